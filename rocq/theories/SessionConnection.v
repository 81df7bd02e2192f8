(** * The connection of a session (C120)

    [use_connection], [use_scope], [use_location] (/repo/src/reactpy/core/hooks.py:367-386) in a layout as it is made for a
    websocket (/repo/src/reactpy/executors/asgi/middleware.py:231-245), on the layout model (LayoutModel.v). *)
From Coq Require Import String ZArith Bool Arith Lia List.
From Verif Require Import Dict LayoutTypes LayoutModel BodySpec DisplaySpec GuardSpec LayoutObs LayoutHistory HooksModel LayoutDemo LayoutProps.
Import ListNotations.
Local Open Scope string_scope.
Local Open Scope list_scope.

(** [Connection] and [Location], /repo/src/reactpy/types.py:1088-1122. Simplified: a connection is a tuple of its three attributes, a location one of its two. *)
Definition connection (scope path query carrier : val) : val := VPair scope (VPair (VPair path query) carrier).
Definition scope_of (v : val) : option val := match v with VPair scope _ => Some scope | _ => None end.
Definition location_of (v : val) : option val := match v with VPair _ (VPair location _) => Some location | _ => None end.

Section Hooks.
(** [ConnectionContext], hooks.py:367, with the default [None]. *)
Variable ctx : nat.
(** [use_connection], hooks.py:370-376. *)
Definition use_connection (k : val -> body) : body :=
  use_context ctx VNone (fun v => match v with VNone => BRaise "No backend established a connection." | v => k v end).
(** [use_scope], hooks.py:379-381. *)
Definition use_scope (k : val -> body) : body := use_connection (fun v => match scope_of v with Some x => k x | None => BRaise "AttributeError" end).
(** [use_location], hooks.py:384-386. *)
Definition use_location (k : val -> body) : body := use_connection (fun v => match location_of v with Some x => k x | None => BRaise "AttributeError" end).
(** [Layout(ConnectionContext(component(), value=connection))], middleware.py:242. *)
Definition session (conn : val) (component : cinst) : cinst := Cinst (CTContext ctx) None conn [RComp component].

(** ** Specification *)
(** The types of the mounted components. *)
Fixpoint types (n : inst) : list ctype :=
  match n with
  | IElem l => flat_map (fun kn => types (snd kn)) l
  | IComp _ ty l => ty :: flat_map (fun kn => types (snd kn)) l
  end.
(** The application does not provide another connection. *)
Definition one_connection (n : inst) : Prop := exists l, types n = CTContext ctx :: l /\ ~ In (CTContext ctx) l.
(** The program in which the connection is the constant [v]. *)
Fixpoint fixed (v : val) (b : body) : body :=
  match b with
  | BRet r => BRet r
  | BRaise msg => BRaise msg
  | BUseCell init k => BUseCell init (fun h i c => fixed v (k h i c))
  | BSetCell i c k => BSetCell i c (fixed v k)
  | BAddEffect e k => BAddEffect e (fixed v k)
  | BContext c k => if Nat.eqb c ctx then fixed v (k (Some v)) else BContext c (fun o => fixed v (k o))
  | BProvide c x k => BProvide c x (fixed v k)
  | BDispatch h i u k => BDispatch h i u (fixed v k)
  end.

(** ** C120 *)
Section Seen.
Variable see : nat -> nat -> option val.
Notation outs := (fun h c env (_ : fate) => forall y, see h y = visible c env y).
Lemma passes v env c : env ctx = v -> ci_type c <> CTContext ctx -> visible c env ctx = v.
Proof.
  intros E T. unfold visible. destruct (ci_type c) as [t|x]; [exact E|]. unfold ctx_set. destruct (Nat.eq_dec ctx x) as [->|]; [congruence|exact E].
Qed.
Lemma below v :
  forall env r M n binds, displays outs env r M n binds -> env ctx = v -> ~ In (CTContext ctx) (types n) -> forall h, In h (ids n) -> see h ctx = v.
Proof.
  refine (fix F env r M n binds (D : displays outs env r M n binds) {struct D} := _).
  assert (G : forall env i l ms ns bs, displays_all outs env i l ms ns bs -> env ctx = v -> ~ In (CTContext ctx) (flat_map (fun kn => types (snd kn)) ns) ->
    forall h, In h (flat_map (fun kn => ids (snd kn)) ns) -> see h ctx = v).
  { refine (fix G env i l ms ns bs (D : displays_all outs env i l ms ns bs) {struct D} := _). destruct D as [env i|env i l ms ns bs D|env i t l ms ns bs D|env i r' l m ms n' ns b bs D1 D2]; intros E N h I.
    - destruct I.
    - exact (G _ _ _ _ _ _ D E N h I).
    - exact (G _ _ _ _ _ _ D E N h I).
    - cbn [flat_map snd] in *. apply in_app_or in I. destruct I as [I|I].
      + apply (F _ _ _ _ _ D1 E); [|exact I]. intros T. apply N. apply in_or_app. left. exact T.
      + apply (G _ _ _ _ _ _ D2 E); [|exact I]. intros T. apply N. apply in_or_app. right. exact T. }
  destruct D as [env tag attrs hs js imp ch attrs' eh own ms ns bs A B D|env c h0 out ms ns bs O D|env c h0 e text O]; intros E N h I.
  - cbn [ids types] in *. exact (G _ _ _ _ _ _ D E N h I).
  - cbn [ids types] in *. assert (T : ci_type c <> CTContext ctx) by (intros T; apply N; left; exact T). destruct I as [<-|I]; [rewrite O; apply (passes v); assumption|].
    apply (G _ _ _ _ _ _ D); [apply (passes v); assumption|intros T'; apply N; right; exact T'|exact I].
  - cbn [ids types] in *. assert (T : ci_type c <> CTContext ctx) by (intros T; apply N; left; exact T). destruct I as [<-|[]]. rewrite O. apply (passes v); assumption.
Qed.
Lemma below_all v env i l ms ns bs : displays_all outs env i l ms ns bs -> env ctx = v -> ~ In (CTContext ctx) (flat_map (fun kn => types (snd kn)) ns) ->
  forall h, In h (flat_map (fun kn => ids (snd kn)) ns) -> see h ctx = v.
Proof.
  revert env i l ms ns bs. refine (fix G env i l ms ns bs (D : displays_all outs env i l ms ns bs) {struct D} := _). destruct D as [env i|env i l ms ns bs D|env i t l ms ns bs D|env i r' l m ms n' ns b bs D1 D2]; intros E N h I.
  - destruct I.
  - exact (G _ _ _ _ _ _ D E N h I).
  - exact (G _ _ _ _ _ _ D E N h I).
  - cbn [flat_map snd] in *. apply in_app_or in I. destruct I as [I|I].
    + apply (below v _ _ _ _ _ D1 E); [|exact I]. intros T. apply N. apply in_or_app. left. exact T.
    + apply (G _ _ _ _ _ _ D2 E); [|exact I]. intros T. apply N. apply in_or_app. right. exact T.
Qed.
End Seen.

Lemma hook_reads h s v : dget ctx (hk_ctx (get_hook h s)) = v -> forall k, run_body h (use_connection k) s = run_body h (match v with None | Some VNone => BRaise "No backend established a connection." | Some v => k v end) s.
Proof. intros E k. unfold use_connection, use_context. cbn [run_body]. unfold bind at 1, gets. rewrite E. destruct v as [[]|]; reflexivity. Qed.

(** In the layout made for a websocket, whatever happened before, a component that is rendered gets the scope and the location of that
    websocket, as long as the application does not provide another connection. *)
Theorem C120_session : forall debug defs component ops s n scope path query carrier,
  steady_app defs ->
  history debug defs (session (connection scope path query carrier) component) ops s -> mild_failures (s_log s) ->
  mounted s = Some n -> updates (s_log s) <> [] -> one_connection n ->
  forall h, In h (ids n) -> forall k,
    run_body h (use_connection k) s = run_body h (k (connection scope path query carrier)) s /\
    run_body h (use_scope k) s = run_body h (k scope) s /\
    run_body h (use_location k) s = run_body h (k (VPair path query)) s.
Proof.
  intros debug defs component ops s n scope path query carrier SA H MF MT U (l & T & N) h I.
  destruct (C12_nearest_provider _ _ _ _ _ _ SA H MF MT U) as (M & binds & _ & D).
  assert (E : dget ctx (hk_ctx (get_hook h s)) = Some (connection scope path query carrier)).
  { assert (V : visible (session (connection scope path query carrier) component) no_ctx ctx = Some (connection scope path query carrier)).
    { unfold visible, session, ctx_set. cbn. destruct (Nat.eq_dec ctx ctx); [reflexivity|congruence]. }
    inversion D; subst.
    - cbn [types ids] in *. injection T as T. rewrite <- T in N. destruct I as [<-|I]; [rewrite <- V; auto|].
      match goal with X : displays_all _ _ _ _ _ _ _ |- _ => exact (below_all (fun h y => dget y (hk_ctx (get_hook h s))) _ _ _ _ _ _ _ X V N h I) end.
    - cbn [types ids] in *. destruct I as [<-|[]]. rewrite <- V. auto. }
  intros k. split; [|split]; [|unfold use_scope|unfold use_location]; rewrite (hook_reads _ _ _ E); reflexivity.
Qed.

Lemma fixed_prun v h first b : no_provide b -> forall cells env idx, env ctx = Some v -> prun h first cells env idx (fixed v b) = prun h first cells env idx b.
Proof.
  induction b as [r|msg|init k IH|i c k IH|e k IH|c k IH|c x k IH|h' i u k IH]; intros NP cells env idx E; cbn [fixed prun no_provide] in *; try reflexivity; try (apply IH; assumption).
  - destruct first; [apply IH; auto|]. destruct (nth_error cells idx); [apply IH; auto|reflexivity].
  - destruct (Nat.eqb_spec c ctx) as [X|X]; [|cbn [prun]; apply IH; auto]. rewrite X, E. apply IH; auto.
  - destruct NP.
  - destruct (Nat.eq_dec h' h); [|apply IH; auto]. destruct (nth_error cells i) as [[]|]; try (apply IH; assumption). destruct (veq _ _); [apply IH; auto|]. rewrite IH; auto.
Qed.
Lemma fixed_current debug defs v s h c env out : (forall n p l, no_provide (defs n p l)) -> (forall t, ci_type c = CTUser t -> env ctx = Some v) ->
  current debug defs s h c env out -> current debug (fun n p l => fixed v (defs n p l)) s h c env out.
Proof.
  intros NP E [Q|R]; [left; exact Q|right]. destruct out as [r|e text]; [|exact R]. destruct R as (R & F). split; [|exact F].
  unfold program in *. unfold visible in *. destruct (ci_type c) as [t|x] eqn:T; [|exact R]. destruct R as (cells & env' & ch & R). exists cells, env', ch. rewrite fixed_prun; eauto.
Qed.
Section Page.
Variables (debug : bool) (defs : nat -> val -> list raw -> body) (v : val) (s : st).
Hypothesis NP : forall n p l, no_provide (defs n p l).
Notation P := (current debug defs s).
Notation Q := (current debug (fun n p l => fixed v (defs n p l)) s).
Lemma page_below : forall env r M n binds, displays P env r M n binds -> env ctx = Some v -> ~ In (CTContext ctx) (types n) -> displays Q env r M n binds
with page_all : forall env i l ms ns bs, displays_all P env i l ms ns bs -> env ctx = Some v -> ~ In (CTContext ctx) (flat_map (fun kn => types (snd kn)) ns) -> displays_all Q env i l ms ns bs.
Proof.
  - intros env r M n binds D. destruct D as [env tag attrs hs js imp ch attrs' eh own ms ns bs A B D|env c h0 out ms ns bs O D|env c h0 e text O]; intros E N.
    + constructor; [exact A|exact B|]. exact (page_all _ _ _ _ _ _ D E N).
    + cbn [types] in N. assert (T : ci_type c <> CTContext ctx) by (intros T; apply N; left; exact T).
      econstructor; [apply fixed_current; [exact NP|intros; exact E|exact O]|]. apply (page_all _ _ _ _ _ _ D); [apply passes; assumption|intros T'; apply N; right; exact T'].
    + apply (D_fail _ env c h0 e text). apply fixed_current; [exact NP|intros; exact E|exact O].
  - intros env i l ms ns bs D. destruct D as [env i|env i l ms ns bs D|env i t l ms ns bs D|env i r' l m ms n' ns b bs D1 D2]; intros E N.
    + constructor.
    + constructor. exact (page_all _ _ _ _ _ _ D E N).
    + constructor. exact (page_all _ _ _ _ _ _ D E N).
    + cbn [flat_map snd] in N. constructor.
      * apply (page_below _ _ _ _ _ D1 E). intros T. apply N. apply in_or_app. left. exact T.
      * apply (page_all _ _ _ _ _ _ D2 E). intros T. apply N. apply in_or_app. right. exact T.
Qed.
End Page.

(** The browser shows what the application displays when the connection is a constant of its program: that of this session. *)
Theorem C120_page : forall debug defs component ops s n conn,
  steady_app defs ->
  history debug defs (session conn component) ops s -> mild_failures (s_log s) ->
  mounted s = Some n -> updates (s_log s) <> [] -> one_connection n ->
  exists M binds, client (updates (s_log s)) = Some (Some M) /\
    displays (current debug (fun n p l => fixed conn (defs n p l)) s) no_ctx (RComp (session conn component)) M n binds.
Proof.
  intros debug defs component ops s n conn SA H MF MT U (l & T & N).
  destruct (C02_client_mirrors _ _ _ _ _ _ H MF MT U) as (M & binds & C & _ & D). specialize (D SA). exists M, binds. split; [exact C|].
  assert (V : visible (session conn component) no_ctx ctx = Some conn) by (unfold visible, session, ctx_set; cbn; destruct (Nat.eq_dec ctx ctx); [reflexivity|congruence]).
  destruct SA as (_ & NP). inversion D; subst.
  - cbn [types] in T. injection T as T. rewrite <- T in N. apply D_comp with (out := out) (c := session conn component).
    + apply fixed_current; [exact NP|intros t X; discriminate X|assumption].
    + apply page_all; assumption.
  - apply (D_fail _ no_ctx (session conn component) h e text). apply fixed_current; [exact NP|intros t X; discriminate X|assumption].
Qed.

(** Where nobody provides a connection the three hooks raise. *)
Theorem C120_no_backend : forall debug defs root ops s n,
  steady_app defs ->
  history debug defs root ops s -> mild_failures (s_log s) ->
  mounted s = Some n -> updates (s_log s) <> [] -> ~ In (CTContext ctx) (types n) ->
  forall h, In h (ids n) -> forall k b, In b [use_connection k; use_scope k; use_location k] ->
    run_body h b s = run_body h (BRaise "No backend established a connection.") s.
Proof.
  intros debug defs root ops s n SA H MF MT U N h I k b B.
  destruct (C12_nearest_provider _ _ _ _ _ _ SA H MF MT U) as (M & binds & _ & D).
  assert (E : dget ctx (hk_ctx (get_hook h s)) = None) by exact (below (fun h y => dget y (hk_ctx (get_hook h s))) _ _ _ _ _ _ D eq_refl N h I).
  destruct B as [<-|[<-|[<-|[]]]]; [|unfold use_scope|unfold use_location]; rewrite (hook_reads _ _ _ E); reflexivity.
Qed.
End Hooks.
Print Assumptions C120_session.
Print Assumptions C120_page.
Print Assumptions C120_no_backend.

(** A component that shows the path of the page, in a session and alone. *)
Definition shows_path (n : nat) (p : val) (kids : list raw) : body :=
  use_location 9 (fun v => BRet (RText match v with VPair (VStr path) _ => path | _ => "" end)).
Definition page : cinst := Cinst (CTUser 0) None VNone [].
Definition conn : val := connection VNone (VStr "/home") (VStr "") VNone.
Lemma shows_steady : steady_app shows_path.
Proof.
  split; intros n p l.
  - intros h first cells ctx r cells' ctx' b P. unfold shows_path, use_location, use_connection, use_context in *. cbn [prun] in *.
    destruct (ctx 9) as [[| | | |a c|]|] eqn:E; cbn in P; try discriminate P. destruct c as [| | | |x y|]; cbn in P; try discriminate P. injection P as <- <- <-.
    exists cells, ctx, false. cbn [prun]. rewrite E. reflexivity.
  - cbn. intros [[| | | |a c|]|]; cbn; auto. destruct c; cbn; auto.
Qed.
Example C120_shown : exists s n, history true shows_path (session 9 conn page) [ORender []] s /\ steady_app shows_path /\ mild_failures (s_log s) /\
  mounted s = Some n /\ updates (s_log s) <> [] /\ one_connection 9 n /\ ids n = [0; 1] /\ In (EvReturn 1 (RText "/home")) (s_log s).
Proof.
  eexists. eexists. split; [exists 20; vm_compute; reflexivity|]. split; [apply shows_steady|].
  split; [apply mild_dec; reflexivity|]. split; [vm_compute; reflexivity|]. split; [vm_compute; discriminate|].
  split; [exists [CTUser 0]; split; [reflexivity|intros [X|[]]; discriminate X]|]. split; [reflexivity|]. vm_compute. tauto.
Qed.
Example C120_alone : exists s n, history true shows_path page [ORender []] s /\ mild_failures (s_log s) /\
  mounted s = Some n /\ updates (s_log s) <> [] /\ ~ In (CTContext 9) (types n) /\ ids n = [0] /\ In (EvError 0 (EUser "No backend established a connection.")) (s_log s).
Proof.
  eexists. eexists. split; [exists 20; vm_compute; reflexivity|]. split; [apply mild_dec; reflexivity|]. split; [vm_compute; reflexivity|].
  split; [vm_compute; discriminate|]. split; [intros [X|[]]; discriminate X|]. split; [reflexivity|]. vm_compute. tauto.
Qed.
