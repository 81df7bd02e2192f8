(** * From the program to the page, and property C93
    Puts together the layout's history (C01, C02), the updates sent, their way to the root of the page (C91), the browser's copy of
    the model (C60) and, for components that run in the browser, the copy (C59) and the document (C85).
    The texts sent are those of [JSON.stringify] and [orjson], which are not modelled: a message is the number of the update it
    carries; a connection delivers what is sent, in order (TCP). *)
From Coq Require Import String Ascii ZArith Bool Arith Lia List.
From Verif Require Import Dict Strings LayoutTypes LayoutModel BodySpec DisplaySpec GuardSpec LayoutObs LayoutTree LayoutDeriv LayoutExec LayoutFacts LayoutSettled LayoutContext LayoutHandlers LayoutShape LayoutOps LayoutNoCrash LayoutStep LayoutInv LayoutMain LayoutLive LayoutPending LayoutRun LayoutClose LayoutHistory DisplayFacts LayoutReach LayoutDemo HooksModel HooksSteady.
From Verif Require ClientModel ClientMessages PyscriptDom.
Import ListNotations.
Local Open Scope string_scope. Local Open Scope list_scope.

(** ** Model *)

Section Encoded.
Context (ev : dict string val -> ClientModel.json) (es : dict string string -> ClientModel.json) (eh : dict string hjson -> ClientModel.json).

(** [Layout]'s handler of the browser, components.tsx:144-152, on the updates it gets; [currentModel] is [{ tagName: "" }] at
    first (line 140). *)
Definition js_model (us : list (list nat * model)) : option (dict string ClientModel.json) :=
  fold_left (fun r u => match r with Some d => ClientModel.js_update (ClientModel.path_string (fst u)) (ClientModel.enc ev es eh (snd u)) d | None => None end)
            us (Some [("tagName", ClientModel.JStr "")]).
(** The same for the messages that the page's operations bring to the root (ClientMessages.v), which carry the numbers of the
    updates sent. *)
Definition browser (us : list (list nat * model)) (l : list ClientMessages.page_op) : option (dict string ClientModel.json) :=
  js_model (flat_map (fun m => match nth_error us (ClientMessages.m_data m) with Some u => [u] | None => [] end)
                     (ClientMessages.root_got (fst (ClientMessages.page_run l)))).

(** ** Specification *)

(** The messages for [n] updates, in order. *)
Definition frames (n : nat) : list ClientMessages.message := map (ClientMessages.Msg (Some ClientMessages.layout_update)) (seq 0 n).
(** A connection: the server has rendered a new layout of the root component, up to the state [s]. *)
Definition connection debug defs root (s : st) : Prop := exists ops, history debug defs root ops s /\ mild_failures (s_log s).
(** The error of a failed root component. *)
Definition failed (m : model) : Prop := match m with MNode _ _ _ _ _ _ (Some _) => True | _ => False end.
(** The models after each of the updates. *)
Fixpoint models (M : option (option model)) (us : list (list nat * model)) : list model :=
  match us with
  | [] => []
  | u :: r => match client_step M u with Some (Some x) => [x] | _ => [] end ++ models (client_step M u) r
  end.

(** ** Proofs *)

(** What a root component sends when it has not failed. *)
Definition sound (m : model) : Prop := exists ch, m = MNode "" None None None None (Some ch) None.

Lemma sound_enc m : sound m -> exists l, ClientModel.enc ev es eh m = ClientModel.JObj [("tagName", ClientModel.JStr ""); ("children", ClientModel.JArr l)].
Proof. intros [ch ->]. cbn. eauto. Qed.

Lemma js_root m d : sound m -> (exists x, d = [("tagName", x)] \/ exists y, d = [("tagName", x); ("children", y)]) ->
  exists d', ClientModel.js_update "" (ClientModel.enc ev es eh m) d = Some d' /\ ClientModel.JObj d' = ClientModel.enc ev es eh m.
Proof.
  intros S D. destruct (sound_enc m S) as [l E]. rewrite E. unfold ClientModel.js_update. cbn [String.eqb].
  destruct D as [x [->|[y ->]]]; eexists; split; reflexivity.
Qed.

Lemma put_sound i p m M M' : sound M -> put_at (i :: p) m M = Some M' -> sound M'.
Proof.
  intros [ch ->] H. cbn [put_at] in H. destruct (nth_error ch i); [|discriminate]. destruct (put_at p m m0); [|discriminate].
  injection H as <-. eexists; reflexivity.
Qed.

(** A client that never got an update it could not apply. *)
Definition applies (us : list (list nat * model)) : Prop := forall us', (exists r, us = us' ++ r) -> client us' <> Some None.

Lemma js_model_exact us : forall M, applies us -> (forall m, In ([], m) us -> sound m) -> client us = Some (Some M) ->
  sound M /\ exists d, js_model us = Some d /\ ClientModel.JObj d = ClientModel.enc ev es eh M.
Proof.
  induction us as [|[p m] us IH] using rev_ind; intros M A S C; [discriminate|].
  assert (A' : applies us) by (intros us' [r R]; apply A; exists (r ++ [(p, m)]); rewrite R, app_assoc; reflexivity).
  assert (S' : forall m, In ([], m) us -> sound m) by (intros x I; apply S, in_or_app; left; exact I).
  unfold client in C. rewrite fold_left_app in C. cbn [fold_left] in C. fold (client us) in C.
  unfold js_model. rewrite fold_left_app. cbn [fold_left fst snd]. fold (js_model us).
  destruct p as [|i p].
  - unfold client_step in C. cbn [fst snd] in C. injection C as <-.
    assert (Sm : sound m) by (apply S, in_or_app; right; left; reflexivity). split; [exact Sm|].
    change (ClientModel.path_string []) with "".
    destruct us as [|u us0] eqn:Eu.
    + apply js_root; [exact Sm|]. eexists; left; reflexivity.
    + rewrite <- Eu in *. assert (X : exists M0, client us = Some (Some M0)).
      { destruct (client us) as [[M0|]|] eqn:C0; [eauto|exfalso; apply (A us); [exists [([], m)]; reflexivity|exact C0]|].
        exfalso. rewrite Eu in C0. clear -C0. revert C0. rewrite <- (rev_involutive (u :: us0)). destruct (rev (u :: us0)) as [|v r] eqn:R.
        - apply (f_equal (@length _)) in R. rewrite rev_length in R. discriminate.
        - cbn [rev]. unfold client. rewrite fold_left_app. cbn [fold_left]. unfold client_step at 1. destruct (fst v), (fold_left client_step (rev r) None) as [[?|]|]; discriminate. }
      destruct X as [M0 C0]. destruct (IH M0 A' S' C0) as [S0 (d & E & F)]. rewrite E.
      apply js_root; [exact Sm|]. destruct (sound_enc M0 S0) as [l E0]. rewrite E0 in F. injection F as ->. eexists; right; eexists; reflexivity.
  - destruct (client us) as [[M0|]|] eqn:C0; cbn in C; try discriminate. injection C as C.
    destruct (IH M0 A' S' eq_refl) as [S0 (d & E & F)]. split; [exact (put_sound _ _ _ _ _ S0 C)|]. rewrite E.
    exact (ClientModel.C60_nested ev es eh i p m M0 M d (eq_sym F) C).
Qed.

(** *** The updates of a layout *)

Lemma history_snoc debug defs root ops o s : history debug defs root (ops ++ [o]) s ->
  exists s0, history debug defs root ops s0 /\ next debug defs s0 o s.
Proof.
  intros [f R]. rewrite run_app in R. destruct (run debug defs f ops (init root)) as [s0|] eqn:E; [|discriminate].
  exists s0. split; [exists f; exact E|]. cbn [run] in R. destruct (step debug defs f o s0) as [s1|] eqn:E1; [|discriminate].
  injection R as <-. exists f; exact E1.
Qed.
Lemma next_mild debug defs s o s' : next debug defs s o s' -> mild_failures (s_log s') -> mild_failures (s_log s).
Proof. intros [f ST] NE. exact (LayoutDeriv.no_err_ext s s' (step_ext debug defs f o s s' ST) NE). Qed.

Lemma displays_root outputs root M n b : displays outputs no_ctx (RComp root) M n b -> sound M \/ failed M.
Proof. intros D. inversion D; subst; [left; eexists; reflexivity|right; exact I]. Qed.

Lemma client_snoc us u : client (us ++ [u]) = client_step (client us) u.
Proof. unfold client. rewrite fold_left_app. reflexivity. Qed.

Lemma update_node debug defs root ops s o s' p m : history debug defs root ops s -> next debug defs s o s' -> mild_failures (s_log s') ->
  updates (s_log s') = updates (s_log s) ++ [(p, m)] -> ClientModel.is_node m.
Proof.
  intros H NX NF E. destruct (hist_next debug defs root _ _ _ _ H NX NF) as (T & T' & A & SP & A').
  pose proof (b_inv _ _ _ (al_base _ _ _ _ A)) as I.
  destruct (stepped_log defs root _ _ _ _ _ I SP) as [(-> & [sk L] & _)|(sk & l & t & s2 & u & told & C & h & L & ET & ET' & Eu & IC & Hh & L2 & L3 & L4 & X)].
  - exfalso. rewrite L, updates_app, updates_skips, app_nil_r in E. apply (f_equal (@length _)) in E. rewrite app_length in E. cbn in E. lia.
  - rewrite L, !updates_app, updates_skips, updates_effects, (updates_ru l L4) in E. cbn in E.
    apply app_inj_tail in E. destruct E as [_ E]. injection E as <- <-.
    assert (Ic : is_comp t) by tauto. destruct t; try destruct Ic. cbn. destruct out; exact Logic.I.
Qed.

Lemma layout_updates debug defs root ops : forall s, history debug defs root ops s -> mild_failures (s_log s) ->
  (forall m, In ([], m) (updates (s_log s)) -> sound m \/ failed m) /\ applies (updates (s_log s)) /\
  (forall p m r, updates (s_log s) = (p, m) :: r -> p = []) /\ (forall u, In u (updates (s_log s)) -> ClientModel.is_node (snd u)).
Proof.
  induction ops as [|o ops IH] using rev_ind; intros s H NF.
  - destruct H as [f R]. cbn in R. injection R as <-. cbn. split; [intros m []|]. split; [|split; [discriminate|intros u []]].
    intros us' [r E]. destruct us'; [discriminate|discriminate].
  - destruct (history_snoc _ _ _ _ _ _ H) as (s0 & H0 & NX). pose proof (next_mild _ _ _ _ _ NX NF) as NF0.
    destruct (IH s0 H0 NF0) as (I1 & I2 & I3 & I4). destruct (reach_updates debug defs root ops s0 o s H0 NX NF) as [E|(p & m & E)].
    + rewrite E. auto.
    + rewrite E. destruct (reach_mounted debug defs root _ s H NF) as [n MT].
      assert (NE : updates (s_log s) <> []) by (rewrite E; destruct (updates (s_log s0)); discriminate).
      destruct (reach_display debug defs root _ s n H NF MT (or_introl NE)) as (M & b & C & D & _).
      rewrite E in C. split; [|split; [|split]].
      * intros x I. apply in_app_or in I. destruct I as [I|[I|[]]]; [apply I1; exact I|]. injection I as -> ->.
        rewrite client_snoc in C. unfold client_step in C. cbn [fst snd] in C. injection C as ->. exact (displays_root _ _ _ _ _ D).
      * intros us' [r R]. destruct r as [|v r] using rev_ind.
        -- rewrite app_nil_r in R. rewrite <- R, C. discriminate.
        -- rewrite app_assoc in R. apply app_inj_tail in R. destruct R as [R _]. apply I2. exists r; exact R.
      * intros q x r R. destruct (updates (s_log s0)) as [|[q0 x0] r0] eqn:E0.
        -- cbn in R. injection R as -> -> <-. cbn in C. unfold client_step in C. cbn [fst snd] in C. destruct q; [reflexivity|discriminate].
        -- cbn in R. injection R as -> -> <-. exact (I3 _ _ _ eq_refl).
      * intros u I. apply in_app_or in I. destruct I as [I|[<-|[]]]; [apply I4; exact I|]. exact (update_node _ _ _ _ _ _ _ _ _ H0 NX NF E).
Qed.

(** After a root update, what came before does not matter. *)
Lemma client_restart us p m r : p = [] -> client (us ++ (p, m) :: r) = client ((p, m) :: r).
Proof. intros ->. unfold client. rewrite fold_left_app. reflexivity. Qed.

Lemma applies_app us vs : applies us -> applies vs -> (forall p m r, vs = (p, m) :: r -> p = []) -> applies (us ++ vs).
Proof.
  intros A B R us' [r E]. destruct (le_lt_dec (length us') (length us)) as [L|L].
  - apply A. exists (skipn (length us') us). 
    assert (E1 : us' = firstn (length us') us).
    { apply (f_equal (firstn (length us'))) in E. rewrite !firstn_app, firstn_all, Nat.sub_diag in E. replace (length us' - length us) with 0 in E by lia.
      cbn in E. rewrite !app_nil_r in E. symmetry; exact E. }
    rewrite E1 at 1. symmetry; apply firstn_skipn.
  - assert (E1 : exists t, us' = us ++ t /\ vs = t ++ r).
    { exists (skipn (length us) us'). assert (F : us = firstn (length us) us').
      { apply (f_equal (firstn (length us))) in E. rewrite !firstn_app, firstn_all, Nat.sub_diag in E. replace (length us - length us') with 0 in E by lia.
        cbn in E. rewrite !app_nil_r in E. exact E. }
      split; [rewrite F at 1; symmetry; apply firstn_skipn|].
      apply (f_equal (skipn (length us))) in E. rewrite !skipn_app, skipn_all, Nat.sub_diag in E. replace (length us - length us') with 0 in E by lia. exact E. }
    destruct E1 as (t & -> & Ev). destruct t as [|[p m] t]; [rewrite app_nil_r in L; lia|].
    rewrite client_restart; [|exact (R p m _ Ev)]. apply B. exists r; exact Ev.
Qed.

Lemma connections_updates debug defs root ss : Forall (connection debug defs root) ss ->
  let us := flat_map (fun s => updates (s_log s)) ss in
  (forall m, In ([], m) us -> sound m \/ failed m) /\ applies us /\ (forall p m r, us = (p, m) :: r -> p = []).
Proof.
  induction 1 as [|s ss [ops [H NF]] F IH]; cbn [flat_map].
  - split; [intros m []|]. split; [|discriminate]. intros us' [r E]. destruct us'; discriminate.
  - destruct (layout_updates _ _ _ _ _ H NF) as (A1 & A2 & A3 & _). destruct IH as (B1 & B2 & B3). split; [|split].
    + intros m I. apply in_app_or in I. destruct I; auto.
    + apply applies_app; assumption.
    + intros p m r E. destruct (updates (s_log s)) as [|[q x] t]; [exact (B3 _ _ _ E)|]. cbn in E. injection E as -> -> _. exact (A3 _ _ _ eq_refl).
Qed.

Lemma frames_all (us : list (list nat * model)) : flat_map (fun m => match nth_error us (ClientMessages.m_data m) with Some u => [u] | None => [] end) (frames (length us)) = us.
Proof.
  unfold frames. rewrite flat_map_concat_map, map_map. cbn [ClientMessages.m_data].
  assert (G : forall pre l : list (list nat * model), concat (map (fun i => match nth_error (pre ++ l) i with Some u => [u] | None => [] end) (seq (length pre) (length l))) = l).
  { intros pre l. revert pre. induction l as [|u l IH]; intros pre; [reflexivity|]. cbn [length seq map concat].
    rewrite nth_error_app2 by lia. rewrite Nat.sub_diag. cbn [nth_error app]. f_equal.
    specialize (IH (pre ++ [u])). rewrite <- app_assoc, app_length, Nat.add_1_r in IH. exact IH. }
  exact (G [] us).
Qed.

(** C93 *)
(** In a page that is connected to a component, after any number of lost connections: once the root of the page got all updates
    of the last connection, in whatever order effects, jobs and other messages came meanwhile, the browser's model is the server's,
    which displays the component; and if no render is pending, it displays what the program returns on its current state. *)
Theorem C93_browser_partial : forall debug defs root before s us l1 l2 n,
  Forall (connection debug defs root) (before ++ [s]) -> updates (s_log s) <> [] -> mounted s = Some n ->
  us = flat_map (fun s => updates (s_log s)) (before ++ [s]) ->
  (forall m, In ([], m) us -> ~ failed m) ->
  ClientMessages.no_root l1 -> ClientMessages.no_root l2 ->
  filter ClientMessages.is_update (ClientMessages.came (ClientMessages.start, false) (l1 ++ ClientMessages.Effect :: l2)) = frames (length us) ->
  exists d M,
    browser us (l1 ++ ClientMessages.Effect :: l2) = Some d /\ ClientModel.JObj d = ClientModel.enc ev es eh M /\
    client (updates (s_log s)) = Some (Some M) /\
    (exists binds, displays (fun _ _ _ _ => True) no_ctx (RComp root) M n binds) /\
    (steady_app defs -> quiescent s n -> exists binds, displays (right debug defs s) no_ctx (RComp root) M n binds).
Proof.
  intros debug defs root before s us l1 l2 n F U MT -> NFail N1 N2 W.
  destruct (connections_updates debug defs root _ F) as (S & A & _).
  assert (Fs : connection debug defs root s) by (rewrite Forall_forall in F; apply F, in_or_app; right; left; reflexivity).
  destruct Fs as [ops [H NF]].
  destruct (reach_display debug defs root ops s n H NF MT (or_introl U)) as (M & b & C & D & _).
  set (us := flat_map (fun s => updates (s_log s)) (before ++ [s])) in *.
  assert (CL : client us = Some (Some M)).
  { unfold us. rewrite flat_map_app. cbn [flat_map]. rewrite app_nil_r. destruct (updates (s_log s)) as [|[p m] r] eqn:E; [contradiction|].
    rewrite client_restart; [exact C|]. destruct (layout_updates _ _ _ _ _ H NF) as (_ & _ & X & _). exact (X p m r E). }
  destruct (js_model_exact us M A) as [_ (d & E1 & E2)]; [|exact CL|].
  { intros m I. destruct (S m I) as [X|X]; [exact X|destruct (NFail m I X)]. }
  exists d, M. split; [|split; [exact E2|split; [exact C|split; [exists b; exact D|]]]].
  - unfold browser. destruct (ClientMessages.C91_no_update_lost l1 l2 N1 N2) as [G _]. rewrite G, W, frames_all. exact E1.
  - intros SA Q. destruct (reach_quiescent debug defs root ops s n SA H NF MT Q) as (M' & b' & C' & D'). rewrite C in C'. injection C' as <-. eauto.
Qed.

(** *** Components that run in the browser *)

Lemma models_last us : forall M0 M, fold_left client_step us M0 = Some (Some M) -> us <> [] -> exists ms, models M0 us = ms ++ [M].
Proof.
  induction us as [|u us IH]; intros M0 M E N; [contradiction|]. cbn [models fold_left] in *. destruct us as [|v us].
  - cbn in E. rewrite E. exists []. reflexivity.
  - destruct (IH _ _ E ltac:(discriminate)) as [ms ->]. eexists. rewrite app_assoc. reflexivity.
Qed.

(** The document shows the component: for models with attributes that are written rightly ([plain]); listeners apart (C85). *)
Theorem C93_pyscript_partial : forall debug defs root ops s n items other,
  history debug defs root ops s -> mild_failures (s_log s) -> updates (s_log s) <> [] -> mounted s = Some n ->
  Forall (PyscriptDom.plain items) (models None (updates (s_log s))) ->
  exists d M page,
    ClientModel.pyscript ev es eh (updates (s_log s)) = Some d /\ ClientModel.JObj d = ClientModel.enc ev es eh M /\
    client (updates (s_log s)) = Some (Some M) /\
    PyscriptDom.pages items other (models None (updates (s_log s))) = Some page /\ PyscriptDom.shown items other false M page /\
    (exists binds, displays (fun _ _ _ _ => True) no_ctx (RComp root) M n binds) /\
    (steady_app defs -> quiescent s n -> exists binds, displays (right debug defs s) no_ctx (RComp root) M n binds).
Proof.
  intros debug defs root ops s n items other H NF U MT P.
  destruct (reach_display debug defs root ops s n H NF MT (or_introl U)) as (M & b & C & D & _).
  destruct (layout_updates _ _ _ _ _ H NF) as (_ & A & _ & ND).
  destruct (models_last _ _ _ C U) as [ms E]. rewrite E in P.
  destruct (PyscriptDom.C85_shown_partial items other ms M P) as (page & E1 & E2).
  destruct (ClientModel.C59_history ev es eh (updates (s_log s)) M ND A C) as (d & E3 & E4).
  exists d, M, page. rewrite E. split; [exact E3|]. split; [exact E4|]. split; [exact C|]. split; [exact E1|]. split; [exact E2|]. split; [exists b; exact D|].
  intros SA Q. destruct (reach_quiescent debug defs root ops s n SA H NF MT Q) as (M' & b' & C' & D'). rewrite C in C'. injection C' as <-. eauto.
Qed.
End Encoded.

(** Finding: the guard of the first theorem is needed. A root component that raises at first and then returns a text: at the end the
    server's model shows the text, and the page still shows the error and nothing else. *)
Definition late_root (n : nat) (p : val) (kids : list raw) : body := compile flaky_prog.
Definition late_ops : list op := [ORender []; OEnv (EDispatch 0 0 (UVal (VInt 1))); ORender []].
Definition late_end : st := Eval vm_compute in match run true late_root 40 late_ops (init demo_root) with Some s => s | None => init demo_root end.
Theorem C93_failed_root_refuted : forall ev es eh,
  history true late_root demo_root late_ops late_end /\ mild_failures (s_log late_end) /\ steady_app late_root /\
  (exists n, mounted late_end = Some n /\ quiescent late_end n) /\
  let l := [ClientMessages.Effect; ClientMessages.Jobs] ++ map ClientMessages.Frame (frames 2) in
  filter ClientMessages.is_update (ClientMessages.came (ClientMessages.start, false) l) = frames (length (updates (s_log late_end))) /\
  client (updates (s_log late_end)) = Some (Some (MNode "" None None None None (Some [MText "ready"]) None)) /\
  exists d, browser ev es eh (updates (s_log late_end)) l = Some d /\ dget "error" d = Some (ClientModel.JStr "not ready").
Proof.
  intros ev es eh. split; [exists 40; vm_compute; reflexivity|]. split; [apply mild_dec; reflexivity|].
  split. { split; intros; [apply compile_steady; intros h; simpl; auto; intros v; destruct (veq v (VInt 0)); simpl; auto|apply compile_no_provide]. }
  split; [eexists; split; [vm_compute; reflexivity|intros h _ []]|]. cbv zeta. split; [vm_compute; reflexivity|]. split; [vm_compute; reflexivity|].
  eexists. split; vm_compute; reflexivity.
Qed.

(** The hypotheses are met: a connection that was lost half way and a second one at rest, with two other messages on the way. *)
Definition demo_frames (k : nat) : list ClientMessages.page_op :=
  [ClientMessages.Effect; ClientMessages.Jobs; ClientMessages.Frame (ClientMessages.Msg (Some "other") 3)] ++
  map ClientMessages.Frame (frames k) ++ [ClientMessages.Frame (ClientMessages.Msg None 0); ClientMessages.Jobs].
Example C93_demo : forall (ev : dict string val -> ClientModel.json) es eh,
  let us := updates (s_log demo_mid) ++ updates (s_log demo_end) in
  length us = 8 /\ exists n d M,
  browser ev es eh us (ClientMessages.Jobs :: demo_frames 8) = Some d /\ ClientModel.JObj d = ClientModel.enc ev es eh M /\
  mounted demo_end = Some n /\ ids n = [0; 1; 3] /\ texts_in M = ["6"] /\
  exists binds, displays (right true demo demo_end) no_ctx (RComp demo_root) M n binds.
Proof.
  intros ev es eh us. split; [vm_compute; reflexivity|].
  destruct (mounted demo_end) as [n|] eqn:MT; [|vm_compute in MT; discriminate].
  destruct (C93_browser_partial ev es eh true demo demo_root [demo_mid] demo_end us [ClientMessages.Jobs] (tl (demo_frames 8)) n) as (d & M & A & B & C & _ & D).
  - constructor; [exists demo_ops; split; [exact demo_mid_history|apply mild_dec; reflexivity]|].
    constructor; [exists (demo_ops ++ demo_more); split; [exact demo_end_history|apply mild_dec; reflexivity]|constructor].
  - vm_compute. discriminate.
  - exact MT.
  - unfold us. cbn [flat_map app]. rewrite app_nil_r. reflexivity.
  - intros m I. vm_compute in I. repeat (destruct I as [I|I]; [injection I as <- || discriminate; intros []|]). destruct I.
  - split; vm_compute; intuition discriminate.
  - split; vm_compute; intuition discriminate.
  - vm_compute. reflexivity.
  - exists n, d, M. split; [exact A|]. split; [exact B|]. split; [reflexivity|].
    assert (Q : ids n = [0; 1; 3]) by (vm_compute in MT; injection MT as <-; reflexivity). split; [exact Q|].
    split; [vm_compute in C; injection C as <-; reflexivity|]. apply D; [exact demo_steady|].
    intros h J K. rewrite Q in J. vm_compute in J, K. intuition (subst; discriminate).
Qed.

Lemma demo_plain : Forall (PyscriptDom.plain PyscriptDom.no_items) (models None (updates (s_log demo_end))).
Proof.
  vm_compute (models _ _).
  repeat first
    [ apply Forall_nil | apply Forall_cons | apply PyscriptDom.plain_text
    | apply PyscriptDom.plain_node; [split; [cbn; repeat constructor; cbn; intuition discriminate|]|cbn]
    | solve [intros k v I; cbn in I; repeat (destruct I as [I|I]; [injection I as <- <-; cbn; split; [exact Logic.I|split; [cbn; intuition discriminate|cbn; discriminate]]|]); destruct I] ].
Qed.
Example C93_demo_pyscript : forall (ev : dict string val -> ClientModel.json) es eh, exists d M page n,
  ClientModel.pyscript ev es eh (updates (s_log demo_end)) = Some d /\ ClientModel.JObj d = ClientModel.enc ev es eh M /\ texts_in M = ["6"] /\
  PyscriptDom.pages PyscriptDom.no_items PyscriptDom.no_text (models None (updates (s_log demo_end))) = Some page /\
  PyscriptDom.shown PyscriptDom.no_items PyscriptDom.no_text false M page /\
  exists binds, displays (right true demo demo_end) no_ctx (RComp demo_root) M n binds.
Proof.
  intros ev es eh. destruct (mounted demo_end) as [n|] eqn:MT; [|vm_compute in MT; discriminate].
  assert (Q : ids n = [0; 1; 3]) by (vm_compute in MT; injection MT as <-; reflexivity).
  destruct (C93_pyscript_partial ev es eh true demo demo_root _ demo_end n PyscriptDom.no_items PyscriptDom.no_text demo_end_history) as (d & M & page & A & B & CL & C & D & _ & F).
  - apply mild_dec. reflexivity.
  - vm_compute. discriminate.
  - exact MT.
  - exact demo_plain.
  - exists d, M, page, n. split; [exact A|]. split; [exact B|]. split; [|split; [exact C|split; [exact D|]]].
    + vm_compute in CL. injection CL as <-. reflexivity.
    + apply F; [exact demo_steady|]. intros h J K. rewrite Q in J. vm_compute in J, K. intuition (subst; discriminate).
Qed.

Print Assumptions C93_browser_partial.
Print Assumptions C93_pyscript_partial.
Print Assumptions C93_failed_root_refuted.
