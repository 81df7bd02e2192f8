(** * Event handlers with targets of their own, and property C114
    (/repo/src/reactpy/core/layout.py; /repo/src/reactpy/core/events.py:91-174 [EventHandler(target=…)];
    /repo/src/reactpy/testing/common.py:163-222 [StaticEventHandler])

    Two runs of the layout's model (LayoutModel.v) side by side: of a program that chooses targets, and of the same program without. *)
From Coq Require Import String ZArith Bool Arith Lia List.
From Verif Require Import Dict LayoutTypes LayoutModel BodySpec DisplaySpec GuardSpec LayoutObs LayoutHistory LayoutReach LayoutProps HooksModel HooksSteady LayoutDemo LayoutFindings.
Import ListNotations.
Local Open Scope string_scope.
Local Open Scope list_scope.

(** ** Specification *)
(** The program without targets of its own. *)
Definition bare (h : handler) : handler := Handler (h_fn h) (h_stop h) (h_prevent h) None (h_debounce h) (h_throttle h).
Definition bares (hs : dict string handler) : dict string handler := map (fun eh => (fst eh, bare (snd eh))) hs.
Fixpoint forget (r : raw) : raw :=
  match r with
  | RElem tag attrs hs js imp ch => RElem tag attrs (bares hs) js imp (match ch with Some l => Some (map forget l) | None => None end)
  | RComp c => RComp (forget_c c)
  | RNone => RNone
  | RText s => RText s
  end
with forget_c (c : cinst) : cinst := match c with Cinst ty k p kids => Cinst ty k p (map forget kids) end.
(** The two functions do the same, except for the targets in what they return. *)
Inductive forgets : body -> body -> Prop :=
| FRet r : forgets (BRet r) (BRet (forget r))
| FRaise m : forgets (BRaise m) (BRaise m)
| FUseCell c k k0 : (forall h i x, forgets (k h i x) (k0 h i x)) -> forgets (BUseCell c k) (BUseCell c k0)
| FSetCell i c k k0 : forgets k k0 -> forgets (BSetCell i c k) (BSetCell i c k0)
| FAddEffect e k k0 : forgets k k0 -> forgets (BAddEffect e k) (BAddEffect e k0)
| FContext c k k0 : (forall v, forgets (k v) (k0 v)) -> forgets (BContext c k) (BContext c k0)
| FProvide c v k k0 : forgets k k0 -> forgets (BProvide c v k) (BProvide c v k0)
| FDispatch h i u k k0 : forgets k k0 -> forgets (BDispatch h i u k) (BDispatch h i u k0).
Fixpoint may_return (b : body) (r : raw) : Prop :=
  match b with
  | BRet x => x = r
  | BRaise _ => False
  | BUseCell _ k => exists h i x, may_return (k h i x) r
  | BContext _ k => exists v, may_return (k v) r
  | BSetCell _ _ k | BAddEffect _ k | BProvide _ _ k | BDispatch _ _ _ k => may_return k r
  end.
(** What a component shows: its function's result, or the children of a context. *)
Definition may_show (defs : nat -> val -> list raw -> body) (c : cinst) (r : raw) : Prop :=
  match c with
  | Cinst (CTUser n) _ p kids => may_return (defs n p kids) r
  | Cinst (CTContext _) _ _ kids => r = RElem "" None [] None None (Some kids)
  end.

(** Updates, events and histories with other targets. *)
Definition ren_hj (t : string -> string) (j : hjson) : hjson := HJson (t (hj_target j)) (hj_prevent j) (hj_stop j) (hj_debounce j) (hj_throttle j).
Fixpoint ren_model (t : string -> string) (m : model) : model :=
  match m with
  | MText s => MText s
  | MNode tag imp attrs js eh ch err =>
      MNode tag imp attrs js (match eh with Some d => Some (map (fun ej => (fst ej, ren_hj t (snd ej))) d) | None => None end)
            (match ch with Some l => Some (map (ren_model t) l) | None => None end) err
  end.
Definition ren_ev (t : string -> string) (e : event) : event :=
  match e with EvUpdate p m => EvUpdate p (ren_model t m) | EvReturn h r => EvReturn h (forget r) | _ => e end.
Definition ren_env (t : string -> string) (o : envop) : envop := match o with ESeq x z => ESeq (t x) z | _ => o end.
Definition ren_op (t : string -> string) (o : op) : op := match o with ORender bs => ORender (map (map (ren_env t)) bs) | OEnv e => OEnv (ren_env t e) end.

Section Places.
(** [sg]: the target of each place, which the layout calls [path:event] by itself; [W]: where the components are. *)
Variable sg : string -> string.
Variable W : string -> cinst -> Prop.
Definition chosen (path ev : string) (h : handler) : Prop :=
  let auto := (path ++ ":" ++ ev)%string in h_target h = Some (sg auto) \/ h_target h = None /\ sg auto = auto.
(** Every handler of an element at [path] has the target of its place, and the components in it are where [W] says. *)
Fixpoint chosen_in (path : string) (r : raw) : Prop :=
  match r with
  | RElem _ _ hs _ _ ch =>
      (forall ev h, In (ev, h) hs -> chosen path ev h) /\
      match ch with
      | Some l => (fix all (i : nat) (l : list raw) : Prop :=
                     match l with [] => True | r :: l' => chosen_in (path ++ "/" ++ show_key (effective_key i r))%string r /\ all (S i) l' end) 0 l
      | None => True
      end
  | RComp c => W path c
  | _ => True
  end.
End Places.
(** Each place has one target, which no other has: the targets are those of the layout under other names. *)
Definition one_target_each (defs : nat -> val -> list raw -> body) (root : cinst) (sg : string -> string) : Prop :=
  exists W : string -> cinst -> Prop, W "" root /\
    forall path c r, W path c -> may_show defs c r -> chosen_in sg W (path ++ "/" ++ show_key (effective_key 0 r))%string r.
(** The components do not look at the targets in the children they are given. *)
Definition without_targets (defs defs0 : nat -> val -> list raw -> body) : Prop :=
  forall n p kids, forgets (defs n p kids) (defs0 n p (map forget kids)).

(** ** Proof *)
Section Renaming.
Variables sg tau : string -> string.
Hypothesis tau_sg : forall x, tau (sg x) = x.
Hypothesis sg_tau : forall x, sg (tau x) = x.
Variable W : string -> cinst -> Prop.

Lemma tau_inj x y : tau x = tau y -> x = y.
Proof. intros E. rewrite <- (sg_tau x), <- (sg_tau y), E. reflexivity. Qed.

Definition ren_keys {V} (f : V -> V) (d : dict string V) : dict string V := map (fun kv => (tau (fst kv), f (snd kv))) d.
Lemma ren_dget {V} (f : V -> V) k d : dget (tau k) (ren_keys f d) = option_map f (dget k d).
Proof.
  induction d as [|[k' v] d IH]; [reflexivity|]. cbn. destruct (eq_dec k k') as [->|N].
  - destruct (eq_dec (tau k') (tau k')); [reflexivity|congruence].
  - destruct (eq_dec (tau k) (tau k')) as [E|_]; [apply tau_inj in E; congruence|exact IH].
Qed.
Lemma ren_dmem {V} (f : V -> V) k d : dmem (tau k) (ren_keys f d) = dmem k d.
Proof. unfold dmem. rewrite ren_dget. destruct (dget k d); reflexivity. Qed.
Lemma ren_dset {V} (f : V -> V) k v d : dset (tau k) (f v) (ren_keys f d) = ren_keys f (dset k v d).
Proof.
  induction d as [|[k' v'] d IH]; [reflexivity|]. cbn. destruct (eq_dec k k') as [->|N].
  - destruct (eq_dec (tau k') (tau k')); [reflexivity|congruence].
  - destruct (eq_dec (tau k) (tau k')) as [E|_]; [apply tau_inj in E; congruence|cbn; f_equal; exact IH].
Qed.
Lemma ren_ddel {V} (f : V -> V) k d : ddel (tau k) (ren_keys f d) = ren_keys f (ddel k d).
Proof.
  induction d as [|[k' v'] d IH]; [reflexivity|]. cbn. destruct (eq_dec k k') as [->|N].
  - destruct (eq_dec (tau k') (tau k')); [exact IH|congruence].
  - destruct (eq_dec (tau k) (tau k')) as [E|_]; [apply tau_inj in E; congruence|cbn; f_equal; exact IH].
Qed.
Definition ren_vals (d : dict string string) : dict string string := map (fun kv => (fst kv, tau (snd kv))) d.
Lemma vals_dset ev t d : dset ev (tau t) (ren_vals d) = ren_vals (dset ev t d).
Proof. induction d as [|[k v] d IH]; [reflexivity|]. cbn. destruct (eq_dec ev k); cbn; [reflexivity|]. f_equal. exact IH. Qed.
Lemma vals_dvals d : dvals (ren_vals d) = map tau (dvals d).
Proof. induction d as [|[k v] d IH]; [reflexivity|]. cbn in *. f_equal. exact IH. Qed.
Lemma vals_filter (p : string -> bool) d : filter (fun et => p (fst et)) (ren_vals d) = ren_vals (filter (fun et => p (fst et)) d).
Proof. unfold ren_vals. induction d as [|[k v] d IH]; cbn; [reflexivity|]. destruct (p k); cbn; congruence. Qed.
Lemma bares_dmem ev hs : dmem ev (bares hs) = dmem ev hs.
Proof. unfold dmem. induction hs as [|[k h] hs IH]; [reflexivity|]. cbn. destruct (eq_dec ev k); [reflexivity|exact IH]. Qed.

Definition er_lcs (l : option (nat * cinst)) : option (nat * cinst) := option_map (fun hc => (fst hc, forget_c (snd hc))) l.
Definition er_ms (x : mstate) : mstate :=
  MState (ms_parent x) (ms_index x) (ms_key x) (ms_path x) (ms_keypath x) (ren_model tau (ms_model x)) (ms_children x) (ren_vals (ms_targets x)) (er_lcs (ms_lcs x)).
Definition same {A} (a : A) : A := a.
Definition er (s : st) : st :=
  St (map er_ms (s_heap s)) (s_reg s) (ren_keys bare (s_eh s)) (s_hooks s) (s_queue s) (s_stack s) (s_exit s) (ren_keys same (s_seq s))
     (map (map (ren_env tau)) (s_env s)) (map (ren_ev tau) (s_log s)).
Definition rmap {A} (f : A -> A) (r : res A) : res A := match r with Ok a => Ok (f a) | Raise e => Raise e | Fuel => Fuel end.

(** What stays as it is about a model state. *)
Definition like (x y : mstate) : Prop := ms_parent y = ms_parent x /\ ms_keypath y = ms_keypath x /\ ms_key y = ms_key x /\ ms_lcs y = ms_lcs x.
Definition ext (a b : list mstate) : Prop := forall m x, nth_error a m = Some x -> exists y, nth_error b m = Some y /\ like x y.
Definition keyed (a : list mstate) (n : nat) (k : key) : Prop := exists y, nth_error a n = Some y /\ ms_key y = Some k.
Definition kids_ok (a : list mstate) (ch : dict key nat) : Prop := forall k n, In (k, n) ch -> keyed a n k.
Definition at_parent (a : list mstate) (x : mstate) : Prop :=
  forall p, ms_parent x = Some p -> exists px, nth_error a p = Some px /\ ms_keypath x = sub_keypath (ms_keypath px) (ms_key x).
Definition comp_ok (x : mstate) : Prop := forall h c, ms_lcs x = Some (h, c) -> W (ms_keypath x) c.
Definition Inv (a : list mstate) : Prop := forall m x, nth_error a m = Some x -> comp_ok x /\ kids_ok a (ms_children x) /\ at_parent a x.

Lemma like_refl x : like x x.
Proof. repeat split. Qed.
Lemma like_trans x y z : like x y -> like y z -> like x z.
Proof. intros (A & B & C & D) (A' & B' & C' & D'). repeat split; congruence. Qed.
Lemma ext_refl a : ext a a.
Proof. intros m x E. exists x. split; [exact E|apply like_refl]. Qed.
Lemma ext_trans a b c : ext a b -> ext b c -> ext a c.
Proof. intros H K m x E. destruct (H m x E) as (y & Ey & L). destruct (K m y Ey) as (z & Ez & L'). exists z. split; [exact Ez|eapply like_trans; eauto]. Qed.
Lemma ext_keyed a b n k : ext a b -> keyed a n k -> keyed b n k.
Proof. intros H (y & E & K). destruct (H n y E) as (z & Ez & _ & _ & L & _). exists z. split; [exact Ez|congruence]. Qed.
Lemma ext_kids a b ch : ext a b -> kids_ok a ch -> kids_ok b ch.
Proof. intros H K k n I. eapply ext_keyed; eauto. Qed.
Lemma ext_parent a b x y : ext a b -> like x y -> at_parent a x -> at_parent b y.
Proof.
  intros H (L1 & L2 & L3 & _) P p E. rewrite L1 in E. destruct (P p E) as (px & Ep & K). destruct (H p px Ep) as (q & Eq & _ & Lq & _).
  exists q. split; [exact Eq|]. congruence.
Qed.

(** Both runs do the same, and the heap stays in order. *)
Definition sim {A} (a0 : list mstate) (f : A -> A) (Q : A -> list mstate -> Prop) (m m' : M A) : Prop :=
  forall s, Inv (s_heap s) -> ext a0 (s_heap s) ->
    m' (er s) = (rmap f (fst (m s)), er (snd (m s))) /\ Inv (s_heap (snd (m s))) /\ ext (s_heap s) (s_heap (snd (m s))) /\
    (forall a, fst (m s) = Ok a -> Q a (s_heap (snd (m s)))).
Definition any {A} (_ : A) (_ : list mstate) : Prop := True.
Definition quiet {A} (f : A -> A) (m m' : M A) : Prop := forall s, m' (er s) = (rmap f (fst (m s)), er (snd (m s))) /\ s_heap (snd (m s)) = s_heap s.

Ltac parts := split; [|split; [|split]]; auto using ext_refl; try (intros ? _; exact Logic.I).
Lemma sim_quiet {A} a0 (f : A -> A) m m' : quiet f m m' -> sim a0 f any m m'.
Proof. intros H s I E. destruct (H s) as [R G]. rewrite G. parts. Qed.
Lemma sim_ret {A} a0 (f : A -> A) (Q : A -> list mstate -> Prop) a a' : a' = f a -> (forall b, Inv b -> ext a0 b -> Q a b) -> sim a0 f Q (ret a) (ret a').
Proof. intros -> H s I E. cbn. parts. intros x [= <-]. auto. Qed.
Lemma sim_raise {A} a0 (f : A -> A) Q e : sim a0 f Q (raise e) (raise e).
Proof. intros s I E. cbn. parts; discriminate. Qed.
Lemma sim_fuel {A} a0 (f : A -> A) Q : sim a0 f Q no_fuel no_fuel.
Proof. intros s I E. cbn. parts; discriminate. Qed.
Lemma sim_weaken {A} a0 (f : A -> A) (Q Q' : A -> list mstate -> Prop) m m' : sim a0 f Q m m' -> (forall a b, Q a b -> Q' a b) -> sim a0 f Q' m m'.
Proof. intros H K s I E. destruct (H s I E) as (R & I' & E' & G). parts. Qed.
Lemma sim_bind {A B} a0 (f : A -> A) (g : B -> B) Q R m m' k k' : sim a0 f Q m m' ->
  (forall a a1, Inv a1 -> ext a0 a1 -> Q a a1 -> sim a1 g R (k a) (k' (f a))) -> sim a0 g R (bind m k) (bind m' k').
Proof.
  intros H K s I E. destruct (H s I E) as (E1 & I1 & X1 & G). unfold bind. rewrite E1. destruct (m s) as [[a|e|] t]; cbn [fst snd rmap] in *.
  - destruct (K a (s_heap t) I1 (ext_trans _ _ _ E X1) (G a eq_refl) t I1 (ext_refl _)) as (E2 & I2 & X2 & G2). parts. eapply ext_trans; eauto.
  - parts; discriminate.
  - parts; discriminate.
Qed.
Lemma sim_catch {A} a0 (f : A -> A) m m' h h' : sim a0 f any m m' -> (forall e, sim a0 f any (h e) (h' e)) -> sim a0 f any (catch m h) (catch m' h').
Proof.
  intros H K s I E. destruct (H s I E) as (E1 & I1 & X1 & G). unfold catch. rewrite E1. destruct (m s) as [[a|e|] t]; cbn [fst snd rmap] in *.
  - parts.
  - destruct (K e t I1 (ext_trans _ _ _ E X1)) as (E2 & I2 & X2 & G2). parts. eapply ext_trans; eauto.
  - parts.
Qed.
Lemma sim_finally {A} a0 (f : A -> A) (Q : A -> list mstate -> Prop) m m' k k' : (forall a b c, Q a b -> ext b c -> Q a c) -> sim a0 f Q m m' -> sim a0 same any k k' -> sim a0 f Q (finally m k) (finally m' k').
Proof.
  intros HQ H K s I E. destruct (H s I E) as (E1 & I1 & X1 & G). unfold finally. rewrite E1. destruct (m s) as [[a|e|] t]; cbn [fst snd rmap] in *.
  - destruct (K t I1 (ext_trans _ _ _ E X1)) as (E2 & I2 & X2 & _). rewrite E2. destruct (k t) as [[u|e|] w]; cbn [fst snd rmap] in *; parts; try (eapply ext_trans; eauto); try discriminate.
    intros a' [= <-]. eapply HQ; eauto.
  - destruct (K t I1 (ext_trans _ _ _ E X1)) as (E2 & I2 & X2 & _). rewrite E2. destruct (k t) as [[u|e'|] w]; cbn [fst snd rmap] in *; parts; try (eapply ext_trans; eauto); try discriminate.
  - parts; discriminate.
Qed.

Lemma q_ret {A} (f : A -> A) a a' : a' = f a -> quiet f (ret a) (ret a').
Proof. intros -> s. split; reflexivity. Qed.
Lemma q_raise {A} (f : A -> A) e : quiet f (raise e) (raise e).
Proof. intros s. split; reflexivity. Qed.
Lemma q_bind {A B} (f : A -> A) (g : B -> B) m m' k k' : quiet f m m' -> (forall a, quiet g (k a) (k' (f a))) -> quiet g (bind m k) (bind m' k').
Proof.
  intros H K s. destruct (H s) as [E G]. unfold bind. rewrite E. destruct (m s) as [[a|e|] t]; cbn [fst snd rmap] in *; [|split; [reflexivity|assumption]..].
  destruct (K a t) as [E' G']. split; [exact E'|congruence].
Qed.
Lemma q_gets {A} (f : A -> A) (g : st -> A) : (forall s, g (er s) = f (g s)) -> quiet f (gets g) (gets g).
Proof. intros H s. unfold gets. rewrite H. split; reflexivity. Qed.
Lemma q_modify f f' : (forall s, f' (er s) = er (f s)) -> (forall s, s_heap (f s) = s_heap s) -> quiet same (modify f) (modify f').
Proof. intros H G s. unfold modify. rewrite H. split; [reflexivity|apply G]. Qed.
Lemma q_log e e' : e' = ren_ev tau e -> quiet same (log e) (log e').
Proof. intros ->. apply q_modify; [|reflexivity]. intros s. unfold er, set_log. cbn. rewrite map_app. reflexivity. Qed.

Lemma map_upd {A B} (f : A -> B) l : forall i x, map f (upd l i x) = upd (map f l) i (f x).
Proof. induction l as [|y l IH]; intros [|i] x; cbn; auto. f_equal. apply IH. Qed.
Lemma nth_upd {A} (l : list A) : forall i j x, nth_error (upd l i x) j = if Nat.eq_dec i j then match nth_error l j with Some _ => Some x | None => None end else nth_error l j.
Proof.
  induction l as [|y l IH]; intros i j x; cbn [upd].
  - destruct (Nat.eq_dec i j); destruct j; reflexivity.
  - destruct i as [|i], j as [|j]; cbn [upd nth_error].
    + destruct (Nat.eq_dec 0 0); [reflexivity|lia].
    + destruct (Nat.eq_dec 0 (S j)); [lia|reflexivity].
    + destruct (Nat.eq_dec (S i) 0); [lia|reflexivity].
    + rewrite IH. destruct (Nat.eq_dec i j), (Nat.eq_dec (S i) (S j)); auto; lia.
Qed.
Lemma sim_get a0 m : sim a0 er_ms (fun x b => nth_error b m = Some x) (get_ms m) (get_ms m).
Proof.
  intros s I E. unfold get_ms. cbn [er s_heap]. rewrite nth_error_map. destruct (nth_error (s_heap s) m) as [x|] eqn:N; cbn; parts; [|discriminate].
  intros a [= <-]. exact N.
Qed.
Lemma ext_upd b m x y : nth_error b m = Some x -> like x y -> ext b (upd b m y).
Proof.
  intros N L j z Z. rewrite nth_upd. destruct (Nat.eq_dec m j) as [->|]; [|exists z; split; [exact Z|apply like_refl]].
  rewrite Z. exists y. split; [reflexivity|]. congruence.
Qed.
Lemma inv_upd b m x y : Inv b -> nth_error b m = Some x -> like x y -> kids_ok b (ms_children y) -> Inv (upd b m y).
Proof.
  intros I N L K j z Z. pose proof (ext_upd b m x y N L) as X. rewrite nth_upd in Z. destruct (Nat.eq_dec m j) as [->|].
  - rewrite N in Z. injection Z as <-. destruct (I j x N) as (C & _ & P). split; [|split; [eapply ext_kids; eauto|eapply ext_parent; eauto]].
    intros h c E. destruct L as (_ & L2 & _ & L4). rewrite L2. apply (C h). congruence.
  - destruct (I j z Z) as (C & K' & P). split; [exact C|]. split; [eapply ext_kids; eauto|eapply ext_parent; eauto using like_refl].
Qed.
Lemma sim_put a0 m x0 x x' : x' = er_ms x -> nth_error a0 m = Some x0 -> like x0 x -> kids_ok a0 (ms_children x) -> sim a0 same any (put_ms m x) (put_ms m x').
Proof.
  intros -> N L K s I E. unfold put_ms, modify. cbn [fst snd rmap s_heap set_heap]. destruct (E m x0 N) as (y & Ny & L').
  assert (L2 : like y x) by (destruct L as (A & B & C & D), L' as (A' & B' & C' & D'); repeat split; congruence).
  split; [unfold er, set_heap; cbn; rewrite map_upd; reflexivity|]. split; [eapply inv_upd; eauto using ext_kids|]. split; [eapply ext_upd; eauto|]. intros a _. exact Logic.I.
Qed.
Lemma sim_change a0 m f f' : (forall x, f' (er_ms x) = er_ms (f x)) ->
  (forall b x, Inv b -> ext a0 b -> nth_error b m = Some x -> like x (f x) /\ kids_ok b (ms_children (f x))) -> sim a0 same any (change_ms m f) (change_ms m f').
Proof.
  intros H K. unfold change_ms. eapply (sim_bind a0 er_ms same); [apply sim_get|]. intros x b I E N. destruct (K b x I E N) as [L C]. eapply sim_put; [apply H|exact N|exact L|exact C].
Qed.
Lemma sim_model a0 m g g' : (forall x, g' (ren_model tau x) = ren_model tau (g x)) -> sim a0 same any (change_ms m (fun x => with_model (g (ms_model x)) x)) (change_ms m (fun x => with_model (g' (ms_model x)) x)).
Proof.
  intros H. apply sim_change; [intros x; unfold er_ms; cbn; rewrite H; reflexivity|]. intros b x I E N. split; [repeat split|]. apply (I m x N).
Qed.
Definition fresh_ok (a : list mstate) (x : mstate) : Prop := comp_ok x /\ ms_children x = [] /\ at_parent a x.
Lemma sim_new a0 x x' : x' = er_ms x -> fresh_ok a0 x -> sim a0 same (fun n b => nth_error b n = Some x) (new_ms x) (new_ms x').
Proof.
  intros -> (C & K & P) s I E. unfold new_ms. cbn [fst snd rmap s_heap set_heap]. 
  assert (X : ext (s_heap s) (s_heap s ++ [x])).
  { intros m z Z. exists z. split; [|apply like_refl]. rewrite nth_error_app1; [exact Z|]. apply nth_error_Some. congruence. }
  split; [unfold er, set_heap; cbn; rewrite map_length, map_app; reflexivity|]. split; [|split; [exact X|]].
  - intros m z Z. destruct (Nat.lt_ge_cases m (length (s_heap s))) as [L|L].
    + rewrite nth_error_app1 in Z by exact L. destruct (I m z Z) as (C' & K' & P'). split; [exact C'|]. split; [eapply ext_kids; eauto|eapply ext_parent; eauto using like_refl].
    + rewrite nth_error_app2 in Z by exact L. destruct (m - length (s_heap s)) as [|j]; [|destruct j; discriminate]. injection Z as <-.
      split; [exact C|]. split; [rewrite K; intros ? ? []|]. eapply ext_parent; [|apply like_refl|exact P]. eapply ext_trans; eauto.
  - intros n [= <-]. rewrite nth_error_app2, Nat.sub_diag by lia. reflexivity.
Qed.

Lemma schedule_er h s : schedule_render h (er s) = er (schedule_render h s).
Proof. unfold schedule_render. change (get_hook h (er s)) with (get_hook h s). destruct (hk_sched (get_hook h s)); reflexivity. Qed.
Lemma schedule_heap h s : s_heap (schedule_render h s) = s_heap s.
Proof. unfold schedule_render. destruct (hk_sched (get_hook h s)); reflexivity. Qed.
Lemma dispatch_er h i u s : dispatch h i u (er s) = er (dispatch h i u s).
Proof.
  unfold dispatch. change (get_hook h (er s)) with (get_hook h s). destruct (nth_error (hk_cells (get_hook h s)) i) as [[v| | |]|]; try reflexivity.
  destruct (veq _ v); [reflexivity|]. rewrite <- schedule_er. reflexivity.
Qed.
Lemma dispatch_heap h i u s : s_heap (dispatch h i u s) = s_heap s.
Proof.
  unfold dispatch. destruct (nth_error (hk_cells (get_hook h s)) i) as [[v| | |]|]; try reflexivity. destruct (veq _ v); [reflexivity|]. rewrite schedule_heap. reflexivity.
Qed.
Lemma env_er s o : env_step (er s) (ren_env tau o) = er (env_step s o).
Proof.
  destruct o as [h i u|t z]; cbn [env_step ren_env]; [apply dispatch_er|]. unfold record_seq. cbn [er s_seq]. destruct (0 <=? z)%Z; [|reflexivity].
  rewrite ren_dget. unfold same. destruct (dget t (s_seq s)) as [q|]; cbn [option_map]; (destruct (_ <? z)%Z; [|reflexivity]); unfold set_seq, er; f_equal; apply (ren_dset same).
Qed.
Lemma env_heap s o : s_heap (env_step s o) = s_heap s.
Proof.
  destruct o as [h i u|t z]; cbn [env_step]; [apply dispatch_heap|]. unfold record_seq. destruct (0 <=? z)%Z; [|reflexivity]. destruct (_ <? z)%Z; reflexivity.
Qed.
Lemma envs_er l : forall s, fold_left env_step (map (ren_env tau) l) (er s) = er (fold_left env_step l s).
Proof. induction l as [|o l IH]; intros s; [reflexivity|]. cbn [fold_left map]. rewrite env_er. apply IH. Qed.
Lemma envs_heap l : forall s, s_heap (fold_left env_step l s) = s_heap s.
Proof. induction l as [|o l IH]; intros s; [reflexivity|]. cbn [fold_left]. rewrite IH. apply env_heap. Qed.
Lemma q_pause : quiet same pause pause.
Proof.
  apply q_modify; intros s; cbn [er s_env]; destruct (s_env s) as [|b bs] eqn:E; cbn [map]; try reflexivity.
  - rewrite <- envs_er. reflexivity.
  - rewrite envs_heap. reflexivity.
Qed.
Lemma q_use_cell h c : quiet same (use_cell h c) (use_cell h c).
Proof.
  intros s. unfold use_cell. change (get_hook h (er s)) with (get_hook h s). destruct (hk_once (get_hook h s)); [|split; reflexivity].
  destruct (nth_error (hk_cells (get_hook h s)) (hk_idx (get_hook h s))); split; reflexivity.
Qed.
Lemma q_body h b b0 : forgets b b0 -> quiet forget (run_body h b) (run_body h b0).
Proof.
  induction 1 as [r|msg|c k k0 H IH|i c k k0 H IH|e k k0 H IH|c k k0 H IH|c v k k0 H IH|h' i u k k0 H IH]; cbn [run_body].
  - apply q_ret. reflexivity.
  - apply q_raise.
  - apply (q_bind same forget); [apply q_use_cell|]. intros a. apply IH.
  - apply (q_bind same forget); [apply q_modify; reflexivity|]. intros a. apply IH.
  - apply (q_bind same forget); [apply q_modify; reflexivity|]. intros a. apply IH.
  - apply (q_bind same forget); [apply q_gets; reflexivity|]. intros a. apply IH.
  - apply (q_bind same forget); [apply q_modify; reflexivity|]. intros a. apply IH.
  - apply (q_bind same forget); [apply q_modify; intros s; [apply dispatch_er|apply dispatch_heap]|]. intros a. apply IH.
Qed.
Lemma body_returns h b : forall s r, fst (run_body h b s) = Ok r -> may_return b r.
Proof.
  induction b as [r|msg|c k IH|i c k IH|e k IH|c k IH|c v k IH|h' i u k IH]; intros s r'; cbn [run_body may_return]; unfold bind, ret, raise, modify, gets; cbn; eauto.
  - intros [= <-]. reflexivity.
  - discriminate.
  - destruct (use_cell h c s) as [[[j x]|e|] t]; cbn; eauto; discriminate.
Qed.
Lemma q_set_current h : quiet same (set_current h) (set_current h).
Proof. apply q_modify; intros s; cbn [er s_stack]; destruct (s_stack s) as [|p l] eqn:E; unfold set_stack, er; cbn; rewrite ?E; reflexivity. Qed.
Lemma q_unset_current h : quiet same (unset_current h) (unset_current h).
Proof. intros s. unfold unset_current. cbn [er s_stack]. destruct (s_stack s) as [|p l]; [split; reflexivity|]. destruct (Nat.eq_dec p h); split; reflexivity. Qed.
Lemma q_will_render h : quiet same (will_render h) (will_render h).
Proof. unfold will_render. apply (q_bind same same); [apply q_pause|]. intros _. apply (q_bind same same); [apply q_modify; reflexivity|]. intros _. apply q_set_current. Qed.
Lemma q_did_render h : quiet same (did_render h) (did_render h).
Proof. unfold did_render. apply (q_bind same same); [apply q_unset_current|]. intros _. apply q_modify; reflexivity. Qed.
Lemma q_layout_did_render h : quiet same (layout_did_render h) (layout_did_render h).
Proof.
  intros s. unfold layout_did_render. change (get_hook h (er s)) with (get_hook h s). cbv zeta.
  destruct (q_log (EvEffects h (hk_effects (get_hook h s))) _ eq_refl
     (put_hook h (Hook (hk_cells (get_hook h s)) (hk_idx (get_hook h s)) (hk_once (get_hook h s)) (hk_sched (get_hook h s)) [] (hk_ctx (get_hook h s))) s)) as [E G].
  split; [rewrite <- E; reflexivity|exact G].
Qed.
Lemma q_exit l : quiet same (run_exit l) (run_exit l).
Proof. induction l as [|h l IH]; cbn [run_exit]; [apply q_ret; reflexivity|]. apply (q_bind same same); [apply q_layout_did_render|]. intros _. exact IH. Qed.
Lemma q_del_handlers ts : quiet same (del_handlers ts) (del_handlers (map tau ts)).
Proof.
  induction ts as [|t ts IH]; intros s; [split; reflexivity|]. cbn [del_handlers map]. cbn [er s_eh]. rewrite ren_dmem. destruct (dmem t (s_eh s)); [|split; reflexivity].
  rewrite (ren_ddel bare). apply (IH (set_eh (ddel t (s_eh s)) s)).
Qed.
Lemma q_del_reg h : quiet same (del_reg h) (del_reg h).
Proof. intros s. unfold del_reg. cbn [er s_reg]. destruct (dmem h (s_reg s)); split; reflexivity. Qed.
Lemma q_get m : quiet er_ms (get_ms m) (get_ms m).
Proof. intros s. unfold get_ms. cbn [er s_heap]. rewrite nth_error_map. destruct (nth_error (s_heap s) m); split; reflexivity. Qed.
Lemma q_unmount fuel : forall l, quiet same (unmount fuel l) (unmount fuel l).
Proof.
  induction fuel as [|f IH]; intros l; [intros s; split; reflexivity|]. cbn [unmount]. destruct l as [|m l]; [apply q_ret; reflexivity|].
  apply (q_bind er_ms same); [apply q_get|]. intros x. apply (q_bind same same); [cbn [er_ms ms_targets]; rewrite vals_dvals; apply q_del_handlers|]. intros _.
  apply (q_bind same same).
  - cbn [er_ms ms_lcs]. destruct (ms_lcs x) as [[h c]|]; cbn; [|apply q_ret; reflexivity].
    apply (q_bind same same); [apply q_del_reg|]. intros _. unfold will_unmount. apply (q_bind same same); [apply q_log; reflexivity|]. intros _. apply q_pause.
  - intros _. apply IH.
Qed.

Lemma target_ren kp ev h : chosen sg kp ev h -> tau (target_of kp ev h) = target_of kp ev (bare h).
Proof.
  intros C. unfold target_of. cbn [bare h_target]. destruct C as [->|[-> E]]; [apply tau_sg|]. rewrite <- E at 1. apply tau_sg.
Qed.
Definition ren_hjs (l : list (string * hjson)) : list (string * hjson) := map (fun ej => (fst ej, ren_hj tau (snd ej))) l.
Definition node (a : list mstate) (m : nat) (kp : string) : Prop := exists x, nth_error a m = Some x /\ ms_keypath x = kp.
Lemma ext_node a b m kp : ext a b -> node a m kp -> node b m kp.
Proof. intros H (x & N & K). destruct (H m x N) as (y & Ny & _ & L & _). exists y. split; [exact Ny|congruence]. Qed.
Lemma sim_register m kp l : forall a0, node a0 m kp -> (forall ev h, In (ev, h) l -> chosen sg kp ev h) ->
  sim a0 ren_hjs any (register_handlers m l) (register_handlers m (bares l)).
Proof.
  induction l as [|[ev h] l IH]; intros a0 ND C; cbn [register_handlers bares map]; [apply sim_ret; [reflexivity|easy]|].
  eapply (sim_bind a0 er_ms ren_hjs); [apply sim_get|]. intros x a1 I1 E1 N1. cbv zeta. cbn [fst snd].
  assert (KP : ms_keypath x = kp).
  { destruct (ext_node _ _ _ _ E1 ND) as (y & Ny & <-). congruence. }
  change (ms_keypath (er_ms x)) with (ms_keypath x). rewrite KP. pose proof (target_ren kp ev h (C ev h (or_introl eq_refl))) as T.
  eapply (sim_bind a1 same ren_hjs).
  - eapply sim_put; [|exact N1|repeat split|apply (I1 m x N1)]. transitivity (with_targets (dset ev (tau (target_of kp ev h)) (ren_vals (ms_targets x))) (er_ms x)); [rewrite T; reflexivity|]. unfold er_ms, with_targets. f_equal. apply vals_dset.
  - intros _ a2 I2 E2 _. eapply (sim_bind a2 same ren_hjs).
    + apply sim_quiet. apply q_modify; [|reflexivity]. intros s. rewrite <- T. unfold er, set_eh. f_equal. apply (ren_dset bare).
    + intros _ a3 I3 E3 _. eapply (sim_bind a3 ren_hjs ren_hjs).
      * apply IH; [|intros; apply C; right; assumption]. eapply ext_node; [|exact ND]. eapply ext_trans; [exact E1|]. eapply ext_trans; eauto.
      * intros js a4 I4 E4 _. apply sim_ret; [|easy]. unfold ren_hjs. cbn [map fst snd]. f_equal. f_equal. unfold serialize_handler, ren_hj. cbn [hj_target hj_prevent hj_stop hj_debounce hj_throttle]. rewrite T. reflexivity.
Qed.
Lemma ren_max_ack d ts : forall acc, max_ack (ren_keys same d) (map tau ts) acc = max_ack d ts acc.
Proof.
  induction ts as [|t ts IH]; intros acc; [reflexivity|]. cbn [max_ack map]. rewrite ren_dget. destruct (dget t d) as [q|]; cbn [option_map]; [unfold same|]; apply IH.
Qed.
Lemma sim_attributes a0 old new kp tag attrs hs js imp : node a0 new kp -> (forall ev h, In (ev, h) hs -> chosen sg kp ev h) ->
  sim a0 same any (render_attributes old new tag attrs hs js imp) (render_attributes old new tag attrs (bares hs) js imp).
Proof.
  intros ND C. unfold render_attributes. eapply (sim_bind a0 same same).
  - apply sim_quiet. destruct old as [o|]; [|apply q_ret; reflexivity]. apply (q_bind er_ms same); [apply q_get|]. intros x.
    cbn [er_ms ms_targets]. assert (F : forall d : dict string string, filter (fun et => negb (dmem (fst et) (bares hs))) d = filter (fun et => negb (dmem (fst et) hs)) d) by (intros d; apply filter_ext; intros a; now rewrite bares_dmem).
    rewrite F.    rewrite (vals_filter (fun e => negb (dmem e hs))), vals_dvals. apply q_del_handlers.
  - intros _ a1 I1 E1 _. eapply (sim_bind a1 (option_map ren_hjs) same any).
    + destruct hs as [|p hs]; [apply sim_ret; [reflexivity|easy]|]. change (match bares (p :: hs) with [] => ret None | _ :: _ => l <- register_handlers new (bares (p :: hs));; ret (Some l) end)
        with (l <- register_handlers new (bares (p :: hs));; ret (Some l)).
      eapply (sim_bind a1 ren_hjs (option_map ren_hjs)); [eapply sim_register; eauto using ext_node|]. intros l a2 _ _ _. apply sim_ret; [reflexivity|easy].
    + intros ehs a2 I2 E2 _. eapply (sim_bind a2 er_ms same); [apply sim_get|]. intros x a3 I3 E3 N3.
      eapply (sim_bind a3 (ren_keys same) same); [apply sim_quiet, q_gets; reflexivity|]. intros q a4 I4 E4 _. cbv zeta.
      destruct (E4 new x N3) as (y & Ny & L). eapply sim_put; [|exact Ny| |].
      * unfold er_ms, with_model. cbn [ms_parent ms_index ms_key ms_path ms_keypath ms_model ms_children ms_targets ms_lcs ren_model]. rewrite vals_dvals. unfold inject_ack. rewrite ren_max_ack. destruct ehs; reflexivity.
      * destruct L as (L1 & L2 & L3 & L4). repeat split; cbn; congruence.
      * cbn. eapply ext_kids; [exact E4|]. apply (I3 new x N3).
Qed.

Lemma ren_add c m : add_child_model (ren_model tau c) (ren_model tau m) = ren_model tau (add_child_model c m).
Proof. destruct m as [s|tag imp attrs js eh [l|] err]; cbn; rewrite ?map_app; reflexivity. Qed.
Lemma ren_start m : start_children (ren_model tau m) = ren_model tau (start_children m).
Proof. destruct m as [s|tag imp attrs js eh ch err]; reflexivity. Qed.
Lemma ren_replace i c m : replace_child i (ren_model tau c) (ren_model tau m) = ren_model tau (replace_child i c m).
Proof. destruct m as [s|tag imp attrs js eh [l|] err]; cbn [replace_child ren_model]; rewrite ?map_app, ?map_cons, ?firstn_map, ?skipn_map; [reflexivity|reflexivity|]. destruct i; reflexivity. Qed.

(** Children *)
Fixpoint placed (path : string) (i : nat) (l : list raw) : Prop :=
  match l with [] => True | r :: l' => chosen_in sg W (path ++ "/" ++ show_key (effective_key i r))%string r /\ placed path (S i) l' end.
Definition ren_info (ik : child_kind * key) : child_kind * key :=
  (match fst ik with DictChild r => DictChild (forget r) | CompChild c => CompChild (forget_c c) | StrChild s => StrChild s end, snd ik).
Definition explicit (r : raw) : option key := match r with RElem _ attrs _ _ _ _ => attr_key attrs | _ => None end.
Definition info_ok (path : string) (ik : child_kind * key) : Prop :=
  match fst ik with
  | DictChild r => chosen_in sg W (sub_keypath path (Some (snd ik))) r /\ (forall k', explicit r = Some k' -> k' = snd ik)
  | CompChild c => W (sub_keypath path (Some (snd ik))) c
  | StrChild _ => True
  end.
Lemma infos_forget l : forall i, children_infos i (map forget l) = map ren_info (children_infos i l).
Proof.
  induction l as [|r l IH]; intros i; [reflexivity|]. destruct r as [|s|tag attrs hs js imp ch|[ty k p kids]]; cbn [map forget forget_c children_infos child_info ci_key]; rewrite ?IH; try reflexivity.
  - destruct (attr_key attrs); reflexivity.
  - destruct k; reflexivity.
Qed.
Lemma info_keys l : map snd (map ren_info l) = map snd l.
Proof. rewrite map_map. reflexivity. Qed.
Lemma attr_key_explicit attrs hs tag js imp ch : explicit_key (RElem tag attrs hs js imp ch) = attr_key attrs.
Proof. reflexivity. Qed.
Lemma placed_infos path l : forall i, placed path i l -> Forall (info_ok path) (children_infos i l).
Proof.
  induction l as [|r l IH]; intros i; [constructor|]. cbn [placed]. intros [C P]. specialize (IH _ P).
  destruct r as [|s|tag attrs hs js imp ch|[ty k p kids]]; cbn [children_infos child_info ci_key].
  - exact IH.
  - constructor; [exact Logic.I|exact IH].
  - unfold effective_key in C. rewrite attr_key_explicit in C. destruct (attr_key attrs) as [k|] eqn:E; constructor; try exact IH; (split; [exact C|]); cbn; rewrite E; congruence.
  - unfold effective_key in C. cbn [explicit_key ci_key] in C. destruct k; constructor; try exact IH; exact C.
Qed.

Variable debug : bool.
Variables defs defs0 : nat -> val -> list raw -> body.
Hypothesis same_program : without_targets defs defs0.
Hypothesis W_closed : forall path c r, W path c -> may_show defs c r -> chosen_in sg W (path ++ "/" ++ show_key (effective_key 0 r))%string r.

Lemma fn_forget c : forgets (render_fn defs c) (render_fn defs0 (forget_c c)).
Proof. destruct c as [[n|x] k p kids]; cbn; [apply same_program|apply (FProvide x p _ (BRet (RElem "" None [] None None (Some (map forget kids))))), FRet]. Qed.
Lemma fn_shows c r : may_return (render_fn defs c) r -> may_show defs c r.
Proof. destruct c as [[n|x] k p kids]; cbn; [auto|]. intros <-. reflexivity. Qed.

Definition has_key (a : list mstate) (o : option nat) (k : option key) : Prop := forall n, o = Some n -> exists y, nth_error a n = Some y /\ ms_key y = k.
Lemma ext_has a b o k : ext a b -> has_key a o k -> has_key b o k.
Proof. intros H K n E. destruct (K n E) as (y & N & Y). destruct (H n y N) as (z & Nz & _ & _ & L & _). exists z. split; [exact Nz|congruence]. Qed.
Definition gives (k : option key) (n : nat) (b : list mstate) : Prop := exists y, nth_error b n = Some y /\ ms_key y = k.
Lemma gives_ext k n a b : ext a b -> gives k n a -> gives k n b.
Proof. intros H (y & N & Y). destruct (H n y N) as (z & Nz & _ & _ & L & _). exists z. split; [exact Nz|congruence]. Qed.
Definition comp_pre (a : list mstate) (old parent : option nat) (k : option key) (c : cinst) : Prop :=
  has_key a old k /\
  match parent with
  | Some p => exists kp, node a p kp /\ W (sub_keypath kp k) c
  | None => forall o y, old = Some o -> nth_error a o = Some y -> W (ms_keypath y) c
  end.

Lemma sim_render fuel :
  (forall a0 old parent index k c, comp_pre a0 old parent k c ->
     sim a0 same (gives k) (render_component debug defs fuel old parent index k c) (render_component debug defs0 fuel old parent index k (forget_c c))) /\
  (forall a0 old parent index k r kp, has_key a0 old (Some k) -> node a0 parent kp -> chosen_in sg W (sub_keypath kp (Some k)) r -> (forall k', explicit r = Some k' -> k' = k) ->
     sim a0 same (gives (Some k)) (render_model debug defs fuel old parent index (Some k) r) (render_model debug defs0 fuel old parent index (Some k) (forget r))) /\
  (forall a0 old new raws kp, node a0 new kp -> placed kp 0 raws ->
     sim a0 same any (render_children debug defs fuel old new raws) (render_children debug defs0 fuel old new (map forget raws))) /\
  (forall a0 old new index infos kp, node a0 new kp -> Forall (info_ok kp) infos ->
     sim a0 same any (render_child_list debug defs fuel old new index infos) (render_child_list debug defs0 fuel old new index (map ren_info infos))).
Proof.
  induction fuel as [|f (IC & IM & IH & IL)]; [split; [|split; [|split]]; intros; apply sim_fuel|]. split; [|split; [|split]].
  - intros a0 old parent index k c (HK & HP). cbn [render_component].
    assert (FR : forall a1, ext a0 a1 -> sim a1 same (fun no b => exists x, nth_error b (fst no) = Some x /\ ms_key x = k /\ exists h, ms_lcs x = Some (h, c)) (match parent with
        | Some p => pm <- get_ms p ;; h <- new_hook ;; n <- new_ms (make_component_ms p pm index k h c) ;; ret (n, @None nat)
        | None => raise EBadVdom end) (match parent with
        | Some p => pm <- get_ms p ;; h <- new_hook ;; n <- new_ms (make_component_ms p pm index k h (forget_c c)) ;; ret (n, @None nat)
        | None => raise EBadVdom end)).
    { intros a1 X1. destruct parent as [p|]; [|apply sim_raise]. destruct HP as (kp & ND & HW). eapply (sim_bind a1 er_ms same); [apply sim_get|]. intros pm a2 I2 X2 N2.
      assert (KP : ms_keypath pm = kp) by (destruct (ext_node _ _ _ _ (ext_trans _ _ _ X1 X2) ND) as (y & Ny & <-); congruence).
      eapply (sim_bind a2 same same any); [intros s I E; cbn; parts|]. intros h a3 I3 X3 _. destruct (X3 p pm N2) as (pm' & N3 & L3).
      eapply (sim_bind a3 same same).
      - apply sim_new; [reflexivity|]. split; [|split; [reflexivity|]].
        + intros h' c' [= <- <-]. cbn. rewrite KP. exact HW.
        + intros q [= <-]. exists pm'. split; [exact N3|]. cbn. destruct L3 as (_ & -> & _). reflexivity.
      - intros n a4 I4 X4 N4. apply sim_ret; [reflexivity|]. intros b Ib Xb. cbn [fst]. destruct (Xb n _ N4) as (y & Ny & L1 & L2 & L3' & L4).
        exists y. split; [exact Ny|]. split; [rewrite L3'; reflexivity|]. exists h. rewrite L4. reflexivity. }
    eapply (sim_bind a0 same same).
    + destruct old as [o|]; [|apply FR, ext_refl]. eapply (sim_bind a0 er_ms same); [apply sim_get|]. intros ox a1 I1 X1 N1. cbn [er_ms ms_lcs].
      destruct (ms_lcs ox) as [[h oc]|] eqn:EL; cbn [er_lcs option_map fst snd];
        [|eapply (sim_bind a1 same same any); [apply sim_quiet, q_unmount|intros _ a2 I2 X2 _; apply FR; eapply ext_trans; eauto]].
      assert (T : ci_type (forget_c oc) = ci_type oc /\ ci_type (forget_c c) = ci_type c) by (destruct oc, c; split; reflexivity). destruct T as [-> ->].
      destruct (eq_dec (ci_type oc) (ci_type c)); [|eapply (sim_bind a1 same same any); [apply sim_quiet, q_unmount|intros _ a2 I2 X2 _; apply FR; eapply ext_trans; eauto]].
      assert (OK : ms_key ox = k).
      { destruct (ext_has _ _ _ _ X1 HK o eq_refl) as (y & Ny & <-). congruence. }
      destruct parent as [p|].
      * destruct HP as (kp & ND & HW). eapply (sim_bind a1 er_ms same); [apply sim_get|]. intros pm a2 I2 X2 N2.
        assert (KP : ms_keypath pm = kp) by (destruct (ext_node _ _ _ _ (ext_trans _ _ _ X1 X2) ND) as (y & Ny & <-); congruence).
        eapply (sim_bind a2 same same).
        -- apply sim_new; [reflexivity|]. split; [|split; [reflexivity|]].
           ++ intros h' c' [= <- <-]. cbn. rewrite KP, OK. exact HW.
           ++ intros q [= <-]. exists pm. split; [exact N2|reflexivity].
        -- intros n a4 I4 X4 N4. apply sim_ret; [reflexivity|]. intros b Ib Xb. cbn [fst]. destruct (Xb n _ N4) as (y & Ny & L1 & L2 & L3' & L4).
           exists y. split; [exact Ny|]. split; [rewrite L3'; exact OK|]. exists h. rewrite L4. reflexivity.
      * eapply (sim_bind a1 same same).
        -- apply sim_new; [reflexivity|]. split; [|split; [reflexivity|]].
           ++ intros h' c' [= <- <-]. cbn. destruct (HK o eq_refl) as (y & Ny & _). destruct (X1 o y Ny) as (z & Nz & _ & L & _). assert (z = ox) as -> by congruence. rewrite L. eapply HP; eauto.
           ++ intros q Eq. destruct (I1 o ox N1) as (_ & _ & P). exact (P q Eq).
        -- intros n a4 I4 X4 N4. apply sim_ret; [reflexivity|]. intros b Ib Xb. cbn [fst]. destruct (Xb n _ N4) as (y & Ny & L1 & L2 & L3' & L4).
           exists y. split; [exact Ny|]. split; [rewrite L3'; exact OK|]. exists h. rewrite L4. reflexivity.
    + intros [new old'] a1 I1 X1 (x & Nx & Kx & h0 & Lx). unfold same at 2 3 4 5 6. cbn [fst snd] in *. eapply (sim_bind a1 er_ms same); [apply sim_get|]. intros nx a2 I2 X2 N2. cbn [er_ms ms_lcs].
      destruct (X2 new x Nx) as (nx' & N2' & L). assert (nx' = nx) as -> by congruence. clear N2'. destruct L as (_ & LK & Lkey & Llcs). rewrite Lx in Llcs. rewrite Llcs. cbn [er_lcs option_map fst snd].
      assert (HW : W (ms_keypath nx) c) by (apply (proj1 (I2 new nx N2) h0 c Llcs)).
      assert (GV : gives k new a2) by (exists nx; split; [exact N2|congruence]).
      eapply (sim_bind a2 same same any); [apply sim_quiet, q_modify; reflexivity|]. intros _ a3 I3 X3 _. eapply (sim_bind a3 same same any); [apply sim_quiet, q_will_render|]. intros _ a4 I4 X4 _.
      eapply (sim_bind a4 same same any); [apply sim_quiet, q_modify; reflexivity|]. intros _ a5 I5 X5 _.
      assert (X25 : ext a2 a5) by (eapply ext_trans; [exact X3|]; eapply ext_trans; eauto).
      eapply (sim_bind a5 same same any).
      * apply sim_finally; [easy| |apply sim_quiet, q_did_render]. apply sim_catch.
        -- eapply (sim_bind a5 same same any); [apply sim_quiet, q_log; reflexivity|]. intros _ a6 I6 X6 _.
           eapply (sim_bind a6 forget same (fun r _ => may_return (render_fn defs c) r)).
           { intros s Is Es. destruct (q_body h0 _ _ (fn_forget c) s) as [Q1 Q2]. rewrite Q2. parts. intros r E. eapply body_returns; eauto. }
           intros r a7 I7 X7 HR.
           eapply (sim_bind a7 same same any); [apply sim_quiet, q_log; reflexivity|]. intros _ a8 I8 X8 _.
           eapply (sim_bind a8 same same any).
           { apply sim_change; [reflexivity|]. intros b y Ib _ Nb. split; [repeat split|apply (Ib new y Nb)]. }
           intros _ a9 I9 X9 _. apply (IH a9 old' new [r] (ms_keypath nx)).
           ++ eapply ext_node; [|exists nx; split; [exact N2|reflexivity]]. eapply ext_trans; [exact X25|]. eapply ext_trans; [exact X6|]. eapply ext_trans; [exact X7|]. eapply ext_trans; eauto.
           ++ split; [|exact Logic.I]. apply (W_closed _ c); [exact HW|apply fn_shows, HR].
        -- intros e. eapply (sim_bind a5 same same any); [apply sim_quiet, q_log; reflexivity|]. intros _ a6 I6 X6 _.
           apply sim_change; [reflexivity|]. intros b y Ib _ Nb. split; [repeat split|apply (Ib new y Nb)].
      * intros _ a6 I6 X6 _. apply sim_ret; [reflexivity|]. intros b Ib Xb. eapply gives_ext; [|exact GV]. eapply ext_trans; [exact X25|]. eapply ext_trans; eauto.
  - intros a0 old parent index k r kp HK ND CH EX. cbn [render_model]. destruct r as [|s|tag attrs hs js imp children|c]; cbn [forget]; try apply sim_raise.
    assert (MK : forall a1, ext a0 a1 -> sim a1 same (fun no b => exists x, nth_error b (fst no) = Some x /\ ms_key x = Some k /\ ms_keypath x = sub_keypath kp (Some k))
        (pm <- get_ms parent ;; n <- new_ms (make_element_ms parent pm index (Some k)) ;; ret (n, @None nat))
        (pm <- get_ms parent ;; n <- new_ms (make_element_ms parent pm index (Some k)) ;; ret (n, @None nat))).
    { intros a1 X1. eapply (sim_bind a1 er_ms same); [apply sim_get|]. intros pm a2 I2 X2 N2.
      assert (KP : ms_keypath pm = kp) by (destruct (ext_node _ _ _ _ (ext_trans _ _ _ X1 X2) ND) as (y & Ny & <-); congruence).
      eapply (sim_bind a2 same same).
      - apply sim_new; [reflexivity|]. split; [discriminate|split; [reflexivity|]]. intros q [= <-]. exists pm. split; [exact N2|reflexivity].
      - intros n a4 I4 X4 N4. apply sim_ret; [reflexivity|]. intros b Ib Xb. cbn [fst]. destruct (Xb n _ N4) as (y & Ny & L1 & L2 & L3' & L4).
        exists y. split; [exact Ny|]. split; [rewrite L3'; reflexivity|]. rewrite L2, <- KP. reflexivity. }
    eapply (sim_bind a0 same same).
    + destruct old as [o|]; [|apply MK, ext_refl].
      eapply (sim_bind a0 er_ms same); [apply sim_get|]. intros ox a1 I1 X1 N1. cbn [er_ms ms_lcs]. destruct (ms_lcs ox) as [lc|] eqn:EL; cbn [er_lcs option_map].
      * eapply (sim_bind a1 same same any); [apply sim_quiet, q_unmount|]. intros _ a2 I2 X2 _. apply MK. eapply ext_trans; eauto.
      * assert (OK : ms_key ox = Some k).
        { destruct (ext_has _ _ _ _ X1 HK o eq_refl) as (y & Ny & <-). congruence. }
        eapply (sim_bind a1 er_ms same); [apply sim_get|]. intros pm a2 I2 X2 N2.
        assert (KP : ms_keypath pm = kp) by (destruct (ext_node _ _ _ _ (ext_trans _ _ _ X1 X2) ND) as (y & Ny & <-); congruence).
        eapply (sim_bind a2 same same).
        -- apply sim_new; [reflexivity|]. split; [discriminate|split; [reflexivity|]]. intros q [= <-]. exists pm. split; [exact N2|reflexivity].
        -- intros n a4 I4 X4 N4. apply sim_ret; [reflexivity|]. intros b Ib Xb. cbn [fst]. destruct (Xb n _ N4) as (y & Ny & L1 & L2 & L3' & L4).
           exists y. split; [exact Ny|]. split; [rewrite L3'; exact OK|]. rewrite L2, <- KP, <- OK. reflexivity.
    + intros [new old'] a1 I1 X1 (x & Nx & Kx & Px). unfold same at 2 3 4 5 6. cbn [fst snd] in *. cbn [chosen_in] in CH. destruct CH as [CH CC].
      assert (N1 : node a1 new (sub_keypath kp (Some k))) by (exists x; auto). assert (G1 : gives (Some k) new a1) by (exists x; auto).
      eapply (sim_bind a1 same same any).
      * destruct (attr_key attrs) as [k'|] eqn:EK; [|apply sim_quiet, q_ret; reflexivity]. assert (k' = k) as -> by (apply EX; exact EK).
        apply sim_change; [reflexivity|]. intros b y Ib Xb Nb. destruct (gives_ext _ _ _ _ Xb G1) as (y' & Ny' & Ky). assert (y' = y) as -> by congruence.
        split; [repeat split; cbn; auto|apply (Ib new y Nb)].
      * intros _ a2 I2 X2 _. eapply (sim_bind a2 same same any); [eapply sim_attributes; eauto using ext_node|]. intros _ a3 I3 X3 _.
        eapply (sim_bind a3 same same any).
        -- replace (match match children with Some l => Some (map forget l) | None => None end with Some l => l | None => [] end) with (map forget (match children with Some l => l | None => [] end)) by (destruct children; reflexivity).
           apply (IH a3 old' new _ (sub_keypath kp (Some k))); [eapply ext_node; [|exact N1]; eapply ext_trans; eauto|].
           destruct children as [l|]; [|exact Logic.I]. revert CC. generalize 0. clear. induction l as [|r l IHl]; intros i H; [exact Logic.I|]. destruct H. split; [assumption|]. apply IHl. assumption.
        -- intros _ a4 I4 X4 _. apply sim_ret; [reflexivity|]. intros b Ib Xb. eapply gives_ext; [|exact G1]. eapply ext_trans; [exact X2|]. eapply ext_trans; [exact X3|]. eapply ext_trans; eauto.
  - intros a0 old new raws kp ND P. cbn [render_children]. unfold get_children_info. rewrite infos_forget, info_keys. pose proof (placed_infos kp raws 0 P) as FI.
    destruct (has_duplicates (map snd (children_infos 0 raws))); [apply sim_raise|].
    eapply (sim_bind a0 same same any).
    + apply sim_quiet. destruct old as [o|]; [|apply q_ret; reflexivity]. apply (q_bind er_ms same); [apply q_get|]. intros ox. cbn [er_ms ms_children].
      destruct (dvals _) as [|g gs]; [apply q_ret; reflexivity|apply q_unmount].
    + intros _ a1 I1 X1 _. destruct raws as [|r raws]; [apply sim_ret; [reflexivity|easy]|]. cbn [map]. eapply (sim_bind a1 same same any); [apply sim_model, ren_start|]. intros _ a2 I2 X2 _.
      eapply IL; [|exact FI]. eapply ext_node; [|exact ND]. eapply ext_trans; eauto.
  - intros a0 old new index infos kp ND FI. cbn [render_child_list]. destruct infos as [|[kd k] rest]; [apply sim_ret; [reflexivity|easy]|]. cbn [map]. inversion FI as [|? ? FI1 FI2]; subst.
    eapply (sim_bind a0 same same (fun oc b => has_key b oc (Some k))).
    + destruct old as [o|]; [|apply sim_ret; [reflexivity|intros b _ _ n E; discriminate]]. eapply (sim_bind a0 er_ms same); [apply sim_get|]. intros ox a1 I1 X1 N1. apply sim_ret; [reflexivity|].
      intros b Ib Xb n E. eapply (ext_has a1 b (Some n)); [exact Xb| |reflexivity]. intros n' [= <-]. apply (proj1 (proj2 (I1 o ox N1))). clear -E.
      induction (ms_children ox) as [|[k' v] d IHd]; cbn in *; [discriminate|]. destruct (eq_dec k k') as [->|]; [injection E as ->; left; reflexivity|right; auto].
    + intros oc a1 I1 X1 HK. unfold same at 2. assert (ND1 : node a1 new kp) by (eapply ext_node; eauto).
      assert (AD : forall n nx a2, Inv a2 -> nth_error a2 n = Some nx -> ms_key nx = Some k ->
        sim a2 same any (change_ms new (fun x => with_children (dset k n (ms_children x)) (with_model (add_child_model (ms_model nx) (ms_model x)) x)))
          (change_ms new (fun x => with_children (dset k n (ms_children x)) (with_model (add_child_model (ms_model (er_ms nx)) (ms_model x)) x)))).
      { intros n nx a2 I2 N2 K2. apply sim_change; [intros y; unfold er_ms; cbn; rewrite ren_add; reflexivity|]. intros b y Ib Xb Nb. split; [repeat split|]. cbn.
        intros k1 n1 I1'. assert (D : (k1, n1) = (k, n) \/ In (k1, n1) (ms_children y)).
        { clear -I1'. induction (ms_children y) as [|[k' v] d IHd]; cbn in *; [destruct I1' as [<-|[]]; auto|]. destruct (eq_dec k k') as [->|]; cbn in *; destruct I1' as [<-|I1']; auto. destruct (IHd I1'); auto. }
        destruct D as [[= -> ->]|D]; [|apply (proj1 (proj2 (Ib new y Nb))), D]. eapply ext_keyed; [exact Xb|]. exists nx. auto. }
      eapply (sim_bind a1 same same any).
      * destruct kd as [r|c|s]; cbn [ren_info fst snd] in *; unfold info_ok in FI1; cbn [fst snd] in FI1.
        -- destruct FI1 as [F1 F2]. eapply (sim_bind a1 same same); [eapply IM; eauto|]. intros n a2 I2 X2 G2. unfold same at 2 3. eapply (sim_bind a2 er_ms same); [apply sim_get|]. intros nx a3 I3 X3 N3.
           apply AD; auto. destruct (gives_ext _ _ _ _ X3 G2) as (y & Ny & Ky). congruence.
        -- eapply (sim_bind a1 same same); [apply IC; split; [exact HK|exists kp; auto]|]. intros n a2 I2 X2 G2. unfold same at 2 3. eapply (sim_bind a2 er_ms same); [apply sim_get|]. intros nx a3 I3 X3 N3.
           apply AD; auto. destruct (gives_ext _ _ _ _ X3 G2) as (y & Ny & Ky). congruence.
        -- eapply (sim_bind a1 same same any); [apply sim_quiet; destruct oc; [apply q_unmount|apply q_ret; reflexivity]|]. intros _ a2 I2 X2 _.
           apply (sim_model a2 new (add_child_model (MText s)) (add_child_model (MText s))). intros y. rewrite <- ren_add. reflexivity.
      * intros _ a2 I2 X2 _. eapply IL; [|exact FI2]. eapply ext_node; eauto.
Qed.

Lemma reaches_er fuel hp : forall m p, reaches fuel (map er_ms hp) m p = reaches fuel hp m p.
Proof.
  induction fuel as [|f IH]; intros m p; cbn [reaches]; [reflexivity|]. destruct (Nat.eq_dec m p); [reflexivity|]. rewrite nth_error_map. destruct (nth_error hp m) as [x|]; [|reflexivity].
  cbn [option_map]. change (ms_children (er_ms x)) with (ms_children x). induction (dvals (ms_children x)) as [|c l IL]; cbn; [reflexivity|]. rewrite IH, IL. reflexivity.
Qed.
Lemma alive_er s p : alive (er s) p = alive s p.
Proof.
  unfold alive. cbn [er s_reg s_heap]. rewrite map_length. induction (s_reg s) as [|[h m] l IH]; [reflexivity|]. cbn [existsb snd]. rewrite reaches_er, IH. reflexivity.
Qed.
Lemma q_get_parent x : quiet same (get_parent x) (get_parent (er_ms x)).
Proof.
  unfold get_parent. change (ms_parent (er_ms x)) with (ms_parent x). destruct (ms_parent x) as [p|]; [|apply q_ret; reflexivity].
  intros s. rewrite alive_er. destruct (alive s p); split; reflexivity.
Qed.
Lemma get_parent_is x s p : fst (get_parent x s) = Ok p -> p = ms_parent x.
Proof. unfold get_parent. destruct (ms_parent x) as [q|]; [|now intros [= <-]]. destruct (alive s q); [|discriminate]. now intros [= <-]. Qed.
Definition ren_update (u : list nat * model) : list nat * model := (fst u, ren_model tau (snd u)).
Lemma sim_update a0 fuel old : sim a0 ren_update any (create_layout_update debug defs fuel old) (create_layout_update debug defs0 fuel old).
Proof.
  unfold create_layout_update.
  eapply (sim_bind a0 same ren_update any); [apply sim_quiet, q_modify; reflexivity|]. intros _ a1 I1 X1 _. eapply (sim_bind a1 same ren_update any); [apply sim_quiet, q_modify; reflexivity|]. intros _ a2 I2 X2 _.
  apply sim_finally; [easy| |apply sim_quiet, q_modify; reflexivity].
  eapply (sim_bind a2 er_ms ren_update); [apply sim_get|]. intros ox a3 I3 X3 N3. cbn [er_ms ms_lcs]. destruct (ms_lcs ox) as [[h c]|] eqn:EL; cbn [er_lcs option_map fst snd]; [|apply sim_raise].
  eapply (sim_bind a3 same ren_update (fun p _ => p = ms_parent ox)).
  { intros s Is Es. destruct (q_get_parent ox s) as [Q1 Q2]. rewrite Q2. parts. intros p E. eapply get_parent_is; eauto. }
  intros parent a4 I4 X4 ->. unfold same at 1. destruct (X4 old ox N3) as (ox' & N4 & L4). destruct (I4 old ox' N4) as (C4 & _ & P4). destruct L4 as (L1 & L2 & L3 & L5).
  assert (HW : W (ms_keypath ox) c) by (rewrite <- L2; apply (C4 h); congruence).
  change (ms_key (er_ms ox)) with (ms_key ox). change (ms_index (er_ms ox)) with (ms_index ox).
  eapply (sim_bind a4 same ren_update (fun n b => gives (ms_key ox) n b)).
  - apply sim_finally; [intros n b d G X; eapply gives_ext; eauto| |].
    + apply (proj1 (sim_render fuel)). split; [intros n [= <-]; exists ox'; auto|]. destruct (ms_parent ox) as [p|] eqn:EP.
      * destruct (P4 p) as (px & Np & K); [congruence|]. exists (ms_keypath px). split; [exists px; auto|]. rewrite <- L3, <- K, L2. exact HW.
      * intros o y [= <-] Ny. assert (y = ox') as -> by congruence. rewrite L2. exact HW.
    + apply sim_quiet. apply (q_bind same same); [apply q_gets; reflexivity|]. intros hs. apply q_exit.
  - intros n a5 I5 X5 G5. unfold same at 1 2. eapply (sim_bind a5 er_ms ren_update); [apply sim_get|]. intros nx a6 I6 X6 N6. eapply (sim_bind a6 same ren_update any); [|intros _ a7 _ _ _; apply sim_ret; [reflexivity|easy]].
    destruct (ms_parent ox) as [p|]; [|apply sim_ret; [reflexivity|easy]]. apply sim_change.
    + intros x. change (ms_key (er_ms nx)) with (ms_key nx). unfold er_ms. cbn [ms_index ms_model with_model]. rewrite ren_replace. destruct (ms_key nx); reflexivity.
    + intros b y Ib Xb Nb. destruct (ms_key nx) as [k|] eqn:EK; (split; [repeat split|]); cbn; [|apply (Ib p y Nb)].
      intros k1 n1 I1'. assert (D : (k1, n1) = (k, n) \/ In (k1, n1) (ms_children y)).
      { clear -I1'. induction (ms_children y) as [|[k' v] d IHd]; cbn in *; [destruct I1' as [<-|[]]; auto|]. destruct (eq_dec k k') as [->|]; cbn in *; destruct I1' as [<-|I1']; auto. destruct (IHd I1'); auto. }
      destruct D as [[= -> ->]|D]; [|apply (proj1 (proj2 (Ib p y Nb))), D]. eapply ext_keyed; [exact Xb|]. exists nx. auto.
Qed.
Lemma sim_serial fuel q : forall a0, sim a0 (option_map ren_update) any (serial_render debug defs fuel q) (serial_render debug defs0 fuel q).
Proof.
  induction q as [|h q IH]; intros a0; cbn [serial_render]; [apply sim_ret; [reflexivity|easy]|].
  eapply (sim_bind a0 same _ any); [apply sim_quiet, q_modify; reflexivity|]. intros _ a1 I1 X1 _. eapply (sim_bind a1 same _ any); [apply sim_quiet, q_gets; reflexivity|]. intros r a2 I2 X2 _. unfold same at 1.
  destruct r as [m|].
  - eapply (sim_bind a2 ren_update _ any); [apply sim_update|]. intros u a3 _ _ _. apply sim_ret; [reflexivity|easy].
  - eapply (sim_bind a2 same _ any); [apply sim_quiet, q_log; reflexivity|]. intros _ a3 _ _ _. apply IH.
Qed.
Lemma step_er fuel o s : Inv (s_heap s) -> step debug defs0 fuel (ren_op tau o) (er s) = option_map er (step debug defs fuel o s) /\ (forall t, step debug defs fuel o s = Some t -> Inv (s_heap t)).
Proof.
  intros I. destruct o as [bs|e]; cbn [step ren_op].
  - change (s_queue (er s)) with (s_queue s). change (set_env (map (map (ren_env tau)) bs) (er s)) with (er (set_env bs s)).
    destruct (sim_serial fuel (s_queue s) [] (set_env bs s) I) as (E & I' & _ & _); [intros [|m] x; discriminate|]. rewrite E.
    destruct (serial_render debug defs fuel (s_queue s) (set_env bs s)) as [[[[p m]|]|e|] t]; cbn [fst snd rmap option_map ren_update] in *; (split; [unfold er, set_log; cbn; rewrite ?map_app; reflexivity|intros t' [= <-]; exact I']).
  - rewrite env_er. split; [reflexivity|]. intros t [= <-]. rewrite env_heap. exact I.
Qed.
Lemma run_er fuel ops : forall s, Inv (s_heap s) -> run debug defs0 fuel (map (ren_op tau) ops) (er s) = option_map er (run debug defs fuel ops s).
Proof.
  induction ops as [|o ops IH]; intros s I; [reflexivity|]. cbn [run map]. destruct (step_er fuel o s I) as [E K]. rewrite E. destruct (step debug defs fuel o s) as [t|]; [apply IH, K; reflexivity|reflexivity].
Qed.
Lemma init_inv root : W "" root -> Inv (s_heap (init root)).
Proof.
  intros H [|[|m]] x; cbn; intros [= <-]. split; [intros h c [= <- <-]; exact H|]. split; [intros ? ? []|discriminate].
Qed.
Lemma inst_er fuel hp : forall m, inst_at fuel (map er_ms hp) m = inst_at fuel hp m.
Proof.
  induction fuel as [|f IH]; intros m; cbn [inst_at]; [reflexivity|]. rewrite nth_error_map. destruct (nth_error hp m) as [x|]; [|reflexivity]. cbn [option_map er_ms ms_children ms_lcs].
  rewrite (map_ext _ (fun km : key * nat => (fst km, inst_at f hp (snd km)))) by (intros a; now rewrite IH). destruct (ms_lcs x) as [[h [ty k p kids]]|]; reflexivity.
Qed.
Lemma mounted_er s : mounted (er s) = mounted s.
Proof. unfold mounted. cbn [er s_reg s_heap]. destruct (dget 0 (s_reg s)) as [m|]; [|reflexivity]. rewrite inst_er, map_length. reflexivity. Qed.
End Renaming.

(** Every run of the program with targets of its own is the run of the program without them, under the other names: the same calls of
    render functions, errors, effects, unmounts and updates in the same order, the same values of all hooks, the same requested renders,
    and the handler of each target is the one of the other name. *)
Theorem C114_renamed : forall defs defs0 root sg tau, (forall x, tau (sg x) = x) -> (forall x, sg (tau x) = x) -> one_target_each defs root sg -> without_targets defs defs0 ->
  forall debug fuel ops s, run debug defs fuel ops (init root) = Some s ->
  exists s', run debug defs0 fuel (map (ren_op tau) ops) (init (forget_c root)) = Some s' /\ s_log s' = map (ren_ev tau) (s_log s) /\
    s_hooks s' = s_hooks s /\ s_queue s' = s_queue s /\ mounted s' = mounted s /\ (forall x, dget (tau x) (s_eh s') = option_map bare (dget x (s_eh s))).
Proof.
  intros defs defs0 root sg tau T1 T2 (W & W0 & WC) WT debug fuel ops s E. exists (er tau s).
  split; [|split; [reflexivity|split; [reflexivity|split; [reflexivity|split; [apply mounted_er|intros x; apply (ren_dget sg tau T2)]]]]].
  change (init (forget_c root)) with (er tau (init root)). rewrite (run_er sg tau T1 T2 W debug defs defs0 WT WC fuel ops (init root)), E; [reflexivity|]. apply init_inv, W0.
Qed.
(** And the other way round. *)
Theorem C114_converse : forall defs defs0 root sg tau, (forall x, tau (sg x) = x) -> (forall x, sg (tau x) = x) -> one_target_each defs root sg -> without_targets defs defs0 ->
  forall debug fuel ops s', run debug defs0 fuel (map (ren_op tau) ops) (init (forget_c root)) = Some s' ->
  exists s, run debug defs fuel ops (init root) = Some s /\ s_log s' = map (ren_ev tau) (s_log s).
Proof.
  intros defs defs0 root sg tau T1 T2 (W & W0 & WC) WT debug fuel ops s' E. change (init (forget_c root)) with (er tau (init root)) in E.
  rewrite (run_er sg tau T1 T2 W debug defs defs0 WT WC fuel ops (init root)) in E by apply init_inv, W0. destruct (run debug defs fuel ops (init root)) as [s|]; [|discriminate]. injection E as <-.
  exists s. split; reflexivity.
Qed.

Section Client.
Variable t : string -> string.
Lemma ren_put p m : forall M, put_at p (ren_model t m) (ren_model t M) = option_map (ren_model t) (put_at p m M).
Proof.
  induction p as [|i p IH]; intros M; [reflexivity|]. destruct M as [s|tag imp attrs js eh [ch|] err]; cbn [put_at ren_model]; try reflexivity.
  rewrite nth_error_map. destruct (nth_error ch i) as [x|]; cbn [option_map]; [|reflexivity]. rewrite IH. destruct (put_at p m x) as [y|]; cbn [option_map]; [|reflexivity].
  cbn [ren_model]. rewrite map_upd. reflexivity.
Qed.
Lemma ren_client us : forall M, fold_left client_step (map (fun u => (fst u, ren_model t (snd u))) us) (option_map (option_map (ren_model t)) M) = option_map (option_map (ren_model t)) (fold_left client_step us M).
Proof.
  induction us as [|[p m] us IH]; intros M; [reflexivity|]. cbn [map fold_left]. rewrite <- IH. f_equal. unfold client_step. cbn [fst snd].
  destruct p as [|i p]; [reflexivity|]. destruct M as [[x|]|]; cbn [option_map]; try reflexivity. rewrite ren_put. reflexivity.
Qed.
Lemma ren_updates l : updates (map (ren_ev t) l) = map (fun u => (fst u, ren_model t (snd u))) (updates l).
Proof. induction l as [|e l IH]; [reflexivity|]. unfold updates in *. cbn [map flat_map]. rewrite map_app, IH. destruct e; reflexivity. Qed.
Fixpoint ren_targets (m : model) : model_targets (ren_model t m) = map t (model_targets m).
Proof.
  destruct m as [s|tag imp attrs js eh ch err]; [reflexivity|]. cbn [ren_model model_targets]. rewrite map_app. f_equal.
  - destruct eh as [d|]; [|reflexivity]. rewrite !map_map. reflexivity.
  - destruct ch as [l|]; [|reflexivity]. induction l as [|c l IH]; [reflexivity|]. cbn [map flat_map]. rewrite map_app, ren_targets, IH. reflexivity.
Qed.
Lemma ren_plain r : plain r -> plain (forget r).
Proof.
  induction 1 as [|x|tag attrs js imp l H IH|tag attrs js imp]; cbn; constructor. intros r Hr. apply in_map_iff in Hr. destruct Hr as (x & <- & Hx). auto.
Qed.
Lemma ren_mild l : mild_failures l -> mild_failures (map (ren_ev t) l).
Proof.
  intros H l1 h e l2 E. apply map_eq_app in E. destruct E as (k1 & k2 & -> & <- & E). apply map_eq_cons in E. destruct E as (v & k3 & -> & Ev & <-).
  assert (v = EvError h e) as -> by (destruct v; cbn in Ev; congruence). destruct (H k1 h e k3 eq_refl) as [R P]. split; [exact R|].
  intros r Hr. apply in_map_iff in Hr. destruct Hr as (w & Ew & Hw). destruct w; try discriminate. injection Ew as -> <-. apply ren_plain, P, Hw.
Qed.
End Client.

(** So C06 holds with targets of its own too: the registered targets are exactly the displayed ones, and no two are the same. *)
Theorem C114_targets_exact : forall defs defs0 root sg tau, (forall x, tau (sg x) = x) -> (forall x, sg (tau x) = x) -> one_target_each defs root sg -> without_targets defs defs0 ->
  keyed_app defs0 (forget_c root) ->
  forall debug ops s n, history debug defs root ops s -> mild_failures (s_log s) -> mounted s = Some n -> updates (s_log s) <> [] ->
  exists M, client (updates (s_log s)) = Some (Some M) /\ NoDup (model_targets M) /\ (forall x, dget x (s_eh s) <> None <-> In x (model_targets M)).
Proof.
  intros defs defs0 root sg tau T1 T2 OT WT KA debug ops s n [fuel H] MF MT U.
  destruct (C114_renamed defs defs0 root sg tau T1 T2 OT WT debug fuel ops s H) as (s' & H' & EL & _ & _ & EM & EH).
  assert (HH : history debug defs0 (forget_c root) (map (ren_op tau) ops) s') by (exists fuel; exact H').
  assert (MF' : mild_failures (s_log s')) by (rewrite EL; apply ren_mild, MF). assert (MT' : mounted s' = Some n) by congruence.
  assert (U' : updates (s_log s') <> []) by (rewrite EL, ren_updates; destruct (updates (s_log s)); [congruence|discriminate]).
  destruct (C06_targets_exact debug defs0 (forget_c root) _ s' n KA HH MF' MT' U') as (M' & binds & C & _ & _ & TM & B).
  destruct (C07_no_collision_in_a_tree debug defs0 (forget_c root) _ s' n KA HH MF' MT' U') as (M2 & C2 & ND).
  unfold client in C, C2. rewrite EL, ren_updates in C, C2. change (@None (option model)) with (option_map (option_map (ren_model tau)) (@None (option model))) in C, C2.
  rewrite ren_client in C, C2. destruct (client (updates (s_log s))) as [[M|]|] eqn:EC; unfold client in EC; rewrite EC in C, C2; try discriminate.
  injection C as <-. injection C2 as <-. rewrite ren_targets in TM, ND. exists M. split; [reflexivity|]. split; [exact (NoDup_map_inv _ _ ND)|].
  intros x. assert (X : In x (model_targets M) <-> In (tau x) (dkeys binds)).
  { rewrite <- TM. rewrite in_map_iff. split; [intros I; exists x; auto|]. intros (y & E & I). rewrite <- (T2 x), <- E, T2. exact I. }
  rewrite X. specialize (EH x). rewrite B in EH. assert (D : forall k d, dget k d <> None <-> In k (@dkeys string handler d)).
  { intros k d. induction d as [|[k' v] d IH]; cbn; [tauto|]. destruct (eq_dec k k') as [->|N]; [split; [auto|discriminate]|]. rewrite IH. split; [auto|]. intros [E|I]; [congruence|exact I]. }
  rewrite <- D, EH. destruct (dget x (s_eh s)); cbn; split; congruence.
Qed.
Print Assumptions C114_renamed.
Print Assumptions C114_converse.
Print Assumptions C114_targets_exact.

(** Two buttons with the same handler function on one of them: the handler moves from the second button to the first in one render. *)
Definition moving := app_of
  (PState (VInt 0) (fun v _ => PRet (elem "p" [] (if veq v (VInt 0) then [elem "b" [] []; elem "b" (click 1 (Some "t")) []]
                                                  else [elem "b" (click 1 (Some "t")) []; elem "b" [] []]))))
  (PRet RNone).
Definition moving_end : st := Eval vm_compute in ends moving retarget_ops.
(** Finding: one handler with one target, displayed once at every time, is displayed but no longer registered after it moved to an element
    rendered earlier: the later element deletes the target the earlier one has just registered (layout.py:412-414). No failure is reported,
    and every event for it is dropped from then on. *)
Theorem C114_moved_refuted : exists debug defs root ops s M x,
  steady_app defs /\ history debug defs root ops s /\ no_failure (s_log s) /\ mounted s <> None /\
  (forall r, In (EvReturn 0 r) (s_log s) -> exists a b, r = elem "p" [] [elem "b" a []; elem "b" b []] /\ (a ++ b) = click 1 (Some x)) /\
  client (updates (s_log s)) = Some (Some M) /\ In x (model_targets M) /\ dget x (s_eh s) = None.
Proof.
  exists false, moving, root0, retarget_ops, moving_end. eexists. exists "t". split.
  { split; intros [|n] p l; try apply compile_no_provide; apply compile_steady; intros h; simpl; auto. }
  split; [exists 40; vm_compute; reflexivity|]. split; [apply no_failure_dec; reflexivity|]. split; [vm_compute; discriminate|]. split.
  { intros r H. assert (D : r = elem "p" [] [elem "b" [] []; elem "b" (click 1 (Some "t")) []] \/ r = elem "p" [] [elem "b" (click 1 (Some "t")) []; elem "b" [] []]) .
    { vm_compute in H. repeat (destruct H as [H|H]; [try discriminate H; injection H as <-; (left; reflexivity) || (right; reflexivity)|]). destruct H. }
    destruct D as [-> | ->]; do 2 eexists; split; reflexivity. }
  split; [vm_compute; reflexivity|]. split; [vm_compute; tauto|reflexivity].
Qed.
Print Assumptions C114_moved_refuted.

(** Not vacuous: a list of rows, each a component with a button of its own target, whose order is turned round by a state change. *)
Definition row (k : string) (t : option string) : raw := RComp (Cinst (CTUser 1) (Some (KStr k)) (VStr k) []).
Definition rows (own : bool) (n : nat) (p : val) (_ : list raw) : body :=
  match n with
  | O => BUseCell (CState (VInt 0)) (fun _ _ c =>
           BRet (RElem "ul" None [] None None (Some (match c with CState (VInt 0) => [row "a" None; row "b" None] | _ => [row "b" None; row "a" None] end))))
  | _ => match p with
         | VStr k => BRet (RElem "button" None (click 1 (if own then Some (String.append "static-" k) else None)) None None None)
         | _ => BRet RNone
         end
  end.
Definition turn (x : string) : string :=
  if string_dec x "/0/a/0:onClick" then "static-a" else if string_dec x "static-a" then "/0/a/0:onClick"
  else if string_dec x "/0/b/0:onClick" then "static-b" else if string_dec x "static-b" then "/0/b/0:onClick" else x.
Lemma turn_turn x : turn (turn x) = x.
Proof.
  destruct (string_dec x "/0/a/0:onClick") as [->|A]; [reflexivity|]. destruct (string_dec x "static-a") as [->|B]; [reflexivity|].
  destruct (string_dec x "/0/b/0:onClick") as [->|C]; [reflexivity|]. destruct (string_dec x "static-b") as [->|D]; [reflexivity|].
  assert (E : turn x = x).
  { unfold turn. destruct (string_dec x "/0/a/0:onClick"); [contradiction|]. destruct (string_dec x "static-a"); [contradiction|].
    destruct (string_dec x "/0/b/0:onClick"); [contradiction|]. destruct (string_dec x "static-b"); [contradiction|reflexivity]. }
  rewrite !E. reflexivity.
Qed.
Definition rows_ops : list op := [ORender []; OEnv (EDispatch 0 0 (UVal (VInt 1))); OEnv (ESeq "static-b" 7); ORender []].
Definition rows_end : st := Eval vm_compute in match run false (rows true) 40 rows_ops (init root0) with Some s => s | None => init root0 end.
Local Ltac ok := solve [vm_compute; intuition discriminate].
Example C114_nonvacuous :
  one_target_each (rows true) root0 turn /\ without_targets (rows true) (rows false) /\ keyed_app (rows false) (forget_c root0) /\
  history false (rows true) root0 rows_ops rows_end /\ mild_failures (s_log rows_end) /\ mounted rows_end <> None /\ length (updates (s_log rows_end)) = 2 /\
  dget "static-b" (s_eh rows_end) <> None /\ dget "/0/b/0:onClick" (s_eh rows_end) = None.
Proof.
  split.
  { exists (fun path c => path = "" /\ c = root0 \/ exists k, (k = "a" \/ k = "b") /\ path = String.append "/0/" k /\ c = Cinst (CTUser 1) (Some (KStr k)) (VStr k) []).
    split; [auto|]. intros path c r [[-> ->]|(k & K & -> & ->)] H.
    - destruct H as (h & i & x & <-). split; [intros ? ? []|].
      destruct x as [v| | |]; try destruct v as [| |[]| | |]; (split; [|split; [|exact Logic.I]]); right;
        ((exists "a"; split; [auto|split; reflexivity]) || (exists "b"; split; [auto|split; reflexivity])).
    - cbn in H. subst r. split; [|exact Logic.I]. intros ev h [[= <- <-]|[]]. left. destruct K as [-> | ->]; reflexivity. }
  split.
  { intros [|n] p kids; [|destruct p; exact (FRet _)]. apply FUseCell. intros h i c.
    destruct c as [v| | |]; try destruct v as [| |[]| | |]; exact (FRet _). }
  split.
  { split; [|split; exact Logic.I]. intros [|n] p kids _.
    - intros h i c. split; [|split; repeat constructor; ok]. split; [split; [constructor|intros ? ? []]|].
      destruct c as [v| | |]; try destruct v as [| |[]| | |]; (split; [split; repeat constructor; ok|repeat split]).
    - destruct p; cbn; try (split; [exact Logic.I|split; repeat constructor; ok]).
      split; [|split; repeat constructor; ok]. split; [|exact Logic.I]. split; [repeat constructor; ok|]. intros ev h [[= <- <-]|[]]. split; [reflexivity|]. repeat constructor; ok. }
  split; [exists 40; vm_compute; reflexivity|]. split; [apply no_failure_mild, no_failure_dec; reflexivity|]. split; [vm_compute; discriminate|].
  split; [reflexivity|]. split; [vm_compute; discriminate|reflexivity].
Qed.
