(** * Invariants of async rendering *)
From Coq Require Import Arith Bool Lia List.
From Verif Require Import EffectModel EffectProps AsyncModel.
Import ListNotations.

Lemma upd_same {A} (f : nat -> A) c x : upd f c x c = x.
Proof. unfold upd. rewrite Nat.eqb_refl. reflexivity. Qed.
Lemma upd_other {A} (f : nat -> A) c d x : d <> c -> upd f c x d = f d.
Proof. intros N. unfold upd. destruct (Nat.eqb_spec d c); congruence. Qed.

(** ** Trees *)

Fixpoint ctree_ind' (P : ctree -> Prop) (H : forall c ks, Forall P ks -> P (CNode c ks)) (t : ctree) : P t :=
  match t with
  | CNode c ks => H c ks ((fix go l : Forall P l := match l with [] => Forall_nil P | x :: r => Forall_cons x (ctree_ind' P H x) (go r) end) ks)
  end.
Definition size (t : ctree) : nat := length (subs t).
Lemma subs_refl t : In t (subs t).
Proof. destruct t; simpl; auto. Qed.
Lemma subs_trans t : forall u v, In u (subs t) -> In v (subs u) -> In v (subs t).
Proof.
  induction t as [c ks IH] using ctree_ind'. intros u v J K. simpl in J. destruct J as [<-|J]; auto. simpl. right.
  apply in_flat_map in J. destruct J as (x & Jx & J). apply in_flat_map. exists x. split; auto. rewrite Forall_forall in IH. eapply IH; eauto.
Qed.
Lemma subs_kid t d : In d (ckids t) -> In d (subs t).
Proof. destruct t as [c ks]. simpl. intros J. right. apply in_flat_map. exists d. split; auto. apply subs_refl. Qed.
Lemma size_in t u : In u (subs t) -> size u <= size t.
Proof.
  revert u. induction t as [c ks IH] using ctree_ind'. intros u J. simpl in J. destruct J as [<-|J]; auto.
  apply in_flat_map in J. destruct J as (x & Jx & J). rewrite Forall_forall in IH. specialize (IH x Jx u J).
  assert (L : size x <= length (flat_map subs ks)).
  { clear - Jx. induction ks as [|y ks IHk]; simpl in *; [contradiction|]. rewrite app_length. destruct Jx as [->|Jx]; [unfold size; lia|specialize (IHk Jx); lia]. }
  unfold size in *. simpl. lia.
Qed.
Lemma size_kid t d : In d (ckids t) -> size d < size t.
Proof.
  destruct t as [c ks]. unfold size. simpl. intros J. induction ks as [|y ks IHk]; simpl in *; [contradiction|]. rewrite app_length. destruct J as [->|J]; [lia|specialize (IHk J); lia].
Qed.
Lemma ids_eq c ks : ids (CNode c ks) = c :: flat_map ids ks.
Proof. unfold ids. simpl. f_equal. induction ks as [|k ks IH]; simpl; auto. rewrite map_app, IH. reflexivity. Qed.
Lemma ids_self t : In (cid t) (ids t).
Proof. unfold ids. apply in_map. apply subs_refl. Qed.
Lemma ids_sub t u : In u (subs t) -> incl (ids u) (ids t).
Proof. intros J c K. unfold ids in *. apply in_map_iff in K. destruct K as (x & <- & K). apply in_map. eapply subs_trans; eauto. Qed.
Lemma nodup_map_inj {A B} (f : A -> B) l x y : NoDup (map f l) -> In x l -> In y l -> f x = f y -> x = y.
Proof.
  intros ND J K E. apply In_nth_error in J. apply In_nth_error in K. destruct J as (i & J), K as (j & K).
  assert (i = j).
  { apply (proj1 (NoDup_nth_error (map f l)) ND); [rewrite map_length; apply nth_error_Some; congruence|]. rewrite !nth_error_map, J, K. simpl. congruence. }
  subst. congruence.
Qed.

(** The stack of a task that renders the tree [r] and is at [d]. *)
Inductive spine (r : ctree) : ctree -> frames -> Prop :=
  | spine_nil : spine r r []
  | spine_cons d p ks st : In d (ckids p) -> incl ks (ckids p) -> spine r p st -> spine r d ((cid p, ks) :: st).
Lemma spine_sub r d st : spine r d st -> In d (subs r).
Proof. induction 1 as [|d p ks st A B C D]; [apply subs_refl|]. eapply subs_trans; [exact D|]. apply subs_kid. auto. Qed.
(** Every frame is an ancestor. *)
Lemma spine_frames r d st : spine r d st -> forall f, In f st -> exists p, fst f = cid p /\ In p (subs r) /\ In d (subs p) /\ size d < size p /\ incl (snd f) (ckids p).
Proof.
  induction 1 as [|d p ks st A B C D]; intros f J; [contradiction|]. destruct J as [<-|J].
  - exists p. simpl. repeat split; auto; [eapply spine_sub; eauto|apply subs_kid; auto|apply size_kid; auto].
  - destruct (D f J) as (q & E1 & E2 & E3 & E4 & E5). exists q. repeat split; auto; [eapply subs_trans; [exact E3|apply subs_kid; auto]|].
    pose proof (size_kid p d A). lia.
Qed.
Lemma spine_nodup root r d st : NoDup (ids root) -> In r (subs root) -> spine r d st -> NoDup (cid d :: map fst st).
Proof.
  intros ND R S. induction S as [|d p ks st A B C D]; simpl; [repeat constructor; simpl; tauto|].
  constructor; auto. intros J. change (In (cid d) (map fst ((cid p, ks) :: st))) in J. apply in_map_iff in J. destruct J as (f & E & J).
  destruct (spine_frames r d ((cid p, ks) :: st) (spine_cons r d p ks st A B C) f J) as (q & E1 & E2 & E3 & E4 & _).
  assert (q = d). { eapply (nodup_map_inj cid (subs root)); eauto; [eapply subs_trans; eauto|eapply subs_trans; [exact R|]; eapply spine_sub; econstructor; eauto|congruence]. }
  subst. lia.
Qed.

(** ** What a task has yet to render *)
Definition rest_of (st : frames) : list nat := flat_map (fun f => flat_map ids (snd f)) st.
Definition future (t : rtask) : list nat :=
  match r_pc t with
  | PStart => ids (r_tree t)
  | PWait d st | PGot d st => ids d ++ rest_of st
  | PDone | PCancelled => []
  end.
Lemma spine_rest r d st : spine r d st -> incl (ids d ++ rest_of st) (ids r).
Proof.
  intros S c J. apply in_app_iff in J. destruct J as [J|J]; [exact (ids_sub r d (spine_sub _ _ _ S) c J)|].
  apply in_flat_map in J. destruct J as (f & Jf & J). apply in_flat_map in J. destruct J as (e & Je & J).
  destruct (spine_frames r d st S f Jf) as (p & _ & E2 & _ & _ & E5). apply (ids_sub r e); auto. eapply subs_trans; [exact E2|]. apply subs_kid. auto.
Qed.

(** ** The effect of one step on the tasks *)

(** The cancellation of [by_id]'s task when [k] enters [d]. *)
Definition hits (s : async) (k : nat) (d : ctree) (i : nat) (u : rtask) : bool :=
  match s_by_id s (cid d) with Some j => Nat.eqb i j && negb (Nat.eqb i k) && negb (finished u) | None => false end.
Lemma set_task_pc_other k pc s i : i <> k -> nth_error (s_tasks (set_task_pc k pc s)) i = nth_error (s_tasks s) i.
Proof. intros N. unfold set_task_pc. destruct (nth_error (s_tasks s) k); auto. simpl. apply put_other. auto. Qed.
Lemma set_task_pc_same k pc s t : nth_error (s_tasks s) k = Some t -> nth_error (s_tasks (set_task_pc k pc s)) k = Some (RTask (r_tree t) pc (r_cancel t) (r_out t)).
Proof. intros E. unfold set_task_pc. rewrite E. simpl. apply put_same. apply nth_error_Some. congruence. Qed.
Lemma set_task_pc_len k pc s : length (s_tasks (set_task_pc k pc s)) = length (s_tasks s).
Proof. unfold set_task_pc. destruct (nth_error (s_tasks s) k); auto. simpl. apply put_length. Qed.

(** What does not change in a run of a task. *)
Definition same_but_tasks (s s' : async) : Prop :=
  s_ver s' = s_ver s /\ s_shown s' = s_shown s /\ s_flag s' = s_flag s /\ s_ready s' = s_ready s /\ s_unread s' = s_unread s /\
  s_consumer s' = s_consumer s /\ s_sent s' = s_sent s /\ length (s_tasks s') = length (s_tasks s).
Lemma same_refl s : same_but_tasks s s. Proof. repeat split. Qed.
Lemma same_set_task_pc k pc s : same_but_tasks s (set_task_pc k pc s).
Proof. pose proof (set_task_pc_len k pc s). unfold same_but_tasks. unfold set_task_pc in *. destruct (nth_error (s_tasks s) k); repeat split; auto. Qed.
Lemma holder_set_task_pc k pc s : s_holder (set_task_pc k pc s) = s_holder s.
Proof. unfold set_task_pc. destruct (nth_error (s_tasks s) k); auto. Qed.
Lemma by_id_set_task_pc k pc s : s_by_id (set_task_pc k pc s) = s_by_id s.
Proof. unfold set_task_pc. destruct (nth_error (s_tasks s) k); auto. Qed.

Lemma cancel_spec j s : same_but_tasks s (cancel j s) /\ s_holder (cancel j s) = s_holder s /\ s_by_id (cancel j s) = s_by_id s /\
  (forall i u, nth_error (s_tasks s) i = Some u -> nth_error (s_tasks (cancel j s)) i = Some (RTask (r_tree u) (r_pc u) (r_cancel u || (Nat.eqb i j && negb (finished u))) (r_out u))).
Proof.
  assert (ID : forall u, u = RTask (r_tree u) (r_pc u) (r_cancel u || false) (r_out u)) by (intros []; simpl; rewrite orb_false_r; auto).
  unfold cancel. destruct (nth_error (s_tasks s) j) as [t|] eqn:E.
  - destruct (finished t) eqn:F.
    + repeat split; auto. intros i u U. destruct (Nat.eqb_spec i j) as [->|]; simpl.
      * rewrite E in U. injection U as <-. rewrite F. simpl. rewrite <- ID. auto.
      * rewrite <- ID. auto.
    + repeat split; auto; simpl; [apply put_length|]. intros i u U. destruct (Nat.eqb_spec i j) as [->|N]; simpl.
      * rewrite E in U. injection U as <-. rewrite F. simpl. rewrite orb_true_r. apply put_same. apply nth_error_Some. congruence.
      * rewrite put_other by auto. rewrite <- ID. auto.
  - repeat split; auto. intros i u U. destruct (Nat.eqb_spec i j) as [->|]; simpl; [congruence|]. rewrite <- ID. auto.
Qed.
Lemma enter_spec k d st s t : nth_error (s_tasks s) k = Some t ->
  let s' := enter k d st s in
  same_but_tasks s s' /\ s_holder s' = s_holder s /\
  (forall c, s_by_id s' c = s_by_id s c \/ s_by_id s' c = None) /\
  nth_error (s_tasks s') k = Some (RTask (r_tree t) (PWait d st) (r_cancel t) (r_out t)) /\
  (forall i u, i <> k -> nth_error (s_tasks s) i = Some u -> nth_error (s_tasks s') i = Some (RTask (r_tree u) (r_pc u) (r_cancel u || hits s k d i u) (r_out u))).
Proof.
  intros E. unfold enter. cbv zeta. unfold hits.
  assert (ID : forall u, u = RTask (r_tree u) (r_pc u) (r_cancel u || false) (r_out u)) by (intros []; simpl; rewrite orb_false_r; auto).
  destruct (s_by_id s (cid d)) as [j|] eqn:B.
  - destruct (Nat.eqb_spec j k) as [->|N].
    + split; [apply same_set_task_pc|]. split; [apply holder_set_task_pc|]. split; [rewrite by_id_set_task_pc; auto|]. split; [apply set_task_pc_same; auto|].
      intros i u NI U. rewrite set_task_pc_other by auto. destruct (Nat.eqb_spec i k); [congruence|]. simpl. rewrite <- ID. auto.
    + set (s0 := set_by_id s (upd (s_by_id s) (cid d) None)). destruct (cancel_spec j s0) as (C1 & C2 & C3 & C4). set (s1 := cancel j s0) in *.
      assert (E1 : nth_error (s_tasks s1) k = Some t).
      { rewrite (C4 k t E). destruct (Nat.eqb_spec k j); [congruence|]. simpl. rewrite <- ID. auto. }
      clearbody s1. destruct C1 as (V1 & V2 & V3 & V4 & V5 & V6 & V7 & V8). destruct (same_set_task_pc k (PWait d st) s1) as (W1 & W2 & W3 & W4 & W5 & W6 & W7 & W8).
      split; [|split; [|split; [|split]]].
      * unfold same_but_tasks. repeat split; try (etransitivity; [eassumption|]; assumption).
      * rewrite holder_set_task_pc. auto.
      * intros c. rewrite by_id_set_task_pc, C3. simpl. unfold upd. destruct (Nat.eqb c (cid d)); auto.
      * apply set_task_pc_same. auto.
      * intros i u NI U. rewrite set_task_pc_other by auto. rewrite (C4 i u U). destruct (Nat.eqb_spec i j) as [->|]; simpl; auto.
        destruct (Nat.eqb_spec j k); [congruence|]. reflexivity.
  - split; [apply same_set_task_pc|]. split; [apply holder_set_task_pc|]. split; [rewrite by_id_set_task_pc; auto|]. split; [apply set_task_pc_same; auto|].
    intros i u NI U. rewrite set_task_pc_other by auto. rewrite <- ID. auto.
Qed.

(** [descend] gives back the semaphores of the finished components, then enters the next child or returns. *)
Lemma descend_spec k : forall st s, exists gone h,
  (forall c, h c = if existsb (Nat.eqb c) gone then None else s_holder s c) /\
  ((exists c d ds rest, descend k st s = enter k d ((c, ds) :: rest) (set_holder s h) /\ (exists gs, st = gs ++ (c, d :: ds) :: rest /\ gone = map fst gs /\ Forall (fun f => snd f = []) gs)) \/
   (descend k st s = set_task_pc k PDone (set_holder s h) /\ gone = map fst st /\ Forall (fun f => snd f = []) st)).
Proof.
  induction st as [|[c [|d ds]] rest IH]; intros s.
  - exists [], (s_holder s). split; [auto|]. right. split; [|split; auto]. simpl. destruct s; reflexivity.
  - simpl. destruct (IH (set_holder s (upd (s_holder s) c None))) as (gone & h & H & D). exists (c :: gone), h. split.
    + intros x. rewrite H. simpl. unfold upd. destruct (Nat.eqb_spec x c); simpl; auto. destruct (existsb _ gone); auto.
    + destruct D as [(c' & d & ds & rest' & D & gs & -> & -> & F)|(D & -> & F)].
      * left. exists c', d, ds, rest'. split; [exact D|]. exists ((c, []) :: gs). split; [auto|]. split; [auto|]. constructor; auto.
      * right. split; [exact D|]. split; [auto|]. constructor; auto.
  - exists [], (s_holder s). split; [auto|]. left. exists c, d, ds, rest. split; [simpl; destruct s; reflexivity|]. exists []. auto.
Qed.
Lemma rest_of_gone gs rest : Forall (fun f => snd f = []) gs -> rest_of (gs ++ rest) = rest_of rest.
Proof. induction 1 as [|f gs E _ IH]; simpl; auto. rewrite E. simpl. exact IH. Qed.
(** The stack after some frames are left and the next child of the then innermost is taken. *)
Lemma spine_next r gs c e es rest d : spine r d (gs ++ (c, e :: es) :: rest) -> spine r e ((c, es) :: rest).
Proof.
  revert d. induction gs as [|[c' ks'] gs IH]; intros d S; simpl in S.
  - inversion S as [|? p ? ? A B C]; subst. constructor; auto; [apply B; left; auto|intros x J; apply B; right; auto].
  - inversion S as [|? p ? ? A B C]; subst. eapply IH; eauto.
Qed.

(** ** The invariant *)
Record ainv (root : ctree) (s : async) : Prop := {
  a_tree : forall k t, nth_error (s_tasks s) k = Some t -> In (r_tree t) (subs root);
  a_spine : forall k t d st, nth_error (s_tasks s) k = Some t -> r_pc t = PWait d st \/ r_pc t = PGot d st -> spine (r_tree t) d st;
  a_lock : forall c k, s_holder s c = Some k <-> inside s k c;
  a_by_id : forall c j, s_by_id s c = Some j -> exists t, nth_error (s_tasks s) j = Some t /\ cid (r_tree t) = c;
  a_cover : forall c, In c (ids root) -> s_shown s c <> Some (s_ver s c) \/ s_flag s c = true ->
            exists k t, nth_error (s_tasks s) k = Some t /\ r_cancel t = false /\ In c (future t)
}.

Lemma in_or_nil {A} (l : list A) (P : Prop) : (l = [] -> P) -> (l <> [] -> P) -> P.
Proof. destruct l; intros A1 A2; [apply A1; auto|apply A2; discriminate]. Qed.

Lemma ainv_init root : ainv root (async_init root).
Proof.
  assert (T : forall k t, nth_error (s_tasks (async_init root)) k = Some t -> k = 0 /\ t = RTask root PStart false []).
  { intros [|[|k]] t E; simpl in E; try discriminate. injection E as <-. auto. }
  constructor.
  - intros k t E. destruct (T k t E) as [_ ->]. apply subs_refl.
  - intros k t d st E H. destruct (T k t E) as [_ ->]. simpl in H. destruct H; discriminate.
  - intros c k. split; [discriminate|]. intros (t & E & J). destruct (T k t E) as [_ ->]. contradiction.
  - intros c j E. simpl in E. unfold upd in E. destruct (Nat.eqb_spec c (cid root)); [|discriminate]. injection E as <-. exists (RTask root PStart false []). auto.
  - intros c J _. exists 0, (RTask root PStart false []). auto.
Qed.

(** The part about one task's move; other tasks may have been cancelled. *)
Lemma a_lock_move s s' k pc pc' t u :
  (forall c j, s_holder s c = Some j <-> inside s j c) ->
  nth_error (s_tasks s) k = Some t -> r_pc t = pc ->
  nth_error (s_tasks s') k = Some u -> r_pc u = pc' ->
  (forall i v, i <> k -> nth_error (s_tasks s) i = Some v -> exists w, nth_error (s_tasks s') i = Some w /\ r_pc w = r_pc v) ->
  length (s_tasks s') = length (s_tasks s) ->
  (forall c, In c (held pc') -> s_holder s' c = Some k) ->
  (forall c, ~ In c (held pc') -> s_holder s' c = if existsb (Nat.eqb c) (held pc) then None else s_holder s c) ->
  (forall c, In c (held pc') -> ~ In c (held pc) -> s_holder s c = None) ->
  forall c j, s_holder s' c = Some j <-> inside s' j c.
Proof.
  intros L T P U PU O LEN H1 H2 H3 c j. unfold inside in *.
  assert (BACK : forall i w, i <> k -> nth_error (s_tasks s') i = Some w -> exists v, nth_error (s_tasks s) i = Some v /\ r_pc w = r_pc v).
  { intros i w N W. destruct (nth_error (s_tasks s) i) as [v|] eqn:V.
    - exists v. split; auto. destruct (O i v N V) as (w' & W' & E). congruence.
    - exfalso. apply nth_error_None in V. rewrite <- LEN in V. apply nth_error_None in V. congruence. }
  destruct (in_dec Nat.eq_dec c (held pc')) as [I|NI].
  - rewrite (H1 c I). split.
    + intros E. injection E as <-. exists u. rewrite PU. auto.
    + intros (w & W & J). f_equal. destruct (Nat.eq_dec k j); auto. exfalso. destruct (BACK j w) as (v & V & E); auto. rewrite E in J.
      assert (X : s_holder s c = Some j) by (apply L; eauto).
      destruct (in_dec Nat.eq_dec c (held pc)) as [K|NK].
      * assert (Y : s_holder s c = Some k) by (apply L; exists t; rewrite P; auto). congruence.
      * rewrite (H3 c I NK) in X. discriminate.
  - rewrite (H2 c NI). destruct (existsb (Nat.eqb c) (held pc)) eqn:X.
    + split; [discriminate|]. intros (w & W & J). exfalso. apply existsb_exists in X. destruct X as (c' & K & EC). apply Nat.eqb_eq in EC. subst c'.
      assert (Y : s_holder s c = Some k) by (apply L; exists t; rewrite P; auto).
      destruct (Nat.eq_dec j k) as [->|N]; [rewrite U in W; injection W as <-; rewrite PU in J; contradiction|].
      destruct (BACK j w) as (v & V & E); auto. rewrite E in J. assert (s_holder s c = Some j) by (apply L; eauto). congruence.
    + split.
      * intros E. apply L in E. destruct E as (v & V & J). destruct (Nat.eq_dec j k) as [->|N].
        -- exfalso. rewrite T in V. injection V as <-. rewrite P in J. assert (existsb (Nat.eqb c) (held pc) = true) by (apply existsb_exists; exists c; rewrite Nat.eqb_refl; auto). congruence.
        -- destruct (O j v N V) as (w & W & E). exists w. rewrite E. auto.
      * intros (w & W & J). apply L. destruct (Nat.eq_dec j k) as [->|N]; [rewrite U in W; injection W as <-; rewrite PU in J; contradiction|].
        destruct (BACK j w) as (v & V & E); auto. rewrite E in J. eauto.
Qed.

(** Task [k] (not cancelled) moves to [pc'] and may have cancelled the task of [by_id] for the component it now wants. *)
Definition pc_future (r : ctree) (pc : rpc) : list nat := future (RTask r pc false []).
Lemma ainv_move root s s' k t pc' out' :
  NoDup (ids root) -> ainv root s -> nth_error (s_tasks s) k = Some t -> r_cancel t = false ->
  nth_error (s_tasks s') k = Some (RTask (r_tree t) pc' false out') ->
  length (s_tasks s') = length (s_tasks s) ->
  (exists hit, (forall i u, i <> k -> nth_error (s_tasks s) i = Some u -> nth_error (s_tasks s') i = Some (RTask (r_tree u) (r_pc u) (r_cancel u || hit i u) (r_out u))) /\
     (forall i u, nth_error (s_tasks s) i = Some u -> hit i u = true -> exists d st, pc' = PWait d st /\ cid (r_tree u) = cid d)) ->
  (forall d st, pc' = PWait d st \/ pc' = PGot d st -> spine (r_tree t) d st) ->
  (forall c, In c (held pc') -> s_holder s' c = Some k) ->
  (forall c, ~ In c (held pc') -> s_holder s' c = if existsb (Nat.eqb c) (held (r_pc t)) then None else s_holder s c) ->
  (forall c, In c (held pc') -> ~ In c (held (r_pc t)) -> s_holder s c = None) ->
  (forall c, s_by_id s' c = s_by_id s c \/ s_by_id s' c = None) ->
  (s_ver s' = s_ver s) ->
  (forall c, In c (ids root) -> s_shown s' c <> Some (s_ver s c) \/ s_flag s' c = true -> (s_shown s c <> Some (s_ver s c) \/ s_flag s c = true) /\ (In c (future t) -> In c (pc_future (r_tree t) pc'))) ->
  ainv root s'.
Proof.
  intros ND [A1 A2 A3 A4 A5] T NC T' LEN (hit & O & HIT) SP H1 H2 H3 B V CO.
  assert (BACK : forall i w, i <> k -> nth_error (s_tasks s') i = Some w -> exists u, nth_error (s_tasks s) i = Some u /\ w = RTask (r_tree u) (r_pc u) (r_cancel u || hit i u) (r_out u)).
  { intros i w N W. destruct (nth_error (s_tasks s) i) as [u|] eqn:U.
    - exists u. split; auto. rewrite (O i u N U) in W. congruence.
    - exfalso. apply nth_error_None in U. rewrite <- LEN in U. apply nth_error_None in U. congruence. }
  constructor.
  - intros i w W. destruct (Nat.eq_dec i k) as [->|N]; [rewrite T' in W; injection W as <-; simpl; eauto|]. destruct (BACK i w N W) as (u & U & ->). simpl. eauto.
  - intros i w d st W H. destruct (Nat.eq_dec i k) as [->|N]; [rewrite T' in W; injection W as <-; simpl in *; auto|]. destruct (BACK i w N W) as (u & U & ->). simpl in *. eauto.
  - eapply (a_lock_move s s' k (r_pc t) pc' t); eauto.
  - intros c j E. destruct (B c) as [E'|E']; [|congruence]. rewrite E' in E. destruct (A4 c j E) as (u & U & X). destruct (Nat.eq_dec j k) as [->|N].
    + eexists. split; [exact T'|]. simpl. rewrite T in U. injection U as <-. auto.
    + eexists. split; [apply O; eauto|]. simpl. auto.
  - intros c I H. rewrite V in H. destruct (CO c I H) as [H' F]. destruct (A5 c I H') as (j & u & U & NCu & J). destruct (Nat.eq_dec j k) as [->|N].
    + exists k. eexists. split; [exact T'|]. split; [auto|]. rewrite T in U. injection U as <-. exact (F J).
    + destruct (hit j u) eqn:HJ.
      * (* cancelled: the canceller renders the component *)
        destruct (HIT j u U HJ) as (d & st & -> & EC). exists k. eexists. split; [exact T'|]. split; [auto|]. unfold future. simpl. apply in_app_iff. left.
        assert (D : r_tree u = d).
        { eapply (nodup_map_inj cid (subs root)); eauto. eapply subs_trans; [exact (A1 k t T)|]. eapply spine_sub. eapply SP; eauto. }
        rewrite <- D. assert (INC : incl (future u) (ids (r_tree u))).
        { unfold future. pose proof (A2 j u) as SPU. destruct (r_pc u) as [|e st'|e st'| |] eqn:PC; try (intros x []); [intros x; auto| |]; apply spine_rest; eapply SPU; eauto. }
        apply INC. exact J.
      * exists j. eexists. split; [apply O; eauto|]. simpl. rewrite NCu, HJ. split; auto.
Qed.

Lemma hits_ok root s k d st : ainv root s -> forall i u, nth_error (s_tasks s) i = Some u -> hits s k d i u = true -> exists d' st', PWait d st = PWait d' st' /\ cid (r_tree u) = cid d'.
Proof.
  intros A i u U H. exists d, st. split; auto. unfold hits in H. destruct (s_by_id s (cid d)) as [j|] eqn:B; [|discriminate].
  apply andb_true_iff in H. destruct H as [H _]. apply andb_true_iff in H. destruct H as [H _]. apply Nat.eqb_eq in H. subst j.
  destruct (a_by_id _ _ A _ _ B) as (u' & U' & X). congruence.
Qed.
Lemma existsb_eqb c l : existsb (Nat.eqb c) l = true <-> In c l.
Proof. rewrite existsb_exists. split; [intros (x & J & E); apply Nat.eqb_eq in E; subst; auto|intros J; exists c; rewrite Nat.eqb_refl; auto]. Qed.
Lemma existsb_eqb_false c l : existsb (Nat.eqb c) l = false <-> ~ In c l.
Proof. rewrite <- existsb_eqb. destruct (existsb _ _); split; congruence. Qed.

Lemma ainv_run_task root s k : NoDup (ids root) -> ainv root s -> ainv root (run_task k s).
Proof.
  intros ND A. unfold run_task. destruct (nth_error (s_tasks s) k) as [t|] eqn:T; auto. destruct (finished t) eqn:FIN; auto.
  assert (LK : forall c, In c (held (r_pc t)) -> s_holder s c = Some k) by (intros c J; apply (a_lock _ _ A); exists t; auto).
  destruct (r_cancel t) eqn:CA.
  - (* the cancellation arrives *)
    set (s0 := release_all (held (r_pc t)) s). destruct (same_set_task_pc k PCancelled s0) as (V1 & V2 & V3 & _ & _ & _ & _ & V8).
    assert (T0 : nth_error (s_tasks s0) k = Some t) by exact T.
    assert (OTH : forall i, i <> k -> nth_error (s_tasks (set_task_pc k PCancelled s0)) i = nth_error (s_tasks s) i) by (intros; rewrite set_task_pc_other by auto; auto).
    pose proof (set_task_pc_same k PCancelled s0 t T0) as T'. destruct A as [A1 A2 A3 A4 A5]. constructor.
    + intros i w W. destruct (Nat.eq_dec i k) as [->|N]; [rewrite T' in W; injection W as <-; simpl; eauto|]. rewrite OTH in W by auto. eauto.
    + intros i w d st W H. destruct (Nat.eq_dec i k) as [->|N]; [rewrite T' in W; injection W as <-; simpl in H; destruct H; discriminate|]. rewrite OTH in W by auto. eauto.
    + eapply (a_lock_move s _ k (r_pc t) PCancelled t); eauto; try (simpl; intros; contradiction).
      * intros i v N E. exists v. rewrite OTH by auto. auto.
      * intros c _. rewrite holder_set_task_pc. reflexivity.
    + intros c j E. rewrite by_id_set_task_pc in E. destruct (A4 c j E) as (u & U & X). destruct (Nat.eq_dec j k) as [->|N].
      * eexists. split; [exact T'|]. simpl. congruence.
      * exists u. rewrite OTH by auto. auto.
    + intros c I H. rewrite V1, V2, V3 in H. destruct (A5 c I H) as (j & u & U & NC & J). exists j, u. rewrite OTH; auto. intros ->. congruence.
  - destruct (r_pc t) as [|d st|d st| |] eqn:PC; auto.
    + (* start *)
      destruct (enter_spec k (r_tree t) [] s t T) as (S & EH & EB & T' & O). destruct S as (V1 & V2 & V3 & _ & _ & _ & _ & V8). rewrite CA in T'.
      eapply (ainv_move root s _ k t (PWait (r_tree t) [])); eauto.
      * exists (hits s k (r_tree t)). split; [exact O|]. eapply hits_ok; eauto.
      * intros d st [H|H]; [injection H as <- <-|discriminate]. constructor.
      * intros c [].
      * intros c _. rewrite EH, PC. reflexivity.
      * intros c [].
      * intros c I H. rewrite V2, V3 in H. split; auto. unfold future, pc_future. rewrite PC. intros J. unfold future. simpl. rewrite app_nil_r. auto.
    + (* acquire *)
      destruct (s_holder s (cid d)) as [o|] eqn:HO; auto.
      set (s0 := set_holder s (upd (s_holder s) (cid d) (Some k))). destruct (same_set_task_pc k (PGot d st) s0) as (V1 & V2 & V3 & _ & _ & _ & _ & V8).
      assert (T0 : nth_error (s_tasks s0) k = Some t) by exact T. pose proof (set_task_pc_same k (PGot d st) s0 t T0) as T'. rewrite CA in T'.
      eapply (ainv_move root s _ k t (PGot d st)); eauto.
      * exists (fun _ _ => false). split; [|intros; discriminate]. intros i u N U. rewrite set_task_pc_other by auto. change (s_tasks s0) with (s_tasks s). rewrite U. destruct u; simpl. rewrite orb_false_r. auto.
      * intros d' st' [H|H]; [discriminate|injection H as <- <-]. apply (a_spine _ _ A k t); auto.
      * intros c J. rewrite holder_set_task_pc. simpl. unfold upd. destruct (Nat.eqb_spec c (cid d)); auto. simpl in J. destruct J as [J|J]; [congruence|]. apply LK. exact J.
      * intros c J. rewrite holder_set_task_pc. simpl in *. rewrite upd_other by (intros ->; tauto). rewrite PC. simpl.
        destruct (existsb (Nat.eqb c) (map fst st)) eqn:X; auto. exfalso. apply existsb_eqb in X. tauto.
      * intros c J NJ. rewrite PC in NJ. simpl in *. destruct J as [<-|J]; [auto|contradiction].
      * intros c. rewrite by_id_set_task_pc. auto.
      * intros c I H. rewrite V2, V3 in H. split; auto. unfold future, pc_future. rewrite PC. unfold future. simpl. auto.
    + (* render *)
      assert (SP0 : spine (r_tree t) d st) by (apply (a_spine _ _ A k t); auto).
      pose proof (spine_nodup root _ d st ND (a_tree _ _ A k t T) SP0) as NDS.
      unfold render_own. rewrite T.
      set (s0 := Async (s_ver s) (upd (s_shown s) (cid d) (Some (s_ver s (cid d)))) (upd (s_flag s) (cid d) false) (s_holder s)
            (put (s_tasks s) k (RTask (r_tree t) (r_pc t) (r_cancel t) (r_out t ++ [(cid d, s_ver s (cid d))])))
            (s_by_id s) (s_ready s) (s_unread s) (s_consumer s) (s_sent s)).
      assert (LKk : k < length (s_tasks s)) by (apply nth_error_Some; congruence).
      set (t0 := RTask (r_tree t) (r_pc t) (r_cancel t) (r_out t ++ [(cid d, s_ver s (cid d))])).
      assert (T0 : nth_error (s_tasks s0) k = Some t0) by (apply put_same; auto).
      assert (O0 : forall i, i <> k -> nth_error (s_tasks s0) i = nth_error (s_tasks s) i) by (intros i N; apply put_other; auto).
      assert (LEN0 : length (s_tasks s0) = length (s_tasks s)) by apply put_length.
      destruct (descend_spec k ((cid d, ckids d) :: st) s0) as (gone & h & HH & [(c1 & e & es & rest & D & gs & ST & -> & FG)|(D & -> & FG)]).
      * rewrite D. assert (Th : nth_error (s_tasks (set_holder s0 h)) k = Some t0) by exact T0.
        destruct (enter_spec k e ((c1, es) :: rest) (set_holder s0 h) t0 Th) as (S & EH & EB & T' & O). destruct S as (V1 & V2 & V3 & _ & _ & _ & _ & V8).
        unfold t0 in T'. simpl in T'. rewrite CA in T'.
        assert (SPd : spine (r_tree t) e ((c1, es) :: rest)).
        { assert (X : exists q, spine (r_tree t) q ((cid d, ckids d) :: st) \/ ckids d = []).
          { destruct (ckids d) as [|q qs] eqn:KD; [exists d; right; auto|]. exists q. left. rewrite <- KD. constructor; auto; [rewrite KD; left; auto|intros x; auto]. }
          destruct X as (q & [X|X]); [rewrite ST in X; eapply spine_next; eauto|].
          rewrite X in ST. destruct gs as [|g gs']; [injection ST as _ ST1 _; discriminate|]. injection ST as _ ST2. rewrite ST2 in SP0. eapply spine_next; eauto. }
        assert (HELD : cid d :: map fst st = map fst gs ++ c1 :: map fst rest).
        { change (cid d :: map fst st) with (map fst ((cid d, ckids d) :: st)). rewrite ST, map_app. reflexivity. }
        rewrite HELD in NDS.
        eapply (ainv_move root s _ k t (PWait e ((c1, es) :: rest))); eauto.
        -- rewrite V8. exact LEN0.
        -- exists (hits (set_holder s0 h) k e). split.
           ++ intros i u N U. apply O; auto. change (s_tasks (set_holder s0 h)) with (s_tasks s0). rewrite O0; auto.
           ++ intros i u U H. eapply (hits_ok root s k e ((c1, es) :: rest) A i u U). exact H.
        -- intros d' st' [H|H]; [injection H as <- <-|discriminate]. auto.
        -- intros c J. rewrite EH. simpl. rewrite HH. simpl in J.
           assert (NG : ~ In c (map fst gs)).
           { intros K. clear - NDS J K. induction (map fst gs) as [|x l IHl]; simpl in *; [contradiction|]. inversion NDS as [|? ? N1 N2]; subst. destruct K as [->|K]; [|auto]. apply N1. apply in_app_iff. right. exact J. }
           rewrite (proj2 (existsb_eqb_false _ _) NG). simpl. apply LK. simpl. change (In c (cid d :: map fst st)). rewrite HELD. apply in_app_iff. right. exact J.
        -- intros c J. rewrite EH. simpl. rewrite HH. rewrite PC. change (held (PGot d st)) with (cid d :: map fst st). rewrite HELD, existsb_app. simpl in J |- *.
           destruct (existsb (Nat.eqb c) (map fst gs)); auto. simpl. destruct (Nat.eqb_spec c c1); [subst; tauto|].
           rewrite (proj2 (existsb_eqb_false c (map fst rest))) by tauto. reflexivity.
        -- intros c J NJ. exfalso. apply NJ. rewrite PC. change (held (PGot d st)) with (cid d :: map fst st). rewrite HELD. apply in_app_iff. right. exact J.
        -- intros c I H. rewrite V2, V3 in H. simpl in H. destruct (Nat.eq_dec c (cid d)) as [->|N].
           ++ rewrite !upd_same in H. destruct H as [H|H]; [congruence|discriminate].
           ++ rewrite !upd_other in H by auto. split; auto. unfold future, pc_future. rewrite PC. unfold future. simpl. intros J.
              assert (E : ids d ++ rest_of st = cid d :: (rest_of ((cid d, ckids d) :: st))).
              { destruct d as [c0 ks0]. rewrite ids_eq. simpl. reflexivity. }
              rewrite E, ST in J. destruct J as [J|J]; [congruence|]. rewrite rest_of_gone in J by auto. simpl in J. rewrite <- app_assoc in J. exact J.
      * rewrite D. destruct (same_set_task_pc k PDone (set_holder s0 h)) as (V1 & V2 & V3 & _ & _ & _ & _ & V8).
        assert (Th : nth_error (s_tasks (set_holder s0 h)) k = Some t0) by exact T0.
        pose proof (set_task_pc_same k PDone _ t0 Th) as T'. unfold t0 in T'. simpl in T'. rewrite CA in T'.
        eapply (ainv_move root s _ k t PDone); eauto.
        -- rewrite V8. exact LEN0.
        -- exists (fun _ _ => false). split; [|intros; discriminate]. intros i u N U. rewrite set_task_pc_other by auto. change (s_tasks (set_holder s0 h)) with (s_tasks s0). rewrite O0, U by auto. destruct u; simpl. rewrite orb_false_r. auto.
        -- intros d' st' [H|H]; discriminate.
        -- intros c [].
        -- intros c _. rewrite holder_set_task_pc. simpl. rewrite HH, PC. reflexivity.
        -- intros c [].
        -- intros c. rewrite by_id_set_task_pc. auto.
        -- intros c I H. rewrite V2, V3 in H. simpl in H. destruct (Nat.eq_dec c (cid d)) as [->|N].
           ++ rewrite !upd_same in H. destruct H as [H|H]; [congruence|discriminate].
           ++ rewrite !upd_other in H by auto. split; auto. unfold future, pc_future. rewrite PC. unfold future. simpl. intros J.
              assert (E : ids d ++ rest_of st = cid d :: (rest_of (((cid d, ckids d) :: st) ++ []))).
              { destruct d as [c0 ks0]. rewrite ids_eq, app_nil_r. simpl. reflexivity. }
              rewrite E in J. destruct J as [J|J]; [congruence|]. rewrite rest_of_gone in J by auto. exact J.
Qed.
