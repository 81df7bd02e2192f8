(** * Properties C21 and C22: effects and their clean-ups *)
From Coq Require Import Arith Bool Lia List.
From Verif Require Import EffectModel.
Import ListNotations.

(** ** Lists *)

Lemma put_length {A} (l : list A) : forall i x, length (put l i x) = length l.
Proof. induction l; intros [|i] x; simpl; auto. Qed.
Lemma put_same {A} (l : list A) : forall i x, i < length l -> nth_error (put l i x) i = Some x.
Proof. induction l; intros [|i] x L; simpl in *; try lia; auto. apply IHl. lia. Qed.
Lemma put_other {A} (l : list A) : forall i j x, i <> j -> nth_error (put l i x) j = nth_error l j.
Proof. induction l; intros [|i] [|j] x N; simpl in *; auto; try congruence. Qed.
Lemma put_nth {A} (l : list A) d i j x : nth j (put l i x) d = if Nat.eq_dec i j then (if Nat.ltb i (length l) then x else d) else nth j l d.
Proof.
  revert i j. induction l as [|y l IH]; intros [|i] [|j]; simpl; auto.
  all: try (destruct (Nat.eq_dec _ _); auto; fail).
  rewrite IH. destruct (Nat.eq_dec i j), (Nat.eq_dec (S i) (S j)); try lia; auto.
Qed.

Lemma of_slot_app slot a b : of_slot slot (a ++ b) = of_slot slot a ++ of_slot slot b.
Proof. apply flat_map_app. Qed.
Lemma alternates_app a : forall due b, alternates due (a ++ b) <-> alternates due a /\ alternates (due_after due a) b.
Proof. induction a as [|[k o|k] a IH]; intros due b; simpl; [tauto|rewrite IH; tauto|rewrite IH; tauto]. Qed.
Lemma due_after_app a : forall due b, due_after due (a ++ b) = due_after (due_after due a) b.
Proof. induction a as [|[k o|k] a IH]; intros due b; simpl; auto. Qed.

Section Good.
Variable beh : nat -> outcome.
Variable bad_clean : nat -> bool.
Hypothesis fine : forall k, beh k <> ORaises.
Hypothesis fine_clean : forall k, bad_clean k = false.

Local Notation cleanup := (EffectModel.cleanup bad_clean).
Local Notation finish := (EffectModel.finish bad_clean).
Local Notation start := (EffectModel.start beh bad_clean).
Local Notation step_task := (EffectModel.step_task beh bad_clean).
Local Notation estep := (EffectModel.estep beh bad_clean).
Local Notation erun := (EffectModel.erun beh bad_clean).

Lemma cleanup_eq slot s : cleanup slot s =
  (false, match nth slot (e_refs s) None with
          | None => s
          | Some k => Est (e_funcs s) (e_tasks s) (e_stops s) (e_live s) (put (e_refs s) slot None) (e_next s) (e_gather s) (e_log s ++ [Cleaned slot k])
          end).
Proof. unfold EffectModel.cleanup. destruct (nth slot (e_refs s) None) as [k|]; auto. rewrite fine_clean. reflexivity. Qed.

(** ** The log agrees with the references *)

Definition agrees (s : est) : Prop :=
  forall slot, alternates None (of_slot slot (e_log s)) /\ due_after None (of_slot slot (e_log s)) = nth slot (e_refs s) None.

Lemma ref_bound slot s k : nth slot (e_refs s) None = Some k -> slot < length (e_refs s).
Proof. intros E. destruct (Nat.lt_ge_cases slot (length (e_refs s))); auto. rewrite nth_overflow in E by auto. discriminate. Qed.

Lemma agrees_cleanup slot s : agrees s -> agrees (snd (cleanup slot s)) /\ nth slot (e_refs (snd (cleanup slot s))) None = None /\
  length (e_refs (snd (cleanup slot s))) = length (e_refs s).
Proof.
  intros A. rewrite cleanup_eq. cbn [snd]. destruct (nth slot (e_refs s) None) as [k|] eqn:E; [|auto]. cbn [e_refs e_log].
  pose proof (ref_bound _ _ _ E) as L. split; [|split; [rewrite put_nth; destruct (Nat.eq_dec slot slot); [|congruence]; rewrite (proj2 (Nat.ltb_lt _ _) L); auto|apply put_length]].
  intros j. destruct (A j) as [A1 A2]. unfold agrees. cbn [e_log e_refs]. rewrite of_slot_app, alternates_app, due_after_app, A2. simpl. rewrite put_nth.
  destruct (Nat.eq_dec slot j) as [->|N]; simpl; [|auto]. rewrite E, (proj2 (Nat.ltb_lt _ _) L). auto.
Qed.
Lemma agrees_set i x s : agrees s -> agrees (set_state i x s).
Proof. unfold set_state. destruct (nth_error _ _); auto. Qed.
Lemma agrees_finish i slot s : agrees s -> agrees (finish i slot s).
Proof.
  intros A. unfold EffectModel.finish. pose proof (agrees_cleanup slot s A) as (B & _). destruct (cleanup slot s) as [r s1]. apply agrees_set. exact B.
Qed.
Definition after_run (t : task) (s1 : est) : est :=
  Est (e_funcs s1) (e_tasks s1) (e_stops s1) (e_live s1)
      (put (e_refs s1) (t_slot t) (match beh (t_id t) with OCleanup => Some (t_id t) | _ => None end)) (e_next s1) (e_gather s1)
      (e_log s1 ++ [Ran (t_slot t) (t_id t) (beh (t_id t))]).
Lemma start_eq i t s : start i t s =
  let s2 := after_run t (snd (cleanup (t_slot t) s)) in
  if nth (t_stop t) (e_stops s2) false then finish i (t_slot t) s2 else set_state i TWaiting s2.
Proof.
  unfold EffectModel.start. rewrite cleanup_eq. cbn [snd]. unfold after_run. pose proof (fine (t_id t)) as F.
  destruct (beh (t_id t)); try congruence; reflexivity.
Qed.
Lemma agrees_after_run t s : agrees s -> nth (t_slot t) (e_refs s) None = None -> t_slot t < length (e_refs s) -> agrees (after_run t s).
Proof.
  intros A E L j. destruct (A j) as [A1 A2]. unfold after_run. cbn [e_log e_refs]. rewrite of_slot_app, alternates_app, due_after_app, A2. simpl. rewrite put_nth.
  destruct (Nat.eq_dec (t_slot t) j) as [<-|N]; simpl; [|auto]. rewrite E, (proj2 (Nat.ltb_lt _ _) L). destruct (beh (t_id t)); auto.
Qed.

(** ** Invariant *)

Record inv (slots : nat) (s : est) : Prop := {
  i_len : length (e_refs s) = slots;
  i_funcs : forall f, In f (e_funcs s) -> fst f < slots /\ snd f < e_next s;
  i_task : forall i t, nth_error (e_tasks s) i = Some t -> t_slot t < slots /\ t_id t < e_next s /\ t_stop t < length (e_stops s) /\ t_state t <> TFailed;
  i_ids : NoDup (map t_id (e_tasks s) ++ map snd (e_funcs s));
  i_agrees : agrees s;
  i_due : forall slot k, nth slot (e_refs s) None = Some k -> exists i t, nth_error (e_tasks s) i = Some t /\ t_slot t = slot /\ t_id t = k /\ t_state t = TWaiting;
  i_stop : forall i t, nth_error (e_tasks s) i = Some t -> nth (t_stop t) (e_stops s) false = true \/ In (t_stop t) (e_live s);
  i_live : forall j, In j (e_live s) -> j < length (e_stops s);
  i_runs : forall k, runs k (e_log s) = if existsb (fun t => Nat.eqb (t_id t) k && match t_state t with TNew => false | _ => true end) (e_tasks s) then 1 else 0
}.

Lemma nth_repeat_none n i : nth i (repeat (@None nat) n) None = None.
Proof. revert i. induction n; intros [|i]; simpl; auto. Qed.
Lemma inv_init slots : inv slots (einit slots).
Proof.
  constructor; simpl; try (intros; contradiction); try (intros [|i] t E; discriminate).
  - apply repeat_length.
  - constructor.
  - intros slot. split; simpl; auto. symmetry. apply nth_repeat_none.
  - intros slot k E. rewrite nth_repeat_none in E. discriminate.
  - auto.
Qed.

Lemma nodup_snoc {A} (l : list A) x : NoDup l -> ~ In x l -> NoDup (l ++ [x]).
Proof.
  induction l as [|y l IH]; simpl; intros ND N; [constructor; [simpl; tauto|constructor]|]. inversion ND as [|? ? A1 A2]; subst. constructor; [|apply IH; tauto].
  intros J. apply in_app_iff in J. simpl in J. destruct J as [J|[J|[]]]; [tauto|subst; tauto].
Qed.
Lemma inv_register slots slot s : slot < slots -> inv slots s -> inv slots (register slot s).
Proof.
  intros L [I1 I2 I3 I4 I5 I6 I7 I8 I9]. constructor; cbn [register e_funcs e_tasks e_stops e_live e_refs e_next e_gather e_log]; auto.
  - intros f J. apply in_app_iff in J. destruct J as [J|[<-|[]]]; [|simpl; lia]. destruct (I2 f J). lia.
  - intros i t E. destruct (I3 i t E) as (A & B & C & D). repeat split; auto; lia.
  - rewrite map_app, app_assoc. simpl. apply nodup_snoc; auto. intros J. apply in_app_iff in J. destruct J as [J|J]; apply in_map_iff in J; destruct J as (x & E & J).
    + apply In_nth_error in J. destruct J as (i & J). destruct (I3 i x J) as (_ & B & _). lia.
    + destruct (I2 x J). lia.
Qed.
Lemma nth_error_app_cases {A} (a b : list A) i x : nth_error (a ++ b) i = Some x -> nth_error a i = Some x \/ In x b.
Proof.
  intros E. destruct (Nat.lt_ge_cases i (length a)); [rewrite nth_error_app1 in E by auto; auto|]. rewrite nth_error_app2 in E by auto. right. eapply nth_error_In; eauto.
Qed.
Lemma inv_did_render slots s : inv slots s -> inv slots (did_render s).
Proof.
  intros [I1 I2 I3 I4 I5 I6 I7 I8 I9]. constructor; cbn [did_render e_funcs e_tasks e_stops e_live e_refs e_next e_gather e_log]; auto.
  - intros f [].
  - intros i t E. rewrite app_length. simpl. apply nth_error_app_cases in E. destruct E as [E|J].
    + destruct (I3 i t E) as (A & B & C & D). repeat split; auto; lia.
    + apply in_map_iff in J. destruct J as (f & <- & J). simpl. destruct (I2 f J). repeat split; auto; try lia. discriminate.
  - rewrite map_app, map_map. simpl. rewrite app_nil_r. exact I4.
  - intros slot k E. destruct (I6 slot k E) as (i & t & E' & X). exists i, t. split; auto. rewrite nth_error_app1; auto. apply nth_error_Some. congruence.
  - intros i t E. apply nth_error_app_cases in E. destruct E as [E|J].
    + destruct (I3 i t E) as (_ & _ & C & _). destruct (I7 i t E) as [D|D]; [left; rewrite app_nth1 by auto; auto|right; apply in_app_iff; auto].
    + apply in_map_iff in J. destruct J as (f & <- & J). simpl. right. apply in_app_iff. right. left. auto.
  - intros j J. rewrite app_length. simpl. apply in_app_iff in J. destruct J as [J|[<-|[]]]; [apply I8 in J; lia|lia].
  - intros k. rewrite I9. rewrite existsb_app.
    assert (E : existsb (fun t => Nat.eqb (t_id t) k && match t_state t with TNew => false | _ => true end) (map (fun f => Task (fst f) (snd f) (length (e_stops s)) TNew) (e_funcs s)) = false).
    { clear. induction (e_funcs s) as [|f l IH]; simpl; auto. rewrite andb_false_r. exact IH. }
    rewrite E, orb_false_r. reflexivity.
Qed.
Lemma puts_true l : forall st j, nth j (fold_left (fun l i => put l i true) l st) false = true <-> nth j st false = true \/ (In j l /\ j < length st).
Proof.
  induction l as [|i l IH]; intros st j; simpl; [tauto|]. rewrite IH, put_nth, put_length.
  destruct (Nat.eq_dec i j) as [->|N]; [|split; intros H; [destruct H as [H|[H X]]; auto|destruct H as [H|[[H|H] X]]; auto; congruence]].
  destruct (Nat.ltb j (length st)) eqn:L; [apply Nat.ltb_lt in L|apply Nat.ltb_ge in L].
  - split; auto.
  - rewrite (nth_overflow st) by auto. split; [intros [H|[_ H]]; [discriminate|lia]|intros [H|[_ H]]; [discriminate|lia]].
Qed.
Lemma puts_length l : forall st, length (fold_left (fun l i => put l i true) l st) = length st.
Proof. induction l as [|i l IH]; intros st; simpl; auto. rewrite IH. apply put_length. Qed.
Lemma inv_unmount slots s : inv slots s -> inv slots (unmount s).
Proof.
  intros [I1 I2 I3 I4 I5 I6 I7 I8 I9]. constructor; cbn [unmount e_funcs e_tasks e_stops e_live e_refs e_next e_gather e_log]; auto.
  - intros i t E. rewrite puts_length. exact (I3 i t E).
  - intros i t E. left. apply puts_true. destruct (I7 i t E) as [D|D]; auto.
  - intros j [].
Qed.

(** Running a task. *)
Lemma nth_error_put_iff {A} (l : list A) i x j y : nth_error (put l i x) j = Some y -> (j = i /\ y = x /\ i < length l) \/ (j <> i /\ nth_error l j = Some y).
Proof.
  intros E. destruct (Nat.eq_dec i j) as [->|N]; [|right; rewrite put_other in E by auto; auto]. left. split; auto.
  assert (L : j < length l) by (rewrite <- (put_length l j x); apply nth_error_Some; congruence). rewrite put_same in E by auto. split; congruence.
Qed.
Lemma map_put_id (l : list task) i t x : nth_error l i = Some t -> map t_id (put l i (Task (t_slot t) (t_id t) (t_stop t) x)) = map t_id l.
Proof.
  revert i. induction l as [|y l IH]; intros [|i] E; simpl in *; auto; try congruence. f_equal. apply IH. auto.
Qed.
Lemma id_unique (l : list task) i j t u : NoDup (map t_id l) -> nth_error l i = Some t -> nth_error l j = Some u -> t_id t = t_id u -> i = j.
Proof.
  intros ND A B E. apply (proj1 (NoDup_nth_error (map t_id l)) ND).
  - rewrite map_length. apply nth_error_Some. congruence.
  - rewrite !nth_error_map, A, B. simpl. congruence.
Qed.
Lemma nodup_left {A} (a b : list A) : NoDup (a ++ b) -> NoDup a.
Proof. induction a; simpl; intros H; [constructor|]. inversion H; subst. constructor; auto. intros J. apply H2. apply in_app_iff. auto. Qed.

Lemma runs_app k a b : runs k (a ++ b) = runs k a + runs k b.
Proof. unfold runs. rewrite filter_app, app_length. reflexivity. Qed.

(** Task [i] moves to a later state, with at most one run of it. *)
Lemma existsb_put (l : list task) i t x k : nth_error l i = Some t ->
  existsb (fun t => Nat.eqb (t_id t) k && match t_state t with TNew => false | _ => true end) (put l i (Task (t_slot t) (t_id t) (t_stop t) x))
  = (Nat.eqb (t_id t) k && match x with TNew => false | _ => true end) ||
    existsb (fun p => negb (Nat.eqb (fst p) i) && (Nat.eqb (t_id (snd p)) k && match t_state (snd p) with TNew => false | _ => true end)) (combine (seq 0 (length l)) l).
Proof.
  assert (G : forall l n i t, nth_error l i = Some t ->
    existsb (fun t => Nat.eqb (t_id t) k && match t_state t with TNew => false | _ => true end) (put l i (Task (t_slot t) (t_id t) (t_stop t) x))
    = (Nat.eqb (t_id t) k && match x with TNew => false | _ => true end) ||
    existsb (fun p => negb (Nat.eqb (fst p) (n + i)) && (Nat.eqb (t_id (snd p)) k && match t_state (snd p) with TNew => false | _ => true end)) (combine (seq n (length l)) l)).
  { clear l i t. assert (REST : forall l n m, m < n -> existsb (fun p => negb (Nat.eqb (fst p) m) && (Nat.eqb (t_id (snd p)) k && match t_state (snd p) with TNew => false | _ => true end)) (combine (seq n (length l)) l)
      = existsb (fun t => Nat.eqb (t_id t) k && match t_state t with TNew => false | _ => true end) l).
    { induction l as [|y l IH]; intros n m L; simpl; auto. rewrite IH by lia. destruct (Nat.eqb_spec n m); [lia|]. reflexivity. }
    induction l as [|y l IH]; intros n [|i] t E; simpl in *; try discriminate.
    - injection E as ->. rewrite Nat.add_0_r, Nat.eqb_refl. simpl. rewrite REST by lia. reflexivity.
    - rewrite (IH (S n) i t E). replace (n + S i) with (S n + i) by lia. destruct (Nat.eqb_spec n (S n + i)); [lia|]. simpl.
      destruct (Nat.eqb (t_id t) k && _); simpl; [rewrite !orb_true_r; auto|auto]. }
  intros E. apply (G l 0 i t E).
Qed.

Lemma runs_step (s s' : est) i t x : nth_error (e_tasks s) i = Some t ->
  NoDup (map t_id (e_tasks s)) ->
  (forall k, runs k (e_log s) = if existsb (fun t => Nat.eqb (t_id t) k && match t_state t with TNew => false | _ => true end) (e_tasks s) then 1 else 0) ->
  e_tasks s' = put (e_tasks s) i (Task (t_slot t) (t_id t) (t_stop t) x) -> x <> TNew ->
  (forall k, runs k (e_log s') = runs k (e_log s) + if Nat.eqb (t_id t) k && match t_state t with TNew => true | _ => false end then 1 else 0) ->
  forall k, runs k (e_log s') = if existsb (fun t => Nat.eqb (t_id t) k && match t_state t with TNew => false | _ => true end) (e_tasks s') then 1 else 0.
Proof.
  intros E ND R T NX L k. rewrite L, R, T, (existsb_put _ _ _ _ _ E).
  assert (X : match x with TNew => false | _ => true end = true) by (destruct x; congruence). rewrite X, andb_true_r.
  pose proof (existsb_put (e_tasks s) i t (t_state t) k E) as P.
  assert (ID : put (e_tasks s) i (Task (t_slot t) (t_id t) (t_stop t) (t_state t)) = e_tasks s).
  { clear - E. revert i E. induction (e_tasks s) as [|y l IH]; intros [|i] E; simpl in *; auto; try discriminate; [injection E as ->; destruct t; auto|f_equal; auto]. }
  rewrite ID in P. rewrite P. destruct (Nat.eqb_spec (t_id t) k) as [EK|]; simpl; [|lia].
  assert (O : existsb (fun p => negb (Nat.eqb (fst p) i) && (Nat.eqb (t_id (snd p)) k && match t_state (snd p) with TNew => false | _ => true end)) (combine (seq 0 (length (e_tasks s))) (e_tasks s)) = false).
  { apply not_true_is_false. intros EX. apply existsb_exists in EX. destruct EX as ([j u] & J & K). simpl in K.
    apply andb_true_iff in K. destruct K as [K1 K]. apply andb_true_iff in K. destruct K as [K2 _]. apply negb_true_iff, Nat.eqb_neq in K1. apply Nat.eqb_eq in K2.
    apply K1. eapply (id_unique _ j i u t ND); eauto; [|congruence].
    clear - J. assert (G : forall l n, In (j, u) (combine (seq n (length l)) l) -> n <= j /\ nth_error l (j - n) = Some u).
    { induction l as [|y l IH]; intros n H; simpl in H; [contradiction|]. destruct H as [H|H].
      - injection H as -> ->. rewrite Nat.sub_diag. auto.
      - destruct (IH (S n) H) as [A B]. split; [lia|]. destruct (j - n) eqn:D; [lia|]. simpl. replace n0 with (j - S n) by lia. exact B. }
    destruct (G _ 0 J) as [_ B]. rewrite Nat.sub_0_r in B. exact B. }
  rewrite O, orb_false_r. destruct (t_state t); reflexivity.
Qed.

(** The common part of all task steps: task [i] of slot [t_slot t] gets state [x]; the reference of its slot changes. *)
Lemma inv_advance slots s s' i t x :
  inv slots s -> nth_error (e_tasks s) i = Some t -> x <> TFailed -> x <> TNew ->
  e_funcs s' = e_funcs s -> e_stops s' = e_stops s -> e_live s' = e_live s -> e_next s' = e_next s ->
  e_tasks s' = put (e_tasks s) i (Task (t_slot t) (t_id t) (t_stop t) x) ->
  length (e_refs s') = slots -> agrees s' ->
  (forall j, j <> t_slot t -> nth j (e_refs s') None = nth j (e_refs s) None) ->
  (nth (t_slot t) (e_refs s') None = None \/ (x = TWaiting /\ nth (t_slot t) (e_refs s') None = Some (t_id t))) ->
  (forall k, runs k (e_log s') = runs k (e_log s) + if Nat.eqb (t_id t) k && match t_state t with TNew => true | _ => false end then 1 else 0) ->
  inv slots s'.
Proof.
  intros [I1 I2 I3 I4 I5 I6 I7 I8 I9] E NF NN EF ES EL EN ET LR AG RO RS RU.
  assert (LI : i < length (e_tasks s)) by (apply nth_error_Some; congruence).
  constructor; rewrite ?EF, ?ES, ?EL, ?EN; auto.
  - intros j u EU. rewrite ET in EU. apply nth_error_put_iff in EU. destruct EU as [(-> & -> & _)|[_ EU]]; [|apply (I3 j u EU)].
    destruct (I3 i t E) as (A & B & C & _). simpl. auto.
  - rewrite ET, (map_put_id _ _ _ _ E). exact I4.
  - intros slot k EK. destruct (Nat.eq_dec slot (t_slot t)) as [->|N].
    + destruct RS as [RS|[-> RS]]; [congruence|]. exists i, (Task (t_slot t) (t_id t) (t_stop t) TWaiting). rewrite ET, put_same by auto. simpl. repeat split; auto. congruence.
    + rewrite (RO slot N) in EK. destruct (I6 slot k EK) as (j & u & EU & A & B & C). exists j, u. split; auto. rewrite ET, put_other; auto.
      intros <-. rewrite E in EU. injection EU as ->. congruence.
  - intros j u EU. rewrite ET in EU. apply nth_error_put_iff in EU. destruct EU as [(-> & -> & _)|[_ EU]]; [simpl; apply (I7 i t E)|apply (I7 j u EU)].
  - eapply (runs_step s s' i t x); eauto. eapply nodup_left; eauto.
Qed.

Lemma cleanup_facts slot s : let s1 := snd (cleanup slot s) in
  e_funcs s1 = e_funcs s /\ e_tasks s1 = e_tasks s /\ e_stops s1 = e_stops s /\ e_live s1 = e_live s /\ e_next s1 = e_next s /\ e_gather s1 = e_gather s /\
  (forall j, j <> slot -> nth j (e_refs s1) None = nth j (e_refs s) None) /\ (forall k, runs k (e_log s1) = runs k (e_log s)).
Proof.
  rewrite cleanup_eq. cbn [snd]. destruct (nth slot (e_refs s) None) as [k|]; simpl; repeat split; auto.
  - intros j N. rewrite put_nth. destruct (Nat.eq_dec slot j); congruence.
  - intros k'. rewrite runs_app. unfold runs at 2. simpl. lia.
Qed.
Lemma set_state_eq i t x s : nth_error (e_tasks s) i = Some t -> set_state i x s =
  Est (e_funcs s) (put (e_tasks s) i (Task (t_slot t) (t_id t) (t_stop t) x)) (e_stops s) (e_live s) (e_refs s) (e_next s) (e_gather s) (e_log s).
Proof. intros E. unfold set_state. rewrite E. reflexivity. Qed.
Lemma finish_eq i slot s : finish i slot s = set_state i TDone (snd (cleanup slot s)).
Proof. unfold EffectModel.finish. rewrite cleanup_eq. reflexivity. Qed.

Lemma inv_finish slots i t s : inv slots s -> nth_error (e_tasks s) i = Some t -> t_state t = TWaiting -> inv slots (finish i (t_slot t) s).
Proof.
  intros I E ST. rewrite finish_eq. destruct (cleanup_facts (t_slot t) s) as (F1 & F2 & F3 & F4 & F5 & F6 & F7 & F8).
  destruct (agrees_cleanup (t_slot t) s (i_agrees _ _ I)) as (A & B & C).
  rewrite (set_state_eq i t) by (rewrite F2; auto). rewrite F1, F2, F3, F4, F5, F6.
  eapply (inv_advance slots s _ i t TDone); eauto; try discriminate; cbn [e_refs e_log]; auto.
  - rewrite C. apply (i_len _ _ I).
  - intros k. rewrite F8, ST, andb_false_r. lia.
Qed.
Lemma inv_start slots i t s : inv slots s -> nth_error (e_tasks s) i = Some t -> t_state t = TNew -> inv slots (start i t s).
Proof.
  intros I E ST. rewrite start_eq. cbv zeta. destruct (cleanup_facts (t_slot t) s) as (F1 & F2 & F3 & F4 & F5 & F6 & F7 & F8).
  destruct (agrees_cleanup (t_slot t) s (i_agrees _ _ I)) as (A & B & C). destruct (i_task _ _ I i t E) as (SL & _).
  rewrite <- (i_len _ _ I) in SL. set (s1 := snd (cleanup (t_slot t) s)) in *.
  assert (A2 : agrees (after_run t s1)) by (apply agrees_after_run; auto; rewrite C; auto).
  assert (RU : forall k, runs k (e_log (after_run t s1)) = runs k (e_log s) + if Nat.eqb (t_id t) k && match t_state t with TNew => true | _ => false end then 1 else 0).
  { intros k. unfold after_run. cbn [e_log]. rewrite runs_app, F8, ST, andb_true_r. unfold runs at 2. simpl. destruct (Nat.eqb (t_id t) k); reflexivity. }
  assert (RO : forall j, j <> t_slot t -> nth j (e_refs (after_run t s1)) None = nth j (e_refs s) None).
  { intros j N. unfold after_run. cbn [e_refs]. rewrite put_nth. destruct (Nat.eq_dec (t_slot t) j); [congruence|]. apply F7. auto. }
  destruct (nth (t_stop t) (e_stops (after_run t s1)) false).
  - rewrite finish_eq. destruct (cleanup_facts (t_slot t) (after_run t s1)) as (G1 & G2 & G3 & G4 & G5 & G6 & G7 & G8).
    destruct (agrees_cleanup (t_slot t) _ A2) as (A3 & B3 & C3). 
    rewrite (set_state_eq i t) by (rewrite G2; unfold after_run; cbn [e_tasks]; rewrite F2; auto). rewrite G1, G2, G3, G4, G5, G6.
    eapply (inv_advance slots s _ i t TDone); eauto; try discriminate; cbn [e_refs e_log]; unfold after_run in *; cbn [e_funcs e_tasks e_stops e_live e_refs e_next e_gather e_log] in *; auto.
    + rewrite F2. reflexivity.
    + rewrite C3, put_length, C. apply (i_len _ _ I).
    + intros j N. rewrite G7 by auto. apply RO. auto.
    + intros k. rewrite G8. apply RU.
  - rewrite (set_state_eq i t) by (unfold after_run; cbn [e_tasks]; rewrite F2; auto).
    eapply (inv_advance slots s _ i t TWaiting); eauto; try discriminate; unfold after_run in *; cbn [e_funcs e_tasks e_stops e_live e_refs e_next e_gather e_log] in *; auto.
    + rewrite F2. reflexivity.
    + rewrite put_length, C. apply (i_len _ _ I).
    + rewrite put_nth. destruct (Nat.eq_dec (t_slot t) (t_slot t)); [|congruence]. destruct (Nat.ltb _ _); auto. destruct (beh (t_id t)); auto.
Qed.

Definition op_ok (slots : nat) (o : eop) : Prop := match o with Register slot => slot < slots | _ => True end.
Lemma inv_step slots s o : op_ok slots o -> inv slots s -> inv slots (estep s o).
Proof.
  intros OK I. destruct o as [slot| |i| ]; simpl.
  - apply inv_register; auto.
  - apply inv_did_render; auto.
  - unfold EffectModel.step_task. destruct (nth_error (e_tasks s) i) as [t|] eqn:E; auto. destruct (t_state t) eqn:ST; auto; [apply inv_start; auto|].
    destruct (nth _ _ _); auto. apply inv_finish; auto.
  - apply inv_unmount; auto.
Qed.
Lemma inv_steps slots ops : forall s, Forall (op_ok slots) ops -> inv slots s -> inv slots (fold_left estep ops s).
Proof. induction ops as [|o ops IH]; intros s F I; simpl; auto. inversion F; subst. apply IH; auto. apply inv_step; auto. Qed.
Lemma inv_run slots ops : Forall (op_ok slots) ops -> inv slots (erun slots ops).
Proof. intros F. apply inv_steps; auto. apply inv_init. Qed.

(** ** Counting *)

Definition returned (k : nat) (l : list seen) : nat := length (filter (fun e => match e with SRan j OCleanup => Nat.eqb j k | _ => false end) l).
Definition called (k : nat) (l : list seen) : nat := length (filter (fun e => match e with SCleaned j => Nat.eqb j k | _ => false end) l).
Lemma alternates_count k l : forall due, alternates due l ->
  called k l + (if match due_after due l with Some j => Nat.eqb j k | None => false end then 1 else 0)
  = (if match due with Some j => Nat.eqb j k | None => false end then 1 else 0) + returned k l.
Proof.
  induction l as [|[j o|j] l IH]; intros due A; simpl in *; [unfold called, returned; simpl; lia| |].
  - destruct A as [-> A]. specialize (IH _ A). unfold called, returned in *. simpl. destruct o; simpl in *; auto. destruct (Nat.eqb j k); simpl in *; lia.
  - destruct A as [-> A]. specialize (IH _ A). unfold called, returned in *. simpl. destruct (Nat.eqb j k); simpl in *; lia.
Qed.
End Good.

(** Counting per slot and in total. *)
Definition slot_of (e : eev) : nat := match e with Ran s _ _ => s | Cleaned s _ => s end.
Definition see (e : eev) : seen := match e with Ran _ k o => SRan k o | Cleaned _ k => SCleaned k end.
Lemma of_slot_one slot e : of_slot slot [e] = if Nat.eq_dec (slot_of e) slot then [see e] else [].
Proof. unfold of_slot. simpl. destruct e; simpl; destruct (Nat.eq_dec _ _); reflexivity. Qed.
Lemma count_slots (f : seen -> bool) l n : (forall e, In e l -> slot_of e < n) ->
  length (filter (fun e => f (see e)) l) = list_sum (map (fun s => length (filter f (of_slot s l))) (seq 0 n)).
Proof.
  induction l as [|e l IH]; intros B.
  - simpl. clear. induction (seq 0 n); simpl; auto.
  - assert (B' : forall x, In x l -> slot_of x < n) by (intros x J; apply B; right; auto). specialize (IH B').
    assert (SP : forall s, length (filter f (of_slot s (e :: l))) = length (filter f (of_slot s [e])) + length (filter f (of_slot s l))).
    { intros s. change (e :: l) with ([e] ++ l). rewrite of_slot_app, filter_app, app_length. reflexivity. }
    rewrite (map_ext _ _ SP). assert (SUM : forall f g (xs : list nat), list_sum (map (fun s => f s + g s) xs) = list_sum (map f xs) + list_sum (map g xs)).
    { intros f' g xs. induction xs; simpl in *; auto. unfold list_sum in *. simpl. lia. }
    rewrite SUM, <- IH. assert (L : slot_of e < n) by (apply B; left; auto).
    assert (Z : list_sum (map (fun s0 => length (filter f (of_slot s0 [e]))) (seq 0 n)) = if f (see e) then 1 else 0).
    { assert (G : forall m a, list_sum (map (fun s0 => length (filter f (of_slot s0 [e]))) (seq a m)) = if (Nat.leb a (slot_of e) && Nat.ltb (slot_of e) (a + m)) && f (see e) then 1 else 0).
      { induction m as [|m IHm]; intros a.
        - simpl. destruct (Nat.leb_spec a (slot_of e)), (Nat.ltb_spec (slot_of e) (a + 0)); simpl; auto; lia.
        - change (length (filter f (of_slot a [e])) + list_sum (map (fun s0 => length (filter f (of_slot s0 [e]))) (seq (S a) m)) = if (Nat.leb a (slot_of e) && Nat.ltb (slot_of e) (a + S m)) && f (see e) then 1 else 0).
          rewrite IHm, of_slot_one. destruct (Nat.eq_dec (slot_of e) a) as [->|N]; cbn [filter].
          + destruct (Nat.leb_spec (S a) a); [lia|]. destruct (Nat.leb_spec a a); [|lia]. destruct (Nat.ltb_spec a (a + S m)); [|lia]. cbn [andb]. destruct (f (see e)); auto.
          + cbn [length]. destruct (Nat.leb_spec (S a) (slot_of e)), (Nat.leb_spec a (slot_of e)); cbn [andb]; try lia.
            destruct (Nat.ltb_spec (slot_of e) (S a + m)), (Nat.ltb_spec (slot_of e) (a + S m)); cbn [andb]; auto; lia. }
      rewrite G. destruct (Nat.leb_spec 0 (slot_of e)); [|lia]. destruct (Nat.ltb_spec (slot_of e) (0 + n)); [|lia]. reflexivity. }
    rewrite Z. simpl. destruct (f (see e)); reflexivity.
Qed.
Lemma slot_bound (l : list eev) : exists n, forall e, In e l -> slot_of e < n.
Proof.
  induction l as [|e l [n IH]]; [exists 0; intros e []|]. exists (S (slot_of e + n)). intros x [->|J]; [lia|]. specialize (IH x J). lia.
Qed.

(** How often the function of registration [k] returned a clean-up. *)
Definition returns (k : nat) (l : list eev) : nat := length (filter (fun e => match e with Ran _ j OCleanup => Nat.eqb j k | _ => false end) l).
Lemma filter_same {A} (f g : A -> bool) l : (forall x, f x = g x) -> filter f l = filter g l.
Proof. intros E. induction l; simpl; auto. rewrite E, IHl. reflexivity. Qed.
Lemma list_sum_le (f g : nat -> nat) xs : (forall x, f x <= g x) -> list_sum (map f xs) <= list_sum (map g xs).
Proof. intros L. induction xs as [|x xs IH]; simpl; auto. unfold list_sum in *. simpl. specialize (L x). lia. Qed.
Lemma totals (l : list eev) k : (forall slot, alternates None (of_slot slot l)) ->
  cleanups k l <= returns k l /\ ((forall slot, due_after None (of_slot slot l) = None) -> cleanups k l = returns k l).
Proof.
  intros A. destruct (slot_bound l) as [n B].
  assert (C1 : cleanups k l = list_sum (map (fun s => called k (of_slot s l)) (seq 0 n))).
  { unfold cleanups, called. rewrite <- count_slots by auto. f_equal. apply filter_same. intros [s j o|s j]; reflexivity. }
  assert (C2 : returns k l = list_sum (map (fun s => returned k (of_slot s l)) (seq 0 n))).
  { unfold returns, returned. rewrite <- count_slots by auto. f_equal. apply filter_same. intros [s j [ | | ]|s j]; reflexivity. }
  rewrite C1, C2. split.
  - apply list_sum_le. intros s. pose proof (alternates_count k _ None (A s)) as P. simpl in P. lia.
  - intros D. f_equal. apply map_ext. intros s. pose proof (alternates_count k _ None (A s)) as P. rewrite D in P. simpl in P. lia.
Qed.
Lemma returns_runs k l : returns k l <= runs k l.
Proof. unfold returns, runs. induction l as [|[s j [ | | ]|s j] l IH]; simpl; auto; destruct (Nat.eqb j k); simpl; lia. Qed.
Lemma ran_runs slot k o l : In (Ran slot k o) l -> 1 <= runs k l.
Proof.
  unfold runs. induction l as [|e l IH]; intros []; simpl.
  - subst e. rewrite Nat.eqb_refl. simpl. lia.
  - destruct e; [destruct (Nat.eqb id k); simpl|]; auto with arith.
Qed.
Lemma ran_returns slot k l : In (Ran slot k OCleanup) l -> 1 <= returns k l.
Proof.
  unfold returns. induction l as [|e l IH]; intros []; simpl.
  - subst e. rewrite Nat.eqb_refl. simpl. lia.
  - destruct e as [s j o|s j]; [destruct o; [|  |destruct (Nat.eqb j k); simpl]|]; auto with arith.
Qed.

(** ** C21 *)

(** In every schedule, each effect's history alternates between runs and the clean-ups they returned; no effect function
    is run twice for one registration and no clean-up is called more often than it was returned. *)
Theorem C21_effects_alternate : forall beh bad_clean slots ops,
  (forall k, beh k <> ORaises) -> (forall k, bad_clean k = false) -> Forall (op_ok slots) ops ->
  let log := e_log (erun beh bad_clean slots ops) in
  (forall slot, alternates None (of_slot slot log)) /\
  (forall k, runs k log <= 1 /\ cleanups k log <= 1).
Proof.
  intros beh bad slots ops F FC OK log. pose proof (inv_run beh bad F FC slots ops OK) as I.
  assert (A : forall slot, alternates None (of_slot slot log)) by (intros slot; apply (i_agrees _ _ I slot)).
  split; auto. intros k. pose proof (i_runs _ _ I k) as R. fold log in R.
  assert (runs k log <= 1) by (rewrite R; destruct (existsb _ _); lia).
  pose proof (proj1 (totals log k A)). pose proof (returns_runs k log). lia.
Qed.
Print Assumptions C21_effects_alternate.

(** Two effects, three registrations of the first; the second run of each calls the first's clean-up first. *)
Definition demo21 : list eop :=
  [Register 0; Register 1; DidRender; RunTask 1; RunTask 0; Register 0; DidRender; Register 0; DidRender; RunTask 3; RunTask 2; Unmount; RunTask 2; RunTask 0; RunTask 3].
Example C21_example : e_log (erun (fun _ => OCleanup) (fun _ => false) 2 demo21)
  = [Ran 1 1 OCleanup; Ran 0 0 OCleanup; Cleaned 0 0; Ran 0 3 OCleanup; Cleaned 0 3; Ran 0 2 OCleanup; Cleaned 0 2]
  /\ Forall (op_ok 2) demo21.
Proof. split; [vm_compute; reflexivity|]. repeat constructor. Qed.

(** ** C22 *)

Section After.
Variable beh : nat -> outcome.
Variable bad_clean : nat -> bool.
Hypothesis fine : forall k, beh k <> ORaises.
Hypothesis fine_clean : forall k, bad_clean k = false.

(** After unmounting began, only tasks run (a component that is unmounted does not render). *)
Definition only_tasks (o : eop) : Prop := match o with RunTask _ => True | _ => False end.
Definition stopped (n : nat) (s : est) : Prop :=
  length (e_tasks s) = n /\ e_gather s = Some (seq 0 n) /\ forall i t, nth_error (e_tasks s) i = Some t -> nth (t_stop t) (e_stops s) false = true.

Lemma step_shape slots i s : inv slots s -> forall t, nth_error (e_tasks s) i = Some t ->
  let s' := step_task beh bad_clean i s in
  e_gather s' = e_gather s /\ e_stops s' = e_stops s /\
  exists x, e_tasks s' = put (e_tasks s) i (Task (t_slot t) (t_id t) (t_stop t) x) /\
            (nth (t_stop t) (e_stops s) false = true -> x = TDone \/ x = TFailed).
Proof.
  intros I t E s'. subst s'. unfold step_task. rewrite E.
  assert (ID : put (e_tasks s) i (Task (t_slot t) (t_id t) (t_stop t) (t_state t)) = e_tasks s).
  { clear - E. revert i E. induction (e_tasks s) as [|y l IH]; intros [|i] E; simpl in *; auto; try discriminate; [injection E as ->; destruct t; auto|f_equal; auto]. }
  destruct (t_state t) eqn:ST.
  - rewrite start_eq by auto. cbv zeta. destruct (cleanup_facts bad_clean fine_clean (t_slot t) s) as (F1 & F2 & F3 & F4 & F5 & F6 & F7 & F8).
    set (s1 := snd (cleanup bad_clean (t_slot t) s)) in *.
    destruct (nth (t_stop t) (e_stops (after_run beh t s1)) false) eqn:N.
    + rewrite finish_eq by auto. destruct (cleanup_facts bad_clean fine_clean (t_slot t) (after_run beh t s1)) as (G1 & G2 & G3 & G4 & G5 & G6 & G7 & G8).
      rewrite (set_state_eq i t) by (rewrite G2; unfold after_run; cbn [e_tasks]; rewrite F2; auto). cbn [e_gather e_stops e_tasks].
      rewrite G2, G3, G6. unfold after_run. cbn [e_gather e_stops e_tasks]. rewrite F2, F3, F6. repeat split; auto. exists TDone. auto.
    + rewrite (set_state_eq i t) by (unfold after_run; cbn [e_tasks]; rewrite F2; auto). cbn [e_gather e_stops e_tasks]. unfold after_run in *. cbn [e_gather e_stops e_tasks] in *.
      rewrite F2, F3, F6 in *. repeat split; auto. exists TWaiting. split; auto. congruence.
  - destruct (nth (t_stop t) (e_stops s) false) eqn:N.
    + rewrite finish_eq by auto. destruct (cleanup_facts bad_clean fine_clean (t_slot t) s) as (F1 & F2 & F3 & F4 & F5 & F6 & F7 & F8).
      rewrite (set_state_eq i t) by (rewrite F2; auto). cbn [e_gather e_stops e_tasks]. rewrite F2, F3, F6. repeat split; auto. exists TDone. auto.
    + repeat split; auto. exists TWaiting. rewrite ID. split; auto. discriminate.
  - repeat split; auto. exists TDone. rewrite ID. auto.
  - repeat split; auto. exists TFailed. rewrite ID. auto.
Qed.
Lemma step_none i s : nth_error (e_tasks s) i = None -> step_task beh bad_clean i s = s.
Proof. intros E. unfold step_task. rewrite E. reflexivity. Qed.

Lemma stopped_step slots n i s : inv slots s -> stopped n s -> stopped n (step_task beh bad_clean i s) /\
  (i < n -> exists t, nth_error (e_tasks (step_task beh bad_clean i s)) i = Some t /\ t_state t = TDone) /\
  (forall j t, nth_error (e_tasks s) j = Some t -> t_state t = TDone -> exists t', nth_error (e_tasks (step_task beh bad_clean i s)) j = Some t' /\ t_state t' = TDone).
Proof.
  intros I (L & G & S). destruct (nth_error (e_tasks s) i) as [t|] eqn:E.
  - destruct (step_shape slots i s I t E) as (A & B & x & C & D). assert (LI : i < length (e_tasks s)) by (apply nth_error_Some; congruence).
    pose proof (inv_step beh bad_clean fine fine_clean slots s (RunTask i) (Logic.I) I) as I'. simpl in I'.
    assert (X : x = TDone).
    { destruct (D (S i t E)) as [->| ->]; auto. exfalso. destruct (i_task _ _ I' i (Task (t_slot t) (t_id t) (t_stop t) TFailed)) as (_ & _ & _ & N).
      - rewrite C. apply put_same. auto.
      - apply N. reflexivity. }
    subst x. split; [split; [|split]|split].
    + rewrite C, put_length. auto.
    + congruence.
    + intros j u EU. rewrite B. rewrite C in EU. apply nth_error_put_iff in EU. destruct EU as [(-> & -> & _)|[_ EU]]; [simpl; eauto|eauto].
    + intros _. rewrite C, put_same by auto. eexists. split; [reflexivity|]. auto.
    + intros j u EU ST. rewrite C. destruct (Nat.eq_dec i j) as [<-|N]; [rewrite put_same by auto; eexists; split; [reflexivity|auto]|rewrite put_other by auto; eauto].
  - rewrite (step_none i s E). split; [split; [|split]|split]; auto; [|eauto].
    intros LI. exfalso. apply nth_error_None in E. lia.
Qed.
Lemma stopped_steps slots n after : forall s, inv slots s -> stopped n s -> Forall only_tasks after ->
  let s' := fold_left (estep beh bad_clean) after s in
  inv slots s' /\ stopped n s' /\
  (forall j t, nth_error (e_tasks s) j = Some t -> t_state t = TDone -> exists t', nth_error (e_tasks s') j = Some t' /\ t_state t' = TDone) /\
  (forall i, i < n -> In (RunTask i) after -> exists t, nth_error (e_tasks s') i = Some t /\ t_state t = TDone).
Proof.
  induction after as [|o after IH]; intros s I S F; simpl.
  - split; [auto|split; [auto|split]]; [eauto|intros i _ []].
  - inversion F as [|? ? O F']; subst. destruct o as [ | |i| ]; try contradiction. simpl.
    pose proof (inv_step beh bad_clean fine fine_clean slots s (RunTask i) (Logic.I) I) as I'. simpl in I'.
    destruct (stopped_step slots n i s I S) as (S' & D & K). destruct (IH _ I' S' F') as (A & B & C & E). split; [auto|split; [auto|split]].
    + intros j t T1 T2. destruct (K j t T1 T2) as (t' & T3 & T4). eauto.
    + intros j LJ [J|J]; [injection J as ->; destruct (D LJ) as (t & T1 & T2); eauto|auto].
Qed.
Lemma stopped_unmount slots s : inv slots s -> stopped (length (e_tasks s)) (unmount s).
Proof.
  intros I. split; [|split]; auto. intros i t E. simpl in *. pose proof (i_stop _ _ (inv_unmount slots s I) i t E) as [H|[]]. exact H.
Qed.
End After.

Lemma op_ok_app slots a b : Forall (op_ok slots) a -> Forall (op_ok slots) b -> Forall (op_ok slots) (a ++ b).
Proof. intros. apply Forall_app. auto. Qed.
Lemma only_tasks_ok slots ops : Forall only_tasks ops -> Forall (op_ok slots) ops.
Proof. intros F. induction F as [|o l A _ IH]; constructor; auto. destruct o; simpl in *; auto; contradiction. Qed.

(** When the unmount of a component has completed, every clean-up that any of its effects returned has been called
    exactly once, every task has returned, and nothing more happens. *)
Theorem C22_cleanup_on_unmount : forall beh bad_clean slots before after,
  (forall k, beh k <> ORaises) -> (forall k, bad_clean k = false) ->
  Forall (op_ok slots) before -> Forall only_tasks after ->
  let s := erun beh bad_clean slots (before ++ Unmount :: after) in
  completed s ->
  (forall slot k, In (Ran slot k OCleanup) (e_log s) -> cleanups k (e_log s) = 1) /\
  (forall i t, nth_error (e_tasks s) i = Some t -> t_state t = TDone) /\
  (forall more, Forall only_tasks more -> fold_left (estep beh bad_clean) more s = s).
Proof.
  intros beh bad slots before after F FC OK OT s CO. subst s. unfold erun in *. rewrite fold_left_app in *. simpl in *. fold (erun beh bad slots before) in *.
  set (s0 := erun beh bad slots before) in *. pose proof (inv_run beh bad F FC slots before OK) as I0. fold s0 in I0.
  destruct (stopped_steps beh bad F FC slots (length (e_tasks s0)) after (unmount s0)) as (I & S & _ & _); auto.
  { apply inv_unmount. auto. } { apply (stopped_unmount slots). auto. }
  set (s := fold_left (estep beh bad) after (unmount s0)) in *. clearbody s.
  assert (D : forall i t, nth_error (e_tasks s) i = Some t -> t_state t = TDone).
  { intros i t E. destruct S as (L & G & _). destruct CO as (g & G' & [C|(j & u & _ & E' & X)]).
    - rewrite G in G'. injection G' as <-. apply (C i t); auto. apply in_seq. assert (i < length (e_tasks s)) by (apply nth_error_Some; congruence). lia.
    - exfalso. destruct (i_task _ _ I j u E') as (_ & _ & _ & N). congruence. }
  assert (ND : forall slot, nth slot (e_refs s) None = None).
  { intros slot. destruct (nth slot (e_refs s) None) as [k|] eqn:R; auto. exfalso. destruct (i_due _ _ I slot k R) as (i & t & E & _ & _ & W).
    rewrite (D i t E) in W. discriminate. }
  split; [|split]; auto.
  - intros slot k J. assert (A : forall sl, alternates None (of_slot sl (e_log s))) by (intros sl; apply (i_agrees _ _ I sl)).
    destruct (totals (e_log s) k A) as [_ T]. rewrite T by (intros sl; rewrite (proj2 (i_agrees _ _ I sl)); auto).
    pose proof (ran_returns slot k _ J). pose proof (returns_runs k (e_log s)). pose proof (i_runs _ _ I k) as R. destruct (existsb _ _) in R; lia.
  - intros more M. induction M as [|o more X _ IH]; simpl; auto. destruct o as [ | |i| ]; try contradiction. simpl.
    unfold step_task. destruct (nth_error (e_tasks s) i) as [t|] eqn:E; [rewrite (D i t E)|]; exact IH.
Qed.
Print Assumptions C22_cleanup_on_unmount.

(** And it does complete, as soon as the event loop has run each task once more, in any order. *)
Theorem C22_unmount_completes : forall beh bad_clean slots before after,
  (forall k, beh k <> ORaises) -> (forall k, bad_clean k = false) ->
  Forall (op_ok slots) before -> Forall only_tasks after ->
  (forall i, i < length (e_tasks (erun beh bad_clean slots before)) -> In (RunTask i) after) ->
  completed (erun beh bad_clean slots (before ++ Unmount :: after)).
Proof.
  intros beh bad slots before after F FC OK OT ALL. unfold erun in *. rewrite fold_left_app. simpl. fold (erun beh bad slots before) in *.
  set (s0 := erun beh bad slots before) in *. pose proof (inv_run beh bad F FC slots before OK) as I0. fold s0 in I0.
  destruct (stopped_steps beh bad F FC slots (length (e_tasks s0)) after (unmount s0)) as (I & S & _ & D); auto.
  { apply inv_unmount. auto. } { apply (stopped_unmount slots). auto. }
  destruct S as (L & G & _). exists (seq 0 (length (e_tasks s0))). split; auto. left. intros i t J E. apply in_seq in J.
  destruct (D i) as (u & E' & X); [lia|apply ALL; lia|]. congruence.
Qed.
Print Assumptions C22_unmount_completes.

Definition demo22 : list eop := [Register 0; Register 1; DidRender; RunTask 1; RunTask 0; Register 0; DidRender].
Definition demo22_after : list eop := [RunTask 1; RunTask 0; RunTask 2].
Example C22_example :
  Forall (op_ok 2) demo22 /\ Forall only_tasks demo22_after /\
  completed (erun (fun _ => OCleanup) (fun _ => false) 2 (demo22 ++ Unmount :: demo22_after)) /\
  e_log (erun (fun _ => OCleanup) (fun _ => false) 2 (demo22 ++ Unmount :: demo22_after))
  = [Ran 1 1 OCleanup; Ran 0 0 OCleanup; Cleaned 1 1; Cleaned 0 0; Ran 0 2 OCleanup; Cleaned 0 2].
Proof.
  split; [repeat constructor|split; [repeat constructor|split; [|vm_compute; reflexivity]]].
  apply C22_unmount_completes; try (intros; discriminate); try reflexivity; [repeat constructor|repeat constructor|].
  assert (E : length (e_tasks (erun (fun _ => OCleanup) (fun _ => false) 2 demo22)) = 3) by (vm_compute; reflexivity).
  intros i L. rewrite E in L. destruct i as [|[|[|i]]]; simpl; auto; lia.
Qed.

(** The finding: if a clean-up raises it can be called twice, and the unmount completes while another task is left. *)
Theorem C22_raising_refuted : exists slots before after,
  Forall (op_ok slots) before /\ Forall only_tasks after /\
  let beh := fun _ => OCleanup in let bad := fun k => Nat.eqb k 0 in
  let s := erun beh bad slots (before ++ [Unmount]) in
  let s' := erun beh bad slots (before ++ Unmount :: after) in
  completed s /\ (exists i t, nth_error (e_tasks s) i = Some t /\ t_state t = TWaiting) /\
  cleanups 0 (e_log s') = 2.
Proof.
  exists 1, [Register 0; DidRender; RunTask 0; Register 0; DidRender; RunTask 1], [RunTask 0].
  split; [repeat constructor|]. split; [repeat constructor|]. cbv zeta. split; [|split; [|vm_compute; reflexivity]].
  - exists [0; 1]. split; [vm_compute; reflexivity|]. right. exists 1. eexists. split; [simpl; auto|]. split; vm_compute; reflexivity.
  - exists 0. eexists. split; vm_compute; reflexivity.
Qed.
Print Assumptions C22_raising_refuted.
