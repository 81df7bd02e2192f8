(** * Model of the thread-safe render queue, and property C36

    /repo/src/reactpy/core/layout.py:838-875 ([_ThreadSafeQueue]): [put] may be called from any thread at any time; it adds
    the value to [_pending] and asks the event loop to run [_schedule_put], which creates the task
    [_put_with_backpressure]; this task puts the value into the bounded asyncio [Queue]. [get] is called by one consumer
    (the render loop); between the removal from the queue and the removal from [_pending] another thread may call [put].

    Simplifications: callbacks, new tasks and woken tasks run in the order in which they were made ready, each kind by
    itself (asyncio: one common order); [put] is atomic (a race of two threads in [put] itself is not modelled). *)
From Coq Require Import Arith Bool Lia List Permutation.
From Verif Require Import EffectProps AsyncDelivery.
Import ListNotations.

Record tsq := TSQ {
  q_pending : list nat;       (* [_pending], a set *)
  q_callbacks : list nat;     (* calls of [_schedule_put] that the loop has yet to make *)
  q_tasks : list nat;         (* put tasks that have not started *)
  q_blocked : list nat;       (* put tasks waiting for a place *)
  q_woken : list nat;         (* put tasks woken by a [get], not yet resumed *)
  q_queue : list nat;         (* the asyncio queue *)
  q_got : option nat;         (* taken by [get], still in [_pending] *)
  q_out : list nat;           (* returned by [get] so far *)
  q_accepted : list nat       (* puts that were not coalesced, for the statements *)
}.
Definition tsq_init : tsq := TSQ [] [] [] [] [] [] None [] [].
(** [Queue.full] *)
Definition qfull (cap : nat) (q : list nat) : bool := negb (Nat.eqb cap 0) && Nat.leb cap (length q).
(** [put], layout.py:845-848. *)
Definition q_put (v : nat) (s : tsq) : tsq :=
  if existsb (Nat.eqb v) (q_pending s) then s
  else TSQ (q_pending s ++ [v]) (q_callbacks s ++ [v]) (q_tasks s) (q_blocked s) (q_woken s) (q_queue s) (q_got s) (q_out s) (q_accepted s ++ [v]).
(** [_schedule_put], layout.py:850-851. *)
Definition q_schedule (s : tsq) : tsq :=
  match q_callbacks s with
  | [] => s
  | v :: r => TSQ (q_pending s) r (q_tasks s ++ [v]) (q_blocked s) (q_woken s) (q_queue s) (q_got s) (q_out s) (q_accepted s)
  end.
(** [_put_with_backpressure], layout.py:853-860, from its start, or resumed: one pass of asyncio's [Queue.put]. *)
Definition q_enqueue (cap v : nat) (s : tsq) : tsq :=
  if qfull cap (q_queue s)
  then TSQ (q_pending s) (q_callbacks s) (q_tasks s) (q_blocked s ++ [v]) (q_woken s) (q_queue s) (q_got s) (q_out s) (q_accepted s)
  else TSQ (q_pending s) (q_callbacks s) (q_tasks s) (q_blocked s) (q_woken s) (q_queue s ++ [v]) (q_got s) (q_out s) (q_accepted s).
Definition q_start (cap : nat) (s : tsq) : tsq :=
  match q_tasks s with
  | [] => s
  | v :: r => q_enqueue cap v (TSQ (q_pending s) (q_callbacks s) r (q_blocked s) (q_woken s) (q_queue s) (q_got s) (q_out s) (q_accepted s))
  end.
Definition q_resume (cap : nat) (s : tsq) : tsq :=
  match q_woken s with
  | [] => s
  | v :: r => q_enqueue cap v (TSQ (q_pending s) (q_callbacks s) (q_tasks s) (q_blocked s) r (q_queue s) (q_got s) (q_out s) (q_accepted s))
  end.
(** [get], layout.py:862-865: [await self._queue.get()], which wakes the first waiting put, ... *)
Definition q_take (s : tsq) : tsq :=
  match q_got s, q_queue s with
  | None, v :: r => TSQ (q_pending s) (q_callbacks s) (q_tasks s) (tl (q_blocked s)) (q_woken s ++ firstn 1 (q_blocked s)) r (Some v) (q_out s) (q_accepted s)
  | _, _ => s
  end.
(** ... then [self._pending.remove(value); return value]. *)
Definition q_return (s : tsq) : tsq :=
  match q_got s with
  | None => s
  | Some v => TSQ (remove Nat.eq_dec v (q_pending s)) (q_callbacks s) (q_tasks s) (q_blocked s) (q_woken s) (q_queue s) None (q_out s ++ [v]) (q_accepted s)
  end.
(** [close], layout.py:867-874: the put tasks are cancelled and awaited. *)
Definition q_close (s : tsq) : tsq :=
  TSQ [] (q_callbacks s) [] [] [] (q_queue s) (q_got s) (q_out s) (q_accepted s).

Inductive qop := QPut (v : nat) | QSchedule | QStart | QResume | QTake | QReturn | QClose.
Definition qstep (cap : nat) (s : tsq) (o : qop) : tsq :=
  match o with
  | QPut v => q_put v s | QSchedule => q_schedule s | QStart => q_start cap s | QResume => q_resume cap s
  | QTake => q_take s | QReturn => q_return s | QClose => q_close s
  end.
Definition qrun (cap : nat) (ops : list qop) : tsq := fold_left (qstep cap) ops tsq_init.
Definition open_run (ops : list qop) : Prop := ~ In QClose ops.

(** ** Proofs *)

Definition got_list (s : tsq) : list nat := match q_got s with Some v => [v] | None => [] end.
(** Everything on its way, oldest first. *)
Definition inside_q (s : tsq) : list nat := got_list s ++ q_queue s ++ q_woken s ++ q_blocked s ++ q_tasks s ++ q_callbacks s.
Record qinv (cap : nat) (s : tsq) : Prop := {
  k_nodup : NoDup (q_pending s);
  k_pend : Permutation (q_pending s) (inside_q s);
  k_acc : Permutation (q_accepted s) (q_out s ++ inside_q s);
  k_cap : cap <> 0 -> length (q_queue s) <= cap;
  k_room : q_blocked s <> [] -> cap <> 0 /\ cap <= length (q_queue s) + length (q_woken s)
}.
Lemma qfull_iff cap q : qfull cap q = true <-> cap <> 0 /\ cap <= length q.
Proof. unfold qfull. rewrite andb_true_iff, negb_true_iff, Nat.eqb_neq, Nat.leb_le. tauto. Qed.
Lemma qfull_false cap q : qfull cap q = false <-> cap = 0 \/ length q < cap.
Proof. rewrite <- not_true_iff_false, qfull_iff. lia. Qed.
Lemma remove_perm v l l' : NoDup l -> Permutation l (v :: l') -> Permutation (remove Nat.eq_dec v l) l'.
Proof.
  intros N P. assert (ND : NoDup (v :: l')) by (eapply Permutation_NoDup; eauto). inversion ND as [|? ? N1 N2]; subst.
  apply NoDup_Permutation; auto; [apply nodup_remove_nat; auto|]. intros x. rewrite in_remove_iff. rewrite P. simpl. split; [intros [[->|J] K]; congruence|]. intros J. split; auto. intros ->. contradiction.
Qed.
Ltac cocc := let x := fresh "x" in
  rewrite ?(Permutation_count_occ Nat.eq_dec) in *; intros x;
  repeat match goal with H : forall y : nat, count_occ Nat.eq_dec _ y = count_occ Nat.eq_dec _ y |- _ => specialize (H x) end;
  repeat (rewrite ?count_occ_app in *; simpl in * ); repeat (destruct (Nat.eq_dec _ _)); try lia.
(** A step that moves values forward. *)
Lemma qinv_move cap s s' : qinv cap s -> q_pending s' = q_pending s -> q_accepted s' = q_accepted s -> q_out s' = q_out s ->
  Permutation (inside_q s) (inside_q s') -> (cap <> 0 -> length (q_queue s') <= cap) -> (q_blocked s' <> [] -> cap <> 0 /\ cap <= length (q_queue s') + length (q_woken s')) -> qinv cap s'.
Proof. intros [K1 K2 K3 K4 K5] E1 E2 E3 P C B. constructor; rewrite ?E1, ?E2, ?E3; auto; [rewrite K2; auto|rewrite K3, P; auto]. Qed.
Lemma qinv_step cap s o : o <> QClose -> qinv cap s -> qinv cap (qstep cap s o).
Proof.
  intros NC K. pose proof K as [K1 K2 K3 K4 K5]. destruct o as [v| | | | | |]; simpl; [| | | | | |congruence].
  - unfold q_put. destruct (existsb (Nat.eqb v) (q_pending s)) eqn:E; auto. constructor; simpl; auto.
    + apply nodup_snoc; auto. intros J. assert (existsb (Nat.eqb v) (q_pending s) = true) by (apply existsb_exists; exists v; split; auto; apply Nat.eqb_refl). congruence.
    + unfold inside_q, got_list in *; simpl. cocc.
    + unfold inside_q, got_list in *; simpl. cocc.
  - unfold q_schedule. destruct (q_callbacks s) as [|v r] eqn:C; auto. apply (qinv_move cap s); auto. unfold inside_q, got_list; simpl. rewrite C. cocc.
  - unfold q_start. destruct (q_tasks s) as [|v r] eqn:C; auto. unfold q_enqueue. simpl. destruct (qfull cap (q_queue s)) eqn:F; apply (qinv_move cap s); auto; simpl.
    + unfold inside_q, got_list; simpl. rewrite C. cocc.
    + intros _. apply qfull_iff in F. lia.
    + unfold inside_q, got_list; simpl. rewrite C. cocc.
    + apply qfull_false in F. rewrite app_length. simpl. lia.
    + intros B. destruct (K5 B). rewrite app_length. simpl. lia.
  - unfold q_resume. destruct (q_woken s) as [|v r] eqn:C; auto. unfold q_enqueue. simpl. destruct (qfull cap (q_queue s)) eqn:F; apply (qinv_move cap s); auto; simpl.
    + unfold inside_q, got_list; simpl. rewrite C. cocc.
    + intros _. apply qfull_iff in F. lia.
    + unfold inside_q, got_list; simpl. rewrite C. cocc.
    + apply qfull_false in F. rewrite app_length. simpl. lia.
    + intros B. destruct (K5 B) as [X Y]. rewrite ?C in Y. rewrite app_length. simpl in *. lia.
  - unfold q_take. destruct (q_got s) eqn:G; auto. destruct (q_queue s) as [|v r] eqn:Q; auto. apply (qinv_move cap s); auto; simpl.
    + unfold inside_q, got_list; simpl. rewrite G, Q. simpl. destruct (q_blocked s) as [|b bs]; simpl; cocc.
    + intros X. specialize (K4 X). rewrite ?Q in K4. simpl in K4. lia.
    + destruct (q_blocked s) as [|b bs] eqn:B; simpl; [congruence|]. intros _. destruct K5 as [X Y]; [discriminate|]. rewrite ?Q in Y. rewrite app_length. simpl in *. lia.
  - unfold q_return. destruct (q_got s) as [v|] eqn:G; auto. constructor; simpl; auto.
    + apply nodup_remove_nat. auto.
    + apply remove_perm; auto. unfold inside_q, got_list in K2. rewrite G in K2. exact K2.
    + unfold inside_q, got_list in *. simpl. rewrite G in K3. simpl in K3. rewrite <- app_assoc. exact K3.
Qed.
Lemma qinv_run cap ops : forall s, open_run ops -> qinv cap s -> qinv cap (fold_left (qstep cap) ops s).
Proof.
  induction ops as [|o ops IH]; intros s O K; simpl; auto. apply IH; [intros J; apply O; right; auto|]. apply qinv_step; auto. intros ->. apply O. left. auto.
Qed.
Lemma qinv_init cap : qinv cap tsq_init.
Proof. constructor; simpl; auto; try constructor; try lia; congruence. Qed.
Lemma qcap_run cap ops : cap <> 0 -> forall s, length (q_queue s) <= cap -> length (q_queue (fold_left (qstep cap) ops s)) <= cap.
Proof.
  intros C. induction ops as [|o ops IH]; intros s L; simpl; auto. apply IH. destruct o; simpl; auto.
  - unfold q_put. destruct (existsb _ _); auto.
  - unfold q_schedule. destruct (q_callbacks s); auto.
  - unfold q_start, q_enqueue. destruct (q_tasks s); auto. simpl. destruct (qfull cap (q_queue s)) eqn:F; simpl; auto. apply qfull_false in F. rewrite app_length. simpl. lia.
  - unfold q_resume, q_enqueue. destruct (q_woken s); auto. simpl. destruct (qfull cap (q_queue s)) eqn:F; simpl; auto. apply qfull_false in F. rewrite app_length. simpl. lia.
  - unfold q_take. destruct (q_got s); auto. destruct (q_queue s) eqn:Q; simpl in *; rewrite ?Q; simpl; lia.
  - unfold q_return. destruct (q_got s); auto.
Qed.

(** The pipeline can be run until it is empty, and then everything that was inside has been returned. *)
Definition running (o : qop) : Prop := match o with QPut _ | QClose => False | _ => True end.
Definition weight (s : tsq) : nat := 5 * length (q_callbacks s) + 4 * length (q_tasks s) + 3 * length (q_blocked s) + 2 * length (q_queue s) + 2 * length (q_woken s) + length (got_list s).
Lemma qdrain cap : forall n s, qinv cap s -> weight s <= n -> exists ops, Forall running ops /\ let s' := fold_left (qstep cap) ops s in qinv cap s' /\ inside_q s' = [] /\ q_accepted s' = q_accepted s /\ exists more, q_out s' = q_out s ++ more.
Proof.
  induction n as [n IH] using lt_wf_ind. intros s K W.
  assert (STEP : forall o, running o -> weight (qstep cap s o) < weight s -> q_accepted (qstep cap s o) = q_accepted s -> (exists more, q_out (qstep cap s o) = q_out s ++ more) ->
    exists ops, Forall running ops /\ let s' := fold_left (qstep cap) ops s in qinv cap s' /\ inside_q s' = [] /\ q_accepted s' = q_accepted s /\ exists more, q_out s' = q_out s ++ more).
  { intros o R L A (m & M). destruct (IH (weight (qstep cap s o))) with (s := qstep cap s o) as (ops & F & X1 & X2 & X3 & m2 & X4); auto; try lia.
    { apply qinv_step; auto. intros ->. exact R. }
    exists (o :: ops). split; [constructor; auto|]. simpl. split; auto. split; auto. split; [congruence|]. exists (m ++ m2). rewrite X4, M, app_assoc. auto. }
  destruct (q_got s) as [v|] eqn:G.
  { apply (STEP QReturn); simpl; auto; unfold q_return; rewrite G; simpl; eauto. unfold weight, got_list. simpl. rewrite G. simpl. lia. }
  destruct (q_queue s) as [|v r] eqn:Q.
  2:{ apply (STEP QTake); simpl; auto; unfold q_take; rewrite G, Q; simpl; eauto; [|exists []; rewrite app_nil_r; auto]. unfold weight, got_list. simpl. rewrite G, Q, app_length. destruct (q_blocked s); simpl; lia. }
  assert (NF : qfull cap (q_queue s) = false) by (rewrite Q; apply qfull_false; simpl; lia).
  destruct (q_woken s) as [|v r] eqn:WK.
  2:{ assert (E : q_resume cap s = TSQ (q_pending s) (q_callbacks s) (q_tasks s) (q_blocked s) r (q_queue s ++ [v]) (q_got s) (q_out s) (q_accepted s)) by (unfold q_resume, q_enqueue; rewrite WK; simpl; rewrite NF; auto).
      (* a woken put enters the queue and is taken at once *)
      destruct (IH (weight (q_take (q_resume cap s)))) with (s := q_take (q_resume cap s)) as (ops & F & X1 & X2 & X3 & m2 & X4); auto.
      { rewrite E. unfold q_take. simpl. rewrite G, Q. simpl. unfold weight in *. unfold got_list in *. simpl. rewrite G, Q, WK in W. simpl in W. rewrite app_length. destruct (q_blocked s); simpl in *; lia. }
      { apply (qinv_step cap (q_resume cap s) QTake); [discriminate|]. apply (qinv_step cap s QResume); [discriminate|auto]. }
      exists (QResume :: QTake :: ops). split; [constructor; simpl; auto; constructor; simpl; auto|]. simpl. split; auto. split; auto. rewrite X3, X4. rewrite E. unfold q_take. simpl. rewrite G, Q. simpl. eauto. }
  destruct (q_blocked s) as [|v r] eqn:B.
  2:{ exfalso. destruct (k_room _ _ K) as [X Y]; [rewrite B; discriminate|]. rewrite Q, WK in Y. simpl in Y. lia. }
  destruct (q_tasks s) as [|v r] eqn:T.
  2:{ apply (STEP QStart); simpl; auto; unfold q_start, q_enqueue; rewrite T; simpl; rewrite NF; simpl; eauto; [|exists []; rewrite app_nil_r; auto]. unfold weight, got_list. simpl. rewrite G, Q, T, B, WK. simpl. lia. }
  destruct (q_callbacks s) as [|v r] eqn:C.
  2:{ apply (STEP QSchedule); simpl; auto; unfold q_schedule; rewrite C; simpl; eauto; [|exists []; rewrite app_nil_r; auto]. unfold weight, got_list. simpl. rewrite G, Q, T, B, WK, C. simpl. lia. }
  exists []. split; [constructor|]. simpl. split; auto. split; [unfold inside_q, got_list; rewrite G, Q, WK, B, T, C; auto|]. split; auto. exists []. rewrite app_nil_r. auto.
Qed.

(** ** C36 *)

(** At every moment of every interleaving: what [get] has returned and what is on its way are together exactly the
    accepted puts; no value is on its way twice; a put is dropped only if its value is on its way; at most [cap] values are
    in the queue. *)
Theorem C36_queue : forall cap ops,
  open_run ops ->
  let s := qrun cap ops in
  Permutation (q_accepted s) (q_out s ++ inside_q s) /\ NoDup (inside_q s) /\
  (forall v, q_accepted (q_put v s) = q_accepted s <-> In v (inside_q s)) /\ (cap <> 0 -> length (q_queue s) <= cap).
Proof.
  intros cap ops O s. pose proof (qinv_run cap ops tsq_init O (qinv_init cap)) as [K1 K2 K3 K4 K5]. fold (qrun cap ops) in *. fold s in K1, K2, K3, K4.
  split; auto. split; [eapply Permutation_NoDup; eauto|]. split; auto. intros v. unfold q_put. destruct (existsb (Nat.eqb v) (q_pending s)) eqn:E; simpl.
  - split; auto. intros _. apply existsb_exists in E. destruct E as (x & J & X). apply Nat.eqb_eq in X. subst x. eapply Permutation_in; eauto.
  - split; [intros H; exfalso; apply (f_equal (@length nat)) in H; rewrite app_length in H; simpl in H; lia|]. intros J. exfalso.
    assert (existsb (Nat.eqb v) (q_pending s) = true); [|congruence]. apply existsb_exists. exists v. split; [|apply Nat.eqb_refl]. eapply Permutation_in; [apply Permutation_sym; exact K2|auto].
Qed.
Print Assumptions C36_queue.
(** A put is never lost: whenever [put v] is called, if the loop and the consumer go on, [v] is returned by a [get] that
    had not yet returned at that moment. *)
Theorem C36_delivered : forall cap ops v,
  open_run ops ->
  exists ops' more, Forall running ops' /\ q_out (qrun cap (ops ++ QPut v :: ops')) = q_out (qrun cap ops) ++ more /\ In v more.
Proof.
  intros cap ops v O. set (s := qrun cap ops). assert (K : qinv cap (q_put v s)).
  { apply (qinv_step cap s (QPut v)); [discriminate|]. apply qinv_run; auto. apply qinv_init. }
  destruct (qdrain cap _ _ K (le_n _)) as (ops' & F & K' & E & A & more & M). exists ops', more. split; auto. unfold qrun. rewrite fold_left_app. fold (qrun cap ops). fold s. simpl.
  cbv zeta in *. set (s' := fold_left (qstep cap) ops' (q_put v s)) in *. assert (OUT : q_out (q_put v s) = q_out s) by (unfold q_put; destruct (existsb _ _); auto).
  split; [rewrite M, OUT; auto|]. assert (IN : In v (inside_q (q_put v s))).
  { eapply Permutation_in; [apply (k_pend _ _ K)|]. unfold q_put. destruct (existsb (Nat.eqb v) (q_pending s)) eqn:X; simpl; [|apply in_app_iff; right; left; auto].
    apply existsb_exists in X. destruct X as (x & J & X). apply Nat.eqb_eq in X. subst x. auto. }
  pose proof (k_acc _ _ K') as P1. rewrite E, app_nil_r, A, M in P1. pose proof (k_acc _ _ K) as P2. rewrite P2 in P1. apply Permutation_app_inv_l in P1. eapply Permutation_in; eauto.
Qed.
Print Assumptions C36_delivered.
(** Order: kept as long as no put starts between the waking of a waiting put and its turn (in particular if the queue is
    never full). *)
Fixpoint q_orderly (cap : nat) (s : tsq) (ops : list qop) : Prop :=
  match ops with
  | [] => True
  | o :: r => (o = QStart -> q_woken s = []) /\ q_orderly cap (qstep cap s o) r
  end.
Theorem C36_order_partial : forall cap ops,
  open_run ops -> q_orderly cap tsq_init ops ->
  let s := qrun cap ops in q_accepted s = q_out s ++ inside_q s.
Proof.
  intros cap ops O G. simpl. unfold qrun.
  assert (H : forall ops s, open_run ops -> q_orderly cap s ops -> qinv cap s -> (cap <> 0 -> length (q_queue s) + length (q_woken s) <= cap) -> q_accepted s = q_out s ++ inside_q s ->
    q_accepted (fold_left (qstep cap) ops s) = q_out (fold_left (qstep cap) ops s) ++ inside_q (fold_left (qstep cap) ops s)).
  { clear. induction ops as [|o ops IH]; intros s O G K FIT E; simpl; auto. destruct G as [G1 G2]. assert (NC : o <> QClose) by (intros ->; apply O; left; auto).
    assert (KS : qinv cap (qstep cap s o)) by (apply qinv_step; auto).
    assert (X : (cap <> 0 -> length (q_queue (qstep cap s o)) + length (q_woken (qstep cap s o)) <= cap) /\ q_accepted (qstep cap s o) = q_out (qstep cap s o) ++ inside_q (qstep cap s o)).
    { destruct K as [K1 K2 K3 K4 K5]. unfold inside_q, got_list in *. destruct o as [v| | | | | |]; simpl in *; [| | | | | |congruence].
      - unfold q_put. destruct (existsb _ _); auto. simpl. split; auto. rewrite E; repeat (rewrite <- ?app_assoc; simpl); auto.
      - unfold q_schedule. destruct (q_callbacks s) as [|v r] eqn:CC; simpl; [rewrite ?CC; auto|]. split; auto. rewrite E; repeat (rewrite <- ?app_assoc; simpl); auto.
      - unfold q_start. specialize (G1 eq_refl). destruct (q_tasks s) as [|v r] eqn:CC; simpl; [rewrite ?CC; auto|]. unfold q_enqueue. simpl. destruct (qfull cap (q_queue s)) eqn:F; simpl.
        + split; auto. rewrite E; repeat (rewrite <- ?app_assoc; simpl); auto.
        + apply qfull_false in F. rewrite G1 in *. assert (q_blocked s = []) as BE. { destruct (q_blocked s); auto. destruct K5; [discriminate|]. simpl in *. lia. }
          rewrite BE, app_length in *. simpl in *. split; [lia|]. rewrite E; repeat (rewrite <- ?app_assoc; simpl); auto.
      - unfold q_resume. destruct (q_woken s) as [|v r] eqn:CC; simpl in *; [rewrite ?CC; auto|]. unfold q_enqueue. simpl. assert (NF : qfull cap (q_queue s) = false).
        { apply qfull_false. destruct (Nat.eq_dec cap 0); auto. specialize (FIT n). lia. }
        rewrite NF. simpl. rewrite app_length. simpl. split; [lia|]. rewrite E; repeat (rewrite <- ?app_assoc; simpl); auto.
      - unfold q_take. destruct (q_got s) eqn:GG; [rewrite GG; auto|]. destruct (q_queue s) as [|v r] eqn:Q; [rewrite GG, Q; auto|]. simpl. rewrite app_length. split.
        + intros C. specialize (FIT C). destruct (q_blocked s); simpl in *; lia.
        + rewrite E. simpl. rewrite <- !app_assoc. destruct (q_blocked s); auto.
      - unfold q_return. destruct (q_got s) as [v|] eqn:GG; [|rewrite GG; auto]. simpl. split; auto. rewrite E; repeat (rewrite <- ?app_assoc; simpl); auto. }
    destruct X as [X1 X2]. apply IH; auto. intros J. apply O. right. auto. }
  apply H; auto; [apply qinv_init|simpl; lia].
Qed.
Print Assumptions C36_order_partial.
Definition q_demo : list qop := [QPut 5; QPut 6; QPut 5; QSchedule; QSchedule; QStart; QStart; QPut 7; QTake; QPut 5; QReturn; QResume; QPut 5; QSchedule; QStart; QTake].
Example C36_example : open_run q_demo /\ q_orderly 1 tsq_init q_demo /\ q_out (qrun 1 q_demo) = [5] /\ inside_q (qrun 1 q_demo) = [6; 7; 5] /\ q_accepted (qrun 1 q_demo) = [5; 6; 7; 5].
Proof. split; [unfold open_run; simpl; intuition discriminate|]. split; [simpl; repeat split; intros; try discriminate; reflexivity|]. repeat split. Qed.
(** In general the order is not kept. *)
Theorem C36_order_refuted : exists cap ops,
  open_run ops /\ q_accepted (qrun cap ops) = [1; 2; 3] /\ q_out (qrun cap ops) = [1; 3; 2].
Proof.
  exists 1, [QPut 1; QPut 2; QPut 3; QSchedule; QSchedule; QSchedule; QStart; QStart; QTake; QStart; QResume; QReturn; QTake; QReturn; QResume; QTake; QReturn].
  split; [unfold open_run; simpl; intuition discriminate|]. vm_compute. auto.
Qed.
Print Assumptions C36_order_refuted.
(** After [close] no put task is left and nothing is pending; the bound holds in any case. *)
Theorem C36_close : forall cap ops,
  let s := qrun cap (ops ++ [QClose]) in
  q_pending s = [] /\ q_tasks s = [] /\ q_woken s = [] /\ q_blocked s = [] /\ (cap <> 0 -> length (q_queue s) <= cap).
Proof.
  intros cap ops. unfold qrun. rewrite fold_left_app. simpl. repeat split. intros C. apply (qcap_run cap ops C). simpl. lia.
Qed.
Print Assumptions C36_close.

(** ** Seen from outside *)
(** What the users of the queue see: a value is put (from any thread), a value is returned by [get]. *)
Inductive qev := Asked (v : nat) | Gave (v : nat).
Definition seen (s : tsq) (o : qop) : list qev :=
  match o with
  | QPut v => [Asked v]
  | QReturn => match q_got s with Some v => [Gave v] | None => [] end
  | _ => []
  end.
Fixpoint qtrace (cap : nat) (s : tsq) (ops : list qop) : list qev :=
  match ops with [] => [] | o :: r => seen s o ++ qtrace cap (qstep cap s o) r end.
(** [v] was put and not returned since. *)
Definition wanted (v : nat) (l : list qev) : bool :=
  fold_left (fun b e => match e with
                        | Asked w => if Nat.eqb w v then true else b
                        | Gave w => if Nat.eqb w v then false else b
                        end) l false.
Lemma wanted_snoc v l e : wanted v (l ++ [e]) = match e with
                        | Asked w => if Nat.eqb w v then true else wanted v l
                        | Gave w => if Nat.eqb w v then false else wanted v l
                        end.
Proof. unfold wanted. rewrite fold_left_app. reflexivity. Qed.
Lemma qtrace_app cap a : forall b s, qtrace cap s (a ++ b) = qtrace cap s a ++ qtrace cap (fold_left (qstep cap) a s) b.
Proof. induction a as [|o a IH]; intros b s; simpl; auto. rewrite IH, app_assoc. reflexivity. Qed.
Lemma same_accepted cap s o : o <> QClose -> (forall v, o <> QPut v) -> q_accepted (qstep cap s o) = q_accepted s.
Proof.
  intros N P. destruct o; simpl; try congruence; unfold q_schedule, q_start, q_resume, q_take, q_return, q_enqueue;
    repeat (match goal with |- context [match ?x with _ => _ end] => destruct x end; simpl); auto.
Qed.
Lemma same_out cap s o : o <> QReturn -> q_out (qstep cap s o) = q_out s.
Proof.
  intros N. destruct o; simpl; try congruence; unfold q_put, q_schedule, q_start, q_resume, q_take, q_enqueue;
    repeat (match goal with |- context [match ?x with _ => _ end] => destruct x end; simpl); auto.
Qed.
(** Putting a value which is on its way changes nothing else than that it is there. *)
Lemma inside_put cap s v : qinv cap s -> forall w, In w (inside_q (q_put v s)) <-> w = v \/ In w (inside_q s).
Proof.
  intros K w. unfold q_put. destruct (existsb (Nat.eqb v) (q_pending s)) eqn:E; simpl.
  - split; auto. intros [->|J]; auto. apply existsb_exists in E. destruct E as (x & J & X). apply Nat.eqb_eq in X. subst x. eapply Permutation_in; [apply (k_pend _ _ K)|auto].
  - unfold inside_q, got_list. simpl. rewrite !in_app_iff. simpl. split; intros H; decompose [or] H; auto 10; contradiction.
Qed.
Lemma inside_same cap s o : qinv cap s -> o <> QClose -> o <> QReturn -> (forall v, o <> QPut v) -> forall w, In w (inside_q (qstep cap s o)) <-> In w (inside_q s).
Proof.
  intros K N1 N2 N3 w. pose proof (qinv_step cap s o N1 K) as K'.
  assert (P : Permutation (inside_q (qstep cap s o)) (inside_q s)).
  { pose proof (k_acc _ _ K) as A. pose proof (k_acc _ _ K') as B. rewrite (same_accepted cap s o N1 N3), (same_out cap s o N2) in B. rewrite A in B.
    apply Permutation_app_inv_l in B. apply Permutation_sym. exact B. }
  split; intros J; [exact (Permutation_in w P J)|exact (Permutation_in w (Permutation_sym P) J)].
Qed.
Lemma wanted_inside cap ops : open_run ops -> forall v, wanted v (qtrace cap tsq_init ops) = true <-> In v (inside_q (qrun cap ops)).
Proof.
  induction ops as [|o ops IH] using rev_ind; intros O v; [simpl; unfold wanted; simpl; split; [discriminate|intros []]|].
  assert (O' : open_run ops) by (intros J; apply O; apply in_app_iff; auto). assert (NC : o <> QClose) by (intros ->; apply O; apply in_app_iff; right; left; auto).
  specialize (IH O' v). rewrite qtrace_app. fold (qrun cap ops). unfold qrun. rewrite fold_left_app. fold (qrun cap ops). cbn [fold_left qtrace]. rewrite app_nil_r.
  pose proof (qinv_run cap ops tsq_init O' (qinv_init cap)) as K. fold (qrun cap ops) in K.
  assert (KN : NoDup (inside_q (qrun cap ops))) by (eapply Permutation_NoDup; [apply (k_pend _ _ K)|apply (k_nodup _ _ K)]).
  destruct o as [w| | | | | |]; try congruence;
    try (cbn [seen]; rewrite app_nil_r, IH; symmetry; apply inside_same; [exact K|discriminate|discriminate|discriminate]).
  - cbn [seen qstep]. rewrite wanted_snoc, (inside_put cap _ w K v). destruct (Nat.eqb_spec w v) as [->|N]; [tauto|]. rewrite IH. split; auto. intros [->|J]; [congruence|auto].
  - cbn [seen qstep]. unfold q_return. unfold inside_q, got_list in IH, KN |- *. destruct (q_got (qrun cap ops)) as [w|] eqn:G; [|rewrite app_nil_r, G; exact IH].
    rewrite wanted_snoc. cbn [q_got q_queue q_woken q_blocked q_tasks q_callbacks app] in *. inversion KN as [|? ? NI _]; subst.
    destruct (Nat.eqb_spec w v) as [->|N]; [split; [discriminate|intros J; contradiction]|]. rewrite IH. simpl. split; [intros [X|J]; [congruence|auto]|auto].
Qed.
Lemma qtrace_out cap ops : forall s, q_out (fold_left (qstep cap) ops s) = q_out s ++ flat_map (fun e => match e with Gave v => [v] | Asked _ => [] end) (qtrace cap s ops).
Proof.
  induction ops as [|o ops IH]; intros s; simpl; [rewrite app_nil_r; auto|]. rewrite IH, flat_map_app, app_assoc. f_equal.
  destruct o; cbn [seen]; try (rewrite same_out by discriminate; simpl; rewrite app_nil_r; reflexivity).
  simpl. unfold q_return. destruct (q_got s); simpl; rewrite ?app_nil_r; auto.
Qed.
(** [get] returns a value only if it was put and not returned since: once for each put, or for several puts which come
    before it is returned; what is returned is what was seen to be returned. With [C36_delivered]: exactly once. *)
Theorem C36_once : forall cap ops,
  open_run ops ->
  let l := qtrace cap tsq_init ops in
  (forall a v b, l = a ++ Gave v :: b -> wanted v a = true) /\
  q_out (qrun cap ops) = flat_map (fun e => match e with Gave v => [v] | Asked _ => [] end) l.
Proof.
  intros cap ops O. split; [|unfold qrun; rewrite qtrace_out; reflexivity].
  induction ops as [|o ops IH] using rev_ind; intros a v b E; [destruct a; discriminate|].
  assert (O' : open_run ops) by (intros J; apply O; apply in_app_iff; auto). specialize (IH O'). rewrite qtrace_app in E. fold (qrun cap ops) in E. cbn [qtrace] in E. rewrite app_nil_r in E.
  assert (C : (exists b', qtrace cap tsq_init ops = a ++ Gave v :: b') \/ (seen (qrun cap ops) o = [Gave v] /\ a = qtrace cap tsq_init ops)).
  { destruct (seen (qrun cap ops) o) as [|e [|e' r]] eqn:S0.
    - left. exists b. rewrite app_nil_r in E. exact E.
    - destruct b as [|b0 b1] using rev_ind.
      + apply app_inj_tail in E. destruct E as [E1 E2]. right. subst. auto.
      + left. clear IHb1. exists b1. rewrite app_comm_cons, app_assoc in E. apply app_inj_tail in E. tauto.
    - exfalso. destruct o; simpl in S0; try discriminate. destruct (q_got _); discriminate. }
  destruct C as [(b' & E')|[S0 ->]]; [exact (IH _ _ _ E')|]. apply wanted_inside; [exact O'|].
  destruct o; simpl in S0; try discriminate. destruct (q_got (qrun cap ops)) as [w|] eqn:G; [|discriminate]. injection S0 as ->.
  unfold inside_q, got_list. rewrite G. left. reflexivity.
Qed.
Print Assumptions C36_once.
(** Two puts of 1 before it is returned, one after: it is returned twice. *)
Example C36_once_example :
  let ops := [QPut 1; QPut 2; QPut 1; QSchedule; QStart; QTake; QPut 1; QReturn; QPut 1; QSchedule; QSchedule; QStart; QStart; QTake; QReturn; QResume; QTake; QReturn] in
  open_run ops /\ qtrace 1 tsq_init ops = [Asked 1; Asked 2; Asked 1; Asked 1; Gave 1; Asked 1; Gave 2; Gave 1] /\
  wanted 1 [Asked 1; Asked 2; Asked 1; Asked 1; Gave 1] = false.
Proof. split; [unfold open_run; simpl; intuition discriminate|]. vm_compute. auto. Qed.
