(** * Properties C27 and C28: delivery of updates in async rendering *)
From Coq Require Import Arith Bool Lia List.
From Verif Require Import EffectModel EffectProps AsyncModel AsyncFacts AsyncProps.
Import ListNotations.

(** ** C27 *)

Definition waiting (s : async) : nat := match s_consumer s with Some _ => 1 | None => 0 end.
Record pinv (s : async) : Prop := {
  p_count : s_ready s + waiting s = length (s_unread s);
  p_nodup : NoDup (s_sent s ++ s_unread s);
  p_range : forall k, In k (s_sent s ++ s_unread s) -> k < length (s_tasks s);
  p_snap : forall l, s_consumer s = Some l -> l <> [] /\ incl l (s_unread s);
  p_all : forall k t, nth_error (s_tasks s) k = Some t -> In k (s_unread s) \/ (r_pc t = PDone /\ In k (s_sent s)) \/ r_pc t = PCancelled;
  p_sent : forall k t, nth_error (s_tasks s) k = Some t -> In k (s_sent s) -> r_pc t = PDone
}.
Lemma pinv_schedule t s : pinv s -> pinv (schedule t s).
Proof.
  intros [P1 P2 P3 P4 P5 P6]. constructor; simpl.
  - rewrite app_length. unfold waiting in *. simpl. lia.
  - rewrite app_assoc. apply nodup_snoc; auto. intros J. specialize (P3 _ J). lia.
  - intros k J. rewrite app_assoc in J. apply in_app_iff in J. rewrite app_length. simpl. destruct J as [J|[<-|[]]]; [specialize (P3 k J)|]; lia.
  - intros l E. destruct (P4 l E) as [A B]. split; auto. intros x J. apply in_app_iff. auto.
  - intros k u E. destruct (Nat.lt_ge_cases k (length (s_tasks s))).
    + rewrite nth_error_app1 in E by auto. destruct (P5 k u E) as [X|X]; auto. left. apply in_app_iff. auto.
    + rewrite nth_error_app2 in E by auto. left. apply in_app_iff. right. left. destruct (k - length (s_tasks s)) eqn:D; [lia|]. simpl in E. destruct n; discriminate.
  - intros k u E J. rewrite nth_error_app1 in E by (apply P3; apply in_app_iff; auto). eauto.
Qed.
Lemma pinv_init root : pinv (async_init root).
Proof.
  apply pinv_schedule. constructor; simpl.
  - reflexivity.
  - constructor.
  - intros k [].
  - discriminate.
  - intros [|k] t E; discriminate.
  - intros k t _ [].
Qed.
(** A run of a task leaves finished tasks as they are and touches no permit. *)
Lemma run_task_frame k s : s_ready (run_task k s) = s_ready s /\ s_unread (run_task k s) = s_unread s /\ s_consumer (run_task k s) = s_consumer s /\ s_sent (run_task k s) = s_sent s /\
  length (s_tasks (run_task k s)) = length (s_tasks s) /\
  (forall i u, nth_error (s_tasks s) i = Some u -> exists u', nth_error (s_tasks (run_task k s)) i = Some u' /\ (i <> k \/ finished u = true -> r_pc u' = r_pc u /\ r_out u' = r_out u)).
Proof.
  assert (TRIV : s_ready s = s_ready s /\ s_unread s = s_unread s /\ s_consumer s = s_consumer s /\ s_sent s = s_sent s /\ length (s_tasks s) = length (s_tasks s) /\
    (forall i u, nth_error (s_tasks s) i = Some u -> exists u', nth_error (s_tasks s) i = Some u' /\ (i <> k \/ finished u = true -> r_pc u' = r_pc u /\ r_out u' = r_out u))).
  { repeat split; auto. intros i u E. exists u. auto. }
  unfold run_task. destruct (nth_error (s_tasks s) k) as [t|] eqn:T; [|exact TRIV]. destruct (finished t) eqn:F; [exact TRIV|].
  assert (PCH : forall pc s0, nth_error (s_tasks s0) k = Some t \/ (exists o, nth_error (s_tasks s0) k = Some (RTask (r_tree t) (r_pc t) (r_cancel t) o)) ->
     (forall i, i <> k -> nth_error (s_tasks s0) i = nth_error (s_tasks s) i) ->
     length (s_tasks s0) = length (s_tasks s) -> s_ready s0 = s_ready s -> s_unread s0 = s_unread s -> s_consumer s0 = s_consumer s -> s_sent s0 = s_sent s ->
     s_ready (set_task_pc k pc s0) = s_ready s /\ s_unread (set_task_pc k pc s0) = s_unread s /\ s_consumer (set_task_pc k pc s0) = s_consumer s /\ s_sent (set_task_pc k pc s0) = s_sent s /\
     length (s_tasks (set_task_pc k pc s0)) = length (s_tasks s) /\
     (forall i u, nth_error (s_tasks s) i = Some u -> exists u', nth_error (s_tasks (set_task_pc k pc s0)) i = Some u' /\ (i <> k \/ finished u = true -> r_pc u' = r_pc u /\ r_out u' = r_out u))).
  { intros pc s0 T0 O L E1 E2 E3 E4. destruct (same_set_task_pc k pc s0) as (_ & _ & _ & V4 & V5 & V6 & V7 & V8). rewrite V4, V5, V6, V7, V8. repeat split; auto.
    intros i u U. destruct (Nat.eq_dec i k) as [->|N].
    - rewrite T in U. injection U as <-. destruct T0 as [T0|(o & T0)]; (eexists; split; [apply set_task_pc_same; exact T0|]; intros [X|X]; [congruence|congruence]).
    - exists u. rewrite set_task_pc_other by auto. rewrite O by auto. auto. }
  assert (ENT : forall d st s0, (exists o, nth_error (s_tasks s0) k = Some (RTask (r_tree t) (r_pc t) (r_cancel t) o)) ->
     (forall i, i <> k -> nth_error (s_tasks s0) i = nth_error (s_tasks s) i) ->
     length (s_tasks s0) = length (s_tasks s) -> s_ready s0 = s_ready s -> s_unread s0 = s_unread s -> s_consumer s0 = s_consumer s -> s_sent s0 = s_sent s ->
     s_ready (enter k d st s0) = s_ready s /\ s_unread (enter k d st s0) = s_unread s /\ s_consumer (enter k d st s0) = s_consumer s /\ s_sent (enter k d st s0) = s_sent s /\
     length (s_tasks (enter k d st s0)) = length (s_tasks s) /\
     (forall i u, nth_error (s_tasks s) i = Some u -> exists u', nth_error (s_tasks (enter k d st s0)) i = Some u' /\ (i <> k \/ finished u = true -> r_pc u' = r_pc u /\ r_out u' = r_out u))).
  { intros d st s0 (o & T0) O L E1 E2 E3 E4. destruct (enter_spec k d st s0 _ T0) as (S & _ & _ & T' & OT). destruct S as (_ & _ & _ & V4 & V5 & V6 & V7 & V8). rewrite V4, V5, V6, V7, V8. repeat split; auto.
    intros i u U. destruct (Nat.eq_dec i k) as [->|N].
    - eexists. split; [exact T'|]. rewrite T in U. injection U as <-. intros [X|X]; congruence.
    - eexists. split; [apply OT; [auto|rewrite O by auto; exact U]|]. auto. }
  destruct (r_cancel t) eqn:CA.
  - apply PCH; auto.
  - destruct (r_pc t) as [|d st|d st| |] eqn:PC; [| | |exact TRIV|exact TRIV].
    + apply ENT; auto. exists (r_out t). rewrite T. destruct t; simpl in *; congruence.
    + destruct (s_holder s (cid d)); [exact TRIV|apply PCH; auto].
    + unfold render_own. rewrite T.
      set (s0 := Async (s_ver s) (upd (s_shown s) (cid d) (Some (s_ver s (cid d)))) (upd (s_flag s) (cid d) false) (s_holder s)
            (put (s_tasks s) k (RTask (r_tree t) (r_pc t) (r_cancel t) (r_out t ++ [(cid d, s_ver s (cid d))])))
            (s_by_id s) (s_ready s) (s_unread s) (s_consumer s) (s_sent s)).
      assert (LKk : k < length (s_tasks s)) by (apply nth_error_Some; congruence).
      assert (T0 : nth_error (s_tasks s0) k = Some (RTask (r_tree t) (r_pc t) (r_cancel t) (r_out t ++ [(cid d, s_ver s (cid d))]))) by (apply put_same; auto).
      rewrite CA, PC in T0.
      assert (O0 : forall i, i <> k -> nth_error (s_tasks s0) i = nth_error (s_tasks s) i) by (intros i N; apply put_other; auto).
      assert (L0 : length (s_tasks s0) = length (s_tasks s)) by apply put_length.
      destruct (descend_spec k ((cid d, ckids d) :: st) s0) as (gone & h & HH & [(c1 & e & es & rest & D & gs & ST & -> & FG)|(D & -> & FG)]); rewrite D.
      * apply ENT; auto. eexists. exact T0.
      * apply PCH; auto. right. eexists. exact T0.
Qed.
Lemma pinv_run_task k s : pinv s -> pinv (run_task k s).
Proof.
  intros [P1 P2 P3 P4 P5 P6]. destruct (run_task_frame k s) as (F1 & F2 & F3 & F4 & F5 & F6). unfold waiting in *.
  assert (BACK : forall i u', nth_error (s_tasks (run_task k s)) i = Some u' -> exists u, nth_error (s_tasks s) i = Some u /\ (i <> k \/ finished u = true -> r_pc u' = r_pc u)).
  { intros i u' U'. destruct (nth_error (s_tasks s) i) as [u|] eqn:U.
    - exists u. split; auto. destruct (F6 i u U) as (w & W & X). intros H. rewrite U' in W. injection W as <-. apply X. auto.
    - exfalso. apply nth_error_None in U. rewrite <- F5 in U. apply nth_error_None in U. congruence. }
  assert (FINp : forall pc u, r_pc u = pc -> pc = PDone \/ pc = PCancelled -> finished u = true) by (intros pc u E [X|X]; unfold finished; rewrite E, X; auto).
  constructor; unfold waiting; rewrite ?F1, ?F2, ?F3, ?F4, ?F5; auto.
  - intros i u' U'. destruct (BACK i u' U') as (u & U & X). destruct (P5 i u U) as [Y|[[Y Z]|Y]]; auto.
    + right. left. split; auto. rewrite X; auto. right. unfold finished. rewrite Y. auto.
    + right. right. rewrite X; auto. right. unfold finished. rewrite Y. auto.
  - intros i u' U' J. destruct (BACK i u' U') as (u & U & X). pose proof (P6 i u U J) as Y. rewrite X; auto. right. unfold finished. rewrite Y. auto.
Qed.
Lemma in_remove_iff k l x : In x (remove Nat.eq_dec k l) <-> In x l /\ x <> k.
Proof. split; [apply in_remove|intros [A B]; apply in_in_remove; auto]. Qed.
Lemma remove_length_nodup k l : NoDup l -> In k l -> S (length (remove Nat.eq_dec k l)) = length l.
Proof.
  induction l as [|x l IH]; simpl; intros ND J; [contradiction|]. inversion ND as [|? ? N1 N2]; subst. destruct (Nat.eq_dec k x) as [->|N].
  - f_equal. rewrite notin_remove; auto.
  - simpl. f_equal. apply IH; auto. destruct J; [congruence|auto].
Qed.
Lemma nodup_app_inv {A} (a b : list A) : NoDup (a ++ b) -> NoDup a /\ NoDup b /\ forall x, In x a -> ~ In x b.
Proof.
  induction a as [|y a IH]; simpl; intros H; [repeat split; auto; constructor|]. inversion H as [|? ? N1 N2]; subst. destruct (IH N2) as (A1 & A2 & A3).
  split; [constructor; auto; intros J; apply N1; apply in_app_iff; auto|]. split; auto. intros x [<-|J]; [intros K; apply N1; apply in_app_iff; auto|auto].
Qed.
Lemma nodup_app_mk {A} (a b : list A) : NoDup a -> NoDup b -> (forall x, In x a -> ~ In x b) -> NoDup (a ++ b).
Proof.
  induction a as [|y a IH]; simpl; intros H1 H2 H3; auto. inversion H1; subst. constructor; [|apply IH; auto; intros x J; apply H3; auto].
  intros J. apply in_app_iff in J. destruct J as [J|J]; [contradiction|]. apply (H3 y); auto.
Qed.
Lemma nodup_remove_nat k l : NoDup l -> NoDup (remove Nat.eq_dec k l).
Proof.
  induction l as [|x l IH]; simpl; intros ND; auto. inversion ND as [|? ? N1 N2]; subst. destruct (Nat.eq_dec k x); auto. constructor; auto.
  rewrite in_remove_iff. tauto.
Qed.
Lemma pinv_step root s o : pinv s -> pinv (rstep root s o).
Proof.
  intros P. destruct o as [c|k| |k]; simpl.
  - unfold set_state. destruct (find _ _) as [t|]; auto. destruct (s_shown s c); auto. destruct (s_flag s c); cbv zeta.
    + destruct P as [P1 P2 P3 P4 P5 P6]. constructor; auto.
    + match goal with |- context[schedule t ?x] => assert (P' : pinv (schedule t x)) by (apply pinv_schedule; destruct P as [P1 P2 P3 P4 P5 P6]; constructor; auto) end.
      destruct P' as [P1 P2 P3 P4 P5 P6]. constructor; auto.
  - apply pinv_run_task. auto.
  - unfold consumer_acquire. destruct (s_consumer s) as [l|] eqn:C; auto. destruct (s_ready s) as [|n] eqn:R; auto.
    destruct P as [P1 P2 P3 P4 P5 P6]. unfold waiting in *. rewrite C, R in *.
    destruct (s_unread s) as [|x u] eqn:U; [simpl in P1; lia|]. constructor; simpl; auto; unfold waiting; simpl; simpl in P1; [lia|].
    intros l E. injection E as <-. split; [discriminate|intros y; auto].
  - unfold consumer_take. destruct (s_consumer s) as [snap|] eqn:C; auto. destruct (nth_error (s_tasks s) k) as [t|] eqn:T; auto. destruct (existsb (Nat.eqb k) snap && finished t) eqn:B; auto.
    apply andb_true_iff in B. destruct B as [B F]. apply existsb_eqb in B. destruct P as [P1 P2 P3 P4 P5 P6]. destruct (P4 snap C) as [NE INC]. specialize (INC k B).
    unfold waiting in *. rewrite C in *. destruct (nodup_app_inv _ _ P2) as (N1 & N2 & N3). pose proof (remove_length_nodup k _ N2 INC) as RL.
    constructor; simpl; unfold waiting; simpl.
    + lia.
    + apply nodup_app_mk; [|apply nodup_remove_nat; auto|].
      * destruct (r_pc t); auto. apply nodup_snoc; auto. intros J. exact (N3 k J INC).
      * intros x J K. apply in_remove_iff in K. destruct K as [K NK]. apply (N3 x); auto. destruct (r_pc t); auto. apply in_app_iff in J. destruct J as [J|[J|[]]]; [auto|congruence].
    + intros x J. apply P3. apply in_app_iff in J. apply in_app_iff. destruct J as [J|J]; [|right; apply in_remove_iff in J; tauto].
      destruct (r_pc t); auto. apply in_app_iff in J. destruct J as [J|[<-|[]]]; auto.
    + discriminate.
    + intros i u U. destruct (P5 i u U) as [X|[[X Y]|X]]; auto.
      * destruct (Nat.eq_dec i k) as [->|N]; [|left; apply in_remove_iff; auto]. rewrite T in U. injection U as <-. unfold finished in F.
        destruct (r_pc t); try discriminate; auto. right. left. split; auto. apply in_app_iff. right. left. auto.
      * right. left. split; auto. destruct (r_pc t); auto. apply in_app_iff. auto.
    + intros i u U J. destruct (r_pc t) eqn:PC; eauto. apply in_app_iff in J. destruct J as [J|[<-|[]]]; [eauto|]. congruence.
Qed.
Lemma pinv_run root ops : pinv (rrun root ops).
Proof.
  unfold rrun. assert (H : forall s, pinv s -> pinv (fold_left (rstep root) ops s)); [|apply H, pinv_init].
  induction ops as [|o ops IH]; intros s A; simpl; auto. apply IH, pinv_step; auto.
Qed.

(** In every schedule: the number of permits (with the one [render()] holds) is the number of unconsumed tasks; so
    [render()] does not stop at the semaphore while an unconsumed task exists, and it never waits on an empty set; every
    finished render task is waiting to be consumed or was returned exactly once, unless it was cancelled. *)
Theorem C27_permits : forall root ops,
  let s := rrun root ops in
  s_ready s + waiting s = length (s_unread s) /\
  (s_consumer s = None -> s_unread s <> [] -> s_ready s > 0) /\
  (forall l, s_consumer s = Some l -> l <> [] /\ incl l (s_unread s)) /\
  NoDup (s_sent s ++ s_unread s) /\
  (forall k t, nth_error (s_tasks s) k = Some t -> r_pc t = PDone -> In k (s_sent s) \/ In k (s_unread s)).
Proof.
  intros root ops s. pose proof (pinv_run root ops) as P. fold s in P. split; [apply (p_count _ P)|]. split; [|split; [apply (p_snap _ P)|split; [apply (p_nodup _ P)|]]].
  - intros C U. pose proof (p_count _ P) as H. unfold waiting in H. rewrite C in H. destruct (s_unread s); [congruence|]. simpl in H. lia.
  - intros k t T PC. destruct (p_all _ P k t T) as [X|[[_ X]|X]]; auto. congruence.
Qed.
Print Assumptions C27_permits.
(** When all tasks have finished, [render()] can return as long as there is anything to return. *)
Theorem C27_consumable : forall root ops,
  let s := rrun root ops in
  all_finished s -> s_unread s <> [] ->
  exists k, In k (s_unread s) /\ s_unread (rstep root (rstep root s RAcquire) (RTake k)) = remove Nat.eq_dec k (s_unread s).
Proof.
  intros root ops s F U. pose proof (pinv_run root ops) as P. fold s in P.
  assert (H : exists l, s_consumer (rstep root s RAcquire) = Some l /\ l <> [] /\ incl l (s_unread s) /\ s_tasks (rstep root s RAcquire) = s_tasks s /\ s_unread (rstep root s RAcquire) = s_unread s).
  { simpl. unfold consumer_acquire. destruct (s_consumer s) as [l|] eqn:C.
    - exists l. destruct (p_snap _ P l C). rewrite C. auto.
    - pose proof (p_count _ P) as K. unfold waiting in K. rewrite C in K. destruct (s_ready s) as [|n] eqn:R; [destruct (s_unread s); [congruence|simpl in K; lia]|].
      exists (s_unread s). simpl. destruct (s_unread s); [congruence|]. split; auto. split; [discriminate|]. split; [intros x; auto|auto]. }
  destruct H as (l & C & NE & INC & ET & EU). destruct l as [|k l]; [congruence|]. exists k. split; [apply INC; left; auto|].
  set (s1 := rstep root s RAcquire) in *. clearbody s1. simpl. unfold consumer_take. rewrite C, ET.
  destruct (nth_error (s_tasks s) k) as [t|] eqn:T.
  - rewrite (F k t T). simpl. rewrite Nat.eqb_refl. simpl. rewrite EU. reflexivity.
  - exfalso. apply nth_error_None in T. assert (k < length (s_tasks s)); [|lia]. apply (p_range _ P). apply in_app_iff. right. apply INC. left. auto.
Qed.
Print Assumptions C27_consumable.
Example C27_example : let s := rrun demo_tree (demo_end ++ [RAcquire; RTake 2; RAcquire; RTake 1; RAcquire]) in
  s_sent s = [2] /\ s_unread s = [0; 3] /\ s_ready s = 1 /\ waiting s = 1.
Proof. vm_compute. auto. Qed.

(** [render()] waits for the tasks that existed when it started waiting: a task created later that finishes first is
    left waiting meanwhile. *)
Theorem C27_snapshot_refuted : exists root ops l k t,
  NoDup (ids root) /\
  let s := rrun root ops in
  s_consumer s = Some l /\ In k (s_unread s) /\ nth_error (s_tasks s) k = Some t /\ r_pc t = PDone /\
  forall j, rstep root s (RTake j) = s.
Proof.
  exists demo_tree, (run_n 0 9 ++ [RAcquire; RTake 0; RSet 1; RAcquire; RSet 3] ++ run_n 2 3), [1], 2.
  eexists. split; [apply demo_nodup|]. cbv zeta. split; [vm_compute; reflexivity|]. split; [vm_compute; auto|]. split; [vm_compute; reflexivity|]. split; [reflexivity|].
  intros [|[|[|j]]]; try (vm_compute; reflexivity). simpl. unfold consumer_take.
  set (s := rrun demo_tree _). assert (C : s_consumer s = Some [1]) by (vm_compute; reflexivity). rewrite C. destruct (nth_error (s_tasks s) (S (S (S j)))); auto.
Qed.
Print Assumptions C27_snapshot_refuted.

(** ** C28 *)

(** Two renders of one component have finished and are delivered newest first: the client is left with the old one. *)
Theorem C28_arbitrary_order_refuted : exists root ops c,
  NoDup (ids root) /\
  let s := rrun root ops in
  all_finished s /\ s_unread s = [] /\ s_shown s c = Some 1 /\ display s (s_sent s) c = Some 0.
Proof.
  exists (CNode 0 []), (run_n 0 3 ++ [RSet 0] ++ run_n 1 3 ++ [RAcquire; RTake 1; RAcquire; RTake 0]), 0.
  split; [vm_compute; repeat constructor; simpl; tauto|]. cbv zeta. split; [|repeat split; vm_compute; reflexivity].
  intros k t E. vm_compute in E. destruct k as [|[|k]]; [injection E as <-; reflexivity|injection E as <-; reflexivity|destruct k; discriminate].
Qed.
Print Assumptions C28_arbitrary_order_refuted.

(** Even if every update is delivered as soon as it is finished: a child re-rendered on its own while its parent is being
    rendered is finished first, and the parent's update brings back the older render of the child. *)
Fixpoint prompt (root : ctree) (s : async) (ops : list rop) : Prop :=
  match ops with
  | [] => True
  | o :: r => match o with
              | RRun _ => forall k t, In k (s_unread s) -> nth_error (s_tasks s) k = Some t -> finished t = false
              | _ => True
              end /\ prompt root (rstep root s o) r
  end.
Definition promptb (s : async) : bool := forallb (fun k => match nth_error (s_tasks s) k with Some t => negb (finished t) | None => true end) (s_unread s).
Fixpoint prompt_check (root : ctree) (s : async) (ops : list rop) : bool :=
  match ops with [] => true | o :: r => match o with RRun _ => promptb s | _ => true end && prompt_check root (rstep root s o) r end.
Lemma prompt_check_ok root ops : forall s, prompt_check root s ops = true -> prompt root s ops.
Proof.
  induction ops as [|o ops IH]; intros s H; simpl in *; auto. apply andb_true_iff in H. destruct H as [H1 H2]. split; [|apply IH; auto].
  destruct o; auto. intros j t J E. unfold promptb in H1. rewrite forallb_forall in H1. specialize (H1 j J). rewrite E in H1. apply negb_true_iff in H1. exact H1.
Qed.
Theorem C28_prompt_refuted : exists root ops c,
  NoDup (ids root) /\ prompt root (async_init root) ops /\
  let s := rrun root ops in
  all_finished s /\ s_unread s = [] /\ s_shown s c = Some 1 /\ display s (s_sent s) c = Some 0.
Proof.
  exists (CNode 0 [CNode 1 []; CNode 2 []]),
    (run_n 0 7 ++ [RAcquire; RTake 0; RSet 0] ++ run_n 1 5 ++ [RSet 1] ++ run_n 2 3 ++ [RAcquire; RTake 2] ++ run_n 1 2 ++ [RAcquire; RTake 1]), 1.
  split; [vm_compute; repeat constructor; simpl; intuition discriminate|]. split; [apply prompt_check_ok; vm_compute; reflexivity|]. cbv zeta. split; [|repeat split; vm_compute; reflexivity].
  intros k t E. vm_compute in E. destruct k as [|[|[|k]]]; try (injection E as <-; reflexivity). destruct k; discriminate.
Qed.
Print Assumptions C28_prompt_refuted.

(** *** Without interleaving *)

Definition in_progress (t : rtask) : bool := match r_pc t with PWait _ _ | PGot _ _ => true | _ => false end.
(** The guard: a task runs only while no other task is in progress. *)
Fixpoint serial (root : ctree) (s : async) (ops : list rop) : Prop :=
  match ops with
  | [] => True
  | o :: r => match o with
              | RRun k => forall j t, j <> k -> nth_error (s_tasks s) j = Some t -> in_progress t = false
              | _ => True
              end /\ serial root (rstep root s o) r
  end.
(** The tasks that finish during a run, in that order. *)
Fixpoint done_order (root : ctree) (s : async) (ops : list rop) : list nat :=
  match ops with
  | [] => []
  | o :: r =>
      let s' := rstep root s o in
      match o with
      | RRun k => match nth_error (s_tasks s) k, nth_error (s_tasks s') k with
                  | Some t, Some t' => if negb (finished t) && finished t' then [k] else []
                  | _, _ => []
                  end
      | _ => []
      end ++ done_order root s' r
  end.

Lemma run_task_own k s t : nth_error (s_tasks s) k = Some t -> finished t = false ->
  run_task k s = s \/
  exists new t', nth_error (s_tasks (run_task k s)) k = Some t' /\ r_out t' = r_out t ++ new /\ r_pc t' <> PStart /\ s_ver (run_task k s) = s_ver s /\
    ((new = [] /\ s_shown (run_task k s) = s_shown s) \/ (exists c v, new = [(c, v)] /\ s_shown (run_task k s) = upd (s_shown s) c (Some v))).
Proof.
  intros T F. unfold run_task. rewrite T, F. destruct (r_cancel t) eqn:CA.
  - right. exists []. set (s0 := release_all (held (r_pc t)) s). assert (T0 : nth_error (s_tasks s0) k = Some t) by exact T. pose proof (set_task_pc_same k PCancelled s0 t T0) as T'.
    destruct (same_set_task_pc k PCancelled s0) as (V1 & V2 & _). eexists. split; [exact T'|]. simpl. rewrite app_nil_r. repeat split; auto; discriminate.
  - destruct (r_pc t) as [|d st|d st| |] eqn:PC; auto.
    + right. exists []. destruct (enter_spec k (r_tree t) [] s t T) as (S & _ & _ & T' & _). destruct S as (V1 & V2 & _). eexists. split; [exact T'|]. simpl. rewrite app_nil_r. repeat split; auto; discriminate.
    + destruct (s_holder s (cid d)); auto. right. exists []. set (s0 := set_holder s _). assert (T0 : nth_error (s_tasks s0) k = Some t) by exact T. pose proof (set_task_pc_same k (PGot d st) s0 t T0) as T'.
      destruct (same_set_task_pc k (PGot d st) s0) as (V1 & V2 & _). eexists. split; [exact T'|]. simpl. rewrite app_nil_r. repeat split; auto; discriminate.
    + right. exists [(cid d, s_ver s (cid d))]. unfold render_own. rewrite T.
      set (s0 := Async (s_ver s) (upd (s_shown s) (cid d) (Some (s_ver s (cid d)))) (upd (s_flag s) (cid d) false) (s_holder s)
            (put (s_tasks s) k (RTask (r_tree t) (r_pc t) (r_cancel t) (r_out t ++ [(cid d, s_ver s (cid d))])))
            (s_by_id s) (s_ready s) (s_unread s) (s_consumer s) (s_sent s)).
      assert (LKk : k < length (s_tasks s)) by (apply nth_error_Some; congruence).
      assert (T0 : nth_error (s_tasks s0) k = Some (RTask (r_tree t) (r_pc t) (r_cancel t) (r_out t ++ [(cid d, s_ver s (cid d))]))) by (apply put_same; auto).
      destruct (descend_spec k ((cid d, ckids d) :: st) s0) as (gone & h & HH & [(c1 & e & es & rest & D & gs & ST & -> & FG)|(D & -> & FG)]); rewrite D.
      * assert (Th : nth_error (s_tasks (set_holder s0 h)) k = Some (RTask (r_tree t) (r_pc t) (r_cancel t) (r_out t ++ [(cid d, s_ver s (cid d))]))) by exact T0.
        destruct (enter_spec k e ((c1, es) :: rest) (set_holder s0 h) _ Th) as (S & _ & _ & T' & _). destruct S as (V1 & V2 & _). eexists. split; [exact T'|]. simpl.
        repeat split; auto; [discriminate|]. right. exists (cid d), (s_ver s (cid d)). auto.
      * assert (Th : nth_error (s_tasks (set_holder s0 h)) k = Some (RTask (r_tree t) (r_pc t) (r_cancel t) (r_out t ++ [(cid d, s_ver s (cid d))]))) by exact T0.
        pose proof (set_task_pc_same k PDone _ _ Th) as T'. destruct (same_set_task_pc k PDone (set_holder s0 h)) as (V1 & V2 & _). eexists. split; [exact T'|]. simpl.
        repeat split; auto; [discriminate|]. right. exists (cid d), (s_ver s (cid d)). auto.
Qed.

Record serial_inv (s : async) (fin : list nat) (cur : list nat) : Prop := {
  v_fin : forall k, In k fin -> exists t, nth_error (s_tasks s) k = Some t /\ finished t = true;
  v_cur : forall k t, nth_error (s_tasks s) k = Some t -> in_progress t = true <-> In k cur;
  v_one : cur = [] \/ exists k, cur = [k] /\ k < length (s_tasks s);
  v_start : forall k t, nth_error (s_tasks s) k = Some t -> r_pc t = PStart -> r_out t = [];
  v_shown : forall c, display s (fin ++ cur) c = s_shown s c
}.
Lemma shows_ext out : forall f g, (forall c, f c = g c) -> forall c, shows f out c = shows g out c.
Proof. induction out as [|[d v] out IH]; intros f g E c; simpl; auto. apply IH. intros x. unfold upd. destruct (Nat.eqb x d); auto. Qed.
Lemma shows_app a b f : shows f (a ++ b) = shows (shows f a) b.
Proof. apply fold_left_app. Qed.
Lemma display_app s a b c : display s (a ++ b) c = fold_left (fun f k => shows f (out_of s k)) b (display s a) c.
Proof. unfold display. rewrite fold_left_app. reflexivity. Qed.
Lemma display_same s s' l : (forall k, In k l -> out_of s' k = out_of s k) -> display s' l = display s l.
Proof.
  unfold display. generalize (fun _ : nat => @None nat). induction l as [|k l IH]; intros f E; simpl; auto. rewrite (E k) by (left; auto). apply IH. intros j J. apply E. right. auto.
Qed.

Lemma serial_step root s o fin cur :
  match o with RRun k => forall j t, j <> k -> nth_error (s_tasks s) j = Some t -> in_progress t = false | _ => True end ->
  serial_inv s fin cur ->
  exists cur', serial_inv (rstep root s o) (fin ++ done_order root s [o]) cur'.
Proof.
  intros G V. destruct o as [c|k| |k].
  - exists cur. simpl. rewrite app_nil_r. unfold set_state. destruct (find _ _) as [t|]; auto. destruct (s_shown s c); auto.
    destruct V as [V1 V2 V3 V4 V5]. destruct (s_flag s c); cbv zeta.
    + constructor; auto.
    + assert (OUT : forall s', s_tasks s' = s_tasks s ++ [RTask t PStart false []] -> forall k, out_of s' k = out_of s k).
      { intros s' ES k. unfold out_of. rewrite ES. destruct (Nat.lt_ge_cases k (length (s_tasks s))); [rewrite nth_error_app1 by auto; auto|].
        rewrite nth_error_app2 by auto. rewrite (proj2 (nth_error_None (s_tasks s) k)) by auto. destruct (k - length (s_tasks s)) as [|n1]; simpl; auto. destruct n1; auto. }
      constructor; simpl.
      * intros j J. destruct (V1 j J) as (u & U & X). exists u. split; auto. rewrite nth_error_app1; auto. apply nth_error_Some. congruence.
      * intros j u U. destruct (Nat.lt_ge_cases j (length (s_tasks s))); [rewrite nth_error_app1 in U by auto; auto|].
        rewrite nth_error_app2 in U by auto. destruct (j - length (s_tasks s)) as [|n1] eqn:D; simpl in U; [|destruct n1; discriminate]. injection U as <-. split; [discriminate|].
        intros J. exfalso. destruct V3 as [->|(i & -> & L)]; [contradiction|]. destruct J as [<-|[]]. lia.
      * destruct V3 as [->|(i & -> & L)]; auto. right. exists i. split; auto. rewrite app_length. lia.
      * intros j u U PC. apply nth_error_app_cases in U. destruct U as [U|[<-|[]]]; eauto.
      * intros d. rewrite <- V5. erewrite (display_same s _); [reflexivity|]. intros j _. apply OUT. reflexivity.
  - destruct (run_task_frame k s) as (F1 & F2 & F3 & F4 & F5 & F6).
    assert (BACK : forall i u', nth_error (s_tasks (run_task k s)) i = Some u' -> exists u, nth_error (s_tasks s) i = Some u /\ (i <> k \/ finished u = true -> r_pc u' = r_pc u /\ r_out u' = r_out u)).
    { intros i u' U'. destruct (nth_error (s_tasks s) i) as [u|] eqn:U.
      - exists u. split; auto. destruct (F6 i u U) as (w & W & X). rewrite U' in W. injection W as <-. auto.
      - exfalso. apply nth_error_None in U. rewrite <- F5 in U. apply nth_error_None in U. congruence. }
    simpl. destruct (nth_error (s_tasks s) k) as [t|] eqn:T.
    2:{ exists cur. assert (E : run_task k s = s) by (unfold run_task; rewrite T; auto). rewrite E. rewrite !app_nil_r. auto. }
    destruct (finished t) eqn:FT.
    { exists cur. assert (E : run_task k s = s) by (unfold run_task; rewrite T, FT; auto). rewrite E, T. simpl. rewrite !app_nil_r. auto. }
    destruct (run_task_own k s t T FT) as [E|(new & t' & T' & OUT & NS & VER & SH)].
    { exists cur. rewrite E, T, FT. simpl. rewrite !app_nil_r. auto. }
    rewrite T'. simpl. rewrite app_nil_r. destruct V as [V1 V2 V3 V4 V5].
    (* the task in progress, if any, is k *)
    assert (CK : cur = [] \/ cur = [k]).
    { destruct V3 as [->|(j & -> & L)]; auto. right. destruct (Nat.eq_dec j k) as [->|N]; auto. exfalso.
      destruct (nth_error (s_tasks s) j) as [u|] eqn:U; [|apply nth_error_None in U; lia]. pose proof (G j u N U) as X. rewrite (proj2 (V2 j u U)) in X; [discriminate|left; auto]. }
    assert (KF : ~ In k fin) by (intros J; destruct (V1 k J) as (u & U & X); congruence).
    assert (OO : forall j, j <> k -> out_of (run_task k s) j = out_of s j).
    { intros j N. unfold out_of. destruct (nth_error (s_tasks s) j) as [u|] eqn:U.
      - destruct (F6 j u U) as (u' & U' & X). rewrite U'. apply X. auto.
      - rewrite (proj2 (nth_error_None (s_tasks (run_task k s)) j)); auto. rewrite F5. apply nth_error_None. auto. }
    assert (OK : out_of (run_task k s) k = out_of s k ++ new) by (unfold out_of; rewrite T, T'; auto).
    (* what has been rendered so far, with k last *)
    assert (DK : forall c, display s (fin ++ [k]) c = s_shown s c).
    { destruct CK as [-> | ->]; auto. intros c. rewrite <- V5, app_nil_r, display_app. simpl. unfold out_of. rewrite T.
      assert (X : r_out t = []); [|rewrite X; reflexivity]. apply (V4 k t T). unfold finished in FT. destruct (r_pc t) eqn:PC; auto; try discriminate.
      - exfalso. assert (In k []); [|auto]. apply (V2 k t T). unfold in_progress. rewrite PC. auto.
      - exfalso. assert (In k []); [|auto]. apply (V2 k t T). unfold in_progress. rewrite PC. auto. }
    assert (DK' : forall c, display (run_task k s) (fin ++ [k]) c = s_shown (run_task k s) c).
    { intros c. rewrite display_app. simpl. rewrite OK, shows_app.
      assert (PRE : forall x, shows (display (run_task k s) fin) (out_of s k) x = s_shown s x).
      { intros x. rewrite <- DK, display_app. simpl. apply shows_ext. intros y. rewrite (display_same s (run_task k s) fin); auto. intros j J. apply OO. intros ->. contradiction. }
      rewrite (shows_ext new _ _ PRE). destruct SH as [[-> ->]|(d & v & -> & ->)]; reflexivity. }
    assert (STARTS : forall i u', nth_error (s_tasks (run_task k s)) i = Some u' -> r_pc u' = PStart -> r_out u' = []).
    { intros i u' U' PC. destruct (Nat.eq_dec i k) as [->|N]; [congruence|]. destruct (BACK i u' U') as (u & U & X). destruct X as [X1 X2]; auto. rewrite X2. apply (V4 i u U). congruence. }
    assert (OTHER : forall i u', i <> k -> nth_error (s_tasks (run_task k s)) i = Some u' -> in_progress u' = false).
    { intros i u' N U'. destruct (BACK i u' U') as (u & U & X). destruct X as [X1 _]; auto. unfold in_progress. rewrite X1. apply (G i u N U). }
    assert (LK : k < length (s_tasks s)) by (apply nth_error_Some; congruence).
    destruct (finished t') eqn:FT'; simpl.
    + exists []. constructor; auto.
      * intros j J. apply in_app_iff in J. destruct J as [J|[<-|[]]]; [|eauto]. destruct (V1 j J) as (u & U & X). destruct (F6 j u U) as (u' & U' & Y). exists u'. split; auto.
        destruct Y as [Y _]; auto. unfold finished in *. rewrite Y. auto.
      * intros i u' U'. split; [|contradiction]. intros P. exfalso. destruct (Nat.eq_dec i k) as [->|N]; [|rewrite (OTHER i u' N U') in P; discriminate].
        rewrite T' in U'. injection U' as <-. unfold in_progress, finished in *. destruct (r_pc t'); discriminate.
      * rewrite app_nil_r. exact DK'.
    + rewrite app_nil_r. exists [k]. constructor; auto.
      * intros j J. destruct (V1 j J) as (u & U & X). destruct (F6 j u U) as (u' & U' & Y). exists u'. split; auto. destruct Y as [Y _]; auto. unfold finished in *. rewrite Y. auto.
      * intros i u' U'. destruct (Nat.eq_dec i k) as [->|N].
        -- rewrite T' in U'. injection U' as <-. split; [intros _; left; auto|]. intros _. unfold in_progress, finished in *. destruct (r_pc t'); congruence.
        -- rewrite (OTHER i u' N U'). split; [discriminate|]. intros [J|[]]. congruence.
      * right. exists k. rewrite F5. auto.
  - exists cur. simpl. rewrite app_nil_r. unfold consumer_acquire. destruct (s_consumer s); auto. destruct (s_ready s); auto. destruct V as [V1 V2 V3 V4 V5]. constructor; auto.
  - exists cur. simpl. rewrite app_nil_r. unfold consumer_take. destruct (s_consumer s); auto. destruct (nth_error (s_tasks s) k); auto. destruct (_ && _); auto. destruct V as [V1 V2 V3 V4 V5]. constructor; auto.
Qed.
Lemma done_order_cons root s o r : done_order root s (o :: r) = done_order root s [o] ++ done_order root (rstep root s o) r.
Proof. simpl. rewrite app_nil_r. reflexivity. Qed.
Lemma serial_steps root ops : forall s fin cur, serial root s ops -> serial_inv s fin cur -> exists cur', serial_inv (fold_left (rstep root) ops s) (fin ++ done_order root s ops) cur'.
Proof.
  induction ops as [|o ops IH]; intros s fin cur G V.
  - exists cur. simpl. rewrite app_nil_r. auto.
  - destruct G as [G1 G2]. destruct (serial_step root s o fin cur G1 V) as (cur1 & V1). rewrite done_order_cons, app_assoc. simpl. eapply IH; eauto.
Qed.

(** If renders do not interleave, the updates applied in the order in which they finished leave the client with the
    latest state of every component. *)
Theorem C28_serial_partial : forall root ops,
  NoDup (ids root) -> serial root (async_init root) ops ->
  let s := rrun root ops in
  all_finished s ->
  forall c, In c (ids root) -> display s (done_order root (async_init root) ops) c = Some (s_ver s c).
Proof.
  intros root ops ND G s F c I. destruct (serial_steps root ops (async_init root) [] []) as (cur & V); auto.
  { assert (T : forall k t, nth_error (s_tasks (async_init root)) k = Some t -> k = 0 /\ t = RTask root PStart false []).
    { intros [|[|k]] t E; simpl in E; try discriminate. injection E as <-. auto. }
    constructor; auto.
    - intros k [].
    - intros k t E. destruct (T k t E) as [_ ->]. split; [discriminate|contradiction].
    - intros k t E _. destruct (T k t E) as [_ ->]. auto. }
  simpl in V. change (fold_left (rstep root) ops (async_init root)) with s in V.
  assert (CE : cur = []).
  { destruct (v_one _ _ _ V) as [->|(k & -> & L)]; auto. exfalso. destruct (nth_error (s_tasks s) k) as [t|] eqn:T; [|apply nth_error_None in T; lia].
    pose proof (proj2 (v_cur _ _ _ V k t T) (or_introl eq_refl)) as P. specialize (F k t T). unfold in_progress, finished in *. destruct (r_pc t); discriminate. }
  pose proof (C26_no_lost_update root ops ND F c I) as E. fold s in E. rewrite <- E. rewrite <- (v_shown _ _ _ V c), CE, app_nil_r. reflexivity.
Qed.
Print Assumptions C28_serial_partial.
Definition serial_demo : list rop := run_n 0 9 ++ [RSet 2; RSet 1] ++ run_n 1 3 ++ run_n 2 5.
Fixpoint serial_check (root : ctree) (s : async) (ops : list rop) : bool :=
  match ops with
  | [] => true
  | o :: r => match o with
              | RRun k => forallb (fun p => Nat.eqb (fst p) k || negb (in_progress (snd p))) (combine (seq 0 (length (s_tasks s))) (s_tasks s))
              | _ => true
              end && serial_check root (rstep root s o) r
  end.
Lemma combine_seq {A} (l : list A) : forall n i x, nth_error l i = Some x -> In (n + i, x) (combine (seq n (length l)) l).
Proof. induction l as [|y l IH]; intros n [|i] x E; simpl in *; try discriminate; [injection E as ->; left; f_equal; lia|]. right. specialize (IH (S n) i x E). replace (n + S i) with (S n + i) by lia. auto. Qed.
Lemma serial_check_ok root ops : forall s, serial_check root s ops = true -> serial root s ops.
Proof.
  induction ops as [|o ops IH]; intros s H; simpl in *; auto. apply andb_true_iff in H. destruct H as [H1 H2]. split; [|apply IH; auto].
  destruct o; auto. intros j t N E. rewrite forallb_forall in H1. specialize (H1 (j, t) (combine_seq _ 0 j t E)). simpl in H1. destruct (Nat.eqb_spec j k); [congruence|]. simpl in H1. apply negb_true_iff in H1. exact H1.
Qed.
Example C28_example : serial demo_tree (async_init demo_tree) serial_demo /\ all_finished (rrun demo_tree serial_demo) /\
  done_order demo_tree (async_init demo_tree) serial_demo = [0; 1; 2] /\ map (s_ver (rrun demo_tree serial_demo)) [0; 1; 2; 3] = [0; 1; 1; 0].
Proof.
  split; [apply serial_check_ok; vm_compute; reflexivity|]. split; [|split; vm_compute; reflexivity].
  intros k t E. assert (F : forallb finished (s_tasks (rrun demo_tree serial_demo)) = true) by (vm_compute; reflexivity).
  rewrite forallb_forall in F. apply F. eapply nth_error_In; eauto.
Qed.
