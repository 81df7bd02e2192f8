(** * Properties C25-C28: async rendering *)
From Coq Require Import Arith Bool Lia List.
From Verif Require Import EffectModel EffectProps AsyncModel AsyncFacts.
Import ListNotations.

Lemma ainv_set_state root s c : ainv root s -> ainv root (set_state root c s).
Proof.
  intros A. unfold set_state. destruct (find (fun t => Nat.eqb (cid t) c) (subs root)) as [t|] eqn:F; auto. destruct (s_shown s c) as [v|]; auto.
  apply find_some in F. destruct F as [IT ET]. apply Nat.eqb_eq in ET. subst c. destruct A as [A1 A2 A3 A4 A5]. destruct (s_flag s (cid t)) eqn:FL; cbv zeta.
  - constructor; simpl; auto. intros d I H. apply A5; auto. destruct (Nat.eq_dec d (cid t)) as [->|N]; auto. rewrite upd_other in H by auto. auto.
  - assert (LAST : nth_error (s_tasks s ++ [RTask t PStart false []]) (length (s_tasks s)) = Some (RTask t PStart false [])) by (rewrite nth_error_app2 by auto; rewrite Nat.sub_diag; auto).
    assert (OLD : forall k u, nth_error (s_tasks s) k = Some u -> nth_error (s_tasks s ++ [RTask t PStart false []]) k = Some u) by (intros k u E; rewrite nth_error_app1; auto; apply nth_error_Some; congruence).
    assert (NEW : forall k u, nth_error (s_tasks s ++ [RTask t PStart false []]) k = Some u -> nth_error (s_tasks s) k = Some u \/ u = RTask t PStart false []).
    { intros k u E. apply nth_error_app_cases in E. destruct E as [E|[<-|[]]]; auto. }
    constructor; simpl.
    + intros k u E. apply NEW in E. destruct E as [E|E]; subst; eauto.
    + intros k u d st E H. apply NEW in E. destruct E as [E|E]; subst; eauto. simpl in H. destruct H; discriminate.
    + intros d k. rewrite A3. split; intros (u & U & J).
      * exists u. auto.
      * apply NEW in U. destruct U as [U|U]; [exists u; auto|subst; contradiction].
    + intros d j E. unfold upd in E. destruct (Nat.eqb_spec d (cid t)) as [->|N].
      * injection E as <-. eexists. split; [exact LAST|]. auto.
      * destruct (A4 d j E) as (u & U & X). exists u. auto.
    + intros d I H. destruct (Nat.eq_dec d (cid t)) as [->|N].
      * exists (length (s_tasks s)), (RTask t PStart false []). split; auto. split; auto. unfold future. simpl. apply ids_self.
      * rewrite !upd_other in H by auto. destruct (A5 d I H) as (k & u & U & X). exists k, u. auto.
Qed.
Lemma ainv_same root s s' : s_ver s' = s_ver s -> s_shown s' = s_shown s -> s_flag s' = s_flag s -> s_holder s' = s_holder s -> s_tasks s' = s_tasks s -> s_by_id s' = s_by_id s -> ainv root s -> ainv root s'.
Proof.
  intros E1 E2 E3 E4 E5 E6 [A1 A2 A3 A4 A5]. constructor; unfold inside in *; rewrite ?E1, ?E2, ?E3, ?E4, ?E5, ?E6; auto.
Qed.
Lemma ainv_step root s o : NoDup (ids root) -> ainv root s -> ainv root (rstep root s o).
Proof.
  intros ND A. destruct o as [c|k| |k]; simpl.
  - apply ainv_set_state. auto.
  - apply ainv_run_task; auto.
  - unfold consumer_acquire. destruct (s_consumer s); auto. destruct (s_ready s); auto. apply (ainv_same root s); auto.
  - unfold consumer_take. destruct (s_consumer s); auto. destruct (nth_error (s_tasks s) k); auto. destruct (_ && _); auto. apply (ainv_same root s); auto.
Qed.
Lemma ainv_run root ops : NoDup (ids root) -> ainv root (rrun root ops).
Proof.
  intros ND. unfold rrun. assert (H : forall s, ainv root s -> ainv root (fold_left (rstep root) ops s)); [|apply H, ainv_init].
  induction ops as [|o ops IH]; intros s A; simpl; auto. apply IH, ainv_step; auto.
Qed.

(** A tree to illustrate the theorems: a root with two children, the first of which has a child. *)
Definition demo_tree : ctree := CNode 0 [CNode 1 [CNode 2 []]; CNode 3 []].
Fixpoint run_n (k n : nat) : list rop := match n with 0 => [] | S m => RRun k :: run_n k m end.
(** The tree is mounted; then 1 and 2 change, and the task of 1 cancels the one of 2. *)
Definition demo_ops : list rop := run_n 0 9 ++ [RSet 2; RSet 1; RRun 2; RRun 2; RRun 2; RSet 3].
Lemma demo_nodup : NoDup (ids demo_tree).
Proof. vm_compute. repeat constructor; simpl; intuition discriminate. Qed.

(** ** C25: in every schedule at most one task is inside the render of a component. *)
Theorem C25_mutual_exclusion : forall root ops c k k',
  NoDup (ids root) ->
  let s := rrun root ops in inside s k c -> inside s k' c -> k = k'.
Proof.
  intros root ops c k k' ND s J K. pose proof (ainv_run root ops ND) as A. apply (a_lock _ _ A) in J. apply (a_lock _ _ A) in K. fold s in J, K. congruence.
Qed.
Print Assumptions C25_mutual_exclusion.
(** Task 2 is inside the render of component 1 and wants component 2. *)
Example C25_example : inside (rrun demo_tree demo_ops) 2 1 /\ nth_error (map r_pc (s_tasks (rrun demo_tree demo_ops))) 2 = Some (PWait (CNode 2 []) [(1, [])]).
Proof. split; [eexists; split; [vm_compute; reflexivity|vm_compute; auto]|vm_compute; reflexivity]. Qed.

(** ** C26: when no render task is pending or running, the last render of every component used its latest state. *)
Theorem C26_no_lost_update : forall root ops,
  NoDup (ids root) ->
  let s := rrun root ops in
  all_finished s -> forall c, In c (ids root) -> s_shown s c = Some (s_ver s c).
Proof.
  intros root ops ND s F c I. pose proof (ainv_run root ops ND) as A. fold s in A.
  assert (D : {s_shown s c = Some (s_ver s c)} + {s_shown s c <> Some (s_ver s c)}) by (decide equality; apply Nat.eq_dec).
  destruct D as [D|D]; auto. exfalso. destruct (a_cover _ _ A c I (or_introl D)) as (k & t & T & _ & J). specialize (F k t T). unfold finished, future in *.
  destruct (r_pc t); try discriminate; contradiction.
Qed.
Print Assumptions C26_no_lost_update.

(** Every run of a task that can run brings the system closer to the end; so without further state changes it ends. *)
Definition todo (t : rtask) : nat :=
  match r_pc t with
  | PStart => S (S (2 * length (future t)))
  | PWait _ _ => S (2 * length (future t))
  | PGot _ _ => 2 * length (future t)
  | PDone | PCancelled => 0
  end.
Definition work (s : async) : nat := list_sum (map todo (s_tasks s)).
Definition runnable (s : async) (k : nat) : Prop :=
  exists t, nth_error (s_tasks s) k = Some t /\ finished t = false /\
    (r_cancel t = true \/ forall d st, r_pc t = PWait d st -> s_holder s (cid d) = None).

Lemma sum_put (f : rtask -> nat) l : forall k t u, nth_error l k = Some t -> list_sum (map f (put l k u)) + f t = list_sum (map f l) + f u.
Proof.
  induction l as [|x l IH]; intros [|k] t u E; simpl in *; try discriminate.
  - injection E as ->. unfold list_sum. simpl. lia.
  - specialize (IH k t u E). unfold list_sum in *. simpl. lia.
Qed.
Lemma todo_same t c out : todo (RTask (r_tree t) (r_pc t) c out) = todo t.
Proof. unfold todo, future. simpl. reflexivity. Qed.
Lemma work_cancel j s : work (cancel j s) = work s.
Proof.
  unfold cancel. destruct (nth_error (s_tasks s) j) as [t|] eqn:E; auto. destruct (finished t); auto. unfold work. simpl.
  pose proof (sum_put todo (s_tasks s) j t (RTask (r_tree t) (r_pc t) true (r_out t)) E) as P. rewrite todo_same in P. lia.
Qed.
Lemma work_set_pc k pc s t : nth_error (s_tasks s) k = Some t -> work (set_task_pc k pc s) + todo t = work s + todo (RTask (r_tree t) pc (r_cancel t) (r_out t)).
Proof. intros E. unfold set_task_pc. rewrite E. unfold work. simpl. apply sum_put. auto. Qed.
Lemma work_enter k d st s t : nth_error (s_tasks s) k = Some t -> work (enter k d st s) + todo t = work s + S (2 * length (ids d ++ rest_of st)).
Proof.
  intros E. unfold enter. cbv zeta.
  set (s1 := match s_by_id s (cid d) with Some j => if Nat.eqb j k then s else cancel j (set_by_id s (upd (s_by_id s) (cid d) None)) | None => s end).
  assert (H : work s1 = work s /\ exists t', nth_error (s_tasks s1) k = Some t' /\ todo t' = todo t /\ r_tree t' = r_tree t).
  { subst s1. destruct (s_by_id s (cid d)) as [j|]; [|eauto]. destruct (Nat.eqb j k); [eauto|]. rewrite work_cancel. split; auto.
    destruct (cancel_spec j (set_by_id s (upd (s_by_id s) (cid d) None))) as (_ & _ & _ & C). eexists. split; [apply C; exact E|]. split; [apply todo_same|auto]. }
  clearbody s1. destruct H as (W & t' & E' & TD & TR). pose proof (work_set_pc k (PWait d st) s1 t' E') as P. rewrite TD, W in P. rewrite P. reflexivity.
Qed.
Lemma work_step root s k : ainv root s -> runnable s k -> work (run_task k s) < work s.
Proof.
  intros A (t & T & F & R). unfold run_task. rewrite T, F.
  assert (POS : r_cancel t = true -> 0 < todo t).
  { intros _. unfold todo, finished in *. destruct (r_pc t) as [|d st|d st| |] eqn:PC; try discriminate; try lia. unfold future. rewrite PC. destruct d. rewrite ids_eq. simpl. lia. }
  destruct (r_cancel t) eqn:CA.
  - pose proof (work_set_pc k PCancelled (release_all (held (r_pc t)) s) t T) as P. change (work (release_all (held (r_pc t)) s)) with (work s) in P.
    unfold todo at 2 in P. simpl in P. specialize (POS eq_refl). lia.
  - destruct R as [R|R]; [discriminate|]. unfold finished in F. destruct (r_pc t) as [|d st|d st| |] eqn:PC; try discriminate.
    + pose proof (work_enter k (r_tree t) [] s t T) as P. unfold todo, future in P. rewrite PC in P. simpl rest_of in P. rewrite app_nil_r in P. lia.
    + rewrite (R d st eq_refl). pose proof (work_set_pc k (PGot d st) (set_holder s (upd (s_holder s) (cid d) (Some k))) t T) as P.
      change (work (set_holder s (upd (s_holder s) (cid d) (Some k)))) with (work s) in P. unfold todo, future in P. rewrite PC in P. simpl in P. lia.
    + unfold render_own. rewrite T.
      set (s0 := Async (s_ver s) (upd (s_shown s) (cid d) (Some (s_ver s (cid d)))) (upd (s_flag s) (cid d) false) (s_holder s)
            (put (s_tasks s) k (RTask (r_tree t) (r_pc t) (r_cancel t) (r_out t ++ [(cid d, s_ver s (cid d))])))
            (s_by_id s) (s_ready s) (s_unread s) (s_consumer s) (s_sent s)).
      set (t0 := RTask (r_tree t) (r_pc t) (r_cancel t) (r_out t ++ [(cid d, s_ver s (cid d))])).
      assert (LKk : k < length (s_tasks s)) by (apply nth_error_Some; congruence).
      assert (T0 : nth_error (s_tasks s0) k = Some t0) by (apply put_same; auto).
      assert (W0 : work s0 = work s) by (pose proof (sum_put todo (s_tasks s) k t t0 T) as P; unfold t0 in P; rewrite todo_same in P; unfold work, s0; simpl; fold t0; fold t0 in P; lia).
      assert (TD : todo t0 = 2 * length (ids d ++ rest_of st)) by (unfold todo, future, t0; simpl; rewrite PC; reflexivity).
      assert (E : ids d ++ rest_of st = cid d :: rest_of ((cid d, ckids d) :: st)) by (destruct d as [c0 ks0]; rewrite ids_eq; reflexivity).
      destruct (descend_spec k ((cid d, ckids d) :: st) s0) as (gone & h & HH & [(c1 & e & es & rest & D & gs & ST & -> & FG)|(D & -> & FG)]); rewrite D.
      * pose proof (work_enter k e ((c1, es) :: rest) (set_holder s0 h) t0 T0) as P. change (work (set_holder s0 h)) with (work s0) in P. rewrite TD, W0, E, ST, rest_of_gone in P by auto.
        simpl in P. rewrite <- app_assoc in P. lia.
      * pose proof (work_set_pc k PDone (set_holder s0 h) t0 T0) as P. change (work (set_holder s0 h)) with (work s0) in P. rewrite TD, W0, E in P. unfold todo in P. simpl in P. lia.
Qed.
(** As long as a task is not finished, some task can run: waiting tasks never wait for each other. *)
Lemma some_runnable root s : NoDup (ids root) -> ainv root s -> forall n k t d st, nth_error (s_tasks s) k = Some t -> r_pc t = PWait d st -> size d < n -> exists j, runnable s j.
Proof.
  intros ND A. induction n as [|n IH]; intros k t d st T PC L; [lia|].
  destruct (r_cancel t) eqn:CA; [exists k, t; unfold finished; rewrite PC; auto|].
  destruct (s_holder s (cid d)) as [o|] eqn:HO; [|exists k, t; unfold finished; rewrite PC; split; auto; split; auto; right; intros d' st' E; injection E as <- <-; auto].
  apply (a_lock _ _ A) in HO. destruct HO as (u & U & J).
  destruct (r_cancel u) eqn:CU; [exists o, u; unfold finished; destruct (r_pc u); auto; contradiction|].
  destruct (r_pc u) as [|e st'|e st'| |] eqn:PU; simpl in J; try contradiction.
  - (* waits below the component it holds *)
    apply in_map_iff in J. destruct J as (f & EF & J). destruct (spine_frames _ _ _ (a_spine _ _ A o u e st' U (or_introl PU)) f J) as (p & E1 & E2 & E3 & E4 & _).
    assert (p = d).
    { eapply (nodup_map_inj cid (subs root)); eauto; [eapply subs_trans; [exact (a_tree _ _ A o u U)|auto]|eapply subs_trans; [exact (a_tree _ _ A k t T)|eapply spine_sub; apply (a_spine _ _ A k t); eauto]|congruence]. }
    subst p. apply (IH o u e st' U PU). lia.
  - exists o, u. unfold finished. rewrite PU. split; auto. split; auto. right. discriminate.
Qed.
Theorem C26_progress : forall root ops,
  NoDup (ids root) ->
  let s := rrun root ops in
  (forall k, runnable s k -> work (run_task k s) < work s) /\ (all_finished s \/ exists k, runnable s k).
Proof.
  intros root ops ND s. pose proof (ainv_run root ops ND) as A. fold s in A. split; [intros k R; eapply work_step; eauto|].
  destruct (forallb finished (s_tasks s)) eqn:F.
  - left. intros k t T. rewrite forallb_forall in F. apply F. eapply nth_error_In; eauto.
  - right. assert (X : exists t, In t (s_tasks s) /\ finished t = false).
    { clear - F. induction (s_tasks s) as [|t l IH]; simpl in F; [discriminate|]. destruct (finished t) eqn:E; [destruct IH as (u & J & G); auto; exists u; simpl; auto|exists t; simpl; auto]. }
    destruct X as (t & J & FT). apply In_nth_error in J. destruct J as (k & T). destruct (r_pc t) as [|d st|d st| |] eqn:PC.
    + exists k, t. split; auto. split; auto. right. congruence.
    + eapply (some_runnable root s ND A (S (size d))); eauto.
    + exists k, t. split; auto. split; auto. right. congruence.
    + unfold finished in FT. rewrite PC in FT. discriminate.
    + unfold finished in FT. rewrite PC in FT. discriminate.
Qed.
Print Assumptions C26_progress.
(** So from every state some schedule (any that keeps running tasks that can run) reaches the end. *)
Theorem C26_settles : forall root ops,
  NoDup (ids root) -> exists ks, all_finished (rrun root (ops ++ map RRun ks)).
Proof.
  intros root ops ND. remember (work (rrun root ops)) as n eqn:E. revert ops E. induction n as [n IH] using lt_wf_ind. intros ops E.
  destruct (C26_progress root ops ND) as [D [F|(k & R)]].
  - exists []. rewrite app_nil_r. exact F.
  - specialize (D k R). destruct (IH (work (rrun root (ops ++ [RRun k]))) ltac:(unfold rrun in *; rewrite fold_left_app; simpl; lia) (ops ++ [RRun k]) eq_refl) as (ks & F).
    exists (k :: ks). simpl. change (RRun k :: map RRun ks) with ([RRun k] ++ map RRun ks). rewrite app_assoc. exact F.
Qed.
Print Assumptions C26_settles.
Definition demo_end : list rop := demo_ops ++ run_n 1 1 ++ run_n 2 3 ++ run_n 3 3.
Example C26_example : all_finished (rrun demo_tree demo_end) /\ map (s_shown (rrun demo_tree demo_end)) [0; 1; 2; 3] = [Some 0; Some 1; Some 1; Some 1]
  /\ map r_pc (s_tasks (rrun demo_tree demo_end)) = [PDone; PCancelled; PDone; PDone].
Proof.
  split; [|split; vm_compute; reflexivity]. intros k t E. assert (F : forallb finished (s_tasks (rrun demo_tree demo_end)) = true) by (vm_compute; reflexivity).
  rewrite forallb_forall in F. apply F. eapply nth_error_In; eauto.
Qed.
