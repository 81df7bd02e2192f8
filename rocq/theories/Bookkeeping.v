(** * What a session keeps, and property C97
    /repo/src/reactpy/core/layout.py:67-98 (the dictionaries that [__aenter__] makes), 323-328 and 580-596 (render tasks), 130-150
    (event queues and the tasks that process them). Nothing else in /repo adds to these dictionaries or takes from them before
    [__aexit__]. On top of AsyncTree.v and EventModel.v. *)
From Coq Require Import Arith Bool Lia List ZArith.
From Verif Require Import Dict EffectModel EffectProps AsyncTree AsyncTreeFacts AsyncTreeInv AsyncTreeProps AsyncTreeLocks.
From Verif Require AsyncModel EventModel.
Import ListNotations.

(** ** Model: the tasks in [_render_task_to_lcs_id] *)

(** layout.py:323-328: the entry of [_render_tasks_by_id] for a component is deleted, and its task leaves [_render_task_to_lcs_id]. *)
Definition dropped (s s' : sys) (j : nat) : bool :=
  existsb (fun c => match y_by_id s c, y_by_id s' c with Some x, None => Nat.eqb x j | _, _ => false end) (seq 0 (y_next s')).
(** Line 593: every task that is made is added. *)
Definition kstep (view : nat -> nat -> list (nat * nat)) (x : sys * list nat) (o : op) : sys * list nat :=
  let s := fst x in
  let s' := step view s o in
  (s', filter (fun j => negb (dropped s s' j)) (snd x) ++ seq (length (y_tasks s)) (length (y_tasks s') - length (y_tasks s))).
(** [__aenter__], layout.py:96. *)
Definition krun (view : nat -> nat -> list (nat * nat)) (ops : list op) : sys * list nat := fold_left (kstep view) ops (init, [0]).

Lemma krun_sys view ops : fst (krun view ops) = run view ops.
Proof.
  unfold krun, run. assert (H : forall l x, fst (fold_left (kstep view) l x) = fold_left (step view) l (fst x)) by (induction l as [|o l IH]; intros x; [reflexivity|cbn [fold_left]; rewrite IH; reflexivity]).
  apply H.
Qed.

(** ** Renders *)
Definition alone (_ _ : nat) : list (nat * nat) := [].
(** [n] state changes of a root without children, each rendered before the next. *)
Fixpoint ticks (n : nat) : list op := match n with 0 => [Run 0; Run 0] | S m => ticks m ++ [SetState 0; Run n; Run n] end.
Definition calm (s : sys) (i : nat) : Prop :=
  length (y_tasks s) = S i /\ (forall k t, nth_error (y_tasks s) k = Some t -> t_pc t = Done) /\ y_next s = 1 /\ y_flag s 0 = false /\ y_holder s 0 = None /\
  y_by_id s 0 = Some i /\ y_over s = false /\ exists r m, y_reg s = [(0, r)] /\ nth_error (y_states s) r = Some m /\ m_lcs m = 0 /\ m_type m = 0 /\ m_parent m = None /\ m_kids m = [].
Lemma put_last {A} (l : list A) x y : put (l ++ [x]) (length l) y = l ++ [y].
Proof. induction l as [|a l IH]; [reflexivity|]. cbn. f_equal. exact IH. Qed.
Lemma nth_last {A} (l : list A) x : nth_error (l ++ [x]) (length l) = Some x.
Proof. rewrite nth_error_app2 by lia. now rewrite Nat.sub_diag. Qed.
Lemma nth_last' {A} (l : list A) x d : nth (length l) (l ++ [x]) d = x.
Proof. rewrite app_nth2 by lia. now rewrite Nat.sub_diag. Qed.
Lemma tick1 st r ver fl ho bi ts ef lg : fl 0 = false ->
  step alone (Sys st [(0, r)] 1 ver fl ho bi ts ef lg false) (SetState 0) =
  Sys st [(0, r)] 1 (at_ ver 0 (S (ver 0))) (at_ fl 0 true) ho (at_ bi 0 (Some (length ts))) (ts ++ [Task r Start false []]) ef lg false.
Proof. intros F. cbn [step]. unfold set_state. cbn [y_next y_flag]. change (Nat.ltb 0 1) with true. rewrite F. reflexivity. Qed.
Lemma tick2 st r m ver fl ho bi ts ef lg : nth_error st r = Some m -> m_lcs m = 0 -> m_parent m = None -> ho 0 = None -> bi 0 = Some (length ts) ->
  step alone (Sys st [(0, r)] 1 ver fl ho bi (ts ++ [Task r Start false []]) ef lg false) (Run (length ts)) =
  Sys (st ++ [Mst 0 (m_type m) None (m_index m) (m_key m) [] [] (Node 0 None [])]) [(0, length st)] 1 ver fl (at_ ho 0 (Some (length ts))) bi (ts ++ [Task r (Got (length st) (Some r) []) false []]) ef lg false.
Proof.
  intros E M1 M3 H B. cbn [step]. unfold run_task. cbn [y_tasks]. rewrite nth_last. cbn [finished t_pc t_cancel t_old].
  assert (ST : state (Sys st [(0, r)] 1 ver fl ho bi (ts ++ [Task r Start false []]) ef lg false) r = m) by (unfold state; cbn [y_states]; erewrite nth_error_nth; eauto).
  unfold start. rewrite ST, M3. unfold enter. rewrite ST, Nat.eqb_refl. cbn [snd]. unfold renew. rewrite ST, M1. cbn [path_of y_states].
  unfold claim, lcs, state, set_states. cbn [y_states y_reg y_by_id y_holder set_reg]. rewrite nth_last'. cbn [m_lcs]. rewrite B, Nat.eqb_refl. cbn [y_holder set_reg]. rewrite H.
  unfold set_pc. cbn [set_holder y_tasks set_reg]. rewrite nth_last. cbn [t_old t_cancel t_hooks]. unfold set_tasks. cbn [y_tasks]. rewrite put_last. reflexivity.
Qed.
Ltac simp := repeat (progress cbn [map nodupb app y_states y_reg y_next y_ver y_flag y_holder y_by_id y_tasks y_eff y_log y_over
    set_states set_reg set_flag set_holder set_by_id set_tasks set_eff set_log t_old t_pc t_cancel t_hooks m_lcs m_type m_parent m_kids set_model]
  || rewrite nth_last || rewrite nth_last' || rewrite put_last || match goal with H : m_lcs _ = 0 |- _ => rewrite H | H : m_parent _ = None |- _ => rewrite H end).
Lemma tick3 st r m n ver fl ho bi ts ef lg : nth_error st r = Some m -> m_kids m = [] -> m_lcs n = 0 -> m_kids n = [] -> m_parent n = None ->
  exists ef' lg' n' fl' ho', step alone (Sys (st ++ [n]) [(0, length st)] 1 ver fl ho bi (ts ++ [Task r (Got (length st) (Some r) []) false []]) ef lg false) (Run (length ts)) =
  Sys (st ++ [n']) [(0, length st)] 1 ver fl' ho' bi (ts ++ [Task r Done false [0]]) ef' lg' false /\
  m_lcs n' = 0 /\ m_type n' = m_type n /\ m_kids n' = [] /\ m_parent n' = None /\ fl' 0 = false /\ ho' 0 = None.
Proof.
  intros E K N1 N2 N3. cbn [step]. unfold run_task. cbn [y_tasks]. rewrite nth_last. cbn [finished t_pc t_cancel].
  assert (RL : r < length st) by (apply nth_error_Some; congruence).
  unfold body, alone, lcs, modify, state. simp.
  match goal with |- context [unmount _ ?l _] => replace l with (@nil nat) end.
  2: { rewrite (app_nth1 st _ no_mst RL), (nth_error_nth st r no_mst E), K. reflexivity. }
  match goal with |- context [unmount ?f [] ?s] => replace (unmount f [] s) with (true, s) by (destruct f; reflexivity) end.
  cbn [number descend f_todo f_new]. unfold complete, start_effects, release, lcs, state. simp.
  unfold set_pc. simp.
  do 5 eexists. split; [reflexivity|]. cbn. auto 10.
Qed.
Lemma round s i : calm s i ->
  let s1 := step alone s (SetState 0) in let s2 := step alone s1 (Run (S i)) in let s3 := step alone s2 (Run (S i)) in
  calm s3 (S i) /\ may_run s1 (S i) /\ may_run s2 (S i) /\
  length (y_tasks s1) = S (S i) /\ length (y_tasks s2) = S (S i) /\ y_next s1 = 1 /\ y_next s2 = 1 /\ y_by_id s1 0 = Some (S i) /\ y_by_id s2 0 = Some (S i).
Proof.
  intros (L & D & N & F & H & B & O & r & m & R & E & M1 & M2 & M3 & M4) s1 s2 s3.
  destruct s as [st reg nx ver fl ho bi ts ef lg ov]. cbn in L, D, N, F, H, B, O, R, E. subst nx reg ov.
  assert (E1 : s1 = Sys st [(0, r)] 1 (at_ ver 0 (S (ver 0))) (at_ fl 0 true) ho (at_ bi 0 (Some (length ts))) (ts ++ [Task r Start false []]) ef lg false) by (apply tick1; exact F).
  pose proof (tick2 st r m (at_ ver 0 (S (ver 0))) (at_ fl 0 true) ho (at_ bi 0 (Some (length ts))) ts ef lg E M1 M3 H eq_refl) as E2. rewrite <- E1, L in E2. fold s2 in E2.
  set (n := Mst 0 (m_type m) None (m_index m) (m_key m) [] [] (Node 0 None [])) in E2.
  destruct (tick3 st r m n (at_ ver 0 (S (ver 0))) (at_ fl 0 true) (at_ ho 0 (Some (S i))) (at_ bi 0 (Some (S i))) ts ef lg E M4 eq_refl eq_refl eq_refl) as (ef' & lg' & n' & fl' & ho' & E3 & N1 & N2 & N3 & N4 & N5 & N6).
  rewrite L in E3, E1. rewrite <- E2 in E3. fold s3 in E3.
  split; [|split; [|split]].
  - rewrite E3. unfold calm. cbn. rewrite app_length. cbn. repeat split; try lia; auto.
    + intros k t K. destruct (Nat.eq_dec k (length ts)) as [->|NE]; [rewrite nth_last in K; injection K as <-; reflexivity|].
      apply (D k). rewrite nth_error_app1 in K; [exact K|]. assert (X : k < length (ts ++ [Task r Done false [0]])) by (apply nth_error_Some; congruence). rewrite app_length in X. cbn in X. lia.
    + exists (length st), n'. split; [reflexivity|]. split; [apply nth_last|]. subst n. cbn in *. rewrite M2 in N2. auto.
  - rewrite E1. split; cbn [y_tasks y_reg].
    + intros j t NE K. assert (Dn : t_pc t = Done). { apply (D j). rewrite nth_error_app1 in K; [exact K|]. assert (X : j < length (ts ++ [Task r Start false []])) by (apply nth_error_Some; congruence). rewrite app_length in X. cbn in X. lia. } unfold in_progress. now rewrite Dn.
    + intros t K _ _. rewrite <- L, nth_last in K. injection K as <-. unfold lcs, state. cbn. rewrite (nth_error_nth _ _ _ E), M1. reflexivity.
  - rewrite E2. split; cbn [y_tasks y_reg].
    + intros j t NE K. assert (Dn : t_pc t = Done). { apply (D j). rewrite nth_error_app1 in K; [exact K|]. assert (X : j < length (ts ++ [Task r (Got (length st) (Some r) []) false []])) by (apply nth_error_Some; congruence). rewrite app_length in X. cbn in X. lia. } unfold in_progress. now rewrite Dn.
    + intros t K PC _. rewrite <- L, nth_last in K. injection K as <-. discriminate.
  - rewrite E2, E1. cbn. rewrite !app_length. cbn. repeat split; lia.
Qed.
Lemma kept_all s s' : y_next s' = 1 -> y_by_id s' 0 <> None -> forall l, filter (fun j => negb (dropped s s' j)) l = l.
Proof.
  intros N B l. induction l as [|j l IH]; [reflexivity|]. cbn [filter].
  assert (D : dropped s s' j = false). { unfold dropped. rewrite N. cbn. destruct (y_by_id s 0); [|reflexivity]. destruct (y_by_id s' 0); [reflexivity|congruence]. }
  rewrite D. cbn. now rewrite IH.
Qed.
Lemma separate_app view a b : forall s, separate view s a -> separate view (fold_left (step view) a s) b -> separate view s (a ++ b).
Proof. induction a as [|o a IH]; intros s A B; [exact B|]. cbn in *. split; [apply A|]. apply IH; [apply A|exact B]. Qed.

(** ** C97 *)

(** A session that shows one component, and has rendered it [n] times more, one render after the other, keeps [n + 1] finished render
    tasks (each with its update), however large [n] is. *)
Theorem C97_renders_refuted n :
  let ops := ticks n in let s := run alone ops in let kept := snd (krun alone ops) in
  separate alone init ops /\ (forall k t, nth_error (y_tasks s) k = Some t -> t_pc t = Done) /\ (forall c, registered s c = true <-> c = 0) /\
  kept = seq 0 (S n) /\ length (y_tasks s) = S n.
Proof.
  intros ops s kept.
  assert (H : separate alone init ops /\ calm s n /\ kept = seq 0 (S n)).
  { subst ops s kept. induction n as [|n IH].
    - split; [apply separateb_ok; vm_compute; reflexivity|]. split; [|vm_compute; reflexivity].
      unfold calm. vm_compute. repeat split; auto.
      + intros [|[|k]] t K; try discriminate. injection K as <-. reflexivity.
      + exists 1. eexists. repeat split.
    - destruct IH as (A & B & C). cbn [ticks]. destruct (round _ _ B) as (R1 & R2 & R3 & R4 & R5 & R6 & R7 & R8 & R9).
      unfold run, krun in *. rewrite !fold_left_app. split; [|split].
      + apply separate_app; [exact A|]. cbn. split; [exact I|]. split; [exact R2|]. split; [exact R3|exact I].
      + exact R1.
      + pose proof (krun_sys alone (ticks n)) as KS. unfold krun, run in KS.
        destruct (fold_left (kstep alone) (ticks n) (init, [0])) as [x kp]. cbn [fst snd] in KS, C. subst x kp.
        set (s0 := fold_left (step alone) (ticks n) init) in *.
        assert (L0 : length (y_tasks s0) = S n) by apply B.
        cbn [fold_left]. unfold kstep. cbn [fst snd].
        assert (N3 : y_next (step alone (step alone (step alone s0 (SetState 0)) (Run (S n))) (Run (S n))) = 1) by apply R1.
        assert (B3 : y_by_id (step alone (step alone (step alone s0 (SetState 0)) (Run (S n))) (Run (S n))) 0 = Some (S n)) by apply R1.
        assert (L3 : length (y_tasks (step alone (step alone (step alone s0 (SetState 0)) (Run (S n))) (Run (S n)))) = S (S n)) by apply R1.
        rewrite !kept_all by (assumption || congruence). rewrite L0, R4, R5, L3. replace (S (S n) - S n) with 1 by lia. rewrite Nat.sub_diag. cbn [seq]. rewrite !app_nil_r.
        change (seq 0 (S n) ++ [S n] = seq 0 (S (S n))). replace (seq 0 (S (S n))) with (seq 0 (S n + 1)) by (f_equal; lia). rewrite seq_app. reflexivity. }
  destruct H as (A & B & C). split; [exact A|]. split; [apply B|]. split; [|split; [exact C|apply B]].
  destruct B as (_ & _ & _ & _ & _ & _ & _ & r & m & R & _). intros c. unfold registered. rewrite R. destruct c; cbn; split; auto; discriminate.
Qed.
Print Assumptions C97_renders_refuted.

(** It never keeps more than that: one task for each render ever requested. *)
Definition is_change (o : op) : bool := match o with SetState _ => true | Run _ => false end.
Lemma filter_le {A} (f : A -> bool) l : length (filter f l) <= length l.
Proof. induction l as [|x l IH]; cbn; [lia|]. destruct (f x); cbn; lia. Qed.
Definition grows (s s' : sys) : Prop := length (y_tasks s') = length (y_tasks s).
Lemma set_pc_g k p s : grows s (set_pc k p s).
Proof. unfold grows, set_pc. destruct (nth_error (y_tasks s) k); [|reflexivity]. cbn [y_tasks set_tasks]. apply put_length. Qed.
Lemma cancel_g k s : grows s (cancel k s).
Proof. unfold grows, cancel. destruct (nth_error (y_tasks s) k); [|reflexivity]. destruct (finished t); [reflexivity|]. cbn [y_tasks set_tasks]. apply put_length. Qed.
Lemma start_effects_g k s : grows s (start_effects k s).
Proof. unfold grows, start_effects. destruct (nth_error (y_tasks s) k); reflexivity. Qed.
Lemma unmount_g fuel stk s : grows s (snd (unmount fuel stk s)).
Proof. destruct (unmount_same fuel stk s) as (r & e & ->). reflexivity. Qed.
Lemma claim_g k n old st s : grows s (claim k n old st s).
Proof.
  unfold claim, grows. cbn [y_by_id set_reg].
  match goal with |- length (y_tasks (match y_holder ?X _ with _ => _ end)) = _ => assert (B : length (y_tasks X) = length (y_tasks s)) end.
  { destruct (y_by_id s (lcs s n)); [|reflexivity]. destruct (Nat.eqb n0 k); [reflexivity|]. rewrite cancel_g. reflexivity. }
  match goal with |- length (y_tasks (match ?H with _ => _ end)) = _ => destruct H end; rewrite set_pc_g; exact B.
Qed.
Lemma enter_g k old par index key ty st s : grows s (snd (enter k old par index key ty st s)).
Proof.
  unfold enter, grows. destruct old as [o|]; cbn [snd]; [|rewrite claim_g; reflexivity].
  destruct (Nat.eqb _ _); cbn [snd]; [rewrite claim_g; reflexivity|].
  pose proof (unmount_g (length (y_reg s)) [o] s) as U. unfold grows in U. destruct (unmount _ _ s) as [[|] s1]; cbn [snd] in *; [|exact U].
  rewrite claim_g. exact U.
Qed.
Lemma complete_g k n s : grows s (complete k n s).
Proof.
  unfold complete, grows. rewrite set_pc_g. cbn [y_tasks set_log]. rewrite <- (start_effects_g k s). destruct (m_parent _); reflexivity.
Qed.
Lemma descend_g k : forall st s, grows s (descend k st s).
Proof.
  induction st as [|f rest IH]; intros s; [reflexivity|]. cbn [descend].
  assert (CL : forall s, length (y_tasks (let s1 := release (lcs s (f_new f)) s in match rest with [] => complete k (f_new f) s1 | g :: _ => descend k rest (attach (f_new g) (f_new f) s1) end)) = length (y_tasks s)).
  { intros x. cbv zeta. destruct rest as [|g rest']; [rewrite complete_g; reflexivity|]. rewrite IH. reflexivity. }
  unfold grows. destruct (f_todo f) as [|[i [key ty]] todo]; [apply CL|].
  match goal with |- context [enter ?a ?b ?c ?d ?e ?g ?h ?x] => pose proof (enter_g a b c d e g h x) as E; destruct (enter a b c d e g h x) as [[|] s1] end; cbn [snd] in E; unfold grows in E; [exact E|].
  rewrite CL. unfold fail, modify. cbn [y_tasks set_states]. exact E.
Qed.
Lemma body_g view k n old st s : grows s (body view k n old st s).
Proof.
  unfold body, grows. cbv zeta. cbn [y_tasks set_flag].
  match goal with |- context [modify n ?f ?X] => assert (B : length (y_tasks (modify n f X)) = length (y_tasks s)); [|set (s3 := modify n f X) in *] end.
  { cbn [modify y_tasks set_states]. destruct (nth_error (y_tasks s) k); [|reflexivity]. cbn [y_tasks set_tasks]. apply put_length. }
  destruct (nodupb _); [|rewrite descend_g; unfold fail, modify; cbn [y_tasks set_states]; exact B].
  match goal with |- context [unmount ?a ?b ?x] => pose proof (unmount_g a b x) as U; destruct (unmount a b x) as [[|] s4] end; cbn [snd] in U; unfold grows in U; rewrite descend_g; [congruence|].
  unfold fail, modify; cbn [y_tasks set_states]. congruence.
Qed.
Lemma run_g view k s : grows s (run_task view k s).
Proof.
  unfold run_task, grows. destruct (nth_error (y_tasks s) k) as [t|]; [|reflexivity]. destruct (finished t); [reflexivity|].
  destruct (t_cancel t). { unfold unwind. rewrite set_pc_g, start_effects_g. reflexivity. }
  destruct (t_pc t); try reflexivity.
  - unfold start. destruct (m_parent _) as [p|]; [|apply enter_g]. destruct (alive s p); [apply enter_g|]. cbn [y_tasks set_over]. apply set_pc_g.
  - destruct (y_holder s _); [reflexivity|]. rewrite body_g. reflexivity.
  - apply body_g.
Qed.
Lemma change_g c s : length (y_tasks (set_state c s)) <= S (length (y_tasks s)).
Proof.
  unfold set_state. destruct (Nat.ltb _ _); [|lia]. destruct (y_flag s c); [cbn; lia|]. unfold schedule. cbn [y_tasks set_flag y_reg set_ver].
  destruct (dget c (y_reg s)); cbn [y_tasks set_by_id set_tasks set_ver]; [rewrite app_length; cbn; lia|lia].
Qed.
Theorem C97_renders view ops : length (snd (krun view ops)) <= length (y_tasks (run view ops)) <= S (length (filter is_change ops)).
Proof.
  assert (H : forall ops x, length (snd x) <= length (y_tasks (fst x)) ->
            length (snd (fold_left (kstep view) ops x)) <= length (y_tasks (fst (fold_left (kstep view) ops x))) <= length (y_tasks (fst x)) + length (filter is_change ops)).
  { clear ops. induction ops as [|o ops IH]; intros x Hx; cbn [fold_left filter length]; [lia|].
    assert (G : length (y_tasks (fst x)) <= length (y_tasks (step view (fst x) o)) <= length (y_tasks (fst x)) + (if is_change o then 1 else 0)).
    { destruct o as [c|k]; cbn [step is_change]; [|rewrite run_g; lia]. split; [|pose proof (change_g c (fst x)); lia].
      unfold set_state. destruct (Nat.ltb _ _); [|lia]. destruct (y_flag _ c); [cbn; lia|]. unfold schedule. cbn [y_tasks set_flag y_reg set_ver].
      destruct (dget c _); cbn [y_tasks set_by_id set_tasks set_ver]; [rewrite app_length; lia|lia]. }
    destruct (IH (kstep view x o)) as [A B].
    - cbn [kstep fst snd]. rewrite app_length, seq_length. pose proof (filter_le (fun j => negb (dropped (fst x) (step view (fst x) o) j)) (snd x)). lia.
    - split; [exact A|]. eapply Nat.le_trans; [exact B|]. cbn [kstep fst]. destruct (is_change o); cbn [length]; lia. }
  rewrite <- krun_sys. destruct (H ops (init, [0]) (le_n 1)) as [A B]. split; [exact A|exact B].
Qed.
Print Assumptions C97_renders.
(** A task whose component another render covers is dropped: the bound is not always met. *)
Example C97_renders_example : let ops := runs 0 6 ++ [SetState 1; SetState 0; Run 2; Run 2; Run 2; Run 1] in snd (krun prog2 ops) = [0; 2] /\ length (filter is_change ops) = 2.
Proof. vm_compute. auto. Qed.

(** The entry of a component in [_render_tasks_by_id] stays when it is unmounted. *)
Theorem C97_entry_refuted : exists view ops c, (forall ty v, NoDup (map fst (view ty v))) /\ separate view init ops /\
  let s := run view ops in idle s /\ c < y_next s /\ registered s c = false /\ y_by_id s c <> None.
Proof.
  exists prog1, (runs 0 4 ++ [SetState 2; Run 1; Run 1; SetState 1; Run 2; Run 2]), 2. split.
  { intros ty v. destruct ty as [|[|ty]], v as [|v]; cbn; repeat constructor; cbn; tauto. }
  split; [apply separateb_ok; vm_compute; reflexivity|]. intros s. split; [|vm_compute; repeat split; auto; discriminate].
  intros k t E. vm_compute in E. repeat (destruct k as [|k]; [injection E as <-; reflexivity|]). destruct k; discriminate.
Qed.
Print Assumptions C97_entry_refuted.

(** ** Events *)
Import EventModel.
(** The targets that have a queue and a task are those that an event was ever sent to: no more, and none goes. *)
Theorem C97_targets cap ops t : s_targets (erun cap ops) t <> None <-> exists e, In (ODeliver e) ops /\ e_target e = t.
Proof.
  unfold erun. assert (H : forall ops s, s_targets (fold_left (estep cap) ops s) t <> None <-> s_targets s t <> None \/ exists e, In (ODeliver e) ops /\ e_target e = t).
  { clear ops. induction ops as [|o ops IH]; intros s; cbn [fold_left].
    - split; [auto|]. intros [H|(e & [] & _)]. exact H.
    - rewrite IH. assert (ST : s_targets (estep cap s o) t <> None <-> s_targets s t <> None \/ exists e, o = ODeliver e /\ e_target e = t).
      { assert (U : forall u x l, s_targets (tset u x l s) t <> None <-> s_targets s t <> None \/ u = t).
        { intros u x l. cbn [tset s_targets]. unfold AsyncModel.upd. destruct (Nat.eqb_spec t u) as [->|N]; split; intros; auto; try discriminate. destruct H; [assumption|congruence]. }
        destruct o as [e|u|u|u r|u h]; cbn [estep].
        - unfold deliver. rewrite U. split; intros [H|H]; eauto. destruct H as (e' & Q & T). injection Q as <-. auto.
        - unfold resume, tget. destruct (s_targets s u) as [x|] eqn:X; [|cbn; split; [auto|intros [?|(? & ? & _)]; [assumption|discriminate]]].
          destruct (t_woken x); [split; [auto|intros [?|(? & ? & _)]; [assumption|discriminate]]|]. rewrite U. split; [intros [?|<-]; left; congruence|intros [?|(? & ? & _)]; [auto|discriminate]].
        - unfold process, tget. destruct (s_targets s u) as [x|] eqn:X; [|cbn; split; [auto|intros [?|(? & ? & _)]; [assumption|discriminate]]].
          destruct (t_proc x); [destruct (t_queue x)| | |]; try (destruct (after_lookup _ _ _)); try rewrite U;
            try (split; [auto|intros [?|(? & ? & _)]; [assumption|discriminate]]); (split; [intros [?|<-]; left; congruence|intros [?|(? & ? & _)]; [auto|discriminate]]).
        - unfold finish, tget. destruct (s_targets s u) as [x|] eqn:X; [|cbn; split; [auto|intros [?|(? & ? & _)]; [assumption|discriminate]]].
          destruct (t_proc x); try rewrite U;
            try (split; [auto|intros [?|(? & ? & _)]; [assumption|discriminate]]); (split; [intros [?|<-]; left; congruence|intros [?|(? & ? & _)]; [auto|discriminate]]).
        - cbn [s_targets]. split; [auto|intros [?|(? & ? & _)]; [assumption|discriminate]]. }
      rewrite ST. split.
      + intros [[?|(e & Q & T)]|(e & I & T)]; [auto|right; exists e; split; [left; exact Q|exact T]|right; exists e; split; [right; exact I|exact T]].
      + intros [?|(e & [Q|I] & T)]; [auto|left; right; exists e; auto|right; exists e; auto]. }
  rewrite H. cbn. split; [intros [?|?]; [congruence|assumption]|auto].
Qed.
Print Assumptions C97_targets.

(** One element after the other is shown, clicked once, handled and removed: after [n] of them nothing is displayed and nothing is to be
    done, and [n] queues and [n] tasks that wait for events are left. *)
Definition click (i : nat) : list eop := [ORegister i (Some i); ODeliver (Event i i None); OProcess i; OFinish i HReturned; ORegister i None].
Theorem C97_events_refuted cap n : let s := erun cap (flat_map click (seq 0 n)) in
  (forall t, s_handlers s t = None) /\ forall t, t < n -> s_targets s t = Some tinit.
Proof.
  assert (H : forall n, let s := erun cap (flat_map click (seq 0 n)) in (forall t, s_handlers s t = None) /\ (forall t, t < n -> s_targets s t = Some tinit) /\ forall t, n <= t -> s_targets s t = None).
  { clear n. induction n as [|n IH]; [cbn; repeat split; auto; lia|]. destruct IH as (A & B & C). rewrite seq_S, flat_map_app. cbn [Nat.add flat_map]. rewrite app_nil_r.
    unfold erun in *. rewrite fold_left_app. set (s := fold_left (estep cap) (flat_map click (seq 0 n)) einit) in *.
    assert (F : full cap [] = false) by (unfold full; destruct cap; reflexivity).
    assert (E : forall t, (s_handlers (fold_left (estep cap) (click n) s) t = if Nat.eqb t n then None else s_handlers s t) /\
                          (s_targets (fold_left (estep cap) (click n) s) t = if Nat.eqb t n then Some tinit else s_targets s t)).
    { intros t. unfold click. cbn [fold_left estep].
      assert (U : forall A (f : nat -> A) i x, AsyncModel.upd f i x i = x) by (intros; unfold AsyncModel.upd; now rewrite Nat.eqb_refl).
      unfold deliver, tget. cbn [s_targets e_target]. rewrite (C n (le_n n)). unfold try_put. cbn [t_queue tinit]. rewrite F.
      unfold process, tget, tset. cbn [s_targets]. rewrite U. cbn [t_proc tinit t_queue app s_handlers]. rewrite U.
      cbn [after_lookup]. unfold finish, tget, tset. cbn [s_targets s_handlers]. rewrite U. cbn [t_proc s_targets s_handlers].
      unfold AsyncModel.upd. destruct (Nat.eqb t n); split; reflexivity. }
    split; [|split]; intros t.
    - destruct (E t) as [-> _]. destruct (Nat.eqb t n); auto.
    - intros L. destruct (E t) as [_ ->]. destruct (Nat.eqb_spec t n); [reflexivity|]. apply B. lia.
    - intros L. destruct (E t) as [_ ->]. destruct (Nat.eqb_spec t n); [lia|]. apply C. lia. }
  intros s. destruct (H n) as (A & B & _). auto.
Qed.
Print Assumptions C97_events_refuted.
