(** * Properties C29-C33: event delivery *)
From Coq Require Import ZArith Bool Arith Lia List Permutation Sorted.
From Verif Require Import Dict AsyncModel AsyncFacts EventModel EventFacts.
Import ListNotations.

Lemma einv_erun cap ops : einv cap (erun cap ops).
Proof. apply einv_run, einv_init. Qed.
Lemma shape_handled x L d : shape x L d -> handled d (cur_of (t_proc x)) (handling L).
Proof.
  unfold shape. destruct (t_proc x) as [|e n|e h|]; simpl; intros H; try (constructor; auto).
  - destruct H as (N & l & B & ->). apply (h_busy d l e _ (repeat (LLook e None) n ++ [LIgnore e])); auto; try discriminate.
    + destruct n as [|[|[|[|n]]]]; [lia| | | |lia]; apply (b_dropped e).
    + destruct n; [lia|discriminate].
  - destruct H as (l & k & K & B & ->). apply (h_busy d l e _ [LEnd e HReturned]); auto; try discriminate.
    replace ((LTake e :: repeat (LLook e None) k ++ [LLook e (Some h); LStart e h]) ++ [LEnd e HReturned]) with ([LTake e] ++ repeat (LLook e None) k ++ [LLook e (Some h); LStart e h; LEnd e HReturned]); [apply (b_called e k h HReturned K)|].
    simpl. rewrite <- !app_assoc. reflexivity.
Qed.

(** ** Order *)

(** No delivery happens between the waking of a waiting [put] and its turn to run. *)
Fixpoint orderly (cap t : nat) (s : estate) (ops : list eop) : Prop :=
  match ops with
  | [] => True
  | o :: r => match o with ODeliver e => e_target e = t -> t_woken (tget s t) = [] | _ => True end /\ orderly cap t (estep cap s o) r
  end.
Record oinv (cap : nat) (x : tstate) (L : list entry) : Prop := {
  o_eq : arrivals L = takes L ++ t_queue x ++ t_woken x ++ t_blocked x;
  o_fit : cap <> 0 -> length (t_queue x) + length (t_woken x) <= cap;
  o_block : t_blocked x <> [] -> cap <> 0 /\ cap <= length (t_queue x) + length (t_woken x)
}.
Lemma oinv_step cap h x o L : (match o with ODeliver e => t_woken x = [] | _ => True end) -> oinv cap x L -> oinv cap (fst (tstep cap h x o)) (L ++ snd (tstep cap h x o)).
Proof.
  intros G [E F B]. destruct o as [e|u|u|u r|u f]; simpl.
  - unfold try_put. destruct (full cap (t_queue x)) eqn:FU; constructor; simpl; rewrite ?arrivals_app, ?takes_app, ?E; simpl; rewrite ?app_nil_r, <- ?app_assoc; auto.
    + intros _. apply full_iff in FU. lia.
    + apply full_false in FU. assert (t_blocked x = []) as ->.
      { destruct (t_blocked x) as [|b bs]; auto. exfalso. destruct B as [B1 B2]; [discriminate|]. rewrite G in B2. simpl in B2. lia. }
      rewrite G. simpl. reflexivity.
    + rewrite app_length, G. simpl. apply full_false in FU. lia.
    + intros X. destruct (B X). rewrite app_length. simpl. lia.
  - destruct (t_woken x) as [|e w] eqn:W; simpl; rewrite app_nil_r; [constructor; rewrite ?W; auto|].
    unfold try_put. simpl. assert (NF : full cap (t_queue x) = false).
    { apply full_false. destruct (Nat.eq_dec cap 0); auto. right. specialize (F n). simpl in F. lia. }
    rewrite NF. constructor; simpl; rewrite ?app_length; simpl.
    + rewrite E, <- !app_assoc. reflexivity.
    + intros X. specialize (F X). simpl in F. lia.
    + intros X. destruct (B X). simpl in *. lia.
  - destruct (t_proc x) as [|e n|e f|] eqn:P; simpl; try (rewrite app_nil_r; constructor; auto; fail).
    + destruct (t_queue x) as [|e q] eqn:Q; simpl; [rewrite app_nil_r; constructor; rewrite ?Q; auto|]. pose proof (after_lookup_no_take e h 3) as (N1 & N2 & _). destruct (after_lookup e h 3) as [p l]. simpl in *.
      constructor; simpl; rewrite ?arrivals_app, ?takes_app; simpl; rewrite ?N1, ?N2, ?app_length, ?firstn_length.
      * rewrite app_nil_r, E. repeat (rewrite <- ?app_assoc; simpl). do 4 f_equal. destruct (t_blocked x); auto.
      * intros X. specialize (F X). destruct (t_blocked x); simpl in *; lia.
      * destruct (t_blocked x) as [|b bs]; simpl in *; [congruence|]. intros _. destruct B; [discriminate|]. lia.
    + pose proof (after_lookup_no_take e h (n - 1)) as (N1 & N2 & _). destruct (after_lookup e h (n - 1)) as [p l]. simpl in *.
      constructor; simpl; auto. rewrite arrivals_app, takes_app, N1, N2, !app_nil_r. auto.
  - destruct (t_proc x) as [|e n|e f|]; simpl; try (rewrite app_nil_r; constructor; auto; fail).
    constructor; simpl; auto. rewrite arrivals_app, takes_app. simpl. rewrite !app_nil_r. auto.
  - rewrite app_nil_r. constructor; auto.
Qed.
Lemma oinv_run cap t ops : forall s, einv cap s -> orderly cap t s ops -> oinv cap (tget s t) (logt t s) ->
  oinv cap (tget (fold_left (estep cap) ops s) t) (logt t (fold_left (estep cap) ops s)).
Proof.
  induction ops as [|o ops IH]; intros s I G O; simpl; auto. destruct G as [G1 G2]. apply IH; auto; [apply einv_step; auto|].
  assert (M : forall t, mine t (tget s t)) by (intros u; apply I). destruct (estep_target cap s o M) as (A & B & C & _). destruct (Nat.eq_dec t (op_target o)) as [->|N].
  - rewrite A, B. apply oinv_step; auto. destruct o; auto.
  - destruct (C t N) as [-> ->]. auto.
Qed.
Lemma oinv_init cap t : oinv cap (tget einit t) (logt t einit).
Proof. constructor; simpl; auto; try lia. congruence. Qed.

Lemma never_full_orderly cap t ops : forall s, einv cap s -> never_full cap t s ops -> t_woken (tget s t) = [] -> t_blocked (tget s t) = [] ->
  orderly cap t s ops /\ t_woken (tget (fold_left (estep cap) ops s) t) = [] /\ t_blocked (tget (fold_left (estep cap) ops s) t) = [].
Proof.
  induction ops as [|o ops IH]; intros s I G W B; simpl; auto. destruct G as [G1 G2].
  assert (M : forall t, mine t (tget s t)) by (intros u; apply I). destruct (estep_target cap s o M) as (A & _ & C & _).
  assert (H : t_woken (tget (estep cap s o) t) = [] /\ t_blocked (tget (estep cap s o) t) = []).
  { destruct (Nat.eq_dec t (op_target o)) as [->|N]; [|destruct (C t N) as [-> _]; auto]. rewrite A. destruct o as [e|u|u|u r|u f]; simpl in *.
    - unfold try_put. rewrite G1 by auto. auto.
    - rewrite W. auto.
    - destruct (t_proc (tget s u)); auto; [destruct (t_queue (tget s u)); auto|]; destruct (after_lookup _ _ _); simpl; rewrite ?B, ?W; auto.
    - destruct (t_proc (tget s u)); auto.
    - auto. }
  destruct H as [H1 H2]. destruct (IH (estep cap s o) (einv_step cap s o I) G2 H1 H2) as (X & Y). split; auto. split; auto. destruct o; auto.
Qed.

(** *** C29 *)

(** As long as no delivery finds the queue of the target full: the events of the target are handled one after the other
    in the order of their arrival, each once; an event is dropped exactly after four failed lookups of its handler. *)
Theorem C29_in_order : forall cap ops t,
  never_full cap t einit ops ->
  let l := of_target t (s_log (erun cap ops)) in
  exists done cur rest, arrivals l = done ++ cur ++ rest /\ handled done cur (handling l).
Proof.
  intros cap ops t G l. destruct (never_full_orderly cap t ops einit (einv_init cap) G eq_refl eq_refl) as (O & W & B).
  pose proof (oinv_run cap t ops einit (einv_init cap) O (oinv_init cap t)) as [E _ _]. destruct (einv_erun cap ops t) as [_ [(d & T & SH) _ _ _]].
  change (fold_left (estep cap) ops einit) with (erun cap ops) in *. fold (logt t (erun cap ops)) in l. unfold l.
  exists d, (cur_of (t_proc (tget (erun cap ops) t))), (t_queue (tget (erun cap ops) t)). split; [|apply shape_handled; auto].
  rewrite E, W, B, T, !app_nil_r, <- app_assoc. auto.
Qed.
Print Assumptions C29_in_order.

(** The processing of a target that was not ended by an escaped exception can always go on until nothing is left. *)
Definition serving (t : nat) (o : eop) : Prop := o = OResume t \/ o = OProcess t \/ o = OFinish t HReturned.
Lemma serve_step cap s o t : einv cap s -> serving t o -> einv cap (estep cap s o) /\ s_handlers (estep cap s o) = s_handlers s /\
  tget (estep cap s o) t = fst (tstep cap (s_handlers s t) (tget s t) o) /\ arrivals (logt t (estep cap s o)) = arrivals (logt t s).
Proof.
  intros I S. assert (M : forall t, mine t (tget s t)) by (intros u; apply I). destruct (estep_target cap s o M) as (A & B & _ & D). split; [apply einv_step; auto|].
  assert (ET : op_target o = t) by (destruct S as [-> | [-> | ->]]; auto). rewrite ET in *. split; [destruct S as [-> | [-> | ->]]; auto|]. split; auto.
  rewrite B, arrivals_app. replace (arrivals (snd _)) with (@nil event); [apply app_nil_r|]. destruct S as [-> | [-> | ->]]; simpl.
  - destruct (t_woken (tget s t)); auto.
  - destruct (t_proc (tget s t)) as [|e n|e h|]; auto; [destruct (t_queue (tget s t)) as [|e q]; auto; pose proof (after_lookup_no_take e (s_handlers s t) 3) as (_ & N & _)|pose proof (after_lookup_no_take e (s_handlers s t) (n - 1)) as (_ & N & _)]; destruct (after_lookup _ _ _); auto.
  - destruct (t_proc (tget s t)); auto.
Qed.
Definition pending (x : tstate) : nat := length (t_queue x) + length (t_woken x) + length (t_blocked x).
(** The current event, if any, can be completed. *)
Lemma serve_idle cap t : forall n s, einv cap s -> t_proc (tget s t) <> PDead -> (match t_proc (tget s t) with PIdle => 0 | PRetry _ m => m + 1 | PRun _ _ => 1 | PDead => 0 end) <= n ->
  exists ops, Forall (serving t) ops /\ let s' := fold_left (estep cap) ops s in
    einv cap s' /\ arrivals (logt t s') = arrivals (logt t s) /\ t_proc (tget s' t) = PIdle /\
    t_queue (tget s' t) = t_queue (tget s t) /\ t_woken (tget s' t) = t_woken (tget s t) /\ t_blocked (tget s' t) = t_blocked (tget s t).
Proof.
  induction n as [|n IH]; intros s I D N.
  - exists []. split; [constructor|]. simpl. destruct (t_proc (tget s t)) eqn:P; try lia; try congruence. auto 6.
  - destruct (t_proc (tget s t)) as [|e m|e h|] eqn:P; try congruence.
    + exists []. split; [constructor|]. simpl. auto 6.
    + destruct (serve_step cap s (OProcess t) t I (or_intror (or_introl eq_refl))) as (I1 & H1 & T1 & A1).
      remember (estep cap s (OProcess t)) as s1 eqn:E1. simpl in T1. rewrite P in T1. unfold after_lookup in T1. destruct (i_shape _ _ _ (proj2 (I t))) as (d & _ & SH). unfold shape in SH. rewrite P in SH. destruct SH as (M & _).
      assert (PC : t_proc (tget s1 t) = PIdle \/ (exists h, t_proc (tget s1 t) = PRun e h) \/ t_proc (tget s1 t) = PRetry e (m - 1) /\ 1 <= m - 1).
      { destruct (s_handlers s t) as [f|]; [|destruct (m - 1) eqn:MM]; simpl in T1; rewrite T1; simpl; eauto. right. right. split; auto. lia. }
      assert (Q1 : t_queue (tget s1 t) = t_queue (tget s t) /\ t_woken (tget s1 t) = t_woken (tget s t) /\ t_blocked (tget s1 t) = t_blocked (tget s t)).
      { destruct (s_handlers s t) as [f|]; [|destruct (m - 1)]; simpl in T1; rewrite T1; auto. }
      destruct (IH s1) as (ops & F & I2 & A2 & P2 & Q2 & W2 & B2); auto.
      * destruct PC as [->|[(h & ->)|[-> _]]]; discriminate.
      * destruct PC as [->|[(h & ->)|[-> _]]]; lia.
      * destruct Q1 as (Q1 & W1 & B1). exists (OProcess t :: ops). split; [constructor; auto; right; left; auto|]. simpl.
        change (process t s) with (estep cap s (OProcess t)). rewrite <- E1. rewrite Q2, W2, B2, A2. auto 8.
    + destruct (serve_step cap s (OFinish t HReturned) t I (or_intror (or_intror eq_refl))) as (I1 & H1 & T1 & A1). cbn [tstep] in T1. rewrite P in T1. cbn [fst] in T1.
      exists [OFinish t HReturned]. split; [constructor; [right; right; auto|constructor]|]. change (fold_left (estep cap) [OFinish t HReturned] s) with (estep cap s (OFinish t HReturned)).
      cbv zeta. rewrite T1, A1. simpl. auto 8.
Qed.
Lemma serve_all cap t : forall n s, einv cap s -> t_proc (tget s t) <> PDead -> pending (tget s t) <= n ->
  exists ops, Forall (serving t) ops /\ let s' := fold_left (estep cap) ops s in
    einv cap s' /\ arrivals (logt t s') = arrivals (logt t s) /\ t_proc (tget s' t) = PIdle /\ pending (tget s' t) = 0.
Proof.
  induction n as [n IH] using lt_wf_ind. intros s I D N.
  destruct (serve_idle cap t _ s I D (le_n _)) as (ops1 & F1 & I1 & A1 & P1 & Q1 & W1 & B1). cbv zeta in *. remember (fold_left (estep cap) ops1 s) as s1 eqn:E1.
  (* take one event: from the queue, or after a woken putter ran *)
  assert (TAKE : forall s2, einv cap s2 -> t_proc (tget s2 t) = PIdle -> t_queue (tget s2 t) <> [] -> pending (tget s2 t) <= n ->
    exists ops, Forall (serving t) ops /\ let s' := fold_left (estep cap) ops s2 in einv cap s' /\ arrivals (logt t s') = arrivals (logt t s2) /\ t_proc (tget s' t) = PIdle /\ pending (tget s' t) = 0).
  { intros s2 I2 P2 Q2 N2. destruct (t_queue (tget s2 t)) as [|e q] eqn:Q; [congruence|].
    destruct (serve_step cap s2 (OProcess t) t I2 (or_intror (or_introl eq_refl))) as (I3 & H3 & T3 & A3).
    remember (estep cap s2 (OProcess t)) as s3 eqn:E3. simpl in T3. rewrite P2, Q in T3.
    assert (PEND : S (pending (tget s3 t)) = pending (tget s2 t) /\ t_proc (tget s3 t) <> PDead).
    { unfold pending. rewrite Q. unfold after_lookup in T3. destruct (s_handlers s2 t); simpl in T3; rewrite T3; simpl; rewrite app_length; destruct (t_blocked (tget s2 t)); simpl; (split; [lia|discriminate]). }
    destruct PEND as [PE ND]. destruct (IH (pending (tget s3 t))) with (s := s3) as (ops & F & X1 & X2 & X3 & X4); auto; try lia.
    exists (OProcess t :: ops). split; [constructor; auto; right; left; auto|]. simpl. change (process t s2) with (estep cap s2 (OProcess t)). rewrite <- E3. rewrite X2, A3. auto. }
  assert (N1 : pending (tget s1 t) <= n) by (unfold pending in *; rewrite Q1, W1, B1; exact N).
  assert (END : exists ops, Forall (serving t) ops /\ let s' := fold_left (estep cap) ops s1 in einv cap s' /\ arrivals (logt t s') = arrivals (logt t s1) /\ t_proc (tget s' t) = PIdle /\ pending (tget s' t) = 0).
  { destruct (t_queue (tget s1 t)) as [|e q] eqn:Q; [|apply TAKE; auto; rewrite Q; discriminate].
    destruct (t_woken (tget s1 t)) as [|e w] eqn:W.
    - exists []. split; [constructor|]. simpl. split; auto. split; auto. split; auto. unfold pending. rewrite Q, W.
      destruct (t_blocked (tget s1 t)) as [|b bs] eqn:B; auto. exfalso. destruct (i_room _ _ _ (proj2 (I1 t))) as [R1 R2]; [rewrite B; discriminate|]. rewrite Q, W in R2. simpl in R2. lia.
    - destruct (serve_step cap s1 (OResume t) t I1 (or_introl eq_refl)) as (I3 & H3 & T3 & A3). remember (estep cap s1 (OResume t)) as s3 eqn:E3. simpl in T3. rewrite W in T3. simpl in T3. unfold try_put in T3. simpl in T3. rewrite Q in T3.
      assert (NF : full cap [] = false) by (apply full_false; simpl; lia). rewrite NF in T3. simpl in T3.
      destruct (TAKE s3) as (ops & F & X1 & X2 & X3 & X4); auto; try (rewrite T3; auto; discriminate).
      { unfold pending in *. rewrite T3. simpl. rewrite Q, W in N1. simpl in N1. lia. }
      exists (OResume t :: ops). split; [constructor; auto; left; auto|]. simpl. change (resume cap t s1) with (estep cap s1 (OResume t)). rewrite <- E3. rewrite X2, A3. auto. }
  destruct END as (ops2 & F2 & X1 & X2 & X3 & X4). exists (ops1 ++ ops2). split; [apply Forall_app; auto|]. rewrite fold_left_app, <- E1. rewrite X2, A1. auto.
Qed.
(** The exception that ends the processing of a target. *)
Definition escaped (t : nat) (l : list entry) : Prop := exists e, e_target e = t /\ In (LEnd e HEscaped) l.
Lemma dead_escaped cap t ops : forall s, einv cap s -> (t_proc (tget s t) = PDead -> escaped t (s_log s)) ->
  t_proc (tget (fold_left (estep cap) ops s) t) = PDead -> escaped t (s_log (fold_left (estep cap) ops s)).
Proof.
  induction ops as [|o ops IH]; intros s I H; simpl; auto. apply IH; [apply einv_step; auto|].
  assert (M : forall t, mine t (tget s t)) by (intros u; apply I). destruct (estep_target cap s o M) as (A & B & C & _).
  assert (INC : incl (logt t s) (logt t (estep cap s o))).
  { destruct (Nat.eq_dec t (op_target o)) as [->|N]; [rewrite B; apply incl_appl, incl_refl|destruct (C t N) as [_ ->]; apply incl_refl]. }
  assert (UP : forall r e, In (LEnd e r) (logt t (estep cap s o)) -> In (LEnd e r) (s_log (estep cap s o)) /\ e_target e = t).
  { intros r e J. unfold logt, of_target in J. apply filter_In in J. simpl in J. destruct J as [J K]. apply Nat.eqb_eq in K. auto. }
  assert (DOWN : escaped t (s_log s) -> escaped t (s_log (estep cap s o))).
  { intros (e & E & J). exists e. split; auto. apply UP. apply INC. unfold logt, of_target. apply filter_In. simpl. rewrite E, Nat.eqb_refl. auto. }
  intros D. destruct (Nat.eq_dec t (op_target o)) as [->|N]; [|destruct (C t N) as [E _]; rewrite E in D; auto].
  rewrite A in D. destruct o as [e|u|u|u r|u f]; simpl in *; auto.
  - unfold try_put in D. destruct (full _ _) in D; simpl in D; auto.
  - destruct (t_woken (tget s u)) in D; auto. unfold try_put in D. destruct (full _ _) in D; simpl in D; auto.
  - destruct (t_proc (tget s u)) as [|e n|e h|] eqn:P; auto.
    + destruct (t_queue (tget s u)); simpl in D; [congruence|]. unfold after_lookup in D. destruct (s_handlers s u); simpl in D; discriminate.
    + unfold after_lookup in D. destruct (s_handlers s u); [|destruct (n - 1)]; simpl in D; discriminate.
    + simpl in D. congruence.
  - destruct (t_proc (tget s u)) as [|e n|e h|] eqn:P; auto; try (simpl in D; congruence). destruct r; simpl in D; try discriminate.
    exists e. assert (J : In (LEnd e HEscaped) (logt u (finish u HEscaped s))) by (rewrite B; apply in_app_iff; right; left; auto). destruct (UP _ _ J). auto.
Qed.
(** Every delivered event can be handled: from every reachable state in which no handler of the target has let a
    [BaseException] escape, if the target's tasks go on running, all its events are handled (those that waited for a place
    in the queue included). *)
Theorem C29_drains : forall cap ops t,
  ~ escaped t (s_log (erun cap ops)) ->
  exists ops', Forall (serving t) ops' /\
    exists done, Permutation (arrivals (of_target t (s_log (erun cap ops)))) done /\
      blocks done (handling (of_target t (s_log (erun cap (ops ++ ops'))))).
Proof.
  intros cap ops t NE. destruct (serve_all cap t (pending (tget (erun cap ops) t)) (erun cap ops) (einv_erun cap ops)) as (ops' & F & I & A & P & Q); auto.
  { intros D. apply NE. apply (dead_escaped cap t ops einit (einv_init cap)); auto. simpl. discriminate. }
  exists ops'. split; auto. unfold erun at 2. rewrite fold_left_app. fold (erun cap ops). cbv zeta in *. set (s' := fold_left (estep cap) ops' (erun cap ops)) in *.
  destruct (I t) as [_ [(d & T & SH) PE _ _]]. exists d. unfold pending in Q. assert (EM : t_queue (tget s' t) = [] /\ t_woken (tget s' t) = [] /\ t_blocked (tget s' t) = []).
  { destruct (t_queue (tget s' t)), (t_woken (tget s' t)), (t_blocked (tget s' t)); simpl in Q; try lia. auto. }
  destruct EM as (Q1 & Q2 & Q3). unfold shape in SH. rewrite P in T, SH. simpl in T. rewrite app_nil_r in T. split; auto.
  fold (logt t (erun cap ops)). rewrite <- A, PE, T, Q1, Q2, Q3, !app_nil_r. auto.
Qed.
Print Assumptions C29_drains.
Definition ev (i t : nat) (q : Z) : event := Event i t (Some q).
Definition demo_events : list eop :=
  [ORegister 7 (Some 1); ODeliver (ev 0 7 10); ODeliver (ev 1 7 11); ODeliver (ev 2 8 3); OProcess 7; OProcess 8; OFinish 7 HRaised;
   ODeliver (ev 3 7 12); OProcess 7; ORegister 8 (Some 4); OProcess 8].
Example C29_example : never_full 3 7 einit demo_events /\ ~ escaped 7 (s_log (erun 3 demo_events)) /\
  arrivals (of_target 7 (s_log (erun 3 demo_events))) = [ev 0 7 10; ev 1 7 11; ev 3 7 12] /\
  handling (of_target 8 (s_log (erun 3 demo_events))) = [LTake (ev 2 8 3); LLook (ev 2 8 3) None; LLook (ev 2 8 3) (Some 4); LStart (ev 2 8 3) 4].
Proof.
  split; [vm_compute; repeat split; auto|]. split; [|split; reflexivity].
  intros (e & _ & J). vm_compute in J. decompose [or] J; try discriminate; auto.
Qed.

(** *** C30 *)

(** The queue is full, an event waits; when a place becomes free, an event that arrives before the waiting [put] runs
    takes it: the later event is handled first. *)
Theorem C30_overtaking_refuted : exists cap ops t e0 e1 e2,
  cap > 0 /\
  let l := of_target t (s_log (erun cap ops)) in
  arrivals l = [e0; e1; e2] /\ blocks [e0; e2; e1] (handling l) /\ e1 <> e2.
Proof.
  set (fin := [OProcess 7; OFinish 7 HReturned]).
  exists 1, ([ORegister 7 (Some 1); ODeliver (ev 0 7 0); ODeliver (ev 1 7 1); OProcess 7; ODeliver (ev 2 7 2); OResume 7; OFinish 7 HReturned] ++ fin ++ [OResume 7] ++ fin), 7, (ev 0 7 0), (ev 1 7 1), (ev 2 7 2).
  split; [lia|]. cbv zeta. split; [vm_compute; reflexivity|]. split; [|discriminate].
  assert (B : forall e, block e [LTake e; LLook e (Some 1); LStart e 1; LEnd e HReturned]) by (intros e; apply (b_called e 0 1 HReturned); lia).
  pose proof (bs_snoc _ _ _ _ (bs_snoc _ _ _ _ (bs_snoc _ _ _ _ bs_nil (B (ev 0 7 0))) (B (ev 2 7 2))) (B (ev 1 7 1))) as H. vm_compute in H |- *. exact H.
Qed.
Print Assumptions C30_overtaking_refuted.
(** Even with a full queue no event is lost or handled twice, and the order is kept if no event arrives between the waking
    of a waiting [put] and its turn. *)
Theorem C30_full_queue_partial : forall cap ops t,
  let l := of_target t (s_log (erun cap ops)) in
  exists done cur rest, handled done cur (handling l) /\ Permutation (arrivals l) (done ++ cur ++ rest) /\
    (orderly cap t einit ops -> arrivals l = done ++ cur ++ rest).
Proof.
  intros cap ops t l. destruct (einv_erun cap ops t) as [_ [(d & T & SH) PE _ _]]. set (x := tget (erun cap ops) t) in *.
  exists d, (cur_of (t_proc x)), (t_queue x ++ t_woken x ++ t_blocked x). split; [apply shape_handled; auto|]. unfold l. fold (logt t (erun cap ops)). rewrite app_assoc, <- T. split; auto.
  intros O. pose proof (oinv_run cap t ops einit (einv_init cap) O (oinv_init cap t)) as [E _ _]. exact E.
Qed.
Print Assumptions C30_full_queue_partial.
Example C30_example : let ops := [ORegister 7 (Some 1); ODeliver (ev 0 7 0); ODeliver (ev 1 7 1); OProcess 7; OResume 7; ODeliver (ev 2 7 2)] in
  orderly 1 7 einit ops /\ t_blocked (tget (erun 1 ops) 7) = [ev 2 7 2].
Proof. vm_compute. repeat split; auto. Qed.

(** *** C31 *)

(** [n] is the greatest of the non-negative sequence numbers of the events [es]; [None]: there is none. *)
Definition greatest_seq (es : list event) (r : option Z) : Prop :=
  match r with
  | None => forall e q, In e es -> e_seq e = Some q -> (q < 0)%Z
  | Some n => (0 <= n)%Z /\ (exists e, In e es /\ e_seq e = Some n) /\ (forall e q, In e es -> e_seq e = Some q -> (q <= n)%Z)
  end.
Lemma record_seq_greatest es : greatest_seq es (fold_left (fun a e => record_seq e a) es None).
Proof.
  induction es as [|x es IH] using rev_ind; [simpl; contradiction|]. rewrite fold_left_app. simpl. unfold record_seq.
  destruct (fold_left _ es None) as [n|]; simpl in *.
  - destruct IH as (N & (e & J & E) & ALL). destruct (e_seq x) as [q|] eqn:Q; [destruct (Z.leb_spec 0 q); [destruct (Z.ltb_spec n q)|]|]; simpl; (split; [lia|]).
    + split; [exists x; rewrite in_app_iff; simpl; auto|]. intros y p K P. apply in_app_iff in K. destruct K as [K|[<-|[]]]; [specialize (ALL y p K P); lia|]. rewrite Q in P. injection P as <-. lia.
    + split; [exists e; rewrite in_app_iff; auto|]. intros y p K P. apply in_app_iff in K. destruct K as [K|[<-|[]]]; [apply (ALL y p K P)|]. rewrite Q in P. injection P as <-. lia.
    + split; [exists e; rewrite in_app_iff; auto|]. intros y p K P. apply in_app_iff in K. destruct K as [K|[<-|[]]]; [apply (ALL y p K P)|]. rewrite Q in P. injection P as <-. lia.
    + split; [exists e; rewrite in_app_iff; auto|]. intros y p K P. apply in_app_iff in K. destruct K as [K|[<-|[]]]; [apply (ALL y p K P)|]. congruence.
  - destruct (e_seq x) as [q|] eqn:Q; [destruct (Z.leb_spec 0 q); [destruct (Z.ltb_spec (-1) q); [|lia]|]|]; simpl.
    + split; [lia|]. split; [exists x; rewrite in_app_iff; simpl; auto|]. intros y p K P. apply in_app_iff in K. destruct K as [K|[<-|[]]]; [specialize (IH y p K P); lia|]. rewrite Q in P. injection P as <-. lia.
    + intros y p K P. apply in_app_iff in K. destruct K as [K|[<-|[]]]; [apply (IH y p K P)|]. rewrite Q in P. injection P as <-. lia.
    + intros y p K P. apply in_app_iff in K. destruct K as [K|[<-|[]]]; [apply (IH y p K P)|]. congruence.
Qed.
(** The recorded number of a target is the greatest non-negative number of the events taken from its queue so far. *)
Theorem C31_recorded : forall cap ops t,
  greatest_seq (takes (of_target t (s_log (erun cap ops)))) (t_seq (tget (erun cap ops) t)).
Proof. intros. destruct (einv_erun cap ops t) as [_ [_ _ E _]]. rewrite E. apply record_seq_greatest. Qed.
Print Assumptions C31_recorded.
(** It never decreases. *)
Theorem C31_monotone : forall cap ops ops' t n,
  t_seq (tget (erun cap ops) t) = Some n -> exists m, t_seq (tget (erun cap (ops ++ ops')) t) = Some m /\ (n <= m)%Z.
Proof.
  intros cap ops ops' t n E. pose proof (C31_recorded cap ops t) as R. rewrite E in R. destruct R as (N & (e & J & S) & _).
  assert (INC : forall ops' s, einv cap s -> incl (logt t s) (logt t (fold_left (estep cap) ops' s))).
  { clear. induction ops' as [|o ops' IH]; intros s I; simpl; [apply incl_refl|]. eapply incl_tran; [|apply IH; apply einv_step; auto].
    assert (M : forall t, mine t (tget s t)) by (intros u; apply I). destruct (estep_target cap s o M) as (_ & B & C & _).
    destruct (Nat.eq_dec t (op_target o)) as [->|NE]; [rewrite B; apply incl_appl, incl_refl|destruct (C t NE) as [_ ->]; apply incl_refl]. }
  assert (J' : In e (takes (of_target t (s_log (erun cap (ops ++ ops')))))).
  { unfold takes in *. apply in_flat_map in J. destruct J as (x & K & Q). apply in_flat_map. exists x. split; auto. unfold erun. rewrite fold_left_app. apply (INC ops' (erun cap ops)); auto. apply einv_erun. }
  pose proof (C31_recorded cap (ops ++ ops') t) as R. destruct (t_seq (tget (erun cap (ops ++ ops')) t)) as [m|].
  - exists m. split; auto. destruct R as (_ & _ & R). eauto.
  - specialize (R e n J' S). lia.
Qed.
Print Assumptions C31_monotone.
Example C31_example : let ops := demo_events ++ [ODeliver (Event 4 7 (Some (-5)%Z)); OFinish 7 HReturned; OProcess 7; OFinish 7 HReturned; OProcess 7] in
  takes (of_target 7 (s_log (erun 9 ops))) = [ev 0 7 10; ev 1 7 11; ev 3 7 12; Event 4 7 (Some (-5)%Z)] /\ t_seq (tget (erun 9 ops) 7) = Some 12%Z.
Proof. vm_compute. auto. Qed.

(** *** C32 *)

Definition completed (e : event) (l : list entry) : Prop := (exists o, In (LEnd e o) l) \/ In (LIgnore e) l.
(** The number is recorded although the handler has not completed. *)
Theorem C32_ack_before_handler_refuted : exists cap ops t e n,
  e_target e = t /\ e_seq e = Some n /\ t_seq (tget (erun cap ops) t) = Some n /\ ~ completed e (s_log (erun cap ops)).
Proof.
  exists 9, [ORegister 7 (Some 1); ODeliver (ev 0 7 5); OProcess 7], 7, (ev 0 7 5), 5%Z. repeat split; auto. intros [(o & J)|J]; vm_compute in J; decompose [or] J; try discriminate; auto.
Qed.
Print Assumptions C32_ack_before_handler_refuted.
(** What the number does mean: if the client numbers its events increasingly (and the queue never fills), all events with a
    smaller number have been completed and the one with this number has been taken up. *)
Definition increasing (es : list event) : Prop := StronglySorted (fun a b => forall p q, e_seq a = Some p -> e_seq b = Some q -> (p < q)%Z) es.
Lemma blocks_completed es l : blocks es l -> forall e, In e es -> completed e l.
Proof.
  induction 1 as [|es l x b B IH BL]; [contradiction|]. intros e J. apply in_app_iff in J. destruct J as [J|[<-|[]]].
  - destruct (IH e J) as [(o & K)|K]; [left; exists o|right]; apply in_app_iff; auto.
  - inversion BL as [n h o N E|E]; subst.
    + left. exists o. rewrite !in_app_iff. simpl. auto 10.
    + right. rewrite !in_app_iff. simpl. auto 10.
Qed.
Lemma sorted_split {A} (R : A -> A -> Prop) a b : StronglySorted R (a ++ b) -> forall x y, In x a -> In y b -> R x y.
Proof.
  induction a as [|z a IH]; simpl; intros S x y J K; [contradiction|]. apply StronglySorted_inv in S. destruct S as [S F]. rewrite Forall_forall in F.
  destruct J as [<-|J]; [apply F, in_app_iff; auto|eauto].
Qed.
Theorem C32_earlier_events_partial : forall cap ops t n,
  never_full cap t einit ops ->
  let l := of_target t (s_log (erun cap ops)) in
  increasing (arrivals l) -> t_seq (tget (erun cap ops) t) = Some n ->
  forall e q, In e (arrivals l) -> e_seq e = Some q ->
    ((q < n)%Z -> completed e l) /\ (q = n -> In (LTake e) l).
Proof.
  intros cap ops t n G l INC SQ e q J Q. pose proof (C31_recorded cap ops t) as R. rewrite SQ in R. destruct R as (_ & (w & W & WQ) & MAX). fold l in W, MAX.
  destruct (never_full_orderly cap t ops einit (einv_init cap) G eq_refl eq_refl) as (O & WK & B).
  pose proof (oinv_run cap t ops einit (einv_init cap) O (oinv_init cap t)) as [E _ _]. destruct (einv_erun cap ops t) as [_ [(d & T & SH) _ _ _]].
  change (fold_left (estep cap) ops einit) with (erun cap ops) in *. fold (logt t (erun cap ops)) in l. fold l in E, T, SH. rewrite WK, B, !app_nil_r in E.
  set (x := tget (erun cap ops) t) in *.
  assert (QT : In e (takes l) \/ In e (t_queue x)) by (rewrite E in J; apply in_app_iff in J; auto).
  assert (LATE : In e (t_queue x) -> (n < q)%Z). { intros K. unfold increasing in INC. rewrite E in INC. apply (sorted_split _ _ _ INC w e W K n q WQ Q). }
  split.
  - intros LT. destruct QT as [K|K]; [|specialize (LATE K); lia]. assert (D : In e d).
    { rewrite T in K. apply in_app_iff in K. destruct K as [K|K]; auto. exfalso.
      assert (W' : In w d \/ In w (cur_of (t_proc x))) by (rewrite T in W; apply in_app_iff in W; auto).
      destruct W' as [W'|W'].
      - assert (L : (n < q)%Z); [|lia]. unfold increasing in INC. rewrite E, T, <- app_assoc in INC. apply (sorted_split _ _ _ INC w e W') with (p := n); auto. apply in_app_iff. auto.
      - destruct (t_proc x); simpl in K, W'; try contradiction; destruct K as [<-|[]], W' as [<-|[]]; rewrite Q in WQ; injection WQ as <-; lia. }
    apply shape_handled in SH. assert (C : completed e (handling l)).
    { inversion SH as [dd ll BB|dd ll ee p sf BB BL]; subst; [eapply blocks_completed; eauto|]. destruct (blocks_completed _ _ BB e D) as [(o & X)|X]; [left; exists o|right]; apply in_app_iff; auto. }
    destruct C as [(o & X)|X]; unfold handling in X; apply filter_In in X; destruct X as [X _]; [left; eauto|right; auto].
  - intros ->. destruct QT as [K|K]; [|specialize (LATE K); lia]. unfold takes in K. apply in_flat_map in K. destruct K as (y & Y1 & Y2). destruct y; simpl in Y2; try contradiction. destruct Y2 as [->|[]]. auto.
Qed.
Print Assumptions C32_earlier_events_partial.
Example C32_example : increasing (arrivals (of_target 7 (s_log (erun 9 demo_events)))) /\ never_full 9 7 einit demo_events /\ t_seq (tget (erun 9 demo_events) 7) = Some 11%Z.
Proof. split; [repeat constructor; simpl; intros ? ? H1 H2; injection H1 as <-; injection H2 as <-; lia|]. split; [vm_compute; repeat split; auto|reflexivity]. Qed.

(** *** C33 *)

(** The other targets: what happens at a target depends only on what is done at this target. *)
Theorem C33_targets_independent : forall cap ops t,
  let ops_t := filter (fun o => Nat.eqb (op_target o) t) ops in
  of_target t (s_log (erun cap ops)) = of_target t (s_log (erun cap ops_t)) /\ tget (erun cap ops) t = tget (erun cap ops_t) t.
Proof.
  intros cap ops t. simpl.
  assert (H : forall s s', einv cap s -> einv cap s' -> logt t s = logt t s' -> tget s t = tget s' t -> s_handlers s t = s_handlers s' t ->
    let r := fold_left (estep cap) ops s in let r' := fold_left (estep cap) (filter (fun o => Nat.eqb (op_target o) t) ops) s' in logt t r = logt t r' /\ tget r t = tget r' t).
  { induction ops as [|o ops IH]; intros s s' I I' E1 E2 E3; simpl; auto.
    assert (M : forall t, mine t (tget s t)) by (intros u; apply I). assert (M' : forall t, mine t (tget s' t)) by (intros u; apply I').
    destruct (estep_target cap s o M) as (A & B & C & D). destruct (estep_target cap s' o M') as (A' & B' & C' & D'). destruct (Nat.eqb_spec (op_target o) t) as [ET|N]; simpl.
    - rewrite ET in *. apply IH; [apply einv_step; auto|apply einv_step; auto| | |].
      + rewrite B, B', E1, E2, E3. auto.
      + rewrite A, A', E2, E3. auto.
      + rewrite D, D'. destruct o; auto. simpl in ET. subst. unfold upd. rewrite Nat.eqb_refl. auto.
    - destruct (C t) as [X Y]; auto. apply IH; [apply einv_step; auto|auto| | |].
      + rewrite Y. auto.
      + rewrite X. auto.
      + rewrite D, <- E3. destruct o; auto. simpl in N |- *. unfold upd. match goal with |- context[Nat.eqb ?a ?b] => destruct (Nat.eqb_spec a b); [congruence|auto] end. }
  apply (H einit einit); auto; apply einv_init.
Qed.
Print Assumptions C33_targets_independent.

(** The same target: an event that is dropped or whose handler raises (an [Exception]) leaves no trace in the handling of
    the others: there is a run in which the event is not sent and everything else happens as in the given run. *)
Definition not_about (i : nat) (x : entry) : bool := negb (Nat.eqb (e_id (about x)) i).
Definition keep_ev (i : nat) (e : event) : bool := negb (Nat.eqb (e_id e) i).
Inductive sublist {A} : list A -> list A -> Prop :=
| sub_nil : sublist [] []
| sub_skip x a b : sublist a b -> sublist a (x :: b)
| sub_take x a b : sublist a b -> sublist (x :: a) (x :: b).
Definition strip (i : nat) (p : proc) : proc := match p with
  | PRetry e _ | PRun e _ => if keep_ev i e then p else PIdle | _ => p end.
Record sim (i t : nat) (s s' : estate) : Prop := {
  m_inv : forall u, mine u (tget s' u);
  m_h : s_handlers s' t = s_handlers s t;
  m_q : t_queue (tget s' t) = filter (keep_ev i) (t_queue (tget s t));
  m_b : t_blocked (tget s' t) = [] /\ t_woken (tget s' t) = [];
  m_p : t_proc (tget s' t) = strip i (t_proc (tget s t));
  m_l : logt t s' = filter (not_about i) (logt t s)
}.
Lemma filter_length_le {A} (f : A -> bool) l : length (filter f l) <= length l.
Proof. induction l as [|x l IH]; simpl; auto. destruct (f x); simpl; lia. Qed.
Lemma filter_after_lookup i e h n : keep_ev i e = true -> filter (not_about i) (snd (after_lookup e h n)) = snd (after_lookup e h n).
Proof. intros K. unfold keep_ev in K. unfold after_lookup, not_about. destruct h; [|destruct n]; simpl; rewrite K; auto. Qed.
Lemma filter_after_lookup_none i e h n : keep_ev i e = false -> filter (not_about i) (snd (after_lookup e h n)) = [].
Proof. intros K. unfold keep_ev in K. unfold after_lookup, not_about. destruct h; [|destruct n]; simpl; rewrite K; auto. Qed.
Lemma strip_after_lookup i e h n : strip i (fst (after_lookup e h n)) = if keep_ev i e then fst (after_lookup e h n) else PIdle.
Proof. unfold after_lookup. destruct h; [|destruct n]; simpl; destruct (keep_ev i e); auto. Qed.
Lemma sim_step cap i t s s' o : einv cap s -> t_blocked (tget s t) = [] -> t_woken (tget s t) = [] ->
  (match o with ODeliver e => e_target e = t -> full cap (t_queue (tget s t)) = false | _ => True end) ->
  (forall e, In (LEnd e HEscaped) (logt t (estep cap s o)) -> e_id e <> i) ->
  sim i t s s' ->
  (sim i t (estep cap s o) (estep cap s' o) /\ (match o with ODeliver e => e_target e = t -> e_id e <> i | _ => True end)) \/ sim i t (estep cap s o) s'.
Proof.
  intros I B0 W0 G NE [M H Q (B & W) P L]. assert (MM : forall t, mine t (tget s t)) by (intros u; apply I).
  destruct (estep_target cap s o MM) as (A1 & A2 & A3 & A4). destruct (estep_target cap s' o M) as (C1 & C2 & C3 & C4).
  destruct (Nat.eq_dec t (op_target o)) as [ET|N].
  2:{ right. destruct (A3 t N) as [X Y]. constructor; rewrite ?X, ?Y; auto. rewrite A4, H. destruct o; auto. simpl in *. unfold upd. match goal with |- context[Nat.eqb ?a ?b] => destruct (Nat.eqb_spec a b); [congruence|auto] end. }
  rewrite <- ET in *. pose proof (mine_step cap s' o M) as M'. rewrite H in C1, C2.
  destruct o as [e|u|u|u r|u f]; cbn [tstep fst snd] in *.
  - specialize (G (eq_sym ET)). unfold try_put in *. rewrite G in *. destruct (Nat.eqb_spec (e_id e) i) as [EI|NI].
    + right. constructor; auto; rewrite ?A1, ?A2, ?A4; simpl; auto; rewrite ?filter_app; simpl; unfold keep_ev, not_about; simpl; rewrite EI, Nat.eqb_refl; simpl; rewrite app_nil_r; auto.
    + left. split; [|auto]. rewrite Q in *. assert (G' : full cap (filter (keep_ev i) (t_queue (tget s t))) = false).
      { apply full_false. apply full_false in G. destruct G; auto. right. pose proof (filter_length_le (keep_ev i) (t_queue (tget s t))). lia. }
      rewrite G' in *. constructor; rewrite ?A1, ?A2, ?A4, ?C1, ?C2, ?C4; simpl; auto.
      * rewrite filter_app. simpl. unfold keep_ev at 3. destruct (Nat.eqb_spec (e_id e) i); [congruence|auto].
      * rewrite filter_app, L. simpl. unfold not_about at 3. simpl. destruct (Nat.eqb_spec (e_id e) i); [congruence|auto].
  - left. split; auto. rewrite W, W0 in *. simpl in *. rewrite app_nil_r in *. constructor; rewrite ?A1, ?A2, ?A4, ?C1, ?C2, ?C4; auto.
  - destruct (t_proc (tget s t)) as [|e n|e h|] eqn:PX; simpl in P; rewrite ?P in *.
    + destruct (t_queue (tget s t)) as [|e q] eqn:QX; simpl in Q; rewrite ?Q in *; simpl in *.
      * left. split; auto. rewrite app_nil_r in *. constructor; rewrite ?A1, ?A2, ?A4, ?C1, ?C2, ?C4, ?QX, ?PX; auto.
      * destruct (keep_ev i e) eqn:KE.
        -- left. split; auto. pose proof (filter_after_lookup i e (s_handlers s t) 3 KE) as FL. pose proof (strip_after_lookup i e (s_handlers s t) 3) as SL. rewrite KE in SL.
           destruct (after_lookup e (s_handlers s t) 3) as [p l]. simpl in *. constructor; rewrite ?A1, ?A2, ?A4, ?C1, ?C2, ?C4; simpl; auto.
           ++ rewrite B, W. auto.
           ++ rewrite filter_app, L. simpl. unfold keep_ev in KE. unfold not_about at 3. simpl. rewrite KE. fold (not_about i). rewrite FL. auto.
        -- right. pose proof (filter_after_lookup_none i e (s_handlers s t) 3 KE) as FL. pose proof (strip_after_lookup i e (s_handlers s t) 3) as SL. rewrite KE in SL.
           destruct (after_lookup e (s_handlers s t) 3) as [p l]. simpl in *. constructor; rewrite ?A1, ?A2, ?A4; simpl; auto; [congruence|].
           rewrite filter_app, L. simpl. unfold keep_ev in KE. unfold not_about at 3. simpl. rewrite KE. fold (not_about i). rewrite FL, app_nil_r. auto.
    + destruct (keep_ev i e) eqn:KE; rewrite ?P in *.
      * left. split; auto. pose proof (filter_after_lookup i e (s_handlers s t) (n - 1) KE) as FL. pose proof (strip_after_lookup i e (s_handlers s t) (n - 1)) as SL. rewrite KE in SL.
        destruct (after_lookup e (s_handlers s t) (n - 1)) as [p l]. simpl in *. constructor; rewrite ?A1, ?A2, ?A4, ?C1, ?C2, ?C4; simpl; auto. rewrite filter_app, L, FL. auto.
      * right. pose proof (filter_after_lookup_none i e (s_handlers s t) (n - 1) KE) as FL. pose proof (strip_after_lookup i e (s_handlers s t) (n - 1)) as SL. rewrite KE in SL.
        destruct (after_lookup e (s_handlers s t) (n - 1)) as [p l]. simpl in *. constructor; rewrite ?A1, ?A2, ?A4; simpl; auto; [congruence|]. rewrite filter_app, L, FL, app_nil_r. auto.
    + right. cbn [fst snd] in A1, A2. rewrite app_nil_r in A2. constructor; rewrite ?A1, ?A2, ?A4, ?PX; auto.
    + right. cbn [fst snd] in A1, A2. rewrite app_nil_r in A2. constructor; rewrite ?A1, ?A2, ?A4, ?PX; auto.
  - destruct (t_proc (tget s t)) as [|e n|e h|] eqn:PX; cbn [strip] in P; cbn [fst snd] in A1, A2; try (right; rewrite app_nil_r in A2; constructor; rewrite ?A1, ?A2, ?A4, ?PX; auto; fail).
    destruct (keep_ev i e) eqn:KE; rewrite ?P in *; cbn [fst snd] in C1, C2.
    + left. split; auto. constructor; rewrite ?A1, ?A2, ?A4, ?C1, ?C2, ?C4; simpl; auto; [destruct r; auto|]. rewrite filter_app, L. simpl. unfold keep_ev in KE. unfold not_about at 3. simpl. rewrite KE. auto.
    + right. constructor; rewrite ?A1, ?A2, ?A4; simpl; auto.
      * rewrite P. destruct r; auto. exfalso. apply (NE e); [rewrite A2; apply in_app_iff; right; left; auto|]. unfold keep_ev in KE. apply negb_false_iff, Nat.eqb_eq in KE. auto.
      * rewrite filter_app, L. simpl. unfold keep_ev in KE. unfold not_about at 3. simpl. rewrite KE. simpl. rewrite app_nil_r. auto.
  - left. split; auto. simpl in ET. subst u. rewrite app_nil_r in *. constructor; rewrite ?A1, ?A2, ?A4, ?C1, ?C2, ?C4; auto. unfold upd. rewrite Nat.eqb_refl. auto.
Qed.
Theorem C33_skipped : forall cap ops t i,
  never_full cap t einit ops ->
  let l := of_target t (s_log (erun cap ops)) in
  (forall e, In (LEnd e HEscaped) l -> e_id e <> i) ->
  exists ops', sublist ops' ops /\ (forall e, In (ODeliver e) ops' -> e_target e = t -> e_id e <> i) /\
    of_target t (s_log (erun cap ops')) = filter (not_about i) l.
Proof.
  intros cap ops t i G l NE.
  assert (H : forall ops s s', einv cap s -> never_full cap t s ops -> t_blocked (tget s t) = [] -> t_woken (tget s t) = [] ->
    (forall e, In (LEnd e HEscaped) (logt t (fold_left (estep cap) ops s)) -> e_id e <> i) -> sim i t s s' ->
    exists ops', sublist ops' ops /\ (forall e, In (ODeliver e) ops' -> e_target e = t -> e_id e <> i) /\ logt t (fold_left (estep cap) ops' s') = filter (not_about i) (logt t (fold_left (estep cap) ops s))).
  { clear. induction ops as [|o ops IH]; intros s s' I G B W NE S.
    - exists []. split; [constructor|]. split; [contradiction|]. simpl. apply S.
    - destruct G as [G1 G2]. assert (ONE : never_full cap t s [o]) by (simpl; auto).
      destruct (never_full_orderly cap t [o] s I ONE W B) as (_ & W' & B'). simpl in W', B', NE.
      assert (INC : forall ops s, einv cap s -> incl (logt t s) (logt t (fold_left (estep cap) ops s))).
      { clear. induction ops as [|o ops IH]; intros s I; simpl; [apply incl_refl|]. eapply incl_tran; [|apply IH; apply einv_step; auto].
        assert (M : forall t, mine t (tget s t)) by (intros u; apply I). destruct (estep_target cap s o M) as (_ & B & C & _).
        destruct (Nat.eq_dec t (op_target o)) as [->|N]; [rewrite B; apply incl_appl, incl_refl|destruct (C t N) as [_ ->]; apply incl_refl]. }
      destruct (sim_step cap i t s s' o I B W G1) as [[S' D]|S']; auto.
      { intros e J. apply NE. apply INC; auto. apply einv_step; auto. }
      + destruct (IH (estep cap s o) (estep cap s' o)) as (ops' & X & Y & Z); auto; [apply einv_step; auto|]. exists (o :: ops'). split; [apply sub_take; auto|]. split; [|auto].
        intros e [->|J]; auto.
      + destruct (IH (estep cap s o) s') as (ops' & X & Y & Z); auto; [apply einv_step; auto|]. exists ops'. split; [apply sub_skip; auto|]. auto. }
  destruct (H ops einit einit) as (ops' & X & Y & Z); auto; [apply einv_init| |exists ops'; auto]. constructor; auto. intros u. constructor.
Qed.
Print Assumptions C33_skipped.
Example C33_example : never_full 9 7 einit demo_events /\ (forall e, In (LEnd e HEscaped) (of_target 7 (s_log (erun 9 demo_events))) -> e_id e <> 0) /\
  filter (not_about 0) (handling (of_target 7 (s_log (erun 9 demo_events)))) = [LTake (ev 1 7 11); LLook (ev 1 7 11) (Some 1); LStart (ev 1 7 11) 1].
Proof. split; [vm_compute; repeat split; auto|]. split; [|reflexivity]. intros e J. exfalso. vm_compute in J. decompose [or] J; try discriminate; contradiction. Qed.

(** But a handler out of which a [BaseException] escapes (a [CancelledError] from an awaited task that was cancelled, for
    instance) ends the processing of its target: no later event of the target is ever taken from the queue. *)
Lemma dead_stays cap t ops : forall s, einv cap s -> t_proc (tget s t) = PDead ->
  t_proc (tget (fold_left (estep cap) ops s) t) = PDead /\ handling (logt t (fold_left (estep cap) ops s)) = handling (logt t s).
Proof.
  induction ops as [|o ops IH]; intros s I D; simpl; auto. assert (M : forall t, mine t (tget s t)) by (intros u; apply I). destruct (estep_target cap s o M) as (A & B & C & _).
  assert (H : t_proc (tget (estep cap s o) t) = PDead /\ handling (logt t (estep cap s o)) = handling (logt t s)).
  { destruct (Nat.eq_dec t (op_target o)) as [ET|N]; [|destruct (C t N) as [-> ->]; auto]. rewrite <- ET in *. rewrite A, B, handling_app. destruct o as [e|u|u|u r|u f]; cbn [tstep].
    - unfold try_put. destruct (full _ _); simpl; rewrite app_nil_r; auto.
    - destruct (t_woken (tget s t)); simpl; rewrite ?app_nil_r; auto. unfold try_put. destruct (full _ _); simpl; auto.
    - rewrite D. simpl. rewrite app_nil_r. auto.
    - rewrite D. simpl. rewrite app_nil_r. auto.
    - simpl. rewrite app_nil_r. auto. }
  destruct H as [H1 H2]. destruct (IH _ (einv_step cap s o I) H1) as [X Y]. split; auto. rewrite Y. auto.
Qed.
Theorem C33_escape_refuted : exists cap ops t e,
  e_target e = t /\ s_handlers (erun cap ops) t <> None /\ In (LArrive e) (s_log (erun cap ops)) /\
  forall ops', ~ In (LTake e) (s_log (erun cap (ops ++ ops'))).
Proof.
  exists 9, [ORegister 7 (Some 1); ODeliver (ev 0 7 0); ODeliver (ev 1 7 1); OProcess 7; OFinish 7 HEscaped], 7, (ev 1 7 1).
  set (ops := [ORegister _ _; _; _; _; _]). split; auto. split; [discriminate|]. split; [vm_compute; auto|]. intros ops' J.
  destruct (dead_stays 9 7 ops' (erun 9 ops) (einv_erun 9 ops) eq_refl) as [_ E]. unfold erun in J. rewrite fold_left_app in J. fold (erun 9 ops) in J.
  assert (K : In (LTake (ev 1 7 1)) (handling (logt 7 (fold_left (estep 9) ops' (erun 9 ops))))) by (unfold handling, logt, of_target; apply filter_In; split; auto; apply filter_In; auto).
  rewrite E in K. vm_compute in K. decompose [or] K; try discriminate; auto.
Qed.
Print Assumptions C33_escape_refuted.
