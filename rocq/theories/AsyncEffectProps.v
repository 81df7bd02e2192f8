(** * What holds of use_async_effect in every schedule, and without overlapping changes (C23) *)
From Coq Require Import Arith Bool Lia List.
From Verif Require Import EffectModel EffectProps AsyncEffect.
Import ListNotations.

Definition owned (x : apc) : option nat := match x with AWaitBody b | AWaitCancel b => Some b | _ => None end.
Lemma acleanups_app b l l' : acleanups b (l ++ l') = acleanups b l + acleanups b l'.
Proof. unfold acleanups. rewrite filter_app, app_length. reflexivity. Qed.
Lemma acleanups_one b c : acleanups b [ACleaned c] = if Nat.eqb c b then 1 else 0.
Proof. unfold acleanups. simpl. destruct (Nat.eqb c b); reflexivity. Qed.

(** ** Every schedule: a clean-up is called at most once, and only if it was returned *)

Record ginv (s : ast) : Prop := {
  g_range : forall i x b, nth_error (a_tasks s) i = Some x -> owned x = Some b -> b < length (a_bodies s);
  g_owner : forall i j x y b, nth_error (a_tasks s) i = Some x -> nth_error (a_tasks s) j = Some y -> owned x = Some b -> owned y = Some b -> i = j;
  g_undelivered : forall i x b, nth_error (a_tasks s) i = Some x -> owned x = Some b -> acleanups b (a_log s) = 0 /\ a_clean s <> Some b;
  g_fresh : forall b, length (a_bodies s) <= b -> acleanups b (a_log s) = 0 /\ a_clean s <> Some b;
  g_once : forall b, a_clean s = Some b -> acleanups b (a_log s) = 0;
  g_le1 : forall b, acleanups b (a_log s) <= 1;
  g_returned : forall b, a_clean s = Some b \/ acleanups b (a_log s) > 0 -> In (Ended b (BReturned true)) (a_log s);
  g_ended : forall b e, nth_error (a_bodies s) b = Some (BEnded e) -> In (Ended b e) (a_log s)
}.

Lemma ginv_init : ginv ainit.
Proof.
  constructor; simpl; auto; try (intros [|i]; intros; discriminate).
  - intros b _. split; [reflexivity|discriminate].
  - intros b [H|H]; [discriminate|]. unfold acleanups in H. simpl in H. lia.
Qed.

(** Moving a task to a state that owns no body. *)
Lemma ginv_set_pc i x s : owned x = None -> ginv s -> ginv (set_pc i x s).
Proof.
  intros O [G1 G2 G3 G4 G5 G6 G7 G8]. constructor; simpl; auto.
  - intros j y b E OW. apply nth_error_put_iff in E. destruct E as [(-> & -> & _)|[_ E]]; [congruence|eauto].
  - intros j k y z b E1 E2 O1 O2. apply nth_error_put_iff in E1. apply nth_error_put_iff in E2.
    destruct E1 as [(-> & -> & _)|[_ E1]]; [congruence|]. destruct E2 as [(-> & -> & _)|[_ E2]]; [congruence|eauto].
  - intros j y b E OW. apply nth_error_put_iff in E. destruct E as [(-> & -> & _)|[_ E]]; [congruence|eauto].
Qed.
(** From waiting for the body to waiting for its cancellation. *)
Lemma ginv_switch i b s : nth_error (a_tasks s) i = Some (AWaitBody b) -> ginv s -> ginv (set_pc i (AWaitCancel b) s).
Proof.
  intros T [G1 G2 G3 G4 G5 G6 G7 G8]. constructor; simpl; auto.
  - intros j y c E OW. apply nth_error_put_iff in E. destruct E as [(-> & -> & _)|[_ E]]; [apply (G1 i (AWaitBody b) c T OW)|eauto].
  - intros j k y z c E1 E2 O1 O2. apply nth_error_put_iff in E1. apply nth_error_put_iff in E2.
    destruct E1 as [(-> & -> & _)|[N1 E1]], E2 as [(-> & -> & _)|[N2 E2]]; auto.
    + eapply (G2 i k); eauto.
    + eapply (G2 j i); eauto.
    + eauto.
  - intros j y c E OW. apply nth_error_put_iff in E. destruct E as [(-> & -> & _)|[_ E]]; [apply (G3 i (AWaitBody b) c T OW)|eauto].
Qed.
Lemma ginv_cleanup s : ginv s -> ginv (acleanup s).
Proof.
  intros G. unfold acleanup. destruct (a_clean s) as [c|] eqn:C; auto. destruct G as [G1 G2 G3 G4 G5 G6 G7 G8].
  constructor; simpl; auto.
  - intros i x b E O. rewrite acleanups_app, acleanups_one. destruct (G3 i x b E O) as [A B]. split; [|discriminate]. destruct (Nat.eqb_spec c b); [subst; congruence|lia].
  - intros b L. rewrite acleanups_app, acleanups_one. destruct (G4 b L) as [A B]. split; [|discriminate]. destruct (Nat.eqb_spec c b); [subst; congruence|lia].
  - intros b H. discriminate.
  - intros b. rewrite acleanups_app, acleanups_one. pose proof (G6 b). destruct (Nat.eqb_spec c b); [subst; rewrite (G5 b C)|]; lia.
  - intros b [H|H]; [discriminate|]. rewrite acleanups_app, acleanups_one in H. apply in_app_iff. left. apply G7. destruct (Nat.eqb_spec c b); [subst; auto|right; lia].
  - intros b e E. apply in_app_iff. left. auto.
Qed.
Lemma ginv_pending p s : ginv s -> ginv (set_pending p s).
Proof. intros [G1 G2 G3 G4 G5 G6 G7 G8]. constructor; simpl; auto. Qed.
Lemma ginv_unpend b s : ginv s -> ginv (unpend b s).
Proof. intros G. unfold unpend. destruct (a_pending s); auto. destruct (Nat.eqb n b); auto. apply ginv_pending. auto. Qed.
Lemma ginv_cancel sh b s : ginv s -> ginv (acancel sh b s).
Proof.
  intros G. unfold acancel. destruct sh; auto. destruct (nth_error (a_bodies s) b) as [[c|e]|] eqn:E; auto. destruct G as [G1 G2 G3 G4 G5 G6 G7 G8].
  constructor; simpl; auto.
  - intros. rewrite put_length. eauto.
  - intros. apply G4. rewrite put_length in H. auto.
  - intros b' e E'. apply nth_error_put_iff in E'. destruct E' as [(-> & X & _)|[_ E']]; [discriminate|auto].
Qed.
Lemma ginv_begin i s : ginv s -> ginv (begin_body i s).
Proof.
  intros G. unfold begin_body. apply ginv_cleanup in G. set (s1 := acleanup s) in *. clearbody s1. cbv zeta. destruct G as [G1 G2 G3 G4 G5 G6 G7 G8].
  assert (Z : forall b, acleanups b (a_log s1 ++ [Began (length (a_bodies s1))]) = acleanups b (a_log s1)) by (intros b; rewrite acleanups_app; unfold acleanups at 2; simpl; lia).
  constructor; simpl; rewrite ?app_length; simpl.
  - intros j y b E O. apply nth_error_put_iff in E. destruct E as [(-> & -> & _)|[_ E]]; [simpl in O; injection O as <-; lia|]. specialize (G1 j y b E O). lia.
  - intros j k y z b E1 E2 O1 O2. apply nth_error_put_iff in E1. apply nth_error_put_iff in E2.
    destruct E1 as [(-> & -> & _)|[N1 E1]], E2 as [(-> & -> & _)|[N2 E2]]; auto; simpl in O1, O2.
    + injection O1 as <-. specialize (G1 k z _ E2 O2). lia.
    + injection O2 as <-. specialize (G1 j y _ E1 O1). lia.
    + eauto.
  - intros j y b E O. rewrite Z. apply nth_error_put_iff in E. destruct E as [(-> & -> & _)|[_ E]]; [|eauto]. simpl in O. injection O as <-. apply G4. auto.
  - intros b L. rewrite Z. apply G4. lia.
  - intros b C. rewrite Z. auto.
  - intros b. rewrite Z. auto.
  - intros b H. rewrite Z in H. apply in_app_iff. left. auto.
  - intros b e E. apply in_app_iff. left. apply G8. destruct (Nat.lt_ge_cases b (length (a_bodies s1))); [rewrite nth_error_app1 in E; auto|].
    rewrite nth_error_app2 in E by auto. destruct (b - length (a_bodies s1)) as [|[|n]]; discriminate.
Qed.
Lemma ginv_after_prev i p e s : ginv s -> ginv (after_prev i p e s).
Proof.
  intros G. unfold after_prev. destruct e; try (apply ginv_begin, ginv_unpend; auto). apply ginv_set_pc; auto.
Qed.
(** The result of a body is stored while its task gives it up. *)
Lemma ginv_store i b e x s : nth_error (a_tasks s) i = Some x -> owned x = Some b -> nth_error (a_bodies s) b = Some (BEnded e) -> ginv s ->
  forall y, owned y = None -> ginv (set_pc i y (store b e s)).
Proof.
  intros T O E G y OY.
  assert (LI : i < length (a_tasks s)) by (apply nth_error_Some; congruence).
  destruct G as [G1 G2 G3 G4 G5 G6 G7 G8].
  destruct e as [[|]| |].
  - simpl. constructor; simpl.
    + intros j z c EZ OZ. apply nth_error_put_iff in EZ. destruct EZ as [(-> & -> & _)|[_ EZ]]; [congruence|eauto].
    + intros j k z w c E1 E2 O1 O2. apply nth_error_put_iff in E1. apply nth_error_put_iff in E2.
      destruct E1 as [(-> & -> & _)|[_ E1]]; [congruence|]. destruct E2 as [(-> & -> & _)|[_ E2]]; [congruence|eauto].
    + intros j z c EZ OZ. apply nth_error_put_iff in EZ. destruct EZ as [(-> & -> & _)|[N EZ]]; [congruence|]. split; [eapply G3; eauto|].
      intros X. injection X as <-. apply N. eapply G2; eauto.
    + intros c L. split; [apply G4; auto|]. intros X. injection X as <-. specialize (G1 i x b T O). lia.
    + intros c X. injection X as <-. eapply G3; eauto.
    + auto.
    + intros c [X|X]; [injection X as <-; auto|auto].
    + auto.
  - apply ginv_set_pc; auto. simpl. constructor; simpl; auto; try discriminate.
    + intros j z c EZ OZ. split; [eapply G3; eauto|discriminate].
    + intros c L. split; [apply G4; auto|discriminate].
    + intros c [X|X]; [discriminate|auto].
  - apply ginv_set_pc; auto. constructor; auto.
  - apply ginv_set_pc; auto. constructor; auto.
Qed.
Lemma set_pc_pending i x p s : set_pc i x (set_pending p s) = set_pending p (set_pc i x s). Proof. reflexivity. Qed.
Lemma store_pending b e p s : store b e (set_pending p s) = set_pending p (store b e s).
Proof. destruct e as [[|]| |]; reflexivity. Qed.
Lemma set_pc_unpend i x b s : set_pc i x (unpend b s) = unpend b (set_pc i x s).
Proof. unfold unpend. simpl. destruct (a_pending s); auto. destruct (Nat.eqb n b); auto. Qed.
Lemma set_pc_cleanup i x s : set_pc i x (acleanup s) = acleanup (set_pc i x s).
Proof. unfold acleanup. simpl. destruct (a_clean s); auto. Qed.

Lemma ginv_run_task sh i s : ginv s -> ginv (arun_task sh i s).
Proof.
  intros G. unfold arun_task. destruct (nth_error (a_tasks s) i) as [x|] eqn:T; auto. destruct x as [|p|b|b| | |]; auto.
  - destruct (a_pending s) as [p|]; [|apply ginv_begin; auto]. pose proof (ginv_cancel sh p s G) as G'. set (s1 := acancel sh p s) in *. clearbody s1. cbv zeta.
    destruct (nth_error (a_bodies s1) p) as [[c|e]|]; [apply ginv_set_pc; auto|apply ginv_after_prev; auto|apply ginv_set_pc; auto].
  - destruct (nth_error (a_bodies s) p) as [[c|e]|]; auto. apply ginv_after_prev. auto.
  - destruct (nth_error (a_bodies s) b) as [[c|e]|] eqn:B.
    + destruct (a_stop s); auto. apply ginv_switch; [|apply ginv_cancel; auto]. unfold acancel. destruct sh; auto. rewrite B. auto.
    + cbv zeta. assert (H : ginv (set_pc i AWaitStop (store b e (set_pending None s)))).
      { rewrite store_pending, set_pc_pending. apply ginv_pending. eapply ginv_store; eauto. }
      destruct e; auto. apply ginv_set_pc; auto. apply ginv_pending. auto.
    + destruct (a_stop s); auto. apply ginv_switch; [|apply ginv_cancel; auto]. unfold acancel. destruct sh; auto. rewrite B. auto.
  - destruct (nth_error (a_bodies s) b) as [[c|e]|] eqn:B; auto.
    assert (H : ginv (set_pc i ADone (acleanup (unpend b (store b e s))))).
    { rewrite set_pc_cleanup, set_pc_unpend. apply ginv_cleanup, ginv_unpend. eapply ginv_store; eauto. }
    destruct e; auto. apply ginv_set_pc; auto.
  - destruct (a_stop s); auto. apply ginv_set_pc; auto. apply ginv_cleanup. auto.
Qed.
Lemma ginv_body_end b e s : ginv s -> ginv (abody_end b e s).
Proof.
  intros G. unfold abody_end. destruct (nth_error (a_bodies s) b) as [[c|x]|] eqn:B; auto.
  assert (H : ginv (Ast (a_tasks s) (put (a_bodies s) b (BEnded e)) (a_pending s) (a_clean s) (a_stop s) (a_log s ++ [Ended b e]))).
  { destruct G as [G1 G2 G3 G4 G5 G6 G7 G8].
    assert (Z : forall k, acleanups k (a_log s ++ [Ended b e]) = acleanups k (a_log s)) by (intros k; rewrite acleanups_app; unfold acleanups at 2; simpl; lia).
    constructor; simpl; rewrite ?put_length; auto.
    - intros. rewrite Z. eauto.
    - intros. rewrite Z. auto.
    - intros. rewrite Z. auto.
    - intros. rewrite Z. auto.
    - intros k H. rewrite Z in H. apply in_app_iff. left. auto.
    - intros k x E. apply nth_error_put_iff in E. apply in_app_iff. destruct E as [(-> & X & _)|[_ E]]; [injection X as ->; right; left; auto|left; auto]. }
  destruct e; auto. destruct c; auto.
Qed.
Lemma ginv_step sh s o : ginv s -> ginv (astep sh s o).
Proof.
  intros G. destruct o; simpl.
  - destruct G as [G1 G2 G3 G4 G5 G6 G7 G8]. constructor; simpl; auto.
    + intros i x b E O. apply nth_error_app_cases in E. destruct E as [E|[<-|[]]]; [eauto|discriminate].
    + intros i j x y b E1 E2 O1 O2. assert (H : forall k z, nth_error (a_tasks s ++ [ANew]) k = Some z -> owned z = Some b -> nth_error (a_tasks s) k = Some z).
      { intros k z E O. apply nth_error_app_cases in E. destruct E as [E|[<-|[]]]; [auto|discriminate]. }
      eapply (G2 i j); eauto.
    + intros i x b E O. apply nth_error_app_cases in E. destruct E as [E|[<-|[]]]; [eauto|discriminate].
  - apply ginv_run_task. auto.
  - apply ginv_body_end. auto.
  - destruct G as [G1 G2 G3 G4 G5 G6 G7 G8]. constructor; simpl; auto.
Qed.
Lemma ginv_run sh ops : ginv (arun sh ops).
Proof.
  unfold arun. assert (H : forall s, ginv s -> ginv (fold_left (astep sh) ops s)); [|apply H, ginv_init].
  induction ops as [|o ops IH]; intros s G; simpl; auto. apply IH, ginv_step, G.
Qed.

(** In every schedule, with or without [shield], no clean-up is called twice, and none is called that was not returned. *)
Theorem C23_at_most_once : forall shield ops b,
  let log := a_log (arun shield ops) in
  acleanups b log <= 1 /\ (acleanups b log > 0 -> In (Ended b (BReturned true)) log).
Proof.
  intros sh ops b log. pose proof (ginv_run sh ops) as G. split; [apply (g_le1 _ G)|]. intros H. apply (g_returned _ G). auto.
Qed.
Print Assumptions C23_at_most_once.

(** ** Without overlapping changes *)

(** No effect task waits for a body. *)
Definition idle_pc (x : apc) : Prop := match x with AWaitPrev _ | AWaitBody _ | AWaitCancel _ => False | _ => True end.
Definition quiet (s : ast) : Prop := forall i x, nth_error (a_tasks s) i = Some x -> idle_pc x.
(** The guard: the task of a new effect starts only when the previous body has ended and its result was recorded, and
    no body raises. *)
Definition calm (s : ast) (o : aop) : Prop :=
  match o with
  | ARunTask i => nth_error (a_tasks s) i = Some ANew -> quiet s
  | ABodyEnd _ BRaised => False
  | _ => True
  end.
Fixpoint calm_run (shield : bool) (s : ast) (ops : list aop) : Prop :=
  match ops with [] => True | o :: r => calm s o /\ calm_run shield (astep shield s o) r end.

Lemma running_app a : forall b acc, running (a ++ b) acc = running b (running a acc).
Proof. induction a as [|[x|x e|x] a IH]; intros b acc; simpl; auto. Qed.
Lemma oat_nil : one_at_a_time [].
Proof. intros a b E. destruct a; [simpl; lia|discriminate]. Qed.
Lemma oat_snoc l e : one_at_a_time l -> length (running (l ++ [e]) []) <= 1 -> one_at_a_time (l ++ [e]).
Proof.
  intros H L a b E. destruct b as [|y b] using rev_ind.
  - rewrite app_nil_r in E. subst a. auto.
  - rewrite app_assoc in E. apply app_inj_tail in E. destruct E as [E _]. apply (H a b). auto.
Qed.

Record calm_inv (s : ast) : Prop := {
  c_pcs : forall i x, nth_error (a_tasks s) i = Some x -> x <> AFailed /\ forall p, x <> AWaitPrev p;
  c_noraise : forall b, nth_error (a_bodies s) b <> Some (BEnded BRaised);
  c_active : (quiet s /\ a_pending s = None /\ running (a_log s) [] = [] /\ (forall b c, nth_error (a_bodies s) b <> Some (BRunning c))) \/
             (exists i x b, nth_error (a_tasks s) i = Some x /\ owned x = Some b /\ a_pending s = Some b /\ a_clean s = None /\
                (forall j y, nth_error (a_tasks s) j = Some y -> j <> i -> idle_pc y) /\
                (forall b' c, b' <> b -> nth_error (a_bodies s) b' <> Some (BRunning c)) /\
                running (a_log s) [] = match nth_error (a_bodies s) b with Some (BRunning _) => [b] | _ => [] end);
  c_delivered : forall b, nth_error (a_bodies s) b = Some (BEnded (BReturned true)) ->
                a_clean s = Some b \/ acleanups b (a_log s) = 1 \/ exists i x, nth_error (a_tasks s) i = Some x /\ owned x = Some b;
  c_keeper : forall b, a_clean s = Some b -> exists i, nth_error (a_tasks s) i = Some AWaitStop;
  c_oat : one_at_a_time (a_log s);
  c_logged : forall b e, In (Ended b e) (a_log s) -> nth_error (a_bodies s) b = Some (BEnded e)
}.
Lemma calm_init : calm_inv ainit.
Proof.
  constructor; simpl; try (intros [|i]; intros; discriminate); try discriminate; try (intros; contradiction).
  - left. split; [intros [|i] x E; discriminate|]. repeat split. intros [|b] c; discriminate.
  - apply oat_nil.
Qed.
Lemma idle_owned x : idle_pc x -> owned x = None.
Proof. destruct x; simpl; auto; contradiction. Qed.

(** A task that waits for nothing runs the stored clean-up and returns. *)
Lemma calm_stop i s : nth_error (a_tasks s) i = Some AWaitStop -> ginv s -> calm_inv s -> calm_inv (set_pc i ADone (acleanup s)).
Proof.
  intros T G [C1 C2 C3 C4 C5 C6 C7]. unfold acleanup. destruct (a_clean s) as [c|] eqn:CL.
  - assert (R : forall l, running (l ++ [ACleaned c]) [] = running l []) by (intros l; rewrite running_app; auto).
    assert (AC : forall k, acleanups k (a_log s ++ [ACleaned c]) = acleanups k (a_log s) + if Nat.eqb c k then 1 else 0) by (intros k; rewrite acleanups_app, acleanups_one; auto).
    constructor; simpl; auto.
    + intros j x E. apply nth_error_put_iff in E. destruct E as [(-> & -> & _)|[_ E]]; [split; [|intros p]; discriminate|eauto].
    + left. destruct C3 as [(Q & P & RN & B)|(? & ? & ? & _ & _ & _ & X & _)]; [|congruence]. rewrite R. split; [|auto].
      intros j x E. simpl in E. apply nth_error_put_iff in E. destruct E as [(-> & -> & _)|[_ E]]; [exact I|eauto].
    + intros b E. rewrite AC. destruct (C4 b E) as [X|[X|(j & x & E' & O)]].
      * right. left. injection X as ->. rewrite (g_once _ G b CL), Nat.eqb_refl. auto.
      * destruct (Nat.eqb_spec c b); [subst; rewrite (g_once _ G b CL) in X; discriminate|]. right. left. lia.
      * right. right. exists j, x. rewrite put_other; auto. intros <-. rewrite T in E'. injection E' as <-. discriminate.
    + discriminate.
    + apply oat_snoc; auto. rewrite R. destruct (C6 (a_log s) []) ; [rewrite app_nil_r; auto|auto|auto].
    + intros b e J. apply in_app_iff in J. destruct J as [J|[J|[]]]; [auto|discriminate].
  - constructor; simpl; auto; try congruence.
    + intros j x E. apply nth_error_put_iff in E. destruct E as [(-> & -> & _)|[_ E]]; [split; [|intros p]; discriminate|eauto].
    + destruct C3 as [(Q & P & RN & B)|(j & x & b & E & O & P & X & ID & B & RN)].
      * left. split; auto. intros j x E. simpl in E. apply nth_error_put_iff in E. destruct E as [(-> & -> & _)|[_ E]]; [exact I|eauto].
      * right. exists j, x, b. assert (N : i <> j) by (intros <-; rewrite T in E; injection E as <-; discriminate). simpl. rewrite put_other by auto.
        split; [auto|]. split; [auto|]. split; [auto|]. split; [auto|]. split; [|auto].
        intros k y E' N'. apply nth_error_put_iff in E'. destruct E' as [(-> & -> & _)|[_ E']]; [exact I|eauto].
    + intros b E. destruct (C4 b E) as [X|[X|(j & x & E' & O)]]; [congruence|auto|]. right. right. exists j, x. rewrite put_other; auto.
      intros <-. rewrite T in E'. injection E' as <-. discriminate.
Qed.

(** A new effect starts. *)
Lemma calm_begin i s : nth_error (a_tasks s) i = Some ANew -> quiet s -> a_pending s = None -> ginv s -> calm_inv s -> calm_inv (begin_body i s).
Proof.
  intros T Q P G C.
  assert (LI : i < length (a_tasks s)) by (apply nth_error_Some; congruence).
  (* the clean-up first *)
  set (s1 := acleanup s). assert (C' : calm_inv s1 /\ a_tasks s1 = a_tasks s /\ a_bodies s1 = a_bodies s /\ a_clean s1 = None /\ quiet s1 /\ running (a_log s1) [] = []).
  { destruct C as [C1 C2 C3 C4 C5 C6 C7]. destruct C3 as [(_ & _ & RN & B)|(j & x & b & E & O & _)].
    2: { exfalso. pose proof (idle_owned _ (Q j x E)). congruence. }
    subst s1. unfold acleanup. destruct (a_clean s) as [c|] eqn:CL.
    - assert (R : forall l, running (l ++ [ACleaned c]) [] = running l []) by (intros l; rewrite running_app; auto). simpl. rewrite R.
      split; [|repeat split; auto]. constructor; simpl; auto; try discriminate.
      + left. rewrite R. auto.
      + intros b E. rewrite acleanups_app, acleanups_one. destruct (C4 b E) as [X|[X|(j & x & E' & O)]].
        * right. left. injection X as ->. rewrite (g_once _ G b CL), Nat.eqb_refl. auto.
        * destruct (Nat.eqb_spec c b); [subst; rewrite (g_once _ G b CL) in X; discriminate|]. right. left. lia.
        * right. right. eauto.
      + apply oat_snoc; auto. rewrite R, RN. auto.
      + intros b e J. apply in_app_iff in J. destruct J as [J|[J|[]]]; [auto|discriminate].
    - split; [|repeat split; auto]. constructor; auto; rewrite CL; auto; try discriminate. }
  pose proof (ginv_cleanup s G) as G1. fold s1 in G1. unfold begin_body. fold s1. cbv zeta. clearbody s1.
  destruct C' as ([C1 C2 C3 C4 C5 C6 C7] & ET & EB & EC & Q1 & RN).
  assert (B1 : forall b c, nth_error (a_bodies s1) b <> Some (BRunning c)).
  { destruct C3 as [(_ & _ & _ & B)|(j & x & b & E & O & _)]; auto. exfalso. pose proof (idle_owned _ (Q1 j x E)). congruence. }
  set (b := length (a_bodies s1)) in *.
  assert (AC : forall k, acleanups k (a_log s1 ++ [Began b]) = acleanups k (a_log s1)) by (intros k; rewrite acleanups_app; unfold acleanups at 2; simpl; lia).
  assert (NB : nth_error (a_bodies s1 ++ [BRunning false]) b = Some (BRunning false)) by (rewrite nth_error_app2 by (unfold b; lia); unfold b; rewrite Nat.sub_diag; auto).
  assert (OLD : forall k y, nth_error (a_bodies s1 ++ [BRunning false]) k = Some y -> k <> b -> nth_error (a_bodies s1) k = Some y).
  { intros k y E N. destruct (Nat.lt_ge_cases k b); [rewrite nth_error_app1 in E; auto|]. rewrite nth_error_app2 in E by auto. fold b in E. destruct (k - b) as [|[|n]] eqn:D; [lia|discriminate|discriminate]. }
  rewrite <- ET in *.
  constructor; simpl.
  - intros j x E. apply nth_error_put_iff in E. destruct E as [(-> & -> & _)|[_ E]]; [split; [|intros p]; discriminate|eauto].
  - intros k E. destruct (Nat.eq_dec k b) as [->|N]; [congruence|]. apply OLD in E; auto. eapply C2; eauto.
  - right. exists i, (AWaitBody b), b. split; [apply put_same; auto|]. split; [auto|]. split; [auto|]. split; [auto|]. split; [|split].
    + intros j y E N. apply nth_error_put_iff in E. destruct E as [(-> & _)|[_ E]]; [congruence|]. eapply Q1; eauto.
    + intros b' c N E. apply OLD in E; auto. eapply B1; eauto.
    + rewrite NB, running_app, RN. auto.
  - intros k E. rewrite AC. assert (N : k <> b) by congruence. apply OLD in E; auto. destruct (C4 k E) as [X|[X|(j & x & E' & O)]]; auto.
    exfalso. pose proof (idle_owned _ (Q1 j x E')). congruence.
  - rewrite EC. discriminate.
  - apply oat_snoc; auto. rewrite running_app, RN. auto.
  - intros k e J. apply in_app_iff in J. destruct J as [J|[J|[]]]; [|discriminate]. specialize (C7 k e J). rewrite nth_error_app1; auto. apply nth_error_Some. congruence.
Qed.

(** The active task records the result of its body. *)
Lemma calm_record i x b e s : nth_error (a_tasks s) i = Some x -> owned x = Some b -> nth_error (a_bodies s) b = Some (BEnded e) -> ginv s -> calm_inv s ->
  calm_inv (set_pc i AWaitStop (store b e (set_pending None s))).
Proof.
  intros T O E G [C1 C2 C3 C4 C5 C6 C7].
  assert (LI : i < length (a_tasks s)) by (apply nth_error_Some; congruence).
  destruct C3 as [(Q & _)|(j & y & b' & T' & O' & P & CL & ID & B & RN)].
  { exfalso. pose proof (idle_owned _ (Q i x T)). congruence. }
  assert (j = i). { destruct (Nat.eq_dec i j); auto. pose proof (idle_owned _ (ID i x T n)). congruence. } subst j.
  rewrite T in T'. injection T' as <-. rewrite O in O'. injection O' as <-. rewrite E in RN.
  assert (ET : forall e', a_tasks (store b e' (set_pending None s)) = a_tasks s) by (intros [[|]| |]; reflexivity).
  assert (EB : forall e', a_bodies (store b e' (set_pending None s)) = a_bodies s) by (intros [[|]| |]; reflexivity).
  assert (EL : forall e', a_log (store b e' (set_pending None s)) = a_log s) by (intros [[|]| |]; reflexivity).
  assert (EP : forall e', a_pending (store b e' (set_pending None s)) = None) by (intros [[|]| |]; reflexivity).
  assert (EC : a_clean (store b e (set_pending None s)) = match e with BReturned true => Some b | _ => None end) by (destruct e as [[|]| |]; simpl; auto).
  constructor; simpl; rewrite ?ET, ?EB, ?EL, ?EP.
  - intros j y E'. apply nth_error_put_iff in E'. destruct E' as [(-> & -> & _)|[_ E']]; [split; [|intros p]; discriminate|eauto].
  - auto.
  - left. split; [|repeat split; auto].
    + intros j y E'. simpl in E'. rewrite ET in E'. apply nth_error_put_iff in E'. destruct E' as [(-> & -> & _)|[N E']]; [exact I|eauto].
    + intros b' c E'. destruct (Nat.eq_dec b' b) as [->|N]; [congruence|]. eapply B; eauto.
  - intros k E'. rewrite EC. destruct (Nat.eq_dec k b) as [->|N].
    + rewrite E in E'. injection E' as ->. auto.
    + destruct (C4 k E') as [X|[X|(j & y & T' & O')]]; [congruence|auto|]. exfalso. destruct (Nat.eq_dec j i) as [->|NJ]; [congruence|].
      pose proof (idle_owned _ (ID j y T' NJ)). congruence.
  - intros k _. exists i. apply put_same. auto.
  - auto.
  - auto.
Qed.
Lemma calm_cancel sh b s : calm_inv s -> calm_inv (acancel sh b s).
Proof.
  intros C. unfold acancel. destruct sh; auto. destruct (nth_error (a_bodies s) b) as [[c|e]|] eqn:E; auto. destruct C as [C1 C2 C3 C4 C5 C6 C7].
  assert (LB : b < length (a_bodies s)) by (apply nth_error_Some; congruence).
  constructor; simpl; auto.
  - intros k E'. apply nth_error_put_iff in E'. destruct E' as [(-> & X & _)|[_ E']]; [discriminate|]. eapply C2; eauto.
  - destruct C3 as [(Q & P & RN & B)|(i & x & b' & T & O & P & CL & ID & B & RN)]; [exfalso; eapply B; eauto|].
    assert (b' = b) by (destruct (Nat.eq_dec b b'); auto; exfalso; eapply B; eauto). subst b'.
    right. exists i, x, b. split; [auto|]. split; [auto|]. split; [auto|]. split; [auto|]. split; [auto|]. split.
    + intros k c' N E'. apply nth_error_put_iff in E'. destruct E' as [(-> & _)|[_ E']]; [congruence|]. eapply B; eauto.
    + simpl. rewrite put_same by auto. rewrite RN, E. auto.
  - intros k E'. apply nth_error_put_iff in E'. destruct E' as [(-> & X & _)|[_ E']]; [discriminate|]. auto.
  - intros k e J. specialize (C7 k e J). rewrite put_other; auto. congruence.
Qed.
(** A task that waits for its body now waits for the cancellation. *)
Lemma calm_switch i b s : nth_error (a_tasks s) i = Some (AWaitBody b) -> calm_inv s -> calm_inv (set_pc i (AWaitCancel b) s).
Proof.
  intros T [C1 C2 C3 C4 C5 C6 C7]. assert (LI : i < length (a_tasks s)) by (apply nth_error_Some; congruence). constructor; simpl; auto.
  - intros j y E'. apply nth_error_put_iff in E'. destruct E' as [(-> & -> & _)|[_ E']]; [split; [|intros p]; discriminate|eauto].
  - destruct C3 as [(Q & _)|(j & y & b' & T' & O' & P & CL & ID & B & RN)]; [exfalso; exact (Q i _ T)|].
    assert (j = i). { destruct (Nat.eq_dec i j); auto. exfalso. exact (ID i _ T n). } subst j. rewrite T in T'. injection T' as <-. simpl in O'. injection O' as <-.
    right. exists i, (AWaitCancel b), b. split; [apply put_same; auto|]. split; [auto|]. split; [auto|]. split; [auto|]. split; [|auto].
    intros j y E' N. simpl in E'. apply nth_error_put_iff in E'. destruct E' as [(-> & _)|[_ E']]; [congruence|]. eauto.
  - intros k E'. destruct (C4 k E') as [X|[X|(j & y & T' & O')]]; auto. right. right. destruct (Nat.eq_dec j i) as [->|N].
    + rewrite T in T'. injection T' as <-. exists i, (AWaitCancel b). split; [apply put_same; auto|auto].
    + exists j, y. rewrite put_other by auto. auto.
  - intros k H. destruct (C5 k H) as (j & E'). exists j. rewrite put_other; auto. intros <-. congruence.
Qed.
Lemma put_put {A} (l : list A) : forall i x y, put (put l i x) i y = put l i y.
Proof. induction l; intros [|i] x y; simpl; auto. f_equal. auto. Qed.

Lemma calm_task sh i s : calm s (ARunTask i) -> ginv s -> calm_inv s -> calm_inv (arun_task sh i s).
Proof.
  intros K G C. unfold arun_task. simpl in K. destruct (nth_error (a_tasks s) i) as [x|] eqn:T; auto.
  destruct x as [|p|b|b| | |]; auto.
  - specialize (K eq_refl). assert (P : a_pending s = None).
    { destruct (c_active _ C) as [(_ & P & _)|(j & y & b & E & O & _)]; auto. exfalso. pose proof (idle_owned _ (K j y E)). congruence. }
    rewrite P. apply calm_begin; auto.
  - exfalso. destruct (c_pcs _ C i _ T) as [_ N]. apply (N p eq_refl).
  - destruct (nth_error (a_bodies s) b) as [[c|e]|] eqn:B.
    + destruct (a_stop s); auto. apply calm_switch; [|apply calm_cancel; auto]. unfold acancel. destruct sh; auto. rewrite B. auto.
    + cbv zeta. destruct e; [| |exfalso; eapply (c_noraise _ C); eauto]; eapply calm_record; eauto.
    + destruct (a_stop s); auto. apply calm_switch; [|apply calm_cancel; auto]. unfold acancel. destruct sh; auto. rewrite B. auto.
  - destruct (nth_error (a_bodies s) b) as [[c|e]|] eqn:B; auto.
    (* recording and cleaning up in one step is recording followed by stopping *)
    assert (EQ : set_pc i ADone (acleanup (unpend b (store b e s))) = set_pc i ADone (acleanup (set_pc i AWaitStop (store b e (set_pending None s))))).
    { assert (P : a_pending s = Some b).
      { destruct (c_active _ C) as [(Q & _)|(j & y & b' & T' & O' & P & _ & ID & _)]; [exfalso; exact (Q i _ T)|].
        assert (j = i) by (destruct (Nat.eq_dec i j); auto; exfalso; exact (ID i _ T n)). subst j. rewrite T in T'. injection T' as <-. simpl in O'. congruence. }
      assert (U : unpend b (store b e s) = store b e (set_pending None s)).
      { rewrite store_pending. unfold unpend. assert (PS : a_pending (store b e s) = Some b) by (destruct e as [[|]| |]; auto). rewrite PS, Nat.eqb_refl. auto. }
      rewrite U. rewrite !set_pc_cleanup. f_equal. unfold set_pc. cbn [a_tasks a_bodies a_pending a_clean a_stop a_log]. rewrite put_put. reflexivity. }
    assert (G' : ginv (set_pc i AWaitStop (store b e (set_pending None s)))).
    { rewrite store_pending, set_pc_pending. apply ginv_pending. eapply ginv_store; eauto. }
    assert (LI : i < length (a_tasks s)) by (apply nth_error_Some; congruence).
    assert (H : calm_inv (set_pc i ADone (acleanup (unpend b (store b e s))))).
    { rewrite EQ. apply calm_stop; auto.
      - simpl. rewrite put_same; auto. destruct e as [[|]| |]; auto.
      - eapply calm_record; eauto. }
    destruct e; auto. exfalso; eapply (c_noraise _ C); eauto.
  - destruct (a_stop s); auto. apply calm_stop; auto.
Qed.
Lemma calm_end b e s : e <> BRaised -> calm_inv s -> calm_inv (abody_end b e s).
Proof.
  intros NR C. unfold abody_end. destruct (nth_error (a_bodies s) b) as [[c|x]|] eqn:B; auto.
  assert (LB : b < length (a_bodies s)) by (apply nth_error_Some; congruence).
  assert (H : calm_inv (Ast (a_tasks s) (put (a_bodies s) b (BEnded e)) (a_pending s) (a_clean s) (a_stop s) (a_log s ++ [Ended b e]))).
  { destruct C as [C1 C2 C3 C4 C5 C6 C7].
    assert (Z : forall k, acleanups k (a_log s ++ [Ended b e]) = acleanups k (a_log s)) by (intros k; rewrite acleanups_app; unfold acleanups at 2; simpl; lia).
    destruct C3 as [(Q & P & RN & BR)|(i & y & b' & T & O & P & CL & ID & BR & RN)]; [exfalso; eapply BR; eauto|].
    assert (b' = b) by (destruct (Nat.eq_dec b b'); auto; exfalso; eapply BR; eauto). subst b'. rewrite B in RN.
    assert (RZ : running (a_log s ++ [Ended b e]) [] = []).
    { rewrite running_app, RN. simpl. destruct (Nat.eq_dec b b); congruence. }
    constructor; simpl; auto.
    - intros k E'. apply nth_error_put_iff in E'. destruct E' as [(-> & X & _)|[_ E']]; [congruence|]. eapply C2; eauto.
    - right. exists i, y, b. split; [auto|]. split; [auto|]. split; [auto|]. split; [auto|]. split; [auto|]. split.
      + intros k c' N E'. simpl in E'. rewrite put_other in E' by auto. eapply BR; eauto.
      + simpl. rewrite put_same by auto. auto.
    - intros k E'. rewrite Z. destruct (Nat.eq_dec k b) as [->|N]; [right; right; eauto|]. rewrite put_other in E' by auto. auto.
    - apply oat_snoc; auto. rewrite RZ. simpl. lia.
    - intros k x J. apply in_app_iff in J. destruct J as [J|[J|[]]].
      + specialize (C7 k x J). rewrite put_other; auto. intros <-. congruence.
      + injection J as <- <-. apply put_same. auto. }
  destruct e; auto. destruct c; auto.
Qed.
Lemma calm_step sh s o : calm s o -> ginv s -> calm_inv s -> calm_inv (astep sh s o).
Proof.
  intros K G C. destruct o; simpl.
  - destruct C as [C1 C2 C3 C4 C5 C6 C7]. constructor; simpl; auto.
    + intros i x E. apply nth_error_app_cases in E. destruct E as [E|[<-|[]]]; [eauto|split; [|intros p]; discriminate].
    + destruct C3 as [(Q & P & RN & B)|(i & x & b & T & O & P & CL & ID & B & RN)].
      * left. split; auto. intros i x E. simpl in E. apply nth_error_app_cases in E. destruct E as [E|[<-|[]]]; [eauto|exact I].
      * right. exists i, x, b. simpl. split; [rewrite nth_error_app1; auto; apply nth_error_Some; congruence|]. split; [auto|]. split; [auto|]. split; [auto|]. split; [|auto].
        intros j y E N. apply nth_error_app_cases in E. destruct E as [E|[<-|[]]]; [eauto|exact I].
    + intros b E. destruct (C4 b E) as [X|[X|(j & y & T' & O')]]; auto. right. right. exists j, y. rewrite nth_error_app1; auto. apply nth_error_Some. congruence.
    + intros b H. destruct (C5 b H) as (j & E'). exists j. rewrite nth_error_app1; auto. apply nth_error_Some. congruence.
  - apply calm_task; auto.
  - apply calm_end; auto. intros ->. exact K.
  - destruct C as [C1 C2 C3 C4 C5 C6 C7]. constructor; simpl; auto.
Qed.
Lemma calm_steps sh ops : forall s, calm_run sh s ops -> ginv s -> calm_inv s -> calm_inv (fold_left (astep sh) ops s).
Proof. induction ops as [|o ops IH]; intros s K G C; simpl; auto. destruct K as [K1 K2]. apply IH; [exact K2|apply ginv_step; auto|apply calm_step; auto]. Qed.

(** If no dependency change overlaps with a running body and no body raises: one body runs at a time in every schedule,
    and when the unmounted component's effect tasks have all returned, each returned clean-up was called exactly once. *)
Theorem C23_async_effect_partial : forall shield ops,
  calm_run shield ainit ops ->
  let s := arun shield ops in
  one_at_a_time (a_log s) /\
  (all_done s -> forall b, In (Ended b (BReturned true)) (a_log s) -> acleanups b (a_log s) = 1).
Proof.
  intros sh ops K s. pose proof (ginv_run sh ops) as G. pose proof (calm_steps sh ops ainit K ginv_init calm_init) as C.
  fold (arun sh ops) in C. fold s in G, C. split; [apply (c_oat _ C)|]. intros [_ D] b J. apply (c_logged _ C) in J.
  destruct (c_delivered _ C b J) as [X|[X|(i & x & T & O)]]; auto.
  - exfalso. destruct (c_keeper _ C b X) as (i & T). specialize (D i _ T). discriminate.
  - exfalso. rewrite (D i x T) in O. discriminate.
Qed.
Print Assumptions C23_async_effect_partial.

Definition demo23 : list aop :=
  [ASpawn; ARunTask 0; ABodyEnd 0 (BReturned true); ARunTask 0; ASpawn; ARunTask 1; AUnmount; ARunTask 1; ABodyEnd 1 (BReturned true); ARunTask 1; ARunTask 0].
Lemma quiet_dec_demo (s : ast) : forallb (fun x => match x with AWaitPrev _ | AWaitBody _ | AWaitCancel _ => false | _ => true end) (a_tasks s) = true -> quiet s.
Proof. intros H i x E. rewrite forallb_forall in H. specialize (H x (nth_error_In _ _ E)). destruct x; simpl; auto; discriminate. Qed.
Example C23_example : calm_run false ainit demo23 /\ all_done (arun false demo23) /\
  a_log (arun false demo23) = [Began 0; Ended 0 (BReturned true); ACleaned 0; Began 1; Ended 1 (BReturned true); ACleaned 1].
Proof.
  split; [|split; [|vm_compute; reflexivity]].
  - unfold demo23. simpl. repeat split; auto; try discriminate; intros _; apply quiet_dec_demo; vm_compute; reflexivity.
  - split; [vm_compute; reflexivity|]. intros i x E. vm_compute in E. destruct i as [|[|i]]; try (injection E as <-; reflexivity). destruct i; discriminate.
Qed.
