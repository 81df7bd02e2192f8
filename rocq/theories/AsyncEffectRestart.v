(** * use_async_effect when the dependencies change while a body runs (C23)
    The machine of AsyncEffect.v without [shield], under a weaker guard than in AsyncEffectProps.v: a change may interrupt a
    running body, as long as that body ends by the cancellation and was not itself started by interrupting another one. *)
From Coq Require Import Arith Bool Lia List.
From Verif Require Import EffectModel EffectProps AsyncEffect AsyncEffectProps.
Import ListNotations.

(** ** Specification *)

(** One body runs, its effect waits for it, all other effects wait for the end of the component or have ended; and the body
    was not started by a change that interrupted the one before it. *)
Definition interruptible (s : ast) : Prop := exists j b, nth_error (a_tasks s) j = Some (AWaitBody b) /\ nth_error (a_bodies s) b = Some (BRunning false) /\
  (forall k x, nth_error (a_tasks s) k = Some x -> k <> j -> idle_pc x) /\
  (forall r, b = S r -> ~ In (Ended r BCancelled) (a_log s)).
(** The guard: an effect starts when nothing is going on or an interruptible body runs; bodies do not raise, and an
    interrupted one ends by the cancellation. *)
Definition mild (s : ast) (o : aop) : Prop :=
  match o with
  | ARunTask i => nth_error (a_tasks s) i = Some ANew -> quiet s \/ interruptible s
  | ABodyEnd _ BRaised => False
  | ABodyEnd b (BReturned _) => forall i, nth_error (a_tasks s) i <> Some (AWaitPrev b)
  | _ => True
  end.
Fixpoint mild_run (s : ast) (ops : list aop) : Prop :=
  match ops with [] => True | o :: r => mild s o /\ mild_run (astep false s o) r end.

(** ** Invariant *)

Definition top_running (s : ast) : list nat :=
  match length (a_bodies s) with 0 => [] | S b => match nth_error (a_bodies s) b with Some (BRunning _) => [b] | _ => [] end end.
Record minv (s : ast) : Prop := {
  m_pcs : forall i x, nth_error (a_tasks s) i = Some x -> x <> AFailed;
  m_noraise : forall b, nth_error (a_bodies s) b <> Some (BEnded BRaised);
  m_running : forall b c, nth_error (a_bodies s) b = Some (BRunning c) -> S b = length (a_bodies s) /\ exists i x, nth_error (a_tasks s) i = Some x /\ owned x = Some b;
  m_prev : forall i p, nth_error (a_tasks s) i = Some (AWaitPrev p) -> S p = length (a_bodies s) /\ a_clean s = None /\
     (nth_error (a_bodies s) p = Some (BRunning true) \/ nth_error (a_bodies s) p = Some (BEnded BCancelled)) /\
     (forall j y b, nth_error (a_tasks s) j = Some y -> owned y = Some b -> b = p) /\ (forall j q, nth_error (a_tasks s) j = Some (AWaitPrev q) -> j = i);
  m_owner : forall i x b, nth_error (a_tasks s) i = Some x -> owned x = Some b ->
     (S b = length (a_bodies s) /\ a_clean s = None) \/ (S (S b) = length (a_bodies s) /\ nth_error (a_bodies s) b = Some (BEnded BCancelled));
  m_pending : forall b, a_pending s = Some b -> S b = length (a_bodies s) /\ exists i x, nth_error (a_tasks s) i = Some x /\ owned x = Some b;
  m_fresh : forall i x b, nth_error (a_tasks s) i = Some x -> owned x = Some b -> S b = length (a_bodies s) ->
     a_pending s = Some b \/ exists r, b = S r /\ nth_error (a_bodies s) r = Some (BEnded BCancelled);
  m_delivered : forall b, nth_error (a_bodies s) b = Some (BEnded (BReturned true)) ->
     a_clean s = Some b \/ acleanups b (a_log s) = 1 \/ exists i x, nth_error (a_tasks s) i = Some x /\ owned x = Some b;
  m_keeper : forall b, a_clean s = Some b -> exists i, nth_error (a_tasks s) i = Some AWaitStop;
  m_oat : one_at_a_time (a_log s);
  m_log : running (a_log s) [] = top_running s;
  m_logged : forall b e, In (Ended b e) (a_log s) -> nth_error (a_bodies s) b = Some (BEnded e)
}.
Lemma minv_init : minv ainit.
Proof.
  constructor; cbn; try (intros [|i]; intros; discriminate); try discriminate; try (intros; contradiction); try reflexivity. apply oat_nil.
Qed.

(** The stored clean-up is called. *)
Lemma minv_cleanup s : ginv s -> minv s -> minv (acleanup s) /\ a_clean (acleanup s) = None.
Proof.
  intros G M. unfold acleanup. destruct (a_clean s) as [c|] eqn:CL; [|auto]. split; [|reflexivity].
  assert (R : forall l, running (l ++ [ACleaned c]) [] = running l []) by (intros l; rewrite running_app; auto).
  destruct M as [M1 M2 M3 M4 M5 M6 M7 M8 M9 M10 M11 M12]. constructor; cbn [a_tasks a_bodies a_pending a_clean a_stop a_log]; auto.
  - intros i p T. destruct (M4 i p T) as (A & B & C). congruence.
  - intros i x b T O. destruct (M5 i x b T O) as [(A & B)|B]; [congruence|auto].
  - intros b E. rewrite acleanups_app, acleanups_one. destruct (M8 b E) as [X|[X|X]].
    + injection (eq_trans (eq_sym X) CL) as ->. rewrite (g_once _ G c CL), Nat.eqb_refl. auto.
    + right. left. destruct (Nat.eqb_spec c b); [subst; rewrite (g_once _ G b CL) in X; discriminate|lia].
    + auto.
  - discriminate.
  - apply oat_snoc; auto. rewrite R. apply (M10 (a_log s) []). rewrite app_nil_r. reflexivity.
  - rewrite R. exact M11.
  - intros b e J. apply in_app_iff in J. destruct J as [J|[J|[]]]; [auto|discriminate].
Qed.
(** A task that owns no body and is not the keeper of a clean-up moves on. *)
Lemma minv_done i s : nth_error (a_tasks s) i = Some AWaitStop -> a_clean s = None -> minv s -> minv (set_pc i ADone s).
Proof.
  intros T CL [M1 M2 M3 M4 M5 M6 M7 M8 M9 M10 M11 M12].
  assert (K : forall j y, nth_error (put (a_tasks s) i ADone) j = Some y -> y = ADone \/ nth_error (a_tasks s) j = Some y).
  { intros j y E. apply nth_error_put_iff in E. destruct E as [(_ & -> & _)|[_ E]]; auto. }
  assert (KO : forall b, (exists j y, nth_error (a_tasks s) j = Some y /\ owned y = Some b) -> exists j y, nth_error (put (a_tasks s) i ADone) j = Some y /\ owned y = Some b).
  { intros b (j & y & E & O). exists j, y. split; [|exact O]. rewrite put_other; auto. intros <-. rewrite T in E. injection E as <-. discriminate. }
  constructor; cbn [set_pc a_tasks a_bodies a_pending a_clean a_stop a_log]; auto.
  - intros j y E. destruct (K j y E) as [->|E']; [discriminate|eauto].
  - intros b c E. destruct (M3 b c E) as [A B]. auto.
  - intros j p E. destruct (K j _ E) as [X|E']; [discriminate|]. destruct (M4 j p E') as (A & B & C & D & F). split; [exact A|]. split; [exact B|]. split; [exact C|]. split.
    + intros k y b E2 O. destruct (K k y E2) as [->|E2']; [discriminate|eauto].
    + intros k q E2. destruct (K k _ E2) as [X|E2']; [discriminate|eauto].
  - intros j x b E O. destruct (K j x E) as [->|E']; [discriminate|eauto].
  - intros b P. destruct (M6 b P) as [A B]. auto.
  - intros j x b E O. destruct (K j x E) as [->|E']; [discriminate|eauto].
  - intros b E. destruct (M8 b E) as [X|[X|X]]; auto.
  - intros b X. congruence.
Qed.

(** The task of an effect starts a body. *)
Lemma minv_begin i s x : nth_error (a_tasks s) i = Some x -> owned x = None -> ginv s -> minv s ->
  (forall j y b, nth_error (a_tasks s) j = Some y -> owned y = Some b -> S b = length (a_bodies s) /\ nth_error (a_bodies s) b = Some (BEnded BCancelled)) ->
  (forall j p, nth_error (a_tasks s) j = Some (AWaitPrev p) -> j = i) ->
  (forall b c, nth_error (a_bodies s) b <> Some (BRunning c)) -> minv (begin_body i s).
Proof.
  intros T O G M OW PW NR. destruct (minv_cleanup s G M) as [M' CL'].
  assert (EB : a_bodies (acleanup s) = a_bodies s /\ a_tasks (acleanup s) = a_tasks s) by (unfold acleanup; destruct (a_clean s); auto). destruct EB as [EB ET].
  rewrite <- EB in OW, NR. rewrite <- ET in OW, PW, T. pose proof (ginv_cleanup s G) as G'. unfold begin_body. cbv zeta. set (s1 := acleanup s) in *. clearbody s1. clear s G M EB ET.
  assert (LI : i < length (a_tasks s1)) by (apply nth_error_Some; congruence). destruct M' as [M1 M2 M3 M4 M5 M6 M7 M8 M9 M10 M11 M12].
  set (n := length (a_bodies s1)) in *.
  assert (OLD : forall k y, nth_error (a_bodies s1 ++ [BRunning false]) k = Some y -> k <> n -> nth_error (a_bodies s1) k = Some y).
  { intros k y E N. destruct (Nat.lt_ge_cases k n); [rewrite nth_error_app1 in E; auto|]. rewrite nth_error_app2 in E by auto. fold n in E. destruct (k - n) as [|[|m]] eqn:D; [lia|discriminate|discriminate]. }
  assert (KEEP : forall k y, nth_error (a_bodies s1) k = Some y -> nth_error (a_bodies s1 ++ [BRunning false]) k = Some y).
  { intros k y E. rewrite nth_error_app1; auto. apply nth_error_Some. congruence. }
  assert (NEW : nth_error (a_bodies s1 ++ [BRunning false]) n = Some (BRunning false)) by (rewrite nth_error_app2 by (unfold n; lia); unfold n; rewrite Nat.sub_diag; reflexivity).
  assert (ME : nth_error (put (a_tasks s1) i (AWaitBody n)) i = Some (AWaitBody n)) by (apply put_same; exact LI).
  assert (RN : running (a_log s1) [] = []).
  { rewrite M11. unfold top_running. fold n. destruct n as [|b]; [reflexivity|]. destruct (nth_error (a_bodies s1) b) as [[c|e]|] eqn:E; auto. destruct (NR b c E). }
  assert (AC : forall k, acleanups k (a_log s1 ++ [Began n]) = acleanups k (a_log s1)) by (intros k; rewrite acleanups_app; unfold acleanups at 2; simpl; lia).
  assert (K : forall j y, nth_error (put (a_tasks s1) i (AWaitBody n)) j = Some y -> (j = i /\ y = AWaitBody n) \/ (j <> i /\ nth_error (a_tasks s1) j = Some y)).
  { intros j y E. apply nth_error_put_iff in E. destruct E as [(-> & -> & _)|[N E]]; auto. }
  constructor; cbn [a_tasks a_bodies a_pending a_clean a_stop a_log]; rewrite ?app_length; cbn [length]; fold n.
  - intros j y E. destruct (K j y E) as [[_ ->]|[_ E']]; [discriminate|eauto].
  - intros b E. destruct (Nat.eq_dec b n) as [->|N]; [congruence|]. apply (M2 b). auto.
  - intros b c E. destruct (Nat.eq_dec b n) as [->|N]; [|exfalso; apply (NR b c); auto]. split; [lia|]. exists i, (AWaitBody n). auto.
  - intros j p E. exfalso. destruct (K j _ E) as [[_ X]|[N E']]; [discriminate|]. apply N. exact (PW j p E').
  - intros j y b E OY. destruct (K j y E) as [[_ ->]|[_ E']].
    + cbn in OY. injection OY as <-. left. split; [lia|exact CL'].
    + right. destruct (OW j y b E' OY) as [A B]. split; [lia|auto].
  - intros b P. injection P as <-. split; [lia|]. exists i, (AWaitBody n). auto.
  - intros j y b E OY L. destruct (K j y E) as [[_ ->]|[_ E']].
    + cbn in OY. injection OY as <-. auto.
    + exfalso. destruct (OW j y b E' OY) as [A B]. lia.
  - intros b E. rewrite AC. assert (N : b <> n) by congruence. destruct (M8 b (OLD b _ E N)) as [X|[X|(j & y & E' & OY)]]; [congruence|auto|].
    exfalso. destruct (OW j y b E' OY) as [_ B]. apply OLD in E; auto. congruence.
  - intros b X. congruence.
  - apply oat_snoc; auto. rewrite running_app, RN. cbn. lia.
  - rewrite running_app, RN. unfold top_running. cbn [a_bodies running]. rewrite app_length. cbn [length]. fold n. rewrite Nat.add_1_r, NEW. reflexivity.
  - intros b e J. apply in_app_iff in J. destruct J as [J|[J|[]]]; [auto|discriminate].
Qed.
Lemma begin_unpend i p s : begin_body i (unpend p s) = begin_body i s.
Proof. destruct s as [ta bo pe cl st lo]. unfold unpend. cbn [a_pending]. destruct pe as [q|]; [destruct (Nat.eqb q p)|]; destruct cl; reflexivity. Qed.

(** A running body is cancelled. *)
Lemma minv_cancel b s : minv s -> minv (acancel false b s).
Proof.
  intros M. unfold acancel. destruct (nth_error (a_bodies s) b) as [[c|e]|] eqn:E; auto. destruct M as [M1 M2 M3 M4 M5 M6 M7 M8 M9 M10 M11 M12].
  assert (LB : b < length (a_bodies s)) by (apply nth_error_Some; congruence).
  assert (K : forall k y, nth_error (put (a_bodies s) b (BRunning true)) k = Some y -> (k = b /\ y = BRunning true) \/ (k <> b /\ nth_error (a_bodies s) k = Some y)).
  { intros k y H. apply nth_error_put_iff in H. destruct H as [(-> & -> & _)|[N H]]; auto. }
  assert (KE : forall k x, nth_error (a_bodies s) k = Some (BEnded x) -> nth_error (put (a_bodies s) b (BRunning true)) k = Some (BEnded x)).
  { intros k x H. rewrite put_other; auto. congruence. }
  constructor; cbn [a_tasks a_bodies a_pending a_clean a_stop a_log]; rewrite ?put_length; auto.
  - intros k H. destruct (K _ _ H) as [[_ X]|[_ H']]; [discriminate|]. exact (M2 k H').
  - intros k c' H. destruct (K _ _ H) as [[-> _]|[_ H']]; eauto.
  - intros i p T. destruct (M4 i p T) as (A & B & C & D & F). split; [exact A|]. split; [exact B|]. split; [|auto]. destruct (Nat.eq_dec p b) as [->|N]; [left; apply put_same; exact LB|]. rewrite put_other by auto. exact C.
  - intros i x k T O. destruct (M5 i x k T O) as [A|[A B]]; auto.
  - intros i x k T O L. destruct (M7 i x k T O L) as [A|(r & A & B)]; [auto|]. right. exists r. auto.
  - intros k H. destruct (K _ _ H) as [[_ X]|[_ H']]; [discriminate|auto].
  - rewrite M11. unfold top_running. cbn [a_bodies]. rewrite put_length. destruct (length (a_bodies s)) as [|k] eqn:LN; [reflexivity|].
    destruct (Nat.eq_dec k b) as [->|N]; [rewrite put_same by (rewrite LN; lia)|rewrite put_other by auto; reflexivity]. rewrite E. reflexivity.
Qed.
(** A task that waits for its body now waits for the cancellation. *)
Lemma minv_switch i b s : nth_error (a_tasks s) i = Some (AWaitBody b) -> minv s -> minv (set_pc i (AWaitCancel b) s).
Proof.
  intros T [M1 M2 M3 M4 M5 M6 M7 M8 M9 M10 M11 M12]. assert (LI : i < length (a_tasks s)) by (apply nth_error_Some; congruence).
  assert (K : forall j y, nth_error (put (a_tasks s) i (AWaitCancel b)) j = Some y -> (j = i /\ y = AWaitCancel b) \/ (j <> i /\ nth_error (a_tasks s) j = Some y)).
  { intros j y E. apply nth_error_put_iff in E. destruct E as [(-> & -> & _)|[N E]]; auto. }
  assert (KW : forall j y k, nth_error (put (a_tasks s) i (AWaitCancel b)) j = Some y -> owned y = Some k -> exists y', nth_error (a_tasks s) j = Some y' /\ owned y' = Some k).
  { intros j y k E O. destruct (K j y E) as [[-> ->]|[_ E']]; [exists (AWaitBody b); auto|eauto]. }
  assert (KO : forall k, (exists j y, nth_error (a_tasks s) j = Some y /\ owned y = Some k) -> exists j y, nth_error (put (a_tasks s) i (AWaitCancel b)) j = Some y /\ owned y = Some k).
  { intros k (j & y & E & O). destruct (Nat.eq_dec j i) as [->|N]; [|exists j, y; rewrite put_other by auto; auto]. rewrite T in E. injection E as <-.
    exists i, (AWaitCancel b). split; [apply put_same; exact LI|exact O]. }
  constructor; cbn [set_pc a_tasks a_bodies a_pending a_clean a_stop a_log]; auto.
  - intros j y E. destruct (K j y E) as [[_ ->]|[_ E']]; [discriminate|eauto].
  - intros k c E. destruct (M3 k c E). auto.
  - intros j p E. destruct (K j _ E) as [[_ X]|[_ E']]; [discriminate|]. destruct (M4 j p E') as (A & B & C & D & F). split; [exact A|]. split; [exact B|]. split; [exact C|]. split.
    + intros m y k E2 O. destruct (KW m y k E2 O) as (y' & X & Y). eauto.
    + intros m q E2. destruct (K m _ E2) as [[_ X]|[_ E2']]; [discriminate|eauto].
  - intros j x k E O. destruct (KW j x k E O) as (y' & X & Y). eauto.
  - intros k P. destruct (M6 k P). auto.
  - intros j x k E O. destruct (KW j x k E O) as (y' & X & Y). eauto.
  - intros k E. destruct (M8 k E) as [X|[X|X]]; auto.
  - intros k X. destruct (M9 k X) as (j & E). exists j. rewrite put_other; auto. intros <-. congruence.
Qed.

(** The task of an ended body records its result. *)
Lemma minv_record i x b e q s : nth_error (a_tasks s) i = Some x -> owned x = Some b -> nth_error (a_bodies s) b = Some (BEnded e) ->
  (q = None \/ (q = a_pending s /\ q <> Some b)) -> ginv s -> minv s -> minv (set_pc i AWaitStop (store b e (set_pending q s))).
Proof.
  intros T O E HQ G [M1 M2 M3 M4 M5 M6 M7 M8 M9 M10 M11 M12]. assert (LI : i < length (a_tasks s)) by (apply nth_error_Some; congruence).
  assert (ET : a_tasks (store b e (set_pending q s)) = a_tasks s) by (destruct e as [[|]| |]; reflexivity).
  assert (EB : a_bodies (store b e (set_pending q s)) = a_bodies s) by (destruct e as [[|]| |]; reflexivity).
  assert (EL : a_log (store b e (set_pending q s)) = a_log s) by (destruct e as [[|]| |]; reflexivity).
  assert (EP : a_pending (store b e (set_pending q s)) = q) by (destruct e as [[|]| |]; reflexivity).
  assert (K : forall j y, nth_error (put (a_tasks s) i AWaitStop) j = Some y -> (j = i /\ y = AWaitStop) \/ (j <> i /\ nth_error (a_tasks s) j = Some y)).
  { intros j y H. apply nth_error_put_iff in H. destruct H as [(-> & -> & _)|[N H]]; auto. }
  assert (KO : forall k, k <> b -> (exists j y, nth_error (a_tasks s) j = Some y /\ owned y = Some k) -> exists j y, nth_error (put (a_tasks s) i AWaitStop) j = Some y /\ owned y = Some k).
  { intros k N (j & y & H & OY). exists j, y. split; [|exact OY]. rewrite put_other; auto. intros <-. congruence. }
  assert (NO : forall j y, j <> i -> nth_error (a_tasks s) j = Some y -> owned y <> Some b) by (intros j y N H OY; apply N; exact (g_owner _ G j i y x b H T OY O)).
  (* the clean-up afterwards *)
  assert (EC : a_clean (store b e (set_pending q s)) = a_clean s \/ (S b = length (a_bodies s) /\ exists c, e = BReturned c /\ a_clean s = None /\ a_clean (store b e (set_pending q s)) = if c then Some b else None)).
  { destruct (M5 i x b T O) as [[A B]|[A B]].
    - destruct e as [[|]| |]; cbn; auto; right; (split; [exact A|]); eexists; eauto.
    - left. rewrite E in B. injection B as ->. reflexivity. }
  assert (ST : nth_error (put (a_tasks s) i AWaitStop) i = Some AWaitStop) by (apply put_same; exact LI).
  constructor; cbn [set_pc a_tasks a_bodies a_pending a_clean a_stop a_log]; rewrite ?ET, ?EB, ?EL, ?EP; auto.
  - intros j y H. destruct (K j y H) as [[_ ->]|[_ H']]; [discriminate|eauto].
  - intros k c H. destruct (M3 k c H) as [A B]. split; [exact A|]. apply KO; [congruence|exact B].
  - intros j p H. destruct (K j _ H) as [[_ X]|[_ H']]; [discriminate|]. destruct (M4 j p H') as (A & B & C & D & F). split; [exact A|]. split; [|split; [exact C|split]].
    + destruct EC as [->|(_ & c & -> & _)]; [exact B|]. exfalso. assert (p = b) by (symmetry; exact (D i x b T O)). subst p. destruct C as [C|C]; congruence.
    + intros m y k H2 OY. destruct (K m y H2) as [[_ ->]|[_ H2']]; [discriminate|eauto].
    + intros m r H2. destruct (K m _ H2) as [[_ X]|[_ H2']]; [discriminate|eauto].
  - intros j y k H OY. destruct (K j y H) as [[_ ->]|[N H']]; [discriminate|]. destruct (M5 j y k H' OY) as [[A B]|A]; [|auto]. left. split; [exact A|].
    destruct EC as [->|(L & _)]; [exact B|]. exfalso. apply (NO j y N H'). rewrite OY. f_equal. lia.
  - intros k X. destruct HQ as [->|[-> NQ]]; [discriminate|]. destruct (M6 k X) as [A B]. split; [exact A|]. apply KO; [congruence|exact B].
  - intros j y k H OY L. destruct (K j y H) as [[_ ->]|[N H']]; [discriminate|]. right. destruct (M5 i x b T O) as [[A _]|[A B]].
    + exfalso. apply (NO j y N H'). rewrite OY. f_equal. lia.
    + exists b. split; [lia|exact B].
  - intros k H. destruct (Nat.eq_dec k b) as [->|N].
    + rewrite E in H. injection H as ->. left. destruct (M5 i x b T O) as [[A B]|[A B]]; [reflexivity|congruence].
    + destruct (M8 k H) as [X|[X|X]]; [|auto|right; right; apply KO; assumption]. destruct EC as [->|(_ & c & _ & X' & _)]; [auto|congruence].
  - intros k _. eauto.
  - rewrite M11. unfold top_running. cbn [set_pc a_bodies]. rewrite EB. reflexivity.
Qed.

(** ** Every step *)

Lemma minv_task i s : mild s (ARunTask i) -> ginv s -> minv s -> minv (arun_task false i s).
Proof.
  intros GD G M. unfold arun_task. cbn [mild] in GD. destruct (nth_error (a_tasks s) i) as [x|] eqn:T; auto. destruct x as [|p|b|b| | |]; auto.
  - destruct (GD eq_refl) as [Q|(j & b & TJ & RB & ID & FR)].
    + assert (NOW : forall j y, nth_error (a_tasks s) j = Some y -> owned y = None) by (intros j y E; apply idle_owned; exact (Q j y E)).
      assert (P : a_pending s = None). { destruct (a_pending s) as [p|] eqn:P; auto. destruct (m_pending _ M p P) as (_ & j & y & E & O). rewrite (NOW j y E) in O. discriminate. }
      rewrite P. apply (minv_begin i s ANew); auto.
      * intros j y b E O. rewrite (NOW j y E) in O. discriminate.
      * intros j p E. destruct (Q j _ E).
      * intros b c E. destruct (m_running _ M b c E) as (_ & j & y & E' & O). rewrite (NOW j y E') in O. discriminate.
    + destruct (m_running _ M b false RB) as [LB _].
      assert (P : a_pending s = Some b).
      { destruct (m_fresh _ M j _ b TJ eq_refl LB) as [P|(r & -> & ER)]; [exact P|]. exfalso. exact (FR r eq_refl (g_ended _ G r _ ER)). }
      rewrite P. cbv zeta. assert (AB : nth_error (a_bodies (acancel false b s)) b = Some (BRunning true)) by (unfold acancel; rewrite RB; cbn [a_bodies]; apply put_same; lia).
      rewrite AB. pose proof (minv_cancel b s M) as M'. assert (ET : a_tasks (acancel false b s) = a_tasks s) by (unfold acancel; rewrite RB; reflexivity).
      assert (CL : a_clean (acancel false b s) = None).
      { unfold acancel. rewrite RB. cbn [a_clean]. destruct (m_owner _ M j _ b TJ eq_refl) as [[_ X]|[X _]]; [exact X|lia]. }
      assert (LB' : S b = length (a_bodies (acancel false b s))) by (unfold acancel; rewrite RB; cbn [a_bodies]; rewrite put_length; exact LB).
      assert (IDS : forall k y, nth_error (a_tasks s) k = Some y -> owned y = None \/ (k = j /\ y = AWaitBody b)).
      { intros k y E. destruct (Nat.eq_dec k j) as [->|N]; [right; split; [reflexivity|congruence]|left; apply idle_owned; exact (ID k y E N)]. }
      assert (NPW : forall k p, nth_error (a_tasks s) k <> Some (AWaitPrev p)).
      { intros k p E. destruct (Nat.eq_dec k j) as [->|N]; [congruence|]. exact (ID k _ E N). }
      set (s1 := acancel false b s) in *. clearbody s1. rewrite <- ET in *. clear ET RB LB P FR G GD ID.
      destruct M' as [M1 M2 M3 M4 M5 M6 M7 M8 M9 M10 M11 M12]. assert (LI : i < length (a_tasks s1)) by (apply nth_error_Some; congruence).
      assert (K : forall k y, nth_error (put (a_tasks s1) i (AWaitPrev b)) k = Some y -> (k = i /\ y = AWaitPrev b) \/ (k <> i /\ nth_error (a_tasks s1) k = Some y)).
      { intros k y H. apply nth_error_put_iff in H. destruct H as [(-> & -> & _)|[N H]]; auto. }
      assert (KO : forall k, (exists j y, nth_error (a_tasks s1) j = Some y /\ owned y = Some k) -> exists j y, nth_error (put (a_tasks s1) i (AWaitPrev b)) j = Some y /\ owned y = Some k).
      { intros k (m & y & E & O). exists m, y. split; [|exact O]. rewrite put_other; auto. intros <-. rewrite T in E. injection E as <-. discriminate. }
      constructor; cbn [set_pc a_tasks a_bodies a_pending a_clean a_stop a_log]; auto.
      * intros k y E. destruct (K k y E) as [[_ ->]|[_ E']]; [discriminate|eauto].
      * intros k c E. destruct (M3 k c E). auto.
      * intros k p E. destruct (K k _ E) as [[-> X]|[_ E']]; [|destruct (NPW k p E')]. injection X as ->. split; [exact LB'|]. split; [exact CL|]. split; [left; exact AB|]. split.
        -- intros m y k E2 O. destruct (K m y E2) as [[_ ->]|[_ E2']]; [discriminate|]. destruct (IDS m y E2') as [X|[_ ->]]; [congruence|]. cbn in O. congruence.
        -- intros m q E2. destruct (K m _ E2) as [[-> _]|[_ E2']]; [reflexivity|destruct (NPW m q E2')].
      * intros k y c E O. destruct (K k y E) as [[_ ->]|[_ E']]; [discriminate|eauto].
      * intros k P. destruct (M6 k P). auto.
      * intros k y c E O. destruct (K k y E) as [[_ ->]|[_ E']]; [discriminate|eauto].
      * intros k E. destruct (M8 k E) as [X|[X|X]]; auto.
      * intros k X. congruence.
  - destruct (nth_error (a_bodies s) p) as [[c|e]|] eqn:B; auto. destruct (m_prev _ M i p T) as (L & _ & ST & OW & PW).
    destruct ST as [ST|ST]; rewrite B in ST; [discriminate|]. injection ST as ->. cbn [after_prev]. rewrite begin_unpend. apply (minv_begin i s (AWaitPrev p)); auto.
    + intros j y b E O. rewrite (OW j y b E O) in *. auto.
    + intros b c E. destruct (m_running _ M b c E) as [LB _]. assert (b = p) by lia. congruence.
  - destruct (nth_error (a_bodies s) b) as [[c|e]|] eqn:B.
    + destruct (a_stop s); auto. apply minv_switch; [|apply minv_cancel; exact M]. unfold acancel. rewrite B. exact T.
    + cbv zeta. destruct e as [r| |]; [apply (minv_record i (AWaitBody b)); auto|apply (minv_record i (AWaitBody b)); auto|destruct (m_noraise _ M b B)].
    + destruct (a_stop s); auto. apply minv_switch; [|apply minv_cancel; exact M]. unfold acancel. rewrite B. exact T.
  - destruct (nth_error (a_bodies s) b) as [[c|e]|] eqn:B; auto.
    assert (H : minv (set_pc i ADone (acleanup (unpend b (store b e s))))).
    { set (q := match a_pending s with Some k => if Nat.eqb k b then None else a_pending s | None => None end).
      assert (HQ : q = None \/ (q = a_pending s /\ q <> Some b)).
      { unfold q. destruct (a_pending s) as [k|]; [|auto]. destruct (Nat.eqb_spec k b); [auto|]. right. split; [reflexivity|congruence]. }
      assert (U : unpend b (store b e s) = store b e (set_pending q s)).
      { unfold unpend. assert (PS : a_pending (store b e s) = a_pending s) by (destruct e as [[|]| |]; reflexivity). rewrite PS. unfold q.
        destruct s as [ta bo pe cl sto lo]. cbn [a_pending]. destruct pe as [k|]; [destruct (Nat.eqb k b)|]; destruct e as [[|]| |]; reflexivity. }
      assert (G' : ginv (set_pc i AWaitStop (store b e (set_pending q s)))) by (rewrite store_pending, set_pc_pending; apply ginv_pending; eapply ginv_store; eauto).
      pose proof (minv_record i (AWaitCancel b) b e q s T eq_refl B HQ G M) as MR. destruct (minv_cleanup _ G' MR) as [MC CL].
      assert (LI : i < length (a_tasks s)) by (apply nth_error_Some; congruence).
      rewrite U. replace (set_pc i ADone (acleanup (store b e (set_pending q s)))) with (set_pc i ADone (acleanup (set_pc i AWaitStop (store b e (set_pending q s))))).
      - apply minv_done; [|exact CL|exact MC]. rewrite <- set_pc_cleanup. cbn [set_pc a_tasks]. apply put_same.
        assert (ET : a_tasks (acleanup (store b e (set_pending q s))) = a_tasks s) by (unfold acleanup; destruct e as [[|]| |]; cbn; try reflexivity; destruct (a_clean s); reflexivity). rewrite ET. exact LI.
      - rewrite !set_pc_cleanup. f_equal. unfold set_pc. cbn [a_tasks a_bodies a_pending a_clean a_stop a_log]. rewrite put_put. reflexivity. }
    destruct e; auto. destruct (m_noraise _ M b B).
  - destruct (a_stop s); auto. destruct (minv_cleanup s G M) as [MC CL]. apply minv_done; auto.
    assert (ET : a_tasks (acleanup s) = a_tasks s) by (unfold acleanup; destruct (a_clean s); reflexivity). rewrite ET. exact T.
Qed.
Lemma minv_end b e s : mild s (ABodyEnd b e) -> minv s -> minv (abody_end b e s).
Proof.
  intros GD M. unfold abody_end. destruct (nth_error (a_bodies s) b) as [[c|x]|] eqn:B; auto.
  assert (LB : b < length (a_bodies s)) by (apply nth_error_Some; congruence).
  assert (H : minv (Ast (a_tasks s) (put (a_bodies s) b (BEnded e)) (a_pending s) (a_clean s) (a_stop s) (a_log s ++ [Ended b e]))).
  { destruct M as [M1 M2 M3 M4 M5 M6 M7 M8 M9 M10 M11 M12].
    assert (Z : forall k, acleanups k (a_log s ++ [Ended b e]) = acleanups k (a_log s)) by (intros k; rewrite acleanups_app; unfold acleanups at 2; simpl; lia).
    destruct (M3 b c B) as [LT OWN].
    assert (RN : running (a_log s) [] = [b]). { rewrite M11. unfold top_running. rewrite <- LT, B. reflexivity. }
    assert (RZ : running (a_log s ++ [Ended b e]) [] = []). { rewrite running_app, RN. simpl. destruct (Nat.eq_dec b b); congruence. }
    assert (K : forall k y, nth_error (put (a_bodies s) b (BEnded e)) k = Some y -> (k = b /\ y = BEnded e) \/ (k <> b /\ nth_error (a_bodies s) k = Some y)).
    { intros k y X. apply nth_error_put_iff in X. destruct X as [(-> & -> & _)|[N X]]; auto. }
    constructor; cbn [a_tasks a_bodies a_pending a_clean a_stop a_log]; rewrite ?put_length; auto.
    - intros k X. destruct (K k _ X) as [[_ Y]|[_ Y]]; [injection Y as <-; exact GD|exact (M2 k Y)].
    - intros k c' X. destruct (K k _ X) as [[_ Y]|[_ Y]]; [discriminate|eauto].
    - intros i p T. destruct (M4 i p T) as (A & D & C & F & H). split; [exact A|]. split; [exact D|]. split; [|auto]. right. assert (p = b) by lia. subst p. rewrite put_same by exact LB.
      destruct e as [r| |]; [destruct (GD i T)|reflexivity|destruct GD].
    - intros i x k T O. destruct (M5 i x k T O) as [A|[A D]]; [auto|]. right. split; [exact A|]. rewrite put_other; auto. congruence.
    - intros i x k T O L. destruct (M7 i x k T O L) as [A|(r & A & D)]; [auto|]. right. exists r. split; [exact A|]. rewrite put_other; auto. congruence.
    - intros k X. rewrite Z. destruct (K k _ X) as [[-> _]|[_ Y]]; auto.
    - apply oat_snoc; auto. rewrite RZ. cbn. lia.
    - rewrite RZ. unfold top_running. cbn [a_bodies]. rewrite put_length, <- LT, put_same by exact LB. reflexivity.
    - intros k x J. apply in_app_iff in J. destruct J as [J|[J|[]]].
      + specialize (M12 k x J). rewrite put_other; auto. congruence.
      + injection J as <- <-. apply put_same. exact LB. }
  destruct e; auto. destruct c; auto.
Qed.
Lemma minv_step s o : mild s o -> ginv s -> minv s -> minv (astep false s o).
Proof.
  intros GD G M. destruct o; cbn [astep].
  - assert (K : forall i x, nth_error (a_tasks s ++ [ANew]) i = Some x -> nth_error (a_tasks s) i = Some x \/ x = ANew).
    { intros i x E. apply nth_error_app_cases in E. destruct E as [E|[<-|[]]]; auto. }
    assert (KE : forall i x, nth_error (a_tasks s) i = Some x -> nth_error (a_tasks s ++ [ANew]) i = Some x).
    { intros i x E. rewrite nth_error_app1; auto. apply nth_error_Some. congruence. }
    assert (KO : forall k, (exists j y, nth_error (a_tasks s) j = Some y /\ owned y = Some k) -> exists j y, nth_error (a_tasks s ++ [ANew]) j = Some y /\ owned y = Some k).
    { intros k (j & y & E & O). eauto. }
    destruct M as [M1 M2 M3 M4 M5 M6 M7 M8 M9 M10 M11 M12]. constructor; cbn [a_tasks a_bodies a_pending a_clean a_stop a_log]; auto.
    + intros i x E. destruct (K i x E) as [E'| ->]; [eauto|discriminate].
    + intros b c E. destruct (M3 b c E). auto.
    + intros i p E. destruct (K i _ E) as [E'|X]; [|discriminate]. destruct (M4 i p E') as (A & B & C & D & F). split; [exact A|]. split; [exact B|]. split; [exact C|]. split.
      * intros j y b E2 O. destruct (K j y E2) as [E2'| ->]; [eauto|discriminate].
      * intros j q E2. destruct (K j _ E2) as [E2'|X]; [eauto|discriminate].
    + intros i x b E O. destruct (K i x E) as [E'| ->]; [eauto|discriminate].
    + intros b P. destruct (M6 b P). auto.
    + intros i x b E O. destruct (K i x E) as [E'| ->]; [eauto|discriminate].
    + intros b E. destruct (M8 b E) as [X|[X|X]]; auto.
    + intros b X. destruct (M9 b X) as (j & E). eauto.
  - apply minv_task; auto.
  - apply minv_end; auto.
  - destruct M as [M1 M2 M3 M4 M5 M6 M7 M8 M9 M10 M11 M12]. constructor; auto.
Qed.
Lemma minv_steps ops : forall s, mild_run s ops -> ginv s -> minv s -> minv (fold_left (astep false) ops s).
Proof. induction ops as [|o ops IH]; intros s K G M; simpl; auto. destruct K as [K1 K2]. apply IH; [exact K2|apply ginv_step; auto|apply minv_step; auto]. Qed.

(** One body runs at a time in every such schedule, and when the unmounted component's effects have all returned, each returned
    clean-up was called exactly once. *)
Theorem C23_restart_partial : forall ops, mild_run ainit ops ->
  let s := arun false ops in
  one_at_a_time (a_log s) /\
  (all_done s -> forall b, In (Ended b (BReturned true)) (a_log s) -> acleanups b (a_log s) = 1).
Proof.
  intros ops K s. pose proof (minv_steps ops ainit K ginv_init minv_init) as M. fold (arun false ops) in M. fold s in M.
  split; [apply (m_oat _ M)|]. intros [_ D] b J. apply (m_logged _ M) in J.
  destruct (m_delivered _ M b J) as [X|[X|(i & x & T & O)]]; auto.
  - exfalso. destruct (m_keeper _ M b X) as (i & T). specialize (D i _ T). discriminate.
  - exfalso. rewrite (D i x T) in O. discriminate.
Qed.
Print Assumptions C23_restart_partial.

(** Body 0 is interrupted; the new effect is the first to notice that it ended. Body 1 ends by itself, body 2 is interrupted again. *)
Definition restarts : list aop :=
  [ASpawn; ARunTask 0; ASpawn; ARunTask 1; ABodyEnd 0 BCancelled; ARunTask 1; ARunTask 0; ABodyEnd 1 (BReturned true); ARunTask 1;
   ASpawn; ARunTask 2; ASpawn; ARunTask 3; ABodyEnd 2 BCancelled; ARunTask 3; ARunTask 2; ABodyEnd 3 (BReturned true); AUnmount; ARunTask 3; ARunTask 0; ARunTask 1; ARunTask 2; ARunTask 3].
Lemma mild_cons s o r s' : astep false s o = s' -> mild s o -> mild_run s' r -> mild_run s (o :: r).
Proof. intros <-. cbn [mild_run]. auto. Qed.
Ltac one := match goal with |- mild_run ?s (?o :: ?r) => let s' := eval vm_compute in (astep false s o) in apply (mild_cons s o r s'); [vm_compute; reflexivity| |] end.
Ltac calm_one := one; [cbn; first [exact I | intros T; discriminate T | intros i T; do 6 (destruct i as [|i]; [discriminate T|]); destruct i; discriminate T]|].
Ltac idle_rest := intros k x E N; do 6 (destruct k as [|k]; [first [discriminate E | congruence | injection E as <-; exact I]|]); destruct k; discriminate E.
Ltac begins := one; [intros _; left; intros k x E; do 6 (destruct k as [|k]; [first [discriminate E | injection E as <-; exact I]|]); destruct k; discriminate E|].
Ltac interrupts j b := one; [intros _; right; exists j, b; split; [reflexivity|]; split; [reflexivity|]; split; [idle_rest|intros r X; try discriminate X; injection X as <-; cbn; intuition discriminate] |].
Example C23_restart_example : mild_run ainit restarts /\ all_done (arun false restarts) /\
  a_log (arun false restarts) = [Began 0; Ended 0 BCancelled; Began 1; Ended 1 (BReturned true); ACleaned 1; Began 2; Ended 2 BCancelled; Began 3; Ended 3 (BReturned true); ACleaned 3].
Proof.
  split; [|split; [|vm_compute; reflexivity]].
  - unfold restarts. calm_one. begins. calm_one. interrupts 0 0. do 6 calm_one. begins. calm_one. interrupts 2 2. do 10 calm_one. exact I.
  - split; [vm_compute; reflexivity|]. intros i x E. vm_compute in E. do 4 (destruct i as [|i]; [injection E as <-; reflexivity|]). destruct i; discriminate E.
Qed.
