(** * C77: renders that overlap in separate parts of the tree of AsyncTree.v *)
From Coq Require Import Arith Bool Lia List Permutation.
From Verif Require Import Dict EffectModel EffectProps AsyncTree AsyncTreeFacts AsyncTreeInv AsyncTreeProps AsyncApartFacts AsyncApartInv.
Import ListNotations.

(** ** Specification *)
(** Neither place is within the other. *)
Fixpoint within (p q : list nat) : bool := match p, q with [], _ => true | x :: p', y :: q' => Nat.eqb x y && within p' q' | _ :: _, [] => false end.
Definition apart (p q : list nat) : Prop := within p q = false /\ within q p = false.
(** A render starts only where no render is in progress around or below it, and not for a component that was removed or
    rendered again after the request; a render in progress goes on at any time. *)
Definition may_start (s : sys) (k : nat) : Prop :=
  forall t, nth_error (y_tasks s) k = Some t -> t_pc t = Start -> t_cancel t = false ->
    dget (lcs s (t_old t)) (y_reg s) = Some (t_old t) /\
    forall j u, nth_error (y_tasks s) j = Some u -> in_progress u = true -> apart (m_path (state s (t_old t))) (m_path (state s (t_old u))).
Fixpoint apart_runs (view : nat -> nat -> list (nat * nat)) (s : sys) (ops : list op) : Prop :=
  match ops with
  | [] => True
  | o :: r => match o with Run k => may_start s k | SetState _ => True end /\ apart_runs view (step view s o) r
  end.
(** Renders that do not overlap are a special case. *)
Lemma separate_apart view ops : forall s, separate view s ops -> apart_runs view s ops.
Proof.
  induction ops as [|o ops IH]; intros s H; cbn in *; [exact I|]. destruct H as [M H]. split; [|auto]. destruct o as [c|k]; [exact I|].
  destruct M as [M1 M2]. intros t T PC TC. split; [auto|]. intros j u U IP. exfalso. destruct (Nat.eq_dec j k) as [->|NE]; [|rewrite (M1 j u NE U) in IP; discriminate].
  unfold in_progress in IP. replace u with t in IP by congruence. rewrite PC in IP. discriminate.
Qed.
Lemma below_within p q : below p q -> within p q = true.
Proof. intros [r ->]. induction p as [|x p IH]; cbn; [reflexivity|]. rewrite Nat.eqb_refl. exact IH. Qed.

(** ** The invariant *)
Section View.
Variable view : nat -> nat -> list (nat * nat).
Hypothesis V : forall ty v, NoDup (map fst (view ty v)).
Ltac cn := repeat (rewrite ?cnt_app in * || cbn [cnt app] in * ).

(** What a render in progress, about to render the component [c], relies on. *)
Definition local (s : sys) (n : entry) (c : nat) : Prop :=
  exists t nn old st m okids lk lnew lpend H mx,
    (nth_error (y_tasks s) (n_task n) = Some t /\ t_cancel t = false /\ t_pc t = Got nn old st /\ t_old t = n_old n) /\
    (nth_error (y_states s) nn = Some m /\ m_lcs m = c /\ dget c (y_reg s) = Some nn /\ m_kids m = [] /\ d_out (m_model m) = None /\ nn <> n_old n) /\
    (old_kids (y_states s) c old nn okids /\ NoDup (dkeys okids) /\ pends view (y_states s) (y_reg s) okids (dkeys okids) lk) /\
    chain view (y_states s) (y_reg s) (slot_of m) c st lnew lpend H (slot_of mx) (m_lcs mx) /\
    n_ids n = [c] ++ lnew ++ lk ++ lpend /\
    (forall c', In c' (t_hooks t) <-> cnt c' lnew > 0) /\
    (forall c', cnt c' (n_ids n) > 0 -> cnt c' (c :: H) = 0 -> y_holder s c' = None) /\
    (forall c', cnt c' (lk ++ lpend) > 0 -> y_eff s c' = true) /\
    (nth_error (y_states s) (n_old n) = Some mx /\ (forall c', dget c' (y_reg s) <> Some (n_old n))) /\
    (forall c' y my, cnt c' (n_ids n) > 0 -> dget c' (y_reg s) = Some y -> nth_error (y_states s) y = Some my -> below (m_path mx) (m_path my)).

Lemma local_frame ea eb s0 s n c : (forall c x, dget c (y_reg s0) = Some x -> exists m, nth_error (y_states s0) x = Some m /\ m_lcs m = c) ->
  fr ea eb s0 s -> In n (ea ++ eb) -> local s0 n c -> local s n c.
Proof.
  intros BR0 F IN (t & nn & old & st & m & okids & lk & lnew & lpend & H & mx & (T1 & T2 & T3 & T4) & (N1 & N2 & N3 & N4 & N5 & N6) & (O1 & O2 & O3) & CH & IDS & HK & HO & EF & (X1 & X2) & PA).
  assert (EN : forall c', cnt c' (n_ids n) > 0 -> cnt c' (ids_of (ea ++ eb)) > 0) by (intros c'; apply ids_in; exact IN).
  assert (AG : agree (y_states s0) (y_reg s0) (y_states s) (y_reg s) (n_ids n)).
  { intros c' x Hc R. split; [rewrite (r_reg _ _ _ _ F); auto|]. destruct (BR0 _ _ R) as (mx' & E & L). rewrite E. apply (r_keep _ _ _ _ F); auto. intros _. apply EN. congruence. }
  assert (KE : keeps (y_states s0) (y_reg s0) (y_states s)). { intros o mo E R. apply (r_keep _ _ _ _ F); auto. intros R'. congruence. }
  exists t, nn, old, st, m, okids, lk, lnew, lpend, H, mx.
  destruct (AG c nn) as [RN EN']; [rewrite IDS; cn; rewrite one_same; lia|exact N3|].
  split; [split; [|auto]|]. { apply (r_task _ _ _ _ F); auto. apply in_map. exact IN. }
  split; [rewrite EN'; auto 10|]. split; [split; [|split; [exact O2|]]|].
  - eapply keeps_old; eauto.
  - eapply agree_pends; [|exact O3]. eapply agree_sub; [exact AG|]. intros c'. rewrite IDS. cn. lia.
  - split; [eapply agree_chain; [|exact KE|exact CH]; eapply agree_sub; [exact AG|]; intros c'; rewrite IDS; cn; lia|].
    split; [exact IDS|]. split; [exact HK|]. split; [intros c' A B; rewrite (r_hold _ _ _ _ F); auto|].
    split; [intros c' A; rewrite (r_eff _ _ _ _ F); auto; apply EN; rewrite IDS; cn; lia|].
    split; [split|].
    + apply (r_keep _ _ _ _ F); auto. intros R. exfalso. exact (X2 _ R).
    + intros c' R. destruct (r_new _ _ _ _ F _ _ R) as [R'|L]; [exact (X2 _ R')|]. assert (n_old n < length (y_states s0)) by (apply nth_error_Some; congruence). lia.
    + intros c' y my Hc R E. rewrite (r_reg _ _ _ _ F) in R by auto. destruct (AG c' y Hc R) as [_ E']. rewrite E' in E. eauto.
Qed.
Lemma local_old s n c : local s n c -> exists m, nth_error (y_states s) (n_old n) = Some m /\ cnt (m_lcs m) (n_ids n) > 0.
Proof.
  intros (t & nn & old & st & m & okids & lk & lnew & lpend & H & mx & _ & _ & _ & CH & IDS & _ & _ & _ & (X1 & X2) & _). exists mx. split; auto. rewrite IDS.
  apply chain_top in CH. cn. lia.
Qed.
Lemma local_task s n c : local s n c -> exists t, nth_error (y_tasks s) (n_task n) = Some t /\ t_old t = n_old n /\ in_progress t = true /\ t_cancel t = false.
Proof.
  intros (t & nn & old & st & m & okids & lk & lnew & lpend & H & mx & (T1 & T2 & T3 & T4) & _). exists t. unfold in_progress. rewrite T3. auto.
Qed.
Lemma pends_reg S reg okids ks l : pends view S reg okids ks l -> forall c, In c l -> exists x, dget c reg = Some x.
Proof.
  induction 1; intros c I; [destruct I|auto|]. apply in_app_iff in I as [I|I]; [|auto]. destruct (proj1 (tree_reg view _ _) _ _ _ H2 _ I) as (x & _ & _ & R & _). eauto.
Qed.
Lemma chain_reg S reg sl c st lnew lpend H out cout : chain view S reg sl c st lnew lpend H out cout -> forall x, In x (lnew ++ lpend) -> exists y, dget x reg = Some y.
Proof.
  induction 1 as [|c f m v done key ty rest ld lp ds okids st lnew lpend H out cout O CH IH]; intros x I; [destruct I|].
  cbn in I. destruct I as [<-|I]; [exists (f_new f); exact (o_reg _ _ _ _ _ _ _ _ _ _ _ _ _ O)|].
  rewrite !in_app_iff in I. assert (IH' : forall z, In z lnew \/ In z lpend -> exists y, dget z reg = Some y) by (intros z Iz; apply IH, in_app_iff; exact Iz). destruct I as [[I|I]|[I|I]]; [| auto | | auto].
  - destruct (proj2 (tree_reg view _ _) _ _ _ _ _ _ _ (o_kids _ _ _ _ _ _ _ _ _ _ _ _ _ O) _ I) as (y & _ & _ & R & _). eauto.
  - eapply pends_reg; [exact (o_pends _ _ _ _ _ _ _ _ _ _ _ _ _ O)|exact I].
Qed.
Lemma local_reg s n c : local s n c -> forall x, In x (n_ids n) -> exists y, dget x (y_reg s) = Some y.
Proof.
  intros (t & nn & old & st & m & okids & lk & lnew & lpend & H & mx & _ & (N1 & N2 & N3 & _) & (O1 & O2 & O3) & CH & IDS & _) x I.
  rewrite IDS in I. cbn in I. rewrite !in_app_iff in I. destruct I as [<-|[I|[I|I]]]; [eauto| | |].
  - eapply chain_reg; [exact CH|apply in_app_iff; auto].
  - eapply pends_reg; eauto.
  - eapply chain_reg; [exact CH|apply in_app_iff; auto].
Qed.
Lemma btree_reg S reg : (forall i l e d, btree view S reg i l e d -> forall c, In c l -> (exists n, In n e /\ In c (n_ids n)) \/ exists x, dget c reg = Some x) /\
  (forall p path j k t l e ds, bkids view S reg p path j k t l e ds -> forall c, In c l -> (exists n, In n e /\ In c (n_ids n)) \/ exists x, dget c reg = Some x).
Proof.
  apply btree_kids_ind.
  - intros i m v l e ds E R O K IH c [<-|I]; [eauto|auto].
  - intros n m E F c I. left. exists n. cbn. auto.
  - intros p path j c [].
  - intros p path j key ty n m rest ts l ls e es d ds E SL T IHT K IHK c I. apply in_app_iff in I as [I|I].
    + destruct (IHT _ I) as [(y & Iy & J)|X]; [left; exists y; rewrite in_app_iff; auto|auto].
    + destruct (IHK _ I) as [(y & Iy & J)|X]; [left; exists y; rewrite in_app_iff; auto|auto].
Qed.

(** Nothing has been rendered yet. *)
Definition unborn (s : sys) : Prop :=
  base s [] [] /\ (forall c, y_holder s c = None) /\ (forall c, y_eff s c = true -> exists x, dget c (y_reg s) = Some x) /\
  exists r m, dget 0 (y_reg s) = Some r /\ nth_error (y_states s) r = Some m /\ slot_of m = Slot None 0 0 0 [] /\ m_kids m = [] /\ y_log s = [] /\ (forall c x, dget c (y_reg s) = Some x -> c = 0).
(** The root is being rendered. *)
Definition rooted (s : sys) : Prop := exists k x, mid view [] [] [] s x s k /\ forall m, nth_error (y_states s) x = Some m -> m_path m = [].
(** Parts of the tree are being rendered. *)
Definition parts (s : sys) : Prop := exists es xs l, rest_ view xs s es l /\ Forall2 (local s) es xs /\ NoDup (tasks_of es).
Definition inv (s : sys) : Prop := unborn s \/ rooted s \/ parts s.

Lemma Forall2_in {A B} (P : A -> B -> Prop) l l' : Forall2 P l l' -> forall x, In x l -> exists y, In y l' /\ P x y.
Proof. induction 1; intros z I; [destruct I|]. destruct I as [<-|I]; cbn; [eauto|]. destruct (IHForall2 _ I) as (w & ? & ?). eauto. Qed.
Lemma locals_frame ea eb s0 s es xs : (forall c x, dget c (y_reg s0) = Some x -> exists m, nth_error (y_states s0) x = Some m /\ m_lcs m = c) ->
  fr ea eb s0 s -> (forall n, In n es -> In n (ea ++ eb)) -> Forall2 (local s0) es xs -> Forall2 (local s) es xs.
Proof. intros BR F I H. induction H; constructor; [eapply local_frame; eauto; apply I; cbn; auto|apply IHForall2; intros; apply I; cbn; auto]. Qed.
Lemma tasks_app e f : tasks_of (e ++ f) = tasks_of e ++ tasks_of f.
Proof. apply map_app. Qed.

(** After a step of one render. *)
Lemma mid_inv ea eb x1 x2 s0 x0 s k : (forall c x, dget c (y_reg s0) = Some x -> exists m, nth_error (y_states s0) x = Some m /\ m_lcs m = c) ->
  Forall2 (local s0) ea x1 -> Forall2 (local s0) eb x2 -> NoDup (tasks_of (ea ++ eb)) ->
  mid view ea eb (x1 ++ x2) s0 x0 s k -> inv s.
Proof.
  intros BR L1 L2 ND (t & n & old & st & m & okids & lk & lnew & lpend & H & out & cout & a & b & C & q & dcur & B & PC & N & R & K0 & M0 & NX & O & NDK & P & CH & X).
  assert (MX : exists mx, nth_error (y_states s) x0 = Some mx /\ slot_of mx = out /\ m_lcs mx = cout /\ t_old t = x0 /\ forall c, dget c (y_reg s) <> Some x0).
  { destruct (c_x _ _ _ _ _ _ _ _ _ _ _ _ _ _ _ _ _ _ _ X) as (TO & mx & E & SL & LC & _ & UN). exists mx. repeat (split; [assumption|]). intros c Rc. specialize (UN c Rc). cn.
    destruct (Nat.eq_dec c (m_lcs m)) as [->|NE]; [congruence|]. rewrite one_diff in UN by auto. lia. }
  destruct MX as (mx & EX & SX & LX & TO & UX).
  pose proof (c_fr _ _ _ _ _ _ _ _ _ _ _ _ _ _ _ _ _ _ _ X) as F.
  destruct (c_outer _ _ _ _ _ _ _ _ _ _ _ _ _ _ _ _ _ _ _ X) as [EA EB|r mr sl c0 a b C q R0 ER LR SR HO].
  - (* the root *)
    right. left. subst ea eb. inversion L1; subst. inversion L2; subst. exists k, (t_old t). split.
    2: { intros m' E'. unfold slot_of in SX. replace m' with mx by congruence. congruence. }
    exists t, n, old, st, m, okids, lk, lnew, lpend, H, (Slot None 0 0 0 []), 0, [], [], (fun d => d), [], dcur.
    repeat (split; [assumption|]). destruct X as [X1 X2 X3 X4 X5 X6 X7 X8 X9 X10 X11 X12 X13 X14 X15 X16 X17].
    split; [exact X1|exact X2|exact X3|exact X4|exact X5|exact X6|exact X7|exact X8|exact X9|exact X10|exact X11|exact X12|apply fr_refl|exact X14| |exact X16|exact X17].
    split; [reflexivity|]. exists mx. repeat (split; [assumption || reflexivity|]). split; [apply nth_error_Some; congruence|]. intros c Rc. exfalso. exact (UX _ Rc).
  - (* a part *)
    right. right. set (ids := [m_lcs m] ++ lnew ++ lk ++ lpend). set (nw := Entry k x0 ids dcur).
    assert (EV : forall c, cnt c (ids_of (ea ++ [nw] ++ eb)) = cnt c (ids_of (ea ++ eb)) + cnt c ids) by (intros c; rewrite !ids_app; cbn [ids_of flat_map nw n_ids]; rewrite app_nil_r; lia).
    assert (NL : y_log s <> []).
    { intros L0. pose proof (c_shown _ _ _ _ _ _ _ _ _ _ _ _ _ _ _ _ _ _ _ X) as SH. rewrite L0 in SH. cbn in SH. clear - HO SH. destruct HO; discriminate. }
    exists (ea ++ [nw] ++ eb), (x1 ++ [m_lcs m] ++ x2), (a ++ ids ++ b). split; [|split].
    + split; [|split; [|split; [exact (c_eff1 _ _ _ _ _ _ _ _ _ _ _ _ _ _ _ _ _ _ _ X)|]]].
      * eapply base_weak; [exact B| |]; [intros j|intros c]; rewrite ?tasks_app; cbn; rewrite ?map_app, ?in_app_iff; cbn; tauto.
      * intros c Hc. rewrite EV in Hc. apply (c_hold _ _ _ _ _ _ _ _ _ _ _ _ _ _ _ _ _ _ _ X); [|lia]. unfold ids in Hc. pose proof (chain_held _ _ _ _ _ _ _ _ _ _ _ CH c). cn. lia.
      * exists r, mr, (C dcur). repeat (split; [assumption|]). split; [|split; [|split; [|split; [|split; [exact (c_shown _ _ _ _ _ _ _ _ _ _ _ _ _ _ _ _ _ _ _ X)|exact NL]]]]].
        -- eapply bhole_fill; [exact HO|exact EX|exact SX|]. change x0 with (n_old nw). change ids with (n_ids nw). change dcur with (n_doc nw). eapply btree_busy; [exact EX|].
           replace (m_type mx) with (l_type sl) by (rewrite <- SX; reflexivity). apply (c_fits _ _ _ _ _ _ _ _ _ _ _ _ _ _ _ _ _ _ _ X). exact NL.
        -- intros c. pose proof (c_once _ _ _ _ _ _ _ _ _ _ _ _ _ _ _ _ _ _ _ X c). unfold ids. cn. lia.
        -- intros c x Rc. pose proof (c_cover _ _ _ _ _ _ _ _ _ _ _ _ _ _ _ _ _ _ _ X c x Rc). unfold ids. cn. lia.
        -- intros c Hc H0. rewrite EV in H0. apply (c_eff2 _ _ _ _ _ _ _ _ _ _ _ _ _ _ _ _ _ _ _ X); [|lia]. cn. lia.
    + assert (L : local s nw (m_lcs m)).
      { exists t, n, old, st, m, okids, lk, lnew, lpend, H, mx. rewrite SX, LX.
        split; [split; [exact (c_task _ _ _ _ _ _ _ _ _ _ _ _ _ _ _ _ _ _ _ X)|split; [exact (c_cancel _ _ _ _ _ _ _ _ _ _ _ _ _ _ _ _ _ _ _ X)|auto]]|].
        split; [auto 10|]. split; [auto|]. split; [exact CH|]. split; [reflexivity|]. split; [exact (c_hooks _ _ _ _ _ _ _ _ _ _ _ _ _ _ _ _ _ _ _ X)|].
        assert (E0 : forall c, cnt c ids > 0 -> cnt c (ids_of (ea ++ eb)) = 0).
        { intros c Hc. pose proof (c_env _ _ _ _ _ _ _ _ _ _ _ _ _ _ _ _ _ _ _ X c). pose proof (c_once _ _ _ _ _ _ _ _ _ _ _ _ _ _ _ _ _ _ _ X c). unfold ids in Hc. cn. lia. }
        split; [intros c Hc H0; apply (c_hold _ _ _ _ _ _ _ _ _ _ _ _ _ _ _ _ _ _ _ X); [exact H0|apply E0; exact Hc]|].
        split; [intros c Hc; apply (c_eff2 _ _ _ _ _ _ _ _ _ _ _ _ _ _ _ _ _ _ _ X); [cn; lia|apply E0; unfold ids; cn; lia]|].
        split; [split; auto|]. intros c y my Hc Rc Ey. pose proof (c_paths _ _ _ _ _ _ _ _ _ _ _ _ _ _ _ _ _ _ _ X c y my) as PA.
        replace (m_path mx) with (l_path sl) by (rewrite <- SX; reflexivity). apply PA; auto. }
      apply Forall2_app; [eapply locals_frame; eauto; intros; apply in_app_iff; auto|]. constructor; [exact L|]. eapply locals_frame; eauto; intros; apply in_app_iff; auto.
    + pose proof (c_k _ _ _ _ _ _ _ _ _ _ _ _ _ _ _ _ _ _ _ X) as CK. rewrite tasks_app in *. cbn [app tasks_of map nw n_task] in *. apply NoDup_Add with (a := k) (l := map n_task ea ++ map n_task eb); [apply Add_app|]. split; assumption.
Qed.
Lemma rests_inv ea eb x1 x2 s0 s : (forall c x, dget c (y_reg s0) = Some x -> exists m, nth_error (y_states s0) x = Some m /\ m_lcs m = c) ->
  Forall2 (local s0) ea x1 -> Forall2 (local s0) eb x2 -> NoDup (tasks_of (ea ++ eb)) -> rests view ea eb (x1 ++ x2) s0 s -> inv s.
Proof.
  intros BR L1 L2 ND ((l & RS & _) & F). right. right. exists (ea ++ eb), (x1 ++ x2), l. split; [exact RS|]. split; [|exact ND].
  apply Forall2_app; eapply locals_frame; eauto; intros; apply in_app_iff; auto.
Qed.

(** ** Steps that render nothing *)
Definition mild (s s' : sys) : Prop :=
  y_states s' = y_states s /\ y_reg s' = y_reg s /\ y_next s' = y_next s /\ y_log s' = y_log s /\ (forall c, y_holder s' c = y_holder s c) /\ (forall c, y_eff s' c = y_eff s c) /\
  (forall j t, nth_error (y_tasks s) j = Some t -> in_progress t = true -> nth_error (y_tasks s') j = Some t) /\
  (forall ks xs, (forall j, In j ks -> exists t, nth_error (y_tasks s) j = Some t /\ in_progress t = true) -> base s ks xs -> base s' ks xs).
Lemma mild_inv s s' : mild s s' -> inv s -> inv s'.
Proof.
  intros (E1 & E2 & E3 & E4 & EH & EE & ET & EB) [I|[I|I]].
  - left. destruct I as (B & HO & E & r & m & R & N & SL & K0 & L0 & ON). split; [apply EB; [intros j []|exact B]|]. split; [intros c; rewrite EH; auto|].
    split; [intros c; rewrite EE, E2; auto|]. exists r, m. rewrite E1, E2, E4. auto 10.
  - right. left. destruct I as (k & x & (t & n & old & st & m & okids & lk & lnew & lpend & H & out & cout & a & b & C & q & dcur & B & PC & N & R & K0 & M0 & NX & O & NDK & P & CH & X) & PA).
    destruct X as [X1 X2 X3 X4 X5 X6 X7 X8 X9 X10 X11 X12 X13 X14 X15 X16 X17].
    assert (IP : in_progress t = true) by (unfold in_progress; rewrite PC; reflexivity).
    exists k, x. split; [|rewrite E1; exact PA]. exists t, n, old, st, m, okids, lk, lnew, lpend, H, out, cout, a, b, C, q, dcur. rewrite !E1, !E2.
    split; [apply EB; [intros j [<-|[]]; eauto|exact B]|]. repeat (split; [assumption|]).
    split; rewrite ?E1, ?E2, ?E3, ?E4; auto.
    + intros c. rewrite EH. auto.
    + intros c. rewrite EE. auto.
    + intros c. rewrite EE. auto.
    + apply fr_refl.
  - right. right. destruct I as (es & xs & l & (B & HO & EF & r & m & d & R & N & SL & T & ON & CO & E & SH & NL) & LO & ND).
    assert (TK : forall j, In j (tasks_of es) -> exists t, nth_error (y_tasks s) j = Some t /\ in_progress t = true).
    { intros j I. apply in_map_iff in I as (n & <- & I). destruct (Forall2_in _ _ _ LO _ I) as (c & _ & L). destruct (local_task _ _ _ L) as (t & T1 & _ & T3 & _). eauto. }
    exists es, xs, l. split; [|split; [|exact ND]].
    + split; [apply EB; [exact TK|exact B]|]. split; [intros c; rewrite EH; auto|]. split; [intros c; rewrite EE, E2; auto|]. exists r, m, d. rewrite E1, E2, E4.
      repeat (split; [assumption|]). split; [intros c; rewrite EE; auto|]. auto.
    + eapply locals_frame with (ea := es) (eb := []) (s0 := s); [exact (b_reg _ _ _ B)| |intros; rewrite app_nil_r; auto|exact LO].
      split; rewrite ?E1, ?E2; auto. rewrite app_nil_r. intros j t I T'. destruct (TK j I) as (t' & T2 & IP). apply ET; [exact T'|]. congruence.
Qed.
Lemma base_set_state' c s ks xs : base s ks xs -> base (set_state c s) ks xs.
Proof.
  intros [B1 B2 B3 B4 B5 B6 B7]. destruct (set_state_eq c s) as (vr & fl & by_ & ts & -> & [(-> & -> & -> & ->)|[(-> & F & -> & -> & ->)|[(-> & -> & R & -> & ->)|(-> & -> & x & R & -> & ->)]]]).
  - split; auto.
  - split; cbn; auto. intros c' x m v Rx Ex Ev. destruct (Nat.eq_dec c' c) as [->|NE]; [auto|]. rewrite at_other by auto. eauto.
  - split; cbn; auto.
    + intros c' x NE Rx. rewrite at_other by (intros ->; congruence). eauto.
    + intros c' x m v Rx Ex Ev. rewrite !at_other by (intros ->; congruence). eauto.
  - destruct (B1 _ _ R) as (mx & EX & LX). split; cbn; auto.
    + intros j t E. apply nth_error_app_cases in E as [E|[<-|[]]]; [auto|]. cbn. split; [apply nth_error_Some; congruence|auto].
    + intros c' j. destruct (Nat.eq_dec c' c) as [->|NE].
      * rewrite at_same. intros [= <-]. exists (Task x Start false []). rewrite nth_error_app2, Nat.sub_diag by lia. split; auto. rewrite lcs_nth. cbn. rewrite EX. auto.
      * rewrite at_other by auto. intros E. destruct (B4 _ _ E) as (t & T & L). exists t. rewrite nth_error_app1; auto. apply nth_error_Some. congruence.
    + intros c' x' NE Rx. destruct (Nat.eq_dec c' c) as [->|NC].
      * intros _. exists (length (y_tasks s)), (Task x Start false []). rewrite at_same, nth_error_app2, Nat.sub_diag by lia. cbn. repeat split; auto. congruence.
      * rewrite !at_other by auto. intros F. destruct (B5 _ _ NE Rx F) as (j & t & W1 & W2 & W3). exists j, t. rewrite nth_error_app1; auto. apply nth_error_Some. congruence.
    + intros c' x' m v Rx Ex Ev. destruct (Nat.eq_dec c' c) as [->|NC]; [right; apply at_same|]. rewrite !at_other by auto. eauto.
Qed.
Lemma set_state_mild c s : mild s (set_state c s).
Proof.
  pose proof (base_set_state' c s) as BS. pose proof (set_state_task c s) as TS. destruct (set_state_eq c s) as (vr & fl & by_ & ts & E & _). rewrite E in *.
  repeat (split; [reflexivity|]). split; auto.
Qed.
Lemma unwind_mild k t s : nth_error (y_tasks s) k = Some t -> t_pc t = Start -> t_hooks t = [] -> t_cancel t = true -> mild s (unwind k t s).
Proof.
  intros T PC TH TC. unfold unwind, held. rewrite PC. cbn [existsb]. unfold start_effects. cbn [y_tasks set_holder]. rewrite T, TH. cbn [existsb orb]. unfold set_pc. cbn [y_tasks set_eff set_holder]. rewrite T.
  repeat (split; [reflexivity|]). split.
  - intros j u U IP. destruct (Nat.eq_dec j k) as [->|NE]; [|cbn; rewrite put_other by auto; exact U].
    unfold in_progress in IP. replace u with t in IP by congruence. rewrite PC in IP. discriminate.
  - intros ks xs KS B. set (es := map (fun j => Entry j 0 [] (Node 0 None [])) ks). assert (TE : tasks_of (es ++ []) = ks) by (rewrite app_nil_r; unfold es, tasks_of; rewrite map_map; apply map_id).
    rewrite <- TE. eapply base_end with (s := s) (u := Task (t_old t) Cancelled (t_cancel t) (t_hooks t)); [rewrite TE; eapply base_weak; [exact B| |]; cbn; auto|exact T|right; exact TC| | | | | | | | | |]; reflexivity.
Qed.

(** ** A step of a render in progress *)
Lemma in_tasks n es k : In k (tasks_of es) -> n = k -> exists e, In e es /\ n_task e = k.
Proof. intros I _. apply in_map_iff in I as (e & E & I). eauto. Qed.
Lemma entry_mid s es xs l n : rest_ view xs s es l -> Forall2 (local s) es xs -> NoDup (tasks_of es) -> In n es ->
  exists ea eb x1 x2, Forall2 (local s) ea x1 /\ Forall2 (local s) eb x2 /\ NoDup (tasks_of (ea ++ eb)) /\ mid view ea eb (x1 ++ x2) s (n_old n) s (n_task n).
Proof.
  intros (B & HO & EF & r & m & d & R & N & SL & T & ON & CO & E & SH & NL) LO ND IN.
  destruct (Forall2_in _ _ _ LO _ IN) as (c0 & _ & LN0).
  destruct (proj1 (btree_entry view _ _) _ _ _ _ T _ IN) as [(X & _)|(x & mx & sl & a & b & ea & eb & C & q & lx & ex & dx & HH & -> & -> & -> & TX & (-> & -> & -> & ->) & EX & SX)].
  { exfalso. destruct LN0 as (t & nn & old & st & m' & okids & lk & lnew & lpend & H & mx & _ & _ & _ & _ & _ & _ & _ & _ & (_ & UX) & _). apply (UX 0). congruence. }
  apply Forall2_app_inv_l in LO as (x1 & x2' & L1 & L2 & ->). inversion L2 as [|n' c es' x2 LN L2' Q1 Q2]. subst n' es' x2'. clear L2 LN0. rename L2' into L2.
  exists ea, eb, x1, x2. split; [exact L1|]. split; [exact L2|].
  assert (NDT : NoDup (tasks_of (ea ++ eb)) /\ ~ In (n_task n) (tasks_of (ea ++ eb))).
  { rewrite !tasks_app in *. cbn [tasks_of map app] in ND. apply (NoDup_Add (Add_app (n_task n) (map n_task ea) (map n_task eb))) in ND. exact ND. }
  destruct NDT as [NDT NK]. split; [exact NDT|].
  assert (RG : forall c', cnt c' (a ++ n_ids n ++ b) > 0 -> c' < y_next s).
  { intros c' Hc. apply cnt_in in Hc. assert (X : exists y, dget c' (y_reg s) = Some y).
    { destruct (proj1 (btree_reg _ _) _ _ _ _ T _ Hc) as [(n' & I' & J)|X]; [|exact X].
      assert (exists w, local s n' w) as [w Lw].
      { rewrite !in_app_iff in I'. destruct I' as [I'|[[<-|[]]|I']]; [destruct (Forall2_in _ _ _ L1 _ I') as (w & _ & W)|exists c|destruct (Forall2_in _ _ _ L2 _ I') as (w & _ & W)]; eauto. }
      eapply local_reg; eauto. }
    destruct X as [y Ry]. destruct (b_reg _ _ _ B _ _ Ry) as (my & Ey & <-). exact (b_lcs _ _ _ B _ _ Ey). }
  assert (EV : forall c', cnt c' (ids_of (ea ++ [n] ++ eb)) = cnt c' (ids_of (ea ++ eb)) + cnt c' (n_ids n)) by (intros c'; rewrite !ids_app; cbn [ids_of flat_map]; rewrite app_nil_r; lia).
  destruct (bhole_slot _ _ _ _ _ _ _ _ _ _ _ _ HH) as (p & mp & P1 & P2 & _).
  pose proof (bhole_ids _ _ _ _ _ _ _ _ _ _ _ _ HH _ _ P1 P2) as BI.
  pose proof (proj1 (btree_fits view _ _) _ _ _ _ TX _ EX) as FI.
  destruct LN as (t & nn & old & st & m' & okids & lk & lnew & lpend & H & mx' & (T1 & T2 & T3 & T4) & (N1 & N2 & N3 & N4 & N5 & N6) & (O1 & O2 & O3) & CH & IDS & HK & HD & EE & (X1 & X2) & PA).
  replace mx' with mx in * by congruence. subst c. rewrite SX in CH.
  exists t, nn, old, st, m', okids, lk, lnew, lpend, H, sl, (m_lcs mx), a, b, C, q, (n_doc n).
  split. { eapply base_weak; [exact B| |]; [intros j|intros c]; rewrite ?tasks_app; cbn; rewrite ?map_app, ?in_app_iff; cbn; rewrite ?in_app_iff; tauto. }
  repeat (split; [assumption|]).
  assert (LM : m_lcs m = 0). { destruct (b_reg _ _ _ B _ _ R) as (m2 & E2 & L). congruence. }
  split; auto.
  - eapply outer_hole with (r := r) (mr := m); eauto.
  - intros c. specialize (ON c). rewrite IDS in ON. cn. lia.
  - intros c x Rc. specialize (CO c x Rc). rewrite IDS in CO. cn. lia.
  - intros c H0 V0. destruct (Nat.eq_dec (cnt c (n_ids n)) 0) as [Z|NZ]; [apply HO; rewrite EV; lia|apply HD; [lia|exact H0]].
  - intros c Hc V0. destruct (Nat.eq_dec (cnt c (lk ++ lpend)) 0) as [Z|NZ]; [|apply EE; lia]. apply E; [cn; lia|]. rewrite EV. specialize (ON c). cn. lia.
  - intros c Hc. apply RG. rewrite IDS. cn. lia.
  - intros c. specialize (BI c). lia.
  - apply fr_refl.
  - split; [exact T4|]. exists mx. repeat (split; [assumption || reflexivity|]). split; [apply nth_error_Some; congruence|]. intros c Rc. exfalso. exact (X2 _ Rc).
  - intros c y my Hc. replace (l_path sl) with (m_path mx) by (rewrite <- SX; reflexivity). apply PA. rewrite IDS. cn. lia.
  - intros _. replace (l_type sl) with (m_type mx) by (rewrite <- SX; reflexivity). exact FI.
Qed.
Lemma locals_old s ea eb x1 x2 : Forall2 (local s) ea x1 -> Forall2 (local s) eb x2 -> forall n, In n (ea ++ eb) -> exists c, local s n c.
Proof. intros L1 L2 n I. apply in_app_iff in I as [I|I]; [destruct (Forall2_in _ _ _ L1 _ I) as (c & _ & L)|destruct (Forall2_in _ _ _ L2 _ I) as (c & _ & L)]; eauto. Qed.
Lemma body_inv s ea eb x1 x2 x0 k t n old st : base s (k :: tasks_of (ea ++ eb)) (lcs s n :: x1 ++ x2) -> Forall2 (local s) ea x1 -> Forall2 (local s) eb x2 -> NoDup (tasks_of (ea ++ eb)) -> mid view ea eb (x1 ++ x2) s x0 s k ->
  nth_error (y_tasks s) k = Some t -> t_pc t = Got n old st -> inv (body view k n old st s).
Proof.
  intros B L1 L2 ND M T PC. pose proof (locals_old _ _ _ _ _ L1 L2) as LL.
  assert (EN : forall n, In n (ea ++ eb) -> exists m, nth_error (y_states s) (n_old n) = Some m /\ cnt (m_lcs m) (n_ids n) > 0) by (intros n' I; destruct (LL _ I) as [c L]; eapply local_old; eauto).
  assert (TK : forall n, In n (ea ++ eb) -> exists t, nth_error (y_tasks s) (n_task n) = Some t /\ t_old t = n_old n) by (intros n' I; destruct (LL _ I) as [c L]; destruct (local_task _ _ _ L) as (t' & A1 & A2 & _); eauto).
  destruct (body_ok view V ea eb (x1 ++ x2) s x0 (b_reg _ _ _ B) EN TK s k t n old st M T PC) as [Y|Y].
  - eapply mid_inv; [exact (b_reg _ _ _ B)|exact L1|exact L2|exact ND|exact Y].
  - eapply rests_inv; [exact (b_reg _ _ _ B)|exact L1|exact L2|exact ND|exact Y].
Qed.
Lemma mid_base ea eb xs s x0 k t n old st : mid view ea eb xs s x0 s k -> nth_error (y_tasks s) k = Some t -> t_pc t = Got n old st -> t_cancel t = false /\ base s (k :: tasks_of (ea ++ eb)) (lcs s n :: xs).
Proof.
  intros (t' & n' & old' & st' & m & okids & lk & lnew & lpend & H & out & cout & a & b & C & q & dcur & B & PC & N & _ & _ & _ & _ & _ & _ & _ & _ & X) T PC'.
  pose proof (c_task _ _ _ _ _ _ _ _ _ _ _ _ _ _ _ _ _ _ _ X) as T'. replace t' with t in * by congruence. split; [exact (c_cancel _ _ _ _ _ _ _ _ _ _ _ _ _ _ _ _ _ _ _ X)|].
  replace n' with n in * by congruence. rewrite lcs_nth, N. exact B.
Qed.
Lemma mid_pc ea eb xs s x0 k : mid view ea eb xs s x0 s k -> exists t n old st, nth_error (y_tasks s) k = Some t /\ t_pc t = Got n old st /\ t_old t = x0.
Proof.
  intros (t & n & old & st & m & okids & lk & lnew & lpend & H & out & cout & a & b & C & q & dcur & B & PC & N & _ & _ & _ & _ & _ & _ & _ & _ & X).
  exists t, n, old, st. split; [exact (c_task _ _ _ _ _ _ _ _ _ _ _ _ _ _ _ _ _ _ _ X)|]. split; [exact PC|]. exact (proj1 (c_x _ _ _ _ _ _ _ _ _ _ _ _ _ _ _ _ _ _ _ X)).
Qed.

(** ** The start of a render *)
Lemma start_parts s es xs l k t : rest_ view xs s es l -> Forall2 (local s) es xs -> NoDup (tasks_of es) -> nth_error (y_tasks s) k = Some t -> t_pc t = Start -> t_cancel t = false -> may_start s k ->
  inv (start k (t_old t) s).
Proof.
  intros RS LO ND T PC TC MS. pose proof RS as (B & HO & EF & r & m & d & R & N & SL & TR & ON & CO & E & SH & NL).
  destruct (MS t T PC TC) as [RT AP]. clear MS.
  assert (NKS : ~ In k (tasks_of es)).
  { intros I. apply in_map_iff in I as (n & <- & I). destruct (Forall2_in _ _ _ LO _ I) as (c & _ & L). destruct (local_task _ _ _ L) as (t' & T' & _ & IP & _). unfold in_progress in IP. replace t' with t in IP by congruence. rewrite PC in IP. discriminate. }
  assert (TH : t_hooks t = []). { destruct (b_task _ _ _ B _ _ T) as [_ X]. destruct (X NKS) as [[_ TH]|FI]; auto. unfold finished in FI. rewrite PC in FI. discriminate. }
  assert (LM : m_lcs m = 0). { destruct (b_reg _ _ _ B _ _ R) as (m' & E' & L). congruence. }
  destruct (nth_error (y_states s) (t_old t)) as [mo|] eqn:EO; [|apply nth_error_None in EO; destruct (b_task _ _ _ B _ _ T); lia].
  assert (ELO : lcs s (t_old t) = m_lcs mo) by (rewrite lcs_nth, EO; reflexivity). rewrite ELO in RT. rewrite (state_nth _ _ _ EO) in AP.
  assert (APE : forall n mn, In n es -> nth_error (y_states s) (n_old n) = Some mn -> ~ below (m_path mo) (m_path mn) /\ ~ below (m_path mn) (m_path mo)).
  { intros n mn I En. destruct (Forall2_in _ _ _ LO _ I) as (c & _ & L). destruct (local_task _ _ _ L) as (t' & T' & TO & IP & _). destruct (AP _ _ T' IP) as [A1 A2]. rewrite TO, (state_nth _ _ _ En) in A1, A2.
    split; intros BB; apply below_within in BB; congruence. }
  assert (OUT : forall n, In n es -> ~ In (m_lcs mo) (n_ids n)).
  { intros n I J. destruct (Forall2_in _ _ _ LO _ I) as (c & _ & L). destruct L as (t' & nn & old & st & m' & okids & lk & lnew & lpend & H & mx & _ & _ & _ & _ & _ & _ & _ & _ & (X1 & _) & PA).
    destruct (APE n mx I X1) as [_ A2]. apply A2. apply (PA (m_lcs mo) (t_old t)); auto. apply cnt_in. exact J. }
  pose proof (CO _ _ RT) as IL. apply cnt_in in IL.
  assert (RG : forall c', cnt c' l > 0 -> c' < y_next s).
  { intros c' Hc. apply cnt_in in Hc. assert (X : exists y, dget c' (y_reg s) = Some y).
    { destruct (proj1 (btree_reg _ _) _ _ _ _ TR _ Hc) as [(n' & I' & J)|X]; [|exact X]. destruct (Forall2_in _ _ _ LO _ I') as (w & _ & Lw). eapply local_reg; eauto. }
    destruct X as [y Ry]. destruct (b_reg _ _ _ B _ _ Ry) as (my & Ey & <-). exact (b_lcs _ _ _ B _ _ Ey). }
  pose proof (locals_old s es [] xs [] LO ltac:(constructor)) as LL. rewrite app_nil_r in LL.
  assert (EN : forall n, In n es -> exists m, nth_error (y_states s) (n_old n) = Some m /\ cnt (m_lcs m) (n_ids n) > 0) by (intros n' I; destruct (LL _ I) as [c L]; eapply local_old; eauto).
  assert (TK : forall n, In n es -> exists t, nth_error (y_tasks s) (n_task n) = Some t /\ t_old t = n_old n) by (intros n' I; destruct (LL _ I) as [c L]; destruct (local_task _ _ _ L) as (t' & A1 & A2 & _); eauto).
  destruct (proj1 (btree_split view _ _) _ _ _ _ TR _ _ IL RT OUT) as [TO|(x & mx & sl & a & b & ea & eb & C & q & lx & ex & dx & HH & -> & -> & -> & TX & -> & EX & SX)].
  - (* the root *)
    rewrite <- TO in *. replace mo with m in * by congruence.
    assert (es = []) as ->. { destruct es as [|n es]; auto. exfalso. destruct (proj1 (btree_paths view _ _) _ _ _ _ TR m n N ltac:(cbn; auto)) as (mn & En & BB). destruct (APE n mn ltac:(cbn; auto) En) as [A1 _]. auto. }
    inversion LO; subst xs. pose proof (proj1 (btree_tree view _ _) _ _ _ _ TR eq_refl) as TT. destruct (tree_pends view V _ _ _ _ _ _ TT N) as (lk & -> & NDK & P).
    pose proof SL as SL'. unfold slot_of in SL'. injection SL' as S1 S2 S3 S4 S5.
    unfold start. rewrite (state_nth _ _ _ N), S1. cbn [enter snd]. rewrite (state_nth _ _ _ N), Nat.eqb_refl. cbn [snd].
    eapply mid_inv with (ea := []) (eb := []) (x1 := []) (x2 := []) (s0 := s) (x0 := r); [exact (b_reg _ _ _ B)|constructor|constructor|constructor|].
    eapply renew_mid with (lk := lk) (a := []) (b := []) (C := fun d => d) (q := []) (t := t) (dcur := d); auto; try (intros ? []; fail).
    + rewrite SL, S2, S3, S4. reflexivity.
    + rewrite S2, S3, S4, LM. cbn. constructor; reflexivity.
    + intros c Hc _. apply E; [cn; lia|reflexivity].
    + intros c y my Hc Ry Ey. cbn [l_path path_of]. exists (m_path my). reflexivity.
    + intros _. pose proof (proj1 (btree_fits view _ _) _ _ _ _ TR _ N) as F. exact F.
  - (* a part *)
    replace mx with mo in * by congruence. subst sl.
    assert (ex = []) as ->. { destruct ex as [|n ex]; auto. exfalso. destruct (proj1 (btree_paths view _ _) _ _ _ _ TX mo n EO ltac:(cbn; auto)) as (mn & En & BB).
      destruct (APE n mn ltac:(rewrite !in_app_iff; cbn; auto) En) as [A1 _]. auto. }
    cbn [app] in *. apply Forall2_app_inv_l in LO as (x1 & x2 & L1 & L2 & ->).
    pose proof (proj1 (btree_tree view _ _) _ _ _ _ TX eq_refl) as TT. destruct (tree_pends view V _ _ _ _ _ _ TT EO) as (lk & -> & NDK & P).
    destruct (bhole_slot _ _ _ _ _ _ _ _ _ _ _ _ HH) as (p & mp & P1 & P2 & P3 & P4 & P5 & P6). pose proof (bhole_ids _ _ _ _ _ _ _ _ _ _ _ _ HH _ _ P1 P2) as BI. cbn [slot_of l_par l_path l_index] in *.
    unfold start. rewrite (state_nth _ _ _ EO), P1.
    assert (AL : alive s p = true). { unfold alive. apply existsb_exists. exists p. split; [|apply Nat.eqb_refl]. apply reach_incl. apply in_app_iff. left. eapply dget_dvals; eauto. }
    rewrite AL. cbn [enter snd]. rewrite (state_nth _ _ _ EO), Nat.eqb_refl. cbn [snd].
    eapply mid_inv with (s0 := s) (x0 := t_old t); [exact (b_reg _ _ _ B)|exact L1|exact L2|exact ND|].
    assert (SO : slot_of mo = Slot (Some p) (m_key mo) (m_index mo) (m_type mo) (path_of s (Some p) (m_index mo))) by (unfold slot_of; cbn [path_of]; rewrite (state_nth _ _ _ P2), <- P5, <- P1; reflexivity).
    eapply renew_mid with (lk := lk) (a := a) (b := b) (C := C) (q := q) (t := t) (dcur := dx); auto.
    + rewrite <- SO. eapply outer_hole with (r := r) (mr := m); eauto.
    + intros c. specialize (ON c). cn. lia.
    + intros c x Rc. specialize (CO c x Rc). cn. lia.
    + intros c Hc H0. apply E; [cn; lia|exact H0].
    + intros c Hc. apply RG. cn. lia.
    + intros c. specialize (BI c). lia.
    + intros c y my Hc Ry Ey. rewrite <- SO. cbn [slot_of l_path]. eapply (proj1 (tree_paths view _ _)); eauto. apply cnt_in. exact Hc.
    + intros _. pose proof (proj1 (btree_fits view _ _) _ _ _ _ TX _ EO) as F. exact F.
Qed.
Lemma start_unborn s k t : unborn s -> nth_error (y_tasks s) k = Some t -> t_pc t = Start -> t_cancel t = false -> t_hooks t = [] -> dget (lcs s (t_old t)) (y_reg s) = Some (t_old t) -> inv (start k (t_old t) s).
Proof.
  intros (B & HO & E1 & r & m & R & N & SL & K0 & L0 & ONLY) T PC TC TH RT.
  assert (LM : m_lcs m = 0). { destruct (b_reg _ _ _ B _ _ R) as (m' & E' & L). congruence. }
  pose proof SL as SL'. unfold slot_of in SL'. injection SL' as S1 S2 S3 S4 S5.
  assert (t_old t = r) as TO. { rewrite (ONLY _ _ RT) in RT. congruence. }
  unfold start. rewrite TO. rewrite (state_nth _ _ _ N), S1. cbn [enter snd]. rewrite (state_nth _ _ _ N), Nat.eqb_refl. cbn [snd].
  eapply mid_inv with (ea := []) (eb := []) (x1 := []) (x2 := []) (s0 := s) (x0 := r); [exact (b_reg _ _ _ B)|constructor|constructor|constructor|].
  eapply renew_mid with (lk := []) (a := []) (b := []) (C := fun d => d) (q := []) (t := t) (dcur := shown (y_log s)); auto; try (intros ? []; fail).
  - rewrite SL, S2, S3, S4. reflexivity.
  - rewrite K0. constructor.
  - rewrite K0. constructor.
  - rewrite S2, S3, S4, LM. cbn. constructor; reflexivity.
  - intros c. cn. unfold one. destruct (Nat.eq_dec c (m_lcs m)); lia.
  - intros c x Rc. rewrite (ONLY _ _ Rc). cn. rewrite LM, one_same. lia.
  - cbn. lia.
  - intros c. cn. unfold one. destruct (Nat.eq_dec c (m_lcs m)) as [->|]; [|lia]. intros _. exact (b_lcs _ _ _ B _ _ N).
  - intros c y my Hc Ry Ey. cbn [l_path path_of]. exists (m_path my). reflexivity.
  - intros NL. congruence.
Qed.

(** ** Every step *)
Lemma idle_cases s k t ks xs : base s ks xs -> ~ In k ks -> nth_error (y_tasks s) k = Some t -> finished t = false -> t_pc t = Start /\ t_hooks t = [].
Proof. intros B NI T FI. destruct (b_task _ _ _ B _ _ T) as [_ X]. destruct (X NI) as [Y|Y]; [exact Y|congruence]. Qed.
Lemma step_inv s o : inv s -> match o with Run k => may_start s k | SetState _ => True end -> inv (step view s o).
Proof.
  intros I M. destruct o as [c|k]; cbn [step]; [eapply mild_inv; [apply set_state_mild|exact I]|].
  unfold run_task. destruct (nth_error (y_tasks s) k) as [t|] eqn:T; [|exact I]. destruct (finished t) eqn:FI; [exact I|].
  destruct I as [I|[I|I]].
  - destruct (idle_cases s k t [] []) as [PC TH]; auto; [exact (proj1 I)|]. destruct (t_cancel t) eqn:TC; [eapply mild_inv; [apply unwind_mild; eauto|left; exact I]|].
    rewrite PC. apply start_unborn; auto. apply (M t T PC TC).
  - pose proof I as (j & x & MI & PA). destruct (mid_pc _ _ _ _ _ _ MI) as (u & n & old & st & U & PU & XU). destruct (mid_base _ _ _ _ _ _ _ _ _ _ MI U PU) as [CU B].
    destruct (Nat.eq_dec k j) as [->|NE].
    + replace t with u in * by congruence. rewrite CU, PU. eapply body_inv with (ea := []) (eb := []) (x1 := []) (x2 := []); [exact B|constructor|constructor|constructor|exact MI|exact U|exact PU].
    + destruct (idle_cases _ k t _ _ B) as [PC TH]; auto. { cbn. intros [->|[]]. tauto. }
      destruct (t_cancel t) eqn:TC; [eapply mild_inv; [apply unwind_mild; eauto|right; left; exact I]|].
      exfalso. destruct (M t T PC TC) as [_ AP]. destruct (AP j u U) as [_ A2]; [unfold in_progress; rewrite PU; reflexivity|].
      rewrite XU in A2. destruct MI as (t' & n' & old' & st' & m & okids & lk & lnew & lpend & H & out & cout & a & b & C & q & dcur & _ & _ & _ & _ & _ & _ & _ & _ & _ & _ & _ & X).
      destruct (c_x _ _ _ _ _ _ _ _ _ _ _ _ _ _ _ _ _ _ _ X) as (_ & mx & E & _). rewrite (state_nth _ _ _ E), (PA _ E) in A2. discriminate.
  - pose proof I as (es & xs & l & RS & LO & ND). pose proof (proj1 RS) as B.
    destruct (in_dec Nat.eq_dec k (tasks_of es)) as [IK|NK].
    + apply in_map_iff in IK as (n & <- & IN). destruct (entry_mid _ _ _ _ _ RS LO ND IN) as (ea & eb & x1 & x2 & L1 & L2 & ND' & MI).
      destruct (mid_pc _ _ _ _ _ _ MI) as (u & nn & old & st & U & PU & XU). destruct (mid_base _ _ _ _ _ _ _ _ _ _ MI U PU) as [CU B'].
      replace t with u in * by congruence. rewrite CU, PU. eapply body_inv; eauto.
    + destruct (idle_cases _ k t _ _ B) as [PC TH]; auto. destruct (t_cancel t) eqn:TC; [eapply mild_inv; [apply unwind_mild; eauto|right; right; exact I]|].
      rewrite PC. eapply start_parts; eauto.
Qed.
Lemma init_unborn : unborn init.
Proof.
  split; [|split; [reflexivity|split; [discriminate|]]].
  - split; cbn; auto.
    + intros c x. destruct (eq_dec c 0) as [->|]; [|discriminate]. intros [= <-]. eexists; split; reflexivity.
    + intros [|[|x]] m; cbn; try discriminate. intros [= <-]. cbn. lia.
    + intros [|[|j]] t; cbn; try discriminate. intros [= <-]. cbn. auto.
    + intros [|c] j; cbn; [|discriminate]. intros [= <-]. eexists; split; reflexivity.
    + discriminate.
    + intros c x m v. destruct (eq_dec c 0) as [->|]; [|discriminate]. intros [= <-] [= <-]. discriminate.
  - exists 0. eexists. split; [reflexivity|]. split; [reflexivity|]. repeat split; auto. intros c x. cbn. destruct (eq_dec c 0) as [->|]; [reflexivity|discriminate].
Qed.
Lemma run_inv ops : forall s, inv s -> apart_runs view s ops -> inv (fold_left (step view) ops s).
Proof. induction ops as [|o ops IH]; intros s I SP; cbn; auto. destruct SP as [M SP]. apply IH; auto. apply step_inv; auto. Qed.
End View.

(** ** C77 *)
(** For every program whose children have distinct keys, and every schedule in which renders overlap only in separate parts
    of the tree and none starts for a component that was removed or rendered again since it was requested: the session goes
    on; at every moment after the first render, also with renders in progress, the display is what the program gives for the
    states it was rendered from; and whenever no render is in progress, no component is shown twice, exactly the components
    on display are mounted and have their effects running, and each is shown in its current state unless a render of it is
    due. Missing: renders one of which is within the other, and requests overtaken by another render; false in general, see
    the refutations in AsyncTreeProps.v. *)
Theorem C77_apart_partial view ops : (forall ty v, NoDup (map fst (view ty v))) -> apart_runs view init ops ->
  let s := run view ops in let d := shown (y_log s) in
  y_over s = false /\ (y_log s <> [] -> fits view 0 d) /\
  (idle s -> y_log s <> [] ->
    NoDup (doc_ids d) /\
    (forall c, registered s c = true <-> In c (doc_ids d)) /\ (forall c, y_eff s c = true <-> In c (doc_ids d)) /\
    (forall c v, In (c, v) (doc_vers d) -> v = Some (y_ver s c) \/ waiting s c)).
Proof.
  intros V SP s d. assert (I : inv view s) by (apply run_inv; [exact V|left; apply init_unborn|exact SP]).
  destruct I as [I|[I|I]].
  - destruct I as (B & HO & E1 & r & m & R & N & SL & K0 & L0 & ONLY). split; [exact (b_over _ _ _ B)|]. split; [congruence|]. congruence.
  - destruct I as (k & x & (t & n & old & st & m & okids & lk & lnew & lpend & H & out & cout & a & b & C & q & dcur & B & PC & _ & _ & _ & _ & _ & _ & _ & _ & _ & X) & PA).
    split; [exact (b_over _ _ _ B)|]. split.
    2: { intros ID. specialize (ID k t (c_task _ _ _ _ _ _ _ _ _ _ _ _ _ _ _ _ _ _ _ X)). unfold in_progress in ID. rewrite PC in ID. discriminate. }
    intros NL. pose proof (c_fits _ _ _ _ _ _ _ _ _ _ _ _ _ _ _ _ _ _ _ X NL) as F. pose proof (c_shown _ _ _ _ _ _ _ _ _ _ _ _ _ _ _ _ _ _ _ X) as SH.
    destruct (c_x _ _ _ _ _ _ _ _ _ _ _ _ _ _ _ _ _ _ _ X) as (_ & mx & EX & SX & _).
    destruct (c_outer _ _ _ _ _ _ _ _ _ _ _ _ _ _ _ _ _ _ _ X) as [_ _|r mr sl c0 a b C q R0 ER LR SR HH]; [unfold d; rewrite SH; exact F|].
    exfalso. destruct (bhole_slot _ _ _ _ _ _ _ _ _ _ _ _ HH) as (p & mp & _ & _ & _ & _ & P5 & _). rewrite <- SX in P5. cbn in P5. rewrite (PA _ EX) in P5. destruct (m_path mp); discriminate.
  - destruct I as (es & xs & l & (B & HO & E1 & r & m & d' & R & E & SL & TR & ONE & COV & E2 & SH & NL) & LO & ND). fold d in SH. subst d'.
    split; [exact (b_over _ _ _ B)|]. split.
    { intros _. pose proof (proj1 (btree_fits view _ _) _ _ _ _ TR _ E) as F. unfold slot_of in SL. replace (m_type m) with 0 in F by congruence. exact F. }
    intros ID _.
    assert (es = []) as ->. { destruct es as [|n es]; auto. exfalso. destruct (Forall2_in _ _ _ LO n ltac:(cbn; auto)) as (c & _ & L). destruct (local_task _ _ _ _ L) as (t & T & _ & IP & _). rewrite (ID _ _ T) in IP. discriminate. }
    inversion LO; subst xs. apply (proj1 (btree_tree view _ _)) in TR; [|reflexivity].
    pose proof (proj1 (tree_ids view _ _) _ _ _ TR) as IDS. rewrite IDS.
    assert (IN : forall c, In c l <-> exists x, dget c (y_reg s) = Some x).
    { intros c. split; [intros I; destruct (proj1 (tree_reg view _ _) _ _ _ TR _ I) as (x & _ & _ & Rx & _); eauto|]. intros [x Rx]. apply cnt_in. eauto. }
    split; [apply cnt_nodup; exact ONE|]. split; [|split].
    + intros c. rewrite IN. unfold registered. split; intros X; [apply dmem_true in X; exact X|apply dmem_true; exact X].
    + intros c. split; [intros X; apply IN; auto|]. intros X. apply E2; [apply cnt_in; exact X|reflexivity].
    + intros c v I. destruct (proj1 (tree_vers view _ _) _ _ _ TR _ _ I) as (x & mx & Rx & Ex & Ov & NN). destruct v as [v|]; [|congruence].
      destruct (b_ver _ _ _ B c x mx v Rx Ex Ov) as [->|FL]; [auto|]. right. destruct (b_flag _ _ _ B c x (fun X => X) Rx FL) as (j & t & W1 & W2 & W3 & W4 & W5).
      exists j, t. subst x. auto.
Qed.
Print Assumptions C77_apart_partial.

(** A check of [apart_runs] by computation. *)
Definition may_startb (s : sys) (k : nat) : bool :=
  match nth_error (y_tasks s) k with
  | Some t => match t_pc t with
              | Start => t_cancel t || match dget (lcs s (t_old t)) (y_reg s) with Some x => Nat.eqb x (t_old t) | None => false end &&
                  forallb (fun u => negb (in_progress u) || negb (within (m_path (state s (t_old t))) (m_path (state s (t_old u)))) && negb (within (m_path (state s (t_old u))) (m_path (state s (t_old t))))) (y_tasks s)
              | _ => true
              end
  | None => true
  end.
Fixpoint apart_runsb (view : nat -> nat -> list (nat * nat)) (s : sys) (ops : list op) : bool :=
  match ops with [] => true | o :: r => match o with Run k => may_startb s k | SetState _ => true end && apart_runsb view (step view s o) r end.
Lemma apart_runsb_ok view ops : forall s, apart_runsb view s ops = true -> apart_runs view s ops.
Proof.
  induction ops as [|o ops IH]; intros s H; cbn in *; [exact I|]. apply andb_true_iff in H as [H1 H2]. split; [|auto]. destruct o as [c|k]; [exact I|].
  intros t T PC TC. unfold may_startb in H1. rewrite T, PC, TC in H1. cbn [orb] in H1. apply andb_true_iff in H1 as [A B]. split.
  - destruct (dget (lcs s (t_old t)) (y_reg s)) as [x|]; [apply Nat.eqb_eq in A; congruence|discriminate].
  - intros j u U IP. rewrite forallb_forall in B. specialize (B u (nth_error_In _ _ U)). rewrite IP in B. cbn [negb orb] in B. apply andb_true_iff in B as [B1 B2]. split; apply negb_true_iff; assumption.
Qed.
(** The root has two children, which both change their own children when their state changes. *)
Definition prog4 (ty v : nat) : list (nat * nat) :=
  match ty, v with 0, _ => [(0, 1); (1, 2)] | 1, 0 => [(0, 3)] | 1, _ => [(1, 4); (0, 3)] | 2, 0 => [(0, 4); (1, 3)] | 2, _ => [(1, 3)] | _, _ => [] end.
(** The hypotheses are met by a session in which the two are rendered at the same time, taking turns; a third render, of a
    child of the first, is requested meanwhile. *)
Example C77_apart_example :
  let ops := runs 0 9 ++ [SetState 1; SetState 3; Run 1; Run 2; Run 2; SetState 2; Run 1] in
  let more := ops ++ [Run 2; Run 1; Run 1; Run 3] in
  (forall ty v, NoDup (map fst (prog4 ty v))) /\ apart_runs prog4 init more /\
  map in_progress (y_tasks (run prog4 ops)) = [false; true; true; false] /\
  map in_progress (y_tasks (run prog4 more)) = [false; false; false; false] /\
  shown (y_log (run prog4 more)) = Node 0 (Some 0) [Node 1 (Some 1) [Node 6 (Some 0) []; Node 2 (Some 1) []]; Node 3 (Some 1) [Node 5 (Some 0) []]].
Proof.
  intros ops more. split. { intros ty v. destruct ty as [|[|[|ty]]], v as [|v]; cbn; repeat constructor; cbn; intuition discriminate. }
  split; [apply apart_runsb_ok; vm_compute; reflexivity|]. vm_compute. auto.
Qed.
