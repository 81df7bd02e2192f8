(** * One of several renders in progress in separate parts of the tree of AsyncTree.v *)
From Coq Require Import Arith Bool Lia List Permutation.
From Verif Require Import Dict EffectModel EffectProps AsyncTree AsyncTreeFacts AsyncTreeInv AsyncTreeProps AsyncApartFacts.
Import ListNotations.

(** [ks] are the tasks in progress, [xs] the components they are about to render. *)
Record base (s : sys) (ks xs : list nat) : Prop := {
  b_reg : forall c x, dget c (y_reg s) = Some x -> exists m, nth_error (y_states s) x = Some m /\ m_lcs m = c;
  b_lcs : forall x m, nth_error (y_states s) x = Some m -> m_lcs m < y_next s;
  b_task : forall j t, nth_error (y_tasks s) j = Some t -> t_old t < length (y_states s) /\ (~ In j ks -> (t_pc t = Start /\ t_hooks t = []) \/ finished t = true);
  b_by : forall c j, y_by_id s c = Some j -> exists t, nth_error (y_tasks s) j = Some t /\ lcs s (t_old t) = c;
  b_flag : forall c x, ~ In c xs -> dget c (y_reg s) = Some x -> y_flag s c = true ->
    exists j t, y_by_id s c = Some j /\ nth_error (y_tasks s) j = Some t /\ t_pc t = Start /\ t_cancel t = false /\ t_old t = x;
  b_ver : forall c x m v, dget c (y_reg s) = Some x -> nth_error (y_states s) x = Some m -> d_out (m_model m) = Some v -> v = y_ver s c \/ y_flag s c = true;
  b_over : y_over s = false
}.
Lemma base_weak s ks xs ks' xs' : base s ks xs -> (forall j, In j ks -> In j ks') -> (forall c, In c xs -> In c xs') -> base s ks' xs'.
Proof. intros [B1 B2 B3 B4 B5 B6 B7] K X. split; auto. intros j t H. destruct (B3 _ _ H). split; auto. Qed.

Definition ids_of (es : list entry) : list nat := flat_map n_ids es.
Definition tasks_of (es : list entry) : list nat := map n_task es.
Lemma ids_in es n c : In n es -> cnt c (n_ids n) > 0 -> cnt c (ids_of es) > 0.
Proof. unfold ids_of. induction es as [|y l IH]; cbn; [tauto|]. rewrite cnt_app. intros [->|I] H; [lia|]. specialize (IH I H). lia. Qed.
Ltac cn := repeat (rewrite ?cnt_app in * || cbn [cnt app] in * ).
Lemma ids_app e f c : cnt c (ids_of (e ++ f)) = cnt c (ids_of e) + cnt c (ids_of f).
Proof. unfold ids_of. rewrite flat_map_app, cnt_app. reflexivity. Qed.
Lemma ids_one n c : cnt c (ids_of [n]) = cnt c (n_ids n).
Proof. unfold ids_of. cbn. rewrite app_nil_r. reflexivity. Qed.
Lemma btree_ids view S reg : (forall i l e d, btree view S reg i l e d -> forall c, cnt c (ids_of e) <= cnt c l) /\
  (forall p path j k t l e ds, bkids view S reg p path j k t l e ds -> forall c, cnt c (ids_of e) <= cnt c l).
Proof.
  apply btree_kids_ind; intros.
  - cn. specialize (H3 c). lia.
  - rewrite ids_one. lia.
  - cbn. lia.
  - rewrite ids_app, cnt_app. specialize (H2 c). specialize (H4 c). lia.
Qed.
(** The component around a hole is not in a part that is being rendered. *)
Lemma bhole_ids view S reg i x sl a b e f C q : bhole view S reg i x sl a b e f C q -> forall p m, l_par sl = Some p -> nth_error S p = Some m ->
  forall c, one c (m_lcs m) + cnt c (ids_of (e ++ f)) <= cnt c (a ++ b).
Proof.
  intros H. induction H; intros p mp P0 Ep c; rewrite ?ids_app; cn.
  - cbn in P0. injection P0 as <-. replace mp with m by congruence. pose proof (proj2 (btree_ids _ _ _) _ _ _ _ _ _ _ _ H4 c). pose proof (proj2 (btree_ids _ _ _) _ _ _ _ _ _ _ _ H5 c). lia.
  - specialize (IHbhole _ _ P0 Ep c). rewrite ids_app in IHbhole. cn. pose proof (proj2 (btree_ids _ _ _) _ _ _ _ _ _ _ _ H4 c). pose proof (proj2 (btree_ids _ _ _) _ _ _ _ _ _ _ _ H5 c). lia.
Qed.

Section One.
Variable view : nat -> nat -> list (nat * nat).
Hypothesis V : forall ty v, NoDup (map fst (view ty v)).
(** The other renders in progress, before and after this one in the tree; the components they are about to render. *)
Variables ea eb : list entry.
Variable xs : list nat.
(** The state of the layout when the step begins, and the state that this render replaces. *)
Variable s0 : sys.
Variable x0 : nat.
Local Notation env := (ids_of (ea ++ eb)).
Local Notation others := (tasks_of (ea ++ eb)).
Hypothesis BR0 : forall c x, dget c (y_reg s0) = Some x -> exists m, nth_error (y_states s0) x = Some m /\ m_lcs m = c.
Hypothesis EN0 : forall n, In n (ea ++ eb) -> exists m, nth_error (y_states s0) (n_old n) = Some m /\ cnt (m_lcs m) (n_ids n) > 0.
Hypothesis TK0 : forall n, In n (ea ++ eb) -> exists t, nth_error (y_tasks s0) (n_task n) = Some t /\ t_old t = n_old n.
(** The other renders are left alone. *)
Record fr (s : sys) : Prop := {
  r_reg : forall c, cnt c env > 0 -> dget c (y_reg s) = dget c (y_reg s0);
  r_hold : forall c, cnt c env > 0 -> y_holder s c = y_holder s0 c;
  r_eff : forall c, cnt c env > 0 -> y_eff s c = y_eff s0 c;
  r_len : length (y_states s0) <= length (y_states s);
  r_new : forall c x, dget c (y_reg s) = Some x -> dget c (y_reg s0) = Some x \/ length (y_states s0) <= x;
  r_keep : forall x m, nth_error (y_states s0) x = Some m -> (dget (m_lcs m) (y_reg s0) = Some x -> cnt (m_lcs m) env > 0) -> nth_error (y_states s) x = Some m;
  r_task : forall j t, In j others -> nth_error (y_tasks s0) j = Some t -> nth_error (y_tasks s) j = Some t
}.
Lemma fr_refl : fr s0.
Proof. split; auto. Qed.
(** The states that are being replaced. *)
Lemma fr_old s : fr s -> forall n, In n (ea ++ eb) -> nth_error (y_states s) (n_old n) = nth_error (y_states s0) (n_old n).
Proof. intros F n I. destruct (EN0 _ I) as (m & E & H). rewrite E. apply (r_keep _ F _ _ E). intros _. eapply ids_in; eauto. Qed.
(** A change of the state of a component of this render. *)
Lemma fr_put s s' c p m m' : fr s -> dget c (y_reg s) = Some p -> nth_error (y_states s) p = Some m -> m_lcs m = c -> cnt c env = 0 ->
  y_states s' = put (y_states s) p m' -> (forall d x, dget d (y_reg s') = Some x -> dget d (y_reg s) = Some x) ->
  (forall d, cnt d env > 0 -> dget d (y_reg s') = dget d (y_reg s) /\ y_holder s' d = y_holder s d /\ y_eff s' d = y_eff s d) ->
  (forall j t, In j others -> nth_error (y_tasks s) j = Some t -> nth_error (y_tasks s') j = Some t) -> fr s'.
Proof.
  intros [R1 R2 R3 R4 R5 R6 R7] R E EL Z ES ER EE ET. split; auto.
  - intros d D. destruct (EE d D) as (-> & _). auto.
  - intros d D. destruct (EE d D) as (_ & -> & _). auto.
  - intros d D. destruct (EE d D) as (_ & _ & ->). auto.
  - rewrite ES, put_length. auto.
  - intros x mx Ex Hx. rewrite ES. rewrite put_other; [auto|]. intros ->.
    destruct (R5 _ _ R) as [R'|R']; [|assert (x < length (y_states s0)) by (apply nth_error_Some; congruence); lia].
    destruct (BR0 _ _ R') as (m0 & E0 & <-). replace m0 with mx in * by congruence. specialize (Hx R'). lia.
Qed.

(** The place of the render: the root, or within a tree. *)
Inductive outer (S : list mst) (reg : dict nat nat) : slot -> nat -> list nat -> list nat -> (doc -> doc) -> list nat -> Prop :=
| outer_root : ea = [] -> eb = [] -> outer S reg (Slot None 0 0 0 []) 0 [] [] (fun d => d) []
| outer_hole r mr sl c a b C q : dget 0 reg = Some r -> nth_error S r = Some mr -> m_lcs mr = 0 -> slot_of mr = Slot None 0 0 0 [] ->
    bhole view S reg r x0 sl a b ea eb C q -> outer S reg sl c a b C q.
Lemma agree_outer S reg S' reg' sl c a b C q : agree S reg S' reg' (a ++ b) -> (forall n, In n (ea ++ eb) -> nth_error S' (n_old n) = nth_error S (n_old n)) ->
  outer S reg sl c a b C q -> outer S' reg' sl c a b C q.
Proof.
  intros A AE O. destruct O; [constructor; auto|].
  destruct (bhole_root _ _ _ _ _ _ _ _ _ _ _ _ H3) as (m0 & a' & E0 & Ea & R0). replace m0 with mr in * by congruence.
  destruct (A 0 r) as [R E]; [cn; rewrite Ea, H1; cbn; lia|assumption|].
  econstructor; eauto; [congruence|]. eapply bhole_frame; eauto. split; [apply agree_in; exact A|exact AE].
Qed.
Lemma chain_held S reg sl c st lnew lpend H out cout : chain view S reg sl c st lnew lpend H out cout -> forall x, cnt x H <= cnt x lnew.
Proof. induction 1; intros x; cn; [lia|]. specialize (IHchain x). lia. Qed.
Lemma chain_path S reg sl c st lnew lpend H out cout : chain view S reg sl c st lnew lpend H out cout -> below (l_path out) (l_path sl).
Proof. induction 1; [apply below_refl|]. cbn [l_path slot_of] in *. eapply below_trans; [exact IHchain|]. apply below_app. Qed.
Lemma chain_top S reg sl c st lnew lpend H out cout : chain view S reg sl c st lnew lpend H out cout -> cnt cout (c :: lnew) > 0.
Proof. induction 1; cn; [rewrite one_same; lia|lia]. Qed.

(** While task [k] renders: [F] is the component it has entered, [newl] those it has rendered, [pend] those it will render
    again or remove, [a] and [b] those it leaves alone. *)
Record ctx (s : sys) (k : nat) (t : task) (F newl pend H : list nat) (out : slot) (cout : nat) (a b : list nat) (C : doc -> doc) (q : list nat) (dcur : doc) : Prop := {
  c_task : nth_error (y_tasks s) k = Some t;
  c_cancel : t_cancel t = false;
  c_outer : outer (y_states s) (y_reg s) out cout a b C q;
  c_once : forall c, cnt c (a ++ b ++ F ++ newl ++ pend) <= 1;
  c_cover : forall c x, dget c (y_reg s) = Some x -> cnt c (a ++ b ++ F ++ newl ++ pend) > 0;
  c_hold : forall c, cnt c H = 0 -> cnt c env = 0 -> y_holder s c = None;
  c_hooks : forall c, In c (t_hooks t) <-> cnt c newl > 0;
  c_eff1 : forall c, y_eff s c = true -> exists x, dget c (y_reg s) = Some x;
  c_eff2 : forall c, cnt c (a ++ b ++ pend) > 0 -> cnt c env = 0 -> y_eff s c = true;
  c_shown : shown (y_log s) = C dcur;
  c_below : forall c, cnt c (a ++ b ++ F ++ newl ++ pend) > 0 -> c < y_next s;
  c_env : forall c, cnt c env <= cnt c (a ++ b);
  c_fr : fr s;
  c_k : ~ In k others;
  c_x : t_old t = x0 /\ exists mx, nth_error (y_states s) x0 = Some mx /\ slot_of mx = out /\ m_lcs mx = cout /\ x0 < length (y_states s0) /\ (forall c, dget c (y_reg s) = Some x0 -> cnt c F > 0);
  c_paths : forall c y my, cnt c (F ++ newl ++ pend) > 0 -> dget c (y_reg s) = Some y -> nth_error (y_states s) y = Some my -> below (l_path out) (m_path my);
  c_fits : y_log s <> [] -> fits view (l_type out) dcur
}.
(** Task [k] is suspended in the [acquire] of the component of state [n]. *)
Definition mid (s : sys) (k : nat) : Prop :=
  exists t n old st m okids lk lnew lpend H out cout a b C q dcur,
    base s (k :: others) (m_lcs m :: xs) /\ t_pc t = Got n old st /\
    nth_error (y_states s) n = Some m /\ dget (m_lcs m) (y_reg s) = Some n /\ m_kids m = [] /\ d_out (m_model m) = None /\ n <> x0 /\
    old_kids (y_states s) (m_lcs m) old n okids /\ NoDup (dkeys okids) /\ pends view (y_states s) (y_reg s) okids (dkeys okids) lk /\
    chain view (y_states s) (y_reg s) (slot_of m) (m_lcs m) st lnew lpend H out cout /\
    ctx s k t [m_lcs m] lnew (lk ++ lpend) (m_lcs m :: H) out cout a b C q dcur.
(** The frame [f] goes on to its next child. *)
Definition opens (s : sys) (k : nat) (f : frame) (st : list frame) : Prop :=
  exists t m v done rest ld lp ds okids lnew lpend H out cout a b C q dcur,
    base s (k :: others) xs /\ t_pc t <> Start /\
    opened view (y_states s) (y_reg s) f m v done [] rest ld lp ds okids /\
    chain view (y_states s) (y_reg s) (slot_of m) (m_lcs m) st lnew lpend H out cout /\
    ctx s k t [] (m_lcs m :: ld ++ lnew) (lp ++ lpend) (m_lcs m :: H) out cout a b C q dcur.
(** Only the other tasks are in progress. *)
Definition rest_ (s : sys) (es : list entry) (l : list nat) : Prop :=
  base s (tasks_of es) xs /\ (forall c, cnt c (ids_of es) = 0 -> y_holder s c = None) /\ (forall c, y_eff s c = true -> exists x, dget c (y_reg s) = Some x) /\
  exists r m d, dget 0 (y_reg s) = Some r /\ nth_error (y_states s) r = Some m /\ slot_of m = Slot None 0 0 0 [] /\
    btree view (y_states s) (y_reg s) r l es d /\ (forall c, cnt c l <= 1) /\ (forall c x, dget c (y_reg s) = Some x -> cnt c l > 0) /\
    (forall c, cnt c l > 0 -> cnt c (ids_of es) = 0 -> y_eff s c = true) /\ shown (y_log s) = d /\ y_log s <> [].
Definition rests (s : sys) : Prop := (exists l, rest_ s (ea ++ eb) l /\ forall c, cnt c env <= cnt c l) /\ fr s.

(** ** Entering a component *)
Lemma claim_mid k n old st s t m okids lk lnew lpend H out cout a b C q dcur :
  base s (k :: others) xs -> t_pc t <> Start \/ lcs s (t_old t) = m_lcs m ->
  nth_error (y_states s) n = Some m -> (forall c, dget c (y_reg s) <> Some n) -> length (y_states s0) <= n -> m_kids m = [] -> d_out (m_model m) = None ->
  old_kids (y_states s) (m_lcs m) old n okids -> NoDup (dkeys okids) -> pends view (y_states s) (y_reg s) okids (dkeys okids) lk ->
  chain view (y_states s) (y_reg s) (slot_of m) (m_lcs m) st lnew lpend H out cout ->
  ctx s k t [m_lcs m] lnew (lk ++ lpend) H out cout a b C q dcur -> cnt (m_lcs m) H = 0 ->
  mid (claim k n old st s) k.
Proof.
  intros B PC N NR LN K0 M0 O ND P CH X H0. destruct X as [X1 X2 X3 X4 X5 X6 X7 X8 X9 X10 X11 X12 X13 X14 [X15 (mx & X16 & X17 & X18 & X19 & X20)] X21 X22]. destruct B as [B1 B2 B3 B4 B5 B6 B7].
  assert (EL : lcs s n = m_lcs m) by (unfold lcs; erewrite state_nth by eassumption; reflexivity).
  assert (NV : cnt (m_lcs m) env = 0). { specialize (X4 (m_lcs m)). specialize (X12 (m_lcs m)). cn. rewrite one_same in X4. lia. }
  destruct (claim_eq k n old st s t X1) as (by_ & ts & E & T1 & T2 & T3 & Y1 & Y2); [rewrite EL; auto|]. rewrite E. clear E. rewrite EL in *.
  set (c := m_lcs m) in *.
  assert (AG : forall l, (forall c', cnt c' l > 0 -> c' <> c) -> agree (y_states s) (y_reg s) (y_states s) (dset c n (y_reg s)) l).
  { intros l D c' x Hc Hx. split; [|reflexivity]. rewrite dget_dset_other; auto. }
  exists (Task (t_old t) (Got n old st) (t_cancel t) (t_hooks t)), n, old, st, m, okids, lk, lnew, lpend, H, out, cout, a, b, C, q, dcur.
  split; [|split; [reflexivity|]]; [split|]; cbn [y_states y_reg y_next y_ver y_flag y_holder y_by_id y_tasks y_eff y_log y_over lcs state]; auto.
  - intros c' x. rewrite dget_dset. destruct (eq_dec c' c) as [->|]; [|auto]. intros [= <-]. eauto.
  - intros j u E. destruct (Nat.eq_dec j k) as [->|NE].
    + rewrite T1 in E. injection E as <-. cbn. split; [apply (B3 _ _ X1)|]. intros NI. destruct NI. cbn. auto.
    + assert (exists w, nth_error (y_tasks s) j = Some w) as [w W]. { destruct (nth_error (y_tasks s) j) eqn:Z; eauto. apply nth_error_None in Z. assert (j < length ts) by (apply nth_error_Some; congruence). lia. }
      destruct (T3 _ _ NE W) as (bb & E' & _). rewrite E in E'. injection E' as ->. cbn. destruct (B3 _ _ W) as [L R]. split; auto.
  - intros c' j E. assert (y_by_id s c' = Some j) as E'. { destruct (Nat.eq_dec c' c) as [->|NE]; [auto|rewrite <- Y1; auto]. }
    destruct (B4 _ _ E') as (w & W & L). destruct (Nat.eq_dec j k) as [->|NE].
    + eexists. split; [exact T1|]. cbn. replace t with w by congruence. exact L.
    + destruct (T3 _ _ NE W) as (bb & W' & _). eexists. split; [exact W'|]. exact L.
  - intros c' x NE0. assert (NE : c' <> c) by (intros ->; apply NE0; cbn; auto). rewrite dget_dset_other by auto. intros R FL. destruct (B5 c' x ltac:(cbn in NE0; tauto) R FL) as (j & w & E1 & E2 & E3 & E4 & E5).
    assert (Lw : lcs s (t_old w) = c') by (destruct (B4 _ _ E1) as (w' & W' & L'); replace w with w' by congruence; exact L').
    assert (j <> k). { intros ->. replace w with t in * by congruence. destruct PC as [PC|PC]; congruence. }
    destruct (T3 _ _ H1 E2) as (bb & W' & D). exists j, (Task (t_old w) (t_pc w) bb (t_hooks w)). rewrite Y1 by congruence. cbn. repeat split; auto.
    destruct D as [->|D]; auto. destruct (B4 _ _ D) as (w' & W2 & L2). replace w' with w in * by congruence. congruence.
  - intros c' x mm v. rewrite dget_dset. destruct (eq_dec c' c) as [->|NE]; [intros [= <-] Ex Ov|eauto]. replace mm with m in * by congruence. congruence.
  - split; [exact N|]. split; [apply dget_dset_same|]. split; [auto|]. split; [auto|]. split; [lia|]. split; [auto|]. split; [auto|].
    split. { eapply agree_pends; eauto. apply AG. intros c' Hc ->. specialize (X4 c). cn. rewrite one_same in X4. lia. }
    split. { eapply agree_chain; eauto; [|intros o mo Eo _; exact Eo]. apply AG. intros c' Hc ->. specialize (X4 c). cn. rewrite one_same in X4. lia. }
    split; cbn [y_states y_reg y_next y_ver y_flag y_holder y_by_id y_tasks y_eff y_log y_over t_cancel t_hooks]; auto.
    + eapply agree_outer; [|auto|exact X3]. apply AG. intros c' Hc ->. specialize (X4 c). cn. rewrite one_same in X4. lia.
    + intros c' x. rewrite dget_dset. destruct (eq_dec c' c) as [->|]; [|eauto]. intros _. cn. rewrite one_same. lia.
    + intros c' Hc Zc. cn. destruct (Nat.eq_dec c' c) as [->|NE]; [rewrite one_same in Hc; lia|]. rewrite at_other by auto. apply X6; [lia|auto].
    + intros c' Ec. destruct (X8 _ Ec) as [x Ex]. rewrite dget_dset. destruct (eq_dec c' c); eauto.
    + destruct X13 as [R1 R2 R3 R4 R5 R6 R7]. split; cbn [y_states y_reg y_holder y_eff y_tasks]; auto.
      * intros c' Hc. rewrite dget_dset_other; auto. intros ->. lia.
      * intros c' Hc. rewrite at_other; auto. intros ->. lia.
      * intros c' x. rewrite dget_dset. destruct (eq_dec c' c) as [->|]; [|auto]. intros [= <-]. auto.
      * intros j w J W. pose proof (R7 _ _ J W) as W'. assert (NE : j <> k) by (intros ->; auto). destruct (T3 _ _ NE W') as (bb & E & [->|D]); [rewrite E; destruct w; reflexivity|].
        exfalso. unfold tasks_of in J. apply in_map_iff in J as (en & <- & I). destruct (TK0 _ I) as (w0 & W0 & OW). destruct (EN0 _ I) as (me & Em & Cm).
        destruct (B4 _ _ D) as (w1 & W1 & L1). replace w1 with w in * by congruence. replace w0 with w in * by congruence. rewrite OW, lcs_nth in L1.
        rewrite (R6 _ _ Em) in L1 by (intros _; eapply ids_in; eauto). pose proof (ids_in _ _ _ I Cm). rewrite L1 in H1. fold c in H1. lia.
    + split; [exact X15|]. exists mx. repeat (split; [solve [auto]|]). intros c'. rewrite dget_dset. destruct (eq_dec c' c) as [->|]; [intros _; cn; rewrite one_same; lia|auto].
    + intros c' y my Hc. rewrite dget_dset. destruct (eq_dec c' c) as [->|]; [intros [= <-] Ey|eauto]. replace my with m by congruence. exact (chain_path _ _ _ _ _ _ _ _ _ _ CH).
Qed.

(** ** A new state, after the components [L] have been removed *)
Definition grown (s : sys) (mn : mst) (L : list nat) (s' : sys) : Prop :=
  exists r e nx, s' = Sys (y_states s ++ [mn]) r nx (y_ver s) (y_flag s) (y_holder s) (y_by_id s) (y_tasks s) e (y_log s) (y_over s) /\
    y_next s <= nx /\ m_lcs mn < nx /\
    (forall c, cnt c L > 0 -> dget c r = None /\ e c = false) /\ (forall c, cnt c L = 0 -> dget c r = dget c (y_reg s) /\ e c = y_eff s c).
Lemma grown_reg s mn L s' c x : grown s mn L s' -> dget c (y_reg s') = Some x -> cnt c L = 0 /\ dget c (y_reg s) = Some x.
Proof. intros (r & e & nx & -> & _ & _ & G1 & G2) R. cbn in R. destruct (cnt c L) eqn:E; [destruct (G2 _ E); split; congruence|]. destruct (G1 c); [lia|congruence]. Qed.
Lemma reg_lt s k exc c x : base s k exc -> dget c (y_reg s) = Some x -> x < length (y_states s).
Proof. intros B R. destruct (b_reg _ _ _ B _ _ R) as (m & E & _). apply nth_error_Some. congruence. Qed.
Lemma grown_base s mn L s' k : grown s mn L s' -> base s (k :: others) xs -> base s' (k :: others) xs.
Proof.
  intros G B. pose proof (fun c x => grown_reg s mn L s' c x G) as GR. destruct G as (r & e & nx & -> & NX & MX & G1 & G2). pose proof (fun c x => reg_lt s _ _ c x B) as LT. destruct B as [B1 B2 B3 B4 B5 B6 B7].
  split; cbn [y_states y_reg y_next y_ver y_flag y_holder y_by_id y_tasks y_eff y_log y_over] in *; auto.
  - intros c x R. apply GR in R as [_ R]. destruct (B1 _ _ R) as (m & E & EL). exists m. rewrite nth_error_app1; eauto.
  - intros x m E. apply nth_error_app_cases in E as [E|[<-|[]]]; [apply B2 in E; lia|assumption].
  - intros j t E. destruct (B3 _ _ E) as [A1 A2]. rewrite app_length. split; [lia|auto].
  - intros c j E. destruct (B4 _ _ E) as (t & T & EL). exists t. split; auto. unfold lcs, state in *. cbn. rewrite app_nth1; auto. apply (B3 _ _ T).
  - intros c x NE R FL. apply GR in R as [_ R]. eauto.
  - intros c x m v R E O. apply GR in R as [_ R]. rewrite nth_error_app1 in E by eauto. eauto.
Qed.
Lemma grown_agree s mn L s' k exc l : grown s mn L s' -> base s k exc -> (forall c, cnt c l > 0 -> cnt c L = 0) -> agree (y_states s) (y_reg s) (y_states s') (y_reg s') l.
Proof.
  intros (r & e & nx & -> & NX & MX & G1 & G2) B D c x Hc R. cbn. destruct (G2 _ (D _ Hc)) as [-> _]. split; auto. apply nth_error_app1. eapply reg_lt; eauto.
Qed.
Lemma grown_keeps s mn L s' : grown s mn L s' -> keeps (y_states s) (y_reg s) (y_states s').
Proof. intros (r & e & nx & -> & _) o mo E _. cbn. rewrite nth_error_app1; auto. apply nth_error_Some. congruence. Qed.
Lemma grown_ctx s mn L s' k t newl pend H out cout a b C q dcur F' pend' : grown s mn L s' -> base s (k :: others) xs ->
  ctx s k t [] newl pend H out cout a b C q dcur ->
  (forall c, cnt c L <= cnt c pend) -> (forall c, cnt c (a ++ b ++ F' ++ newl ++ pend') <= 1) -> (forall c, cnt c L = 0 -> cnt c pend <= cnt c (F' ++ pend')) ->
  (forall c, cnt c pend' > 0 -> cnt c pend > 0 /\ cnt c L = 0) -> (forall c, cnt c F' > 0 -> c < y_next s') ->
  ctx s' k t F' newl pend' H out cout a b C q dcur.
Proof.
  intros G B X LP ONE COV PD BEL. pose proof (grown_agree s mn L s' _ _ (a ++ b) G B) as AG. pose proof (fun c x => grown_reg s mn L s' c x G) as GR. pose proof (fun c x => reg_lt s _ _ c x B) as LT. destruct G as (r & e & nx & -> & NX & MX & G1 & G2).
  destruct X as [X1 X2 X3 X4 X5 X6 X7 X8 X9 X10 X11 X12 X13 X14 [X15 (mx & X16 & X17 & X18 & X19 & X20)] X21 X22].
  assert (ZL : forall c, cnt c env > 0 -> cnt c L = 0). { intros c Hc. specialize (X4 c). specialize (X12 c). specialize (LP c). cn. lia. }
  assert (NA : forall x m, nth_error (y_states s) x = Some m -> nth_error (y_states s ++ [mn]) x = Some m). { intros x m E. rewrite nth_error_app1; auto. apply nth_error_Some. congruence. }
  split; cbn [y_states y_reg y_next y_ver y_flag y_holder y_by_id y_tasks y_eff y_log y_over] in *; auto.
  - eapply agree_outer; [|intros n I; destruct (EN0 _ I) as (me & Em & Cm); rewrite (fr_old _ X13 _ I), Em; apply NA; rewrite (fr_old _ X13 _ I); exact Em|exact X3]. apply AG. intros c Hc. specialize (X4 c). specialize (LP c). cn. lia.
  - intros c x R. apply GR in R as [Z R]. apply X5 in R. specialize (COV _ Z). cn. lia.
  - intros c E. destruct (cnt c L) eqn:Z; [|destruct (G1 c) as [_ Y]; [lia|congruence]]. destruct (G2 _ Z) as [-> Y]. apply X8. congruence.
  - intros c Hc Zc. assert (cnt c (a ++ b ++ pend) > 0 /\ cnt c L = 0) as [A1 A2].
    { specialize (PD c). specialize (X4 c). specialize (LP c). cn. destruct (cnt c pend') eqn:Z; [|destruct PD; lia]. split; lia. }
    destruct (G2 _ A2) as [_ ->]. auto.
  - intros c Hc. specialize (BEL c). specialize (PD c). specialize (X11 c). cn. destruct (cnt c F') eqn:Z; [|apply BEL; lia].
    enough (c < y_next s) by lia. apply X11. destruct (cnt c pend') eqn:Z'; [lia|]. destruct PD; lia.
  - destruct X13 as [R1 R2 R3 R4 R5 R6 R7]. split; cbn [y_states y_reg y_holder y_eff y_tasks]; auto.
    + intros c Hc. destruct (G2 _ (ZL _ Hc)) as [-> _]. auto.
    + intros c Hc. destruct (G2 _ (ZL _ Hc)) as [_ ->]. auto.
    + rewrite app_length. lia.
    + intros c x R. apply GR in R as [_ R]. auto.
  - split; [exact X15|]. exists mx. repeat (split; [solve [auto]|]). intros c R. apply GR in R as [Z R]. specialize (X20 _ R). cbn in X20. lia.
  - intros c y my Hc R Ey. apply GR in R as [Z R]. apply (X21 c y my); auto.
    + specialize (X5 _ _ R). specialize (ONE c). cn. lia.
    + rewrite nth_error_app1 in Ey by eauto. exact Ey.
Qed.

(** The next child component. *)
Lemma enter_open s k f st i key ty todo : opens s k f st -> f_todo f = (i, (key, ty)) :: todo ->
  exists s1, enter k (match f_old f with Some o => dget key (m_kids (state s o)) | None => None end) (Some (f_new f)) i key ty (Frame (f_new f) (f_old f) todo :: st) s = (true, s1) /\ mid s1 k.
Proof.
  intros (t & m & v & done & rest & ld & lp & ds & okids & lnew & lpend & H & out & cout & a & b & C & q & dcur & B & PC & O & CH & X) TD.
  destruct O as [O1 O2 O3 O4 O5 O6 O7 O8].
  destruct rest as [|[key' ty'] rest]; rewrite TD in O5; cbn in O5; [discriminate|]. injection O5 as -> <- <- ->. rewrite app_nil_r in *. cbn [app] in O4.
  assert (OLD : match f_old f with Some o => dget key (m_kids (state s o)) | None => None end = dget key okids).
  { unfold old_kids in O7. destruct (f_old f) as [o|]; [|subst; reflexivity]. destruct O7 as (mo & E & _ & _ & ->). erewrite state_nth by eassumption. reflexivity. }
  rewrite OLD. clear OLD.
  set (f' := Frame (f_new f) (f_old f) (number (S (length done)) rest)).
  assert (PF : path_of s (Some (f_new f)) (length done) = m_path m ++ [length done]) by (unfold path_of; erewrite state_nth by eassumption; reflexivity).
  assert (HN : forall x, cnt x (m_lcs m :: H) <= cnt x (m_lcs m :: ld ++ lnew)). { intros x. pose proof (chain_held _ _ _ _ _ _ _ _ _ _ CH x). cn. lia. }
  assert (NR : forall s' mn L, grown s mn L s' -> forall c, dget c (y_reg s') <> Some (length (y_states s))).
  { intros s' mn L G c R. apply (grown_reg _ _ _ _ _ _ G) in R as [_ R]. apply (reg_lt _ _ _ _ _ B) in R. lia. }
  assert (NN : forall s' mn L, grown s mn L s' -> nth_error (y_states s') (length (y_states s)) = Some mn).
  { intros s' mn L (r & e & nx & -> & _). cbn. rewrite nth_error_app2, Nat.sub_diag by lia. reflexivity. }
  assert (CH' : forall s' mn L lp' c, grown s mn L s' -> pends view (y_states s) (y_reg s) okids (map fst rest) lp' -> (forall c, cnt c (m_lcs m :: ld ++ lnew ++ lp' ++ lpend) > 0 -> cnt c L = 0) ->
    chain view (y_states s') (y_reg s') (Slot (Some (f_new f)) key (length done) ty (m_path m ++ [length done])) c (f' :: st) (m_lcs m :: ld ++ lnew) (lp' ++ lpend) (m_lcs m :: H) out cout).
  { intros s' mn L lp' c G P D. eapply agree_chain; [eapply grown_agree; [exact G|exact B|]|eapply grown_keeps; exact G|].
    - intros c' Hc. apply D. cn. lia.
    - change (f_new f) with (f_new f') at 1. eapply chain_cons; [|exact CH]. split; [exact O1|exact O2|exact O3|exact O4| |exact O6|exact O7|exact P]. cbn. rewrite app_length. cbn. f_equal. lia. }
  assert (FRESH : forall s' L lp' r e, s' = fresh (Some (f_new f)) (length done) key ty (set_eff e (set_reg r s)) -> grown s (Mst (y_next s) ty (Some (f_new f)) (length done) key (m_path m ++ [length done]) [] (Node (y_next s) None [])) L s' ->
     pends view (y_states s) (y_reg s) okids (map fst rest) lp' -> (forall c, cnt c lp = cnt c L + cnt c lp') -> mid (claim k (length (y_states s)) None (f' :: st) s') k).
  { intros s' L lp' r e -> G P E. pose proof (c_below _ _ _ _ _ _ _ _ _ _ _ _ _ _ X) as XB. pose proof (c_once _ _ _ _ _ _ _ _ _ _ _ _ _ _ X) as XO.
    eapply claim_mid with (okids := []) (lk := []).
    - eapply grown_base; eauto.
    - left; exact PC.
    - eapply NN; eauto.
    - eapply NR; eauto.
    - exact (r_len _ (c_fr _ _ _ _ _ _ _ _ _ _ _ _ _ _ X)).
    - reflexivity.
    - reflexivity.
    - reflexivity.
    - constructor.
    - constructor.
    - eapply CH'; eauto. intros c Hc. specialize (XO c). specialize (E c). cn. lia.
    - eapply grown_ctx; [exact G|exact B|exact X| | | | |].
      + intros c. specialize (E c). cn. lia.
      + intros c. cbn [m_lcs]. specialize (XO c). specialize (XB c). specialize (E c). cn. destruct (Nat.eq_dec c (y_next s)) as [->|NE]; [rewrite one_same|rewrite (one_diff c (y_next s)) by auto; lia].
        destruct (cnt (y_next s) a + cnt (y_next s) b + (one (y_next s) (m_lcs m) + (cnt (y_next s) ld + cnt (y_next s) lnew)) + cnt (y_next s) lp' + cnt (y_next s) lpend) eqn:Z; [lia|]. exfalso. assert (y_next s < y_next s) by (apply XB; lia). lia.
      + intros c Z. specialize (E c). cn. lia.
      + intros c Hc. specialize (E c). specialize (XO c). cn. lia.
      + intros c Hc. cbn [m_lcs cnt] in Hc. assert (c = y_next s) as -> by (apply one_pos; lia). cbn. lia.
    - cbn [m_lcs]. specialize (HN (y_next s)). destruct (cnt (y_next s) (m_lcs m :: H)) eqn:Z; auto. exfalso. assert (y_next s < y_next s); [|lia]. apply XB. cn. lia. }
  inversion O8 as [|kk ks l EN EP|kk ks oc mo l1 d l EN EM EK ET EP]; subst; rewrite EN.
  - (* the key is new *)
    eexists. split; [reflexivity|]. eapply FRESH with (L := []) (r := y_reg s) (e := y_eff s); [destruct s; reflexivity| |exact EP|intros c; cn; lia].
    exists (y_reg s), (y_eff s), (S (y_next s)). unfold fresh. cbn [y_states y_reg set_states set_next set_eff set_reg y_ver y_flag y_holder y_by_id y_tasks y_eff y_log y_over y_next]. rewrite <- PF.
    split; [reflexivity|]. split; [lia|]. split; [cbn; lia|]. split; [cbn; lia|auto].
  - unfold enter. rewrite (state_nth s oc mo EM). destruct (Nat.eqb_spec (m_type mo) ty) as [ET'|NT].
    + (* rendered again *)
      eexists. split; [reflexivity|]. inversion ET as [i0 m0 v0 l0 ds0 T1 T2 T3 T4]; subst. replace m0 with mo in * by congruence. clear m0 T1.
      assert (G : grown s (Mst (m_lcs mo) (m_type mo) (Some (f_new f)) (length done) (m_key mo) (m_path m ++ [length done]) [] (Node (m_lcs mo) None [])) [] (renew oc (Some (f_new f)) (length done) s)).
      { exists (y_reg s), (y_eff s), (y_next s). unfold renew. rewrite (state_nth s oc mo EM). rewrite <- PF. split; [reflexivity|]. split; [lia|]. split; [exact (b_lcs _ _ _ B oc mo EM)|]. split; [cbn; lia|auto]. }
      pose proof (c_once _ _ _ _ _ _ _ _ _ _ _ _ _ _ X) as XO. pose proof (c_below _ _ _ _ _ _ _ _ _ _ _ _ _ _ X) as XB.
      destruct (kids_len _ _ _ _ _ _ _ _ _ _ T4) as (_ & _ & KL).
      assert (NK : NoDup (dkeys (m_kids mo))) by (rewrite KL; apply V).
      eapply claim_mid with (okids := m_kids mo) (lk := l0).
      * eapply grown_base; eauto.
      * left; exact PC.
      * eapply NN; eauto.
      * eapply NR; eauto.
      * exact (r_len _ (c_fr _ _ _ _ _ _ _ _ _ _ _ _ _ _ X)).
      * reflexivity.
      * reflexivity.
      * cbn [m_lcs old_kids]. exists mo. split; [|split; [reflexivity|split; [|reflexivity]]].
        -- cbn. rewrite nth_error_app1; auto. apply nth_error_Some. congruence.
        -- assert (oc < length (y_states s)) by (apply nth_error_Some; congruence). lia.
      * exact NK.
      * eapply agree_pends; [eapply grown_agree; [exact G|exact B|cn; lia]|]. eapply pends_of_kids; [exact T4|]. intros kk x I. apply In_dget; auto.
      * cbn [m_lcs slot_of m_parent m_key m_index m_type m_path]. eapply CH'; eauto.
      * eapply grown_ctx; [exact G|exact B|exact X| | | | |]; cbn [m_lcs]; intros c.
        -- cn. lia.
        -- specialize (XO c). cn. lia.
        -- intros _. cn. lia.
        -- cn. lia.
        -- intros Hc. cn. assert (c = m_lcs mo) as -> by (apply one_pos; lia). exact (b_lcs _ _ _ B oc mo EM).
      * cbn [m_lcs]. specialize (HN (m_lcs mo)). specialize (XO (m_lcs mo)). cn. rewrite one_same in XO. lia.
    + (* another type under the same key *)
      pose proof (c_once _ _ _ _ _ _ _ _ _ _ _ _ _ _ X) as XO.
      destruct (unmount_ok view (length (y_reg s)) [oc] [l1] s) as (r & e & U & U1 & U2).
      * constructor; [eauto|constructor].
      * intros c. specialize (XO c). cbn [concat]. cn. lia.
      * cbn. rewrite app_nil_r. apply reg_len.
        -- intros c Hc. apply cnt_in in Hc. destruct (proj1 (tree_reg view _ _) _ _ _ ET _ Hc) as (x & _ & _ & R & _). eauto.
        -- intros c. specialize (XO c). cn. lia.
      * rewrite U. eexists. split; [reflexivity|]. cbn [concat] in U1, U2. rewrite app_nil_r in U1, U2. eapply FRESH with (L := l1); [reflexivity| |exact EP|intros c; cn; lia].
        exists r, e, (S (y_next s)). unfold fresh. cbn [y_states y_reg set_states set_next set_eff set_reg y_ver y_flag y_holder y_by_id y_tasks y_eff y_log y_over y_next]. rewrite <- PF.
        split; [reflexivity|]. split; [lia|]. split; [cbn; lia|]. split; auto.
Qed.

(** ** The return of a component *)
Lemma base_put s s' k c p m m' : base s k c -> nth_error (y_states s) p = Some m -> m_lcs m' = m_lcs m -> d_out (m_model m') = d_out (m_model m) ->
  y_states s' = put (y_states s) p m' -> y_reg s' = y_reg s -> y_next s' = y_next s -> y_ver s' = y_ver s -> y_flag s' = y_flag s -> y_by_id s' = y_by_id s ->
  y_tasks s' = y_tasks s -> y_over s' = y_over s -> base s' k c.
Proof.
  intros [B1 B2 B3 B4 B5 B6 B7] E EL EO E1 E2 E3 E4 E5 E6 E7 E8.
  assert (LP : p < length (y_states s)) by (apply nth_error_Some; congruence).
  assert (G : forall x mx, nth_error (y_states s') x = Some mx -> exists mx', nth_error (y_states s) x = Some mx' /\ m_lcs mx = m_lcs mx' /\ d_out (m_model mx) = d_out (m_model mx')).
  { intros x mx. rewrite E1. destruct (Nat.eq_dec p x) as [->|NE]; [rewrite put_same by auto; intros [= <-]; eauto|rewrite put_other by auto; eauto]. }
  assert (G' : forall x mx, nth_error (y_states s) x = Some mx -> exists mx', nth_error (y_states s') x = Some mx' /\ m_lcs mx' = m_lcs mx).
  { intros x mx Ex. rewrite E1. destruct (Nat.eq_dec p x) as [->|NE]; [rewrite put_same by auto; exists m'; split; congruence|rewrite put_other by auto; eauto]. }
  split; rewrite ?E2, ?E3, ?E4, ?E5, ?E6, ?E7, ?E8; auto.
  - intros c' x R. destruct (B1 _ _ R) as (mx & Ex & <-). destruct (G' _ _ Ex) as (mx' & ? & ?). eauto.
  - intros x mx Ex. destruct (G _ _ Ex) as (mx' & Ex' & -> & _). eauto.
  - intros j t T. rewrite E1, put_length. auto.
  - intros c' j Ec. destruct (B4 _ _ Ec) as (t & T & L). exists t. split; auto. rewrite lcs_nth in *. destruct (nth_error (y_states s) (t_old t)) as [mx|] eqn:Z.
    + destruct (G' _ _ Z) as (mx' & -> & ->). exact L.
    + destruct (B3 _ _ T) as [LL _]. apply nth_error_None in Z. lia.
  - intros c' x mx v R Ex Ev. destruct (G _ _ Ex) as (mx' & Ex' & _ & EO'). rewrite EO' in Ev. eauto.
Qed.

Lemma attach_open s k f g st : opens s k f (g :: st) -> f_todo f = [] -> opens (attach (f_new g) (f_new f) (release (lcs s (f_new f)) s)) k g st.
Proof.
  intros (t & m & v & done & rest & ld & lp & ds & okids & lnew & lpend & H & out & cout & a & b & C & q & dcur & B & PC & O & CH & X) TD.
  destruct O as [O1 O2 O3 O4 O5 O6 O7 O8]. destruct rest as [|[? ?] ?]; [|rewrite TD in O5; discriminate]. rewrite app_nil_r in *. cbn in O4, O8. rewrite ?app_nil_r in O4. inversion O8; subst. clear O8 O5.
  inversion CH as [|c' f0 mg vg doneg key ty restg ldg lpg dsg okg st0 lnewg lpendg Hg o1 c1 OG CG E1 E2 E3 E4 E5 E6 E7 E8]; subst. clear CH.
  destruct OG as [P1 P2 P3 P4 P5 P6 P7 P8].
  destruct X as [X1 X2 X3 X4 X5 X6 X7 X8 X9 X10 X11 X12 X13 X14 [X15 (mx & X16 & X17 & X18 & X19 & X20)] X21 X22].
  pose proof (b_reg _ _ _ B) as BR.
  destruct (kids_len _ _ _ _ _ _ _ _ _ _ P6) as (KL1 & KL2 & KL3).
  assert (NK : ~ In (m_key m) (dkeys (m_kids mg))).
  { rewrite KL3. pose proof (V (m_type mg) vg) as W. rewrite P4, map_app in W. cbn in W. apply NoDup_remove_2 in W. rewrite in_app_iff in W. tauto. }
  assert (NE : m_lcs mg <> m_lcs m). { intros E. specialize (X4 (m_lcs m)). cn. rewrite E, one_same in X4. lia. }
  assert (NF : f_new f <> f_new g) by (intros E; rewrite E in *; congruence).
  set (mg' := set_kids (dset (m_key m) (f_new f) (m_kids mg)) (set_model (Node (m_lcs mg) (Some vg) (dsg ++ [m_model m])) mg)).
  assert (ST : y_states (attach (f_new g) (f_new f) (release (lcs s (f_new f)) s)) = put (y_states s) (f_new g) mg').
  { unfold attach, modify, mg'. cbn [y_states set_states]. unfold state, release. cbn [y_states set_holder]. rewrite (nth_error_nth _ _ _ O1), (nth_error_nth _ _ _ P1). rewrite P3. reflexivity. }
  assert (HO : y_holder (attach (f_new g) (f_new f) (release (lcs s (f_new f)) s)) = at_ (y_holder s) (m_lcs m) None).
  { cbn. unfold lcs. rewrite (state_nth _ _ _ O1). reflexivity. }
  set (s' := attach (f_new g) (f_new f) (release (lcs s (f_new f)) s)) in *.
  assert (RG : y_reg s' = y_reg s) by reflexivity.
  assert (LG : f_new g < length (y_states s)) by (apply nth_error_Some; congruence).
  assert (AG : forall l, cnt (m_lcs mg) l = 0 -> agree (y_states s) (y_reg s) (y_states s') (y_reg s') l).
  { intros l Z. rewrite ST, RG. eapply put_agree; eauto. }
  assert (KP : keeps (y_states s) (y_reg s) (y_states s')) by (rewrite ST; eapply put_keeps; eauto).
  assert (Z : forall l, (forall c, cnt c l <= cnt c (a ++ b ++ (m_lcs m :: ld) ++ ldg ++ lpg ++ lnewg ++ lpendg)) -> cnt (m_lcs mg) l = 0).
  { intros l Hl. specialize (Hl (m_lcs mg)). specialize (X4 (m_lcs mg)). cn. rewrite one_same in X4. lia. }
  assert (Z2 : forall l, (forall c, cnt c l <= cnt c (a ++ b ++ (m_lcs m :: ld) ++ ldg ++ lpg ++ lnewg ++ lpendg)) -> agree (y_states s) (y_reg s) (y_states s') (y_reg s') l) by auto.
  assert (NV : cnt (m_lcs m) env = 0 /\ cnt (m_lcs mg) env = 0).
  { split; [specialize (X4 (m_lcs m)); specialize (X12 (m_lcs m))|specialize (X4 (m_lcs mg)); specialize (X12 (m_lcs mg))]; cn; rewrite one_same in X4; lia. }
  assert (FR : fr s').
  { eapply fr_put with (s := s) (c := m_lcs mg) (m := mg); eauto; [tauto|]. intros d D. rewrite HO, RG. split; auto. split; auto. apply at_other. intros ->. lia. }
  assert (O1' : nth_error (y_states s') (f_new f) = Some m) by (rewrite ST, put_other; auto).
  assert (TF : tree view (y_states s') (y_reg s') (f_new f) (m_lcs m :: ld) (m_model m)).
  { rewrite O3. eapply agree_tree; [apply (Z2 (m_lcs m :: ld)); intros c; cn; lia|]. eapply tree_node; [exact O1|exact O2|rewrite O3; reflexivity|exact O6]. }
  exists t, mg', vg, (doneg ++ [(m_key m, m_type m)]), restg, (ldg ++ m_lcs m :: ld), lpg, (dsg ++ [m_model m]), okg, lnewg, lpendg, Hg, out, cout, a, b, C, q, dcur.
  split; [|split; [exact PC|split; [|split]]].
  - eapply base_put with (s := s) (m' := mg') (m := mg); eauto; try reflexivity. cbn. rewrite P3. reflexivity.
  - split; auto.
    + rewrite ST, put_same; auto.
    + cbn [m_type mg' set_kids set_model]. rewrite P4, <- app_assoc. reflexivity.
    + rewrite P5, app_nil_r. reflexivity.
    + cbn [m_path m_kids mg' set_kids set_model]. rewrite dset_snoc by exact NK. apply kids_app.
      * eapply agree_kids; [|exact P6]. apply Z2. intros c; cn; lia.
      * cbn [Nat.add]. replace (m_lcs m :: ld) with ((m_lcs m :: ld) ++ []) by apply app_nil_r. eapply kids_cons; [exact O1'| |exact TF|constructor]. unfold slot_of. rewrite KL1. congruence.
    + cbn [m_lcs mg' set_kids set_model]. eapply keeps_old; [exact KP| |exact P7]. exact P2.
    + eapply agree_pends; [|exact P8]. apply Z2. intros c; cn; lia.
  - change (slot_of mg') with (slot_of mg). change (m_lcs mg') with (m_lcs mg). eapply agree_chain; [|exact KP|exact CG]. apply Z2. intros c; cn; lia.
  - change (m_lcs mg') with (m_lcs mg). split; auto.
    + eapply agree_outer; [| |exact X3]; [apply Z2; intros c; cn; lia|]. intros n I. rewrite (fr_old _ FR _ I), (fr_old _ X13 _ I). reflexivity.
    + intros c. specialize (X4 c). cn. lia.
    + intros c x R. apply X5 in R. cn. lia.
    + intros c Hc Zc. rewrite HO. destruct (Nat.eq_dec c (m_lcs m)) as [->|NC]; [apply at_same|]. rewrite at_other by auto. apply X6; auto. cn. rewrite (one_diff c (m_lcs m)) by auto. lia.
    + intros c. rewrite X7. cn. lia.
    + intros c Hc. apply X11. cn. lia.
    + split; [exact X15|]. exists mx. split; [|repeat (split; [solve [auto]|]); intros c R; specialize (X20 _ R); cbn in X20; lia].
      apply KP; auto. intros R. specialize (X20 _ R). cbn in X20. lia.
    + intros c y my Hc R Ey. rewrite ST in Ey. destruct (Nat.eq_dec (f_new g) y) as [<-|NY].
      * rewrite put_same in Ey by auto. injection Ey as <-. apply (X21 (m_lcs mg) (f_new g) mg); auto. cn. rewrite one_same. lia.
      * rewrite put_other in Ey by auto. apply (X21 c y my); auto. cn. lia.
Qed.

(** ** The end of a render *)
Lemma base_end s s' k t u : base s (k :: others) xs -> nth_error (y_tasks s) k = Some t -> (t_pc t <> Start \/ t_cancel t = true) -> t_old u = t_old t -> finished u = true ->
  y_states s' = y_states s -> y_reg s' = y_reg s -> y_next s' = y_next s -> y_ver s' = y_ver s -> y_flag s' = y_flag s -> y_by_id s' = y_by_id s ->
  y_tasks s' = put (y_tasks s) k u -> y_over s' = y_over s -> base s' others xs.
Proof.
  intros [B1 B2 B3 B4 B5 B6 B7] T PC EO FI E1 E2 E3 E4 E5 E6 E7 E8.
  assert (LK : k < length (y_tasks s)) by (apply nth_error_Some; congruence).
  split; rewrite ?E1, ?E2, ?E3, ?E4, ?E5, ?E6, ?E7, ?E8; auto.
  - intros j w E. destruct (Nat.eq_dec k j) as [<-|NE].
    + rewrite put_same in E by auto. injection E as <-. rewrite EO. split; [apply (B3 _ _ T)|auto].
    + rewrite put_other in E by auto. destruct (B3 _ _ E) as [L R]. split; auto. intros NI. apply R. cbn. tauto.
  - intros c j E. destruct (B4 _ _ E) as (w & W & L). assert (EL : forall i, lcs s' i = lcs s i) by (intros i; rewrite !lcs_nth, E1; reflexivity). destruct (Nat.eq_dec k j) as [<-|NE].
    + exists u. rewrite put_same by auto. split; auto. rewrite EL, EO. replace t with w by congruence. exact L.
    + exists w. rewrite put_other by auto. rewrite EL. auto.
  - intros c x NE R FL. destruct (B5 c x NE R FL) as (j & w & W1 & W2 & W3 & W4 & W5). exists j, w. rewrite put_other; [auto 6|]. intros <-. replace w with t in * by congruence. destruct PC; congruence.
Qed.
Lemma complete_rest s k f : opens s k f [] -> f_todo f = [] -> rests (complete k (f_new f) (release (lcs s (f_new f)) s)).
Proof.
  intros (t & m & v & done & rest & ld & lp & ds & okids & lnew & lpend & H & out & cout & a & b & C & q & dcur & B & PC & O & CH & X) TD.
  destruct O as [O1 O2 O3 O4 O5 O6 O7 O8]. destruct rest as [|[? ?] ?]; [|rewrite TD in O5; discriminate]. cbn in O4, O8. rewrite ?app_nil_r in O4. inversion O8; subst. clear O8 O5.
  inversion CH; subst. clear CH. destruct X as [X1 X2 X3 X4 X5 X6 X7 X8 X9 X10 X11 X12 X13 X14 [X15 (mx & X16 & X17 & X18 & X19 & X20)] X21 X22]. rewrite ?app_nil_r in *. cbn [app] in *.
  pose proof (b_reg _ _ _ B) as BR.
  assert (TF : tree view (y_states s) (y_reg s) (f_new f) (m_lcs m :: ld) (m_model m)).
  { rewrite O3. eapply tree_node; [exact O1|exact O2|rewrite O3; reflexivity|exact O6]. }
  assert (EF : forall c, existsb (Nat.eqb c) (t_hooks t) = true <-> cnt c (m_lcs m :: ld) > 0).
  { intros c. rewrite <- X7. apply (inb_in (t_hooks t) c). }
  assert (NV : forall c, cnt c (m_lcs m :: ld) > 0 -> cnt c env = 0). { intros c Hc. specialize (X4 c). specialize (X12 c). cn. lia. }
  set (e := fun c => existsb (Nat.eqb c) (t_hooks t) || y_eff s c).
  set (h := at_ (y_holder s) (m_lcs m) None).
  set (u := Task (t_old t) Done (t_cancel t) (t_hooks t)).
  assert (HH : forall c, cnt c env = 0 -> h c = None). { intros c Zc. unfold h. destruct (Nat.eq_dec c (m_lcs m)) as [->|NE]; [apply at_same|]. rewrite at_other by auto. apply X6; auto. cn. rewrite one_diff by auto. reflexivity. }
  assert (EE : forall c, e c = true -> exists x, dget c (y_reg s) = Some x).
  { intros c Ec. unfold e in Ec. apply orb_true_iff in Ec as [Ec|Ec]; [|auto]. apply EF in Ec. apply cnt_in in Ec. destruct (proj1 (tree_reg view _ _) _ _ _ TF _ Ec) as (x & _ & _ & R & _). eauto. }
  assert (EA : forall c, cnt c (a ++ (m_lcs m :: ld) ++ b) > 0 -> cnt c env = 0 -> e c = true).
  { intros c Hc Zc. unfold e. apply orb_true_iff. destruct (cnt c (m_lcs m :: ld)) eqn:Z; [right; apply X9; auto; cn; lia|left; apply EF; lia]. }
  assert (EV : forall c, cnt c env > 0 -> h c = y_holder s c /\ e c = y_eff s c).
  { intros c Hc. assert (cnt c (m_lcs m :: ld) = 0) as Z by (destruct (cnt c (m_lcs m :: ld)) eqn:Z; auto; specialize (NV c); lia). split.
    - unfold h. apply at_other. intros ->. cn. rewrite one_same in Z. lia.
    - unfold e. destruct (existsb (Nat.eqb c) (t_hooks t)) eqn:Q; [|reflexivity]. apply EF in Q. lia. }
  assert (EQ : exists S', complete k (f_new f) (release (lcs s (f_new f)) s) = Sys S' (y_reg s) (y_next s) (y_ver s) (y_flag s) h (y_by_id s) (put (y_tasks s) k u) e (y_log s ++ [(m_path m, m_model m)]) (y_over s) /\
    match m_parent m with
    | None => S' = y_states s
    | Some p => S' = put (y_states s) p (set_kids (dset (m_key m) (f_new f) (m_kids (state s p)))
                          (set_model (Node (d_id (m_model (state s p))) (d_out (m_model (state s p)))
                                        (firstn (m_index m) (d_kids (m_model (state s p))) ++ [m_model m] ++ skipn (S (m_index m)) (d_kids (m_model (state s p))))) (state s p)))
    end).
  { unfold complete, start_effects, release, lcs. rewrite (state_nth _ _ _ O1). cbn [y_tasks set_holder]. rewrite X1. unfold state. cbn [y_states set_eff set_holder]. rewrite (nth_error_nth _ _ _ O1).
    destruct (m_parent m) as [p|]; unfold set_pc; cbn [y_tasks set_log modify set_states set_eff set_holder]; rewrite X1; eexists; (split; [reflexivity|reflexivity]). }
  destruct EQ as (S' & -> & ES).
  assert (TS : forall j w, In j others -> nth_error (y_tasks s) j = Some w -> nth_error (put (y_tasks s) k u) j = Some w).
  { intros j w J W. rewrite put_other; auto. intros ->. auto. }
  inversion X3 as [Q0 Q0' Q1 Q2 Q3 Q4 Q5|r mr sl cc aa bb CC qq R0 R1 R2 R3 HO Q1 Q2 Q3 Q4 Q5 Q6].
  - (* the root *)
    assert (PM : m_parent m = None) by congruence. rewrite PM in ES. subst S' a b C q.
    split; [exists (m_lcs m :: ld)|].
    + split; [|intros c; specialize (X12 c); cn; lia]. split; [eapply base_end with (s := s) (u := u); eauto; reflexivity|]. split; [exact HH|]. split; [exact EE|].
      exists (f_new f), m, (m_model m). cbn [y_states y_reg y_eff y_log]. split; [rewrite <- Q2 in O2; exact O2|]. split; [exact O1|]. split; [unfold slot_of; congruence|].
      split; [rewrite Q0, Q0'; apply (proj1 (tree_btree view _ _)); exact TF|]. split; [intros c; specialize (X4 c); cn; lia|]. split; [intros c x R; specialize (X5 c x R); cn; lia|].
      split; [intros c Hc; apply EA; cn; lia|]. split; [|destruct (y_log s); discriminate].
      unfold shown. rewrite fold_left_app. reflexivity.
    + destruct X13 as [F1 F2 F3 F4 F5 F6 F7]. split; cbn [y_states y_reg y_holder y_eff y_tasks]; auto.
      * intros c Hc. rewrite (proj1 (EV c Hc)). auto.
      * intros c Hc. rewrite (proj2 (EV c Hc)). auto.
  - subst sl cc aa bb CC qq.
    destruct (bhole_slot _ _ _ _ _ _ _ _ _ _ _ _ HO) as (p & mp & P1 & P2 & P3 & P4 & P5 & P6). pose proof (bhole_ids _ _ _ _ _ _ _ _ _ _ _ _ HO p mp P1 P2) as PI. cbn [l_par slot_of l_path l_index] in *. rewrite P1 in ES. rewrite (state_nth _ _ _ P2) in ES.
    match type of ES with _ = put _ _ ?x => set (mp' := x) in * end.
    assert (LP : p < length (y_states s)) by (apply nth_error_Some; congruence).
    assert (NP : m_lcs mp <> m_lcs m). { intros E. apply cnt_in in P4. specialize (X4 (m_lcs m)). rewrite E in P4. cn. rewrite one_same in X4. lia. }
    assert (NF : f_new f <> p) by (intros E; congruence).
    assert (NVP : cnt (m_lcs mp) env = 0). { specialize (PI (m_lcs mp)). specialize (X4 (m_lcs mp)). rewrite one_same in PI. cn. lia. }
    set (s2 := set_states S' s).
    assert (B2 : base s2 (k :: others) xs) by (eapply base_put with (s := s) (p := p) (m := mp) (m' := mp'); eauto; reflexivity).
    assert (AG : forall l, cnt (m_lcs mp) l = 0 -> agree (y_states s) (y_reg s) S' (y_reg s) l) by (intros l Z; rewrite ES; eapply put_agree; eauto).
    assert (FR : forall b2 b3, fr (Sys S' (y_reg s) (y_next s) (y_ver s) (y_flag s) h (y_by_id s) (put (y_tasks s) k u) e b2 b3)).
    { intros b2 b3. eapply fr_put with (s := s) (c := m_lcs mp) (m := mp); eauto. }
    assert (TF' : tree view S' (y_reg s) (f_new f) (m_lcs m :: ld) (m_model m)).
    { eapply agree_tree; [apply AG|exact TF]. apply cnt_in in P4. specialize (X4 (m_lcs mp)). cn. lia. }
    assert (O1' : nth_error S' (f_new f) = Some m) by (rewrite ES, put_other; auto).
    assert (TR : btree view S' (y_reg s) r (a ++ (m_lcs m :: ld) ++ b) (ea ++ eb) (C (m_model m))).
    { eapply bhole_plug with (S := y_states s) (reg := y_reg s) (p := p) (m := mp) (m' := mp') (mn := m); eauto; cbn [l_par slot_of l_key]; auto.
      - rewrite ES, put_same; auto.
      - intros c x I NE R. split; auto. rewrite ES. apply put_other. intros <-. destruct (BR _ _ R) as (mx' & Ex & <-). apply NE. congruence.
      - apply cnt_nodup. intros c. specialize (X4 c). cn. lia.
      - intros n I. pose proof (fr_old _ (FR (y_log s) (y_over s)) _ I) as G1. pose proof (fr_old _ X13 _ I) as G2. cbn in G1. congruence.
      - apply (proj1 (tree_btree view _ _)). exact TF'. }
    assert (MR : exists mr', nth_error S' r = Some mr' /\ slot_of mr' = slot_of mr).
    { rewrite ES. destruct (Nat.eq_dec p r) as [->|NE]; [exists mp'; rewrite put_same by auto; split; auto; replace mr with mp by congruence; reflexivity|exists mr; rewrite put_other; auto]. }
    destruct MR as (mr' & M1 & M2).
    split; [exists (a ++ (m_lcs m :: ld) ++ b)|exact (FR _ _)].
    split; [|intros c; specialize (X12 c); cn; lia]. split; [eapply base_end with (s := s2) (u := u); eauto; reflexivity|]. split; [exact HH|]. split; [exact EE|].
    exists r, mr', (C (m_model m)). cbn [y_states y_reg y_eff y_log]. split; [exact R0|]. split; [exact M1|]. split; [congruence|].
    split; [exact TR|]. split; [intros c; specialize (X4 c); cn; lia|]. split; [intros c x R; specialize (X5 c x R); cn; lia|].
    split; [exact EA|]. split; [|destruct (y_log s); discriminate].
    unfold shown in *. rewrite fold_left_app. cbn. rewrite X10. replace (m_path m) with q; [eapply bhole_replace; eauto|].
    specialize (P6 _ R1). rewrite P5, P6. unfold slot_of in R3. replace (m_path mr) with (@nil nat) by congruence. reflexivity.
Qed.
Lemma descend_ok k : forall st f s, opens s k f st -> mid (descend k (f :: st) s) k \/ rests (descend k (f :: st) s).
Proof.
  induction st as [|g st IH]; intros f s O; cbn [descend]; destruct (f_todo f) as [|[i [key ty]] todo] eqn:TD.
  - right. apply complete_rest; auto.
  - left. destruct (enter_open _ _ _ _ _ _ _ _ O TD) as (s1 & -> & M). exact M.
  - apply IH. apply attach_open; auto.
  - left. destruct (enter_open _ _ _ _ _ _ _ _ O TD) as (s1 & -> & M). exact M.
Qed.

(** ** The component function *)
Lemma body_ok s k t n old st : mid s k -> nth_error (y_tasks s) k = Some t -> t_pc t = Got n old st -> mid (body view k n old st s) k \/ rests (body view k n old st s).
Proof.
  intros (t' & n' & old' & st' & m & okids & lk & lnew & lpend & H & out & cout & a & b & C & q & dcur & B & PC & N & R & K0 & M0 & NX & O & ND & P & CH & X) T PC'.
  destruct X as [X1 X2 X3 X4 X5 X6 X7 X8 X9 X10 X11 X12 X13 X14 [X15 (mz & X16 & X17 & X18 & X19 & X20)] X21 X22]. replace t' with t in * by congruence. rewrite PC' in PC. injection PC as <- <- <-. clear t' X1.
  assert (LN : n < length (y_states s)) by (apply nth_error_Some; congruence). assert (LK : k < length (y_tasks s)) by (apply nth_error_Some; congruence).
  assert (EL : lcs s n = m_lcs m) by (unfold lcs; rewrite (state_nth _ _ _ N); reflexivity).
  unfold body. rewrite EL, (state_nth _ _ _ N). cbn [y_tasks set_flag]. rewrite T. set (c := m_lcs m) in *. set (v := y_ver s c). set (kv := view (m_type m) v).
  rewrite nodupb_ok by apply V.
  set (u := Task (t_old t) (t_pc t) (t_cancel t) (t_hooks t ++ [c])).
  set (m' := set_model (Node c (Some v) []) m).
  set (S' := put (y_states s) n m').
  set (s3 := Sys S' (y_reg s) (y_next s) (y_ver s) (at_ (y_flag s) c false) (y_holder s) (y_by_id s) (put (y_tasks s) k u) (y_eff s) (y_log s) (y_over s)).
  assert (E3 : modify n (set_model (Node c (Some v) [])) (set_tasks (put (y_tasks s) k u) (set_flag (at_ (y_flag s) c false) s)) = s3).
  { unfold modify, s3, S', m'. unfold state. cbn [y_states set_tasks set_flag]. rewrite (nth_error_nth _ _ _ N). reflexivity. }
  rewrite E3. clear E3.
  destruct B as [B1 B2 B3 B4 B5 B6 B7].
  assert (AG : forall l, cnt c l = 0 -> agree (y_states s) (y_reg s) S' (y_reg s) l) by (intros l Z; eapply put_agree; eauto).
  assert (KP : keeps (y_states s) (y_reg s) S') by (eapply put_keeps; eauto).
  destruct (pends_split view (y_states s) (y_reg s) okids (map fst kv) lk ND (V _ _) P) as (ls & lp & T1 & T2 & T3).
  assert (STALE : match old with Some o => map snd (filter (fun e => negb (existsb (Nat.eqb (fst e)) (map fst kv))) (m_kids (state s3 o))) | None => [] end
    = map snd (filter (fun e => negb (existsb (Nat.eqb (fst e)) (map fst kv))) okids)).
  { unfold old_kids in O. destruct old as [o|]; [|rewrite O; reflexivity]. destruct O as (mo & Eo & _ & NE & ->). rewrite (state_nth s3 o mo); [reflexivity|]. cbn. unfold S'. rewrite put_other; auto. }
  rewrite STALE. clear STALE.
  assert (ZL : forall l, (forall c', cnt c' l <= cnt c' (a ++ b ++ lnew ++ lk ++ lpend)) -> cnt c l = 0).
  { intros l Hl. specialize (Hl c). specialize (X4 c). cn. rewrite one_same in X4. lia. }
  destruct (unmount_ok view (length (y_reg s)) (map snd (filter (fun e => negb (existsb (Nat.eqb (fst e)) (map fst kv))) okids)) ls s3) as (r & e & U & U1 & U2).
  { cbn. eapply trees_agree; [apply AG|exact T1]. apply ZL. intros c'. specialize (T3 c'). cn. lia. }
  { intros c'. specialize (X4 c'). specialize (T3 c'). cn. lia. }
  { apply reg_len; [|intros c'; specialize (X4 c'); specialize (T3 c'); cn; lia]. intros c' Hc'. clear - T1 Hc'.
    induction T1 as [|i l is_ ls [d D] TS IH]; cbn in Hc'; [lia|]. rewrite cnt_app in Hc'. destruct (cnt c' l) eqn:Z; [apply IH; lia|].
    assert (I : In c' l) by (apply cnt_in; lia). destruct (proj1 (tree_reg view _ _) _ _ _ D _ I) as (x & _ & _ & Rx & _). eauto. }
  change (length (y_reg s3)) with (length (y_reg s)). rewrite U. clear U. set (s4 := set_eff e (set_reg r s3)). set (L := concat ls) in *.
  assert (LE : forall c', cnt c' L + cnt c' lp = cnt c' lk) by (intros c'; specialize (T3 c'); lia).
  assert (RR : forall c' x, dget c' r = Some x -> cnt c' L = 0 /\ dget c' (y_reg s) = Some x).
  { intros c' x Rx. destruct (cnt c' L) eqn:Z; [destruct (U2 _ Z) as [Y _]; split; [auto|rewrite Y in Rx; exact Rx]|]. destruct (U1 c') as [Y _]; [lia|congruence]. }
  assert (AG4 : forall l, (forall c', cnt c' l <= cnt c' (a ++ b ++ lnew ++ lp ++ lpend)) -> agree (y_states s) (y_reg s) (y_states s4) (y_reg s4) l).
  { intros l Hl c' x Hc Rx. assert (cnt c' L = 0) as Z. { specialize (X4 c'). specialize (LE c'). specialize (Hl c'). cn. lia. }
    destruct (U2 _ Z) as [Y _]. cbn. rewrite Y. cbn. split; auto. apply (AG l) with (c := c'); auto. apply ZL. intros c2. specialize (Hl c2). specialize (LE c2). cn. lia. }
  assert (CL : cnt c L = 0). { apply ZL. intros c'. specialize (LE c'). cn. lia. }
  assert (NV : cnt c env = 0). { specialize (X4 c). specialize (X12 c). cn. rewrite one_same in X4. lia. }
  assert (FR : fr s4).
  { eapply fr_put with (s := s) (c := c) (m := m) (p := n) (m' := m'); auto.
    - intros d x Rx. apply RR in Rx. tauto.
    - intros d D. assert (cnt d L = 0) as Z by (specialize (X4 d); specialize (X12 d); specialize (LE d); cn; lia). destruct (U2 _ Z) as [Y1 Y2]. cbn. auto.
    - intros j w J W. cbn. rewrite put_other; auto. intros ->. auto. }
  apply descend_ok.
  exists u, m', v, [], kv, [], lp, [], okids, lnew, lpend, H, out, cout, a, b, C, q, dcur.
  split; [|split; [cbn; congruence|split; [|split]]].
  - split; cbn [y_states y_reg y_next y_ver y_flag y_holder y_by_id y_tasks y_eff y_log y_over s4 s3 set_eff set_reg]; auto.
    + intros c' x Rx. apply RR in Rx as [_ Rx]. destruct (B1 _ _ Rx) as (mx & Ex & Lx). unfold S'. destruct (Nat.eq_dec n x) as [<-|NE]; [exists m'; rewrite put_same by auto; split; auto; cbn; congruence|exists mx; rewrite put_other; auto].
    + intros x mx. unfold S'. destruct (Nat.eq_dec n x) as [<-|NE]; [rewrite put_same by auto; intros [= <-]; cbn; eauto|rewrite put_other by auto; eauto].
    + intros j w. unfold S'. rewrite put_length. destruct (Nat.eq_dec k j) as [<-|NE]; [rewrite put_same by auto; intros [= <-]; cbn; split; [apply (B3 _ _ T)|intros NI; destruct NI; auto]|rewrite put_other by auto; auto].
    + assert (EL' : forall i, lcs s4 i = lcs s i).
      { intros i. rewrite !lcs_nth. cbn. unfold S'. destruct (Nat.eq_dec n i) as [<-|NE]; [rewrite put_same by auto; rewrite N; reflexivity|rewrite put_other; auto]. }
      intros c' j E. destruct (B4 _ _ E) as (w & W & Lw). fold s3. destruct (Nat.eq_dec k j) as [<-|NE].
      * exists u. rewrite put_same by auto. split; auto. change (lcs s4 (t_old t) = c'). rewrite EL'. replace t with w by congruence. exact Lw.
      * exists w. rewrite put_other by auto. split; auto. change (lcs s4 (t_old w) = c'). rewrite EL'. exact Lw.
    + intros c' x NI Rx FL. apply RR in Rx as [_ Rx]. destruct (Nat.eq_dec c' c) as [->|NC]; [rewrite at_same in FL; discriminate|]. rewrite at_other in FL by auto.
      destruct (B5 c' x) as (j & w & W1 & W2 & W3 & W4 & W5); auto; [intros [E|E]; [apply NC; auto|auto]|]. exists j, w. rewrite put_other; [auto 6|]. intros <-. replace w with t in * by congruence. congruence.
    + intros c' x mx w Rx Ex Ow. apply RR in Rx as [_ Rx]. destruct (Nat.eq_dec c' c) as [->|NC].
      * left. assert (x = n) as -> by (pose proof (eq_trans (eq_sym Rx) R) as Q0; congruence). unfold S' in Ex. rewrite put_same in Ex by auto. injection Ex as <-. cbn in Ow. injection Ow as <-. reflexivity.
      * rewrite at_other by auto. unfold S' in Ex. rewrite put_other in Ex; [eauto|]. intros <-. destruct (B1 _ _ Rx) as (mx' & Ex' & Lx). apply NC. unfold c. congruence.
  - split; cbn [f_new f_old f_todo]; auto.
    + cbn. unfold S'. apply put_same; auto.
    + change (dget c r = Some n). destruct (U2 _ CL) as [-> _]. exact R.
    + cbn [m_kids m' set_model]. rewrite K0. constructor.
    + cbn [m_lcs m' set_model]. eapply keeps_old; [exact KP|exact R|exact O].
    + eapply agree_pends; [apply AG4|exact T2]. intros c'. cn. lia.
  - change (slot_of m') with (slot_of m). change (m_lcs m') with c. eapply agree_chain; [apply AG4|exact KP|exact CH]. intros c'. cn. lia.
  - change (m_lcs m') with c. split; cbn [y_states y_reg y_next y_ver y_flag y_holder y_by_id y_tasks y_eff y_log y_over s4 s3 set_eff set_reg]; auto.
    + apply put_same; auto.
    + eapply agree_outer; [apply AG4| |exact X3]; [intros c'; cn; lia|]. intros n' I. pose proof (fr_old _ FR _ I) as G1. pose proof (fr_old _ X13 _ I) as G2. cbn in G1. congruence.
    + intros c'. specialize (X4 c'). specialize (LE c'). cn. lia.
    + intros c' x Rx. apply RR in Rx as [Z Rx]. apply X5 in Rx. specialize (LE c'). cn. lia.
    + intros c'. cbn [t_hooks u]. rewrite in_app_iff, X7. cn. split.
      * intros [Hc|[<-|[]]]; [lia|rewrite one_same; lia].
      * intros Hc. destruct (Nat.eq_dec c' c) as [->|NC]; [right; left; reflexivity|]. rewrite one_diff in Hc by auto. left. lia.
    + intros c' Ec. destruct (cnt c' L) eqn:Z; [destruct (U2 _ Z) as [-> Y]; cbn; apply X8; rewrite <- Ec; symmetry; exact Y|destruct (U1 c') as [_ Y]; [lia|congruence]].
    + intros c' Hc Zc. specialize (X4 c'). specialize (LE c'). assert (cnt c' L = 0) as Z by (cn; lia). destruct (U2 _ Z) as [_ ->]. cbn. apply X9; auto. cn. lia.
    + intros c' Hc. apply X11. specialize (LE c'). cn. lia.
    + split; [exact X15|]. exists mz. assert (UX : forall c', dget c' (y_reg s) = Some x0 -> False).
      { intros c' Rx. specialize (X20 _ Rx). cn. assert (c' = c) as -> by (apply one_pos; lia). pose proof (eq_trans (eq_sym Rx) R). congruence. }
      split; [apply KP; auto; intros Rx; exact (UX _ Rx)|]. repeat (split; [solve [auto]|]). intros c' Rx. apply RR in Rx as [_ Rx]. destruct (UX _ Rx).
    + intros c' y my Hc Rx Ey. apply RR in Rx as [Z Rx]. unfold S' in Ey. destruct (Nat.eq_dec n y) as [<-|NY].
      * rewrite put_same in Ey by auto. injection Ey as <-. apply (X21 c n m); auto. cn. rewrite one_same. lia.
      * rewrite put_other in Ey by auto. apply (X21 c' y my); auto. specialize (LE c'). cn. lia.
Qed.

(** ** The start of a render *)
Lemma renew_mid k t mo par lk a b C q dcur : let s := s0 in let o := x0 in let out := Slot par (m_key mo) (m_index mo) (m_type mo) (path_of s par (m_index mo)) in
  base s others xs -> nth_error (y_tasks s) k = Some t -> t_pc t = Start -> t_cancel t = false -> t_hooks t = [] -> t_old t = o -> ~ In k others ->
  nth_error (y_states s) o = Some mo -> slot_of mo = out -> NoDup (dkeys (m_kids mo)) -> pends view (y_states s) (y_reg s) (m_kids mo) (dkeys (m_kids mo)) lk ->
  outer (y_states s) (y_reg s) out (m_lcs mo) a b C q ->
  (forall c, cnt c (a ++ b ++ m_lcs mo :: lk) <= 1) -> (forall c x, dget c (y_reg s) = Some x -> cnt c (a ++ b ++ m_lcs mo :: lk) > 0) -> (forall c, cnt c env = 0 -> y_holder s c = None) ->
  (forall c, y_eff s c = true -> exists x, dget c (y_reg s) = Some x) -> (forall c, cnt c (a ++ b ++ lk) > 0 -> cnt c env = 0 -> y_eff s c = true) -> shown (y_log s) = C dcur ->
  (forall c, cnt c (a ++ b ++ m_lcs mo :: lk) > 0 -> c < y_next s) -> (forall c, cnt c env <= cnt c (a ++ b)) ->
  (forall c y my, cnt c (m_lcs mo :: lk) > 0 -> dget c (y_reg s) = Some y -> nth_error (y_states s) y = Some my -> below (l_path out) (m_path my)) ->
  (y_log s <> [] -> fits view (m_type mo) dcur) ->
  mid (claim k (length (y_states s)) (Some o) [] (renew o par (m_index mo) s)) k.
Proof.
  intros s o out B T PC TC TH TO KO E SLO ND P OU ON CO HO E1 E2 SH BEL ENV PATHS FITS.
  set (mn := Mst (m_lcs mo) (m_type mo) par (m_index mo) (m_key mo) (path_of s par (m_index mo)) [] (Node (m_lcs mo) None [])).
  assert (G : grown s mn [] (renew o par (m_index mo) s)).
  { exists (y_reg s), (y_eff s), (y_next s). unfold renew. rewrite (state_nth s o mo E). split; [reflexivity|]. split; [lia|]. split; [exact (b_lcs _ _ _ B o mo E)|]. split; [cbn; lia|auto]. }
  assert (BW : base s (k :: others) xs) by (eapply base_weak; [exact B| |]; cbn; auto).
  assert (AG : forall l, agree (y_states s) (y_reg s) (y_states (renew o par (m_index mo) s)) (y_reg (renew o par (m_index mo) s)) l) by (intros l; eapply grown_agree; eauto).
  assert (LO : o < length (y_states s)) by (apply nth_error_Some; congruence).
  assert (NA : forall x m, nth_error (y_states s) x = Some m -> nth_error (y_states (renew o par (m_index mo) s)) x = Some m). { intros x m Ex. cbn. rewrite nth_error_app1; auto. apply nth_error_Some. congruence. }
  eapply claim_mid with (okids := m_kids mo) (lk := lk) (lnew := []) (lpend := []) (H := []) (m := mn) (t := t).
  - eapply grown_base; eauto.
  - right. rewrite TO. rewrite lcs_nth. cbn. fold o. rewrite nth_error_app1 by auto. rewrite E. reflexivity.
  - cbn. rewrite nth_error_app2, Nat.sub_diag by lia. cbn. rewrite (state_nth s o mo E). reflexivity.
  - intros c R. apply (grown_reg _ _ _ _ _ _ G) in R as [_ R]. apply (reg_lt _ _ _ _ _ B) in R. lia.
  - unfold s. lia.
  - reflexivity.
  - reflexivity.
  - cbn [old_kids]. exists mo. split; [apply NA; exact E|]. split; [reflexivity|]. split; [lia|reflexivity].
  - exact ND.
  - eapply agree_pends; [apply AG|exact P].
  - constructor.
  - split; cbn [y_states y_reg y_next y_ver y_flag y_holder y_by_id y_tasks y_eff y_log y_over renew set_states]; change (m_lcs mn) with (m_lcs mo); auto.
    + eapply agree_outer; [| |exact OU]; [apply AG|]. intros n I. destruct (EN0 _ I) as (me & Em & _). fold s in Em. rewrite Em. apply NA. exact Em.
    + intros c. specialize (ON c). cn. lia.
    + intros c x R. specialize (CO c x R). cn. lia.
    + intros c. rewrite TH. cbn. split; [tauto|lia].
    + intros c Hc. apply E2. cn. lia.
    + exact SH.
    + intros c Hc. apply BEL. cn. lia.
    + destruct fr_refl as [R1 R2 R3 R4 R5 R6 R7]. split; auto. unfold renew. cbn. rewrite app_length. unfold s. lia.
    + split; [exact TO|]. exists mo. split; [apply NA; exact E|]. split; [exact SLO|]. split; [reflexivity|]. split; [exact LO|]. intros c R. destruct (b_reg _ _ _ B _ _ R) as (mx & Ex & <-). replace mx with mo by (fold o in Ex; congruence). cn. rewrite one_same. lia.
    + intros c y my Hc R Ey. rewrite nth_error_app1 in Ey by (eapply reg_lt; eauto). apply (PATHS c y my); auto. cn. lia.
  - reflexivity.
Qed.
End One.
