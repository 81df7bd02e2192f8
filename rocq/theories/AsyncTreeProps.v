(** * Properties C77 and C78: async rendering with a changing component tree *)
From Coq Require Import Arith Bool Lia List Permutation.
From Verif Require Import Dict EffectModel EffectProps AsyncTree AsyncTreeFacts AsyncTreeInv.
Import ListNotations.

(** ** The invariant *)
Record base (s : sys) (exk exc : option nat) : Prop := {
  b_reg : forall c x, dget c (y_reg s) = Some x -> exists m, nth_error (y_states s) x = Some m /\ m_lcs m = c;
  b_lcs : forall x m, nth_error (y_states s) x = Some m -> m_lcs m < y_next s;
  b_task : forall j t, nth_error (y_tasks s) j = Some t -> t_old t < length (y_states s) /\ (exk <> Some j -> (t_pc t = Start /\ t_hooks t = []) \/ finished t = true);
  b_by : forall c j, y_by_id s c = Some j -> exists t, nth_error (y_tasks s) j = Some t /\ lcs s (t_old t) = c;
  b_flag : forall c x, exc <> Some c -> dget c (y_reg s) = Some x -> y_flag s c = true ->
    exists j t, y_by_id s c = Some j /\ nth_error (y_tasks s) j = Some t /\ t_pc t = Start /\ t_cancel t = false /\ t_old t = x;
  b_ver : forall c x m v, dget c (y_reg s) = Some x -> nth_error (y_states s) x = Some m -> d_out (m_model m) = Some v -> v = y_ver s c \/ y_flag s c = true;
  b_over : y_over s = false
}.
Lemma base_weak s k c : base s None None -> base s k c.
Proof. intros [B1 B2 B3 B4 B5 B6 B7]. split; auto. - intros j t H. destruct (B3 _ _ H). split; auto. intros _. apply H1. discriminate. - intros c' x _. apply B5. discriminate. Qed.
Lemma base_weak_c s k c : base s k None -> base s k c.
Proof. intros [B1 B2 B3 B4 B5 B6 B7]. split; auto. intros c' x _. apply B5. discriminate. Qed.

Section View.
Variable view : nat -> nat -> list (nat * nat).
Hypothesis V : forall ty v, NoDup (map fst (view ty v)).
Ltac cn := repeat (rewrite ?cnt_app in * || cbn [cnt app] in * ).

(** While task [k] renders: [F] is the component it has entered, [newl] those it has rendered, [pend] those it will render
    again or remove, [a] and [b] those it leaves alone. *)
Record ctx (s : sys) (k : nat) (t : task) (F newl pend H : list nat) (out : slot) (cout : nat) (a b : list nat) (C : doc -> doc) (q : list nat) (dcur : doc) : Prop := {
  c_task : nth_error (y_tasks s) k = Some t;
  c_cancel : t_cancel t = false;
  c_outer : outer view (y_states s) (y_reg s) out cout a b C q;
  c_once : forall c, cnt c (a ++ b ++ F ++ newl ++ pend) <= 1;
  c_cover : forall c x, dget c (y_reg s) = Some x -> cnt c (a ++ b ++ F ++ newl ++ pend) > 0;
  c_hold : forall c, cnt c H = 0 -> y_holder s c = None;
  c_hooks : forall c, In c (t_hooks t) <-> cnt c newl > 0;
  c_eff1 : forall c, y_eff s c = true -> exists x, dget c (y_reg s) = Some x;
  c_eff2 : forall c, cnt c (a ++ b ++ pend) > 0 -> y_eff s c = true;
  c_shown : shown (y_log s) = C dcur;
  c_below : forall c, cnt c (a ++ b ++ F ++ newl ++ pend) > 0 -> c < y_next s
}.
(** Task [k] is suspended in the [acquire] of the component of state [n]. *)
Definition mid (s : sys) (k : nat) : Prop :=
  exists t n old st m okids lk lnew lpend H out cout a b C q dcur,
    base s (Some k) (Some (m_lcs m)) /\ t_pc t = Got n old st /\
    nth_error (y_states s) n = Some m /\ dget (m_lcs m) (y_reg s) = Some n /\ m_kids m = [] /\ d_out (m_model m) = None /\
    old_kids (y_states s) (m_lcs m) old n okids /\ NoDup (dkeys okids) /\ pends view (y_states s) (y_reg s) okids (dkeys okids) lk /\
    chain view (y_states s) (y_reg s) (slot_of m) (m_lcs m) st lnew lpend H out cout /\
    ctx s k t [m_lcs m] lnew (lk ++ lpend) (m_lcs m :: H) out cout a b C q dcur.
(** The frame [f] goes on to its next child. *)
Definition opens (s : sys) (k : nat) (f : frame) (st : list frame) : Prop :=
  exists t m v done rest ld lp ds okids lnew lpend H out cout a b C q dcur,
    base s (Some k) None /\ t_pc t <> Start /\
    opened view (y_states s) (y_reg s) f m v done [] rest ld lp ds okids /\
    chain view (y_states s) (y_reg s) (slot_of m) (m_lcs m) st lnew lpend H out cout /\
    ctx s k t [] (m_lcs m :: ld ++ lnew) (lp ++ lpend) (m_lcs m :: H) out cout a b C q dcur.
(** No task is in progress. *)
Definition rest_ (s : sys) : Prop :=
  base s None None /\ (forall c, y_holder s c = None) /\ (forall c, y_eff s c = true -> exists x, dget c (y_reg s) = Some x) /\
  exists r m, dget 0 (y_reg s) = Some r /\ nth_error (y_states s) r = Some m /\ slot_of m = Slot None 0 0 0 [] /\
    ((m_kids m = [] /\ d_out (m_model m) = None /\ y_log s = [] /\ (forall c x, dget c (y_reg s) = Some x -> c = 0)) \/
     (exists l d, tree view (y_states s) (y_reg s) r l d /\ (forall c, cnt c l <= 1) /\ (forall c x, dget c (y_reg s) = Some x -> cnt c l > 0) /\
        (forall c, cnt c l > 0 -> y_eff s c = true) /\ shown (y_log s) = d /\ y_log s <> [])).

(** ** Entering a component *)
Lemma claim_eq k n old st s t : nth_error (y_tasks s) k = Some t -> y_holder s (lcs s n) = None ->
  exists by_ ts, claim k n old st s = Sys (y_states s) (dset (lcs s n) n (y_reg s)) (y_next s) (y_ver s) (y_flag s) (at_ (y_holder s) (lcs s n) (Some k)) by_ ts (y_eff s) (y_log s) (y_over s) /\
    nth_error ts k = Some (Task (t_old t) (Got n old st) (t_cancel t) (t_hooks t)) /\ length ts = length (y_tasks s) /\
    (forall i u, i <> k -> nth_error (y_tasks s) i = Some u -> exists b, nth_error ts i = Some (Task (t_old u) (t_pc u) b (t_hooks u)) /\ (b = t_cancel u \/ y_by_id s (lcs s n) = Some i)) /\
    (forall c, c <> lcs s n -> by_ c = y_by_id s c) /\ (forall j, by_ (lcs s n) = Some j -> y_by_id s (lcs s n) = Some j).
Proof.
  intros T Ho. unfold claim. cbn [y_by_id set_reg]. set (c := lcs s n) in *.
  assert (LK : k < length (y_tasks s)) by (apply nth_error_Some; congruence).
  assert (TA : forall {A} (x : A) i u, i <> k -> nth_error (y_tasks s) i = Some u -> exists b, nth_error (put (y_tasks s) k (Task (t_old t) (Got n old st) (t_cancel t) (t_hooks t))) i = Some (Task (t_old u) (t_pc u) b (t_hooks u)) /\ (b = t_cancel u \/ y_by_id s c = Some i)).
  { intros A _ i u NE E. exists (t_cancel u). rewrite put_other by auto. rewrite E. destruct u; auto. }
  destruct (y_by_id s c) as [j|] eqn:BY; rewrite ?BY in TA.
  - destruct (Nat.eqb_spec j k) as [->|NE].
    + cbn. rewrite Ho. unfold set_pc. cbn. rewrite T. eexists _, _. split; [reflexivity|]. rewrite put_same, put_length by auto. split; [auto|]. split; [auto|]. split; [intros; eapply (TA nat 0); eauto|]. split; [auto|intros j'; cbn; congruence].
    + unfold cancel. cbn. destruct (nth_error (y_tasks s) j) as [u|] eqn:U.
      * destruct (finished u).
        -- cbn. rewrite Ho. unfold set_pc. cbn. rewrite T. eexists _, _. split; [reflexivity|]. rewrite put_same, put_length by auto. split; [auto|]. split; [auto|]. split; [intros; eapply (TA nat 0); eauto|].
           split; [intros; apply at_other; auto|]. intros j'. cbn. rewrite at_same. discriminate.
        -- cbn. rewrite Ho. unfold set_pc. cbn. rewrite put_other by auto. rewrite T. eexists _, _. split; [reflexivity|]. rewrite put_same by (rewrite put_length; auto). rewrite !put_length. split; [auto|]. split; [auto|].
           split; [|split; [intros; apply at_other; auto|intros j'; cbn; rewrite at_same; discriminate]].
           intros i w NI E. rewrite put_other by auto. destruct (Nat.eq_dec j i) as [->|NJ].
           ++ exists true. rewrite put_same by (apply nth_error_Some; congruence). replace w with u by congruence. auto.
           ++ exists (t_cancel w). rewrite put_other by auto. rewrite E. destruct w; auto.
      * cbn. rewrite Ho. unfold set_pc. cbn. rewrite T. eexists _, _. split; [reflexivity|]. rewrite put_same, put_length by auto. split; [auto|]. split; [auto|]. split; [intros; eapply (TA nat 0); eauto|].
        split; [intros; apply at_other; auto|]. intros j'. cbn. rewrite at_same. discriminate.
  - cbn. rewrite Ho. unfold set_pc. cbn. rewrite T. eexists _, _. split; [reflexivity|]. rewrite put_same, put_length by auto. split; [auto|]. split; [auto|]. split; [intros; eapply (TA nat 0); eauto|]. split; [auto|intros j'; cbn; congruence].
Qed.
Lemma claim_mid k n old st s t m okids lk lnew lpend H out cout a b C q dcur :
  base s (Some k) None -> t_pc t <> Start \/ lcs s (t_old t) = m_lcs m ->
  nth_error (y_states s) n = Some m -> (forall c, dget c (y_reg s) <> Some n) -> m_kids m = [] -> d_out (m_model m) = None ->
  old_kids (y_states s) (m_lcs m) old n okids -> NoDup (dkeys okids) -> pends view (y_states s) (y_reg s) okids (dkeys okids) lk ->
  chain view (y_states s) (y_reg s) (slot_of m) (m_lcs m) st lnew lpend H out cout ->
  ctx s k t [m_lcs m] lnew (lk ++ lpend) H out cout a b C q dcur -> cnt (m_lcs m) H = 0 ->
  mid (claim k n old st s) k.
Proof.
  intros B PC N NR K0 M0 O ND P CH X H0. destruct X as [X1 X2 X3 X4 X5 X6 X7 X8 X9 X10 X11]. destruct B as [B1 B2 B3 B4 B5 B6 B7].
  assert (EL : lcs s n = m_lcs m) by (unfold lcs; erewrite state_nth by eassumption; reflexivity).
  destruct (claim_eq k n old st s t X1) as (by_ & ts & E & T1 & T2 & T3 & Y1 & Y2); [rewrite EL; auto|]. rewrite E. clear E. rewrite EL in *.
  set (c := m_lcs m) in *.
  assert (AG : forall l, (forall c', cnt c' l > 0 -> c' <> c) -> agree (y_states s) (y_reg s) (y_states s) (dset c n (y_reg s)) l).
  { intros l D c' x Hc Hx. split; [|reflexivity]. rewrite dget_dset_other; auto. }
  exists (Task (t_old t) (Got n old st) (t_cancel t) (t_hooks t)), n, old, st, m, okids, lk, lnew, lpend, H, out, cout, a, b, C, q, dcur.
  split; [|split; [reflexivity|]]; [split|]; cbn [y_states y_reg y_next y_ver y_flag y_holder y_by_id y_tasks y_eff y_log y_over lcs state]; auto.
  - intros c' x. rewrite dget_dset. destruct (eq_dec c' c) as [->|]; [|auto]. intros [= <-]. eauto.
  - intros j u E. destruct (Nat.eq_dec j k) as [->|NE].
    + rewrite T1 in E. injection E as <-. cbn. split; [apply (B3 _ _ X1)|]. congruence.
    + assert (exists w, nth_error (y_tasks s) j = Some w) as [w W]. { destruct (nth_error (y_tasks s) j) eqn:Z; eauto. apply nth_error_None in Z. assert (j < length ts) by (apply nth_error_Some; congruence). lia. }
      destruct (T3 _ _ NE W) as (bb & E' & _). rewrite E in E'. injection E' as ->. cbn. destruct (B3 _ _ W) as [L R]. split; auto.
  - intros c' j E. assert (y_by_id s c' = Some j) as E'. { destruct (Nat.eq_dec c' c) as [->|NE]; [auto|rewrite <- Y1; auto]. }
    destruct (B4 _ _ E') as (w & W & L). destruct (Nat.eq_dec j k) as [->|NE].
    + eexists. split; [exact T1|]. cbn. replace t with w by congruence. exact L.
    + destruct (T3 _ _ NE W) as (bb & W' & _). eexists. split; [exact W'|]. exact L.
  - intros c' x NE0. assert (NE : c' <> c) by (intros ->; apply NE0; reflexivity). rewrite dget_dset_other by auto. intros R FL. destruct (B5 c' x ltac:(discriminate) R FL) as (j & w & E1 & E2 & E3 & E4 & E5).
    assert (Lw : lcs s (t_old w) = c') by (destruct (B4 _ _ E1) as (w' & W' & L'); replace w with w' by congruence; exact L').
    assert (j <> k). { intros ->. replace w with t in * by congruence. destruct PC as [PC|PC]; congruence. }
    destruct (T3 _ _ H1 E2) as (bb & W' & D). exists j, (Task (t_old w) (t_pc w) bb (t_hooks w)). rewrite Y1 by congruence. cbn. repeat split; auto.
    destruct D as [->|D]; auto. destruct (B4 _ _ D) as (w' & W2 & L2). replace w' with w in * by congruence. congruence.
  - intros c' x mm v. rewrite dget_dset. destruct (eq_dec c' c) as [->|NE]; [intros [= <-] Ex Ov|eauto]. replace mm with m in * by congruence. congruence.
  - split; [exact N|]. split; [apply dget_dset_same|]. split; [auto|]. split; [auto|]. split; [auto|]. split; [auto|].
    split. { eapply agree_pends; eauto. apply AG. intros c' Hc ->. specialize (X4 c). cn. rewrite one_same in X4. lia. }
    split. { eapply agree_chain; eauto; [|intros o mo Eo _; exact Eo]. apply AG. intros c' Hc ->. specialize (X4 c). cn. rewrite one_same in X4. lia. }
    split; cbn [y_states y_reg y_next y_ver y_flag y_holder y_by_id y_tasks y_eff y_log y_over t_cancel t_hooks]; auto.
    + eapply agree_outer; eauto. apply AG. intros c' Hc ->. specialize (X4 c). cn. rewrite one_same in X4. lia.
    + intros c' x. rewrite dget_dset. destruct (eq_dec c' c) as [->|]; [|eauto]. intros _. cn. rewrite one_same. lia.
    + intros c' Hc. cn. destruct (Nat.eq_dec c' c) as [->|NE]; [rewrite one_same in Hc; lia|]. rewrite at_other by auto. apply X6. lia.
    + intros c' Ec. destruct (X8 _ Ec) as [x Ex]. rewrite dget_dset. destruct (eq_dec c' c); eauto.
Qed.

(** ** A new state, after the components [L] have been removed *)
Definition grown (s : sys) (mn : mst) (L : list nat) (s' : sys) : Prop :=
  exists r e nx, s' = Sys (y_states s ++ [mn]) r nx (y_ver s) (y_flag s) (y_holder s) (y_by_id s) (y_tasks s) e (y_log s) (y_over s) /\
    y_next s <= nx /\ m_lcs mn < nx /\
    (forall c, cnt c L > 0 -> dget c r = None /\ e c = false) /\ (forall c, cnt c L = 0 -> dget c r = dget c (y_reg s) /\ e c = y_eff s c).
Lemma grown_reg s mn L s' c x : grown s mn L s' -> dget c (y_reg s') = Some x -> cnt c L = 0 /\ dget c (y_reg s) = Some x.
Proof. intros (r & e & nx & -> & _ & _ & G1 & G2) R. cbn in R. destruct (cnt c L) eqn:E; [destruct (G2 _ E); split; congruence|]. destruct (G1 c); [lia|congruence]. Qed.
Lemma reg_lt s k exc c x : base s k exc -> dget c (y_reg s) = Some x -> x < length (y_states s).
Proof. intros B R. destruct (b_reg _ _ _ B _ _ R) as (m & E & _). apply nth_error_Some. congruence. Qed.
Lemma grown_base s mn L s' k : grown s mn L s' -> base s (Some k) None -> base s' (Some k) None.
Proof.
  intros G B. pose proof (fun c x => grown_reg s mn L s' c x G) as GR. destruct G as (r & e & nx & -> & NX & MX & G1 & G2). pose proof (fun c x => reg_lt s _ _ c x B) as LT. destruct B as [B1 B2 B3 B4 B5 B6 B7].
  split; cbn [y_states y_reg y_next y_ver y_flag y_holder y_by_id y_tasks y_eff y_log y_over] in *; auto.
  - intros c x R. apply GR in R as [_ R]. destruct (B1 _ _ R) as (m & E & EL). exists m. rewrite nth_error_app1; eauto.
  - intros x m E. apply nth_error_app_cases in E as [E|[<-|[]]]; [apply B2 in E; lia|assumption].
  - intros j t E. destruct (B3 _ _ E) as [A1 A2]. rewrite app_length. split; [lia|auto].
  - intros c j E. destruct (B4 _ _ E) as (t & T & EL). exists t. split; auto. unfold lcs, state in *. cbn. rewrite app_nth1; auto. apply (B3 _ _ T).
  - intros c x NE R FL. apply GR in R as [_ R]. eauto.
  - intros c x m v R E O. apply GR in R as [_ R]. rewrite nth_error_app1 in E by eauto. eauto.
Qed.
Lemma grown_agree s mn L s' k exc l : grown s mn L s' -> base s k exc -> (forall c, cnt c l > 0 -> cnt c L = 0) -> agree (y_states s) (y_reg s) (y_states s') (y_reg s') l.
Proof.
  intros (r & e & nx & -> & NX & MX & G1 & G2) B D c x Hc R. cbn. destruct (G2 _ (D _ Hc)) as [-> _]. split; auto. apply nth_error_app1. eapply reg_lt; eauto.
Qed.
Lemma grown_keeps s mn L s' : grown s mn L s' -> keeps (y_states s) (y_reg s) (y_states s').
Proof. intros (r & e & nx & -> & _) o mo E _. cbn. rewrite nth_error_app1; auto. apply nth_error_Some. congruence. Qed.
Lemma grown_ctx s mn L s' k t newl pend H out cout a b C q dcur F' pend' : grown s mn L s' -> base s (Some k) None ->
  ctx s k t [] newl pend H out cout a b C q dcur ->
  (forall c, cnt c L <= cnt c pend) -> (forall c, cnt c (a ++ b ++ F' ++ newl ++ pend') <= 1) -> (forall c, cnt c L = 0 -> cnt c pend <= cnt c (F' ++ pend')) ->
  (forall c, cnt c pend' > 0 -> cnt c pend > 0 /\ cnt c L = 0) -> (forall c, cnt c F' > 0 -> c < y_next s') ->
  ctx s' k t F' newl pend' H out cout a b C q dcur.
Proof.
  intros G B X LP ONE COV PD BEL. pose proof (grown_agree s mn L s' _ _ (a ++ b) G B) as AG. pose proof (fun c x => grown_reg s mn L s' c x G) as GR. destruct G as (r & e & nx & -> & NX & MX & G1 & G2).
  destruct X as [X1 X2 X3 X4 X5 X6 X7 X8 X9 X10 X11].
  split; cbn [y_states y_reg y_next y_ver y_flag y_holder y_by_id y_tasks y_eff y_log y_over] in *; auto.
  - eapply agree_outer; eauto. apply AG. intros c Hc. specialize (X4 c). specialize (LP c). cn. lia.
  - intros c x R. apply GR in R as [Z R]. apply X5 in R. specialize (COV _ Z). cn. lia.
  - intros c E. destruct (cnt c L) eqn:Z; [|destruct (G1 c) as [_ Y]; [lia|congruence]]. destruct (G2 _ Z) as [-> Y]. apply X8. congruence.
  - intros c Hc. assert (cnt c (a ++ b ++ pend) > 0 /\ cnt c L = 0) as [A1 A2].
    { specialize (PD c). specialize (X4 c). specialize (LP c). cn. destruct (cnt c pend') eqn:Z; [|destruct PD; lia]. split; lia. }
    destruct (G2 _ A2) as [_ ->]. auto.
  - intros c Hc. specialize (BEL c). specialize (PD c). specialize (X11 c). cn. destruct (cnt c F') eqn:Z; [|apply BEL; lia].
    enough (c < y_next s) by lia. apply X11. destruct (cnt c pend') eqn:Z'; [lia|]. destruct PD; lia.
Qed.
Lemma chain_held S reg sl c st lnew lpend H out cout : chain view S reg sl c st lnew lpend H out cout -> forall x, cnt x H <= cnt x lnew.
Proof. induction 1; intros x; cn; [lia|]. specialize (IHchain x). lia. Qed.

(** The next child component. *)
Lemma enter_open s k f st i key ty todo : opens s k f st -> f_todo f = (i, (key, ty)) :: todo ->
  exists s1, enter k (match f_old f with Some o => dget key (m_kids (state s o)) | None => None end) (Some (f_new f)) i key ty (Frame (f_new f) (f_old f) todo :: st) s = (true, s1) /\ mid s1 k.
Proof.
  intros (t & m & v & done & rest & ld & lp & ds & okids & lnew & lpend & H & out & cout & a & b & C & q & dcur & B & PC & O & CH & X) TD.
  destruct O as [O1 O2 O3 O4 O5 O6 O7 O8].
  destruct rest as [|[key' ty'] rest]; rewrite TD in O5; cbn in O5; [discriminate|]. injection O5 as -> <- <- ->. rewrite app_nil_r in *. cbn [app] in O4.
  assert (OLD : match f_old f with Some o => dget key (m_kids (state s o)) | None => None end = dget key okids).
  { unfold old_kids in O7. destruct (f_old f) as [o|]; [|subst; reflexivity]. destruct O7 as (mo & E & _ & _ & ->). erewrite state_nth by eassumption. reflexivity. }
  rewrite OLD. clear OLD.
  set (f' := Frame (f_new f) (f_old f) (number (S (length done)) rest)).
  assert (PF : path_of s (Some (f_new f)) (length done) = m_path m ++ [length done]) by (unfold path_of; erewrite state_nth by eassumption; reflexivity).
  assert (HN : forall x, cnt x (m_lcs m :: H) <= cnt x (m_lcs m :: ld ++ lnew)). { intros x. pose proof (chain_held _ _ _ _ _ _ _ _ _ _ CH x). cn. lia. }
  assert (NR : forall s' mn L, grown s mn L s' -> forall c, dget c (y_reg s') <> Some (length (y_states s))).
  { intros s' mn L G c R. apply (grown_reg _ _ _ _ _ _ G) in R as [_ R]. apply (reg_lt _ _ _ _ _ B) in R. lia. }
  assert (NN : forall s' mn L, grown s mn L s' -> nth_error (y_states s') (length (y_states s)) = Some mn).
  { intros s' mn L (r & e & nx & -> & _). cbn. rewrite nth_error_app2, Nat.sub_diag by lia. reflexivity. }
  assert (CH' : forall s' mn L lp' c, grown s mn L s' -> pends view (y_states s) (y_reg s) okids (map fst rest) lp' -> (forall c, cnt c (m_lcs m :: ld ++ lnew ++ lp' ++ lpend) > 0 -> cnt c L = 0) ->
    chain view (y_states s') (y_reg s') (Slot (Some (f_new f)) key (length done) ty (m_path m ++ [length done])) c (f' :: st) (m_lcs m :: ld ++ lnew) (lp' ++ lpend) (m_lcs m :: H) out cout).
  { intros s' mn L lp' c G P D. eapply agree_chain; [eapply grown_agree; [exact G|exact B|]|eapply grown_keeps; exact G|].
    - intros c' Hc. apply D. cn. lia.
    - change (f_new f) with (f_new f') at 1. eapply chain_cons; [|exact CH]. split; [exact O1|exact O2|exact O3|exact O4| |exact O6|exact O7|exact P]. cbn. rewrite app_length. cbn. f_equal. lia. }
  assert (FRESH : forall s' L lp' r e, s' = fresh (Some (f_new f)) (length done) key ty (set_eff e (set_reg r s)) -> grown s (Mst (y_next s) ty (Some (f_new f)) (length done) key (m_path m ++ [length done]) [] (Node (y_next s) None [])) L s' ->
     pends view (y_states s) (y_reg s) okids (map fst rest) lp' -> (forall c, cnt c lp = cnt c L + cnt c lp') -> mid (claim k (length (y_states s)) None (f' :: st) s') k).
  { intros s' L lp' r e -> G P E. pose proof (c_below _ _ _ _ _ _ _ _ _ _ _ _ _ _ X) as XB. pose proof (c_once _ _ _ _ _ _ _ _ _ _ _ _ _ _ X) as XO.
    eapply claim_mid with (okids := []) (lk := []).
    - eapply grown_base; eauto.
    - left; exact PC.
    - eapply NN; eauto.
    - eapply NR; eauto.
    - reflexivity.
    - reflexivity.
    - reflexivity.
    - constructor.
    - constructor.
    - eapply CH'; eauto. intros c Hc. specialize (XO c). specialize (E c). cn. lia.
    - eapply grown_ctx; [exact G|exact B|exact X| | | | |].
      + intros c. specialize (E c). cn. lia.
      + intros c. cbn [m_lcs]. specialize (XO c). specialize (XB c). specialize (E c). cn. destruct (Nat.eq_dec c (y_next s)) as [->|NE]; [rewrite one_same|rewrite (one_diff c (y_next s)) by auto; lia].
        destruct (cnt (y_next s) a + cnt (y_next s) b + (one (y_next s) (m_lcs m) + (cnt (y_next s) ld + cnt (y_next s) lnew)) + cnt (y_next s) lp' + cnt (y_next s) lpend) eqn:Z; [lia|]. exfalso. assert (y_next s < y_next s) by (apply XB; lia). lia.
      + intros c Z. specialize (E c). cn. lia.
      + intros c Hc. specialize (E c). specialize (XO c). cn. lia.
      + intros c Hc. cbn [m_lcs cnt] in Hc. assert (c = y_next s) as -> by (apply one_pos; lia). cbn. lia.
    - cbn [m_lcs]. specialize (HN (y_next s)). destruct (cnt (y_next s) (m_lcs m :: H)) eqn:Z; auto. exfalso. assert (y_next s < y_next s); [|lia]. apply XB. cn. lia. }
  inversion O8 as [|kk ks l EN EP|kk ks oc mo l1 d l EN EM EK ET EP]; subst; rewrite EN.
  - (* the key is new *)
    eexists. split; [reflexivity|]. eapply FRESH with (L := []) (r := y_reg s) (e := y_eff s); [destruct s; reflexivity| |exact EP|intros c; cn; lia].
    exists (y_reg s), (y_eff s), (S (y_next s)). unfold fresh. cbn [y_states y_reg set_states set_next set_eff set_reg y_ver y_flag y_holder y_by_id y_tasks y_eff y_log y_over y_next]. rewrite <- PF.
    split; [reflexivity|]. split; [lia|]. split; [cbn; lia|]. split; [cbn; lia|auto].
  - unfold enter. rewrite (state_nth s oc mo EM). destruct (Nat.eqb_spec (m_type mo) ty) as [ET'|NT].
    + (* rendered again *)
      eexists. split; [reflexivity|]. inversion ET as [i0 m0 v0 l0 ds0 T1 T2 T3 T4]; subst. replace m0 with mo in * by congruence. clear m0 T1.
      assert (G : grown s (Mst (m_lcs mo) (m_type mo) (Some (f_new f)) (length done) (m_key mo) (m_path m ++ [length done]) [] (Node (m_lcs mo) None [])) [] (renew oc (Some (f_new f)) (length done) s)).
      { exists (y_reg s), (y_eff s), (y_next s). unfold renew. rewrite (state_nth s oc mo EM). rewrite <- PF. split; [reflexivity|]. split; [lia|]. split; [exact (b_lcs _ _ _ B oc mo EM)|]. split; [cbn; lia|auto]. }
      pose proof (c_once _ _ _ _ _ _ _ _ _ _ _ _ _ _ X) as XO. pose proof (c_below _ _ _ _ _ _ _ _ _ _ _ _ _ _ X) as XB.
      destruct (kids_len _ _ _ _ _ _ _ _ _ _ T4) as (_ & _ & KL).
      assert (NK : NoDup (dkeys (m_kids mo))) by (rewrite KL; apply V).
      eapply claim_mid with (okids := m_kids mo) (lk := l0).
      * eapply grown_base; eauto.
      * left; exact PC.
      * eapply NN; eauto.
      * eapply NR; eauto.
      * reflexivity.
      * reflexivity.
      * cbn [m_lcs old_kids]. exists mo. split; [|split; [reflexivity|split; [|reflexivity]]].
        -- cbn. rewrite nth_error_app1; auto. apply nth_error_Some. congruence.
        -- assert (oc < length (y_states s)) by (apply nth_error_Some; congruence). lia.
      * exact NK.
      * eapply agree_pends; [eapply grown_agree; [exact G|exact B|cn; lia]|]. eapply pends_of_kids; [exact T4|]. intros kk x I. apply In_dget; auto.
      * cbn [m_lcs slot_of m_parent m_key m_index m_type m_path]. eapply CH'; eauto.
      * eapply grown_ctx; [exact G|exact B|exact X| | | | |]; cbn [m_lcs]; intros c.
        -- cn. lia.
        -- specialize (XO c). cn. lia.
        -- intros _. cn. lia.
        -- cn. lia.
        -- intros Hc. cn. assert (c = m_lcs mo) as -> by (apply one_pos; lia). exact (b_lcs _ _ _ B oc mo EM).
      * cbn [m_lcs]. specialize (HN (m_lcs mo)). specialize (XO (m_lcs mo)). cn. rewrite one_same in XO. lia.
    + (* another type under the same key *)
      pose proof (c_once _ _ _ _ _ _ _ _ _ _ _ _ _ _ X) as XO.
      destruct (unmount_ok view (length (y_reg s)) [oc] [l1] s) as (r & e & U & U1 & U2).
      * constructor; [eauto|constructor].
      * intros c. specialize (XO c). cbn [concat]. cn. lia.
      * cbn. rewrite app_nil_r. apply reg_len.
        -- intros c Hc. apply cnt_in in Hc. destruct (proj1 (tree_reg view _ _) _ _ _ ET _ Hc) as (x & _ & _ & R & _). eauto.
        -- intros c. specialize (XO c). cn. lia.
      * rewrite U. eexists. split; [reflexivity|]. cbn [concat] in U1, U2. rewrite app_nil_r in U1, U2. eapply FRESH with (L := l1); [reflexivity| |exact EP|intros c; cn; lia].
        exists r, e, (S (y_next s)). unfold fresh. cbn [y_states y_reg set_states set_next set_eff set_reg y_ver y_flag y_holder y_by_id y_tasks y_eff y_log y_over y_next]. rewrite <- PF.
        split; [reflexivity|]. split; [lia|]. split; [cbn; lia|]. split; auto.
Qed.

(** ** The return of a component *)
Lemma lcs_nth s i : lcs s i = match nth_error (y_states s) i with Some m => m_lcs m | None => 0 end.
Proof. unfold lcs, state. destruct (nth_error (y_states s) i) eqn:E; [apply nth_error_nth with (d := no_mst) in E; congruence|]. apply nth_error_None in E. rewrite nth_overflow by assumption. reflexivity. Qed.
Lemma base_put s s' k c p m m' : base s k c -> nth_error (y_states s) p = Some m -> m_lcs m' = m_lcs m -> d_out (m_model m') = d_out (m_model m) ->
  y_states s' = put (y_states s) p m' -> y_reg s' = y_reg s -> y_next s' = y_next s -> y_ver s' = y_ver s -> y_flag s' = y_flag s -> y_by_id s' = y_by_id s ->
  y_tasks s' = y_tasks s -> y_over s' = y_over s -> base s' k c.
Proof.
  intros [B1 B2 B3 B4 B5 B6 B7] E EL EO E1 E2 E3 E4 E5 E6 E7 E8.
  assert (LP : p < length (y_states s)) by (apply nth_error_Some; congruence).
  assert (G : forall x mx, nth_error (y_states s') x = Some mx -> exists mx', nth_error (y_states s) x = Some mx' /\ m_lcs mx = m_lcs mx' /\ d_out (m_model mx) = d_out (m_model mx')).
  { intros x mx. rewrite E1. destruct (Nat.eq_dec p x) as [->|NE]; [rewrite put_same by auto; intros [= <-]; eauto|rewrite put_other by auto; eauto]. }
  assert (G' : forall x mx, nth_error (y_states s) x = Some mx -> exists mx', nth_error (y_states s') x = Some mx' /\ m_lcs mx' = m_lcs mx).
  { intros x mx Ex. rewrite E1. destruct (Nat.eq_dec p x) as [->|NE]; [rewrite put_same by auto; exists m'; split; congruence|rewrite put_other by auto; eauto]. }
  split; rewrite ?E2, ?E3, ?E4, ?E5, ?E6, ?E7, ?E8; auto.
  - intros c' x R. destruct (B1 _ _ R) as (mx & Ex & <-). destruct (G' _ _ Ex) as (mx' & ? & ?). eauto.
  - intros x mx Ex. destruct (G _ _ Ex) as (mx' & Ex' & -> & _). eauto.
  - intros j t T. rewrite E1, put_length. auto.
  - intros c' j Ec. destruct (B4 _ _ Ec) as (t & T & L). exists t. split; auto. rewrite lcs_nth in *. destruct (nth_error (y_states s) (t_old t)) as [mx|] eqn:Z.
    + destruct (G' _ _ Z) as (mx' & -> & ->). exact L.
    + destruct (B3 _ _ T) as [LL _]. apply nth_error_None in Z. lia.
  - intros c' x mx v R Ex Ev. destruct (G _ _ Ex) as (mx' & Ex' & _ & EO'). rewrite EO' in Ev. eauto.
Qed.
Lemma put_agree (S : list mst) (reg : dict nat nat) p m m' l : nth_error S p = Some m -> dget (m_lcs m) reg = Some p -> cnt (m_lcs m) l = 0 ->
  (forall c x, dget c reg = Some x -> exists mx, nth_error S x = Some mx /\ m_lcs mx = c) -> agree S reg (put S p m') reg l.
Proof.
  intros E R Z B c x Hc Rx. split; auto. apply put_other. intros ->. destruct (B _ _ Rx) as (mx & Ex & <-). replace mx with m in * by congruence. lia.
Qed.
Lemma put_keeps (S : list mst) (reg : dict nat nat) p m m' : nth_error S p = Some m -> dget (m_lcs m) reg = Some p -> keeps S reg (put S p m').
Proof. intros E R o mo Eo N. rewrite put_other; auto. intros ->. apply N. congruence. Qed.
Lemma dset_snoc (key n : nat) k : ~ In key (dkeys k) -> dset key n k = k ++ [(key, n)].
Proof. induction k as [|[k' x] k IH]; cbn; intros H; [reflexivity|]. destruct (eq_dec key k') as [->|]; [tauto|]. f_equal. apply IH. tauto. Qed.

Lemma attach_open s k f g st : opens s k f (g :: st) -> f_todo f = [] -> opens (attach (f_new g) (f_new f) (release (lcs s (f_new f)) s)) k g st.
Proof.
  intros (t & m & v & done & rest & ld & lp & ds & okids & lnew & lpend & H & out & cout & a & b & C & q & dcur & B & PC & O & CH & X) TD.
  destruct O as [O1 O2 O3 O4 O5 O6 O7 O8]. destruct rest as [|[? ?] ?]; [|rewrite TD in O5; discriminate]. rewrite app_nil_r in *. cbn in O4, O8. rewrite ?app_nil_r in O4. inversion O8; subst. clear O8 O5.
  inversion CH as [|c' f0 mg vg doneg key ty restg ldg lpg dsg okg st0 lnewg lpendg Hg o1 c1 OG CG E1 E2 E3 E4 E5 E6 E7 E8]; subst. clear CH.
  destruct OG as [P1 P2 P3 P4 P5 P6 P7 P8].
  destruct X as [X1 X2 X3 X4 X5 X6 X7 X8 X9 X10 X11].
  pose proof (b_reg _ _ _ B) as BR.
  destruct (kids_len _ _ _ _ _ _ _ _ _ _ P6) as (KL1 & KL2 & KL3).
  assert (NK : ~ In (m_key m) (dkeys (m_kids mg))).
  { rewrite KL3. pose proof (V (m_type mg) vg) as W. rewrite P4, map_app in W. cbn in W. apply NoDup_remove_2 in W. rewrite in_app_iff in W. tauto. }
  assert (NE : m_lcs mg <> m_lcs m). { intros E. specialize (X4 (m_lcs m)). cn. rewrite E, one_same in X4. lia. }
  assert (NF : f_new f <> f_new g) by (intros E; rewrite E in *; congruence).
  set (mg' := set_kids (dset (m_key m) (f_new f) (m_kids mg)) (set_model (Node (m_lcs mg) (Some vg) (dsg ++ [m_model m])) mg)).
  assert (ST : y_states (attach (f_new g) (f_new f) (release (lcs s (f_new f)) s)) = put (y_states s) (f_new g) mg').
  { unfold attach, modify, mg'. cbn [y_states set_states]. unfold state, release. cbn [y_states set_holder]. rewrite (nth_error_nth _ _ _ O1), (nth_error_nth _ _ _ P1). rewrite P3. reflexivity. }
  assert (HO : y_holder (attach (f_new g) (f_new f) (release (lcs s (f_new f)) s)) = at_ (y_holder s) (m_lcs m) None).
  { cbn. unfold lcs. rewrite (state_nth _ _ _ O1). reflexivity. }
  set (s' := attach (f_new g) (f_new f) (release (lcs s (f_new f)) s)) in *.
  assert (RG : y_reg s' = y_reg s) by reflexivity.
  assert (LG : f_new g < length (y_states s)) by (apply nth_error_Some; congruence).
  assert (AG : forall l, cnt (m_lcs mg) l = 0 -> agree (y_states s) (y_reg s) (y_states s') (y_reg s') l).
  { intros l Z. rewrite ST, RG. eapply put_agree; eauto. }
  assert (KP : keeps (y_states s) (y_reg s) (y_states s')) by (rewrite ST; eapply put_keeps; eauto).
  assert (Z : forall l, (forall c, cnt c l <= cnt c (a ++ b ++ (m_lcs m :: ld) ++ ldg ++ lpg ++ lnewg ++ lpendg)) -> cnt (m_lcs mg) l = 0).
  { intros l Hl. specialize (Hl (m_lcs mg)). specialize (X4 (m_lcs mg)). cn. rewrite one_same in X4. lia. }
  assert (Z2 : forall l, (forall c, cnt c l <= cnt c (a ++ b ++ (m_lcs m :: ld) ++ ldg ++ lpg ++ lnewg ++ lpendg)) -> agree (y_states s) (y_reg s) (y_states s') (y_reg s') l) by auto.
  assert (O1' : nth_error (y_states s') (f_new f) = Some m) by (rewrite ST, put_other; auto).
  assert (TF : tree view (y_states s') (y_reg s') (f_new f) (m_lcs m :: ld) (m_model m)).
  { rewrite O3. eapply agree_tree; [apply (Z2 (m_lcs m :: ld)); intros c; cn; lia|]. eapply tree_node; [exact O1|exact O2|rewrite O3; reflexivity|exact O6]. }
  exists t, mg', vg, (doneg ++ [(m_key m, m_type m)]), restg, (ldg ++ m_lcs m :: ld), lpg, (dsg ++ [m_model m]), okg, lnewg, lpendg, Hg, out, cout, a, b, C, q, dcur.
  split; [|split; [exact PC|split; [|split]]].
  - eapply base_put with (s := s) (m' := mg') (m := mg); eauto; try reflexivity. cbn. rewrite P3. reflexivity.
  - split; auto.
    + rewrite ST, put_same; auto.
    + cbn [m_type mg' set_kids set_model]. rewrite P4, <- app_assoc. reflexivity.
    + rewrite P5, app_nil_r. reflexivity.
    + cbn [m_path m_kids mg' set_kids set_model]. rewrite dset_snoc by exact NK. apply kids_app.
      * eapply agree_kids; [|exact P6]. apply Z2. intros c; cn; lia.
      * cbn [Nat.add]. replace (m_lcs m :: ld) with ((m_lcs m :: ld) ++ []) by apply app_nil_r. eapply kids_cons; [exact O1'| |exact TF|constructor]. unfold slot_of. rewrite KL1. congruence.
    + cbn [m_lcs mg' set_kids set_model]. eapply keeps_old; [exact KP| |exact P7]. exact P2.
    + eapply agree_pends; [|exact P8]. apply Z2. intros c; cn; lia.
  - change (slot_of mg') with (slot_of mg). change (m_lcs mg') with (m_lcs mg). eapply agree_chain; [|exact KP|exact CG]. apply Z2. intros c; cn; lia.
  - change (m_lcs mg') with (m_lcs mg). split; auto.
    + eapply agree_outer; [|exact X3]. apply Z2. intros c; cn; lia.
    + intros c. specialize (X4 c). cn. lia.
    + intros c x R. apply X5 in R. cn. lia.
    + intros c Hc. rewrite HO. destruct (Nat.eq_dec c (m_lcs m)) as [->|NC]; [apply at_same|]. rewrite at_other by auto. apply X6. cn. rewrite (one_diff c (m_lcs m)) by auto. lia.
    + intros c. rewrite X7. cn. lia.
    + intros c Hc. apply X11. cn. lia.
Qed.

(** ** The end of a render *)
Lemma base_end s s' k t u : base s (Some k) None -> nth_error (y_tasks s) k = Some t -> (t_pc t <> Start \/ t_cancel t = true) -> t_old u = t_old t -> finished u = true ->
  y_states s' = y_states s -> y_reg s' = y_reg s -> y_next s' = y_next s -> y_ver s' = y_ver s -> y_flag s' = y_flag s -> y_by_id s' = y_by_id s ->
  y_tasks s' = put (y_tasks s) k u -> y_over s' = y_over s -> base s' None None.
Proof.
  intros [B1 B2 B3 B4 B5 B6 B7] T PC EO FI E1 E2 E3 E4 E5 E6 E7 E8.
  assert (LK : k < length (y_tasks s)) by (apply nth_error_Some; congruence).
  split; rewrite ?E1, ?E2, ?E3, ?E4, ?E5, ?E6, ?E7, ?E8; auto.
  - intros j w E. destruct (Nat.eq_dec k j) as [<-|NE].
    + rewrite put_same in E by auto. injection E as <-. rewrite EO. split; [apply (B3 _ _ T)|auto].
    + rewrite put_other in E by auto. destruct (B3 _ _ E) as [L R]. split; auto. intros _. apply R. congruence.
  - intros c j E. destruct (B4 _ _ E) as (w & W & L). assert (EL : forall i, lcs s' i = lcs s i) by (intros i; rewrite !lcs_nth, E1; reflexivity). destruct (Nat.eq_dec k j) as [<-|NE].
    + exists u. rewrite put_same by auto. split; auto. rewrite EL, EO. replace t with w by congruence. exact L.
    + exists w. rewrite put_other by auto. rewrite EL. auto.
  - intros c x NE R FL. destruct (B5 c x ltac:(discriminate) R FL) as (j & w & W1 & W2 & W3 & W4 & W5). exists j, w. rewrite put_other; [auto 6|]. intros <-. replace w with t in * by congruence. destruct PC; congruence.
Qed.
Lemma complete_rest s k f : opens s k f [] -> f_todo f = [] -> rest_ (complete k (f_new f) (release (lcs s (f_new f)) s)).
Proof.
  intros (t & m & v & done & rest & ld & lp & ds & okids & lnew & lpend & H & out & cout & a & b & C & q & dcur & B & PC & O & CH & X) TD.
  destruct O as [O1 O2 O3 O4 O5 O6 O7 O8]. destruct rest as [|[? ?] ?]; [|rewrite TD in O5; discriminate]. cbn in O4, O8. rewrite ?app_nil_r in O4. inversion O8; subst. clear O8 O5.
  inversion CH; subst. clear CH. destruct X as [X1 X2 X3 X4 X5 X6 X7 X8 X9 X10 X11]. rewrite ?app_nil_r in *. cbn [app] in *.
  pose proof (b_reg _ _ _ B) as BR.
  assert (TF : tree view (y_states s) (y_reg s) (f_new f) (m_lcs m :: ld) (m_model m)).
  { rewrite O3. eapply tree_node; [exact O1|exact O2|rewrite O3; reflexivity|exact O6]. }
  assert (EF : forall c, existsb (Nat.eqb c) (t_hooks t) = true <-> cnt c (m_lcs m :: ld) > 0).
  { intros c. rewrite <- X7. apply (inb_in (t_hooks t) c). }
  set (e := fun c => existsb (Nat.eqb c) (t_hooks t) || y_eff s c).
  set (h := at_ (y_holder s) (m_lcs m) None).
  set (u := Task (t_old t) Done (t_cancel t) (t_hooks t)).
  assert (HH : forall c, h c = None). { intros c. unfold h. destruct (Nat.eq_dec c (m_lcs m)) as [->|NE]; [apply at_same|]. rewrite at_other by auto. apply X6. cn. rewrite one_diff by auto. reflexivity. }
  assert (EE : forall c, e c = true -> exists x, dget c (y_reg s) = Some x).
  { intros c Ec. unfold e in Ec. apply orb_true_iff in Ec as [Ec|Ec]; [|auto]. apply EF in Ec. apply cnt_in in Ec. destruct (proj1 (tree_reg view _ _) _ _ _ TF _ Ec) as (x & _ & _ & R & _). eauto. }
  assert (EA : forall c, cnt c (a ++ (m_lcs m :: ld) ++ b) > 0 -> e c = true).
  { intros c Hc. unfold e. apply orb_true_iff. destruct (cnt c (m_lcs m :: ld)) eqn:Z; [right; apply X9; cn; lia|left; apply EF; lia]. }
  assert (EQ : exists S', complete k (f_new f) (release (lcs s (f_new f)) s) = Sys S' (y_reg s) (y_next s) (y_ver s) (y_flag s) h (y_by_id s) (put (y_tasks s) k u) e (y_log s ++ [(m_path m, m_model m)]) (y_over s) /\
    match m_parent m with
    | None => S' = y_states s
    | Some p => S' = put (y_states s) p (set_kids (dset (m_key m) (f_new f) (m_kids (state s p)))
                          (set_model (Node (d_id (m_model (state s p))) (d_out (m_model (state s p)))
                                        (firstn (m_index m) (d_kids (m_model (state s p))) ++ [m_model m] ++ skipn (S (m_index m)) (d_kids (m_model (state s p))))) (state s p)))
    end).
  { unfold complete, start_effects, release, lcs. rewrite (state_nth _ _ _ O1). cbn [y_tasks set_holder]. rewrite X1. unfold state. cbn [y_states set_eff set_holder]. rewrite (nth_error_nth _ _ _ O1).
    destruct (m_parent m) as [p|]; unfold set_pc; cbn [y_tasks set_log modify set_states set_eff set_holder]; rewrite X1; eexists; (split; [reflexivity|reflexivity]). }
  destruct EQ as (S' & -> & ES).
  inversion X3 as [Q1 Q2 Q3 Q4 Q5|r mr sl cc aa bb CC qq R0 R1 R2 R3 HO Q1 Q2 Q3 Q4 Q5 Q6]; subst.
  - (* the root *)
    assert (PM : m_parent m = None) by congruence. rewrite PM in ES. subst S'.
    split; [|split; [exact HH|split; [exact EE|]]]; [eapply base_end with (s := s) (u := u); eauto; reflexivity|].
    exists (f_new f), m. cbn [y_states y_reg y_eff y_log]. split; [rewrite <- Q2 in O2; exact O2|]. split; [exact O1|]. split; [unfold slot_of; congruence|]. right.
    exists (m_lcs m :: ld), (m_model m). split; [exact TF|]. split; [intros c; specialize (X4 c); cn; lia|]. split; [intros c x R; specialize (X5 c x R); cn; lia|].
    split; [intros c Hc; apply EA; cn; lia|]. split; [|destruct (y_log s); discriminate].
    unfold shown. rewrite fold_left_app. reflexivity.
  - destruct (hole_slot _ _ _ _ _ _ _ _ _ HO) as (p & mp & P1 & P2 & P3 & P4 & P5 & P6). cbn [l_par slot_of l_path l_index] in *. rewrite P1 in ES. rewrite (state_nth _ _ _ P2) in ES.
    match type of ES with _ = put _ _ ?x => set (mp' := x) in * end.
    assert (LP : p < length (y_states s)) by (apply nth_error_Some; congruence).
    assert (NP : m_lcs mp <> m_lcs m). { intros E. apply cnt_in in P4. specialize (X4 (m_lcs m)). rewrite E in P4. cn. rewrite one_same in X4. lia. }
    assert (NF : f_new f <> p) by (intros E; congruence).
    set (s2 := set_states S' s).
    assert (B2 : base s2 (Some k) None) by (eapply base_put with (s := s) (p := p) (m := mp) (m' := mp'); eauto; reflexivity).
    assert (AG : forall l, cnt (m_lcs mp) l = 0 -> agree (y_states s) (y_reg s) S' (y_reg s) l) by (intros l Z; rewrite ES; eapply put_agree; eauto).
    assert (TF' : tree view S' (y_reg s) (f_new f) (m_lcs m :: ld) (m_model m)).
    { eapply agree_tree; [apply AG|exact TF]. apply cnt_in in P4. specialize (X4 (m_lcs mp)). cn. lia. }
    assert (O1' : nth_error S' (f_new f) = Some m) by (rewrite ES, put_other; auto).
    assert (TR : tree view S' (y_reg s) r (a ++ (m_lcs m :: ld) ++ b) (C (m_model m))).
    { eapply hole_plug with (S := y_states s) (reg := y_reg s) (p := p) (m := mp) (m' := mp') (mn := m); eauto; cbn [l_par slot_of l_key]; auto.
      - rewrite ES, put_same; auto.
      - intros c x I NE R. split; auto. rewrite ES. apply put_other. intros <-. destruct (BR _ _ R) as (mx & Ex & <-). apply NE. congruence.
      - apply cnt_nodup. intros c. specialize (X4 c). cn. lia. }
    assert (MR : exists mr', nth_error S' r = Some mr' /\ slot_of mr' = slot_of mr).
    { rewrite ES. destruct (Nat.eq_dec p r) as [->|NE]; [exists mp'; rewrite put_same by auto; split; auto; replace mr with mp by congruence; reflexivity|exists mr; rewrite put_other; auto]. }
    destruct MR as (mr' & M1 & M2).
    split; [|split; [exact HH|split; [exact EE|]]]; [eapply base_end with (s := s2) (u := u); eauto; reflexivity|].
    exists r, mr'. cbn [y_states y_reg y_eff y_log]. split; [exact R0|]. split; [exact M1|]. split; [congruence|]. right.
    exists (a ++ (m_lcs m :: ld) ++ b), (C (m_model m)). split; [exact TR|]. split; [intros c; specialize (X4 c); cn; lia|]. split; [intros c x R; specialize (X5 c x R); cn; lia|].
    split; [exact EA|]. split; [|destruct (y_log s); discriminate].
    unfold shown in *. rewrite fold_left_app. cbn. rewrite X10. replace (m_path m) with q; [eapply hole_replace; eauto|].
    specialize (P6 _ R1). rewrite P5, P6. unfold slot_of in R3. replace (m_path mr) with (@nil nat) by congruence. reflexivity.
Qed.
Lemma descend_ok k : forall st f s, opens s k f st -> mid (descend k (f :: st) s) k \/ rest_ (descend k (f :: st) s).
Proof.
  induction st as [|g st IH]; intros f s O; cbn [descend]; destruct (f_todo f) as [|[i [key ty]] todo] eqn:TD.
  - right. apply complete_rest; auto.
  - left. destruct (enter_open _ _ _ _ _ _ _ _ O TD) as (s1 & -> & M). exact M.
  - apply IH. apply attach_open; auto.
  - left. destruct (enter_open _ _ _ _ _ _ _ _ O TD) as (s1 & -> & M). exact M.
Qed.

(** ** The component function *)
Lemma nodupb_ok l : NoDup l -> nodupb l = true.
Proof. induction 1; cbn; [reflexivity|]. rewrite IHNoDup, andb_true_r. apply negb_true_iff. destruct (existsb (Nat.eqb x) l) eqn:E; auto. apply (inb_in l x) in E. tauto. Qed.
Lemma body_ok s k t n old st : mid s k -> nth_error (y_tasks s) k = Some t -> t_pc t = Got n old st -> mid (body view k n old st s) k \/ rest_ (body view k n old st s).
Proof.
  intros (t' & n' & old' & st' & m & okids & lk & lnew & lpend & H & out & cout & a & b & C & q & dcur & B & PC & N & R & K0 & M0 & O & ND & P & CH & X) T PC'.
  destruct X as [X1 X2 X3 X4 X5 X6 X7 X8 X9 X10 X11]. replace t' with t in * by congruence. rewrite PC' in PC. injection PC as <- <- <-. clear t' X1.
  assert (LN : n < length (y_states s)) by (apply nth_error_Some; congruence). assert (LK : k < length (y_tasks s)) by (apply nth_error_Some; congruence).
  assert (EL : lcs s n = m_lcs m) by (unfold lcs; rewrite (state_nth _ _ _ N); reflexivity).
  unfold body. rewrite EL, (state_nth _ _ _ N). cbn [y_tasks set_flag]. rewrite T. set (c := m_lcs m) in *. set (v := y_ver s c). set (kv := view (m_type m) v).
  rewrite nodupb_ok by apply V.
  set (u := Task (t_old t) (t_pc t) (t_cancel t) (t_hooks t ++ [c])).
  set (m' := set_model (Node c (Some v) []) m).
  set (S' := put (y_states s) n m').
  set (s3 := Sys S' (y_reg s) (y_next s) (y_ver s) (at_ (y_flag s) c false) (y_holder s) (y_by_id s) (put (y_tasks s) k u) (y_eff s) (y_log s) (y_over s)).
  assert (E3 : modify n (set_model (Node c (Some v) [])) (set_tasks (put (y_tasks s) k u) (set_flag (at_ (y_flag s) c false) s)) = s3).
  { unfold modify, s3, S', m'. unfold state. cbn [y_states set_tasks set_flag]. rewrite (nth_error_nth _ _ _ N). reflexivity. }
  rewrite E3. clear E3.
  destruct B as [B1 B2 B3 B4 B5 B6 B7].
  assert (AG : forall l, cnt c l = 0 -> agree (y_states s) (y_reg s) S' (y_reg s) l) by (intros l Z; eapply put_agree; eauto).
  assert (KP : keeps (y_states s) (y_reg s) S') by (eapply put_keeps; eauto).
  destruct (pends_split view (y_states s) (y_reg s) okids (map fst kv) lk ND (V _ _) P) as (ls & lp & T1 & T2 & T3).
  assert (STALE : match old with Some o => map snd (filter (fun e => negb (existsb (Nat.eqb (fst e)) (map fst kv))) (m_kids (state s3 o))) | None => [] end
    = map snd (filter (fun e => negb (existsb (Nat.eqb (fst e)) (map fst kv))) okids)).
  { unfold old_kids in O. destruct old as [o|]; [|rewrite O; reflexivity]. destruct O as (mo & Eo & _ & NE & ->). rewrite (state_nth s3 o mo); [reflexivity|]. cbn. unfold S'. rewrite put_other; auto. }
  rewrite STALE. clear STALE.
  assert (ZL : forall l, (forall c', cnt c' l <= cnt c' (a ++ b ++ lnew ++ lk ++ lpend)) -> cnt c l = 0).
  { intros l Hl. specialize (Hl c). specialize (X4 c). cn. rewrite one_same in X4. lia. }
  destruct (unmount_ok view (length (y_reg s)) (map snd (filter (fun e => negb (existsb (Nat.eqb (fst e)) (map fst kv))) okids)) ls s3) as (r & e & U & U1 & U2).
  { cbn. eapply trees_agree; [apply AG|exact T1]. apply ZL. intros c'. specialize (T3 c'). cn. lia. }
  { intros c'. specialize (X4 c'). specialize (T3 c'). cn. lia. }
  { apply reg_len; [|intros c'; specialize (X4 c'); specialize (T3 c'); cn; lia]. intros c' Hc'. clear - T1 Hc'.
    induction T1 as [|i l is_ ls [d D] TS IH]; cbn in Hc'; [lia|]. rewrite cnt_app in Hc'. destruct (cnt c' l) eqn:Z; [apply IH; lia|].
    assert (I : In c' l) by (apply cnt_in; lia). destruct (proj1 (tree_reg view _ _) _ _ _ D _ I) as (x & _ & _ & Rx & _). eauto. }
  change (length (y_reg s3)) with (length (y_reg s)). rewrite U. clear U. set (s4 := set_eff e (set_reg r s3)). set (L := concat ls) in *.
  assert (LE : forall c', cnt c' L + cnt c' lp = cnt c' lk) by (intros c'; specialize (T3 c'); lia).
  assert (RR : forall c' x, dget c' r = Some x -> cnt c' L = 0 /\ dget c' (y_reg s) = Some x).
  { intros c' x Rx. destruct (cnt c' L) eqn:Z; [destruct (U2 _ Z) as [Y _]; split; [auto|rewrite Y in Rx; exact Rx]|]. destruct (U1 c') as [Y _]; [lia|congruence]. }
  assert (AG4 : forall l, (forall c', cnt c' l <= cnt c' (a ++ b ++ lnew ++ lp ++ lpend)) -> agree (y_states s) (y_reg s) (y_states s4) (y_reg s4) l).
  { intros l Hl c' x Hc Rx. assert (cnt c' L = 0) as Z. { specialize (X4 c'). specialize (LE c'). specialize (Hl c'). cn. lia. }
    destruct (U2 _ Z) as [Y _]. cbn. rewrite Y. cbn. split; auto. apply (AG l) with (c := c'); auto. apply ZL. intros c2. specialize (Hl c2). specialize (LE c2). cn. lia. }
  assert (CL : cnt c L = 0). { apply ZL. intros c'. specialize (LE c'). cn. lia. }
  apply descend_ok.
  exists u, m', v, [], kv, [], lp, [], okids, lnew, lpend, H, out, cout, a, b, C, q, dcur.
  split; [|split; [cbn; congruence|split; [|split]]].
  - split; cbn [y_states y_reg y_next y_ver y_flag y_holder y_by_id y_tasks y_eff y_log y_over s4 s3 set_eff set_reg]; auto.
    + intros c' x Rx. apply RR in Rx as [_ Rx]. destruct (B1 _ _ Rx) as (mx & Ex & Lx). unfold S'. destruct (Nat.eq_dec n x) as [<-|NE]; [exists m'; rewrite put_same by auto; split; auto; cbn; congruence|exists mx; rewrite put_other; auto].
    + intros x mx. unfold S'. destruct (Nat.eq_dec n x) as [<-|NE]; [rewrite put_same by auto; intros [= <-]; cbn; eauto|rewrite put_other by auto; eauto].
    + intros j w. unfold S'. rewrite put_length. destruct (Nat.eq_dec k j) as [<-|NE]; [rewrite put_same by auto; intros [= <-]; cbn; split; [apply (B3 _ _ T)|congruence]|rewrite put_other by auto; auto].
    + assert (EL' : forall i, lcs s4 i = lcs s i).
      { intros i. rewrite !lcs_nth. cbn. unfold S'. destruct (Nat.eq_dec n i) as [<-|NE]; [rewrite put_same by auto; rewrite N; reflexivity|rewrite put_other; auto]. }
      intros c' j E. destruct (B4 _ _ E) as (w & W & Lw). fold s3. destruct (Nat.eq_dec k j) as [<-|NE].
      * exists u. rewrite put_same by auto. split; auto. change (lcs s4 (t_old t) = c'). rewrite EL'. replace t with w by congruence. exact Lw.
      * exists w. rewrite put_other by auto. split; auto. change (lcs s4 (t_old w) = c'). rewrite EL'. exact Lw.
    + intros c' x _ Rx FL. apply RR in Rx as [_ Rx]. destruct (Nat.eq_dec c' c) as [->|NC]; [rewrite at_same in FL; discriminate|]. rewrite at_other in FL by auto.
      destruct (B5 c' x) as (j & w & W1 & W2 & W3 & W4 & W5); auto; [intros E; apply NC; injection E as <-; reflexivity|]. exists j, w. rewrite put_other; [auto 6|]. intros <-. replace w with t in * by congruence. congruence.
    + intros c' x mx w Rx Ex Ow. apply RR in Rx as [_ Rx]. destruct (Nat.eq_dec c' c) as [->|NC].
      * left. assert (x = n) as -> by (pose proof (eq_trans (eq_sym Rx) R) as Q0; congruence). unfold S' in Ex. rewrite put_same in Ex by auto. injection Ex as <-. cbn in Ow. injection Ow as <-. reflexivity.
      * rewrite at_other by auto. unfold S' in Ex. rewrite put_other in Ex; [eauto|]. intros <-. destruct (B1 _ _ Rx) as (mx' & Ex' & Lx). apply NC. unfold c. congruence.
  - split; cbn [f_new f_old f_todo]; auto.
    + cbn. unfold S'. apply put_same; auto.
    + change (dget c r = Some n). destruct (U2 _ CL) as [-> _]. exact R.
    + cbn [m_kids m' set_model]. rewrite K0. constructor.
    + cbn [m_lcs m' set_model]. eapply keeps_old; [exact KP|exact R|exact O].
    + eapply agree_pends; [apply AG4|exact T2]. intros c'. cn. lia.
  - change (slot_of m') with (slot_of m). change (m_lcs m') with c. eapply agree_chain; [apply AG4|exact KP|exact CH]. intros c'. cn. lia.
  - change (m_lcs m') with c. split; cbn [y_states y_reg y_next y_ver y_flag y_holder y_by_id y_tasks y_eff y_log y_over s4 s3 set_eff set_reg]; auto.
    + apply put_same; auto.
    + eapply agree_outer; [apply AG4|exact X3]. intros c'. cn. lia.
    + intros c'. specialize (X4 c'). specialize (LE c'). cn. lia.
    + intros c' x Rx. apply RR in Rx as [Z Rx]. apply X5 in Rx. specialize (LE c'). cn. lia.
    + intros c'. cbn [t_hooks u]. rewrite in_app_iff, X7. cn. split.
      * intros [Hc|[<-|[]]]; [lia|rewrite one_same; lia].
      * intros Hc. destruct (Nat.eq_dec c' c) as [->|NC]; [right; left; reflexivity|]. rewrite one_diff in Hc by auto. left. lia.
    + intros c' Ec. destruct (cnt c' L) eqn:Z; [destruct (U2 _ Z) as [-> Y]; cbn; apply X8; rewrite <- Ec; symmetry; exact Y|destruct (U1 c') as [_ Y]; [lia|congruence]].
    + intros c' Hc. specialize (X4 c'). specialize (LE c'). assert (cnt c' L = 0) as Z by (cn; lia). destruct (U2 _ Z) as [_ ->]. cbn. apply X9. cn. lia.
    + intros c' Hc. apply X11. specialize (LE c'). cn. lia.
Qed.

(** ** The start of a render *)
Lemma renew_mid s k t o mo par lk a b C q dcur : base s None None -> nth_error (y_tasks s) k = Some t -> t_pc t = Start -> t_cancel t = false -> t_hooks t = [] -> t_old t = o ->
  nth_error (y_states s) o = Some mo -> NoDup (dkeys (m_kids mo)) -> pends view (y_states s) (y_reg s) (m_kids mo) (dkeys (m_kids mo)) lk ->
  outer view (y_states s) (y_reg s) (Slot par (m_key mo) (m_index mo) (m_type mo) (path_of s par (m_index mo))) (m_lcs mo) a b C q ->
  (forall c, cnt c (a ++ b ++ m_lcs mo :: lk) <= 1) -> (forall c x, dget c (y_reg s) = Some x -> cnt c (a ++ b ++ m_lcs mo :: lk) > 0) -> (forall c, y_holder s c = None) ->
  (forall c, y_eff s c = true -> exists x, dget c (y_reg s) = Some x) -> (forall c, cnt c (a ++ b ++ lk) > 0 -> y_eff s c = true) -> shown (y_log s) = C dcur ->
  mid (claim k (length (y_states s)) (Some o) [] (renew o par (m_index mo) s)) k.
Proof.
  intros B T PC TC TH TO E ND P OU ON CO HO E1 E2 SH.
  set (mn := Mst (m_lcs mo) (m_type mo) par (m_index mo) (m_key mo) (path_of s par (m_index mo)) [] (Node (m_lcs mo) None [])).
  assert (G : grown s mn [] (renew o par (m_index mo) s)).
  { exists (y_reg s), (y_eff s), (y_next s). unfold renew. rewrite (state_nth s o mo E). split; [reflexivity|]. split; [lia|]. split; [exact (b_lcs _ _ _ B o mo E)|]. split; [cbn; lia|auto]. }
  pose proof (base_weak _ (Some k) None B) as BW.
  assert (AG : forall l, agree (y_states s) (y_reg s) (y_states (renew o par (m_index mo) s)) (y_reg (renew o par (m_index mo) s)) l) by (intros l; eapply grown_agree; eauto).
  assert (LO : o < length (y_states s)) by (apply nth_error_Some; congruence).
  eapply claim_mid with (okids := m_kids mo) (lk := lk) (lnew := []) (lpend := []) (H := []) (m := mn) (t := t).
  - eapply grown_base; eauto.
  - right. rewrite TO. rewrite lcs_nth. cbn. rewrite nth_error_app1 by auto. rewrite E. reflexivity.
  - cbn. rewrite nth_error_app2, Nat.sub_diag by lia. cbn. rewrite (state_nth s o mo E). reflexivity.
  - intros c R. apply (grown_reg _ _ _ _ _ _ G) in R as [_ R]. apply (reg_lt _ _ _ _ _ B) in R. lia.
  - reflexivity.
  - reflexivity.
  - cbn [old_kids]. exists mo. split; [cbn; rewrite nth_error_app1; auto|]. split; [reflexivity|]. split; [lia|reflexivity].
  - exact ND.
  - eapply agree_pends; [apply AG|exact P].
  - constructor.
  - split; cbn [y_states y_reg y_next y_ver y_flag y_holder y_by_id y_tasks y_eff y_log y_over renew set_states]; change (m_lcs mn) with (m_lcs mo); auto.
    + eapply agree_outer; [|exact OU]. apply AG.
    + intros c. specialize (ON c). cn. lia.
    + intros c x R. specialize (CO c x R). cn. lia.
    + intros c. rewrite TH. cbn. split; [tauto|lia].
    + intros c Hc. apply E2. cn. lia.
    + exact SH.
    + intros c Hc. destruct (Nat.eq_dec c (m_lcs mo)) as [->|NE]; [exact (b_lcs _ _ _ B o mo E)|].
      destruct (E1 c) as [x R]; [apply E2; cn; rewrite one_diff in Hc by auto; lia|]. destruct (b_reg _ _ _ B _ _ R) as (mx & Ex & <-). exact (b_lcs _ _ _ B x mx Ex).
  - reflexivity.
Qed.
Lemma reach_incl n s : forall l x, In x l -> In x (reach n s l).
Proof. induction n as [|n IH]; cbn; intros l x I; auto. apply IH. apply nodup_In, in_app_iff. auto. Qed.
Lemma dget_dvals (c x : nat) (d : dict nat nat) : dget c d = Some x -> In x (dvals d).
Proof. intros E. apply dget_Some_In in E. unfold dvals. apply in_map_iff. exists (c, x). auto. Qed.
Lemma tree_pends S reg i l d m : tree view S reg i l d -> nth_error S i = Some m -> exists lk, l = m_lcs m :: lk /\ NoDup (dkeys (m_kids m)) /\ pends view S reg (m_kids m) (dkeys (m_kids m)) lk.
Proof.
  intros T E. inversion T as [i0 m0 v l0 ds T1 T2 T3 T4]; subst. replace m0 with m in * by congruence. exists l0.
  destruct (kids_len _ _ _ _ _ _ _ _ _ _ T4) as (_ & _ & KL). assert (ND : NoDup (dkeys (m_kids m))) by (rewrite KL; apply V). split; auto. split; auto.
  eapply pends_of_kids; eauto. intros key x I. apply In_dget; auto.
Qed.
Lemma start_ok s k t : rest_ s -> nth_error (y_tasks s) k = Some t -> t_pc t = Start -> t_cancel t = false -> dget (lcs s (t_old t)) (y_reg s) = Some (t_old t) -> mid (start k (t_old t) s) k.
Proof.
  intros (B & HO & E1 & r & m & R & E & SL & D) T PC TC RT.
  assert (TH : t_hooks t = []). { destruct (b_task _ _ _ B _ _ T) as [_ [[_ TH]|FI]]; [discriminate|auto|]. unfold finished in FI. rewrite PC in FI. discriminate. }
  assert (LM : m_lcs m = 0). { destruct (b_reg _ _ _ B _ _ R) as (m' & E' & L). congruence. }
  unfold slot_of in SL. injection SL as S1 S2 S3 S4 S5.
  destruct D as [(K0 & M0 & L0 & ONLY)|(l & d & TR & ONE & COV & E2 & SH & NL)].
  - (* the first render *)
    assert (t_old t = r) as TO. { rewrite (ONLY _ _ RT) in RT. congruence. }
    unfold start. rewrite TO. rewrite (state_nth _ _ _ E), S1. cbn [enter snd]. rewrite (state_nth _ _ _ E), Nat.eqb_refl. cbn [snd].
    eapply renew_mid with (lk := []) (a := []) (b := []) (C := fun d => d) (q := []) (t := t); eauto.
    + rewrite K0. constructor.
    + rewrite K0. constructor.
    + rewrite S2, S3, S4, LM. cbn. constructor.
    + intros c. cn. destruct (Nat.eq_dec c (m_lcs m)) as [->|NE]; [rewrite one_same|rewrite one_diff by auto]; lia.
    + intros c x Rc. rewrite (ONLY _ _ Rc). cn. rewrite LM, one_same. lia.
    + cbn. lia.
  - destruct (nth_error (y_states s) (t_old t)) as [mo|] eqn:EO; [|apply nth_error_None in EO; destruct (b_task _ _ _ B _ _ T); lia].
    assert (ELO : lcs s (t_old t) = m_lcs mo) by (rewrite lcs_nth, EO; reflexivity). rewrite ELO in RT.
    pose proof (COV _ _ RT) as IL. apply cnt_in in IL.
    destruct (proj1 (tree_split view _ _) _ _ _ TR _ _ IL RT) as [TO|(sl & a & b & C & q & lo & do_ & mo' & HH & -> & -> & TT & EO' & SL')].
    + (* the root *)
      rewrite TO in *. replace mo with m in * by congruence. destruct (tree_pends _ _ _ _ _ _ TR E) as (lk & -> & ND & P).
      unfold start. rewrite (state_nth _ _ _ E), S1. cbn [enter snd]. rewrite (state_nth _ _ _ E), Nat.eqb_refl. cbn [snd].
      eapply renew_mid with (lk := lk) (a := []) (b := []) (C := fun d => d) (q := []) (t := t); eauto.
      * rewrite S2, S3, S4, LM. cbn. constructor.
      * intros c Hc. apply E2. cn. lia.
    + replace mo' with mo in * by congruence. subst sl. destruct (tree_pends _ _ _ _ _ _ TT EO) as (lk & -> & ND & P).
      destruct (hole_slot _ _ _ _ _ _ _ _ _ HH) as (p & mp & P1 & P2 & P3 & P4 & P5 & P6). cbn [slot_of l_par l_path l_index] in *.
      unfold start. rewrite (state_nth _ _ _ EO), P1.
      assert (AL : alive s p = true). { unfold alive. apply existsb_exists. exists p. split; [|apply Nat.eqb_refl]. apply reach_incl. apply in_app_iff. left. eapply dget_dvals; eauto. }
      rewrite AL. cbn [enter snd]. rewrite (state_nth _ _ _ EO), Nat.eqb_refl. cbn [snd].
      eapply renew_mid with (lk := lk) (a := a) (b := b) (C := C) (q := q) (t := t); eauto.
      * eapply outer_hole with (r := r) (mr := m); auto; [unfold slot_of; congruence|]. cbn [path_of]. rewrite (state_nth _ _ _ P2), <- P5, <- P1. exact HH.
      * intros c. specialize (ONE c). cn. lia.
      * intros c x Rc. specialize (COV c x Rc). cn. lia.
      * intros c Hc. apply E2. cn. lia.
Qed.

(** ** A change of state *)
Lemma set_state_eq c s : exists vr fl by_ ts, set_state c s = Sys (y_states s) (y_reg s) (y_next s) vr fl (y_holder s) by_ ts (y_eff s) (y_log s) (y_over s) /\
  ((vr = y_ver s /\ fl = y_flag s /\ by_ = y_by_id s /\ ts = y_tasks s) \/
   (vr = at_ (y_ver s) c (S (y_ver s c)) /\ y_flag s c = true /\ fl = y_flag s /\ by_ = y_by_id s /\ ts = y_tasks s) \/
   (vr = at_ (y_ver s) c (S (y_ver s c)) /\ fl = at_ (y_flag s) c true /\ dget c (y_reg s) = None /\ by_ = y_by_id s /\ ts = y_tasks s) \/
   (vr = at_ (y_ver s) c (S (y_ver s c)) /\ fl = at_ (y_flag s) c true /\ exists x, dget c (y_reg s) = Some x /\ by_ = at_ (y_by_id s) c (Some (length (y_tasks s))) /\ ts = y_tasks s ++ [Task x Start false []])).
Proof.
  unfold set_state. destruct (Nat.ltb c (y_next s)); [|destruct s; eexists _, _, _, _; split; [reflexivity|left; auto]].
  destruct (y_flag s c) eqn:F; [eexists _, _, _, _; split; [reflexivity|right; left; auto]|].
  unfold schedule. cbn [y_reg set_ver]. destruct (dget c (y_reg s)) as [x|] eqn:R; eexists _, _, _, _; (split; [reflexivity|]); right; right; [right|left]; cbn; [split; auto; split; auto; exists x; auto|auto].
Qed.
Lemma base_set_state c s k exc : base s k exc -> base (set_state c s) k exc.
Proof.
  intros [B1 B2 B3 B4 B5 B6 B7]. destruct (set_state_eq c s) as (vr & fl & by_ & ts & -> & [(-> & -> & -> & ->)|[(-> & F & -> & -> & ->)|[(-> & -> & R & -> & ->)|(-> & -> & x & R & -> & ->)]]]).
  - split; auto.
  - split; cbn; auto. intros c' x m v Rx Ex Ev. destruct (Nat.eq_dec c' c) as [->|NE]; [auto|]. rewrite at_other by auto. eauto.
  - split; cbn; auto.
    + intros c' x NE Rx. rewrite at_other by (intros ->; congruence). eauto.
    + intros c' x m v Rx Ex Ev. rewrite !at_other by (intros ->; congruence). eauto.
  - destruct (B1 _ _ R) as (mx & EX & LX). split; cbn; auto.
    + intros j t E. apply nth_error_app_cases in E as [E|[<-|[]]]; [auto|]. cbn. split; [apply nth_error_Some; congruence|auto].
    + intros c' j. destruct (Nat.eq_dec c' c) as [->|NE].
      * rewrite at_same. intros [= <-]. exists (Task x Start false []). rewrite nth_error_app2, Nat.sub_diag by lia. split; auto. rewrite lcs_nth. cbn. rewrite EX. auto.
      * rewrite at_other by auto. intros E. destruct (B4 _ _ E) as (t & T & L). exists t. rewrite nth_error_app1; auto. apply nth_error_Some. congruence.
    + intros c' x' NE Rx. destruct (Nat.eq_dec c' c) as [->|NC].
      * intros _. exists (length (y_tasks s)), (Task x Start false []). rewrite at_same, nth_error_app2, Nat.sub_diag by lia. cbn. repeat split; auto. congruence.
      * rewrite !at_other by auto. intros F. destruct (B5 _ _ NE Rx F) as (j & t & W1 & W2 & W3). exists j, t. rewrite nth_error_app1; auto. apply nth_error_Some. congruence.
    + intros c' x' m v Rx Ex Ev. destruct (Nat.eq_dec c' c) as [->|NC]; [right; apply at_same|]. rewrite !at_other by auto. eauto.
Qed.
Lemma set_state_task c s k t : nth_error (y_tasks s) k = Some t -> nth_error (y_tasks (set_state c s)) k = Some t.
Proof.
  intros T. destruct (set_state_eq c s) as (vr & fl & by_ & ts & -> & [(-> & -> & -> & ->)|[(-> & F & -> & -> & ->)|[(-> & -> & R & -> & ->)|(-> & -> & x & R & -> & ->)]]]); cbn; auto.
  rewrite nth_error_app1; auto. apply nth_error_Some. congruence.
Qed.
Lemma mid_set_state c s k : mid s k -> mid (set_state c s) k.
Proof.
  intros (t & n & old & st & m & okids & lk & lnew & lpend & H & out & cout & a & b & C & q & dcur & B & PC & N & R & K0 & M0 & O & ND & P & CH & X).
  apply (base_set_state c) in B. destruct X as [X1 X2 X3 X4 X5 X6 X7 X8 X9 X10 X11]. apply (set_state_task c) in X1.
  exists t, n, old, st, m, okids, lk, lnew, lpend, H, out, cout, a, b, C, q, dcur. split; [exact B|]. split; [exact PC|]. clear B.
  destruct (set_state_eq c s) as (vr & fl & by_ & ts & E & _). rewrite E in *. cbn [y_states y_reg]. repeat (split; [assumption|]). split; auto.
Qed.
Lemma rest_set_state c s : rest_ s -> rest_ (set_state c s).
Proof. intros (B & X). split; [apply base_set_state; exact B|]. destruct (set_state_eq c s) as (vr & fl & by_ & ts & -> & _). exact X. Qed.

(** ** Every step *)
Lemma unwind_rest s k t : rest_ s -> nth_error (y_tasks s) k = Some t -> t_cancel t = true -> t_pc t = Start -> t_hooks t = [] -> rest_ (unwind k t s).
Proof.
  intros (B & HO & E1 & r & m & R & E & SL & D) T TC PC TH. unfold unwind, held. rewrite PC. cbn [existsb].
  unfold start_effects. cbn [y_tasks set_holder]. rewrite T, TH. cbn [existsb orb]. unfold set_pc. cbn [y_tasks set_eff set_holder]. rewrite T.
  split; [|split; [exact HO|split; [exact E1|exists r, m; auto]]].
  eapply base_end with (s := s) (u := Task (t_old t) Cancelled (t_cancel t) (t_hooks t)); [eapply base_weak; exact B|exact T|right; exact TC| | | | | | | | | |]; reflexivity.
Qed.
Definition inv (s : sys) : Prop := rest_ s \/ exists k, mid s k.
Lemma step_inv s o : inv s -> match o with Run k => may_run s k | SetState _ => True end -> inv (step view s o).
Proof.
  intros I M. destruct o as [c|k]; cbn [step].
  - destruct I as [I|[k I]]; [left; apply rest_set_state; exact I|right; exists k; apply mid_set_state; exact I].
  - destruct I as [I|[j I]].
    + unfold run_task. destruct (nth_error (y_tasks s) k) as [t|] eqn:T; [|left; exact I]. destruct (finished t) eqn:FI; [left; exact I|].
      assert (t_pc t = Start /\ t_hooks t = []) as [PC TH]. { destruct I as (B & _). destruct (b_task _ _ _ B _ _ T) as [_ [[? ?]|?]]; [discriminate|auto|congruence]. }
      destruct (t_cancel t) eqn:TC; [left; apply unwind_rest; auto|]. rewrite PC. right. exists k. eapply start_ok; eauto. destruct M as [_ M]. auto.
    + assert (MI := I). destruct I as (t & n & old & st & m & okids & lk & lnew & lpend & H & out & cout & a & b & C & q & dcur & B & PC & N & R & K0 & M0 & O & ND & P & CH & X).
      assert (j = k) as ->. { destruct (Nat.eq_dec j k); auto. exfalso. destruct M as [M _]. specialize (M j t n0 (c_task _ _ _ _ _ _ _ _ _ _ _ _ _ _ X)). unfold in_progress in M. rewrite PC in M. discriminate. }
      unfold run_task. rewrite (c_task _ _ _ _ _ _ _ _ _ _ _ _ _ _ X), (c_cancel _ _ _ _ _ _ _ _ _ _ _ _ _ _ X). unfold finished. rewrite PC.
      destruct (body_ok s k t n old st MI (c_task _ _ _ _ _ _ _ _ _ _ _ _ _ _ X) PC) as [Y|Y]; [right; exists k; exact Y|left; exact Y].
Qed.
Lemma init_rest : rest_ init.
Proof.
  split; [|split; [reflexivity|split; [discriminate|]]].
  - split; cbn; auto.
    + intros c x. destruct (eq_dec c 0) as [->|]; [|discriminate]. intros [= <-]. eexists; split; reflexivity.
    + intros [|[|x]] m; cbn; try discriminate. intros [= <-]. cbn. lia.
    + intros [|[|j]] t; cbn; try discriminate. intros [= <-]. cbn. auto.
    + intros [|c] j; cbn; [|discriminate]. intros [= <-]. eexists; split; reflexivity.
    + discriminate.
    + intros c x m v. destruct (eq_dec c 0) as [->|]; [|discriminate]. intros [= <-] [= <-]. discriminate.
  - exists 0. eexists. split; [reflexivity|]. split; [reflexivity|]. split; [reflexivity|]. left. repeat split; auto. intros c x. cbn. destruct (eq_dec c 0) as [->|]; [reflexivity|discriminate].
Qed.
Lemma run_inv ops : forall s, inv s -> separate view s ops -> inv (fold_left (step view) ops s).
Proof. induction ops as [|o ops IH]; intros s I SP; cbn; auto. destruct SP as [M SP]. apply IH; auto. apply step_inv; auto. Qed.
End View.

(** ** C77 *)
(** For every program whose children have distinct keys, and every schedule in which renders do not overlap and none starts
    for a component that was removed or rendered again since it was requested: whenever no render is in progress, the
    display is what the program gives, no component is shown twice, exactly the components on display are mounted and have
    their effects running, each is shown in its current state unless a render of it is due, and the session goes on.
    Missing: overlapping renders and requests overtaken by another render; false in general, see the refutations. *)
Theorem C77_separate_partial view ops : (forall ty v, NoDup (map fst (view ty v))) -> separate view init ops ->
  let s := run view ops in let d := shown (y_log s) in
  idle s -> y_log s <> [] ->
  y_over s = false /\ fits view 0 d /\ NoDup (doc_ids d) /\
  (forall c, registered s c = true <-> In c (doc_ids d)) /\ (forall c, y_eff s c = true <-> In c (doc_ids d)) /\
  (forall c v, In (c, v) (doc_vers d) -> v = Some (y_ver s c) \/ waiting s c).
Proof.
  intros V SP s d ID NL. assert (I : inv view s) by (apply run_inv; [exact V|left; apply init_rest|exact SP]).
  destruct I as [(B & HO & E1 & r & m & R & E & SL & D)|[k M]].
  2: { destruct M as (t & n & old & st & m & okids & lk & lnew & lpend & H & out & cout & a & b & C & q & dcur & B & PC & N & R & K0 & M0 & O & ND & P & CH & X).
       specialize (ID k t (c_task _ _ _ _ _ _ _ _ _ _ _ _ _ _ _ X)). unfold in_progress in ID. rewrite PC in ID. discriminate. }
  destruct D as [(_ & _ & L0 & _)|(l & d' & TR & ONE & COV & E2 & SH & _)]; [congruence|]. fold d in SH. subst d'.
  pose proof (proj1 (tree_ids view _ _) _ _ _ TR) as IDS. rewrite IDS.
  assert (IN : forall c, In c l <-> exists x, dget c (y_reg s) = Some x).
  { intros c. split; [intros I; destruct (proj1 (tree_reg view _ _) _ _ _ TR _ I) as (x & _ & _ & Rx & _); eauto|]. intros [x Rx]. apply cnt_in. eauto. }
  split; [exact (b_over _ _ _ B)|]. split.
  { pose proof (proj1 (tree_fits view _ _) _ _ _ TR _ E) as F. unfold slot_of in SL. replace (m_type m) with 0 in F by congruence. exact F. }
  split; [apply cnt_nodup; exact ONE|]. split; [|split].
  - intros c. rewrite IN. unfold registered. split; intros X; [apply dmem_true in X; exact X|apply dmem_true; exact X].
  - intros c. split; [intros X; apply IN; auto|]. intros X. apply E2. apply cnt_in. exact X.
  - intros c v I. destruct (proj1 (tree_vers view _ _) _ _ _ TR _ _ I) as (x & mx & Rx & Ex & Ov & NN). destruct v as [v|]; [|congruence].
    destruct (b_ver _ _ _ B c x mx v Rx Ex Ov) as [->|FL]; [auto|]. right. destruct (b_flag _ _ _ B c x ltac:(discriminate) Rx FL) as (j & t & W1 & W2 & W3 & W4 & W5).
    exists j, t. subst x. auto.
Qed.
Print Assumptions C77_separate_partial.

Fixpoint runs (k n : nat) : list op := match n with 0 => [] | S m => Run k :: runs k m end.
(** The root has a child of type 1, which drops its own child when its state changes. *)
Definition prog1 (ty v : nat) : list (nat * nat) := match ty, v with 0, _ => [(0, 1)] | 1, 0 => [(0, 2)] | _, _ => [] end.
(** The component of type 1 drops the first of two children; that one (type 2) has a child. *)
Definition prog2 (ty v : nat) : list (nat * nat) := match ty, v with 0, _ => [(0, 1)] | 1, 0 => [(0, 2); (1, 3)] | 1, _ => [(1, 3)] | 2, _ => [(0, 4)] | _, _ => [] end.
(** The component of type 1 gets two children when its state changes. *)
Definition prog3 (ty v : nat) : list (nat * nat) := match ty, v with 0, _ => [(0, 1)] | 1, 0 => [] | 1, _ => [(0, 2); (1, 3)] | _, _ => [] end.
Lemma prog2_keys ty v : NoDup (map fst (prog2 ty v)).
Proof. destruct ty as [|[|[|ty]]], v as [|v]; cbn; repeat constructor; cbn; intuition discriminate. Qed.

(** A check of [separate] by computation. *)
Definition may_runb (s : sys) (k : nat) : bool :=
  forallb (fun j => Nat.eqb j k || match nth_error (y_tasks s) j with Some t => negb (in_progress t) | None => true end) (seq 0 (length (y_tasks s))) &&
  match nth_error (y_tasks s) k with
  | Some t => match t_pc t with Start => t_cancel t || match dget (lcs s (t_old t)) (y_reg s) with Some x => Nat.eqb x (t_old t) | None => false end | _ => true end
  | None => true
  end.
Fixpoint separateb (view : nat -> nat -> list (nat * nat)) (s : sys) (ops : list op) : bool :=
  match ops with [] => true | o :: r => match o with Run k => may_runb s k | SetState _ => true end && separateb view (step view s o) r end.
Lemma separateb_ok view ops : forall s, separateb view s ops = true -> separate view s ops.
Proof.
  induction ops as [|o ops IH]; intros s H; cbn in *; [exact I|]. apply andb_true_iff in H as [H1 H2]. split; [|auto]. destruct o as [c|k]; [exact I|].
  unfold may_runb in H1. apply andb_true_iff in H1 as [A B]. split.
  - intros j t NE E. rewrite forallb_forall in A. specialize (A j). rewrite E in A. assert (L : j < length (y_tasks s)) by (apply nth_error_Some; congruence).
    specialize (A ltac:(apply in_seq; lia)). apply orb_true_iff in A as [A|A]; [apply Nat.eqb_eq in A; tauto|apply negb_true_iff; exact A].
  - intros t E PC TC. rewrite E, PC, TC in B. cbn in B. destruct (dget (lcs s (t_old t)) (y_reg s)) as [x|]; [apply Nat.eqb_eq in B; congruence|discriminate].
Qed.
(** The hypotheses are met by a session in which a component loses a child, another is rendered again, and one render is due. *)
Example C77_separate_example :
  let ops := runs 0 6 ++ [SetState 2; SetState 1; Run 1; Run 1; Run 1; Run 2; Run 2; Run 2; SetState 0] in
  let s := run prog2 ops in
  separate prog2 init ops /\ idle s /\ y_log s <> [] /\ doc_ids (shown (y_log s)) = [0; 1; 4] /\ waiting s 0.
Proof.
  intros ops s. split; [apply separateb_ok; vm_compute; reflexivity|]. split; [|split; [vm_compute; discriminate|split; [vm_compute; reflexivity|]]].
  - intros k t E. vm_compute in E. repeat (destruct k as [|k]; [injection E as <-; reflexivity|]). destruct k; discriminate.
  - exists 3. eexists. split; [vm_compute; reflexivity|]. split; [reflexivity|]. split; [reflexivity|vm_compute; reflexivity].
Qed.

Ltac apart := let j := fresh in let k := fresh in intros j k t u NE E1 E2; vm_compute in E1, E2;
  destruct j as [|[|[|[|j]]]], k as [|[|[|[|k]]]]; try discriminate E1; try discriminate E2; try congruence; injection E1 as <-; injection E2 as <-; cbn; intros; congruence.
(** A render requested for a component that is removed before it starts ends the session: no two renders overlap, and the
    tasks run in the order in which they became ready. *)
Theorem C77_removed_refuted : exists view ops, (forall ty v, NoDup (map fst (view ty v))) /\ in_turn view init [0] ops = true /\
  (forall n s, s = fold_left (step view) (firstn n ops) init -> forall j k t u, j <> k -> nth_error (y_tasks s) j = Some t -> nth_error (y_tasks s) k = Some u -> in_progress t = true -> in_progress u = false) /\
  y_over (run view ops) = true.
Proof.
  exists prog1, (runs 0 4 ++ [SetState 1; Run 1; SetState 2; Run 1; Run 2]). split.
  { intros ty v. destruct ty as [|[|ty]], v as [|v]; cbn; repeat constructor; cbn; tauto. }
  split; [vm_compute; reflexivity|]. split; [|vm_compute; reflexivity].
  intros n s ->. do 10 (destruct n as [|n]; [solve [apart]|]). solve [apart].
Qed.
Print Assumptions C77_removed_refuted.
(** Overlapping renders: when all is done, the display has a component that the program dropped, in the place of another,
    and effects of dropped components are running. *)
Theorem C77_stray_refuted : exists view ops, (forall ty v, NoDup (map fst (view ty v))) /\ in_turn view init [0] ops = true /\
  let s := run view ops in
  (forall k t, nth_error (y_tasks s) k = Some t -> finished t = true) /\ y_over s = false /\
  ~ fits view 0 (shown (y_log s)) /\ exists c, y_eff s c = true /\ registered s c = false.
Proof.
  exists prog2, (runs 0 6 ++ [SetState 1; SetState 2; Run 1; Run 2; Run 1; Run 2; Run 1; Run 2]). split; [apply prog2_keys|]. split; [vm_compute; reflexivity|].
  intros s. split; [|split; [vm_compute; reflexivity|split]].
  - intros k t E. vm_compute in E. repeat (destruct k as [|k]; [injection E as <-; reflexivity|]). destruct k; discriminate.
  - assert (D : shown (y_log s) = Node 0 (Some 0) [Node 1 (Some 1) [Node 2 (Some 1) [Node 3 (Some 0) []]]]) by (vm_compute; reflexivity). rewrite D. clear D. intros F.
    inversion F as [? ? ? ? F1]; subst. cbn in F1. inversion F1 as [|? ? ? ? F2 _]; subst. inversion F2 as [? ? ? ? F3]; subst. cbn in F3. inversion F3 as [|? ? ? ? F4 _]; subst. inversion F4 as [? ? ? ? F5]; subst. cbn in F5. inversion F5.
  - exists 2. split; vm_compute; reflexivity.
Qed.
Print Assumptions C77_stray_refuted.

(** ** C78 *)
(** A render of the parent's parent that overtakes the render of a component: the client gets an error for a component
    although nothing failed, and a component that is not on display stays mounted with its effect. *)
Theorem C78_error_refuted : exists view ops, (forall ty v, NoDup (map fst (view ty v))) /\ in_turn view init [0] ops = true /\
  let s := run view ops in
  (forall k t, nth_error (y_tasks s) k = Some t -> finished t = true) /\ y_over s = false /\
  In (1, None) (doc_vers (shown (y_log s))) /\ registered s 4 = true /\ y_eff s 4 = true /\ ~ In 4 (doc_ids (shown (y_log s))).
Proof.
  exists prog2, (runs 0 6 ++ [SetState 1; SetState 0; Run 1; Run 2; Run 1; Run 2; Run 1; Run 2]). split; [apply prog2_keys|]. split; [vm_compute; reflexivity|].
  intros s. split; [|split; [vm_compute; reflexivity|]].
  - intros k t E. vm_compute in E. repeat (destruct k as [|k]; [injection E as <-; reflexivity|]). destruct k; discriminate.
  - assert (D : shown (y_log s) = Node 0 (Some 1) [Node 1 None []]) by (vm_compute; reflexivity). rewrite D. clear D. split; [cbn; auto|]. split; [vm_compute; reflexivity|]. split; [vm_compute; reflexivity|]. cbn. intuition discriminate.
Qed.
Print Assumptions C78_error_refuted.
(** A render that is overtaken after it made new components: they stay mounted, and their effects run, for good. *)
Theorem C78_leak_refuted : exists view ops, (forall ty v, NoDup (map fst (view ty v))) /\ in_turn view init [0] ops = true /\
  let s := run view ops in
  (forall k t, nth_error (y_tasks s) k = Some t -> finished t = true) /\ y_over s = false /\ fits view 0 (shown (y_log s)) /\
  registered s 2 = true /\ y_eff s 2 = true /\ ~ In 2 (doc_ids (shown (y_log s))).
Proof.
  exists prog3, (runs 0 3 ++ [SetState 1; Run 1; SetState 0; Run 1; Run 2; Run 1; Run 2; Run 1; Run 2; Run 2; Run 2]). split.
  { intros ty v. destruct ty as [|[|ty]], v as [|v]; cbn; repeat constructor; cbn; intuition discriminate. }
  split; [vm_compute; reflexivity|].
  intros s. split; [|split; [vm_compute; reflexivity|]].
  - intros k t E. vm_compute in E. repeat (destruct k as [|k]; [injection E as <-; reflexivity|]). destruct k; discriminate.
  - assert (D : exists d4 d5, shown (y_log s) = Node 0 (Some 1) [Node 1 (Some 1) [Node 4 (Some d4) []; Node 5 (Some d5) []]]) by (eexists _, _; vm_compute; reflexivity). destruct D as (d4 & d5 & D). rewrite D. clear D.
    split; [repeat constructor|]. split; [vm_compute; reflexivity|]. split; [vm_compute; reflexivity|]. cbn. intuition discriminate.
Qed.
Print Assumptions C78_leak_refuted.
