(** * The invariant of separate renders in AsyncTree.v *)
From Coq Require Import Arith Bool Lia List Permutation.
From Verif Require Import Dict EffectModel EffectProps AsyncTree AsyncTreeFacts.
Import ListNotations.

(** Occurrences, to reason about disjointness by arithmetic. *)
Definition one (c x : nat) : nat := if Nat.eq_dec c x then 1 else 0.
Fixpoint cnt (c : nat) (l : list nat) : nat := match l with [] => 0 | x :: l' => one c x + cnt c l' end.
Lemma cnt_app c a b : cnt c (a ++ b) = cnt c a + cnt c b.
Proof. induction a; cbn; lia. Qed.
Lemma one_same c : one c c = 1.
Proof. unfold one. destruct (Nat.eq_dec c c); congruence. Qed.
Lemma one_diff c x : c <> x -> one c x = 0.
Proof. unfold one. destruct (Nat.eq_dec c x); congruence. Qed.
Lemma one_pos c x : one c x > 0 -> c = x.
Proof. unfold one. destruct (Nat.eq_dec c x); [auto|lia]. Qed.
Lemma cnt_in c l : cnt c l > 0 <-> In c l.
Proof. induction l as [|x l IH]; cbn; [split; [lia|tauto]|]. unfold one. destruct (Nat.eq_dec c x) as [->|N]; [split; [auto|lia]|]. cbn. rewrite IH. split; [auto|intros [E|E]; [congruence|auto]]. Qed.
Lemma cnt_nodup l : NoDup l <-> forall c, cnt c l <= 1.
Proof.
  induction l as [|x l IH]; cbn; [split; [lia|constructor]|]. rewrite NoDup_cons_iff, IH. split.
  - intros (N & H) c. specialize (H c). unfold one. destruct (Nat.eq_dec c x) as [->|]; [|lia]. rewrite <- cnt_in in N. lia.
  - intros H. split; [|intros c; specialize (H c); lia]. intros X. apply cnt_in in X. specialize (H x). rewrite one_same in H. lia.
Qed.
Lemma cnt_perm c l l' : Permutation l l' -> cnt c l = cnt c l'.
Proof. induction 1; cbn; lia. Qed.
Lemma at_same {A} (f : nat -> A) c x : at_ f c x c = x.
Proof. unfold at_. rewrite Nat.eqb_refl. reflexivity. Qed.
Lemma at_other {A} (f : nat -> A) c x d : d <> c -> at_ f c x d = f d.
Proof. intros H. unfold at_. apply Nat.eqb_neq in H. rewrite H. reflexivity. Qed.
Lemma state_nth s i m : nth_error (y_states s) i = Some m -> state s i = m.
Proof. apply nth_error_nth. Qed.

Section View.
Variable view : nat -> nat -> list (nat * nat).
Hypothesis V : forall ty v, NoDup (map fst (view ty v)).

(** ** Old children still to be rendered again *)
Section Static.
Variable S : list mst.
Variable reg : dict nat nat.
Inductive pends (okids : dict nat nat) : list nat -> list nat -> Prop :=
| pends_nil : pends okids [] []
| pends_none key ks l : dget key okids = None -> pends okids ks l -> pends okids (key :: ks) l
| pends_some key ks oc m l1 d l : dget key okids = Some oc -> nth_error S oc = Some m -> m_key m = key -> tree view S reg oc l1 d ->
    pends okids ks l -> pends okids (key :: ks) (l1 ++ l).
Definition old_kids (c : nat) (fo : option nat) (fn : nat) (okids : dict nat nat) : Prop :=
  match fo with Some o => exists mo, nth_error S o = Some mo /\ m_lcs mo = c /\ o <> fn /\ okids = m_kids mo | None => okids = [] end.
(** The component of frame [f] with children [done] rendered, [cur] being rendered, [rest] to come. *)
Record opened (f : frame) (m : mst) (v : nat) (done cur rest : list (nat * nat)) (ld lp : list nat) (ds : list doc) (okids : dict nat nat) : Prop := {
  o_state : nth_error S (f_new f) = Some m;
  o_reg : dget (m_lcs m) reg = Some (f_new f);
  o_model : m_model m = Node (m_lcs m) (Some v) ds;
  o_view : view (m_type m) v = done ++ cur ++ rest;
  o_todo : f_todo f = number (length (done ++ cur)) rest;
  o_kids : kids view S reg (f_new f) (m_path m) 0 (m_kids m) done ld ds;
  o_old : old_kids (m_lcs m) (f_old f) (f_new f) okids;
  o_pends : pends okids (map fst rest) lp
}.
(** [chain sl c st ...]: the component [c] is being rendered at [sl] within the frames [st]; the outermost one is given last. *)
Inductive chain : slot -> nat -> list frame -> list nat -> list nat -> list nat -> slot -> nat -> Prop :=
| chain_nil sl c : chain sl c [] [] [] [] sl c
| chain_cons c f m v done key ty rest ld lp ds okids st lnew lpend H out cout :
    opened f m v done [(key, ty)] rest ld lp ds okids -> chain (slot_of m) (m_lcs m) st lnew lpend H out cout ->
    chain (Slot (Some (f_new f)) key (length done) ty (m_path m ++ [length done])) c (f :: st) (m_lcs m :: ld ++ lnew) (lp ++ lpend) (m_lcs m :: H) out cout.
Inductive outer : slot -> nat -> list nat -> list nat -> (doc -> doc) -> list nat -> Prop :=
| outer_root : outer (Slot None 0 0 0 []) 0 [] [] (fun d => d) []
| outer_hole r mr sl c a b C q : dget 0 reg = Some r -> nth_error S r = Some mr -> m_lcs mr = 0 -> slot_of mr = Slot None 0 0 0 [] ->
    hole view S reg r sl a b C q -> outer sl c a b C q.

Lemma pends_of_kids p path okids : forall k j t l ds, kids view S reg p path j k t l ds -> (forall key x, In (key, x) k -> dget key okids = Some x) -> pends okids (dkeys k) l.
Proof.
  induction k as [|[key n] k IH]; intros j t l ds K E; inversion K; subst; cbn; [constructor|].
  eapply pends_some; eauto; [apply E; cbn; auto|unfold slot_of in *; congruence|]. eapply IH; eauto. intros; apply E; cbn; auto.
Qed.
Lemma pends_perm okids ks ks' : Permutation ks ks' -> forall l, pends okids ks l -> exists l', pends okids ks' l' /\ Permutation l l'.
Proof.
  induction 1; intros l0 P.
  - exists l0. inversion P; subst. split; [constructor|constructor].
  - inversion P as [|? ? ? N1 P1|? ? ? ? ? ? ? N1 S1 K1 T1 P1]; subst.
    + destruct (IHPermutation _ P1) as (l2 & P' & E). exists l2. split; [constructor; auto|auto].
    + destruct (IHPermutation _ P1) as (lx & P' & E). eexists. split; [eapply pends_some; eauto|apply Permutation_app_head; auto].
  - inversion P as [|? ? ? N1 P1|? ? ? ? ? ? ? N1 S1 K1 T1 P1]; subst; inversion P1 as [|? ? ? N2 P2|? ? ? ? ? ? ? N2 S2 K2 T2 P2]; subst.
    + eexists. split; [apply pends_none; [|apply pends_none]; eauto|auto].
    + eexists. split; [eapply pends_some; eauto; apply pends_none; eauto|auto].
    + eexists. split; [apply pends_none; [assumption|]; eapply pends_some; eauto|auto].
    + eexists. split; [eapply pends_some; eauto; eapply pends_some; eauto|]. rewrite !app_assoc. apply Permutation_app_tail. apply Permutation_app_comm.
  - destruct (IHPermutation1 _ P) as (l1 & P1 & E1). destruct (IHPermutation2 _ P1) as (l2 & P2 & E2). exists l2. split; [auto|]. etransitivity; eauto.
Qed.
Lemma pends_app okids k1 k2 : forall l, pends okids (k1 ++ k2) l -> exists l1 l2, l = l1 ++ l2 /\ pends okids k1 l1 /\ pends okids k2 l2.
Proof.
  induction k1 as [|key k1 IH]; cbn; intros l P.
  - exists [], l. repeat split; auto. constructor.
  - inversion P as [|? ? ? N1 P1|? ? ? ? ? ? ? N1 S1 K1 T1 P1]; subst.
    + destruct (IH _ P1) as (l1 & l2 & -> & Q1 & Q2). exists l1, l2. repeat split; auto. constructor; auto.
    + destruct (IH _ P1) as (l2 & l3 & -> & Q1 & Q2). eexists (_ ++ l2), l3. split; [apply app_assoc|]. split; [eapply pends_some; eauto|auto].
Qed.
Lemma pends_mk okids k1 k2 l1 l2 : pends okids k1 l1 -> pends okids k2 l2 -> pends okids (k1 ++ k2) (l1 ++ l2).
Proof. induction 1; cbn; intros P2; auto. - constructor; auto. - rewrite <- app_assoc. eapply pends_some; eauto. Qed.
Lemma pends_absent okids ks : (forall key, In key ks -> dget key okids = None) -> pends okids ks [].
Proof. induction ks; intros H; constructor; [apply H; cbn; auto|]. apply IHks. intros; apply H; cbn; auto. Qed.
Definition trees (is_ : list nat) (ls : list (list nat)) : Prop := Forall2 (fun i l => exists d, tree view S reg i l d) is_ ls.
Lemma pends_trees okids f : (forall key x, In (key, x) f -> dget key okids = Some x) -> forall l, pends okids (map fst f) l -> exists ls, trees (map snd f) ls /\ concat ls = l.
Proof.
  induction f as [|[key x] f IH]; cbn; intros E l P; inversion P as [|? ? ? N1 P1|? ? ? ? ? ? ? N1 S1 K1 T1 P1]; subst.
  - exists []. split; constructor.
  - rewrite (E _ x) in N1 by auto. discriminate.
  - rewrite (E _ x) in N1 by auto. injection N1 as ->. destruct (IH ltac:(intros; apply E; auto) _ P1) as (ls & T & <-). eexists (_ :: ls). split; [constructor; eauto|reflexivity].
Qed.
Definition inb (ks : list nat) (k : nat) : bool := existsb (Nat.eqb k) ks.
Lemma inb_in ks k : inb ks k = true <-> In k ks.
Proof. unfold inb. rewrite existsb_exists. split; [intros (x & H & E); apply Nat.eqb_eq in E as ->; auto|intros H; exists k; split; [auto|apply Nat.eqb_refl]]. Qed.
(** The old children split into those whose key is gone and those to be rendered again. *)
Lemma pends_split okids ks lk : NoDup (dkeys okids) -> NoDup ks -> pends okids (dkeys okids) lk ->
  exists ls lp, trees (map snd (filter (fun kv => negb (existsb (Nat.eqb (fst kv)) ks)) okids)) ls /\ pends okids ks lp /\ (forall c, cnt c lk = cnt c (concat ls) + cnt c lp).
Proof.
  intros N1 N2 P.
  set (gone := filter (fun kv => negb (existsb (Nat.eqb (fst kv)) ks)) okids). set (stay := filter (fun kv => existsb (Nat.eqb (fst kv)) ks) okids).
  assert (PP : Permutation (dkeys okids) (map fst gone ++ map fst stay)).
  { unfold gone, stay, dkeys. clear. induction okids as [|[key x] d IH]; cbn; [constructor|]. destruct (existsb (Nat.eqb key) ks); cbn.
    - apply Permutation_cons_app. exact IH.
    - constructor. exact IH. }
  destruct (pends_perm _ _ _ PP _ P) as (l1 & P1 & E1). destruct (pends_app _ _ _ _ P1) as (lg & lst & -> & Pg & Ps).
  assert (G : forall key x, In (key, x) gone -> dget key okids = Some x). { intros key x H. apply filter_In in H as [H _]. apply In_dget; auto. }
  destruct (pends_trees _ _ G _ Pg) as (ls & T & <-).
  assert (PK : Permutation (filter (fun k => dmem k okids) ks ++ filter (fun k => negb (dmem k okids)) ks) ks).
  { clear. induction ks as [|k ks IH]; cbn; [constructor|]. destruct (dmem k okids); cbn; [constructor; exact IH|]. symmetry. apply Permutation_cons_app. symmetry. exact IH. }
  assert (PQ : Permutation (map fst stay) (filter (fun k => dmem k okids) ks)).
  { apply NoDup_Permutation.
    - assert (NoDup (map fst gone ++ map fst stay)) by (eapply Permutation_NoDup; eauto). apply nodup_app in H. tauto.
    - apply NoDup_filter. exact N2.
    - intros k. rewrite filter_In, in_map_iff. unfold stay. split.
      + intros ((k' & x) & <- & H). apply filter_In in H as [H1 H2]. cbn in *. apply inb_in in H2. split; [auto|]. apply dmem_In. apply in_map_iff. exists (k', x). auto.
      + intros [H1 H2]. apply dmem_In in H2. apply in_map_iff in H2 as ((k' & x) & <- & H2). exists (k', x). split; [reflexivity|]. apply filter_In. split; [auto|]. apply inb_in. exact H1. }
  destruct (pends_perm _ _ _ PQ _ Ps) as (l2 & P2 & E2).
  assert (P3 : pends okids (filter (fun k => negb (dmem k okids)) ks) []).
  { apply pends_absent. intros k H. apply filter_In in H as [_ H]. apply negb_true_iff in H. apply dmem_false. exact H. }
  destruct (pends_perm _ _ _ PK _ (pends_mk _ _ _ _ _ P2 P3)) as (lp & P4 & E4). exists ls, lp. split; [exact T|]. split; [exact P4|].
  intros c. rewrite (cnt_perm c _ _ E1), cnt_app. rewrite <- (cnt_perm c _ _ E4), cnt_app, (cnt_perm c _ _ E2). cbn. lia.
Qed.
End Static.

(** ** Dependence on states and registrations *)
Definition agree (S : list mst) (reg : dict nat nat) (S' : list mst) (reg' : dict nat nat) (l : list nat) : Prop :=
  forall c x, cnt c l > 0 -> dget c reg = Some x -> dget c reg' = Some x /\ nth_error S' x = nth_error S x.
Lemma agree_sub S reg S' reg' l l' : agree S reg S' reg' l -> (forall c, cnt c l' > 0 -> cnt c l > 0) -> agree S reg S' reg' l'.
Proof. intros A H c x I. apply A. apply H. exact I. Qed.
Lemma agree_in S reg S' reg' l : agree S reg S' reg' l -> forall c x, In c l -> dget c reg = Some x -> dget c reg' = Some x /\ nth_error S' x = nth_error S x.
Proof. intros A c x I. apply A. apply cnt_in. exact I. Qed.
Ltac cn := repeat (rewrite ?cnt_app in * || cbn [cnt app] in * ).
Lemma agree_tree S reg S' reg' i l d : agree S reg S' reg' l -> tree view S reg i l d -> tree view S' reg' i l d.
Proof. intros A T. eapply (proj1 (tree_frame view S reg S' reg')); eauto. apply agree_in. exact A. Qed.
Lemma agree_kids S reg S' reg' p path j k t l ds : agree S reg S' reg' l -> kids view S reg p path j k t l ds -> kids view S' reg' p path j k t l ds.
Proof. intros A T. eapply (proj2 (tree_frame view S reg S' reg')); eauto. apply agree_in. exact A. Qed.
Lemma tree_top S reg i l d : tree view S reg i l d -> exists m l', nth_error S i = Some m /\ dget (m_lcs m) reg = Some i /\ l = m_lcs m :: l' .
Proof. inversion 1; subst. eauto. Qed.
Lemma agree_pends S reg S' reg' okids ks l : agree S reg S' reg' l -> pends S reg okids ks l -> pends S' reg' okids ks l.
Proof.
  intros A P. induction P.
  - constructor.
  - constructor; auto.
  - assert (A1 : agree S reg S' reg' l1) by (eapply agree_sub; [exact A|]; intros c; cn; lia).
    eapply pends_some; eauto.
    + destruct (tree_top _ _ _ _ _ H2) as (m' & l' & E & R & ->). destruct (A1 (m_lcs m') oc) as [_ X]; [cn; rewrite one_same; lia|auto|]. congruence.
    + eapply agree_tree; eauto.
    + apply IHP. eapply agree_sub; [exact A|]. intros c; cn; lia.
Qed.
(** States that are not registered are kept. *)
Definition keeps (S : list mst) (reg : dict nat nat) (S' : list mst) : Prop := forall o mo, nth_error S o = Some mo -> dget (m_lcs mo) reg <> Some o -> nth_error S' o = Some mo.
Lemma keeps_old S reg S' c fo fn okids : keeps S reg S' -> dget c reg = Some fn -> old_kids S c fo fn okids -> old_kids S' c fo fn okids.
Proof. intros K R. destruct fo as [o|]; cbn; auto. intros (mo & E & <- & N & ->). exists mo. repeat split; auto. apply K; auto. congruence. Qed.
Lemma agree_opened S reg S' reg' f m v done cur rest ld lp ds okids : agree S reg S' reg' (m_lcs m :: ld ++ lp) -> keeps S reg S' ->
  opened S reg f m v done cur rest ld lp ds okids -> opened S' reg' f m v done cur rest ld lp ds okids.
Proof.
  intros A K [O1 O2 O3 O4 O5 O6 O7 O8].
  destruct (A (m_lcs m) (f_new f)) as [R E]; [cn; rewrite one_same; lia|assumption|]. split; auto; [congruence| | |].
  - eapply agree_kids; eauto. eapply agree_sub; [exact A|]. intros c; cn; lia.
  - eapply keeps_old; eauto.
  - eapply agree_pends; eauto. eapply agree_sub; [exact A|]. intros c; cn; lia.
Qed.
Lemma agree_chain S reg S' reg' sl c st lnew lpend H out cout : agree S reg S' reg' (lnew ++ lpend) -> keeps S reg S' -> chain S reg sl c st lnew lpend H out cout -> chain S' reg' sl c st lnew lpend H out cout.
Proof.
  intros A K C. induction C; [constructor|]. econstructor.
  - eapply agree_opened; eauto. eapply agree_sub; [exact A|]. intros c'; cn; lia.
  - apply IHC. eapply agree_sub; [exact A|]. intros c'; cn; lia.
Qed.
Lemma agree_outer S reg S' reg' sl c a b C q : agree S reg S' reg' (a ++ b) -> outer S reg sl c a b C q -> outer S' reg' sl c a b C q.
Proof.
  intros A O. destruct O; [constructor|].
  assert (In 0 a). { inversion H3; subst; match goal with E : nth_error S r = Some ?x |- _ => replace x with mr in * by congruence end; rewrite H1; cbn; auto. }
  destruct (A 0 r) as [R E]; [cn; apply cnt_in in H4; lia|assumption|].
  econstructor; eauto; [congruence|]. eapply hole_frame; eauto. apply agree_in. exact A.
Qed.

(** ** Unmounting *)
Lemma trees_agree S reg S' reg' is_ ls : agree S reg S' reg' (concat ls) -> trees S reg is_ ls -> trees S' reg' is_ ls.
Proof.
  intros A T. induction T; constructor.
  - destruct H as [d H]. exists d. eapply agree_tree; eauto. eapply agree_sub; [exact A|]. intros c; cbn; cn; lia.
  - apply IHT. eapply agree_sub; [exact A|]. intros c; cbn; cn; lia.
Qed.
Lemma kids_trees S reg p path j k t l ds : kids view S reg p path j k t l ds -> exists ls, trees S reg (dvals k) ls /\ concat ls = l.
Proof. revert j t l ds. induction k as [|[key n] k IH]; intros j t l ds K; inversion K; subst; cbn. - exists []. split; constructor. - destruct (IH _ _ _ _ ltac:(eassumption)) as (lss & T & <-). eexists (_ :: lss). split; [constructor; eauto|reflexivity]. Qed.
Lemma trees_rev S reg is_ ls : trees S reg is_ ls -> trees S reg (rev is_) (rev ls) /\ (forall c, cnt c (concat (rev ls)) = cnt c (concat ls)).
Proof.
  induction 1; cbn; [split; [constructor|reflexivity]|]. destruct IHForall2 as [A B]. split.
  - apply Forall2_app; auto.
  - intros c. rewrite concat_app. cbn. cn. rewrite B. lia.
Qed.
Lemma trees_app S reg a b la lb : trees S reg a la -> trees S reg b lb -> trees S reg (a ++ b) (la ++ lb).
Proof. apply Forall2_app. Qed.
Lemma unmount_ok : forall fuel stk ls s, trees (y_states s) (y_reg s) stk ls -> (forall c, cnt c (concat ls) <= 1) -> length (concat ls) <= fuel ->
  exists r e, unmount fuel stk s = (true, set_eff e (set_reg r s)) /\
    (forall c, cnt c (concat ls) > 0 -> dget c r = None /\ e c = false) /\ (forall c, cnt c (concat ls) = 0 -> dget c r = dget c (y_reg s) /\ e c = y_eff s c).
Proof.
  induction fuel as [|fuel IH]; intros stk ls s T N L.
  - assert (concat ls = []) as E by (destruct (concat ls); [reflexivity|cbn in L; lia]).
    destruct T as [|i l stk ls [d T] T']; [|destruct (tree_top _ _ _ _ _ T) as (m & l' & _ & _ & ->); discriminate].
    exists (y_reg s), (y_eff s). split; [destruct s; reflexivity|]. split; intros c; cbn; auto. lia.
  - destruct T as [|i l stk ls [d T] T'].
    + exists (y_reg s), (y_eff s). split; [destruct s; reflexivity|]. split; intros c; cbn; auto. lia.
    + cbn [unmount concat] in *. inversion T as [i' m v lk ds E R O K]; subst.
      unfold lcs. rewrite (state_nth _ _ _ E). replace (dmem (m_lcs m) (y_reg s)) with true by (symmetry; apply dmem_true; eauto).
      destruct (kids_trees _ _ _ _ _ _ _ _ _ K) as (ks & TK & <-). destruct (trees_rev _ _ _ _ TK) as [TR CR].
      set (s1 := set_eff (at_ (y_eff s) (m_lcs m) false) (set_reg (ddel (m_lcs m) (y_reg s)) s)).
      destruct (IH (rev (dvals (m_kids m)) ++ stk) (rev ks ++ ls) s1) as (r & e & U & H1 & H2).
      * apply trees_app with (la := rev ks).
        -- eapply trees_agree; [|exact TR]. intros c x Hc Hx. cbn. split; [|reflexivity]. rewrite dget_ddel_other; auto. intros ->. rewrite CR in Hc. specialize (N (m_lcs m)). cn. rewrite one_same in N. lia.
        -- eapply trees_agree; [|exact T']. intros c x Hc Hx. cbn. split; [|reflexivity]. rewrite dget_ddel_other; auto. intros ->. specialize (N (m_lcs m)). cn. rewrite one_same in N. lia.
      * intros c. specialize (N c). rewrite concat_app. cn. rewrite CR. lia.
      * rewrite concat_app, app_length. cbn in L. rewrite app_length in L.
        assert (length (concat (rev ks)) = length (concat ks)). { clear. induction ks; cbn; [reflexivity|]. rewrite concat_app, !app_length, IHks. cbn. rewrite app_nil_r. lia. } lia.
      * exists r, e. split; [exact U|]. split; intros c Hc.
        -- destruct (Nat.eq_dec c (m_lcs m)) as [->|NE].
           ++ destruct (H2 (m_lcs m)) as [A B]; [specialize (N (m_lcs m)); rewrite concat_app; cn; rewrite one_same in N; rewrite CR; lia|]. rewrite A, B. cbn. rewrite dget_ddel_same, at_same. auto.
           ++ apply H1. rewrite concat_app. cn. rewrite CR. rewrite (one_diff _ _ NE) in Hc. lia.
        -- assert (NE : c <> m_lcs m) by (intros ->; cn; rewrite one_same in Hc; lia). destruct (H2 c) as [A B]; [rewrite concat_app; cn; rewrite CR; lia|]. rewrite A, B. cbn. rewrite dget_ddel_other, at_other by auto. auto.
Qed.
(** A registration for every component of the trees. *)
Lemma reg_len (reg : dict nat nat) l : (forall c, cnt c l > 0 -> exists x, dget c reg = Some x) -> (forall c, cnt c l <= 1) -> length l <= length reg.
Proof.
  intros H N. replace (length reg) with (length (dkeys reg)) by apply map_length. apply NoDup_incl_length; [apply cnt_nodup; auto|].
  intros c I. apply cnt_in in I. destruct (H _ I) as [x E]. eapply dget_Some_key; eauto.
Qed.
End View.
