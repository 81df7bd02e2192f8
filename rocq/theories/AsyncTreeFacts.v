(** * Facts about AsyncTree.v: mounted trees in the store of model states *)
From Coq Require Import Arith Bool Lia List.
From Verif Require Import Dict EffectModel EffectProps AsyncTree.
Import ListNotations.

(** The place of a component: parent's state, key, index, type, path. *)
Record slot := Slot { l_par : option nat; l_key : nat; l_index : nat; l_type : nat; l_path : list nat }.
Definition slot_of (m : mst) : slot := Slot (m_parent m) (m_key m) (m_index m) (m_type m) (m_path m).

Lemma nodup_app {A} (a b : list A) : NoDup (a ++ b) <-> NoDup a /\ NoDup b /\ forall x, In x a -> ~ In x b.
Proof.
  induction a as [|x a IH]; cbn.
  - split; [intros H; repeat split; auto; constructor|tauto].
  - rewrite !NoDup_cons_iff, IH, in_app_iff. split.
    + intros (N & A1 & B1 & D). repeat split; auto. intros y [<-|Y]; auto.
    + intros ((N & A1) & B1 & D). repeat split; auto. intros [X|X]; auto. exact (D x (or_introl eq_refl) X).
Qed.

Section Trees.
Variable view : nat -> nat -> list (nat * nat).
Variable S : list mst.
Variable reg : dict nat nat.

(** [tree i l d]: state [i] is the registered state of its component, its output is complete, and so for all its
    descendants; [l] are their ids, [d] is their output. *)
Inductive tree : nat -> list nat -> doc -> Prop :=
| tree_node i m v l ds :
    nth_error S i = Some m -> dget (m_lcs m) reg = Some i -> d_out (m_model m) = Some v ->
    kids i (m_path m) 0 (m_kids m) (view (m_type m) v) l ds ->
    tree i (m_lcs m :: l) (Node (m_lcs m) (Some v) ds)
with kids : nat -> list nat -> nat -> dict nat nat -> list (nat * nat) -> list nat -> list doc -> Prop :=
| kids_nil p path j : kids p path j [] [] [] []
| kids_cons p path j key ty n m rest ts l ls d ds :
    nth_error S n = Some m -> slot_of m = Slot (Some p) key j ty (path ++ [j]) ->
    tree n l d -> kids p path (Datatypes.S j) rest ts ls ds ->
    kids p path j ((key, n) :: rest) ((key, ty) :: ts) (l ++ ls) (d :: ds).
Scheme tree_mut := Minimality for tree Sort Prop with kids_mut := Minimality for kids Sort Prop.
Combined Scheme tree_kids_ind from tree_mut, kids_mut.

Lemma kids_app p path k1 : forall j k2 t1 t2 l1 l2 d1 d2,
  kids p path j k1 t1 l1 d1 -> kids p path (j + length k1) k2 t2 l2 d2 -> kids p path j (k1 ++ k2) (t1 ++ t2) (l1 ++ l2) (d1 ++ d2).
Proof.
  induction k1 as [|[key n] k1 IH]; intros j k2 t1 t2 l1 l2 d1 d2 H1 H2; inversion H1; subst; cbn [app length] in *.
  - rewrite Nat.add_0_r in H2. exact H2.
  - rewrite <- app_assoc. econstructor; eauto. apply IH; auto. replace (Datatypes.S j + length k1) with (j + Datatypes.S (length k1)) by lia. exact H2.
Qed.
Lemma kids_len p path j k t l d : kids p path j k t l d -> length k = length t /\ length d = length t /\ dkeys k = map fst t.
Proof. revert j t l d; induction k as [|[key n] k IH]; intros j t l d H; inversion H; subst; cbn; auto. destruct (IH _ _ _ _ ltac:(eassumption)) as (A & B & C). unfold dkeys in C. rewrite A, B, C. auto. Qed.
(** The child with a key. *)
Lemma kids_get p path key : forall k j t l d n, kids p path j k t l d -> dget key k = Some n ->
  exists k1 k2 ty t1 t2 l1 ln l2 d1 dn d2 m,
    k = k1 ++ (key, n) :: k2 /\ t = t1 ++ (key, ty) :: t2 /\ l = l1 ++ ln ++ l2 /\ d = d1 ++ dn :: d2 /\
    nth_error S n = Some m /\ slot_of m = Slot (Some p) key (j + length k1) ty (path ++ [j + length k1]) /\ tree n ln dn /\
    kids p path j k1 t1 l1 d1 /\ kids p path (Datatypes.S (j + length k1)) k2 t2 l2 d2.
Proof.
  induction k as [|[key' n'] k IH]; intros j t l d n H E; inversion H; subst; cbn [dget] in E; [discriminate|].
  destruct (eq_dec key key') as [->|NE].
  - injection E as ->. exists [], k, ty, [], ts, [], l0, ls, [], d0, ds, m. cbn. rewrite Nat.add_0_r. repeat (split; [solve [auto]|]). split; [constructor|assumption].
  - destruct (IH _ _ _ _ _ ltac:(eassumption) E) as (k1 & k2 & ty' & t1 & t2 & l1 & ln & l2 & d1 & dn & d2 & m' & -> & -> & -> & -> & A & B & C & D & F).
    exists ((key', n') :: k1), k2, ty', ((key', ty) :: t1), t2, (l0 ++ l1), ln, l2, (d0 :: d1), dn, d2, m'. cbn [app length]. rewrite <- app_assoc.
    replace (j + Datatypes.S (length k1)) with (Datatypes.S j + length k1) by lia.
    repeat (split; [solve [auto]|]). split; [econstructor; eauto|auto].
Qed.

Lemma tree_ids : (forall i l d, tree i l d -> doc_ids d = l) /\ (forall p path j k t l ds, kids p path j k t l ds -> flat_map doc_ids ds = l).
Proof. apply tree_kids_ind; intros; cbn; [f_equal; assumption| reflexivity | congruence]. Qed.
Lemma tree_fits : (forall i l d, tree i l d -> forall m, nth_error S i = Some m -> fits view (m_type m) d) /\
  (forall p path j k t l ds, kids p path j k t l ds -> Forall2 (fun kt d => fits view (snd kt) d) t ds).
Proof.
  apply tree_kids_ind; intros.
  - replace m0 with m in * by congruence. constructor. assumption.
  - constructor.
  - constructor; auto. cbn. specialize (H2 _ H). unfold slot_of in H0. injection H0 as _ _ _ <- _. exact H2.
Qed.
(** Every component of a tree is registered. *)
Lemma tree_reg : (forall i l d, tree i l d -> forall c, In c l -> exists x m v, dget c reg = Some x /\ nth_error S x = Some m /\ m_lcs m = c /\ d_out (m_model m) = Some v /\ In (c, Some v) (doc_vers d)) /\
  (forall p path j k t l ds, kids p path j k t l ds -> forall c, In c l -> exists x m v, dget c reg = Some x /\ nth_error S x = Some m /\ m_lcs m = c /\ d_out (m_model m) = Some v /\ In (c, Some v) (flat_map doc_vers ds)).
Proof.
  apply tree_kids_ind.
  - intros i m v l ds A B O _ IH c [<-|H].
    + exists i, m, v. cbn. auto 6.
    + destruct (IH _ H) as (x & m' & v' & ? & ? & ? & ? & ?). exists x, m', v'. cbn. auto 8.
  - intros p path j c [].
  - intros p path j key ty n m rest ts l ls d ds _ _ _ IH1 _ IH2 c H. apply in_app_iff in H as [H|H].
    + destruct (IH1 _ H) as (x & m' & v' & ? & ? & ? & ? & ?). exists x, m', v'. cbn. rewrite in_app_iff. auto 8.
    + destruct (IH2 _ H) as (x & m' & v' & ? & ? & ? & ? & ?). exists x, m', v'. cbn. rewrite in_app_iff. auto 8.
Qed.
Lemma tree_vers : (forall i l d, tree i l d -> forall c o, In (c, o) (doc_vers d) -> exists x m, dget c reg = Some x /\ nth_error S x = Some m /\ d_out (m_model m) = o /\ o <> None) /\
  (forall p path j k t l ds, kids p path j k t l ds -> forall c o, In (c, o) (flat_map doc_vers ds) -> exists x m, dget c reg = Some x /\ nth_error S x = Some m /\ d_out (m_model m) = o /\ o <> None).
Proof.
  apply tree_kids_ind.
  - intros i m v l ds A B O _ IH c o [H|H].
    + injection H as <- <-. exists i, m. repeat split; auto. discriminate.
    + auto.
  - intros p path j c o [].
  - intros p path j key ty n m rest ts l ls d ds _ _ _ IH1 _ IH2 c o H. cbn in H. apply in_app_iff in H as [H|H]; auto.
Qed.
End Trees.

(** A tree depends only on the registrations and states of its components. *)
Lemma tree_frame view S reg S' reg' :
  (forall i l d, tree view S reg i l d -> (forall c x, In c l -> dget c reg = Some x -> dget c reg' = Some x /\ nth_error S' x = nth_error S x) -> tree view S' reg' i l d) /\
  (forall p path j k t l ds, kids view S reg p path j k t l ds -> (forall c x, In c l -> dget c reg = Some x -> dget c reg' = Some x /\ nth_error S' x = nth_error S x) -> kids view S' reg' p path j k t l ds).
Proof.
  apply tree_kids_ind.
  - intros i m v l ds A B O K IH F. destruct (F (m_lcs m) i (or_introl eq_refl) B) as [B' E]. econstructor; eauto; [congruence|]. apply IH. intros; apply F; cbn; auto.
  - constructor.
  - intros p path j key ty n m rest ts l ls d ds A B T IH1 K IH2 F. econstructor; eauto.
    + inversion T; subst. destruct (F (m_lcs m0) n) as [_ E]; [cbn; auto|assumption|]. congruence.
    + apply IH1. intros; apply F; auto. apply in_app_iff; auto.
    + apply IH2. intros; apply F; auto. apply in_app_iff; auto.
Qed.

(** ** A tree with a hole: the place of a component under the state [p], everything around it complete. [a] and [b] are
    the ids before and after it, [C] is the output around it, [q] the path to it. *)
Section Holes.
Variable view : nat -> nat -> list (nat * nat).
Variable S : list mst.
Variable reg : dict nat nat.
Inductive hole : nat -> slot -> list nat -> list nat -> (doc -> doc) -> list nat -> Prop :=
| hole_here i m v k1 key x k2 t1 ty t2 l1 l2 d1 d2 :
    nth_error S i = Some m -> dget (m_lcs m) reg = Some i -> d_out (m_model m) = Some v ->
    m_kids m = k1 ++ (key, x) :: k2 -> view (m_type m) v = t1 ++ (key, ty) :: t2 ->
    kids view S reg i (m_path m) 0 k1 t1 l1 d1 -> kids view S reg i (m_path m) (Datatypes.S (length k1)) k2 t2 l2 d2 ->
    hole i (Slot (Some i) key (length k1) ty (m_path m ++ [length k1])) (m_lcs m :: l1) l2 (fun d => Node (m_lcs m) (Some v) (d1 ++ d :: d2)) [length k1]
| hole_down i m v k1 key n mn k2 t1 ty t2 l1 l2 d1 d2 sl a b C q :
    nth_error S i = Some m -> dget (m_lcs m) reg = Some i -> d_out (m_model m) = Some v ->
    m_kids m = k1 ++ (key, n) :: k2 -> view (m_type m) v = t1 ++ (key, ty) :: t2 ->
    kids view S reg i (m_path m) 0 k1 t1 l1 d1 -> kids view S reg i (m_path m) (Datatypes.S (length k1)) k2 t2 l2 d2 ->
    nth_error S n = Some mn -> slot_of mn = Slot (Some i) key (length k1) ty (m_path m ++ [length k1]) ->
    hole n sl a b C q ->
    hole i sl (m_lcs m :: l1 ++ a) (b ++ l2) (fun d => Node (m_lcs m) (Some v) (d1 ++ C d :: d2)) (length k1 :: q).

(** Every component of a tree but the top one has a hole for it. *)
Lemma tree_split : (forall i l d, tree view S reg i l d -> forall c o, In c l -> dget c reg = Some o ->
    o = i \/ exists sl a b C q lo do_ mo, hole i sl a b C q /\ l = a ++ lo ++ b /\ d = C do_ /\ tree view S reg o lo do_ /\ nth_error S o = Some mo /\ slot_of mo = sl) /\
  (forall p path j k t l ds, kids view S reg p path j k t l ds -> forall c o, In c l -> dget c reg = Some o ->
    exists k1 key n k2 t1 ty t2 l1 ln l2 d1 dn d2 mn, k = k1 ++ (key, n) :: k2 /\ t = t1 ++ (key, ty) :: t2 /\ l = l1 ++ ln ++ l2 /\ ds = d1 ++ dn :: d2 /\
      kids view S reg p path j k1 t1 l1 d1 /\ kids view S reg p path (Datatypes.S (j + length k1)) k2 t2 l2 d2 /\
      nth_error S n = Some mn /\ slot_of mn = Slot (Some p) key (j + length k1) ty (path ++ [j + length k1]) /\ tree view S reg n ln dn /\
      (o = n \/ exists sl a b C q lo do_ mo, hole n sl a b C q /\ ln = a ++ lo ++ b /\ dn = C do_ /\ tree view S reg o lo do_ /\ nth_error S o = Some mo /\ slot_of mo = sl)).
Proof.
  apply tree_kids_ind.
  - intros i m v l ds A B O K IH c o [<-|H] R; [left; congruence|]. right.
    destruct (IH _ _ H R) as (k1 & key & n & k2 & t1 & ty & t2 & l1 & ln & l2 & d1 & dn & d2 & mn & E1 & E2 & -> & -> & K1 & K2 & N & SL & TN & [->|X]); cbn [Nat.add] in *.
    + exists (slot_of mn), (m_lcs m :: l1), l2, (fun d => Node (m_lcs m) (Some v) (d1 ++ d :: d2)), [length k1], ln, dn, mn.
      split; [rewrite SL; econstructor; eauto|]. auto 6.
    + destruct X as (sl & a & b & C & q & lo & do_ & mo & HH & -> & -> & TO & NO & SO).
      exists sl, (m_lcs m :: l1 ++ a), (b ++ l2), (fun d => Node (m_lcs m) (Some v) (d1 ++ C d :: d2)), (length k1 :: q), lo, do_, mo.
      split; [econstructor; eauto|]. split; [cbn; rewrite <- !app_assoc; reflexivity|]. auto 6.
  - intros p path j c o [].
  - intros p path j key ty n m rest ts l ls d ds A B T IH1 K IH2 c o H R. apply in_app_iff in H as [H|H].
    + exists [], key, n, rest, [], ty, ts, [], l, ls, [], d, ds, m. cbn. rewrite Nat.add_0_r. repeat (split; [solve [auto]|]).
      split; [constructor|]. repeat (split; [assumption|]). exact (IH1 _ _ H R).
    + destruct (IH2 _ _ H R) as (k1 & key' & n' & k2 & t1 & ty' & t2 & l1 & ln & l2 & d1 & dn & d2 & mn & -> & -> & -> & -> & K1 & K2 & N & SL & TN & X).
      exists ((key, n) :: k1), key', n', k2, ((key, ty) :: t1), ty', t2, (l ++ l1), ln, l2, (d :: d1), dn, d2, mn. cbn [length app].
      replace (j + Datatypes.S (length k1)) with (Datatypes.S j + length k1) by lia. rewrite <- app_assoc.
      repeat (split; [solve [auto]|]). split; [econstructor; eauto|]. auto.
Qed.
End Holes.

Lemma hole_frame view S reg S' reg' i sl a b C q : hole view S reg i sl a b C q ->
  (forall c x, In c (a ++ b) -> dget c reg = Some x -> dget c reg' = Some x /\ nth_error S' x = nth_error S x) -> hole view S' reg' i sl a b C q.
Proof.
  intros H. induction H; intros F.
  - destruct (F (m_lcs m) i) as [R E]; [cbn; auto|assumption|]. apply hole_here with (x := x) (t1 := t1) (t2 := t2) (k2 := k2); auto; [congruence| |].
    + eapply (proj2 (tree_frame view S reg S' reg')); eauto. intros; apply F; auto. cbn. rewrite in_app_iff. auto.
    + eapply (proj2 (tree_frame view S reg S' reg')); eauto. intros; apply F; auto. cbn. rewrite in_app_iff. auto.
  - destruct (F (m_lcs m) i) as [R E]; [cbn; auto|assumption|]. apply hole_down with (n := n) (mn := mn) (key := key) (ty := ty) (t1 := t1) (t2 := t2) (k2 := k2); auto; [congruence| | | |].
    + eapply (proj2 (tree_frame view S reg S' reg')); eauto. intros; apply F; auto. cbn. rewrite !in_app_iff. auto.
    + eapply (proj2 (tree_frame view S reg S' reg')); eauto. intros; apply F; auto. cbn. rewrite !in_app_iff. auto 6.
    + assert (exists a', a = m_lcs mn :: a' /\ dget (m_lcs mn) reg = Some n) as (a' & -> & Rn).
      { inversion H8; subst; (replace m0 with mn in * by congruence); cbn; eauto. }
      destruct (F (m_lcs mn) n) as [_ En]; [cbn; rewrite !in_app_iff; cbn; auto 8|assumption|]. congruence.
    + apply IHhole. intros; apply F; auto. cbn. rewrite !in_app_iff in *. intuition.
Qed.
(** The place of a hole: its parent is registered and among the ids before it; what is put there is found at the path. *)
Lemma hole_slot view S reg i sl a b C q : hole view S reg i sl a b C q ->
  exists p m, l_par sl = Some p /\ nth_error S p = Some m /\ dget (m_lcs m) reg = Some p /\ In (m_lcs m) a /\ l_path sl = m_path m ++ [l_index sl] /\
    (forall mi, nth_error S i = Some mi -> m_path m ++ [l_index sl] = m_path mi ++ q).
Proof.
  intros H. induction H.
  - exists i, m. cbn. repeat (split; [solve [auto]|]). intros mi E. congruence.
  - destruct IHhole as (p & m' & A & B & D & E & F & G). exists p, m'. repeat (split; [solve [auto]|]).
    split; [cbn; rewrite in_app_iff; auto|]. split; [assumption|]. intros mi Ei. replace mi with m in * by congruence.
    rewrite (G _ H6). injection H7 as _ _ _ _ ->. rewrite <- app_assoc. reflexivity.
Qed.
Lemma replace_nth_mid {A} (f : A -> A) l1 x l2 : replace_nth (length l1) f (l1 ++ x :: l2) = l1 ++ f x :: l2.
Proof. induction l1; cbn; [reflexivity|]. f_equal. assumption. Qed.
Lemma hole_replace view S reg i sl a b C q : hole view S reg i sl a b C q -> forall d d', replace q d' (C d) = C d'.
Proof.
  intros H. induction H; intros e e'.
  - cbn. f_equal. destruct (kids_len _ _ _ _ _ _ _ _ _ _ H4) as (A & B & _). rewrite A, <- B. rewrite replace_nth_mid. reflexivity.
  - cbn. f_equal. destruct (kids_len _ _ _ _ _ _ _ _ _ _ H4) as (A & B & _). rewrite A, <- B. rewrite replace_nth_mid. f_equal. f_equal. apply IHhole.
Qed.
Lemma dset_mid {V} (key : nat) (n x : V) k1 k2 : ~ In key (dkeys k1) -> dset key n (k1 ++ (key, x) :: k2) = k1 ++ (key, n) :: k2.
Proof.
  induction k1 as [|[k y] k1 IH]; cbn; intros H.
  - destruct (eq_dec key key); [reflexivity|congruence].
  - destruct (eq_dec key k) as [->|]; [tauto|]. f_equal. apply IH. tauto.
Qed.
(** Filling the hole. *)
Lemma hole_plug view S reg i sl a b C q : (forall ty v, NoDup (map fst (view ty v))) -> hole view S reg i sl a b C q ->
  forall S' reg' p n l d m m' mn, l_par sl = Some p -> nth_error S p = Some m -> nth_error S' p = Some m' ->
  m_lcs m' = m_lcs m -> slot_of m' = slot_of m -> d_out (m_model m') = d_out (m_model m) -> m_kids m' = dset (l_key sl) n (m_kids m) ->
  dget (m_lcs m) reg' = Some p ->
  (forall c x, In c (a ++ b) -> c <> m_lcs m -> dget c reg = Some x -> dget c reg' = Some x /\ nth_error S' x = nth_error S x) -> NoDup (a ++ b) ->
  nth_error S' n = Some mn -> slot_of mn = sl -> tree view S' reg' n l d ->
  tree view S' reg' i (a ++ l ++ b) (C d).
Proof.
  intros V H. induction H; intros S' reg' p nn l d mp m' mn' P0 Sp Sp' EL ES EO EK RP F ND Sn SLn T.
  - cbn in P0. injection P0 as <-. replace mp with m in * by congruence. clear mp Sp.
    rewrite <- EL. cbn [app]. cbn in ND. apply NoDup_cons_iff in ND as [NI ND].
    assert (F1 : forall c x, In c (l1 ++ l2) -> dget c reg = Some x -> dget c reg' = Some x /\ nth_error S' x = nth_error S x).
    { intros c y Hc Hy. apply F; auto; [cbn; auto|]. intros ->. apply NI. exact Hc. }
    assert (DK : ~ In key (dkeys k1)).
    { destruct (kids_len _ _ _ _ _ _ _ _ _ _ H4) as (_ & _ & ->). specialize (V (m_type m) v). rewrite H3, map_app in V. cbn in V. apply NoDup_remove_2 in V. rewrite in_app_iff in V. tauto. }
    replace (m_type m) with (m_type m') in * by (unfold slot_of in ES; congruence). replace (m_path m) with (m_path m') in * by (unfold slot_of in ES; congruence).
    econstructor; eauto; [congruence|congruence|].
    rewrite EK. cbn [l_key]. rewrite H2, dset_mid by assumption. rewrite H3. apply kids_app.
    + eapply (proj2 (tree_frame view S reg S' reg')); eauto. intros; apply F1; auto. rewrite in_app_iff; auto.
    + cbn. econstructor; eauto. eapply (proj2 (tree_frame view S reg S' reg')); eauto. intros; apply F1; auto. rewrite in_app_iff; auto.
  - destruct (hole_slot _ _ _ _ _ _ _ _ _ H8) as (p' & mp' & P1 & Q1 & Q2 & Q3 & _). rewrite P0 in P1. injection P1 as <-. replace mp' with mp in * by congruence. clear mp' Q1.
    assert (NE : m_lcs m <> m_lcs mp). { intros E. rewrite E in *. cbn in ND. apply NoDup_cons_iff in ND as [NI _]. apply NI. rewrite !in_app_iff. auto. }
    destruct (F (m_lcs m) i) as [Ri Ei]; [cbn; auto|assumption|assumption|].
    assert (ND2 : NoDup (a ++ b)).
    { cbn in ND. apply NoDup_cons_iff in ND as [_ ND]. rewrite <- !app_assoc in ND. apply nodup_app in ND as (_ & ND & _). rewrite app_assoc in ND. apply nodup_app in ND. tauto. }
    assert (N12 : ~ In (m_lcs mp) l1 /\ ~ In (m_lcs mp) l2).
    { cbn in ND. apply NoDup_cons_iff in ND as [_ ND]. rewrite <- !app_assoc in ND. split; intros X.
      - apply in_split in X as (u & w & ->). rewrite <- app_assoc in ND. cbn in ND. apply NoDup_remove_2 in ND. apply ND. rewrite !in_app_iff. auto.
      - apply in_split in Q3 as (u & w & ->). rewrite <- !app_assoc in ND. cbn in ND. rewrite app_assoc in ND. apply NoDup_remove_2 in ND. apply ND. rewrite !in_app_iff. auto. }
    assert (F1 : forall c x, In c l1 \/ In c l2 -> dget c reg = Some x -> dget c reg' = Some x /\ nth_error S' x = nth_error S x).
    { intros c y Hc Hy. apply F; auto; [cbn; rewrite !in_app_iff; tauto|]. intros ->. tauto. }
    assert (TN : tree view S' reg' n (a ++ l ++ b) (C d)).
    { eapply IHhole; eauto. intros; apply F; auto. cbn. rewrite !in_app_iff in *. tauto. }
    replace ((m_lcs m :: l1 ++ a) ++ l ++ b ++ l2) with (m_lcs m :: l1 ++ (a ++ l ++ b) ++ l2) by (cbn; rewrite <- !app_assoc; reflexivity).
    econstructor; eauto; [congruence|]. rewrite H2, H3. apply kids_app.
    + eapply (proj2 (tree_frame view S reg S' reg')); eauto.
    + cbn. assert (exists mn2, nth_error S' n = Some mn2 /\ slot_of mn2 = slot_of mn) as (mn2 & E2 & SS2).
      { destruct (Nat.eq_dec n p) as [->|NP]; [exists m'; split; [assumption|]; congruence|].
        exists mn. split; [|reflexivity]. rewrite <- H6. assert (In (m_lcs mn) a /\ dget (m_lcs mn) reg = Some n) as [Ia Rn].
        { inversion H8; subst; (replace m0 with mn in * by congruence); cbn; auto. }
        apply (F (m_lcs mn) n); auto; [cbn; rewrite !in_app_iff; auto|]. intros E. rewrite E in Rn. congruence. }
      econstructor; eauto; [congruence|]. eapply (proj2 (tree_frame view S reg S' reg')); eauto.
Qed.
