(** * Facts about AsyncTree.v: mounted trees some parts of which are being rendered *)
From Coq Require Import Arith Bool Lia List.
From Verif Require Import Dict EffectModel EffectProps AsyncTree AsyncTreeFacts.
Import ListNotations.

(** A render in progress: the task, the state it replaces, the components it has rendered or will render or remove, and
    what is on display in their place. *)
Record entry := Entry { n_task : nat; n_old : nat; n_ids : list nat; n_doc : doc }.

Section Trees.
Variable view : nat -> nat -> list (nat * nat).
Variable S : list mst.
Variable reg : dict nat nat.

(** [btree i l e d]: as [tree], but for the parts [e] that are being rendered. *)
Inductive btree : nat -> list nat -> list entry -> doc -> Prop :=
| btree_node i m v l e ds :
    nth_error S i = Some m -> dget (m_lcs m) reg = Some i -> d_out (m_model m) = Some v ->
    bkids i (m_path m) 0 (m_kids m) (view (m_type m) v) l e ds ->
    btree i (m_lcs m :: l) e (Node (m_lcs m) (Some v) ds)
| btree_busy n m : nth_error S (n_old n) = Some m -> fits view (m_type m) (n_doc n) -> btree (n_old n) (n_ids n) [n] (n_doc n)
with bkids : nat -> list nat -> nat -> dict nat nat -> list (nat * nat) -> list nat -> list entry -> list doc -> Prop :=
| bkids_nil p path j : bkids p path j [] [] [] [] []
| bkids_cons p path j key ty n m rest ts l ls e es d ds :
    nth_error S n = Some m -> slot_of m = Slot (Some p) key j ty (path ++ [j]) ->
    btree n l e d -> bkids p path (Datatypes.S j) rest ts ls es ds ->
    bkids p path j ((key, n) :: rest) ((key, ty) :: ts) (l ++ ls) (e ++ es) (d :: ds).
Scheme btree_mut := Minimality for btree Sort Prop with bkids_mut := Minimality for bkids Sort Prop.
Combined Scheme btree_kids_ind from btree_mut, bkids_mut.

Lemma bkids_app p path k1 : forall j k2 t1 t2 l1 l2 e1 e2 d1 d2,
  bkids p path j k1 t1 l1 e1 d1 -> bkids p path (j + length k1) k2 t2 l2 e2 d2 -> bkids p path j (k1 ++ k2) (t1 ++ t2) (l1 ++ l2) (e1 ++ e2) (d1 ++ d2).
Proof.
  induction k1 as [|[key n] k1 IH]; intros j k2 t1 t2 l1 l2 e1 e2 d1 d2 H1 H2; inversion H1; subst; cbn [app length] in *.
  - rewrite Nat.add_0_r in H2. exact H2.
  - rewrite <- !app_assoc. econstructor; eauto. apply IH; auto. replace (Datatypes.S j + length k1) with (j + Datatypes.S (length k1)) by lia. exact H2.
Qed.
Lemma bkids_len p path j k t l e d : bkids p path j k t l e d -> length k = length t /\ length d = length t /\ dkeys k = map fst t.
Proof. revert j t l e d; induction k as [|[key n] k IH]; intros j t l e d H; inversion H; subst; cbn; auto. destruct (IH _ _ _ _ _ ltac:(eassumption)) as (A & B & C). unfold dkeys in C. rewrite A, B, C. auto. Qed.

(** Nothing in progress. *)
Lemma tree_btree : (forall i l d, tree view S reg i l d -> btree i l [] d) /\ (forall p path j k t l ds, kids view S reg p path j k t l ds -> bkids p path j k t l [] ds).
Proof. apply tree_kids_ind; intros; [eapply btree_node; eauto|constructor|]. change (@nil entry) with (@nil entry ++ []). econstructor; eauto. Qed.
Lemma btree_tree : (forall i l e d, btree i l e d -> e = [] -> tree view S reg i l d) /\ (forall p path j k t l e ds, bkids p path j k t l e ds -> e = [] -> kids view S reg p path j k t l ds).
Proof.
  apply btree_kids_ind; intros; try discriminate; [econstructor; eauto|constructor|].
  apply app_eq_nil in H5 as [-> ->]. econstructor; eauto.
Qed.
Lemma btree_fits : (forall i l e d, btree i l e d -> forall m, nth_error S i = Some m -> fits view (m_type m) d) /\
  (forall p path j k t l e ds, bkids p path j k t l e ds -> Forall2 (fun kt d => fits view (snd kt) d) t ds).
Proof.
  apply btree_kids_ind; intros.
  - replace m0 with m in * by congruence. constructor. assumption.
  - replace m0 with m in * by congruence. assumption.
  - constructor.
  - constructor; auto. cbn. specialize (H2 _ H). unfold slot_of in H0. injection H0 as _ _ _ <- _. exact H2.
Qed.
(** Where the components and the parts in progress are. *)
Definition below (p q : list nat) : Prop := exists r, q = p ++ r.
Lemma below_trans p q r : below p q -> below q r -> below p r.
Proof. intros [x ->] [y ->]. exists (x ++ y). rewrite app_assoc. reflexivity. Qed.
Lemma below_refl p : below p p.
Proof. exists []. rewrite app_nil_r. reflexivity. Qed.
Lemma below_app p q : below p (p ++ q).
Proof. exists q. reflexivity. Qed.
Lemma btree_paths : (forall i l e d, btree i l e d -> forall m n, nth_error S i = Some m -> In n e -> exists mn, nth_error S (n_old n) = Some mn /\ below (m_path m) (m_path mn)) /\
  (forall p path j k t l e ds, bkids p path j k t l e ds -> forall n, In n e -> exists mn, nth_error S (n_old n) = Some mn /\ below path (m_path mn)).
Proof.
  apply btree_kids_ind.
  - intros i m v l e ds A R O K IH m0 n E I. replace m0 with m by congruence. auto.
  - intros n m E F m0 n0 E0 [<-|[]]. exists m. split; auto. replace m0 with m by congruence. apply below_refl.
  - intros p path j n [].
  - intros p path j key ty n m rest ts l ls e es d ds A SL T IH1 K IH2 x I. apply in_app_iff in I as [I|I]; [|auto].
    destruct (IH1 _ _ A I) as (mn & E & B). exists mn. split; auto. eapply below_trans; [|exact B]. unfold slot_of in SL. injection SL as _ _ _ _ ->. apply below_app.
Qed.
Lemma tree_paths : (forall i l d, tree view S reg i l d -> forall m c x mx, nth_error S i = Some m -> In c l -> dget c reg = Some x -> nth_error S x = Some mx -> below (m_path m) (m_path mx)) /\
  (forall p path j k t l ds, kids view S reg p path j k t l ds -> forall c x mx, In c l -> dget c reg = Some x -> nth_error S x = Some mx -> below path (m_path mx)).
Proof.
  apply tree_kids_ind.
  - intros i m v l ds A R O K IH m0 c x mx E [<-|I] Rx Ex; replace m0 with m by congruence; [|eauto]. replace mx with m by congruence. apply below_refl.
  - intros p path j c x mx [].
  - intros p path j key ty n m rest ts l ls d ds A SL T IH1 K IH2 c x mx I Rx Ex. apply in_app_iff in I as [I|I]; [|eauto].
    eapply below_trans; [|eapply IH1; eauto]. unfold slot_of in SL. injection SL as _ _ _ _ ->. apply below_app.
Qed.
End Trees.

(** A tree depends only on the registrations and states of its components, and on the states that are being replaced. *)
Definition same_on (S : list mst) (reg : dict nat nat) (S' : list mst) (reg' : dict nat nat) (l : list nat) (e : list entry) : Prop :=
  (forall c x, In c l -> dget c reg = Some x -> dget c reg' = Some x /\ nth_error S' x = nth_error S x) /\
  (forall n, In n e -> nth_error S' (n_old n) = nth_error S (n_old n)).
Lemma same_sub S reg S' reg' l e l' e' : same_on S reg S' reg' l e -> (forall c, In c l' -> In c l) -> (forall n, In n e' -> In n e) -> same_on S reg S' reg' l' e'.
Proof. intros [A B] C D. split; auto. Qed.
Lemma btree_root view S reg S' reg' i l e d : btree view S reg i l e d -> same_on S reg S' reg' l e -> nth_error S' i = nth_error S i.
Proof. intros T [F G]. inversion T; subst; [apply (F (m_lcs m) i); cbn; auto|apply G; cbn; auto]. Qed.
Lemma btree_frame view S reg S' reg' :
  (forall i l e d, btree view S reg i l e d -> same_on S reg S' reg' l e -> btree view S' reg' i l e d) /\
  (forall p path j k t l e ds, bkids view S reg p path j k t l e ds -> same_on S reg S' reg' l e -> bkids view S' reg' p path j k t l e ds).
Proof.
  apply btree_kids_ind.
  - intros i m v l e ds A B O K IH F. destruct (proj1 F (m_lcs m) i (or_introl eq_refl) B) as [B' E]. econstructor; eauto; [congruence|]. apply IH. eapply same_sub; eauto. cbn; auto.
  - intros n m E FT [F G]. eapply btree_busy; eauto. rewrite G; cbn; auto.
  - constructor.
  - intros p path j key ty n m rest ts l ls e es d ds A B T IH1 K IH2 F.
    assert (F1 : same_on S reg S' reg' l e) by (eapply same_sub; eauto; intros; apply in_app_iff; auto).
    econstructor; eauto.
    + rewrite (btree_root _ _ _ _ _ _ _ _ _ T F1). exact A.
    + apply IH2. eapply same_sub; [exact F| |]; intros; apply in_app_iff; auto.
Qed.

(** ** A tree with a hole in the place of the state [x]; [e] and [f] are the parts in progress before and after it. *)
Section Holes.
Variable view : nat -> nat -> list (nat * nat).
Variable S : list mst.
Variable reg : dict nat nat.
Inductive bhole : nat -> nat -> slot -> list nat -> list nat -> list entry -> list entry -> (doc -> doc) -> list nat -> Prop :=
| bhole_here i m v k1 key x k2 t1 ty t2 l1 l2 e1 e2 d1 d2 :
    nth_error S i = Some m -> dget (m_lcs m) reg = Some i -> d_out (m_model m) = Some v ->
    m_kids m = k1 ++ (key, x) :: k2 -> view (m_type m) v = t1 ++ (key, ty) :: t2 ->
    bkids view S reg i (m_path m) 0 k1 t1 l1 e1 d1 -> bkids view S reg i (m_path m) (Datatypes.S (length k1)) k2 t2 l2 e2 d2 ->
    bhole i x (Slot (Some i) key (length k1) ty (m_path m ++ [length k1])) (m_lcs m :: l1) l2 e1 e2 (fun d => Node (m_lcs m) (Some v) (d1 ++ d :: d2)) [length k1]
| bhole_down i m v k1 key n mn k2 t1 ty t2 l1 l2 e1 e2 d1 d2 x sl a b e f C q :
    nth_error S i = Some m -> dget (m_lcs m) reg = Some i -> d_out (m_model m) = Some v ->
    m_kids m = k1 ++ (key, n) :: k2 -> view (m_type m) v = t1 ++ (key, ty) :: t2 ->
    bkids view S reg i (m_path m) 0 k1 t1 l1 e1 d1 -> bkids view S reg i (m_path m) (Datatypes.S (length k1)) k2 t2 l2 e2 d2 ->
    nth_error S n = Some mn -> slot_of mn = Slot (Some i) key (length k1) ty (m_path m ++ [length k1]) ->
    bhole n x sl a b e f C q ->
    bhole i x sl (m_lcs m :: l1 ++ a) (b ++ l2) (e1 ++ e) (f ++ e2) (fun d => Node (m_lcs m) (Some v) (d1 ++ C d :: d2)) (length k1 :: q).

(** Filling the hole with a tree for the same state. *)
Lemma bhole_fill i x sl a b e f C q : bhole i x sl a b e f C q -> forall mx l g d, nth_error S x = Some mx -> slot_of mx = sl -> btree view S reg x l g d ->
  btree view S reg i (a ++ l ++ b) (e ++ g ++ f) (C d).
Proof.
  intros H. induction H; intros mx l g d0 Ex SX T.
  - cbn [app]. econstructor; eauto. rewrite H2, H3. apply bkids_app; auto. cbn. econstructor; eauto.
  - replace ((m_lcs m :: l1 ++ a) ++ l ++ b ++ l2) with (m_lcs m :: l1 ++ (a ++ l ++ b) ++ l2) by (cbn; rewrite <- !app_assoc; reflexivity).
    replace ((e1 ++ e) ++ g ++ f ++ e2) with (e1 ++ (e ++ g ++ f) ++ e2) by (rewrite <- !app_assoc; reflexivity).
    econstructor; eauto. rewrite H2, H3. apply bkids_app; auto. cbn. econstructor; eauto.
Qed.

(** Every place of a tree but the top one has a hole for it: [Q] says which place is looked for. *)
Definition placed (i : nat) (l : list nat) (e : list entry) (d : doc) (Q : nat -> list nat -> list entry -> doc -> Prop) : Prop :=
  Q i l e d \/
  exists x mx sl a b e1 e2 C q lx ex dx, bhole i x sl a b e1 e2 C q /\ l = a ++ lx ++ b /\ e = e1 ++ ex ++ e2 /\ d = C dx /\ btree view S reg x lx ex dx /\ Q x lx ex dx /\ nth_error S x = Some mx /\ slot_of mx = sl.
Definition placed_in (p : nat) (path : list nat) (j : nat) (k : dict nat nat) (t : list (nat * nat)) (l : list nat) (e : list entry) (ds : list doc) (Q : nat -> list nat -> list entry -> doc -> Prop) : Prop :=
  exists k1 key n k2 t1 ty t2 l1 ln l2 e1 en e2 d1 dn d2 mn, k = k1 ++ (key, n) :: k2 /\ t = t1 ++ (key, ty) :: t2 /\ l = l1 ++ ln ++ l2 /\ e = e1 ++ en ++ e2 /\ ds = d1 ++ dn :: d2 /\
      bkids view S reg p path j k1 t1 l1 e1 d1 /\ bkids view S reg p path (Datatypes.S (j + length k1)) k2 t2 l2 e2 d2 /\
      nth_error S n = Some mn /\ slot_of mn = Slot (Some p) key (j + length k1) ty (path ++ [j + length k1]) /\ btree view S reg n ln en dn /\ placed n ln en dn Q.
Lemma placed_node i m v l e ds Q : nth_error S i = Some m -> dget (m_lcs m) reg = Some i -> d_out (m_model m) = Some v -> placed_in i (m_path m) 0 (m_kids m) (view (m_type m) v) l e ds Q ->
  placed i (m_lcs m :: l) e (Node (m_lcs m) (Some v) ds) Q.
Proof.
  intros A B O (k1 & key & n & k2 & t1 & ty & t2 & l1 & ln & l2 & e1 & en & e2 & d1 & dn & d2 & mn & E1 & E2 & -> & -> & -> & K1 & K2 & N & SL & TN & [X|X]); cbn [Nat.add] in *; right.
  - exists n, mn, (slot_of mn), (m_lcs m :: l1), l2, e1, e2, (fun d => Node (m_lcs m) (Some v) (d1 ++ d :: d2)), [length k1], ln, en, dn.
    split; [rewrite SL; econstructor; eauto|]. auto 8.
  - destruct X as (x & mx & sl & a & b & f1 & f2 & C & q & lx & ex & dx & HH & -> & -> & -> & TO & QX & NX & SX).
    exists x, mx, sl, (m_lcs m :: l1 ++ a), (b ++ l2), (e1 ++ f1), (f2 ++ e2), (fun d => Node (m_lcs m) (Some v) (d1 ++ C d :: d2)), (length k1 :: q), lx, ex, dx.
    split; [econstructor; eauto|]. split; [cbn; rewrite <- !app_assoc; reflexivity|]. split; [rewrite <- !app_assoc; reflexivity|]. auto 8.
Qed.
Lemma placed_here p path j key ty n m rest ts l ls e es d ds Q : nth_error S n = Some m -> slot_of m = Slot (Some p) key j ty (path ++ [j]) -> btree view S reg n l e d ->
  bkids view S reg p path (Datatypes.S j) rest ts ls es ds -> placed n l e d Q -> placed_in p path j ((key, n) :: rest) ((key, ty) :: ts) (l ++ ls) (e ++ es) (d :: ds) Q.
Proof.
  intros A B T K X. exists [], key, n, rest, [], ty, ts, [], l, ls, [], e, es, [], d, ds, m. cbn. rewrite Nat.add_0_r. repeat (split; [solve [auto]|]).
  split; [constructor|]. auto.
Qed.
Lemma placed_later p path j key ty n m rest ts l ls e es d ds Q : nth_error S n = Some m -> slot_of m = Slot (Some p) key j ty (path ++ [j]) -> btree view S reg n l e d ->
  placed_in p path (Datatypes.S j) rest ts ls es ds Q -> placed_in p path j ((key, n) :: rest) ((key, ty) :: ts) (l ++ ls) (e ++ es) (d :: ds) Q.
Proof.
  intros A B T (k1 & key' & n' & k2 & t1 & ty' & t2 & l1 & ln & l2 & e1 & en & e2 & d1 & dn & d2 & mn & -> & -> & -> & -> & -> & K1 & K2 & N & SL & TN & X).
  exists ((key, n) :: k1), key', n', k2, ((key, ty) :: t1), ty', t2, (l ++ l1), ln, l2, (e ++ e1), en, e2, (d :: d1), dn, d2, mn. cbn [length app].
  replace (j + Datatypes.S (length k1)) with (Datatypes.S j + length k1) by lia. rewrite <- !app_assoc.
  repeat (split; [solve [auto]|]). split; [econstructor; eauto|]. auto.
Qed.
(** A component that is not being rendered. *)
Lemma btree_split : (forall i l e d, btree view S reg i l e d -> forall c o, In c l -> dget c reg = Some o -> (forall n, In n e -> ~ In c (n_ids n)) -> placed i l e d (fun x _ _ _ => x = o)) /\
  (forall p path j k t l e ds, bkids view S reg p path j k t l e ds -> forall c o, In c l -> dget c reg = Some o -> (forall n, In n e -> ~ In c (n_ids n)) -> placed_in p path j k t l e ds (fun x _ _ _ => x = o)).
Proof.
  apply btree_kids_ind.
  - intros i m v l e ds A B O K IH c o [<-|H] R NB; [left; congruence|]. eapply placed_node; eauto.
  - intros n m E F c o I R NB. destruct (NB n); cbn; auto.
  - intros p path j c o [].
  - intros p path j key ty n m rest ts l ls e es d ds A B T IH1 K IH2 c o H R NB. apply in_app_iff in H as [H|H].
    + eapply placed_here; eauto. eapply IH1; eauto. intros x X. apply NB. apply in_app_iff; auto.
    + eapply placed_later; eauto. eapply IH2; eauto. intros x X. apply NB. apply in_app_iff; auto.
Qed.
(** A part that is being rendered. *)
Lemma btree_entry : (forall i l e d, btree view S reg i l e d -> forall n, In n e -> placed i l e d (fun x lx ex dx => x = n_old n /\ lx = n_ids n /\ ex = [n] /\ dx = n_doc n)) /\
  (forall p path j k t l e ds, bkids view S reg p path j k t l e ds -> forall n, In n e -> placed_in p path j k t l e ds (fun x lx ex dx => x = n_old n /\ lx = n_ids n /\ ex = [n] /\ dx = n_doc n)).
Proof.
  apply btree_kids_ind.
  - intros i m v l e ds A B O K IH n H. eapply placed_node; eauto.
  - intros n m E F n' [<-|[]]. left. auto.
  - intros p path j n [].
  - intros p path j key ty n m rest ts l ls e es d ds A B T IH1 K IH2 x H. apply in_app_iff in H as [H|H].
    + eapply placed_here; eauto.
    + eapply placed_later; eauto.
Qed.
End Holes.

Lemma bhole_root view S reg i x sl a b e f C q : bhole view S reg i x sl a b e f C q -> exists m a', nth_error S i = Some m /\ a = m_lcs m :: a' /\ dget (m_lcs m) reg = Some i.
Proof. intros H. inversion H; subst; eauto. Qed.
Lemma bhole_frame view S reg S' reg' i x sl a b e f C q : bhole view S reg i x sl a b e f C q -> same_on S reg S' reg' (a ++ b) (e ++ f) -> bhole view S' reg' i x sl a b e f C q.
Proof.
  intros H. induction H; intros F.
  - destruct (proj1 F (m_lcs m) i) as [R E]; [cbn; auto|assumption|]. apply bhole_here with (t1 := t1) (t2 := t2) (k2 := k2); auto; [congruence| |];
      (eapply (proj2 (btree_frame view S reg S' reg')); eauto; eapply same_sub; [exact F| |]; cbn; intros; rewrite ?in_app_iff in *; tauto).
  - destruct (proj1 F (m_lcs m) i) as [R E]; [cbn; auto|assumption|]. apply bhole_down with (n := n) (mn := mn) (key := key) (ty := ty) (t1 := t1) (t2 := t2) (k2 := k2); auto; [congruence| | | |].
    + eapply (proj2 (btree_frame view S reg S' reg')); eauto. eapply same_sub; [exact F| |]; cbn; intros; rewrite ?in_app_iff in *; tauto.
    + eapply (proj2 (btree_frame view S reg S' reg')); eauto. eapply same_sub; [exact F| |]; cbn; intros; rewrite ?in_app_iff in *; tauto.
    + destruct (bhole_root _ _ _ _ _ _ _ _ _ _ _ _ H8) as (m0 & a' & E0 & -> & Rn). replace m0 with mn in * by congruence.
      destruct (proj1 F (m_lcs mn) n) as [_ En]; [cbn; rewrite !in_app_iff; cbn; auto 8|assumption|]. congruence.
    + apply IHbhole. eapply same_sub; [exact F| |]; cbn; intros; rewrite ?in_app_iff in *; tauto.
Qed.
Lemma bhole_slot view S reg i x sl a b e f C q : bhole view S reg i x sl a b e f C q ->
  exists p m, l_par sl = Some p /\ nth_error S p = Some m /\ dget (m_lcs m) reg = Some p /\ In (m_lcs m) a /\ l_path sl = m_path m ++ [l_index sl] /\
    (forall mi, nth_error S i = Some mi -> m_path m ++ [l_index sl] = m_path mi ++ q).
Proof.
  intros H. induction H.
  - exists i, m. cbn. repeat (split; [solve [auto]|]). intros mi E. congruence.
  - destruct IHbhole as (p & m' & A & B & D & E & F & G). exists p, m'. repeat (split; [solve [auto]|]).
    split; [cbn; rewrite in_app_iff; auto|]. split; [assumption|]. intros mi Ei. replace mi with m in * by congruence.
    rewrite (G _ H6). injection H7 as _ _ _ _ ->. rewrite <- app_assoc. reflexivity.
Qed.
Lemma bhole_replace view S reg i x sl a b e f C q : bhole view S reg i x sl a b e f C q -> forall d d', replace q d' (C d) = C d'.
Proof.
  intros H. induction H; intros g g'.
  - cbn. f_equal. destruct (bkids_len _ _ _ _ _ _ _ _ _ _ _ H4) as (A & B & _). rewrite A, <- B. rewrite replace_nth_mid. reflexivity.
  - cbn. f_equal. destruct (bkids_len _ _ _ _ _ _ _ _ _ _ _ H4) as (A & B & _). rewrite A, <- B. rewrite replace_nth_mid. f_equal. f_equal. apply IHbhole.
Qed.
(** Filling the hole with a new state. *)
Lemma bhole_plug view S reg i x sl a b e f C q : (forall ty v, NoDup (map fst (view ty v))) -> bhole view S reg i x sl a b e f C q ->
  forall S' reg' p n l d m m' mn, l_par sl = Some p -> nth_error S p = Some m -> nth_error S' p = Some m' ->
  m_lcs m' = m_lcs m -> slot_of m' = slot_of m -> d_out (m_model m') = d_out (m_model m) -> m_kids m' = dset (l_key sl) n (m_kids m) ->
  dget (m_lcs m) reg' = Some p ->
  (forall c x, In c (a ++ b) -> c <> m_lcs m -> dget c reg = Some x -> dget c reg' = Some x /\ nth_error S' x = nth_error S x) -> NoDup (a ++ b) ->
  (forall y, In y (e ++ f) -> nth_error S' (n_old y) = nth_error S (n_old y)) ->
  nth_error S' n = Some mn -> slot_of mn = sl -> btree view S' reg' n l [] d ->
  btree view S' reg' i (a ++ l ++ b) (e ++ f) (C d).
Proof.
  intros V H. induction H; intros S' reg' p nn l d mp m' mn' P0 Sp Sp' EL ES EO EK RP F ND FE Sn SLn T.
  - cbn in P0. injection P0 as <-. replace mp with m in * by congruence. clear mp Sp.
    rewrite <- EL. cbn [app]. cbn in ND. apply NoDup_cons_iff in ND as [NI ND].
    assert (F1 : same_on S reg S' reg' (l1 ++ l2) (e1 ++ e2)).
    { split; [|exact FE]. intros c y Hc Hy. apply F; auto; [cbn; auto|]. intros ->. apply NI. exact Hc. }
    assert (DK : ~ In key (dkeys k1)).
    { destruct (bkids_len _ _ _ _ _ _ _ _ _ _ _ H4) as (_ & _ & ->). specialize (V (m_type m) v). rewrite H3, map_app in V. cbn in V. apply NoDup_remove_2 in V. rewrite in_app_iff in V. tauto. }
    replace (m_type m) with (m_type m') in * by (unfold slot_of in ES; congruence). replace (m_path m) with (m_path m') in * by (unfold slot_of in ES; congruence).
    econstructor; eauto; [congruence|congruence|].
    rewrite EK. cbn [l_key]. rewrite H2, dset_mid by assumption. rewrite H3. apply bkids_app.
    + eapply (proj2 (btree_frame view S reg S' reg')); eauto. eapply same_sub; [exact F1| |]; intros; rewrite in_app_iff; auto.
    + cbn. change e2 with ([] ++ e2). econstructor; eauto. eapply (proj2 (btree_frame view S reg S' reg')); eauto. eapply same_sub; [exact F1| |]; intros; rewrite in_app_iff; auto.
  - destruct (bhole_slot _ _ _ _ _ _ _ _ _ _ _ _ H8) as (p' & mp' & P1 & Q1 & Q2 & Q3 & _). rewrite P0 in P1. injection P1 as <-. replace mp' with mp in * by congruence. clear mp' Q1.
    assert (NE : m_lcs m <> m_lcs mp). { intros E. rewrite E in *. cbn in ND. apply NoDup_cons_iff in ND as [NI _]. apply NI. rewrite !in_app_iff. auto. }
    destruct (F (m_lcs m) i) as [Ri Ei]; [cbn; auto|assumption|assumption|].
    assert (ND2 : NoDup (a ++ b)).
    { cbn in ND. apply NoDup_cons_iff in ND as [_ ND]. rewrite <- !app_assoc in ND. apply nodup_app in ND as (_ & ND & _). rewrite app_assoc in ND. apply nodup_app in ND. tauto. }
    assert (N12 : ~ In (m_lcs mp) l1 /\ ~ In (m_lcs mp) l2).
    { cbn in ND. apply NoDup_cons_iff in ND as [_ ND]. rewrite <- !app_assoc in ND. split; intros X.
      - apply in_split in X as (u & w & ->). rewrite <- app_assoc in ND. cbn in ND. apply NoDup_remove_2 in ND. apply ND. rewrite !in_app_iff. auto.
      - apply in_split in Q3 as (u & w & ->). rewrite <- !app_assoc in ND. cbn in ND. rewrite app_assoc in ND. apply NoDup_remove_2 in ND. apply ND. rewrite !in_app_iff. auto. }
    assert (F1 : forall l0 g, (l0 = l1 \/ l0 = l2) -> (forall y, In y g -> In y (e1 ++ e2)) -> same_on S reg S' reg' l0 g).
    { intros l0 g Hl Hg. split; [|intros y Y; apply FE; apply Hg in Y; rewrite !in_app_iff in *; tauto].
      intros c y Hc Hy. apply F; auto; [cbn; rewrite !in_app_iff; destruct Hl; subst; tauto|]. intros ->. destruct Hl; subst; tauto. }
    assert (TN : btree view S' reg' n (a ++ l ++ b) (e ++ f) (C d)).
    { eapply IHbhole; eauto; [intros; apply F; auto; cbn; rewrite !in_app_iff in *; tauto|]. intros y Y. apply FE. rewrite !in_app_iff in *. tauto. }
    replace ((m_lcs m :: l1 ++ a) ++ l ++ b ++ l2) with (m_lcs m :: l1 ++ (a ++ l ++ b) ++ l2) by (cbn; rewrite <- !app_assoc; reflexivity).
    replace ((e1 ++ e) ++ f ++ e2) with (e1 ++ (e ++ f) ++ e2) by (rewrite <- !app_assoc; reflexivity).
    econstructor; eauto; [congruence|]. rewrite H2, H3. apply bkids_app.
    + eapply (proj2 (btree_frame view S reg S' reg')); eauto. apply F1; auto. intros; rewrite in_app_iff; auto.
    + cbn. assert (exists mn2, nth_error S' n = Some mn2 /\ slot_of mn2 = slot_of mn) as (mn2 & E2 & SS2).
      { destruct (Nat.eq_dec n p) as [->|NP]; [exists m'; split; [assumption|]; congruence|].
        exists mn. split; [|reflexivity]. rewrite <- H6. destruct (bhole_root _ _ _ _ _ _ _ _ _ _ _ _ H8) as (m0 & a' & E0 & Ea & Rn). replace m0 with mn in * by congruence.
        apply (F (m_lcs mn) n); auto; [cbn; rewrite !in_app_iff; rewrite Ea; cbn; auto|]. intros E. rewrite E in Rn. congruence. }
      econstructor; eauto; [congruence|]. eapply (proj2 (btree_frame view S reg S' reg')); eauto. apply F1; auto. intros; rewrite in_app_iff; auto.
Qed.
