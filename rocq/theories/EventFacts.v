(** * Invariants of event delivery (for C29-C33) *)
From Coq Require Import ZArith Bool Arith Lia List Permutation.
From Verif Require Import AsyncModel AsyncFacts EventModel.
Import ListNotations.

Definition logt (t : nat) (s : estate) : list entry := of_target t (s_log s).
Definition cur_of (p : proc) : list event := match p with PRetry e _ | PRun e _ => [e] | _ => [] end.

Lemma tget_same t x l s : tget (tset t x l s) t = x.
Proof. unfold tget, tset. simpl. unfold upd. rewrite Nat.eqb_refl. auto. Qed.
Lemma tget_other t u x l s : u <> t -> tget (tset t x l s) u = tget s u.
Proof. intros N. unfold tget, tset. simpl. unfold upd. destruct (Nat.eqb_spec u t); [congruence|auto]. Qed.
Lemma logt_same t x l s : Forall (fun y => e_target (about y) = t) l -> logt t (tset t x l s) = logt t s ++ l.
Proof.
  intros F. unfold logt, of_target. simpl. rewrite filter_app. f_equal. induction F as [|y l E F IH]; simpl; auto. rewrite E, Nat.eqb_refl, IH. auto.
Qed.
Lemma logt_other t u x l s : u <> t -> Forall (fun y => e_target (about y) = t) l -> logt u (tset t x l s) = logt u s.
Proof.
  intros N F. unfold logt, of_target. simpl. rewrite filter_app. replace (filter _ l) with (@nil entry); [apply app_nil_r|].
  induction F as [|y l E F IH]; simpl; auto. rewrite E. destruct (Nat.eqb_spec t u); [congruence|auto].
Qed.

Definition mine (t : nat) (x : tstate) : Prop := Forall (fun e => e_target e = t) (t_queue x ++ t_woken x ++ t_blocked x ++ cur_of (t_proc x)).
Definition op_target (o : eop) : nat := match o with ODeliver e => e_target e | OResume t | OProcess t | OFinish t _ | ORegister t _ => t end.

(** Every op is a write to its target, or changes its handler, or does nothing. *)
Lemma mine_q t x e : mine t x -> In e (t_queue x) -> e_target e = t.
Proof. unfold mine. rewrite Forall_forall. intros M J. apply M. apply in_app_iff. auto. Qed.
Lemma mine_cur t x e : mine t x -> In e (cur_of (t_proc x)) -> e_target e = t.
Proof. unfold mine. rewrite Forall_forall. intros M J. apply M. apply in_app_iff. right. apply in_app_iff. right. apply in_app_iff. auto. Qed.
Lemma after_lookup_about e h n : Forall (fun y => about y = e) (snd (after_lookup e h n)).
Proof. unfold after_lookup. destruct h; [|destruct n]; repeat constructor. Qed.
Lemma after_lookup_cur e h n : incl (cur_of (fst (after_lookup e h n))) [e].
Proof. unfold after_lookup. destruct h; [|destruct n]; simpl; intros y J; simpl in *; tauto. Qed.

Lemma mine_try_put cap t e x : e_target e = t -> mine t x -> mine t (try_put cap e x).
Proof.
  intros E M. unfold mine, try_put in *. rewrite Forall_forall in *. destruct (full _ _); simpl; intros y J; rewrite !in_app_iff in J; simpl in J.
  - decompose [or] J; subst; auto; try contradiction; apply M; rewrite !in_app_iff; auto.
  - decompose [or] J; subst; auto; try contradiction; apply M; rewrite !in_app_iff; auto.
Qed.

(** The state of one op, seen from its target. *)
Definition tstep (cap : nat) (h : option nat) (x : tstate) (o : eop) : tstate * list entry :=
  match o with
  | ODeliver e => (try_put cap e x, [LArrive e])
  | OResume _ => match t_woken x with
                 | [] => (x, [])
                 | e :: w => (try_put cap e (TState (t_queue x) (t_blocked x) w (t_proc x) (t_seq x)), [])
                 end
  | OProcess _ =>
      match t_proc x with
      | PIdle => match t_queue x with
                 | [] => (x, [])
                 | e :: q => let (p, l) := after_lookup e h 3 in
                             (TState q (tl (t_blocked x)) (t_woken x ++ firstn 1 (t_blocked x)) p (record_seq e (t_seq x)), LTake e :: l)
                 end
      | PRetry e n => let (p, l) := after_lookup e h (n - 1) in (TState (t_queue x) (t_blocked x) (t_woken x) p (t_seq x), l)
      | _ => (x, [])
      end
  | OFinish _ r => match t_proc x with
                   | PRun e _ => (TState (t_queue x) (t_blocked x) (t_woken x) (match r with HEscaped => PDead | _ => PIdle end) (t_seq x), [LEnd e r])
                   | _ => (x, [])
                   end
  | ORegister _ _ => (x, [])
  end.
Lemma tstep_mine cap h x o t : op_target o = t -> mine t x -> mine t (fst (tstep cap h x o)) /\ Forall (fun y => e_target (about y) = t) (snd (tstep cap h x o)).
Proof.
  intros E M. destruct o as [e|u|u|u r|u f]; simpl in *; auto.
  - split; [apply mine_try_put; auto|repeat constructor; auto].
  - destruct (t_woken x) as [|e w] eqn:W; simpl; auto. split; [|constructor]. apply mine_try_put.
    + unfold mine in M. rewrite Forall_forall in M. apply M. rewrite W, !in_app_iff. simpl. auto.
    + unfold mine in *. rewrite Forall_forall in *. simpl. intros y J. apply M. rewrite W. rewrite !in_app_iff in *. simpl. tauto.
  - destruct (t_proc x) as [|e n|e f|] eqn:P; simpl; auto.
    + destruct (t_queue x) as [|e q] eqn:Q; simpl; auto. pose proof (after_lookup_about e h 3) as A. pose proof (after_lookup_cur e h 3) as C. destruct (after_lookup e h 3) as [p l]. simpl in *.
      assert (ET : e_target e = t) by (apply (mine_q t x); auto; rewrite Q; left; auto). split.
      * unfold mine in *. rewrite Forall_forall in *. simpl. intros y J. rewrite !in_app_iff in J. decompose [or] J; try (apply M; rewrite Q, !in_app_iff; simpl; tauto).
        -- apply M. rewrite !in_app_iff. right. right. left. destruct (t_blocked x); simpl in *; tauto.
        -- apply M. rewrite !in_app_iff. right. right. left. destruct (t_blocked x); simpl in *; tauto.
        -- match goal with H : In y (cur_of p) |- _ => apply C in H; destruct H as [<-|[]]; auto end.
      * constructor; auto. eapply Forall_impl; [|exact A]. simpl. intros y <-. auto.
    + pose proof (after_lookup_about e h (n - 1)) as A. pose proof (after_lookup_cur e h (n - 1)) as C. destruct (after_lookup e h (n - 1)) as [p l]. simpl in *.
      assert (ET : e_target e = t) by (apply (mine_cur t x); auto; rewrite P; left; auto). split.
      * unfold mine in *. rewrite Forall_forall in *. simpl. intros y J. rewrite !in_app_iff in J. decompose [or] J; try (apply M; rewrite !in_app_iff; simpl; tauto).
        match goal with H : In y (cur_of p) |- _ => apply C in H; destruct H as [<-|[]]; auto end.
      * eapply Forall_impl; [|exact A]. simpl. intros y <-. auto.
  - destruct (t_proc x) as [|e n|e f|] eqn:P; simpl; auto. assert (ET : e_target e = t) by (apply (mine_cur t x); auto; rewrite P; left; auto). split; [|repeat constructor; auto].
    unfold mine in *. rewrite Forall_forall in *. simpl. intros y J. apply M. rewrite !in_app_iff in *. destruct r; simpl in J; tauto.
Qed.
(** One op, at its target and elsewhere. *)
Lemma estep_target cap s o : (forall t, mine t (tget s t)) ->
  let t := op_target o in
  tget (estep cap s o) t = fst (tstep cap (s_handlers s t) (tget s t) o) /\
  logt t (estep cap s o) = logt t s ++ snd (tstep cap (s_handlers s t) (tget s t) o) /\
  (forall u, u <> t -> tget (estep cap s o) u = tget s u /\ logt u (estep cap s o) = logt u s) /\
  s_handlers (estep cap s o) = (match o with ORegister _ f => upd (s_handlers s) t f | _ => s_handlers s end).
Proof.
  intros M t.
  assert (SET : forall x l, tstep cap (s_handlers s t) (tget s t) o = (x, l) -> estep cap s o = tset t x l s \/ (estep cap s o = s /\ x = tget s t /\ l = []) ->
    tget (estep cap s o) t = x /\ logt t (estep cap s o) = logt t s ++ l /\
    (forall u, u <> t -> tget (estep cap s o) u = tget s u /\ logt u (estep cap s o) = logt u s) /\ s_handlers (estep cap s o) = s_handlers s).
  { intros x l E H. pose proof (tstep_mine cap (s_handlers s t) (tget s t) o t eq_refl (M t)) as [_ F]. rewrite E in F. simpl in F. destruct H as [->|(-> & -> & ->)].
    - rewrite tget_same, logt_same by auto. repeat split; auto. + apply tget_other; auto. + apply logt_other; auto.
    - rewrite app_nil_r. repeat split; auto. }
  destruct o as [e|u|u|u r|u f]; simpl in t; subst t.
  - apply SET; auto.
  - apply SET; [apply surjective_pairing|]. simpl. unfold resume. destruct (t_woken (tget s u)); auto.
  - apply SET; [apply surjective_pairing|]. simpl. unfold process. destruct (t_proc (tget s u)); auto.
    + destruct (t_queue (tget s u)); auto. destruct (after_lookup _ _ _). auto.
    + destruct (after_lookup _ _ _). auto.
  - apply SET; [apply surjective_pairing|]. simpl. unfold finish. destruct (t_proc (tget s u)); auto.
  - simpl. rewrite app_nil_r. repeat split; auto.
Qed.
Lemma mine_step cap s o : (forall t, mine t (tget s t)) -> forall t, mine t (tget (estep cap s o) t).
Proof.
  intros M t. destruct (estep_target cap s o M) as (A & _ & B & _). destruct (Nat.eq_dec t (op_target o)) as [->|N].
  - rewrite A. apply tstep_mine; auto.
  - rewrite (proj1 (B t N)). auto.
Qed.

(** ** The invariant of one target *)

Lemma takes_app a b : takes (a ++ b) = takes a ++ takes b. Proof. apply flat_map_app. Qed.
Lemma arrivals_app a b : arrivals (a ++ b) = arrivals a ++ arrivals b. Proof. apply flat_map_app. Qed.
Lemma handling_app a b : handling (a ++ b) = handling a ++ handling b. Proof. apply filter_app. Qed.

Definition shape (x : tstate) (L : list entry) (done : list event) : Prop :=
  match t_proc x with
  | PIdle | PDead => blocks done (handling L)
  | PRetry e n => 1 <= n <= 3 /\ exists l, blocks done l /\ handling L = l ++ [LTake e] ++ repeat (LLook e None) (4 - n)
  | PRun e h => exists l k, k <= 3 /\ blocks done l /\ handling L = l ++ [LTake e] ++ repeat (LLook e None) k ++ [LLook e (Some h); LStart e h]
  end.
Record tinv (cap : nat) (x : tstate) (L : list entry) : Prop := {
  i_shape : exists done, takes L = done ++ cur_of (t_proc x) /\ shape x L done;
  i_perm : Permutation (arrivals L) (takes L ++ t_queue x ++ t_woken x ++ t_blocked x);
  i_seq : t_seq x = fold_left (fun a e => record_seq e a) (takes L) None;
  i_room : t_blocked x <> [] -> cap <> 0 /\ cap <= length (t_queue x) + length (t_woken x)
}.
Lemma repeat_snoc {A} (x : A) n : repeat x n ++ [x] = repeat x (S n).
Proof. induction n; simpl; auto. rewrite IHn. auto. Qed.
Lemma full_iff cap q : full cap q = true <-> cap <> 0 /\ cap <= length q.
Proof. unfold full. rewrite andb_true_iff, negb_true_iff, Nat.eqb_neq, Nat.leb_le. tauto. Qed.
Lemma full_false cap q : full cap q = false <-> cap = 0 \/ length q < cap.
Proof. destruct (full cap q) eqn:F; split; intros H; try discriminate; auto. - apply full_iff in F. lia. - destruct (Nat.eq_dec cap 0); auto. right. destruct (Nat.lt_ge_cases (length q) cap); auto. exfalso. assert (full cap q = true) by (apply full_iff; lia). congruence. Qed.

Lemma shape_same_proc x y L L' d : t_proc y = t_proc x -> handling L' = handling L -> shape x L d -> shape y L' d.
Proof. unfold shape. intros -> ->. auto. Qed.
(** After a lookup that follows [n] failed ones. *)
Lemma shape_lookup x L d l e h (n : nat) : n <= 3 -> blocks d l -> handling L = l ++ [LTake e] ++ repeat (LLook e None) n ->
  let r := after_lookup e h (3 - n) in
  t_proc x = fst r -> exists d', d' ++ cur_of (fst r) = d ++ [e] /\ shape x (L ++ snd r) d'.
Proof.
  intros N B H r P. subst r. unfold shape. rewrite P, handling_app, H. unfold after_lookup in *. destruct h as [f|]; simpl in *.
  - exists d. split; auto. exists l, n. repeat split; auto. repeat (rewrite <- ?app_assoc; simpl). reflexivity.
  - destruct n as [|[|[|[|n]]]]; [| | | |lia]; simpl in *.
    1-3: exists d; (split; [reflexivity|]); (split; [lia|]); exists l; (split; [auto|]); rewrite <- app_assoc; reflexivity.
    exists (d ++ [e]). split; [apply app_nil_r|]. rewrite <- app_assoc. constructor; auto. apply (b_dropped e).
Qed.
Lemma after_lookup_no_take e h n : takes (snd (after_lookup e h n)) = [] /\ arrivals (snd (after_lookup e h n)) = [] /\ handling (snd (after_lookup e h n)) = snd (after_lookup e h n).
Proof. unfold after_lookup. destruct h; [|destruct n]; auto. Qed.

Lemma tinv_try_put cap e x L L' :
  (exists done, takes L = done ++ cur_of (t_proc x) /\ shape x L done) -> takes L' = takes L -> handling L' = handling L ->
  Permutation (arrivals L') (takes L ++ t_queue x ++ t_woken x ++ t_blocked x ++ [e]) ->
  t_seq x = fold_left (fun a e => record_seq e a) (takes L) None ->
  (t_blocked x <> [] -> cap <> 0 /\ cap <= S (length (t_queue x) + length (t_woken x))) ->
  (full cap (t_queue x) = false -> t_blocked x <> [] -> cap <= S (length (t_queue x) + length (t_woken x))) ->
  tinv cap (try_put cap e x) L'.
Proof.
  intros (d & T & SH) ET EH P SQ R _. unfold try_put. destruct (full cap (t_queue x)) eqn:F; constructor; simpl; rewrite ?ET.
  - exists d. split; auto. eapply shape_same_proc; [reflexivity|exact EH|exact SH].
  - exact P.
  - exact SQ.
  - intros _. apply full_iff in F. lia.
  - exists d. split; auto. eapply shape_same_proc; [reflexivity|exact EH|exact SH].
  - rewrite P. apply Permutation_app_head. rewrite <- !app_assoc. apply Permutation_app_head. rewrite (app_assoc (t_woken x)). apply Permutation_sym, Permutation_cons_append.
  - exact SQ.
  - intros B. rewrite app_length. simpl. destruct (R B). lia.
Qed.

Lemma tinv_step cap h x o L : tinv cap x L -> tinv cap (fst (tstep cap h x o)) (L ++ snd (tstep cap h x o)).
Proof.
  intros [(d & T & SH) P SQ R]. destruct o as [e|u|u|u r|u f]; simpl.
  - eapply tinv_try_put; eauto.
    + rewrite takes_app. simpl. apply app_nil_r.
    + rewrite handling_app. simpl. apply app_nil_r.
    + rewrite arrivals_app. simpl. rewrite P. rewrite <- !app_assoc. reflexivity.
    + intros B. destruct (R B). lia.
    + intros _ B. destruct (R B). lia.
  - destruct (t_woken x) as [|e w] eqn:W; simpl; rewrite app_nil_r.
    + constructor; eauto. rewrite W. auto. rewrite W. auto.
    + eapply (tinv_try_put cap e _ L); simpl; auto.
      * exists d. split; auto. 
      * rewrite P. apply Permutation_app_head, Permutation_app_head. simpl. rewrite app_assoc. apply Permutation_cons_append.
      * intros B. destruct (R B). simpl in *. lia.
      * intros F B. destruct (R B). simpl in *. lia.
  - destruct (t_proc x) as [|e n|e f|] eqn:PX; simpl.
    + destruct (t_queue x) as [|e q] eqn:Q; simpl.
      * rewrite app_nil_r. constructor; eauto; [exists d; rewrite PX; auto|rewrite Q; auto|rewrite Q; auto].
      * assert (EX : exists p l, after_lookup e h 3 = (p, l)) by (destruct (after_lookup e h 3); eauto). destruct EX as (p & l & EX).
        pose proof (after_lookup_no_take e h 3) as (N1 & N2 & N3). unfold shape in SH. rewrite PX in SH.
        assert (BB : blocks d (handling L)) by exact SH.
        destruct (shape_lookup (TState q (tl (t_blocked x)) (t_woken x ++ firstn 1 (t_blocked x)) p (record_seq e (t_seq x))) (L ++ [LTake e]) d (handling L) e h 0) as (d' & D1 & D2); auto; try lia.
        { rewrite handling_app. reflexivity. }
        { simpl. rewrite EX. auto. }
        simpl in D1, D2. rewrite EX in *. simpl in *. rewrite <- app_assoc in D2. simpl in D2. simpl in T. rewrite app_nil_r in T. constructor; simpl.
        -- exists d'. split; [|exact D2]. rewrite takes_app. simpl. rewrite N1, T. auto.
        -- rewrite takes_app, arrivals_app. simpl. rewrite N1, N2, app_nil_r, P. rewrite <- !app_assoc. simpl. apply Permutation_app_head. constructor. apply Permutation_app_head, Permutation_app_head.
           destruct (t_blocked x); reflexivity.
        -- rewrite takes_app. simpl. rewrite N1, fold_left_app. simpl. rewrite SQ. auto.
        -- intros B. destruct (t_blocked x) as [|b bs] eqn:BX; [simpl in B; congruence|]. destruct R as [R1 R2]; [discriminate|]. split; auto. rewrite app_length. simpl in *. lia.
    + assert (EX : exists p l, after_lookup e h (n - 1) = (p, l)) by (destruct (after_lookup e h (n - 1)); eauto). destruct EX as (p & l & EX).
      pose proof (after_lookup_no_take e h (n - 1)) as (N1 & N2 & N3). unfold shape in SH. rewrite PX in SH. destruct SH as (NN & l0 & BB & HL).
      destruct (shape_lookup (TState (t_queue x) (t_blocked x) (t_woken x) p (t_seq x)) L d l0 e h (4 - n)) as (d' & D1 & D2); auto; try lia.
      { replace (3 - (4 - n)) with (n - 1) by lia. rewrite EX. reflexivity. }
      replace (3 - (4 - n)) with (n - 1) in * by lia. rewrite EX in *. simpl in *. constructor; simpl.
      * exists d'. split; [|exact D2]. rewrite takes_app, N1, app_nil_r, T, D1. auto.
      * rewrite takes_app, arrivals_app, N1, N2, !app_nil_r. auto.
      * rewrite takes_app, N1, app_nil_r. auto.
      * auto.
    + rewrite app_nil_r. constructor; eauto. exists d. rewrite PX. auto.
    + rewrite app_nil_r. constructor; eauto. exists d. rewrite PX. auto.
  - destruct (t_proc x) as [|e n|e f|] eqn:PX; simpl.
    + rewrite app_nil_r. constructor; eauto. exists d. rewrite PX. auto.
    + rewrite app_nil_r. constructor; eauto. exists d. rewrite PX. auto.
    + unfold shape in SH. rewrite PX in SH. destruct SH as (l & k & K & BB & HL). simpl in T.
      assert (NB : blocks (d ++ [e]) (handling (L ++ [LEnd e r]))).
      { rewrite handling_app, HL, <- app_assoc. constructor; auto. rewrite <- !app_assoc. simpl. apply (b_called e k f r K). }
      constructor; simpl.
      * exists (d ++ [e]). rewrite takes_app. simpl. rewrite app_nil_r, T. split; [destruct r; simpl; rewrite app_nil_r; auto|]. unfold shape. simpl. destruct r; auto.
      * rewrite takes_app, arrivals_app. simpl. rewrite !app_nil_r. auto.
      * rewrite takes_app. simpl. rewrite app_nil_r. auto.
      * auto.
    + rewrite app_nil_r. constructor; eauto. exists d. rewrite PX. auto.
  - rewrite app_nil_r. constructor; eauto.
Qed.

Definition einv (cap : nat) (s : estate) : Prop := forall t, mine t (tget s t) /\ tinv cap (tget s t) (logt t s).
Lemma einv_init cap : einv cap einit.
Proof.
  intros t. split; [constructor|]. constructor; simpl; auto; try congruence. exists []. split; auto. constructor.
Qed.
Lemma einv_step cap s o : einv cap s -> einv cap (estep cap s o).
Proof.
  intros I t. assert (M : forall t, mine t (tget s t)) by (intros u; apply I). split; [apply mine_step; auto|].
  destruct (estep_target cap s o M) as (A & B & C & _). destruct (Nat.eq_dec t (op_target o)) as [->|N].
  - rewrite A, B. apply tinv_step, I.
  - destruct (C t N) as [-> ->]. apply I.
Qed.
Lemma einv_run cap ops : forall s, einv cap s -> einv cap (fold_left (estep cap) ops s).
Proof. induction ops as [|o ops IH]; intros s I; simpl; auto. apply IH, einv_step; auto. Qed.
