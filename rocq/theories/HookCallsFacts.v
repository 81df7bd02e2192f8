(** * Facts about hook calls; proof-side only *)
From Coq Require Import String ZArith Bool Arith Lia List.
From Verif Require Import Dict LayoutTypes LayoutModel LayoutDeriv LayoutFacts LayoutSettled LayoutContext HooksModel HooksSteady HookCalls FirstMount.
Import ListNotations.
Local Open Scope string_scope.
Local Open Scope list_scope.

Definition cells (h : nat) (s : st) : list cell := hk_cells (get_hook h s).
Definition idx (h : nat) (s : st) : nat := hk_idx (get_hook h s).
Definition once (h : nat) (s : st) : bool := hk_once (get_hook h s).

Definition memoish (x x' : cell) : Prop := match x with CMemo _ _ => exists d m, x' = CMemo d m | _ => x' = x end.
Lemma memoish_refl x : memoish x x.
Proof. destruct x; simpl; eauto. Qed.
Lemma memoish_trans x y z : memoish x y -> memoish y z -> memoish x z.
Proof. destruct x; simpl; try (intros -> H; exact H). intros (d & m & ->) (d' & m' & ->). eauto. Qed.

(** What a hook call of component [h0] may do: [b] says whether slots may be taken. *)
Record cpre (h0 : nat) (s s' : st) : Prop := {
  cp_len : length (s_hooks s') = length (s_hooks s);
  cp_other : forall h, h <> h0 -> get_hook h s' = get_hook h s;
  cp_once : once h0 s' = once h0 s;
  cp_grow : forall i x, nth_error (cells h0 s) i = Some x -> exists x', nth_error (cells h0 s') i = Some x' /\ memoish x x';
  cp_size : if once h0 s then length (cells h0 s') = length (cells h0 s) else length (cells h0 s) <= length (cells h0 s')
}.
Lemma cpre_refl h s : cpre h s s.
Proof. constructor; auto; [intros i x E; exists x; split; auto; apply memoish_refl|destruct (once h s); auto]. Qed.
Lemma cpre_trans h a b c : cpre h a b -> cpre h b c -> cpre h a c.
Proof.
  intros [A1 A2 A3 A4 A5] [B1 B2 B3 B4 B5]. constructor; try congruence.
  - intros x N. rewrite B2, A2; auto.
  - intros i x E. destruct (A4 _ _ E) as (y & E1 & M1). destruct (B4 _ _ E1) as (z & E2 & M2). exists z. split; auto. eapply memoish_trans; eauto.
  - rewrite A3 in B5. destruct (once h a); lia.
Qed.

Lemma put_cells h k s : h < length (s_hooks s) -> cells h (put_hook h k s) = hk_cells k.
Proof. intros. unfold cells. rewrite get_put_same; auto. Qed.
Lemma put_len h k s : length (s_hooks (put_hook h k s)) = length (s_hooks s).
Proof. simpl. apply upd_length. Qed.

Lemma use_cell_spec h init s r s' : use_cell h init s = (r, s') -> h < length (s_hooks s) ->
  cpre h s s' /\
  ((once h s = false /\ r = Ok (length (cells h s), init) /\ cells h s' = cells h s ++ [init] /\ idx h s' = S (idx h s)) \/
   (once h s = true /\ exists c, nth_error (cells h s) (idx h s) = Some c /\ r = Ok (idx h s, c) /\ cells h s' = cells h s /\ idx h s' = S (idx h s)) \/
   (once h s = true /\ nth_error (cells h s) (idx h s) = None /\ r = Raise EIndexError /\ s' = s)).
Proof.
  intros E L. unfold use_cell in E. unfold cells, idx, once. destruct (hk_once (get_hook h s)) eqn:EO.
  - destruct (nth_error (hk_cells (get_hook h s)) (hk_idx (get_hook h s))) as [c|] eqn:EN.
    + injection E as <- <-. split; [|right; left; rewrite !get_put_same by auto; simpl; split; auto; exists c; auto].
      constructor; unfold cells, once; rewrite ?get_put_same by auto; simpl; auto.
      * apply upd_length.
      * intros x N. apply get_put_other; auto.
      * intros i x E. exists x. split; auto. apply memoish_refl.
      * rewrite EO. reflexivity.
    + injection E as <- <-. split; [apply cpre_refl|right; right; auto].
  - injection E as <- <-. split; [|left; rewrite !get_put_same by auto; simpl; auto].
    constructor; unfold cells, once; rewrite ?get_put_same by auto; simpl; auto.
    * apply upd_length.
    * intros x N. apply get_put_other; auto.
    * intros i x E. exists x. split; [rewrite nth_error_app1; auto; apply nth_error_Some; congruence|apply memoish_refl].
    * rewrite EO, app_length. lia.
Qed.

(** The slot a use gets holds the object it returns. *)
Lemma use_cell_slot h init s i c s' : use_cell h init s = (Ok (i, c), s') -> h < length (s_hooks s) ->
  nth_error (cells h s') i = Some c /\ idx h s' = S (idx h s) /\ (once h s = true -> i = idx h s /\ nth_error (cells h s) i = Some c /\ cells h s' = cells h s) /\
  (once h s = false -> i = length (cells h s) /\ c = init /\ cells h s' = cells h s ++ [init]).
Proof.
  intros E L. destruct (use_cell_spec _ _ _ _ _ E L) as (_ & [(O & R & C & I1)|[(O & x & N & R & C & I1)|(O & _ & R & _)]]); try discriminate.
  - injection R as -> ->. rewrite C, nth_error_app2, Nat.sub_diag by lia. split; auto. split; auto. split; [congruence|auto].
  - injection R as -> ->. rewrite C. split; auto. split; auto. split; [auto|congruence].
Qed.

Lemma cpre_set_memo h i d m s : (exists d0 m0, nth_error (cells h s) i = Some (CMemo d0 m0)) -> cpre h s (set_cell h i (CMemo d m) s).
Proof.
  intros (d0 & m0 & E). assert (L : h < length (s_hooks s)).
  { destruct (Nat.lt_ge_cases h (length (s_hooks s))); auto. unfold cells in E. rewrite get_beyond in E by auto. destruct i; discriminate. }
  constructor; unfold set_cell, cells, once; rewrite ?get_put_same by auto; simpl; auto.
  - apply upd_length.
  - intros x N. apply get_put_other; auto.
  - intros j x EJ. destruct (Nat.eq_dec i j) as [<-|N].
    + exists (CMemo d m). unfold cells in E. rewrite nth_upd_same by (apply nth_error_Some; congruence). split; auto.
      rewrite E in EJ. injection EJ as <-. simpl. eauto.
    + rewrite nth_upd_other by auto. exists x. split; auto. apply memoish_refl.
  - rewrite upd_length. destruct (hk_once _); auto.
Qed.
Lemma set_cell_nth h i c s : (exists x, nth_error (cells h s) i = Some x) -> nth_error (cells h (set_cell h i c s)) i = Some c.
Proof.
  intros (x & E). assert (L : h < length (s_hooks s)).
  { destruct (Nat.lt_ge_cases h (length (s_hooks s))); auto. unfold cells in E. rewrite get_beyond in E by auto. destruct i; discriminate. }
  unfold set_cell. rewrite put_cells by auto. simpl. apply nth_upd_same. apply nth_error_Some. unfold cells in E. congruence.
Qed.
Lemma set_cell_idx h i c s : h < length (s_hooks s) -> idx h (set_cell h i c s) = idx h s.
Proof. intros L. unfold idx, set_cell. rewrite get_put_same by auto. reflexivity. Qed.

(** Single-slot constants. *)
Ltac brk H := unfold bind in H; match type of H with context [use_cell ?h ?i ?s] => destruct (use_cell h i s) as [[[? ?]|?|] ?] eqn:? end.

Lemma do_state_spec h init s r s' : do_state h init s = (r, s') -> h < length (s_hooks s) ->
  cpre h s s' /\ r <> Fuel /\
  forall i v, r = Ok (i, v) -> nth_error (cells h s') i = Some (CState v) /\ idx h s' = S (idx h s) /\
     (once h s = true -> i = idx h s) /\ (once h s = false -> i = length (cells h s) /\ v = init /\ length (cells h s') = S i).
Proof.
  intros E L. unfold do_state, bind in E. destruct (use_cell h (CState init) s) as [[[i c]|e|] s1] eqn:EU.
  - destruct (use_cell_spec _ _ _ _ _ EU L) as (C & _). destruct (use_cell_slot _ _ _ _ _ _ EU L) as (N & I1 & O1 & O2). cbn [fst snd] in E.
    destruct c; injection E as <- <-; split; auto; split; try discriminate; intros i' v' R; try discriminate.
    injection R as <- <-. split; auto. split; auto. split; [intros O; apply (O1 O)|]. intros O. destruct (O2 O) as (-> & X & ->). injection X as ->.
    split; auto. split; auto. rewrite app_length. simpl. lia.
  - injection E as <- <-. destruct (use_cell_spec _ _ _ _ _ EU L) as (C & _). split; auto. split; discriminate.
  - destruct (use_cell_spec _ _ _ _ _ EU L) as (C & [(_ & R & _)|[(_ & x & _ & R & _)|(_ & _ & R & _)]]); discriminate.
Qed.
Lemma do_ref_spec h init s r s' : do_ref h init s = (r, s') -> h < length (s_hooks s) ->
  cpre h s s' /\ r <> Fuel /\
  forall i v, r = Ok (i, v) -> nth_error (cells h s') i = Some (CRef v) /\ idx h s' = S (idx h s) /\
     (once h s = true -> i = idx h s) /\ (once h s = false -> i = length (cells h s) /\ v = init /\ length (cells h s') = S i).
Proof.
  intros E L. unfold do_ref, bind in E. destruct (use_cell h (CRef init) s) as [[[i c]|e|] s1] eqn:EU.
  - destruct (use_cell_spec _ _ _ _ _ EU L) as (C & _). destruct (use_cell_slot _ _ _ _ _ _ EU L) as (N & I1 & O1 & O2). cbn [fst snd] in E.
    destruct c; injection E as <- <-; split; auto; split; try discriminate; intros i' v' R; try discriminate.
    injection R as <- <-. split; auto. split; auto. split; [intros O; apply (O1 O)|]. intros O. destruct (O2 O) as (-> & X & ->). injection X as ->.
    split; auto. split; auto. rewrite app_length. simpl. lia.
  - injection E as <- <-. destruct (use_cell_spec _ _ _ _ _ EU L) as (C & _). split; auto. split; discriminate.
  - destruct (use_cell_spec _ _ _ _ _ EU L) as (C & [(_ & R & _)|[(_ & x & _ & R & _)|(_ & _ & R & _)]]); discriminate.
Qed.

Lemma do_reducer_spec h red init s r s' : do_reducer h red init s = (r, s') -> h < length (s_hooks s) ->
  cpre h s s' /\ r <> Fuel /\
  forall i v d, r = Ok (i, v, d) -> nth_error (cells h s') i = Some (CState v) /\ nth_error (cells h s') (S i) = Some (CConst d) /\
     idx h s' = S (S (idx h s)) /\
     (once h s = true -> i = idx h s) /\
     (once h s = false -> i = length (cells h s) /\ v = init /\ d = VPair (VInt (Z.of_nat red)) (VSetter h i) /\ length (cells h s') = S (S i)).
Proof.
  intros E L. unfold do_reducer, bind in E. destruct (do_state h init s) as [[[i v]|e|] s1] eqn:ES.
  - destruct (do_state_spec _ _ _ _ _ ES L) as (C1 & _ & K). destruct (K i v eq_refl) as (N1 & I1 & O1 & O2). cbn [fst snd] in E.
    assert (L1 : h < length (s_hooks s1)) by (rewrite (cp_len _ _ _ C1); auto).
    destruct (use_cell h _ s1) as [[[j c]|e|] s2] eqn:EU.
    + destruct (use_cell_spec _ _ _ _ _ EU L1) as (C2 & _). destruct (use_cell_slot _ _ _ _ _ _ EU L1) as (N2 & I2 & P1 & P2). cbn [fst snd] in E.
      destruct c as [ | | |w]; injection E as <- <-; split; try (eapply cpre_trans; eauto; fail); split; try discriminate; intros i' v' d' R; try discriminate.
      injection R as <- <- <-. assert (N1' : nth_error (cells h s2) i = Some (CState v)).
      { destruct (cp_grow _ _ _ C2 _ _ N1) as (x & E1 & M). simpl in M. congruence. }
      pose proof (cp_once _ _ _ C1) as OC. split; auto. destruct (once h s) eqn:EO.
      * specialize (O1 eq_refl). destruct (P1 OC) as (-> & _ & _). rewrite I1, <- O1 in N2. split; auto. split; [congruence|]. split; auto. discriminate.
      * destruct (O2 eq_refl) as (X1 & X2 & X3). destruct (P2 OC) as (-> & Y2 & Y3). rewrite X3 in N2. split; auto. split; [congruence|].
        split; [discriminate|]. intros _. injection Y2 as ->. rewrite Y3, app_length, X3. simpl. repeat split; auto. lia.
    + injection E as <- <-. destruct (use_cell_spec _ _ _ _ _ EU L1) as (C2 & _). split; [eapply cpre_trans; eauto|]. split; discriminate.
    + destruct (use_cell_spec _ _ _ _ _ EU L1) as (C & [(_ & R & _)|[(_ & x & _ & R & _)|(_ & _ & R & _)]]); discriminate.
  - injection E as <- <-. destruct (do_state_spec _ _ _ _ _ ES L) as (C1 & _). split; auto. split; discriminate.
  - destruct (do_state_spec _ _ _ _ _ ES L) as (_ & NF & _). congruence.
Qed.

(** A slot's memo before a use: its content, or empty if it is new. *)
Definition memo_before (h i : nat) (s : st) : option (list val * option val) :=
  match nth_error (cells h s) i with
  | Some (CMemo d m) => Some (d, m)
  | Some _ => None
  | None => Some ([], None)
  end.

Lemma memo_start_spec h deps s r s' : do_memo_start h deps s = (r, s') -> h < length (s_hooks s) ->
  cpre h s s' /\ r <> Fuel /\
  forall i ch mv, r = Ok (i, ch, mv) -> idx h s' = S (idx h s) /\
     (once h s = true -> i = idx h s /\ length (cells h s') = length (cells h s)) /\ (once h s = false -> i = length (cells h s) /\ length (cells h s') = S i) /\
     exists md, memo_before h i s = Some (md, mv) /\ ch = memo_changed md mv deps /\
       nth_error (cells h s') i = Some (CMemo (if ch then memo_deps deps else md) mv) /\
       (forall j, j <> i -> j < length (cells h s) -> nth_error (cells h s') j = nth_error (cells h s) j).
Proof.
  intros E L. unfold do_memo_start, bind in E. destruct (use_cell h (CMemo [] None) s) as [[[i c]|e|] s1] eqn:EU.
  - destruct (use_cell_spec _ _ _ _ _ EU L) as (C & _). destruct (use_cell_slot _ _ _ _ _ _ EU L) as (N & I1 & O1 & O2). cbn [fst snd] in E.
    assert (L1 : h < length (s_hooks s1)) by (rewrite (cp_len _ _ _ C); auto).
    destruct c as [ |md mv| | ]; try (injection E as <- <-; split; auto; split; discriminate).
    assert (MB : memo_before h i s = Some (md, mv)).
    { unfold memo_before. destruct (once h s) eqn:EO.
      - destruct (O1 eq_refl) as (_ & -> & _). reflexivity.
      - destruct (O2 eq_refl) as (-> & X & _). injection X as -> ->. rewrite (proj2 (nth_error_None _ _)); auto. }
    assert (SZ : (once h s = true -> i = idx h s /\ length (cells h s1) = length (cells h s)) /\ (once h s = false -> i = length (cells h s) /\ length (cells h s1) = S i)).
    { split; intros O; [destruct (O1 O) as (A & _ & ->); auto|]. destruct (O2 O) as (A & _ & ->). rewrite app_length. simpl. split; auto; lia. }
    assert (OT : forall j, j <> i -> j < length (cells h s) -> nth_error (cells h s1) j = nth_error (cells h s) j).
    { intros j _ Lj. destruct (once h s); [destruct (O1 eq_refl) as (_ & _ & ->); auto|]. destruct (O2 eq_refl) as (_ & _ & ->). apply nth_error_app1; auto. }
    destruct (memo_changed md mv deps) eqn:MC.
    + unfold modify in E. injection E as <- <-. split; [eapply cpre_trans; [exact C|apply cpre_set_memo; eauto]|]. split; [discriminate|].
      intros i' ch mv' R. injection R as <- <- <-. split; [rewrite set_cell_idx by auto; auto|].
      assert (CE : cells h (set_cell h i (CMemo (memo_deps deps) mv) s1) = upd (cells h s1) i (CMemo (memo_deps deps) mv)) by (unfold set_cell; rewrite put_cells by auto; reflexivity).
      rewrite CE, upd_length. split; [apply SZ|]. split; [apply SZ|]. exists md. rewrite MB, MC. split; auto. split; auto.
      split; [apply nth_upd_same; apply nth_error_Some; congruence|]. intros j NJ LJ. rewrite nth_upd_other by auto. auto.
    + injection E as <- <-. split; [exact C|]. split; [discriminate|]. intros i' ch mv' R. injection R as <- <- <-.
      split; auto. split; [apply SZ|]. split; [apply SZ|]. exists md. rewrite MC. auto.
  - injection E as <- <-. destruct (use_cell_spec _ _ _ _ _ EU L) as (C & _). split; auto. split; discriminate.
  - destruct (use_cell_spec _ _ _ _ _ EU L) as (C & [(_ & R & _)|[(_ & x & _ & R & _)|(_ & _ & R & _)]]); discriminate.
Qed.

Lemma do_memo_spec h deps f s r s' : do_memo h deps f s = (r, s') -> h < length (s_hooks s) ->
  cpre h s s' /\ r <> Fuel /\
  forall i v ran, r = Ok (i, v, ran) -> idx h s' = S (idx h s) /\
     (once h s = true -> i = idx h s) /\ (once h s = false -> i = length (cells h s) /\ length (cells h s') = S i) /\
     exists md mv, memo_before h i s = Some (md, mv) /\ ran = memo_changed md mv deps /\
       nth_error (cells h s') i = Some (CMemo (if ran then memo_deps deps else md) (Some v)) /\
       (if ran then f = inl v else mv = Some v) /\
       (forall j, j <> i -> j < length (cells h s) -> nth_error (cells h s') j = nth_error (cells h s) j).
Proof.
  intros E L. unfold do_memo, bind in E. destruct (do_memo_start h deps s) as [[[[i ch] mv]|e|] s1] eqn:ES.
  - destruct (memo_start_spec _ _ _ _ _ ES L) as (C & _ & K). destruct (K _ _ _ eq_refl) as (I1 & O1 & O2 & md & MB & CH & N1 & OT).
    assert (L1 : h < length (s_hooks s1)) by (rewrite (cp_len _ _ _ C); auto).
    unfold do_memo_setup in E. destruct ch.
    + destruct f as [v|msg]; [|injection E as <- <-; split; auto; split; discriminate].
      unfold bind, modify in E. injection E as <- <-. split; [eapply cpre_trans; [exact C|apply cpre_set_memo; eauto]|]. split; [discriminate|].
      intros i' v' ran R. injection R as <- <- <-. rewrite set_cell_idx by auto. split; auto.
      assert (CE : cells h (set_cell h i (CMemo (memo_deps deps) (Some v)) s1) = upd (cells h s1) i (CMemo (memo_deps deps) (Some v))) by (unfold set_cell; rewrite put_cells by auto; reflexivity).
      rewrite CE, upd_length. split; [apply O1|]. split; [apply O2|].
      exists md, mv. split; auto. split; auto. split; [apply nth_upd_same; apply nth_error_Some; congruence|]. split; auto.
      intros j NJ LJ. rewrite nth_upd_other by auto. auto.
    + destruct mv as [v|].
      * injection E as <- <-. split; auto. split; [discriminate|]. intros i' v' ran R. injection R as <- <- <-. split; auto.
        split; [apply O1|]. split; [apply O2|]. exists md, (Some v). auto.
      * injection E as <- <-. split; auto. split; discriminate.
  - injection E as <- <-. destruct (memo_start_spec _ _ _ _ _ ES L) as (C & _). split; auto. split; discriminate.
  - destruct (memo_start_spec _ _ _ _ _ ES L) as (_ & NF & _). congruence.
Qed.

Lemma add_effect_same h e s : cells h (add_effect h e s) = cells h s /\ idx h (add_effect h e s) = idx h s /\ once h (add_effect h e s) = once h s /\
  length (s_hooks (add_effect h e s)) = length (s_hooks s) /\ forall x, x <> h -> get_hook x (add_effect h e s) = get_hook x s.
Proof.
  unfold add_effect. destruct (Nat.lt_ge_cases h (length (s_hooks s))) as [L|G].
  - unfold cells, idx, once. rewrite get_put_same by auto. simpl. rewrite upd_length. repeat split; auto. intros x N. apply get_put_other; auto.
  - unfold cells, idx, once. rewrite !(get_beyond h) by (simpl; rewrite ?upd_length; auto). simpl. rewrite upd_length. repeat split; auto. intros x N. apply get_put_other; auto.
Qed.

Lemma do_effect_spec h deps fn async s r s' : do_effect h deps fn async s = (r, s') -> h < length (s_hooks s) ->
  (once h s = false -> idx h s = length (cells h s)) ->
  cpre h s s' /\ r <> Fuel /\
  forall i ran, r = Ok (i, ran) -> idx h s' = (if async then 3 else 2) + idx h s /\
     i = idx h s /\ (once h s = false -> length (cells h s') = idx h s') /\
     exists md mv, memo_before h i s = Some (md, mv) /\ ran = memo_changed md mv deps /\
       nth_error (cells h s') i = Some (CMemo (if ran then memo_deps deps else md) (if ran then Some VNone else mv)) /\
       (ran = false -> mv <> None) /\
       (forall j, j <> i -> j < length (cells h s) -> nth_error (cells h s') j = nth_error (cells h s) j).
Proof.
  intros E L SLOT. unfold do_effect, bind in E. destruct (do_memo_start h deps s) as [[[[i ch] mv]|e|] s1] eqn:ES.
  2:{ injection E as <- <-. destruct (memo_start_spec _ _ _ _ _ ES L) as (C & _). split; auto. split; discriminate. }
  2:{ destruct (memo_start_spec _ _ _ _ _ ES L) as (_ & NF & _). congruence. }
  destruct (memo_start_spec _ _ _ _ _ ES L) as (C1 & _ & K). destruct (K _ _ _ eq_refl) as (I1 & O1 & O2 & md & MB & CH & N1 & OT1).
  assert (L1 : h < length (s_hooks s1)) by (rewrite (cp_len _ _ _ C1); auto).
  pose proof (cp_once _ _ _ C1) as OC1.
  assert (EI : i = idx h s) by (destruct (once h s); [apply (O1 eq_refl)|rewrite (proj1 (O2 eq_refl)), SLOT by auto; auto]).
  (* the references *)
  assert (REF : forall t ri rv t', do_ref h VNone t = (Ok (ri, rv), t') -> h < length (s_hooks t) -> (once h t = false -> idx h t = length (cells h t)) ->
     cpre h t t' /\ idx h t' = S (idx h t) /\ (once h t = false -> length (cells h t') = idx h t') /\
     (forall j x, nth_error (cells h t) j = Some x -> nth_error (cells h t') j = Some x)).
  { intros t ri rv t' ER LT SL. destruct (do_ref_spec _ _ _ _ _ ER LT) as (C & _ & KR). destruct (KR _ _ eq_refl) as (N & I & P1 & P2).
    split; auto. split; auto. split; [intros O; destruct (P2 O) as (-> & _ & ->); rewrite I, SL by auto; auto|].
    intros j x EJ. unfold do_ref, bind in ER. destruct (use_cell h (CRef VNone) t) as [[[a b]|?|] ?] eqn:EU; try discriminate.
    destruct (use_cell_slot _ _ _ _ _ _ EU LT) as (_ & _ & Q1 & Q2). cbn [fst snd] in ER. destruct b; try discriminate. injection ER as <- <- <-.
    destruct (once h t); [destruct (Q1 eq_refl) as (_ & _ & ->); auto|]. destruct (Q2 eq_refl) as (_ & _ & ->).
    rewrite nth_error_app1; auto. apply nth_error_Some. congruence. }
  destruct (do_ref h VNone s1) as [[[ri rv]|e|] s2] eqn:ER.
  2:{ injection E as <- <-. destruct (do_ref_spec _ _ _ _ _ ER L1) as (C & _). split; [eapply cpre_trans; eauto|]. split; discriminate. }
  2:{ destruct (do_ref_spec _ _ _ _ _ ER L1) as (_ & NF & _). congruence. }
  destruct (REF _ _ _ _ ER L1) as (C2 & I2 & LN2 & K2).
  { rewrite OC1. intros O. destruct (O2 O) as (-> & ->). rewrite I1, SLOT by auto. auto. }
  assert (L2 : h < length (s_hooks s2)) by (rewrite (cp_len _ _ _ C2); auto).
  pose proof (cp_once _ _ _ C2) as OC2.
  assert (LAST : forall s3, cpre h s2 s3 -> idx h s3 = (if async then 3 else 2) + idx h s -> (once h s = false -> length (cells h s3) = idx h s3) ->
     (forall j x, nth_error (cells h s2) j = Some x -> nth_error (cells h s3) j = Some x) ->
     (match (i, ch, mv) with
      | (i, true, _) => fun s => (Ok (i, true), set_cell h i (CMemo (memo_deps deps) (Some VNone)) (add_effect h (Effect fn ri) s))
      | (i, false, Some _) => ret (i, false)
      | (i, false, None) => raise attribute_error
      end) s3 = (r, s') ->
   cpre h s s' /\ r <> Fuel /\
   forall i ran, r = Ok (i, ran) -> idx h s' = (if async then 3 else 2) + idx h s /\
     i = idx h s /\ (once h s = false -> length (cells h s') = idx h s') /\
     exists md mv, memo_before h i s = Some (md, mv) /\ ran = memo_changed md mv deps /\
       nth_error (cells h s') i = Some (CMemo (if ran then memo_deps deps else md) (if ran then Some VNone else mv)) /\
       (ran = false -> mv <> None) /\
       (forall j, j <> i -> j < length (cells h s) -> nth_error (cells h s') j = nth_error (cells h s) j)).
  { intros s3 C3 I3 LN3 K3 E3.
    assert (C13 : cpre h s s3) by (eapply cpre_trans; [exact C1|]; eapply cpre_trans; eauto).
    assert (L3 : h < length (s_hooks s3)) by (rewrite (cp_len _ _ _ C3); auto).
    assert (OT3 : forall j, j <> i -> j < length (cells h s) -> nth_error (cells h s3) j = nth_error (cells h s) j).
    { intros j NJ LJ. destruct (nth_error (cells h s) j) as [x|] eqn:EJ; [|apply nth_error_None in EJ; lia].
      apply K3, K2. rewrite OT1; auto. }
    destruct ch.
    - injection E3 as <- <-. destruct (add_effect_same h (Effect fn ri) s3) as (AE1 & AE2 & AE3 & AE4 & AE5).
      set (s4 := add_effect h (Effect fn ri) s3) in *.
      assert (C34 : cpre h s3 s4).
      { constructor; auto; rewrite ?AE1; [intros j x EJ; exists x; split; auto; apply memoish_refl|destruct (once h s3); auto]. }
      assert (N4 : nth_error (cells h s4) i = Some (CMemo (memo_deps deps) mv)) by (rewrite AE1; apply K3, K2; exact N1).
      assert (L4 : h < length (s_hooks s4)) by (rewrite AE4; auto).
      split. { eapply cpre_trans; [exact C13|]. eapply cpre_trans; [exact C34|]. apply cpre_set_memo; eauto. }
      split; [discriminate|]. intros i' ran R. injection R as <- <-.
      assert (CE : cells h (set_cell h i (CMemo (memo_deps deps) (Some VNone)) s4) = upd (cells h s4) i (CMemo (memo_deps deps) (Some VNone))) by (unfold set_cell; rewrite put_cells by auto; reflexivity).
      rewrite set_cell_idx, CE, upd_length, AE1, AE2 by auto. split; auto. split; auto. split; auto. exists md, mv. split; auto. split; auto.
      split; [apply nth_upd_same; apply nth_error_Some; rewrite AE1 in N4; congruence|]. split; [discriminate|].
      intros j NJ LJ. rewrite nth_upd_other by auto. auto.
    - destruct mv as [w|]; [|injection E3 as <- <-; split; auto; split; discriminate].
      injection E3 as <- <-. split; auto. split; [discriminate|]. intros i' ran R. injection R as <- <-. split; auto. split; auto. split; auto.
      exists md, (Some w). split; auto. split; auto. split; [apply K3, K2; exact N1|]. split; [discriminate|]. exact OT3. }
  destruct async.
  - destruct (do_ref h VNone s2) as [[[rj rw]|e|] s3] eqn:ER3.
    2:{ injection E as <- <-. destruct (do_ref_spec _ _ _ _ _ ER3 L2) as (C & _). split; [eapply cpre_trans; [exact C1|]; eapply cpre_trans; eauto|]. split; discriminate. }
    2:{ destruct (do_ref_spec _ _ _ _ _ ER3 L2) as (_ & NF & _). congruence. }
    destruct (REF _ _ _ _ ER3 L2) as (C3 & I3 & LN3 & K3).
    { rewrite OC2. intros O. rewrite LN2; auto. }
    apply (LAST s3 C3); [lia|intros O; apply LN3; congruence|exact K3|]. destruct ch; [|destruct mv]; exact E.
  - apply (LAST s2 (cpre_refl _ _)); [lia|intros O; apply LN2; congruence|auto|]. destruct ch; [|destruct mv]; exact E.
Qed.

(** ** Alignment: before the first render is over, the next slot is the end of the list *)

Definition al (h : nat) (s : st) : Prop := once h s = false -> idx h s = length (cells h s).
Definition Al (s s' : st) : Prop := s_env s' = s_env s /\ length (s_hooks s') = length (s_hooks s) /\ (forall h, al h s -> al h s').
Lemma Al_refl s : Al s s.
Proof. split; [|split]; auto. Qed.
Lemma Al_trans a b c : Al a b -> Al b c -> Al a c.
Proof. intros (A1 & A2 & A3) (B1 & B2 & B3). split; [congruence|]. split; [congruence|]. auto. Qed.

Lemma Al_put h k s : (hk_once k = false -> once h s = false /\ (idx h s = length (cells h s) -> hk_idx k = length (hk_cells k))) -> Al s (put_hook h k s).
Proof.
  intros K. split; [reflexivity|]. split; [apply put_len|]. intros x A. destruct (Nat.eq_dec h x) as [<-|N].
  - destruct (Nat.lt_ge_cases h (length (s_hooks s))) as [L|G].
    + unfold al, once, idx, cells in *. rewrite get_put_same by auto. intros O. destruct (K O) as [O' X]. auto.
    + unfold al, once, idx, cells. rewrite get_beyond by (rewrite put_len; auto). reflexivity.
  - unfold al, once, idx, cells in *. rewrite get_put_other by auto. auto.
Qed.
Lemma Al_use_cell h i : pres Al (use_cell h i).
Proof.
  intros s r s' E. unfold use_cell in E. destruct (hk_once (get_hook h s)) eqn:EO.
  - destruct (nth_error _ _); injection E as <- <-; [|apply Al_refl]. apply Al_put. simpl. congruence.
  - injection E as <- <-. apply Al_put. simpl. intros _. split; auto. rewrite app_length. unfold idx, cells. simpl. lia.
Qed.
Lemma Al_set_cell h i c s : Al s (set_cell h i c s).
Proof. apply Al_put. simpl. intros O. split; auto. rewrite upd_length. auto. Qed.
Lemma Al_add_effect h e s : Al s (add_effect h e s).
Proof. apply Al_put. simpl. intros O. split; auto. Qed.
Lemma Al_schedule h s : Al s (schedule_render h s).
Proof.
  unfold schedule_render. destruct (hk_sched (get_hook h s)); [apply Al_refl|].
  apply (Al_trans s (set_queue (queue_put h (s_queue s)) s)); [split; [reflexivity|split; auto]|].
  apply Al_put. simpl. intros O. split; auto.
Qed.
Lemma Al_dispatch h i u s : Al s (dispatch h i u s).
Proof.
  unfold dispatch. destruct (nth_error _ _) as [[v| | |]|]; try apply Al_refl. cbv zeta. destruct (veq _ _); [apply Al_refl|].
  eapply Al_trans; [|apply Al_schedule]. apply Al_put. simpl. intros O. split; auto. rewrite upd_length. auto.
Qed.

Ltac al := repeat first [apply Al_use_cell | (apply pres_ret; exact Al_refl) | (apply pres_raise; exact Al_refl)
   | (apply pres_bind; [exact Al_trans| |intros]) | (apply pres_modify; intros; first [apply Al_set_cell|apply Al_add_effect])].
Lemma Al_state h i : pres Al (do_state h i).
Proof. unfold do_state. al. destruct (snd a); al. Qed.
Lemma Al_ref h i : pres Al (do_ref h i).
Proof. unfold do_ref. al. destruct (snd a); al. Qed.
Lemma Al_reducer h r i : pres Al (do_reducer h r i).
Proof. unfold do_reducer. apply pres_bind; [exact Al_trans|apply Al_state|]. intros. al. destruct (snd a0); al. Qed.
Lemma Al_start h d : pres Al (do_memo_start h d).
Proof. unfold do_memo_start. al. destruct (snd a); al. destruct (memo_changed _ _ _); al. Qed.
Lemma Al_memo h d f : pres Al (do_memo h d f).
Proof.
  unfold do_memo. apply pres_bind; [exact Al_trans|apply Al_start|]. intros [[i ch] mv]. unfold do_memo_setup.
  destruct ch; [destruct f; al|destruct mv; al].
Qed.
Lemma Al_effect h d f a : pres Al (do_effect h d f a).
Proof.
  unfold do_effect. apply pres_bind; [exact Al_trans|apply Al_start|]. intros [[i ch] mv].
  apply pres_bind; [exact Al_trans|apply Al_ref|]. intros r. apply pres_bind; [exact Al_trans| |].
  - destruct a; [|al]. apply pres_bind; [exact Al_trans|apply Al_ref|]. intros _. al.
  - intros _. destruct ch; [al|destruct mv; al].
Qed.

Section Exec.
Variable R : nat -> val -> val -> val.

Definition ok (n : nat) (s : st) : Prop := s_env s = [] /\ length (s_hooks s) = n /\ forall h, al h s.

Lemma ok_fresh n : ok n (fresh n).
Proof.
  split; [reflexivity|]. split; [apply repeat_length|]. intros h _. unfold idx, cells, get_hook, fresh. simpl.
  rewrite nth_repeat. reflexivity.
Qed.
Lemma ok_Al n s s' : Al s s' -> ok n s -> ok n s'.
Proof. intros (A1 & A2 & A3) (B1 & B2 & B3). split; [congruence|]. split; [congruence|]. auto. Qed.

Lemma answer_Al {A} (m : M A) f s r s' : pres Al m -> answer m f s = (r, s') -> Al s s'.
Proof. intros P E. unfold answer in E. destruct (m s) as [[a|e|] s1] eqn:EM; injection E as <- <-; eapply P; eauto. Qed.

(** Beginning a render touches no slot. *)
Definition Same (s s' : st) : Prop := s_env s' = s_env s /\ length (s_hooks s') = length (s_hooks s) /\
  forall x, cells x s' = cells x s /\ idx x s' = idx x s /\ once x s' = once x s.
Lemma Same_trans a b c : Same a b -> Same b c -> Same a c.
Proof.
  intros (A1 & A2 & A3) (B1 & B2 & B3). split; [congruence|]. split; [congruence|]. intros x. destruct (A3 x) as (P & Q & T), (B3 x) as (P' & Q' & T').
  rewrite P', Q', T'. auto.
Qed.
Lemma Same_put h k s : hk_cells k = cells h s -> hk_idx k = idx h s -> hk_once k = once h s -> Same s (put_hook h k s).
Proof.
  intros A B C. split; [reflexivity|]. split; [apply put_len|]. intros x. unfold cells, idx, once in *. destruct (Nat.eq_dec h x) as [<-|N].
  - destruct (Nat.lt_ge_cases h (length (s_hooks s))); [rewrite get_put_same by auto; auto|].
    rewrite !get_beyond by (rewrite ?put_len; auto). auto.
  - rewrite get_put_other by auto. auto.
Qed.
Lemma Same_stack q s : Same s (set_stack q s).
Proof. split; [reflexivity|]. split; [reflexivity|]. auto. Qed.
Lemma begin_spec h s r s' : exec R (KBegin h) s = (r, s') -> s_env s = [] -> r = RDone /\ Same s s'.
Proof.
  intros E EV. unfold exec, answer, will_render, bind, pause, modify in E. rewrite EV in E. unfold set_current in E.
  set (s1 := put_hook h _ s) in E. assert (S1 : Same s s1) by (apply Same_put; reflexivity).
  clearbody s1. unfold modify in E. cbv zeta in E. injection E as <- <-. split; [reflexivity|]. eapply Same_trans; [exact S1|].
  eapply Same_trans; [|apply Same_stack]. destruct (s_stack s1) as [|p rest]; [split; auto|]. apply Same_put; reflexivity.
Qed.
(** Ending a render resets the component's slot index. *)
Lemma end_spec h s r s' : exec R (KEnd h) s = (r, s') ->
  s_env s' = s_env s /\ length (s_hooks s') = length (s_hooks s) /\
  ((exists e, r = RRaised e /\ s_hooks s' = s_hooks s) \/
   (r = RDone /\ (forall x, x <> h -> get_hook x s' = get_hook x s) /\ cells h s' = cells h s /\
    (h < length (s_hooks s) -> idx h s' = 0 /\ once h s' = true))).
Proof.
  intros E. unfold exec, answer, did_render, bind, unset_current, modify in E. destruct (s_stack s) as [|p rest].
  - injection E as <- <-. split; auto. split; auto. left. eauto.
  - destruct (Nat.eq_dec p h).
    + injection E as <- <-. simpl. rewrite upd_length. split; auto. split; auto. right. split; auto. split.
      * intros x N. rewrite get_put_other by auto. reflexivity.
      * split.
        -- destruct (Nat.lt_ge_cases h (length (s_hooks s))) as [L|G]; [rewrite put_cells by auto; reflexivity|].
           unfold cells. rewrite !get_beyond; auto. rewrite put_len. auto.
        -- intros L. unfold idx, once. rewrite get_put_same by auto. auto.
    + injection E as <- <-. split; auto. split; auto. left. eauto.
Qed.
Lemma dispatch_cells h i u s x : get_hook x (dispatch h i u s) = get_hook x s \/
  x = h /\ h < length (s_hooks s) /\ exists v, nth_error (cells h s) i = Some (CState v) /\ cells h (dispatch h i u s) = upd (cells h s) i (CState (take v u)) /\
    idx h (dispatch h i u s) = idx h s /\ once h (dispatch h i u s) = once h s.
Proof.
  destruct (Nat.eq_dec h x) as [<-|N]; [|left; apply get_dispatch_other; auto].
  unfold dispatch. unfold cells. destruct (nth_error (hk_cells (get_hook h s)) i) as [[v| | |]|] eqn:EN; auto.
  assert (L : h < length (s_hooks s)).
  { destruct (Nat.lt_ge_cases h (length (s_hooks s))); auto. rewrite get_beyond in EN by auto. destruct i; discriminate. }
  cbv zeta. destruct (veq match u with UVal x => x | UFun f => f v end v) eqn:EV; auto. right. split; auto. split; auto. exists v. split; auto.
  unfold take. rewrite EV. unfold schedule_render. rewrite get_put_same by auto. cbn [hk_sched].
  destruct (hk_sched (get_hook h s)); unfold idx, once; [rewrite !get_put_same by auto; auto|].
  rewrite !get_put_same by (change (s_hooks (set_queue ?q ?a)) with (s_hooks a); simpl; rewrite ?upd_length; auto). auto.
Qed.
Lemma dispatch_len h i u s : length (s_hooks (dispatch h i u s)) = length (s_hooks s) /\ s_env (dispatch h i u s) = s_env s.
Proof. destruct (Al_dispatch h i u s) as (A & B & _). auto. Qed.

Lemma exec_ok n c s r s' : exec R c s = (r, s') -> ok n s -> ok n s'.
Proof.
  intros E O. destruct c; cbn [exec] in E.
  - pose proof O as (O1 & O2 & O3). change (exec R (KBegin h) s = (r, s')) in E. destruct (begin_spec _ _ _ _ E O1) as (_ & A & B & C).
    split; [congruence|]. split; [congruence|]. intros x. destruct (C x) as (C1 & C2 & C3). unfold al. rewrite C1, C2, C3. apply O3.
  - pose proof O as (O1 & O2 & O3). change (exec R (KEnd h) s = (r, s')) in E. destruct (end_spec _ _ _ _ E) as (A & B & C).
    split; [congruence|]. split; [congruence|]. intros x. destruct C as [(e & _ & C)|(_ & C1 & C2 & C3)].
    + unfold al, idx, once, cells, get_hook in *. rewrite C. apply O3.
    + destruct (Nat.eq_dec x h) as [->|N].
      * destruct (Nat.lt_ge_cases h (length (s_hooks s))) as [L|G]; [unfold al; rewrite (proj2 (C3 L)); discriminate|].
        unfold al, idx, once, cells. rewrite get_beyond by lia. reflexivity.
      * unfold al, idx, once, cells in *. rewrite C1 by auto. apply O3.
  - eapply ok_Al; eauto. eapply answer_Al; [|exact E]. apply Al_state.
  - eapply ok_Al; eauto. eapply answer_Al; [|exact E]. apply Al_reducer.
  - eapply ok_Al; eauto. eapply answer_Al; [|exact E]. apply Al_memo.
  - eapply ok_Al; eauto. eapply answer_Al; [|exact E]. apply Al_memo.
  - eapply ok_Al; eauto. eapply answer_Al; [|exact E]. apply Al_ref.
  - eapply ok_Al; eauto. eapply answer_Al; [|exact E]. apply Al_effect.
  - injection E as <- <-. eapply ok_Al; eauto. apply Al_dispatch.
  - assert (s' = s \/ exists h i u, s' = dispatch h i u s) as [->|(h & i & u & ->)]; auto.
    { destruct d as [ | | | |[ | |z| | | ] [ | | | | |h i]| ]; injection E as <- <-; eauto. }
    eapply ok_Al; eauto. apply Al_dispatch.
  - injection E as <- <-. unfold set_ref. destruct (nth_error _ _) as [[| | |]|]; auto. eapply ok_Al; eauto. apply Al_set_cell.
Qed.

(** A hook call is a change of its component. *)
Lemma exec_caller c s r s' h : exec R c s = (r, s') -> caller c = Some h -> h < length (s_hooks s) -> al h s -> cpre h s s'.
Proof.
  intros E C L A. destruct c; try discriminate; injection C as ->; cbn [exec] in E; unfold answer in E;
    match type of E with context [match ?m s with _ => _ end] => destruct (m s) as [[?|?|] s1] eqn:EM end; injection E as <- <-.
  all: first [apply (do_state_spec _ _ _ _ _ EM L)|apply (do_reducer_spec _ _ _ _ _ _ EM L)|apply (do_memo_spec _ _ _ _ _ _ EM L)
    |apply (do_ref_spec _ _ _ _ _ EM L)|apply (do_effect_spec _ _ _ _ _ _ _ EM L A)].
Qed.

(** ** Slots over one call *)

Definition cell_after (h i : nat) (c : call) (x x' : cell) : Prop :=
  match x with
  | CState v => x' = CState (fold_left take (sent R h i c) v)
  | CMemo _ _ => exists d m, x' = CMemo d m
  | CRef _ => exists v', x' = CRef v'
  | CConst v => x' = CConst v
  end.

Lemma dispatch_after h i h' i' u s x : nth_error (cells h s) i = Some x ->
  exists x', nth_error (cells h (dispatch h' i' u s)) i = Some x' /\
    match x with
    | CState v => x' = CState (fold_left take (if Nat.eq_dec h' h then if Nat.eq_dec i' i then [u] else [] else []) v)
    | _ => x' = x
    end.
Proof.
  intros EX. destruct (Nat.eq_dec h' h) as [->|N].
  2:{ exists x. unfold cells in *. rewrite get_dispatch_other by auto. split; auto. destruct x; auto. }
  destruct (dispatch_cells h i' u s h) as [E|(_ & L & v & EV & EC & _)].
  - exists x. split; [unfold cells in *; rewrite E; auto|]. destruct x as [v| | |]; auto.
    destruct (Nat.eq_dec i' i) as [->|]; [|reflexivity]. simpl. f_equal.
    (* nothing changed, so the update was equal *)
    unfold dispatch in E. unfold cells in EX. rewrite EX in E. unfold take. cbv zeta in E.
    destruct (veq match u with UVal x => x | UFun f => f v end v) eqn:EVQ; auto. exfalso.
    assert (L : h < length (s_hooks s)).
    { destruct (Nat.lt_ge_cases h (length (s_hooks s))); auto. rewrite get_beyond in EX by auto. destruct i; discriminate. }
    assert (E2 : nth_error (hk_cells (get_hook h (schedule_render h (put_hook h (Hook (upd (hk_cells (get_hook h s)) i (CState match u with UVal x => x | UFun f => f v end)) (hk_idx (get_hook h s)) (hk_once (get_hook h s)) (hk_sched (get_hook h s)) (hk_effects (get_hook h s)) (hk_ctx (get_hook h s))) s)))) i
        = Some (CState match u with UVal x => x | UFun f => f v end)).
    { unfold schedule_render. rewrite get_put_same by auto. cbn [hk_sched].
      destruct (hk_sched (get_hook h s)); [rewrite get_put_same by auto|rewrite get_put_same by (change (s_hooks (set_queue ?q ?a)) with (s_hooks a); simpl; rewrite ?upd_length; auto)];
        simpl; apply nth_upd_same; apply nth_error_Some; congruence. }
    rewrite E in E2. rewrite EX in E2. injection E2 as E2. rewrite <- E2 in EVQ. rewrite veq_refl in EVQ. discriminate.
  - rewrite EC. destruct (Nat.eq_dec i' i) as [->|NI].
    + rewrite nth_upd_same by (apply nth_error_Some; congruence). rewrite EV in EX. injection EX as <-. eexists. split; [reflexivity|]. reflexivity.
    + rewrite nth_upd_other by auto. exists x. split; auto. destruct x; auto.
Qed.

Lemma cell_after_same h i c x : sent R h i c = [] -> cell_after h i c x x.
Proof. intros E. destruct x; simpl; eauto. rewrite E. reflexivity. Qed.
Lemma cell_after_memoish h i c x x' : sent R h i c = [] -> memoish x x' -> cell_after h i c x x'.
Proof. intros E. destruct x; simpl; try (intros ->; rewrite ?E; eauto). auto. Qed.

Lemma exec_cell c s r s' n h i x : exec R c s = (r, s') -> ok n s -> (forall x, caller c = Some x -> x < n) ->
  nth_error (cells h s) i = Some x -> exists x', nth_error (cells h s') i = Some x' /\ cell_after h i c x x'.
Proof.
  intros E O LC EX. pose proof O as (O1 & O2 & O3). destruct (caller c) as [hc|] eqn:EC.
  - specialize (LC hc eq_refl). rewrite <- O2 in LC. pose proof (exec_caller _ _ _ _ _ E EC LC (O3 hc)) as C.
    assert (SE : sent R h i c = []) by (destruct c; try discriminate; reflexivity).
    destruct (Nat.eq_dec h hc) as [->|N].
    + destruct (cp_grow _ _ _ C _ _ EX) as (x' & E' & M). exists x'. split; auto. apply cell_after_memoish; auto.
    + exists x. unfold cells in *. rewrite (cp_other _ _ _ C) by auto. split; auto. apply cell_after_same; auto.
  - destruct c; try discriminate.
    + destruct (begin_spec _ _ _ _ E O1) as (_ & _ & _ & C). exists x. rewrite (proj1 (C h)). split; auto. apply cell_after_same; auto.
    + destruct (end_spec _ _ _ _ E) as (_ & _ & [(e & _ & C)|(_ & C1 & C2 & _)]).
      * exists x. unfold cells, get_hook in *. rewrite C. split; auto. apply cell_after_same; auto.
      * exists x. destruct (Nat.eq_dec h h0) as [->|N]; [rewrite C2|unfold cells in *; rewrite C1 by auto]; (split; auto; apply cell_after_same; auto).
    + injection E as <- <-. destruct (dispatch_after h i h0 i0 u s x EX) as (x' & E' & M). exists x'. split; auto.
      destruct x; cbn [cell_after sent] in *; eauto.
    + assert (D : (exists z h0 i0, d = VPair (VInt z) (VSetter h0 i0)) \/ (s' = s /\ sent R h i (KAction d action) = [])).
      { destruct d as [ | | | |[ | |z| | | ] [ | | | | |h0 i0]| ]; try (right; injection E as <- <-; split; reflexivity). eauto. }
      destruct D as [(z & h0 & i0 & ->)|[-> SE]].
      * injection E as <- <-. destruct (dispatch_after h i h0 i0 (UFun (fun last => R (Z.to_nat z) last action)) s x EX) as (x' & E' & M).
        exists x'. split; auto. destruct x; cbn [cell_after sent] in *; eauto.
      * exists x. split; auto. apply cell_after_same; auto.
    + injection E as <- <-. unfold set_ref. destruct (nth_error (hk_cells (get_hook h0 s)) i0) as [[ | |w| ]|] eqn:EN;
        try (exists x; split; auto; apply cell_after_same; reflexivity).
      assert (L : h0 < length (s_hooks s)).
      { destruct (Nat.lt_ge_cases h0 (length (s_hooks s))); auto. rewrite get_beyond in EN by auto. destruct i0; discriminate. }
      destruct (Nat.eq_dec h h0) as [->|N].
      * unfold set_cell. rewrite put_cells by auto. simpl. destruct (Nat.eq_dec i0 i) as [->|NI].
        -- rewrite nth_upd_same by (apply nth_error_Some; congruence). unfold cells in EX. rewrite EN in EX. injection EX as <-. simpl. eauto.
        -- rewrite nth_upd_other by auto. exists x. split; auto. apply cell_after_same; auto.
      * exists x. unfold cells, set_cell in *. rewrite get_put_other by auto. split; auto. apply cell_after_same; auto.
Qed.

(** ** Slots over call sequences *)

Lemma on_cons n c cs : on n (c :: cs) -> (forall h, caller c = Some h -> h < n) /\ on n cs.
Proof. intros O. split; [intros h; apply O; left; auto|intros c' h J; apply O; right; auto]. Qed.
Lemma on_app n a b : on n (a ++ b) -> on n a /\ on n b.
Proof. intros O. split; intros c h J; apply O; apply in_app_iff; auto. Qed.

Lemma exec_all_app a b s : exec_all R (a ++ b) s =
  (fst (exec_all R a s) ++ fst (exec_all R b (snd (exec_all R a s))), snd (exec_all R b (snd (exec_all R a s)))).
Proof.
  revert s; induction a as [|c a IH]; intros s; simpl; [destruct (exec_all R b s); reflexivity|].
  destruct (exec R c s) as [r s1]. rewrite IH. destruct (exec_all R a s1) as [rs s2]. simpl. reflexivity.
Qed.
Lemma exec_all_len cs : forall s, length (fst (exec_all R cs s)) = length cs.
Proof. induction cs as [|c cs IH]; intros s; simpl; auto. destruct (exec R c s) as [r s1]. specialize (IH s1). destruct (exec_all R cs s1). simpl in *. lia. Qed.
Lemma exec_all_ok n cs : forall s, ok n s -> ok n (snd (exec_all R cs s)).
Proof.
  induction cs as [|c cs IH]; intros s O; simpl; auto. destruct (exec R c s) as [r s1] eqn:E. pose proof (exec_ok _ _ _ _ _ E O) as O'.
  specialize (IH s1 O'). destruct (exec_all R cs s1). exact IH.
Qed.

Lemma all_state n cs : forall s h i v, ok n s -> on n cs -> nth_error (cells h s) i = Some (CState v) ->
  nth_error (cells h (snd (exec_all R cs s))) i = Some (CState (fold_left take (flat_map (sent R h i) cs) v)).
Proof.
  induction cs as [|c cs IH]; intros s h i v O ON E; simpl; auto. destruct (on_cons _ _ _ ON) as [ON1 ON2].
  destruct (exec R c s) as [r s1] eqn:EC. destruct (exec_cell _ _ _ _ _ _ _ _ EC O ON1 E) as (x & EX & CA). simpl in CA. subst x.
  specialize (IH s1 h i _ (exec_ok _ _ _ _ _ EC O) ON2 EX). destruct (exec_all R cs s1) as [rs s2]. simpl in *. rewrite fold_left_app. exact IH.
Qed.
Lemma all_const n cs : forall s h i v, ok n s -> on n cs -> nth_error (cells h s) i = Some (CConst v) ->
  nth_error (cells h (snd (exec_all R cs s))) i = Some (CConst v).
Proof.
  induction cs as [|c cs IH]; intros s h i v O ON E; simpl; auto. destruct (on_cons _ _ _ ON) as [ON1 ON2].
  destruct (exec R c s) as [r s1] eqn:EC. destruct (exec_cell _ _ _ _ _ _ _ _ EC O ON1 E) as (x & EX & CA). simpl in CA. subst x.
  specialize (IH s1 h i _ (exec_ok _ _ _ _ _ EC O) ON2 EX). destruct (exec_all R cs s1) as [rs s2]. exact IH.
Qed.

(** The result of a call of component [h] and the state around it. *)
Lemma state_call n h init s r s' i v : exec R (KState h init) s = (r, s') -> ok n s -> h < n -> r = RState i v ->
  nth_error (cells h s') i = Some (CState v) /\ i = idx h s /\ idx h s' = S (idx h s) /\
  (nth_error (cells h s) i = None -> v = init) /\ (forall w, nth_error (cells h s) i = Some (CState w) -> v = w).
Proof.
  intros E (O1 & O2 & O3) L ->. unfold exec, answer in E. destruct (do_state h init s) as [[[j w]|e|] s1] eqn:ED; try discriminate.
  injection E as <- <- <-. cbn [fst snd]. rewrite <- O2 in L. destruct (do_state_spec _ _ _ _ _ ED L) as (C & _ & K). destruct (K _ _ eq_refl) as (N & I1 & P1 & P2).
  split; auto. destruct (once h s) eqn:EO.
  - specialize (P1 eq_refl). split; auto. split; auto. split.
    + intros EN. exfalso. apply nth_error_None in EN. pose proof (cp_size _ _ _ C) as SZ. rewrite EO in SZ. assert (j < length (cells h s1)) by (apply nth_error_Some; congruence). lia.
    + intros w' EW. destruct (cp_grow _ _ _ C _ _ EW) as (x & EX & M). simpl in M. congruence.
  - destruct (P2 eq_refl) as (-> & -> & _). rewrite (O3 h EO). split; auto. split; [rewrite I1; apply f_equal, O3; auto|]. split; auto.
    intros w' EW. assert (length (cells h s) < length (cells h s)) by (apply nth_error_Some; congruence). lia.
Qed.
Lemma reducer_call n h red init s r s' i v d : exec R (KReducer h red init) s = (r, s') -> ok n s -> h < n -> r = RReducer i v d ->
  nth_error (cells h s') i = Some (CState v) /\ nth_error (cells h s') (S i) = Some (CConst d) /\ i = idx h s /\ idx h s' = S (S (idx h s)) /\
  (nth_error (cells h s) i = None -> v = init /\ d = VPair (VInt (Z.of_nat red)) (VSetter h i)) /\
  (forall w, nth_error (cells h s) i = Some (CState w) -> v = w) /\
  (forall d', nth_error (cells h s) (S i) = Some (CConst d') -> d = d').
Proof.
  intros E (O1 & O2 & O3) L ->. unfold exec, answer in E. destruct (do_reducer h red init s) as [[[[j w] d']|e|] s1] eqn:ED; try discriminate.
  injection E as <- <- <- <-. cbn [fst snd]. rewrite <- O2 in L. destruct (do_reducer_spec _ _ _ _ _ _ ED L) as (C & _ & K). destruct (K _ _ _ eq_refl) as (N & N2 & I1 & P1 & P2).
  split; auto. split; auto. destruct (once h s) eqn:EO.
  - specialize (P1 eq_refl). split; auto. split; auto. split; [|split].
    + intros EN. exfalso. apply nth_error_None in EN. pose proof (cp_size _ _ _ C) as SZ. rewrite EO in SZ. assert (j < length (cells h s1)) by (apply nth_error_Some; congruence). lia.
    + intros w' EW. destruct (cp_grow _ _ _ C _ _ EW) as (x & EX & M). simpl in M. congruence.
    + intros w' EW. destruct (cp_grow _ _ _ C _ _ EW) as (x & EX & M). simpl in M. congruence.
  - destruct (P2 eq_refl) as (-> & -> & -> & _). rewrite (O3 h EO). split; auto. split; [rewrite I1; do 2 apply f_equal; apply O3; auto|]. split; auto. split.
    + intros w' EW. assert (length (cells h s) < length (cells h s)) by (apply nth_error_Some; congruence). lia.
    + intros w' EW. assert (S (length (cells h s)) < length (cells h s)) by (apply nth_error_Some; congruence). lia.
Qed.
Lemma ref_call n h init s r s' i v : exec R (KRef h init) s = (r, s') -> ok n s -> h < n -> r = RRef i v ->
  nth_error (cells h s') i = Some (CRef v) /\ i = idx h s /\ idx h s' = S (idx h s) /\
  (nth_error (cells h s) i = None -> v = init) /\ (forall w, nth_error (cells h s) i = Some (CRef w) -> v = w).
Proof.
  intros E (O1 & O2 & O3) L ->. unfold exec, answer in E. destruct (do_ref h init s) as [[[j w]|e|] s1] eqn:ED; try discriminate.
  injection E as <- <- <-. cbn [fst snd]. rewrite <- O2 in L. destruct (do_ref_spec _ _ _ _ _ ED L) as (C & _ & K). destruct (K _ _ eq_refl) as (N & I1 & P1 & P2).
  split; auto. destruct (once h s) eqn:EO.
  - specialize (P1 eq_refl). split; auto. split; auto. split.
    + intros EN. exfalso. apply nth_error_None in EN. pose proof (cp_size _ _ _ C) as SZ. rewrite EO in SZ. assert (j < length (cells h s1)) by (apply nth_error_Some; congruence). lia.
    + intros w' EW. destruct (cp_grow _ _ _ C _ _ EW) as (x & EX & M). simpl in M. congruence.
  - destruct (P2 eq_refl) as (-> & -> & _). rewrite (O3 h EO). split; auto. split; [rewrite I1; apply f_equal, O3; auto|]. split; auto.
    intros w' EW. assert (length (cells h s) < length (cells h s)) by (apply nth_error_Some; congruence). lia.
Qed.
End Exec.
