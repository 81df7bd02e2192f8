(** * Render functions built from hooks are steady; proof-side only *)
From Coq Require Import String ZArith Bool Arith Lia List.
From Verif Require Import Dict LayoutTypes BodySpec DisplaySpec GuardSpec HooksModel.
Import ListNotations.
Local Open Scope string_scope.
Local Open Scope list_scope.

Lemma veq_refl v : veq v v = true.
Proof.
  destruct v; simpl; auto using Bool.eqb_reflx, Z.eqb_refl, String.eqb_refl.
  destruct (eq_dec v1 v1), (eq_dec v2 v2); congruence.
Qed.
Lemma same_deps_refl d : same_deps d d = true.
Proof. induction d; simpl; auto. rewrite veq_refl. auto. Qed.

Lemma memo_unchanged deps v : deps <> None -> memo_changed (memo_deps deps) (Some v) deps = false.
Proof. destruct deps as [d|]; [|congruence]. intros _. simpl. rewrite same_deps_refl. reflexivity. Qed.

(** What a run from slot [idx] leaves behind; and running again gives the same. *)
Definition again (h idx : nat) (b : body) : Prop :=
  forall first cells ctx r cells' ctx',
    idx <= length cells -> (first = true -> length cells = idx) ->
    prun h first cells ctx idx b = Some (r, cells', ctx', false) ->
    ctx' = ctx /\ length cells <= length cells' /\
    (forall i, i < idx -> nth_error cells' i = nth_error cells i) /\
    prun h false cells' ctx idx b = Some (r, cells', ctx, false).

Lemma upd_same {A} (l : list A) i x : nth_error l i = Some x -> upd l i x = l.
Proof. revert i; induction l; intros [|i] H; simpl in *; try discriminate; [congruence|]. f_equal; auto. Qed.
Lemma upd_upd {A} (l : list A) i x y : upd (upd l i x) i y = upd l i y.
Proof. revert i; induction l; intros [|i]; simpl; auto. f_equal; auto. Qed.

(** The content of a slot when it is used for the first time or again. *)
Lemma slot_step h idx init k first cells ctx r cells' ctx' :
  idx <= length cells -> (first = true -> length cells = idx) ->
  prun h first cells ctx idx (BUseCell init k) = Some (r, cells', ctx', false) ->
  exists c cells1, nth_error cells1 idx = Some c /\ length cells <= length cells1 /\ S idx <= length cells1 /\
    (first = true -> length cells1 = S idx) /\
    (forall i, i < idx -> nth_error cells1 i = nth_error cells i) /\
    prun h first cells1 ctx (S idx) (k h idx c) = Some (r, cells', ctx', false).
Proof.
  intros LE LF P. simpl in P. destruct first.
  - specialize (LF eq_refl). rewrite LF in P. exists init, (cells ++ [init]).
    split. { rewrite nth_error_app2 by lia. replace (idx - length cells) with 0 by lia. reflexivity. }
    rewrite app_length. simpl. split; [lia|]. split; [lia|]. split; [lia|]. split; [|exact P].
    intros i L. rewrite nth_error_app1 by lia. reflexivity.
  - destruct (nth_error cells idx) as [c|] eqn:E; [|discriminate]. exists c, cells.
    assert (idx < length cells) by (apply nth_error_Some; congruence).
    repeat split; auto; try lia; discriminate.
Qed.

(** Using a slot whose content [c] the call turns into [c'], with the same continuation for [c'] later. *)
Lemma again_slot h idx init (use : cell -> option cell) (next : cell -> body) (k : nat -> nat -> cell -> body) :
  (forall c, match use c with
             | None => forall first cells ctx r cells' ctx', nth_error cells idx = Some c ->
                   prun h first cells ctx (S idx) (k h idx c) <> Some (r, cells', ctx', false)
             | Some c' =>
                 again h (S idx) (next c') /\
                 use c' = Some c' /\
                 forall first cells ctx, nth_error cells idx = Some c ->
                   prun h first cells ctx (S idx) (k h idx c) = prun h first (upd cells idx c') ctx (S idx) (next c')
             end) ->
  again h idx (BUseCell init k).
Proof.
  intros SL first cells ctx r cells' ctx' LE LF P.
  destruct (slot_step _ _ _ _ _ _ _ _ _ _ LE LF P) as (c & cells1 & N1 & L1 & L2 & L3 & B1 & P1).
  specialize (SL c) as S0. destruct (use c) as [c'|] eqn:EU.
  - destruct S0 as (A & U' & K). rewrite (K _ _ _ N1) in P1.
    destruct (A first (upd cells1 idx c') ctx r cells' ctx') as (C1 & C2 & C3 & C4).
    { rewrite upd_length. exact L2. }
    { rewrite upd_length. exact L3. }
    { exact P1. }
    rewrite upd_length in C2. split; [exact C1|]. split; [lia|]. 
    assert (N' : nth_error cells' idx = Some c').
    { rewrite C3 by lia. apply nth_upd_same. lia. }
    split. { intros i Li. rewrite C3 by lia. rewrite nth_upd_other by lia. apply B1. exact Li. }
    simpl. rewrite N'. specialize (SL c'). rewrite U' in SL. destruct SL as (_ & _ & K').
    rewrite (K' _ _ _ N'). rewrite upd_same by exact N'. exact C4.
  - exfalso. eapply S0; [exact N1|exact P1].
Qed.

Lemma again_ret h idx r : again h idx (BRet r).
Proof. intros first cells ctx r0 cells' ctx' LE LF P. simpl in *. injection P as <- <- <-. repeat split; auto. Qed.
Lemma again_raise h idx m : again h idx (BRaise m).
Proof. intros first cells ctx r0 cells' ctx' LE LF P. discriminate. Qed.

Lemma again_state h idx init k : (forall v, again h (S idx) (k v (h, idx))) -> again h idx (use_state init k).
Proof.
  intros A. apply again_slot with (use := fun c => match c with CState v => Some c | _ => None end)
    (next := fun c => match c with CState v => k v (h, idx) | _ => BRaise "" end).
  intros c. destruct c as [v| | |]; try (intros; discriminate).
  split; [apply A|]. split; [reflexivity|]. intros first cells ctx N. rewrite upd_same by exact N. reflexivity.
Qed.
Lemma again_ref h idx init k : (forall v, again h (S idx) (k idx v)) -> again h idx (use_ref init k).
Proof.
  intros A. apply again_slot with (use := fun c => match c with CRef v => Some c | _ => None end)
    (next := fun c => match c with CRef v => k idx v | _ => BRaise "" end).
  intros c. destruct c as [ | |v| ]; try (intros; discriminate).
  split; [apply A|]. split; [reflexivity|]. intros first cells ctx N. rewrite upd_same by exact N. reflexivity.
Qed.
Lemma again_const h idx init k : (forall v, again h (S idx) (k v)) ->
  again h idx (BUseCell (CConst init) (fun _ _ c => match c with CConst d => k d | _ => BRaise "AttributeError" end)).
Proof.
  intros A. apply again_slot with (use := fun c => match c with CConst v => Some c | _ => None end)
    (next := fun c => match c with CConst v => k v | _ => BRaise "" end).
  intros c. destruct c as [ | | |v]; try (intros; discriminate).
  split; [apply A|]. split; [reflexivity|]. intros first cells ctx N. rewrite upd_same by exact N. reflexivity.
Qed.

Lemma again_memo h idx deps (f : val + string) k : (forall v, again h (S idx) (k v)) -> again h idx (use_memo deps f k).
Proof.
  intros A.
  pose (next := fun (c : cell) => match c with CMemo _ (Some v) => k v | _ => BRaise "" end).
  pose (use := fun (c : cell) =>
     match c with
     | CMemo md mv => if memo_changed md mv deps
                      then match f with inl v => Some (CMemo (memo_deps deps) (Some v)) | inr _ => None end
                      else Some c
     | _ => None
     end).
  apply again_slot with (use := use) (next := next).
  intros c. unfold use. destruct c as [ |md mv| | ]; try (intros; discriminate).
  destruct (memo_changed md mv deps) eqn:MC.
  - destruct f as [v|msg].
    + split; [apply A|]. split.
      * destruct deps as [d|]; [|reflexivity]. rewrite memo_unchanged by discriminate. reflexivity.
      * intros first cells ctx N. cbn [prun call]. rewrite upd_upd. reflexivity.
    + intros. cbn. discriminate.
  - destruct mv as [v|]; [|discriminate MC]. split; [apply A|]. split; [rewrite MC; reflexivity|].
    intros first cells ctx N. rewrite upd_same by exact N. reflexivity.
Qed.

Lemma again_callback h idx deps f k : (forall v, again h (S idx) (k v)) -> again h idx (use_callback deps f k).
Proof. intros A. exact (again_memo h idx deps (inl f) k A). Qed.
Lemma again_reducer h idx red init k : (forall v d, again h (S (S idx)) (k v d)) -> again h idx (use_reducer red init k).
Proof. intros A. apply again_state. intros v. apply again_const. auto. Qed.
Lemma again_context h idx c d k : (forall v, again h idx (k v)) -> again h idx (use_context c d k).
Proof. intros A first cells ctx r cells' ctx' LE LF P. simpl in *. eapply A in P; eauto. Qed.

Lemma again_dispatch h idx s u k : (fst s = h -> snd s < idx) -> again h idx k -> again h idx (BDispatch (fst s) (snd s) u k).
Proof.
  intros SC A first cells ctx r cells' ctx' LE LF P. cbn [prun] in P |- *.
  destruct (Nat.eq_dec (fst s) h) as [E|NE]; [|eapply A; eauto]. specialize (SC E).
  destruct (nth_error cells (snd s)) as [[v| | |]|] eqn:EN.
  - destruct (veq match u with UVal x => x | UFun f => f v end v) eqn:EV.
    + destruct (A _ _ _ _ _ _ LE LF P) as (A1 & A2 & A3 & A4). rewrite (A3 _ SC), EN, EV. auto.
    + destruct (prun h first (upd cells (snd s) (CState match u with UVal x => x | UFun f => f v end)) ctx idx k) as [[[[? ?] ?] ?]|]; discriminate.
  - destruct (A _ _ _ _ _ _ LE LF P) as (A1 & A2 & A3 & A4). rewrite (A3 _ SC), EN. auto.
  - destruct (A _ _ _ _ _ _ LE LF P) as (A1 & A2 & A3 & A4). rewrite (A3 _ SC), EN. auto.
  - destruct (A _ _ _ _ _ _ LE LF P) as (A1 & A2 & A3 & A4). rewrite (A3 _ SC), EN. auto.
  - exfalso. apply nth_error_None in EN. lia.
Qed.

(** Effects: the memo's slot is written after the references have been read. *)
Lemma again_effect h idx deps fn k : again h (S (S idx)) k -> again h idx (use_effect deps fn k).
Proof.
  intros A first cells ctx r cells' ctx' LE LF P.
  destruct (slot_step _ _ _ _ _ _ _ _ _ _ LE LF P) as (c & cells1 & N1 & L1 & L2 & L3 & B1 & P1). clear P.
  destruct c as [ |md mv| | ]; try discriminate P1.
  destruct (memo_changed md mv deps) eqn:MC.
  - cbn [prun] in P1. unfold use_ref in P1.
    destruct (slot_step _ _ _ _ _ _ _ _ _ _ ltac:(rewrite upd_length; exact L2) ltac:(rewrite upd_length; exact L3) P1)
      as (c & cells2 & N2 & L4 & L5 & L6 & B2 & P2). clear P1.
    destruct c as [ | |v| ]; try discriminate P2. cbn [prun] in P2. rewrite upd_length in L4.
    destruct (A first (upd cells2 idx (CMemo (memo_deps deps) (Some VNone))) ctx r cells' ctx') as (C1 & C2 & C3 & C4);
      [rewrite upd_length; exact L5|rewrite upd_length; exact L6|exact P2|].
    rewrite upd_length in C2. split; [exact C1|]. split; [lia|].
    split. { intros i Li. rewrite C3 by lia. rewrite nth_upd_other by lia. rewrite B2 by lia. rewrite nth_upd_other by lia. apply B1; lia. }
    assert (N' : nth_error cells' idx = Some (CMemo (memo_deps deps) (Some VNone))) by (rewrite C3 by lia; apply nth_upd_same; lia).
    assert (N'' : nth_error cells' (S idx) = Some (CRef v)) by (rewrite C3 by lia; rewrite nth_upd_other by lia; exact N2).
    unfold use_effect, use_memo_setup, use_ref. cbn [prun]. rewrite N'. destruct deps as [d|].
    + rewrite memo_unchanged by discriminate. cbn [prun]. rewrite N''. exact C4.
    + cbn [memo_changed]. cbn [prun]. rewrite (upd_same _ _ _ N'). rewrite N''. cbn [prun]. rewrite (upd_same _ _ _ N'). exact C4.
  - destruct mv as [w|]; [|discriminate MC]. unfold use_ref in P1.
    destruct (slot_step _ _ _ _ _ _ _ _ _ _ L2 L3 P1) as (c & cells2 & N2 & L4 & L5 & L6 & B2 & P2). clear P1.
    destruct c as [ | |v| ]; try discriminate P2. cbn [prun] in P2.
    destruct (A first cells2 ctx r cells' ctx' L5 L6 P2) as (C1 & C2 & C3 & C4).
    split; [exact C1|]. split; [lia|].
    split. { intros i Li. rewrite C3 by lia. rewrite B2 by lia. apply B1; lia. }
    assert (N' : nth_error cells' idx = Some (CMemo md (Some w))) by (rewrite C3 by lia; rewrite B2 by lia; exact N1).
    assert (N'' : nth_error cells' (S idx) = Some (CRef v)) by (rewrite C3 by lia; exact N2).
    unfold use_effect, use_memo_setup, use_ref. cbn [prun]. rewrite N', MC. cbn [prun]. rewrite N''. exact C4.
Qed.

Lemma again_async_effect h idx deps fn k : again h (S (S (S idx))) k -> again h idx (use_async_effect deps fn k).
Proof.
  intros A first cells ctx r cells' ctx' LE LF P.
  destruct (slot_step _ _ _ _ _ _ _ _ _ _ LE LF P) as (c & cells1 & N1 & L1 & L2 & L3 & B1 & P1). clear P.
  destruct c as [ |md mv| | ]; try discriminate P1.
  destruct (memo_changed md mv deps) eqn:MC.
  - cbn [prun] in P1. unfold use_ref in P1.
    destruct (slot_step _ _ _ _ _ _ _ _ _ _ ltac:(rewrite upd_length; exact L2) ltac:(rewrite upd_length; exact L3) P1)
      as (c & cells2 & N2 & L4 & L5 & L6 & B2 & P2). clear P1.
    destruct c as [ | |v| ]; try discriminate P2. rewrite upd_length in L4.
    destruct (slot_step _ _ _ _ _ _ _ _ _ _ L5 L6 P2) as (c & cells3 & N3 & L7 & L8 & L9 & B3 & P3). clear P2.
    destruct c as [ | |v2| ]; try discriminate P3. cbn [prun] in P3.
    destruct (A first (upd cells3 idx (CMemo (memo_deps deps) (Some VNone))) ctx r cells' ctx') as (C1 & C2 & C3 & C4);
      [rewrite upd_length; exact L8|rewrite upd_length; exact L9|exact P3|].
    rewrite upd_length in C2. split; [exact C1|]. split; [lia|].
    split. { intros i Li. rewrite C3 by lia. rewrite nth_upd_other by lia. rewrite B3, B2 by lia. rewrite nth_upd_other by lia. apply B1; lia. }
    assert (N' : nth_error cells' idx = Some (CMemo (memo_deps deps) (Some VNone))) by (rewrite C3 by lia; apply nth_upd_same; lia).
    assert (N'' : nth_error cells' (S idx) = Some (CRef v)) by (rewrite C3 by lia; rewrite nth_upd_other by lia; rewrite B3 by lia; exact N2).
    assert (N3' : nth_error cells' (S (S idx)) = Some (CRef v2)) by (rewrite C3 by lia; rewrite nth_upd_other by lia; exact N3).
    unfold use_async_effect, use_memo_setup, use_ref. cbn [prun]. rewrite N'. destruct deps as [d|].
    + rewrite memo_unchanged by discriminate. cbn [prun]. rewrite N''. cbn [prun]. rewrite N3'. exact C4.
    + cbn [memo_changed]. cbn [prun]. rewrite (upd_same _ _ _ N'). rewrite N''. cbn [prun]. rewrite N3'. cbn [prun]. rewrite (upd_same _ _ _ N'). exact C4.
  - destruct mv as [w|]; [|discriminate MC]. unfold use_ref in P1.
    destruct (slot_step _ _ _ _ _ _ _ _ _ _ L2 L3 P1) as (c & cells2 & N2 & L4 & L5 & L6 & B2 & P2). clear P1.
    destruct c as [ | |v| ]; try discriminate P2.
    destruct (slot_step _ _ _ _ _ _ _ _ _ _ L5 L6 P2) as (c & cells3 & N3 & L7 & L8 & L9 & B3 & P3). clear P2.
    destruct c as [ | |v2| ]; try discriminate P3. cbn [prun] in P3.
    destruct (A first cells3 ctx r cells' ctx' L8 L9 P3) as (C1 & C2 & C3 & C4).
    split; [exact C1|]. split; [lia|].
    split. { intros i Li. rewrite C3 by lia. rewrite B3, B2 by lia. apply B1; lia. }
    assert (N' : nth_error cells' idx = Some (CMemo md (Some w))) by (rewrite C3 by lia; rewrite B3, B2 by lia; exact N1).
    assert (N'' : nth_error cells' (S idx) = Some (CRef v)) by (rewrite C3 by lia; rewrite B3 by lia; exact N2).
    assert (N3' : nth_error cells' (S (S idx)) = Some (CRef v2)) by (rewrite C3 by lia; exact N3).
    unfold use_async_effect, use_memo_setup, use_ref. cbn [prun]. rewrite N', MC. cbn [prun]. rewrite N''. cbn [prun]. rewrite N3'. exact C4.
Qed.

Theorem compile_again h p : forall idx, scoped h idx p -> again h idx (compile p).
Proof.
  induction p; intros idx SC; simpl in SC; cbn [compile].
  - apply again_ret.
  - apply again_raise.
  - apply again_state. auto.
  - apply again_reducer. auto.
  - apply again_memo. auto.
  - apply again_callback. auto.
  - apply again_ref. auto.
  - apply again_context. auto.
  - apply again_effect. auto.
  - apply again_async_effect. auto.
  - destruct SC. apply again_dispatch; auto.
Qed.

Theorem compile_steady p : (forall h, scoped h 0 p) -> steady (compile p).
Proof.
  intros SC h first cells ctx r cells' ctx' FC P.
  destruct (compile_again h p 0 (SC h) first cells ctx r cells' ctx') as (C1 & C2 & C3 & C4); auto.
  { lia. }
  { intros F. rewrite (FC F). reflexivity. }
  subst ctx'. exists cells', ctx, false. exact C4.
Qed.

Theorem compile_no_provide p : no_provide (compile p).
Proof.
  induction p; cbn [compile]; simpl; auto.
  - intros h i [v|md mv|v|v]; simpl; auto.
  - intros h i [v|md mv|v|v]; simpl; auto. intros _ _ [ | | |d]; simpl; auto.
  - intros h i [v|md mv|v|v]; simpl; auto. destruct (memo_changed md mv deps); simpl; [destruct f; simpl; auto|destruct mv; simpl; auto].
  - intros h i [v|md mv|v|v]; simpl; auto. destruct (memo_changed md mv deps); simpl; [auto|destruct mv; simpl; auto].
  - intros h i [v|md mv|v|v]; simpl; auto.
  - intros h i [v|md mv|v|v]; simpl; auto. destruct (memo_changed md mv deps); simpl.
    + intros _ j [ | |w| ]; simpl; auto.
    + intros _ j [ | |w| ]; simpl; auto. destruct mv; simpl; auto.
  - intros h i [v|md mv|v|v]; simpl; auto. destruct (memo_changed md mv deps); simpl.
    + intros _ j [ | |w| ]; simpl; auto. intros _ j2 [ | |w2| ]; simpl; auto.
    + intros _ j [ | |w| ]; simpl; auto. intros _ j2 [ | |w2| ]; simpl; auto. destruct mv; simpl; auto.
Qed.
