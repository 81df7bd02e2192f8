(** * Facts about child keys, event targets and None children; proof-side only *)
From Coq Require Import String Ascii ZArith Bool Arith Lia List.
From Verif Require Import Dict Strings LayoutTypes LayoutModel BodySpec DisplaySpec GuardSpec LayoutHandlers.
Import ListNotations.
Local Open Scope string_scope.
Local Open Scope list_scope.

(** ** Targets *)

(** The automatic target of an event on the element reached by a path of keys. *)
Definition auto_target (ks : list key) (ev : string) : string :=
  target_of (fold_left (fun kp k => sub_keypath kp (Some k)) ks "") ev (Handler 0 false false None None None).


Lemma keypath_inj ks1 : forall ks2 kp, Forall (nochar slash) (map show_key ks1) -> Forall (nochar slash) (map show_key ks2) ->
  fold_left (fun kp k => sub_keypath kp (Some k)) ks1 kp = fold_left (fun kp k => sub_keypath kp (Some k)) ks2 kp ->
  map show_key ks1 = map show_key ks2.
Proof.
  assert (EXT : forall ks kp, exists r, fold_left (fun kp k => sub_keypath kp (Some k)) ks kp = (kp ++ r)%string /\ starts slash r).
  { induction ks as [|k ks IH]; intros kp; simpl.
    - exists "". rewrite app_nil_s. split; auto. left; auto.
    - destruct (IH (sub_keypath kp (Some k))) as (r & E & _). rewrite E. unfold sub_keypath. rewrite !app_assoc_s. eexists. split; [reflexivity|].
      right. simpl. eauto. }
  induction ks1 as [|k1 ks1 IH]; intros [|k2 ks2] kp F1 F2 E; simpl in *; auto.
  - exfalso. destruct (EXT ks2 (sub_keypath kp (Some k2))) as (r & E2 & _). rewrite E2 in E.
    unfold sub_keypath in E. rewrite !app_assoc_s in E. rewrite <- (app_nil_s kp) in E at 1. apply app_inj_l in E. discriminate.
  - exfalso. destruct (EXT ks1 (sub_keypath kp (Some k1))) as (r & E2 & _). rewrite E2 in E.
    unfold sub_keypath in E. rewrite !app_assoc_s in E. rewrite <- (app_nil_s kp) in E at 2. apply app_inj_l in E. discriminate.
  - inversion F1 as [|? ? N1 F1']; subst. inversion F2 as [|? ? N2 F2']; subst.
    destruct (EXT ks1 (sub_keypath kp (Some k1))) as (r1 & E1 & S1). destruct (EXT ks2 (sub_keypath kp (Some k2))) as (r2 & E2 & S2).
    assert (X := E). rewrite E1, E2 in X. unfold sub_keypath in X. rewrite !app_assoc_s in X. apply app_inj_l in X. simpl in X. injection X as X.
    destruct (split_first slash _ _ _ _ X N1 N2 S1 S2) as [EK _]. f_equal; auto.
    apply (IH ks2 (sub_keypath kp (Some k1))); auto. rewrite E. unfold sub_keypath. rewrite EK. reflexivity.
Qed.

Lemma auto_target_inj ks1 ev1 ks2 ev2 :
  Forall (nochar slash) (map show_key ks1) -> Forall (nochar slash) (map show_key ks2) ->
  nochar colon ev1 -> nochar colon ev2 ->
  auto_target ks1 ev1 = auto_target ks2 ev2 -> map show_key ks1 = map show_key ks2 /\ ev1 = ev2.
Proof.
  intros F1 F2 N1 N2 E. unfold auto_target, target_of in E. simpl in E. apply (split_last colon) in E; auto. destruct E as [E ->].
  split; auto. eapply keypath_inj; eauto.
Qed.

(** ** Duplicate keys *)

Lemma has_duplicates_NoDup ks : has_duplicates ks = false <-> NoDup ks.
Proof.
  induction ks as [|k ks IH]; simpl.
  - split; auto. constructor.
  - destruct (mem k ks) eqn:E.
    + split; [discriminate|]. intros ND. inversion ND as [|? ? NI _]; subst. apply mem_In in E. contradiction.
    + rewrite IH. apply mem_not_In in E. split; [constructor; auto|]. intros ND. inversion ND; auto.
Qed.

Lemma keys_from_In l : forall i k, In k (keys_from i l) <-> exists j b, nth_error l j = Some b /\ b <> RNone /\ effective_key (i + j) b = k.
Proof.
  induction l as [|r l IH]; intros i k; cbn [keys_from].
  - split; [intros []|]. intros ([|j] & b & E & _); discriminate.
  - assert (R : In k (keys_from (S i) l) <-> exists j b, nth_error (r :: l) (S j) = Some b /\ b <> RNone /\ effective_key (i + S j) b = k).
    { rewrite IH. split; intros (j & b & E & NB & EK); exists j, b; (split; [exact E|]; split; [exact NB|]); rewrite <- EK; f_equal; lia. }
    destruct r eqn:Er.
    + rewrite R. split; [intros (j & b & E & NB & EK); exists (S j), b; auto|]. intros ([|j] & b & E & NB & EK); [injection E as <-; contradiction|eauto].
    + rewrite <- Er in *. assert (NR : r <> RNone) by (subst; discriminate). cbn [In]. rewrite R. split.
      * intros [E|(j & b & E & NB & EK)]; [exists 0, r|exists (S j), b]; rewrite ?Nat.add_0_r; auto.
      * intros ([|j] & b & E & NB & EK); [left; injection E as <-; rewrite Nat.add_0_r in EK; auto|right; eauto].
    + rewrite <- Er in *. assert (NR : r <> RNone) by (subst; discriminate). cbn [In]. rewrite R. split.
      * intros [E|(j & b & E & NB & EK)]; [exists 0, r|exists (S j), b]; rewrite ?Nat.add_0_r; auto.
      * intros ([|j] & b & E & NB & EK); [left; injection E as <-; rewrite Nat.add_0_r in EK; auto|right; eauto].
    + rewrite <- Er in *. assert (NR : r <> RNone) by (subst; discriminate). cbn [In]. rewrite R. split.
      * intros [E|(j & b & E & NB & EK)]; [exists 0, r|exists (S j), b]; rewrite ?Nat.add_0_r; auto.
      * intros ([|j] & b & E & NB & EK); [left; injection E as <-; rewrite Nat.add_0_r in EK; auto|right; eauto].
Qed.

Lemma keys_from_cons i r l : r <> RNone -> keys_from i (r :: l) = effective_key i r :: keys_from (S i) l.
Proof. destruct r; intros N; try reflexivity. contradiction. Qed.

Definition clash_from (i : nat) (l : list raw) : Prop :=
  exists j1 j2 a b, j1 < j2 /\ nth_error l j1 = Some a /\ nth_error l j2 = Some b /\ a <> RNone /\ b <> RNone /\
                    effective_key (i + j1) a = effective_key (i + j2) b.

Lemma NoDup_clash l : forall i, NoDup (keys_from i l) <-> ~ clash_from i l.
Proof.
  induction l as [|r l IH]; intros i.
  - split; [|constructor]. intros _ ([|j1] & j2 & a & b & _ & E & _); discriminate.
  - assert (SH : clash_from (S i) l -> clash_from i (r :: l)).
    { intros (j1 & j2 & a & b & LT & E1 & E2 & N1 & N2 & EK). exists (S j1), (S j2), a, b. rewrite !Nat.add_succ_r. repeat split; auto; lia. }
    assert (D : r = RNone \/ r <> RNone) by (destruct r; [left; reflexivity|right; discriminate..]).
    destruct D as [->|NR].
    + cbn [keys_from]. rewrite IH. split; [|tauto]. intros NC (j1 & j2 & a & b & LT & E1 & E2 & N1 & N2 & EK). apply NC.
      destruct j1 as [|j1]; [injection E1 as <-; contradiction|]. destruct j2 as [|j2]; [lia|].
      exists j1, j2, a, b. rewrite !Nat.add_succ_r in EK. repeat split; auto; lia.
    + rewrite keys_from_cons by auto. split.
      * intros ND. inversion ND as [|? ? NI ND']; subst. apply IH in ND'. intros (j1 & j2 & a & b & LT & E1 & E2 & N1 & N2 & EK).
        destruct j2 as [|j2]; [lia|]. destruct j1 as [|j1].
        -- injection E1 as <-. apply NI. apply keys_from_In. exists j2, b. rewrite Nat.add_0_r in EK. rewrite Nat.add_succ_r in EK. auto.
        -- apply ND'. exists j1, j2, a, b. rewrite !Nat.add_succ_r in EK. repeat split; auto; lia.
      * intros NC. constructor; [|apply IH; auto]. intros J. apply keys_from_In in J. destruct J as (j & b & E & NB & EK). apply NC.
        exists 0, (S j), r, b. rewrite Nat.add_0_r, Nat.add_succ_r. repeat split; auto; lia.
Qed.

Lemma clash_info l : ~ clash l <-> snd (get_children_info l) = Some (keys_from 0 l).
Proof.
  change (clash l) with (clash_from 0 l). rewrite <- NoDup_clash, <- has_duplicates_NoDup. unfold get_children_info. simpl.
  rewrite <- keys_infos. destruct (has_duplicates (keys_from 0 l)); split; congruence.
Qed.

Lemma no_clash_accepted l : ~ clash l <-> snd (get_children_info l) = Some (keys_from 0 l).
Proof. apply clash_info. Qed.

Lemma clash_raises debug defs fuel old new l s : clash l ->
  render_children debug defs (S fuel) old new l s = (Raise EDuplicateKeys, s).
Proof.
  intros C. cbn [render_children]. unfold get_children_info.
  destruct (has_duplicates (map snd (children_infos 0 l))) eqn:E; [reflexivity|].
  exfalso. rewrite <- keys_infos in E. apply has_duplicates_NoDup in E. apply NoDup_clash in E. apply E. exact C.
Qed.

(** ** None children *)

Lemma infos_app a b : forall i, children_infos i (a ++ b) = children_infos i a ++ children_infos (i + length a) b.
Proof.
  induction a as [|r a IH]; intros i; simpl; [f_equal; lia|].
  rewrite IH. replace (S i + length a) with (i + S (length a)) by lia.
  destruct (child_info r) as [[kd [k|]]|]; reflexivity.
Qed.

Lemma none_keeps_siblings l1 r l2 : exists a x b,
  length x <= 1 /\
  fst (get_children_info (l1 ++ r :: l2)) = a ++ x ++ b /\
  fst (get_children_info (l1 ++ RNone :: l2)) = a ++ b.
Proof.
  exists (children_infos 0 l1), (children_infos (length l1) [r]), (children_infos (S (length l1)) l2). split; [|split].
  - simpl. destruct (child_info r) as [[kd [k|]]|]; simpl; lia.
  - simpl. rewrite infos_app. f_equal. simpl. destruct (child_info r) as [[kd [k|]]|]; reflexivity.
  - simpl. rewrite infos_app. reflexivity.
Qed.

Lemma displays_app outputs env l2 l1 : forall i ms ns bs,
  displays_all outputs env i (l1 ++ l2) ms ns bs <->
  exists ms1 ns1 bs1 ms2 ns2 bs2,
    displays_all outputs env i l1 ms1 ns1 bs1 /\ displays_all outputs env (i + length l1) l2 ms2 ns2 bs2 /\
    ms = ms1 ++ ms2 /\ ns = ns1 ++ ns2 /\ bs = bs1 ++ bs2.
Proof.
  induction l1 as [|r l1 IH]; intros i ms ns bs; simpl.
  - rewrite Nat.add_0_r. split.
    + intros D. exists [], [], [], ms, ns, bs. repeat split; auto. constructor.
    + intros (ms1 & ns1 & bs1 & ms2 & ns2 & bs2 & D1 & D2 & -> & -> & ->). inversion D1; subst. exact D2.
  - rewrite Nat.add_succ_r. split.
    + intros D. inversion D as [|? ? ? ? ? ? X|? ? ? ? ? ? ? X|? ? ? ? m ms' n ns' b bs' Y X]; subst;
      apply IH in X; destruct X as (ms1 & ns1 & bs1 & ms2 & ns2 & bs2 & D1 & D2 & -> & -> & ->).
      * exists ms1, ns1, bs1, ms2, ns2, bs2. repeat split; auto. constructor; auto.
      * exists (MText s :: ms1), ns1, bs1, ms2, ns2, bs2. repeat split; auto. constructor; auto.
      * exists (m :: ms1), ((effective_key i r, n) :: ns1), (b ++ bs1), ms2, ns2, bs2. rewrite <- app_assoc. repeat split; auto. constructor; auto.
    + intros (ms1 & ns1 & bs1 & ms2 & ns2 & bs2 & D1 & D2 & -> & -> & ->).
      inversion D1 as [|? ? ? ? ? ? X|? ? ? ? ? ? ? X|? ? ? ? m ms' n ns' b bs' Y X]; subst; simpl.
      * constructor. apply IH. eauto 12.
      * constructor. apply IH. eauto 12.
      * rewrite <- app_assoc. constructor; auto. apply IH. eauto 12.
Qed.

Lemma none_not_displayed outputs env l1 l2 ms ns bs :
  displays_all outputs env 0 (l1 ++ RNone :: l2) ms ns bs <->
  exists ms1 ns1 bs1 ms2 ns2 bs2,
    displays_all outputs env 0 l1 ms1 ns1 bs1 /\ displays_all outputs env (S (length l1)) l2 ms2 ns2 bs2 /\
    ms = ms1 ++ ms2 /\ ns = ns1 ++ ns2 /\ bs = bs1 ++ bs2.
Proof.
  rewrite displays_app. simpl.
  assert (X : forall ms2 ns2 bs2, displays_all outputs env (length l1) (RNone :: l2) ms2 ns2 bs2 <-> displays_all outputs env (S (length l1)) l2 ms2 ns2 bs2).
  { intros. split; [|constructor; auto]. intros D. inversion D as [|? ? ? ? ? ? X|? ? ? ? ? ? ? X|? ? ? ? ? ? ? ? ? ? Y X]; subst; auto. inversion Y. }
  split; intros (ms1 & ns1 & bs1 & ms2 & ns2 & bs2 & D1 & D2 & E); exists ms1, ns1, bs1, ms2, ns2, bs2; (split; [exact D1|split; [apply X; exact D2|exact E]]).
Qed.

(** ** Targets of a displayed model *)

Lemma displays_targets outputs : forall env r m n b, displays outputs env r m n b -> model_targets m = dkeys b.
Proof.
  fix IH 6. intros env r m n b D.
  assert (KL : forall env i l ms ns bs, displays_all outputs env i l ms ns bs -> flat_map model_targets ms = dkeys bs).
  { fix IHl 7. intros env0 i l ms ns bs DA. destruct DA as [|? ? ? ? ? ? DA'|? ? ? ? ? ? ? DA'|? ? ? ? ? ? ? ? ? ? DD DA']; simpl; auto.
    - eapply IHl; eauto.
    - eapply IHl; eauto.
    - unfold dkeys. rewrite map_app. f_equal; [eapply IH; eauto|eapply IHl; eauto]. }
  destruct D as [env tag attrs hs js imp ch attrs' eh own ms ns bs SA SH DA|env c h out ms ns bs OUT DA|env c h e text OUT]; simpl.
  - unfold dkeys. rewrite map_app. f_equal.
    + destruct SH as [E1 ->]. destruct hs as [|x hs]; [destruct own; [reflexivity|discriminate]|].
      rewrite map_map. simpl hj_target. generalize dependent (x :: hs). clear. intros hs. revert own.
      induction hs as [|y hs IH]; intros [|o own] E; try discriminate; auto. simpl in *. injection E as _ E. f_equal. apply IH; auto.
    + destruct ch as [[|y l]|]; [inversion DA; reflexivity|apply KL in DA; exact DA|inversion DA; reflexivity].
  - eapply KL; eauto.
  - reflexivity.
Qed.
