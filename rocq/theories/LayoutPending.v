(** * Pending renders; proof-side only *)
From Coq Require Import String ZArith Bool Arith Lia List Permutation.
From Verif Require Import Dict LayoutTypes LayoutModel BodySpec DisplaySpec LayoutObs LayoutTree LayoutDeriv LayoutExec
  LayoutFacts LayoutSettled LayoutShape LayoutOps LayoutNoCrash LayoutStep LayoutInv LayoutMain.
Import ListNotations.
Local Open Scope string_scope.
Local Open Scope list_scope.

Definition sched_ok (x : nat) (s : st) : Prop := hk_sched (get_hook x s) = true -> In x (s_queue s).

Record Jp (s s' : st) : Prop := {
  j_sched : forall x, sched_ok x s -> sched_ok x s';
  j_queue : forall x, In x (s_queue s) -> In x (s_queue s');
  j_nodup : NoDup (s_queue s) -> NoDup (s_queue s');
  j_len : length (s_hooks s) <= length (s_hooks s')
}.

Lemma Jp_refl s : Jp s s.
Proof. constructor; auto. Qed.
Lemma Jp_trans a b c : Jp a b -> Jp b c -> Jp a c.
Proof. intros [A1 A2 A3 A4] [B1 B2 B3 B4]. constructor; auto. lia. Qed.
Lemma Jp_same s s' : s_hooks s' = s_hooks s -> s_queue s' = s_queue s -> Jp s s'.
Proof. intros A B. constructor; unfold sched_ok, get_hook; rewrite ?A, ?B; auto. Qed.

(** Changing a hook without setting its flag. *)
Lemma Jp_put h x s : (hk_sched x = true -> hk_sched (get_hook h s) = true) -> Jp s (put_hook h x s).
Proof.
  intros A. constructor; auto; [|simpl; rewrite upd_length; auto]. intros y SY. unfold sched_ok in *. simpl.
  destruct (Nat.eq_dec h y) as [<-|NE]; [|rewrite get_put_other by auto; exact SY].
  destruct (Nat.lt_ge_cases h (length (s_hooks s))) as [L|G].
  - rewrite get_put_same by auto. auto.
  - rewrite get_beyond by (simpl; rewrite upd_length; auto). discriminate.
Qed.
Lemma Jp_schedule h s : Jp s (schedule_render h s).
Proof.
  unfold schedule_render. destruct (hk_sched (get_hook h s)) eqn:E; [apply Jp_refl|].
  constructor; simpl; try (rewrite upd_length; auto; fail).
  - intros x SX. unfold sched_ok in *. simpl. intros F. apply queue_put_In. destruct (Nat.eq_dec h x) as [<-|NE]; [auto|].
    right. apply SX. rewrite get_put_other in F by auto. exact F.
  - intros x J. apply queue_put_In. auto.
  - intros ND. unfold queue_put. destruct (mem h (s_queue s)) eqn:M; auto. apply NoDup_snoc; auto. apply mem_not_In; auto.
Qed.
Lemma Jp_dispatch h i u s : Jp s (dispatch h i u s).
Proof.
  unfold dispatch. destruct (nth_error _ _) as [[v| | |]|]; try apply Jp_refl. destruct (veq _ _); [apply Jp_refl|].
  eapply Jp_trans; [|apply Jp_schedule]. apply Jp_put. auto.
Qed.
Lemma Jp_env s o : Jp s (env_step s o).
Proof.
  destruct o; simpl; [apply Jp_dispatch|]. unfold record_seq.
  destruct (0 <=? seq)%Z; [|apply Jp_refl]. destruct (_ <? _)%Z; [apply Jp_same; auto|apply Jp_refl].
Qed.
Lemma Jp_pause s u s' : pause s = (u, s') -> Jp s s'.
Proof.
  intros H; inversion H; subst. clear H. destruct (s_env s) as [|b bs]; [apply Jp_refl|].
  apply Jp_trans with (set_env bs s); [apply Jp_same; auto|].
  generalize (set_env bs s). induction b; simpl; intros; [apply Jp_refl|]. eapply Jp_trans; [apply Jp_env|auto].
Qed.
Lemma Jp_run_body h b : pres Jp (run_body h b).
Proof.
  induction b; simpl; pres_tac Jp Jp_refl Jp_trans; try apply H; auto.
  - intros s r s'. unfold use_cell. destruct (hk_once _) eqn:E.
    + destruct (nth_error _ _); intros X; inversion X; subst; [|apply Jp_refl]. apply Jp_put; auto.
    + intros X; inversion X; subst. apply Jp_put; auto.
  - apply pres_modify. intros; apply Jp_put; auto.
  - apply pres_modify. intros; apply Jp_put; auto.
  - apply pres_modify. intros; apply Jp_put; auto.
  - apply pres_modify. intros; apply Jp_dispatch.
Qed.
Lemma Jp_will_render h s u s' : will_render h s = (u, s') -> Jp s s' /\ hk_sched (get_hook h s') = false.
Proof.
  unfold will_render, bind. destruct (pause s) as [[v|e|] s1] eqn:Hp; try (intros X; inversion X; fail).
  2,3: unfold pause, modify in Hp; inversion Hp.
  apply Jp_pause in Hp. cbn [modify]. unfold modify, set_current, modify. intros X. inversion X; subst. clear X.
  set (k := get_hook h s1). set (s2 := put_hook h (Hook (hk_cells k) (hk_idx k) (hk_once k) false (hk_effects k) (hk_ctx k)) s1).
  assert (J2 : Jp s1 s2) by (apply Jp_put; discriminate).
  assert (F2 : hk_sched (get_hook h s2) = false).
  { destruct (Nat.lt_ge_cases h (length (s_hooks s1))) as [L|G]; unfold s2.
    - rewrite get_put_same by auto. auto.
    - rewrite get_beyond by (simpl; rewrite upd_length; auto). reflexivity. }
  fold s2. change (s_stack s1) with (s_stack s2).
  destruct (s_stack s2) as [|p l].
  - split; [|exact F2]. eapply Jp_trans; [exact Hp|]. eapply Jp_trans; [exact J2|]. apply Jp_same; auto.
  - set (k2 := get_hook h s2) in *.
    set (s3 := put_hook h (Hook (hk_cells k2) (hk_idx k2) (hk_once k2) (hk_sched k2) (hk_effects k2) (dupdate (hk_ctx k2) (hk_ctx (get_hook p s2)))) s2).
    assert (J3 : Jp s2 s3) by (apply Jp_put; auto).
    split.
    + eapply Jp_trans; [exact Hp|]. eapply Jp_trans; [exact J2|]. eapply Jp_trans; [exact J3|]. apply Jp_same; auto.
    + change (hk_sched (get_hook h s3) = false). destruct (Nat.lt_ge_cases h (length (s_hooks s2))) as [L|G]; unfold s3.
      * rewrite get_put_same by auto. exact F2.
      * rewrite get_beyond by (simpl; rewrite upd_length; auto). reflexivity.
Qed.
Lemma Jp_enter defs h c s r s' : enter defs h c s r s' -> Jp s s' /\ sched_ok h s'.
Proof.
  intros (a & x & s1 & W & R & EN).
  assert (J3 : Jp s1 s' /\ (sched_ok h s1 -> sched_ok h s')).
  { destruct r; simpl in EN; destruct EN as [_ ->]; (split; [apply Jp_same; auto|auto]). }
  destruct J3 as [J3 K3].
  apply Jp_will_render in W. destruct W as [J F]. apply Jp_run_body in R.
  assert (J2 : Jp a (set_log (s_log a ++ [EvRender h]) (set_exit (h :: s_exit a) a))) by (apply Jp_same; auto).
  split; [eapply Jp_trans; [exact J|eapply Jp_trans; [exact J2|eapply Jp_trans; eauto]]|]. apply K3.
  apply (j_sched _ _ R). unfold sched_ok. change (get_hook h (set_log _ _)) with (get_hook h a). congruence.
Qed.
Lemma Jp_did h s s' : did_render h s = (Ok tt, s') -> Jp s s'.
Proof.
  unfold did_render, bind, unset_current. destruct (s_stack s); [discriminate|].
  destruct (Nat.eq_dec n h); [|discriminate]. unfold modify. intros X; inversion X; subst.
  eapply Jp_trans; [|apply Jp_put; auto]. apply Jp_same; auto.
Qed.
Lemma Jp_um s ts s' : um s ts s' -> Jp s s'.
Proof.
  assert (D : forall ts s s', del_handlers ts s = (Ok tt, s') -> Jp s s').
  { induction ts0; simpl; intros s0 s0' X; [inversion X; subst; apply Jp_refl|].
    destruct (dmem a (s_eh s0)); [|discriminate]. eapply Jp_trans; [|eapply IHts0; exact X]. apply Jp_same; auto. }
  induction 1 as [s|s m k tag imp attrs js kp hs has kids ts s1 s' Hd Hu IH|s m k h c out kids ts s1 s2 s' Hr Hw Hu IH].
  - apply Jp_refl.
  - eapply Jp_trans; [eapply D; eauto|exact IH].
  - unfold del_reg in Hr. destruct (dmem h (s_reg s)); [|discriminate]. injection Hr as <-.
    unfold will_unmount, bind, log, modify in Hw. apply Jp_pause in Hw.
    eapply Jp_trans; [|exact IH]. eapply Jp_trans; [|exact Hw]. apply Jp_same; auto.
Qed.
Lemma Jp_del ts : forall s s', del_handlers ts s = (Ok tt, s') -> Jp s s'.
Proof.
  induction ts; simpl; intros s0 s0' X; [inversion X; subst; apply Jp_refl|].
  destruct (dmem a (s_eh s0)); [|discriminate]. eapply Jp_trans; [|eapply IHts; exact X]. apply Jp_same; auto.
Qed.

Lemma Jp_newhook s : Jp s (set_hooks (s_hooks s ++ [no_hook]) s).
Proof.
  constructor; auto; [|simpl; rewrite app_length; lia]. intros x SX. unfold sched_ok in *. simpl. intros F. apply SX.
  unfold get_hook in *. simpl in F. destruct (Nat.lt_ge_cases x (length (s_hooks s))) as [L|G].
  - rewrite app_nth1 in F by auto. exact F.
  - rewrite app_nth2 in F by auto. destruct (x - length (s_hooks s)) as [|[|]]; discriminate.
Qed.

Section Pend.
Variable defs : nat -> val -> list raw -> body.

Lemma told_Jp s told s0 (P : tree -> Prop) :
  told = None /\ s0 = s \/ (exists t : tree, told = Some t /\ P t /\ um s [t] s0) -> Jp s s0.
Proof. intros [[_ ->]|(t & _ & _ & U)]; [apply Jp_refl|eapply Jp_um; eauto]. Qed.

Lemma render_Jp :
  (forall s told k c s' t, rc defs s told k c s' t -> Jp s s') /\
  (forall s told k r s' t, rm defs s told k r s' t -> Jp s s') /\
  (forall s okids raws s' kids, rk defs s okids raws s' kids -> Jp s s') /\
  (forall s okids infos s' kids, rl defs s okids infos s' kids -> Jp s s').
Proof.
  apply (render_deriv_ind defs (fun s told k c s' t _ => Jp s s') (fun s told k r s' t _ => Jp s s')
    (fun s okids raws s' kids _ => Jp s s') (fun s okids infos s' kids _ => Jp s s')).
  - intros s told k c s0 h m s2 r s3 kids s' D Eh EN RK IH DR.
    apply Jp_trans with s0; [exact (told_Jp _ _ _ _ D)|]. eapply Jp_trans; [|eapply Jp_trans; [exact (proj1 (Jp_enter _ _ _ _ _ _ EN))|eapply Jp_trans; [exact IH|exact (Jp_did _ _ _ DR)]]].
    eapply Jp_trans; [apply Jp_newhook|]. apply Jp_same; auto.
  - intros s m0 k h c0 out0 okids c m s2 r s3 kids s' ET EN FO RK IH DR.
    eapply Jp_trans; [|eapply Jp_trans; [exact (proj1 (Jp_enter _ _ _ _ _ _ EN))|eapply Jp_trans; [exact IH|exact (Jp_did _ _ _ DR)]]]. apply Jp_same; auto.
  - intros s told k tag attrs hs js imp ch s0 m kp kids s' D RK IH.
    apply Jp_trans with s0; [exact (told_Jp _ _ _ _ D)|]. eapply Jp_trans; [|exact IH]. apply Jp_same; auto.
  - intros s m0 k tag0 imp0 attrs0 js0 kp0 hs0 has0 okids tag attrs hs js imp ch s0 m kp kids s' D RK IH.
    eapply Jp_trans; [eapply Jp_del; eauto|]. eapply Jp_trans; [|exact IH]. apply Jp_same; auto.
  - intros s okids raws s1 s' kids ND U RL IH. eapply Jp_trans; [eapply Jp_um; eauto|exact IH].
  - intros. apply Jp_refl.
  - intros s okids r k rest s1 t s' ts RM IHm RL IHl. eapply Jp_trans; eauto.
  - intros s okids c k rest s1 t s' ts RM IHm RL IHl. eapply Jp_trans; eauto.
  - intros s okids x k rest s1 s' ts U RL IHl. eapply Jp_trans; [eapply Jp_um; eauto|exact IHl].
Qed.

(** The re-rendered component has no unqueued request. *)
Lemma rc_sched s m0 k h c0 out0 okids c s' t :
  rc defs s (Some (TComp m0 k h c0 out0 okids)) k c s' t -> ci_type c0 = ci_type c -> sched_ok h s'.
Proof.
  intros R E. inversion R; subst.
  - match goal with HH : _ \/ _ |- _ => destruct HH as [[X _]|(t0 & X & NS & _)] end; [discriminate|].
    injection X as <-. exfalso. apply NS. exact E.
  - match goal with EN : enter _ _ _ _ _ _ |- _ => apply Jp_enter in EN; destruct EN as [_ EN] end.
    match goal with DR : did_render _ _ = _ |- _ => apply Jp_did in DR; apply (j_sched _ _ DR) end.
    destruct render_Jp as (_ & _ & RK & _).
    match goal with RR : rk _ _ _ _ _ _ |- _ => apply RK in RR; apply (j_sched _ _ RR) end. assumption.
Qed.

Variable root : cinst.
Notation Inv := (Inv root).
Notation stepped := (stepped defs).

Record Pend (s : st) (T : tree) : Prop := {
  p_nodup : NoDup (s_queue s);
  p_sched : forall x, In x (hids T) -> sched_ok x s
}.

Lemma Pend_init : Pend (init root) (T0 root).
Proof. constructor; simpl; [repeat constructor; intros []|]. intros x [<-|[]]. intros _. left; auto. Qed.

(** What one step does to the queue. *)
Lemma stepped_Pend s T o s' T' : Inv s T -> Pend s T -> stepped s T o s' T' ->
  Pend s' T' /\
  forall x, In x (s_queue s) -> In x (hids T) ->
    In x (s_queue s') \/ exists l, s_log s' = s_log s ++ l /\ In x (rendered l).
Proof.
  intros IV [PN PS] SP. destruct SP as [e|bs s' SV|bs p m s' T' SV].
  - pose proof (Jp_env s e) as [J1 J2 J3 J4]. split; [constructor; auto|]. intros; left; auto.
  - inversion SV; subst.
    assert (NQ : forall x, In x (hids T) -> ~ In x (s_queue s)).
    { intros x J K. match goal with HH : forall x, In x _ -> _ = None |- _ => specialize (HH _ K) end. simpl in *.
      rewrite (i_reg _ _ _ IV) in *. match goal with HH : dget _ (cregs _) = None |- _ => apply cregs_None in HH; apply HH end. exact J. }
    split; [constructor|].
    + simpl. constructor.
    + intros x J F. exfalso. apply (NQ x J). apply (PS x J). exact F.
    + intros x K J. exfalso. apply (NQ x J K).
  - assert (IV' : Inv (set_env bs s) T) by (apply Inv_env; exact IV). inversion SV; subst.
    match goal with RC : rc _ _ (Some ?td) _ _ _ _ |- _ => set (told := td) in *; rename RC into RCT end.
    match goal with HH : s_queue _ = skips ++ _ |- _ => rename HH into QE; simpl in QE end.
    match goal with HH : forall x, In x skips -> _ |- _ => rename HH into SK; simpl in SK end.
    destruct render_Jp as (RJ & _). pose proof (RJ _ _ _ _ _ _ RCT) as [J1 J2 J3 J4].
    pose proof (rc_sched _ _ _ _ _ _ _ _ _ _ RCT eq_refl) as SH.
    destruct (sv_facts defs root (set_env bs s) (plug C told) skips h q' C m0 (tkey t) c out kids t s2 s3 IV' eq_refl RCT ltac:(assumption)) as (_ & _ & _ & F4 & _ & _ & F7 & F8 & F9).
    assert (HE : E (N (before (set_env bs s) skips q')) (comps told) (comps t) (N s2)) by (eapply sv_E; [exact IV'|reflexivity|exact RCT]).
    assert (Q1 : forall x, In x (s_queue s) -> In x (hids (plug C told)) -> x = h \/ In x q').
    { intros x K J. rewrite QE in K. apply in_app_iff in K. destruct K as [K|[K|K]]; auto. exfalso. specialize (SK x K).
      rewrite (i_reg _ _ _ IV) in SK. apply cregs_None in SK. apply SK. exact J. }
    assert (S3 : forall x, sched_ok x s2 -> sched_ok x s3).
    { intros x SX. destruct (F9 x) as (_ & _ & _ & H4 & _). unfold sched_ok in *. rewrite H4, F4. exact SX. }
    split; [constructor|].
    + simpl. rewrite F4. change (NoDup (s_queue (N s2))). apply J3. simpl. rewrite QE in PN. apply NoDup_app_r in PN. inversion PN; auto.
    + intros x J. apply S3. destruct (Nat.eq_dec x h) as [->|NE]; [exact SH|]. change (sched_ok x (N s2)). apply J1.
      unfold sched_ok. simpl. intros F. apply (hids_plug_iff defs C told t (i_nodup _ _ _ IV)) in J.
      assert (O : In x (hids (plug C told)) \/ length (s_hooks s) <= x).
      { destruct J as [[J _]|J]; auto. destruct (e_fresh _ _ _ _ HE x J) as [K|K]; [left|right; simpl in K; lia].
        rewrite hids_plug, !in_app_iff. right; left. exact K. }
      destruct O as [O|O].
      * destruct (Q1 x) as [->|X]; auto; [|congruence]. apply (PS x O). exact F.
      * change (hk_sched (get_hook x s) = true) in F. rewrite get_beyond in F by auto. discriminate.
    + intros x K J. destruct (Q1 x K J) as [->|X].
      * right. simpl. destruct (sv_log defs root (set_env bs s) (plug C told) skips h q' C m0 (tkey t) c out kids t s2 s3 hp IV' eq_refl RCT ltac:(assumption)) as (l & L1 & L2 & _).
        simpl in L1. rewrite L1. rewrite <- !app_assoc. eexists. split; [reflexivity|].
        rewrite !rendered_app, !in_app_iff. right; left. rewrite L2.
        destruct (rc_keeps _ _ _ _ _ _ _ _ _ _ _ RCT eq_refl) as (m2 & o2 & k2 & ->). left; reflexivity.
      * left. simpl. rewrite F4. change (In x (s_queue (N s2))). apply J2. exact X.
Qed.

End Pend.
