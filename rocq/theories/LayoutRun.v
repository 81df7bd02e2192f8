(** * Invariants of whole histories; proof-side only *)
From Coq Require Import String ZArith Bool Arith Lia List Permutation.
From Verif Require Import Dict Strings LayoutTypes LayoutModel BodySpec DisplaySpec GuardSpec LayoutObs LayoutTree LayoutDeriv LayoutExec
  LayoutFacts LayoutSettled LayoutContext LayoutHandlers LayoutShape LayoutOps LayoutNoCrash LayoutStep LayoutInv LayoutMain
  LayoutLive LayoutPending.
Import ListNotations.
Local Open Scope string_scope.
Local Open Scope list_scope.

Section Run.
Variable debug : bool.
Variable defs : nat -> val -> list raw -> body.
Variable root : cinst.

(** ** The log only grows *)

Lemma env_ext s e : ext s (env_step s e).
Proof. apply ext_eq. apply (quiet_env s e). Qed.

Lemma run_exit_ext hs : pres ext (run_exit hs).
Proof. induction hs; simpl; pres_tac ext ext_refl ext_trans. apply layout_did_render_ext. Qed.

Lemma update_ext fuel m : pres ext (create_layout_update debug defs fuel m).
Proof.
  unfold create_layout_update. pres_tac ext ext_refl ext_trans; try (apply modify_ext; reflexivity).
  destruct (ms_lcs a1) as [[? c]|]; pres_tac ext ext_refl ext_trans.
  - unfold get_parent. destruct (ms_parent a1); pres_tac ext ext_refl ext_trans.
    intros s r s'. destruct (alive s n0); intros H; inversion H; subst; apply ext_refl.
  - apply render_ext.
  - apply run_exit_ext.
  - destruct a2; pres_tac ext ext_refl ext_trans. apply change_ms_ext.
Qed.

Lemma serial_ext fuel q : pres ext (serial_render debug defs fuel q).
Proof.
  induction q; simpl; pres_tac ext ext_refl ext_trans; try (apply modify_ext; reflexivity).
  destruct a1; pres_tac ext ext_refl ext_trans; [apply update_ext|apply log_ext].
Qed.

Lemma step_ext fuel o s s' : step debug defs fuel o s = Some s' -> ext s s'.
Proof.
  destruct o as [bs|e]; simpl; [|intros H; injection H as <-; apply env_ext].
  destruct (serial_render debug defs fuel (s_queue s) (set_env bs s)) as [r s1] eqn:ER.
  assert (X : ext s s1).
  { eapply ext_trans; [|eapply serial_ext; exact ER]. apply ext_eq; reflexivity. }
  assert (Y : forall e, ext s (set_log (s_log s1 ++ [e]) s1)).
  { intros e. eapply ext_trans; [exact X|]. exists [e]. reflexivity. }
  destruct r as [[[p m]|]|e'|]; intros H; try discriminate; injection H as <-; auto.
Qed.

Lemma run_ext fuel ops : forall s s', run debug defs fuel ops s = Some s' -> ext s s'.
Proof.
  induction ops as [|o ops IH]; simpl; intros s s' H; [injection H as <-; apply ext_refl|].
  destruct (step debug defs fuel o s) as [s1|] eqn:ES; [|discriminate].
  eapply ext_trans; [eapply step_ext; eauto|eauto].
Qed.

Lemma run_app fuel a : forall b s, run debug defs fuel (a ++ b) s =
  match run debug defs fuel a s with Some s' => run debug defs fuel b s' | None => None end.
Proof.
  induction a as [|o a IH]; simpl; intros b s; auto. destruct (step debug defs fuel o s); auto.
Qed.

(** ** All invariants *)

Record All (s : st) (T : tree) : Prop := {
  al_base : Base root s T;
  al_acc : Acc s T;
  al_pend : Pend s T;
  al_live : steady_app defs -> Live defs root s T;
  al_hand : keyed_app defs root -> Hand s T
}.

Lemma All_init : All (init root) (T0 root).
Proof.
  constructor.
  - apply Base_init.
  - apply Acc_init.
  - apply Pend_init.
  - intros _. apply Live_init.
  - intros [_ R]. apply Hand_init; auto.
Qed.

Lemma stepped_All s T o s' T' : All s T -> stepped defs s T o s' T' -> All s' T'.
Proof.
  intros [B A P L H] SP. pose proof (b_inv _ _ _ B) as I. constructor.
  - eapply stepped_Base; eauto.
  - eapply stepped_Acc; eauto.
  - eapply stepped_Pend; eauto.
  - intros [S1 S2]. eapply stepped_Live; eauto. apply L. split; auto.
  - intros [S1 S2]. eapply stepped_Hand; eauto. apply H. split; auto.
Qed.

Theorem run_All fuel ops : forall s0 T0 s, All s0 T0 -> run debug defs fuel ops s0 = Some s -> no_err s -> exists T, All s T /\ (texts debug (comps T0) -> texts debug (comps T)).
Proof.
  induction ops as [|o ops IH]; simpl; intros s0 T0 s A R NE; [injection R as <-; eauto|].
  destruct (step debug defs fuel o s0) as [s1|] eqn:ES; [|discriminate].
  assert (NE1 : no_err s1) by (eapply no_err_ext; [eapply run_ext; eauto|exact NE]).
  destruct (step_ok debug defs root fuel o s0 s1 T0 (b_inv _ _ _ (al_base _ _ A)) ES NE1) as (T1 & SP & TX).
  destruct (IH s1 T1 s) as (T & A' & TX'); [eapply stepped_All; eauto|exact R|exact NE|]. eauto.
Qed.

Corollary reach_All fuel ops s : run debug defs fuel ops (init root) = Some s -> mild_failures (s_log s) ->
  exists T, All s T /\ texts debug (comps T).
Proof.
  intros R NE. destruct (run_All _ _ _ _ _ All_init R NE) as (T & A & TX). exists T. split; [exact A|]. apply TX.
  intros h m c e x [J|[]]. discriminate.
Qed.

(** A history and one more step. *)
Corollary reach_step fuel ops s o s' : run debug defs fuel ops (init root) = Some s -> step debug defs fuel o s = Some s' ->
  mild_failures (s_log s') -> exists T T', All s T /\ stepped defs s T o s' T' /\ All s' T'.
Proof.
  intros R ST NE. assert (NE1 : no_err s) by (eapply no_err_ext; [eapply step_ext; eauto|exact NE]).
  destruct (reach_All _ _ _ R NE1) as (T & A & _).
  destruct (step_ok debug defs root fuel o s s' T (b_inv _ _ _ (al_base _ _ A)) ST NE) as (T' & SP & _).
  exists T, T'. split; [auto|]. split; auto. eapply stepped_All; eauto.
Qed.

(** ** Display at the end of a history *)

Lemma displays_impl (P Q : nat -> cinst -> (nat -> option val) -> fate -> Prop) :
  (forall env r m n b, displays P env r m n b -> (forall h c env out, In h (ids n) -> P h c env out -> Q h c env out) -> displays Q env r m n b) /\
  (forall env i l ms ns b, displays_all P env i l ms ns b ->
     (forall h c env out, In h (flat_map (fun kn => ids (snd kn)) ns) -> P h c env out -> Q h c env out) -> displays_all Q env i l ms ns b).
Proof.
  assert (X : forall env r m n b (D : displays P env r m n b),
            (forall h c env out, In h (ids n) -> P h c env out -> Q h c env out) -> displays Q env r m n b).
  { fix IH 6. intros env r m n b D.
    assert (KL : forall env i l ms ns b, displays_all P env i l ms ns b ->
     (forall h c env out, In h (flat_map (fun kn => ids (snd kn)) ns) -> P h c env out -> Q h c env out) -> displays_all Q env i l ms ns b).
    { fix IHl 7. intros env0 i l ms ns b0 DA. destruct DA; intros IM; try (constructor; auto; fail).
      constructor; [eapply IH; [eassumption|]|eapply IHl; [eassumption|]]; intros; eapply IM; eauto; cbn [flat_map snd]; apply in_or_app; auto. }
    destruct D; intros IM.
    - constructor; auto.
    - econstructor; [apply IM; [left; reflexivity|eassumption]|]. apply KL; auto. intros; eapply IM; eauto. right; auto.
    - eapply D_fail. apply IM; [left; reflexivity|eassumption]. }
  split; [exact X|].
  fix IHl 7. intros env0 i l ms ns b0 DA. destruct DA; intros IM; try (constructor; auto; fail).
  constructor; [eapply X; [eassumption|]|eapply IHl; [eassumption|]]; intros; eapply IM; eauto; cbn [flat_map snd]; apply in_or_app; auto.
Qed.

Lemma all_out_true t : forall env, all_out (fun _ _ _ _ => True) env t.
Proof.
  induction t using tree_ind'; intros env; simpl; auto; [|split; auto].
  - induction H as [|a l HA HL IHL]; simpl; auto.
  - generalize (visible c env). intros e. induction H as [|a l HA HL IHL]; simpl; auto.
Qed.

Lemma displays_tree P s T : Inv root s T -> all_out P no_ctx T -> displays P no_ctx (RComp root) (view T) (inst_of T) (tgts T).
Proof. intros I A. destruct (shape_displays P) as [D _]. apply D; auto. apply (i_shape _ _ _ I). Qed.

End Run.
