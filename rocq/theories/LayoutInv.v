(** * Invariants of the layout over all histories; proof-side only *)
From Coq Require Import String ZArith Bool Arith Lia List Permutation.
From Verif Require Import Dict LayoutTypes LayoutModel BodySpec DisplaySpec LayoutObs LayoutTree LayoutDeriv LayoutExec LayoutFacts
  LayoutSettled LayoutContext LayoutShape LayoutOps LayoutNoCrash LayoutStep.
Import ListNotations.
Local Open Scope string_scope.
Local Open Scope list_scope.

Lemma N_idem s : N (N s) = N s.
Proof. destruct s; reflexivity. Qed.

Lemma hids_plug C t : hids (plug C t) = keys (cA C) ++ hids t ++ keys (cB C).
Proof. unfold hids. rewrite comps_plug, !map_app. auto. Qed.

Lemma updates_app a b : updates (a ++ b) = updates a ++ updates b.
Proof. apply flat_map_app. Qed.
Lemma updates_skips l : updates (map EvSkip l) = [].
Proof. induction l; simpl; auto. Qed.
Lemma updates_effects l s : updates (effects_of l s) = [].
Proof. induction l; simpl; auto. Qed.
Lemma updates_ru l : Forall ru l -> updates l = [].
Proof. induction 1; simpl; auto. destruct x; simpl in *; tauto. Qed.

Section Inv.
Variable debug : bool.
Variable defs : nat -> val -> list raw -> body.
Variable root : cinst.

Notation Inv := (Inv root).
Notation served := (served defs).

(** ** Structure *)

Section Served.
Variables (s : st) (T : tree) (skips : list nat) (h : nat) (q' : list nat) (C : list frame)
  (m0 : nat) (k : option key) (c : cinst) (out : fate) (kids : list tree) (t : tree) (s2 s3 : st) (hp : list mstate).
Hypothesis INV : Inv s T.
Hypothesis EQ : s_queue s = skips ++ h :: q'.
Hypothesis SK : forall x, In x skips -> dget x (s_reg s) = None.
Let told := TComp m0 k h c out kids.
Hypothesis ET : T = plug C told.
Hypothesis RC : rc defs (N (before s skips q')) (Some told) k c (N s2) t.
Hypothesis EX : run_exit (s_exit s2) s2 = (Ok tt, s3).
Hypothesis RP : rep hp None 0 [] "" (plug C t).
Hypothesis MT : Forall (fun m => length (s_heap s) <= m) (mids t).
Hypothesis IT : incr t.
Hypothesis ICt : is_comp t.
Hypothesis TK : tkey t = k.
Let s' := set_stack [] (set_heap hp s3).

Lemma sv_similar : similar told t.
Proof. split; [exact TK|]. split; [exact I|exact ICt]. Qed.

Lemma sv_pre : pre (N (before s skips q')) (comps told).
Proof.
  pose proof (i_nodup _ _ _ INV) as ND. pose proof (i_lt _ _ _ INV) as LT.
  rewrite ET, hids_plug in ND. split.
  - apply NoDup_app_r in ND. apply NoDup_app_l in ND. exact ND.
  - intros x J. apply LT. rewrite ET, hids_plug. apply in_or_app. right. apply in_or_app. left. exact J.
Qed.

Lemma wf_sub C' : forall t', wf (plug C' t') -> wf t'.
Proof.
  induction C' as [|f C' IH]; intros t' W; simpl in W; auto. apply IH. apply wf_plug1 in W. apply W.
Qed.
Lemma sv_wf_told : wf told.
Proof. apply (wf_sub C). rewrite <- ET. apply (i_wf _ _ _ INV). Qed.

Lemma sv_E : E (N (before s skips q')) (comps told) (comps t) (N s2).
Proof.
  destruct (render_E defs) as (ERC & _). specialize (ERC _ _ _ _ _ _ RC).
  assert (EO : ocomps (Some told) = comps told) by (unfold ocomps, compss, otree_list, flat_map; apply app_nil_r). rewrite EO in ERC.
  apply ERC; [split; [exact sv_wf_told|exact I]|exact sv_pre].
Qed.

Lemma sv_exit : s_exit s2 = rev (hids t).
Proof. pose proof (e_exit _ _ _ _ sv_E) as X. simpl in X. rewrite app_nil_r in X. exact X. Qed.

Lemma sv_nodup_t : NoDup (hids t).
Proof. exact (e_nodup _ _ _ _ sv_E). Qed.

Lemma sv_facts :
  s_heap s3 = s_heap s2 /\ s_reg s3 = s_reg s2 /\ s_eh s3 = s_eh s2 /\ s_queue s3 = s_queue s2 /\
  s_seq s3 = s_seq s2 /\ s_env s3 = s_env s2 /\ length (s_hooks s3) = length (s_hooks s2) /\
  s_log s3 = s_log s2 ++ effects_of (rev (hids t)) s2 /\
  forall x, let k := get_hook x s2 in let k' := get_hook x s3 in
    hk_cells k' = hk_cells k /\ hk_idx k' = hk_idx k /\ hk_once k' = hk_once k /\ hk_sched k' = hk_sched k /\
    hk_ctx k' = hk_ctx k /\ (In x (rev (hids t)) -> hk_effects k' = []) /\ (~ In x (rev (hids t)) -> hk_effects k' = hk_effects k).
Proof. rewrite <- sv_exit. apply run_exit_facts; [exact EX|]. rewrite sv_exit. apply NoDup_rev. exact sv_nodup_t. Qed.

(** Instances elsewhere in the tree. *)
Lemma sv_other x : In x (keys (cA C)) \/ In x (keys (cB C)) ->
  ~ In x (hids told) /\ ~ In x (hids t) /\ x < length (s_hooks s) /\ (In x (s_queue s) -> In x q').
Proof.
  intros J. pose proof (i_nodup _ _ _ INV) as ND. rewrite ET, hids_plug in ND.
  assert (A : ~ In x (hids told)).
  { destruct J as [J|J].
    - intros K. eapply NoDup_app_disj in J; [|exact ND]. apply J. apply in_or_app; auto.
    - intros K. apply NoDup_app_r in ND. eapply NoDup_app_disj in K; [|exact ND]. auto. }
  assert (B : x < length (s_hooks s)).
  { apply (i_lt _ _ _ INV). rewrite ET, hids_plug, !in_app_iff. tauto. }
  split; auto. split; [|split; auto].
  - intros K. destruct (e_fresh _ _ _ _ sv_E x K) as [K1|K1]; [apply A; exact K1|]. simpl in K1. lia.
  - rewrite EQ, in_app_iff. simpl. intros [K|[K|K]]; auto.
    + exfalso. specialize (SK x K). rewrite (i_reg _ _ _ INV), ET, comps_plug in SK.
      apply cregs_None in SK. apply SK. rewrite !keys_app, !in_app_iff. tauto.
    + subst x. exfalso. apply A. left. reflexivity.
Qed.

Lemma sv_log : exists l, s_log s' = s_log s ++ map EvSkip skips ++ l ++ effects_of (rev (hids t)) s2 /\
  rendered l = hids t /\ Permutation (unmounted l) (filter (fun x => negb (mem x (hids t))) (hids told)) /\ Forall ru l /\
  seg l /\ Forall (traced l) (comps t).
Proof.
  pose proof sv_facts as (_ & _ & _ & _ & _ & _ & _ & F8 & _).
  destruct (e_log _ _ _ _ sv_E) as (l & L1 & L2 & L3 & L4 & L5). exists l. split; [|auto using seg_ru].
  simpl. rewrite F8. simpl in L1. rewrite L1. rewrite <- !app_assoc. auto.
Qed.

Lemma sv_told : Forall (ok_render (s_log s')) (branches (plug C t)).
Proof.
  destruct sv_log as (l & L1 & _ & _ & _ & _ & TR). rewrite L1. clear L1.
  apply Forall_forall. intros x J. destruct (branches_plug C t told I x J) as [K|K].
  - destruct (render_shape defs) as (RS & _). destruct (RS _ _ _ _ _ _ RC) as [RS1 _].
    destruct (proj1 branches_returned _ _ RS1 x K) as (m & c' & r & J2 & NP). rewrite Forall_forall in TR.
    destruct (TR _ J2) as (a & b & -> & NB). cbn [fst snd ended app] in NB |- *.
    exists r. split; [|exact NP]. rewrite !in_app_iff. right; right; left. right. simpl. auto.
  - apply ok_render_app. pose proof (i_told _ _ _ INV) as TL. rewrite ET in TL. rewrite Forall_forall in TL. auto.
Qed.

Lemma sv_Inv : Inv s' (plug C t).
Proof.
  pose proof sv_E as HE. pose proof sv_facts as (F1 & F2 & F3 & F4 & F5 & F6 & F7 & F8 & F9).
  pose proof (i_nodup _ _ _ INV) as ND. rewrite ET, hids_plug in ND.
  assert (HL : length (s_hooks s) <= length (s_hooks s2)) by exact (e_hooks _ _ _ _ HE).
  constructor.
  - exact RP.
  - eapply (wf_plug C told); [exact sv_similar| |rewrite <- ET; apply (i_wf _ _ _ INV)].
    destruct (render_wf defs) as (W & _). exact (W _ _ _ _ _ _ RC).
  - eapply (incr_plug C told t (length (s_heap s))); [rewrite <- ET; apply (i_incr _ _ _ INV)|exact IT| |exact MT].
    rewrite <- ET. eapply rep_bound. apply (i_rep _ _ _ INV).
  - rewrite hids_plug.
    assert (DA : forall x, In x (keys (cA C)) -> ~ In x (hids t)) by (intros x J; apply sv_other; auto).
    assert (DB : forall x, In x (keys (cB C)) -> ~ In x (hids t)) by (intros x J; apply sv_other; auto).
    assert (DAB : NoDup (keys (cA C) ++ keys (cB C))).
    { clear - ND. revert ND. generalize (hids told). intros lt ND. induction (keys (cA C)) as [|a l IH]; simpl in *; [apply NoDup_app_r in ND; auto|].
      inversion ND as [|? ? NI ND']; subst. constructor; [|auto]. intros J. apply NI. rewrite !in_app_iff in *. tauto. }
    pose proof sv_nodup_t as NT. clear - DA DB DAB NT.
    assert (X : NoDup (hids t ++ keys (cB C))).
    { apply NoDup_app_r in DAB. clear DA. induction (hids t) as [|a l IH]; simpl; auto. inversion NT; subst. constructor.
      - rewrite in_app_iff. intros [J|J]; auto. apply (DB a J). left; auto.
      - apply IH; auto. intros x J K. apply (DB x J). right; auto. }
    induction (keys (cA C)) as [|a l IH]; simpl; auto. inversion DAB as [|? ? NI DAB']; subst. constructor.
    + rewrite !in_app_iff in *. intros [J|[J|J]]; try tauto. apply (DA a); simpl; auto.
    + apply IH; auto. intros x J. apply DA. right; auto.
  - intros x J. simpl. rewrite F7. rewrite hids_plug, !in_app_iff in J.
    destruct J as [J|[J|J]].
    + destruct (sv_other x) as (_ & _ & L & _); auto. lia.
    + destruct (e_fresh _ _ _ _ HE x J) as [K|K]; [|simpl in K; lia].
      assert (x < length (s_hooks s)); [|lia]. apply (i_lt _ _ _ INV). rewrite ET, hids_plug, !in_app_iff. auto.
    + destruct (sv_other x) as (_ & _ & L & _); auto. lia.
  - intros x. simpl. rewrite F2. change (s_reg s2) with (s_reg (N s2)). rewrite (e_reg _ _ _ _ HE).
    change (s_reg (N (before s skips q'))) with (s_reg s). rewrite (i_reg _ _ _ INV), ET, !comps_plug, !cregs_app, !dget_app.
    destruct (dget x (cregs (cA C))) eqn:EA.
    + apply cregs_Some in EA. destruct (sv_other x) as (N1 & N2 & _); auto.
      destruct (dget x (cregs (comps t))) eqn:EB; [apply cregs_Some in EB; contradiction|].
      destruct (mem x (keys (comps told))) eqn:EM; [apply mem_In in EM; contradiction|]. reflexivity.
    + destruct (dget x (cregs (comps t))) eqn:EB; auto.
      destruct (mem x (keys (comps told))) eqn:EM.
      * apply mem_In in EM. destruct (dget x (cregs (cB C))) eqn:EC; auto. apply cregs_Some in EC.
        destruct (sv_other x) as (N1 & _); auto. contradiction.
      * apply mem_not_In in EM. apply cregs_None in EM. rewrite EM. auto.
  - pose proof (i_shape _ _ _ INV) as SH. rewrite ET in SH.
    assert (IC : is_comp told) by exact I. destruct (shape_sub C _ _ SH IC) as [c' SC].
    assert (c' = c) by (inversion SC; auto). subst c'.
    destruct (render_shape defs) as (RS & _). destruct (RS _ _ _ _ _ _ RC) as [RS1 _].
    destruct (shape_plug C _ _ _ _ SH sv_similar SC RS1) as [X _]. exact X.
  - rewrite (plug_key C told t sv_similar). rewrite <- ET. apply (i_key _ _ _ INV).
  - exact sv_told.
Qed.

Lemma sv_put : put_at (cpath C) (view t) (view T) = Some (view (plug C t)).
Proof.
  pose proof (i_shape _ _ _ INV) as SH. rewrite ET in SH.
  assert (IC : is_comp told) by exact I. destruct (shape_sub C _ _ SH IC) as [c' SC].
  assert (c' = c) by (inversion SC; auto). subst c'.
  destruct (render_shape defs) as (RS & _). destruct (RS _ _ _ _ _ _ RC) as [RS1 _].
  destruct (shape_plug C _ _ _ _ SH sv_similar SC RS1) as [_ X]. rewrite ET. exact X.
Qed.

Lemma sv_evolves : evolves (fun x => length (s_hooks s) <= x) (Some (inst_of told)) (inst_of t).
Proof. destruct (render_id defs) as (RI & _). destruct (RI _ _ _ _ _ _ RC) as [_ X]. apply X. simpl. auto. Qed.

Lemma sv_inst : inst_of (plug C t) = replace_inst h (inst_of t) (inst_of T) /\ occurs h (inst_of T) (inst_of told).
Proof.
  pose proof (i_nodup _ _ _ INV) as ND. rewrite ET in ND.
  destruct (inst_plug C m0 k h c out kids t ND sv_similar) as [A B]. rewrite ET. split; [exact A|].
  pose proof (i_wf _ _ _ INV) as W. rewrite ET in W. destruct C as [|f C']; [constructor|]. apply B; [discriminate|exact W].
Qed.

(** ** Settledness and contexts *)

Hypothesis defs_steady : forall n p l, steady (defs n p l).
Hypothesis RDY : forall i, In i (comps T) -> ready (get_hook (fst i) s).

Lemma sv_pre2 : pre2 (N (before s skips q')) (comps told).
Proof.
  intros x J. apply in_map_iff in J. destruct J as (i & <- & J). apply (RDY i). rewrite ET, comps_plug, !in_app_iff. auto.
Qed.

Lemma sv_G : G defs (N (before s skips q')) (comps t) (N s2).
Proof.
  destruct (render_G defs defs_steady) as (GRC & _). specialize (GRC _ _ _ _ _ _ RC).
  assert (EO : ocomps (Some told) = comps told) by (unfold ocomps, compss, otree_list, flat_map; apply app_nil_r). rewrite EO in GRC.
  apply GRC; [split; [exact sv_wf_told|exact I]|exact sv_pre|exact sv_pre2].
Qed.

Lemma sv_good : (forall i, In i (comps T) -> good defs s i) ->
  forall i, In i (comps (plug C t)) -> good defs s' i /\ ready (get_hook (fst i) s').
Proof.
  intros GD i J. pose proof sv_facts as (F1 & F2 & F3 & F4 & F5 & F6 & F7 & F8 & F9). pose proof sv_G as [G1 G2].
  assert (Q : good defs (N s2) i /\ ready (get_hook (fst i) s2)).
  { rewrite comps_plug, !in_app_iff in J.
    assert (O : In i (cA C) \/ In i (cB C) \/ In i (comps t)) by tauto. clear J.
    destruct O as [O|[O|O]].
    1,2: assert (Oi : In (fst i) (keys (cA C)) \/ In (fst i) (keys (cB C))) by (first [left; apply In_keys; exact O|right; apply In_keys; exact O]);
         assert (IT' : In i (comps T)) by (rewrite ET, comps_plug, !in_app_iff; tauto);
         destruct (sv_other (fst i) Oi) as (N1 & N2 & L & QQ);
         (split; [|eapply (ready_hstep (out_of (comps t)) (N (before s skips q')) (N s2)); [exact G1|exact N2|exact L|apply (RDY i IT')]]);
         (eapply good_hstep; [exact G1|exact N2|exact L|]);
         destruct (GD i IT') as [G|G]; [left; apply QQ; exact G|right; exact G].
    destruct (G2 i O) as [A B]. split; auto. apply rested_ready. exact B. }
  destruct Q as [Q1 Q2]. destruct (F9 (fst i)) as (H1 & H2 & H3 & H4 & H5 & _).
  change (get_hook (fst i) s') with (get_hook (fst i) s3). split.
  - destruct Q1 as [Q1|[Q1 Q3]]; [left; simpl; rewrite F4; exact Q1|right].
    change (get_hook (fst i) s') with (get_hook (fst i) s3). rewrite H4, H1. split; [exact Q1|].
    unfold ctx_of. rewrite H5. exact Q3.
  - destruct Q2 as [Q2 Q3]. split; [congruence|]. rewrite H3, H1. exact Q3.
Qed.

Hypothesis defs_np : forall n p l, no_provide (defs n p l).

Lemma sv_ctx : ctx_ok s no_ctx T \/ (C = [] /\ pctx s no_ctx T) -> ctx_ok s' no_ctx (plug C t).
Proof.
  intros CX. pose proof sv_facts as (_ & _ & _ & _ & _ & _ & _ & _ & F9). pose proof sv_G as [G1 _].
  assert (ROOT : forall env, pctx s env told -> ctx_ok s' env t).
  { intros env P. assert (X : ctx_ok (N s2) env t).
    { eapply (render_ctx_root defs defs_steady defs_np _ told k c (N s2) t env RC).
      - reflexivity.
      - intros. unfold told in *. congruence.
      - reflexivity.
      - exact sv_wf_told.
      - exact sv_pre.
      - exact sv_pre2.
      - destruct P as (P1 & P2 & P3). split; [exact P1|]. split; [exact P2|]. eapply ctxs_ok_hooks; [|exact P3]. reflexivity. }
    eapply ctx_ok_hooks; [|exact X]. intros x _. change (get_hook x s') with (get_hook x s3). apply F9. }
  destruct CX as [CX|[-> CX]].
  - rewrite ET in CX. destruct (ctx_plug C _ _ _ CX) as [A B]. apply B.
    + intros x J. rewrite keys_app, in_app_iff in J. destruct (sv_other x J) as (N1 & N2 & L & _).
      change (get_hook x s') with (get_hook x s3). destruct (F9 x) as (_ & _ & _ & _ & H5 & _). rewrite H5.
      eapply (hstep_ctx (out_of (comps t)) (N (before s skips q')) (N s2)); [exact G1|exact N2|exact L].
    + apply ROOT. apply ctx_pctx. exact A.
  - rewrite ET in CX. apply ROOT. exact CX.
Qed.

End Served.
End Inv.
