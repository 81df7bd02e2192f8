(** * Leaving the layout; proof-side only *)
From Coq Require Import String ZArith Bool Arith Lia List Permutation.
From Verif Require Import Dict Strings LayoutTypes LayoutModel BodySpec DisplaySpec GuardSpec LayoutObs LayoutTree LayoutDeriv LayoutExec
  LayoutFacts LayoutSettled LayoutContext LayoutHandlers LayoutShape LayoutOps LayoutNoCrash LayoutStep LayoutInv LayoutMain
  LayoutLive LayoutPending LayoutRun.
Import ListNotations.
Local Open Scope string_scope.
Local Open Scope list_scope.

(** ** Unmounting does not raise *)

Lemma tgtss_rev_nodes l : kids_ok l -> Permutation (tgtss l) (tgtss (rev (filter is_node l))).
Proof.
  intros OK. eapply Permutation_trans; [|apply Permutation_flat_map, Permutation_rev].
  induction l as [|a l IHl]; simpl; auto.
  assert (OKl : kids_ok l) by (intros t' I; apply OK; right; auto).
  destruct (is_node a) eqn:EN; simpl.
  - apply Permutation_app_head. auto.
  - destruct (OK a) as [F|[x ->]]; simpl; auto; congruence.
Qed.

Lemma targets_eq kp hs : NoDup (dkeys hs) -> dvals (targets kp hs) = dkeys (elem_tgts kp hs).
Proof.
  intros ND. unfold targets.
  assert (G : forall acc, NoDup (dkeys hs) -> (forall ev, In ev (dkeys hs) -> ~ In ev (dkeys acc)) ->
    fold_left (fun acc eh => dset (fst eh) (target_of kp (fst eh) (snd eh)) acc) hs acc
    = acc ++ map (fun eh => (fst eh, target_of kp (fst eh) (snd eh))) hs).
  { clear ND. induction hs as [|[ev h] hs IH]; simpl; intros acc ND D; [rewrite app_nil_r; auto|].
    inversion ND; subst. rewrite dset_fresh.
    - rewrite IH; auto.
      + rewrite <- app_assoc. auto.
      + intros e I J. rewrite dkeys_app in J. apply in_app_iff in J. destruct J as [J|[J|[]]].
        * eapply D; eauto.
        * simpl in J. subst e. contradiction.
    - apply D. auto. }
  rewrite (G [] ND) by (intros ? ? []). simpl. unfold dvals, dkeys, elem_tgts. rewrite !map_map. reflexivity.
Qed.

Lemma del_handlers_total ts : forall s, NoDup ts -> (forall t, In t ts -> dget t (s_eh s) <> None) ->
  exists s', del_handlers ts s = (Ok tt, s').
Proof.
  induction ts as [|a ts IH]; simpl; intros s ND A; [eexists; reflexivity|]. inversion ND as [|? ? NI ND2]; subst.
  assert (D : dmem a (s_eh s) = true).
  { unfold dmem. destruct (dget a (s_eh s)) eqn:E; auto. exfalso. apply (A a); auto. }
  rewrite D. apply IH; auto. intros t J. simpl. rewrite dget_ddel. destruct (eq_dec t a) as [->|]; [contradiction|auto].
Qed.

Lemma reg_env s e : s_reg (env_step s e) = s_reg s.
Proof. apply (quiet_env s e). Qed.
Lemma reg_envs b : forall s, s_reg (fold_left env_step b s) = s_reg s.
Proof. induction b as [|a b IHb]; simpl; intros; auto. rewrite IHb. apply reg_env. Qed.
Lemma heap_envs b : forall s, s_heap (fold_left env_step b s) = s_heap s.
Proof. induction b as [|a b IHb]; simpl; intros s; auto. rewrite IHb. apply (quiet_env s a). Qed.
Lemma will_unmount_facts h s : exists s', will_unmount h s = (Ok tt, s') /\ s_reg s' = s_reg s /\ s_eh s' = s_eh s /\ s_heap s' = s_heap s.
Proof.
  unfold will_unmount, bind, log, modify, pause. eexists. split; [reflexivity|].
  simpl. destruct (s_env s); simpl; auto. rewrite reg_envs, eh_env_steps, heap_envs. repeat split.
Qed.

Lemma unmount_total f : forall stk s ts r s',
  unmount f stk s = (r, s') -> map tmid ts = map Some stk -> Forall (somewhere (s_heap s)) ts -> toks ts ->
  NoDup (dkeys (tgtss ts)) -> (forall x, In x (dkeys (tgtss ts)) -> dget x (s_eh s) <> None) ->
  NoDup (keys (compss ts)) -> (forall x, In x (keys (compss ts)) -> dget x (s_reg s) <> None) ->
  r = Ok tt \/ r = Fuel.
Proof.
  induction f as [|f IH]; simpl; intros stk s ts r s' H E W TK NT TT NC CC; [injection H as <- _; auto|].
  destruct stk as [|m stk]; [injection H as <- _; auto|].
  destruct ts as [|t ts]; [discriminate|]. simpl in E. injection E as Em Ets.
  inversion W as [|? ? W1 W2]; subst. destruct TK as [TK1 TK2]. fold (toks ts) in TK2.
  destruct t as [txt|m' k tag imp attrs js kp hs has kids|m' k h c out kids]; simpl in Em; [discriminate| |];
    injection Em as ->.
  - pose proof (somewhere_kids_elem _ _ _ _ _ _ _ _ _ _ _ W1) as Wk.
    destruct W1 as (par & i & path & kp' & R). apply rep_elem in R. destruct R as (-> & (md & Nx) & OK & L).
    destruct TK1 as ((ND & HO) & NK & NS & Tk). fold (toks kids) in Tk.
    assert (P : Permutation (tgtss kids ++ tgtss ts) (tgtss (rev (filter is_node kids) ++ ts))).
    { rewrite tgtss_app. apply Permutation_app_tail, tgtss_rev_nodes; auto. }
    change (tgtss (TElem m k tag imp attrs js kp' hs has kids :: ts)) with ((elem_tgts kp' hs ++ tgtss kids) ++ tgtss ts) in *.
    rewrite <- app_assoc, dkeys_app in *.
    change (compss (TElem m k tag imp attrs js kp' hs has kids :: ts)) with (compss kids ++ compss ts) in *.
    assert (PC : Permutation (compss kids ++ compss ts) (compss (rev (filter is_node kids) ++ ts))).
    { rewrite compss_app. apply Permutation_app_tail, compss_rev_nodes; auto. }
    unfold bind at 1 in H. unfold get_ms in H. rewrite Nx in H. cbn [ms_targets ms_lcs ms_children] in H.
    destruct (del_handlers_total (dvals (targets kp' hs)) s) as [s1 D].
    { rewrite targets_eq by auto. eapply NoDup_app_l; exact NT. }
    { intros t J. rewrite targets_eq in J by auto. apply TT. apply in_or_app; auto. }
    unfold bind at 1 in H. rewrite D in H. unfold bind at 1 in H. cbn [ret] in H.
    pose proof (hfree_heap _ _ _ _ (hfree_del_handlers _) D) as Eh.
    assert (ER : s_reg s1 = s_reg s).
    { clear - D. revert s D. induction (dvals (targets kp' hs)) as [|a l IHl]; simpl; intros s D; [injection D as <-; auto|].
      destruct (dmem a (s_eh s)); [|discriminate]. apply IHl in D. exact D. }
    eapply IH with (ts := rev (filter is_node kids) ++ ts); [exact H| | | | | | |].
    + rewrite !map_app, Ets. f_equal. rewrite !map_rev. f_equal. apply kid_mids; auto.
    + rewrite Eh. apply Forall_app; split; auto. apply Forall_rev. apply Forall_filter; auto.
    + rewrite toks_Forall in *. apply Forall_app. split; auto. apply Forall_rev, Forall_filter; auto.
    + eapply Permutation_NoDup; [apply Permutation_map; exact P|]. eapply NoDup_app_r; exact NT.
    + intros x J. assert (J' : In x (dkeys (tgtss kids ++ tgtss ts))).
      { eapply Permutation_in; [apply Permutation_map, Permutation_sym; exact P|exact J]. }
      rewrite (del_handlers_tab _ _ _ D). destruct (mem x (dvals (targets kp' hs))) eqn:M.
      * apply mem_In in M. rewrite targets_eq in M by auto. exfalso. eapply NoDup_app_disj in M; [|exact NT]. auto.
      * apply TT. apply in_or_app; auto.
    + eapply Permutation_NoDup; [apply Permutation_map; exact PC|]. exact NC.
    + intros x J. rewrite ER. apply CC. eapply Permutation_in; [apply Permutation_map, Permutation_sym; exact PC|exact J].
  - pose proof (somewhere_kids_comp _ _ _ _ _ _ _ W1) as Wk.
    destruct W1 as (par & i & path & kp' & R). apply rep_comp in R. destruct R as ((md & Nx) & OK & L).
    destruct TK1 as (NK & NS & Tk). fold (toks kids) in Tk.
    assert (P : Permutation (tgtss kids ++ tgtss ts) (tgtss (rev (filter is_node kids) ++ ts))).
    { rewrite tgtss_app. apply Permutation_app_tail, tgtss_rev_nodes; auto. }
    change (tgtss (TComp m k h c out kids :: ts)) with (tgtss kids ++ tgtss ts) in *.
    change (compss (TComp m k h c out kids :: ts)) with ((h, (m, c, out)) :: compss kids ++ compss ts) in *.
    assert (PC : Permutation (compss kids ++ compss ts) (compss (rev (filter is_node kids) ++ ts))).
    { rewrite compss_app. apply Permutation_app_tail, compss_rev_nodes; auto. }
    unfold bind at 1 in H. unfold get_ms in H. rewrite Nx in H. cbn [ms_targets ms_lcs ms_children] in H.
    unfold bind at 1 in H. simpl del_handlers in H. cbn [ret] in H.
    inversion NC as [|? ? NI NC']; subst.
    assert (DM : dmem h (s_reg s) = true).
    { unfold dmem. destruct (dget h (s_reg s)) eqn:EG; auto. exfalso. apply (CC h); [left; reflexivity|exact EG]. }
    unfold bind at 1 in H. unfold bind at 1 in H. unfold del_reg in H. cbn [ret] in H. rewrite DM in H.
    destruct (will_unmount_facts h (set_reg (ddel h (s_reg s)) s)) as (s2 & WU & R1 & R2 & R3). rewrite WU in H.
    eapply IH with (ts := rev (filter is_node kids) ++ ts); [exact H| | | | | | |].
    + rewrite !map_app, Ets. f_equal. rewrite !map_rev. f_equal. apply kid_mids; auto.
    + rewrite R3. apply Forall_app; split; auto. apply Forall_rev. apply Forall_filter; auto.
    + rewrite toks_Forall in *. apply Forall_app. split; auto. apply Forall_rev, Forall_filter; auto.
    + eapply Permutation_NoDup; [apply Permutation_map; exact P|]. exact NT.
    + intros x J. rewrite R2. apply TT. eapply Permutation_in; [apply Permutation_map, Permutation_sym; exact P|exact J].
    + eapply Permutation_NoDup; [apply Permutation_map; exact PC|]. exact NC'.
    + intros x J. assert (J' : In x (keys (compss kids ++ compss ts))) by (eapply Permutation_in; [apply Permutation_map, Permutation_sym; exact PC|exact J]).
      rewrite R1. simpl. rewrite dget_ddel. destruct (eq_dec x h) as [->|]; [contradiction|]. apply CC. right. exact J'.
Qed.

(** ** Closing *)

Section Close.
Variable defs : nat -> val -> list raw -> body.
Variable root : cinst.

Lemma root_reg s T : Base root s T -> exists m, dget 0 (s_reg s) = Some m /\ tmid T = Some m.
Proof.
  intros B. destruct (b_root _ _ _ B) as (m & k & c & out & kids & ET). exists m.
  rewrite (i_reg _ _ _ (b_inv _ _ _ B)), ET. cbn [comps cregs map fst snd dget tmid].
  destruct (eq_dec 0 0); [auto|congruence].
Qed.

Theorem close_total fuel bs s T r s' : keyed_app defs root -> All defs root s T ->
  close fuel (set_env bs s) = (r, s') -> r = Ok tt \/ r = Fuel.
Proof.
  intros KA A CL. pose proof (al_hand _ _ _ _ A KA) as HA. pose proof (al_base _ _ _ _ A) as B.
  destruct (root_reg _ _ B) as (m & RG & TM). pose proof (b_inv _ _ _ B) as I.
  unfold close, bind, gets in CL. simpl in CL. rewrite RG in CL.
  eapply unmount_total with (ts := [T]); [exact CL| | | | | | |].
  - simpl. rewrite TM. reflexivity.
  - constructor; [|constructor]. red. simpl. exists None, 0, [], "". apply (i_rep _ _ _ I).
  - split; [apply (hd_tok _ _ HA)|exact Logic.I].
  - unfold tgtss. simpl. rewrite app_nil_r. eapply tgts_NoDup; [eapply rep_kpok; apply (i_rep _ _ _ I)|apply (hd_tok _ _ HA)|apply (i_wf _ _ _ I)].
  - intros x J. simpl. rewrite (hd_tab _ _ HA). unfold tgtss in J. simpl in J. rewrite app_nil_r in J.
    intros N. apply dget_None in N. auto.
  - change (NoDup (keys (comps T ++ []))). rewrite app_nil_r. apply (i_nodup _ _ _ I).
  - intros x J. change (In x (keys (comps T ++ []))) in J. rewrite app_nil_r in J. simpl. rewrite (i_reg _ _ _ I).
    intros N. apply cregs_None in N. auto.
Qed.

Theorem close_facts fuel bs s T s' : All defs root s T -> close fuel (set_env bs s) = (Ok tt, s') ->
  exists l, s_log s' = s_log s ++ l /\ rendered l = [] /\ Permutation (unmounted l) (hids T) /\
    NoDup (unmounted (s_log s')) /\ (forall x, In x (rendered (s_log s')) -> In x (unmounted (s_log s'))) /\
    silent (s_log s') /\ (forall x, dget x (s_reg s') = None) /\ no_crash (s_log s') /\
    (keyed_app defs root -> forall x, dget x (s_eh s') = None).
Proof.
  intros A CL. pose proof (al_base _ _ _ _ A) as B. pose proof (al_acc _ _ _ _ A) as AC.
  destruct (root_reg _ _ B) as (m & RG & TM). pose proof (b_inv _ _ _ B) as I.
  unfold close, bind, gets in CL. simpl in CL. rewrite RG in CL.
  apply exec_unmount with (ts := [T]) in CL.
  - destruct CL as [_ U].
    assert (W : wfs [T]) by (split; [apply (i_wf _ _ _ I)|exact Logic.I]).
    assert (EC : compss [T] = comps T) by (unfold compss; simpl; apply app_nil_r).
    assert (PR : pre (N (set_env bs s)) (compss [T])).
    { rewrite EC. split; [apply (i_nodup _ _ _ I)|]. intros x J. apply (i_lt _ _ _ I). exact J. }
    pose proof (um_E' _ _ _ U W PR) as HE. rewrite EC in HE.
    destruct (e_log _ _ _ _ HE) as (l & L1 & L2 & L3 & SG & _). pose proof (seg_ru _ SG) as L4. simpl in L1. 
    destruct (Acc_pass defs s T (TText "") l (hids T) [] (length (s_hooks s'))) as (Q1 & Q2 & Q3 & Q4); auto.
    + apply (i_nodup _ _ _ I).
    + apply (i_lt _ _ _ I).
    + intros y [].
    + apply (e_hooks _ _ _ _ HE).
    + intros e h J AB. rewrite Forall_forall in L4. specialize (L4 e J). destruct e; simpl in L4; try contradiction; simpl in AB; subst.
      * exfalso. assert (X : In h (rendered l)) by (apply rendered_In; auto). rewrite L2 in X. contradiction.
      * exfalso. pose proof (seg_return _ SG _ _ J) as X. rewrite L2 in X. contradiction.
      * exfalso. pose proof (seg_error _ SG _ _ J) as X. rewrite L2 in X. contradiction.
      * right; reflexivity.
    + intros y. simpl. tauto.
    + exists l. split; [exact L1|]. split; [exact L2|].
      split. { eapply Permutation_trans; [exact L3|]. change (keys (comps T)) with (hids T). clear.
               induction (hids T); simpl; auto. }
      change (s_log (N s')) with (s_log s') in L1. rewrite L1.
      split; [exact Q1|]. split. { intros x J. destruct (Q3 x J) as [[]|K]; exact K. }
      split; [exact Q4|]. split; [|split].
      * intros x. change (s_reg s') with (s_reg (N s')). rewrite (e_reg _ _ _ _ HE). simpl.
        destruct (mem x (keys (comps T))) eqn:M; auto. rewrite (i_reg _ _ _ I). apply mem_not_In in M. apply cregs_None. exact M.
      * apply crash_app; [apply (b_crash _ _ _ B)|apply crash_ru; auto].
      * intros KA x. pose proof (al_hand _ _ _ _ A KA) as HA.
        assert (TT : toks [T]) by (split; [apply (hd_tok _ _ HA)|exact Logic.I]).
        destruct (um_H _ _ _ U W TT) as [HH]. change (s_eh s') with (s_eh (N s')). rewrite HH. simpl.
        unfold tgtss. simpl. rewrite app_nil_r. destruct (mem x (dkeys (tgts T))) eqn:M; auto.
        rewrite (hd_tab _ _ HA). apply dget_None. apply mem_not_In. exact M.
  - simpl. rewrite TM. reflexivity.
  - constructor; [|constructor]. red. simpl. exists None, 0, [], "". apply (i_rep _ _ _ I).
Qed.

End Close.
