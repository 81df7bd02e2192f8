(** * The event handler table; proof-side only *)
From Coq Require Import String Ascii ZArith Bool Arith Lia List Permutation.
From Verif Require Import Dict Strings LayoutTypes LayoutModel BodySpec DisplaySpec GuardSpec LayoutTree LayoutDeriv LayoutExec LayoutFacts.
Import ListNotations.
Local Open Scope string_scope.
Local Open Scope list_scope.

Lemma keys_infos l : forall i, keys_from i l = map snd (children_infos i l).
Proof.
  induction l as [|r l IH]; intros i; cbn [keys_from children_infos]; [reflexivity|].
  destruct r as [|x|tag attrs hs js imp ch|[ty ck p ks]]; cbn [child_info]; rewrite IH; try reflexivity.
  - unfold effective_key, explicit_key, attr_key. destruct attrs as [d|]; [|reflexivity].
    destruct (dget "key" d) as [[]|]; reflexivity.
  - unfold effective_key, explicit_key. cbn [ci_key]. destruct ck; reflexivity.
Qed.
Lemma shown_infos l : shown_keys l = map (fun i => show_key (snd i)) (children_infos 0 l).
Proof. unfold shown_keys. rewrite keys_infos, map_map. reflexivity. Qed.

Lemma raws_Forall l : raws_ok l <-> Forall raw_ok l.
Proof.
  unfold raws_ok. induction l; simpl; split; intros H; auto.
  - constructor; tauto.
  - inversion H; tauto.
Qed.

(** ** Trees satisfying the guards, at their key paths *)

Fixpoint kpok (kp : string) (t : tree) : Prop :=
  match t with
  | TText _ => True
  | TElem _ _ _ _ _ _ kp' _ _ l => kp' = kp /\ fold_right and True (map (fun t' => kpok (sub_keypath kp (tkey t')) t') l)
  | TComp _ _ _ _ _ l => fold_right and True (map (fun t' => kpok (sub_keypath kp (tkey t')) t') l)
  end.
Definition kpoks kp l := fold_right and True (map (fun t' => kpok (sub_keypath kp (tkey t')) t') l).

Lemma kpoks_Forall kp l : kpoks kp l <-> Forall (fun t' => kpok (sub_keypath kp (tkey t')) t') l.
Proof.
  unfold kpoks. induction l; simpl; split; intros H; auto.
  - constructor; tauto.
  - inversion H; tauto.
Qed.

Lemma rep_kpok hp t : forall par i path kp, rep hp par i path kp t -> kpok kp t.
Proof.
  induction t using tree_ind'; intros par i path kp' R; simpl; auto.
  - apply rep_elem in R. destruct R as (-> & _ & _ & L). split; auto.
    generalize dependent 0. induction kids; simpl; intros; auto. inversion H; subst. destruct L. split; eauto.
  - apply rep_comp in R. destruct R as (_ & _ & L).
    generalize dependent 0. induction kids; simpl; intros; auto. inversion H; subst. destruct L. split; eauto.
Qed.

Definition node_keys (l : list tree) : list string :=
  flat_map (fun t => match tkey t with Some k => [show_key k] | None => [] end) l.

Fixpoint tok (t : tree) : Prop :=
  match t with
  | TText _ => True
  | TElem _ _ _ _ _ _ _ hs _ l =>
      handlers_ok hs /\ NoDup (node_keys l) /\ Forall (nochar slash) (node_keys l) /\ fold_right and True (map tok l)
  | TComp _ _ _ _ _ l =>
      NoDup (node_keys l) /\ Forall (nochar slash) (node_keys l) /\ fold_right and True (map tok l)
  end.
Definition toks (l : list tree) : Prop := fold_right and True (map tok l).
Lemma toks_Forall l : toks l <-> Forall tok l.
Proof.
  unfold toks. induction l; simpl; split; intros H; auto.
  - constructor; tauto.
  - inversion H; tauto.
Qed.

(** ** Where targets lie *)

Definition under (kp tgt : string) : Prop :=
  exists rest ev, tgt = (kp ++ rest ++ ":" ++ ev)%string /\ starts slash rest /\ nochar colon ev.
Definition below (kp tgt : string) : Prop :=
  exists k rest ev, tgt = (kp ++ "/" ++ k ++ rest ++ ":" ++ ev)%string /\ nochar slash k /\ starts slash rest /\ nochar colon ev.

Lemma under_sibling kp s1 s2 tgt : nochar slash s1 -> nochar slash s2 ->
  under (kp ++ "/" ++ s1)%string tgt -> under (kp ++ "/" ++ s2)%string tgt -> s1 = s2.
Proof.
  intros N1 N2 (r1 & e1 & E1 & S1 & C1) (r2 & e2 & E2 & S2 & C2). subst tgt.
  rewrite <- !app_assoc_s in E2. 
  assert (E : ((((kp ++ "/") ++ s1) ++ r1) ++ String colon e1 = (((kp ++ "/") ++ s2) ++ r2) ++ String colon e2)%string).
  { simpl in E2. rewrite !app_assoc_s in *. simpl in *. exact E2. }
  apply split_last in E; auto. destruct E as [E _]. rewrite !app_assoc_s in E. apply app_inj_l in E.
  simpl in E. injection E as E. apply split_first with (c := slash) in E; auto. tauto.
Qed.

Lemma own_not_below kp ev tgt : nochar colon ev -> tgt = (kp ++ ":" ++ ev)%string -> ~ below kp tgt.
Proof.
  intros N -> (k & r & e & E & Nk & Sr & Ne).
  assert (E2 : (kp ++ String colon ev = ((kp ++ "/") ++ k ++ r) ++ String colon e)%string).
  { rewrite !app_assoc_s in *. simpl in *. rewrite ?app_assoc_s. exact E. }
  apply split_last in E2; auto. destruct E2 as [E2 _].
  assert (L := f_equal String.length E2). rewrite !app_len in L. simpl in L. lia.
Qed.

Lemma tgts_under t : forall kp tgt h, kpok kp t -> tok t -> In (tgt, h) (tgts t) -> under kp tgt.
Proof.
  induction t using tree_ind'; intros kp' tgt hh K T I; simpl in *; [contradiction| |].
  - destruct K as [-> K]. destruct T as ((ND & HO) & NK & NS & T). apply in_app_iff in I. destruct I as [I|I].
    + unfold elem_tgts in I. apply in_map_iff in I. destruct I as ([ev hd] & E & I). simpl in E. injection E as <- <-.
      destruct (HO ev hd I) as [HT NC]. exists "", ev. unfold target_of. rewrite HT. simpl. repeat split; auto. left; auto.
    + fold (kpoks kp' kids) in K. fold (toks kids) in T. rewrite kpoks_Forall in K. rewrite toks_Forall in T.
      rewrite Forall_forall in *. apply in_flat_map in I. destruct I as (t' & It & I).
      destruct (tkey t') as [k'|] eqn:EK.
      * specialize (H t' It _ _ _ (K t' It) (T t' It) I). rewrite EK in H. destruct H as (r & e & -> & S & N).
        exists ("/" ++ show_key k' ++ r)%string, e. unfold sub_keypath. rewrite !app_assoc_s. split; auto. split; auto.
        right. simpl. eauto.
      * specialize (H t' It _ _ _ (K t' It) (T t' It) I). rewrite EK in H. destruct H as (r & e & -> & S & N).
        exists ("/" ++ "None" ++ r)%string, e. unfold sub_keypath. rewrite !app_assoc_s. split; auto. split; auto.
        right. simpl. eauto.
  - destruct T as (NK & NS & T).
    fold (kpoks kp' kids) in K. fold (toks kids) in T. rewrite kpoks_Forall in K. rewrite toks_Forall in T.
    rewrite Forall_forall in *. apply in_flat_map in I. destruct I as (t' & It & I).
    destruct (tkey t') as [k'|] eqn:EK.
    * specialize (H t' It _ _ _ (K t' It) (T t' It) I). rewrite EK in H. destruct H as (r & e & -> & S & N).
      exists ("/" ++ show_key k' ++ r)%string, e. unfold sub_keypath. rewrite !app_assoc_s. split; auto. split; auto.
      right. simpl. eauto.
    * specialize (H t' It _ _ _ (K t' It) (T t' It) I). rewrite EK in H. destruct H as (r & e & -> & S & N).
      exists ("/" ++ "None" ++ r)%string, e. unfold sub_keypath. rewrite !app_assoc_s. split; auto. split; auto.
      right. simpl. eauto.
Qed.

Definition tgtss (l : list tree) : list (string * handler) := flat_map tgts l.
Lemma tgtss_app a b : tgtss (a ++ b) = tgtss a ++ tgtss b.
Proof. apply flat_map_app. Qed.

Lemma under_below kp k tgt : nochar slash (show_key k) -> under (sub_keypath kp (Some k)) tgt -> below kp tgt.
Proof.
  intros N (r & e & -> & S & C). exists (show_key k), r, e. unfold sub_keypath. rewrite !app_assoc_s. auto.
Qed.

(** ** The table *)

Record H (s : st) (TA TB : list (string * handler)) (s' : st) : Prop := {
  h_tab : forall t, dget t (s_eh s') = match dget t TB with
                                       | Some h => Some h
                                       | None => if mem t (dkeys TA) then None else dget t (s_eh s)
                                       end
}.

Lemma H_seq s A1 B1 s1 A2 B2 s2 : H s A1 B1 s1 -> H s1 A2 B2 s2 ->
  (forall t, In t (dkeys B1) -> ~ In t (dkeys A2)) -> (forall t, In t (dkeys B1) -> ~ In t (dkeys B2)) ->
  H s (A1 ++ A2) (B1 ++ B2) s2.
Proof.
  intros [H1] [H2] D1 D2. constructor. intros t. rewrite H2, H1, dget_app, dkeys_app, mem_app.
  destruct (dget t B2) eqn:E2.
  - destruct (dget t B1) eqn:E1; auto. exfalso. eapply D2; eapply dget_Some_key; eauto.
  - destruct (dget t B1) eqn:E1.
    + destruct (mem t (dkeys A2)) eqn:M; auto. apply mem_In in M. exfalso. eapply D1; eauto. eapply dget_Some_key; eauto.
    + destruct (mem t (dkeys A2)), (mem t (dkeys A1)); auto.
Qed.

Lemma H_same s s' : s_eh s' = s_eh s -> H s [] [] s'.
Proof. intros E. constructor. intros t. simpl. rewrite E. auto. Qed.

Lemma H_ext s A A' B s' : (forall t, In t (dkeys A) <-> In t (dkeys A')) -> H s A B s' -> H s A' B s'.
Proof.
  intros EQ [H1]. constructor. intros t. rewrite H1. destruct (dget t B); auto.
  assert (M : mem t (dkeys A) = mem t (dkeys A')).
  { destruct (mem t (dkeys A)) eqn:E1; symmetry.
    - apply mem_In, EQ, mem_In; auto.
    - apply mem_not_In. intros I. apply EQ in I. apply mem_not_In in E1. auto. }
  rewrite M. auto.
Qed.

Lemma eh_schedule h s : s_eh (schedule_render h s) = s_eh s.
Proof. unfold schedule_render. destruct (hk_sched _); auto. Qed.
Lemma eh_dispatch h i u s : s_eh (dispatch h i u s) = s_eh s.
Proof.
  unfold dispatch. destruct (nth_error _ _) as [[]|]; auto. destruct (veq _ _); auto. rewrite eh_schedule; auto.
Qed.
Lemma eh_env_step s o : s_eh (env_step s o) = s_eh s.
Proof.
  destruct o; simpl; [apply eh_dispatch|]. unfold record_seq.
  destruct (0 <=? seq)%Z; auto. destruct (_ <? _)%Z; auto.
Qed.
Lemma eh_env_steps b s : s_eh (fold_left env_step b s) = s_eh s.
Proof. revert s; induction b; simpl; intros; auto. rewrite IHb. apply eh_env_step. Qed.
Lemma eh_pause s u s' : pause s = (u, s') -> s_eh s' = s_eh s.
Proof. intros X; inversion X; subst. destruct (s_env s); auto. rewrite eh_env_steps; auto. Qed.

Definition eh_same (s s' : st) : Prop := s_eh s' = s_eh s.
Lemma eh_run_body h b : pres eh_same (run_body h b).
Proof.
  assert (Hr : forall s, eh_same s s) by (intros; red; auto).
  assert (Ht : forall a b c, eh_same a b -> eh_same b c -> eh_same a c) by (unfold eh_same; intros; congruence).
  induction b; simpl; pres_tac eh_same Hr Ht; try apply H0; auto.
  - intros s r s'. unfold use_cell. destruct (hk_once _).
    + destruct (nth_error _ _); intros X; inversion X; subst; red; auto.
    + intros X; inversion X; subst; red; auto.
  - apply pres_modify. intros; red; auto.
  - apply pres_modify. intros; red; auto.
  - apply pres_modify. intros; red; auto.
  - apply pres_modify. intros; apply eh_dispatch.
Qed.
Lemma eh_enter defs h c s r s' : enter defs h c s r s' -> s_eh s' = s_eh s.
Proof.
  intros (a & x & s1' & H1 & H2 & H3).
  assert (GS : s_eh s' = s_eh s1') by (destruct r; simpl in H3; destruct H3 as [_ ->]; reflexivity). rewrite GS. clear GS H3.
  apply eh_run_body in H2. red in H2. rewrite H2. simpl. clear H2.
  unfold will_render, bind in H1. destruct (pause s) as [[v|e|] s1] eqn:Hp; try discriminate.
  apply eh_pause in Hp. rewrite <- Hp. unfold set_current, modify in H1. inversion H1; subst. simpl.
  destruct (s_stack s1); auto.
Qed.
Lemma eh_did_render h s s' : did_render h s = (Ok tt, s') -> s_eh s' = s_eh s.
Proof.
  unfold did_render, bind, unset_current. destruct (s_stack s); [discriminate|].
  destruct (Nat.eq_dec n h); [|discriminate]. unfold modify. intros X; inversion X; auto.
Qed.

Lemma del_handlers_tab ts : forall s s', del_handlers ts s = (Ok tt, s') ->
  forall t, dget t (s_eh s') = if mem t ts then None else dget t (s_eh s).
Proof.
  induction ts as [|a ts IH]; simpl; intros s s' D t.
  - inversion D; auto.
  - destruct (dmem a (s_eh s)); [|discriminate]. rewrite (IH _ _ D). simpl.
    rewrite dget_ddel. destruct (mem t ts); [destruct (eq_dec t a); auto|]. destruct (eq_dec t a); auto.
Qed.

(** Targets by event, and by target, of an element. *)
Lemma targets_In kp hs : NoDup (dkeys hs) -> forall t, In t (dvals (targets kp hs)) <-> In t (dkeys (elem_tgts kp hs)).
Proof.
  intros ND. unfold targets.
  assert (G : forall acc, NoDup (dkeys hs) -> (forall ev, In ev (dkeys hs) -> ~ In ev (dkeys acc)) ->
    fold_left (fun acc eh => dset (fst eh) (target_of kp (fst eh) (snd eh)) acc) hs acc
    = acc ++ map (fun eh => (fst eh, target_of kp (fst eh) (snd eh))) hs).
  { clear ND. induction hs as [|[ev h] hs IH]; simpl; intros acc ND D; [rewrite app_nil_r; auto|].
    inversion ND; subst. rewrite dset_fresh.
    - rewrite IH; auto.
      + rewrite <- app_assoc. auto.
      + intros e I J. rewrite dkeys_app in J. apply in_app_iff in J. destruct J as [J|[J|[]]].
        * eapply D; eauto.
        * simpl in J. subst e. contradiction.
    - apply D. auto. }
  rewrite (G [] ND) by (intros ? ? []). simpl. unfold dvals, dkeys, elem_tgts. rewrite !map_map. simpl.
  intros; reflexivity.
Qed.

Lemma um_H s ts s' : um s ts s' -> wfs ts -> toks ts -> H s (tgtss ts) [] s'.
Proof.
  induction 1 as [s|s m k tag imp attrs js kp hs has kids ts s1 s' Hd Hu IH|s m k h c out kids ts s1 s2 s' Hr Hw Hu IH];
    intros W T.
  - apply H_same; auto.
  - destruct W as [(OK & NDk & Wk) Wt]. fold (wfs kids) in Wk. fold (wfs ts) in Wt.
    destruct T as [((ND & HO) & NK & NS & Tk) Tt]. fold (toks kids) in Tk. fold (toks ts) in Tt.
    assert (IH' : H s1 (tgtss (rev (filter is_node kids) ++ ts)) [] s').
    { apply IH.
      - apply wfs_app; split; auto. apply wfs_rev_nodes; auto.
      - rewrite toks_Forall in *. apply Forall_app. split; auto. apply Forall_rev, Forall_filter; auto. }
    constructor. intros t. destruct IH' as [IH']. rewrite IH'. simpl dget at 1 3. cbv iota.
    rewrite (del_handlers_tab _ _ _ Hd t).
    assert (M1 : mem t (dvals (targets kp hs)) = mem t (dkeys (elem_tgts kp hs))).
    { destruct (mem t (dvals (targets kp hs))) eqn:M; symmetry.
      - apply mem_In, targets_In, mem_In; auto.
      - apply mem_not_In. intros J. apply mem_not_In in M. apply M, targets_In; auto. }
    rewrite M1.
    assert (EQ : mem t (dkeys (tgtss (TElem m k tag imp attrs js kp hs has kids :: ts))) =
                 mem t (dkeys (elem_tgts kp hs)) || mem t (dkeys (tgtss (rev (filter is_node kids) ++ ts)))).
    { unfold tgtss. simpl. rewrite flat_map_app, !dkeys_app, !mem_app, <- orb_assoc. f_equal. f_equal.
      fold (tgtss (rev (filter is_node kids))). fold (tgtss kids).
      assert (P : Permutation (tgtss kids) (tgtss (rev (filter is_node kids)))).
      { eapply Permutation_trans; [|apply Permutation_flat_map, Permutation_rev].
        clear - OK. induction kids as [|a l IHl]; simpl; auto.
        assert (OKl : kids_ok l) by (intros t' I; apply OK; right; auto).
        destruct (is_node a) eqn:EN; simpl.
        - apply Permutation_app_head. auto.
        - destruct (OK a) as [F|[x ->]]; simpl; auto; congruence. }
      apply mem_perm. apply Permutation_map. exact P. }
    rewrite EQ. destruct (mem t (dkeys (elem_tgts kp hs))), (mem t (dkeys (tgtss (rev (filter is_node kids) ++ ts)))); auto.
  - destruct W as [(OK & NDk & Wk) Wt]. fold (wfs kids) in Wk. fold (wfs ts) in Wt.
    destruct T as [(NK & NS & Tk) Tt]. fold (toks kids) in Tk. fold (toks ts) in Tt.
    assert (IH' : H s2 (tgtss (rev (filter is_node kids) ++ ts)) [] s').
    { apply IH.
      - apply wfs_app; split; auto. apply wfs_rev_nodes; auto.
      - rewrite toks_Forall in *. apply Forall_app. split; auto. apply Forall_rev, Forall_filter; auto. }
    assert (ES : s_eh s2 = s_eh s).
    { unfold del_reg in Hr. destruct (dmem h (s_reg s)); [|discriminate]. injection Hr as <-.
      unfold will_unmount, bind, log, modify in Hw. apply eh_pause in Hw. exact Hw. }
    assert (P : Permutation (tgtss (TComp m k h c out kids :: ts)) (tgtss (rev (filter is_node kids) ++ ts))).
    { unfold tgtss. simpl. rewrite flat_map_app. apply Permutation_app_tail.
      eapply Permutation_trans; [|apply Permutation_flat_map, Permutation_rev].
      clear - OK. induction kids as [|a l IHl]; simpl; auto.
      assert (OKl : kids_ok l) by (intros t' I; apply OK; right; auto).
      destruct (is_node a) eqn:EN; simpl.
      - apply Permutation_app_head. auto.
      - destruct (OK a) as [F|[x ->]]; simpl; auto; congruence. }
    constructor. intros t. destruct IH' as [IH']. rewrite IH', ES. simpl.
    erewrite (mem_perm t); [reflexivity|]. apply Permutation_map, Permutation_sym; exact P.
Qed.

Lemma reg_all_tab kp hs : NoDup (dkeys hs) -> (forall ev h, In (ev, h) hs -> h_target h = None) ->
  forall d t, dget t (reg_all kp hs d) = match dget t (elem_tgts kp hs) with Some h => Some h | None => dget t d end.
Proof.
  unfold reg_all. induction hs as [|[ev h] hs IH]; intros ND A d t; [reflexivity|].
  cbn [fold_left fst snd]. inversion ND; subst.
  rewrite IH; auto; [|intros; eapply A; right; eauto].
  unfold elem_tgts. cbn [map fst snd]. fold (elem_tgts kp hs). cbn [dget].
  rewrite dget_dset. destruct (eq_dec t (target_of kp ev h)) as [->|NE]; auto.
  destruct (dget (target_of kp ev h) (elem_tgts kp hs)) eqn:E; auto. exfalso.
  apply dget_Some_key in E. unfold elem_tgts, dkeys in E. rewrite map_map in E. apply in_map_iff in E.
  destruct E as ([ev2 h2] & E & I). simpl in E. unfold target_of in E.
  rewrite (A ev h), (A ev2 h2) in E by (simpl; auto). apply app_inj_l in E. simpl in E. injection E as ->.
  apply H2. apply in_map_iff. exists (ev, h2). auto.
Qed.

Lemma elem_own kp hs t : handlers_ok hs -> In t (dkeys (elem_tgts kp hs)) -> exists ev, In ev (dkeys hs) /\ nochar colon ev /\ t = (kp ++ ":" ++ ev)%string.
Proof.
  intros (ND & HO) I. unfold elem_tgts, dkeys in I. rewrite map_map in I. apply in_map_iff in I.
  destruct I as ([ev h] & <- & I). simpl. destruct (HO _ _ I) as [HT NC]. exists ev. unfold target_of. rewrite HT.
  repeat split; auto. apply in_map_iff. exists (ev, h). auto.
Qed.

Section Handlers.
Variable defs : nat -> val -> list raw -> body.
Hypothesis defs_ok : forall n p kids, raws_ok kids -> body_ok (defs n p kids).

Lemma run_body_out h b : forall s r s', body_ok b -> run_body h b s = (Ok r, s') -> out_ok r.
Proof.
  induction b as [r|msg|ini k IH|i c k IH|e k IH|x k IH|x v k IH|h' i u k IH]; simpl; intros s r0 s' B R.
  - inversion R; subst; auto.
  - discriminate.
  - unfold bind in R. destruct (use_cell h ini s) as [[[i c]|e|] s1]; try discriminate. eapply IH; [|exact R]. apply B.
  - eapply IH; [|exact R]; auto.
  - eapply IH; [|exact R]; auto.
  - eapply IH; [|exact R]; auto.
  - eapply IH; [|exact R]; auto.
  - eapply IH; [|exact R]; auto.
Qed.

Lemma render_fn_ok c : cinst_ok c -> body_ok (render_fn defs c).
Proof.
  destruct c as [[n|x] k p kids]; simpl; intros [A B]; [apply defs_ok; auto|].
  split; [simpl; split; [split; [constructor|intros ? ? []]|auto]|].
  unfold siblings_ok, shown_keys. simpl. split; repeat constructor; simpl; try tauto; discriminate.
Qed.

Lemma enter_out h c s r s' : cinst_ok c -> enter defs h c s r s' -> raws_ok (outs r) /\ siblings_ok (outs r).
Proof.
  intros C (a & x & s1 & _ & R & EN). destruct r as [r|e text]; simpl in *.
  - destruct EN as [-> _]. destruct (run_body_out _ _ _ _ _ (render_fn_ok _ C) R) as [A B]. split; [split; [exact A|exact I]|exact B].
  - split; [exact I|split; constructor].
Qed.

Definition kind_ok (kd : child_kind) : Prop :=
  match kd with DictChild r => raw_ok r | CompChild c => cinst_ok c | StrChild _ => True end.

Lemma infos_ok l : forall i, raws_ok l -> Forall (fun x => kind_ok (fst x)) (children_infos i l).
Proof.
  induction l as [|r l IH]; intros i R; simpl; [constructor|]. destruct R as [R1 R2]. fold (raws_ok l) in R2.
  destruct r as [|x|tag attrs hs js imp ch|c]; cbn [child_info].
  - auto.
  - constructor; [exact I|auto].
  - destruct (attr_key attrs); constructor; auto.
  - destruct (ci_key c); constructor; auto.
Qed.

Definition shown (infos : list (child_kind * key)) : list string := map (fun i => show_key (snd i)) infos.

Definition kid_place (ks : list key) (t : tree) : Prop :=
  match tkey t with Some k => In k ks | None => exists s, t = TText s end.

Lemma tgts_at kp ks l t : kpoks kp l -> toks l -> Forall (kid_place ks) l -> Forall (fun k => nochar slash (show_key k)) ks ->
  In t (dkeys (tgtss l)) -> exists k, In k ks /\ under (sub_keypath kp (Some k)) t.
Proof.
  rewrite kpoks_Forall, toks_Forall, !Forall_forall. intros K T P N I.
  unfold dkeys in I. apply in_map_iff in I. destruct I as ([t' h] & E & I). simpl in E. subst t'.
  apply in_flat_map in I. destruct I as (x & Ix & I).
  specialize (P x Ix). red in P. pose proof (K x Ix) as Kx. simpl in Kx.
  destruct (tkey x) as [k|].
  - exists k. split; auto. eapply tgts_under; eauto.
  - destruct P as [s ->]. simpl in I. contradiction.
Qed.

Lemma sibling_disjoint kp k1 k2 t : nochar slash (show_key k1) -> nochar slash (show_key k2) ->
  under (sub_keypath kp (Some k1)) t -> under (sub_keypath kp (Some k2)) t -> show_key k1 = show_key k2.
Proof. intros N1 N2 U1 U2. eapply under_sibling; eauto. Qed.

Definition olds (kp : string) (l : list tree) : Prop := kpoks kp l /\ toks l /\ wfs l.

Lemma found_place ks okids : Forall (kid_place ks) (found ks okids).
Proof.
  apply Forall_forall. intros t I. unfold found in I. apply in_flat_map in I. destruct I as (k & Ik & I).
  destruct okids as [l|]; simpl in *; [|contradiction]. destruct (find_key k l) eqn:F; [|contradiction].
  destruct I as [<-|[]]. apply find_key_In in F. destruct F as [_ F]. red. rewrite F. auto.
Qed.
Lemma found_In ks okids t : In t (found ks okids) -> In t (okids_list okids).
Proof.
  intros I. unfold found in I. apply in_flat_map in I. destruct I as (k & Ik & I).
  destruct okids as [l|]; simpl in *; [|contradiction]. destruct (find_key k l) eqn:F; [|contradiction].
  destruct I as [<-|[]]. apply find_key_In in F. tauto.
Qed.
Lemma olds_sub kp l l' : (forall t, In t l' -> In t l) -> olds kp l -> olds kp l'.
Proof. unfold olds. rewrite !kpoks_Forall, !toks_Forall, !wfs_Forall, !Forall_forall. intuition. Qed.
Lemma olds_app kp l l' : olds kp (l ++ l') -> olds kp l /\ olds kp l'.
Proof.
  intros O. split; (eapply olds_sub; [|exact O]); intros; apply in_or_app; auto.
Qed.
Lemma gone_In ks okids t : In t (gone ks okids) -> In t (okids_list okids).
Proof. destruct okids; simpl; [|tauto]. intros I. apply filter_In in I. tauto. Qed.

Lemma In_tgtss_dkeys t l : In t (dkeys (tgtss l)) <-> exists x, In x l /\ In t (dkeys (tgts x)).
Proof.
  unfold tgtss, dkeys. split.
  - intros I. apply in_map_iff in I. destruct I as (p & <- & I). apply in_flat_map in I. destruct I as (x & Ix & I).
    exists x. split; auto. apply in_map; auto.
  - intros (x & Ix & I). apply in_map_iff in I. destruct I as (p & <- & I). apply in_map. apply in_flat_map. eauto.
Qed.

Lemma gone_found_tgts ks okids t : NoDup ks -> okids_wf okids ->
  In t (dkeys (tgtss (okids_list okids))) <-> In t (dkeys (tgtss (gone ks okids) ++ tgtss (found ks okids))).
Proof.
  intros ND W. rewrite dkeys_app, in_app_iff, !In_tgtss_dkeys. split.
  - intros (x & Ix & I). destruct okids as [l|]; simpl in *; [|contradiction].
    destruct (tkey x) as [k|] eqn:EK.
    + destruct (mem k ks) eqn:M.
      * right. exists x. split; auto. apply mem_In in M. apply in_flat_map. exists k. split; auto. simpl.
        destruct W as (OK & NDk & _). simpl in *.
        assert (F : find_key k l = Some x).
        { clear - Ix EK OK NDk. induction l as [|a l IH]; [contradiction|].
          assert (OKl : kids_ok l) by (intros t' I; apply OK; right; auto).
          unfold kid_dict in NDk. simpl in NDk. rewrite dkeys_app in NDk. simpl.
          destruct Ix as [->|Ix].
          - rewrite EK. destruct (eq_dec k k); congruence.
          - assert (NDl : NoDup (dkeys (kid_dict l))) by (eapply NoDup_app_r; exact NDk).
            specialize (IH OKl NDl Ix). destruct (tkey a) as [k'|] eqn:EA; auto.
            destruct (eq_dec k k') as [<-|]; auto. exfalso.
            destruct (OK a) as [N|[x' ->]]; [left; auto| |discriminate].
            rewrite (kid_entry_key a k N EA) in NDk. simpl in NDk. inversion NDk as [|? ? NI _]; subst. apply NI.
            destruct (in_dec eq_dec k (dkeys (kid_dict l))) as [|N2]; auto. apply find_key_None in N2; auto. congruence. }
        rewrite F. simpl; auto.
      * left. exists x. split; auto. apply filter_In. rewrite EK, M. auto.
    + destruct W as (OK & _). destruct (OK x Ix) as [N|[x' ->]]; [|simpl in I; contradiction].
      destruct x as [?|? ? ? ? ? ? ? ? ? ?|? [?|] ? ? ? ?]; simpl in *; discriminate.
  - intros [(x & Ix & I)|(x & Ix & I)]; exists x; split; auto; [eapply gone_In|eapply found_In]; eauto.
Qed.

Definition res_rt (s : st) (told : option tree) (s' : st) (t : tree) : Prop :=
  forall kp, (forall t0, told = Some t0 -> kpok kp t0 /\ tok t0 /\ wf t0) -> kpok kp t ->
  tok t /\ H s (tgtss (otree_list told)) (tgts t) s'.

Lemma told_um s told s0 kp (P : tree -> Prop) :
  told = None /\ s0 = s \/ (exists t, told = Some t /\ P t /\ um s [t] s0) ->
  (forall t0, told = Some t0 -> kpok kp t0 /\ tok t0 /\ wf t0) -> H s (tgtss (otree_list told)) [] s0.
Proof.
  intros [[-> ->]|(t & -> & _ & U)] A; [apply H_same; auto|].
  destruct (A t eq_refl) as (_ & T & W). apply um_H; auto; split; auto; exact I.
Qed.

Theorem render_H :
  (forall s told k c s' t, rc defs s told k c s' t -> cinst_ok c -> res_rt s told s' t) /\
  (forall s told k r s' t, rm defs s told k r s' t -> raw_ok r -> res_rt s told s' t) /\
  (forall s okids raws s' kids, rk defs s okids raws s' kids ->
     raws_ok raws -> siblings_ok raws -> okids_wf okids ->
     forall kp, olds kp (okids_list okids) -> kpoks kp kids ->
     toks kids /\ NoDup (node_keys kids) /\ Forall (nochar slash) (node_keys kids) /\
     Forall (fun t => match tkey t with Some k => nochar slash (show_key k) | None => exists x, t = TText x end) kids /\
     H s (tgtss (okids_list okids)) (tgtss kids) s') /\
  (forall s okids infos s' kids, rl defs s okids infos s' kids ->
     Forall (fun x => kind_ok (fst x)) infos -> NoDup (shown infos) -> Forall (nochar slash) (shown infos) ->
     okids_wf okids ->
     forall kp, olds kp (okids_list okids) -> kpoks kp kids ->
     toks kids /\ NoDup (node_keys kids) /\ (forall x, In x (node_keys kids) -> In x (shown infos)) /\
     Forall (kid_place (map snd infos)) kids /\
     H s (tgtss (found (map snd infos) okids)) (tgtss kids) s').
Proof.
  assert (W0 : okids_wf None) by (split; [intros ? []|split; [constructor|exact I]]).
  assert (O0 : forall kp, olds kp []) by (intros; repeat split; exact I).
  apply (render_deriv_ind defs
    (fun s told k c s' t _ => cinst_ok c -> res_rt s told s' t)
    (fun s told k r s' t _ => raw_ok r -> res_rt s told s' t)
    (fun s okids raws s' kids _ => raws_ok raws -> siblings_ok raws -> okids_wf okids ->
     forall kp, olds kp (okids_list okids) -> kpoks kp kids ->
     toks kids /\ NoDup (node_keys kids) /\ Forall (nochar slash) (node_keys kids) /\
     Forall (fun t => match tkey t with Some k => nochar slash (show_key k) | None => exists x, t = TText x end) kids /\
     H s (tgtss (okids_list okids)) (tgtss kids) s')
    (fun s okids infos s' kids _ => Forall (fun x => kind_ok (fst x)) infos -> NoDup (shown infos) -> Forall (nochar slash) (shown infos) ->
     okids_wf okids ->
     forall kp, olds kp (okids_list okids) -> kpoks kp kids ->
     toks kids /\ NoDup (node_keys kids) /\ (forall x, In x (node_keys kids) -> In x (shown infos)) /\
     Forall (kid_place (map snd infos)) kids /\
     H s (tgtss (found (map snd infos) okids)) (tgtss kids) s')).
  - (* rc_fresh *)
    intros s told k c s0 h m s2 r s3 kids s' D Eh EN RK IH DR CO kp TO KT.
    pose proof (told_um _ _ _ _ _ D TO) as U.
    destruct (enter_out _ _ _ _ _ CO EN) as [RO SO].
    destruct (IH RO SO W0 kp (O0 kp) KT) as (T1 & T2 & T3 & T4 & T5).
    split; [simpl; auto|]. constructor. intros t.
    rewrite (eh_did_render _ _ _ DR). destruct T5 as [T5]. rewrite T5.
    change (tgts (TComp m k h c r kids)) with (tgtss kids).
    destruct (dget t (tgtss kids)); auto. simpl. rewrite (eh_enter _ _ _ _ _ _ EN). simpl.
    destruct U as [U]. rewrite U. simpl. auto.
  - (* rc_same *)
    intros s m0 k h c0 out0 okids c m s2 r s3 kids s' ET EN FO RK IH DR CO kp TO KT.
    destruct (TO _ eq_refl) as (KP & TK & WF). simpl in WF. destruct WF as (OK & NDk & Wk). destruct TK as (N1 & N2 & N3).
    destruct (enter_out _ _ _ _ _ CO EN) as [RO SO].
    destruct (IH RO SO) with (kp := kp) as (T1 & T2 & T3 & T4 & T5); auto.
    { repeat split; auto. }
    { repeat split; auto. }
    split; [simpl; auto|]. constructor. intros t.
    rewrite (eh_did_render _ _ _ DR). destruct T5 as [T5]. rewrite T5.
    change (tgts (TComp m k h c r kids)) with (tgtss kids).
    destruct (dget t (tgtss kids)); auto. unfold tgtss at 2. simpl. rewrite app_nil_r.
    rewrite (eh_enter _ _ _ _ _ _ EN). simpl. auto.
  - (* rm_fresh *)
    intros s told k tag attrs hs js imp ch s0 m kp0 kids s' D RK IH RO kp TO KT.
    pose proof (told_um _ _ _ _ _ D TO) as U. simpl in KT. destruct KT as [-> KT]. fold (kpoks kp kids) in KT.
    simpl in RO. destruct RO as [HO RO].
    assert (RR : raws_ok (match ch with Some l => l | None => [] end) /\ siblings_ok (match ch with Some l => l | None => [] end)).
    { destruct ch; [split; apply RO|]. split; [exact I|split; constructor]. }
    destruct RR as [RO1 RO2].
    destruct (IH RO1 RO2 W0 kp (O0 kp) KT) as (T1 & T2 & T3 & T4 & T5).
    split; [simpl; auto|]. simpl tgts. fold (tgtss kids).
    rewrite <- (app_nil_r (tgtss (otree_list told))).
    assert (OWN : H s (tgtss (otree_list told)) (elem_tgts kp hs) (set_eh (reg_all kp hs (s_eh s0)) s0)).
    { constructor. intros t. simpl. rewrite reg_all_tab; [|apply HO|intros ev h J; apply (proj2 HO _ _ J)].
      destruct (dget t (elem_tgts kp hs)); auto. destruct U as [U]. rewrite U. simpl. auto. }
    eapply H_seq; [exact OWN|exact T5|intros; intros []|].
    intros t I1 I2. destruct (elem_own _ _ _ HO I1) as (ev & _ & NC & Et).
    apply (own_not_below kp ev t NC Et).
    destruct (tgts_at kp (flat_map (fun t => match tkey t with Some k => [k] | None => [] end) kids) kids t) as (k' & Ik & Uk); auto.
    { apply Forall_forall. intros x Ix. red. rewrite Forall_forall in T4. specialize (T4 x Ix). destruct (tkey x) eqn:EK; auto.
      apply in_flat_map. exists x. rewrite EK. simpl; auto. }
    { apply Forall_forall. intros k' Ik. apply in_flat_map in Ik. destruct Ik as (x & Ix & Ik).
      rewrite Forall_forall in T4. specialize (T4 x Ix). destruct (tkey x); [|contradiction]. destruct Ik as [<-|[]]; auto. }
    eapply under_below; [|exact Uk]. apply in_flat_map in Ik. destruct Ik as (x & Ix & Ik).
    rewrite Forall_forall in T4. specialize (T4 x Ix). destruct (tkey x); [|contradiction]. destruct Ik as [<-|[]]; auto.
  - (* rm_same *)
    intros s m0 k tag0 imp0 attrs0 js0 kp0 hs0 has0 okids tag attrs hs js imp ch s0 m kp1 kids s' D RK IH RO kp TO KT.
    simpl in KT. destruct KT as [-> KT]. fold (kpoks kp kids) in KT.
    destruct (TO _ eq_refl) as (KP & TK & WF). simpl in KP. destruct KP as [-> KP]. fold (kpoks kp okids) in KP.
    simpl in WF. destruct WF as (OK & NDk & Wk). destruct TK as (HO0 & N1 & N2 & N3). fold (toks okids) in N3.
    simpl in RO. destruct RO as [HO RO].
    assert (RR : raws_ok (match ch with Some l => l | None => [] end) /\ siblings_ok (match ch with Some l => l | None => [] end)).
    { destruct ch; [split; apply RO|]. split; [exact I|split; constructor]. }
    destruct RR as [RO1 RO2].
    assert (OKO : olds kp okids) by (repeat split; auto).
    destruct (IH RO1 RO2) with (kp := kp) as (T1 & T2 & T3 & T4 & T5); auto.
    { repeat split; auto. }
    split; [simpl; auto|]. simpl tgts. fold (tgtss kids).
    assert (OWN : H s (elem_tgts kp hs0) (elem_tgts kp hs) (set_eh (reg_all kp hs (s_eh s0)) s0)).
    { constructor. intros t. simpl. rewrite reg_all_tab; [|apply HO|intros ev h J; apply (proj2 HO _ _ J)].
      destruct (dget t (elem_tgts kp hs)) eqn:EH; auto. rewrite (del_handlers_tab _ _ _ D).
      assert (M : forall x, dget x (elem_tgts kp hs) = None ->
        In x (dvals (filter (fun et => negb (dmem (fst et) hs)) (targets kp hs0))) <-> In x (dkeys (elem_tgts kp hs0))).
      { intros x NX. rewrite <- targets_In by apply HO0. unfold dvals. rewrite !in_map_iff. split.
        - intros (p & <- & Ip). apply filter_In in Ip. exists p; tauto.
        - intros ([ev tg] & Ex & Ip). simpl in Ex. subst tg. exists (ev, x). split; auto. apply filter_In. split; auto. simpl.
          apply negb_true_iff. apply dmem_false. apply dget_None. intros J.
          assert (Ex : x = (kp ++ ":" ++ ev)%string).
          { assert (F : forall acc, Forall (fun p => snd p = (kp ++ ":" ++ fst p)%string) acc -> Forall (fun p => snd p = (kp ++ ":" ++ fst p)%string)
              (fold_left (fun acc (eh : string * handler) => dset (fst eh) (target_of kp (fst eh) (snd eh)) acc) hs0 acc)).
            { clear - HO0. destruct HO0 as [_ HO0]. induction hs0 as [|[e h] l IHl]; simpl; intros acc FA; auto.
              apply IHl; [intros; eapply HO0; right; eauto|].
              destruct (HO0 e h) as [HT _]; [left; auto|]. unfold target_of. rewrite HT. simpl.
              clear - FA. induction acc as [|[a b] acc IHa]; simpl.
              - repeat constructor.
              - inversion FA; subst. destruct (eq_dec e a); constructor; auto. }
            specialize (F [] (Forall_nil _)). rewrite Forall_forall in F. apply (F (ev, x)). exact Ip. }
          unfold dkeys in J. apply in_map_iff in J. destruct J as ([ev' h'] & Ee & J). simpl in Ee. subst ev'.
          apply dget_None in NX. apply NX. unfold dkeys, elem_tgts. rewrite map_map. apply in_map_iff.
          exists (ev, h'). split; auto. simpl. unfold target_of. rewrite (proj1 (proj2 HO _ _ J)). auto. }
      specialize (M t EH).
      destruct (mem t (dvals _)) eqn:M1, (mem t (dkeys (elem_tgts kp hs0))) eqn:M2; auto; exfalso.
      - apply mem_In in M1. apply mem_not_In in M2. tauto.
      - apply mem_not_In in M1. apply mem_In in M2. tauto. }
    assert (Q : tgtss (otree_list (Some (TElem m0 k tag0 imp0 attrs0 js0 kp hs0 has0 okids))) = elem_tgts kp hs0 ++ tgtss okids).
    { unfold tgtss. simpl. rewrite app_nil_r. auto. }
    rewrite Q. eapply H_seq; [exact OWN|exact T5| |].
    + intros t I1 I2. destruct (elem_own _ _ _ HO I1) as (ev & _ & NC & Et).
      apply (own_not_below kp ev t NC Et). simpl in I2.
      assert (OP : Forall (fun t => match tkey t with Some k => nochar slash (show_key k) | None => exists x, t = TText x end) okids).
      { apply Forall_forall. intros x Ix. destruct (tkey x) eqn:EK.
        - rewrite Forall_forall in N2. apply N2. unfold node_keys. apply in_flat_map. exists x. rewrite EK. simpl; auto.
        - destruct (OK x Ix) as [N|?]; auto.
          destruct x as [?|? ? ? ? ? ? ? ? ? ?|? [?|] ? ? ? ?]; simpl in *; discriminate. }
      destruct (tgts_at kp (flat_map (fun t => match tkey t with Some k => [k] | None => [] end) okids) okids t) as (k' & Ik & Uk); auto.
      { apply Forall_forall. intros x Ix. red. rewrite Forall_forall in OP. specialize (OP x Ix). destruct (tkey x) eqn:EK; auto.
        apply in_flat_map. exists x. rewrite EK. simpl; auto. }
      { apply Forall_forall. intros k' Ik. apply in_flat_map in Ik. destruct Ik as (x & Ix & Ik).
        rewrite Forall_forall in OP. specialize (OP x Ix). destruct (tkey x); [|contradiction]. destruct Ik as [<-|[]]; auto. }
      eapply under_below; [|exact Uk]. apply in_flat_map in Ik. destruct Ik as (x & Ix & Ik).
      rewrite Forall_forall in OP. specialize (OP x Ix). destruct (tkey x); [|contradiction]. destruct Ik as [<-|[]]; auto.
    + intros t I1 I2. destruct (elem_own _ _ _ HO I1) as (ev & _ & NC & Et).
      apply (own_not_below kp ev t NC Et).
      destruct (tgts_at kp (flat_map (fun t => match tkey t with Some k => [k] | None => [] end) kids) kids t) as (k' & Ik & Uk); auto.
      { apply Forall_forall. intros x Ix. red. rewrite Forall_forall in T4. specialize (T4 x Ix). destruct (tkey x) eqn:EK; auto.
        apply in_flat_map. exists x. rewrite EK. simpl; auto. }
      { apply Forall_forall. intros k' Ik. apply in_flat_map in Ik. destruct Ik as (x & Ix & Ik).
        rewrite Forall_forall in T4. specialize (T4 x Ix). destruct (tkey x); [|contradiction]. destruct Ik as [<-|[]]; auto. }
      eapply under_below; [|exact Uk]. apply in_flat_map in Ik. destruct Ik as (x & Ix & Ik).
      rewrite Forall_forall in T4. specialize (T4 x Ix). destruct (tkey x); [|contradiction]. destruct Ik as [<-|[]]; auto.
  - (* rk *)
    intros s okids raws s1 s' kids ND U RL IH RO SO W kp OL KT.
    destruct SO as [SO1 SO2]. rewrite shown_infos in SO1, SO2.
    destruct (IH (infos_ok raws 0 RO) SO1 SO2 W kp OL KT) as (T1 & T2 & T3 & T4 & T5).
    split; auto. split; auto. split; [|split].
    + apply Forall_forall. intros x Ix. rewrite Forall_forall in SO2. apply SO2. apply T3; auto.
    + apply Forall_forall. intros x Ix. rewrite Forall_forall in T4. specialize (T4 x Ix). red in T4.
      destruct (tkey x) as [k|]; auto. rewrite Forall_forall in SO2. apply SO2.
      apply in_map_iff in T4. destruct T4 as (i & <- & Ii). apply in_map_iff. exists i; auto.
    + eapply H_ext; [intros; symmetry; apply gone_found_tgts; eauto|].
      change (tgtss kids) with ([] ++ tgtss kids).
      eapply H_seq; [|exact T5|intros t []|intros t []].
      apply um_H; auto.
      * apply gone_wf; auto.
      * eapply olds_sub in OL; [apply OL|]. intros. eapply gone_In; eauto.
  - (* rl_nil *)
    intros s okids KO ND NS W kp OL KT. simpl. repeat split; auto; try constructor. 
  - (* rl_dict *)
    intros s okids r k rest s1 t s' ts RM IHm RL IHl KO ND NS W kp OL KT.
    simpl in ND, NS. inversion ND as [|? ? NDi NDr]; subst. inversion NS as [|? ? NSi NSr]; subst.
    inversion KO as [|? ? KOi KOr]; subst. destruct KT as [KT1 KT2]. fold (kpoks kp ts) in KT2.
    destruct (IHl KOr NDr NSr W kp OL KT2) as (T1 & T2 & T3 & T4 & T5).
    assert (TK : tkey t = Some k) by (inversion RM; subst; auto). rewrite TK in KT1.
    destruct (IHm KOi (sub_keypath kp (Some k))) as [M1 M2]; auto.
    { intros t0 F. assert (It0 : In t0 (found [k] okids)) by (unfold found; simpl; rewrite F; simpl; auto).
      eapply olds_sub in OL; [|intros t1 J; eapply found_In; exact J].
      destruct OL as (O1 & O2 & O3). rewrite kpoks_Forall in O1. rewrite toks_Forall in O2. rewrite wfs_Forall in O3.
      rewrite Forall_forall in *. specialize (O1 t0 It0). simpl in O1.
      pose proof (found_place [k] okids) as FP. rewrite Forall_forall in FP. specialize (FP t0 It0). red in FP.
      destruct (tkey t0) eqn:ET.
      - destruct FP as [<-|[]]. auto.
      - destruct FP as [x ->]. simpl. auto. }
    assert (NDK : NoDup (show_key k :: shown rest)) by auto.
    assert (KNS : Forall (fun k => nochar slash (show_key k)) (map snd rest)).
    { apply Forall_forall. intros k' Ik. rewrite Forall_forall in NSr. apply NSr. apply in_map_iff in Ik.
      destruct Ik as (i & <- & Ii). apply in_map_iff. exists i; auto. }
    assert (DIS : forall tg k', In tg (dkeys (tgts t)) -> In k' (map snd rest) -> under (sub_keypath kp (Some k')) tg -> False).
    { intros tg k' I1 Ik U2. unfold dkeys in I1. apply in_map_iff in I1. destruct I1 as ([tg' hd] & E1 & I1). simpl in E1. subst tg'.
      assert (U1 : under (sub_keypath kp (Some k)) tg) by (eapply tgts_under; eauto).
      assert (E : show_key k = show_key k').
      { eapply sibling_disjoint; [| |exact U1|exact U2]; auto. rewrite Forall_forall in KNS. auto. }
      apply NDi. rewrite E. apply in_map_iff in Ik. destruct Ik as (i & <- & Ii). apply in_map_iff. exists i; auto. }
    split; [split; auto|]. split; [|split; [|split]].
    + unfold node_keys. simpl. rewrite TK. simpl. constructor; auto.
    + unfold node_keys. simpl. rewrite TK. simpl. intros x [<-|J]; auto.
    + constructor; [red; rewrite TK; simpl; auto|]. eapply Forall_impl; [|exact T4].
      intros a P. red in P |- *. destruct (tkey a); simpl; auto.
    + unfold found. cbn [map snd flat_map]. rewrite tgtss_app. change (tgtss (t :: ts)) with (tgts t ++ tgtss ts).
      eapply H_seq; [exact M2|exact T5| |].
      * intros tg I1 I2.
        eapply olds_sub in OL; [|intros t1 J; eapply found_In with (ks := map snd rest); exact J].
        destruct OL as (O1 & O2 & O3).
        destruct (tgts_at kp (map snd rest) (found (map snd rest) okids) tg) as (k' & Ik & Uk); auto.
        { apply found_place. }
        eauto.
      * intros tg I1 I2. destruct (tgts_at kp (map snd rest) ts tg) as (k' & Ik & Uk); auto. eauto.
  - (* rl_comp *)
    intros s okids c k rest s1 t s' ts RM IHm RL IHl KO ND NS W kp OL KT.
    simpl in ND, NS. inversion ND as [|? ? NDi NDr]; subst. inversion NS as [|? ? NSi NSr]; subst.
    inversion KO as [|? ? KOi KOr]; subst. destruct KT as [KT1 KT2]. fold (kpoks kp ts) in KT2.
    destruct (IHl KOr NDr NSr W kp OL KT2) as (T1 & T2 & T3 & T4 & T5).
    assert (TK : tkey t = Some k) by (inversion RM; subst; auto). rewrite TK in KT1.
    destruct (IHm KOi (sub_keypath kp (Some k))) as [M1 M2]; auto.
    { intros t0 F. assert (It0 : In t0 (found [k] okids)) by (unfold found; simpl; rewrite F; simpl; auto).
      eapply olds_sub in OL; [|intros t1 J; eapply found_In; exact J].
      destruct OL as (O1 & O2 & O3). rewrite kpoks_Forall in O1. rewrite toks_Forall in O2. rewrite wfs_Forall in O3.
      rewrite Forall_forall in *. specialize (O1 t0 It0). simpl in O1.
      pose proof (found_place [k] okids) as FP. rewrite Forall_forall in FP. specialize (FP t0 It0). red in FP.
      destruct (tkey t0) eqn:ET.
      - destruct FP as [<-|[]]. auto.
      - destruct FP as [x ->]. simpl. auto. }
    assert (KNS : Forall (fun k => nochar slash (show_key k)) (map snd rest)).
    { apply Forall_forall. intros k' Ik. rewrite Forall_forall in NSr. apply NSr. apply in_map_iff in Ik.
      destruct Ik as (i & <- & Ii). apply in_map_iff. exists i; auto. }
    assert (DIS : forall tg k', In tg (dkeys (tgts t)) -> In k' (map snd rest) -> under (sub_keypath kp (Some k')) tg -> False).
    { intros tg k' I1 Ik U2. unfold dkeys in I1. apply in_map_iff in I1. destruct I1 as ([tg' hd] & E1 & I1). simpl in E1. subst tg'.
      assert (U1 : under (sub_keypath kp (Some k)) tg) by (eapply tgts_under; eauto).
      assert (E : show_key k = show_key k').
      { eapply sibling_disjoint; [| |exact U1|exact U2]; auto. rewrite Forall_forall in KNS. auto. }
      apply NDi. rewrite E. apply in_map_iff in Ik. destruct Ik as (i & <- & Ii). apply in_map_iff. exists i; auto. }
    split; [split; auto|]. split; [|split; [|split]].
    + unfold node_keys. simpl. rewrite TK. simpl. constructor; auto.
    + unfold node_keys. simpl. rewrite TK. simpl. intros x [<-|J]; auto.
    + constructor; [red; rewrite TK; simpl; auto|]. eapply Forall_impl; [|exact T4].
      intros a P. red in P |- *. destruct (tkey a); simpl; auto.
    + unfold found. cbn [map snd flat_map]. rewrite tgtss_app. change (tgtss (t :: ts)) with (tgts t ++ tgtss ts).
      eapply H_seq; [exact M2|exact T5| |].
      * intros tg I1 I2.
        eapply olds_sub in OL; [|intros t1 J; eapply found_In with (ks := map snd rest); exact J].
        destruct OL as (O1 & O2 & O3).
        destruct (tgts_at kp (map snd rest) (found (map snd rest) okids) tg) as (k' & Ik & Uk); auto.
        { apply found_place. }
        eauto.
      * intros tg I1 I2. destruct (tgts_at kp (map snd rest) ts tg) as (k' & Ik & Uk); auto. eauto.
  - (* rl_str *)
    intros s okids x k rest s1 s' ts U RL IHl KO ND NS W kp OL KT.
    simpl in ND, NS. inversion ND as [|? ? NDi NDr]; subst. inversion NS as [|? ? NSi NSr]; subst.
    inversion KO as [|? ? KOi KOr]; subst. destruct KT as [KT1 KT2]. fold (kpoks kp ts) in KT2.
    destruct (IHl KOr NDr NSr W kp OL KT2) as (T1 & T2 & T3 & T4 & T5).
    split; [split; [exact I|auto]|]. split; auto. split; [|split].
    + intros y J. right. apply T3; auto.
    + constructor; [red; simpl; eauto|]. eapply Forall_impl; [|exact T4].
      intros a P. red in P |- *. destruct (tkey a); simpl; auto.
    + unfold found. cbn [map snd flat_map]. rewrite tgtss_app. change (tgtss (TText x :: ts)) with ([] ++ tgtss ts).
      eapply H_seq; [|exact T5|intros ? []|intros ? []].
      apply um_H; auto.
      * apply otree_wf; auto.
      * eapply olds_sub in OL; [apply OL|]. intros t J. destruct (opt_find k okids) eqn:F; simpl in J; [|contradiction].
        destruct J as [<-|[]]. destruct okids as [l|]; simpl in *; [|discriminate]. apply find_key_In in F. tauto.
Qed.
End Handlers.

(** Targets of a tree are distinct. *)
Lemma NoDup_dkeys_app {V} (a b : dict string V) : NoDup (dkeys a) -> NoDup (dkeys b) ->
  (forall t, In t (dkeys a) -> ~ In t (dkeys b)) -> NoDup (dkeys (a ++ b)).
Proof.
  rewrite dkeys_app. intros A B D. induction (dkeys a); simpl; auto. inversion A; subst. constructor.
  - intros I. apply in_app_iff in I. destruct I; auto. apply (D a0); simpl; auto.
  - apply IHl; auto. intros t I. apply D. right; auto.
Qed.

Lemma tgts_NoDup t : forall kp, kpok kp t -> tok t -> wf t -> NoDup (dkeys (tgts t)).
Proof.
  assert (KL : forall kp kids, Forall (fun t => forall kp, kpok kp t -> tok t -> wf t -> NoDup (dkeys (tgts t))) kids ->
     kpoks kp kids -> toks kids -> wfs kids -> kids_ok kids -> NoDup (node_keys kids) -> Forall (nochar slash) (node_keys kids) ->
     NoDup (dkeys (tgtss kids)) /\ forall t, In t (dkeys (tgtss kids)) -> exists s, In s (node_keys kids) /\ under (kp ++ "/" ++ s)%string t).
  { clear t. intros kp kids. induction kids as [|a l IH]; intros F K T W OK ND NS; simpl; [split; [constructor|intros ? []]|].
    inversion F as [|? ? F1 F2]; subst. destruct K as [K1 K2]. destruct T as [T1 T2]. destruct W as [W1 W2].
    assert (OKl : kids_ok l) by (intros t' I; apply OK; right; auto).
    unfold node_keys in ND, NS. simpl in ND, NS.
    assert (NDl : NoDup (node_keys l)) by (eapply NoDup_app_r; exact ND).
    apply Forall_app in NS. destruct NS as [NS1 NS2].
    destruct (IH F2 K2 T2 W2 OKl NDl NS2) as [I1 I2].
    assert (UA : forall t, In t (dkeys (tgts a)) -> exists k, tkey a = Some k /\ under (kp ++ "/" ++ show_key k)%string t).
    { intros t J. unfold dkeys in J. apply in_map_iff in J. destruct J as ([t' hd] & E & J). simpl in E. subst t'.
      pose proof (tgts_under a _ t hd K1 T1 J) as U. destruct (tkey a) eqn:EK.
      - exists k. split; auto.
      - destruct (OK a) as [N|[x ->]]; [left; auto| |simpl in J; contradiction].
        destruct a as [?|? ? ? ? ? ? ? ? ? ?|? [?|] ? ? ? ?]; simpl in *; discriminate. }
    split.
    - change (tgtss (a :: l)) with (tgts a ++ tgtss l). apply NoDup_dkeys_app; eauto.
      intros t J1 J2. destruct (UA t J1) as (k & EK & U1). destruct (I2 t J2) as (s & Is & U2).
      rewrite EK in *. simpl in *. inversion ND as [|? ? NI _]; subst. inversion NS1; subst.
      assert (E : show_key k = s).
      { eapply under_sibling; [| |exact U1|exact U2]; auto. rewrite Forall_forall in NS2. auto. }
      apply NI. rewrite E. auto.
    - intros t J. unfold tgtss in J. simpl in J. rewrite dkeys_app in J. apply in_app_iff in J. destruct J as [J|J].
      + destruct (UA t J) as (k & EK & U1). exists (show_key k). split; auto. unfold node_keys. simpl. rewrite EK. simpl; auto.
      + destruct (I2 t J) as (s & Is & U2). exists s. split; auto. unfold node_keys. simpl. apply in_or_app; auto. }
  induction t using tree_ind'; intros kp' K T W; simpl in *; [constructor| |].
  - destruct K as [-> K]. destruct T as (HO & NK & NS & T). destruct W as (OK & NDk & W).
    destruct (KL kp' kids H0 K T W OK NK NS) as [K1 K2].
    apply NoDup_dkeys_app; auto.
    + unfold dkeys, elem_tgts. rewrite map_map. destruct HO as [ND HO].
      rewrite (map_ext_in _ (fun eh => (kp' ++ ":" ++ fst eh)%string)).
      * clear - ND. unfold dkeys in ND. induction hs as [|[e h] l IH]; simpl; [constructor|]. inversion ND as [|? ? NI NDl]; subst. constructor; auto.
        intros J. apply in_map_iff in J. destruct J as ([e' h'] & E & J). apply app_inj_l in E. simpl in E. injection E as ->.
        apply NI. apply in_map_iff. exists (e, h'); auto.
      * intros [e h] J. simpl. unfold target_of. rewrite (proj1 (HO _ _ J)). auto.
    + intros t I1 I2. destruct (elem_own _ _ _ HO I1) as (ev & _ & NC & Et).
      apply (own_not_below kp' ev t NC Et). destruct (K2 t I2) as (s & Is & (r & e & -> & S & C)).
      exists s, r, e. rewrite !app_assoc_s. rewrite Forall_forall in NS. auto.
  - destruct T as (NK & NS & T). destruct W as (OK & NDk & W).
    destruct (KL kp' kids H0 K T W OK NK NS) as [K1 K2]. auto.
Qed.
