(** * History invariants about outputs, contexts and event handlers; proof-side only *)
From Coq Require Import String ZArith Bool Arith Lia List Permutation.
From Verif Require Import Dict Strings LayoutTypes LayoutModel BodySpec DisplaySpec GuardSpec LayoutObs LayoutTree LayoutDeriv LayoutExec
  LayoutFacts LayoutSettled LayoutContext LayoutHandlers LayoutShape LayoutOps LayoutNoCrash LayoutStep LayoutInv LayoutMain.
Import ListNotations.
Local Open Scope string_scope.
Local Open Scope list_scope.

Section Live.
Variable defs : nat -> val -> list raw -> body.
Variable root : cinst.
Hypothesis defs_steady : forall n p l, steady (defs n p l).
Hypothesis defs_np : forall n p l, no_provide (defs n p l).

Notation Inv := (Inv root).
Notation stepped := (stepped defs).

Record Live (s : st) (T : tree) : Prop := {
  l_good : forall i, In i (comps T) -> good defs s i /\ ready (get_hook (fst i) s);
  l_ctx : (T = T0 root /\ updates (s_log s) = [] /\ pctx s no_ctx T) \/ ctx_ok s no_ctx T
}.

Lemma Live_init : Live (init root) (T0 root).
Proof.
  constructor.
  - intros i [<-|[]]. split; [left; left; reflexivity|]. split; reflexivity.
  - left. split; [reflexivity|]. split; [reflexivity|]. split; [constructor|]. split; [|exact I].
    intros y E. reflexivity.
Qed.

Lemma stepped_Live s T o s' T' : Inv s T -> Live s T -> stepped s T o s' T' -> Live s' T'.
Proof.
  intros IV [LG LC] SP. destruct SP as [e|bs s' SV|bs p m s' T' SV].
  - assert (HS : hstep anyh s (env_step s e)) by apply hstep_env_step.
    assert (LT : forall i, In i (comps T) -> fst i < length (s_hooks s)).
    { intros i J. apply (i_lt _ _ _ IV). apply in_map. exact J. }
    assert (HC : forall x, In x (hids T) -> hk_ctx (get_hook x (env_step s e)) = hk_ctx (get_hook x s)).
    { intros x J. eapply hstep_ctx; [exact HS|exact I|]. apply (i_lt _ _ _ IV); auto. }
    constructor.
    + intros i J. destruct (LG i J) as [G1 G2]. split.
      * eapply good_hstep; [exact HS|exact I|auto|exact G1].
      * eapply ready_hstep; [exact HS|exact I|auto|exact G2].
    + destruct LC as [(-> & U & LC)|LC]; [left|right].
      * split; auto. split; [rewrite (proj1 (proj2 (proj2 (proj2 (quiet_env s e))))); exact U|]. destruct LC as (C1 & C2 & C3). unfold pctx, T0 in *. unfold ctx_of in *.
        rewrite (HC 0) by (left; reflexivity). split; [exact C1|]. split; [exact C2|exact I].
      * eapply ctx_ok_hooks; [|exact LC]. exact HC.
  - inversion SV; subst. constructor.
    + intros i J. destruct (LG i J) as [[G1|G1] G2]; (split; [|exact G2]).
      * exfalso. match goal with HH : forall x, In x _ -> _ = None |- _ => specialize (HH _ G1) end. simpl in *.
        rewrite (i_reg _ _ _ IV) in *. 
        match goal with HH : dget _ (cregs _) = None |- _ => apply cregs_None in HH; apply HH end. apply in_map; exact J.
      * right. exact G1.
    + destruct LC as [(-> & U & LC)|LC]; [left; split; [reflexivity|]; split; [simpl; rewrite updates_app, updates_skips, app_nil_r; exact U|exact LC]|right].
      eapply ctx_ok_hooks; [|exact LC]. reflexivity.
  - assert (IV' : Inv (set_env bs s) T) by (apply Inv_env; exact IV).
    inversion SV; subst.
    match goal with RC : rc _ _ (Some ?td) _ _ _ _ |- _ => set (told := td) in * end.
    assert (RDY : forall i, In i (comps (plug C told)) -> ready (get_hook (fst i) (set_env bs s))) by (intros i J; apply (LG i J)).
    assert (GD : forall i, In i (comps (plug C told)) -> good defs (set_env bs s) i) by (intros i J; apply (LG i J)).
    constructor.
    + eapply (sv_good defs root (set_env bs s) (plug C told) skips h q' C m0 (tkey t) c out kids t s2 s3 hp); [exact IV'|eassumption|eassumption|reflexivity|eassumption|eassumption|exact defs_steady|exact RDY|exact GD].
    + right.
      assert (X : ctx_ok (set_stack [] (set_heap hp s3)) no_ctx (plug C t)).
      { eapply (sv_ctx defs root (set_env bs s) (plug C told) skips h q' C m0 (tkey t) c out kids t s2 s3 hp); [exact IV'|eassumption|eassumption|reflexivity|eassumption|eassumption|eassumption|exact defs_steady|exact RDY|exact defs_np|].
        destruct LC as [(E & _ & LC)|LC].
        - right. symmetry in E. assert (IC : is_comp told) by exact I. destruct (plug_T0 root _ _ E IC) as [EC ET]. split; [exact EC|].
          rewrite EC, ET in *. cbn [plug] in *. destruct LC as (C1 & C2 & C3). split; [exact C1|]. split; [exact C2|exact I].
        - left. eapply ctx_ok_hooks; [|exact LC]. reflexivity. }
      eapply ctx_ok_hooks; [|exact X]. reflexivity.
Qed.

(** ** Display *)

Lemma program_fn c : program defs c = render_fn defs c.
Proof. destruct c as [[n|x] k p kids]; reflexivity. Qed.

(** An output is right or a render is pending, or the last render failed as shown. *)
Definition shown (debug : bool) (s : st) (i : cinfo) : Prop :=
  good defs s i /\ fated (s_log s) (fst i) (snd (snd i)) /\ texts debug [i].

Lemma all_out_current debug s t : forall env, ctx_ok s env t -> (forall i, In i (comps t) -> shown debug s i) ->
  all_out (current debug defs s) env t.
Proof.
  assert (KL : forall l env, Forall (fun t => forall env, ctx_ok s env t -> (forall i, In i (comps t) -> shown debug s i) ->
     all_out (current debug defs s) env t) l -> ctxs_ok s env l -> (forall i, In i (flat_map comps l) -> shown debug s i) ->
     fold_right and True (map (all_out (current debug defs s) env) l)).
  { induction l as [|a l IH]; intros env F C G; simpl; [exact I|]. inversion F as [|? ? F1 F2]; subst. destruct C as [C1 C2].
    split; [apply F1; auto|apply IH; auto]; intros i J; apply G; simpl; rewrite in_app_iff; auto. }
  induction t using tree_ind'; intros env C G; simpl; auto.
  destruct C as (C1 & C2 & C3). split.
  - destruct (G (h, (m, c, out)) (or_introl eq_refl)) as [[GG|[_ GG]] FF]; [left; exact GG|right]. simpl in GG, FF.
    destruct FF as [FF TX]. unfold right. destruct out as [r|e x]; [|split; [exact FF|exact (TX _ _ _ _ _ (or_introl eq_refl))]].
    split; [|exact FF]. rewrite program_fn. eapply returns_ext; [|exact GG]. exact C2.
  - apply KL; auto. intros i J. apply G. right. exact J.
Qed.

Lemma all_out_ctx s t : forall env, ctx_ok s env t ->
  all_out (fun h c env out => forall y, dget y (hk_ctx (get_hook h s)) = visible c env y) env t.
Proof.
  assert (KL : forall l env, Forall (fun t => forall env, ctx_ok s env t ->
     all_out (fun h c env out => forall y, dget y (hk_ctx (get_hook h s)) = visible c env y) env t) l -> ctxs_ok s env l ->
     fold_right and True (map (all_out (fun h c env out => forall y, dget y (hk_ctx (get_hook h s)) = visible c env y) env) l)).
  { induction l as [|a l IH]; intros env F C; simpl; [exact I|]. inversion F as [|? ? F1 F2]; subst. destruct C as [C1 C2].
    split; [apply F1; auto|apply IH; auto]. }
  induction t using tree_ind'; intros env C; simpl; auto.
  destruct C as (C1 & C2 & C3). split; [exact C2|apply KL; auto].
Qed.

End Live.

(** ** Event handlers *)

Section Hand.
Variable defs : nat -> val -> list raw -> body.
Variable root : cinst.
Hypothesis defs_ok : forall n p kids, raws_ok kids -> body_ok (defs n p kids).
Hypothesis root_ok : cinst_ok root.

Notation Inv := (Inv root).
Notation stepped := (stepped defs).

Definition comp_of (i : cinfo) : cinst := snd (fst (snd i)).

Lemma render_cok :
  (forall s told k c s' t, rc defs s told k c s' t -> cinst_ok c -> forall i, In i (comps t) -> cinst_ok (comp_of i)) /\
  (forall s told k r s' t, rm defs s told k r s' t -> raw_ok r -> forall i, In i (comps t) -> cinst_ok (comp_of i)) /\
  (forall s okids raws s' kids, rk defs s okids raws s' kids -> raws_ok raws ->
     forall i, In i (flat_map comps kids) -> cinst_ok (comp_of i)) /\
  (forall s okids infos s' kids, rl defs s okids infos s' kids -> Forall (fun x => kind_ok (fst x)) infos ->
     forall i, In i (flat_map comps kids) -> cinst_ok (comp_of i)).
Proof.
  apply (render_deriv_ind defs
    (fun s told k c s' t _ => cinst_ok c -> forall i, In i (comps t) -> cinst_ok (comp_of i))
    (fun s told k r s' t _ => raw_ok r -> forall i, In i (comps t) -> cinst_ok (comp_of i))
    (fun s okids raws s' kids _ => raws_ok raws -> forall i, In i (flat_map comps kids) -> cinst_ok (comp_of i))
    (fun s okids infos s' kids _ => Forall (fun x => kind_ok (fst x)) infos -> forall i, In i (flat_map comps kids) -> cinst_ok (comp_of i))).
  - intros s told k c s0 h m s2 r s3 kids s' D Eh EN RK IH DR CO i [<-|J]; [exact CO|].
    apply IH; [|exact J]. exact (proj1 (enter_out defs defs_ok _ _ _ _ _ CO EN)).
  - intros s m0 k h c0 out0 okids c m s2 r s3 kids s' ET EN FO RK IH DR CO i [<-|J]; [exact CO|].
    apply IH; [|exact J]. exact (proj1 (enter_out defs defs_ok _ _ _ _ _ CO EN)).
  - intros s told k tag attrs hs js imp ch s0 m kp kids s' D RK IH RO i J. simpl in J. apply IH; [|exact J].
    destruct ch; [apply RO|exact I].
  - intros s m0 k tag0 imp0 attrs0 js0 kp0 hs0 has0 okids tag attrs hs js imp ch s0 m kp kids s' D RK IH RO i J. simpl in J.
    apply IH; [|exact J]. destruct ch; [apply RO|exact I].
  - intros s okids raws s1 s' kids ND U RL IH RO i J. apply IH; [apply infos_ok; exact RO|exact J].
  - intros s okids F i [].
  - intros s okids r k rest s1 t s' ts RM IHm RL IHl F i J. inversion F as [|? ? F1 F2]; subst. simpl in J. apply in_app_iff in J.
    destruct J as [J|J]; [apply IHm; auto|apply IHl; auto].
  - intros s okids c k rest s1 t s' ts RM IHm RL IHl F i J. inversion F as [|? ? F1 F2]; subst. simpl in J. apply in_app_iff in J.
    destruct J as [J|J]; [apply IHm; auto|apply IHl; auto].
  - intros s okids x k rest s1 s' ts U RL IHl F i J. inversion F as [|? ? F1 F2]; subst. apply IHl; auto.
Qed.

Lemma node_keys_mid l r t t' : tkey t' = tkey t -> node_keys (l ++ t' :: r) = node_keys (l ++ t :: r).
Proof. intros E. unfold node_keys. rewrite !flat_map_app. cbn [flat_map]. rewrite E. reflexivity. Qed.

Lemma tok_plug C : forall told t, similar told t -> tok (plug C told) -> tok told /\ (tok t -> tok (plug C t)).
Proof.
  induction C as [|f C IH]; intros told t SM TO; [simpl in *; auto|]. cbn [plug] in *.
  assert (KEY : tkey (plug C t) = tkey (plug C told)) by (apply plug_key; exact SM).
  destruct f as [m k tag imp attrs js kp hs has l r|m k h c out l r]; cbn [plug1 tok] in *;
    rewrite (node_keys_mid l r (plug C told) (plug C t) KEY).
  - destruct TO as (T1 & T2 & T3 & T4). change (toks (l ++ plug C told :: r)) in T4. change (fold_right and True (map tok (l ++ plug C t :: r))) with (toks (l ++ plug C t :: r)). rewrite toks_Forall in *.
    apply Forall_app in T4. destruct T4 as [T4 T5]. inversion T5 as [|? ? T6 T7]; subst.
    destruct (IH told t SM T6) as [A B]. split; auto. intros TT. split; [exact T1|]. split; [exact T2|]. split; [exact T3|].
    apply Forall_app. split; auto.
  - destruct TO as (T2 & T3 & T4). change (toks (l ++ plug C told :: r)) in T4. change (fold_right and True (map tok (l ++ plug C t :: r))) with (toks (l ++ plug C t :: r)). rewrite toks_Forall in *.
    apply Forall_app in T4. destruct T4 as [T4 T5]. inversion T5 as [|? ? T6 T7]; subst.
    destruct (IH told t SM T6) as [A B]. split; auto. intros TT. split; [exact T2|]. split; [exact T3|].
    apply Forall_app. split; auto.
Qed.

Lemma kpok_plug C : forall kp told t, similar told t -> kpok kp (plug C told) -> kpok kp (plug C t) ->
  exists kp', kpok kp' told /\ kpok kp' t.
Proof.
  induction C as [|f C IH]; intros kp told t SM K1 K2; [simpl in *; eauto|]. cbn [plug] in *.
  assert (KEY : tkey (plug C t) = tkey (plug C told)) by (apply plug_key; exact SM).
  assert (X : forall l r x kp, kpoks kp (l ++ x :: r) -> kpok (sub_keypath kp (tkey x)) x).
  { intros l r x kp0 K. rewrite kpoks_Forall in K. apply Forall_app in K. destruct K as [_ K]. inversion K; auto. }
  destruct f as [m k tag imp attrs js kp0 hs has l r|m k h c out l r]; cbn [plug1 kpok] in *.
  - destruct K1 as [_ K1], K2 as [_ K2]. apply X in K1, K2. rewrite KEY in K2. eapply IH; eauto.
  - apply X in K1, K2. rewrite KEY in K2. eapply IH; eauto.
Qed.

Record Hand (s : st) (T : tree) : Prop := {
  hd_tok : tok T;
  hd_comp : forall i, In i (comps T) -> cinst_ok (comp_of i);
  hd_tab : forall x, dget x (s_eh s) = dget x (tgts T)
}.

Lemma Hand_init : Hand (init root) (T0 root).
Proof.
  constructor; [split; [constructor|split; [constructor|exact I]]| |reflexivity]. intros i [<-|[]]. exact root_ok.
Qed.

Lemma stepped_Hand s T o s' T' : Inv s T -> Hand s T -> stepped s T o s' T' -> Hand s' T'.
Proof.
  intros IV [HT HC HB] SP. pose proof (stepped_Inv defs root _ _ _ _ _ IV SP) as IV2. destruct SP as [e|bs s' SV|bs p m s' T' SV].
  - constructor; auto. intros x. rewrite <- HB. f_equal. apply (quiet_env s e).
  - inversion SV; subst. constructor; auto.
  - assert (IV' : Inv (set_env bs s) T) by (apply Inv_env; exact IV). inversion SV; subst.
    match goal with RC : rc _ _ (Some ?td) _ _ _ _ |- _ => set (told := td) in *; rename RC into RCT end.
    assert (SM : similar told t) by (split; [reflexivity|split; [exact I|assumption]]).
    destruct (tok_plug C told t SM HT) as [TT TP].
    assert (KP1 : kpok "" (plug C told)) by (eapply rep_kpok; apply (i_rep _ _ _ IV)).
    assert (KP2 : kpok "" (plug C t)) by (eapply rep_kpok; apply (i_rep _ _ _ IV2)).
    destruct (kpok_plug C "" told t SM KP1 KP2) as (kp & K1 & K2).
    assert (CO : cinst_ok c) by (apply (HC (h, (m0, c, out))); rewrite comps_plug, !in_app_iff; right; left; left; reflexivity).
    assert (WT : wf told) by (eapply sv_wf_told; [exact IV'|reflexivity]).
    destruct (render_H defs defs_ok) as (RH & _).
    destruct (RH _ _ _ _ _ _ RCT CO kp) as [TOK HH]; [intros t0 E0; injection E0 as <-; auto|exact K2|].
    assert (FX := sv_facts defs root (set_env bs s) (plug C told) skips h q' C m0 (tkey t) c out kids t s2 s3 IV' eq_refl RCT ltac:(assumption)).
    destruct FX as (_ & _ & F3 & _).
    constructor; auto.
    + intros i J. rewrite comps_plug, !in_app_iff in J.
      assert (O : In i (comps (plug C told)) \/ In i (comps t)) by (rewrite comps_plug, !in_app_iff; tauto).
      destruct O as [O|O]; [auto|]. destruct render_cok as (RK & _). eapply RK; eauto.
    + intros x. simpl. rewrite F3. change (s_eh s2) with (s_eh (N s2)). destruct HH as [HH]. rewrite HH.
      change (s_eh (N (before (set_env bs s) skips q'))) with (s_eh s). rewrite HB.
      assert (ND1 : NoDup (dkeys (tgts (plug C told)))) by (eapply tgts_NoDup; [exact KP1|exact HT|apply (i_wf _ _ _ IV)]).
      assert (ND2 : NoDup (dkeys (tgts (plug C t)))) by (eapply tgts_NoDup; [exact KP2|auto|apply (i_wf _ _ _ IV2)]).
      rewrite !tgts_plug in *. rewrite !dget_app.
      assert (EO : tgtss (otree_list (Some told)) = tgts told) by (unfold tgtss, otree_list, flat_map; apply app_nil_r).
      rewrite EO. rewrite !dkeys_app in ND1, ND2.
      destruct (dget x (tgts t)) eqn:ET.
      * assert (NA : dget x (tA C) = None).
        { destruct (dget x (tA C)) eqn:EA; auto. apply dget_Some_key in EA. apply dget_Some_key in ET.
          eapply NoDup_app_disj in EA; [|exact ND2]. exfalso. apply EA. apply in_or_app; auto. }
        rewrite NA. reflexivity.
      * destruct (mem x (dkeys (tgts told))) eqn:EM.
        -- apply mem_In in EM.
           assert (NA : dget x (tA C) = None).
           { destruct (dget x (tA C)) eqn:EA; auto. apply dget_Some_key in EA.
             eapply NoDup_app_disj in EA; [|exact ND1]. exfalso. apply EA. apply in_or_app; auto. }
           assert (NB : dget x (tB C) = None).
           { destruct (dget x (tB C)) eqn:EB; auto. apply dget_Some_key in EB. apply NoDup_app_r in ND1.
             eapply NoDup_app_disj in EM; [|exact ND1]. contradiction. }
           rewrite NA, NB. reflexivity.
        -- apply mem_not_In in EM. apply dget_None in EM. rewrite EM. reflexivity.
Qed.

End Hand.
