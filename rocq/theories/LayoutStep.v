(** * One call of [render()] on a represented tree; proof-side only *)
From Coq Require Import String ZArith Bool Arith Lia List Permutation.
From Verif Require Import Dict LayoutTypes LayoutModel BodySpec DisplaySpec LayoutTree LayoutDeriv LayoutExec LayoutFacts
  LayoutSettled LayoutContext LayoutShape LayoutOps LayoutNoCrash.
Import ListNotations.
Local Open Scope string_scope.
Local Open Scope list_scope.

(** ** Leaving the exit stack *)

Definition clear_effects (h : nat) (s : st) : st :=
  let hk := get_hook h s in
  put_hook h (Hook (hk_cells hk) (hk_idx hk) (hk_once hk) (hk_sched hk) [] (hk_ctx hk)) s.

Lemma run_exit_total hs : forall s, exists s', run_exit hs s = (Ok tt, s').
Proof.
  induction hs as [|h hs IH]; intros s; simpl; [eexists; reflexivity|]. unfold bind.
  unfold layout_did_render, log, modify. apply IH.
Qed.

(** Events emitted when the exit stack is left. *)
Definition effects_of (hs : list nat) (s : st) : list event :=
  map (fun h => EvEffects h (hk_effects (get_hook h s))) hs.

Lemma run_exit_facts hs : forall s s', run_exit hs s = (Ok tt, s') -> NoDup hs ->
  s_heap s' = s_heap s /\ s_reg s' = s_reg s /\ s_eh s' = s_eh s /\ s_queue s' = s_queue s /\
  s_seq s' = s_seq s /\ s_env s' = s_env s /\ length (s_hooks s') = length (s_hooks s) /\
  s_log s' = s_log s ++ effects_of hs s /\
  forall x, let k := get_hook x s in let k' := get_hook x s' in
    hk_cells k' = hk_cells k /\ hk_idx k' = hk_idx k /\ hk_once k' = hk_once k /\ hk_sched k' = hk_sched k /\
    hk_ctx k' = hk_ctx k /\ (In x hs -> hk_effects k' = []) /\ (~ In x hs -> hk_effects k' = hk_effects k).
Proof.
  induction hs as [|h hs IH]; intros s s' H ND; simpl in H.
  - inversion H; subst. unfold effects_of. simpl. rewrite app_nil_r. repeat split; auto. contradiction.
  - inversion ND as [|? ? NI ND']; subst. unfold bind in H.
    unfold layout_did_render, log, modify in H.
    set (s1 := set_log _ _) in H.
    destruct (IH _ _ H ND') as (A & B & C & D & E & F & G & L & K).
    assert (LEN : length (s_hooks s1) = length (s_hooks s)) by (simpl; apply upd_length).
    assert (OTH : forall x, x <> h -> get_hook x s1 = get_hook x s).
    { intros x NE. change (get_hook x s1) with (get_hook x (clear_effects h s)). unfold clear_effects. apply get_put_other; auto. }
    assert (SAME : let k := get_hook h s in let k' := get_hook h s1 in
      hk_cells k' = hk_cells k /\ hk_idx k' = hk_idx k /\ hk_once k' = hk_once k /\ hk_sched k' = hk_sched k /\ hk_ctx k' = hk_ctx k /\ hk_effects k' = []).
    { change (get_hook h s1) with (get_hook h (clear_effects h s)). unfold clear_effects.
      destruct (Nat.lt_ge_cases h (length (s_hooks s))) as [LT|GE].
      - rewrite get_put_same by auto. simpl. auto 10.
      - rewrite !get_beyond; simpl; rewrite ?upd_length; auto 10. }
    split; [exact A|]. split; [exact B|]. split; [exact C|]. split; [exact D|]. split; [exact E|]. split; [exact F|].
    split; [rewrite G; exact LEN|]. split.
    + rewrite L. simpl. rewrite <- app_assoc. f_equal. simpl. f_equal. unfold effects_of. apply map_ext_in. intros x I.
      rewrite OTH; auto. intros ->; contradiction.
    + intros x. cbn zeta. destruct (K x) as (K1 & K2 & K3 & K4 & K5 & K6 & K7). cbn zeta in SAME.
      destruct (Nat.eq_dec x h) as [->|NE].
      * destruct SAME as (Q1 & Q2 & Q3 & Q4 & Q5 & Q6). rewrite K1, K2, K3, K4, K5.
        split; [exact Q1|]. split; [exact Q2|]. split; [exact Q3|]. split; [exact Q4|]. split; [exact Q5|]. split.
        -- intros _. rewrite K7 by exact NI. exact Q6.
        -- intros F'. exfalso. apply F'. left; auto.
      * rewrite (OTH x NE) in *. split; [exact K1|]. split; [exact K2|]. split; [exact K3|]. split; [exact K4|]. split; [exact K5|]. split.
        -- intros [F'|F']; [congruence|auto].
        -- intros F'. apply K7. intros I. apply F'. right; auto.
Qed.

Section Step.
Variable debug : bool.
Variable defs : nat -> val -> list raw -> body.
Variable root : cinst.

(** The heap represents [T], and the registry contains exactly its components. *)
Record Inv (s : st) (T : tree) : Prop := {
  i_rep : rep (s_heap s) None 0 [] "" T;
  i_wf : wf T;
  i_incr : incr T;
  i_nodup : NoDup (hids T);
  i_lt : forall h, In h (hids T) -> h < length (s_hooks s);
  i_reg : forall x, dget x (s_reg s) = dget x (cregs (comps T));
  i_shape : shape (RComp root) T;
  i_key : tkey T = None;
  i_told : Forall (ok_render (s_log s)) (branches T)
}.

Definition before (s : st) (skips q' : list nat) : st :=
  set_exit [] (set_stack [] (set_queue q' (set_log (s_log s ++ map EvSkip skips) s))).

(** What one call of [render()] does: it skips unmounted components, then re-renders one. *)
Inductive served (s : st) (T : tree) : res (option (list nat * model)) -> st -> tree -> Prop :=
| S_none :
    (forall x, In x (s_queue s) -> dget x (s_reg s) = None) ->
    served s T (Ok None) (set_log (s_log s ++ map EvSkip (s_queue s)) (set_queue [] s)) T
| S_some skips h q' C m0 k c out kids t s2 s3 hp :
    s_queue s = skips ++ h :: q' -> (forall x, In x skips -> dget x (s_reg s) = None) ->
    T = plug C (TComp m0 k h c out kids) ->
    rc defs (N (before s skips q')) (Some (TComp m0 k h c out kids)) k c (N s2) t ->
    run_exit (s_exit s2) s2 = (Ok tt, s3) ->
    rep hp None 0 [] "" (plug C t) -> Forall (fun m => length (s_heap s) <= m) (mids t) -> incr t ->
    is_comp t -> tkey t = k ->
    served s T (Ok (Some (cpath C, view t))) (set_stack [] (set_heap hp s3)) (plug C t).

Lemma Inv_alive s T p : Inv s T -> In p (mids T) -> alive s p = true.
Proof.
  intros I J. pose proof (i_shape _ _ I) as SH. inversion SH; subst.
  assert (RG : dget h (s_reg s) = Some m) by (rewrite (i_reg _ _ I); simpl; destruct (eq_dec h h); congruence).
  apply dget_Some_In in RG. unfold alive. apply existsb_exists. exists (h, m). split; auto. cbn [snd].
  eapply reaches_tree; [apply (i_rep _ _ I)|apply (i_incr _ _ I)|reflexivity|exact J|].
  pose proof (rep_bound _ _ _ _ _ _ (i_rep _ _ I)) as B. rewrite Forall_forall in B. specialize (B p J). lia.
Qed.

Lemma rc_told s told k c s' t : rc defs s told k c s' t -> is_comp t.
Proof. intros H. inversion H; subst; exact I. Qed.

Lemma Inv_same s s' T : s_heap s' = s_heap s -> length (s_hooks s') = length (s_hooks s) -> s_reg s' = s_reg s -> ext s s' -> Inv s T -> Inv s' T.
Proof.
  intros A B C X [I1 I2 I3 I4 I5 I6 I7 I8 I9].
  constructor; auto; try rewrite A; auto; try rewrite B; auto; try rewrite C; auto. eapply ok_render_ext; eauto.
Qed.

Lemma update_step fuel s T q' h m r s' : Inv s T -> dget h (s_reg s) = Some m ->
  create_layout_update debug defs fuel m (set_queue q' s) = (r, s') -> r <> Fuel -> no_err s' ->
  exists C m0 k c out kids t s2 s3 hp,
    r = Ok (cpath C, view t) /\ T = plug C (TComp m0 k h c out kids) /\
    rc defs (N (set_exit [] (set_stack [] (set_queue q' s)))) (Some (TComp m0 k h c out kids)) k c (N s2) t /\
    run_exit (s_exit s2) s2 = (Ok tt, s3) /\ s' = set_stack [] (set_heap hp s3) /\
    rep hp None 0 [] "" (plug C t) /\ Forall (fun m => length (s_heap s) <= m) (mids t) /\ incr t /\
    is_comp t /\ tkey t = k /\ texts debug (comps t).
Proof.
  intros I RG H NF NE. rewrite (i_reg _ _ I) in RG. apply dget_Some_In in RG.
  apply in_map_iff in RG. destruct RG as ([h' [[m' c] out]] & E & J). simpl in E. injection E as -> ->.
  destruct (locate _ _ _ _ _ J) as (C & k & kids & ET). subst T.
  set (told := TComp m k h c out kids) in *.
  destruct (splice C _ _ _ _ _ _ (i_rep _ _ I) (i_wf _ _ I) Logic.I) as (i' & kp' & Rs & Q). simpl in Rs.
  pose proof Rs as Rs0. apply rep_comp in Rs0. destruct Rs0 as ((md0 & Nm) & OKk & RLk).
  unfold create_layout_update in H. unfold bind at 1, modify at 1 in H. unfold bind at 1, modify at 1 in H.
  set (s1 := set_exit [] (set_stack [] (set_queue q' s))) in *.
  unfold finally at 1 in H. unfold bind at 1 in H. unfold get_ms at 1 in H.
  change (s_heap s1) with (s_heap s) in H. rewrite Nm in H. cbn [ms_lcs] in H.
  unfold bind at 1 in H.
  assert (GP : get_parent (MState (hole_par C None) i' k (cpath C) kp' md0 (kid_dict kids) [] (Some (h, c))) s1 = (Ok (hole_par C None), s1)).
  { unfold get_parent. cbn [ms_parent]. destruct (hole_par C None) as [p|] eqn:EP; [|reflexivity].
    change (alive s1 p) with (alive s p). rewrite (Inv_alive _ _ _ I); auto.
    pose proof (hole_par_in C told) as X. destruct C as [|f C]; [discriminate|]. eapply X; eauto. }
  rewrite GP in H. clear GP. cbn [ms_index ms_key] in H.
  unfold bind at 1 in H. unfold finally at 1 in H.
  destruct (render_component debug defs fuel (Some m) (hole_par C None) i' k c s1) as [rr s2] eqn:ER.
  assert (NFr : rr <> Fuel).
  { intros ->. inversion H; subst. congruence. }
  assert (PL : match hole_par C None with Some p => p < length (s_heap s) | None => True end).
  { destruct C as [|f C]; [exact Logic.I|]. destruct Q as (p & px & k1 & EP & _ & _ & Np & _). rewrite EP.
    apply nth_error_Some. congruence. }
  destruct (rerender_ok debug defs fuel m _ (hole_par C None) i' k c h c s1 rr s2 Nm eq_refl eq_refl PL ER NFr) as (n & -> & (K1 & K2) & LN).
  destruct (run_exit_total (s_exit s2) s2) as [s3 EX].
  assert (EX' : (hs <- gets s_exit ;; run_exit hs) s2 = (Ok tt, s3)) by exact EX.
  rewrite EX' in H. clear EX'. 
  assert (HX : s_heap s3 = s_heap s2 /\ ext s2 s3).
  { clear - EX. revert EX. generalize (s_exit s2). intros l. revert s2. induction l as [|x l IH]; intros s2 EX; simpl in EX.
    - inversion EX; subst. split; auto. apply ext_refl.
    - unfold bind, layout_did_render, log, modify in EX. apply IH in EX. destruct EX as [A B]. split; auto.
      eapply ext_trans; [|exact B]. eexists; reflexivity. }
  destruct HX as [HX EXT].
  unfold bind at 1 in H. unfold get_ms at 1 in H. rewrite HX in H.
  destruct (nth_error (s_heap s2) n) as [nx|] eqn:ENx; [|apply nth_error_None in ENx; lia].
  (* the derivation *)
  assert (DER : no_err s2 -> exists t, good_new (s_heap s1) (s_heap s2) (hole_par C None) i' (cpath C) kp' k t n /\
                  texts debug (comps t) /\ rc defs (N s1) (Some told) k c (N s2) t).
  { intros NE2. destruct (exec debug defs fuel) as (PRC & _). eapply PRC; [exact ER|exact NE2| | |].
    - exists m. split; auto. split; [reflexivity|]. split; [|reflexivity]. exists (hole_par C None), i', (cpath C), kp'. exact Rs.
    - pose proof (i_told _ _ I) as TL. unfold told_log. cbn [otree_list flat_map]. rewrite app_nil_r. rewrite Forall_forall in *.
      intros x JX. apply TL. apply branches_sub. exact JX.
    - unfold path_ok. destruct (hole_par C None) as [p|] eqn:EP.
      + destruct C as [|f C]; [discriminate|]. destruct Q as (p' & px & k1 & EP' & TK & _ & Np & EPa & Ekp & _).
        injection EP' as <-. exists px. split; auto. split; auto. subst kp'. simpl in TK. rewrite TK. auto.
      + exists told. split; auto. split; [|reflexivity]. exact Rs. }
  unfold bind at 1 in H.
  destruct (hole_par C None) as [p|] eqn:EP.
  - destruct C as [|f C]; [discriminate|]. destruct Q as (p' & px & k1 & EP' & TK & NDk & Np & EPa & Ekp & REP).
    injection EP' as <-.
    assert (Np2 : exists px2, nth_error (s_heap s3) p = Some px2).
    { destruct (nth_error (s_heap s3) p) eqn:EE; [eauto|]. apply nth_error_None in EE. rewrite HX in EE. simpl in K2. lia. }
    destruct Np2 as [px2 Np2].
    unfold change_ms at 1, bind at 1, get_ms at 1 in H. rewrite Np2 in H. unfold put_ms, modify, ret, modify in H. injection H as <- <-.
    assert (NE2 : no_err s2). { eapply no_err_ext; [exact EXT|]. exact NE. }
    destruct (DER NE2) as (t & (G1 & G2 & G3 & G4 & G5 & G6 & G7 & x & G8 & G9) & TX & RC).
    rewrite ENx in G8. injection G8 as <-.
    assert (px2 = px). { pose proof (G4 p px Logic.I Np) as Z. rewrite HX, Z in Np2. congruence. } subst px2.
    destruct (rep_own _ _ _ _ _ _ _ G3 G1) as (x' & X1 & X2 & _ & _ & _ & X3 & _). rewrite ENx in X1. injection X1 as <-.
    assert (IC : is_comp t) by (eapply rc_told; eauto).
    eexists (f :: C), m, k, c, out, kids, t, s2, s3, _. split; [rewrite X2, G9; reflexivity|]. split; auto. split; auto. split; auto.
    simpl in TK. subst k. split; [reflexivity|]. rewrite G2 in X3. split; [|split; [exact G6|split; [exact G7|auto]]].
    rewrite X3, HX.
    assert (RR := REP (s_heap s2) t n (replace_child (ms_index nx) (ms_model nx) (ms_model px)) G4 G3 G1 G2
       ltac:(destruct t; simpl in *; try contradiction; subst; auto) G6).
    destruct px; simpl in *. exact RR.
  - destruct C as [|f C]; [|destruct Q as (p' & px & k1 & EP' & _); discriminate].
    destruct Q as [-> ->]. simpl in *. unfold ret, modify in H. injection H as <- <-.
    assert (NE2 : no_err s2). { eapply no_err_ext; [exact EXT|]. exact NE. }
    destruct (DER NE2) as (t & (G1 & G2 & G3 & G4 & G5 & G6 & G7 & x & G8 & G9) & TX & RC).
    rewrite ENx in G8. injection G8 as <-.
    destruct (rep_own _ _ _ _ _ _ _ G3 G1) as (x' & X1 & X2 & _ & _ & _ & X3 & _). rewrite ENx in X1. injection X1 as <-.
    assert (IC : is_comp t) by (eapply rc_told; eauto).
    exists [], m, k, c, out, kids, t, s2, s3, (s_heap s3). split; [rewrite X2, G9; reflexivity|]. split; auto. split; auto. split; auto.
    split; [destruct s3; reflexivity|]. rewrite HX. split; [exact G3|]. split; [exact G6|]. split; [exact G7|auto].
Qed.

Theorem served_ok fuel q : forall s T r s', Inv s T -> s_queue s = q ->
  serial_render debug defs fuel q s = (r, s') -> r <> Fuel -> no_err s' -> exists T', served s T r s' T' /\ (texts debug (comps T) -> texts debug (comps T')).
Proof.
  induction q as [|h q IH]; intros s T r s' I EQ H NF NE; simpl in H.
  - inversion H; subst. exists T. split; [|auto].
    assert (E : s' = set_log (s_log s' ++ map EvSkip (s_queue s')) (set_queue [] s')).
    { rewrite EQ. simpl. rewrite app_nil_r. destruct s'; simpl in *; subst; auto. }
    rewrite E at 2. constructor. rewrite EQ. intros ? [].
  - unfold bind at 1, modify at 1 in H. unfold bind at 1, gets at 1 in H. cbn [s_reg set_queue] in H.
    destruct (dget h (s_reg s)) as [m|] eqn:RG.
    + unfold bind at 1 in H. destruct (create_layout_update debug defs fuel m (set_queue q s)) as [rc0 sc] eqn:EC.
      assert (NFc : rc0 <> Fuel) by (intros ->; inversion H; congruence).
      assert (NEc : no_err sc) by (destruct rc0; inversion H; subst; auto).
      destruct (update_step _ _ _ _ _ _ _ _ I RG EC NFc NEc) as (C & m0 & k & c & out & kids & t & s2 & s3 & hp & -> & E1 & E2 & E3 & -> & E4 & E5 & E6 & E7 & E8 & E9).
      unfold ret in H. injection H as <- <-. exists (plug C t). split.
      2:{ intros TX. subst T. rewrite comps_plug in *. intros h0 m1 c1 e x J. rewrite !in_app_iff in J.
          destruct J as [J|[J|J]]; [eapply TX|eapply E9|eapply TX]; rewrite ?in_app_iff; eauto. }
      eapply (S_some s T [] h q); eauto.
      * intros ? [].
      * assert (EB : before s [] q = set_exit [] (set_stack [] (set_queue q s))).
        { unfold before. simpl. rewrite app_nil_r. destruct s; reflexivity. }
        rewrite EB. exact E2.
    + unfold bind at 1, log at 1, modify at 1 in H.
      set (s1 := set_log (s_log (set_queue q s) ++ [EvSkip h]) (set_queue q s)) in *.
      assert (I1 : Inv s1 T) by (eapply Inv_same; [| | | |exact I]; try reflexivity; eexists; reflexivity).
      destruct (IH s1 T r s' I1 eq_refl H NF NE) as (T' & SV & TX). exists T'. split; [|exact TX]. clear TX. inversion SV; subst.
      * assert (E : set_log (s_log s1 ++ map EvSkip (s_queue s1)) (set_queue [] s1) = set_log (s_log s ++ map EvSkip (s_queue s)) (set_queue [] s)).
        { rewrite EQ. unfold s1. simpl. rewrite <- app_assoc. reflexivity. }
        rewrite E. constructor. intros x J. rewrite EQ in J. destruct J as [<-|J]; auto.
      * match goal with HH : s_queue s1 = _ |- _ => rename HH into QE end. simpl in QE.
        match goal with HH : forall x, In x skips -> _ |- _ => rename HH into SK end.
        eapply (S_some s _ (h :: skips) h0 q').
        -- rewrite EQ, QE. reflexivity.
        -- intros x [<-|J]; [exact RG|]. apply SK. exact J.
        -- reflexivity.
        -- assert (EB : before s (h :: skips) q' = before s1 skips q').
           { unfold before, s1. simpl. rewrite <- app_assoc. reflexivity. }
           rewrite EB. eassumption.
        -- assumption.
        -- assumption.
        -- assumption.
        -- assumption.
        -- assumption.
        -- reflexivity.
Qed.

End Step.
