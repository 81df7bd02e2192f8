(** * Hook calls over histories; proof-side only *)
From Coq Require Import String ZArith Bool Arith Lia List.
From Verif Require Import Dict LayoutTypes LayoutModel LayoutDeriv LayoutFacts LayoutSettled LayoutContext HooksModel HooksSteady HookCalls FirstMount HookCallsFacts.
Import ListNotations.
Local Open Scope string_scope.
Local Open Scope list_scope.

(** ** Render functions are sequences of calls *)

Lemma play_compile h p : forall s,
  run_body h (compile p) s = (fst (fst (play h p s)), snd (play h p s)).
Proof.
  induction p as [r|msg|init k IH|red init k IH|deps f k IH|deps f k IH|init k IH|c d k IH|deps fn k IH|deps fn k IH|set u k IH]; intros s.
  - reflexivity.
  - reflexivity.
  - cbn [compile play]. unfold use_state. cbn [run_body]. unfold do_state, bind. destruct (use_cell h (CState init) s) as [[[i c]|e|] s1]; try reflexivity.
    cbn [fst snd]. destruct c; try reflexivity. cbn [ret]. rewrite IH. cbn [fst snd]. destruct (play h (k v (h, i)) s1) as [[o cs] s2]. reflexivity.
  - cbn [compile play]. unfold use_reducer, use_state. cbn [run_body]. unfold do_reducer, do_state, bind. destruct (use_cell h (CState init) s) as [[[i c]|e|] s1]; try reflexivity.
    cbn [fst snd]. destruct c; try reflexivity. cbn [ret fst snd run_body]. unfold bind.
    destruct (use_cell h (CConst (VPair (VInt (Z.of_nat red)) (VSetter h i))) s1) as [[[j c]|e|] s2]; try reflexivity.
    cbn [fst snd]. destruct c; try reflexivity. cbn [ret fst snd]. rewrite IH. destruct (play h (k v v0) s2) as [[o cs] s3]. reflexivity.
  - cbn [compile play]. unfold use_memo, use_memo_setup. cbn [run_body]. unfold do_memo, do_memo_start, bind. destruct (use_cell h (CMemo [] None) s) as [[[i c]|e|] s1]; try reflexivity.
    cbn [fst snd]. destruct c as [|md mv| |]; try reflexivity. destruct (memo_changed md mv deps).
    + cbn [run_body]. unfold bind, modify. cbn [ret]. unfold do_memo_setup. destruct f as [v|msg]; cbn [HooksModel.call run_body]; [|reflexivity].
      unfold bind, modify. cbn [ret fst snd]. rewrite IH. destruct (play h (k v) _) as [[o cs] s3]. reflexivity.
    + cbn [ret]. unfold do_memo_setup. destruct mv as [v|]; [|reflexivity]. cbn [ret fst snd]. rewrite IH. destruct (play h (k v) _) as [[o cs] s3]. reflexivity.
  - cbn [compile play]. unfold use_callback, use_memo_setup. cbn [run_body]. unfold do_memo, do_memo_start, bind. destruct (use_cell h (CMemo [] None) s) as [[[i c]|e|] s1]; try reflexivity.
    cbn [fst snd]. destruct c as [|md mv| |]; try reflexivity. destruct (memo_changed md mv deps).
    + cbn [run_body]. unfold bind, modify. cbn [ret]. unfold do_memo_setup. 
      unfold bind, modify. cbn [ret fst snd]. rewrite IH. destruct (play h (k f) _) as [[o cs] s3]. reflexivity.
    + cbn [ret]. unfold do_memo_setup. destruct mv as [v|]; [|reflexivity]. cbn [ret fst snd]. rewrite IH. destruct (play h (k v) _) as [[o cs] s3]. reflexivity.
  - cbn [compile play]. unfold use_ref. cbn [run_body]. unfold do_ref, bind. destruct (use_cell h (CRef init) s) as [[[i c]|e|] s1]; try reflexivity.
    cbn [fst snd]. destruct c; try reflexivity. cbn [ret fst snd]. rewrite IH. destruct (play h (k i v) s1) as [[o cs] s2]. reflexivity.
  - cbn [compile play]. unfold use_context. cbn [run_body]. unfold bind, gets. rewrite IH. reflexivity.
  - cbn [compile play]. unfold use_effect, use_memo_setup, use_ref. cbn [run_body]. unfold do_effect, do_memo_start, do_ref, bind.
    destruct (use_cell h (CMemo [] None) s) as [[[i c]|e|] s1]; try reflexivity.
    cbn [fst snd]. destruct c as [|md mv| |]; try reflexivity. destruct (memo_changed md mv deps).
    + cbn [run_body]. unfold bind, modify. cbn [ret]. destruct (use_cell h (CRef VNone) _) as [[[j c]|e|] s2]; try reflexivity.
      cbn [fst snd]. destruct c; try reflexivity. cbn [run_body ret fst snd]. unfold bind, modify. rewrite IH. destruct (play h k _) as [[o cs] s3]. reflexivity.
    + cbn [run_body ret]. unfold bind. destruct (use_cell h (CRef VNone) _) as [[[j c]|e|] s2]; try reflexivity.
      cbn [fst snd]. destruct c; try reflexivity. cbn [run_body ret fst snd]. destruct mv; [|reflexivity]. cbn [ret]. rewrite IH. destruct (play h k _) as [[o cs] s3]. reflexivity.
  - cbn [compile play]. unfold use_async_effect, use_memo_setup, use_ref. cbn [run_body]. unfold do_effect, do_memo_start, do_ref, bind.
    destruct (use_cell h (CMemo [] None) s) as [[[i c]|e|] s1]; try reflexivity.
    cbn [fst snd]. destruct c as [|md mv| |]; try reflexivity. destruct (memo_changed md mv deps).
    + cbn [run_body]. unfold bind, modify. cbn [ret]. destruct (use_cell h (CRef VNone) _) as [[[j c]|e|] s2]; try reflexivity.
      cbn [fst snd]. destruct c; try reflexivity. cbn [run_body ret fst snd]. unfold bind.
      destruct (use_cell h (CRef VNone) s2) as [[[j' c]|e|] s3]; try reflexivity. cbn [fst snd]. destruct c; try reflexivity. cbn [run_body ret fst snd].
      unfold bind, modify. rewrite IH. destruct (play h k _) as [[o cs] s4]. reflexivity.
    + cbn [run_body ret]. unfold bind. destruct (use_cell h (CRef VNone) _) as [[[j c]|e|] s2]; try reflexivity.
      cbn [fst snd]. destruct c; try reflexivity. cbn [run_body ret fst snd]. unfold bind.
      destruct (use_cell h (CRef VNone) s2) as [[[j' c]|e|] s3]; try reflexivity. cbn [fst snd]. destruct c; try reflexivity. cbn [run_body ret fst snd].
      destruct mv; [|reflexivity]. cbn [ret]. rewrite IH. destruct (play h k _) as [[o cs] s4]. reflexivity.
  - cbn [compile play run_body]. unfold bind, modify. rewrite IH. destruct (play h k _) as [[o cs] s1]. reflexivity.
Qed.

(** The played calls, executed one by one, give the same state. *)
Lemma play_exec R h p : forall s, fst (fst (play h p s)) <> Fuel -> snd (exec_all R (snd (fst (play h p s))) s) = snd (play h p s).
Proof.
  assert (USE : forall A (m : M A) c f s (k : A -> prog),
    exec R c = answer m f ->
    (forall a s1, fst (fst (play h (k a) s1)) <> Fuel -> snd (exec_all R (snd (fst (play h (k a) s1))) s1) = snd (play h (k a) s1)) ->
    let w := match m s with
             | (Ok a, s1) => match play h (k a) s1 with (o, cs, s2) => (o, c :: cs, s2) end
             | (Raise e, s1) => (Raise e, [c], s1)
             | (Fuel, s1) => (Fuel, [c], s1)
             end in
    fst (fst w) <> Fuel -> snd (exec_all R (snd (fst w)) s) = snd w).
  { intros A m c f s k EC IH w. unfold w. clear w. destruct (m s) as [[a|e|] s1] eqn:EM.
    - specialize (IH a s1). destruct (play h (k a) s1) as [[o cs] s2]. cbn [fst snd exec_all]. intros NF. rewrite EC. unfold answer. rewrite EM.
      cbn [fst snd] in IH. specialize (IH NF). destruct (exec_all R cs s1) as [rs s3]. exact IH.
    - intros _. cbn [fst snd exec_all]. rewrite EC. unfold answer. rewrite EM. reflexivity.
    - intros NF. exfalso. apply NF. reflexivity. }
  induction p as [r|msg|init k IH|red init k IH|deps f k IH|deps f k IH|init k IH|c d k IH|deps fn k IH|deps fn k IH|set u k IH]; intros s.
  - reflexivity.
  - reflexivity.
  - apply (USE _ (do_state h init) (KState h init) _ s (fun a => k (snd a) (h, fst a)) eq_refl). intros; apply IH; auto.
  - apply (USE _ (do_reducer h red init) (KReducer h red init) _ s (fun a => k (snd (fst a)) (snd a)) eq_refl). intros; apply IH; auto.
  - apply (USE _ (do_memo h deps f) (KMemo h deps f) _ s (fun a => k (snd (fst a))) eq_refl). intros; apply IH; auto.
  - apply (USE _ (do_memo h deps (inl f)) (KCallback h deps f) _ s (fun a => k (snd (fst a))) eq_refl). intros; apply IH; auto.
  - apply (USE _ (do_ref h init) (KRef h init) _ s (fun a => k (fst a) (snd a)) eq_refl). intros; apply IH; auto.
  - cbn [play]. apply IH.
  - apply (USE _ (do_effect h deps fn false) (KEffect h deps fn false) _ s (fun _ => k) eq_refl). intros; apply IH; auto.
  - apply (USE _ (do_effect h deps fn true) (KEffect h deps fn true) _ s (fun _ => k) eq_refl). intros; apply IH; auto.
  - cbn [play]. specialize (IH (dispatch (fst set) (snd set) u s)). destruct (play h k _) as [[o cs] s1]. cbn [fst snd exec_all exec] in *. intros NF.
    specialize (IH NF). destruct (exec_all R cs _). exact IH.
Qed.
Lemma play_calls h p : forall s, forall c, In c (snd (fst (play h p s))) -> caller c = Some h \/ exists h' i u, c = KDispatch h' i u.
Proof.
  assert (USE : forall A (m : M A) c s (k : A -> prog), caller c = Some h ->
    (forall a s1 c, In c (snd (fst (play h (k a) s1))) -> caller c = Some h \/ exists h' i u, c = KDispatch h' i u) ->
    let w := match m s with
             | (Ok a, s1) => match play h (k a) s1 with (o, cs, s2) => (o, c :: cs, s2) end
             | (Raise e, s1) => (Raise e, [c], s1)
             | (Fuel, s1) => (Fuel, [c], s1)
             end in
    forall x, In x (snd (fst w)) -> caller x = Some h \/ exists h' i u, x = KDispatch h' i u).
  { intros A m c s k EC IH w. unfold w. clear w. destruct (m s) as [[a|e|] s1] eqn:EM; intros x.
    - specialize (IH a s1). destruct (play h (k a) s1) as [[o cs] s2]. cbn [fst snd] in *. intros [<-|J]; auto.
    - intros [<-|[]]. auto.
    - intros [<-|[]]. auto. }
  induction p as [r|msg|init k IH|red init k IH|deps f k IH|deps f k IH|init k IH|c d k IH|deps fn k IH|deps fn k IH|set u k IH]; intros s.
  - intros c [].
  - intros c [].
  - apply (USE _ (do_state h init) (KState h init) s (fun a => k (snd a) (h, fst a)) eq_refl). intros a s1; apply IH; auto.
  - apply (USE _ (do_reducer h red init) (KReducer h red init) s (fun a => k (snd (fst a)) (snd a)) eq_refl). intros a s1; apply IH; auto.
  - apply (USE _ (do_memo h deps f) (KMemo h deps f) s (fun a => k (snd (fst a))) eq_refl). intros a s1; apply IH; auto.
  - apply (USE _ (do_memo h deps (inl f)) (KCallback h deps f) s (fun a => k (snd (fst a))) eq_refl). intros a s1; apply IH; auto.
  - apply (USE _ (do_ref h init) (KRef h init) s (fun a => k (fst a) (snd a)) eq_refl). intros a s1; apply IH; auto.
  - cbn [play]. apply IH.
  - apply (USE _ (do_effect h deps fn false) (KEffect h deps fn false) s (fun _ => k) eq_refl). intros a s1; apply IH; auto.
  - apply (USE _ (do_effect h deps fn true) (KEffect h deps fn true) s (fun _ => k) eq_refl). intros a s1; apply IH; auto.
  - cbn [play]. specialize (IH (dispatch (fst set) (snd set) u s)). destruct (play h k _) as [[o cs] s1]. cbn [fst snd] in *. intros c [<-|J]; eauto.
Qed.

Section History.
Variable R : nat -> val -> val -> val.
Local Notation ok := HookCallsFacts.ok.

Local Notation state_after := (HookCalls.state_after R).
Local Notation reply := (HookCalls.reply R).

Lemma after_ok n a : ok n (state_after n a).
Proof. apply exec_all_ok. apply ok_fresh. Qed.
Lemma after_app n a b : state_after n (a ++ b) = snd (exec_all R b (state_after n a)).
Proof. unfold HookCalls.state_after. rewrite exec_all_app. reflexivity. Qed.
Lemma after_snoc n a c : state_after n (a ++ [c]) = snd (exec R c (state_after n a)).
Proof. rewrite after_app. simpl. destruct (exec R c (state_after n a)). reflexivity. Qed.
Lemma after_cons n a c b : state_after n (a ++ c :: b) = snd (exec_all R b (snd (exec R c (state_after n a)))).
Proof. rewrite after_app. simpl. destruct (exec R c (state_after n a)) as [r s1]. simpl. destruct (exec_all R b s1). reflexivity. Qed.
Lemma exec_pair c s : exec R c s = (fst (exec R c s), snd (exec R c s)).
Proof. destruct (exec R c s); reflexivity. Qed.

(** ** Positions *)

Lemma exec_idx c s r s' n h : exec R c s = (r, s') -> ok n s -> (forall x, caller c = Some x -> x < n) -> c <> KEnd h ->
  (caller c = Some h -> forall e, r <> RRaised e) -> idx h s' = takes h c + idx h s.
Proof.
  intros E O LC NE NR. pose proof O as (O1 & O2 & O3). destruct (caller c) as [hc|] eqn:EC.
  - specialize (LC hc eq_refl). destruct (Nat.eq_dec hc h) as [->|N].
    + specialize (NR eq_refl). rewrite <- O2 in LC. destruct c; try discriminate; injection EC as ->; cbn [exec] in E; unfold answer in E; cbn [takes]; destruct (Nat.eq_dec h h); try congruence.
      * destruct (do_state h initial s) as [[[i v]|x|] s1] eqn:EM; injection E as <- <-; [|exfalso; eapply NR; eauto|].
        -- destruct (do_state_spec _ _ _ _ _ EM LC) as (_ & _ & K). destruct (K _ _ eq_refl) as (_ & I1 & _). exact I1.
        -- destruct (do_state_spec _ _ _ _ _ EM LC) as (_ & K & _). congruence.
      * destruct (do_reducer h reducer initial s) as [[[[i v] d]|x|] s1] eqn:EM; injection E as <- <-; [|exfalso; eapply NR; eauto|].
        -- destruct (do_reducer_spec _ _ _ _ _ _ EM LC) as (_ & _ & K). destruct (K _ _ _ eq_refl) as (_ & _ & I1 & _). exact I1.
        -- destruct (do_reducer_spec _ _ _ _ _ _ EM LC) as (_ & K & _). congruence.
      * destruct (do_memo h deps f s) as [[[[i v] d]|x|] s1] eqn:EM; injection E as <- <-; [|exfalso; eapply NR; eauto|].
        -- destruct (do_memo_spec _ _ _ _ _ _ EM LC) as (_ & _ & K). destruct (K _ _ _ eq_refl) as (I1 & _). exact I1.
        -- destruct (do_memo_spec _ _ _ _ _ _ EM LC) as (_ & K & _). congruence.
      * destruct (do_memo h deps (inl f) s) as [[[[i v] d]|x|] s1] eqn:EM; injection E as <- <-; [|exfalso; eapply NR; eauto|].
        -- destruct (do_memo_spec _ _ _ _ _ _ EM LC) as (_ & _ & K). destruct (K _ _ _ eq_refl) as (I1 & _). exact I1.
        -- destruct (do_memo_spec _ _ _ _ _ _ EM LC) as (_ & K & _). congruence.
      * destruct (do_ref h initial s) as [[[i v]|x|] s1] eqn:EM; injection E as <- <-; [|exfalso; eapply NR; eauto|].
        -- destruct (do_ref_spec _ _ _ _ _ EM LC) as (_ & _ & K). destruct (K _ _ eq_refl) as (_ & I1 & _). exact I1.
        -- destruct (do_ref_spec _ _ _ _ _ EM LC) as (_ & K & _). congruence.
      * destruct (do_effect h deps fn async s) as [[[i v]|x|] s1] eqn:EM; injection E as <- <-; [|exfalso; eapply NR; eauto|].
        -- destruct (do_effect_spec _ _ _ _ _ _ _ EM LC (O3 h)) as (_ & _ & K). destruct (K _ _ eq_refl) as (I1 & _). exact I1.
        -- destruct (do_effect_spec _ _ _ _ _ _ _ EM LC (O3 h)) as (_ & K & _). congruence.
    + rewrite <- O2 in LC. pose proof (exec_caller _ _ _ _ _ _ E EC LC (O3 hc)) as C. unfold idx. rewrite (cp_other _ _ _ C) by auto.
      assert (takes h c = 0) as ->; auto. destruct c; try discriminate; injection EC as ->; simpl; destruct (Nat.eq_dec hc h); congruence.
  - destruct c; try discriminate; cbn [takes plus].
    + destruct (begin_spec _ _ _ _ _ E O1) as (_ & _ & _ & C). destruct (C h) as (_ & -> & _). reflexivity.
    + destruct (end_spec _ _ _ _ _ E) as (_ & _ & [(e & _ & C)|(_ & C1 & _)]).
      * unfold idx, get_hook. rewrite C. reflexivity.
      * unfold idx. rewrite C1; [auto|congruence].
    + injection E as <- <-. destruct (dispatch_cells h0 i u s h) as [C|(-> & _ & v & _ & _ & C & _)]; [unfold idx; rewrite C; auto|auto].
    + assert (s' = s \/ exists h i u, s' = dispatch h i u s) as [->|(h0 & i & u & ->)]; auto.
      { destruct d as [ | | | |[ | |z| | | ] [ | | | | |h0 i]| ]; injection E as <- <-; eauto. }
      destruct (dispatch_cells h0 i u s h) as [C|(-> & _ & v & _ & _ & C & _)]; [unfold idx; rewrite C; auto|auto].
    + injection E as <- <-. unfold set_ref. destruct (nth_error _ _) as [[ | | | ]|] eqn:EN; auto.
      assert (L : h0 < length (s_hooks s)).
      { destruct (Nat.lt_ge_cases h0 (length (s_hooks s))); auto. rewrite get_beyond in EN by auto. destruct i; discriminate. }
      destruct (Nat.eq_dec h0 h) as [->|N]; [apply set_cell_idx; auto|]. unfold idx, set_cell. rewrite get_put_other; auto.
Qed.

(** In the calls [b] after state [s], component [h] ends no render and none of its calls raises. *)
Definition smooth (h : nat) (b : list call) (s : st) : Prop :=
  ~ In (KEnd h) b /\ forall b1 c b2, b = b1 ++ c :: b2 -> caller c = Some h -> forall e, fst (exec R c (snd (exec_all R b1 s))) <> RRaised e.
Lemma smooth_cons h c b s : smooth h (c :: b) s -> c <> KEnd h /\ (caller c = Some h -> forall e, fst (exec R c s) <> RRaised e) /\ smooth h b (snd (exec R c s)).
Proof.
  intros [A B]. split; [intros ->; apply A; left; auto|]. split; [apply (B [] c b eq_refl)|]. split; [intros J; apply A; right; auto|].
  intros b1 c' b2 -> CC e. specialize (B (c :: b1) c' b2 eq_refl CC e). simpl in B. destruct (exec R c s) as [r s1]. simpl in *. destruct (exec_all R b1 s1). exact B.
Qed.
Lemma smooth_idx n h b : forall s, ok n s -> on n b -> smooth h b s -> idx h (snd (exec_all R b s)) = taken h b + idx h s.
Proof.
  induction b as [|c b IH]; intros s O ON SM; [reflexivity|]. destruct (on_cons _ _ _ ON) as [ON1 ON2]. destruct (smooth_cons _ _ _ _ SM) as (N & NR & SM').
  destruct (exec R c s) as [r s1] eqn:E. cbn [fst snd] in NR, SM'. pose proof (exec_idx _ _ _ _ _ _ E O ON1 N NR) as I1.
  specialize (IH s1 (exec_ok _ _ _ _ _ _ E O) ON2 SM'). cbn [exec_all]. rewrite E. destruct (exec_all R b s1) as [rs s2]. cbn [snd] in *.
  unfold taken in *. cbn [map list_sum fold_right]. rewrite IH, I1. unfold list_sum. lia.
Qed.

(** A call's slot is the component's index. *)
Lemma call_slot n c s r s' h i : exec R c s = (r, s') -> ok n s -> caller c = Some h -> h < n -> slot_of r = Some i -> i = idx h s.
Proof.
  intros E (O1 & O2 & O3) EC L SL. pose proof L as L'. rewrite <- O2 in L'.
  assert (ALI : forall P : Prop, (once h s = true -> i = idx h s) -> (once h s = false -> i = length (cells h s) /\ P) -> i = idx h s).
  { intros P A B. destruct (once h s) eqn:EO; auto. destruct (B eq_refl) as [-> _]. symmetry. apply O3. auto. }
  destruct c; try discriminate; injection EC as ->.
  - unfold exec, answer in E. destruct (do_state h initial s) as [[[j v]|x|] s1] eqn:EM; injection E as <- <-; try discriminate.
    injection SL as ->. cbn [fst snd] in *. destruct (do_state_spec _ _ _ _ _ EM L') as (_ & _ & K). destruct (K _ _ eq_refl) as (_ & _ & A & B). eapply ALI; eauto.
  - unfold exec, answer in E. destruct (do_reducer h reducer initial s) as [[[[j v] d]|x|] s1] eqn:EM; injection E as <- <-; try discriminate.
    injection SL as ->. cbn [fst snd] in *. destruct (do_reducer_spec _ _ _ _ _ _ EM L') as (_ & _ & K). destruct (K _ _ _ eq_refl) as (_ & _ & _ & A & B). eapply ALI; eauto.
  - unfold exec, answer in E. destruct (do_memo h deps f s) as [[[[j v] d]|x|] s1] eqn:EM; injection E as <- <-; try discriminate.
    injection SL as ->. cbn [fst snd] in *. destruct (do_memo_spec _ _ _ _ _ _ EM L') as (_ & _ & K). destruct (K _ _ _ eq_refl) as (_ & A & B & _). eapply ALI; eauto.
  - unfold exec, answer in E. destruct (do_memo h deps (inl f) s) as [[[[j v] d]|x|] s1] eqn:EM; injection E as <- <-; try discriminate.
    injection SL as ->. cbn [fst snd] in *. destruct (do_memo_spec _ _ _ _ _ _ EM L') as (_ & _ & K). destruct (K _ _ _ eq_refl) as (_ & A & B & _). eapply ALI; eauto.
  - unfold exec, answer in E. destruct (do_ref h initial s) as [[[j v]|x|] s1] eqn:EM; injection E as <- <-; try discriminate.
    injection SL as ->. cbn [fst snd] in *. destruct (do_ref_spec _ _ _ _ _ EM L') as (_ & _ & K). destruct (K _ _ eq_refl) as (_ & _ & A & B). eapply ALI; eauto.
  - unfold exec, answer in E. destruct (do_effect h deps fn async s) as [[[j v]|x|] s1] eqn:EM; injection E as <- <-; try discriminate.
    injection SL as ->. cbn [fst snd] in *. destruct (do_effect_spec _ _ _ _ _ _ _ EM L' (O3 h)) as (_ & _ & K). destruct (K _ _ eq_refl) as (_ & A & _). exact A.
Qed.

(** After the first render the number of slots is fixed. *)
Lemma exec_once n c s r s' h : exec R c s = (r, s') -> ok n s -> (forall x, caller c = Some x -> x < n) ->
  once h s = true -> once h s' = true /\ length (cells h s') = length (cells h s).
Proof.
  intros E O LC EO. pose proof O as (O1 & O2 & O3). destruct (caller c) as [hc|] eqn:EC.
  - specialize (LC hc eq_refl). rewrite <- O2 in LC. pose proof (exec_caller _ _ _ _ _ _ E EC LC (O3 hc)) as C.
    destruct (Nat.eq_dec h hc) as [->|N].
    + split; [rewrite (cp_once _ _ _ C); auto|]. pose proof (cp_size _ _ _ C) as Z. rewrite EO in Z. exact Z.
    + unfold once, cells in *. rewrite (cp_other _ _ _ C) by auto. auto.
  - destruct c; try discriminate.
    + destruct (begin_spec _ _ _ _ _ E O1) as (_ & _ & _ & C). destruct (C h) as (-> & _ & ->). auto.
    + destruct (end_spec _ _ _ _ _ E) as (_ & _ & [(e & _ & C)|(_ & C1 & C2 & C3)]).
      * unfold once, cells, get_hook in *. rewrite C. auto.
      * destruct (Nat.eq_dec h h0) as [->|N]; [|unfold once, cells in *; rewrite C1; auto]. rewrite C2. split; auto.
        destruct (Nat.lt_ge_cases h0 (length (s_hooks s))) as [L|G]; [apply C3; auto|]. unfold once in EO. rewrite get_beyond in EO by auto. discriminate.
    + injection E as <- <-. destruct (dispatch_cells h0 i u s h) as [C|(-> & _ & v & _ & EC' & _ & C)]; [unfold once, cells in *; rewrite C; auto|]. rewrite EC', upd_length, C. auto.
    + assert (s' = s \/ exists h i u, s' = dispatch h i u s) as [->|(h0 & i & u & ->)]; auto.
      { destruct d as [ | | | |[ | |z| | | ] [ | | | | |h0 i]| ]; injection E as <- <-; eauto. }
      destruct (dispatch_cells h0 i u s h) as [C|(-> & _ & v & _ & EC' & _ & C)]; [unfold once, cells in *; rewrite C; auto|]. rewrite EC', upd_length, C. auto.
    + injection E as <- <-. unfold set_ref. destruct (nth_error _ _) as [[ | | | ]|] eqn:EN; auto.
      assert (L : h0 < length (s_hooks s)).
      { destruct (Nat.lt_ge_cases h0 (length (s_hooks s))); auto. rewrite get_beyond in EN by auto. destruct i; discriminate. }
      destruct (Nat.eq_dec h0 h) as [->|N]; unfold set_cell, once, cells in *; [rewrite get_put_same by auto; simpl; rewrite upd_length; auto|rewrite get_put_other by auto; auto].
Qed.
Lemma all_once n cs : forall s h, ok n s -> on n cs -> once h s = true ->
  once h (snd (exec_all R cs s)) = true /\ length (cells h (snd (exec_all R cs s))) = length (cells h s).
Proof.
  induction cs as [|c cs IH]; intros s h O ON EO; simpl; auto. destruct (on_cons _ _ _ ON) as [ON1 ON2].
  destruct (exec R c s) as [r s1] eqn:EC. destruct (exec_once _ _ _ _ _ _ EC O ON1 EO) as [A B].
  destruct (IH s1 h (exec_ok _ _ _ _ _ _ EC O) ON2 A) as [C D]. destruct (exec_all R cs s1) as [rs s2]. simpl in *. split; auto. congruence.
Qed.

(** ** Memo slots *)

Definition memo_cell (h i : nat) (s : st) : option (list val * option val) :=
  match nth_error (cells h s) i with Some (CMemo d m) => Some (d, m) | _ => None end.

(** Calls which are not memoising calls of slot [i] leave it alone. *)
Lemma exec_memo_other n c s r s' h i d m : exec R c s = (r, s') -> ok n s -> (forall x, caller c = Some x -> x < n) ->
  nth_error (cells h s) i = Some (CMemo d m) ->
  (caller c = Some h -> is_memo c = true -> (forall e, r <> RRaised e) /\ slot_of r <> Some i) ->
  nth_error (cells h s') i = Some (CMemo d m).
Proof.
  intros E O LC EM NS. pose proof O as (O1 & O2 & O3). destruct (caller c) as [hc|] eqn:EC.
  - specialize (LC hc eq_refl). rewrite <- O2 in LC. pose proof (exec_caller _ _ _ _ _ _ E EC LC (O3 hc)) as C.
    destruct (Nat.eq_dec h hc) as [->|N]; [|unfold cells in *; rewrite (cp_other _ _ _ C) by auto; auto].
    assert (LI : i < length (cells hc s)) by (apply nth_error_Some; congruence).
    assert (UC : forall init t v t', use_cell hc init t = (v, t') -> hc < length (s_hooks t) -> nth_error (cells hc t) i = Some (CMemo d m) -> nth_error (cells hc t') i = Some (CMemo d m)).
    { intros init t v t' EU L' EN. destruct (use_cell_spec _ _ _ _ _ EU L') as (_ & [(_ & _ & -> & _)|[(_ & x & _ & _ & -> & _)|(_ & _ & _ & ->)]]); auto.
      rewrite nth_error_app1; auto. apply nth_error_Some. congruence. }
    destruct c; try discriminate; injection EC as ->; cbn [exec] in E; unfold answer in E.
    + unfold do_state, bind in E. destruct (use_cell hc (CState initial) s) as [[[j x]|x|] s1] eqn:EU; [destruct x|..]; cbn in E; injection E as <- <-; eapply UC; eauto.
    + unfold do_reducer, do_state, bind in E. destruct (use_cell hc (CState initial) s) as [[[j x]|x|] s1] eqn:EU; [destruct x as [v| | |]|..]; cbn [fst snd ret raise] in E;
        try (injection E as <- <-; eapply UC; eauto).
      destruct (use_cell hc _ s1) as [[[j' x]|x|] s2] eqn:EU2; [destruct x|..]; cbn in E; injection E as <- <-; (eapply UC; [exact EU2| |eapply UC; eauto]);
        (destruct (use_cell_spec _ _ _ _ _ EU LC) as (C1 & _); rewrite (cp_len _ _ _ C1); auto).
    + destruct (do_memo hc deps f s) as [[[[j v] ran]|x|] s1] eqn:ED; injection E as <- <-; cbn in NS.
      * destruct (do_memo_spec _ _ _ _ _ _ ED LC) as (_ & _ & K). destruct (K _ _ _ eq_refl) as (_ & _ & _ & md & mv & _ & _ & _ & _ & OT). rewrite OT; auto. destruct (NS eq_refl eq_refl) as [_ X]. congruence.
      * destruct (NS eq_refl eq_refl) as [X _]. exfalso. eapply X. reflexivity.
      * destruct (do_memo_spec _ _ _ _ _ _ ED LC) as (_ & K & _). congruence.
    + destruct (do_memo hc deps (inl f) s) as [[[[j v] ran]|x|] s1] eqn:ED; injection E as <- <-; cbn in NS.
      * destruct (do_memo_spec _ _ _ _ _ _ ED LC) as (_ & _ & K). destruct (K _ _ _ eq_refl) as (_ & _ & _ & md & mv & _ & _ & _ & _ & OT). rewrite OT; auto. destruct (NS eq_refl eq_refl) as [_ X]. congruence.
      * destruct (NS eq_refl eq_refl) as [X _]. exfalso. eapply X. reflexivity.
      * destruct (do_memo_spec _ _ _ _ _ _ ED LC) as (_ & K & _). congruence.
    + unfold do_ref, bind in E. destruct (use_cell hc (CRef initial) s) as [[[j x]|x|] s1] eqn:EU; [destruct x|..]; cbn in E; injection E as <- <-; eapply UC; eauto.
    + destruct (do_effect hc deps fn async s) as [[[j ran]|x|] s1] eqn:ED; injection E as <- <-; cbn in NS.
      * destruct (do_effect_spec _ _ _ _ _ _ _ ED LC (O3 hc)) as (_ & _ & K). destruct (K _ _ eq_refl) as (_ & _ & _ & md & mv & _ & _ & _ & _ & OT). rewrite OT; auto. destruct (NS eq_refl eq_refl) as [_ X]. congruence.
      * destruct (NS eq_refl eq_refl) as [X _]. exfalso. eapply X. reflexivity.
      * destruct (do_effect_spec _ _ _ _ _ _ _ ED LC (O3 hc)) as (_ & K & _). congruence.
  - destruct c; try discriminate.
    + destruct (begin_spec _ _ _ _ _ E O1) as (_ & _ & _ & C). destruct (C h) as (-> & _ & _). auto.
    + destruct (end_spec _ _ _ _ _ E) as (_ & _ & [(e & _ & C)|(_ & C1 & C2 & C3)]).
      * unfold cells, get_hook in *. rewrite C. auto.
      * destruct (Nat.eq_dec h h0) as [->|N]; [rewrite C2; auto|]. unfold cells in *; rewrite C1; auto.
    + injection E as <- <-. destruct (dispatch_after h i h0 i0 u s _ EM) as (x' & EX & ->). exact EX.
    + assert (s' = s \/ exists h i u, s' = dispatch h i u s) as [->|(h0 & i0 & u & ->)]; auto.
      { destruct d0 as [ | | | |[ | |z| | | ] [ | | | | |h0 i0]| ]; injection E as <- <-; eauto. }
      destruct (dispatch_after h i h0 i0 u s _ EM) as (x' & EX & ->). exact EX.
    + injection E as <- <-. unfold set_ref. destruct (nth_error (hk_cells (get_hook h0 s)) i0) as [[ | | | ]|] eqn:EN; auto.
      assert (L : h0 < length (s_hooks s)).
      { destruct (Nat.lt_ge_cases h0 (length (s_hooks s))); auto. rewrite get_beyond in EN by auto. destruct i0; discriminate. }
      destruct (Nat.eq_dec h0 h) as [->|N]; unfold set_cell, cells in *; [|rewrite get_put_other by auto; auto].
      rewrite get_put_same by auto. simpl. rewrite nth_upd_other; auto. intros ->. congruence.
Qed.

(** ** Where the contents of slots come from *)

Lemma exec_len_other n c s r s' h : exec R c s = (r, s') -> ok n s -> caller c = None -> length (cells h s') = length (cells h s).
Proof.
  intros E O EC. pose proof O as (O1 & O2 & O3). destruct c; try discriminate.
  - destruct (begin_spec _ _ _ _ _ E O1) as (_ & _ & _ & C). destruct (C h) as (-> & _ & _). auto.
  - destruct (end_spec _ _ _ _ _ E) as (_ & _ & [(e & _ & C)|(_ & C1 & C2 & C3)]).
    + unfold cells, get_hook in *. rewrite C. auto.
    + destruct (Nat.eq_dec h h0) as [->|N]; [rewrite C2; auto|]. unfold cells in *; rewrite C1; auto.
  - injection E as <- <-. destruct (dispatch_cells h0 i u s h) as [C|(-> & _ & v & _ & EC' & _ & C)]; [unfold cells in *; rewrite C; auto|]. rewrite EC', upd_length. auto.
  - assert (s' = s \/ exists h i u, s' = dispatch h i u s) as [->|(h0 & i & u & ->)]; auto.
    { destruct d as [ | | | |[ | |z| | | ] [ | | | | |h0 i]| ]; injection E as <- <-; eauto. }
    destruct (dispatch_cells h0 i u s h) as [C|(-> & _ & v & _ & EC' & _ & C)]; [unfold cells in *; rewrite C; auto|]. rewrite EC', upd_length. auto.
  - injection E as <- <-. unfold set_ref. destruct (nth_error _ _) as [[ | | | ]|] eqn:EN; auto.
    assert (L : h0 < length (s_hooks s)).
    { destruct (Nat.lt_ge_cases h0 (length (s_hooks s))); auto. rewrite get_beyond in EN by auto. destruct i; discriminate. }
    destruct (Nat.eq_dec h0 h) as [->|N]; unfold set_cell, cells in *; [rewrite get_put_same by auto; simpl; rewrite upd_length; auto|rewrite get_put_other by auto; auto].
Qed.

(** Memoised values and state slots that were there before. *)
Definition MV (h : nat) (s s' : st) : Prop :=
  h < length (s_hooks s) ->
  length (s_hooks s') = length (s_hooks s) /\
  (forall i d v, nth_error (cells h s') i = Some (CMemo d (Some v)) -> exists d', nth_error (cells h s) i = Some (CMemo d' (Some v))) /\
  (forall i v, nth_error (cells h s') i = Some (CState v) -> nth_error (cells h s) i = Some (CState v)) /\
  (forall i v, nth_error (cells h s') i = Some (CConst v) -> nth_error (cells h s) i = Some (CConst v)).
Lemma MV_refl h s : MV h s s.
Proof. intros L. split; auto. split; eauto. Qed.
Lemma MV_trans h a b c : MV h a b -> MV h b c -> MV h a c.
Proof.
  intros A B L. destruct (A L) as (A1 & A2 & A3 & A4). rewrite <- A1 in L. destruct (B L) as (B1 & B2 & B3 & B4). split; [congruence|].
  split; [|split]; auto. intros i d v E. destruct (B2 _ _ _ E) as (d' & E'). eauto.
Qed.
Definition plain (c : cell) : Prop := match c with CMemo _ (Some _) | CState _ | CConst _ => False | _ => True end.
Lemma MV_use_cell h init : plain init -> pres (MV h) (use_cell h init).
Proof.
  intros P s r s' E L. destruct (use_cell_spec _ _ _ _ _ E L) as (C & [(_ & _ & EC & _)|[(_ & x & _ & _ & EC & _)|(_ & _ & _ & ->)]]).
  - split; [apply (cp_len _ _ _ C)|]. assert (X : forall i x, ~ plain x -> nth_error (cells h s') i = Some x -> nth_error (cells h s) i = Some x).
    { intros i x NP. rewrite EC. destruct (Nat.lt_ge_cases i (length (cells h s))); [rewrite nth_error_app1 by auto; auto|].
      rewrite nth_error_app2 by auto. destruct (i - length (cells h s)) as [|k]; [|destruct k; discriminate]. intros K. injection K as ->. contradiction. }
    split; [|split]; intros; [exists d|..]; apply X; auto.
  - split; [apply (cp_len _ _ _ C)|]. rewrite EC. split; eauto.
  - split; auto. split; eauto.
Qed.
Lemma MV_set h i d mv s : (exists d0, nth_error (cells h s) i = Some (CMemo d0 mv)) -> MV h s (set_cell h i (CMemo d mv) s).
Proof.
  intros (d0 & E) L. split; [apply put_len|]. unfold set_cell. rewrite put_cells by auto. simpl. fold (cells h s).
  assert (X : forall j, j <> i -> nth_error (upd (cells h s) i (CMemo d mv)) j = nth_error (cells h s) j) by (intros; apply nth_upd_other; auto).
  assert (Y : nth_error (upd (cells h s) i (CMemo d mv)) i = Some (CMemo d mv)) by (apply nth_upd_same; apply nth_error_Some; congruence).
  split; [|split]; intros j; (destruct (Nat.eq_dec j i) as [->|N]; [rewrite Y|rewrite X by auto; eauto]); try discriminate.
  intros d' v K. injection K as <- ->. eauto.
Qed.
Lemma MV_start h deps : pres (MV h) (do_memo_start h deps).
Proof.
  intros s r s' E L. unfold do_memo_start, bind in E. destruct (use_cell h (CMemo [] None) s) as [[[i c]|e|] s1] eqn:EU;
    pose proof (MV_use_cell h (CMemo [] None) Logic.I _ _ _ EU) as V; [|injection E as <- <-; auto..].
  destruct (use_cell_slot _ _ _ _ _ _ EU L) as (N & _). cbn [fst snd] in E.
  destruct c as [|md mv| |]; try (injection E as <- <-; auto).
  destruct (memo_changed md mv deps); [|injection E as <- <-; auto]. unfold modify in E. injection E as <- <-.
  revert L. apply (MV_trans h s s1); auto. apply MV_set. eauto.
Qed.
Lemma MV_ref h init : pres (MV h) (do_ref h init).
Proof.
  unfold do_ref. apply pres_bind; [apply MV_trans|apply MV_use_cell; simpl; auto|]. intros ic. destruct (snd ic); (apply pres_ret || apply pres_raise); apply MV_refl.
Qed.

(** A new state slot or memoised value belongs to the call which got the slot. *)
Lemma exec_origin n c s r s' h i x : exec R c s = (r, s') -> ok n s -> (forall y, caller c = Some y -> y < n) ->
  nth_error (cells h s') i = Some x ->
  (forall v, x = CState v -> (exists w, nth_error (cells h s) i = Some (CState w)) \/ caller c = Some h /\ slot_of r = Some i /\ nth_error (cells h s) i = None) /\
  (forall d v, x = CMemo d (Some v) -> (exists d', nth_error (cells h s) i = Some (CMemo d' (Some v))) \/ caller c = Some h /\ is_memo c = true /\ slot_of r = Some i).
Proof.
  intros E O LC EX. pose proof O as (O1 & O2 & O3). destruct (caller c) as [hc|] eqn:EC.
  2:{ pose proof (exec_len_other _ _ _ _ _ h E O EC) as LN.
      destruct (nth_error (cells h s) i) as [y|] eqn:EY; [|apply nth_error_None in EY; assert (i < length (cells h s')) by (apply nth_error_Some; congruence); lia].
      assert (LC' : forall y0, caller c = Some y0 -> y0 < n) by (rewrite EC; discriminate).
      destruct (exec_cell _ _ _ _ _ _ _ _ _ E O LC' EY) as (x' & EX' & CA). rewrite EX in EX'. injection EX' as <-. split.
      - intros v ->. left. destruct y; simpl in CA; try discriminate; eauto; destruct CA as (? & CA); try discriminate. destruct CA; discriminate.
      - intros d v ->. left. destruct y as [|d0 m0| |]; simpl in CA; try discriminate; [|destruct CA; discriminate].
        rewrite (exec_memo_other _ _ _ _ _ _ _ _ _ E O LC' EY) in EX by (intros X; rewrite EC in X; discriminate). injection EX as -> ->. eauto. }
  specialize (LC hc eq_refl). rewrite <- O2 in LC. pose proof (exec_caller _ _ _ _ _ _ E EC LC (O3 hc)) as C.
  destruct (Nat.eq_dec h hc) as [->|N]; [|unfold cells in *; rewrite (cp_other _ _ _ C) in EX by auto; split; intros; subst x; left; eauto].
  assert (DONE : MV hc s s' -> (forall v, x = CState v -> (exists w, nth_error (cells hc s) i = Some (CState w)) \/ Some hc = Some hc /\ slot_of r = Some i /\ nth_error (cells hc s) i = None) /\
    (forall d v, x = CMemo d (Some v) -> (exists d', nth_error (cells hc s) i = Some (CMemo d' (Some v))) \/ Some hc = Some hc /\ is_memo c = true /\ slot_of r = Some i)).
  { intros M. destruct (M LC) as (_ & A & B & _). split; intros; subst x; left; eauto. }
  assert (OLD : forall y, nth_error (cells hc s) i = Some y -> memoish y x).
  { intros y EY. destruct (cp_grow _ _ _ C _ _ EY) as (x' & EX' & M). congruence. }
  assert (OLDS : forall v y, x = CState v -> nth_error (cells hc s) i = Some y -> y = CState v).
  { intros v y -> EY. specialize (OLD _ EY). destruct y; simpl in OLD; auto; try congruence. destruct OLD as (? & ? & ?). discriminate. }
  destruct c; try discriminate; injection EC as ->; cbn [exec] in E; unfold answer in E.
  - destruct (do_state hc initial s) as [[[j v]|e|] s1] eqn:ED; injection E as <- <-.
    + split; [|intros d w ->; left].
      * intros w ->. destruct (nth_error (cells hc s) i) as [y|] eqn:EY; [left; exists w; f_equal; eapply OLDS; eauto|]. right. split; auto. split; auto. simpl. f_equal.
        apply nth_error_None in EY. destruct (do_state_spec _ _ _ _ _ ED LC) as (_ & _ & K). destruct (K _ _ eq_refl) as (N & _ & P1 & P2).
        pose proof (cp_size _ _ _ C) as SZ. assert (LI : i < length (cells hc s1)) by (apply nth_error_Some; congruence).
        destruct (once hc s); [lia|]. destruct (P2 eq_refl) as (-> & _ & LN). lia.
      * exists d. destruct (do_state_spec _ _ _ _ _ ED LC) as (_ & _ & K). destruct (K _ _ eq_refl) as (N & _ & P1 & P2).
        unfold do_state, bind in ED. destruct (use_cell hc (CState initial) s) as [[[a b]|?|] ?] eqn:EU; try discriminate.
        destruct (use_cell_slot _ _ _ _ _ _ EU LC) as (_ & _ & Q1 & Q2). cbn [fst snd] in ED. destruct b; try discriminate. injection ED as <- <- <-.
        destruct (once hc s); [destruct (Q1 eq_refl) as (_ & _ & Q); rewrite Q in EX; auto|]. destruct (Q2 eq_refl) as (_ & _ & Q). rewrite Q in EX.
        destruct (Nat.lt_ge_cases i (length (cells hc s))) as [LT|GE]; [rewrite nth_error_app1 in EX; auto|]. rewrite nth_error_app2 in EX by auto.
        destruct (i - length (cells hc s)) as [|k]; [discriminate|destruct k; discriminate].
    + apply DONE. unfold do_state, bind in ED. destruct (use_cell hc (CState initial) s) as [[[a b]|?|] ?] eqn:EU; [|injection ED as <- <-|discriminate].
      * destruct (use_cell_slot _ _ _ _ _ _ EU LC) as (_ & _ & Q1 & Q2). cbn [fst snd] in ED. destruct (once hc s).
        -- destruct (Q1 eq_refl) as (_ & _ & Q). assert (EQ : s0 = s1) by (destruct b; unfold ret, raise in ED; congruence). subst s0. intros _. rewrite Q. split; [apply (cp_len _ _ _ C)|]. split; eauto.
        -- destruct (Q2 eq_refl) as (_ & -> & Q). discriminate.
      * destruct (use_cell_spec _ _ _ _ _ EU LC) as (_ & [(_ & R0 & _)|[(_ & y & _ & R0 & _)|(_ & _ & _ & ->)]]); try discriminate. apply MV_refl.
    + destruct (do_state_spec _ _ _ _ _ ED LC) as (_ & K & _). congruence.
  - assert (MEM : forall d v, x = CMemo d (Some v) -> exists d', nth_error (cells hc s) i = Some (CMemo d' (Some v))).
    { intros d v ->. exists d. assert (UC : forall init t w t', (forall d m, init <> CMemo d m) -> use_cell hc init t = (w, t') -> hc < length (s_hooks t) -> nth_error (cells hc t') i = Some (CMemo d (Some v)) -> nth_error (cells hc t) i = Some (CMemo d (Some v)) /\ length (s_hooks t') = length (s_hooks t)).
      { intros init t w t' NI EU L' EN. destruct (use_cell_spec _ _ _ _ _ EU L') as (C' & [(_ & _ & Q & _)|[(_ & y & _ & _ & Q & _)|(_ & _ & _ & ->)]]); auto.
        - rewrite Q in EN. split; [|apply (cp_len _ _ _ C')]. destruct (Nat.lt_ge_cases i (length (cells hc t))) as [LT|GE]; [rewrite nth_error_app1 in EN; auto|]. rewrite nth_error_app2 in EN by auto.
          destruct (i - length (cells hc t)) as [|k]; [injection EN as EN; exfalso; eapply NI; eauto|destruct k; discriminate].
        - rewrite Q in EN. split; auto. apply (cp_len _ _ _ C'). }
      assert (exists t t', (exists y, use_cell hc (CState initial) s = (y, t)) /\ ((exists y ic, use_cell hc (CConst (VPair (VInt (Z.of_nat reducer)) (VSetter hc ic))) t = (y, t')) \/ t' = t) /\ s' = t') as (t & t' & (y & A) & B & ->).
      { unfold do_reducer, do_state, bind in E. destruct (use_cell hc (CState initial) s) as [[[a b]|?|] t] eqn:EU; try (exists t, t; split; eauto; split; auto; congruence).
        cbn [fst snd] in E. destruct b as [w| | |]; cbn [ret raise fst snd] in E; try (exists t, t; split; eauto; split; auto; congruence).
        destruct (use_cell hc _ t) as [[[a' b]|?|] t'] eqn:EU2; exists t, t'; (split; [eauto|]); (split; [left; eexists _, _; exact EU2|]); try congruence.
        cbn [snd] in E; destruct b; unfold ret, raise in E; congruence. }
      assert (LT : length (s_hooks t) = length (s_hooks s)) by (destruct (use_cell_spec _ _ _ _ _ A LC) as (C' & _); apply (cp_len _ _ _ C')).
      assert (NT : nth_error (cells hc t) i = Some (CMemo d (Some v))).
      { destruct B as [(y' & ic & B)| ->]; auto. eapply UC; [|exact B| |exact EX]; [discriminate|lia]. }
      eapply UC; [|exact A| |exact NT]; [discriminate|lia]. }
    split; [|intros; left; eauto]. intros w ->. destruct (nth_error (cells hc s) i) as [y|] eqn:EY; [left; exists w; f_equal; eapply OLDS; eauto|].
    right. split; auto. split; auto. apply nth_error_None in EY. pose proof (cp_size _ _ _ C) as SZ. assert (LI : i < length (cells hc s')) by (apply nth_error_Some; congruence).
    destruct (once hc s) eqn:EO; [lia|].
    destruct (do_reducer hc reducer initial s) as [[[[j v] d]|e|] s1] eqn:ED; injection E as <- <-; cbn [slot_of fst snd].
    + destruct (do_reducer_spec _ _ _ _ _ _ ED LC) as (_ & _ & K). destruct (K _ _ _ eq_refl) as (N1 & N2 & _ & P1 & P2). destruct (P2 EO) as (-> & _ & _ & LN). f_equal.
      assert (i = length (cells hc s) \/ i = S (length (cells hc s))) as [->| ->] by lia; [reflexivity|congruence].
    + exfalso. unfold do_reducer, do_state, bind in ED. destruct (use_cell hc (CState initial) s) as [[[a b]|?|] t] eqn:EU.
      * destruct (use_cell_slot _ _ _ _ _ _ EU LC) as (_ & _ & _ & Q2). destruct (Q2 EO) as (_ & -> & _). cbn [ret fst snd] in ED.
        destruct (use_cell_spec _ _ _ _ _ EU LC) as (C' & _). assert (LT : hc < length (s_hooks t)) by (rewrite (cp_len _ _ _ C'); auto).
        destruct (use_cell hc (CConst _) t) as [[[a' b]|?|] t'] eqn:EU2; [|destruct (use_cell_spec _ _ _ _ _ EU2 LT) as (_ & [(_ & R0 & _)|[(O' & _)|(O' & _)]]); [discriminate|rewrite (cp_once _ _ _ C') in O'; congruence..]|discriminate].
        destruct (use_cell_slot _ _ _ _ _ _ EU2 LT) as (_ & _ & _ & Q2'). destruct Q2' as (_ & -> & _); [rewrite (cp_once _ _ _ C'); auto|]. discriminate.
      * destruct (use_cell_spec _ _ _ _ _ EU LC) as (_ & [(_ & R0 & _)|[(O' & _)|(O' & _)]]); [discriminate|congruence..].
      * discriminate.
    + destruct (do_reducer_spec _ _ _ _ _ _ ED LC) as (_ & K & _). congruence.
  - destruct (do_memo hc deps f s) as [[[[j v] ran]|e|] s1] eqn:ED; injection E as <- <-.
    + destruct (do_memo_spec _ _ _ _ _ _ ED LC) as (_ & _ & K). destruct (K _ _ _ eq_refl) as (_ & P1 & P2 & md & mv & MB & _ & N & _ & OT). destruct (Nat.eq_dec i j) as [->|NJ].
      * rewrite EX in N. injection N as ->. split; [discriminate|]. intros d w K'. right. auto.
      * rewrite OT in EX; auto; [split; intros; subst x; left; eauto|]. pose proof (cp_size _ _ _ C) as SZ. assert (i < length (cells hc s1)) by (apply nth_error_Some; congruence).
        destruct (once hc s); [lia|]. destruct (P2 eq_refl) as (-> & LN). lia.
    + apply DONE. unfold do_memo, bind in ED. destruct (do_memo_start hc deps s) as [[[[j ch] mv]|e'|] t] eqn:ES; pose proof (MV_start _ _ _ _ _ ES) as M; [|injection ED as <- <-; auto|discriminate].
      unfold do_memo_setup in ED. destruct ch; [destruct f; [discriminate|]|destruct mv; [discriminate|]]; injection ED as <- <-; auto.
    + destruct (do_memo_spec _ _ _ _ _ _ ED LC) as (_ & K & _). congruence.
  - destruct (do_memo hc deps (inl f) s) as [[[[j v] ran]|e|] s1] eqn:ED; injection E as <- <-.
    + destruct (do_memo_spec _ _ _ _ _ _ ED LC) as (_ & _ & K). destruct (K _ _ _ eq_refl) as (_ & P1 & P2 & md & mv & MB & _ & N & _ & OT). destruct (Nat.eq_dec i j) as [->|NJ].
      * rewrite EX in N. injection N as ->. split; [discriminate|]. intros d w K'. right. auto.
      * rewrite OT in EX; auto; [split; intros; subst x; left; eauto|]. pose proof (cp_size _ _ _ C) as SZ. assert (i < length (cells hc s1)) by (apply nth_error_Some; congruence).
        destruct (once hc s); [lia|]. destruct (P2 eq_refl) as (-> & LN). lia.
    + apply DONE. unfold do_memo, bind in ED. destruct (do_memo_start hc deps s) as [[[[j ch] mv]|e'|] t] eqn:ES; pose proof (MV_start _ _ _ _ _ ES) as M; [|injection ED as <- <-; auto|discriminate].
      unfold do_memo_setup in ED. destruct ch; [discriminate|destruct mv; [discriminate|]]; injection ED as <- <-; auto.
    + destruct (do_memo_spec _ _ _ _ _ _ ED LC) as (_ & K & _). congruence.
  - apply DONE. destruct (do_ref hc initial s) as [[[j v]|e|] s1] eqn:ED; injection E as <- <-; apply (MV_ref _ _ _ _ _ ED).
  - destruct (do_effect hc deps fn async s) as [[[j ran]|e|] s1] eqn:ED; injection E as <- <-.
    + destruct (do_effect_spec _ _ _ _ _ _ _ ED LC (O3 hc)) as (_ & _ & K). destruct (K _ _ eq_refl) as (_ & EJ & _ & md & mv & MB & _ & N & _ & OT). destruct (Nat.eq_dec i j) as [->|NJ].
      * rewrite EX in N. injection N as ->. split; [discriminate|]. intros d w K'. right. auto.
      * destruct (Nat.lt_ge_cases i (length (cells hc s))) as [LT|GE]; [rewrite OT in EX; auto; split; intros; subst x; left; eauto|].
        (* a new slot which is not the memo's is a reference *)
        assert (exists w, x = CRef w) as (w & ->); [|split; discriminate].
        pose proof (cp_size _ _ _ C) as SZ. assert (LI : i < length (cells hc s1)) by (apply nth_error_Some; congruence).
        destruct (once hc s) eqn:EO; [lia|]. clear DONE OLD OLDS.
        assert (REF : forall t ri rv t', do_ref hc VNone t = (Ok (ri, rv), t') -> hc < length (s_hooks t) -> once hc t = false -> cells hc t' = cells hc t ++ [CRef VNone] /\ once hc t' = false /\ hc < length (s_hooks t')).
        { intros t ri rv t' ER LT OT'. unfold do_ref, bind in ER. destruct (use_cell hc (CRef VNone) t) as [[[a b]|?|] ?] eqn:EU; try discriminate.
          destruct (use_cell_slot _ _ _ _ _ _ EU LT) as (_ & _ & _ & Q2). destruct (use_cell_spec _ _ _ _ _ EU LT) as (C' & _). destruct (Q2 OT') as (_ & -> & Q). injection ER as _ _ <-.
          split; auto. split; [rewrite (cp_once _ _ _ C'); auto|rewrite (cp_len _ _ _ C'); auto]. }
        unfold do_effect, bind in ED. destruct (do_memo_start hc deps s) as [[[[j' ch] mv']|?|] t1] eqn:ES; try discriminate.
        destruct (memo_start_spec _ _ _ _ _ ES LC) as (C1 & _ & K1). destruct (K1 _ _ _ eq_refl) as (_ & _ & S2 & md' & _ & _ & N1 & _). destruct (S2 EO) as (-> & S3).
        destruct (do_ref hc VNone t1) as [[[ri rv]|?|] t2] eqn:ER; try discriminate. destruct (REF _ _ _ _ ER) as (R1 & R2 & R3); [rewrite (cp_len _ _ _ C1); auto|rewrite (cp_once _ _ _ C1); auto|].
        assert (exists t3 k, cells hc t3 = cells hc t2 ++ repeat (CRef VNone) k /\ hc < length (s_hooks t3) /\
          ((Ok (length (cells hc s), true), set_cell hc (length (cells hc s)) (CMemo (memo_deps deps) (Some VNone)) (add_effect hc (Effect fn ri) t3)) = (Ok (j, ran), s1) \/ t3 = s1)) as (t3 & k & T1 & T2 & T3).
        { destruct async.
          - destruct (do_ref hc VNone t2) as [[[ri' rv']|?|] t3] eqn:ER3; try discriminate. destruct (REF _ _ _ _ ER3 R3 R2) as (U1 & U2 & U3).
            exists t3, 1. split; auto. split; auto. destruct ch; [left; exact ED|]. destruct mv'; [|discriminate]. right. unfold ret in ED. congruence.
          - exists t2, 0. simpl. rewrite app_nil_r. split; auto. split; auto. destruct ch; [left; exact ED|]. destruct mv'; [|discriminate]. right. unfold ret in ED. congruence. }
        assert (NX : nth_error (cells hc t3) i = Some x).
        { destruct T3 as [T3| ->]; auto. injection T3 as <- <- <-. unfold set_cell in EX. destruct (add_effect_same hc (Effect fn ri) t3) as (AE1 & _ & _ & AE4 & _).
          rewrite put_cells in EX by (rewrite AE4; auto). simpl in EX. fold (cells hc (add_effect hc (Effect fn ri) t3)) in EX. rewrite AE1 in EX. rewrite nth_upd_other in EX by auto. exact EX. }
        assert (i <> length (cells hc s)). { intros ->. apply NJ. rewrite EJ. symmetry. apply O3. auto. }
        rewrite T1, R1, <- app_assoc, nth_error_app2 in NX by lia. exists VNone.
        assert (IN : In x ([CRef VNone] ++ repeat (CRef VNone) k)) by (eapply nth_error_In; eauto).
        apply in_app_iff in IN. destruct IN as [[<-|[]]|IN]; auto. apply repeat_spec in IN. exact IN.
    + apply DONE. unfold do_effect, bind in ED. destruct (do_memo_start hc deps s) as [[[[j ch] mv]|e'|] t] eqn:ES; pose proof (MV_start _ _ _ _ _ ES) as M; [|injection ED as <- <-; auto|discriminate].
      destruct (do_ref hc VNone t) as [[[ri rv]|?|] t2] eqn:ER; pose proof (MV_trans _ _ _ _ M (MV_ref _ _ _ _ _ ER)) as M2; [|injection ED as <- <-; auto|discriminate].
      assert (LASTR : forall t3, MV hc s t3 -> (match ch with true => fun s => (Ok (j, true), set_cell hc j (CMemo (memo_deps deps) (Some VNone)) (add_effect hc (Effect fn ri) s)) | false => match mv with Some _ => ret (j, false) | None => raise attribute_error end end) t3 = (Raise e, s1) -> MV hc s s1).
      { intros t3 M3. destruct ch; [discriminate|]. destruct mv; [discriminate|]. intros K. unfold raise in K. injection K as _ <-. exact M3. }
      destruct async.
      * destruct (do_ref hc VNone t2) as [[[ri' rv']|?|] t3] eqn:ER3; pose proof (MV_trans _ _ _ _ M2 (MV_ref _ _ _ _ _ ER3)) as M3; [|injection ED as <- <-; auto|discriminate].
        apply (LASTR t3 M3). destruct ch; [exact ED|]. destruct mv; exact ED.
      * apply (LASTR t2 M2). destruct ch; [exact ED|]. destruct mv; exact ED.
    + destruct (do_effect_spec _ _ _ _ _ _ _ ED LC (O3 hc)) as (_ & K & _). congruence.
Qed.

Lemma origin_state n a : forall h i v, on n a -> nth_error (cells h (state_after n a)) i = Some (CState v) ->
  exists a1 c a2, a = a1 ++ c :: a2 /\ caller c = Some h /\ slot_of (reply n a1 c) = Some i.
Proof.
  induction a as [|c a IH] using rev_ind; intros h i v ON E.
  - exfalso. unfold HookCalls.state_after, cells, get_hook, fresh in E. simpl in E. rewrite nth_repeat in E. destruct i; discriminate.
  - destruct (on_app _ _ _ ON) as [ON1 ON2]. rewrite after_snoc in E. pose proof (exec_pair c (state_after n a)) as EP.
    destruct (exec_origin _ _ _ _ _ _ _ _ EP (after_ok n a) (proj1 (on_cons _ _ _ ON2)) E) as [A _].
    destruct (A v eq_refl) as [(w & W)|(B & C & _)].
    + destruct (IH h i w ON1 W) as (a1 & c1 & a2 & -> & X & Y). exists a1, c1, (a2 ++ [c]). rewrite <- app_assoc. auto.
    + exists a, c, []. auto.
Qed.
Lemma origin_memo n a : forall h i d v, on n a -> nth_error (cells h (state_after n a)) i = Some (CMemo d (Some v)) ->
  exists a1 c a2, a = a1 ++ c :: a2 /\ caller c = Some h /\ is_memo c = true /\ slot_of (reply n a1 c) = Some i.
Proof.
  induction a as [|c a IH] using rev_ind; intros h i d v ON E.
  - exfalso. unfold HookCalls.state_after, cells, get_hook, fresh in E. simpl in E. rewrite nth_repeat in E. destruct i; discriminate.
  - destruct (on_app _ _ _ ON) as [ON1 ON2]. rewrite after_snoc in E. pose proof (exec_pair c (state_after n a)) as EP.
    destruct (exec_origin _ _ _ _ _ _ _ _ EP (after_ok n a) (proj1 (on_cons _ _ _ ON2)) E) as [_ A].
    destruct (A d v eq_refl) as [(w & W)|(B & C & D)].
    + destruct (IH h i w v ON1 W) as (a1 & c1 & a2 & -> & X & Y). exists a1, c1, (a2 ++ [c]). rewrite <- app_assoc. auto.
    + exists a, c, []. auto.
Qed.

(** No memoising call of [h] in [b] gets slot [i] or raises. *)
Definition untouched (h i : nat) (b : list call) (s : st) : Prop :=
  forall b1 c b2, b = b1 ++ c :: b2 -> caller c = Some h -> is_memo c = true ->
    (forall e, fst (exec R c (snd (exec_all R b1 s))) <> RRaised e) /\ slot_of (fst (exec R c (snd (exec_all R b1 s)))) <> Some i.
Lemma untouched_memo n h i b d m : forall s, ok n s -> on n b -> untouched h i b s ->
  nth_error (cells h s) i = Some (CMemo d m) -> nth_error (cells h (snd (exec_all R b s))) i = Some (CMemo d m).
Proof.
  induction b as [|c b IH]; intros s O ON U E; simpl; auto. destruct (on_cons _ _ _ ON) as [ON1 ON2].
  destruct (exec R c s) as [r s1] eqn:EC. assert (E1 : nth_error (cells h s1) i = Some (CMemo d m)).
  { eapply exec_memo_other; eauto. intros A B. specialize (U [] c b eq_refl A B). simpl in U. rewrite EC in U. exact U. }
  specialize (IH s1 (exec_ok _ _ _ _ _ _ EC O) ON2). destruct (exec_all R b s1) as [rs s2] eqn:EB. cbn [snd] in *. apply IH; auto.
  intros b1 c' b2 -> A B. specialize (U (c :: b1) c' b2 eq_refl A B). simpl in U. rewrite EC in U. destruct (exec_all R b1 s1). exact U.
Qed.

(** A memoising call: what it stored. *)
Definition memo_of (c : call) : option (nat * option (list val) * (val + string)) :=
  match c with
  | KMemo h d f => Some (h, d, f)
  | KCallback h d f => Some (h, d, inl f)
  | KEffect h d _ _ => Some (h, d, inl VNone)
  | _ => None
  end.
Definition memo_reply (r : result) : option (nat * bool) :=
  match r with RMemo i _ ran => Some (i, ran) | REffect i ran => Some (i, ran) | _ => None end.
Lemma memo_call n c h d f s r s' i ran : exec R c s = (r, s') -> ok n s -> h < n -> memo_of c = Some (h, d, f) -> memo_reply r = Some (i, ran) ->
  exists md mv, (nth_error (cells h s) i = None -> mv = None) /\ (forall d0 m0, nth_error (cells h s) i = Some (CMemo d0 m0) -> md = d0 /\ mv = m0) /\
    (forall x, nth_error (cells h s) i = Some x -> exists d0 m0, x = CMemo d0 m0) /\
    ran = memo_changed md mv d /\ 
    exists v, nth_error (cells h s') i = Some (CMemo (if ran then memo_deps d else md) (Some v)) /\ (forall j w b, r = RMemo j w b -> w = v) /\ (if ran then f = inl v else mv = Some v).
Proof.
  intros E O L MC MR. pose proof O as (O1 & O2 & O3). rewrite <- O2 in L.
  assert (BEF : forall md mv, memo_before h i s = Some (md, mv) -> (nth_error (cells h s) i = None -> mv = None) /\ (forall d0 m0, nth_error (cells h s) i = Some (CMemo d0 m0) -> md = d0 /\ mv = m0) /\
     (forall x, nth_error (cells h s) i = Some x -> exists d0 m0, x = CMemo d0 m0)).
  { intros md mv MB. unfold memo_before in MB. split; [|split].
    - intros X. rewrite X in MB. congruence.
    - intros d0 m0 X. rewrite X in MB. split; congruence.
    - intros x X. rewrite X in MB. destruct x; try discriminate. eauto. }
  destruct c; try discriminate; cbn [exec memo_of] in E, MC; unfold answer in E; injection MC as -> -> <-.
  - destruct (do_memo h d f0 s) as [[[[j v] rn]|e|] s1] eqn:ED; injection E as <- <-; try discriminate. cbn in MR. injection MR as -> ->.
    destruct (do_memo_spec _ _ _ _ _ _ ED L) as (_ & _ & K). destruct (K _ _ _ eq_refl) as (_ & _ & _ & md & mv & MB & RC & N & V & _).
    exists md, mv. destruct (BEF _ _ MB) as (B1 & B2 & B3). split; auto. split; auto. split; auto. split; auto. exists v. split; auto. split; auto. cbn. intros. congruence.
  - destruct (do_memo h d (inl f0) s) as [[[[j v] rn]|e|] s1] eqn:ED; injection E as <- <-; try discriminate. cbn in MR. injection MR as -> ->.
    destruct (do_memo_spec _ _ _ _ _ _ ED L) as (_ & _ & K). destruct (K _ _ _ eq_refl) as (_ & _ & _ & md & mv & MB & RC & N & V & _).
    exists md, mv. destruct (BEF _ _ MB) as (B1 & B2 & B3). split; auto. split; auto. split; auto. split; auto. exists v. split; auto. split; auto. cbn. intros. congruence.
  - destruct (do_effect h d fn async s) as [[[j rn]|e|] s1] eqn:ED; injection E as <- <-; try discriminate. cbn in MR. injection MR as -> ->.
    destruct (do_effect_spec _ _ _ _ _ _ _ ED L (O3 h)) as (_ & _ & K). destruct (K _ _ eq_refl) as (_ & _ & _ & md & mv & MB & RC & N & V & _).
    exists md, mv. destruct (BEF _ _ MB) as (B1 & B2 & B3). split; auto. split; auto. split; auto. split; auto.
    destruct ran; [exists VNone; split; auto; split; auto; discriminate|]. destruct mv as [w|]; [|exfalso; apply V; auto]. exists w. split; auto. split; auto. discriminate.
Qed.
End History.
