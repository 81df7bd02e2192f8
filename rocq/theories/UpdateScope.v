(** * C110: what an update renders, and how many updates there are

    Histories of a layout with serial rendering (LayoutModel.v: layout.py:130-140, 198-386, 509-583; hooks.py:88-96;
    _life_cycle_hook.py:166-278). *)
From Coq Require Import String ZArith Bool Arith Lia List Permutation.
From Verif Require Import Dict LayoutTypes LayoutModel BodySpec DisplaySpec DisplayFacts GuardSpec LayoutObs LayoutTree LayoutDeriv LayoutExec
  LayoutFacts LayoutSettled LayoutContext LayoutHandlers LayoutShape LayoutOps LayoutNoCrash LayoutStep LayoutInv LayoutMain
  LayoutLive LayoutPending LayoutRun LayoutClose LayoutHistory LayoutReach LayoutDemo.
Import ListNotations.
Local Open Scope string_scope.
Local Open Scope list_scope.

(** ** How many updates there are *)

(** The calls of setters and dispatch functions among the operations, those during renders included. *)
Definition is_dispatch (o : envop) : bool := match o with EDispatch _ _ _ => true | ESeq _ _ => false end.
Definition dispatches_env (l : list envop) : nat := length (filter is_dispatch l).
Definition dispatches_op (o : op) : nat := match o with ORender bs => list_sum (map dispatches_env bs) | OEnv e => dispatches_env [e] end.
Definition dispatches (ops : list op) : nat := list_sum (map dispatches_op ops).

(** A render function that does not itself change states (hooks.py:90-94 is called by handlers, effects and other tasks only). *)
Fixpoint pure_body (b : body) : Prop :=
  match b with
  | BRet _ | BRaise _ => True
  | BUseCell _ k => forall h i c, pure_body (k h i c)
  | BSetCell _ _ k | BAddEffect _ k | BProvide _ _ k => pure_body k
  | BContext _ k => forall v, pure_body (k v)
  | BDispatch _ _ _ _ => False
  end.

(** What answers a request: an update, a note that the component is gone, or an exception of [render()]. *)
Definition answers (e : event) : bool := match e with EvUpdate _ _ | EvSkip _ | EvCrash _ => true | _ => false end.
Definition answered (l : list event) : nat := length (filter answers l).

(** Requests answered, pending, and those the rest of the current operation can still make. *)
Definition load (s : st) : nat := answered (s_log s) + length (s_queue s) + list_sum (map dispatches_env (s_env s)).
Definition calm {A} (m : M A) : Prop := forall s, load (snd (m s)) <= load s.

Lemma calm_ret {A} (a : A) : calm (ret a). Proof. intros s. apply le_n. Qed.
Lemma calm_raise {A} e : calm (@raise A e). Proof. intros s. apply le_n. Qed.
Lemma calm_fuel {A} : calm (@no_fuel A). Proof. intros s. apply le_n. Qed.
Lemma calm_bind {A B} (m : M A) (f : A -> M B) : calm m -> (forall a, calm (f a)) -> calm (bind m f).
Proof. intros H K s. unfold bind. specialize (H s). destruct (m s) as [[a|e|] t]; cbn [snd] in *; [specialize (K a t); lia|lia|lia]. Qed.
Lemma calm_catch {A} (m : M A) h : calm m -> (forall e, calm (h e)) -> calm (catch m h).
Proof. intros H K s. unfold catch. specialize (H s). destruct (m s) as [[a|e|] t]; cbn [snd] in *; [lia|specialize (K e t); lia|lia]. Qed.
Lemma calm_finally {A} (m : M A) f : calm m -> calm f -> calm (finally m f).
Proof.
  intros H K s. unfold finally. specialize (H s). destruct (m s) as [[a|e|] t]; cbn [snd] in *; [| |lia]; specialize (K t); destruct (f t) as [[b|e'|] u]; cbn [snd] in *; lia.
Qed.
Lemma calm_gets {A} (f : st -> A) : calm (gets f). Proof. intros s. apply le_n. Qed.
Lemma calm_modify f : (forall s, load (f s) <= load s) -> calm (modify f). Proof. intros H s. apply H. Qed.
Lemma calm_log e : answers e = false -> calm (log e).
Proof. intros H s. unfold log, modify, load, answered. cbn [snd s_log s_queue s_env set_log]. rewrite filter_app, app_length. cbn [filter]. rewrite H. cbn. lia. Qed.
Lemma calm_get_ms m : calm (get_ms m). Proof. intros s. unfold get_ms. destruct (nth_error (s_heap s) m); apply le_n. Qed.
Lemma calm_put_ms m x : calm (put_ms m x). Proof. intros s. apply le_n. Qed.
Lemma calm_new_ms x : calm (new_ms x). Proof. intros s. apply le_n. Qed.
Lemma calm_new_hook : calm new_hook. Proof. intros s. apply le_n. Qed.
Lemma calm_change m f : calm (change_ms m f). Proof. apply calm_bind; [apply calm_get_ms|intros x; apply calm_put_ms]. Qed.

Lemma load_dispatch h i u s : load (dispatch h i u s) <= S (load s).
Proof.
  unfold dispatch. destruct (nth_error (hk_cells (get_hook h s)) i) as [[v| | |]|]; try lia. destruct (veq _ v); [lia|].
  unfold schedule_render. destruct (hk_sched _); [apply (Nat.le_succ_diag_r (load s))|]. unfold load. cbn [s_log s_queue s_env put_hook set_hooks set_queue].
  unfold queue_put. destruct (mem h (s_queue s)); [lia|]. rewrite app_length. cbn. lia.
Qed.
Lemma load_env s e : load (env_step s e) <= dispatches_env [e] + load s.
Proof.
  destruct e as [h i u|t z]; cbn [env_step]; [apply load_dispatch|]. unfold record_seq. destruct (0 <=? z)%Z; [|apply le_n]. destruct (_ <? z)%Z; apply le_n.
Qed.
Lemma load_envs l : forall s, load (fold_left env_step l s) <= dispatches_env l + load s.
Proof.
  induction l as [|e l IH]; intros s; [apply le_n|]. cbn [fold_left]. specialize (IH (env_step s e)). pose proof (load_env s e) as H.
  unfold dispatches_env in *. cbn [filter] in *. destruct (is_dispatch e); cbn [length] in *; lia.
Qed.
Lemma calm_pause : calm pause.
Proof.
  apply calm_modify. intros s. destruct (s_env s) as [|b bs] eqn:E; [apply le_n|]. pose proof (load_envs b (set_env bs s)) as H.
  unfold load in *. cbn [s_log s_queue s_env set_env] in H. rewrite E. cbn [map list_sum fold_right]. unfold list_sum in *. lia.
Qed.
Lemma calm_use_cell h c : calm (use_cell h c).
Proof. intros s. unfold use_cell. destruct (hk_once (get_hook h s)); [|apply le_n]. destruct (nth_error _ _); apply le_n. Qed.
Lemma calm_body h b : pure_body b -> calm (run_body h b).
Proof.
  induction b as [r|msg|c k IH|i c k IH|e k IH|c k IH|c v k IH|h' i u k IH]; cbn [run_body pure_body]; intros P.
  - apply calm_ret.
  - apply calm_raise.
  - apply calm_bind; [apply calm_use_cell|]. intros a. apply IH, P.
  - apply calm_bind; [apply calm_modify; intros s; apply le_n|]. intros a. apply IH, P.
  - apply calm_bind; [apply calm_modify; intros s; apply le_n|]. intros a. apply IH, P.
  - apply calm_bind; [apply calm_gets|]. intros a. apply IH, P.
  - apply calm_bind; [apply calm_modify; intros s; apply le_n|]. intros a. apply IH, P.
  - destruct P.
Qed.
Lemma calm_set_current h : calm (set_current h).
Proof. apply calm_modify. intros s. destruct (s_stack s); apply le_n. Qed.
Lemma calm_unset_current h : calm (unset_current h).
Proof. intros s. unfold unset_current. destruct (s_stack s) as [|p l]; [apply le_n|]. destruct (Nat.eq_dec p h); apply le_n. Qed.
Lemma calm_will_render h : calm (will_render h).
Proof. apply calm_bind; [apply calm_pause|]. intros _. apply calm_bind; [apply calm_modify; intros s; apply le_n|]. intros _. apply calm_set_current. Qed.
Lemma calm_did_render h : calm (did_render h).
Proof. apply calm_bind; [apply calm_unset_current|]. intros _. apply calm_modify. intros s. apply le_n. Qed.
Lemma calm_layout_did_render h : calm (layout_did_render h).
Proof. intros s. unfold layout_did_render. eapply Nat.le_trans; [apply calm_log; reflexivity|]. apply le_n. Qed.
Lemma calm_exit l : calm (run_exit l).
Proof. induction l as [|h l IH]; [apply calm_ret|]. apply calm_bind; [apply calm_layout_did_render|]. intros _. exact IH. Qed.
Lemma calm_del_handlers ts : calm (del_handlers ts).
Proof.
  induction ts as [|t ts IH]; [apply calm_ret|]. intros s. cbn [del_handlers]. destruct (dmem t (s_eh s)); [|apply le_n]. eapply Nat.le_trans; [apply IH|]. apply le_n.
Qed.
Lemma calm_del_reg h : calm (del_reg h).
Proof. intros s. unfold del_reg. destruct (dmem h (s_reg s)); apply le_n. Qed.
Lemma calm_unmount fuel : forall l, calm (unmount fuel l).
Proof.
  induction fuel as [|f IH]; intros l; [apply calm_fuel|]. cbn [unmount]. destruct l as [|m l]; [apply calm_ret|].
  apply calm_bind; [apply calm_get_ms|]. intros x. apply calm_bind; [apply calm_del_handlers|]. intros _. apply calm_bind; [|intros _; apply IH].
  destruct (ms_lcs x) as [[h c]|]; [|apply calm_ret]. apply calm_bind; [apply calm_del_reg|]. intros _. apply calm_bind; [apply calm_log; reflexivity|]. intros _. apply calm_pause.
Qed.
Lemma calm_register m l : calm (register_handlers m l).
Proof.
  induction l as [|[ev h] l IH]; cbn [register_handlers]; [apply calm_ret|]. apply calm_bind; [apply calm_get_ms|]. intros x. cbv zeta. apply calm_bind; [apply calm_put_ms|]. intros _.
  apply calm_bind; [apply calm_modify; intros s; apply le_n|]. intros _. apply calm_bind; [exact IH|]. intros js. apply calm_ret.
Qed.
Lemma calm_attributes old new tag attrs hs js imp : calm (render_attributes old new tag attrs hs js imp).
Proof.
  unfold render_attributes. apply calm_bind.
  - destruct old as [o|]; [|apply calm_ret]. apply calm_bind; [apply calm_get_ms|]. intros x. apply calm_del_handlers.
  - intros _. apply calm_bind.
    + destruct hs as [|p hs]; [apply calm_ret|]. apply calm_bind; [apply calm_register|]. intros l. apply calm_ret.
    + intros ehs. apply calm_bind; [apply calm_get_ms|]. intros x. apply calm_bind; [apply calm_gets|]. intros q. apply calm_put_ms.
Qed.

Section Layout.
Variable debug : bool.
Variable defs : nat -> val -> list raw -> body.
Hypothesis PB : forall k p kids, pure_body (defs k p kids).

Lemma calm_render fuel :
  (forall old parent index k c, calm (render_component debug defs fuel old parent index k c)) /\
  (forall old parent index k r, calm (render_model debug defs fuel old parent index k r)) /\
  (forall old new raws, calm (render_children debug defs fuel old new raws)) /\
  (forall old new index infos, calm (render_child_list debug defs fuel old new index infos)).
Proof.
  induction fuel as [|f (IC & IM & IH & IL)]; [repeat split; intros; apply calm_fuel|]. repeat split.
  - intros old parent index k c. cbn [render_component].
    assert (FR : calm (match parent with
        | Some p => pm <- get_ms p ;; h <- new_hook ;; n <- new_ms (make_component_ms p pm index k h c) ;; ret (n, @None nat)
        | None => raise EBadVdom end)).
    { destruct parent as [p|]; [|apply calm_raise]. apply calm_bind; [apply calm_get_ms|]. intros pm. apply calm_bind; [apply calm_new_hook|]. intros h.
      apply calm_bind; [apply calm_new_ms|]. intros n. apply calm_ret. }
    apply calm_bind.
    + destruct old as [o|]; [|exact FR]. apply calm_bind; [apply calm_get_ms|]. intros ox.
      destruct (ms_lcs ox) as [[h oc]|]; [|apply calm_bind; [apply calm_unmount|intros _; exact FR]].
      destruct (eq_dec (ci_type oc) (ci_type c)); [|apply calm_bind; [apply calm_unmount|intros _; exact FR]].
      destruct parent as [p|].
      * apply calm_bind; [apply calm_get_ms|]. intros pm. apply calm_bind; [apply calm_new_ms|]. intros n. apply calm_ret.
      * apply calm_bind; [apply calm_new_ms|]. intros n. apply calm_ret.
    + intros [new old']. cbn [fst snd]. apply calm_bind; [apply calm_get_ms|]. intros nx.
      destruct (ms_lcs nx) as [[h hc]|]; [|apply calm_raise].
      apply calm_bind; [apply calm_modify; intros s; apply le_n|]. intros _. apply calm_bind; [apply calm_will_render|]. intros _.
      apply calm_bind; [apply calm_modify; intros s; apply le_n|]. intros _. apply calm_bind; [|intros _; apply calm_ret].
      apply calm_finally; [|apply calm_did_render]. apply calm_catch.
      * apply calm_bind; [apply calm_log; reflexivity|]. intros _. apply calm_bind.
        -- apply calm_body. destruct c as [[n|x] ky p kids]; cbn [render_fn]; [apply PB|exact I].
        -- intros r. apply calm_bind; [apply calm_log; reflexivity|]. intros _. apply calm_bind; [apply calm_change|]. intros _. apply IH.
      * intros e. apply calm_bind; [apply calm_log; reflexivity|]. intros _. apply calm_change.
  - intros old parent index k r. cbn [render_model]. destruct r as [|s|tag attrs hs js imp children|c]; try apply calm_raise.
    apply calm_bind.
    + destruct old as [o|].
      * apply calm_bind; [apply calm_get_ms|]. intros ox. destruct (ms_lcs ox) as [lc|].
        -- apply calm_bind; [apply calm_unmount|]. intros _. apply calm_bind; [apply calm_get_ms|]. intros pm. apply calm_bind; [apply calm_new_ms|]. intros n. apply calm_ret.
        -- apply calm_bind; [apply calm_get_ms|]. intros pm. apply calm_bind; [apply calm_new_ms|]. intros n. apply calm_ret.
      * apply calm_bind; [apply calm_get_ms|]. intros pm. apply calm_bind; [apply calm_new_ms|]. intros n. apply calm_ret.
    + intros [new old']. cbn [fst snd]. apply calm_bind.
      * destruct (attr_key attrs); [apply calm_change|apply calm_ret].
      * intros _. apply calm_bind; [apply calm_attributes|]. intros _. apply calm_bind; [apply IH|]. intros _. apply calm_ret.
  - intros old new raws. cbn [render_children]. destruct (get_children_info raws) as [infos [ks|]]; [|apply calm_raise].
    apply calm_bind.
    + destruct old as [o|]; [|apply calm_ret]. apply calm_bind; [apply calm_get_ms|]. intros ox. destruct (dvals _) as [|g gs]; [apply calm_ret|apply calm_unmount].
    + intros _. destruct raws as [|r raws]; [apply calm_ret|]. apply calm_bind; [apply calm_change|intros _; apply IL].
  - intros old new index infos. cbn [render_child_list]. destruct infos as [|[kd k] rest]; [apply calm_ret|].
    apply calm_bind.
    + destruct old as [o|]; [|apply calm_ret]. apply calm_bind; [apply calm_get_ms|]. intros ox. apply calm_ret.
    + intros oc. apply calm_bind; [|intros _; apply IL]. destruct kd as [r|c|s].
      * apply calm_bind; [apply IM|]. intros n. apply calm_bind; [apply calm_get_ms|]. intros nx. apply calm_change.
      * apply calm_bind; [apply IC|]. intros n. apply calm_bind; [apply calm_get_ms|]. intros nx. apply calm_change.
      * apply calm_bind; [destruct oc; [apply calm_unmount|apply calm_ret]|]. intros _. apply calm_change.
Qed.
Lemma calm_update fuel old : calm (create_layout_update debug defs fuel old).
Proof.
  unfold create_layout_update. apply calm_bind; [apply calm_modify; intros s; apply le_n|]. intros _. apply calm_bind; [apply calm_modify; intros s; apply le_n|]. intros _.
  apply calm_finally; [|apply calm_modify; intros s; apply le_n]. apply calm_bind; [apply calm_get_ms|]. intros ox. destruct (ms_lcs ox) as [[h c]|]; [|apply calm_raise].
  apply calm_bind.
  { unfold get_parent. destruct (ms_parent ox) as [p|]; [|apply calm_ret]. intros s. destruct (alive s p); apply le_n. }
  intros parent. apply calm_bind.
  - apply calm_finally; [apply (proj1 (calm_render fuel))|]. apply calm_bind; [apply calm_gets|]. intros hs. apply calm_exit.
  - intros n. apply calm_bind; [apply calm_get_ms|]. intros nx. apply calm_bind; [|intros _; apply calm_ret]. destruct parent as [p|]; [apply calm_change|apply calm_ret].
Qed.
(** One call of [render()]: the request it takes from the queue pays for its answer. *)
Lemma calm_serial fuel q : forall s, s_queue s = q ->
  load (snd (serial_render debug defs fuel q s)) + match fst (serial_render debug defs fuel q s) with Ok None | Fuel => 0 | _ => 1 end <= load s.
Proof.
  induction q as [|h q IH]; intros s E; cbn [serial_render].
  { cbn. lia. }
  unfold bind, modify, gets, log, ret. cbv beta iota.
  assert (L : S (load (set_queue q s)) = load s) by (unfold load; cbn [s_log s_queue s_env set_queue]; rewrite E; cbn [length]; lia).
  destruct (dget h (s_reg (set_queue q s))) as [m|].
  - pose proof (calm_update fuel m (set_queue q s)) as C. destruct (create_layout_update debug defs fuel m (set_queue q s)) as [[u|e|] t]; cbn [fst snd] in *; cbn; lia.
  - unfold modify. cbv beta iota. specialize (IH (set_log (s_log (set_queue q s) ++ [EvSkip h]) (set_queue q s)) eq_refl).
    assert (L' : load (set_log (s_log (set_queue q s) ++ [EvSkip h]) (set_queue q s)) = load s).
    { rewrite <- L. unfold load, answered. cbn [s_log s_queue s_env set_log set_queue]. rewrite filter_app, app_length. cbn. lia. }
    rewrite L' in IH. exact IH.
Qed.
Lemma load_step fuel o s s' : step debug defs fuel o s = Some s' ->
  answered (s_log s') + length (s_queue s') <= dispatches_op o + (answered (s_log s) + length (s_queue s)).
Proof.
  intros E. destruct o as [bs|e]; cbn [step] in E.
  - pose proof (calm_serial fuel (s_queue s) (set_env bs s) eq_refl) as C.
    destruct (serial_render debug defs fuel (s_queue s) (set_env bs s)) as [[[[p m]|]|e|] t]; cbn [fst snd] in C; try discriminate; injection E as <-;
      unfold load in C; cbn [s_log s_queue s_env set_env set_log] in *; cbn [dispatches_op]; unfold answered in *; rewrite ?filter_app, ?app_length; cbn [filter answers length]; lia.
  - injection E as <-. pose proof (load_env (set_env [] s) e) as L. cbn [dispatches_op].
    assert (X : load (env_step (set_env [] s) e) = answered (s_log (env_step s e)) + length (s_queue (env_step s e))).
    { unfold load. destruct e as [h i u|t z]; cbn [env_step].
      - unfold dispatch. change (get_hook h (set_env [] s)) with (get_hook h s). destruct (nth_error (hk_cells (get_hook h s)) i) as [[v| | |]|]; try (apply Nat.add_0_r).
        destruct (veq _ v); [apply Nat.add_0_r|]. unfold schedule_render.
        match goal with |- context [get_hook h (put_hook h ?k (set_env [] s))] => change (get_hook h (put_hook h k (set_env [] s))) with (get_hook h (put_hook h k s)) end.
        destruct (hk_sched _); apply Nat.add_0_r.
      - unfold record_seq. destruct (0 <=? z)%Z; [|apply Nat.add_0_r]. change (s_seq (set_env [] s)) with (s_seq s). destruct (_ <? z)%Z; apply Nat.add_0_r. }
    rewrite X in L. assert (Y : load (set_env [] s) = answered (s_log s) + length (s_queue s)) by apply Nat.add_0_r. rewrite Y in L. exact L.
Qed.

(** C110: if render functions do not change states themselves then there are never more updates (and calls of [render()] that fail, and
    requests dropped because the component was gone) than one plus the calls of setters. *)
Theorem C110_cost : forall root ops s, history debug defs root ops s ->
  length (filter answers (s_log s)) + length (s_queue s) <= 1 + dispatches ops.
Proof.
  intros root ops s [fuel R]. assert (G : forall ops s s', run debug defs fuel ops s = Some s' ->
    answered (s_log s') + length (s_queue s') <= dispatches ops + (answered (s_log s) + length (s_queue s))).
  { clear -PB. intros ops0. induction ops0 as [|o ops0 IH]; intros s0 s' R'; cbn [run] in R'; [injection R' as <-; apply le_n|].
    destruct (step debug defs fuel o s0) as [t|] eqn:E; [|discriminate]. apply IH in R'. apply load_step in E. unfold dispatches in *. cbn [map list_sum fold_right]. unfold list_sum in *. lia. }
  specialize (G _ _ _ R). cbn in G. unfold answered in G. lia.
Qed.
End Layout.
Print Assumptions C110_cost.

(** ** What an update renders *)

(** C110: an update renders the first component with a pending request that is still mounted, and what is below it afterwards: each of these
    once, parents before children, in the order of the tree; nothing else.  It unmounts exactly what was below and no longer is.  Components
    elsewhere are neither rendered nor unmounted. *)
Theorem C110_renders_below : forall debug defs root ops s n bs s' p m,
  history debug defs root ops s -> mounted s = Some n ->
  next debug defs s (ORender bs) s' -> mild_failures (s_log s') ->
  updates (s_log s') = updates (s_log s) ++ [(p, m)] ->
  exists gone h rest x x' l,
    s_queue s = gone ++ h :: rest /\ (forall y, In y gone -> ~ In y (ids n)) /\
    occurs h n x /\ mounted s' = Some (replace_inst h x' n) /\ added s s' l /\
    rendered l = ids x' /\ NoDup (rendered l) /\
    (forall y, In y (unmounted l) <-> In y (ids x) /\ ~ In y (ids x')) /\
    (forall y, In y (ids n) -> ~ In y (ids x) -> ~ In y (rendered l) /\ ~ In y (unmounted l)).
Proof.
  intros debug defs root ops s n bs s' p m H MT NX NF UP.
  assert (NF0 : mild_failures (s_log s)) by (destruct NX as [f ST]; eapply no_err_ext; [eapply step_ext; eauto|exact NF]).
  destruct (reach_registry _ _ _ _ _ _ H NF0 MT) as [_ RG].
  destruct (hist_next _ _ _ _ _ _ _ H NX NF) as (T & T' & A & SP & A'). destruct (All_mounted _ _ _ _ _ A MT) as [En EI].
  pose proof (b_inv _ _ _ (al_base _ _ _ _ A)) as I. pose proof (b_inv _ _ _ (al_base _ _ _ _ A')) as I'. pose proof (All_is_mounted _ _ _ _ A') as MT'.
  inversion SP as [|bs0 s0 SV E1 E2 E3|bs0 p0 m1 s0 T0' SV E1 E2 E3].
  { exfalso. subst. inversion SV; subst. cbn [s_log set_log set_queue set_env] in UP. rewrite updates_app, updates_skips, app_nil_r in UP.
    assert (X : length (updates (s_log s)) = length (updates (s_log s) ++ [(p, m)])) by congruence. rewrite app_length in X. simpl in X. lia. }
  subst. inversion SV as [|gone h rest C m0 k c out kids t s2 s3 hp Q G ET RC EX RP HM INC ICT TK]; subst.
  cbn [s_queue s_reg set_env] in Q, G. set (told := TComp m0 (tkey t) h c out kids) in *.
  pose proof (Inv_env root _ bs _ I) as IE.
  destruct (sv_log defs root (set_env bs s) (plug C told) gone h rest C m0 (tkey t) c out kids t s2 s3 hp) as (l & L1 & L2 & L3 & _); auto.
  pose proof (sv_inst root (set_env bs s) (plug C told) h C m0 (tkey t) c out kids t hp IE eq_refl ltac:(eassumption) ltac:(eassumption) eq_refl) as [IN OC].
  assert (HE : E (N (before (set_env bs s) gone rest)) (comps told) (comps t) (N s2)) by (eapply sv_E; [exact IE|reflexivity|eassumption]).
  assert (W' : wf (plug C t)) by apply (i_wf _ _ _ I').
  assert (IT : ids (inst_of t) = hids t) by (destruct (ids_inst _ (wf_sub _ _ W')) as [[y ->]|X]; [contradiction|exact X]).
  assert (ITo : ids (inst_of told) = hids told) by (destruct (ids_inst _ (wf_sub _ _ (i_wf _ _ _ I))) as [[y X]|X]; [discriminate|exact X]).
  assert (OTH : forall y, In y (ids (inst_of (plug C told))) -> ~ In y (hids told) -> ~ In y (hids t)).
  { intros y J NJ. rewrite EI, hids_plug, !in_app_iff in J.
    apply (sv_other defs root (set_env bs s) (plug C told) gone h rest C m0 (tkey t) c out kids t s2 IE); auto. tauto. }
  exists gone, h, rest, (inst_of told), (inst_of t), (map EvSkip gone ++ l ++ effects_of (rev (hids t)) s2 ++ [EvUpdate (cpath C) (view t)]).
  assert (RE : forall hs z, rendered (effects_of hs z) = [] /\ unmounted (effects_of hs z) = []) by (intros hs z; induction hs as [|a hs IH]; [split; reflexivity|exact IH]).
  assert (RSk : rendered (map EvSkip gone) = [] /\ unmounted (map EvSkip gone) = []) by (clear; induction gone as [|a gone IH]; [split; reflexivity|exact IH]).
  assert (RL : rendered (map EvSkip gone ++ l ++ effects_of (rev (hids t)) s2 ++ [EvUpdate (cpath C) (view t)]) = hids t).
  { rewrite !rendered_app, (proj1 RSk), (proj1 (RE _ _)), L2. cbn. apply app_nil_r. }
  assert (UL : unmounted (map EvSkip gone ++ l ++ effects_of (rev (hids t)) s2 ++ [EvUpdate (cpath C) (view t)]) = unmounted l).
  { rewrite !unmounted_app, (proj2 RSk), (proj2 (RE _ _)). cbn. apply app_nil_r. }
  assert (UM : forall y, In y (unmounted l) <-> In y (hids told) /\ ~ In y (hids t)).
  { intros y. rewrite (Permutation_in' eq_refl L3), filter_In, negb_true_iff, mem_not_In. reflexivity. }
  split; [exact Q|]. split.
  { intros y J K. apply RG in K. apply K. apply G, J. }
  split; [exact OC|]. split; [rewrite MT', IN; reflexivity|]. split.
  { unfold added. cbn [s_log set_log set_stack set_heap]. simpl in L1. rewrite L1, <- !app_assoc. reflexivity. }
  rewrite RL, UL, IT, ITo. split; [reflexivity|]. split; [exact (e_nodup _ _ _ _ HE)|]. split; [exact UM|].
  intros y J NJ. split; [apply OTH; assumption|]. rewrite UM. tauto.
Qed.
Print Assumptions C110_renders_below.

(** An update of one counter of the demo renders that counter only; an update of the app renders everything below it. *)
Example C110_below_example : exists s s' s'' l l',
  history true demo demo_root [ORender []; OEnv (EDispatch 3 0 (UVal (VInt 5))); OEnv (EDispatch 0 0 (UVal (VInt 1)))] s /\
  next true demo s (ORender []) s' /\ next true demo s' (ORender []) s'' /\ mild_failures (s_log s'') /\
  added s s' l /\ rendered l = [3] /\ added s' s'' l' /\ rendered l' = [0; 1; 3; 2].
Proof.
  do 5 eexists. split; [exists 40; vm_compute; reflexivity|]. split; [exists 40; vm_compute; reflexivity|]. split; [exists 40; vm_compute; reflexivity|].
  split; [apply no_failure_mild, no_failure_dec; reflexivity|]. unfold added. cbn [s_log]. split; [match goal with |- ?a = ?b ++ _ => change a with (b ++ skipn (length b) a) end; reflexivity|].
  split; [reflexivity|]. split; [match goal with |- ?a = ?b ++ _ => change a with (b ++ skipn (length b) a) end; reflexivity|]. reflexivity.
Qed.

Definition counter : nat -> val -> list raw -> body :=
  fun _ _ _ => BUseCell (CState (VInt 0)) (fun h i c => BRet (RText "n")).
(** Three calls of a setter, one before the render that is then pending and one with the present value: one more update. *)
Example C110_cost_example : (forall k p kids, pure_body (counter k p kids)) /\ exists s,
  let ops := [ORender []; OEnv (EDispatch 0 0 (UVal (VInt 1))); ORender [[EDispatch 0 0 (UVal (VInt 2))]]; OEnv (EDispatch 0 0 (UVal (VInt 2))); ORender []] in
  history true counter demo_root ops s /\ dispatches ops = 3 /\ length (updates (s_log s)) = 2.
Proof. split; [intros k p kids; cbn; auto|]. eexists. split; [exists 20; vm_compute; reflexivity|]. split; reflexivity. Qed.

(** Without the guard there is no such bound: a render function that changes its own state is rendered by every call of [render()]. *)
Definition restless : nat -> val -> list raw -> body :=
  fun _ _ _ => BUseCell (CState (VInt 0)) (fun h i c =>
    BDispatch h i (UFun (fun v => match v with VInt z => VInt (z + 1) | _ => v end)) (BRet (RText "n"))).
Theorem C110_changing_renders_refuted : exists ops s, history true restless demo_root ops s /\ dispatches ops = 0 /\
  length (updates (s_log s)) = 3 /\ s_queue s = [0].
Proof. exists [ORender []; ORender []; ORender []]. eexists. split; [exists 20; vm_compute; reflexivity|]. repeat split; reflexivity. Qed.
Print Assumptions C110_changing_renders_refuted.
