(** * The first update of a layout; proof-side only *)
From Coq Require Import String ZArith Bool Arith Lia List.
From Verif Require Import Dict Strings LayoutTypes LayoutModel BodySpec DisplaySpec GuardSpec LayoutObs LayoutHistory LayoutFacts
  LayoutContext ChildrenFacts MountSpec FirstMount.
Import ListNotations.
Local Open Scope string_scope.
Local Open Scope list_scope.

(** ** Rendering never moves an existing model state and never emits an update *)

Definition still (s s' : st) : Prop :=
  (forall m x, nth_error (s_heap s) m = Some x -> exists x', nth_error (s_heap s') m = Some x' /\ ms_path x' = ms_path x) /\
  updates (s_log s') = updates (s_log s).
Definition keeps {A} (m : M A) : Prop := forall s r s', m s = (r, s') -> still s s'.

Lemma still_refl s : still s s.
Proof. split; eauto. Qed.
Lemma still_trans a b c : still a b -> still b c -> still a c.
Proof.
  intros [A1 A2] [B1 B2]. split; [|congruence]. intros m x E. destruct (A1 _ _ E) as (x1 & E1 & P1).
  destruct (B1 _ _ E1) as (x2 & E2 & P2). exists x2. split; congruence.
Qed.
Lemma still_same s s' : s_heap s' = s_heap s -> s_log s' = s_log s -> still s s'.
Proof. intros E1 E2. split; rewrite ?E1, ?E2; eauto. Qed.

Lemma k_ret {A} (a : A) : keeps (ret a).
Proof. intros s r s' E. injection E as <- <-. apply still_refl. Qed.
Lemma k_raise {A} e : keeps (@raise A e).
Proof. intros s r s' E. injection E as <- <-. apply still_refl. Qed.
Lemma k_fuel {A} : keeps (@no_fuel A).
Proof. intros s r s' E. injection E as <- <-. apply still_refl. Qed.
Lemma k_gets {A} (f : st -> A) : keeps (gets f).
Proof. intros s r s' E. injection E as <- <-. apply still_refl. Qed.
Lemma k_bind {A B} (m : M A) (f : A -> M B) : keeps m -> (forall a, keeps (f a)) -> keeps (bind m f).
Proof.
  intros K1 K2 s r s' E. unfold bind in E. destruct (m s) as [[a|e|] s1] eqn:E1.
  - eapply still_trans; [eapply K1; eauto|eapply K2; eauto].
  - injection E as <- <-. eapply K1; eauto.
  - injection E as <- <-. eapply K1; eauto.
Qed.
Lemma k_catch {A} (m : M A) h : keeps m -> (forall e, keeps (h e)) -> keeps (catch m h).
Proof.
  intros K1 K2 s r s' E. unfold catch in E. destruct (m s) as [[a|e|] s1] eqn:E1.
  - injection E as <- <-. eapply K1; eauto.
  - eapply still_trans; [eapply K1; eauto|eapply K2; eauto].
  - injection E as <- <-. eapply K1; eauto.
Qed.
Lemma k_finally {A} (m : M A) f : keeps m -> keeps f -> keeps (finally m f).
Proof.
  intros K1 K2 s r s' E. unfold finally in E. destruct (m s) as [[a|e|] s1] eqn:E1.
  - destruct (f s1) as [[b|e|] s2] eqn:E2; injection E as <- <-; (eapply still_trans; [eapply K1; eauto|eapply K2; eauto]).
  - destruct (f s1) as [[b|e'|] s2] eqn:E2; injection E as <- <-; (eapply still_trans; [eapply K1; eauto|eapply K2; eauto]).
  - injection E as <- <-. eapply K1; eauto.
Qed.
Lemma k_modify f : (forall s, s_heap (f s) = s_heap s /\ s_log (f s) = s_log s) -> keeps (modify f).
Proof. intros K s r s' E. injection E as <- <-. apply still_same; apply K. Qed.
Lemma k_log e : (forall p m, e <> EvUpdate p m) -> keeps (log e).
Proof.
  intros N s r s' E. injection E as <- <-. split; [simpl; eauto|]. simpl. unfold updates. rewrite flat_map_app. simpl.
  destruct e; rewrite ?app_nil_r; auto. edestruct N; eauto.
Qed.
Lemma k_get m : keeps (get_ms m).
Proof. intros s r s' E. unfold get_ms in E. destruct (nth_error _ _); injection E as <- <-; apply still_refl. Qed.
Lemma k_new x : keeps (new_ms x).
Proof.
  intros s r s' E. injection E as <- <-. split; [|reflexivity]. simpl. intros m y E. exists y. split; auto.
  rewrite nth_error_app1; auto. apply nth_error_Some. congruence.
Qed.
Lemma k_change m g : (forall x, ms_path (g x) = ms_path x) -> keeps (change_ms m g).
Proof.
  intros G s r s' E. unfold change_ms, bind, get_ms in E. destruct (nth_error (s_heap s) m) as [x|] eqn:EX; [|injection E as <- <-; apply still_refl].
  injection E as <- <-. split; [|reflexivity]. simpl. intros z y EY. destruct (Nat.eq_dec m z) as [->|N].
  - exists (g x). rewrite nth_upd_same by (apply nth_error_Some; congruence). split; auto. rewrite G. congruence.
  - exists y. rewrite nth_upd_other by auto. auto.
Qed.
Lemma k_newhook : keeps new_hook.
Proof. intros s r s' E. injection E as <- <-. apply still_same; reflexivity. Qed.
Lemma k_pause : keeps pause.
Proof.
  assert (D : forall h i u s, s_heap (dispatch h i u s) = s_heap s /\ s_log (dispatch h i u s) = s_log s).
  { intros. unfold dispatch, schedule_render. destruct (nth_error _ _) as [[]|]; auto. destruct (veq _ _); auto. destruct (hk_sched _); auto. }
  assert (S1 : forall o s, s_heap (env_step s o) = s_heap s /\ s_log (env_step s o) = s_log s).
  { intros [h i u|t z] s; simpl; [apply D|]. unfold record_seq. destruct (0 <=? z)%Z; auto. destruct (_ <? _)%Z; auto. }
  assert (SS : forall b s, s_heap (fold_left env_step b s) = s_heap s /\ s_log (fold_left env_step b s) = s_log s).
  { induction b; simpl; intros s; auto. destruct (IHb (env_step s a)) as [-> ->]. apply S1. }
  unfold pause. apply k_modify. intros s. destruct (s_env s); auto. destruct (SS l (set_env l0 s)) as [-> ->]. auto.
Qed.

Lemma k_body h b : keeps (run_body h b).
Proof.
  assert (D : forall h i u s, s_heap (dispatch h i u s) = s_heap s /\ s_log (dispatch h i u s) = s_log s).
  { intros. unfold dispatch, schedule_render. destruct (nth_error _ _) as [[]|]; auto. destruct (veq _ _); auto. destruct (hk_sched _); auto. }
  induction b as [r0|msg|init k IH|i c k IH|e k IH|c k IH|c v k IH|h' i u k IH]; simpl.
  - apply k_ret.
  - apply k_raise.
  - apply k_bind; [|intros; apply IH]. intros s r s' E. unfold use_cell in E.
    destruct (hk_once _); [destruct (nth_error _ _)|]; injection E as <- <-; apply still_same; reflexivity.
  - apply k_bind; [apply k_modify; intros; split; reflexivity|intros; apply IH].
  - apply k_bind; [apply k_modify; intros; split; reflexivity|intros; apply IH].
  - apply k_bind; [apply k_gets|intros; apply IH].
  - apply k_bind; [apply k_modify; intros; split; reflexivity|intros; apply IH].
  - apply k_bind; [apply k_modify; intros; apply D|intros; apply IH].
Qed.

Lemma k_will h : keeps (will_render h).
Proof.
  unfold will_render, set_current. apply k_bind; [apply k_pause|]. intros _. apply k_bind; [apply k_modify; auto|]. intros _.
  apply k_modify. intros s. destruct (s_stack s); auto.
Qed.
Lemma k_did h : keeps (did_render h).
Proof.
  unfold did_render. apply k_bind; [|intros _; apply k_modify; auto]. intros s r s' E. unfold unset_current in E.
  destruct (s_stack s); [|destruct (Nat.eq_dec _ _)]; injection E as <- <-; apply still_same; reflexivity.
Qed.
Lemma k_delh l : keeps (del_handlers l).
Proof.
  induction l as [|t l IH]; simpl; [apply k_ret|]. intros s r s' E. destruct (dmem t (s_eh s)).
  - apply IH in E. exact E.
  - injection E as <- <-. apply still_refl.
Qed.
Lemma k_delr h : keeps (del_reg h).
Proof. intros s r s' E. unfold del_reg in E. destruct (dmem _ _); injection E as <- <-; apply still_same; reflexivity. Qed.
Lemma k_unmount f : forall l, keeps (unmount f l).
Proof.
  induction f; simpl; intros l; [apply k_fuel|]. destruct l; [apply k_ret|]. apply k_bind; [apply k_get|]. intros x.
  apply k_bind; [apply k_delh|]. intros _. apply k_bind; [|intros; apply IHf].
  destruct (ms_lcs x) as [[h c]|]; [|apply k_ret]. apply k_bind; [apply k_delr|]. intros _. unfold will_unmount.
  apply k_bind; [apply k_log; discriminate|]. intros _. apply k_pause.
Qed.
Lemma k_put_get {B} m (g : mstate -> mstate) (k : mstate -> M B) :
  (forall x, ms_path (g x) = ms_path x) -> (forall x, keeps (k x)) ->
  keeps (bind (get_ms m) (fun x => bind (put_ms m (g x)) (fun _ => k x))).
Proof.
  intros G K s r s' E. unfold bind in E. destruct (get_ms m s) as [[x|e|] s1] eqn:E1.
  - unfold get_ms in E1. destruct (nth_error (s_heap s) m) as [y|] eqn:EY; [|discriminate]. injection E1 as <- <-.
    cbn in E. eapply still_trans; [|eapply K; exact E].
    apply (k_change m g G s (Ok tt)). unfold change_ms, bind, get_ms. rewrite EY. reflexivity.
  - injection E as <- <-. eapply k_get; eauto.
  - injection E as <- <-. eapply k_get; eauto.
Qed.
Lemma k_register m l : keeps (register_handlers m l).
Proof.
  induction l as [|[ev h] l IH]; simpl; [apply k_ret|].
  apply (k_put_get m (fun x => with_targets (dset ev (target_of (ms_keypath x) ev h) (ms_targets x)) x)); [reflexivity|].
  intros x. apply k_bind; [apply k_modify; auto|]. intros _. apply k_bind; [apply IH|]. intros; apply k_ret.
Qed.
Lemma k_attrs old new tag attrs hs js imp : keeps (render_attributes old new tag attrs hs js imp).
Proof.
  unfold render_attributes. apply k_bind.
  { destruct old; [|apply k_ret]. apply k_bind; [apply k_get|]. intros; apply k_delh. }
  intros _. apply k_bind. { destruct hs; [apply k_ret|]. apply k_bind; [apply k_register|]. intros; apply k_ret. }
  intros ehs s r s' E. unfold bind at 1 in E. destruct (get_ms new s) as [[x|e|] s1] eqn:E1.
  - unfold get_ms in E1. destruct (nth_error (s_heap s) new) as [y|] eqn:EY; [|discriminate]. injection E1 as <- <-.
    unfold bind, gets, put_ms, modify in E. injection E as <- <-.
    eapply (k_change new (with_model (MNode tag imp (inject_ack (s_seq s) tag (dvals (ms_targets y)) attrs) js ehs None None))); [reflexivity|].
    unfold change_ms, bind, get_ms. rewrite EY. reflexivity.
  - injection E as <- <-. eapply k_get; eauto.
  - injection E as <- <-. eapply k_get; eauto.
Qed.

Section Render.
Variable debug : bool.
Variable defs : nat -> val -> list raw -> body.

Ltac kb := first [apply k_ret | apply k_raise | apply k_fuel | apply k_get | apply k_new | apply k_newhook | apply k_gets
  | apply k_unmount | apply k_attrs | apply k_will | apply k_did | apply k_body | (apply k_change; reflexivity)
  | (apply k_log; discriminate) | (apply k_modify; intros; split; reflexivity)].
Ltac ks := repeat first [kb | (apply k_bind; [|intros]) | (apply k_finally) | (apply k_catch; [|intros])].

Lemma k_render f :
  (forall old p i k c, keeps (render_component debug defs f old p i k c)) /\
  (forall old p i k r, keeps (render_model debug defs f old p i k r)) /\
  (forall old n l, keeps (render_children debug defs f old n l)) /\
  (forall old n i l, keeps (render_child_list debug defs f old n i l)).
Proof.
  induction f as [|f (IC & IM & IK & IL)]; [split; [|split; [|split]]; intros; apply k_fuel|].
  split; [|split; [|split]].
  - intros old p i k c. cbn [render_component]. apply k_bind.
    { destruct old as [o|]; [|destruct p; ks]. apply k_bind; [kb|]. intros ox. destruct (ms_lcs ox) as [[h oc]|].
      - destruct (eq_dec _ _); [destruct p; ks|]. destruct p; ks.
      - destruct p; ks. }
    intros no. apply k_bind; [kb|]. intros nx. destruct (ms_lcs nx) as [[h hc]|]; [|kb]. ks. apply IK.
  - intros old p i k r. cbn [render_model]. destruct r; try apply k_raise. apply k_bind.
    { destruct old as [o|]; [|ks]. apply k_bind; [kb|]. intros ox. destruct (ms_lcs ox); ks. }
    intros no. apply k_bind; [destruct (attr_key _); kb|]. intros _. ks. apply IK.
  - intros old n l. cbn [render_children]. destruct (get_children_info l) as [infos [ks|]]; [|kb]. apply k_bind.
    { destruct old as [o|]; [|kb]. apply k_bind; [kb|]. intros ox. destruct (dvals _); kb. }
    intros _. destruct l; [kb|]. apply k_bind; [kb|]. intros _. apply IL.
  - intros old n i l. cbn [render_child_list]. destruct l as [|[kd k] rest]; [kb|]. apply k_bind; [destruct old; ks|].
    intros oc. apply k_bind; [|intros _; apply IL]. destruct kd.
    + apply k_bind; [apply IM|]. intros; ks.
    + apply k_bind; [apply IC|]. intros; ks.
    + apply k_bind; [destruct oc; ks|]. intros; ks.
Qed.

(** ** The root *)

Lemma env_init root q es :
  exists q', run debug defs 0 (map OEnv es) (set_seq q (init root)) = Some (set_seq q' (init root)).
Proof.
  revert q. induction es as [|[h i u|t z] es IH]; intros q; simpl; eauto.
  - assert (E : dispatch h i u (set_seq q (init root)) = set_seq q (init root)).
    { unfold dispatch, get_hook. simpl. destruct h as [|[|h]]; simpl; destruct i; reflexivity. }
    rewrite E. apply IH.
  - unfold record_seq. simpl. destruct (0 <=? z)%Z; [|apply IH]. destruct (_ <? z)%Z; [|apply IH].
    destruct (IH (dset t z q)) as (q' & E). exists q'. exact E.
Qed.
Lemma run_env_fuel f g es : forall s, run debug defs f (map OEnv es) s = run debug defs g (map OEnv es) s.
Proof. induction es; simpl; auto. Qed.

Theorem first_update root es bs s s' :
  history debug defs root (map OEnv es) s -> next debug defs s (ORender bs) s' ->
  exists m, updates (s_log s') = [([], m)] /\ mounts debug defs no_ctx (RComp root) (inl m).
Proof.
  intros [f0 H] [fuel ST]. rewrite (run_env_fuel f0 0) in H. destruct (env_init root [] es) as (q & E).
  change (set_seq [] (init root)) with (init root) in E. rewrite H in E. injection E as ->. clear H.
  unfold step in ST. change (s_queue (set_seq q (init root))) with [0] in ST. cbn [serial_render] in ST.
  rewrite (bind_ok (modify (set_queue [])) _ _ tt _ eq_refl) in ST. cbv beta in ST. erewrite (bind_ok (gets _) _ _ (Some 0)) in ST by reflexivity. cbv beta in ST.
  unfold create_layout_update in ST.
  set (s0 := set_exit [] (set_stack [] (set_queue [] (set_env bs (set_seq q (init root)))))) in *.
  set (body := finally (bind _ _) _) in ST.
  assert (EQ : forall A (f : (list nat * model) -> M A),
    bind (bind (modify (set_stack [])) (fun _ => bind (modify (set_exit [])) (fun _ => body))) f
      (set_queue [] (set_env bs (set_seq q (init root)))) = bind body f s0).
  { intros A f. rewrite bind_assoc. rewrite (bind_ok (modify _) _ _ tt _ eq_refl). rewrite bind_assoc.
    rewrite (bind_ok (modify _) _ _ tt _ eq_refl). reflexivity. }
  rewrite EQ in ST. clear EQ.
  destruct (render_component debug defs fuel (Some 0) None 0 None root s0) as [rc s1] eqn:ER.
  destruct (k_render fuel) as [KC _]. pose proof (KC _ _ _ _ _ _ _ _ ER) as [KP KU].
  assert (BODY : body s0 = match rc with
       | Ok n => finally (fun s => (nx <- get_ms n ;; ret tt ;; ret (ms_path nx, ms_model nx)) (snd (run_exit (s_exit s) s))) (modify (set_stack [])) s1
       | Raise e => (Raise e, set_stack [] (snd (run_exit (s_exit s1) s1)))
       | Fuel => (Fuel, s1) end).
  { unfold body. unfold finally at 1. rewrite (bind_ok (get_ms 0) _ s0 _ s0 eq_refl). cbn [ms_lcs].
    erewrite (bind_ok (get_parent _) _ s0 None s0) by reflexivity. cbn [ms_index ms_key].
    assert (FI : finally (render_component debug defs fuel (Some 0) None 0 None root) (hs <- gets s_exit ;; run_exit hs) s0 =
       match rc with Fuel => (Fuel, s1) | _ => (rc, snd (run_exit (s_exit s1) s1)) end).
    { unfold finally. rewrite ER. unfold bind, gets. destruct (run_exit_ok (s_exit s1) s1) as (s2 & E2 & _). rewrite E2.
      destruct rc; reflexivity. }
    destruct rc as [n|e|].
    - rewrite (bind_ok _ _ _ _ _ FI). reflexivity.
    - rewrite (bind_raise _ _ _ _ _ FI). reflexivity.
    - rewrite (bind_fuel _ _ _ _ FI). reflexivity. }
  clearbody body.
  (* the root component *)
  destruct fuel as [|f].
  { cbn in ER. injection ER as <- <-. rewrite (bind_fuel body _ _ _ BODY) in ST. discriminate. }
  cbn [render_component] in ER. rewrite bind_assoc in ER.
  rewrite (bind_ok (get_ms 0) _ s0 _ s0 eq_refl) in ER. cbn [ms_lcs] in ER.
  destruct (eq_dec (ci_type root) (ci_type root)) as [_|N]; [|congruence]. rewrite bind_assoc in ER.
  set (x1 := copy_component_ms _ _ _) in ER. set (s0' := set_heap (s_heap s0 ++ [x1]) s0) in *.
  rewrite (bind_ok (new_ms x1) _ s0 1 s0' eq_refl) in ER. rewrite (bind_ok (ret _) _ s0' (1, Some 0) s0' eq_refl) in ER.
  cbn [fst snd] in ER. rewrite (bind_ok (get_ms 1) _ s0' x1 s0' eq_refl) in ER. cbn [ms_lcs x1 copy_component_ms] in ER.
  change (tail debug defs f (Some 0) 1 0 root s0' = (rc, s1)) in ER.
  assert (TP : still s0' s1).
  { destruct (k_render f) as (_ & _ & KK & _). revert ER. unfold tail.
    match goal with |- ?m s0' = _ -> _ => assert (K : keeps m) end.
    { repeat first [apply KK | kb | (apply k_bind; [|intros]) | (apply k_finally) | (apply k_catch; [|intros])]. }
    intros ER. eapply K; eauto. }
  eapply first_tail with (env := no_ctx) (nx := x1) in ER.
  2:{ apply first. }
  2:{ right. eexists 0, _. split; [reflexivity|]. split; [reflexivity|]. split; [reflexivity|discriminate]. }
  2:{ reflexivity. } 2:{ simpl. auto. } 2:{ reflexivity. } 2:{ left. split; reflexivity. }
  destruct ER as [->|(_ & -> & x & EX & MX)]; [rewrite (bind_fuel body _ _ _ BODY) in ST; discriminate|].
  destruct (run_exit_ok (s_exit s1) s1) as (s2 & E2 & HP & UP).
  assert (PX : ms_path x = []).
  { destruct TP as [TP _]. destruct (TP 1 x1 eq_refl) as (x' & EX' & EP). rewrite EX in EX'. injection EX' as <-. exact EP. }
  assert (BO : body s0 = (Ok (ms_path x, ms_model x), set_stack [] s2)).
  { rewrite BODY. unfold finally. rewrite E2. cbn [snd]. unfold bind, get_ms. rewrite HP, EX. reflexivity. }
  rewrite (bind_ok _ _ _ _ _ BO) in ST. cbn in ST. injection ST as <-. exists (ms_model x). split; [|exact MX].
  simpl. unfold updates in *. rewrite flat_map_app. rewrite UP, KU, PX. reflexivity.
Qed.
End Render.
