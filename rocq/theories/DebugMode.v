(** * Debug mode changes the texts of errors and nothing else (C109)

    Two runs of the layout's model (LayoutModel.v), one in debug mode and one not, side by side. *)
From Coq Require Import String ZArith Bool Arith Lia List.
From Verif Require Import Dict LayoutTypes LayoutModel.
Import ListNotations.
Local Open Scope string_scope.
Local Open Scope list_scope.

(** ** Specification: what is displayed, without the texts of errors *)

Fixpoint no_texts (m : model) : model :=
  match m with
  | MText s => MText s
  | MNode tag imp attrs js eh ch err =>
      MNode tag imp attrs js eh (match ch with Some l => Some (map no_texts l) | None => None end) (match err with Some _ => Some "" | None => None end)
  end.
Definition no_texts_ev (e : event) : event := match e with EvUpdate p m => EvUpdate p (no_texts m) | _ => e end.

(** ** Proofs *)

Definition er_ms (x : mstate) : mstate := with_model (no_texts (ms_model x)) x.
Definition er (s : st) : st :=
  St (map er_ms (s_heap s)) (s_reg s) (s_eh s) (s_hooks s) (s_queue s) (s_stack s) (s_exit s) (s_seq s) (s_env s) (map no_texts_ev (s_log s)).
Definition rmap {A} (f : A -> A) (r : res A) : res A := match r with Ok a => Ok (f a) | Raise e => Raise e | Fuel => Fuel end.
(** The computation outside debug mode does what the one in debug mode does. *)
Definition sim {A} (f : A -> A) (m m' : M A) : Prop := forall s, m' (er s) = (rmap f (fst (m s)), er (snd (m s))).
Definition same {A} (a : A) : A := a.

Lemma sim_ret {A} (f : A -> A) a a' : a' = f a -> sim f (ret a) (ret a').
Proof. intros -> s. reflexivity. Qed.
Lemma sim_raise {A} (f : A -> A) e : sim f (raise e) (raise e).
Proof. intros s. reflexivity. Qed.
Lemma sim_fuel {A} (f : A -> A) : sim f no_fuel no_fuel.
Proof. intros s. reflexivity. Qed.
Lemma sim_bind {A B} (f : A -> A) (g : B -> B) m m' k k' : sim f m m' -> (forall a, sim g (k a) (k' (f a))) -> sim g (bind m k) (bind m' k').
Proof.
  intros H K s. unfold bind. rewrite (H s). destruct (m s) as [[a|e|] t]; cbn [fst snd rmap]; [apply K|reflexivity|reflexivity].
Qed.
Lemma sim_catch {A} (f : A -> A) m m' h h' : sim f m m' -> (forall e, sim f (h e) (h' e)) -> sim f (catch m h) (catch m' h').
Proof. intros H K s. unfold catch. rewrite (H s). destruct (m s) as [[a|e|] t]; cbn [fst snd rmap]; [reflexivity|apply K|reflexivity]. Qed.
Lemma sim_finally {A} (f : A -> A) m m' k k' : sim f m m' -> sim same k k' -> sim f (finally m k) (finally m' k').
Proof.
  intros H K s. unfold finally. rewrite (H s). destruct (m s) as [[a|e|] t]; cbn [fst snd rmap]; [rewrite (K t); destruct (k t) as [[u|e|] w]; reflexivity|rewrite (K t); destruct (k t) as [[u|e'|] w]; reflexivity|reflexivity].
Qed.
Lemma sim_gets {A} (g : st -> A) : (forall s, g (er s) = g s) -> sim same (gets g) (gets g).
Proof. intros H s. unfold gets. rewrite H. reflexivity. Qed.
Lemma sim_modify f f' : (forall s, f' (er s) = er (f s)) -> sim same (modify f) (modify f').
Proof. intros H s. unfold modify. rewrite H. reflexivity. Qed.
Lemma sim_log e e' : e' = no_texts_ev e -> sim same (log e) (log e').
Proof. intros ->. apply sim_modify. intros s. unfold er, set_log. cbn. rewrite map_app. reflexivity. Qed.
Lemma sim_get_ms m : sim er_ms (get_ms m) (get_ms m).
Proof. intros s. unfold get_ms. cbn [er s_heap]. rewrite nth_error_map. destruct (nth_error (s_heap s) m); reflexivity. Qed.
Lemma map_upd {A B} (f : A -> B) l : forall i x, map f (upd l i x) = upd (map f l) i (f x).
Proof. induction l as [|y l IH]; intros [|i] x; cbn; auto. f_equal. apply IH. Qed.
Lemma sim_put_ms m x x' : x' = er_ms x -> sim same (put_ms m x) (put_ms m x').
Proof. intros ->. apply sim_modify. intros s. unfold er, set_heap. cbn. rewrite map_upd. reflexivity. Qed.
Lemma sim_new_ms x x' : x' = er_ms x -> sim same (new_ms x) (new_ms x').
Proof. intros -> s. unfold new_ms, er, set_heap. cbn. rewrite map_length, map_app. reflexivity. Qed.
Lemma sim_new_hook : sim same new_hook new_hook.
Proof. intros s. reflexivity. Qed.
Lemma sim_change m f f' : (forall x, f' (er_ms x) = er_ms (f x)) -> sim same (change_ms m f) (change_ms m f').
Proof. intros H. unfold change_ms. apply (sim_bind er_ms same); [apply sim_get_ms|]. intros x. apply sim_put_ms, H. Qed.

Lemma schedule_er h s : schedule_render h (er s) = er (schedule_render h s).
Proof. unfold schedule_render. change (get_hook h (er s)) with (get_hook h s). destruct (hk_sched (get_hook h s)); reflexivity. Qed.
Lemma dispatch_er h i u s : dispatch h i u (er s) = er (dispatch h i u s).
Proof.
  unfold dispatch. change (get_hook h (er s)) with (get_hook h s). destruct (nth_error (hk_cells (get_hook h s)) i) as [[v| | |]|]; try reflexivity.
  destruct (veq _ v); [reflexivity|]. rewrite <- schedule_er. reflexivity.
Qed.
Lemma env_er s o : env_step (er s) o = er (env_step s o).
Proof.
  destruct o as [h i u|t z]; cbn [env_step]; [apply dispatch_er|]. unfold record_seq. change (s_seq (er s)) with (s_seq s). destruct (0 <=? z)%Z; [|reflexivity].
  destruct (_ <? z)%Z; reflexivity.
Qed.
Lemma envs_er l : forall s, fold_left env_step l (er s) = er (fold_left env_step l s).
Proof. induction l as [|o l IH]; intros s; [reflexivity|]. cbn [fold_left]. rewrite env_er. apply IH. Qed.
Lemma sim_pause : sim same pause pause.
Proof.
  apply sim_modify. intros s. change (s_env (er s)) with (s_env s). destruct (s_env s) as [|b bs]; [reflexivity|]. rewrite <- envs_er. reflexivity.
Qed.

Lemma same_ms x : ms_parent (er_ms x) = ms_parent x /\ ms_index (er_ms x) = ms_index x /\ ms_key (er_ms x) = ms_key x /\ ms_path (er_ms x) = ms_path x /\
  ms_keypath (er_ms x) = ms_keypath x /\ ms_children (er_ms x) = ms_children x /\ ms_targets (er_ms x) = ms_targets x /\ ms_lcs (er_ms x) = ms_lcs x.
Proof. repeat split. Qed.

(** Computations which do not look at models. *)
Ltac bind_same := apply (sim_bind same same); [|intros ?; cbv beta; unfold same at 1].

Lemma sim_use_cell h c : sim same (use_cell h c) (use_cell h c).
Proof.
  intros s. unfold use_cell. change (get_hook h (er s)) with (get_hook h s). destruct (hk_once (get_hook h s)); [|reflexivity].
  destruct (nth_error (hk_cells (get_hook h s)) (hk_idx (get_hook h s))); reflexivity.
Qed.
Lemma sim_body h b : sim same (run_body h b) (run_body h b).
Proof.
  induction b as [r|msg|c k IH|i c k IH|e k IH|c k IH|c v k IH|h' i u k IH]; cbn [run_body].
  - apply sim_ret. reflexivity.
  - apply sim_raise.
  - apply (sim_bind same same); [apply sim_use_cell|]. intros a. apply IH.
  - apply (sim_bind same same); [apply sim_modify; reflexivity|]. intros a. apply IH.
  - apply (sim_bind same same); [apply sim_modify; reflexivity|]. intros a. apply IH.
  - apply (sim_bind same same); [apply sim_gets; reflexivity|]. intros a. apply IH.
  - apply (sim_bind same same); [apply sim_modify; reflexivity|]. intros a. apply IH.
  - apply (sim_bind same same); [apply sim_modify; intros s; apply dispatch_er|]. intros a. apply IH.
Qed.
Lemma sim_set_current h : sim same (set_current h) (set_current h).
Proof. apply sim_modify. intros s. change (s_stack (er s)) with (s_stack s). destruct (s_stack s) as [|p l] eqn:E; unfold set_stack, er; cbn; rewrite ?E; reflexivity. Qed.
Lemma sim_unset_current h : sim same (unset_current h) (unset_current h).
Proof. intros s. unfold unset_current. change (s_stack (er s)) with (s_stack s). destruct (s_stack s) as [|p l]; [reflexivity|]. destruct (Nat.eq_dec p h); reflexivity. Qed.
Lemma sim_will_render h : sim same (will_render h) (will_render h).
Proof.
  unfold will_render. apply (sim_bind same same); [apply sim_pause|]. intros _. apply (sim_bind same same); [apply sim_modify; reflexivity|]. intros _. apply sim_set_current.
Qed.
Lemma sim_did_render h : sim same (did_render h) (did_render h).
Proof. unfold did_render. apply (sim_bind same same); [apply sim_unset_current|]. intros _. apply sim_modify. reflexivity. Qed.
Lemma sim_layout_did_render h : sim same (layout_did_render h) (layout_did_render h).
Proof.
  intros s. unfold layout_did_render. change (get_hook h (er s)) with (get_hook h s). cbv zeta.
  rewrite <- (sim_log (EvEffects h (hk_effects (get_hook h s))) _ eq_refl). reflexivity.
Qed.
Lemma sim_exit l : sim same (run_exit l) (run_exit l).
Proof. induction l as [|h l IH]; cbn [run_exit]; [apply sim_ret; reflexivity|]. apply (sim_bind same same); [apply sim_layout_did_render|]. intros _. exact IH. Qed.
Lemma sim_del_handlers ts : sim same (del_handlers ts) (del_handlers ts).
Proof.
  induction ts as [|t ts IH]; intros s; [reflexivity|]. cbn [del_handlers]. change (s_eh (er s)) with (s_eh s). destruct (dmem t (s_eh s)); [|reflexivity].
  rewrite <- IH. reflexivity.
Qed.
Lemma sim_del_reg h : sim same (del_reg h) (del_reg h).
Proof. intros s. unfold del_reg. change (s_reg (er s)) with (s_reg s). destruct (dmem h (s_reg s)); reflexivity. Qed.
Lemma sim_unmount fuel : forall l, sim same (unmount fuel l) (unmount fuel l).
Proof.
  induction fuel as [|f IH]; intros l; [apply sim_fuel|]. cbn [unmount]. destruct l as [|m l]; [apply sim_ret; reflexivity|].
  apply (sim_bind er_ms same); [apply sim_get_ms|]. intros x. apply (sim_bind same same); [apply sim_del_handlers|]. intros _.
  apply (sim_bind same same).
  - change (ms_lcs (er_ms x)) with (ms_lcs x). destruct (ms_lcs x) as [[h c]|]; [|apply sim_ret; reflexivity].
    apply (sim_bind same same); [apply sim_del_reg|]. intros _. unfold will_unmount. apply (sim_bind same same); [apply sim_log; reflexivity|]. intros _. apply sim_pause.
  - intros _. apply IH.
Qed.
Lemma sim_register m l : sim same (register_handlers m l) (register_handlers m l).
Proof.
  induction l as [|[ev h] l IH]; cbn [register_handlers]; [apply sim_ret; reflexivity|].
  apply (sim_bind er_ms same); [apply sim_get_ms|]. intros x. cbv zeta. apply (sim_bind same same); [apply sim_put_ms; reflexivity|]. intros _.
  apply (sim_bind same same); [apply sim_modify; reflexivity|]. intros _. apply (sim_bind same same); [exact IH|]. intros js. apply sim_ret. reflexivity.
Qed.
Lemma sim_attributes old new tag attrs hs js imp : sim same (render_attributes old new tag attrs hs js imp) (render_attributes old new tag attrs hs js imp).
Proof.
  unfold render_attributes. apply (sim_bind same same).
  - destruct old as [o|]; [|apply sim_ret; reflexivity]. apply (sim_bind er_ms same); [apply sim_get_ms|]. intros x. apply sim_del_handlers.
  - intros _. apply (sim_bind same same).
    + destruct hs as [|p hs]; [apply sim_ret; reflexivity|]. apply (sim_bind same same); [apply sim_register|]. intros l. apply sim_ret. reflexivity.
    + intros ehs. apply (sim_bind er_ms same); [apply sim_get_ms|]. intros x. apply (sim_bind same same); [apply sim_gets; reflexivity|]. intros q. cbv zeta. apply sim_put_ms. reflexivity.
Qed.
Lemma er_add c m : add_child_model (no_texts c) (no_texts m) = no_texts (add_child_model c m).
Proof. destruct m as [s|tag imp attrs js eh [l|] err]; cbn; rewrite ?map_app; reflexivity. Qed.
Lemma er_start m : start_children (no_texts m) = no_texts (start_children m).
Proof. destruct m as [s|tag imp attrs js eh ch err]; reflexivity. Qed.
Lemma er_error e : error_model false e = no_texts (error_model true e).
Proof. reflexivity. Qed.
Lemma er_replace i c m : replace_child i (no_texts c) (no_texts m) = no_texts (replace_child i c m).
Proof. destruct m as [s|tag imp attrs js eh [l|] err]; cbn [replace_child no_texts]; rewrite ?map_app, ?map_cons, ?firstn_map, ?skipn_map; [reflexivity|reflexivity|]. destruct i; reflexivity. Qed.

Section Layout.
Variable defs : nat -> val -> list raw -> body.

Lemma sim_render fuel :
  (forall old parent index k c, sim same (render_component true defs fuel old parent index k c) (render_component false defs fuel old parent index k c)) /\
  (forall old parent index k r, sim same (render_model true defs fuel old parent index k r) (render_model false defs fuel old parent index k r)) /\
  (forall old new raws, sim same (render_children true defs fuel old new raws) (render_children false defs fuel old new raws)) /\
  (forall old new index infos, sim same (render_child_list true defs fuel old new index infos) (render_child_list false defs fuel old new index infos)).
Proof.
  induction fuel as [|f (IC & IM & IH & IL)]; [repeat split; intros; apply sim_fuel|]. repeat split.
  - intros old parent index k c. cbn [render_component].
    assert (FR : sim same (match parent with
        | Some p => pm <- get_ms p ;; h <- new_hook ;; n <- new_ms (make_component_ms p pm index k h c) ;; ret (n, @None nat)
        | None => raise EBadVdom end) (match parent with
        | Some p => pm <- get_ms p ;; h <- new_hook ;; n <- new_ms (make_component_ms p pm index k h c) ;; ret (n, @None nat)
        | None => raise EBadVdom end)).
    { destruct parent as [p|]; [|apply sim_raise]. apply (sim_bind er_ms same); [apply sim_get_ms|]. intros pm. apply (sim_bind same same); [apply sim_new_hook|]. intros h.
      apply (sim_bind same same); [apply sim_new_ms; reflexivity|]. intros n. apply sim_ret. reflexivity. }
    apply (sim_bind same same).
    + destruct old as [o|]; [|exact FR]. apply (sim_bind er_ms same); [apply sim_get_ms|]. intros ox. change (ms_lcs (er_ms ox)) with (ms_lcs ox).
      destruct (ms_lcs ox) as [[h oc]|]; [|apply (sim_bind same same); [apply sim_unmount|intros _; exact FR]].
      destruct (eq_dec (ci_type oc) (ci_type c)); [|apply (sim_bind same same); [apply sim_unmount|intros _; exact FR]].
      destruct parent as [p|].
      * apply (sim_bind er_ms same); [apply sim_get_ms|]. intros pm. apply (sim_bind same same); [apply sim_new_ms; reflexivity|]. intros n. apply sim_ret. reflexivity.
      * apply (sim_bind same same); [apply sim_new_ms; reflexivity|]. intros n. apply sim_ret. reflexivity.
    + intros [new old']. unfold same at 2 3. cbn [fst snd]. apply (sim_bind er_ms same); [apply sim_get_ms|]. intros nx. change (ms_lcs (er_ms nx)) with (ms_lcs nx).
      destruct (ms_lcs nx) as [[h hc]|]; [|apply sim_raise].
      apply (sim_bind same same); [apply sim_modify; reflexivity|]. intros _. apply (sim_bind same same); [apply sim_will_render|]. intros _.
      apply (sim_bind same same); [apply sim_modify; reflexivity|]. intros _. apply (sim_bind same same).
      * apply sim_finally; [|apply sim_did_render]. apply sim_catch.
        -- apply (sim_bind same same); [apply sim_log; reflexivity|]. intros _. apply (sim_bind same same); [apply sim_body|]. intros r. unfold same at 2 3.
           apply (sim_bind same same); [apply sim_log; reflexivity|]. intros _. apply (sim_bind same same); [apply sim_change; reflexivity|]. intros _. apply IH.
        -- intros e. apply (sim_bind same same); [apply sim_log; reflexivity|]. intros _. apply sim_change. intros x. reflexivity.
      * intros _. apply sim_ret. reflexivity.
  - intros old parent index k r. cbn [render_model]. destruct r as [|s|tag attrs hs js imp children|c]; try apply sim_raise.
    apply (sim_bind same same).
    + destruct old as [o|].
      * apply (sim_bind er_ms same); [apply sim_get_ms|]. intros ox. change (ms_lcs (er_ms ox)) with (ms_lcs ox). destruct (ms_lcs ox) as [lc|].
        -- apply (sim_bind same same); [apply sim_unmount|]. intros _. apply (sim_bind er_ms same); [apply sim_get_ms|]. intros pm. apply (sim_bind same same); [apply sim_new_ms; reflexivity|]. intros n. apply sim_ret. reflexivity.
        -- apply (sim_bind er_ms same); [apply sim_get_ms|]. intros pm. apply (sim_bind same same); [apply sim_new_ms; reflexivity|]. intros n. apply sim_ret. reflexivity.
      * apply (sim_bind er_ms same); [apply sim_get_ms|]. intros pm. apply (sim_bind same same); [apply sim_new_ms; reflexivity|]. intros n. apply sim_ret. reflexivity.
    + intros [new old']. unfold same at 2 3 4. cbn [fst snd]. apply (sim_bind same same).
      * destruct (attr_key attrs); [apply sim_change; reflexivity|apply sim_ret; reflexivity].
      * intros _. apply (sim_bind same same); [apply sim_attributes|]. intros _. apply (sim_bind same same); [apply IH|]. intros _. apply sim_ret. reflexivity.
  - intros old new raws. cbn [render_children]. destruct (get_children_info raws) as [infos [ks|]]; [|apply sim_raise].
    apply (sim_bind same same).
    + destruct old as [o|]; [|apply sim_ret; reflexivity]. apply (sim_bind er_ms same); [apply sim_get_ms|]. intros ox. change (ms_children (er_ms ox)) with (ms_children ox).
      destruct (dvals _) as [|g gs]; [apply sim_ret; reflexivity|apply sim_unmount].
    + intros _. destruct raws as [|r raws]; [apply sim_ret; reflexivity|]. apply (sim_bind same same); [|intros _; apply IL].
      apply sim_change. intros x. unfold er_ms. cbn. rewrite er_start. reflexivity.
  - intros old new index infos. cbn [render_child_list]. destruct infos as [|[kd k] rest]; [apply sim_ret; reflexivity|].
    apply (sim_bind same same).
    + destruct old as [o|]; [|apply sim_ret; reflexivity]. apply (sim_bind er_ms same); [apply sim_get_ms|]. intros ox. apply sim_ret. reflexivity.
    + intros oc. unfold same at 2. apply (sim_bind same same); [|intros _; apply IL].
      destruct kd as [r|c|s].
      * apply (sim_bind same same); [apply IM|]. intros n. unfold same at 2 3. apply (sim_bind er_ms same); [apply sim_get_ms|]. intros nx. apply sim_change. intros x. unfold er_ms. cbn. rewrite er_add. reflexivity.
      * apply (sim_bind same same); [apply IC|]. intros n. unfold same at 2 3. apply (sim_bind er_ms same); [apply sim_get_ms|]. intros nx. apply sim_change. intros x. unfold er_ms. cbn. rewrite er_add. reflexivity.
      * apply (sim_bind same same); [destruct oc; [apply sim_unmount|apply sim_ret; reflexivity]|]. intros _. apply sim_change. intros x. unfold er_ms. cbn.
        rewrite <- er_add. reflexivity.
Qed.

Lemma reaches_er fuel hp : forall m p, reaches fuel (map er_ms hp) m p = reaches fuel hp m p.
Proof.
  induction fuel as [|f IH]; intros m p; cbn [reaches]; [reflexivity|]. destruct (Nat.eq_dec m p); [reflexivity|]. rewrite nth_error_map. destruct (nth_error hp m) as [x|]; [|reflexivity].
  cbn [option_map]. change (ms_children (er_ms x)) with (ms_children x). induction (dvals (ms_children x)) as [|c l IL]; cbn; [reflexivity|]. rewrite IH, IL. reflexivity.
Qed.
Lemma alive_er s p : alive (er s) p = alive s p.
Proof.
  unfold alive. cbn [er s_reg s_heap]. rewrite map_length. induction (s_reg s) as [|[h m] l IH]; [reflexivity|]. cbn [existsb snd]. rewrite reaches_er, IH. reflexivity.
Qed.
Lemma sim_get_parent x : sim same (get_parent x) (get_parent (er_ms x)).
Proof.
  unfold get_parent. change (ms_parent (er_ms x)) with (ms_parent x). destruct (ms_parent x) as [p|]; [|apply sim_ret; reflexivity].
  intros s. rewrite alive_er. destruct (alive s p); reflexivity.
Qed.
Lemma sim_update fuel old : sim (fun u => (fst u, no_texts (snd u))) (create_layout_update true defs fuel old) (create_layout_update false defs fuel old).
Proof.
  set (f := fun u : list nat * model => (fst u, no_texts (snd u))). unfold create_layout_update.
  apply (sim_bind same f); [apply sim_modify; reflexivity|]. intros _. apply (sim_bind same f); [apply sim_modify; reflexivity|]. intros _.
  apply sim_finally; [|apply sim_modify; reflexivity].
  apply (sim_bind er_ms f); [apply sim_get_ms|]. intros ox. change (ms_lcs (er_ms ox)) with (ms_lcs ox). destruct (ms_lcs ox) as [[h c]|]; [|apply sim_raise].
  apply (sim_bind same f); [apply sim_get_parent|]. intros parent. unfold same. apply (sim_bind same f).
  - apply sim_finally; [apply (proj1 (sim_render fuel))|]. apply (sim_bind same same); [apply sim_gets; reflexivity|]. intros hs. apply sim_exit.
  - intros n. unfold same. apply (sim_bind er_ms f); [apply sim_get_ms|]. intros nx. apply (sim_bind same f); [|intros _; apply sim_ret; reflexivity].
    destruct parent as [p|]; [|apply sim_ret; reflexivity]. apply sim_change. intros x. change (ms_key (er_ms nx)) with (ms_key nx).
    unfold er_ms. cbn [ms_index ms_model with_model]. rewrite er_replace. destruct (ms_key nx); reflexivity.
Qed.
Lemma sim_serial fuel q : sim (option_map (fun u => (fst u, no_texts (snd u)))) (serial_render true defs fuel q) (serial_render false defs fuel q).
Proof.
  set (f := fun u : list nat * model => (fst u, no_texts (snd u))). induction q as [|h q IH]; cbn [serial_render]; [apply sim_ret; reflexivity|].
  apply (sim_bind same (option_map f)); [apply sim_modify; reflexivity|]. intros _. apply (sim_bind same (option_map f)); [apply sim_gets; reflexivity|]. intros r. unfold same.
  destruct r as [m|].
  - apply (sim_bind f (option_map f)); [apply sim_update|]. intros u. apply sim_ret. reflexivity.
  - apply (sim_bind same (option_map f)); [apply sim_log; reflexivity|]. intros _. exact IH.
Qed.
Lemma step_er fuel o s : step false defs fuel o (er s) = option_map er (step true defs fuel o s).
Proof.
  destruct o as [bs|e]; cbn [step]; [|rewrite env_er; reflexivity].
  change (s_queue (er s)) with (s_queue s). change (set_env bs (er s)) with (er (set_env bs s)). rewrite (sim_serial fuel (s_queue s) (set_env bs s)).
  destruct (serial_render true defs fuel (s_queue s) (set_env bs s)) as [[[[p m]|]|e|] t]; cbn [fst snd rmap option_map]; unfold er, set_log; cbn; rewrite ?map_app; reflexivity.
Qed.
Lemma run_er fuel ops : forall s, run false defs fuel ops (er s) = option_map er (run true defs fuel ops s).
Proof.
  induction ops as [|o ops IH]; intros s; [reflexivity|]. cbn [run]. rewrite step_er. destruct (step true defs fuel o s) as [t|]; [apply IH|reflexivity].
Qed.

(** C109: for every program and every history, the run outside debug mode is the run in debug mode without the texts of errors: the same
    calls of render functions, errors, effects, unmounts and updates in the same order, the same handlers, the same values of all hooks and
    the same requested renders. *)
Theorem C109_debug_mode : forall fuel ops root s, run true defs fuel ops (init root) = Some s ->
  exists s', run false defs fuel ops (init root) = Some s' /\ s_log s' = map no_texts_ev (s_log s) /\
    s_hooks s' = s_hooks s /\ s_eh s' = s_eh s /\ s_queue s' = s_queue s /\ s_seq s' = s_seq s.
Proof.
  intros fuel ops root s E. exists (er s). split; [|repeat split]. change (init root) with (er (init root)). rewrite run_er, E. reflexivity.
Qed.

(** And the other way round: whatever happens outside debug mode happens in debug mode too, up to the texts. *)
Theorem C109_converse : forall fuel ops root s', run false defs fuel ops (init root) = Some s' ->
  exists s, run true defs fuel ops (init root) = Some s /\ s_log s' = map no_texts_ev (s_log s).
Proof.
  intros fuel ops root s' E. change (init root) with (er (init root)) in E. rewrite run_er in E. destruct (run true defs fuel ops (init root)) as [s|]; [|discriminate].
  injection E as <-. exists s. split; reflexivity.
Qed.
End Layout.

(** Texts of errors are all that may differ: where no error is displayed the updates are the same. *)
Fixpoint no_error (m : model) : Prop :=
  match m with
  | MText _ => True
  | MNode _ _ _ _ _ ch err =>
      err = None /\ match ch with Some l => (fix all (l : list model) : Prop := match l with [] => True | c :: r => no_error c /\ all r end) l | None => True end
  end.
Fixpoint size (m : model) : nat :=
  match m with
  | MText _ => 1
  | MNode _ _ _ _ _ ch _ => S (list_sum (match ch with Some l => map size l | None => [] end))
  end.
Lemma no_error_same_size n : forall m, size m <= n -> no_error m -> no_texts m = m.
Proof.
  induction n as [|n IH]; intros m L.
  { destruct m; cbn in L; lia. }
  destruct m as [s|tag imp attrs js eh ch err]; [reflexivity|]. cbn [no_error no_texts]. intros [-> A]. f_equal. destruct ch as [l|]; [|reflexivity]. f_equal.
  cbn [size] in L. apply le_S_n in L. revert L A. induction l as [|c l IL]; intros L A; [reflexivity|]. destruct A as [A1 A2]. cbn [map list_sum fold_right] in L.
  cbn [map]. f_equal; [apply IH; [unfold list_sum in L; cbn in L; lia|exact A1]|apply IL; [unfold list_sum in *; cbn in L; lia|exact A2]].
Qed.
Theorem C109_without_errors : forall defs fuel ops root s p m, run true defs fuel ops (init root) = Some s ->
  In (EvUpdate p m) (s_log s) -> no_error m -> exists s', run false defs fuel ops (init root) = Some s' /\ In (EvUpdate p m) (s_log s').
Proof.
  intros defs fuel ops root s p m E I N. destruct (C109_debug_mode defs fuel ops root s E) as (s' & E' & L & _). exists s'. split; [exact E'|].
  rewrite L. apply (in_map no_texts_ev) in I. cbn [no_texts_ev] in I. rewrite (no_error_same_size (size m) m (le_n _) N) in I. exact I.
Qed.
Print Assumptions C109_debug_mode.
Print Assumptions C109_converse.
Print Assumptions C109_without_errors.

(** A program whose root shows a component that fails: the updates differ in the text. *)
Definition demo_defs (n : nat) (p : val) (kids : list raw) : body :=
  match n with
  | 0 => BRet (RElem "div" None [] None None (Some [RComp (Cinst (CTUser 1) None VNone []); RText "a"]))
  | _ => BRaise "oops"
  end.
Definition demo_root : cinst := Cinst (CTUser 0) None VNone [].
Definition updates (o : option st) : list (list nat * model) :=
  match o with Some s => flat_map (fun e => match e with EvUpdate p m => [(p, m)] | _ => [] end) (s_log s) | None => [] end.
Example C109_example :
  let shown err := [([], MNode "" None None None None (Some [MNode "div" None None None None (Some [MNode "" None None None None None (Some err); MText "a"]) None]) None)] in
  updates (run true demo_defs 20 [ORender []] (init demo_root)) = shown "oops" /\
  updates (run false demo_defs 20 [ORender []] (init demo_root)) = shown "".
Proof. vm_compute. auto. Qed.
