(** * Derivations of successful renders

    A run of the rendering functions that logs no render failure is described by a derivation over
    heap-less states ([N s]) and trees.  [exec_*] show that every such run has a derivation and
    that the heap represents the derived tree.  Proof-side only. *)
From Coq Require Import String ZArith Bool Arith Lia List Permutation.
From Verif Require Import Dict LayoutTypes LayoutModel BodySpec DisplaySpec LayoutObs LayoutTree.
Import ListNotations.
Local Open Scope string_scope.
Local Open Scope list_scope.

Definition N (s : st) : st := set_heap [] s.

(** ** Monad inversion *)

Lemma bind_ok {A B} (m : M A) (f : A -> M B) s b s' :
  bind m f s = (Ok b, s') -> exists a s1, m s = (Ok a, s1) /\ f a s1 = (Ok b, s').
Proof. unfold bind. destruct (m s) as [[a|e|] s1] eqn:E; intros H; try discriminate. eauto. Qed.

Lemma finally_ok {A} (m : M A) f s a s' :
  finally m f s = (Ok a, s') -> exists s1 , m s = (Ok a, s1) /\ f s1 = (Ok tt, s').
Proof.
  unfold finally. destruct (m s) as [[b|e|] s1] eqn:E; intros H; try discriminate.
  - destruct (f s1) as [[[]|e|] s2] eqn:E2; try discriminate. injection H as <- <-. eauto.
  - destruct (f s1) as [[[]|e'|] s2] eqn:E2; discriminate.
Qed.

Lemma get_ms_ok m s x s' : get_ms m s = (Ok x, s') -> s' = s /\ nth_error (s_heap s) m = Some x.
Proof. unfold get_ms. destruct (nth_error (s_heap s) m) eqn:E; intros H; inversion H; subst; auto. Qed.

Lemma change_ms_ok m f s u s' : change_ms m f s = (Ok u, s') ->
  exists x, nth_error (s_heap s) m = Some x /\ s' = set_heap (upd (s_heap s) m (f x)) s.
Proof.
  unfold change_ms. intros H. apply bind_ok in H. destruct H as (x & s1 & H1 & H2).
  apply get_ms_ok in H1. destruct H1 as [-> E]. unfold put_ms, modify in H2. inversion H2. eauto.
Qed.

(** ** Reflexive-transitive facts about every computation *)

Definition pres (R : st -> st -> Prop) {A} (m : M A) : Prop := forall s r s', m s = (r, s') -> R s s'.

Section Pres.
  Variable R : st -> st -> Prop.
  Hypothesis Rrefl : forall s, R s s.
  Hypothesis Rtrans : forall a b c, R a b -> R b c -> R a c.

  Lemma pres_ret {A} (a : A) : pres R (ret a).
  Proof. intros s r s' H; inversion H; auto. Qed.
  Lemma pres_raise {A} e : pres R (@raise A e).
  Proof. intros s r s' H; inversion H; auto. Qed.
  Lemma pres_no_fuel {A} : pres R (@no_fuel A).
  Proof. intros s r s' H; inversion H; auto. Qed.
  Lemma pres_gets {A} (f : st -> A) : pres R (gets f).
  Proof. intros s r s' H; inversion H; auto. Qed.
  Lemma pres_get_ms m : pres R (get_ms m).
  Proof. intros s r s'. unfold get_ms. destruct (nth_error _ _); intros H; inversion H; auto. Qed.
  Lemma pres_bind {A B} (m : M A) (f : A -> M B) : pres R m -> (forall a, pres R (f a)) -> pres R (bind m f).
  Proof.
    intros Hm Hf s r s'. unfold bind. destruct (m s) as [[a|e|] s1] eqn:E; intros H.
    - eapply Rtrans; [eapply Hm; eauto|eapply Hf; eauto].
    - inversion H; subst; eapply Hm; eauto.
    - inversion H; subst; eapply Hm; eauto.
  Qed.
  Lemma pres_catch {A} (m : M A) f : pres R m -> (forall a, pres R (f a)) -> pres R (catch m f).
  Proof.
    intros Hm Hf s r s'. unfold catch. destruct (m s) as [[a|e|] s1] eqn:E; intros H.
    - inversion H; subst; eapply Hm; eauto.
    - eapply Rtrans; [eapply Hm; eauto|eapply Hf; eauto].
    - inversion H; subst; eapply Hm; eauto.
  Qed.
  Lemma pres_finally {A} (m : M A) f : pres R m -> pres R f -> pres R (finally m f).
  Proof.
    intros Hm Hf s r s'. unfold finally. destruct (m s) as [[a|e|] s1] eqn:E; intros H.
    - destruct (f s1) as [[x|e|] s2] eqn:E2; inversion H; subst;
        (eapply Rtrans; [eapply Hm; eauto|eapply Hf; eauto]).
    - destruct (f s1) as [[x|e'|] s2] eqn:E2; inversion H; subst;
        (eapply Rtrans; [eapply Hm; eauto|eapply Hf; eauto]).
    - inversion H; subst; eapply Hm; eauto.
  Qed.
  Lemma pres_modify f : (forall s, R s (f s)) -> pres R (modify f).
  Proof. intros H s r s' E; inversion E; auto. Qed.
End Pres.

(** ** The log only grows *)

Definition ext (s s' : st) : Prop := exists l, s_log s' = s_log s ++ l.
Lemma ext_refl s : ext s s.
Proof. exists []. rewrite app_nil_r; auto. Qed.
Lemma ext_trans a b c : ext a b -> ext b c -> ext a c.
Proof. intros [l1 H1] [l2 H2]. exists (l1 ++ l2). rewrite H2, H1, app_assoc; auto. Qed.
Lemma ext_eq s s' : s_log s' = s_log s -> ext s s'.
Proof. exists []. rewrite app_nil_r; auto. Qed.

Lemma schedule_render_log h s : s_log (schedule_render h s) = s_log s.
Proof. unfold schedule_render. destruct (hk_sched _); auto. Qed.
Lemma dispatch_log h i u s : s_log (dispatch h i u s) = s_log s.
Proof.
  unfold dispatch. destruct (nth_error _ _) as [[]|]; auto. destruct (veq _ _); auto.
  rewrite schedule_render_log. auto.
Qed.
Lemma env_step_log s o : s_log (env_step s o) = s_log s.
Proof.
  destruct o; simpl; [apply dispatch_log|]. unfold record_seq.
  destruct (0 <=? seq)%Z; auto. destruct (_ <? _)%Z; auto.
Qed.
Lemma env_steps_log b s : s_log (fold_left env_step b s) = s_log s.
Proof. revert s; induction b; simpl; intros; auto. rewrite IHb. apply env_step_log. Qed.

Ltac pres_tac R Rr Rt :=
  repeat first
    [ assumption
    | match goal with
      | |- pres _ (ret _) => apply (pres_ret R Rr)
      | |- pres _ (raise _) => apply (pres_raise R Rr)
      | |- pres _ no_fuel => apply (pres_no_fuel R Rr)
      | |- pres _ (gets _) => apply (pres_gets R Rr)
      | |- pres _ (get_ms _) => apply (pres_get_ms R Rr)
      | |- pres _ (bind _ _) => apply (pres_bind R Rt); [|intros ?]
      | |- pres _ (catch _ _) => apply (pres_catch R Rt); [|intros ?]
      | |- pres _ (finally _ _) => apply (pres_finally R Rt)
      end ].

Lemma pause_ext : pres ext pause.
Proof.
  apply pres_modify. intros s. destruct (s_env s); [apply ext_refl|].
  apply ext_eq. rewrite env_steps_log. auto.
Qed.
Lemma log_ext e : pres ext (log e).
Proof. apply pres_modify. intros s. exists [e]. auto. Qed.
Lemma modify_ext f : (forall s, s_log (f s) = s_log s) -> pres ext (modify f).
Proof. intros H. apply pres_modify. intros. apply ext_eq. auto. Qed.
Lemma put_ms_ext m x : pres ext (put_ms m x).
Proof. apply modify_ext; auto. Qed.
Lemma new_ms_ext x : pres ext (new_ms x).
Proof. intros s r s' H; inversion H; subst. apply ext_eq; auto. Qed.
Lemma new_hook_ext : pres ext new_hook.
Proof. intros s r s' H; inversion H; subst. apply ext_eq; auto. Qed.
Lemma change_ms_ext m f : pres ext (change_ms m f).
Proof. unfold change_ms. pres_tac ext ext_refl ext_trans. apply put_ms_ext. Qed.
Lemma use_cell_ext h i : pres ext (use_cell h i).
Proof.
  intros s r s'. unfold use_cell. destruct (hk_once _).
  - destruct (nth_error _ _); intros H; inversion H; subst; apply ext_eq; auto.
  - intros H; inversion H; subst; apply ext_eq; auto.
Qed.
Lemma run_body_ext h b : pres ext (run_body h b).
Proof.
  induction b; simpl; pres_tac ext ext_refl ext_trans; try apply H; auto; try apply use_cell_ext.
  all: apply modify_ext; intros; auto using dispatch_log.
Qed.
Lemma set_current_ext h : pres ext (set_current h).
Proof. apply modify_ext. intros s. destruct (s_stack s); auto. Qed.
Lemma unset_current_ext h : pres ext (unset_current h).
Proof.
  intros s r s'. unfold unset_current. destruct (s_stack s).
  - intros H; inversion H; apply ext_refl.
  - destruct (Nat.eq_dec _ _); intros H; inversion H; subst; apply ext_eq; auto.
Qed.
Lemma will_render_ext h : pres ext (will_render h).
Proof.
  unfold will_render. pres_tac ext ext_refl ext_trans; auto using pause_ext, set_current_ext.
  apply modify_ext; auto.
Qed.
Lemma did_render_ext h : pres ext (did_render h).
Proof.
  unfold did_render. pres_tac ext ext_refl ext_trans; auto using unset_current_ext. apply modify_ext; auto.
Qed.
Lemma will_unmount_ext h : pres ext (will_unmount h).
Proof. unfold will_unmount. pres_tac ext ext_refl ext_trans; auto using pause_ext, log_ext. Qed.
Lemma layout_did_render_ext h : pres ext (layout_did_render h).
Proof. intros s r s' H. inversion H; subst. eexists; simpl; eauto. Qed.
Lemma del_handlers_ext ts : pres ext (del_handlers ts).
Proof.
  induction ts; simpl; [pres_tac ext ext_refl ext_trans|].
  intros s r s'. destruct (dmem a (s_eh s)).
  - intros H. apply IHts in H. exact H.
  - intros H; inversion H; apply ext_refl.
Qed.
Lemma del_reg_ext h : pres ext (del_reg h).
Proof. intros s r s'. unfold del_reg. destruct (dmem _ _); intros H; inversion H; subst; apply ext_eq; auto. Qed.
Lemma unmount_ext f : forall stk, pres ext (unmount f stk).
Proof.
  induction f; simpl; intros; pres_tac ext ext_refl ext_trans.
  destruct stk; pres_tac ext ext_refl ext_trans; auto using del_handlers_ext.
  destruct (ms_lcs a) as [[? ?]|]; pres_tac ext ext_refl ext_trans; auto using del_reg_ext, will_unmount_ext.
Qed.
Lemma register_handlers_ext m l : pres ext (register_handlers m l).
Proof.
  induction l as [|[ev h] l IH]; simpl; pres_tac ext ext_refl ext_trans; auto using put_ms_ext.
  apply modify_ext; auto.
Qed.
Lemma render_attributes_ext old new tag a hs js imp : pres ext (render_attributes old new tag a hs js imp).
Proof.
  unfold render_attributes. pres_tac ext ext_refl ext_trans; auto using put_ms_ext.
  - destruct old; pres_tac ext ext_refl ext_trans; auto using del_handlers_ext.
  - destruct hs; pres_tac ext ext_refl ext_trans; auto using register_handlers_ext.
Qed.

#[global] Hint Resolve pause_ext log_ext put_ms_ext new_ms_ext new_hook_ext change_ms_ext run_body_ext will_render_ext
  did_render_ext unmount_ext render_attributes_ext : extdb.

Lemma render_ext debug defs f :
  (forall old parent i k c, pres ext (render_component debug defs f old parent i k c)) /\
  (forall old parent i k r, pres ext (render_model debug defs f old parent i k r)) /\
  (forall old new l, pres ext (render_children debug defs f old new l)) /\
  (forall old new i l, pres ext (render_child_list debug defs f old new i l)).
Proof.
  induction f as [|f (IH1 & IH2 & IH3 & IH4)]; simpl.
  { repeat split; intros; apply (pres_no_fuel ext ext_refl). }
  repeat split; intros.
  - pres_tac ext ext_refl ext_trans.
    + assert (F : pres ext match parent with
                        | Some p => pm <- get_ms p;; h <- new_hook;; n <- new_ms (make_component_ms p pm i k h c);; ret (n, None)
                        | None => @raise (nat * option nat) EBadVdom
                        end).
      { destruct parent; pres_tac ext ext_refl ext_trans; eauto with extdb. }
      destruct old; auto. pres_tac ext ext_refl ext_trans.
      destruct (ms_lcs a) as [[? ?]|].
      * destruct (eq_dec _ _).
        -- destruct parent; pres_tac ext ext_refl ext_trans; eauto with extdb.
        -- pres_tac ext ext_refl ext_trans; eauto with extdb.
      * pres_tac ext ext_refl ext_trans; eauto with extdb.
    + destruct (ms_lcs a0) as [[? ?]|]; pres_tac ext ext_refl ext_trans; eauto with extdb;
        try (apply modify_ext; reflexivity).
  - destruct r; pres_tac ext ext_refl ext_trans; eauto with extdb.
    + destruct old; pres_tac ext ext_refl ext_trans; eauto with extdb.
      destruct (ms_lcs a); pres_tac ext ext_refl ext_trans; eauto with extdb.
    + destruct (attr_key attrs); pres_tac ext ext_refl ext_trans; eauto with extdb.
  - destruct (if has_duplicates _ then None else _); pres_tac ext ext_refl ext_trans.
    + destruct old; pres_tac ext ext_refl ext_trans.
      destruct (dvals _); pres_tac ext ext_refl ext_trans; eauto with extdb.
    + destruct l; pres_tac ext ext_refl ext_trans; eauto with extdb.
  - destruct l as [|[kd k] l]; pres_tac ext ext_refl ext_trans.
    + destruct old; pres_tac ext ext_refl ext_trans; eauto with extdb.
    + destruct kd; pres_tac ext ext_refl ext_trans; eauto with extdb.
      destruct a; pres_tac ext ext_refl ext_trans; eauto with extdb.
    + auto.
Qed.

(** The only render failures logged are mild ones. *)
Definition no_err (s : st) : Prop := mild_failures (s_log s).
Lemma no_err_ext s s' : ext s s' -> no_err s' -> no_err s.
Proof.
  intros [l E] H l1 h e l2 EL. apply (H l1 h e (l2 ++ l)). rewrite E, EL, <- app_assoc. reflexivity.
Qed.

(** ** Computations that do not touch the heap *)

Definition hfree {A} (m : M A) : Prop :=
  forall hp s, m (set_heap hp s) = (fst (m s), set_heap hp (snd (m s))).

Lemma set_heap_id s : set_heap (s_heap s) s = s.
Proof. destruct s; auto. Qed.
Lemma hfree_heap {A} (m : M A) s r s' : hfree m -> m s = (r, s') -> s_heap s' = s_heap s.
Proof.
  intros H E. pose proof (H (s_heap s) s) as P. rewrite set_heap_id, E in P. simpl in P.
  injection P as E2. rewrite E2. reflexivity.
Qed.
Lemma hfree_N {A} (m : M A) s r s' : hfree m -> m s = (r, s') -> m (N s) = (r, N s').
Proof. intros H E. unfold N. rewrite H, E. auto. Qed.

Lemma hfree_ret {A} (a : A) : hfree (ret a).
Proof. intros hp s; auto. Qed.
Lemma hfree_raise {A} e : hfree (@raise A e).
Proof. intros hp s; auto. Qed.
Lemma hfree_bind {A B} (m : M A) (f : A -> M B) : hfree m -> (forall a, hfree (f a)) -> hfree (bind m f).
Proof.
  intros Hm Hf hp s. unfold bind. rewrite (Hm hp s). destruct (m s) as [[a|e|] s1]; simpl; auto. apply Hf.
Qed.
Lemma hfree_modify f : (forall hp s, f (set_heap hp s) = set_heap hp (f s)) -> hfree (modify f).
Proof. intros H hp s. unfold modify. rewrite H. auto. Qed.
Lemma hfree_gets {A} (f : st -> A) : (forall hp s, f (set_heap hp s) = f s) -> hfree (gets f).
Proof. intros H hp s. unfold gets. rewrite H. auto. Qed.

Lemma schedule_render_hp h hp s : schedule_render h (set_heap hp s) = set_heap hp (schedule_render h s).
Proof. unfold schedule_render, get_hook. simpl. destruct (hk_sched _); auto. Qed.
Lemma dispatch_hp h i u hp s : dispatch h i u (set_heap hp s) = set_heap hp (dispatch h i u s).
Proof.
  unfold dispatch, get_hook. simpl. destruct (nth_error _ _) as [[]|]; auto. destruct (veq _ _); auto.
  rewrite <- schedule_render_hp. auto.
Qed.
Lemma env_step_hp hp s o : env_step (set_heap hp s) o = set_heap hp (env_step s o).
Proof.
  destruct o; simpl; [apply dispatch_hp|]. unfold record_seq. simpl.
  destruct (0 <=? seq)%Z; auto. destruct (_ <? _)%Z; auto.
Qed.
Lemma env_steps_hp b hp s : fold_left env_step b (set_heap hp s) = set_heap hp (fold_left env_step b s).
Proof. revert s; induction b; simpl; intros; auto. rewrite env_step_hp. auto. Qed.

Lemma hfree_pause : hfree pause.
Proof.
  apply hfree_modify. intros hp s. simpl. destruct (s_env s) as [|b bs]; auto.
  rewrite <- env_steps_hp. auto.
Qed.
Lemma hfree_log e : hfree (log e).
Proof. apply hfree_modify; auto. Qed.
Lemma hfree_use_cell h i : hfree (use_cell h i).
Proof.
  intros hp s. unfold use_cell, get_hook; simpl. destruct (hk_once _); auto.
  destruct (nth_error _ _); auto.
Qed.
Lemma hfree_run_body h b : hfree (run_body h b).
Proof.
  induction b; simpl; auto using hfree_ret, hfree_raise.
  - apply hfree_bind; auto using hfree_use_cell.
  - apply hfree_bind; auto. apply hfree_modify; auto.
  - apply hfree_bind; auto. apply hfree_modify; auto.
  - apply hfree_bind; auto. apply hfree_gets; auto.
  - apply hfree_bind; auto. apply hfree_modify; auto.
  - apply hfree_bind; auto. apply hfree_modify; auto using dispatch_hp.
Qed.
Lemma hfree_set_current h : hfree (set_current h).
Proof. apply hfree_modify. intros hp s. simpl. destruct (s_stack s); auto. Qed.
Lemma hfree_unset_current h : hfree (unset_current h).
Proof. intros hp s. unfold unset_current. simpl. destruct (s_stack s); auto. destruct (Nat.eq_dec _ _); auto. Qed.
Lemma hfree_will_render h : hfree (will_render h).
Proof.
  unfold will_render. apply hfree_bind; [apply hfree_pause|intros _].
  apply hfree_bind; [apply hfree_modify; auto|intros _]. apply hfree_set_current.
Qed.
Lemma hfree_did_render h : hfree (did_render h).
Proof. unfold did_render. apply hfree_bind; [apply hfree_unset_current|intros _]. apply hfree_modify; auto. Qed.
Lemma hfree_will_unmount h : hfree (will_unmount h).
Proof. unfold will_unmount. apply hfree_bind; [apply hfree_log|intros _]. apply hfree_pause. Qed.
Lemma hfree_del_handlers ts : hfree (del_handlers ts).
Proof.
  induction ts; simpl; [apply hfree_ret|]. intros hp s. simpl.
  destruct (dmem a (s_eh s)); auto. rewrite <- (IHts hp). auto.
Qed.
Lemma hfree_del_reg h : hfree (del_reg h).
Proof. intros hp s. unfold del_reg. simpl. destruct (dmem _ _); auto. Qed.

(** ** Derivations *)

(** Unmounting a stack of trees. *)
Inductive um : st -> list tree -> st -> Prop :=
| um_nil s : um s [] s
| um_elem s m k tag imp attrs js kp hs has kids ts s1 s' :
    del_handlers (dvals (targets kp hs)) s = (Ok tt, s1) ->
    um s1 (rev (filter is_node kids) ++ ts) s' ->
    um s (TElem m k tag imp attrs js kp hs has kids :: ts) s'
| um_comp s m k h c out kids ts s1 s2 s' :
    del_reg h s = (Ok tt, s1) ->
    will_unmount h s1 = (Ok tt, s2) ->
    um s2 (rev (filter is_node kids) ++ ts) s' ->
    um s (TComp m k h c out kids :: ts) s'.

Definition opt_find (k : key) (okids : option (list tree)) : option tree :=
  match okids with Some l => find_key k l | None => None end.

(** Children whose key vanished. *)
Definition gone (ks : list key) (okids : option (list tree)) : list tree :=
  match okids with
  | Some l => filter (fun t => match tkey t with Some k => negb (mem k ks) | None => false end) l
  | None => []
  end.

(** [self._event_handlers[target] = handler] for all handlers of an element. *)
Definition reg_all (kp : string) (hs : dict string handler) (eh : dict string handler) : dict string handler :=
  fold_left (fun acc x => dset (target_of kp (fst x) (snd x)) (snd x) acc) hs eh.

Definition same_comp (told : tree) (c : cinst) : Prop :=
  match told with TComp _ _ _ c0 _ _ => ci_type c0 = ci_type c | _ => False end.
Definition is_elem (told : tree) : Prop := match told with TElem _ _ _ _ _ _ _ _ _ _ => True | _ => False end.

(** Neither components nor event handlers. *)
Fixpoint inertb (t : tree) : bool :=
  match t with
  | TText _ => true
  | TElem _ _ _ _ _ _ _ hs _ l => match hs with [] => true | _ => false end && forallb inertb l
  | TComp _ _ _ _ _ _ => false
  end.
(** Unmounting such trees does nothing. *)
Fixpoint tsize (t : tree) : nat :=
  match t with
  | TText _ => 1
  | TElem _ _ _ _ _ _ _ _ _ l => S (list_sum (map tsize l))
  | TComp _ _ _ _ _ l => S (list_sum (map tsize l))
  end.
Lemma um_inert n : forall l s, list_sum (map tsize l) <= n -> forallb inertb l = true -> Forall (fun t => is_node t = true) l -> um s l s.
Proof.
  induction n as [|n IH]; intros [|t l] s LE I F; try constructor; simpl in LE.
  - destruct t; simpl in LE; lia.
  - simpl in I. apply andb_prop in I. destruct I as [I1 I2]. inversion F as [|? ? F1 F2]; subst.
    destruct t as [x|m k tag imp attrs js kp hs has kids|m k h c out kids]; simpl in I1, F1; try discriminate.
    apply andb_prop in I1. destruct I1 as [I1 I3]. destruct hs; [|discriminate]. econstructor; [reflexivity|].
    apply IH.
    + rewrite map_app, list_sum_app, map_rev. simpl in LE.
      assert (P : list_sum (rev (map tsize (filter is_node kids))) <= list_sum (map tsize kids)).
      { clear. induction kids as [|t kids IH]; simpl; [lia|]. destruct (is_node t); simpl; [rewrite list_sum_app; simpl|]; lia. }
      lia.
    + rewrite forallb_app, I2, andb_true_r. apply forallb_forall. intros x J. apply in_rev in J. apply filter_In in J. destruct J as [J _].
      rewrite forallb_forall in I3. apply I3. exact J.
    + apply Forall_app. split; [|exact F2]. apply Forall_forall. intros x J. apply in_rev in J. apply filter_In in J. apply J.
Qed.

(** The children of a component whose render ended as [o]. *)
Definition outs (o : fate) : list raw := match o with Returned r => [r] | Failed _ _ => [] end.
(** What the render function's result makes of the last log entries. *)
Definition ends (h : nat) (r : res raw) (s : st) (o : fate) (s' : st) : Prop :=
  match o with
  | Returned x => r = Ok x /\ s' = set_log (s_log s ++ [EvReturn h x]) s
  | Failed e _ => r = Raise e /\ s' = set_log (s_log s ++ [EvError h e]) s
  end.

Section Deriv.
Variable defs : nat -> val -> list raw -> body.

(** Entering the render of hook [h] and calling the render function. *)
Definition enter (h : nat) (c : cinst) (s : st) (o : fate) (s' : st) : Prop :=
  exists a r s1, will_render h s = (Ok tt, a) /\
            run_body h (render_fn defs c)
                     (set_log (s_log a ++ [EvRender h]) (set_exit (h :: s_exit a) a)) = (r, s1) /\
            ends h r s1 o s'.

Inductive rc : st -> option tree -> option key -> cinst -> st -> tree -> Prop :=
| rc_fresh s told k c s0 h m s2 r s3 kids s' :
    (told = None /\ s0 = s \/ exists t, told = Some t /\ ~ same_comp t c /\ um s [t] s0) ->
    h = length (s_hooks s0) ->
    enter h c (set_reg (dset h m (s_reg s0)) (set_hooks (s_hooks s0 ++ [no_hook]) s0)) r s2 ->
    rk s2 None (outs r) s3 kids ->
    did_render h s3 = (Ok tt, s') ->
    rc s told k c s' (TComp m k h c r kids)
| rc_same s m0 k h c0 out0 okids c m s2 r s3 kids s' :
    ci_type c0 = ci_type c ->
    enter h c (set_reg (dset h m (s_reg s)) s) r s2 ->
    (match r with Returned _ => True | Failed _ _ => forallb inertb okids = true end) ->
    rk s2 (Some okids) (outs r) s3 kids ->
    did_render h s3 = (Ok tt, s') ->
    rc s (Some (TComp m0 k h c0 out0 okids)) k c s' (TComp m k h c r kids)

with rm : st -> option tree -> key -> raw -> st -> tree -> Prop :=
| rm_fresh s told k tag attrs hs js imp ch s0 m kp kids s' :
    (told = None /\ s0 = s \/ exists t, told = Some t /\ ~ is_elem t /\ um s [t] s0) ->
    rk (set_eh (reg_all kp hs (s_eh s0)) s0) None (match ch with Some l => l | None => [] end) s' kids ->
    rm s told k (RElem tag attrs hs js imp ch) s'
       (TElem m k tag imp (inject_ack (s_seq s0) tag (dvals (targets kp hs)) attrs) js kp hs
              (match ch with Some (_ :: _) => true | _ => false end) kids)
| rm_same s m0 k tag0 imp0 attrs0 js0 kp0 hs0 has0 okids tag attrs hs js imp ch s0 m kp kids s' :
    del_handlers (dvals (filter (fun et => negb (dmem (fst et) hs)) (targets kp0 hs0))) s = (Ok tt, s0) ->
    rk (set_eh (reg_all kp hs (s_eh s0)) s0) (Some okids) (match ch with Some l => l | None => [] end) s' kids ->
    rm s (Some (TElem m0 k tag0 imp0 attrs0 js0 kp0 hs0 has0 okids)) k (RElem tag attrs hs js imp ch) s'
       (TElem m k tag imp (inject_ack (s_seq s0) tag (dvals (targets kp hs)) attrs) js kp hs
              (match ch with Some (_ :: _) => true | _ => false end) kids)

with rk : st -> option (list tree) -> list raw -> st -> list tree -> Prop :=
| rk_intro s okids raws s1 s' kids :
    NoDup (map snd (children_infos 0 raws)) ->
    um s (gone (map snd (children_infos 0 raws)) okids) s1 ->
    rl s1 okids (children_infos 0 raws) s' kids ->
    rk s okids raws s' kids

with rl : st -> option (list tree) -> list (child_kind * key) -> st -> list tree -> Prop :=
| rl_nil s okids : rl s okids [] s []
| rl_dict s okids r k rest s1 t s' ts :
    rm s (opt_find k okids) k r s1 t -> rl s1 okids rest s' ts ->
    rl s okids ((DictChild r, k) :: rest) s' (t :: ts)
| rl_comp s okids c k rest s1 t s' ts :
    rc s (opt_find k okids) (Some k) c s1 t -> rl s1 okids rest s' ts ->
    rl s okids ((CompChild c, k) :: rest) s' (t :: ts)
| rl_str s okids x k rest s1 s' ts :
    um s (otree_list (opt_find k okids)) s1 -> rl s1 okids rest s' ts ->
    rl s okids ((StrChild x, k) :: rest) s' (TText x :: ts).

End Deriv.

Scheme rc_ind' := Induction for rc Sort Prop
  with rm_ind' := Induction for rm Sort Prop
  with rk_ind' := Induction for rk Sort Prop
  with rl_ind' := Induction for rl Sort Prop.
Combined Scheme render_deriv_ind from rc_ind', rm_ind', rk_ind', rl_ind'.
