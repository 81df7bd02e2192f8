(** * Rendering keeps the hook stack balanced, and replacing a component never raises; proof-side only *)
From Coq Require Import String ZArith Bool Arith Lia List Permutation.
From Verif Require Import Dict LayoutTypes LayoutModel LayoutTree LayoutDeriv LayoutFacts.
Import ListNotations.
Local Open Scope string_scope.
Local Open Scope list_scope.

Definition keeps (s s' : st) : Prop := s_stack s' = s_stack s /\ length (s_heap s) <= length (s_heap s').
Lemma keeps_refl s : keeps s s.
Proof. split; auto. Qed.
Lemma keeps_trans a b c : keeps a b -> keeps b c -> keeps a c.
Proof. intros [A B] [C D]. split; [congruence|lia]. Qed.
Lemma keeps_eq s s' : s_stack s' = s_stack s -> s_heap s' = s_heap s -> keeps s s'.
Proof. intros A B. split; auto. rewrite B; auto. Qed.

Definition kp {A} (m : M A) : Prop := forall s r s', m s = (r, s') -> r <> Fuel -> keeps s s'.

Lemma kp_ret {A} (a : A) : kp (ret a).
Proof. intros s r s' H _. inversion H; apply keeps_refl. Qed.
Lemma kp_raise {A} e : kp (@raise A e).
Proof. intros s r s' H _. inversion H; apply keeps_refl. Qed.
Lemma kp_no_fuel {A} : kp (@no_fuel A).
Proof. intros s r s' H _. inversion H; apply keeps_refl. Qed.
Lemma kp_gets {A} (f : st -> A) : kp (gets f).
Proof. intros s r s' H _. inversion H; apply keeps_refl. Qed.
Lemma kp_get_ms m : kp (get_ms m).
Proof. intros s r s' H _. unfold get_ms in H. destruct (nth_error _ _); inversion H; apply keeps_refl. Qed.
Lemma kp_bind {A B} (m : M A) (f : A -> M B) : kp m -> (forall a, kp (f a)) -> kp (bind m f).
Proof.
  intros Hm Hf s r s'. unfold bind. destruct (m s) as [[a|e|] s1] eqn:E; intros H NF.
  - eapply keeps_trans; [apply (Hm _ _ _ E); discriminate|apply (Hf _ _ _ _ H NF)].
  - inversion H; subst. apply (Hm _ _ _ E). discriminate.
  - inversion H; subst. congruence.
Qed.
Lemma kp_modify f : (forall s, keeps s (f s)) -> kp (modify f).
Proof. intros H s r s' E _. inversion E; auto. Qed.
Lemma kp_put_ms m x : kp (put_ms m x).
Proof. apply kp_modify. intros. split; auto. simpl. rewrite upd_length; auto. Qed.
Lemma kp_new_ms x : kp (new_ms x).
Proof. intros s r s' H _. inversion H; subst. split; auto. simpl. rewrite app_length; lia. Qed.
Lemma kp_new_hook : kp new_hook.
Proof. intros s r s' H _. inversion H; subst. split; auto. Qed.
Lemma kp_change_ms m f : kp (change_ms m f).
Proof. apply kp_bind; [apply kp_get_ms|intros; apply kp_put_ms]. Qed.
Lemma kp_log e : kp (log e).
Proof. apply kp_modify. intros. apply keeps_eq; auto. Qed.

Lemma keeps_dispatch h i u s : keeps s (dispatch h i u s).
Proof.
  unfold dispatch. destruct (nth_error _ _) as [[]|]; try apply keeps_refl. destruct (veq _ _); [apply keeps_refl|].
  unfold schedule_render. destruct (hk_sched _); apply keeps_eq; auto.
Qed.
Lemma keeps_env b s : keeps s (fold_left env_step b s).
Proof.
  revert s; induction b; simpl; intros; [apply keeps_refl|]. eapply keeps_trans; [|apply IHb].
  destruct a; simpl; [apply keeps_dispatch|]. unfold record_seq.
  destruct (0 <=? seq)%Z; [|apply keeps_refl]. destruct (_ <? _)%Z; apply keeps_eq; auto.
Qed.
Lemma kp_pause : kp pause.
Proof.
  apply kp_modify. intros s. destruct (s_env s); [apply keeps_refl|].
  eapply keeps_trans; [|apply keeps_env]. apply keeps_eq; auto.
Qed.
Lemma kp_use_cell h i : kp (use_cell h i).
Proof.
  intros s r s'. unfold use_cell. destruct (hk_once _).
  - destruct (nth_error _ _); intros H _; inversion H; subst; apply keeps_eq; auto.
  - intros H _; inversion H; subst; apply keeps_eq; auto.
Qed.
Lemma kp_run_body h b : kp (run_body h b).
Proof.
  induction b; simpl; try apply kp_ret; try apply kp_raise; apply kp_bind; intros;
    auto using kp_use_cell, kp_gets; apply kp_modify; intros; auto using keeps_dispatch; apply keeps_eq; auto.
Qed.
Lemma kp_del_handlers ts : kp (del_handlers ts).
Proof.
  induction ts; simpl; [apply kp_ret|]. intros s r s'. destruct (dmem a (s_eh s)); intros H NF.
  - apply IHts in H; auto.
  - inversion H; apply keeps_refl.
Qed.
Lemma kp_del_reg h : kp (del_reg h).
Proof. intros s r s'. unfold del_reg. destruct (dmem _ _); intros H _; inversion H; subst; apply keeps_eq; auto. Qed.
Lemma kp_unmount f : forall stk, kp (unmount f stk).
Proof.
  induction f; simpl; intros; [apply kp_no_fuel|]. destruct stk; [apply kp_ret|].
  apply kp_bind; [apply kp_get_ms|]. intros x. apply kp_bind; [apply kp_del_handlers|]. intros _.
  apply kp_bind; [|auto]. destruct (ms_lcs x) as [[? ?]|]; [|apply kp_ret].
  apply kp_bind; [apply kp_del_reg|]. intros _. apply kp_bind; [apply kp_log|]. intros; apply kp_pause.
Qed.
Lemma kp_register_handlers m l : kp (register_handlers m l).
Proof.
  induction l as [|[ev h] l IH]; simpl; [apply kp_ret|]. apply kp_bind; [apply kp_get_ms|]. intros x.
  apply kp_bind; [apply kp_put_ms|]. intros _. apply kp_bind; [apply kp_modify; intros; apply keeps_eq; auto|].
  intros _. apply kp_bind; auto. intros; apply kp_ret.
Qed.
Lemma kp_render_attributes old new tag a hs js imp : kp (render_attributes old new tag a hs js imp).
Proof.
  unfold render_attributes. apply kp_bind.
  - destruct old; [|apply kp_ret]. apply kp_bind; [apply kp_get_ms|]. intros; apply kp_del_handlers.
  - intros _. apply kp_bind; [destruct hs; [apply kp_ret|apply kp_bind; [apply kp_register_handlers|intros; apply kp_ret]]|].
    intros ehs. apply kp_bind; [apply kp_get_ms|]. intros x. apply kp_bind; [apply kp_gets|]. intros; apply kp_put_ms.
Qed.

Section NoCrash.
Variable debug : bool.
Variable defs : nat -> val -> list raw -> body.

Definition tail (f : nat) (old' : option nat) (new h : nat) (c : cinst) : M nat :=
  modify (fun s => set_reg (dset h new (s_reg s)) s) ;;
  will_render h ;;
  modify (fun s => set_exit (h :: s_exit s) s) ;;
  finally
    (catch
       (log (EvRender h) ;;
        r <- run_body h (render_fn defs c) ;;
        log (EvReturn h r) ;;
        change_ms new (with_model empty_model) ;;
        render_children debug defs f old' new [r])
       (fun e => log (EvError h e) ;; change_ms new (with_model (error_model debug e))))
    (did_render h) ;;
  ret new.

Lemma tail_ok f old' new h c s r s' :
  (forall old new l, kp (render_children debug defs f old new l)) -> new < length (s_heap s) ->
  tail f old' new h c s = (r, s') -> r <> Fuel -> r = Ok new /\ keeps s s'.
Proof.
  intros IH LT. unfold tail. unfold bind at 1. unfold modify at 1.
  set (s1 := set_reg _ s). unfold bind at 1.
  destruct (will_render h s1) as [rw s2] eqn:EW.
  assert (W : rw = Ok tt /\ s_stack s2 = h :: s_stack s /\ length (s_heap s) <= length (s_heap s2)).
  { unfold will_render, bind in EW. destruct (pause s1) as [rp sp] eqn:EP.
    assert (rp = Ok tt) by (inversion EP; auto). subst rp.
    destruct (kp_pause _ _ _ EP ltac:(discriminate)) as [K1 K2]. simpl in K1, K2.
    unfold modify, set_current in EW. cbn zeta in EW. inversion EW; subst rw s2; clear EW. split; auto.
    simpl. destruct (s_stack sp) eqn:ES; simpl; rewrite <- K1, ?ES; auto. }
  destruct W as (-> & W1 & W2).
  unfold bind at 1. unfold modify at 1. set (s3 := set_exit _ s2).
  unfold bind at 1. intros H NF. unfold finally in H.
  match type of H with context [catch ?a ?b s3] => destruct (catch a b s3) as [rc sc] eqn:EC end.
  assert (KP : kp (log (EvRender h) ;;
        r <- run_body h (render_fn defs c) ;;
        log (EvReturn h r) ;;
        change_ms new (with_model empty_model) ;;
        render_children debug defs f old' new [r])).
  { apply kp_bind; [apply kp_log|]. intros _. apply kp_bind; [apply kp_run_body|]. intros x.
    apply kp_bind; [apply kp_log|]. intros _. apply kp_bind; [apply kp_change_ms|]. intros _. apply IH. }
  assert (K : rc <> Fuel -> rc = Ok tt /\ keeps s3 sc).
  { intros NFc. unfold catch in EC.
    match type of EC with (match ?m with _ => _ end) = _ => destruct m as [rb sb] eqn:EB end.
    specialize (KP _ _ _ EB). destruct rb as [[]|e|].
    - injection EC as <- <-. split; [auto|]. apply KP; discriminate.
    - assert (K : keeps s3 sb) by (apply KP; discriminate).
      unfold bind, log, modify, change_ms, bind, get_ms in EC. simpl in EC.
      destruct (nth_error (s_heap sb) new) eqn:EN.
      + unfold put_ms, modify in EC. injection EC as <- <-. split; auto. destruct K as [Ka Kb]. split; simpl; auto.
        rewrite upd_length. auto.
      + exfalso. apply nth_error_None in EN. destruct K as [_ Kb]. simpl in Kb. lia.
    - injection EC as <- <-. congruence. }
  assert (DR : forall x, s_stack x = h :: s_stack s -> exists x', did_render h x = (Ok tt, x') /\ s_stack x' = s_stack s /\ s_heap x' = s_heap x).
  { intros x Ex. unfold did_render, unset_current, bind. rewrite Ex. destruct (Nat.eq_dec h h); [|congruence].
    unfold modify. eexists. split; [reflexivity|]. split; reflexivity. }
  destruct rc as [[]|e|].
  - destruct (K ltac:(discriminate)) as (_ & K1 & K2). simpl in K1, K2.
    destruct (DR sc) as (x' & D1 & D2 & D3); [congruence|]. rewrite D1 in H. injection H as <- <-.
    split; auto. split; auto. rewrite D3. lia.
  - destruct (K ltac:(discriminate)) as [F _]. discriminate.
  - injection H as <- <-. congruence.
Qed.

Definition choose (f : nat) (old parent : option nat) (i : nat) (k : option key) (c : cinst) : M (nat * option nat) :=
  let fresh : M (nat * option nat) :=
    match parent with
    | Some p => pm <- get_ms p ;; h <- new_hook ;;
                n <- new_ms (make_component_ms p pm i k h c) ;; ret (n, None)
    | None => raise EBadVdom
    end in
  match old with
  | None => fresh
  | Some o =>
      ox <- get_ms o ;;
      match ms_lcs ox with
      | Some (h, oc) =>
          if eq_dec (ci_type oc) (ci_type c)
          then match parent with
               | None => n <- new_ms (copy_component_ms ox h c) ;; ret (n, old)
               | Some p => pm <- get_ms p ;;
                           n <- new_ms (update_component_ms ox p pm i h c) ;; ret (n, old)
               end
          else unmount f [o] ;; fresh
      | None => unmount f [o] ;; fresh
      end
  end.

Lemma render_component_S f old parent i k c :
  render_component debug defs (S f) old parent i k c =
  (no <- choose f old parent i k c ;;
   nx <- get_ms (fst no) ;;
   match ms_lcs nx with
   | None => raise EBadVdom
   | Some (h, _) => tail f (snd no) (fst no) h c
   end).
Proof. reflexivity. Qed.

Lemma kp_choose f old parent i k c : kp (choose f old parent i k c).
Proof.
  assert (F : kp match parent with
                 | Some p => pm <- get_ms p ;; h <- new_hook ;;
                             n <- new_ms (make_component_ms p pm i k h c) ;; ret (n, @None nat)
                 | None => raise EBadVdom
                 end).
  { destruct parent; [|apply kp_raise]. apply kp_bind; [apply kp_get_ms|]. intros.
    apply kp_bind; [apply kp_new_hook|]. intros. apply kp_bind; [apply kp_new_ms|]. intros. apply kp_ret. }
  unfold choose. destruct old as [o|]; auto. apply kp_bind; [apply kp_get_ms|]. intros ox.
  assert (F' : kp (unmount f [o] ;; match parent with
                 | Some p => pm <- get_ms p ;; h <- new_hook ;;
                             n <- new_ms (make_component_ms p pm i k h c) ;; ret (n, @None nat)
                 | None => raise EBadVdom
                 end)) by (apply kp_bind; [apply kp_unmount|auto]).
  destruct (ms_lcs ox) as [[h oc]|]; auto. destruct (eq_dec _ _); auto.
  destruct parent.
  - apply kp_bind; [apply kp_get_ms|]. intros. apply kp_bind; [apply kp_new_ms|]. intros. apply kp_ret.
  - apply kp_bind; [apply kp_new_ms|]. intros. apply kp_ret.
Qed.

Lemma render_keeps f :
  (forall old parent i k c, kp (render_component debug defs f old parent i k c)) /\
  (forall old parent i k r, kp (render_model debug defs f old parent i k r)) /\
  (forall old new l, kp (render_children debug defs f old new l)) /\
  (forall old new i l, kp (render_child_list debug defs f old new i l)).
Proof.
  induction f as [|f (IH1 & IH2 & IH3 & IH4)].
  { split; [|split; [|split]]; intros; apply kp_no_fuel. }
  split; [|split; [|split]]; intros.
  - rewrite render_component_S. intros s r0 s' H NF. unfold bind at 1 in H.
    destruct (choose f old parent i k c s) as [[no|e|] s1] eqn:EC.
    + assert (K1 := kp_choose _ _ _ _ _ _ _ _ _ EC ltac:(discriminate)). unfold bind, get_ms in H.
      destruct (nth_error (s_heap s1) (fst no)) as [nx|] eqn:EN.
      * destruct (ms_lcs nx) as [[h ?]|].
        -- eapply keeps_trans; [exact K1|]. assert (LT : fst no < length (s_heap s1)) by (apply nth_error_Some; congruence).
           exact (proj2 (tail_ok _ _ _ _ _ _ _ _ IH3 LT H NF)).
        -- inversion H; subst; exact K1.
      * inversion H; subst; exact K1.
    + injection H as <- <-. apply (kp_choose _ _ _ _ _ _ _ _ _ EC); discriminate.
    + injection H as <- <-. congruence.
  - simpl. destruct r; try apply kp_raise. apply kp_bind.
    + destruct old.
      * apply kp_bind; [apply kp_get_ms|]. intros ox. destruct (ms_lcs ox).
        -- apply kp_bind; [apply kp_unmount|]. intros. apply kp_bind; [apply kp_get_ms|]. intros.
           apply kp_bind; [apply kp_new_ms|]. intros. apply kp_ret.
        -- apply kp_bind; [apply kp_get_ms|]. intros. apply kp_bind; [apply kp_new_ms|]. intros. apply kp_ret.
      * apply kp_bind; [apply kp_get_ms|]. intros. apply kp_bind; [apply kp_new_ms|]. intros. apply kp_ret.
    + intros no. apply kp_bind; [destruct (attr_key attrs); [apply kp_change_ms|apply kp_ret]|]. intros _.
      apply kp_bind; [apply kp_render_attributes|]. intros _. apply kp_bind; [apply IH3|]. intros. apply kp_ret.
  - simpl. destruct (if has_duplicates _ then None else _); [|apply kp_raise]. apply kp_bind.
    + destruct old; [|apply kp_ret]. apply kp_bind; [apply kp_get_ms|]. intros ox.
      destruct (dvals _); [apply kp_ret|apply kp_unmount].
    + intros _. destruct l; [apply kp_ret|]. apply kp_bind; [apply kp_change_ms|]. intros. apply IH4.
  - simpl. destruct l as [|[kd k] l]; [apply kp_ret|]. apply kp_bind.
    + destruct old; [|apply kp_ret]. apply kp_bind; [apply kp_get_ms|]. intros. apply kp_ret.
    + intros oc. apply kp_bind; [|intros; apply IH4]. destruct kd.
      * apply kp_bind; [apply IH2|]. intros. apply kp_bind; [apply kp_get_ms|]. intros. apply kp_change_ms.
      * apply kp_bind; [apply IH1|]. intros. apply kp_bind; [apply kp_get_ms|]. intros. apply kp_change_ms.
      * apply kp_bind; [destruct oc; [apply kp_unmount|apply kp_ret]|]. intros. apply kp_change_ms.
Qed.

(** Re-rendering an existing component never raises: failures are caught inside. *)
Lemma rerender_ok f o ox parent i k c h oc s r s' :
  nth_error (s_heap s) o = Some ox -> ms_lcs ox = Some (h, oc) -> ci_type oc = ci_type c ->
  match parent with Some p => p < length (s_heap s) | None => True end ->
  render_component debug defs f (Some o) parent i k c s = (r, s') -> r <> Fuel ->
  exists n, r = Ok n /\ keeps s s' /\ n < length (s_heap s').
Proof.
  intros EO EL ET PL. destruct f as [|f]; [simpl; intros H; inversion H; congruence|].
  rewrite render_component_S. intros H NF. unfold bind at 1 in H.
  destruct (choose f (Some o) parent i k c s) as [rn s1] eqn:EC.
  assert (X : exists n x, rn = Ok (n, Some o) /\ s_heap s1 = s_heap s ++ [x] /\ n = length (s_heap s) /\ ms_lcs x = Some (h, c) /\ s_stack s1 = s_stack s).
  { unfold choose, bind, get_ms in EC. rewrite EO, EL in EC. destruct (eq_dec (ci_type oc) (ci_type c)); [|congruence].
    destruct parent as [p|].
    - destruct (nth_error (s_heap s) p) as [pm|] eqn:EP; [|apply nth_error_None in EP; lia].
      unfold new_ms, ret in EC. inversion EC; subst. eexists _, _. repeat split; reflexivity.
    - unfold new_ms, ret in EC. inversion EC; subst. eexists _, _. repeat split; reflexivity. }
  destruct X as (n & x & -> & E1 & -> & E2 & E3). unfold bind, get_ms in H. simpl in H.
  rewrite E1 in H. rewrite nth_error_app2, Nat.sub_diag in H by lia. simpl in H. rewrite E2 in H.
  assert (LL : length (s_heap s1) = S (length (s_heap s))) by (rewrite E1, app_length; simpl; lia).
  apply tail_ok in H; auto; [|apply render_keeps|lia].
  destruct H as (-> & K1 & K2). exists (length (s_heap s)). split; auto. split; [split; [congruence|lia]|lia].
Qed.

End NoCrash.
