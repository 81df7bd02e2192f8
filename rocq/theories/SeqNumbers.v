(** * Sequence numbers of events do not matter to the application, and property C117
    (/repo/src/reactpy/core/layout.py:152-190 [_process_event_queue], 434-466 [_inject_event_ack_seq]; the model is LayoutModel.v)

    The client numbers the events of input elements and the server attaches the last number it has seen to such elements. Here histories with and
    without such numbers are compared. *)
From Coq Require Import String ZArith Bool Arith Lia List.
From Verif Require Import Dict LayoutTypes LayoutModel DisplaySpec LayoutObs LayoutHistory HooksModel LayoutFindings RendersEnd.
Import ListNotations.
Local Open Scope string_scope.
Local Open Scope list_scope.

(** ** Specification *)

(** The acknowledgement is taken out of the attributes of input elements; everything else stays. *)
Definition no_ack (tag : string) (attrs : option (dict string val)) : option (dict string val) :=
  if mem tag ["input"; "select"; "textarea"] then option_map (filter (fun kv => if eq_dec (fst kv) "_reactpy_ack_seq" then false else true)) attrs else attrs.
Fixpoint plain (m : model) : model :=
  match m with
  | MText s => MText s
  | MNode tag imp attrs js eh ch err => MNode tag imp (no_ack tag attrs) js eh (match ch with Some l => Some (map plain l) | None => None end) err
  end.
Definition plain_ev (e : event) : event := match e with EvUpdate p m => EvUpdate p (plain m) | _ => e end.
(** The same history with events that carry no numbers. *)
Definition numbered (o : envop) : bool := match o with ESeq _ _ => true | EDispatch _ _ _ => false end.
Definition unnumbered (l : list envop) : list envop := filter (fun o => negb (numbered o)) l.
Definition without_numbers (o : op) : list op :=
  match o with
  | ORender bs => [ORender (map unnumbered bs)]
  | OEnv e => if numbered e then [] else [OEnv e]
  end.

(** ** States that differ in numbers only *)
Definition plain_ms (x : mstate) : mstate := with_model (plain (ms_model x)) x.
Record like (s t : st) : Prop := {
  l_heap : map plain_ms (s_heap s) = map plain_ms (s_heap t);
  l_reg : s_reg s = s_reg t;
  l_eh : s_eh s = s_eh t;
  l_hooks : s_hooks s = s_hooks t;
  l_queue : s_queue s = s_queue t;
  l_stack : s_stack s = s_stack t;
  l_exit : s_exit s = s_exit t;
  l_env : map unnumbered (s_env s) = map unnumbered (s_env t);
  l_log : map plain_ev (s_log s) = map plain_ev (s_log t)
}.
Lemma like_refl s : like s s.
Proof. constructor; reflexivity. Qed.
Lemma like_sym s t : like s t -> like t s.
Proof. intros []. constructor; congruence. Qed.
Lemma like_trans s t u : like s t -> like t u -> like s u.
Proof. intros [] []. constructor; congruence. Qed.
Definition same {A} (RA : A -> A -> Prop) (m m' : M A) : Prop := forall s t, like s t ->
  match m s, m' t with
  | (Ok a, s'), (Ok b, t') => RA a b /\ like s' t'
  | (Raise e, s'), (Raise e', t') => e = e' /\ like s' t'
  | (Fuel, _), (Fuel, _) => True
  | _, _ => False
  end.
Lemma same_bind {A B} (RA : A -> A -> Prop) (RB : B -> B -> Prop) m m' k k' : same RA m m' -> (forall a b, RA a b -> same RB (k a) (k' b)) -> same RB (bind m k) (bind m' k').
Proof.
  intros H K s t L. specialize (H s t L). unfold bind. destruct (m s) as [[a|e|] s'], (m' t) as [[b|e'|] t']; try contradiction; auto. destruct H as [Q L']. apply (K a b Q s' t' L').
Qed.
Lemma same_catch {A} (RA : A -> A -> Prop) m m' h h' : same RA m m' -> (forall e, same RA (h e) (h' e)) -> same RA (catch m h) (catch m' h').
Proof.
  intros H K s t L. specialize (H s t L). unfold catch. destruct (m s) as [[a|e|] s'], (m' t) as [[b|e'|] t']; try contradiction; auto. destruct H as [<- L']. apply (K e s' t' L').
Qed.
Lemma same_finally {A} (RA : A -> A -> Prop) m m' h h' : same RA m m' -> same eq h h' -> same RA (finally m h) (finally m' h').
Proof.
  intros H K s t L. specialize (H s t L). unfold finally. destruct (m s) as [[a|e|] s'], (m' t) as [[b|e'|] t']; try contradiction; auto; destruct H as [Q L']; specialize (K s' t' L'); destruct (h s') as [[u|x|] s''], (h' t') as [[u'|x'|] t'']; try contradiction; auto; destruct K as [K1 K2]; auto.
Qed.
Lemma same_ret {A} (RA : A -> A -> Prop) a b : RA a b -> same RA (ret a) (ret b).
Proof. intros H s t L. cbn. auto. Qed.
Lemma same_raise {A} (RA : A -> A -> Prop) e : same RA (raise e) (raise e).
Proof. intros s t L. cbn. auto. Qed.
Lemma same_fuel {A} (RA : A -> A -> Prop) : same RA no_fuel no_fuel.
Proof. intros s t L. exact Logic.I. Qed.
Lemma same_modify f g : (forall s t, like s t -> like (f s) (g t)) -> same eq (modify f) (modify g).
Proof. intros H s t L. cbn. auto. Qed.
Lemma same_gets {A} (f : st -> A) : (forall s t, like s t -> f s = f t) -> same eq (gets f) (gets f).
Proof. intros H s t L. cbn. auto. Qed.
Ltac likes := let L := fresh in intros [] [] L; destruct L as [? ? ? ? ? ? ? ? ?]; cbn in *; subst; constructor; cbn; auto.
Lemma same_log e e' : plain_ev e = plain_ev e' -> same eq (log e) (log e').
Proof. intros E. apply same_modify. intros s t []. constructor; cbn; auto. rewrite !map_app. cbn. congruence. Qed.
Lemma heap_nth s t m : like s t -> option_map plain_ms (nth_error (s_heap s) m) = option_map plain_ms (nth_error (s_heap t) m).
Proof. intros [H _ _ _ _ _ _ _ _]. rewrite <- !nth_error_map. congruence. Qed.
Definition alike (x y : mstate) : Prop := plain_ms x = plain_ms y.
Lemma same_get m : same alike (get_ms m) (get_ms m).
Proof.
  intros s t L. pose proof (heap_nth s t m L) as H. unfold get_ms. destruct (nth_error (s_heap s) m), (nth_error (s_heap t) m); try discriminate H; [split; [|exact L]; unfold alike; cbn in H; congruence|auto].
Qed.
Lemma map_upd {A B} (f : A -> B) l : forall n x, map f (upd l n x) = upd (map f l) n (f x).
Proof. induction l as [|a l IH]; intros [|n] x; cbn; auto. rewrite IH. reflexivity. Qed.
Lemma same_put m x y : alike x y -> same eq (put_ms m x) (put_ms m y).
Proof. intros H. apply same_modify. intros s t []. constructor; cbn; auto. rewrite !map_upd. unfold alike in H. congruence. Qed.
Lemma same_new x y : alike x y -> same eq (new_ms x) (new_ms y).
Proof.
  intros H s t []. unfold new_ms. split; [rewrite <- (map_length plain_ms (s_heap s)), l_heap0, map_length; reflexivity|]. constructor; cbn; auto. rewrite !map_app. cbn. unfold alike in H. congruence.
Qed.
Lemma same_change m g g' : (forall x y, alike x y -> alike (g x) (g' y)) -> same eq (change_ms m g) (change_ms m g').
Proof. intros H. apply (same_bind alike); [apply same_get|]. intros x y E. apply same_put, H, E. Qed.
Lemma alike_inv x y : alike x y -> exists m, y = with_model m x /\ plain (ms_model x) = plain m.
Proof. destruct x, y. unfold alike, plain_ms, with_model. cbn. intros [= -> -> -> -> -> H -> -> ->]. eexists. split; [reflexivity|exact H]. Qed.
Lemma same_new_hook : same eq new_hook new_hook.
Proof. intros s t []. unfold new_hook. split; [congruence|]. constructor; cbn; congruence. Qed.

(** ** The environment *)
Lemma like_hook s t h : like s t -> get_hook h s = get_hook h t.
Proof. intros []. unfold get_hook. congruence. Qed.
Lemma like_put s t h x : like s t -> like (put_hook h x s) (put_hook h x t).
Proof. intros []. constructor; cbn; congruence. Qed.
Lemma like_schedule s t h : like s t -> like (schedule_render h s) (schedule_render h t).
Proof.
  intros L. unfold schedule_render. rewrite (like_hook s t h L). destruct (hk_sched (get_hook h t)); [exact L|]. apply like_put. destruct L. constructor; cbn; congruence.
Qed.
Lemma like_dispatch s t h i u : like s t -> like (dispatch h i u s) (dispatch h i u t).
Proof.
  intros L. unfold dispatch. rewrite (like_hook s t h L). destruct (nth_error (hk_cells (get_hook h t)) i) as [[v|d o|v|v]|]; try exact L. destruct (veq _ v); [exact L|]. apply like_schedule, like_put, L.
Qed.
Lemma like_record s tg z : like (record_seq tg z s) s.
Proof. unfold record_seq. destruct (0 <=? z)%Z; [|apply like_refl]. destruct (_ <? z)%Z; [|apply like_refl]. constructor; reflexivity. Qed.
Lemma like_batch b : forall s t, like s t -> like (fold_left env_step b s) (fold_left env_step (unnumbered b) t).
Proof.
  induction b as [|o b IH]; intros s t L; cbn [fold_left unnumbered filter]; [exact L|]. destruct o as [h i u|tg z]; cbn [numbered negb fold_left env_step].
  - apply IH, like_dispatch, L.
  - apply IH. apply (like_trans _ s); [apply like_record|exact L].
Qed.
Lemma same_pause : same eq pause pause.
Proof.
  apply same_modify. intros s t L. pose proof (l_env s t L) as E. destruct (s_env s) as [|b bs], (s_env t) as [|b' bs']; try discriminate E; [exact L|]. injection E as E1 E2.
  assert (L' : like (set_env bs s) (set_env bs' t)) by (destruct L; constructor; cbn; auto).
  apply (like_trans _ _ _ (like_batch b _ _ L')). rewrite E1. apply like_sym, like_batch, like_refl.
Qed.
Lemma same_set_current h : same eq (set_current h) (set_current h).
Proof.
  apply same_modify. intros s t L. rewrite (like_hook s t h L), (l_stack s t L). destruct (s_stack t) as [|p r] eqn:E.
  - destruct L. constructor; cbn; congruence.
  - rewrite (like_hook s t p L). destruct L. constructor; cbn; congruence.
Qed.
Lemma same_unset h : same eq (unset_current h) (unset_current h).
Proof.
  intros s t L. unfold unset_current. rewrite (l_stack s t L). destruct (s_stack t) as [|p r]; [auto|]. destruct (Nat.eq_dec p h); (split; [reflexivity|]); destruct L; constructor; cbn; congruence.
Qed.
Lemma same_hook_change h (g : hook -> hook) : same eq (modify (fun s => put_hook h (g (get_hook h s)) s)) (modify (fun s => put_hook h (g (get_hook h s)) s)).
Proof. apply same_modify. intros s t L. rewrite (like_hook s t h L). apply like_put, L. Qed.
Lemma same_will h : same eq (will_render h) (will_render h).
Proof.
  apply (same_bind eq); [apply same_pause|]. intros _ _ _. apply (same_bind eq); [|intros _ _ _; apply same_set_current].
  apply (same_hook_change h (fun hk => Hook (hk_cells hk) (hk_idx hk) (hk_once hk) false (hk_effects hk) (hk_ctx hk))).
Qed.
Lemma same_did h : same eq (did_render h) (did_render h).
Proof.
  apply (same_bind eq); [apply same_unset|]. intros _ _ _. apply (same_hook_change h (fun hk => Hook (hk_cells hk) 0 true (hk_sched hk) (hk_effects hk) (hk_ctx hk))).
Qed.
Lemma same_layout_did h : same eq (layout_did_render h) (layout_did_render h).
Proof.
  intros s t L. unfold layout_did_render. rewrite (like_hook s t h L). apply (same_log _ _ eq_refl). apply like_put, L.
Qed.
Lemma same_exit hs : same eq (run_exit hs) (run_exit hs).
Proof. induction hs as [|h hs IH]; cbn [run_exit]; [apply same_ret; reflexivity|]. apply (same_bind eq); [apply same_layout_did|]. intros _ _ _. exact IH. Qed.
Lemma same_cell h c : same eq (use_cell h c) (use_cell h c).
Proof.
  intros s t L. unfold use_cell. rewrite (like_hook s t h L). destruct (hk_once (get_hook h t)); [destruct (nth_error _ _)|]; auto; (split; [reflexivity|apply like_put, L]).
Qed.
Lemma same_body h b : same eq (run_body h b) (run_body h b).
Proof.
  induction b as [r|msg|c k IH|i c k IH|e k IH|c k IH|c v k IH|h' i u k IH]; cbn [run_body].
  - apply same_ret. reflexivity.
  - apply same_raise.
  - apply (same_bind eq); [apply same_cell|]. intros ic _ <-. apply IH.
  - apply (same_bind eq); [|intros _ _ _; exact IH]. apply same_modify. intros s t L. unfold set_cell. rewrite (like_hook s t h L). apply like_put, L.
  - apply (same_bind eq); [|intros _ _ _; exact IH]. apply same_modify. intros s t L. unfold add_effect. rewrite (like_hook s t h L). apply like_put, L.
  - apply (same_bind eq); [|intros v _ <-; apply IH]. apply same_gets. intros s t L. rewrite (like_hook s t h L). reflexivity.
  - apply (same_bind eq); [|intros _ _ _; exact IH]. apply same_modify. intros s t L. unfold set_provider. rewrite (like_hook s t h L). apply like_put, L.
  - apply (same_bind eq); [|intros _ _ _; exact IH]. apply same_modify. intros s t L. apply like_dispatch, L.
Qed.
Lemma same_del_handlers ts : same eq (del_handlers ts) (del_handlers ts).
Proof.
  induction ts as [|x ts IH]; cbn [del_handlers]; [apply same_ret; reflexivity|]. intros s t L. rewrite (l_eh s t L). destruct (dmem x (s_eh t)); [|auto]. apply IH. destruct L. constructor; cbn; congruence.
Qed.
Lemma same_del_reg h : same eq (del_reg h) (del_reg h).
Proof. intros s t L. unfold del_reg. rewrite (l_reg s t L). destruct (dmem h (s_reg t)); [|auto]. split; [reflexivity|]. destruct L. constructor; cbn; congruence. Qed.
Lemma same_will_unmount h : same eq (will_unmount h) (will_unmount h).
Proof. apply (same_bind eq); [apply same_log; reflexivity|]. intros _ _ _. apply same_pause. Qed.
Lemma same_unmount f : forall stk, same eq (unmount f stk) (unmount f stk).
Proof.
  induction f as [|f IH]; intros stk; cbn [unmount]; [apply same_fuel|]. destruct stk as [|m stk]; [apply same_ret; reflexivity|]. apply (same_bind alike); [apply same_get|]. intros x y E. destruct (alike_inv x y E) as (m' & -> & _). cbn [ms_targets ms_lcs ms_children with_model].
  apply (same_bind eq); [apply same_del_handlers|]. intros _ _ _. apply (same_bind eq); [|intros _ _ _; apply IH]. destruct (ms_lcs x) as [[h c]|]; [|apply same_ret; reflexivity]. apply (same_bind eq); [apply same_del_reg|]. intros _ _ _. apply same_will_unmount.
Qed.

(** ** Attributes and children *)
Lemma plain_add c m : plain (add_child_model c m) = add_child_model (plain c) (plain m).
Proof. destruct m as [str|tag imp attrs js eh [l|] err]; cbn; [reflexivity| |reflexivity]. rewrite map_app. reflexivity. Qed.
Lemma plain_start m : plain (start_children m) = start_children (plain m).
Proof. destruct m; reflexivity. Qed.
Lemma plain_replace i c m : plain (replace_child i c m) = replace_child i (plain c) (plain m).
Proof.
  destruct m as [str|tag imp attrs js eh [l|] err]; cbn [plain replace_child]; [reflexivity| |].
  - rewrite map_app, firstn_map, skipn_map. reflexivity.
  - rewrite firstn_nil. reflexivity.
Qed.
Lemma no_ack_inject seqs tag ts attrs : no_ack tag (inject_ack seqs tag ts attrs) = no_ack tag attrs.
Proof.
  unfold no_ack, inject_ack, is_input_tag. destruct (mem tag _); [|reflexivity]. destruct (max_ack seqs ts None) as [a|], attrs as [d|]; try reflexivity. cbn [option_map]. f_equal. unfold dsetdefault. destruct (dmem "_reactpy_ack_seq" d); [reflexivity|].
  induction d as [|[k v] d IH]; cbn [dset]; [reflexivity|]. destruct (eq_dec "_reactpy_ack_seq" k) as [<-|N]; cbn [filter fst].
  - destruct (eq_dec "_reactpy_ack_seq" "_reactpy_ack_seq"); [reflexivity|congruence].
  - rewrite IH. reflexivity.
Qed.
Lemma same_register m l : same eq (register_handlers m l) (register_handlers m l).
Proof.
  induction l as [|[ev h] l IH]; cbn [register_handlers]; [apply same_ret; reflexivity|]. apply (same_bind alike); [apply same_get|]. intros x y E. destruct (alike_inv x y E) as (m' & -> & EM). cbn [ms_keypath ms_targets with_model].
  apply (same_bind eq). { apply same_put. unfold alike, plain_ms, with_model, with_targets. cbn. rewrite EM. reflexivity. }
  intros _ _ _. apply (same_bind eq). { apply same_modify. intros s t []. constructor; cbn; congruence. }
  intros _ _ _. apply (same_bind eq); [exact IH|]. intros js _ <-. apply same_ret. reflexivity.
Qed.
Lemma same_attributes old new tag attrs hs js imp : same eq (render_attributes old new tag attrs hs js imp) (render_attributes old new tag attrs hs js imp).
Proof.
  unfold render_attributes. apply (same_bind eq).
  { destruct old as [o|]; [|apply same_ret; reflexivity]. apply (same_bind alike); [apply same_get|]. intros x y E. destruct (alike_inv x y E) as (m' & -> & EM). apply same_del_handlers. }
  intros _ _ _. apply (same_bind eq). { destruct hs as [|h hs]; [apply same_ret; reflexivity|]. apply (same_bind eq); [apply same_register|]. intros l _ <-. apply same_ret. reflexivity. }
  intros ehs _ <-. apply (same_bind alike); [apply same_get|]. intros x y E. destruct (alike_inv x y E) as (m' & -> & EM). apply (same_bind (fun _ _ => True)); [intros s t L; cbn; auto|]. intros q q' _. apply same_put.
  unfold alike, plain_ms, with_model. cbn. rewrite !no_ack_inject. reflexivity.
Qed.
Section Render.
Variable debug : bool.
Variable defs : nat -> val -> list raw -> body.
Lemma same_render f :
  (forall old parent index k c, same eq (render_component debug defs f old parent index k c) (render_component debug defs f old parent index k c)) /\
  (forall old parent index k r, same eq (render_model debug defs f old parent index k r) (render_model debug defs f old parent index k r)) /\
  (forall old new raws, same eq (render_children debug defs f old new raws) (render_children debug defs f old new raws)) /\
  (forall old new index infos, same eq (render_child_list debug defs f old new index infos) (render_child_list debug defs f old new index infos)).
Proof.
  induction f as [|f (IC & IM & IR & IL)]; [split; [|split; [|split]]; intros; apply same_fuel|].
  assert (MK : forall p (g : mstate -> mstate) (o : option nat), (forall m x, g (with_model m x) = g x) -> same eq (bind (get_ms p) (fun pm => bind (new_ms (g pm)) (fun n => ret (n, o)))) (bind (get_ms p) (fun pm => bind (new_ms (g pm)) (fun n => ret (n, o))))).
  { intros p g o G. apply (same_bind alike); [apply same_get|]. intros x y E. destruct (alike_inv x y E) as (m' & -> & _). rewrite G. apply (same_bind eq); [apply same_new; reflexivity|]. intros n _ <-. apply same_ret. reflexivity. }
  split; [|split; [|split]].
  - intros old parent index k c. cbn [render_component]. 
    assert (FRESH : same eq (match parent with
        | Some p => bind (get_ms p) (fun pm => bind new_hook (fun h => bind (new_ms (make_component_ms p pm index k h c)) (fun n => ret (n, @None nat))))
        | None => raise EBadVdom
        end) (match parent with
        | Some p => bind (get_ms p) (fun pm => bind new_hook (fun h => bind (new_ms (make_component_ms p pm index k h c)) (fun n => ret (n, @None nat))))
        | None => raise EBadVdom
        end)).
    { destruct parent as [p|]; [|apply same_raise]. apply (same_bind alike); [apply same_get|]. intros x y E. destruct (alike_inv x y E) as (m' & -> & _). apply (same_bind eq); [apply same_new_hook|]. intros h _ <-. apply (same_bind eq); [apply same_new; reflexivity|]. intros n _ <-. apply same_ret. reflexivity. }
    apply (same_bind eq).
    { destruct old as [o|]; [|exact FRESH]. apply (same_bind alike); [apply same_get|]. intros x y E. destruct (alike_inv x y E) as (m' & -> & _). cbn [ms_lcs with_model]. 
      assert (OTHER : forall X Y, same eq X Y -> same eq (bind (unmount f [o]) (fun _ => X : M (nat * option nat))) (bind (unmount f [o]) (fun _ => Y))) by (intros X Y H; apply (same_bind eq); [apply same_unmount|intros _ _ _; exact H]).
      destruct (ms_lcs x) as [[h oc]|]; [|apply OTHER, FRESH]. destruct (eq_dec (ci_type oc) (ci_type c)); [|apply OTHER, FRESH].
      destruct parent as [p|].
      - apply (same_bind alike); [apply same_get|]. intros px py Ep. destruct (alike_inv px py Ep) as (pm' & -> & _). apply (same_bind eq); [apply same_new; reflexivity|]. intros n _ <-. apply same_ret. reflexivity.
      - apply (same_bind eq); [apply same_new; reflexivity|]. intros n _ <-. apply same_ret. reflexivity. }
    intros no _ <-. apply (same_bind alike); [apply same_get|]. intros x y E. destruct (alike_inv x y E) as (m' & -> & _). cbn [ms_lcs with_model]. destruct (ms_lcs x) as [[h oc]|]; [|apply same_raise].
    apply (same_bind eq). { apply same_modify. intros s t []. constructor; cbn; congruence. } intros _ _ _. apply (same_bind eq); [apply same_will|]. intros _ _ _. apply (same_bind eq). { apply same_modify. intros s t []. constructor; cbn; congruence. } intros _ _ _.
    apply (same_bind eq); [|intros _ _ _; apply same_ret; reflexivity]. apply same_finally; [|apply same_did]. apply same_catch.
    + apply (same_bind eq); [apply same_log; reflexivity|]. intros _ _ _. apply (same_bind eq); [apply same_body|]. intros r _ <-. apply (same_bind eq); [apply same_log; reflexivity|]. intros _ _ _.
      apply (same_bind eq); [|intros _ _ _; apply IR]. apply same_change. intros x' y' E'. destruct (alike_inv x' y' E') as (m2 & -> & _). reflexivity.
    + intros e. apply (same_bind eq); [apply same_log; reflexivity|]. intros _ _ _. apply same_change. intros x' y' E'. destruct (alike_inv x' y' E') as (m2 & -> & _). reflexivity.
  - intros old parent index k r. cbn [render_model]. destruct r as [|str|tag attrs hs js imp ch|c]; try apply same_raise. apply (same_bind eq).
    { destruct old as [o|]; [|apply (MK parent (fun pm => make_element_ms parent pm index k)); reflexivity]. apply (same_bind alike); [apply same_get|]. intros x y E. destruct (alike_inv x y E) as (m' & -> & _). cbn [ms_lcs with_model]. destruct (ms_lcs x).
      - apply (same_bind eq); [apply same_unmount|]. intros _ _ _. apply (MK parent (fun pm => make_element_ms parent pm index k)); reflexivity.
      - apply (MK parent (fun pm => update_element_ms x parent pm index)); reflexivity. }
    intros no _ <-. apply (same_bind eq). { destruct (attr_key attrs); [|apply same_ret; reflexivity]. apply same_change. intros x y E. destruct (alike_inv x y E) as (m' & -> & EM). unfold alike, plain_ms, with_model, with_key. cbn. rewrite EM. reflexivity. }
    intros _ _ _. apply (same_bind eq); [apply same_attributes|]. intros _ _ _. apply (same_bind eq); [apply IR|]. intros _ _ _. apply same_ret. reflexivity.
  - intros old new raws. cbn [render_children]. destruct (get_children_info raws) as [infos [ks|]]; [|apply same_raise]. apply (same_bind eq).
    { destruct old as [o|]; [|apply same_ret; reflexivity]. apply (same_bind alike); [apply same_get|]. intros x y E. destruct (alike_inv x y E) as (m' & -> & _). cbn [ms_children with_model]. destruct (dvals _); [apply same_ret; reflexivity|apply same_unmount]. }
    intros _ _ _. destruct raws as [|r0 raws]; [apply same_ret; reflexivity|]. apply (same_bind eq); [|intros _ _ _; apply IL]. apply same_change. intros x y E. destruct (alike_inv x y E) as (m' & -> & EM). unfold alike, plain_ms, with_model. cbn. rewrite !plain_start, EM. reflexivity.
  - intros old new index infos. cbn [render_child_list]. destruct infos as [|[kd k] rest]; [apply same_ret; reflexivity|]. apply (same_bind eq).
    { destruct old as [o|]; [|apply same_ret; reflexivity]. apply (same_bind alike); [apply same_get|]. intros x y E. destruct (alike_inv x y E) as (m' & -> & _). apply same_ret. reflexivity. }
    intros oc _ <-.
    assert (ADD : forall n, same eq (bind (get_ms n) (fun nx => change_ms new (fun x => with_children (dset k n (ms_children x)) (with_model (add_child_model (ms_model nx) (ms_model x)) x))))
                                    (bind (get_ms n) (fun nx => change_ms new (fun x => with_children (dset k n (ms_children x)) (with_model (add_child_model (ms_model nx) (ms_model x)) x))))).
    { intros n. apply (same_bind alike); [apply same_get|]. intros nx ny En. destruct (alike_inv nx ny En) as (nm & -> & ENM). apply same_change. intros x y E. destruct (alike_inv x y E) as (m' & -> & EM). unfold alike, plain_ms, with_model, with_children. cbn. rewrite !plain_add, ENM, EM. reflexivity. }
    apply (same_bind eq); [|intros _ _ _; apply IL]. destruct kd as [r|c|str].
    + apply (same_bind eq); [apply IM|]. intros n _ <-. apply ADD.
    + apply (same_bind eq); [apply IC|]. intros n _ <-. apply ADD.
    + apply (same_bind eq); [destruct oc; [apply same_unmount|apply same_ret; reflexivity]|]. intros _ _ _. apply same_change. intros x y E. destruct (alike_inv x y E) as (m' & -> & EM). unfold alike, plain_ms, with_model. cbn. rewrite !plain_add, EM. reflexivity.
Qed.
Lemma reaches_plain f hp hp' : map plain_ms hp = map plain_ms hp' -> forall m p, reaches f hp m p = reaches f hp' m p.
Proof.
  intros H. induction f as [|f IH]; intros m p; cbn [reaches]; [reflexivity|]. destruct (Nat.eq_dec m p); [reflexivity|].
  assert (N : option_map plain_ms (nth_error hp m) = option_map plain_ms (nth_error hp' m)) by (rewrite <- !nth_error_map; congruence).
  destruct (nth_error hp m) as [x|], (nth_error hp' m) as [y|]; try discriminate N; [|reflexivity]. destruct (alike_inv x y) as (m' & -> & _); [unfold alike; cbn in N; congruence|]. cbn [ms_children with_model].
  induction (dvals (ms_children x)) as [|a l IHl]; [reflexivity|]. cbn [existsb]. rewrite IH, IHl. reflexivity.
Qed.
Lemma same_parent x m : same eq (get_parent x) (get_parent (with_model m x)).
Proof.
  unfold get_parent. cbn [ms_parent with_model]. destruct (ms_parent x) as [p|]; [|apply same_ret; reflexivity]. intros s t L.
  assert (A : alive s p = alive t p). { unfold alive. rewrite (l_reg s t L). assert (E : length (s_heap s) = length (s_heap t)) by (rewrite <- (map_length plain_ms (s_heap s)), (l_heap s t L), map_length; reflexivity). rewrite E.
    induction (s_reg t) as [|a l IH]; [reflexivity|]. cbn [existsb]. rewrite IH, (reaches_plain _ _ _ (l_heap s t L)). reflexivity. }
  rewrite A. destruct (alive t p); auto.
Qed.
Definition same_update (a b : list nat * model) : Prop := fst a = fst b /\ plain (snd a) = plain (snd b).
Lemma same_create f old : same same_update (create_layout_update debug defs f old) (create_layout_update debug defs f old).
Proof.
  unfold create_layout_update. apply (same_bind eq). { apply same_modify. intros s t []. constructor; cbn; congruence. } intros _ _ _. apply (same_bind eq). { apply same_modify. intros s t []. constructor; cbn; congruence. } intros _ _ _.
  apply same_finally; [|apply same_modify; intros s t []; constructor; cbn; congruence]. apply (same_bind alike); [apply same_get|]. intros x y E. destruct (alike_inv x y E) as (m' & -> & _). cbn [ms_lcs ms_index ms_key with_model]. destruct (ms_lcs x) as [[h c]|]; [|apply same_raise].
  apply (same_bind eq); [apply same_parent|]. intros parent _ <-. apply (same_bind eq).
  { apply same_finally; [apply same_render|]. apply (same_bind eq); [apply same_gets; intros s t L; apply (l_exit s t L)|]. intros hs _ <-. apply same_exit. }
  intros n _ <-. apply (same_bind alike); [apply same_get|]. intros nx ny En. destruct (alike_inv nx ny En) as (nm & -> & ENM). cbn [ms_index ms_key ms_model ms_path with_model]. apply (same_bind eq).
  { destruct parent as [p|]; [|apply same_ret; reflexivity]. apply same_change. intros px py Ep. destruct (alike_inv px py Ep) as (pm & -> & EPM). destruct (ms_key nx); unfold alike, plain_ms, with_model, with_children; cbn; rewrite !plain_replace, ENM, EPM; reflexivity. }
  intros _ _ _. apply same_ret. split; [reflexivity|exact ENM].
Qed.
Definition same_result (a b : option (list nat * model)) : Prop := match a, b with Some u, Some v => same_update u v | None, None => True | _, _ => False end.
Lemma same_serial f q : same same_result (serial_render debug defs f q) (serial_render debug defs f q).
Proof.
  induction q as [|h q IH]; cbn [serial_render]; [apply same_ret; exact Logic.I|]. apply (same_bind eq). { apply same_modify. intros s t []. constructor; cbn; congruence. } intros _ _ _.
  apply (same_bind eq); [apply same_gets; intros s t L; rewrite (l_reg s t L); reflexivity|]. intros [m|] _ <-.
  - apply (same_bind same_update); [apply same_create|]. intros u v U. apply same_ret. exact U.
  - apply (same_bind eq); [apply same_log; reflexivity|]. intros _ _ _. exact IH.
Qed.
Definition both (a b : option st) : Prop := match a, b with Some s, Some t => like s t | None, None => True | _, _ => False end.
Lemma unnumbered_twice b : unnumbered (unnumbered b) = unnumbered b.
Proof. unfold unnumbered. induction b as [|o b IH]; [reflexivity|]. cbn. destruct (numbered o) eqn:E; cbn; [exact IH|]. rewrite E. cbn. rewrite IH. reflexivity. Qed.
Lemma like_step f bs s t : like s t -> both (step debug defs f (ORender bs) s) (step debug defs f (ORender (map unnumbered bs)) t).
Proof.
  intros L. cbn [step]. rewrite (l_queue s t L).
  assert (L' : like (set_env bs s) (set_env (map unnumbered bs) t)). { destruct L. constructor; cbn; auto. rewrite map_map. apply map_ext. intros b. symmetry. apply unnumbered_twice. }
  pose proof (same_serial f (s_queue t) _ _ L') as H. destruct (serial_render debug defs f (s_queue t) (set_env bs s)) as [[[[p m]|]|e|] s'], (serial_render debug defs f (s_queue t) (set_env (map unnumbered bs) t)) as [[[[p' m']|]|e'|] t']; cbn in H; try contradiction; try (destruct H; contradiction); cbn [both].
  - destruct H as [[U V] K]. cbn in U, V. subst p'. destruct K. constructor; cbn; auto. rewrite !map_app. cbn. rewrite V, l_log0. reflexivity.
  - apply H.
  - destruct H as [<- K]. destruct K. constructor; cbn; auto. rewrite !map_app. cbn. rewrite l_log0. reflexivity.
  - exact Logic.I.
Qed.
Lemma like_run f ops : forall s t, like s t -> both (run debug defs f ops s) (run debug defs f (flat_map without_numbers ops) t).
Proof.
  induction ops as [|o ops IH]; intros s t L; cbn [run flat_map]; [exact L|]. destruct o as [bs|e].
  - cbn [without_numbers app run]. pose proof (like_step f bs s t L) as H. destruct (step debug defs f (ORender bs) s) as [s'|], (step debug defs f (ORender (map unnumbered bs)) t) as [t'|]; try contradiction; [apply IH, H|exact Logic.I].
  - cbn [without_numbers step]. destruct e as [h i u|tg z]; cbn [numbered app run step env_step].
    + apply IH, like_dispatch, L.
    + apply IH. apply (like_trans _ s); [apply like_record|exact L].
Qed.
End Render.

(** ** The property *)

(** A history with numbered events is the same history without the numbers, up to the acknowledgements attached to input elements: the same components are
    rendered, with the same results, the same effects and errors, the same updates are sent, and states, handlers and pending renders are the same. *)
Theorem C117_numbers : forall debug defs root ops s, history debug defs root ops s ->
  exists t, history debug defs root (flat_map without_numbers ops) t /\
    map plain_ev (s_log s) = map plain_ev (s_log t) /\ s_hooks s = s_hooks t /\ s_eh s = s_eh t /\ s_queue s = s_queue t.
Proof.
  intros debug defs root ops s [f E]. pose proof (like_run debug defs f ops _ _ (like_refl (init root))) as H. rewrite E in H. destruct (run debug defs f (flat_map without_numbers ops) (init root)) as [t|] eqn:E'; [|contradiction].
  exists t. split; [exists f; exact E'|]. destruct H. auto.
Qed.
(** And conversely: numbers do not make anything fail or go on for ever. *)
Theorem C117_converse : forall debug defs root ops t, history debug defs root (flat_map without_numbers ops) t ->
  exists s, history debug defs root ops s /\ map plain_ev (s_log s) = map plain_ev (s_log t).
Proof.
  intros debug defs root ops t [f E]. pose proof (like_run debug defs f ops _ _ (like_refl (init root))) as H. rewrite E in H. destruct (run debug defs f ops (init root)) as [s|] eqn:E'; [|contradiction].
  exists s. split; [exists f; exact E'|]. destruct H. auto.
Qed.
(** So two clients that do the same but number differently (or not at all) see the same up to the acknowledgements. *)
Theorem C117_two_clients : forall debug defs root ops ops' s s', flat_map without_numbers ops = flat_map without_numbers ops' ->
  history debug defs root ops s -> history debug defs root ops' s' -> map plain_ev (s_log s) = map plain_ev (s_log s') /\ s_hooks s = s_hooks s'.
Proof.
  intros debug defs root ops ops' s s' EO H H'. destruct (C117_numbers _ _ _ _ _ H) as (t & T & A & B & _). destruct (C117_numbers _ _ _ _ _ H') as (t' & T' & A' & B' & _). rewrite EO in T.
  rewrite (C116_one_result _ _ _ _ _ _ T T') in A, B. split; congruence.
Qed.
Print Assumptions C117_numbers.
Print Assumptions C117_converse.
Print Assumptions C117_two_clients.
(** An input that is rendered again after a numbered event: the last update carries the number, and nothing else distinguishes it. *)
Definition typing := app_of (PState (VStr "") (fun v _ => PRet (RElem "input" (Some [("value", v)]) [("onChange", Handler 1 false false (Some "t") None None)] None None None))) (PRet RNone).
Definition typing_ops : list op := [ORender []; OEnv (ESeq "t" 3); OEnv (EDispatch 0 0 (UVal (VStr "a"))); ORender []].
Example C117_nonvacuous : history false typing root0 typing_ops (LayoutFindings.ends typing typing_ops) /\
  flat_map without_numbers typing_ops = [ORender []; OEnv (EDispatch 0 0 (UVal (VStr "a"))); ORender []] /\
  last (s_log (LayoutFindings.ends typing typing_ops)) (EvSkip 0) <> last (s_log (LayoutFindings.ends typing (flat_map without_numbers typing_ops))) (EvSkip 0) /\
  exists p m, last (map plain_ev (s_log (LayoutFindings.ends typing typing_ops))) (EvSkip 0) = EvUpdate p m.
Proof. split; [exists 40; vm_compute; reflexivity|]. split; [reflexivity|]. split; [vm_compute; discriminate|]. eexists _, _. vm_compute. reflexivity. Qed.
