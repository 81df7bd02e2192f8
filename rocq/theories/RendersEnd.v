(** * Every render ends, and property C116
    (/repo/src/reactpy/core/layout.py; the model is LayoutModel.v)

    The functions of the layout's model that call themselves do so with fuel, and [history] speaks of runs that had enough. Here it is shown
    that enough fuel always exists, and that it does not matter how much there is. Simplification: Python's limit on nested calls (RecursionError) is
    not modelled: a finite nesting may be deeper than that. *)
From Coq Require Import String ZArith Bool Arith Lia List.
From Verif Require Import Dict LayoutTypes LayoutModel DisplaySpec LayoutObs LayoutHistory OwnTargets LayoutFindings.
Import ListNotations.
Local Open Scope string_scope.
Local Open Scope list_scope.

(** ** Specification *)

(** Components are nested finitely: whatever the hooks of a component answer, what it may show consists of elements and components for which the same holds.
    There need be no bound on the depth that is the same for all states. *)
Inductive finite (defs : nat -> val -> list raw -> body) : raw -> Prop :=
| FinNone : finite defs RNone
| FinText s : finite defs (RText s)
| FinElem tag attrs hs js imp ch : (forall l r, ch = Some l -> In r l -> finite defs r) -> finite defs (RElem tag attrs hs js imp ch)
| FinComp c : (forall r, may_show defs c r -> finite defs r) -> finite defs (RComp c).

(** ** More fuel does not change a result *)
Definition up {A} (m m' : M A) : Prop := forall s, fst (m s) <> Fuel -> m' s = m s.
Lemma up_refl {A} (m : M A) : up m m.
Proof. intros s _. reflexivity. Qed.
Lemma up_fuel {A} (m : M A) : up no_fuel m.
Proof. intros s H. destruct (H eq_refl). Qed.
Lemma up_bind {A B} (m m' : M A) (k k' : A -> M B) : up m m' -> (forall a, up (k a) (k' a)) -> up (bind m k) (bind m' k').
Proof.
  intros U K s. unfold bind. specialize (U s). destruct (m s) as [[a|e|] t]; cbn [fst] in *.
  - rewrite U by discriminate. apply K.
  - rewrite U by discriminate. reflexivity.
  - intros H. destruct (H eq_refl).
Qed.
Lemma up_catch {A} (m m' : M A) h : up m m' -> up (catch m h) (catch m' h).
Proof.
  intros U s. unfold catch. specialize (U s). destruct (m s) as [[a|e|] t]; cbn [fst] in *; [rewrite U by discriminate; reflexivity|rewrite U by discriminate; reflexivity|]. intros H. destruct (H eq_refl).
Qed.
Lemma up_finally {A} (m m' : M A) h : up m m' -> up (finally m h) (finally m' h).
Proof.
  intros U s. unfold finally. specialize (U s). destruct (m s) as [[a|e|] t]; cbn [fst] in *; [rewrite U by discriminate; reflexivity|rewrite U by discriminate; reflexivity|]. intros H. destruct (H eq_refl).
Qed.
Ltac ups := repeat first [apply up_refl | apply up_bind; [|intros] | apply up_catch | apply up_finally].
Lemma up_unmount f : forall f' stk, f <= f' -> up (unmount f stk) (unmount f' stk).
Proof.
  induction f as [|f IH]; intros f' stk L; [apply up_fuel|]. destruct f' as [|f']; [lia|]. cbn [unmount]. destruct stk as [|m stk]; [apply up_refl|].
  apply up_bind; [apply up_refl|]. intros x. apply up_bind; [apply up_refl|]. intros _. apply up_bind; [apply up_refl|]. intros _. apply IH. lia.
Qed.
Section Up.
Variable debug : bool.
Variable defs : nat -> val -> list raw -> body.
Lemma up_render f : forall f', f <= f' ->
  (forall old parent index k c, up (render_component debug defs f old parent index k c) (render_component debug defs f' old parent index k c)) /\
  (forall old parent index k r, up (render_model debug defs f old parent index k r) (render_model debug defs f' old parent index k r)) /\
  (forall old new raws, up (render_children debug defs f old new raws) (render_children debug defs f' old new raws)) /\
  (forall old new index infos, up (render_child_list debug defs f old new index infos) (render_child_list debug defs f' old new index infos)).
Proof.
  induction f as [|f IH]; intros f' L; [repeat split; intros; apply up_fuel|]. destruct f' as [|f']; [lia|]. destruct (IH f' ltac:(lia)) as (IC & IM & IR & IL). assert (UM : forall stk, up (unmount f stk) (unmount f' stk)) by (intros; apply up_unmount; lia).
  split; [|split; [|split]]; intros.
  - cbn [render_component]. apply up_bind.
    + destruct old as [o|]; [|apply up_refl]. apply up_bind; [apply up_refl|]. intros ox. destruct (ms_lcs ox) as [[h oc]|].
      * destruct (eq_dec (ci_type oc) (ci_type c)); [apply up_refl|]. apply up_bind; [apply UM|]. intros; apply up_refl.
      * apply up_bind; [apply UM|]. intros; apply up_refl.
    + intros no. apply up_bind; [apply up_refl|]. intros nx. destruct (ms_lcs nx) as [[h oc]|]; [|apply up_refl].
      do 3 (apply up_bind; [apply up_refl|]; intros _). apply up_bind; [|intros; apply up_refl]. apply up_finally, up_catch.
      apply up_bind; [apply up_refl|]; intros _. apply up_bind; [apply up_refl|]; intros r. do 2 (apply up_bind; [apply up_refl|]; intros _). apply IR.
  - cbn [render_model]. destruct r; try apply up_refl. apply up_bind.
    + destruct old as [o|]; [|apply up_refl]. apply up_bind; [apply up_refl|]. intros ox. destruct (ms_lcs ox); [|apply up_refl]. apply up_bind; [apply UM|]. intros; apply up_refl.
    + intros no. do 2 (apply up_bind; [apply up_refl|]; intros _). apply up_bind; [apply IR|]. intros; apply up_refl.
  - cbn [render_children]. destruct (get_children_info raws) as [infos [ks|]]; [|apply up_refl]. apply up_bind.
    + destruct old as [o|]; [|apply up_refl]. apply up_bind; [apply up_refl|]. intros ox. destruct (dvals _); [apply up_refl|apply UM].
    + intros _. destruct raws; [apply up_refl|]. apply up_bind; [apply up_refl|]. intros _. apply IL.
  - cbn [render_child_list]. destruct infos as [|[kd k] rest]; [apply up_refl|]. apply up_bind; [apply up_refl|]. intros oc. apply up_bind; [|intros; apply IL].
    destruct kd as [r|c|s]; (apply up_bind; [|intros; apply up_refl]); [apply IM|apply IC|]. destruct oc; [apply UM|apply up_refl].
Qed.
Lemma up_update f f' old : f <= f' -> up (create_layout_update debug defs f old) (create_layout_update debug defs f' old).
Proof.
  intros L. unfold create_layout_update. do 2 (apply up_bind; [apply up_refl|]; intros _). apply up_finally. apply up_bind; [apply up_refl|]. intros ox. destruct (ms_lcs ox) as [[h c]|]; [|apply up_refl].
  apply up_bind; [apply up_refl|]. intros parent. apply up_bind; [apply up_finally, (proj1 (up_render f f' L))|]. intros; apply up_refl.
Qed.
Lemma up_serial f f' q : f <= f' -> up (serial_render debug defs f q) (serial_render debug defs f' q).
Proof.
  intros L. induction q as [|h q IH]; cbn [serial_render]; [apply up_refl|]. apply up_bind; [apply up_refl|]. intros _. apply up_bind; [apply up_refl|]. intros [m|].
  - apply up_bind; [apply up_update, L|]. intros; apply up_refl.
  - apply up_bind; [apply up_refl|]. intros; apply IH.
Qed.
Lemma up_step f f' o s t : f <= f' -> step debug defs f o s = Some t -> step debug defs f' o s = Some t.
Proof.
  intros L. destruct o as [bs|e]; [|auto]. cbn [step]. pose proof (up_serial f f' (s_queue s) L (set_env bs s)) as U.
  destruct (serial_render debug defs f (s_queue s) (set_env bs s)) as [[x|e|] u]; cbn [fst] in U; [rewrite U by discriminate; auto|rewrite U by discriminate; auto|discriminate].
Qed.
Lemma up_run f f' ops : f <= f' -> forall s t, run debug defs f ops s = Some t -> run debug defs f' ops s = Some t.
Proof.
  intros L. induction ops as [|o ops IH]; intros s t; cbn [run]; [auto|]. destruct (step debug defs f o s) as [u|] eqn:E; [|discriminate]. rewrite (up_step f f' o s u L E). apply IH.
Qed.
End Up.

(** ** Enough fuel *)
Section Ends.
Variable debug : bool.
Variable defs : nat -> val -> list raw -> body.
Notation fin := (finite defs).

(** Children are younger than their parents, and all components are finite. *)
Definition fine (hp : list mstate) : Prop := forall m x, nth_error hp m = Some x ->
  (forall k n, In (k, n) (ms_children x) -> m < n < length hp) /\ (forall h c, ms_lcs x = Some (h, c) -> fin (RComp c)).
(** From some amount of fuel on the result is the same and not [Fuel]. *)
Definition ends {A} (Q : A -> st -> Prop) (m : nat -> M A) (s : st) : Prop :=
  exists f0 r t, (forall f, f0 <= f -> m f s = (r, t)) /\ fine (s_heap t) /\ length (s_heap s) <= length (s_heap t) /\
    match r with Ok a => Q a t | Raise _ => True | Fuel => False end.
Definition anyway {A} : A -> st -> Prop := fun _ _ => True.
Lemma ends_bind {A B} (Q : A -> st -> Prop) (Q' : B -> st -> Prop) (m : nat -> M A) (k : nat -> A -> M B) s :
  ends Q m s -> (forall a t, fine (s_heap t) -> length (s_heap s) <= length (s_heap t) -> Q a t -> ends Q' (fun f => k f a) t) -> ends Q' (fun f => bind (m f) (k f)) s.
Proof.
  intros (f0 & r & t & E & I & L & R) K. destruct r as [a|e|]; [|exists f0, (Raise e), t; split; [intros f H; unfold bind; rewrite (E f H); reflexivity|auto]|contradiction].
  destruct (K a t I L R) as (f1 & r & u & E' & I' & L' & R'). exists (Nat.max f0 f1), r, u. split; [intros f H; unfold bind; rewrite (E f) by lia; apply E'; lia|]. split; [exact I'|]. split; [lia|exact R'].
Qed.
Lemma ends_impl {A} (Q Q' : A -> st -> Prop) m s : (forall a t, Q a t -> Q' a t) -> ends Q m s -> ends Q' m s.
Proof. intros H (f0 & r & t & E & I & L & R). exists f0, r, t. split; [exact E|]. split; [exact I|]. split; [exact L|]. destruct r; auto. Qed.
Lemma ends_succ {A} (Q : A -> st -> Prop) (m m' : nat -> M A) s : (forall f, m (S f) = m' f) -> ends Q m' s -> ends Q m s.
Proof. intros H (f0 & r & t & E & R). exists (S f0), r, t. split; [|exact R]. intros [|f] L; [lia|]. rewrite H. apply E. lia. Qed.
(** A step that does not need fuel and leaves the heap alone. *)
Definition still {A} (m : M A) : Prop := forall s, fst (m s) <> Fuel /\ s_heap (snd (m s)) = s_heap s.
Lemma ends_still {A} (Q : A -> st -> Prop) (m : M A) s : still m -> fine (s_heap s) -> (forall a, fst (m s) = Ok a -> Q a (snd (m s))) -> ends Q (fun _ => m) s.
Proof.
  intros H I HQ. destruct (H s) as [N E]. exists 0, (fst (m s)), (snd (m s)). split; [intros f _; destruct (m s); reflexivity|]. rewrite E. split; [exact I|]. split; [lia|]. destruct (fst (m s)); auto.
Qed.
Lemma still_bind {A B} (m : M A) (k : A -> M B) : still m -> (forall a, still (k a)) -> still (bind m k).
Proof. intros H K s. unfold bind. destruct (H s) as [N E]. destruct (m s) as [[a|e|] t]; cbn in *; [|split; [discriminate|exact E]|congruence]. destruct (K a t) as [N' E']. split; [exact N'|congruence]. Qed.
Lemma still_ret {A} (a : A) : still (ret a).
Proof. intros s. split; [discriminate|reflexivity]. Qed.
Lemma still_raise {A} e : still (@raise A e).
Proof. intros s. split; [discriminate|reflexivity]. Qed.
Lemma still_modify f : (forall s, s_heap (f s) = s_heap s) -> still (modify f).
Proof. intros H s. split; [discriminate|apply H]. Qed.
Lemma still_gets {A} (f : st -> A) : still (gets f).
Proof. intros s. split; [discriminate|reflexivity]. Qed.
Lemma still_log e : still (log e).
Proof. apply still_modify. reflexivity. Qed.
Lemma still_get m : still (get_ms m).
Proof. intros s. unfold get_ms. destruct (nth_error (s_heap s) m); (split; [discriminate|reflexivity]). Qed.
Lemma still_pause : still pause.
Proof. apply still_modify. intros s. destruct (s_env s); [reflexivity|]. rewrite envs_heap. reflexivity. Qed.
Lemma still_del ts : still (del_handlers ts).
Proof.
  induction ts as [|t ts IH]; [apply still_ret|]. intros s. cbn [del_handlers]. destruct (dmem t (s_eh s)); [|split; [discriminate|reflexivity]]. destruct (IH (set_eh (ddel t (s_eh s)) s)) as [N E]. split; [exact N|exact E].
Qed.
Lemma still_del_reg h : still (del_reg h).
Proof. intros s. unfold del_reg. destruct (dmem h (s_reg s)); (split; [discriminate|reflexivity]). Qed.
Lemma still_unmounted h : still (will_unmount h).
Proof. unfold will_unmount. apply still_bind; [apply still_log|intros; apply still_pause]. Qed.
Lemma still_set_current h : still (set_current h).
Proof. apply still_modify. intros s. destruct (s_stack s); reflexivity. Qed.
Lemma still_unset h : still (unset_current h).
Proof. intros s. unfold unset_current. destruct (s_stack s) as [|p l]; [split; [discriminate|reflexivity]|]. destruct (Nat.eq_dec p h); (split; [discriminate|reflexivity]). Qed.
Lemma still_will h : still (will_render h).
Proof. unfold will_render. apply still_bind; [apply still_pause|intros _]. apply still_bind; [apply still_modify; reflexivity|intros _]. apply still_set_current. Qed.
Lemma still_did h : still (did_render h).
Proof. unfold did_render. apply still_bind; [apply still_unset|intros _]. apply still_modify. reflexivity. Qed.
Lemma still_new_hook : still new_hook.
Proof. intros s. split; [discriminate|reflexivity]. Qed.
Lemma still_cell h c : still (use_cell h c).
Proof. intros s. unfold use_cell. destruct (hk_once (get_hook h s)); [|split; [discriminate|reflexivity]]. destruct (nth_error _ _); (split; [discriminate|reflexivity]). Qed.
Lemma still_body h b : still (run_body h b).
Proof.
  induction b as [r|msg|c k IH|i c k IH|e k IH|c k IH|c v k IH|h' i u k IH]; cbn [run_body]; [apply still_ret|apply still_raise| | | | | |].
  - apply still_bind; [apply still_cell|]. intros a. apply IH.
  - apply still_bind; [apply still_modify; reflexivity|]. intros _. apply IH.
  - apply still_bind; [apply still_modify; reflexivity|]. intros _. apply IH.
  - apply still_bind; [apply still_gets|]. intros a. apply IH.
  - apply still_bind; [apply still_modify; reflexivity|]. intros _. apply IH.
  - apply still_bind; [apply still_modify; intros; apply dispatch_heap|]. intros _. apply IH.
Qed.
Lemma still_exit hs : still (run_exit hs).
Proof. induction hs as [|h hs IH]; [apply still_ret|]. cbn [run_exit]. apply still_bind; [|intros _; exact IH]. intros s. unfold layout_did_render. destruct (still_log (EvEffects h (hk_effects (get_hook h s))) (put_hook h (Hook (hk_cells (get_hook h s)) (hk_idx (get_hook h s)) (hk_once (get_hook h s)) (hk_sched (get_hook h s)) [] (hk_ctx (get_hook h s))) s)) as [N E]. split; [exact N|exact E]. Qed.
Lemma still_parent x : still (get_parent x).
Proof. unfold get_parent. destruct (ms_parent x) as [p|]; [|apply still_ret]. intros s. destruct (alive s p); (split; [discriminate|reflexivity]). Qed.

(** Steps that write one model state. *)
Lemma ends_put m x s : fine (s_heap s) -> ((forall k n, In (k, n) (ms_children x) -> m < n < length (s_heap s)) /\ (forall h c, ms_lcs x = Some (h, c) -> fin (RComp c))) ->
  ends anyway (fun _ => put_ms m x) s.
Proof.
  intros I X. exists 0, (Ok tt), (set_heap (upd (s_heap s) m x) s). split; [reflexivity|]. cbn [s_heap set_heap]. rewrite upd_length. split; [|split; [lia|exact Logic.I]].
  intros j y N. rewrite upd_length. destruct (Nat.eq_dec m j) as [->|D].
  - assert (B : j < length (s_heap s)) by (rewrite <- (upd_length (s_heap s) j x); apply nth_error_Some; congruence). rewrite nth_upd_same in N by exact B. injection N as <-. exact X.
  - rewrite nth_upd_other in N by exact D. exact (I j y N).
Qed.
Lemma ends_change m g s : fine (s_heap s) -> (forall x, nth_error (s_heap s) m = Some x ->
    (forall k n, In (k, n) (ms_children (g x)) -> m < n < length (s_heap s)) /\ ms_lcs (g x) = ms_lcs x) ->
  ends anyway (fun _ => change_ms m g) s.
Proof.
  intros I H. unfold change_ms. apply (ends_bind (fun x t => t = s /\ nth_error (s_heap s) m = Some x)).
  - apply ends_still; [apply still_get|exact I|]. intros x. unfold get_ms. destruct (nth_error (s_heap s) m); cbn; [intros [= <-]; auto|discriminate].
  - intros x t It _ [-> N]. apply ends_put; [exact I|]. destruct (H x N) as [H1 H2]. split; [exact H1|]. rewrite H2. apply (I m x N).
Qed.
Lemma ends_new x s : fine (s_heap s) -> ms_children x = [] -> (forall h c, ms_lcs x = Some (h, c) -> fin (RComp c)) ->
  ends (fun n t => n = length (s_heap s) /\ nth_error (s_heap t) n = Some x /\ n < length (s_heap t)) (fun _ => new_ms x) s.
Proof.
  intros I C L. exists 0, (Ok (length (s_heap s))), (set_heap (s_heap s ++ [x]) s). split; [reflexivity|]. cbn [s_heap set_heap]. rewrite app_length. cbn [length].
  split; [|split; [lia|split; [reflexivity|split; [|lia]]]].
  - intros m y N. rewrite app_length. cbn [length]. destruct (Nat.lt_ge_cases m (length (s_heap s))) as [B|B].
    + rewrite nth_error_app1 in N by exact B. destruct (I m y N) as [I1 I2]. split; [|exact I2]. intros k n H. specialize (I1 k n H). lia.
    + rewrite nth_error_app2 in N by exact B. destruct (m - length (s_heap s)) as [|j] eqn:D; [|destruct j; discriminate]. injection N as <-. rewrite C. split; [intros ? ? []|exact L].
  - rewrite nth_error_app2, Nat.sub_diag by lia. reflexivity.
Qed.

Definition leave (x : mstate) : M unit := match ms_lcs x with Some (h, _) => bind (del_reg h) (fun _ => will_unmount h) | None => ret tt end.
Lemma still_leave x : still (leave x).
Proof. unfold leave. destruct (ms_lcs x) as [[h c]|]; [apply still_bind; [apply still_del_reg|intros; apply still_unmounted]|apply still_ret]. Qed.
Lemma unmount_eq f m stk : unmount (S f) (m :: stk) = bind (get_ms m) (fun x => bind (del_handlers (dvals (ms_targets x))) (fun _ => bind (leave x) (fun _ => unmount f (rev (dvals (ms_children x)) ++ stk)))).
Proof. reflexivity. Qed.
(** Unmounting ends, since the states below a state are younger. *)
Lemma unmount_done hp : fine hp -> forall stk, exists F, forall s, s_heap s = hp -> fst (unmount F stk s) <> Fuel.
Proof.
  intros I.
  set (T := fun stk => exists F, forall s, s_heap s = hp -> fst (unmount F stk s) <> Fuel).
  assert (P : forall d m, length hp - m <= d -> forall stk, T stk -> T (m :: stk)).
  { induction d as [|d IH]; intros m L stk HT.
    - exists 1. intros s E. cbn [unmount]. unfold bind. unfold get_ms. rewrite E. assert (N : nth_error hp m = None) by (apply nth_error_None; lia). rewrite N. discriminate.
    - destruct (nth_error hp m) as [x|] eqn:N; [|exists 1; intros s E; cbn [unmount]; unfold bind, get_ms; rewrite E, N; discriminate].
      assert (HC : T (rev (dvals (ms_children x)) ++ stk)).
      { assert (K : forall c, In c (rev (dvals (ms_children x))) -> length hp - c <= d).
        { intros c H. apply in_rev in H. unfold dvals in H. apply in_map_iff in H. destruct H as ([k n] & <- & H). destruct (I m x N) as [I1 _]. specialize (I1 k n H). cbn. lia. }
        revert K. generalize (rev (dvals (ms_children x))). intros l. induction l as [|c l IL]; intros K; [exact HT|]. cbn [app]. apply IH; [apply K; left; reflexivity|]. apply IL. intros c' H. apply K. right. exact H. }
      destruct HC as (F & HF). exists (S F). intros s E. rewrite unmount_eq. unfold bind at 1. unfold get_ms. rewrite E, N. unfold bind at 1. destruct (still_del (dvals (ms_targets x)) s) as [N1 E1].
      destruct (del_handlers (dvals (ms_targets x)) s) as [[u|e|] t]; cbn [fst snd] in *; [|discriminate|congruence].
      unfold bind at 1. 
      destruct (still_leave x t) as [N2 E2]. destruct (leave x t) as [[u'|e|] t']; cbn [fst snd] in *; [|discriminate|congruence].
      apply HF. congruence. }
  intros stk. induction stk as [|m stk IH]; [exists 1; intros s _; discriminate|]. apply (P (length hp) m); [lia|exact IH].
Qed.
Lemma unmount_heap f : forall stk s, s_heap (snd (unmount f stk s)) = s_heap s.
Proof.
  induction f as [|f IH]; intros stk s; [reflexivity|]. destruct stk as [|m stk]; [reflexivity|]. rewrite unmount_eq. unfold bind at 1. pose proof (still_get m s) as [_ E0]. destruct (get_ms m s) as [[x|e|] s0]; cbn [fst snd] in *; [|exact E0|exact E0].
  unfold bind at 1. destruct (still_del (dvals (ms_targets x)) s0) as [_ E1]. destruct (del_handlers (dvals (ms_targets x)) s0) as [[u|e|] t]; cbn [fst snd] in *; try congruence.
  unfold bind at 1. 
  destruct (still_leave x t) as [_ E2]. destruct (leave x t) as [[u'|e|] t']; cbn [fst snd] in *; [rewrite IH; congruence|congruence|congruence].
Qed.
Lemma ends_unmount stk s : fine (s_heap s) -> ends anyway (fun f => unmount f stk) s.
Proof.
  intros I. destruct (unmount_done (s_heap s) I stk) as (F & HF). specialize (HF s eq_refl). exists F, (fst (unmount F stk s)), (snd (unmount F stk s)).
  split; [intros f L; rewrite (up_unmount F f stk L s HF); destruct (unmount F stk s); reflexivity|]. rewrite unmount_heap. split; [exact I|]. split; [lia|]. destruct (fst (unmount F stk s)); [exact Logic.I|exact Logic.I|congruence].
Qed.

Lemma ends_get m s : fine (s_heap s) -> ends (fun x t => t = s /\ nth_error (s_heap s) m = Some x) (fun _ => get_ms m) s.
Proof. intros I. apply ends_still; [apply still_get|exact I|]. intros x. unfold get_ms. destruct (nth_error (s_heap s) m); cbn; [intros [= <-]; auto|discriminate]. Qed.
Lemma ends_ret {A} (Q : A -> st -> Prop) a s : fine (s_heap s) -> Q a s -> ends Q (fun _ => ret a) s.
Proof. intros I H. apply ends_still; [apply still_ret|exact I|]. intros b [= <-]. exact H. Qed.
Lemma ends_raise {A} (Q : A -> st -> Prop) e s : fine (s_heap s) -> ends Q (fun _ => raise e) s.
Proof. intros I. apply ends_still; [apply still_raise|exact I|]. discriminate. Qed.
Lemma ends_quiet {A} (m : M A) s : still m -> fine (s_heap s) -> ends (fun _ t => s_heap t = s_heap s) (fun _ => m) s.
Proof. intros S' I. apply ends_still; [exact S'|exact I|]. intros a _. apply S'. Qed.
Lemma ends_quietly {A} (m : M A) s : still m -> fine (s_heap s) -> ends anyway (fun _ => m) s.
Proof. intros S' I. apply ends_still; [exact S'|exact I|]. intros a _. exact Logic.I. Qed.
Lemma ends_catch {A} (Q : A -> st -> Prop) (m : nat -> M A) h s : ends Q m s ->
  (forall e t, fine (s_heap t) -> length (s_heap s) <= length (s_heap t) -> ends Q (fun _ => h e) t) -> ends Q (fun f => catch (m f) h) s.
Proof.
  intros (f0 & r & t & E & I & L & R) K. destruct r as [a|e|]; [exists f0, (Ok a), t; split; [intros f H; unfold catch; rewrite (E f H); reflexivity|auto]| |contradiction].
  destruct (K e t I L) as (f1 & r & u & E' & I' & L' & R'). exists (Nat.max f0 f1), r, u. split; [intros f H; unfold catch; rewrite (E f) by lia; apply (E' f); lia|]. split; [exact I'|]. split; [lia|exact R'].
Qed.
Lemma ends_finally {A} (Q : A -> st -> Prop) (m : nat -> M A) h s : ends Q m s -> still h -> (forall a t u, s_heap u = s_heap t -> Q a t -> Q a u) -> ends Q (fun f => finally (m f) h) s.
Proof.
  intros (f0 & r & t & E & I & L & R) H K. destruct (H t) as [N ET]. destruct (h t) as [hr u] eqn:EH. cbn [fst snd] in *.
  exists f0, (match r with Ok a => match hr with Ok _ => Ok a | Raise e => Raise e | Fuel => Fuel end | Raise e => match hr with Ok _ => Raise e | Raise e' => Raise e' | Fuel => Fuel end | Fuel => Fuel end), u.
  split; [intros f G; unfold finally; rewrite (E f G); destruct r as [a|e|]; [rewrite EH; destruct hr; reflexivity|rewrite EH; destruct hr; reflexivity|contradiction]|].
  rewrite ET. split; [exact I|]. split; [exact L|]. destruct r as [a|e|]; [|destruct hr; auto|contradiction]. destruct hr; [|exact Logic.I|congruence]. eapply K; eauto.
Qed.

(** What is claimed of a child. *)
Definition new_in (s : st) (parent : option nat) (n : nat) (t : st) : Prop := length (s_heap s) <= n < length (s_heap t) /\ forall p, parent = Some p -> p < n.
Definition kind_ends (kd : child_kind) : Prop :=
  match kd with
  | DictChild r => forall old parent index k s, fine (s_heap s) -> ends (new_in s (Some parent)) (fun f => render_model debug defs f old parent index k r) s
  | CompChild c => forall old parent index k s, fine (s_heap s) -> ends (new_in s parent) (fun f => render_component debug defs f old parent index k c) s
  | StrChild _ => True
  end.
Definition raw_ends (r : raw) : Prop := match child_info r with Some (kd, _) => kind_ends kd | None => True end.

Lemma dset_in (k : key) (n : nat) (d : dict key nat) k' n' : In (k', n') (dset k n d) -> (k', n') = (k, n) \/ In (k', n') d.
Proof. induction d as [|[a b] d IH]; cbn; [intros [<-|[]]; auto|]. destruct (eq_dec k a) as [->|]; cbn; intros [<-|H]; auto. destruct (IH H); auto. Qed.
Lemma list_ends infos : (forall kd k, In (kd, k) infos -> kind_ends kd) -> forall old new index s, fine (s_heap s) -> new < length (s_heap s) ->
  ends anyway (fun f => render_child_list debug defs f old new index infos) s.
Proof.
  induction infos as [|[kd k] rest IH]; intros H old new index s I L; (eapply ends_succ; [intros f; reflexivity|]); cbn [render_child_list]; [apply ends_ret; [exact I|exact Logic.I]|].
  apply (ends_bind (fun _ t => t = s)).
  { destruct old as [o|]; [|apply ends_ret; auto]. apply (ends_bind _ _ _ _ _ (ends_get o s I)). intros x t _ _ [-> _]. apply ends_ret; auto. }
  intros oc t _ _ ->. apply (ends_bind anyway); [|intros _ t It Lt _; apply IH; [intros kd' k' H'; apply (H kd' k'); right; exact H'|exact It|lia]].
  assert (ADD : forall n t, fine (s_heap t) -> length (s_heap s) <= length (s_heap t) -> length (s_heap s) <= n < length (s_heap t) -> ends anyway (fun _ => bind (get_ms n) (fun nx => change_ms new (fun x => with_children (dset k n (ms_children x)) (with_model (add_child_model (ms_model nx) (ms_model x)) x)))) t).
  { intros n t It Lt Bn. apply (ends_bind _ _ _ _ _ (ends_get n t It)). intros nx u _ _ [-> _]. apply ends_change; [exact It|]. intros x Nx. split; [|reflexivity]. cbn. intros k' n' HI. apply dset_in in HI. destruct HI as [[= -> ->]|HI]; [lia|]. apply (proj1 (It new x Nx) k' n' HI). }
  specialize (H kd k (or_introl eq_refl)). destruct kd as [r|c|str]; cbn [kind_ends] in H.
  - apply (ends_bind _ _ _ _ _ (H oc new index (Some k) s I)). intros n t It Lt [B _]. apply ADD; assumption.
  - apply (ends_bind _ _ _ _ _ (H oc (Some new) index (Some k) s I)). intros n t It Lt [B _]. apply ADD; assumption.
  - apply (ends_bind anyway); [destruct oc as [o|]; [apply ends_unmount, I|apply ends_ret; [exact I|exact Logic.I]]|]. intros _ t It Lt _. apply ends_change; [exact It|]. intros x Nx. split; [|reflexivity]. apply (It new x Nx).
Qed.
Lemma infos_in l : forall i kd k, In (kd, k) (children_infos i l) -> exists r e, In r l /\ child_info r = Some (kd, e).
Proof.
  induction l as [|r l IH]; intros i kd k; cbn [children_infos]; [intros []|]. destruct (child_info r) as [[kd' [k'|]]|] eqn:E.
  - intros [[= -> ->]|H]; [exists r, (Some k); split; [left; reflexivity|exact E]|]. destruct (IH _ _ _ H) as (r' & e & A & B). exists r', e. split; [right; exact A|exact B].
  - intros [[= -> _]|H]; [exists r, None; split; [left; reflexivity|exact E]|]. destruct (IH _ _ _ H) as (r' & e & A & B). exists r', e. split; [right; exact A|exact B].
  - intros H. destruct (IH _ _ _ H) as (r' & e & A & B). exists r', e. split; [right; exact A|exact B].
Qed.
Lemma children_end raws : (forall r, In r raws -> raw_ends r) -> forall old new s, fine (s_heap s) -> new < length (s_heap s) -> ends anyway (fun f => render_children debug defs f old new raws) s.
Proof.
  intros H old new s I L. eapply ends_succ; [intros f; reflexivity|]. cbn [render_children]. unfold get_children_info. destruct (has_duplicates (map snd (children_infos 0 raws))); [apply ends_raise, I|].
  apply (ends_bind anyway).
  { destruct old as [o|]; [|apply ends_ret; [exact I|exact Logic.I]]. apply (ends_bind _ _ _ _ _ (ends_get o s I)). intros ox t _ _ [-> _]. destruct (dvals _) as [|a l]; [apply ends_ret; [exact I|exact Logic.I]|apply ends_unmount, I]. }
  intros _ t It Lt _. destruct raws as [|r0 raws]; [apply ends_ret; [exact It|exact Logic.I]|].
  apply (ends_bind anyway); [apply ends_change; [exact It|]; intros x Nx; split; [apply (It new x Nx)|reflexivity]|]. intros _ u Iu Lu _. apply list_ends; [|exact Iu|lia].
  intros kd k HI. destruct (infos_in _ _ _ _ HI) as (r & e & A & B). specialize (H r A). unfold raw_ends in H. rewrite B in H. exact H.
Qed.
Lemma register_ends m l : forall s, fine (s_heap s) -> ends anyway (fun _ => register_handlers m l) s.
Proof.
  induction l as [|[ev h] l IH]; intros s I; cbn [register_handlers]; [apply ends_ret; [exact I|exact Logic.I]|]. apply (ends_bind _ _ _ _ _ (ends_get m s I)). intros x t _ _ [-> N].
  apply (ends_bind anyway); [apply ends_put; [exact I|]; cbn; apply (I m x N)|]. intros _ t It Lt _. apply (ends_bind anyway); [apply ends_quietly; [apply still_modify; reflexivity|exact It]|]. intros _ u Iu _ _.
  apply (ends_bind anyway); [apply IH, Iu|]. intros js v Iv _ _. apply ends_ret; [exact Iv|exact Logic.I].
Qed.
Lemma attributes_end old new tag attrs hs js imp s : fine (s_heap s) -> ends anyway (fun _ => render_attributes old new tag attrs hs js imp) s.
Proof.
  intros I. unfold render_attributes. apply (ends_bind anyway).
  { destruct old as [o|]; [|apply ends_ret; [exact I|exact Logic.I]]. apply (ends_bind _ _ _ _ _ (ends_get o s I)). intros ox t _ _ [-> _]. apply ends_quietly; [apply (still_del _)|exact I]. }
  intros _ t It _ _. apply (ends_bind anyway).
  { destruct hs as [|h hs]; [apply ends_ret; [exact It|exact Logic.I]|]. apply (ends_bind anyway); [apply register_ends, It|]. intros l u Iu _ _. apply ends_ret; [exact Iu|exact Logic.I]. }
  intros ehs u Iu _ _. apply (ends_bind _ _ _ _ _ (ends_get new u Iu)). intros x v _ _ [-> N]. apply (ends_bind (fun _ t => s_heap t = s_heap u)); [apply ends_quiet; [apply still_gets|exact Iu]|].
  intros seqs v Iv _ Ev. apply ends_put; [exact Iv|]. cbn. rewrite Ev. apply (Iu new x N).
Qed.
Lemma fresh_ends parent index k c s : fin (RComp c) -> fine (s_heap s) ->
  ends (fun no t => new_in s parent (fst no) t) (fun _ => match parent with
        | Some p => bind (get_ms p) (fun pm => bind new_hook (fun h => bind (new_ms (make_component_ms p pm index k h c)) (fun n => ret (n, @None nat))))
        | None => raise EBadVdom
        end) s.
Proof.
  intros F I. destruct parent as [p|]; [|apply ends_raise, I]. apply (ends_bind _ _ _ _ _ (ends_get p s I)). intros pm t _ _ [-> N]. assert (B : p < length (s_heap s)) by (apply nth_error_Some; congruence).
  apply (ends_bind (fun _ t => s_heap t = s_heap s)); [apply ends_quiet; [apply still_new_hook|exact I]|]. intros h t It Lt Et. refine (ends_bind _ _ _ _ _ (ends_new (make_component_ms p pm index k h c) t It eq_refl _) _); [intros h' c' [= <- <-]; exact F|].
  intros n u Iu Lu (-> & _ & Bn). apply ends_ret; [exact Iu|]. unfold new_in. cbn [fst]. rewrite Et in *. split; [lia|]. intros p' [= <-]. exact B.
Qed.
Lemma component_ends c : fin (RComp c) -> (forall r, may_show defs c r -> raw_ends r) -> kind_ends (CompChild c).
Proof.
  intros F H old parent index k s I. eapply ends_succ; [intros f; reflexivity|]. cbn [render_component].
  apply (ends_bind (fun no t => new_in s parent (fst no) t)).
  { destruct old as [o|]; [|apply (fresh_ends parent index k c s F I)]. apply (ends_bind _ _ _ _ _ (ends_get o s I)). intros ox t _ _ [-> N].
    assert (FRESH : ends (fun no t => new_in s parent (fst no) t) (fun f => bind (unmount f [o]) (fun _ => match parent with
        | Some p => bind (get_ms p) (fun pm => bind new_hook (fun h => bind (new_ms (make_component_ms p pm index k h c)) (fun n => ret (n, @None nat))))
        | None => raise EBadVdom
        end)) s).
    { apply (ends_bind anyway); [apply ends_unmount, I|]. intros _ t It Lt _. eapply ends_impl; [|apply (fresh_ends parent index k c t F It)]. intros no u [A B]. split; [lia|exact B]. }
    destruct (ms_lcs ox) as [[h oc]|] eqn:EL; [|exact FRESH]. destruct (eq_dec (ci_type oc) (ci_type c)); [|exact FRESH].
    destruct parent as [p|].
    - apply (ends_bind _ _ _ _ _ (ends_get p s I)). intros pm t _ _ [-> Np]. assert (B : p < length (s_heap s)) by (apply nth_error_Some; congruence).
      refine (ends_bind _ _ _ _ _ (ends_new (update_component_ms ox p pm index h c) s I eq_refl _) _); [intros h' c' [= <- <-]; exact F|]. intros n u Iu Lu (-> & _ & Bn). apply ends_ret; [exact Iu|]. split; [cbn; lia|]. intros p' [= <-]. exact B.
    - refine (ends_bind _ _ _ _ _ (ends_new (copy_component_ms ox h c) s I eq_refl _) _); [intros h' c' [= <- <-]; exact F|]. intros n u Iu Lu (-> & _ & Bn). apply ends_ret; [exact Iu|]. split; [cbn; lia|]. discriminate. }
  intros no t It Lt NI. apply (ends_bind _ _ _ _ _ (ends_get (fst no) t It)). intros nx u _ _ [-> N]. destruct (ms_lcs nx) as [[h oc]|]; [|apply ends_raise, It].
  apply (ends_bind (fun _ u => s_heap u = s_heap t)); [apply ends_quiet; [apply still_modify; reflexivity|exact It]|]. intros _ u Iu Lu Eu.
  apply (ends_bind (fun _ v => s_heap v = s_heap u)); [apply ends_quiet; [apply still_will|exact Iu]|]. intros _ v Iv Lv Ev.
  apply (ends_bind (fun _ w => s_heap w = s_heap v)); [apply ends_quiet; [apply still_modify; reflexivity|exact Iv]|]. intros _ w Iw Lw Ew.
  apply (ends_bind anyway); [|intros _ x Ix Lx _; apply ends_ret; [exact Ix|]; destruct NI as [[A B] C]; split; [rewrite Ew, Ev, Eu in Lx; lia|exact C]].
  assert (LN : fst no < length (s_heap w)) by (rewrite Ew, Ev, Eu; apply NI).
  apply ends_finally; [|apply still_did|intros; exact Logic.I]. apply ends_catch.
  - apply (ends_bind (fun _ x => s_heap x = s_heap w)); [apply ends_quiet; [apply still_log|exact Iw]|]. intros _ x Ix Lx Ex.
    apply (ends_bind (fun r y => may_show defs c r)).
    { apply ends_still; [apply still_body|exact Ix|]. intros r E. apply body_returns in E. destruct c as [[n|cx] kk p kids]; cbn in E |- *; [exact E|symmetry; exact E]. }
    intros r y Iy Ly R. apply (ends_bind anyway); [apply ends_quietly; [apply (still_log _)|exact Iy]|]. intros _ z Iz Lz _.
    apply (ends_bind anyway); [apply ends_change; [exact Iz|]; intros q Nq; split; [apply (Iz _ q Nq)|reflexivity]|]. intros _ z' Iz' Lz' _. apply children_end; [|exact Iz'|lia]. intros r' [<-|[]]. apply H, R.
  - intros e x Ix Lx. apply (ends_bind anyway); [apply ends_quietly; [apply (still_log _)|exact Ix]|]. intros _ z Iz Lz _. apply ends_change; [exact Iz|]. intros q Nq. split; [apply (Iz _ q Nq)|reflexivity].
Qed.
Lemma model_ends tag attrs hs js imp ch : (forall l r, ch = Some l -> In r l -> raw_ends r) -> kind_ends (DictChild (RElem tag attrs hs js imp ch)).
Proof.
  intros H old parent index k s I. eapply ends_succ; [intros f; reflexivity|]. cbn [render_model].
  assert (MK : forall t, fine (s_heap t) -> forall g, (forall pm, ms_children (g pm) = [] /\ ms_lcs (g pm) = None) -> forall o, ends (fun no u => length (s_heap t) <= fst no < length (s_heap u) /\ parent < fst no) (fun _ => bind (get_ms parent) (fun pm => bind (new_ms (g pm)) (fun n => ret (n, o : option nat)))) t).
  { intros t It g G o. apply (ends_bind _ _ _ _ _ (ends_get parent t It)). intros pm u _ _ [-> Np]. assert (B : parent < length (s_heap t)) by (apply nth_error_Some; congruence).
    refine (ends_bind _ _ _ _ _ (ends_new (g pm) t It (proj1 (G pm)) _) _); [intros h c; rewrite (proj2 (G pm)); discriminate|]. intros n u Iu Lu (-> & _ & Bn). apply ends_ret; [exact Iu|]. cbn. lia. }
  apply (ends_bind (fun no u => length (s_heap s) <= fst no < length (s_heap u) /\ parent < fst no)).
  { destruct old as [o|]; [|apply (MK s I (fun pm => make_element_ms parent pm index k)); auto]. apply (ends_bind _ _ _ _ _ (ends_get o s I)). intros ox t _ _ [-> N]. destruct (ms_lcs ox).
    - apply (ends_bind anyway); [apply ends_unmount, I|]. intros _ t It Lt _. eapply ends_impl; [|apply (MK t It (fun pm => make_element_ms parent pm index k)); auto]. cbn. intros no u. lia.
    - apply (MK s I (fun pm => update_element_ms ox parent pm index)); auto. }
  intros no t It Lt [A B]. apply (ends_bind anyway); [destruct (attr_key attrs); [apply ends_change; [exact It|]; intros q Nq; split; [apply (It _ q Nq)|reflexivity]|apply ends_ret; [exact It|exact Logic.I]]|]. intros _ u Iu Lu _.
  apply (ends_bind anyway); [apply attributes_end, Iu|]. intros _ v Iv Lv _. apply (ends_bind anyway); [apply children_end; [|exact Iv|lia]|intros _ w Iw Lw _; apply ends_ret; [exact Iw|]; split; [lia|intros p [= <-]; exact B]].
  destruct ch as [l|]; [intros r Hr; eapply H; eauto|intros r []].
Qed.
Lemma all_end r : fin r -> raw_ends r.
Proof.
  induction 1 as [|str|tag attrs hs js imp ch H IH|c H IH]; [exact Logic.I|exact Logic.I| |].
  - apply model_ends, IH.
  - apply component_ends; [constructor; exact H|exact IH].
Qed.
Lemma update_ends old s : fine (s_heap s) -> ends anyway (fun f => create_layout_update debug defs f old) s.
Proof.
  intros I. unfold create_layout_update. apply (ends_bind (fun _ u => s_heap u = s_heap s)); [apply ends_quiet; [apply still_modify; reflexivity|exact I]|]. intros _ t It Lt Et.
  apply (ends_bind (fun _ u => s_heap u = s_heap t)); [apply ends_quiet; [apply still_modify; reflexivity|exact It]|]. intros _ u Iu Lu Eu. apply ends_finally; [|apply still_modify; reflexivity|intros; exact Logic.I].
  apply (ends_bind _ _ _ _ _ (ends_get old u Iu)). intros ox v _ _ [-> N]. destruct (ms_lcs ox) as [[h c]|] eqn:EL; [|apply ends_raise, Iu]. assert (F : fin (RComp c)) by (apply (proj2 (Iu old ox N) h); exact EL).
  apply (ends_bind (fun _ v => s_heap v = s_heap u)); [apply ends_quiet; [apply still_parent|exact Iu]|]. intros parent v Iv Lv Ev.
  apply (ends_bind (fun n w => new_in v parent n w)).
  { apply ends_finally; [apply (all_end _ F); exact Iv|apply still_bind; [apply still_gets|intros; apply still_exit]|]. intros n w x Ex [A B]. split; [rewrite Ex; exact A|exact B]. }
  intros n w Iw Lw [A B]. apply (ends_bind _ _ _ _ _ (ends_get n w Iw)). intros nx x _ _ [-> Nn]. apply (ends_bind anyway); [|intros _ y Iy _ _; apply ends_ret; [exact Iy|exact Logic.I]].
  destruct parent as [p|]; [|apply ends_ret; [exact Iw|exact Logic.I]]. apply ends_change; [exact Iw|]. intros x Nx. destruct (ms_key nx) as [k|]; cbn; (split; [|reflexivity]).
  - intros k' n' HI. apply dset_in in HI. destruct HI as [[= -> ->]|HI]; [specialize (B p eq_refl); lia|apply (proj1 (Iw p x Nx) k' n' HI)].
  - apply (Iw p x Nx).
Qed.
Lemma serial_ends q : forall s, fine (s_heap s) -> ends anyway (fun f => serial_render debug defs f q) s.
Proof.
  induction q as [|h q IH]; intros s I; cbn [serial_render]; [apply ends_ret; [exact I|exact Logic.I]|].
  apply (ends_bind (fun _ u => s_heap u = s_heap s)); [apply ends_quiet; [apply still_modify; reflexivity|exact I]|]. intros _ t It _ _.
  apply (ends_bind (fun _ u => s_heap u = s_heap t)); [apply ends_quiet; [apply still_gets|exact It]|]. intros [m|] u Iu _ _.
  - apply (ends_bind anyway); [apply update_ends, Iu|]. intros x v Iv _ _. apply ends_ret; [exact Iv|exact Logic.I].
  - apply (ends_bind anyway); [apply ends_quietly; [apply (still_log _)|exact Iu]|]. intros _ v Iv _ _. apply IH, Iv.
Qed.
Lemma step_ends o s : fine (s_heap s) -> exists f0 t, (forall f, f0 <= f -> step debug defs f o s = Some t) /\ fine (s_heap t).
Proof.
  intros I. destruct o as [bs|e]; cbn [step]; [|exists 0, (env_step s e); split; [auto|rewrite env_heap; exact I]].
  destruct (serial_ends (s_queue s) (set_env bs s) I) as (f0 & r & t & E & It & _ & R). exists f0.
  destruct r as [[[p m]|]|e|]; [| | |contradiction]; (eexists; split; [intros f L; rewrite (E f L); reflexivity|exact It]).
Qed.
Lemma run_ends ops : forall s, fine (s_heap s) -> exists f0 t, (forall f, f0 <= f -> run debug defs f ops s = Some t) /\ fine (s_heap t).
Proof.
  induction ops as [|o ops IH]; intros s I; [exists 0, s; auto|]. destruct (step_ends o s I) as (f0 & t & E & It). destruct (IH t It) as (f1 & u & E' & Iu). exists (Nat.max f0 f1), u.
  split; [|exact Iu]. intros f L. cbn [run]. rewrite (E f) by lia. apply E'. lia.
Qed.
Lemma init_fine root : fin (RComp root) -> fine (s_heap (init root)).
Proof. intros F [|[|m]] x; cbn; intros [= <-]. split; [intros ? ? []|intros h c [= <- <-]; exact F]. Qed.
End Ends.

(** Every sequence of operations has a result: no [render()] of a program with finite nesting goes on for ever, whatever happened before and happens during it. *)
Theorem C116_renders_end : forall debug defs root ops, finite defs (RComp root) -> exists s, history debug defs root ops s.
Proof. intros debug defs root ops F. destruct (run_ends debug defs ops (init root) (init_fine defs root F)) as (f & t & E & _). exists t, f. apply E. lia. Qed.
(** There is only one, for all programs: the histories of the other properties do not depend on the fuel. *)
Theorem C116_one_result : forall debug defs root ops s s', history debug defs root ops s -> history debug defs root ops s' -> s = s'.
Proof.
  intros debug defs root ops s s' [f E] [f' E']. apply (up_run debug defs f (Nat.max f f')) in E; [|lia]. apply (up_run debug defs f' (Nat.max f f')) in E'; [|lia]. congruence.
Qed.
(** A history can always go on, and the layout can always be left: the unmounting ends. *)
Theorem C116_goes_on : forall debug defs root ops s, finite defs (RComp root) -> history debug defs root ops s ->
  (forall o, exists s', next debug defs s o s') /\ (forall bs, exists fuel r s', close fuel (set_env bs s) = (r, s') /\ r <> Fuel).
Proof.
  intros debug defs root ops s F H. destruct (run_ends debug defs ops (init root) (init_fine defs root F)) as (f & t & E & I).
  assert (s = t) as -> by (eapply C116_one_result; [exact H|exists f; apply E; lia]). split.
  - intros o. destruct (step_ends debug defs o t I) as (f1 & u & E1 & _). exists u, f1. apply E1. lia.
  - intros bs. unfold close, bind, gets. destruct (dget 0 (s_reg (set_env bs t))) as [m|]; [|exists 0, (Raise EKeyError), (set_env bs t); split; [reflexivity|discriminate]].
    destruct (ends_unmount defs [m] (set_env bs t) I) as (f1 & r & u & E1 & _ & _ & R). exists f1, r, u. split; [apply E1; lia|]. intros ->. exact R.
Qed.

(** Needed: a component that shows itself has no result. (In Python it ends with RecursionError, which is then shown as its error.) *)
Definition endless (n : nat) (_ : val) (_ : list raw) : body := BRet (RComp root0).
Definition stuck {A} (m : M A) (s : st) : Prop := fst (m s) = Fuel.
Lemma stuck_after {A B} (m : M A) (k : A -> M B) s a : fst (m s) = Ok a -> stuck (k a) (snd (m s)) -> stuck (bind m k) s.
Proof. unfold stuck, bind. destruct (m s) as [r t]. cbn. intros ->. auto. Qed.
Lemma stuck_bind {A B} (m : M A) (k : A -> M B) s : stuck m s -> stuck (bind m k) s.
Proof. unfold stuck, bind. destruct (m s) as [r t]. cbn. intros ->. reflexivity. Qed.
Lemma stuck_catch {A} (m : M A) h s : stuck m s -> stuck (catch m h) s.
Proof. unfold stuck, catch. destruct (m s) as [r t]. cbn. intros ->. reflexivity. Qed.
Lemma stuck_finally {A} (m : M A) h s : stuck m s -> stuck (finally m h) s.
Proof. unfold stuck, finally. destruct (m s) as [r t]. cbn. intros ->. reflexivity. Qed.
Definition passes (m : M unit) : Prop := forall s, fst (m s) = Ok tt /\ s_heap (snd (m s)) = s_heap s.
Lemma stuck_pass {B} (m : M unit) (k : unit -> M B) s : passes m -> (forall t, s_heap t = s_heap s -> stuck (k tt) t) -> stuck (bind m k) s.
Proof. intros P H. destruct (P s) as [E T]. apply (stuck_after _ _ _ tt E), H, T. Qed.
Lemma stuck_get {B} n x (k : mstate -> M B) s : nth_error (s_heap s) n = Some x -> stuck (k x) s -> stuck (bind (get_ms n) k) s.
Proof. intros N H. apply (stuck_after _ _ _ x); unfold get_ms; rewrite N; [reflexivity|exact H]. Qed.
Lemma stuck_change {B} n x g (k : unit -> M B) s : nth_error (s_heap s) n = Some x -> stuck (k tt) (set_heap (upd (s_heap s) n (g x)) s) -> stuck (bind (change_ms n g) k) s.
Proof. intros N H. apply (stuck_after _ _ _ tt); unfold change_ms, bind, get_ms; rewrite N; [reflexivity|exact H]. Qed.
Lemma passes_modify g : (forall s, s_heap (g s) = s_heap s) -> passes (modify g).
Proof. intros H s. split; [reflexivity|apply H]. Qed.
Lemma passes_will h : passes (will_render h).
Proof.
  intros s. split; [|apply still_will]. unfold will_render, set_current, modify, bind. destruct (pause s) as [r t] eqn:E.
  assert (r = Ok tt) as -> by (revert E; unfold pause; destruct (s_env s); intros [= <- _]; reflexivity). reflexivity.
Qed.
Definition bare (s : st) (old : option nat) : Prop := match old with Some o => exists x, nth_error (s_heap s) o = Some x /\ ms_children x = [] | None => True end.
Lemma endless_render debug f :
  (forall p i k s, p < length (s_heap s) -> stuck (render_component debug endless f None (Some p) i k root0) s) /\
  (forall old new s, new < length (s_heap s) -> bare s old -> (forall o, old = Some o -> o <> new) -> stuck (render_children debug endless f old new [RComp root0]) s) /\
  (forall old new s, new < length (s_heap s) -> bare s old -> stuck (render_child_list debug endless f old new 0 [(CompChild root0, KInt 0)]) s).
Proof.
  induction f as [|f (IC & IR & IL)]; [repeat split; intros; reflexivity|]. split; [|split].
  - intros p i k s B. cbn [render_component]. destruct (nth_error (s_heap s) p) as [pm|] eqn:N; [|apply nth_error_None in N; lia].
    set (s1 := set_hooks (s_hooks s ++ [no_hook]) s). set (x := make_component_ms p pm i k (length (s_hooks s)) root0). set (s2 := set_heap (s_heap s1 ++ [x]) s1).
    apply (stuck_after _ _ _ (length (s_heap s), None)); [unfold bind, get_ms; rewrite N; reflexivity|].
    match goal with |- stuck _ ?s' => assert (s' = s2) as -> by (unfold bind, get_ms; rewrite N; reflexivity) end. cbn [fst snd].
    assert (Nx : nth_error (s_heap s2) (length (s_heap s)) = Some x) by (cbn; rewrite nth_error_app2, Nat.sub_diag by lia; reflexivity).
    apply (stuck_get _ x _ _ Nx). cbn [ms_lcs x make_component_ms]. apply stuck_pass; [apply passes_modify; reflexivity|]. intros t3 E3. apply stuck_pass; [apply passes_will|]. intros t4 E4. apply stuck_pass; [apply passes_modify; reflexivity|]. intros t5 E5.
    apply stuck_bind, stuck_finally, stuck_catch. apply stuck_pass; [apply passes_modify; reflexivity|]. intros t6 E6. apply (stuck_after _ _ _ (RComp root0)); [reflexivity|]. apply stuck_pass; [apply passes_modify; reflexivity|]. intros t7 E7.
    assert (E : s_heap t7 = s_heap s2) by (rewrite E7; cbn; rewrite E6, E5, E4, E3; reflexivity). apply (stuck_change _ x); [rewrite E; exact Nx|]. apply IR; [cbn; rewrite upd_length, E; cbn; rewrite app_length; cbn; lia|exact Logic.I|discriminate].
  - intros old new s B H D. cbn [render_children]. destruct (nth_error (s_heap s) new) as [nx|] eqn:N; [|apply nth_error_None in N; lia].
    change (get_children_info [RComp root0]) with ([(CompChild root0, KInt 0)], Some [KInt 0]). cbn iota beta.
    apply (stuck_after _ _ s tt). { destruct old as [o|]; [|reflexivity]. destruct H as (x & E & C). unfold bind, get_ms. rewrite E. cbn. rewrite C. reflexivity. }
    match goal with |- stuck _ ?s' => assert (s' = s) as -> end. { destruct old as [o|]; [|reflexivity]. destruct H as (x & E & C). unfold bind, get_ms. rewrite E. cbn. rewrite C. reflexivity. }
    apply (stuck_change _ nx); [exact N|]. apply IL; [cbn; rewrite upd_length; exact B|]. destruct old as [o|]; [|exact Logic.I]. destruct H as (x & E & C). exists x. split; [|exact C]. cbn. rewrite nth_upd_other; [exact E|]. intros ->. exact (D _ eq_refl eq_refl).
  - intros old new s B H. cbn [render_child_list]. apply (stuck_after _ _ s None); [destruct old as [o|]; [|reflexivity]; destruct H as (x & E & C); unfold bind, get_ms; rewrite E; cbn; rewrite C; reflexivity|].
    match goal with |- stuck _ ?s' => assert (s' = s) as -> end. { destruct old as [o|]; [|reflexivity]. destruct H as (x & E & C). unfold bind, get_ms. rewrite E. reflexivity. }
    apply stuck_bind, stuck_bind. apply IC, B.
Qed.
Theorem C116_recursion_refuted : exists defs root, forall debug s, ~ history debug defs root [ORender []] s.
Proof.
  exists endless, root0. intros debug s [fuel E].
  assert (K : stuck (render_component debug endless fuel (Some 0) None 0 None root0) (set_exit [] (set_stack [] (set_queue [] (set_env [] (init root0)))))).
  { destruct fuel as [|f]; [reflexivity|]. cbn [render_component]. set (s1 := set_exit [] _). set (x := copy_component_ms (MState None 0 None [] "" empty_model [] [] (Some (0, root0))) 0 root0). set (s2 := set_heap (s_heap s1 ++ [x]) s1).
    apply (stuck_after _ _ _ (1, Some 0)); [reflexivity|]. match goal with |- stuck _ ?s' => change s' with s2 end. cbn [fst snd]. apply (stuck_get _ x); [reflexivity|]. cbn [ms_lcs x copy_component_ms].
    apply stuck_pass; [apply passes_modify; reflexivity|]. intros t3 E3. apply stuck_pass; [apply passes_will|]. intros t4 E4. apply stuck_pass; [apply passes_modify; reflexivity|]. intros t5 E5.
    apply stuck_bind, stuck_finally, stuck_catch. apply stuck_pass; [apply passes_modify; reflexivity|]. intros t6 E6. apply (stuck_after _ _ _ (RComp root0)); [reflexivity|]. apply stuck_pass; [apply passes_modify; reflexivity|]. intros t7 E7.
    assert (E' : s_heap t7 = s_heap s2) by (rewrite E7; cbn; rewrite E6, E5, E4, E3; reflexivity). apply (stuck_change _ x); [rewrite E'; reflexivity|]. apply endless_render; [cbn; rewrite upd_length, E'; cbn; lia| |intros o [= <-]; discriminate].
    eexists. cbn. rewrite E'. split; reflexivity. }
  assert (U : stuck (serial_render debug endless fuel [0]) (set_env [] (init root0))).
  { cbn [serial_render]. apply (stuck_after _ _ _ tt); [reflexivity|]. apply (stuck_after _ _ _ (Some 0)); [reflexivity|]. apply stuck_bind. unfold create_layout_update. apply (stuck_after _ _ _ tt); [reflexivity|]. apply (stuck_after _ _ _ tt); [reflexivity|].
    apply stuck_finally. eapply stuck_get; [reflexivity|]. cbn [ms_lcs]. apply (stuck_after _ _ _ None); [reflexivity|]. apply stuck_bind, stuck_finally. exact K. }
  revert E U. unfold stuck. cbn [run step]. change (s_queue (init root0)) with [0]. destruct (serial_render debug endless fuel [0] (set_env [] (init root0))) as [r t]. cbn. intros E ->. discriminate E.
Qed.

(** A tree of components whose depth is a value of the state is finite: no depth is the largest one. *)
Definition tree (n : nat) (p : val) (_ : list raw) : body :=
  match n with
  | 0 => BUseCell (CState VNone) (fun h i c => BRet (RComp (Cinst (CTUser 1) None (match c with CState v => v | _ => VNone end) [])))
  | _ => match p with VInt z => if (0 <? z)%Z then BRet (elem "li" [] [RComp (Cinst (CTUser 1) None (VInt (z - 1)) [])]) else BRet RNone | _ => BRet RNone end
  end.
Example C116_nonvacuous : finite tree (RComp root0).
Proof.
  assert (T : forall k z, (z <= Z.of_nat k)%Z -> finite tree (RComp (Cinst (CTUser 1) None (VInt z) []))).
  { induction k as [|k IH]; intros z L; constructor; intros r; cbn; destruct (Z.ltb_spec 0 z) as [B|B]; cbn; intros <-; try (apply FinNone); [lia|]. constructor. intros l r [= <-] [<-|[]]. apply IH. lia. }
  constructor. intros r. cbn. intros (h & i & c & <-). destruct c as [v|ds o|v|v]; try (constructor; cbn; intros ? <-; apply FinNone). destruct v; try (constructor; cbn; intros ? <-; apply FinNone). apply (T (Z.to_nat z)). lia.
Qed.
Print Assumptions C116_renders_end.
Print Assumptions C116_one_result.
Print Assumptions C116_goes_on.
Print Assumptions C116_recursion_refuted.
