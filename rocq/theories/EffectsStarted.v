(** * Every effect a render registers is started (C13)

    For the complete layout model (LayoutModel.v) and all histories, whatever raises in them. *)
From Coq Require Import String Bool Arith Lia List ZArith.
From Verif Require Import Dict LayoutTypes LayoutModel LayoutObs LayoutTree LayoutDeriv LayoutHistory.
Import ListNotations.
Local Open Scope list_scope.

(** ** Specification *)
(** [registers h b es]: one way through the render function [b], called for hook [h], registers the effects [es], in that order. What hooks
    and contexts give to the function is left open. *)
Inductive registers (h : nat) : body -> list effect -> Prop :=
| reg_return r : registers h (BRet r) []
| reg_raise msg : registers h (BRaise msg) []
| reg_missing init k : registers h (BUseCell init k) []
| reg_cell init k i c es : registers h (k h i c) es -> registers h (BUseCell init k) es
| reg_set i c k es : registers h k es -> registers h (BSetCell i c k) es
| reg_effect e k es : registers h k es -> registers h (BAddEffect e k) (e :: es)
| reg_context c k v es : registers h (k v) es -> registers h (BContext c k) es
| reg_provide c v k es : registers h k es -> registers h (BProvide c v k) es
| reg_dispatch h' i u k es : registers h k es -> registers h (BDispatch h' i u k) es.
(** The number of renders of [h] since its effects were last started. *)
Definition unstarted (h : nat) (l : list event) : nat :=
  fold_left (fun n e => match e with
                        | EvRender x => if Nat.eqb x h then S n else n
                        | EvEffects x _ => if Nat.eqb x h then 0 else n
                        | _ => n
                        end) l 0.

Section Started.
Variable debug : bool.
Variable defs : nat -> val -> list raw -> body.
(** What [n] renders of components register. *)
Inductive of_renders (h : nat) : nat -> list effect -> Prop :=
| of_none : of_renders h 0 []
| of_more n es c fs : of_renders h n es -> registers h (render_fn defs c) fs -> of_renders h (S n) (es ++ fs).

(** ** Proof *)
Notation effects h s := (hk_effects (get_hook h s)).
Notation len s := (length (s_hooks s)).
Definition J (s : st) : Prop :=
  (forall h, of_renders h (unstarted h (s_log s)) (effects h s)) /\
  (forall a h fs b, s_log s = a ++ EvEffects h fs :: b -> of_renders h (unstarted h a) fs) /\
  (forall m x h c, nth_error (s_heap s) m = Some x -> ms_lcs x = Some (h, c) -> h < len s).
Definition V (n : nat) (x : mstate) : Prop := forall h c, ms_lcs x = Some (h, c) -> h < n.
Lemma V_mono n n' x : n <= n' -> V n x -> V n' x.
Proof. intros L H h c E. specialize (H h c E). lia. Qed.
Definition tri {A} (n : nat) (m : M A) (Q : nat -> A -> Prop) : Prop :=
  forall s, J s -> n <= len s -> J (snd (m s)) /\ len s <= len (snd (m s)) /\ forall a, fst (m s) = Ok a -> Q (len (snd (m s))) a.
Definition any {A} : nat -> A -> Prop := fun _ _ => True.

Lemma tri_bind {A B} n (m : M A) (k : A -> M B) Q Q' : tri n m Q -> (forall n' a, n <= n' -> Q n' a -> tri n' (k a) Q') -> tri n (bind m k) Q'.
Proof.
  intros H K s I L. destruct (H s I L) as (I1 & L1 & Q1). unfold bind. destruct (m s) as [[a|e|] t]; cbn [fst snd] in *; [|split; [exact I1|split; [exact L1|discriminate]]..].
  destruct (K (len t) a ltac:(lia) (Q1 a eq_refl) t I1 ltac:(lia)) as (I2 & L2 & Q2). split; [exact I2|]. split; [lia|exact Q2].
Qed.
Lemma tri_catch {A} n (m : M A) k Q : tri n m Q -> (forall n' e, n <= n' -> tri n' (k e) Q) -> tri n (catch m k) Q.
Proof.
  intros H K s I L. destruct (H s I L) as (I1 & L1 & Q1). unfold catch. destruct (m s) as [[a|e|] t]; cbn [fst snd] in *; [split; [exact I1|split; [exact L1|exact Q1]]| |split; [exact I1|split; [exact L1|discriminate]]].
  destruct (K (len t) e ltac:(lia) t I1 ltac:(lia)) as (I2 & L2 & Q2). split; [exact I2|]. split; [lia|exact Q2].
Qed.
Lemma tri_finally {A} n (m : M A) k (Q : nat -> A -> Prop) : (forall n n' a, n <= n' -> Q n a -> Q n' a) -> tri n m Q -> (forall n', n <= n' -> tri n' k any) -> tri n (finally m k) Q.
Proof.
  intros Mo H K s I L. destruct (H s I L) as (I1 & L1 & Q1). unfold finally. destruct (m s) as [[a|e|] t]; cbn [fst snd] in *; [| |split; [exact I1|split; [exact L1|discriminate]]].
  - destruct (K (len t) ltac:(lia) t I1 ltac:(lia)) as (I2 & L2 & _). destruct (k t) as [[x|e|] u]; cbn [fst snd] in *; (split; [exact I2|split; [lia|]]); [intros b [= <-]; exact (Mo _ _ _ L2 (Q1 a eq_refl))|discriminate..].
  - destruct (K (len t) ltac:(lia) t I1 ltac:(lia)) as (I2 & L2 & _). destruct (k t) as [[x|e'|] u]; cbn [fst snd] in *; (split; [exact I2|split; [lia|discriminate]]).
Qed.
Lemma tri_ret {A} n (a : A) (Q : nat -> A -> Prop) : (forall n', n <= n' -> Q n' a) -> tri n (ret a) Q.
Proof. intros H s I L. split; [exact I|]. split; [apply le_n|]. intros b [= <-]. apply H, L. Qed.
Lemma tri_raise {A} n e Q : tri n (@raise A e) Q.
Proof. intros s I L. split; [exact I|]. split; [apply le_n|discriminate]. Qed.
Lemma tri_fuel {A} n Q : tri n (@no_fuel A) Q.
Proof. intros s I L. split; [exact I|]. split; [apply le_n|discriminate]. Qed.
Lemma tri_gets {A} n (f : st -> A) : tri n (gets f) any.
Proof. intros s I L. split; [exact I|]. split; [apply le_n|]. intros; exact Logic.I. Qed.
Lemma tri_any {A} n (m : M A) Q : tri n m Q -> tri n m any.
Proof. intros H s I L. destruct (H s I L) as (I1 & L1 & _). split; [exact I1|]. split; [exact L1|]. intros; exact Logic.I. Qed.

(** Steps that leave effects, heap and log alone. *)
Definition alike (s t : st) : Prop := s_log t = s_log s /\ s_heap t = s_heap s /\ len t = len s /\ forall h, effects h t = effects h s.
Lemma alike_refl s : alike s s.
Proof. repeat split. Qed.
Lemma alike_trans s t u : alike s t -> alike t u -> alike s u.
Proof. intros (A1 & A2 & A3 & A4) (B1 & B2 & B3 & B4). split; [congruence|]. split; [congruence|]. split; [congruence|]. intros h. rewrite B4. apply A4. Qed.
Lemma alike_J s t : alike s t -> J s -> J t.
Proof. intros (A1 & A2 & A3 & A4) (J1 & J2 & J3). unfold J. rewrite A1, A2, A3. split; [intros h; rewrite A4; apply J1|]. split; [exact J2|exact J3]. Qed.
Lemma nth_other {A} (l : list A) i j x d : i <> j -> nth j (upd l i x) d = nth j l d.
Proof. intros D. rewrite <- !nth_default_eq. unfold nth_default. rewrite nth_upd_other by exact D. reflexivity. Qed.
Lemma put_alike h x s : hk_effects x = effects h s -> alike s (put_hook h x s).
Proof.
  intros E. unfold put_hook, alike. cbn [s_log s_heap s_hooks set_hooks]. rewrite upd_length. repeat split. intros k. unfold get_hook. cbn [s_hooks set_hooks].
  destruct (Nat.eq_dec h k) as [->|D].
  - destruct (Nat.lt_ge_cases k (len s)) as [L|L]; [|rewrite !nth_overflow by (rewrite ?upd_length; exact L); reflexivity].
    rewrite (nth_error_nth _ _ _ (nth_upd_same _ _ x L)). exact E.
  - rewrite nth_other by exact D. reflexivity.
Qed.
Lemma tri_modify n f : (forall s, alike s (f s)) -> tri n (modify f) any.
Proof. intros H s I L. cbn. destruct (H s) as (A1 & A2 & A3 & A4). split; [apply (alike_J s); [apply H|exact I]|]. split; [lia|]. intros; exact Logic.I. Qed.
Lemma schedule_alike h s : alike s (schedule_render h s).
Proof. unfold schedule_render. destruct (hk_sched _); [apply alike_refl|]. eapply alike_trans; [apply (put_alike h (Hook (hk_cells (get_hook h s)) (hk_idx (get_hook h s)) (hk_once (get_hook h s)) true (effects h s) (hk_ctx (get_hook h s)))); reflexivity|repeat split]. Qed.
Lemma dispatch_alike h i u s : alike s (dispatch h i u s).
Proof.
  unfold dispatch. cbv zeta. destruct (nth_error _ _) as [[]|]; try apply alike_refl. destruct (veq _ _); [apply alike_refl|]. eapply alike_trans; [|apply schedule_alike]. apply put_alike. reflexivity.
Qed.
Lemma env_alike s o : alike s (env_step s o).
Proof. destruct o as [h i u|t z]; cbn [env_step]; [apply dispatch_alike|]. unfold record_seq. destruct (0 <=? z)%Z; [|apply alike_refl]. destruct (_ <? z)%Z; repeat split. Qed.
Lemma envs_alike l : forall s, alike s (fold_left env_step l s).
Proof. induction l as [|o l IH]; intros s; [apply alike_refl|]. cbn [fold_left]. eapply alike_trans; [apply env_alike|apply IH]. Qed.
Lemma tri_pause n : tri n pause any.
Proof. apply tri_modify. intros s. destruct (s_env s) as [|b bs]; [apply alike_refl|]. eapply alike_trans; [|apply envs_alike]. repeat split. Qed.

(** Entries of the log. *)
Definition calm (e : event) : Prop := match e with EvRender _ | EvEffects _ _ => False | _ => True end.
Lemma unstarted_snoc h l e : unstarted h (l ++ [e]) = match e with EvRender x => if Nat.eqb x h then S (unstarted h l) else unstarted h l | EvEffects x _ => if Nat.eqb x h then 0 else unstarted h l | _ => unstarted h l end.
Proof. unfold unstarted. rewrite fold_left_app. reflexivity. Qed.
Lemma unstarted_calm h l e : calm e -> unstarted h (l ++ [e]) = unstarted h l.
Proof. intros C. rewrite unstarted_snoc. destruct e; auto; contradiction. Qed.
Lemma snoc_split {A} (l : list A) e a x b : l ++ [e] = a ++ x :: b -> (b = [] /\ a = l /\ x = e) \/ exists b', b = b' ++ [e] /\ l = a ++ x :: b'.
Proof.
  destruct b as [|y b] using rev_ind; intros H; [apply app_inj_tail in H; destruct H as [-> ->]; auto|]. clear IHb. right. exists b.
  rewrite app_comm_cons, app_assoc in H. apply app_inj_tail in H. destruct H as [-> ->]. auto.
Qed.
Lemma log_J s e : calm e -> J s -> J (set_log (s_log s ++ [e]) s).
Proof.
  intros C (J1 & J2 & J3). split; [intros h; cbn [s_log set_log]; rewrite unstarted_calm by exact C; apply J1|]. split; [|exact J3].
  intros a h fs b E. cbn [s_log set_log] in E. apply snoc_split in E. destruct E as [(_ & _ & E)|(b' & _ & E)]; [subst e; contradiction|exact (J2 a h fs b' E)].
Qed.
Lemma tri_log n e : calm e -> tri n (log e) any.
Proof. intros C s I L. cbn. split; [apply log_J; assumption|]. split; [apply le_n|]. intros; exact Logic.I. Qed.

(** The heap. *)
Lemma heap_J s hp : J s -> (forall m x, nth_error hp m = Some x -> V (len s) x) -> J (set_heap hp s).
Proof. intros (J1 & J2 & J3) H. split; [exact J1|]. split; [exact J2|]. intros m x h c N E. exact (H m x N h c E). Qed.
Lemma tri_get n m : tri n (get_ms m) V.
Proof. intros s I L. unfold get_ms. destruct (nth_error (s_heap s) m) as [x|] eqn:E; cbn; (split; [exact I|split; [apply le_n|]]); [|discriminate]. intros y [= <-] h c. apply I with m. exact E. Qed.
Lemma tri_put n m x : V n x -> tri n (put_ms m x) any.
Proof.
  intros H s I L. cbn. split; [|split; [apply le_n|intros; exact Logic.I]]. apply heap_J; [exact I|]. intros j y N. destruct (Nat.eq_dec m j) as [->|D].
  - assert (B : j < length (s_heap s)) by (rewrite <- (upd_length (s_heap s) j x); apply nth_error_Some; congruence). rewrite nth_upd_same in N by exact B. injection N as <-. exact (V_mono _ _ _ L H).
  - rewrite nth_upd_other in N by exact D. intros h c. apply I with j. exact N.
Qed.
Lemma tri_change n m g : (forall x, ms_lcs (g x) = ms_lcs x) -> tri n (change_ms m g) any.
Proof. intros H. unfold change_ms. eapply tri_bind; [apply tri_get|]. intros n' x L X. apply tri_put. intros h c. rewrite H. apply X. Qed.
Lemma tri_new n x : V n x -> tri n (new_ms x) any.
Proof.
  intros H s I L. cbn. split; [|split; [apply le_n|intros; exact Logic.I]]. apply heap_J; [exact I|]. intros j y N. destruct (Nat.lt_ge_cases j (length (s_heap s))) as [B|B].
  - rewrite nth_error_app1 in N by exact B. intros h c. apply I with j. exact N.
  - rewrite nth_error_app2 in N by exact B. destruct (j - length (s_heap s)) as [|i]; [|destruct i; discriminate]. injection N as <-. exact (V_mono _ _ _ L H).
Qed.
Lemma tri_hook n : tri n new_hook (fun n h => h < n).
Proof.
  intros s (J1 & J2 & J3) L. cbn. rewrite app_length. cbn [length]. split; [|split; [lia|intros h [= <-]; lia]].
  split; [|split; [exact J2|]].
  - intros h. cbn [s_log set_hooks]. unfold get_hook. cbn [s_hooks set_hooks]. destruct (Nat.lt_ge_cases h (len s)) as [B|B].
    + rewrite app_nth1 by exact B. apply J1.
    + rewrite app_nth2 by exact B. specialize (J1 h). unfold get_hook in J1. rewrite nth_overflow in J1 by exact B. destruct (h - len s) as [|[|j]]; exact J1.
  - intros m x h c N E. cbn [s_hooks set_hooks]. rewrite app_length. specialize (J3 m x h c N E). lia.
Qed.

(** Running a render function. *)
Lemma body_effects h b : forall s, h < len s -> let t := snd (run_body h b s) in
  exists es, registers h b es /\ effects h t = effects h s ++ es /\ (forall x, x <> h -> effects x t = effects x s) /\ s_log t = s_log s /\ s_heap t = s_heap s /\ len t = len s.
Proof.
  assert (AL : forall s t k, alike s t -> h < len s -> (forall s, h < len s -> let t := snd (run_body h k s) in
      exists es, registers h k es /\ effects h t = effects h s ++ es /\ (forall x, x <> h -> effects x t = effects x s) /\ s_log t = s_log s /\ s_heap t = s_heap s /\ len t = len s) ->
    exists es, registers h k es /\ effects h (snd (run_body h k t)) = effects h s ++ es /\ (forall x, x <> h -> effects x (snd (run_body h k t)) = effects x s) /\ s_log (snd (run_body h k t)) = s_log s /\ s_heap (snd (run_body h k t)) = s_heap s /\ len (snd (run_body h k t)) = len s).
  { intros s t k (A1 & A2 & A3 & A4) L IH. destruct (IH t ltac:(lia)) as (es & R & E1 & E2 & E3 & E4 & E5). exists es. split; [exact R|].
    rewrite E1, A4. split; [reflexivity|]. split; [intros x D; rewrite E2 by exact D; apply A4|]. repeat split; congruence. }
  induction b as [r|msg|c k IH|i c k IH|e k IH|c k IH|c v k IH|h' i u k IH]; intros s L; cbn [run_body].
  - exists []. cbn. rewrite app_nil_r. repeat split. constructor.
  - exists []. cbn. rewrite app_nil_r. repeat split. constructor.
  - unfold bind, use_cell. cbv zeta. destruct (hk_once (get_hook h s)).
    + destruct (nth_error _ _) as [x|]; cbn [fst snd].
      * match goal with |- context [run_body h _ ?t] => assert (A : alike s t) by (first [apply dispatch_alike|apply put_alike; reflexivity]); destruct (AL s t _ A L (IH h (hk_idx (get_hook h s)) x)) as (es & R & E) end. exists es. split; [econstructor; exact R|exact E].
      * exists []. rewrite app_nil_r. repeat split. constructor.
    + cbn [fst snd]. match goal with |- context [run_body h _ ?t] => assert (A : alike s t) by (first [apply dispatch_alike|apply put_alike; reflexivity]); destruct (AL s t _ A L (IH h (length (hk_cells (get_hook h s))) c)) as (es & R & E) end. exists es. split; [econstructor; exact R|exact E].
  - unfold bind, modify. match goal with |- context [run_body h _ ?t] => assert (A : alike s t) by (first [apply dispatch_alike|apply put_alike; reflexivity]); destruct (AL s t _ A L IH) as (es & R & E) end. exists es. split; [constructor; exact R|exact E].
  - unfold bind, modify. set (t := add_effect h e s). 
    assert (T : effects h t = effects h s ++ [e] /\ (forall x, x <> h -> effects x t = effects x s) /\ s_log t = s_log s /\ s_heap t = s_heap s /\ len t = len s).
    { unfold t, add_effect, put_hook. cbv zeta. cbn [s_log s_heap s_hooks set_hooks]. rewrite upd_length. split; [|split; [|repeat split]].
      - unfold get_hook at 1. cbn [s_hooks set_hooks]. rewrite (nth_error_nth _ _ _ (nth_upd_same _ _ _ L)). reflexivity.
      - intros x D. unfold get_hook. cbn [s_hooks set_hooks]. rewrite nth_other by congruence. reflexivity. }
    destruct T as (T1 & T2 & T3 & T4 & T5). destruct (IH t ltac:(lia)) as (es & R & E1 & E2 & E3 & E4 & E5). exists (e :: es). split; [constructor; exact R|].
    rewrite E1, T1, <- app_assoc. split; [reflexivity|]. split; [intros x D; rewrite E2, T2 by exact D; reflexivity|]. repeat split; congruence.
  - unfold bind, gets. destruct (IH (dget c (hk_ctx (get_hook h s))) s L) as (es & R & E). exists es. split; [econstructor; exact R|exact E].
  - unfold bind, modify. match goal with |- context [run_body h _ ?t] => assert (A : alike s t) by (first [apply dispatch_alike|apply put_alike; reflexivity]); destruct (AL s t _ A L IH) as (es & R & E) end. exists es. split; [constructor; exact R|exact E].
  - unfold bind, modify. match goal with |- context [run_body h _ ?t] => assert (A : alike s t) by (first [apply dispatch_alike|apply put_alike; reflexivity]); destruct (AL s t _ A L IH) as (es & R & E) end. exists es. split; [constructor; exact R|exact E].
Qed.
Lemma tri_render {A} n h c (k : raw -> M A) Q : h < n -> (forall n' r, n <= n' -> tri n' (k r) Q) -> tri n (bind (log (EvRender h)) (fun _ => bind (run_body h (render_fn defs c)) k)) Q.
Proof.
  intros B K s (J1 & J2 & J3) L. set (s1 := set_log (s_log s ++ [EvRender h]) s).
  destruct (body_effects h (render_fn defs c) s1 ltac:(cbn; lia)) as (es & R & E1 & E2 & E3 & E4 & E5).
  assert (I2 : J (snd (run_body h (render_fn defs c) s1))).
  { unfold J. rewrite E3, E4, E5. split; [|split; [|exact J3]].
    - intros x. cbn [s1 s_log set_log]. rewrite unstarted_snoc. destruct (Nat.eqb_spec h x) as [->|D].
      + rewrite E1. apply of_more with c; [apply J1|exact R].
      + rewrite E2 by congruence. apply J1.
    - intros a x fs b E. cbn [s1 s_log set_log] in E. apply snoc_split in E. destruct E as [(_ & _ & E)|(b' & _ & E)]; [discriminate|exact (J2 a x fs b' E)]. }
  assert (EQ : bind (log (EvRender h)) (fun _ => bind (run_body h (render_fn defs c)) k) s = bind (run_body h (render_fn defs c)) k s1) by reflexivity. rewrite EQ. clear EQ. unfold bind.
  destruct (run_body h (render_fn defs c) s1) as [[r|e|] t]; cbn [fst snd] in *; [|assert (E6 : len t = len s) by exact E5; split; [exact I2|split; [lia|discriminate]]..].
  assert (E6 : len t = len s) by exact E5. destruct (K (len t) r ltac:(lia) t I2 ltac:(lia)) as (I3 & L3 & Q3). split; [exact I3|]. split; [lia|exact Q3].
Qed.
(** Starting the effects. *)
Lemma tri_start n h : tri n (layout_did_render h) any.
Proof.
  intros s (J1 & J2 & J3) L. unfold layout_did_render. cbv zeta. set (x := Hook _ _ _ _ _ _). cbn. rewrite upd_length. split; [|split; [apply le_n|intros; exact Logic.I]].
  split; [|split].
  - intros k. cbn [s_log set_log put_hook set_hooks]. rewrite unstarted_snoc. unfold get_hook. cbn [s_hooks set_log put_hook set_hooks]. destruct (Nat.eqb_spec h k) as [->|D].
    + replace (hk_effects (nth k (upd (s_hooks s) k x) no_hook)) with (@nil effect); [constructor|]. destruct (Nat.lt_ge_cases k (len s)) as [B|B].
      * rewrite (nth_error_nth _ _ _ (nth_upd_same _ _ x B)). reflexivity.
      * rewrite nth_overflow by (rewrite upd_length; exact B). reflexivity.
    + rewrite nth_other by exact D. apply J1.
  - intros a k fs b E. cbn [s_log set_log put_hook set_hooks] in E. apply snoc_split in E. destruct E as [(_ & -> & [= -> ->])|(b' & _ & E)]; [apply J1|exact (J2 a k fs b' E)].
  - intros m y k c N E. cbn [s_hooks set_log put_hook set_hooks]. rewrite upd_length. exact (J3 m y k c N E).
Qed.

(** The layout's functions. *)
Lemma tri_weaken {A} n n' (m : M A) Q : n <= n' -> tri n m Q -> tri n' m Q.
Proof. intros L H s I L'. apply H; [exact I|lia]. Qed.
Lemma tri_alike {A} n (m : M A) : (forall s, alike s (snd (m s))) -> tri n m any.
Proof. intros H s I L. destruct (H s) as (A1 & A2 & A3 & A4). split; [apply (alike_J s); [apply H|exact I]|]. split; [lia|]. intros; exact Logic.I. Qed.
Lemma tri_del n ts : tri n (del_handlers ts) any.
Proof. apply tri_alike. induction ts as [|t ts IH]; intros s; [apply alike_refl|]. cbn [del_handlers]. destruct (dmem t (s_eh s)); [|apply alike_refl]. eapply alike_trans; [|apply IH]. repeat split. Qed.
Lemma tri_del_reg n h : tri n (del_reg h) any.
Proof. apply tri_alike. intros s. unfold del_reg. destruct (dmem h (s_reg s)); repeat split. Qed.
Lemma tri_set_current n h : tri n (set_current h) any.
Proof.
  apply tri_modify. intros s. cbv zeta. destruct (s_stack s) as [|p l]; [repeat split|]. eapply alike_trans; [|split; [reflexivity|split; [reflexivity|split; reflexivity]]]. apply put_alike. reflexivity.
Qed.
Lemma tri_will n h : tri n (will_render h) any.
Proof.
  unfold will_render. eapply tri_bind; [apply tri_pause|]. intros n1 _ L1 _. eapply tri_bind; [apply tri_modify; intros s; apply put_alike; reflexivity|]. intros n2 _ L2 _. apply tri_set_current.
Qed.
Lemma tri_did n h : tri n (did_render h) any.
Proof.
  unfold did_render. eapply tri_bind; [|intros n1 _ L1 _; apply tri_modify; intros s; apply put_alike; reflexivity].
  apply tri_alike. intros s. unfold unset_current. destruct (s_stack s) as [|p l]; [apply alike_refl|]. destruct (Nat.eq_dec p h); repeat split.
Qed.
Lemma tri_unmount f : forall n stk, tri n (unmount f stk) any.
Proof.
  induction f as [|f IH]; intros n stk; cbn [unmount]; [apply tri_fuel|]. destruct stk as [|m stk]; [apply tri_ret; intros; exact Logic.I|].
  eapply tri_bind; [apply tri_get|]. intros n1 x _ _. eapply tri_bind; [apply tri_del|]. intros n2 _ _ _. eapply (tri_bind _ _ _ any); [|intros n3 _ _ _; apply IH].
  destruct (ms_lcs x) as [[h c]|]; [|apply tri_ret; intros; exact Logic.I]. eapply tri_bind; [apply tri_del_reg|]. intros n3 _ _ _.
  unfold will_unmount. eapply tri_bind; [apply tri_log; exact Logic.I|]. intros n4 _ _ _. apply tri_pause.
Qed.
Lemma tri_register m l : forall n, tri n (register_handlers m l) any.
Proof.
  induction l as [|[ev h] l IH]; intros n; cbn [register_handlers]; [apply tri_ret; intros; exact Logic.I|]. eapply tri_bind; [apply tri_get|]. intros n1 x _ X. cbv zeta.
  eapply tri_bind; [apply tri_put; intros k c; apply X|]. intros n2 _ _ _. eapply tri_bind; [apply tri_modify; intros s; repeat split|]. intros n3 _ _ _.
  eapply tri_bind; [apply IH|]. intros n4 js _ _. apply tri_ret; intros; exact Logic.I.
Qed.
Lemma tri_attributes n old new tag attrs hs js imp : tri n (render_attributes old new tag attrs hs js imp) any.
Proof.
  unfold render_attributes. eapply (tri_bind _ _ _ any).
  { destruct old as [o|]; [|apply tri_ret; intros; exact Logic.I]. eapply tri_bind; [apply tri_get|]. intros n1 x _ _. apply tri_del. }
  intros n1 _ _ _. eapply (tri_bind _ _ _ any).
  { destruct hs as [|h hs]; [apply tri_ret; intros; exact Logic.I|]. eapply tri_bind; [apply tri_register|]. intros n2 l _ _. apply tri_ret; intros; exact Logic.I. }
  intros n2 ehs _ _. eapply tri_bind; [apply tri_get|]. intros n3 x _ X. eapply tri_bind; [apply tri_gets|]. intros n4 seqs L _. cbv zeta. apply tri_put. intros h c E. specialize (X h c E). lia.
Qed.
Lemma tri_all f :
  (forall n old parent i k c, tri n (render_component debug defs f old parent i k c) any) /\
  (forall n old parent i k r, tri n (render_model debug defs f old parent i k r) any) /\
  (forall n old new l, tri n (render_children debug defs f old new l) any) /\
  (forall n old new i l, tri n (render_child_list debug defs f old new i l) any).
Proof.
  induction f as [|f (IC & IM & IK & IL)]; [split; [|split; [|split]]; intros; apply tri_fuel|].
  split; [|split; [|split]].
  - intros n old parent i k c. cbn [render_component]. cbv zeta.
    assert (FRESH : forall n, tri n (match parent with Some p => bind (get_ms p) (fun pm => bind new_hook (fun h => bind (new_ms (make_component_ms p pm i k h c)) (fun n => ret (n, @None nat)))) | None => raise EBadVdom end) any).
    { intros n0. destruct parent as [p|]; [|apply tri_raise]. eapply tri_bind; [apply tri_get|]. intros n1 pm _ _. eapply tri_bind; [apply tri_hook|]. intros n2 h _ H.
      eapply tri_bind; [apply tri_new; intros h' c' [= <- _]; exact H|]. intros n3 m _ _. apply tri_ret; intros; exact Logic.I. }
    eapply (tri_bind _ _ _ any).
    { destruct old as [o|]; [|apply FRESH]. eapply tri_bind; [apply tri_get|]. intros n1 ox L1 X. destruct (ms_lcs ox) as [[h oc]|] eqn:E.
      - destruct (eq_dec (ci_type oc) (ci_type c)).
        + assert (B : h < n1) by (apply (X h oc E)). destruct parent as [p|].
          * eapply tri_bind; [apply tri_get|]. intros n2 pm L2 _. eapply tri_bind; [apply tri_new; intros h' c' [= <- _]; lia|]. intros n3 m _ _. apply tri_ret; intros; exact Logic.I.
          * eapply tri_bind; [apply tri_new; intros h' c' [= <- _]; lia|]. intros n3 m _ _. apply tri_ret; intros; exact Logic.I.
        + eapply tri_bind; [apply tri_unmount|]. intros n2 _ _ _. apply FRESH.
      - eapply tri_bind; [apply tri_unmount|]. intros n2 _ _ _. apply FRESH. }
    intros n1 no _ _. eapply tri_bind; [apply tri_get|]. intros n2 nx _ X. destruct (ms_lcs nx) as [[h oc]|] eqn:E; [|apply tri_raise]. assert (B : h < n2) by (apply (X h oc E)).
    eapply tri_bind; [apply tri_modify; intros s; repeat split|]. intros n3 _ L3 _. eapply tri_bind; [apply tri_will|]. intros n4 _ L4 _. eapply tri_bind; [apply tri_modify; intros s; repeat split|]. intros n5 _ L5 _.
    eapply (tri_bind _ _ _ any); [|intros; apply tri_ret; intros; exact Logic.I]. apply tri_finally; [intros; exact Logic.I| |intros; apply tri_did].
    apply tri_catch.
    + apply tri_render; [lia|]. intros n6 r _. eapply tri_bind; [apply tri_log; exact Logic.I|]. intros n7 _ _ _. eapply tri_bind; [apply tri_change; reflexivity|]. intros n8 _ _ _. apply IK.
    + intros n6 e _. eapply tri_bind; [apply tri_log; exact Logic.I|]. intros n7 _ _ _. apply tri_change; reflexivity.
  - intros n old parent i k r. cbn [render_model]. destruct r as [| |tag attrs hs js imp children|]; try apply tri_raise.
    assert (ELEM : forall n, tri n (bind (get_ms parent) (fun pm => bind (new_ms (make_element_ms parent pm i k)) (fun n => ret (n, @None nat)))) any).
    { intros n0. eapply tri_bind; [apply tri_get|]. intros n1 pm _ _. eapply tri_bind; [apply tri_new; intros h' c'; discriminate|]. intros n3 m _ _. apply tri_ret; intros; exact Logic.I. }
    eapply (tri_bind _ _ _ any).
    { destruct old as [o|]; [|apply ELEM]. eapply tri_bind; [apply tri_get|]. intros n1 ox L1 X. destruct (ms_lcs ox) as [[h oc]|] eqn:E.
      - eapply tri_bind; [apply tri_unmount|]. intros n2 _ _ _. apply ELEM.
      - eapply tri_bind; [apply tri_get|]. intros n2 pm L2 _. eapply tri_bind; [apply tri_new; intros h' c'; discriminate|]. intros n3 m _ _. apply tri_ret; intros; exact Logic.I. }
    intros n1 no _ _. cbv zeta. eapply (tri_bind _ _ _ any); [destruct (attr_key attrs); [apply tri_change; reflexivity|apply tri_ret; intros; exact Logic.I]|]. intros n2 _ _ _.
    eapply tri_bind; [apply tri_attributes|]. intros n3 _ _ _. eapply tri_bind; [apply IK|]. intros; apply tri_ret; intros; exact Logic.I.
  - intros n old new l. cbn [render_children]. destruct (get_children_info l) as [infos [ks|]]; [|apply tri_raise].
    eapply (tri_bind _ _ _ any).
    { destruct old as [o|]; [|apply tri_ret; intros; exact Logic.I]. eapply tri_bind; [apply tri_get|]. intros n1 ox _ _. destruct (dvals _); [apply tri_ret; intros; exact Logic.I|apply tri_unmount]. }
    intros n1 _ _ _. destruct l; [apply tri_ret; intros; exact Logic.I|]. eapply tri_bind; [apply tri_change; reflexivity|]. intros n2 _ _ _. apply IL.
  - intros n old new i l. cbn [render_child_list]. destruct l as [|[kd k] rest]; [apply tri_ret; intros; exact Logic.I|].
    eapply (tri_bind _ _ _ any).
    { destruct old as [o|]; [|apply tri_ret; intros; exact Logic.I]. eapply tri_bind; [apply tri_get|]. intros n1 ox _ _. apply tri_ret; intros; exact Logic.I. }
    intros n1 oc _ _. eapply (tri_bind _ _ _ any); [|intros; apply IL]. destruct kd as [r|c|x].
    + eapply tri_bind; [apply IM|]. intros n2 m _ _. eapply tri_bind; [apply tri_get|]. intros n3 nx _ _. apply tri_change; reflexivity.
    + eapply tri_bind; [apply IC|]. intros n2 m _ _. eapply tri_bind; [apply tri_get|]. intros n3 nx _ _. apply tri_change; reflexivity.
    + eapply (tri_bind _ _ _ any); [destruct oc; [apply tri_unmount|apply tri_ret; intros; exact Logic.I]|]. intros n2 _ _ _. apply tri_change; reflexivity.
Qed.
Lemma tri_exit hs : forall n, tri n (run_exit hs) any.
Proof. induction hs as [|h hs IH]; intros n; [apply tri_ret; intros; exact Logic.I|]. cbn [run_exit]. eapply tri_bind; [apply tri_start|]. intros n1 _ _ _. apply IH. Qed.
Lemma tri_parent n x : tri n (get_parent x) any.
Proof. apply tri_alike. intros s. unfold get_parent. destruct (ms_parent x) as [p|]; [destruct (alive s p)|]; apply alike_refl. Qed.
Lemma tri_update n f m : tri n (create_layout_update debug defs f m) any.
Proof.
  unfold create_layout_update. eapply tri_bind; [apply tri_modify; intros s; repeat split|]. intros n1 _ _ _. eapply tri_bind; [apply tri_modify; intros s; repeat split|]. intros n2 _ _ _.
  apply tri_finally; [intros; exact Logic.I| |intros; apply tri_modify; intros s; repeat split].
  eapply tri_bind; [apply tri_get|]. intros n3 ox _ _. destruct (ms_lcs ox) as [[h c]|]; [|apply tri_raise]. eapply tri_bind; [apply tri_parent|]. intros n4 parent _ _.
  eapply (tri_bind _ _ _ any).
  { apply tri_finally; [intros; exact Logic.I|apply tri_all|]. intros n5 _. eapply tri_bind; [apply tri_gets|]. intros n6 hs _ _. apply tri_exit. }
  intros n5 m' _ _. eapply tri_bind; [apply tri_get|]. intros n6 nx _ _. eapply (tri_bind _ _ _ any); [|intros; apply tri_ret; intros; exact Logic.I].
  destruct parent as [p|]; [|apply tri_ret; intros; exact Logic.I]. apply tri_change. intros x. destruct (ms_key nx); reflexivity.
Qed.
Lemma tri_serial f q : forall n, tri n (serial_render debug defs f q) any.
Proof.
  induction q as [|h q IH]; intros n; cbn [serial_render]; [apply tri_ret; intros; exact Logic.I|]. eapply tri_bind; [apply tri_modify; intros s; repeat split|]. intros n1 _ _ _.
  eapply tri_bind; [apply tri_gets|]. intros n2 r _ _. destruct r as [m|].
  - eapply tri_bind; [apply tri_update|]. intros; apply tri_ret; intros; exact Logic.I.
  - eapply tri_bind; [apply tri_log; exact Logic.I|]. intros n3 _ _ _. apply IH.
Qed.
Lemma step_J f o s t : step debug defs f o s = Some t -> J s -> J t.
Proof.
  destruct o as [bs|e]; cbn [step]; [|intros [= <-] I; eapply alike_J; [apply env_alike|exact I]].
  intros E I. assert (I0 : J (set_env bs s)) by (eapply alike_J; [|exact I]; repeat split). destruct (tri_serial f (s_queue s) 0 _ I0 ltac:(lia)) as (I1 & _).
  destruct (serial_render debug defs f (s_queue s) (set_env bs s)) as [[[[p m]|]|e|] u]; cbn [snd] in I1; try discriminate; injection E as <-; [|exact I1|]; (apply log_J; [exact Logic.I|exact I1]).
Qed.
Lemma run_J f ops : forall s t, run debug defs f ops s = Some t -> J s -> J t.
Proof. induction ops as [|o ops IH]; cbn [run]; intros s t; [intros [= <-] I; exact I|]. destruct (step debug defs f o s) as [u|] eqn:E; [|discriminate]. intros H I. eapply IH; [exact H|]. eapply step_J; eauto. Qed.
Lemma init_J root : J (init root).
Proof.
  split; [|split].
  - intros [|[|h]]; cbn; constructor.
  - intros a h fs b E. destruct a; discriminate.
  - intros [|[|m]] x h c; cbn; try discriminate. intros [= <-] [= <- _]. lia.
Qed.
End Started.

(** ** Between the operations no effects wait: all renders of an update are on its exit stack. *)
Definition kept (s t : st) : Prop := incl (s_exit s) (s_exit t) /\ forall h, unstarted h (s_log t) <> 0 -> unstarted h (s_log s) <> 0 \/ In h (s_exit t).
Lemma kept_refl s : kept s s.
Proof. split; [apply incl_refl|auto]. Qed.
Lemma kept_trans a b c : kept a b -> kept b c -> kept a c.
Proof. intros (A1 & A2) (B1 & B2). split; [eapply incl_tran; eauto|]. intros h N. destruct (B2 h N) as [N'|I]; [|auto]. destruct (A2 h N') as [N''|I]; auto. Qed.
Lemma kept_same s t : s_exit t = s_exit s -> s_log t = s_log s -> kept s t.
Proof. intros E L. split; [rewrite E; apply incl_refl|rewrite L; auto]. Qed.
Lemma kept_modify f : (forall s, s_exit (f s) = s_exit s) -> (forall s, s_log (f s) = s_log s) -> pres kept (modify f).
Proof. intros E L. apply pres_modify. intros s. apply kept_same; auto. Qed.
Lemma kept_log e : calm e -> pres kept (log e).
Proof. intros C. apply pres_modify. intros s. split; [apply incl_refl|]. intros h. cbn [s_log set_log]. rewrite unstarted_calm by exact C. auto. Qed.
Lemma schedule_exit h s : s_exit (schedule_render h s) = s_exit s.
Proof. unfold schedule_render. destruct (hk_sched _); reflexivity. Qed.
Lemma dispatch_exit h i u s : s_exit (dispatch h i u s) = s_exit s.
Proof. unfold dispatch. cbv zeta. destruct (nth_error _ _) as [[]|]; auto. destruct (veq _ _); auto. rewrite schedule_exit. reflexivity. Qed.
Lemma env_exit s o : s_exit (env_step s o) = s_exit s.
Proof. destruct o as [h i u|t z]; cbn [env_step]; [apply dispatch_exit|]. unfold record_seq. destruct (0 <=? z)%Z; auto. destruct (_ <? z)%Z; auto. Qed.
Lemma envs_exit l : forall s, s_exit (fold_left env_step l s) = s_exit s.
Proof. induction l as [|o l IH]; intros s; auto. cbn [fold_left]. rewrite IH. apply env_exit. Qed.
Lemma kept_pause : pres kept pause.
Proof. apply pres_modify. intros s. destruct (s_env s) as [|b bs]; [apply kept_refl|]. apply kept_same; [rewrite envs_exit; reflexivity|]. destruct (envs_alike b (set_env bs s)) as (A & _). rewrite A. reflexivity. Qed.
Lemma kept_put m x : pres kept (put_ms m x).
Proof. apply kept_modify; reflexivity. Qed.
Lemma kept_new x : pres kept (new_ms x).
Proof. intros s r t [= <- <-]. apply kept_same; reflexivity. Qed.
Lemma kept_hook : pres kept new_hook.
Proof. intros s r t [= <- <-]. apply kept_same; reflexivity. Qed.
Lemma kept_change m g : pres kept (change_ms m g).
Proof. unfold change_ms. pres_tac kept kept_refl kept_trans. apply kept_put. Qed.
Lemma kept_body h b : pres kept (run_body h b).
Proof.
  induction b as [r|msg|c k IH|i c k IH|e k IH|c k IH|c v k IH|h' i u k IH]; cbn [run_body]; pres_tac kept kept_refl kept_trans; auto; try (apply kept_modify; reflexivity).
  - intros s r t. unfold use_cell. cbv zeta. destruct (hk_once _); [destruct (nth_error _ _)|]; intros [= <- <-]; apply kept_same; reflexivity.
  - apply pres_modify. intros s. apply kept_same; [apply dispatch_exit|apply dispatch_log].
Qed.
Lemma kept_will h : pres kept (will_render h).
Proof.
  unfold will_render. pres_tac kept kept_refl kept_trans; [apply kept_pause|apply kept_modify; reflexivity|]. apply kept_modify; intros s; destruct (s_stack s); reflexivity.
Qed.
Lemma kept_did h : pres kept (did_render h).
Proof.
  unfold did_render. pres_tac kept kept_refl kept_trans; [|apply kept_modify; reflexivity]. intros s r t. unfold unset_current.
  destruct (s_stack s) as [|p l]; [|destruct (Nat.eq_dec p h)]; intros [= <- <-]; apply kept_same; reflexivity.
Qed.
Lemma kept_del ts : pres kept (del_handlers ts).
Proof.
  induction ts as [|x ts IH]; [apply (pres_ret kept kept_refl)|]. intros s r t. cbn [del_handlers]. destruct (dmem x (s_eh s)); [|intros [= <- <-]; apply kept_refl].
  intros H. eapply kept_trans; [|exact (IH _ _ _ H)]. apply kept_same; reflexivity.
Qed.
Lemma kept_unmount f : forall stk, pres kept (unmount f stk).
Proof.
  induction f as [|f IH]; intros stk; cbn [unmount]; [apply (pres_no_fuel kept kept_refl)|]. destruct stk as [|m stk]; pres_tac kept kept_refl kept_trans; auto using kept_del.
  destruct (ms_lcs _) as [[h c]|]; pres_tac kept kept_refl kept_trans.
  - intros s r t. unfold del_reg. destruct (dmem h (s_reg s)); intros [= <- <-]; apply kept_same; reflexivity.
  - unfold will_unmount. pres_tac kept kept_refl kept_trans; [apply kept_log; exact Logic.I|apply kept_pause].
Qed.
Lemma kept_register m l : pres kept (register_handlers m l).
Proof. induction l as [|[ev h] l IH]; cbn [register_handlers]; cbv zeta; pres_tac kept kept_refl kept_trans; auto using kept_put. apply kept_modify; reflexivity. Qed.
Lemma kept_attributes old new tag attrs hs js imp : pres kept (render_attributes old new tag attrs hs js imp).
Proof.
  unfold render_attributes. cbv zeta. pres_tac kept kept_refl kept_trans; auto using kept_put.
  - destruct old; pres_tac kept kept_refl kept_trans. apply kept_del.
  - destruct hs; pres_tac kept kept_refl kept_trans. apply kept_register.
Qed.
(** While [h] is on the exit stack. *)
Definition kept_with (h : nat) (s t : st) : Prop := In h (s_exit s) -> kept s t.
Lemma with_refl h s : kept_with h s s.
Proof. intros _. apply kept_refl. Qed.
Lemma with_trans h a b c : kept_with h a b -> kept_with h b c -> kept_with h a c.
Proof. intros A B I. assert (K : kept a b) by auto. eapply kept_trans; [exact K|]. apply B. destruct K as [K _]. apply K, I. Qed.
Lemma with_kept {A} h (m : M A) : pres kept m -> pres (kept_with h) m.
Proof. intros K s r t E _. exact (K s r t E). Qed.
Lemma with_render h : pres (kept_with h) (log (EvRender h)).
Proof.
  intros s r t [= <- <-] I. split; [apply incl_refl|]. intros x. cbn [s_log set_log s_exit]. rewrite unstarted_snoc. destruct (Nat.eqb_spec h x) as [->|D]; auto.
Qed.
#[local] Hint Resolve kept_put kept_new kept_hook kept_change kept_body kept_will kept_did kept_unmount kept_attributes : keptdb.
Section KeptAll.
Variable debug : bool.
Variable defs : nat -> val -> list raw -> body.
Lemma kept_all f :
  (forall old parent i k c, pres kept (render_component debug defs f old parent i k c)) /\
  (forall old parent i k r, pres kept (render_model debug defs f old parent i k r)) /\
  (forall old new l, pres kept (render_children debug defs f old new l)) /\
  (forall old new i l, pres kept (render_child_list debug defs f old new i l)).
Proof.
  induction f as [|f (IH1 & IH2 & IH3 & IH4)]; simpl.
  { split; [|split; [|split]]; intros; apply (pres_no_fuel kept kept_refl). }
  split; [|split; [|split]]; intros.
  - apply (pres_bind kept kept_trans); [|intros no; apply (pres_bind kept kept_trans); [apply (pres_get_ms kept kept_refl)|intros nx]].
    + assert (F : pres kept match parent with
                        | Some p => pm <- get_ms p;; h <- new_hook;; n <- new_ms (make_component_ms p pm i k h c);; ret (n, None)
                        | None => @raise (nat * option nat) EBadVdom
                        end).
      { destruct parent; pres_tac kept kept_refl kept_trans; eauto with keptdb. }
      destruct old; auto. pres_tac kept kept_refl kept_trans.
      destruct (ms_lcs a) as [[? ?]|].
      * destruct (eq_dec _ _).
        -- destruct parent; pres_tac kept kept_refl kept_trans; eauto with keptdb.
        -- pres_tac kept kept_refl kept_trans; eauto with keptdb.
      * pres_tac kept kept_refl kept_trans; eauto with keptdb.
    + destruct (ms_lcs nx) as [[h oc]|]; [|apply (pres_raise kept kept_refl)].
      apply (pres_bind kept kept_trans); [apply kept_modify; reflexivity|intros _]. apply (pres_bind kept kept_trans); [apply kept_will|intros _].
      match goal with |- pres _ (bind _ (fun _ => ?m)) => assert (W : pres (kept_with h) m) end.
      { apply (pres_bind _ (with_trans h)); [|intros _; apply (pres_ret _ (with_refl h))]. apply (pres_finally _ (with_trans h)); [|apply with_kept, kept_did].
        apply (pres_catch _ (with_trans h)).
        - apply (pres_bind _ (with_trans h)); [apply with_render|intros _]. apply with_kept. pres_tac kept kept_refl kept_trans; eauto with keptdb. apply kept_log. exact Logic.I.
        - intros e. apply with_kept. pres_tac kept kept_refl kept_trans; eauto with keptdb. apply kept_log. exact Logic.I. }
      intros s r t E. unfold bind at 1 in E. cbn [modify] in E. set (s1 := set_exit (h :: s_exit s) s) in *. eapply kept_trans; [|refine (W s1 r t E _); left; reflexivity].
      split; [intros x I; right; exact I|auto].
  - destruct r; pres_tac kept kept_refl kept_trans; eauto with keptdb.
    + destruct old; pres_tac kept kept_refl kept_trans; eauto with keptdb.
      destruct (ms_lcs a); pres_tac kept kept_refl kept_trans; eauto with keptdb.
    + destruct (attr_key attrs); pres_tac kept kept_refl kept_trans; eauto with keptdb.
  - destruct (if has_duplicates _ then None else _); pres_tac kept kept_refl kept_trans.
    + destruct old; pres_tac kept kept_refl kept_trans.
      destruct (dvals _); pres_tac kept kept_refl kept_trans; eauto with keptdb.
    + destruct l; pres_tac kept kept_refl kept_trans; eauto with keptdb.
  - destruct l as [|[kd k] l]; pres_tac kept kept_refl kept_trans.
    + destruct old; pres_tac kept kept_refl kept_trans; eauto with keptdb.
    + destruct kd; pres_tac kept kept_refl kept_trans; eauto with keptdb.
      destruct a; pres_tac kept kept_refl kept_trans; eauto with keptdb.
    + auto.
Qed.
Definition done (s : st) : Prop := forall h, unstarted h (s_log s) = 0.
Definition finishes (s t : st) : Prop := done s -> done t.
Lemma exit_done hs : forall s r t, run_exit hs s = (r, t) -> (forall h, unstarted h (s_log s) <> 0 -> In h hs) -> r = Ok tt /\ done t.
Proof.
  induction hs as [|h hs IH]; intros s r t.
  - intros [= <- <-] H. split; [reflexivity|]. intros h. destruct (unstarted h (s_log s)) eqn:E; [reflexivity|]. destruct (H h ltac:(congruence)).
  - cbn [run_exit]. unfold bind, layout_did_render. cbn [log modify]. cbv zeta. intros E H. apply IH in E; [exact E|]. intros x. cbn [s_log set_log put_hook set_hooks]. rewrite unstarted_snoc.
    destruct (Nat.eqb_spec h x) as [->|D]; [congruence|]. intros N. destruct (H x N) as [->|I]; [congruence|exact I].
Qed.
Lemma log_done e s : calm e -> done s -> done (set_log (s_log s ++ [e]) s).
Proof. intros C H h. cbn [s_log set_log]. rewrite unstarted_calm by exact C. apply H. Qed.
Lemma fin_refl s : finishes s s.
Proof. intros H. exact H. Qed.
Lemma fin_trans a b c : finishes a b -> finishes b c -> finishes a c.
Proof. unfold finishes. auto. Qed.
Lemma fin_modify f : (forall s, s_log (f s) = s_log s) -> pres finishes (modify f).
Proof. intros L. apply pres_modify. intros s H h. rewrite L. apply H. Qed.
(** Unless the model's fuel has run out. *)
Definition ended {A} (m : M A) : Prop := forall s r t, m s = (r, t) -> r <> Fuel -> done s -> done t.
Lemma ended_pres {A} (m : M A) : pres finishes m -> ended m.
Proof. intros H s r t E _. exact (H s r t E). Qed.
Lemma ended_bind {A B} (m : M A) (k : A -> M B) : ended m -> (forall a, ended (k a)) -> ended (bind m k).
Proof.
  intros H K s r t. unfold bind. destruct (m s) as [[a|e|] u] eqn:E; intros E' N D.
  - apply (K a u r t E' N). apply (H s _ u E); [discriminate|exact D].
  - injection E' as <- <-. apply (H s _ u E); [discriminate|exact D].
  - injection E' as <- <-. congruence.
Qed.
Lemma ended_finally {A} (m : M A) k : ended m -> ended k -> ended (finally m k).
Proof.
  intros H K s r t. unfold finally. destruct (m s) as [[a|e|] u] eqn:E; intros E' N D; [| |injection E' as <- <-; congruence].
  - destruct (k u) as [[x|e|] v] eqn:F; injection E' as <- <-; try congruence; (apply (K u _ v F); [discriminate|]); (apply (H s _ u E); [discriminate|exact D]).
  - destruct (k u) as [[x|e'|] v] eqn:F; injection E' as <- <-; try congruence; (apply (K u _ v F); [discriminate|]); (apply (H s _ u E); [discriminate|exact D]).
Qed.
Lemma ended_change m g : ended (change_ms m g).
Proof. apply ended_pres. unfold change_ms. pres_tac finishes fin_refl fin_trans. apply fin_modify. reflexivity. Qed.
(** The render of a component with an empty exit stack, and the callbacks after it. *)
Lemma ended_pass f old parent i k c s r t : s_exit s = [] ->
  finally (render_component debug defs f old parent i k c) (hs <- gets s_exit ;; run_exit hs) s = (r, t) -> r <> Fuel -> done s -> done t.
Proof.
  intros X E N D. unfold finally in E. destruct (render_component debug defs f old parent i k c s) as [q u] eqn:F.
  destruct (proj1 (kept_all f) _ _ _ _ _ _ _ _ F) as [_ K].
  assert (W : forall h, unstarted h (s_log u) <> 0 -> In h (s_exit u)) by (intros h H; destruct (K h H) as [H'|H']; [destruct (H' (D h))|exact H']).
  assert (G : forall q' v, bind (gets s_exit) (fun hs => run_exit hs) u = (q', v) -> done v) by (intros q' v G; unfold bind, gets in G; apply exit_done in G; [apply G|exact W]).
  destruct q as [a|e|]; [| |injection E as <- <-; congruence]; (destruct (bind (gets s_exit) (fun hs => run_exit hs) u) as [[x|e'|] v] eqn:B; injection E as <- <-; try congruence; exact (G _ v eq_refl)).
Qed.
Lemma ended_update f m : ended (create_layout_update debug defs f m).
Proof.
  intros s r t E N D. unfold create_layout_update in E. unfold bind at 1 in E. cbn [modify] in E. unfold bind at 1 in E. cbn [modify] in E.
  set (s1 := set_exit [] (set_stack [] s)) in *. assert (D1 : done s1) by exact D. assert (X1 : s_exit s1 = []) by reflexivity. clearbody s1. revert E N D1.
  match goal with |- finally ?m ?k s1 = _ -> _ => assert (P : forall r t, m s1 = (r, t) -> r <> Fuel -> done s1 -> done t); [|assert (Q : ended k) by (apply ended_pres, fin_modify; reflexivity)] end.
  - clear r t. intros r t. unfold bind at 1. unfold get_ms at 1. destruct (nth_error (s_heap s1) m) as [ox|]; [|intros [= <- <-]; auto]. destruct (ms_lcs ox) as [[h c]|]; [|intros [= <- <-]; auto].
    unfold bind at 1. destruct (get_parent ox s1) as [[parent|e|] u] eqn:GP.
    + assert (u = s1) as -> by (revert GP; unfold get_parent, ret; destruct (ms_parent ox) as [p|]; [destruct (alive s1 p)|]; intros [= _ <-]; reflexivity).
      unfold bind at 1. destruct (finally _ _ s1) as [q v] eqn:F. intros E N D1. assert (DV : q <> Fuel -> done v) by (intros Nq; eapply ended_pass; eauto).
      destruct q as [n|e|]; [|injection E as <- <-; apply DV; discriminate|injection E as <- <-; congruence].
      specialize (DV ltac:(discriminate)). revert E N DV. generalize v r t. clear. intros s r t E N D. revert s r t E N D. 
      match goal with |- forall s r t, ?m s = (r, t) -> _ => change (ended m) end.
      apply ended_bind; [apply ended_pres, (pres_get_ms finishes fin_refl)|intros nx]. apply ended_bind; [|intros _; apply ended_pres, (pres_ret finishes fin_refl)].
      destruct parent; [apply ended_change|apply ended_pres, (pres_ret finishes fin_refl)].
    + assert (u = s1) as -> by (revert GP; unfold get_parent, ret; destruct (ms_parent ox) as [p|]; [destruct (alive s1 p)|]; intros [= _ <-]; reflexivity). intros [= <- <-]; auto.
    + intros [= <- <-]; congruence.
  - unfold finally. match goal with |- context [match ?m s1 with _ => _ end] => destruct (m s1) as [[a|e|] u] eqn:E1 end.
    + match goal with |- context [modify ?f u] => destruct (modify f u) as [[x|e|] v] eqn:E2 end; intros [= <- <-] N D1; try congruence; apply (Q u _ v E2); try discriminate; apply (P _ u E1); try discriminate; exact D1.
    + match goal with |- context [modify ?f u] => destruct (modify f u) as [[x|e'|] v] eqn:E2 end; intros [= <- <-] N D1; try congruence; apply (Q u _ v E2); try discriminate; apply (P _ u E1); try discriminate; exact D1.
    + intros [= <- <-]; congruence.
Qed.
Lemma ended_serial f q : ended (serial_render debug defs f q).
Proof.
  induction q as [|h q IH]; cbn [serial_render]; [apply ended_pres, (pres_ret finishes fin_refl)|]. apply ended_bind; [apply ended_pres, fin_modify; reflexivity|intros _].
  apply ended_bind; [apply ended_pres, (pres_gets finishes fin_refl)|intros [m|]].
  - apply ended_bind; [apply ended_update|intros u; apply ended_pres, (pres_ret finishes fin_refl)].
  - apply ended_bind; [|intros _; exact IH]. apply ended_pres, pres_modify. intros s D. apply log_done; [exact Logic.I|exact D].
Qed.
Lemma run_done f ops : forall s t, run debug defs f ops s = Some t -> done s -> done t.
Proof.
  induction ops as [|o ops IH]; cbn [run]; intros s t; [intros [= <-] D; exact D|]. destruct (step debug defs f o s) as [u|] eqn:E; [|discriminate]. intros H D. eapply IH; [exact H|].
  destruct o as [bs|e]; cbn [step] in E.
  - destruct (serial_render debug defs f (s_queue s) (set_env bs s)) as [q v] eqn:F. assert (DV : q <> Fuel -> done v) by (intros N; eapply ended_serial; eauto).
    destruct q as [[[p m]|]|x|]; try discriminate; injection E as <-; [apply log_done; [exact Logic.I|]| |apply log_done; [exact Logic.I|]]; apply DV; discriminate.
  - injection E as <-. intros h. destruct (env_alike s e) as (A & _). rewrite A. apply D.
Qed.
End KeptAll.

(** Whenever effects are started for a component, it is for those that its renders since the last time have registered, all of them
    and in their order. Between the operations no registered effect waits. That holds for all histories, also if render functions raise. *)
Theorem C13_all_effects debug defs root ops s : history debug defs root ops s ->
  (forall a h fs b, s_log s = a ++ EvEffects h fs :: b -> of_renders defs h (unstarted h a) fs) /\
  (forall h, unstarted h (s_log s) = 0 /\ hk_effects (get_hook h s) = []).
Proof.
  intros (fuel & H). assert (I : J defs s) by (eapply run_J; [exact H|apply init_J]). destruct I as (J1 & J2 & _). split; [exact J2|].
  intros h. assert (E : unstarted h (s_log s) = 0) by (eapply run_done; [exact H|intros x; reflexivity]). split; [exact E|]. specialize (J1 h). rewrite E in J1. inversion J1. reflexivity.
Qed.

(** A component with two effects, rendered twice: the second effect is registered in the first render only. *)
Definition twice (n : nat) (p : val) (kids : list raw) : body :=
  BUseCell (CState (VInt 0)) (fun h i c => BAddEffect (Effect 1 0)
    match c with CState (VInt 0) => BAddEffect (Effect 2 1) (BRet (RText "a")) | _ => BRet (RText "b") end).
Example C13_two_effects : exists s, history true twice (Cinst (CTUser 0) None VNone []) [ORender []; OEnv (EDispatch 0 0 (UVal (VInt 1))); ORender []] s /\
  filter (fun e => match e with EvRender _ | EvEffects _ _ => true | _ => false end) (s_log s) =
    [EvRender 0; EvEffects 0 [Effect 1 0; Effect 2 1]; EvRender 0; EvEffects 0 [Effect 1 0]].
Proof. eexists. split; [exists 20; vm_compute; reflexivity|vm_compute; reflexivity]. Qed.
Print Assumptions C13_all_effects.
