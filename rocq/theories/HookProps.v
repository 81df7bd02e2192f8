(** * Properties C14-C20: hooks

    A history is a list of calls ([call], HookCalls.v) made by any number of components in any order: beginnings and
    ends of renders, hook calls, and uses of the returned setters, dispatchers and references at any time.
    [reply R n a c] is the result of call [c] after the history [a] of [n] components; [R] gives the reducer functions.
    [C14_render_functions_are_calls] (HookResults.v) ties this to render functions in the layout. *)
From Coq Require Import String ZArith Bool Arith Lia List.
From Verif Require Import Dict LayoutTypes LayoutModel HooksModel HookCalls HookCallsFacts HookHistory HookResults.
From Verif Require LayoutHistory LayoutFindings DisplaySpec.
Import ListNotations.
Local Open Scope string_scope.
Local Open Scope list_scope.

(** ** Vocabulary *)

(** [h] has not used slot [i] in the history [a]. *)
Definition never_used R n a h i : Prop :=
  forall a1 c a2, a = a1 ++ c :: a2 -> caller c = Some h -> slot_of (reply R n a1 c) <> Some i.
(** In the calls [b] after [a], no render of [h] ends and no hook call of [h] raises. *)
Definition one_render R n a b h : Prop :=
  ~ In (KEnd h) b /\ forall b1 c b2, b = b1 ++ c :: b2 -> caller c = Some h -> forall e, reply R n (a ++ b1) c <> RRaised e.
(** In the calls [b] after [a], no memoising call of [h] uses slot [i], and none raises. *)
Definition memo_unused R n a b h i : Prop :=
  forall b1 c b2, b = b1 ++ c :: b2 -> caller c = Some h -> is_memo c = true ->
    (forall e, reply R n (a ++ b1) c <> RRaised e) /\ slot_of (reply R n (a ++ b1) c) <> Some i.

Lemma one_render_smooth R n a b h : one_render R n a b h -> smooth R h b (state_after R n a).
Proof. intros [A B]. split; auto. intros b1 c b2 E C e. specialize (B b1 c b2 E C e). unfold reply in B. rewrite after_app in B. exact B. Qed.
Lemma memo_unused_untouched R n a b h i : memo_unused R n a b h i -> untouched R h i b (state_after R n a).
Proof. intros A b1 c b2 E C M. specialize (A b1 c b2 E C M). unfold reply in A. rewrite !after_app in A. exact A. Qed.

(** A concrete history: two components, three renders of the first one. *)
Definition R0 (k : nat) (s a : val) : val :=
  match k, s, a with 0, VInt x, VInt y => VInt (x + y) | 1, VInt x, VInt y => VInt (x * y) | _, _, _ => s end.
Definition inc : upd_arg := UFun (fun v => match v with VInt z => VInt (z + 1) | _ => v end).
Definition render1 (d : list val) (f : val) (red : nat) : list call :=
  [KBegin 0; KState 0 (VInt 0); KReducer 0 red (VInt 10); KMemo 0 (Some d) (inl f); KRef 0 (VStr "r"); KEffect 0 (Some d) 7 false;
   KCallback 0 (Some d) f; KEnd 0].
Definition between1 : list call :=
  [KDispatch 0 0 (UVal (VInt 5)); KBegin 1; KState 1 (VInt 100); KEnd 1; KDispatch 0 0 inc; KDispatch 1 0 inc;
   KAction (VPair (VInt 0) (VSetter 0 1)) (VInt 3)].
Definition two_renders : list call := render1 [VInt 1] (VStr "f") 0 ++ between1 ++ render1 [VInt 1] (VStr "g") 1.
Definition three_renders : list call := two_renders ++ [KAction (VPair (VInt 0) (VSetter 0 1)) (VInt 4)] ++ render1 [VInt 2] (VStr "h") 1.
Lemma on_dec n cs : forallb (fun c => match caller c with Some h => Nat.ltb h n | None => true end) cs = true -> on n cs.
Proof. intros F c h J E. rewrite forallb_forall in F. specialize (F c J). rewrite E in F. apply Nat.ltb_lt. exact F. Qed.

(** A decision procedure for [one_render], for the examples. *)
Fixpoint calm R (h : nat) (b : list call) (s : st) : bool :=
  match b with
  | [] => true
  | c :: b' =>
      match c with KEnd h' => negb (Nat.eqb h' h) | _ => true end &&
      match caller c, fst (exec R c s) with Some h', RRaised _ => negb (Nat.eqb h' h) | _, _ => true end &&
      calm R h b' (snd (exec R c s))
  end.
Lemma calm_one_render R n a b h : calm R h b (state_after R n a) = true -> one_render R n a b h.
Proof.
  revert a. induction b as [|c b IH]; intros a H; simpl in H.
  - split; [intros []|]. intros [|x b1] c b2 E; discriminate.
  - apply andb_true_iff in H. destruct H as [H H3]. apply andb_true_iff in H. destruct H as [H1 H2].
    rewrite <- after_snoc in H3. destruct (IH _ H3) as [A B]. split.
    + intros [->|J]; [rewrite Nat.eqb_refl in H1; discriminate|contradiction].
    + intros b1 c' b2 E C e. destruct b1 as [|x b1]; injection E as -> ->.
      * rewrite app_nil_r. unfold reply. intros X. rewrite C, X, Nat.eqb_refl in H2. discriminate.
      * specialize (B b1 c' b2 eq_refl C e). rewrite <- app_assoc in B. exact B.
Qed.

(** ** C14 *)

Theorem C14_use_state_initial R n a h init i v :
  on n (a ++ [KState h init]) -> reply R n a (KState h init) = RState i v -> never_used R n a h i -> v = init.
Proof. exact (state_first R n a h init i v). Qed.

Theorem C14_use_state_fold R n a b h init init' i v v' :
  on n (a ++ KState h init :: b ++ [KState h init']) ->
  reply R n a (KState h init) = RState i v ->
  reply R n (a ++ KState h init :: b) (KState h init') = RState i v' ->
  v' = fold_left take (flat_map (sent R h i) b) v.
Proof. exact (state_fold R n a b h init init' i v v'). Qed.

Theorem C14_render_requested_iff_changed R n a h i u v :
  slot_value h i (state_after R n a) = Some v ->
  let new := match u with UVal x => x | UFun f => f v end in
  let s := state_after R n a in
  let s' := state_after R n (a ++ [KDispatch h i u]) in
  (veq new v = true -> s' = s) /\
  (veq new v = false ->
     slot_value h i s' = Some new /\ hk_sched (get_hook h s') = true /\
     s_queue s' = if hk_sched (get_hook h s) then s_queue s else queue_put h (s_queue s)).
Proof. exact (dispatch_requests R n a h i u v). Qed.

(** The second render's state is 6 = 5 + 1. *)
Definition before1 : list call := render1 [VInt 1] (VStr "f") 0 ++ between1 ++ [KBegin 0].
Example C14_example :
  reply R0 2 [KBegin 0] (KState 0 (VInt 0)) = RState 0 (VInt 0) /\
  reply R0 2 before1 (KState 0 (VInt 0)) = RState 0 (VInt 6) /\
  exists b, before1 = [KBegin 0] ++ KState 0 (VInt 0) :: b /\ on 2 (before1 ++ [KState 0 (VInt 0)]) /\
    flat_map (sent R0 0 0) b = [UVal (VInt 5); inc].
Proof.
  split; [reflexivity|]. split; [reflexivity|]. eexists. split; [reflexivity|]. split; [apply on_dec; reflexivity|reflexivity].
Qed.
Example C14_request_example :
  let s := state_after R0 2 (render1 [VInt 1] (VStr "f") 0) in
  slot_value 0 0 s = Some (VInt 0) /\ hk_sched (get_hook 0 s) = false /\
  s_queue (state_after R0 2 (render1 [VInt 1] (VStr "f") 0 ++ [KDispatch 0 0 (UVal (VInt 5))])) = [0].
Proof. vm_compute. auto. Qed.

(** ** C15 *)

(** On every later render the slot of a hook call is the number of slots taken before it in the render ... *)
Theorem C15_slots_positional R n a b h c i :
  on n (a ++ KEnd h :: b ++ [c]) -> h < n -> reply R n a (KEnd h) = RDone ->
  one_render R n (a ++ [KEnd h]) b h ->
  caller c = Some h -> slot_of (reply R n (a ++ KEnd h :: b) c) = Some i -> i = taken h b.
Proof. intros ON L ER SM. apply (slot_position R n a b h c i ON L ER (one_render_smooth _ _ _ _ _ SM)). Qed.
(** ... and on the first render as well. *)
Theorem C15_slots_positional_first R n b h c i :
  on n (b ++ [c]) -> h < n -> one_render R n [] b h ->
  caller c = Some h -> slot_of (reply R n b c) = Some i -> i = taken h b.
Proof. intros ON L SM. apply (slot_position_first R n b h c i ON L (one_render_smooth _ _ [] _ _ SM)). Qed.

(** So calls of the same kind and order get the same slots in any two later renders. *)
Theorem C15_same_calls_same_slots R n a b a' b' h c c' i i' :
  h < n ->
  on n (a ++ KEnd h :: b ++ [c]) -> on n (a' ++ KEnd h :: b' ++ [c']) ->
  reply R n a (KEnd h) = RDone -> reply R n a' (KEnd h) = RDone ->
  one_render R n (a ++ [KEnd h]) b h -> one_render R n (a' ++ [KEnd h]) b' h ->
  taken h b = taken h b' -> caller c = Some h -> caller c' = Some h ->
  slot_of (reply R n (a ++ KEnd h :: b) c) = Some i -> slot_of (reply R n (a' ++ KEnd h :: b') c') = Some i' -> i = i'.
Proof.
  intros L ON ON' E E' S S' T C C' SL SL'. rewrite (C15_slots_positional R n a b h c i); auto. rewrite (C15_slots_positional R n a' b' h c' i'); auto.
Qed.

Theorem C15_dispatch_is_local R n a h i u h' i' : (h', i') <> (h, i) ->
  nth_error (hk_cells (get_hook h' (state_after R n (a ++ [KDispatch h i u])))) i'
  = nth_error (hk_cells (get_hook h' (state_after R n a))) i'.
Proof. exact (dispatch_local R n a h i u h' i'). Qed.

Example C15_example :
  let a := [KBegin 0; KState 0 (VInt 0); KReducer 0 0 (VInt 10); KMemo 0 (Some [VInt 1]) (inl (VStr "f")); KRef 0 (VStr "r");
            KEffect 0 (Some [VInt 1]) 7 false; KCallback 0 (Some [VInt 1]) (VStr "f")] in
  let b := [KBegin 0; KState 0 (VInt 0); KReducer 0 0 (VInt 10); KDispatch 1 0 inc] in
  reply R0 2 a (KEnd 0) = RDone /\ one_render R0 2 (a ++ [KEnd 0]) b 0 /\ taken 0 b = 3 /\
  slot_of (reply R0 2 (a ++ KEnd 0 :: b) (KMemo 0 (Some [VInt 1]) (inl (VStr "f")))) = Some 3.
Proof.
  cbv zeta. split; [vm_compute; reflexivity|]. split; [apply calm_one_render; vm_compute; reflexivity|split; vm_compute; reflexivity].
Qed.

(** ** C16 *)

Theorem C16_first_render R n a h red init i v d :
  on n (a ++ [KReducer h red init]) ->
  reply R n a (KReducer h red init) = RReducer i v d -> never_used R n a h i ->
  v = init /\ d = VPair (VInt (Z.of_nat red)) (VSetter h i).
Proof. exact (reducer_first R n a h red init i v d). Qed.

(** The dispatcher stays the same; the value is the fold of what was sent, whatever reducer is passed later. *)
Theorem C16_later_renders R n a b h red red' init init' i v v' d d' :
  on n (a ++ KReducer h red init :: b ++ [KReducer h red' init']) ->
  reply R n a (KReducer h red init) = RReducer i v d ->
  reply R n (a ++ KReducer h red init :: b) (KReducer h red' init') = RReducer i v' d' ->
  d' = d /\ v' = fold_left take (flat_map (sent R h i) b) v.
Proof. exact (reducer_fold R n a b h red red' init init' i v v' d d'). Qed.

(** An action sent through the dispatcher of the first render is one step of the first render's reducer. *)
Theorem C16_action_is_first_reducer R h i red action v :
  fold_left take (sent R h i (KAction (VPair (VInt (Z.of_nat red)) (VSetter h i)) action)) v
  = if veq (R red v action) v then v else R red v action.
Proof.
  simpl. destruct (Nat.eq_dec h h); [|congruence]. destruct (Nat.eq_dec i i); [|congruence]. simpl. unfold take. rewrite Nat2Z.id. reflexivity.
Qed.

(** Reducer 1 (multiplication) is passed on the later renders, but the actions 3 and 4 are added to 10. *)
Example C16_example :
  reply R0 2 [KBegin 0; KState 0 (VInt 0)] (KReducer 0 0 (VInt 10)) = RReducer 1 (VInt 10) (VPair (VInt 0) (VSetter 0 1)) /\
  reply R0 2 (two_renders ++ [KAction (VPair (VInt 0) (VSetter 0 1)) (VInt 4); KBegin 0; KState 0 (VInt 0)]) (KReducer 0 1 (VInt 10))
    = RReducer 1 (VInt 17) (VPair (VInt 0) (VSetter 0 1)).
Proof. vm_compute. auto. Qed.

(** ** C17 *)

Theorem C17_first_use_computes R n a c h d f i ran :
  on n (a ++ [c]) -> memo_of c = Some (h, d, f) -> memo_reply (reply R n a c) = Some (i, ran) ->
  (forall a1 c' a2, a = a1 ++ c' :: a2 -> caller c' = Some h -> is_memo c' = true -> slot_of (reply R n a1 c') <> Some i) ->
  ran = true /\ exists v, f = inl v /\ forall j w b, reply R n a c = RMemo j w b -> w = v.
Proof. exact (memo_first R n a c h d f i ran). Qed.

(** [ran']: the function is called (for effects: registered). *)
Theorem C17_recomputes_iff_changed R n a c b c' h d f d' f' i ran ran' :
  on n (a ++ c :: b ++ [c']) -> memo_of c = Some (h, d, f) -> memo_of c' = Some (h, d', f') ->
  memo_reply (reply R n a c) = Some (i, ran) ->
  memo_unused R n (a ++ [c]) b h i ->
  memo_reply (reply R n (a ++ c :: b) c') = Some (i, ran') ->
  (ran' = false <-> exists ds, d' = Some ds /\ same_items (given d) ds) /\
  (ran' = true -> exists v, f' = inl v /\ forall j w x, reply R n (a ++ c :: b) c' = RMemo j w x -> w = v) /\
  (ran' = false -> forall j w x j' w' x', reply R n a c = RMemo j w x -> reply R n (a ++ c :: b) c' = RMemo j' w' x' -> w' = w).
Proof. intros ON M M' MR U. apply (memo_again R n a c b c' h d f d' f' i ran ran' ON M M' MR (memo_unused_untouched _ _ _ _ _ _ U)). Qed.

(** The second render keeps the value of the first one (same dependencies), the third one computes again. *)
Definition upto (k : nat) : list call := firstn k three_renders.
Example C17_example :
  reply R0 2 (upto 3) (KMemo 0 (Some [VInt 1]) (inl (VStr "f"))) = RMemo 3 (VStr "f") true /\
  reply R0 2 (upto 18) (KMemo 0 (Some [VInt 1]) (inl (VStr "g"))) = RMemo 3 (VStr "f") false /\
  reply R0 2 (upto 27) (KMemo 0 (Some [VInt 2]) (inl (VStr "h"))) = RMemo 3 (VStr "h") true /\
  nth_error three_renders 18 = Some (KMemo 0 (Some [VInt 1]) (inl (VStr "g"))) /\
  nth_error three_renders 27 = Some (KMemo 0 (Some [VInt 2]) (inl (VStr "h"))) /\
  reply R0 2 (upto 20) (KEffect 0 (Some [VInt 1]) 7 false) = REffect 5 false /\
  reply R0 2 (upto 29) (KEffect 0 (Some [VInt 2]) 7 false) = REffect 5 true.
Proof. vm_compute. repeat split. Qed.

(** ** C18 *)

(** The value was computed by this call, or by an earlier one of the same hook: with the same dependencies, or else a call of a
    memo function with the same dependencies has raised since then. *)
Theorem C18_value_belongs_to_deps_partial R n c' h d' f' i v' ran' a :
  on n (a ++ [c']) -> memo_of c' = Some (h, d', f') -> reply R n a c' = RMemo i v' ran' ->
  f' = inl v' \/
  exists a1 c a2 d ds, a = a1 ++ c :: a2 /\ memo_of c = Some (h, d, inl v') /\ memo_reply (reply R n a1 c) = Some (i, true) /\ d' = Some ds /\
    (same_items (given d) ds \/
     exists b1 c1 b2 d1 f1 e, a2 = b1 ++ c1 :: b2 /\ memo_of c1 = Some (h, d1, f1) /\ reply R n (a1 ++ c :: b1) c1 = RRaised e /\ same_items (given d1) ds).
Proof.
  intros ON MC E. destruct (memo_belongs R n c' h d' f' i v' ran' a ON MC E) as [X|(a1 & c & a2 & d & EA & M & MR & ds & ED & X)]; [left; exact X|right].
  exists a1, c, a2, d, ds. split; [exact EA|]. split; [exact M|]. split; [exact MR|]. split; [exact ED|]. destruct X as [X|(x & (b1 & c1 & b2 & d1 & f1 & e & Y1 & Y2 & Y3 & ->) & X)]; [left; exact X|right].
  exists b1, c1, b2, d1, f1, e. auto.
Qed.

(** Finding: after a raise with dependencies [2], the next render with [2] returns the value computed for [1]. *)
Definition stale : list call :=
  [KBegin 0; KMemo 0 (Some [VInt 1]) (inl (VInt 10)); KEnd 0;
   KBegin 0; KMemo 0 (Some [VInt 2]) (inr "boom"); KEnd 0; KBegin 0].
Theorem C18_refuted :
  exists n a c h d f i v,
    on n (a ++ [c]) /\ memo_of c = Some (h, d, f) /\ reply R0 n a c = RMemo i v false /\ f <> inl v /\
    ~ (exists a1 c1 a2 d1, a = a1 ++ c1 :: a2 /\ memo_of c1 = Some (h, d1, inl v) /\ exists ds, d = Some ds /\ same_items (given d1) ds).
Proof.
  exists 1, stale, (KMemo 0 (Some [VInt 2]) (inl (VInt 20))), 0, (Some [VInt 2]), (inl (VInt 20)), 0, (VInt 10).
  split; [apply on_dec; reflexivity|]. split; [reflexivity|]. split; [vm_compute; reflexivity|]. split; [discriminate|].
  intros (a1 & c1 & a2 & d1 & E & M & ds & D & S). injection D as <-. unfold stale in E.
  destruct a1 as [|x0 [|x1 [|x2 [|x3 [|x4 [|x5 [|x6 [|x7 a1]]]]]]]]; simpl in E; injection E; intros; subst; try discriminate; simpl in M; injection M; intros; subst.
  - inversion S; subst. discriminate.
Qed.

(** ** C19 *)

(** The object of a [use_ref] call is its slot (C15: the same in every render); its content changes only by assignment. *)
Theorem C19_use_ref R n a b h init init' i v v' :
  on n (a ++ KRef h init :: b ++ [KRef h init']) ->
  reply R n a (KRef h init) = RRef i v ->
  reply R n (a ++ KRef h init :: b) (KRef h init') = RRef i v' ->
  (forall w, ~ In (KSetRef h i w) b) -> v' = v.
Proof. intros ON E E' NS. eapply (ref_stable R n a b h init init' i i v v'); eauto. intros c w J ->. exact (NS w J). Qed.

(** [use_callback] returns the function of the latest render in which the dependencies changed. *)
Theorem C19_use_callback R n a b h d f d' f' i v v' ran ran' :
  on n (a ++ KCallback h d f :: b ++ [KCallback h d' f']) ->
  reply R n a (KCallback h d f) = RMemo i v ran ->
  memo_unused R n (a ++ [KCallback h d f]) b h i ->
  reply R n (a ++ KCallback h d f :: b) (KCallback h d' f') = RMemo i v' ran' ->
  (ran' = true <-> ~ exists ds, d' = Some ds /\ same_items (given d) ds) /\ v' = if ran' then f' else v.
Proof.
  intros ON E U E'. destruct (C17_recomputes_iff_changed R n a _ b _ h d (inl f) d' (inl f') i ran ran' ON eq_refl eq_refl) as (A & B & C); auto; try (rewrite ?E, ?E'; reflexivity).
  split.
  - destruct ran'; [split; auto; intros _ X; apply A in X; discriminate|]. split; [discriminate|]. intros X. exfalso. apply X. apply A. reflexivity.
  - destruct ran'; [|eapply C; eauto]. destruct (B eq_refl) as (w & X & Y). injection X as <-. eapply Y. exact E'.
Qed.
Example C19_example :
  reply R0 2 (upto 4) (KRef 0 (VStr "r")) = RRef 4 (VStr "r") /\ reply R0 2 (upto 19) (KRef 0 (VStr "r")) = RRef 4 (VStr "r") /\
  reply R0 2 (upto 6) (KCallback 0 (Some [VInt 1]) (VStr "f")) = RMemo 7 (VStr "f") true /\
  reply R0 2 (upto 21) (KCallback 0 (Some [VInt 1]) (VStr "g")) = RMemo 7 (VStr "f") false /\
  reply R0 2 (upto 30) (KCallback 0 (Some [VInt 2]) (VStr "h")) = RMemo 7 (VStr "h") true.
Proof. vm_compute. repeat split. Qed.

(** ** C20 *)

(** After the first render the slots stay, whatever later renders do (raise at any point, call fewer hooks, ...);
    with C14 and C15 the next render finds the same values at the same positions. *)
Theorem C20_slots_survive R n a b h :
  on n (a ++ KEnd h :: b) -> h < n -> reply R n a (KEnd h) = RDone ->
  length (hk_cells (get_hook h (state_after R n (a ++ KEnd h :: b)))) = length (hk_cells (get_hook h (state_after R n a))).
Proof. exact (slots_fixed R n a b h). Qed.

(** Finding: hooks beyond those reached in the first render raise IndexError in every later render. *)
Theorem C20_first_render_failure R n a b1 b2 h c :
  on n (a ++ KEnd h :: b1 ++ KEnd h :: b2 ++ [c]) -> h < n ->
  one_render R n [] a h -> reply R n a (KEnd h) = RDone ->
  reply R n (a ++ KEnd h :: b1) (KEnd h) = RDone ->
  one_render R n ((a ++ KEnd h :: b1) ++ [KEnd h]) b2 h ->
  taken h b2 = taken h a -> caller c = Some h ->
  reply R n (a ++ KEnd h :: b1 ++ KEnd h :: b2) c = RRaised EIndexError.
Proof.
  intros ON L SM ER ER2 SM2 TK CC. apply (beyond_raises R n a b1 b2 h c ON L (one_render_smooth R n [] a h SM) ER ER2 (one_render_smooth _ _ _ _ _ SM2) TK CC).
Qed.

(** In a layout: the first render raises after one [use_state]; although the cause is gone, the component never
    renders again. *)
Definition flaky := LayoutFindings.app_of
  (PState (VInt 0) (fun v _ => if veq v (VInt 0) then PRaise "not ready" else PState (VInt 1) (fun _ _ => PRet (RText "ready"))))
  (PRet RNone).
Definition flaky_ops : list op :=
  [ORender []; OEnv (EDispatch 0 0 (UVal (VInt 1))); ORender []; OEnv (EDispatch 0 0 (UVal (VInt 2))); ORender []].
Theorem C20_refuted :
  exists s, LayoutHistory.history true flaky LayoutFindings.root0 flaky_ops s /\
    filter (fun e => match e with EvError _ _ => true | _ => false end) (s_log s)
    = [EvError 0 (EUser "not ready"); EvError 0 EIndexError; EvError 0 EIndexError].
Proof. eexists. split; [exists 40; vm_compute; reflexivity|vm_compute; reflexivity]. Qed.
Example C20_example :
  let a := [KBegin 0; KState 0 (VInt 0)] in
  let b2 := [KBegin 0; KState 0 (VInt 0)] in
  reply R0 1 a (KEnd 0) = RDone /\ reply R0 1 (a ++ KEnd 0 :: [KBegin 0; KState 0 (VInt 0)]) (KEnd 0) = RDone /\
  one_render R0 1 [] a 0 /\ one_render R0 1 ((a ++ KEnd 0 :: [KBegin 0; KState 0 (VInt 0)]) ++ [KEnd 0]) b2 0 /\ taken 0 b2 = taken 0 a.
Proof.
  cbv zeta. split; [vm_compute; reflexivity|]. split; [vm_compute; reflexivity|].
  split; [apply calm_one_render; vm_compute; reflexivity|]. split; [apply calm_one_render; vm_compute; reflexivity|reflexivity].
Qed.

Print Assumptions C14_render_functions_are_calls.
Print Assumptions C14_use_state_initial.
Print Assumptions C14_use_state_fold.
Print Assumptions C14_render_requested_iff_changed.
Print Assumptions C15_slots_positional.
Print Assumptions C15_slots_positional_first.
Print Assumptions C15_same_calls_same_slots.
Print Assumptions C15_dispatch_is_local.
Print Assumptions C16_first_render.
Print Assumptions C16_later_renders.
Print Assumptions C16_action_is_first_reducer.
Print Assumptions C17_first_use_computes.
Print Assumptions C17_recomputes_iff_changed.
Print Assumptions C18_value_belongs_to_deps_partial.
Print Assumptions C18_refuted.
Print Assumptions C19_use_ref.
Print Assumptions C19_use_callback.
Print Assumptions C20_slots_survive.
Print Assumptions C20_first_render_failure.
Print Assumptions C20_refuted.
