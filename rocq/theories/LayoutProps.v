(** * Properties C01-C08, C10-C13 of the layout (serial rendering)

    Vocabulary: [history] (LayoutHistory.v), [client] and [displays] (DisplaySpec.v), [mounted] (LayoutObs.v),
    [steady_app], [keyed_app] (GuardSpec.v). *)
From Coq Require Import String Ascii ZArith Bool Arith Lia List Permutation.
From Verif Require Import Dict Strings LayoutTypes LayoutModel BodySpec DisplaySpec DisplayFacts GuardSpec LayoutObs LayoutHistory
  LayoutReach LayoutRun HooksModel HooksSteady LayoutDemo LayoutFindings ChildrenFacts.
Import ListNotations.
Local Open Scope string_scope.
Local Open Scope list_scope.

(** ** C01 *)

(** At quiescence the client's model displays, for every mounted instance, what its render function returns on its
    current state, its arguments and the contexts provided above it. *)
Theorem C01_ui_is_function_of_state : forall debug defs root ops s n,
  steady_app defs ->
  history debug defs root ops s -> mild_failures (s_log s) ->
  mounted s = Some n -> quiescent s n ->
  exists M binds,
    client (updates (s_log s)) = Some (Some M) /\
    displays (right debug defs s) no_ctx (RComp root) M n binds.
Proof. exact reach_quiescent. Qed.
Print Assumptions C01_ui_is_function_of_state.

(** The same for applications written with the hooks of hooks.py. *)
Theorem C01_ui_of_hook_programs : forall debug progs root ops s n,
  (forall k p kids h, scoped h 0 (progs k p kids)) ->
  let defs := fun k p kids => compile (progs k p kids) in
  history debug defs root ops s -> mild_failures (s_log s) ->
  mounted s = Some n -> quiescent s n ->
  exists M binds,
    client (updates (s_log s)) = Some (Some M) /\
    displays (right debug defs s) no_ctx (RComp root) M n binds.
Proof.
  intros debug progs root ops s n SC defs. apply reach_quiescent. split; intros; [apply compile_steady; intros; apply SC|apply compile_no_provide].
Qed.
Print Assumptions C01_ui_of_hook_programs.

(** Two histories, however different, that end quiescent with the same instances in the same states, the last renders
    of which failed alike, display the same, up to event targets and acknowledged sequence numbers. *)
Theorem C01_same_state_same_ui : forall debug defs root ops1 ops2 s1 s2 n,
  steady_app defs ->
  history debug defs root ops1 s1 -> mild_failures (s_log s1) -> mounted s1 = Some n -> quiescent s1 n ->
  history debug defs root ops2 s2 -> mild_failures (s_log s2) -> mounted s2 = Some n -> quiescent s2 n ->
  (forall h, In h (ids n) -> state_of s1 h = state_of s2 h) ->
  (forall h e, In h (ids n) -> (last_failure (s_log s1) h e <-> last_failure (s_log s2) h e)) ->
  exists M1 M2,
    client (updates (s_log s1)) = Some (Some M1) /\ client (updates (s_log s2)) = Some (Some M2) /\
    strip M1 = strip M2.
Proof.
  intros debug defs root ops1 ops2 s1 s2 n SA H1 F1 N1 Q1 H2 F2 N2 Q2 SS LF.
  destruct (reach_quiescent _ _ _ _ _ _ SA H1 F1 N1 Q1) as (M1 & b1 & C1 & D1).
  destruct (reach_quiescent _ _ _ _ _ _ SA H2 F2 N2 Q2) as (M2 & b2 & C2 & D2).
  exists M1, M2. split; [exact C1|]. split; [exact C2|].
  destruct (displays_impl (right debug defs s1) (right debug defs s2)) as [X _].
  destruct (displays_impl (right debug defs s2)
              (fun h c env out => right debug defs s2 h c env out /\ match out with Failed e _ => raised e | _ => True end)) as [Y _].
  assert (RS : forall h c env out, In h (ids n) -> right debug defs s2 h c env out ->
            right debug defs s2 h c env out /\ match out with Failed e _ => raised e | _ => True end).
  { intros h c env [r|e x] J R; (split; [exact R|]); [exact I|]. destruct R as [(l1 & l2 & E & _) _].
    rewrite (app_assoc l1 [EvRender h] (EvError h e :: l2) : l1 ++ EvRender h :: EvError h e :: l2 = _) in E. apply (F2 _ _ _ _ E). }
  refine (proj1 (displays_unique _ _ _ _ _ _ _ (Y _ _ _ _ _ (X _ _ _ _ _ D1 _) RS) _ _ (Y _ _ _ _ _ D2 RS))).
  - intros h c env [r1|e1 x1] [r2|e2 x2] [R1 S1] [R2 S2]; simpl in R1, R2.
    + f_equal. destruct R1 as [R1 _], R2 as [R2 _]. eapply returns_fun; eauto.
    + exfalso. destruct R1 as [_ R1], R2 as [R2 _]. exact (R1 _ R2).
    + exfalso. destruct R2 as [_ R2], R1 as [R1 _]. exact (R2 _ R1).
    + destruct R1 as [R1 T1], R2 as [R2 T2]. assert (e1 = e2) by (eapply last_failure_fun; eauto). subst e2. f_equal.
      eapply error_text_fun; eauto.
  - intros h c env [r|e x] J R; simpl in *.
    + rewrite <- (SS h J). split; [apply R|]. intros e K. apply LF in K; [|exact J]. destruct R as [_ R]. exact (R e K).
    + split; [apply LF; [exact J|apply R]|apply R].
Qed.
Print Assumptions C01_same_state_same_ui.

Example C01_nonvacuous : exists n,
  steady_app demo /\ history true demo demo_root (demo_ops ++ demo_more) demo_end /\ no_failure (s_log demo_end) /\
  mounted demo_end = Some n /\ quiescent demo_end n /\ ids n = [0; 1; 3] /\
  state_of demo_end 3 = [CState (VInt 6); CMemo [] (Some VNone); CRef VNone].
Proof.
  eexists. split; [apply demo_steady|]. split; [apply demo_end_history|]. split; [apply demo_end_ok|]. split; [vm_compute; reflexivity|].
  split; [|split; reflexivity]. intros h J K. vm_compute in J, K. intuition (subst; discriminate).
Qed.

(** A component that raises until it is ready: displayed as its error, then, after its state changed, as its output. *)
Example C01_nonvacuous_failing : exists n,
  steady_app flaky /\
  history true flaky demo_root flaky_ops flaky_mid /\ mild_failures (s_log flaky_mid) /\ ~ no_failure (s_log flaky_mid) /\
  mounted flaky_mid = Some n /\ quiescent flaky_mid n /\ last_failure (s_log flaky_mid) 1 (EUser "not ready") /\
  option_map (option_map (fun m => (errors_in m, texts_in m))) (client (updates (s_log flaky_mid))) = Some (Some (["not ready"], ["3"])) /\
  history true flaky demo_root (flaky_ops ++ flaky_more) flaky_end /\ mild_failures (s_log flaky_end) /\
  mounted flaky_end = Some n /\ quiescent flaky_end n /\
  option_map (option_map (fun m => (errors_in m, texts_in m))) (client (updates (s_log flaky_end))) = Some (Some ([], ["ready"; "3"])).
Proof.
  eexists. split; [apply flaky_steady|]. split; [apply flaky_mid_history|]. split; [apply flaky_mid_ok|].
  split; [intros N; apply (N 1 (EUser "not ready")); vm_compute; tauto|]. split; [vm_compute; reflexivity|].
  split; [intros h J K; vm_compute in J, K; intuition (subst; discriminate)|].
  split; [eexists [_; _]; eexists; split; [vm_compute; reflexivity|vm_compute; intuition discriminate]|].
  split; [vm_compute; reflexivity|].
  split; [apply flaky_end_history|]. split; [apply flaky_end_ok|]. split; [vm_compute; reflexivity|].
  split; [intros h J K; vm_compute in J, K; intuition (subst; discriminate)|vm_compute; reflexivity].
Qed.

(** The same component fails again after it had shown its output, and then recovers once more. *)
Example C01_nonvacuous_failing_again : exists n,
  history true flaky demo_root (flaky_ops ++ flaky_more ++ flaky_again) flaky_down /\ mild_failures (s_log flaky_down) /\
  In (EvReturn 1 (RText "ready")) (s_log flaky_down) /\
  mounted flaky_down = Some n /\ quiescent flaky_down n /\ last_failure (s_log flaky_down) 1 (EUser "not ready") /\
  option_map (option_map (fun m => (errors_in m, texts_in m))) (client (updates (s_log flaky_down))) = Some (Some (["not ready"], ["3"])) /\
  history true flaky demo_root (flaky_ops ++ flaky_more ++ flaky_again ++ flaky_more) flaky_up /\ mild_failures (s_log flaky_up) /\
  mounted flaky_up = Some n /\ quiescent flaky_up n /\
  option_map (option_map (fun m => (errors_in m, texts_in m))) (client (updates (s_log flaky_up))) = Some (Some ([], ["ready"; "3"])).
Proof.
  eexists. split; [apply flaky_down_history|]. split; [apply mild_dec; reflexivity|].
  split; [vm_compute; tauto|]. split; [vm_compute; reflexivity|].
  split; [intros h J K; vm_compute in J, K; intuition (subst; discriminate)|].
  split; [apply flaky_down_failed|].
  split; [vm_compute; reflexivity|].
  split; [apply flaky_up_history|]. split; [apply mild_dec; reflexivity|]. split; [vm_compute; reflexivity|].
  split; [intros h J K; vm_compute in J, K; intuition (subst; discriminate)|vm_compute; reflexivity].
Qed.

(** ** C02 *)

(** After any history the client that applied all updates holds a model of exactly the mounted tree: every path it
    was sent existed, and each instance not waiting for a render is displayed with its current output. *)
Theorem C02_client_mirrors : forall debug defs root ops s n,
  history debug defs root ops s -> mild_failures (s_log s) -> mounted s = Some n -> updates (s_log s) <> [] ->
  exists M binds,
    client (updates (s_log s)) = Some (Some M) /\
    displays (fun _ _ _ _ => True) no_ctx (RComp root) M n binds /\
    (steady_app defs -> displays (current debug defs s) no_ctx (RComp root) M n binds).
Proof.
  intros debug defs root ops s n H NF MT U. destruct (reach_display _ _ _ _ _ _ H NF MT (or_introl U)) as (M & b & C & D & E & _).
  exists M, b. split; [exact C|]. split; [exact D|]. intros SA. apply (E SA).
Qed.
Print Assumptions C02_client_mirrors.

(** And each single update applies to the model the client had. *)
Theorem C02_each_update_applies : forall debug defs root ops s bs s' p m,
  history debug defs root ops s -> next debug defs s (ORender bs) s' -> mild_failures (s_log s') ->
  updates (s_log s') = updates (s_log s) ++ [(p, m)] ->
  (updates (s_log s) = [] /\ p = []) \/
  exists M M', client (updates (s_log s)) = Some (Some M) /\ put_at p m M = Some M' /\
               client (updates (s_log s')) = Some (Some M').
Proof. exact reach_apply. Qed.
Print Assumptions C02_each_update_applies.

Example C02_nonvacuous :
  history true demo demo_root demo_ops demo_mid /\ no_failure (s_log demo_mid) /\
  map fst (updates (s_log demo_mid)) = [[]; [0; 0; 2]; []].
Proof. split; [apply demo_mid_history|]. split; [apply demo_mid_ok|reflexivity]. Qed.

(** ** C03 *)

(** An update replaces one mounted instance [h]; below it, identities are kept exactly for equal keys and types
    ([evolves], DisplaySpec.v), and every other instance is one that never rendered before. *)
Theorem C03_keyed_identity : forall debug defs root ops s n bs s' p m,
  history debug defs root ops s -> mounted s = Some n ->
  next debug defs s (ORender bs) s' -> mild_failures (s_log s') ->
  updates (s_log s') = updates (s_log s) ++ [(p, m)] ->
  exists h x x', occurs h n x /\ mounted s' = Some (replace_inst h x' n) /\
                 evolves (fun id => ~ In id (rendered (s_log s))) (Some x) x'.
Proof.
  intros debug defs root ops s n bs s' p m H MT NX NF UP.
  destruct (reach_update _ _ _ _ _ _ _ _ _ _ H MT NX NF UP) as (n' & h & x & x' & l & sk & es & A & B & -> & E & _).
  exists h, x, x'. auto.
Qed.
Print Assumptions C03_keyed_identity.

(** Other operations do not change who is mounted. *)
Theorem C03_otherwise_unchanged : forall debug defs root ops s n o s',
  history debug defs root ops s -> mounted s = Some n ->
  next debug defs s o s' -> mild_failures (s_log s') ->
  (forall p m, updates (s_log s') <> updates (s_log s) ++ [(p, m)]) -> mounted s' = Some n.
Proof.
  intros debug defs root ops s n o s' H MT NX NF UP.
  destruct (reach_updates _ _ _ _ _ _ _ H NX NF) as [E|(p & m & E)]; [|exfalso; eapply UP; eauto].
  apply (reach_no_update _ _ _ _ _ _ _ _ H MT NX NF E).
Qed.
Print Assumptions C03_otherwise_unchanged.

(** Non-vacuity: the demo swaps two keyed counters, which keep their instances, then removes one. *)
Example C03_nonvacuous :
  mounted (end_of [ORender []]) =
    Some (IComp 0 (CTUser 0) [(KInt 0, IComp 1 (CTContext 7) [(KInt 0, IElem
      [(KStr "a", IComp 2 (CTUser 1) [(KInt 0, IElem [])]); (KStr "b", IComp 3 (CTUser 1) [(KInt 0, IElem [])])])])]) /\
  mounted demo_mid =
    Some (IComp 0 (CTUser 0) [(KInt 0, IComp 1 (CTContext 7) [(KInt 0, IElem
      [(KStr "b", IComp 3 (CTUser 1) [(KInt 0, IElem [])]); (KStr "a", IComp 2 (CTUser 1) [(KInt 0, IElem [])])])])]) /\
  mounted demo_end =
    Some (IComp 0 (CTUser 0) [(KInt 0, IComp 1 (CTContext 7) [(KInt 0, IElem
      [(KInt 0, IElem []); (KStr "b", IComp 3 (CTUser 1) [(KInt 0, IElem [])])])])]).
Proof. repeat split; vm_compute; reflexivity. Qed.

(** ** C04 *)

(** During one update, the unmount calls are exactly those of the instances that leave, once each. *)
Theorem C04_unmounts_of_an_update : forall debug defs root ops s n n' bs s' l,
  history debug defs root ops s -> mounted s = Some n ->
  next debug defs s (ORender bs) s' -> mild_failures (s_log s') -> mounted s' = Some n' -> added s s' l ->
  NoDup (unmounted l) /\ forall id, In id (unmounted l) <-> In id (ids n) /\ ~ In id (ids n').
Proof. exact reach_unmounts. Qed.
Print Assumptions C04_unmounts_of_an_update.

(** Over the whole history no instance is unmounted twice, and nothing happens to it afterwards. *)
Theorem C04_at_most_once : forall debug defs root ops s n,
  history debug defs root ops s -> mild_failures (s_log s) -> mounted s = Some n ->
  NoDup (unmounted (s_log s)) /\ silent_after_unmount (s_log s) /\
  (forall id, In id (rendered (s_log s)) -> In id (ids n) \/ In id (unmounted (s_log s))).
Proof.
  intros debug defs root ops s n H NF MT. destruct (reach_log _ _ _ _ _ _ H NF MT) as (A & B & C & D & E). auto.
Qed.
Print Assumptions C04_at_most_once.

(** Leaving the layout unmounts everything still mounted, once; then every instance ever rendered is unmounted. *)
Theorem C04_exit_unmounts_all : forall debug defs root ops s n bs s',
  history debug defs root ops s -> mild_failures (s_log s) -> mounted s = Some n -> exits s bs s' ->
  exists l, added s s' l /\ rendered l = [] /\ Permutation (unmounted l) (ids n) /\
    NoDup (unmounted (s_log s')) /\ silent_after_unmount (s_log s') /\
    (forall id, In id (rendered (s_log s')) -> In id (unmounted (s_log s'))).
Proof.
  intros debug defs root ops s n bs s' H NF MT EX. destruct (reach_exit _ _ _ _ _ _ _ _ H NF MT EX) as (l & A & B & C & D & E & F & _).
  exists l. auto 10.
Qed.
Print Assumptions C04_exit_unmounts_all.

(** And leaving never fails (well-formed keys and handlers). *)
Theorem C04_exit_succeeds : forall debug defs root ops s fuel bs r s',
  keyed_app defs root -> history debug defs root ops s -> mild_failures (s_log s) ->
  close fuel (set_env bs s) = (r, s') -> r = Ok tt \/ r = Fuel.
Proof. exact reach_exit_total. Qed.
Print Assumptions C04_exit_succeeds.

Definition demo_closed : st := Eval vm_compute in snd (close 40 (set_env [[EDispatch 3 0 (UVal VNone)]] demo_end)).
Example C04_nonvacuous :
  exits demo_end [[EDispatch 3 0 (UVal VNone)]] demo_closed /\ unmounted (s_log demo_end) = [2] /\
  unmounted (s_log demo_closed) = [2; 0; 1; 3].
Proof. split; [exists 40; vm_compute; reflexivity|]. split; reflexivity. Qed.

(** ** C05 *)

(** The components a layout can re-render are exactly the mounted ones. *)
Theorem C05_rerenderable_iff_mounted : forall debug defs root ops s n,
  history debug defs root ops s -> mild_failures (s_log s) -> mounted s = Some n ->
  NoDup (ids n) /\ forall h, dget h (s_reg s) <> None <-> In h (ids n).
Proof. exact reach_registry. Qed.
Print Assumptions C05_rerenderable_iff_mounted.

(** Observably: the next pending request is rendered iff it belongs to a mounted instance, else skipped. *)
Theorem C05_reacts_iff_mounted : forall debug defs root ops s n h q bs s',
  history debug defs root ops s -> mounted s = Some n -> s_queue s = h :: q ->
  next debug defs s (ORender bs) s' -> mild_failures (s_log s') ->
  exists l, added s s' l /\
    (In h (ids n) -> In h (rendered l) /\ (forall x, ~ In (EvSkip x) l)) /\
    (~ In h (ids n) -> exists l', l = EvSkip h :: l').
Proof. exact reach_serve. Qed.
Print Assumptions C05_reacts_iff_mounted.

Example C05_nonvacuous : exists s s',
  history true demo demo_root (demo_ops ++ demo_more ++ [OEnv (EDispatch 2 0 (UVal (VInt 77)))]) s /\
  s_queue s = [2] /\ next true demo s (ORender []) s' /\ s_log s' = s_log s ++ [EvSkip 2].
Proof.
  do 2 eexists. split; [exists 40; vm_compute; reflexivity|]. split; [reflexivity|]. split; [exists 40; vm_compute; reflexivity|reflexivity].
Qed.

(** Without the guard: after a render that raised, an instance that is not mounted stays re-renderable, and
    changing its state makes [render()] raise. *)
Theorem C05_refuted : exists debug defs root ops s n h,
  steady_app defs /\ history debug defs root ops s /\ mounted s = Some n /\
  dget h (s_reg s) <> None /\ ~ In h (ids n) /\ unmounted (s_log s) = [] /\
  exists s' e, history debug defs root (ops ++ [OEnv (EDispatch h 0 (UVal (VInt 3))); ORender []]) s' /\ In (EvCrash e) (s_log s').
Proof.
  exists false, raising, root0, raising_ops, raising_end. eexists. exists 1. split.
  { split; intros [|[|n]] p l; try apply compile_no_provide; apply compile_steady; intros h; simpl; auto.
    intros v. destruct (veq v (VInt 0)); simpl; auto. }
  split; [exists 40; vm_compute; reflexivity|]. split; [vm_compute; reflexivity|]. split; [discriminate|].
  split; [vm_compute; intuition discriminate|]. split; [reflexivity|].
  eexists. exists EDetached. split; [exists 40; vm_compute; reflexivity|]. vm_compute. tauto.
Qed.
Print Assumptions C05_refuted.

(** ** C06 *)

(** With automatic targets and well-formed keys: the registered targets are exactly those in the client's model,
    each bound to the handler that the owning element has in its component's current output. *)
Theorem C06_targets_exact : forall debug defs root ops s n,
  keyed_app defs root ->
  history debug defs root ops s -> mild_failures (s_log s) -> mounted s = Some n -> updates (s_log s) <> [] ->
  exists M binds,
    client (updates (s_log s)) = Some (Some M) /\
    displays (fun _ _ _ _ => True) no_ctx (RComp root) M n binds /\
    (steady_app defs -> displays (current debug defs s) no_ctx (RComp root) M n binds) /\
    model_targets M = dkeys binds /\
    (forall x, dget x (s_eh s) = dget x binds).
Proof.
  intros debug defs root ops s n KA H NF MT U. destruct (reach_display _ _ _ _ _ _ H NF MT (or_introl U)) as (M & b & C & D & E & K).
  exists M, b. split; [exact C|]. split; [exact D|]. split; [intros SA; apply (E SA)|]. split; [|apply (K KA)].
  eapply displays_targets; exact D.
Qed.
Print Assumptions C06_targets_exact.

Example C06_nonvacuous : keyed_app demo demo_root /\ history true demo demo_root demo_ops demo_mid /\
  s_eh demo_mid = [("/0/0/a/0:onClick", Handler 1 false true None None None); ("/0/0/b/0:onClick", Handler 1 false true None None None)].
Proof. split; [apply demo_keyed|]. split; [apply demo_mid_history|reflexivity]. Qed.

(** With user-chosen targets it fails: a changed target stays registered. *)
Theorem C06_refuted : exists debug defs root ops s M x,
  steady_app defs /\ history debug defs root ops s /\ no_failure (s_log s) /\
  client (updates (s_log s)) = Some (Some M) /\ dget x (s_eh s) <> None /\ ~ In x (model_targets M).
Proof.
  exists false, retarget, root0, retarget_ops, retarget_end. eexists. exists "old". split.
  { split; intros [|n] p l; try apply compile_no_provide; apply compile_steady; intros h; simpl; auto. }
  split; [exists 40; vm_compute; reflexivity|]. split; [apply no_failure_dec; reflexivity|]. split; [vm_compute; reflexivity|].
  split; [discriminate|]. vm_compute. intuition discriminate.
Qed.
Print Assumptions C06_refuted.

(** Two elements sharing a user-chosen target make a later render fail (KeyError) when both are removed. *)
Theorem C06_shared_target_refuted : exists debug defs root ops s h,
  steady_app defs /\ history debug defs root ops s /\ In (EvError h EKeyError) (s_log s).
Proof.
  exists false, sharing, root0, sharing_ops, sharing_end, 0. split.
  { split; intros [|n] p l; try apply compile_no_provide; apply compile_steady; intros h; simpl; auto. }
  split; [exists 40; vm_compute; reflexivity|]. vm_compute. tauto.
Qed.
Print Assumptions C06_shared_target_refuted.

(** ** C07 *)

Theorem C07_auto_targets_injective : forall ks1 ev1 ks2 ev2,
  Forall (nochar "/"%char) (map show_key ks1) -> Forall (nochar "/"%char) (map show_key ks2) ->
  nochar ":"%char ev1 -> nochar ":"%char ev2 ->
  auto_target ks1 ev1 = auto_target ks2 ev2 -> map show_key ks1 = map show_key ks2 /\ ev1 = ev2.
Proof. exact auto_target_inj. Qed.
Print Assumptions C07_auto_targets_injective.

(** In every tree of a well-formed application all targets are different. *)
Theorem C07_no_collision_in_a_tree : forall debug defs root ops s n,
  keyed_app defs root ->
  history debug defs root ops s -> mild_failures (s_log s) -> mounted s = Some n -> updates (s_log s) <> [] ->
  exists M, client (updates (s_log s)) = Some (Some M) /\ NoDup (model_targets M).
Proof.
  intros debug defs root ops s n KA H NF MT U. destruct (reach_display _ _ _ _ _ _ H NF MT (or_introl U)) as (M & b & C & D & E & K).
  exists M. split; [exact C|]. rewrite (displays_targets _ _ _ _ _ _ D). apply (K KA).
Qed.
Print Assumptions C07_no_collision_in_a_tree.

Example C07_nonvacuous : auto_target [KInt 0; KStr "a"] "onClick" = "/0/a:onClick" /\
  keyed_app demo demo_root /\ option_map (option_map model_targets) (client (updates (s_log demo_mid))) =
  Some (Some ["/0/0/b/0:onClick"; "/0/0/a/0:onClick"]).
Proof. split; [reflexivity|]. split; [apply demo_keyed|vm_compute; reflexivity]. Qed.

(** Without the guards targets collide: '/' in a key, or a string key that spells a sibling's position. *)
Theorem C07_refuted :
  (exists ks1 ks2 ev, map show_key ks1 <> map show_key ks2 /\ auto_target ks1 ev = auto_target ks2 ev) /\
  (exists debug defs root ops s M,
     steady_app defs /\ history debug defs root ops s /\ no_failure (s_log s) /\
     client (updates (s_log s)) = Some (Some M) /\ ~ NoDup (model_targets M)).
Proof.
  split; [exists [KStr "a/b"], [KStr "a"; KStr "b"], "onClick"; split; [discriminate|reflexivity]|].
  exists false, colliding, root0, [ORender []], colliding_end. eexists. split.
  { split; intros [|n] p l; try apply compile_no_provide; apply compile_steady; intros h; simpl; auto. }
  split; [exists 40; vm_compute; reflexivity|]. split; [apply no_failure_dec; reflexivity|]. split; [vm_compute; reflexivity|].
  vm_compute. intros ND. inversion ND as [|? ? NI _]; subst. apply NI. left. reflexivity.
Qed.
Print Assumptions C07_refuted.

(** ** C08 *)

Theorem C08_duplicates_detected : forall debug defs fuel old new l s,
  clash l -> render_children debug defs (S fuel) old new l s = (Raise EDuplicateKeys, s).
Proof. exact clash_raises. Qed.
Print Assumptions C08_duplicates_detected.

Theorem C08_distinct_accepted : forall l, ~ clash l <-> snd (get_children_info l) = Some (keys_from 0 l).
Proof. exact no_clash_accepted. Qed.
Print Assumptions C08_distinct_accepted.

Example C08_nonvacuous :
  clash [RText "x"; RNone; counter (Some (KInt 0))] /\ ~ clash [RText "x"; RNone; counter (Some (KInt 1)); counter None].
Proof.
  split.
  - exists 0, 2, (RText "x"), (counter (Some (KInt 0))). repeat split; auto; discriminate.
  - apply no_clash_accepted. reflexivity.
Qed.

(** ** C10 *)

(** Replacing a child by None removes that child's own entry and leaves the entries (kind, key) of all others. *)
Theorem C10_none_keeps_siblings : forall l1 r l2, exists a x b,
  length x <= 1 /\
  fst (get_children_info (l1 ++ r :: l2)) = a ++ x ++ b /\
  fst (get_children_info (l1 ++ RNone :: l2)) = a ++ b.
Proof. exact none_keeps_siblings. Qed.
Print Assumptions C10_none_keeps_siblings.

(** In the displayed children a None contributes nothing, and the others are displayed as if it were some other child. *)
Theorem C10_none_not_displayed : forall outputs env l1 l2 ms ns bs,
  displays_all outputs env 0 (l1 ++ RNone :: l2) ms ns bs <->
  exists ms1 ns1 bs1 ms2 ns2 bs2,
    displays_all outputs env 0 l1 ms1 ns1 bs1 /\ displays_all outputs env (S (length l1)) l2 ms2 ns2 bs2 /\
    ms = ms1 ++ ms2 /\ ns = ns1 ++ ns2 /\ bs = bs1 ++ bs2.
Proof. exact none_not_displayed. Qed.
Print Assumptions C10_none_not_displayed.

Example C10_nonvacuous :
  map snd (fst (get_children_info [RText "a"; RNone; RText "b"; counter (Some (KStr "k"))])) = [KInt 0; KInt 2; KStr "k"] /\
  map snd (fst (get_children_info [RText "a"; RText "x"; RText "b"; counter (Some (KStr "k"))])) = [KInt 0; KInt 1; KInt 2; KStr "k"].
Proof. split; reflexivity. Qed.

(** ** C11 *)

(** At most one pending request per instance. *)
Theorem C11_coalesced : forall debug defs root ops s,
  history debug defs root ops s -> mild_failures (s_log s) -> NoDup (s_queue s).
Proof. exact reach_queue. Qed.
Print Assumptions C11_coalesced.

(** A pending request of a mounted instance stays pending until that instance is rendered. *)
Theorem C11_never_lost : forall debug defs root ops s n h o s',
  history debug defs root ops s -> mounted s = Some n -> In h (ids n) -> In h (s_queue s) ->
  next debug defs s o s' -> mild_failures (s_log s') ->
  In h (s_queue s') \/ exists l, added s s' l /\ In h (rendered l).
Proof. exact reach_pending. Qed.
Print Assumptions C11_never_lost.

(** A step that changes the state of an instance without rendering it leaves a request pending ... *)
Theorem C11_changes_are_pending : forall debug defs root ops s n n' h o s' l,
  steady_app defs ->
  history debug defs root ops s -> mounted s = Some n -> mounted s' = Some n' -> In h (ids n) -> In h (ids n') ->
  next debug defs s o s' -> mild_failures (s_log s') -> added s s' l -> ~ In h (rendered l) ->
  state_of s' h <> state_of s h -> In h (s_queue s').
Proof. exact reach_change. Qed.
Print Assumptions C11_changes_are_pending.

(** ... and whenever no request of a mounted instance is pending, it shows the output for its current state, also if
    its state changed during or after its last render. *)
Theorem C11_no_request_means_current : forall debug defs root ops s n,
  steady_app defs -> history debug defs root ops s -> mild_failures (s_log s) -> mounted s = Some n -> updates (s_log s) <> [] ->
  exists M binds, client (updates (s_log s)) = Some (Some M) /\ displays (current debug defs s) no_ctx (RComp root) M n binds.
Proof.
  intros debug defs root ops s n SA H NF MT U. destruct (reach_display _ _ _ _ _ _ H NF MT (or_introl U)) as (M & b & C & D & E & _).
  exists M, b. split; [exact C|apply (E SA)].
Qed.
Print Assumptions C11_no_request_means_current.

Example C11_nonvacuous : exists s,
  history true demo demo_root (firstn 4 demo_ops) s /\ no_failure (s_log s) /\ s_queue s = [3; 0] /\ s_queue demo_mid = [2].
Proof.
  eexists. split; [exists 40; vm_compute; reflexivity|]. split; [apply no_failure_dec; reflexivity|]. split; reflexivity.
Qed.

(** ** C12 *)

(** Every mounted instance looks contexts up in exactly the values provided above it in the current tree. *)
Theorem C12_nearest_provider : forall debug defs root ops s n,
  steady_app defs ->
  history debug defs root ops s -> mild_failures (s_log s) -> mounted s = Some n -> updates (s_log s) <> [] ->
  exists M binds,
    client (updates (s_log s)) = Some (Some M) /\
    displays (fun h c env _ => forall y, dget y (hk_ctx (get_hook h s)) = visible c env y) no_ctx (RComp root) M n binds.
Proof.
  intros debug defs root ops s n SA H NF MT U. destruct (reach_display _ _ _ _ _ _ H NF MT (or_introl U)) as (M & b & C & D & E & _).
  exists M, b. split; [exact C|apply (E SA)].
Qed.
Print Assumptions C12_nearest_provider.

Example C12_nonvacuous : dget 7 (hk_ctx (get_hook 3 demo_mid)) = Some (VStr "dark") /\ dget 7 (hk_ctx (get_hook 0 demo_mid)) = None.
Proof. split; reflexivity. Qed.

(** ** C13 *)

(** An update's log: skipped requests, then the renders and unmounts of the pass (and failures, each right after the
    render that failed), then the effects of the rendered instances in reverse order of rendering, each once, then the
    update is returned. *)
Theorem C13_effects_after_renders : forall debug defs root ops s n bs s' p m,
  history debug defs root ops s -> mounted s = Some n ->
  next debug defs s (ORender bs) s' -> mild_failures (s_log s') ->
  updates (s_log s') = updates (s_log s) ++ [(p, m)] ->
  exists skips l es,
    added s s' (map EvSkip skips ++ l ++ es ++ [EvUpdate p m]) /\
    (forall e, In e l -> exists h, e = EvRender h \/ (exists r, e = EvReturn h r) \/ e = EvUnmount h \/ exists x, e = EvError h x) /\
    (forall e, In e es -> exists h fs, e = EvEffects h fs) /\
    (forall a h x b, l = a ++ EvError h x :: b -> exists a', a = a' ++ [EvRender h]) /\
    NoDup (rendered l) /\ effects_started es = rev (rendered l).
Proof.
  intros debug defs root ops s n bs s' p m H MT NX NF UP.
  destruct (reach_update _ _ _ _ _ _ _ _ _ _ H MT NX NF UP) as (n' & h & x & x' & l & sk & es & A & B & C & E & AD & R1 & R2 & R3 & R4 & R5 & R6 & R7 & R8 & R9).
  exists sk, l, es. split; [exact AD|]. split; [exact R4|]. split; [exact R3|]. split; [exact R9|]. rewrite R1. split; [exact R8|exact R2].
Qed.
Print Assumptions C13_effects_after_renders.

Example C13_nonvacuous : exists s s',
  history true demo demo_root [] s /\ next true demo s (ORender []) s' /\
  rendered (s_log s') = [0; 1; 2; 3] /\ effects_started (s_log s') = [3; 2; 1; 0].
Proof. do 2 eexists. split; [exists 40; reflexivity|]. split; [exists 40; vm_compute; reflexivity|]. split; reflexivity. Qed.
