(** * Model of [Layout] with serial rendering (/repo/src/reactpy/core/layout.py)

    A state-and-exception monad over a heap of [_ModelState] objects.  Wherever the code awaits, the
    environment runs an arbitrary batch of operations ([pause]); batches are inputs.
    Recursion is on fuel; running out gives [Fuel], which no [except] clause catches. *)
From Coq Require Import String ZArith Bool Arith Lia List.
From Verif Require Import Dict LayoutTypes.
Import ListNotations.
Local Open Scope string_scope.
Local Open Scope list_scope.

(** ** State *)

(** [_ModelState], layout.py:716-792.
    - [ms_parent]: the weak reference [_parent_ref] (None for the root);
    - [ms_index]: layout.py uses -1 for the root, where it is never read (here 0);
    - [ms_path]: the indices of [patch_path] ("/children/i/children/j" is [i; j]; ClientModel.path_string writes it out);
    - [ms_lcs]: the life cycle state [(id, hook, component)], layout.py:821-832; id and hook are created
      together and identified here (uuid4 collisions are not modelled). *)
Record mstate := MState {
  ms_parent : option nat;
  ms_index : nat;
  ms_key : option key;
  ms_path : list nat;
  ms_keypath : string;
  ms_model : model;
  ms_children : dict key nat;
  ms_targets : dict string string;
  ms_lcs : option (nat * cinst)
}.

(** [LifeCycleHook], _life_cycle_hook.py:151-164. [_effect_tasks]/[_effect_stops] are in EffectModel.v;
    [_render_access] matters only with async rendering (AsyncModel.v). *)
Record hook := Hook {
  hk_cells : list cell;
  hk_idx : nat;
  hk_once : bool;
  hk_sched : bool;
  hk_effects : list effect;
  hk_ctx : dict nat val
}.

(** Observable happenings. [EvRender] a component's render function is called, [EvReturn] it returns, [EvError] "Failed to render"
    is logged (layout.py:342), [EvUnmount] life cycle call [affect_component_will_unmount],
    [EvEffects] effect tasks are created (_life_cycle_hook.py:235-240), [EvSkip] "component already unmounted"
    (layout.py:205), [EvUpdate] [render()] returned this update, [EvCrash] [render()] raised. *)
Inductive event :=
| EvRender (h : nat)
| EvReturn (h : nat) (r : raw)
| EvError (h : nat) (e : exn)
| EvUnmount (h : nat)
| EvEffects (h : nat) (l : list effect)
| EvSkip (h : nat)
| EvUpdate (path : list nat) (m : model)
| EvCrash (e : exn).

(** What the environment can do while the layout awaits: call a state's dispatch function, or
    dequeue an event of a target carrying a sequence number (layout.py:158-166). *)
Inductive envop :=
| EDispatch (h i : nat) (u : upd_arg)
| ESeq (target : string) (seq : Z).

(** [Layout]'s attributes, layout.py:67-98.
    [s_queue]: [_rendering_queue]: pending ids in order (the full queue is in QueueModel.v;
    here its capacity is not reached).  [s_stack]: [HOOK_STACK] (head = top).
    [s_exit]: the [AsyncExitStack] (head = last pushed).  [s_env]: batches for the coming awaits. *)
Record st := St {
  s_heap : list mstate;
  s_reg : dict nat nat;
  s_eh : dict string handler;
  s_hooks : list hook;
  s_queue : list nat;
  s_stack : list nat;
  s_exit : list nat;
  s_seq : dict string Z;
  s_env : list (list envop);
  s_log : list event
}.

Definition set_heap x s := St x (s_reg s) (s_eh s) (s_hooks s) (s_queue s) (s_stack s) (s_exit s) (s_seq s) (s_env s) (s_log s).
Definition set_reg x s := St (s_heap s) x (s_eh s) (s_hooks s) (s_queue s) (s_stack s) (s_exit s) (s_seq s) (s_env s) (s_log s).
Definition set_eh x s := St (s_heap s) (s_reg s) x (s_hooks s) (s_queue s) (s_stack s) (s_exit s) (s_seq s) (s_env s) (s_log s).
Definition set_hooks x s := St (s_heap s) (s_reg s) (s_eh s) x (s_queue s) (s_stack s) (s_exit s) (s_seq s) (s_env s) (s_log s).
Definition set_queue x s := St (s_heap s) (s_reg s) (s_eh s) (s_hooks s) x (s_stack s) (s_exit s) (s_seq s) (s_env s) (s_log s).
Definition set_stack x s := St (s_heap s) (s_reg s) (s_eh s) (s_hooks s) (s_queue s) x (s_exit s) (s_seq s) (s_env s) (s_log s).
Definition set_exit x s := St (s_heap s) (s_reg s) (s_eh s) (s_hooks s) (s_queue s) (s_stack s) x (s_seq s) (s_env s) (s_log s).
Definition set_seq x s := St (s_heap s) (s_reg s) (s_eh s) (s_hooks s) (s_queue s) (s_stack s) (s_exit s) x (s_env s) (s_log s).
Definition set_env x s := St (s_heap s) (s_reg s) (s_eh s) (s_hooks s) (s_queue s) (s_stack s) (s_exit s) (s_seq s) x (s_log s).
Definition set_log x s := St (s_heap s) (s_reg s) (s_eh s) (s_hooks s) (s_queue s) (s_stack s) (s_exit s) (s_seq s) (s_env s) x.

(** ** Monad *)

Inductive res (A : Type) := Ok (a : A) | Raise (e : exn) | Fuel.
Arguments Ok {A} _. Arguments Raise {A} _. Arguments Fuel {A}.

Definition M (A : Type) := st -> res A * st.
Definition ret {A} (a : A) : M A := fun s => (Ok a, s).
Definition raise {A} (e : exn) : M A := fun s => (Raise e, s).
Definition no_fuel {A} : M A := fun s => (Fuel, s).
Definition bind {A B} (m : M A) (f : A -> M B) : M B :=
  fun s => match m s with
           | (Ok a, s') => f a s'
           | (Raise e, s') => (Raise e, s')
           | (Fuel, s') => (Fuel, s')
           end.
(** [try: m except Exception as e: h e] *)
Definition catch {A} (m : M A) (h : exn -> M A) : M A :=
  fun s => match m s with
           | (Raise e, s') => h e s'
           | r => r
           end.
(** [try: m finally: f] *)
Definition finally {A} (m : M A) (f : M unit) : M A :=
  fun s => match m s with
           | (Ok a, s') => match f s' with
                           | (Ok _, s'') => (Ok a, s'')
                           | (Raise e, s'') => (Raise e, s'')
                           | (Fuel, s'') => (Fuel, s'')
                           end
           | (Raise e, s') => match f s' with
                              | (Ok _, s'') => (Raise e, s'')
                              | (Raise e', s'') => (Raise e', s'')
                              | (Fuel, s'') => (Fuel, s'')
                              end
           | (Fuel, s') => (Fuel, s')
           end.
Definition gets {A} (f : st -> A) : M A := fun s => (Ok (f s), s).
Definition modify (f : st -> st) : M unit := fun s => (Ok tt, f s).

Notation "x <- m ;; f" := (bind m (fun x => f)) (at level 61, m at next level, right associativity).
Notation "m ;; f" := (bind m (fun _ => f)) (at level 61, right associativity).

Definition log (e : event) : M unit := modify (fun s => set_log (s_log s ++ [e]) s).

Definition get_ms (m : nat) : M mstate :=
  fun s => match nth_error (s_heap s) m with Some x => (Ok x, s) | None => (Raise EBadVdom, s) end.
Definition put_ms (m : nat) (x : mstate) : M unit :=
  modify (fun s => set_heap (upd (s_heap s) m x) s).
Definition new_ms (x : mstate) : M nat :=
  fun s => (Ok (length (s_heap s)), set_heap (s_heap s ++ [x]) s).

Definition no_hook : hook := Hook [] 0 false false [] [].
Definition get_hook (h : nat) (s : st) : hook := nth h (s_hooks s) no_hook.
Definition put_hook (h : nat) (x : hook) (s : st) : st := set_hooks (upd (s_hooks s) h x) s.
(** [LifeCycleHook.__init__], _life_cycle_hook.py:151-164. *)
Definition new_hook : M nat :=
  fun s => (Ok (length (s_hooks s)), set_hooks (s_hooks s ++ [no_hook]) s).

(** ** Scheduling *)

(** [_ThreadSafeQueue.put] below capacity: layout.py:845-848. *)
Definition queue_put (h : nat) (q : list nat) : list nat := if mem h q then q else q ++ [h].

(** [LifeCycleHook.schedule_render], _life_cycle_hook.py:166-175, with the callback
    [_schedule_render_task] in serial mode, layout.py:580-583. *)
Definition schedule_render (h : nat) (s : st) : st :=
  let hk := get_hook h s in
  if hk_sched hk then s
  else put_hook h (Hook (hk_cells hk) (hk_idx hk) (hk_once hk) true (hk_effects hk) (hk_ctx hk))
         (set_queue (queue_put h (s_queue s)) s).

(** [dispatch], /repo/src/reactpy/core/hooks.py:90-94. Only [_CurrentState] objects have a dispatch function. *)
Definition dispatch (h i : nat) (u : upd_arg) (s : st) : st :=
  let hk := get_hook h s in
  match nth_error (hk_cells hk) i with
  | Some (CState v) =>
      let v' := match u with UVal x => x | UFun f => f v end in
      if veq v' v then s
      else schedule_render h
             (put_hook h (Hook (upd (hk_cells hk) i (CState v')) (hk_idx hk) (hk_once hk) (hk_sched hk)
                               (hk_effects hk) (hk_ctx hk)) s)
  | _ => s
  end.

(** Recording a client sequence number, layout.py:158-166. *)
Definition record_seq (t : string) (z : Z) (s : st) : st :=
  if (0 <=? z)%Z
  then let prev := match dget t (s_seq s) with Some p => p | None => (-1)%Z end in
       if (prev <? z)%Z then set_seq (dset t z (s_seq s)) s else s
  else s.

Definition env_step (s : st) (o : envop) : st :=
  match o with
  | EDispatch h i u => dispatch h i u s
  | ESeq t z => record_seq t z s
  end.

(** An await: the next batch of environment operations runs. *)
Definition pause : M unit :=
  modify (fun s => match s_env s with
                   | [] => s
                   | b :: bs => fold_left env_step b (set_env bs s)
                   end).

(** ** Hook life cycle, _life_cycle_hook.py *)

Section Layout.

(** [REACTPY_DEBUG.current] and the render functions of the application's components. *)
Variable debug : bool.
Variable defs : nat -> val -> list raw -> body.

(** [HOOK_STACK.current_hook().use_state], _life_cycle_hook.py:177-192. *)
Definition use_cell (h : nat) (init : cell) : M (nat * cell) :=
  fun s =>
    let hk := get_hook h s in
    if hk_once hk
    then match nth_error (hk_cells hk) (hk_idx hk) with
         | Some c => (Ok (hk_idx hk, c),
                      put_hook h (Hook (hk_cells hk) (S (hk_idx hk)) (hk_once hk) (hk_sched hk)
                                       (hk_effects hk) (hk_ctx hk)) s)
         | None => (Raise EIndexError, s)
         end
    else (Ok (length (hk_cells hk), init),
          put_hook h (Hook (hk_cells hk ++ [init]) (S (hk_idx hk)) (hk_once hk) (hk_sched hk)
                           (hk_effects hk) (hk_ctx hk)) s).

Definition set_cell (h i : nat) (c : cell) (s : st) : st :=
  let hk := get_hook h s in
  put_hook h (Hook (upd (hk_cells hk) i c) (hk_idx hk) (hk_once hk) (hk_sched hk) (hk_effects hk) (hk_ctx hk)) s.

(** [add_effect], _life_cycle_hook.py:194-202. *)
Definition add_effect (h : nat) (e : effect) (s : st) : st :=
  let hk := get_hook h s in
  put_hook h (Hook (hk_cells hk) (hk_idx hk) (hk_once hk) (hk_sched hk) (hk_effects hk ++ [e]) (hk_ctx hk)) s.

(** [set_context_provider], _life_cycle_hook.py:204-210 (the provider is represented by its value). *)
Definition set_provider (h c : nat) (v : val) (s : st) : st :=
  let hk := get_hook h s in
  put_hook h (Hook (hk_cells hk) (hk_idx hk) (hk_once hk) (hk_sched hk) (hk_effects hk) (dset c v (hk_ctx hk))) s.

(** Executing a render function synchronously under hook [h]. *)
Fixpoint run_body (h : nat) (b : body) : M raw :=
  match b with
  | BRet r => ret r
  | BRaise msg => raise (EUser msg)
  | BUseCell init k => ic <- use_cell h init ;; run_body h (k h (fst ic) (snd ic))
  | BSetCell i c k => modify (set_cell h i c) ;; run_body h k
  | BAddEffect e k => modify (add_effect h e) ;; run_body h k
  | BContext c k => v <- gets (fun s => dget c (hk_ctx (get_hook h s))) ;; run_body h (k v)
  | BProvide c v k => modify (set_provider h c v) ;; run_body h k
  | BDispatch h' i u k => modify (dispatch h' i u) ;; run_body h k
  end.

(** [Component.render] / [ContextProvider.render]: /repo/src/reactpy/types.py:61-62, 1078-1082. *)
Definition render_fn (c : cinst) : body :=
  match c with
  | Cinst (CTUser n) _ p kids => defs n p kids
  | Cinst (CTContext x) _ p kids => BProvide x p (BRet (RElem "" None [] None None (Some kids)))
  end.

(** [set_current], _life_cycle_hook.py:254-264. *)
Definition set_current (h : nat) : M unit :=
  modify (fun s =>
    let s1 := match s_stack s with
              | [] => s
              | p :: _ =>
                  let hk := get_hook h s in
                  put_hook h (Hook (hk_cells hk) (hk_idx hk) (hk_once hk) (hk_sched hk) (hk_effects hk)
                                   (dupdate (hk_ctx hk) (hk_ctx (get_hook p s)))) s
              end in
    set_stack (h :: s_stack s1) s1).

(** [unset_current], _life_cycle_hook.py:266-278. *)
Definition unset_current (h : nat) : M unit :=
  fun s => match s_stack s with
           | [] => (Raise EHookStack, s)
           | p :: rest => if Nat.eq_dec p h then (Ok tt, set_stack rest s)
                          else (Raise EHookStack, set_stack rest s)
           end.

(** [affect_component_will_render], _life_cycle_hook.py:220-225. *)
Definition will_render (h : nat) : M unit :=
  pause ;;
  modify (fun s => let hk := get_hook h s in
                   put_hook h (Hook (hk_cells hk) (hk_idx hk) (hk_once hk) false (hk_effects hk) (hk_ctx hk)) s) ;;
  set_current h.

(** [affect_component_did_render], _life_cycle_hook.py:227-233. *)
Definition did_render (h : nat) : M unit :=
  unset_current h ;;
  modify (fun s => let hk := get_hook h s in
                   put_hook h (Hook (hk_cells hk) 0 true (hk_sched hk) (hk_effects hk) (hk_ctx hk)) s).

(** [affect_layout_did_render], _life_cycle_hook.py:235-240: create a task per registered effect. *)
Definition layout_did_render (h : nat) : M unit :=
  fun s => let hk := get_hook h s in
           (log (EvEffects h (hk_effects hk)))
             (put_hook h (Hook (hk_cells hk) (hk_idx hk) (hk_once hk) (hk_sched hk) [] (hk_ctx hk)) s).

(** [affect_component_will_unmount], _life_cycle_hook.py:242-252 (what happens to the effects: EffectModel.v). *)
Definition will_unmount (h : nat) : M unit := log (EvUnmount h) ;; pause.

(** ** Children, layout.py:877-907 *)

Inductive child_kind := DictChild (r : raw) | CompChild (c : cinst) | StrChild (s : string).

(** [child.get("attributes", {}).get("key")], layout.py:889. *)
Definition attr_key (attrs : option (dict string val)) : option key :=
  match attrs with
  | Some a => match dget "key" a with
              | Some (VInt z) => Some (KInt z)
              | Some (VStr s) => Some (KStr s)
              | _ => None
              end
  | None => None
  end.

(** One iteration of the loop at layout.py:884-905: kind and explicit key of a child. *)
Definition child_info (r : raw) : option (child_kind * option key) :=
  match r with
  | RNone => None
  | RElem _ attrs _ _ _ _ => Some (DictChild r, attr_key attrs)
  | RComp c => Some (CompChild c, ci_key c)
  | RText s => Some (StrChild s, None)
  end.

Fixpoint children_infos (index : nat) (l : list raw) : list (child_kind * key) :=
  match l with
  | [] => []
  | r :: l' =>
      match child_info r with
      | None => children_infos (S index) l'
      | Some (kd, Some k) => (kd, k) :: children_infos (S index) l'
      | Some (kd, None) => (kd, KInt (Z.of_nat index)) :: children_infos (S index) l'
      end
  end.

Fixpoint has_duplicates (keys : list key) : bool :=
  match keys with
  | [] => false
  | k :: ks => if mem k ks then true else has_duplicates ks
  end.

(** [_get_children_info], layout.py:877-907: infos, and the key set or [None] for duplicates.
    The code detects duplicates while scanning; [has_duplicates] of the collected keys is the same condition. *)
Definition get_children_info (l : list raw) : list (child_kind * key) * option (list key) :=
  let infos := children_infos 0 l in
  let keys := map snd infos in
  (infos, if has_duplicates keys then None else Some keys).

(** ** Model state constructors, layout.py:602-713 *)

Definition empty_model : model := MNode "" None None None None None None.

(** [f"{parent.key_path}/{key}"] *)
Definition sub_keypath (kp : string) (k : option key) : string :=
  kp ++ "/" ++ match k with Some k => show_key k | None => "None" end.

(** [_make_component_model_state], layout.py:618-635 (parent always given here: the root is built by [init]). *)
Definition make_component_ms (p : nat) (pm : mstate) (index : nat) (k : option key) (h : nat) (c : cinst) : mstate :=
  MState (Some p) index k (ms_path pm ++ [index]) (sub_keypath (ms_keypath pm) k) empty_model [] [] (Some (h, c)).

(** [_copy_component_model_state], layout.py:638-655, followed by lines 306-309. *)
Definition copy_component_ms (old : mstate) (h : nat) (c : cinst) : mstate :=
  MState (ms_parent old) (ms_index old) (ms_key old) (ms_path old) (ms_keypath old) empty_model [] [] (Some (h, c)).

(** [_update_component_model_state], layout.py:658-679. *)
Definition update_component_ms (old : mstate) (p : nat) (pm : mstate) (index : nat) (h : nat) (c : cinst) : mstate :=
  MState (Some p) index (ms_key old) (ms_path pm ++ [index]) (sub_keypath (ms_keypath pm) (ms_key old))
         empty_model [] [] (Some (h, c)).

(** [_make_element_model_state], layout.py:682-696. *)
Definition make_element_ms (p : nat) (pm : mstate) (index : nat) (k : option key) : mstate :=
  MState (Some p) index k (ms_path pm ++ [index]) (sub_keypath (ms_keypath pm) k) empty_model [] [] None.

(** [_update_element_model_state], layout.py:699-713. *)
Definition update_element_ms (old : mstate) (p : nat) (pm : mstate) (index : nat) : mstate :=
  MState (Some p) index (ms_key old) (ms_path pm ++ [index]) (sub_keypath (ms_keypath pm) (ms_key old))
         empty_model [] [] None.

Definition with_model (m : model) (x : mstate) : mstate :=
  MState (ms_parent x) (ms_index x) (ms_key x) (ms_path x) (ms_keypath x) m (ms_children x) (ms_targets x) (ms_lcs x).
Definition with_key (k : option key) (x : mstate) : mstate :=
  MState (ms_parent x) (ms_index x) k (ms_path x) (ms_keypath x) (ms_model x) (ms_children x) (ms_targets x) (ms_lcs x).
Definition with_children (c : dict key nat) (x : mstate) : mstate :=
  MState (ms_parent x) (ms_index x) (ms_key x) (ms_path x) (ms_keypath x) (ms_model x) c (ms_targets x) (ms_lcs x).
Definition with_targets (t : dict string string) (x : mstate) : mstate :=
  MState (ms_parent x) (ms_index x) (ms_key x) (ms_path x) (ms_keypath x) (ms_model x) (ms_children x) t (ms_lcs x).

Definition change_ms (m : nat) (f : mstate -> mstate) : M unit :=
  x <- get_ms m ;; put_ms m (f x).

(** ** Unmounting, layout.py:565-578 *)

(** [for target in targets: del self._event_handlers[target]] *)
Fixpoint del_handlers (ts : list string) : M unit :=
  match ts with
  | [] => ret tt
  | t :: ts' =>
      fun s => if dmem t (s_eh s) then del_handlers ts' (set_eh (ddel t (s_eh s)) s)
               else (Raise EKeyError, s)
  end.

(** [del self._model_states_by_life_cycle_state_id[id]] *)
Definition del_reg (h : nat) : M unit :=
  fun s => if dmem h (s_reg s) then (Ok tt, set_reg (ddel h (s_reg s)) s) else (Raise EKeyError, s).

(** [_unmount_model_states], layout.py:565-578. The Python list is a stack popped at its end; here the
    head of [stk] is that end. *)
Fixpoint unmount (fuel : nat) (stk : list nat) : M unit :=
  match fuel with
  | 0 => no_fuel
  | S f =>
      match stk with
      | [] => ret tt
      | m :: stk' =>
          x <- get_ms m ;;
          del_handlers (dvals (ms_targets x)) ;;
          match ms_lcs x with
          | Some (h, _) => del_reg h ;; will_unmount h
          | None => ret tt
          end ;;
          unmount f (rev (dvals (ms_children x)) ++ stk')
      end
  end.

(** ** Attributes and event handlers, layout.py:388-507 *)

(** [_serialize_event_handler], layout.py:489-507. *)
Definition serialize_handler (h : handler) (target : string) : hjson :=
  HJson target (h_prevent h) (h_stop h) (h_debounce h) (h_throttle h).

Definition target_of (keypath : string) (ev : string) (h : handler) : string :=
  match h_target h with Some t => t | None => keypath ++ ":" ++ ev end.

(** The loop shared by layout.py:420-429 and 477-485. *)
Fixpoint register_handlers (m : nat) (l : list (string * handler)) : M (list (string * hjson)) :=
  match l with
  | [] => ret []
  | (ev, h) :: l' =>
      x <- get_ms m ;;
      let t := target_of (ms_keypath x) ev h in
      put_ms m (with_targets (dset ev t (ms_targets x)) x) ;;
      modify (fun s => set_eh (dset t h (s_eh s)) s) ;;
      js <- register_handlers m l' ;;
      ret ((ev, serialize_handler h t) :: js)
  end.

(** [_inject_event_ack_seq], layout.py:434-466: the attributes after injection. *)
Definition is_input_tag (tag : string) : bool :=
  mem tag ["input"; "select"; "textarea"].

Fixpoint max_ack (seqs : dict string Z) (ts : list string) (acc : option Z) : option Z :=
  match ts with
  | [] => acc
  | t :: ts' =>
      match dget t seqs with
      | None => max_ack seqs ts' acc
      | Some a => max_ack seqs ts' (match acc with
                                    | None => Some a
                                    | Some b => if (b <? a)%Z then Some a else Some b
                                    end)
      end
  end.

Definition inject_ack (seqs : dict string Z) (tag : string) (ts : list string)
           (attrs : option (dict string val)) : option (dict string val) :=
  if is_input_tag tag
  then match max_ack seqs ts None, attrs with
       | Some a, Some d => Some (dsetdefault "_reactpy_ack_seq" (VInt a) d)
       | _, _ => attrs
       end
  else attrs.

(** [_render_model_attributes], layout.py:388-432. The order in which the set of vanished events is
    traversed is unspecified in Python; here it is the old dictionary's order. *)
Definition render_attributes (old : option nat) (new : nat) (tag : string)
           (attrs : option (dict string val)) (hs : dict string handler)
           (js : option (dict string string)) (imp : option string) : M unit :=
  match old with
  | None => ret tt
  | Some o =>
      ox <- get_ms o ;;
      del_handlers (dvals (filter (fun et => negb (dmem (fst et) hs)) (ms_targets ox)))
  end ;;
  ehs <- match hs with
         | [] => ret None
         | _ => l <- register_handlers new hs ;; ret (Some l)
         end ;;
  x <- get_ms new ;;
  seqs <- gets s_seq ;;
  let attrs' := inject_ack seqs tag (dvals (ms_targets x)) attrs in
  put_ms new (with_model (MNode tag imp attrs' js ehs None None) x).

(** ** Rendering, layout.py:229-386, 509-563 *)

(** [append_child], layout.py:788-789, and [model["children"] = []], line 538. *)
Definition add_child_model (c : model) (m : model) : model :=
  match m with
  | MNode tag imp attrs js eh ch err =>
      MNode tag imp attrs js eh (Some (match ch with Some l => l ++ [c] | None => [c] end)) err
  | MText s => MText s
  end.
Definition start_children (m : model) : model :=
  match m with
  | MNode tag imp attrs js eh _ err => MNode tag imp attrs js eh (Some []) err
  | MText s => MText s
  end.

Definition error_model (e : exn) : model :=
  MNode "" None None None None None
        (Some (if debug then match e with
                             | EUser m => m
                             | EDuplicateKeys => "ValueError: Duplicate keys"
                             | EKeyError => "KeyError"
                             | EIndexError => "IndexError: list index out of range"
                             | EDetached => "RuntimeError: detached model state"
                             | EHookStack => "RuntimeError: Hook stack is in an invalid state"
                             | EBadVdom => "ValueError: Expected a VDOM element dict"
                             end
               else "")).

(** [_render_component] (274-352), [_render_model] (354-386), [_render_model_children] (509-563) and its
    loop over [children_info] (539-563).
    The cancellation at lines 322-327 concerns only async rendering. *)
Fixpoint render_component (fuel : nat) (old parent : option nat) (index : nat) (k : option key) (c : cinst)
         {struct fuel} : M nat :=
  match fuel with
  | 0 => no_fuel
  | S f =>
      (* lines 283-311: choose the new model state *)
      let fresh : M (nat * option nat) :=
        match parent with
        | Some p => pm <- get_ms p ;; h <- new_hook ;;
                    n <- new_ms (make_component_ms p pm index k h c) ;; ret (n, None)
        | None => raise EBadVdom (* not reachable: only the root has no parent and it always has an old state *)
        end in
      no <- match old with
            | None => fresh
            | Some o =>
                ox <- get_ms o ;;
                match ms_lcs ox with
                | Some (h, oc) =>
                    if eq_dec (ci_type oc) (ci_type c)
                    then match parent with
                         | None => n <- new_ms (copy_component_ms ox h c) ;; ret (n, old)
                         | Some p => pm <- get_ms p ;;
                                     n <- new_ms (update_component_ms ox p pm index h c) ;; ret (n, old)
                         end
                    else unmount f [o] ;; fresh
                | None => unmount f [o] ;; fresh
                end
            end ;;
      let new := fst no in
      let old' := snd no in
      nx <- get_ms new ;;
      match ms_lcs nx with
      | None => raise EBadVdom
      | Some (h, _) =>
          modify (fun s => set_reg (dset h new (s_reg s)) s) ;;
          will_render h ;;
          modify (fun s => set_exit (h :: s_exit s) s) ;;
          finally
            (catch
               (log (EvRender h) ;;
                r <- run_body h (render_fn c) ;;
                log (EvReturn h r) ;;
                change_ms new (with_model empty_model) ;;
                render_children f old' new [r])
               (fun e => log (EvError h e) ;; change_ms new (with_model (error_model e))))
            (did_render h) ;;
          ret new
      end
  end

with render_model (fuel : nat) (old : option nat) (parent : nat) (index : nat) (k : option key) (r : raw)
         {struct fuel} : M nat :=
  match fuel with
  | 0 => no_fuel
  | S f =>
      match r with
      | RElem tag attrs hs js imp children =>
          no <- match old with
                | None => pm <- get_ms parent ;;
                          n <- new_ms (make_element_ms parent pm index k) ;; ret (n, None)
                | Some o =>
                    ox <- get_ms o ;;
                    match ms_lcs ox with
                    | Some _ => unmount f [o] ;;
                                pm <- get_ms parent ;;
                                n <- new_ms (make_element_ms parent pm index k) ;; ret (n, None)
                    | None => pm <- get_ms parent ;;
                              n <- new_ms (update_element_ms ox parent pm index) ;; ret (n, old)
                    end
                end ;;
          let new := fst no in
          let old' := snd no in
          match attr_key attrs with
          | Some k' => change_ms new (with_key (Some k'))
          | None => ret tt
          end ;;
          render_attributes old' new tag attrs hs js imp ;;
          render_children f old' new (match children with Some l => l | None => [] end) ;;
          ret new
      | _ => raise EBadVdom
      end
  end

with render_children (fuel : nat) (old : option nat) (new : nat) (raws : list raw) {struct fuel} : M unit :=
  match fuel with
  | 0 => no_fuel
  | S f =>
      let (infos, keys) := get_children_info raws in
      match keys with
      | None => raise EDuplicateKeys
      | Some ks =>
          match old with
          | None => ret tt
          | Some o =>
              ox <- get_ms o ;;
              match dvals (filter (fun km => negb (mem (fst km) ks)) (ms_children ox)) with
              | [] => ret tt
              | gone => unmount f gone
              end
          end ;;
          match raws with
          | [] => ret tt
          | _ => change_ms new (fun x => with_model (start_children (ms_model x)) x) ;;
                 render_child_list f old new 0 infos
          end
      end
  end

with render_child_list (fuel : nat) (old : option nat) (new index : nat) (infos : list (child_kind * key))
         {struct fuel} : M unit :=
  match fuel with
  | 0 => no_fuel
  | S f =>
      match infos with
      | [] => ret tt
      | (kd, k) :: rest =>
          oc <- match old with
                | None => ret None
                | Some o => ox <- get_ms o ;; ret (dget k (ms_children ox))
                end ;;
          match kd with
          | DictChild r =>
              n <- render_model f oc new index (Some k) r ;;
              nx <- get_ms n ;;
              change_ms new (fun x => with_children (dset k n (ms_children x))
                                        (with_model (add_child_model (ms_model nx) (ms_model x)) x))
          | CompChild c =>
              n <- render_component f oc (Some new) index (Some k) c ;;
              nx <- get_ms n ;;
              change_ms new (fun x => with_children (dset k n (ms_children x))
                                        (with_model (add_child_model (ms_model nx) (ms_model x)) x))
          | StrChild s =>
              match oc with Some o => unmount f [o] | None => ret tt end ;;
              change_ms new (fun x => with_model (add_child_model (MText s) (ms_model x)) x)
          end ;;
          render_child_list f old new (S index) rest
      end
  end.

(** ** One update, layout.py:229-272 *)

(** Whether the object [p] is still referenced: [parent] is a weak reference (layout.py:781-786); strong
    references to model states are the registry and the [children_by_key] of referenced states. *)
Fixpoint reaches (fuel : nat) (hp : list mstate) (m p : nat) : bool :=
  if Nat.eq_dec m p then true
  else match fuel with
       | 0 => false
       | S f => match nth_error hp m with
                | None => false
                | Some x => existsb (fun c => reaches f hp c p) (dvals (ms_children x))
                end
       end.

Definition alive (s : st) (p : nat) : bool :=
  existsb (fun hm => reaches (length (s_heap s)) (s_heap s) (snd hm) p) (s_reg s).

(** [old_state.parent] with the [except AttributeError] of lines 235-238. *)
Definition get_parent (o : mstate) : M (option nat) :=
  match ms_parent o with
  | None => ret None
  | Some p => fun s => if alive s p then (Ok (Some p), s) else (Raise EDetached, s)
  end.

(** Leaving the [AsyncExitStack]: callbacks in reverse order of registration. *)
Fixpoint run_exit (hs : list nat) : M unit :=
  match hs with
  | [] => ret tt
  | h :: hs' => layout_did_render h ;; run_exit hs'
  end.

Definition replace_child (i : nat) (c : model) (m : model) : model :=
  match m with
  | MNode tag imp attrs js eh ch err =>
      let l := match ch with Some l => l | None => [] end in
      MNode tag imp attrs js eh (Some (firstn i l ++ c :: skipn (S i) l)) err
  | MText s => MText s
  end.

Definition create_layout_update (fuel : nat) (old : nat) : M (list nat * model) :=
  modify (set_stack []) ;;
  modify (set_exit []) ;;
  finally
    (ox <- get_ms old ;;
     match ms_lcs ox with
     | None => raise EBadVdom
     | Some (_, c) =>
         parent <- get_parent ox ;;
         n <- finally (render_component fuel (Some old) parent (ms_index ox) (ms_key ox) c)
                      (hs <- gets s_exit ;; run_exit hs) ;;
         nx <- get_ms n ;;
         match parent with
         | None => ret tt
         | Some p =>
             change_ms p (fun x =>
               with_model (replace_child (ms_index nx) (ms_model nx) (ms_model x))
                 (match ms_key nx with
                  | Some k => with_children (dset k n (ms_children x)) x
                  | None => x
                  end))
         end ;;
         ret (ms_path nx, ms_model nx)
     end)
    (modify (set_stack [])).

(** [_serial_render], layout.py:198-210: [None] when the queue is empty (the call blocks). *)
Fixpoint serial_render (fuel : nat) (q : list nat) : M (option (list nat * model)) :=
  match q with
  | [] => ret None
  | h :: q' =>
      modify (set_queue q') ;;
      r <- gets (fun s => dget h (s_reg s)) ;;
      match r with
      | None => log (EvSkip h) ;; serial_render fuel q'
      | Some m => u <- create_layout_update fuel m ;; ret (Some u)
      end
  end.

(** ** Histories *)

Inductive op :=
| ORender (batches : list (list envop))  (** one [await layout.render()], with the environment's steps during it *)
| OEnv (o : envop).                      (** an environment step between renders *)

(** [__aenter__], layout.py:67-98: the root state and its first scheduled render. *)
Definition init (root : cinst) : st :=
  St [MState None 0 None [] "" empty_model [] [] (Some (0, root))]
     [(0, 0)] [] [no_hook] [0] [] [] [] [] [].

Definition step (fuel : nat) (o : op) (s : st) : option st :=
  match o with
  | OEnv e => Some (env_step s e)
  | ORender bs =>
      match serial_render fuel (s_queue s) (set_env bs s) with
      | (Ok None, s') => Some s'
      | (Ok (Some (p, m)), s') => Some (set_log (s_log s' ++ [EvUpdate p m]) s')
      | (Raise e, s') => Some (set_log (s_log s' ++ [EvCrash e]) s')
      | (Fuel, _) => None
      end
  end.

Fixpoint run (fuel : nat) (ops : list op) (s : st) : option st :=
  match ops with
  | [] => Some s
  | o :: ops' => match step fuel o s with Some s' => run fuel ops' s' | None => None end
  end.

(** [__aexit__], layout.py:100-128: unmount everything (task cancellation is in AsyncModel.v). *)
Definition close (fuel : nat) : M unit :=
  r <- gets (fun s => dget 0 (s_reg s)) ;;
  match r with
  | None => raise EKeyError
  | Some m => unmount fuel [m]
  end.

End Layout.
