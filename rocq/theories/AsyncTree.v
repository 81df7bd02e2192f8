(** * Model of async rendering with a component tree that changes (C77, C78)
    /repo/src/reactpy/core/layout.py:229-272 ([_create_layout_update]), 274-352 ([_render_component]), 509-563
    ([_render_model_children]), 565-578 ([_unmount_model_states]), 580-596 ([_schedule_render_task]), 618-679 (component
    model states), 781-786 ([parent]); /repo/src/reactpy/core/_life_cycle_hook.py:166-175, 220-252.
    AsyncModel.v has a fixed tree and follows who renders what; here components appear and disappear, and the model states,
    the registry and the effects are followed. As there, one op is one run of a task between two suspensions, and a render
    task is suspended in the [acquire] of every component: once if the semaphore is free, else until it is released.
    Simplifications: a component's output is the list of its child components (elements are merged with the component that
    made them); whether a component calls [set_state] is left to the schedule; a component's own function does not raise;
    every component has one effect, started after each of its renders, and effects end as soon as they are asked to (so
    unmounting takes no time). Updates are listed in the order in which their tasks finish; AsyncModel.v and
    AsyncDelivery.v have what [render()] does with them. *)
From Coq Require Import Arith Bool Lia List Permutation.
From Verif Require Import Dict EffectModel EffectProps.
Import ListNotations.

(** What the client is sent for a component [c] (its life-cycle state id): the number of the state it was rendered from,
    or [None] for an error, and the output of the child components. *)
Inductive doc := Node (c : nat) (out : option nat) (kids : list doc).
Definition d_id (d : doc) : nat := match d with Node c _ _ => c end.
Definition d_out (d : doc) : option nat := match d with Node _ o _ => o end.
Definition d_kids (d : doc) : list doc := match d with Node _ _ ks => ks end.

(** [_ModelState], layout.py:716-792, of a component. [m_path]: the indices of [patch_path]. *)
Record mst := Mst {
  m_lcs : nat;                    (** [life_cycle_state.id] *)
  m_type : nat;                   (** [life_cycle_state.component.type] *)
  m_parent : option nat;          (** [_parent_ref] *)
  m_index : nat;
  m_key : nat;
  m_path : list nat;
  m_kids : dict nat nat;          (** [children_by_key] *)
  m_model : doc                   (** [model.current] *)
}.
Definition no_mst : mst := Mst 0 0 None 0 0 [] [] (Node 0 None []).

(** A component whose children are being rendered: its new state, its old state if it had one, and the children still to
    be rendered with their positions. *)
Record frame := Frame { f_new : nat; f_old : option nat; f_todo : list (nat * (nat * nat)) }.
(** Where a render task is: not started; waiting for the semaphore of the component of state [new]; has it and is yet to be
    resumed; returned; raised; cancelled. *)
Inductive pc := Start | Wait (new : nat) (old : option nat) (st : list frame) | Got (new : nat) (old : option nat) (st : list frame)
              | Done | Failed | Cancelled.
Record task := Task {
  t_old : nat;                    (** the argument of [_create_layout_update] *)
  t_pc : pc;
  t_cancel : bool;                (** [task.cancel()] was called while it was not finished *)
  t_hooks : list nat              (** the components on its [exit_stack] *)
}.
Record sys := Sys {
  y_states : list mst;            (** all model states ever made *)
  y_reg : dict nat nat;           (** [_model_states_by_life_cycle_state_id] *)
  y_next : nat;                   (** the next life-cycle state id *)
  y_ver : nat -> nat;             (** the number of state changes of each component *)
  y_flag : nat -> bool;           (** [_scheduled_render] *)
  y_holder : nat -> option nat;   (** [_render_access]: which task holds it *)
  y_by_id : nat -> option nat;    (** [_render_tasks_by_id] *)
  y_tasks : list task;
  y_eff : nat -> bool;            (** an effect of the component is running *)
  y_log : list (list nat * doc);  (** the updates of the finished tasks: path and model *)
  y_over : bool                   (** a task raised: [render()] will raise when it takes it, which ends the session (serve.py:44-46) *)
}.
Definition set_states v s := Sys v (y_reg s) (y_next s) (y_ver s) (y_flag s) (y_holder s) (y_by_id s) (y_tasks s) (y_eff s) (y_log s) (y_over s).
Definition set_reg v s := Sys (y_states s) v (y_next s) (y_ver s) (y_flag s) (y_holder s) (y_by_id s) (y_tasks s) (y_eff s) (y_log s) (y_over s).
Definition set_next v s := Sys (y_states s) (y_reg s) v (y_ver s) (y_flag s) (y_holder s) (y_by_id s) (y_tasks s) (y_eff s) (y_log s) (y_over s).
Definition set_ver v s := Sys (y_states s) (y_reg s) (y_next s) v (y_flag s) (y_holder s) (y_by_id s) (y_tasks s) (y_eff s) (y_log s) (y_over s).
Definition set_flag v s := Sys (y_states s) (y_reg s) (y_next s) (y_ver s) v (y_holder s) (y_by_id s) (y_tasks s) (y_eff s) (y_log s) (y_over s).
Definition set_holder v s := Sys (y_states s) (y_reg s) (y_next s) (y_ver s) (y_flag s) v (y_by_id s) (y_tasks s) (y_eff s) (y_log s) (y_over s).
Definition set_by_id v s := Sys (y_states s) (y_reg s) (y_next s) (y_ver s) (y_flag s) (y_holder s) v (y_tasks s) (y_eff s) (y_log s) (y_over s).
Definition set_tasks v s := Sys (y_states s) (y_reg s) (y_next s) (y_ver s) (y_flag s) (y_holder s) (y_by_id s) v (y_eff s) (y_log s) (y_over s).
Definition set_eff v s := Sys (y_states s) (y_reg s) (y_next s) (y_ver s) (y_flag s) (y_holder s) (y_by_id s) (y_tasks s) v (y_log s) (y_over s).
Definition set_log v s := Sys (y_states s) (y_reg s) (y_next s) (y_ver s) (y_flag s) (y_holder s) (y_by_id s) (y_tasks s) (y_eff s) v (y_over s).
Definition set_over v s := Sys (y_states s) (y_reg s) (y_next s) (y_ver s) (y_flag s) (y_holder s) (y_by_id s) (y_tasks s) (y_eff s) (y_log s) v.
Definition at_ {A} (f : nat -> A) (c : nat) (x : A) : nat -> A := fun d => if Nat.eqb d c then x else f d.
Definition state (s : sys) (i : nat) : mst := nth i (y_states s) no_mst.
Definition lcs (s : sys) (i : nat) : nat := m_lcs (state s i).

Definition finished (t : task) : bool := match t_pc t with Done | Failed | Cancelled => true | _ => false end.
Definition set_pc (k : nat) (p : pc) (s : sys) : sys :=
  match nth_error (y_tasks s) k with
  | Some t => set_tasks (put (y_tasks s) k (Task (t_old t) p (t_cancel t) (t_hooks t))) s
  | None => s
  end.
(** [task.cancel()]: no effect on a finished task. *)
Definition cancel (k : nat) (s : sys) : sys :=
  match nth_error (y_tasks s) k with
  | Some t => if finished t then s else set_tasks (put (y_tasks s) k (Task (t_old t) (t_pc t) true (t_hooks t))) s
  | None => s
  end.

(** [_unmount_model_states], layout.py:565-578: [None] and a [KeyError], or done; the head of the list is the end of the
    Python list. Every round removes a registration, so that the number of registrations bounds the rounds: without any
    registration left the next round is the [KeyError]. *)
Fixpoint unmount (fuel : nat) (stk : list nat) (s : sys) : bool * sys :=
  match stk with
  | [] => (true, s)
  | i :: stk' =>
      match fuel with
      | 0 => (false, s)
      | S fuel' =>
          let c := lcs s i in
          if dmem c (y_reg s)
          then unmount fuel' (rev (dvals (m_kids (state s i))) ++ stk') (set_eff (at_ (y_eff s) c false) (set_reg (ddel c (y_reg s)) s))
          else (false, s)
      end
  end.

(** [_schedule_render_task], layout.py:580-596. *)
Definition schedule (c : nat) (s : sys) : sys :=
  match dget c (y_reg s) with
  | Some i => set_by_id (at_ (y_by_id s) c (Some (length (y_tasks s)))) (set_tasks (y_tasks s ++ [Task i Start false []]) s)
  | None => s
  end.
(** A change of the state of component [c] (mounted or not), with [schedule_render], _life_cycle_hook.py:166-175. *)
Definition set_state (c : nat) (s : sys) : sys :=
  if Nat.ltb c (y_next s)
  then let s1 := set_ver (at_ (y_ver s) c (S (y_ver s c))) s in
       if y_flag s c then s1 else set_flag (at_ (y_flag s) c true) (schedule c s1)
  else s.

(** [_make_component_model_state] with a new life-cycle state (layout.py:618-635), [_copy_component_model_state] for the
    root and [_update_component_model_state] (638-679). *)
Definition path_of (s : sys) (par : option nat) (index : nat) : list nat :=
  match par with Some p => m_path (state s p) ++ [index] | None => [] end.
Definition fresh (par : option nat) (index key ty : nat) (s : sys) : sys :=
  let c := y_next s in
  set_next (S c) (set_states (y_states s ++ [Mst c ty par index key (path_of s par index) [] (Node c None [])]) s).
Definition renew (o : nat) (par : option nat) (index : nat) (s : sys) : sys :=
  let m := state s o in
  set_states (y_states s ++ [Mst (m_lcs m) (m_type m) par index (m_key m) (path_of s par index) [] (Node (m_lcs m) None [])]) s.
(** layout.py:314-330: register the new state [n], cancel a task scheduled for the component, then [acquire]. *)
Definition claim (k n : nat) (old : option nat) (st : list frame) (s : sys) : sys :=
  let c := lcs s n in
  let s1 := set_reg (dset c n (y_reg s)) s in
  let s2 := match y_by_id s1 c with
            | Some j => if Nat.eqb j k then s1 else cancel j (set_by_id (at_ (y_by_id s1) c None) s1)
            | None => s1
            end in
  match y_holder s2 c with
  | None => set_pc k (Got n old st) (set_holder (at_ (y_holder s2) c (Some k)) s2)
  | Some _ => set_pc k (Wait n old st) s2
  end.
(** [_render_component] up to its suspension in [acquire], layout.py:274-330; [false]: a [KeyError] of unmounting. *)
Definition enter (k : nat) (old par : option nat) (index key ty : nat) (st : list frame) (s : sys) : bool * sys :=
  let n := length (y_states s) in
  match old with
  | None => (true, claim k n None st (fresh par index key ty s))
  | Some o =>
      if Nat.eqb (m_type (state s o)) ty then (true, claim k n (Some o) st (renew o par index s))
      else match unmount (length (y_reg s)) [o] s with
           | (true, s1) => (true, claim k n None st (fresh par index key ty s1))
           | (false, s1) => (false, s1)
           end
  end.

Definition set_kids (v : dict nat nat) (m : mst) : mst := Mst (m_lcs m) (m_type m) (m_parent m) (m_index m) (m_key m) (m_path m) v (m_model m).
Definition set_model (v : doc) (m : mst) : mst := Mst (m_lcs m) (m_type m) (m_parent m) (m_index m) (m_key m) (m_path m) (m_kids m) v.
Definition modify (i : nat) (f : mst -> mst) (s : sys) : sys := set_states (put (y_states s) i (f (state s i))) s.
Definition release (c : nat) (s : sys) : sys := set_holder (at_ (y_holder s) c None) s.
(** layout.py:557-561: the child state [n] is added to its parent's state [p]. *)
Definition attach (p n : nat) (s : sys) : sys :=
  let x := state s n in
  modify p (fun m => set_kids (dset (m_key x) n (m_kids m))
                       (set_model (Node (d_id (m_model m)) (d_out (m_model m)) (d_kids (m_model m) ++ [m_model x])) m)) s.
(** [affect_layout_did_render] for every component on the exit stack, _life_cycle_hook.py:235-240. *)
Definition start_effects (k : nat) (s : sys) : sys :=
  match nth_error (y_tasks s) k with
  | Some t => set_eff (fun c => existsb (Nat.eqb c) (t_hooks t) || y_eff s c) s
  | None => s
  end.
(** The end of [_create_layout_update], layout.py:241-270, for the new state [n]. *)
Definition complete (k n : nat) (s : sys) : sys :=
  let s1 := start_effects k s in
  let x := state s1 n in
  let s2 := match m_parent x with
            | Some p => modify p (fun m => set_kids (dset (m_key x) n (m_kids m))
                          (set_model (Node (d_id (m_model m)) (d_out (m_model m))
                                        (firstn (m_index x) (d_kids (m_model m)) ++ [m_model x] ++ skipn (S (m_index x)) (d_kids (m_model m)))) m)) s1
            | None => s1
            end in
  set_pc k Done (set_log (y_log s2 ++ [(m_path x, m_model x)]) s2).
(** [except Exception], layout.py:341-348. *)
Definition fail (n : nat) (s : sys) : sys := modify n (fun m => set_model (Node (m_lcs m) None []) m) s.
(** The loop over the children (layout.py:538-563) up to the next suspension, and the returns of [_render_component]. *)
Fixpoint descend (k : nat) (st : list frame) (s : sys) : sys :=
  match st with
  | [] => s
  | f :: rest =>
      let close s :=
        let s1 := release (lcs s (f_new f)) s in
        match rest with
        | [] => complete k (f_new f) s1
        | g :: _ => descend k rest (attach (f_new g) (f_new f) s1)
        end in
      match f_todo f with
      | [] => close s
      | (i, (key, ty)) :: todo =>
          let old := match f_old f with Some o => dget key (m_kids (state s o)) | None => None end in
          match enter k old (Some (f_new f)) i key ty (Frame (f_new f) (f_old f) todo :: rest) s with
          | (true, s1) => s1
          | (false, s1) => close (fail (f_new f) s1)
          end
      end
  end.

Fixpoint number {A} (i : nat) (l : list A) : list (nat * A) := match l with [] => [] | x :: l' => (i, x) :: number (S i) l' end.
Fixpoint nodupb (l : list nat) : bool := match l with [] => true | x :: l' => negb (existsb (Nat.eqb x) l') && nodupb l' end.

Section View.
(** The program: the child components (key and type) that a component of a type gives when rendered from its [n]-th state. *)
Variable view : nat -> nat -> list (nat * nat).

(** From the return of [acquire], _life_cycle_hook.py:222-225 and layout.py:331-340, 522-536. *)
Definition body (k n : nat) (old : option nat) (st : list frame) (s : sys) : sys :=
  let c := lcs s n in
  let kids := view (m_type (state s n)) (y_ver s c) in
  let s1 := set_flag (at_ (y_flag s) c false) s in
  let s2 := match nth_error (y_tasks s1) k with
            | Some t => set_tasks (put (y_tasks s1) k (Task (t_old t) (t_pc t) (t_cancel t) (t_hooks t ++ [c]))) s1
            | None => s1
            end in
  let s3 := modify n (set_model (Node c (Some (y_ver s c)) [])) s2 in
  if nodupb (map fst kids)
  then let stale := match old with
                    | Some o => map snd (filter (fun kv => negb (existsb (Nat.eqb (fst kv)) (map fst kids))) (m_kids (state s3 o)))
                    | None => []
                    end in
       match unmount (length (y_reg s3)) stale s3 with
       | (true, s4) => descend k (Frame n old (number 0 kids) :: st) s4
       | (false, s4) => descend k (Frame n old [] :: st) (fail n s4)
       end
  else descend k (Frame n old [] :: st) (fail n s3).

(** The model states that are referenced: by the registry, by unfinished tasks, or as children of such a state. *)
Definition task_refs (s : sys) (t : task) : list nat :=
  let some o := match o with Some x => [x] | None => [] end in
  let frames st := flat_map (fun f => f_new f :: some (f_old f)) st in
  match t_pc t with
  | Start => [t_old t]
  | Wait n o st | Got n o st => t_old t :: some (m_parent (state s (t_old t))) ++ n :: some o ++ frames st
  | _ => []
  end.
Fixpoint reach (n : nat) (s : sys) (l : list nat) : list nat :=
  match n with 0 => l | S n' => reach n' s (nodup Nat.eq_dec (l ++ flat_map (fun i => dvals (m_kids (state s i))) l)) end.
Definition alive (s : sys) (p : nat) : bool :=
  existsb (Nat.eqb p) (reach (length (y_states s)) s (dvals (y_reg s) ++ flat_map (task_refs s) (y_tasks s))).

(** The start of [_create_layout_update], layout.py:232-248. [parent] raises [RuntimeError("detached model state")] if the
    parent's state is no longer referenced (layout.py:781-786). *)
Definition start (k o : nat) (s : sys) : sys :=
  let m := state s o in
  let go par := snd (enter k (Some o) par (m_index m) (m_key m) (m_type m) [] s) in
  match m_parent m with
  | Some p => if alive s p then go (Some p) else set_over true (set_pc k Failed s)
  | None => go None
  end.
(** A [CancelledError] at a suspension: the semaphores are released ([finally], layout.py:349-350) and the exit stack runs. *)
Definition held (s : sys) (p : pc) : list nat :=
  match p with
  | Wait _ _ st => map (fun f => lcs s (f_new f)) st
  | Got n _ st => lcs s n :: map (fun f => lcs s (f_new f)) st
  | _ => []
  end.
Definition unwind (k : nat) (t : task) (s : sys) : sys :=
  let cs := held s (t_pc t) in
  set_pc k Cancelled (start_effects k (set_holder (fun c => if existsb (Nat.eqb c) cs then None else y_holder s c) s)).
(** Run task [k] until its next suspension; nothing happens if it cannot run. *)
Definition run_task (k : nat) (s : sys) : sys :=
  match nth_error (y_tasks s) k with
  | None => s
  | Some t =>
      if finished t then s
      else if t_cancel t then unwind k t s
      else match t_pc t with
           | Start => start k (t_old t) s
           | Wait n old st =>
               match y_holder s (lcs s n) with
               | None => body k n old st (set_holder (at_ (y_holder s) (lcs s n) (Some k)) s)
               | Some _ => s
               end
           | Got n old st => body k n old st s
           | _ => s
           end
  end.
Inductive op := SetState (c : nat) | Run (k : nat).
Definition step (s : sys) (o : op) : sys := match o with SetState c => set_state c s | Run k => run_task k s end.
(** [__aenter__], layout.py:67-98: the root, of type 0, is scheduled. *)
Definition init : sys :=
  schedule 0 (Sys [Mst 0 0 None 0 0 [] [] (Node 0 None [])] [(0, 0)] 1 (fun _ => 0) (fun _ => false) (fun _ => None) (fun _ => None) [] (fun _ => false) [] false).
Definition run (ops : list op) : sys := fold_left step ops init.
End View.

(** ** Specification *)

(** The client: an update replaces what is at its path. *)
Fixpoint replace_nth {A} (i : nat) (f : A -> A) (l : list A) : list A :=
  match l, i with
  | [], _ => []
  | x :: l', 0 => f x :: l'
  | x :: l', S i' => x :: replace_nth i' f l'
  end.
Fixpoint replace (p : list nat) (new d : doc) : doc :=
  match p, d with
  | [], _ => new
  | i :: p', Node c o ks => Node c o (replace_nth i (replace p' new) ks)
  end.
Definition shown (log : list (list nat * doc)) : doc := fold_left (fun d u => replace (fst u) (snd u) d) log (Node 0 None []).
Fixpoint doc_ids (d : doc) : list nat := match d with Node c _ ks => c :: flat_map doc_ids ks end.
Definition registered (s : sys) (c : nat) : bool := dmem c (y_reg s).

(** The display is what the program gives for the states it was rendered from. *)
Inductive fits (view : nat -> nat -> list (nat * nat)) : nat -> doc -> Prop :=
| fits_node ty c v ks : Forall2 (fun kt d => fits view (snd kt) d) (view ty v) ks -> fits view ty (Node c (Some v) ks).
(** The components on display, each with the state it was rendered from. *)
Fixpoint doc_vers (d : doc) : list (nat * option nat) := match d with Node c o ks => (c, o) :: flat_map doc_vers ks end.
(** A render of the mounted component [c] has been requested and not started. *)
Definition waiting (s : sys) (c : nat) : Prop :=
  exists j t, nth_error (y_tasks s) j = Some t /\ t_pc t = Start /\ t_cancel t = false /\ dget c (y_reg s) = Some (t_old t).
Definition in_progress (t : task) : bool := match t_pc t with Wait _ _ _ | Got _ _ _ => true | _ => false end.
Definition idle (s : sys) : Prop := forall k t, nth_error (y_tasks s) k = Some t -> in_progress t = false.
(** Renders do not overlap, and no render starts for a component that was removed or rendered again after the request. *)
Definition may_run (s : sys) (k : nat) : Prop :=
  (forall j t, j <> k -> nth_error (y_tasks s) j = Some t -> in_progress t = false) /\
  (forall t, nth_error (y_tasks s) k = Some t -> t_pc t = Start -> t_cancel t = false -> dget (lcs s (t_old t)) (y_reg s) = Some (t_old t)).
Fixpoint separate (view : nat -> nat -> list (nat * nat)) (s : sys) (ops : list op) : Prop :=
  match ops with
  | [] => True
  | o :: r => match o with Run k => may_run s k | SetState _ => True end /\ separate view (step view s o) r
  end.
(** ** Schedules in the order of asyncio's queue of ready tasks *)
(** Task [k] can be resumed. *)
Definition ready (s : sys) (k : nat) : bool :=
  match nth_error (y_tasks s) k with
  | Some t => negb (finished t) && (t_cancel t || match t_pc t with Wait n _ _ => match y_holder s (lcs s n) with None => true | Some _ => false end | _ => true end)
  | None => false
  end.
Definition woken (s : sys) (q : list nat) : list nat := filter (fun k => ready s k && negb (existsb (Nat.eqb k) q)) (seq 0 (length (y_tasks s))).
(** [q] is the queue: the first task runs, then the tasks it made ready are added, then the task itself if it is ready. *)
Fixpoint in_turn (view : nat -> nat -> list (nat * nat)) (s : sys) (q : list nat) (ops : list op) : bool :=
  match ops with
  | [] => true
  | SetState c :: r => let s1 := step view s (SetState c) in in_turn view s1 (q ++ woken s1 q) r
  | Run k :: r =>
      match q with
      | j :: q1 => let s1 := step view s (Run k) in Nat.eqb j k && in_turn view s1 (q1 ++ woken s1 (q1 ++ [k]) ++ (if ready s1 k then [k] else [])) r
      | [] => false
      end
  end.
