(** * Model of async rendering (REACTPY_ASYNC_RENDERING): render tasks, locks, cancellation, permits (C25-C28)

    /repo/src/reactpy/core/layout.py:212-227 ([_parallel_render]), 229-272 ([_create_layout_update]), 274-352
    ([_render_component]), 580-596 ([_schedule_render_task]); /repo/src/reactpy/core/_life_cycle_hook.py:166-175
    ([schedule_render]), 220-233 ([affect_component_will_render], [affect_component_did_render]).

    The machine is small-step: one op is one run of a task between two suspensions. The suspension points of a render
    task are the [acquire] calls of anyio's semaphore (one per component): [acquire] takes the semaphore if it is free,
    then suspends once; otherwise it waits. A cancelled task receives its [CancelledError] at the next resumption.

    Simplifications: the component tree is fixed (each render yields the same child components, each in an element of its
    own), no render raises, and a component's output is represented by the number of the state it was rendered from.
    Which waiting task gets a released semaphore is left open (anyio: the first waiter), so the model has more schedules
    than the code. Consequences of stale model-state objects are not in this model. *)
From Coq Require Import Arith Bool Lia List.
From Verif Require Import EffectModel.
Import ListNotations.

(** Components: an identity (the life-cycle state id) and the child components. *)
Inductive ctree := CNode (c : nat) (kids : list ctree).
Definition cid (t : ctree) : nat := match t with CNode c _ => c end.
Definition ckids (t : ctree) : list ctree := match t with CNode _ ks => ks end.
(** All component subtrees, parents first. *)
Fixpoint subs (t : ctree) : list ctree := match t with CNode _ ks => t :: flat_map subs ks end.
Definition ids (t : ctree) : list nat := map cid (subs t).

(** Where a render task is: not started; suspended in (or before) [acquire] of the component [d]; the semaphore of [d] is
    taken and the task has yet to be resumed; returned; cancelled. The stack holds the components whose render is in
    progress (innermost first), each with its child components still to be rendered. *)
Definition frames := list (nat * list ctree).
Inductive rpc := PStart | PWait (d : ctree) (st : frames) | PGot (d : ctree) (st : frames) | PDone | PCancelled.
Record rtask := RTask {
  r_tree : ctree;                 (** the component to render *)
  r_pc : rpc;
  r_cancel : bool;                (** [task.cancel()] was called while it was not finished *)
  r_out : list (nat * nat)        (** its update so far: components rendered, with the state they were rendered from *)
}.

Record async := Async {
  s_ver : nat -> nat;             (** the number of state changes of each component *)
  s_shown : nat -> option nat;    (** the state its last render used *)
  s_flag : nat -> bool;           (** [_scheduled_render] *)
  s_holder : nat -> option nat;   (** [_render_access]: which task holds it *)
  s_tasks : list rtask;           (** all render tasks created *)
  s_by_id : nat -> option nat;    (** [_render_tasks_by_id] *)
  s_ready : nat;                  (** [_render_tasks_ready] *)
  s_unread : list nat;            (** [_render_tasks] *)
  s_consumer : option (list nat); (** [render()]: the tasks it waits for in [asyncio.wait] *)
  s_sent : list nat               (** the tasks whose update [render()] returned, oldest first *)
}.

Definition upd {A} (f : nat -> A) (c : nat) (x : A) : nat -> A := fun d => if Nat.eqb d c then x else f d.

Definition set_tasks (s : async) (l : list rtask) : async :=
  Async (s_ver s) (s_shown s) (s_flag s) (s_holder s) l (s_by_id s) (s_ready s) (s_unread s) (s_consumer s) (s_sent s).
Definition set_holder (s : async) (h : nat -> option nat) : async :=
  Async (s_ver s) (s_shown s) (s_flag s) h (s_tasks s) (s_by_id s) (s_ready s) (s_unread s) (s_consumer s) (s_sent s).
Definition set_by_id (s : async) (b : nat -> option nat) : async :=
  Async (s_ver s) (s_shown s) (s_flag s) (s_holder s) (s_tasks s) b (s_ready s) (s_unread s) (s_consumer s) (s_sent s).

(** [_schedule_render_task], layout.py:580-596, for a mounted component. *)
Definition schedule (t : ctree) (s : async) : async :=
  let k := length (s_tasks s) in
  Async (s_ver s) (s_shown s) (s_flag s) (s_holder s) (s_tasks s ++ [RTask t PStart false []]) (upd (s_by_id s) (cid t) (Some k))
        (S (s_ready s)) (s_unread s ++ [k]) (s_consumer s) (s_sent s).

(** [Layout.__aenter__], layout.py:67-98. *)
Definition async_init (root : ctree) : async :=
  schedule root (Async (fun _ => 0) (fun _ => None) (fun _ => false) (fun _ => None) [] (fun _ => None) 0 [] None []).

Definition finished (t : rtask) : bool := match r_pc t with PDone | PCancelled => true | _ => false end.

(** [task.cancel()]: no effect on a finished task. *)
Definition cancel (k : nat) (s : async) : async :=
  match nth_error (s_tasks s) k with
  | Some t => if finished t then s else set_tasks s (put (s_tasks s) k (RTask (r_tree t) (r_pc t) true (r_out t)))
  | None => s
  end.

Definition set_task_pc (k : nat) (pc : rpc) (s : async) : async :=
  match nth_error (s_tasks s) k with
  | Some t => set_tasks s (put (s_tasks s) k (RTask (r_tree t) pc (r_cancel t) (r_out t)))
  | None => s
  end.

(** [_render_component] up to [acquire], layout.py:311-330: a task scheduled for the same component is cancelled. *)
Definition enter (k : nat) (d : ctree) (st : frames) (s : async) : async :=
  let s1 := match s_by_id s (cid d) with
            | Some j => if Nat.eqb j k then s else cancel j (set_by_id s (upd (s_by_id s) (cid d) None))
            | None => s
            end in
  set_task_pc k (PWait d st) s1.

(** After a component's own output: the next child component, or [affect_component_did_render] and back to the parent. *)
Fixpoint descend (k : nat) (st : frames) (s : async) : async :=
  match st with
  | [] => set_task_pc k PDone s
  | (c, []) :: rest => descend k rest (set_holder s (upd (s_holder s) c None))
  | (c, d :: ds) :: rest => enter k d ((c, ds) :: rest) s
  end.

(** _life_cycle_hook.py:220-225 and layout.py:333: the flag is reset and the component is rendered from its current state. *)
Definition render_own (k c : nat) (s : async) : async :=
  match nth_error (s_tasks s) k with
  | Some t =>
      Async (s_ver s) (upd (s_shown s) c (Some (s_ver s c))) (upd (s_flag s) c false) (s_holder s)
            (put (s_tasks s) k (RTask (r_tree t) (r_pc t) (r_cancel t) (r_out t ++ [(c, s_ver s c)])))
            (s_by_id s) (s_ready s) (s_unread s) (s_consumer s) (s_sent s)
  | None => s
  end.

(** The components whose semaphore a task holds. *)
Definition held (pc : rpc) : list nat :=
  match pc with
  | PWait _ st => map fst st
  | PGot d st => cid d :: map fst st
  | _ => []
  end.
Definition release_all (cs : list nat) (s : async) : async :=
  set_holder s (fun c => if existsb (Nat.eqb c) cs then None else s_holder s c).

(** Run task [k] until its next suspension; nothing happens if it cannot run. *)
Definition run_task (k : nat) (s : async) : async :=
  match nth_error (s_tasks s) k with
  | None => s
  | Some t =>
      if finished t then s
      else if r_cancel t then set_task_pc k PCancelled (release_all (held (r_pc t)) s)
      else match r_pc t with
           | PStart => enter k (r_tree t) [] s
           | PWait d st =>
               match s_holder s (cid d) with
               | None => set_task_pc k (PGot d st) (set_holder s (upd (s_holder s) (cid d) (Some k)))
               | Some _ => s
               end
           | PGot d st => descend k ((cid d, ckids d) :: st) (render_own k (cid d) s)
           | PDone | PCancelled => s
           end
  end.

(** A state change followed by [schedule_render] (_life_cycle_hook.py:166-175), for a component that has rendered. *)
Definition set_state (root : ctree) (c : nat) (s : async) : async :=
  match find (fun t => Nat.eqb (cid t) c) (subs root), s_shown s c with
  | Some t, Some _ =>
      let s1 := Async (upd (s_ver s) c (S (s_ver s c))) (s_shown s) (s_flag s) (s_holder s) (s_tasks s) (s_by_id s) (s_ready s) (s_unread s) (s_consumer s) (s_sent s) in
      if s_flag s c then s1
      else let s2 := schedule t s1 in
           Async (s_ver s2) (s_shown s2) (upd (s_flag s2) c true) (s_holder s2) (s_tasks s2) (s_by_id s2) (s_ready s2) (s_unread s2) (s_consumer s2) (s_sent s2)
  | _, _ => s
  end.

(** [render()] passes its semaphore and starts waiting for the tasks of the set (layout.py:214-220). An empty set would
    waste the permit. *)
Definition consumer_acquire (s : async) : async :=
  match s_consumer s, s_ready s with
  | None, S n =>
      Async (s_ver s) (s_shown s) (s_flag s) (s_holder s) (s_tasks s) (s_by_id s) n (s_unread s)
            (match s_unread s with [] => None | u => Some u end) (s_sent s)
  | _, _ => s
  end.
(** It takes the finished task [k] (layout.py:220-227): [done.pop()] may be any of those it waits for. *)
Definition consumer_take (k : nat) (s : async) : async :=
  match s_consumer s, nth_error (s_tasks s) k with
  | Some snap, Some t =>
      if existsb (Nat.eqb k) snap && finished t
      then Async (s_ver s) (s_shown s) (s_flag s) (s_holder s) (s_tasks s) (s_by_id s) (s_ready s) (remove Nat.eq_dec k (s_unread s)) None
                 (match r_pc t with PDone => s_sent s ++ [k] | _ => s_sent s end)
      else s
  | _, _ => s
  end.

Inductive rop := RSet (c : nat) | RRun (k : nat) | RAcquire | RTake (k : nat).
Definition rstep (root : ctree) (s : async) (o : rop) : async :=
  match o with
  | RSet c => set_state root c s
  | RRun k => run_task k s
  | RAcquire => consumer_acquire s
  | RTake k => consumer_take k s
  end.
Definition rrun (root : ctree) (ops : list rop) : async := fold_left (rstep root) ops (async_init root).

(** ** Specification *)

(** Task [k] is inside the render of component [c]. *)
Definition inside (s : async) (k c : nat) : Prop := exists t, nth_error (s_tasks s) k = Some t /\ In c (held (r_pc t)).
(** No render task is pending or running. *)
Definition all_finished (s : async) : Prop := forall k t, nth_error (s_tasks s) k = Some t -> finished t = true.
(** What the client displays after the updates of the given tasks. *)
Definition shows (disp : nat -> option nat) (out : list (nat * nat)) : nat -> option nat :=
  fold_left (fun f p => upd f (fst p) (Some (snd p))) out disp.
Definition out_of (s : async) (k : nat) : list (nat * nat) := match nth_error (s_tasks s) k with Some t => r_out t | None => [] end.
Definition display (s : async) (ks : list nat) : nat -> option nat := fold_left (fun f k => shows f (out_of s k)) ks (fun _ => None).
