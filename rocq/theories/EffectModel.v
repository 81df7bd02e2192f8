(** * Model of effect tasks (use_effect), for C21 and C22

    One component's life-cycle hook with any number of [use_effect] calls, as a small-step machine over all schedules:
    - /repo/src/reactpy/core/hooks.py:121-176 ([use_effect]), 647-650 ([run_effect_cleanup]);
    - /repo/src/reactpy/core/_life_cycle_hook.py:194-202 ([add_effect]), 235-252 ([affect_layout_did_render],
      [affect_component_will_unmount]).

    Whether an effect is registered in a render is decided by [use_memo] (C17); here it is an input. *)
From Coq Require Import Arith Bool Lia List.
Import ListNotations.

(** What an effect function does: raise, return no clean-up, return a clean-up. *)
Inductive outcome := ORaises | ONothing | OCleanup.

(** Tasks (asyncio.Task objects running [effect], hooks.py:157-168): not started, suspended in [stop.wait()],
    returned, failed with an exception. *)
Inductive tstate := TNew | TWaiting | TDone | TFailed.
Record task := Task { t_slot : nat; t_id : nat; t_stop : nat; t_state : tstate }.

(** Observable events: the effect function of registration [id] of the effect in [slot] ran (with its outcome);
    the clean-up it returned is called. *)
Inductive eev := Ran (slot id : nat) (o : outcome) | Cleaned (slot id : nat).

Record est := Est {
  e_funcs : list (nat * nat);     (** [_effect_funcs]: slot and registration number *)
  e_tasks : list task;            (** all tasks created *)
  e_stops : list bool;            (** all stop events created: set? *)
  e_live : list nat;              (** [_effect_stops]: the events that unmounting will set *)
  e_refs : list (option nat);     (** [cleanup_func.current] per slot *)
  e_next : nat;                   (** next registration number *)
  e_gather : option (list nat);   (** the tasks gathered by unmounting, once it has begun *)
  e_log : list eev                (** newest last *)
}.
Definition einit (slots : nat) : est := Est [] [] [] [] (repeat None slots) 0 None [].

Fixpoint put {A} (l : list A) (i : nat) (x : A) : list A :=
  match l, i with
  | [], _ => []
  | _ :: l', 0 => x :: l'
  | y :: l', S i' => y :: put l' i' x
  end.

Section Behaviour.
(** What the effect function of each registration does, and whether its clean-up raises. *)
Variable beh : nat -> outcome.
Variable bad_clean : nat -> bool.

(** [run_effect_cleanup], hooks.py:647-650: call the stored clean-up and forget it; if it raises, it stays stored.
    Returns whether it raised. *)
Definition cleanup (slot : nat) (s : est) : bool * est :=
  match nth slot (e_refs s) None with
  | None => (false, s)
  | Some k =>
      let log := e_log s ++ [Cleaned slot k] in
      if bad_clean k
      then (true, Est (e_funcs s) (e_tasks s) (e_stops s) (e_live s) (e_refs s) (e_next s) (e_gather s) log)
      else (false, Est (e_funcs s) (e_tasks s) (e_stops s) (e_live s) (put (e_refs s) slot None) (e_next s) (e_gather s) log)
  end.

Definition set_state (i : nat) (x : tstate) (s : est) : est :=
  match nth_error (e_tasks s) i with
  | Some t => Est (e_funcs s) (put (e_tasks s) i (Task (t_slot t) (t_id t) (t_stop t) x)) (e_stops s) (e_live s) (e_refs s)
                  (e_next s) (e_gather s) (e_log s)
  | None => s
  end.

(** hooks.py:166-168, after the wait. *)
Definition finish (i slot : nat) (s : est) : est :=
  let (raised, s1) := cleanup slot s in set_state i (if raised then TFailed else TDone) s1.

(** hooks.py:157-164; [await stop.wait()] does not suspend if the event is set. *)
Definition start (i : nat) (t : task) (s : est) : est :=
  let (raised, s1) := cleanup (t_slot t) s in
  if raised then set_state i TFailed s1
  else
    let o := beh (t_id t) in
    let s2 := Est (e_funcs s1) (e_tasks s1) (e_stops s1) (e_live s1)
                  (match o with
                   | ORaises => e_refs s1
                   | ONothing => put (e_refs s1) (t_slot t) None
                   | OCleanup => put (e_refs s1) (t_slot t) (Some (t_id t))
                   end) (e_next s1) (e_gather s1) (e_log s1 ++ [Ran (t_slot t) (t_id t) o]) in
    match o with
    | ORaises => set_state i TFailed s2
    | _ => if nth (t_stop t) (e_stops s2) false then finish i (t_slot t) s2 else set_state i TWaiting s2
    end.

(** Running task [i] of the event loop until its next suspension. Nothing happens if it cannot run. *)
Definition step_task (i : nat) (s : est) : est :=
  match nth_error (e_tasks s) i with
  | Some t =>
      match t_state t with
      | TNew => start i t s
      | TWaiting => if nth (t_stop t) (e_stops s) false then finish i (t_slot t) s else s
      | TDone | TFailed => s
      end
  | None => s
  end.

(** [add_effect], _life_cycle_hook.py:194-202, called by the memoised function (hooks.py:170). *)
Definition register (slot : nat) (s : est) : est :=
  Est (e_funcs s ++ [(slot, e_next s)]) (e_tasks s) (e_stops s) (e_live s) (e_refs s) (S (e_next s)) (e_gather s) (e_log s).

(** [affect_layout_did_render], _life_cycle_hook.py:235-240. *)
Definition did_render (s : est) : est :=
  let stop := length (e_stops s) in
  Est [] (e_tasks s ++ map (fun f => Task (fst f) (snd f) stop TNew) (e_funcs s)) (e_stops s ++ [false])
      (e_live s ++ [stop]) (e_refs s) (e_next s) (e_gather s) (e_log s).

(** [affect_component_will_unmount], _life_cycle_hook.py:242-252, up to [await gather(...)]. The tasks gathered are
    all those created (the list is only cleared here). *)
Definition unmount (s : est) : est :=
  Est (e_funcs s) (e_tasks s) (fold_left (fun l i => put l i true) (e_live s) (e_stops s)) [] (e_refs s) (e_next s)
      (Some (seq 0 (length (e_tasks s)))) (e_log s).

(** The schedule. *)
Inductive eop := Register (slot : nat) | DidRender | RunTask (i : nat) | Unmount.
Definition estep (s : est) (o : eop) : est :=
  match o with
  | Register slot => register slot s
  | DidRender => did_render s
  | RunTask i => step_task i s
  | Unmount => unmount s
  end.
Definition erun (slots : nat) (ops : list eop) : est := fold_left estep ops (einit slots).
End Behaviour.

(** [gather] without [return_exceptions] returns when all tasks are done or one has failed: then unmounting has completed. *)
Definition completed (s : est) : Prop :=
  exists g, e_gather s = Some g /\
    ((forall i t, In i g -> nth_error (e_tasks s) i = Some t -> t_state t = TDone) \/
     (exists i t, In i g /\ nth_error (e_tasks s) i = Some t /\ t_state t = TFailed)).

(** ** Specification *)

(** What a user sees of one effect: [open] is the run whose clean-up is due. *)
Inductive seen := SRan (id : nat) (o : outcome) | SCleaned (id : nat).
Definition of_slot (slot : nat) (l : list eev) : list seen :=
  flat_map (fun e => match e with
                     | Ran s k o => if Nat.eq_dec s slot then [SRan k o] else []
                     | Cleaned s k => if Nat.eq_dec s slot then [SCleaned k] else []
                     end) l.
(** Runs and clean-ups alternate: a run that returned a clean-up is followed by exactly that clean-up before the next run. *)
Fixpoint alternates (due : option nat) (l : list seen) : Prop :=
  match l with
  | [] => True
  | SRan k o :: l' => due = None /\ alternates (match o with OCleanup => Some k | _ => None end) l'
  | SCleaned k :: l' => due = Some k /\ alternates None l'
  end.
(** The clean-up that is due at the end. *)
Fixpoint due_after (due : option nat) (l : list seen) : option nat :=
  match l with
  | [] => due
  | SRan k o :: l' => due_after (match o with OCleanup => Some k | _ => None end) l'
  | SCleaned k :: l' => due_after None l'
  end.
Definition runs (k : nat) (l : list eev) : nat := length (filter (fun e => match e with Ran _ j _ => Nat.eqb j k | _ => false end) l).
Definition cleanups (k : nat) (l : list eev) : nat := length (filter (fun e => match e with Cleaned _ j => Nat.eqb j k | _ => false end) l).
