(** * Model of event delivery: queues, processing tasks, sequence numbers (C29-C33)

    /repo/src/reactpy/core/layout.py:130-150 ([deliver]), 152-190 ([_process_event_queue]);
    /repo/src/reactpy/core/serve.py:61-71 ([_single_incoming_loop] starts one [deliver] per received event, in the order of
    arrival).  The queue is asyncio's [Queue] (standard library): [put] waits while the queue is full, [get] wakes the
    first waiting putter, which then has to run before it can put.

    The machine is small-step: one op is one run of a task between two suspensions.
    Simplifications: an event is its number, its target and its [seq]; the handler registry is changed by an op of its own
    (the renders); a handler call is one op for the start and one for the end, with its outcome chosen by the op. *)
From Coq Require Import ZArith Bool Arith Lia List.
From Verif Require Import AsyncModel.
Import ListNotations.

(** [LayoutEventMessage], /repo/src/reactpy/types.py. [e_seq] is [None] if the message has no integer [seq]. *)
Record event := Event { e_id : nat; e_target : nat; e_seq : option Z }.

(** How a handler call ends: it returns, raises an [Exception], or raises another [BaseException] (for instance
    [CancelledError], raised by awaiting a cancelled task). *)
Inductive outcome := HReturned | HRaised | HEscaped.

(** Where the processing task of a target is: before or in [queue.get]; in [sleep(0.01)] with [n] lookups left; in the
    handler; ended by an exception that [except Exception] does not catch. *)
Inductive proc := PIdle | PRetry (e : event) (n : nat) | PRun (e : event) (h : nat) | PDead.

(** What belongs to one target: [_event_queues[target]] with its waiting putters and the putters that were woken and have
    not run yet, [_event_processing_tasks[target]] and [_last_event_seq_by_target.get(target)]. *)
Record tstate := TState { t_queue : list event; t_blocked : list event; t_woken : list event; t_proc : proc; t_seq : option Z }.
Definition tinit : tstate := TState [] [] [] PIdle None.

(** What happens, for the statements: arrival at [deliver], removal from the queue, each lookup of the handler with its
    result, start and end of the handler call, and the log message of an ignored event. *)
Inductive entry :=
| LArrive (e : event)
| LTake (e : event)
| LLook (e : event) (h : option nat)
| LStart (e : event) (h : nat)
| LEnd (e : event) (o : outcome)
| LIgnore (e : event).

(** The part of the layout that concerns events. *)
Record estate := EState { s_targets : nat -> option tstate; s_handlers : nat -> option nat; s_log : list entry }.
Definition einit : estate := EState (fun _ => None) (fun _ => None) [].
Definition tget (s : estate) (t : nat) : tstate := match s_targets s t with Some x => x | None => tinit end.
Definition tset (t : nat) (x : tstate) (l : list entry) (s : estate) : estate :=
  EState (upd (s_targets s) t (Some x)) (s_handlers s) (s_log s ++ l).

(** [Queue.full]: a size of 0 means no bound. *)
Definition full (cap : nat) (q : list event) : bool := negb (Nat.eqb cap 0) && Nat.leb cap (length q).
(** One pass of [Queue.put]'s loop: wait at the end of the putters, or put. *)
Definition try_put (cap : nat) (e : event) (x : tstate) : tstate :=
  if full cap (t_queue x)
  then TState (t_queue x) (t_blocked x ++ [e]) (t_woken x) (t_proc x) (t_seq x)
  else TState (t_queue x ++ [e]) (t_blocked x) (t_woken x) (t_proc x) (t_seq x).
(** [deliver], layout.py:130-150. *)
Definition deliver (cap : nat) (e : event) (s : estate) : estate :=
  tset (e_target e) (try_put cap e (tget s (e_target e))) [LArrive e] s.
(** The first woken putter runs. *)
Definition resume (cap : nat) (t : nat) (s : estate) : estate :=
  let x := tget s t in
  match t_woken x with
  | [] => s
  | e :: w => tset t (try_put cap e (TState (t_queue x) (t_blocked x) w (t_proc x) (t_seq x))) [] s
  end.

(** Recording of the sequence number, layout.py:162-166. *)
Definition record_seq (e : event) (last : option Z) : option Z :=
  match e_seq e with
  | Some q => if (0 <=? q)%Z then (if (match last with Some p => p | None => -1 end <? q)%Z then Some q else last) else last
  | None => last
  end.

(** After a lookup: call the handler, sleep again or ignore the event (layout.py:168-190). [n]: lookups left. *)
Definition after_lookup (e : event) (h : option nat) (n : nat) : proc * list entry :=
  match h with
  | Some f => (PRun e f, [LLook e h; LStart e f])
  | None => match n with
            | 0 => (PIdle, [LLook e None; LIgnore e])
            | _ => (PRetry e n, [LLook e None])
            end
  end.
(** The processing task runs: [queue.get()] (which wakes a putter), the recording of [seq] and the first lookup; or one of
    the three lookups that follow a [sleep]. *)
Definition process (t : nat) (s : estate) : estate :=
  let x := tget s t in
  match t_proc x with
  | PIdle =>
      match t_queue x with
      | [] => s
      | e :: q =>
          let (p, l) := after_lookup e (s_handlers s t) 3 in
          tset t (TState q (tl (t_blocked x)) (t_woken x ++ firstn 1 (t_blocked x)) p (record_seq e (t_seq x))) (LTake e :: l) s
      end
  | PRetry e n =>
      let (p, l) := after_lookup e (s_handlers s t) (n - 1) in
      tset t (TState (t_queue x) (t_blocked x) (t_woken x) p (t_seq x)) l s
  | PRun _ _ | PDead => s
  end.
(** The handler call ends, layout.py:177-184. *)
Definition finish (t : nat) (o : outcome) (s : estate) : estate :=
  let x := tget s t in
  match t_proc x with
  | PRun e h => tset t (TState (t_queue x) (t_blocked x) (t_woken x) (match o with HEscaped => PDead | _ => PIdle end) (t_seq x)) [LEnd e o] s
  | _ => s
  end.

(** [ORegister]: a render sets or removes a handler (layout.py:394-432, 569-570). *)
Inductive eop := ODeliver (e : event) | OResume (t : nat) | OProcess (t : nat) | OFinish (t : nat) (o : outcome) | ORegister (t : nat) (h : option nat).
Definition estep (cap : nat) (s : estate) (o : eop) : estate :=
  match o with
  | ODeliver e => deliver cap e s
  | OResume t => resume cap t s
  | OProcess t => process t s
  | OFinish t r => finish t r s
  | ORegister t h => EState (s_targets s) (upd (s_handlers s) t h) (s_log s)
  end.
Definition erun (cap : nat) (ops : list eop) : estate := fold_left (estep cap) ops einit.

(** ** Specification: what the log says about one target *)

Definition about (x : entry) : event :=
  match x with LArrive e | LTake e | LLook e _ | LStart e _ | LEnd e _ | LIgnore e => e end.
Definition of_target (t : nat) (l : list entry) : list entry := filter (fun x => Nat.eqb (e_target (about x)) t) l.
Definition arrivals (l : list entry) : list event := flat_map (fun x => match x with LArrive e => [e] | _ => [] end) l.
Definition takes (l : list entry) : list event := flat_map (fun x => match x with LTake e => [e] | _ => [] end) l.
Definition handling (l : list entry) : list entry := filter (fun x => match x with LArrive _ => false | _ => true end) l.

(** The handling of one event: taken once; either the handler is found by one of the four lookups and called once, or all
    four fail and the event is dropped. *)
Inductive block (e : event) : list entry -> Prop :=
| b_called n h o : n <= 3 -> block e ([LTake e] ++ repeat (LLook e None) n ++ [LLook e (Some h); LStart e h; LEnd e o])
| b_dropped : block e ([LTake e] ++ repeat (LLook e None) 4 ++ [LIgnore e]).
(** One after the other, without overlap. *)
Inductive blocks : list event -> list entry -> Prop :=
| bs_nil : blocks [] []
| bs_snoc es l e b : blocks es l -> block e b -> blocks (es ++ [e]) (l ++ b).
(** The events [done] have been handled and [cur] (at most one) is being handled. *)
Inductive handled : list event -> list event -> list entry -> Prop :=
| h_idle done l : blocks done l -> handled done [] l
| h_busy done l e p suffix : blocks done l -> block e (p ++ suffix) -> p <> [] -> suffix <> [] -> handled done [e] (l ++ p).

(** The queue of [t] is never found full by a delivery. *)
Fixpoint never_full (cap t : nat) (s : estate) (ops : list eop) : Prop :=
  match ops with
  | [] => True
  | o :: r => match o with ODeliver e => e_target e = t -> full cap (t_queue (tget s t)) = false | _ => True end /\ never_full cap t (estep cap s o) r
  end.
