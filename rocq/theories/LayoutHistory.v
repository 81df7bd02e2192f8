(** * Specification: histories of a layout and what is observed of one step *)
From Coq Require Import String ZArith Bool Arith Lia List.
From Verif Require Import Dict LayoutTypes BodySpec DisplaySpec LayoutModel LayoutObs.
Import ListNotations.
Local Open Scope string_scope.
Local Open Scope list_scope.

(** State [s] is reached by a fresh layout of [root] by the operations [ops]: environment steps, and [render()]
    calls interleaved with environment steps at every await. *)
Definition history (debug : bool) (defs : nat -> val -> list raw -> body) (root : cinst) (ops : list op) (s : st) : Prop :=
  exists fuel, run debug defs fuel ops (init root) = Some s.

(** One more operation. *)
Definition next (debug : bool) (defs : nat -> val -> list raw -> body) (s : st) (o : op) (s' : st) : Prop :=
  exists fuel, step debug defs fuel o s = Some s'.

(** Leaving the layout context, with the environment's steps meanwhile. *)
Definition exits (s : st) (bs : list (list envop)) (s' : st) : Prop :=
  exists fuel, close fuel (set_env bs s) = (Ok tt, s').

(** What a step adds to the log. *)
Definition added (s s' : st) (l : list event) : Prop := s_log s' = s_log s ++ l.

(** No render of a displayed component is pending. *)
Definition quiescent (s : st) (n : inst) : Prop := forall h, In h (ids n) -> ~ In h (s_queue s).

(** Effect tasks started, in order. *)
Definition effects_started (l : list event) : list nat :=
  flat_map (fun e => match e with EvEffects h _ => [h] | _ => [] end) l.
