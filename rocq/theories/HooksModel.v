(** * Model of the hooks (/repo/src/reactpy/core/hooks.py)

    Hook calls in continuation-passing style: a render function that calls a hook is a [body] whose continuation
    gets the hook's result. *)
From Coq Require Import String ZArith Bool Arith Lia List.
From Verif Require Import Dict LayoutTypes.
Import ListNotations.
Local Open Scope string_scope.
Local Open Scope list_scope.

(** The [dependencies] argument: [...] (not given) or given; and the closure values of the function, if it is a
    plain function ([None]: no function given, or another callable). *)
Inductive deps_arg := DEllipsis | DGiven (d : option (list val)).

(** [_try_to_infer_closure_values], hooks.py:575-588. *)
Definition infer_deps (closure : option (list val)) (d : deps_arg) : option (list val) :=
  match d with
  | DGiven x => x
  | DEllipsis => closure
  end.

(** [use_state], hooks.py:62-96. A callable initial value is represented by its result. The second result is the
    [dispatch] function, identified by the hook and slot it belongs to. *)
Definition use_state (initial : val) (k : val -> nat * nat -> body) : body :=
  BUseCell (CState initial) (fun h i c =>
    match c with
    | CState v => k v (h, i)
    | _ => BRaise "AttributeError"
    end).

(** [use_ref], hooks.py:559-568. The Ref object is identified by its slot; its current value is also passed. *)
Definition use_ref (initial : val) (k : nat -> val -> body) : body :=
  BUseCell (CRef initial) (fun _ i c =>
    match c with
    | CRef v => k i v
    | _ => BRaise "AttributeError"
    end).

(** [len(memo.deps) != len(dependencies) or not all(strictly_equal(...))], hooks.py:515-522. *)
Fixpoint same_deps (a b : list val) : bool :=
  match a, b with
  | [], [] => true
  | x :: a', y :: b' => veq x y && same_deps a' b'
  | _, _ => false
  end.

(** [use_memo] without a function, hooks.py:486-539: the continuation gets [setup], which takes the function to
    memoise (itself in continuation-passing style) and a continuation. *)
Definition memo_changed (md : list val) (mv : option val) (deps : option (list val)) : bool :=
  match mv with
  | None => true
  | Some _ => match deps with
              | None => true
              | Some d => negb (same_deps md d)
              end
  end.
Definition memo_deps (deps : option (list val)) : list val := match deps with None => [] | Some d => d end.

Definition use_memo_setup (deps : option (list val))
           (k : (((val -> body) -> body) -> (val -> body) -> body) -> body) : body :=
  BUseCell (CMemo [] None) (fun _ i c =>
    match c with
    | CMemo md mv =>
        if memo_changed md mv deps
        then BSetCell i (CMemo (memo_deps deps) mv)
               (k (fun f k' => f (fun v => BSetCell i (CMemo (memo_deps deps) (Some v)) (k' v))))
        else k (fun f k' => match mv with Some v => k' v | None => BRaise "AttributeError" end)
    | _ => BRaise "AttributeError"
    end).

(** [use_memo] with a function: its result, or the message of the exception it raises. *)
Definition call (f : val + string) (k : val -> body) : body :=
  match f with inl v => k v | inr msg => BRaise msg end.
Definition use_memo (deps : option (list val)) (f : val + string) (k : val -> body) : body :=
  use_memo_setup deps (fun setup => setup (call f) k).

(** [use_callback], hooks.py:439-463 (functions are represented by their identity). *)
Definition use_callback (deps : option (list val)) (f : val) (k : val -> body) : body :=
  use_memo_setup deps (fun setup => setup (fun k' => k' f) k).

(** [use_reducer], hooks.py:392-419. A dispatcher is the pair of the reducer it captured and the state's setter. *)
Definition use_reducer (reducer : nat) (initial : val) (k : val -> val -> body) : body :=
  use_state initial (fun v set =>
    BUseCell (CConst (VPair (VInt (Z.of_nat reducer)) (VSetter (fst set) (snd set)))) (fun _ _ c =>
      match c with
      | CConst d => k v d
      | _ => BRaise "AttributeError"
      end)).

(** [use_context], hooks.py:345-363: the nearest provider's value, else the context's default. *)
Definition use_context (c : nat) (default : val) (k : val -> body) : body :=
  BContext c (fun o => k (match o with Some v => v | None => default end)).

(** [use_effect], hooks.py:121-176. *)
Definition use_effect (deps : option (list val)) (fn : nat) (k : body) : body :=
  use_memo_setup deps (fun setup =>
    use_ref VNone (fun ref _ =>
      setup (fun k' => BAddEffect (Effect fn ref) (k' VNone)) (fun _ => k))).

(** [use_async_effect], hooks.py:195-291: the same with one more reference ([pending_task]). *)
Definition use_async_effect (deps : option (list val)) (fn : nat) (k : body) : body :=
  use_memo_setup deps (fun setup =>
    use_ref VNone (fun ref _ =>
      use_ref VNone (fun _ _ =>
        setup (fun k' => BAddEffect (Effect fn ref) (k' VNone)) (fun _ => k)))).

(** ** Programs *)

(** Render functions written with hooks: the i-th hook call of every render is reached in the same order
    whenever the earlier results are the same. The continuations are arbitrary. *)
Inductive prog :=
| PRet (r : raw)
| PRaise (msg : string)
| PState (initial : val) (k : val -> nat * nat -> prog)
| PReducer (reducer : nat) (initial : val) (k : val -> val -> prog)
| PMemo (deps : option (list val)) (f : val + string) (k : val -> prog)
| PCallback (deps : option (list val)) (f : val) (k : val -> prog)
| PRef (initial : val) (k : nat -> val -> prog)
| PContext (c : nat) (default : val) (k : val -> prog)
| PEffect (deps : option (list val)) (fn : nat) (k : prog)
| PAsyncEffect (deps : option (list val)) (fn : nat) (k : prog)
| PDispatch (set : nat * nat) (u : upd_arg) (k : prog).

Fixpoint compile (p : prog) : body :=
  match p with
  | PRet r => BRet r
  | PRaise msg => BRaise msg
  | PState init k => use_state init (fun v s => compile (k v s))
  | PReducer r init k => use_reducer r init (fun v d => compile (k v d))
  | PMemo deps f k => use_memo deps f (fun v => compile (k v))
  | PCallback deps f k => use_callback deps f (fun v => compile (k v))
  | PRef init k => use_ref init (fun i v => compile (k i v))
  | PContext c d k => use_context c d (fun v => compile (k v))
  | PEffect deps fn k => use_effect deps fn (compile k)
  | PAsyncEffect deps fn k => use_async_effect deps fn (compile k)
  | PDispatch set u k => BDispatch (fst set) (snd set) u (compile k)
  end.

(** A render function calls own setters only after the [use_state] they come from (in the same render). *)
Fixpoint scoped (h idx : nat) (p : prog) : Prop :=
  match p with
  | PRet _ | PRaise _ => True
  | PState _ k => forall v, scoped h (S idx) (k v (h, idx))
  | PReducer _ _ k => forall v d, scoped h (S (S idx)) (k v d)
  | PMemo _ _ k | PCallback _ _ k => forall v, scoped h (S idx) (k v)
  | PRef _ k => forall v, scoped h (S idx) (k idx v)
  | PContext _ _ k => forall v, scoped h idx (k v)
  | PEffect _ _ k => scoped h (S (S idx)) k
  | PAsyncEffect _ _ k => scoped h (S (S (S idx))) k
  | PDispatch s _ k => (fst s = h -> snd s < idx) /\ scoped h idx k
  end.
