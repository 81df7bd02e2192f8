(** * Specification: what a render function computes from its own state

    A pure semantics of render functions, independent of the layout: it sees only the component's own
    state objects, the context values and the slot counter. *)
From Coq Require Import String ZArith Bool Arith Lia List.
From Verif Require Import Dict LayoutTypes.
Import ListNotations.
Local Open Scope string_scope.
Local Open Scope list_scope.

Definition ctx_set (c : nat) (v : val) (ctx : nat -> option val) : nat -> option val :=
  fun y => if Nat.eq_dec y c then Some v else ctx y.

(** Result of running a render function: what it returned, its state objects afterwards, the contexts it sees
    afterwards, and whether it changed its own state by calling one of its own setters. *)
Definition outcome := (raw * list cell * (nat -> option val) * bool)%type.

(** [first] says whether this is the component's first render (slots are then created, else read).
    [None]: an exception. *)
Fixpoint prun (h : nat) (first : bool) (cells : list cell) (ctx : nat -> option val) (idx : nat) (b : body)
  : option outcome :=
  match b with
  | BRet r => Some (r, cells, ctx, false)
  | BRaise _ => None
  | BUseCell init k =>
      if first then prun h first (cells ++ [init]) ctx (S idx) (k h (length cells) init)
      else match nth_error cells idx with
           | Some c => prun h first cells ctx (S idx) (k h idx c)
           | None => None
           end
  | BSetCell i c k => prun h first (upd cells i c) ctx idx k
  | BAddEffect _ k => prun h first cells ctx idx k
  | BContext c k => prun h first cells ctx idx (k (ctx c))
  | BProvide c v k => prun h first cells (ctx_set c v ctx) idx k
  | BDispatch h' i u k =>
      if Nat.eq_dec h' h
      then match nth_error cells i with
           | Some (CState v) =>
               let v' := match u with UVal x => x | UFun f => f v end in
               if veq v' v then prun h first cells ctx idx k
               else match prun h first (upd cells i (CState v')) ctx idx k with
                    | Some (r, cs, cx, _) => Some (r, cs, cx, true)
                    | None => None
                    end
           | _ => prun h first cells ctx idx k
           end
      else prun h first cells ctx idx k
  end.

(** What the render function returns on the current state objects and contexts. *)
Definition returns (h : nat) (cells : list cell) (ctx : nat -> option val) (b : body) (r : raw) : Prop :=
  exists cells' ctx' ch, prun h false cells ctx 0 b = Some (r, cells', ctx', ch).

(** Rendering again without any state change in between returns the same. (Holds of every render function built
    from use_state, use_reducer, use_memo, use_callback, use_context, use_effect: see HooksProofs.v.) *)
Definition steady (b : body) : Prop :=
  forall h first cells ctx r cells' ctx',
    (first = true -> cells = []) ->
    prun h first cells ctx 0 b = Some (r, cells', ctx', false) ->
    returns h cells' ctx' b r.

(** The body never calls [set_context_provider] itself (only [ContextProvider.render] does). *)
Fixpoint no_provide (b : body) : Prop :=
  match b with
  | BRet _ | BRaise _ => True
  | BUseCell _ k => forall h i c, no_provide (k h i c)
  | BSetCell _ _ k | BAddEffect _ k | BDispatch _ _ _ k => no_provide k
  | BContext _ k => forall v, no_provide (k v)
  | BProvide _ _ _ => False
  end.

(** Contexts visible to the descendants of component [c] when [env] is visible to [c]. *)
Definition visible (c : cinst) (env : nat -> option val) : nat -> option val :=
  match ci_type c with
  | CTContext x => ctx_set x (ci_props c) env
  | CTUser _ => env
  end.
