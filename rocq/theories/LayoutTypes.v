(** * Data types shared by the layout and hook models *)
From Coq Require Import String ZArith Bool Arith Lia List.
From Coq Require Import DecimalString.
From Verif Require Import Dict.
Import ListNotations.
Local Open Scope string_scope.

(** [Key = str | int]: /repo/src/reactpy/types.py:39.
    Simplification: other hashable objects used as keys are not modelled. *)
Inductive key := KInt (z : Z) | KStr (s : string).

#[global] Instance EqDec_key : EqDec key.
Proof. intros x y. unfold EqDec. decide equality; [apply Z.eq_dec|apply string_dec]. Defined.

(** [f"{key}"] as used in key paths: /repo/src/reactpy/core/layout.py:634, 678, 695, 712. *)
Definition show_Z (z : Z) : string := NilZero.string_of_int (Z.to_int z).
Definition show_key (k : key) : string :=
  match k with KInt z => show_Z z | KStr s => s end.

(** Python values that components keep in state, props and attributes.
    [VSetter h i] is the [dispatch] function of the [use_state] in slot [i] of hook [h]
    (/repo/src/reactpy/core/hooks.py:90-96).
    Simplification: a fixed universe of values, pairs standing for tuples/lists/dicts. *)
Inductive val :=
| VNone
| VBool (b : bool)
| VInt (z : Z)
| VStr (s : string)
| VPair (a b : val)
| VSetter (h i : nat).

#[global] Instance EqDec_val : EqDec val.
Proof.
  intros x y. unfold EqDec. decide equality; try apply string_dec; try apply Z.eq_dec; try apply Nat.eq_dec; apply bool_dec.
Defined.

(** [strictly_equal] on this universe: /repo/src/reactpy/core/hooks.py:591-644.
    Values of different type are never equal; plain values are compared with [==];
    the [dispatch] closures of all states have the same source, so any two are "equal"
    (lines 607-635 compare code, not captured variables). *)
Definition veq (x y : val) : bool :=
  match x, y with
  | VNone, VNone => true
  | VBool a, VBool b => Bool.eqb a b
  | VInt a, VInt b => Z.eqb a b
  | VStr a, VStr b => String.eqb a b
  | VPair a b, VPair c d => if eq_dec a c then (if eq_dec b d then true else false) else false
  | VSetter _ _, VSetter _ _ => true
  | _, _ => false
  end.

(** Exceptions: raised by application code ([EUser]), for duplicate keys (/repo/src/reactpy/core/layout.py:524-528),
    by dictionary deletions (layout.py:570-574), by a hook call without a slot (_life_cycle_hook.py:190), by a lost
    parent (layout.py:781-786), by the hook stack (_life_cycle_hook.py:266-278) and for values that are no VDOM. *)
Inductive exn :=
| EUser (msg : string) | EDuplicateKeys | EKeyError | EIndexError | EDetached | EHookStack | EBadVdom.

(** An event handler object: /repo/src/reactpy/core/events.py:91-174 (its attributes).
    [h_fn] is the identity of the function. *)
Record handler := Handler {
  h_fn : nat;
  h_stop : bool;
  h_prevent : bool;
  h_target : option string;
  h_debounce : option Z;
  h_throttle : option Z
}.

(** The type of a component: a user function, or a context
    (/repo/src/reactpy/types.py:42-75 [Component.type], 1065-1085 [ContextProvider]). *)
Inductive ctype := CTUser (n : nat) | CTContext (c : nat).

#[global] Instance EqDec_ctype : EqDec ctype.
Proof. intros x y. unfold EqDec. decide equality; apply Nat.eq_dec. Defined.

(** What a render function may return and what may occur in a children list
    ([VdomChild], /repo/src/reactpy/types.py; [VdomDict] lines 805-885; [Component] 42-75).
    - [RText] stands for a string or any other object, already formatted by [f"{child}"]
      (/repo/src/reactpy/core/layout.py:894).
    - [RElem]: "attributes", "inlineJavaScript", "importSource", "children" may be absent;
      an absent "eventHandlers" is the empty dictionary (as layout.py:395 treats it).
      Simplification: "children" is a list (layout.py:517-521 converts tuples and single values).
    - a component instance: its type, key and arguments (a value and a list of children). *)
Inductive raw :=
| RNone
| RText (s : string)
| RElem (tag : string) (attrs : option (dict string val)) (handlers : dict string handler)
        (js : option (dict string string)) (imp : option string) (children : option (list raw))
| RComp (c : cinst)
with cinst := Cinst (ty : ctype) (k : option key) (props : val) (kids : list raw).

Definition ci_type (c : cinst) := match c with Cinst t _ _ _ => t end.
Definition ci_key (c : cinst) := match c with Cinst _ k _ _ => k end.
Definition ci_props (c : cinst) := match c with Cinst _ _ p _ => p end.
Definition ci_kids (c : cinst) := match c with Cinst _ _ _ l => l end.

(** The serialised event handler: layout.py:489-507. *)
Record hjson := HJson {
  hj_target : string;
  hj_prevent : bool;
  hj_stop : bool;
  hj_debounce : option Z;
  hj_throttle : option Z
}.

(** A rendered model ([VdomJson], /repo/src/reactpy/types.py; schema core/vdom.py:36-106):
    the JSON object sent to the client. *)
Inductive model :=
| MText (s : string)
| MNode (tag : string) (imp : option string) (attrs : option (dict string val))
        (js : option (dict string string)) (eh : option (dict string hjson))
        (children : option (list model)) (error : option string).

(** Objects kept in [LifeCycleHook._state] (/repo/src/reactpy/core/_life_cycle_hook.py:160):
    [_CurrentState] (hooks.py:80-96), [_Memo] (hooks.py:542-556), [Ref] (/repo/src/reactpy/utils.py:21-63) and other constants. *)
Inductive cell :=
| CState (v : val)
| CMemo (deps : list val) (value : option val)
| CRef (v : val)
| CConst (v : val).

(** An argument of a state's [dispatch]: a plain value or a function of the old value
    (hooks.py:91). Simplification: update functions do not raise. *)
Inductive upd_arg := UVal (v : val) | UFun (f : val -> val).

(** An effect registered with [add_effect] (_life_cycle_hook.py:194-202):
    the effect function's identity and the slot of its clean-up [Ref]. *)
Record effect := Effect { ef_fn : nat; ef_ref : nat }.

(** A render function, as a sequence of hook operations ending in a result or an exception.
    - [BUseCell init k]: [HOOK_STACK.current_hook().use_state(lambda: init)]; [k] receives the hook's
      identity, the slot and the slot's object.
    - [BSetCell i c k]: assignment to attributes of the object in own slot [i].
    - [BAddEffect], [BContext] ([get_context_provider]), [BProvide] ([set_context_provider]).
    - [BDispatch h i u k]: calling the [dispatch] function of slot [i] of hook [h] during the render. *)
Inductive body :=
| BRet (r : raw)
| BRaise (msg : string)
| BUseCell (init : cell) (k : nat -> nat -> cell -> body)
| BSetCell (i : nat) (c : cell) (k : body)
| BAddEffect (e : effect) (k : body)
| BContext (c : nat) (k : option val -> body)
| BProvide (c : nat) (v : val) (k : body)
| BDispatch (h i : nat) (u : upd_arg) (k : body).
