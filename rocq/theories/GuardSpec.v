(** * Specification: well-formed keys and event handlers *)
From Coq Require Import String Ascii ZArith Bool Arith Lia List.
From Verif Require Import Dict Strings LayoutTypes BodySpec DisplaySpec.
Import ListNotations.
Local Open Scope string_scope.
Local Open Scope list_scope.

Definition slash : ascii := "/".
Definition colon : ascii := ":".

(** ** Guards *)

(** Handlers have automatic targets and distinct event names without ':'. *)
Definition handlers_ok (hs : dict string handler) : Prop :=
  NoDup (dkeys hs) /\ forall ev h, In (ev, h) hs -> h_target h = None /\ nochar colon ev.

(** Effective keys of the children that are not None, counting positions from [i]. *)
Fixpoint keys_from (i : nat) (l : list raw) : list key :=
  match l with
  | [] => []
  | RNone :: l' => keys_from (S i) l'
  | r :: l' => effective_key i r :: keys_from (S i) l'
  end.

(** Two different children, neither None, with equal effective keys. *)
Definition clash (l : list raw) : Prop :=
  exists i j a b, i < j /\ nth_error l i = Some a /\ nth_error l j = Some b /\ a <> RNone /\ b <> RNone /\
                  effective_key i a = effective_key j b.

(** Siblings have keys (an index if none is given) that are distinct as text and contain no '/'. *)
Definition shown_keys (l : list raw) : list string := map show_key (keys_from 0 l).
Definition siblings_ok (l : list raw) : Prop := NoDup (shown_keys l) /\ Forall (nochar slash) (shown_keys l).

Fixpoint raw_ok (r : raw) : Prop :=
  match r with
  | RNone | RText _ => True
  | RElem _ _ hs _ _ ch =>
      handlers_ok hs /\
      match ch with Some l => siblings_ok l /\ fold_right and True (map raw_ok l) | None => True end
  | RComp c => cinst_ok c
  end
with cinst_ok (c : cinst) : Prop :=
  match c with
  | Cinst ty _ _ kids =>
      fold_right and True (map raw_ok kids) /\ match ty with CTContext _ => siblings_ok kids | CTUser _ => True end
  end.
Definition raws_ok (l : list raw) : Prop := fold_right and True (map raw_ok l).

(** All results of a render function satisfy the guards; keys of explicit results too. *)
Definition out_ok (r : raw) : Prop := raw_ok r /\ siblings_ok [r].
Fixpoint body_ok (b : body) : Prop :=
  match b with
  | BRet r => out_ok r
  | BRaise _ => True
  | BUseCell _ k => forall h i c, body_ok (k h i c)
  | BSetCell _ _ k | BAddEffect _ k | BDispatch _ _ _ k => body_ok k
  | BContext _ k => forall v, body_ok (k v)
  | BProvide _ _ k => body_ok k
  end.


(** ** Guards on a whole application *)

(** No render function's result depends on how often it was called, and none provides contexts by itself. *)
Definition steady_app (defs : nat -> val -> list raw -> body) : Prop :=
  (forall n p l, steady (defs n p l)) /\ (forall n p l, no_provide (defs n p l)).

(** Every render function turns well-formed children into well-formed results, and the root is well-formed. *)
Definition keyed_app (defs : nat -> val -> list raw -> body) (root : cinst) : Prop :=
  (forall n p kids, raws_ok kids -> body_ok (defs n p kids)) /\ cinst_ok root.
