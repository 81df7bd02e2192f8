(** * Specification: what it means that a model displays a component

    Independent of the layout: only the values an application writes ([raw]), the JSON model a client holds and
    the pure semantics of render functions (BodySpec.v). *)
From Coq Require Import String ZArith Bool Arith Lia List.
From Verif Require Import Dict LayoutTypes BodySpec.
Import ListNotations.
Local Open Scope string_scope.
Local Open Scope list_scope.

(** ** Instances: who is mounted where *)

(** Elements and component instances, with the effective key of every child. Texts have no identity. *)
Inductive inst :=
| IElem (kids : list (key * inst))
| IComp (id : nat) (ty : ctype) (kids : list (key * inst)).

Fixpoint ids (n : inst) : list nat :=
  match n with
  | IElem l => flat_map (fun kn => ids (snd kn)) l
  | IComp h _ l => h :: flat_map (fun kn => ids (snd kn)) l
  end.

(** The explicit key of a child, else its position among all children. *)
Definition explicit_key (r : raw) : option key :=
  match r with
  | RElem _ (Some attrs) _ _ _ _ =>
      match dget "key" attrs with Some (VInt z) => Some (KInt z) | Some (VStr s) => Some (KStr s) | _ => None end
  | RComp c => ci_key c
  | _ => None
  end.
Definition effective_key (i : nat) (r : raw) : key :=
  match explicit_key r with Some k => k | None => KInt (Z.of_nat i) end.

(** ** Attributes and event handlers *)

(** Attributes are displayed unchanged, but an input element may get the acknowledged sequence number. *)
Definition attrs_shown (tag : string) (given shown : option (dict string val)) : Prop :=
  shown = given \/
  (In tag ["input"; "select"; "textarea"] /\
   exists d a, given = Some d /\ ~ In "_reactpy_ack_seq" (dkeys d) /\
               shown = Some (d ++ [("_reactpy_ack_seq", VInt a)])).

(** Every handler is displayed under its event with its flags and some target; [own] lists targets and handlers. *)
Definition handlers_shown (hs : dict string handler) (shown : option (dict string hjson))
           (own : list (string * handler)) : Prop :=
  map snd own = dvals hs /\
  shown = match hs with
          | [] => None
          | _ => Some (map (fun x => (fst (fst x), HJson (fst (snd x)) (h_prevent (snd (fst x))) (h_stop (snd (fst x)))
                                                       (h_debounce (snd (fst x))) (h_throttle (snd (fst x)))))
                           (combine hs own))
          end.

(** ** Display *)

(** How the last render of an instance ended: with what it returned, or with an exception, displayed as [text]. *)
Inductive fate := Returned (r : raw) | Failed (e : exn) (text : string).

Section Display.
(** [outputs h c env out]: the last render of instance [h] of component [c] ended as [out] where contexts [env] are
    provided. *)
Variable outputs : nat -> cinst -> (nat -> option val) -> fate -> Prop.

(** [displays env r m n binds]: model [m] displays the element or component [r] below context providers [env];
    [n] are the instances involved; [binds] the event targets of [m] with the handlers they stand for.
    An instance that failed is displayed as a node that has nothing but the error text. *)
Inductive displays : (nat -> option val) -> raw -> model -> inst -> list (string * handler) -> Prop :=
| D_elem env tag attrs hs js imp ch attrs' eh own ms ns bs :
    attrs_shown tag attrs attrs' ->
    handlers_shown hs eh own ->
    displays_all env 0 (match ch with Some l => l | None => [] end) ms ns bs ->
    displays env (RElem tag attrs hs js imp ch)
      (MNode tag imp attrs' js eh (match ch with Some (_ :: _) => Some ms | _ => None end) None)
      (IElem ns) (own ++ bs)
| D_comp env c h out ms ns bs :
    outputs h c env (Returned out) ->
    displays_all (visible c env) 0 [out] ms ns bs ->
    displays env (RComp c) (MNode "" None None None None (Some ms) None) (IComp h (ci_type c) ns) bs
| D_fail env c h e text :
    outputs h c env (Failed e text) ->
    displays env (RComp c) (MNode "" None None None None None (Some text)) (IComp h (ci_type c) []) []

with displays_all : (nat -> option val) -> nat -> list raw -> list model -> list (key * inst)
                    -> list (string * handler) -> Prop :=
| DA_nil env i : displays_all env i [] [] [] []
| DA_none env i l ms ns bs :
    displays_all env (S i) l ms ns bs -> displays_all env i (RNone :: l) ms ns bs
| DA_text env i s l ms ns bs :
    displays_all env (S i) l ms ns bs -> displays_all env i (RText s :: l) (MText s :: ms) ns bs
| DA_cons env i r l m ms n ns b bs :
    displays env r m n b ->
    displays_all env (S i) l ms ns bs ->
    displays_all env i (r :: l) (m :: ms) ((effective_key i r, n) :: ns) (b ++ bs).
End Display.

(** All targets occurring in a model. *)
Fixpoint model_targets (m : model) : list string :=
  match m with
  | MText _ => []
  | MNode _ _ _ _ eh ch _ =>
      match eh with Some d => map (fun kv => hj_target (snd kv)) d | None => [] end ++
      match ch with Some l => flat_map model_targets l | None => [] end
  end.

(** ** The client *)

(** Setting the model at a path of child positions; the empty path replaces everything. *)
Fixpoint put_at (path : list nat) (m : model) (M : model) : option model :=
  match path with
  | [] => Some m
  | i :: p =>
      match M with
      | MNode tag imp attrs js eh (Some ch) err =>
          match nth_error ch i with
          | Some x => match put_at p m x with
                      | Some x' => Some (MNode tag imp attrs js eh (Some (upd ch i x')) err)
                      | None => None
                      end
          | None => None
          end
      | _ => None
      end
  end.

(** A client that starts without a model: [None] if it never got one; [Some None] if an update did not apply. *)
Definition client_step (M : option (option model)) (u : list nat * model) : option (option model) :=
  match fst u, M with
  | [], _ => Some (Some (snd u))
  | p, Some (Some x) => Some (put_at p (snd u) x)
  | _, _ => Some None
  end.
Definition client (us : list (list nat * model)) : option (option model) := fold_left client_step us None.

(** ** Identity *)

(** [evolves fresh old new]: children keep their identity iff they are found under the same key below the
    same parent, and both are components of the same type or both elements; all others are new. *)
Inductive evolves (fresh : nat -> Prop) : option inst -> inst -> Prop :=
| Ev_elem old ns :
    evolves_all fresh (match old with Some (IElem os) => os | _ => [] end) ns ->
    evolves fresh old (IElem ns)
| Ev_keep h ty os ns :
    evolves_all fresh os ns ->
    evolves fresh (Some (IComp h ty os)) (IComp h ty ns)
| Ev_new old h ty ns :
    (forall h0 os, old <> Some (IComp h0 ty os)) -> fresh h ->
    evolves_all fresh [] ns ->
    evolves fresh old (IComp h ty ns)
with evolves_all (fresh : nat -> Prop) : list (key * inst) -> list (key * inst) -> Prop :=
| EA_nil os : evolves_all fresh os []
| EA_cons os k n ns : evolves fresh (dget k os) n -> evolves_all fresh os ns -> evolves_all fresh os ((k, n) :: ns).

(** Replacing the instance [h]. *)
Fixpoint replace_inst (h : nat) (new : inst) (n : inst) : inst :=
  match n with
  | IElem l => IElem (map (fun kn => (fst kn, replace_inst h new (snd kn))) l)
  | IComp h' ty l =>
      if Nat.eq_dec h' h then new else IComp h' ty (map (fun kn => (fst kn, replace_inst h new (snd kn))) l)
  end.

(** The instance with identity [h]. *)
Inductive occurs (h : nat) : inst -> inst -> Prop :=
| Oc_here ty l : occurs h (IComp h ty l) (IComp h ty l)
| Oc_elem l k n x : In (k, n) l -> occurs h n x -> occurs h (IElem l) x
| Oc_comp h' ty l k n x : In (k, n) l -> occurs h n x -> occurs h (IComp h' ty l) x.

(** What a component instance computes: [returns] on its state, or anything while a render of it is pending. *)
Definition program (defs : nat -> val -> list raw -> body) (c : cinst) : body :=
  match ci_type c with
  | CTUser n => defs n (ci_props c) (ci_kids c)
  | CTContext x => BProvide x (ci_props c) (BRet (RElem "" None [] None None (Some (ci_kids c))))
  end.
