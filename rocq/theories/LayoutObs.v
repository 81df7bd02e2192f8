(** * Specification: what is observed of a layout's history *)
From Coq Require Import String ZArith Bool Arith Lia List.
From Verif Require Import Dict LayoutTypes BodySpec DisplaySpec LayoutModel.
Import ListNotations.
Local Open Scope string_scope.
Local Open Scope list_scope.

(** The updates sent to the client, oldest first. *)
Definition updates (l : list event) : list (list nat * model) :=
  flat_map (fun e => match e with EvUpdate p m => [(p, m)] | _ => [] end) l.

(** Instances rendered and unmounted, in order. *)
Definition rendered (l : list event) : list nat :=
  flat_map (fun e => match e with EvRender h => [h] | _ => [] end) l.
Definition unmounted (l : list event) : list nat :=
  flat_map (fun e => match e with EvUnmount h => [h] | _ => [] end) l.

(** A life cycle event of instance [h]. *)
Definition about (h : nat) (e : event) : Prop :=
  match e with
  | EvRender x | EvReturn x _ | EvError x _ | EvUnmount x | EvEffects x _ => x = h
  | EvSkip _ | EvUpdate _ _ | EvCrash _ => False
  end.
(** Once an instance is unmounted nothing happens to it any more. *)
Definition silent_after_unmount (l : list event) : Prop :=
  forall l1 h l2, l = l1 ++ EvUnmount h :: l2 -> forall e, In e l2 -> ~ about h e.

(** No component has failed to render. *)
Definition no_failure (l : list event) : Prop := forall h e, ~ In (EvError h e) l.

(** Exceptions raised by a render function itself: its own, or the IndexError of a hook call. *)
Definition raised (e : exn) : Prop := e = EIndexError \/ exists m, e = EUser m.
(** Texts and elements without components and event handlers. *)
Inductive plain : raw -> Prop :=
| plain_none : plain RNone
| plain_text x : plain (RText x)
| plain_elem tag attrs js imp l : (forall r, In r l -> plain r) -> plain (RElem tag attrs [] js imp (Some l))
| plain_leaf tag attrs js imp : plain (RElem tag attrs [] js imp None).
(** Components fail, if at all, by raising in their render function, and a component that fails has so far shown texts
    and elements without components and event handlers only (in particular, it may not have rendered successfully yet). *)
Definition mild_failures (l : list event) : Prop :=
  forall l1 h e l2, l = l1 ++ EvError h e :: l2 -> raised e /\ forall r, In (EvReturn h r) l1 -> plain r.
(** The last render of [h] raised [e]. *)
Definition last_failure (l : list event) (h : nat) (e : exn) : Prop :=
  exists l1 l2, l = l1 ++ EvRender h :: EvError h e :: l2 /\ ~ In h (rendered l2).
(** What is displayed for an exception of a render function: nothing unless in debug mode. *)
Definition error_text (debug : bool) (e : exn) (text : string) : Prop :=
  match debug, e with
  | false, _ => text = ""
  | true, EUser m => text = m
  | true, EIndexError => text = "IndexError: list index out of range"
  | true, _ => True
  end.
(** [render()] has not raised. *)
Definition no_crash (l : list event) : Prop := forall e, ~ In (EvCrash e) l.

(** The instances below a model state: keys and life cycle ids, read from [children_by_key]. *)
Fixpoint inst_at (fuel : nat) (hp : list mstate) (m : nat) : inst :=
  match fuel with
  | 0 => IElem []
  | S f =>
      match nth_error hp m with
      | None => IElem []
      | Some x =>
          let kids := map (fun km => (fst km, inst_at f hp (snd km))) (ms_children x) in
          match ms_lcs x with
          | Some (h, c) => IComp h (ci_type c) kids
          | None => IElem kids
          end
      end
  end.

(** The mounted instances: those below the root component (life cycle id 0). *)
Definition mounted (s : st) : option inst :=
  match dget 0 (s_reg s) with
  | Some m => Some (inst_at (S (length (s_heap s))) (s_heap s) m)
  | None => None
  end.

(** State objects of a component instance. *)
Definition state_of (s : st) (h : nat) : list cell := hk_cells (get_hook h s).

(** Right output of an instance: the error of its last render if that one failed, otherwise what its render function
    returns on its current state and the contexts of its position. *)
Definition right (debug : bool) (defs : nat -> val -> list raw -> body) (s : st) (h : nat) (c : cinst)
           (env : nat -> option val) (out : fate) : Prop :=
  match out with
  | Returned r => returns h (state_of s h) (visible c env) (program defs c) r /\ forall e, ~ last_failure (s_log s) h e
  | Failed e text => last_failure (s_log s) h e /\ error_text debug e text
  end.

(** An instance's output is right, or anything while a render of it is pending. *)
Definition current (debug : bool) (defs : nat -> val -> list raw -> body) (s : st) (h : nat) (c : cinst)
           (env : nat -> option val) (out : fate) : Prop :=
  In h (s_queue s) \/ right debug defs s h c env out.

(** No context is provided around the root. *)
Definition no_ctx : nat -> option val := fun _ => None.
