(** * Specification: the first mount of a tree in which components may raise

    Only values an application writes and the pure meaning of render functions; nothing of the layout. *)
From Coq Require Import String ZArith Bool Arith Lia List.
From Verif Require Import Dict LayoutTypes BodySpec DisplaySpec GuardSpec.
Import ListNotations.
Local Open Scope string_scope.
Local Open Scope list_scope.

(** The first call of a render function: what it returns together with the contexts it provides to its descendants, or the
    message of the exception it raises. *)
Fixpoint first_run (h : nat) (cells : list cell) (ctx : nat -> option val) (b : body) : (raw * (nat -> option val)) + string :=
  match b with
  | BRet r => inl (r, ctx)
  | BRaise msg => inr msg
  | BUseCell init k => first_run h (cells ++ [init]) ctx (k h (length cells) init)
  | BSetCell i c k => first_run h (upd cells i c) ctx k
  | BAddEffect _ k => first_run h cells ctx k
  | BContext c k => first_run h cells ctx (k (ctx c))
  | BProvide c v k => first_run h cells (ctx_set c v ctx) k
  | BDispatch h' i u k =>
      if Nat.eq_dec h' h
      then match nth_error cells i with
           | Some (CState v) =>
               let v' := match u with UVal x => x | UFun f => f v end in
               if veq v' v then first_run h cells ctx k else first_run h (upd cells i (CState v')) ctx k
           | _ => first_run h cells ctx k
           end
      else first_run h cells ctx k
  end.

(** Why the children of a component could not be rendered. *)
Inductive failure := Raised (msg : string) | Duplicate.

(** The node shown instead of a failed component; the message only in debug mode. *)
Definition error_node (debug : bool) (f : failure) : model :=
  MNode "" None None None None None
    (Some (if debug then match f with Raised m => m | Duplicate => "ValueError: Duplicate keys" end else "")).

Section Mounts.
Variable debug : bool.
Variable defs : nat -> val -> list raw -> body.

(** [mounts env r (inl m)]: [r] is shown as [m]; [mounts env r (inr f)]: it cannot be shown because of [f].
    A component is always shown, as an error node if its own render function raises or its output cannot be shown;
    an element cannot be shown iff its children have duplicate keys or one of them cannot be shown. *)
Inductive mounts : (nat -> option val) -> raw -> model + failure -> Prop :=
| Mo_elem env tag attrs hs js imp ch attrs' eh own ms :
    attrs_shown tag attrs attrs' -> handlers_shown hs eh own ->
    ~ clash (match ch with Some l => l | None => [] end) ->
    mounts_all env (match ch with Some l => l | None => [] end) (inl ms) ->
    mounts env (RElem tag attrs hs js imp ch)
      (inl (MNode tag imp attrs' js eh (match ch with Some (_ :: _) => Some ms | _ => None end) None))
| Mo_duplicate env tag attrs hs js imp l :
    clash l -> mounts env (RElem tag attrs hs js imp (Some l)) (inr Duplicate)
| Mo_fail env tag attrs hs js imp l f :
    ~ clash l -> mounts_all env l (inr f) -> mounts env (RElem tag attrs hs js imp (Some l)) (inr f)
| Mo_comp env c h out env' ms :
    first_run h [] env (program defs c) = inl (out, env') -> mounts_all env' [out] (inl ms) ->
    mounts env (RComp c) (inl (MNode "" None None None None (Some ms) None))
| Mo_raises env c h msg :
    first_run h [] env (program defs c) = inr msg ->
    mounts env (RComp c) (inl (error_node debug (Raised msg)))
| Mo_inside env c h out env' f :
    first_run h [] env (program defs c) = inl (out, env') -> mounts_all env' [out] (inr f) ->
    mounts env (RComp c) (inl (error_node debug f))
(** A list: everything is shown in order, or the first element that cannot be shown decides. *)
with mounts_all : (nat -> option val) -> list raw -> list model + failure -> Prop :=
| Ma_nil env : mounts_all env [] (inl [])
| Ma_none env l r : mounts_all env l r -> mounts_all env (RNone :: l) r
| Ma_text env s l ms : mounts_all env l (inl ms) -> mounts_all env (RText s :: l) (inl (MText s :: ms))
| Ma_text_fail env s l f : mounts_all env l (inr f) -> mounts_all env (RText s :: l) (inr f)
| Ma_cons env r l m ms : mounts env r (inl m) -> mounts_all env l (inl ms) -> mounts_all env (r :: l) (inl (m :: ms))
| Ma_here env r l f : mounts env r (inr f) -> mounts_all env (r :: l) (inr f)
| Ma_later env r l m f : mounts env r (inl m) -> mounts_all env l (inr f) -> mounts_all env (r :: l) (inr f).
End Mounts.
