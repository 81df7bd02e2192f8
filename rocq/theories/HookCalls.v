(** * Model: the hooks as an interface called in any order

    The calls a program makes of the hooks (/repo/src/reactpy/core/hooks.py) and of a component's life cycle, each
    with its result, executed on the state of LayoutModel.v with the functions of HooksModel.v in direct style
    ([C14_render_functions_are_calls] in HookResults.v shows that render functions do nothing else). *)
From Coq Require Import String ZArith Bool Arith Lia List.
From Verif Require Import Dict LayoutTypes LayoutModel HooksModel.
Import ListNotations.
Local Open Scope string_scope.
Local Open Scope list_scope.

Definition attribute_error : exn := EUser "AttributeError".

(** [use_state], hooks.py:62-96: value, and hook and slot of the dispatch function. *)
Definition do_state (h : nat) (initial : val) : M (nat * val) :=
  ic <- use_cell h (CState initial) ;;
  match snd ic with CState v => ret (fst ic, v) | _ => raise attribute_error end.

(** [use_ref], hooks.py:559-568: the Ref's slot and [current]. *)
Definition do_ref (h : nat) (initial : val) : M (nat * val) :=
  ic <- use_cell h (CRef initial) ;;
  match snd ic with CRef v => ret (fst ic, v) | _ => raise attribute_error end.

(** [use_reducer], hooks.py:392-419: value and dispatcher. *)
Definition do_reducer (h : nat) (reducer : nat) (initial : val) : M (nat * val * val) :=
  iv <- do_state h initial ;;
  ic <- use_cell h (CConst (VPair (VInt (Z.of_nat reducer)) (VSetter h (fst iv)))) ;;
  match snd ic with CConst d => ret (fst iv, snd iv, d) | _ => raise attribute_error end.

(** [use_memo], hooks.py:486-539, up to the definition of [setup]: slot, whether [setup] calls the function, and
    the memoised value. *)
Definition do_memo_start (h : nat) (deps : option (list val)) : M (nat * bool * option val) :=
  ic <- use_cell h (CMemo [] None) ;;
  match snd ic with
  | CMemo md mv =>
      if memo_changed md mv deps
      then modify (set_cell h (fst ic) (CMemo (memo_deps deps) mv)) ;; ret (fst ic, true, mv)
      else ret (fst ic, false, mv)
  | _ => raise attribute_error
  end.
(** [setup], hooks.py:528-537. *)
Definition do_memo_setup (h : nat) (deps : option (list val)) (f : val + string) (st : nat * bool * option val)
  : M (nat * val * bool) :=
  match st with
  | (i, true, _) =>
      match f with
      | inl v => modify (set_cell h i (CMemo (memo_deps deps) (Some v))) ;; ret (i, v, true)
      | inr msg => raise (EUser msg)
      end
  | (i, false, Some v) => ret (i, v, false)
  | (i, false, None) => raise attribute_error
  end.
Definition do_memo (h : nat) (deps : option (list val)) (f : val + string) : M (nat * val * bool) :=
  st <- do_memo_start h deps ;; do_memo_setup h deps f st.

(** [use_effect] (132-169) and [use_async_effect] (223-292): the memo's slot, and whether an effect is registered. *)
Definition do_effect (h : nat) (deps : option (list val)) (fn : nat) (async : bool) : M (nat * bool) :=
  st <- do_memo_start h deps ;;
  r <- do_ref h VNone ;;
  (if async then do_ref h VNone ;; ret tt else ret tt) ;;
  match st with
  | (i, true, _) =>
      modify (add_effect h (Effect fn (fst r))) ;;
      modify (set_cell h i (CMemo (memo_deps deps) (Some VNone))) ;; ret (i, true)
  | (i, false, Some _) => ret (i, false)
  | (i, false, None) => raise attribute_error
  end.

(** Assignment to a Ref's [current] (/repo/src/reactpy/utils.py:21-63), from anywhere. *)
Definition set_ref (h i : nat) (v : val) (s : st) : st :=
  match nth_error (hk_cells (get_hook h s)) i with
  | Some (CRef _) => set_cell h i (CRef v) s
  | _ => s
  end.

(** The calls. [KBegin]/[KEnd]: the layout starts/ends rendering the component. [KDispatch]: the second result of
    [use_state] is called; [KAction]: the second result of [use_reducer] is called (hooks.py:416-417). *)
Inductive call :=
| KBegin (h : nat)
| KEnd (h : nat)
| KState (h : nat) (initial : val)
| KReducer (h : nat) (reducer : nat) (initial : val)
| KMemo (h : nat) (deps : option (list val)) (f : val + string)
| KCallback (h : nat) (deps : option (list val)) (f : val)
| KRef (h : nat) (initial : val)
| KEffect (h : nat) (deps : option (list val)) (fn : nat) (async : bool)
| KDispatch (h i : nat) (u : upd_arg)
| KAction (d action : val)
| KSetRef (h i : nat) (v : val).

Inductive result :=
| RDone
| RState (slot : nat) (v : val)
| RReducer (slot : nat) (v d : val)
| RMemo (slot : nat) (v : val) (ran : bool)
| RRef (slot : nat) (v : val)
| REffect (slot : nat) (registered : bool)
| RRaised (e : exn).

(** Results are values; exceptions are results too (there is no fuel in these calls). *)
Definition answer {A} (m : M A) (f : A -> result) (s : st) : result * st :=
  match m s with
  | (Ok a, s') => (f a, s')
  | (Raise e, s') => (RRaised e, s')
  | (Fuel, s') => (RDone, s')
  end.

Section Calls.
(** The reducer functions of the application. *)
Variable reducers : nat -> val -> val -> val.

Definition exec (c : call) : st -> result * st :=
  match c with
  | KBegin h => answer (will_render h) (fun _ => RDone)
  | KEnd h => answer (did_render h) (fun _ => RDone)
  | KState h init => answer (do_state h init) (fun r => RState (fst r) (snd r))
  | KReducer h red init => answer (do_reducer h red init) (fun r => RReducer (fst (fst r)) (snd (fst r)) (snd r))
  | KMemo h deps f => answer (do_memo h deps f) (fun r => RMemo (fst (fst r)) (snd (fst r)) (snd r))
  | KCallback h deps f => answer (do_memo h deps (inl f)) (fun r => RMemo (fst (fst r)) (snd (fst r)) (snd r))
  | KRef h init => answer (do_ref h init) (fun r => RRef (fst r) (snd r))
  | KEffect h deps fn async => answer (do_effect h deps fn async) (fun r => REffect (fst r) (snd r))
  | KDispatch h i u => fun s => (RDone, dispatch h i u s)
  | KAction (VPair (VInt red) (VSetter h i)) a =>
      fun s => (RDone, dispatch h i (UFun (fun last => reducers (Z.to_nat red) last a)) s)
  | KAction _ _ => fun s => (RDone, s)
  | KSetRef h i v => fun s => (RDone, set_ref h i v s)
  end.

(** A sequence of calls, with their results. *)
Fixpoint exec_all (cs : list call) (s : st) : list result * st :=
  match cs with
  | [] => ([], s)
  | c :: cs' => let (r, s1) := exec c s in let (rs, s2) := exec_all cs' s1 in (r :: rs, s2)
  end.

(** [n] components that have not rendered. *)
Definition fresh (n : nat) : st := St [] [] [] (repeat no_hook n) [] [] [] [] [] [].

(** The state after a history of calls, and the reply to a call made then. *)
Definition state_after (n : nat) (a : list call) : st := snd (exec_all a (fresh n)).
Definition reply (n : nat) (a : list call) (c : call) : result := fst (exec c (state_after n a)).
End Calls.

(** ** Render functions as calls *)

(** The calls of one run of a program (contexts are read from the hook), and its output. *)
Fixpoint play (h : nat) (p : prog) (s : st) : res raw * list call * st :=
  let use {A} (m : M A) (c : call) (k : A -> st -> res raw * list call * st) :=
    match m s with
    | (Ok a, s1) => match k a s1 with (o, cs, s2) => (o, c :: cs, s2) end
    | (Raise e, s1) => (Raise e, [c], s1)
    | (Fuel, s1) => (Fuel, [c], s1)
    end in
  match p with
  | PRet r => (Ok r, [], s)
  | PRaise msg => (Raise (EUser msg), [], s)
  | PState init k => use (do_state h init) (KState h init) (fun a => play h (k (snd a) (h, fst a)))
  | PReducer red init k => use (do_reducer h red init) (KReducer h red init) (fun a => play h (k (snd (fst a)) (snd a)))
  | PMemo deps f k => use (do_memo h deps f) (KMemo h deps f) (fun a => play h (k (snd (fst a))))
  | PCallback deps f k => use (do_memo h deps (inl f)) (KCallback h deps f) (fun a => play h (k (snd (fst a))))
  | PRef init k => use (do_ref h init) (KRef h init) (fun a => play h (k (fst a) (snd a)))
  | PContext c d k => play h (k (match dget c (hk_ctx (get_hook h s)) with Some v => v | None => d end)) s
  | PEffect deps fn k => use (do_effect h deps fn false) (KEffect h deps fn false) (fun _ => play h k)
  | PAsyncEffect deps fn k => use (do_effect h deps fn true) (KEffect h deps fn true) (fun _ => play h k)
  | PDispatch set u k =>
      match play h k (dispatch (fst set) (snd set) u s) with (o, cs, s2) => (o, KDispatch (fst set) (snd set) u :: cs, s2) end
  end.

(** ** What the English properties talk about *)

(** The updates sent to slot [i] of component [h] by a list of calls, in order. *)
Definition sent (reducers : nat -> val -> val -> val) (h i : nat) (c : call) : list upd_arg :=
  match c with
  | KDispatch h' i' u => if Nat.eq_dec h' h then if Nat.eq_dec i' i then [u] else [] else []
  | KAction (VPair (VInt red) (VSetter h' i')) a =>
      if Nat.eq_dec h' h then if Nat.eq_dec i' i then [UFun (fun last => reducers (Z.to_nat red) last a)] else [] else []
  | _ => []
  end.

(** One update: the new value is kept unless it is equal to the old one. *)
Definition take (v : val) (u : upd_arg) : val :=
  let v' := match u with UVal x => x | UFun f => f v end in if veq v' v then v else v'.

(** Slots a call of component [h] takes. *)
Definition takes (h : nat) (c : call) : nat :=
  match c with
  | KState h' _ | KMemo h' _ _ | KCallback h' _ _ | KRef h' _ => if Nat.eq_dec h' h then 1 else 0
  | KReducer h' _ _ => if Nat.eq_dec h' h then 2 else 0
  | KEffect h' _ _ async => if Nat.eq_dec h' h then (if async then 3 else 2) else 0
  | _ => 0
  end.
Definition taken (h : nat) (cs : list call) : nat := list_sum (map (takes h) cs).

Definition slot_of (r : result) : option nat :=
  match r with
  | RState i _ | RReducer i _ _ | RMemo i _ _ | RRef i _ | REffect i _ => Some i
  | RDone | RRaised _ => None
  end.
Definition caller (c : call) : option nat :=
  match c with
  | KState h _ | KReducer h _ _ | KMemo h _ _ | KCallback h _ _ | KRef h _ | KEffect h _ _ _ => Some h
  | _ => None
  end.

(** The calls which memoise. *)
Definition is_memo (c : call) : bool := match c with KMemo _ _ _ | KCallback _ _ _ | KEffect _ _ _ _ => true | _ => false end.

(** Hook calls are made by the components [0 .. n-1]. *)
Definition on (n : nat) (cs : list call) : Prop := forall c h, In c cs -> caller c = Some h -> h < n.

(** The value in a state slot. *)
Definition slot_value (h i : nat) (s : st) : option val :=
  match nth_error (hk_cells (get_hook h s)) i with Some (CState v) => Some v | _ => None end.
