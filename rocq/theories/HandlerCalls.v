(** * What an event handler's function gets and does, and property C94
    /repo/src/reactpy/core/events.py:36-88 ([event]), 177-212 ([to_event_handler_function]), 264-279
    ([merge_event_handler_funcs]); /repo/src/reactpy/core/vdom.py:235-239 (functions as attributes);
    /repo/src/reactpy/core/layout.py:178-184 (the call); /repo/src/reactpy/types.py:1157-1172 ([Event]).
    Which options a handler has, and which callables are refused because they have no code object, is in EventInspect.v. *)
From Coq Require Import String ZArith Bool Arith Lia List.
From Verif Require Import Dict.
Import ListNotations.
Local Open Scope string_scope. Local Open Scope list_scope.

(** ** Model *)

(** The data of an event, as [json.loads] makes it. *)
Inductive json := JNull | JBool (b : bool) | JNum (z : Z) | JStr (s : string) | JList (l : list json) | JDict (d : dict string json).
(** What a handler can meet: JSON values as Python objects, [Event] objects, methods, and the list of all data. *)
Inductive pyobj := Plain (j : json) | Event (d : dict string json) | Method (name : string) | PyList (l : list pyobj).

(** [Event(d) if isinstance(d, dict) else d], layout.py:180-182. *)
Definition wrap (j : json) : pyobj := match j with JDict d => Event d | _ => Plain j end.

(** The attributes that the class has: those of [dict] and the two methods, types.py:1168-1172. Simplified: every name with two
    leading underscores counts as one ([__class__], [__len__], …). [debounce] is only annotated (line 1162), so it is none. *)
Definition dict_methods : list string :=
  ["clear"; "copy"; "fromkeys"; "get"; "items"; "keys"; "pop"; "popitem"; "setdefault"; "update"; "values"].
Definition class_attribute (n : string) : bool :=
  existsb (String.eqb n) ("preventDefault" :: "stopPropagation" :: dict_methods) || String.prefix "__" n.
(** [x.name]; [None]: [AttributeError]. Python finds attributes of the class first and calls [Event.__getattr__]
    (types.py:1164-1166) if there is none. Simplified: other objects have no attributes (those of [str], [list], … are methods). *)
Definition get_attribute (x : pyobj) (n : string) : option pyobj :=
  match x with
  | Event d => if class_attribute n then Some (Method n)
               else match dget n d with Some v => Some (wrap v) | None => Some (Plain JNull) end
  | _ => None
  end.
(** [x.a.b.c] *)
Fixpoint get_path (x : pyobj) (p : list string) : option pyobj :=
  match p with [] => Some x | n :: p' => match get_attribute x n with Some y => get_path y p' | None => None end end.

(** A run of Python code: numbered actions and suspensions, and how it ends; a return value matters only if it can be awaited.
    What is awaited inside is part of the run. *)
Inductive step := Act (n : nat) | Pause.
Inductive exn := TypeErr | User (n : nat).
Inductive final := Returned | Pending (p : prog) | Raised (e : exn)
with prog := Prog (steps : list step) (f : final).
Definition steps_of (p : prog) : list step := let 'Prog s _ := p in s.
Definition final_of (p : prog) : final := let 'Prog _ f := p in f.

(** Functions: [def], [async def], and both with [yield]; the least and greatest number of positional arguments; the body. The
    body of a [def] does not suspend: its pauses are left out. *)
Inductive kind := Sync | Async | Generator | AsyncGenerator.
Record func := Func { f_kind : kind; f_min : nat; f_max : option nat; f_body : list pyobj -> prog }.
(** Callables: functions, bound methods, [functools.partial] with positional arguments, functions with [__wrapped__]
    (decorated by [functools.wraps]: their own code is what runs). *)
Inductive callable := CFun (f : func) | CMethod (self : pyobj) (c : callable) | CPartial (c : callable) (args : list pyobj) | CDecorated (own : func) (inner : callable).

Definition acts_only (l : list step) : list step := filter (fun s => match s with Pause => false | _ => true end) l.
Definition fits (f : func) (n : nat) : bool := Nat.leb (f_min f) n && match f_max f with Some m => Nat.leb n m | None => true end.
(** A call: what runs at once, and what comes out. A coroutine that is not awaited and a generator that is not iterated do nothing. *)
Definition call_func (f : func) (args : list pyobj) : prog :=
  if fits f (length args)
  then match f_kind f with
       | Sync => let 'Prog s r := f_body f args in Prog (acts_only s) r
       | Async => Prog [] (Pending (f_body f args))
       | Generator | AsyncGenerator => Prog [] Returned
       end
  else Prog [] (Raised TypeErr).
Fixpoint call (c : callable) (args : list pyobj) : prog :=
  match c with
  | CFun f => call_func f args
  | CMethod self c' => call c' (self :: args)
  | CPartial c' more => call c' (more ++ args)
  | CDecorated own _ => call_func own args
  end.
(** [inspect.iscoroutinefunction]: methods and partials are looked through, [__wrapped__] is not. *)
Fixpoint is_coroutine_function (c : callable) : bool :=
  match c with
  | CFun f | CDecorated f _ => match f_kind f with Async => true | _ => false end
  | CMethod _ c' | CPartial c' _ => is_coroutine_function c'
  end.

(** [await x] for the outcome of a call; other objects cannot be awaited. *)
Definition awaiting (p : prog) : prog :=
  match p with
  | Prog s (Pending (Prog s' f)) => Prog (s ++ s') f
  | Prog s Returned => Prog s (Raised TypeErr)
  | p => p
  end.
(** The call as a statement: what it returns is dropped. *)
Definition dropping (p : prog) : prog := match p with Prog s (Pending _) => Prog s Returned | p => p end.
(** The end of the [async def] wrappers: they return [None]. *)
Definition wrapper (p : prog) : prog := dropping p.

(** [to_event_handler_function], events.py:177-212: what [await handler.function(data)] does. *)
Definition handler_function (positional : bool) (c : callable) (data : list pyobj) : prog :=
  if positional
  then if is_coroutine_function c then wrapper (awaiting (call c data)) else wrapper (dropping (call c data))
  else if negb (is_coroutine_function c) then wrapper (dropping (call c [PyList data])) else awaiting (call c [PyList data]).

(** Ways to make a handler: as an attribute (vdom.py:236-237) or with [event] (events.py:79-88), both with
    [to_event_handler_function(f, positional_args=True)] around the function, and by [EventHandler(f)] (line 121); the wrapper
    that comes out of the former two is a coroutine function, which line 121 leaves as it is. *)
Inductive made := Attribute (c : callable) | Decorator (c : callable) | Direct (c : callable).
Definition handler_of (m : made) : list pyobj -> prog :=
  match m with Attribute c | Decorator c => handler_function true c | Direct c => handler_function false c end.
(** The event's data reach the handler, layout.py:180-183. *)
Definition on_event (m : made) (data : list json) : prog := handler_of m (map wrap data).

(** *** Merged handlers *)

(** [await_all_event_handlers], events.py:274-277: a task group with a task for each function. A task runs up to its next
    suspension; if one fails the others are cancelled while they are suspended. Simplified: a cancelled task ends at once (no
    [finally]); a merged handler inside a merged one is its list of functions. *)
Inductive status := Running (p : prog) | Ended | Failed | Cancelled.
Record group := Group { g_tasks : list status; g_log : list (nat * nat) }.
Definition is_failed (s : status) : bool := match s with Failed => true | _ => false end.
(** What runs until the next suspension, and what is left. *)
Fixpoint segment (l : list step) : list nat * option (list step) :=
  match l with
  | [] => ([], None)
  | Pause :: l' => ([], Some l')
  | Act n :: l' => let (a, r) := segment l' in (n :: a, r)
  end.
Fixpoint set_nth {A} (l : list A) (i : nat) (x : A) : list A :=
  match l, i with [], _ => [] | _ :: l', 0 => x :: l' | y :: l', S i' => y :: set_nth l' i' x end.
Inductive group_op := Run (i : nat) | Cancel (i : nat).
Definition group_step (g : group) (o : group_op) : group :=
  match o with
  | Run i => match nth_error (g_tasks g) i with
             | Some (Running (Prog l f)) =>
                 let (a, r) := segment l in
                 let st := match r with
                           | Some l' => Running (Prog l' f)
                           | None => match f with Raised _ => Failed | _ => Ended end
                           end in
                 Group (set_nth (g_tasks g) i st) (g_log g ++ map (pair i) a)
             | _ => g
             end
  | Cancel i => match nth_error (g_tasks g) i with
                | Some (Running _) => if existsb is_failed (g_tasks g) then Group (set_nth (g_tasks g) i Cancelled) (g_log g) else g
                | _ => g
                end
  end.
Definition group_run (ps : list prog) (ops : list group_op) : group := fold_left group_step ops (Group (map Running ps) []).

(** ** Specification *)

(** What the author of a callable means: the body runs with the arguments, or a wrong number of them is an error. *)
Inductive means : callable -> list pyobj -> list nat -> option exn -> Prop :=
| m_fun f args acts e : fits f (length args) = true -> does (f_body f args) acts e -> means (CFun f) args acts e
| m_arity f args : fits f (length args) = false -> means (CFun f) args [] (Some TypeErr)
| m_method self c args acts e : means c (self :: args) acts e -> means (CMethod self c) args acts e
| m_partial c more args acts e : means c (more ++ args) acts e -> means (CPartial c more) args acts e
| m_decorated own inner args acts e : means (CFun own) args acts e -> means (CDecorated own inner) args acts e
with does : prog -> list nat -> option exn -> Prop :=
| d_end f : f = Returned -> does (Prog [] f) [] None
| d_raise e : does (Prog [] (Raised e)) [] (Some e)
| d_pending p acts e : does p acts e -> does (Prog [] (Pending p)) acts e
| d_act n l f acts e : does (Prog l f) acts e -> does (Prog (Act n :: l) f) (n :: acts) e
| d_pause l f acts e : does (Prog l f) acts e -> does (Prog (Pause :: l) f) acts e.

(** Functions that ReactPy can run: [def] or [async def] without [yield], and nothing returned that has to be awaited. *)
Fixpoint runnable (c : callable) : Prop :=
  match c with
  | CFun f | CDecorated f _ => (f_kind f = Sync \/ f_kind f = Async) /\ forall args p, final_of (f_body f args) <> Pending p
  | CMethod _ c' | CPartial c' _ => runnable c'
  end.

(** The user's callable, and what it is to be called with: the event's data, or for [EventHandler(f)] a list of them. *)
Definition callable_of (m : made) : callable := match m with Attribute c | Decorator c | Direct c => c end.
Definition args_of (m : made) (data : list json) : list pyobj :=
  match m with Direct _ => [PyList (map wrap data)] | _ => map wrap data end.

(** The value at a path of the data; nothing below a missing or simple value. *)
Inductive value_at : json -> list string -> json -> Prop :=
| at_here j : value_at j [] j
| at_below d n p v j : In (n, v) d -> value_at v p j -> value_at (JDict d) (n :: p) j.
(** Dictionaries have each key once. *)
Inductive tidy : json -> Prop :=
| t_null : tidy JNull | t_bool b : tidy (JBool b) | t_num z : tidy (JNum z) | t_str s : tidy (JStr s)
| t_list l : Forall tidy l -> tidy (JList l)
| t_dict d : NoDup (map fst d) -> Forall (fun p => tidy (snd p)) d -> tidy (JDict d).
(** The handler sees the value: dictionaries as [Event]s of the same content. *)
Definition sees (x : pyobj) (j : json) : Prop := match j with JDict d => x = Event d | _ => x = Plain j end.

Definition own (i : nat) (l : list (nat * nat)) : list nat := map snd (filter (fun p => Nat.eqb (fst p) i) l).
Definition finished (g : group) : Prop := forall s, In s (g_tasks g) -> match s with Running _ => False | _ => True end.

(** ** Proofs *)

(** *** Calls *)

Fixpoint acts (l : list step) : list nat := match l with [] => [] | Act n :: l' => n :: acts l' | Pause :: l' => acts l' end.
Definition raised (f : final) : option exn := match f with Raised e => Some e | _ => None end.
Lemma acts_acts_only l : acts (acts_only l) = acts l.
Proof. unfold acts_only. induction l as [|[n|] l IH]; cbn; congruence. Qed.
Lemma acts_app a b : acts (a ++ b) = acts a ++ acts b.
Proof. induction a as [|[n|] a IH]; cbn; congruence. Qed.
Lemma does_iff l f a e : (forall p, f <> Pending p) -> does (Prog l f) a e <-> a = acts l /\ e = raised f.
Proof.
  intros N. revert a e. induction l as [|s l IH]; intros a e.
  - split.
    + inversion 1; subst; auto. destruct (N p eq_refl).
    + intros [-> ->]. destruct f as [|p|x]; [now constructor|destruct (N p eq_refl)|apply d_raise].
  - destruct s as [n|]; split.
    + inversion 1; subst. match goal with X : does _ _ _ |- _ => apply IH in X; destruct X as [-> ->] end. auto.
    + intros [-> ->]. constructor. now apply IH.
    + inversion 1; subst. match goal with X : does _ _ _ |- _ => apply IH in X; destruct X as [-> ->] end. auto.
    + intros [-> ->]. constructor. now apply IH.
Qed.

Lemma handled_func f args a e : (f_kind f = Sync \/ f_kind f = Async) -> (forall x p, final_of (f_body f x) <> Pending p) ->
  means (CFun f) args a e ->
  let h := if match f_kind f with Async => true | _ => false end then awaiting (call_func f args) else dropping (call_func f args) in
  acts (steps_of h) = a /\ raised (final_of h) = e /\ (forall p, final_of h <> Pending p).
Proof.
  intros K N M. specialize (N args). unfold call_func. inversion M as [g args' a' e' F D E1 E2|g args' F E1 E2| | | ]; subst.
  - rewrite F. destruct (f_body f args) as [l r]. cbn in N. apply does_iff in D; [|exact N]. destruct D as [-> ->].
    destruct K as [-> | ->]; cbn; destruct r as [|p|x]; cbn; try (destruct (N p eq_refl)); rewrite ?acts_acts_only; repeat split; try discriminate.
  - rewrite F. destruct K as [-> | ->]; cbn; repeat split; discriminate.
Qed.

Lemma handled c : forall args a e, runnable c -> means c args a e ->
  let h := if is_coroutine_function c then awaiting (call c args) else dropping (call c args) in
  acts (steps_of h) = a /\ raised (final_of h) = e /\ (forall p, final_of h <> Pending p).
Proof.
  induction c as [f|self c IH|c IH more|f c IH]; intros args a e R M; cbn [call is_coroutine_function].
  - destruct R as [K N]. exact (handled_func f args a e K N M).
  - inversion M; subst. now apply IH.
  - inversion M; subst. now apply IH.
  - destruct R as [K N]. inversion M; subst. now apply (handled_func f args a e K N).
Qed.

Lemma wrapper_keeps p : (forall q, final_of p <> Pending q) -> wrapper p = p.
Proof. destruct p as [s [|q|x]]; cbn; auto. intros N. destruct (N q eq_refl). Qed.

Lemma on_event_handled m data a e : runnable (callable_of m) -> means (callable_of m) (args_of m data) a e ->
  acts (steps_of (on_event m data)) = a /\ raised (final_of (on_event m data)) = e /\ (forall p, final_of (on_event m data) <> Pending p).
Proof.
  intros R M. destruct (handled _ _ _ _ R M) as (A & B & C). cbv zeta in A, B, C.
  assert (E : on_event m data = if is_coroutine_function (callable_of m) then awaiting (call (callable_of m) (args_of m data)) else dropping (call (callable_of m) (args_of m data))).
  { unfold on_event. destruct m as [c|c|c]; cbn [handler_of callable_of args_of] in *; unfold handler_function;
      destruct (is_coroutine_function c); cbn [negb]; auto using wrapper_keeps. }
  rewrite E. auto.
Qed.

(** Every handler made of a runnable callable does what the author means, once, with the event's data: as one argument each for
    attributes and [event], as one list for [EventHandler(f)]; and an exception comes out of it (to be logged). *)
Theorem C94_runs : forall m data a e, runnable (callable_of m) ->
  means (callable_of m) (args_of m data) a e -> does (on_event m data) a e.
Proof.
  intros m data a e R M. destruct (on_event_handled m data a e R M) as (A & B & C).
  destruct (on_event m data) as [l f]. cbn in A, B, C. apply does_iff; auto.
Qed.

(** Such a meaning always exists. *)
Theorem C94_meaning : forall c args, runnable c -> exists a e, means c args a e /\ forall a' e', means c args a' e' -> a' = a /\ e' = e.
Proof.
  assert (F : forall f args, (forall x p, final_of (f_body f x) <> Pending p) -> exists a e, means (CFun f) args a e /\ forall a' e', means (CFun f) args a' e' -> a' = a /\ e' = e).
  { intros f args N. specialize (N args). destruct (fits f (length args)) eqn:E.
    - destruct (f_body f args) as [l r] eqn:B. cbn in N. exists (acts l), (raised r). split.
      + constructor; auto. rewrite B. now apply does_iff.
      + intros a' e' M. inversion M; subst; try congruence. match goal with X : does _ _ _ |- _ => rewrite B in X; apply does_iff in X; auto end.
    - exists [], (Some TypeErr). split; [now constructor|]. intros a' e' M. inversion M; subst; try congruence. auto. }
  induction c as [f|self c IH|c IH more|f c IH]; intros args R.
  - destruct R as [_ N]. auto.
  - destruct (IH (self :: args) R) as (a & e & M & U). exists a, e. split; [now constructor|]. intros a' e' H. inversion H; subst. auto.
  - destruct (IH (more ++ args) R) as (a & e & M & U). exists a, e. split; [now constructor|]. intros a' e' H. inversion H; subst. auto.
  - destruct R as [_ N]. destruct (F f args N) as (a & e & M & U). exists a, e. split; [now constructor|]. intros a' e' H. inversion H; subst. auto.
Qed.

(** Finding: a lambda that calls an [async def] ([lambda event: delete(item)]), a decorated [async def] whose decorator is a
    plain [def], and generator functions: the handler returns without having done anything, and without an error. *)
Theorem C94_lambda_refuted : exists c data a, means c (map wrap data) a None /\ a <> [] /\ does (on_event (Attribute c) data) [] None.
Proof.
  exists (CFun (Func Sync 1 (Some 1) (fun _ => Prog [] (Pending (Prog [Act 1; Pause; Act 2] Returned))))), [JNull], [1; 2].
  split; [constructor; [reflexivity|]; cbn; repeat constructor|]. split; [discriminate|]. cbn. now constructor.
Qed.
Theorem C94_generator_refuted : forall k, k = Generator \/ k = AsyncGenerator -> exists c data a,
  (exists f, c = CFun f /\ f_kind f = k) /\ means c (map wrap data) a None /\ a <> [] /\ does (on_event (Decorator c) data) [] None.
Proof.
  intros k K. exists (CFun (Func k 1 (Some 1) (fun _ => Prog [Act 1] Returned))), [JNull], [1].
  split; [eexists; split; reflexivity|]. split; [constructor; [reflexivity|]; cbn; repeat constructor|]. split; [discriminate|].
  destruct K as [-> | ->]; cbn; now constructor.
Qed.

(** *** Event data *)

Lemma in_dget (d : dict string json) n v : NoDup (map fst d) -> In (n, v) d <-> dget n d = Some v.
Proof.
  induction d as [|[k x] d IH]; intros U; cbn [In map fst] in *.
  - split; [intros []|discriminate].
  - inversion U as [|? ? NI U']; subst. cbn [dget]. destruct (eq_dec n k) as [<-|E].
    + split; [intros [[= <-]|I]; [reflexivity|]|intros [= <-]; now left].
      exfalso. apply NI. change n with (fst (n, v)). now apply in_map.
    + rewrite <- (IH U'). split; [intros [[= <- <-]|I]; [contradiction|exact I]|now right].
Qed.
Lemma sees_wrap j : sees (wrap j) j.
Proof. destruct j; reflexivity. Qed.
Lemma sees_unique x j : sees x j -> x = wrap j.
Proof. destruct j; auto. Qed.

Definition plain_name (n : string) : Prop := ~ In n ("preventDefault" :: "stopPropagation" :: dict_methods) /\ String.prefix "__" n = false.
Lemma plain_class n : plain_name n -> class_attribute n = false.
Proof.
  intros [A B]. unfold class_attribute. rewrite B, orb_false_r. destruct (existsb _ _) eqn:E; [|reflexivity]. apply existsb_exists in E.
  destruct E as (x & I & Q). apply String.eqb_eq in Q. subst x. contradiction.
Qed.

(** Attributes of the event read its data: what the dictionary has at the path is what the handler sees, and a name that is
    missing at the end is [None]; for names that are not attributes of Python's dictionaries. *)
Theorem C94_data : forall d p j, tidy (JDict d) -> Forall plain_name p -> value_at (JDict d) p j ->
  exists x, get_path (wrap (JDict d)) p = Some x /\ sees x j.
Proof.
  intros d p j T P H. remember (JDict d) as r eqn:E. clear E d. revert T P. induction H as [j|d n p v j I H IH]; intros T P.
  - exists (wrap j). split; [reflexivity|apply sees_wrap].
  - inversion P as [|? ? Pn P']; subst. inversion T as [| | | | |d' U F]; subst. cbn [wrap get_path get_attribute].
    rewrite (plain_class _ Pn). rewrite (proj1 (in_dget d n v U) I). apply IH; [|exact P'].
    rewrite Forall_forall in F. exact (F _ I).
Qed.
Theorem C94_missing : forall d p d' n, tidy (JDict d) -> Forall plain_name (p ++ [n]) -> value_at (JDict d) p (JDict d') -> (forall v, ~ In (n, v) d') ->
  get_path (wrap (JDict d)) (p ++ [n]) = Some (Plain JNull).
Proof.
  intros d p d' n T P H N. apply Forall_app in P. destruct P as [P Pn]. destruct (C94_data d p _ T P H) as (x & G & S). cbn in S. subst x.
  assert (A : forall q y z, get_path y q = Some z -> get_path y (q ++ [n]) = get_attribute z n).
  { induction q as [|m q IH]; intros y z Q; cbn in *; [injection Q as ->; now destruct (get_attribute z n)|]. destruct (get_attribute y m); [eauto|discriminate]. }
  rewrite (A _ _ _ G). cbn. inversion Pn as [|? ? Q _]; subst. rewrite (plain_class _ Q). destruct (dget n d') as [v|] eqn:E; [|reflexivity].
  exfalso. exact (N v (dget_Some_In n v d' E)).
Qed.

(** Finding: the data that a dropped file or text comes with, [event.dataTransfer.items], is Python's method [dict.items]. *)
Theorem C94_items_refuted : exists d p j, tidy (JDict d) /\ value_at (JDict d) p j /\ p = ["dataTransfer"; "items"] /\
  forall x, get_path (wrap (JDict d)) p = Some x -> ~ sees x j.
Proof.
  exists [("dataTransfer", JDict [("items", JList [JStr "file"])])], ["dataTransfer"; "items"], (JList [JStr "file"]).
  split; [repeat constructor; intros []|]. split; [econstructor; [left; reflexivity|]; econstructor; [left; reflexivity|]; constructor|].
  split; [reflexivity|]. intros x H S. cbn in H. injection H as <-. discriminate.
Qed.
(** *** Merged handlers *)

Lemma segment_acts l : acts l = fst (segment l) ++ match snd (segment l) with Some r => acts r | None => [] end.
Proof. induction l as [|[n|] l IH]; cbn; auto. destruct (segment l) as [a r]. cbn in *. congruence. Qed.
Lemma nth_set {A} (l : list A) : forall i j x, nth_error (set_nth l i x) j = if Nat.eqb i j then match nth_error l j with Some _ => Some x | None => None end else nth_error l j.
Proof.
  induction l as [|y l IH]; intros i j x; cbn.
  - destruct (Nat.eqb i j), j; reflexivity.
  - destruct i, j; cbn; auto.
Qed.
Lemma own_app i a b : own i (a ++ b) = own i a ++ own i b.
Proof. unfold own. now rewrite filter_app, map_app. Qed.
Lemma own_pair i j a : own i (map (pair j) a) = if Nat.eqb j i then a else [].
Proof.
  induction a as [|x a IH]; cbn; [now destruct (Nat.eqb j i)|]. unfold own in *. cbn. destruct (Nat.eqb j i) eqn:E; cbn; congruence.
Qed.

(** Of each task: what it did and what is left of it make up its program; it ended only if nothing is left. *)
Definition status_ok (p : prog) (did : list nat) (s : status) : Prop :=
  match s with
  | Running q => acts (steps_of p) = did ++ acts (steps_of q) /\ final_of q = final_of p
  | Ended => acts (steps_of p) = did /\ raised (final_of p) = None
  | Failed => acts (steps_of p) = did /\ raised (final_of p) <> None
  | Cancelled => exists r, acts (steps_of p) = did ++ r
  end.
Definition group_ok (ps : list prog) (g : group) : Prop :=
  length (g_tasks g) = length ps /\
  (forall i p s, nth_error ps i = Some p -> nth_error (g_tasks g) i = Some s -> status_ok p (own i (g_log g)) s) /\
  (In Cancelled (g_tasks g) -> In Failed (g_tasks g)).

Lemma length_set {A} (l : list A) : forall i x, length (set_nth l i x) = length l.
Proof. induction l as [|y l IH]; intros [|i] x; cbn; auto. Qed.
Lemma in_set {A} (l : list A) i x y : In y (set_nth l i x) -> y = x \/ In y l.
Proof. revert i. induction l as [|z l IH]; intros [|i]; cbn; intuition. destruct (IH i H0); auto. Qed.

Lemma failed_kept g i x s : nth_error (g_tasks g) i = Some s -> s <> Failed -> In Failed (g_tasks g) -> In Failed (set_nth (g_tasks g) i x).
Proof.
  intros N D I. apply In_nth_error in I. destruct I as [j J]. assert (i <> j) by (intros ->; congruence).
  apply nth_error_In with j. rewrite nth_set. destruct (Nat.eqb_spec i j); congruence.
Qed.

Lemma group_step_ok ps g o : group_ok ps g -> group_ok ps (group_step g o).
Proof.
  intros (L & H & C). destruct o as [i|i]; cbn [group_step].
  - destruct (nth_error (g_tasks g) i) as [[[l f]| | |]|] eqn:E; try (now split).
    pose proof (segment_acts l) as SA. destruct (segment l) as [a r] eqn:SG. cbn [fst snd] in SA.
    set (st := match r with Some l' => Running (Prog l' f) | None => match f with Raised _ => Failed | _ => Ended end end).
    split; [cbn; now rewrite length_set|]. split.
    + intros j p s P S. cbn [g_tasks g_log] in *. rewrite nth_set in S. rewrite own_app, own_pair. destruct (Nat.eqb_spec i j) as [<-|N].
      * rewrite E in S. injection S as <-. specialize (H i p _ P E). cbn in H. destruct H as [H1 H2]. unfold st. destruct r as [l'|]; cbn.
        -- rewrite H1, SA, <- app_assoc. auto.
        -- rewrite app_nil_r in SA. subst f. destruct (final_of p) eqn:F; cbn; rewrite F, H1, SA; cbn; split; congruence.
      * rewrite app_nil_r. eauto.
    + cbn [g_tasks]. intros I. apply in_set in I. destruct I as [I|I].
      * unfold st in I. destruct r; [discriminate|]. destruct f; discriminate.
      * eapply failed_kept; [exact E|discriminate|auto].
  - destruct (nth_error (g_tasks g) i) as [[q| | |]|] eqn:E; try (now split).
    destruct (existsb is_failed (g_tasks g)) eqn:X; [|now split]. split; [cbn; now rewrite length_set|]. split.
    + intros j p s P S. cbn [g_tasks g_log] in *. rewrite nth_set in S. destruct (Nat.eqb_spec i j) as [<-|N]; [|eauto].
      rewrite E in S. injection S as <-. destruct (H i p _ P E) as [H1 _]. cbn. eauto.
    + intros _. cbn [g_tasks]. apply existsb_exists in X. destruct X as (x & I & Q). destruct x; try discriminate.
      eapply failed_kept; [exact E|discriminate|exact I].
Qed.
Lemma group_run_ok ps ops : group_ok ps (group_run ps ops).
Proof.
  unfold group_run. assert (G : group_ok ps (Group (map Running ps) [])).
  { split; [apply map_length|]. split.
    - intros i p s P S. cbn [g_tasks] in S. rewrite nth_error_map, P in S. injection S as <-. cbn. auto.
    - cbn. intros I. apply in_map_iff in I. destruct I as (x & E & _). discriminate. }
  revert G. generalize (Group (map Running ps) []). induction ops as [|o ops IH]; intros g G; [exact G|]. apply IH, group_step_ok, G.
Qed.

(** A merged handler, in every order of its tasks' runs: if it ends without an exception, each function has done all it means to
    do; in any case no function does anything twice, out of order, or that it does not mean to do; and the handler fails only if
    one of its functions raises. *)
Theorem C94_merged : forall ms data ops i m a e, (forall m, In m ms -> runnable (callable_of m)) -> nth_error ms i = Some m ->
  means (callable_of m) (args_of m data) a e ->
  let g := group_run (map (fun m => on_event m data) ms) ops in
  (exists r, a = own i (g_log g) ++ r) /\
  (finished g -> ~ In Failed (g_tasks g) -> own i (g_log g) = a /\ e = None) /\
  (In Failed (g_tasks g) -> exists m' b x, In m' ms /\ means (callable_of m') (args_of m' data) b (Some x)).
Proof.
  intros ms data ops i m a e R M MM g. destruct (group_run_ok (map (fun m => on_event m data) ms) ops) as (L & H & C). fold g in L, H, C.
  set (ps := map (fun m => on_event m data) ms) in *.
  destruct (on_event_handled m data a e (R m (nth_error_In _ _ M)) MM) as (<- & <- & _). set (p := on_event m data) in *.
  assert (P : nth_error ps i = Some p) by (unfold ps; rewrite nth_error_map, M; reflexivity).
  assert (S : exists s, nth_error (g_tasks g) i = Some s).
  { destruct (nth_error (g_tasks g) i) eqn:E; [eauto|]. apply nth_error_None in E. rewrite L in E. apply nth_error_None in E. congruence. }
  destruct S as [s S]. pose proof (H i p s P S) as K. split; [|split].
  - destruct s as [q| | |]; cbn in K; [exists (acts (steps_of q)); apply K|exists []; rewrite app_nil_r; apply K|exists []; rewrite app_nil_r; apply K|exact K].
  - intros F NF. apply nth_error_In in S. pose proof (F s S) as Q. destruct s; cbn in K; [destruct Q| |contradiction|destruct (NF (C S))].
    destruct K as [-> K]. auto.
  - intros I. apply In_nth_error in I. destruct I as [j J]. assert (Q : exists m', nth_error ms j = Some m').
    { destruct (nth_error ms j) eqn:E; [eauto|]. apply nth_error_None in E. unfold ps in L. rewrite map_length in L. rewrite <- L in E. apply nth_error_None in E. congruence. }
    destruct Q as [m' Q]. assert (I' := nth_error_In _ _ Q). destruct (C94_meaning (callable_of m') (args_of m' data) (R m' I')) as (b & x & MX & _).
    assert (P' : nth_error ps j = Some (on_event m' data)) by (unfold ps; rewrite nth_error_map, Q; reflexivity).
    destruct (H j _ _ P' J) as [_ N]. destruct (on_event_handled m' data b x (R m' I') MX) as (_ & E & _). rewrite E in N.
    destruct x as [x|]; [|destruct (N eq_refl)]. exists m', b, x. auto.
Qed.

(** Every merged handler can be brought to its end. *)
Definition size (s : status) : nat := match s with Running p => S (length (steps_of p)) | _ => 0 end.
Lemma segment_less l r : snd (segment l) = Some r -> length r < length l.
Proof. induction l as [|[n|] l IH]; cbn; [discriminate| |intros [= <-]; lia]. destruct (segment l) as [a q]. cbn in *. intros H. specialize (IH H). lia. Qed.
Lemma sum_set l : forall i s x, nth_error l i = Some s -> list_sum (map size (set_nth l i x)) + size s = list_sum (map size l) + size x.
Proof.
  unfold list_sum. induction l as [|y l IH]; intros [|i] s x H; cbn in *; try discriminate; [injection H as <-; lia|]. specialize (IH i s x H). lia.
Qed.
Lemma run_less g i p : nth_error (g_tasks g) i = Some (Running p) -> list_sum (map size (g_tasks (group_step g (Run i)))) < list_sum (map size (g_tasks g)).
Proof.
  intros H. cbn [group_step]. rewrite H. destruct p as [l f]. pose proof (segment_less l) as SL. destruct (segment l) as [a r]. cbn [snd] in SL. cbn [g_tasks].
  match goal with |- context [set_nth _ i ?x] => pose proof (sum_set (g_tasks g) i _ x H) as E; assert (size x < S (length l)) end.
  - destruct r as [r|]; [cbn; specialize (SL r eq_refl); lia|]. destruct f; cbn; lia.
  - cbn [size steps_of] in E. lia.
Qed.
Lemma unfinished l : (forall s, In s l -> match s with Running _ => False | _ => True end) \/ exists i p, nth_error l i = Some (Running p).
Proof.
  induction l as [|s l IH]; [left; intros s []|]. destruct s as [p| | |]; [right; exists 0, p; reflexivity|..];
    (destruct IH as [IH|(i & p & H)]; [left; intros s [<-|I]; [exact Logic.I|exact (IH s I)]|right; exists (S i), p; exact H]).
Qed.
Theorem C94_merged_ends : forall ps ops, exists more, finished (group_run ps (ops ++ more)).
Proof.
  assert (G : forall n g, list_sum (map size (g_tasks g)) <= n -> exists more, finished (fold_left group_step more g)).
  { induction n as [|n IH]; intros g L; (destruct (unfinished (g_tasks g)) as [F|(i & p & H)]; [exists []; exact F|]); pose proof (run_less g i p H) as D.
    - lia.
    - destruct (IH (group_step g (Run i))) as [more F]; [lia|]. exists (Run i :: more). exact F. }
  intros ps ops. destruct (G _ (group_run ps ops) (le_n _)) as [more F]. exists more. unfold group_run in *. now rewrite fold_left_app.
Qed.

(** ** Cases *)

Definition save (n : nat) : func := Func Async 2 (Some 2) (fun args => match args with [Plain (JNum z); Event d] => Prog [Act n; Pause; Act (S n)] Returned | _ => Prog [] (Raised (User 9)) end).
Example C94_case : runnable (CPartial (CFun (save 1)) [Plain (JNum 7)]) /\
  means (CPartial (CFun (save 1)) [Plain (JNum 7)]) [Event [("x", JNum 3)]] [1; 2] None /\
  on_event (Attribute (CPartial (CFun (save 1)) [Plain (JNum 7)])) [JDict [("x", JNum 3)]] = Prog [Act 1; Pause; Act 2] Returned /\
  on_event (Attribute (CFun (save 1))) [JDict []] = Prog [] (Raised TypeErr).
Proof.
  split. { split; [now right|]. intros [|x [|y [|w l]]] p; cbn; try discriminate; destruct x as [[ | | | | | ]| | | ]; try discriminate; destruct y; discriminate. }
  split. { constructor. constructor; [reflexivity|]. cbn. repeat constructor. }
  split; reflexivity.
Qed.
Example C94_data_case : let d := [("currentTarget", JDict [("value", JStr "a"); ("tags", JList [JNum 1])]); ("key", JStr "k")] in
  get_path (wrap (JDict d)) ["currentTarget"; "value"] = Some (Plain (JStr "a")) /\ get_path (wrap (JDict d)) ["currentTarget"] = Some (Event [("value", JStr "a"); ("tags", JList [JNum 1])]) /\
  get_path (wrap (JDict d)) ["currentTarget"; "checked"] = Some (Plain JNull) /\ get_path (wrap (JDict d)) ["detail"; "x"] = None /\
  tidy (JDict d) /\ Forall plain_name ["currentTarget"; "value"] /\ value_at (JDict d) ["currentTarget"; "value"] (JStr "a").
Proof.
  cbv zeta. repeat (split; [reflexivity|]). split; [|split].
  - repeat constructor; cbn; intuition discriminate.
  - repeat constructor; cbn; intuition discriminate.
  - econstructor; [left; reflexivity|]. econstructor; [left; reflexivity|]. constructor.
Qed.
Example C94_merged_case : let ps := [Prog [Act 1; Pause; Act 2] Returned; Prog [Act 3; Pause; Pause; Act 4] Returned] in
  let g := group_run ps [Run 1; Run 0; Run 1; Run 0; Cancel 1; Run 1] in finished g /\ g_log g = [(1, 3); (0, 1); (0, 2); (1, 4)] /\ ~ In Failed (g_tasks g).
Proof. vm_compute. split; [|split; [reflexivity|intuition discriminate]]. intros s [<-|[<-|[]]]; exact I. Qed.
Example C94_merged_failing : let ps := [Prog [Act 1] (Raised (User 0)); Prog [Act 3; Pause; Act 4] Returned] in
  let g := group_run ps [Run 0; Run 1; Cancel 1; Run 1] in finished g /\ g_log g = [(0, 1); (1, 3)] /\ In Failed (g_tasks g).
Proof. vm_compute. split; [|split; [reflexivity|now left]]. intros s [<-|[<-|[]]]; exact I. Qed.

Print Assumptions C94_runs.
Print Assumptions C94_meaning.
Print Assumptions C94_lambda_refuted.
Print Assumptions C94_generator_refuted.
Print Assumptions C94_data.
Print Assumptions C94_missing.
Print Assumptions C94_items_refuted.
Print Assumptions C94_merged.
Print Assumptions C94_merged_ends.
