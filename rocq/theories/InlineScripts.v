(** * Inline JavaScript of an element (C107)

    An attribute such as [onclick] whose value is a text is JavaScript.  In a page written in HTML the browser makes a function of it; the
    client of the package evaluates it in a function of its own, [createInlineJavaScript].  This file has a small JavaScript with the
    things in which the two could differ: names and where they are looked up, [this], assignments, functions, [return], exceptions and
    strict mode. *)

From Coq Require Import String Ascii ZArith Bool Arith Lia List.
Import ListNotations.
Open Scope string_scope.

(** ** A small JavaScript *)

(** [Const x a b]: the statements [const x = a; b].  [Arrow x b] gives the value of [b]; [Func x b], written with [function], gives what [b]
    returns.  Left out: other statements, further types, getters and setters, the receiver of a method call, [arguments]. *)
Inductive expr :=
| Num (z : Z) | This | Var (x : string) | Get (o : expr) (p : string)
| Const (x : string) (a b : expr) | Seq (a b : expr) | If (c a b : expr)
| SetVar (x : string) (a : expr) | SetProp (o : expr) (p : string) (a : expr)
| Arrow (x : string) (b : expr) | Func (x : string) (b : expr) | Call (f a : expr) | Return (a : expr).

(** [Host n]: a function of the browser or the page, as [alert].  A function made by [Arrow] keeps the [this] of the place where it is
    made; it is kept only if the body uses it, so that functions that do not are the same. *)
Inductive value :=
| Undefined | Number (z : Z) | Boolean (b : bool) | Object (o : nat) | Host (n : nat)
| ArrowFn (this : option value) (local : list (string * value)) (x : string) (b : expr)
| Fn (local : list (string * value)) (x : string) (b : expr).

(** The properties of the objects, and the calls of host functions so far, latest first. *)
Definition heap := nat -> string -> option value.
Record state := { s_heap : heap; s_calls : list (nat * value) }.

Definition window := 0.
Definition document := 1.

(** Where a name is looked up, innermost first.  [Names] are variables of functions or modules ([None]: in its dead zone, [evalResult] while
    its own initialiser runs); [Props o] stands for the properties of an object. *)
Inductive scope := Names (l : list (string * option value)) | Props (o : nat).

Fixpoint assoc {A} (x : string) (l : list (string * A)) : option A :=
  match l with [] => None | (y, v) :: l' => if String.eqb x y then Some v else assoc x l' end.

(** The result of a lookup: [None]: there is no such name. *)
Fixpoint lookup (h : heap) (chain : list scope) (x : string) : option (option value) :=
  match chain with
  | [] => None
  | Names l :: chain' => match assoc x l with Some v => Some v | None => lookup h chain' x end
  | Props o :: chain' => match h o x with Some v => Some (Some v) | None => lookup h chain' x end
  end.

Definition set (h : heap) (o : nat) (p : string) (v : value) : heap :=
  fun o' p' => if Nat.eqb o o' && String.eqb p p' then Some v else h o' p'.

(** Assignment to a name that is no local variable; [None]: an exception.  A variable of the client's functions is changed there, which
    is not seen outside; a name that is not there becomes a global variable, except in strict mode. *)
Fixpoint assign (strict : bool) (h : heap) (chain : list scope) (x : string) (v : value) : option heap :=
  match chain with
  | [] => if strict then None else Some (set h window x v)
  | Names l :: chain' => match assoc x l with Some (Some _) => Some h | Some None => None | None => assign strict h chain' x v end
  | Props o :: chain' => match h o x with Some _ => Some (set h o x v) | None => assign strict h chain' x v end
  end.

(** How an expression or statement ends. *)
Inductive outcome := Normal (v : value) | Returned (v : value) | Threw.

Definition truthy (v : value) : bool :=
  match v with Undefined | Number 0 | Boolean false => false | _ => true end.

Fixpoint uses_this (e : expr) : bool :=
  match e with
  | This => true
  | Num _ | Var _ | Func _ _ => false
  | Get a _ | SetVar _ a | Arrow _ a | Return a => uses_this a
  | Const _ a b | Seq a b | SetProp a _ b | Call a b => uses_this a || uses_this b
  | If a b c => uses_this a || uses_this b || uses_this c
  end.

(** What follows the evaluation of a part, unless that throws or returns. *)
Definition part (r : option (outcome * state)) (k : value -> state -> option (outcome * state)) : option (outcome * state) :=
  match r with Some (Normal v, s) => k v s | _ => r end.

Section Run.
  (** What a host function answers; it may depend on all earlier calls ([confirm]). *)
  Variable host : nat -> list (nat * value) -> bool.

  (** Evaluation, with fuel.  Local variables are constants. *)
  Fixpoint eval (n : nat) (strict : bool) (chain : list scope) (this : value) (local : list (string * value)) (e : expr) (s : state) {struct n}
    : option (outcome * state) :=
    match n with
    | O => None
    | S n' =>
        let ev := eval n' strict chain this local in
        match e with
        | Num z => Some (Normal (Number z), s)
        | This => Some (Normal this, s)
        | Var x =>
            match assoc x local with
            | Some v => Some (Normal v, s)
            | None => match lookup (s_heap s) chain x with Some (Some v) => Some (Normal v, s) | _ => Some (Threw, s) end
            end
        | Get a p =>
            part (ev a s) (fun v s' =>
              match v with
              | Undefined => Some (Threw, s')
              | Object o => Some (Normal (match s_heap s' o p with Some w => w | None => Undefined end), s')
              | _ => Some (Normal Undefined, s')
              end)
        | Const x a b => part (ev a s) (fun v s' => eval n' strict chain this ((x, v) :: local) b s')
        | Seq a b => part (ev a s) (fun _ s' => ev b s')
        | If c a b => part (ev c s) (fun v s' => if truthy v then ev a s' else ev b s')
        | SetVar x a =>
            part (ev a s) (fun v s' =>
              match assoc x local with
              | Some _ => Some (Threw, s')
              | None => match assign strict (s_heap s') chain x v with
                        | Some h => Some (Normal v, {| s_heap := h; s_calls := s_calls s' |})
                        | None => Some (Threw, s')
                        end
              end)
        | SetProp a p b =>
            part (ev a s) (fun o s' => part (ev b s') (fun v s'' =>
              match o with
              | Object i => Some (Normal v, {| s_heap := set (s_heap s'') i p v; s_calls := s_calls s'' |})
              | _ => Some (Threw, s'')
              end))
        | Arrow x b => Some (Normal (ArrowFn (if uses_this b then Some this else None) local x b), s)
        | Func x b => Some (Normal (Fn local x b), s)
        | Call f a =>
            part (ev f s) (fun g s' => part (ev a s') (fun v s'' => call n' strict chain g v s''))
        | Return a => part (ev a s) (fun v s' => Some (Returned v, s'))
        end
    end
  with call (n : nat) (strict : bool) (chain : list scope) (f v : value) (s : state) {struct n} : option (outcome * state) :=
    match n with
    | O => None
    | S n' =>
        match f with
        | Host i => Some (Normal (Boolean (host i (s_calls s))), {| s_heap := s_heap s; s_calls := (i, v) :: s_calls s |})
        | ArrowFn t local x b =>
            match eval n' strict chain (match t with Some w => w | None => Undefined end) ((x, v) :: local) b s with
            | Some (Returned w, s') => Some (Normal w, s')
            | r => r
            end
        | Fn local x b =>
            match eval n' strict chain (if strict then Undefined else Object window) ((x, v) :: local) b s with
            | Some (Returned w, s') => Some (Normal w, s')
            | Some (Normal _, s') => Some (Normal Undefined, s')
            | r => r
            end
        | _ => Some (Threw, s)
        end
    end.

  (** ** The browser's way (specification) *)

  (** What a handler does to the page: the properties and calls after it, whether an exception is reported, and whether it cancels the
      event's default action. *)
  Record effect := { e_state : state; e_error : bool; e_cancel : bool }.

  (** HTML, "event handler content attributes": the text is the body of a function that is not strict, with the parameter [event], [this] and
      the scope of the element, its form if it has one, the document and the window; returning false cancels. *)
  Definition html_chain (element : nat) (form : option nat) (event : value) : list scope :=
    (Names [("event", Some event)] :: Props element :: match form with Some f => [Props f] | None => [] end ++ [Props document; Props window])%list.

  Definition html_run (n : nat) (element : nat) (form : option nat) (event : value) (text : expr) (s : state) : option effect :=
    match eval n false (html_chain element form event) (Object element) [] text s with
    | None => None
    | Some (Threw, s') => Some {| e_state := s'; e_error := true; e_cancel := false |}
    | Some (Returned (Boolean false), s') => Some {| e_state := s'; e_error := false; e_cancel := true |}
    | Some (_, s') => Some {| e_state := s'; e_error := false; e_cancel := false |}
    end.

  (** ** The client's way *)

  (** [return] outside of a function is a syntax error in a text that is evaluated. *)
  Fixpoint top_return (e : expr) : bool :=
    match e with
    | Return _ => true
    | Num _ | This | Var _ | Arrow _ _ | Func _ _ => false
    | Get a _ | SetVar _ a => top_return a
    | Const _ a b | Seq a b | SetProp a _ b | Call a b => top_return a || top_return b
    | If a b c => top_return a || top_return b || top_return c
    end.

  (** The names that the text can see in [handleExecution], in [wrappedExecutable], in [createInlineJavaScript] and in their module
      (vdom.tsx:284-311), before those of the window.  [module] has the names of the module, as they are after bundling. *)
  Definition client_names (args : nat) (self attribute text : value) (module : list (string * option value)) : list scope :=
    [Names [("args", Some (Object args)); ("evalResult", None)];
     Names [("args", Some (Object args)); ("handleExecution", Some self)];
     Names [("name", Some attribute); ("inlineJavaScript", Some text); ("wrappedExecutable", Some self)];
     Names module].
  Definition client_chain (names : list scope) : list scope := (names ++ [Props window])%list.

  Definition is_function (v : value) : bool := match v with Host _ | ArrowFn _ _ _ _ | Fn _ _ _ => true | _ => false end.

  (** [createInlineJavaScript], vdom.tsx:284-311, called with one event whose current target is the element.  Modules are strict, and so is
      what they evaluate.  What the function returns is not used by the code that handles events. *)
  Definition client_run (n : nat) (element : nat) (event : value) (names : list scope) (text : expr) (s : state) : option effect :=
    if top_return text then Some {| e_state := s; e_error := true; e_cancel := false |}
    else match eval n true (client_chain names) (Object element) [] text s with
         | None => None
         | Some (Normal v, s') =>
             if is_function v then
               match call n true (client_chain names) v event s' with
               | None => None
               | Some (Threw, s'') => Some {| e_state := s''; e_error := true; e_cancel := false |}
               | Some (_, s'') => Some {| e_state := s''; e_error := false; e_cancel := false |}
               end
             else Some {| e_state := s'; e_error := false; e_cancel := false |}
         | Some (Returned _, s') => Some {| e_state := s'; e_error := false; e_cancel := false |}
         | Some (Threw, s') => Some {| e_state := s'; e_error := true; e_cancel := false |}
         end.

  (** ** Guards *)

  (** The names a text uses, and those it assigns to; the properties it sets. *)
  Fixpoint used (e : expr) : list string :=
    match e with
    | Num _ | This => []
    | Var x => [x]
    | SetVar x a => x :: used a
    | Get a _ | Arrow _ a | Func _ a | Return a => used a
    | Const _ a b | Seq a b | SetProp a _ b | Call a b => (used a ++ used b)%list
    | If a b c => (used a ++ used b ++ used c)%list
    end.
  Fixpoint assigned (e : expr) : list string :=
    match e with
    | Num _ | This | Var _ => []
    | SetVar x a => x :: assigned a
    | Get a _ | Arrow _ a | Func _ a | Return a => assigned a
    | Const _ a b | Seq a b | SetProp a _ b | Call a b => (assigned a ++ assigned b)%list
    | If a b c => (assigned a ++ assigned b ++ assigned c)%list
    end.
  Fixpoint props_set (e : expr) : list string :=
    match e with
    | Num _ | This | Var _ => []
    | SetProp a p b => (p :: props_set a ++ props_set b)%list
    | Get a _ | SetVar _ a | Arrow _ a | Func _ a | Return a => props_set a
    | Const _ a b | Seq a b | Call a b => (props_set a ++ props_set b)%list
    | If a b c => (props_set a ++ props_set b ++ props_set c)%list
    end.

  (** No [function] of the text uses [this]. *)
  Fixpoint no_function_this (e : expr) : Prop :=
    match e with
    | Num _ | This | Var _ => True
    | Func _ b => uses_this b = false /\ no_function_this b
    | Get a _ | SetVar _ a | Arrow _ a | Return a => no_function_this a
    | Const _ a b | Seq a b | SetProp a _ b | Call a b => no_function_this a /\ no_function_this b
    | If a b c => no_function_this a /\ no_function_this b /\ no_function_this c
    end.

  (** A [return] of the text that is in none of its functions. *)
  Definition parts (e : expr) : list expr :=
    match e with
    | Num _ | This | Var _ | Arrow _ _ | Func _ _ => []
    | Get a _ | SetVar _ a | Return a => [a]
    | Const _ a b | Seq a b | SetProp a _ b | Call a b => [a; b]
    | If a b c => [a; b; c]
    end.
  Inductive own_return : expr -> Prop :=
  | own_here a : own_return (Return a)
  | own_part e a : In a (parts e) -> own_return a -> own_return e.

  Definition callable (v : value) : Prop :=
    (exists n, v = Host n) \/ (exists t l x b, v = ArrowFn t l x b) \/ (exists l x b, v = Fn l x b).

  (** The names of the client that a text sees instead of the page's; [module]: those of its module. *)
  Definition reserved (module : list (string * option value)) : list string :=
    (["args"; "evalResult"; "handleExecution"; "name"; "inlineJavaScript"; "wrappedExecutable"] ++ map fst module)%list.

  (** A text that does not depend on where it runs: its names are not among the client's names and are no properties of the element, its
      form or the document; the variables that it assigns to are there; it sets no property that is called like one of its names; and the
      page has put no function of such a text anywhere before ([flat]).  The name [event] may be used if it is, as browsers have it, also a
      property of the window. *)
  Definition flat (v : value) : Prop := match v with ArrowFn _ _ _ _ | Fn _ _ _ => False | _ => True end.

  Record portable (element : nat) (form : option nat) (event : value) (taken : list string) (s : state) (text : expr) : Prop := {
    p_this : no_function_this text;
    p_hidden : forall x, In x (used text) -> ~ In x taken;
    p_objects : forall x, In x (used text) -> x <> "event" -> s_heap s element x = None /\ s_heap s document x = None /\ (forall f, form = Some f -> s_heap s f x = None);
    p_event : In "event" (used text) -> s_heap s window "event" = Some event /\ ~ In "event" (assigned text);
    p_assigned : forall x, In x (assigned text) -> s_heap s window x <> None;
    p_props : forall p, In p (props_set text) -> ~ In p (used text);
    p_flat : flat event /\ (forall o p v, s_heap s o p = Some v -> flat v);
    p_window : element <> window /\ document <> window /\ form <> Some window
  }.

  (** ** Proofs *)

  Definition hidden (names : list scope) (x : string) : Prop := exists l, In (Names l) names /\ assoc x l <> None.

  Lemma assoc_none {A} x (l : list (string * A)) : ~ In x (map fst l) -> assoc x l = None.
  Proof.
    induction l as [|[y v] l IH]; [reflexivity|]. cbn [map fst In assoc]. intros N. destruct (String.eqb_spec x y) as [->|_]; [destruct N; left; reflexivity|].
    apply IH. intros I. apply N. right. exact I.
  Qed.

  Lemma not_reserved args self attribute source module x : ~ In x (reserved module) -> ~ hidden (client_names args self attribute source module) x.
  Proof.
    intros N (l & J & H). apply H. apply assoc_none. intros I. apply N. unfold reserved. apply in_or_app.
    cbn in J. destruct J as [[= <-]|[[= <-]|[[= <-]|[[= <-]|[]]]]]; cbn in I; [left; cbn; tauto..|right; exact I].
  Qed.

  Lemma top_return_spec e : top_return e = true <-> own_return e.
  Proof.
    split.
    - induction e; cbn; try discriminate; intros T; rewrite ?orb_true_iff in T;
        try (apply own_here); try (destruct T as [T|T]); try (destruct T as [T|T]);
        try (eapply own_part; [cbn; left; reflexivity|auto]; fail);
        try (eapply own_part; [cbn; right; left; reflexivity|auto]; fail);
        try (eapply own_part; [cbn; right; right; left; reflexivity|auto]; fail).
    - induction 1 as [a|e a I R IH]; [reflexivity|].
      destruct e; cbn in *; try contradiction; try reflexivity; intuition (subst; rewrite ?IH, ?orb_true_r; auto).
  Qed.

  Lemma is_function_spec v : is_function v = true <-> callable v.
  Proof.
    split.
    - destruct v; cbn; try discriminate; intros _; [left|right; left|right; right]; eauto 6.
    - intros [(n & ->)|[(t & l & x & b & ->)|(l & x & b & ->)]]; reflexivity.
  Qed.

  Section Same.
    Variables (element : nat) (form : option nat) (event : value) (names : list scope) (text : expr).
    Hypothesis names_only : forall c, In c names -> exists l, c = Names l.
    Hypothesis fresh : forall x, In x (used text) -> ~ hidden names x.
    Hypothesis event_kept : In "event" (used text) -> ~ In "event" (assigned text).
    Hypothesis props_apart : forall p, In p (props_set text) -> ~ In p (used text).
    Hypothesis not_window : element <> window /\ document <> window /\ form <> Some window.
    Hypothesis event_flat : flat event.

    Local Notation hc := (html_chain element form event).
    Local Notation cc := (client_chain names).

    Definition good (e : expr) : Prop :=
      no_function_this e /\ incl (used e) (used text) /\ incl (assigned e) (assigned text) /\ incl (props_set e) (props_set text).

    Inductive vok : value -> Prop :=
    | ok_flat v : flat v -> vok v
    | ok_arrow t l x b : good b -> (uses_this b = true -> exists w, t = Some w /\ vok w) -> Forall (fun kv => vok (snd kv)) l -> vok (ArrowFn t l x b)
    | ok_fn l x b : good b -> uses_this b = false -> Forall (fun kv => vok (snd kv)) l -> vok (Fn l x b).

    Definition hinv (h : heap) : Prop :=
      (forall x, In x (used text) -> x <> "event" -> h element x = None /\ h document x = None /\ (forall f, form = Some f -> h f x = None)) /\
      (In "event" (used text) -> h window "event" = Some event) /\
      (forall x, In x (assigned text) -> h window x <> None) /\
      (forall o p v, h o p = Some v -> vok v).

    Lemma assigned_used e : incl (assigned e) (used e).
    Proof.
      induction e; cbn [assigned used]; intros q I; repeat match goal with H : incl _ _ |- _ => specialize (H q) end;
      cbn [In] in *; rewrite ?in_app_iff in *; tauto.
    Qed.

    Lemma lookup_names h x l : (forall c, In c l -> exists k, c = Names k) -> ~ hidden l x -> forall rest, lookup h (l ++ rest) x = lookup h rest x.
    Proof.
      intros N F rest. induction l as [|c l IH]; [reflexivity|]. destruct (N c (or_introl eq_refl)) as (k & ->). cbn [app lookup].
      destruct (assoc x k) as [v|] eqn:E.
      - exfalso. apply F. exists k. split; [left; reflexivity|congruence].
      - apply IH; [intros c I; apply N; right; exact I|]. intros (k' & I & H). apply F. exists k'. split; [right; exact I|exact H].
    Qed.

    Lemma assign_names st h x v l : (forall c, In c l -> exists k, c = Names k) -> ~ hidden l x -> forall rest, assign st h (l ++ rest) x v = assign st h rest x v.
    Proof.
      intros N F rest. induction l as [|c l IH]; [reflexivity|]. destruct (N c (or_introl eq_refl)) as (k & ->). cbn [app assign].
      destruct (assoc x k) as [w|] eqn:E.
      - exfalso. apply F. exists k. split; [left; reflexivity|congruence].
      - apply IH; [intros c I; apply N; right; exact I|]. intros (k' & I & H). apply F. exists k'. split; [right; exact I|exact H].
    Qed.

    Lemma lookup_same h x : hinv h -> In x (used text) ->
      lookup h hc x = lookup h cc x /\ forall v, lookup h cc x = Some (Some v) -> vok v.
    Proof.
      intros (H1 & H2 & H3 & H4) I. unfold client_chain. rewrite (lookup_names h x names names_only (fresh x I)).
      destruct (string_dec x "event") as [->|N].
      - cbn [lookup html_chain assoc String.eqb Ascii.eqb Bool.eqb]. rewrite (H2 I). split; [reflexivity|]. intros v [= <-]. apply ok_flat. exact event_flat.
      - destruct (H1 x I N) as (A & B & C). unfold html_chain. cbn [lookup assoc]. rewrite (proj2 (String.eqb_neq x "event") N), A.
        split.
        + destruct form as [f|]; cbn [app lookup]; [rewrite (C f eq_refl)|]; rewrite B; reflexivity.
        + intros v. cbn [lookup]. destruct (h window x) as [w|] eqn:E; [|discriminate]. intros [= <-]. exact (H4 _ _ _ E).
    Qed.

    Lemma hinv_set h o p v : hinv h -> vok v -> (o = window /\ In p (assigned text)) \/ ~ In p (used text) -> hinv (set h o p v).
    Proof.
      intros (H1 & H2 & H3 & H4) V C. unfold set.
      assert (K : forall o' x, In x (used text) -> o' <> window -> (if Nat.eqb o o' && String.eqb p x then Some v else h o' x) = h o' x).
      { intros o' x I N. destruct (Nat.eqb o o' && String.eqb p x) eqn:E; [|reflexivity]. apply andb_true_iff in E as [E1 E2].
        apply Nat.eqb_eq in E1. apply String.eqb_eq in E2. subst. destruct C as [[C _]|C]; contradiction. }
      destruct not_window as (W1 & W2 & W3).
      split; [|split; [|split]].
      - intros x I N. destruct (H1 x I N) as (A & B & D). rewrite !K by assumption. split; [exact A|]. split; [exact B|].
        intros f Ff. rewrite K; [exact (D f Ff)|exact I|congruence].
      - intros I. specialize (H2 I). destruct (Nat.eqb o window && String.eqb p "event") eqn:E; [|exact H2].
        apply andb_true_iff in E as [E1 E2]. apply String.eqb_eq in E2. subst p. exfalso. destruct C as [[_ C]|C]; [exact (event_kept I C)|exact (C I)].
      - intros x I. destruct (Nat.eqb o window && String.eqb p x); [discriminate|exact (H3 x I)].
      - intros o' p' w. destruct (Nat.eqb o o' && String.eqb p p'); [intros [= <-]; exact V|apply H4].
    Qed.

    Lemma assign_same h x v : hinv h -> In x (assigned text) -> vok v ->
      assign false h hc x v = Some (set h window x v) /\ assign true h cc x v = Some (set h window x v) /\ hinv (set h window x v).
    Proof.
      intros H I V. assert (U := assigned_used text x I). destruct H as (H1 & H2 & H3 & H4).
      assert (N : x <> "event") by (intros ->; exact (event_kept U I)).
      assert (W : exists w, h window x = Some w) by (destruct (h window x) as [w|] eqn:E; [eauto|destruct (H3 x I E)]). destruct W as (w & W).
      destruct (H1 x U N) as (A & B & C). split; [|split].
      - unfold html_chain. cbn [assign assoc]. rewrite (proj2 (String.eqb_neq x "event") N), A. destruct form as [f|]; cbn [app assign]; [rewrite (C f eq_refl)|]; rewrite B, W; reflexivity.
      - unfold client_chain. rewrite (assign_names true h x v names names_only (fresh x U)). cbn [assign]. rewrite W. reflexivity.
      - apply hinv_set; [exact (conj H1 (conj H2 (conj H3 H4)))|exact V|left; auto].
    Qed.

    Definition rok (r : option (outcome * state)) : Prop :=
      match r with
      | None => True
      | Some (o, s) => hinv (s_heap s) /\ match o with Normal v | Returned v => vok v | Threw => True end
      end.

    Lemma part_same (r1 r2 : option (outcome * state)) (k1 k2 : value -> state -> option (outcome * state)) :
      r1 = r2 /\ rok r1 -> (forall v s, vok v -> hinv (s_heap s) -> k1 v s = k2 v s /\ rok (k1 v s)) ->
      part r1 k1 = part r2 k2 /\ rok (part r1 k1).
    Proof.
      intros [<- R] K. unfold part. destruct r1 as [[[v|v|] s]|]; cbn [rok] in R; [|split; [reflexivity|exact R]..]. destruct R as [H V]. exact (K v s V H).
    Qed.

    Lemma good_parts e : good e ->
      match e with
      | Num _ | This => True
      | Var x => In x (used text)
      | SetVar x a => In x (assigned text) /\ good a
      | Get a _ | Arrow _ a | Return a => good a
      | Func _ a => good a /\ uses_this a = false
      | SetProp a p b => good a /\ good b /\ In p (props_set text)
      | Const _ a b | Seq a b | Call a b => good a /\ good b
      | If a b c => good a /\ good b /\ good c
      end.
    Proof.
      unfold good, incl. intros (T & U & A & P). destruct e; cbn [no_function_this used assigned props_set] in *; auto.
      all: try (apply U; left; reflexivity).
      all: repeat match goal with H : no_function_this _ /\ _ |- _ => destruct H | H : uses_this _ = false /\ _ |- _ => destruct H end.
      all: repeat split; try assumption; intros; try (apply U); try (apply A); try (apply P); cbn [In]; rewrite ?in_app_iff; auto.
    Qed.

    Lemma assoc_ok x l v : Forall (fun kv => vok (snd kv)) l -> assoc x l = Some v -> vok v.
    Proof.
      intros F. induction F as [|[y w] l V F IH]; cbn [assoc]; [discriminate|]. destruct (String.eqb x y); [intros [= <-]; exact V|exact IH].
    Qed.

    Lemma eval_same n :
      (forall e this1 this2 local s, good e -> (uses_this e = true -> this1 = this2 /\ vok this1) -> Forall (fun kv => vok (snd kv)) local -> hinv (s_heap s) ->
        eval n false hc this1 local e s = eval n true cc this2 local e s /\ rok (eval n false hc this1 local e s)) /\
      (forall f v s, vok f -> vok v -> hinv (s_heap s) -> call n false hc f v s = call n true cc f v s /\ rok (call n false hc f v s)).
    Proof.
      induction n as [|n [IHe IHc]]; [split; intros; split; reflexivity || exact I|]. split.
      - intros e this1 this2 local s G T L H. pose proof (good_parts e G) as GP.
        assert (TT : forall a, (uses_this a = true -> uses_this e = true) -> uses_this a = true -> this1 = this2 /\ vok this1) by (intros a X Y; apply T, X, Y).
        destruct e as [z| |x|a p|x a b|a b|c a b|x a|a p b|x b|x b|f a|a]; cbn [eval].
        + split; [reflexivity|]. split; [exact H|]. apply ok_flat. exact I.
        + destruct (T eq_refl) as [-> V]. split; [reflexivity|]. split; [exact H|exact V].
        + destruct (assoc x local) as [v|] eqn:E; [split; [reflexivity|]; split; [exact H|exact (assoc_ok _ _ _ L E)]|].
          destruct (lookup_same _ x H GP) as [-> V]. destruct (lookup (s_heap s) cc x) as [[v|]|] eqn:Q; (split; [reflexivity|]); split; try exact H; auto.
        + apply part_same; [apply IHe; auto|]. intros v s' V H'. destruct v as [|z|b|o|k|t l y b|l y b]; (split; [reflexivity|]); (split; [exact H'|]); try exact I; try (apply ok_flat; exact I).
          destruct (s_heap s' o p) as [w|] eqn:Q; [|apply ok_flat; exact I]. destruct H' as (_ & _ & _ & H4). exact (H4 _ _ _ Q).
        + destruct GP as [Ga Gb]. apply part_same; [apply IHe; auto; apply TT; cbn; intros ->; reflexivity|]. intros v s' V H'.
          apply IHe; auto. apply TT; cbn; intros ->; apply orb_true_r.
        + destruct GP as [Ga Gb]. apply part_same; [apply IHe; auto; apply TT; cbn; intros ->; reflexivity|]. intros v s' V H'.
          apply IHe; auto. apply TT; cbn; intros ->; apply orb_true_r.
        + destruct GP as (Gc & Ga & Gb). apply part_same; [apply IHe; auto; apply TT; cbn; intros ->; reflexivity|]. intros v s' V H'.
          destruct (truthy v); (apply IHe; auto; apply TT; cbn; intros ->; rewrite ?orb_true_r; reflexivity).
        + destruct GP as [Ix Ga]. apply part_same; [apply IHe; auto|]. intros v s' V H'. destruct (assoc x local); [split; [reflexivity|]; split; [exact H'|exact I]|].
          destruct (assign_same (s_heap s') x v H' Ix V) as (-> & -> & K). split; [reflexivity|]. split; [exact K|exact V].
        + destruct GP as (Ga & Gb & Ip). apply part_same; [apply IHe; auto; apply TT; cbn; intros ->; reflexivity|]. intros v s' V H'.
          apply part_same; [apply IHe; auto; apply TT; cbn; intros ->; apply orb_true_r|]. intros w s'' W H''.
          destruct v; (split; [reflexivity|]); split; try exact H''; try exact I; [|exact W]. cbn [s_heap]. apply hinv_set; auto.
        + split; [destruct (uses_this b) eqn:U; [destruct (T U) as [-> _]|]; reflexivity|]. split; [exact H|]. apply ok_arrow; auto. intros U. exists this1. rewrite U. split; [reflexivity|]. exact (proj2 (T U)).
        + split; [reflexivity|]. split; [exact H|]. destruct GP. apply ok_fn; auto.
        + destruct GP as [Gf Ga]. apply part_same; [apply IHe; auto; apply TT; cbn; intros ->; reflexivity|]. intros v s' V H'.
          apply part_same; [apply IHe; auto; apply TT; cbn; intros ->; apply orb_true_r|]. intros w s'' W H''. apply IHc; auto.
        + apply part_same; [apply IHe; auto|]. intros v s' V H'. split; [reflexivity|]. split; auto.
      - intros f v s F V H. cbn [call]. inversion F as [? FF|t l x b G T L|l x b G U L]; subst.
        + destruct f; try contradiction; (split; [reflexivity|]); (split; [exact H|]); try exact I. apply ok_flat. exact I.
        + destruct (IHe b (match t with Some w => w | None => Undefined end) (match t with Some w => w | None => Undefined end) ((x, v) :: l) s G) as [<- R].
          * intros U. destruct (T U) as (w & -> & W). auto.
          * constructor; auto.
          * exact H.
          * split; [reflexivity|]. destruct (eval n false hc _ _ b s) as [[[w|w|] s']|]; exact R.
        + destruct (IHe b (Object window) Undefined ((x, v) :: l) s G) as [<- R].
          * intros E. congruence.
          * constructor; auto.
          * exact H.
          * split; [reflexivity|]. destruct (eval n false hc _ _ b s) as [[[w|w|] s']|]; try exact R. split; [exact (proj1 R)|]. apply ok_flat. exact I.
    Qed.
  End Same.

  Lemma eval_no_return n : forall e strict chain this local s v s', top_return e = false -> eval n strict chain this local e s <> Some (Returned v, s').
  Proof.
    induction n as [|n IH]; intros e strict chain this local s v s' T; [discriminate|].
    assert (P : forall a t k, top_return a = false -> (forall w u, k w u <> Some (Returned v, s')) ->
      part (eval n strict chain this local a t) k <> Some (Returned v, s')).
    { intros a t k A K. unfold part. specialize (IH a strict chain this local t v s' A). destruct (eval n strict chain this local a t) as [[[w|w|] u]|]; auto. }
    assert (C : forall f w u, call n strict chain f w u <> Some (Returned v, s')).
    { intros f w u. destruct n as [|m]; [discriminate|]. cbn [call]. destruct f; try discriminate;
      match goal with |- context [eval ?a ?b ?c ?d ?e ?f ?g] => destruct (eval a b c d e f g) as [[[x0|x0|] u']|] end; discriminate. }
    destruct e as [z| |x|a p|x a b|a b|c a b|x a|a p b|x b|x b|f a|a]; cbn [eval]; cbn [top_return] in T; rewrite ?orb_false_iff in T; try discriminate.
    - destruct (assoc x local); [discriminate|]. destruct (lookup (s_heap s) chain x) as [[w|]|]; discriminate.
    - apply P; [exact T|]. intros [] u; discriminate.
    - destruct T. apply P; [assumption|]. intros w u. apply IH. assumption.
    - destruct T. apply P; [assumption|]. intros w u. apply IH. assumption.
    - destruct T as [[A B] D]. apply P; [assumption|]. intros w u. destruct (truthy w); apply IH; assumption.
    - apply P; [exact T|]. intros w u. destruct (assoc x local); [discriminate|]. destruct (assign strict (s_heap u) chain x w); discriminate.
    - destruct T. apply P; [assumption|]. intros w u. apply P; [assumption|]. intros w' u'. destruct w; discriminate.
    - destruct T. apply P; [assumption|]. intros w u. apply P; [assumption|]. intros w' u'. apply C.
  Qed.

  Lemma names_are args self attribute text module c : In c (client_names args self attribute text module) -> exists l, c = Names l.
  Proof. unfold client_names. intros [<-|[<-|[<-|[<-|[]]]]]; eauto. Qed.

  Lemma start_inv element form event taken s text : portable element form event taken s text ->
    hinv element form event text (s_heap s) /\ good text text /\ vok text (Object element) /\ vok text event.
  Proof.
    intros P. destruct P as [P1 P2 P3 P4 P5 P6 [P7 P8] P9]. split; [|split; [|split]].
    - split; [exact P3|]. split; [intros I; exact (proj1 (P4 I))|]. split; [exact P5|]. intros o p v E. apply ok_flat. exact (P8 o p v E).
    - split; [exact P1|]. split; [|split]; apply incl_refl.
    - apply ok_flat. exact I.
    - apply ok_flat. exact P7.
  Qed.

  (** C107, partial: a text that does not depend on where it runs, has no [return] of its own and does not give a function does in the client
      what it does in a page, exception or not.  Missing: the texts that do ([C107_return_refuted], [C107_names_refuted],
      [C107_element_refuted], [C107_global_refuted], [C107_this_refuted]). *)
  Theorem C107_same_partial n element form event args self attribute source module s text :
    portable element form event (reserved module) s text -> ~ own_return text ->
    (forall v s', eval n false (html_chain element form event) (Object element) [] text s = Some (Normal v, s') -> ~ callable v) ->
    client_run n element event (client_names args self attribute source module) text s = html_run n element form event text s.
  Proof.
    intros P O F. assert (T : top_return text = false) by (apply not_true_iff_false; rewrite top_return_spec; exact O). set (names := client_names args self attribute source module) in *. destruct (start_inv _ _ _ _ _ _ P) as (H & G & V & _). destruct P as [P1 P2 P3 P4 P5 P6 [P7 P8] P9].
    destruct (eval_same element form event names text (names_are args self attribute source module) (fun x I => not_reserved args self attribute source module x (P2 x I)) (fun I => proj2 (P4 I)) P6 P9 P7 n) as [E _].
    destruct (E text (Object element) (Object element) [] s G (fun _ => conj eq_refl V) (Forall_nil _) H) as [Q _].
    unfold client_run, html_run. rewrite T. rewrite <- Q. pose proof (fun v s' => eval_no_return n text false (html_chain element form event) (Object element) [] s v s' T) as R.
    destruct (eval n false (html_chain element form event) (Object element) [] text s) as [[[v|v|] s']|]; try reflexivity.
    - pose proof (F v s' eq_refl) as N. rewrite <- is_function_spec in N. apply not_true_is_false in N. rewrite N. reflexivity.
    - destruct (R v s' eq_refl).
  Qed.

  (** C107, partial: where the text gives a function, the client calls it with the event, as a page does whose text is this call. *)
  Theorem C107_function_partial n element form event args self attribute source module s text :
    portable element form event (reserved module) s text -> ~ own_return text ->
    (forall v s', eval n false (html_chain element form event) (Object element) [] text s = Some (Normal v, s') -> callable v) ->
    client_run n element event (client_names args self attribute source module) text s = html_run (S n) element form event (Call text (Var "event")) s.
  Proof.
    intros P O F. assert (T : top_return text = false) by (apply not_true_iff_false; rewrite top_return_spec; exact O). set (names := client_names args self attribute source module) in *. destruct (start_inv _ _ _ _ _ _ P) as (H & G & V & W). destruct P as [P1 P2 P3 P4 P5 P6 [P7 P8] P9].
    destruct (eval_same element form event names text (names_are args self attribute source module) (fun x I => not_reserved args self attribute source module x (P2 x I)) (fun I => proj2 (P4 I)) P6 P9 P7 n) as [E C].
    destruct (E text (Object element) (Object element) [] s G (fun _ => conj eq_refl V) (Forall_nil _) H) as [Q K].
    unfold client_run, html_run. rewrite T. rewrite <- Q. change (eval (S n) false (html_chain element form event) (Object element) [] (Call text (Var "event")) s) with (part (eval n false (html_chain element form event) (Object element) [] text s) (fun g s' => part (eval n false (html_chain element form event) (Object element) [] (Var "event") s') (fun v s'' => call n false (html_chain element form event) g v s''))). unfold part. pose proof (fun v s' => eval_no_return n text false (html_chain element form event) (Object element) [] s v s' T) as R.
    destruct n as [|m]; [reflexivity|].
    destruct (eval (S m) false (html_chain element form event) (Object element) [] text s) as [[[v|v|] s']|]; try reflexivity; [|destruct (R v s' eq_refl)].
    rewrite (proj2 (is_function_spec v) (F v s' eq_refl)). cbn [rok] in K. destruct K as [Hs Vv]. change (eval (S m) false (html_chain element form event) (Object element) [] (Var "event") s') with (Some (Normal event, s')). cbv beta iota.
    destruct (C v event s' Vv W Hs) as [<- _].
    assert (D : forall w u, call (S m) false (html_chain element form event) v event s' <> Some (Returned w, u)).
    { intros w u. cbn [call]. destruct v; try discriminate; match goal with |- context [eval ?a ?b ?c ?d ?e ?f ?g] => destruct (eval a b c d e f g) as [[[x0|x0|] u']|] end; discriminate. }
    destruct (call (S m) false (html_chain element form event) v event s') as [[[w|w|] u]|]; try reflexivity. destruct (D w u eq_refl).
  Qed.
End Run.

(** ** Findings and examples *)

(** A page: the window with some functions and variables, and an input element (2) with a value, in a form (3). *)
Definition page : state := {|
  s_heap := fun o p =>
    match o with
    | 0 => assoc p [("alert", Host 0); ("confirm", Host 1); ("event", Object 4); ("name", Number 7); ("count", Number 0)]
    | 2 => assoc p [("value", Number 3)]
    | 3 => assoc p [("action", Number 8)]
    | _ => None
    end;
  s_calls := [] |}.
Definition the_names : list scope := client_names 5 (Host 9) (Number 100) (Number 101) [("t", Some (Number 102))].
Definition refuse : nat -> list (nat * value) -> bool := fun _ _ => false.
Definition in_page (text : expr) : option effect := html_run refuse 20 2 (Some 3) (Object 4) text page.
Definition in_client (text : expr) : option effect := client_run refuse 20 2 (Object 4) the_names text page.
Definition seen (e : option effect) : option (list (nat * value) * bool * bool) :=
  match e with Some e => Some (s_calls (e_state e), e_error e, e_cancel e) | None => None end.

(** Finding: [return confirm(1)], the usual way to ask before a link is followed, is a syntax error: nobody is asked and the link is
    followed. *)
Theorem C107_return_refuted : exists text,
  seen (in_page text) = Some ([(1, Number 1)], false, true) /\ seen (in_client text) = Some ([], true, false).
Proof. exists (Return (Call (Var "confirm") (Num 1))). split; reflexivity. Qed.

(** Finding: a global variable that is called like one in the client, as [name] or, after bundling, some short name, is not seen. *)
Theorem C107_names_refuted : exists text,
  seen (in_page text) = Some ([(0, Number 7)], false, false) /\ seen (in_client text) = Some ([(0, Number 100)], false, false).
Proof. exists (Call (Var "alert") (Var "name")). split; reflexivity. Qed.

(** Finding: the element's own properties can not be named directly. *)
Theorem C107_element_refuted : exists text,
  seen (in_page text) = Some ([(0, Number 3)], false, false) /\ seen (in_client text) = Some ([], true, false).
Proof. exists (Call (Var "alert") (Var "value")). split; reflexivity. Qed.

(** Finding: a global variable can not be made by assigning to it. *)
Theorem C107_global_refuted : exists text,
  seen (in_page text) = Some ([(0, Number 1)], false, false) /\ seen (in_client text) = Some ([], true, false).
Proof. exists (Seq (SetVar "fresh" (Num 1)) (Call (Var "alert") (Var "fresh"))). split; reflexivity. Qed.

(** Finding: [this] is the element in the text itself and in an arrow function, but undefined in a function that is written with
    [function]. *)
Theorem C107_this_refuted : exists body,
  seen (in_client (Arrow "e" body)) = Some ([(0, Number 3)], false, false) /\ seen (in_client (Func "e" body)) = Some ([], true, false).
Proof. exists (Call (Var "alert") (Get This "value")). split; reflexivity. Qed.

(** The example of the comment in the source, with more: [this.value = 5; count = this.value; (() => alert(this.value))(event)]. *)
Definition demo : expr :=
  Seq (SetProp This "value" (Num 5)) (Seq (SetVar "count" (Get This "value")) (Call (Arrow "e" (Seq (Call (Var "alert") (Get This "value")) (Call (Var "alert") (Var "count")))) (Var "event"))).

Lemma page_flat : flat (Object 4) /\ (forall o p v, s_heap page o p = Some v -> flat v).
Proof.
  split; [exact I|]. intros o p v. unfold page. cbn [s_heap]. destruct o as [|[|[|[|o]]]]; cbn [assoc]; try discriminate;
  repeat (match goal with |- context [String.eqb ?a ?b] => destruct (String.eqb a b) end; [intros [= <-]; exact I|]); discriminate.
Qed.

Ltac names I := cbn in I; repeat destruct I as [<-|I]; try contradiction.

Lemma demo_portable : portable 2 (Some 3) (Object 4) (reserved [("t", Some (Number 102))]) page demo.
Proof.
  split.
  - cbn. tauto.
  - intros x I J. cbn in J. names I; intuition discriminate.
  - intros x I N. names I; try congruence; (split; [reflexivity|]; split; [reflexivity|]); intros f [= <-]; reflexivity.
  - intros _. split; [reflexivity|]. cbn. intuition discriminate.
  - intros x I. names I; discriminate.
  - intros p I J. names I. cbn in J. intuition discriminate.
  - exact page_flat.
  - repeat split; discriminate.
Qed.

Example C107_example :
  in_client demo = in_page demo /\ seen (in_client demo) = Some ([(0, Number 5); (0, Number 5)], false, false).
Proof.
  split; [|reflexivity]. apply C107_same_partial; [exact demo_portable|rewrite <- top_return_spec; discriminate|]. intros v s' E. vm_compute in E. injection E as <- _. rewrite <- is_function_spec. discriminate.
Qed.

Example C107_function_example : let text := Arrow "e" demo in
  in_client text = html_run refuse 21 2 (Some 3) (Object 4) (Call text (Var "event")) page /\
  seen (in_client text) = Some ([(0, Number 5); (0, Number 5)], false, false).
Proof.
  cbv zeta. split; [|reflexivity]. apply C107_function_partial.
  - destruct demo_portable as [A B C D E F G H]. split; assumption.
  - rewrite <- top_return_spec. discriminate.
  - intros v s' E. injection E as <- _. right; left; eauto.
Qed.

Print Assumptions C107_same_partial.
Print Assumptions C107_function_partial.
Print Assumptions C107_return_refuted.
Print Assumptions C107_names_refuted.
Print Assumptions C107_element_refuted.
Print Assumptions C107_global_refuted.
Print Assumptions C107_this_refuted.
