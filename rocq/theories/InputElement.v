(** * Model of an input element between browser and server (/repo/src/js/packages/@reactpy/client/src/, "client" below;
    /repo/src/reactpy/core/layout.py, "layout.py") and property C112

    One place of the page at which the program shows an input, select or textarea element. The browser keeps the element's
    text, the counters of [UserInputElement] and the handlers of every render, which may hold back events (debounce,
    throttle); the server keeps the state of the program and the numbers of the events handled. Messages are on their way in
    both directions. *)
From Coq Require Import String ZArith Bool Arith Lia List.
Import ListNotations.
Local Open Scope list_scope. Local Open Scope Z_scope.

(** The value attribute of the element in the model: none, a text or something else (a number, a list). *)
Inductive attr := Absent | Text (t : string) | Other (n : Z).
Definition attr_dec (a b : attr) : {a = b} + {a <> b}.
Proof. decide equality; [apply string_dec | apply Z.eq_dec]. Defined.

(** The options of a handler: whether it has a positive [debounce] and a positive [throttle]. (Zero delays nothing: client
    components.tsx:49-56, 105-107.) *)
Record opts := Opts { o_debounce : bool; o_throttle : bool }.

(** An event on its way or handled: the key path of the element, the handler's name (together the target, layout.py:422-425),
    the sequence number and the text that the element had. *)
Definition event := (nat * nat * Z * string)%type.

(** A handler as created by one render: [outgoingSeq] (client vdom.tsx:232), the event held back by the debounce wrapper and
    the one held back by the throttle wrapper (client components.tsx:44-46, 109-110), and the key path of its target. *)
Record closure := Cl { k_place : nat; k_out : Z; k_deb : option string; k_thr : option string }.
Definition no_closure : closure := Cl 0 0 None None.

(** An update of the element: its value, the number acknowledged ([_reactpy_ack_seq], or -1: client components.tsx:226-229),
    the key path, and which element of the browser it is for (see [Show]). Ghost: the events handled when it was made. *)
Record upd := Upd { u_value : attr; u_ack : Z; u_place : nat; u_inst : nat; u_done : list event }.

Section Input.
  (** The program: its state, the value it shows and what its handlers do. *)
  Context {St : Type} (view : St -> attr) (handle : nat -> string -> St -> St) (kind : nat -> opts).

  (** The browser: the element's key path and identity, [sharedOutgoingSeq], [lastSentSeq] (client components.tsx:249, 254),
      the text shown, the dependencies of the effect when it ran last (none: not on the page), the number of renders and the
      handlers of each; the wire. The server: updates on their way, key path, identity, state, events handled. Ghosts: whether
      there was a render since the last event or change, and the events of the user on this element, oldest first. *)
  Record state := State {
    c_place : nat; c_inst : nat; c_next : Z; c_last : Z; c_text : string; c_deps : option (attr * Z);
    c_render : nat; c_clos : nat -> nat -> closure; wire : list event; updates : list upd;
    s_place : nat; s_inst : nat; s_state : St; s_done : list event; s_fresh : bool; c_events : list (nat * string) }.

  (** What happens. [User i t now]: the user's action leaves the text [t] and calls handler [i] ([now]: if it is throttled, the
      interval is over). [Edit t]: the user changes the text and there is no handler for it. [FireD], [FireT]: the debounce or
      throttle timer of handler [i] of render [r] runs. [Redraw]: the element is rendered again for another update.
      [Elsewhere]: an event of another element. [Process q i]: the server handles the next event of target [(q, i)].
      [Change st]: the program's state changes otherwise. [Show q new st]: the program shows another element at this place, with
      key path [q] and state [st]; the browser makes a new element for it ([new]) or goes on with the old one, which it does if the
      tags are the same, for the key of a component is not part of the model (client components.tsx:176-182, 213-215;
      layout.py:334-340). [Reconnect n st]: the connection is lost with [n] messages and the client connects to a new session. *)
  Inductive op := User (i : nat) (t : string) (now : bool) | Edit (t : string) | FireD (r i : nat) (now : bool) | FireT (r i : nat)
    | Redraw | Receive | Elsewhere (e : event) | Process (q i : nat) | Change (st : St) | Render | Show (q : nat) (new : bool) (st : St) | Reconnect (n : nat) (st : St).

  Definition set_clos (f : nat -> nat -> closure) (r i : nat) (k : closure) : nat -> nat -> closure :=
    fun r' i' => if Nat.eqb r r' && Nat.eqb i i' then k else f r' i'.

  (** The handler sends the event with [outgoingSeq++], client vdom.tsx:250-251. *)
  Definition send (i : nat) (k : closure) (t : string) : closure * list event :=
    (Cl (k_place k) (k_out k + 1) (k_deb k) (k_thr k), [(k_place k, i, k_out k, t)]).
  (** The throttle wrapper: passed on if the interval is over, else held back in place of what was held back; client
      components.tsx:48-74 (the times are those of ClientTimers.v; here [now] says what they come to). *)
  Definition throttled (i : nat) (now : bool) (k : closure) (t : string) : closure * list event :=
    if o_throttle (kind i) && negb now then (Cl (k_place k) (k_out k) (k_deb k) (Some t), []) else send i k t.
  (** The debounce wrapper around it, client components.tsx:112-125, 334-342. *)
  Definition debounced (i : nat) (now : bool) (k : closure) (t : string) : closure * list event :=
    if o_debounce (kind i) then (Cl (k_place k) (k_out k) (Some t) (k_thr k), []) else throttled i now k t.

  (** The greatest number handled for a target of key path [q], -1 if there is none; layout.py:162-166, 447-466. The element has
      the same handlers at every render and other attributes beside (C31). Simplified: the number is recorded and the handler run
      at once (C32). *)
  Definition ack (q : nat) (l : list event) : Z :=
    fold_right (fun e m => let '(q', _, n, _) := e in if Nat.eqb q q' then Z.max n m else m) (-1) l.

  (** The first event of a target, and the others; a target's events are queued in order (C29). *)
  Fixpoint take (q i : nat) (l : list event) : option (event * list event) :=
    match l with
    | [] => None
    | ((q', i', n, t) as e) :: r => if Nat.eqb q q' && Nat.eqb i i' then Some (e, r)
                                    else match take q i r with Some (x, r') => Some (x, e :: r') | None => None end
    end.

  Definition with_clos (s : state) (r i : nat) (x : closure * list event) : state :=
    State (c_place s) (c_inst s) (c_next s) (c_last s) (c_text s) (c_deps s) (c_render s) (set_clos (c_clos s) r i (fst x)) (wire s ++ snd x)
      (updates s) (s_place s) (s_inst s) (s_state s) (s_done s) (s_fresh s) (c_events s).

  (** [UserInputElement]'s handler, client components.tsx:344-387: the counters, the number for the handler, then the wrappers. *)
  Definition user (s : state) (i : nat) (t : string) (now : bool) : state :=
    match c_deps s with
    | None => s
    | Some _ =>
        let k := c_clos s (c_render s) i in
        with_clos
          (State (c_place s) (c_inst s) (c_next s + 1) (Z.max (c_last s) (c_next s)) t (c_deps s) (c_render s) (c_clos s) (wire s)
             (updates s) (s_place s) (s_inst s) (s_state s) (s_done s) (s_fresh s) (c_events s ++ [(i, t)]))
          (c_render s) i (debounced i now (Cl (c_place s) (c_next s + 1) (k_deb k) (k_thr k)) t)
    end.

  (** The effect, client components.tsx:257-313: run if the value or the number acknowledged has changed; the text is written if the
      server is not behind and the value is a text. The [value] is no attribute of the element itself (402-410). *)
  Definition effect (deps : option (attr * Z)) (v : attr) (a last : Z) (text : string) : string :=
    if match deps with Some (v', a') => if attr_dec v v' then Z.eqb a a' else false | None => false end then text
    else if a <? last then text
    else match v with Text t => t | _ => text end.

  (** An update arrives: for a new element the browser starts anew; every render makes new handlers (client components.tsx:221). *)
  Definition receive (s : state) : state :=
    match updates s with
    | [] => s
    | u :: rest =>
        let new := negb (Nat.eqb (u_inst u) (c_inst s)) in
        let next := if new then 0 else c_next s in let last := if new then -1 else c_last s in
        let text := if new then EmptyString else c_text s in let deps := if new then None else c_deps s in
        State (u_place u) (u_inst u) next last (effect deps (u_value u) (u_ack u) last text) (Some (u_value u, u_ack u)) (S (c_render s)) (c_clos s)
          (wire s) rest (s_place s) (s_inst s) (s_state s) (s_done s) (s_fresh s) (if new then [] else c_events s)
    end.

  Definition step (s : state) (o : op) : state :=
    match o with
    | User i t now => user s i t now
    | Edit t => match c_deps s with
                | None => s
                | Some _ => State (c_place s) (c_inst s) (c_next s) (c_last s) t (c_deps s) (c_render s) (c_clos s) (wire s) (updates s)
                              (s_place s) (s_inst s) (s_state s) (s_done s) (s_fresh s) (c_events s)
                end
    (* client components.tsx:117-124. *)
    | FireD r i now => let k := c_clos s r i in
        match k_deb k with Some t => with_clos s r i (throttled i now (Cl (k_place k) (k_out k) None (k_thr k)) t) | None => s end
    (* client components.tsx:62-70. *)
    | FireT r i => let k := c_clos s r i in
        match k_thr k with Some t => with_clos s r i (send i (Cl (k_place k) (k_out k) (k_deb k) None) t) | None => s end
    | Redraw => State (c_place s) (c_inst s) (c_next s) (c_last s) (c_text s) (c_deps s) (S (c_render s)) (c_clos s) (wire s) (updates s)
                  (s_place s) (s_inst s) (s_state s) (s_done s) (s_fresh s) (c_events s)
    | Receive => receive s
    | Elsewhere e => State (c_place s) (c_inst s) (c_next s) (c_last s) (c_text s) (c_deps s) (c_render s) (c_clos s) (wire s ++ [e]) (updates s)
                       (s_place s) (s_inst s) (s_state s) (s_done s) (s_fresh s) (c_events s)
    (* layout.py:152-190: an event whose target is not shown any more is ignored, but its number is recorded. *)
    | Process q i =>
        match take q i (wire s) with
        | None => s
        | Some (e, r) => State (c_place s) (c_inst s) (c_next s) (c_last s) (c_text s) (c_deps s) (c_render s) (c_clos s) r (updates s)
                           (s_place s) (s_inst s) (if Nat.eqb q (s_place s) then handle i (snd e) (s_state s) else s_state s) (e :: s_done s) false (c_events s)
        end
    | Change st => State (c_place s) (c_inst s) (c_next s) (c_last s) (c_text s) (c_deps s) (c_render s) (c_clos s) (wire s) (updates s)
                     (s_place s) (s_inst s) st (s_done s) false (c_events s)
    | Render => State (c_place s) (c_inst s) (c_next s) (c_last s) (c_text s) (c_deps s) (c_render s) (c_clos s) (wire s)
                  (updates s ++ [Upd (view (s_state s)) (ack (s_place s) (s_done s)) (s_place s) (s_inst s) (s_done s)])
                  (s_place s) (s_inst s) (s_state s) (s_done s) true (c_events s)
    | Show q new st => State (c_place s) (c_inst s) (c_next s) (c_last s) (c_text s) (c_deps s) (c_render s) (c_clos s) (wire s) (updates s)
                         q (if new then S (s_inst s) else s_inst s) st (s_done s) false (c_events s)
    | Reconnect n st => State (c_place s) (c_inst s) (c_next s) (c_last s) (c_text s) (c_deps s) (c_render s) (c_clos s) (skipn n (wire s)) []
                          (s_place s) (s_inst s) st [] false (c_events s)
    end.

  (** The program is about to show the element, at key path [p]; events of other elements were handled or are on their way. *)
  Definition start (p : nat) (st : St) (w d : list event) : state :=
    State p 0 0 (-1) EmptyString None 0 (fun _ _ => no_closure) w [] p 0 st d false [].
  Definition run (s : state) (l : list op) : state := fold_left step l s.

  (** ** Specification *)
  Definition place_of (e : event) : nat := fst (fst (fst e)).
  (** The program goes on showing this element in this session, every change of the text is an event of some handler, and the
      events of other elements have other targets. *)
  Definition steady (p : nat) (o : op) : Prop :=
    match o with Edit _ | Show _ _ _ | Reconnect _ _ => False | Elsewhere e => place_of e <> p | _ => True end.
  (** The throttle timers run in time: when the interval is over nothing is held back any more. *)
  Fixpoint timely (s : state) (l : list op) : Prop :=
    match l with
    | [] => True
    | o :: r => match o with
                | User i _ true => k_thr (c_clos s (c_render s) i) = None
                | FireD q i true => k_thr (c_clos s q i) = None
                | _ => True
                end /\ timely (step s o) r
    end.
  (** No handler is both debounced and throttled. *)
  Definition simple : Prop := forall i, o_debounce (kind i) = false \/ o_throttle (kind i) = false.
  (** Nothing of this element is held back or on its way, and the server has rendered since anything changed. *)
  Definition quiet (p : nat) (s : state) : Prop :=
    (forall r i, k_deb (c_clos s r i) = None /\ k_thr (c_clos s r i) = None) /\ (forall e, In e (wire s) -> place_of e <> p) /\ updates s = [] /\ s_fresh s = true.

  (** ** Proof *)
  (** [n] is the number of the event [(i, t)] of the user. *)
  Definition numbered (ev : list (nat * string)) (n : Z) (i : nat) (t : string) : Prop := 1 <= n /\ nth_error ev (Z.to_nat (n - 1)) = Some (i, t).
  Lemma numbered_app ev x n i t : numbered ev n i t -> numbered (ev ++ x) n i t.
  Proof. intros [H E]. split; [exact H|]. rewrite nth_error_app1; [exact E|]. apply nth_error_Some. congruence. Qed.
  Lemma numbered_last ev i t : numbered (ev ++ [(i, t)]) (Z.of_nat (length ev) + 1) i t.
  Proof.
    split; [lia|]. replace (Z.to_nat (Z.of_nat (length ev) + 1 - 1)) with (length ev) by lia.
    rewrite nth_error_app2 by lia. now rewrite Nat.sub_diag.
  Qed.
  Lemma numbered_le ev n i t : numbered ev n i t -> 1 <= n <= Z.of_nat (length ev).
  Proof. intros [H E]. assert (Z.to_nat (n - 1) < length ev)%nat by (apply nth_error_Some; congruence). lia. Qed.

  Lemma ack_ge q l : -1 <= ack q l.
  Proof. induction l as [|[[[q' i] n] t] l IH]; cbn [ack fold_right]; [lia|]. fold (ack q l). destruct (Nat.eqb q q'); lia. Qed.
  Lemma ack_cons q e l : ack q (e :: l) = if Nat.eqb q (place_of e) then Z.max (snd (fst e)) (ack q l) else ack q l.
  Proof. now destruct e as [[[q' i] n] t]. Qed.
  Lemma ack_in q i n t l : In (q, i, n, t) l -> n <= ack q l.
  Proof.
    induction l as [|e l IH]; [easy|]. rewrite ack_cons. intros [->|H].
    - cbn. rewrite Nat.eqb_refl. lia.
    - specialize (IH H). destruct (Nat.eqb q (place_of e)); lia.
  Qed.
  Lemma ack_exists q l : ack q l = -1 \/ exists i t, In (q, i, ack q l, t) l.
  Proof.
    induction l as [|e l IH]; [now left|]. rewrite ack_cons. destruct (Nat.eqb_spec q (place_of e)) as [E|E].
    - destruct (Z.max_spec (snd (fst e)) (ack q l)) as [[_ ->]|[_ ->]].
      + destruct IH as [->|(i & t & H)]; [now left|]. right. exists i, t. now right.
      + right. destruct e as [[[q' i] n] t]. cbn in *. subst. exists i, t. now left.
    - destruct IH as [->|(i & t & H)]; [now left|]. right. exists i, t. now right.
  Qed.
  Lemma take_spec q i l e r : take q i l = Some (e, r) ->
    place_of e = q /\ snd (fst (fst e)) = i /\ In e l /\ (forall x, In x r -> In x l) /\ (forall x, In x l -> x = e \/ In x r).
  Proof.
    revert e r. induction l as [|[[[q' i'] n] t] l IH]; intros e r; cbn; [easy|].
    destruct (Nat.eqb_spec q q') as [->|Hq]; [destruct (Nat.eqb_spec i i') as [->|Hi]|]; cbn.
    - intros [= <- <-]. cbn. intuition auto.
    - destruct (take q' i l) as [[x r']|]; [|easy]. intros [= <- <-]. destruct (IH x r' eq_refl) as (A & B & C & D & E).
      split; [exact A|]. split; [exact B|]. split; [now right|]. split; intros y [Hy|Hy]; cbn; auto.
      destruct (E y Hy); auto.
    - destruct (take q i l) as [[x r']|]; [|easy]. intros [= <- <-]. destruct (IH x r' eq_refl) as (A & B & C & D & E).
      split; [exact A|]. split; [exact B|]. split; [now right|]. split; intros y [Hy|Hy]; cbn; auto.
      destruct (E y Hy); auto.
  Qed.

  Record inv (p : nat) (s : state) : Prop := {
    i_places : c_place s = p /\ s_place s = p /\ c_inst s = s_inst s;
    i_next : c_next s = Z.of_nat (length (c_events s));
    i_last : c_last s = c_next s - 1;
    i_kind : forall r i, (o_debounce (kind i) = false -> k_deb (c_clos s r i) = None) /\ (o_throttle (kind i) = false -> k_thr (c_clos s r i) = None);
    i_clos : forall r i t, k_deb (c_clos s r i) = Some t \/ k_thr (c_clos s r i) = Some t -> k_place (c_clos s r i) = p /\ numbered (c_events s) (k_out (c_clos s r i)) i t;
    i_wire : forall i n t, In (p, i, n, t) (wire s) -> numbered (c_events s) n i t;
    i_done : forall i n t, In (p, i, n, t) (s_done s) -> numbered (c_events s) n i t;
    i_recent : c_next s = 0 \/ (exists r i, (k_deb (c_clos s r i) <> None \/ k_thr (c_clos s r i) <> None) /\ k_out (c_clos s r i) = c_next s)
               \/ (exists i t, In (p, i, c_next s, t) (wire s)) \/ ack p (s_done s) = c_next s;
    i_upd : forall u, In u (updates s) -> u_place u = p /\ u_inst u = c_inst s /\ u_ack u = ack p (u_done u) /\ (forall e, In e (u_done u) -> In e (s_done s));
    i_fresh : s_fresh s = true -> match rev (updates s) with u :: _ => u_value u = view (s_state s) /\ u_ack u = ack p (s_done s)
                                  | [] => c_deps s = Some (view (s_state s), ack p (s_done s)) end;
    i_deps : match c_deps s with None => c_next s = 0 | Some (v, a) => -1 <= a <= c_next s /\ (c_next s = 0 \/ c_next s <= a -> forall t, v = Text t -> c_text s = t) end
  }.

  Lemma ack_le s p : (forall i n t, In (p, i, n, t) (s_done s) -> numbered (c_events s) n i t) -> c_next s = Z.of_nat (length (c_events s)) ->
    forall d, (forall e, In e d -> In e (s_done s)) -> ack p d <= c_next s.
  Proof.
    intros Hd Hn d Hs. destruct (ack_exists p d) as [->|(i & t & H)]; [lia|]. apply Hs, Hd, numbered_le in H. lia.
  Qed.

  Lemma start_inv p st w d : (forall e, In e (w ++ d) -> place_of e <> p) -> inv p (start p st w d).
  Proof.
    intros H. assert (Hw : forall i n t, ~ In (p, i, n, t) w) by (intros i n t Hi; apply (H (p, i, n, t)); [apply in_or_app; auto|reflexivity]).
    assert (Hd : forall i n t, ~ In (p, i, n, t) d) by (intros i n t Hi; apply (H (p, i, n, t)); [apply in_or_app; auto|reflexivity]).
    constructor; cbn; auto.
    - intros r i t [E|E]; discriminate.
    - intros i n t Hi. now apply Hw in Hi.
    - intros i n t Hi. now apply Hd in Hi.
    - intros u [].
    - intros E; discriminate.
  Qed.

  Hypothesis Hsimple : simple.

  (** What the wrappers do with an event that has the closure's number: hold it back or send it. *)
  Definition passed (p : nat) (i : nat) (t : string) (n : Z) (x : closure * list event) : Prop :=
    (snd x = [] /\ k_place (fst x) = p /\ k_out (fst x) = n /\ (k_deb (fst x) = Some t /\ k_thr (fst x) = None \/ k_deb (fst x) = None /\ k_thr (fst x) = Some t)) \/
    (snd x = [(p, i, n, t)] /\ k_deb (fst x) = None /\ k_thr (fst x) = None).
  Lemma throttled_passed i now k t : k_deb k = None -> (o_throttle (kind i) = false -> k_thr k = None) -> (now = true -> k_thr k = None) ->
    passed (k_place k) i t (k_out k) (throttled i now k t) /\ (o_throttle (kind i) = false -> k_thr (fst (throttled i now k t)) = None).
  Proof.
    intros Hd Hk Hn. unfold throttled, passed. destruct (o_throttle (kind i)) eqn:Ek; cbn [andb].
    - destruct now; cbn [negb send fst snd k_place k_out k_deb k_thr].
      + split; [right|discriminate]. auto.
      + split; [left|discriminate]. auto 10.
    - cbn [send fst snd k_place k_out k_deb k_thr]. split; [right|]; auto.
  Qed.
  Lemma debounced_passed i now k t : (o_debounce (kind i) = false -> k_deb k = None) -> (o_throttle (kind i) = false -> k_thr k = None) -> (now = true -> k_thr k = None) ->
    passed (k_place k) i t (k_out k) (debounced i now k t) /\ (o_debounce (kind i) = false -> k_deb (fst (debounced i now k t)) = None)
    /\ (o_throttle (kind i) = false -> k_thr (fst (debounced i now k t)) = None).
  Proof.
    intros Hd Hk Hn. unfold debounced. destruct (o_debounce (kind i)) eqn:Ek.
    - assert (Ht : k_thr k = None) by (destruct (Hsimple i) as [H|H]; [congruence|auto]).
      cbn. unfold passed; cbn. split; [left; auto 10|]. split; [discriminate|auto].
    - destruct (throttled_passed i now k t (Hd eq_refl) Hk Hn) as [A B]. split; [exact A|]. split; [|exact B].
      intros _. destruct A as [(_ & _ & _ & [[A _]|[A _]])|(_ & A & _)]; try exact A.
      exfalso. unfold throttled in A. destruct (o_throttle (kind i) && negb now); cbn in A; rewrite (Hd eq_refl) in A; discriminate.
  Qed.

  Lemma set_clos_same f r i k : set_clos f r i k r i = k.
  Proof. unfold set_clos. now rewrite !Nat.eqb_refl. Qed.
  Lemma set_clos_cases f r i k r' i' : (r' = r /\ i' = i /\ set_clos f r i k r' i' = k) \/ ((r' <> r \/ i' <> i) /\ set_clos f r i k r' i' = f r' i').
  Proof. unfold set_clos. destruct (Nat.eqb_spec r r'), (Nat.eqb_spec i i'); subst; cbn; auto. Qed.

  (** One wrapper passes on an event: everything else is as before. [s0] is the state before. *)
  Lemma with_clos_inv p s0 s r i t n x : inv p s0 ->
    (* the state with the new event, if there is one *)
    c_place s = c_place s0 -> c_inst s = c_inst s0 -> c_deps s = c_deps s0 -> c_clos s = c_clos s0 -> wire s = wire s0 -> updates s = updates s0 ->
    s_place s = s_place s0 -> s_inst s = s_inst s0 -> s_state s = s_state s0 -> s_done s = s_done s0 -> s_fresh s = s_fresh s0 ->
    (exists more, c_events s = c_events s0 ++ more) -> c_next s = Z.of_nat (length (c_events s)) -> c_last s = c_next s - 1 ->
    (c_next s = c_next s0 /\ c_text s = c_text s0 /\ n = k_out (c_clos s0 r i) \/ c_next s = c_next s0 + 1 /\ c_deps s0 <> None /\ n = c_next s) ->
    numbered (c_events s) n i t -> passed p i t n x ->
    (o_debounce (kind i) = false -> k_deb (fst x) = None) -> (o_throttle (kind i) = false -> k_thr (fst x) = None) ->
    inv p (with_clos s r i x).
  Proof.
    intros I E1 E2 E3 E4 E5 E6 E7 E8 E9 E10 E11 [more Em] Hn Hl Hcase Hnum Hp Hkd Hkt.
    destruct I as [I1 I2 I3 I4 I5 I6 I7 I8 I9 I10 I11].
    assert (Mono : forall m j u, numbered (c_events s0) m j u -> numbered (c_events s) m j u) by (intros m j u H; rewrite Em; now apply numbered_app).
    constructor; unfold with_clos; cbn [c_place c_inst c_next c_last c_text c_deps c_render c_clos wire updates s_place s_inst s_state s_done s_fresh c_events].
    - now rewrite E1, E2, E7, E8.
    - exact Hn.
    - exact Hl.
    - intros r' i'. rewrite E4. destruct (set_clos_cases (c_clos s0) r i (fst x) r' i') as [(-> & -> & ->)|[_ ->]]; auto.
    - intros r' i' t'. rewrite E4. destruct (set_clos_cases (c_clos s0) r i (fst x) r' i') as [(-> & -> & ->)|[_ ->]].
      + intros Ht. destruct Hp as [(_ & A & B & C)|(_ & A & B)].
        * rewrite A, B. split; [reflexivity|]. destruct C as [[C D]|[C D]]; rewrite C, D in Ht; destruct Ht as [Ht|Ht]; try discriminate; injection Ht as <-; exact Hnum.
        * rewrite A, B in Ht. destruct Ht; discriminate.
      + intros Ht. destruct (I5 _ _ _ Ht). auto.
    - intros j m u. rewrite E5. intros H. apply in_app_or in H as [H|H]; [auto|].
      destruct Hp as [(A & _)|(A & _)]; rewrite A in H; [easy|]. destruct H as [[= <- <- <-]|[]]. exact Hnum.
    - rewrite E10. auto.
    - rewrite E5, E10, E4. destruct Hcase as [(C1 & C2 & C3)|(C1 & C2 & C3)].
      + destruct I8 as [H|[(r' & i' & H & H')|[(j & u & H)|H]]].
        * left. congruence.
        * destruct (set_clos_cases (c_clos s0) r i (fst x) r' i') as [(-> & -> & E)|[Ne E]].
          -- right. destruct Hp as [(A & B & C & D)|(A & B & C)].
             ++ left. exists r, i. rewrite E. split; [destruct D as [[D _]|[_ D]]; rewrite D; [left|right]; discriminate|]. congruence.
             ++ right. left. exists i, t. rewrite A, C1, <- H', <- C3. apply in_or_app. right. now left.
          -- right. left. exists r', i'. rewrite E, C1. auto.
        * right. right. left. exists j, u. rewrite C1. apply in_or_app. auto.
        * right. right. right. congruence.
      + right. destruct Hp as [(A & B & C & D)|(A & B & C)].
        * left. exists r, i. rewrite set_clos_same. split; [destruct D as [[D _]|[_ D]]; rewrite D; [left|right]; discriminate|]. congruence.
        * right. left. exists i, t. rewrite A, <- C3. apply in_or_app. right. now left.
    - rewrite E6, E2, E10. exact I9.
    - rewrite E11, E6, E3, E9, E10. exact I10.
    - rewrite E3. destruct (c_deps s0) as [[v a]|].
      + destruct I11 as [A B]. destruct Hcase as [(C1 & C2 & C3)|(C1 & C2 & C3)].
        * rewrite C1, C2. auto.
        * split; [lia|]. intros H. exfalso. lia.
      + destruct Hcase as [(C1 & C2 & C3)|(C1 & C2 & C3)]; congruence.
  Qed.

  Lemma step_inv p s o : inv p s -> steady p o -> timely s [o] -> inv p (step s o).
  Proof.
    intros I Ho [Ht _]. destruct o as [i t now|t|r i now|r i| | |e|q i|st| |q new st|n st]; cbn [step]; cbn [steady] in Ho; try easy.
    - (* User *)
      unfold user. destruct (c_deps s) as [[v a]|] eqn:Ed; [|exact I].
      set (k := Cl (c_place s) (c_next s + 1) (k_deb (c_clos s (c_render s) i)) (k_thr (c_clos s (c_render s) i))).
      destruct (i_kind p s I (c_render s) i) as [K1 K2].
      destruct (debounced_passed i now k t K1 K2) as (A & B & C); [intros ->; exact Ht|].
      eapply (with_clos_inv p s _ (c_render s) i t (c_next s + 1)); [exact I| | | | | | | | | | | | | | | | | | |]; cbn; try reflexivity.
      + symmetry; exact Ed.
      + eauto.
      + rewrite app_length, Nat2Z.inj_add, <- (i_next p s I). reflexivity.
      + rewrite (i_last p s I). lia.
      + right. rewrite Ed. split; [reflexivity|]. split; [discriminate|reflexivity].
      + rewrite (i_next p s I). apply numbered_last.
      + destruct (i_places p s I) as [<- _]. exact A.
      + exact B.
      + exact C.
    - (* FireD *)
      destruct (k_deb (c_clos s r i)) as [t|] eqn:Ek; [|exact I].
      destruct (i_clos p s I r i t (or_introl Ek)) as [P N]. destruct (i_kind p s I r i) as [K1 K2].
      set (k := Cl (k_place (c_clos s r i)) (k_out (c_clos s r i)) None (k_thr (c_clos s r i))).
      destruct (throttled_passed i now k t eq_refl K2) as (A & B); [intros ->; exact Ht|].
      assert (D : o_debounce (kind i) = true) by (destruct (o_debounce (kind i)); [reflexivity|rewrite K1 in Ek; congruence]).
      eapply (with_clos_inv p s s r i t (k_out (c_clos s r i))); try reflexivity.
      + exact I.
      + exists []. now rewrite app_nil_r.
      + exact (i_next p s I).
      + exact (i_last p s I).
      + left; auto.
      + exact N.
      + rewrite <- P. exact A.
      + congruence.
      + exact B.
    - (* FireT *)
      destruct (k_thr (c_clos s r i)) as [t|] eqn:Ek; [|exact I].
      destruct (i_clos p s I r i t (or_intror Ek)) as [P N]. destruct (i_kind p s I r i) as [K1 K2].
      assert (D : k_deb (c_clos s r i) = None).
      { apply K1. destruct (Hsimple i) as [H|H]; [exact H|]. rewrite K2 in Ek; congruence. }
      eapply (with_clos_inv p s s r i t (k_out (c_clos s r i))); try reflexivity.
      + exact I.
      + exists []. now rewrite app_nil_r.
      + exact (i_next p s I).
      + exact (i_last p s I).
      + left; auto.
      + exact N.
      + right. cbn. rewrite P. auto.
      + cbn. intros _. exact D.
    - (* Redraw *)
      destruct I; constructor; cbn; auto.
    - (* Receive *)
      unfold receive. destruct (updates s) as [|u rest] eqn:Eu; [exact I|].
      destruct (i_upd p s I u) as (U1 & U2 & U3 & U4); [rewrite Eu; now left|].
      rewrite U2, Nat.eqb_refl. cbn [negb].
      assert (Ha : -1 <= u_ack u <= c_next s).
      { rewrite U3. split; [apply ack_ge|]. apply (ack_le s p (i_done p s I) (i_next p s I)). exact U4. }
      destruct I as [I1 I2 I3 I4 I5 I6 I7 I8 I9 I10 I11].
      constructor; cbn [c_place c_inst c_next c_last c_text c_deps c_render c_clos wire updates s_place s_inst s_state s_done s_fresh c_events]; auto.
      + destruct I1 as (A & B & C). auto.
      + intros u' Hu'. apply I9. rewrite Eu. now right.
      + intros F. specialize (I10 F). rewrite Eu in I10. cbn in I10. destruct (rev rest) as [|u' l] eqn:Er.
        * cbn in I10. destruct I10 as [-> ->]. reflexivity.
        * exact I10.
      + split; [exact Ha|]. intros Hc t Hw. unfold effect.
        destruct (c_deps s) as [[v a]|].
        * destruct (attr_dec (u_value u) v) as [Ev|Ev]; [destruct (Z.eqb_spec (u_ack u) a) as [Ea|Ea]|].
          -- destruct I11 as [_ B]. apply B; congruence.
          -- destruct (Z.ltb_spec (u_ack u) (c_last s)); [exfalso; lia|]. now rewrite Hw.
          -- destruct (Z.ltb_spec (u_ack u) (c_last s)); [exfalso; lia|]. now rewrite Hw.
        * destruct (Z.ltb_spec (u_ack u) (c_last s)); [exfalso; lia|]. now rewrite Hw.
    - (* Elsewhere *)
      destruct I; constructor; cbn; auto.
      + intros i n t H. apply in_app_or in H as [H|[H|[]]]; [auto|]. subst e. now elim Ho.
      + destruct i_recent0 as [H|[H|[(i & t & H)|H]]]; auto. right. right. left. exists i, t. apply in_or_app. auto.
    - (* Process *)
      destruct (take q i (wire s)) as [[e r]|] eqn:Et; [|exact I].
      apply take_spec in Et as (T1 & T2 & T3 & T4 & T5).
      pose proof (ack_le s p (i_done p s I) (i_next p s I) (s_done s) (fun e H => H)) as Hle.
      destruct I as [I1 I2 I3 I4 I5 I6 I7 I8 I9 I10 I11].
      constructor; cbn [c_place c_inst c_next c_last c_text c_deps c_render c_clos wire updates s_place s_inst s_state s_done s_fresh c_events]; auto.
      + intros j m u [->|H]; [apply I6; exact T3|auto].
      + destruct I8 as [H|[H|[(j & u & H)|H]]]; auto.
        * destruct (T5 _ H) as [E|E]; [|right; right; left; exists j, u; exact E].
          right. right. right. rewrite ack_cons, <- E. cbn. rewrite Nat.eqb_refl. lia.
        * right. right. right. rewrite ack_cons. destruct (Nat.eqb_spec p (place_of e)) as [E|E]; [|exact H].
          assert (snd (fst e) <= c_next s); [|lia]. destruct e as [[[q' j] m] u]. cbn in *. subst q'. subst p.
          specialize (I6 _ _ _ T3). apply numbered_le in I6. lia.
      + intros u Hu. destruct (I9 u Hu) as (A & B & C & D). repeat (split; [assumption|]). intros x Hx. right. auto.
      + discriminate.
    - (* Change *)
      destruct I; constructor; cbn; auto. discriminate.
    - (* Render *)
      destruct I as [I1 I2 I3 I4 I5 I6 I7 I8 I9 I10 I11].
      constructor; cbn [c_place c_inst c_next c_last c_text c_deps c_render c_clos wire updates s_place s_inst s_state s_done s_fresh c_events]; auto.
      + destruct I1 as (A & B & C). intros u Hu. apply in_app_or in Hu as [Hu|[<-|[]]]; [auto|]. cbn. rewrite B. auto.
      + intros _. rewrite rev_app_distr. cbn. destruct I1 as (_ & -> & _). auto.
  Qed.

  Lemma run_inv p l : forall s, inv p s -> Forall (steady p) l -> timely s l -> inv p (run s l).
  Proof.
    induction l as [|o l IH]; intros s I F T; [exact I|]. inversion F as [|? ? Ho Hl]; subst. destruct T as [T1 T2].
    cbn. apply IH; [|exact Hl|exact T2]. apply step_inv; auto. now split.
  Qed.

  (** Once nothing is held back or on its way and the server has rendered what it has handled, the input shows the text that the
      program says. *)
  Theorem C112_shows p st w d l t : (forall e, In e (w ++ d) -> place_of e <> p) -> Forall (steady p) l -> timely (start p st w d) l ->
    let s := run (start p st w d) l in
    quiet p s -> view (s_state s) = Text t -> c_text s = t.
  Proof.
    intros Hwd F T s (Q1 & Q2 & Q3 & Q4) Hv.
    assert (I : inv p s) by (apply run_inv; auto; apply start_inv; exact Hwd).
    pose proof (i_fresh p s I Q4) as Hf. rewrite Q3 in Hf. cbn in Hf.
    pose proof (i_deps p s I) as Hd. rewrite Hf in Hd. destruct Hd as [_ Hd]. apply Hd; [|exact Hv].
    destruct (i_recent p s I) as [H|[(r & i & [H|H] & _)|[(i & u & H)|H]]].
    - now left.
    - destruct (Q1 r i) as [E _]. contradiction.
    - destruct (Q1 r i) as [_ E]. contradiction.
    - exfalso. apply (Q2 _ H). reflexivity.
    - right. lia.
  Qed.

  (** An update changes the text only if the server had handled the user's last event or the one before it when the update was
      made. *)
  Theorem C112_written_partial p st w d l u rest : (forall e, In e (w ++ d) -> place_of e <> p) -> Forall (steady p) l -> timely (start p st w d) l ->
    let s := run (start p st w d) l in
    updates s = u :: rest -> c_text (step s Receive) <> c_text s ->
    (length (c_events s) <= 1)%nat \/
    exists older i t newer, c_events s = older ++ (i, t) :: newer /\ (length newer <= 1)%nat /\ exists n, In (p, i, n, t) (u_done u).
  Proof.
    intros Hwd F T s Hu Hx.
    assert (I : inv p s) by (apply run_inv; auto; apply start_inv; exact Hwd).
    destruct (i_upd p s I u) as (U1 & U2 & U3 & U4); [rewrite Hu; now left|].
    cbn [step] in Hx. unfold receive in Hx. rewrite Hu, U2, Nat.eqb_refl in Hx. cbn [negb c_text] in Hx. unfold effect in Hx.
    assert (Ha : c_last s <= u_ack u).
    { destruct (match c_deps s with Some (v', a') => if attr_dec (u_value u) v' then u_ack u =? a' else false | None => false end); [now elim Hx|].
      destruct (Z.ltb_spec (u_ack u) (c_last s)); [now elim Hx|lia]. }
    rewrite (i_last p s I), (i_next p s I) in Ha.
    destruct (le_lt_dec (length (c_events s)) 1) as [L|L]; [now left|]. right.
    destruct (ack_exists p (u_done u)) as [E|(i & t & H)]; [rewrite U3, E in Ha; lia|].
    rewrite U3 in Ha. pose proof (i_done p s I _ _ _ (U4 _ H)) as N. pose proof (numbered_le _ _ _ _ N) as L2. destruct N as [_ N].
    apply nth_error_split in N as (older & newer & E & El). exists older, i, t, newer. split; [exact E|].
    split; [|eauto]. apply (f_equal (@length _)) in E. rewrite app_length in E. cbn in E. lia.
  Qed.
End Input.

Section Texts.
  Context {St : Type} (view : St -> attr) (handle : nat -> string -> St -> St) (kind : nat -> opts).
  Notation state := (@state St). Notation op := (@op St).
  Notation step := (step view handle kind). Notation run := (run view handle kind).

  (** Where the text may come from: what the user entered and the values rendered. *)
  Definition entered (o : op) (t : string) : Prop := match o with User _ t' _ | Edit t' => t' = t | _ => False end.

  Lemma text_with_clos s r i x : c_text (@with_clos St s r i x) = c_text s /\ updates (@with_clos St s r i x) = updates s /\ c_deps (@with_clos St s r i x) = c_deps s
    /\ c_inst (@with_clos St s r i x) = c_inst s /\ s_inst (@with_clos St s r i x) = s_inst s.
  Proof. now cbn. Qed.
  Lemma effect_text deps v a last text : effect deps v a last text = text \/ v = Text (effect deps v a last text).
  Proof.
    unfold effect. destruct (match deps with Some _ => _ | None => _ end); [now left|]. destruct (a <? last); [now left|]. destruct v; auto.
  Qed.

  (** In every history, with lost connections, other elements, late timers: the input is empty or shows a text that the user
      entered or that was the value in an update; never anything else. *)
  Theorem C112_origin p st w d l : let s := run (start p st w d) l in
    c_text s = EmptyString \/ (exists o, In o l /\ entered o (c_text s)) \/
    exists before after, l = before ++ Render :: after /\ view (s_state (run (start p st w d) before)) = Text (c_text s).
  Proof.
    cbv zeta. set (s0 := start p st w d).
    assert (G : forall l,
      (forall u, In u (updates (run s0 l)) -> exists before after, l = before ++ Render :: after /\ view (s_state (run s0 before)) = u_value u) /\
      (c_text (run s0 l) = EmptyString \/ (exists o, In o l /\ entered o (c_text (run s0 l))) \/
       exists before after, l = before ++ Render :: after /\ view (s_state (run s0 before)) = Text (c_text (run s0 l)))); [|apply G].
    clear l. intros l. induction l as [|o l [IU IT]] using rev_ind; [split; [intros u []|now left]|].
    unfold InputElement.run in *. rewrite fold_left_app. cbn [fold_left]. set (s := fold_left step l s0) in *.
    assert (Keep : forall v, (exists before after, l = before ++ Render :: after /\ view (s_state (fold_left step before s0)) = v) ->
                             exists before after, l ++ [o] = before ++ Render :: after /\ view (s_state (fold_left step before s0)) = v).
    { intros v (b & a & E & H). exists b, (a ++ [o]). split; [|exact H]. rewrite E, <- app_assoc. reflexivity. }
    assert (Same : forall s' : state, c_text s' = c_text s -> c_text s' = EmptyString \/ (exists o', In o' (l ++ [o]) /\ entered o' (c_text s')) \/
              exists before after, l ++ [o] = before ++ Render :: after /\ view (s_state (fold_left step before s0)) = Text (c_text s')).
    { intros s' ->. destruct IT as [H|[(o' & H & E)|H]]; [now left| |].
      - right. left. exists o'. split; [apply in_or_app; now left|exact E].
      - right. right. apply Keep, H. }
    assert (New : forall t, entered o t -> exists o', In o' (l ++ [o]) /\ entered o' t).
    { intros t H. exists o. split; [apply in_or_app; right; now left|exact H]. }
    destruct o as [i t now|t|r i now|r i| | |e|q i|st'| |q new st'|n st']; cbn [InputElement.step].
    - unfold user. destruct (c_deps s); [|split; [intros u Hu; apply Keep, IU, Hu|apply Same; reflexivity]].
      split; [intros u Hu; apply Keep, IU, Hu|]. cbn. right. left. apply New. reflexivity.
    - destruct (c_deps s); [|split; [intros u Hu; apply Keep, IU, Hu|apply Same; reflexivity]].
      split; [intros u Hu; apply Keep, IU, Hu|]. cbn. right. left. apply New. reflexivity.
    - destruct (k_deb (c_clos s r i)); (split; [intros u Hu; apply Keep, IU, Hu|apply Same; reflexivity]).
    - destruct (k_thr (c_clos s r i)); (split; [intros u Hu; apply Keep, IU, Hu|apply Same; reflexivity]).
    - split; [intros u Hu; apply Keep, IU, Hu|apply Same; reflexivity].
    - unfold receive. destruct (updates s) as [|u rest] eqn:Eu; [split; [intros u Hu; rewrite Eu in Hu; destruct Hu|apply Same; reflexivity]|].
      split; [intros u' Hu'; apply Keep, IU; now right|]. cbn [c_text].
      match goal with |- effect ?d ?v ?a ?la ?te = _ \/ _ => destruct (effect_text d v a la te) as [E|E] end.
      + rewrite E. destruct (negb (Nat.eqb (u_inst u) (c_inst s))); [now left|]. apply (Same s). reflexivity.
      + right. right. rewrite <- E. apply Keep, IU. now left.
    - split; [intros u Hu; apply Keep, IU, Hu|apply Same; reflexivity].
    - destruct (take q i (wire s)) as [[e r]|]; (split; [intros u Hu; apply Keep, IU, Hu|apply Same; reflexivity]).
    - split; [intros u Hu; apply Keep, IU, Hu|apply Same; reflexivity].
    - split; [|apply Same; reflexivity]. cbn. intros u Hu. apply in_app_or in Hu as [Hu|[<-|[]]]; [apply Keep, IU, Hu|].
      exists l, []. now split.
    - split; [intros u Hu; apply Keep, IU, Hu|apply Same; reflexivity].
    - split; [intros u []|apply Same; reflexivity].
  Qed.

  (** Specification: what the user entered last. *)
  Definition latest (l : list op) (t : string) : string := fold_left (fun t o => match o with User _ t' _ | Edit t' => t' | _ => t end) l t.

  Definition free (s : state) : Prop :=
    c_deps s <> None /\ (forall u, In u (updates s) -> u_inst u = c_inst s /\ forall t, u_value u <> Text t) /\ s_inst s = c_inst s.
  Lemma free_step s o : (forall x t, view x <> Text t) -> free s -> (forall q st, o <> Show q true st) ->
    free (step s o) /\ c_text (step s o) = latest [o] (c_text s).
  Proof.
    intros Hv (F1 & F2 & F3) Ho. unfold free, latest. cbn [fold_left].
    assert (K : free s) by (repeat (split; [assumption|]); exact F3). unfold free in K.
    destruct o as [i t now|t|r i now|r i| | |e|q i|st'| |q new st'|n st']; cbn [InputElement.step].
    - unfold user. destruct (c_deps s) eqn:Ed; [|congruence]. cbn. split; [|reflexivity]. split; [congruence|now split].
    - destruct (c_deps s) eqn:Ed; [|congruence]. cbn. split; [|reflexivity]. split; [congruence|now split].
    - destruct (k_deb (c_clos s r i)); cbn; now split.
    - destruct (k_thr (c_clos s r i)); cbn; now split.
    - cbn. now split.
    - unfold receive. destruct (updates s) as [|u rest] eqn:Eu; [rewrite Eu; now split|].
      destruct (F2 u (or_introl eq_refl)) as [A B]. rewrite A, Nat.eqb_refl. cbn. split.
      + split; [discriminate|]. split; [|exact F3]. intros u' Hu'. apply F2. now right.
      + destruct (effect_text (c_deps s) (u_value u) (u_ack u) (c_last s) (c_text s)) as [E|E]; [exact E|]. now elim (B _ E).
    - cbn. now split.
    - destruct (take q i (wire s)) as [[e r]|]; cbn; now split.
    - cbn. now split.
    - cbn. split; [|reflexivity]. split; [exact F1|]. split; [|exact F3].
      intros u Hu. apply in_app_or in Hu as [Hu|[<-|[]]]; [now apply F2|]. cbn. split; [exact F3|apply Hv].
    - destruct new; [now elim (Ho q st')|]. cbn. now split.
    - cbn. split; [|reflexivity]. split; [exact F1|]. split; [intros u []|exact F3].
  Qed.

  (** An input whose value is never a text (there is none, or it is a number) keeps the text that the user entered last, in every
      history; only another element of the browser starts anew. *)
  Theorem C112_free s l : (forall x t, view x <> Text t) ->
    c_deps s <> None -> (forall u, In u (updates s) -> u_inst u = c_inst s /\ forall t, u_value u <> Text t) -> s_inst s = c_inst s ->
    (forall q st, ~ In (Show q true st) l) ->
    c_text (run s l) = latest l (c_text s).
  Proof.
    intros Hv F1 F2 F3 Hs. assert (F : free s) by (repeat (split; [assumption|]); exact F3). clear F1 F2 F3.
    revert s F. induction l as [|o l IH]; intros s F; [reflexivity|].
    destruct (free_step s o Hv F) as [F' E]; [intros q st ->; apply (Hs q st); now left|].
    unfold InputElement.run, latest in *. cbn [fold_left] in *. rewrite <- E. apply IH; [|exact F'].
    intros q st H. apply (Hs q st). now right.
  Qed.
End Texts.

(** ** A program: a text field whose value is the state, which every handler sets (handlers 0 and 1: change and key press), and
    the programs of the findings *)
Definition immediate : nat -> opts := fun _ => Opts false false.
Definition setter : nat -> string -> string -> string := fun _ t _ => t.
Definition changes : nat -> string -> string -> string := fun i t st => match i with 0%nat => t | _ => st end.
Definition trace (kind : nat -> opts) (h : nat -> string -> string -> string) (l : list op) : state :=
  run Text h kind (start 1 ""%string [] []) l.
Definition deliver : list (@op string) := [Render; Receive].
Local Open Scope string_scope. Local Open Scope list_scope.

Example C112_example :
  let kind := fun i => match i with 0%nat => Opts true false | _ => Opts false true end in
  let l := deliver ++ [User 0 "a" false; User 0 "ab" false; Redraw; User 1 "ab" true; User 0 "abc" false; FireD 1 0 false; User 1 "abc" false; FireT 2 1; FireD 2 0 false; Process 1 0; Process 1 1]
           ++ deliver ++ [Process 1 1; Process 1 0; Elsewhere (2%nat, 0%nat, 9%Z, "z")] ++ deliver in
  simple kind /\ Forall (steady 1) l /\ timely Text changes kind (start 1 "" [] []) l /\
  (forall r i, k_deb (c_clos (trace kind changes l) r i) = None /\ k_thr (c_clos (trace kind changes l) r i) = None) /\
  map place_of (wire (trace kind changes l)) = [2%nat] /\ updates (trace kind changes l) = [] /\ s_fresh (trace kind changes l) = true /\ c_text (trace kind changes l) = "abc".
Proof.
  cbv zeta. split; [intros [|i]; cbn; auto|]. split; [|split; [|split]].
  - repeat constructor; cbn; auto; discriminate.
  - vm_compute. tauto.
  - intros r i. vm_compute. destruct r as [|[|[|[|[|r]]]]]; destruct i as [|[|i]]; cbn; auto.
  - vm_compute. auto.
Qed.

(** Findings. The text that the page shows is not the program's, with nothing on its way (1-6), or newer text of the user is lost (7-9). *)
Definition nothing_left (s : @state string) : Prop :=
  wire s = [] /\ updates s = [] /\ forall i, k_deb (c_clos s (c_render s) i) = None /\ k_thr (c_clos s (c_render s) i) = None.

(** 1. The program shows another component of the same shape, with another key (the next record in an editor): the text that was
    entered for the first one stays. *)
Theorem C112_other_key_refuted :
  let s := trace immediate setter (deliver ++ [User 0 "a" false; Process 1 0] ++ deliver ++ [Show 2 false "next"] ++ deliver) in
  nothing_left s /\ s_fresh s = true /\ s_state s = "next" /\ c_text s = "a".
Proof. vm_compute. split; [split; [reflexivity|split; [reflexivity|intros [|i]; split; reflexivity]]|auto]. Qed.
(** 2. A lost connection: the new session's value is not shown. *)
Theorem C112_reconnected_refuted :
  let s := trace immediate setter (deliver ++ [User 0 "a" false; Process 1 0] ++ deliver ++ [Reconnect 0 ""] ++ deliver) in
  nothing_left s /\ s_fresh s = true /\ s_state s = "" /\ c_text s = "a".
Proof. vm_compute. split; [split; [reflexivity|split; [reflexivity|intros [|i]; split; reflexivity]]|auto]. Qed.
(** 3. A handler that does not accept what was entered leaves the state as it is; so nothing is rendered, and the page shows what
    was not accepted, although the model the browser has says otherwise. *)
Theorem C112_rejected_refuted :
  let s := trace immediate (fun _ _ st => st) (deliver ++ [User 0 "a" false; Process 1 0]) in
  nothing_left s /\ c_deps s = Some (Text (s_state s), -1) /\ s_state s = "" /\ c_text s = "a".
Proof. vm_compute. split; [split; [reflexivity|split; [reflexivity|intros [|i]; split; reflexivity]]|auto]. Qed.
(** 4. Without a handler for the change the text is the user's, whatever the value is. *)
Theorem C112_no_handler_refuted :
  let s := trace immediate setter (deliver ++ [Edit "a"] ++ deliver) in
  nothing_left s /\ s_fresh s = true /\ s_state s = "" /\ c_text s = "a".
Proof. vm_compute. split; [split; [reflexivity|split; [reflexivity|intros [|i]; split; reflexivity]]|auto]. Qed.
(** 5. A throttle timer that runs late uses up the number of the next event: a value that the program keeps is not shown again. *)
Theorem C112_late_refuted :
  let kind := fun _ => Opts false true in
  let s := trace kind (fun _ _ _ => "x") ([Change "x"] ++ deliver ++ [User 0 "a" true; User 0 "b" false; User 0 "c" true; FireT 1 0;
    Process 1 0; Process 1 0; Process 1 0] ++ deliver ++ [User 0 "d" true; Process 1 0] ++ deliver) in
  nothing_left s /\ s_fresh s = true /\ s_state s = "x" /\ c_text s = "d".
Proof. vm_compute. split; [split; [reflexivity|split; [reflexivity|intros [|i]; split; reflexivity]]|auto]. Qed.
(** 6. A value that is a number is never shown: the field is empty until the user enters something. *)
Theorem C112_number_refuted n l : (forall o, In o l -> match o with User _ _ _ | Edit _ | Show _ true _ => False | _ => True end) ->
  c_text (run (fun _ : unit => Other n) (fun _ _ x => x) immediate (start 1 tt [] []) (Render :: Receive :: l)) = "".
Proof.
  intros H. set (s0 := start 1 tt [] []).
  change (run (fun _ : unit => Other n) (fun _ _ x => x) immediate s0 (Render :: Receive :: l))
    with (run (fun _ : unit => Other n) (fun _ _ x => x) immediate (run (fun _ => Other n) (fun _ _ x => x) immediate s0 [Render; Receive]) l).
  rewrite (C112_free (fun _ => Other n) (fun _ _ x => x) immediate); cbn.
  - unfold latest. cut (forall t, fold_left (fun t (o : @op unit) => match o with User _ t' _ | Edit t' => t' | _ => t end) l t = t); [intros E; apply E|].
    induction l as [|o l IH]; intros t; cbn; [reflexivity|]. rewrite IH by (intros o' Ho'; apply H; now right).
    specialize (H o (or_introl eq_refl)). now destruct o.
  - discriminate.
  - discriminate.
  - intros u [].
  - reflexivity.
  - intros q st Hq. apply (H _ Hq).
Qed.
(** 7. A debounced handler beside another one: the answer to the key press overwrites what was entered after it and is held back. *)
Theorem C112_debounced_refuted :
  let kind := fun i => Opts (Nat.eqb i 0) false in
  let s := trace kind changes (deliver ++ [User 0 "a" false; User 0 "ab" false; User 0 "abc" false; User 1 "abc" false; Process 1 1] ++ deliver) in
  c_text s = "" /\ k_deb (c_clos s 1 0) = Some "abc" /\ map snd (c_events s) = ["a"; "ab"; "abc"; "abc"].
Proof. vm_compute. auto. Qed.
(** 8. So does its answer if the events of the other handler still wait to be handled. *)
Theorem C112_waiting_refuted :
  let s := trace immediate changes (deliver ++ [User 0 "a" false; User 0 "ab" false; User 0 "abc" false; User 1 "abc" false; Process 1 1] ++ deliver) in
  c_text s = "" /\ map snd (wire s) = ["a"; "ab"; "abc"].
Proof. vm_compute. auto. Qed.
(** 9. An input that was shown before (a dialog opened again): the numbers of its first life are acknowledged, and every update
    overwrites what the user has entered, though none of it was handled. *)
Theorem C112_again_refuted :
  let s := trace immediate setter (deliver ++ [User 0 "a" false; User 0 "b" false; User 0 "c" false; Process 1 0; Process 1 0; Process 1 0] ++ deliver
    ++ [Show 1 true ""] ++ deliver ++ [User 0 "x" false; User 0 "xy" false; User 0 "xyz" false; Change "new"] ++ deliver) in
  c_text s = "new" /\ map snd (c_events s) = ["x"; "xy"; "xyz"] /\ map snd (wire s) = ["x"; "xy"; "xyz"].
Proof. vm_compute. auto. Qed.
(** 10. A handler that is debounced and throttled: the event held back by the throttle is sent with the number of a later one. *)
Theorem C112_both_refuted :
  let kind := fun _ => Opts true true in
  let s := trace kind setter (deliver ++ [User 0 "a" false; FireD 1 0 false; User 0 "ab" false; User 0 "abc" false; FireT 1 0; Process 1 0] ++ deliver) in
  c_text s = "a" /\ k_deb (c_clos s 1 0) = Some "abc" /\ map snd (c_events s) = ["a"; "ab"; "abc"].
Proof. vm_compute. auto. Qed.

Print Assumptions C112_shows.
Print Assumptions C112_written_partial.
Print Assumptions C112_origin.
Print Assumptions C112_free.
Print Assumptions C112_number_refuted.
