(** * Model of the browser's client as a receiver of messages, and property C91
    /repo/src/js/packages/@reactpy/client/src/client.ts:10-80, websocket.ts:73, components.tsx:143-154 (the layout listens),
    vdom.tsx:40-44 (what modules get). Sending: ClientTimers.v. Applying an update: ClientModel.v. *)
From Coq Require Import String Ascii Bool Arith Lia List.
From Verif Require Import Dict Strings.
Import ListNotations.
Local Open Scope string_scope. Local Open Scope list_scope.

(** ** Model *)

(** A message: its type, if it has one, and the rest. *)
Record message := Msg { m_type : option string; m_data : nat }.
(** What a handler does with the client: it registers handlers, or calls what an earlier registration returned. *)
Inductive act := On (type : string) (h : nat) | Off (type : string) (h : nat).
(** The object that a method is called on: the client, or the object that [loadImportSource] makes (vdom.tsx:41-44); and its
    properties (client.ts:11-13, 59-62). Reading a property of an absent one throws. *)
Inductive this := Self | Context.
Definition properties (o : this) : list string :=
  match o with
  | Self => ["handlers"; "ready"; "resolveReady"; "urls"; "socket"; "mountElement"; "messageQueue"]
  | Context => ["sendMessage"; "onMessage"]
  end.
Definition has (o : this) (p : string) : bool := existsb (String.eqb p) (properties o).

(** Names that every JavaScript object has, so that [this.handlers[type]] is not undefined for them, but not a list. *)
Definition inherited (t : string) : bool :=
  existsb (String.eqb t) ["constructor"; "__defineGetter__"; "__defineSetter__"; "hasOwnProperty"; "__lookupGetter__"; "__lookupSetter__";
                          "isPrototypeOf"; "propertyIsEnumerable"; "toString"; "valueOf"; "__proto__"; "toLocaleString"].

(** [BaseReactPyClient]: the fields [handlers] and whether [ready] is resolved; the calls of handlers so far; and, for the
    specification, the registrations and removals so far. *)
Record client := Client { c_handlers : dict string (list nat); c_ready : bool; c_calls : list (nat * message); c_acts : list act }.
Inductive result := Done | Threw.

(** [onMessage], client.ts:20-26. *)
Definition on_message (o : this) (t : string) (h : nat) (c : client) : result * client :=
  if negb (has o "handlers") || inherited t then (Threw, c)
  else (Done, Client (dset t (match dget t (c_handlers c) with Some l => l | None => [] end ++ [h]) (c_handlers c)) true (c_calls c) (c_acts c ++ [On t h])).
(** The function it returns, lines 23-25. It is only there after a registration: the second case does not arise. *)
Definition stop_listening (t : string) (h : nat) (c : client) : result * client :=
  match dget t (c_handlers c) with
  | Some l => (Done, Client (dset t (filter (fun x => negb (Nat.eqb x h)) l) (c_handlers c)) (c_ready c) (c_calls c) (c_acts c ++ [Off t h]))
  | None => (Done, c)
  end.
Definition do_act (a : act) (c : client) : result * client :=
  match a with On t h => on_message Self t h c | Off t h => stop_listening t h c end.
Fixpoint do_acts (l : list act) (c : client) : result * client :=
  match l with [] => (Done, c) | a :: r => match do_act a c with (Done, c') => do_acts r c' | (Threw, c') => (Threw, c') end end.

Section Handlers.
(** What the handlers do: what they register and remove, and whether they throw then. *)
Variable behave : nat -> message -> list act * bool.
(** [messageHandlers.forEach], line 52: the list was looked up before; elements added to it meanwhile are not visited
    ([forEach] takes the length first), and a removal makes a new list. *)
Fixpoint for_each (l : list nat) (m : message) (c : client) : result * client :=
  match l with
  | [] => (Done, c)
  | h :: r =>
      let c1 := Client (c_handlers c) (c_ready c) (c_calls c ++ [(h, m)]) (c_acts c) in
      match do_acts (fst (behave h m)) c1 with
      | (Done, c2) => if snd (behave h m) then (Threw, c2) else for_each r m c2
      | r => r
      end
  end.
(** [handleIncoming], client.ts:38-53. The warnings are not modelled. *)
Definition incoming (m : message) (c : client) : result * client :=
  match m_type m with
  | None | Some "" => (Done, c)
  | Some t => if inherited t then (Threw, c)
              else match dget t (c_handlers c) with None => (Done, c) | Some l => for_each l m c end
  end.

(** The client's life: its users register and remove handlers (an exception is theirs), messages come (an exception is lost in
    the promise of [onMessage], client.ts:78). *)
Inductive op := Act (a : act) | Incoming (m : message).
Definition step (c : client) (o : op) : client := snd (match o with Act a => do_act a c | Incoming m => incoming m c end).
Definition start : client := Client [] false [] [].
Definition run (l : list op) : client := fold_left step l start.
End Handlers.

(** [connect] waits for [ready], websocket.ts:73: what happens in a page with one mounted root. The root's effect registers its
    handler, number 0 (components.tsx:143-154), promise jobs run, messages come over the socket, the root is unmounted. The
    second flag: the socket has been opened (and the server may send, also after a reconnection). *)
Inductive page_op := Effect | Jobs | Frame (m : message) | Unmount.
Definition layout_update : string := "layout-update".
Definition quiet (h : nat) (m : message) : list act * bool := ([], false).
Definition page_step (s : client * bool) (o : page_op) : client * bool :=
  let '(c, opened) := s in
  match o with
  | Effect => (snd (on_message Self layout_update 0 c), opened)
  | Jobs => (c, opened || c_ready c)
  | Frame m => if opened then (snd (incoming quiet m c), opened) else s
  | Unmount => (snd (stop_listening layout_update 0 c), opened)
  end.
Definition page_run (l : list page_op) : client * bool := fold_left page_step l (start, false).

(** What a module's [bind] gets as its second argument, vdom.tsx:41-44: an object with the two methods, which is [this] in the
    calls [context.onMessage(…)] and [context.sendMessage(…)]; the latter reads [this.socket.current] first (client.ts:84). *)
Inductive context_call := ContextOnMessage (type : string) (h : nat) | ContextSend (m : message).
Definition context_result (k : context_call) (c : client) : result * client :=
  match k with
  | ContextOnMessage t h => on_message Context t h c
  | ContextSend _ => if has Context "socket" then (Done, c) else (Threw, c)
  end.

(** ** Specification *)

(** Was the handler removed by one of these? *)
Fixpoint removed (t : string) (h : nat) (l : list act) : Prop :=
  match l with [] => False | a :: r => a = Off t h \/ removed t h r end.
(** [listens t l hs]: after the registrations and removals [l], the handlers [hs] listen to type [t], the earliest first: one
    for each registration that no later removal ends. *)
Inductive listens (t : string) : list act -> list nat -> Prop :=
  | Listens_none : listens t [] []
  | Listens_on h l hs : ~ removed t h l -> listens t l hs -> listens t (On t h :: l) (h :: hs)
  | Listens_off h l hs : removed t h l -> listens t l hs -> listens t (On t h :: l) hs
  | Listens_other a l hs : (forall h, a <> On t h) -> listens t l hs -> listens t (a :: l) hs.

(** [called throws hs ks]: of the handlers [hs] the ones [ks] are called: all up to the first that throws. *)
Inductive called (throws : nat -> Prop) : list nat -> list nat -> Prop :=
  | Called_none : called throws [] []
  | Called_throws h hs : throws h -> called throws (h :: hs) [h]
  | Called_more h hs ks : ~ throws h -> called throws hs ks -> called throws (h :: hs) (h :: ks).

(** ** Proofs *)

Lemma removed_dec t h l : {removed t h l} + {~ removed t h l}.
Proof.
  induction l as [|a l IH]; cbn [removed]; [right; tauto|].
  destruct IH as [R|R]; [left; tauto|].
  destruct a as [t' h'|t' h']; [right; intros [E|E]; [discriminate|tauto]|].
  destruct (string_dec t' t) as [->|N]; [|right; intros [E|E]; [congruence|tauto]].
  destruct (Nat.eq_dec h' h) as [->|N]; [left; tauto|right; intros [E|E]; [congruence|tauto]].
Qed.
Lemma removed_app t h l1 l2 : removed t h (l1 ++ l2) <-> removed t h l1 \/ removed t h l2.
Proof. induction l1 as [|a l IH]; cbn [removed app]; [tauto|rewrite IH; tauto]. Qed.

Lemma listens_snoc_other t a l hs : (forall h, a <> On t h) -> (forall h, a <> Off t h) -> listens t l hs -> listens t (l ++ [a]) hs.
Proof.
  intros N1 N2 L. induction L as [|h l hs R L IH|h l hs R L IH|b l hs N L IH]; cbn [app].
  - apply Listens_other; [exact N1|constructor].
  - apply Listens_on; [|exact IH]. intros R'. apply removed_app in R'. destruct R' as [R'|[E|[]]]; [tauto|exact (N2 h E)].
  - apply Listens_off; [|exact IH]. apply removed_app; tauto.
  - apply Listens_other; [exact N|exact IH].
Qed.
Lemma listens_snoc_on t h l hs : listens t l hs -> listens t (l ++ [On t h]) (hs ++ [h]).
Proof.
  intros L. induction L as [|h' l hs R L IH|h' l hs R L IH|b l hs N L IH]; cbn [app].
  - apply Listens_on; [cbn; tauto|constructor].
  - apply Listens_on; [|exact IH]. intros R'. apply removed_app in R'. destruct R' as [R'|[E|[]]]; [tauto|discriminate E].
  - apply Listens_off; [|exact IH]. apply removed_app; tauto.
  - apply Listens_other; [exact N|exact IH].
Qed.
Lemma listens_snoc_off t h l hs : listens t l hs -> listens t (l ++ [Off t h]) (filter (fun x => negb (Nat.eqb x h)) hs).
Proof.
  intros L. induction L as [|h' l hs R L IH|h' l hs R L IH|b l hs N L IH]; cbn [app].
  - apply Listens_other; [discriminate|constructor].
  - cbn [filter]. destruct (Nat.eqb_spec h' h) as [->|Nh]; cbn [negb].
    + apply Listens_off; [|exact IH]. apply removed_app; right; left; reflexivity.
    + apply Listens_on; [|exact IH]. intros R'. apply removed_app in R'. destruct R' as [R'|[E|[]]]; [tauto|congruence].
  - apply Listens_off; [|exact IH]. apply removed_app; tauto.
  - apply Listens_other; [exact N|exact IH].
Qed.
Lemma listens_fun t l hs hs' : listens t l hs -> listens t l hs' -> hs = hs'.
Proof.
  intros L. revert hs'. induction L as [|h l hs R L IH|h l hs R L IH|b l hs N L IH]; intros hs' L'; inversion L'; subst; auto; try tauto; try congruence.
  - f_equal; auto.
Qed.
Lemma listens_never t l : (forall h, ~ In (On t h) l) -> listens t l [].
Proof.
  induction l as [|a l IH]; intros N; [constructor|].
  apply Listens_other; [intros h ->; apply (N h); left; reflexivity|].
  apply IH; intros h I; apply (N h); right; exact I.
Qed.

(** The lists kept are those of the specification. *)
Definition good (c : client) : Prop :=
  forall t, match dget t (c_handlers c) with
            | Some hs => listens t (c_acts c) hs /\ inherited t = false
            | None => forall h, ~ In (On t h) (c_acts c)
            end.
Lemma good_start : good start.
Proof. intros t; cbn; auto. Qed.
Lemma good_act a c : good c -> good (snd (do_act a c)).
Proof.
  intros G. destruct a as [t h|t h]; cbn [do_act on_message stop_listening].
  - unfold on_message. change (has Self "handlers") with true. cbn [negb orb]. destruct (inherited t) eqn:It; [exact G|]. cbn [snd]. intros u. cbn [c_handlers c_acts].
    rewrite dget_dset. specialize (G u). destruct (eq_dec u t) as [->|N].
    + split; [|exact It]. apply listens_snoc_on. destruct (dget t (c_handlers c)) as [hs|]; [exact (proj1 G)|apply listens_never, G].
    + destruct (dget u (c_handlers c)) as [hs|].
      * split; [|exact (proj2 G)]. apply listens_snoc_other; [congruence|congruence|exact (proj1 G)].
      * intros h' I. apply in_app_or in I. destruct I as [I|[E|[]]]; [exact (G h' I)|congruence].
  - unfold stop_listening. destruct (dget t (c_handlers c)) as [hs|] eqn:E; [|exact G]. cbn [snd]. intros u. cbn [c_handlers c_acts].
    rewrite dget_dset. pose proof (G t) as Gt. rewrite E in Gt. specialize (G u). destruct (eq_dec u t) as [->|N].
    + split; [|exact (proj2 Gt)]. apply listens_snoc_off, Gt.
    + destruct (dget u (c_handlers c)) as [hs'|].
      * split; [|exact (proj2 G)]. apply listens_snoc_other; [congruence|congruence|exact (proj1 G)].
      * intros h' I. apply in_app_or in I. destruct I as [I|[E'|[]]]; [exact (G h' I)|congruence].
Qed.
Lemma good_acts l c : good c -> good (snd (do_acts l c)).
Proof.
  revert c; induction l as [|a l IH]; intros c G; cbn [do_acts]; [exact G|].
  pose proof (good_act a c G) as G1. destruct (do_act a c) as [[|] c']; [apply IH; exact G1|exact G1].
Qed.
Lemma calls_act a c : c_calls (snd (do_act a c)) = c_calls c.
Proof.
  destruct a as [t h|t h]; cbn [do_act]; unfold on_message, stop_listening; change (has Self "handlers") with true; cbn [negb orb].
  - destruct (inherited t); reflexivity.
  - destruct (dget t (c_handlers c)); reflexivity.
Qed.
Lemma calls_acts l c : c_calls (snd (do_acts l c)) = c_calls c.
Proof.
  revert c; induction l as [|a l IH]; intros c; cbn [do_acts]; [reflexivity|].
  pose proof (calls_act a c) as G1. destruct (do_act a c) as [[|] c']; cbn [snd] in *; [rewrite IH|]; exact G1.
Qed.

Section HandlersP.
Variable behave : nat -> message -> list act * bool.
(** A handler throws: by itself, or because it registers for an inherited name. *)
Definition throws (m : message) (h : nat) : Prop :=
  snd (behave h m) = true \/ exists t h', In (On t h') (fst (behave h m)) /\ inherited t = true.

Lemma good_each l m c : good c -> good (snd (for_each behave l m c)).
Proof.
  revert c; induction l as [|h l IH]; intros c G; cbn [for_each]; [exact G|].
  set (c1 := Client _ _ _ _). assert (G1 : good c1) by exact G.
  pose proof (good_acts (fst (behave h m)) c1 G1) as G2. destruct (do_acts (fst (behave h m)) c1) as [[|] c2]; [|exact G2].
  destruct (snd (behave h m)); [exact G2|]. apply IH; exact G2.
Qed.
Lemma good_incoming m c : good c -> good (snd (incoming behave m c)).
Proof.
  intros G. unfold incoming. destruct (m_type m) as [t|]; [|exact G].
  destruct t as [|a s]; [exact G|]. set (t := String a s) in *.
  destruct (inherited t); [exact G|]. destruct (dget t (c_handlers c)) as [l|]; [|exact G]. apply good_each; exact G.
Qed.
Lemma good_run l : good (run behave l).
Proof.
  unfold run. assert (H : forall l c, good c -> good (fold_left (step behave) l c)).
  { clear l; induction l as [|o l IH]; intros c G; [exact G|]. cbn [fold_left]. apply IH.
    destruct o as [a|m]; unfold step; [apply good_act|apply good_incoming]; exact G. }
  apply H, good_start.
Qed.

Lemma acts_threw l c : fst (do_acts l c) = Threw <-> exists t h, In (On t h) l /\ inherited t = true.
Proof.
  revert c; induction l as [|a l IH]; intros c; cbn [do_acts In].
  - split; [discriminate|intros (t & h & [] & _)].
  - destruct a as [t h|t h]; cbn [do_act]; unfold on_message, stop_listening; change (has Self "handlers") with true; cbn [negb orb].
    + destruct (inherited t) eqn:It.
      * split; [intros _; exists t, h; auto|reflexivity].
      * rewrite IH. split; intros (t' & h' & I & J); exists t', h'; split; auto. destruct I as [[= -> ->]|I]; [congruence|exact I].
    + set (c' := match dget t (c_handlers c) with Some _ => _ | None => _ end).
      assert (E : exists d, c' = (Done, d)) by (unfold c'; destruct (dget t (c_handlers c)); eauto).
      destruct E as [d ->]. rewrite IH. split; intros (t' & h' & I & J); exists t', h'; split; auto. destruct I as [I|I]; [discriminate|exact I].
Qed.
Lemma each_called l m c :
  exists ks, called (throws m) l ks /\ c_calls (snd (for_each behave l m c)) = c_calls c ++ map (fun h => (h, m)) ks.
Proof.
  revert c; induction l as [|h l IH]; intros c; cbn [for_each].
  - exists []. split; [constructor|cbn; rewrite app_nil_r; reflexivity].
  - set (c1 := Client _ _ _ _). pose proof (calls_acts (fst (behave h m)) c1) as E.
    pose proof (acts_threw (fst (behave h m)) c1) as T.
    destruct (do_acts (fst (behave h m)) c1) as [r c2]; cbn [fst snd] in E, T.
    assert (One : c_calls c2 = c_calls c ++ map (fun h => (h, m)) [h]) by exact E.
    destruct r.
    + destruct (snd (behave h m)) eqn:B.
      * exists [h]. split; [apply Called_throws; left; exact B|exact One].
      * destruct (IH c2) as (ks & K1 & K2). exists (h :: ks). split.
        -- apply Called_more; [|exact K1]. intros [X|X]; [congruence|]. apply T in X; discriminate.
        -- rewrite K2, One, <- app_assoc. reflexivity.
    + exists [h]. split; [apply Called_throws; right; apply T; reflexivity|exact One].
Qed.

(** C91 *)
(** Each message is passed once to each handler that listens to its type when it comes, in the order of registration, up to
    the first that throws; whatever handlers do, a message without type or with an inherited name as type is passed to none. *)
Theorem C91_delivery : forall l m,
  let c := run behave l in
  exists hs ks,
    match m_type m with
    | Some t => if orb (String.eqb t "") (inherited t) then hs = [] else listens t (c_acts c) hs
    | None => hs = []
    end /\
    called (throws m) hs ks /\
    c_calls (run behave (l ++ [Incoming m])) = c_calls c ++ map (fun h => (h, m)) ks.
Proof.
  intros l m c. unfold run. rewrite fold_left_app. cbn [fold_left]. fold (run behave l). fold c. unfold step.
  pose proof (good_run l) as G. fold c in G. unfold incoming.
  assert (No : exists hs ks, hs = [] /\ called (throws m) hs ks /\ c_calls c = c_calls c ++ map (fun h => (h, m)) ks).
  { exists [], []. split; [reflexivity|]. split; [constructor|cbn; rewrite app_nil_r; reflexivity]. }
  destruct (m_type m) as [t|]; [|exact No]. destruct t as [|a s]; [exact No|].
  set (t := String a s) in *. assert (Et : String.eqb t "" = false) by reflexivity. rewrite Et. cbn [orb].
  destruct (inherited t) eqn:It; [exact No|]. specialize (G t). destruct (dget t (c_handlers c)) as [hs|].
  - destruct (each_called hs m c) as (ks & K1 & K2). exists hs, ks. split; [exact (proj1 G)|]. split; [exact K1|exact K2].
  - exists [], []. split; [apply listens_never; exact G|]. split; [constructor|cbn; rewrite app_nil_r; reflexivity].
Qed.

(** If no handler throws, all of them are called. *)
Theorem C91_all_called : forall l m t hs,
  m_type m = Some t -> t <> "" -> inherited t = false -> (forall h, ~ throws m h) ->
  listens t (c_acts (run behave l)) hs ->
  c_calls (run behave (l ++ [Incoming m])) = c_calls (run behave l) ++ map (fun h => (h, m)) hs.
Proof.
  intros l m t hs Em N It T L. destruct (C91_delivery l m) as (hs' & ks & H1 & H2 & H3). rewrite H3. f_equal. f_equal.
  rewrite Em, It in H1. destruct (String.eqb_spec t ""); [contradiction|]. cbn [orb] in H1.
  rewrite (listens_fun _ _ _ _ L H1). clear -T H2. induction H2 as [|h hs X|h hs ks X H IH]; [reflexivity|exfalso; exact (T h X)|f_equal; exact IH].
Qed.
End HandlersP.
Print Assumptions C91_delivery.
Print Assumptions C91_all_called.

(** The acts recorded are those that were done: the users' own, except registrations for inherited names, while handlers do
    nothing of this kind. *)
Theorem C91_users : forall l,
  (forall t h, In (Act (On t h)) l -> inherited t = false) ->
  (forall t h l1 l2, l = l1 ++ Act (Off t h) :: l2 -> exists h', In (Act (On t h')) l1) ->
  c_acts (run quiet l) = flat_map (fun o => match o with Act a => [a] | Incoming _ => [] end) l.
Proof.
  intros l. induction l as [|o l IH] using rev_ind; intros I R; [reflexivity|].
  assert (E : c_acts (run quiet l) = flat_map (fun o => match o with Act a => [a] | Incoming _ => [] end) l).
  { apply IH; [intros t h J; apply (I t h), in_or_app; left; exact J|].
    intros t h l1 l2 ->. rewrite <- app_assoc in R. exact (R t h l1 _ eq_refl). }
  rewrite flat_map_app, <- E. pose proof (good_run quiet l) as G. unfold run. rewrite fold_left_app. cbn [fold_left flat_map app].
  fold (run quiet l). rewrite app_nil_r. unfold step. destruct o as [[t h|t h]|m].
  - cbn [do_act]. unfold on_message. change (has Self "handlers") with true. cbn [negb orb]. rewrite (I t h); [reflexivity|]. apply in_or_app; right; left; reflexivity.
  - cbn [do_act]. unfold stop_listening. specialize (G t). destruct (dget t (c_handlers (run quiet l))); [reflexivity|].
    destruct (R t h l [] eq_refl) as [h' J]. exfalso. apply (G h'). rewrite E. apply in_flat_map. exists (Act (On t h')). split; [exact J|left; reflexivity].
  - rewrite app_nil_r. unfold incoming. destruct (m_type m) as [[|a s]|]; try reflexivity. destruct (inherited _); [reflexivity|].
    destruct (dget _ _) as [hs|]; [|reflexivity]. set (c := run quiet l). clearbody c. clear.
    cbn [snd]. revert c. induction hs as [|h hs IH]; intros c; [reflexivity|]. cbn [for_each quiet fst snd do_acts]. rewrite IH. reflexivity.
Qed.
Print Assumptions C91_users.

(** The messages the root gets. *)
Definition root_got (c : client) : list message := map snd (filter (fun k => Nat.eqb (fst k) 0) (c_calls c)).
(** The frames that come while the socket is open. *)
Fixpoint came (s : client * bool) (l : list page_op) : list message :=
  match l with
  | [] => []
  | o :: r => match o with Frame m => if snd s then [m] else [] | _ => [] end ++ came (page_step s o) r
  end.
Definition is_update (m : message) : bool := match m_type m with Some t => String.eqb t layout_update | None => false end.

(** In a page: the socket is opened when jobs run after the effect, and every update that comes over it reaches the root, once
    and in order: none comes too early. *)
Definition listening (s : client * bool) : Prop := dget layout_update (c_handlers (fst s)) = Some [0] /\ c_ready (fst s) = true.
Definition waiting (s : client * bool) : Prop := c_handlers (fst s) = [] /\ c_ready (fst s) = false /\ snd s = false.
Definition no_root (l : list page_op) : Prop := ~ In Effect l /\ ~ In Unmount l.

Lemma page_frame m c : dget layout_update (c_handlers c) = Some [0] ->
  (forall t, t <> layout_update -> dget t (c_handlers c) = None) ->
  snd (incoming quiet m c) = Client (c_handlers c) (c_ready c) (c_calls c ++ if is_update m then [(0, m)] else []) (c_acts c).
Proof.
  intros D O. unfold incoming, is_update. assert (Z : c = Client (c_handlers c) (c_ready c) (c_calls c ++ []) (c_acts c)) by (rewrite app_nil_r; destruct c; reflexivity).
  destruct (m_type m) as [t|]; [|exact Z]. destruct (String.eqb_spec t layout_update) as [->|N].
  - cbv beta iota delta [layout_update]. cbn [inherited existsb String.eqb Ascii.eqb Bool.eqb orb]. fold layout_update. rewrite D. reflexivity.
  - destruct t as [|a s]; [exact Z|]. destruct (inherited _); [exact Z|]. rewrite (O _ N). exact Z.
Qed.
Definition only_root (c : client) : Prop := forall t, t <> layout_update -> dget t (c_handlers c) = None.
Lemma root_got_snoc c m h r a : root_got (Client h r (c_calls c ++ if is_update m then [(0, m)] else []) a) = root_got c ++ if is_update m then [m] else [].
Proof. unfold root_got. cbn [c_calls]. rewrite filter_app, map_app. f_equal. destruct (is_update m); reflexivity. Qed.

Lemma page_listening l : forall s, no_root l -> listening s -> only_root (fst s) ->
  root_got (fst (fold_left page_step l s)) = root_got (fst s) ++ filter is_update (came s l).
Proof.
  induction l as [|o l IH]; intros [c b] [N1 N2] [D R] O; cbn [fold_left came]; [cbn; rewrite app_nil_r; reflexivity|].
  assert (N : no_root l) by (split; intros I; [apply N1|apply N2]; right; exact I).
  destruct o as [| |m|]; [exfalso; apply N1; left; reflexivity| | |exfalso; apply N2; left; reflexivity].
  - rewrite IH; [reflexivity|exact N|split; [exact D|exact R]|exact O].
  - cbn [page_step snd fst]. destruct b; [|rewrite IH; [reflexivity|exact N|split; [exact D|exact R]|exact O]].
    cbn [fst] in D, O. rewrite (page_frame m c D O). rewrite IH; [|exact N|split; [exact D|exact R]|exact O].
    cbn [fst]. rewrite root_got_snoc, filter_app, app_assoc. f_equal.
Qed.
Lemma page_waiting l : forall s, no_root l -> waiting s -> fold_left page_step l s = s /\ came s l = [].
Proof.
  induction l as [|o l IH]; intros [c b] [N1 N2] (H & R & B); cbn [fold_left came]; [split; reflexivity|]. cbn [fst snd] in H, R, B. subst b.
  assert (N : no_root l) by (split; intros I; [apply N1|apply N2]; right; exact I).
  destruct o as [| |m|]; [exfalso; apply N1; left; reflexivity| | |exfalso; apply N2; left; reflexivity].
  - cbn [page_step orb snd app]. rewrite R. apply IH; [exact N|split; [exact H|split; [exact R|reflexivity]]].
  - cbn [page_step orb snd app]. apply IH; [exact N|split; [exact H|split; [exact R|reflexivity]]].
Qed.
Lemma came_app l1 : forall s l2, came s (l1 ++ l2) = came s l1 ++ came (fold_left page_step l1 s) l2.
Proof. induction l1 as [|o l IH]; intros s l2; cbn [app came fold_left]; [reflexivity|]. rewrite IH, app_assoc. reflexivity. Qed.
Lemma page_opened l : forall s, no_root l -> listening s -> snd (fold_left page_step l s) = true <-> snd s = true \/ In Jobs l.
Proof.
  induction l as [|o l IH]; intros [c b] [N1 N2] [D R]; cbn [fold_left In]; [tauto|].
  assert (N : no_root l) by (split; intros I; [apply N1|apply N2]; right; exact I).
  destruct o as [| |m|]; [exfalso; apply N1; left; reflexivity| | |exfalso; apply N2; left; reflexivity].
  - rewrite IH; [|exact N|split; [exact D|exact R]]. cbn [page_step snd]. cbn [fst] in R. rewrite R, orb_true_r. tauto.
  - cbn [page_step]. destruct b; rewrite IH; try exact N; cbn [snd]; try (split; [exact D|exact R]); try (intuition discriminate).
    cbn [fst] in *. split; cbn [fst]; unfold incoming.
    all: destruct (m_type m) as [[|x y]|]; try assumption; destruct (inherited _); try assumption; destruct (dget (String x y) _) as [hs|]; try assumption;
      assert (Q : forall hs c, c_handlers (snd (for_each quiet hs m c)) = c_handlers c /\ c_ready (snd (for_each quiet hs m c)) = c_ready c)
        by (clear; induction hs as [|h hs IH]; intros c; [split; reflexivity|]; cbn [for_each quiet fst snd do_acts];
            destruct (IH (Client (c_handlers c) (c_ready c) (c_calls c ++ [(h, m)]) (c_acts c))) as [-> ->]; split; reflexivity);
      destruct (Q hs c) as [Q1 Q2]; congruence.
Qed.

Lemma waiting_start : waiting (start, false).
Proof. split; [reflexivity|split; reflexivity]. Qed.
Lemma listening_effect : listening (page_step (start, false) Effect) /\ only_root (fst (page_step (start, false) Effect)).
Proof.
  split; [split; reflexivity|]. intros t N. cbn. destruct (eq_dec t layout_update); [contradiction|reflexivity].
Qed.

Theorem C91_no_update_lost : forall l1 l2, no_root l1 -> no_root l2 ->
  let l := l1 ++ Effect :: l2 in
  root_got (fst (page_run l)) = filter is_update (came (start, false) l) /\
  (snd (page_run l) = true <-> In Jobs l2) /\ snd (page_run l1) = false.
Proof.
  intros l1 l2 N1 N2 l. unfold l, page_run. rewrite fold_left_app, came_app. destruct (page_waiting l1 _ N1 waiting_start) as [-> ->].
  cbn [fold_left app came]. destruct listening_effect as [L O]. split; [|split; [|reflexivity]].
  - rewrite (page_listening l2 _ N2 L O). reflexivity.
  - rewrite (page_opened l2 _ N2 L). cbn. intuition discriminate.
Qed.
Print Assumptions C91_no_update_lost.

(** With the socket open, all frames come: nothing but [Frame] changes that. *)
Theorem C91_open_stays : forall l s, snd s = true -> no_root l ->
  came s l = flat_map (fun o => match o with Frame m => [m] | _ => [] end) l.
Proof.
  induction l as [|o l IH]; intros [c b] B [N1 N2]; cbn [came flat_map]; [reflexivity|]. cbn [snd] in B. subst b.
  assert (N : no_root l) by (split; intros I; [apply N1|apply N2]; right; exact I).
  destruct o as [| |m|]; [exfalso; apply N1; left; reflexivity| | |exfalso; apply N2; left; reflexivity]; cbn [page_step snd orb app];
    rewrite IH; auto.
Qed.
Print Assumptions C91_open_stays.

(** A module that gets the client's methods through [bind] cannot use them: every call throws and changes nothing. *)
Theorem C91_module_context_refuted : forall k c, context_result k c = (Threw, c).
Proof. intros [t h|m] c; reflexivity. Qed.
Print Assumptions C91_module_context_refuted.

(** The function that a registration returns ends that registration only: false, the same handler registered twice is not called
    any more when one of the two is ended. *)
Theorem C91_one_registration_refuted :
  ~ (forall (behave : nat -> message -> list act * bool) t h m, m_type m = Some t -> t <> "" -> inherited t = false -> (forall h', ~ throws behave m h') ->
       In (h, m) (c_calls (run behave [Act (On t h); Act (On t h); Act (Off t h); Incoming m]))).
Proof.
  intros H. specialize (H quiet "a" 1 (Msg (Some "a") 0) eq_refl ltac:(discriminate) eq_refl).
  assert (T : forall h', ~ throws quiet (Msg (Some "a") 0) h') by (intros h' [X|(t & h & [] & _)]; discriminate).
  specialize (H T). vm_compute in H. exact H.
Qed.
Print Assumptions C91_one_registration_refuted.

(** A failing handler does not keep the others from their messages: false. *)
Theorem C91_failing_handler_refuted :
  ~ (forall (behave : nat -> message -> list act * bool) l m t h hs, m_type m = Some t -> t <> "" -> inherited t = false ->
       listens t (c_acts (run behave l)) hs -> In h hs -> In (h, m) (c_calls (run behave (l ++ [Incoming m])))).
Proof.
  intros H.
  specialize (H (fun h _ => ([], Nat.eqb h 1)) [Act (On "a" 1); Act (On "a" 2)] (Msg (Some "a") 0) "a" 2 [1; 2] eq_refl ltac:(discriminate) eq_refl).
  assert (L : listens "a" (c_acts (run (fun h _ => ([], Nat.eqb h 1)) [Act (On "a" 1); Act (On "a" 2)])) [1; 2]).
  { apply Listens_on; [intros [X|[]]; discriminate|]. apply Listens_on; [intros []|]. constructor. }
  specialize (H L (or_intror (or_introl eq_refl))). vm_compute in H. destruct H as [H|[]]. discriminate.
Qed.
Print Assumptions C91_failing_handler_refuted.

(** Any name can be the type of messages: false for the names that all JavaScript objects have. *)
Theorem C91_inherited_refuted : forall behave m t h c, inherited t = true -> m_type m = Some t ->
  fst (on_message Self t h c) = Threw /\ fst (incoming behave m c) = Threw.
Proof.
  intros behave m t h c It Em. unfold on_message, incoming. change (has Self "handlers") with true. cbn [negb orb]. rewrite It, Em. split; [reflexivity|].
  destruct t as [|a s]; [discriminate It|]. rewrite It. reflexivity.
Qed.
Print Assumptions C91_inherited_refuted.

(** A case that meets the hypotheses: handler 1 replaces itself by handler 3 when called, handler 2 throws. *)
Example C91_example :
  let a n := Msg (Some "a") n in
  let behave h (m : message) := match h with 1 => ([On "a" 3; Off "a" 1], false) | 2 => ([], Nat.eqb (m_data m) 7) | _ => ([], false) end in
  let c := run behave [Incoming (a 4); Act (On "a" 1); Act (On "b" 5); Act (On "a" 2); Incoming (a 6); Incoming (Msg None 0); Incoming (a 7); Incoming (Msg (Some "toString") 0); Incoming (Msg (Some "b") 9)] in
  c_calls c = [(1, a 6); (2, a 6); (2, a 7); (5, Msg (Some "b") 9)] /\
  dget "a" (c_handlers c) = Some [2; 3].
Proof. vm_compute. split; reflexivity. Qed.
Example C91_page :
  let u n := Msg (Some layout_update) n in
  let l := [Jobs; Frame (u 0)] ++ Effect :: [Frame (u 1); Jobs; Frame (u 2); Frame (Msg (Some "other") 3); Jobs; Frame (u 4)] in
  root_got (fst (page_run l)) = [u 2; u 4].
Proof. vm_compute. reflexivity. Qed.
