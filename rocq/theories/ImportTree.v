(** * What components of JavaScript modules receive, and property C84

    /repo/src/js/packages/@reactpy/client/src/vdom.tsx:72-163,172-282: the elements made for an imported component and
    everything inside it, and the functions made for event handlers. *)
From Coq Require Import String Ascii ZArith Bool Arith Lia List.
From Verif Require Import Dict Strings PyStr.
Import ListNotations.
Local Open Scope string_scope. Local Open Scope list_scope.

(** ** Model *)

(** A number from the server for [debounce] or [throttle]: an integer, another number, or something else. *)
Inductive interval := Int (z : Z) | Fraction | Other.
(** client handler.ts:24-31. *)
Definition valid (i : interval) : bool := match i with Int z => Z.leb 0 z | _ => false end.
Record handler := Handler { target : string; prevent : bool; stop : bool; debounce : option interval; throttle : option interval }.
Record source := Source { src_name : string; src_type : string }.
(** Models as the client gets them, client types.ts:49-57. Values of attributes are numbers, as they are only passed on. *)
Inductive vdom := Vdom (tag : string) (attributes : list (string * nat)) (handlers : list (string * handler)) (inline : list (string * string))
  (src : option source) (error : option string) (children : list node)
with node := Text (s : string) | Child (v : vdom).
(** Values of the module: those that are falsy, and others with their properties. *)
Inductive js := Falsy | Value (id : nat) (fields : list (string * js)).
Definition field (n : string) (v : js) : js := match v with Falsy => Falsy | Value _ fs => match dget n fs with Some x => x | None => Falsy end end.
Definition truthy (v : js) : bool := match v with Falsy => false | _ => true end.

(** The loop of [getComponentFromModule], lines 130-152. Simplification: the messages on the console are left out. *)
Fixpoint follow (parts : list string) (v : js) : js :=
  match parts with
  | [] => v
  | n :: rest => let c := field n v in if truthy c then follow rest c else c
  end.
Definition component (md : js) (name : string) : js := follow (split "." name) md.
(** [isImportSourceEqual], lines 155-163. *)
Definition same (a b : source) : bool := String.eqb (src_name a) (src_name b) && String.eqb (src_type a) (src_type b).

(** What [createEventHandler] tags the function with, lines 261-280. *)
Record tagged := Tagged { of : handler; tag_debounce : option interval; tag_throttle : option interval }.
Definition tag (i : option interval) : option interval := match i with Some i => if valid i then Some i else None | None => None end.
Definition tagging (h : handler) : tagged := Tagged h (tag (debounce h)) (tag (throttle h)).
Inductive prop := Plain (v : nat) | Calls (h : tagged) | Runs (code : string).
(** Object spread, and [Object.fromEntries]: later entries win. *)
Definition spread (d e : list (string * prop)) : list (string * prop) := dupdate d e.
(** [createAttributes], lines 190-212. *)
Definition create_attributes (at_ : list (string * nat)) (hs : list (string * handler)) (il : list (string * string)) : list (string * prop) :=
  spread [] (spread (spread (spread [] (map (fun p => (fst p, Plain (snd p))) at_))
                            (spread [] (map (fun p => (fst p, Calls (tagging (snd p)))) hs)))
                    (spread [] (map (fun p => (fst p, Runs (snd p))) il))).
(** What is given to the binding's [create]: the type (an HTML tag, [Fragment] or a value of the module), properties and children;
    a [reactpy-child] with its model; or null. *)
Inductive kind := Html (t : string) | Fragment | Component (id : nat).
Inductive element := Create (k : kind) (props : list (string * prop)) (kids : list kid) | ReactPyChild (v : vdom) | Null
with kid := KText (s : string) | KElement (e : element).
(** [createImportSourceElement], lines 72-117, and [createChildren], lines 172-188. *)
Fixpoint create (cur : source) (md : js) (v : vdom) {struct v} : element :=
  match v with
  | Vdom t at_ hs il src _ cs =>
      let make k := Create k (create_attributes at_ hs il) (map (fun c => match c with Text s => KText s | Child w => KElement (create cur md w) end) cs) in
      match src with
      | Some s =>
          if same cur s
          then match component md t with Value id _ => make (Component id) | Falsy => Null end
          else ReactPyChild v
      | None => make (if String.eqb t "" then Fragment else Html t)
      end
  end.

(** What a handler is called with: browser events (or objects with the same methods), other objects, other values. *)
Inductive arg := Event (id : nat) | Object (id : nat) | Primitive (id : nat).
Inductive effect := PreventDefault (id : nat) | StopPropagation (id : nat).
Record message := Message { msg_target : string; msg_data : list nat; msg_seq : nat }.
Section Call.
  (** [eventToObject], in event-to-object, and the value itself for values that are no objects. *)
  Variable convert : arg -> nat.
  (** The loop of lines 234-249: the methods called, and the data unless calling a method that does not exist threw. *)
  Fixpoint collect (h : handler) (args : list arg) : list effect * option (list nat) :=
    match args with
    | [] => ([], Some [])
    | a :: rest =>
        match a with
        | Event i =>
            let (fx, d) := collect h rest in
            ((if prevent h then [PreventDefault i] else []) ++ (if stop h then [StopPropagation i] else []) ++ fx, option_map (cons (convert a)) d)
        | _ => if prevent h || stop h then ([], None) else let (fx, d) := collect h rest in (fx, option_map (cons (convert a)) d)
        end
    end.
  (** A call of the function made in lines 233-252, with its counter. *)
  Definition call (h : handler) (seq : nat) (args : list arg) : nat * list effect * option message :=
    match collect h args with
    | (fx, Some d) => (S seq, fx, Some (Message (target h) d seq))
    | (fx, None) => (seq, fx, None)
    end.
  Fixpoint call_all (h : handler) (seq : nat) (calls : list (list arg)) : list message :=
    match calls with
    | [] => []
    | a :: rest => match call h seq a with (seq', _, m) => match m with Some m => [m] | None => [] end ++ call_all h seq' rest end
    end.

(** ** Specification *)

  (** The arguments are such that the function does not fail. *)
  Definition accepts (h : handler) (args : list arg) : Prop := prevent h || stop h = true -> Forall (fun a => exists i, a = Event i) args.
End Call.
Definition children_of (v : vdom) : list node := match v with Vdom _ _ _ _ _ _ cs => cs end.
(** The part of a model, or of what was made from it, at a path of positions. *)
Fixpoint at_path (p : list nat) (n : node) : option node :=
  match p with
  | [] => Some n
  | i :: p => match n with Text _ => None | Child v => match nth_error (children_of v) i with Some c => at_path p c | None => None end end
  end.
Fixpoint at_path' (p : list nat) (k : kid) : option kid :=
  match p with
  | [] => Some k
  | i :: p => match k with KElement (Create _ _ ks) => match nth_error ks i with Some c => at_path' p c | None => None end | _ => None end
  end.
(** The value that a module exports under a path of names. *)
Inductive exports : js -> list string -> nat -> Prop :=
| exports_one v n id fs : field n v = Value id fs -> exports v [n] id
| exports_more v n id fs rest r : field n v = Value id fs -> exports (Value id fs) rest r -> exports v (n :: rest) r.
Definition dotted (path : list string) (name : string) : Prop := join "." path = name /\ Forall (nochar ".") path /\ path <> [].
(** The kind of element that a model of the current module, or of none, stands for. *)
Inductive stands (cur : source) (md : js) : string -> option source -> kind -> Prop :=
| stands_fragment : stands cur md "" None Fragment
| stands_html t : t <> "" -> stands cur md t None (Html t)
| stands_component t s path id : src_name s = src_name cur -> src_type s = src_type cur -> dotted path t -> exports md path id -> stands cur md t (Some s) (Component id).
Definition foreign (cur : source) (src : option source) : Prop := exists s, src = Some s /\ ~ (src_name s = src_name cur /\ src_type s = src_type cur).
(** The intervals that count: whole numbers that are not negative. *)
Definition limit (i : option interval) : option interval := match i with Some (Int z) => if (0 <=? z)%Z then Some (Int z) else None | _ => None end.
(** What a property is: code wins over a handler, a handler over an attribute. *)
Definition expected (at_ : list (string * nat)) (hs : list (string * handler)) (il : list (string * string)) (n : string) : option prop :=
  match dget n il, dget n hs, dget n at_ with
  | Some c, _, _ => Some (Runs c)
  | None, Some h, _ => Some (Calls (Tagged h (limit (debounce h)) (limit (throttle h))))
  | None, None, Some v => Some (Plain v)
  | None, None, None => None
  end.

(** ** Proofs *)

Lemma same_iff a b : same a b = true <-> src_name b = src_name a /\ src_type b = src_type a.
Proof. unfold same. rewrite andb_true_iff, !String.eqb_eq. intuition. Qed.
Lemma follow_exports : forall parts v id, parts <> [] -> exports v parts id <-> exists fs, follow parts v = Value id fs.
Proof.
  induction parts as [|n rest IH]; intros v id N; [congruence|]. cbn [follow]. split.
  - intros H. inversion H as [v' n' id' fs F|v' n' id' fs rest' r F E]; subst.
    + rewrite F. cbn. exists fs. reflexivity.
    + rewrite F. cbn [truthy]. apply IH; [inversion E; discriminate|exact E].
  - intros (fs & H). destruct (field n v) as [|i gs] eqn:F; cbn [truthy] in H; [discriminate|]. destruct rest as [|n' rest].
    + cbn in H. injection H as -> ->. econstructor. exact F.
    + eapply exports_more; [exact F|]. apply IH; [discriminate|exists fs; exact H].
Qed.
Lemma component_exports md path t id : dotted path t -> exports md path id <-> exists fs, component md t = Value id fs.
Proof.
  intros (<- & F & N). unfold component. change "."%string with (String "."%char "")%string. rewrite split_join by assumption. apply follow_exports. exact N.
Qed.
Lemma dotted_split t : dotted (split "." t) t.
Proof. split; [exact (join_split "." t)|split; [apply split_nochar|apply split_nonnil]]. Qed.

Lemma keys_map {A B} (f : A -> B) (l : list (string * A)) : dkeys (map (fun p => (fst p, f (snd p))) l) = dkeys l.
Proof. induction l as [|[k v] l IH]; [reflexivity|]. cbn. f_equal. exact IH. Qed.
Lemma attributes_expected at_ hs il n : NoDup (dkeys at_) -> NoDup (dkeys hs) -> NoDup (dkeys il) -> dget n (create_attributes at_ hs il) = expected at_ hs il n.
Proof.
  intros N1 N2 N3. unfold create_attributes, spread, expected.
  assert (U : forall (l : list (string * prop)), NoDup (dkeys (dupdate [] l))) by (intros l; apply NoDup_dupdate; constructor).
  rewrite dget_dupdate by (apply NoDup_dupdate, NoDup_dupdate, U). rewrite dget_dupdate by apply U. rewrite dget_dupdate by (rewrite (keys_map Runs il); exact N3).
  rewrite (dget_map_val (fun x => Runs x) n il). rewrite dget_dupdate by apply U. rewrite dget_dupdate by (rewrite (keys_map (fun h => Calls (tagging h)) hs); exact N2).
  rewrite (dget_map_val (fun h => Calls (tagging h)) n hs). rewrite dget_dupdate by (rewrite (keys_map Plain at_); exact N1). rewrite (dget_map_val Plain n at_).
  assert (T : forall i, tag i = limit i) by (intros [[z| |]|]; reflexivity).
  destruct (dget n il), (dget n hs), (dget n at_); cbn; unfold tagging; rewrite ?T; reflexivity.
Qed.
(** A node that stands for an element. *)
Definition present (cur : source) (md : js) (v : vdom) : Prop := match v with Vdom t _ _ _ src _ _ => exists k, stands cur md t src k end.
Lemma stands_create cur md t at_ hs il src err cs k : stands cur md t src k ->
  create cur md (Vdom t at_ hs il src err cs) =
  Create k (create_attributes at_ hs il) (map (fun c => match c with Text s => KText s | Child w => KElement (create cur md w) end) cs).
Proof.
  intros H. inversion H as [|t' N|t' s path id S1 S2 D E]; subst; cbn [create].
  - reflexivity.
  - destruct (String.eqb t "") eqn:Q; [apply String.eqb_eq in Q; congruence|reflexivity].
  - rewrite (proj2 (same_iff cur s) (conj S1 S2)). apply (component_exports md path t id D) in E. destruct E as (fs & ->). reflexivity.
Qed.
Definition make (cur : source) (md : js) (n : node) : kid := match n with Text s => KText s | Child w => KElement (create cur md w) end.
Lemma path_create cur md : forall p n w, at_path p n = Some w -> (forall q i r v, p = q ++ i :: r -> at_path q n = Some (Child v) -> present cur md v) ->
  at_path' p (make cur md n) = Some (make cur md w).
Proof.
  induction p as [|i p IH]; intros n w H A; [injection H as <-; reflexivity|]. cbn [at_path] in H. destruct n as [s|v]; [discriminate|].
  destruct (nth_error (children_of v) i) as [c|] eqn:N; [|discriminate].
  pose proof (A [] i p v eq_refl eq_refl) as Pr. destruct v as [t at_ hs il src err cs]. destruct Pr as (k & St). cbn [make]. rewrite (stands_create _ _ _ _ _ _ _ err cs k St). cbn [at_path'].
  cbn [children_of] in N. rewrite nth_error_map, N. cbn [option_map]. apply IH; [exact H|]. intros q j r v E Q. apply (A (i :: q) j r v); [rewrite E; reflexivity|]. cbn [at_path children_of]. rewrite N. exact Q.
Qed.

(** ** C84 *)

(** Every part of the model of an imported component, inside elements that could be made, is there at the same place: texts; elements of
    the kind they stand for, with their properties and as many children; elements for components of other modules; and nothing for
    components the module does not export. *)
Theorem C84_tree cur md root p w : at_path p (Child root) = Some w ->
  (forall q i r v, p = q ++ i :: r -> at_path q (Child root) = Some (Child v) -> present cur md v) ->
  let there := at_path' p (KElement (create cur md root)) in
  match w with
  | Text s => there = Some (KText s)
  | Child (Vdom t at_ hs il src err cs as v) =>
      (forall k, stands cur md t src k -> NoDup (map fst at_) -> NoDup (map fst hs) -> NoDup (map fst il) ->
         exists props kids, there = Some (KElement (Create k props kids)) /\ length kids = length cs /\ forall n, dget n props = expected at_ hs il n) /\
      (foreign cur src -> there = Some (KElement (ReactPyChild v))) /\
      (~ foreign cur src -> ~ present cur md v -> there = Some (KElement Null))
  end.
Proof.
  intros H A there. pose proof (path_create cur md p (Child root) w H A) as P. cbn [make] in P. fold there in P. destruct w as [s|v]; [exact P|]. destruct v as [t at_ hs il src err cs] eqn:V. cbn [make] in P.
  split; [|split].
  - intros k St N1 N2 N3. rewrite P, (stands_create _ _ _ _ _ _ _ err cs k St). eexists _, _. split; [reflexivity|split; [apply map_length|]]. intros n. apply attributes_expected; assumption.
  - intros (s & -> & N). rewrite P. cbn [create]. destruct (same cur s) eqn:Q; [exfalso; apply N, same_iff, Q|reflexivity].
  - intros NF NP. rewrite P. cbn [create]. destruct src as [s|].
    + destruct (same cur s) eqn:Q; [|exfalso; apply NF; exists s; split; [reflexivity|]; intros E; apply same_iff in E; congruence].
      destruct (component md t) as [|id fs] eqn:C; [reflexivity|]. exfalso. apply NP. exists (Component id). apply same_iff in Q. destruct Q as [Q1 Q2]. econstructor; [exact Q1|exact Q2|apply dotted_split|].
      apply (component_exports md _ t id (dotted_split t)). exists fs. exact C.
    + exfalso. apply NP. destruct (String.string_dec t "") as [->|D]; eexists; [apply stands_fragment|apply stands_html; exact D].
Qed.

Section Calls.
  Variable convert : arg -> nat.
  Lemma collect_accepted h : forall args, accepts h args ->
    snd (collect convert h args) = Some (map convert args) /\
    (forall i, In (PreventDefault i) (fst (collect convert h args)) <-> prevent h = true /\ In (Event i) args) /\
    (forall i, In (StopPropagation i) (fst (collect convert h args)) <-> stop h = true /\ In (Event i) args).
  Proof.
    induction args as [|a rest IH]; intros A.
    - split; [reflexivity|]. split; intros i; (split; [intros []|intros [_ []]]).
    - assert (A' : accepts h rest). { intros Q. specialize (A Q). inversion A; assumption. }
      destruct (IH A') as (D & P & S). cbn [collect]. destruct a as [i|i|i].
      + destruct (collect convert h rest) as [fx d]. cbn [fst snd] in *. subst d. split; [reflexivity|]. split; intros j; rewrite !in_app_iff.
        * rewrite P. destruct (prevent h), (stop h); cbn [In]; split; intros Q; intuition (try congruence).
        * rewrite S. destruct (prevent h), (stop h); cbn [In]; split; intros Q; intuition (try congruence).
      + destruct (prevent h || stop h) eqn:Q; [specialize (A Q); inversion A as [|x l (k & K) _]; discriminate|].
        destruct (collect convert h rest) as [fx d]. cbn [fst snd] in *. subst d. split; [reflexivity|]. split; intros j; [rewrite P|rewrite S]; cbn [In]; split; intros Z; intuition congruence.
      + destruct (prevent h || stop h) eqn:Q; [specialize (A Q); inversion A as [|x l (k & K) _]; discriminate|].
        destruct (collect convert h rest) as [fx d]. cbn [fst snd] in *. subst d. split; [reflexivity|]. split; intros j; [rewrite P|rewrite S]; cbn [In]; split; intros Z; intuition congruence.
  Qed.
  (** Every call of a handler's function sends one message to its target with its arguments, and calls the methods asked for on each of its
      events; the messages are numbered from 0. *)
  Theorem C84_calls h calls : Forall (accepts h) calls ->
    length (call_all convert h 0 calls) = length calls /\
    forall n args, nth_error calls n = Some args -> nth_error (call_all convert h 0 calls) n = Some (Message (target h) (map convert args) n).
  Proof.
    intros A. enough (G : forall seq, length (call_all convert h seq calls) = length calls /\
      forall n args, nth_error calls n = Some args -> nth_error (call_all convert h seq calls) n = Some (Message (target h) (map convert args) (seq + n))) by exact (G 0).
    induction A as [|a rest Ha _ IH]; intros seq; [split; [reflexivity|intros [|n] args; discriminate]|].
    cbn [call_all]. unfold call. destruct (collect_accepted h a Ha) as (D & _). destruct (collect convert h a) as [fx d]. cbn [snd] in D. subst d. cbn [app].
    destruct (IH (S seq)) as (L & N). split; [cbn [length]; rewrite L; reflexivity|]. intros [|n] args Hn; cbn [nth_error] in *.
    - injection Hn as <-. rewrite Nat.add_0_r. reflexivity.
    - rewrite (N n args Hn), Nat.add_succ_r. reflexivity.
  Qed.
  Theorem C84_methods h seq args : accepts h args -> let fx := snd (fst (call convert h seq args)) in
    (forall i, In (PreventDefault i) fx <-> prevent h = true /\ In (Event i) args) /\ (forall i, In (StopPropagation i) fx <-> stop h = true /\ In (Event i) args).
  Proof.
    intros A. destruct (collect_accepted h args A) as (D & P & S). unfold call. destruct (collect convert h args) as [fx d]. cbn [fst snd] in *. subst d. split; assumption.
  Qed.
  (** A component that calls its handler with something else than an event: with [preventDefault] or [stopPropagation] set nothing is sent. *)
  Theorem C84_plain_refuted h seq a rest : prevent h || stop h = true -> (forall i, a <> Event i) -> call convert h seq (a :: rest) = (seq, [], None).
  Proof. intros P N. unfold call. cbn [collect]. destruct a as [i|i|i]; [destruct (N i eq_refl)| |]; rewrite P; reflexivity. Qed.
End Calls.
(** [debounce] and [throttle] are not applied by imported components: every call sends a message, whatever they are. *)
Theorem C84_debounce_refuted convert t d calls : length (call_all convert (Handler t false false (Some d) (Some d)) 0 calls) = length calls.
Proof. apply C84_calls. apply Forall_forall. intros args _ Q. discriminate. Qed.
(** The error of a component inside an imported one is not shown. *)
Theorem C84_error_refuted cur md : exists v, match v with Vdom _ _ _ _ _ err _ => err = Some "ValueError: x" end /\ create cur md v = create cur md (Vdom "" [] [] [] None None []).
Proof. exists (Vdom "" [] [] [] None (Some "ValueError: x") []). split; reflexivity. Qed.
(** The number of the last event received, which is for the client, reaches elements and components as a property. *)
Theorem C84_ack_refuted cur md : exists v props kids, create cur md v = Create (Html "input") props kids /\ dget "_reactpy_ack_seq" props = Some (Plain 3).
Proof. eexists (Vdom "input" [("value", 1); ("_reactpy_ack_seq", 3)] [("onChange", Handler "t" false false None None)] [] None None []), _, _. split; reflexivity. Qed.

Definition here : source := Source "a.js" "URL".
Definition menu : js := Value 0 [("Menu", Value 1 [("Item", Value 2 [])]); ("Off", Falsy)].
Definition click : handler := Handler "t" true false (Some (Int 200)) (Some (Int (-1))).
Definition example : vdom :=
  Vdom "Menu" [("open", 1); ("onClick", 2)] [("onClick", click); ("onKey", click)] [("onKey", "alert(1)")] (Some here) None
    [Text "a"; Child (Vdom "Menu.Item" [] [] [] (Some here) None [Text "b"]); Child (Vdom "Off" [] [] [] (Some here) None []);
     Child (Vdom "X" [] [] [] (Some (Source "b.js" "URL")) None []); Child (Vdom "p" [] [] [] None None [Text "c"])].
Example C84_example : create here menu example =
  Create (Component 1) [("open", Plain 1); ("onClick", Calls (Tagged click (Some (Int 200)) None)); ("onKey", Runs "alert(1)")]
    [KText "a"; KElement (Create (Component 2) [] [KText "b"]); KElement Null; KElement (ReactPyChild (Vdom "X" [] [] [] (Some (Source "b.js" "URL")) None []));
     KElement (Create (Html "p") [] [KText "c"])].
Proof. reflexivity. Qed.
Example C84_path : at_path [1; 0] (Child example) = Some (Text "b") /\
  (forall q i r v, [1; 0] = q ++ i :: r -> at_path q (Child example) = Some (Child v) -> present here menu v) /\
  accepts click [Event 4] /\ ~ accepts click [Object 4].
Proof.
  assert (D1 : dotted ["Menu"] "Menu") by (split; [reflexivity|split; [repeat constructor; discriminate|discriminate]]).
  assert (D2 : dotted ["Menu"; "Item"] "Menu.Item") by (split; [reflexivity|split; [repeat constructor; discriminate|discriminate]]).
  split; [reflexivity|split; [|split]].
  - intros [|i q] j r v E H.
    + injection H as <-. exists (Component 1). eapply stands_component; [reflexivity|reflexivity|exact D1|]. econstructor. reflexivity.
    + injection E as <- E. destruct q as [|k q].
      * injection H as <-. exists (Component 2). eapply stands_component; [reflexivity|reflexivity|exact D2|]. eapply exports_more; [reflexivity|]. econstructor. reflexivity.
      * injection E as _ E. destruct q; discriminate.
  - intros _. constructor; [exists 4; reflexivity|constructor].
  - intros H. specialize (H eq_refl). inversion H as [|x l (i & E) _]. discriminate.
Qed.
Print Assumptions C84_tree.
Print Assumptions C84_calls.
Print Assumptions C84_methods.
Print Assumptions C84_plain_refuted.
Print Assumptions C84_debounce_refuted.
Print Assumptions C84_error_refuted.
Print Assumptions C84_ack_refuted.
