(** * Model of the ASGI applications (/repo/src/reactpy/executors/asgi/) and properties C57, C58, C74, C75 *)
From Coq Require Import String Ascii Bool Arith Lia List.
From Verif Require Import Dict Strings PyStr JsModules JsNames.
Import ListNotations.
Local Open Scope string_scope. Local Open Scope list_scope.

(** ** C57 *)

(** A scope, by its type; a lifespan scope has no path. *)
Inductive scope := Http (path : string) | Websocket (path : string) | Lifespan.
(** [ReactPyMiddleware], its subclasses [ReactPy] and [ReactPyCsr]. Applications are numbers. *)
Inductive mode := Middleware | Standalone | Csr.
Record cfg := Cfg { c_mode : mode; c_prefix : string; c_http : list (string * nat); c_ws : list (string * nat); c_lifespan : option nat }.
Inductive target := Dispatcher | Static | Modules | Route (app : nat) | UserApp.

(** The class [a-zA-Z0-9_.] of middleware.py:94. *)
Definition path_char (a : ascii) : bool :=
  let n := nat_of_ascii a in is_alpha a || (Nat.leb 48 n && Nat.leb n 57) || Ascii.eqb a "_" || Ascii.eqb a ".".
(** The prefix, a part of the regular expression that is not escaped: a dot matches every character but a newline.
    Simplified: other characters stand for themselves, so prefixes with other special characters are not modelled. *)
Fixpoint prefix_match (p s : string) : option string :=
  match p, s with
  | "", _ => Some s
  | String a p', String b s' => if (if Ascii.eqb a "." then negb (Ascii.eqb b newline) else Ascii.eqb b a) then prefix_match p' s' else None
  | _, "" => None
  end.
Fixpoint take_path (s : string) : string * string :=
  match s with "" => ("", "") | String a s' => if path_char a then let (x, y) := take_path s' in (String a x, y) else ("", s) end.
(** [re.match(dispatcher_pattern, path)["dotted_path"]], middleware.py:93-95, 217-220; the end of the pattern also matches
    before a newline at the end. *)
Definition dotted_path (prefix path : string) : option string :=
  match prefix_match prefix path with
  | None => None
  | Some r => let (d, rest) := take_path r in
              if String.eqb d "" then None else if String.eqb rest "/" || String.eqb rest (String "/" (String newline "")) then Some d else None
  end.
Section Routing.
  (** [re.match] on a user's route. *)
  Context (matches : string -> string -> bool).
  Definition first_route (l : list (string * nat)) (path : string) : option nat :=
    match find (fun r => matches (fst r) path) l with Some r => Some (snd r) | None => None end.
  (** [match_dispatch_path], middleware.py:140-141, standalone.py:94-96, pyscript.py:92-94. *)
  Definition match_dispatch (c : cfg) (path : string) : bool :=
    match c_mode c with
    | Middleware => match dotted_path (c_prefix c) path with Some _ => true | None => false end
    | Standalone => String.eqb path (c_prefix c)
    | Csr => false
    end.
  (** [match_extra_paths], middleware.py:149-152, standalone.py:98-117. *)
  Definition match_extra (c : cfg) (sc : scope) : option nat :=
    match c_mode c with
    | Middleware => None
    | _ => match sc with Lifespan => c_lifespan c | Http p => first_route (c_http c) p | Websocket p => first_route (c_ws c) p end
    end.
  (** [ReactPyMiddleware.__call__], middleware.py:115-138. Simplified: no application is a false value. *)
  Definition serve (c : cfg) (sc : scope) : target :=
    let extra := match match_extra c sc with Some a => Route a | None => UserApp end in
    match sc with
    | Websocket p => if match_dispatch c p then Dispatcher else extra
    | Http p => if startswith (c_prefix c ++ "static/") p then Static else if startswith (c_prefix c ++ "modules/") p then Modules else extra
    | Lifespan => extra
    end.

  (** Specification. The characters of a dotted path: letters, digits, underscores and dots. *)
  Definition url_char (a : ascii) : bool := contains a "ABCDEFGHIJKLMNOPQRSTUVWXYZabcdefghijklmnopqrstuvwxyz0123456789_.".
  Definition dispatch_url (c : cfg) (p : string) : Prop :=
    match c_mode c with
    | Middleware => exists d tail, d <> "" /\ all_chars url_char d = true /\ (tail = "/" \/ tail = String "/" (String newline "")) /\ p = (c_prefix c ++ d ++ tail)%string
    | Standalone => p = c_prefix c
    | Csr => False
    end.
  Definition below (c : cfg) (dir p : string) : Prop := exists r, p = (c_prefix c ++ dir ++ r)%string.
  Definition reserved (c : cfg) (sc : scope) : Prop :=
    match sc with Http p => below c "static/" p \/ below c "modules/" p | Websocket p => dispatch_url c p | Lifespan => False end.
  (** The first of the user's routes, in the order they were added, that matches. *)
  Definition user_route (c : cfg) (sc : scope) (a : nat) : Prop :=
    c_mode c <> Middleware /\
    match sc with
    | Lifespan => c_lifespan c = Some a
    | Http p | Websocket p => exists l1 r l2, (match sc with Http _ => c_http c | _ => c_ws c end) = l1 ++ (r, a) :: l2 /\ matches r p = true /\ forall q, In q l1 -> matches (fst q) p = false
    end.
  Definition should_serve (c : cfg) (sc : scope) (t : target) : Prop :=
    match t with
    | Dispatcher => exists p, sc = Websocket p /\ dispatch_url c p
    | Static => exists p, sc = Http p /\ below c "static/" p
    | Modules => exists p, sc = Http p /\ below c "modules/" p
    | Route a => ~ reserved c sc /\ user_route c sc a
    | UserApp => ~ reserved c sc /\ forall a, ~ user_route c sc a
    end.
  Definition literal (a : ascii) : bool := negb (Ascii.eqb a ".").

  Lemma prefix_literal p s r : all_chars literal p = true -> (prefix_match p s = Some r <-> s = (p ++ r)%string).
  Proof.
    revert s. induction p as [|a p IH]; intros s L; [destruct s; simpl; split; congruence|]. cbn [all_chars] in L. apply andb_true_iff in L. destruct L as [A L]. unfold literal in A. apply negb_true_iff in A.
    destruct s as [|b s]; [simpl; split; discriminate|]. cbn [prefix_match]. rewrite A. destruct (Ascii.eqb_spec b a) as [->|N].
    - rewrite IH by auto. cbn [append]. split; congruence.
    - cbn [append]. split; congruence.
  Qed.
  Lemma take_path_spec s d r : take_path s = (d, r) -> s = (d ++ r)%string /\ all_chars path_char d = true /\ match r with "" => True | String a _ => path_char a = false end.
  Proof.
    revert d r. induction s as [|a s IH]; intros d r H; cbn [take_path] in H; [injection H as <- <-; simpl; auto|]. destruct (path_char a) eqn:P.
    - destruct (take_path s) as [x y]. injection H as <- <-. destruct (IH x y eq_refl) as (E & A & B). cbn [append all_chars]. rewrite P, E. auto.
    - injection H as <- <-. cbn. auto.
  Qed.
  Lemma take_path_app d r : all_chars path_char d = true -> match r with "" => True | String a _ => path_char a = false end -> take_path (d ++ r) = (d, r).
  Proof.
    intros A B. induction d as [|a d IH]; cbn [append]; [destruct r as [|a r]; [reflexivity|cbn [take_path]; rewrite B; reflexivity]|]. cbn [all_chars] in A. apply andb_true_iff in A. destruct A as [P A]. cbn [take_path]. rewrite P, (IH A). reflexivity.
  Qed.
  Lemma url_chars d : all_chars url_char d = all_chars path_char d.
  Proof. induction d as [|a d IH]; [reflexivity|]. simpl. rewrite IH. f_equal. clear. destruct a as [[] [] [] [] [] [] [] []]; reflexivity. Qed.
  Lemma dotted_spec prefix path d : all_chars literal prefix = true ->
    (dotted_path prefix path = Some d <-> d <> "" /\ all_chars url_char d = true /\ exists tail, (tail = "/" \/ tail = String "/" (String newline "")) /\ path = (prefix ++ d ++ tail)%string).
  Proof.
    intros L. rewrite url_chars. unfold dotted_path. split.
    - destruct (prefix_match prefix path) as [r|] eqn:P; [|discriminate]. apply (prefix_literal prefix path r L) in P. destruct (take_path r) as [x rest] eqn:T. apply take_path_spec in T. destruct T as (E & A & _).
      destruct (String.eqb_spec x ""); [discriminate|]. destruct (String.eqb rest "/" || String.eqb rest (String "/" (String newline ""))) eqn:R; [|discriminate]. intros H. injection H as <-. split; auto. split; auto. exists rest. split; [|congruence].
      apply orb_true_iff in R. destruct R as [R|R]; apply String.eqb_eq in R; auto.
    - intros (N & A & tail & T & E). assert (P : prefix_match prefix path = Some (d ++ tail)%string) by (apply prefix_literal; auto). rewrite P. rewrite take_path_app; auto.
      + destruct (String.eqb_spec d ""); [contradiction|]. destruct T as [-> | ->]; reflexivity.
      + destruct T as [-> | ->]; reflexivity.
  Qed.
  Lemma match_dispatch_spec c p : all_chars literal (c_prefix c) = true -> (match_dispatch c p = true <-> dispatch_url c p).
  Proof.
    intros L. unfold match_dispatch, dispatch_url. destruct (c_mode c).
    - split.
      + destruct (dotted_path (c_prefix c) p) as [d|] eqn:D; [|discriminate]. intros _. apply dotted_spec in D; auto. destruct D as (N & A & t & T & E). exists d, t. auto.
      + intros (d & t & N & A & T & E). assert (D : dotted_path (c_prefix c) p = Some d) by (apply dotted_spec; eauto 6). rewrite D. auto.
    - apply String.eqb_eq.
    - split; [discriminate|intros []].
  Qed.
  Lemma startswith_below c dir p : startswith (c_prefix c ++ dir) p = true <-> below c dir p.
  Proof.
    unfold startswith, below. split.
    - destruct (after (c_prefix c ++ dir) p) as [r|] eqn:A; [|discriminate]. intros _. apply after_spec in A. exists r. rewrite A, app_assoc_s. reflexivity.
    - intros (r & E). rewrite <- app_assoc_s in E. apply after_spec in E. rewrite E. auto.
  Qed.
  Lemma first_route_spec l p a : first_route l p = Some a <-> exists l1 r l2, l = l1 ++ (r, a) :: l2 /\ matches r p = true /\ forall q, In q l1 -> matches (fst q) p = false.
  Proof.
    unfold first_route. split.
    - induction l as [|[r b] l IH]; cbn [find]; [discriminate|]. cbn [fst]. destruct (matches r p) eqn:M.
      + intros H. injection H as <-. exists [], r, l. split; auto. split; auto. intros q [].
      + intros H. destruct (IH H) as (l1 & r' & l2 & -> & M' & F). exists ((r, b) :: l1), r', l2. split; auto. split; auto. intros q [<-|I]; auto.
    - intros (l1 & r & l2 & -> & M & F). induction l1 as [|q l1 IH]; cbn [app find fst]; [rewrite M; auto|]. rewrite (F q) by (left; auto). apply IH. intros q' I. apply F. right. auto.
  Qed.
  Lemma match_extra_spec c sc a : match_extra c sc = Some a <-> user_route c sc a.
  Proof. unfold match_extra, user_route. destruct (c_mode c); [split; [discriminate|intros [N _]; congruence]|destruct sc; rewrite ?first_route_spec; (split; [intros H; split; [discriminate|exact H]|intros [_ H]; exact H])..]. Qed.
  Lemma static_not_modules c p : below c "static/" p -> below c "modules/" p -> False.
  Proof. intros (r & ->) (q & E). apply app_inj_l in E. discriminate. Qed.
  (** Every request is served by the application it should be, and by no other. The prefix has no dot. *)
  Theorem C57_routing c sc t : all_chars literal (c_prefix c) = true -> (serve c sc = t <-> should_serve c sc t).
  Proof.
    intros L. assert (EX : ~ reserved c sc -> forall t, match match_extra c sc with Some a => Route a | None => UserApp end = t <-> should_serve c sc t).
    { intros NR t'. destruct (match_extra c sc) as [a|] eqn:M.
      - apply match_extra_spec in M. split.
        + intros <-. split; auto.
        + destruct t'; cbn [should_serve].
          * intros (p & -> & D). exfalso. apply NR. exact D.
          * intros (p & -> & D). exfalso. apply NR. left. exact D.
          * intros (p & -> & D). exfalso. apply NR. right. exact D.
          * intros [_ U]. apply match_extra_spec in M, U. congruence.
          * intros [_ U]. exfalso. exact (U a M).
      - split.
        + intros <-. split; auto. intros a U. apply match_extra_spec in U. congruence.
        + destruct t'; cbn [should_serve]; auto.
          * intros (p & -> & D). exfalso. apply NR. exact D.
          * intros (p & -> & D). exfalso. apply NR. left. exact D.
          * intros (p & -> & D). exfalso. apply NR. right. exact D.
          * intros [_ U]. apply match_extra_spec in U. congruence. }
    destruct sc as [p|p|]; cbn [serve].
    - destruct (startswith (c_prefix c ++ "static/") p) eqn:S; [|destruct (startswith (c_prefix c ++ "modules/") p) eqn:M].
      + apply startswith_below in S. split; [intros <-; exists p; auto|]. destruct t; cbn [should_serve]; auto.
        * intros (q & E & _). discriminate.
        * intros (q & E & M). injection E as <-. exfalso. eapply static_not_modules; eauto.
        * intros [NR _]. exfalso. apply NR. left. auto.
        * intros [NR _]. exfalso. apply NR. left. auto.
      + apply startswith_below in M. split; [intros <-; exists p; auto|]. destruct t; cbn [should_serve]; auto.
        * intros (q & E & _). discriminate.
        * intros (q & E & B). injection E as <-. exfalso. eapply static_not_modules; eauto.
        * intros [NR _]. exfalso. apply NR. right. auto.
        * intros [NR _]. exfalso. apply NR. right. auto.
      + apply EX. intros [B|B]; apply startswith_below in B; congruence.
    - destruct (match_dispatch c p) eqn:D.
      + apply match_dispatch_spec in D; auto. split; [intros <-; exists p; auto|]. destruct t; cbn [should_serve]; auto; try (intros (q & E & _); discriminate); intros [NR _]; exfalso; apply NR; exact D.
      + apply EX. intros R. apply match_dispatch_spec in R; auto. congruence.
    - apply EX. intros [].
  Qed.
End Routing.
Example C57_example : let c := Cfg Standalone "/reactpy/" [("^/a$", 1); ("^/b$", 2)] [] None in let m r p := String.eqb r ("^" ++ p ++ "$") in
  map (serve m c) [Websocket "/reactpy/"; Http "/reactpy/static/index.js"; Http "/reactpy/modules/x"; Http "/b"; Http "/"; Lifespan; Websocket "/b"]
  = [Dispatcher; Static; Modules; Route 2; UserApp; UserApp; UserApp] /\
  serve m (Cfg Middleware "/reactpy/" [] [] None) (Websocket "/reactpy/app.views.root/") = Dispatcher.
Proof. split; reflexivity. Qed.
(** Finding: the prefix is not escaped, so that with a dot in it sockets of the user's application are taken. *)
Theorem C57_dot_refuted : let c := Cfg Middleware "/v1.0/" [] [] None in serve (fun _ _ => false) c (Websocket "/v1x0/chat/") = Dispatcher /\ ~ dispatch_url c "/v1x0/chat/".
Proof. split; [reflexivity|]. intros (d & t & _ & _ & _ & E). discriminate. Qed.

(** [route] makes "^path$" of a path (standalone.py:152-156). A regular expression that is an alternative of literal
    texts, with the two anchors, by the rules of [re]: the anchors belong to the first and the last alternative. *)
Definition route_pattern (path : string) : string :=
  let p := if startswith "^" path then path else ("^" ++ path)%string in if endswith "$" p then p else (p ++ "$")%string.
Definition alternative (path alt : string) : bool :=
  let body := match after "^" alt with Some b => b | None => alt end in
  match split1 "$" body with Some (b, _) => String.eqb path b | None => startswith body path end.
Definition alternatives_match (pattern path : string) : bool := existsb (alternative path) (split "|" pattern).
(** Finding: a route with alternatives also takes the paths that start with the first one. *)
Theorem C57_alternative_refuted : let c := Cfg Standalone "/reactpy/" [(route_pattern "/a|/b", 1)] [] None in
  serve alternatives_match c (Http "/admin/secret") = Route 1 /\ serve alternatives_match c (Http "/b/x") = UserApp.
Proof. split; reflexivity. Qed.

(** ** C58 *)

(** [run_dispatcher], middleware.py:216-229: the component to serve, or the error that is logged. Components are numbers. *)
Inductive rendered := Component (c : nat) | NotInUrl | Unregistered (dotted : string) | NoRoot.
Definition run_dispatcher (multiple : bool) (prefix : string) (components : dict string nat) (root : option nat) (path : string) : rendered :=
  if multiple then match dotted_path prefix path with
                   | None => NotInUrl
                   | Some d => match dget d components with Some c => Component c | None => Unregistered d end
                   end
  else match root with Some c => Component c | None => NoRoot end.
(** With several root components exactly the registered one whose dotted path is in the URL is rendered. *)
Theorem C58_registered prefix components root path c : all_chars literal prefix = true ->
  (run_dispatcher true prefix components root path = Component c <->
   exists d tail, d <> "" /\ all_chars url_char d = true /\ (tail = "/" \/ tail = String "/" (String newline "")) /\ path = (prefix ++ d ++ tail)%string /\ dget d components = Some c).
Proof.
  intros L. unfold run_dispatcher. split.
  - destruct (dotted_path prefix path) as [d|] eqn:D; [|discriminate]. apply dotted_spec in D; auto. destruct D as (N & A & t & T & E). destruct (dget d components) as [c'|] eqn:G; [|discriminate]. intros H. injection H as <-. exists d, t. auto.
  - intros (d & t & N & A & T & E & G). assert (D : dotted_path prefix path = Some d) by (apply dotted_spec; eauto 6). rewrite D, G. auto.
Qed.
(** The URL determines the component. *)
Theorem C58_unique prefix d t d' t' : all_chars url_char d = true -> all_chars url_char d' = true ->
  (t = "/" \/ t = String "/" (String newline "")) -> (t' = "/" \/ t' = String "/" (String newline "")) -> (prefix ++ d ++ t)%string = (prefix ++ d' ++ t')%string -> d = d'.
Proof.
  rewrite !url_chars. intros A A' T T' E. apply app_inj_l in E. assert (X : take_path (d ++ t) = (d, t)) by (apply take_path_app; auto; destruct T as [-> | ->]; reflexivity).
  assert (Y : take_path (d' ++ t') = (d', t')) by (apply take_path_app; auto; destruct T' as [-> | ->]; reflexivity). congruence.
Qed.
(** Even with an unescaped dot in the prefix only registered components are rendered, namely the one whose path is in the URL
    after as many characters as the prefix has; the standalone application renders its root component only. *)
Theorem C58_only multiple prefix components root path c : run_dispatcher multiple prefix components root path = Component c ->
  if multiple then exists x d tail, path = (x ++ d ++ tail)%string /\ String.length x = String.length prefix /\ (tail = "/" \/ tail = String "/" (String newline "")) /\ dget d components = Some c
  else root = Some c.
Proof.
  unfold run_dispatcher. destruct multiple; [|destruct root; congruence].
  destruct (dotted_path prefix path) as [d|] eqn:D; [|discriminate]. destruct (dget d components) as [c'|] eqn:G; [|discriminate]. intros H. injection H as <-. unfold dotted_path in D.
  destruct (prefix_match prefix path) as [r|] eqn:P; [|discriminate]. destruct (take_path r) as [y rest] eqn:T. apply take_path_spec in T. destruct T as (E & _). destruct (String.eqb y ""); [discriminate|].
  destruct (String.eqb rest "/" || String.eqb rest (String "/" (String newline ""))) eqn:R; [|discriminate]. injection D as ->.
  assert (X : exists x, path = (x ++ r)%string /\ String.length x = String.length prefix).
  { clear - P. revert path P. induction prefix as [|a p IH]; intros s P; cbn [prefix_match] in P; [exists ""; injection P as ->; auto|]. destruct s as [|b s]; [discriminate|].
    destruct (if Ascii.eqb a "." then negb (Ascii.eqb b newline) else Ascii.eqb b a); [|discriminate]. destruct (IH s P) as (x & -> & L). exists (String b x). cbn. auto. }
  destruct X as (x & -> & L). exists x, d, rest. rewrite E. repeat split; auto. apply orb_true_iff in R. destruct R as [R|R]; apply String.eqb_eq in R; auto.
Qed.
Example C58_example : run_dispatcher true "/reactpy/" [("app.root", 7)] None "/reactpy/app.root/" = Component 7 /\ run_dispatcher true "/reactpy/" [("app.root", 7)] None "/reactpy/os.system/" = Unregistered "os.system".
Proof. split; reflexivity. Qed.

(** ** C74 *)

(** One connection, [ComponentDispatchApp.__call__] (middleware.py:159-184) and the dispatcher task that takes from its
    queue (244): the loop waits for an event, waits in [rendering_queue.put] because the queue is full, or has ended.
    [w_cap]: REACTPY_MAX_QUEUE_SIZE, 0 for no limit. *)
Inductive phase := Ready | Blocked | Ended.
Record ws := Ws { w_queue : nat; w_alive : bool; w_phase : phase }.
(** A layout event, another message, or a disconnect arrives; the dispatcher takes a message; the dispatcher ends with an
    exception (for example, an unregistered component). Simplified: a message that is not JSON, which ends the loop, is
    not modelled. *)
Inductive happens := Event | Other | Disconnect | Take | Fail.
Definition room (cap q : nat) : bool := Nat.eqb cap 0 || Nat.ltb q cap.
Definition wstep (cap : nat) (s : ws) (h : happens) : ws :=
  match h with
  | Event => match w_phase s with Ready => if room cap (w_queue s) then Ws (S (w_queue s)) (w_alive s) Ready else Ws (w_queue s) (w_alive s) Blocked | _ => s end
  | Other => s
  | Disconnect => match w_phase s with Ready => Ws (w_queue s) false Ended | _ => s end
  | Take => if w_alive s then match w_queue s with
                              | 0 => s
                              | S q => match w_phase s with Blocked => Ws (S q) true Ready | p => Ws q true p end
                              end
            else s
  | Fail => Ws (w_queue s) false (w_phase s)
  end.
Definition wrun (cap : nat) (l : list happens) : ws := fold_left (wstep cap) l (Ws 0 true Ready).
Definition winv (cap : nat) (s : ws) : Prop := w_phase s = Blocked -> cap <> 0 /\ w_queue s = cap.
Lemma wrun_inv cap l : winv cap (wrun cap l) /\ (cap <> 0 -> w_queue (wrun cap l) <= cap).
Proof.
  unfold wrun. assert (G : forall l s, winv cap s /\ (cap <> 0 -> w_queue s <= cap) -> winv cap (fold_left (wstep cap) l s) /\ (cap <> 0 -> w_queue (fold_left (wstep cap) l s) <= cap)).
  { induction l0 as [|h l0 IH]; intros s V; [exact V|]. cbn [fold_left]. apply IH. destruct V as [V Q]. unfold winv in *. destruct h; cbn [wstep]; auto.
    - destruct (w_phase s) eqn:P; auto; try (rewrite P; auto). unfold room. destruct (Nat.eqb_spec cap 0); cbn [orb w_phase w_queue]; [split; [discriminate|congruence]|]. destruct (Nat.ltb_spec (w_queue s) cap); cbn [w_phase w_queue]; split; try discriminate; auto; try lia.
    - destruct (w_phase s) eqn:P; auto; try (rewrite P; auto). cbn. split; [discriminate|auto].
    - destruct (w_alive s); auto. destruct (w_queue s) as [|q] eqn:E; [rewrite E; split; [exact V|exact Q]|]. destruct (w_phase s) eqn:P; cbn [w_phase w_queue].
      + split; [discriminate|]. intros N. specialize (Q N). lia.
      + split; [discriminate|auto].
      + split; [discriminate|]. intros N. specialize (Q N). lia. }
  apply G. split; [discriminate|]. cbn. lia.
Qed.
(** While the dispatcher runs, a full queue blocks the loop only until the next message is taken, and the loop that waits
    for an event ends at a disconnect, and the dispatcher with it. *)
Theorem C74_alive_partial cap l : let s := wrun cap l in
  (w_alive s = true -> w_phase s = Blocked -> w_phase (wstep cap s Take) = Ready) /\ (w_phase s = Ready -> w_phase (wstep cap s Disconnect) = Ended /\ w_alive (wstep cap s Disconnect) = false).
Proof.
  cbv zeta. split.
  - intros A B. destruct (wrun_inv cap l) as [V _]. destruct (V B) as [N Q]. cbn [wstep]. rewrite A. destruct (w_queue (wrun cap l)) as [|q] eqn:E; [lia|]. rewrite B. reflexivity.
  - intros R. cbn [wstep]. rewrite R. split; reflexivity.
Qed.
(** Finding: after the dispatcher failed the connection stays open, and as soon as the queue is full the loop never notices
    a disconnect. *)
Theorem C74_dead_refuted cap l : w_alive (wrun cap l) = false -> w_phase (wrun cap l) = Blocked -> forall l', w_phase (wrun cap (l ++ l')) = Blocked.
Proof.
  intros A B l'. unfold wrun in *. rewrite fold_left_app. revert A B. generalize (fold_left (wstep cap) l (Ws 0 true Ready)). induction l' as [|h l' IH]; intros s A B; [exact B|]. cbn [fold_left]. apply IH; destruct h; cbn [wstep]; rewrite ?A, ?B; auto.
Qed.
(** This happens whenever more layout events arrive than the queue holds. *)
Theorem C74_reached cap : cap <> 0 -> let s := wrun cap (Fail :: repeat Event (S cap)) in w_alive s = false /\ w_phase s = Blocked.
Proof.
  intros N. cbv zeta. unfold wrun. cbn [fold_left]. change (wstep cap (Ws 0 true Ready) Fail) with (Ws 0 false Ready).
  assert (ST : forall q, wstep cap (Ws q false Ready) Event = if Nat.ltb q cap then Ws (S q) false Ready else Ws q false Blocked) by (intros q; cbn [wstep w_phase w_queue w_alive]; unfold room; destruct (Nat.eqb_spec cap 0); [contradiction|reflexivity]).
  assert (G : forall k q, q + k = cap -> fold_left (wstep cap) (repeat Event (S k)) (Ws q false Ready) = Ws cap false Blocked).
  { induction k as [|k IH]; intros q E.
    - cbn [repeat fold_left]. rewrite ST. destruct (Nat.ltb_spec q cap); [lia|]. replace q with cap by lia. reflexivity.
    - remember (S k) as m. cbn [repeat fold_left]. rewrite ST. destruct (Nat.ltb_spec q cap); [|lia]. subst m. apply (IH (S q)). lia. }
  rewrite (G cap 0) by lia. auto.
Qed.

(** ** C75 *)

(** A text by its UTF-8 bytes: [len] counts the bytes that do not continue a character. *)
Definition continues (a : ascii) : bool := let n := nat_of_ascii a in Nat.leb 128 n && Nat.ltb n 192.
Fixpoint chars (s : string) : nat := match s with "" => 0 | String a s' => (if continues a then 0 else 1) + chars s' end.
(** The index page's response, [ReactPyApp.__call__] (standalone.py:207-239): status, announced length, body. Simplified:
    the user's headers do not set the length; other headers are left out. *)
Record response := Response { r_status : nat; r_length : option nat; r_body : string }.
Definition index_response (html etag modified : string) (head : bool) (if_none_match if_modified_since : option string) : response :=
  let same h x := match h with Some y => String.eqb y x | None => false end in
  if head then Response 200 (Some (chars html)) ""
  else if same if_none_match etag || same if_modified_since modified then Response 304 None ""
  else Response 200 (Some (chars html)) html.
(** A request that is not conditional, or whose validators are not current, gets the page; a current one gets an empty 304. *)
Theorem C75_conditional html etag modified head inm ims : let r := index_response html etag modified head inm ims in
  (r_status r = 304 <-> head = false /\ (inm = Some etag \/ ims = Some modified)) /\ (r_body r = if head then "" else if Nat.eqb (r_status r) 304 then "" else html).
Proof.
  cbv zeta. unfold index_response. destruct head; cbn; [split; [split; [discriminate|intros [? _]; discriminate]|auto]|].
  assert (S : forall (h : option string) x, (match h with Some y => String.eqb y x | None => false end) = true <-> h = Some x) by (intros [y|] x; [rewrite String.eqb_eq; split; congruence|split; discriminate]).
  destruct ((match inm with Some y => String.eqb y etag | None => false end) || (match ims with Some y => String.eqb y modified | None => false end)) eqn:E; cbn.
  - apply orb_true_iff in E. rewrite !S in E. tauto.
  - split; [|auto]. split; [discriminate|]. intros [_ H]. apply orb_false_iff in E. destruct E as [E F]. destruct H as [H|H]; apply S in H; congruence.
Qed.
(** The announced length is the body's length for pages of ASCII characters. *)
Theorem C75_length_partial html etag modified inm ims n : all_chars (fun a => Nat.ltb (nat_of_ascii a) 128) html = true ->
  r_length (index_response html etag modified false inm ims) = Some n -> n = String.length (r_body (index_response html etag modified false inm ims)).
Proof.
  intros A. unfold index_response. destruct (_ || _); cbn; [discriminate|]. intros H. injection H as <-. induction html as [|a s IH]; auto. cbn [all_chars] in A. apply andb_true_iff in A. destruct A as [B A]. cbn [chars String.length]. rewrite (IH A).
  unfold continues. apply Nat.ltb_lt in B. destruct (Nat.leb_spec 128 (nat_of_ascii a)); [lia|]. reflexivity.
Qed.
(** Finding: for other pages (a title "é") the header given to the response is smaller than the page in bytes. (Whether the response
    class of asgi_tools corrects it is outside the model.) *)
Theorem C75_length_refuted : let html := String "195" (String "169" "!") in let r := index_response html "e" "m" false None None in
  r_length r = Some 2 /\ String.length (r_body r) = 3.
Proof. split; reflexivity. Qed.
Example C75_example : index_response "<p>" "e" "m" false (Some "e") None = Response 304 None "" /\ index_response "<p>" "e" "m" false None (Some "x") = Response 200 (Some 3) "<p>".
Proof. split; reflexivity. Qed.
Print Assumptions C57_routing.
Print Assumptions C58_registered.
Print Assumptions C58_only.
Print Assumptions C74_alive_partial.
Print Assumptions C74_dead_refuted.
Print Assumptions C74_reached.
Print Assumptions C75_conditional.
Print Assumptions C75_length_partial.
