(** * Model of creating applications, and property C111
    /repo/src/reactpy/executors/asgi/middleware.py:58-113 and 149-152, standalone.py:45-92, 133-180, 183-259, pyscript.py:26-136
    (the constructors, [route], [lifespan] and the index page), /repo/src/reactpy/executors/utils.py:21-46
    ([import_components], [check_path], [vdom_head_to_html]), /repo/src/reactpy/utils.py:284-301 ([import_dotted_path]).
    Routing: AsgiModel.v. The options: Settings.v. The scripts in a page: PageSetup.v. *)
From Coq Require Import String Ascii ZArith Bool Arith Lia List.
From Verif Require Import EffectModel EffectProps Dict Strings PyStr JsModules JsNames OptionModel Settings AsgiModel PageSetup.
Import ListNotations.
Local Open Scope string_scope. Local Open Scope list_scope.

(** ** Model *)

(** What a constructor or decorator raises. [EOption]: what setting an option raises; [EOther]: other exceptions. *)
Inductive err := EValue | EImport | EAttribute | EOption (e : error) | EOther (n : nat).
(** What [getattr(module, name)] gives and what [import_module(name)] gives. Objects are numbers. *)
Inductive attr := Attr (obj : nat) | NoAttr | AttrRaises (n : nat).
Inductive module := Imported (names : string -> attr) | NotImported | ImportRaises (n : nat).

(** [s.rsplit(c, 1)] for a text with a [c]. *)
Fixpoint rsplit1 (c : ascii) (s : string) : option (string * string) :=
  match s with
  | "" => None
  | String a s' => match rsplit1 c s' with
                   | Some (x, y) => Some (String a x, y)
                   | None => if Ascii.eqb a c then Some ("", s') else None
                   end
  end.

(** What a head element contains: children given by the user, and the elements [pyscript_setup] adds for some options. *)
Inductive hchild := Given (n : nat) | Setup (options : nat).
(** An element passed as [html_head]. Simplified: no attributes. *)
Record head := Head { h_tag : string; h_children : list hchild }.
(** The head of an application: one made by its constructor, or one of the user's elements, which others may use as well. *)
Inductive headref := Own (children : list hchild) | Shared (n : nat).

(** The three constructors with their own arguments: the user's application and the dotted paths; the root component and the
    options of [pyscript_setup]; the files and the other PyScript options. *)
Inductive sort := ForMiddleware (user : nat) (roots : list string) | ForStandalone (root : nat) (setup : option nat) | ForCsr (files : list string) (options : nat).
(** [prepend_body]: not given, or given as [None] or an element. *)
Inductive prepended := Default | GivenBody (e : option nat).
Record args := Args { n_sort : sort; n_head : option nat; n_prepend : prepended; n_lang : string; n_settings : list (string * value) }.

(** An application. [a_index]: [_index_html] of its [asgi_app]. *)
Record application := App { a_cfg : cfg; a_sort : sort; a_components : dict string nat; a_head : headref; a_prepend : prepended; a_lang : string; a_index : string }.
(** The options of the process, the user's head elements, the applications made so far. *)
Record world := World { w_opts : state; w_heads : nat -> head; w_apps : list application }.

(** An object, or the dotted path of one. *)
Inductive target := Object (n : nat) | Dotted (d : string).
Inductive op := New (a : args) | RouteOf (i : nat) (http : bool) (path : string) (t : target) | LifespanOf (i : nat) (t : target) | Request (i : nat) (sc : scope).
Inductive answer := Created (i : nat) | Added | Failed (e : err) | Renders (component : nat) | Refused | StaticFile | ModuleFile | PassedTo (app : nat) | Page (text : string) | Nothing.

Section Process.
(** [import_module] (simplified: always the same result, and no other effect); [re.match]; [re.compile] of a prefix; the text of
    an option's value; whether it is a text; [exists()] of a directory (none: no such method). *)
Variable modules : string -> module.
Variable matches : string -> string -> bool.
Variable compiles : string -> bool.
Variable show : value -> string.
Variable is_text : value -> bool.
Variable dir_exists : value -> option bool.
(** The texts of children and elements ([reactpy_to_string], HtmlModel.v) and of PyScript's parts (PyscriptSetup.v, PyscriptCode.v).
    Simplified: they are made without error and do not change. [setup_error]: [pyscript_setup_html] or [string_to_reactpy] raises. *)
Variable child_text : hchild -> string.
Variable body_text : nat -> string.
Variable setup_error : nat -> option err.
Variables csr_setup : nat -> string.
Variable csr_component : list string -> nat -> string.

(** [import_dotted_path], /repo/src/reactpy/utils.py:284-301. *)
Definition import_dotted_path (d : string) : nat + err :=
  match rsplit1 "." d with
  | None => inr EValue
  | Some (m, x) => match modules m with
                   | NotImported => inr EImport
                   | ImportRaises n => inr (EOther n)
                   | Imported names => match names x with Attr o => inl o | NoAttr => inr EAttribute | AttrRaises n => inr (EOther n) end
                   end
  end.
(** [import_components], executors/utils.py:21-25. *)
Fixpoint import_components (ds : list string) (acc : dict string nat) : dict string nat + err :=
  match ds with
  | [] => inl acc
  | d :: ds' => match import_dotted_path d with inl o => import_components ds' (dset d o acc) | inr e => inr e end
  end.

Definition text_of (o : nat) (st : state) : string := match cur_of st o with Some v => show v | None => "" end.
Definition page_settings (st : state) : settings := Settings (text_of 10 st) (text_of 6 st) (text_of 7 st) (text_of 8 st) (text_of 9 st).

(** The checks before the settings are processed, middleware.py:74-85. *)
Definition checked (s : list (string * value)) : option err :=
  match dget "path_prefix" s with
  | Some v => if is_text v && check_path (show v) then None else Some EValue
  | None => None
  end.
Definition checked_dir (s : list (string * value)) : option err :=
  match dget "web_modules_dir" s with
  | Some v => match dir_exists v with Some true => None | Some false => Some EValue | None => Some EAttribute end
  | None => None
  end.
(** [ReactPyMiddleware.__init__], middleware.py:74-113: the options afterwards, and the prefix and components, or the error. *)
Definition base_init (s : list (string * value)) (roots : list string) (st : state) : state * ((string * dict string nat) + err) :=
  match checked s with
  | Some e => (st, inr e)
  | None =>
      match checked_dir s with
      | Some e => (st, inr e)
      | None =>
          let (r, st') := process s st in
          match r with
          | Raised e => (st', inr (EOption e))
          | NoFuel => (st', inr (EOther 0))
          | Done => if negb (compiles (text_of 10 st')) then (st', inr (EOther 1))
                    else match import_components roots [] with
                         | inl components => (st', inl (text_of 10 st', components))
                         | inr e => (st', inr e)
                         end
          end
      end
  end.

Definition roots_of (k : sort) : list string := match k with ForMiddleware _ roots => roots | _ => [] end.
Definition mode_of (k : sort) : mode := match k with ForMiddleware _ _ => Middleware | ForStandalone _ _ => Standalone | ForCsr _ _ => Csr end.
Definition add_child (c : hchild) (h : head) : head := Head (h_tag h) (h_children h ++ [c]).
Definition heads_with (n : nat) (c : hchild) (heads : nat -> head) : nat -> head := fun m => if Nat.eqb m n then add_child c (heads m) else heads m.
(** The constructors: middleware.py:58-113; standalone.py:71-92; pyscript.py:72-90. [html_head or html.head()]: an element is
    never false. In standalone.py:82-92 the elements for PyScript are appended to the head given. *)
Definition new (a : args) (w : world) : world * answer :=
  let (st, r) := base_init (n_settings a) (roots_of (n_sort a)) (w_opts w) in
  match r with
  | inr e => (World st (w_heads w) (w_apps w), Failed e)
  | inl (prefix, components) =>
      let made hr heads := (World st heads (w_apps w ++ [App (Cfg (mode_of (n_sort a)) prefix [] [] None) (n_sort a) components hr (n_prepend a) (n_lang a) ""]),
                            Created (length (w_apps w))) in
      let hr := match n_head a with Some n => Shared n | None => Own [] end in
      match n_sort a with
      | ForMiddleware _ _ | ForStandalone _ None => made hr (w_heads w)
      | ForStandalone _ (Some o) =>
          match setup_error o with
          | Some e => (World st (w_heads w) (w_apps w), Failed e)
          | None => match hr with
                    | Own l => made (Own (l ++ [Setup o])) (w_heads w)
                    | Shared n => made hr (heads_with n (Setup o) (w_heads w))
                    end
          end
      | ForCsr files _ => match files with [] => (World st (w_heads w) (w_apps w), Failed EValue) | _ => made hr (w_heads w) end
      end
  end.

(** [import_dotted_path(app) if isinstance(app, str) else app], standalone.py:158, 178-180. *)
Definition object_of (t : target) : nat + err := match t with Object n => inl n | Dotted d => import_dotted_path d end.
Definition with_cfg (c : cfg) (a : application) : application := App c (a_sort a) (a_components a) (a_head a) (a_prepend a) (a_lang a) (a_index a).
Definition with_index (s : string) (a : application) : application := App (a_cfg a) (a_sort a) (a_components a) (a_head a) (a_prepend a) (a_lang a) s.
Definition put_app (i : nat) (a : application) (w : world) : world := World (w_opts w) (w_heads w) (put (w_apps w) i a).
(** [route], standalone.py:133-166; only standalone applications have it. *)
Definition route (i : nat) (http : bool) (path : string) (t : target) (w : world) : world * answer :=
  match nth_error (w_apps w) i with
  | None => (w, Nothing)
  | Some a =>
      let c := a_cfg a in
      match c_mode c with
      | Middleware => (w, Failed EAttribute)
      | _ => match object_of t with
             | inr e => (w, Failed e)
             | inl o => let c' := if http then Cfg (c_mode c) (c_prefix c) (dset (route_pattern path) o (c_http c)) (c_ws c) (c_lifespan c)
                                  else Cfg (c_mode c) (c_prefix c) (c_http c) (dset (route_pattern path) o (c_ws c)) (c_lifespan c) in
                        (put_app i (with_cfg c' a) w, Added)
             end
      end
  end.
(** [lifespan], standalone.py:168-180. Simplified: no application is a false value. *)
Definition lifespan (i : nat) (t : target) (w : world) : world * answer :=
  match nth_error (w_apps w) i with
  | None => (w, Nothing)
  | Some a =>
      let c := a_cfg a in
      match c_mode c, c_lifespan c with
      | Middleware, _ => (w, Failed EAttribute)
      | _, Some _ => (w, Failed EValue)
      | _, None => match object_of t with
                   | inr e => (w, Failed e)
                   | inl o => (put_app i (with_cfg (Cfg (c_mode c) (c_prefix c) (c_http c) (c_ws c) (Some o)) a) w, Added)
                   end
      end
  end.

(** [reactpy_to_string(html_head)], for a head. *)
Definition head_text (l : list hchild) : string := ("<head>" ++ String.concat "" (map child_text l) ++ "</head>")%string.
Definition noscript : string := "<noscript>Enable JavaScript to view this site.</noscript>".
Definition prepend_text (p : prepended) : string := match p with Default => noscript | GivenBody None => "" | GivenBody (Some e) => body_text e end.
(** [text.replace(old, new)] for an [old] that is not empty; [skip]: the rest of a match. *)
Fixpoint replace_text (old new : string) (skip : nat) (s : string) : string :=
  match s with
  | "" => ""
  | String a s' => match skip with
                   | S k => replace_text old new k s'
                   | 0 => if startswith old s then (new ++ replace_text old new (String.length old - 1) s')%string else String a (replace_text old new 0 s')
                   end
  end.
Definition document (lang head body : string) : string :=
  ("<!doctype html>" ++ "<html lang=""" ++ lang ++ """>" ++ head ++ "<body>" ++ body ++ "</body>" ++ "</html>")%string.
(** [render_index_html], standalone.py:241-256 and pyscript.py:106-136; [vdom_head_to_html] (executors/utils.py:42-46) raises
    for other elements. *)
Definition head_of (w : world) (a : application) : head := match a_head a with Own l => Head "head" l | Shared n => w_heads w n end.
Definition index_text (w : world) (a : application) : string + err :=
  let h := head_of w a in
  if negb (String.eqb (h_tag h) "head") then inr EValue
  else match a_sort a with
       | ForCsr files o => inl (document (a_lang a) (replace_text "</head>" (csr_setup o ++ "</head>") 0 (head_text (h_children h)))
                                         (prepend_text (a_prepend a) ++ csr_component files o))
       | _ => inl (document (a_lang a) (head_text (h_children h)) (prepend_text (a_prepend a) ++ standalone_html (page_settings (w_opts w))))
       end.
(** A request: [ReactPyMiddleware.__call__], then the sub-application: [run_dispatcher] (middleware.py:216-229) or [ReactPyApp]
    (standalone.py:193-209, 238-239), which keeps the page. Methods and headers: C75. *)
Definition request (i : nat) (sc : scope) (w : world) : world * answer :=
  match nth_error (w_apps w) i with
  | None => (w, Nothing)
  | Some a =>
      match serve matches (a_cfg a) sc with
      | Dispatcher => match sc with
                      | Websocket p => (w, match run_dispatcher (match a_sort a with ForMiddleware _ _ => true | _ => false end) (c_prefix (a_cfg a)) (a_components a)
                                                   (match a_sort a with ForStandalone root _ => Some root | _ => None end) p with
                                           | Component c => Renders c
                                           | _ => Refused
                                           end)
                      | _ => (w, Nothing)
                      end
      | Static => (w, StaticFile)
      | Modules => (w, ModuleFile)
      | Route n => (w, PassedTo n)
      | UserApp => match a_sort a with
                   | ForMiddleware user _ => (w, PassedTo user)
                   | _ => match sc with
                          | Http _ => if String.eqb (a_index a) ""
                                      then match index_text w a with inl t => (put_app i (with_index t a) w, Page t) | inr e => (w, Failed e) end
                                      else (w, Page (a_index a))
                          | Websocket _ => (w, Failed (EOther 2))
                          | Lifespan => (w, Nothing)
                          end
                   end
      end
  end.

Definition step (w : world) (o : op) : world * answer :=
  match o with
  | New a => new a w
  | RouteOf i http path t => route i http path t w
  | LifespanOf i t => lifespan i t w
  | Request i sc => request i sc w
  end.
Definition run (ops : list op) (w : world) : world := fold_left (fun w o => fst (step w o)) ops w.
End Process.

(** ** Specification *)

Section Spec.
Variable modules : string -> module.
(** The dotted path names this object: its last part names an attribute of the module that the rest names. *)
Definition names_object (d : string) (o : nat) : Prop :=
  exists m x attrs, d = (m ++ "." ++ x)%string /\ nochar "." x /\ modules m = Imported attrs /\ attrs x = Attr o.
Definition means (t : target) (o : nat) : Prop := match t with Object n => n = o | Dotted d => names_object d o end.
(** The pattern of a route: its path, with the two anchors if it has not got them. *)
Definition anchored (path pattern : string) : Prop := exists l r, pattern = (l ++ path ++ r)%string /\
  ((exists x, path = "^" ++ x)%string /\ l = "" \/ ~ (exists x, path = "^" ++ x)%string /\ l = "^") /\
  ((exists x, path = x ++ "$")%string /\ r = "" \/ ~ (exists x, path = x ++ "$")%string /\ r = "$").
(** The routes added to the application [i], in order, with their objects. *)
Inductive routes_added (i : nat) (http : bool) : list op -> list (string * nat) -> Prop :=
| added_none : routes_added i http [] []
| added_one path pattern t o ops R : anchored path pattern -> means t o -> routes_added i http ops R ->
    routes_added i http (RouteOf i http path t :: ops) ((pattern, o) :: R)
| added_skip x ops R : (forall path t o, x = RouteOf i http path t -> ~ means t o) -> routes_added i http ops R -> routes_added i http (x :: ops) R.
(** The object that was given last for a pattern. *)
Definition last_given (R : list (string * nat)) (pattern : string) (o : nat) : Prop :=
  exists A B, R = A ++ (pattern, o) :: B /\ forall q, In q B -> fst q <> pattern.
(** The application a request is passed to: the one given last for the first pattern, in the order of their first appearance,
    that matches. *)
Definition routed (matches : string -> string -> bool) (R : list (string * nat)) (path : string) (o : nat) : Prop :=
  exists A pattern o' B, R = A ++ (pattern, o') :: B /\ matches pattern path = true /\ (forall q, In q A -> matches (fst q) path = false) /\ last_given R pattern o.
(** The first lifespan application that could be added. *)
Definition first_lifespan (i : nat) (ops : list op) (o : nat) : Prop :=
  exists A t B, ops = A ++ LifespanOf i t :: B /\ means t o /\ forall t' o', In (LifespanOf i t') A -> ~ means t' o'.
End Spec.

(** ** Proofs *)

Lemma rsplit1_none c s : rsplit1 c s = None <-> nochar c s.
Proof.
  induction s as [|a s IH]; [cbn; tauto|]. cbn [rsplit1 nochar]. destruct (rsplit1 c s) as [[x y]|].
  - split; [discriminate|]. intros [_ N]. apply IH in N. discriminate.
  - destruct (Ascii.eqb_spec a c) as [->|N]; [split; [discriminate|tauto]|]. tauto.
Qed.
Lemma rsplit1_some c s : forall x y, rsplit1 c s = Some (x, y) <-> s = (x ++ String c y)%string /\ nochar c y.
Proof.
  induction s as [|a s IH]; intros x y; [cbn; split; [discriminate|intros [H _]; destruct x; discriminate]|]. cbn [rsplit1]. destruct (rsplit1 c s) as [[x' y']|] eqn:E.
  - destruct (proj1 (IH x' y') eq_refl) as [-> N]. split.
    + intros H. injection H as <- <-. auto.
    + intros [H N']. destruct x as [|b x]; cbn [append] in H.
      * injection H as -> H. exfalso. rewrite <- H in N'. apply nochar_app in N'. cbn in N'. tauto.
      * injection H as -> H. apply split_last in H; auto. destruct H as [-> ->]. reflexivity.
  - assert (N : nochar c s) by (apply rsplit1_none; exact E). destruct (Ascii.eqb_spec a c) as [->|D]; split.
    + intros H. injection H as <- <-. auto.
    + intros [H N']. destruct x as [|b x]; cbn [append] in H; [injection H as ->; reflexivity|]. injection H as -> ->. apply nochar_app in N. cbn in N. tauto.
    + discriminate.
    + intros [H N']. destruct x as [|b x]; cbn [append] in H; [injection H as -> ->; congruence|]. injection H as -> ->. apply nochar_app in N. cbn in N. tauto.
Qed.

Section Facts.
Variable modules : string -> module.
Variable matches : string -> string -> bool.
Variable compiles : string -> bool.
Variable show : value -> string.
Variable is_text : value -> bool.
Variable dir_exists : value -> option bool.
Variable child_text : hchild -> string.
Variable body_text : nat -> string.
Variable setup_error : nat -> option err.
Variables csr_setup : nat -> string.
Variable csr_component : list string -> nat -> string.
Local Notation NEW := (new modules compiles show is_text dir_exists setup_error).
Local Notation STEP := (step modules matches compiles show is_text dir_exists child_text body_text setup_error csr_setup csr_component).
Local Notation RUN := (run modules matches compiles show is_text dir_exists child_text body_text setup_error csr_setup csr_component).
Local Notation REQUEST := (request matches show child_text body_text csr_setup csr_component).
Local Notation INIT := (base_init modules compiles show is_text dir_exists).

Lemma import_spec d o : import_dotted_path modules d = inl o <-> names_object modules d o.
Proof.
  unfold import_dotted_path, names_object. destruct (rsplit1 "." d) as [[m x]|] eqn:E.
  - apply rsplit1_some in E. destruct E as [-> N]. split.
    + destruct (modules m) as [attrs| |] eqn:M; try discriminate. destruct (attrs x) eqn:A; try discriminate. intros H. injection H as <-. exists m, x, attrs. auto.
    + intros (m' & x' & attrs & H & N' & M & A). change ("." ++ x')%string with (String "." x') in H. apply split_last in H; auto. destruct H as [-> ->]. rewrite M, A. reflexivity.
  - apply rsplit1_none in E. split; [discriminate|]. intros (m & x & attrs & -> & _). apply nochar_app in E. cbn in E. tauto.
Qed.
Lemma object_spec t o : object_of modules t = inl o <-> means modules t o.
Proof. destruct t as [n|d]; cbn [object_of means]; [split; congruence|apply import_spec]. Qed.

Lemma import_components_ok ds : forall acc, (exists c, import_components modules ds acc = inl c) <-> forall d, In d ds -> exists o, names_object modules d o.
Proof.
  induction ds as [|d ds IH]; intros acc; cbn [import_components]; [split; [intros _ d []|eauto]|]. destruct (import_dotted_path modules d) as [o|e] eqn:E.
  - apply import_spec in E. rewrite IH. split; [intros H d' [<-|I]; eauto|intros H d' I; apply H; right; exact I].
  - split; [intros [c C]; discriminate|]. intros H. destruct (H d (or_introl eq_refl)) as [o O]. apply import_spec in O. congruence.
Qed.
Lemma import_components_get ds : forall acc c, import_components modules ds acc = inl c ->
  forall d o, dget d c = Some o <-> (In d ds /\ names_object modules d o) \/ (~ In d ds /\ dget d acc = Some o).
Proof.
  induction ds as [|d0 ds IH]; intros acc c H d o; cbn [import_components] in H.
  - injection H as <-. cbn [In]. tauto.
  - destruct (import_dotted_path modules d0) as [o0|e] eqn:E; [|discriminate]. rewrite (IH _ _ H d o). rewrite dget_dset. cbn [In]. destruct (eq_dec d d0) as [->|N].
    + split.
      * intros [[I O]|[I O]]; left; (split; [auto|]); [exact O|]. injection O as <-. apply import_spec, E.
      * intros [[_ O]|[I _]]; [|tauto]. apply import_spec in O. destruct (in_dec String.string_dec d0 ds) as [I|I]; [left; split; [exact I|apply import_spec, O]|right; split; [exact I|congruence]].
    + assert (X : d0 = d <-> False) by (split; [congruence|tauto]). tauto.
Qed.

(** *** Creating an application *)

(** The arguments other than settings are in order. *)
Definition sort_ok (k : sort) : Prop :=
  match k with
  | ForMiddleware _ roots => forall d, In d roots -> exists o, names_object modules d o
  | ForStandalone _ (Some o) => setup_error o = None
  | ForStandalone _ None => True
  | ForCsr files _ => files <> []
  end.
Lemma init_spec s roots st : (exists p c, snd (INIT s roots st) = inl (p, c)) <->
  (forall v, dget "path_prefix" s = Some v -> is_text v = true /\ slashed (show v)) /\
  (forall v, dget "web_modules_dir" s = Some v -> dir_exists v = Some true) /\
  fst (process s st) = Done /\ compiles (text_of show 10 (snd (process s st))) = true /\
  (forall d, In d roots -> exists o, names_object modules d o).
Proof.
  assert (A : checked show is_text s = None <-> forall v, dget "path_prefix" s = Some v -> is_text v = true /\ slashed (show v)).
  { unfold checked. destruct (dget "path_prefix" s) as [v|]; [|split; [discriminate|reflexivity]]. destruct (is_text v && check_path (show v)) eqn:E.
    - apply andb_prop in E. destruct E as [E1 E2]. apply slashed_spec in E2. split; [intros _ v' H; injection H as <-; auto|reflexivity].
    - split; [discriminate|]. intros H. destruct (H v eq_refl) as [H1 H2]. apply slashed_spec in H2. rewrite H1, H2 in E. discriminate. }
  assert (B : checked_dir dir_exists s = None <-> forall v, dget "web_modules_dir" s = Some v -> dir_exists v = Some true).
  { unfold checked_dir. destruct (dget "web_modules_dir" s) as [v|]; [|split; [discriminate|reflexivity]]. destruct (dir_exists v) as [[|]|] eqn:E.
    - split; [intros _ v' H; injection H as <-; auto|reflexivity].
    - split; [discriminate|]. intros H. rewrite (H v eq_refl) in E. discriminate.
    - split; [discriminate|]. intros H. rewrite (H v eq_refl) in E. discriminate. }
  unfold base_init. destruct (checked show is_text s) as [e|].
  { split; [intros (p & c & H); discriminate|]. intros (H & _). apply A in H. discriminate. }
  destruct (checked_dir dir_exists s) as [e|].
  { split; [intros (p & c & H); discriminate|]. intros (_ & H & _). apply B in H. discriminate. }
  destruct (process s st) as [r st'] eqn:P. cbn [fst snd]. destruct r as [|e|].
  2,3: split; [intros (p & c & H); discriminate|intros (_ & _ & H & _); discriminate].
  destruct (compiles (text_of show 10 st')) eqn:C; cbn [negb].
  - pose proof (import_components_ok roots []) as X. destruct (import_components modules roots []) as [c|e]; cbn [snd].
    + split; [intros _|intros _; eauto]. split; [apply A; reflexivity|]. split; [apply B; reflexivity|]. split; [reflexivity|]. split; [reflexivity|]. apply X. eauto.
    + split; [intros (p & c & H); discriminate|]. intros (_ & _ & _ & _ & H). apply X in H. destruct H as [c H]. discriminate.
  - split; [intros (p & c & H); discriminate|]. intros (_ & _ & _ & H & _). discriminate.
Qed.
Lemma init_opts s roots st : fst (INIT s roots st) = st \/ fst (INIT s roots st) = snd (process s st).
Proof.
  unfold base_init. destruct (checked show is_text s); [left; reflexivity|]. destruct (checked_dir dir_exists s); [left; reflexivity|]. destruct (process s st) as [r st']. right.
  destruct r; [|reflexivity|reflexivity]. destruct (compiles (text_of show 10 st')); cbn [negb]; [|reflexivity]. destruct (import_components modules roots []); reflexivity.
Qed.
Lemma init_ok s roots st p c : snd (INIT s roots st) = inl (p, c) ->
  fst (INIT s roots st) = snd (process s st) /\ p = text_of show 10 (snd (process s st)) /\ import_components modules roots [] = inl c.
Proof.
  unfold base_init. destruct (checked show is_text s); [discriminate|]. destruct (checked_dir dir_exists s); [discriminate|]. destruct (process s st) as [r st'].
  destruct r; [|discriminate|discriminate]. destruct (compiles (text_of show 10 st')); cbn [negb]; [|discriminate].
  destruct (import_components modules roots []) as [c'|e]; cbn [fst snd]; [|discriminate]. intros H. injection H as <- <-. auto.
Qed.
(** The elements a constructor adds to the head. *)
Definition own_setup (k : sort) : list hchild := match k with ForStandalone _ (Some o) => [Setup o] | _ => [] end.
Lemma new_cases a w : let st' := snd (process (n_settings a) (w_opts w)) in
  (exists e, NEW a w = (World (fst (INIT (n_settings a) (roots_of (n_sort a)) (w_opts w))) (w_heads w) (w_apps w), Failed e)) \/
  (exists c heads, NEW a w = (World st' heads (w_apps w ++ [App (Cfg (mode_of (n_sort a)) (text_of show 10 st') [] [] None) (n_sort a) c
                                (match n_head a with Some n => Shared n | None => Own (own_setup (n_sort a)) end) (n_prepend a) (n_lang a) ""]), Created (length (w_apps w))) /\
     import_components modules (roots_of (n_sort a)) [] = inl c /\
     (forall m, heads m = match n_head a with Some n => if Nat.eqb m n then Head (h_tag (w_heads w m)) (h_children (w_heads w m) ++ own_setup (n_sort a)) else w_heads w m | None => w_heads w m end)).
Proof.
  cbv zeta. unfold new. pose proof (init_ok (n_settings a) (roots_of (n_sort a)) (w_opts w)) as I.
  destruct (INIT (n_settings a) (roots_of (n_sort a)) (w_opts w)) as [st [[p c]|e]]; cbn [fst snd] in *; [|left; eauto].
  destruct (I p c eq_refl) as (-> & -> & C). clear I.
  assert (NA : forall (h : head), h = Head (h_tag h) (h_children h ++ [])) by (intros [t l]; cbn; rewrite app_nil_r; reflexivity).
  destruct (n_sort a) as [u roots|root [o|]|files o]; cbn [own_setup] in *.
  - right. exists c, (w_heads w). split; [destruct (n_head a); reflexivity|]. split; [exact C|]. intros m. destruct (n_head a) as [n|]; [|reflexivity]. destruct (Nat.eqb m n); [apply NA|reflexivity].
  - destruct (setup_error o) as [e|]; [left; eauto|]. right. destruct (n_head a) as [n|].
    + exists c, (heads_with n (Setup o) (w_heads w)). split; [reflexivity|]. split; [exact C|]. intros m. unfold heads_with. destruct (Nat.eqb m n); reflexivity.
    + exists c, (w_heads w). split; [reflexivity|]. split; [exact C|]. reflexivity.
  - right. exists c, (w_heads w). split; [destruct (n_head a); reflexivity|]. split; [exact C|]. intros m. destruct (n_head a) as [n|]; [|reflexivity]. destruct (Nat.eqb m n); [apply NA|reflexivity].
  - destruct files as [|f files]; [left; eauto|]. right. exists c, (w_heads w). split; [destruct (n_head a); reflexivity|]. split; [exact C|]. intros m. destruct (n_head a) as [n|]; [|reflexivity]. destruct (Nat.eqb m n); [apply NA|reflexivity].
Qed.
Lemma new_created a w : (exists i, snd (NEW a w) = Created i) <->
  (forall v, dget "path_prefix" (n_settings a) = Some v -> is_text v = true /\ slashed (show v)) /\
  (forall v, dget "web_modules_dir" (n_settings a) = Some v -> dir_exists v = Some true) /\
  fst (process (n_settings a) (w_opts w)) = Done /\ compiles (text_of show 10 (snd (process (n_settings a) (w_opts w)))) = true /\ sort_ok (n_sort a).
Proof.
  pose proof (init_spec (n_settings a) (roots_of (n_sort a)) (w_opts w)) as I. unfold new.
  assert (E : (exists i, snd (NEW a w) = Created i) <-> (exists p c, snd (INIT (n_settings a) (roots_of (n_sort a)) (w_opts w)) = inl (p, c)) /\ (match n_sort a with ForMiddleware _ _ => True | k => sort_ok k end)).
  { unfold new. destruct (INIT (n_settings a) (roots_of (n_sort a)) (w_opts w)) as [st [[p c]|e]]; cbn [snd].
    - destruct (n_sort a) as [u roots|root [o|]|files o]; cbn [sort_ok].
      + split; [intros _; split; eauto|]. intros _. eexists. destruct (n_head a); reflexivity.
      + destruct (setup_error o) as [e|]; [split; [intros [i H]; discriminate|intros [_ H]; discriminate]|]. split; [intros _; split; eauto|]. intros _. eexists. destruct (n_head a); reflexivity.
      + split; [intros _; split; eauto|]. intros _. eexists. destruct (n_head a); reflexivity.
      + destruct files; [split; [intros [i H]; discriminate|intros [_ H]; congruence]|]. split; [intros _; split; [eauto|discriminate]|]. intros _. eexists. destruct (n_head a); reflexivity.
    - split; [intros [i H]; discriminate|]. intros [(p & c & H) _]. discriminate. }
  fold (new modules compiles show is_text dir_exists setup_error a w). rewrite E, I. clear E I.
  assert (T : forall d : string, In d [] -> exists o, names_object modules d o) by (intros d []).
  destruct (n_sort a) as [u roots|root [o|]|files o]; cbn [roots_of sort_ok]; tauto.
Qed.
Lemma new_failed a w e : snd (NEW a w) = Failed e -> w_apps (fst (NEW a w)) = w_apps w /\ w_heads (fst (NEW a w)) = w_heads w /\
  (w_opts (fst (NEW a w)) = w_opts w \/ w_opts (fst (NEW a w)) = snd (process (n_settings a) (w_opts w))).
Proof.
  destruct (new_cases a w) as [[e' E]|(c & heads & E & _)]; rewrite E; cbn [fst snd w_apps w_heads w_opts]; [|discriminate]. intros _. split; [reflexivity|]. split; [reflexivity|]. apply init_opts.
Qed.

(** *** What happens to an application later *)

Definition own_cfg (i : nat) (o : op) (c : cfg) : cfg :=
  match o with
  | RouteOf j http path t =>
      if Nat.eqb j i then match c_mode c, object_of modules t with
                          | Middleware, _ | _, inr _ => c
                          | _, inl x => if http then Cfg (c_mode c) (c_prefix c) (dset (route_pattern path) x (c_http c)) (c_ws c) (c_lifespan c)
                                        else Cfg (c_mode c) (c_prefix c) (c_http c) (dset (route_pattern path) x (c_ws c)) (c_lifespan c)
                          end
      else c
  | LifespanOf j t =>
      if Nat.eqb j i then match c_mode c, c_lifespan c, object_of modules t with
                          | Middleware, _, _ | _, Some _, _ | _, _, inr _ => c
                          | _, None, inl x => Cfg (c_mode c) (c_prefix c) (c_http c) (c_ws c) (Some x)
                          end
      else c
  | _ => c
  end.
(** The parts that never change. *)
Definition fixed (a : application) := (a_sort a, a_components a, a_head a, a_prepend a, a_lang a).
Lemma nth_put_cases {A} (l : list A) j x i y : nth_error l i = Some y -> nth_error (put l j x) i = if Nat.eqb j i then Some x else Some y.
Proof.
  intros H. destruct (Nat.eqb_spec j i) as [->|N]; [|rewrite put_other; auto]. apply put_same. apply nth_error_Some. congruence.
Qed.
Lemma step_app w o i a : nth_error (w_apps w) i = Some a -> exists a', nth_error (w_apps (fst (STEP w o))) i = Some a' /\ fixed a' = fixed a /\ a_cfg a' = own_cfg i o (a_cfg a) /\
  (a_index a' = a_index a \/ (a_index a = "" /\ exists sc, o = Request i sc)).
Proof.
  intros H. destruct o as [args|j http path t|j t|j sc]; cbn [step own_cfg].
  - exists a. split; [|auto]. destruct (new_cases args w) as [[e E]|(c & heads & E & _)]; rewrite E; cbn [fst w_apps]; [exact H|]. rewrite nth_error_app1; [exact H|]. apply nth_error_Some. congruence.
  - unfold route. destruct (nth_error (w_apps w) j) as [b|] eqn:J.
    + destruct (Nat.eqb_spec j i) as [->|N].
      * rewrite H in J. injection J as <-. destruct (c_mode (a_cfg a)) eqn:M; [exists a; auto| |]; (destruct (object_of modules t) as [x|e]; cbn [fst]; [|exists a; auto]);
          eexists; (split; [cbn [put_app w_apps]; rewrite (nth_put_cases _ _ _ _ _ H), Nat.eqb_refl; reflexivity|]); cbn; auto.
      * exists a. split; [|auto]. destruct (c_mode (a_cfg b)); [exact H| |]; (destruct (object_of modules t) as [x|e]; cbn [fst put_app w_apps]; [|exact H]); rewrite put_other; auto.
    + destruct (Nat.eqb_spec j i) as [->|N]; [congruence|]. exists a. auto.
  - unfold lifespan. destruct (nth_error (w_apps w) j) as [b|] eqn:J.
    + destruct (Nat.eqb_spec j i) as [->|N].
      * rewrite H in J. injection J as <-. destruct (c_mode (a_cfg a)) eqn:M; [exists a; auto| |]; (destruct (c_lifespan (a_cfg a)) eqn:L; [exists a; auto|]);
          (destruct (object_of modules t) as [x|e]; cbn [fst]; [|exists a; auto]); eexists; (split; [cbn [put_app w_apps]; rewrite (nth_put_cases _ _ _ _ _ H), Nat.eqb_refl; reflexivity|]); cbn; auto.
      * exists a. split; [|auto]. destruct (c_mode (a_cfg b)); [exact H| |]; (destruct (c_lifespan (a_cfg b)); [exact H|]); (destruct (object_of modules t) as [x|e]; cbn [fst put_app w_apps]; [|exact H]); rewrite put_other; auto.
    + destruct (Nat.eqb_spec j i) as [->|N]; [congruence|]. exists a. auto.
  - unfold request. destruct (nth_error (w_apps w) j) as [b|] eqn:J; [|exists a; auto].
    destruct (serve matches (a_cfg b) sc); try (destruct sc; exists a; auto; fail).
    assert (G : exists a', nth_error (w_apps (fst (if String.eqb (a_index b) "" then match index_text show child_text body_text csr_setup csr_component w b with inl t => (put_app j (with_index t b) w, Page t) | inr e => (w, Failed e) end
                   else (w, Page (a_index b))))) i = Some a' /\ fixed a' = fixed a /\ a_cfg a' = a_cfg a /\ (a_index a' = a_index a \/ (a_index a = "" /\ exists sc0, Request j sc = Request i sc0))).
    { destruct (String.eqb_spec (a_index b) "") as [E|E]; [|exists a; auto]. destruct (index_text show child_text body_text csr_setup csr_component w b) as [x|e]; cbn [fst]; [|exists a; auto].
      cbn [put_app w_apps]. rewrite (nth_put_cases _ _ _ _ _ H). destruct (Nat.eqb_spec j i) as [->|N]; [|exists a; auto]. rewrite H in J. injection J as <-. exists (with_index x a). split; [reflexivity|]. cbn. eauto 8. }
    destruct (a_sort b); [exists a; auto| |]; (destruct sc; [exact G|exists a; auto|exists a; auto]).
Qed.
Lemma run_app ops : forall w i a, nth_error (w_apps w) i = Some a -> exists a', nth_error (w_apps (RUN ops w)) i = Some a' /\ fixed a' = fixed a /\
  a_cfg a' = fold_left (fun c o => own_cfg i o c) ops (a_cfg a) /\ (a_index a' = a_index a \/ (a_index a = "" /\ exists sc, In (Request i sc) ops)).
Proof.
  induction ops as [|o ops IH]; intros w i a H; [exists a; cbn; auto|]. destruct (step_app w o i a H) as (a1 & H1 & F1 & C1 & I1).
  destruct (IH (fst (STEP w o)) i a1 H1) as (a2 & H2 & F2 & C2 & I2). exists a2. cbn [run fold_left]. rewrite <- C1. split; [exact H2|]. split; [congruence|]. split; [exact C2|].
  destruct I2 as [I2|[I2 [sc S]]]; destruct I1 as [I1|[I1 [sc' S']]].
  - left. congruence.
  - right. split; [exact I1|]. exists sc'. left. exact S'.
  - right. split; [congruence|]. exists sc. right. exact S.
  - right. split; [exact I1|]. exists sc. right. exact S.
Qed.

(** *** Routes *)

Lemma own_cfg_keeps i o c : c_mode (own_cfg i o c) = c_mode c /\ c_prefix (own_cfg i o c) = c_prefix c.
Proof.
  destruct o as [a|j http path t|j t|j sc]; cbn [own_cfg]; auto; destruct (Nat.eqb j i); auto; destruct (c_mode c) eqn:M; auto.
  1,2: destruct (object_of modules t); auto; destruct http; auto.
  all: destruct (c_lifespan c); auto; destruct (object_of modules t); auto.
Qed.
Lemma own_cfgs_keep i ops : forall c, c_mode (fold_left (fun c o => own_cfg i o c) ops c) = c_mode c /\ c_prefix (fold_left (fun c o => own_cfg i o c) ops c) = c_prefix c.
Proof.
  induction ops as [|o ops IH]; intros c; [auto|]. cbn [fold_left]. destruct (IH (own_cfg i o c)) as [A B]. destruct (own_cfg_keeps i o c) as [A' B']. split; congruence.
Qed.
Lemma starts_anchor c path : startswith (String c "") path = true <-> exists x, path = (String c "" ++ x)%string.
Proof.
  unfold startswith. destruct (after (String c "") path) as [r|] eqn:E; [apply after_spec in E; split; eauto|]. split; [discriminate|]. intros [x X]. apply after_spec in X. congruence.
Qed.
Lemma ends_anchor c path : endswith c path = true <-> exists x, path = (x ++ String c "")%string.
Proof.
  split.
  - unfold endswith. induction path as [|a s IH]; [discriminate|]. destruct s as [|b s].
    + cbn. destruct (Ascii.eqb_spec a c) as [->|]; [|discriminate]. intros _. exists "". reflexivity.
    + intros H. destruct IH as [x X]; [exact H|]. exists (String a x). cbn [append]. rewrite <- X. reflexivity.
  - intros [x ->]. rewrite endswith_app by discriminate. unfold endswith. cbn. rewrite Ascii.eqb_refl. reflexivity.
Qed.
Lemma anchored_pattern path pattern : anchored path pattern -> pattern = route_pattern path.
Proof.
  intros (l & r & -> & L & R). unfold route_pattern.
  assert (E : endswith "$" (if startswith "^" path then path else ("^" ++ path)%string) = endswith "$" path).
  { destruct (startswith "^" path); [reflexivity|]. destruct path as [|a path]; [reflexivity|]. apply endswith_app. discriminate. }
  assert (X : (if startswith "^" path then path else ("^" ++ path)%string) = (l ++ path)%string).
  { destruct (startswith "^" path) eqn:S.
    - apply starts_anchor in S. destruct L as [[_ ->]|[N _]]; [reflexivity|contradiction].
    - destruct L as [[Y _]|[_ ->]]; [apply starts_anchor in Y; congruence|reflexivity]. }
  rewrite E, X. destruct (endswith "$" path) eqn:S.
  - apply ends_anchor in S. destruct R as [[_ ->]|[N _]]; [|contradiction]. assert (AN : forall s, (s ++ "")%string = s) by (clear; induction s; cbn; congruence). rewrite AN. reflexivity.
  - destruct R as [[Y _]|[_ ->]]; [apply ends_anchor in Y; congruence|]. clear. induction l; cbn; congruence.
Qed.
Lemma pattern_anchored path : anchored path (route_pattern path).
Proof.
  assert (G : exists pattern, anchored path pattern).
  { unfold anchored. destruct (startswith "^" path) eqn:S; destruct (endswith "$" path) eqn:E.
    - apply starts_anchor in S. apply ends_anchor in E. exists ("" ++ path ++ "")%string, "", "". auto.
    - apply starts_anchor in S. assert (E' : ~ exists x, path = (x ++ "$")%string) by (intros Y; apply ends_anchor in Y; congruence). exists ("" ++ path ++ "$")%string, "", "$". auto.
    - apply ends_anchor in E. assert (S' : ~ exists x, path = ("^" ++ x)%string) by (intros Y; apply starts_anchor in Y; congruence). exists ("^" ++ path ++ "")%string, "^", "". auto.
    - assert (E' : ~ exists x, path = (x ++ "$")%string) by (intros Y; apply ends_anchor in Y; congruence).
      assert (S' : ~ exists x, path = ("^" ++ x)%string) by (intros Y; apply starts_anchor in Y; congruence). exists ("^" ++ path ++ "$")%string, "^", "$". auto. }
  destruct G as [p P]. pose proof (anchored_pattern _ _ P) as E. rewrite E in P. exact P.
Qed.
(** For every history there are the routes added. *)
Lemma routes_exist i http ops : exists R, routes_added modules i http ops R.
Proof.
  induction ops as [|x ops [R H]]; [exists []; constructor|]. assert (S : (exists path t o, x = RouteOf i http path t /\ means modules t o) \/ (forall path t o, x = RouteOf i http path t -> ~ means modules t o)).
  { destruct x as [a|j h path t|j t|j sc]; try (right; intros; discriminate). destruct (Nat.eq_dec j i) as [->|N]; [|right; intros; congruence].
    destruct (bool_dec h http) as [->|N]; [|right; intros; congruence]. destruct (object_of modules t) as [o|e] eqn:E.
    - left. exists path, t, o. split; [reflexivity|]. apply object_spec, E.
    - right. intros path' t' o Q M. injection Q as -> ->. apply object_spec in M. congruence. }
  destruct S as [(path & t & o & -> & M)|S].
  - exists ((route_pattern path, o) :: R). econstructor; eauto. apply pattern_anchored.
  - exists R. constructor; auto.
Qed.
Definition side (http : bool) (c : cfg) : list (string * nat) := if http then c_http c else c_ws c.
Lemma routes_fold i http ops R : routes_added modules i http ops R -> forall c, c_mode c <> Middleware ->
  side http (fold_left (fun c o => own_cfg i o c) ops c) = fold_left (fun d q => dset (fst q) (snd q) d) R (side http c).
Proof.
  induction 1 as [|path pattern t o ops R AN ME H IH|x ops R N H IH]; intros c M; [reflexivity| |]; cbn [fold_left].
  - rewrite IH by (rewrite (proj1 (own_cfg_keeps i (RouteOf i http path t) c)); exact M). f_equal. apply anchored_pattern in AN. subst pattern. apply object_spec in ME.
    cbn [own_cfg fst snd]. rewrite Nat.eqb_refl, ME. destruct (c_mode c); [congruence| |]; destruct http; reflexivity.
  - rewrite IH by (rewrite (proj1 (own_cfg_keeps i x c)); exact M). f_equal. destruct x as [a|j h path t|j t|j sc]; cbn [own_cfg]; auto.
    + destruct (Nat.eqb_spec j i) as [->|NE]; [|reflexivity]. destruct (object_of modules t) as [o|e] eqn:E; [|destruct (c_mode c); reflexivity].
      destruct (bool_dec h http) as [->|NH]; [exfalso; apply (N path t o eq_refl), object_spec, E|]. destruct (c_mode c); [reflexivity| |]; destruct h, http; try congruence; reflexivity.
    + destruct (Nat.eqb j i); [|reflexivity]. destruct (c_mode c), (c_lifespan c), (object_of modules t), http; reflexivity.
Qed.
Lemma find_dset (f : string -> bool) k v : forall (d R : list (string * nat)),
  option_map fst (find (fun q => f (fst q)) (dset k v d ++ R)) = option_map fst (find (fun q => f (fst q)) (d ++ (k, v) :: R)).
Proof.
  induction d as [|[k' v'] d IH]; intros R; [reflexivity|]. cbn [dset]. destruct (eq_dec k k') as [<-|N].
  - cbn [app find fst]. destruct (f k) eqn:E; [reflexivity|]. clear IH. induction d as [|[a b] d IH]; cbn [app find fst]; [rewrite E; reflexivity|]. destruct (f a); [reflexivity|exact IH].
  - cbn [app find fst]. destruct (f k'); [reflexivity|apply IH].
Qed.
Lemma find_fold (f : string -> bool) R : forall d : list (string * nat),
  option_map fst (find (fun q => f (fst q)) (fold_left (fun d q => dset (fst q) (snd q) d) R d)) = option_map fst (find (fun q => f (fst q)) (d ++ R)).
Proof.
  induction R as [|[k v] R IH]; intros d; [rewrite app_nil_r; reflexivity|]. cbn [fold_left fst snd]. rewrite IH. apply find_dset.
Qed.
Lemma dget_fold R : forall (d : list (string * nat)) k o, dget k (fold_left (fun d q => dset (fst q) (snd q) d) R d) = Some o <->
  last_given R k o \/ ((forall q, In q R -> fst q <> k) /\ dget k d = Some o).
Proof.
  induction R as [|[k0 v0] R IH]; intros d k o; cbn [fold_left fst snd].
  - split; [intros H; right; split; [intros q []|exact H]|]. intros [(A & B & E & _)|[_ H]]; [destruct A; discriminate|exact H].
  - rewrite IH, dget_dset. split.
    + intros [(A & B & -> & N)|[N G]]; [left; exists ((k0, v0) :: A), B; auto|]. destruct (eq_dec k k0) as [->|NE].
      * injection G as ->. left. exists [], R. auto.
      * right. split; [|exact G]. intros q [<-|I]; [cbn; congruence|auto].
    + intros [(A & B & E & N)|[N G]].
      * destruct A as [|q A]; cbn [app] in E; [injection E as -> -> ->|injection E as _ ->; left; exists A, B; auto]. right. split; [exact N|]. destruct (eq_dec k k); [reflexivity|congruence].
      * right. split; [intros q I; apply N; right; exact I|]. destruct (eq_dec k k0) as [->|NE]; [|exact G]. exfalso. apply (N (k0, v0)); [left|]; reflexivity.
Qed.
Lemma NoDup_fold R : forall d : list (string * nat), NoDup (dkeys d) -> NoDup (dkeys (fold_left (fun d q => dset (fst q) (snd q) d) R d)).
Proof. induction R as [|[k v] R IH]; intros d H; [exact H|]. cbn [fold_left]. apply IH, NoDup_dset, H. Qed.
Lemma find_split {A} (f : A -> bool) l x : find f l = Some x <-> exists l1 l2, l = l1 ++ x :: l2 /\ f x = true /\ forall y, In y l1 -> f y = false.
Proof.
  induction l as [|a l IH]; cbn [find].
  - split; [discriminate|]. intros (l1 & l2 & E & _). destruct l1; discriminate.
  - destruct (f a) eqn:F; split.
    + intros H. injection H as <-. exists [], l. split; [reflexivity|]. split; [exact F|]. intros y [].
    + intros (l1 & l2 & E & T & N). destruct l1 as [|b l1]; injection E as <- ->; [reflexivity|]. rewrite (N a (or_introl eq_refl)) in F. discriminate.
    + intros H. apply IH in H. destruct H as (l1 & l2 & -> & T & N). exists (a :: l1), l2. split; [reflexivity|]. split; [exact T|]. intros y [<-|I]; auto.
    + intros (l1 & l2 & E & T & N). destruct l1 as [|b l1]; injection E as <- ->; [congruence|]. apply IH. exists l1, l2. split; [reflexivity|]. split; [exact T|]. intros y I. apply N. right. exact I.
Qed.
Lemma first_route_routed R p o : first_route matches (fold_left (fun d q => dset (fst q) (snd q) d) R []) p = Some o <-> routed matches R p o.
Proof.
  unfold first_route. set (D := fold_left (fun d q => dset (fst q) (snd q) d) R []).
  pose proof (find_fold (fun k => matches k p) R []) as F. fold D in F. cbn [app] in F.
  assert (ND : NoDup (dkeys D)) by (apply NoDup_fold; constructor). assert (G : forall k o, dget k D = Some o <-> last_given R k o).
  { intros k x. unfold D. rewrite dget_fold. cbn [dget]. split; [intros [H|[_ H]]; [exact H|discriminate]|auto]. }
  unfold routed. split.
  - destruct (find (fun r => matches (fst r) p) D) as [[k v]|] eqn:E; [|discriminate]. cbn [snd]. intros H. injection H as ->. cbn [option_map fst] in F.
    destruct (find (fun r => matches (fst r) p) R) as [[k' v']|] eqn:E'; [|discriminate]. cbn [option_map fst] in F. injection F as <-. apply find_split in E'. destruct E' as (A & B & -> & T & N).
    exists A, k, v', B. split; [reflexivity|]. split; [exact T|]. split; [exact N|]. apply G. apply In_dget; [exact ND|]. apply find_some in E. apply E.
  - intros (A & k & v' & B & E & T & N & L). assert (E' : find (fun r => matches (fst r) p) R = Some (k, v')) by (apply find_split; exists A, B; auto). rewrite E' in F. cbn [option_map fst] in F.
    destruct (find (fun r => matches (fst r) p) D) as [[k2 v2]|] eqn:E2; [|discriminate]. cbn [option_map fst] in F. injection F as ->. cbn [snd]. f_equal.
    apply G in L. apply find_some in E2. destruct E2 as [I _]. apply (In_dget k v2 D ND) in I. congruence.
Qed.
Lemma serve_free c sc : all_chars literal (c_prefix c) = true -> ~ reserved c sc -> serve matches c sc = match match_extra matches c sc with Some n => Route n | None => UserApp end.
Proof.
  intros L N. destruct sc as [p|p|]; unfold serve; cbn [reserved] in N; [| |reflexivity].
  - destruct (startswith (c_prefix c ++ "static/") p) eqn:S; [apply startswith_below in S; tauto|]. destruct (startswith (c_prefix c ++ "modules/") p) eqn:M; [apply startswith_below in M; tauto|]. reflexivity.
  - destruct (match_dispatch c p) eqn:D; [|reflexivity]. apply match_dispatch_spec in D; [contradiction|exact L].
Qed.
Lemma serve_reserved c sc : all_chars literal (c_prefix c) = true -> reserved c sc -> match serve matches c sc with Dispatcher | Static | Modules => True | _ => False end.
Proof.
  intros L N. destruct sc as [p|p|]; unfold serve; cbn [reserved] in N; [| |contradiction].
  - destruct N as [N|N]; apply startswith_below in N; rewrite N; [exact I|]. destruct (startswith (c_prefix c ++ "static/") p); exact I.
  - apply (match_dispatch_spec c p L) in N. rewrite N. exact I.
Qed.
Lemma reserved_same c c' sc : c_mode c = c_mode c' -> c_prefix c = c_prefix c' -> reserved c sc -> reserved c' sc.
Proof. intros M P. destruct sc as [p|p|]; cbn [reserved]; unfold below, dispatch_url; rewrite ?M, ?P; auto. Qed.
(** The application [i] right after its creation. *)
Lemma new_app a w w1 i : NEW a w = (w1, Created i) -> exists c, i = length (w_apps w) /\
  nth_error (w_apps w1) i = Some (App (Cfg (mode_of (n_sort a)) (text_of show 10 (w_opts w1)) [] [] None) (n_sort a) c
    (match n_head a with Some n => Shared n | None => Own (own_setup (n_sort a)) end) (n_prepend a) (n_lang a) "") /\
  import_components modules (roots_of (n_sort a)) [] = inl c /\ w_opts w1 = snd (process (n_settings a) (w_opts w)) /\
  (forall m, w_heads w1 m = match n_head a with Some n => if Nat.eqb m n then Head (h_tag (w_heads w m)) (h_children (w_heads w m) ++ own_setup (n_sort a)) else w_heads w m | None => w_heads w m end).
Proof.
  intros H. destruct (new_cases a w) as [[e E]|(c & heads & E & C & HH)]; rewrite E in H; [discriminate|]. injection H as <- <-. exists c. cbn [w_apps w_opts w_heads]. split; [reflexivity|].
  split; [rewrite nth_error_app2, Nat.sub_diag by lia; reflexivity|]. auto.
Qed.

(** *** Pages *)

Lemma append_assoc_s a b c : ((a ++ b) ++ c = a ++ b ++ c)%string.
Proof. induction a; cbn; congruence. Qed.
(** The users of a head element that add something to it. *)
Definition adds_to (n : nat) (b : args) : Prop := n_head b = Some n /\ exists root o, n_sort b = ForStandalone root (Some o).
Lemma heads_new b w n : ~ adds_to n b -> w_heads (fst (NEW b w)) n = w_heads w n.
Proof.
  intros N. destruct (new_cases b w) as [[e E]|(c & heads & E & _ & HH)]; rewrite E; cbn [fst w_heads]; [reflexivity|]. rewrite HH. destruct (n_head b) as [m|] eqn:HB; [|reflexivity].
  destruct (Nat.eqb_spec n m) as [->|]; [|reflexivity]. destruct (n_sort b) as [u r|root [o|]|files o] eqn:K; cbn [own_setup]; rewrite ?app_nil_r; try (destruct (w_heads w m); reflexivity).
  exfalso. apply N. split; eauto.
Qed.
Lemma step_heads w o n : (forall b, o = New b -> ~ adds_to n b) -> w_heads (fst (STEP w o)) n = w_heads w n.
Proof.
  intros N. destruct o as [b|j http path t|j t|j sc]; cbn [step].
  - apply heads_new. auto.
  - unfold route. destruct (nth_error (w_apps w) j) as [b|]; [|reflexivity]. destruct (c_mode (a_cfg b)); [reflexivity| |]; destruct (object_of modules t); reflexivity.
  - unfold lifespan. destruct (nth_error (w_apps w) j) as [b|]; [|reflexivity]. destruct (c_mode (a_cfg b)); [reflexivity| |]; (destruct (c_lifespan (a_cfg b)); [reflexivity|]); destruct (object_of modules t); reflexivity.
  - unfold request. destruct (nth_error (w_apps w) j) as [b|]; [|reflexivity]. destruct (serve matches (a_cfg b) sc); try reflexivity; [destruct sc; reflexivity|].
    destruct (a_sort b); [reflexivity| |]; (destruct sc; [|reflexivity|reflexivity]); (destruct (String.eqb (a_index b) ""); [|reflexivity]);
      destruct (index_text show child_text body_text csr_setup csr_component w b); reflexivity.
Qed.
Lemma run_heads ops n : forall w, (forall b, In (New b) ops -> ~ adds_to n b) -> w_heads (RUN ops w) n = w_heads w n.
Proof.
  induction ops as [|o ops IH]; intros w N; [reflexivity|]. cbn [run fold_left]. change (w_heads (RUN ops (fst (STEP w o))) n = w_heads w n). rewrite IH by (intros b I; apply N; right; exact I).
  apply step_heads. intros b ->. apply N. left. reflexivity.
Qed.
(** The options are changed by the settings of new applications only. *)
Lemma step_opts w o : w_opts (fst (STEP w o)) = w_opts w \/ exists b, o = New b /\ w_opts (fst (STEP w o)) = snd (process (n_settings b) (w_opts w)).
Proof.
  destruct o as [b|j http path t|j t|j sc]; cbn [step].
  - destruct (new_cases b w) as [[e E]|(c & heads & E & _)]; rewrite E; cbn [fst w_opts]; [destruct (init_opts (n_settings b) (roots_of (n_sort b)) (w_opts w)) as [X|X]; rewrite X; eauto|eauto].
  - left. unfold route. destruct (nth_error (w_apps w) j) as [b|]; [|reflexivity]. destruct (c_mode (a_cfg b)); [reflexivity| |]; destruct (object_of modules t); reflexivity.
  - left. unfold lifespan. destruct (nth_error (w_apps w) j) as [b|]; [|reflexivity]. destruct (c_mode (a_cfg b)); [reflexivity| |]; (destruct (c_lifespan (a_cfg b)); [reflexivity|]); destruct (object_of modules t); reflexivity.
  - left. unfold request. destruct (nth_error (w_apps w) j) as [b|]; [|reflexivity]. destruct (serve matches (a_cfg b) sc); try reflexivity; [destruct sc; reflexivity|].
    destruct (a_sort b); [reflexivity| |]; (destruct sc; [|reflexivity|reflexivity]); (destruct (String.eqb (a_index b) ""); [|reflexivity]);
      destruct (index_text show child_text body_text csr_setup csr_component w b); reflexivity.
Qed.
(** Replacing the end tag of a head. *)
Lemma cut_end x : forall new, (forall u v, x <> (u ++ "</head>" ++ v)%string) -> replace_text "</head>" new 0 (x ++ "</head>") = (x ++ new)%string.
Proof.
  intros new. induction x as [|a x IH]; intros N.
  - cbn [append]. cbn. clear. induction new; cbn; congruence.
  - assert (S : startswith "</head>" (String a x ++ "</head>") = false).
    { destruct (startswith "</head>" (String a x ++ "</head>")) eqn:E; [|reflexivity]. exfalso. unfold startswith in E. destruct (after "</head>" (String a x ++ "</head>")) as [r|] eqn:F; [|discriminate]. clear E.
      apply after_spec in F. clear IH. change (String a x ++ "</head>")%string with (String a (x ++ "</head>")) in F.
      assert (G : x = "" \/ (exists b, x = String b "") \/ (exists b c, x = String b (String c "")) \/ (exists b c d, x = String b (String c (String d ""))) \/ (exists b c d e, x = String b (String c (String d (String e "")))) \/
                  (exists b c d e f, x = String b (String c (String d (String e (String f ""))))) \/ exists b c d e f g y, x = String b (String c (String d (String e (String f (String g y)))))).
      { destruct x as [|b x]; [auto|]. destruct x as [|c x]; [eauto|]. destruct x as [|d x]; [eauto 6|]. destruct x as [|e x]; [eauto 8|]. destruct x as [|f x]; [eauto 10|]. destruct x as [|g x]; [do 5 right; left; eauto 8|].
        do 6 right. eauto 10. }
      destruct G as [-> |[(b & ->)|[(b & c & ->)|[(b & c & d & ->)|[(b & c & d & e & ->)|[(b & c & d & e & f & ->)|(b & c & d & e & f & g & y & ->)]]]]]]; cbn in F; try discriminate F.
      injection F as -> -> -> -> -> -> -> _. apply (N "" y). reflexivity. }
    change (String a x ++ "</head>")%string with (String a (x ++ "</head>")) in *. cbn [replace_text]. rewrite S. cbn [append]. f_equal. apply IH. intros u v E. apply (N (String a u) v). rewrite E. reflexivity.
Qed.
(** The page with this language, these contents of the head and this body. *)
Definition page_spec (lang head body : string) : string :=
  ("<!doctype html><html lang=""" ++ lang ++ """><head>" ++ head ++ "</head><body>" ++ body ++ "</body></html>")%string.
Definition body_spec (p : prepended) : string :=
  match p with Default => "<noscript>Enable JavaScript to view this site.</noscript>" | GivenBody None => "" | GivenBody (Some e) => body_text e end.
Lemma document_spec lang x body : document lang ("<head>" ++ x ++ "</head>") body = page_spec lang x body.
Proof. unfold document, page_spec. rewrite !append_assoc_s. reflexivity. Qed.
Lemma index_nonempty w a t : index_text show child_text body_text csr_setup csr_component w a = inl t -> t <> "".
Proof. unfold index_text. destruct (negb (String.eqb (h_tag (head_of w a)) "head")); [discriminate|]. destruct (a_sort a); intros H; injection H as <-; discriminate. Qed.
Lemma page_answer w i sc t : snd (REQUEST i sc w) = Page t -> exists a a', nth_error (w_apps w) i = Some a /\ nth_error (w_apps (fst (REQUEST i sc w))) i = Some a' /\ a_index a' = t /\ t <> "" /\
  (a_index a = "" \/ a_index a = t).
Proof.
  unfold request. destruct (nth_error (w_apps w) i) as [a|] eqn:E; [|discriminate]. destruct (serve matches (a_cfg a) sc); try discriminate.
  { destruct sc; try discriminate. cbn [snd]. destruct (run_dispatcher _ _ _ _ _); discriminate. }
  assert (G : snd (if String.eqb (a_index a) "" then match index_text show child_text body_text csr_setup csr_component w a with inl t => (put_app i (with_index t a) w, Page t) | inr e => (w, Failed e) end
                   else (w, Page (a_index a))) = Page t ->
              exists a0 a', Some a = Some a0 /\ nth_error (w_apps (fst (if String.eqb (a_index a) "" then match index_text show child_text body_text csr_setup csr_component w a with inl t => (put_app i (with_index t a) w, Page t) | inr e => (w, Failed e) end
                   else (w, Page (a_index a))))) i = Some a' /\ a_index a' = t /\ t <> "" /\ (a_index a0 = "" \/ a_index a0 = t)).
  { destruct (String.eqb_spec (a_index a) "") as [X|X]; cbn [snd fst].
    - pose proof (index_nonempty w a) as NE. destruct (index_text show child_text body_text csr_setup csr_component w a) as [x|e]; [|discriminate]. cbn [snd fst]. intros H. injection H as <-. exists a, (with_index x a). split; [reflexivity|].
      split; [cbn [put_app w_apps]; rewrite (nth_put_cases _ _ _ _ _ E), Nat.eqb_refl; reflexivity|]. split; [reflexivity|]. auto.
    - intros H. injection H as <-. exists a, a. auto 8. }
  destruct (a_sort a); [discriminate| |]; (destruct sc; [exact G|discriminate|discriminate]).
Qed.

(** ** C111 *)

(** An application is created exactly if the prefix has its slashes, the directory exists, the settings are accepted (C90), every
    dotted path names an object, and the arguments for PyScript are in order. *)
Theorem C111_created a w : (exists i, snd (NEW a w) = Created i) <->
  (forall v, dget "path_prefix" (n_settings a) = Some v -> is_text v = true /\ slashed (show v)) /\
  (forall v, dget "web_modules_dir" (n_settings a) = Some v -> dir_exists v = Some true) /\
  fst (process (n_settings a) (w_opts w)) = Done /\ compiles (text_of show 10 (snd (process (n_settings a) (w_opts w)))) = true /\ sort_ok (n_sort a).
Proof. apply new_created. Qed.

(** A constructor that raises has changed no application and no head element. *)
Theorem C111_failed_partial a w e : snd (NEW a w) = Failed e -> w_apps (fst (NEW a w)) = w_apps w /\ w_heads (fst (NEW a w)) = w_heads w /\
  (w_opts (fst (NEW a w)) = w_opts w \/ w_opts (fst (NEW a w)) = snd (process (n_settings a) (w_opts w))).
Proof. apply new_failed. Qed.

(** Whatever happens to other applications: a middleware renders a component exactly at the URL of a dotted path it was given and
    that names the component; a standalone application renders its root component at its prefix; one for PyScript renders none. *)
Theorem C111_components a w w1 i ops p c : let prefix := text_of show 10 (w_opts w1) in
  NEW a w = (w1, Created i) -> all_chars literal prefix = true ->
  (snd (REQUEST i (Websocket p) (RUN ops w1)) = Renders c <->
   match n_sort a with
   | ForMiddleware _ roots => exists d tail, In d roots /\ names_object modules d c /\ all_chars url_char d = true /\ (tail = "/" \/ tail = String "/" (String newline "")) /\ p = (prefix ++ d ++ tail)%string
   | ForStandalone root _ => p = prefix /\ c = root
   | ForCsr _ _ => False
   end).
Proof.
  intros prefix H L. destruct (new_app _ _ _ _ H) as (comps & _ & A & IC & _). destruct (run_app ops w1 i _ A) as (a' & A' & F & CF & _). clear A. cbn [a_cfg] in CF. fold prefix in CF.
  destruct (own_cfgs_keep i ops (Cfg (mode_of (n_sort a)) prefix [] [] None)) as [M P]. rewrite <- CF in M, P. cbn [c_mode c_prefix] in M, P. clear CF.
  injection F as FS FC FH FP FL. unfold request. rewrite A', FS.
  assert (D : match_dispatch (a_cfg a') p = true -> serve matches (a_cfg a') (Websocket p) = Dispatcher) by (intros D; unfold serve; rewrite D; reflexivity).
  assert (ND : match_dispatch (a_cfg a') p = false -> serve matches (a_cfg a') (Websocket p) = match match_extra matches (a_cfg a') (Websocket p) with Some n => Route n | None => UserApp end)
    by (intros X; unfold serve; rewrite X; reflexivity).
  assert (NR : match_dispatch (a_cfg a') p = false -> forall x, snd (match serve matches (a_cfg a') (Websocket p) with
      | Dispatcher => (RUN ops w1, x) | Static => (RUN ops w1, StaticFile) | Modules => (RUN ops w1, ModuleFile) | Route n => (RUN ops w1, PassedTo n)
      | UserApp => match n_sort a with ForMiddleware user _ => (RUN ops w1, PassedTo user) | _ => (RUN ops w1, Failed (EOther 2)) end end) <> Renders c).
  { intros X x. rewrite (ND X). destruct (match_extra matches (a_cfg a') (Websocket p)); cbn [snd]; [discriminate|]. destruct (n_sort a); discriminate. }
  assert (MD : match_dispatch (a_cfg a') p = true <-> dispatch_url (a_cfg a') p) by (apply match_dispatch_spec; rewrite P; exact L).
  destruct (match_dispatch (a_cfg a') p) eqn:E.
  - rewrite (D eq_refl). cbn [snd]. rewrite P. pose proof (proj1 MD eq_refl) as U. unfold dispatch_url in U. rewrite M, P in U. destruct (n_sort a) as [u roots|root su|files o]; cbn [mode_of roots_of] in *.
    + destruct (run_dispatcher true prefix (a_components a') None p) as [c'| | |] eqn:R.
      * rewrite FC in R. assert (K := proj1 (C58_registered prefix comps None p c' L) R). destruct K as (d & tail & ND0 & UC & T & EP & G). apply (import_components_get _ _ _ IC) in G. cbn [dget] in G.
        destruct G as [[I O]|[_ G]]; [|discriminate]. split.
        -- intros X. injection X as <-. exists d, tail. auto 6.
        -- intros (d' & tail' & I' & O' & UC' & T' & EP'). f_equal. assert (d = d') by (apply (C58_unique prefix d tail d' tail' UC UC' T T'); congruence). subst d'. apply import_spec in O, O'. congruence.
      * split; [discriminate|]. intros (d & tail & I & O & UC & T & EP). exfalso.
        assert (K : run_dispatcher true prefix (a_components a') None p = Component c). { apply (C58_registered prefix _ None p c L). exists d, tail. split; [|split; [exact UC|split; [exact T|split; [exact EP|]]]]. { intros ->. destruct O as (m & x & at_ & O & _). destruct m; discriminate O. } rewrite FC. apply (import_components_get _ _ _ IC). left. auto. }
        congruence.
      * split; [discriminate|]. intros (d & tail & I & O & UC & T & EP). exfalso.
        assert (K : run_dispatcher true prefix (a_components a') None p = Component c). { apply (C58_registered prefix _ None p c L). exists d, tail. split; [|split; [exact UC|split; [exact T|split; [exact EP|]]]]. { intros ->. destruct O as (m & x & at_ & O & _). destruct m; discriminate O. } rewrite FC. apply (import_components_get _ _ _ IC). left. auto. }
        congruence.
      * split; [discriminate|]. intros (d & tail & I & O & UC & T & EP). exfalso.
        assert (K : run_dispatcher true prefix (a_components a') None p = Component c). { apply (C58_registered prefix _ None p c L). exists d, tail. split; [|split; [exact UC|split; [exact T|split; [exact EP|]]]]. { intros ->. destruct O as (m & x & at_ & O & _). destruct m; discriminate O. } rewrite FC. apply (import_components_get _ _ _ IC). left. auto. }
        congruence.
    + cbn [run_dispatcher]. split; [intros X; injection X as <-; auto|]. intros [_ ->]. reflexivity.
    + contradiction.
  - split; [intros X; exfalso; exact (NR eq_refl _ X)|]. intros X. exfalso. apply Bool.diff_false_true, MD. clear MD NR ND D. unfold dispatch_url. rewrite M, P.
    destruct (n_sort a) as [u roots|root su|files o]; cbn [mode_of].
    + destruct X as (d & tail & I & O & UC & T & EP). exists d, tail. split; [|auto]. intros ->. destruct O as (m & x & at_ & O & _). destruct m; discriminate O.
    + apply X.
    + exact X.
Qed.

(** Requests that are not ReactPy's go to the application given last for the first route that matches, of the routes added to
    this application. *)
Theorem C111_routes a w w1 i ops (http : bool) R p o : let prefix := text_of show 10 (w_opts w1) in let sc := if http then Http p else Websocket p in
  NEW a w = (w1, Created i) -> all_chars literal prefix = true -> mode_of (n_sort a) <> Middleware ->
  routes_added modules i http ops R -> ~ reserved (Cfg (mode_of (n_sort a)) prefix [] [] None) sc ->
  (snd (REQUEST i sc (RUN ops w1)) = PassedTo o <-> routed matches R p o).
Proof.
  intros prefix sc H L NM RA NR. destruct (new_app _ _ _ _ H) as (comps & _ & A & IC & _). destruct (run_app ops w1 i _ A) as (a' & A' & F & CF & _). clear A. cbn [a_cfg] in CF. fold prefix in CF.
  destruct (own_cfgs_keep i ops (Cfg (mode_of (n_sort a)) prefix [] [] None)) as [M P]. pose proof (routes_fold i http ops R RA (Cfg (mode_of (n_sort a)) prefix [] [] None) NM) as RF.
  rewrite <- CF in M, P, RF. cbn [c_mode c_prefix] in M, P. assert (S0 : side http (Cfg (mode_of (n_sort a)) prefix [] [] None) = []) by (destruct http; reflexivity). rewrite S0 in RF. clear CF S0.
  injection F as FS FC FH FP FL. unfold request. rewrite A', FS.
  rewrite serve_free; [|rewrite P; exact L|intros X; apply NR; revert X; apply reserved_same; cbn; auto].
  rewrite <- first_route_routed, <- RF.
  assert (ME : match_extra matches (a_cfg a') sc = first_route matches (side http (a_cfg a')) p).
  { unfold match_extra. rewrite M. destruct (mode_of (n_sort a)); [congruence| |]; unfold sc; destruct http; reflexivity. }
  rewrite ME. destruct (first_route matches (side http (a_cfg a')) p) as [n|]; cbn [snd].
  - split; intros X; injection X as <-; reflexivity.
  - split; [|discriminate]. destruct (n_sort a); [cbn in NM; congruence| |]; (unfold sc; destruct http; [|discriminate]); (destruct (String.eqb (a_index a') ""); [|discriminate]);
      (destruct (index_text show child_text body_text csr_setup csr_component (RUN ops w1) a'); discriminate).
Qed.

(** The first lifespan application stays; all later ones are refused. *)
Theorem C111_lifespan a w w1 i ops : NEW a w = (w1, Created i) -> mode_of (n_sort a) <> Middleware ->
  (forall o, snd (REQUEST i Lifespan (RUN ops w1)) = PassedTo o <-> first_lifespan modules i ops o) /\
  (forall o t, first_lifespan modules i ops o -> STEP (RUN ops w1) (LifespanOf i t) = (RUN ops w1, Failed EValue)).
Proof.
  intros H NM. destruct (new_app _ _ _ _ H) as (comps & _ & A & IC & _). destruct (run_app ops w1 i _ A) as (a' & A' & F & CF & _). clear A. cbn [a_cfg] in CF.
  set (c0 := Cfg (mode_of (n_sort a)) (text_of show 10 (w_opts w1)) [] [] None) in *. destruct (own_cfgs_keep i ops c0) as [M _].
  assert (G : forall ops c, c_mode c <> Middleware -> match c_lifespan c with Some x => c_lifespan (fold_left (fun c o => own_cfg i o c) ops c) = Some x
               | None => forall o, c_lifespan (fold_left (fun c o => own_cfg i o c) ops c) = Some o <-> first_lifespan modules i ops o end).
  { clear H A' F CF M IC NM. clear ops a'. induction ops as [|x ops IH]; intros c NM; cbn [fold_left].
    - destruct (c_lifespan c); [reflexivity|]. intros o. split; [discriminate|]. intros (A & t & B & E & _). destruct A; discriminate.
    - specialize (IH (own_cfg i x c)). rewrite (proj1 (own_cfg_keeps i x c)) in IH. specialize (IH NM).
      destruct (c_lifespan c) as [y|] eqn:L.
      + assert (K : c_lifespan (own_cfg i x c) = Some y).
        { destruct x as [b|j h path t|j t|j sc]; cbn [own_cfg]; auto; destruct (Nat.eqb j i); auto.
          - destruct (c_mode c); auto; destruct (object_of modules t); auto; destruct h; auto.
          - rewrite L. destruct (c_mode c); auto. }
        rewrite K in IH. exact IH.
      + assert (K : (exists t y, x = LifespanOf i t /\ means modules t y /\ c_lifespan (own_cfg i x c) = Some y) \/ ((forall t y, x = LifespanOf i t -> ~ means modules t y) /\ c_lifespan (own_cfg i x c) = None)).
        { destruct x as [b|j h path t|j t|j sc]; cbn [own_cfg]; [right; split; [intros; discriminate|exact L]|right; split; [intros; discriminate|]| |right; split; [intros; discriminate|exact L]].
          - destruct (Nat.eqb j i); auto. destruct (c_mode c); auto; destruct (object_of modules t); auto; destruct h; auto.
          - destruct (Nat.eqb_spec j i) as [->|N]; [|right; split; [intros; congruence|exact L]]. rewrite L. destruct (object_of modules t) as [y|e] eqn:E.
            + left. exists t, y. split; [reflexivity|]. split; [apply object_spec, E|]. destruct (c_mode c); [congruence| |]; reflexivity.
            + right. split; [|destruct (c_mode c); exact L]. intros t' y Q. injection Q as <-. intros Z. apply object_spec in Z. congruence. }
        destruct K as [(t & y & -> & ME & K)|[N K]]; rewrite K in IH.
        * rewrite IH. intros o. split.
          -- intros Q. injection Q as <-. exists [], t, ops. split; [reflexivity|]. split; [exact ME|]. intros t' o' [].
          -- intros (A & t' & B & E & ME' & N'). destruct A as [|z A]; cbn [app] in E; [injection E as <- _|injection E as <- _; exfalso; exact (N' t y (or_introl eq_refl) ME)].
             apply object_spec in ME, ME'. congruence.
        * intros o. rewrite IH. split.
          -- intros (A & t & B & -> & ME & N'). exists (x :: A), t, B. split; [reflexivity|]. split; [exact ME|]. intros t' o' [E|I]; [apply N; exact E|apply N'; exact I].
          -- intros (A & t & B & E & ME & N'). destruct A as [|z A]; cbn [app] in E; injection E as -> ->; [exfalso; exact (N t o eq_refl ME)|]. exists A, t, B. split; [reflexivity|]. split; [exact ME|]. intros t' o' I. apply (N' t' o'). right. exact I. }
  specialize (G ops c0 NM). cbn [c0 c_lifespan] in G. rewrite <- CF in G, M. change (c_mode c0) with (mode_of (n_sort a)) in M. injection F as FS FC FH FP FL. split.
  - intros o. rewrite <- G. unfold request. rewrite A', FS. cbn [serve]. unfold match_extra. rewrite M. destruct (mode_of (n_sort a)) eqn:MO; [congruence| |];
      (destruct (c_lifespan (a_cfg a')) as [x|]; cbn [snd]; [split; intros Q; injection Q as <-; reflexivity|]; split; [|discriminate]; destruct (n_sort a); cbn in MO; discriminate).
  - intros o t FL1. apply G in FL1. cbn [step]. unfold lifespan. rewrite A', M, FL1. destruct (mode_of (n_sort a)); [congruence| |]; reflexivity.
Qed.

(** The first page an application serves has the language, the head and the body it was created with, and the scripts for the
    options at this time; provided no other application adds PyScript to the same head element. *)
Theorem C111_page w0 before a w1 i mid R p : let w := RUN before w0 in let prefix := text_of show 10 (w_opts w1) in
  let contents := String.concat "" (map child_text ((match n_head a with Some n => h_children (w_heads w0 n) | None => [] end) ++ own_setup (n_sort a))) in
  NEW a w = (w1, Created i) -> all_chars literal prefix = true -> mode_of (n_sort a) <> Middleware ->
  (forall n, n_head a = Some n -> h_tag (w_heads w0 n) = "head") ->
  (forall n b, n_head a = Some n -> In (New b) (before ++ mid) -> ~ adds_to n b) ->
  (forall sc, ~ In (Request i sc) mid) ->
  routes_added modules i true mid R -> ~ reserved (Cfg (mode_of (n_sort a)) prefix [] [] None) (Http p) -> (forall o, ~ routed matches R p o) ->
  (forall u v, contents <> (u ++ "</head>" ++ v)%string) ->
  snd (REQUEST i (Http p) (RUN mid w1)) = Page (
    match n_sort a with
    | ForCsr files o => page_spec (n_lang a) (contents ++ csr_setup o) (body_spec (n_prepend a) ++ csr_component files o)
    | _ => page_spec (n_lang a) contents (body_spec (n_prepend a) ++ standalone_html (page_settings show (w_opts (RUN mid w1))))
    end).
Proof.
  intros w prefix contents H L NM HT AL NQ RA NR NRO NE. destruct (new_app _ _ _ _ H) as (comps & _ & A & IC & _ & HD). destruct (run_app mid w1 i _ A) as (a' & A' & F & CF & IX). clear A.
  cbn [a_index] in IX. destruct IX as [IX|[_ [sc Q]]]; [|exfalso; exact (NQ sc Q)]. cbn [a_cfg] in CF. fold prefix in CF.
  destruct (own_cfgs_keep i mid (Cfg (mode_of (n_sort a)) prefix [] [] None)) as [M P]. pose proof (routes_fold i true mid R RA (Cfg (mode_of (n_sort a)) prefix [] [] None) NM) as RF.
  rewrite <- CF in M, P, RF. cbn [c_mode c_prefix side c_http] in M, P, RF. clear CF. injection F as FS FC FH FP FL.
  assert (SV : serve matches (a_cfg a') (Http p) = UserApp).
  { rewrite serve_free; [|rewrite P; exact L|intros X; apply NR; revert X; apply reserved_same; cbn; auto].
    assert (ME : match_extra matches (a_cfg a') (Http p) = first_route matches (c_http (a_cfg a')) p) by (unfold match_extra; rewrite M; destruct (mode_of (n_sort a)); [congruence| |]; reflexivity).
    rewrite ME, RF. clear ME. match goal with |- match ?f with _ => _ end = _ => destruct f as [o|] eqn:FR end; [|reflexivity]. apply first_route_routed in FR. exfalso. exact (NRO o FR). }
  assert (HO : head_of (RUN mid w1) a' = Head "head" ((match n_head a with Some n => h_children (w_heads w0 n) | None => [] end) ++ own_setup (n_sort a))).
  { unfold head_of. rewrite FH. destruct (n_head a) as [n|] eqn:HA; [|reflexivity].
    rewrite (run_heads mid n w1) by (intros b I; apply (AL n b eq_refl), in_or_app; right; exact I). rewrite HD, Nat.eqb_refl.
    unfold w. rewrite (run_heads before n w0) by (intros b I; apply (AL n b eq_refl), in_or_app; left; exact I). rewrite (HT n eq_refl). reflexivity. }
  unfold request. rewrite A', SV, FS.
  assert (IT : forall X, index_text show child_text body_text csr_setup csr_component (RUN mid w1) a' = inl X ->
                snd (if String.eqb (a_index a') "" then match index_text show child_text body_text csr_setup csr_component (RUN mid w1) a' with
                     inl t => (put_app i (with_index t a') (RUN mid w1), Page t) | inr e => (RUN mid w1, Failed e) end else (RUN mid w1, Page (a_index a'))) = Page X).
  { intros X E. rewrite IX, E. reflexivity. }
  unfold contents in *. clear contents.
  destruct (n_sort a) as [u roots|root su|files o] eqn:K; [cbn in NM; congruence| |]; apply IT; unfold index_text; rewrite HO, FS, FL, FP; cbn [h_tag h_children]; cbn [String.eqb Ascii.eqb Bool.eqb negb].
  - unfold head_text. rewrite document_spec. reflexivity.
  - unfold head_text. change ("<head>" ++ String.concat "" (map child_text (match n_head a with Some n => h_children (w_heads w0 n) | None => [] end ++ own_setup (ForCsr files o))) ++ "</head>")%string
      with ("<head>" ++ (String.concat "" (map child_text (match n_head a with Some n => h_children (w_heads w0 n) | None => [] end ++ own_setup (ForCsr files o))) ++ "</head>"))%string.
    rewrite <- append_assoc_s, cut_end.
    + rewrite <- document_spec, !append_assoc_s. reflexivity.
    + set (x := String.concat "" _) in *. intros u v E. destruct u as [|c1 u]; [discriminate E|]. destruct u as [|c2 u]; [discriminate E|]. destruct u as [|c3 u]; [discriminate E|].
      destruct u as [|c4 u]; [discriminate E|]. destruct u as [|c5 u]; [discriminate E|]. destruct u as [|c6 u]; [discriminate E|]. cbn [append] in E. injection E as _ _ _ _ _ _ E. exact (NE u v E).
Qed.

(** The page of an application never changes once it was served. *)
Theorem C111_page_kept w i sc t ops sc' t' : snd (REQUEST i sc w) = Page t -> snd (REQUEST i sc' (RUN ops (fst (REQUEST i sc w)))) = Page t' -> t' = t.
Proof.
  intros P Q. destruct (page_answer _ _ _ _ P) as (a & a1 & _ & A1 & X & NE & _). destruct (run_app ops _ _ _ A1) as (a2 & A2 & _ & _ & IX).
  destruct (page_answer _ _ _ _ Q) as (a3 & a4 & A3 & _ & _ & _ & Y). rewrite A2 in A3. injection A3 as <-. destruct IX as [IX|[IX _]]; [|congruence]. destruct Y; congruence.
Qed.

(** *** The options of a page *)

Section Options.
Variable kind : value -> pyval.
Variable truth : bool -> value.
Variables to_path to_float to_int to_str : value -> option value.
Hypothesis kind_truth : forall b, kind (truth b) = PBool b.
Local Notation CONFIG := (config kind truth to_path to_float to_int to_str).
(** The settings a page depends on. *)
Definition of_pages (n : string) : Prop :=
  In (upper n) ["PATH_PREFIX"; "RECONNECT_INTERVAL"; "RECONNECT_MAX_INTERVAL"; "RECONNECT_MAX_RETRIES"; "RECONNECT_BACKOFF_MULTIPLIER"].
Lemma of_pages_option n x : option_of n = Some x -> 6 <= x <= 10 -> of_pages n.
Proof.
  intros O B. unfold of_pages. assert (E : x = 6 \/ x = 7 \/ x = 8 \/ x = 9 \/ x = 10) by lia.
  destruct E as [-> |[-> |[-> |[-> | ->]]]];
    [rewrite (option_name n 6 "RECONNECT_INTERVAL" O) by (cbn; tauto)|rewrite (option_name n 7 "RECONNECT_MAX_INTERVAL" O) by (cbn; tauto)|rewrite (option_name n 8 "RECONNECT_MAX_RETRIES" O) by (cbn; tauto)|
     rewrite (option_name n 9 "RECONNECT_BACKOFF_MULTIPLIER" O) by (cbn; tauto)|rewrite (option_name n 10 "PATH_PREFIX" O) by (cbn; tauto)]; cbn; tauto.
Qed.
Lemma process_others s x : 6 <= x <= 10 -> (forall n v, In (n, v) s -> ~ of_pages n) -> forall st, CONFIG st -> nth_error (opts (snd (process s st))) x = nth_error (opts st) x.
Proof.
  intros B. induction s as [|[n v] s IH]; intros N st C; [reflexivity|]. cbn [process]. destruct (option_of n) as [o|] eqn:O; [|reflexivity].
  destruct (set_config kind truth to_path to_float to_int to_str kind_truth o v st C (option_of_range _ _ O)) as (C' & T & _).
  assert (NT : ~ touches o x). { intros [->|[-> D]]; [apply (N n v (or_introl eq_refl)), (of_pages_option n o O B)|]. unfold debug_family in D. destruct x as [|[|[|x]]]; try lia. discriminate D. }
  specialize (T x NT). destruct (set o v st) as [r st'] eqn:S. cbn [snd] in *. destruct r; [|exact T|exact T]. rewrite IH; [exact T|intros n' v' I; apply (N n' v'); right; exact I|exact C'].
Qed.
Lemma process_pages s st : (forall n v, In (n, v) s -> ~ of_pages n) -> CONFIG st -> page_settings show (snd (process s st)) = page_settings show st.
Proof.
  intros N C. unfold page_settings, text_of, cur_of. rewrite !(process_others s _) by (auto; lia). reflexivity.
Qed.
Lemma run_pages ops : forall w, CONFIG (w_opts w) -> (forall b n v, In (New b) ops -> In (n, v) (n_settings b) -> ~ of_pages n) ->
  page_settings show (w_opts (RUN ops w)) = page_settings show (w_opts w).
Proof.
  induction ops as [|o ops IH]; intros w C N; [reflexivity|]. change (page_settings show (w_opts (RUN ops (fst (STEP w o)))) = page_settings show (w_opts w)).
  destruct (step_opts w o) as [E|(b & -> & E)].
  - rewrite IH; [rewrite E; reflexivity|rewrite E; exact C|intros b n v I; apply N; right; exact I].
  - rewrite IH; [rewrite E; apply process_pages; [intros n v I; apply (N b n v (or_introl eq_refl) I)|exact C]|rewrite E; apply process_config; auto|intros b' n v I; apply N; right; exact I].
Qed.
Lemma run_config ops : forall w, CONFIG (w_opts w) -> CONFIG (w_opts (RUN ops w)).
Proof.
  induction ops as [|o ops IH]; intros w C; [exact C|]. change (CONFIG (w_opts (RUN ops (fst (STEP w o))))). apply IH. destruct (step_opts w o) as [E|(b & _ & E)]; rewrite E; [exact C|apply process_config; auto].
Qed.

(** A browser that opens the page of a standalone application gets ReactPy's code and modules from this application and a socket
    at which this application renders its root component; whatever applications exist, provided that none is created between
    this one and its first page with settings for the path prefix or the reconnection, and that no other adds to its head. *)
Theorem C111_connects w0 before a root su w1 i mid R p ops : let w := RUN before w0 in let o := page_settings show (w_opts w1) in
  reached kind truth to_path to_float to_int to_str (w_opts w0) ->
  NEW a w = (w1, Created i) -> n_sort a = ForStandalone root su ->
  good_prefix (s_prefix o) -> numeral (s_interval o) -> numeral (s_max o) -> numeral (s_retries o) -> numeral (s_backoff o) ->
  (forall n, n_head a = Some n -> h_tag (w_heads w0 n) = "head") ->
  (forall n b, n_head a = Some n -> In (New b) (before ++ mid) -> ~ adds_to n b) ->
  (forall sc, ~ In (Request i sc) mid) -> (forall b n v, In (New b) mid -> In (n, v) (n_settings b) -> ~ of_pages n) ->
  routes_added modules i true mid R -> ~ reserved (Cfg Standalone (s_prefix o) [] [] None) (Http p) -> (forall r, ~ routed matches R p r) ->
  (forall u v, String.concat "" (map child_text ((match n_head a with Some n => h_children (w_heads w0 n) | None => [] end) ++ own_setup (n_sort a))) <> (u ++ "</head>" ++ v)%string) ->
  exists head page url cl path, snd (REQUEST i (Http p) (RUN mid w1)) = Page (page_spec (n_lang a) head (body_spec (n_prepend a) ++ page)) /\
    shows page = Some (url, cl) /\ c_element cl = "app" /\ c_socket cl = Some path /\
    let later := RUN ops (fst (REQUEST i (Http p) (RUN mid w1))) in
    snd (REQUEST i (Websocket path) later) = Renders root /\ snd (REQUEST i (Http url) later) = StaticFile /\
    forall file, snd (REQUEST i (Http (c_modules cl ++ file)) later) = ModuleFile.
Proof.
  intros w o RE H K G N1 N2 N3 N4 HT AL NQ NS RA NR NRO NE. apply reached_config in RE.
  pose proof (run_config before w0 RE) as CW. destruct (new_app _ _ _ _ H) as (comps & _ & A & IC & OP & HD). assert (C1 : CONFIG (w_opts w1)) by (rewrite OP; apply process_config; auto).
  assert (L : all_chars literal (s_prefix o) = true).
  { destruct G as (_ & PL & _). clear - PL. revert PL. generalize (s_prefix o). induction s as [|c s IH]; [reflexivity|]. cbn [all_chars]. intros H. apply andb_prop in H. destruct H as [H1 H2]. rewrite (IH H2), andb_true_r.
    unfold literal. destruct (Ascii.eqb_spec c "."); [subst c; discriminate H1|reflexivity]. }
  assert (MO : mode_of (n_sort a) = Standalone) by (rewrite K; reflexivity).
  pose proof (C111_page w0 before a w1 i mid R p H L ltac:(rewrite MO; discriminate) HT AL NQ RA) as PG. rewrite MO in PG. specialize (PG NR NRO NE). rewrite K in PG. cbv iota zeta in PG. rewrite (run_pages mid w1 C1 NS) in PG. fold o in PG.
  destruct (C89_standalone matches o [] [] None [] root G N1 N2 N3 N4) as (url & cl & path & SH & _ & SU & EL & SO & SW & _ & SM).
  eexists. exists (standalone_html o), url, cl, path. split; [exact PG|]. split; [exact SH|]. split; [exact EL|]. split; [exact SO|]. intros later.
  destruct (run_app (mid ++ Request i (Http p) :: ops) w1 i _ A) as (a' & A' & F & CF & _).
  assert (LA : RUN (mid ++ Request i (Http p) :: ops) w1 = later) by (unfold run; rewrite fold_left_app; reflexivity). rewrite LA in A'.
  destruct (own_cfgs_keep i (mid ++ Request i (Http p) :: ops) (Cfg (mode_of (n_sort a)) (text_of show 10 (w_opts w1)) [] [] None)) as [M P]. cbn [a_cfg] in CF. rewrite <- CF in M, P. cbn [c_mode c_prefix] in M, P. rewrite MO in M.
  injection F as FS FC FH FP FL. rewrite K in FS.
  assert (SS : forall q r, (exists x, serve matches (Cfg Standalone (s_prefix o) [] [] None) (Http q) = x /\ x <> UserApp /\ r = match x with Static => StaticFile | _ => ModuleFile end) -> snd (REQUEST i (Http q) later) = r).
  { intros q r (x & E & NU & ->). unfold request. rewrite A', FS. unfold serve in *. rewrite P. change (text_of show 10 (w_opts w1)) with (s_prefix o). cbn [c_prefix match_extra c_mode c_http first_route find] in E.
    destruct (startswith (s_prefix o ++ "static/") q); [subst x; reflexivity|]. destruct (startswith (s_prefix o ++ "modules/") q); [subst x; reflexivity|]. subst x. congruence. }
  split.
  - unfold request. rewrite A', FS. cbn [serve] in SW. unfold match_dispatch in SW. cbn [c_mode c_prefix] in SW. unfold serve, match_dispatch. rewrite M, P. change (text_of show 10 (w_opts w1)) with (s_prefix o).
    destruct (String.eqb path (s_prefix o)); [reflexivity|]. cbn in SW. discriminate SW.
  - split; [apply SS; eexists; split; [exact SU|]; split; [discriminate|reflexivity]|]. intros file. apply SS. eexists. split; [apply SM|]. split; [discriminate|reflexivity].
Qed.
End Options.
End Facts.
Print Assumptions C111_created.
Print Assumptions C111_failed_partial.
Print Assumptions C111_components.
Print Assumptions C111_routes.
Print Assumptions C111_lifespan.
Print Assumptions C111_page.
Print Assumptions C111_page_kept.
Print Assumptions C111_connects.

(** *** Concrete applications *)

(** A module [shop.views] with the components 1 and 2; options whose values 20 to 22 are path prefixes and others the numbers of
    the reconnection options. *)
Definition modules0 (m : string) : module :=
  if String.eqb m "shop.views" then Imported (fun x => if String.eqb x "cart" then Attr 1 else if String.eqb x "list" then Attr 2 else NoAttr) else NotImported.
Definition show0 (v : value) : string := match v_val v with 20 => "/reactpy/" | 21 => "/a/" | 22 => "/b/" | _ => "5" end.
Definition any0 (v : value) : option value := Some v.
Definition options0 : state := OptionModel.run (config_py kind0 truth0 any0 any0 any0 any0 (fun _ => None) (fun n => if Nat.eqb n 10 then Val 20 20 else Val 3 3)).
Lemma options0_reached : reached kind0 truth0 any0 any0 any0 any0 options0.
Proof. exists (fun _ => None), (fun n => if Nat.eqb n 10 then Val 20 20 else Val 3 3), []. split; [reflexivity|]. split; [constructor|reflexivity]. Qed.
(** Element 0 is a head with one child, element 1 is a body. *)
Definition world0 : world := World options0 (fun n => if Nat.eqb n 0 then Head "head" [Given 1] else Head "body" []) [].
Definition child0 (c : hchild) : string := match c with Given _ => "<title>Shop</title>" | Setup _ => "<script>pyscript</script>" end.
Definition exact0 (pattern path : string) : bool := String.eqb pattern ("^" ++ path ++ "$").
Definition step0 := step modules0 exact0 (fun _ => true) show0 (fun _ => true) (fun _ => Some true) child0 (fun _ => "<p>Hello</p>") (fun _ => None) (fun _ => "<script>setup</script>") (fun _ _ => "<py></py>").
Definition run0 (ops : list op) : world := fold_left (fun w o => fst (step0 w o)) ops world0.
Definition standalone (h : option nat) (setup : option nat) (s : list (string * value)) : op := New (Args (ForStandalone 7 setup) h Default "en" s).
(** The part of a page before its body. *)
Fixpoint upto_body (s : string) : string := match s with "" => "" | String a s' => if startswith "<body>" s then "" else String a (upto_body s') end.

(** Finding: the elements for PyScript are added to the head element that was given; other applications with the same element
    serve them too. *)
Theorem C111_shared_head_refuted : let ops := [standalone (Some 0) None []; standalone (Some 0) (Some 9) []] in
  exists t, snd (step0 (run0 ops) (Request 0 (Http "/"))) = Page t /\
    upto_body t = "<!doctype html><html lang=""en""><head><title>Shop</title><script>pyscript</script></head>" /\
    exists t', snd (step0 (run0 [standalone (Some 0) None []]) (Request 0 (Http "/"))) = Page t' /\
    upto_body t' = "<!doctype html><html lang=""en""><head><title>Shop</title></head>".
Proof.
  cbv zeta. eexists. split; [vm_compute; reflexivity|]. split; [vm_compute; reflexivity|]. eexists. split; vm_compute; reflexivity.
Qed.
Print Assumptions C111_shared_head_refuted.

(** Finding: a constructor that raises because a component cannot be imported has already changed the path prefix of the process;
    the page of an application that was there before then names a socket this application does not serve. *)
Theorem C111_failed_refuted : let bad := New (Args (ForMiddleware 3 ["shop.views.missing"]) None Default "en" [("path_prefix", Val 21 21)]) in
  snd (step0 (run0 [standalone None None []]) bad) = Failed EAttribute /\
  exists t t', snd (step0 (run0 [standalone None None []]) (Request 0 (Http "/"))) = Page t /\ option_map (fun x => c_socket (snd x)) (shows t) = Some (Some "/reactpy/") /\
    snd (step0 (run0 [standalone None None []; bad]) (Request 0 (Http "/"))) = Page t' /\ option_map (fun x => c_socket (snd x)) (shows t') = Some (Some "/a/") /\
    snd (step0 (run0 [standalone None None []; bad]) (Request 0 (Websocket "/a/"))) = Failed (EOther 2).
Proof.
  cbv zeta. split; [vm_compute; reflexivity|]. eexists. eexists. split; [vm_compute; reflexivity|]. split; [vm_compute; reflexivity|]. split; [vm_compute; reflexivity|]. split; vm_compute; reflexivity.
Qed.
Print Assumptions C111_failed_refuted.

(** Finding: an element that is no head is accepted, and then every request for the page fails. *)
Theorem C111_no_head_refuted : let ops := [standalone (Some 1) None []] in
  snd (step0 world0 (standalone (Some 1) None [])) = Created 0 /\ forall later, Forall (fun o => exists sc, o = Request 0 sc) later ->
  snd (step0 (run0 (ops ++ later)) (Request 0 (Http "/"))) = Failed EValue.
Proof.
  cbv zeta. split; [vm_compute; reflexivity|]. intros later F. unfold run0. rewrite fold_left_app.
  assert (E : fold_left (fun w o => fst (step0 w o)) [standalone (Some 1) None []] world0 = fst (step0 world0 (standalone (Some 1) None []))) by reflexivity. rewrite E. clear E.
  set (w := fst (step0 world0 (standalone (Some 1) None []))).
  assert (NH : forall sc, fst (step0 w (Request 0 sc)) = w).
  { assert (A : nth_error (w_apps w) 0 = Some (App (Cfg Standalone "/reactpy/" [] [] None) (ForStandalone 7 None) [] (Shared 1) Default "en" "")) by (vm_compute; reflexivity).
    intros sc. unfold step0, step, request. rewrite A. cbn [a_cfg a_sort a_index a_components]. destruct (serve exact0 (Cfg Standalone "/reactpy/" [] [] None) sc); try reflexivity; [destruct sc; reflexivity|]. destruct sc; try reflexivity. }
  assert (S : fold_left (fun w o => fst (step0 w o)) later w = w) by (induction F as [|o l [sc ->] F IH]; [reflexivity|]; cbn [fold_left]; rewrite NH; exact IH).
  rewrite S. vm_compute. reflexivity.
Qed.
Print Assumptions C111_no_head_refuted.

(** Finding: in a page for PyScript the setup is inserted before every end tag of a head, also before one in a script of the head. *)
Theorem C111_setup_twice_refuted : replace_text "</head>" ("<script>setup</script>" ++ "</head>") 0 "<head><script>x = ""</head>""</script></head>" =
  "<head><script>x = ""<script>setup</script></head>""</script><script>setup</script></head>".
Proof. reflexivity. Qed.
Print Assumptions C111_setup_twice_refuted.

Example C111_example :
  let ops := [New (Args (ForMiddleware 3 ["shop.views.cart"; "shop.views.list"]) None Default "en" []); standalone (Some 0) (Some 9) [("path_prefix", Val 22 22)];
              RouteOf 1 true "/about" (Object 4); RouteOf 1 true "^/about" (Object 5); LifespanOf 1 (Dotted "shop.views.list")] in
  let ask i sc := snd (step0 (run0 ops) (Request i sc)) in
  (ask 0 (Websocket "/reactpy/shop.views.list/") = Renders 2 /\ ask 0 (Websocket "/reactpy/shop.views.missing/") = Refused /\ ask 1 (Websocket "/b/") = Renders 7) /\
  (ask 0 (Http "/about") = PassedTo 3 /\ ask 1 (Http "/about") = PassedTo 5 /\ ask 1 Lifespan = PassedTo 2 /\ snd (step0 (run0 ops) (LifespanOf 1 (Object 8))) = Failed EValue) /\
  (routes_added modules0 1 true ops [("^/about$", 4); ("^/about$", 5)] /\ good_prefix "/b/" /\ numeral "5" /\ ~ reserved (Cfg Standalone "/b/" [] [] None) (Http "/about")) /\
  exists t, ask 1 (Http "/") = Page t /\ upto_body t = "<!doctype html><html lang=""en""><head><title>Shop</title><script>pyscript</script></head>" /\ option_map (fun x => c_socket (snd x)) (shows t) = Some (Some "/b/").
Proof.
  cbv zeta. split; [split; [vm_compute; reflexivity|]; split; vm_compute; reflexivity|].
  split; [split; [vm_compute; reflexivity|]; split; [vm_compute; reflexivity|]; split; vm_compute; reflexivity|]. split.
  - split; [|split; [|split]].
    + constructor; [intros; discriminate|]. constructor; [intros; discriminate|].
      apply added_one; [exact (pattern_anchored "/about")|reflexivity|]. apply added_one; [exact (pattern_anchored "^/about")|reflexivity|]. constructor; [intros; discriminate|constructor].
    + split; [apply slashed_spec; reflexivity|]. split; reflexivity.
    + split; [discriminate|reflexivity].
    + cbn [reserved]. unfold below. intros [[r H]|[r H]]; discriminate H.
  - eexists. split; [vm_compute; reflexivity|]. split; vm_compute; reflexivity.
Qed.
