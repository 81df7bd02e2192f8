(** * Model of how components are made, bound, named and how their failures are kept apart, and property C92
    /repo/src/reactpy/core/component.py:11-32, /repo/src/reactpy/types.py:42-74, /repo/src/reactpy/core/layout.py:330-351.
    The layout's own model (LayoutModel.v) takes the text of the log message as always available; here it is computed. *)
From Coq Require Import String Ascii Bool Arith Lia List.
From Verif Require Import Dict Strings PyStr.
Import ListNotations.
Local Open Scope string_scope. Local Open Scope list_scope.

(** ** Model: parameters and arguments *)

(** [inspect.Parameter]: the kinds, and whether there is a default. *)
Inductive kind := PositionalOnly | PositionalOrKeyword | VarPositional | KeywordOnly | VarKeyword.
Record parameter := Param { p_name : string; p_kind : kind; p_default : bool }.

(** The check in [component], component.py:19-26: may this function be a component? *)
Definition accepted (sig : list parameter) : bool :=
  negb (existsb (fun p => String.eqb (p_name p) "key" && match p_kind p with KeywordOnly | PositionalOrKeyword => true | _ => false end) sig).

Section Values.
(** Python values and their [repr]: [None] if it raises. *)
Variable value : Type.
Variable repr : value -> option string.
(** What a parameter is bound to: a value, the rest of the positional ones, the rest of the named ones. *)
Inductive bound := One (v : value) | Rest (l : list value) | Named (d : list (string * value)).

Definition has_name (n : string) (kw : list (string * value)) : bool := existsb (fun q => String.eqb (fst q) n) kw.
Definition without (n : string) (kw : list (string * value)) : list (string * value) := filter (fun q => negb (String.eqb (fst q) n)) kw.
Fixpoint lookup (n : string) (kw : list (string * value)) : option value :=
  match kw with [] => None | (m, v) :: r => if String.eqb m n then Some v else lookup n r end.

(** [inspect.Signature.bind] (Python's library, which follows the rules of calls): the named arguments, for the parameters left. *)
Fixpoint bind_named (ps : list parameter) (kw : list (string * value)) (rest : option string) : option (list (string * bound)) :=
  match ps with
  | [] => match kw, rest with
          | [], _ => Some []
          | _, Some n => Some [(n, Named kw)]
          | _, None => None
          end
  | p :: ps' =>
      match p_kind p with
      | VarKeyword => bind_named ps' kw (Some (p_name p))
      | VarPositional => bind_named ps' kw rest
      | k => match lookup (p_name p) kw with
             | None => if p_default p then bind_named ps' kw rest else None
             | Some v => match k with
                         | PositionalOnly => None
                         | _ => option_map (cons (p_name p, One v)) (bind_named ps' (without (p_name p) kw) rest)
                         end
             end
      end
  end.
(** All of it: positional arguments first. *)
Fixpoint bind (ps : list parameter) (args : list value) (kw : list (string * value)) : option (list (string * bound)) :=
  match args with
  | [] => bind_named ps kw None
  | a :: args' =>
      match ps with
      | [] => None
      | p :: ps' =>
          match p_kind p with
          | KeywordOnly | VarKeyword => None
          | VarPositional => option_map (cons (p_name p, Rest args)) (bind_named ps' kw None)
          | PositionalOrKeyword => if has_name (p_name p) kw then None else option_map (cons (p_name p, One a)) (bind ps' args' kw)
          | PositionalOnly => option_map (cons (p_name p, One a)) (bind ps' args' kw)
          end
      end
  end.

(** ** Model: components *)

(** A component: its function's [__name__], if it has one (partial functions and callable objects have none), its signature and
    arguments. [id] is the text of its address. [Component.__init__], types.py:47-59, called by [constructor], component.py:28-30,
    with the named arguments other than [key]. *)
Record component := Component { c_name : option string; c_sig : list parameter; c_args : list value; c_kwargs : list (string * value); c_id : string }.
(** [constructor]: takes all arguments, but keeps [key] for itself. *)
Definition construct (name : option string) (id : string) (sig : list parameter) (args : list value) (kw : list (string * value)) : component * option value :=
  (Component name sig args (without "key" kw) id, lookup "key" kw).

(** The texts of a list of values; [None] if one raises. *)
Fixpoint reprs (l : list value) : option (list string) :=
  match l with [] => Some [] | v :: r => match repr v, reprs r with Some s, Some t => Some (s :: t) | _, _ => None end end.
(** [repr] of a bound argument: tuples and dictionaries show their elements (the exact text is simplified). *)
Definition show (b : bound) : option string :=
  match b with
  | One v => repr v
  | Rest l => option_map (fun t => ("(" ++ join ", " t ++ ")")%string) (reprs l)
  | Named d => option_map (fun t => ("{" ++ join ", " t ++ "}")%string) (reprs (map snd d))
  end.
Fixpoint items (l : list (string * bound)) : option (list string) :=
  match l with [] => Some [] | (n, b) :: r => match show b, items r with Some s, Some t => Some ((n ++ "=" ++ s)%string :: t) | _, _ => None end end.
(** [Component.__repr__], types.py:64-74; [None] if it raises. *)
Definition component_repr (c : component) : option string :=
  match bind (c_sig c) (c_args c) (c_kwargs c) with
  | None => option_map (fun n => (n ++ "(...)")%string) (c_name c)
  | Some args =>
      match items args, c_name c with
      | Some t, Some n => let i := join ", " t in Some (if String.eqb i "" then (n ++ "(" ++ c_id c ++ ")")%string else (n ++ "(" ++ c_id c ++ ", " ++ i ++ ")")%string)
      | _, _ => None
      end
  end.

(** ** Model: what a render shows *)

(** What components and elements are made of, for one render: a text, an element with children, an element that the layout
    refuses (a wrong type, children with the same key …) and a component that raises an exception, or returns a node. An
    exception: its text, [None] if [str] of it raises. *)
Definition exception := option string.
Inductive node :=
  | Text (s : string)
  | Elem (tag : string) (children : list node)
  | Refused (e : exception)
  | Comp (c : component) (b : body)
with body := Raises (e : exception) | Returns (n : node).

(** The model sent, and the exception that leaves [layout.render]. *)
Inductive ui := UText (s : string) | UElem (tag : string) (children : list ui) | UComp (child : ui) | UError (message : string).
Inductive result := Shown (u : ui) | Raised (e : exception).

Variable debug : bool.
(** The [except] clause of [_render_component], layout.py:341-348: the log message is made first, then the model. An
    exception made meanwhile leaves the function; its own text is always available. *)
Definition handled (c : component) (e : exception) : result :=
  match component_repr c with
  | None => Raised (Some "")
  | Some _ => match (if debug then e else Some "") with None => Raised (Some "") | Some t => Shown (UError t) end
  end.
(** [_render_component], layout.py:330-351, and [_render_model], lines 353-386: children one after the other; an
    exception leaves every element around it up to the next component. *)
Fixpoint render (n : node) : result :=
  match n with
  | Text s => Shown (UText s)
  | Elem tag cs =>
      let fix each l := match l with
                        | [] => (fun acc => Shown (UElem tag (rev acc)))
                        | x :: r => fun acc => match render x with Shown u => each r (u :: acc) | Raised e => Raised e end
                        end in each cs []
  | Refused e => Raised e
  | Comp c (Raises e) => handled c e
  | Comp c (Returns m) => match render m with Shown u => Shown (UComp u) | Raised e => handled c e end
  end.
End Values.
Arguments One {value}. Arguments Rest {value}. Arguments Named {value}.
Arguments Text {value}. Arguments Elem {value}. Arguments Refused {value}. Arguments Comp {value}. Arguments Raises {value}. Arguments Returns {value}.
Arguments Component {value}. Arguments c_name {value}. Arguments c_sig {value}. Arguments c_args {value}. Arguments c_kwargs {value}.

(** ** Specification *)

(** A tree with one place left open, and what is sent with one place left open. *)
Inductive tree_with_hole {value : Type} :=
  | Hole
  | InElem (tag : string) (before : list (node value)) (t : tree_with_hole) (after : list (node value))
  | InComp (c : component value) (t : tree_with_hole).
Arguments tree_with_hole : clear implicits.
Fixpoint fill {value} (t : tree_with_hole value) (n : node value) : node value :=
  match t with
  | Hole => n
  | InElem tag before t' after => Elem tag (before ++ fill t' n :: after)
  | InComp c t' => Comp c (Returns (fill t' n))
  end.
Inductive ui_with_hole := UHole | UInElem (tag : string) (before : list ui) (t : ui_with_hole) (after : list ui) | UInComp (t : ui_with_hole).
Fixpoint ufill (t : ui_with_hole) (u : ui) : ui :=
  match t with
  | UHole => u
  | UInElem tag before t' after => UElem tag (before ++ ufill t' u :: after)
  | UInComp t' => UComp (ufill t' u)
  end.

(** The function has a name and all arguments can be printed. *)
Definition printable {value} (repr : value -> option string) (c : component value) : Prop :=
  (exists n, c_name c = Some n) /\ (forall v, In v (c_args c) \/ In v (map snd (c_kwargs c)) -> exists s, repr v = Some s).
(** The exceptions inside have a text. *)
Fixpoint has_texts {value} (n : node value) : Prop :=
  match n with
  | Text _ => True
  | Elem _ cs => (fix all l := match l with [] => True | x :: r => has_texts x /\ all r end) cs
  | Refused e => exists s, e = Some s
  | Comp _ (Raises e) => exists s, e = Some s
  | Comp _ (Returns m) => has_texts m
  end.

(** ** Proofs *)

Section Proofs.
Variable value : Type.
Variable repr : value -> option string.
Variable debug : bool.

Lemma reprs_ok l : (forall v, In v l -> exists s, repr v = Some s) -> exists t, reprs value repr l = Some t.
Proof.
  induction l as [|v l IH]; intros H; cbn [reprs]; [eauto|]. destruct (H v (or_introl eq_refl)) as [s ->].
  destruct IH as [t ->]; [intros w I; apply H; right; exact I|eauto].
Qed.
Definition inside (b : bound value) : list value := match b with One v => [v] | Rest l => l | Named d => map snd d end.
Lemma show_ok b : (forall v, In v (inside b) -> exists s, repr v = Some s) -> exists t, show value repr b = Some t.
Proof.
  intros H. destruct b as [v|l|d]; cbn [show inside] in *.
  - apply H; left; reflexivity.
  - destruct (reprs_ok l H) as [t ->]. cbn; eauto.
  - destruct (reprs_ok (map snd d) H) as [t ->]. cbn; eauto.
Qed.
Lemma items_ok l : (forall n b v, In (n, b) l -> In v (inside b) -> exists s, repr v = Some s) -> exists t, items value repr l = Some t.
Proof.
  induction l as [|[n b] l IH]; intros H; cbn [items]; [eauto|].
  destruct (show_ok b) as [s ->]; [intros v I; apply (H n b v); [left; reflexivity|exact I]|].
  destruct IH as [t ->]; [intros m b' v I J; apply (H m b' v); [right; exact I|exact J]|eauto].
Qed.
Lemma without_incl n kw v : In v (map snd (without value n kw)) -> In v (map snd kw).
Proof.
  unfold without. induction kw as [|[m w] kw IH]; cbn [filter map fst]; [auto|]. destruct (negb (String.eqb m n)); cbn; [|auto].
  intros [E|I]; auto.
Qed.
Lemma lookup_In n kw v : lookup value n kw = Some v -> In v (map snd kw).
Proof. induction kw as [|[m w] kw IH]; cbn; [discriminate|]. destruct (String.eqb m n); [intros [= ->]; auto|auto]. Qed.
Lemma bind_named_incl ps : forall kw rest l, bind_named value ps kw rest = Some l ->
  forall n b v, In (n, b) l -> In v (inside b) -> In v (map snd kw).
Proof.
  induction ps as [|p ps IH]; intros kw rest l E n b v I J; cbn [bind_named] in E.
  - destruct kw as [|q kw]; [injection E as <-; destruct I|]. destruct rest as [m|]; [|discriminate]. injection E as <-.
    destruct I as [[= <- <-]|[]]. exact J.
  - destruct (p_kind p) eqn:K.
    all: try (exact (IH _ _ _ E n b v I J)).
    all: destruct (lookup value (p_name p) kw) as [w|] eqn:L.
    all: try (destruct (p_default p); [exact (IH _ _ _ E n b v I J)|discriminate]).
    all: try discriminate.
    all: destruct (bind_named value ps (without value (p_name p) kw) rest) as [l'|] eqn:E'; [|discriminate];
         cbn in E; injection E as <-; destruct I as [[= <- <-]|I];
         [destruct J as [<-|[]]; exact (lookup_In _ _ _ L)|apply (without_incl (p_name p)); exact (IH _ _ _ E' n b v I J)].
Qed.
Lemma bind_incl ps : forall args kw l, bind value ps args kw = Some l ->
  forall n b v, In (n, b) l -> In v (inside b) -> In v args \/ In v (map snd kw).
Proof.
  induction ps as [|p ps IH]; intros args kw l E n b v I J.
  - destruct args as [|a args]; cbn in E; [|discriminate]. right.
    exact (bind_named_incl [] kw None l E n b v I J).
  - destruct args as [|a args]; [right; exact (bind_named_incl (p :: ps) kw None l E n b v I J)|].
    cbn [bind] in E. destruct (p_kind p); try discriminate.
    + destruct (bind value ps args kw) as [l'|] eqn:E'; [|discriminate]. cbn in E; injection E as <-.
      destruct I as [[= <- <-]|I]; [destruct J as [<-|[]]; left; left; reflexivity|].
      destruct (IH _ _ _ E' n b v I J); auto. left; right; assumption.
    + destruct (has_name value (p_name p) kw); [discriminate|]. destruct (bind value ps args kw) as [l'|] eqn:E'; [|discriminate]. cbn in E; injection E as <-.
      destruct I as [[= <- <-]|I]; [destruct J as [<-|[]]; left; left; reflexivity|].
      destruct (IH _ _ _ E' n b v I J); auto. left; right; assumption.
    + destruct (bind_named value ps kw None) as [l'|] eqn:E'; [|discriminate]. cbn in E; injection E as <-.
      destruct I as [[= <- <-]|I]; [left; exact J|right; exact (bind_named_incl _ _ _ _ E' n b v I J)].
Qed.
Lemma printable_repr c : printable repr c -> exists t, component_repr value repr c = Some t.
Proof.
  intros [[n N] A]. unfold component_repr. rewrite N. destruct (bind value _ _ _) as [l|] eqn:B; [|cbn; eauto].
  destruct (items_ok l) as [t ->]; [|eauto]. intros m b v I J. apply A. exact (bind_incl _ _ _ _ B m b v I J).
Qed.

(** The children of an element, without the accumulator. *)
Fixpoint renders (l : list (node value)) : list ui + exception :=
  match l with
  | [] => inl []
  | x :: r => match render value repr debug x with
              | Raised e => inr e
              | Shown u => match renders r with inl us => inl (u :: us) | inr e => inr e end
              end
  end.
Lemma render_elem tag cs : render value repr debug (Elem tag cs) = match renders cs with inl us => Shown (UElem tag us) | inr e => Raised e end.
Proof.
  cbn [render].
  set (each := fix each (l : list (node value)) : list ui -> result :=
         match l with
         | [] => fun acc => Shown (UElem tag (rev acc))
         | x :: r => fun acc => match render value repr debug x with Shown u => each r (u :: acc) | Raised e => Raised e end
         end).
  assert (H : forall l acc, each l acc = match renders l with inl us => Shown (UElem tag (rev acc ++ us)) | inr e => Raised e end).
  { induction l as [|x l IH]; intros acc; cbn [renders]; [cbn; rewrite app_nil_r; reflexivity|].
    change (each (x :: l) acc) with (match render value repr debug x with Shown u => each l (u :: acc) | Raised e => Raised e end).
    destruct (render value repr debug x) as [u|e]; [|reflexivity]. rewrite IH. destruct (renders l) as [us|e]; [|reflexivity].
    cbn [rev]. rewrite <- app_assoc. reflexivity. }
  rewrite H. reflexivity.
Qed.
Lemma renders_app l1 l2 : renders (l1 ++ l2) =
  match renders l1 with inl u1 => match renders l2 with inl u2 => inl (u1 ++ u2) | inr e => inr e end | inr e => inr e end.
Proof.
  induction l1 as [|x l IH]; cbn [app renders]; [destruct (renders l2); reflexivity|].
  destruct (render value repr debug x); [|reflexivity]. rewrite IH. destruct (renders l); [|reflexivity]. destruct (renders l2); reflexivity.
Qed.

Section NodeInd.
Variable P : node value -> Prop.
Hypothesis HText : forall s, P (Text s).
Hypothesis HElem : forall tag cs, Forall P cs -> P (Elem tag cs).
Hypothesis HRefused : forall e, P (Refused e).
Hypothesis HRaises : forall c e, P (Comp c (Raises e)).
Hypothesis HReturns : forall c n, P n -> P (Comp c (Returns n)).
Fixpoint node_rect' (n : node value) : P n :=
  match n with
  | Text s => HText s
  | Elem tag cs => HElem tag cs ((fix all l : Forall P l := match l with [] => Forall_nil _ | x :: r => Forall_cons _ (node_rect' x) (all r) end) cs)
  | Refused e => HRefused e
  | Comp c (Raises e) => HRaises c e
  | Comp c (Returns m) => HReturns c m (node_rect' m)
  end.
End NodeInd.

(** An exception that leaves a node has a text. *)
Lemma raised_text n : forall e, has_texts n -> render value repr debug n = Raised e -> exists s, e = Some s.
Proof.
  induction n as [s|tag cs IH|e'|c e'|c n IH] using node_rect'; intros e T E.
  - discriminate E.
  - rewrite render_elem in E. destruct (renders cs) as [us|e'] eqn:R; [discriminate|]. injection E as ->.
    cbn [has_texts] in T. revert R T. induction IH as [|x l Hx _ IHl]; cbn [renders]; [discriminate|]. intros R [T1 T2].
    destruct (render value repr debug x) as [u|e''] eqn:E'; [|injection R as ->; exact (Hx e T1 eq_refl)].
    destruct (renders l) as [us|e'']; [discriminate|]. injection R as ->. exact (IHl eq_refl T2).
  - cbn in E, T. injection E as ->. exact T.
  - cbn [render] in E. unfold handled in E. destruct (component_repr value repr c); [|injection E as <-; eauto].
    destruct (if debug then e' else Some ""); [discriminate|injection E as <-; eauto].
  - cbn [render] in E. destruct (render value repr debug n) as [u|e']; [discriminate|]. unfold handled in E.
    destruct (component_repr value repr c); [|injection E as <-; eauto].
    destruct (if debug then e' else Some ""); [discriminate|injection E as <-; eauto].
Qed.

(** C92 *)
(** A component with a name and arguments that can be printed is always shown: its own result, or its error. *)
Theorem C92_shown : forall c b, printable repr c -> (debug = true -> has_texts (Comp c b)) ->
  exists u, render value repr debug (Comp c b) = Shown u /\
    match b with
    | Raises e => u = UError (if debug then match e with Some s => s | None => "" end else "")
    | Returns n => (exists u', render value repr debug n = Shown u' /\ u = UComp u') \/
                   (exists e, render value repr debug n = Raised e /\ u = UError (if debug then match e with Some s => s | None => "" end else ""))
    end.
Proof.
  intros c b P T. destruct (printable_repr c P) as [t R]. destruct b as [e|n]; cbn [render].
  - unfold handled. rewrite R. destruct debug; [|eauto]. destruct (T eq_refl) as [s ->]. eauto.
  - destruct (render value repr debug n) as [u|e] eqn:E; [exists (UComp u); split; [reflexivity|left; eauto]|].
    unfold handled. rewrite R. destruct debug eqn:D; [|exists (UError ""); split; [reflexivity|right; exists e; auto]].
    assert (E' : exists s, e = Some s). { apply (raised_text n); [exact (T eq_refl)|rewrite D; exact E]. }
    destruct E' as [s ->]. exists (UError s). split; [reflexivity|right; exists (Some s); auto].
Qed.

(** A failure stays inside: whatever the component does, what is shown around it is the same. *)
Theorem C92_confined : forall t : tree_with_hole value,
  (exists ut, forall c b, printable repr c -> (debug = true -> has_texts (Comp c b)) ->
     exists u, render value repr debug (Comp c b) = Shown u /\ render value repr debug (fill t (Comp c b)) = Shown (ufill ut u)) \/
  (exists r, forall c b, printable repr c -> (debug = true -> has_texts (Comp c b)) -> render value repr debug (fill t (Comp c b)) = r).
Proof.
  assert (G : forall t : tree_with_hole value,
    (exists ut, forall n u, render value repr debug n = Shown u -> render value repr debug (fill t n) = Shown (ufill ut u)) \/
    (exists r, forall n u, render value repr debug n = Shown u -> render value repr debug (fill t n) = r)).
  { induction t as [|tag before t IH after|c t IH]; cbn [fill].
    - left. exists UHole. intros n u E; exact E.
    - destruct (renders before) as [ub|e] eqn:B.
      + destruct IH as [[ut IH]|[r IH]].
        * destruct (renders after) as [ua|e] eqn:A.
          -- left. exists (UInElem tag ub ut ua). intros n u E. rewrite render_elem, renders_app, B. cbn [renders]. rewrite (IH n u E), A. reflexivity.
          -- right. exists (Raised e). intros n u E. rewrite render_elem, renders_app, B. cbn [renders]. rewrite (IH n u E), A. reflexivity.
        * right. exists (match r with Raised e => Raised e | Shown u => match renders after with inl ua => Shown (UElem tag (ub ++ u :: ua)) | inr e => Raised e end end).
          intros n u E. rewrite render_elem, renders_app, B. cbn [renders]. rewrite (IH n u E). destruct r as [u'|e]; [|reflexivity]. destruct (renders after); reflexivity.
      + right. exists (Raised e). intros n u E. rewrite render_elem, renders_app, B. reflexivity.
    - destruct IH as [[ut IH]|[r IH]].
      + left. exists (UInComp ut). intros n u E. cbn [render]. rewrite (IH n u E). reflexivity.
      + right. exists (match r with Shown u => Shown (UComp u) | Raised e => handled value repr debug c e end).
        intros n u E. cbn [render]. rewrite (IH n u E). reflexivity. }
  intros t. destruct (G t) as [[ut H]|[r H]]; [left; exists ut|right; exists r]; intros c b P T; destruct (C92_shown c b P T) as [u [E _]].
  - exists u. split; [exact E|exact (H _ u E)].
  - exact (H _ u E).
Qed.

(** A component whose function has no name, or with an argument that cannot be printed, takes its surroundings with it when
    it fails: the exception leaves it, up to the next component or out of the layout. *)
Theorem C92_unnamed_refuted : forall c e, c_name c = None -> render value repr debug (Comp c (Raises e)) = Raised (Some "").
Proof.
  intros c e N. cbn [render]. unfold handled, component_repr. rewrite N. destruct (bind value _ _ _); [|reflexivity].
  destruct (items value repr l); reflexivity.
Qed.

(** *** The parameter [key] *)
Lemma lookup_without n m kw : n <> m -> lookup value n (without value m kw) = lookup value n kw.
Proof.
  intros N. unfold without. induction kw as [|[k w] kw IH]; cbn [filter lookup fst]; [reflexivity|].
  destruct (String.eqb_spec k m) as [->|Nm]; cbn [negb lookup].
  - destruct (String.eqb_spec m n); [congruence|exact IH].
  - rewrite IH; reflexivity.
Qed.
Lemma bind_named_key ps : forall kw, accepted ps = true -> (forall p, In p ps -> p_kind p <> VarKeyword) ->
  lookup value "key" kw <> None -> bind_named value ps kw None = None.
Proof.
  induction ps as [|p ps IH]; intros kw A V L; cbn [bind_named].
  - destruct kw; [contradiction|reflexivity].
  - assert (A' : accepted ps = true /\ (p_name p = "key" -> p_kind p <> KeywordOnly /\ p_kind p <> PositionalOrKeyword)).
    { unfold accepted in *. cbn [existsb] in A. apply negb_true_iff, orb_false_iff in A. destruct A as [A1 A2]. split; [rewrite A2; reflexivity|].
      intros E. rewrite E in A1. cbn in A1. destruct (p_kind p); try discriminate; split; discriminate. }
    destruct A' as [A1 A2]. assert (V' : forall q, In q ps -> p_kind q <> VarKeyword) by (intros q I; apply V; right; exact I).
    assert (N : p_kind p = KeywordOnly \/ p_kind p = PositionalOrKeyword -> p_name p <> "key") by (intros [K|K] E; destruct (A2 E); congruence).
    destruct (p_kind p) eqn:K.
    + destruct (lookup value (p_name p) kw); [reflexivity|]. destruct (p_default p); [apply IH; auto|reflexivity].
    + destruct (lookup value (p_name p) kw) as [v|]; [|destruct (p_default p); [apply IH; auto|reflexivity]].
      rewrite IH; auto. rewrite lookup_without; auto. intros E. apply N; auto.
    + apply IH; auto.
    + destruct (lookup value (p_name p) kw) as [v|]; [|destruct (p_default p); [apply IH; auto|reflexivity]].
      rewrite IH; auto. rewrite lookup_without; auto. intros E. apply N; auto.
    + exfalso. apply (V p); [left; reflexivity|exact K].
Qed.
(** [key] is for the layout alone: of a function that [component] accepts and that does not collect names, no call could have
    given it an argument [key]; and all other arguments reach it. *)
Theorem C92_key : forall sig name id args kw,
  accepted sig = true -> (forall p, In p sig -> p_kind p <> VarKeyword) ->
  (lookup value "key" kw <> None -> bind value sig args kw = None) /\
  let '(c, key) := construct value name id sig args kw in
  key = lookup value "key" kw /\ c_args c = args /\ (forall n, n <> "key" -> lookup value n (c_kwargs c) = lookup value n kw) /\
  lookup value "key" (c_kwargs c) = None.
Proof.
  intros sig name id args kw A V. split.
  - intros L. revert args A V. induction sig as [|p ps IH]; intros args A V.
    + destruct args; [|reflexivity]. exact (bind_named_key [] kw A V L).
    + destruct args as [|a args]; [exact (bind_named_key (p :: ps) kw A V L)|]. cbn [bind].
      assert (A1 : accepted ps = true) by (unfold accepted in *; cbn [existsb] in A; apply negb_true_iff, orb_false_iff in A; destruct A as [_ A2]; rewrite A2; reflexivity).
      assert (V' : forall q, In q ps -> p_kind q <> VarKeyword) by (intros q I; apply V; right; exact I).
      destruct (p_kind p); try reflexivity.
      * rewrite (IH args A1 V'); reflexivity.
      * destruct (has_name value (p_name p) kw); [reflexivity|]. rewrite (IH args A1 V'); reflexivity.
      * rewrite (bind_named_key ps kw A1 V' L); reflexivity.
  - cbn [construct c_args c_kwargs]. split; [reflexivity|]. split; [reflexivity|]. split; [intros n N; apply lookup_without; exact N|].
    unfold without. induction kw as [|[k w] kw IH]; cbn [filter lookup fst]; [reflexivity|].
    destruct (String.eqb_spec k "key") as [->|Nk]; cbn [negb]; [exact IH|]. cbn [lookup]. destruct (String.eqb_spec k "key"); [contradiction|exact IH].
Qed.

(** What a component is called in logs: the name of its function, and its address and every argument by name, in the order of
    the parameters, separated by commas; or three dots if the arguments do not fit the function. *)
Theorem C92_text : forall c n, c_name c = Some n ->
  (bind value (c_sig c) (c_args c) (c_kwargs c) = None -> component_repr value repr c = Some (n ++ "(...)")%string) /\
  (forall b texts, bind value (c_sig c) (c_args c) (c_kwargs c) = Some b ->
     Forall2 (fun q t => exists s, show value repr (snd q) = Some s /\ t = (fst q ++ "=" ++ s)%string) b texts ->
     component_repr value repr c = Some (n ++ "(" ++ join ", " (c_id value c :: texts) ++ ")")%string).
Proof.
  intros c n N. unfold component_repr. rewrite N. split; [intros ->; reflexivity|]. intros b texts -> F.
  assert (I : items value repr b = Some texts).
  { induction F as [|[k w] t b texts (s & S & T) _ IH]; [reflexivity|]. cbn [fst snd] in *. cbn [items]. rewrite S, IH, T. reflexivity. }
  rewrite I. destruct F as [|[k w] t b texts (s & _ & T) F]; [reflexivity|].
  assert (E : String.eqb (join ", " (t :: texts)) "" = false).
  { subst t. destruct k; destruct texts; reflexivity. }
  cbv zeta. rewrite E. cbn [join]. rewrite Strings.app_assoc_s. reflexivity.
Qed.
End Proofs.
Print Assumptions C92_text.
Print Assumptions C92_shown.
Print Assumptions C92_confined.
Print Assumptions C92_unnamed_refuted.
Print Assumptions C92_key.

(** Parameters that can be given by name. *)
Definition by_name (p : parameter) : bool := match p_kind p with PositionalOrKeyword | KeywordOnly => true | _ => false end.
Lemma bind_by_name (value : Type) (v : value) ps : NoDup (map p_name ps) -> (forall p, In p ps -> p_kind p <> PositionalOnly) -> forall rest,
  bind_named value ps (map (fun p => (p_name p, v)) (filter by_name ps)) rest = Some (map (fun p => (p_name p, One v)) (filter by_name ps)).
Proof.
  induction ps as [|p ps IH]; intros ND NP rest; [reflexivity|]. inversion ND as [|? ? NI ND']; subst.
  assert (NP' : forall q, In q ps -> p_kind q <> PositionalOnly) by (intros q I; apply NP; right; exact I).
  cbn [bind_named filter].
  assert (W : without value (p_name p) (map (fun q => (p_name q, v)) (filter by_name ps)) = map (fun q => (p_name q, v)) (filter by_name ps)).
  { clear -NI. induction ps as [|q ps IH]; [reflexivity|]. cbn [filter]. assert (N : p_name q <> p_name p) by (intros E; apply NI; left; exact E).
    assert (NI' : ~ In (p_name p) (map p_name ps)) by (intros I; apply NI; right; exact I). destruct (by_name q); [|apply (IH NI')].
    unfold without. cbn [map filter fst]. destruct (String.eqb_spec (p_name q) (p_name p)); [contradiction|]. cbn [negb]. f_equal. apply (IH NI'). }
  assert (B : by_name p = match p_kind p with PositionalOrKeyword | KeywordOnly => true | _ => false end) by reflexivity.
  destruct (p_kind p) eqn:K; rewrite B.
  - exfalso. apply (NP p); [left; reflexivity|exact K].
  - cbn [map lookup]. rewrite String.eqb_refl. unfold without. cbn [filter fst]. rewrite String.eqb_refl. cbn [negb]. fold (without value (p_name p) (map (fun q => (p_name q, v)) (filter by_name ps))).
    rewrite W, (IH ND' NP'). reflexivity.
  - apply (IH ND' NP').
  - cbn [map lookup]. rewrite String.eqb_refl. unfold without. cbn [filter fst]. rewrite String.eqb_refl. cbn [negb]. fold (without value (p_name p) (map (fun q => (p_name q, v)) (filter by_name ps))).
    rewrite W, (IH ND' NP'). reflexivity.
  - apply (IH ND' NP').
Qed.

(** Only those functions are refused which some call could have given an argument [key] by name. (The parameters of a Python function have
    different names, and those that are positional only come first.) *)
Theorem C92_refused : forall (value : Type) (v : value) first others,
  let sig := first ++ others in
  NoDup (map p_name sig) -> (forall p, In p first -> p_kind p = PositionalOnly) -> (forall p, In p others -> p_kind p <> PositionalOnly) ->
  accepted sig = false -> exists args kw b, lookup value "key" kw = Some v /\ bind value sig args kw = Some b /\ In ("key", One v) b.
Proof.
  intros value v first others sig ND F O R.
  assert (J : exists p, In p others /\ p_name p = "key" /\ by_name p = true).
  { unfold accepted in R. apply negb_false_iff, existsb_exists in R. destruct R as (p & I & E). apply andb_true_iff in E. destruct E as [N K]. apply String.eqb_eq in N.
    apply in_app_or in I. destruct I as [I|I]; [rewrite (F p I) in K; discriminate|]. exists p. split; [exact I|]. split; [exact N|]. unfold by_name. destruct (p_kind p); auto. }
  destruct J as (p & I & N & K).
  assert (ND' : NoDup (map p_name others)).
  { unfold sig in ND. rewrite map_app in ND. clear -ND. induction (map p_name first) as [|x l IH]; [exact ND|]. inversion ND; auto. }
  exists (map (fun _ => v) first), (map (fun q => (p_name q, v)) (filter by_name others)).
  exists (map (fun q => (p_name q, One v)) first ++ map (fun q => (p_name q, One v)) (filter by_name others)).
  assert (IP : In p (filter by_name others)) by (apply filter_In; auto).
  split; [|split].
  - clear -IP N. induction (filter by_name others) as [|q l IH]; [destruct IP|]. cbn [map lookup]. destruct (String.eqb_spec (p_name q) "key") as [E|E]; [reflexivity|].
    destruct IP as [->|IP]; [contradiction|auto].
  - unfold sig. clear -ND' F O. induction first as [|q first IH]; cbn [map app].
    + destruct others; cbn [bind]; apply bind_by_name; auto.
    + cbn [bind]. rewrite (F q) by (left; reflexivity). rewrite IH by (intros x J; apply F; right; exact J). reflexivity.
  - apply in_or_app. right. apply in_map_iff. exists p. rewrite N. auto.
Qed.
Print Assumptions C92_refused.

(** The argument's case: there is an argument that cannot be printed, and the failure of its component empties its parent's
    place, or ends the render. *)
Theorem C92_argument_refuted :
  ~ (forall (value : Type) (repr : value -> option string) debug c b, c_name c <> None ->
       exists u, render value repr debug (Comp c b) = Shown u).
Proof.
  intros H.
  destruct (H unit (fun _ => None) false (Component (Some "f") [Param "x" PositionalOrKeyword false] [tt] [] "1") (Raises (Some "")) ltac:(discriminate)) as [u E].
  discriminate E.
Qed.
Print Assumptions C92_argument_refuted.

(** Cases that meet the hypotheses: a failing component between two texts; one whose function has no name, in a parent that has. *)
Definition demo_repr (n : nat) : option string := if Nat.eqb n 7 then None else Some "v".
Definition demo (name : option string) (arg : nat) : component nat := Component name [Param "x" PositionalOrKeyword false; Param "key" VarKeyword false] [arg] [("y", 3)] "ff".
Example C92_example :
  let t n := Comp (demo (Some "root") 1) (Returns (Elem "div" [Text "a"; n; Text "b"])) in
  component_repr nat demo_repr (demo (Some "f") 1) = Some "f(ff, x=v, key={v})" /\
  component_repr nat demo_repr (Component (Some "f") [] [1] [] "ff") = Some "f(...)" /\
  render nat demo_repr true (t (Comp (demo (Some "f") 1) (Raises (Some "oops")))) = Shown (UComp (UElem "div" [UText "a"; UError "oops"; UText "b"])) /\
  render nat demo_repr false (t (Comp (demo (Some "f") 1) (Raises (Some "oops")))) = Shown (UComp (UElem "div" [UText "a"; UError ""; UText "b"])) /\
  render nat demo_repr true (t (Comp (demo None 1) (Raises (Some "oops")))) = Shown (UError "") /\
  render nat demo_repr true (t (Comp (demo (Some "f") 7) (Raises (Some "oops")))) = Shown (UError "").
Proof. vm_compute. repeat split. Qed.
Example C92_printable : printable demo_repr (demo (Some "f") 1).
Proof. split; [eexists; reflexivity|]. intros v [[<-|[]]|[<-|[]]]; vm_compute; eauto. Qed.
Example C92_accepted :
  accepted [Param "x" PositionalOrKeyword false; Param "key" KeywordOnly true] = false /\ accepted [Param "key" PositionalOnly false] = true /\
  bind nat [Param "x" PositionalOrKeyword false; Param "y" PositionalOrKeyword true; Param "z" KeywordOnly false] [1] [("z", 2)] = Some [("x", One 1); ("z", One 2)] /\
  bind nat [Param "x" PositionalOrKeyword false] [1] [("key", 2)] = None.
Proof. vm_compute. repeat split. Qed.
