(** * Model of the key rewriting tool and property C80

    /repo/src/reactpy/_console/ast_utils.py:97-163,181-187, /repo/src/reactpy/_console/rewrite_keys.py:69-87: which calls are changed
    and how. How the changed statements are written back is the subject of RewriteLines.v. *)
From Coq Require Import String Bool Arith Lia List.
Import ListNotations.
Local Open Scope string_scope. Local Open Scope list_scope.

(** Python expressions (and statements: [EOther]) as the tool sees them. A dictionary entry without key is [**value], a keyword
    argument without name [**value]. *)
Inductive const := CStr (s : string) | COther (s : string).
Inductive expr :=
| EName (id : string)
| EAttr (v : expr) (attr : string)
| ECall (f : expr) (args : list expr) (kws : list (option string * expr))
| EDict (items : list (option expr * expr))
| EConst (c : const)
| EJoined (l : list expr)
| EOther (tag : string) (l : list expr).

(** ** Model *)

(** ast_utils.py:105-114: the name of the called function; [None]: not considered. *)
Definition name_of (f : expr) : option string :=
  match f with
  | EAttr (EName "html") a => Some a
  | EAttr (EAttr _ "html") a => Some a
  | EName n => Some n
  | _ => None
  end.
(** [hasattr(html, name)], ast_utils.py:135: always true, because [HtmlConstructor.__getattr__]
    (/repo/src/reactpy/_html.py:292-302) makes a constructor for any name. *)
Definition has_attr_html (name : string) : bool := true.
Definition is_text (e : expr) : bool := match e with EConst _ | EJoined _ => true | _ => false end.
(** ast_utils.py:116-149: the new arguments of the call, and the position of what may be its attributes; [None]: the call is
    skipped. *)
Definition prepare (add_props : bool) (name : string) (args : list expr) : option (list expr * nat) :=
  if String.eqb name "vdom"
  then match args with
       | [] => None
       | [a] => if add_props then Some ([a; EDict []], 1) else None
       | a :: b :: r => if is_text b then if add_props then Some (a :: EDict [] :: b :: r, 1) else None else Some (args, 1)
       end
  else if has_attr_html name
  then match args with
       | [] => if add_props then Some ([EDict []], 0) else None
       | a :: r => if is_text a then if add_props then Some (EDict [] :: a :: r, 0) else None else Some (args, 0)
       end
  else None.
(** ast_utils.py:154-160 *)
Definition is_props (e : expr) : bool := match e with EDict _ | ECall (EName "dict") _ _ => true | _ => false end.
(** rewrite_keys.py:72-76: the first [key=...]. *)
Fixpoint take_key (kws : list (option string * expr)) : option (expr * list (option string * expr)) :=
  match kws with
  | [] => None
  | (Some "key", v) :: r => Some (v, r)
  | k :: r => match take_key r with None => None | Some (v, r') => Some (v, k :: r') end
  end.
(** rewrite_keys.py:78-82 *)
Definition add_key (v : expr) (props : expr) : expr :=
  match props with
  | EDict items => EDict (items ++ [(Some (EConst (CStr "key")), v)])
  | ECall f args kws => ECall f args (kws ++ [(Some "key", v)])
  | e => e
  end.
Fixpoint update {A} (l : list A) (i : nat) (f : A -> A) : list A :=
  match l, i with [], _ => [] | x :: r, 0 => f x :: r | x :: r, S i => x :: update r i f end.
(** What [find_nodes_to_change] (with [find_element_constructor_usages]) does to one node. *)
Definition rewrite1 (e : expr) : expr :=
  match e with
  | ECall f args kws =>
      match name_of f with
      | None => e
      | Some n =>
          match prepare true n args with
          | None => e
          | Some (args', i) =>
              if is_props (nth i args' (EName ""))
              then match take_key kws with
                   | None => ECall f args' kws
                   | Some (v, kws') => ECall f (update args' i (add_key v)) kws'
                   end
              else ECall f args' kws
          end
      end
  | e => e
  end.
Fixpoint map_opt {A B} (f : A -> option B) (l : list A) : option (list B) :=
  match l with
  | [] => Some []
  | x :: r => match f x, map_opt f r with Some y, Some r' => Some (y :: r') | _, _ => None end
  end.
(** The walk, ast_utils.py:181-187: a node is changed before its children are visited. [None]: out of fuel. *)
Fixpoint walk (n : nat) (e : expr) : option expr :=
  match n with
  | 0 => None
  | S n =>
      match rewrite1 e with
      | EName x => Some (EName x)
      | EConst c => Some (EConst c)
      | EAttr v a => match walk n v with Some v' => Some (EAttr v' a) | None => None end
      | EDict items =>
          match map_opt (fun it => match match fst it with None => Some None | Some k => match walk n k with Some k' => Some (Some k') | None => None end end, walk n (snd it) with
                                   | Some k', Some v' => Some (k', v') | _, _ => None end) items with
          | Some items' => Some (EDict items') | None => None end
      | ECall f args kws =>
          match walk n f, map_opt (walk n) args, map_opt (fun k => match walk n (snd k) with Some v' => Some (fst k, v') | None => None end) kws with
          | Some f', Some args', Some kws' => Some (ECall f' args' kws')
          | _, _, _ => None
          end
      | EJoined l => match map_opt (walk n) l with Some l' => Some (EJoined l') | None => None end
      | EOther t l => match map_opt (walk n) l with Some l' => Some (EOther t l') | None => None end
      end
  end.
Fixpoint size (e : expr) : nat :=
  match e with
  | EName _ | EConst _ => 1
  | EAttr v _ => S (size v)
  | EDict items => S (fold_right (fun it n => (match fst it with Some k => size k | None => 0 end) + size (snd it) + n) 0 items)
  | ECall f args kws => S (size f + fold_right (fun a n => size a + n) 0 args + fold_right (fun k n => 2 + size (snd k) + n) 0 kws)
  | EJoined l | EOther _ l => S (fold_right (fun a n => size a + n) 0 l)
  end.
(** The tree after [find_nodes_to_change]. *)
Definition rewritten (e : expr) : expr := match walk (size e) e with Some e' => e' | None => e end.

(** ** Specification: what an expression means

    [V]: values; the operations are arbitrary. [cs]: the bare names that are element constructors in the program; [html.x] and
    [<...>.html.x] always are, except [html.vdom] (and so is [vdom], whose first argument is the tag). A constructor called with
    a dictionary display, a text or no first argument makes an element of attributes, children and other keyword arguments,
    where [key=v] is an attribute after the others. With any other first argument the call is not interpreted. *)
Section Meaning.
  Context {V : Type} (cs : list string).
  Context (vname : string -> V) (vattr : V -> string -> V) (vconst : const -> V) (vdict : list (option V * V) -> V)
          (vlist : string -> list V -> V) (vcall : V -> list V -> list (option string * V) -> V)
          (velem : V -> list V -> list (option V * V) -> list V -> list (option string * V) -> V).
  Definition is_key (k : option string * V) : bool := match fst k with Some n => String.eqb n "key" | None => false end.
  Definition key_attr (kws : list (option string * V)) : list (option V * V) :=
    map (fun k => (Some (vconst (CStr "key")), snd k)) (filter is_key kws).
  Definition no_key (kws : list (option string * V)) : list (option string * V) := filter (fun k => negb (is_key k)) kws.
  Definition constructor (f : expr) : bool :=
    match f with EAttr (EName "html") _ => true | EAttr (EAttr _ "html") _ => true | EName n => existsb (String.eqb n) cs | _ => false end.
  Definition is_vdom (f : expr) : bool :=
    match f with EAttr _ a => String.eqb a "vdom" | EName n => String.eqb n "vdom" | _ => false end.
  Fixpoint eval (e : expr) : V :=
    let entries := map (fun it => (match fst it with Some k => Some (eval k) | None => None end, eval (snd it))) in
    match e with
    | EName x => vname x
    | EAttr v a => vattr (eval v) a
    | EConst c => vconst c
    | EJoined l => vlist "f-string" (map eval l)
    | EOther t l => vlist t (map eval l)
    | EDict items => vdict (entries items)
    | ECall f args kws =>
        let kv := map (fun k => (fst k, eval (snd k))) kws in
        let element tag rest :=
          match rest with
          | EDict items :: children => velem (eval f) tag (entries items ++ key_attr kv) (map eval children) (no_key kv)
          | [] | EConst _ :: _ | EJoined _ :: _ => velem (eval f) tag (key_attr kv) (map eval rest) (no_key kv)
          | _ => vcall (eval f) (tag ++ map eval rest) kv
          end in
        if constructor f
        then if is_vdom f
             then match args with [] => vcall (eval f) [] kv | t :: rest => element [eval t] rest end
             else element [] args
        else vcall (eval f) (map eval args) kv
    end.
End Meaning.

(** Where the tool is safe: every bare name that is called is an element constructor, and no keyword is given twice (Python
    rejects that). *)
Fixpoint well (cs : list string) (e : expr) : bool :=
  match e with
  | EName _ | EConst _ => true
  | EAttr v _ => well cs v
  | EDict items => forallb (fun it => (match fst it with Some k => well cs k | None => true end) && well cs (snd it)) items
  | ECall f args kws =>
      (match f with EName n => existsb (String.eqb n) cs && negb (String.eqb n "dict") | _ => true end) &&
      Nat.leb (length (filter (fun k => match fst k with Some n => String.eqb n "key" | None => false end) kws)) 1 &&
      well cs f && forallb (well cs) args && forallb (fun k => well cs (snd k)) kws
  | EJoined l | EOther _ l => forallb (well cs) l
  end.

(** ** Proofs *)

(** One step of the walk. *)
Definition opt_rel (R : expr -> expr -> Prop) (a b : option expr) : Prop :=
  match a, b with Some x, Some y => R x y | None, None => True | _, _ => False end.
Inductive cong (R : expr -> expr -> Prop) : expr -> expr -> Prop :=
| g_name x : cong R (EName x) (EName x)
| g_const c : cong R (EConst c) (EConst c)
| g_attr v v' a : R v v' -> cong R (EAttr v a) (EAttr v' a)
| g_dict l l' : Forall2 (fun a b => opt_rel R (fst a) (fst b) /\ R (snd a) (snd b)) l l' -> cong R (EDict l) (EDict l')
| g_call f f' l l' k k' : R f f' -> Forall2 R l l' -> Forall2 (fun a b => fst a = fst b /\ R (snd a) (snd b)) k k' -> cong R (ECall f l k) (ECall f' l' k')
| g_joined l l' : Forall2 R l l' -> cong R (EJoined l) (EJoined l')
| g_other t l l' : Forall2 R l l' -> cong R (EOther t l) (EOther t l').
Lemma map_opt_forall {A B} (f : A -> option B) l l' : map_opt f l = Some l' -> Forall2 (fun a b => f a = Some b) l l'.
Proof.
  revert l'. induction l as [|x l IH]; simpl; intros l' H; [injection H as <-; constructor|].
  destruct (f x) as [y|] eqn:F; [|discriminate]. destruct (map_opt f l) as [r|]; [|discriminate]. injection H as <-. constructor; [exact F|apply IH; reflexivity].
Qed.
Lemma map_opt_some {A B} (f : A -> option B) l : (forall x, In x l -> f x <> None) -> map_opt f l <> None.
Proof.
  induction l as [|x l IH]; simpl; intros H; [discriminate|]. destruct (f x) as [y|] eqn:F; [|exfalso; apply (H x); [left; reflexivity|exact F]].
  destruct (map_opt f l) as [r|]; [discriminate|]. exfalso. apply IH; [|reflexivity]. intros z Z. apply H. right. exact Z.
Qed.
Lemma forall2_imp {A B} (P Q : A -> B -> Prop) l l' : (forall a b, In a l -> P a b -> Q a b) -> Forall2 P l l' -> Forall2 Q l l'.
Proof. intros H F. induction F as [|a b l l' F1 F2 IH]; constructor; [apply H; [left; reflexivity|exact F1]|apply IH; intros x y X; apply H; right; exact X]. Qed.
Lemma walk_cong n e e' : walk (S n) e = Some e' -> cong (fun a b => walk n a = Some b) (rewrite1 e) e'.
Proof.
  cbn [walk]. destruct (rewrite1 e) as [x|v a|f args kws|items|c|l|t l]; intros H.
  - injection H as <-. constructor.
  - destruct (walk n v) as [v'|] eqn:E; [|discriminate]. injection H as <-. constructor. exact E.
  - destruct (walk n f) as [f'|] eqn:E; [|discriminate]. destruct (map_opt (walk n) args) as [args'|] eqn:A; [|discriminate].
    destruct (map_opt _ kws) as [kws'|] eqn:K; [|discriminate]. injection H as <-. constructor; [exact E|apply map_opt_forall; exact A|].
    apply map_opt_forall in K. eapply forall2_imp; [|exact K]. intros [k v] [k' v'] _ X. cbn [fst snd] in *. destruct (walk n v) as [v2|]; [|discriminate]. injection X as <- <-. split; reflexivity.
  - destruct (map_opt _ items) as [items'|] eqn:K; [|discriminate]. injection H as <-. constructor. apply map_opt_forall in K. eapply forall2_imp; [|exact K].
    intros [k v] [k' v'] _ X. cbn [fst snd] in *. destruct k as [k|].
    + destruct (walk n k) as [k2|] eqn:E; [|discriminate]. destruct (walk n v) as [v2|] eqn:E2; [|discriminate]. injection X as <- <-. cbn. split; [exact E|reflexivity].
    + destruct (walk n v) as [v2|] eqn:E2; [|discriminate]. injection X as <- <-. cbn. split; [exact I|reflexivity].
  - injection H as <-. constructor.
  - destruct (map_opt (walk n) l) as [l'|] eqn:A; [|discriminate]. injection H as <-. constructor. apply map_opt_forall. exact A.
  - destruct (map_opt (walk n) l) as [l'|] eqn:A; [|discriminate]. injection H as <-. constructor. apply map_opt_forall. exact A.
Qed.

(** *** The walk ends *)
Definition kids (e : expr) : list expr :=
  match e with
  | EName _ | EConst _ => []
  | EAttr v _ => [v]
  | EDict items => flat_map (fun it => (match fst it with Some k => [k] | None => [] end) ++ [snd it]) items
  | ECall f args kws => f :: args ++ map snd kws
  | EJoined l | EOther _ l => l
  end.
Lemma walk_kids n e : (forall c, In c (kids (rewrite1 e)) -> walk n c <> None) -> walk (S n) e <> None.
Proof.
  cbn [walk]. destruct (rewrite1 e) as [x|v a|f args kws|items|c|l|t l]; cbn [kids]; intros H; try discriminate.
  - destruct (walk n v) eqn:E; [discriminate|]. exfalso. apply (H v); [left; reflexivity|exact E].
  - destruct (walk n f) eqn:E; [|exfalso; apply (H f); [left; reflexivity|exact E]].
    destruct (map_opt (walk n) args) eqn:A; [|exfalso; revert A; apply map_opt_some; intros x X; apply H; right; apply in_or_app; left; exact X].
    destruct (map_opt _ kws) eqn:K; [discriminate|]. exfalso. revert K. apply map_opt_some. intros [k v] X. cbn [fst snd].
    destruct (walk n v) eqn:W; [discriminate|]. exfalso. apply (H v); [right; apply in_or_app; right; apply (in_map snd) in X; exact X|exact W].
  - destruct (map_opt _ items) eqn:K; [discriminate|]. exfalso. revert K. apply map_opt_some. intros [k v] X. cbn [fst snd].
    assert (IV : walk n v <> None) by (apply H; apply in_flat_map; exists (k, v); split; [exact X|apply in_or_app; right; left; reflexivity]).
    destruct k as [k|]; [|destruct (walk n v); [discriminate|contradiction]].
    assert (IK : walk n k <> None) by (apply H; apply in_flat_map; exists (Some k, v); split; [exact X|left; reflexivity]).
    destruct (walk n k); [|contradiction]. destruct (walk n v); [discriminate|contradiction].
  - destruct (map_opt (walk n) l) eqn:A; [discriminate|]. exfalso. revert A. apply map_opt_some. exact H.
  - destruct (map_opt (walk n) l) eqn:A; [discriminate|]. exfalso. revert A. apply map_opt_some. exact H.
Qed.
Definition sum_args (l : list expr) : nat := fold_right (fun a n => size a + n) 0 l.
Definition sum_kws (l : list (option string * expr)) : nat := fold_right (fun k n => 2 + size (snd k) + n) 0 l.
Definition sum_items (l : list (option expr * expr)) : nat := fold_right (fun it n => (match fst it with Some k => size k | None => 0 end) + size (snd it) + n) 0 l.
Lemma size_pos e : 1 <= size e.
Proof. destruct e; simpl; lia. Qed.
Lemma size_call f args kws : size (ECall f args kws) = S (size f + sum_args args + sum_kws kws).
Proof. reflexivity. Qed.
Lemma size_dict l : size (EDict l) = S (sum_items l).
Proof. reflexivity. Qed.
Lemma in_sum_args c l : In c l -> size c <= sum_args l.
Proof. induction l as [|x l IH]; simpl; intros []; [subst; lia|]. specialize (IH H). lia. Qed.
Lemma in_sum_kws k l : In k l -> 2 + size (snd k) <= sum_kws l.
Proof. induction l as [|x l IH]; simpl; intros []; [subst; lia|]. specialize (IH H). lia. Qed.
Lemma sum_items_app l l' : sum_items (l ++ l') = sum_items l + sum_items l'.
Proof. induction l as [|x l IH]; [reflexivity|]. cbn [app]. unfold sum_items in *. cbn [fold_right]. rewrite IH. lia. Qed.
Lemma sum_kws_app l l' : sum_kws (l ++ l') = sum_kws l + sum_kws l'.
Proof. induction l as [|x l IH]; [reflexivity|]. cbn [app]. unfold sum_kws in *. cbn [fold_right]. rewrite IH. lia. Qed.
Lemma kids_size e c : In c (kids e) -> size c < size e.
Proof.
  destruct e as [x|v a|f args kws|items|k|l|t l]; cbn [kids]; try (intros []; fail).
  - intros [<-|[]]. simpl. lia.
  - rewrite size_call. intros [<-|I]; [lia|]. apply in_app_or in I. destruct I as [I|I].
    + apply in_sum_args in I. lia.
    + apply in_map_iff in I. destruct I as (k & <- & I). apply in_sum_kws in I. lia.
  - rewrite size_dict. induction items as [|[k v] items IH]; [intros []|]. cbn [flat_map]. intros I. apply in_app_or in I. destruct I as [I|I].
    + unfold sum_items. cbn [fold_right fst snd]. destruct k as [k|]; simpl in I.
      * destruct I as [<-|[<-|[]]]; lia.
      * destruct I as [<-|[]]; lia.
    + specialize (IH I). unfold sum_items in *. cbn [fold_right]. lia.
  - intros I. apply in_sum_args in I. unfold sum_args in I. simpl. lia.
  - intros I. apply in_sum_args in I. unfold sum_args in I. simpl. lia.
Qed.
Lemma take_key_split kws v kws' : take_key kws = Some (v, kws') ->
  exists a b, kws = a ++ (Some "key", v) :: b /\ kws' = a ++ b /\ (forall k, In k a -> fst k <> Some "key").
Proof.
  revert kws'. induction kws as [|[k x] kws IH]; [discriminate|]. intros kws' H.
  assert (D : k = Some "key" \/ (k <> Some "key" /\ exists r, take_key kws = Some (v, r) /\ kws' = (k, x) :: r)).
  { destruct k as [s|].
    - destruct (String.eqb_spec s "key") as [->|N]; [left; reflexivity|right]. split; [congruence|].
      assert (E : take_key ((Some s, x) :: kws) = match take_key kws with None => None | Some (v, r') => Some (v, (Some s, x) :: r') end).
      { cbn [take_key]. repeat (match goal with |- context [match ?c with _ => _ end] => is_var c; destruct c end; try reflexivity; try congruence). }
      rewrite E in H. destruct (take_key kws) as [[v2 r]|]; [|discriminate]. injection H as -> <-. exists r. auto.
    - right. split; [discriminate|]. cbn [take_key] in H. destruct (take_key kws) as [[v2 r]|]; [|discriminate]. injection H as -> <-. exists r. auto. }
  destruct D as [->|(N & r & T & ->)].
  - cbn [take_key] in H. injection H as -> ->. exists [], kws'. split; [reflexivity|split; [reflexivity|intros k []]].
  - destruct (IH r T) as (a & b & -> & -> & A). exists ((k, x) :: a), b. split; [reflexivity|split; [reflexivity|]]. intros y [<-|Y]; [exact N|apply A; exact Y].
Qed.
Lemma take_key_none kws : take_key kws = None -> forall k, In k kws -> fst k <> Some "key".
Proof.
  induction kws as [|[k x] kws IH]; [intros _ k []|]. intros H y [<-|Y].
  - cbn [fst]. intros ->. discriminate.
  - apply IH; [|exact Y]. cbn [take_key] in H. destruct (take_key kws) as [[v2 r]|]; [|reflexivity]. exfalso. revert H.
    repeat (match goal with |- context [match ?c with _ => _ end] => is_var c; destruct c end); discriminate.
Qed.
Lemma add_key_size v p : size (add_key v p) <= size p + 2 + size v.
Proof.
  destruct p as [x|w a|f args kws|items|k|l|t l]; cbn [add_key]; try lia.
  - rewrite !size_call, sum_kws_app. unfold sum_kws at 2. cbn [fold_right snd]. lia.
  - rewrite !size_dict, sum_items_app. unfold sum_items at 2. cbn [fold_right fst snd size]. lia.
Qed.
Lemma in_update {A} (f : A -> A) l i x d : In x (update l i f) -> In x l \/ (i < length l /\ x = f (nth i l d)).
Proof.
  revert i. induction l as [|y l IH]; intros i I; [destruct I|]. destruct i as [|i]; simpl in I.
  - destruct I as [<-|I]; [right; simpl; split; [lia|reflexivity]|left; right; exact I].
  - destruct I as [<-|I]; [left; left; reflexivity|]. destruct (IH i I) as [J|[J J']]; [left; right; exact J|right; simpl; split; [lia|exact J']].
Qed.
(** The new arguments: the old ones, and perhaps an empty dictionary. *)
Lemma prepare_in n args args' i a : prepare true n args = Some (args', i) -> In a args' -> In a args \/ a = EDict [].
Proof.
  unfold prepare. cbn [has_attr_html]. destruct (String.eqb n "vdom").
  - destruct args as [|x [|y r]]; [discriminate| |].
    + intros H. injection H as <- <-. intros [<-|[<-|[]]]; [left; left; reflexivity|right; reflexivity].
    + destruct (is_text y); intros H; injection H as <- <-; [|auto]. intros [<-|[<-|I]]; [left; left; reflexivity|right; reflexivity|left; right; exact I].
  - destruct args as [|x r].
    + intros H. injection H as <- <-. intros [<-|[]]. right. reflexivity.
    + destruct (is_text x); intros H; injection H as <- <-; [|auto]. intros [<-|I]; [right; reflexivity|left; exact I].
Qed.
Lemma rewrite1_kids e c : In c (kids (rewrite1 e)) -> size c < size e.
Proof.
  destruct e as [x|v a|f args kws|items|k|l|t l]; try (apply kids_size). cbn [rewrite1].
  destruct (name_of f) as [n|]; [|apply kids_size]. destruct (prepare true n args) as [[args' i]|] eqn:P; [|apply kids_size].
  assert (AS : forall y, In y args' -> size y <= sum_args args \/ y = EDict []).
  { intros y Y. destruct (prepare_in _ _ _ _ _ P Y) as [H|H]; [left; apply in_sum_args; exact H|right; exact H]. }
  assert (FP := size_pos f).
  assert (KEEP : In c (kids (ECall f args' kws)) -> size c < size (ECall f args kws)).
  { rewrite size_call. cbn [kids]. intros [<-|I]; [lia|]. apply in_app_or in I. destruct I as [I|I].
    - destruct (AS c I) as [H| ->]; [lia|]. simpl. lia.
    - apply in_map_iff in I. destruct I as (k & <- & I). apply in_sum_kws in I. lia. }
  destruct (is_props _); [|exact KEEP]. destruct (take_key kws) as [[v kws']|] eqn:T; [|exact KEEP].
  destruct (take_key_split _ _ _ T) as (a & b & -> & -> & _). rewrite size_call, sum_kws_app. unfold sum_kws at 2. cbn [fold_right snd]. fold (sum_kws b).
  cbn [kids]. intros [<-|I]; [lia|]. apply in_app_or in I. destruct I as [I|I].
  - apply (in_update _ _ _ _ (EName "")) in I. destruct I as [I|[L ->]].
    + destruct (AS c I) as [H| ->]; [lia|]. simpl. lia.
    + assert (Z := add_key_size v (nth i args' (EName ""))). destruct (AS (nth i args' (EName ""))) as [H|H]; [apply nth_In; exact L|lia|].
      rewrite H in *. rewrite size_dict in Z. unfold sum_items in Z. cbn [fold_right add_key] in *. rewrite size_dict in *. simpl in *. lia.
  - apply in_map_iff in I. destruct I as (k & <- & I). apply in_app_or in I. destruct I as [I|I]; apply in_sum_kws in I; lia.
Qed.
Lemma walk_ends n : forall e, size e <= n -> walk n e <> None.
Proof.
  induction n as [|n IH]; intros e H; [assert (X := size_pos e); lia|]. apply walk_kids. intros c C. apply IH. apply rewrite1_kids in C. lia.
Qed.
Lemma rewritten_walk e : walk (size e) e = Some (rewritten e).
Proof. unfold rewritten. destruct (walk (size e) e) eqn:E; [reflexivity|]. exfalso. revert E. apply walk_ends. lia. Qed.

(** *** The meaning is kept *)
Lemma name_vdom f n : name_of f = Some n -> is_vdom f = String.eqb n "vdom".
Proof.
  intros H.
  assert (X : f = EName n \/ exists v, f = EAttr v n).
  { destruct f as [m|v a|f0 l k|l|c|l|t l]; try discriminate; [left; injection H as ->; reflexivity|right].
    cbn [name_of] in H. exists v.
    repeat match type of H with context [match ?c with _ => _ end] => is_var c; destruct c end; try discriminate; injection H as ->; reflexivity. }
  destruct X as [->|[v ->]]; reflexivity.
Qed.
Definition html_like (e : expr) : bool := match e with EName n => String.eqb n "html" | EAttr _ a => String.eqb a "html" | _ => false end.
Lemma html_match {A} (s : string) (x y : A) : match s with "html" => x | _ => y end = if String.eqb s "html" then x else y.
Proof.
  destruct (String.eqb_spec s "html") as [->|N]; [reflexivity|].
  repeat (match goal with |- context [match ?c with _ => _ end] => is_var c; destruct c end; try reflexivity; try congruence).
Qed.
Lemma constructor_attr cs v a : constructor cs (EAttr v a) = html_like v.
Proof.
  destruct v as [n|w b|f l k|l|c|l|t l]; try reflexivity; cbn [constructor html_like]; rewrite html_match; [destruct (String.eqb n "html")|destruct (String.eqb b "html")]; reflexivity.
Qed.
Lemma name_attr v a : name_of (EAttr v a) = if html_like v then Some a else None.
Proof. destruct v as [n|w b|f l k|l|c|l|t l]; try reflexivity; cbn [name_of html_like]; apply html_match. Qed.
Lemma name_constructor cs f n : name_of f = Some n -> (match f with EName m => existsb (String.eqb m) cs | _ => true end) = true -> constructor cs f = true.
Proof.
  destruct f as [m|v a|f0 l k|l|c|l|t l]; try discriminate; intros H W; [exact W|]. rewrite name_attr in H. rewrite constructor_attr. destruct (html_like v); [reflexivity|discriminate].
Qed.
Lemma dict_match {A} (s : string) (x y : A) : match s with "dict" => x | _ => y end = if String.eqb s "dict" then x else y.
Proof.
  destruct (String.eqb_spec s "dict") as [->|N]; [reflexivity|].
  repeat (match goal with |- context [match ?c with _ => _ end] => is_var c; destruct c end; try reflexivity; try congruence).
Qed.
Lemma is_props_cases e : is_props e = true -> (exists l, e = EDict l) \/ exists args kws, e = ECall (EName "dict") args kws.
Proof.
  destruct e as [m|v a|f l k|l|c|l|t l]; try discriminate; intros H; [right|left; eauto]. destruct f as [m|v a|f0 l0 k0|l0|c0|l0|t0 l0]; try discriminate.
  cbn [is_props] in H. rewrite dict_match in H. destruct (String.eqb_spec m "dict") as [->|N]; [eauto|discriminate].
Qed.

Section Kept.
  Context {V : Type} (cs : list string).
  Context (vname : string -> V) (vattr : V -> string -> V) (vconst : const -> V) (vdict : list (option V * V) -> V)
          (vlist : string -> list V -> V) (vcall : V -> list V -> list (option string * V) -> V)
          (velem : V -> list V -> list (option V * V) -> list V -> list (option string * V) -> V).
  Notation ev := (eval cs vname vattr vconst vdict vlist vcall velem).
  Notation keyattr := (key_attr vconst).
  Definition entries (l : list (option expr * expr)) : list (option V * V) :=
    map (fun it => (match fst it with Some k => Some (ev k) | None => None end, ev (snd it))) l.
  Definition kvs (l : list (option string * expr)) : list (option string * V) := map (fun k => (fst k, ev (snd k))) l.
  Inductive kind := KDict (l : list (option V * V)) | KText | KOther.
  Definition view (e : expr) : kind * V :=
    (match e with EDict items => KDict (entries items) | EConst _ | EJoined _ => KText | _ => KOther end, ev e).
  Definition element (fv : V) (tag : list V) (rest : list (kind * V)) (kv : list (option string * V)) : V :=
    match rest with
    | (KDict it, _) :: children => velem fv tag (it ++ keyattr kv) (map snd children) (no_key kv)
    | [] | (KText, _) :: _ => velem fv tag (keyattr kv) (map snd rest) (no_key kv)
    | _ => vcall fv (tag ++ map snd rest) kv
    end.
  Definition callv (c vd : bool) (fv : V) (args : list (kind * V)) (kv : list (option string * V)) : V :=
    if c then if vd then match args with [] => vcall fv [] kv | t :: rest => element fv [snd t] rest kv end else element fv [] args kv
    else vcall fv (map snd args) kv.
  Lemma map_view l : map snd (map view l) = map ev l.
  Proof. rewrite map_map. reflexivity. Qed.
  Lemma eval_call f args kws : ev (ECall f args kws) = callv (constructor cs f) (is_vdom f) (ev f) (map view args) (kvs kws).
  Proof.
    cbn [eval]. unfold callv. fold (kvs kws). destruct (constructor cs f); [|rewrite map_view; reflexivity].
    assert (E : forall tag rest,
      match rest with
      | EDict items :: children => velem (ev f) tag (entries items ++ keyattr (kvs kws)) (map ev children) (no_key (kvs kws))
      | [] | EConst _ :: _ | EJoined _ :: _ => velem (ev f) tag (keyattr (kvs kws)) (map ev rest) (no_key (kvs kws))
      | _ => vcall (ev f) (tag ++ map ev rest) (kvs kws)
      end = element (ev f) tag (map view rest) (kvs kws)).
    { intros tag [|x r]; [reflexivity|]. cbn [map]. unfold element. destruct x; cbn [view map snd]; rewrite ?map_view; reflexivity. }
    destruct (is_vdom f); [destruct args as [|t rest]; [reflexivity|]; cbn [map]|]; apply E.
  Qed.
  Definition sim (a b : expr) : Prop := view a = view b /\ constructor cs a = constructor cs b /\ is_vdom a = is_vdom b /\ html_like a = html_like b.
  Lemma sim_eval a b : sim a b -> ev a = ev b.
  Proof. intros (H & _). apply (f_equal snd) in H. exact H. Qed.
  Lemma sim_list l l' : Forall2 sim l l' -> map ev l = map ev l'.
  Proof. induction 1 as [|a b l l' H _ IH]; [reflexivity|]. cbn [map]. rewrite (sim_eval _ _ H), IH. reflexivity. Qed.
  Lemma sim_views l l' : Forall2 sim l l' -> map view l = map view l'.
  Proof. induction 1 as [|a b l l' H _ IH]; [reflexivity|]. cbn [map]. destruct H as (H & _). rewrite H, IH. reflexivity. Qed.
  Lemma sim_kws l l' : Forall2 (fun a b => fst a = fst b /\ sim (snd a) (snd b)) l l' -> kvs l = kvs l'.
  Proof. induction 1 as [|a b l l' [H H'] _ IH]; [reflexivity|]. unfold kvs in *. cbn [map]. rewrite H, (sim_eval _ _ H'), IH. reflexivity. Qed.
  Lemma sim_entries l l' : Forall2 (fun a b => opt_rel sim (fst a) (fst b) /\ sim (snd a) (snd b)) l l' -> entries l = entries l'.
  Proof.
    induction 1 as [|[k v] [k' v'] l l' [H H'] _ IH]; [reflexivity|]. unfold entries in *. cbn [map fst snd] in *. rewrite (sim_eval _ _ H'), IH.
    destruct k as [k|], k' as [k'|]; cbn [opt_rel] in H; try contradiction; [rewrite (sim_eval _ _ H)|]; reflexivity.
  Qed.
  Lemma cong_sim a b : cong sim a b -> sim a b.
  Proof.
    intros [x|c|v v' at_ H|l l' H|f f' l l' k k' Hf Hl Hk|l l' H|t l l' H].
    - split; [reflexivity|split; [reflexivity|split; reflexivity]].
    - split; [reflexivity|split; [reflexivity|split; reflexivity]].
    - split; [|split; [rewrite !constructor_attr; apply H|split; reflexivity]]. unfold view. cbn [eval]. rewrite (sim_eval _ _ H). reflexivity.
    - split; [|split; [reflexivity|split; reflexivity]]. unfold view. rewrite (sim_entries _ _ H). f_equal. cbn [eval]. fold (entries l) (entries l'). rewrite (sim_entries _ _ H). reflexivity.
    - split; [|split; [reflexivity|split; reflexivity]]. unfold view. f_equal. rewrite !eval_call, (sim_eval _ _ Hf), (sim_views _ _ Hl), (sim_kws _ _ Hk).
      destruct Hf as (_ & E1 & E2 & _). rewrite E1, E2. reflexivity.
    - split; [|split; [reflexivity|split; reflexivity]]. unfold view. cbn [eval]. rewrite (sim_list _ _ H). reflexivity.
    - split; [|split; [reflexivity|split; reflexivity]]. unfold view. cbn [eval]. rewrite (sim_list _ _ H). reflexivity.
  Qed.
  Lemma is_key_kvs (l : list (option string * expr)) : length (filter is_key (kvs l)) = length (filter (fun k => match fst k with Some n => String.eqb n "key" | None => false end) l).
  Proof. induction l as [|[[n|] v] l IH]; [reflexivity| |]; unfold kvs in *; cbn [map filter fst snd is_key]; [destruct (String.eqb n "key")|]; cbn [length]; rewrite ?IH; reflexivity. Qed.
  Lemma no_keys_kvs (l : list (option string * expr)) : (forall k, In k l -> fst k <> Some "key") -> keyattr (kvs l) = [] /\ no_key (kvs l) = kvs l.
  Proof.
    induction l as [|[k v] l IH]; intros H; [split; reflexivity|]. destruct (IH (fun x X => H x (or_intror X))) as [A B].
    assert (N : is_key (k, ev v) = false).
    { unfold is_key. cbn [fst]. destruct k as [n|]; [|reflexivity]. apply String.eqb_neq. intros ->. apply (H (Some "key", v)); [left; reflexivity|reflexivity]. }
    unfold keyattr, no_key, kvs in *. cbn [map filter fst snd]. rewrite N. cbn [negb]. rewrite B. split; [exact A|reflexivity].
  Qed.
  Lemma keyattr_app a b : keyattr (a ++ b) = keyattr a ++ keyattr b.
  Proof. unfold keyattr. rewrite filter_app, map_app. reflexivity. Qed.
  Lemma no_key_app a b : no_key (V := V) (a ++ b) = no_key a ++ no_key b.
  Proof. apply filter_app. Qed.
  Lemma kvs_app a b : kvs (a ++ b) = kvs a ++ kvs b.
  Proof. apply map_app. Qed.
  Lemma taken kws v kws' : take_key kws = Some (v, kws') -> length (filter (fun k => match fst k with Some n => String.eqb n "key" | None => false end) kws) <= 1 ->
    keyattr (kvs kws) = [(Some (vconst (CStr "key")), ev v)] /\ keyattr (kvs kws') = [] /\ no_key (kvs kws') = no_key (kvs kws).
  Proof.
    intros T L. destruct (take_key_split _ _ _ T) as (a & b & -> & -> & A).
    assert (B : forall k, In k b -> fst k <> Some "key").
    { intros [k x] I E. cbn [fst] in E. subst k. rewrite filter_app, app_length in L. cbn [filter fst] in L. rewrite String.eqb_refl in L. cbn [length] in L.
      assert (F : In (Some "key", x) (filter (fun k : option string * expr => match fst k with Some n => String.eqb n "key" | None => false end) b)) by (apply filter_In; split; [exact I|reflexivity]).
      destruct (filter _ b); [destruct F|cbn [length] in L; lia]. }
    destruct (no_keys_kvs a A) as [A1 A2], (no_keys_kvs b B) as [B1 B2]. rewrite !kvs_app, !keyattr_app, !no_key_app, A1, A2.
    change (kvs ((Some "key", v) :: b)) with ((Some "key", ev v) :: kvs b).
    unfold keyattr in *. unfold no_key in *. cbn [filter]. change (is_key (Some "key", ev v)) with true. cbn [map negb snd]. rewrite B1, B2. split; [reflexivity|split; reflexivity].
  Qed.
  Lemma entries_key items v : entries (items ++ [(Some (EConst (CStr "key")), v)]) = entries items ++ [(Some (vconst (CStr "key")), ev v)].
  Proof. unfold entries. rewrite map_app. reflexivity. Qed.
  (** The three changes of the argument list. *)
  Lemma element_insert fv tag rest kv : (match rest with [] => true | x :: _ => is_text x end) = true ->
    element fv tag (map view (EDict [] :: rest)) kv = element fv tag (map view rest) kv.
  Proof. destruct rest as [|x r]; [reflexivity|]. destruct x; try discriminate; intros _; reflexivity. Qed.
  Lemma element_key fv tag items children kws v kws' : take_key kws = Some (v, kws') -> length (filter (fun k => match fst k with Some n => String.eqb n "key" | None => false end) kws) <= 1 ->
    element fv tag (map view (add_key v (EDict items) :: children)) (kvs kws') = element fv tag (map view (EDict items :: children)) (kvs kws).
  Proof.
    intros T L. destruct (taken _ _ _ T L) as (A & B & C). cbn [add_key map view element]. rewrite entries_key, A, B, C, app_nil_r. reflexivity.
  Qed.
  Lemma element_both fv tag rest kws v kws' : (match rest with [] => true | x :: _ => is_text x end) = true ->
    take_key kws = Some (v, kws') -> length (filter (fun k => match fst k with Some n => String.eqb n "key" | None => false end) kws) <= 1 ->
    element fv tag (map view (add_key v (EDict []) :: rest)) (kvs kws') = element fv tag (map view rest) (kvs kws).
  Proof. intros X T L. rewrite (element_key fv tag [] rest kws v kws' T L). apply element_insert. exact X. Qed.
  Lemma well_prepared n args args' i : prepare true n args = Some (args', i) -> forallb (well cs) args = true -> forallb (well cs) args' = true.
  Proof.
    intros P W. apply forallb_forall. intros a I. destruct (prepare_in _ _ _ _ _ P I) as [H| ->]; [|reflexivity]. rewrite forallb_forall in W. apply W. exact H.
  Qed.
  Lemma rewrite1_eval e : well cs e = true -> ev (rewrite1 e) = ev e.
  Proof.
    destruct e as [x|v a|f args kws|items|k|l|t l]; try reflexivity. intros W. cbn [rewrite1].
    destruct (name_of f) as [n|] eqn:N; [|reflexivity]. destruct (prepare true n args) as [[args' i]|] eqn:P; [|reflexivity].
    cbn [well] in W. rewrite !andb_true_iff in W. destruct W as [[[[W1 W2] W3] W4] W5]. apply Nat.leb_le in W2.
    assert (C : constructor cs f = true) by (apply (name_constructor cs f n N); destruct f; try reflexivity; apply andb_true_iff in W1; apply W1).
    assert (W' := well_prepared _ _ _ _ P W4).
    assert (PR : forall d, is_props (nth i args' d) = true -> i < length args' -> exists l, nth i args' d = EDict l).
    { intros d H L. destruct (is_props_cases _ H) as [[l E]|(da & dk & E)]; [eauto|]. exfalso. rewrite forallb_forall in W'.
      specialize (W' (nth i args' d) (nth_In _ _ L)). rewrite E in W'. cbn [well] in W'. rewrite !andb_true_iff in W'. destruct W' as [[[[[_ X] _] _] _] _]. discriminate. }
    unfold prepare in P. change (has_attr_html n) with true in P. cbv iota in P. assert (VD := name_vdom f n N). destruct (String.eqb n "vdom") eqn:Q.
    - destruct args as [|a [|b r]]; [discriminate| |].
      + injection P as <- <-. cbn [nth is_props]. destruct (take_key kws) as [[v kws']|] eqn:T; rewrite !eval_call, C, VD; unfold callv; cbn [update map].
        * exact (element_both (ev f) _ [] kws v kws' eq_refl T W2).
        * apply (element_insert (ev f) _ []). reflexivity.
      + destruct (is_text b) eqn:TB; injection P as <- <-.
        * cbn [nth is_props]. destruct (take_key kws) as [[v kws']|] eqn:T; rewrite !eval_call, C, VD; unfold callv; cbn [update map].
          -- exact (element_both (ev f) _ (b :: r) kws v kws' TB T W2).
          -- apply (element_insert (ev f) _ (b :: r)). exact TB.
        * destruct (is_props (nth 1 (a :: b :: r) (EName ""))) eqn:IP; [|reflexivity]. destruct (take_key kws) as [[v kws']|] eqn:T; [|reflexivity].
          destruct (PR (EName "") IP) as [l E]; [simpl; lia|]. cbn [nth] in E. subst b. rewrite !eval_call, C, VD. unfold callv. cbn [update map].
          apply (element_key (ev f) _ l r); [exact T|exact W2].
    - destruct args as [|b r].
      + injection P as <- <-. cbn [nth is_props]. destruct (take_key kws) as [[v kws']|] eqn:T; rewrite !eval_call, C, VD; unfold callv; cbn [update map].
        * exact (element_both (ev f) _ [] kws v kws' eq_refl T W2).
        * apply (element_insert (ev f) _ []). reflexivity.
      + destruct (is_text b) eqn:TB; injection P as <- <-.
        * cbn [nth is_props]. destruct (take_key kws) as [[v kws']|] eqn:T; rewrite !eval_call, C, VD; unfold callv; cbn [update map].
          -- exact (element_both (ev f) _ (b :: r) kws v kws' TB T W2).
          -- apply (element_insert (ev f) _ (b :: r)). exact TB.
        * destruct (is_props (nth 0 (b :: r) (EName ""))) eqn:IP; [|reflexivity]. destruct (take_key kws) as [[v kws']|] eqn:T; [|reflexivity].
          destruct (PR (EName "") IP) as [l E]; [simpl; lia|]. cbn [nth] in E. subst b. rewrite !eval_call, C, VD. unfold callv. cbn [update map].
          apply (element_key (ev f) _ l r); [exact T|exact W2].
  Qed.
End Kept.

Lemma well_kids cs e c : well cs e = true -> In c (kids e) -> well cs c = true.
Proof.
  destruct e as [x|v a|f args kws|items|k|l|t l]; cbn [kids well]; intros W I; try destruct I.
  - subst. exact W.
  - destruct H.
  - rewrite !andb_true_iff in W. destruct W as [[[[W1 W2] W3] W4] W5]. subst. exact W3.
  - rewrite !andb_true_iff in W. destruct W as [[[[W1 W2] W3] W4] W5]. apply in_app_or in H. destruct H as [H|H].
    + rewrite forallb_forall in W4. apply W4. exact H.
    + apply in_map_iff in H. destruct H as (k & <- & H). rewrite forallb_forall in W5. apply W5. exact H.
  - apply in_flat_map in I. destruct I as ([k v] & I & J). rewrite forallb_forall in W. specialize (W _ I). cbn [fst snd] in *. apply andb_true_iff in W. destruct W as [W1 W2].
    apply in_app_or in J. destruct J as [J|[<-|[]]]; [|exact W2]. destruct k as [k|]; [destruct J as [<-|[]]; exact W1|destruct J].
  - rewrite forallb_forall in W. apply W. exact I.
  - rewrite forallb_forall in W. apply W. exact I.
Qed.
Lemma well_rewrite1 cs e c : well cs e = true -> In c (kids (rewrite1 e)) -> well cs c = true.
Proof.
  destruct e as [x|v a|f args kws|items|k|l|t l]; try (apply well_kids). intros W. assert (W0 := W). cbn [rewrite1].
  destruct (name_of f) as [n|]; [|apply well_kids; exact W]. destruct (prepare true n args) as [[args' i]|] eqn:P; [|apply well_kids; exact W].
  cbn [well] in W. rewrite !andb_true_iff in W. destruct W as [[[[W1 W2] W3] W4] W5]. assert (W' := well_prepared cs _ _ _ _ P W4).
  assert (K : In c (kids (ECall f args' kws)) -> well cs c = true).
  { apply well_kids. cbn [well]. rewrite !andb_true_iff. split; [split; [split; [split|]|]|]; assumption. }
  destruct (is_props (nth i args' (EName ""))) eqn:IP; [|exact K]. destruct (take_key kws) as [[v kws']|] eqn:T; [|exact K].
  destruct (take_key_split _ _ _ T) as (a & b & -> & -> & _). rewrite forallb_app in W5. cbn [forallb snd] in W5. rewrite !andb_true_iff in W5. destruct W5 as [W5 [W6 W7]].
  cbn [kids]. intros [<-|I]; [exact W3|]. apply in_app_or in I. destruct I as [I|I].
  - apply (in_update _ _ _ _ (EName "")) in I. rewrite forallb_forall in W'. destruct I as [I|[L ->]]; [apply W'; exact I|].
    specialize (W' _ (nth_In _ (EName "") L)). destruct (is_props_cases _ IP) as [[l E]|(da & dk & E)]; rewrite E in *.
    + cbn [add_key well] in *. rewrite forallb_app, W'. cbn [forallb fst snd well]. rewrite W6. reflexivity.
    + exfalso. cbn [well] in W'. rewrite !andb_true_iff in W'. destruct W' as [[[[[_ X] _] _] _] _]. discriminate.
  - apply in_map_iff in I. destruct I as (k & <- & I). apply in_app_or in I. destruct I as [I|I].
    + rewrite forallb_forall in W5. apply W5. exact I.
    + rewrite forallb_forall in W7. apply W7. exact I.
Qed.
Lemma cong_imp (R S : expr -> expr -> Prop) a b : cong R a b -> (forall x y, In x (kids a) -> R x y -> S x y) -> cong S a b.
Proof.
  intros [x|c|v v' at_ H|l l' H|f f' l l' k k' Hf Hl Hk|l l' H|t l l' H] I; cbn [kids] in I; constructor.
  - apply I; [left; reflexivity|exact H].
  - eapply forall2_imp; [|exact H]. intros [k v] [k' v'] M [A B]. cbn [fst snd] in *. split.
    + destruct k as [k|], k' as [k'|]; cbn [opt_rel] in *; try contradiction; [|exact A]. apply I; [|exact A]. apply in_flat_map. exists (Some k, v). split; [exact M|left; reflexivity].
    + apply I; [|exact B]. apply in_flat_map. exists (k, v). split; [exact M|apply in_or_app; right; left; reflexivity].
  - apply I; [left; reflexivity|exact Hf].
  - eapply forall2_imp; [|exact Hl]. intros x y M A. apply I; [right; apply in_or_app; left; exact M|exact A].
  - eapply forall2_imp; [|exact Hk]. intros x y M [A B]. split; [exact A|]. apply I; [right; apply in_or_app; right; apply in_map; exact M|exact B].
  - eapply forall2_imp; [|exact H]. intros x y M A. apply I; [exact M|exact A].
  - eapply forall2_imp; [|exact H]. intros x y M A. apply I; [exact M|exact A].
Qed.
Lemma rewrite1_call f args kws : exists args' kws', rewrite1 (ECall f args kws) = ECall f args' kws'.
Proof.
  cbn [rewrite1]. destruct (name_of f) as [n|]; [|eauto]. destruct (prepare true n args) as [[args' i]|]; [|eauto].
  destruct (is_props _); [|eauto]. destruct (take_key kws) as [[v kws']|]; eauto.
Qed.

(** ** C80 *)

(** In a program where every bare name that is called is an element constructor, the rewritten program means the same, whatever
    its operations are and whatever elements are made of. *)
Theorem C80_meaning_partial {V : Type} (cs : list string) (vname : string -> V) vattr vconst vdict vlist vcall velem e :
  well cs e = true ->
  eval cs vname vattr vconst vdict vlist vcall velem (rewritten e) = eval cs vname vattr vconst vdict vlist vcall velem e.
Proof.
  intros W. symmetry. apply sim_eval.
  assert (G : forall n e e', well cs e = true -> walk n e = Some e' -> sim cs vname vattr vconst vdict vlist vcall velem e e').
  { clear e W. induction n as [|n IH]; intros e e' W H; [discriminate|]. apply walk_cong in H.
    assert (S : sim cs vname vattr vconst vdict vlist vcall velem (rewrite1 e) e').
    { apply cong_sim. eapply cong_imp; [exact H|]. intros x y I X. apply IH; [|exact X]. eapply well_rewrite1; [exact W|exact I]. }
    assert (R : sim cs vname vattr vconst vdict vlist vcall velem e (rewrite1 e)).
    { assert (E := rewrite1_eval cs vname vattr vconst vdict vlist vcall velem e W). destruct e as [x|v a|f args kws|items|k|l|t l];
        try (split; [reflexivity|split; [reflexivity|split; reflexivity]]; fail).
      destruct (rewrite1_call f args kws) as (args' & kws' & Q). rewrite Q in *. split; [unfold view; rewrite E; reflexivity|split; [reflexivity|split; reflexivity]]. }
    destruct S as (S1 & S2 & S3 & S4), R as (R1 & R2 & R3 & R4). split; [congruence|split; [congruence|split; congruence]]. }
  apply (G (size e)); [exact W|apply rewritten_walk].
Qed.

(** *** No key is left *)

(** A call is unclear if its attributes cannot be told from its children: there is a first argument (a second one for [vdom],
    which also needs its tag), and this is neither a text nor a dictionary. *)
Definition unclear (name : string) (args : list expr) : bool :=
  match (if String.eqb name "vdom" then match args with [] => None | _ :: r => Some r end else Some args) with
  | None => true
  | Some [] => false
  | Some (EDict _ :: _) | Some (EConst _ :: _) | Some (EJoined _ :: _) => false
  | Some (ECall (EName f) _ _ :: _) => negb (String.eqb f "dict")
  | Some _ => true
  end.
Definition has_key (kws : list (option string * expr)) : bool := existsb (fun k => match fst k with Some n => String.eqb n "key" | None => false end) kws.
Definition bare_dict (f : expr) : bool := match f with EName n => String.eqb n "dict" | _ => false end.
(** Only unclear calls have a [key] argument (calls of the builtin [dict] aside). *)
Fixpoint done (e : expr) : bool :=
  match e with
  | EName _ | EConst _ => true
  | EAttr v _ => done v
  | EDict items => forallb (fun it => (match fst it with Some k => done k | None => true end) && done (snd it)) items
  | ECall f args kws =>
      (bare_dict f || negb (has_key kws) || match name_of f with Some n => unclear n args | None => true end) &&
      done f && forallb done args && forallb (fun k => done (snd k)) kws
  | EJoined l | EOther _ l => forallb done l
  end.
(** Python: no keyword twice. *)
Fixpoint once (e : expr) : bool :=
  match e with
  | EName _ | EConst _ => true
  | EAttr v _ => once v
  | EDict items => forallb (fun it => (match fst it with Some k => once k | None => true end) && once (snd it)) items
  | ECall f args kws =>
      (bare_dict f || Nat.leb (length (filter (fun k => match fst k with Some n => String.eqb n "key" | None => false end) kws)) 1) &&
      once f && forallb once args && forallb (fun k => once (snd k)) kws
  | EJoined l | EOther _ l => forallb once l
  end.
Definition top_done (e : expr) : bool :=
  match e with ECall f args kws => bare_dict f || negb (has_key kws) || match name_of f with Some n => unclear n args | None => true end | _ => true end.
Lemma once_kids e c : once e = true -> In c (kids e) -> once c = true.
Proof.
  destruct e as [x|v a|f args kws|items|k|l|t l]; cbn [kids once]; intros W I; try destruct I.
  - subst. exact W.
  - destruct H.
  - rewrite !andb_true_iff in W. destruct W as [[[W1 W3] W4] W5]. subst. exact W3.
  - rewrite !andb_true_iff in W. destruct W as [[[W1 W3] W4] W5]. apply in_app_or in H. destruct H as [H|H].
    + rewrite forallb_forall in W4. apply W4. exact H.
    + apply in_map_iff in H. destruct H as (k & <- & H). rewrite forallb_forall in W5. apply W5. exact H.
  - apply in_flat_map in I. destruct I as ([k v] & I & J). rewrite forallb_forall in W. specialize (W _ I). cbn [fst snd] in *. apply andb_true_iff in W. destruct W as [W1 W2].
    apply in_app_or in J. destruct J as [J|[<-|[]]]; [|exact W2]. destruct k as [k|]; [destruct J as [<-|[]]; exact W1|destruct J].
  - rewrite forallb_forall in W. apply W. exact I.
  - rewrite forallb_forall in W. apply W. exact I.
Qed.
Lemma once_prepared n args args' i : prepare true n args = Some (args', i) -> forallb once args = true -> forallb once args' = true.
Proof.
  intros P W. apply forallb_forall. intros a I. destruct (prepare_in _ _ _ _ _ P I) as [H| ->]; [|reflexivity]. rewrite forallb_forall in W. apply W. exact H.
Qed.
Lemma once_rewrite1 e c : once e = true -> In c (kids (rewrite1 e)) -> once c = true.
Proof.
  destruct e as [x|v a|f args kws|items|k|l|t l]; try (apply once_kids). intros W. cbn [rewrite1].
  destruct (name_of f) as [n|]; [|apply once_kids; exact W]. destruct (prepare true n args) as [[args' i]|] eqn:P; [|apply once_kids; exact W].
  cbn [once] in W. rewrite !andb_true_iff in W. destruct W as [[[W1 W3] W4] W5]. assert (W' := once_prepared _ _ _ _ P W4).
  assert (K : In c (kids (ECall f args' kws)) -> once c = true).
  { apply once_kids. cbn [once]. rewrite !andb_true_iff. split; [split; [split|]|]; assumption. }
  destruct (is_props (nth i args' (EName ""))) eqn:IP; [|exact K]. destruct (take_key kws) as [[v kws']|] eqn:T; [|exact K].
  destruct (take_key_split _ _ _ T) as (a & b & -> & -> & _). rewrite forallb_app in W5. cbn [forallb snd] in W5. rewrite !andb_true_iff in W5. destruct W5 as [W5 [W6 W7]].
  cbn [kids]. intros [<-|I]; [exact W3|]. apply in_app_or in I. destruct I as [I|I].
  - apply (in_update _ _ _ _ (EName "")) in I. rewrite forallb_forall in W'. destruct I as [I|[L ->]]; [apply W'; exact I|].
    specialize (W' _ (nth_In _ (EName "") L)). destruct (is_props_cases _ IP) as [[l E]|(da & dk & E)]; rewrite E in *.
    + cbn [add_key once] in *. rewrite forallb_app, W'. cbn [forallb fst snd once]. rewrite W6. reflexivity.
    + cbn [add_key once bare_dict] in *. rewrite String.eqb_refl in *. rewrite forallb_app. cbn [orb forallb snd]. rewrite W6.
      rewrite !andb_true_iff in *. tauto.
  - apply in_map_iff in I. destruct I as (k & <- & I). apply in_app_or in I. destruct I as [I|I].
    + rewrite forallb_forall in W5. apply W5. exact I.
    + rewrite forallb_forall in W7. apply W7. exact I.
Qed.
Lemma has_key_false kws : (forall k, In k kws -> fst k <> Some "key") -> has_key kws = false.
Proof.
  intros H. unfold has_key. destruct (existsb _ kws) eqn:E; [|reflexivity]. apply existsb_exists in E. destruct E as ([k v] & I & E). exfalso. apply (H _ I). cbn [fst] in *.
  destruct k as [n|]; [|discriminate]. apply String.eqb_eq in E. congruence.
Qed.
Lemma unclear_args n args args' i : prepare true n args = Some (args', i) -> is_props (nth i args' (EName "")) = false -> unclear n args' = true.
Proof.
  assert (X : forall x, is_text x = false -> is_props x = false -> match x with EDict _ | EConst _ | EJoined _ => false | ECall (EName f) _ _ => negb (String.eqb f "dict") | _ => true end = true).
  { intros x A B. destruct x as [m|v a|f l k|l|c|l|t l]; try discriminate; try reflexivity. destruct f as [m|v a|f0 l0 k0|l0|c0|l0|t0 l0]; try reflexivity.
    cbn [is_props] in B. rewrite dict_match in B. destruct (String.eqb m "dict"); [discriminate|reflexivity]. }
  unfold prepare, unclear. change (has_attr_html n) with true. cbv iota. destruct (String.eqb n "vdom").
  - destruct args as [|a [|b r]]; [discriminate| |].
    + intros H. injection H as <- <-. discriminate.
    + destruct (is_text b) eqn:TB; intros H; injection H as <- <-; [discriminate|]. cbn [nth]. intros PB. specialize (X b TB PB). destruct b; exact X.
  - destruct args as [|b r].
    + intros H. injection H as <- <-. discriminate.
    + destruct (is_text b) eqn:TB; intros H; injection H as <- <-; [discriminate|]. cbn [nth]. intros PB. specialize (X b TB PB). destruct b; exact X.
Qed.
Lemma rewrite1_top e : once e = true -> top_done (rewrite1 e) = true.
Proof.
  destruct e as [x|v a|f args kws|items|k|l|t l]; try reflexivity. intros W. cbn [once] in W. rewrite !andb_true_iff in W. destruct W as [[[W1 _] _] _].
  destruct (bare_dict f) eqn:B; [destruct (rewrite1_call f args kws) as (args' & kws' & ->); cbn [top_done]; rewrite B; reflexivity|]. cbn [orb] in W1. apply Nat.leb_le in W1.
  cbn [rewrite1]. destruct (name_of f) as [n|] eqn:N; [|cbn [top_done]; rewrite N; apply orb_true_r].
  destruct (prepare true n args) as [[args' i]|] eqn:P.
  - destruct (is_props (nth i args' (EName ""))) eqn:IP.
    + destruct (take_key kws) as [[v kws']|] eqn:T; cbn [top_done].
      * assert (H : has_key kws' = false); [|rewrite H; cbn [negb]; rewrite orb_true_r; reflexivity].
        destruct (take_key_split _ _ _ T) as (a & b & -> & -> & A). apply has_key_false. intros k I. apply in_app_or in I. destruct I as [I|I]; [apply A; exact I|].
        intros E. rewrite filter_app, app_length in W1. cbn [filter fst] in W1. rewrite String.eqb_refl in W1. cbn [length] in W1.
        assert (F : In k (filter (fun k : option string * expr => match fst k with Some n => String.eqb n "key" | None => false end) b)) by (apply filter_In; split; [exact I|rewrite E; reflexivity]).
        destruct (filter _ b); [destruct F|cbn [length] in W1; lia].
      * rewrite (has_key_false kws (take_key_none _ T)). cbn [negb]. rewrite orb_true_r. reflexivity.
    + cbn [top_done]. rewrite N, (unclear_args _ _ _ _ P IP). apply orb_true_r.
  - cbn [top_done]. rewrite N. unfold prepare in P. change (has_attr_html n) with true in P. cbv iota in P. unfold unclear. destruct (String.eqb n "vdom"); [|destruct args as [|b r]; [|destruct (is_text b)]; discriminate].
    destruct args as [|b [|c r]]; [apply orb_true_r|discriminate|destruct (is_text c); discriminate].
Qed.
(** What the walk keeps of a node. *)
Definition first_kind (e : expr) : nat :=
  match e with EDict _ => 0 | EConst _ => 1 | EJoined _ => 2 | ECall (EName f) _ _ => if String.eqb f "dict" then 3 else 4 | _ => 5 end.
Definition like (a b : expr) : Prop := html_like a = html_like b /\ first_kind a = first_kind b /\
  (forall n, a = EName n -> b = EName n) /\ (forall n, b = EName n -> a = EName n) /\ name_of a = name_of b.
Lemma unclear_like n l l' : Forall2 like l l' -> unclear n l = unclear n l'.
Proof.
  assert (X : forall l l', Forall2 like l l' ->
    match l with [] => false | EDict _ :: _ | EConst _ :: _ | EJoined _ :: _ => false | ECall (EName f) _ _ :: _ => negb (String.eqb f "dict") | _ => true end =
    match l' with [] => false | EDict _ :: _ | EConst _ :: _ | EJoined _ :: _ => false | ECall (EName f) _ _ :: _ => negb (String.eqb f "dict") | _ => true end).
  { intros m m' [|a b r r' (_ & H & _) _]; [reflexivity|].
    destruct a as [m0|v a|f l0 k|l0|c|l0|t l0], b as [m1|v1 a1|f1 l1 k1|l1|c1|l1|t1 l1]; try reflexivity; try discriminate; try (destruct f; discriminate); try (destruct f1; discriminate).
    all: unfold first_kind in H; repeat match goal with
      | H : context [match ?f with EName _ => _ | _ => _ end] |- _ => destruct f
      | H : context [if ?c then _ else _] |- _ => destruct c eqn:? end; try discriminate; try reflexivity.
    all: repeat match goal with H : String.eqb _ _ = _ |- _ => rewrite H end; try reflexivity. }
  intros F. unfold unclear. destruct (String.eqb n "vdom").
  - destruct F as [|a b r r' H F]; [reflexivity|]. exact (X r r' F).
  - exact (X l l' F).
Qed.
Lemma has_key_names (k k' : list (option string * expr)) : Forall2 (fun a b => fst a = fst b) k k' -> has_key k = has_key k'.
Proof. unfold has_key. induction 1 as [|a b k k' H _ IH]; [reflexivity|]. cbn [existsb]. rewrite H, IH. reflexivity. Qed.
Lemma bare_like f f' : like f f' -> bare_dict f = bare_dict f'.
Proof.
  intros (_ & _ & A & B & _). destruct f as [n|v a|f l k|l|c|l|t l]; [rewrite (A n eq_refl); reflexivity| | | | | |];
    destruct f' as [m|v' a'|f' l' k'|l'|c'|l'|t' l']; try reflexivity; specialize (B m eq_refl); discriminate.
Qed.
Definition fin (a b : expr) : Prop := done b = true /\ like a b.
Lemma forallb_fin l l' : Forall2 fin l l' -> forallb done l' = true.
Proof. induction 1 as [|a b l l' [H _] _ IH]; [reflexivity|]. cbn [forallb]. rewrite H, IH. reflexivity. Qed.
Lemma forall2_like l l' : Forall2 fin l l' -> Forall2 like l l'.
Proof. intros F. eapply forall2_imp; [|exact F]. intros a b _ [_ H]. exact H. Qed.
Lemma cong_fin a b : top_done a = true -> cong fin a b -> fin a b.
Proof.
  intros TD C. revert TD. destruct C as [x|c|v v' at_ H|l l' H|f f' l l' k k' Hf Hl Hk|l l' H|t l l' H]; intros TD.
  - split; [reflexivity|]. split; [reflexivity|split; [reflexivity|split; [auto|split; [auto|reflexivity]]]].
  - split; [reflexivity|]. split; [reflexivity|split; [reflexivity|split; [discriminate|split; [discriminate|reflexivity]]]].
  - destruct H as [H (L & _)]. split; [exact H|]. split; [reflexivity|split; [reflexivity|split; [discriminate|split; [discriminate|]]]]. rewrite !name_attr, L. reflexivity.
  - split; [|split; [reflexivity|split; [reflexivity|split; [discriminate|split; [discriminate|reflexivity]]]]]. cbn [done]. clear TD.
    induction H as [|[k v] [k' v'] l l' [A [B _]] _ IH]; [reflexivity|]. cbn [forallb fst snd] in *. rewrite B, IH.
    destruct k as [k|], k' as [k'|]; cbn [opt_rel] in A; try contradiction; [destruct A as [A _]; rewrite A|]; reflexivity.
  - split.
    + cbn [done]. rewrite (forallb_fin _ _ Hl). destruct Hf as [Df Lf]. rewrite Df, <- (bare_like _ _ Lf).
      rewrite <- (has_key_names k k') by (eapply forall2_imp; [|exact Hk]; intros x y _ [X _]; exact X).
      assert (N : name_of f = name_of f') by apply Lf. rewrite <- N. cbn [top_done] in TD.
      assert (U : match name_of f with Some n => unclear n l' | None => true end = match name_of f with Some n => unclear n l | None => true end).
      { destruct (name_of f) as [n|]; [|reflexivity]. symmetry. apply unclear_like. apply forall2_like. exact Hl. }
      rewrite U, TD. cbn [andb]. clear -Hk. induction Hk as [|x y k k' [_ [X _]] _ IH]; [reflexivity|]. cbn [forallb]. rewrite X, IH. reflexivity.
    + assert (FK : first_kind (ECall f l k) = first_kind (ECall f' l' k')).
      { destruct Hf as [_ (_ & _ & A & B & _)]. destruct f as [n|v a|f l0 k0|l0|c|l0|t l0]; [rewrite (A n eq_refl); reflexivity| | | | | |];
          destruct f' as [m|v' a'|f' l'' k''|l''|c'|l''|t' l'']; try reflexivity; specialize (B m eq_refl); discriminate. }
      split; [reflexivity|split; [exact FK|split; [discriminate|split; [discriminate|reflexivity]]]].
  - split; [apply (forallb_fin _ _ H)|]. split; [reflexivity|split; [reflexivity|split; [discriminate|split; [discriminate|reflexivity]]]].
  - split; [apply (forallb_fin _ _ H)|]. split; [reflexivity|split; [reflexivity|split; [discriminate|split; [discriminate|reflexivity]]]].
Qed.
Lemma like_trans a b c : like a b -> like b c -> like a c.
Proof.
  intros (A1 & A2 & A3 & A4 & A5) (B1 & B2 & B3 & B4 & B5). split; [congruence|split; [congruence|split; [intros n H; apply B3, A3, H|split; [intros n H; apply A4, B4, H|congruence]]]].
Qed.

(** After the tool ran, a [key] argument is left only in calls where attributes cannot be told from children. *)
Theorem C80_complete e : once e = true -> done (rewritten e) = true.
Proof.
  assert (G : forall n e e', once e = true -> walk n e = Some e' -> fin e e').
  { clear e. induction n as [|n IH]; intros e e' W H; [discriminate|]. apply walk_cong in H.
    assert (F : fin (rewrite1 e) e').
    { apply cong_fin; [apply rewrite1_top; exact W|]. eapply cong_imp; [exact H|]. intros x y I X. apply IH; [|exact X]. eapply once_rewrite1; [exact W|exact I]. }
    destruct F as [D L]. split; [exact D|]. apply (like_trans _ (rewrite1 e)); [|exact L].
    destruct e as [x|v a|f args kws|items|k|l|t l]; try (split; [reflexivity|split; [reflexivity|split; [auto|split; [auto|reflexivity]]]]; fail).
    destruct (rewrite1_call f args kws) as (args' & kws' & ->). split; [reflexivity|split; [reflexivity|split; [discriminate|split; [discriminate|reflexivity]]]]. }
  intros W. apply (G (size e) e (rewritten e) W (rewritten_walk e)).
Qed.

(** [div({"class": c}, html.p("text", key=1), key=2)] *)
Definition html_p (args : list expr) kws := ECall (EAttr (EName "html") "p") args kws.
Definition num (s : string) := EConst (COther s).
Definition text (s : string) := EConst (CStr s).
Definition page_before : expr :=
  ECall (EName "div") [EDict [(Some (text "class"), EName "c")]; html_p [text "text"] [(Some "key", num "1")]] [(Some "key", num "2")].
Example C80_example : well ["div"] page_before = true /\ once page_before = true /\
  rewritten page_before = ECall (EName "div") [EDict [(Some (text "class"), EName "c"); (Some (text "key"), num "2")]; html_p [EDict [(Some (text "key"), num "1")]; text "text"] []] [].
Proof. split; [reflexivity|split; reflexivity]. Qed.

(** [html.p(dict(class_="x"), key=1)] becomes [html.p(dict({"key": 1}, class_="x"))]. *)
Example C80_dict_example : let e := html_p [ECall (EName "dict") [] [(Some "class_", text "x")]] [(Some "key", num "1")] in
  once e = true /\ rewritten e = html_p [ECall (EName "dict") [EDict [(Some (text "key"), num "1")]] [(Some "class_", text "x")]] [].
Proof. split; reflexivity. Qed.

(** The guard is needed. Every call of a bare name is taken for an element constructor: the [key] of a component becomes a
    dictionary, which is passed as its first argument. [greeting("Ada", key=1)] *)
Theorem C80_component_refuted : exists e, once e = true /\ e = ECall (EName "greeting") [text "Ada"] [(Some "key", num "1")] /\
  rewritten e = ECall (EName "greeting") [EDict [(Some (text "key"), num "1")]; text "Ada"] [].
Proof. eexists. split; [|split; [reflexivity|]]; reflexivity. Qed.
(** So is the sorting key of [max({1: "a"}, key=f)], which is lost. *)
Theorem C80_builtin_refuted : exists e, once e = true /\ e = ECall (EName "max") [EDict [(Some (num "1"), text "a")]] [(Some "key", EName "f")] /\
  rewritten e = ECall (EName "max") [EDict [(Some (num "1"), text "a"); (Some (text "key"), EName "f")]] [].
Proof. eexists. split; [|split; [reflexivity|]]; reflexivity. Qed.
(** Calls without a [key] are changed too, when the statement they are in is rewritten: [html.p({}, time(), key=1)] becomes
    [html.p({'key': 1}, time({}))]. *)
Theorem C80_unrelated_refuted : exists e, once e = true /\ e = html_p [EDict []; ECall (EName "time") [] []] [(Some "key", num "1")] /\
  rewritten e = html_p [EDict [(Some (text "key"), num "1")]; ECall (EName "time") [EDict []] []] [].
Proof. eexists. split; [|split; [reflexivity|]]; reflexivity. Qed.
(** The same test selects the dictionaries whose names rewrite_props converts: that of [save({"user_id": 1})] is one. *)
Theorem C66_any_call_refuted : exists f args args' i, f = EName "save" /\ args = [EDict [(Some (text "user_id"), num "1")]] /\
  name_of f = Some "save" /\ prepare false "save" args = Some (args', i) /\ args' = args /\ is_props (nth i args' (EName "")) = true.
Proof. do 4 eexists. split; [reflexivity|split; [reflexivity|split; [reflexivity|split; [reflexivity|split; reflexivity]]]]. Qed.

Print Assumptions C80_meaning_partial.
Print Assumptions C80_complete.
Print Assumptions C80_component_refuted.
Print Assumptions C80_builtin_refuted.
Print Assumptions C80_unrelated_refuted.
Print Assumptions C66_any_call_refuted.
