(** * Model of the conversion between VDOM and HTML trees (/repo/src/reactpy/utils.py, transforms.py); C42 and C45 *)
From Coq Require Import String Ascii Bool Arith Lia List.
From Verif Require Import Dict Strings PyStr VdomModel HtmlAttrs.
Import ListNotations.
Local Open Scope string_scope. Local Open Scope list_scope.

(** ** VDOM to an element tree *)

(** A child of a VDOM node. [VAtom] is anything that is neither a dictionary nor has a [render] method; [VEl] a VDOM
    dictionary (the tag [""] is a fragment; event handlers and inline JavaScript are ignored by the conversion and left
    out); [VComp r] a component whose first render returns [r]. *)
Inductive atom := TStr (s : string) | TNone | TOther (s : string).
Inductive vd := VAtom (a : atom) | VEl (tag : string) (attrs : list (string * ival)) (kids : list vd) | VComp (r : vd).
Definition show (a : atom) : string := match a with TStr s => s | TNone => "None" | TOther s => s end.

(** An lxml element: tag, attributes, text, and the children with their tails. [None] and [""] are the same for the code. *)
Inductive et := ENode (tag : string) (attrs : dict string string) (text : string) (kids : list (et * string)).
Definition body : Type := string * list (et * string).

(** The last two branches of the loop of [_add_vdom_to_etree], utils.py:210-215. *)
Fixpoint add_tail (c : string) (kids : list (et * string)) : list (et * string) :=
  match kids with [] => [] | [(e, t)] => [(e, (t ++ c)%string)] | k :: kids' => k :: add_tail c kids' end.
Definition add_text (c : string) (b : body) : body :=
  match snd b with [] => ((fst b ++ c)%string, []) | kids => (fst b, add_tail c kids) end.
(** [element.attrib.update(...)], utils.py:184-188. *)
Fixpoint attrs_html (attrs : list (string * ival)) (d : dict string string) : res (dict string string) :=
  match attrs with
  | [] => Ok d
  | (k, v) :: rest => match html_value v with None => Err TypeError | Some s => attrs_html rest (dset (html_name k) s d) end
  end.
Definition put_node (e : et) (b : body) : body := (fst b, snd b ++ [(e, "")]).
(** [_add_vdom_to_etree], utils.py:174-215, with [component_to_vdom], utils.py:240-250: [add v b] is the content of the
    parent after adding [v] to a parent with content [b]. *)
Fixpoint add (v : vd) (b : body) {struct v} : res body :=
  match v with
  | VAtom a => Ok (add_text (show a) b)
  | VEl tag attrs kids =>
      let go := fix go (l : list vd) (b : body) : res body :=
        match l with [] => Ok b | c :: l' => match add c b with Ok b' => go l' b' | Err e => Err e end end in
      if String.eqb tag "" then go kids b
      else match attrs_html attrs [] with
           | Err e => Err e
           | Ok d => match go kids ("", []) with Err e => Err e | Ok (t, ks) => Ok (put_node (ENode tag d t ks) b) end
           end
  | VComp r =>
      match r with
      | VAtom TNone => Ok b
      | VAtom (TStr s) => Ok (put_node (ENode "div" [] s []) b)
      | VAtom (TOther _) => Ok (put_node (ENode "div" [] "" []) b)
      | _ => add r b
      end
  end.
Definition add_all : list vd -> body -> res body :=
  fix go (l : list vd) (b : body) : res body :=
    match l with [] => Ok b | c :: l' => match add c b with Ok b' => go l' b' | Err e => Err e end end.

(** ** An element tree to VDOM *)

(** Attribute values: [AS] a string or (for an option's value) an element object whose content is not tracked. *)
Inductive sval := SStr (s : string) | SObj.
Inductive av := AS (v : sval) | AMany (l : list sval) | AStyle (d : dict string string) | ATrue.
(** [HEl tag attributes children inlineJavaScript click]: [click] tells that [eventHandlers] is the intercepting
    [onClick]; an absent key is [None]. *)
Inductive hv := HText (s : string)
  | HEl (tag : string) (attrs : option (dict string av)) (kids : option (list hv)) (js : option (dict string string)) (click : bool).

(** The element constructor [getattr(h, tag)(attributes, children)], utils.py:158-162; [make_vdom_call] below relates it to [vdom_call]. *)
Definition plain_attrs (attrs : list (string * string)) : dict string av :=
  map (fun kv => (fst kv, AS (SStr (snd kv)))) (filter (fun kv => negb (event_name (fst kv))) attrs).
Definition js_attrs (attrs : list (string * string)) : dict string string := filter (fun kv => event_name (fst kv)) attrs.
Definition make (tag : string) (attrs : list (string * string)) (kids : list hv) : res hv :=
  let c := html_ctor tag in
  let A := plain_attrs attrs in
  match c_custom c with
  | NoCustom =>
      if negb (match kids with [] => true | _ => false end) && negb (c_allow c) then Err TypeError
      else Ok (HEl (c_tag c) (non_empty A) (non_empty kids) (non_empty (js_attrs attrs)) false)
  | CFragment =>
      if existsb (fun kv => negb (String.eqb (fst kv) "key")) A then Err TypeError
      else Ok (HEl "" (non_empty A) (non_empty kids) None false)
  | CScript =>
      let key := dget "key" A in
      match kids with
      | _ :: _ :: _ => Err ValueError
      | [HEl _ _ _ _ _] => Err ValueError
      | [HText s] => Ok (HEl "script" (Some (dset "key" (match key with Some k => k | None => AS (SStr s) end) A)) (Some kids) None false)
      | [] => Ok (HEl "script" (match (match key with Some k => Some k | None => dget "src" A end) with
                                | Some k => Some (dset "key" k A) | None => non_empty A end) None None false)
      end
  end.

(** It agrees with [vdom_call]. *)
Definition of_hv (h : hv) : pv := match h with HText s => PStr s | HEl _ _ _ _ _ => PMap false [] end.
Definition of_av (v : av) : pv := match v with AS (SStr s) => PStr s | _ => PNone end.
Definition of_attrs (attrs : list (string * string)) : list (string * pv) := map (fun kv => (fst kv, PStr (snd kv))) attrs.
Definition same_result (a : res hv) (b : res elem) : Prop :=
  match a, b with
  | Ok (HEl t attrs kids js false), Ok e =>
      e_tag e = t /\ e_attrs e = option_map (map (fun kv => (fst kv, of_av (snd kv)))) attrs /\ e_children e = option_map (map of_hv) kids /\
      e_js e = js /\ e_handlers e = None /\ e_import e = None
  | Err x, Err y => x = y
  | _, _ => False
  end.
Lemma make_vdom_call tag attrs kids : NoDup (map fst attrs) ->
  same_result (make tag attrs kids) (vdom_call (html_ctor tag) (PMap true (of_attrs attrs) :: map of_hv kids)).
Proof.
  intros ND. assert (FST : map fst (of_attrs attrs) = map fst attrs) by (unfold of_attrs; rewrite map_map; reflexivity).
  rewrite vdom_call_legal.
  2: { split; cbn [attrs_of]; [rewrite FST; auto|]. apply forallb_forall. intros [k v] I. unfold of_attrs in I. apply in_map_iff in I as ([k' v'] & E & _). injection E as <- <-. reflexivity. }
  assert (K : VdomModel.kids (PMap true (of_attrs attrs) :: map of_hv kids) = map of_hv kids).
  { unfold VdomModel.kids, flatten_children. cbn [separate_children snd]. induction kids as [|h kids IH]; [reflexivity|]. unfold flatten_children in *. cbn [map flat_map]. rewrite IH. destruct h; reflexivity. }
  rewrite K. cbn [attrs_of].
  assert (A : filter (of_kind KAttr) (of_attrs attrs) = map (fun kv => (fst kv, of_av (snd kv))) (plain_attrs attrs)).
  { clear. induction attrs as [|[k v] l IH]; [reflexivity|]. unfold of_attrs, plain_attrs in *. cbn [map filter fst snd]. rewrite of_kind_eq. cbn [rule]. rewrite event_key_eq.
    destruct (event_name k); cbn [negb map fst snd of_av]; rewrite IH; reflexivity. }
  assert (H : filter (of_kind KHandler) (of_attrs attrs) = []).
  { clear. induction attrs as [|[k v] l IH]; [reflexivity|]. unfold of_attrs in *. cbn [map filter fst snd]. rewrite of_kind_eq. cbn [rule]. destruct (event_key k); exact IH. }
  assert (J : map_snd as_js (filter (of_kind KJs) (of_attrs attrs)) = js_attrs attrs).
  { clear. induction attrs as [|[k v] l IH]; [reflexivity|]. unfold of_attrs, js_attrs, map_snd in *. cbn [map filter fst snd]. rewrite of_kind_eq. cbn [rule]. rewrite event_key_eq.
    destruct (event_name k); cbn [map fst snd as_js]; rewrite IH; reflexivity. }
  rewrite A, H, J. clear A H J K. set (P := plain_attrs attrs). set (pm := fun kv : string * av => (fst kv, of_av (snd kv))).
  assert (PL : forall kv, In kv P -> exists s, snd kv = AS (SStr s)).
  { intros kv I. unfold P, plain_attrs in I. apply in_map_iff in I as (x & <- & _). eexists. reflexivity. }
  assert (NE : forall {X Y} (f : X -> Y) l, non_empty (map f l) = option_map (map f) (non_empty l)) by (intros X Y f [|x l]; reflexivity).
  assert (GET : forall k, opt_none (dget k (map pm P)) = option_map of_av (dget k P)).
  { intros k. clearbody P. clear -PL. induction P as [|[k' v] P IH]; [reflexivity|]. cbn [map pm fst snd dget]. destruct (eq_dec k k').
    - destruct (PL (k', v)) as [s E]; [left; auto|]. cbn in E. subst v. reflexivity.
    - apply IH. intros kv I. apply PL. right. auto. }
  assert (SET : forall k v d, map pm (dset k v d) = dset k (of_av v) (map pm d)).
  { intros k v. induction d as [|[k' v'] d IH]; [reflexivity|]. cbn [dset map pm fst snd]. destruct (eq_dec k k'); cbn [map pm fst snd]; [reflexivity|]. rewrite IH. reflexivity. }
  assert (KN : match map of_hv kids with [] => true | _ => false end = match kids with [] => true | _ => false end) by (destruct kids; reflexivity).
  unfold make. fold P. destruct (c_custom (html_ctor tag)) eqn:C.
  - rewrite KN. destruct (_ && _); [reflexivity|]. cbn. rewrite !NE.
    assert (I : c_import (html_ctor tag) = None) by (unfold html_ctor; destruct (String.eqb _ _); [reflexivity|]; destruct (String.eqb _ _); reflexivity). auto 10.
  - assert (AL : c_allow (html_ctor tag) = true /\ c_tag (html_ctor tag) = "") by (revert C; unfold html_ctor; destruct (String.eqb _ _); [discriminate|]; destruct (String.eqb _ _); [auto|discriminate]).
    destruct AL as [-> ->]. unfold fragment. cbn [map_snd map]. rewrite orb_false_r.
    assert (E : existsb (fun kv : string * pv => negb (String.eqb (fst kv) "key")) (map pm P) = existsb (fun kv : string * av => negb (String.eqb (fst kv) "key")) P).
    { clear. induction P as [|[k v] P IH]; [reflexivity|]. cbn [map existsb pm fst]. rewrite IH. reflexivity. }
    rewrite E. destruct (existsb _ P); [reflexivity|]. cbn [negb]. rewrite andb_false_r. cbn. rewrite !NE. auto 10.
  - assert (AL : c_allow (html_ctor tag) = true /\ c_tag (html_ctor tag) = "script") by (revert C; unfold html_ctor; destruct (String.eqb _ _); [auto|]; destruct (String.eqb _ _); discriminate).
    destruct AL as [-> ->]. unfold script. cbn [map_snd map negb]. rewrite !GET, andb_false_r.
    destruct kids as [|c [|c2 ks]]; cbn [map].
    + destruct (dget "key" P) as [k|]; cbn [option_map]; [cbn; rewrite SET; auto 10|]. destruct (dget "src" P) as [k|]; cbn [option_map]; cbn; [rewrite SET; auto 10|]. rewrite NE. auto 10.
    + destruct c as [s|]; cbn [of_hv is_str]; [|reflexivity]. destruct (dget "key" P) as [k|]; cbn; rewrite SET; auto 10.
    + destruct c; reflexivity.
Qed.
(** [RequiredTransforms], transforms.py:19-161; the methods run in the order of [dir], that is alphabetically. *)
Definition truthy (v : av) : bool :=
  match v with AS (SStr "") => false | AMany [] => false | AStyle [] => false | _ => true end.
(** [infer_key_from_attributes], transforms.py:98-117. *)
Definition infer_key (tag : string) (attrs : option (dict string av)) : option (dict string av) :=
  match attrs with
  | None | Some [] => attrs
  | Some d =>
      let key := match dget "key" d with Some k => Some k | None =>
                 match dget "id" d with Some k => Some k | None =>
                 if mem tag ["input"; "select"; "textarea"] then dget "name" d else None end end in
      match key with
      | Some k => if truthy k && negb (dmem "key" d) then Some (dset "key" k d) else attrs
      | None => attrs
      end
  end.
Definition or_empty (attrs : option (dict string av)) : dict string av := match attrs with Some d => d | None => [] end.
(** [input_element_value_prop_to_defaultValue], transforms.py:83-96. *)
Definition input_value (tag : string) (attrs : option (dict string av)) : option (dict string av) :=
  if String.eqb tag "input"
  then let d := or_empty attrs in
       Some (match dget "value" d with Some v => dset "defaultValue" v (ddel "value" d) | None => d end)
  else attrs.
(** [normalize_style_attributes], transforms.py:33-47. *)
Definition normalize_style (attrs : option (dict string av)) : option (dict string av) :=
  match attrs with
  | Some d => match dget "style" d with Some (AS (SStr s)) => Some (dset "style" (AStyle (parse_style s)) d) | _ => attrs end
  | None => None
  end.
(** [_parse_options], transforms.py:132-153: the changed tree and the selected values. A missing [children] raises
    [KeyError]; an empty list of children is never built. *)
Definition as_sval (v : av) : sval := match v with AS x => x | _ => SObj end.
Definition first_value (c : hv) : sval := match c with HText s => SStr s | HEl _ _ _ _ _ => SObj end.
Definition option_attrs (d : dict string av) (c : hv) : dict string av * list sval :=
  let d1 := dsetdefault "value" (AS (first_value c)) d in
  let v := match dget "value" d1 with Some v => as_sval v | None => SObj end in
  if dmem "selected" d1 then (ddel "selected" d1, [v]) else (d1, []).
Fixpoint parse_options (h : hv) : res (hv * list sval) :=
  match h with
  | HText s => Ok (h, [])
  | HEl tag attrs kids js click =>
      match (match attrs with
             | Some d => if String.eqb tag "option"
                         then match kids with
                              | Some (c :: _) => let (d', sel) := option_attrs d c in Ok (Some d', sel)
                              | _ => Err KeyError
                              end
                         else Ok (attrs, [])
             | None => Ok (attrs, [])
             end) with
      | Err e => Err e
      | Ok (attrs', sel) =>
          match kids with
          | None => Ok (HEl tag attrs' None js click, sel)
          | Some l =>
              match (fix go (l : list hv) : res (list hv * list sval) :=
                match l with
                | [] => Ok ([], [])
                | c :: l' => match parse_options c with
                             | Err e => Err e
                             | Ok (c', s1) => match go l' with Err e => Err e | Ok (l2, s2) => Ok (c' :: l2, s1 ++ s2) end
                             end
                end) l with
              | Err e => Err e
              | Ok (l', sel') => Ok (HEl tag attrs' (Some l') js click, sel ++ sel')
              end
          end
      end
  end.
(** [select_element_to_reactjs], transforms.py:63-81. *)
Definition select_transform (h : hv) : res hv :=
  match h with
  | HEl tag attrs (Some kids) js click =>
      if String.eqb tag "select" then
        match parse_options (HEl tag (Some (or_empty attrs)) (Some kids) js click) with
        | Err e => Err e
        | Ok (HEl tag' (Some d) kids' js' click', sel) =>
            let multi := dmem "multiple" d in
            let d1 := if multi then dset "multiple" ATrue d else d in
            let d2 := match sel with
                      | [] => d1
                      | s :: _ => if multi then dset "defaultValue" (AMany sel) d1 else dset "defaultValue" (AS s) d1
                      end in
            Ok (HEl tag' (Some d2) kids' js' click')
        | Ok (h', _) => Ok h'
        end
      else Ok h
  | _ => Ok h
  end.
(** [textarea_children_to_prop], transforms.py:49-61. *)
Definition text_of (c : hv) : string := match c with HText s => s | HEl _ _ _ _ _ => "" end.
Definition textarea_transform (h : hv) : hv :=
  match h with
  | HEl tag attrs (Some (c :: l)) js click =>
      if String.eqb tag "textarea" then
        let text := join "" (map text_of (c :: l)) in
        let d := or_empty attrs in
        let default := match dget "defaultValue" d with Some v => v | None => AS (SStr "") end in
        HEl tag (Some (dset "defaultValue" (if String.eqb text "" then default else AS (SStr text)) (ddel "defaultValue" d))) None js click
      else h
  | _ => h
  end.
(** [RequiredTransforms.__init__] with [intercept_link_clicks] (transforms.py:119-130). *)
Definition required_transforms (intercept : bool) (h : hv) : res hv :=
  match h with
  | HText _ => Ok h
  | HEl tag attrs kids js click =>
      let a1 := infer_key tag attrs in
      let a2 := input_value tag a1 in
      let click' := click || (intercept && String.eqb tag "a") in
      let a3 := normalize_style a2 in
      match select_transform (HEl tag a3 kids js click') with
      | Err e => Err e
      | Ok h' => Ok (textarea_transform h')
      end
  end.
(** [_etree_to_vdom] and [_generate_vdom_children], utils.py:145-171, 218-237. [user]: the user's transforms. *)
Definition opt_text (t : string) : list hv := if String.eqb t "" then [] else [HText t].
Fixpoint back (intercept : bool) (user : list (hv -> hv)) (e : et) {struct e} : res hv :=
  match e with
  | ENode tag attrs text kids =>
      match (fix go (l : list (et * string)) : res (list hv) :=
        match l with
        | [] => Ok []
        | (c, tail) :: l' => match back intercept user c with
                             | Err e => Err e
                             | Ok h => match go l' with Err e => Err e | Ok hs => Ok (h :: opt_text tail ++ hs) end
                             end
        end) kids with
      | Err e => Err e
      | Ok hs =>
          match make tag (attributes_to_reactjs attrs) (opt_text text ++ hs) with
          | Err e => Err e
          | Ok h => match required_transforms intercept h with
                    | Err er => Err er
                    | Ok h' => Ok (fold_left (fun h f => f h) user h')
                    end
          end
      end
  end.
Definition back_kids (intercept : bool) (user : list (hv -> hv)) : list (et * string) -> res (list hv) :=
  fix go (l : list (et * string)) : res (list hv) :=
    match l with
    | [] => Ok []
    | (c, tail) :: l' => match back intercept user c with
                         | Err e => Err e
                         | Ok h => match go l' with Err e => Err e | Ok hs => Ok (h :: opt_text tail ++ hs) end
                         end
    end.
(** The children read from a container with content [b]. *)
Definition back_body intercept user (b : body) : res (list hv) :=
  match back_kids intercept user (snd b) with Err e => Err e | Ok hs => Ok (opt_text (fst b) ++ hs) end.

(** ** C42: specification *)

(** VDOM without components and fragments. *)
Inductive nv := NText (s : string) | NEl (tag : string) (attrs : list (string * ival)) (kids : list nv).
(** Adjacent texts are merged, empty ones dropped. *)
Fixpoint merge (l : list nv) : list nv :=
  match l with
  | [] => []
  | NText s :: l' =>
      if String.eqb s "" then merge l'
      else match merge l' with NText t :: m => NText (s ++ t) :: m | m => NText s :: m end
  | n :: l' => n :: merge l'
  end.
(** Components rendered, fragments inlined. *)
Fixpoint expand (v : vd) : list nv :=
  match v with
  | VAtom a => [NText (match a with TStr s => s | TNone => "None" | TOther s => s end)]
  | VEl tag attrs kids =>
      let l := (fix go l := match l with [] => [] | c :: l' => expand c ++ go l' end) kids in
      if String.eqb tag "" then l else [NEl tag attrs (merge l)]
  | VComp (VAtom TNone) => []
  | VComp (VAtom (TStr s)) => [NEl "div" [] (merge [NText s])]
  | VComp (VAtom (TOther _)) => [NEl "div" [] []]
  | VComp r => expand r
  end.
Definition expand_all (l : list vd) : list nv := flat_map expand l.
(** The VDOM expected for a node: same tag, attributes and children; links are intercepted if asked for. *)
Definition value_of (v : ival) : av := match v with IStr s => AS (SStr s) | IStyle d => AStyle d | IOther s => AS (SStr s) | ICall => ATrue end.
Fixpoint as_hv (intercept : bool) (n : nv) : hv :=
  match n with
  | NText s => HText s
  | NEl tag attrs kids =>
      HEl tag (non_empty (map (fun kv => (fst kv, value_of (snd kv))) attrs)) (non_empty (map (as_hv intercept) kids)) None
        (intercept && String.eqb tag "a")
  end.

(** Where the conversion is exact: React names that HTML keeps apart, string values (and a style dictionary as in C43),
    no identifier from which a key is inferred, and tags that reading back does not transform. *)
Definition attr_ok (kv : string * ival) : Prop :=
  rename (html_name (fst kv)) = fst kv /\ event_key (fst kv) = false /\
  match snd kv with
  | IStr _ => fst kv <> "style"
  | IStyle d => fst kv = "style" /\ NoDup (map fst d) /\ Forall (fun kv => style_name (fst kv) /\ style_value (snd kv)) d
  | _ => False
  end.
Definition attrs_ok (attrs : list (string * ival)) : Prop :=
  NoDup (map fst attrs) /\ Forall attr_ok attrs /\ (In "id" (map fst attrs) -> In "key" (map fst attrs)).
Definition tag_ok (tag : string) : Prop :=
  tag_of tag tag /\ ~ In tag ["script"; "fragment"; "textarea"; "select"; "input"].
Fixpoint ok (v : vd) : Prop :=
  match v with
  | VAtom _ => True
  | VEl tag attrs kids =>
      (fix go l := match l with [] => True | c :: l' => ok c /\ go l' end) kids /\
      (tag = "" \/ (tag_ok tag /\ attrs_ok attrs /\ (In tag childless -> merge (expand_all kids) = [])))
  | VComp r => ok r
  end.
Definition ok_all (l : list vd) : Prop := Forall ok l.

(** ** C42: proof *)
Section vd_ind2.
  Variable P : vd -> Prop.
  Hypothesis HA : forall a, P (VAtom a).
  Hypothesis HE : forall tag attrs kids, Forall P kids -> P (VEl tag attrs kids).
  Hypothesis HC : forall r, P r -> P (VComp r).
  Fixpoint vd_ind2 (v : vd) : P v :=
    match v with
    | VAtom a => HA a
    | VEl tag attrs kids => HE tag attrs kids ((fix go l : Forall P l := match l with [] => Forall_nil _ | c :: l' => Forall_cons _ (vd_ind2 c) (go l') end) kids)
    | VComp r => HC r (vd_ind2 r)
    end.
End vd_ind2.

Definition ct (s : string) (m : list hv) : list hv :=
  if String.eqb s "" then m else match m with HText t :: m' => HText (s ++ t) :: m' | _ => HText s :: m end.
Definition step (h : hv) (m : list hv) : list hv := match h with HText s => ct s m | _ => h :: m end.
Definition mh (l : list hv) : list hv := fold_right step [] l.
Definition is_el (h : hv) : Prop := match h with HText _ => False | _ => True end.

Lemma merge_mh i l : map (as_hv i) (merge l) = mh (map (as_hv i) l).
Proof.
  induction l as [|n l IH]; [reflexivity|]. destruct n as [s|tag a k]; cbn [merge map as_hv mh fold_right step]; fold (mh (map (as_hv i) l)).
  - unfold ct. destruct (String.eqb s ""); [exact IH|]. rewrite <- IH. destruct (merge l) as [|[t|tag a k] m]; reflexivity.
  - rewrite <- IH. reflexivity.
Qed.
Lemma ct_ct a b m : ct a (ct b m) = ct (a ++ b) m.
Proof.
  unfold ct. destruct (String.eqb_spec a "") as [->|NA]; [reflexivity|].
  assert (NE : String.eqb (a ++ b) "" = false) by (destruct a; [congruence|reflexivity]). rewrite NE.
  destruct (String.eqb_spec b "") as [->|NB]; [rewrite app_nil_s; reflexivity|].
  destruct m as [|[t|? ? ? ? ?] m]; try rewrite app_assoc_s; reflexivity.
Qed.
Lemma mh_app x y : mh (x ++ y) = fold_right step (mh y) x.
Proof. unfold mh. apply fold_right_app. Qed.
Lemma fold_mh m x : fold_right step m (mh x) = fold_right step m x.
Proof.
  induction x as [|h x IH]; [reflexivity|]. cbn [mh fold_right]. fold (mh x). destruct h as [s|? ? ? ? ?]; cbn [step].
  - rewrite <- IH. unfold ct at 1. destruct (String.eqb_spec s "") as [->|N]; [reflexivity|].
    destruct (mh x) as [|[t|? ? ? ? ?] m'] eqn:E; cbn [fold_right step]; try reflexivity. rewrite ct_ct. reflexivity.
  - cbn [fold_right step]. rewrite IH. reflexivity.
Qed.
Lemma mh_left x x' y : mh x = mh x' -> mh (x ++ y) = mh (x' ++ y).
Proof. intros H. rewrite !mh_app, <- (fold_mh _ x), H, fold_mh. reflexivity. Qed.

(** The content of a container, as reading it back sees it: every text, also the empty ones. *)
Fixpoint inter (hs : list hv) (kids : list (et * string)) : list hv :=
  match hs, kids with h :: hs', (_, t) :: kids' => h :: HText t :: inter hs' kids' | _, _ => [] end.
Section rt.
  Variable i : bool.
  Definition seen (b : body) (l : list hv) : Prop :=
    exists hs, Forall2 (fun kt h => back i [] (fst kt) = Ok h /\ is_el h) (snd b) hs /\ l = HText (fst b) :: inter hs (snd b).
  Lemma opt_text_ct t m : (match m with HText _ :: _ => False | _ => True end) -> opt_text t ++ m = ct t m.
  Proof. intros H. unfold opt_text, ct. destruct (String.eqb t ""); [reflexivity|]. destruct m as [|[]]; try reflexivity. destruct H. Qed.
  Lemma seen_kids kids hs : Forall2 (fun kt h => back i [] (fst kt) = Ok h /\ is_el h) kids hs ->
    back_kids i [] kids = Ok (mh (inter hs kids)) /\ (match mh (inter hs kids) with HText _ :: _ => False | _ => True end).
  Proof.
    induction 1 as [|[e t] h kids hs [B E] F [IH1 IH2]]; [split; [reflexivity|exact I]|]. cbn [back_kids fst] in *. rewrite B, IH1. cbn [inter mh fold_right]. fold (mh (inter hs kids)).
    destruct h as [|tag a k js c]; [destruct E|]. cbn [step]. split; [|exact I]. rewrite opt_text_ct by auto. reflexivity.
  Qed.
  Lemma seen_body b l : seen b l -> back_body i [] b = Ok (mh l).
  Proof.
    intros (hs & F & ->). destruct b as [t kids]. cbn [fst snd] in *. unfold back_body. cbn [fst snd]. destruct (seen_kids _ _ F) as [-> N].
    cbn [mh fold_right step]. fold (mh (inter hs kids)). rewrite opt_text_ct by auto. reflexivity.
  Qed.
  Lemma seen_text b l c : seen b l -> exists l', seen (add_text c b) l' /\ mh l' = mh (l ++ [HText c]).
  Proof.
    intros (hs & F & ->). destruct b as [t kids]. cbn [fst snd] in *. destruct F as [|kt h kids hs B F].
    - exists [HText (t ++ c)]. split; [exists []; split; [constructor|reflexivity]|]. cbn [inter app mh fold_right step]. rewrite ct_ct. reflexivity.
    - exists (HText t :: inter (h :: hs) (add_tail c (kt :: kids))). split.
      + exists (h :: hs). split; [|reflexivity]. cbn [add_text snd]. clear t. revert kt h B. induction F as [|kt2 h2 kids hs B2 F IH]; intros kt h B.
        * destruct kt as [e t]. repeat constructor; apply B.
        * destruct kt as [e t]. change (add_tail c ((e, t) :: kt2 :: kids)) with ((e, t) :: add_tail c (kt2 :: kids)). constructor; auto.
      + assert (G : mh (inter (h :: hs) (add_tail c (kt :: kids))) = mh (inter (h :: hs) (kt :: kids) ++ [HText c])).
        { clear t. revert kt h B. induction F as [|kt2 h2 kids hs B2 F IH]; intros kt h [B E]; destruct kt as [e t]; destruct h as [|tag a k js cl]; try destruct E.
          - cbn. rewrite ct_ct. reflexivity.
          - change (add_tail c ((e, t) :: kt2 :: kids)) with ((e, t) :: add_tail c (kt2 :: kids)).
            specialize (IH kt2 h2 B2). cbn [inter] in IH |- *. cbn [app mh fold_right step]. f_equal. f_equal.
            change (fold_right step [] (?x)) with (mh x) in *. exact IH. }
        cbn [mh fold_right app step]. change (fold_right step []) with mh. rewrite G. reflexivity.
  Qed.
  Lemma seen_node b l e h : seen b l -> back i [] e = Ok h -> is_el h -> exists l', seen (put_node e b) l' /\ mh l' = mh (l ++ [h]).
  Proof.
    intros (hs & F & ->) B E. exists (HText (fst b) :: inter hs (snd b) ++ [h; HText ""]). split.
    - exists (hs ++ [h]). unfold put_node. cbn [fst snd]. split.
      + apply Forall2_app; auto.
      + f_equal. clear - F. induction F as [|[e' t] h' kids hs X F IH]; [reflexivity|]. cbn [inter app]. rewrite IH. reflexivity.
    - change (HText (fst b) :: inter hs (snd b) ++ [h; HText ""]) with ((HText (fst b) :: inter hs (snd b)) ++ [h; HText ""]). rewrite !mh_app. reflexivity.
  Qed.

  (** Attributes. *)
  Definition str_of (v : ival) : string := match html_value v with Some s => s | None => "" end.
  Lemma attrs_html_ok attrs : forall d, Forall attr_ok attrs -> NoDup (map fst d ++ map (fun kv => html_name (fst kv)) attrs) ->
    attrs_html attrs d = Ok (d ++ map (fun kv => (html_name (fst kv), str_of (snd kv))) attrs).
  Proof.
    induction attrs as [|[k v] attrs IH]; intros d F ND; [simpl; rewrite app_nil_r; reflexivity|]. inversion F as [|? ? [A1 [A2 A3]] F']; subst. cbn [attrs_html map fst snd] in *.
    assert (NI := NoDup_remove_2 _ _ _ ND). rewrite in_app_iff in NI.
    destruct (html_value v) as [s|] eqn:E; [|destruct v; try discriminate; tauto]. rewrite dset_fresh' by tauto. rewrite IH; auto.
    - unfold str_of at 2. rewrite E, <- app_assoc. reflexivity.
    - rewrite map_app, <- app_assoc. exact ND.
  Qed.
  Lemma names_back attrs : NoDup (map fst attrs) -> Forall attr_ok attrs -> NoDup (map (fun kv : string * ival => html_name (fst kv)) attrs).
  Proof.
    intros ND F. apply (NoDup_map_inv rename). rewrite map_map. rewrite (map_ext_in _ fst); auto. intros kv I. rewrite Forall_forall in F. apply F in I. apply I.
  Qed.
  Lemma rename_attrs attrs : NoDup (map fst attrs) -> Forall attr_ok attrs ->
    attributes_to_reactjs (map (fun kv => (html_name (fst kv), str_of (snd kv))) attrs) = map (fun kv => (fst kv, str_of (snd kv))) attrs.
  Proof.
    intros ND F. unfold attributes_to_reactjs.
    assert (R : map (fun kv : string * string => rename (fst kv)) (map (fun kv => (html_name (fst kv), str_of (snd kv))) attrs) = map fst attrs).
    { rewrite map_map. apply map_ext_in. intros kv I. rewrite Forall_forall in F. apply F in I. apply I. }
    rewrite fold_dset_nodup; [|simpl; rewrite R; auto]. cbn [app]. rewrite map_map. apply map_ext_in. intros kv I. rewrite Forall_forall in F. apply F in I. cbn [fst snd]. f_equal. apply I.
  Qed.
  Lemma plain_ok attrs : Forall attr_ok attrs ->
    plain_attrs (map (fun kv => (fst kv, str_of (snd kv))) attrs) = map (fun kv => (fst kv, AS (SStr (str_of (snd kv))))) attrs /\
    js_attrs (map (fun kv => (fst kv, str_of (snd kv))) attrs) = [].
  Proof.
    induction 1 as [|[k v] attrs [A1 [A2 A3]] F [IH1 IH2]]; [split; reflexivity|]. unfold plain_attrs, js_attrs in *. cbn [map filter fst snd] in *. rewrite event_key_eq in A2. rewrite A2. cbn [negb].
    cbn [map fst snd]. rewrite IH1. auto.
  Qed.
  Lemma dget_map_In {V W} (f : V -> W) (attrs : list (string * V)) (k : string) :
    dget k (map (fun kv => (fst kv, f (snd kv))) attrs) = option_map f (dget k attrs).
  Proof. induction attrs as [|[k' v] attrs IH]; [reflexivity|]. cbn [map dget fst snd]. destruct (eq_dec k k'); auto. Qed.
  Lemma dget_In {V} (k : string) (d : dict string V) : dget k d <> None -> In k (map fst d).
  Proof. induction d as [|[k' v] d IH]; cbn [dget map fst In]; [congruence|]. destruct (eq_dec k k') as [->|N]; auto. Qed.
  Lemma infer_ok tag (d : dict string av) : tag_ok tag -> (dget "key" d = None -> dget "id" d = None) -> infer_key tag (non_empty d) = non_empty d.
  Proof.
    intros [T1 T2] A. destruct d as [|x d'] eqn:DD; [reflexivity|]. rewrite <- DD in *. assert (N : non_empty d = Some d) by (rewrite DD; reflexivity). rewrite N.
    assert (MT : mem tag ["input"; "select"; "textarea"] = false) by (apply mem_not_In; simpl in *; tauto).
    assert (G : infer_key tag (Some d) = match (match dget "key" d with Some k => Some k | None =>
                 match dget "id" d with Some k => Some k | None => if mem tag ["input"; "select"; "textarea"] then dget "name" d else None end end) with
      | Some k => if truthy k && negb (dmem "key" d) then Some (dset "key" k d) else Some d | None => Some d end) by (rewrite DD; reflexivity).
    rewrite G. destruct (dget "key" d) as [kv|] eqn:K.
    - assert (X : dmem "key" d = true) by (apply dmem_true; eauto). rewrite X, andb_false_r. reflexivity.
    - rewrite A, MT by auto. reflexivity.
  Qed.
  Lemma attrs_id attrs (f : ival -> av) : attrs_ok attrs -> dget "key" (map (fun kv => (fst kv, f (snd kv))) attrs) = None -> dget "id" (map (fun kv => (fst kv, f (snd kv))) attrs) = None.
  Proof.
    intros (A1 & A2 & A3). rewrite !dget_map_In. destruct (dget "key" attrs) eqn:K; [discriminate|]. intros _. destruct (dget "id" attrs) eqn:ID; [|reflexivity].
    exfalso. assert (I : In "key" (map fst attrs)) by (apply A3; apply dget_In; congruence). apply dget_None in K. auto.
  Qed.
  Lemma style_ok attrs : attrs_ok attrs -> normalize_style (non_empty (map (fun kv => (fst kv, AS (SStr (str_of (snd kv))))) attrs)) =
    non_empty (map (fun kv => (fst kv, value_of (snd kv))) attrs).
  Proof.
    intros (ND & F & _).
    assert (G : match dget "style" (map (fun kv => (fst kv, AS (SStr (str_of (snd kv))))) attrs) with
      | Some (AS (SStr s)) => dset "style" (AStyle (parse_style s)) (map (fun kv => (fst kv, AS (SStr (str_of (snd kv))))) attrs)
      | _ => map (fun kv => (fst kv, AS (SStr (str_of (snd kv))))) attrs end = map (fun kv => (fst kv, value_of (snd kv))) attrs).
    { rewrite (dget_map_In (fun v => AS (SStr (str_of v)))). induction F as [|[k v] attrs [A1 [A2 A3]] F IH]; [reflexivity|]. inversion ND as [|? ? NI ND']; subst. specialize (IH ND').
      cbn [dget fst snd] in *. destruct (eq_dec "style" k) as [<-|N].
      - cbn [option_map map fst snd dset]. destruct (eq_dec "style" "style") as [_|X]; [|congruence]. destruct v as [s|d|s|]; try tauto.
        destruct A3 as (_ & A4 & A5). unfold str_of at 1. cbn [html_value value_of]. rewrite C43_roundtrip by auto. f_equal.
        destruct (dget "style" attrs) eqn:DS; [exfalso; apply NI; apply dget_In; congruence|]. cbn [option_map] in IH. exact IH.
      - destruct (dget "style" attrs) as [w|] eqn:DS; cbn [option_map] in *.
        + cbn [map fst snd dset]. destruct (eq_dec "style" k); [congruence|]. destruct v as [s|d|s|]; try tauto; [|destruct A3; congruence]. cbn [value_of str_of html_value].
          f_equal. exact IH.
        + cbn [map fst snd]. destruct v as [s|d|s|]; try tauto; [|destruct A3; congruence]. cbn [value_of str_of html_value]. f_equal. exact IH. }
    destruct attrs as [|kv attrs'] eqn:E; [reflexivity|]. rewrite <- E in *.
    assert (N1 : forall W (f : string * ival -> W), non_empty (map f attrs) = Some (map f attrs)) by (intros; rewrite E; reflexivity). rewrite !N1. cbn [normalize_style].
    rewrite <- G. destruct (dget "style" _) as [[[s|]|l|d|]|]; reflexivity.
  Qed.
  Lemma make_ok tag attrs kids : tag_ok tag -> attrs_ok attrs -> (In tag childless -> kids = []) ->
    exists h, make tag (map (fun kv => (fst kv, str_of (snd kv))) attrs) kids = Ok h /\
      required_transforms i h = Ok (HEl tag (non_empty (map (fun kv => (fst kv, value_of (snd kv))) attrs)) (non_empty kids) None (i && String.eqb tag "a")).
  Proof.
    intros T A V. assert (T0 := T). destruct T as [T1 T2]. apply tag_of_spec in T1. symmetry in T1. unfold make. unfold html_ctor. rewrite T1.
    assert (N1 : String.eqb tag "script" = false) by (apply String.eqb_neq; intros ->; apply T2; simpl; tauto).
    assert (N2 : String.eqb tag "fragment" = false) by (apply String.eqb_neq; intros ->; apply T2; simpl; tauto).
    assert (N3 : String.eqb tag "textarea" = false) by (apply String.eqb_neq; intros ->; apply T2; simpl; tauto).
    assert (N4 : String.eqb tag "select" = false) by (apply String.eqb_neq; intros ->; apply T2; simpl; tauto).
    assert (N5 : String.eqb tag "input" = false) by (apply String.eqb_neq; intros ->; apply T2; simpl; tauto).
    rewrite N1, N2. cbn [c_custom c_allow c_tag]. destruct (plain_ok attrs) as [P1 P2]; [apply A|]. rewrite P1, P2.
    assert (C : negb (match kids with [] => true | _ => false end) && negb (negb (mem tag no_children_html)) = false).
    { destruct (mem tag no_children_html) eqn:M; [|apply andb_false_r]. apply mem_In, childless_iff in M. rewrite V by auto. reflexivity. }
    rewrite C. eexists. split; [reflexivity|]. cbn [required_transforms]. rewrite infer_ok; auto; [|apply (attrs_id attrs (fun v => AS (SStr (str_of v)))); auto].
    unfold input_value. rewrite N5, style_ok by auto. cbn [orb].
    destruct kids as [|c kids]; cbn [non_empty select_transform textarea_transform]; [reflexivity|]. rewrite N4. cbn [textarea_transform]. rewrite N3. reflexivity.
  Qed.
  Lemma back_node tag attrs d t ks l : tag_ok tag -> attrs_ok attrs -> attrs_html attrs [] = Ok d -> seen (t, ks) l -> (In tag childless -> mh l = []) ->
    back i [] (ENode tag d t ks) = Ok (HEl tag (non_empty (map (fun kv => (fst kv, value_of (snd kv))) attrs)) (non_empty (mh l)) None (i && String.eqb tag "a")).
  Proof.
    intros T A HD S V. assert (B := seen_body _ _ S). unfold back_body in B. cbn [fst snd] in B.
    assert (E : d = map (fun kv => (html_name (fst kv), str_of (snd kv))) attrs).
    { destruct A as (ND & F & _). rewrite attrs_html_ok in HD; auto; [injection HD as <-; reflexivity|]. simpl. apply names_back; auto. }
    cbn [back]. change (fix go (l : list (et * string)) : res (list hv) :=
        match l with [] => Ok [] | (c, tail) :: l' => match back i [] c with Err e => Err e | Ok h => match go l' with Err e => Err e | Ok hs => Ok (h :: opt_text tail ++ hs) end end end) with (back_kids i []).
    destruct (back_kids i [] ks) as [hs|e]; [|discriminate]. injection B as B. rewrite B, E, rename_attrs by apply A.
    destruct (make_ok tag attrs (mh l) T A V) as (h & -> & ->). reflexivity.
  Qed.
  Lemma add_ok v : ok v -> forall b l, seen b l -> exists b' l', add v b = Ok b' /\ seen b' l' /\ mh l' = mh (l ++ map (as_hv i) (expand v)).
  Proof.
    induction v as [a|tag attrs kids IH|r IH] using vd_ind2; intros O b l S.
    - destruct (seen_text b l (show a) S) as (l' & S' & M). exists (add_text (show a) b), l'. split; [reflexivity|]. split; auto.
    - destruct O as [OK OT].
      assert (OK' : Forall ok kids). { clear - OK. induction kids as [|c kids IH]; constructor; destruct OK; auto. }
      assert (GO : forall kids, Forall (fun v => ok v -> forall b l, seen b l -> exists b' l', add v b = Ok b' /\ seen b' l' /\ mh l' = mh (l ++ map (as_hv i) (expand v))) kids ->
                Forall ok kids -> forall b l, seen b l -> exists b' l', add_all kids b = Ok b' /\ seen b' l' /\ mh l' = mh (l ++ map (as_hv i) (expand_all kids))).
      { clear. induction kids as [|c kids IH]; intros F O b l S.
        - exists b, l. split; [reflexivity|]. split; auto. simpl. rewrite app_nil_r. auto.
        - inversion F as [|? ? F1 F2]; subst. inversion O as [|? ? O1 O2]; subst. destruct (F1 O1 b l S) as (b1 & l1 & A1 & S1 & M1).
          destruct (IH F2 O2 b1 l1 S1) as (b2 & l2 & A2 & S2 & M2). exists b2, l2. split; [cbn [add_all]; rewrite A1; exact A2|]. split; auto.
          rewrite M2. unfold expand_all. cbn [flat_map]. rewrite map_app, app_assoc. apply mh_left. auto. }
      cbn [add expand]. change (fix go l := match l with [] => [] | c :: l' => expand c ++ go l' end) with (flat_map expand).
      change (fix go (l : list vd) (b : body) : res body := match l with [] => Ok b | c :: l' => match add c b with Ok b' => go l' b' | Err e => Err e end end) with add_all.
      change (flat_map expand kids) with (expand_all kids).
      destruct (String.eqb_spec tag "") as [->|NT]; [apply GO; auto|]. destruct OT as [->|(T & A & V)]; [congruence|].
      destruct (attrs_html attrs []) as [d|e] eqn:HD.
      2:{ exfalso. destruct A as (ND & F & _). rewrite attrs_html_ok in HD; auto; [discriminate|]. simpl. apply names_back; auto. }
      assert (S0 : seen ("", []) [HText ""]) by (exists []; split; [constructor|reflexivity]).
      destruct (GO kids IH OK' _ _ S0) as ([t ks] & l1 & -> & S1 & M1).
      assert (M2 : mh l1 = map (as_hv i) (merge (expand_all kids))) by (rewrite merge_mh, M1; reflexivity).
      assert (B := back_node tag attrs d t ks l1 T A HD S1 ltac:(intros I; rewrite M2, V by auto; reflexivity)).
      destruct (seen_node b l _ _ S B I) as (l' & S' & M'). eexists; exists l'. split; [reflexivity|]. split; auto. rewrite M', M2. reflexivity.
    - destruct r as [[s| |s]|tag attrs kids|r']; try (apply IH; auto; fail).
      + assert (B : back i [] (ENode "div" [] s []) = Ok (HEl "div" None (non_empty (opt_text s)) None false)).
        { cbn [back]. unfold make. cbn. rewrite app_nil_r. unfold opt_text. destruct (String.eqb s ""); cbn; rewrite andb_false_r; reflexivity. }
        destruct (seen_node b l _ _ S B I) as (l' & S' & M'). eexists; exists l'. split; [reflexivity|]. split; auto. rewrite M'. cbn [expand map as_hv]. rewrite andb_false_r.
        assert (X : opt_text s = map (as_hv i) (merge [NText s])) by (unfold opt_text; simpl; destruct (String.eqb s ""); reflexivity). rewrite X. reflexivity.
      + exists b, l. split; [reflexivity|]. split; auto. simpl. rewrite app_nil_r. auto.
      + assert (B : back i [] (ENode "div" [] "" []) = Ok (HEl "div" None None None false)) by (cbn; rewrite andb_false_r; reflexivity).
        destruct (seen_node b l _ _ S B I) as (l' & S' & M'). eexists; exists l'. split; [reflexivity|]. split; auto. rewrite M'. cbn [expand map as_hv]. rewrite andb_false_r. reflexivity.
  Qed.
End rt.

(** Converting to an element tree and back restores the VDOM, with components rendered, fragments inlined and adjacent
    texts merged. *)
Theorem C42_roundtrip i v : ok v -> exists b, add v ("", []) = Ok b /\ back_body i [] b = Ok (map (as_hv i) (merge (expand v))).
Proof.
  intros O. assert (S0 : seen i ("", []) [HText ""]) by (exists []; split; [constructor|reflexivity]).
  destruct (add_ok i v O _ _ S0) as (b & l & A & S & M). exists b. split; auto. rewrite (seen_body i _ _ S), M, merge_mh. reflexivity.
Qed.

Definition C42_sample : vd :=
  VEl "div" [("className", IStr "box"); ("tabIndex", IStr "0"); ("style", IStyle [("fontSize", "2px")]); ("data-id", IStr "7")]
    [VAtom (TStr "a"); VAtom (TStr ""); VEl "" [] [VAtom (TStr "b"); VEl "br" [] []]; VComp (VEl "p" [] [VAtom (TOther "3"); VComp (VAtom TNone); VAtom (TStr "c")]);
     VComp (VComp (VAtom (TStr "hi"))); VAtom (TStr "end")].
Example C42_example : ok C42_sample /\ exists b, add C42_sample ("", []) = Ok b /\
  back_body false [] b = Ok [HEl "div" (Some [("className", AS (SStr "box")); ("tabIndex", AS (SStr "0")); ("style", AStyle [("fontSize", "2px")]); ("data-id", AS (SStr "7"))])
    (Some [HText "ab"; HEl "br" None None None false; HEl "p" None (Some [HText "3c"]) None false; HEl "div" None (Some [HText "hi"]) None false; HText "end"]) None false].
Proof.
  assert (O : ok C42_sample).
  { assert (TK : forall t, dashes (rstrip_ t) = t -> mem t ["script"; "fragment"; "textarea"; "select"; "input"] = false -> tag_ok t) by (intros t H1 H2; split; [apply tag_of_spec; auto|apply mem_not_In; auto]).
    assert (NA : attrs_ok []) by (split; [constructor|split; [constructor|simpl; tauto]]).
    assert (NC : forall t l, mem t childless = false -> In t childless -> merge (expand_all l) = []) by (intros t l H1 H2; apply mem_not_In in H1; tauto).
    cbn [ok C42_sample]. split; [|right; split; [apply TK; reflexivity|split; [|apply NC; reflexivity]]].
    - repeat split; auto; right; (split; [apply TK; reflexivity|split; [exact NA|]]); try (apply NC; reflexivity); intros _; reflexivity.
    - split; [apply nodupb_sound; reflexivity|]. split; [|simpl; intuition discriminate].
      repeat (constructor; [split; [vm_compute; reflexivity|split; [reflexivity|]]|]); try constructor; try discriminate; auto.
      split; [apply nodupb_sound; reflexivity|]. repeat constructor; simpl; try discriminate; intros a H; injection H as <-; reflexivity. }
  split; auto. destruct (C42_roundtrip false _ O) as (b & A & B). exists b. split; auto. 
Qed.
(** Finding: a [None] child, which the live page leaves out, is written as the text "None". *)
Theorem C42_none_refuted : add (VEl "div" [] [VAtom TNone]) ("", []) = Ok ("", [(ENode "div" [] "None" [], "")]).
Proof. reflexivity. Qed.

(** ** C45 *)

(** The elements and texts below a node, itself first, in document order. *)
Fixpoint nodes (h : hv) : list hv :=
  h :: match h with
       | HText _ => []
       | HEl _ _ kids _ _ => match kids with Some l => (fix go l := match l with [] => [] | c :: l' => nodes c ++ go l' end) l | None => [] end
       end.
Definition nodes_all (l : list hv) : list hv := flat_map nodes l.
(** An option element with attributes has a first child. *)
Definition option_ok (h : hv) : Prop :=
  match h with HEl tag (Some _) kids _ _ => tag = "option" -> exists c l, kids = Some (c :: l) | _ => True end.
(** The value that a selected option contributes: its [value] attribute, otherwise its first child. *)
Definition option_value (d : dict string av) (kids : option (list hv)) : sval :=
  match dget "value" d with
  | Some (AS v) => v
  | Some _ => SObj
  | None => match kids with Some (HText s :: _) => SStr s | _ => SObj end
  end.
Definition selected_value (h : hv) : list sval :=
  match h with
  | HEl tag (Some d) kids _ _ => if String.eqb tag "option" then match dget "selected" d with Some _ => [option_value d kids] | None => [] end else []
  | _ => []
  end.
Definition selected (l : list hv) : list sval := flat_map selected_value (nodes_all l).
(** What may change: an option loses [selected] and gains [value]; nothing else. *)
Definition option_changed (d d' : dict string av) (kids : option (list hv)) : Prop :=
  dget "selected" d' = None /\
  dget "value" d' = Some (match dget "value" d with Some v => v | None => AS (option_value d kids) end) /\
  forall k, k <> "selected" -> k <> "value" -> dget k d' = dget k d.
Definition attrs_fixed (tag : string) (attrs attrs' : option (dict string av)) (kids : option (list hv)) : Prop :=
  match attrs, attrs' with
  | Some d, Some d' => if String.eqb tag "option" then option_changed d d' kids else d' = d
  | None, None => True
  | _, _ => False
  end.
Inductive fixed : hv -> hv -> Prop :=
| fixed_text s : fixed (HText s) (HText s)
| fixed_leaf tag attrs attrs' js click : attrs_fixed tag attrs attrs' None -> fixed (HEl tag attrs None js click) (HEl tag attrs' None js click)
| fixed_el tag attrs attrs' l l' js click : attrs_fixed tag attrs attrs' (Some l) -> Forall2 fixed l l' ->
    fixed (HEl tag attrs (Some l) js click) (HEl tag attrs' (Some l') js click).

Section hv_ind2.
  Variable P : hv -> Prop.
  Hypothesis HT : forall s, P (HText s).
  Hypothesis HN : forall tag attrs js click, P (HEl tag attrs None js click).
  Hypothesis HS : forall tag attrs l js click, Forall P l -> P (HEl tag attrs (Some l) js click).
  Fixpoint hv_ind2 (h : hv) : P h :=
    match h with
    | HText s => HT s
    | HEl tag attrs None js click => HN tag attrs js click
    | HEl tag attrs (Some l) js click =>
        HS tag attrs l js click ((fix go l : Forall P l := match l with [] => Forall_nil _ | c :: l' => Forall_cons _ (hv_ind2 c) (go l') end) l)
    end.
End hv_ind2.

Lemma option_attrs_spec d c l : option_changed d (fst (option_attrs d c)) (Some (c :: l)) /\
  snd (option_attrs d c) = match dget "selected" d with Some _ => [option_value d (Some (c :: l))] | None => [] end.
Proof.
  unfold option_attrs, dsetdefault. set (w := AS (first_value c)).
  assert (W : option_value d (Some (c :: l)) = match dget "value" d with Some v => as_sval v | None => first_value c end).
  { unfold option_value, first_value, as_sval. destruct (dget "value" d) as [[]|]; try reflexivity; destruct c; reflexivity. }
  assert (D1 : exists d1, (match dget "value" d with Some _ => d | None => dset "value" w d end) = d1 /\
     dget "value" d1 = Some (match dget "value" d with Some v => v | None => w end) /\ forall k, k <> "value" -> dget k d1 = dget k d).
  { eexists; split; [reflexivity|]. destruct (dget "value" d) eqn:E; [rewrite E; auto|]. split; [apply dget_dset_same|]. intros k N. apply dget_dset_other. auto. }
  destruct D1 as (d1 & E1 & V1 & O1).
  replace (if dmem "value" d then d else dset "value" w d) with d1.
  2:{ rewrite <- E1. destruct (dget "value" d) eqn:E; destruct (dmem "value" d) eqn:M; try reflexivity.
      - apply dmem_false in M. congruence.
      - apply dmem_true in M. destruct M. congruence. }
  rewrite V1. rewrite W.
  assert (SEL : dget "selected" d1 = dget "selected" d) by (apply O1; discriminate).
  destruct (dmem "selected" d1) eqn:M.
  - apply dmem_true in M. destruct M as [x M]. cbn [fst snd]. rewrite SEL in M. rewrite M. split.
    + unfold option_changed. rewrite W. split; [apply dget_ddel_same|]. split.
      * rewrite dget_ddel_other by discriminate. rewrite V1. destruct (dget "value" d); reflexivity.
      * intros k N1 N2. rewrite dget_ddel_other by auto. auto.
    + destruct (dget "value" d); reflexivity.
  - apply dmem_false in M. cbn [fst snd]. assert (M' := M). rewrite SEL in M'. rewrite M'. split; [|reflexivity].
    unfold option_changed. rewrite W. split; auto. split; [|auto]. rewrite V1. destruct (dget "value" d); reflexivity.
Qed.

Definition parse_all : list hv -> res (list hv * list sval) :=
  fix go (l : list hv) : res (list hv * list sval) :=
    match l with
    | [] => Ok ([], [])
    | c :: l' => match parse_options c with
                 | Err e => Err e
                 | Ok (c', s1) => match go l' with Err e => Err e | Ok (l2, s2) => Ok (c' :: l2, s1 ++ s2) end
                 end
    end.

Lemma parse_unfold tag attrs kids js click : parse_options (HEl tag attrs kids js click) =
  match (match attrs with
         | Some d => if String.eqb tag "option"
                     then match kids with Some (c :: _) => let (d', sel) := option_attrs d c in Ok (Some d', sel) | _ => Err KeyError end
                     else Ok (attrs, [])
         | None => Ok (attrs, [])
         end) with
  | Err e => Err e
  | Ok (attrs', sel) => match kids with None => Ok (HEl tag attrs' None js click, sel)
      | Some l => match parse_all l with Err e => Err e | Ok (l', sel') => Ok (HEl tag attrs' (Some l') js click, sel ++ sel') end end
  end.
Proof. destruct kids; reflexivity. Qed.
Lemma nodes_unfold tag attrs kids js click : nodes (HEl tag attrs kids js click) =
  HEl tag attrs kids js click :: match kids with Some l => nodes_all l | None => [] end.
Proof. destruct kids; reflexivity. Qed.
Definition attrs_step (tag : string) (attrs : option (dict string av)) (kids : option (list hv)) : res (option (dict string av) * list sval) :=
  match attrs with
  | Some d => if String.eqb tag "option"
              then match kids with Some (c :: _) => let (d', sel) := option_attrs d c in Ok (Some d', sel) | _ => Err KeyError end
              else Ok (attrs, [])
  | None => Ok (attrs, [])
  end.
Lemma attrs_step_ok tag attrs kids js click : option_ok (HEl tag attrs kids js click) ->
  exists attrs', attrs_step tag attrs kids = Ok (attrs', selected_value (HEl tag attrs kids js click)) /\ attrs_fixed tag attrs attrs' kids.
Proof.
  unfold attrs_step, attrs_fixed. destruct attrs as [d|]; cbn [option_ok selected_value]; intros O; [|exists None; auto].
  destruct (String.eqb_spec tag "option") as [->|N]; [|exists (Some d); auto]. destruct (O eq_refl) as (c & l & ->).
  destruct (option_attrs_spec d c l) as [H1 H2]. destruct (option_attrs d c) as [d' sel]. cbn [fst snd] in *. exists (Some d'). rewrite H2. auto.
Qed.
Lemma attrs_step_bad tag attrs kids js click : ~ option_ok (HEl tag attrs kids js click) -> attrs_step tag attrs kids = Err KeyError.
Proof.
  unfold attrs_step. destruct attrs as [d|]; cbn [option_ok]; intros O; [|tauto]. destruct (String.eqb_spec tag "option") as [->|N]; [|exfalso; apply O; congruence].
  destruct kids as [[|c l]|]; auto. exfalso. apply O. intros _. eauto.
Qed.
Lemma option_ok_dec h : {option_ok h} + {~ option_ok h}.
Proof.
  destruct h as [s|tag [d|] kids js click]; cbn [option_ok]; auto. destruct (string_dec tag "option") as [->|N]; [|left; congruence].
  destruct kids as [[|c l]|]; [right|left; eauto|right]; intros H; destruct (H eq_refl) as (c & l' & E); discriminate.
Qed.
Lemma parse_options_spec h :
  (Forall option_ok (nodes h) -> exists h', parse_options h = Ok (h', flat_map selected_value (nodes h)) /\ fixed h h') /\
  (~ Forall option_ok (nodes h) -> parse_options h = Err KeyError).
Proof.
  induction h as [s|tag attrs js click|tag attrs l js click IH] using hv_ind2.
  - split; [intros _; exists (HText s); split; [reflexivity|constructor]|]. intros N. exfalso. apply N. repeat constructor.
  - rewrite parse_unfold, nodes_unfold. fold (attrs_step tag attrs None). cbn [flat_map]. rewrite app_nil_r. split.
    + intros F. inversion F as [|? ? F1 _]; subst. destruct (attrs_step_ok tag attrs None js click F1) as (attrs' & -> & A). eexists. split; [reflexivity|]. constructor. auto.
    + intros N. rewrite (attrs_step_bad tag attrs None js click); auto.
  - rewrite parse_unfold, nodes_unfold. fold (attrs_step tag attrs (Some l)).
    assert (ALL : (Forall option_ok (nodes_all l) -> exists l', parse_all l = Ok (l', selected l) /\ Forall2 fixed l l') /\
                  (~ Forall option_ok (nodes_all l) -> parse_all l = Err KeyError)).
    { clear - IH. unfold selected. induction IH as [|c l [G B] IH [IG IB]]; [split; [exists []; auto|intros N; exfalso; apply N; constructor]|].
      cbn [nodes_all flat_map parse_all]. fold (nodes_all l). split.
      - intros F. apply Forall_app in F. destruct F as [F1 F2]. destruct (G F1) as (c' & -> & X1). destruct (IG F2) as (l' & -> & X2).
        exists (c' :: l'). split; [|constructor; auto]. rewrite flat_map_app. reflexivity.
      - intros N. destruct (Forall_dec option_ok option_ok_dec (nodes c)) as [F|F]; [|rewrite B; auto]. destruct (G F) as (c' & -> & _).
        rewrite IB; auto. intros F2. apply N. apply Forall_app. auto. }
    destruct ALL as [G B]. cbn [flat_map]. split.
    + intros F. inversion F as [|? ? F1 F2]; subst. destruct (attrs_step_ok tag attrs (Some l) js click F1) as (attrs' & -> & A). destruct (G F2) as (l' & -> & X).
      eexists. split; [reflexivity|]. constructor; auto.
    + intros N. destruct (option_ok_dec (HEl tag attrs (Some l) js click)) as [O|O]; [|rewrite (attrs_step_bad tag attrs (Some l) js click); auto].
      destruct (attrs_step_ok tag attrs (Some l) js click O) as (attrs' & -> & A). rewrite B; auto.
Qed.

(** The attributes of a node after a conversion that leaves all but the names in [ks] alone. *)
Definition same_except (ks : list string) (d d' : dict string av) : Prop := forall k, ~ In k ks -> dget k d' = dget k d.
Lemma infer_same tag attrs : same_except ["key"] (or_empty attrs) (or_empty (infer_key tag attrs)).
Proof.
  intros k N. unfold infer_key. destruct attrs as [[|x d]|]; auto. set (D := x :: d). destruct (match dget "key" D with Some k0 => Some k0 | None => _ end) as [v|]; auto.
  destruct (truthy v && negb (dmem "key" D)); auto. cbn [or_empty]. apply dget_dset_other. simpl in N. intros ->. tauto.
Qed.
Lemma style_same attrs : same_except ["style"] (or_empty attrs) (or_empty (normalize_style attrs)).
Proof.
  intros k N. unfold normalize_style. destruct attrs as [d|]; auto. destruct (dget "style" d) as [[[s|]|l|e|]|]; auto.
  cbn [or_empty]. apply dget_dset_other. simpl in N. intros ->. tauto.
Qed.
Lemma same_trans ks ks' d1 d2 d3 : same_except ks d1 d2 -> same_except ks' d2 d3 -> same_except (ks ++ ks') d1 d3.
Proof. intros A B k N. rewrite in_app_iff in N. rewrite B, A by tauto. reflexivity. Qed.

(** [<select>]: the default is the first selected option, or all of them in document order when [multiple] is given;
    options lose [selected] and gain a [value]; nothing else changes (but the inferred key and a parsed style). *)
Theorem C45_select i attrs kids js click : Forall option_ok (nodes_all kids) ->
  exists d kids', required_transforms i (HEl "select" attrs (Some kids) js click) = Ok (HEl "select" (Some d) (Some kids') js click) /\
    Forall2 fixed kids kids' /\
    same_except ["key"; "style"; "multiple"; "defaultValue"] (or_empty attrs) d /\
    dget "multiple" d = (match dget "multiple" (or_empty attrs) with Some _ => Some ATrue | None => None end) /\
    dget "defaultValue" d = match selected kids with
                            | [] => dget "defaultValue" (or_empty attrs)
                            | s :: rest => match dget "multiple" (or_empty attrs) with Some _ => Some (AMany (s :: rest)) | None => Some (AS s) end
                            end.
Proof.
  intros F. cbn [required_transforms]. cbn [String.eqb Ascii.eqb Bool.eqb]. rewrite andb_false_r, orb_false_r. unfold input_value. cbn [String.eqb Ascii.eqb Bool.eqb].
  set (a3 := normalize_style (infer_key "select" attrs)).
  assert (S3 : same_except ["key"; "style"] (or_empty attrs) (or_empty a3)) by (apply (same_trans ["key"] ["style"] _ (or_empty (infer_key "select" attrs))); [apply infer_same|apply style_same]).
  cbn [select_transform String.eqb Ascii.eqb Bool.eqb].
  destruct (parse_options_spec (HEl "select" (Some (or_empty a3)) (Some kids) js click)) as [G _].
  destruct G as (h' & -> & X). { rewrite nodes_unfold. constructor; auto. cbn [option_ok]. discriminate. }
  rewrite nodes_unfold. cbn [flat_map selected_value String.eqb Ascii.eqb Bool.eqb app]. fold (selected kids).
  inversion X as [| |? ? attrs' ? l' ? ? A FF]; subst. unfold attrs_fixed in A. cbn [String.eqb Ascii.eqb Bool.eqb] in A. destruct attrs' as [d'|]; [|destruct A]. subst d'.
  assert (MM : dget "multiple" (or_empty a3) = dget "multiple" (or_empty attrs)) by (apply S3; simpl; intuition discriminate).
  assert (DD : dget "defaultValue" (or_empty a3) = dget "defaultValue" (or_empty attrs)) by (apply S3; simpl; intuition discriminate).
  cbn [textarea_transform]. eexists _, l'. split.
  { destruct l'; reflexivity. }
  split; auto.
  set (d0 := or_empty a3) in *. unfold dmem. rewrite MM.
  assert (OT : forall k, ~ In k ["key"; "style"; "multiple"; "defaultValue"] -> dget k d0 = dget k (or_empty attrs) /\ k <> "multiple" /\ k <> "defaultValue").
  { intros k N. simpl in N. split; [apply S3; simpl; tauto|]. split; intros ->; tauto. }
  destruct (dget "multiple" (or_empty attrs)) as [m|] eqn:ML; destruct (selected kids) as [|s rest].
  - split; [intros k N; destruct (OT k N) as (E & N1 & N2); rewrite dget_dset_other; auto|]. split; [apply dget_dset_same|]. rewrite dget_dset_other by discriminate. auto.
  - split; [intros k N; destruct (OT k N) as (E & N1 & N2); rewrite !dget_dset_other; auto|]. rewrite dget_dset_same. split; auto. rewrite dget_dset_other by discriminate. apply dget_dset_same.
  - split; [intros k N; destruct (OT k N) as (E & N1 & N2); auto|]. auto.
  - split; [intros k N; destruct (OT k N) as (E & N1 & N2); rewrite !dget_dset_other; auto|]. rewrite dget_dset_same. split; auto. rewrite dget_dset_other by discriminate. auto.
Qed.
(** An option with attributes but without a child makes the conversion of the whole select fail. *)
Theorem C45_select_fails i attrs kids js click : ~ Forall option_ok (nodes_all kids) ->
  required_transforms i (HEl "select" attrs (Some kids) js click) = Err KeyError.
Proof.
  intros N. cbn [required_transforms select_transform String.eqb Ascii.eqb Bool.eqb].
  match goal with |- context [parse_options ?h] => destruct (parse_options_spec h) as [_ B] end.
  rewrite B; [reflexivity|]. rewrite nodes_unfold. intros F. inversion F; subst. auto.
Qed.
(** [<textarea>]: the text becomes [defaultValue]. *)
Fixpoint texts (l : list hv) : string := match l with [] => "" | HText s :: l' => (s ++ texts l')%string | _ :: l' => texts l' end.
Lemma join_texts l : join "" (map text_of l) = texts l.
Proof. rewrite join_empty. induction l as [|[s|? ? ? ? ?] l IH]; cbn [map text_of fold_right texts]; rewrite ?IH; reflexivity. Qed.
Theorem C45_textarea i attrs c kids js click : exists d,
  required_transforms i (HEl "textarea" attrs (Some (c :: kids)) js click) = Ok (HEl "textarea" (Some d) None js click) /\
    same_except ["key"; "style"; "defaultValue"] (or_empty attrs) d /\
    dget "defaultValue" d = Some (if String.eqb (texts (c :: kids)) ""
                                  then match dget "defaultValue" (or_empty attrs) with Some v => v | None => AS (SStr "") end
                                  else AS (SStr (texts (c :: kids)))).
Proof.
  cbn [required_transforms]. cbn [String.eqb Ascii.eqb Bool.eqb]. rewrite andb_false_r, orb_false_r. unfold input_value. cbn [String.eqb Ascii.eqb Bool.eqb].
  set (a3 := normalize_style (infer_key "textarea" attrs)).
  assert (S3 : same_except ["key"; "style"] (or_empty attrs) (or_empty a3)) by (apply (same_trans ["key"] ["style"] _ (or_empty (infer_key "textarea" attrs))); [apply infer_same|apply style_same]).
  cbn [select_transform String.eqb Ascii.eqb Bool.eqb]. unfold textarea_transform. cbn [String.eqb Ascii.eqb Bool.eqb]. rewrite join_texts.
  eexists. split; [reflexivity|]. split.
  - intros k N. simpl in N. rewrite dget_dset_other by (intros ->; tauto). rewrite dget_ddel_other by (intros ->; tauto). apply S3. simpl. tauto.
  - rewrite dget_dset_same. rewrite (S3 "defaultValue") by (simpl; intuition discriminate). destruct (String.eqb (texts (c :: kids)) ""); reflexivity.
Qed.
(** [<input>]: [value] becomes [defaultValue]. *)
Theorem C45_input i attrs kids js click : exists d,
  required_transforms i (HEl "input" attrs kids js click) = Ok (HEl "input" (Some d) kids js click) /\
    same_except ["key"; "style"; "value"; "defaultValue"] (or_empty attrs) d /\ dget "value" d = None /\
    dget "defaultValue" d = match dget "value" (or_empty attrs) with Some v => Some v | None => dget "defaultValue" (or_empty attrs) end.
Proof.
  cbn [required_transforms]. cbn [String.eqb Ascii.eqb Bool.eqb]. rewrite andb_false_r, orb_false_r. unfold input_value. cbn [String.eqb Ascii.eqb Bool.eqb].
  assert (S1 := infer_same "input" attrs). set (a1 := infer_key "input" attrs) in *.
  set (d0 := match dget "value" (or_empty a1) with Some v => dset "defaultValue" v (ddel "value" (or_empty a1)) | None => or_empty a1 end).
  assert (V0 : dget "value" (or_empty a1) = dget "value" (or_empty attrs)) by (apply S1; simpl; intuition discriminate).
  assert (D0 : dget "defaultValue" (or_empty a1) = dget "defaultValue" (or_empty attrs)) by (apply S1; simpl; intuition discriminate).
  assert (P : same_except ["key"; "value"; "defaultValue"] (or_empty attrs) d0 /\ dget "value" d0 = None /\
     dget "defaultValue" d0 = match dget "value" (or_empty attrs) with Some v => Some v | None => dget "defaultValue" (or_empty attrs) end).
  { unfold d0. rewrite V0. destruct (dget "value" (or_empty attrs)) as [v|] eqn:E.
    - split; [|split].
      + intros k N. simpl in N. rewrite dget_dset_other by (intros ->; tauto). rewrite dget_ddel_other by (intros ->; tauto). apply S1. simpl. tauto.
      + rewrite dget_dset_other by discriminate. apply dget_ddel_same.
      + apply dget_dset_same.
    - split; [|split; [rewrite V0; auto|auto]]. intros k N. apply S1. simpl in *. tauto. }
  destruct P as (P1 & P2 & P3). assert (SS := style_same (Some d0)). cbn [or_empty] in SS.
  assert (EX : exists d, normalize_style (Some d0) = Some d) by (unfold normalize_style; destruct (dget "style" d0) as [[[s|]|l|e|]|]; eauto). destruct EX as [d E]. rewrite E in *. cbn [or_empty] in SS.
  exists d. split; [destruct kids as [[|c l]|]; reflexivity|]. split; [|split].
  - intros k N. simpl in N. rewrite SS by (simpl; tauto). apply P1. simpl. tauto.
  - rewrite SS; [auto|simpl; intuition discriminate].
  - rewrite SS; [auto|simpl; intuition discriminate].
Qed.
Definition opt (attrs : list (string * av)) (text : string) : hv := HEl "option" (Some attrs) (Some [HText text]) None false.
Example C45_example :
  let kids := [opt [("value", AS (SStr "a"))] "A"; HEl "optgroup" None (Some [opt [("selected", AS (SStr ""))] "B"; opt [("selected", AS (SStr "")); ("value", AS (SStr "c"))] "C"]) None false] in
  Forall option_ok (nodes_all kids) /\ selected kids = [SStr "B"; SStr "c"] /\
  required_transforms true (HEl "select" (Some [("multiple", AS (SStr ""))]) (Some kids) None false) =
    Ok (HEl "select" (Some [("multiple", ATrue); ("defaultValue", AMany [SStr "B"; SStr "c"])])
         (Some [opt [("value", AS (SStr "a"))] "A"; HEl "optgroup" None (Some [opt [("value", AS (SStr "B"))] "B"; opt [("value", AS (SStr "c"))] "C"]) None false]) None false).
Proof. split; [|split; reflexivity]. repeat constructor; cbn [option_ok]; eauto. Qed.
(** Finding: a select with an empty option, such as [<option value=""></option>], cannot be converted. *)
Theorem C45_empty_option_refuted : back true [] (ENode "select" [] "" [(ENode "option" [("value", "")] "" [], ""); (ENode "option" [] "x" [], "")]) = Err KeyError.
Proof. reflexivity. Qed.

(** ** Keys inferred from HTML attributes (C71) *)

(** The key of a converted element: the [key] attribute as given; otherwise a non-empty [id]; otherwise, without an [id],
    the non-empty [name] of a form field. *)
Definition key_spec (tag : string) (d : dict string av) : option av :=
  match dget "key" d, dget "id" d, dget "name" d with
  | Some k, _, _ => Some k
  | None, Some (AS (SStr "")), _ => None
  | None, Some k, _ => Some k
  | None, None, Some (AS (SStr "")) => None
  | None, None, Some k => if mem tag ["input"; "select"; "textarea"] then Some k else None
  | None, None, None => None
  end.
Definition strings_only (d : dict string av) : Prop := forall k v, dget k d = Some v -> exists s, v = AS (SStr s).
Lemma infer_key_spec tag attrs : strings_only (or_empty attrs) -> dget "key" (or_empty (infer_key tag attrs)) = key_spec tag (or_empty attrs).
Proof.
  intros SO. unfold infer_key, key_spec. destruct attrs as [[|x d]|]; [reflexivity| |reflexivity]. cbn [or_empty] in *. set (D := x :: d) in *.
  destruct (dget "key" D) as [k|] eqn:K.
  - assert (M : dmem "key" D = true) by (apply dmem_true; eauto). rewrite M. cbn [negb]. rewrite andb_false_r. exact K.
  - assert (M : dmem "key" D = false) by (apply dmem_false; auto). rewrite M. cbn [negb]. 
    destruct (dget "id" D) as [k|] eqn:ID.
    + destruct (SO _ _ ID) as [s ->]. rewrite andb_true_r. destruct s as [|a s]; [exact K|]. cbn [truthy or_empty]. apply dget_dset_same.
    + destruct (mem tag ["input"; "select"; "textarea"]).
      * destruct (dget "name" D) as [k|] eqn:NM; [|exact K]. destruct (SO _ _ NM) as [s ->]. rewrite andb_true_r. destruct s as [|a s]; [exact K|]. apply dget_dset_same.
      * transitivity (@None av); [exact K|]. destruct (dget "name" D) as [v|] eqn:NM; [|reflexivity].
        destruct (SO _ _ NM) as [s ->]. destruct s; reflexivity.
Qed.
Theorem C71_key i tag attrs kids js click h : strings_only (or_empty attrs) -> required_transforms i (HEl tag attrs kids js click) = Ok h ->
  exists attrs' kids' click', h = HEl tag attrs' kids' js click' /\ dget "key" (or_empty attrs') = key_spec tag (or_empty attrs).
Proof.
  intros SO. rewrite <- infer_key_spec by auto. cbn [required_transforms]. set (a1 := infer_key tag attrs).
  assert (S3 : dget "key" (or_empty (normalize_style (input_value tag a1))) = dget "key" (or_empty a1)).
  { rewrite (style_same (input_value tag a1) "key") by (simpl; intuition discriminate). unfold input_value. destruct (String.eqb tag "input"); auto.
    cbn [or_empty]. destruct (dget "value" (or_empty a1)); auto. rewrite dget_dset_other by discriminate. rewrite dget_ddel_other by discriminate. reflexivity. }
  set (a3 := normalize_style (input_value tag a1)) in *. set (cl := click || (i && String.eqb tag "a")).
  assert (TA : forall attrs kids, exists attrs' kids', textarea_transform (HEl tag attrs kids js cl) = HEl tag attrs' kids' js cl /\ dget "key" (or_empty attrs') = dget "key" (or_empty attrs)).
  { intros at0 k0. unfold textarea_transform. destruct k0 as [[|c l]|]; try (eexists _, _; split; reflexivity). destruct (String.eqb tag "textarea"); [|eexists _, _; split; reflexivity].
    eexists _, _. split; [reflexivity|]. cbn [or_empty]. rewrite dget_dset_other by discriminate. apply dget_ddel_other. discriminate. }
  assert (SE : forall h, select_transform (HEl tag a3 kids js cl) = Ok h -> exists attrs' kids', h = HEl tag attrs' kids' js cl /\ dget "key" (or_empty attrs') = dget "key" (or_empty a3)).
  { intros h0. unfold select_transform. destruct kids as [l|]; [|intros H; injection H as <-; eauto]. destruct (String.eqb_spec tag "select") as [E|E]; [|intros H; injection H as <-; eauto].
    destruct (parse_options_spec (HEl tag (Some (or_empty a3)) (Some l) js cl)) as [G B]. destruct (Forall_dec option_ok option_ok_dec (nodes (HEl tag (Some (or_empty a3)) (Some l) js cl))) as [F|F].
    - destruct (G F) as (h' & -> & X). inversion X as [| |? ? attrs' ? l' ? ? A FF]; subst. unfold attrs_fixed in A. cbn [String.eqb Ascii.eqb Bool.eqb] in A. destruct attrs' as [d'|]; [|destruct A]. subst d'.
      intros H. injection H as <-. eexists _, _. split; [reflexivity|]. cbn [or_empty].
      destruct (flat_map selected_value _); destruct (dmem "multiple" (or_empty a3)); rewrite ?dget_dset_other by discriminate; reflexivity.
    - rewrite B by auto. discriminate. }
  destruct (select_transform (HEl tag a3 kids js cl)) as [h'|e]; [|discriminate]. destruct (SE h' eq_refl) as (at1 & k1 & -> & K1). destruct (TA at1 k1) as (at2 & k2 & -> & K2).
  intros H. injection H as <-. exists at2, k2, cl. split; auto. congruence.
Qed.
Example C71_example : required_transforms true (HEl "input" (Some [("name", AS (SStr "q"))]) None None false) =
  Ok (HEl "input" (Some [("name", AS (SStr "q")); ("key", AS (SStr "q"))]) None None false).
Proof. reflexivity. Qed.
(** The HTML attributes that React knows under another spelling, or the same (the HTML standard, section 4 and its index of
    attributes; React's documentation of the common components). [class] and [for], the initial values of form elements and event handlers are left out. *)
Definition html_table : list (string * string) :=
  [("contentEditable", "contenteditable"); ("dir", "dir"); ("charset", "charset"); ("formEnctype", "formenctype");
   ("accessKey", "accesskey"); ("required", "required"); ("capture", "capture"); ("formAction", "formaction");
   ("hrefLang", "hreflang"); ("form", "form"); ("inputMode", "inputmode"); ("maxLength", "maxlength"); ("nonce", "nonce");
   ("title", "title"); ("referrerPolicy", "referrerpolicy"); ("placeholder", "placeholder"); ("pattern", "pattern");
   ("min", "min"); ("autoComplete", "autocomplete"); ("autoFocus", "autofocus"); ("alt", "alt"); ("max", "max");
   ("enterKeyHint", "enterkeyhint"); ("width", "width"); ("accept", "accept"); ("spellCheck", "spellcheck");
   ("fetchPriority", "fetchpriority"); ("multiple", "multiple"); ("as", "as"); ("href", "href"); ("draggable", "draggable");
   ("lang", "lang"); ("translate", "translate"); ("imageSrcSet", "imagesrcset"); ("itemProp", "itemprop");
   ("dirname", "dirname"); ("formNoValidate", "formnovalidate"); ("is", "is"); ("wrap", "wrap"); ("integrity", "integrity");
   ("id", "id"); ("minLength", "minlength"); ("content", "content"); ("slot", "slot"); ("async", "async");
   ("height", "height"); ("step", "step"); ("disabled", "disabled"); ("src", "src"); ("readOnly", "readonly");
   ("size", "size"); ("type", "type"); ("imageSizes", "imagesizes"); ("crossOrigin", "crossorigin");
   ("autoCapitalize", "autocapitalize"); ("value", "value"); ("list", "list"); ("formTarget", "formtarget"); ("cols", "cols");
   ("tabIndex", "tabindex"); ("rows", "rows"); ("role", "role"); ("hidden", "hidden"); ("noModule", "nomodule");
   ("formMethod", "formmethod"); ("sizes", "sizes"); ("name", "name"); ("acceptCharset", "accept-charset");
   ("httpEquiv", "http-equiv"); ("style", "style")].
Definition html_attribute (k n : string) : Prop := In (k, n) html_table \/ (n = k /\ exists r, k = ("data-" ++ r)%string \/ k = ("aria-" ++ r)%string).
(** What is written for a value: strings as they are, numbers as [str] shows them. *)
Definition written (v : ival) : option string := match v with IStr s => Some s | IOther s => Some s | IStyle _ | ICall => None end.

Lemma table_names : forallb (fun p => String.eqb (html_name (fst p)) (snd p) && negb (starts_with "data-" (snd p)) && negb (starts_with "aria-" (snd p)) && (String.eqb (rename (snd p)) (fst p))) html_table = true.
Proof. vm_compute. reflexivity. Qed.
Lemma in_table k n : find (fun p => String.eqb (fst p) k) html_table = Some (k, n) -> In (k, n) html_table.
Proof. intros F. apply find_some in F. apply F. Qed.
Lemma data_prefix p r : String.prefix p (p ++ r) = true.
Proof. induction p as [|c p IH]; simpl; [destruct r; reflexivity|]. destruct (ascii_dec c c); [exact IH|congruence]. Qed.
Lemma data_name k : (exists r, k = ("data-" ++ r)%string \/ k = ("aria-" ++ r)%string) -> html_name k = k /\ starts_with "data-" k || starts_with "aria-" k = true.
Proof.
  intros (r & E). assert (P : starts_with "data-" k || starts_with "aria-" k = true) by (destruct E as [-> | ->]; unfold starts_with; rewrite data_prefix; [reflexivity|apply orb_true_r]).
  split; [|exact P]. unfold html_name. assert (NS : String.eqb k "style" = false) by (destruct E as [-> | ->]; reflexivity). rewrite NS.
  assert (NM : mem k ["acceptCharset"; "httpEquiv"] = false) by (destruct E as [-> | ->]; reflexivity). rewrite NM, P. reflexivity.
Qed.
Lemma html_attribute_name k n : html_attribute k n -> html_name k = n.
Proof.
  intros [I|[-> D]]; [|apply data_name; exact D]. pose proof table_names as T. rewrite forallb_forall in T. specialize (T _ I). cbn [fst snd] in T.
  rewrite !andb_true_iff in T. destruct T as [[[T _] _] _]. apply String.eqb_eq. exact T.
Qed.
Lemma html_attribute_inj k1 k2 n : html_attribute k1 n -> html_attribute k2 n -> k1 = k2.
Proof.
  pose proof table_names as T. rewrite forallb_forall in T.
  assert (X : forall k, In (k, n) html_table -> rename n = k /\ starts_with "data-" n || starts_with "aria-" n = false).
  { intros k I. specialize (T _ I). cbn [fst snd] in T. rewrite !andb_true_iff, !negb_true_iff, String.eqb_eq in T. destruct T as [[[_ T1] T2] T3]. apply String.eqb_eq in T3. rewrite T1, T2. auto. }
  intros [A|[-> A]] [B|[E B]]; try subst k2.
  - apply X in A. apply X in B. destruct A as [<- _], B as [<- _]. reflexivity.
  - apply X in A. apply data_name in B. destruct A, B. congruence.
  - apply X in B. apply data_name in A. destruct A, B. congruence.
  - reflexivity.
Qed.
(** Every attribute is written under its HTML name, once, with its value, and nothing else is. *)
Theorem C70_names_partial (attrs : list (string * ival)) : NoDup (map fst attrs) ->
  (forall k v, In (k, v) attrs -> (exists n, html_attribute k n) /\ written v <> None) ->
  exists d, attrs_html attrs [] = Ok d /\ NoDup (map fst d) /\
    forall n s, In (n, s) d <-> exists k v, In (k, v) attrs /\ html_attribute k n /\ written v = Some s.
Proof.
  intros ND A.
  assert (G : forall attrs d0, NoDup (map fst attrs) -> NoDup (map fst d0) -> (forall k v, In (k, v) attrs -> (exists n, html_attribute k n) /\ written v <> None) ->
    (forall k v n, In (k, v) attrs -> html_attribute k n -> ~ In n (map fst d0)) ->
    exists d, attrs_html attrs d0 = Ok d /\ NoDup (map fst d) /\ forall n s, In (n, s) d <-> In (n, s) d0 \/ exists k v, In (k, v) attrs /\ html_attribute k n /\ written v = Some s).
  { clear. induction attrs as [|[k v] l IH]; intros d0 ND N0 A F.
    - exists d0. split; [reflexivity|]. split; [exact N0|]. intros n s. split; [auto|]. intros [X|(k & v & [] & _)]. exact X.
    - destruct (A k v (or_introl eq_refl)) as [(n & H) W]. cbn [attrs_html]. assert (HV : html_value v = written v) by (destruct v; try reflexivity; cbn in W; congruence). rewrite HV.
      destruct (written v) as [t|] eqn:WV; [|congruence]. rewrite (html_attribute_name _ _ H).
      assert (NI : ~ In n (map fst d0)) by (apply (F k v n (or_introl eq_refl) H)). rewrite dset_fresh' by exact NI. inversion ND as [|? ? NK ND']; subst.
      destruct (IH (d0 ++ [(n, t)]) ND') as (d & E & N & Q).
      + rewrite map_app. cbn. apply (NoDup_Add (Add_app n (map fst d0) [])). rewrite app_nil_r. auto.
      + intros k' v' I. apply A. right. exact I.
      + intros k' v' n' I H' J. rewrite map_app, in_app_iff in J. destruct J as [J|[J|[]]]; [exact (F k' v' n' (or_intror I) H' J)|]. cbn in J. subst n'.
        apply NK. rewrite (html_attribute_inj _ _ _ H H'). change k' with (fst (k', v')). apply in_map. exact I.
      + exists d. split; [exact E|]. split; [exact N|]. intros n' s. rewrite Q, in_app_iff. split.
        * intros [[X|[X|[]]]|(k' & v' & I & X)]; [auto| |].
          -- injection X as <- <-. right. exists k, v. split; [left; reflexivity|]. auto.
          -- right. exists k', v'. split; [right; exact I|exact X].
        * intros [X|(k' & v' & [I|I] & H' & X)]; [auto| |].
          -- injection I as <- <-. left. right. left. rewrite WV in X. injection X as <-. f_equal. rewrite <- (html_attribute_name _ _ H). symmetry. rewrite <- (html_attribute_name _ _ H'). reflexivity.
          -- right. exists k', v'. auto. }
  destruct (G attrs [] ND (NoDup_nil _) A) as (d & E & N & Q); [intros k v n _ _ []|]. exists d. split; [exact E|]. split; [exact N|]. intros n s. rewrite Q. split; [intros [[]|X]; exact X|auto].
Qed.
Print Assumptions C70_names_partial.
Example C70_names_nonvacuous : exists d, let attrs := [("tabIndex", IOther "0"); ("acceptCharset", IStr "utf-8"); ("data-Id", IStr "7"); ("href", IStr "/x")] in
  NoDup (map fst attrs) /\ (forall k v, In (k, v) attrs -> (exists n, html_attribute k n) /\ written v <> None) /\ attrs_html attrs [] = Ok d /\
  d = [("tabindex", "0"); ("accept-charset", "utf-8"); ("data-Id", "7"); ("href", "/x")].
Proof.
  eexists. cbn zeta. split; [apply nodupb_sound; reflexivity|]. split; [|split; vm_compute; reflexivity].
  intros k v [I|[I|[I|[I|[]]]]]; injection I as <- <-; (split; [|discriminate]); eexists; try (left; eapply in_table; vm_compute; reflexivity).
  right. split; [reflexivity|]. exists "Id". auto.
Qed.

(** A callable (an event handler that is left among the attributes) has no HTML form.  [in_tree v tag attrs]: an element with this
    tag and these attributes is in [v], or in what its components give. *)
Inductive in_tree : vd -> string -> list (string * ival) -> Prop :=
| it_here tag attrs kids : in_tree (VEl tag attrs kids) tag attrs
| it_kid tag attrs kids c t a : In c kids -> in_tree c t a -> in_tree (VEl tag attrs kids) t a
| it_comp r t a : in_tree r t a -> in_tree (VComp r) t a.
Definition has_callable (v : vd) : Prop := exists tag attrs k, in_tree v tag attrs /\ tag <> "" /\ In (k, ICall) attrs.

Lemma attrs_html_fails attrs : forall d,
  (exists k, In (k, ICall) attrs) /\ attrs_html attrs d = Err TypeError \/ (forall k, ~ In (k, ICall) attrs) /\ exists d', attrs_html attrs d = Ok d'.
Proof.
  induction attrs as [|[k v] l IH]; intros d; [right; split; [intros k []|exists d; reflexivity]|]. cbn [attrs_html].
  destruct (html_value v) as [t|] eqn:E.
  - destruct (IH (dset (html_name k) t d)) as [[(k' & I) H]|[N H]].
    + left. split; [exists k'; right; exact I|exact H].
    + right. split; [|exact H]. intros k' [I|I]; [injection I as -> ->; discriminate|exact (N k' I)].
  - destruct v; try discriminate. left. split; [exists k; left; reflexivity|reflexivity].
Qed.

Lemma vd_deep (P : vd -> Prop) : (forall a, P (VAtom a)) -> (forall tag attrs kids, Forall P kids -> P (VEl tag attrs kids)) -> (forall r, P r -> P (VComp r)) -> forall v, P v.
Proof.
  intros A B C. fix IH 1. intros [a|tag attrs kids|r]; [apply A| |apply C, IH]. apply B. induction kids; constructor; [apply IH|exact IHkids].
Qed.

Definition decides (v : vd) : Prop := forall b, has_callable v /\ add v b = Err TypeError \/ ~ has_callable v /\ exists b', add v b = Ok b'.

Lemma add_all_decides l : Forall decides l -> forall b,
  (exists v, In v l /\ has_callable v) /\ add_all l b = Err TypeError \/ (forall v, In v l -> ~ has_callable v) /\ exists b', add_all l b = Ok b'.
Proof.
  intros F. induction F as [|v l D F IH]; intros b; [right; split; [intros v []|exists b; reflexivity]|]. cbn [add_all].
  destruct (D b) as [[H ->]|[N (b' & ->)]].
  - left. split; [exists v; cbn; auto|reflexivity].
  - destruct (IH b') as [[(w & I & H) E]|[M E]].
    + left. split; [exists w; cbn; auto|exact E].
    + right. split; [|exact E]. intros w [<-|I]; auto.
Qed.

Lemma all_decides v : decides v.
Proof.
  induction v as [a|tag attrs kids IH|r IH] using vd_deep; intros b.
  - right. split; [intros (t & a' & k & I & _); inversion I|]. eexists. reflexivity.
  - assert (K : has_callable (VEl tag attrs kids) <-> (tag <> "" /\ exists k, In (k, ICall) attrs) \/ exists v, In v kids /\ has_callable v).
    { split.
      - intros (t & a & k & I & T & J). inversion I as [t' a' k'|t' a' k' c t'' a'' C D|]; subst; [left; eauto|right]. exists c. split; [exact C|]. exists t, a, k. auto.
      - intros [[T (k & J)]|(c & C & t & a & k & I & T & J)]; [exists tag, attrs, k|exists t, a, k]; (split; [|auto]); [constructor|econstructor; eauto]. }
    change (add (VEl tag attrs kids) b) with (if String.eqb tag "" then add_all kids b else match attrs_html attrs [] with Err e => Err e | Ok d => match add_all kids ("", []) with Err e => Err e | Ok (t, ks) => Ok (put_node (ENode tag d t ks) b) end end).
    destruct (String.eqb tag "") eqn:T.
    + apply String.eqb_eq in T. destruct (add_all_decides kids IH b) as [[H E]|[N (b' & E)]]; rewrite E; [left|right]; rewrite K.
      * auto.
      * split; [|eexists; reflexivity]. intros [[X _]|(v & I & H)]; [contradiction|exact (N v I H)].
    + apply String.eqb_neq in T. destruct (attrs_html_fails attrs []) as [[H E]|[N (d & E)]]; rewrite E.
      * left. rewrite K. auto.
      * destruct (add_all_decides kids IH ("", [])) as [[H E']|[M ((t & ks) & E')]]; rewrite E'; [left|right]; rewrite K.
        -- auto.
        -- split; [|eexists; reflexivity]. intros [[_ (k & J)]|(v & I & H)]; [exact (N k J)|exact (M v I H)].
  - assert (K : has_callable (VComp r) <-> has_callable r).
    { split; intros (t & a & k & I & R); exists t, a, k; (split; [|exact R]); [inversion I; assumption|constructor; exact I]. }
    destruct r as [a|tag attrs kids|r'].
    + right. rewrite K. split; [intros (t & a' & k & I & _); inversion I|]. destruct a; eexists; reflexivity.
    + change (add (VComp (VEl tag attrs kids)) b) with (add (VEl tag attrs kids) b). rewrite K. exact (IH b).
    + change (add (VComp (VComp r')) b) with (add (VComp r') b). rewrite K. exact (IH b).
Qed.

(** The conversion fails, with a TypeError, exactly if an element of the tree has a callable for an attribute; a fragment's
    attributes are not looked at. *)
Theorem C70_callable (l : list vd) b :
  (add_all l b = Err TypeError <-> exists v, In v l /\ has_callable v) /\ (forall e, add_all l b = Err e -> e = TypeError).
Proof.
  assert (F : Forall decides l) by (apply Forall_forall; intros v _; apply all_decides).
  destruct (add_all_decides l F b) as [[H E]|[N (b' & E)]]; rewrite E.
  - split; [tauto|]. intros e [= <-]. reflexivity.
  - split; [|discriminate]. split; [discriminate|]. intros (v & I & H). destruct (N v I H).
Qed.
Print Assumptions C70_callable.
Example C70_callable_example :
  has_callable (VComp (VEl "" [] [VEl "button" [("title", IStr "x"); ("onClick", ICall)] []])) /\
  add_all [VEl "" [("f", ICall)] [VAtom (TStr "a")]] ("", []) = Ok ("a", []).
Proof.
  split; [|reflexivity]. exists "button", [("title", IStr "x"); ("onClick", ICall)], "onClick". split; [|split; [discriminate|right; left; reflexivity]].
  apply it_comp. eapply it_kid; [left; reflexivity|]. apply it_here.
Qed.

(** Findings about the written HTML: React's names for [class] and [for] are not translated, and a false boolean
    attribute is written as if it were given. *)
Theorem C70_names_refuted : attrs_html [("className", IStr "box"); ("htmlFor", IStr "q")] [] = Ok [("classname", "box"); ("htmlfor", "q")].
Proof. reflexivity. Qed.
(** Finding: so is the value of an input element that was read from HTML (C45): a browser shows it empty and unchecked. *)
Theorem C70_initial_refuted : attrs_html [("defaultValue", IStr "Ada"); ("defaultChecked", IOther "True")] [] = Ok [("defaultvalue", "Ada"); ("defaultchecked", "True")].
Proof. reflexivity. Qed.
Print Assumptions C70_initial_refuted.
Theorem C70_false_refuted : attrs_html [("disabled", IOther "False")] [] = Ok [("disabled", "False")].
Proof. reflexivity. Qed.
Print Assumptions C42_roundtrip.
Print Assumptions C45_select.
Print Assumptions C45_textarea.
Print Assumptions C45_input.
Print Assumptions C71_key.
