(** * The page of a component that runs in the browser, and property C85

    /repo/src/reactpy/executors/pyscript/layout_handler.py:35-117,152-161. How updates reach the model is in ClientModel (C59). *)
From Coq Require Import String Ascii ZArith Bool Arith Lia List.
From Verif Require Import Dict Strings PyStr LayoutTypes.
Import ListNotations.
Local Open Scope string_scope. Local Open Scope list_scope.

(** Nodes of the document. Attributes and inline styles by name; listeners by event name, with the target they deliver to. *)
Inductive dom := DText (s : string) | DElem (tag : string) (attrs : dict string string) (style : dict string string) (listeners : list (string * string)) (kids : list dom).

Section Page.
  (** [value.items()] for "style", lines 72-73; [None]: the value is no dictionary and the call raises. *)
  Variable items : val -> option (dict string string).
  (** JavaScript's text of values that are not modelled. *)
  Variable other : val -> string.

(** ** Model *)

  (** The text that [setAttribute] makes of a Python value; [None] becomes undefined. *)
  Definition js_text (v : val) : string :=
    match v with
    | VNone => "undefined"
    | VBool true => "true"
    | VBool false => "false"
    | VInt z => show_Z z
    | VStr s => s
    | v => other v
    end.
  (** Lines 69-77: one attribute. [setAttribute] makes names lower case; [className] is the attribute "class". *)
  Definition set_attr (k : string) (v : val) (a : dict string string * dict string string) : option (dict string string * dict string string) :=
    let (at_, st) := a in
    if String.eqb k "style" then match items v with Some l => Some (at_, dupdate st l) | None => None end
    else if String.eqb k "className" then Some (dset "class" (js_text v) at_, st)
    else Some (dset (lower k) (js_text v) at_, st).
  Fixpoint set_attrs (l : dict string val) (a : dict string string * dict string string) : option (dict string string * dict string string) :=
    match l with [] => Some a | (k, v) :: l => match set_attr k v a with Some a => set_attrs l a | None => None end end.
  (** Lines 112-117. *)
  Definition event_name (n : string) : string :=
    let n := lower n in match n with String "o" (String "n" r) => r | _ => n end.
  Definition listeners_of (hs : dict string hjson) : list (string * string) := map (fun p => (event_name (fst p), hj_target (snd p))) hs.
  Definition or_nil {A} (o : option (list A)) : list A := match o with Some l => l | None => [] end.
  (** [build_element_tree], lines 48-96: the nodes added to the parent. [None]: an exception. Simplification: elements of unknown
      types of models, lines 93-96, do not occur. *)
  Fixpoint build (m : model) : option (list dom) :=
    match m with
    | MText s => Some [DText s]
    | MNode tag _ attrs _ eh ch _ =>
        let go := fix go (l : list model) : option (list dom) :=
                    match l with [] => Some [] | c :: l => match build c, go l with Some a, Some b => Some (a ++ b) | _, _ => None end end in
        let kids := match ch with Some l => go l | None => Some [] end in
        if String.eqb tag "" then kids
        else match set_attrs (or_nil attrs) ([], []) with
             | None => None
             | Some (at_, st) => match kids with Some ks => Some [DElem tag at_ st (listeners_of (or_nil eh)) ks] | None => None end
             end
    end.
  (** morphdom (version 2.7.7, not part of /repo) for elements without [id]: the children of an element of the page are made like those of
      an element of the new tree. For each new child the children on the page are removed up to the first one that is of the same type
      and has the same tag; this one is kept, with its listeners, and made like the new child; if there is none the new child is
      added. Children left over are removed. Simplification: the order of attributes, and the special treatment of the current values of
      form elements, are not modelled. *)
  Definition compatible (t f : dom) : bool :=
    match t, f with DText _, DText _ => true | DElem a _ _ _ _, DElem b _ _ _ _ => String.eqb a b | _, _ => false end.
  Fixpoint pick (t : dom) (fs : list dom) : option (dom * list dom) :=
    match fs with [] => None | f :: fs => if compatible t f then Some (f, fs) else pick t fs end.
  Fixpoint morph (t f : dom) {struct t} : dom :=
    match t, f with
    | DElem tag at_ st _ kids, DElem _ _ _ ls fkids =>
        DElem tag at_ st ls
          ((fix go (ts fs : list dom) : list dom :=
              match ts with [] => [] | t :: ts => match pick t fs with Some (f, fs') => morph t f :: go ts fs' | None => t :: go ts [] end end) kids fkids)
    | _, _ => t
    end.
  Fixpoint morphs (ts fs : list dom) : list dom :=
    match ts with [] => [] | t :: ts => match pick t fs with Some (f, fs') => morph t f :: morphs ts fs' | None => t :: morphs ts [] end end.
  (** [run], lines 152-161, with [render_html], lines 35-46: the page after a list of models. [None]: an exception has ended the loop. *)
  Fixpoint run (ms : list model) (page : list dom) : option (list dom) :=
    match ms with
    | [] => Some page
    | m :: ms => match build m with Some new => run ms (morphs new page) | None => None end
    end.
  Definition pages (ms : list model) : option (list dom) := run ms [].

(** ** Specification *)

  (** Names of attributes in HTML. *)
  Definition html_name (k : string) : string :=
    if String.eqb k "className" then "class" else if String.eqb k "htmlFor" then "for"
    else if String.eqb k "acceptCharset" then "accept-charset" else if String.eqb k "httpEquiv" then "http-equiv" else lower k.
  (** What the attribute is in HTML: absent for [False] and [None]. *)
  Definition html_value (v : val) : option string :=
    match v with VNone => None | VBool false => None | VBool true => Some "" | VInt z => Some (show_Z z) | VStr s => Some s | v => Some (other v) end.
  Definition is_attribute (attrs : dict string val) (n s : string) : Prop := exists k v, In (k, v) attrs /\ k <> "style" /\ html_name k = n /\ html_value v = Some s.
  Definition is_style (attrs : dict string val) (n s : string) : Prop := exists v l, In ("style", v) attrs /\ items v = Some l /\ dget n l = Some s.
  (** The browser's name of an event, without "on" and in small letters. *)
  Definition names_event (k n : string) : Prop := lower k = ("on" ++ n)%string \/ (lower k = n /\ forall r, n <> ("on" ++ r)%string).
  (** A model is shown by nodes; with [true], the listeners are its event handlers. *)
  Inductive shown (L : bool) : model -> list dom -> Prop :=
  | shown_text s : shown L (MText s) [DText s]
  | shown_fragment imp attrs js eh ch err ds : all_shown L (or_nil ch) ds -> shown L (MNode "" imp attrs js eh ch err) ds
  | shown_element tag imp attrs js eh ch err at_ st ls ds : tag <> "" ->
      (forall n s, dget n at_ = Some s <-> is_attribute (or_nil attrs) n s) -> (forall n s, dget n st = Some s <-> is_style (or_nil attrs) n s) ->
      (L = true -> Forall2 (fun p l => names_event (fst p) (fst l) /\ snd l = hj_target (snd p)) (or_nil eh) ls) ->
      all_shown L (or_nil ch) ds -> shown L (MNode tag imp attrs js eh ch err) [DElem tag at_ st ls ds]
  with all_shown (L : bool) : list model -> list dom -> Prop :=
  | all_nil : all_shown L [] []
  | all_cons m ms d ds : shown L m d -> all_shown L ms ds -> all_shown L (m :: ms) (d ++ ds).
  (** Models for which attributes are shown rightly: texts and numbers as values, names that only differ in case from those of HTML, and
      different, a dictionary of different styles. And no [id], as morphdom treats it specially. *)
  Definition plain_value (v : val) : Prop := match v with VInt _ | VStr _ => True | _ => False end.
  Definition plain_name (k : string) : Prop := ~ In k ["htmlFor"; "acceptCharset"; "httpEquiv"] /\ lower k <> "id".
  Definition plain_attrs (l : dict string val) : Prop :=
    NoDup (map (fun p => html_name (fst p)) l) /\ forall k v, In (k, v) l -> if String.eqb k "style" then exists d, items v = Some d /\ NoDup (dkeys d) else plain_value v /\ plain_name k.
  Inductive plain : model -> Prop :=
  | plain_text s : plain (MText s)
  | plain_node tag imp attrs js eh ch err : plain_attrs (or_nil attrs) -> Forall plain (or_nil ch) -> plain (MNode tag imp attrs js eh ch err).
  (** Two models with the same elements and event handlers, apart from children added or removed at the end of an element: texts and attributes
      may differ. *)
  Inductive alike : model -> model -> Prop :=
  | alike_text s s' : alike (MText s) (MText s')
  | alike_fragment imp imp' attrs attrs' js js' eh eh' ch ch' err err' :
      Forall2 alike (or_nil ch) (or_nil ch') -> alike (MNode "" imp attrs js eh ch err) (MNode "" imp' attrs' js' eh' ch' err')
  | alike_element tag imp imp' attrs attrs' js js' eh eh' ch ch' err err' : tag <> "" ->
      map (fun p => (fst p, hj_target (snd p))) (or_nil eh) = map (fun p => (fst p, hj_target (snd p))) (or_nil eh') ->
      alikes (or_nil ch) (or_nil ch') -> alike (MNode tag imp attrs js eh ch err) (MNode tag imp' attrs' js' eh' ch' err')
  with alikes : list model -> list model -> Prop :=
  | alikes_more l : alikes [] l
  | alikes_fewer l : alikes l []
  | alikes_cons m m' l l' : alike m m' -> alikes l l' -> alikes (m :: l) (m' :: l').
  Inductive steady : list model -> Prop :=
  | steady_one m : steady [m]
  | steady_more m m' ms : alike m m' -> steady (m' :: ms) -> steady (m :: m' :: ms).

(** ** Proofs *)

  Fixpoint builds (l : list model) : option (list dom) :=
    match l with [] => Some [] | c :: l => match build c, builds l with Some a, Some b => Some (a ++ b) | _, _ => None end end.
  Lemma build_node tag imp attrs js eh ch err : build (MNode tag imp attrs js eh ch err) =
    if String.eqb tag "" then builds (or_nil ch)
    else match set_attrs (or_nil attrs) ([], []) with
         | None => None
         | Some (at_, st) => match builds (or_nil ch) with Some ks => Some [DElem tag at_ st (listeners_of (or_nil eh)) ks] | None => None end
         end.
  Proof. destruct ch; reflexivity. Qed.
  Lemma model_induction (P : model -> Prop) : (forall s, P (MText s)) -> (forall tag imp attrs js eh ch err, Forall P (or_nil ch) -> P (MNode tag imp attrs js eh ch err)) -> forall m, P m.
  Proof.
    intros HT HN. fix IH 1. intros [s|tag imp attrs js eh ch err]; [apply HT|]. apply HN. destruct ch as [l|]; [|constructor]. induction l as [|m l IHl]; constructor; [apply IH|exact IHl].
  Qed.
  Lemma dom_induction (P : dom -> Prop) : (forall s, P (DText s)) -> (forall tag at_ st ls ks, Forall P ks -> P (DElem tag at_ st ls ks)) -> forall d, P d.
  Proof. intros HT HN. fix IH 1. intros [s|tag at_ st ls ks]; [apply HT|]. apply HN. induction ks as [|d l IHl]; constructor; [apply IH|exact IHl]. Qed.
  Lemma morph_elem tag at_ st ls ks tag' at' st' ls' fks : morph (DElem tag at_ st ls ks) (DElem tag' at' st' ls' fks) = DElem tag at_ st ls' (morphs ks fks).
  Proof. reflexivity. Qed.

  Lemma listeners_named eh : Forall2 (fun p l => names_event (fst p) (fst l) /\ snd l = hj_target (snd p)) eh (listeners_of eh).
  Proof.
    induction eh as [|[k h] eh IH]; constructor; [|exact IH]. cbn [fst snd]. split; [|reflexivity]. unfold event_name, names_event.
    destruct (lower k) as [|a [|b r]].
    - right. split; [reflexivity|]. discriminate.
    - right. split; [repeat (destruct a as [[] [] [] [] [] [] [] []]; try reflexivity)|]. destruct a as [[] [] [] [] [] [] [] []]; discriminate.
    - destruct (Ascii.ascii_dec a "o") as [->|Na]; [destruct (Ascii.ascii_dec b "n") as [->|Nb]|].
      + left. reflexivity.
      + right. split; [destruct b as [[] [] [] [] [] [] [] []]; first [reflexivity|congruence]|].
        intros q. destruct b as [[] [] [] [] [] [] [] []]; first [discriminate|congruence].
      + right. split; [destruct a as [[] [] [] [] [] [] [] []]; first [reflexivity|congruence]|].
        intros q. destruct a as [[] [] [] [] [] [] [] []]; first [discriminate|congruence].
  Qed.
  (** *** Attributes *)
  Lemma set_attrs_spec : forall l at_ st, plain_attrs l -> exists at' st', set_attrs l (at_, st) = Some (at', st') /\
    (forall n s, dget n at' = Some s <-> is_attribute l n s \/ (~ (exists s', is_attribute l n s') /\ dget n at_ = Some s)) /\
    (forall n s, dget n st' = Some s <-> is_style l n s \/ (~ (exists s', is_style l n s') /\ dget n st = Some s)).
  Proof.
    induction l as [|[k v] l IH]; intros at_ st (ND & P).
    - exists at_, st. split; [reflexivity|]. split; intros n s.
      + split; [intros H; right; split; [intros (s' & k & v & [] & _)|exact H]|intros [(k & v & [] & _)|[_ H]]; exact H].
      + split; [intros H; right; split; [intros (s' & v & l & [] & _)|exact H]|intros [(v & l & [] & _)|[_ H]]; exact H].
    - cbn [map fst] in ND. inversion ND as [|? ? N1 N2]; subst. assert (P' : plain_attrs l) by (split; [exact N2|intros k' v' H; apply P; right; exact H]).
      pose proof (P k v (or_introl eq_refl)) as Pk. cbn [set_attrs set_attr].
      assert (Fresh : forall v', ~ In (k, v') l). { intros v' H. apply N1. apply in_map_iff. exists (k, v'). split; [reflexivity|exact H]. }
      destruct (String.eqb k "style") eqn:K.
      + apply String.eqb_eq in K. subst k. destruct Pk as (d & Ed & Nd). rewrite Ed. destruct (IH at_ (dupdate st d) P') as (at' & st' & E & A & S). exists at', st'. split; [exact E|]. split; intros n s.
        * rewrite A. split; (intros [(k & w & H & R)|[N G]]; [left|right]).
          -- exists k, w. split; [right; exact H|exact R].
          -- split; [|exact G]. intros (s' & k & w & [[= <- <-]|H] & K & R); [congruence|]. apply N. exists s', k, w. split; [exact H|split; [exact K|exact R]].
          -- destruct H as [[= <- <-]|H]; [destruct R; congruence|]. exists k, w. split; [exact H|exact R].
          -- split; [|exact G]. intros (s' & k & w & H & R). apply N. exists s', k, w. split; [right; exact H|exact R].
        * rewrite S, dget_dupdate by exact Nd.
          assert (NS : forall s', ~ is_style l n s') by (intros s' (w & l' & H & _); exact (Fresh w H)).
          assert (IS : forall s', is_style (("style", v) :: l) n s' <-> dget n d = Some s').
          { intros s'. split; [intros (w & l' & [[= <-]|H] & I1 & I2); [congruence|destruct (Fresh w H)]|]. intros H. exists v, d. split; [left; reflexivity|split; [exact Ed|exact H]]. }
          split.
          -- intros [H|[_ G]]; [destruct (NS s H)|]. destruct (dget n d) as [x|] eqn:Dn; [left; apply IS; exact G|right]. split; [|exact G]. intros (s' & H). apply IS in H. discriminate.
          -- intros [H|[N G]]; right; (split; [intros (s' & H'); exact (NS s' H')|]); [apply IS in H; rewrite H; reflexivity|]. destruct (dget n d) as [x|]; [|exact G]. destruct N. exists x. apply IS. reflexivity.
      + destruct Pk as (Pv & Pn & _). apply String.eqb_neq in K.
        assert (HV : html_value v = Some (js_text v)) by (destruct v; try destruct Pv; reflexivity).
        assert (Es : (if String.eqb k "className" then Some (dset "class" (js_text v) at_, st) else Some (dset (lower k) (js_text v) at_, st)) = Some (dset (html_name k) (js_text v) at_, st)).
        { unfold html_name. destruct (String.eqb k "className"); [reflexivity|]. destruct (String.eqb k "htmlFor") eqn:Q1; [apply String.eqb_eq in Q1; subst; destruct Pn; left; reflexivity|].
          destruct (String.eqb k "acceptCharset") eqn:Q2; [apply String.eqb_eq in Q2; subst; destruct Pn; right; left; reflexivity|].
          destruct (String.eqb k "httpEquiv") eqn:Q3; [apply String.eqb_eq in Q3; subst; destruct Pn; right; right; left; reflexivity|]. reflexivity. }
        rewrite Es. destruct (IH (dset (html_name k) (js_text v) at_) st P') as (at' & st' & E & A & S). exists at', st'. split; [exact E|].
        assert (NA : forall s', ~ is_attribute l (html_name k) s'). { intros s' (k' & w & H & _ & R & _). apply N1. apply in_map_iff. exists (k', w). split; [exact R|exact H]. }
        split; intros n s.
        * rewrite A, dget_dset. destruct (eq_dec n (html_name k)) as [->|D].
          -- split.
             ++ intros [H|[_ [= <-]]]; [destruct (NA s H)|]. left. exists k, v. split; [left; reflexivity|split; [exact K|split; [reflexivity|exact HV]]].
             ++ intros [(k' & w & [[= <- <-]|H] & K' & R & V')|[N _]].
                ** right. split; [intros (s' & H); exact (NA s' H)|congruence].
                ** destruct (NA s). exists k', w. split; [exact H|split; [exact K'|split; [exact R|exact V']]].
                ** destruct N. exists (js_text v), k, v. split; [left; reflexivity|split; [exact K|split; [reflexivity|exact HV]]].
          -- split; (intros [(k' & w & H & R)|[N G]]; [left|right]).
             ++ exists k', w. split; [right; exact H|exact R].
             ++ split; [|exact G]. intros (s' & k' & w & [[= <- <-]|H] & K' & R & V'); [congruence|]. apply N. exists s', k', w. split; [exact H|split; [exact K'|split; [exact R|exact V']]].
             ++ destruct H as [[= <- <-]|H]; [destruct R as (_ & R & _); congruence|]. exists k', w. split; [exact H|exact R].
             ++ split; [|exact G]. intros (s' & k' & w & H & R). apply N. exists s', k', w. split; [right; exact H|exact R].
        * rewrite S. split; (intros [(w & d & H & R)|[N G]]; [left|right]).
          -- exists w, d. split; [right; exact H|exact R].
          -- split; [|exact G]. intros (s' & w & d & [[= E1 _]|H] & R); [congruence|]. apply N. exists s', w, d. split; [exact H|exact R].
          -- destruct H as [[= E1 _]|H]; [congruence|]. exists w, d. split; [exact H|exact R].
          -- split; [|exact G]. intros (s' & w & d & H & R). apply N. exists s', w, d. split; [right; exact H|exact R].
  Qed.
  Lemma build_shown m : plain m -> exists ds, build m = Some ds /\ shown true m ds.
  Proof.
    induction m as [s|tag imp attrs js eh ch err IH] using model_induction; intros Pl; [eexists; split; [reflexivity|constructor]|]. inversion Pl as [|? ? ? ? ? ? ? PA PC]; subst.
    assert (K : exists ks, builds (or_nil ch) = Some ks /\ all_shown true (or_nil ch) ks).
    { clear Pl PA. induction IH as [|m l Hm _ IHl]; [exists []; split; [reflexivity|constructor]|]. inversion PC as [|? ? P1 P2]; subst. destruct (Hm P1) as (a & Ea & Sa), (IHl P2) as (b & Eb & Sb).
      exists (a ++ b). cbn [builds]. rewrite Ea, Eb. split; [reflexivity|constructor; assumption]. }
    destruct K as (ks & Ek & Sk). rewrite build_node, Ek. destruct (String.eqb tag "") eqn:T.
    - apply String.eqb_eq in T. subst tag. exists ks. split; [reflexivity|constructor; exact Sk].
    - apply String.eqb_neq in T. destruct (set_attrs_spec (or_nil attrs) [] [] PA) as (at' & st' & E & A & S).
      exists [DElem tag at' st' (listeners_of (or_nil eh)) ks]. split.
      { exact (f_equal (fun o => match o with Some (a, b) => Some [DElem tag a b (listeners_of (or_nil eh)) ks] | None => None end) E). } constructor; [exact T| | |intros _; apply listeners_named|exact Sk].
      + intros n s. rewrite A. split; [intros [H|[_ H]]; [exact H|discriminate]|left; exact H].
      + intros n s. rewrite S. split; [intros [H|[_ H]]; [exact H|discriminate]|left; exact H].
  Qed.

  (** *** The page *)
  Inductive same_view : dom -> dom -> Prop :=
  | view_text s : same_view (DText s) (DText s)
  | view_elem tag at_ st ls ls' ks ks' : Forall2 same_view ks ks' -> same_view (DElem tag at_ st ls ks) (DElem tag at_ st ls' ks').
  Lemma view_refl d : same_view d d.
  Proof.
    induction d as [s|tag at_ st ls ks IH] using dom_induction; constructor. induction IH; constructor; assumption.
  Qed.
  Lemma views_refl ds : Forall2 same_view ds ds.
  Proof. induction ds; constructor; [apply view_refl|assumption]. Qed.
  Lemma morphs_view ts : Forall (fun t => forall f, same_view t (morph t f)) ts -> forall fs, Forall2 same_view ts (morphs ts fs).
  Proof.
    intros H. induction H as [|t ts Ht _ IH]; intros fs; [constructor|]. cbn [morphs]. destruct (pick t fs) as [[f fs']|]; constructor; [apply Ht|apply IH|apply view_refl|apply IH].
  Qed.
  Lemma morph_view t : forall f, same_view t (morph t f).
  Proof.
    induction t as [s|tag at_ st ls ks IH] using dom_induction; intros [s'|tag' at' st' ls' fks]; try apply view_refl. rewrite morph_elem. constructor. apply morphs_view. exact IH.
  Qed.
  Lemma shown_view L m : forall ds ds', shown L m ds -> Forall2 same_view ds ds' -> shown false m ds'.
  Proof.
    induction m as [s|tag imp attrs js eh ch err IH] using model_induction; intros ds ds' S V.
    - inversion S; subst. inversion V as [|? ? ? ? V1 V2]; subst. inversion V2; subst. inversion V1; subst. constructor.
    - assert (K : forall ds ds', all_shown L (or_nil ch) ds -> Forall2 same_view ds ds' -> all_shown false (or_nil ch) ds').
      { clear S V ds ds'. induction IH as [|m l Hm _ IHl]; intros ds ds' S V; inversion S; subst.
        - inversion V; subst. constructor.
        - apply Forall2_app_inv_l in V. destruct V as (a & b & V1 & V2 & ->). constructor; [eapply Hm; eassumption|eapply IHl; eassumption]. }
      inversion S as [|imp' attrs' js' eh' ch' err' ds0 A|tag' imp' attrs' js' eh' ch' err' at_ st ls ds0 T A1 A2 A3 A4]; subst.
      + constructor. eapply K; eassumption.
      + inversion V as [|? ? ? ? V1 V2]; subst. inversion V2; subst. inversion V1 as [|? ? ? ? ls' ? ks' V3]; subst. constructor; [exact T|exact A1|exact A2|discriminate|]. eapply K; eassumption.
  Qed.
  Lemma morphs_nil ts : morphs ts [] = ts.
  Proof. induction ts as [|t ts IH]; [reflexivity|]. cbn [morphs pick]. rewrite IH. reflexivity. Qed.

  (** Trees on which morphdom changes no listener. *)
  Inductive similar : dom -> dom -> Prop :=
  | similar_text s s' : similar (DText s) (DText s')
  | similar_elem tag at_ at' st st' ls ks ks' : similars ks ks' -> similar (DElem tag at_ st ls ks) (DElem tag at' st' ls ks')
  with similars : list dom -> list dom -> Prop :=
  | similars_more l : similars [] l
  | similars_fewer l : similars l []
  | similars_cons d d' l l' : similar d d' -> similars l l' -> similars (d :: l) (d' :: l').
  Lemma morphs_similar ts : Forall (fun t => forall f, similar f t -> morph t f = t) ts -> forall fs, similars fs ts -> morphs ts fs = ts.
  Proof.
    intros H. induction H as [|t ts Ht _ IH]; intros fs S; [reflexivity|]. cbn [morphs]. inversion S as [|?|f t' fs' ts' S1 S2]; subst.
    - cbn [pick]. rewrite morphs_nil. reflexivity.
    - cbn [pick]. assert (C : compatible t f = true) by (inversion S1; subst; cbn [compatible]; [reflexivity|apply String.eqb_refl]). rewrite C, (Ht f S1), (IH fs' S2). reflexivity.
  Qed.
  Lemma morph_similar t : forall f, similar f t -> morph t f = t.
  Proof.
    induction t as [s|tag at_ st ls ks IH] using dom_induction; intros f S; inversion S as [|tag' at1 at' st1 st' ls' ks1 ks' S1]; subst; [reflexivity|]. rewrite morph_elem. f_equal. apply morphs_similar; assumption.
  Qed.
  Lemma similars_app a a' b b' : Forall2 similar a a' -> similars b b' -> similars (a ++ b) (a' ++ b').
  Proof. intros H S. induction H; [exact S|]. cbn [app]. constructor; assumption. Qed.
  Lemma listeners_eq (a b : dict string hjson) : map (fun p => (fst p, hj_target (snd p))) a = map (fun p => (fst p, hj_target (snd p))) b -> listeners_of a = listeners_of b.
  Proof.
    intros H. assert (G : forall l, listeners_of l = map (fun q => (event_name (fst q), snd q)) (map (fun p : string * hjson => (fst p, hj_target (snd p))) l)).
    { intros l. unfold listeners_of. rewrite map_map. reflexivity. }
    rewrite !G, H. reflexivity.
  Qed.
  Lemma alike_similar m : forall m' ds ds', alike m m' -> build m = Some ds -> build m' = Some ds' -> Forall2 similar ds ds'.
  Proof.
    induction m as [s|tag imp attrs js eh ch err IH] using model_induction; intros m' ds ds' A B B'.
    - inversion A; subst. injection B as <-. injection B' as <-. constructor; [constructor|constructor].
    - inversion A as [|? ? ? ? ? ? ? ? ? ch' ? ? F|? ? ? ? ? ? ? ? eh' ? ch' ? ? T H F]; subst; rewrite build_node in B, B'.
      + cbn [String.eqb] in B, B'. clear A. revert ds ds' B B'. induction F as [|m m' l l' H F IHF]; intros ds ds' B B'.
        * injection B as <-. injection B' as <-. constructor.
        * cbn [builds] in B, B'. inversion IH as [|? ? IH1 IH2]; subst.
          destruct (build m) as [a|] eqn:Ea; [|discriminate]. destruct (builds l) as [b|] eqn:Eb; [|discriminate]. injection B as <-.
          destruct (build m') as [a'|] eqn:Ea'; [|discriminate]. destruct (builds l') as [b'|] eqn:Eb'; [|discriminate]. injection B' as <-.
          apply Forall2_app; [eapply IH1; eauto|apply (IHF IH2); reflexivity].
      + apply String.eqb_neq in T. rewrite T in B, B'. destruct (set_attrs (or_nil attrs) _) as [[at1 st1]|]; [|discriminate]. destruct (builds (or_nil ch)) as [ks|] eqn:K; [|discriminate]. injection B as <-.
        destruct (set_attrs _ _) as [[at2 st2]|]; [|discriminate]. destruct (builds (or_nil ch')) as [ks'|] eqn:K'; [|discriminate]. injection B' as <-.
        rewrite <- (listeners_eq _ _ H). constructor; [|constructor]. constructor. clear A T H. revert ks ks' K K'. revert IH F. generalize (or_nil ch) as l, (or_nil ch') as l'. induction l as [|m l IHl]; intros l' IH F ks ks' K K'.
        * injection K as <-. apply similars_more.
        * inversion F as [|?|? m' ? l2 F1 F2]; subst; [injection K' as <-; apply similars_fewer|].
          cbn [builds] in K, K'. inversion IH as [|? ? IH1 IH2]; subst.
          destruct (build m) as [a|] eqn:Ea; [|discriminate]. destruct (builds l) as [b|] eqn:Eb; [|discriminate]. injection K as <-.
          destruct (build m') as [a'|] eqn:Ea'; [|discriminate]. destruct (builds l2) as [b'|] eqn:Eb'; [|discriminate]. injection K' as <-.
          apply similars_app; [eapply IH1; eauto|eapply (IHl l2 IH2 F2); [reflexivity|exact Eb']].
  Qed.
  Lemma run_app a b page : run (a ++ b) page = match run a page with Some p => run b p | None => None end.
  Proof. revert page. induction a as [|m a IH]; intros page; [reflexivity|]. cbn [app run]. destruct (build m); [apply IH|reflexivity]. Qed.
  Lemma run_plain ms : Forall plain ms -> forall page, exists p, run ms page = Some p.
  Proof.
    intros H. induction H as [|m ms Hm _ IH]; intros page; [exists page; reflexivity|]. cbn [run]. destruct (build_shown m Hm) as (ds & -> & _). apply IH.
  Qed.

(** ** C85 *)

  (** The page always has the elements, attributes, styles and texts of the latest model. *)
  Theorem C85_shown_partial ms m : Forall plain (ms ++ [m]) -> exists page, pages (ms ++ [m]) = Some page /\ shown false m page.
  Proof.
    intros P. apply Forall_app in P. destruct P as [P1 P2]. inversion P2 as [|? ? Pm _]; subst. unfold pages. rewrite run_app. destruct (run_plain ms P1 []) as (p & ->). cbn [run].
    destruct (build_shown m Pm) as (ds & -> & S). eexists. split; [reflexivity|]. eapply shown_view; [exact S|]. apply morphs_view. apply Forall_forall. intros t _ f. apply morph_view.
  Qed.
  (** While elements and event handlers stay the same, or come and go at the end of their parent, the listeners are those of the latest model. *)
  Theorem C85_steady_partial ms m : Forall plain (ms ++ [m]) -> steady (ms ++ [m]) -> exists page, pages (ms ++ [m]) = Some page /\ shown true m page.
  Proof.
    intros P S. enough (G : pages (ms ++ [m]) = build m).
    { apply Forall_app in P. destruct P as [_ P]. inversion P as [|? ? Pm _]; subst. destruct (build_shown m Pm) as (ds & E & H). exists ds. rewrite G. split; assumption. }
    unfold pages. destruct ms as [|m0 ms].
    - cbn [app run]. destruct (build m) as [ds|]; [rewrite morphs_nil|]; reflexivity.
    - cbn [app run] in *. inversion P as [|? ? P0 P']; subst. destruct (build_shown m0 P0) as (d0 & E0 & _). rewrite E0, morphs_nil. clear P P0. revert m0 d0 E0 S P'. induction ms as [|m1 ms IH]; intros m0 d0 E0 S P'.
      + cbn [app run]. inversion P' as [|? ? P1 _]; subst. inversion S as [|? ? ? A _]; subst. destruct (build_shown m P1) as (d & E & _). rewrite E. f_equal. apply morphs_similar.
        * apply Forall_forall. intros t _. apply morph_similar.
        * pose proof (alike_similar m0 m d0 d A E0 E) as F. rewrite <- (app_nil_r d0), <- (app_nil_r d). apply similars_app; [exact F|constructor].
      + cbn [app run]. inversion P' as [|? ? P1 P2]; subst. inversion S as [|? ? ? A S']; subst. destruct (build_shown m1 P1) as (d & E & _). rewrite E.
        replace (morphs d d0) with d; [apply (IH m1 d E S' P2)|]. symmetry. apply morphs_similar.
        * apply Forall_forall. intros t _. apply morph_similar.
        * pose proof (alike_similar m0 m1 d0 d A E0 E) as F. rewrite <- (app_nil_r d0), <- (app_nil_r d). apply similars_app; [exact F|constructor].
  Qed.
  (** Otherwise not. When the first of two buttons is removed, the element of the first is kept, and its clicks go to the first one's target. *)
  Definition handler_to (t : string) : hjson := HJson t false false None None.
  Definition button (t : string) (text : string) : model := MNode "button" None None None (Some [("onClick", handler_to t)]) (Some [MText text]) None.
  Definition div (l : list model) : model := MNode "div" None None None None (Some l) None.
  Theorem C85_stale_refuted :
    pages [div [button "t1" "a"; button "t2" "b"]; div [button "t2" "b"]] = Some [DElem "div" [] [] [] [DElem "button" [] [] [("click", "t1")] [DText "b"]]].
  Proof. reflexivity. Qed.
  (** An event handler that an element gets later is never added. *)
  Theorem C85_added_refuted :
    pages [div [MNode "button" None None None None None None]; div [button "t" "a"]] = Some [DElem "div" [] [] [] [DElem "button" [] [] [] [DText "a"]]].
  Proof. reflexivity. Qed.
  (** Attributes that are [False] are set; React's name of "for" is not understood; a text as style ends the program. *)
  Theorem C85_false_refuted : pages [MNode "button" None (Some [("disabled", VBool false)]) None None None None] = Some [DElem "button" [("disabled", "false")] [] [] []].
  Proof. reflexivity. Qed.
  Theorem C85_label_refuted : pages [MNode "label" None (Some [("htmlFor", VStr "x")]) None None None None] = Some [DElem "label" [("htmlfor", "x")] [] [] []].
  Proof. reflexivity. Qed.
  Theorem C85_style_refuted ms : items (VStr "color:red") = None -> pages (MNode "p" None (Some [("style", VStr "color:red")]) None None None None :: ms) = None.
  Proof. intros E. unfold pages. cbn. rewrite E. reflexivity. Qed.
  (** Import sources, inline scripts, errors and [preventDefault] and [stopPropagation] make no difference. *)
  Definition bare (h : string * hjson) : string * hjson := (fst h, handler_to (hj_target (snd h))).
  Theorem C85_ignored_refuted tag imp attrs js eh ch err : build (MNode tag imp attrs js eh ch err) = build (MNode tag None attrs None (option_map (map bare) eh) ch None).
  Proof.
    rewrite !build_node. assert (E : listeners_of (or_nil (option_map (map bare) eh)) = listeners_of (or_nil eh)); [|rewrite E; reflexivity].
    destruct eh as [l|]; [|reflexivity]. cbn [option_map or_nil]. unfold listeners_of. rewrite map_map. reflexivity.
  Qed.
End Page.

Definition no_items (v : val) : option (dict string string) := match v with VPair (VStr k) (VStr x) => Some [(k, x)] | _ => None end.
Definition no_text (v : val) : string := "".
Definition counter (n : string) (extra : list model) : model :=
  MNode "" None None None None (Some [MNode "div" None (Some [("className", VStr n); ("tabIndex", VInt 3); ("style", VPair (VStr "color") (VStr n))]) None None
    (Some ([button "t" n; MText n] ++ extra)) None]) None.
Definition counting : list model := [counter "0" []; counter "1" [button "u" "x"]; counter "2" []].
Example C85_counting : Forall (plain no_items) counting /\ steady counting /\
  pages no_items no_text counting =
  Some [DElem "div" [("class", "2"); ("tabindex", "3")] [("color", "2")] [] [DElem "button" [] [] [("click", "t")] [DText "2"]; DText "2"]].
Proof.
  assert (PB : forall t x, plain no_items (button t x)).
  { intros t x. unfold button. constructor; [split; [constructor|intros k v []]|]. constructor; [apply plain_text|constructor]. }
  assert (PC : forall n l, Forall (plain no_items) l -> plain no_items (counter n l)).
  { intros n l H. constructor; [split; [constructor|intros k v []]|]. constructor; [|constructor]. constructor.
    - split.
      + constructor; [intros [Q|[Q|[]]]; discriminate|constructor; [intros [Q|[]]; discriminate|constructor; [intros []|constructor]]].
      + intros k v [[= <- <-]|[[= <- <-]|[[= <- <-]|[]]]]; cbn.
        * split; [exact I|split; [intros [Q|[Q|[Q|[]]]]; discriminate|discriminate]].
        * split; [exact I|split; [intros [Q|[Q|[Q|[]]]]; discriminate|discriminate]].
        * eexists. split; [reflexivity|]. repeat constructor. intros [].
    - constructor; [apply PB|constructor; [constructor|exact H]]. }
  assert (AB : forall t x y, alike (button t x) (button t y)).
  { intros t x y. apply alike_element; [discriminate|reflexivity|]. apply alikes_cons; [apply alike_text|apply alikes_more]. }
  split; [|split; [|reflexivity]].
  - constructor; [apply PC; constructor|constructor; [apply PC; constructor; [apply PB|constructor]|constructor; [apply PC; constructor|constructor]]].
  - apply steady_more; [|apply steady_more; [|apply steady_one]].
    + apply alike_fragment. constructor; [|constructor]. apply alike_element; [discriminate|reflexivity|]. apply alikes_cons; [apply AB|]. apply alikes_cons; [constructor|apply alikes_more].
    + apply alike_fragment. constructor; [|constructor]. apply alike_element; [discriminate|reflexivity|]. apply alikes_cons; [apply AB|]. apply alikes_cons; [constructor|apply alikes_fewer].
Qed.
Print Assumptions C85_shown_partial.
Print Assumptions C85_steady_partial.
Print Assumptions C85_stale_refuted.
Print Assumptions C85_added_refuted.
Print Assumptions C85_false_refuted.
Print Assumptions C85_label_refuted.
Print Assumptions C85_style_refuted.
Print Assumptions C85_ignored_refuted.
