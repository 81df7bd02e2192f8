(** * Every update's model is valid against the published JSON schema: property C41

    /repo/src/reactpy/core/vdom.py:36-106 ([VDOM_JSON_SCHEMA]) against the models of LayoutModel.v. *)
From Coq Require Import String ZArith Bool Arith Lia List.
From Verif Require Import Dict LayoutTypes LayoutModel LayoutDeriv.
Import ListNotations.
Local Open Scope string_scope. Local Open Scope list_scope.

(** ** JSON and JSON schema *)

(** JSON values; numbers are integers. *)
Inductive json := JNull | JBool (b : bool) | JNum (z : Z) | JStr (s : string) | JArr (l : list json) | JObj (o : list (string * json)).
Inductive jtype := TNull | TBoolean | TInteger | TString | TArray | TObject.
Definition has_type (j : json) (t : jtype) : bool :=
  match j, t with
  | JNull, TNull | JBool _, TBoolean | JNum _, TInteger | JStr _, TString | JArr _, TArray | JObj _, TObject => true
  | _, _ => false
  end.
(** The keywords that the published schema uses; [KAll] is [patternProperties: {".*": s}]. [KDependent] is
    [dependentSchemas], a keyword of a later draft than the declared one (so validators of the declared draft ignore it);
    here it is enforced. *)
Inductive schema := Schema (kws : list keyword)
with keyword :=
| KType (ts : list jtype) | KProps (ps : list (string * schema)) | KRequired (ks : list string) | KItems (s : schema) | KAll (s : schema)
| KMinimum (z : Z) | KMaxLength (n : nat) | KEnum (l : list string) | KIf (a b : schema) | KNot (s : schema) | KRef (d : string) | KDependent (k : string) (s : schema).

Fixpoint oall {A} (f : A -> option bool) (l : list A) : option bool :=
  match l with
  | [] => Some true
  | x :: l' => match f x with Some true => oall f l' | r => r end
  end.
(** The meaning of the keywords (JSON schema, validation): [None] is out of fuel. *)
Fixpoint check (n : nat) (defs : list (string * schema)) (s : schema) (j : json) : option bool :=
  match n with
  | 0 => None
  | S n' =>
      match s with
      | Schema kws =>
          oall (fun k =>
            match k with
            | KType ts => Some (existsb (has_type j) ts)
            | KProps ps => match j with
                           | JObj o => oall (fun p => match dget (fst p) o with Some x => check n' defs (snd p) x | None => Some true end) ps
                           | _ => Some true
                           end
            | KRequired ks => match j with JObj o => Some (forallb (fun k => dmem k o) ks) | _ => Some true end
            | KItems s' => match j with JArr l => oall (check n' defs s') l | _ => Some true end
            | KAll s' => match j with JObj o => oall (fun kv => check n' defs s' (snd kv)) o | _ => Some true end
            | KMinimum z => match j with JNum x => Some (z <=? x)%Z | _ => Some true end
            | KMaxLength m => match j with JStr t => Some (Nat.leb (String.length t) m) | _ => Some true end
            | KEnum l => match j with JStr t => Some (mem t l) | _ => Some false end
            | KIf a b => match check n' defs a j with
                         | Some true => check n' defs b j
                         | Some false => Some true
                         | None => None
                         end
            | KNot s' => match check n' defs s' j with Some b => Some (negb b) | None => None end
            | KRef d => match dget d defs with Some s' => check n' defs s' j | None => Some false end
            | KDependent k s' => match j with JObj o => if dmem k o then check n' defs s' j else Some true | _ => Some true end
            end) kws
      end
  end.

(** [VDOM_JSON_SCHEMA], vdom.py:36-106. The schema of inline JavaScript is the string "str" in the source, which constrains nothing. *)
Definition anything : schema := Schema [].
Definition ref (d : string) : schema := Schema [KRef d].
Definition vdom_schema : list (string * schema) :=
  [ ("element", Schema [
       KType [TObject];
       KProps [("tagName", Schema [KType [TString]]); ("error", Schema [KType [TString]]); ("children", ref "elementChildren");
               ("attributes", Schema [KType [TObject]]); ("eventHandlers", ref "elementEventHandlers");
               ("inlineJavaScript", ref "elementInlineJavaScripts"); ("importSource", ref "importSource")];
       KRequired ["tagName"];
       KDependent "error" (Schema [KProps [("tagName", Schema [KMaxLength 0])]])]);
    ("elementChildren", Schema [KType [TArray]; KItems (ref "elementOrString")]);
    ("elementEventHandlers", Schema [KType [TObject]; KAll (ref "eventHandler")]);
    ("eventHandler", Schema [
       KType [TObject];
       KProps [("target", Schema [KType [TString]]); ("preventDefault", Schema [KType [TBoolean]]); ("stopPropagation", Schema [KType [TBoolean]]);
               ("debounce", Schema [KType [TInteger]; KMinimum 0]); ("throttle", Schema [KType [TInteger]; KMinimum 0])];
       KRequired ["target"]]);
    ("elementInlineJavaScripts", Schema [KType [TObject]; KAll anything]);
    ("importSource", Schema [
       KType [TObject];
       KProps [("source", Schema [KType [TString]]); ("sourceType", Schema [KEnum ["URL"; "NAME"]]);
               ("fallback", Schema [KType [TObject; TString; TNull]; KIf (Schema [KNot (Schema [KType [TNull]])]) (ref "elementOrString")]);
               ("unmountBeforeUpdate", Schema [KType [TBoolean]])];
       KRequired ["source"]]);
    ("elementOrString", Schema [KType [TObject; TString]; KIf (Schema [KType [TObject]]) (ref "element")]) ].
(** Validity: [#/definitions/element]. *)
Definition conforms (j : json) : Prop := exists n, check n vdom_schema (ref "element") j = Some true.

(** ** Models as JSON *)

(** Attribute values. Functions inside attributes are not JSON serialisable; a setter is shown as [null]. *)
Fixpoint val_json (v : val) : json :=
  match v with
  | VNone => JNull | VBool b => JBool b | VInt z => JNum z | VStr s => JStr s | VPair a b => JArr [val_json a; val_json b] | VSetter _ _ => JNull
  end.
Definition opt_entry {A} (k : string) (f : A -> json) (o : option A) : list (string * json) := match o with Some a => [(k, f a)] | None => [] end.
Definition hjson_json (h : hjson) : json :=
  JObj ([("target", JStr (hj_target h)); ("preventDefault", JBool (hj_prevent h)); ("stopPropagation", JBool (hj_stop h))] ++
        opt_entry "debounce" JNum (hj_debounce h) ++ opt_entry "throttle" JNum (hj_throttle h)).
(** The import source of a component of a JavaScript module, represented in LayoutTypes.v by its URL, with no fallback
    (/repo/src/reactpy/reactjs/module.py and utils.py build the dictionary). *)
Definition import_json (s : string) : json :=
  JObj [("source", JStr s); ("sourceType", JStr "URL"); ("fallback", JNull); ("unmountBeforeUpdate", JBool false)].
Definition dict_json {A} (f : A -> json) (d : dict string A) : json := JObj (map (fun kv => (fst kv, f (snd kv))) d).
Fixpoint model_json (m : model) : json :=
  match m with
  | MText s => JStr s
  | MNode tag imp attrs js eh ch err =>
      JObj ([("tagName", JStr tag)] ++ opt_entry "error" JStr err ++
            match ch with Some l => [("children", JArr (map model_json l))] | None => [] end ++
            opt_entry "attributes" (dict_json val_json) attrs ++ opt_entry "eventHandlers" (dict_json hjson_json) eh ++
            opt_entry "inlineJavaScript" (dict_json JStr) js ++ opt_entry "importSource" import_json imp)
  end.

(** ** Hypothesis of C41: the handlers of the program have non-negative rate limits *)

Definition nonneg (o : option Z) : Prop := forall z, o = Some z -> (0 <= z)%Z.
Definition good_handler (h : handler) : Prop := nonneg (h_debounce h) /\ nonneg (h_throttle h).
Fixpoint good_raw (r : raw) : Prop :=
  match r with
  | RNone | RText _ => True
  | RElem _ _ hs _ _ ch =>
      Forall (fun eh => good_handler (snd eh)) hs /\
      match ch with Some l => (fix all l := match l with [] => True | x :: l' => good_raw x /\ all l' end) l | None => True end
  | RComp c => good_cinst c
  end
with good_cinst (c : cinst) : Prop :=
  match c with Cinst _ _ _ kids => (fix all l := match l with [] => True | x :: l' => good_raw x /\ all l' end) kids end.
(** A render function that only returns such elements, whatever the hooks give it. *)
Fixpoint good_body (b : body) : Prop :=
  match b with
  | BRet r => good_raw r
  | BRaise _ => True
  | BUseCell _ k => forall h i c, good_body (k h i c)
  | BSetCell _ _ k | BAddEffect _ k | BProvide _ _ k | BDispatch _ _ _ k => good_body k
  | BContext _ k => forall v, good_body (k v)
  end.
Definition good_program (defs : nat -> val -> list raw -> body) : Prop :=
  forall n p kids, Forall good_raw kids -> good_body (defs n p kids).

(** ** Models that conform *)

Definition good_hjson (h : hjson) : Prop := nonneg (hj_debounce h) /\ nonneg (hj_throttle h).
Fixpoint good_model (m : model) : Prop :=
  match m with
  | MText _ => True
  | MNode tag _ _ _ eh ch err =>
      (forall l, eh = Some l -> Forall (fun kv => good_hjson (snd kv)) l) /\ (err <> None -> tag = "") /\
      match ch with Some l => (fix all l := match l with [] => True | x :: l' => good_model x /\ all l' end) l | None => True end
  end.
Definition node (m : model) : Prop := match m with MText _ => False | MNode _ _ _ _ _ _ _ => True end.
Lemma all_Forall {A} (P : A -> Prop) l : (fix all l := match l with [] => True | x :: l' => P x /\ all l' end) l <-> Forall P l.
Proof. induction l as [|x l IH]; [split; constructor|]. rewrite IH. split; [intros [H1 H2]; constructor; auto|intros H; inversion H; auto]. Qed.

Fixpoint depth (m : model) : nat :=
  match m with
  | MText _ => 0
  | MNode _ _ _ _ _ (Some l) _ => S (fold_right (fun x a => Nat.max (depth x) a) 0 l)
  | MNode _ _ _ _ _ None _ => 0
  end.
Section ModelInd.
  Variable P : model -> Prop.
  Hypothesis HT : forall s, P (MText s).
  Hypothesis HN : forall tag imp attrs js eh err, P (MNode tag imp attrs js eh None err).
  Hypothesis HC : forall tag imp attrs js eh l err, Forall P l -> P (MNode tag imp attrs js eh (Some l) err).
  Fixpoint model_ind2 (m : model) : P m :=
    match m with
    | MText s => HT s
    | MNode tag imp attrs js eh None err => HN tag imp attrs js eh err
    | MNode tag imp attrs js eh (Some l) err =>
        HC tag imp attrs js eh l err ((fix go l : Forall P l := match l with [] => Forall_nil P | x :: l' => Forall_cons x (model_ind2 x) (go l') end) l)
    end.
End ModelInd.

Lemma oall_true {A} (f : A -> option bool) l : Forall (fun x => f x = Some true) l -> oall f l = Some true.
Proof. induction 1 as [|x l E F IH]; simpl; auto. rewrite E. auto. Qed.

Definition D := vdom_schema.
Lemma check_handler n h : n >= 3 -> good_hjson h -> check n D (ref "eventHandler") (hjson_json h) = Some true.
Proof.
  intros L [G1 G2]. destruct n as [|[|[|n]]]; try lia. unfold nonneg in *. destruct h as [t p s d th]; simpl in G1, G2.
  assert (G1' : forall z, d = Some z -> (0 <=? z)%Z = true) by (intros z E; apply Z.leb_le; auto).
  assert (G2' : forall z, th = Some z -> (0 <=? z)%Z = true) by (intros z E; apply Z.leb_le; auto).
  destruct d as [d|], th as [th|]; simpl; rewrite ?(G1' _ eq_refl), ?(G2' _ eq_refl); reflexivity.
Qed.
Lemma check_ref n d s j : dget d D = Some s -> check (S n) D (ref d) j = check n D s j.
Proof. intros E. unfold ref. cbn [check oall]. rewrite E. destruct (check n D s j) as [[]|]; auto. Qed.
Lemma check_all n s o : check (S n) D (Schema [KType [TObject]; KAll s]) (JObj o) = oall (fun kv => check n D s (snd kv)) o.
Proof. cbn [check oall existsb has_type orb]. destruct (oall _ o) as [[]|]; auto. Qed.
Lemma check_items n s l : check (S n) D (Schema [KType [TArray]; KItems s]) (JArr l) = oall (check n D s) l.
Proof. cbn [check oall existsb has_type orb]. destruct (oall _ l) as [[]|]; auto. Qed.
Lemma check_handlers n l : n >= 5 -> Forall (fun kv => good_hjson (snd kv)) l -> check n D (ref "elementEventHandlers") (dict_json hjson_json l) = Some true.
Proof.
  intros L G. destruct n as [|[|n]]; try lia. rewrite check_ref with (s := Schema [KType [TObject]; KAll (ref "eventHandler")]) by reflexivity.
  unfold dict_json. rewrite check_all. apply oall_true. apply Forall_forall. intros kv I. apply in_map_iff in I. destruct I as ([k h] & <- & I). simpl snd.
  apply check_handler; [lia|]. rewrite Forall_forall in G. apply (G (k, h)). auto.
Qed.
Lemma check_js n l : n >= 3 -> check n D (ref "elementInlineJavaScripts") (dict_json JStr l) = Some true.
Proof.
  intros L. destruct n as [|[|[|n]]]; try lia. rewrite check_ref with (s := Schema [KType [TObject]; KAll anything]) by reflexivity.
  unfold dict_json. rewrite check_all. apply oall_true. apply Forall_forall. intros kv I. reflexivity.
Qed.
Lemma check_import n s : n >= 5 -> check n D (ref "importSource") (import_json s) = Some true.
Proof. intros L. destruct n as [|[|[|[|[|n]]]]]; try lia. reflexivity. Qed.

Definition element_schema : schema := match vdom_schema with (_, s) :: _ => s | [] => anything end.
Lemma check_children n l : n >= 3 -> (forall x, In x l -> check (n - 2) D (ref "elementOrString") (model_json x) = Some true) ->
  check n D (ref "elementChildren") (JArr (map model_json l)) = Some true.
Proof.
  intros L H. destruct n as [|[|n]]; try lia. rewrite check_ref with (s := Schema [KType [TArray]; KItems (ref "elementOrString")]) by reflexivity.
  rewrite check_items. apply oall_true. apply Forall_forall. intros j I. apply in_map_iff in I. destruct I as (x & <- & I). specialize (H x I).
  replace (S (S n) - 2) with n in H by lia. exact H.
Qed.
(** The keyword-by-keyword content of "element" for a rendered node. *)
Lemma check_element n o tag : n >= 6 -> dget "tagName" o = Some (JStr tag) -> (forall e, dget "error" o = Some e -> (exists s, e = JStr s) /\ tag = "") ->
  (forall x, dget "children" o = Some x -> check n D (ref "elementChildren") x = Some true) ->
  (forall x, dget "attributes" o = Some x -> exists a, x = JObj a) ->
  (forall x, dget "eventHandlers" o = Some x -> check n D (ref "elementEventHandlers") x = Some true) ->
  (forall x, dget "inlineJavaScript" o = Some x -> check n D (ref "elementInlineJavaScripts") x = Some true) ->
  (forall x, dget "importSource" o = Some x -> check n D (ref "importSource") x = Some true) ->
  check (S n) D element_schema (JObj o) = Some true.
Proof.
  intros L T E C A H J I. unfold element_schema, vdom_schema. cbn [check]. apply oall_true. repeat constructor.
  - apply oall_true. repeat constructor; cbn [fst snd].
    + rewrite T. destruct n; [lia|]. reflexivity.
    + destruct (dget "error" o) as [e|]; auto. destruct (E e eq_refl) as [[s ->] _]. destruct n; [lia|]. reflexivity.
    + destruct (dget "children" o) as [x|]; auto.
    + destruct (dget "attributes" o) as [x|]; auto. destruct (A x eq_refl) as [a ->]. destruct n; [lia|]. reflexivity.
    + destruct (dget "eventHandlers" o) as [x|]; auto.
    + destruct (dget "inlineJavaScript" o) as [x|]; auto.
    + destruct (dget "importSource" o) as [x|]; auto.
  - cbn [forallb]. unfold dmem. rewrite T. reflexivity.
  - unfold dmem. destruct (dget "error" o) as [e|] eqn:G; auto. destruct (E e eq_refl) as [_ ->]. destruct n as [|[|n]]; try lia. cbn [check oall fst snd]. rewrite T. reflexivity.
Qed.

Lemma dget_cons_ne k k' (v : json) o : k <> k' -> dget k ((k', v) :: o) = dget k o.
Proof. intros N. simpl. destruct (eq_dec k k'); congruence. Qed.
Lemma check_if n s o : check (S (S n)) D (Schema [KType [TObject; TString]; KIf (Schema [KType [TObject]]) s]) (JObj o) = check (S n) D s (JObj o).
Proof. set (c := check (S n) D s (JObj o)). cbn [check oall existsb has_type orb]. fold c. destruct s as [kws]. subst c. cbn [check]. destruct (oall _ kws) as [[]|]; reflexivity. Qed.
Lemma check_or_string n m : n >= 4 -> (node m -> check (n - 3) D element_schema (model_json m) = Some true) -> check n D (ref "elementOrString") (model_json m) = Some true.
Proof.
  intros L H. destruct n as [|[|[|[|n]]]]; try lia.
  rewrite check_ref with (s := Schema [KType [TObject; TString]; KIf (Schema [KType [TObject]]) (ref "element")]) by reflexivity.
  destruct m as [t|tag imp attrs js eh ch err].
  - reflexivity.
  - specialize (H I). replace (S (S (S (S n))) - 3) with (S n) in H by lia. 
    assert (E : exists o, model_json (MNode tag imp attrs js eh ch err) = JObj o) by (eexists; reflexivity). destruct E as [o E]. rewrite E in *.
    rewrite check_if. rewrite check_ref with (s := element_schema) by reflexivity. exact H.
Qed.
Lemma depth_child x l : In x l -> depth x <= fold_right (fun x a => Nat.max (depth x) a) 0 l.
Proof. induction l as [|y l IH]; intros []; simpl; [subst; lia|]. apply IH in H. lia. Qed.
Lemma check_model m : good_model m -> forall n, n >= 8 * depth m + 8 -> node m -> check n D element_schema (model_json m) = Some true.
Proof.
  assert (STEP : forall tag imp attrs js eh ch err n, good_model (MNode tag imp attrs js eh ch err) -> n >= 7 ->
            (forall l, ch = Some l -> check n D (ref "elementChildren") (JArr (map model_json l)) = Some true) ->
            check (S n) D element_schema (model_json (MNode tag imp attrs js eh ch err)) = Some true).
  { intros tag imp attrs js eh ch err n (G1 & G2 & G3) L C. cbn [model_json]. eapply check_element with (tag := tag); [lia|reflexivity| | | | | | ].
    - intros e E. destruct err as [err|]; [split; [|apply G2; discriminate]|].
      + simpl in E. injection E as <-. eauto.
      + exfalso. destruct ch, attrs, eh, js, imp; discriminate E.
    - intros x E. destruct ch as [l|], err; try (simpl in E; injection E as <-; apply C; auto; fail).
      all: exfalso; destruct attrs, eh, js, imp; discriminate E.
    - intros x E. destruct attrs as [a|]; [|exfalso; destruct ch, err, eh, js, imp; discriminate E].
      destruct ch, err; simpl in E; injection E as <-; eexists; reflexivity.
    - intros x E. destruct eh as [a|]; [|exfalso; destruct ch, err, attrs, js, imp; discriminate E].
      destruct ch, err, attrs; simpl in E; injection E as <-; apply check_handlers; auto; lia.
    - intros x E. destruct js as [a|]; [|exfalso; destruct ch, err, attrs, eh, imp; discriminate E].
      destruct ch, err, attrs, eh; simpl in E; injection E as <-; apply check_js; lia.
    - intros x E. destruct imp as [a|]; [|exfalso; destruct ch, err, attrs, eh, js; discriminate E].
      destruct ch, err, attrs, eh, js; simpl in E; injection E as <-; apply check_import; lia. }
  induction m as [t|tag imp attrs js eh err|tag imp attrs js eh l err F] using model_ind2; intros G n L N.
  - destruct N.
  - destruct n as [|n]; [lia|]. apply STEP; auto; [simpl in L; lia|discriminate].
  - destruct n as [|n]; [lia|]. simpl depth in L. apply STEP; auto; [lia|]. intros l' E. injection E as <-. apply check_children; [lia|].
    intros x I. apply check_or_string; [lia|]. intros NX. rewrite Forall_forall in F. apply F; auto.
    + destruct G as (_ & _ & G). apply all_Forall in G. rewrite Forall_forall in G. auto.
    + assert (DX := depth_child x l I). lia.
Qed.
Lemma good_conforms m : good_model m -> node m -> conforms (model_json m).
Proof.
  intros G N. exists (S (8 * depth m + 8)). change vdom_schema with D. rewrite check_ref with (s := element_schema) by reflexivity. apply check_model; auto.
Qed.

(** ** The invariant of the layout *)

Section Inv.
Variable debug : bool.
Variable defs : nat -> val -> list raw -> body.
Hypothesis GP : good_program defs.

Definition good_ms (x : mstate) : Prop := good_model (ms_model x) /\ node (ms_model x) /\ (forall h c, ms_lcs x = Some (h, c) -> good_cinst c).
Definition good_event (e : event) : Prop := match e with EvUpdate _ m => good_model m /\ node m | _ => True end.
Definition GI (s : st) : Prop := Forall good_ms (s_heap s) /\ Forall good_event (s_log s).
Definition trip {A} (m : M A) (Q : A -> Prop) : Prop :=
  forall s r s', m s = (r, s') -> GI s -> GI s' /\ match r with Ok a => Q a | _ => True end.

Lemma t_ret {A} (a : A) (Q : A -> Prop) : Q a -> trip (ret a) Q.
Proof. intros H s r s' E G. injection E as <- <-. auto. Qed.
Lemma t_raise {A} e (Q : A -> Prop) : trip (raise e) Q.
Proof. intros s r s' E G. injection E as <- <-. auto. Qed.
Lemma t_fuel {A} (Q : A -> Prop) : trip no_fuel Q.
Proof. intros s r s' E G. injection E as <- <-. auto. Qed.
Lemma t_bind {A B} (m : M A) (f : A -> M B) Q Q' : trip m Q -> (forall a, Q a -> trip (f a) Q') -> trip (bind m f) Q'.
Proof.
  intros T1 T2 s r s' E G. unfold bind in E. destruct (m s) as [[a|e|] s1] eqn:M.
  - destruct (T1 _ _ _ M G) as [G1 Q1]. exact (T2 a Q1 _ _ _ E G1).
  - destruct (T1 _ _ _ M G) as [G1 _]. injection E as <- <-. auto.
  - destruct (T1 _ _ _ M G) as [G1 _]. injection E as <- <-. auto.
Qed.
Definition any {A} (a : A) : Prop := True.
Lemma t_weak {A} (m : M A) Q : trip m Q -> trip m any.
Proof. intros T s r s' E G. destruct (T _ _ _ E G) as [G1 _]. split; auto. destruct r; exact I || auto. Qed.
Lemma t_catch {A} (m : M A) f (Q : A -> Prop) : trip m Q -> (forall e, trip (f e) Q) -> trip (catch m f) Q.
Proof.
  intros T1 T2 s r s' E G. unfold catch in E. destruct (m s) as [[a|e|] s1] eqn:M; destruct (T1 _ _ _ M G) as [G1 Q1].
  - injection E as <- <-. auto.
  - exact (T2 e _ _ _ E G1).
  - injection E as <- <-. auto.
Qed.
Lemma t_finally {A} (m : M A) f (Q : A -> Prop) : trip m Q -> trip f any -> trip (finally m f) Q.
Proof.
  intros T1 T2 s r s' E G. unfold finally in E. destruct (m s) as [[a|e|] s1] eqn:M; destruct (T1 _ _ _ M G) as [G1 Q1].
  - destruct (f s1) as [[x|e|] s2] eqn:F; destruct (T2 _ _ _ F G1) as [G2 _]; injection E as <- <-; auto.
  - destruct (f s1) as [[x|e'|] s2] eqn:F; destruct (T2 _ _ _ F G1) as [G2 _]; injection E as <- <-; auto.
  - injection E as <- <-. auto.
Qed.
Lemma t_gets {A} (f : st -> A) : trip (gets f) any.
Proof. intros s r s' E G. injection E as <- <-. split; auto. exact I. Qed.
(** Steps that touch neither the heap nor the log. *)
Lemma t_modify f : (forall s, s_heap (f s) = s_heap s /\ s_log (f s) = s_log s) -> trip (modify f) any.
Proof. intros H s r s' E [G1 G2]. injection E as <- <-. destruct (H s) as [H1 H2]. unfold GI. rewrite H1, H2. repeat split; auto. Qed.
Lemma t_log e : good_event e -> trip (log e) any.
Proof. intros H s r s' E [G1 G2]. injection E as <- <-. repeat split; auto. simpl. apply Forall_app. split; auto. Qed.
Lemma t_get_ms m : trip (get_ms m) good_ms.
Proof.
  intros s r s' E G. unfold get_ms in E. destruct (nth_error (s_heap s) m) as [x|] eqn:N; injection E as <- <-; split; auto.
  destruct G as [G _]. rewrite Forall_forall in G. apply G. eapply nth_error_In; eauto.
Qed.
Lemma Forall_upd {A} (P : A -> Prop) l i x : Forall P l -> P x -> Forall P (upd l i x).
Proof. intros F. revert i. induction F as [|y l Y F IH]; intros i X; destruct i; simpl; constructor; auto. Qed.
Lemma t_put_ms m x : good_ms x -> trip (put_ms m x) any.
Proof. intros H s r s' E [G1 G2]. injection E as <- <-. repeat split; auto. simpl. apply Forall_upd; auto. Qed.
Lemma t_new_ms x : good_ms x -> trip (new_ms x) any.
Proof. intros H s r s' E [G1 G2]. injection E as <- <-. repeat split; auto. simpl. apply Forall_app. split; auto. Qed.
Lemma t_change_ms m f : (forall x, good_ms x -> good_ms (f x)) -> trip (change_ms m f) any.
Proof. intros H. unfold change_ms. eapply t_bind; [apply t_get_ms|]. intros x X. apply t_put_ms. auto. Qed.
Lemma t_new_hook : trip new_hook any.
Proof. intros s r s' E G. injection E as <- <-. split; [|exact I]. destruct G. split; auto. Qed.

Ltac same := intros; split; reflexivity.
Lemma schedule_heap h s : s_heap (schedule_render h s) = s_heap s /\ s_log (schedule_render h s) = s_log s.
Proof. unfold schedule_render. destruct (hk_sched _); auto. Qed.
Lemma dispatch_heap h i u s : s_heap (dispatch h i u s) = s_heap s /\ s_log (dispatch h i u s) = s_log s.
Proof.
  unfold dispatch. destruct (nth_error _ _) as [[]|]; auto. destruct (veq _ _); auto. 
  match goal with |- context [schedule_render ?h ?x] => destruct (schedule_heap h x) as [E1 E2]; rewrite E1, E2 end. auto.
Qed.
Lemma env_heap s o : s_heap (env_step s o) = s_heap s /\ s_log (env_step s o) = s_log s.
Proof.
  destruct o; simpl; [apply dispatch_heap|]. unfold record_seq. destruct (0 <=? seq)%Z; auto. destruct (_ <? _)%Z; auto.
Qed.
Lemma envs_heap b s : s_heap (fold_left env_step b s) = s_heap s /\ s_log (fold_left env_step b s) = s_log s.
Proof. revert s. induction b as [|o b IH]; intros s; simpl; auto. destruct (IH (env_step s o)) as [E1 E2], (env_heap s o) as [E3 E4]. split; congruence. Qed.
Lemma t_pause : trip pause any.
Proof. apply t_modify. intros s. destruct (s_env s); auto. destruct (envs_heap l (set_env l0 s)) as [E1 E2]. rewrite E1, E2. auto. Qed.
Lemma t_use_cell h i : trip (use_cell h i) any.
Proof.
  intros s r s' E G. unfold use_cell in E. destruct (hk_once _); [destruct (nth_error _ _)|]; injection E as <- <-; split; auto; exact I || (destruct G; split; auto).
Qed.
Lemma t_run_body h b : good_body b -> trip (run_body h b) good_raw.
Proof.
  induction b as [r|msg|init k IH|i c k IH|e k IH|c k IH|c v k IH|h' i u k IH]; intros G; simpl in G |- *.
  - apply t_ret. auto.
  - apply t_raise.
  - eapply t_bind; [apply t_use_cell|]. intros [i c] _. apply IH. auto.
  - eapply t_bind; [apply t_modify; same|]. intros _ _. auto.
  - eapply t_bind; [apply t_modify; same|]. intros _ _. auto.
  - eapply t_bind; [apply t_gets|]. intros v _. auto.
  - eapply t_bind; [apply t_modify; same|]. intros _ _. auto.
  - eapply t_bind; [apply t_modify; intros; apply dispatch_heap|]. intros _ _. auto.
Qed.
Lemma t_set_current h : trip (set_current h) any.
Proof. apply t_modify. intros s. destruct (s_stack s); auto. Qed.
Lemma t_unset_current h : trip (unset_current h) any.
Proof.
  intros s r s' E G. unfold unset_current in E. destruct (s_stack s) as [|p l]; [|destruct (Nat.eq_dec p h)]; injection E as <- <-; split; auto; exact I || (destruct G; split; auto).
Qed.
Lemma t_will_render h : trip (will_render h) any.
Proof. unfold will_render. eapply t_bind; [apply t_pause|]. intros _ _. eapply t_bind; [apply t_modify; same|]. intros _ _. apply t_set_current. Qed.
Lemma t_did_render h : trip (did_render h) any.
Proof. unfold did_render. eapply t_bind; [apply t_unset_current|]. intros _ _. apply t_modify; same. Qed.
Lemma t_layout_did_render h : trip (layout_did_render h) any.
Proof.
  intros s r s' E G. unfold layout_did_render in E. eapply t_log; [|exact E|]; [exact I|]. destruct G. split; auto.
Qed.
Lemma t_run_exit hs : trip (run_exit hs) any.
Proof. induction hs as [|h hs IH]; simpl; [apply t_ret; exact I|]. eapply t_bind; [apply t_layout_did_render|]. auto. Qed.
Lemma t_del_handlers ts : trip (del_handlers ts) any.
Proof.
  induction ts as [|t ts IH]; simpl; [apply t_ret; exact I|]. intros s r s' E G. destruct (dmem t (s_eh s)).
  - eapply IH; [exact E|]. destruct G. split; auto.
  - injection E as <- <-. auto.
Qed.
Lemma t_del_reg h : trip (del_reg h) any.
Proof. intros s r s' E G. unfold del_reg in E. destruct (dmem _ _); injection E as <- <-; split; auto; exact I || (destruct G; split; auto). Qed.
Lemma t_unmount fuel stk : trip (unmount fuel stk) any.
Proof.
  revert stk. induction fuel as [|f IH]; intros stk; simpl; [apply t_fuel|]. destruct stk as [|m stk]; [apply t_ret; exact I|].
  eapply t_bind; [apply t_get_ms|]. intros x X. eapply t_bind; [apply t_del_handlers|]. intros _ _. eapply t_bind with (Q := any); [|intros _ _; apply IH].
  destruct (ms_lcs x) as [[h c]|]; [|apply t_ret; exact I]. eapply t_bind; [apply t_del_reg|]. intros _ _. unfold will_unmount.
  eapply t_bind; [apply t_log; exact I|]. intros _ _. apply t_pause.
Qed.

Lemma good_serialize h t : good_handler h -> good_hjson (serialize_handler h t).
Proof. auto. Qed.
Lemma good_ms_targets t x : good_ms x -> good_ms (with_targets t x).
Proof. auto. Qed.
Lemma t_register m l : Forall (fun eh => good_handler (snd eh)) l -> trip (register_handlers m l) (Forall (fun kv => good_hjson (snd kv))).
Proof.
  induction l as [|[ev h] l IH]; intros F; simpl; [apply t_ret; constructor|]. inversion F as [|? ? F1 F2]; subst.
  eapply t_bind; [apply t_get_ms|]. intros x X. eapply t_bind; [apply t_put_ms; auto using good_ms_targets|]. intros _ _.
  eapply t_bind; [apply t_modify; same|]. intros _ _. eapply t_bind; [apply IH; auto|]. intros js J. apply t_ret. constructor; auto.
Qed.
Lemma t_render_attributes old new tag attrs hs js imp : Forall (fun eh => good_handler (snd eh)) hs -> trip (render_attributes old new tag attrs hs js imp) any.
Proof.
  intros F. unfold render_attributes. eapply t_bind with (Q := any).
  { destruct old; [|apply t_ret; exact I]. eapply t_bind; [apply t_get_ms|]. intros; apply t_del_handlers. }
  intros _ _. eapply t_bind with (Q := fun o => forall l, o = Some l -> Forall (fun kv => good_hjson (snd kv)) l).
  { destruct hs; [apply t_ret; discriminate|]. eapply t_bind; [apply t_register; auto|]. intros l L. apply t_ret. intros l' E. injection E as <-. auto. }
  intros ehs EH. eapply t_bind; [apply t_get_ms|]. intros x (X1 & X2 & X3). eapply t_bind; [apply t_gets|]. intros seqs _. cbv zeta. apply t_put_ms.
  split; [|split]; simpl; auto. split; auto. split; [congruence|exact I].
Qed.

Lemma good_with_empty x : good_ms x -> good_ms (with_model empty_model x).
Proof. intros (A & B & C). split; [|split]; simpl; auto. split; [discriminate|]. split; [congruence|exact I]. Qed.
Lemma good_with_error e x : good_ms x -> good_ms (with_model (error_model debug e) x).
Proof. intros (A & B & C). split; [|split]; simpl; auto. split; [discriminate|]. split; [auto|exact I]. Qed.
Lemma good_start x : good_ms x -> good_ms (with_model (start_children (ms_model x)) x).
Proof. intros (A & B & C). split; [|split]; simpl; auto; destruct (ms_model x); simpl in *; tauto. Qed.
Lemma good_add c x : good_model c -> good_ms x -> good_ms (with_model (add_child_model c (ms_model x)) x).
Proof.
  intros GC (A & B & C). destruct (ms_model x) as [|tag imp attrs js eh ch err] eqn:E; [destruct B|]. split; [|split]; simpl; auto.
  destruct A as (A1 & A2 & A3). split; auto. split; auto. destruct ch as [l|].
  - apply all_Forall. apply all_Forall in A3. apply Forall_app. split; auto.
  - split; auto.
Qed.
Lemma good_replace i c x : good_model c -> good_ms x -> good_ms (with_model (replace_child i c (ms_model x)) x).
Proof.
  intros GC (A & B & C). destruct (ms_model x) as [|tag imp attrs js eh ch err] eqn:E; [destruct B|]. split; [|split]; simpl; auto.
  destruct A as (A1 & A2 & A3). split; auto. split; auto. apply all_Forall.
  assert (F : Forall good_model (match ch with Some l => l | None => [] end)) by (destruct ch; [apply all_Forall; auto|constructor]).
  rewrite Forall_forall in F. apply Forall_app. split; [|constructor; auto]; apply Forall_forall; intros y Y; apply F.
  - rewrite <- (firstn_skipn i). apply in_or_app. auto.
  - rewrite <- (firstn_skipn (S i)). apply in_or_app. auto.
Qed.
Lemma good_children d x : good_ms x -> good_ms (with_children d x).
Proof. auto. Qed.
Lemma good_empty_node p i k path kp ch t lcs : (forall h c, lcs = Some (h, c) -> good_cinst c) -> good_ms (MState p i k path kp empty_model ch t lcs).
Proof. intros H. split; [|split]; simpl; auto. split; [discriminate|]. split; [congruence|exact I]. Qed.

Definition good_kind (kd : child_kind) : Prop := match kd with DictChild r => good_raw r | CompChild c => good_cinst c | StrChild _ => True end.
Lemma good_infos l : Forall good_raw l -> forall i, Forall (fun kk => good_kind (fst kk)) (children_infos i l).
Proof.
  induction 1 as [|r l R F IH]; intros i; simpl; [constructor|]. destruct r as [|s|tag attrs hs js imp ch|c]; simpl.
  - apply IH.
  - constructor; [exact I|apply IH].
  - destruct (attr_key attrs); constructor; auto.
  - destruct (ci_key c); constructor; auto.
Qed.
Lemma good_render_fn c : good_cinst c -> good_body (render_fn defs c).
Proof.
  destruct c as [[n|x] k p kids]; simpl; intros G.
  - apply GP. apply all_Forall. auto.
  - split; [constructor|auto].
Qed.

Lemma t_render fuel :
  (forall old parent index k c, good_cinst c -> trip (render_component debug defs fuel old parent index k c) any) /\
  (forall old parent index k r, good_raw r -> trip (render_model debug defs fuel old parent index k r) any) /\
  (forall old new raws, Forall good_raw raws -> trip (render_children debug defs fuel old new raws) any) /\
  (forall old new index infos, Forall (fun kk => good_kind (fst kk)) infos -> trip (render_child_list debug defs fuel old new index infos) any).
Proof.
  induction fuel as [|f (IC & IM & IK & IL)]; [split; [|split; [|split]]; intros; apply t_fuel|]. split; [|split; [|split]].
  - intros old parent index k c GC. simpl.
    assert (FR : trip (match parent with Some p => pm <- get_ms p ;; h <- new_hook ;; n <- new_ms (make_component_ms p pm index k h c) ;; ret (n, @None nat) | None => raise EBadVdom end) any).
    { destruct parent as [p|]; [|apply t_raise]. eapply t_bind; [apply t_get_ms|]. intros pm PM. eapply t_bind; [apply t_new_hook|]. intros h _.
      eapply t_bind; [apply t_new_ms; apply good_empty_node; intros h' c' E; injection E as <- <-; auto|]. intros n _. apply t_ret. exact I. }
    eapply t_bind with (Q := any).
    { destruct old as [o|]; [|exact FR]. eapply t_bind; [apply t_get_ms|]. intros ox OX. destruct (ms_lcs ox) as [[h oc]|].
      - destruct (eq_dec _ _).
        + destruct parent as [p|].
          * eapply t_bind; [apply t_get_ms|]. intros pm PM. eapply t_bind; [apply t_new_ms; apply good_empty_node; intros h' c' E; injection E as <- <-; auto|]. intros n _. apply t_ret. exact I.
          * eapply t_bind; [apply t_new_ms; apply good_empty_node; intros h' c' E; injection E as <- <-; auto|]. intros n _. apply t_ret. exact I.
        + eapply t_bind; [apply t_unmount|]. intros _ _. exact FR.
      - eapply t_bind; [apply t_unmount|]. intros _ _. exact FR. }
    intros [new old'] _. simpl fst. simpl snd. eapply t_bind; [apply t_get_ms|]. intros nx NX. destruct (ms_lcs nx) as [[h c']|]; [|apply t_raise].
    eapply t_bind; [apply t_modify; same|]. intros _ _. eapply t_bind; [apply t_will_render|]. intros _ _. eapply t_bind; [apply t_modify; same|]. intros _ _.
    eapply t_bind with (Q := any); [|intros _ _; apply t_ret; exact I]. apply t_finally; [|apply t_did_render]. apply t_catch.
    + eapply t_bind; [apply t_log; exact I|]. intros _ _. eapply t_bind; [apply t_run_body; apply good_render_fn; auto|]. intros r R.
      eapply t_bind; [apply t_log; exact I|]. intros _ _. eapply t_bind; [apply t_change_ms; auto using good_with_empty|]. intros _ _. apply IK. constructor; auto.
    + intros e. eapply t_bind; [apply t_log; exact I|]. intros _ _. apply t_change_ms. auto using good_with_error.
  - intros old parent index k r GR. simpl. destruct r as [|s|tag attrs hs js imp ch|c]; try apply t_raise. simpl in GR. destruct GR as [GH GC].
    assert (FR : trip (pm <- get_ms parent ;; n <- new_ms (make_element_ms parent pm index k) ;; ret (n, @None nat)) any).
    { eapply t_bind; [apply t_get_ms|]. intros pm PM. eapply t_bind; [apply t_new_ms; apply good_empty_node; discriminate|]. intros n _. apply t_ret. exact I. }
    eapply t_bind with (Q := any).
    { destruct old as [o|]; [|exact FR]. eapply t_bind; [apply t_get_ms|]. intros ox OX. destruct (ms_lcs ox) as [[h oc]|].
      - eapply t_bind; [apply t_unmount|]. intros _ _. exact FR.
      - eapply t_bind; [apply t_get_ms|]. intros pm PM. eapply t_bind; [apply t_new_ms; apply good_empty_node; discriminate|]. intros n _. apply t_ret. exact I. }
    intros [new old'] _. simpl fst. simpl snd. eapply t_bind with (Q := any).
    { destruct (attr_key attrs); [|apply t_ret; exact I]. apply t_change_ms. auto. }
    intros _ _. eapply t_bind; [apply t_render_attributes; auto|]. intros _ _. eapply t_bind; [apply IK|intros _ _; apply t_ret; exact I].
    destruct ch as [l|]; [apply all_Forall; auto|constructor].
  - intros old new raws GR. simpl. destruct (has_duplicates _); [apply t_raise|]. eapply t_bind with (Q := any).
    { destruct old as [o|]; [|apply t_ret; exact I]. eapply t_bind; [apply t_get_ms|]. intros ox OX. destruct (dvals _); [apply t_ret; exact I|apply t_unmount]. }
    intros _ _. destruct raws as [|r raws]; [apply t_ret; exact I|]. eapply t_bind; [apply t_change_ms; auto using good_start|]. intros _ _. apply IL. apply (good_infos (r :: raws)). auto.
  - intros old new index infos GI'. simpl. destruct infos as [|[kd k] rest]; [apply t_ret; exact I|]. inversion GI' as [|? ? G1 G2]; subst. simpl in G1.
    eapply t_bind with (Q := any).
    { destruct old as [o|]; [|apply t_ret; exact I]. eapply t_bind; [apply t_get_ms|]. intros ox OX. apply t_ret. exact I. }
    intros oc _. eapply t_bind with (Q := any); [|intros _ _; apply IL; auto]. destruct kd as [r|c|s].
    + eapply t_bind; [apply IM; auto|]. intros n _. eapply t_bind; [apply t_get_ms|]. intros nx (NX & _). apply t_change_ms. intros x X. apply good_children. apply good_add; auto.
    + eapply t_bind; [apply IC; auto|]. intros n _. eapply t_bind; [apply t_get_ms|]. intros nx (NX & _). apply t_change_ms. intros x X. apply good_children. apply good_add; auto.
    + eapply t_bind with (Q := any); [destruct oc; [apply t_unmount|apply t_ret; exact I]|]. intros _ _. apply t_change_ms. intros x X. apply good_add; [exact I|auto].
Qed.

Definition good_update (u : list nat * model) : Prop := good_model (snd u) /\ node (snd u).
Lemma t_update fuel old : trip (create_layout_update debug defs fuel old) good_update.
Proof.
  unfold create_layout_update. eapply t_bind; [apply t_modify; same|]. intros _ _. eapply t_bind; [apply t_modify; same|]. intros _ _.
  apply t_finally; [|apply t_modify; same]. eapply t_bind; [apply t_get_ms|]. intros ox (OX1 & OX2 & OX3). destruct (ms_lcs ox) as [[h c]|] eqn:L; [|apply t_raise].
  eapply t_bind with (Q := any).
  { unfold get_parent. destruct (ms_parent ox); [|apply t_ret; exact I]. intros s r s' E G. destruct (alive s n); injection E as <- <-; split; auto; exact I. }
  intros parent _. eapply t_bind with (Q := any).
  { apply t_finally; [apply t_render; eapply OX3; eauto|]. eapply t_bind; [apply t_gets|]. intros hs _. apply t_run_exit. }
  intros n _. eapply t_bind; [apply t_get_ms|]. intros nx NX. eapply t_bind with (Q := any).
  { destruct parent as [p|]; [|apply t_ret; exact I]. apply t_change_ms. intros x X. destruct NX as (NX & _).
    destruct (ms_key nx); [apply (good_replace _ _ (with_children (dset k n (ms_children x)) x))|apply good_replace]; auto. }
  intros _ _. apply t_ret. destruct NX as (N1 & N2 & _). split; auto.
Qed.
Lemma t_serial fuel q : trip (serial_render debug defs fuel q) (fun o => forall u, o = Some u -> good_update u).
Proof.
  induction q as [|h q IH]; simpl; [apply t_ret; discriminate|]. eapply t_bind; [apply t_modify; same|]. intros _ _. eapply t_bind; [apply t_gets|]. intros [m|] _.
  - eapply t_bind; [apply t_update|]. intros u U. apply t_ret. intros u' E. injection E as <-. auto.
  - eapply t_bind; [apply t_log; exact I|]. auto.
Qed.
Lemma step_good fuel o s s' : step debug defs fuel o s = Some s' -> GI s -> GI s'.
Proof.
  destruct o as [bs|e]; simpl; intros E G.
  - destruct (serial_render debug defs fuel (s_queue s) (set_env bs s)) as [[[[p m]|]|e|] s1] eqn:R; try discriminate; injection E as <-.
    all: destruct (t_serial fuel (s_queue s) _ _ _ R) as [[G1 G2] Q]; [destruct G; split; auto|].
    + destruct (Q _ eq_refl) as [U1 U2]. split; auto. simpl. apply Forall_app. split; auto. constructor; auto. split; auto.
    + split; auto.
    + split; auto. simpl. apply Forall_app. split; [auto|]. constructor; [exact I|constructor].
  - injection E as <-. unfold GI. destruct (env_heap s e) as [E1 E2]. rewrite E1, E2. auto.
Qed.
Lemma run_good fuel ops : forall s s', run debug defs fuel ops s = Some s' -> GI s -> GI s'.
Proof.
  induction ops as [|o ops IH]; simpl; intros s s' E G; [injection E as <-; auto|]. destruct (step debug defs fuel o s) as [s1|] eqn:S; [|discriminate].
  eapply IH; eauto. eapply step_good; eauto.
Qed.

(** C41: for every program whose handlers have non-negative rate limits, every history and every interleaving of client
    events and state changes with the awaits of the layout, failing renders included, the model of every update conforms
    to the published schema. *)
Theorem C41_valid fuel root ops s p m : good_cinst root -> run debug defs fuel ops (init root) = Some s -> In (EvUpdate p m) (s_log s) -> conforms (model_json m).
Proof.
  intros GR R I. assert (G : GI (init root)).
  { split; [|constructor]. constructor; [|constructor]. apply good_empty_node. intros h c E. injection E as <- <-. auto. }
  destruct (run_good fuel ops _ _ R G) as [_ F]. rewrite Forall_forall in F. specialize (F _ I). destruct F as [F1 F2]. apply good_conforms; auto.
Qed.
End Inv.
Print Assumptions C41_valid.

(** Hypotheses met by a program with a handler, a child component and a failing child. *)
Definition demo_defs (n : nat) (p : val) (kids : list raw) : body :=
  match n with
  | 0 => BRet (RElem "button" (Some [("id", VStr "a")]) [("onClick", Handler 1 false true None (Some 100%Z) None)] None None
                (Some [RText "x"; RComp (Cinst (CTUser 1) None VNone [])]))
  | _ => BRaise "boom"
  end.
Example C41_example : good_program demo_defs /\ good_cinst (Cinst (CTUser 0) None VNone []) /\
  exists s p m, run true demo_defs 20 [ORender []] (init (Cinst (CTUser 0) None VNone [])) = Some s /\ In (EvUpdate p m) (s_log s) /\
    check 40 vdom_schema (ref "element") (model_json m) = Some true.
Proof.
  split; [|split].
  - intros [|n] p kids _; simpl; auto. repeat constructor; simpl; intros z E; inversion E; lia.
  - exact I.
  - eexists. eexists. eexists. split; [vm_compute; reflexivity|]. split; [do 6 right; left; reflexivity|]. vm_compute. reflexivity.
Qed.
(** Without the hypothesis it fails: a negative debounce is passed through. *)
Theorem C41_negative_refuted : exists defs s p m n, run true defs 20 [ORender []] (init (Cinst (CTUser 0) None VNone [])) = Some s /\ In (EvUpdate p m) (s_log s) /\
  check n vdom_schema (ref "element") (model_json m) = Some false.
Proof.
  exists (fun _ _ _ => BRet (RElem "button" None [("onClick", Handler 1 false true None (Some (-5)%Z) None)] None None None)).
  eexists. eexists. eexists. exists 40. split; [vm_compute; reflexivity|]. split; [do 3 right; left; reflexivity|]. vm_compute. reflexivity.
Qed.
