(** * Model of the setup of PyScript in a page and property C87
    /repo/src/reactpy/executors/pyscript/utils.py:108-160: the configuration, and the elements that hold it. *)
From Coq Require Import String Ascii Bool Arith Lia List.
From Verif Require Import Dict Strings PyStr.
Import ListNotations.
Local Open Scope string_scope. Local Open Scope list_scope.

(** Values of the configuration; [Lit]: numbers, booleans and null by their text in JSON. *)
Inductive json := Str (s : string) | Lit (text : string) | Arr (l : list json) | Obj (d : dict string json).

(** ** Model *)

(** [s.endswith(e)] *)
Fixpoint ends (e s : string) : bool := String.eqb e s || match s with "" => false | String _ s' => ends e s' end.

(** [extend_pyscript_config], lines 126-160, before [json.dumps]; [pkg]: the package of ReactPy. Simplifications: [extra_js] and
    [config] are given as dictionaries, that is, texts have been read as JSON objects; values of [extra_js] are texts; the
    parameter [modules], which no caller in /repo gives, is left out. [prefix]: REACTPY_PATH_PREFIX. *)
Definition extend_config (prefix pkg : string) (extra_py : list string) (extra_js : dict string string) (config : dict string json) : dict string json :=
  let packages := [pkg; "jsonpointer==3.*"] ++ extra_py in
  let main : dict string json := [((prefix ++ "static/morphdom/morphdom-esm.js")%string, Str "morphdom")] in
  let main := dupdate main (map (fun p => (fst p, Str (snd p))) extra_js) in
  let c : dict string json := [("packages", Arr (map Str packages)); ("js_modules", Obj [("main", Obj main)])] in
  let c := if existsb (ends ".whl") packages then dset "packages_cache" (Str "never") c else c in
  dupdate c config.

(** [json.dumps]. Simplification: of the characters that are escaped in texts only quotes, backslashes and newlines occur. *)
Definition quote : string := String "034" "".
Fixpoint escape (s : string) : string :=
  match s with
  | "" => ""
  | String a s' =>
      (if Ascii.eqb a "034" then String "092" quote else if Ascii.eqb a "092" then String "092" (String "092" "")
       else if Ascii.eqb a "010" then String "092" "n" else String a "") ++ escape s'
  end%string.
Definition text (s : string) : string := (quote ++ escape s ++ quote)%string.
Fixpoint dumps (j : json) : string :=
  match j with
  | Str s => text s
  | Lit t => t
  | Arr l => "[" ++ join ", " (map dumps l) ++ "]"
  | Obj d => "{" ++ join ", " (map (fun p => (text (fst p) ++ ": " ++ dumps (snd p)))%string d) ++ "}"
  end%string.

(** [pyscript_setup_html], lines 108-123; [handler]: the minified layout handler; [debug]: REACTPY_DEBUG. *)
Definition setup_html (debug : bool) (prefix handler config : string) : string :=
  ("<link rel=" ++ quote ++ "stylesheet" ++ quote ++ " href=" ++ quote ++ prefix ++ "static/pyscript/core.css" ++ quote ++ " />" ++
   (if debug then "" else "<link rel=" ++ quote ++ "stylesheet" ++ quote ++ " href=" ++ quote ++ prefix ++ "static/pyscript-hide-debug.css" ++ quote ++ " />") ++
   "<script type=" ++ quote ++ "module" ++ quote ++ " async crossorigin=" ++ quote ++ "anonymous" ++ quote ++ " src=" ++ quote ++ prefix ++ "static/pyscript/core.js" ++ quote ++ ">" ++
   "</script>" ++
   "<script type='py' config='" ++ config ++ "'>" ++ handler ++ "</script>")%string.

(** ** Specification *)

Definition list_of (j : option json) : list json := match j with Some (Arr l) => l | _ => [] end.
Definition dict_of (j : option json) : dict string json := match j with Some (Obj d) => d | _ => [] end.

(** The value of an attribute in single quotes, by the rules of HTML: up to the next quote. References to characters are not
    modelled: the value has none without an ampersand. *)
Inductive attribute_value : string -> string -> string -> Prop :=
  attribute_upto v rest : nochar "'" v -> attribute_value (v ++ String "'" rest)%string v rest.

(** All texts in a value satisfy [P]. *)
Inductive all_texts (P : string -> Prop) : json -> Prop :=
| all_str s : P s -> all_texts P (Str s)
| all_lit t : P t -> all_texts P (Lit t)
| all_arr l : Forall (all_texts P) l -> all_texts P (Arr l)
| all_obj d : Forall (fun p => P (fst p) /\ all_texts P (snd p)) d -> all_texts P (Obj d).

(** ** Proofs *)
Lemma ends_spec e s : ends e s = true <-> exists x, s = (x ++ e)%string.
Proof.
  induction s as [|a s IH]; cbn [ends]; rewrite orb_true_iff, String.eqb_eq.
  - split; [intros [->|]; [exists ""; reflexivity|discriminate]|]. intros [x E]. left. destruct x; [symmetry; exact E|discriminate].
  - rewrite IH. split.
    + intros [->|[x ->]]; [exists ""; reflexivity|]. exists (String a x). reflexivity.
    + intros [x E]. destruct x as [|b x]; [left; symmetry; exact E|]. injection E as -> E. right. exists x. exact E.
Qed.

(** Every setting the user gives is used; the other ones have the packages of ReactPy and the user, the JavaScript files of
    ReactPy and the user, and no cache if a package is a wheel. *)
Theorem C87_config prefix pkg extra_py extra_js config : NoDup (dkeys config) -> NoDup (dkeys extra_js) ->
  let c := extend_config prefix pkg extra_py extra_js config in
  (forall k v, dget k config = Some v -> dget k c = Some v) /\
  (dget "packages" config = None -> list_of (dget "packages" c) = Str pkg :: Str "jsonpointer==3.*" :: map Str extra_py) /\
  (dget "js_modules" config = None -> forall url name,
     dget url (dict_of (dget "main" (dict_of (dget "js_modules" c)))) = Some (Str name) <->
     dget url extra_js = Some name \/ (dget url extra_js = None /\ url = (prefix ++ "static/morphdom/morphdom-esm.js")%string /\ name = "morphdom")) /\
  (dget "packages_cache" config = None -> dget "packages_cache" c = Some (Str "never") <-> exists p x, In p (pkg :: extra_py) /\ p = (x ++ ".whl")%string) /\
  (forall k, ~ In k ["packages"; "js_modules"; "packages_cache"] -> dget k c = dget k config).
Proof.
  intros NC NJ c.
  set (packages := [pkg; "jsonpointer==3.*"] ++ extra_py).
  set (main := dupdate [((prefix ++ "static/morphdom/morphdom-esm.js")%string, Str "morphdom")] (map (fun p => (fst p, Str (snd p))) extra_js) : dict string json).
  set (c0 := [("packages", Arr (map Str packages)); ("js_modules", Obj [("main", Obj main)])] : dict string json).
  set (c1 := if existsb (ends ".whl") packages then dset "packages_cache" (Str "never") c0 else c0).
  assert (G : forall k, dget k c = match dget k config with Some v => Some v | None => dget k c1 end) by (intros k; apply dget_dupdate; exact NC).
  assert (C1 : forall k, k <> "packages_cache" -> dget k c1 = dget k c0) by (intros k N; unfold c1; destruct (existsb _ _); [apply dget_dset_other; exact N|reflexivity]).
  split; [intros k v E; rewrite G, E; reflexivity|]. split; [|split; [|split]].
  - intros E. rewrite G, E, C1 by discriminate. reflexivity.
  - intros E url name. rewrite G, E, C1 by discriminate. change (dict_of (dget "main" (dict_of (dget "js_modules" c0)))) with main. unfold main.
    assert (K : dkeys (map (fun p => (fst p, Str (snd p))) extra_js) = dkeys extra_js) by (unfold dkeys; rewrite map_map; reflexivity).
    rewrite dget_dupdate by (rewrite K; exact NJ). rewrite (dget_map_val (fun s => Str s) url extra_js). destruct (dget url extra_js) as [n|]; cbn [option_map].
    + split; [intros [= ->]; left; reflexivity|]. intros [[= ->]|[Q _]]; [reflexivity|discriminate].
    + cbn [dget]. destruct (eq_dec url _) as [->|N].
      * split; [intros [= <-]; right; split; [reflexivity|split; reflexivity]|]. intros [Q|(_ & _ & ->)]; [discriminate|reflexivity].
      * split; [discriminate|]. intros [Q|(_ & Q & _)]; [discriminate|congruence].
  - intros E. rewrite G, E. unfold c1. destruct (existsb (ends ".whl") packages) eqn:X.
    + rewrite dget_dset_same. split; [intros _|intros _; reflexivity]. apply existsb_exists in X. destruct X as (p & I & W). apply ends_spec in W. destruct W as [x W].
      exists p, x. split; [|exact W]. destruct I as [->|[<-|I]]; [left; reflexivity| |right; exact I]. exfalso.
      assert (F : ends ".whl" "jsonpointer==3.*" = false) by (vm_compute; reflexivity). assert (T : ends ".whl" "jsonpointer==3.*" = true) by (apply ends_spec; exists x; exact W). congruence.
    + split; [intros Q; cbn in Q; discriminate|]. intros (p & x & I & W). exfalso. assert (Y : existsb (ends ".whl") packages = true); [|congruence].
      apply existsb_exists. exists p. split; [destruct I as [->|I]; [left; reflexivity|right; right; exact I]|]. apply ends_spec. exists x. exact W.
  - intros k N. rewrite G. destruct (dget k config); [reflexivity|]. rewrite C1 by (intros ->; apply N; right; right; left; reflexivity).
    unfold c0. cbn [dget]. destruct (eq_dec k "packages") as [->|]; [elim N; left; reflexivity|]. destruct (eq_dec k "js_modules") as [->|]; [elim N; right; left; reflexivity|]. reflexivity.
Qed.
Print Assumptions C87_config.

Lemma nochar_join c sep l : nochar c sep -> Forall (nochar c) l -> nochar c (join sep l).
Proof.
  intros S F. induction F as [|p l N F IH]; [exact I|]. destruct l as [|q l]; [exact N|].
  change (join sep (p :: q :: l)) with (p ++ sep ++ join sep (q :: l))%string. rewrite !nochar_app. split; [exact N|split; [exact S|exact IH]].
Qed.
Lemma nochar_escape s : nochar "'" s -> nochar "'" (escape s).
Proof.
  induction s as [|a s IH]; [intros; exact I|]. cbn [nochar escape]. intros [N H]. rewrite nochar_app. split; [|apply IH, H].
  destruct (Ascii.eqb a "034"); [cbn; repeat split; discriminate|]. destruct (Ascii.eqb a "092"); [cbn; repeat split; discriminate|].
  destruct (Ascii.eqb a "010"); [cbn; repeat split; discriminate|]. cbn. split; [exact N|exact I].
Qed.
Lemma nochar_text s : nochar "'" s -> nochar "'" (text s).
Proof. intros H. unfold text. rewrite !nochar_app. split; [cbn; repeat split; discriminate|]. split; [apply nochar_escape, H|cbn; repeat split; discriminate]. Qed.
Lemma json_induction (P : json -> Prop) : (forall s, P (Str s)) -> (forall t, P (Lit t)) -> (forall l, Forall P l -> P (Arr l)) ->
  (forall d, Forall (fun p => P (snd p)) d -> P (Obj d)) -> forall j, P j.
Proof.
  intros H1 H2 H3 H4. fix IH 1. intros [s|t|l|d]; [apply H1|apply H2| |].
  - apply H3. induction l as [|j l IHl]; constructor; [apply IH|exact IHl].
  - apply H4. induction d as [|[k j] d IHd]; constructor; [apply IH|exact IHd].
Qed.
Lemma nochar_dumps j : all_texts (nochar "'") j -> nochar "'" (dumps j).
Proof.
  induction j as [s|t|l IH|d IH] using json_induction; intros A; inversion A as [? H|? H|? H|? H]; subst; cbn [dumps].
  - apply nochar_text, H.
  - exact H.
  - rewrite !nochar_app. split; [cbn; repeat split; discriminate|]. split; [|cbn; repeat split; discriminate].
    apply nochar_join; [cbn; repeat split; discriminate|]. apply Forall_forall. intros x X. apply in_map_iff in X. destruct X as (j & <- & X).
    rewrite Forall_forall in IH, H. exact (IH j X (H j X)).
  - rewrite !nochar_app. split; [cbn; repeat split; discriminate|]. split; [|cbn; repeat split; discriminate].
    apply nochar_join; [cbn; repeat split; discriminate|]. apply Forall_forall. intros x X. apply in_map_iff in X. destruct X as (p & <- & X).
    rewrite Forall_forall in IH, H. destruct (H p X) as [HK HV]. rewrite !nochar_app. split; [apply nochar_text, HK|]. split; [cbn; repeat split; discriminate|]. exact (IH p X HV).
Qed.

Lemma all_dset (P : string -> Prop) k v (d : dict string json) : P k -> all_texts P v -> all_texts P (Obj d) -> all_texts P (Obj (dset k v d)).
Proof.
  intros PK PV A. inversion A as [| | |? H]; subst. constructor. clear A. induction d as [|[k' v'] d IH]; [constructor; [split; assumption|constructor]|].
  inversion H as [|? ? [H1 H2] H']; subst. cbn [dset]. destruct (eq_dec k k'); constructor; try (split; assumption); [exact H'|exact (IH H')].
Qed.
Lemma all_dupdate (P : string -> Prop) (e : dict string json) : forall d : dict string json, all_texts P (Obj d) -> Forall (fun p => P (fst p) /\ all_texts P (snd p)) e -> all_texts P (Obj (dupdate d e)).
Proof.
  induction e as [|[k v] e IH]; intros d D E; [exact D|]. inversion E as [|? ? [H1 H2] E']; subst. change (dupdate d ((k, v) :: e)) with (dupdate (dset k v d) e).
  apply IH; [|exact E']. apply all_dset; assumption.
Qed.
Lemma config_texts prefix pkg extra_py extra_js config : let P := nochar "'" in
  P prefix -> P pkg -> Forall P extra_py -> Forall (fun p => P (fst p) /\ P (snd p)) extra_js -> all_texts P (Obj config) ->
  all_texts P (Obj (extend_config prefix pkg extra_py extra_js config)).
Proof.
  intros P HP HK HE HJ HC. unfold extend_config.
  assert (M : all_texts P (Obj (dupdate [((prefix ++ "static/morphdom/morphdom-esm.js")%string, Str "morphdom")] (map (fun p => (fst p, Str (snd p))) extra_js)))).
  { apply all_dupdate.
    - constructor. constructor; [|constructor]. cbn [fst snd]. split; [unfold P; rewrite nochar_app; split; [exact HP|cbn; repeat split; discriminate]|].
      constructor. unfold P. cbn. repeat split; discriminate.
    - apply Forall_forall. intros x X. apply in_map_iff in X. destruct X as ([k v] & <- & X). rewrite Forall_forall in HJ. destruct (HJ _ X) as [A B]. cbn [fst snd] in *. split; [exact A|constructor; exact B]. }
  assert (C0 : all_texts P (Obj [("packages", Arr (map Str ([pkg; "jsonpointer==3.*"] ++ extra_py)));
     ("js_modules", Obj [("main", Obj (dupdate [((prefix ++ "static/morphdom/morphdom-esm.js")%string, Str "morphdom")] (map (fun p => (fst p, Str (snd p))) extra_js)))])])).
  { constructor. constructor; [split; [unfold P; cbn; repeat split; discriminate|]|constructor; [split; [unfold P; cbn; repeat split; discriminate|]|constructor]].
    - constructor. cbn [app map]. constructor; [constructor; exact HK|]. constructor; [constructor; unfold P; cbn; repeat split; discriminate|].
      apply Forall_forall. intros x X. apply in_map_iff in X. destruct X as (s & <- & X). rewrite Forall_forall in HE. constructor. exact (HE s X).
    - constructor. constructor; [split; [unfold P; cbn; repeat split; discriminate|exact M]|constructor]. }
  apply all_dupdate; [|inversion HC; assumption]. destruct (existsb _ _); [|exact C0].
  apply all_dset; [unfold P; cbn; repeat split; discriminate|constructor; unfold P; cbn; repeat split; discriminate|exact C0].
Qed.

(** If there is no single quote in any text, the attribute of the script element holds the configuration. (An ampersand could
    begin a reference to a character.) *)
Theorem C87_attribute_partial debug prefix handler pkg extra_py extra_js config : let P := nochar "'" in
  P prefix -> P pkg -> Forall P extra_py -> Forall (fun p => P (fst p) /\ P (snd p)) extra_js -> all_texts P (Obj config) ->
  let c := dumps (Obj (extend_config prefix pkg extra_py extra_js config)) in
  exists before rest, setup_html debug prefix handler c = (before ++ "<script type='py' config='" ++ rest)%string /\
    attribute_value rest c (">" ++ handler ++ "</script>").
Proof.
  intros P HP HK HE HJ HC c. eexists. exists (c ++ String "'" (">" ++ handler ++ "</script>"))%string. split.
  - unfold setup_html.
    instantiate (1 := ("<link rel=" ++ quote ++ "stylesheet" ++ quote ++ " href=" ++ quote ++ prefix ++ "static/pyscript/core.css" ++ quote ++ " />" ++
   (if debug then "" else "<link rel=" ++ quote ++ "stylesheet" ++ quote ++ " href=" ++ quote ++ prefix ++ "static/pyscript-hide-debug.css" ++ quote ++ " />") ++
   "<script type=" ++ quote ++ "module" ++ quote ++ " async crossorigin=" ++ quote ++ "anonymous" ++ quote ++ " src=" ++ quote ++ prefix ++ "static/pyscript/core.js" ++ quote ++ ">" ++
   "</script>")%string). rewrite !app_assoc_s. reflexivity.
  - constructor. apply nochar_dumps, config_texts; assumption.
Qed.
Print Assumptions C87_attribute_partial.

Example C87_example : let c := extend_config "/reactpy/" "/reactpy/static/wheels/reactpy.whl" ["numpy"] [("/x.js", "x")] [("debug", Lit "true")] in
  dumps (Obj c) = ("{" ++ text "packages" ++ ": [" ++ text "/reactpy/static/wheels/reactpy.whl" ++ ", " ++ text "jsonpointer==3.*" ++ ", " ++ text "numpy" ++ "], " ++
     text "js_modules" ++ ": {" ++ text "main" ++ ": {" ++ text "/reactpy/static/morphdom/morphdom-esm.js" ++ ": " ++ text "morphdom" ++ ", " ++ text "/x.js" ++ ": " ++ text "x" ++ "}}, " ++
     text "packages_cache" ++ ": " ++ text "never" ++ ", " ++ text "debug" ++ ": true}")%string /\
  Forall (nochar "'") ["numpy"] /\ NoDup (dkeys [("debug", Lit "true")]) /\ all_texts (nochar "'") (Obj [("debug", Lit "true")]).
Proof.
  split; [vm_compute; reflexivity|]. split; [repeat constructor; discriminate|]. split; [repeat constructor; intros []|].
  constructor. repeat constructor; discriminate.
Qed.

(** Findings. The configuration is documented to be merged with the default one, but packages the user lists there replace those of
    ReactPy (and those of [extra_py]), and a JavaScript file listed there replaces those that ReactPy needs to show anything. *)
Theorem C87_packages_refuted : let c := extend_config "/reactpy/" "/reactpy/static/wheels/reactpy.whl" ["numpy"] [] [("packages", Arr [Str "pandas"])] in
  list_of (dget "packages" c) = [Str "pandas"].
Proof. vm_compute. reflexivity. Qed.
Print Assumptions C87_packages_refuted.
Theorem C87_modules_refuted : let c := extend_config "/reactpy/" "reactpy" [] [("/x.js", "x")] [("js_modules", Obj [("main", Obj [("/y.js", Str "y")])])] in
  dict_of (dget "main" (dict_of (dget "js_modules" c))) = [("/y.js", Str "y")].
Proof. vm_compute. reflexivity. Qed.
Print Assumptions C87_modules_refuted.
(** A single quote in a value, here the URL of a JavaScript file, ends the attribute: the configuration is cut. *)
Theorem C87_quote_refuted : let c := dumps (Obj (extend_config "/" "reactpy" [] [("/it's.js", "x")] [])) in
  exists before rest v r, setup_html true "/" "" c = (before ++ "<script type='py' config='" ++ rest)%string /\ attribute_value rest v r /\ String.length v < String.length c.
Proof.
  intros c. exists (String.substring 0 (String.length (setup_html true "/" "" "") - 37) (setup_html true "/" "" "")).
  exists (c ++ "'></script>")%string, (String.substring 0 122 c), (String.substring 123 (String.length c) (c ++ "'></script>"))%string. split; [vm_compute; reflexivity|]. split.
  - replace (c ++ "'></script>")%string with (String.substring 0 122 c ++ String "'" (String.substring 123 (String.length c) (c ++ "'></script>")))%string by (vm_compute; reflexivity).
    constructor. vm_compute. repeat split; discriminate.
  - vm_compute. lia.
Qed.
Print Assumptions C87_quote_refuted.
