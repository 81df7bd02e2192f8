(** * Model of the page that shows a component, and property C89
    /repo/src/reactpy/executors/utils.py:28-39, 62-104 (the page), /repo/src/js/packages/@reactpy/client/src/mount.tsx:6-38
    (what its script does in the browser), /repo/src/reactpy/templatetags/jinja.py:31-37 and
    /repo/src/reactpy/executors/asgi/standalone.py:241-258 (where the page is made). The server's routing: AsgiModel.v. *)
From Coq Require Import String Ascii Bool Arith Lia List.
From Verif Require Import Dict Strings PyStr JsModules JsNames AsgiModel.
Import ListNotations.
Local Open Scope string_scope. Local Open Scope list_scope.

(** ** Model: the server *)

(** [check_path], utils.py:28-39, for texts: whether the path is accepted. *)
Definition check_path (p : string) : bool := negb (String.eqb p "") && startswith "/" p && endswith "/" p.

(** [s.replace(c, "")] for a character. *)
Fixpoint remove (c : ascii) (s : string) : string :=
  match s with "" => "" | String a s' => if Ascii.eqb a c then remove c s' else String a (remove c s') end.
(** [s.strip("/")] *)
Definition strip_slashes (s : string) : string := strip_set (Ascii.eqb "/") s.

(** The current values of the options: REACTPY_PATH_PREFIX and the four on reconnection, the latter by the text Python
    writes for them. *)
Record settings := Settings { s_prefix : string; s_interval : string; s_max : string; s_retries : string; s_backoff : string }.

(** [default_import_map], utils.py:95-104. *)
Definition nl : string := String newline "".
Definition default_import_map (prefix : string) : string :=
  let p := strip_slashes prefix in
  remove " " (remove newline
    ("{" ++ nl ++ "                ""imports"": {" ++ nl ++
     "                    ""react"": ""/" ++ p ++ "/static/preact.js""," ++ nl ++
     "                    ""react-dom"": ""/" ++ p ++ "/static/preact-dom.js""," ++ nl ++
     "                    ""react-dom/client"": ""/" ++ p ++ "/static/preact-dom.js""," ++ nl ++
     "                    ""react/jsx-runtime"": ""/" ++ p ++ "/static/preact-jsx-runtime.js""" ++ nl ++
     "                }" ++ nl ++ "            }")%string).

(** [server_side_component_html], utils.py:62-92: the two scripts, and the whole. *)
Definition fallback_script (prefix : string) : string :=
  ("if (!document.querySelector(""#reactpy-importmap"")) {" ++ "   console.debug(" ++
   "     ""ReactPy did not detect a suitable JavaScript import map. Falling back to ReactPy's internal framework (Preact).""" ++
   "   );" ++ "   const im = document.createElement(""script"");" ++ "   im.type = ""importmap"";" ++
   "  im.textContent = '" ++ default_import_map prefix ++ "';" ++ "   im.id = ""reactpy-importmap"";" ++
   "   document.head.appendChild(im);" ++ "   delete im;" ++ "}")%string.
Definition mount_script (o : settings) (id path : string) : string :=
  ("import { mountReactPy } from """ ++ s_prefix o ++ "static/index.js"";" ++ "mountReactPy({" ++
   "  mountElement: document.getElementById(""" ++ id ++ """)," ++ "  pathPrefix: """ ++ s_prefix o ++ """," ++
   "  componentPath: """ ++ path ++ """," ++ "  reconnectInterval: " ++ s_interval o ++ "," ++
   "  reconnectMaxInterval: " ++ s_max o ++ "," ++ "  reconnectMaxRetries: " ++ s_retries o ++ "," ++
   "  reconnectBackoffMultiplier: " ++ s_backoff o ++ "," ++ "});")%string.
Definition component_html (o : settings) (id class path : string) : string :=
  ("<div id=""" ++ id ++ """ class=""" ++ class ++ """></div>" ++ "<script>" ++ fallback_script (s_prefix o) ++ "</script>" ++
   "<script type=""module"" crossorigin=""anonymous"">" ++ mount_script o id path ++ "</script>")%string.
(** The template tag, jinja.py:31-37 ([id]: the random id), and the page of the standalone application, standalone.py:241-256. *)
Definition tag_html (o : settings) (id class dotted : string) : string := component_html o id class (dotted ++ "/").
Definition standalone_html (o : settings) : string := component_html o "app" "" "".

(** ** Model: the browser *)

(** The texts of the script elements of a page. The text of a script ends at the next [</script]; in a tag everything up to the
    next [>] is skipped (simplified: no attribute value has one; comments are not modelled). *)
Inductive place := Text | Tag (name : string) | Script (text : string).
Definition is_script (tag : string) : bool := String.eqb tag "script" || startswith "script " tag.
Fixpoint scan (at_ : place) (s : string) : list string :=
  match s with
  | "" => []
  | String a s' =>
      match at_ with
      | Text => if Ascii.eqb a "<" then scan (Tag "") s' else scan Text s'
      | Tag t => if Ascii.eqb a ">" then scan (if is_script t then Script "" else Text) s' else scan (Tag (t ++ String a "")) s'
      | Script t => if startswith "</script" s then t :: scan (Tag "") s' else scan (Script (t ++ String a "")) s'
      end
  end.
Definition scripts (page : string) : list string := scan Text page.

(** The tokens of a script: texts in quotes (without escapes), words, and single other characters. Simplified: a dot is a part
    of a word; [None]: a text that is not closed, or has an escape or the end of a line. *)
Inductive token := TStr (s : string) | TWord (s : string) | TChar (a : ascii).
Inductive lex := Between | Word (w : string) | Quoted (q : ascii) (t : string).
Definition word_char (a : ascii) : bool :=
  let n := nat_of_ascii a in is_alpha a || (Nat.leb 48 n && Nat.leb n 57) || Ascii.eqb a "_" || Ascii.eqb a "$" || Ascii.eqb a ".".
Definition quote_char (a : ascii) : bool := Ascii.eqb a "034" || Ascii.eqb a "'".
Definition first_token (a : ascii) (rest : lex -> option (list token)) : option (list token) :=
  if word_char a then rest (Word (String a ""))
  else if quote_char a then rest (Quoted a "")
  else if Ascii.eqb a " " then rest Between
  else match rest Between with Some ts => Some (TChar a :: ts) | None => None end.
Definition push (t : token) (ts : option (list token)) : option (list token) := match ts with Some ts => Some (t :: ts) | None => None end.
Fixpoint tokens (st : lex) (s : string) : option (list token) :=
  match s with
  | "" => match st with Between => Some [] | Word w => Some [TWord w] | Quoted _ _ => None end
  | String a s' =>
      match st with
      | Between => first_token a (fun st => tokens st s')
      | Word w => if word_char a then tokens (Word (w ++ String a "")) s' else push (TWord w) (first_token a (fun st => tokens st s'))
      | Quoted q t => if Ascii.eqb a q then push (TStr t) (tokens Between s')
                      else if Ascii.eqb a "092" || Ascii.eqb a newline then None
                      else tokens (Quoted q (t ++ String a "")) s'
      end
  end.

(** The properties of an object: names and the tokens of their values, each followed by a comma. *)
Fixpoint properties (name : option string) (value : list token) (ts : list token) : option (list (string * list token)) :=
  match ts with
  | [] => None
  | t :: ts' =>
      match name with
      | None => match t with
                | TChar "}" => Some []
                | TWord w => match ts' with TChar ":" :: _ => properties (Some w) [] ts' | _ => None end
                | _ => None
                end
      | Some n => match t with
                  | TChar "," => match properties None [] ts' with Some l => Some ((n, rev value) :: l) | None => None end
                  | TChar ":" => match value with [] => properties name [] ts' | _ => None end
                  | _ => properties name (t :: value) ts'
                  end
      end
  end.
(** A module that imports a function [f] from a URL and calls it with an object: the URL, the function and the object. *)
Definition import_and_call (script : string) : option (string * string * list (string * list token)) :=
  match tokens Between script with
  | Some (TWord "import" :: TChar "{" :: TWord f :: TChar "}" :: TWord "from" :: TStr url :: TChar ";" :: TWord g :: TChar "(" :: TChar "{" :: ts) =>
      if String.eqb f g then match properties None [] ts with Some l => Some (url, f, l) | None => None end else None
  | _ => None
  end.

(** The path of the request for a URL without host: [None] if it names another host or is relative to the page's path. *)
Definition request_path (url : string) : option string :=
  if startswith "//" url then None else if startswith "/" url then Some url else None.
(** [new URL(..).pathname] after a host: characters that are neither encoded nor have a meaning in URLs, and no segment that is
    [.] or [..] ([None] for other paths). *)
Definition path_safe (a : ascii) : bool := word_char a && negb (Ascii.eqb a "$") || Ascii.eqb a "-" || Ascii.eqb a "~" || Ascii.eqb a "/".
Definition pathname (p : string) : option string :=
  if startswith "/" p && all_chars path_safe p && negb (existsb (fun x => String.eqb x "." || String.eqb x "..") (split "/" p)) then Some p else None.

(** [mountReactPy], mount.tsx:6-38: the path of the socket's URL (its query: Location.v), the path below which modules are
    loaded, the element and the reconnection options. A number is given by its text; it is false if it is zero. *)
Record client := Client { c_socket : option string; c_modules : string; c_element : string;
                          c_interval : string; c_max : string; c_retries : string; c_backoff : string }.
Definition text_prop (n : string) (l : list (string * list token)) : option string :=
  match dget n l with Some [TStr s] => Some s | _ => None end.
Definition zero (t : string) : bool := all_chars (fun a => Ascii.eqb a "0" || Ascii.eqb a ".") t.
Definition number_prop (n default : string) (l : list (string * list token)) : option string :=
  match dget n l with Some [TWord t] => Some (if zero t then default else t) | _ => None end.
Definition element_prop (n : string) (l : list (string * list token)) : option string :=
  match dget n l with Some [TWord "document.getElementById"; TChar "("; TStr s; TChar ")"] => Some s | _ => None end.
Definition mount (l : list (string * list token)) : option client :=
  match text_prop "pathPrefix" l, text_prop "componentPath" l, element_prop "mountElement" l with
  | Some prefix, Some path, Some el =>
      match number_prop "reconnectInterval" "750" l, number_prop "reconnectMaxInterval" "60000" l,
            number_prop "reconnectMaxRetries" "150" l, number_prop "reconnectBackoffMultiplier" "1.25" l with
      | Some a, Some b, Some c, Some d => Some (Client (pathname (prefix ++ path)) (prefix ++ "modules/") el a b c d)
      | _, _, _, _ => None
      end
  | _, _, _ => None
  end.
(** What a page's last script makes the browser do: the URL of ReactPy's code, and the client. *)
Definition shows (page : string) : option (string * client) :=
  match rev (scripts page) with
  | script :: _ => match import_and_call script with
                   | Some (url, "mountReactPy", props) => match mount props with Some c => Some (url, c) | None => None end
                   | _ => None
                   end
  | [] => None
  end.

(** The import map that a page's first script adds when the page has none: names and URLs. *)
Fixpoint text_content (ts : list token) : option string :=
  match ts with
  | TWord "im.textContent" :: TChar "=" :: TStr s :: TChar ";" :: _ => Some s
  | _ :: ts' => text_content ts'
  | [] => None
  end.
Fixpoint entries (ts : list token) : option (list (string * string)) :=
  match ts with
  | [TStr n; TChar ":"; TStr u; TChar "}"; TChar "}"] => Some [(n, u)]
  | TStr n :: TChar ":" :: TStr u :: TChar "," :: ts' => match entries ts' with Some l => Some ((n, u) :: l) | None => None end
  | _ => None
  end.
Definition import_map (page : string) : option (list (string * string)) :=
  match scripts page with
  | script :: _ =>
      match tokens Between script with
      | Some ts => match text_content ts with
                   | Some j => match tokens Between j with
                               | Some (TChar "{" :: TStr "imports" :: TChar ":" :: TChar "{" :: ts') => entries ts'
                               | _ => None
                               end
                   | None => None
                   end
      | None => None
      end
  | [] => None
  end.

(** ** Proofs: reading the page *)

Lemma scan_text a s : nochar "<" a -> scan Text (a ++ s) = scan Text s.
Proof. induction a as [|x a IH]; [reflexivity|]. intros [N H]. cbn [append scan]. destruct (Ascii.eqb_spec x "<"); [congruence|auto]. Qed.
Lemma scan_tag a s : forall t, nochar ">" a -> scan (Tag t) (a ++ s) = scan (Tag (t ++ a)) s.
Proof.
  induction a as [|x a IH]; intros t H; [rewrite app_nil_s; reflexivity|]. destruct H as [N H]. cbn [append scan]. destruct (Ascii.eqb_spec x ">"); [congruence|].
  rewrite IH by assumption. rewrite app_assoc_s. reflexivity.
Qed.
Lemma starts_other p x s : x <> "<"%char -> startswith (String "<" p) (String x s) = false.
Proof. intros N. unfold startswith. cbn [after]. destruct (Ascii.eqb_spec "<" x); [congruence|]. destruct (Ascii.eqb_spec x "<"); [congruence|reflexivity]. Qed.
Lemma scan_script a s : forall t, nochar "<" a -> scan (Script t) (a ++ s) = scan (Script (t ++ a)) s.
Proof.
  induction a as [|x a IH]; intros t H; [rewrite app_nil_s; reflexivity|]. destruct H as [N H]. cbn [append scan]. rewrite starts_other by assumption.
  rewrite IH by assumption. rewrite app_assoc_s. reflexivity.
Qed.
Lemma scan_open t s : scan Text (String "<" s) = scan (Tag "") s /\ scan (Tag t) (String ">" s) = scan (if is_script t then Script "" else Text) s.
Proof. split; reflexivity. Qed.
Lemma scan_end t s : scan (Script t) ("</script>" ++ s) = t :: scan Text s.
Proof.
  change ("</script>" ++ s)%string with (String "<" ("/script" ++ String ">" s)).
  assert (E : startswith "</script" (String "<" ("/script" ++ String ">" s)) = true) by reflexivity.
  remember ("/script" ++ String ">" s)%string as r eqn:R. cbn [scan]. rewrite E, R, scan_tag by (apply contains_nochar; reflexivity). f_equal.
Qed.

(** The tokens of the beginning of a text, and how it ends. *)
Definition before (t : token) (r : option (list token * lex)) : option (list token * lex) := match r with Some (ts, st) => Some (t :: ts, st) | None => None end.
Fixpoint lexes (st : lex) (s : string) : option (list token * lex) :=
  match s with
  | "" => Some ([], st)
  | String a s' =>
      let first := if word_char a then lexes (Word (String a "")) s' else if quote_char a then lexes (Quoted a "") s'
                   else if Ascii.eqb a " " then lexes Between s' else before (TChar a) (lexes Between s') in
      match st with
      | Between => first
      | Word w => if word_char a then lexes (Word (w ++ String a "")) s' else before (TWord w) first
      | Quoted q t => if Ascii.eqb a q then before (TStr t) (lexes Between s')
                      else if Ascii.eqb a "092" || Ascii.eqb a newline then None
                      else lexes (Quoted q (t ++ String a "")) s'
      end
  end.
Definition prepend (ts : list token) (r : option (list token)) : option (list token) := match r with Some l => Some (ts ++ l) | None => None end.
Lemma prepend_push t ts r : prepend (t :: ts) r = push t (prepend ts r).
Proof. destruct r; reflexivity. Qed.
Lemma tokens_app s l : forall st ts st', lexes st l = Some (ts, st') -> tokens st (l ++ s) = prepend ts (tokens st' s).
Proof.
  induction l as [|a l IH]; intros st ts st' E.
  - cbn [lexes] in E. injection E as <- <-. cbn [append]. destruct (tokens st s); reflexivity.
  - cbn [lexes] in E. cbn [append tokens].
    assert (F : forall ts, (if word_char a then lexes (Word (String a "")) l else if quote_char a then lexes (Quoted a "") l
                   else if Ascii.eqb a " " then lexes Between l else before (TChar a) (lexes Between l)) = Some (ts, st') ->
              first_token a (fun st => tokens st (l ++ s)) = prepend ts (tokens st' s)).
    { clear ts E. intros ts E. unfold first_token. destruct (word_char a); [apply IH, E|]. destruct (quote_char a); [apply IH, E|]. destruct (Ascii.eqb a " "); [apply IH, E|].
      destruct (lexes Between l) as [[ts0 st0]|] eqn:B; [|discriminate E]. cbn [before] in E. injection E as <- <-. rewrite (IH _ _ _ B), prepend_push. reflexivity. }
    destruct st as [|w|q t].
    + apply F, E.
    + destruct (word_char a) eqn:W; [apply IH, E|].
      destruct (if quote_char a then lexes (Quoted a "") l else if Ascii.eqb a " " then lexes Between l else before (TChar a) (lexes Between l)) as [[ts0 st0]|] eqn:B; [|discriminate E].
      cbn [before] in E. injection E as <- <-. rewrite (F ts0 eq_refl), prepend_push. reflexivity.
    + destruct (Ascii.eqb a q).
      * destruct (lexes Between l) as [[ts0 st0]|] eqn:B; [|discriminate E]. cbn [before] in E. injection E as <- <-. rewrite (IH _ _ _ B), prepend_push. reflexivity.
      * destruct (Ascii.eqb a "092" || Ascii.eqb a newline); [discriminate E|]. apply IH, E.
Qed.
Lemma tokens_all l : tokens Between l = match lexes Between l with Some (ts, Between) => Some ts | Some (ts, Word w) => Some (ts ++ [TWord w]) | _ => None end.
Proof.
  destruct (lexes Between l) as [[ts st]|] eqn:E.
  - pose proof (tokens_app "" l Between ts st E) as H. rewrite app_nil_s in H. rewrite H. destruct st; cbn; [rewrite app_nil_r; reflexivity|reflexivity|reflexivity].
  - assert (N : forall st, lexes st l = None -> tokens st l = None).
    { clear E. induction l as [|a l IH]; intros st E; [discriminate E|]. cbn [lexes] in E. cbn [tokens].
      assert (F : (if word_char a then lexes (Word (String a "")) l else if quote_char a then lexes (Quoted a "") l
                   else if Ascii.eqb a " " then lexes Between l else before (TChar a) (lexes Between l)) = None -> first_token a (fun st => tokens st l) = None).
      { clear E. intros E. unfold first_token. destruct (word_char a); [apply IH, E|]. destruct (quote_char a); [apply IH, E|]. destruct (Ascii.eqb a " "); [apply IH, E|].
        destruct (lexes Between l) as [[ts0 st0]|] eqn:B; [discriminate E|]. rewrite (IH _ B). reflexivity. }
      destruct st as [|w|q t]; [apply F, E| |].
      - destruct (word_char a); [apply IH, E|]. rewrite F; [reflexivity|]. destruct (if quote_char a then _ else _) as [[? ?]|]; [discriminate E|reflexivity].
      - destruct (Ascii.eqb a q).
        + destruct (lexes Between l) as [[ts0 st0]|] eqn:B; [discriminate E|]. rewrite (IH _ B). reflexivity.
        + destruct (Ascii.eqb a "092" || Ascii.eqb a newline); [reflexivity|apply IH, E]. }
    apply N, E.
Qed.

(** Texts that can be written between quotes as they are. *)
Definition literal_text (s : string) : Prop := nochar "034" s /\ nochar "'" s /\ nochar "092" s /\ nochar newline s /\ nochar "<" s /\ nochar ">" s.
Lemma lexes_quoted q a : (q = "034"%char \/ q = "'"%char) -> literal_text a -> forall t, lexes (Quoted q t) a = Some ([], Quoted q (t ++ a)).
Proof.
  intros Q. unfold literal_text. induction a as [|x a IH]; intros H t; [rewrite app_nil_s; reflexivity|]. cbn [nochar] in H. cbn [lexes].
  destruct (Ascii.eqb_spec x q); [destruct Q; subst; tauto|]. destruct (Ascii.eqb_spec x "092"); [tauto|]. destruct (Ascii.eqb_spec x newline); [tauto|]. cbn [orb].
  rewrite IH by tauto. rewrite app_assoc_s. reflexivity.
Qed.
Lemma lexes_word a : all_chars word_char a = true -> forall w, lexes (Word w) a = Some ([], Word (w ++ a)).
Proof.
  induction a as [|x a IH]; intros H w; [rewrite app_nil_s; reflexivity|]. cbn [all_chars] in H. apply andb_prop in H as [H1 H2]. cbn [lexes]. rewrite H1, IH by assumption.
  rewrite app_assoc_s. reflexivity.
Qed.

(** Numbers as Python writes them: digits and a point. *)
Definition numeral (s : string) : Prop := s <> "" /\ all_chars (fun a => contains a "0123456789.") s = true.
Lemma digits_word a : contains a "0123456789." = true -> word_char a = true /\ a <> "<"%char.
Proof.
  destruct a as [b0 b1 b2 b3 b4 b5 b6 b7].
  destruct b0, b1, b2, b3, b4, b5, b6, b7; vm_compute; intros H; (discriminate H || (split; [reflexivity|discriminate])).
Qed.
Lemma numeral_lexes s : numeral s -> exists x, lexes Between s = Some ([], Word x) /\ x = s.
Proof.
  intros [N H]. destruct s as [|a s]; [congruence|]. cbn [all_chars] in H. apply andb_prop in H as [H1 H2].
  assert (W : word_char a = true /\ all_chars word_char s = true).
  { split; [apply digits_word, H1|]. clear -H2. induction s as [|b s IH]; [reflexivity|]. cbn [all_chars] in *. apply andb_prop in H2 as [A B].
    rewrite (proj1 (digits_word _ A)). apply IH, B. }
  exists (String a s). cbn [lexes]. rewrite (proj1 W), lexes_word by apply W. split; reflexivity.
Qed.
Lemma numeral_nolt s : numeral s -> nochar "<" s.
Proof.
  intros [_ H]. induction s as [|a s IH]; [exact I|]. cbn [all_chars] in H. apply andb_prop in H as [A B]. split; [apply (digits_word _ A)|apply IH, B].
Qed.

Definition fine (o : settings) (id path : string) : Prop :=
  literal_text (s_prefix o) /\ literal_text id /\ literal_text path /\ numeral (s_interval o) /\ numeral (s_max o) /\ numeral (s_retries o) /\ numeral (s_backoff o).

Lemma nochar_lit c s : contains c s = false -> nochar c s.
Proof. apply contains_nochar. Qed.
Ltac nolit := repeat first [apply nochar_app; split | assumption | apply nochar_lit; reflexivity].

Lemma mount_tokens o id path : fine o id path -> import_and_call (mount_script o id path) =
  Some ((s_prefix o ++ "static/index.js")%string, "mountReactPy",
        [("mountElement", [TWord "document.getElementById"; TChar "("; TStr id; TChar ")"]); ("pathPrefix", [TStr (s_prefix o)]); ("componentPath", [TStr path]);
         ("reconnectInterval", [TWord (s_interval o)]); ("reconnectMaxInterval", [TWord (s_max o)]); ("reconnectMaxRetries", [TWord (s_retries o)]);
         ("reconnectBackoffMultiplier", [TWord (s_backoff o)])]).
Proof.
  intros (P & I & C & N1 & N2 & N3 & N4). unfold import_and_call, mount_script. destruct o as [pre a b c d]. cbn [s_prefix s_interval s_max s_retries s_backoff] in *.
  change ("static/index.js"";" ++ ?x)%string with ("static/index.js" ++ """;" ++ x)%string.
  assert (S : literal_text "static/index.js") by (unfold literal_text; split; [|split; [|split; [|split; [|split]]]]; apply nochar_lit; reflexivity).
  destruct (numeral_lexes a N1) as (x1 & L1 & ->). destruct (numeral_lexes b N2) as (x2 & L2 & ->).
  destruct (numeral_lexes c N3) as (x3 & L3 & ->). destruct (numeral_lexes d N4) as (x4 & L4 & ->).
  Ltac lit := erewrite tokens_app; [|vm_compute; reflexivity].
  Ltac quo := erewrite tokens_app; [|apply lexes_quoted; [left; reflexivity|assumption]].
  lit. quo. quo. change ("" ++ pre)%string with pre. set (url := (pre ++ "static/index.js")%string). clearbody url.
  lit. lit. lit. quo. change ("" ++ id)%string with id. lit. lit. quo. change ("" ++ pre)%string with pre. lit. lit. quo. change ("" ++ path)%string with path. lit. lit.
  erewrite tokens_app; [|exact L1]. lit. lit. erewrite tokens_app; [|exact L2]. lit. lit. erewrite tokens_app; [|exact L3]. lit. lit. erewrite tokens_app; [|exact L4]. lit.
  vm_compute tokens. cbn [prepend app]. reflexivity.
Qed.

Lemma remove_app c a b : remove c (a ++ b) = (remove c a ++ remove c b)%string.
Proof. induction a as [|x a IH]; [reflexivity|]. cbn [append remove]. destruct (Ascii.eqb x c); [exact IH|]. cbn [append]. rewrite IH. reflexivity. Qed.
Lemma remove_id c a : nochar c a -> remove c a = a.
Proof. induction a as [|x a IH]; [reflexivity|]. intros [N H]. cbn [remove]. destruct (Ascii.eqb_spec x c); [congruence|]. rewrite IH by assumption. reflexivity. Qed.
Lemma map_text prefix p : strip_slashes prefix = p -> nochar " " p -> nochar newline p -> default_import_map prefix =
  ("{""imports"":{""react"":""/" ++ p ++ "/static/preact.js"",""react-dom"":""/" ++ p ++ "/static/preact-dom.js"",""react-dom/client"":""/" ++ p ++
   "/static/preact-dom.js"",""react/jsx-runtime"":""/" ++ p ++ "/static/preact-jsx-runtime.js""}}")%string.
Proof.
  intros E N1 N2. unfold default_import_map. rewrite E. cbv zeta. rewrite !remove_app, (remove_id newline p N2), (remove_id " " p N1). reflexivity.
Qed.

Lemma cut_div x : ("<div id=""" ++ x)%string = String "<" ("div id=""" ++ x). Proof. reflexivity. Qed.
Lemma cut_close x : ("""></div>" ++ x)%string = ("""" ++ String ">" (String "<" ("/div" ++ (String ">" x))))%string. Proof. reflexivity. Qed.
Lemma cut_script x : ("<script>" ++ x)%string = String "<" ("script" ++ String ">" x). Proof. reflexivity. Qed.
Lemma cut_module x : ("<script type=""module"" crossorigin=""anonymous"">" ++ x)%string = String "<" ("script type=""module"" crossorigin=""anonymous""" ++ String ">" x).
Proof. reflexivity. Qed.
Lemma tag_div id class : is_script ((((("" ++ "div id=""") ++ id) ++ """ class=""") ++ class) ++ """") = false. Proof. reflexivity. Qed.
Lemma tag_close : is_script ("" ++ "/div") = false /\ is_script ("" ++ "script") = true /\ is_script ("" ++ "script type=""module"" crossorigin=""anonymous""") = true. Proof. split; [|split]; reflexivity. Qed.
Lemma scripts_page o id class path : fine o id path -> nochar "<" class -> nochar ">" class -> nochar "<" (fallback_script (s_prefix o)) ->
  scripts (component_html o id class path) = [fallback_script (s_prefix o); mount_script o id path].
Proof.
  intros (P & I & C & N1 & N2 & N3 & N4) C1 C2 F. unfold scripts, component_html.
  assert (M : nochar "<" (mount_script o id path)).
  { unfold mount_script. apply numeral_nolt in N1, N2, N3, N4. unfold literal_text in P, I, C. decompose [and] P. decompose [and] I. decompose [and] C. nolit. }
  set (fb := fallback_script (s_prefix o)) in *. clearbody fb. set (ms := mount_script o id path) in *. clearbody ms.
  rewrite cut_div, (proj1 (scan_open "" _)).
  rewrite scan_tag by (apply nochar_lit; reflexivity). rewrite scan_tag by apply I. rewrite scan_tag by (apply nochar_lit; reflexivity). rewrite scan_tag by assumption.
  rewrite cut_close, scan_tag by (apply nochar_lit; reflexivity).
  rewrite (proj2 (scan_open _ _)), tag_div, (proj1 (scan_open "" _)), scan_tag by (apply nochar_lit; reflexivity). rewrite (proj2 (scan_open _ _)), (proj1 tag_close).
  rewrite cut_script, (proj1 (scan_open "" _)), scan_tag by (apply nochar_lit; reflexivity). rewrite (proj2 (scan_open _ _)), (proj1 (proj2 tag_close)).
  rewrite scan_script by assumption. rewrite scan_end.
  rewrite cut_module, (proj1 (scan_open "" _)), scan_tag by (apply nochar_lit; reflexivity). rewrite (proj2 (scan_open _ _)), (proj2 (proj2 tag_close)). rewrite scan_script by assumption.
  rewrite <- (app_nil_s "</script>"), scan_end. reflexivity.
Qed.

Definition nonzero (t default : string) : string := if zero t then default else t.
Lemma shows_page o id class path : fine o id path -> nochar "<" class -> nochar ">" class -> nochar "<" (fallback_script (s_prefix o)) ->
  shows (component_html o id class path) =
  Some ((s_prefix o ++ "static/index.js")%string,
        Client (pathname (s_prefix o ++ path)) (s_prefix o ++ "modules/") id (nonzero (s_interval o) "750") (nonzero (s_max o) "60000")
               (nonzero (s_retries o) "150") (nonzero (s_backoff o) "1.25")).
Proof.
  intros F C1 C2 N. unfold shows. rewrite (scripts_page o id class path F C1 C2 N). cbn [rev app]. rewrite (mount_tokens o id path F). reflexivity.
Qed.

(** Prefixes whose characters stand for themselves in URLs, in the regular expression of the router and in texts; they begin with
    one slash and end with one. *)
Definition plain (a : ascii) : bool := contains a "ABCDEFGHIJKLMNOPQRSTUVWXYZabcdefghijklmnopqrstuvwxyz0123456789_-~/".
(** The text begins with a slash and ends with one. *)
Definition slashed (p : string) : Prop := (exists x, p = "/" ++ x)%string /\ (exists x, p = x ++ "/")%string.
Definition good_prefix (p : string) : Prop := slashed p /\ all_chars plain p = true /\ startswith "//" p = false.
Lemma slashed_spec p : check_path p = true <-> slashed p.
Proof.
  unfold check_path, slashed. assert (A : startswith "/" p = true <-> exists x, p = ("/" ++ x)%string).
  { unfold startswith. destruct (after "/" p) as [r|] eqn:E; [apply after_spec in E; split; eauto|]. split; [discriminate|]. intros [x X]. apply after_spec in X. congruence. }
  assert (B : endswith "/" p = true <-> exists x, p = (x ++ "/")%string).
  { clear A. split.
    - induction p as [|a p IH]; intros H; [discriminate|]. destruct p as [|b p].
      + unfold endswith in H. cbn in H. apply Ascii.eqb_eq in H as ->. exists "". reflexivity.
      + destruct IH as [x X]; [exact H|]. exists (String a x). rewrite X. reflexivity.
    - intros [x ->]. rewrite endswith_app by discriminate. reflexivity. }
  rewrite !andb_true_iff, A, B. split; [tauto|]. intros [[x ->] Y]. split; [split; [reflexivity|eauto]|exact Y].
Qed.
Lemma plain_char a : plain a = true -> path_safe a = true /\ literal a = true /\
  a <> "034"%char /\ a <> "'"%char /\ a <> "092"%char /\ a <> newline /\ a <> "<"%char /\ a <> ">"%char /\ a <> " "%char /\ a <> "."%char.
Proof.
  destruct a as [b0 b1 b2 b3 b4 b5 b6 b7]. unfold newline.
  destruct b0, b1, b2, b3, b4, b5, b6, b7; intros H;
    first [discriminate H | (split; [reflexivity|]; split; [reflexivity|]; split; [discriminate|]; split; [discriminate|]; split; [discriminate|]; split; [discriminate|]; split; [discriminate|]; split; [discriminate|]; split; discriminate)].
Qed.
Lemma all_impl (f g : ascii -> bool) s : (forall a, f a = true -> g a = true) -> all_chars f s = true -> all_chars g s = true.
Proof. intros I. induction s as [|a s IH]; [reflexivity|]. cbn [all_chars]. intros H. apply andb_prop in H as [A B]. rewrite (I a A). apply IH, B. Qed.
Lemma all_nochar f c s : (forall a, f a = true -> a <> c) -> all_chars f s = true -> nochar c s.
Proof. intros I. induction s as [|a s IH]; [intros _; exact Logic.I|]. cbn [all_chars]. intros H. apply andb_prop in H as [A B]. split; [apply I, A|apply IH, B]. Qed.
Lemma plain_text s : all_chars plain s = true -> literal_text s.
Proof. intros H. unfold literal_text. split; [|split; [|split; [|split; [|split]]]]; (eapply all_nochar; [|exact H]); intros a A; apply plain_char in A; tauto. Qed.
Lemma lstrip_all f g s : all_chars f s = true -> all_chars f (lstrip_set g s) = true.
Proof. induction s as [|a s IH]; [reflexivity|]. cbn [all_chars lstrip_set]. intros H. destruct (g a); [|exact H]. apply andb_prop in H as [_ B]. apply IH, B. Qed.
Lemma rstrip_all f g s : all_chars f s = true -> all_chars f (rstrip_set g s) = true.
Proof.
  induction s as [|a s IH]; [reflexivity|]. cbn [rstrip_set]. destruct (all_chars g (String a s)); [reflexivity|]. cbn [all_chars]. intros H. apply andb_prop in H as [A B].
  rewrite A. apply IH, B.
Qed.
Lemma fallback_nolt prefix : all_chars plain prefix = true -> nochar "<" (fallback_script prefix).
Proof.
  intros H. assert (S : all_chars plain (strip_slashes prefix) = true) by (apply rstrip_all, lstrip_all, H). pose proof (plain_text _ S) as L. unfold literal_text in L.
  unfold fallback_script. rewrite (map_text prefix _ eq_refl); [|eapply all_nochar; [|exact S]; intros a A; apply plain_char in A; tauto|tauto].
  decompose [and] L. nolit.
Qed.

Lemma split_cat c x y : split c (x ++ String c y) = split c x ++ split c y.
Proof.
  induction x as [|a x IH]; cbn [append split]; [rewrite Ascii.eqb_refl; reflexivity|]. rewrite IH. destruct (Ascii.eqb a c); [reflexivity|].
  destruct (split_cons c x) as (p & ps & ->). reflexivity.
Qed.
Definition dots (x : string) : bool := String.eqb x "." || String.eqb x "..".
Lemma dots_no x : nochar "." x -> dots x = false.
Proof. unfold dots. intros H. destruct (String.eqb_spec x "."); [subst; destruct H; congruence|]. destruct (String.eqb_spec x ".."); [subst; destruct H; congruence|reflexivity]. Qed.
Lemma split_nodots s : nochar "." s -> existsb dots (split "/" s) = false.
Proof.
  intros H. assert (F : Forall (nochar ".") (split "/" s)).
  { induction s as [|a s IH]; cbn [split]; [constructor; [exact I|constructor]|]. destruct H as [N H]. specialize (IH H).
    destruct (Ascii.eqb a "/"); [constructor; [exact I|exact IH]|]. destruct (split "/" s) as [|p ps]; [constructor; [split; [exact N|exact I]|constructor]|].
    apply Forall_cons_iff in IH as [A B]. constructor; [split; assumption|exact B]. }
  clear H. induction F as [|x l X F IH]; [reflexivity|]. cbn [existsb]. rewrite (dots_no x X). exact IH.
Qed.
Lemma ends_slash p : endswith "/" p = true -> exists p', p = (p' ++ "/")%string.
Proof.
  unfold endswith. induction p as [|a p IH]; [discriminate|]. rewrite last_cons. destruct p as [|b p].
  - intros H. apply Ascii.eqb_eq in H as ->. exists "". reflexivity.
  - intros H. destruct (IH H) as (p' & ->). exists (String a p'). reflexivity.
Qed.
Lemma good_pathname p d : good_prefix p -> all_chars url_char d = true -> d <> "." -> d <> ".." ->
  pathname (p ++ d ++ "/") = Some (p ++ d ++ "/")%string /\ pathname p = Some p.
Proof.
  intros (CP & PL & _) U N1 N2. apply slashed_spec in CP. unfold check_path in CP. apply andb_prop in CP as [CP E]. apply andb_prop in CP as [_ S].
  destruct (ends_slash p E) as (p' & Ep).
  assert (SL : forall x, startswith "/" (p ++ x) = true).
  { intros x. destruct p as [|a p0]; [discriminate S|]. unfold startswith in *. cbn [append after] in *. destruct (Ascii.eqb a "/"); [reflexivity|]. discriminate S. }
  assert (SF : all_chars path_safe p = true) by (eapply all_impl; [|exact PL]; intros a A; apply plain_char in A; tauto).
  assert (UD : all_chars path_safe d = true /\ nochar "/" d).
  { assert (X : forall a, url_char a = true -> path_safe a = true /\ a <> "/"%char).
    { intros [b0 b1 b2 b3 b4 b5 b6 b7]. destruct b0, b1, b2, b3, b4, b5, b6, b7; intros H; first [discriminate H | split; [reflexivity|discriminate]]. }
    split; [eapply all_impl; [|exact U]; intros a A; apply X, A|eapply all_nochar; [|exact U]; intros a A; apply X, A]. }
  assert (ND : nochar "." p') by (assert (D : nochar "." p) by (eapply all_nochar; [|exact PL]; intros a A; apply plain_char in A; tauto); rewrite Ep in D; apply nochar_app in D; tauto).
  assert (AP : forall f x y, all_chars f (x ++ y) = all_chars f x && all_chars f y).
  { intros f x y. induction x as [|a x IH]; [reflexivity|]. cbn [append all_chars]. rewrite IH. apply andb_assoc. }
  unfold pathname. change (fun x => String.eqb x "." || String.eqb x "..") with dots. split.
  - rewrite SL, !AP, SF, (proj1 UD). replace (all_chars path_safe "/") with true by reflexivity. cbn [andb].
    replace (existsb dots (split "/" (p ++ d ++ "/"))) with false; [reflexivity|]. rewrite Ep, app_assoc_s. change ("/" ++ d ++ "/")%string with (String "/" (d ++ String "/" "")).
    rewrite split_cat, existsb_app, split_nodots, split_cat, existsb_app, (split_no "/" d (proj2 UD)) by assumption. cbn. unfold dots.
    destruct (String.eqb_spec d "."); [congruence|]. destruct (String.eqb_spec d ".."); [congruence|]. reflexivity.
  - rewrite <- (app_nil_s p) at 1. rewrite SL, SF. cbn [andb]. replace (existsb dots (split "/" p)) with false; [reflexivity|].
    rewrite Ep. change "/" with (String "/" ""). rewrite split_cat, existsb_app, split_nodots by assumption. reflexivity.
Qed.
Lemma good_literal p : good_prefix p -> all_chars literal p = true.
Proof. intros (_ & H & _). eapply all_impl; [|exact H]. intros a A. apply plain_char in A. tauto. Qed.
Lemma good_request p x : good_prefix p -> (exists a y, x = String a y /\ a <> "/"%char) -> request_path (p ++ x) = Some (p ++ x)%string.
Proof.
  intros (CP & _ & S2) (b & y & -> & NB). apply slashed_spec in CP. unfold check_path in CP. apply andb_prop in CP as [CP _]. apply andb_prop in CP as [_ S].
  unfold request_path, startswith in *. destruct p as [|a p]; [discriminate S|]. cbn [append after] in *. destruct (Ascii.eqb a "/"); [|discriminate S].
  destruct p as [|c p]; cbn [append after] in *.
  - destruct (Ascii.eqb_spec b "/"); [congruence|]. reflexivity.
  - destruct (Ascii.eqb c "/"); [discriminate S2|reflexivity].
Qed.

(** ** C89 *)

(** In a page made by the template tag, with the settings of the application: ReactPy's code is loaded from the application's
    static files, the client shows the component in the tag's element, its socket is served by the application and renders the
    registered component, and JavaScript modules are loaded from the application's modules. *)
Theorem C89_tag matches o id class d components c :
  let app := Cfg Middleware (s_prefix o) [] [] None in
  good_prefix (s_prefix o) -> literal_text id -> nochar "<" class -> nochar ">" class ->
  numeral (s_interval o) -> numeral (s_max o) -> numeral (s_retries o) -> numeral (s_backoff o) ->
  d <> "" -> all_chars url_char d = true -> d <> "." -> d <> ".." -> dget d components = Some c ->
  exists url cl path,
    shows (tag_html o id class d) = Some (url, cl) /\
    request_path url = Some url /\ serve matches app (Http url) = Static /\
    c_element cl = id /\ c_socket cl = Some path /\ serve matches app (Websocket path) = Dispatcher /\
    run_dispatcher true (s_prefix o) components None path = Component c /\
    forall file, serve matches app (Http (c_modules cl ++ file)) = Modules.
Proof.
  intros app G LI C1 C2 N1 N2 N3 N4 ND U D1 D2 R. unfold tag_html. pose proof (good_literal _ G) as LP.
  assert (LD : literal_text (d ++ "/")).
  { assert (X : forall a, url_char a = true -> plain a = true \/ a = "."%char).
    { intros [b0 b1 b2 b3 b4 b5 b6 b7]. destruct b0, b1, b2, b3, b4, b5, b6, b7; intros H; first [discriminate H | left; reflexivity | right; reflexivity]. }
    assert (Y : forall a, url_char a = true -> a <> "034"%char /\ a <> "'"%char /\ a <> "092"%char /\ a <> newline /\ a <> "<"%char /\ a <> ">"%char).
    { intros a A. destruct (X a A) as [P| ->]; [apply plain_char in P; tauto|]. unfold newline. split; [|split; [|split; [|split; [|split]]]]; discriminate. }
    unfold literal_text. split; [|split; [|split; [|split; [|split]]]]; apply nochar_app; (split; [|apply nochar_lit; reflexivity]);
      (eapply all_nochar; [|exact U]); intros a A; apply Y in A; tauto. }
  destruct (good_pathname _ d G U D1 D2) as [PN _].
  exists (s_prefix o ++ "static/index.js")%string. eexists. exists (s_prefix o ++ d ++ "/")%string.
  split; [apply shows_page; [|assumption|assumption|apply fallback_nolt, G]; unfold fine; pose proof (plain_text _ (proj1 (proj2 G))); tauto|].
  cbn [c_element c_socket c_modules].
  split; [apply good_request; [exact G|exists "s"%char, "tatic/index.js"; split; [reflexivity|discriminate]]|].
  split; [apply C57_routing; [exact LP|]; exists (s_prefix o ++ "static/index.js")%string; split; [reflexivity|exists "index.js"; reflexivity]|].
  split; [reflexivity|]. split; [exact PN|].
  split; [apply C57_routing; [exact LP|]; exists (s_prefix o ++ d ++ "/")%string; split; [reflexivity|]; exists d, "/"; split; [exact ND|]; split; [exact U|]; split; [left; reflexivity|reflexivity]|].
  split; [apply C58_registered; [exact LP|]; exists d, "/"; split; [exact ND|]; split; [exact U|]; split; [left; reflexivity|]; split; [reflexivity|exact R]|].
  intros file. apply C57_routing; [exact LP|]. eexists. split; [reflexivity|]. exists file. rewrite app_assoc_s. reflexivity.
Qed.
Print Assumptions C89_tag.

(** The page of the standalone application does the same for its root component. *)
Theorem C89_standalone matches o http ws lifespan components c :
  let app := Cfg Standalone (s_prefix o) http ws lifespan in
  good_prefix (s_prefix o) -> numeral (s_interval o) -> numeral (s_max o) -> numeral (s_retries o) -> numeral (s_backoff o) ->
  exists url cl path,
    shows (standalone_html o) = Some (url, cl) /\
    request_path url = Some url /\ serve matches app (Http url) = Static /\
    c_element cl = "app" /\ c_socket cl = Some path /\ serve matches app (Websocket path) = Dispatcher /\
    run_dispatcher false (s_prefix o) components (Some c) path = Component c /\
    forall file, serve matches app (Http (c_modules cl ++ file)) = Modules.
Proof.
  intros app G N1 N2 N3 N4. unfold standalone_html. pose proof (good_literal _ G) as LP.
  destruct (good_pathname _ "d" G eq_refl ltac:(discriminate) ltac:(discriminate)) as [_ PN].
  exists (s_prefix o ++ "static/index.js")%string. eexists. exists (s_prefix o).
  assert (L : forall s, s = "app" \/ s = "" -> literal_text s) by (intros s [->| ->]; unfold literal_text; (split; [|split; [|split; [|split; [|split]]]]); apply nochar_lit; reflexivity).
  split; [apply shows_page; [|exact I|exact I|apply fallback_nolt, G]; unfold fine; pose proof (plain_text _ (proj1 (proj2 G))); pose proof (L "app" (or_introl eq_refl)); pose proof (L "" (or_intror eq_refl)); tauto|].
  cbn [c_element c_socket c_modules].
  split; [apply good_request; [exact G|exists "s"%char, "tatic/index.js"; split; [reflexivity|discriminate]]|].
  split; [apply C57_routing; [exact LP|]; exists (s_prefix o ++ "static/index.js")%string; split; [reflexivity|exists "index.js"; reflexivity]|].
  split; [reflexivity|]. split; [rewrite app_nil_s; exact PN|].
  split; [apply C57_routing; [exact LP|]; exists (s_prefix o); split; reflexivity|].
  split; [reflexivity|].
  intros file. apply C57_routing; [exact LP|]. eexists. split; [reflexivity|]. exists file. rewrite app_assoc_s. reflexivity.
Qed.
Print Assumptions C89_standalone.

(** The client reconnects with the server's settings, if none is zero. *)
Theorem C89_reconnection_partial o id class path :
  good_prefix (s_prefix o) -> literal_text id -> literal_text path -> nochar "<" class -> nochar ">" class ->
  numeral (s_interval o) -> numeral (s_max o) -> numeral (s_retries o) -> numeral (s_backoff o) ->
  Forall (fun t => exists a, contains a t = true /\ contains a "123456789" = true) [s_interval o; s_max o; s_retries o; s_backoff o] ->
  exists url cl, shows (component_html o id class path) = Some (url, cl) /\
    c_interval cl = s_interval o /\ c_max cl = s_max o /\ c_retries cl = s_retries o /\ c_backoff cl = s_backoff o.
Proof.
  intros G LI LC C1 C2 N1 N2 N3 N4 F.
  assert (Z : forall t d, (exists a, contains a t = true /\ contains a "123456789" = true) -> nonzero t d = t).
  { intros t d (a & A & B). unfold nonzero. replace (zero t) with false; [reflexivity|]. unfold zero. induction t as [|x t IH]; [discriminate A|]. cbn [contains] in A. cbn [all_chars].
    apply orb_prop in A as [A|A]; [|rewrite <- IH by exact A; symmetry; apply andb_false_r].
    apply Ascii.eqb_eq in A as ->. destruct (Ascii.eqb_spec a "0"); [subst; discriminate B|]. destruct (Ascii.eqb_spec a "."); [subst; discriminate B|]. reflexivity. }
  eexists. eexists. split; [apply shows_page; [|assumption|assumption|apply fallback_nolt, G]; unfold fine; pose proof (plain_text _ (proj1 (proj2 G))); tauto|].
  cbn [c_interval c_max c_retries c_backoff]. inversion F as [|? ? F1 F']; subst. inversion F' as [|? ? F2 F'']; subst. inversion F'' as [|? ? F3 F3']; subst. inversion F3' as [|? ? F4 _]; subst.
  rewrite !Z by assumption. split; [|split; [|split]]; reflexivity.
Qed.
Print Assumptions C89_reconnection_partial.

(** *** The import map *)

Lemma lexes_in q a : nochar q a -> nochar "092" a -> nochar newline a -> forall t, lexes (Quoted q t) a = Some ([], Quoted q (t ++ a)).
Proof.
  induction a as [|x a IH]; intros H1 H2 H3 t; [rewrite app_nil_s; reflexivity|]. cbn [nochar] in H1, H2, H3. cbn [lexes].
  destruct (Ascii.eqb_spec x q); [tauto|]. destruct (Ascii.eqb_spec x "092"); [tauto|]. destruct (Ascii.eqb_spec x newline); [tauto|]. cbn [orb].
  rewrite IH by tauto. rewrite app_assoc_s. reflexivity.
Qed.
Lemma fallback_map prefix j : default_import_map prefix = j -> nochar "'" j -> nochar "092" j -> nochar newline j ->
  match tokens Between (fallback_script prefix) with Some ts => text_content ts | None => None end = Some j.
Proof.
  intros E N1 N2 N3. unfold fallback_script. rewrite E. clear E. repeat lit. erewrite tokens_app; [|apply lexes_in; assumption]. change ("" ++ j)%string with j.
  repeat lit. match goal with |- context [tokens ?x ?y] => let t := eval vm_compute in (tokens x y) in change (tokens x y) with t end.
  cbn [prepend app]. reflexivity.
Qed.
Definition map_entries (p : string) : list (string * string) :=
  [("react", ("/" ++ p ++ "/static/preact.js")%string); ("react-dom", ("/" ++ p ++ "/static/preact-dom.js")%string);
   ("react-dom/client", ("/" ++ p ++ "/static/preact-dom.js")%string); ("react/jsx-runtime", ("/" ++ p ++ "/static/preact-jsx-runtime.js")%string)].
Lemma page_map o id class path : fine o id path -> nochar "<" class -> nochar ">" class -> all_chars plain (s_prefix o) = true ->
  import_map (component_html o id class path) = Some (map_entries (strip_slashes (s_prefix o))).
Proof.
  intros F C1 C2 PL. assert (S : all_chars plain (strip_slashes (s_prefix o)) = true) by (apply rstrip_all, lstrip_all, PL). pose proof (plain_text _ S) as L.
  unfold import_map. rewrite (scripts_page o id class path F C1 C2 (fallback_nolt _ PL)).
  assert (NS : nochar " " (strip_slashes (s_prefix o))) by (eapply all_nochar; [|exact S]; intros a A; apply plain_char in A; tauto).
  set (p := strip_slashes (s_prefix o)) in *. pose proof (map_text (s_prefix o) p eq_refl NS (proj1 (proj2 (proj2 (proj2 L))))) as E. set (j := default_import_map (s_prefix o)) in *.
  pose proof (fallback_map (s_prefix o) j eq_refl) as M. destruct (tokens Between (fallback_script (s_prefix o))) as [ts|].
  2:{ exfalso. revert M. rewrite E. unfold literal_text in L. decompose [and] L. intros M. discriminate M; nolit. }
  rewrite M by (rewrite E; unfold literal_text in L; decompose [and] L; nolit). rewrite E. clear M E. clearbody p j. clear j ts.
  assert (C : forall x, ("/static/preact.js"",""react-dom"":""/" ++ x)%string = ("/static/preact.js" ++ """,""react-dom"":""/" ++ x)%string /\
    ("/static/preact-dom.js"",""react-dom/client"":""/" ++ x)%string = ("/static/preact-dom.js" ++ """,""react-dom/client"":""/" ++ x)%string /\
    ("/static/preact-dom.js"",""react/jsx-runtime"":""/" ++ x)%string = ("/static/preact-dom.js" ++ """,""react/jsx-runtime"":""/" ++ x)%string) by (intros x; split; [|split]; reflexivity).
  rewrite (proj1 (C _)), (proj1 (proj2 (C _))), (proj2 (proj2 (C _))). clear C.
  change "/static/preact-jsx-runtime.js""}}" with ("/static/preact-jsx-runtime.js" ++ """}}")%string.
  assert (LS : forall x, x = "/static/preact.js" \/ x = "/static/preact-dom.js" \/ x = "/static/preact-jsx-runtime.js" -> literal_text x)
    by (intros x [->|[->| ->]]; unfold literal_text; (split; [|split; [|split; [|split; [|split]]]]); apply nochar_lit; reflexivity).
  Ltac quo2 LS := erewrite tokens_app; [|apply lexes_quoted; [left; reflexivity|first [assumption | apply LS; tauto]]].
  lit. quo2 LS. quo2 LS. remember (_ ++ "/static/preact.js")%string as u1 eqn:E1.
  lit. quo2 LS. quo2 LS. remember ((_ ++ p) ++ "/static/preact-dom.js")%string as u2 eqn:E2.
  lit. quo2 LS. quo2 LS. rewrite <- E2. lit. quo2 LS. quo2 LS. remember (_ ++ "/static/preact-jsx-runtime.js")%string as u3 eqn:E3.
  assert (U : map_entries p = [("react", u1); ("react-dom", u2); ("react-dom/client", u2); ("react/jsx-runtime", u3)]) by (unfold map_entries; rewrite E1, E2, E3, !app_assoc_s; reflexivity).
  rewrite U. clear U E1 E2 E3. rewrite <- (app_nil_s """}}"). lit. reflexivity.
Qed.

(** If the page has no import map of its own, React's names are loaded from the application's static files, unless the prefix is
    a single slash or has two at an end. *)
Theorem C89_import_map_partial matches mode http ws lifespan o id class path p :
  let app := Cfg mode (s_prefix o) http ws lifespan in
  good_prefix (s_prefix o) -> literal_text id -> literal_text path -> nochar "<" class -> nochar ">" class ->
  numeral (s_interval o) -> numeral (s_max o) -> numeral (s_retries o) -> numeral (s_backoff o) ->
  s_prefix o = ("/" ++ p ++ "/")%string -> p <> "" -> startswith "/" p = false -> endswith "/" p = false ->
  exists m, import_map (component_html o id class path) = Some m /\ map fst m = ["react"; "react-dom"; "react-dom/client"; "react/jsx-runtime"] /\
    forall name url, In (name, url) m -> request_path url = Some url /\ serve matches app (Http url) = Static.
Proof.
  intros app G LI LC C1 C2 N1 N2 N3 N4 EP NE S1 S2. exists (map_entries p).
  assert (ST : strip_slashes (s_prefix o) = p).
  { rewrite EP. unfold strip_slashes, strip_set. rewrite lstrip_set_app; [|reflexivity|].
    - apply rstrip_set_app; [reflexivity|]. intros a A. unfold endswith in S2. rewrite A in S2. rewrite Ascii.eqb_sym. exact S2.
    - intros a A. destruct p as [|b p]; [congruence|]. cbn [append first_char] in A. injection A as <-. unfold startswith in S1. cbn [after] in S1. rewrite Ascii.eqb_sym. destruct (Ascii.eqb b "/"); [discriminate S1|reflexivity]. }
  split; [rewrite (page_map o id class path); [rewrite ST; reflexivity|unfold fine; pose proof (plain_text _ (proj1 (proj2 G))); tauto|assumption|assumption|apply G]|].
  split; [reflexivity|]. intros name url H.
  assert (X : exists f, url = (s_prefix o ++ "static/" ++ f)%string).
  { cbn [map_entries In] in H. rewrite EP.
    destruct H as [H|[H|[H|[H|[]]]]]; injection H as <- <-; [exists "preact.js"|exists "preact-dom.js"|exists "preact-dom.js"|exists "preact-jsx-runtime.js"];
      rewrite !app_assoc_s; reflexivity. }
  destruct X as (f & ->). split; [apply good_request; [exact G|exists "s"%char, ("tatic/" ++ f)%string; split; [reflexivity|discriminate]]|].
  apply C57_routing; [apply good_literal, G|]. eexists. split; [reflexivity|]. exists f. reflexivity.
Qed.
Print Assumptions C89_import_map_partial.

(** Finding: the prefix "/" is accepted, but the import map then names another host, "static". *)
Theorem C89_root_prefix_refuted : let o := Settings "/" "750" "60000" "150" "1.25" in
  check_path "/" = true /\ good_prefix "/" /\
  match import_map (standalone_html o) with Some m => dget "react" m = Some "//static/preact.js" | None => False end /\ request_path "//static/preact.js" = None.
Proof. split; [|split; [split; [apply slashed_spec|split]|split]]; vm_compute; reflexivity. Qed.
Print Assumptions C89_root_prefix_refuted.

(** Finding: a setting of zero, for instance no reconnection at all, is replaced by the client's default. *)
Theorem C89_zero_refuted : let o := Settings "/reactpy/" "750" "60000" "0" "1.25" in
  match shows (standalone_html o) with Some (_, cl) => c_retries cl = "150" | None => False end.
Proof. vm_compute. reflexivity. Qed.
Print Assumptions C89_zero_refuted.

(** Finding: a component whose dotted path has other letters than those of ASCII (allowed in Python) can be registered and put on
    a page, but is never served; its socket goes to the user's application. *)
Theorem C89_letters_refuted matches : let d := ("app.caf" ++ String "195" (String "169" ""))%string in
  (forall path, run_dispatcher true "/reactpy/" [(d, 1)] None path <> Component 1) /\
  serve matches (Cfg Middleware "/reactpy/" [] [] None) (Websocket ("/reactpy/" ++ d ++ "/")) = UserApp.
Proof.
  split; [|reflexivity]. intros path H. apply C58_registered in H; [|reflexivity]. destruct H as (d & tail & _ & U & _ & _ & D).
  cbn [dget] in D. destruct (eq_dec d _) as [->|]; [discriminate U|discriminate D].
Qed.
Print Assumptions C89_letters_refuted.

(** *** Several applications in one process *)

(** [ReactPyMiddleware.__init__] with the setting [path_prefix] or without, middleware.py:74-92 and utils.py:49-59: the prefix of
    all pages that are made from now on, and the one the application routes by ([None]: the constructor raises). *)
Definition construct (current : string) (setting : option string) : string * option string :=
  match setting with
  | None => (current, Some current)
  | Some p => if check_path p then (p, Some p) else (current, None)
  end.
Definition constructs (current : string) (l : list (option string)) : string := fold_left (fun g s => fst (construct g s)) l current.

(** An application can be created with every prefix that begins and ends with a slash, which is then the prefix of its pages and its
    routes, and with no other; a refused one changes nothing. *)
Theorem C89_accepted current p :
  (slashed p -> construct current (Some p) = (p, Some p)) /\ (~ slashed p -> construct current (Some p) = (current, None)) /\
  construct current None = (current, Some current).
Proof.
  cbn [construct]. split; [|split; [|reflexivity]]; intros H; destruct (check_path p) eqn:E; try reflexivity.
  - apply slashed_spec in H. congruence.
  - apply slashed_spec in E. contradiction.
Qed.
Print Assumptions C89_accepted.

(** As long as no application with another prefix is created, pages have the application's prefix. *)
Theorem C89_same_prefix_partial start earlier setting later p : construct (constructs start earlier) setting = (p, Some p) ->
  (forall q, In (Some q) later -> slashed q -> q = p) -> constructs start (earlier ++ setting :: later) = p.
Proof.
  intros C H. unfold constructs in *. rewrite fold_left_app. cbn [fold_left]. rewrite C. cbn [fst]. clear C. induction later as [|s later IH]; [reflexivity|]. cbn [fold_left].
  replace (fst (construct p s)) with p; [apply IH; intros q I; apply H; right; exact I|].
  destruct s as [q|]; [|reflexivity]. cbn. destruct (check_path q) eqn:C; [|reflexivity]. symmetry. exact (H q (or_introl eq_refl) (proj1 (slashed_spec q) C)).
Qed.
Print Assumptions C89_same_prefix_partial.

(** Finding: with two standalone applications in one process, the first one's page opens a socket at the second one's prefix,
    which the first application does not serve. *)
Theorem C89_two_applications_refuted matches :
  let current := constructs "/reactpy/" [Some "/a/"; Some "/b/"] in
  fst (construct "/reactpy/" (Some "/a/")) = "/a/" /\
  match shows (standalone_html (Settings current "750" "60000" "150" "1.25")) with
  | Some (_, cl) => c_socket cl = Some "/b/" /\ serve matches (Cfg Standalone "/a/" [] [] None) (Websocket "/b/") = UserApp
  | None => False
  end.
Proof. split; [reflexivity|]. vm_compute. split; reflexivity. Qed.
Print Assumptions C89_two_applications_refuted.

Example C89_example : let o := Settings "/my-app/" "750" "60000" "150" "1.25" in
  (good_prefix "/my-app/" /\ check_path "my-app/" = false) /\
  shows (tag_html o "x1" "wide" "app.views.root") =
    Some ("/my-app/static/index.js", Client (Some "/my-app/app.views.root/") "/my-app/modules/" "x1" "750" "60000" "150" "1.25") /\
  import_map (tag_html o "x1" "wide" "app.views.root") =
    Some [("react", "/my-app/static/preact.js"); ("react-dom", "/my-app/static/preact-dom.js"); ("react-dom/client", "/my-app/static/preact-dom.js");
          ("react/jsx-runtime", "/my-app/static/preact-jsx-runtime.js")] /\
  Forall numeral ["750"; "60000"; "150"; "1.25"] /\ literal_text "x1".
Proof.
  split; [split; [split; [apply slashed_spec|split]|]; vm_compute; reflexivity|]. split; [vm_compute; reflexivity|]. split; [vm_compute; reflexivity|].
  split; [repeat constructor; discriminate|]. unfold literal_text. split; [|split; [|split; [|split; [|split]]]]; apply nochar_lit; reflexivity.
Qed.
