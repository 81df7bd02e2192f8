(** * Model of JavaScript module resolution (/repo/src/reactpy/reactjs) and properties C49-C52 *)
From Coq Require Import String Ascii ZArith Bool Arith Lia List.
From Coq Require DecimalString DecimalZ.
From Verif Require Import Dict Strings PyStr.
Import ListNotations.
Local Open Scope string_scope. Local Open Scope list_scope.

(** ** URLs *)

(** [s.rsplit(c, 1)[0]]: the part before the last [c], or all of [s]. *)
Fixpoint rcut (c : ascii) (s : string) : option string :=
  match s with
  | "" => None
  | String a s' => match rcut c s' with Some x => Some (String a x) | None => if Ascii.eqb a c then Some "" else None end
  end.
Definition before_last (c : ascii) (s : string) : string := match rcut c s with Some x => x | None => s end.
(** The loop at reactjs/utils.py:145-147. *)
Fixpoint climb (base rel : string) : string * string :=
  match rel with
  | String a (String b (String c rest)) =>
      if Ascii.eqb a "." && Ascii.eqb b "." && Ascii.eqb c "/" then climb (before_last "/" base) rest else (base, rel)
  | _ => (base, rel)
  end.
(** [urlparse(url)[:2]] printed again: "scheme://host". Only URLs with a host are modelled. *)
Fixpoint until_path (s : string) : string :=
  match s with
  | "" => ""
  | String a s' => if Ascii.eqb a "/" || Ascii.eqb a "?" || Ascii.eqb a "#" then "" else String a (until_path s')
  end.
Definition origin (url : string) : string :=
  match split1 ":" url with
  | Some (scheme, String a (String b rest)) =>
      if Ascii.eqb a "/" && Ascii.eqb b "/" then (scheme ++ "://" ++ until_path rest)%string else ""
  | _ => ""
  end.
(** [urlparse(rel)[2:]] printed again, for [rel] starting with "/": a host ("//host/path") is dropped. Python also drops
    an empty query or fragment ("/a?"); such references are not modelled. *)
Definition path_part (rel : string) : string :=
  match rel with
  | String a (String b rest) =>
      if Ascii.eqb a "/" && Ascii.eqb b "/" then substring (String.length (until_path rest)) (String.length rest) rest else rel
  | _ => rel
  end.
Definition starts_with (a : ascii) (s : string) : bool := match s with String b _ => Ascii.eqb b a | "" => false end.
(** [normalize_url_path], reactjs/utils.py:132-149. *)
Definition normalize_url_path (base rel : string) : string :=
  if negb (starts_with "." rel)
  then if starts_with "/" rel then (origin base ++ path_part rel)%string else rel
  else let base := before_last "/" base in
       match rel with
       | String _ (String b rest) =>
           if Ascii.eqb b "/" then (base ++ String b rest)%string
           else let (base', rel') := climb base rel in (base' ++ "/" ++ rel')%string
       | _ => (base ++ "/" ++ rel)%string
       end.

(** ** Resolution of exported names *)

(** A module: a file, by the segments of its path, or a URL. *)
Inductive node := File (p : list string) | Url (u : string).
(** [requests.get]: the text, a [ConnectionError], or another exception (a malformed URL, a read timeout). *)
Inductive page := Text (t : string) | Unreachable | Fails.
Inductive out := Names (l : list string) | Raised | NoFuel.

(** [urlparse(ref).scheme] is not empty. *)
Definition is_alpha (a : ascii) : bool := is_upper a || is_lower a.
Definition scheme_char (a : ascii) : bool :=
  let n := nat_of_ascii a in is_alpha a || (Nat.leb 48 n && Nat.leb n 57) || Ascii.eqb a "+" || Ascii.eqb a "-" || Ascii.eqb a ".".
Fixpoint all_chars (f : ascii -> bool) (s : string) : bool := match s with "" => true | String a s' => f a && all_chars f s' end.
Definition has_scheme (ref : string) : bool :=
  match split1 ":" ref with
  | Some (String a s, _) => is_alpha a && all_chars scheme_char s
  | _ => false
  end.
(** [file.parent.joinpath( *ref.split("/"))], reactjs/utils.py:38: [pathlib] drops empty and "." segments. *)
Definition sibling (p : list string) (ref : string) : list string :=
  removelast p ++ filter (fun s => negb (String.eqb s "") && negb (String.eqb s ".")) (split "/" ref).
(** The modules visited by the loop at reactjs/utils.py:32-41. *)
Definition file_targets (p : list string) (refs : list string) : list node :=
  map (fun ref => if has_scheme ref then Url ref else File (sibling p ref)) refs.
(** The modules visited by the loop at reactjs/utils.py:64-66, which assigns to [url] in every round. *)
Fixpoint url_targets (url : string) (refs : list string) : list node :=
  match refs with
  | [] => []
  | ref :: refs' => let url := normalize_url_path url ref in Url url :: url_targets url refs'
  end.
Definition gather (l : list out) : out :=
  fold_left (fun acc o => match acc with
                          | Names a => match o with Names b => Names (a ++ b) | _ => o end
                          | _ => acc
                          end) l (Names []).

(** *** Specification: what a reference stands for *)
Definition among (l : string) (a : ascii) : bool := existsb (Ascii.eqb a) (list_ascii_of_string l).
Definition letters : string := "abcdefghijklmnopqrstuvwxyzABCDEFGHIJKLMNOPQRSTUVWXYZ".
Definition digits : string := "0123456789".
(** RFC 3986, 3.1. *)
Definition scheme (s : string) : Prop :=
  exists a r, s = String a r /\ among letters a = true /\ all_chars (among (letters ++ digits ++ "+-.")) r = true.
Definition absolute (ref : string) : Prop := exists s r, ref = (s ++ ":" ++ r)%string /\ scheme s.
(** The directories and the file named by a path. *)
Inductive kept : list string -> list string -> Prop :=
| kept_nil : kept [] []
| kept_empty l r : kept l r -> kept ("" :: l) r
| kept_dot l r : kept l r -> kept ("." :: l) r
| kept_name s l r : s <> "" -> s <> "." -> kept l r -> kept (s :: l) (s :: r).
Inductive target : node -> string -> node -> Prop :=
| target_page u ref : target (Url u) ref (Url (normalize_url_path u ref))
| target_url p ref : absolute ref -> target (File p) ref (Url ref)
| target_file dir name ref segs l : ~ absolute ref -> ref = join "/" segs -> segs <> [] -> Forall (nochar "/") segs -> kept segs l ->
    target (File (dir ++ [name])) ref (File (dir ++ l))
| target_root ref segs l : ~ absolute ref -> ref = join "/" segs -> segs <> [] -> Forall (nochar "/") segs -> kept segs l ->
    target (File []) ref (File l).

Section Resolve.
(** The files, the web, and [resolve_names_from_source] (modelled in JsNames.v) without [exclude_default]: names and
    references, in any order. *)
Variable files : list string -> option string.
Variable web : string -> page.
Variable scan : string -> list string * list string.

(** [resolve_names_from_file] and [resolve_names_from_url], reactjs/utils.py:16-68. [regex] is [is_regex_import]; the
    fuel bounds the recursion, as a negative depth is never counted down to 0. Logging is not modelled. *)
Fixpoint resolve (fuel : nat) (depth : Z) (regex : bool) (n : node) : out :=
  match fuel with
  | 0 => NoFuel
  | S fuel' =>
      if Z.eqb depth 0 then Names []
      else
        let own ns := if regex then filter (fun x => negb (String.eqb x "default")) ns else ns in
        let rest := map (resolve fuel' (depth - 1) true) in
        match n with
        | File p => match files p with
                    | None => Names []
                    | Some t => gather (Names (own (fst (scan t))) :: rest (file_targets p (snd (scan t))))
                    end
        | Url u => match web u with
                   | Unreachable => Names []
                   | Fails => Raised
                   | Text t => gather (Names (own (fst (scan t))) :: rest (url_targets u (snd (scan t))))
                   end
        end
  end.

(** *** Specification: the graph of modules *)
Definition text (n : node) : option string :=
  match n with File p => files p | Url u => match web u with Text t => Some t | _ => None end end.
(** Every reference is relative to the module it stands in. *)
Definition refers (n m : node) : Prop :=
  exists t ref, text n = Some t /\ In ref (snd (scan t)) /\ target n ref m.
Inductive reach (n : node) : nat -> node -> Prop :=
| reach_0 : reach n 0 n
| reach_S m k o : refers n m -> reach m k o -> reach n (S k) o.
Definition exports (n : node) (x : string) : Prop := exists t, text n = Some t /\ In x (fst (scan t)).
(** References whose resolution does not depend on the order in which the loop visits them: a single one; only full
    URLs; or only files next to the module ("./name"). *)
Definition full_url (ref : string) : Prop := starts_with "." ref = false /\ starts_with "/" ref = false.
Definition beside (ref : string) : Prop := exists f, ref = ("./" ++ f)%string /\ nochar "/" f.
Definition plain (refs : list string) : Prop := length refs <= 1 \/ Forall full_url refs \/ Forall beside refs.
Definition in_page (n : node) : bool := match n with Url _ => true | File _ => false end.
End Resolve.

Lemma rcut_app c d f : nochar c f -> rcut c (d ++ String c f) = Some d.
Proof.
  intros N. assert (NO : forall f, nochar c f -> rcut c f = None).
  { clear. induction f as [|a f IH]; intros N; [reflexivity|]. simpl in N. destruct N as [N1 N2]. simpl. rewrite IH by auto. destruct (eqb_spec' a c); congruence. }
  induction d as [|a d IH]; simpl; [|rewrite IH; reflexivity]. rewrite NO by auto. destruct (eqb_spec' c c); congruence.
Qed.
Lemma before_last_app c d f : nochar c f -> before_last c (d ++ String c f) = d.
Proof. intros N. unfold before_last. rewrite rcut_app; auto. Qed.
Lemma beside_norm u ref f : ref = ("./" ++ f)%string -> normalize_url_path u ref = (before_last "/" u ++ "/" ++ f)%string.
Proof. intros ->. unfold normalize_url_path. simpl. reflexivity. Qed.
Lemma plain_targets refs u : plain refs -> url_targets u refs = map (fun ref => Url (normalize_url_path u ref)) refs.
Proof.
  intros [L|[F|F]].
  - destruct refs as [|r [|r' refs]]; simpl in *; auto; lia.
  - revert u. induction F as [|r refs [F1 F2] F IH]; intros u; [reflexivity|]. cbn [url_targets map]. f_equal. rewrite IH. apply map_ext_in. intros r' I.
    rewrite Forall_forall in F. destruct (F _ I) as [G1 G2]. unfold normalize_url_path. rewrite G1, G2. reflexivity.
  - revert u. induction F as [|r refs (f & E & N) F IH]; intros u; [reflexivity|]. cbn [url_targets map]. f_equal. rewrite IH. apply map_ext_in. intros r' I.
    rewrite Forall_forall in F. destruct (F _ I) as (f' & E' & N'). rewrite (beside_norm u r f E), (beside_norm _ r' f' E'), (beside_norm u r' f' E').
    change ("/" ++ f)%string with (String "/" f). rewrite before_last_app; auto.
Qed.

(** ** C49 *)

(** The reference "../" repeated, then a name. *)
Fixpoint ups (k : nat) : string := match k with 0 => "" | S k' => ("../" ++ ups k')%string end.
Definition no_up (r : string) : Prop := forall r', r <> ("../" ++ r')%string.
Lemma climb_stop base r : no_up r -> climb base r = (base, r).
Proof.
  intros N. destruct r as [|a [|b [|c r]]]; auto. cbn [climb]. destruct (eqb_spec' a "."), (eqb_spec' b "."), (eqb_spec' c "/"); simpl; auto. subst. exfalso. apply (N r). reflexivity.
Qed.
Lemma join_snoc sep d f : d <> [] -> join sep (d ++ [f]) = (join sep d ++ sep ++ f)%string.
Proof.
  induction d as [|x [|y d] IH]; intros N; [congruence|reflexivity|]. cbn [app]. rewrite join_cons. change (y :: d ++ [f]) with ((y :: d) ++ [f]). rewrite IH by discriminate.
  rewrite join_cons, !app_assoc_s. reflexivity.
Qed.
Lemma climb_ups d : d <> [] -> forall e r, Forall (nochar "/") e -> no_up r -> climb (join "/" (d ++ e)) (ups (length e) ++ r) = (join "/" d, r).
Proof.
  intros ND e. rewrite <- (rev_involutive e). generalize (rev e). clear e. induction l as [|x l IH]; intros r F N.
  - simpl. rewrite app_nil_r. apply climb_stop; auto.
  - cbn [rev] in *. rewrite app_length, Nat.add_comm. cbn [length Nat.add ups]. apply Forall_app in F. destruct F as [F1 F2]. inversion F2; subst. rewrite app_assoc, join_snoc.
    + change (climb (join "/" (d ++ rev l) ++ "/" ++ x) (("../" ++ ups (length (rev l))) ++ r)) with (climb (before_last "/" (join "/" (d ++ rev l) ++ String "/" x)) (ups (length (rev l)) ++ r)).
      rewrite before_last_app by auto. apply IH; auto.
    + destruct d; [congruence|discriminate].
Qed.
(** "./r" is [r] in the directory of the module. *)
Theorem C49_same_directory d f r : d <> [] -> nochar "/" f -> normalize_url_path (join "/" (d ++ [f])) ("./" ++ r) = (join "/" d ++ "/" ++ r)%string.
Proof. intros ND N. rewrite join_snoc by auto. rewrite (beside_norm _ _ r eq_refl). change ("/" ++ f)%string with (String "/" f). rewrite before_last_app by auto. reflexivity. Qed.
(** Each "../" drops one directory. *)
Theorem C49_parents d e f r : d <> [] -> e <> [] -> Forall (nochar "/") e -> nochar "/" f -> no_up r ->
  normalize_url_path (join "/" (d ++ e ++ [f])) (ups (length e) ++ r) = (join "/" d ++ "/" ++ r)%string.
Proof.
  intros ND NE F N U. rewrite app_assoc, join_snoc by (destruct d; [congruence|discriminate]). unfold normalize_url_path.
  destruct e as [|x e]; [congruence|]. assert (S : starts_with "." (ups (length (x :: e)) ++ r) = true) by reflexivity. rewrite S. cbn [negb].
  change ("/" ++ f)%string with (String "/" f). rewrite before_last_app by auto. assert (C := climb_ups d ND (x :: e) r F U).
  change (ups (length (x :: e)) ++ r)%string with (String "." (String "." (String "/" (ups (length e) ++ r)))) in *. cbv beta iota zeta. change (Ascii.eqb "." "/") with false. cbv beta iota.
  rewrite C. reflexivity.
Qed.
(** "/r" replaces the whole path. *)
Theorem C49_absolute scheme host rest r : nochar ":" scheme -> nochar "/" host -> nochar "?" host -> nochar "#" host -> starts "/" rest -> starts_with "/" r = false ->
  normalize_url_path (scheme ++ "://" ++ host ++ rest) ("/" ++ r) = (scheme ++ "://" ++ host ++ "/" ++ r)%string.
Proof.
  intros N1 N2 N3 N4 S R. unfold normalize_url_path. cbn [append starts_with]. change (Ascii.eqb "/" ".") with false. change (Ascii.eqb "/" "/") with true. cbn [negb].
  assert (P : path_part (String "/" r) = String "/" r) by (destruct r as [|b r]; [reflexivity|]; cbn in R |- *; rewrite R; reflexivity). rewrite P.
  unfold origin. change (scheme ++ String ":" (String "/" (String "/" (host ++ rest))))%string with (scheme ++ String ":" ("//" ++ host ++ rest))%string.
  assert (SP : split1 ":" (scheme ++ String ":" ("//" ++ host ++ rest)) = Some (scheme, ("//" ++ host ++ rest)%string)) by (apply split1_Some; auto). rewrite SP.
  cbn [append]. change (Ascii.eqb "/" "/") with true. cbn [andb].
  assert (U : until_path (host ++ rest) = host).
  { clear - N2 N3 N4 S. induction host as [|a h IH]; simpl in *.
    - destruct S as [->|(r' & ->)]; reflexivity.
    - destruct (eqb_spec' a "/"), (eqb_spec' a "?"), (eqb_spec' a "#"); try tauto. simpl. rewrite IH by tauto. reflexivity. }
  rewrite U, !app_assoc_s. reflexivity.
Qed.
(** Any other reference is taken as it is. *)
Theorem C49_other base r : full_url r -> normalize_url_path base r = r.
Proof. intros [A B]. unfold normalize_url_path. rewrite A, B. reflexivity. Qed.
Example C49_example : normalize_url_path "https://h/a/b/m.js" "../x.js" = "https://h/a/x.js" /\ normalize_url_path "https://h/a/b/m.js" "./x/y.js" = "https://h/a/b/x/y.js" /\
  normalize_url_path "https://h/a/b/m.js" "/x.js" = "https://h/x.js" /\ normalize_url_path "https://h/a/b/m.js" "https://i/x.js" = "https://i/x.js".
Proof. repeat split. Qed.
(** Within one module with one reference, or only with references of one simple kind, the loop visits the right URLs. *)
Theorem C49_loop_partial u refs : plain refs -> url_targets u refs = map (fun ref => Url (normalize_url_path u ref)) refs.
Proof. apply plain_targets. Qed.
(** Finding: the second reference is resolved against the first. *)
Theorem C49_loop_refuted : url_targets "https://h/a/m.js" ["./sub/x.js"; "./y.js"] = [Url "https://h/a/sub/x.js"; Url "https://h/a/sub/y.js"] /\
  normalize_url_path "https://h/a/m.js" "./y.js" = "https://h/a/y.js".
Proof. split; reflexivity. Qed.
(** Finding: a slash in the query of the base URL is taken for a directory. This is the URL that [component_from_npm]
    builds (/repo/src/reactpy/reactjs/__init__.py:185-192). *)
Theorem C49_query_refuted :
  normalize_url_path "https://esm.sh/v135/pkg@latest?external=react,react-dom,react/jsx-runtime&bundle&target=es2020" "./x.js" =
  "https://esm.sh/v135/pkg@latest?external=react,react-dom,react/x.js".
Proof. reflexivity. Qed.
(** Finding: the host of a reference without a scheme is lost. *)
Theorem C49_host_refuted : normalize_url_path "https://h/a/m.js" "//other/x.js" = "https://h/x.js".
Proof. reflexivity. Qed.

(** ** C50 *)
Lemma gather_spec l : (forall o, In o l -> exists ns, o = Names ns) -> exists ns, gather l = Names ns /\ forall x, In x ns <-> exists ms, In (Names ms) l /\ In x ms.
Proof.
  unfold gather. intros F. assert (G : forall acc, exists ns, fold_left (fun acc o => match acc with Names a => match o with Names b => Names (a ++ b) | _ => o end | _ => acc end) l (Names acc) = Names ns /\
    forall x, In x ns <-> In x acc \/ exists ms, In (Names ms) l /\ In x ms).
  { induction l as [|o l IH]; intros acc; cbn [fold_left].
    - exists acc. split; auto. intros x. split; [auto|]. intros [H|(ms & [] & _)]. auto.
    - destruct (F o (or_introl eq_refl)) as (b & ->). destruct (IH (fun o I => F o (or_intror I)) (acc ++ b)) as (ns & E & I). exists ns. split; auto. intros x. rewrite I, in_app_iff. split.
      + intros [[A|B]|(ms & M & X)]; [auto| |]; right; [exists b|exists ms]; simpl; auto.
      + intros [A|(ms & [M|M] & X)]; [auto| |]; [injection M as ->; auto|right; exists ms; auto]. }
  destruct (G []) as (ns & E & I). exists ns. split; auto. intros x. rewrite I. simpl. tauto.
Qed.
Lemma alpha_letters a : is_alpha a = among letters a.
Proof. destruct a as [[] [] [] [] [] [] [] []]; vm_compute; reflexivity. Qed.
Lemma scheme_chars a : scheme_char a = among (letters ++ digits ++ "+-.") a.
Proof. destruct a as [[] [] [] [] [] [] [] []]; vm_compute; reflexivity. Qed.
Lemma all_chars_ext f g s : (forall a, f a = g a) -> all_chars f s = all_chars g s.
Proof. intros E. induction s as [|a s IH]; simpl; auto. rewrite E, IH. reflexivity. Qed.
Lemma scheme_nocolon s : scheme s -> nochar ":" s.
Proof.
  intros (a & r & -> & A & R). split.
  - intros ->. discriminate.
  - revert R. induction r as [|b r IH]; simpl; auto. rewrite andb_true_iff. intros [B R]. split; auto. intros ->. vm_compute in B. discriminate.
Qed.
Lemma has_scheme_spec ref : has_scheme ref = true <-> absolute ref.
Proof.
  unfold has_scheme. destruct (split1 ":" ref) as [[x y]|] eqn:E.
  - apply split1_Some in E. destruct E as [-> NX]. destruct x as [|a x].
    + split; [discriminate|]. intros (s & r & E & S). assert (NS := scheme_nocolon s S). destruct S as (b & s' & -> & _). cbn in E. injection E as <- _. destruct NS as [NS _]. exfalso. apply NS. reflexivity.
    + rewrite andb_true_iff, alpha_letters, (all_chars_ext _ _ x scheme_chars). split.
      * intros [A B]. exists (String a x), y. split; auto. exists a, x. auto.
      * intros (s & r & E & S). assert (NS := scheme_nocolon s S). assert (String a x = s).
        { clear S. revert E NS NX. generalize (String a x). clear. intros x. revert s. induction x as [|a x IH]; intros [|b s] E NS NX; auto.
          - cbn in E. injection E as <- _. destruct NS as [NS _]. exfalso. apply NS. reflexivity.
          - cbn in E. injection E as -> _. destruct NX as [NX _]. exfalso. apply NX. reflexivity.
          - cbn in E. injection E as -> E. f_equal. destruct NS, NX. apply IH; auto. }
        subst s. destruct S as (b & s' & E' & A & B). injection E' as <- <-. auto.
  - split; [discriminate|]. intros (s & r & -> & S). apply split1_None in E. apply nochar_app in E. destruct E as [_ [E _]]. congruence.
Qed.
Lemma kept_filter l r : kept l r <-> r = filter (fun s => negb (String.eqb s "") && negb (String.eqb s ".")) l.
Proof.
  split.
  - induction 1; simpl; auto. destruct (String.eqb_spec s ""); [congruence|]. destruct (String.eqb_spec s "."); [congruence|]. simpl. congruence.
  - intros ->. induction l as [|s l IH]; [constructor|]. simpl. destruct (String.eqb_spec s "") as [->|]; [constructor; auto|]. destruct (String.eqb_spec s ".") as [->|]; [constructor; auto|]. simpl. constructor; auto.
Qed.
Lemma target_spec n ref m : target n ref m <-> m = match n with File p => if has_scheme ref then Url ref else File (sibling p ref) | Url u => Url (normalize_url_path u ref) end.
Proof.
  assert (FI : forall segs, segs <> [] -> Forall (nochar "/") segs -> split "/" (join "/" segs) = segs) by (intros; apply split_join; auto).
  assert (HF : forall r, ~ absolute r -> has_scheme r = false) by (intros r N; destruct (has_scheme r) eqn:E; auto; apply has_scheme_spec in E; contradiction).
  split.
  - intros [u r|p r A|dir name r segs l A -> NE NS K|r segs l A -> NE NS K]; auto.
    + apply has_scheme_spec in A. rewrite A. reflexivity.
    + rewrite HF by auto. unfold sibling. rewrite FI by auto. apply kept_filter in K. subst l. rewrite removelast_last. reflexivity.
    + rewrite HF by auto. unfold sibling. rewrite FI by auto. apply kept_filter in K. subst l. reflexivity.
  - intros ->. destruct n as [p|u]; [|constructor]. destruct (has_scheme ref) eqn:E; [constructor; apply has_scheme_spec; auto|].
    assert (NA : ~ absolute ref) by (intros A; apply has_scheme_spec in A; congruence). unfold sibling. induction p as [|x p _] using rev_ind.
    + apply (target_root ref (split "/" ref)); [exact NA|symmetry; apply join_split|apply split_nonnil|apply split_nochar|apply kept_filter; reflexivity].
    + rewrite removelast_last. apply (target_file p x ref (split "/" ref)); [exact NA|symmetry; apply join_split|apply split_nonnil|apply split_nochar|apply kept_filter; reflexivity].
Qed.
Lemma reach_trans {files web scan} n k m : reach files web scan n k m -> forall o, refers files web scan o n -> reach files web scan o (S k) m.
Proof. intros R o H. econstructor; eauto. Qed.

(** Resolution gives the names exported by the modules fewer than [depth] references away, and "default" only from the
    module itself. No module in reach fails to load with an unexpected exception, and the references of every page in
    reach are of a kind for which C49_loop_partial holds. *)
Theorem C50_exact files web scan depth fuel n : depth < fuel ->
  (forall k m t, k < depth -> reach files web scan n k m -> match m with Url u => web u <> Fails | File _ => True end /\ (in_page m = true -> text files web m = Some t -> plain (snd (scan t)))) ->
  exists l, resolve files web scan fuel (Z.of_nat depth) false n = Names l /\
    forall x, In x l <-> exists k m, k < depth /\ reach files web scan n k m /\ exports files web scan m x /\ (x = "default" -> k = 0).
Proof.
  assert (G : forall depth fuel n regex, depth < fuel ->
    (forall k m t, k < depth -> reach files web scan n k m -> match m with Url u => web u <> Fails | File _ => True end /\ (in_page m = true -> text files web m = Some t -> plain (snd (scan t)))) ->
    exists l, resolve files web scan fuel (Z.of_nat depth) regex n = Names l /\
      forall x, In x l <-> exists k m, k < depth /\ reach files web scan n k m /\ exports files web scan m x /\ (x = "default" -> k = 0 /\ regex = false)).
  2:{ intros L P. destruct (G depth fuel n false L P) as (l & E & I). exists l. split; auto. intros x. rewrite I. split; intros (k & m & A & B & C & D); exists k, m; repeat split; auto; apply D; auto. }
  clear. intros depth. induction depth as [|d IH]; intros fuel n regex L P; (destruct fuel as [|f]; [lia|]).
  - cbn [resolve]. change (Z.of_nat 0 =? 0)%Z with true. cbv iota. exists []. split; auto. intros x. split; [intros []|]. intros (k & m & K & _). lia.
  - assert (NE : (Z.of_nat (S d) =? 0)%Z = false) by (apply Z.eqb_neq; lia). assert (DE : (Z.of_nat (S d) - 1)%Z = Z.of_nat d) by lia. cbn [resolve]. rewrite NE, DE. cbv iota.
    assert (STEP : forall t ts, text files web n = Some t -> (forall m, In m ts <-> refers files web scan n m) ->
      exists l, gather (Names (if regex then filter (fun x => negb (String.eqb x "default")) (fst (scan t)) else fst (scan t)) :: map (resolve files web scan f (Z.of_nat d) true) ts) = Names l /\
      forall x, In x l <-> exists k m, k < S d /\ reach files web scan n k m /\ exports files web scan m x /\ (x = "default" -> k = 0 /\ regex = false)).
    { intros t ts T TS.
      assert (CH : forall m, In m ts -> exists l, resolve files web scan f (Z.of_nat d) true m = Names l /\
        forall x, In x l <-> exists k m', k < d /\ reach files web scan m k m' /\ exports files web scan m' x /\ (x = "default" -> k = 0 /\ true = false)).
      { intros m M. apply IH; [lia|]. intros k m' t' K R. apply (P (S k) m' t'); [lia|]. econstructor; [apply TS; exact M|exact R]. }
      destruct (gather_spec (Names (if regex then filter (fun x => negb (String.eqb x "default")) (fst (scan t)) else fst (scan t)) :: map (resolve files web scan f (Z.of_nat d) true) ts)) as (ns & E & I).
      { intros o [<-|O]; [eauto|]. apply in_map_iff in O. destruct O as (m & <- & M). destruct (CH m M) as (l & E & _). eauto. }
      exists ns. split; auto. intros x. rewrite I. split.
      - intros (ms & [M|M] & X).
        + injection M as <-. exists 0, n. split; [lia|]. split; [constructor|]. assert (IN : In x (fst (scan t)) /\ (x = "default" -> regex = false)).
          { destruct regex; [|auto]. apply filter_In in X. destruct X as [X NX]. split; auto. intros ->. discriminate. }
          split; [exists t; tauto|]. intros D. split; auto. apply IN; auto.
        + apply in_map_iff in M. destruct M as (m & RE & M). destruct (CH m M) as (l & E' & I'). rewrite RE in E'. injection E' as <-. apply I' in X. destruct X as (k & m' & K & R & EX & DF).
          exists (S k), m'. split; [lia|]. split; [econstructor; [apply TS; exact M|exact R]|]. split; auto. intros D. destruct (DF D); discriminate.
      - intros (k & m & K & R & EX & DF). inversion R; subst.
        + eexists. split; [left; reflexivity|]. destruct EX as (t' & T' & X). rewrite T in T'. injection T' as <-. destruct regex; auto. apply filter_In. split; auto.
          destruct (String.eqb_spec x "default"); auto. destruct (DF e); discriminate.
        + apply TS in H. destruct (CH _ H) as (l & E' & I'). exists l. split; [right; apply in_map_iff; eauto|]. apply I'. exists k0, m. split; [lia|]. split; auto. split; auto.
          intros D. destruct (DF D); discriminate. }
    assert (LEAF : text files web n = None -> forall x, In x [] <-> exists k m, k < S d /\ reach files web scan n k m /\ exports files web scan m x /\ (x = "default" -> k = 0 /\ regex = false)).
    { intros T x. split; [intros []|]. intros (k & m & K & R & (t & T' & X) & _). inversion R; subst; [congruence|]. destruct H as (t' & r & T'' & _). congruence. }
    destruct n as [p|u].
    + destruct (files p) as [t|] eqn:FP; [|exists []; split; auto]. apply STEP; [exact FP|]. intros m. unfold file_targets. rewrite in_map_iff. unfold refers. cbn [text]. split.
      * intros (ref & <- & IR). exists t, ref. split; auto. split; auto. apply target_spec. reflexivity.
      * intros (t' & ref & T & IR & TG). apply target_spec in TG. subst m. rewrite FP in T. injection T as <-. exists ref. auto.
    + assert (PU := fun t => P 0 (Url u) t (Nat.lt_0_succ d) (reach_0 _ _ _ _)). destruct (web u) as [t| |] eqn:WU.
      * apply STEP; [cbn [text]; rewrite WU; reflexivity|]. intros m. rewrite plain_targets by (apply (PU t); cbn [text]; try rewrite WU; reflexivity). rewrite in_map_iff. unfold refers. cbn [text]. rewrite WU. split.
        -- intros (ref & <- & IR). exists t, ref. split; auto. split; auto. constructor.
        -- intros (t' & ref & T & IR & TG). apply target_spec in TG. subst m. injection T as <-. exists ref. auto.
      * exists []. split; auto. apply LEAF. cbn [text]. rewrite WU. reflexivity.
      * destruct (PU "") as [X _]. congruence.
Qed.
(** A cycle of two files, and a page. *)
Definition C50_scan (t : string) : list string * list string :=
  if String.eqb t "A" then (["default"; "a"], ["./b.js"; "https://h/c.js"]) else if String.eqb t "B" then (["default"; "b"], ["../m/a.js"]) else (["c"], []).
Definition C50_files (p : list string) : option string :=
  if list_eq_dec string_dec p ["m"; "a.js"] then Some "A" else if list_eq_dec string_dec p ["m"; "b.js"] then Some "B" else if list_eq_dec string_dec p ["m"; ".."; "m"; "a.js"] then Some "A" else None.
Definition C50_web (u : string) : page := if String.eqb u "https://h/c.js" then Text "C" else Unreachable.
Example C50_example : resolve C50_files C50_web C50_scan 6 3 false (File ["m"; "a.js"]) = Names ["default"; "a"; "b"; "a"; "c"] /\
  resolve C50_files C50_web C50_scan 6 1 false (File ["m"; "a.js"]) = Names ["default"; "a"].
Proof. split; reflexivity. Qed.
(** Finding: with a negative depth a cycle is followed until Python's recursion limit. *)
Theorem C50_negative_refuted : forall fuel, resolve (fun _ => Some "") (fun _ => Fails) (fun _ => ([], ["./a.js"])) fuel (-1) false (File ["a.js"]) = NoFuel.
Proof.
  assert (G : forall fuel d r p, (d < 0)%Z -> resolve (fun _ => Some "") (fun _ => Fails) (fun _ => ([], ["./a.js"])) fuel d r (File p) = NoFuel).
  { induction fuel as [|f IH]; intros d r p D; [reflexivity|]. cbn [resolve]. destruct (Z.eqb_spec d 0); [lia|]. cbn [fst snd file_targets map].
    change (has_scheme "./a.js") with false. cbv iota. rewrite IH by lia. destruct r; reflexivity. }
  intros. apply G. lia.
Qed.
(** Finding: a module name that is not a path ("export * from 'react'") makes resolution of a URL fail with an exception
    instead of a warning ([requests.get("react")] raises [MissingSchema]); in a file it is skipped. *)
Theorem C50_bare_refuted : let web u := if has_scheme u then if String.eqb u "https://h/m.js" then Text "M" else Unreachable else Fails in
  let scan (t : string) : list string * list string := (["x"], if String.eqb t "M" then ["react"] else []) in
  resolve (fun p => if list_eq_dec string_dec p ["m.js"] then Some "M" else None) web scan 9 5 false (Url "https://h/m.js") = Raised /\
  resolve (fun p => if list_eq_dec string_dec p ["m.js"] then Some "M" else None) web scan 9 5 false (File ["m.js"]) = Names ["x"].
Proof. split; reflexivity. Qed.

(** ** C51 *)

(** A fallback, possibly a false value. *)
Inductive fallback := NoFallback | Falsy (n : nat) | Truthy (n : nat).
(** [a or b]. *)
Definition py_or (a b : fallback) : fallback := match a with Truthy _ => a | _ => b end.
(** [JavaScriptModule], types.py; [j_type]: URL or file name. *)
Record jsmodule := JsModule { j_source : string; j_url : bool; j_fallback : fallback; j_names : option (list string); j_unmount : bool }.
Record ctor := Ctor { c_name : string; c_children : bool; c_source : string; c_url : bool; c_fallback : fallback; c_unmount : bool }.
(** [make_module], /repo/src/reactpy/reactjs/module.py:163-178. *)
Definition make_module (m : jsmodule) (name : string) (f : fallback) (children : bool) : ctor :=
  Ctor name children (j_source m) (j_url m) (py_or f (j_fallback m)) (j_unmount m).
(** [import_names]: one name or a list. *)
Inductive request := One (n : string) | Many (l : list string).
Inductive imported := Single (c : ctor) | Several (l : list ctor) | ValueError.
Definition top (name : string) : string := match split "." name with p :: _ => p | [] => name end.
(** [module_to_vdom], /repo/src/reactpy/reactjs/module.py:121-160. *)
Definition module_to_vdom (m : jsmodule) (r : request) (f : fallback) (children : bool) : imported :=
  match r with
  | One n => if match j_names m with Some ns => negb (mem (top n) ns) | None => false end then ValueError
             else Single (make_module m n f children)
  | Many l => if match j_names m with Some ns => existsb (fun t => negb (mem t ns)) (map top l) | None => false end then ValueError
              else Several (map (fun n => make_module m n f children) l)
  end.
Definition wanted (r : request) : list string := match r with One n => [n] | Many l => l end.
Definition made (r : imported) : list ctor := match r with Single c => [c] | Several l => l | ValueError => [] end.
(** The name before the first dot. *)
Definition root_name (n t : string) : Prop := nochar "." t /\ (n = t \/ exists rest, n = (t ++ "." ++ rest)%string).
Lemma top_root n : root_name n (top n).
Proof.
  unfold top, root_name. destruct (split_cons "." n) as (p & ps & E). rewrite E. assert (F := split_nochar "." n). rewrite E in F. inversion F; subst. split; auto.
  assert (J := join_split "." n). rewrite E in J. destruct ps as [|q ps]; [left; auto|]. right. rewrite join_cons in J. exists (join "." (q :: ps)). auto.
Qed.
Lemma root_unique n t t' : root_name n t -> root_name n t' -> t = t'.
Proof.
  intros [N H] [N' H']. assert (A : exists r, n = (t ++ r)%string /\ starts "." r) by (destruct H as [->|[r ->]]; [exists ""; rewrite app_nil_s; split; [auto|left; auto]|exists ("." ++ r)%string; split; [auto|right; exists r; auto]]).
  assert (A' : exists r, n = (t' ++ r)%string /\ starts "." r) by (destruct H' as [->|[r ->]]; [exists ""; rewrite app_nil_s; split; [auto|left; auto]|exists ("." ++ r)%string; split; [auto|right; exists r; auto]]).
  destruct A as (r & E & S), A' as (r' & E' & S'). rewrite E in E'. destruct (split_first "." t t' r r' E' N N' S S'). auto.
Qed.
(** The import fails iff the names of the module are known and the part of some requested name before the first dot is
    not among them. *)
Theorem C51_rejects m r f ch : module_to_vdom m r f ch = ValueError <-> exists ns n t, j_names m = Some ns /\ In n (wanted r) /\ root_name n t /\ ~ In t ns.
Proof.
  split.
  - destruct r as [n|l]; cbn [module_to_vdom wanted]; destruct (j_names m) as [ns|]; try discriminate.
    + destruct (mem (top n) ns) eqn:M; [discriminate|]. intros _. apply mem_not_In in M. exists ns, n, (top n). simpl. repeat split; auto; apply top_root.
    + destruct (existsb _ _) eqn:M; [|discriminate]. intros _. apply existsb_exists in M. destruct M as (t & I & NM). apply in_map_iff in I. destruct I as (n & <- & I).
      apply negb_true_iff, mem_not_In in NM. exists ns, n, (top n). repeat split; auto; apply top_root.
  - intros (ns & n & t & E & I & R & NI). assert (t = top n) as -> by (eapply root_unique; eauto; apply top_root). destruct r as [n'|l]; cbn [module_to_vdom wanted] in *; rewrite E.
    + destruct I as [->|[]]. apply mem_not_In in NI. rewrite NI. reflexivity.
    + assert (X : existsb (fun t => negb (mem t ns)) (map top l) = true) by (apply existsb_exists; exists (top n); split; [apply in_map; auto|apply negb_true_iff, mem_not_In; auto]). rewrite X. reflexivity.
Qed.
(** Otherwise there is one constructor per name, in order, for this module. *)
Theorem C51_constructors m r f ch : module_to_vdom m r f ch <> ValueError ->
  map c_name (made (module_to_vdom m r f ch)) = wanted r /\
  Forall (fun c => c_source c = j_source m /\ c_url c = j_url m /\ c_unmount c = j_unmount m /\ c_children c = ch /\
                   c_fallback c = match f with Truthy _ => f | _ => j_fallback m end) (made (module_to_vdom m r f ch)).
Proof.
  intros N. assert (E : made (module_to_vdom m r f ch) = map (fun n => make_module m n f ch) (wanted r)).
  { destruct r as [n|l]; cbn [module_to_vdom wanted] in *; [destruct (match j_names m with Some ns => negb (mem (top n) ns) | None => false end)|destruct (match j_names m with Some ns => existsb _ _ | None => false end)]; try congruence; reflexivity. }
  rewrite E. split.
  - rewrite map_map. cbn. apply map_id.
  - apply Forall_forall. intros c I. apply in_map_iff in I. destruct I as (n & <- & _). cbn. destruct f; auto.
Qed.
Example C51_example : let m := JsModule "m.js" false NoFallback (Some ["Button"; "Menu"]) false in
  module_to_vdom m (Many ["Button"; "Menu.Item"]) NoFallback true = Several [Ctor "Button" true "m.js" false NoFallback false; Ctor "Menu.Item" true "m.js" false NoFallback false] /\
  module_to_vdom m (Many ["Button"; "Nope"]) NoFallback true = ValueError.
Proof. split; reflexivity. Qed.

(** ** C52 *)

(** Python's [str] of a boolean and an integer. *)
Definition py_bool (b : bool) : string := if b then "True" else "False".
Definition py_int (z : Z) : string := DecimalString.NilEmpty.string_of_int (Z.to_int z).
(** The key of the caches, /repo/src/reactpy/reactjs/__init__.py:91, 272 and 351. *)
Definition cache_key (name : string) (res : bool) (depth : Z) (unmount : bool) : string :=
  (name ++ py_bool res ++ py_int depth ++ py_bool unmount)%string.
Lemma int_no_e z : nochar "e" (py_int z).
Proof.
  unfold py_int. assert (U : forall d, nochar "e" (DecimalString.NilEmpty.string_of_uint d)) by (induction d; simpl; auto; split; auto; discriminate).
  destruct (Z.to_int z) as [d|d]; cbn [DecimalString.NilEmpty.string_of_int]; [apply U|]. simpl. split; [discriminate|apply U].
Qed.
Lemma py_int_inj a b : py_int a = py_int b -> a = b.
Proof.
  unfold py_int. intros E. apply (f_equal DecimalString.NilEmpty.int_of_string) in E. rewrite !DecimalString.NilEmpty.isi in E.
  injection E as E. apply (f_equal Z.of_int) in E. rewrite !DecimalZ.of_to in E. exact E.
Qed.
Lemma app_inj_len (a b c d : string) : (a ++ b)%string = (c ++ d)%string -> String.length b = String.length d -> a = c /\ b = d.
Proof.
  intros E L. assert (LA : String.length a = String.length c) by (apply (f_equal String.length) in E; rewrite !app_len in E; lia). revert c E LA.
  induction a as [|x a IH]; intros [|y c] E LA; simpl in *; try lia; auto. injection E as -> E. destruct (IH c E) as [-> ->]; auto.
Qed.
Lemma key_split n r d u : exists s, cache_key n r d u = (s ++ (if u then "True" else "alse"))%string /\ s = (n ++ py_bool r ++ py_int d ++ (if u then "" else "F"))%string.
Proof. eexists. split; [|reflexivity]. unfold cache_key. rewrite !app_assoc_s. destruct u; reflexivity. Qed.
(** The key determines the name and the flags. *)
Theorem C52_key_injective n r d u n' r' d' u' : cache_key n r d u = cache_key n' r' d' u' -> n = n' /\ r = r' /\ d = d' /\ u = u'.
Proof.
  intros E. assert (U : u = u').
  { destruct (key_split n r d u) as (s & K & _), (key_split n' r' d' u') as (s' & K' & _). rewrite K, K' in E. destruct (app_inj_len s (if u then "True" else "alse") s' (if u' then "True" else "alse") E) as [_ X].
    - destruct u, u'; reflexivity.
    - destruct u, u'; auto; discriminate. }
  subst u'. unfold cache_key in E. assert (E1 : (n ++ py_bool r ++ py_int d)%string = (n' ++ py_bool r' ++ py_int d')%string).
  { rewrite <- !app_assoc_s in E. destruct (app_inj_len _ _ _ _ E eq_refl) as [X _]. rewrite !app_assoc_s in X. exact X. }
  assert (BE : forall b, exists x, py_bool b = (x ++ String "e" "")%string /\ x = if b then "Tru" else "Fals") by (intros []; [exists "Tru"|exists "Fals"]; split; reflexivity).
  destruct (BE r) as (x & B1 & X1), (BE r') as (x' & B2 & X2). rewrite B1, B2 in E1.
  assert (SH : forall a d, ((a ++ String "e" "") ++ d)%string = (a ++ String "e" d)%string) by (intros; rewrite app_assoc_s; reflexivity). rewrite <- !app_assoc_s, !SH in E1.
  destruct (split_last "e" _ _ _ _ E1 (int_no_e d) (int_no_e d')) as [E2 E3]. apply py_int_inj in E3. subst d'.
  assert (RR : r = r').
  { subst x x'. destruct r, r'; auto; exfalso.
    - change "Tru" with ("T" ++ "ru")%string in E2. change "Fals" with ("Fa" ++ "ls")%string in E2. rewrite <- !app_assoc_s in E2. destruct (app_inj_len _ _ _ _ E2 eq_refl) as [_ X]. discriminate.
    - change "Tru" with ("T" ++ "ru")%string in E2. change "Fals" with ("Fa" ++ "ls")%string in E2. rewrite <- !app_assoc_s in E2. destruct (app_inj_len _ _ _ _ E2 eq_refl) as [_ X]. discriminate. }
  subst r'. rewrite X1, X2 in E2. destruct (app_inj_len _ _ _ _ E2 eq_refl) as [-> _]. auto.
Qed.

(** Calls of [component_from_string], /repo/src/reactpy/reactjs/__init__.py:315-364, with [string_to_module], /repo/src/reactpy/reactjs/module.py:85-118: the cache,
    and the files by module name. The module's file name is determined by its name; that part is not modelled. Nor are
    the resolved names: the component stands for its module's name. *)
Record store := Store { cache : dict string string; modules : dict string string }.
Record call := Call { k_content : string; k_name : string; k_res : bool; k_depth : Z; k_unmount : bool }.
Definition from_string (st : store) (c : call) : store * string :=
  let key := cache_key (k_name c) (k_res c) (k_depth c) (k_unmount c) in
  match dget key (cache st) with
  | Some m => (st, m)
  | None => (Store (dset key (k_name c) (cache st)) (dset (k_name c) (k_content c) (modules st)), k_name c)
  end.
Definition run_calls (l : list call) : store := fold_left (fun st c => fst (from_string st c)) l (Store [] []).
(** If equal names come with equal contents, the browser loads the given content for every component. *)
Theorem C52_content_partial l c : (forall a b, In a (l ++ [c]) -> In b (l ++ [c]) -> k_name a = k_name b -> k_content a = k_content b) ->
  let (st, m) := from_string (run_calls l) c in m = k_name c /\ dget m (modules st) = Some (k_content c).
Proof.
  intros SAME.
  assert (INV : forall l0, incl l0 (l ++ [c]) ->
     (forall key m, dget key (cache (run_calls l0)) = Some m -> exists r d u, key = cache_key m r d u /\ exists a, In a l0 /\ k_name a = m /\ dget m (modules (run_calls l0)) = Some (k_content a))).
  { induction l0 as [|a l0 IH] using rev_ind; intros IC key m G; [discriminate|]. unfold run_calls in *. rewrite fold_left_app in *. cbn [fold_left] in *. fold (run_calls l0) in *.
    assert (IC0 : incl l0 (l ++ [c])) by (intros x X; apply IC, in_or_app; auto). assert (IA : In a (l ++ [c])) by (apply IC, in_or_app; right; left; auto). specialize (IH IC0).
    unfold from_string in *. destruct (dget (cache_key (k_name a) (k_res a) (k_depth a) (k_unmount a)) (cache (run_calls l0))) as [m'|] eqn:H; cbn [fst cache modules] in *.
    - destruct (IH key m G) as (r & d & u & E & b & IB & NB & CB). exists r, d, u. split; auto. exists b. split; [apply in_or_app; auto|auto].
    - destruct (String.eqb_spec key (cache_key (k_name a) (k_res a) (k_depth a) (k_unmount a))) as [->|N].
      + rewrite dget_dset_same in G. injection G as <-. exists (k_res a), (k_depth a), (k_unmount a). split; auto. exists a. split; [apply in_or_app; right; left; auto|]. split; auto. apply dget_dset_same.
      + rewrite dget_dset_other in G by auto. destruct (IH key m G) as (r & d & u & E & b & IB & NB & CB). exists r, d, u. split; auto.
        destruct (String.eqb_spec (k_name a) m) as [<-|NM].
        * exists a. split; [apply in_or_app; right; left; auto|]. split; auto. apply dget_dset_same.
        * exists b. split; [apply in_or_app; auto|]. split; auto. rewrite dget_dset_other by auto. auto. }
  unfold from_string. destruct (dget (cache_key (k_name c) (k_res c) (k_depth c) (k_unmount c)) (cache (run_calls l))) as [m|] eqn:H.
  - destruct (INV l (fun x X => in_or_app _ _ _ (or_introl X)) _ _ H) as (r & d & u & E & b & IB & NB & CB). apply C52_key_injective in E. destruct E as [<- _]. split; auto. rewrite CB. f_equal.
    apply SAME; auto; apply in_or_app; simpl; auto.
  - cbn [modules]. split; auto. apply dget_dset_same.
Qed.
Example C52_example : let l := [Call "export a" "A" false 5 false; Call "export b" "B" false 5 false; Call "export a" "A" true 5 false] in
  dget "A" (modules (run_calls l)) = Some "export a" /\ dget "B" (modules (run_calls l)) = Some "export b".
Proof. split; reflexivity. Qed.
(** Finding: with the same name and flags the content of the second call is ignored. *)
Theorem C52_stale_refuted : let (st, m) := from_string (run_calls [Call "old" "A" false 5 false]) (Call "new" "A" false 5 false) in dget m (modules st) = Some "old".
Proof. reflexivity. Qed.
(** Finding: with other flags the file of the first component is overwritten. *)
Theorem C52_overwrite_refuted : let l := [Call "old" "A" false 5 false; Call "new" "A" true 5 false] in
  snd (from_string (Store [] []) (Call "old" "A" false 5 false)) = "A" /\ dget "A" (modules (run_calls l)) = Some "new".
Proof. split; reflexivity. Qed.

Print Assumptions C49_parents.
Print Assumptions C49_absolute.
Print Assumptions C50_exact.
Print Assumptions C51_rejects.
Print Assumptions C51_constructors.
Print Assumptions C52_key_injective.
Print Assumptions C52_content_partial.
