(** * Model of the scanner for exported names (/repo/src/reactpy/reactjs/utils.py) and property C72 *)
From Coq Require Import String Ascii Bool Arith Lia List.
From Verif Require Import Dict Strings PyStr JsModules.
Import ListNotations.
Local Open Scope string_scope. Local Open Scope list_scope.

Definition newline : ascii := "010"%char.
(** [s.removeprefix(p)] if [s.startswith(p)]. *)
Fixpoint after (p s : string) : option string :=
  match p with
  | "" => Some s
  | String a p' => match s with String b s' => if Ascii.eqb b a then after p' s' else None | "" => None end
  end.
Definition startswith (p s : string) : bool := match after p s with Some _ => true | None => false end.
Definition endswith (c : ascii) (s : string) : bool := match last_char s with Some a => Ascii.eqb a c | None => false end.
(** [s.split(sep, 1)] for a non-empty separator. *)
Fixpoint cut (sep s : string) : option (string * string) :=
  match after sep s with
  | Some r => Some ("", r)
  | None => match s with "" => None | String a s' => match cut sep s' with Some (x, y) => Some (String a x, y) | None => None end end
  end.
Definition before (sep s : string) : string := match cut sep s with Some (x, _) => x | None => s end.
Definition behind (sep s : string) : string := match cut sep s with Some (_, y) => y | None => s end.
(** [s.strip(chars)]. *)
Fixpoint lstrip_set (f : ascii -> bool) (s : string) : string := match s with String a s' => if f a then lstrip_set f s' else s | "" => "" end.
Fixpoint rstrip_set (f : ascii -> bool) (s : string) : string := match s with "" => "" | String a s' => if all_chars f s then "" else String a (rstrip_set f s') end.
Definition strip_set (f : ascii -> bool) (s : string) : string := rstrip_set f (lstrip_set f s).
Definition brace (a : ascii) : bool := Ascii.eqb a "{" || Ascii.eqb a "}".
Definition quote (a : ascii) : bool := Ascii.eqb a "'" || Ascii.eqb a """".

(** ** The regular expressions, reactjs/utils.py:191-199 *)

(** One or more white space characters. *)
Definition spaces1 (s : string) : option string := match s with String a _ => if space a then Some (lstrip s) else None | "" => None end.
Definition ident_start (a : ascii) : bool := is_alpha a || Ascii.eqb a "_" || Ascii.eqb a "$".
Definition ident_char (a : ascii) : bool := let n := nat_of_ascii a in ident_start a || (Nat.leb 48 n && Nat.leb n 57).
Fixpoint take_ident (s : string) : string := match s with String a s' => if ident_char a then String a (take_ident s') else "" | "" => "" end.
(** [export\s+default\s] at the start of [s]. *)
Definition default_at (s : string) : bool :=
  match after "export" s with
  | Some r => match spaces1 r with
              | Some r' => match after "default" r' with Some (String a _) => space a | _ => false end
              | None => false
              end
  | None => false
  end.
Fixpoint any_suffix (f : string -> bool) (s : string) : bool := f s || match s with "" => false | String _ s' => any_suffix f s' end.
(** [export\s+(?:function|class)\s+([a-zA-Z_$][0-9a-zA-Z_$]* )] at the start of [s]: the name. The optional [;?\s*] in front
    of it does not change what [search] and [findall] return. *)
Definition func_at (s : string) : option string :=
  match after "export" s with
  | Some r =>
      match spaces1 r with
      | Some r' =>
          match (match after "function" r' with Some x => Some x | None => after "class" r' end) with
          | Some r2 => match spaces1 r2 with
                       | Some (String a r3) => if ident_start a then Some (String a (take_ident r3)) else None
                       | _ => None
                       end
          | None => None
          end
      | None => None
      end
  | None => None
  end.
(** [findall]. A match contains no further match (unless a function is named "export", a reserved word in JavaScript), so
    it need not be skipped. *)
Fixpoint find_funcs (s : string) : list string :=
  match func_at s with Some n => [n] | None => [] end ++ match s with "" => [] | String _ s' => find_funcs s' end.
(** The text up to a semicolon or the end of the line. *)
Fixpoint to_end (s : string) : string :=
  match s with String a s' => if Ascii.eqb a ";" || Ascii.eqb a newline then "" else String a (to_end s') | "" => "" end.
(** [\s*export(?=\s+|{)( .*?)(?=;|$)] at the start of [s]: the captured text and the length of the match. *)
Definition general_core (s : string) : option (string * nat) :=
  match after "export" (lstrip s) with
  | Some (String a r) => if space a || Ascii.eqb a "{"
                         then let t := to_end (String a r) in Some (t, String.length s - String.length (lstrip s) + 6 + String.length t)
                         else None
  | _ => None
  end.
(** With [(?:^|;|})] in front; [bol]: at the start of a line. *)
Definition general_at (bol : bool) (s : string) : option (string * nat) :=
  match (if bol then general_core s else None) with
  | Some x => Some x
  | None => match s with
            | String a s' => if Ascii.eqb a ";" || Ascii.eqb a "}" then option_map (fun x => (fst x, S (snd x))) (general_core s') else None
            | "" => None
            end
  end.
(** [findall]; [skip]: characters left of the last match. *)
Fixpoint find_general (bol : bool) (skip : nat) (s : string) : list string :=
  match skip with
  | S k => match s with "" => [] | String a s' => find_general (Ascii.eqb a newline) k s' end
  | 0 => match general_at bol s with
         | Some (t, n) => t :: match s with "" => [] | String a s' => find_general (Ascii.eqb a newline) (n - 1) s' end
         | None => match s with "" => [] | String a s' => find_general (Ascii.eqb a newline) 0 s' end
         end
  end.

(** ** The scanner, reactjs/utils.py:71-129 *)

(** One round of the loop at lines 91-121: names and references. *)
Definition classify (captured : string) : list string * list string :=
  let name := strip (rstrip_set (fun a => Ascii.eqb a ";") captured) in
  match after "let " name with
  | Some r => (map (before "=") (split "," r), [])
  | None =>
  if startswith "{" name && endswith "}" name then (map (behind " as ") (split "," (strip_set brace name)), [])
  else match after "const " name with
  | Some r => (map (before ":") (split "," (strip_set brace (before "=" r))), [])
  | None =>
  if startswith "default " name then (["default"], [])
  else match after "* as " name with
  | Some r => ([before " from " r], [])
  | None =>
  match after "* " name with
  | Some r => ([], [strip_set quote (behind "from " r)])
  | None => if startswith "{" name && match cut " from " name with Some _ => true | None => false end
            then (map (behind " as ") (split "," (strip_set brace (before " from " name))), [])
            else ([], [])
  end end end end.
(** [resolve_names_from_source]. Sets are lists here. *)
Definition resolve_names_from_source (content : string) (exclude_default : bool) : list string * list string :=
  let found := map classify (find_general true 0 content) in
  let names := (if any_suffix default_at content then ["default"] else []) ++ find_funcs content ++ flat_map fst found in
  let names := map strip names in
  ((if exclude_default then filter (fun x => negb (String.eqb x "default")) names else names), map strip (flat_map snd found)).

(** ** Specification *)

(** Spaces, identifiers, quoted paths. *)
Definition blank (s : string) : Prop := all_chars (fun a => Ascii.eqb a " ") s = true.
Definition ident (s : string) : Prop :=
  match s with
  | String a s' => among (letters ++ "_$") a = true /\ all_chars (among (letters ++ digits ++ "_$")) s' = true
  | "" => False
  end.
Definition occurs (p s : string) : Prop := exists x y, s = (x ++ p ++ y)%string.
(** No white space at the end. *)
Definition tidy (s : string) : Prop := forall a, last_char s = Some a -> space a = false.
Definition one_line (s : string) : Prop := nochar ";" s /\ nochar newline s.

(** A name in a list of exports, with its new name and the surrounding spaces. *)
Record item := Item { i_left : string; i_name : string; i_as : option string; i_right : string }.
Definition item_text (i : item) : string :=
  (i_left i ++ i_name i ++ match i_as i with Some m => " as " ++ m | None => "" end ++ i_right i)%string.
Definition item_export (i : item) : string := match i_as i with Some m => m | None => i_name i end.
Definition item_ok (i : item) : Prop :=
  blank (i_left i) /\ blank (i_right i) /\ ident (i_name i) /\ i_name i <> "as" /\ match i_as i with Some m => ident m | None => True end.
(** A variable declared by [let], with the text of its value. *)
Record decl := Decl { d_left : string; d_name : string; d_right : string; d_value : option string }.
Definition decl_text (d : decl) : string := (d_left d ++ d_name d ++ d_right d ++ match d_value d with Some e => "=" ++ e | None => "" end)%string.
Definition decl_ok (d : decl) : Prop :=
  blank (d_left d) /\ blank (d_right d) /\ ident (d_name d) /\ match d_value d with Some e => nochar "," e | None => True end.
(** What may follow "export ". *)
Inductive stmt :=
| SLet (ds : list decl) | SConst (n e : string) | SList (l : list item) | SFrom (l : list item) (path : string)
| SStarAs (n path : string) | SStar (path : string) | SDefault (e : string) | SFunc (n rest : string) | SClass (n rest : string).
Definition list_text (l : list item) : string := ("{" ++ join "," (map item_text l) ++ "}")%string.
Definition stmt_text (st : stmt) : string :=
  match st with
  | SLet ds => "let " ++ join "," (map decl_text ds)
  | SConst n e => "const " ++ n ++ " = " ++ e
  | SList l => list_text l
  | SFrom l path => list_text l ++ " from '" ++ path ++ "'"
  | SStarAs n path => "* as " ++ n ++ " from '" ++ path ++ "'"
  | SStar path => "* from '" ++ path ++ "'"
  | SDefault e => "default " ++ e
  | SFunc n rest => "function " ++ n ++ rest
  | SClass n rest => "class " ++ n ++ rest
  end%string.
(** The names exported by a statement, and the module it re-exports. *)
Definition stmt_names (st : stmt) : list string :=
  match st with
  | SLet ds => map d_name ds
  | SConst n _ | SStarAs n _ | SFunc n _ | SClass n _ => [n]
  | SList l | SFrom l _ => map item_export l
  | SStar _ => []
  | SDefault _ => ["default"]
  end.
Definition stmt_refs (st : stmt) : list string := match st with SStar path => [path] | _ => [] end.
Definition path_ok (p : string) : Prop := p <> "" /\ all_chars (fun a => negb (space a) && negb (among "'""" a)) p = true.
(** The statements that the scanner understands. *)
Definition stmt_ok (st : stmt) : Prop :=
  one_line (stmt_text st) /\ tidy (stmt_text st) /\ ~ occurs "export" (stmt_text st) /\
  match st with
  | SLet ds => ds <> [] /\ Forall decl_ok ds
  | SConst n e => ident n /\ e <> ""
  | SList l => l <> [] /\ Forall item_ok l
  | SFrom l path => l <> [] /\ Forall item_ok l /\ path_ok path /\ ~ occurs " from " (list_text l)
  | SStarAs n path => ident n /\ path_ok path
  | SStar path => path_ok path
  | SDefault e => e <> ""
  | SFunc n rest | SClass n rest => ident n /\ match rest with String a _ => among (letters ++ digits ++ "_$") a = false | "" => True end
  end.

(** ** The classification of one statement *)
Lemma after_spec p s r : after p s = Some r <-> s = (p ++ r)%string.
Proof.
  revert s. induction p as [|a p IH]; intros s; simpl; [split; congruence|]. destruct s as [|b s]; [split; discriminate|]. destruct (eqb_spec' b a) as [->|N].
  - rewrite IH. split; congruence.
  - split; congruence.
Qed.
Lemma after_app p r : after p (p ++ r) = Some r.
Proof. apply after_spec. reflexivity. Qed.
Lemma cut_None sep s : cut sep s = None <-> ~ occurs sep s.
Proof.
  induction s as [|a s IH].
  - cbn [cut]. destruct (after sep "") as [r|] eqn:A.
    + apply after_spec in A. split; [discriminate|]. intros N. exfalso. apply N. exists "", r. auto.
    + split; auto. intros _ (x & y & E). destruct x; [|discriminate]. simpl in E. apply after_spec in E. congruence.
  - cbn [cut]. destruct (after sep (String a s)) as [r|] eqn:A.
    + apply after_spec in A. split; [discriminate|]. intros N. exfalso. apply N. exists "", r. auto.
    + destruct (cut sep s) as [[x y]|] eqn:C.
      * split; [discriminate|]. intros N. assert (X : ~ occurs sep s) by (intros (u & v & E); apply N; exists (String a u), v; simpl; congruence). rewrite <- IH in X. discriminate.
      * split; auto. intros _ (x & y & E). destruct x as [|b x].
        -- simpl in E. apply after_spec in E. congruence.
        -- simpl in E. injection E as <- E. destruct IH as [IH _]. apply IH; auto. exists x, y. auto.
Qed.
Lemma cut_Some sep s x y : sep <> "" -> cut sep s = Some (x, y) -> s = (x ++ sep ++ y)%string.
Proof.
  intros NS. revert x y. induction s as [|a s IH]; intros x y; cbn [cut].
  - destruct (after sep "") as [r|] eqn:A; [|discriminate]. intros E. injection E as <- <-. apply after_spec in A. auto.
  - destruct (after sep (String a s)) as [r|] eqn:A.
    + intros E. injection E as <- <-. apply after_spec in A. auto.
    + destruct (cut sep s) as [[u v]|]; [|discriminate]. intros E. injection E as <- <-. simpl. rewrite (IH u v) by auto. reflexivity.
Qed.
Lemma cut_hit sep r : cut sep (sep ++ r) = Some ("", r).
Proof. assert (H := after_app sep r). destruct (sep ++ r)%string; cbn [cut]; rewrite H; reflexivity. Qed.
(** A separator whose first character does not occur in [x] is found right after [x]. *)
Lemma cut_first a p x y : nochar a x -> cut (String a p) (x ++ String a p ++ y) = Some (x, y).
Proof.
  induction x as [|b x IH]; intros N.
  - apply (cut_hit (String a p) y).
  - simpl in N. destruct N as [N1 N2]. cbn [append cut after]. destruct (eqb_spec' b a); [congruence|]. change (x ++ String a (p ++ y))%string with (x ++ String a p ++ y)%string. rewrite IH by auto. reflexivity.
Qed.
Lemma cut_absent a p x : nochar a x -> cut (String a p) x = None.
Proof. induction x as [|b x IH]; intros N; [reflexivity|]. simpl in N. destruct N as [N1 N2]. cbn [cut after]. destruct (eqb_spec' b a); [congruence|]. rewrite IH by auto. reflexivity. Qed.
Lemma all_chars_app f x y : all_chars f (x ++ y) = all_chars f x && all_chars f y.
Proof. induction x as [|a x IH]; [reflexivity|]. simpl. rewrite IH, andb_assoc. reflexivity. Qed.
Lemma all_chars_impl (f g : ascii -> bool) s : (forall a, f a = true -> g a = true) -> all_chars f s = true -> all_chars g s = true.
Proof. intros I. induction s as [|a s IH]; auto. simpl. rewrite !andb_true_iff. intros [A B]. auto. Qed.
Lemma all_chars_nochar f c s : f c = false -> all_chars f s = true -> nochar c s.
Proof. intros F. induction s as [|a s IH]; simpl; auto. rewrite andb_true_iff. intros [A B]. split; auto. intros ->. congruence. Qed.
Lemma blank_space s : blank s -> all_space s = true.
Proof. induction s as [|a s IH]; auto. unfold blank in *. simpl. rewrite andb_true_iff. intros [A B]. apply Ascii.eqb_eq in A. subst. simpl. auto. Qed.
Lemma blank_nochar c s : c <> " "%char -> blank s -> nochar c s.
Proof. intros N B. eapply all_chars_nochar; [|exact B]. simpl. destruct (eqb_spec' c " "); congruence. Qed.
Lemma ident_start_letters a : among (letters ++ "_$") a = ident_start a.
Proof. destruct a as [[] [] [] [] [] [] [] []]; vm_compute; reflexivity. Qed.
Lemma ident_char_letters a : among (letters ++ digits ++ "_$") a = ident_char a.
Proof. destruct a as [[] [] [] [] [] [] [] []]; vm_compute; reflexivity. Qed.
Lemma quote_both a : among "'""" a = quote a.
Proof. destruct a as [[] [] [] [] [] [] [] []]; vm_compute; reflexivity. Qed.
Lemma ident_cons a s : ident (String a s) <-> ident_start a = true /\ all_chars ident_char s = true.
Proof. unfold ident. rewrite ident_start_letters, (all_chars_ext _ _ s ident_char_letters). reflexivity. Qed.
Lemma start_char a : ident_start a = true -> ident_char a = true.
Proof. unfold ident_char. intros ->. reflexivity. Qed.
Lemma ident_all s : ident s -> s <> "" /\ all_chars ident_char s = true.
Proof. destruct s as [|a s]; [intros []|]. rewrite ident_cons. intros [A B]. split; [discriminate|]. simpl. rewrite (start_char a), B; auto. Qed.
Lemma ident_char_not c : ident_char c = false -> forall s, ident s -> nochar c s.
Proof. intros C s I. apply ident_all in I. eapply all_chars_nochar; [exact C|apply I]. Qed.
Lemma all_chars_last f s a : all_chars f s = true -> last_char s = Some a -> f a = true.
Proof.
  induction s as [|b s IH]; [discriminate|]. rewrite last_cons. simpl. rewrite andb_true_iff. intros [A B] E. destruct s; [congruence|]. auto.
Qed.
Lemma ident_not_space a : ident_char a = true -> space a = false.
Proof.
  destruct a as [[] [] [] [] [] [] [] []]; vm_compute; congruence.
Qed.
Lemma ident_first s a : ident s -> first_char s = Some a -> space a = false.
Proof. destruct s as [|b s]; [discriminate|]. rewrite ident_cons. intros [A _] E. injection E as <-. apply ident_not_space, start_char, A. Qed.
Lemma ident_last s a : ident s -> last_char s = Some a -> space a = false.
Proof. intros I L. apply ident_all in I. apply ident_not_space. eapply all_chars_last; [apply I|exact L]. Qed.
Lemma strip_pad x n y : blank x -> blank y -> ident n -> strip (x ++ n ++ y) = n.
Proof.
  intros X Y N. apply strip_iff. exists x, y. split; [auto|]. split; [apply blank_space; auto|]. split; [apply blank_space; auto|].
  split; intros a; [apply ident_first|apply ident_last]; auto.
Qed.
Lemma strip_ident n : ident n -> strip n = n.
Proof. intros N. apply strip_trimmed. split; intros a; [apply ident_first|apply ident_last]; auto. Qed.
Lemma blank_space_app x r : blank x -> r <> "" -> (forall a, first_char r = Some a -> a <> " "%char) -> forall p, (forall a, first_char p = Some a -> a <> " "%char) -> p <> "" ->
  after p r = None -> forall q, (q = String " " p) -> cut q r = None -> cut q (x ++ r) = None.
Proof.
  intros X NR FR p FP NP AP q -> C. induction x as [|b x IH]; auto. unfold blank in X. simpl in X. apply andb_true_iff in X. destruct X as [B X]. apply Ascii.eqb_eq in B. subst b.
  cbn [append cut after]. change (Ascii.eqb " " " ") with true. cbv iota. assert (N : after p (x ++ r) = None).
  { destruct x as [|b x]; auto. simpl in X. apply andb_true_iff in X. destruct X as [B _]. apply Ascii.eqb_eq in B. subst b. destruct p as [|c p]; [congruence|]. cbn [append after].
    destruct (eqb_spec' " " c) as [<-|]; auto. exfalso. apply (FP " "%char); auto. }
  rewrite N. rewrite IH; auto.
Qed.
Lemma after_as n r : ident n -> n <> "as" -> (forall a, first_char r = Some a -> ident_char a = false) -> after "as " (n ++ r) = None.
Proof.
  intros I N R. apply ident_all in I. destruct I as [NE I]. destruct n as [|a [|b [|c n]]]; [congruence| | |]; simpl in I |- *; repeat rewrite andb_true_iff in I.
  - destruct (Ascii.eqb a "a"); auto. destruct r as [|d r]; auto. destruct (eqb_spec' d "s") as [->|]; auto. specialize (R "s"%char eq_refl). discriminate.
  - destruct (eqb_spec' a "a") as [->|]; auto. destruct (eqb_spec' b "s") as [->|]; auto. congruence.
  - destruct (eqb_spec' a "a") as [->|]; auto. destruct (eqb_spec' b "s") as [->|]; auto. destruct (eqb_spec' c " ") as [->|]; auto. destruct I as (_ & _ & I & _). discriminate.
Qed.
Lemma blank_first x a : blank x -> first_char x = Some a -> ident_char a = false.
Proof. destruct x as [|b x]; [discriminate|]. unfold blank. simpl. rewrite andb_true_iff. intros [B _] E. injection E as <-. apply Ascii.eqb_eq in B. subst. reflexivity. Qed.
Lemma ident_first_ne s a c : ident s -> ident_char c = false -> first_char s = Some a -> a <> c.
Proof. destruct s as [|b s]; [discriminate|]. rewrite ident_cons. intros [A _] C E ->. injection E as ->. apply start_char in A. congruence. Qed.
Lemma cut_blank p x : p <> "" -> (forall a, first_char p = Some a -> a <> " "%char) -> blank x -> cut (String " " p) x = None.
Proof.
  intros NP FP. induction x as [|b x IH]; intros X; [reflexivity|]. unfold blank in X. simpl in X. apply andb_true_iff in X. destruct X as [B X]. apply Ascii.eqb_eq in B. subst b.
  cbn [cut after]. change (Ascii.eqb " " " ") with true. cbv iota. rewrite IH by auto. destruct p as [|c p]; [congruence|]. destruct x as [|b x]; [reflexivity|].
  simpl in X. apply andb_true_iff in X. destruct X as [B _]. apply Ascii.eqb_eq in B. subst b. cbn [after]. destruct (eqb_spec' " " c) as [<-|]; auto. exfalso. apply (FP " "%char); auto.
Qed.
Lemma cut_ident_blank p n y : p <> "" -> (forall a, first_char p = Some a -> a <> " "%char) -> nochar " " n -> blank y -> cut (String " " p) (n ++ y) = None.
Proof.
  intros NP FP N B. induction n as [|b n IH]; [apply cut_blank; auto|]. simpl in N. destruct N as [N1 N2]. cbn [append cut after]. destruct (eqb_spec' b " "); [congruence|]. rewrite IH by auto. reflexivity.
Qed.
Lemma cut_as_left x n r y z : blank x -> ident n -> n <> "as" -> (forall a, first_char r = Some a -> ident_char a = false) -> cut " as " (n ++ r) = Some (y, z) -> cut " as " (x ++ n ++ r) = Some ((x ++ y)%string, z).
Proof.
  intros X I N R C. induction x as [|b x IH]; auto. unfold blank in X. simpl in X. apply andb_true_iff in X. destruct X as [B X]. apply Ascii.eqb_eq in B. subst b.
  cbn [append cut after]. change (Ascii.eqb " " " ") with true. cbv iota. rewrite IH by auto.
  assert (A : after "as " (x ++ n ++ r) = None).
  { destruct x as [|b x]; [apply (after_as n r); auto|]. simpl in X. apply andb_true_iff in X. destruct X as [B _]. apply Ascii.eqb_eq in B. subst b. reflexivity. }
  cbn [after] in A. rewrite A. reflexivity.
Qed.
Lemma item_behind i : item_ok i -> strip (behind " as " (item_text i)) = item_export i.
Proof.
  intros (B1 & B2 & I & N & R). unfold item_text, item_export, behind. assert (NS : nochar " " (i_name i)) by (apply ident_char_not; auto).
  destruct (i_as i) as [m|].
  - rewrite (cut_as_left (i_left i) (i_name i) ((" as " ++ m) ++ i_right i)%string (i_name i) (m ++ i_right i)%string); auto.
    + apply (strip_pad "" m (i_right i)); auto. reflexivity.
    + intros a E. injection E as <-. reflexivity.
    + rewrite app_assoc_s. apply (cut_first " " "as "); auto.
  - cbn [append]. assert (C : cut " as " (i_left i ++ i_name i ++ i_right i) = None).
    { eapply (blank_space_app (i_left i) (i_name i ++ i_right i) B1) with (p := "as "); auto; try discriminate.
      - destruct (i_name i); [destruct I|discriminate].
      - intros a E. destruct (i_name i) as [|b nn] eqn:NE; [destruct I|]. injection E as <-. eapply (ident_first_ne (String b nn)); eauto.
      - intros a E. injection E as <-. discriminate.
      - apply after_as; auto. intros a E. eapply blank_first; eauto.
      - apply cut_ident_blank; auto; [discriminate|]. intros a E. injection E as <-. discriminate. }
    rewrite C. apply strip_pad; auto.
Qed.
Lemma rstrip_set_app f r y : all_chars f y = true -> (forall a, last_char r = Some a -> f a = false) -> rstrip_set f (r ++ y) = r.
Proof.
  intros Y. induction r as [|a r IH]; intros L.
  - cbn [append]. destruct y as [|b y]; [reflexivity|]. cbn [rstrip_set]. rewrite Y. reflexivity.
  - cbn [append rstrip_set]. assert (N : all_chars f (String a (r ++ y)) = false).
    { destruct (all_chars f (String a (r ++ y))) eqn:E; auto. assert (E' : all_chars f (String a r) = true). { change (String a (r ++ y)) with (String a r ++ y)%string in E. rewrite all_chars_app in E. apply andb_true_iff in E. tauto. }
      destruct (last_char (String a r)) as [b|] eqn:LC; [|apply last_char_none in LC; discriminate]. rewrite <- (L b) by reflexivity. symmetry. eapply all_chars_last; eauto. }
    rewrite N, IH; auto. intros b LB. apply L. rewrite last_cons. destruct r; [discriminate|auto].
Qed.
Lemma lstrip_set_app f x r : all_chars f x = true -> (forall a, first_char r = Some a -> f a = false) -> lstrip_set f (x ++ r) = r.
Proof.
  intros X F. induction x as [|a x IH]; cbn [append lstrip_set].
  - destruct r as [|b r]; auto. cbn [lstrip_set]. rewrite (F b); auto.
  - simpl in X. apply andb_true_iff in X. destruct X as [-> X]. auto.
Qed.
Lemma strip_set_spec f x r y : all_chars f x = true -> all_chars f y = true -> r <> "" -> (forall a, first_char r = Some a -> f a = false) -> (forall a, last_char r = Some a -> f a = false) ->
  strip_set f (x ++ r ++ y) = r.
Proof.
  intros X Y NE F L. unfold strip_set. rewrite lstrip_set_app; [apply rstrip_set_app; auto|auto|]. intros a E. apply F. destruct r; [congruence|auto].
Qed.
Lemma item_chars i : item_ok i -> all_chars (fun a => Ascii.eqb a " " || ident_char a) (item_text i) = true /\ item_text i <> "".
Proof.
  intros (B1 & B2 & I & N & R). assert (BL : forall x, blank x -> all_chars (fun a => Ascii.eqb a " " || ident_char a) x = true) by (intros x; apply all_chars_impl; intros a ->; reflexivity).
  assert (ID : forall x, ident x -> all_chars (fun a => Ascii.eqb a " " || ident_char a) x = true) by (intros x X; apply ident_all in X; destruct X as [_ X]; revert X; apply all_chars_impl; intros a ->; apply orb_true_r).
  unfold item_text. split.
  - rewrite !all_chars_app, (BL _ B1), (BL _ B2), (ID _ I). destruct (i_as i) as [m|]; [|reflexivity]. change (all_chars (fun a => Ascii.eqb a " " || ident_char a) (" as " ++ m)) with (all_chars (fun a => Ascii.eqb a " " || ident_char a) m). rewrite (ID m R). reflexivity.
  - intros E. apply (f_equal String.length) in E. rewrite !app_len in E. apply ident_all in I. destruct I as [NE _]. destruct (i_name i); [congruence|]. simpl in E. lia.
Qed.
Lemma list_chars l : l <> [] -> Forall item_ok l -> all_chars (fun a => Ascii.eqb a "," || (Ascii.eqb a " " || ident_char a)) (join "," (map item_text l)) = true /\ join "," (map item_text l) <> "".
Proof.
  intros NE F. induction F as [|i l I F IH]; [congruence|]. destruct (item_chars i I) as [C N].
  assert (C' : all_chars (fun a => Ascii.eqb a "," || (Ascii.eqb a " " || ident_char a)) (item_text i) = true) by (revert C; apply all_chars_impl; intros a ->; apply orb_true_r).
  destruct l as [|j l]; [split; auto|]. destruct (IH ltac:(discriminate)) as [C2 N2]. cbn [map] in *. rewrite join_cons. split.
  - rewrite !all_chars_app, C', C2. reflexivity.
  - intros E. apply (f_equal String.length) in E. rewrite app_len in E. simpl in E. lia.
Qed.
Lemma all_chars_first f s a : all_chars f s = true -> first_char s = Some a -> f a = true.
Proof. destruct s as [|b s]; [discriminate|]. simpl. rewrite andb_true_iff. intros [A _] E. injection E as <-. auto. Qed.
Lemma no_brace a : Ascii.eqb a "," || (Ascii.eqb a " " || ident_char a) = true -> brace a = false.
Proof.
  unfold brace. rewrite !orb_true_iff. intros H. destruct (eqb_spec' a "{") as [->|]; [simpl in H; intuition discriminate|]. destruct (eqb_spec' a "}") as [->|]; [simpl in H; intuition discriminate|]. reflexivity.
Qed.
Lemma list_items l : l <> [] -> Forall item_ok l -> map strip (map (behind " as ") (split "," (strip_set brace (list_text l)))) = map item_export l.
Proof.
  intros NE F. destruct (list_chars l NE F) as [C N]. unfold list_text. rewrite (strip_set_spec brace "{" (join "," (map item_text l)) "}"); auto.
  - rewrite split_join.
    + clear - F. induction F as [|i l I F IH]; [reflexivity|]. cbn [map]. rewrite item_behind, IH; auto.
    + destruct l; [congruence|discriminate].
    + clear - F. induction F as [|i l I F IH]; cbn [map]; constructor; auto. destruct (item_chars i I) as [C _]. eapply all_chars_nochar; [|exact C]. reflexivity.
  - intros a E. apply no_brace. apply (all_chars_first _ _ _ C E).
  - intros a E. apply no_brace. apply (all_chars_last _ _ _ C E).
Qed.
Lemma decl_before d : decl_ok d -> strip (before "=" (decl_text d)) = d_name d.
Proof.
  intros (B1 & B2 & I & V). assert (N : nochar "=" (d_left d ++ d_name d ++ d_right d)).
  { rewrite !nochar_app. repeat split; try (apply blank_nochar; auto; discriminate). apply ident_char_not; auto. }
  unfold decl_text, before. destruct (d_value d) as [e|].
  - replace (d_left d ++ d_name d ++ d_right d ++ "=" ++ e)%string with ((d_left d ++ d_name d ++ d_right d) ++ "=" ++ e)%string by (rewrite !app_assoc_s; reflexivity).
    rewrite (cut_first "=" ""); auto. apply strip_pad; auto.
  - rewrite app_nil_s, (cut_absent "=" ""); auto. apply strip_pad; auto.
Qed.
Lemma decl_comma d : decl_ok d -> nochar "," (decl_text d).
Proof.
  intros (B1 & B2 & I & V). unfold decl_text. rewrite !nochar_app. repeat split; try (apply blank_nochar; auto; discriminate); [apply ident_char_not; auto|].
  destruct (d_value d); simpl; auto. split; auto. discriminate.
Qed.
Lemma last_ident x n : ident n -> last_char (x ++ n) = last_char n.
Proof. intros I. apply last_app. apply ident_all in I. tauto. Qed.
Lemma endswith_app c x y : y <> "" -> endswith c (x ++ y) = endswith c y.
Proof. intros N. unfold endswith. rewrite last_app; auto. Qed.
Lemma strip_set_one f r : r <> "" -> (forall a, first_char r = Some a -> f a = false) -> (forall a, last_char r = Some a -> f a = false) -> strip_set f r = r.
Proof. intros. rewrite <- (app_nil_s r) at 1. apply (strip_set_spec f "" r ""); auto. Qed.
Lemma path_strip p : path_ok p -> strip_set quote ("'" ++ p ++ "'") = p /\ strip p = p.
Proof.
  intros [NE C]. assert (F : forall a, first_char p = Some a -> space a = false /\ quote a = false).
  { intros a E. assert (X := all_chars_first _ _ _ C E). apply andb_true_iff in X. rewrite !negb_true_iff, quote_both in X. auto. }
  assert (L : forall a, last_char p = Some a -> space a = false /\ quote a = false).
  { intros a E. assert (X := all_chars_last _ _ _ C E). apply andb_true_iff in X. rewrite !negb_true_iff, quote_both in X. auto. }
  split.
  - apply strip_set_spec; auto; intros a E; [apply F|apply L]; auto.
  - apply strip_trimmed. split; intros a E; [apply F|apply L]; auto.
Qed.
Lemma tidy_clean t : nochar ";" t -> tidy t -> (forall a, first_char t = Some a -> space a = false) -> strip (rstrip_set (fun a => Ascii.eqb a ";") (String " " t)) = t.
Proof.
  intros N T F. assert (R : rstrip_set (fun a => Ascii.eqb a ";") (String " " t) = String " " t).
  { rewrite <- (app_nil_s (String " " t)) at 1. apply rstrip_set_app; auto. intros a L. rewrite last_cons in L. destruct t as [|b t]; [injection L as <-; reflexivity|].
    destruct (eqb_spec' a ";") as [->|]; auto. exfalso. clear - N L. revert b N L. induction t as [|c t IH]; intros b [N1 N2] L; [simpl in L; congruence|]. apply (IH c); auto. }
  rewrite R. apply strip_iff. exists " ", "". rewrite app_nil_s. split; [auto|]. split; [reflexivity|]. split; [reflexivity|]. split; auto.
Qed.
Lemma stmt_first st : stmt_ok st -> forall a, first_char (stmt_text st) = Some a -> space a = false.
Proof. intros _ a. destruct st; cbn; intros E; injection E as <-; reflexivity. Qed.
Lemma cut_end sep A B c : sep <> "" -> cut sep A = None -> last_char A = Some c -> nochar c sep -> cut sep (A ++ sep ++ B) = Some (A, B).
Proof.
  intros NS C L N. induction A as [|a A IH]; [discriminate|]. cbn [append cut]. cbn [cut] in C. destruct (after sep (String a A)) as [r|] eqn:AF; [discriminate|].
  assert (AN : after sep (String a (A ++ sep ++ B)) = None).
  { destruct (after sep (String a (A ++ sep ++ B))) as [r|] eqn:E; auto. exfalso. apply after_spec in E. clear IH C NS.
    assert (G : forall A0 p q t, (A0 ++ q)%string = (p ++ t)%string -> last_char A0 = Some c -> nochar c p -> exists z, A0 = (p ++ z)%string).
    { clear. induction A0 as [|x A0 IH]; intros p q t E L N; [discriminate|]. destruct p as [|y p]; [exists (String x A0); auto|]. simpl in E. injection E as -> E. rewrite last_cons in L.
      simpl in N. destruct N as [N1 N2]. destruct A0 as [|z A0]; [congruence|]. destruct (IH p q t E L N2) as (w & ->). exists w. reflexivity. }
    destruct (G (String a A) sep _ r E L N) as (z & Z). apply after_spec in Z. congruence. }
  rewrite AN. destruct (cut sep A) as [[x y]|] eqn:CA; [discriminate|]. destruct A as [|b A].
  - cbn [append]. rewrite cut_hit. reflexivity.
  - rewrite IH; auto.
Qed.
Theorem classify_ok st : stmt_ok st -> map strip (fst (classify (String " " (stmt_text st)))) = match st with SFunc _ _ | SClass _ _ => [] | _ => stmt_names st end /\
  map strip (snd (classify (String " " (stmt_text st)))) = stmt_refs st.
Proof.
  intros OK. assert (F := stmt_first st OK). destruct OK as ([NS NN] & T & NE & OK). unfold classify. rewrite (tidy_clean (stmt_text st) NS T F). clear F.
  destruct st as [ds|n e|l|l path|n path|path|e|n rest|n rest]; cbn [stmt_text stmt_names stmt_refs] in *.
  - rewrite after_app. cbn [fst snd]. destruct OK as [ND FD]. split; [|reflexivity]. rewrite split_join.
    + clear - FD. induction FD as [|d ds I FD IH]; [reflexivity|]. cbn [map]. rewrite decl_before, IH; auto.
    + destruct ds; [congruence|discriminate].
    + clear - FD. induction FD; cbn [map]; constructor; auto. apply decl_comma; auto.
  - change (after "let " ("const " ++ n ++ " = " ++ e)) with (@None string). cbv iota. change (startswith "{" ("const " ++ n ++ " = " ++ e)) with false. cbn [andb]. rewrite after_app. cbn [fst snd]. split; [|reflexivity].
    destruct OK as [I NE']. unfold before at 2. assert (N1 : nochar "=" (n ++ " ")) by (rewrite nochar_app; split; [apply ident_char_not; auto|simpl; split; auto; discriminate]).
    replace (n ++ " = " ++ e)%string with ((n ++ " ") ++ "=" ++ (" " ++ e))%string by (rewrite !app_assoc_s; reflexivity). rewrite (cut_first "=" ""); auto.
    assert (IA := ident_all n I). destruct IA as [NEn CA].
    rewrite strip_set_one.
    + rewrite split_no by (rewrite nochar_app; split; [apply ident_char_not; auto|simpl; split; auto; discriminate]). cbn [map]. unfold before. rewrite (cut_absent ":" "").
      * f_equal. apply (strip_pad "" n " "); auto; reflexivity.
      * rewrite nochar_app; split; [apply ident_char_not; auto|simpl; split; auto; discriminate].
    + destruct n; [congruence|discriminate].
    + intros a E. destruct n as [|b n]; [congruence|]. injection E as <-. apply ident_cons in I. destruct I as [I _]. apply start_char in I. apply no_brace. rewrite I. rewrite !orb_true_r. reflexivity.
    + intros a E. rewrite last_app in E by discriminate. injection E as <-. reflexivity.
  - change (after "let " (list_text l)) with (@None string). cbv iota. change (startswith "{" (list_text l)) with true. assert (E : endswith "}" (list_text l) = true) by (unfold list_text; rewrite <- app_assoc_s, endswith_app by discriminate; reflexivity).
    rewrite E. cbn [andb fst snd]. destruct OK as [NL FL]. split; [|reflexivity]. apply list_items; auto.
  - destruct OK as (NL & FL & P & NF). set (s := (list_text l ++ " from '" ++ path ++ "'")%string) in *. change (after "let " s) with (@None string). cbv iota. change (startswith "{" s) with true.
    assert (E : endswith "}" s = false) by (unfold s; rewrite <- !app_assoc_s, endswith_app by discriminate; reflexivity). rewrite E. cbn [andb]. change (after "const " s) with (@None string).
    change (startswith "default " s) with false. change (after "* as " s) with (@None string). change (after "* " s) with (@None string). cbv iota.
    assert (C : cut " from " s = Some (list_text l, ("'" ++ path ++ "'")%string)).
    { unfold s. change (" from '" ++ path ++ "'")%string with (" from " ++ "'" ++ path ++ "'")%string. apply (cut_end " from " _ _ "}"%char); [discriminate|apply cut_None; auto| |].
      - unfold list_text. rewrite <- app_assoc_s, last_app by discriminate. reflexivity.
      - simpl. repeat split; discriminate. }
    unfold before. rewrite C. cbn [andb fst snd]. split; [|reflexivity]. apply list_items; auto.
  - destruct OK as [I P]. set (s := ("* as " ++ n ++ " from '" ++ path ++ "'")%string) in *. change (after "let " s) with (@None string). cbv iota. change (startswith "{" s) with false. cbn [andb]. change (after "const " s) with (@None string).
    change (startswith "default " s) with false. cbv iota. unfold s. rewrite after_app. cbn [fst snd]. split; [|reflexivity]. unfold before.
    change (" from '" ++ path ++ "'")%string with (" from " ++ "'" ++ path ++ "'")%string. rewrite (cut_first " " "from "); [|apply ident_char_not; auto]. cbn [map]. rewrite strip_ident; auto.
  - set (s := ("* from '" ++ path ++ "'")%string) in *. change (after "let " s) with (@None string). cbv iota. change (startswith "{" s) with false. cbn [andb]. change (after "const " s) with (@None string).
    change (startswith "default " s) with false. change (after "* as " s) with (@None string). cbv iota. change (after "* " s) with (Some ("from " ++ "'" ++ path ++ "'")%string). cbn [fst snd]. split; [reflexivity|]. unfold behind.
    replace (cut "from " ("from " ++ "'" ++ path ++ "'")) with (Some ("", ("'" ++ path ++ "'")%string)) by reflexivity. destruct (path_strip path OK) as [A B]. rewrite A. cbn [map]. rewrite B. reflexivity.
  - set (s := ("default " ++ e)%string) in *. change (after "let " s) with (@None string). cbv iota. change (startswith "{" s) with false. cbn [andb]. change (after "const " s) with (@None string).
    assert (E : startswith "default " s = true) by (unfold startswith, s; rewrite after_app; reflexivity). rewrite E. split; reflexivity.
  - split; reflexivity.
  - split; reflexivity.
Qed.
(** ** Whole modules *)

(** A module: pieces of other code, each followed by an exported statement and the end of its line, and a last piece. *)
Definition filler_ok (f : string) : Prop := ~ occurs "export" f /\ (f = "" \/ last_char f = Some newline).
Definition line_end (t : string) : Prop := t = String newline "" \/ t = String ";" (String newline "").
Fixpoint source (l : list (string * stmt * string)) (rest : string) : string :=
  match l with
  | [] => rest
  | (f, st, t) :: l' => (f ++ "export " ++ stmt_text st ++ t ++ source l' rest)%string
  end.
Definition stmts (l : list (string * stmt * string)) : list stmt := map (fun p => snd (fst p)) l.
Definition source_ok (l : list (string * stmt * string)) (rest : string) : Prop :=
  Forall (fun p => filler_ok (fst (fst p)) /\ stmt_ok (snd (fst p)) /\ line_end (snd p)) l /\ ~ occurs "export" rest.

Lemma occurs_cons a p s : occurs p s -> occurs p (String a s).
Proof. intros (x & y & ->). exists (String a x), y. reflexivity. Qed.
Lemma occurs_skip a s : a <> "e"%char -> occurs "export" (String a s) -> occurs "export" s.
Proof. intros N (x & y & E). destruct x as [|b x]; [injection E as -> _; congruence|]. injection E as -> ->. exists x, y. reflexivity. Qed.
Lemma occurs_skips x s : nochar "e" x -> occurs "export" (x ++ s) -> occurs "export" s.
Proof. induction x as [|a x IH]; auto. intros [N1 N2] O. apply IH; auto. eapply occurs_skip; [|exact O]. auto. Qed.
Lemma after_newline T R r : last_char T = Some newline -> after "export" (T ++ R) = Some r -> occurs "export" T.
Proof.
  intros L A. apply after_spec in A.
  assert (G : forall A0 p q t, (A0 ++ q)%string = (p ++ t)%string -> last_char A0 = Some newline -> nochar newline p -> exists z, A0 = (p ++ z)%string).
  { clear. induction A0 as [|x A0 IH]; intros p q t E L N; [discriminate|]. destruct p as [|y p]; [exists (String x A0); auto|]. simpl in E. injection E as -> E. rewrite last_cons in L.
    simpl in N. destruct N as [N1 N2]. destruct A0 as [|z A0]; [congruence|]. destruct (IH p q t E L N2) as (w & ->). exists w. reflexivity. }
  destruct (G T "export" R r A L) as (z & ->); [simpl; repeat split; discriminate|]. exists "", z. reflexivity.
Qed.
Lemma nochar_last c s a : nochar c s -> last_char s = Some a -> a <> c.
Proof. induction s as [|b s IH]; [discriminate|]. intros [N1 N2] L. rewrite last_cons in L. destruct s; [congruence|]. apply IH; auto. Qed.
Lemma last_cons_ne a s b : last_char (String a s) = Some b -> s = "" /\ a = b \/ last_char s = Some b.
Proof. rewrite last_cons. destruct s; auto. intros E. injection E as ->. auto. Qed.
Lemma lstrip_last T b : last_char T = Some b -> all_space T = false -> last_char (lstrip T) = Some b.
Proof.
  induction T as [|a T IH]; [discriminate|]. cbn [all_space lstrip]. intros L N. destruct (space a); auto. apply last_cons_ne in L. destruct L as [[-> _]|L]; [discriminate|]. apply IH; auto.
Qed.
Lemma lstrip_app_ne T R : all_space T = false -> lstrip (T ++ R) = (lstrip T ++ R)%string.
Proof. induction T as [|a T IH]; [discriminate|]. cbn [all_space lstrip append]. destruct (space a); auto. Qed.
Lemma lstrip_suffix T : exists x, T = (x ++ lstrip T)%string.
Proof. destruct (lstrip_spec T) as (x & E & _). eauto. Qed.
Lemma to_end_app s t : one_line s -> (t = "" \/ exists r, t = String ";" r \/ t = String newline r) -> to_end (s ++ t) = s.
Proof.
  intros [N1 N2] T. induction s as [|a s IH]; cbn [append to_end].
  - destruct T as [->|(r & [-> | ->])]; reflexivity.
  - simpl in N1, N2. destruct (eqb_spec' a ";"); [tauto|]. destruct (eqb_spec' a newline); [tauto|]. simpl. rewrite IH by tauto. reflexivity.
Qed.
Definition ends (t : string) : Prop := t = "" \/ exists r, t = String ";" r \/ t = String newline r.
Lemma occurs_suffix x p s : occurs p s -> occurs p (x ++ s).
Proof. intros (u & v & ->). exists (x ++ u)%string, v. rewrite !app_assoc_s. reflexivity. Qed.
Lemma core_app T s t : ~ occurs "export" T -> (T = "" \/ last_char T = Some newline) -> one_line s -> ends t ->
  general_core (T ++ "export " ++ s ++ t) = if all_space T then Some (String " " s, String.length T + 7 + String.length s) else None.
Proof.
  intros NO L O E. unfold general_core. destruct (all_space T) eqn:AS.
  - assert (LS : lstrip (T ++ "export " ++ s ++ t) = ("export " ++ s ++ t)%string) by (rewrite lstrip_app; auto; intros a F; injection F as <-; reflexivity).
    rewrite LS. change (after "export" ("export " ++ s ++ t)) with (Some (String " " (s ++ t))). change (space " ") with true. cbn [orb].
    assert (TE : to_end (String " " (s ++ t)) = String " " s).
    { change (String " " (s ++ t)) with (String " " s ++ t)%string. apply to_end_app; auto. destruct O as [O1 O2]. split; simpl; split; auto; discriminate. }
    change (space " " || Ascii.eqb " " "{") with true. cbv iota zeta. rewrite TE. do 2 f_equal. rewrite app_len. cbn [String.length]. lia.
  - rewrite lstrip_app_ne by auto. destruct L as [->|L]; [discriminate|]. assert (LL := lstrip_last T newline L AS). destruct (after "export" (lstrip T ++ "export " ++ s ++ t)) as [r|] eqn:A; auto.
    apply after_newline in A; auto. exfalso. apply NO. destruct (lstrip_suffix T) as (x & E'). rewrite E'. apply occurs_suffix. auto.
Qed.
Definition bol_after (b : bool) (x : string) : bool := match last_char x with Some a => Ascii.eqb a newline | None => b end.
Lemma find_skip x : forall b t, find_general b (String.length x) (x ++ t) = find_general (bol_after b x) 0 t.
Proof.
  induction x as [|a x IH]; intros b t; [reflexivity|]. cbn [String.length append find_general]. rewrite IH. f_equal. unfold bol_after. rewrite last_cons. destruct x as [|c x]; [reflexivity|]. destruct (last_char (String c x)) eqn:L; [reflexivity|]. apply last_char_none in L. discriminate.
Qed.
(** Other code in front of a statement is skipped. *)
Lemma find_one T : forall b s t, ~ occurs "export" T -> (T = "" -> b = true) -> (T = "" \/ last_char T = Some newline) -> one_line s -> ends t ->
  find_general b 0 (T ++ "export " ++ s ++ t) = String " " s :: find_general false 0 t.
Proof.
  induction T as [|a T IH]; intros b s t NO B L O E.
  - rewrite B by auto. assert (G : general_at true ("export " ++ s ++ t) = Some (String " " s, 7 + String.length s)).
    { unfold general_at. assert (C := core_app "" s t NO L O E). cbn [append] in *. rewrite C. reflexivity. }
    cbn [append find_general] in *. rewrite G. f_equal. cbn [Nat.add Nat.sub find_general]. rewrite ?Nat.sub_0_r. rewrite find_skip. f_equal. unfold bol_after. destruct (last_char s) as [c|] eqn:LC; [|reflexivity].
    destruct (eqb_spec' c newline) as [->|]; auto. exfalso. apply (nochar_last _ _ _ (proj2 O) LC). reflexivity.
  - destruct L as [L|L]; [discriminate|]. assert (NO' : ~ occurs "export" T) by (intros X; apply NO, occurs_cons, X). assert (L' : T = "" \/ last_char T = Some newline) by (apply last_cons_ne in L; tauto).
    assert (C1 := core_app (String a T) s t NO (or_intror L) O E). assert (C2 := core_app T s t NO' L' O E).
    assert (HIT : forall n, n = String.length (String a T) + 7 + String.length s -> String " " s :: find_general (Ascii.eqb a newline) (n - 1) (T ++ "export " ++ s ++ t) = String " " s :: find_general false 0 t).
    { intros n ->. f_equal. assert (SK := find_skip (T ++ "export " ++ s) (Ascii.eqb a newline) t). rewrite !app_len, !app_assoc_s in SK. cbn [String.length Nat.add] in *.
      replace (S (String.length T + 7 + String.length s) - 1) with (String.length T + S (S (S (S (S (S (S (String.length s)))))))) by lia. rewrite SK. f_equal. unfold bol_after.
      rewrite last_app by discriminate. destruct (last_char ("export " ++ s)) as [c|] eqn:LC.
      + destruct (eqb_spec' c newline) as [->|]; auto. exfalso. assert (NX : nochar newline ("export " ++ s)) by (destruct O as [_ O]; simpl; repeat split; auto; discriminate). apply (nochar_last _ _ _ NX LC). reflexivity.
      + apply last_char_none in LC. discriminate. }
    assert (MISS : find_general (Ascii.eqb a newline) 0 (T ++ "export " ++ s ++ t) = String " " s :: find_general false 0 t).
    { apply IH; auto. intros ->. simpl in L. injection L as ->. reflexivity. }
    cbn [append find_general] in *. unfold general_at. destruct b.
    + rewrite C1. destruct (all_space (String a T)) eqn:AS; [apply HIT; reflexivity|]. destruct (Ascii.eqb a ";" || Ascii.eqb a "}"); [|exact MISS].
      rewrite C2. destruct (all_space T); [|exact MISS]. cbn [option_map fst snd]. apply HIT. reflexivity.
    + destruct (Ascii.eqb a ";" || Ascii.eqb a "}"); [|exact MISS]. rewrite C2. destruct (all_space T); [|exact MISS]. cbn [option_map fst snd]. apply HIT. reflexivity.
Qed.
Lemma core_occurs s x : general_core s = Some x -> occurs "export" s.
Proof.
  unfold general_core. destruct (after "export" (lstrip s)) as [r|] eqn:A; [|discriminate]. intros _. apply after_spec in A. destruct (lstrip_suffix s) as (y & E). rewrite E, A. exists y, r. reflexivity.
Qed.
Lemma find_nothing s : forall b, ~ occurs "export" s -> find_general b 0 s = [].
Proof.
  induction s as [|a s IH]; intros b N.
  - cbn [find_general]. unfold general_at. destruct b; reflexivity.
  - assert (NS : ~ occurs "export" s) by (intros X; apply N, occurs_cons, X).
    assert (G : general_at b (String a s) = None).
    { unfold general_at. assert (C1 : general_core (String a s) = None) by (destruct (general_core (String a s)) eqn:C; auto; apply core_occurs in C; contradiction).
      assert (C2 : general_core s = None) by (destruct (general_core s) eqn:C; auto; apply core_occurs in C; contradiction). rewrite C1, C2. destruct b; destruct (Ascii.eqb a ";" || Ascii.eqb a "}"); reflexivity. }
    cbn [find_general]. rewrite G. apply IH. auto.
Qed.
Lemma filler_app P f : ~ occurs "export" P -> filler_ok f -> (P = "" \/ last_char P = Some newline) -> ~ occurs "export" (P ++ f) /\ (P ++ f = "" \/ last_char (P ++ f) = Some newline)%string.
Proof.
  intros NP [NF LF] LP. split.
  - intros (x & y & E). destruct LP as [->|LP]; [apply NF; exists x, y; auto|].
    assert (G : forall P x, last_char P = Some newline -> (P ++ f)%string = (x ++ "export" ++ y)%string -> occurs "export" P \/ occurs "export" f).
    { clear. induction P as [|a P IH]; intros x L E; [discriminate|]. destruct x as [|b x].
      - left. simpl in E. apply (after_newline (String a P) f y); auto. apply after_spec. simpl. auto.
      - simpl in E. injection E as -> E. apply last_cons_ne in L. destruct L as [[-> ->]|L]; [right; exists x, y; auto|]. destruct (IH x L E) as [X|X]; auto. left. apply occurs_cons; auto. }
    destruct (G P x LP E); auto.
  - destruct f as [|a f].
    + rewrite app_nil_s. auto.
    + right. rewrite last_app by discriminate. destruct LF as [|LF]; [discriminate|auto].
Qed.
Lemma line_end_facts t : line_end t -> ~ occurs "export" t /\ last_char t = Some newline /\ nochar "e" t /\ t <> "" /\ forall r, ends (t ++ r).
Proof.
  intros [-> | ->]; (split; [apply cut_None; reflexivity|]);
  (split; [reflexivity|]); (split; [simpl; repeat split; discriminate|]); (split; [discriminate|]); intros r; right; eexists; simpl; [right|left]; reflexivity.
Qed.
Lemma find_source l rest : source_ok l rest -> forall P b, ~ occurs "export" P -> (P = "" -> b = true) -> (P = "" \/ last_char P = Some newline) ->
  find_general b 0 (P ++ source l rest) = map (fun st => String " " (stmt_text st)) (stmts l).
Proof.
  intros [F R]. induction F as [|[[f st] t] l (Ff & OK & LE) F IH]; intros P b NP PB LP; cbn [source stmts map fst snd] in *.
  - apply find_nothing. destruct (filler_app P "" NP) as [_ _]; auto; [split; auto; intros ([|? ?] & ? & ?); discriminate|].
    intros (x & y & E). destruct LP as [->|LP]; [apply R; exists x, y; auto|].
    assert (G : forall P x, last_char P = Some newline -> (P ++ rest)%string = (x ++ "export" ++ y)%string -> occurs "export" P \/ occurs "export" rest).
    { clear. induction P as [|a P IH]; intros x L E; [discriminate|]. destruct x as [|b x].
      - left. simpl in E. apply (after_newline (String a P) rest y); auto. apply after_spec. simpl. auto.
      - simpl in E. injection E as -> E. apply last_cons_ne in L. destruct L as [[-> ->]|L]; [right; exists x, y; auto|]. destruct (IH x L E) as [X|X]; auto. left. apply occurs_cons; auto. }
    destruct (G P x LP E); auto.
  - destruct (filler_app P f NP Ff LP) as [N1 L1]. destruct (line_end_facts t LE) as (NT & LT & _ & TNE & ET). rewrite <- app_assoc_s. rewrite find_one; auto.
    + f_equal. apply IH; auto; congruence.
    + intros E. apply PB. destruct P; auto; discriminate.
    + apply OK.
Qed.
(** Text without "export" in front does not matter for the other two patterns. *)
Lemma funcs_skip T R : ~ occurs "export" T -> (T = "" \/ last_char T = Some newline) -> find_funcs (T ++ R) = find_funcs R.
Proof.
  intros N L. induction T as [|a T IH]; auto. destruct L as [L|L]; [discriminate|]. cbn [append find_funcs]. assert (FN : func_at (String a (T ++ R)) = None).
  { unfold func_at. destruct (after "export" (String a (T ++ R))) as [r|] eqn:A; auto. exfalso. apply N. apply (after_newline (String a T) R r); auto. }
  rewrite FN. cbn [app]. apply IH; [intros X; apply N, occurs_cons, X|]. apply last_cons_ne in L. tauto.
Qed.
Lemma funcs_nothing T : ~ occurs "export" T -> find_funcs T = [].
Proof.
  induction T as [|a T IH]; intros N; [reflexivity|]. cbn [find_funcs]. assert (FN : func_at (String a T) = None).
  { unfold func_at. destruct (after "export" (String a T)) as [r|] eqn:A; auto. exfalso. apply after_spec in A. apply N. exists "", r. auto. }
  rewrite FN. apply IH. intros X. apply N, occurs_cons, X.
Qed.
Lemma default_skip T R : ~ occurs "export" T -> (T = "" \/ last_char T = Some newline) -> any_suffix default_at (T ++ R) = any_suffix default_at R.
Proof.
  intros N L. induction T as [|a T IH]; auto. destruct L as [L|L]; [discriminate|]. cbn [append any_suffix]. assert (FN : default_at (String a (T ++ R)) = false).
  { unfold default_at. destruct (after "export" (String a (T ++ R))) as [r|] eqn:A; auto. exfalso. apply N. apply (after_newline (String a T) R r); auto. }
  rewrite FN. cbn [orb]. apply IH; [intros X; apply N, occurs_cons, X|]. apply last_cons_ne in L. tauto.
Qed.
Lemma default_nothing T : ~ occurs "export" T -> any_suffix default_at T = false.
Proof.
  induction T as [|a T IH]; intros N; [reflexivity|]. cbn [any_suffix]. assert (FN : default_at (String a T) = false).
  { unfold default_at. destruct (after "export" (String a T)) as [r|] eqn:A; auto. exfalso. apply after_spec in A. apply N. exists "", r. auto. }
  rewrite FN. apply IH. intros X. apply N, occurs_cons, X.
Qed.
Lemma xport_ok st t : stmt_ok st -> line_end t -> ~ occurs "export" ("xport " ++ stmt_text st ++ t) /\ ("xport " ++ stmt_text st ++ t = "" \/ last_char ("xport " ++ stmt_text st ++ t) = Some newline)%string.
Proof.
  intros OK LE. destruct (line_end_facts t LE) as (NT & LT & _ & TNE & _). split.
  - intros O. apply occurs_skips in O; [|simpl; repeat split; discriminate]. destruct OK as ([_ ON] & _ & NO & _). destruct O as (x & y & E).
    assert (G : forall s x, nochar newline s -> (s ++ t)%string = (x ++ "export" ++ y)%string -> occurs "export" s \/ occurs "export" t).
    { clear - LE. induction s as [|a s IH]; intros x N E; [right; exists x, y; auto|]. destruct x as [|b x].
      - left. assert (SP : forall s p u, (s ++ t)%string = (p ++ u)%string -> nochar newline s -> nochar ";" p -> nochar newline p -> exists z, s = (p ++ z)%string).
        { clear - LE. induction s as [|a s IH]; intros p u E N N1 N2.
          - destruct p as [|b p]; [exists ""; auto|]. exfalso. destruct LE as [-> | ->]; injection E as <- _; [destruct N2|destruct N1]; congruence.
          - destruct p as [|b p]; [exists (String a s); auto|]. simpl in E. injection E as -> E. simpl in N, N1, N2. destruct (IH p u E) as (z & ->); try tauto. exists z. reflexivity. }
        destruct (SP (String a s) "export" y E N) as (z & Z); try (simpl; repeat split; discriminate). exists "", z. auto.
      - simpl in E. injection E as -> E. simpl in N. destruct (IH x) as [X|X]; try tauto. left. apply occurs_cons; auto. }
    destruct (G _ x ON E); auto.
  - right. rewrite <- app_assoc_s, last_app by auto. exact LT.
Qed.
Definition func_names (st : stmt) : list string := match st with SFunc n _ | SClass n _ => [n] | _ => [] end.
Lemma take_ident_app n r : all_chars ident_char n = true -> (forall a, first_char r = Some a -> ident_char a = false) -> take_ident (n ++ r) = n.
Proof.
  intros A F. induction n as [|a n IH]; cbn [append take_ident].
  - destruct r as [|b r]; auto. cbn [take_ident]. rewrite (F b); auto.
  - simpl in A. apply andb_true_iff in A. destruct A as [-> A]. rewrite IH; auto.
Qed.
Lemma func_stmt st t r : stmt_ok st -> line_end t -> func_at ("export " ++ stmt_text st ++ t ++ r) = match func_names st with [n] => Some n | _ => None end.
Proof.
  intros OK LE. unfold func_at. change (after "export" ("export " ++ stmt_text st ++ t ++ r)) with (Some (" " ++ stmt_text st ++ t ++ r)%string). cbv iota.
  assert (IDN : forall n rest, ident n -> match rest with String a _ => among (letters ++ digits ++ "_$") a = false | "" => True end ->
    match spaces1 (" " ++ n ++ rest ++ t ++ r) with Some (String a r3) => if ident_start a then Some (String a (take_ident r3)) else None | _ => None end = Some n).
  { intros n rest I R. cbn [append spaces1]. change (space " ") with true. cbn [lstrip]. change (space " ") with true. cbv iota. rewrite lstrip_first.
    - destruct n as [|a n]; [destruct I|]. apply ident_cons in I. destruct I as [I1 I2]. cbn [append]. rewrite I1. rewrite take_ident_app; auto. intros b E. destruct rest as [|c rest].
      + destruct LE as [-> | ->]; injection E as <-; reflexivity.
      + injection E as <-. rewrite <- ident_char_letters. exact R.
    - intros a E. destruct n as [|b n]; [destruct I|]. injection E as <-. apply (ident_first (String b n) b); auto. }
  destruct st as [ds|n e|l|l path|n path|path|e|n rest|n rest]; try reflexivity.
  - destruct OK as (_ & _ & _ & I & R). cbn [stmt_text func_names]. specialize (IDN n rest I R). rewrite !app_assoc_s.
    change (spaces1 (" " ++ "function " ++ n ++ rest ++ t ++ r)) with (Some ("function" ++ " " ++ n ++ rest ++ t ++ r)%string). cbv iota. rewrite after_app. exact IDN.
  - destruct OK as (_ & _ & _ & I & R). cbn [stmt_text func_names]. specialize (IDN n rest I R). rewrite !app_assoc_s.
    change (spaces1 (" " ++ "class " ++ n ++ rest ++ t ++ r)) with (Some ("class" ++ " " ++ n ++ rest ++ t ++ r)%string). cbv iota.
    change (after "function" ("class" ++ " " ++ n ++ rest ++ t ++ r)) with (@None string). cbv iota. rewrite after_app. exact IDN.
Qed.
Lemma default_stmt st r : default_at ("export " ++ stmt_text st ++ r) = match st with SDefault _ => true | _ => false end.
Proof. destruct st; reflexivity. Qed.
Lemma find_funcs_export st t r : stmt_ok st -> line_end t -> find_funcs ("export " ++ stmt_text st ++ t ++ r) = func_names st ++ find_funcs r.
Proof.
  intros OK LE. assert (F := func_stmt st t r OK LE). destruct (xport_ok st t OK LE) as [N L]. assert (S := funcs_skip ("xport " ++ stmt_text st ++ t) r N L). rewrite !app_assoc_s in S.
  change ("export " ++ stmt_text st ++ t ++ r)%string with (String "e" ("xport " ++ stmt_text st ++ t ++ r)) in *. cbn [find_funcs]. rewrite F, S. destruct st; reflexivity.
Qed.
Lemma default_export st t r : stmt_ok st -> line_end t -> any_suffix default_at ("export " ++ stmt_text st ++ t ++ r) = match st with SDefault _ => true | _ => false end || any_suffix default_at r.
Proof.
  intros OK LE. assert (F := default_stmt st (t ++ r)). destruct (xport_ok st t OK LE) as [N L]. assert (S := default_skip ("xport " ++ stmt_text st ++ t) r N L). rewrite !app_assoc_s in S.
  change ("export " ++ stmt_text st ++ t ++ r)%string with (String "e" ("xport " ++ stmt_text st ++ t ++ r)) in *. cbn [any_suffix]. rewrite F, S. reflexivity.
Qed.
Lemma funcs_source l rest : source_ok l rest -> find_funcs (source l rest) = flat_map func_names (stmts l).
Proof.
  intros [F R]. induction F as [|[[f st] t] l ([NF LF] & OK & LE) F IH]; cbn [source stmts map flat_map fst snd] in *; [apply funcs_nothing; auto|].
  rewrite funcs_skip by auto. rewrite find_funcs_export by auto. rewrite IH. reflexivity.
Qed.
Lemma default_source l rest : source_ok l rest -> any_suffix default_at (source l rest) = existsb (fun st => match st with SDefault _ => true | _ => false end) (stmts l).
Proof.
  intros [F R]. induction F as [|[[f st] t] l ([NF LF] & OK & LE) F IH]; cbn [source stmts map existsb fst snd] in *; [apply default_nothing; auto|].
  rewrite default_skip by auto. rewrite default_export by auto. rewrite IH. reflexivity.
Qed.

(** The scanner finds exactly the exported names and the re-exported modules. *)
Theorem C72_names_partial l rest : source_ok l rest ->
  (forall x, In x (fst (resolve_names_from_source (source l rest) false)) <-> exists st, In st (stmts l) /\ In x (stmt_names st)) /\
  (forall x, In x (snd (resolve_names_from_source (source l rest) false)) <-> exists st, In st (stmts l) /\ In x (stmt_refs st)).
Proof.
  intros OK. unfold resolve_names_from_source. rewrite (funcs_source l rest OK), (default_source l rest OK).
  assert (FS := find_source l rest OK "" true). cbn [append] in FS. rewrite FS by (auto; intros ([|? ?] & ? & ?); discriminate). clear FS.
  assert (SOK : Forall stmt_ok (stmts l)) by (destruct OK as [F _]; clear - F; induction F as [|[[f st] t] l (_ & O & _) F IH]; cbn; constructor; auto). cbn [fst snd]. clear OK. generalize dependent (stmts l). intros ss SOK.
  rewrite !map_app, !map_map. rewrite Forall_forall in SOK. split; intros x.
  - rewrite !in_app_iff. split.
    + intros [D|[D|D]].
      * destruct (existsb _ ss) eqn:E; [|destruct D]. apply existsb_exists in E. destruct E as (st & I & E). destruct D as [<-|[]]. exists st. split; auto. destruct st; try discriminate. left. reflexivity.
      * apply in_map_iff in D. destruct D as (n & <- & D). apply in_flat_map in D. destruct D as (st & I & D). exists st. split; auto. specialize (SOK st I).
        destruct st; cbn [func_names In] in D; try contradiction; destruct D as [<-|[]]; left; symmetry; apply strip_ident; apply SOK.
      * rewrite flat_map_concat_map, concat_map, map_map in D. rewrite map_map in D. rewrite <- flat_map_concat_map in D. apply in_flat_map in D. destruct D as (st & I & D). exists st. split; auto.
        destruct (classify_ok st (SOK st I)) as [C _]. rewrite C in D. destruct st; auto; destruct D.
    + intros (st & I & D). destruct (classify_ok st (SOK st I)) as [C _].
      assert (K : In x (match st with SFunc _ _ | SClass _ _ => [] | _ => stmt_names st end) \/ In x (func_names st)) by (destruct st; auto). destruct K as [K|K].
      * right. right. rewrite flat_map_concat_map, concat_map, map_map. rewrite map_map. rewrite <- flat_map_concat_map. apply in_flat_map. exists st. rewrite C. auto.
      * right. left. apply in_map_iff. exists x. split; [|apply in_flat_map; exists st; auto]. specialize (SOK st I). destruct st; cbn [func_names In] in K; try contradiction; destruct K as [<-|[]]; apply strip_ident; apply SOK.
  - rewrite flat_map_concat_map, concat_map, map_map. rewrite map_map. rewrite <- flat_map_concat_map. rewrite in_flat_map. split; intros (st & I & D); exists st; split; auto; destruct (classify_ok st (SOK st I)) as [_ C]; rewrite C in *; auto.
Qed.
(** Without the default export for modules that another one re-exports. *)
Theorem C72_exclude_default content x : In x (fst (resolve_names_from_source content true)) <-> In x (fst (resolve_names_from_source content false)) /\ x <> "default".
Proof.
  unfold resolve_names_from_source. cbn [fst]. rewrite filter_In. destruct (String.eqb_spec x "default"); simpl; intuition congruence.
Qed.
Example C72_source : list (string * stmt * string) :=
  [("import x from 'y';" ++ String newline "", SLet [Decl "" "a" " " (Some " 1"); Decl " " "b" "" None], String ";" (String newline ""));
   ("", SFrom [Item " " "x" (Some "c") ""; Item " " "d" None " "] "./z.js", String newline "");
   (String newline "", SFunc "f" "() {", String newline "");
   ("  return 1;" ++ String newline "}" ++ String newline "", SStar "./other.js", String ";" (String newline ""));
   ("", SDefault "f", String ";" (String newline ""))]%string.
Lemma occurs_dec p s : (if cut p s then False else True) -> ~ occurs p s.
Proof. intros H. apply cut_None. destruct (cut p s); tauto. Qed.
Example C72_source_ok : source_ok C72_source "// end".
Proof.
  split; [|apply occurs_dec; exact I]. unfold C72_source.
  repeat apply Forall_cons; try apply Forall_nil; cbn [fst snd];
    (split; [split; [apply occurs_dec; exact I|first [left; reflexivity|right; reflexivity]]|]); (split; [|first [left; reflexivity|right; reflexivity]]);
    (split; [split; cbn; repeat split; discriminate|]); (split; [intros a E; injection E as <-; reflexivity|]); (split; [apply occurs_dec; exact I|]).
  - split; [discriminate|]. repeat apply Forall_cons; try apply Forall_nil; repeat split; cbn; try discriminate; auto.
  - split; [discriminate|]. split; [repeat apply Forall_cons; try apply Forall_nil; repeat split; cbn; try discriminate; auto|]. split; [split; [discriminate|reflexivity]|]. apply occurs_dec; exact I.
  - repeat split.
  - split; [discriminate|reflexivity].
  - discriminate.
Qed.
Example C72_source_names : fst (resolve_names_from_source (source C72_source "// end") false) = ["default"; "f"; "a"; "b"; "c"; "d"; "default"].
Proof. reflexivity. Qed.

(** ** Findings: valid exports with wrong names *)

(** "export const {a, b} = o" exports b. *)
Theorem C72_destructuring_refuted : fst (resolve_names_from_source "export const {a, b} = o;" false) = ["a"; "b}"].
Proof. reflexivity. Qed.
(** "export const {a: x, c} = o" exports x, not a. *)
Theorem C72_renaming_refuted : fst (resolve_names_from_source "export const {a: x, c}=o;" false) = ["a"; "c"].
Proof. reflexivity. Qed.
(** "export const f = 1, g = 2" exports g. *)
Theorem C72_const_list_refuted : fst (resolve_names_from_source "export const f = 1, g = 2;" false) = ["f"].
Proof. reflexivity. Qed.
(** "export let x = [1, y]" does not export "y]". *)
Theorem C72_let_comma_refuted : fst (resolve_names_from_source "export let x = [1, y];" false) = ["x"; "y]"].
Proof. reflexivity. Qed.
(** "export var v" and "export async function f" export names. *)
Theorem C72_var_refuted : fst (resolve_names_from_source "export var v = 1;" false) = [] /\ fst (resolve_names_from_source "export async function f() {}" false) = [].
Proof. split; reflexivity. Qed.
(** A list of exports over several lines exports a and b. *)
Theorem C72_multiline_refuted : fst (resolve_names_from_source ("export {" ++ String newline "a," ++ String newline "b" ++ String newline "};") false) = [].
Proof. reflexivity. Qed.
(** A comment exports nothing. *)
Theorem C72_comment_refuted : fst (resolve_names_from_source "// export class Old {}" false) = ["Old"].
Proof. reflexivity. Qed.
(** "export {x as default}" in a module referred to by another is excluded; "export * as ns from" is found. *)
Example C72_example : resolve_names_from_source ("import x from 'y';" ++ String newline "export let a = 1, b; export { x as c, d };" ++ String newline "export * from './other.js';" ++
    String newline "export * as ns from 'z';" ++ String newline "export default function () {}") true =
  (["a"; "b"; "c"; "d"; "ns"], ["./other.js"]).
Proof. reflexivity. Qed.
Print Assumptions C72_names_partial.
Print Assumptions C72_exclude_default.
