(** * Model of [minify_python] (/repo/src/reactpy/executors/pyscript/utils.py:39-50) and property C69 *)
From Coq Require Import String Ascii Bool Arith Lia List.
From Verif Require Import Strings PyStr HtmlAttrs JsModules JsNames.
Import ListNotations.
Local Open Scope string_scope. Local Open Scope list_scope.

Definition nl : string := String newline "".
Definition dquote : ascii := "034"%char.
Definition triple : string := String dquote (String dquote (String dquote "")).

(** [re.sub(r"#.*\n", "\n", s)], line 42: from a "#" to the end of its line, if a newline ends the line. [skip]: inside a
    match. *)
Fixpoint comments (skip : bool) (s : string) : string :=
  match s with
  | "" => ""
  | String a s' =>
      if skip then if Ascii.eqb a newline then String newline (comments false s') else comments true s'
      else if Ascii.eqb a "#" && contains newline s' then comments true s' else String a (comments false s')
  end.
(** [re.sub(r'\n\s*""".*?"""', "", s, flags=re.DOTALL)], line 44. White space contains no quote, so that [\s*] takes all of it;
    the match ends at the first closing quotes. [fuel]: the length of the text is enough. *)
Fixpoint docstrings (fuel : nat) (s : string) : string :=
  match fuel with
  | 0 => s
  | S n => match s with
           | "" => ""
           | String a s' =>
               let keep := String a (docstrings n s') in
               if Ascii.eqb a newline
               then match after triple (lstrip s') with
                    | Some r => match cut triple r with Some (_, r') => docstrings n r' | None => keep end
                    | None => keep
                    end
               else keep
           end
  end.
Lemma docstrings_fuel n m s : String.length s <= n -> String.length s <= m -> docstrings n s = docstrings m s.
Proof.
  revert m s. induction n as [|n IH]; intros m s N M; (destruct s as [|a s]; [destruct m; reflexivity|]); [cbn in N; lia|]. destruct m as [|m]; [cbn in M; lia|]. cbn in N, M. cbn [docstrings].
  rewrite (IH m s) by lia. destruct (Ascii.eqb a newline); auto. destruct (after triple (lstrip s)) as [r|] eqn:A; auto. destruct (cut triple r) as [[x r']|] eqn:C; auto.
  apply after_spec in A. apply cut_Some in C; [|discriminate]. destruct (lstrip_spec s) as (y & E & _). assert (L : String.length r' < String.length s).
  { rewrite E, A, C. rewrite !app_len. cbn. lia. }
  apply IH; lia.
Qed.
(** [re.sub(r"\n+", "\n", s)], line 46: of the newlines in a row the last one is kept. *)
Fixpoint newlines (s : string) : string :=
  match s with
  | "" => ""
  | String a s' => if Ascii.eqb a newline && (match s' with String b _ => Ascii.eqb b newline | "" => false end) then newlines s' else String a (newlines s')
  end.
(** [re.sub(r"\s+\n", "\n", s)], line 48: of white space that contains a newline, what precedes the last newline is dropped.
    [ahead]: there is a newline after white space. *)
Fixpoint ahead (s : string) : bool := match s with "" => false | String a s' => Ascii.eqb a newline || (space a && ahead s') end.
Fixpoint blanks (s : string) : string := match s with "" => "" | String a s' => if space a && ahead s' then blanks s' else String a (blanks s') end.
(** [minify_python], lines 39-50. *)
Definition minify (s : string) : string :=
  let s := comments false s in let s := docstrings (String.length s) s in strip (blanks (newlines s)).

(** Specification: the lines of the text without comments ("#" to the end of the line, except in the last line), those that are
    blank left out, without the white space at their ends, and without that at the beginning of the first one. *)
Definition uncomment (l : string) : string := match split1 "#" l with Some (x, _) => x | None => l end.
Fixpoint code_lines (l : list string) : list string :=
  match l with [] => [] | [p] => [p] | p :: r => uncomment p :: code_lines r end.
Definition kept (l : list string) : list string := filter (fun p => negb (String.eqb p "")) (map rstrip l).
Definition unindent_first (l : list string) : list string := match l with p :: r => lstrip p :: r | [] => [] end.

Lemma newlines_blanks s : blanks (newlines s) = blanks s.
Proof.
  assert (A : forall t, ahead (newlines t) = ahead t).
  { induction t as [|a t IH]; [reflexivity|]. cbn [newlines]. destruct (eqb_spec' a newline) as [->|N]; cbn [andb].
    - destruct t as [|b t]; [reflexivity|]. destruct (eqb_spec' b newline) as [->|M]; [rewrite IH; reflexivity|]. cbn [ahead]. reflexivity.
    - cbn [ahead]. rewrite IH. reflexivity. }
  induction s as [|a s IH]; [reflexivity|]. cbn [newlines]. destruct (eqb_spec' a newline) as [->|N]; cbn [andb].
  - destruct s as [|b s]; [reflexivity|]. destruct (eqb_spec' b newline) as [->|M]; [rewrite IH; reflexivity|]. cbn [blanks]. rewrite A. cbn [blanks] in IH. rewrite IH. reflexivity.
  - cbn [blanks]. rewrite A, IH. reflexivity.
Qed.
Lemma no_triple_same n s : nochar dquote s -> docstrings n s = s.
Proof.
  revert s. induction n as [|n IH]; intros s N; [reflexivity|]. destruct s as [|a s]; [reflexivity|]. destruct N as [N1 N2]. cbn [docstrings]. rewrite IH by auto.
  destruct (Ascii.eqb a newline); auto. destruct (after triple (lstrip s)) as [r|] eqn:A; auto. exfalso. apply after_spec in A.
  destruct (lstrip_spec s) as (x & E & _). rewrite E, A in N2. apply nochar_app in N2. destruct N2 as [_ N2]. cbn in N2. tauto.
Qed.
Lemma comments_line p s : nochar newline p -> comments false (p ++ String newline s) = (uncomment p ++ String newline (comments false s))%string.
Proof.
  assert (SK : forall q, nochar newline q -> comments true (q ++ String newline s) = String newline (comments false s)).
  { induction q as [|a q IH]; intros N; [reflexivity|]. destruct N as [N1 N2]. cbn [append comments]. destruct (eqb_spec' a newline); [congruence|]. auto. }
  assert (CT : forall q, contains newline (q ++ String newline s) = true) by (intros q; rewrite contains_app; cbn; apply orb_true_r).
  unfold uncomment. induction p as [|a p IH]; intros N; [reflexivity|]. destruct N as [N1 N2]. cbn [append comments split1]. rewrite CT, andb_true_r. destruct (eqb_spec' a "#") as [->|M].
  - rewrite SK by auto. reflexivity.
  - rewrite IH by auto. destruct (split1 "#" p) as [[x y]|]; reflexivity.
Qed.
Lemma comments_last p : nochar newline p -> comments false p = p.
Proof.
  induction p as [|a p IH]; intros N; [reflexivity|]. destruct N as [N1 N2]. cbn [comments]. apply contains_nochar in N2 as C. rewrite C, andb_false_r, IH by auto. reflexivity.
Qed.
Lemma comments_lines l : l <> [] -> Forall (nochar newline) l -> comments false (join nl l) = join nl (code_lines l).
Proof.
  intros NE F. induction F as [|p l P F IH]; [congruence|]. destruct l as [|q l]; [apply comments_last; auto|]. rewrite join_cons. unfold nl at 1. cbn [append].
  rewrite comments_line by auto. rewrite IH by discriminate. change (code_lines (p :: q :: l)) with (uncomment p :: code_lines (q :: l)).
  destruct (code_lines (q :: l)) as [|z zs] eqn:E; [destruct l; discriminate|]. rewrite join_cons. reflexivity.
Qed.
Lemma uncomment_nochar c p : nochar c p -> nochar c (uncomment p).
Proof. unfold uncomment. intros N. destruct (split1 "#" p) as [[x y]|] eqn:S; auto. apply split1_Some in S. destruct S as [-> _]. apply nochar_app in N. tauto. Qed.
Lemma code_lines_nochar c l : Forall (nochar c) l -> Forall (nochar c) (code_lines l).
Proof. intros F. induction F as [|p l P F IH]; [constructor|]. destruct l; [constructor; auto|]. constructor; [apply uncomment_nochar; auto|auto]. Qed.
Lemma join_nochar c l : c <> newline -> Forall (nochar c) l -> nochar c (join nl l).
Proof.
  intros C F. induction F as [|p l P F IH]; [exact I|]. destruct l as [|q l]; [exact P|]. rewrite join_cons. apply nochar_app. split; auto. apply nochar_app. split; auto. cbn. split; [congruence|exact I].
Qed.
Lemma ahead_line p s : nochar newline p -> ahead (p ++ String newline s) = all_space p.
Proof. induction p as [|a p IH]; intros N; [reflexivity|]. destruct N as [N1 N2]. cbn [append ahead all_space]. destruct (eqb_spec' a newline); [congruence|]. rewrite IH by auto. reflexivity. Qed.
Lemma ahead_last p : nochar newline p -> ahead p = false.
Proof. induction p as [|a p IH]; intros N; [reflexivity|]. destruct N as [N1 N2]. cbn [ahead]. destruct (eqb_spec' a newline); [congruence|]. rewrite IH by auto. apply andb_false_r. Qed.
Lemma blanks_last p : nochar newline p -> blanks p = p.
Proof. induction p as [|a p IH]; intros N; [reflexivity|]. destruct N as [N1 N2]. cbn [blanks]. rewrite ahead_last, andb_false_r, IH by auto. reflexivity. Qed.
Lemma blanks_line p s : nochar newline p -> blanks (p ++ String newline s) = (rstrip p ++ blanks (String newline s))%string.
Proof.
  induction p as [|a p IH]; intros N; [reflexivity|]. destruct N as [N1 N2]. cbn [append]. change (blanks (String a (p ++ String newline s))) with (if space a && ahead (p ++ String newline s) then blanks (p ++ String newline s) else String a (blanks (p ++ String newline s))).
  rewrite ahead_line, IH by auto. change (rstrip (String a p)) with (if space a && all_space p then "" else String a (rstrip p)). destruct (space a && all_space p) eqn:E; [|reflexivity].
  apply andb_true_iff in E. destruct E as [_ E]. assert (R : rstrip p = "") by (destruct p; [reflexivity|]; unfold rstrip; rewrite E; reflexivity). rewrite R. reflexivity.
Qed.
Lemma rstrip_empty p : rstrip p = "" <-> all_space p = true.
Proof. destruct p as [|a p]; [cbn; tauto|]. change (rstrip (String a p)) with (if all_space (String a p) then "" else String a (rstrip p)). destruct (all_space (String a p)); split; congruence. Qed.
Lemma rstrip_cat x y : rstrip (x ++ y) = if String.eqb (rstrip y) "" then rstrip x else (x ++ rstrip y)%string.
Proof.
  induction x as [|a x IH]; [cbn [append]; destruct (String.eqb_spec (rstrip y) "") as [->|]; reflexivity|].
  cbn [append]. change (rstrip (String a (x ++ y))) with (if space a && all_space (x ++ y) then "" else String a (rstrip (x ++ y))). change (rstrip (String a x)) with (if space a && all_space x then "" else String a (rstrip x)).
  rewrite all_space_app, IH. destruct (String.eqb_spec (rstrip y) "") as [E|N].
  - apply rstrip_empty in E. rewrite E, andb_true_r. reflexivity.
  - assert (F : all_space y = false) by (destruct (all_space y) eqn:F; auto; apply rstrip_empty in F; congruence). rewrite F, !andb_false_r. reflexivity.
Qed.
(** The text after the blank lines are gone, up to the white space at its end. *)
Lemma blanks_lines l : l <> [] -> Forall (nochar newline) l ->
  rstrip (blanks (join nl l)) = match kept l with [] => "" | k => if all_space (hd "" l) then (nl ++ join nl k)%string else join nl k end.
Proof.
  intros NE F. induction F as [|p l P F IH]; [congruence|]. destruct l as [|q l].
  - cbn [join]. rewrite blanks_last by auto. unfold kept. cbn [map filter hd]. destruct (String.eqb_spec (rstrip p) "") as [E|N]; cbn [negb]; [exact E|].
    assert (A : all_space p = false) by (destruct (all_space p) eqn:A; auto; apply rstrip_empty in A; congruence). rewrite A. reflexivity.
  - specialize (IH ltac:(discriminate)). rewrite join_cons. change ((nl ++ join nl (q :: l))%string) with (String newline (join nl (q :: l))). rewrite blanks_line by auto.
    set (B := join nl (q :: l)) in *. assert (AB : ahead B = match l with [] => false | _ => all_space q end).
    { unfold B. inversion_clear F as [|? ? Q F']. destruct l as [|z l]; [apply ahead_last; auto|]. rewrite join_cons. apply ahead_line. auto. }
    change (blanks (String newline B)) with (if ahead B then blanks B else String newline (blanks B)).
    assert (X : rstrip (if ahead B then blanks B else String newline (blanks B)) = match kept (q :: l) with [] => "" | k => (nl ++ join nl k)%string end).
    { destruct (ahead B) eqn:AH.
      - rewrite IH. cbn [hd]. destruct l; [discriminate|]. rewrite <- AB. destruct (kept _); reflexivity.
      - change (String newline (blanks B)) with (nl ++ blanks B)%string. rewrite rstrip_cat, IH. cbn [hd]. destruct (kept (q :: l)) as [|k ks] eqn:K; [reflexivity|].
        assert (NK : k <> ""). { assert (I : In k (kept (q :: l))) by (rewrite K; left; auto). apply filter_In in I. destruct I as [_ I]. apply negb_true_iff, String.eqb_neq in I. auto. }
        destruct (all_space q) eqn:AQ.
        + destruct l as [|z l]; [|discriminate AB]. unfold kept in K. cbn [map filter] in K. apply rstrip_empty in AQ. rewrite AQ in K. discriminate K.
        + assert (JN : join nl (k :: ks) <> ""). { destruct k; [congruence|]. destruct ks; discriminate. } apply String.eqb_neq in JN. rewrite JN. reflexivity. }
    rewrite rstrip_cat, X. change (kept (p :: q :: l)) with (if negb (String.eqb (rstrip p) "") then rstrip p :: kept (q :: l) else kept (q :: l)). cbn [hd].
    assert (RR : rstrip (rstrip p) = rstrip p). { destruct (rstrip_spec p) as (y & _ & _ & T). assert (H := rstrip_app (rstrip p) "" eq_refl T). rewrite app_nil_s in H. exact H. }
    destruct (String.eqb_spec (rstrip p) "") as [E|N]; cbn [negb].
    + rewrite E. apply rstrip_empty in E. rewrite E. destruct (kept (q :: l)) as [|k ks]; [reflexivity|]. cbn [append]. reflexivity.
    + assert (A : all_space p = false) by (destruct (all_space p) eqn:A; auto; apply rstrip_empty in A; congruence). rewrite A. destruct (kept (q :: l)) as [|k ks]; [cbn [join String.eqb]; exact RR|]. cbn [append String.eqb nl]. rewrite join_cons. reflexivity.
Qed.
Lemma strip_of_rstrip s r : rstrip s = r -> strip s = lstrip r.
Proof.
  intros <-. apply strip_iff. destruct (rstrip_spec s) as (y & E & Y & T). destruct (lstrip_spec (rstrip s)) as (x & E2 & X & T2). unfold trims_to, trimmed.
  assert (L : forall a, last_char (lstrip (rstrip s)) = Some a -> space a = false).
  { intros a H. apply T. rewrite E2. rewrite last_app; [auto|]. intros Z. rewrite Z in H. discriminate. }
  exists x, y. rewrite <- app_assoc_s, <- E2, <- E. auto.
Qed.
Theorem C69_lines_partial s : nochar dquote s ->
  minify s = join nl (unindent_first (kept (code_lines (split newline s)))).
Proof.
  intros N. unfold minify. assert (J := join_split newline s). assert (F := split_nochar newline s). assert (NE := split_nonnil newline s).
  assert (C : comments false s = join nl (code_lines (split newline s))) by (rewrite <- comments_lines by auto; unfold nl; rewrite J; reflexivity).
  assert (ND : Forall (nochar dquote) (split newline s)).
  { apply Forall_forall. intros p I. apply in_split in I. destruct I as (l1 & l2 & E). rewrite <- J, E in N. clear - N. induction l1 as [|q l1 IH].
    - cbn [app] in N. destruct l2; [exact N|]. rewrite join_cons in N. apply nochar_app in N. tauto.
    - apply IH. cbn [app] in N. destruct (l1 ++ p :: l2) as [|z zs] eqn:E; [destruct l1; discriminate|]. rewrite join_cons in N. apply nochar_app in N. destruct N as [_ N]. apply nochar_app in N. tauto. }
  rewrite C. set (L := code_lines (split newline s)). assert (LN : L <> []) by (unfold L; destruct (split newline s) as [|a [|b t]]; [congruence|discriminate|discriminate]).
  assert (LF : Forall (nochar newline) L) by (apply code_lines_nochar; auto).
  rewrite no_triple_same by (apply join_nochar; [discriminate|apply code_lines_nochar; auto]). rewrite newlines_blanks.
  rewrite (strip_of_rstrip _ _ (blanks_lines L LN LF)). destruct (kept L) as [|k ks] eqn:K; [reflexivity|].
  assert (IK : In k (kept L)) by (rewrite K; left; auto). apply filter_In in IK. destruct IK as [IK1 IK2]. apply negb_true_iff, String.eqb_neq in IK2. apply in_map_iff in IK1. destruct IK1 as (k0 & E & _).
  assert (NB : lstrip k <> ""). { intros Z. apply IK2. rewrite <- E. apply rstrip_empty. rewrite <- E in Z. destruct (lstrip_spec (rstrip k0)) as (x & X1 & X2 & _). rewrite Z, app_nil_s in X1. destruct (rstrip_spec k0) as (y & Y1 & Y2 & _). rewrite Y1, all_space_app, X1, X2, Y2. reflexivity. }
  assert (LA : forall t, lstrip (k ++ t) = (lstrip k ++ t)%string). { intros t. clear - NB. induction k as [|a k IH]; [cbn in NB; congruence|]. cbn [append lstrip] in *. destruct (space a); auto. }
  assert (LJ : lstrip (join nl (k :: ks)) = join nl (unindent_first (k :: ks))) by (destruct ks as [|k2 ks]; cbn [unindent_first]; [reflexivity|]; rewrite !join_cons; apply LA).
  destruct (all_space (hd "" L)); [|exact LJ]. change (nl ++ join nl (k :: ks))%string with (String newline (join nl (k :: ks))). exact LJ.
Qed.
(** A docstring that begins a line is removed, and nothing else: the text is minified as if it had not been there. The text
    before it ends with a character that is not white space. *)
Lemma docstrings_prefix n a X : nochar dquote a -> (forall c, last_char a = Some c -> space c = false) -> String.length (a ++ X) <= n -> docstrings n (a ++ X) = (a ++ docstrings (String.length X) X)%string.
Proof.
  revert n. induction a as [|c a IH]; intros n N T L; [apply docstrings_fuel; [exact L|apply le_n]|]. destruct N as [N1 N2]. cbn [append String.length] in L. destruct n as [|n]; [lia|]. cbn [append docstrings].
  assert (T' : forall d, last_char a = Some d -> space d = false). { intros d E. apply T. rewrite last_cons. destruct a; [discriminate|exact E]. }
  rewrite IH by (auto; lia). destruct (eqb_spec' c newline) as [->|NN]; [|reflexivity].
  assert (NB : exists d r, lstrip (a ++ X) = String d r /\ d <> dquote).
  { clear - N2 T T'. assert (NE : a <> ""). { intros ->. specialize (T newline eq_refl). discriminate T. } clear T. induction a as [|d a IH]; [congruence|]. destruct N2 as [M1 M2]. cbn [append lstrip]. destruct (space d) eqn:S; [|eauto].
    destruct a as [|e a]; [specialize (T' d eq_refl); congruence|]. apply IH; auto; discriminate. }
  destruct NB as (d & r & E & D). rewrite E. unfold triple. cbn [after]. destruct (eqb_spec' d dquote); [congruence|]. reflexivity.
Qed.
Lemma no_comment s : nochar "#" s -> comments false s = s.
Proof. induction s as [|a s IH]; intros N; [reflexivity|]. destruct N as [N1 N2]. cbn [comments]. destruct (eqb_spec' a "#"); [congruence|]. cbn [andb]. rewrite IH by auto. reflexivity. Qed.
Theorem C69_docstring a w d b : nochar "#" (a ++ w ++ d ++ b) -> nochar dquote (a ++ d) -> (forall c, last_char a = Some c -> space c = false) -> all_space w = true ->
  minify (a ++ nl ++ w ++ triple ++ d ++ triple ++ b) = minify (a ++ b).
Proof.
  intros H N T W. repeat rewrite nochar_app in H. destruct H as (H1 & H2 & H3 & H4). apply nochar_app in N. destruct N as [N1 N2]. unfold minify.
  assert (HT : nochar "#" triple) by (repeat split; discriminate). assert (HN : nochar "#" nl) by (repeat split; discriminate).
  rewrite !no_comment by (repeat rewrite nochar_app; tauto). rewrite (docstrings_prefix _ a (nl ++ w ++ triple ++ d ++ triple ++ b)) by auto. rewrite (docstrings_prefix _ a b) by auto. do 4 f_equal.
  set (X := (nl ++ w ++ triple ++ d ++ triple ++ b)%string). assert (L : String.length b < String.length X) by (unfold X; rewrite !app_len; cbn; lia).
  destruct (String.length X) as [|n] eqn:E; [lia|]. unfold X, nl. cbn [append docstrings]. rewrite Ascii.eqb_refl.
  rewrite lstrip_app; [|exact W|intros c C; cbn in C; injection C as <-; reflexivity]. rewrite lstrip_first by (intros c C; cbn in C; injection C as <-; reflexivity). rewrite after_app.
  unfold triple at 1 2. rewrite cut_first by exact N2. apply docstrings_fuel; lia.
Qed.
Definition lines (l : list string) : string := join nl l.
Example C69_example : minify (lines [""; "# about"; "def f(x):  # why"; ""; "    if x:"; "        return 1  "; "   "; "    return 2"; ""])
  = lines ["def f(x):"; "    if x:"; "        return 1"; "    return 2"].
Proof. reflexivity. Qed.
Example C69_docstring_example : minify (lines ["def f():"; "    '''"; "    return 1"]) = lines ["def f():"; "    '''"; "    return 1"]
  /\ minify (lines ["def f():"; ("    " ++ triple ++ "Text")%string; ("    more" ++ triple)%string; "    return 1"]) = lines ["def f():"; "    return 1"].
Proof. split; reflexivity. Qed.
(** Findings. A "#" in a text literal cuts the literal off. A text in triple quotes at the beginning of a line is removed also
    when it is an argument. Blank lines inside a text in triple quotes are removed. A function whose body is its docstring loses
    its body. *)
Theorem C69_hash_refuted : minify (lines ["color = '#fff'"; "show(color)"; ""]) = lines ["color = '"; "show(color)"].
Proof. reflexivity. Qed.
Theorem C69_argument_refuted : minify (lines ["show("; ("    " ++ triple ++ "text" ++ triple)%string; ")"]) = lines ["show("; ")"].
Proof. reflexivity. Qed.
Theorem C69_blank_refuted : minify (lines [("x = " ++ triple ++ "a")%string; ""; ("b" ++ triple)%string]) = lines [("x = " ++ triple ++ "a")%string; ("b" ++ triple)%string].
Proof. reflexivity. Qed.
Theorem C69_body_refuted : minify (lines ["class E(Exception):"; ("    " ++ triple ++ "Text" ++ triple)%string; "raise E"]) = lines ["class E(Exception):"; "raise E"].
Proof. reflexivity. Qed.

Print Assumptions C69_lines_partial.
Print Assumptions C69_docstring.
Print Assumptions C69_hash_refuted.
Print Assumptions C69_argument_refuted.
Print Assumptions C69_blank_refuted.
Print Assumptions C69_body_refuted.
