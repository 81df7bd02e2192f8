(** * Model of writing rewritten code back and property C81

    /repo/src/reactpy/_console/ast_utils.py:18-88: how the tools of C66 and C80 put the changed nodes back into the text. *)
From Coq Require Import NArith Bool Arith Lia List Permutation Sorted.
Import ListNotations.
Local Open Scope list_scope.

(** Characters are code points. *)
Definition line := list N.

(** ** Model *)

(** [str.isspace], for [strip] and [lstrip]. *)
Definition space (c : N) : bool :=
  ((9 <=? c) && (c <=? 13) || (28 <=? c) && (c <=? 32) || (c =? 133) || (c =? 160) || (c =? 5760) || (8192 <=? c) && (c <=? 8202) ||
   (c =? 8232) || (c =? 8233) || (c =? 8239) || (c =? 8287) || (c =? 12288))%N.
(** The line boundaries of [str.splitlines]. *)
Definition boundary (c : N) : bool :=
  ((10 <=? c) && (c <=? 13) || (28 <=? c) && (c <=? 30) || (c =? 133) || (c =? 8232) || (c =? 8233))%N.
Definition nl : N := 10%N.
Definition blank_char : N := 32%N.
Fixpoint lstrip (l : line) : line := match l with c :: r => if space c then lstrip r else l | [] => [] end.
Definition rstrip (l : line) : line := rev (lstrip (rev l)).
Definition strip (l : line) : line := rstrip (lstrip l).
Fixpoint join_nl (ls : list line) : line := match ls with [] => [] | [l] => l | l :: r => l ++ nl :: join_nl r end.
(** [text.splitlines(True)]; [cur]: the current line, backwards. *)
Fixpoint splitlines (cur : line) (text : line) : list line :=
  match text with
  | [] => match cur with [] => [] | _ => [rev cur] end
  | 13%N :: 10%N :: r => rev (10%N :: 13%N :: cur) :: splitlines [] r
  | c :: r => if boundary c then rev (c :: cur) :: splitlines [] r else splitlines (c :: cur) r
  end.
Definition is_blank (l : line) : bool := match lstrip l with [] => true | _ => false end.
(** [textwrap.indent] *)
Definition indent (text prefix : line) : line := concat (map (fun l => if is_blank l then l else prefix ++ l) (splitlines [] text)).

(** A node of the syntax tree after the change: where it was (lines from 1, columns from 0 in bytes of UTF-8; [None]: nodes such
    as the module, [arguments] and [comprehension] have no position), whether it is a [ClassDef] or [FunctionDef] (an
    [AsyncFunctionDef] is not), and what [ast.unparse] makes of it. Simplification: [end_lineno] and [end_col_offset] are always
    present, as they are after [ast.parse]. *)
Record span := { first_line : nat; first_col : nat; last_line : nat; last_col : nat }.
Record node := { position : option span; is_def : bool; code : line }.

(** ast_utils.py:34-38, for the line of the changed call. *)
Definition stops (ln : nat) (next : node) : bool :=
  match position next with None => true | Some s => Nat.ltb (first_line s) ln || is_def next end.
(** ast_utils.py:28-43: the node to write back for a changed call; [lineage]: the call and its parents. [None]: RuntimeError. *)
Fixpoint closest (ln : nat) (lineage : list node) : option node :=
  match lineage with
  | current :: ((next :: _) as r) => if stops ln next then Some current else closest ln r
  | _ => None
  end.
(** A node with its position. *)
Definition placed : Type := span * line.
Definition candidate (lineage : list node) : option placed :=
  match lineage with
  | call :: _ =>
      match position call with
      | None => None
      | Some s => match closest (first_line s) lineage with
                  | Some n => match position n with Some s' => Some (s', code n) | None => None end
                  | None => None
                  end
      end
  | [] => None
  end.
Fixpoint candidates (changed : list (list node)) : option (list placed) :=
  match changed with
  | [] => Some []
  | c :: r => match candidate c, candidates r with Some n, Some ns => Some (n :: ns) | _, _ => None end
  end.
(** [sorted], ast_utils.py:46-48: stable. *)
Fixpoint insert (n : placed) (l : list placed) : list placed :=
  match l with
  | [] => [n]
  | m :: r => if Nat.leb (first_line (fst n)) (first_line (fst m)) then n :: l else m :: insert n r
  end.
Fixpoint sort (l : list placed) : list placed := match l with [] => [] | n :: r => insert n (sort r) end.
(** ast_utils.py:49-56 *)
Fixpoint outer (current : placed) (l : list placed) : list placed :=
  match l with
  | [] => []
  | n :: r => if Nat.ltb (last_line (fst current)) (first_line (fst n)) then n :: outer n r else outer current r
  end.
Definition outermost (l : list placed) : option (list placed) :=
  match sort l with [] => None | n :: r => Some (n :: outer n r) end.

Section Text.
  (** [_find_comments], ast_utils.py:172-178; [None]: the tokenizer raises, as it does on an unclosed bracket. *)
  Context (comments : list line -> option (list line)).
  (** ast_utils.py:60-80 *)
  Definition replacement (lines : list line) (n : placed) : option line :=
    let s := fst n in
    match comments (firstn (last_line s - (first_line s - 1)) (skipn (first_line s - 1) lines)) with
    | None => None
    | Some cs =>
        let before := lstrip (firstn (first_col s) (nth (first_line s - 1) lines [])) in
        let after := strip (skipn (last_col s) (nth (last_line s - 1) lines [])) in
        Some (indent (before ++ join_nl (cs ++ [snd n]) ++ after) (repeat blank_char (first_col s - length before)))
    end.
  Definition edit (lines : list line) (n : placed) : option (list line) :=
    match replacement lines n with
    | None => None
    | Some text => Some (firstn (first_line (fst n) - 1) lines ++ [text] ++ skipn (last_line (fst n)) lines)
    end.
  Fixpoint edits (lines : list line) (l : list placed) : option (list line) :=
    match l with
    | [] => Some lines
    | n :: r => match edit lines n with Some lines' => edits lines' r | None => None end
    end.
  (** ast_utils.py:18-88; the result is joined with newlines. [None]: an exception. *)
  Definition rewrite (lines : list line) (changed : list (list node)) : option (list line) :=
    match candidates changed with
    | None => None
    | Some ns => match outermost ns with None => None | Some l => edits lines (rev l) end
    end.
End Text.

(** ** Specification *)

(** Bytes of a character in UTF-8. *)
Definition width (c : N) : nat := if (c <? 128)%N then 1 else if (c <? 2048)%N then 2 else if (c <? 65536)%N then 3 else 4.
Definition bytes (l : line) : nat := fold_right (fun c n => width c + n) 0 l.
Definition one_byte (l : line) : Prop := Forall (fun c => (c < 128)%N) l.
Definition unbroken (l : line) : Prop := Forall (fun c => boundary c = false) l.
Definition blank (l : line) : bool := forallb space l.
(** [t] is [l] without the white space at both ends. *)
Definition trimmed (l t : line) : Prop :=
  exists a b, l = a ++ t ++ b /\ blank a = true /\ blank b = true /\
    match t with [] => b = [] | c :: _ => space c = false /\ space (last t c) = false end.
(** Lines indented by [n], blank ones left alone. *)
Definition indented (n : nat) (ls : list line) : list line := map (fun l => if blank l then l else repeat blank_char n ++ l) ls.
(** [before] at the start of the first line, [after] at the end of the last. *)
Definition between (before : line) (ls : list line) (after : line) : list line :=
  match ls with
  | [] => [before ++ after]
  | l :: r => match rev r with
              | [] => [before ++ l ++ after]
              | last :: mid => (before ++ l) :: rev mid ++ [last ++ after]
              end
  end.
(** What the lines of a node become, when its first line starts with spaces only and all is in single byte characters. *)
Definition written (comments : list line -> option (list line)) (n : placed) (region : list line) (text : line) : Prop :=
  forall cs ind before rest front after code_lines after',
    comments region = Some cs -> snd n = join_nl code_lines -> code_lines <> [] ->
    hd [] region = repeat blank_char ind ++ before ++ rest -> bytes (repeat blank_char ind ++ before) = first_col (fst n) ->
    match before with [] => True | c :: _ => space c = false end ->
    last region [] = front ++ after -> bytes front = last_col (fst n) -> trimmed after after' ->
    one_byte (repeat blank_char ind ++ before) -> one_byte front ->
    unbroken before -> unbroken after -> Forall unbroken cs -> Forall unbroken code_lines ->
    text = join_nl (indented ind (between before (cs ++ code_lines) after')).
(** [out] is [lines] with the lines of each node replaced, and nothing else changed; [k]: the number of the line before. *)
Inductive spliced (ok : placed -> list line -> line -> Prop) : nat -> list line -> list placed -> list line -> Prop :=
| spliced_end k rest : spliced ok k rest [] rest
| spliced_node k kept region rest n ns text out :
    k + length kept + 1 = first_line (fst n) -> k + length kept + length region = last_line (fst n) -> region <> [] ->
    ok n region text -> spliced ok (last_line (fst n)) rest ns out ->
    spliced ok k (kept ++ region ++ rest) (n :: ns) (kept ++ text :: out).
Definition inside (a b : span) : Prop :=
  (first_line b < first_line a \/ first_line b = first_line a /\ first_col b <= first_col a) /\
  (last_line a < last_line b \/ last_line a = last_line b /\ last_col a <= last_col b).
(** Positions as the parser gives them: in the text, and each parent around the call. *)
Definition well_placed (lines : list line) (lineage : list node) : Prop :=
  (forall n s, In n lineage -> position n = Some s -> 1 <= first_line s /\ first_line s <= last_line s /\ last_line s <= length lines).
Definition nested (lineage : list node) : Prop :=
  match lineage with
  | call :: _ => exists s, position call = Some s /\ forall n s', In n lineage -> position n = Some s' -> inside s s'
  | [] => False
  end.

(** ** Proofs *)

Lemma closest_in ln l n : closest ln l = Some n -> In n l.
Proof.
  induction l as [|c r IH]; [discriminate|]. destruct r as [|d r]; [discriminate|]. cbn [closest].
  destruct (stops ln d); [intros [= <-]; left; reflexivity|]. intros H. right. apply IH. exact H.
Qed.
Lemma closest_line ln l n : closest ln l = Some n -> (exists c s r, l = c :: r /\ position c = Some s /\ ln <= first_line s) ->
  exists s, position n = Some s /\ ln <= first_line s.
Proof.
  induction l as [|c r IH]; [discriminate|]. destruct r as [|d r]; [discriminate|]. cbn [closest].
  intros H (c' & s & r' & [= <- <-] & P & L). destruct (stops ln d) eqn:E.
  - injection H as <-. exists s. split; [exact P|exact L].
  - apply IH; [exact H|]. unfold stops in E. destruct (position d) as [s'|] eqn:P'; [|discriminate]. apply orb_false_iff in E. destruct E as [E _]. apply Nat.ltb_ge in E.
    exists d, s', r. split; [reflexivity|split; [exact P'|exact E]].
Qed.
Lemma insert_perm n l : Permutation (n :: l) (insert n l).
Proof.
  induction l as [|m r IH]; [reflexivity|]. cbn [insert]. destruct (Nat.leb _ _); [reflexivity|]. rewrite perm_swap. constructor. exact IH.
Qed.
Lemma sort_perm l : Permutation l (sort l).
Proof. induction l as [|n r IH]; [constructor|]. cbn [sort]. rewrite <- insert_perm. constructor. exact IH. Qed.
Definition le_line (a b : placed) : Prop := first_line (fst a) <= first_line (fst b).
Lemma insert_sorted n l : StronglySorted le_line l -> StronglySorted le_line (insert n l).
Proof.
  induction 1 as [|m r S IH F]; [constructor; constructor|]. cbn [insert]. destruct (Nat.leb _ _) eqn:E.
  - apply Nat.leb_le in E. constructor; [constructor; assumption|]. constructor; [exact E|]. eapply Forall_impl; [|exact F]. unfold le_line. intros a H. lia.
  - apply Nat.leb_gt in E. constructor; [exact IH|]. eapply Permutation_Forall; [apply insert_perm|]. constructor; [unfold le_line; lia|exact F].
Qed.
Lemma sort_sorted l : StronglySorted le_line (sort l).
Proof. induction l as [|n r IH]; [constructor|]. apply insert_sorted. exact IH. Qed.
Lemma outer_in cur l n : In n (outer cur l) -> In n l.
Proof.
  revert cur. induction l as [|m r IH]; intros cur; cbn [outer]; [intros []|]. destruct (Nat.ltb _ _); intros H.
  - destruct H as [->|H]; [left; reflexivity|right; eapply IH; exact H].
  - right. eapply IH. exact H.
Qed.
(** Each node is taken, or starts on a line of one that is. *)
Lemma outer_covers cur l n : StronglySorted le_line (cur :: l) -> In n (cur :: l) ->
  exists m, In m (cur :: outer cur l) /\ (m = n \/ first_line (fst m) <= first_line (fst n) <= last_line (fst m)).
Proof.
  revert cur. induction l as [|x r IH]; intros cur S I.
  - destruct I as [->|[]]. exists n. split; [left; reflexivity|left; reflexivity].
  - cbn [outer]. inversion S as [|? ? S' F]; subst. destruct (Nat.ltb _ _) eqn:E.
    + destruct I as [->|I]; [exists n; split; [left; reflexivity|left; reflexivity]|]. destruct (IH x S' I) as (m & M & H). exists m. split; [right; exact M|exact H].
    + apply Nat.ltb_ge in E. destruct I as [->|I]; [exists n; split; [left; reflexivity|left; reflexivity]|].
      destruct I as [->|I].
      * exists cur. split; [left; reflexivity|right]. inversion F; subst. unfold le_line in *. lia.
      * apply IH; [|right; exact I]. inversion S'; subst. inversion F; subst. constructor; assumption.
Qed.
(** The taken nodes do not share lines. *)
Fixpoint apart (k : nat) (l : list placed) : Prop :=
  match l with [] => True | n :: r => k < first_line (fst n) /\ first_line (fst n) <= last_line (fst n) /\ apart (last_line (fst n)) r end.
Lemma outer_apart cur l : Forall (fun n : placed => first_line (fst n) <= last_line (fst n)) l -> apart (last_line (fst cur)) (outer cur l).
Proof.
  intros F. revert cur. induction F as [|n r H _ IH]; intros cur; [exact I|]. cbn [outer]. destruct (Nat.ltb _ _) eqn:E.
  - apply Nat.ltb_lt in E. cbn [apart]. split; [exact E|split; [exact H|apply IH]].
  - apply IH.
Qed.
Lemma candidates_in changed ns : candidates changed = Some ns ->
  (forall c, In c changed -> exists n, candidate c = Some n /\ In n ns) /\ (forall n, In n ns -> exists c, In c changed /\ candidate c = Some n).
Proof.
  revert ns. induction changed as [|c r IH]; intros ns H; cbn [candidates] in H.
  - injection H as <-. split; intros ? [].
  - destruct (candidate c) as [n|] eqn:E; [|discriminate]. destruct (candidates r) as [ns'|]; [|discriminate]. injection H as <-.
    destruct (IH _ eq_refl) as [A B]. split.
    + intros c' [<-|I]; [exists n; split; [exact E|left; reflexivity]|]. destruct (A c' I) as (m & M & J). exists m. split; [exact M|right; exact J].
    + intros m [<-|I]; [exists c; split; [left; reflexivity|exact E]|]. destruct (B m I) as (c' & J & M). exists c'. split; [right; exact J|exact M].
Qed.
Lemma candidate_node c n : candidate c = Some n -> exists m, In m c /\ position m = Some (fst n) /\ code m = snd n.
Proof.
  unfold candidate. destruct c as [|call r]; [discriminate|]. destruct (position call) as [s|]; [|discriminate].
  destruct (closest (first_line s) (call :: r)) as [m|] eqn:E; [|discriminate]. destruct (position m) as [s'|] eqn:P; [|discriminate]. intros [= <-].
  exists m. split; [eapply closest_in; exact E|split; [exact P|reflexivity]].
Qed.

(** *** Splicing *)

Lemma skip_skip {A} a b (l : list A) : skipn a (skipn b l) = skipn (b + a) l.
Proof. revert l. induction b as [|b IH]; intros l; [reflexivity|]. destruct l as [|x l]; [apply skipn_nil|]. cbn [skipn Nat.add]. apply IH. Qed.
Section Splice.
  Context (comments : list line -> option (list line)).
  Definition made (n : placed) (region : list line) (text : line) : Prop :=
    exists cs, comments region = Some cs /\
      let before := lstrip (firstn (first_col (fst n)) (hd [] region)) in
      let after := strip (skipn (last_col (fst n)) (last region [])) in
      text = indent (before ++ join_nl (cs ++ [snd n]) ++ after) (repeat blank_char (first_col (fst n) - length before)).
  Lemma nth_last (l : list line) : nth (length l - 1) l [] = last l [].
  Proof.
    induction l as [|x l IH]; [reflexivity|]. destruct l as [|y l]; [reflexivity|].
    change (length (x :: y :: l) - 1) with (S (length l)). change (length (y :: l) - 1) with (length l - 0) in IH. rewrite Nat.sub_0_r in IH.
    change (nth (S (length l)) (x :: y :: l) []) with (nth (length l) (y :: l) []). rewrite IH. reflexivity.
  Qed.
  Lemma edit_region pre region post n out : first_line (fst n) = S (length pre) -> last_line (fst n) = length pre + length region -> region <> [] ->
    edit comments (pre ++ region ++ post) n = Some out -> exists text, made n region text /\ out = pre ++ text :: post.
  Proof.
    intros F L NE. unfold edit, replacement. rewrite F, L. replace (S (length pre) - 1) with (length pre) by lia.
    replace (length pre + length region - length pre) with (length region) by lia.
    assert (S1 : skipn (length pre) (pre ++ region ++ post) = region ++ post) by (rewrite skipn_app, skipn_all, Nat.sub_diag; reflexivity).
    assert (S2 : firstn (length pre) (pre ++ region ++ post) = pre) by (rewrite firstn_app, firstn_all, Nat.sub_diag; cbn [firstn]; apply app_nil_r).
    assert (S3 : firstn (length region) (region ++ post) = region) by (rewrite firstn_app, firstn_all, Nat.sub_diag; cbn [firstn]; apply app_nil_r).
    assert (S4 : skipn (length pre + length region) (pre ++ region ++ post) = post).
    { rewrite app_assoc, <- app_length, skipn_app, skipn_all, Nat.sub_diag. reflexivity. }
    rewrite S1, S2, S3, S4. clear S1 S2 S3 S4.
    assert (N1 : nth (length pre) (pre ++ region ++ post) [] = hd [] region).
    { rewrite app_nth2, Nat.sub_diag by lia. destruct region; [congruence|reflexivity]. }
    assert (N2 : nth (length pre + length region - 1) (pre ++ region ++ post) [] = last region []).
    { assert (0 < length region) by (destruct region; [congruence|cbn; lia]). rewrite app_nth2 by lia. rewrite app_nth1 by lia.
      replace (length pre + length region - 1 - length pre) with (length region - 1) by lia. apply nth_last. }
    rewrite N1, N2. destruct (comments region) as [cs|] eqn:C; [|discriminate]. intros [= <-].
    eexists. split; [|reflexivity]. exists cs. split; [exact C|reflexivity].
  Qed.
  Lemma edits_app lines a b : edits comments lines (a ++ b) = match edits comments lines a with Some l => edits comments l b | None => None end.
  Proof.
    revert lines. induction a as [|n a IH]; intros lines; [reflexivity|]. cbn [app edits]. destruct (edit comments lines n); [apply IH|reflexivity].
  Qed.
  Lemma edits_spliced ns : forall pre src out, apart (length pre) ns -> Forall (fun n : placed => last_line (fst n) <= length pre + length src) ns ->
    edits comments (pre ++ src) (rev ns) = Some out -> exists out', out = pre ++ out' /\ spliced made (length pre) src ns out'.
  Proof.
    induction ns as [|n ns IH]; intros pre src out A B H.
    - cbn in H. injection H as <-. exists src. split; [reflexivity|constructor].
    - cbn [apart] in A. destruct A as (A1 & A2 & A3). inversion B as [|? ? B1 B2]; subst.
      set (kept := firstn (first_line (fst n) - 1 - length pre) src).
      set (region := firstn (last_line (fst n) - (first_line (fst n) - 1)) (skipn (first_line (fst n) - 1 - length pre) src)).
      set (rest := skipn (last_line (fst n) - length pre) src).
      assert (E : src = kept ++ region ++ rest).
      { unfold kept, region, rest. rewrite <- (firstn_skipn (first_line (fst n) - 1 - length pre) src) at 1. f_equal.
        rewrite <- (firstn_skipn (last_line (fst n) - (first_line (fst n) - 1)) (skipn (first_line (fst n) - 1 - length pre) src)) at 1. f_equal.
        rewrite skip_skip. f_equal. lia. }
      assert (Lk : length kept = first_line (fst n) - 1 - length pre) by (unfold kept; rewrite firstn_length; lia).
      assert (Lr : length region = last_line (fst n) - (first_line (fst n) - 1)) by (unfold region; rewrite firstn_length, skipn_length; lia).
      clearbody kept region rest. subst src. rewrite !app_length in B2. rewrite !app_length in B1.
      cbn [rev] in H. rewrite edits_app in H. destruct (edits comments (pre ++ kept ++ region ++ rest) (rev ns)) as [mid|] eqn:M; [|discriminate].
      replace (pre ++ kept ++ region ++ rest) with ((pre ++ kept ++ region) ++ rest) in M by (rewrite <- !app_assoc; reflexivity).
      assert (LL : length (pre ++ kept ++ region) = last_line (fst n)) by (rewrite !app_length; lia).
      apply IH in M; [|rewrite LL; exact A3|rewrite LL; eapply Forall_impl; [|exact B2]; cbn beta; intros a; lia].
      destruct M as (out' & -> & S). rewrite LL in S. cbn [edits] in H.
      destruct (edit comments ((pre ++ kept ++ region) ++ out') n) as [res|] eqn:R; [|discriminate]. injection H as <-.
      replace ((pre ++ kept ++ region) ++ out') with ((pre ++ kept) ++ region ++ out') in R by (rewrite <- !app_assoc; reflexivity).
      apply edit_region in R; [|rewrite app_length; lia|rewrite app_length; lia|destruct region; [cbn in Lr; lia|discriminate]].
      destruct R as (text & T & ->). exists (kept ++ text :: out'). split; [rewrite <- app_assoc; reflexivity|].
      apply spliced_node; [lia|lia|destruct region; [cbn in Lr; lia|discriminate]|exact T|exact S].
  Qed.
End Splice.
Lemma spliced_imp (P Q : placed -> list line -> line -> Prop) k src ns out : (forall n r t, P n r t -> Q n r t) -> spliced P k src ns out -> spliced Q k src ns out.
Proof. intros H. induction 1; [constructor|]. apply spliced_node; auto. Qed.

(** *** One replacement *)

Lemma bytes_app a b : bytes (a ++ b) = bytes a + bytes b.
Proof. induction a as [|c a IH]; [reflexivity|]. cbn [app bytes fold_right]. fold (bytes (a ++ b)) (bytes a). rewrite IH. lia. Qed.
Lemma bytes_one l : one_byte l -> bytes l = length l.
Proof.
  induction 1 as [|c l H _ IH]; [reflexivity|]. cbn [bytes fold_right length]. fold (bytes l). rewrite IH. unfold width. apply N.ltb_lt in H. rewrite H. reflexivity.
Qed.
Lemma lstrip_blank a b : blank a = true -> lstrip (a ++ b) = lstrip b.
Proof. induction a as [|c a IH]; [reflexivity|]. cbn [blank forallb app lstrip]. intros H. apply andb_true_iff in H. destruct H as [-> H]. apply IH. exact H. Qed.
Lemma lstrip_solid l : match l with [] => True | c :: _ => space c = false end -> lstrip l = l.
Proof. destruct l as [|c l]; [reflexivity|]. cbn [lstrip]. intros ->. reflexivity. Qed.
Lemma blank_rev l : blank (rev l) = blank l.
Proof.
  unfold blank. induction l as [|c l IH]; [reflexivity|]. cbn [rev forallb]. rewrite forallb_app. cbn [forallb]. rewrite IH, andb_true_r, andb_comm. reflexivity.
Qed.
Lemma blank_spaces n : blank (repeat blank_char n) = true.
Proof. induction n as [|n IH]; [reflexivity|]. cbn [repeat blank forallb]. exact IH. Qed.
Lemma strip_trimmed l t : trimmed l t -> strip l = t.
Proof.
  intros (a & b & -> & A & B & T). unfold strip, rstrip. rewrite lstrip_blank by exact A. destruct t as [|c t].
  - subst b. reflexivity.
  - destruct T as [T1 T2]. cbn [app lstrip]. rewrite T1. change (c :: t ++ b) with ((c :: t) ++ b). rewrite rev_app_distr, lstrip_blank by (rewrite blank_rev; exact B).
    destruct (exists_last (l := c :: t)) as (m & x & E); [discriminate|]. rewrite E in *. rewrite last_last in T2. rewrite rev_app_distr. cbn [rev app lstrip]. rewrite T2.
    cbn [rev]. rewrite rev_involutive. reflexivity.
Qed.
Lemma is_blank_ok l : is_blank l = blank l.
Proof.
  unfold is_blank, blank. induction l as [|c l IH]; [reflexivity|]. cbn [lstrip forallb]. destruct (space c); [exact IH|reflexivity].
Qed.
Lemma splitlines_cons cur c text : boundary c = false -> splitlines cur (c :: text) = splitlines (c :: cur) text.
Proof.
  intros B. assert (H : c <> 13%N) by (intros ->; discriminate). cbn [splitlines].
  destruct c as [|p]; [rewrite B; reflexivity|]. do 4 (try destruct p as [p|p|]); try (rewrite B; reflexivity); congruence.
Qed.
Lemma splitlines_line l : forall cur text, unbroken l -> splitlines cur (l ++ nl :: text) = (rev cur ++ l ++ [nl]) :: splitlines [] text.
Proof.
  induction l as [|c l IH]; intros cur text U.
  - reflexivity.
  - inversion U; subst. cbn [app]. rewrite splitlines_cons by assumption. rewrite IH by assumption. cbn [rev]. rewrite <- app_assoc. reflexivity.
Qed.
Lemma splitlines_last l : forall cur, unbroken l -> splitlines cur l = match rev cur ++ l with [] => [] | x => [x] end.
Proof.
  induction l as [|c l IH]; intros cur U.
  - rewrite app_nil_r. cbn [splitlines]. destruct cur as [|c cur]; [reflexivity|]. destruct (rev (c :: cur)) eqn:E; [|reflexivity].
    apply (f_equal (@length N)) in E. rewrite rev_length in E. discriminate.
  - inversion U; subst. rewrite splitlines_cons by assumption. rewrite IH by assumption. cbn [rev]. rewrite <- app_assoc. reflexivity.
Qed.
Lemma blank_app a b : blank (a ++ b) = blank a && blank b.
Proof. apply forallb_app. Qed.
Lemma indent_lines ls n : Forall unbroken ls -> indent (join_nl ls) (repeat blank_char n) = join_nl (indented n ls).
Proof.
  induction 1 as [|l ls U F IH]; [reflexivity|]. destruct ls as [|m ls].
  - cbn [join_nl indented map]. unfold indent. rewrite splitlines_last by exact U. cbn [rev app]. destruct l as [|c l]; [reflexivity|].
    cbn [map concat]. rewrite app_nil_r, is_blank_ok. reflexivity.
  - change (join_nl (l :: m :: ls)) with (l ++ nl :: join_nl (m :: ls)). unfold indent in *. rewrite splitlines_line by exact U. cbn [rev app map concat]. rewrite IH.
    rewrite is_blank_ok, blank_app. change (blank [nl]) with true. rewrite andb_true_r.
    change (indented n (l :: m :: ls)) with ((if blank l then l else repeat blank_char n ++ l) :: indented n (m :: ls)).
    change (indented n (m :: ls)) with ((if blank m then m else repeat blank_char n ++ m) :: indented n ls) at 2.
    cbn [join_nl]. fold (join_nl ((if blank m then m else repeat blank_char n ++ m) :: indented n ls)).
    destruct (blank l); rewrite <- !app_assoc; reflexivity.
Qed.
Lemma join_app l r : l <> [] -> r <> [] -> join_nl (l ++ r) = join_nl l ++ nl :: join_nl r.
Proof.
  intros A B. induction l as [|x l IH]; [congruence|]. destruct l as [|y l].
  - cbn [app join_nl]. destruct r; [congruence|reflexivity].
  - change ((x :: y :: l) ++ r) with (x :: (y :: l) ++ r). change (join_nl (x :: (y :: l) ++ r)) with (x ++ nl :: join_nl ((y :: l) ++ r)). rewrite IH by discriminate.
    change (join_nl (x :: y :: l)) with (x ++ nl :: join_nl (y :: l)). rewrite <- app_assoc. reflexivity.
Qed.
Lemma join_last l x y : join_nl (l ++ [x ++ y]) = join_nl (l ++ [x]) ++ y.
Proof.
  destruct l as [|a l]; [reflexivity|]. rewrite !(join_app (a :: l)) by discriminate. cbn [join_nl]. rewrite <- !app_assoc. reflexivity.
Qed.
Lemma join_first x l r : join_nl ((x ++ l) :: r) = x ++ join_nl (l :: r).
Proof. destruct r as [|m r]; [reflexivity|]. cbn [join_nl]. rewrite <- app_assoc. reflexivity. Qed.
Lemma between_join b ls a : ls <> [] -> b ++ join_nl ls ++ a = join_nl (between b ls a).
Proof.
  intros NE. destruct ls as [|l r]; [congruence|]. unfold between. destruct (rev r) as [|x mid] eqn:E.
  - assert (r = []) as -> by (rewrite <- (rev_involutive r), E; reflexivity). reflexivity.
  - assert (r = rev mid ++ [x]) as -> by (rewrite <- (rev_involutive r), E; reflexivity).
    change ((b ++ l) :: rev mid ++ [x ++ a]) with (((b ++ l) :: rev mid) ++ [x ++ a]). rewrite join_last. cbn [app]. rewrite join_first, <- app_assoc. reflexivity.
Qed.
Lemma between_unbroken b ls a : unbroken b -> unbroken a -> Forall unbroken ls -> Forall unbroken (between b ls a).
Proof.
  intros B A F. unfold between. destruct F as [|l r U F]; [constructor; [apply Forall_app; split; assumption|constructor]|].
  destruct (rev r) as [|x mid] eqn:E.
  - constructor; [|constructor]. apply Forall_app. split; [exact B|]. apply Forall_app. split; assumption.
  - assert (r = rev mid ++ [x]) as -> by (rewrite <- (rev_involutive r), E; reflexivity). apply Forall_app in F. destruct F as [F1 F2]. inversion F2; subst.
    constructor; [apply Forall_app; split; assumption|]. apply Forall_app. split; [exact F1|]. constructor; [|constructor]. apply Forall_app. split; assumption.
Qed.
Lemma firstn_length_app {A} (a b : list A) : firstn (length a) (a ++ b) = a.
Proof. rewrite firstn_app, firstn_all, Nat.sub_diag. cbn [firstn]. apply app_nil_r. Qed.
Lemma skipn_length_app {A} (a b : list A) : skipn (length a) (a ++ b) = b.
Proof. rewrite skipn_app, skipn_all, Nat.sub_diag. reflexivity. Qed.
Lemma made_written comments n region text : made comments n region text -> written comments n region text.
Proof.
  intros (cs' & C' & ->). intros cs ind before rest front after code_lines after' C Code NE Hd Col Solid La LCol Tr O1 O2 U1 U2 Uc Ucode.
  rewrite C in C'. injection C' as <-. rewrite (bytes_one _ O1) in Col. rewrite (bytes_one _ O2) in LCol.
  rewrite Hd, La. rewrite (app_assoc (repeat blank_char ind) before rest). rewrite <- Col, <- LCol, firstn_length_app, skipn_length_app. rewrite (strip_trimmed _ _ Tr).
  rewrite lstrip_blank by apply blank_spaces. rewrite lstrip_solid by exact Solid.
  rewrite app_length, repeat_length. replace (ind + length before - length before) with ind by lia.
  assert (J : join_nl (cs ++ [snd n]) = join_nl (cs ++ code_lines)).
  { rewrite Code. destruct cs as [|c cs]; [reflexivity|]. rewrite !(join_app (c :: cs)) by (assumption || discriminate). reflexivity. }
  rewrite J, between_join by (destruct cs, code_lines; (congruence || discriminate)). apply indent_lines. apply between_unbroken; [exact U1| |apply Forall_app; split; assumption].
  destruct Tr as (a & b & -> & _). apply Forall_app in U2. destruct U2 as [_ U2]. apply Forall_app in U2. apply U2.
Qed.

(** ** C81 *)

(** The text outside the lines of the rewritten nodes is kept. These nodes share no lines; what replaces the lines of one is
    [written]. Every changed call is in a node that starts on its line, and this node is rewritten or starts on a line of one that is. *)
Theorem C81_lines comments lines changed out :
  (forall l, In l changed -> well_placed lines l) -> (forall l, In l changed -> nested l) ->
  rewrite comments lines changed = Some out ->
  exists chosen, spliced (written comments) 0 lines chosen out /\
    (forall m, In m chosen -> exists l n, In l changed /\ In n l /\ position n = Some (fst m) /\ code n = snd m) /\
    (forall call parents, In (call :: parents) changed -> exists s n s' m, position call = Some s /\
       In n (call :: parents) /\ position n = Some s' /\ inside s s' /\ first_line s' = first_line s /\
       In m chosen /\ (m = (s', code n) \/ first_line (fst m) <= first_line s' <= last_line (fst m))).
Proof.
  intros W Ne H. unfold rewrite in H. destruct (candidates changed) as [ns|] eqn:C; [|discriminate]. apply candidates_in in C. destruct C as [C1 C2].
  unfold outermost in H. pose proof (sort_perm ns) as SP. pose proof (sort_sorted ns) as SS. destruct (sort ns) as [|x r]; [discriminate|].
  assert (Sub : forall m, In m (x :: outer x r) -> In m ns).
  { intros m [<-|I]; (eapply Permutation_in; [symmetry; exact SP|]); [left; reflexivity|right; eapply outer_in; exact I]. }
  assert (Pos : forall m, In m ns -> 1 <= first_line (fst m) /\ first_line (fst m) <= last_line (fst m) /\ last_line (fst m) <= length lines).
  { intros m I. destruct (C2 m I) as (l & L & E). destruct (candidate_node _ _ E) as (n & N & P & _). apply (W l L n _ N P). }
  exists (x :: outer x r). split; [|split].
  - destruct (edits_spliced comments (x :: outer x r) [] lines out) as (out' & -> & S); [| |exact H|].
    + cbn [apart length]. destruct (Pos x (Sub x (or_introl eq_refl))) as (P1 & P2 & _). split; [lia|split; [exact P2|]]. apply outer_apart.
      apply Forall_forall. intros m I. apply Pos. eapply Permutation_in; [symmetry; exact SP|right; exact I].
    + apply Forall_forall. intros m I. cbn [length]. apply Pos. apply Sub. exact I.
    + eapply spliced_imp; [|exact S]. intros. apply made_written. assumption.
  - intros m I. destruct (C2 m (Sub m I)) as (l & L & E). destruct (candidate_node _ _ E) as (n & N & P & K). exists l, n. split; [exact L|split; [exact N|split; [exact P|exact K]]].
  - intros call parents I. destruct (C1 _ I) as (c & E & J). destruct (Ne _ I) as (s & P & In_).
    unfold candidate in E. rewrite P in E. destruct (closest (first_line s) (call :: parents)) as [n|] eqn:K; [|discriminate].
    pose proof (closest_in _ _ _ K) as N. destruct (closest_line _ _ _ K) as (s' & P' & L); [exists call, s, parents; split; [reflexivity|split; [exact P|lia]]|].
    rewrite P' in E. injection E as <-. specialize (In_ n s' N P').
    destruct (outer_covers x r (s', code n) SS) as (m & M & Q); [eapply Permutation_in; [exact SP|exact J]|].
    exists s, n, s', m. split; [exact P|split; [exact N|split; [exact P'|split; [exact In_|split; [|split; [exact M|exact Q]]]]]].
    destruct In_ as [In_ _]. lia.
Qed.
(** The tool does not fail if the calls are in a module (which has no position) and the tokenizer accepts the lines of the nodes. *)
Theorem C81_no_failure comments lines changed : changed <> [] -> (forall ls, comments ls <> None) ->
  (forall l, In l changed -> exists call mid m, l = call :: mid ++ [m] /\ position call <> None /\ position m = None) ->
  rewrite comments lines changed <> None.
Proof.
  intros NE C L. unfold rewrite.
  assert (Cl : forall ln mid cur m, position m = None -> position cur <> None ->
    exists n, closest ln (cur :: mid ++ [m]) = Some n /\ position n <> None).
  { intros ln mid. induction mid as [|d mid IH]; intros cur m M P.
    - exists cur. cbn. unfold stops. rewrite M. split; [reflexivity|exact P].
    - cbn [app closest]. destruct (stops ln d) eqn:S; [exists cur; split; [reflexivity|exact P]|]. apply IH; [exact M|]. unfold stops in S. destruct (position d); discriminate. }
  assert (Ca : exists ns, candidates changed = Some ns /\ ns <> []).
  { clear C. induction changed as [|c r IH]; [congruence|]. destruct (L c (or_introl eq_refl)) as (call & mid & m & -> & P & M). cbn [candidates].
    assert (exists n, candidate (call :: mid ++ [m]) = Some n) as (n & ->).
    { unfold candidate. destruct (position call) as [s|] eqn:E; [|congruence]. destruct (Cl (first_line s) mid call m M) as (n & -> & Q); [rewrite E; discriminate|].
      destruct (position n) as [s'|]; [exists (s', code n); reflexivity|congruence]. }
    destruct r as [|c' r]; [exists [n]; split; [reflexivity|discriminate]|]. destruct IH as (ns & -> & _); [discriminate|intros l I; apply L; right; exact I|].
    exists (n :: ns). split; [reflexivity|discriminate]. }
  destruct Ca as (ns & -> & N). unfold outermost. pose proof (sort_perm ns) as SP. destruct (sort ns) as [|x r]; [apply Permutation_sym, Permutation_nil in SP; congruence|].
  generalize (rev (x :: outer x r)) as l. intros l. revert lines. induction l as [|n l IH]; intros lines; [discriminate|]. cbn [edits]. unfold edit, replacement.
  destruct (comments _) eqn:E; [apply IH|]. destruct (C _ E).
Qed.

(** ** Examples *)

From Coq Require Import String Ascii.
Fixpoint chars (s : string) : line := match s with EmptyString => [] | String c r => N_of_ascii c :: chars r end.
Definition at_ (a b c d : nat) (code : string) : node := {| position := Some {| first_line := a; first_col := b; last_line := c; last_col := d |}; is_def := false; code := chars code |}.
Definition def_at (a b c d : nat) : node := {| position := Some {| first_line := a; first_col := b; last_line := c; last_col := d |}; is_def := true; code := [] |}.
Definition module : node := {| position := None; is_def := false; code := [] |}.
(** Comments, in lines without strings that contain [#]. *)
Fixpoint comment_of (l : line) : option line := match l with [] => None | c :: r => if (c =? 35)%N then Some l else comment_of r end.
Definition find_comments (ls : list line) : option (list line) :=
  Some (flat_map (fun l => match comment_of l with Some c => [c] | None => [] end) ls).

Definition list_before : list line := map chars ["x = ["; "    html.p('a', key=1),"; "    1,  # one"; "    html.p('b', key=2),"; "]"]%string.
Definition list_changed : list (list node) :=
  [[at_ 2 4 2 22 "html.p({'key': 1}, 'a')"; at_ 1 4 5 1 ""; at_ 1 0 5 1 ""; module];
   [at_ 4 4 4 22 "html.p({'key': 2}, 'b')"; at_ 1 4 5 1 ""; at_ 1 0 5 1 ""; module]].
Definition inside_b (a b : span) : bool :=
  (Nat.ltb (first_line b) (first_line a) || Nat.eqb (first_line b) (first_line a) && Nat.leb (first_col b) (first_col a)) &&
  (Nat.ltb (last_line a) (last_line b) || Nat.eqb (last_line a) (last_line b) && Nat.leb (last_col a) (last_col b)).
Definition placed_b (lines : list line) (l : list node) : bool :=
  forallb (fun n => match position n with Some s => Nat.leb 1 (first_line s) && Nat.leb (first_line s) (last_line s) && Nat.leb (last_line s) (List.length lines) | None => true end) l.
Definition nested_b (l : list node) : bool :=
  match l with
  | call :: _ => match position call with Some s => forallb (fun n => match position n with Some s' => inside_b s s' | None => true end) l | None => false end
  | [] => false
  end.
Lemma placed_sound lines changed : forallb (placed_b lines) changed = true -> forall l, In l changed -> well_placed lines l.
Proof.
  intros H l I n s J P. rewrite forallb_forall in H. specialize (H l I). unfold placed_b in H. rewrite forallb_forall in H. specialize (H n J). rewrite P in H.
  rewrite !andb_true_iff, !Nat.leb_le in H. lia.
Qed.
Lemma nested_sound changed : forallb nested_b changed = true -> forall l, In l changed -> nested l.
Proof.
  intros H l I. rewrite forallb_forall in H. specialize (H l I). unfold nested_b, nested in *. destruct l as [|c r]; [discriminate|]. destruct (position c) as [s|]; [|discriminate].
  exists s. split; [reflexivity|]. intros n s' J P. rewrite forallb_forall in H. specialize (H n J). rewrite P in H. unfold inside_b in H. unfold inside.
  rewrite andb_true_iff, !orb_true_iff, !andb_true_iff, !Nat.ltb_lt, !Nat.eqb_eq, !Nat.leb_le in H. exact H.
Qed.
Example C81_list : (forall l, In l list_changed -> well_placed list_before l) /\ (forall l, In l list_changed -> nested l) /\
  rewrite find_comments list_before list_changed = Some (map chars ["x = ["; "    html.p({'key': 1}, 'a'),"; "    1,  # one"; "    html.p({'key': 2}, 'b'),"; "]"]%string).
Proof. split; [apply placed_sound; reflexivity|split; [apply nested_sound; reflexivity|vm_compute; reflexivity]]. Qed.
(** One that moves comments and has text before and after. *)
Example C81_comments :
  let before := map chars ["  y = f(x,"; "    html.p('a',  # first"; "      key=1), 2)"]%string in
  let changed := [[at_ 2 4 3 12 "html.p({'key': 1}, 'a')"; at_ 1 6 3 16 ""; at_ 1 2 3 16 ""; module]] in
  (forall l, In l changed -> well_placed before l) /\ (forall l, In l changed -> nested l) /\
  rewrite find_comments before changed = Some [chars "  y = f(x,"; chars "    # first" ++ nl :: chars "    html.p({'key': 1}, 'a'), 2)"].
Proof. split; [apply placed_sound; reflexivity|split; [apply nested_sound; reflexivity|vm_compute; reflexivity]]. Qed.

(** What [written] says about it. *)
Example C81_written text :
  written find_comments ({| first_line := 2; first_col := 4; last_line := 3; last_col := 12 |}, chars "html.p({'key': 1}, 'a')")
    [chars "    html.p('a',  # first"; chars "      key=1), 2)  "] text ->
  text = chars "    # first" ++ nl :: chars "    html.p({'key': 1}, 'a'), 2)".
Proof.
  intros H. rewrite (H [chars "# first"] 4 [] (chars "html.p('a',  # first") (chars "      key=1)") (chars ", 2)  ") [chars "html.p({'key': 1}, 'a')"] (chars ", 2)"));
    try (vm_compute; reflexivity); try discriminate; try exact I; try (repeat constructor; fail).
  exists [], (chars "  "). split; [reflexivity|split; [reflexivity|split; [reflexivity|split; reflexivity]]].
Qed.

(** ** Findings *)

(** Columns count bytes but are used for characters: after a letter that is not in ASCII (233) the comma is lost. *)
Theorem C81_bytes_refuted : exists lines changed,
  (forall l, In l changed -> well_placed lines l) /\ (forall l, In l changed -> nested l) /\
  lines = [chars "x = ["; chars "    html.p('" ++ [233%N] ++ chars "', key=1),"; chars "    2,"; chars "]"] /\
  rewrite find_comments lines changed = Some [chars "x = ["; chars "    html.p({'key': 1}, '" ++ [233%N] ++ chars "')"; chars "    2,"; chars "]"].
Proof.
  eexists. exists [[{| position := Some {| first_line := 2; first_col := 4; last_line := 2; last_col := 23 |}; is_def := false; code := chars "html.p({'key': 1}, '" ++ [233%N] ++ chars "')" |};
    at_ 1 4 4 1 ""; at_ 1 0 4 1 ""; module]].
  split; [apply placed_sound|split; [apply nested_sound|split; [reflexivity|]]]; vm_compute; reflexivity.
Qed.
(** Tabs become as many spaces, which is another indentation. *)
Theorem C81_tab_refuted : exists lines changed,
  (forall l, In l changed -> well_placed lines l) /\ (forall l, In l changed -> nested l) /\
  lines = [chars "def f():"; 9%N :: chars "x = 1"; 9%N :: chars "return html.p('a', key=x)"] /\
  rewrite find_comments lines changed = Some [chars "def f():"; 9%N :: chars "x = 1"; chars " return html.p({'key': x}, 'a')"].
Proof.
  eexists. exists [[at_ 3 8 3 26 ""; at_ 3 1 3 26 "return html.p({'key': x}, 'a')"; def_at 1 0 3 26; module]].
  split; [apply placed_sound|split; [apply nested_sound|split; [reflexivity|]]]; vm_compute; reflexivity.
Qed.
(** A comment after a function in one line takes the body out of the function, and is there twice. *)
Theorem C81_comment_refuted : exists lines changed,
  (forall l, In l changed -> well_placed lines l) /\ (forall l, In l changed -> nested l) /\
  lines = [chars "def f(): return html.p('a', key=1)  # c"] /\
  rewrite find_comments lines changed = Some [chars "def f(): # c" ++ nl :: chars "return html.p({'key': 1}, 'a')# c"].
Proof.
  eexists. exists [[at_ 1 16 1 34 ""; at_ 1 9 1 34 "return html.p({'key': 1}, 'a')"; def_at 1 0 1 34; module]].
  split; [apply placed_sound|split; [apply nested_sound|split; [reflexivity|]]]; vm_compute; reflexivity.
Qed.
(** Of two statements on one line only the first is rewritten. *)
Theorem C81_same_line_refuted : exists lines changed,
  (forall l, In l changed -> well_placed lines l) /\ (forall l, In l changed -> nested l) /\
  lines = [chars "a = html.p('a', key=1); b = html.p('b', key=2)"] /\
  rewrite find_comments lines changed = Some [chars "a = html.p({'key': 1}, 'a'); b = html.p('b', key=2)"].
Proof.
  eexists. exists [[at_ 1 4 1 22 ""; at_ 1 0 1 22 "a = html.p({'key': 1}, 'a')"; module]; [at_ 1 28 1 46 ""; at_ 1 24 1 46 "b = html.p({'key': 2}, 'b')"; module]].
  split; [apply placed_sound|split; [apply nested_sound|split; [reflexivity|]]]; vm_compute; reflexivity.
Qed.
(** The position of a function does not include its decorators, so [nested] does not hold for calls in them. For an [async]
    function this is not taken care of: the decorator is applied twice. *)
Theorem C81_decorator_refuted : exists lines changed, (forall l, In l changed -> well_placed lines l) /\
  lines = map chars ["@deco(html.p('a', key=1))"; "async def f():"; "    pass"]%string /\
  rewrite find_comments lines changed = Some [chars "@deco(html.p('a', key=1))"; join_nl (map chars ["@deco(html.p({'key': 1}, 'a'))"; "async def f():"; "    pass"]%string)].
Proof.
  eexists. exists [[at_ 1 6 1 24 ""; at_ 1 1 1 25 "";
    {| position := Some {| first_line := 2; first_col := 0; last_line := 3; last_col := 8 |}; is_def := false;
       code := join_nl (map chars ["@deco(html.p({'key': 1}, 'a'))"; "async def f():"; "    pass"]%string) |}; module]].
  split; [apply placed_sound|split; [reflexivity|]]; vm_compute; reflexivity.
Qed.

Print Assumptions C81_lines.
Print Assumptions C81_no_failure.
Print Assumptions C81_bytes_refuted.
Print Assumptions C81_tab_refuted.
Print Assumptions C81_comment_refuted.
Print Assumptions C81_same_line_refuted.
Print Assumptions C81_decorator_refuted.
