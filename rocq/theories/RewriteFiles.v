(** * The files that the rewriting commands write
    [reactpy rewrite-keys] and [reactpy rewrite-props] (/repo/src/reactpy/_console/rewrite_keys.py, rewrite_props.py): which files are read, what is written
    to them, and what is on the disk if the command stops at any moment. What is written for a source text is a parameter (C80, C81). *)
From Coq Require Import String NArith Bool Arith Lia List ZArith.
Import ListNotations.
Local Open Scope N_scope.

(** ** Text and bytes *)

(** A text is a list of code points, a file a list of bytes. *)
Definition text := list N.
Definition bytes := list N.
Definition surrogate (c : N) : bool := (55296 <=? c) && (c <=? 57343).
Definition cont (b : N) : bool := (128 <=? b) && (b <=? 191).
(** The UTF-8 codec of Python ("strict"): surrogates cannot be written. *)
Definition utf8 (c : N) : option bytes :=
  if c <? 128 then Some [c]
  else if c <? 2048 then Some [192 + c / 64; 128 + c mod 64]
  else if c <? 65536 then (if surrogate c then None else Some [224 + c / 4096; 128 + (c / 64) mod 64; 128 + c mod 64])
  else if c <? 1114112 then Some [240 + c / 262144; 128 + (c / 4096) mod 64; 128 + (c / 64) mod 64; 128 + c mod 64]
  else None.
Definition latin1 (c : N) : option bytes := if c <? 256 then Some [c] else None.
Definition onto (c : N) (r : option text) : option text := match r with Some l => Some (c :: l) | None => None end.
Fixpoint decode (l : bytes) : option text :=
  match l with
  | [] => Some []
  | b :: r =>
    if b <? 128 then onto b (decode r)
    else match r with
    | [] => None
    | c :: r =>
      if negb (cont c) then None
      else if (194 <=? b) && (b <? 224) then onto ((b - 192) * 64 + (c - 128)) (decode r)
      else match r with
      | [] => None
      | d :: r =>
        if negb (cont d) then None
        else if (224 <=? b) && (b <? 240) then
          let v := (b - 224) * 4096 + (c - 128) * 64 + (d - 128) in if (v <? 2048) || surrogate v then None else onto v (decode r)
        else match r with
        | [] => None
        | e :: r =>
          if negb (cont e) then None
          else if (240 <=? b) && (b <? 248) then
            let v := (b - 240) * 262144 + (c - 128) * 4096 + (d - 128) * 64 + (e - 128) in
            if (v <? 65536) || (1114111 <? v) then None else onto v (decode r)
          else None
        end
      end
    end
  end.
(** A machine: the encoding of its locale, one character at a time, and whether lines end with two characters. *)
Record machine := Machine { m_encode : N -> option bytes; m_crlf : bool }.
Fixpoint encode (f : N -> option bytes) (t : text) : option bytes :=
  match t with
  | [] => Some []
  | c :: r => match f c, encode f r with Some x, Some y => Some (x ++ y) | _, _ => None end
  end.
(** [open] in text mode: "\r\n" and "\r" are read as "\n"; "\n" is written as [os.linesep]. *)
Fixpoint newlines (t : text) : text :=
  match t with
  | [] => []
  | c :: r => if c =? 13 then match r with d :: _ => if d =? 10 then newlines r else 10 :: newlines r | [] => [10] end
              else c :: newlines r
  end.
Definition ends (crlf : bool) (t : text) : text := if crlf then flat_map (fun c => if c =? 10 then [13; 10] else [c]) t else t.

(** ** The commands *)

Definition path := list string.
Inductive node := Folder | File (b : bytes).
Definition disk := path -> option node.
Definition path_eq (a b : path) : {a = b} + {a <> b} := list_eq_dec string_dec a b.
Definition set (d : disk) (p : path) (n : node) : disk := fun q => if path_eq p q then Some n else d q.
(** What reaches the disk, a byte at a time: opening a file for writing empties it. *)
Inductive act := Empty (p : path) | Add (p : path) (b : N).
Definition do_act (d : disk) (a : act) : disk :=
  match a with
  | Empty p => set d p (File [])
  | Add p b => match d p with Some (File l) => set d p (File (l ++ [b])) | _ => d end
  end.
Definition after (d : disk) (l : list act) : disk := fold_left do_act l d.

(** [generate_rewrite] (rewrite_keys.py:55-66, rewrite_props.py:30-41): it raises (a source that does not parse), returns [None] or the new source. *)
Inductive generated := Broken | Same | New (t : text).
Inductive failure := NoPath | IsFolder | NotUtf8 | BadSource | CannotEncode.
Inductive ending := Finished | Failed (e : failure).

(** [p.rglob("*.py")] names everything below [p] with such a name, folders too. *)
Fixpoint below (p q : path) : bool :=
  match p, q with
  | [], _ :: _ => true
  | x :: p', y :: q' => String.eqb x y && below p' q'
  | _, [] => false
  end.
Fixpoint py (s : string) : bool :=
  match s with EmptyString => false | String _ r => String.eqb s ".py" || py r end.
Definition last_name (q : path) : string := last q EmptyString.

Section Command.
Variables (m : machine) (gen : text -> generated).
(** [for f in [p] if p.is_file() else p.rglob("*.py")] (rewrite_keys.py:48-49, rewrite_props.py:22-24). [names]: what is on the disk, in the order in which
    it is listed. Simplified: no symbolic links; nothing else changes the disk. *)
Definition files_of (d : disk) (names : list path) (p : path) : list path :=
  match d p with Some (File _) => [p] | _ => filter (fun q => below p q && py (last_name q)) names end.
(** The body of the loop (rewrite_keys.py:50-52, rewrite_props.py:25-27): what it writes, and the rest. [write_text] opens the file before it encodes. *)
Fixpoint work (d : disk) (todo : list path) : list act * ending :=
  match todo with
  | [] => ([], Finished)
  | p :: rest =>
    match d p with
    | Some (File b) =>
      match decode b with
      | None => ([], Failed NotUtf8)
      | Some t =>
        match gen (newlines t) with
        | Broken => ([], Failed BadSource)
        | Same => work d rest
        | New s =>
          match encode (m_encode m) (ends (m_crlf m) s) with
          | None => ([Empty p], Failed CannotEncode)
          | Some b' => let a := Empty p :: map (Add p) b' in let '(l, e) := work (after d a) rest in (a ++ l, e)
          end
        end
      end
    | Some Folder => ([], Failed IsFolder)
    | None => ([], Failed NoPath)
    end
  end.
(** [click.Path(exists=True)] (rewrite_keys.py:17, rewrite_props.py:19) looks at all paths first. *)
Definition command (d : disk) (names paths : list path) : list act * ending :=
  if forallb (fun p => match d p with Some _ => true | None => false end) paths then work d (flat_map (files_of d names) paths)
  else ([], Failed NoPath).

(** ** What is said about them *)

(** What a file with these bytes should have afterwards. *)
Inductive becomes (b : bytes) : bytes -> Prop :=
| Kept t : decode b = Some t -> gen (newlines t) = Same -> becomes b b
| Changed t s b' : decode b = Some t -> gen (newlines t) = New s -> encode (m_encode m) (ends (m_crlf m) s) = Some b' -> becomes b b'.
(** The files that a command is given: by name, or Python files in a folder. *)
Definition chosen (d : disk) (paths : list path) (p : path) : Prop :=
  (exists n, d p = Some n) /\
  ((In p paths /\ exists b, d p = Some (File b)) \/
   exists a rest stem, In a paths /\ d a = Some Folder /\ p = a ++ rest /\ rest <> [] /\ last p EmptyString = (stem ++ ".py")%string).
(** [names] lists the disk. *)
Definition lists (names : list path) (d : disk) : Prop := NoDup names /\ forall p, In p names <-> exists n, d p = Some n.
(** No path is given twice, or inside another one. *)
Definition apart (paths : list path) : Prop := NoDup paths /\ forall a b rest, In a paths -> In b paths -> b = a ++ rest -> rest = [].
(** A rewritten file is not rewritten again. *)
Definition settled : Prop := forall b b', becomes b b' -> becomes b' b'.

Lemma becomes_det b x y : becomes b x -> becomes b y -> x = y.
Proof. intros H1 H2. destruct H1 as [t A B|t u b' A B C]; destruct H2 as [t2 D E|t2 u2 b2 D E F]; auto; rewrite A in D; injection D as <-; rewrite B in E; congruence. Qed.
Lemma below_spec p : forall q, below p q = true <-> exists rest, rest <> [] /\ q = p ++ rest.
Proof.
  induction p as [|x p IH]; intros q.
  - destruct q as [|y q]; cbn; [split; [discriminate|intros [r [A B]]; destruct r; [tauto|discriminate]]|].
    split; auto. intros _. exists (y :: q). split; [discriminate|reflexivity].
  - destruct q as [|y q]; cbn [below]; [split; [discriminate|intros [r [A B]]; discriminate]|].
    rewrite andb_true_iff, String.eqb_eq, IH. split.
    + intros [-> [r [A ->]]]. exists r. auto.
    + intros [r [A B]]. injection B as -> ->. split; auto. exists r. auto.
Qed.
Lemma py_spec s : py s = true <-> exists stem, s = (stem ++ ".py")%string.
Proof.
  induction s as [|c s IH]; cbn [py].
  - split; [discriminate|]. intros [[|] A]; discriminate.
  - rewrite orb_true_iff, String.eqb_eq, IH. split.
    + intros [->|[r ->]]; [exists EmptyString; reflexivity|]. exists (String c r). reflexivity.
    + intros [[|a r] A]; [left; exact A|]. injection A as -> ->. right. exists r. reflexivity.
Qed.
Lemma set_same d p n : set d p n p = Some n.
Proof. unfold set. destruct (path_eq p p); congruence. Qed.
Lemma set_other d p n q : q <> p -> set d p n q = d q.
Proof. unfold set. destruct (path_eq p q); congruence. Qed.
Lemma after_app d a b : after d (a ++ b) = after (after d a) b.
Proof. apply fold_left_app. Qed.
Lemma after_adds p l : forall d x, d p = Some (File x) -> after d (map (Add p) l) p = Some (File (x ++ l)) /\ forall q, q <> p -> after d (map (Add p) l) q = d q.
Proof.
  induction l as [|b l IH]; intros d x E; cbn [map]; unfold after; cbn [fold_left].
  - rewrite app_nil_r. auto.
  - fold (after (do_act d (Add p b)) (map (Add p) l)). destruct (IH (do_act d (Add p b)) (x ++ [b])) as [A B].
    + cbn [do_act]. rewrite E. apply set_same.
    + split; [rewrite A, <- app_assoc; reflexivity|]. intros q Q. rewrite (B q Q). cbn [do_act]. rewrite E. apply set_other. exact Q.
Qed.
(** Writing a file, stopped at any moment. *)
Lemma write_stops d p l k : let c := after d (firstn k (Empty p :: map (Add p) l)) in
  (forall q, q <> p -> c q = d q) /\ (k = O /\ c p = d p \/ c p = Some (File (firstn (pred k) l))).
Proof.
  destruct k as [|k]; cbn [firstn]; cbv zeta; [unfold after; cbn; auto|]. rewrite firstn_map.
  change (after d (Empty p :: map (Add p) (firstn k l))) with (after (set d p (File [])) (map (Add p) (firstn k l))).
  destruct (after_adds p (firstn k l) (set d p (File [])) []) as [A B]; [apply set_same|]. split.
  - intros q Q. rewrite (B q Q). apply set_other. exact Q.
  - right. rewrite A. reflexivity.
Qed.
Lemma write_all d p l : after d (Empty p :: map (Add p) l) p = Some (File l) /\ forall q, q <> p -> after d (Empty p :: map (Add p) l) q = d q.
Proof.
  destruct (write_stops d p l (S (length l))) as [A B]. rewrite firstn_all2 in * by (cbn; rewrite map_length; lia). split; auto.
  destruct B as [[B _]|B]; [discriminate|]. cbn [pred] in B. rewrite firstn_all in B. exact B.
Qed.

(** The files of [done] are rewritten, apart from [q] nothing else is changed, and [q] is being written. *)
Definition right_at (d0 c : disk) (done : list path) (p : path) : Prop :=
  (In p done -> exists b b', d0 p = Some (File b) /\ becomes b b' /\ c p = Some (File b')) /\ (~ In p done -> c p = d0 p).
Definition stage (d0 c : disk) (done : list path) : Prop := forall p, right_at d0 c done p.
Definition torn (d0 c : disk) (done : list path) (q : path) : Prop :=
  (forall p, p <> q -> right_at d0 c done p) /\
  exists b, d0 q = Some (File b) /\ (c q = Some (File []) \/ exists b' j, becomes b b' /\ c q = Some (File (firstn j b'))).

Lemma stage_kept d0 cur done p b : stage d0 cur done -> cur p = Some (File b) -> becomes b b -> stage d0 cur (done ++ [p]).
Proof.
  intros I E K x. split.
  - intros X. apply in_app_or in X. destruct X as [X|[X|[]]]; [apply (I x), X|]. subst x.
    destruct (in_dec path_eq p done) as [D|D]; [apply (I p), D|]. exists b, b. rewrite <- (proj2 (I p) D). auto.
  - intros X. apply (I x). intros Y. apply X, in_or_app. auto.
Qed.
(** What the disk was for a file that is now being read. *)
Lemma stage_source d0 cur done p b b' : stage d0 cur done -> cur p = Some (File b) -> becomes b b' -> ~ In p done \/ settled ->
  exists b0, d0 p = Some (File b0) /\ becomes b0 b'.
Proof.
  intros I E K O. destruct (in_dec path_eq p done) as [D|D].
  - destruct O as [O|O]; [tauto|]. destruct (proj1 (I p) D) as [b0 [b1 [A [B C]]]]. rewrite C in E. injection E as <-.
    exists b0. split; auto. rewrite (becomes_det b1 b' b1 K (O b0 b1 B)). exact B.
  - exists b. rewrite <- (proj2 (I p) D). auto.
Qed.

Lemma work_stages todo : forall d0 cur done, stage d0 cur done -> NoDup (done ++ todo) \/ settled -> forall acts e, work cur todo = (acts, e) ->
  (forall k, exists before rest, todo = before ++ rest /\
     (stage d0 (after cur (firstn k acts)) (done ++ before) \/
      exists q rest', rest = q :: rest' /\ torn d0 (after cur (firstn k acts)) (done ++ before) q)) /\
  (e = Finished -> stage d0 (after cur acts) (done ++ todo)) /\
  (forall f, e = Failed f -> exists before q rest, todo = before ++ q :: rest /\
     (forall p, p <> q -> right_at d0 (after cur acts) (done ++ before) p) /\ ~ (exists b b', d0 q = Some (File b) /\ becomes b b')).
Proof.
  induction todo as [|p rest IH]; intros d0 cur done I N acts e W; cbn [work] in W.
  - injection W as <- <-. split; [|split].
    + intros k. exists [], []. split; auto. left. rewrite app_nil_r, firstn_nil. exact I.
    + intros _. rewrite app_nil_r. exact I.
    + intros f F. discriminate.
  - assert (NP : ~ In p done \/ settled). { destruct N as [N|N]; auto. left. apply NoDup_remove_2 in N. intros X. apply N, in_or_app. auto. }
    assert (N' : NoDup ((done ++ [p]) ++ rest) \/ settled) by (rewrite <- app_assoc; exact N).
    assert (STOP : forall f, ~ (exists b b', d0 p = Some (File b) /\ becomes b b') ->
        (forall k, exists before rest', p :: rest = before ++ rest' /\
           (stage d0 (after cur (firstn k [])) (done ++ before) \/ exists q rest'', rest' = q :: rest'' /\ torn d0 (after cur (firstn k [])) (done ++ before) q)) /\
         (Failed f = Finished -> stage d0 (after cur []) (done ++ p :: rest)) /\
         (forall f', Failed f = Failed f' -> exists before q rest', p :: rest = before ++ q :: rest' /\
           (forall x, x <> q -> right_at d0 (after cur []) (done ++ before) x) /\ ~ (exists b b', d0 q = Some (File b) /\ becomes b b'))).
    { intros f NO. split; [|split].
      - intros k. exists [], (p :: rest). split; auto. left. rewrite app_nil_r, firstn_nil. exact I.
      - discriminate.
      - intros f' _. exists [], p, rest. split; [reflexivity|]. split; [|exact NO]. intros x X. rewrite app_nil_r. apply (I x). }
    assert (SRC : forall n, cur p = n -> (forall b, n = Some (File b) -> ~ exists b', becomes b b') -> ~ (exists b b', d0 p = Some (File b) /\ becomes b b')).
    { intros n E F [b [b' [A B]]]. destruct (in_dec path_eq p done) as [D|D].
      - destruct NP as [NP|NP]; [tauto|]. destruct (proj1 (I p) D) as [b0 [b1 [A1 [B1 C1]]]]. rewrite C1 in E. apply (F b1); [auto|]. exists b1. apply (NP b0 b1 B1).
      - rewrite (proj2 (I p) D), A in E. apply (F b); [auto|]. exists b'. exact B. }
    destruct (cur p) as [[|b]|] eqn:E.
    + injection W as <- <-. apply STOP. apply (SRC _ eq_refl). intros b F. discriminate.
    + destruct (decode b) as [t|] eqn:DE.
      2:{ injection W as <- <-. apply STOP. apply (SRC _ eq_refl). intros b0 F. injection F as <-. intros [b' B]. inversion B; congruence. }
      destruct (gen (newlines t)) as [| |s] eqn:G.
      * injection W as <- <-. apply STOP. apply (SRC _ eq_refl). intros b0 F. injection F as <-. intros [b' B]. inversion B; congruence.
      * assert (K : becomes b b) by (apply (Kept b t); auto). assert (I' := stage_kept d0 cur done p b I E K).
        destruct (IH d0 cur (done ++ [p]) I' N' acts e W) as [A [B C]]. split; [|split].
        -- intros k. destruct (A k) as [before [r [R S]]]. exists (p :: before), r. split; [cbn; congruence|].
           rewrite <- app_assoc in S. exact S.
        -- intros F. specialize (B F). rewrite <- app_assoc in B. exact B.
        -- intros f F. destruct (C f F) as [before [q [r [R [S T]]]]]. exists (p :: before), q, r. split; [cbn; congruence|].
           split; auto. intros x X. specialize (S x X). rewrite <- app_assoc in S. exact S.
      * destruct (encode (m_encode m) (ends (m_crlf m) s)) as [b'|] eqn:EN.
        2:{ injection W as <- <-.
            assert (NO : ~ (exists b b', d0 p = Some (File b) /\ becomes b b')).
            { apply (SRC _ eq_refl). intros b0 F. injection F as <-. intros [b' B]. inversion B as [|t' s' b'' X Y Z]; congruence. }
            assert (OTHER : forall x, x <> p -> set cur p (File []) x = cur x) by (intros x X; apply set_other; exact X).
            assert (ND : ~ In p done). { intros D. destruct (proj1 (I p) D) as [b0 [b1 [A1 [B1 C1]]]]. apply NO. exists b0, b1. auto. }
            split; [|split]; [|discriminate|].
            - intros k. exists [], (p :: rest). split; auto. rewrite app_nil_r. destruct k as [|k].
              + left. exact I.
              + right. exists p, rest. split; auto. cbn [firstn]. rewrite firstn_nil. unfold after. cbn [fold_left do_act]. split.
                * intros x X. destruct (I x) as [A B]. split; intros Y; rewrite (OTHER x X); auto.
                * exists b. split; [rewrite <- (proj2 (I p) ND); exact E|]. left. apply set_same.
            - intros f _. exists [], p, rest. split; [reflexivity|]. rewrite app_nil_r. split; [|exact NO].
              intros x X. destruct (I x) as [A B]. unfold after. cbn [fold_left do_act]. split; intros Y; rewrite (OTHER x X); auto. }
        assert (K : becomes b b') by (apply (Changed b t s b'); auto).
        destruct (stage_source d0 cur done p b b' I E K NP) as [b0 [S0 K0]].
        set (a := Empty p :: map (Add p) b') in W. destruct (work (after cur a) rest) as [l e'] eqn:W'.
        assert (AC : acts = a ++ l /\ e = e') by (split; congruence). destruct AC as [-> ->]. clear W.
        destruct (write_all cur p b') as [WA WO]. fold a in WA, WO.
        assert (I' : stage d0 (after cur a) (done ++ [p])).
        { intros x. destruct (path_eq x p) as [->|X].
          - split; [intros _; exists b0, b'; auto|]. intros Y. destruct Y. apply in_or_app. right. left. reflexivity.
          - destruct (I x) as [A B]. split; intros Y; rewrite (WO x X).
            + apply in_app_or in Y. destruct Y as [Y|[Y|[]]]; [auto|congruence].
            + apply B. intros Z. apply Y, in_or_app. auto. }
        destruct (IH d0 (after cur a) (done ++ [p]) I' N' l e' W') as [A [B C]]. split; [|split].
        -- intros k. destruct (Nat.le_gt_cases (length a) k) as [L|L].
           ++ rewrite firstn_app, firstn_all2, after_app by exact L. destruct (A (k - length a)%nat) as [before [r [R S]]].
              exists (p :: before), r. split; [cbn; congruence|]. rewrite <- app_assoc in S. exact S.
           ++ rewrite firstn_app. replace (k - length a)%nat with O by lia. cbn [firstn]. rewrite app_nil_r.
              exists [], (p :: rest). split; auto. rewrite app_nil_r. destruct (write_stops cur p b' k) as [X Y]. fold a in X, Y.
              destruct Y as [[-> _]|Y]; [left; exact I|]. right. exists p, rest. split; auto. split.
              ** intros x NX. destruct (I x) as [P Q]. split; intros Z; rewrite (X x NX); auto.
              ** exists b0. split; auto. right. exists b', (pred k). auto.
        -- intros F. specialize (B F). rewrite after_app, <- app_assoc in *. exact B.
        -- intros f F. destruct (C f F) as [before [q [r [R [S T]]]]]. exists (p :: before), q, r. split; [cbn; congruence|].
           split; auto. intros x X. specialize (S x X). rewrite after_app, <- app_assoc in *. exact S.
    + injection W as <- <-. apply STOP. apply (SRC _ eq_refl). intros b F. discriminate.
Qed.
End Command.

(** ** UTF-8 *)
Ltac num := zify; Z.to_euclidean_division_equations; lia.
Lemma some_eq {A} (a b : A) : Some a = Some b -> b = a.
Proof. congruence. Qed.
Lemma utf8_char c x r : utf8 c = Some x -> decode (x ++ r) = onto c (decode r).
Proof.
  assert (CO : forall n, 128 <= n <= 191 -> cont n = true).
  { intros n [A B]. unfold cont. rewrite (proj2 (N.leb_le _ _) A), (proj2 (N.leb_le _ _) B). reflexivity. }
  unfold utf8. destruct (N.ltb_spec c 128) as [H1|H1].
  { intros E. rewrite (some_eq _ _ E); clear E x. cbn [List.app decode]. rewrite (proj2 (N.ltb_lt c 128) H1). reflexivity. }
  destruct (N.ltb_spec c 2048) as [H2|H2].
  { intros E. rewrite (some_eq _ _ E); clear E x. remember (192 + c / 64) as x0 eqn:E0. remember (128 + c mod 64) as x1 eqn:E1. cbn [List.app decode].
    rewrite (proj2 (N.ltb_ge x0 128)) by num. rewrite (CO x1) by num. cbn [negb].
    rewrite (proj2 (N.leb_le 194 x0)) by num. rewrite (proj2 (N.ltb_lt x0 224)) by num. cbn [andb].
    f_equal. num. }
  destruct (N.ltb_spec c 65536) as [H3|H3].
  { destruct (surrogate c) eqn:SG; [discriminate|]. intros E. rewrite (some_eq _ _ E); clear E x.
    remember (224 + c / 4096) as x0 eqn:E0. remember (128 + (c / 64) mod 64) as x1 eqn:E1. remember (128 + c mod 64) as x2 eqn:E2. cbn [List.app decode].
    rewrite (proj2 (N.ltb_ge x0 128)) by num. rewrite (CO x1) by num. rewrite (CO x2) by num. cbn [negb].
    rewrite (proj2 (N.ltb_ge x0 224)) by num. rewrite andb_false_r.
    rewrite (proj2 (N.leb_le 224 x0)) by num. rewrite (proj2 (N.ltb_lt x0 240)) by num. cbn [andb].
    assert (V : (x0 - 224) * 4096 + (x1 - 128) * 64 + (x2 - 128) = c) by num.
    cbv zeta. rewrite V, SG. rewrite (proj2 (N.ltb_ge c 2048)) by exact H2. reflexivity. }
  destruct (N.ltb_spec c 1114112) as [H4|H4]; [|discriminate].
  intros E. rewrite (some_eq _ _ E); clear E x.
  remember (240 + c / 262144) as x0 eqn:E0. remember (128 + (c / 4096) mod 64) as x1 eqn:E1. remember (128 + (c / 64) mod 64) as x2 eqn:E2.
  remember (128 + c mod 64) as x3 eqn:E3. cbn [List.app decode].
  rewrite (proj2 (N.ltb_ge x0 128)) by num. rewrite (CO x1) by num. rewrite (CO x2) by num. rewrite (CO x3) by num. cbn [negb].
  rewrite (proj2 (N.ltb_ge x0 224)) by num. rewrite andb_false_r.
  rewrite (proj2 (N.ltb_ge x0 240)) by num. rewrite andb_false_r.
  rewrite (proj2 (N.leb_le 240 x0)) by num. rewrite (proj2 (N.ltb_lt x0 248)) by num. cbn [andb].
  assert (V : (x0 - 240) * 262144 + (x1 - 128) * 4096 + (x2 - 128) * 64 + (x3 - 128) = c) by num.
  cbv zeta. rewrite V. rewrite (proj2 (N.ltb_ge c 65536)) by exact H3. rewrite (proj2 (N.ltb_ge 1114111 c)) by lia. reflexivity.
Qed.
Lemma utf8_back t : forall b, encode utf8 t = Some b -> decode b = Some t.
Proof.
  induction t as [|c t IH]; intros b E; cbn [encode] in E; [injection E as <-; reflexivity|].
  destruct (utf8 c) as [x|] eqn:X; [|discriminate]. destruct (encode utf8 t) as [y|] eqn:Y; [|discriminate]. injection E as <-.
  rewrite (utf8_char c x y X), (IH y eq_refl). reflexivity.
Qed.
Definition scalar (c : N) : Prop := c < 1114112 /\ ~ (55296 <= c <= 57343).
Lemma utf8_total c : scalar c -> exists x, utf8 c = Some x.
Proof.
  intros [A B]. unfold utf8. destruct (c <? 128); [eauto|]. destruct (c <? 2048); [eauto|]. destruct (c <? 65536).
  - unfold surrogate. destruct (N.leb_spec 55296 c); destruct (N.leb_spec c 57343); cbn [andb]; eauto. destruct B. auto.
  - rewrite (proj2 (N.ltb_lt c 1114112) A). eauto.
Qed.
Lemma encode_total t : Forall scalar t -> exists b, encode utf8 t = Some b.
Proof.
  induction 1 as [|c t C F [b IH]]; [exists []; reflexivity|]. destruct (utf8_total c C) as [x X]. exists (x ++ b). cbn [encode]. rewrite X, IH. reflexivity.
Qed.
Lemma ends_scalar crlf t : Forall scalar t -> Forall scalar (ends crlf t).
Proof.
  intros F. unfold ends. destruct crlf; auto. induction F as [|c t C F IH]; [constructor|]. cbn [flat_map]. apply Forall_app. split; auto.
  destruct (c =? 10); [apply Forall_cons; [unfold scalar; lia|apply Forall_cons; [unfold scalar; lia|constructor]]|apply Forall_cons; [exact C|constructor]].
Qed.
Lemma newlines_plain t : ~ In 13 t -> newlines t = t.
Proof.
  induction t as [|c t IH]; intros N; [reflexivity|]. cbn [newlines]. destruct (N.eqb_spec c 13) as [E|E]; [destruct N; left; auto|].
  rewrite IH; [reflexivity|]. intros X. apply N. right. exact X.
Qed.
Lemma newlines_ends crlf t : ~ In 13 t -> newlines (ends crlf t) = t.
Proof.
  destruct crlf; [|apply newlines_plain]. unfold ends. induction t as [|c t IH]; intros N; [reflexivity|]. cbn [flat_map].
  assert (N' : ~ In 13 t) by (intros X; apply N; right; exact X).
  destruct (N.eqb_spec c 10) as [->|E]; cbn [List.app].
  - change (newlines (13 :: 10 :: ?x)) with (newlines (10 :: x)). cbn. rewrite (IH N'). reflexivity.
  - cbn [newlines]. destruct (N.eqb_spec c 13) as [X|X]; [destruct N; left; auto|]. rewrite (IH N'). reflexivity.
Qed.

Lemma newlines_app a b : ~ In 13 a -> newlines (a ++ b) = a ++ newlines b.
Proof.
  induction a as [|c a IH]; intros N; [reflexivity|]. cbn [List.app newlines]. destruct (N.eqb_spec c 13) as [E|E]; [destruct N; left; auto|].
  rewrite IH; [reflexivity|]. intros X. apply N. right. exact X.
Qed.
(** What is read: "\r\n" is one line end, "\r" too, the rest is kept. *)
Theorem C104_read a b : ~ In 13 a ->
  newlines a = a /\ newlines (a ++ 13 :: 10 :: b) = a ++ 10 :: newlines b /\ (hd 0 b <> 10 -> newlines (a ++ 13 :: b) = a ++ 10 :: newlines b).
Proof.
  intros N. split; [apply newlines_plain, N|]. split; [rewrite (newlines_app a _ N); reflexivity|]. intros H. rewrite (newlines_app a _ N). f_equal.
  destruct b as [|c b]; [reflexivity|]. cbn [hd] in H. cbn [newlines]. change (13 =? 13) with true. cbv iota. rewrite (proj2 (N.eqb_neq c 10) H). reflexivity.
Qed.

(** ** Which files *)
Lemma files_chosen d names paths p : lists names d -> forallb (fun p => match d p with Some _ => true | None => false end) paths = true ->
  In p (flat_map (files_of d names) paths) <-> chosen d paths p.
Proof.
  intros [ND L] F. rewrite forallb_forall in F. rewrite in_flat_map. unfold chosen, files_of. split.
  - intros [a [A B]]. specialize (F a A). destruct (d a) as [[|b]|] eqn:E; [| |discriminate].
    + rewrite filter_In, andb_true_iff, below_spec, py_spec in B. destruct B as [B [[rest [R1 R2]] [stem S]]]. split; [apply L, B|].
      right. exists a, rest, stem. unfold last_name in S. auto.
    + destruct B as [B|[]]. subst p. rewrite E. split; [eauto|]. left. split; auto. eauto.
  - intros [EX [[A [b B]]|[a [rest [stem [A [B [C [D E]]]]]]]]].
    + exists p. split; auto. rewrite B. left. reflexivity.
    + exists a. split; auto. rewrite B. rewrite filter_In, andb_true_iff, below_spec, py_spec. split; [apply L, EX|]. split; [exists rest; auto|]. exists stem. exact E.
Qed.
Lemma prefixes_compare (a : path) : forall b r s, a ++ r = b ++ s -> (exists x, b = a ++ x) \/ (exists x, a = b ++ x).
Proof.
  induction a as [|x a IH]; intros b r s E; [left; exists b; reflexivity|]. destruct b as [|y b]; [right; exists (x :: a); reflexivity|].
  injection E as -> E. destruct (IH b r s E) as [[z ->]|[z ->]]; [left|right]; exists z; reflexivity.
Qed.
Lemma files_of_prefix d names a p : In p (files_of d names a) -> exists r, p = a ++ r.
Proof.
  unfold files_of. destruct (d a) as [[|b]|]; intros I.
  - apply filter_In in I. destruct I as [_ I]. apply andb_true_iff in I. destruct I as [I _]. apply below_spec in I. destruct I as [r [_ ->]]. eauto.
  - destruct I as [<-|[]]. exists []. rewrite app_nil_r. reflexivity.
  - apply filter_In in I. destruct I as [_ I]. apply andb_true_iff in I. destruct I as [I _]. apply below_spec in I. destruct I as [r [_ ->]]. eauto.
Qed.
Lemma files_once d names all : lists names d -> apart all -> forall paths, NoDup paths -> (forall a, In a paths -> In a all) -> NoDup (flat_map (files_of d names) paths).
Proof.
  intros [NN _] [_ AP]. induction paths as [|a paths IH]; intros ND SUB; [constructor|]. inversion ND as [|? ? NI ND']; subst. cbn [flat_map].
  assert (N1 : NoDup (files_of d names a)). { unfold files_of. destruct (d a) as [[|b]|]; try apply NoDup_filter; auto. repeat constructor. intros []. }
  assert (N2 : NoDup (flat_map (files_of d names) paths)) by (apply IH; [exact ND'|intros x X; apply SUB; right; exact X]).
  assert (DJ : forall p, In p (files_of d names a) -> ~ In p (flat_map (files_of d names) paths)).
  { intros p P Q. apply in_flat_map in Q. destruct Q as [b [B Q]]. destruct (files_of_prefix _ _ _ _ P) as [r R]. destruct (files_of_prefix _ _ _ _ Q) as [s S].
    rewrite R in S. assert (AB : a = b); [|subst b; tauto].
    assert (IA : In a all) by (apply SUB; left; reflexivity). assert (IB : In b all) by (apply SUB; right; exact B).
    destruct (prefixes_compare a b r s S) as [[z Z]|[z Z]].
    - rewrite (AP a b z IA IB Z), app_nil_r in Z. auto.
    - rewrite (AP b a z IB IA Z), app_nil_r in Z. auto. }
  clear - N1 N2 DJ. induction (files_of d names a) as [|x l IHl]; [exact N2|]. cbn [List.app]. inversion N1 as [|? ? A B]; subst. constructor.
  - intros X. apply in_app_or in X. destruct X as [X|X]; [tauto|]. apply (DJ x); [left; reflexivity|exact X].
  - apply IHl; auto. intros p P. apply DJ. right. exact P.
Qed.

Section Statements.
Variables (m : machine) (gen : text -> generated).
Lemma command_stages d names paths acts e : lists names d -> apart paths \/ settled m gen -> command m gen d names paths = (acts, e) ->
  (forall k, exists before rest, flat_map (files_of d names) paths = before ++ rest /\
     (stage m gen d (after d (firstn k acts)) before \/ exists q rest', rest = q :: rest' /\ torn m gen d (after d (firstn k acts)) before q)) /\
  (e = Finished -> forallb (fun p => match d p with Some _ => true | None => false end) paths = true /\ stage m gen d (after d acts) (flat_map (files_of d names) paths)) /\
  (forall f, e = Failed f -> forallb (fun p => match d p with Some _ => true | None => false end) paths = true ->
     exists before q rest, flat_map (files_of d names) paths = before ++ q :: rest /\
     (forall p, p <> q -> right_at m gen d (after d acts) before p) /\ ~ (exists b b', d q = Some (File b) /\ becomes m gen b b')).
Proof.
  intros L AP. unfold command. assert (I : stage m gen d d []) by (intros p; split; [intros []|reflexivity]).
  destruct (forallb _ paths) eqn:F.
  - intros W. assert (N : NoDup ([] ++ flat_map (files_of d names) paths) \/ settled m gen).
    { destruct AP as [AP|AP]; auto. left. cbn [List.app]. apply (files_once d names paths L AP paths); [apply AP|auto]. }
    destruct (work_stages m gen _ d d [] I N acts e W) as [A [B C]]. cbn [List.app] in *. split; [exact A|]. split; [intros E; split; [reflexivity|exact (B E)]|]. intros f E _. exact (C f E).
  - intros W. injection W as <- <-. split; [|split]; try discriminate. intros k. exists [], (flat_map (files_of d names) paths). rewrite firstn_nil. split; [reflexivity|]. left. exact I.
Qed.
(** A command that ends without an error has rewritten exactly the files it was given. *)
Theorem C104_files_partial d names paths acts : lists names d -> apart paths \/ settled m gen -> command m gen d names paths = (acts, Finished) ->
  forall p, (chosen d paths p -> exists b b', d p = Some (File b) /\ becomes m gen b b' /\ after d acts p = Some (File b')) /\
            (~ chosen d paths p -> after d acts p = d p).
Proof.
  intros L AP W p. destruct (command_stages d names paths acts Finished L AP W) as [_ [B _]]. destruct (B eq_refl) as [F S].
  rewrite <- (files_chosen d names paths p L F). apply (S p).
Qed.
(** It ends so if every path exists and every file can be read, parsed and written. *)
Theorem C104_finishes d names paths : lists names d -> apart paths \/ settled m gen -> (forall p, In p paths -> exists n, d p = Some n) ->
  (forall p, chosen d paths p -> exists b b', d p = Some (File b) /\ becomes m gen b b') -> snd (command m gen d names paths) = Finished.
Proof.
  intros L AP EX OK. destruct (command m gen d names paths) as [acts e] eqn:W. destruct (command_stages d names paths acts e L AP W) as [_ [_ C]].
  assert (F : forallb (fun p => match d p with Some _ => true | None => false end) paths = true).
  { apply forallb_forall. intros p P. destruct (EX p P) as [n ->]. reflexivity. }
  destruct e as [|f]; [reflexivity|]. destruct (C f eq_refl F) as [before [q [rest [R [_ NO]]]]]. destruct NO. apply OK.
  apply (files_chosen d names paths q L F). rewrite R. apply in_or_app. right. left. reflexivity.
Qed.
(** Stopped at any moment, or by an error: every file but one has its old content or the new one, and what was not chosen is kept. *)
Theorem C104_stopped_partial d names paths k : lists names d -> apart paths \/ settled m gen ->
  let c := after d (firstn k (fst (command m gen d names paths))) in
  (forall p, ~ chosen d paths p -> c p = d p) /\
  exists q, (forall p, p <> q -> c p = d p \/ exists b b', d p = Some (File b) /\ becomes m gen b b' /\ c p = Some (File b')) /\
    (c q = d q \/ exists b, d q = Some (File b) /\ (c q = Some (File []) \/ exists b' j, becomes m gen b b' /\ c q = Some (File (firstn j b')))).
Proof.
  intros L AP. cbv zeta. destruct (command m gen d names paths) as [acts e] eqn:W. cbn [fst].
  destruct (command_stages d names paths acts e L AP W) as [A _]. destruct (A k) as [before [rest [R S]]].
  set (c := after d (firstn k acts)) in *.
  assert (CH : (exists p, c p <> d p) -> forallb (fun p => match d p with Some _ => true | None => false end) paths = true).
  { intros [p P]. unfold command in W. destruct (forallb _ paths); auto. injection W as <- <-. destruct P. unfold c. rewrite firstn_nil. reflexivity. }
  assert (RA : forall p, right_at m gen d c before p -> c p = d p \/ exists b b', d p = Some (File b) /\ becomes m gen b b' /\ c p = Some (File b')).
  { intros p [X Y]. destruct (in_dec path_eq p before) as [D|D]; auto. }
  assert (NC : forall p, c p <> d p -> In p before \/ (exists q rest', rest = q :: rest' /\ p = q) -> chosen d paths p).
  { intros p P Q. apply (files_chosen d names paths p L); [apply CH; exists p; exact P|]. rewrite R. apply in_or_app. destruct Q as [Q|[q [r [-> ->]]]]; [auto|right; left; reflexivity]. }
  assert (DN : forall p, {c p = d p} + {c p <> d p}).
  { intros p. destruct (c p) as [[|x]|], (d p) as [[|y]|]; try (right; discriminate); auto. destruct (list_eq_dec N.eq_dec x y) as [->|D]; [auto|right; congruence]. }
  split.
  - intros p P. destruct (DN p) as [E|E]; auto. destruct P. apply (NC p E). destruct S as [S|[q [r [-> [S T]]]]].
    + left. destruct (in_dec path_eq p before) as [D|D]; auto. destruct E. apply (S p), D.
    + destruct (path_eq p q) as [->|N]; [right; exists q, r; auto|]. left. destruct (in_dec path_eq p before) as [D|D]; auto. destruct E. apply (S p N), D.
  - destruct S as [S|[q [r [-> [S T]]]]].
    + exists []. split; [intros p _; apply RA, S|]. destruct (RA [] (S [])) as [X|[b [b' [X [Y Z]]]]]; auto. right. exists b. split; auto. right. exists b', (length b').
      rewrite firstn_all. auto.
    + exists q. split; [intros p N; apply RA, (S p N)|]. right. exact T.
Qed.
(** If no file is torn, running the command again completes the work. *)
Theorem C104_again_partial d names paths acts k : lists names d -> settled m gen -> command m gen d names paths = (acts, Finished) ->
  let c := after d (firstn k acts) in
  (forall p, c p = d p \/ c p = after d acts p) ->
  exists again, command m gen c names paths = (again, Finished) /\ forall p, after c again p = after d acts p.
Proof.
  intros L ST W. cbv zeta. set (c := after d (firstn k acts)). intros WHOLE.
  assert (FIN := C104_files_partial d names paths acts L (or_intror ST) W).
  destruct (command_stages d names paths acts Finished L (or_intror ST) W) as [_ [B _]]. destruct (B eq_refl) as [F _].
  assert (KIND : forall p, d p = None /\ c p = None \/ d p = Some Folder /\ c p = Some Folder \/
      exists b, d p = Some (File b) /\ (c p = Some (File b) \/ exists b', becomes m gen b b' /\ c p = Some (File b'))).
  { intros p. destruct (C104_stopped_partial d names paths k L (or_intror ST)) as [X _]. rewrite W in X. cbn [fst] in X. fold c in X.
    destruct (d p) as [[|b]|] eqn:D.
    - right. left. split; auto. rewrite <- D. apply X. intros [_ [[_ [b Y]]|Y]]; [congruence|].
      assert (Y' : chosen d paths p) by (split; [exists Folder; exact D|right; exact Y]).
      destruct (proj1 (FIN p) Y') as [b [b' [Z _]]]. congruence.
    - right. right. exists b. split; auto. destruct (WHOLE p) as [E|E]; [left; congruence|].
      assert (DP : c p = d p \/ c p <> d p). { destruct (c p) as [[|x]|]; rewrite D; try (right; discriminate). destruct (list_eq_dec N.eq_dec x b) as [->|N]; [auto|right; congruence]. }
      destruct DP as [DP|DP]; [left; congruence|].
      assert (CH : chosen d paths p \/ ~ chosen d paths p). { rewrite <- (files_chosen d names paths p L F). destruct (in_dec path_eq p (flat_map (files_of d names) paths)); auto. }
      destruct CH as [CH|CH]; [|destruct DP; apply X, CH].
      destruct (proj1 (FIN p) CH) as [b0 [b' [Z [Y V]]]]. right. exists b'. rewrite D in Z. injection Z as <-. split; auto. congruence.
    - left. split; auto. rewrite <- D. apply X. intros [[n Y] _]. congruence. }
  assert (CHE : forall p, chosen c paths p <-> chosen d paths p).
  { assert (FO : forall a, d a = Some Folder <-> c a = Some Folder).
    { intros a. destruct (KIND a) as [[A1 A2]|[[A1 A2]|[b [A1 [A2|[b' [_ A2]]]]]]]; rewrite A1, A2; split; congruence. }
    assert (FI : forall a, (exists b, c a = Some (File b)) <-> exists b, d a = Some (File b)).
    { intros a. destruct (KIND a) as [[A1 A2]|[[A1 A2]|[b [A1 [A2|[b' [_ A2]]]]]]]; rewrite A1, A2; split; intros [x X]; try discriminate; eauto. }
    assert (AN : forall a, (exists n, c a = Some n) <-> exists n, d a = Some n).
    { intros a. destruct (KIND a) as [[A1 A2]|[[A1 A2]|[b [A1 [A2|[b' [_ A2]]]]]]]; rewrite A1, A2; split; intros [x X]; try discriminate; eauto. }
    intros p. unfold chosen. rewrite AN, FI. split; intros [X [Y|[a [r [s [Y1 [Y2 Y3]]]]]]]; (split; [exact X|]); auto; right; exists a, r, s; (split; [exact Y1|split; [apply FO, Y2|exact Y3]]). }
  assert (LC : lists names c).
  { destruct L as [L1 L2]. split; auto. intros p. rewrite L2. destruct (KIND p) as [[A1 A2]|[[A1 A2]|[b [A1 [A2|[b' [_ A2]]]]]]]; rewrite A1, A2; split; intros [x X]; try discriminate; eauto. }
  assert (FC : snd (command m gen c names paths) = Finished).
  { apply C104_finishes; auto.
    - intros p P. rewrite forallb_forall in F. specialize (F p P). destruct (KIND p) as [[A1 A2]|[[A1 A2]|[b [A1 [A2|[b' [_ A2]]]]]]]; eauto. rewrite A1 in F. discriminate.
    - intros p P. apply CHE in P. destruct (proj1 (FIN p) P) as [b [b' [Z [Y V]]]]. destruct (KIND p) as [[A1 A2]|[[A1 A2]|[b0 [A1 [A2|[b1 [A3 A2]]]]]]]; try congruence.
      + exists b, b'. split; auto. congruence.
      + exists b1, b1. split; auto. apply (ST b0 b1 A3). }
  destruct (command m gen c names paths) as [again e] eqn:W2. cbn [snd] in FC. subst e. exists again. split; [reflexivity|].
  assert (FIN2 := C104_files_partial c names paths again LC (or_intror ST) W2). intros p.
  assert (CH : chosen d paths p \/ ~ chosen d paths p). { rewrite <- (files_chosen d names paths p L F). destruct (in_dec path_eq p (flat_map (files_of d names) paths)); auto. }
  destruct CH as [CH|CH].
  - destruct (proj1 (FIN p) CH) as [b [b' [Z [Y V]]]]. destruct (proj1 (FIN2 p) (proj2 (CHE p) CH)) as [b2 [b3 [Z2 [Y2 V2]]]]. rewrite V, V2. do 2 f_equal.
    destruct (KIND p) as [[A1 A2]|[[A1 A2]|[b0 [A1 [A2|[b1 [A3 A2]]]]]]]; try congruence.
    + assert (b2 = b) by congruence. subst b2. apply (becomes_det m gen b); auto.
    + assert (b0 = b) by congruence. subst b0. assert (b2 = b1) by congruence. subst b2.
      rewrite (becomes_det m gen b1 b3 b1 Y2 (ST b b1 A3)). apply (becomes_det m gen b); auto.
  - rewrite (proj2 (FIN p) CH). rewrite (proj2 (FIN2 p)); [|intros X; apply CH, CHE, X]. destruct (WHOLE p) as [E|E]; [exact E|].
    rewrite E. apply (FIN p), CH.
Qed.
(** A source that needs no further change when it was rewritten gives such files, if the locale is UTF-8. *)
Theorem C104_settled : m_encode m = utf8 -> (forall t s, gen t = New s -> gen s = Same /\ ~ In 13 s) -> settled m gen.
Proof.
  intros U G b b' H. destruct H as [t A B|t s b' A B C]; [apply (Kept m gen b t A B)|]. destruct (G _ s B) as [D E]. rewrite U in C.
  apply (Kept m gen b' (ends (m_crlf m) s)); [apply utf8_back, C|]. rewrite (newlines_ends _ s E). exact D.
Qed.
(** With such a locale every text can be written, and it is the one that is read back. *)
Theorem C104_utf8 s : m_encode m = utf8 -> Forall scalar s -> ~ In 13 s ->
  exists b, encode (m_encode m) (ends (m_crlf m) s) = Some b /\ exists t, decode b = Some t /\ newlines t = s.
Proof.
  intros U F N. rewrite U. destruct (encode_total _ (ends_scalar (m_crlf m) s F)) as [b B]. exists b. split; auto.
  exists (ends (m_crlf m) s). split; [apply utf8_back, B|apply newlines_ends, N].
Qed.

(** *** Findings *)
Lemma one_file d p b t s : d p = Some (File b) -> decode b = Some t -> gen (newlines t) = New s ->
  command m gen d [p] [p] = match encode (m_encode m) (ends (m_crlf m) s) with
                            | Some b' => (Empty p :: map (Add p) b', Finished)
                            | None => ([Empty p], Failed CannotEncode)
                            end.
Proof.
  intros E D G. unfold command. cbn [forallb flat_map]. unfold files_of. rewrite E. cbn [andb List.app work]. rewrite E, D, G.
  destruct (encode _ _) as [b'|]; [|reflexivity]. cbn [work]. rewrite app_nil_r. reflexivity.
Qed.
(** Every file that is rewritten is empty for a moment: a command that is stopped then loses it. *)
Theorem C104_crash_refuted d p b t s : d p = Some (File b) -> decode b = Some t -> gen (newlines t) = New s ->
  exists k, after d (firstn k (fst (command m gen d [p] [p]))) p = Some (File []).
Proof. intros E D G. rewrite (one_file d p b t s E D G). exists 1%nat. destruct (encode _ _); cbn; apply set_same. Qed.
(** A file is read as UTF-8 and written in the encoding of the locale: if that one lacks a character, the file is lost. *)
Theorem C104_encoding_refuted d p b t s c : m_encode m = latin1 -> d p = Some (File b) -> decode b = Some t -> gen (newlines t) = New s -> In c s -> 255 < c ->
  snd (command m gen d [p] [p]) = Failed CannotEncode /\ after d (fst (command m gen d [p] [p])) p = Some (File []).
Proof.
  intros U E D G I C. rewrite (one_file d p b t s E D G). rewrite U.
  assert (NO : encode latin1 (ends (m_crlf m) s) = None).
  { assert (I' : In c (ends (m_crlf m) s)).
    { unfold ends. destruct (m_crlf m); auto. apply in_flat_map. exists c. split; auto. destruct (N.eqb_spec c 10) as [->|_]; [lia|left; reflexivity]. }
    induction (ends (m_crlf m) s) as [|x l IH]; [destruct I'|]. cbn [encode]. destruct I' as [->|I'].
    - unfold latin1. rewrite (proj2 (N.ltb_ge c 256)) by lia. reflexivity.
    - rewrite (IH I'). destruct (latin1 x); reflexivity. }
  rewrite NO. cbn. split; [reflexivity|apply set_same].
Qed.
(** All lines get the line ends of the system, also those that are not rewritten: a file with "\r\n" has none of them any more. *)
Theorem C104_newline_refuted d p b t s : m = Machine utf8 false -> d p = Some (File b) -> decode b = Some t -> gen (newlines t) = New s -> ~ In 13 s -> Forall scalar s ->
  exists b', after d (fst (command m gen d [p] [p])) p = Some (File b') /\ ~ In 13 b'.
Proof.
  intros U E D G N F. rewrite (one_file d p b t s E D G). subst m. cbn [m_encode m_crlf]. unfold ends.
  destruct (encode_total s F) as [b' B]. rewrite B. exists b'. cbn [fst]. split; [apply write_all|].
  clear E D G F. revert b' B N. induction s as [|c s IH]; intros b' B N; cbn [encode] in B; [injection B as <-; intros []|].
  destruct (utf8 c) as [x|] eqn:X; [|discriminate]. destruct (encode utf8 s) as [y|] eqn:Y; [|discriminate]. injection B as <-. intros I. apply in_app_or in I.
  destruct I as [I|I].
  - unfold utf8 in X. destruct (N.ltb_spec c 128) as [L|L].
    + injection X as <-. destruct I as [I|[]]. apply N. left. exact I.
    + destruct (c <? 2048); [|destruct (c <? 65536); [destruct (surrogate c); [discriminate|]|destruct (c <? 1114112); [|discriminate]]];
        rewrite (some_eq _ _ X) in I; clear - I; repeat (destruct I as [I|I]; [num|]); destruct I.
  - apply (IH y eq_refl); auto. intros Z. apply N. right. exact Z.
Qed.
(** A file that does not parse keeps the files after it from being rewritten; so does a folder whose name ends with ".py". *)
Theorem C104_stops_refuted d p q b t : d p = Some (File b) -> (exists n, d q = Some n) -> decode b = Some t -> gen (newlines t) = Broken ->
  command m gen d [p; q] [p; q] = ([], Failed BadSource).
Proof.
  intros E [n Q] D G. unfold command. cbn [forallb flat_map]. rewrite E, Q. cbn [andb]. unfold files_of at 1. rewrite E. cbn [List.app work]. rewrite E, D, G. reflexivity.
Qed.
Theorem C104_folder_refuted d a x others : d a = Some Folder -> d (a ++ [(x ++ ".py")%string]) = Some Folder ->
  command m gen d ((a ++ [(x ++ ".py")%string]) :: others) [a] = ([], Failed IsFolder).
Proof.
  intros A X. unfold command. cbn [forallb flat_map]. rewrite A. cbn [andb]. unfold files_of. rewrite A. cbn [filter].
  assert (B : below a (a ++ [(x ++ ".py")%string]) = true) by (apply below_spec; exists [(x ++ ".py")%string]; split; [discriminate|reflexivity]).
  assert (P : py (last_name (a ++ [(x ++ ".py")%string])) = true) by (apply py_spec; exists x; unfold last_name; apply last_last).
  rewrite B, P. cbn [andb List.app work]. rewrite X. reflexivity.
Qed.
End Statements.

(** *** A case: "k" is rewritten to "n", "!" does not parse. *)
Definition gen1 (t : text) : generated :=
  if existsb (N.eqb 33) t then Broken else if existsb (N.eqb 107) t then New (map (fun c => if c =? 107 then 110 else c) t) else Same.
Lemma gen1_settles t s : ~ In 13 t -> gen1 t = New s -> gen1 s = Same /\ ~ In 13 s.
Proof.
  unfold gen1. destruct (existsb (N.eqb 33) t) eqn:X; [discriminate|]. destruct (existsb (N.eqb 107) t); [|discriminate]. intros N E. injection E as <-.
  assert (A : forall c, c = 33 \/ c = 107 \/ c = 13 -> ~ In 33 t -> ~ In 13 t -> ~ In c (map (fun c => if c =? 107 then 110 else c) t)).
  { intros c C N1 N2 I. apply in_map_iff in I. destruct I as [y [Y I]]. destruct (N.eqb_spec y 107); destruct C as [C|[C|C]]; subst; try discriminate; tauto. }
  assert (N1 : ~ In 33 t). { intros I. assert (T : existsb (N.eqb 33) t = true) by (apply existsb_exists; exists 33; split; [exact I|reflexivity]). congruence. }
  assert (B : forall c, ~ In c (map (fun c => if c =? 107 then 110 else c) t) -> existsb (N.eqb c) (map (fun c => if c =? 107 then 110 else c) t) = false).
  { intros c C. match goal with |- ?e = false => destruct e eqn:Z end; [|reflexivity]. apply existsb_exists in Z. destruct Z as [y [Y Z]]. apply N.eqb_eq in Z. subst y. destruct (C Y). }
  rewrite (B 33), (B 107) by (apply A; auto). split; auto.
Qed.
Definition linux := Machine utf8 false.
Definition names1 : list path := [["src"]; ["src"; "a.py"]; ["src"; "note.txt"]; ["src"; "b.py"]; ["top"]]%string.
Definition disk1 : disk := fun p =>
  if path_eq p ["src"]%string then Some Folder
  else if path_eq p ["src"; "a.py"]%string then Some (File [107; 195; 169; 13; 10; 49])
  else if path_eq p ["src"; "b.py"]%string then Some (File [49])
  else if path_eq p ["src"; "note.txt"]%string then Some (File [107])
  else if path_eq p ["top"]%string then Some (File [107; 107])
  else None.
Example C104_example :
  apart [["src"]; ["top"]]%string /\ lists names1 disk1 /\ snd (command linux gen1 disk1 names1 [["src"]; ["top"]]%string) = Finished /\
  map (after disk1 (fst (command linux gen1 disk1 names1 [["src"]; ["top"]]%string))) names1 =
    [Some Folder; Some (File [110; 195; 169; 10; 49]); Some (File [107]); Some (File [49]); Some (File [110; 110])] /\
  map (after disk1 (firstn 3 (fst (command linux gen1 disk1 names1 [["src"]; ["top"]]%string)))) names1 =
    [Some Folder; Some (File [110; 195]); Some (File [107]); Some (File [49]); Some (File [107; 107])].
Proof.
  split; [|split; [|vm_compute; repeat split]].
  - split; [apply NoDup_cons; [intros [X|[]]; discriminate|apply NoDup_cons; [intros []|constructor]]|].
    intros a b r [A|[A|[]]] [B|[B|[]]] E; subst; try discriminate; injection E as <-; reflexivity.
  - split.
    + unfold names1. repeat (apply NoDup_cons; [cbn; intros X; repeat (destruct X as [X|X]; [discriminate|]); exact X|]). constructor.
    + intros p. unfold disk1, names1. cbn [In].
      repeat (match goal with |- context [path_eq p ?x] => destruct (path_eq p x) as [->|]; [split; [eauto|intros _; auto 10]|] end).
      split; [intros X; repeat (destruct X as [X|X]; [congruence|]); destruct X|intros [z X]; discriminate].
Qed.
(** [settled] holds too: for texts that were read, [gen] is never asked about "\r". *)
Example C104_settled_example : settled linux (fun t => if existsb (N.eqb 13) t then Broken else gen1 t).
Proof.
  apply C104_settled; [reflexivity|]. intros t s. destruct (existsb (N.eqb 13) t) eqn:X; [discriminate|]. intros G.
  assert (N : ~ In 13 t). { intros I. assert (T : existsb (N.eqb 13) t = true) by (apply existsb_exists; exists 13; split; [exact I|reflexivity]). congruence. }
  destruct (gen1_settles t s N G) as [A B]. split; auto. destruct (existsb (N.eqb 13) s) eqn:Y; auto. apply existsb_exists in Y. destruct Y as [y [Y1 Y2]]. apply N.eqb_eq in Y2. subst y. tauto.
Qed.

Print Assumptions C104_read.
Print Assumptions C104_files_partial.
Print Assumptions C104_finishes.
Print Assumptions C104_stopped_partial.
Print Assumptions C104_again_partial.
Print Assumptions C104_settled.
Print Assumptions C104_utf8.
Print Assumptions C104_crash_refuted.
Print Assumptions C104_encoding_refuted.
Print Assumptions C104_newline_refuted.
Print Assumptions C104_stops_refuted.
Print Assumptions C104_folder_refuted.
