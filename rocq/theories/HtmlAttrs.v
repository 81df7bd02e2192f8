(** * Model of HTML attribute conversion (/repo/src/reactpy/transforms.py, utils.py) and properties C43 and C44 *)
From Coq Require Import String Ascii Bool Arith Lia List.
From Verif Require Import Dict Strings PyStr.
Import ListNotations.
Local Open Scope string_scope. Local Open Scope list_scope.

(** ** Style attributes *)

(** [RequiredTransforms._kebab_to_camel_case], transforms.py:155-161. *)
Definition kebab_to_camel (s : string) : string :=
  match split "-" s with [] => "" | p :: ps => join "" (p :: map capitalize ps) end.
(** The declarations read by [normalize_style_attributes], transforms.py:33-47: the parts that contain a colon. *)
Definition style_parts (s : string) : list (string * string) :=
  flat_map (fun part => match split1 ":" part with Some kv => [kv] | None => [] end) (split ";" s).
(** The dictionary comprehension of [normalize_style_attributes], transforms.py:33-47. *)
Definition put_decl (d : dict string string) (kv : string * string) : dict string string :=
  dset (kebab_to_camel (strip (fst kv))) (strip (snd kv)) d.
Definition parse_style (s : string) : dict string string := fold_left put_decl (style_parts s) [].

(** [CAMEL_CASE_PATTERN.sub("-", s)], /repo/src/reactpy/utils.py:281: a dash before every capital letter except at the start. *)
Fixpoint dash_capitals (s : string) : string :=
  match s with "" => "" | String a s' => if is_upper a then String "-" (String a (dash_capitals s')) else String a (dash_capitals s') end.
Definition camel_sub (s : string) : string := match s with "" => "" | String a s' => String a (dash_capitals s') end.
(** The [style] branch of [_react_attribute_to_html], /repo/src/reactpy/utils.py:259-264. Simplification: values are strings (others are
    formatted first). *)
Definition style_to_html (d : dict string string) : string :=
  join ";" (map (fun kv => lower (camel_sub (fst kv)) ++ ":" ++ snd kv)%string d).

(** ** C43 *)

(** [decl_at s pre k v]: after the prefix [pre], [s] has the declaration [k:v], ended by a semicolon or the end. *)
Definition decl_at (s pre k v : string) : Prop :=
  exists post, s = (pre ++ k ++ ":" ++ v ++ post)%string /\
    (pre = "" \/ exists p, pre = (p ++ ";")%string) /\ (post = "" \/ exists q, post = (";" ++ q)%string) /\
    nochar ":" k /\ nochar ";" k /\ nochar ";" v.
(** camelCase, letter by letter: dashes disappear, the letter after a dash is a capital, the others after the first dash
    are small. *)
Fixpoint camel_from (dash seen : bool) (s : string) : string :=
  match s with
  | "" => ""
  | String a s' =>
      if Ascii.eqb a "-" then camel_from true true s'
      else String (if dash then up a else if seen then low a else a) (camel_from false seen s')
  end.
Definition camel_name (s : string) : string := camel_from false false s.

Lemma join_empty l : join "" l = fold_right append "" l.
Proof.
  induction l as [|p l IH]; auto. destruct l as [|q l]; [simpl; symmetry; apply app_nil_s|]. rewrite join_cons, IH. reflexivity.
Qed.
Lemma split_dash_cons s : exists p ps, split "-" s = p :: ps.
Proof. apply split_cons. Qed.
Lemma cat_cons p l : fold_right append "" (p :: l) = (p ++ fold_right append "" l)%string.
Proof. reflexivity. Qed.
Lemma camel_from_spec s : forall p ps, split "-" s = p :: ps ->
  camel_from false false s = fold_right append "" (p :: map capitalize ps) /\
  camel_from false true s = (lower p ++ fold_right append "" (map capitalize ps))%string /\
  camel_from true true s = fold_right append "" (map capitalize (p :: ps)).
Proof.
  induction s as [|a s IH]; intros p ps H.
  - injection H as <- <-. auto.
  - cbn [split] in H. cbn [camel_from]. destruct (eqb_spec' a "-") as [->|N].
    + injection H as <- <-. destruct (split_dash_cons s) as (q & qs & E). destruct (IH _ _ E) as (H1 & H2 & H3). rewrite E.
      rewrite H3. repeat split; reflexivity.
    + destruct (split_dash_cons s) as (q & qs & E). rewrite E in H. injection H as <- <-. destruct (IH _ _ E) as (H1 & H2 & H3).
      rewrite H1, H2. cbn [fold_right map capitalize lower smap append]. repeat split; reflexivity.
Qed.
Lemma camel_spec s : kebab_to_camel s = camel_name s.
Proof.
  unfold kebab_to_camel, camel_name. destruct (split_dash_cons s) as (p & ps & E). rewrite E, join_empty.
  destruct (camel_from_spec s p ps E) as (H & _ & _). rewrite H. reflexivity.
Qed.

(** Positions: the declarations of [s] with the length of what precedes them. *)
Fixpoint parts_at (off : nat) (l : list string) : list (nat * string) :=
  match l with [] => [] | p :: l' => (off, p) :: parts_at (off + S (String.length p)) l' end.
Lemma parts_at_snd off l : map snd (parts_at off l) = l.
Proof. revert off. induction l; simpl; intros; auto. f_equal. auto. Qed.
Lemma join_app c (l1 l2 : list string) : l1 <> [] -> l2 <> [] -> join c (l1 ++ l2) = (join c l1 ++ c ++ join c l2)%string.
Proof.
  intros N1 N2. induction l1 as [|p l1 IH]; [congruence|]. destruct l1 as [|q l1].
  - cbn [app]. destruct l2; [congruence|]. reflexivity.
  - cbn [app] in IH |- *. rewrite !join_cons, IH by discriminate. rewrite !app_assoc_s. reflexivity.
Qed.
(** A part of [split ";" s] with what precedes it, relationally. *)
Definition part_at (s pre p : string) : Prop :=
  exists post, s = (pre ++ p ++ post)%string /\ (pre = "" \/ exists x, pre = (x ++ ";")%string) /\
    (post = "" \/ exists q, post = (";" ++ q)%string) /\ nochar ";" p.
Lemma app_snoc_neq (x : string) c : (x ++ String c "")%string <> "".
Proof. destruct x; discriminate. Qed.
Lemma part_at_shift p0 s pre p : nochar ";" p0 ->
  (part_at (p0 ++ String ";" s) pre p <-> (pre = "" /\ p = p0) \/ exists pre', pre = (p0 ++ String ";" pre')%string /\ part_at s pre' p).
Proof.
  intros N0. split.
  - intros (post & E & P & Q & NP). destruct P as [->|[x ->]].
    + left. split; auto. cbn [append] in E. symmetry in E. apply (split_first ";") in E; try tauto.
      * destruct Q as [->|[q ->]]; [left|right]; simpl; eauto.
      * right. eauto.
    + right. revert p0 N0 E. induction x as [|a x IH]; intros p0 N0 E.
      * destruct p0 as [|b p0]; simpl in E.
        -- injection E as E. exists "". split; auto. exists post. split; auto.
        -- injection E as -> _. simpl in N0. tauto.
      * destruct p0 as [|b p0]; simpl in E.
        -- injection E as <- E. exists (x ++ ";")%string. split; auto. exists post. split; auto. split; auto. right. eauto.
        -- injection E as -> E. simpl in N0. destruct (IH p0 (proj2 N0) E) as (pre' & X & Y). exists pre'. split; auto. simpl. f_equal. auto.
  - intros [[-> ->]|(pre' & -> & post & -> & P & Q & NP)].
    + exists (String ";" s). split; auto. split; auto. split; [right; exists s; auto|auto].
    + exists post. split; [rewrite !app_assoc_s; reflexivity|]. split; [|auto]. right. destruct P as [->|[x ->]]; [exists p0; auto|].
      exists (p0 ++ String ";" x)%string. rewrite app_assoc_s. reflexivity.
Qed.
Lemma part_at_last p0 pre p : nochar ";" p0 -> (part_at p0 pre p <-> pre = "" /\ p = p0).
Proof.
  intros N0. split.
  - intros (post & -> & P & Q & NP). apply nochar_app in N0. destruct N0 as [NA NB]. apply nochar_app in NB. destruct NB as [NB NC].
    destruct P as [->|[x ->]]; [|apply nochar_app in NA; simpl in NA; tauto].
    destruct Q as [->|[q ->]]; [|simpl in NC; tauto]. rewrite app_nil_s. auto.
  - intros [-> ->]. exists "". rewrite app_nil_s. auto.
Qed.
Lemma parts_spec l : l <> [] -> Forall (nochar ";") l -> forall off pre p,
  (part_at (join ";" l) pre p -> In (off + String.length pre, p) (parts_at off l)) /\
  (forall n, In (n, p) (parts_at off l) -> exists pre', part_at (join ";" l) pre' p /\ n = off + String.length pre').
Proof.
  induction l as [|p0 l IH]; [congruence|]. intros _ F off pre p. inversion F as [|? ? F1 F2]; subst. destruct l as [|q l].
  - cbn [join parts_at In]. rewrite part_at_last by auto. split.
    + intros [-> ->]. simpl. rewrite Nat.add_0_r. auto.
    + intros n [H|[]]. injection H as <- <-. exists "". rewrite part_at_last by auto. simpl. auto.
  - rewrite join_cons. change ((p0 ++ ";" ++ join ";" (q :: l)))%string with (p0 ++ String ";" (join ";" (q :: l)))%string.
    assert (IH' := IH ltac:(discriminate) F2 (off + S (String.length p0))). cbn [parts_at In]. rewrite part_at_shift by auto. split.
    + intros [[-> ->]|(pre' & -> & H)]; [left; f_equal; simpl; lia|]. right. destruct (IH' pre' p) as [A _]. specialize (A H).
      rewrite app_len. cbn [String.length]. replace (off + (String.length p0 + S (String.length pre'))) with (off + S (String.length p0) + String.length pre') by lia. exact A.
    + intros n [H|H].
      * injection H as <- <-. exists "". rewrite part_at_shift by auto. split; [left; auto|simpl; lia].
      * destruct (IH' "" p) as [_ B]. destruct (B n H) as (pre' & P & ->). exists (p0 ++ String ";" pre')%string. rewrite part_at_shift by auto.
        split; [right; eauto|]. rewrite app_len. simpl. lia.
Qed.
Lemma decl_part s pre k v : decl_at s pre k v <-> exists p, part_at s pre p /\ split1 ":" p = Some (k, v).
Proof.
  unfold decl_at, part_at. split.
  - intros (post & E & P & Q & N1 & N2 & N3). exists (k ++ String ":" v)%string. split.
    + exists post. split; [rewrite E, !app_assoc_s; reflexivity|]. split; auto. split; auto. apply nochar_app. split; auto. simpl. split; [discriminate|auto].
    + apply split1_Some. auto.
  - intros (p & (post & E & P & Q & N) & S1). apply split1_Some in S1. destruct S1 as [-> NK]. exists post.
    apply nochar_app in N. simpl in N. split; [rewrite E, !app_assoc_s; reflexivity|]. tauto.
Qed.

(** The dictionary holds the last declaration of a name. *)
Fixpoint last_decl (name : string) (l : list (nat * string)) : option (nat * string) :=
  match l with
  | [] => None
  | (n, p) :: l' =>
      match last_decl name l' with
      | Some r => Some r
      | None => match split1 ":" p with
                | Some (k, v) => if String.eqb (camel_name (strip k)) name then Some (n, strip v) else None
                | None => None
                end
      end
  end.
Definition decls_of (l : list string) : list (string * string) := flat_map (fun part => match split1 ":" part with Some kv => [kv] | None => [] end) l.
Lemma fold_decls name l : forall off d, dget name (fold_left put_decl (decls_of l) d) =
  match last_decl name (parts_at off l) with Some (_, v) => Some v | None => dget name d end.
Proof.
  induction l as [|p l IH]; intros off d; cbn [decls_of flat_map parts_at last_decl]; [reflexivity|].
  rewrite fold_left_app. rewrite (IH (off + S (String.length p))).
  destruct (last_decl name (parts_at (off + S (String.length p)) l)) as [[n v]|]; [reflexivity|].
  destruct (split1 ":" p) as [[k v]|]; [|reflexivity]. cbn [fold_left]. unfold put_decl. cbn [fst snd]. rewrite camel_spec.
  destruct (String.eqb (camel_name (strip k)) name) eqn:E.
  - apply String.eqb_eq in E. rewrite E. apply dget_dset_same.
  - apply String.eqb_neq in E. apply dget_dset_other. auto.
Qed.
Lemma parts_at_lb off l n p : In (n, p) (parts_at off l) -> off <= n.
Proof. revert off. induction l as [|q l IH]; simpl; intros off H; [tauto|]. destruct H as [H|H]; [injection H as <- <-; auto|]. apply IH in H. lia. Qed.
Lemma last_decl_spec name l : forall off n v, last_decl name (parts_at off l) = Some (n, v) <->
  exists p k w, In (n, p) (parts_at off l) /\ split1 ":" p = Some (k, w) /\ camel_name (strip k) = name /\ strip w = v /\
    (forall n' p' k' w', In (n', p') (parts_at off l) -> split1 ":" p' = Some (k', w') -> n < n' -> camel_name (strip k') <> name).
Proof.
  induction l as [|q l IH]; intros off n v; cbn [parts_at last_decl].
  - split; [discriminate|]. intros (p & k & w & [] & _).
  - assert (IH' := IH (off + S (String.length q))). destruct (last_decl name (parts_at (off + S (String.length q)) l)) as [[n0 v0]|] eqn:E.
    + destruct (proj1 (IH' n0 v0) eq_refl) as (p & k & w & I1 & S1 & C1 & W1 & L1). split.
      * intros H. injection H as <- <-. exists p, k, w. split; [right; auto|]. split; auto. split; auto. split; auto.
        intros n' p' k' w' [H|H] S' LT; [|eauto]. injection H as <- <-. apply parts_at_lb in I1. lia.
      * intros (p2 & k2 & w2 & I2 & S2 & C2 & W2 & L2). destruct I2 as [H|I2].
        -- injection H as <- <-. exfalso. apply (L2 n0 p k w (or_intror I1) S1); auto. apply parts_at_lb in I1. lia.
        -- apply (proj2 (IH' n v)). exists p2, k2, w2. split; auto. split; auto. split; auto. split; auto. intros. eapply L2; eauto. right; auto.
    + assert (NO : forall n' p' k' w', In (n', p') (parts_at (off + S (String.length q)) l) -> split1 ":" p' = Some (k', w') -> camel_name (strip k') <> name).
      { assert (X : forall m, forall n' p' k' w', n' + m >= off + S (String.length q) + fold_right (fun p a => S (String.length p) + a) 0 l ->
           In (n', p') (parts_at (off + S (String.length q)) l) -> split1 ":" p' = Some (k', w') -> camel_name (strip k') <> name).
        { assert (UB : forall l off n p, In (n, p) (parts_at off l) -> n < off + fold_right (fun p a => S (String.length p) + a) 0 l).
          { clear. induction l as [|q l IH]; cbn [parts_at In fold_right]; intros off n p; [tauto|]. intros [H|H]; [injection H as <- <-; lia|]. apply IH in H. lia. }
          intros m. induction m as [|m IHm]; intros n' p' k' w' G I' S' C'.
          - apply UB in I'. lia.
          - assert (X : @None (nat * string) = Some (n', strip w')).
            { apply (proj2 (IH' _ _)). exists p', k', w'. split; auto. split; auto. split; auto. split; auto.
              intros n2 p2 k2 w2 I2 S2 LT. apply (IHm n2 p2 k2 w2); auto. lia. }
            discriminate. }
        intros n' p' k' w' I' S'. eapply (X (off + S (String.length q) + fold_right (fun p a => S (String.length p) + a) 0 l)); [lia|exact I'|exact S']. }
      split.
      * destruct (split1 ":" q) as [[k w]|] eqn:SQ; [|discriminate]. destruct (String.eqb (camel_name (strip k)) name) eqn:EQ; [|discriminate].
        apply String.eqb_eq in EQ. intros H. injection H as <- <-. exists q, k, w. split; [left; auto|]. split; auto. split; auto. split; auto.
        intros n' p' k' w' [H|H] S' LT; [injection H as <- <-; lia|]. eauto.
      * intros (p2 & k2 & w2 & [H|H] & S2 & C2 & W2 & L2).
        -- injection H as <- <-. rewrite S2. apply String.eqb_eq in C2. rewrite C2. subst. reflexivity.
        -- exfalso. eapply NO; eauto.
Qed.

(** Parsing yields exactly the declarations of the string, trimmed, with camelCase names, the last one of a name winning. *)
Theorem C43_parse s name val : dget name (parse_style s) = Some val <->
  exists pre k v k' , decl_at s pre k v /\ trims_to k k' /\ camel_name k' = name /\ trims_to v val /\
    forall pre2 k2 v2 k2', decl_at s pre2 k2 v2 -> String.length pre < String.length pre2 -> trims_to k2 k2' -> camel_name k2' <> name.
Proof.
  unfold parse_style, style_parts. change (flat_map _ (split ";" s)) with (decls_of (split ";" s)). rewrite (fold_decls name (split ";" s) 0).
  assert (JS := join_split ";" s). assert (F := split_nochar ";" s). assert (NN := split_nonnil ";" s).
  assert (PS := parts_spec (split ";" s) NN F 0). rewrite JS in PS.
  assert (DA : forall pre k v, decl_at s pre k v -> exists p, In (String.length pre, p) (parts_at 0 (split ";" s)) /\ split1 ":" p = Some (k, v)).
  { intros pre k v D. apply decl_part in D. destruct D as (p & P & S1). exists p. split; auto. apply (PS pre p). auto. }
  split.
  - destruct (last_decl name (parts_at 0 (split ";" s))) as [[n v0]|] eqn:E; [|discriminate]. intros H. injection H as ->.
    apply last_decl_spec in E. destruct E as (p & k & w & I1 & S1 & C1 & W1 & L1). destruct (PS "" p) as [_ B]. destruct (B n I1) as (pre & P & ->).
    exists pre, k, w, (strip k). split; [apply decl_part; eauto|]. split; [apply strip_spec|]. split; auto. split; [rewrite <- W1; apply strip_spec|].
    intros pre2 k2 v2 k2' D LT T. apply strip_iff in T. subst k2'. destruct (DA _ _ _ D) as (p2 & I2 & S2). eapply L1; eauto. 
  - intros (pre & k & v & k' & D & T & C & TV & L). destruct (DA _ _ _ D) as (p & I1 & S1). apply strip_iff in T. apply strip_iff in TV. subst k' val.
    assert (X : last_decl name (parts_at 0 (split ";" s)) = Some (String.length pre, strip v)).
    { apply last_decl_spec. exists p, k, v. split; auto. split; auto. split; auto. split; auto.
      intros n' p' k' w' I' S' LT. destruct (PS "" p') as [_ B]. destruct (B n' I') as (pre' & P' & ->). eapply L; [|exact LT|apply strip_spec].
      apply decl_part. eauto. }
    rewrite X. reflexivity.
Qed.
Example C43_parse_example : parse_style " color : red;background-color:BLUE ; nonsense;color:green" = [("color", "green"); ("backgroundColor", "BLUE")].
Proof. reflexivity. Qed.

(** Names and values that survive a round trip. *)
Definition style_name (k : string) : Prop :=
  nochar "-" k /\ nochar ":" k /\ nochar ";" k /\ trimmed k /\ (forall a, first_char k = Some a -> is_upper a = false).
Definition style_value (v : string) : Prop := nochar ";" v /\ trimmed v.

Lemma nochar_lower c s : is_lower c = false -> nochar c s -> nochar c (lower s).
Proof. intros L. unfold lower. induction s as [|a s IH]; simpl; auto. intros [N H]. split; auto. intros E. apply low_neq in E; auto. Qed.
Lemma nochar_dash c s : c <> "-"%char -> nochar c s -> nochar c (dash_capitals s).
Proof. intros L. induction s as [|a s IH]; simpl; auto. intros [N H]. destruct (is_upper a); simpl; auto. Qed.
Lemma nochar_sub c s : c <> "-"%char -> nochar c s -> nochar c (camel_sub s).
Proof. intros L. destruct s as [|a s]; simpl; auto. intros [N H]. split; auto. apply nochar_dash; auto. Qed.
Lemma low_dash a : low a = "-"%char -> a = "-"%char.
Proof. apply low_neq. reflexivity. Qed.
Lemma camel_lower_dash s : nochar "-" s -> forall seen, (seen = false -> nochar "-" s) ->
  camel_from false true (lower (dash_capitals s)) = s /\ camel_from false false (lower (dash_capitals s)) = s.
Proof.
  unfold lower. induction s as [|a s IH]; simpl; auto. intros [N H] seen _. assert (IH' := IH H true ltac:(discriminate)). destruct IH' as [I1 I2].
  destruct (is_upper a) eqn:U.
  - cbn [smap camel_from]. change (low "-") with "-"%char. rewrite Ascii.eqb_refl. destruct (eqb_spec' (low a) "-") as [E|E]; [apply low_dash in E; congruence|].
    rewrite up_low by auto. rewrite I1. auto.
  - cbn [smap camel_from]. destruct (eqb_spec' (low a) "-") as [E|E]; [apply low_dash in E; congruence|]. rewrite I1, I2. rewrite !low_id; auto. rewrite low_id; auto.
Qed.
Lemma camel_sub_back k : nochar "-" k -> (forall a, first_char k = Some a -> is_upper a = false) -> camel_name (lower (camel_sub k)) = k.
Proof.
  destruct k as [|a k]; simpl; auto. intros [N H] F. unfold camel_name, lower. cbn [smap camel_from].
  destruct (eqb_spec' (low a) "-") as [E|E]; [apply low_dash in E; congruence|]. fold (lower (dash_capitals k)). destruct (camel_lower_dash k H false ltac:(auto)) as [_ ->].
  rewrite low_id; auto.
Qed.
Lemma first_lower_sub k : first_char (lower (camel_sub k)) = option_map low (first_char k).
Proof. destruct k; reflexivity. Qed.
Lemma last_dash s : last_char (dash_capitals s) = last_char s.
Proof.
  induction s as [|a s IH]; auto. cbn [dash_capitals]. assert (E : dash_capitals s = "" -> s = "") by (destruct s as [|b s]; auto; simpl; destruct (is_upper b); discriminate).
  destruct (is_upper a); rewrite ?last_cons, IH.
  - destruct (dash_capitals s) eqn:D; [rewrite E by auto; reflexivity|]. destruct s; [discriminate|reflexivity].
  - destruct (dash_capitals s) eqn:D; [rewrite E by auto; reflexivity|]. destruct s; [discriminate|reflexivity].
Qed.
Lemma last_lower s : last_char (lower s) = option_map low (last_char s).
Proof. unfold lower. induction s as [|a s IH]; auto. cbn [smap]. rewrite !last_cons. rewrite IH. destruct s; reflexivity. Qed.
Lemma last_sub k : last_char (camel_sub k) = last_char k.
Proof. destruct k as [|a k]; auto. cbn [camel_sub]. rewrite !last_cons, last_dash. destruct k as [|b k]; auto. simpl. destruct (is_upper b); reflexivity. Qed.
Lemma trimmed_html k : trimmed k -> trimmed (lower (camel_sub k)).
Proof.
  intros [F L]. split; intros a; [rewrite first_lower_sub|rewrite last_lower, last_sub].
  - destruct (first_char k) as [b|] eqn:E; [|discriminate]. intros H. injection H as <-. rewrite low_space. auto.
  - destruct (last_char k) as [b|] eqn:E; [|discriminate]. intros H. injection H as <-. rewrite low_space. auto.
Qed.
Lemma style_parts_html d : d <> [] -> Forall (fun kv => style_name (fst kv) /\ style_value (snd kv)) d ->
  style_parts (style_to_html d) = map (fun kv => (lower (camel_sub (fst kv)), snd kv)) d.
Proof.
  intros N F. unfold style_parts, style_to_html. rewrite (split_join ";").
  2:{ destruct d; [congruence|discriminate]. }
  2:{ apply Forall_map. eapply Forall_impl; [|exact F]. intros [k v] [(H1 & H2 & H3 & H4 & H5) [H6 H7]]. cbn [fst snd] in *.
      apply nochar_app. split; [apply nochar_lower; [reflexivity|apply nochar_sub; [discriminate|auto]]|]. simpl. split; [discriminate|auto]. }
  clear N. induction F as [|[k v] d [(H1 & H2 & H3 & H4 & H5) [H6 H7]] F IH]; [reflexivity|]. cbn [map flat_map fst snd].
  assert (S1 : split1 ":" (lower (camel_sub k) ++ ":" ++ v)%string = Some (lower (camel_sub k), v)).
  { apply split1_Some. split; auto. cbn [fst] in H2. apply nochar_lower; [reflexivity|apply nochar_sub; [discriminate|auto]]. }
  rewrite S1, IH. reflexivity.
Qed.
(** Writing a style dictionary and reading it again restores it. *)
Theorem C43_roundtrip d : NoDup (map fst d) -> Forall (fun kv => style_name (fst kv) /\ style_value (snd kv)) d ->
  parse_style (style_to_html d) = d.
Proof.
  intros ND F. destruct d as [|kv0 d0] eqn:D; [reflexivity|]. rewrite <- D in *. unfold parse_style. rewrite style_parts_html by (auto; congruence).
  assert (G : forall d acc, NoDup (map fst (acc ++ d)) -> Forall (fun kv => style_name (fst kv) /\ style_value (snd kv)) d ->
    fold_left put_decl (map (fun kv => (lower (camel_sub (fst kv)), snd kv)) d) acc = acc ++ d).
  { clear. induction d as [|[k v] d IH]; intros acc ND F; [simpl; rewrite app_nil_r; auto|]. inversion F as [|? ? [(H1 & H2 & H3 & H4 & H5) [H6 H7]] F']; subst.
    cbn [map fold_left fst snd] in *. unfold put_decl at 2. cbn [fst snd]. rewrite camel_spec, (strip_trimmed (lower (camel_sub k))) by (apply trimmed_html; auto).
    rewrite camel_sub_back, (strip_trimmed v) by auto.
    assert (NI : ~ In k (map fst acc)). { rewrite map_app in ND. apply NoDup_remove_2 in ND. rewrite in_app_iff in ND. tauto. }
    assert (DS : dset k v acc = acc ++ [(k, v)]).
    { clear - NI. induction acc as [|[k' v'] acc IH]; simpl; auto. simpl in NI. destruct (eq_dec k' k) as [->|N]; [tauto|].
      destruct (eq_dec k k') as [->|N2]; [tauto|]. f_equal. apply IH. tauto. }
    rewrite DS, IH; auto; rewrite <- app_assoc; auto. }
  apply (G d []); auto.
Qed.
Example C43_roundtrip_example : let d := [("backgroundColor", "red"); ("fontSize", "12px"); ("gridArea", "a : b")] in
  NoDup (map fst d) /\ Forall (fun kv => style_name (fst kv) /\ style_value (snd kv)) d /\
  style_to_html d = "background-color:red;font-size:12px;grid-area:a : b" /\ parse_style (style_to_html d) = d.
Proof.
  split; [repeat constructor; simpl; intuition discriminate|]. split; [|split; reflexivity].
  repeat constructor; simpl; try discriminate; intros a H; injection H as <-; reflexivity.
Qed.
(** Findings: vendor prefixes lose their dash, custom properties lose their name, and a semicolon inside a value ends it. *)
Theorem C43_vendor_refuted : style_to_html [("WebkitTransform", "none")] = "webkit-transform:none".
Proof. reflexivity. Qed.
Theorem C43_custom_property_refuted : parse_style "--main-color:red" = [("MainColor", "red")].
Proof. reflexivity. Qed.
Theorem C43_semicolon_refuted : parse_style "background:url(data:image/png;base64,AA==)" = [("background", "url(data:image/png")].
Proof. reflexivity. Qed.

(** ** Attribute names *)

(** [KNOWN_REACT_PROPS], transforms.py:164-397. *)
Definition known_react_props : list string :=
  ["onLoadStart"; "onTouchStart"; "onProgressCapture"; "contentEditable"; "dir"; "onClick"; "onTimeUpdateCapture";
   "onPointerCancelCapture"; "charset"; "formEnctype"; "accessKey"; "required"; "onError"; "capture"; "formAction";
   "onEmptiedCapture"; "hrefLang"; "form"; "onKeyDownCapture"; "onMouseUpCapture"; "onBeforeInput"; "onCutCapture";
   "onDurationChange"; "onCanPlayCapture"; "onGotPointerCapture"; "onSuspend"; "inputMode"; "onPointerCancel";
   "onSuspendCapture"; "onKeyDown"; "onTimeUpdate"; "maxLength"; "onDropCapture"; "onCompositionUpdateCapture";
   "nonce"; "onKeyUp"; "title"; "onSeekingCapture"; "onStalledCapture"; "onKeyPressCapture"; "referrerPolicy";
   "onMouseMove"; "onPointerDown"; "onReset"; "onScrollCapture"; "onEncryptedCapture"; "onWaiting"; "placeholder";
   "onCompositionUpdate"; "onTouchEndCapture"; "onLoadedMetadata"; "onCanPlay"; "onCopy"; "onTouchMoveCapture";
   "onLoadCapture"; "onMouseDownCapture"; "pattern"; "onCanPlayThrough"; "onTransitionEnd"; "min"; "autoComplete";
   "referrer"; "checked"; "onWheelCapture"; "autoFocus"; "alt"; "onTransitionEndCapture"; "onPause";
   "onLoadedDataCapture"; "onAuxClickCapture"; "onDragStart"; "onInputCapture"; "onAbort"; "onBlurCapture";
   "onTouchStartCapture"; "onCompositionStartCapture"; "onDrag"; "max"; "enterKeyHint"; "onInput"; "width"; "accept";
   "onResetCapture"; "onScroll"; "suppressContentEditableWarning"; "onKeyUpCapture"; "onPaste"; "onPauseCapture";
   "onTouchMove"; "onDoubleClickCapture"; "defaultChecked"; "spellCheck"; "onChangeCapture"; "onBeforeInputCapture";
   "onInvalid"; "fetchPriority"; "onAnimationEndCapture"; "onSeeked"; "onToggle"; "onPlayCapture";
   "onAnimationIteration"; "onEndedCapture"; "onPlaying"; "multiple"; "dangerouslySetInnerHTML"; "as";
   "onLoadedMetadataCapture"; "href"; "draggable"; "lang"; "onAnimationEnd"; "translate"; "imageSrcSet";
   "onRateChange"; "itemProp"; "onPointerLeave"; "onSelect"; "onMouseOut"; "dirname"; "onMouseDown"; "onPointerUp";
   "style"; "onGotPointerCaptureCapture"; "onLoadStartCapture"; "formNoValidate"; "className"; "onClickCapture";
   "onFocusCapture"; "onDragEnd"; "is"; "onPasteCapture"; "onVolumeChange"; "onDragOver"; "onMouseOutCapture";
   "onCompositionStart"; "onDragCapture"; "onMouseEnter"; "onFocus"; "onLostPointerCapture"; "onEmptied";
   "onMouseMoveCapture"; "onBlur"; "onContextMenuCapture"; "wrap"; "onChange"; "onKeyPress"; "onMouseUp"; "onSubmit";
   "onTouchCancel"; "integrity"; "id"; "onDragOverCapture"; "minLength"; "onTouchEnd"; "onAuxClick"; "onLoad";
   "content"; "onCanPlayThroughCapture"; "onAnimationStartCapture"; "onAnimationStart"; "onDragEnter";
   "onPointerDownCapture"; "onEnded"; "onProgress"; "onDragEndCapture"; "slot"; "onRateChangeCapture";
   "onMouseLeave"; "async"; "height"; "step"; "disabled"; "onLoadedData"; "src"; "onPointerEnter";
   "onTouchCancelCapture"; "readOnly"; "size"; "suppressHydrationWarning"; "htmlFor"; "onPointerOutCapture";
   "onCopyCapture"; "onDoubleClick"; "onCompositionEnd"; "onCompositionEndCapture"; "onSeeking"; "onPointerOut";
   "onSubmitCapture"; "onSeekedCapture"; "onEncrypted"; "onLostPointerCaptureCapture"; "onToggleCapture";
   "onPointerUpCapture"; "onWheel"; "onCut"; "onAbortCapture"; "onResizeCapture"; "httpEquiv"; "onResize"; "type";
   "onVolumeChangeCapture"; "onSelectCapture"; "onDragStartCapture"; "imageSizes"; "crossOrigin"; "autoCapitalize";
   "value"; "list"; "onInvalidCapture"; "formTarget"; "onAnimationIterationCapture"; "onStalled"; "onWaitingCapture";
   "cols"; "onPointerMove"; "onDragEnterCapture"; "tabIndex"; "onPlayingCapture"; "rows"; "role";
   "onPointerMoveCapture"; "onContextMenu"; "hidden"; "noModule"; "formMethod"; "sizes"; "onPlay";
   "onDurationChangeCapture"; "onErrorCapture"; "onDrop"; "defaultValue"; "name"].
(** [REACT_PROP_SUBSTITUTIONS], transforms.py:399-405. The set has no two names with the same small letters
    ([known_distinct]), so its iteration order does not matter. *)
Definition substitutions : dict string string :=
  dupdate (map (fun p => (lower p, p)) known_react_props)
    [("for", "htmlFor"); ("class", "className"); ("checked", "defaultChecked"); ("accept-charset", "acceptCharset"); ("http-equiv", "httpEquiv")].
Definition rename (k : string) : string := match dget k substitutions with Some r => r | None => k end.
(** [attributes_to_reactjs], transforms.py:9-16. *)
Definition attributes_to_reactjs {V} (attrs : list (string * V)) : dict string V :=
  fold_left (fun d kv => dset (rename (fst kv)) (snd kv) d) attrs [].
(** [_react_attribute_to_html], /repo/src/reactpy/utils.py:253-273. [IOther s] is a value whose [str] is [s] (a number, a boolean);
    [ICall] a callable. *)
Inductive ival := IStr (s : string) | IStyle (d : dict string string) | IOther (s : string) | ICall.
Definition starts_with (p s : string) : bool := String.prefix p s.
Definition html_name (k : string) : string :=
  if String.eqb k "style" then "style"
  else if mem k ["acceptCharset"; "httpEquiv"] then lower (camel_sub k)
  else if starts_with "data-" k || starts_with "aria-" k then k
  else lower k.
(** [str] of a dictionary is only needed for [style], so other attributes whose value is a dictionary are [IOther]. *)
Definition html_value (v : ival) : option string :=
  match v with IStr s => Some s | IStyle d => Some (style_to_html d) | IOther s => Some s | ICall => None end.

(** ** C44 *)
Definition nodupb (l : list string) : bool := (fix go l := match l with [] => true | x :: l' => negb (mem x l') && go l' end) l.
Lemma nodupb_sound l : nodupb l = true -> NoDup l.
Proof.
  induction l as [|x l IH]; simpl; intros H; constructor; apply andb_true_iff in H; destruct H as [H1 H2]; auto.
  intros I. apply mem_In in I. rewrite I in H1. discriminate.
Qed.
Lemma known_distinct : NoDup (map lower known_react_props).
Proof. apply nodupb_sound. vm_compute. reflexivity. Qed.

(** The special names of the table. *)
Definition special_names : list (string * string) :=
  [("for", "htmlFor"); ("class", "className"); ("checked", "defaultChecked"); ("accept-charset", "acceptCharset"); ("http-equiv", "httpEquiv")].
Theorem C44_known p : In p known_react_props -> p <> "checked" -> rename (lower p) = p.
Proof.
  intros I N. assert (A : forallb (fun p => String.eqb p "checked" || String.eqb (rename (lower p)) p) known_react_props = true) by (vm_compute; reflexivity).
  rewrite forallb_forall in A. apply A in I. apply orb_true_iff in I. destruct I as [I|I]; apply String.eqb_eq in I; congruence.
Qed.
Theorem C44_special k r : In (k, r) special_names -> rename k = r.
Proof. intros I. repeat (destruct I as [I|I]; [injection I as <- <-; vm_compute; reflexivity|]). destruct I. Qed.
Lemma substitution_keys k r : dget k substitutions = Some r -> (exists p, In p known_react_props /\ k = lower p) \/ In k (map fst special_names).
Proof.
  intros H. assert (A : forallb (fun kv => existsb (fun p => String.eqb (fst kv) (lower p)) known_react_props || mem (fst kv) (map fst special_names)) substitutions = true) by (vm_compute; reflexivity).
  rewrite forallb_forall in A. assert (I : In (k, r) substitutions).
  { clear A. revert H. generalize substitutions. induction d as [|[k' v'] d IH]; simpl; [discriminate|]. destruct (eq_dec k k') as [->|N]; intros H; [injection H as ->; auto|right; auto]. }
  apply A in I. cbn [fst] in I. apply orb_true_iff in I. destruct I as [I|I]; [left|right; apply mem_In; auto].
  apply existsb_exists in I. destruct I as (p & I & E). apply String.eqb_eq in E. eauto.
Qed.
Theorem C44_other k : (forall p, In p known_react_props -> k <> lower p) -> ~ In k (map fst special_names) -> rename k = k.
Proof.
  intros H N. unfold rename. destruct (dget k substitutions) as [r|] eqn:E; auto. apply substitution_keys in E. destruct E as [(p & I & ->)|E]; [destruct (H p I); auto|tauto].
Qed.
Lemma rename_idem k : rename (rename k) = rename k.
Proof.
  unfold rename at 2 3. destruct (dget k substitutions) as [r|] eqn:E; [|unfold rename; rewrite E; auto].
  assert (A : forallb (fun kv => String.eqb (rename (snd kv)) (snd kv)) substitutions = true) by (vm_compute; reflexivity).
  rewrite forallb_forall in A. assert (I : In (k, r) substitutions).
  { clear A. revert E. generalize substitutions. induction d as [|[k' v'] d IH]; simpl; [discriminate|]. destruct (eq_dec k k') as [->|N]; intros H; [injection H as ->; auto|right; auto]. }
  apply A in I. cbn [snd] in I. apply String.eqb_eq in I. auto.
Qed.

Lemma dset_fresh' {V} (k : string) (v : V) (d : dict string V) : ~ In k (map fst d) -> dset k v d = d ++ [(k, v)].
Proof.
  induction d as [|[k' v'] d IH]; intros H; simpl; auto. simpl in H. destruct (eq_dec k' k) as [->|N]; [tauto|].
  destruct (eq_dec k k') as [->|N2]; [tauto|]. f_equal. apply IH. tauto.
Qed.
Lemma fold_dset_nodup {V} (f : string -> string) (l acc : list (string * V)) : NoDup (map fst acc ++ map (fun kv => f (fst kv)) l) ->
  fold_left (fun d kv => dset (f (fst kv)) (snd kv) d) l acc = acc ++ map (fun kv => (f (fst kv), snd kv)) l.
Proof.
  revert acc. induction l as [|[k v] l IH]; intros acc ND; [simpl; rewrite app_nil_r; auto|]. cbn [fold_left map fst snd] in *.
  assert (NI := NoDup_remove_2 _ _ _ ND). rewrite in_app_iff in NI. rewrite dset_fresh' by tauto. rewrite IH.
  - rewrite <- app_assoc. reflexivity.
  - rewrite map_app, <- app_assoc. exact ND.
Qed.
Lemma dset_keys_cases {V} (k : string) (v : V) (d : dict string V) x : In x (map fst (dset k v d)) -> x = k \/ In x (map fst d).
Proof. induction d as [|[k' v'] d IH]; simpl; [intuition|]. destruct (eq_dec k k') as [->|N]; simpl; intuition. Qed.
Lemma fold_keys {V} (l acc : list (string * V)) : NoDup (map fst acc) -> (forall k, In k (map fst acc) -> rename k = k) ->
  NoDup (map fst (fold_left (fun d kv => dset (rename (fst kv)) (snd kv) d) l acc)) /\
  (forall k, In k (map fst (fold_left (fun d kv => dset (rename (fst kv)) (snd kv) d) l acc)) -> rename k = k).
Proof.
  revert acc. induction l as [|[k v] l IH]; intros acc ND FX; [auto|]. cbn [fold_left fst snd]. apply IH.
  - apply NoDup_dset. auto.
  - intros x I. apply dset_keys_cases in I. destruct I as [->|I]; auto. apply rename_idem.
Qed.
(** Renaming twice is renaming once. *)
Theorem C44_idempotent {V} (attrs : list (string * V)) : attributes_to_reactjs (attributes_to_reactjs attrs) = attributes_to_reactjs attrs.
Proof.
  unfold attributes_to_reactjs at 2 3. destruct (fold_keys attrs []) as [ND FX]; [constructor|simpl; tauto|]. 
  set (d := fold_left (fun (d : dict string V) kv => dset (rename (fst kv)) (snd kv) d) attrs []) in *. clearbody d.
  unfold attributes_to_reactjs. rewrite fold_dset_nodup.
  - simpl. induction d as [|[k v] d IH]; auto. simpl. rewrite FX by (simpl; auto). f_equal. apply IH; [inversion ND; auto|]. intros x I. apply FX. simpl. auto.
  - simpl. rewrite <- map_map with (f := fst) (g := rename). rewrite (map_ext_in rename (fun x => x)) by auto. rewrite map_id. auto.
Qed.
(** An attribute of the result has the value of the last given attribute with that React name. *)
Theorem C44_values {V} (attrs : list (string * V)) r v : dget r (attributes_to_reactjs attrs) = Some v <->
  exists l1 k l2, attrs = l1 ++ (k, v) :: l2 /\ rename k = r /\ forall k' v', In (k', v') l2 -> rename k' <> r.
Proof.
  unfold attributes_to_reactjs. assert (G : forall l acc, dget r (fold_left (fun d kv => dset (rename (fst kv)) (snd kv) d) l acc) = Some v <->
     (exists l1 k l2, l = l1 ++ (k, v) :: l2 /\ rename k = r /\ forall k' v', In (k', v') l2 -> rename k' <> r) \/
     (dget r acc = Some v /\ forall k' v', In (k', v') l -> rename k' <> r)).
  { induction l as [|[k0 v0] l IH]; intros acc; cbn [fold_left fst snd].
    - split; [right; simpl; auto|]. intros [(l1 & k & l2 & E & _)|[H _]]; [destruct l1; discriminate|auto].
    - rewrite IH. destruct (eq_dec (rename k0) r) as [E|E].
      + split.
        * intros [(l1 & k & l2 & -> & H1 & H2)|[H1 H2]]; [left; exists ((k0, v0) :: l1), k, l2; auto|].
          rewrite E, dget_dset_same in H1. injection H1 as ->. left. exists [], k0, l. auto.
        * intros [(l1 & k & l2 & H0 & H1 & H2)|[H1 H2]]; [|destruct (H2 k0 v0); simpl; auto].
          destruct l1 as [|p l1]; [injection H0 as <- -> ->; right; subst; split; [apply dget_dset_same|auto]|injection H0 as _ ->; left; eauto 8].
      + rewrite dget_dset_other by auto. split.
        * intros [(l1 & k & l2 & -> & H1 & H2)|[H1 H2]]; [left; exists ((k0, v0) :: l1), k, l2; auto|right]. split; auto. intros k' v' [H|H]; [congruence|eauto].
        * intros [(l1 & k & l2 & H0 & H1 & H2)|[H1 H2]]; [|right; split; auto; intros; eapply H2; simpl; eauto].
          destruct l1 as [|p l1]; [injection H0 as <- _ _; tauto|injection H0 as _ ->; left; eauto 8]. }
  rewrite G. split; [intros [H|[H _]]; [auto|discriminate]|auto].
Qed.
Example C44_example : attributes_to_reactjs [("class", 1); ("tabindex", 2); ("data-x", 3); ("for", 4); ("className", 5)] =
  [("className", 5); ("tabIndex", 2); ("data-x", 3); ("htmlFor", 4)].
Proof. vm_compute. reflexivity. Qed.
(** Writing a React name as HTML and reading it back restores it, for every known name but [checked]. *)
Theorem C44_roundtrip p : In p known_react_props -> p <> "checked" -> rename (html_name p) = p.
Proof.
  intros I N. assert (A : forallb (fun p => String.eqb p "checked" || String.eqb (rename (html_name p)) p) known_react_props = true) by (vm_compute; reflexivity).
  rewrite forallb_forall in A. apply A in I. apply orb_true_iff in I. destruct I as [I|I]; apply String.eqb_eq in I; congruence.
Qed.
Print Assumptions C43_parse.
Print Assumptions C43_roundtrip.
Print Assumptions C44_idempotent.
Print Assumptions C44_values.
