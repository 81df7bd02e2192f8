(** * Python string operations used by several models, over ASCII strings *)
From Coq Require Import String Ascii Bool Arith Lia List.
From Verif Require Import Dict Strings.
Import ListNotations.
Local Open Scope string_scope. Local Open Scope list_scope.

(** [s.split(c)] for a one-character separator. *)
Fixpoint split (c : ascii) (s : string) : list string :=
  match s with
  | "" => [""]
  | String a s' =>
      if Ascii.eqb a c then "" :: split c s'
      else match split c s' with [] => [String a ""] | p :: ps => String a p :: ps end
  end.
(** [sep.join(l)]. *)
Fixpoint join (sep : string) (l : list string) : string :=
  match l with
  | [] => ""
  | [p] => p
  | p :: l' => (p ++ sep ++ join sep l')%string
  end.
(** [s.split(c, 1)]: [None] when [c] does not occur. *)
Fixpoint split1 (c : ascii) (s : string) : option (string * string) :=
  match s with
  | "" => None
  | String a s' =>
      if Ascii.eqb a c then Some ("", s')
      else match split1 c s' with None => None | Some (x, y) => Some (String a x, y) end
  end.
(** [s.strip()]: the ASCII characters for which [str.isspace] holds. *)
Definition space (a : ascii) : bool :=
  let n := nat_of_ascii a in (Nat.leb 9 n && Nat.leb n 13) || (Nat.leb 28 n && Nat.leb n 32).
Fixpoint lstrip (s : string) : string :=
  match s with String a s' => if space a then lstrip s' else s | "" => "" end.
Fixpoint all_space (s : string) : bool := match s with "" => true | String a s' => space a && all_space s' end.
Fixpoint rstrip (s : string) : string :=
  match s with "" => "" | String a s' => if all_space s then "" else String a (rstrip s') end.
Definition strip (s : string) : string := rstrip (lstrip s).

(** [lower], [upper] and [capitalize] on ASCII letters. *)
Definition is_upper (a : ascii) : bool := let n := nat_of_ascii a in Nat.leb 65 n && Nat.leb n 90.
Definition is_lower (a : ascii) : bool := let n := nat_of_ascii a in Nat.leb 97 n && Nat.leb n 122.
Definition low (a : ascii) : ascii := if is_upper a then ascii_of_nat (nat_of_ascii a + 32) else a.
Definition up (a : ascii) : ascii := if is_lower a then ascii_of_nat (nat_of_ascii a - 32) else a.
Fixpoint smap (f : ascii -> ascii) (s : string) : string := match s with "" => "" | String a s' => String (f a) (smap f s') end.
Definition lower (s : string) : string := smap low s.
Definition capitalize (s : string) : string := match s with "" => "" | String a s' => String (up a) (lower s') end.
Fixpoint contains (c : ascii) (s : string) : bool := match s with "" => false | String a s' => Ascii.eqb a c || contains c s' end.

(** ** Facts *)
Lemma eqb_spec' (a b : ascii) : reflect (a = b) (Ascii.eqb a b).
Proof. apply Ascii.eqb_spec. Qed.
Lemma contains_nochar c s : contains c s = false <-> nochar c s.
Proof.
  induction s as [|a s IH]; simpl; [tauto|]. rewrite orb_false_iff, IH. destruct (eqb_spec' a c); intuition congruence.
Qed.
Lemma nochar_dec c s : {nochar c s} + {~ nochar c s}.
Proof. destruct (contains c s) eqn:E; [right|left]; rewrite <- contains_nochar; congruence. Qed.

Lemma split_nonnil c s : split c s <> [].
Proof. destruct s as [|a s]; simpl; [discriminate|]. destruct (Ascii.eqb a c); [discriminate|]. destruct (split c s); discriminate. Qed.
Lemma split_cons c s : exists p ps, split c s = p :: ps.
Proof. destruct (split c s) as [|p ps] eqn:E; [destruct (split_nonnil _ _ E)|eauto]. Qed.
Lemma split_nochar c s : Forall (nochar c) (split c s).
Proof.
  induction s as [|a s IH]; simpl; [repeat constructor|]. destruct (eqb_spec' a c) as [->|N].
  - constructor; [exact I|auto].
  - destruct (split c s) as [|p ps]; [repeat constructor; auto|]. inversion IH; subst. constructor; auto. simpl. auto.
Qed.
Lemma join_cons sep p q l : join sep (p :: q :: l) = (p ++ sep ++ join sep (q :: l))%string.
Proof. reflexivity. Qed.
Lemma join_split c s : join (String c "") (split c s) = s.
Proof.
  induction s as [|a s IH]; [reflexivity|]. simpl. destruct (split_cons c s) as (p & ps & E). destruct (eqb_spec' a c) as [->|N].
  - rewrite E in IH |- *. rewrite join_cons, IH. reflexivity.
  - rewrite E in IH |- *. rewrite <- IH. destruct ps as [|q ps]; [reflexivity|]. rewrite !join_cons. reflexivity.
Qed.
Lemma split_no c s : nochar c s -> split c s = [s].
Proof.
  induction s as [|a s IH]; simpl; intros H; [reflexivity|]. destruct H as [N H]. destruct (eqb_spec' a c); [congruence|]. rewrite IH by auto. reflexivity.
Qed.
Lemma split_app c p s : nochar c p -> split c (p ++ String c s) = p :: split c s.
Proof.
  induction p as [|a p IH]; simpl; intros H.
  - rewrite Ascii.eqb_refl. reflexivity.
  - destruct H as [N H]. destruct (eqb_spec' a c); [congruence|]. rewrite IH by auto. reflexivity.
Qed.
Lemma split_join c l : l <> [] -> Forall (nochar c) l -> split c (join (String c "") l) = l.
Proof.
  induction l as [|p l IH]; [congruence|]. intros _ F. inversion F; subst. destruct l as [|q l].
  - simpl. apply split_no. auto.
  - rewrite join_cons. simpl append at 2. rewrite split_app by auto. f_equal. apply IH; [discriminate|auto].
Qed.

Lemma split1_None c s : split1 c s = None <-> nochar c s.
Proof.
  induction s as [|a s IH]; simpl; [tauto|]. destruct (eqb_spec' a c) as [->|N]; [split; [discriminate|tauto]|].
  destruct (split1 c s) as [[x y]|]; (split; [try discriminate|]).
  - intros [_ H]. apply IH in H. discriminate.
  - intros _. split; auto. apply IH. auto.
  - auto.
Qed.
Lemma split1_Some c s x y : split1 c s = Some (x, y) <-> s = (x ++ String c y)%string /\ nochar c x.
Proof.
  revert x y. induction s as [|a s IH]; simpl; intros x y.
  - split; [discriminate|]. intros [H _]. destruct x; discriminate.
  - destruct (eqb_spec' a c) as [->|N].
    + split.
      * intros H. injection H as <- <-. simpl. auto.
      * intros [H NC]. destruct x as [|b x]; simpl in *; [injection H as ->; auto|]. injection H as <- H. tauto.
    + destruct (split1 c s) as [[x' y']|] eqn:E.
      * destruct (IH x' y') as [F _]. destruct (F eq_refl) as [-> NC]. split.
        -- intros H. injection H as <- <-. simpl. auto.
        -- intros [H NC2]. destruct x as [|b x]; simpl in *; [congruence|]. injection H as <- H.
           assert (X : Some (x', y') = Some (x, y)) by (apply IH; tauto). congruence.
      * split; [discriminate|]. intros [H NC]. destruct x as [|b x]; simpl in *; [congruence|]. injection H as <- H.
        assert (X : None = Some (x, y)) by (apply IH; tauto). discriminate.
Qed.

(** What stripping means. *)
Fixpoint last_char (s : string) : option ascii := match s with "" => None | String a "" => Some a | String _ s' => last_char s' end.
Definition first_char (s : string) : option ascii := match s with "" => None | String a _ => Some a end.
Definition trimmed (r : string) : Prop :=
  (forall a, first_char r = Some a -> space a = false) /\ (forall a, last_char r = Some a -> space a = false).
Definition trims_to (s r : string) : Prop :=
  exists x y, s = (x ++ r ++ y)%string /\ all_space x = true /\ all_space y = true /\ trimmed r.

Lemma all_space_app x y : all_space (x ++ y) = all_space x && all_space y.
Proof. induction x; simpl; auto. rewrite IHx. apply andb_assoc. Qed.
Lemma lstrip_spec s : exists x, s = (x ++ lstrip s)%string /\ all_space x = true /\ (forall a, first_char (lstrip s) = Some a -> space a = false).
Proof.
  induction s as [|a s IH]; simpl; [exists ""; simpl; repeat split; auto; discriminate|]. destruct (space a) eqn:E.
  - destruct IH as (x & H1 & H2 & H3). exists (String a x). simpl. rewrite E. repeat split; auto. congruence.
  - exists "". simpl. repeat split; auto. intros b H. congruence.
Qed.
Lemma last_cons a s : last_char (String a s) = match s with "" => Some a | _ => last_char s end.
Proof. destruct s; reflexivity. Qed.
Lemma rstrip_spec s : exists y, s = (rstrip s ++ y)%string /\ all_space y = true /\ (forall a, last_char (rstrip s) = Some a -> space a = false).
Proof.
  induction s as [|a s IH]; [exists ""; simpl; repeat split; auto; discriminate|]. destruct (all_space (String a s)) eqn:E.
  - exists (String a s). cbn [rstrip]. rewrite E. repeat split; auto. discriminate.
  - destruct IH as (y & H1 & H2 & H3). exists y. cbn [rstrip]. rewrite E. split; [simpl; congruence|]. split; auto.
    intros b H. rewrite last_cons in H. destruct (rstrip s) as [|c r] eqn:R; [|auto]. injection H as <-. simpl in E, H1.
    rewrite H1, H2 in E. rewrite andb_true_r in E. auto.
Qed.
Lemma first_rstrip s a : first_char (rstrip s) = Some a -> first_char s = Some a.
Proof. destruct s as [|b s]; cbn [rstrip]; [auto|]. destruct (all_space (String b s)); [discriminate|]. auto. Qed.
Lemma strip_spec s : trims_to s (strip s).
Proof.
  unfold strip. destruct (lstrip_spec s) as (x & H1 & H2 & H3). destruct (rstrip_spec (lstrip s)) as (y & H4 & H5 & H6).
  exists x, y. split; [congruence|]. split; auto. split; auto. split; auto. intros a H. apply H3. apply first_rstrip. auto.
Qed.
Lemma last_app s r : r <> "" -> last_char (s ++ r) = last_char r.
Proof.
  intros N. induction s as [|a s IH]; auto. cbn [append]. rewrite last_cons, IH. destruct (s ++ r)%string eqn:E; auto. destruct s; simpl in E; congruence.
Qed.
Lemma last_char_none s : last_char s = None -> s = "".
Proof. induction s as [|a s IH]; auto. rewrite last_cons. destruct s; [discriminate|]. intros H. apply IH in H. discriminate. Qed.
Lemma all_space_last s a : all_space s = true -> last_char s = Some a -> space a = true.
Proof.
  induction s as [|b s IH]; [discriminate|]. cbn [all_space]. rewrite andb_true_iff, last_cons. intros [H1 H2]. destruct s; [|auto]. congruence.
Qed.
Lemma lstrip_app x r : all_space x = true -> (forall a, first_char r = Some a -> space a = false) -> lstrip (x ++ r) = lstrip r.
Proof. induction x as [|a x IH]; simpl; auto. rewrite andb_true_iff. intros [-> H] F. auto. Qed.
Lemma lstrip_first r : (forall a, first_char r = Some a -> space a = false) -> lstrip r = r.
Proof. destruct r as [|a r]; auto. intros F. simpl. rewrite (F a eq_refl). auto. Qed.
Lemma all_space_lstrip x : all_space x = true -> lstrip x = "".
Proof. induction x as [|a x IH]; simpl; auto. rewrite andb_true_iff. intros [-> H]. auto. Qed.
Lemma rstrip_app r y : all_space y = true -> (forall a, last_char r = Some a -> space a = false) -> rstrip (r ++ y) = r.
Proof.
  intros Y. induction r as [|a r IH]; intros L.
  - simpl. destruct y; auto. cbn [rstrip]. rewrite Y. auto.
  - cbn [append rstrip]. rewrite IH.
    2:{ intros b H. apply L. rewrite last_cons. destruct r; [discriminate|]. auto. }
    destruct (all_space (String a (r ++ y))) eqn:E; auto. exfalso.
    destruct (last_char (String a r)) as [b|] eqn:LB; [|apply last_char_none in LB; discriminate].
    assert (A : all_space (String a r) = true). { change (String a (r ++ y)) with ((String a r) ++ y)%string in E. rewrite all_space_app in E. apply andb_true_iff in E. tauto. }
    assert (B := all_space_last _ _ A LB). rewrite (L b eq_refl) in B. discriminate.
Qed.
(** Stripping is determined by its specification. *)
Lemma strip_iff s r : trims_to s r <-> strip s = r.
Proof.
  split; [|intros <-; apply strip_spec]. intros (x & y & -> & X & Y & F & L). unfold strip.
  destruct r as [|a r].
  - cbn [append]. rewrite all_space_lstrip; auto. rewrite all_space_app, X, Y. auto.
  - rewrite lstrip_app by auto. cbn [append]. rewrite (lstrip_first (String a (r ++ y))) by (intros b H; apply F; auto).
    apply (rstrip_app (String a r)); auto.
Qed.
Lemma strip_trimmed r : trimmed r -> strip r = r.
Proof. intros H. apply strip_iff. exists "", "". simpl. rewrite app_nil_s. auto. Qed.

Lemma low_idem a : low (low a) = low a.
Proof. destruct a as [[] [] [] [] [] [] [] []]; reflexivity. Qed.
Lemma low_upper a : is_upper (low a) = false.
Proof. destruct a as [[] [] [] [] [] [] [] []]; reflexivity. Qed.
Lemma up_low a : is_upper a = true -> up (low a) = a.
Proof. destruct a as [[] [] [] [] [] [] [] []]; intros H; try reflexivity; discriminate. Qed.
Lemma low_id a : is_upper a = false -> low a = a.
Proof. unfold low. intros ->. auto. Qed.
Lemma low_space a : space (low a) = space a.
Proof. destruct a as [[] [] [] [] [] [] [] []]; reflexivity. Qed.
Lemma low_neq a c : is_lower c = false -> low a = c -> a = c.
Proof. unfold low. destruct (is_upper a) eqn:E; auto. intros H <-. exfalso. destruct a as [[] [] [] [] [] [] [] []]; try discriminate. Qed.
Lemma lower_app a b : lower (a ++ b) = (lower a ++ lower b)%string.
Proof. unfold lower. induction a; simpl; congruence. Qed.
Lemma lower_lower s : lower (lower s) = lower s.
Proof. unfold lower. induction s; simpl; auto. rewrite low_idem. congruence. Qed.
Lemma contains_app c a b : contains c (a ++ b) = contains c a || contains c b.
Proof. induction a; simpl; auto. rewrite IHa. apply orb_assoc. Qed.
