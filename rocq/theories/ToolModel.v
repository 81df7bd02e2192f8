(** * Model of the tools (/repo/src/reactpy/_console/rewrite_props.py, testing/logs.py, executors/pyscript/utils.py) and
    properties C66 to C69 *)
From Coq Require Import String Ascii Bool Arith Lia List.
From Verif Require Import Dict Strings PyStr HtmlAttrs JsModules JsNames.
Import ListNotations.
Local Open Scope string_scope. Local Open Scope list_scope.

(** ** C67 *)
Section Logs.
  Context {R E : Type} (matches : R -> option E).
  (** Positions as in [del l[i]]. *)
  Fixpoint del_at (l : list R) (i : nat) : list R := match l, i with [], _ => [] | _ :: r, 0 => r | x :: r, S i => x :: del_at r i end.
  (** [list_logged_exceptions], testing/logs.py:106-119; [matches]: the conditions on a record, and its error. The loop reads
      the list while it is changed: step [i] looks at the current position [i]. *)
  Fixpoint scan_logs (fuel i : nat) (l : list R) (found : list E) (del : bool) : list E * list R :=
    match fuel with
    | 0 => (found, l)
    | S n => match nth_error l i with
             | None => (found, l)
             | Some r => match matches r with
                         | Some e => scan_logs n (S i) (if del then del_at l (i - length found) else l) (found ++ [e]) del
                         | None => scan_logs n (S i) l found del
                         end
             end
    end.
  Definition list_logged (l : list R) (del : bool) : list E * list R := scan_logs (length l) 0 l [] del.
  (** Specification. *)
  Definition errors (l : list R) : list E := flat_map (fun r => match matches r with Some e => [e] | None => [] end) l.
  Definition unmatched (l : list R) : list R := filter (fun r => match matches r with Some _ => false | None => true end) l.
  Lemma scan_keep n : forall i l found, length l <= i + n -> scan_logs n i l found false = (found ++ errors (skipn i l), l).
  Proof.
    induction n as [|n IH]; intros i l found L; cbn [scan_logs]; [rewrite skipn_all2 by lia; cbn; rewrite app_nil_r; reflexivity|].
    destruct (nth_error l i) as [r|] eqn:N; [|apply nth_error_None in N; rewrite skipn_all2 by lia; cbn; rewrite app_nil_r; reflexivity].
    assert (SK : skipn i l = r :: skipn (S i) l). { clear - N. revert i N. induction l as [|x l IH]; intros [|i] N; try discriminate; cbn in *; [congruence|]. apply IH. auto. }
    rewrite SK. cbn [errors flat_map]. fold (errors (skipn (S i) l)). destruct (matches r); rewrite IH by lia; rewrite <- ?app_assoc; reflexivity.
  Qed.
  (** Without deletion the result is exact. *)
  Theorem C67_keep l : list_logged l false = (errors l, l).
  Proof. unfold list_logged. rewrite scan_keep by lia. reflexivity. Qed.
  Lemma scan_none del n : forall i l found, (forall r, In r (skipn i l) -> matches r = None) -> scan_logs n i l found del = (found, l).
  Proof.
    induction n as [|n IH]; intros i l found F; cbn [scan_logs]; auto. destruct (nth_error l i) as [r|] eqn:N; auto.
    assert (SK : skipn i l = r :: skipn (S i) l). { clear - N. revert i N. induction l as [|x l IH]; intros [|i] N; try discriminate; cbn in *; [congruence|]. apply IH. auto. }
    rewrite (F r) by (rewrite SK; left; reflexivity). apply IH. intros x I. apply F. rewrite SK. right. auto.
  Qed.
  (** With deletion it is exact if one record matches, or none. *)
  Theorem C67_one l1 r e l2 : (forall x, In x (l1 ++ l2) -> matches x = None) -> matches r = Some e -> list_logged (l1 ++ r :: l2) true = (errors (l1 ++ r :: l2), unmatched (l1 ++ r :: l2)).
  Proof.
    intros F M. assert (E0 : forall l, (forall x, In x l -> matches x = None) -> errors l = [] /\ unmatched l = l).
    { induction l as [|x l IH]; intros G; [auto|]. destruct (IH (fun y I => G y (or_intror I))) as [P Q]. unfold errors, unmatched in *. cbn [flat_map filter]. rewrite (G x) by (left; auto). rewrite P, Q. auto. }
    destruct (E0 l1) as [A1 B1]; [intros; apply F, in_or_app; auto|]. destruct (E0 l2) as [A2 B2]; [intros; apply F, in_or_app; auto|].
    unfold errors, unmatched in *. rewrite flat_map_app, filter_app. cbn [flat_map filter]. rewrite M, A1, A2, B1, B2. cbn [app].
    unfold list_logged. rewrite app_length. cbn [length].
    assert (G : forall k n, n + k = length l1 -> scan_logs (n + S (length l2)) k (l1 ++ r :: l2) [] true = ([e], l1 ++ l2)).
    { intros k n. revert k. induction n as [|n IH]; intros k K; cbn [Nat.add scan_logs].
      - rewrite nth_error_app2 by lia. replace (k - length l1) with 0 by lia. cbn [nth_error]. rewrite M. cbn [length app]. rewrite Nat.sub_0_r. assert (D : del_at (l1 ++ r :: l2) k = l1 ++ l2).
        { cbn in K. subst k. clear. induction l1; cbn; auto. f_equal. auto. }
        rewrite D. apply scan_none. intros x I. apply F. rewrite <- (firstn_skipn (S k) (l1 ++ l2)). apply in_or_app. auto.
      - rewrite nth_error_app1 by lia. destruct (nth_error l1 k) as [x|] eqn:N; [|apply nth_error_None in N; lia]. rewrite (F x) by (apply in_or_app; left; eapply nth_error_In; eauto). apply IH. lia. }
    apply (G 0 (length l1)). lia.
  Qed.
End Logs.
Example C67_example : list_logged (fun n => if Nat.even n then Some n else None) [1; 2; 3; 5] true = ([2], [1; 3; 5]).
Proof. reflexivity. Qed.
(** Findings: of two adjacent matches the second is neither returned nor removed; of two matches further apart the second is
    returned, but another record is removed in its place. *)
Theorem C67_adjacent_refuted : list_logged (fun n => if Nat.even n then Some n else None) [2; 4; 5] true = ([2], [4; 5]).
Proof. reflexivity. Qed.
Theorem C67_wrong_refuted : list_logged (fun n => if Nat.even n then Some n else None) [2; 5; 4; 7] true = ([2; 4], [4; 7]).
Proof. reflexivity. Qed.

(** ** C66 *)

(** Python's keywords ([keyword.kwlist]). *)
Definition kwlist : list string :=
  ["False"; "None"; "True"; "and"; "as"; "assert"; "async"; "await"; "break"; "class"; "continue"; "def"; "del"; "elif"; "else"; "except"; "finally"; "for"; "from"; "global"; "if"; "import"; "in"; "is"; "lambda"; "nonlocal"; "not"; "or"; "pass"; "raise"; "return"; "try"; "while"; "with"; "yield"].
(** [str.title]: the letters after a character that is no letter are made upper case, the other ones lower case. Simplified:
    ASCII letters. *)
Fixpoint title (cased : bool) (s : string) : string :=
  match s with "" => "" | String a s' => String (if cased then low a else up a) (title (is_upper a || is_lower a) s') end.
(** [conv_attr_name], rewrite_props.py:55-70. *)
Definition conv_attr_name (name : string) : string :=
  if existsb (String.eqb name) kwlist then name
  else if negb (contains "_" name) then name
  else match split "_" name with c :: r => (c ++ join "" (map (title false) r))%string | [] => name end.
(** Expressions: a dict display with its items, and a call (of function [f]) with its keyword arguments; a key that is not a
    text constant, or "**", is [None]. Positional arguments are part of [f]; every other expression is a [Leaf]. *)
Inductive expr := Dict (items : list (option string * expr)) | CallKw (f : string) (items : list (option string * expr)) | Leaf (n : nat).
(** [_rewrite_props], lines 95-134, on the items of either: new items, or [None] for no change. *)
Definition rewrite_items (constructor : string -> expr -> string * expr * bool) (items : list (option string * expr)) : option (list (option string * expr)) :=
  let r := map (fun kv => match fst kv with Some k => let '(k', v', ch) := constructor k (snd kv) in (Some k', v', ch || negb (String.eqb k' k)) | None => (None, snd kv, false) end) items in
  if existsb snd r then Some (map fst r) else None.
Definition rewrite_props (constructor : string -> expr -> string * expr * bool) (e : expr) : option expr :=
  match e with
  | Dict l => match rewrite_items constructor l with Some l' => Some (Dict l') | None => None end
  | CallKw f l => match rewrite_items constructor l with Some l' => Some (CallKw f l') | None => None end
  | Leaf _ => None
  end.
(** [_construct_prop_item], lines 73-92; the flag: the value is another object. The inner constructor leaves "style" alone. *)
Definition inner_item (k : string) (v : expr) : string * expr * bool := if String.eqb k "style" then (k, v, false) else (conv_attr_name k, v, false).
Definition prop_item (k : string) (v : expr) : string * expr * bool :=
  if String.eqb k "style" && (match v with Leaf _ => false | _ => true end) then match rewrite_props inner_item v with Some v' => (k, v', true) | None => (k, v, false) end
  else (conv_attr_name k, v, false).
(** The props of one element, as they are left by [find_nodes_to_change], lines 44-52. *)
Definition rewrite (e : expr) : expr := match rewrite_props prop_item e with Some e' => e' | None => e end.

(** Specification: the same items in the same order, with names converted; only a style's items are converted inside. *)
Definition items_of (e : expr) : list (option string * expr) := match e with Dict l | CallKw _ l => l | Leaf _ => [] end.
Definition same_kind (e e' : expr) : Prop := match e, e' with Dict _, Dict _ => True | CallKw f _, CallKw g _ => f = g | Leaf n, Leaf m => n = m | _, _ => False end.
Definition renamed (camel : string -> string) (kv kv' : option string * expr) : Prop := fst kv' = option_map camel (fst kv) /\ snd kv' = snd kv.
Definition converted (camel : string -> string) (kv kv' : option string * expr) : Prop :=
  if match fst kv, snd kv with Some k, (Dict _ | CallKw _ _) => String.eqb k "style" | _, _ => false end
  then fst kv' = fst kv /\ same_kind (snd kv) (snd kv') /\ Forall2 (renamed camel) (items_of (snd kv)) (items_of (snd kv'))
  else renamed camel kv kv'.
(** A name is converted by joining its words, each but the first one in title case; names without "_" and keywords stay. *)
Lemma conv_style : conv_attr_name "style" = "style".
Proof. reflexivity. Qed.
Lemma map_Forall2 {A B} (f : A -> B) (P : A -> B -> Prop) l : (forall x, P x (f x)) -> Forall2 P l (map f l).
Proof. intros H. induction l; cbn; constructor; auto. Qed.
Lemma rewrite_items_map c l : match rewrite_items c l with Some l' => l' | None => l end = map (fun kv => match fst kv with Some k => let '(k', v', _) := c k (snd kv) in (Some k', v') | None => kv end) l \/
  (rewrite_items c l = None /\ forall k v, In (Some k, v) l -> let '(k', _, ch) := c k v in k' = k /\ ch = false).
Proof.
  unfold rewrite_items. set (f := fun kv : option string * expr => match fst kv with Some k => let '(k', v', ch) := c k (snd kv) in (Some k', v', ch || negb (String.eqb k' k)) | None => (None, snd kv, false) end).
  destruct (existsb snd (map f l)) eqn:E; [left|right].
  - rewrite map_map. apply map_ext. intros [[k|] v]; cbn; auto. destruct (c k v) as [[k' v'] ch]. reflexivity.
  - split; auto. intros k v I. destruct (c k v) as [[k' v'] ch] eqn:C. assert (S : snd (f (Some k, v)) = false).
    { destruct (snd (f (Some k, v))) eqn:S; auto. assert (X : existsb snd (map f l) = true) by (apply existsb_exists; exists (f (Some k, v)); split; auto; apply in_map; auto). congruence. }
    unfold f in S. cbn in S. rewrite C in S. cbn in S. apply orb_false_iff in S. destruct S as [-> S]. apply negb_false_iff, String.eqb_eq in S. auto.
Qed.
Lemma inner_style e : same_kind e (match rewrite_props inner_item e with Some e' => e' | None => e end) /\ Forall2 (renamed conv_attr_name) (items_of e) (items_of (match rewrite_props inner_item e with Some e' => e' | None => e end)).
Proof.
  assert (G : forall l, Forall2 (renamed conv_attr_name) l (match rewrite_items inner_item l with Some l' => l' | None => l end)).
  { intros l. destruct (rewrite_items_map inner_item l) as [-> | [-> H]].
    - apply map_Forall2. intros [[k|] v]; cbn; [|split; reflexivity]. unfold inner_item. destruct (String.eqb_spec k "style") as [->|N]; split; reflexivity.
    - assert (I : forall kv, In kv l -> renamed conv_attr_name kv kv).
      { intros [[k|] v] IN; [|split; reflexivity]. specialize (H k v IN). unfold inner_item in H. destruct (String.eqb_spec k "style") as [->|N]; [split; reflexivity|]. destruct H as [E _]. split; cbn; congruence. }
      clear H. induction l; constructor; [apply I; left; auto|]. apply IHl. intros. apply I. right. auto. }
  destruct e as [l|f l|n]; cbn [rewrite_props]; [| |split; [reflexivity|constructor]]; specialize (G l); destruct (rewrite_items inner_item l); cbn; auto.
Qed.
(** The item that [prop_item] makes meets the specification, and is the same object if it is not flagged. *)
Lemma prop_item_spec k v : let '(k', v', ch) := prop_item k v in converted conv_attr_name (Some k, v) (Some k', v') /\ (ch = false -> v' = v).
Proof.
  unfold prop_item, converted. cbn [fst snd]. destruct (String.eqb_spec k "style") as [->|N].
  - destruct v as [l|f l|n]; cbn [andb]; [| |split; [split; reflexivity|auto]];
    (destruct (rewrite_props inner_item _) as [v'|] eqn:R; [|]; match goal with |- context [same_kind ?v _] => assert (H := inner_style v) end; rewrite R in H; cbn [String.eqb]; (split; [split; [reflexivity|exact H]|auto; discriminate])).
  - cbn [andb]. assert (F : String.eqb k "style" = false) by (apply String.eqb_neq; auto). destruct v; cbn; rewrite ?F; split; auto; split; reflexivity.
Qed.
Theorem C66_rewrite e : match e with Leaf _ => rewrite e = e | _ => same_kind e (rewrite e) /\ Forall2 (converted conv_attr_name) (items_of e) (items_of (rewrite e)) end.
Proof.
  assert (G : forall l, Forall2 (converted conv_attr_name) l (match rewrite_items prop_item l with Some l' => l' | None => l end)).
  { intros l. destruct (rewrite_items_map prop_item l) as [-> | [-> H]].
    - apply map_Forall2. intros [[k|] v]; cbn [fst snd]; [|unfold converted; cbn; split; reflexivity]. assert (S := prop_item_spec k v). destruct (prop_item k v) as [[k' v'] ch]. apply S.
    - assert (I : forall kv, In kv l -> converted conv_attr_name kv kv).
      { intros [[k|] v] IN; [|unfold converted; cbn; split; reflexivity]. specialize (H k v IN). assert (S := prop_item_spec k v). destruct (prop_item k v) as [[k' v'] ch]. destruct H as [-> ->]. destruct S as [S V]. rewrite V in S by auto. exact S. }
      clear H. induction l; constructor; [apply I; left; auto|]. apply IHl. intros. apply I. right. auto. }
  destruct e as [l|f l|n]; unfold rewrite; cbn [rewrite_props]; [| |reflexivity]; specialize (G l); destruct (rewrite_items prop_item l); cbn; auto.
Qed.

(** The names: words in lower case joined by "_" become the first word and the other ones with a capital. *)
Definition lower_word (w : string) : Prop := nochar "_" w /\ all_chars is_lower w = true.
Lemma title_lower w : all_chars is_lower w = true -> title true w = w.
Proof.
  induction w as [|a w IH]; intros A; [reflexivity|]. simpl in A. apply andb_true_iff in A. destruct A as [A B]. cbn [title]. rewrite A, orb_true_r, IH by auto. f_equal.
  apply low_id. revert A. destruct a as [[] [] [] [] [] [] [] []]; vm_compute; congruence.
Qed.
Lemma lower_same w : all_chars is_lower w = true -> lower w = w.
Proof.
  induction w as [|a w IH]; intros A; [reflexivity|]. simpl in A. apply andb_true_iff in A. destruct A as [A B]. unfold lower in *. cbn [smap]. rewrite IH by auto. f_equal.
  apply low_id. revert A. destruct a as [[] [] [] [] [] [] [] []]; vm_compute; congruence.
Qed.
Lemma title_capital w : all_chars is_lower w = true -> title false w = capitalize w.
Proof.
  destruct w as [|a w]; intros A; [reflexivity|]. simpl in A. apply andb_true_iff in A. destruct A as [A B]. cbn [title capitalize]. rewrite A, orb_true_r, title_lower, lower_same by auto. reflexivity.
Qed.
Lemma kw_nounder n : existsb (String.eqb n) kwlist = true -> nochar "_" n.
Proof.
  intros H. apply existsb_exists in H. destruct H as (k & I & E). apply String.eqb_eq in E. subst k. apply contains_nochar.
  assert (F : forallb (fun k => negb (contains "_" k)) kwlist = true) by reflexivity. rewrite forallb_forall in F. specialize (F n I). apply negb_true_iff in F. auto.
Qed.
Theorem C66_names w ws : Forall lower_word (w :: ws) -> conv_attr_name (join "_" (w :: ws)) = (w ++ fold_right append "" (map capitalize ws))%string.
Proof.
  intros F. assert (SP : split "_" (join "_" (w :: ws)) = w :: ws).
  { apply split_join; [discriminate|]. eapply Forall_impl; [|exact F]. intros a [A _]. exact A. }
  assert (EX : join "" (map (title false) ws) = fold_right append "" (map capitalize ws)).
  { rewrite (map_ext_in _ capitalize); [apply join_empty|]. intros x I. apply title_capital. inversion_clear F as [|? ? _ F']. rewrite Forall_forall in F'. apply F'. auto. }
  assert (NU : nochar "_" (join "_" (w :: ws)) -> ws = []).
  { intros N. rewrite (split_no _ _ N) in SP. destruct ws; [auto|discriminate]. }
  unfold conv_attr_name. destruct (existsb (String.eqb (join "_" (w :: ws))) kwlist) eqn:K.
  - rewrite (NU (kw_nounder _ K)). cbn. symmetry. apply app_nil_s.
  - destruct (contains "_" (join "_" (w :: ws))) eqn:C; cbn [negb].
    + rewrite SP, EX. reflexivity.
    + apply contains_nochar in C. rewrite (NU C). cbn. symmetry. apply app_nil_s.
Qed.
Example C66_names_example : conv_attr_name "on_mouse_move" = "onMouseMove" /\ conv_attr_name "class" = "class" /\ conv_attr_name "onClick" = "onClick".
Proof. repeat split; reflexivity. Qed.
Lemma title_nounder b s : nochar "_" s -> nochar "_" (title b s).
Proof.
  revert b. induction s as [|a s IH]; intros b N; [exact I|]. destruct N as [N1 N2]. cbn [title nochar]. split; [|apply IH; auto].
  destruct b; revert N1; destruct a as [[] [] [] [] [] [] [] []]; vm_compute; congruence.
Qed.
(** No converted name is converted again. *)
Theorem C66_names_twice n : conv_attr_name (conv_attr_name n) = conv_attr_name n.
Proof.
  assert (G : forall m, nochar "_" m -> conv_attr_name m = m).
  { intros m N. unfold conv_attr_name. destruct (existsb _ kwlist); auto. apply contains_nochar in N. rewrite N. reflexivity. }
  unfold conv_attr_name at 2 3. destruct (existsb (String.eqb n) kwlist) eqn:K; [apply G, kw_nounder; auto|].
  destruct (contains "_" n) eqn:C; cbn [negb]; [|apply G, contains_nochar; auto].
  assert (F := split_nochar "_" n). destruct (split "_" n) as [|c r] eqn:S; [destruct (split_nonnil _ _ S)|]. apply G. inversion_clear F as [|? ? Fc Fr].
  apply nochar_app. split; auto. rewrite join_empty. clear - Fr. induction Fr; cbn; auto. apply nochar_app. split; auto. apply title_nounder. auto.
Qed.
Lemma rewrite_items_None c l : (forall k v, In (Some k, v) l -> let '(k', _, ch) := c k v in k' = k /\ ch = false) -> rewrite_items c l = None.
Proof.
  intros H. unfold rewrite_items. set (f := fun kv : option string * expr => match fst kv with Some k => let '(k', v', ch) := c k (snd kv) in (Some k', v', ch || negb (String.eqb k' k)) | None => (None, snd kv, false) end).
  destruct (existsb snd (map f l)) eqn:E; auto. apply existsb_exists in E. destruct E as (x & I & T). apply in_map_iff in I. destruct I as ([[k|] v] & <- & I); [|discriminate T].
  specialize (H k v I). unfold f in T. cbn [fst snd] in T. destruct (c k v) as [[k' v'] ch]. destruct H as [-> ->]. cbn in T. rewrite String.eqb_refl in T. discriminate.
Qed.
(** A second run finds nothing to change, unless a name other than "style" becomes "style". *)
Definition no_new_style (e : expr) : Prop := forall k v, In (Some k, v) (items_of e) -> k <> "style" -> conv_attr_name k = "style" -> exists n, v = Leaf n.
Theorem C66_twice_partial e : no_new_style e -> rewrite_props prop_item (rewrite e) = None /\ rewrite (rewrite e) = rewrite e.
Proof.
  intros NS. enough (N : rewrite_props prop_item (rewrite e) = None) by (split; auto; unfold rewrite at 1; rewrite N; auto).
  assert (IN : forall v v', same_kind v v' -> Forall2 (renamed conv_attr_name) (items_of v) (items_of v') -> rewrite_props inner_item v' = None).
  { intros v v' _ F. assert (G : rewrite_items inner_item (items_of v') = None).
    { apply rewrite_items_None. intros k x I. assert (K : conv_attr_name k = k).
      { revert I. induction F as [|y z ys zs [P Q] F IH]; intros I; [destruct I|]. destruct I as [-> | I]; auto. cbn in P. destruct (fst y); cbn in P; [|discriminate]. injection P as ->. apply C66_names_twice. }
      unfold inner_item. destruct (String.eqb k "style"); auto. }
    destruct v'; cbn in *; rewrite ?G; reflexivity. }
  assert (C := C66_rewrite e). assert (G : (exists n, e = Leaf n) \/ (same_kind e (rewrite e) /\ Forall2 (converted conv_attr_name) (items_of e) (items_of (rewrite e)))) by (destruct e; eauto).
  destruct G as [[n ->]|[SK F]]; [reflexivity|]. assert (R : rewrite_items prop_item (items_of (rewrite e)) = None).
  { apply rewrite_items_None. clear C SK. intros k v I. unfold no_new_style in NS. revert NS I. induction F as [|x y xs ys CV F IH]; intros NS I; [destruct I|].
    destruct I as [-> | I]; [|apply IH; auto; intros; eapply NS; eauto; right; eauto]. clear IH F. destruct x as [[k0|] v0]; unfold converted in CV; cbn [fst snd] in CV.
    - destruct (String.eqb_spec k0 "style") as [->|N0].
      + assert (PI : rewrite_props inner_item v = None -> prop_item "style" v = ("style", v, false)) by (intros X; unfold prop_item; rewrite X; destruct v; reflexivity).
        destruct v0 as [l|f l|n].
        * destruct CV as (K & S1 & S2). injection K as ->. rewrite (PI (IN _ v S1 S2)). auto.
        * destruct CV as (K & S1 & S2). injection K as ->. rewrite (PI (IN _ v S1 S2)). auto.
        * destruct CV as [K V]. cbn in K, V. injection K as ->. subst v. cbn. auto.
      + assert (CV' : renamed conv_attr_name (Some k0, v0) (Some k, v)) by (destruct v0; exact CV). destruct CV' as [K V]. cbn in K, V. injection K as ->. subst v0.
        unfold prop_item. destruct (String.eqb_spec (conv_attr_name k0) "style") as [E|NE]; cbn [andb].
        * destruct (NS k0 v (or_introl eq_refl) N0 E) as (n & ->). rewrite C66_names_twice. auto.
        * rewrite C66_names_twice. auto.
    - destruct v0; destruct CV as [K _]; discriminate K. }
  destruct (rewrite e); cbn in *; rewrite ?R; reflexivity.
Qed.
Example C66_twice_example :
  rewrite (Dict [(Some "on_click", Leaf 1); (None, Leaf 2); (Some "style", CallKw "dict" [(Some "font_size", Leaf 3)])])
  = Dict [(Some "onClick", Leaf 1); (None, Leaf 2); (Some "style", CallKw "dict" [(Some "fontSize", Leaf 3)])].
Proof. reflexivity. Qed.
(** Findings: a second run may change more; a keyword argument may become a keyword of the language, which is no longer
    Python; two names may become one, so that a value is lost; the keyword arguments of any function whose result is the
    style are renamed. *)
Theorem C66_twice_refuted : let e := Dict [(Some "style_", Dict [(Some "font_size", Leaf 1)])] in rewrite (rewrite e) <> rewrite e.
Proof. vm_compute. discriminate. Qed.
Theorem C66_keyword_refuted : rewrite (CallKw "dict" [(Some "class_", Leaf 1)]) = CallKw "dict" [(Some "class", Leaf 1)] /\ In "class" kwlist.
Proof. split; [reflexivity|]. cbn. tauto. Qed.
Theorem C66_collision_refuted : rewrite (Dict [(Some "on_click", Leaf 1); (Some "onClick", Leaf 2)]) = Dict [(Some "onClick", Leaf 1); (Some "onClick", Leaf 2)].
Proof. reflexivity. Qed.
Theorem C66_call_refuted : rewrite (Dict [(Some "style", CallKw "make_style" [(Some "font_size", Leaf 1)])]) = Dict [(Some "style", CallKw "make_style" [(Some "fontSize", Leaf 1)])].
Proof. reflexivity. Qed.

Print Assumptions C67_adjacent_refuted.
Print Assumptions C67_wrong_refuted.
Print Assumptions C66_rewrite.
Print Assumptions C66_names.
Print Assumptions C66_names_twice.
Print Assumptions C66_twice_partial.
Print Assumptions C66_twice_refuted.
Print Assumptions C66_keyword_refuted.
Print Assumptions C66_collision_refuted.
Print Assumptions C66_call_refuted.
