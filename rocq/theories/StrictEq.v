(** * Model and properties of [strictly_equal] (C24; /repo/src/reactpy/core/hooks.py:591-644) *)
From Coq Require Import String ZArith Bool Arith Lia List.
From Verif Require Import Dict LayoutTypes.
Import ListNotations.
Local Open Scope string_scope.
Local Open Scope list_scope.

(** A Python object as far as [strictly_equal] looks at it: identity, type, [__qualname__] ("" if missing), the
    attributes of [__code__] whose name starts with "co_" in the order of [dir], if it has a [__code__] (a value is
    represented by an abstract number), and what the function does not look at: the captured variables. *)
Record obj := Obj {
  o_id : nat;
  o_type : nat;
  o_qualname : string;
  o_code : option (list (string * nat));
  o_closure : list val
}.

(** [sub in s]. *)
Definition occurs (sub s : string) : bool := match index 0 sub s with Some _ => true | None => false end.
Definition local_name (q : string) : bool := negb (String.eqb q "") && (occurs "<lambda>" q || occurs "<locals>" q).

(** hooks.py:625-635. *)
Definition excluded : list string :=
  ["co_positions"; "co_linetable"; "co_lines"; "co_lnotab"; "co_branches"; "co_firstlineno"; "co_end_lineno"; "co_col_offset"; "co_end_col_offset"].
Definition compared (attr : string) : bool := negb (existsb (String.eqb attr) excluded).

Section World.
(** [==] on objects: [None] if it raises (a result that is not a bool is represented by its truth value), and on
    attributes of code objects. Every object has [__eq__] in Python 3, so line 639 never fails. *)
Variable py_eq : obj -> obj -> option bool.
Variable attr_eq : nat -> nat -> bool.

(** The generator of hooks.py:620-636 with [all]: stops at the first difference; a missing attribute raises. *)
Fixpoint same_code (xs ys : list (string * nat)) : option bool :=
  match xs with
  | [] => Some true
  | (a, v) :: xs' =>
      if compared a
      then match find (fun p => String.eqb (fst p) a) ys with
           | None => None
           | Some (_, w) => if attr_eq v w then same_code xs' ys else Some false
           end
      else same_code xs' ys
  end.

(** hooks.py:591-644; [None]: AttributeError for unrelated code types. *)
Definition strictly_equal (x y : obj) : option bool :=
  if negb (Nat.eqb (o_type x) (o_type y)) then Some false
  else match local_name (o_qualname x) && local_name (o_qualname y), o_code x, o_code y with
       | true, Some cx, Some cy =>
           if negb (String.eqb (o_qualname x) (o_qualname y)) then Some false else same_code cx cy
       | _, _, _ =>
           match py_eq x y with
           | Some b => Some b
           | None => Some (Nat.eqb (o_id x) (o_id y))
           end
       end.

(** ** C24 *)

(** A local function or lambda. *)
Definition local_function (x : obj) : Prop :=
  (exists p q, o_qualname x = (p ++ "<lambda>" ++ q)%string \/ o_qualname x = (p ++ "<locals>" ++ q)%string) /\ o_code x <> None.

Lemma prefix_app a b : String.prefix a (a ++ b)%string = true.
Proof. induction a as [|c a IH]; simpl; [destruct b; reflexivity|]. destruct (Ascii.ascii_dec c c); auto; congruence. Qed.
Lemma prefix_split a : forall s, String.prefix a s = true -> exists q, s = (a ++ q)%string.
Proof.
  induction a as [|c a IH]; intros s H; [exists s; auto|]. destruct s as [|d s]; [discriminate|]. simpl in H. destruct (Ascii.ascii_dec c d) as [->|]; [|discriminate].
  destruct (IH _ H) as (q & ->). exists q. reflexivity.
Qed.
Lemma occurs_app a p q : occurs a (p ++ a ++ q)%string = true.
Proof.
  unfold occurs. induction p as [|c p IH].
  - simpl. destruct (a ++ q)%string as [|d s] eqn:E; [destruct a; [reflexivity|discriminate]|]. rewrite <- E.
    destruct a as [|x a]; [rewrite E; reflexivity|]. simpl. destruct (Ascii.ascii_dec x x); [|congruence]. rewrite prefix_app. reflexivity.
  - destruct a as [|x a]; [reflexivity|]. simpl in *. destruct (if Ascii.ascii_dec x c then _ else false); auto.
    destruct (index 0 (String x a) (p ++ String x (a ++ q))); auto.
Qed.
Lemma occurs_split a s : a <> ""%string -> occurs a s = true -> exists p q, s = (p ++ a ++ q)%string.
Proof.
  intros NE. unfold occurs. induction s as [|c s IH]; simpl; [destruct a; [congruence|discriminate]|].
  destruct a as [|x a]; [congruence|]. destruct (Ascii.ascii_dec x c) as [->|].
  - destruct (prefix a s) eqn:P.
    + intros _. destruct (prefix_split _ _ P) as (q & ->). exists "", q. reflexivity.
    + destruct (index 0 (String c a) s); [|discriminate]. intros _. destruct (IH eq_refl) as (p & q & ->). exists (String c p), q. reflexivity.
  - destruct (index 0 (String x a) s); [|discriminate]. intros _. destruct (IH eq_refl) as (p & q & ->). exists (String c p), q. reflexivity.
Qed.
Lemma local_name_iff q : local_name q = true <-> exists a b, q = (a ++ "<lambda>" ++ b)%string \/ q = (a ++ "<locals>" ++ b)%string.
Proof.
  unfold local_name. rewrite andb_true_iff, orb_true_iff, negb_true_iff. split.
  - intros [_ [H|H]]; apply occurs_split in H; try discriminate; destruct H as (a & b & ->); eauto.
  - intros (a & b & [->| ->]).
    + split; [destruct a; reflexivity|]. left. apply occurs_app.
    + split; [destruct a; reflexivity|]. right. apply occurs_app.
Qed.

Theorem C24_different_types x y : o_type x <> o_type y -> strictly_equal x y = Some false.
Proof. intros N. unfold strictly_equal. destruct (Nat.eqb_spec (o_type x) (o_type y)); [contradiction|reflexivity]. Qed.

(** On values which are not (both) local functions it is [==], or identity where [==] raises. *)
Theorem C24_is_equality_on_values x y :
  o_type x = o_type y -> ~ (local_function x /\ local_function y) ->
  strictly_equal x y = Some (match py_eq x y with Some b => b | None => Nat.eqb (o_id x) (o_id y) end).
Proof.
  intros T N. unfold strictly_equal. rewrite T, Nat.eqb_refl. simpl.
  destruct (local_name (o_qualname x) && local_name (o_qualname y)) eqn:L; [|destruct (py_eq x y); reflexivity].
  apply andb_true_iff in L. destruct L as [LX LY]. destruct (o_code x) eqn:CX, (o_code y) eqn:CY; try (destruct (py_eq x y); reflexivity).
  exfalso. apply N. unfold local_function. rewrite CX, CY. split; (split; [apply local_name_iff; auto|discriminate]).
Qed.

(** Reflexive and symmetric if [==] is. *)
Definition names (c : list (string * nat)) : list string := map fst c.
Lemma find_self (c : list (string * nat)) a v : NoDup (names c) -> In (a, v) c -> find (fun p => String.eqb (fst p) a) c = Some (a, v).
Proof.
  induction c as [|[b w] c IH]; simpl; [intros _ []|]. intros ND [E|J].
  - injection E as -> ->. rewrite String.eqb_refl. reflexivity.
  - inversion ND as [|? ? NI ND']; subst. destruct (String.eqb_spec b a) as [->|]; [|apply IH; auto].
    exfalso. apply NI. apply (in_map fst) in J. exact J.
Qed.
Lemma same_code_refl c : (forall v, attr_eq v v = true) -> NoDup (names c) -> forall d, incl d c -> same_code d c = Some true.
Proof.
  intros RF ND d. induction d as [|[a v] d IH]; intros I; simpl; auto. assert (I' : incl d c) by (intros z J; apply I; right; auto).
  destruct (compared a); auto. rewrite (find_self c a v ND (I _ (or_introl eq_refl))), RF. auto.
Qed.
Theorem C24_reflexive x :
  (forall b, py_eq x x = Some b -> b = true) -> (forall v, attr_eq v v = true) ->
  (forall c, o_code x = Some c -> NoDup (names c)) -> strictly_equal x x = Some true.
Proof.
  intros PE RF ND. unfold strictly_equal. rewrite Nat.eqb_refl. simpl.
  assert (E : match py_eq x x with Some b => Some b | None => Some (Nat.eqb (o_id x) (o_id x)) end = Some true).
  { destruct (py_eq x x) as [b|] eqn:B; [rewrite (PE b eq_refl); reflexivity|rewrite Nat.eqb_refl; reflexivity]. }
  destruct (local_name _ && local_name _); auto. destruct (o_code x) as [c|] eqn:C; auto. rewrite String.eqb_refl. simpl.
  apply (same_code_refl c RF (ND c eq_refl) c). apply incl_refl.
Qed.

(** Code objects of the same type have the same attributes; comparing them is then comparing pointwise. *)
Lemma same_code_iff xs : forall ys, NoDup (names ys) -> (forall a, In a (names xs) -> In a (names ys)) ->
  same_code xs ys = Some true \/ same_code xs ys = Some false.
Proof.
  induction xs as [|[a v] xs IH]; intros ys ND I; simpl; auto. assert (I' : forall a, In a (names xs) -> In a (names ys)) by (intros b J; apply I; right; auto).
  destruct (compared a); auto. destruct (find (fun p => String.eqb (fst p) a) ys) as [[b w]|] eqn:F.
  - destruct (attr_eq v w); auto.
  - exfalso. specialize (I a (or_introl eq_refl)). apply in_map_iff in I. destruct I as ([c u] & E & J). simpl in E. subst c.
    pose proof (find_none _ _ F _ J) as X. simpl in X. rewrite String.eqb_refl in X. discriminate.
Qed.
Lemma same_code_true xs ys : NoDup (names ys) ->
  same_code xs ys = Some true -> forall a v, In (a, v) xs -> compared a = true -> exists w, In (a, w) ys /\ attr_eq v w = true.
Proof.
  intros ND. induction xs as [|[b u] xs IH]; simpl; [intros _ a v []|]. intros H a v [E|J] C.
  - injection E as -> ->. rewrite C in H. destruct (find _ ys) as [[c w]|] eqn:F; [|discriminate]. destruct (attr_eq v w) eqn:A; [|discriminate].
    apply find_some in F. destruct F as [F1 F2]. simpl in F2. apply String.eqb_eq in F2. subst c. eauto.
  - apply IH; auto. destruct (compared b); auto. destruct (find _ ys) as [[c w]|]; [|discriminate]. destruct (attr_eq u w); [auto|discriminate].
Qed.
Lemma same_code_intro xs ys : NoDup (names ys) ->
  (forall a v, In (a, v) xs -> compared a = true -> exists w, In (a, w) ys /\ attr_eq v w = true) -> same_code xs ys = Some true.
Proof.
  intros ND. induction xs as [|[b u] xs IH]; intros H; simpl; auto. assert (H' : same_code xs ys = Some true) by (apply IH; intros a v J; apply H; right; auto).
  destruct (compared b) eqn:C; auto. destruct (H b u (or_introl eq_refl) C) as (w & J & A). rewrite (find_self ys b w ND J), A. exact H'.
Qed.
(** The attributes of a code object that only say where the function stands in its file. *)
Definition position_info (a : string) : Prop :=
  In a ["co_firstlineno"; "co_lnotab"; "co_linetable"; "co_lines"; "co_positions"; "co_branches"; "co_end_lineno"; "co_col_offset"; "co_end_col_offset"].
Lemma compared_iff a : compared a = true <-> ~ position_info a.
Proof.
  unfold compared. rewrite negb_true_iff, <- not_true_iff_false, existsb_exists. unfold position_info. split.
  - intros N J. apply N. exists a. split; [|apply String.eqb_refl]. simpl in *. tauto.
  - intros N (b & J & E). apply String.eqb_eq in E. subst b. apply N. simpl in *. tauto.
Qed.
(** Two local functions of the same type are the same if and only if they have the same name and the same code: all
    attributes of their code objects are equal, except those for the position in the file. *)
Theorem C24_functions x y cx cy :
  o_type x = o_type y -> local_function x -> local_function y -> o_code x = Some cx -> o_code y = Some cy ->
  NoDup (names cy) -> (forall a, In a (names cx) -> In a (names cy)) ->
  exists b, strictly_equal x y = Some b /\
    (b = true <-> o_qualname x = o_qualname y /\
                  forall a v w, In (a, v) cx -> In (a, w) cy -> ~ position_info a -> attr_eq v w = true).
Proof.
  intros T [LX _] [LY _] CX CY ND I. unfold strictly_equal. rewrite T, Nat.eqb_refl, CX, CY. apply local_name_iff in LX. apply local_name_iff in LY. rewrite LX, LY. simpl.
  destruct (String.eqb_spec (o_qualname x) (o_qualname y)) as [Q|Q]; simpl; [|exists false; split; [reflexivity|]; split; [discriminate|]; intros [X _]; contradiction].
  destruct (same_code cx cy) as [b|] eqn:E; [|destruct (same_code_iff cx cy ND I); congruence]. exists b. split; [reflexivity|]. split.
  - intros ->. split; [exact Q|]. intros a v w J K P. destruct (same_code_true cx cy ND E a v J) as (w' & K' & A); [apply compared_iff; exact P|].
    pose proof (find_self cy a w ND K). pose proof (find_self cy a w' ND K'). congruence.
  - intros [_ H]. assert (X : same_code cx cy = Some true); [|congruence]. apply same_code_intro; [exact ND|]. intros a v J C.
    specialize (I a (in_map fst _ _ J)). apply in_map_iff in I. destruct I as ([b' w] & E' & K). simpl in E'. subst b'. exists w. split; [exact K|].
    apply (H a v w J K). apply compared_iff. exact C.
Qed.
Theorem C24_symmetric x y :
  py_eq x y = py_eq y x -> (forall v w, attr_eq v w = attr_eq w v) ->
  (forall cx cy, o_code x = Some cx -> o_code y = Some cy -> NoDup (names cx) /\ NoDup (names cy) /\ forall a, In a (names cx) <-> In a (names cy)) ->
  strictly_equal x y = strictly_equal y x.
Proof.
  intros PE AS CD. unfold strictly_equal. rewrite (Nat.eqb_sym (o_type y)). destruct (negb _); auto. rewrite (andb_comm (local_name (o_qualname y))).
  assert (E : match py_eq x y with Some b => Some b | None => Some (Nat.eqb (o_id x) (o_id y)) end = match py_eq y x with Some b => Some b | None => Some (Nat.eqb (o_id y) (o_id x)) end).
  { rewrite PE, Nat.eqb_sym. reflexivity. }
  destruct (local_name _ && local_name _); auto. destruct (o_code x) as [cx|], (o_code y) as [cy|]; auto.
  rewrite (String.eqb_sym (o_qualname y)). destruct (negb _); auto. destruct (CD _ _ eq_refl eq_refl) as (NX & NY & I).
  assert (T : forall xs ys, NoDup (names xs) -> NoDup (names ys) -> (forall a, In a (names xs) <-> In a (names ys)) -> same_code xs ys = Some true -> same_code ys xs = Some true).
  { intros xs ys N1 N2 IN H. apply same_code_intro; auto. intros a w J C. assert (K : In a (names xs)) by (apply IN; apply (in_map fst) in J; exact J).
    apply in_map_iff in K. destruct K as ([b v] & E' & K). simpl in E'. subst b. exists v. split; auto.
    destruct (same_code_true xs ys N2 H a v K C) as (w' & J' & A). rewrite AS. pose proof (find_self ys a w N2 J) as F1. pose proof (find_self ys a w' N2 J') as F2. congruence. }
  destruct (same_code_iff cx cy NY (fun a J => proj1 (I a) J)) as [A|A], (same_code_iff cy cx NX (fun a J => proj2 (I a) J)) as [B|B]; rewrite A, B; auto.
  - apply T in A; auto. congruence.
  - apply T in B; auto; [congruence|]. intros a. symmetry. apply I.
Qed.
End World.

(** Finding: closures over different values are equal, although they are different objects which [==] tells apart. *)
Definition identity_eq (x y : obj) : option bool := Some (Nat.eqb (o_id x) (o_id y)).
Definition adder (id : nat) (captured : Z) : obj :=
  Obj id 5 "make_adder.<locals>.<lambda>" (Some [("co_code", 1); ("co_consts", 2); ("co_firstlineno", 3)]) [VInt captured].
Theorem C24_closures_refuted :
  exists x y, strictly_equal identity_eq Nat.eqb x y = Some true /\ identity_eq x y = Some false /\ o_closure x <> o_closure y.
Proof. exists (adder 1 10), (adder 2 20). split; [reflexivity|]. split; [reflexivity|discriminate]. Qed.

(** Finding: the constants of code objects are compared with [==], so [lambda: 1] and [lambda: True] are equal. *)
Theorem C24_constants_refuted :
  exists attr_eq x y, (forall v, attr_eq v v = true) /\ o_code x <> o_code y /\ strictly_equal identity_eq attr_eq x y = Some true.
Proof.
  (* constants: 21 is (1,), 22 is (True,), which are == *)
  exists (fun v w => Nat.eqb v w || (Nat.eqb v 21 && Nat.eqb w 22)),
    (Obj 1 5 "<lambda>" (Some [("co_consts", 21)]) []), (Obj 2 5 "<lambda>" (Some [("co_consts", 22)]) []).
  split; [intros v; rewrite Nat.eqb_refl; reflexivity|]. split; [discriminate|reflexivity].
Qed.

(** Two functions on different lines, with equal and with different code. *)
Example C24_functions_example :
  let f c l := Obj c 5 "page.<locals>.on_click" (Some [("co_code", c); ("co_firstlineno", l); ("co_names", 4)]) [] in
  let same x y := exists cx cy, o_code x = Some cx /\ o_code y = Some cy /\ NoDup (names cy) /\ forall a, In a (names cx) -> In a (names cy) in
  local_function (f 1 10) /\ same (f 1 10) (f 1 20) /\ same (f 1 10) (f 2 10) /\
  strictly_equal identity_eq Nat.eqb (f 1 10) (f 1 20) = Some true /\ strictly_equal identity_eq Nat.eqb (f 1 10) (f 2 10) = Some false.
Proof.
  cbv zeta. split; [split; [|discriminate]; exists "page.", ".on_click"; right; reflexivity|].
  split; [|split; [|split; reflexivity]]; eexists; eexists; (split; [reflexivity|]); (split; [reflexivity|]);
    (split; [repeat constructor; simpl; intuition discriminate|intros a J; exact J]).
Qed.

Example C24_example :
  local_function (adder 1 10) /\ ~ local_function (Obj 3 2 "" None []) /\
  strictly_equal identity_eq Nat.eqb (Obj 3 2 "" None []) (Obj 4 2 "" None []) = Some false /\
  strictly_equal identity_eq Nat.eqb (adder 1 10) (Obj 2 5 "make_adder.<locals>.<lambda>" (Some [("co_code", 9); ("co_consts", 2); ("co_firstlineno", 3)]) []) = Some false.
Proof.
  split; [split; [|discriminate]; exists "make_adder.<locals>.", ""; left; reflexivity|]. split; [intros [_ C]; apply C; reflexivity|]. split; reflexivity.
Qed.

(** ** The comparison [veq] of the layout model is this function *)

(** Values of the layout model as objects: plain values have no [__code__]; the dispatch functions of all states
    share their code. *)
Definition type_of (v : val) : nat := match v with VNone => 0 | VBool _ => 1 | VInt _ => 2 | VStr _ => 3 | VPair _ _ => 4 | VSetter _ _ => 5 end.
Definition as_obj (v : val) : obj :=
  match v with
  | VSetter _ _ => Obj 0 5 "_CurrentState.__init__.<locals>.dispatch" (Some [("co_code", 0)]) [v]
  | _ => Obj 0 (type_of v) "" None [v]
  end.
(** [==] on plain values: equality of the value (bool/int equality inside tuples is not modelled). *)
Definition value_eq (x y : obj) : option bool :=
  match o_closure x, o_closure y with [v], [w] => Some (if eq_dec v w then true else false) | _, _ => None end.
Theorem veq_is_strictly_equal v w : strictly_equal value_eq Nat.eqb (as_obj v) (as_obj w) = Some (veq v w).
Proof.
  destruct v as [ |a|a|a|a1 a2| ], w as [ |b|b|b|b1 b2| ]; try reflexivity; unfold strictly_equal; cbn [as_obj type_of o_type o_qualname o_code local_name]; simpl;
    unfold value_eq; cbn [o_closure].
  - destruct a, b; reflexivity.
  - destruct (Z.eqb_spec a b) as [->|N]; [destruct (eq_dec (VInt b) (VInt b)); congruence|]. destruct (eq_dec (VInt a) (VInt b)); congruence.
  - destruct (String.eqb_spec a b) as [->|N]; [destruct (eq_dec (VStr b) (VStr b)); congruence|]. destruct (eq_dec (VStr a) (VStr b)); congruence.
  - destruct (eq_dec (VPair a1 a2) (VPair b1 b2)), (eq_dec a1 b1), (eq_dec a2 b2); congruence.
Qed.

Print Assumptions C24_different_types.
Print Assumptions C24_is_equality_on_values.
Print Assumptions C24_functions.
Print Assumptions C24_reflexive.
Print Assumptions C24_symmetric.
Print Assumptions C24_closures_refuted.
Print Assumptions C24_constants_refuted.
Print Assumptions veq_is_strictly_equal.
