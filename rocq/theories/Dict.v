(** * Python dictionaries as insertion-ordered association lists

    Shared library: [dict K V] models a Python [dict]: iteration order is insertion order,
    assigning an existing key keeps its position, deleting removes it.  Nothing here models a
    particular /repo line; the models that use it cite the dictionaries they represent. *)
From Coq Require Import String ZArith Bool Arith Lia List.
Import ListNotations.

(** Decidable equality, used for every dictionary key type. *)
Class EqDec (A : Type) := eq_dec : forall x y : A, {x = y} + {x <> y}.

#[global] Instance EqDec_nat : EqDec nat := Nat.eq_dec.
#[global] Instance EqDec_string : EqDec string := String.string_dec.
#[global] Instance EqDec_Z : EqDec Z := Z.eq_dec.
#[global] Instance EqDec_bool : EqDec bool := Bool.bool_dec.

Definition eqb {A} `{EqDec A} (x y : A) : bool := if eq_dec x y then true else false.

Lemma eqb_true_iff {A} `{EqDec A} (x y : A) : eqb x y = true <-> x = y.
Proof. unfold eqb; destruct (eq_dec x y); split; congruence. Qed.

Lemma eqb_false_iff {A} `{EqDec A} (x y : A) : eqb x y = false <-> x <> y.
Proof. unfold eqb; destruct (eq_dec x y); split; congruence. Qed.

Lemma eqb_refl {A} `{EqDec A} (x : A) : eqb x x = true.
Proof. apply eqb_true_iff; reflexivity. Qed.

(** [x in l] for a Python list or set given by its elements. *)
Fixpoint mem {A} `{EqDec A} (x : A) (l : list A) : bool :=
  match l with
  | [] => false
  | y :: l' => if eq_dec x y then true else mem x l'
  end.

Lemma mem_In {A} `{EqDec A} (x : A) l : mem x l = true <-> In x l.
Proof.
  induction l as [|y l IH]; simpl; [split; intuition discriminate|].
  destruct (eq_dec x y); split; intros; subst; auto.
  - right; apply IH; auto.
  - destruct H0; [congruence|apply IH; auto].
Qed.

Lemma mem_not_In {A} `{EqDec A} (x : A) l : mem x l = false <-> ~ In x l.
Proof.
  rewrite <- mem_In. destruct (mem x l); split; intros; congruence.
Qed.

Fixpoint remove_one {A} `{EqDec A} (x : A) (l : list A) : list A :=
  match l with
  | [] => []
  | y :: l' => if eq_dec x y then l' else y :: remove_one x l'
  end.

Definition dict (K V : Type) := list (K * V).

Section Ops.
  Context {K V : Type} {ED : EqDec K}.

  (** [d.get(k)] *)
  Fixpoint dget (k : K) (d : dict K V) : option V :=
    match d with
    | [] => None
    | (k', v) :: d' => if eq_dec k k' then Some v else dget k d'
    end.

  (** [d[k] = v] *)
  Fixpoint dset (k : K) (v : V) (d : dict K V) : dict K V :=
    match d with
    | [] => [(k, v)]
    | (k', v') :: d' => if eq_dec k k' then (k, v) :: d' else (k', v') :: dset k v d'
    end.

  (** [d.pop(k, None)]; [del d[k]] is this guarded by [dmem]. *)
  Fixpoint ddel (k : K) (d : dict K V) : dict K V :=
    match d with
    | [] => []
    | (k', v') :: d' => if eq_dec k k' then ddel k d' else (k', v') :: ddel k d'
    end.

  (** [k in d] *)
  Definition dmem (k : K) (d : dict K V) : bool :=
    match dget k d with Some _ => true | None => false end.

  (** [list(d)] *)
  Definition dkeys (d : dict K V) : list K := map fst d.

  (** [list(d.values())] *)
  Definition dvals (d : dict K V) : list V := map snd d.

  (** [d.update(e)] *)
  Definition dupdate (d e : dict K V) : dict K V :=
    fold_left (fun acc kv => dset (fst kv) (snd kv) acc) e d.

  (** [d.setdefault(k, v)] (the resulting dictionary) *)
  Definition dsetdefault (k : K) (v : V) (d : dict K V) : dict K V :=
    if dmem k d then d else dset k v d.

  Lemma dget_dset_same k v d : dget k (dset k v d) = Some v.
  Proof.
    induction d as [|[k' v'] d IH]; simpl.
    - destruct (eq_dec k k); congruence.
    - destruct (eq_dec k k') as [->|n]; simpl.
      + destruct (eq_dec k' k'); congruence.
      + destruct (eq_dec k k'); congruence.
  Qed.

  Lemma dget_dset_other k k2 v d : k2 <> k -> dget k2 (dset k v d) = dget k2 d.
  Proof.
    intros N. induction d as [|[k' v'] d IH]; simpl.
    - destruct (eq_dec k2 k); congruence.
    - destruct (eq_dec k k') as [->|n]; simpl.
      + destruct (eq_dec k2 k'); congruence.
      + destruct (eq_dec k2 k'); congruence.
  Qed.

  Lemma dget_dset k k2 v d :
    dget k2 (dset k v d) = if eq_dec k2 k then Some v else dget k2 d.
  Proof.
    destruct (eq_dec k2 k) as [->|n]; [apply dget_dset_same|apply dget_dset_other; auto].
  Qed.

  Lemma dget_ddel_same k d : dget k (ddel k d) = None.
  Proof.
    induction d as [|[k' v'] d IH]; simpl; auto.
    destruct (eq_dec k k') as [->|n]; simpl; auto.
    destruct (eq_dec k k'); congruence.
  Qed.

  Lemma dget_ddel_other k k2 d : k2 <> k -> dget k2 (ddel k d) = dget k2 d.
  Proof.
    intros N. induction d as [|[k' v'] d IH]; simpl; auto.
    destruct (eq_dec k k') as [->|n]; simpl.
    - destruct (eq_dec k2 k'); congruence.
    - destruct (eq_dec k2 k'); congruence.
  Qed.

  Lemma dget_ddel k k2 d :
    dget k2 (ddel k d) = if eq_dec k2 k then None else dget k2 d.
  Proof.
    destruct (eq_dec k2 k) as [->|n]; [apply dget_ddel_same|apply dget_ddel_other; auto].
  Qed.

  Lemma dget_None k d : dget k d = None <-> ~ In k (dkeys d).
  Proof.
    unfold dkeys. induction d as [|[k' v'] d IH]; simpl; [tauto|].
    destruct (eq_dec k k') as [->|n]; simpl.
    - split; [discriminate|]. intros F; exfalso; apply F; auto.
    - rewrite IH. split; [intros H [E|E]; [congruence|auto]|intros H E; apply H; auto].
  Qed.

  Lemma dget_Some_In k v d : dget k d = Some v -> In (k, v) d.
  Proof.
    induction d as [|[k' v'] d IH]; simpl; [discriminate|].
    destruct (eq_dec k k') as [->|n]; intros E; [injection E as ->; auto|auto].
  Qed.

  Lemma dget_Some_key k v d : dget k d = Some v -> In k (dkeys d).
  Proof. intros E. apply dget_Some_In in E. apply (in_map fst) in E. exact E. Qed.

  Lemma In_dkeys_dget k d : In k (dkeys d) -> exists v, dget k d = Some v.
  Proof.
    intros I. destruct (dget k d) eqn:E; eauto. apply dget_None in E. contradiction.
  Qed.

  Lemma In_dget k v d : NoDup (dkeys d) -> In (k, v) d -> dget k d = Some v.
  Proof.
    unfold dkeys. induction d as [|[k' v'] d IH]; simpl; [tauto|].
    intros ND [E|I]; inversion ND; subst.
    - injection E as -> ->. destruct (eq_dec k k); congruence.
    - destruct (eq_dec k k') as [->|n]; auto.
      apply (in_map fst) in I. simpl in I. contradiction.
  Qed.

  Lemma dkeys_dset k v d :
    dkeys (dset k v d) = if mem k (dkeys d) then dkeys d else dkeys d ++ [k].
  Proof.
    unfold dkeys. induction d as [|[k' v'] d IH]; simpl; auto.
    destruct (eq_dec k k') as [->|n]; simpl; auto.
    rewrite IH. destruct (mem k (map fst d)); auto.
  Qed.

  Lemma dkeys_dset_In k v d k2 : In k2 (dkeys (dset k v d)) <-> k2 = k \/ In k2 (dkeys d).
  Proof.
    rewrite dkeys_dset. destruct (mem k (dkeys d)) eqn:E.
    - apply mem_In in E. split; [auto|intros [->|]; auto].
    - rewrite in_app_iff; simpl. intuition.
  Qed.

  Lemma NoDup_snoc {A} (l : list A) x : NoDup l -> ~ In x l -> NoDup (l ++ [x]).
  Proof.
    induction l as [|y l IH]; simpl; intros ND NI.
    - constructor; auto. 
    - inversion ND; subst. constructor.
      + rewrite in_app_iff; simpl. intuition.
      + apply IH; auto.
  Qed.

  Lemma NoDup_dset k v d : NoDup (dkeys d) -> NoDup (dkeys (dset k v d)).
  Proof.
    intros ND. rewrite dkeys_dset. destruct (mem k (dkeys d)) eqn:E; auto.
    apply NoDup_snoc; auto. apply mem_not_In; auto.
  Qed.

  Lemma dkeys_ddel_In k d k2 : In k2 (dkeys (ddel k d)) <-> k2 <> k /\ In k2 (dkeys d).
  Proof.
    unfold dkeys. induction d as [|[k' v'] d IH]; simpl; [tauto|].
    destruct (eq_dec k k') as [->|n]; simpl.
    - rewrite IH. split; [tauto|]. intros [N [E|I]]; [congruence|auto].
    - rewrite IH. split; [intros [->|[? ?]]; auto|tauto].
  Qed.

  Lemma NoDup_ddel k d : NoDup (dkeys d) -> NoDup (dkeys (ddel k d)).
  Proof.
    unfold dkeys. induction d as [|[k' v'] d IH]; simpl; auto.
    intros ND; inversion ND; subst.
    destruct (eq_dec k k') as [->|n]; simpl; auto.
    constructor; auto. intros I. apply H1.
    apply (dkeys_ddel_In k d k') in I. apply I.
  Qed.

  Lemma NoDup_dupdate e d : NoDup (dkeys d) -> NoDup (dkeys (dupdate d e)).
  Proof.
    unfold dupdate. revert d. induction e as [|[k v] e IH]; simpl; intros; auto.
    apply IH. apply NoDup_dset; auto.
  Qed.

  Lemma dget_app k (d e : dict K V) :
    dget k (d ++ e) = match dget k d with Some v => Some v | None => dget k e end.
  Proof.
    induction d as [|[k' v'] d IH]; simpl; auto. destruct (eq_dec k k'); auto.
  Qed.

  (** Looking up after [d.update(e)] when [e] has unique keys. *)
  Lemma dget_dupdate k e d :
    NoDup (dkeys e) ->
    dget k (dupdate d e) = match dget k e with Some v => Some v | None => dget k d end.
  Proof.
    unfold dupdate, dkeys. revert d. induction e as [|[k' v'] e IH]; simpl; intros d ND; auto.
    inversion ND; subst. rewrite IH by auto.
    destruct (eq_dec k k') as [->|n].
    - destruct (dget k' e) eqn:E; [|apply dget_dset_same].
      apply dget_Some_key in E. contradiction.
    - destruct (dget k e); auto. apply dget_dset_other; auto.
  Qed.

  Lemma dmem_true k d : dmem k d = true <-> exists v, dget k d = Some v.
  Proof. unfold dmem. destruct (dget k d); split; eauto; [discriminate|intros [? ?]; discriminate]. Qed.

  Lemma dmem_false k d : dmem k d = false <-> dget k d = None.
  Proof. unfold dmem. destruct (dget k d); split; congruence. Qed.

  Lemma dmem_In k d : dmem k d = true <-> In k (dkeys d).
  Proof.
    rewrite dmem_true. split; [intros [v E]; eapply dget_Some_key; eauto|apply In_dkeys_dget].
  Qed.
End Ops.

Lemma dget_map_val {K V W} `{EqDec K} (f : V -> W) k (d : dict K V) :
  dget k (map (fun kv => (fst kv, f (snd kv))) d) = option_map f (dget k d).
Proof.
  induction d as [|[k' v'] d IH]; simpl; auto. destruct (eq_dec k k'); auto.
Qed.

(** ** Heaps: append-only lists of objects addressed by position *)

Fixpoint upd {A} (l : list A) (i : nat) (x : A) : list A :=
  match l, i with
  | [], _ => []
  | _ :: l', 0 => x :: l'
  | y :: l', S i' => y :: upd l' i' x
  end.

Lemma upd_length {A} (l : list A) i x : length (upd l i x) = length l.
Proof. revert i; induction l; destruct i; simpl; auto. Qed.

Lemma nth_upd_same {A} (l : list A) i x : i < length l -> nth_error (upd l i x) i = Some x.
Proof. revert i; induction l; destruct i; simpl; intros; try lia; auto. apply IHl; lia. Qed.

Lemma nth_upd_other {A} (l : list A) i j x : i <> j -> nth_error (upd l i x) j = nth_error l j.
Proof. revert i j; induction l; destruct i, j; simpl; intros; try congruence; auto. Qed.

Lemma nth_upd {A} (l : list A) i j x :
  nth_error (upd l i x) j =
  if Nat.eq_dec i j then (if lt_dec j (length l) then Some x else None) else nth_error l j.
Proof.
  destruct (Nat.eq_dec i j) as [->|n]; [|apply nth_upd_other; auto].
  destruct (lt_dec j (length l)); [apply nth_upd_same; auto|].
  apply nth_error_None. rewrite upd_length. lia.
Qed.

Lemma upd_same_id {A} (l : list A) i x : nth_error l i = Some x -> upd l i x = l.
Proof.
  revert i; induction l; destruct i; simpl; intros; try discriminate; auto.
  - congruence.
  - f_equal; auto.
Qed.
