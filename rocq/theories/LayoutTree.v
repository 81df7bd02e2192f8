(** * Component trees: the abstract content of the layout's heap

    A [tree] is what the heap of [_ModelState]s stands for.  These definitions are proof-side: they do not
    model /repo lines, they describe the states of LayoutModel.v. *)
From Coq Require Import String ZArith Bool Arith Lia List Permutation.
From Verif Require Import Dict LayoutTypes LayoutModel BodySpec DisplaySpec.
Import ListNotations.
Local Open Scope string_scope.
Local Open Scope list_scope.

(** [TElem m k tag imp attrs js kp hs has kids]: an element held in heap cell [m]; [hs] its handlers of the
    latest render, [kp] its key path, [has] whether a children list was given.
    [TComp m k h c out kids]: component instance with hook [h]; [out] is how its last render ended. *)
Inductive tree :=
| TText (s : string)
| TElem (m : nat) (k : key) (tag : string) (imp : option string) (attrs : option (dict string val))
        (js : option (dict string string)) (kp : string) (hs : dict string handler) (has : bool) (kids : list tree)
| TComp (m : nat) (k : option key) (h : nat) (c : cinst) (out : fate) (kids : list tree).

Section TreeInd.
  Variable P : tree -> Prop.
  Hypothesis HT : forall s, P (TText s).
  Hypothesis HE : forall m k tag imp attrs js kp hs has kids,
      Forall P kids -> P (TElem m k tag imp attrs js kp hs has kids).
  Hypothesis HC : forall m k h c out kids, Forall P kids -> P (TComp m k h c out kids).
  Fixpoint tree_ind' (t : tree) : P t :=
    match t with
    | TText s => HT s
    | TElem m k tag imp attrs js kp hs has kids =>
        HE m k tag imp attrs js kp hs has kids
           ((fix go l : Forall P l := match l with
                                      | [] => Forall_nil _
                                      | t' :: l' => Forall_cons _ (tree_ind' t') (go l')
                                      end) kids)
    | TComp m k h c out kids =>
        HC m k h c out kids
           ((fix go l : Forall P l := match l with
                                      | [] => Forall_nil _
                                      | t' :: l' => Forall_cons _ (tree_ind' t') (go l')
                                      end) kids)
    end.
End TreeInd.

Definition tkey (t : tree) : option key :=
  match t with TText _ => None | TElem _ k _ _ _ _ _ _ _ _ => Some k | TComp _ k _ _ _ _ => k end.
Definition tmid (t : tree) : option nat :=
  match t with TText _ => None | TElem m _ _ _ _ _ _ _ _ _ => Some m | TComp m _ _ _ _ _ => Some m end.
Definition tkids (t : tree) : list tree :=
  match t with TText _ => [] | TElem _ _ _ _ _ _ _ _ _ l => l | TComp _ _ _ _ _ l => l end.

(** The handler targets of an element, by event. *)
Definition targets (kp : string) (hs : dict string handler) : dict string string :=
  fold_left (fun acc eh => dset (fst eh) (target_of kp (fst eh) (snd eh)) acc) hs [].

Definition tree_targets (t : tree) : dict string string :=
  match t with TElem _ _ _ _ _ _ kp hs _ _ => targets kp hs | _ => [] end.

Definition hjsons (kp : string) (hs : dict string handler) : list (string * hjson) :=
  map (fun eh => (fst eh, serialize_handler (snd eh) (target_of kp (fst eh) (snd eh)))) hs.

(** The model a tree displays. *)
Fixpoint view (t : tree) : model :=
  match t with
  | TText s => MText s
  | TElem _ _ tag imp attrs js kp hs has kids =>
      MNode tag imp attrs js (match hs with [] => None | _ => Some (hjsons kp hs) end)
            (if has then Some (map view kids) else None) None
  | TComp _ _ _ _ (Returned _) kids => MNode "" None None None None (Some (map view kids)) None
  | TComp _ _ _ _ (Failed _ text) _ => MNode "" None None None None None (Some text)
  end.

(** [children_by_key] of a node with these children. *)
Definition kid_entry (t : tree) : dict key nat :=
  match t with
  | TText _ => []
  | TElem m k _ _ _ _ _ _ _ _ => [(k, m)]
  | TComp m (Some k) _ _ _ _ => [(k, m)]
  | TComp _ None _ _ _ _ => []
  end.
Definition kid_dict (l : list tree) : dict key nat := flat_map kid_entry l.

Definition is_node (t : tree) : bool :=
  match t with TText _ => false | TElem _ _ _ _ _ _ _ _ _ _ => true
             | TComp _ (Some _) _ _ _ _ => true | TComp _ None _ _ _ _ => false end.

(** The heap represents tree [t] under parent [par] at index [i], path and key path. *)
Fixpoint rep (hp : list mstate) (par : option nat) (i : nat) (path : list nat) (kp : string) (t : tree)
         {struct t} : Prop :=
  let reps := fix go (m : nat) (j : nat) (l : list tree) {struct l} : Prop :=
    match l with
    | [] => True
    | t' :: l' => rep hp (Some m) j (path ++ [j]) (sub_keypath kp (tkey t')) t' /\ go m (S j) l'
    end in
  match t with
  | TText _ => True
  | TElem m k tag imp attrs js kp' hs has kids =>
      kp' = kp /\
      (exists md, nth_error hp m = Some (MState par i (Some k) path kp md (kid_dict kids) (targets kp hs) None)) /\
      (forall t', In t' kids -> is_node t' = true \/ exists s, t' = TText s) /\
      reps m 0 kids
  | TComp m k h c out kids =>
      (exists md, nth_error hp m = Some (MState par i k path kp md (kid_dict kids) [] (Some (h, c)))) /\
      (forall t', In t' kids -> is_node t' = true \/ exists s, t' = TText s) /\
      reps m 0 kids
  end.

Fixpoint rep_list (hp : list mstate) (m : nat) (path : list nat) (kp : string) (j : nat) (l : list tree) : Prop :=
  match l with
  | [] => True
  | t' :: l' => rep hp (Some m) j (path ++ [j]) (sub_keypath kp (tkey t')) t' /\ rep_list hp m path kp (S j) l'
  end.

Lemma rep_list_fix hp m path kp j l :
  (fix go (m : nat) (j : nat) (l : list tree) {struct l} : Prop :=
    match l with
    | [] => True
    | t' :: l' => rep hp (Some m) j (path ++ [j]) (sub_keypath kp (tkey t')) t' /\ go m (S j) l'
    end) m j l <-> rep_list hp m path kp j l.
Proof. revert j; induction l; simpl; intros; [tauto|rewrite IHl; tauto]. Qed.

Definition kids_ok (l : list tree) : Prop := forall t', In t' l -> is_node t' = true \/ exists s, t' = TText s.

Lemma rep_elem hp par i path kp m k tag imp attrs js kp' hs has kids :
  rep hp par i path kp (TElem m k tag imp attrs js kp' hs has kids) <->
  kp' = kp /\
  (exists md, nth_error hp m = Some (MState par i (Some k) path kp md (kid_dict kids) (targets kp hs) None)) /\
  kids_ok kids /\ rep_list hp m path kp 0 kids.
Proof. simpl. rewrite rep_list_fix. unfold kids_ok. tauto. Qed.

Lemma rep_comp hp par i path kp m k h c out kids :
  rep hp par i path kp (TComp m k h c out kids) <->
  (exists md, nth_error hp m = Some (MState par i k path kp md (kid_dict kids) [] (Some (h, c)))) /\
  kids_ok kids /\ rep_list hp m path kp 0 kids.
Proof. simpl. rewrite rep_list_fix. unfold kids_ok. tauto. Qed.

#[global] Opaque rep.

Lemma rep_list_app hp m path kp j l1 l2 :
  rep_list hp m path kp j (l1 ++ l2) <->
  rep_list hp m path kp j l1 /\ rep_list hp m path kp (j + length l1) l2.
Proof.
  revert j; induction l1; simpl; intros.
  - rewrite Nat.add_0_r. tauto.
  - rewrite IHl1. replace (S j + length l1) with (j + S (length l1)) by lia. tauto.
Qed.

Lemma rep_list_In hp m path kp j l t :
  rep_list hp m path kp j l -> In t l ->
  exists i, rep hp (Some m) i (path ++ [i]) (sub_keypath kp (tkey t)) t.
Proof.
  revert j; induction l; simpl; intros j R I; [contradiction|].
  destruct R as [R1 R2]. destruct I as [->|I]; eauto.
Qed.

(** Heap cells used by a tree. *)
Fixpoint mids (t : tree) : list nat :=
  match t with
  | TText _ => []
  | TElem m _ _ _ _ _ _ _ _ l => m :: flat_map mids l
  | TComp m _ _ _ _ l => m :: flat_map mids l
  end.

(** Component instances of a tree, in rendering order: hook, heap cell, component and last output. *)
Definition cinfo := (nat * (nat * cinst * fate))%type.
Fixpoint comps (t : tree) : list cinfo :=
  match t with
  | TText _ => []
  | TElem _ _ _ _ _ _ _ _ _ l => flat_map comps l
  | TComp m _ h c out l => (h, (m, c, out)) :: flat_map comps l
  end.
Definition hids (t : tree) : list nat := map fst (comps t).

(** Event targets of a tree with the handler bound to each. *)
Definition elem_tgts (kp : string) (hs : dict string handler) : list (string * handler) :=
  map (fun eh => (target_of kp (fst eh) (snd eh), snd eh)) hs.
Fixpoint tgts (t : tree) : list (string * handler) :=
  match t with
  | TText _ => []
  | TElem _ _ _ _ _ _ kp hs _ l => elem_tgts kp hs ++ flat_map tgts l
  | TComp _ _ _ _ _ l => flat_map tgts l
  end.

Definition otree_list (o : option tree) : list tree := match o with Some t => [t] | None => [] end.

(** The child with key [k]. *)
Fixpoint find_key (k : key) (l : list tree) : option tree :=
  match l with
  | [] => None
  | t :: l' => match tkey t with
               | Some k' => if eq_dec k k' then Some t else find_key k l'
               | None => find_key k l'
               end
  end.

Lemma find_key_In k l t : find_key k l = Some t -> In t l /\ tkey t = Some k.
Proof.
  induction l as [|a l IH]; simpl; [discriminate|].
  destruct (tkey a) eqn:E.
  - destruct (eq_dec k k0); intros H.
    + injection H as <-. subst. auto.
    + destruct (IH H); auto.
  - intros H; destruct (IH H); auto.
Qed.

Lemma kid_dict_get k l :
  kids_ok l ->
  dget k (kid_dict l) = match find_key k l with Some t => tmid t | None => None end.
Proof.
  induction l as [|t l IH]; simpl; intros OK; auto.
  assert (OKl : kids_ok l) by (intros t' I; apply OK; right; auto).
  unfold kid_dict in *. simpl. rewrite dget_app.
  destruct t as [s|m k' tag imp attrs js kp hs has kids|m k' h c out kids]; simpl; auto.
  - destruct (eq_dec k k'); auto.
  - destruct k' as [k'|]; simpl.
    + destruct (eq_dec k k'); auto.
    + destruct (OK (TComp m None h c out kids)) as [F|[s F]]; simpl; auto; discriminate.
Qed.

Lemma kid_dict_app l1 l2 : kid_dict (l1 ++ l2) = kid_dict l1 ++ kid_dict l2.
Proof. unfold kid_dict. apply flat_map_app. Qed.

Lemma kids_ok_app l1 l2 : kids_ok l1 -> kids_ok l2 -> kids_ok (l1 ++ l2).
Proof. intros A B t I. apply in_app_iff in I. destruct I; auto. Qed.

(** ** Heap frames *)

(** All cells satisfying [P] are unchanged. *)
Definition hpres (P : nat -> Prop) (hp hp' : list mstate) : Prop :=
  forall m x, P m -> nth_error hp m = Some x -> nth_error hp' m = Some x.

Lemma hpres_refl P hp : hpres P hp hp.
Proof. intros m x _ H; exact H. Qed.

Lemma hpres_trans P hp1 hp2 hp3 : hpres P hp1 hp2 -> hpres P hp2 hp3 -> hpres P hp1 hp3.
Proof. intros A B m x Pm H. apply B; auto. Qed.

Lemma hpres_weaken (P Q : nat -> Prop) hp hp' : (forall m, Q m -> P m) -> hpres P hp hp' -> hpres Q hp hp'.
Proof. intros W A m x Qm H. apply A; auto. Qed.

Lemma hpres_app P hp e : hpres P hp (hp ++ e).
Proof. intros m x _ H. rewrite nth_error_app1; auto. apply nth_error_Some. congruence. Qed.

Lemma hpres_upd n hp x : hpres (fun m => m <> n) hp (upd hp n x).
Proof. intros m y NE H. rewrite nth_upd_other; auto. Qed.

Lemma rep_frame P hp hp' : hpres P hp hp' ->
  forall t par i path kp, rep hp par i path kp t -> Forall P (mids t) -> rep hp' par i path kp t.
Proof.
  intros HP. induction t using tree_ind'; intros par i path kp' R F.
  - exact R.
  - apply rep_elem in R. destruct R as (E & (md & N) & OK & L). apply rep_elem.
    simpl in F. inversion F; subst.
    split; auto. split; [exists md; apply HP; auto|]. split; auto.
    clear - H L H3. generalize dependent 0. rewrite Forall_flat_map in H3.
    induction kids; simpl; intros; auto. inversion H; subst. inversion H3; subst.
    destruct L. split; auto. 
  - apply rep_comp in R. destruct R as ((md & N) & OK & L). apply rep_comp.
    simpl in F. inversion F; subst.
    split; [exists md; apply HP; auto|]. split; auto.
    clear - H L H3. generalize dependent 0. rewrite Forall_flat_map in H3.
    induction kids; simpl; intros; auto. inversion H; subst. inversion H3; subst.
    destruct L. split; auto.
Qed.

Lemma rep_list_frame P hp hp' m path kp j l : hpres P hp hp' ->
  rep_list hp m path kp j l -> Forall P (flat_map mids l) -> rep_list hp' m path kp j l.
Proof.
  intros HP. revert j. induction l; simpl; intros j R F; auto.
  apply Forall_app in F. destruct F. destruct R. split; auto. eapply rep_frame; eauto.
Qed.

Lemma rep_bound hp t : forall par i path kp, rep hp par i path kp t -> Forall (fun m => m < length hp) (mids t).
Proof.
  induction t using tree_ind'; intros par i path kp' R.
  - constructor.
  - apply rep_elem in R. destruct R as (E & (md & N) & OK & L). simpl. constructor.
    + apply nth_error_Some. congruence.
    + apply Forall_flat_map. generalize dependent 0. clear OK N. induction kids; intros; constructor.
      * inversion H; subst. destruct L. eauto.
      * inversion H; subst. destruct L. eauto.
  - apply rep_comp in R. destruct R as ((md & N) & OK & L). simpl. constructor.
    + apply nth_error_Some. congruence.
    + apply Forall_flat_map. generalize dependent 0. clear OK N. induction kids; intros; constructor.
      * inversion H; subst. destruct L. eauto.
      * inversion H; subst. destruct L. eauto.
Qed.

Lemma rep_list_bound hp m path kp j l :
  rep_list hp m path kp j l -> Forall (fun n => n < length hp) (flat_map mids l).
Proof.
  revert j; induction l; simpl; intros j R; [constructor|].
  destruct R. apply Forall_app. split; eauto. eapply rep_bound; eauto.
Qed.

(** Heap cells increase from parents to descendants. *)
Fixpoint incr (t : tree) : Prop :=
  match t with
  | TText _ => True
  | TElem m _ _ _ _ _ _ _ _ l => Forall (fun m' => m < m') (flat_map mids l) /\ fold_right and True (map incr l)
  | TComp m _ _ _ _ l => Forall (fun m' => m < m') (flat_map mids l) /\ fold_right and True (map incr l)
  end.
Definition incrs (l : list tree) : Prop := fold_right and True (map incr l).
