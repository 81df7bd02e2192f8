(** * The nodes of the page over a sequence of updates, and property C113
    (/repo/src/js/packages/@reactpy/client/src/, "client" below; /repo/src/reactpy/core/layout.py, "layout.py")

    What the user does with a page belongs to its nodes: the text entered, the focus, the selection, the scroll position. Preact
    keeps a node from one render to the next or makes a new one. The models are those the client has after each update (C02, C60);
    all of them are rendered from the root, client components.tsx:145-153. *)
From Coq Require Import String Bool Arith Lia List.
Import ListNotations.
Local Open Scope list_scope.

(** A model as the browser has it: tag name, the key among the attributes, children. A component is an element without a name
    (layout.py:334-340) and without attributes, so without a key. Left out: everything that does not decide which nodes are kept
    (other attributes, handlers); errors and imported components are as elements of another name. *)
Inductive model := MText (t : string) | MEl (tag : string) (key : option string) (children : list model).
(** A node of the page with its identity, and what Preact knows about it. *)
Inductive node := NText (t : string) | NEl (id : nat) (tag : string) (key : option string) (children : list node).

Definition mkey (m : model) : option string := match m with MText _ => None | MEl _ k _ => k end.
Definition has_key (k : string) (x : node) : bool := match x with NEl _ _ (Some k') _ => String.eqb k k' | _ => false end.

(** Which old child is taken for a new one. Preact (not in /repo; as documented): a child with a key is taken for the one with the
    same key, another one for the child at its position if this has no key either and is no text. All children but texts are of
    the same type for it here ([Element]). Left out: where the children with and without keys, or elements and texts, are mixed and
    change places, Preact also looks at the neighbouring positions for a child without a key. The key is the model's
    [attributes.key], client components.tsx:213-215, 411-413. *)
Definition lookup (key : option string) (j : nat) (old : list node) : option node :=
  match key with
  | Some k => find (has_key k) old
  | None => match nth_error old j with Some (NEl id tag None ch) => Some (NEl id tag None ch) | _ => None end
  end.

(** A render of a model where an old node may be taken: it is kept if the tag name is the same ([createElement] with
    [model.tagName], client components.tsx:210-217, 408-414), otherwise a new one is made and with it everything below.
    [n] is the next unused identity. *)
Fixpoint render (old : option node) (m : model) (n : nat) {struct m} : node * nat :=
  match m with
  | MText t => (NText t, n)
  | MEl tag key ch =>
      let '(id, below, n0) := match old with
                              | Some (NEl id tag' _ och) => if String.eqb tag tag' then (id, och, n) else (n, [], S n)
                              | _ => (n, [], S n)
                              end in
      let '(ch', n') := (fix go (j : nat) (l : list model) (n : nat) : list node * nat :=
                           match l with
                           | [] => ([], n)
                           | c :: r => let '(c', n1) := render (lookup (mkey c) j below) c n in let '(r', n2) := go (S j) r n1 in (c' :: r', n2)
                           end) 0 ch n0 in
      (NEl id tag key ch', n')
  end.
Fixpoint renders (below : list node) (j : nat) (l : list model) (n : nat) : list node * nat :=
  match l with
  | [] => ([], n)
  | c :: r => let '(c', n1) := render (lookup (mkey c) j below) c n in let '(r', n2) := renders below (S j) r n1 in (c' :: r', n2)
  end.

(** The page after a sequence of models, the next unused identity. *)
Definition show (p : option node * nat) (m : model) : option node * nat := let '(x, n) := render (fst p) m (snd p) in (Some x, n).
Definition page (l : list model) : option node * nat := fold_left show l (None, 0).

(** ** Specification *)
(** Where an element is: from the root, by the keys of elements that have one and by the positions of those that have none. *)
Inductive place := Key (k : string) | Position (j : nat).
Definition mchild (s : place) (l : list model) : option model :=
  match s with
  | Key k => find (fun c => match mkey c with Some k' => String.eqb k k' | None => false end) l
  | Position j => match nth_error l j with Some (MEl tag None ch) => Some (MEl tag None ch) | _ => None end
  end.
Definition nchild (s : place) (l : list node) : option node := match s with Key k => lookup (Some k) 0 l | Position j => lookup None j l end.
(** The names of the elements on the way to a place, and the node there. *)
Fixpoint mnames (m : model) (p : list place) : option (list string) :=
  match m with
  | MText _ => None
  | MEl tag _ ch => match p with
                    | [] => Some [tag]
                    | s :: r => match mchild s ch with Some c => option_map (cons tag) (mnames c r) | None => None end
                    end
  end.
Fixpoint nid (x : node) (p : list place) : option nat :=
  match x with
  | NText _ => None
  | NEl id _ _ ch => match p with [] => Some id | s :: r => match nchild s ch with Some c => nid c r | None => None end end
  end.
Definition node_at (x : option node) (p : list place) : option nat := match x with Some x => nid x p | None => None end.
(** ** Proof *)
Section Ind.
  Variable P : model -> Prop.
  Hypothesis Htext : forall t, P (MText t).
  Hypothesis Hel : forall tag key ch, Forall P ch -> P (MEl tag key ch).
  Fixpoint model_ind2 (m : model) : P m :=
    match m with
    | MText t => Htext t
    | MEl tag key ch => Hel tag key ch ((fix go l : Forall P l := match l with [] => Forall_nil P | c :: r => Forall_cons c (model_ind2 c) (go r) end) ch)
    end.
End Ind.

Lemma render_el old tag key ch n : render old (MEl tag key ch) n =
  let '(id, below, n0) := match old with
                          | Some (NEl id tag' _ och) => if String.eqb tag tag' then (id, och, n) else (n, [], S n)
                          | _ => (n, [], S n)
                          end in
  let '(ch', n') := renders below 0 ch n0 in (NEl id tag key ch', n').
Proof.
  cbn [render]. destruct (match old with Some (NEl id tag' _ och) => if String.eqb tag tag' then (id, och, n) else (n, [], S n) | _ => (n, [], S n) end) as [[id below] n0].
  match goal with |- context [?g 0 ch n0] =>
    assert (E : forall l j n, g j l n = renders below j l n) end.
  { induction l as [|c r IH]; intros j k; [reflexivity|]. cbn. destruct (render (lookup (mkey c) j below) c k) as [c' n1]. now rewrite IH. }
  now rewrite E.
Qed.

Lemma render_le m : forall old n, n <= snd (render old m n).
Proof.
  induction m as [t|tag key ch IH] using model_ind2; intros old n; [cbn; lia|]. rewrite render_el.
  assert (L : forall below j n, n <= snd (renders below j ch n)).
  { clear old n. intros below. induction IH as [|c r Hc _ IHr]; intros j n; cbn; [lia|].
    specialize (Hc (lookup (mkey c) j below) n). destruct (render (lookup (mkey c) j below) c n) as [c' n1]. cbn in Hc.
    specialize (IHr (S j) n1). destruct (renders below (S j) r n1). cbn in *. lia. }
  destruct (match old with Some (NEl id tag' _ och) => if String.eqb tag tag' then (id, och, n) else (n, [], S n) | _ => (n, [], S n) end) as [[id below] n0] eqn:E.
  assert (n <= n0) by (destruct old as [[?|? ? ? ?]|]; [|destruct (String.eqb tag tag0)|]; injection E as <- <- <-; lia).
  specialize (L below 0 n0). destruct (renders below 0 ch n0). cbn in *. lia.
Qed.
Lemma renders_le below l : forall j n, n <= snd (renders below j l n).
Proof.
  induction l as [|c r IH]; intros j n; cbn; [lia|].
  pose proof (render_le c (lookup (mkey c) j below) n). destruct (render (lookup (mkey c) j below) c n) as [c' n1].
  specialize (IH (S j) n1). destruct (renders below (S j) r n1). cbn in *. lia.
Qed.

(** The child at a place after a render is the render of the model's child there, with the old child there. *)
Definition like (m : model) (x : node) : Prop := match m, x with MText t, NText t' => t = t' | MEl tag key _, NEl _ tag' key' _ => tag = tag' /\ key = key' | _, _ => False end.
Lemma render_kind old m n : like m (fst (render old m n)).
Proof.
  destruct m as [t|tag key ch]; [reflexivity|]. rewrite render_el.
  destruct (match old with Some (NEl id tag' _ och) => if String.eqb tag tag' then (id, och, n) else (n, [], S n) | _ => (n, [], S n) end) as [[id below] n0].
  destruct (renders below 0 ch n0). cbn. auto.
Qed.

Lemma renders_key below k l : forall j n,
  match mchild (Key k) l with
  | None => nchild (Key k) (fst (renders below j l n)) = None
  | Some c => exists nc, n <= nc /\ nchild (Key k) (fst (renders below j l n)) = Some (fst (render (nchild (Key k) below) c nc)) /\ snd (render (nchild (Key k) below) c nc) <= snd (renders below j l n)
  end.
Proof.
  induction l as [|c r IH]; intros j n; [reflexivity|]. cbn [renders].
  destruct (render (lookup (mkey c) j below) c n) as [c' n1] eqn:E. specialize (IH (S j) n1).
  pose proof (render_kind (lookup (mkey c) j below) c n) as K. rewrite E in K. cbn [fst] in K.
  pose proof (render_le c (lookup (mkey c) j below) n) as Hle. rewrite E in Hle. cbn in Hle. cbn [mchild find] in IH |- *.
  pose proof (renders_le below r (S j) n1) as Hle2. destruct (renders below (S j) r n1) as [r' n2] eqn:E2. cbn [fst snd] in *.
  destruct (match mkey c with Some k' => String.eqb k k' | None => false end) eqn:Ek.
  - destruct (mkey c) as [k'|] eqn:Ek'; [|discriminate]. apply String.eqb_eq in Ek. subst k'.
    exists n. cbn [nchild lookup] in *. rewrite E. cbn [fst snd]. split; [lia|]. split; [|lia]. cbn [lookup find].
    destruct c as [|tag key ch]; [discriminate|]. cbn in Ek'. subst key. destruct c' as [|id tag' key' ch']; [contradiction|]. destruct K as [_ <-].
    cbn. now rewrite String.eqb_refl.
  - assert (F : has_key k c' = false).
    { destruct c as [|tag key ch], c' as [|id tag' key' ch']; try contradiction; [reflexivity|]. destruct K as [_ <-]. cbn in *. destruct key; auto. }
    cbn [nchild lookup find] in *. rewrite F. destruct (find (fun c0 => match mkey c0 with Some k' => String.eqb k k' | None => false end) r) as [x|].
    + destruct IH as (nc & A & B & C). exists nc. split; [lia|]. auto.
    + exact IH.
Qed.

Lemma renders_pos below i l : forall j n,
  match mchild (Position i) l with
  | None => nchild (Position i) (fst (renders below j l n)) = None
  | Some c => exists nc, n <= nc /\ nchild (Position i) (fst (renders below j l n)) = Some (fst (render (nchild (Position (j + i)) below) c nc)) /\ snd (render (nchild (Position (j + i)) below) c nc) <= snd (renders below j l n)
  end.
Proof.
  revert i. induction l as [|c r IH]; intros i j n; [destruct i; reflexivity|]. cbn [renders].
  destruct (render (lookup (mkey c) j below) c n) as [c' n1] eqn:E. 
  pose proof (render_kind (lookup (mkey c) j below) c n) as K. rewrite E in K. cbn [fst] in K.
  pose proof (render_le c (lookup (mkey c) j below) n) as Hle. rewrite E in Hle. cbn in Hle.
  pose proof (renders_le below r (S j) n1) as Hle2.
  destruct i as [|i].
  - destruct (renders below (S j) r n1) as [r' n2] eqn:E2. cbn [mchild nth_error nchild lookup fst snd] in *.
    destruct c as [t|tag key ch].
    + destruct c'; [reflexivity|contradiction].
    + destruct c' as [|id tag' key' ch']; [contradiction|]. destruct K as [_ <-]. destruct key as [k|]; [reflexivity|].
      exists n. rewrite Nat.add_0_r. cbn [mkey lookup] in E. rewrite E. cbn. auto.
  - specialize (IH i (S j) n1). destruct (renders below (S j) r n1) as [r' n2] eqn:E2. cbn [mchild nth_error nchild lookup fst snd] in *.
    replace (j + S i) with (S j + i) by lia.
    destruct (match nth_error r i with Some (MEl tag None ch) => Some (MEl tag None ch) | _ => None end) as [x|].
    + destruct IH as (nc & A & B & C). exists nc. split; [lia|]. auto.
    + exact IH.
Qed.

Lemma renders_child below s l n :
  match mchild s l with
  | None => nchild s (fst (renders below 0 l n)) = None
  | Some c => exists nc, n <= nc /\ nchild s (fst (renders below 0 l n)) = Some (fst (render (nchild s below) c nc)) /\ snd (render (nchild s below) c nc) <= snd (renders below 0 l n)
  end.
Proof. destruct s as [k|i]; [apply renders_key|apply (renders_pos below i l 0)]. Qed.

(** The names on the way to a place of the page. *)
Fixpoint nnames (x : node) (p : list place) : option (list string) :=
  match x with
  | NText _ => None
  | NEl _ tag _ ch => match p with
                      | [] => Some [tag]
                      | s :: r => match nchild s ch with Some c => option_map (cons tag) (nnames c r) | None => None end
                      end
  end.
Definition onames (x : option node) (p : list place) : option (list string) := match x with Some x => nnames x p | None => None end.

Lemma render_names p : forall old m n, nnames (fst (render old m n)) p = mnames m p.
Proof.
  induction p as [|s p IH]; intros old m n; (destruct m as [t|tag key ch]; [reflexivity|]); rewrite render_el;
    destruct (match old with Some (NEl id tag' _ och) => if String.eqb tag tag' then (id, och, n) else (n, [], S n) | _ => (n, [], S n) end) as [[id below] n0].
  - destruct (renders below 0 ch n0). reflexivity.
  - pose proof (renders_child below s ch n0) as R. destruct (renders below 0 ch n0) as [ch' n']. cbn [nnames mnames fst] in *.
    destruct (mchild s ch) as [c|].
    + destruct R as (nc & _ & -> & _). now rewrite IH.
    + now rewrite R.
Qed.

(** The node at a place is the old one if the names on the way are the same, and a new one otherwise. *)
Lemma render_id p : forall old m n ns, mnames m p = Some ns ->
  exists id, nid (fst (render old m n)) p = Some id /\
    ((onames old p = Some ns /\ node_at old p = Some id) \/ (onames old p <> Some ns /\ n <= id < snd (render old m n))).
Proof.
  induction p as [|s p IH]; intros old m n ns H; (destruct m as [t|tag key ch]; [discriminate|]); rewrite render_el; cbn [mnames] in H.
  - injection H as <-.
    destruct old as [[t|id tag' key' och]|]; cbn [onames nnames].
    + pose proof (renders_le [] ch 0 (S n)). destruct (renders [] 0 ch (S n)). cbn in *. exists n. split; [reflexivity|]. right. split; [discriminate|lia].
    + destruct (String.eqb_spec tag tag') as [->|Ne].
      * destruct (renders och 0 ch n). cbn. exists id. auto.
      * pose proof (renders_le [] ch 0 (S n)). destruct (renders [] 0 ch (S n)). cbn in *. exists n. split; [reflexivity|]. right. split; [congruence|lia].
    + pose proof (renders_le [] ch 0 (S n)). destruct (renders [] 0 ch (S n)). cbn in *. exists n. split; [reflexivity|]. right. split; [discriminate|lia].
  - destruct (mchild s ch) as [c|] eqn:Ec; [|discriminate].
    destruct (mnames c p) as [ns'|] eqn:En; [|discriminate]. injection H as <-.
    destruct (match old with Some (NEl id tag' _ och) => if String.eqb tag tag' then (id, och, n) else (n, [], S n) | _ => (n, [], S n) end) as [[id below] n0] eqn:E.
    assert (X : n <= n0 /\ ((exists key' och, old = Some (NEl id tag key' och) /\ below = och) \/ (below = [] /\ forall ns', onames old (s :: p) <> Some (tag :: ns')))).
    { destruct old as [[t|id' tag' key' och]|]; cbn [onames nnames].
      - injection E as <- <- <-. split; [lia|]. right. split; [reflexivity|discriminate].
      - destruct (String.eqb_spec tag tag') as [->|Ne]; injection E as <- <- <-.
        + split; [lia|]. left. exists key', och. auto.
        + split; [lia|]. right. split; [reflexivity|]. intros ns''. destruct (nchild s och) as [x|]; [|discriminate]. destruct (nnames x p); cbn; congruence.
      - injection E as <- <- <-. split; [lia|]. right. split; [reflexivity|discriminate]. }
    destruct X as [Hn X].
    pose proof (renders_child below s ch n0) as R. rewrite Ec in R. destruct R as (nc & R1 & R2 & R3).
    destruct (renders below 0 ch n0) as [ch' n']. cbn [fst snd nid] in *. rewrite R2.
    destruct (IH (nchild s below) c nc ns' En) as (id' & A & B). exists id'. split; [exact A|].
    destruct X as [(key' & och & -> & ->)|(-> & X)].
    + cbn [onames nnames node_at nid]. destruct B as [[B1 B2]|[B1 B2]].
      * left. unfold onames, node_at in *. destruct (nchild s och) as [x|]; [|discriminate]. rewrite B1, B2. auto.
      * right. split; [|lia]. unfold onames in B1. destruct (nchild s och) as [x|]; [|discriminate]. destruct (nnames x p); cbn; congruence.
    + right. split; [apply X|]. destruct B as [[B1 _]|[_ B2]]; [|lia]. destruct s as [k|[|i]]; discriminate.
Qed.

(** *** No node is at two places *)
Definition count (below : list node) (j : nat) (l : list model) (n i : nat) : nat := snd (renders below j (firstn i l) n).
Lemma count_S below j x r n i : count below j (x :: r) n (S i) = count below (S j) r (snd (render (lookup (mkey x) j below) x n)) i.
Proof. unfold count. cbn [firstn renders]. destruct (render (lookup (mkey x) j below) x n) as [x' n1]. cbn [snd]. now destruct (renders below (S j) (firstn i r) n1). Qed.
Lemma renders_nth below l : forall j n i c, nth_error l i = Some c ->
  nth_error (fst (renders below j l n)) i = Some (fst (render (lookup (mkey c) (j + i) below) c (count below j l n i))) /\
  count below j l n (S i) = snd (render (lookup (mkey c) (j + i) below) c (count below j l n i)).
Proof.
  induction l as [|x r IH]; intros j n [|i] c H; try discriminate; cbn [nth_error] in H.
  - injection H as ->. rewrite count_S. unfold count. cbn [firstn renders snd]. rewrite Nat.add_0_r.
    destruct (render (lookup (mkey c) j below) c n) as [c' n1] eqn:E. destruct (renders below (S j) r n1). cbn. auto.
  - rewrite !(count_S below j x r). destruct (IH (S j) (snd (render (lookup (mkey x) j below) x n)) i c H) as [A B]. replace (j + S i) with (S j + i) by lia.
    split; [|exact B]. rewrite <- A. cbn [renders]. destruct (render (lookup (mkey x) j below) x n) as [x' n1]. cbn [snd]. now destruct (renders below (S j) r n1).
Qed.
Lemma count_mono below l : forall j n i i', i <= i' -> count below j l n i <= count below j l n i'.
Proof.
  unfold count. induction l as [|x r IH]; intros j n i i' H; [now rewrite !firstn_nil|].
  destruct i as [|i]; [apply renders_le|]. destruct i' as [|i']; [lia|]. cbn [firstn renders].
  destruct (render (lookup (mkey x) j below) x n) as [x' n1]. specialize (IH (S j) n1 i i' ltac:(lia)).
  destruct (renders below (S j) (firstn i r) n1), (renders below (S j) (firstn i' r) n1). exact IH.
Qed.
Lemma mchild_index s l c : mchild s l = Some c -> exists i, nth_error l i = Some c /\ s = match mkey c with Some k => Key k | None => Position i end /\
  forall below n, nchild s (fst (renders below 0 l n)) = nth_error (fst (renders below 0 l n)) i /\ nchild s below = lookup (mkey c) i below.
Proof.
  destruct s as [k|j]; cbn [mchild]; intros H.
  - assert (G : exists i, nth_error l i = Some c /\ mkey c = Some k /\ forall below j n, find (has_key k) (fst (renders below j l n)) = nth_error (fst (renders below j l n)) i).
    { induction l as [|x r IH]; [discriminate|]. cbn in H. destruct (mkey x) as [k'|] eqn:Ek; [destruct (String.eqb_spec k k') as [<-|Ne]|].
      - injection H as ->. exists 0. split; [reflexivity|]. split; [exact Ek|]. intros below j n. cbn [renders].
        pose proof (render_kind (lookup (mkey c) j below) c n) as K. destruct (render (lookup (mkey c) j below) c n) as [c' n1]. destruct (renders below (S j) r n1).
        cbn [fst find nth_error] in *. destruct c as [|tag key ch]; [discriminate|]. destruct c' as [|id tag' key' ch']; [contradiction|]. destruct K as [_ <-]. cbn in Ek. subst key.
        cbn. now rewrite String.eqb_refl.
      - destruct (IH H) as (i & A & B & C). exists (S i). split; [exact A|]. split; [exact B|]. intros below j n. cbn [renders].
        pose proof (render_kind (lookup (mkey x) j below) x n) as K. destruct (render (lookup (mkey x) j below) x n) as [c' n1]. specialize (C below (S j) n1). destruct (renders below (S j) r n1).
        cbn [fst find nth_error] in *. destruct x as [|tag key ch]; [discriminate|]. destruct c' as [|id tag' key' ch']; [contradiction|]. destruct K as [_ <-]. cbn in Ek. subst key.
        cbn. destruct (String.eqb_spec k k'); [contradiction|]. exact C.
      - destruct (IH H) as (i & A & B & C). exists (S i). split; [exact A|]. split; [exact B|]. intros below j n. cbn [renders].
        pose proof (render_kind (lookup (mkey x) j below) x n) as K. rewrite Ek in K |- *. destruct (render (lookup None j below) x n) as [c' n1]. specialize (C below (S j) n1). destruct (renders below (S j) r n1).
        cbn [fst find nth_error] in *. destruct x as [|tag key ch], c' as [|id tag' key' ch']; try contradiction; [exact C|]. destruct K as [_ <-]. cbn in Ek. subst key. exact C. }
    destruct G as (i & A & B & C). exists i. split; [exact A|]. rewrite B. split; [reflexivity|]. intros below n. split; [apply C|reflexivity].
  - destruct (nth_error l j) as [[t|tag [k|] ch]|] eqn:E; try discriminate. injection H as <-. exists j. split; [exact E|]. split; [reflexivity|].
    intros below n. split; [|reflexivity]. destruct (renders_nth below l 0 n j _ E) as [-> _].
    cbn [nchild lookup]. destruct (renders_nth below l 0 n j _ E) as [E' _]. cbn [mkey] in *. rewrite E'.
    pose proof (render_kind (lookup None (0 + j) below) (MEl tag None ch) (count below 0 l n j)) as K. destruct (fst (render (lookup None (0 + j) below) (MEl tag None ch) (count below 0 l n j))) as [|id tag' key' ch']; [contradiction|].
    destruct K as [_ <-]. reflexivity.
Qed.

Lemma nid_names x : forall p id, nid x p = Some id -> exists ns, nnames x p = Some ns.
Proof.
  intros p. revert x. induction p as [|s p IH]; intros [t|i tag key ch] id H; try discriminate; cbn in *; [eauto|].
  destruct (nchild s ch) as [c|]; [|discriminate]. destruct (IH _ _ H) as [ns ->]. cbn. eauto.
Qed.

Definition distinct (x : option node) : Prop := forall p q id, node_at x p = Some id -> node_at x q = Some id -> p = q.
Definition below_n (x : option node) (n : nat) : Prop := forall p id, node_at x p = Some id -> id < n.

Lemma render_distinct p : forall q old m n id, below_n old n -> distinct old ->
  nid (fst (render old m n)) p = Some id -> nid (fst (render old m n)) q = Some id -> p = q.
Proof.
  (* the identity of a child: the old one at this place, or new *)
  assert (Child : forall old c nc p id, nid (fst (render old c nc)) p = Some id -> node_at old p = Some id \/ nc <= id < snd (render old c nc)).
  { clear p. intros old c nc p id H. destruct (nid_names _ _ _ H) as [ns Hn]. rewrite render_names in Hn.
    destruct (render_id p old c nc ns Hn) as (id' & A & B). rewrite H in A. injection A as <-. destruct B as [[_ B]|[_ B]]; auto. }
  assert (Root : forall s q old tag key ch n id, below_n old n -> distinct old ->
            nid (fst (render old (MEl tag key ch) n)) [] = Some id -> nid (fst (render old (MEl tag key ch) n)) (s :: q) = Some id -> False).
  { intros s q old tag key ch n id Hb Hd. rewrite render_el.
    destruct (match old with Some (NEl id tag' _ och) => if String.eqb tag tag' then (id, och, n) else (n, [], S n) | _ => (n, [], S n) end) as [[i0 below] n0] eqn:E.
    pose proof (renders_child below s ch n0) as R. destruct (renders below 0 ch n0) as [ch' n']. cbn [fst nid] in *.
    intros [= ->] H. destruct (mchild s ch) as [c|]; [|rewrite R in H; discriminate]. destruct R as (nc & R1 & R2 & R3). rewrite R2 in H.
    apply Child in H. destruct old as [[t|i tag' key' och]|].
    - injection E as <- <- <-. destruct H as [H|H]; [destruct s as [k|[|j]]; discriminate|lia].
    - destruct (String.eqb tag tag'); injection E as <- <- <-.
      + assert (i < n) by (apply (Hb []); reflexivity). destruct H as [H|H]; [|lia].
        assert (X : [] = s :: q) by (apply (Hd [] (s :: q) i); [reflexivity|]; cbn [node_at nid]; destruct (nchild s och); [exact H|discriminate]). discriminate.
      + destruct H as [H|H]; [destruct s as [k|[|j]]; discriminate|lia].
    - injection E as <- <- <-. destruct H as [H|H]; [destruct s as [k|[|j]]; discriminate|lia]. }
  induction p as [|s p IH]; intros q old m n id Hb Hd Hp Hq; (destruct m as [t|tag key ch]; [destruct q; discriminate|]).
  - destruct q as [|s q]; [reflexivity|]. exfalso. eapply Root; eauto.
  - destruct q as [|s' q]; [exfalso; eapply Root; eauto|].
    rewrite render_el in Hp, Hq.
    destruct (match old with Some (NEl id tag' _ och) => if String.eqb tag tag' then (id, och, n) else (n, [], S n) | _ => (n, [], S n) end) as [[i0 below] n0] eqn:E.
    assert (B : n <= n0 /\ forall s p id, node_at (nchild s below) p = Some id -> node_at old (s :: p) = Some id).
    { destruct old as [[t|i tag' key' och]|].
      - injection E as <- <- <-. split; [lia|]. intros [k|[|j]]; discriminate.
      - destruct (String.eqb tag tag'); injection E as <- <- <-; (split; [lia|]).
        + intros s0 p0 id0. cbn [node_at nid]. destruct (nchild s0 och); [auto|discriminate].
        + intros [k|[|j]]; discriminate.
      - injection E as <- <- <-. split; [lia|]. intros [k|[|j]]; discriminate. }
    destruct B as [B1 B2].
    destruct (mchild s ch) as [c|] eqn:Ec; [|pose proof (renders_child below s ch n0) as R; rewrite Ec in R; destruct (renders below 0 ch n0); cbn [fst nid] in *; rewrite R in Hp; discriminate].
    destruct (mchild s' ch) as [c'|] eqn:Ec'; [|pose proof (renders_child below s' ch n0) as R; rewrite Ec' in R; destruct (renders below 0 ch n0); cbn [fst nid] in *; rewrite R in Hq; discriminate].
    destruct (mchild_index s ch c Ec) as (i & I1 & I2 & I3). destruct (mchild_index s' ch c' Ec') as (i' & I1' & I2' & I3').
    destruct (I3 below n0) as [I4 I5]. destruct (I3' below n0) as [I4' I5'].
    destruct (renders_nth below ch 0 n0 i c I1) as [N1 N2]. destruct (renders_nth below ch 0 n0 i' c' I1') as [N1' N2'].
    cbn [Nat.add] in *. rewrite <- I5 in N1, N2. rewrite <- I5' in N1', N2'.
    pose proof (count_mono below ch 0 n0 0 i ltac:(lia)) as M. pose proof (count_mono below ch 0 n0 0 i' ltac:(lia)) as M'.
    change (count below 0 ch n0 0) with n0 in M, M'.
    destruct (renders below 0 ch n0) as [ch' n']. cbn [fst nid] in *. rewrite I4, N1 in Hp. rewrite I4', N1' in Hq.
    destruct (Nat.eq_dec i i') as [<-|Ne].
    + rewrite I1 in I1'. injection I1' as <-. assert (Es : s' = s) by congruence. clear I2 I2'. subst s'. f_equal.
      eapply (IH q (nchild s below) c _ id); [| |exact Hp|exact Hq].
      * intros p0 id0 H. apply B2, Hb in H. lia.
      * intros p0 q0 id0 H H'. apply B2 in H. apply B2 in H'. pose proof (Hd _ _ _ H H') as X. congruence.
    + apply Child in Hp. apply Child in Hq. destruct Hp as [Hp|Hp], Hq as [Hq|Hq].
      * apply B2 in Hp. apply B2 in Hq. exact (Hd _ _ _ Hp Hq).
      * exfalso. apply B2, Hb in Hp. lia.
      * exfalso. apply B2, Hb in Hq. lia.
      * exfalso. rewrite <- N2 in Hp. rewrite <- N2' in Hq.
        assert (i < i' \/ i' < i) as [L|L] by lia.
        -- pose proof (count_mono below ch 0 n0 (S i) i' ltac:(lia)). lia.
        -- pose proof (count_mono below ch 0 n0 (S i') i ltac:(lia)). lia.
Qed.

(** *** Histories *)
Lemma page_snoc l m : page (l ++ [m]) = show (page l) m.
Proof. unfold page. now rewrite fold_left_app. Qed.
Lemma page_inv l : below_n (fst (page l)) (snd (page l)) /\ distinct (fst (page l)).
Proof.
  induction l as [|m l [IH1 IH2]] using rev_ind; [split; [intros p id H|intros p q id H]; discriminate|].
  rewrite page_snoc. unfold show. pose proof (render_le m (fst (page l)) (snd (page l))) as L.
  pose proof (fun p q id => render_distinct p q (fst (page l)) m (snd (page l)) id IH1 IH2) as D.
  assert (B : forall p id, nid (fst (render (fst (page l)) m (snd (page l)))) p = Some id -> id < snd (render (fst (page l)) m (snd (page l)))).
  { intros p id H. destruct (nid_names _ _ _ H) as [ns Hn]. rewrite render_names in Hn.
    destruct (render_id p (fst (page l)) m (snd (page l)) ns Hn) as (id' & A & [[_ B]|[_ B]]); rewrite H in A; injection A as <-; [|lia].
    apply IH1 in B. lia. }
  destruct (render (fst (page l)) m (snd (page l))) as [x n']. split; [exact B|exact D].
Qed.
Lemma page_names l m p : onames (fst (page (l ++ [m]))) p = mnames m p.
Proof. rewrite page_snoc. unfold show. pose proof (render_names p (fst (page l)) m (snd (page l))). destruct (render (fst (page l)) m (snd (page l))). exact H. Qed.
Lemma page_le l l' : snd (page l) <= snd (page (l ++ l')).
Proof.
  induction l' as [|m l' IH] using rev_ind; [now rewrite app_nil_r|]. rewrite app_assoc, page_snoc. unfold show.
  pose proof (render_le m (fst (page (l ++ l'))) (snd (page (l ++ l')))). destruct (render (fst (page (l ++ l'))) m (snd (page (l ++ l')))). cbn in *. lia.
Qed.

(** An element keeps its node from one model to the next if the elements on the way to it have the same names and keys, or
    positions if they have no keys. *)
Theorem C113_kept l m m' p ns : mnames m p = Some ns -> mnames m' p = Some ns ->
  exists id, node_at (fst (page (l ++ [m]))) p = Some id /\ node_at (fst (page (l ++ [m; m']))) p = Some id.
Proof.
  intros H H'. change [m; m'] with ([m] ++ [m']). rewrite app_assoc, (page_snoc (l ++ [m]) m'). unfold show.
  destruct (render_id p (fst (page (l ++ [m]))) m' (snd (page (l ++ [m]))) ns H') as (id & A & [[_ B]|[B _]]).
  - exists id. split; [exact B|]. destruct (render (fst (page (l ++ [m]))) m' (snd (page (l ++ [m])))). exact A.
  - exfalso. apply B. rewrite page_names. exact H.
Qed.

(** Otherwise its node is one that was never on the page. *)
Theorem C113_new l m' p ns : mnames m' p = Some ns -> (forall before m, l = before ++ [m] -> mnames m p <> Some ns) ->
  exists id, node_at (fst (page (l ++ [m']))) p = Some id /\ forall k q, node_at (fst (page (firstn k l))) q <> Some id.
Proof.
  intros H' Hn. rewrite page_snoc. unfold show.
  destruct (render_id p (fst (page l)) m' (snd (page l)) ns H') as (id & A & [[B _]|[_ B]]).
  - exfalso. destruct l as [|m l _] using rev_ind; [discriminate|]. rewrite page_names in B. exact (Hn l m eq_refl B).
  - exists id. split; [destruct (render (fst (page l)) m' (snd (page l))); exact A|].
    intros k q Hq. apply (proj1 (page_inv (firstn k l))) in Hq. pose proof (page_le (firstn k l) (skipn k l)) as L. rewrite firstn_skipn in L. lia.
Qed.

(** No two elements have the same node. *)
Theorem C113_one l p q id : node_at (fst (page l)) p = Some id -> node_at (fst (page l)) q = Some id -> p = q.
Proof. apply page_inv. Qed.

(** ** Programs *)
(** What a component returns: nothing ([None]), text, elements, components with their type and key. *)
Inductive prog := GNone | GText (t : string) | GEl (tag : string) (key : option string) (children : list prog) | GComp (type : string) (key : option string) (body : prog).
(** The model made of it, layout.py:334-340, 531-563, 884-907: [None] is left out, a component is an element without a name and key. *)
Fixpoint emit (g : prog) : list model :=
  match g with
  | GNone => []
  | GText t => [MText t]
  | GEl tag key ch => [MEl tag key (flat_map emit ch)]
  | GComp _ _ b => [MEl EmptyString None (emit b)]
  end.
Definition shown (g : prog) : model := match emit g with m :: _ => m | [] => MText EmptyString end.

(** *** Specification: where the program's elements and components are; layout.py:884-907: by the key, or by the index among all
    children, also those that are [None]. *)
Inductive gplace := ByKey (k : string) | ByIndex (j : nat).
Definition here (s : gplace) (j : nat) (c : prog) : bool :=
  match s, c with
  | ByKey k, (GEl _ (Some k') _ | GComp _ (Some k') _) => String.eqb k k'
  | ByIndex i, (GEl _ None _ | GComp _ None _) => Nat.eqb i j
  | _, _ => false
  end.
(** The child there, and how many children before it are on the page. *)
Fixpoint gchild (s : gplace) (l : list prog) (j b : nat) : option (nat * prog) :=
  match l with [] => None | c :: r => if here s j c then Some (b, c) else gchild s r (S j) (b + length (emit c)) end.
Definition gchildren (g : prog) : list prog := match g with GEl _ _ ch => ch | GComp _ _ b => [b] | _ => [] end.
(** The names on the way: the same element or component for the program is one with the same names at the same place (C03). *)
Inductive gname := Element (tag : string) | Component (type : string).
Definition own_name (g : prog) : option gname := match g with GEl tag _ _ => Some (Element tag) | GComp ty _ _ => Some (Component ty) | _ => None end.
Fixpoint gnames (g : prog) (p : list gplace) : option (list gname) :=
  match own_name g with
  | None => None
  | Some x => match p with
              | [] => Some [x]
              | s :: r => match gchild s (gchildren g) 0 0 with Some (_, c) => option_map (cons x) (gnames c r) | None => None end
              end
  end.
(** Where the browser has it: components are found by their position. *)
Definition there (b : nat) (c : prog) : place := match c with GEl _ (Some k) _ => Key k | _ => Position b end.
Fixpoint way (g : prog) (p : list gplace) : option (list place) :=
  match p with
  | [] => Some []
  | s :: r => match gchild s (gchildren g) 0 0 with Some (b, c) => option_map (cons (there b c)) (way c r) | None => None end
  end.
(** No component has a key and nothing is [None]. *)
Fixpoint plain (g : prog) : Prop :=
  match g with
  | GNone => False
  | GText _ => True
  | GEl _ _ ch => (fix all l := match l with [] => True | c :: r => plain c /\ all r end) ch
  | GComp _ k b => k = None /\ plain b
  end.
Definition same_place (s : gplace) : place := match s with ByKey k => Key k | ByIndex j => Position j end.

(** *** Proof *)
Definition browser_name (x : gname) : string := match x with Element tag => tag | Component _ => EmptyString end.
Lemma emit_own g x : own_name g = Some x -> exists key, emit g = [MEl (browser_name x) key (flat_map emit (gchildren g))] /\ key = match g with GEl _ k _ => k | _ => None end.
Proof.
  destruct g as [|t|tag key ch|ty key b]; intros [= <-]; cbn; [eauto|]. exists None. rewrite app_nil_r. auto.
Qed.
Lemma gchild_own s l : forall j b b' c, gchild s l j b = Some (b', c) -> exists x, own_name c = Some x.
Proof.
  induction l as [|a r IH]; intros j b b' c; cbn; [easy|]. destruct (here s j a) eqn:E; [|apply IH].
  intros [= <- <-]. destruct s, a as [| |? ? ?|? ? ?]; try discriminate; cbn; eauto.
Qed.
Lemma gchild_emit s l : forall j b b' c m, gchild s l j b = Some (b', c) -> emit c = [m] ->
  match there b' c with Key k => mchild (Key k) (flat_map emit l) = Some m | Position i => b <= i /\ nth_error (flat_map emit l) (i - b) = Some m end.
Proof.
  induction l as [|a r IH]; intros j b b' c m; cbn [gchild flat_map]; [easy|]. destruct (here s j a) eqn:E.
  - intros [= <- <-] Hm. rewrite Hm. cbn [app]. destruct a as [|t|tag [k|] ch|ty key bd]; cbn [there] in *.
    + destruct s; discriminate.
    + destruct s; discriminate.
    + cbn in Hm. injection Hm as <-. cbn [mchild find mkey]. now rewrite String.eqb_refl.
    + rewrite Nat.sub_diag. cbn. auto.
    + rewrite Nat.sub_diag. cbn. auto.
  - intros H Hm. specialize (IH _ _ _ _ _ H Hm). destruct (there b' c) as [k|i] eqn:Et.
    + cbn [mchild] in *. assert (F : forall x, In x (emit a) -> match mkey x with Some k' => String.eqb k k' | None => false end = false).
      { assert (Es : s = ByKey k).
        { destruct c as [|t|tag [k0|] ch|ty key bd]; try discriminate. injection Et as ->. clear -H.
          revert H. generalize (S j) (b + length (emit a)). induction r as [|a' r IH]; cbn; intros n0 n1; [easy|].
          destruct (here s n0 a') eqn:Eh; [|apply IH]. intros [= _ ->]. destruct s as [k'|i]; [|discriminate]. cbn in Eh. apply String.eqb_eq in Eh. now subst. }
        subst s. intros x Hx. destruct a as [|t|tag key ch|ty key bd]; cbn in Hx; [easy| | |]; destruct Hx as [<-|[]]; cbn; auto. }
      clear H. revert F. generalize (emit a). intros e. induction e as [|x xs IHx]; intros F; [exact IH|]. cbn [app find]. rewrite (F x (or_introl eq_refl)). apply IHx. intros y Hy. apply F. now right.
    + destruct IH as [L N]. split; [lia|]. rewrite nth_error_app2 by lia. rewrite <- N. f_equal. lia.
Qed.
Lemma gchild_mchild s l b c m : gchild s l 0 0 = Some (b, c) -> emit c = [m] -> mchild (there b c) (flat_map emit l) = Some m.
Proof.
  intros H Hm. pose proof (gchild_emit s l 0 0 b c m H Hm) as G. destruct (gchild_own _ _ _ _ _ _ H) as [x Hx].
  destruct (there b c) as [k|i] eqn:Et; [exact G|]. destruct G as [_ N]. rewrite Nat.sub_0_r in N. cbn. rewrite N.
  destruct c as [|t|tag [k|] ch|ty key bd]; try discriminate; cbn in Hm; injection Hm as <-; reflexivity.
Qed.
Lemma way_names p : forall g w ns m, way g p = Some w -> gnames g p = Some ns -> emit g = [m] -> mnames m w = Some (map browser_name ns).
Proof.
  induction p as [|s p IH]; intros g w ns m Hw Hn Hm; cbn [gnames] in Hn; destruct (own_name g) as [x|] eqn:Ex; try (destruct g; discriminate);
    (destruct (emit_own g x Ex) as (key & E & _); rewrite Hm in E; injection E as ->).
  - injection Hw as <-. injection Hn as <-. reflexivity.
  - cbn [way] in Hw. destruct (gchild s (gchildren g) 0 0) as [[b c]|] eqn:Ec; [|discriminate].
    destruct (way c p) as [w'|] eqn:Ew; [|discriminate]. injection Hw as <-. destruct (gnames c p) as [ns'|] eqn:En; [|discriminate]. injection Hn as <-.
    destruct (gchild_own _ _ _ _ _ _ Ec) as [y Hy]. destruct (emit_own c y Hy) as (key' & E' & _).
    cbn [mnames map]. rewrite (gchild_mchild _ _ _ _ _ Ec E'). now rewrite (IH c w' ns' _ Ew En E').
Qed.
Lemma way_exists p : forall g ns, gnames g p = Some ns -> exists w, way g p = Some w.
Proof.
  induction p as [|s p IH]; intros g ns H; cbn [gnames way] in *; [eauto|]. destruct (own_name g); [|discriminate].
  destruct (gchild s (gchildren g) 0 0) as [[b c]|]; [|discriminate]. destruct (gnames c p) as [ns'|] eqn:E; [|discriminate].
  destruct (IH _ _ E) as [w ->]. cbn. eauto.
Qed.
Lemma gnames_emit g p ns : gnames g p = Some ns -> emit g = [shown g].
Proof. unfold shown. destruct g; cbn; try reflexivity. destruct p; discriminate. Qed.

(** An element of the program keeps its node if the components with keys on the way to it keep their positions, and no other
    child before it, or before one on the way, comes or goes. *)
Theorem C113_program l g g' p ns w : gnames g p = Some ns -> gnames g' p = Some ns -> way g p = Some w -> way g' p = Some w ->
  exists id, node_at (fst (page (map shown (l ++ [g])))) w = Some id /\ node_at (fst (page (map shown (l ++ [g; g'])))) w = Some id.
Proof.
  intros H H' Hw Hw'. rewrite !map_app. cbn [map].
  apply (C113_kept (map shown l) (shown g) (shown g') w (map browser_name ns)); [apply (way_names p g)|apply (way_names p g')]; auto; eapply gnames_emit; eauto.
Qed.

Lemma plain_children g : plain g -> Forall plain (gchildren g).
Proof.
  destruct g as [|t|tag key ch|ty key b]; cbn; intros H; try constructor; try tauto; [|constructor].
  induction ch as [|c r IH]; [constructor|]. destruct H. constructor; auto.
Qed.
Lemma plain_child l : forall s j b c, Forall plain l -> gchild s l j j = Some (b, c) -> there b c = same_place s /\ plain c.
Proof.
  induction l as [|a r IH]; intros s j b c F; cbn; [easy|]. inversion F as [|? ? Fa Fr]; subst. destruct (here s j a) eqn:E.
  - intros [= <- <-]. split; [|exact Fa]. destruct s as [k|i], a as [|t|tag [k'|] ch|ty [k'|] bd]; try discriminate; cbn in *.
    + apply String.eqb_eq in E. now subst.
    + destruct Fa; discriminate.
    + apply Nat.eqb_eq in E. now subst.
    + apply Nat.eqb_eq in E. now subst.
  - assert (X : length (emit a) = 1) by (destruct a; cbn in *; tauto || reflexivity). rewrite X, Nat.add_1_r. apply IH, Fr.
Qed.
Lemma plain_way p : forall g ns, plain g -> gnames g p = Some ns -> way g p = Some (map same_place p).
Proof.
  induction p as [|s p IH]; intros g ns P H; cbn [gnames way map] in *; [reflexivity|]. destruct (own_name g); [|discriminate].
  destruct (gchild s (gchildren g) 0 0) as [[b c]|] eqn:E; [|discriminate]. destruct (gnames c p) as [ns'|] eqn:En; [|discriminate].
  destruct (plain_child _ _ _ _ _ (plain_children g P) E) as [-> Pc]. now rewrite (IH c ns' Pc En).
Qed.

(** So every element that stays for the program keeps its node, in programs whose components have no keys and which have no [None]
    among the children. *)
Theorem C113_program_partial l g g' p ns : plain g -> plain g' -> gnames g p = Some ns -> gnames g' p = Some ns ->
  exists id, node_at (fst (page (map shown (l ++ [g])))) (map same_place p) = Some id /\ node_at (fst (page (map shown (l ++ [g; g'])))) (map same_place p) = Some id.
Proof. intros P P' H H'. eapply C113_program; eauto using plain_way. Qed.

Local Open Scope string_scope. Local Open Scope list_scope.
Definition root (g : prog) : prog := GComp "App" None g.
Definition field (k : option string) : prog := GEl "input" k [].
(** Elements with keys that change places, with others that come and go. *)
Example C113_example :
  let g := root (GEl "div" None [GEl "h1" None [GText "title"]; GEl "ul" None [GEl "li" (Some "a") [field None]; GEl "li" (Some "b") [field None]]]) in
  let g' := root (GEl "div" None [GEl "h2" None []; GEl "ul" None [GEl "li" (Some "c") [field None]; GEl "li" (Some "b") [field None]; GEl "li" (Some "a") [field None]]]) in
  let p k := [ByIndex 0; ByIndex 1; ByKey k; ByIndex 0] in
  plain g /\ plain g' /\ gnames g (p "a") = gnames g' (p "a") /\ gnames g (p "b") <> None /\ gnames g (p "c") = None /\
  map (fun k => node_at (fst (page (map shown [g]))) (map same_place (p k))) ["a"; "b"; "c"] = [Some 5; Some 7; None] /\
  map (fun k => node_at (fst (page (map shown [g; g']))) (map same_place (p k))) ["a"; "b"; "c"] = [Some 5; Some 7; Some 10] /\
  node_at (fst (page (map shown [g]))) [Position 0; Position 0] <> node_at (fst (page (map shown [g; g']))) [Position 0; Position 0].
Proof. vm_compute. repeat split; discriminate. Qed.

(** Finding: the key of a component is not known to the browser. If two components change places, each has the other's nodes: a
    text that was entered for one item is then at the other. *)
Theorem C113_component_keys_refuted :
  let item k := GComp "Item" (Some k) (field None) in
  let g := root (GEl "ul" None [item "a"; item "b"]) in let g' := root (GEl "ul" None [item "b"; item "a"]) in
  let p k := [ByIndex 0; ByKey k; ByIndex 0] in
  exists a b a' b', way g (p "a") = Some a /\ way g (p "b") = Some b /\ way g' (p "a") = Some a' /\ way g' (p "b") = Some b' /\
    gnames g (p "a") = gnames g' (p "a") /\ gnames g (p "b") = gnames g' (p "b") /\
    node_at (fst (page (map shown [g; g']))) a' = node_at (fst (page (map shown [g]))) b /\
    node_at (fst (page (map shown [g; g']))) b' = node_at (fst (page (map shown [g]))) a /\
    node_at (fst (page (map shown [g]))) a = Some 3 /\ node_at (fst (page (map shown [g]))) b = Some 5.
Proof.
  exists [Position 0; Position 0; Position 0], [Position 0; Position 1; Position 0], [Position 0; Position 1; Position 0], [Position 0; Position 0; Position 0].
  vm_compute. auto 20.
Qed.
(** Finding: [None] keeps a place for the program but not in the browser. If something is shown where there was [None], the elements
    after it, which the program keeps, are made anew, and the text entered in them is lost. *)
Theorem C113_none_refuted :
  let g := root (GEl "div" None [GNone; field None]) in let g' := root (GEl "div" None [GEl "p" None []; field None]) in
  let p := [ByIndex 0; ByIndex 1] in
  exists w w', way g p = Some w /\ way g' p = Some w' /\ gnames g p = gnames g' p /\ gnames g p <> None /\
    node_at (fst (page (map shown [g]))) w = Some 2 /\ node_at (fst (page (map shown [g; g']))) w' = Some 4.
Proof. exists [Position 0; Position 0], [Position 0; Position 1]. vm_compute. repeat split; discriminate. Qed.
(** Finding: a component of another type takes over the nodes of the one it replaces: what was entered in the first form is in the
    second. *)
Theorem C113_component_type_refuted :
  let g := root (GComp "Login" None (field None)) in let g' := root (GComp "Register" None (field None)) in
  let p := [ByIndex 0; ByIndex 0] in let w := [Position 0; Position 0] in
  way g p = Some w /\ way g' p = Some w /\ gnames g p <> gnames g' p /\ node_at (fst (page (map shown [g; g']))) w = node_at (fst (page (map shown [g]))) w /\
  node_at (fst (page (map shown [g]))) w = Some 2.
Proof. vm_compute. repeat split; discriminate. Qed.

Print Assumptions C113_kept.
Print Assumptions C113_new.
Print Assumptions C113_one.
Print Assumptions C113_program.
Print Assumptions C113_program_partial.
