(** * Trees have the shape of what was rendered, and identities follow keys; proof-side only *)
From Coq Require Import String ZArith Bool Arith Lia List Permutation.
From Verif Require Import Dict LayoutTypes LayoutModel BodySpec DisplaySpec LayoutTree LayoutDeriv LayoutExec LayoutFacts
  LayoutSettled LayoutContext.
Import ListNotations.
Local Open Scope string_scope.
Local Open Scope list_scope.

(** ** Shape *)

Inductive shape : raw -> tree -> Prop :=
| Sh_elem tag attrs hs js imp ch attrs' m k kp kids :
    attrs_shown tag attrs attrs' -> shapes 0 (match ch with Some l => l | None => [] end) kids ->
    shape (RElem tag attrs hs js imp ch)
      (TElem m k tag imp attrs' js kp hs (match ch with Some (_ :: _) => true | _ => false end) kids)
| Sh_comp m k h c out kids :
    shapes 0 (outs out) kids -> shape (RComp c) (TComp m k h c out kids)
with shapes : nat -> list raw -> list tree -> Prop :=
| Shs_nil i : shapes i [] []
| Shs_none i l ts : shapes (S i) l ts -> shapes i (RNone :: l) ts
| Shs_text i s l ts : shapes (S i) l ts -> shapes i (RText s :: l) (TText s :: ts)
| Shs_cons i r l t ts : shape r t -> tkey t = Some (effective_key i r) -> shapes (S i) l ts -> shapes i (r :: l) (t :: ts).

Scheme shape_ind' := Induction for shape Sort Prop
  with shapes_ind' := Induction for shapes Sort Prop.
Combined Scheme shape_mind from shape_ind', shapes_ind'.

Lemma inject_ack_shown seqs tag ts attrs : attrs_shown tag attrs (inject_ack seqs tag ts attrs).
Proof.
  unfold inject_ack. destruct (is_input_tag tag) eqn:E; [|left; auto].
  destruct (max_ack seqs ts None) as [a|]; [|left; auto].
  destruct attrs as [d|]; [|left; auto]. unfold dsetdefault.
  destruct (dmem "_reactpy_ack_seq" d) eqn:D; [left; auto|]. apply dmem_false in D.
  right. split; [apply mem_In; exact E|]. exists d, a. apply dget_None in D. split; auto. split; auto.
  rewrite dset_fresh; auto.
Qed.

Lemma infos_shape l : forall i,
  match l with
  | [] => children_infos i l = []
  | RNone :: l' => children_infos i l = children_infos (S i) l'
  | RText s :: l' => children_infos i l = (StrChild s, KInt (Z.of_nat i)) :: children_infos (S i) l'
  | RElem tag a hs js imp ch :: l' =>
      children_infos i l = (DictChild (RElem tag a hs js imp ch), effective_key i (RElem tag a hs js imp ch)) :: children_infos (S i) l'
  | RComp c :: l' => children_infos i l = (CompChild c, effective_key i (RComp c)) :: children_infos (S i) l'
  end.
Proof.
  destruct l as [|r l]; intros i; [reflexivity|]. destruct r as [|s|tag a hs js imp ch|c]; simpl; auto.
  - unfold attr_key, effective_key, explicit_key. destruct a as [d|]; auto.
    destruct (dget "key" d) as [[]|]; auto.
  - unfold effective_key, explicit_key. destruct (ci_key c); auto.
Qed.

(** From the remaining infos to the remaining children. *)
Lemma infos_skip l : forall i kd k rest, children_infos i l = (kd, k) :: rest ->
  exists j r l', children_infos (S j) l' = rest /\
    (forall ts, shapes j (r :: l') ts -> shapes i l ts) /\
    match kd with
    | DictChild r' => r' = r /\ k = effective_key j r
    | CompChild c => r = RComp c /\ k = effective_key j r
    | StrChild s => r = RText s
    end.
Proof.
  induction l as [|r l IH]; intros i kd k rest EQ; [discriminate|].
  pose proof (infos_shape (r :: l) i) as IS. destruct r as [|s|tag a hs js imp ch|c].
  - rewrite IS in EQ. destruct (IH _ _ _ _ EQ) as (j & r & l' & A & B & C). exists j, r, l'. repeat split; auto.
    intros ts Hs. constructor. auto.
  - rewrite IS in EQ. injection EQ as <- <- <-. exists i, (RText s), l. auto.
  - rewrite IS in EQ. injection EQ as <- <- <-. exists i, (RElem tag a hs js imp ch), l. auto.
  - rewrite IS in EQ. injection EQ as <- <- <-. exists i, (RComp c), l. auto.
Qed.
Lemma infos_nil l : forall i, children_infos i l = [] -> shapes i l [].
Proof.
  induction l as [|r l IH]; intros i EQ; [constructor|].
  pose proof (infos_shape (r :: l) i) as IS. destruct r; rewrite IS in EQ; try discriminate. constructor. auto.
Qed.

Section Shape.
Variable defs : nat -> val -> list raw -> body.

Theorem render_shape :
  (forall s told k c s' t, rc defs s told k c s' t -> shape (RComp c) t /\ tkey t = k) /\
  (forall s told k r s' t, rm defs s told k r s' t -> shape r t /\ tkey t = Some k) /\
  (forall s okids raws s' kids, rk defs s okids raws s' kids -> shapes 0 raws kids) /\
  (forall s okids infos s' kids, rl defs s okids infos s' kids ->
     forall i raws, infos = children_infos i raws -> shapes i raws kids).
Proof.
  apply (render_deriv_ind defs
    (fun s told k c s' t _ => shape (RComp c) t /\ tkey t = k)
    (fun s told k r s' t _ => shape r t /\ tkey t = Some k)
    (fun s okids raws s' kids _ => shapes 0 raws kids)
    (fun s okids infos s' kids _ => forall i raws, infos = children_infos i raws -> shapes i raws kids)).
  - intros. split; auto. constructor; auto.
  - intros. split; auto. constructor; auto.
  - intros. split; auto. constructor; auto. apply inject_ack_shown.
  - intros. split; auto. constructor; auto. apply inject_ack_shown.
  - intros. auto.
  - intros s okids i raws E. apply infos_nil. auto.
  - intros s okids r k rest s1 t s' ts RM [IH1 IH2] RL IHl i raws E. symmetry in E.
    destruct (infos_skip _ _ _ _ _ E) as (j & r' & l' & A & B & <- & D). apply B. apply Shs_cons; auto. congruence.
  - intros s okids c k rest s1 t s' ts RM [IH1 IH2] RL IHl i raws E. symmetry in E.
    destruct (infos_skip _ _ _ _ _ E) as (j & r' & l' & A & B & -> & D). apply B. apply Shs_cons; auto. congruence.
  - intros s okids x k rest s1 s' ts U RL IHl i raws E. symmetry in E.
    destruct (infos_skip _ _ _ _ _ E) as (j & r' & l' & A & B & ->). apply B. apply Shs_text; auto.
Qed.

(** ** Identity *)

Fixpoint inst_of (t : tree) : inst :=
  match t with
  | TText _ => IElem []
  | TElem _ _ _ _ _ _ _ _ _ l =>
      IElem (flat_map (fun t' => match tkey t' with Some k => [(k, inst_of t')] | None => [] end) l)
  | TComp _ _ h c _ l =>
      IComp h (ci_type c) (flat_map (fun t' => match tkey t' with Some k => [(k, inst_of t')] | None => [] end) l)
  end.
Definition insts (l : list tree) : list (key * inst) :=
  flat_map (fun t' => match tkey t' with Some k => [(k, inst_of t')] | None => [] end) l.

Lemma dget_insts k l : dget k (insts l) = option_map inst_of (find_key k l).
Proof.
  induction l as [|t l IH]; simpl; auto. destruct (tkey t) as [k'|]; simpl; auto.
  destruct (eq_dec k k'); auto.
Qed.

Lemma enter_len h c s r s' : enter defs h c s r s' -> length (s_hooks s') = length (s_hooks s).
Proof.
  intros EN. pose proof (enter_facts _ _ _ _ _ _ EN) as F. decompose [and] F; auto.
Qed.
Lemma did_render_len h s s' : did_render h s = (Ok tt, s') -> length (s_hooks s') = length (s_hooks s).
Proof.
  intros EN. pose proof (did_render_facts _ _ _ EN) as F. decompose [and] F; auto.
Qed.
Lemma um_len s ts s' : um s ts s' -> length (s_hooks s) <= length (s_hooks s').
Proof. intros U. apply hstep_um in U. apply U. Qed.

Definition told_inst (told : option tree) : option inst :=
  match told with
  | Some (TText _) | None => None
  | Some t => Some (inst_of t)
  end.

Lemma told_inst_find k okids : dget k (insts (okids_list okids)) = told_inst (opt_find k okids).
Proof.
  destruct okids as [l|]; simpl; auto. rewrite dget_insts. destruct (find_key k l) as [t|] eqn:E; simpl; auto.
  apply find_key_In in E. destruct E as [_ E]. destruct t; simpl in *; auto. discriminate.
Qed.

Theorem render_id :
  (forall s told k c s' t, rc defs s told k c s' t -> length (s_hooks s) <= length (s_hooks s') /\
     forall lo, lo <= length (s_hooks s) -> evolves (fun h => lo <= h) (told_inst told) (inst_of t)) /\
  (forall s told k r s' t, rm defs s told k r s' t -> length (s_hooks s) <= length (s_hooks s') /\
     forall lo, lo <= length (s_hooks s) -> evolves (fun h => lo <= h) (told_inst told) (inst_of t)) /\
  (forall s okids raws s' kids, rk defs s okids raws s' kids -> length (s_hooks s) <= length (s_hooks s') /\
     forall lo, lo <= length (s_hooks s) -> evolves_all (fun h => lo <= h) (insts (okids_list okids)) (insts kids)) /\
  (forall s okids infos s' kids, rl defs s okids infos s' kids -> length (s_hooks s) <= length (s_hooks s') /\
     forall lo, lo <= length (s_hooks s) -> evolves_all (fun h => lo <= h) (insts (okids_list okids)) (insts kids)).
Proof.
  apply (render_deriv_ind defs
    (fun s told k c s' t _ => length (s_hooks s) <= length (s_hooks s') /\
     forall lo, lo <= length (s_hooks s) -> evolves (fun h => lo <= h) (told_inst told) (inst_of t))
    (fun s told k r s' t _ => length (s_hooks s) <= length (s_hooks s') /\
     forall lo, lo <= length (s_hooks s) -> evolves (fun h => lo <= h) (told_inst told) (inst_of t))
    (fun s okids raws s' kids _ => length (s_hooks s) <= length (s_hooks s') /\
     forall lo, lo <= length (s_hooks s) -> evolves_all (fun h => lo <= h) (insts (okids_list okids)) (insts kids))
    (fun s okids infos s' kids _ => length (s_hooks s) <= length (s_hooks s') /\
     forall lo, lo <= length (s_hooks s) -> evolves_all (fun h => lo <= h) (insts (okids_list okids)) (insts kids))).
  - intros s told k c s0 h m s2 r s3 kids s' D Eh EN RK [L IH] DR.
    assert (L0 : length (s_hooks s) <= length (s_hooks s0)).
    { destruct D as [[_ ->]|(t & _ & _ & U)]; auto. eapply um_len; eauto. }
    pose proof (enter_len _ _ _ _ _ EN) as L1. simpl in L1. rewrite app_length in L1. simpl in L1.
    pose proof (did_render_len _ _ _ DR) as L2. split; [lia|]. intros lo LO. simpl. apply Ev_new.
    + intros h0 os. destruct D as [[-> _]|(t & -> & NS & _)]; [discriminate|].
      destruct t as [?|? ? ? ? ? ? ? ? ? ?|? ? ? c0 ? ?]; try discriminate. simpl. intros X. injection X as _ X _. apply NS. exact X.
    + lia.
    + apply (IH lo). lia.
  - intros s m0 k h c0 out0 okids c m s2 r s3 kids s' ET EN FO RK [L IH] DR.
    pose proof (enter_len _ _ _ _ _ EN) as L1. simpl in L1.
    pose proof (did_render_len _ _ _ DR) as L2. split; [lia|]. intros lo LO. simpl. rewrite ET. apply Ev_keep.
    apply (IH lo). lia.
  - intros s told k tag attrs hs js imp ch s0 m kp kids s' D RK [L IH]. simpl in L.
    assert (L0 : length (s_hooks s) <= length (s_hooks s0)).
    { destruct D as [[_ ->]|(t & _ & _ & U)]; auto. eapply um_len; eauto. }
    split; [lia|]. intros lo LO. simpl. apply Ev_elem.
    replace (match told_inst told with Some (IElem os) => os | _ => [] end) with (insts (okids_list None)).
    { apply IH. simpl. lia. }
    destruct D as [[-> _]|(t & -> & NS & _)]; auto. destruct t; simpl in *; auto. tauto.
  - intros s m0 k tag0 imp0 attrs0 js0 kp0 hs0 has0 okids tag attrs hs js imp ch s0 m kp kids s' D RK [L IH]. simpl in L.
    assert (L0 : length (s_hooks s0) = length (s_hooks s)).
    { apply quiet_del_handlers in D. red in D. decompose [and] D; auto. }
    split; [lia|]. intros lo LO. simpl. apply Ev_elem. apply IH. simpl. lia.
  - intros s okids raws s1 s' kids ND U RL [L IH]. apply um_len in U. split; [lia|].
    intros lo LO. apply IH. lia.
  - intros s okids. split; auto. intros. constructor.
  - intros s okids r k rest s1 t s' ts RM [L1 IH1] RL [L2 IH2]. split; [lia|]. intros lo LO.
    assert (TK : tkey t = Some k) by (inversion RM; subst; auto). unfold insts at 2. simpl. rewrite TK. simpl.
    constructor; [|apply IH2; lia]. rewrite told_inst_find. apply IH1. auto.
  - intros s okids c k rest s1 t s' ts RM [L1 IH1] RL [L2 IH2]. split; [lia|]. intros lo LO.
    assert (TK : tkey t = Some k) by (inversion RM; subst; auto). unfold insts at 2. simpl. rewrite TK. simpl.
    constructor; [|apply IH2; lia]. rewrite told_inst_find. apply IH1. auto.
  - intros s okids x k rest s1 s' ts U RL [L2 IH2]. apply um_len in U. split; [lia|]. intros lo LO.
    apply IH2. lia.
Qed.
End Shape.

(** ** Display *)

Lemma ids_kids l : Forall (fun t => wf t -> (exists x, t = TText x) \/ ids (inst_of t) = hids t) l -> kids_ok l -> wfs l ->
  flat_map (fun kn => ids (snd kn)) (insts l) = map fst (flat_map comps l).
Proof.
  induction l as [|t l IH]; simpl; intros F OK W; auto.
  assert (OKl : kids_ok l) by (intros t' I; apply OK; right; auto). destruct W as [W1 W2].
  inversion F as [|? ? F1 F2]; subst. unfold insts. simpl. rewrite flat_map_app, map_app. fold (insts l). rewrite IH; auto. f_equal.
  destruct (OK t (or_introl eq_refl)) as [N|[x ->]]; [|reflexivity].
  destruct (tkey t) eqn:EK; [simpl; rewrite app_nil_r; destruct (F1 W1) as [[x ->]|H1]; [discriminate|exact H1]|].
  destruct t as [?|? ? ? ? ? ? ? ? ? ?|? [?|] ? ? ? ?]; simpl in *; discriminate.
Qed.
Lemma ids_inst t : wf t -> (exists x, t = TText x) \/ ids (inst_of t) = hids t.
Proof.
  induction t using tree_ind'; intros W; [eauto| |]; right; destruct W as (OK & _ & W).
  - simpl. apply (ids_kids kids); auto.
  - simpl. unfold hids. simpl. f_equal. apply (ids_kids kids); auto.
Qed.

Section Disp.
Variable outputs : nat -> cinst -> (nat -> option val) -> fate -> Prop.

(** Every instance's output is right, with the contexts around it. *)
Fixpoint all_out (env : nat -> option val) (t : tree) : Prop :=
  match t with
  | TText _ => True
  | TElem _ _ _ _ _ _ _ _ _ l => fold_right and True (map (all_out env) l)
  | TComp _ _ h c out l => outputs h c env out /\ fold_right and True (map (all_out (visible c env)) l)
  end.
Definition all_outs env l := fold_right and True (map (all_out env) l).

Lemma handlers_shown_tree kp hs :
  handlers_shown hs (match hs with [] => None | _ => Some (hjsons kp hs) end) (elem_tgts kp hs).
Proof.
  split.
  - unfold elem_tgts, dvals. rewrite map_map. reflexivity.
  - assert (E : map (fun x => (fst (fst x), HJson (fst (snd x)) (h_prevent (snd (fst x))) (h_stop (snd (fst x)))
                                                       (h_debounce (snd (fst x))) (h_throttle (snd (fst x)))))
                 (combine hs (elem_tgts kp hs)) = hjsons kp hs).
    { unfold hjsons, elem_tgts. induction hs as [|[e h] l IH]; simpl; auto. f_equal. exact IH. }
    destruct hs; auto. f_equal. symmetry. exact E.
Qed.

Lemma shape_displays :
  (forall r t, shape r t -> forall env, all_out env t -> displays outputs env r (view t) (inst_of t) (tgts t)) /\
  (forall i l ts, shapes i l ts -> forall env, all_outs env ts ->
     displays_all outputs env i l (map view ts) (insts ts) (flat_map tgts ts)).
Proof.
  apply (shape_mind
    (fun r t _ => forall env, all_out env t -> displays outputs env r (view t) (inst_of t) (tgts t))
    (fun i l ts _ => forall env, all_outs env ts -> displays_all outputs env i l (map view ts) (insts ts) (flat_map tgts ts))).
  - intros tag attrs hs js imp ch attrs' m k kp kids AS SH IH env AO. simpl.
    replace (if match ch with Some (_ :: _) => true | _ => false end then Some (map view kids) else None)
      with (match ch with Some (_ :: _) => Some (map view kids) | _ => None end) by (destruct ch as [[|]|]; auto).
    apply D_elem; auto. apply handlers_shown_tree.
  - intros m k h c [out|e text] kids SH IH env [AO1 AO2]; simpl.
    + apply D_comp with (out := out); auto.
    + inversion SH; subst. simpl. apply D_fail with (e := e). exact AO1.
  - intros. constructor.
  - intros. constructor; auto.
  - intros i s l ts SH IH env [_ AO]. apply DA_text. apply IH; auto.
  - intros i r l t ts S1 IH1 EK S2 IH2 env [AO1 AO2]. unfold insts. simpl. rewrite EK. simpl. apply DA_cons; auto.
Qed.
End Disp.
