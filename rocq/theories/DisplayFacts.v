(** * Display determines the model up to event targets and acknowledgements *)
From Coq Require Import String ZArith Bool Arith Lia List.
From Verif Require Import Dict LayoutTypes BodySpec DisplaySpec.
Import ListNotations.
Local Open Scope string_scope.
Local Open Scope list_scope.

(** The model without the server's bookkeeping: event targets and acknowledged sequence numbers. *)
Definition strip_hjson (j : hjson) : hjson :=
  HJson "" (hj_prevent j) (hj_stop j) (hj_debounce j) (hj_throttle j).
Definition strip_attrs (d : dict string val) : dict string val :=
  filter (fun kv => negb (String.eqb (fst kv) "_reactpy_ack_seq")) d.
Fixpoint strip (m : model) : model :=
  match m with
  | MText s => MText s
  | MNode tag imp attrs js eh ch err =>
      MNode tag imp (option_map strip_attrs attrs) js
        (option_map (map (fun kv => (fst kv, strip_hjson (snd kv)))) eh)
        (option_map (map strip) ch) err
  end.

Lemma strip_shown tag given shown : attrs_shown tag given shown -> option_map strip_attrs shown = option_map strip_attrs given.
Proof.
  intros [->|(_ & d & a & -> & _ & ->)]; auto. simpl. f_equal. unfold strip_attrs. rewrite filter_app. simpl. apply app_nil_r.
Qed.

Lemma strip_handlers hs eh1 own1 eh2 own2 : handlers_shown hs eh1 own1 -> handlers_shown hs eh2 own2 ->
  option_map (map (fun kv => (fst kv, strip_hjson (snd kv)))) eh1 = option_map (map (fun kv => (fst kv, strip_hjson (snd kv)))) eh2 /\
  map snd own1 = map snd own2.
Proof.
  intros [A1 A2] [B1 B2]. split; [|congruence]. subst eh1 eh2. destruct hs as [|x hs']; auto.
  generalize dependent (x :: hs'). clear x hs'. intros hs A1 B1. cbn [option_map]. f_equal. rewrite !map_map.
  revert own1 own2 A1 B1. induction hs as [|[ev h] hs IH]; intros own1 own2 A1 B1; auto.
  destruct own1 as [|[t1 g1] o1]; [discriminate|]. destruct own2 as [|[t2 g2] o2]; [discriminate|]. simpl in *.
  injection A1 as -> A1. injection B1 as -> B1. f_equal. apply IH; auto.
Qed.

Section Unique.
Variable outputs : nat -> cinst -> (nat -> option val) -> fate -> Prop.
Hypothesis out_fun : forall h c env o1 o2, outputs h c env o1 -> outputs h c env o2 -> o1 = o2.

Lemma displays_unique env r m1 n b1 : displays outputs env r m1 n b1 ->
  forall m2 b2, displays outputs env r m2 n b2 -> strip m1 = strip m2 /\ map snd b1 = map snd b2.
Proof.
  revert env r m1 n b1. fix IH 6. intros env r m1 n b1 D1.
  assert (KL : forall env i l ms1 ns b1, displays_all outputs env i l ms1 ns b1 ->
     forall ms2 b2, displays_all outputs env i l ms2 ns b2 -> map strip ms1 = map strip ms2 /\ map snd b1 = map snd b2).
  { fix IHl 7. intros env0 i l ms1 ns b0 DA. destruct DA as [|? ? ? ? ? ? DA'|? ? ? ? ? ? ? DA'|? ? ? ? ? ? ? ? ? ? DD DA']; intros ms2 b2 DA2.
    - inversion DA2; subst. auto.
    - inversion DA2 as [|? ? ? ? ? ? X|? ? ? ? ? ? ? X|? ? ? ? ? ? ? ? ? ? Y X]; subst; [eapply IHl; eauto|inversion Y].
    - inversion DA2 as [|? ? ? ? ? ? X|? ? ? ? ? ? ? X|? ? ? ? ? ? ? ? ? ? Y X]; subst; [|inversion Y].
      destruct (IHl _ _ _ _ _ _ DA' _ _ X) as [E1 E2]. simpl. split; congruence.
    - inversion DA2 as [|? ? ? ? ? ? X|? ? ? ? ? ? ? X|? ? ? ? ? ? ? ? ? ? Y X]; subst; try (inversion DD; fail).
      destruct (IHl _ _ _ _ _ _ DA' _ _ X) as [E1 E2]. destruct (IH _ _ _ _ _ DD _ _ Y) as [E3 E4].
      simpl. rewrite !map_app. split; congruence. }
  destruct D1 as [env tag attrs hs js imp ch attrs' eh own ms ns bs SA SH DA|env c h out ms ns bs OUT DA|env c h e text OUT]; intros m2 b2 D2.
  - inversion D2 as [? ? ? ? ? ? ? attrs2 eh2 own2 ms2 ? bs2 SA2 SH2 DA2| |]; subst. simpl.
    destruct (KL _ _ _ _ _ _ DA _ _ DA2) as [E1 E2]. destruct (strip_handlers _ _ _ _ _ SH SH2) as [E3 E4].
    rewrite (strip_shown _ _ _ SA), (strip_shown _ _ _ SA2), E3, !map_app. split; [|congruence].
    f_equal. destruct ch as [[|? ?]|]; simpl; auto. f_equal. exact E1.
  - inversion D2 as [|? ? ? out2 ms2 ? bs2 OUT2 DA2|? ? ? e2 text2 OUT2]; subst.
    + pose proof (out_fun _ _ _ _ _ OUT OUT2) as X. injection X as <-.
      destruct (KL _ _ _ _ _ _ DA _ _ DA2) as [E1 E2]. simpl. split; congruence.
    + pose proof (out_fun _ _ _ _ _ OUT OUT2). discriminate.
  - inversion D2 as [|? ? ? out2 ms2 ? bs2 OUT2 DA2|? ? ? e2 text2 OUT2]; subst.
    + pose proof (out_fun _ _ _ _ _ OUT OUT2). discriminate.
    + pose proof (out_fun _ _ _ _ _ OUT OUT2) as X. injection X as <- <-. auto.
Qed.
End Unique.

Lemma returns_fun h cells ctx b o1 o2 : returns h cells ctx b o1 -> returns h cells ctx b o2 -> o1 = o2.
Proof. intros (a & b1 & c & E1) (d & e & f & E2). congruence. Qed.
