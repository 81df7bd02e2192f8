(** * Components are settled or queued; proof-side only *)
From Coq Require Import String ZArith Bool Arith Lia List Permutation.
From Verif Require Import Dict LayoutTypes LayoutModel BodySpec DisplaySpec LayoutObs LayoutTree LayoutDeriv LayoutFacts.
Import ListNotations.
Local Open Scope string_scope.
Local Open Scope list_scope.

Definition ctx_of (hk : hook) : nat -> option val := fun y => dget y (hk_ctx hk).

Lemma prun_ext h b : forall first cells ctx ctx' idx, (forall y, ctx y = ctx' y) ->
  match prun h first cells ctx idx b, prun h first cells ctx' idx b with
  | Some (r, cs, cx, ch), Some (r', cs', cx', ch') => r = r' /\ cs = cs' /\ (forall y, cx y = cx' y) /\ ch = ch'
  | None, None => True
  | _, _ => False
  end.
Proof.
  induction b; simpl; intros first cells ctx ctx' idx HC; auto.
  - destruct first; [apply H; auto|]. destruct (nth_error cells idx); auto. apply H; auto.
  - apply IHb; auto.
  - apply IHb; auto.
  - rewrite <- HC. apply H; auto.
  - apply IHb. intros y. unfold ctx_set. destruct (Nat.eq_dec y c); auto.
  - destruct (Nat.eq_dec h0 h); [|apply IHb; auto].
    destruct (nth_error cells i) as [[]|]; try (apply IHb; auto).
    destruct (veq _ _); [apply IHb; auto|].
    specialize (IHb first (upd cells i (CState match u with UVal x => x | UFun f => f v end)) ctx ctx' idx HC).
    destruct (prun h first _ ctx idx b) as [[[[? ?] ?] ?]|], (prun h first _ ctx' idx b) as [[[[? ?] ?] ?]|]; auto.
    intuition.
Qed.

Lemma returns_ext h cells ctx ctx' b r : (forall y, ctx y = ctx' y) -> returns h cells ctx b r -> returns h cells ctx' b r.
Proof.
  intros HC (cs & cx & ch & E). pose proof (prun_ext h b false cells ctx ctx' 0 HC) as P. rewrite E in P.
  destruct (prun h false cells ctx' 0 b) as [[[[? ?] ?] ?]|] eqn:E2; [|contradiction].
  destruct P as (<- & <- & _ & <-). red. eauto.
Qed.

(** ** Which changes of other hooks' state are possible *)

Record hstep (P : nat -> Prop) (s s' : st) : Prop := {
  hs_queue : forall x, In x (s_queue s) -> In x (s_queue s');
  hs_len : length (s_hooks s) <= length (s_hooks s');
  hs_hook : forall x, P x -> x < length (s_hooks s) ->
    let k := get_hook x s in let k' := get_hook x s' in
    hk_idx k' = hk_idx k /\ hk_once k' = hk_once k /\ hk_ctx k' = hk_ctx k /\ hk_effects k' = hk_effects k /\
    length (hk_cells k') = length (hk_cells k) /\
    ((hk_cells k' = hk_cells k /\ hk_sched k' = hk_sched k) \/ In x (s_queue s') \/
     (hk_sched k = true /\ hk_sched k' = true))
}.

Lemma hstep_refl P s : hstep P s s.
Proof. constructor; auto. intros; simpl. repeat split; auto. Qed.

Lemma hstep_trans P a b c : hstep P a b -> hstep P b c -> hstep P a c.
Proof.
  intros [A1 A2 A3] [B1 B2 B3]. constructor; [auto|lia|].
  intros x Px L. destruct (A3 x Px L) as (C1 & C2 & C3 & C4 & C5 & C6).
  destruct (B3 x Px) as (D1 & D2 & D3 & D4 & D5 & D6); [lia|]. simpl in *.
  repeat split; try congruence.
  destruct D6 as [[D6 D7]|[D6|[D6 D7]]]; auto.
  - destruct C6 as [[C6 C7]|[C6|[C6 C7]]]; auto.
    + left. split; congruence.
    + right; right. split; congruence.
  - destruct C6 as [[C6 C7]|[C6|[C6 C7]]]; auto. right; right. split; congruence.
Qed.

Lemma hstep_weaken (P Q : nat -> Prop) s s' : (forall x, Q x -> P x) -> hstep P s s' -> hstep Q s s'.
Proof. intros W [A1 A2 A3]. constructor; auto. intros x Qx L. apply A3; auto. Qed.

Definition anyh (x : nat) : Prop := True.

Lemma get_put_same h x s : h < length (s_hooks s) -> get_hook h (put_hook h x s) = x.
Proof. intros L. unfold get_hook, put_hook. simpl. apply nth_error_nth. apply nth_upd_same; auto. Qed.
Lemma get_put_other h h' x s : h <> h' -> get_hook h' (put_hook h x s) = get_hook h' s.
Proof.
  intros NE. unfold get_hook, put_hook. simpl. 
  assert (E : nth_error (upd (s_hooks s) h x) h' = nth_error (s_hooks s) h') by (apply nth_upd_other; auto).
  destruct (nth_error (s_hooks s) h') eqn:E2.
  - rewrite (nth_error_nth _ _ _ E), (nth_error_nth _ _ _ E2). auto.
  - rewrite !nth_overflow; auto; apply nth_error_None; auto. 
Qed.
Lemma get_beyond h s : length (s_hooks s) <= h -> get_hook h s = no_hook.
Proof. intros. unfold get_hook. apply nth_overflow; auto. Qed.

Lemma queue_put_In h q x : In x (queue_put h q) <-> x = h \/ In x q.
Proof.
  unfold queue_put. destruct (mem h q) eqn:EM.
  - apply mem_In in EM. split; auto. intros [->|]; auto.
  - rewrite in_app_iff. simpl. intuition.
Qed.

Lemma get_schedule_other h h' s : h' <> h -> get_hook h (schedule_render h' s) = get_hook h s.
Proof.
  intros NE. unfold schedule_render. destruct (hk_sched (get_hook h' s)); auto.
  rewrite get_put_other by auto. reflexivity.
Qed.
Lemma get_dispatch_other h h' i u s : h' <> h -> get_hook h (dispatch h' i u s) = get_hook h s.
Proof.
  intros NE. unfold dispatch. destruct (nth_error (hk_cells (get_hook h' s)) i) as [[]|]; auto. destruct (veq _ _); auto.
  rewrite get_schedule_other by auto. apply get_put_other; auto.
Qed.

Lemma hstep_dispatch h i u s : hstep anyh s (dispatch h i u s).
Proof.
  unfold dispatch. destruct (nth_error (hk_cells (get_hook h s)) i) as [[v| | |]|] eqn:EC; try apply hstep_refl.
  destruct (veq _ _); [apply hstep_refl|].
  set (v' := match u with UVal x => x | UFun f => f v end).
  assert (L : h < length (s_hooks s)).
  { destruct (Nat.lt_ge_cases h (length (s_hooks s))) as [|G]; auto.
    rewrite get_beyond in EC; auto. destruct i; discriminate. }
  unfold schedule_render. rewrite get_put_same by auto. simpl.
  destruct (hk_sched (get_hook h s)) eqn:ES.
  - constructor.
    + auto.
    + simpl. rewrite upd_length; lia.
    + intros x _ Lx. destruct (Nat.eq_dec x h) as [->|NE].
      * simpl. rewrite get_put_same by auto. simpl. rewrite upd_length. repeat split; auto.
      * simpl. rewrite get_put_other by auto. repeat split; auto.
  - constructor.
    + simpl. intros x I. apply queue_put_In. auto.
    + simpl. rewrite !upd_length; lia.
    + intros x _ Lx. destruct (Nat.eq_dec x h) as [->|NE].
      * simpl. rewrite get_put_same by (simpl; rewrite upd_length; auto). simpl. rewrite upd_length.
        repeat split; auto. right; left. apply queue_put_In; auto.
      * simpl. rewrite get_put_other by auto. change (get_hook x (set_queue ?q ?t)) with (get_hook x t).
        rewrite get_put_other by auto. repeat split; auto.
Qed.

Lemma hstep_same_hooks P s s' : s_hooks s' = s_hooks s -> (forall x, In x (s_queue s) -> In x (s_queue s')) -> hstep P s s'.
Proof.
  intros E Q. constructor; auto; [rewrite E; auto|].
  intros x _ _. unfold get_hook. rewrite E. simpl. repeat split; auto.
Qed.

Lemma hstep_env_step s o : hstep anyh s (env_step s o).
Proof.
  destruct o; simpl; [apply hstep_dispatch|]. unfold record_seq.
  destruct (0 <=? seq)%Z; [|apply hstep_refl]. destruct (_ <? _)%Z; [apply hstep_same_hooks; auto|apply hstep_refl].
Qed.
Lemma hstep_env_steps b s : hstep anyh s (fold_left env_step b s).
Proof.
  revert s; induction b; simpl; intros; [apply hstep_refl|].
  eapply hstep_trans; [apply hstep_env_step|apply IHb].
Qed.
Lemma hstep_pause s u s' : pause s = (u, s') -> hstep anyh s s'.
Proof.
  intros H; inversion H; subst. destruct (s_env s); [apply hstep_refl|].
  eapply hstep_trans; [|apply hstep_env_steps]. apply hstep_same_hooks; auto.
Qed.

Lemma hstep_put_hook h x s : hstep (fun y => y <> h) s (put_hook h x s).
Proof.
  constructor; auto; [simpl; rewrite upd_length; auto|].
  intros y NE L. simpl. rewrite get_put_other by auto. repeat split; auto.
Qed.

Lemma hstep_run_body h b : pres (hstep (fun y => y <> h)) (run_body h b).
Proof.
  assert (Hr : forall s, hstep (fun y => y <> h) s s) by (intros; apply hstep_refl).
  assert (Ht : forall a b c, hstep (fun y => y <> h) a b -> hstep (fun y => y <> h) b c -> hstep (fun y => y <> h) a c)
    by (intros; eapply hstep_trans; eauto).
  induction b; simpl; pres_tac (hstep (fun y => y <> h)) Hr Ht; try apply H; auto.
  - intros s r s'. unfold use_cell. destruct (hk_once _).
    + destruct (nth_error _ _); intros X; inversion X; subst; auto using hstep_put_hook.
    + intros X; inversion X; subst; apply hstep_put_hook.
  - apply pres_modify. intros; apply hstep_put_hook.
  - apply pres_modify. intros; apply hstep_put_hook.
  - apply pres_modify. intros; apply hstep_put_hook.
  - apply pres_modify. intros. eapply hstep_weaken; [|apply hstep_dispatch]. intros; exact I.
Qed.

Lemma hstep_del_handlers ts : pres (hstep anyh) (del_handlers ts).
Proof.
  induction ts as [|t ts IH]; simpl; intros s r s' H.
  - inversion H; apply hstep_refl.
  - destruct (dmem t (s_eh s)); [|inversion H; apply hstep_refl]. apply IH in H.
    eapply hstep_trans; [|exact H]. apply hstep_same_hooks; auto.
Qed.

Lemma hstep_um s ts s' : um s ts s' -> hstep anyh s s'.
Proof.
  induction 1 as [s|s m k tag imp attrs js kp hs has kids ts s1 s' Hd Hu IH|s m k h c out kids ts s1 s2 s' Hr Hw Hu IH].
  - apply hstep_refl.
  - eapply hstep_trans; [eapply hstep_del_handlers; exact Hd|exact IH].
  - unfold del_reg in Hr. destruct (dmem h (s_reg s)); [|discriminate]. injection Hr as <-.
    unfold will_unmount, bind, log, modify in Hw.
    eapply hstep_trans; [|exact IH].
    eapply hstep_trans; [|eapply hstep_pause; exact Hw]. apply hstep_same_hooks; auto.
Qed.

(** ** One run of a render function *)

Lemma run_body_prun h b : forall s r s', run_body h b s = (Ok r, s') -> h < length (s_hooks s) ->
  let k := get_hook h s in let k' := get_hook h s' in
  exists ch cx,
    prun h (negb (hk_once k)) (hk_cells k) (ctx_of k) (hk_idx k) b = Some (r, hk_cells k', cx, ch) /\
    (forall y, ctx_of k' y = cx y) /\ hk_once k' = hk_once k /\
    (ch = false -> hk_sched k' = hk_sched k) /\ (ch = true -> hk_sched k' = true) /\
    ((hk_sched k = true -> In h (s_queue s)) -> (hk_sched k' = true -> In h (s_queue s'))).
Proof.
  induction b as [r0|msg|init k IH|i c b IH|e b IH|c k IH|c v b IH|h' i u b IH]; intros s r s' H L; cbn zeta.
  - inversion H; subst. exists false, (ctx_of (get_hook h s')). simpl. repeat split; auto; discriminate.
  - discriminate.
  - simpl in H. unfold bind, use_cell in H. destruct (hk_once (get_hook h s)) eqn:EO.
    + destruct (nth_error (hk_cells (get_hook h s)) (hk_idx (get_hook h s))) as [c|] eqn:EN; [|discriminate].
      simpl in H. apply IH in H; [|simpl; rewrite upd_length; auto]. cbn zeta in H.
      rewrite get_put_same in H by auto. simpl in H.
      destruct H as (ch & cx & H1 & H2 & H3 & H4 & H5 & H6). exists ch, cx. simpl in *. rewrite EN. auto 10.
    + simpl in H. apply IH in H; [|simpl; rewrite upd_length; auto]. cbn zeta in H.
      rewrite get_put_same in H by auto. simpl in H.
      destruct H as (ch & cx & H1 & H2 & H3 & H4 & H5 & H6). exists ch, cx. simpl in *. auto 10.
  - simpl in H. unfold bind, modify in H. apply IH in H; [|simpl; rewrite upd_length; auto]. cbn zeta in H.
    destruct H as (ch & cx & H1 & H2 & H3 & H4 & H5 & H6). exists ch, cx.
    unfold set_cell in *. rewrite get_put_same in * by auto. simpl in *. auto 10.
  - simpl in H. unfold bind, modify in H. apply IH in H; [|simpl; rewrite upd_length; auto]. cbn zeta in H.
    destruct H as (ch & cx & H1 & H2 & H3 & H4 & H5 & H6). exists ch, cx.
    unfold add_effect in *. rewrite get_put_same in * by auto. simpl in *. auto 10.
  - simpl in H. unfold bind, gets in H. apply IH in H; auto.
  - simpl in H. unfold bind, modify in H. apply IH in H; [|simpl; rewrite upd_length; auto]. cbn zeta in H.
    destruct H as (ch & cx & H1 & H2 & H3 & H4 & H5 & H6).
    unfold set_provider in *. rewrite get_put_same in * by auto. simpl in *.
    pose proof (prun_ext h b (negb (hk_once (get_hook h s))) (hk_cells (get_hook h s))
                  (fun y => dget y (dset c v (hk_ctx (get_hook h s)))) (ctx_set c v (ctx_of (get_hook h s)))
                  (hk_idx (get_hook h s))) as P.
    unfold ctx_of in H1 at 1. simpl in H1. rewrite H1 in P.
    destruct (prun h _ _ (ctx_set c v (ctx_of (get_hook h s))) _ b) as [[[[r1 cs1] cx1] ch1]|].
    + destruct P as (<- & <- & P3 & <-).
      { intros y. unfold ctx_set, ctx_of. rewrite dget_dset. destruct (eq_dec y c), (Nat.eq_dec y c); congruence. }
      exists ch, cx1. repeat split; auto. intros y. rewrite H2. auto.
    + destruct P. intros y. unfold ctx_set, ctx_of. rewrite dget_dset. destruct (eq_dec y c), (Nat.eq_dec y c); congruence.
  - simpl in H. unfold bind, modify in H.
    assert (L2 : h < length (s_hooks (dispatch h' i u s))).
    { destruct (hstep_dispatch h' i u s) as [_ B _]. lia. }
    apply IH in H; auto. cbn zeta in H. clear IH.
    destruct H as (ch & cx & H1 & H2 & H3 & H4 & H5 & H6).
    simpl. destruct (Nat.eq_dec h' h) as [->|NE].
    + unfold dispatch in *. destruct (nth_error (hk_cells (get_hook h s)) i) as [[v| | |]|] eqn:EC; eauto 10.
      destruct (veq _ _) eqn:EV; eauto 10.
      set (v' := match u with UVal x => x | UFun f => f v end) in *.
      set (s1 := put_hook h (Hook (upd (hk_cells (get_hook h s)) i (CState v')) (hk_idx (get_hook h s)) (hk_once (get_hook h s)) (hk_sched (get_hook h s))
                               (hk_effects (get_hook h s)) (hk_ctx (get_hook h s))) s) in *.
      assert (G1 : get_hook h s1 = Hook (upd (hk_cells (get_hook h s)) i (CState v')) (hk_idx (get_hook h s)) (hk_once (get_hook h s)) (hk_sched (get_hook h s))
                               (hk_effects (get_hook h s)) (hk_ctx (get_hook h s))).
      { unfold s1. apply get_put_same; auto. }
      assert (G2 : get_hook h (schedule_render h s1) = Hook (upd (hk_cells (get_hook h s)) i (CState v')) (hk_idx (get_hook h s)) (hk_once (get_hook h s)) true
                               (hk_effects (get_hook h s)) (hk_ctx (get_hook h s))).
      { unfold schedule_render. rewrite G1. simpl. destruct (hk_sched (get_hook h s)) eqn:ES.
        - rewrite G1. auto.
        - apply get_put_same. simpl. rewrite upd_length. auto. }
      rewrite G2 in *. simpl in *. unfold ctx_of in H1 at 1. simpl in H1.
      fold (ctx_of (get_hook h s)) in H1. rewrite H1.
      exists true, cx. repeat split; auto.
      * discriminate.
      * intros _. destruct ch; auto.
      * intros Q Q2. apply H6; auto. intros _. unfold schedule_render. rewrite G1. simpl.
        destruct (hk_sched (get_hook h s)) eqn:ES; simpl; auto. apply queue_put_In; auto.
    + assert (G : get_hook h (dispatch h' i u s) = get_hook h s).
      { apply get_dispatch_other; auto. }
      rewrite G in *. exists ch, cx. repeat split; auto. intros Q. apply H6. intros Q2.
      destruct (hstep_dispatch h' i u s) as [B _ _]. auto.
Qed.

(** However the render function ends, it leaves its component unscheduled or queued. *)
Definition keeps_sched (h : nat) (s s' : st) : Prop :=
  hk_once (get_hook h s') = hk_once (get_hook h s) /\
  ((hk_sched (get_hook h s) = true -> In h (s_queue s)) -> (hk_sched (get_hook h s') = true -> In h (s_queue s'))).
Lemma keeps_sched_put h x s : hk_once x = hk_once (get_hook h s) -> hk_sched x = hk_sched (get_hook h s) ->
  keeps_sched h s (put_hook h x s).
Proof.
  intros A B. destruct (Nat.lt_ge_cases h (length (s_hooks s))) as [L|L].
  - red. rewrite get_put_same by auto. rewrite A, B. auto.
  - red. rewrite (get_beyond h s) by auto. rewrite get_beyond by (simpl; rewrite upd_length; auto). auto.
Qed.
Lemma keeps_sched_dispatch h h' i u s : keeps_sched h s (dispatch h' i u s).
Proof.
  destruct (Nat.eq_dec h' h) as [->|NE].
  - unfold dispatch. destruct (nth_error (hk_cells (get_hook h s)) i) as [[v| | |]|] eqn:EC; try (split; auto; fail).
    destruct (veq _ _); [split; auto|].
    set (s1 := put_hook h _ s).
    assert (K : keeps_sched h s s1) by (apply keeps_sched_put; auto).
    unfold schedule_render. destruct (hk_sched (get_hook h s1)) eqn:ES; [exact K|].
    destruct K as [K1 K2]. split.
    + destruct (Nat.lt_ge_cases h (length (s_hooks s1))) as [L|L].
      * rewrite get_put_same by auto. exact K1.
      * rewrite get_beyond by (simpl; rewrite upd_length; auto). rewrite get_beyond in K1 by auto. exact K1.
    + intros _ _. simpl. apply queue_put_In; auto.
  - red. rewrite get_dispatch_other by auto. split; auto. intros Q Q2.
    destruct (hstep_dispatch h' i u s) as [B _ _]. auto.
Qed.
Lemma run_body_sched h b : pres (keeps_sched h) (run_body h b).
Proof.
  assert (Hr : forall s, keeps_sched h s s) by (split; auto).
  assert (Ht : forall a b c, keeps_sched h a b -> keeps_sched h b c -> keeps_sched h a c).
  { intros x y z [A1 A2] [B1 B2]. split; [congruence|auto]. }
  induction b; simpl; pres_tac (keeps_sched h) Hr Ht; try apply H; auto.
  - intros s r s'. unfold use_cell. destruct (hk_once _) eqn:EO.
    + destruct (nth_error _ _); intros X; inversion X; subst; auto. apply keeps_sched_put; auto.
    + intros X; inversion X; subst. apply keeps_sched_put; auto.
  - apply pres_modify. intros; apply keeps_sched_put; auto.
  - apply pres_modify. intros; apply keeps_sched_put; auto.
  - apply pres_modify. intros; apply keeps_sched_put; auto.
  - apply pres_modify. intros. apply keeps_sched_dispatch.
Qed.

(** ** Settled components *)

Section Settled.
Variable defs : nat -> val -> list raw -> body.
Hypothesis defs_steady : forall n p kids, steady (defs n p kids).

Definition good (s : st) (i : cinfo) : Prop :=
  let h := fst i in let c := snd (fst (snd i)) in let out := snd (snd i) in
  In h (s_queue s) \/
  (hk_sched (get_hook h s) = false /\
   match out with
   | Returned r => returns h (hk_cells (get_hook h s)) (ctx_of (get_hook h s)) (render_fn defs c) r
   | Failed _ _ => True
   end).

Definition rested (hk : hook) : Prop := hk_idx hk = 0 /\ hk_once hk = true.
(** Between renders: the slot counter is reset, and slots exist only after a render. *)
Definition ready (hk : hook) : Prop := hk_idx hk = 0 /\ (hk_once hk = false -> hk_cells hk = []).
Lemma rested_ready hk : rested hk -> ready hk.
Proof. intros [A B]. split; auto. congruence. Qed.

Lemma good_hstep P s s' i : hstep P s s' -> P (fst i) -> fst i < length (s_hooks s) -> good s i -> good s' i.
Proof.
  intros [A B C] Pi L [G|[G1 G2]]; [left; auto|].
  destruct (C (fst i) Pi L) as (D1 & D2 & D3 & D4 & D5 & [[D6 D7]|[D6|[D6 D7]]]).
  - right. split; [congruence|]. destruct (snd (snd i)); auto. rewrite D6. unfold ctx_of. rewrite D3. exact G2.
  - left; auto.
  - congruence.
Qed.
Lemma rested_hstep (P : nat -> Prop) s s' x : hstep P s s' -> P x -> x < length (s_hooks s) ->
  rested (get_hook x s) -> rested (get_hook x s').
Proof. intros [A B C] Px L [R1 R2]. destruct (C x Px L) as (D1 & D2 & _). split; congruence. Qed.
Lemma ready_hstep (P : nat -> Prop) s s' x : hstep P s s' -> P x -> x < length (s_hooks s) ->
  ready (get_hook x s) -> ready (get_hook x s').
Proof.
  intros [A B C] Px L [R1 R2]. destruct (C x Px L) as (D1 & D2 & _ & _ & D5 & _). split; [congruence|].
  intros F. rewrite D2 in F. rewrite (R2 F) in D5. destruct (hk_cells (get_hook x s')); auto; discriminate.
Qed.

Definition out_of (B : list cinfo) (x : nat) : Prop := ~ In x (keys B).

Record G (s : st) (B : list cinfo) (s' : st) : Prop := {
  g_step : hstep (out_of B) s s';
  g_good : forall i, In i B -> good s' i /\ rested (get_hook (fst i) s')
}.

Lemma In_keys i B : In i B -> In (fst i) (keys B).
Proof. apply in_map. Qed.

Lemma G_seq s B1 s1 B2 s2 : G s B1 s1 -> G s1 B2 s2 -> NoDup (keys (B1 ++ B2)) ->
  (forall x, In x (keys B1) -> x < length (s_hooks s1)) -> G s (B1 ++ B2) s2.
Proof.
  intros [A1 A2] [C1 C2] ND LT. constructor.
  - eapply hstep_trans; (eapply hstep_weaken; [|eassumption]); intros x NI J; apply NI; rewrite keys_app;
      apply in_or_app; auto.
  - intros i I. apply in_app_iff in I. destruct I as [I|I]; auto.
    assert (NI : out_of B2 (fst i)).
    { intros J. rewrite keys_app in ND. apply In_keys in I. clear - ND I J.
      induction (keys B1); simpl in *; [contradiction|]. inversion ND; subst.
      destruct I as [->|I]; auto. apply H1. apply in_or_app; auto. }
    destruct (A2 i I) as [G1 G2]. split.
    + eapply good_hstep; eauto. apply LT, In_keys; auto.
    + eapply rested_hstep; eauto. apply LT, In_keys; auto.
Qed.

Lemma G_nil s s' : hstep anyh s s' -> G s [] s'.
Proof. intros H. constructor; [|intros ? []]. eapply hstep_weaken; [|exact H]. intros; exact I. Qed.

(** Hypothesis about the consumed instances. *)
Definition pre2 (s : st) (A : list cinfo) : Prop := forall x, In x (keys A) -> ready (get_hook x s).

Lemma pre2_sub s A A' : (forall x, In x (keys A') -> In x (keys A)) -> pre2 s A -> pre2 s A'.
Proof. intros S P x I. apply P; auto. Qed.
Lemma pre2_l s A B : pre2 s (A ++ B) -> pre2 s A.
Proof. apply pre2_sub. intros x I. rewrite keys_app. apply in_or_app; auto. Qed.
Lemma pre2_r s A B : pre2 s (A ++ B) -> pre2 s B.
Proof. apply pre2_sub. intros x I. rewrite keys_app. apply in_or_app; auto. Qed.

(** After a first part, the instances to be consumed later are still as before. *)
Lemma pre2_after s A1 B1 s1 A2 : E s A1 B1 s1 -> G s B1 s1 -> pre s (A1 ++ A2) -> pre2 s A2 -> pre2 s1 A2.
Proof.
  intros [H1 H2 H3 H4 H5 H6 H7] [A C] [ND LT] P x I.
  assert (L : x < length (s_hooks s)) by (apply LT; rewrite keys_app; apply in_or_app; auto).
  eapply ready_hstep; eauto. intros J. destruct (H2 x J) as [K|K]; [|lia].
  rewrite keys_app in ND. clear - ND I K. induction (keys A1); simpl in *; [contradiction|].
  inversion ND; subst. destruct K as [->|K]; auto. apply H1. apply in_or_app; auto.
Qed.

Lemma G_seq' s A1 B1 s1 A2 B2 s2 :
  E s A1 B1 s1 -> G s B1 s1 -> (pre s1 A2 -> E s1 A2 B2 s2) -> (pre s1 A2 -> pre2 s1 A2 -> G s1 B2 s2) ->
  pre s (A1 ++ A2) -> pre2 s (A1 ++ A2) -> G s (B1 ++ B2) s2.
Proof.
  intros E1 G1 E2 G2 P P2.
  assert (PA : pre s1 A2) by (eapply pre_le; [apply (e_hooks _ _ _ _ E1)|]; eapply pre_r; eauto).
  eapply G_seq; eauto.
  - apply G2; auto. eapply pre2_after; eauto. eapply pre2_r; eauto.
  - apply (e_nodup _ _ _ _ (E_seq' _ _ _ _ _ _ _ E1 E2 P)).
  - intros x I. destruct (e_fresh _ _ _ _ E1 x I) as [J|J]; [|lia].
    eapply Nat.lt_le_trans; [|apply (e_hooks _ _ _ _ E1)]. apply (proj2 P). rewrite keys_app. apply in_or_app; auto.
Qed.

Lemma render_fn_steady c : steady (render_fn defs c).
Proof.
  destruct c as [[n|x] k p kids]; simpl; [apply defs_steady|].
  intros h first cells ctx r cells' ctx' F H. simpl in H. inversion H; subst.
  red. simpl. eauto.
Qed.

Lemma upd_upd {A} (l : list A) i x y : upd (upd l i x) i y = upd l i y.
Proof. revert i; induction l; destruct i; simpl; auto. f_equal; auto. Qed.
Lemma put_put h x y s : put_hook h y (put_hook h x s) = put_hook h y s.
Proof. unfold put_hook. simpl. rewrite upd_upd. auto. Qed.

Lemma will_render_inv h s u s' : will_render h s = (u, s') -> h < length (s_hooks s) ->
  exists s1, pause s = (Ok tt, s1) /\
    let k := get_hook h s1 in
    s' = set_stack (h :: s_stack s1)
           (put_hook h (Hook (hk_cells k) (hk_idx k) (hk_once k) false (hk_effects k)
                             (match s_stack s1 with [] => hk_ctx k | p :: _ => dupdate (hk_ctx k) (hk_ctx (get_hook p s1)) end)) s1).
Proof.
  unfold will_render, bind. destruct (pause s) as [[[]|e|] s1] eqn:Hp; try discriminate; [|unfold pause, modify in Hp; discriminate..].
  intros H L. exists s1. split; auto. cbn zeta.
  assert (L1 : h < length (s_hooks s1)) by (destruct (quiet_pause _ _ _ Hp) as (_ & Q & _); lia).
  unfold set_current, modify in H. cbn -[get_hook put_hook] in H. inversion H; subst; clear H.
  destruct (s_stack s1) as [|p l] eqn:ES.
  - simpl. rewrite ES. auto.
  - rewrite get_put_same by auto. cbn -[get_hook put_hook]. rewrite put_put.
    assert (EP : hk_ctx (get_hook p (put_hook h (Hook (hk_cells (get_hook h s1)) (hk_idx (get_hook h s1)) (hk_once (get_hook h s1)) false (hk_effects (get_hook h s1)) (hk_ctx (get_hook h s1))) s1)) = hk_ctx (get_hook p s1)).
    { destruct (Nat.eq_dec p h) as [->|NE]; [rewrite get_put_same; auto|rewrite get_put_other; auto]. }
    rewrite EP. simpl. rewrite ES. auto.
Qed.

Lemma hstep_will_render h s u s' : will_render h s = (u, s') -> h < length (s_hooks s) -> hstep (fun y => y <> h) s s'.
Proof.
  intros H L. destruct (will_render_inv _ _ _ _ H L) as (s1 & Hp & ->). apply hstep_pause in Hp.
  eapply hstep_trans; [eapply hstep_weaken; [|exact Hp]; intros; exact I|].
  match goal with |- hstep _ _ (set_stack _ ?t) => apply (hstep_trans _ _ t) end;
    [apply hstep_put_hook|apply hstep_same_hooks; auto].
Qed.

Lemma will_render_hook h s u s' : will_render h s = (u, s') -> h < length (s_hooks s) -> ready (get_hook h s) ->
  hk_sched (get_hook h s') = false /\ ready (get_hook h s').
Proof.
  intros H L R. destruct (will_render_inv _ _ _ _ H L) as (s1 & Hp & ->).
  assert (L1 : h < length (s_hooks s1)) by (destruct (quiet_pause _ _ _ Hp) as (_ & Q & _); lia).
  apply hstep_pause in Hp. eapply ready_hstep in R; [|exact Hp|exact I|auto].
  change (get_hook h (set_stack ?q ?t)) with (get_hook h t). rewrite get_put_same by auto. simpl. auto.
Qed.

Lemma hstep_did_render h s u s' : did_render h s = (u, s') -> hstep (fun y => y <> h) s s'.
Proof.
  unfold did_render, bind, unset_current. destruct (s_stack s); [intros H; inversion H; apply hstep_refl|].
  destruct (Nat.eq_dec n h); unfold modify; intros H; inversion H; subst; clear H.
  - apply (hstep_trans _ _ (set_stack l s)); [apply hstep_same_hooks; auto|apply hstep_put_hook].
  - apply hstep_same_hooks; auto.
Qed.

Lemma did_render_hook h s s' : did_render h s = (Ok tt, s') -> h < length (s_hooks s) ->
  let k := get_hook h s in let k' := get_hook h s' in
  hk_cells k' = hk_cells k /\ hk_sched k' = hk_sched k /\ hk_ctx k' = hk_ctx k /\ hk_effects k' = hk_effects k /\
  rested k' /\ s_queue s' = s_queue s.
Proof.
  unfold did_render, bind, unset_current. destruct (s_stack s) eqn:ES; [discriminate|].
  destruct (Nat.eq_dec n h) as [->|]; [|discriminate]. unfold modify. intros H L; inversion H; subst; clear H.
  cbn zeta. rewrite get_put_same by auto. simpl. unfold rested. simpl. auto 10.
Qed.

(** Entering and calling the render function. *)
Lemma enter_good h c s r s' m : enter defs h c s r s' -> h < length (s_hooks s) -> ready (get_hook h s) ->
  hstep (fun y => y <> h) s s' /\ good s' (h, (m, c, r)).
Proof.
  intros (a & x & s1 & H1 & H2 & H3) L R.
  pose proof (hstep_will_render _ _ _ _ H1 L) as S1.
  destruct (will_render_hook _ _ _ _ H1 L R) as (W1 & W2 & W3).
  assert (La : h < length (s_hooks a)) by (destruct S1; lia).
  set (a' := set_log (s_log a ++ [EvRender h]) (set_exit (h :: s_exit a) a)) in *.
  pose proof (hstep_run_body _ _ _ _ _ H2) as S2.
  assert (S3 : hstep (fun y => y <> h) s s1).
  { eapply hstep_trans; [exact S1|]. eapply hstep_trans; [apply (hstep_same_hooks _ a a'); auto|exact S2]. }
  destruct r as [r|e text]; simpl in H3; destruct H3 as [-> ->].
  2:{ split; [eapply hstep_trans; [exact S3|apply hstep_same_hooks; auto]|].
      destruct (run_body_sched _ _ _ _ _ H2) as [_ K]. red. simpl.
      change (get_hook h (set_log ?l ?t)) with (get_hook h t).
      destruct (hk_sched (get_hook h s1)) eqn:ES; auto. left. apply K; auto.
      intros Q. change (get_hook h a') with (get_hook h a) in Q. congruence. }
  split; [eapply hstep_trans; [exact S3|apply hstep_same_hooks; auto]|].
  - apply run_body_prun in H2; [|exact La]. cbn zeta in H2. change (get_hook h a') with (get_hook h a) in H2.
    destruct H2 as (ch & cx & P1 & P2 & P3 & P4 & P5 & P6).
    rewrite W2 in P1. red. simpl. change (get_hook h (set_log ?l ?t)) with (get_hook h t). destruct ch.
    + left. apply P6; auto. congruence.
    + right. split; [rewrite P4; auto|].
      apply (render_fn_steady c) in P1.
      * eapply returns_ext; [|exact P1]. auto.
      * intros F. apply W3. destruct (hk_once (get_hook h a)); auto; discriminate.
Qed.

Lemma G_comp s sx Ah A' B' h m c r s2 s3 s' :
  hstep anyh s sx -> h < length (s_hooks sx) -> ready (get_hook h sx) ->
  enter defs h c sx r s2 -> E s2 A' B' s3 -> G s2 B' s3 ->
  did_render h s3 = (Ok tt, s') -> ~ In h (keys B') ->
  E s (Ah ++ A') ((h, (m, c, r)) :: B') s' ->
  G s ((h, (m, c, r)) :: B') s'.
Proof.
  intros Hx L R EN EE GG DR NI EF.
  destruct (enter_good _ _ _ _ _ m EN L R) as [S1 G1].
  destruct (enter_facts _ _ _ _ _ _ EN) as (_ & LL & _).
  assert (L2 : h < length (s_hooks s2)) by lia.
  assert (L3 : h < length (s_hooks s3)) by (pose proof (e_hooks _ _ _ _ EE); lia).
  assert (G3 : good s3 (h, (m, c, r))).
  { eapply good_hstep; [apply (g_step _ _ _ GG)| | |exact G1]; auto. }
  destruct (did_render_hook _ _ _ DR L3) as (D1 & D2 & D3 & D4 & D5 & D6).
  pose proof (hstep_did_render _ _ _ _ DR) as S3.
  constructor.
  - eapply hstep_trans; [eapply hstep_weaken; [|exact Hx]; intros; exact I|].
    eapply hstep_trans; [eapply hstep_weaken; [|exact S1]; intros x N ->; apply N; simpl; auto|].
    eapply hstep_trans; [eapply hstep_weaken; [|exact (g_step _ _ _ GG)]; intros x N J; apply N; simpl; auto|].
    eapply hstep_weaken; [|exact S3]. intros x N ->. apply N; simpl; auto.
  - intros i [<-|J].
    + simpl. split; auto. red in G3 |- *. simpl in *. rewrite D1, D2, D6. destruct r; auto. unfold ctx_of. rewrite D3. exact G3.
    + destruct (g_good _ _ _ GG i J) as [Q1 Q2].
      assert (NE : fst i <> h). { intros X. apply NI. rewrite <- X. apply In_keys; auto. }
      assert (Li : fst i < length (s_hooks s3)).
      { destruct (Nat.lt_ge_cases (fst i) (length (s_hooks s3))) as [|GE]; auto.
        exfalso. destruct Q2 as [_ Q2]. rewrite get_beyond in Q2 by auto. discriminate. }
      split; [eapply good_hstep|eapply rested_hstep]; eauto.
Qed.

Lemma found_sub ks okids x : NoDup ks -> okids_wf okids ->
  In x (keys (compss (found ks okids))) -> In x (keys (compss (okids_list okids))).
Proof.
  intros ND W I. destruct okids as [l|].
  - simpl. eapply Permutation_in; [apply Permutation_map, Permutation_sym, (gone_found ks l); auto; apply W|].
    rewrite map_app. apply in_or_app; auto.
  - exfalso. clear - I. unfold found in I. induction ks; simpl in *; auto.
Qed.

Theorem render_G :
  (forall s told k c s' t, rc defs s told k c s' t ->
     wfs (otree_list told) -> pre s (ocomps told) -> pre2 s (ocomps told) -> G s (comps t) s') /\
  (forall s told k r s' t, rm defs s told k r s' t ->
     wfs (otree_list told) -> pre s (ocomps told) -> pre2 s (ocomps told) -> G s (comps t) s') /\
  (forall s okids raws s' kids, rk defs s okids raws s' kids ->
     okids_wf okids -> pre s (compss (okids_list okids)) -> pre2 s (compss (okids_list okids)) ->
     G s (compss kids) s') /\
  (forall s okids infos s' kids, rl defs s okids infos s' kids ->
     okids_wf okids -> pre s (compss (found (map snd infos) okids)) ->
     pre2 s (compss (found (map snd infos) okids)) -> G s (compss kids) s').
Proof.
  destruct (render_E defs) as (ERC & ERM & ERK & ERL).
  assert (W0 : okids_wf None) by (split; [intros ? []|split; [constructor|exact I]]).
  assert (P0 : forall s, pre s []) by (split; [constructor|intros ? []]).
  assert (Q0 : forall s, pre2 s []) by (intros ? ? []).
  apply (render_deriv_ind defs
    (fun s told k c s' t _ => wfs (otree_list told) -> pre s (ocomps told) -> pre2 s (ocomps told) -> G s (comps t) s')
    (fun s told k r s' t _ => wfs (otree_list told) -> pre s (ocomps told) -> pre2 s (ocomps told) -> G s (comps t) s')
    (fun s okids raws s' kids _ => okids_wf okids -> pre s (compss (okids_list okids)) -> pre2 s (compss (okids_list okids)) -> G s (compss kids) s')
    (fun s okids infos s' kids _ => okids_wf okids -> pre s (compss (found (map snd infos) okids)) ->
       pre2 s (compss (found (map snd infos) okids)) -> G s (compss kids) s')).
  - (* rc_fresh *)
    intros s told k c s0 h m s2 r s3 kids s' D Eh EN RK IH DR W PR PR2.
    assert (EC : E s (ocomps told) (comps (TComp m k h c r kids)) s') by (eapply ERC; eauto; econstructor; eauto).
    assert (U : hstep anyh s s0).
    { destruct D as [[-> ->]|(t & -> & _ & U)]; [apply hstep_refl|]. eapply hstep_um; eauto. }
    assert (EK : E s2 [] (compss kids) s3) by (apply (ERK _ _ _ _ _ RK); auto).
    pose proof (enter_facts _ _ _ _ _ _ EN) as (_ & LL & _). simpl in LL. rewrite app_length in LL. simpl in LL.
    rewrite <- (app_nil_r (ocomps told)) in EC.
    eapply (G_comp s (set_reg (dset h m (s_reg s0)) (set_hooks (s_hooks s0 ++ [no_hook]) s0)) (ocomps told) [] (compss kids) h m c r s2 s3 s').
    + eapply hstep_trans; [exact U|]. constructor; auto.
      * simpl. rewrite app_length. lia.
      * intros x _ L. cbn zeta.
        assert (EX : get_hook x (set_reg (dset h m (s_reg s0)) (set_hooks (s_hooks s0 ++ [no_hook]) s0)) = get_hook x s0).
        { unfold get_hook. simpl. rewrite app_nth1; auto. }
        rewrite EX. auto 10.
    + simpl. rewrite app_length. simpl. lia.
    + replace (get_hook h _) with no_hook.
      { split; auto. }
      unfold get_hook. simpl. rewrite app_nth2 by lia. subst h. rewrite Nat.sub_diag. auto.
    + exact EN.
    + exact EK.
    + apply IH; auto.
    + exact DR.
    + intros J. destruct (e_fresh _ _ _ _ EK h J) as [[]|J2]. lia.
    + exact EC.
  - (* rc_same *)
    intros s m0 k h c0 out0 okids c m s2 r s3 kids s' ET EN FO RK IH DR W PR PR2.
    assert (EC : E s (ocomps (Some (TComp m0 k h c0 out0 okids))) (comps (TComp m k h c r kids)) s')
      by (eapply ERC; eauto; econstructor; eauto).
    destruct W as [(OK & NDk & Wk) _]. fold (wfs okids) in Wk.
    unfold ocomps in *. simpl otree_list in *.
    change (compss [TComp m0 k h c0 out0 okids]) with (((h, (m0, c0, out0)) :: compss okids) ++ []) in *.
    rewrite app_nil_r in *.
    change ((h, (m0, c0, out0)) :: compss okids) with ([(h, (m0, c0, out0))] ++ compss okids) in *.
    assert (WO : okids_wf (Some okids)) by (split; auto).
    assert (Lh : h < length (s_hooks s)) by (apply (proj2 PR); simpl; auto).
    pose proof (enter_facts _ _ _ _ _ _ EN) as (_ & LL & _). simpl in LL.
    assert (P2 : pre s2 (compss okids)) by (eapply pre_le; [|eapply pre_r; exact PR]; lia).
    assert (Rh : ready (get_hook h (set_reg (dset h m (s_reg s)) s))) by (apply (PR2 h); simpl; auto).
    destruct (enter_good h c (set_reg (dset h m (s_reg s)) s) r s2 m EN Lh Rh) as [S1 _].
    assert (PQ : pre2 s2 (compss okids)).
    { intros x J. eapply ready_hstep; [exact S1| | |].
      - intros ->. destruct PR as [ND _]. simpl in ND. inversion ND; auto.
      - apply (proj2 PR). simpl; auto.
      - apply (PR2 x). simpl; auto. }
    assert (EK : E s2 (compss okids) (compss kids) s3) by (apply (ERK _ _ _ _ _ RK); auto).
    eapply (G_comp s (set_reg (dset h m (s_reg s)) s) [(h, (m0, c0, out0))] (compss okids) (compss kids) h m c r s2 s3 s'); auto.
    + apply hstep_same_hooks; auto.
    + intros J. destruct (e_fresh _ _ _ _ EK h J) as [J2|J2]; [|lia].
      destruct PR as [ND _]. simpl in ND. inversion ND; auto.
  - (* rm_fresh *)
    intros s told k tag attrs hs js imp ch s0 m kp kids s' D RK IH W PR PR2.
    assert (U : hstep anyh s s0).
    { destruct D as [[-> ->]|(t & -> & _ & U)]; [apply hstep_refl|]. eapply hstep_um; eauto. }
    change (comps _) with (compss kids).
    assert (GK : G (set_eh (reg_all kp hs (s_eh s0)) s0) (compss kids) s') by (apply IH; auto).
    destruct GK as [K1 K2]. constructor; auto.
    eapply hstep_trans; [|exact K1].
    eapply hstep_trans; [eapply hstep_weaken; [|exact U]; intros; exact I|]. apply hstep_same_hooks; auto.
  - (* rm_same *)
    intros s m0 k tag0 imp0 attrs0 js0 kp0 hs0 has0 okids tag attrs hs js imp ch s0 m kp kids s' D RK IH W PR PR2.
    destruct W as [(OK & NDk & Wk) _]. fold (wfs okids) in Wk.
    unfold ocomps in *. simpl otree_list in *.
    change (compss [TElem m0 k tag0 imp0 attrs0 js0 kp0 hs0 has0 okids]) with (compss okids ++ []) in *.
    rewrite app_nil_r in *.
    change (comps _) with (compss kids).
    assert (QD : quiet s s0) by (eapply quiet_del_handlers; eauto).
    assert (HD : hstep anyh s s0) by (eapply hstep_del_handlers; eauto).
    assert (GK : G (set_eh (reg_all kp hs (s_eh s0)) s0) (compss kids) s').
    { apply IH; [split; auto| |].
      - eapply pre_le; [|exact PR]. simpl. destruct QD as (_ & Q & _). lia.
      - intros x J. change (get_hook x (set_eh ?a ?b)) with (get_hook x b).
        eapply ready_hstep; [exact HD|exact I|apply (proj2 PR); auto|]. apply PR2; auto. }
    destruct GK as [K1 K2]. constructor; auto.
    eapply hstep_trans; [|exact K1].
    eapply hstep_trans; [eapply hstep_weaken; [|exact HD]; intros; exact I|]. apply hstep_same_hooks; auto.
  - (* rk *)
    intros s okids raws s1 s' kids ND U RL IH W PR PR2.
    assert (P : Permutation (compss (okids_list okids))
                  (compss (gone (map snd (children_infos 0 raws)) okids) ++ compss (found (map snd (children_infos 0 raws)) okids))).
    { destruct okids as [l|]; simpl.
      - apply gone_found; auto; apply W.
      - replace (found _ None) with (@nil tree); [constructor|].
        clear. induction (map snd (children_infos 0 raws)); auto. }
    eapply pre_perm in PR; [|exact P].
    assert (PR2' : pre2 s (compss (gone (map snd (children_infos 0 raws)) okids) ++ compss (found (map snd (children_infos 0 raws)) okids))).
    { eapply pre2_sub; [|exact PR2]. intros x J. eapply Permutation_in; [apply Permutation_map, Permutation_sym; exact P|exact J]. }
    change (compss kids) with ([] ++ compss kids).
    eapply (G_seq' s (compss (gone (map snd (children_infos 0 raws)) okids)) [] s1 (compss (found (map snd (children_infos 0 raws)) okids)) (compss kids) s').
    + apply um_E'; auto. { apply gone_wf; auto. } eapply pre_l; eauto.
    + apply G_nil. eapply hstep_um; eauto.
    + intros. apply (ERL _ _ _ _ _ RL); auto.
    + intros. apply IH; auto.
    + exact PR.
    + exact PR2'.
  - (* rl_nil *)
    intros s okids W PR PR2. apply G_nil, hstep_refl.
  - (* rl_dict *)
    intros s okids r k rest s1 t s' ts RM IHm RL IHl W PR PR2.
    simpl in *. unfold found in *. simpl in *. rewrite compss_app in *.
    change (compss (t :: ts)) with (comps t ++ compss ts).
    assert (PL := pre_l _ _ _ PR). assert (QL := pre2_l _ _ _ PR2). assert (WL := otree_wf k okids W).
    eapply G_seq'; [apply (ERM _ _ _ _ _ _ RM); [exact WL|exact PL]|apply IHm; auto| | |exact PR|exact PR2].
    + intros. apply (ERL _ _ _ _ _ RL); auto.
    + intros. apply IHl; auto.
  - (* rl_comp *)
    intros s okids c k rest s1 t s' ts RM IHm RL IHl W PR PR2.
    simpl in *. unfold found in *. simpl in *. rewrite compss_app in *.
    change (compss (t :: ts)) with (comps t ++ compss ts).
    assert (PL := pre_l _ _ _ PR). assert (QL := pre2_l _ _ _ PR2). assert (WL := otree_wf k okids W).
    eapply G_seq'; [apply (ERC _ _ _ _ _ _ RM); [exact WL|exact PL]|apply IHm; auto| | |exact PR|exact PR2].
    + intros. apply (ERL _ _ _ _ _ RL); auto.
    + intros. apply IHl; auto.
  - (* rl_str *)
    intros s okids x k rest s1 s' ts U RL IHl W PR PR2.
    simpl in *. unfold found in *. simpl in *. rewrite compss_app in *.
    change (compss ts) with ([] ++ compss ts).
    assert (PL := pre_l _ _ _ PR). assert (WL := otree_wf k okids W).
    eapply G_seq'; [apply um_E'; [exact U|exact WL|exact PL]|apply G_nil; eapply hstep_um; eauto| | |exact PR|exact PR2].
    + intros. apply (ERL _ _ _ _ _ RL); auto.
    + intros. apply IHl; auto.
Qed.
End Settled.
