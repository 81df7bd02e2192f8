(** * Contexts seen by components; proof-side only *)
From Coq Require Import String ZArith Bool Arith Lia List Permutation.
From Verif Require Import Dict LayoutTypes LayoutModel BodySpec LayoutTree LayoutDeriv LayoutFacts LayoutSettled.
Import ListNotations.
Local Open Scope string_scope.
Local Open Scope list_scope.

(** Every instance's stored providers are the nearest enclosing ones. *)
Fixpoint ctx_ok (s : st) (env : nat -> option val) (t : tree) : Prop :=
  match t with
  | TText _ => True
  | TElem _ _ _ _ _ _ _ _ _ l => fold_right and True (map (ctx_ok s env) l)
  | TComp _ _ h c _ l =>
      NoDup (dkeys (hk_ctx (get_hook h s))) /\ (forall y, ctx_of (get_hook h s) y = visible c env y) /\
      fold_right and True (map (ctx_ok s (visible c env)) l)
  end.
Definition ctxs_ok s env l := fold_right and True (map (ctx_ok s env) l).

Lemma ctxs_Forall s env l : ctxs_ok s env l <-> Forall (ctx_ok s env) l.
Proof.
  unfold ctxs_ok. induction l; simpl; split; intros H; auto.
  - constructor; tauto.
  - inversion H; tauto.
Qed.
Lemma ctxs_app s env a b : ctxs_ok s env (a ++ b) <-> ctxs_ok s env a /\ ctxs_ok s env b.
Proof. rewrite !ctxs_Forall. apply Forall_app. Qed.

Lemma ctx_ok_hooks s s' t : forall env,
  (forall x, In x (hids t) -> hk_ctx (get_hook x s') = hk_ctx (get_hook x s)) ->
  ctx_ok s env t -> ctx_ok s' env t.
Proof.
  induction t using tree_ind'; intros env HX C; simpl in *; auto.
  - revert C HX. unfold hids. simpl. induction kids as [|a l IH]; simpl; intros C HX; auto.
    inversion H; subst. destruct C. split.
    + apply H2; auto. intros x I. apply HX. rewrite map_app. apply in_or_app. auto.
    + apply IH; auto. intros x I. apply HX. rewrite map_app. apply in_or_app. auto.
  - destruct C as (C1 & C2 & C3). unfold ctx_of in *.
    rewrite (HX h) by (unfold hids; simpl; auto). split; auto. split; auto.
    assert (HX' : forall x, In x (map fst (flat_map comps kids)) -> hk_ctx (get_hook x s') = hk_ctx (get_hook x s)).
    { intros x I. apply HX. unfold hids. simpl. auto. }
    clear - H C3 HX'. revert C3 HX'. induction kids as [|a l IH]; simpl; intros C HX; auto.
    inversion H; subst. destruct C. split.
    + apply H2; auto. intros x I. apply HX. rewrite map_app. apply in_or_app. auto.
    + apply IH; auto. intros x I. apply HX. rewrite map_app. apply in_or_app. auto.
Qed.

Lemma ctxs_ok_hooks s s' l env :
  (forall x, In x (keys (compss l)) -> hk_ctx (get_hook x s') = hk_ctx (get_hook x s)) ->
  ctxs_ok s env l -> ctxs_ok s' env l.
Proof.
  intros HX. rewrite !ctxs_Forall, !Forall_forall. intros C t I.
  eapply ctx_ok_hooks; [|apply C; auto]. intros x J. apply HX.
  unfold hids in J. unfold keys, compss. apply in_map_iff in J. destruct J as (i & <- & J).
  apply in_map. apply in_flat_map. eauto.
Qed.

Lemma hstep_ctx (P : nat -> Prop) s s' x : hstep P s s' -> P x -> x < length (s_hooks s) ->
  hk_ctx (get_hook x s') = hk_ctx (get_hook x s).
Proof. intros [A B C] Px L. destruct (C x Px L) as (_ & _ & D & _). exact D. Qed.

(** The hook on top of the stack carries the visible contexts. *)
Definition senv (s : st) (env : nat -> option val) (A : list cinfo) : Prop :=
  exists p l, s_stack s = p :: l /\ p < length (s_hooks s) /\ ~ In p (keys A) /\
              NoDup (dkeys (hk_ctx (get_hook p s))) /\ forall y, ctx_of (get_hook p s) y = env y.

Definition domsub (env0 env : nat -> option val) : Prop := forall y, env y = None -> env0 y = None.

Lemma domsub_visible c0 c env0 env : ci_type c0 = ci_type c -> domsub env0 env -> domsub (visible c0 env0) (visible c env).
Proof.
  intros ET D y. unfold visible. rewrite ET. destruct (ci_type c); [apply D|].
  unfold ctx_set. destruct (Nat.eq_dec y c1); [discriminate|]. apply D.
Qed.

Lemma senv_hstep (P : nat -> Prop) s s' env A : hstep P s s' -> s_stack s' = s_stack s ->
  (forall p l, s_stack s = p :: l -> p < length (s_hooks s) -> ~ In p (keys A) -> P p) -> senv s env A -> senv s' env A.
Proof.
  intros HS ST HP (p & l & E1 & E2 & E3 & E4 & E5). exists p, l.
  assert (EC := hstep_ctx _ _ _ p HS (HP _ _ E1 E2 E3) E2).
  rewrite ST. split; auto. split; [destruct HS; lia|]. split; auto. unfold ctx_of in *. rewrite EC. auto.
Qed.
Lemma senv_sub s env A A' : (forall x, In x (keys A') -> In x (keys A)) -> senv s env A -> senv s env A'.
Proof. intros S (p & l & E1 & E2 & E3 & E4 & E5). exists p, l. repeat (split; auto). Qed.

Section Context.
Variable defs : nat -> val -> list raw -> body.
Hypothesis defs_steady : forall n p kids, steady (defs n p kids).
Hypothesis defs_np : forall n p kids, no_provide (defs n p kids).

Definition ctx_same (s s' : st) : Prop := forall x, hk_ctx (get_hook x s') = hk_ctx (get_hook x s).
Lemma ctx_same_refl s : ctx_same s s.
Proof. intros x; auto. Qed.
Lemma ctx_same_trans a b c : ctx_same a b -> ctx_same b c -> ctx_same a c.
Proof. intros A B x. rewrite B; apply A. Qed.
Lemma ctx_same_put h k s : hk_ctx k = hk_ctx (get_hook h s) -> ctx_same s (put_hook h k s).
Proof.
  intros EC x. destruct (Nat.eq_dec h x) as [<-|NE].
  - destruct (Nat.lt_ge_cases h (length (s_hooks s))) as [L|L].
    + rewrite get_put_same; auto.
    + f_equal. rewrite !get_beyond; auto. simpl. rewrite upd_length; auto.
  - rewrite get_put_other; auto.
Qed.
Lemma ctx_same_hstep s s' : hstep anyh s s' -> length (s_hooks s') = length (s_hooks s) -> ctx_same s s'.
Proof.
  intros H EL x. destruct (Nat.lt_ge_cases x (length (s_hooks s))) as [L|L].
  - eapply hstep_ctx; eauto. exact I.
  - rewrite !get_beyond; auto; lia.
Qed.

Lemma run_body_ctx h b : no_provide b -> pres ctx_same (run_body h b).
Proof.
  induction b; simpl; intros NP; pres_tac ctx_same ctx_same_refl ctx_same_trans; auto; try contradiction.
  - intros s r s'. unfold use_cell. destruct (hk_once _).
    + destruct (nth_error _ _); intros X; inversion X; subst; [apply ctx_same_put; auto|apply ctx_same_refl].
    + intros X; inversion X; subst; apply ctx_same_put; auto.
  - apply pres_modify. intros; apply ctx_same_put; auto.
  - apply pres_modify. intros; apply ctx_same_put; auto.
  - apply pres_modify. intros. apply ctx_same_hstep; [apply hstep_dispatch|]. apply quiet_dispatch.
Qed.

Definition base_ctx (s : st) (h : nat) : dict nat val :=
  match s_stack s with
  | [] => hk_ctx (get_hook h s)
  | p :: _ => dupdate (hk_ctx (get_hook h s)) (hk_ctx (get_hook p s))
  end.

Lemma enter_ctx h c s r s' : enter defs h c s r s' -> h < length (s_hooks s) ->
  hk_ctx (get_hook h s') = match ci_type c with
                           | CTContext x => dset x (ci_props c) (base_ctx s h)
                           | CTUser _ => base_ctx s h
                           end.
Proof.
  intros (a & x0 & s2 & H1 & H2 & H3) L.
  assert (GS : get_hook h s' = get_hook h s2) by (destruct r; simpl in H3; destruct H3 as [_ ->]; reflexivity).
  rewrite GS. clear GS H3. destruct (will_render_inv _ _ _ _ H1 L) as (s1 & Hp & Ea). cbn zeta in Ea.
  assert (Q := quiet_pause _ _ _ Hp). destruct Q as (_ & QL & _ & QS & _).
  assert (CS : ctx_same s s1) by (apply ctx_same_hstep; auto; eapply hstep_pause; eauto).
  assert (Ca : hk_ctx (get_hook h a) = base_ctx s h).
  { subst a. change (get_hook h (set_stack ?q ?t)) with (get_hook h t). rewrite get_put_same by lia. simpl.
    unfold base_ctx. rewrite QS. destruct (s_stack s); rewrite ?CS; auto. }
  set (a' := set_log (s_log a ++ [EvRender h]) (set_exit (h :: s_exit a) a)) in *.
  destruct c as [[n|x] k p kids]; simpl in *.
  - apply run_body_ctx in H2; auto. rewrite (H2 h). exact Ca.
  - unfold bind, modify, ret in H2. injection H2 as _ <-. unfold set_provider.
    rewrite get_put_same; [simpl; rewrite <- Ca; auto|]. subst a. simpl. rewrite upd_length. lia.
Qed.

Lemma base_env s h env A : senv s env A -> NoDup (dkeys (hk_ctx (get_hook h s))) ->
  NoDup (dkeys (base_ctx s h)) /\
  forall y, dget y (base_ctx s h) = match env y with Some v => Some v | None => ctx_of (get_hook h s) y end.
Proof.
  intros (p & l & E1 & E2 & E3 & E4 & E5) ND. unfold base_ctx. rewrite E1. split; [apply NoDup_dupdate; auto|].
  intros y. rewrite dget_dupdate by auto. rewrite <- E5. reflexivity.
Qed.

Lemma enter_env h c s r s' env : enter defs h c s r s' -> h < length (s_hooks s) ->
  NoDup (dkeys (base_ctx s h)) ->
  (forall y, match ci_type c with CTContext x => y <> x | CTUser _ => True end -> dget y (base_ctx s h) = env y) ->
  NoDup (dkeys (hk_ctx (get_hook h s'))) /\ forall y, ctx_of (get_hook h s') y = visible c env y.
Proof.
  intros EN L ND BE. unfold ctx_of. rewrite (enter_ctx _ _ _ _ _ EN L). unfold visible.
  destruct (ci_type c) as [n|x].
  - split; auto.
  - split; [apply NoDup_dset; auto|]. intros y. rewrite dget_dset. unfold ctx_set.
    destruct (eq_dec y x), (Nat.eq_dec y x); try congruence. apply BE; auto.
Qed.

Lemma ctxs_after s A1 B1 s1 l env : E s A1 B1 s1 -> G defs s B1 s1 -> pre s (A1 ++ compss l) ->
  ctxs_ok s env l -> ctxs_ok s1 env l.
Proof.
  intros HE [HG _] [ND LT] C. eapply ctxs_ok_hooks; [|exact C]. intros x I.
  assert (Lx : x < length (s_hooks s)) by (apply LT; rewrite keys_app; apply in_or_app; auto).
  eapply hstep_ctx; eauto. intros J. destruct (e_fresh _ _ _ _ HE x J) as [K|K]; [|lia].
  rewrite keys_app in ND. clear - ND I K. induction (keys A1); simpl in *; [contradiction|].
  inversion ND; subst. destruct K as [->|K]; auto. apply H1. apply in_or_app; auto.
Qed.

Lemma senv_after s A1 B1 s1 env A2 : E s A1 B1 s1 -> G defs s B1 s1 ->
  senv s env (A1 ++ A2) -> senv s1 env A2.
Proof.
  intros HE [HG _] S. eapply senv_hstep.
  - exact HG.
  - apply (e_stack _ _ _ _ HE).
  - intros p l ES L NI J. destruct S as (p' & l' & ES' & L' & NI' & _). rewrite ES in ES'. injection ES' as <- <-.
    destruct (e_fresh _ _ _ _ HE p J) as [K|K]; [|lia]. apply NI'. rewrite keys_app. apply in_or_app; auto.
  - eapply senv_sub; [|exact S]. intros x I. rewrite keys_app. apply in_or_app; auto.
Qed.

Definition told_ctx s env told := exists env0, domsub env0 env /\ ctxs_ok s env0 (otree_list told).
Definition okids_ctx s env l := exists env0, domsub env0 env /\ ctxs_ok s env0 l.

Lemma ctxs_perm s env l l' : (forall t, In t l' -> In t l) -> ctxs_ok s env l -> ctxs_ok s env l'.
Proof. rewrite !ctxs_Forall, !Forall_forall. auto. Qed.

(** The new tree after a component render, given the children. *)
Lemma ctx_comp s2 s3 s' env h m k c r kids A' :
  h < length (s_hooks s2) ->
  NoDup (dkeys (hk_ctx (get_hook h s2))) -> (forall y, ctx_of (get_hook h s2) y = visible c env y) ->
  E s2 A' (compss kids) s3 -> G defs s2 (compss kids) s3 -> ~ In h (keys (compss kids)) ->
  (forall x, In x (keys (compss kids)) -> x < length (s_hooks s3)) ->
  did_render h s3 = (Ok tt, s') ->
  ctxs_ok s3 (visible c env) kids -> ctx_ok s' env (TComp m k h c r kids).
Proof.
  intros L ND V EE GG NI LT DR CK.
  assert (L3 : h < length (s_hooks s3)) by (pose proof (e_hooks _ _ _ _ EE); lia).
  assert (C3 : hk_ctx (get_hook h s3) = hk_ctx (get_hook h s2)) by (eapply hstep_ctx; [apply (g_step _ _ _ _ GG)|exact NI|auto]).
  destruct (did_render_hook _ _ _ DR L3) as (D1 & D2 & D3 & D4 & D5 & D6).
  simpl. unfold ctx_of in *. rewrite D3, C3. split; auto. split; auto.
  change (ctxs_ok s' (visible c env) kids). eapply ctxs_ok_hooks; [|exact CK].
  intros x J. eapply hstep_ctx; [eapply hstep_did_render; eauto| |auto]. intros ->. contradiction.
Qed.

Theorem render_ctx :
  (forall s told k c s' t, rc defs s told k c s' t ->
     wfs (otree_list told) -> pre s (ocomps told) -> pre2 s (ocomps told) ->
     forall env, senv s env (ocomps told) -> told_ctx s env told -> ctx_ok s' env t) /\
  (forall s told k r s' t, rm defs s told k r s' t ->
     wfs (otree_list told) -> pre s (ocomps told) -> pre2 s (ocomps told) ->
     forall env, senv s env (ocomps told) -> told_ctx s env told -> ctx_ok s' env t) /\
  (forall s okids raws s' kids, rk defs s okids raws s' kids ->
     okids_wf okids -> pre s (compss (okids_list okids)) -> pre2 s (compss (okids_list okids)) ->
     forall env, senv s env (compss (okids_list okids)) -> okids_ctx s env (okids_list okids) -> ctxs_ok s' env kids) /\
  (forall s okids infos s' kids, rl defs s okids infos s' kids ->
     okids_wf okids -> pre s (compss (found (map snd infos) okids)) ->
     pre2 s (compss (found (map snd infos) okids)) ->
     forall env, senv s env (compss (found (map snd infos) okids)) -> okids_ctx s env (found (map snd infos) okids) ->
     ctxs_ok s' env kids).
Proof.
  destruct (render_E defs) as (ERC & ERM & ERK & ERL).
  destruct (render_G defs defs_steady) as (GRC & GRM & GRK & GRL).
  assert (W0 : okids_wf None) by (split; [intros ? []|split; [constructor|exact I]]).
  assert (P0 : forall s, pre s []) by (split; [constructor|intros ? []]).
  assert (Q0 : forall s, pre2 s []) by (intros ? ? []).
  apply (render_deriv_ind defs
    (fun s told k c s' t _ => wfs (otree_list told) -> pre s (ocomps told) -> pre2 s (ocomps told) ->
       forall env, senv s env (ocomps told) -> told_ctx s env told -> ctx_ok s' env t)
    (fun s told k r s' t _ => wfs (otree_list told) -> pre s (ocomps told) -> pre2 s (ocomps told) ->
       forall env, senv s env (ocomps told) -> told_ctx s env told -> ctx_ok s' env t)
    (fun s okids raws s' kids _ => okids_wf okids -> pre s (compss (okids_list okids)) -> pre2 s (compss (okids_list okids)) ->
       forall env, senv s env (compss (okids_list okids)) -> okids_ctx s env (okids_list okids) -> ctxs_ok s' env kids)
    (fun s okids infos s' kids _ => okids_wf okids -> pre s (compss (found (map snd infos) okids)) ->
       pre2 s (compss (found (map snd infos) okids)) ->
       forall env, senv s env (compss (found (map snd infos) okids)) -> okids_ctx s env (found (map snd infos) okids) ->
       ctxs_ok s' env kids)).
  - (* rc_fresh *)
    intros s told k c s0 h m s2 r s3 kids s' D Eh EN RK IH DR W PR PR2 env SE TC.
    assert (U : hstep anyh s s0 /\ s_stack s0 = s_stack s).
    { destruct D as [[-> ->]|(t & -> & _ & U)]; [split; [apply hstep_refl|auto]|]. split; [eapply hstep_um; eauto|].
      apply (e_stack _ _ _ _ (um_E' _ _ _ U W PR)). }
    destruct U as [U US].
    pose proof (enter_facts _ _ _ _ _ _ EN) as (_ & LL & _ & SS & _). simpl in LL. rewrite app_length in LL. simpl in LL.
    set (sx := set_reg (dset h m (s_reg s0)) (set_hooks (s_hooks s0 ++ [no_hook]) s0)) in *.
    assert (HX : forall x, x < length (s_hooks s0) -> get_hook x sx = get_hook x s0).
    { intros x L. unfold get_hook. simpl. rewrite app_nth1; auto. }
    assert (HH : get_hook h sx = no_hook).
    { unfold get_hook. simpl. rewrite app_nth2 by lia. subst h. rewrite Nat.sub_diag. auto. }
    assert (SX : senv sx env []).
    { assert (S0 : senv s0 env []).
      { eapply senv_hstep; [exact U|exact US|intros; exact I|]. eapply senv_sub; [|exact SE]. intros ? []. }
      destruct S0 as (p & l & E1 & E2 & E3 & E4 & E5). exists p, l. rewrite HX by auto. simpl. rewrite app_length.
      repeat split; auto. lia. }
    assert (LX : h < length (s_hooks sx)) by (simpl; rewrite app_length; simpl; lia).
    destruct (base_env sx h env [] SX) as [B1 B2]; [rewrite HH; constructor|].
    assert (BE : forall y, dget y (base_ctx sx h) = env y).
    { intros y. rewrite B2, HH. destruct (env y); auto. }
    destruct (enter_env h c sx r s2 env EN LX B1) as [V1 V2]; [auto|].
    assert (EK : E s2 [] (compss kids) s3) by (apply (ERK _ _ _ _ _ RK); auto).
    assert (GK : G defs s2 (compss kids) s3) by (apply (GRK _ _ _ _ _ RK); auto).
    assert (NI : ~ In h (keys (compss kids))).
    { intros J. destruct (e_fresh _ _ _ _ EK h J) as [[]|J2]. simpl in LX. rewrite app_length in LX. simpl in LX. lia. }
    eapply (ctx_comp s2 s3 s' env h m k c r kids []); eauto.
    + lia.
    + intros x J. destruct (e_fresh _ _ _ _ EK x J) as [[]|J2]. lia.
    + apply IH; auto.
      * exists h, (s_stack sx). split; auto. split; [lia|]. split; [intros []|]. split; auto.
      * exists (fun _ => None). split; [intros y _; auto|exact I].
  - (* rc_same *)
    intros s m0 k h c0 out0 okids c m s2 r s3 kids s' ET EN FO RK IH DR W PR PR2 env SE TC.
    destruct W as [(OK & NDk & Wk) _]. fold (wfs okids) in Wk.
    unfold ocomps in *. simpl otree_list in *.
    change (compss [TComp m0 k h c0 out0 okids]) with (((h, (m0, c0, out0)) :: compss okids) ++ []) in *.
    rewrite app_nil_r in *.
    change ((h, (m0, c0, out0)) :: compss okids) with ([(h, (m0, c0, out0))] ++ compss okids) in *.
    assert (WO : okids_wf (Some okids)) by (split; auto).
    assert (Lh : h < length (s_hooks s)) by (apply (proj2 PR); simpl; auto).
    set (sx := set_reg (dset h m (s_reg s)) s) in *.
    pose proof (enter_facts _ _ _ _ _ _ EN) as (_ & LL & _ & SS & _). simpl in LL.
    assert (P2 : pre s2 (compss okids)) by (eapply pre_le; [|eapply pre_r; exact PR]; lia).
    assert (Rh : ready (get_hook h sx)) by (apply (PR2 h); simpl; auto).
    destruct (enter_good defs defs_steady h c sx r s2 m EN Lh Rh) as [S1 _].
    assert (NIh : ~ In h (keys (compss okids))) by (destruct PR as [ND _]; simpl in ND; inversion ND; auto).
    assert (PQ : pre2 s2 (compss okids)).
    { intros x J. eapply ready_hstep; [exact S1| | |].
      - intros ->. contradiction.
      - apply (proj2 PR). simpl; auto.
      - apply (PR2 x). simpl; auto. }
    assert (EK : E s2 (compss okids) (compss kids) s3) by (apply (ERK _ _ _ _ _ RK); auto).
    assert (GK : G defs s2 (compss kids) s3) by (apply (GRK _ _ _ _ _ RK); auto).
    assert (NI : ~ In h (keys (compss kids))).
    { intros J. destruct (e_fresh _ _ _ _ EK h J) as [J2|J2]; [contradiction|lia]. }
    destruct TC as (env0 & DS & [(T1 & T2 & T3) _]). fold (ctxs_ok s (visible c0 env0) okids) in T3.
    assert (SX : senv sx env ([(h, (m0, c0, out0))] ++ compss okids)) by exact SE.
    destruct (base_env sx h env _ SX T1) as [B1 B2].
    destruct (enter_env h c sx r s2 env EN Lh B1) as [V1 V2].
    { intros y NY. rewrite B2. destruct (env y) eqn:EY; auto.
      change (get_hook h sx) with (get_hook h s). rewrite T2. unfold visible. rewrite ET.
      destruct (ci_type c) as [n|x]; [apply DS; auto|]. unfold ctx_set. destruct (Nat.eq_dec y x); [contradiction|apply DS; auto]. }
    eapply (ctx_comp s2 s3 s' env h m k c r kids (compss okids)); eauto.
    + lia.
    + intros x J. destruct (e_fresh _ _ _ _ EK x J) as [J2|J2]; [|lia].
      pose proof (e_hooks _ _ _ _ EK). assert (x < length (s_hooks s)) by (apply (proj2 PR); simpl; auto). lia.
    + apply IH; auto.
      * exists h, (s_stack sx). split; auto. split; [lia|]. split; auto.
      * exists (visible c0 env0). split; [apply domsub_visible; auto|].
        eapply ctxs_ok_hooks; [|exact T3]. intros x J.
        change (hk_ctx (get_hook x s)) with (hk_ctx (get_hook x sx)).
        eapply hstep_ctx; [exact S1|intros ->; contradiction|]. apply (proj2 PR). simpl; auto.
  - (* rm_fresh *)
    intros s told k tag attrs hs js imp ch s0 m kp kids s' D RK IH W PR PR2 env SE TC.
    assert (U : hstep anyh s s0 /\ s_stack s0 = s_stack s).
    { destruct D as [[-> ->]|(t & -> & _ & U)]; [split; [apply hstep_refl|auto]|]. split; [eapply hstep_um; eauto|].
      apply (e_stack _ _ _ _ (um_E' _ _ _ U W PR)). }
    destruct U as [U US]. change (ctxs_ok s' env kids). apply IH; auto.
    + assert (S0 : senv s0 env []).
      { eapply senv_hstep; [exact U|exact US|intros; exact I|]. eapply senv_sub; [|exact SE]. intros ? []. }
      exact S0.
    + exists (fun _ => None). split; [intros y _; auto|exact I].
  - (* rm_same *)
    intros s m0 k tag0 imp0 attrs0 js0 kp0 hs0 has0 okids tag attrs hs js imp ch s0 m kp kids s' D RK IH W PR PR2 env SE TC.
    destruct W as [(OK & NDk & Wk) _]. fold (wfs okids) in Wk.
    unfold ocomps in *. simpl otree_list in *.
    change (compss [TElem m0 k tag0 imp0 attrs0 js0 kp0 hs0 has0 okids]) with (compss okids ++ []) in *.
    rewrite app_nil_r in *.
    assert (QD : quiet s s0) by (eapply quiet_del_handlers; eauto).
    assert (HD : hstep anyh s s0) by (eapply hstep_del_handlers; eauto).
    change (ctxs_ok s' env kids). apply IH; [split; auto| | | |].
    + eapply pre_le; [|exact PR]. simpl. destruct QD as (_ & Q & _). lia.
    + intros x J. change (get_hook x (set_eh ?a ?b)) with (get_hook x b).
      eapply ready_hstep; [exact HD|exact I|apply (proj2 PR); auto|]. apply PR2; auto.
    + assert (S0 : senv s0 env (compss okids)).
      { eapply senv_hstep; [exact HD| |intros; exact I|exact SE]. apply QD. }
      exact S0.
    + destruct TC as (env0 & DS & [T1 _]). exists env0. split; auto. simpl.
      eapply ctxs_ok_hooks; [|exact T1]. intros x J.
      change (hk_ctx (get_hook x (set_eh ?a ?b))) with (hk_ctx (get_hook x b)).
      eapply hstep_ctx; [exact HD|exact I|]. apply (proj2 PR); auto.
  - (* rk *)
    intros s okids raws s1 s' kids ND U RL IH W PR PR2 env SE TC.
    assert (P : Permutation (compss (okids_list okids))
                  (compss (gone (map snd (children_infos 0 raws)) okids) ++ compss (found (map snd (children_infos 0 raws)) okids))).
    { destruct okids as [l|]; simpl.
      - apply gone_found; auto; apply W.
      - replace (found _ None) with (@nil tree); [constructor|].
        clear. induction (map snd (children_infos 0 raws)); auto. }
    eapply pre_perm in PR; [|exact P].
    assert (PR2' : pre2 s (compss (gone (map snd (children_infos 0 raws)) okids) ++ compss (found (map snd (children_infos 0 raws)) okids))).
    { eapply pre2_sub; [|exact PR2]. intros x J. eapply Permutation_in; [apply Permutation_map, Permutation_sym; exact P|exact J]. }
    assert (EU : E s (compss (gone (map snd (children_infos 0 raws)) okids)) [] s1).
    { apply um_E'; auto. { apply gone_wf; auto. } eapply pre_l; eauto. }
    assert (GU : G defs s [] s1) by (apply G_nil; eapply hstep_um; eauto).
    apply IH; auto.
    + eapply pre_le; [apply (e_hooks _ _ _ _ EU)|eapply pre_r; eauto].
    + eapply pre2_after; eauto. eapply pre2_r; eauto.
    + eapply senv_after; eauto. eapply senv_sub; [|exact SE].
      intros x J. eapply Permutation_in; [apply Permutation_map, Permutation_sym; exact P|exact J].
    + destruct TC as (env0 & DS & T). exists env0. split; auto.
      eapply ctxs_after; eauto. eapply ctxs_perm; [|exact T].
      intros t J. unfold found in J. apply in_flat_map in J. destruct J as (k & _ & J).
      destruct okids as [l|]; simpl in *; [|contradiction]. destruct (find_key k l) eqn:F; [|contradiction].
      destruct J as [<-|[]]. apply find_key_In in F. tauto.
  - (* rl_nil *)
    intros. exact I.
  - (* rl_dict *)
    intros s okids r k rest s1 t s' ts RM IHm RL IHl W PR PR2 env SE TC.
    simpl in *. unfold found in *. simpl in *. rewrite compss_app in *.
    assert (PL := pre_l _ _ _ PR). assert (QL := pre2_l _ _ _ PR2). assert (WL := otree_wf k okids W).
    assert (EM := ERM _ _ _ _ _ _ RM WL PL). assert (GM := GRM _ _ _ _ _ _ RM WL PL QL).
    assert (PS : pre s1 (compss (flat_map (fun k => otree_list (opt_find k okids)) (map snd rest)))).
    { eapply pre_le; [apply (e_hooks _ _ _ _ EM)|eapply pre_r; eauto]. }
    assert (QS : pre2 s1 (compss (flat_map (fun k => otree_list (opt_find k okids)) (map snd rest)))).
    { eapply pre2_after; [exact EM|exact GM|exact PR|eapply pre2_r; eauto]. }
    destruct TC as (env0 & DS & T). apply ctxs_app in T. destruct T as [T1 T2].
    assert (C1 : ctx_ok s1 env t).
    { apply IHm; auto. - eapply senv_sub; [|exact SE]. intros x J. rewrite keys_app. apply in_or_app; auto.
      - exists env0; auto. }
    assert (C2 : ctxs_ok s' env ts).
    { apply IHl; auto.
      - eapply senv_after; eauto.
      - exists env0. split; auto. eapply ctxs_after; eauto. }
    split; [|exact C2].
    assert (EL := ERL _ _ _ _ _ RL W PS). assert (GL := GRL _ _ _ _ _ RL W PS QS).
    eapply ctx_ok_hooks; [|exact C1]. intros x J.
    assert (ND := e_nodup _ _ _ _ (E_seq' _ _ _ _ _ _ _ EM (fun _ => EL) PR)).
    eapply hstep_ctx; [apply (g_step _ _ _ _ GL)| |].
    + intros K. rewrite keys_app in ND. change (hids t) with (keys (comps t)) in J. clear - ND J K. induction (keys (comps t)); simpl in *; [contradiction|].
      inversion ND; subst. destruct J as [->|J]; auto. apply H1. apply in_or_app; auto.
    + destruct (e_fresh _ _ _ _ EM x J) as [K|K]; [|lia].
      eapply Nat.lt_le_trans; [|apply (e_hooks _ _ _ _ EM)]. apply (proj2 PL); auto.
  - (* rl_comp *)
    intros s okids c k rest s1 t s' ts RM IHm RL IHl W PR PR2 env SE TC.
    simpl in *. unfold found in *. simpl in *. rewrite compss_app in *.
    assert (PL := pre_l _ _ _ PR). assert (QL := pre2_l _ _ _ PR2). assert (WL := otree_wf k okids W).
    assert (EM := ERC _ _ _ _ _ _ RM WL PL). assert (GM := GRC _ _ _ _ _ _ RM WL PL QL).
    assert (PS : pre s1 (compss (flat_map (fun k => otree_list (opt_find k okids)) (map snd rest)))).
    { eapply pre_le; [apply (e_hooks _ _ _ _ EM)|eapply pre_r; eauto]. }
    assert (QS : pre2 s1 (compss (flat_map (fun k => otree_list (opt_find k okids)) (map snd rest)))).
    { eapply pre2_after; [exact EM|exact GM|exact PR|eapply pre2_r; eauto]. }
    destruct TC as (env0 & DS & T). apply ctxs_app in T. destruct T as [T1 T2].
    assert (C1 : ctx_ok s1 env t).
    { apply IHm; auto. - eapply senv_sub; [|exact SE]. intros x J. rewrite keys_app. apply in_or_app; auto.
      - exists env0; auto. }
    assert (C2 : ctxs_ok s' env ts).
    { apply IHl; auto.
      - eapply senv_after; eauto.
      - exists env0. split; auto. eapply ctxs_after; eauto. }
    split; [|exact C2].
    assert (EL := ERL _ _ _ _ _ RL W PS). assert (GL := GRL _ _ _ _ _ RL W PS QS).
    eapply ctx_ok_hooks; [|exact C1]. intros x J.
    assert (ND := e_nodup _ _ _ _ (E_seq' _ _ _ _ _ _ _ EM (fun _ => EL) PR)).
    eapply hstep_ctx; [apply (g_step _ _ _ _ GL)| |].
    + intros K. rewrite keys_app in ND. change (hids t) with (keys (comps t)) in J. clear - ND J K. induction (keys (comps t)); simpl in *; [contradiction|].
      inversion ND; subst. destruct J as [->|J]; auto. apply H1. apply in_or_app; auto.
    + destruct (e_fresh _ _ _ _ EM x J) as [K|K]; [|lia].
      eapply Nat.lt_le_trans; [|apply (e_hooks _ _ _ _ EM)]. apply (proj2 PL); auto.
  - (* rl_str *)
    intros s okids x k rest s1 s' ts U RL IHl W PR PR2 env SE TC.
    simpl in *. unfold found in *. simpl in *. rewrite compss_app in *.
    assert (PL := pre_l _ _ _ PR). assert (WL := otree_wf k okids W).
    assert (EM := um_E' _ _ _ U WL PL). assert (GM : G defs s [] s1) by (apply G_nil; eapply hstep_um; eauto).
    destruct TC as (env0 & DS & T). apply ctxs_app in T. destruct T as [T1 T2].
    split; [exact I|]. apply IHl; auto.
    + eapply pre_le; [apply (e_hooks _ _ _ _ EM)|eapply pre_r; eauto].
    + eapply pre2_after; [exact EM|exact GM|exact PR|eapply pre2_r; eauto].
    + eapply senv_after; eauto.
    + exists env0. split; auto. eapply ctxs_after; eauto.
Qed.

(** Like [ctx_ok], but the value a provider itself provides may not be stored yet. *)
Definition pctx (s : st) (env : nat -> option val) (t : tree) : Prop :=
  match t with
  | TComp _ _ h c _ l =>
      NoDup (dkeys (hk_ctx (get_hook h s))) /\
      (forall y, match ci_type c with CTContext x => y <> x | CTUser _ => True end -> ctx_of (get_hook h s) y = env y) /\
      ctxs_ok s (visible c env) l
  | _ => False
  end.
Lemma ctx_pctx s env m k h c o l : ctx_ok s env (TComp m k h c o l) -> pctx s env (TComp m k h c o l).
Proof.
  intros (A & B & C). split; auto. split; auto. intros y NY. rewrite B. unfold visible.
  destruct (ci_type c) as [n|x]; auto. unfold ctx_set. destruct (Nat.eq_dec y x); [contradiction|auto].
Qed.

(** Re-rendering a component on its own (nothing on the hook stack). *)
Theorem render_ctx_root s told k c s' t env : rc defs s (Some told) k c s' t -> same_comp told c ->
  (forall m0 k0 h0 c0 o0 l0, told = TComp m0 k0 h0 c0 o0 l0 -> c0 = c) ->
  s_stack s = [] -> wf told -> pre s (comps told) -> pre2 s (comps told) ->
  pctx s env told -> ctx_ok s' env t.
Proof.
  destruct (render_E defs) as (ERC & ERM & ERK & ERL).
  destruct (render_G defs defs_steady) as (GRC & GRM & GRK & GRL).
  intros R SC CC S0 W PR PR2 TC. inversion R; subst.
  { exfalso. match goal with H : _ \/ _ |- _ => destruct H as [[F _]|(t0 & F & N & _)] end; [discriminate|].
    injection F as <-. contradiction. }
  match goal with H : ci_type _ = _ |- _ => rename H into ET end.
  match goal with H : enter _ _ _ _ _ _ |- _ => rename H into EN end.
  match goal with H : rk _ _ _ _ _ _ |- _ => rename H into RK end.
  match goal with H : did_render _ _ = _ |- _ => rename H into DR end.
  specialize (CC _ _ _ _ _ _ eq_refl). subst c0.
  destruct W as (OK & NDk & Wk). fold (wfs okids) in Wk.
  change (comps (TComp m0 k h c out0 okids)) with ([(h, (m0, c, out0))] ++ compss okids) in *.
  assert (WO : okids_wf (Some okids)) by (split; auto).
  assert (Lh : h < length (s_hooks s)) by (apply (proj2 PR); simpl; auto).
  set (sx := set_reg (dset h m (s_reg s)) s) in *.
  pose proof (enter_facts _ _ _ _ _ _ EN) as (_ & LL & _ & SS & _). simpl in LL.
  assert (P2 : pre s2 (compss okids)) by (eapply pre_le; [|eapply pre_r; exact PR]; lia).
  assert (Rh : ready (get_hook h sx)) by (apply (PR2 h); simpl; auto).
  destruct (enter_good defs defs_steady h c sx r s2 m EN Lh Rh) as [S1 _].
  assert (NIh : ~ In h (keys (compss okids))) by (destruct PR as [ND _]; simpl in ND; inversion ND; auto).
  assert (PQ : pre2 s2 (compss okids)).
  { intros x J. eapply ready_hstep; [exact S1| | |].
    - intros ->. contradiction.
    - apply (proj2 PR). simpl; auto.
    - apply (PR2 x). simpl; auto. }
  assert (EK : E s2 (compss okids) (compss kids) s3) by (apply (ERK _ _ _ _ _ RK); auto).
  assert (GK : G defs s2 (compss kids) s3) by (apply (GRK _ _ _ _ _ RK); auto).
  assert (NI : ~ In h (keys (compss kids))).
  { intros J. destruct (e_fresh _ _ _ _ EK h J) as [J2|J2]; [contradiction|lia]. }
  destruct TC as (T1 & T2 & T3).
  assert (BC : base_ctx sx h = hk_ctx (get_hook h s)) by (unfold base_ctx; simpl; rewrite S0; auto).
  destruct (enter_env h c sx r s2 env EN Lh) as [V1 V2]; [rewrite BC; auto| |].
  { intros y NY. rewrite BC. apply T2. exact NY. }
  destruct render_ctx as (_ & _ & IHK & _).
  eapply (ctx_comp s2 s3 s' env h m k c r kids (compss okids)); eauto.
  - lia.
  - intros x J. destruct (e_fresh _ _ _ _ EK x J) as [J2|J2]; [|lia].
    pose proof (e_hooks _ _ _ _ EK). assert (x < length (s_hooks s)) by (apply (proj2 PR); simpl; auto). lia.
  - eapply IHK; eauto.
    + exists h, (s_stack sx). split; auto. split; [lia|]. split; auto.
    + exists (visible c env). split; [intros y; auto|].
      eapply ctxs_ok_hooks; [|exact T3]. intros x J.
      change (hk_ctx (get_hook x s)) with (hk_ctx (get_hook x sx)).
      eapply hstep_ctx; [exact S1|intros ->; contradiction|]. apply (proj2 PR). simpl; auto.
Qed.
End Context.
