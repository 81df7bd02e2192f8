(** * The layout's history invariants; proof-side only *)
From Coq Require Import String ZArith Bool Arith Lia List Permutation.
From Verif Require Import Dict LayoutTypes LayoutModel BodySpec DisplaySpec GuardSpec LayoutObs LayoutTree LayoutDeriv LayoutExec
  LayoutFacts LayoutSettled LayoutContext LayoutHandlers LayoutShape LayoutOps LayoutNoCrash LayoutStep LayoutInv.
Import ListNotations.
Local Open Scope string_scope.
Local Open Scope list_scope.

(** ** Environment steps *)

Definition quiet (s s' : st) : Prop :=
  s_heap s' = s_heap s /\ s_reg s' = s_reg s /\ s_eh s' = s_eh s /\ s_log s' = s_log s /\
  length (s_hooks s') = length (s_hooks s).

Lemma quiet_put_hook h x s : quiet s (put_hook h x s).
Proof. repeat split; simpl; auto. apply upd_length. Qed.
Lemma quiet_trans a b c : quiet a b -> quiet b c -> quiet a c.
Proof. unfold quiet. intuition congruence. Qed.
Lemma quiet_schedule h s : quiet s (schedule_render h s).
Proof.
  unfold schedule_render. destruct (hk_sched _); [repeat split|].
  eapply quiet_trans; [|apply quiet_put_hook]. repeat split.
Qed.
Lemma quiet_env s o : quiet s (env_step s o).
Proof.
  destruct o as [h i u|t z]; simpl.
  - unfold dispatch. destruct (nth_error _ _) as [[v| | |]|]; try (repeat split; fail).
    destruct (veq _ v); [repeat split|]. eapply quiet_trans; [apply quiet_put_hook|apply quiet_schedule].
  - unfold record_seq. destruct (0 <=? z)%Z; [|repeat split]. destruct (_ <? z)%Z; repeat split.
Qed.

(** ** Mounted instances *)

Lemma inst_at_tree hp t : forall par i path kp m fuel, rep hp par i path kp t -> incr t -> tmid t = Some m ->
  length hp - m <= fuel -> m < length hp -> inst_at fuel hp m = inst_of t.
Proof.
  assert (KL : forall l m0 path kp j fuel,
    Forall (fun t => forall par i path kp m fuel, rep hp par i path kp t -> incr t -> tmid t = Some m ->
      length hp - m <= fuel -> m < length hp -> inst_at fuel hp m = inst_of t) l ->
    rep_list hp m0 path kp j l -> incrs l -> Forall (fun m' => length hp - m' <= fuel /\ m' < length hp) (flat_map mids l) ->
    map (fun km => (fst km, inst_at fuel hp (snd km))) (kid_dict l) =
    flat_map (fun t' => match tkey t' with Some k => [(k, inst_of t')] | None => [] end) l).
  { clear t. induction l as [|t l IH]; intros m0 path kp j fuel F R I B; [reflexivity|].
    inversion F as [|? ? F1 F2]; subst. destruct R as [R1 R2]. destruct I as [I1 I2].
    cbn [flat_map] in B. apply Forall_app in B. destruct B as [B1 B2].
    unfold kid_dict. cbn [flat_map]. fold (kid_dict l). rewrite map_app, (IH _ _ _ _ _ F2 R2 I2 B2). f_equal.
    destruct t as [x|m k tag imp attrs js kp' hs has kids|m [k|] h c out kids]; cbn [kid_entry tkey map fst snd]; try reflexivity.
    - inversion B1 as [|? ? [B3 B4] _]; subst. rewrite (F1 _ _ _ _ _ _ R1 I1 eq_refl B3 B4). reflexivity.
    - inversion B1 as [|? ? [B3 B4] _]; subst. rewrite (F1 _ _ _ _ _ _ R1 I1 eq_refl B3 B4). reflexivity. }
  assert (BD : forall m fuel l path kp, rep_list hp m path kp 0 l -> Forall (fun m' => m < m') (flat_map mids l) ->
    length hp - m <= S fuel -> Forall (fun m' => length hp - m' <= fuel /\ m' < length hp) (flat_map mids l)).
  { intros m fuel l path kp R I L. pose proof (rep_list_bound _ _ _ _ _ _ R) as B. rewrite Forall_forall in *.
    intros x J. specialize (B x J). specialize (I x J). lia. }
  induction t using tree_ind'; intros par i path kp' m' fuel R I TM L LT; [discriminate| |].
  - cbn [tmid] in TM. injection TM as <-. apply rep_elem in R. destruct R as (-> & (md & N) & OK & RL). destruct I as [I1 I2].
    destruct fuel as [|fuel]; [lia|]. cbn [inst_at]. rewrite N. cbn [ms_children ms_lcs inst_of]. f_equal.
    eapply KL; eauto.
  - cbn [tmid] in TM. injection TM as <-. apply rep_comp in R. destruct R as ((md & N) & OK & RL). destruct I as [I1 I2].
    destruct fuel as [|fuel]; [lia|]. cbn [inst_at]. rewrite N. cbn [ms_children ms_lcs inst_of]. f_equal.
    eapply KL; eauto.
Qed.

(** ** Steps *)

Section Main.
Variable debug : bool.
Variable defs : nat -> val -> list raw -> body.
Variable root : cinst.

Notation Inv := (Inv root).
Notation served := (served defs).

Definition T0 : tree := TComp 0 None 0 root (Returned RNone) [].

Inductive stepped (s : st) (T : tree) : op -> st -> tree -> Prop :=
| St_env e : stepped s T (OEnv e) (env_step s e) T
| St_idle bs s' : served (set_env bs s) T (Ok None) s' T -> stepped s T (ORender bs) s' T
| St_update bs p m s' T' : served (set_env bs s) T (Ok (Some (p, m))) s' T' ->
    stepped s T (ORender bs) (set_log (s_log s' ++ [EvUpdate p m]) s') T'.

Lemma Inv_env s bs T : Inv s T -> Inv (set_env bs s) T.
Proof. apply Inv_same; try reflexivity. apply ext_eq; reflexivity. Qed.

Lemma step_ok fuel o s s' T : Inv s T -> step debug defs fuel o s = Some s' -> no_err s' ->
  exists T', stepped s T o s' T' /\ (texts debug (comps T) -> texts debug (comps T')).
Proof.
  intros I ST NE. destruct o as [bs|e]; simpl in ST; [|injection ST as <-; exists T; split; [constructor|auto]].
  destruct (serial_render debug defs fuel (s_queue s) (set_env bs s)) as [r s1] eqn:ER.
  assert (NF : r <> Fuel) by (intros ->; discriminate).
  assert (NE1 : no_err s1).
  { destruct r as [[[p m]|]|e'|]; try discriminate; injection ST as <-; [|exact NE|];
      (eapply no_err_ext; [|exact NE]; eexists; reflexivity). }
  destruct (served_ok debug defs root fuel (s_queue s) (set_env bs s) T r s1 (Inv_env _ bs _ I) eq_refl ER NF NE1) as (T' & SV & TX).
  destruct r as [[[p m]|]|e'|]; try discriminate.
  - injection ST as <-. exists T'. split; [constructor; exact SV|exact TX].
  - injection ST as <-. inversion SV; subst. exists T'. split; [constructor; constructor; auto|exact TX].
  - inversion SV.
Qed.

(** Shape of one render: everything known about it. *)
Lemma stepped_Inv s T o s' T' : Inv s T -> stepped s T o s' T' -> Inv s' T'.
Proof.
  intros I SP. destruct SP as [e|bs s' SV|bs p m s' T' SV].
  - destruct (quiet_env s e) as (A & B & C & D & E0). apply (Inv_same root s (env_step s e) T A E0 B); [|exact I]. exists []. rewrite app_nil_r. exact D.
  - inversion SV; subst. eapply Inv_same; [| | | |exact I]; try reflexivity. eexists; reflexivity.
  - assert (I' : Inv s' T').
    { inversion SV; subst. eapply sv_Inv with (s := set_env bs s); eauto. apply Inv_env; auto. }
    eapply Inv_same; [| | | |exact I']; try reflexivity. eexists; reflexivity.
Qed.

Lemma Inv_init : Inv (init root) T0.
Proof.
  constructor.
  - apply rep_comp. split; [eexists; reflexivity|]. split; [intros ? []|exact I].
  - split; [intros ? []|]. split; [constructor|exact I].
  - split; [constructor|exact I].
  - constructor; [intros []|constructor].
  - intros h [<-|[]]. simpl. lia.
  - intros x. reflexivity.
  - constructor. repeat constructor.
  - reflexivity.
  - constructor.
Qed.

(** The root keeps identity 0. *)
Definition rooted (T : tree) : Prop := exists m k c out kids, T = TComp m k 0 c out kids.

Lemma rc_keeps s m0 k h c0 out0 okids c s' t :
  rc defs s (Some (TComp m0 k h c0 out0 okids)) k c s' t -> ci_type c0 = ci_type c ->
  exists m out kids, t = TComp m k h c out kids.
Proof.
  intros R E. inversion R; subst; [|eauto].
  match goal with HH : _ \/ _ |- _ => destruct HH as [[X _]|(t0 & X & NS & _)] end; [discriminate|].
  injection X as <-. exfalso. apply NS. exact E.
Qed.

Lemma rooted_plug C told t : rooted (plug C told) -> (C = [] -> rooted t) -> rooted (plug C t).
Proof.
  destruct C as [|f C]; intros R A; [auto|]. cbn [plug] in *. destruct R as (m & k & c & out & kids & E).
  destruct f; simpl in E; [discriminate|]. injection E as -> -> -> -> -> _. red. simpl. eauto 10.
Qed.

Lemma stepped_rooted s T o s' T' : rooted T -> stepped s T o s' T' -> rooted T'.
Proof.
  intros R SP. destruct SP as [e|bs s' SV|bs p m s' T' SV]; auto. inversion SV; subst.
  eapply rooted_plug; [exact R|]. intros ->. simpl in R. destruct R as (m1 & k1 & c1 & o1 & kd1 & E). injection E as _ _ Eh _ _ _.
  match goal with RC : rc _ _ _ _ _ _ _ |- _ => destruct (rc_keeps _ _ _ _ _ _ _ _ _ _ RC eq_refl) as (m2 & o2 & kd2 & ET) end.
  rewrite ET, Eh. red. eauto 10.
Qed.

Lemma mounted_tree s T : Inv s T -> rooted T -> mounted s = Some (inst_of T).
Proof.
  intros I (m & k & c & out & kids & ET). unfold mounted. rewrite (i_reg _ _ _ I), ET. cbn [comps cregs map fst snd dget].
  destruct (eq_dec 0 0) as [_|X]; [|congruence]. f_equal.
  pose proof (rep_bound _ _ _ _ _ _ (i_rep _ _ _ I)) as B. rewrite ET in B. cbn [mids] in B. inversion B as [|? ? LT _]; subst.
  eapply inst_at_tree; [apply (i_rep _ _ _ I)|apply (i_incr _ _ _ I)|reflexivity| |exact LT]. lia.
Qed.

Lemma ids_tree T : rooted T -> wf T -> ids (inst_of T) = hids T.
Proof. intros (m & k & c & out & kids & ->) W. destruct (ids_inst _ W) as [[x X]|X]; [discriminate|exact X]. Qed.

(** ** The client *)

Definition fresh_phase (s : st) (T : tree) : Prop := updates (s_log s) = [] /\ T = T0 /\ In 0 (s_queue s).
Definition synced (s : st) (T : tree) : Prop := client (updates (s_log s)) = Some (Some (view T)).

Lemma client_snoc us u : client (us ++ [u]) = client_step (client us) u.
Proof. unfold client. rewrite fold_left_app. reflexivity. Qed.

Lemma queue_env s e x : In x (s_queue s) -> In x (s_queue (env_step s e)).
Proof. apply (hs_queue _ _ _ (hstep_env_step s e)). Qed.

Lemma plug_T0 C t : T0 = plug C t -> is_comp t -> C = [] /\ t = T0.
Proof.
  destruct C as [|f C]; intros E IC; [auto|]. exfalso. cbn [plug] in E. destruct f as [? ? ? ? ? ? ? ? ? l r|? ? ? ? ? l r]; simpl in E; [discriminate|].
  injection E as _ _ _ _ _ E. destruct l; discriminate.
Qed.

(** How the last render of [h] ended. *)
Definition fated (l : list event) (h : nat) (o : fate) : Prop :=
  match o with Returned _ => forall e, ~ last_failure l h e | Failed e _ => last_failure l h e end.

Record Base (s : st) (T : tree) : Prop := {
  b_inv : Inv s T;
  b_root : rooted T;
  b_phase : fresh_phase s T \/ synced s T;
  b_crash : no_crash (s_log s);
  b_fate : forall h m c o, In (h, (m, c, o)) (comps T) -> fated (s_log s) h o
}.

(** The log of one step. *)
Lemma stepped_log s T o s' T' : Inv s T -> stepped s T o s' T' ->
  (T' = T /\ (exists skips, s_log s' = s_log s ++ map EvSkip skips) /\ length (s_hooks s') = length (s_hooks s) /\
   ((exists e, s' = env_step s e) \/ ((forall x, In x (s_queue s) -> dget x (s_reg s) = None) /\ s_queue s' = []))) \/
  (exists skips l t s2 u told C h, s_log s' = s_log s ++ map EvSkip skips ++ l ++ effects_of (rev (hids t)) s2 ++ [EvUpdate (cpath C) (view t)] /\
     T = plug C told /\ T' = plug C t /\ u = (cpath C, view t) /\ is_comp told /\ hids told = h :: tl (hids told) /\
     rendered l = hids t /\ Permutation (unmounted l) (filter (fun x => negb (mem x (hids t))) (hids told)) /\ Forall ru l /\
     NoDup (hids t) /\
     (forall x, In x (hids t) -> In x (hids told) \/ length (s_hooks s) <= x) /\ length (s_hooks s) <= length (s_hooks s') /\
     put_at (cpath C) (view t) (view T) = Some (view T') /\
     inst_of T' = replace_inst h (inst_of t) (inst_of T) /\ occurs h (inst_of T) (inst_of told) /\
     evolves (fun x => length (s_hooks s) <= x) (Some (inst_of told)) (inst_of t) /\ is_comp t /\ seg l /\ Forall (traced l) (comps t)).
Proof.
  intros I SP. destruct SP as [e|bs s' SV|bs p m s' T' SV].
  - left. split; auto. split; [|split; [|left; eauto]]; [exists []; simpl; rewrite app_nil_r; apply (quiet_env s e)|apply (quiet_env s e)].
  - left. inversion SV; subst. split; auto. split; [simpl; eauto|]. split; [reflexivity|]. right. split; [assumption|reflexivity].
  - right. inversion SV; subst.
    match goal with RC : rc _ _ (Some ?td) _ _ _ _ |- _ => set (told := td) in * end.
    pose proof (Inv_env _ bs _ I) as I'.
    destruct (sv_log defs root (set_env bs s) (plug C told) skips h q' C m0 (tkey t) c out kids t s2 s3 hp) as (l & L1 & L2 & L3 & L4 & L5 & L6); auto.
    exists skips, l, t, s2, (cpath C, view t), told, C, h. simpl in L1. cbn [s_log set_log].
    split. { cbn [s_log set_stack set_heap]. rewrite L1. rewrite <- !app_assoc. reflexivity. }
    split; auto. split; auto. split; auto. split; [exact Logic.I|]. split; [reflexivity|]. split; auto. split; auto. split; auto.
    assert (HE : E (N (before (set_env bs s) skips q')) (comps told) (comps t) (N s2)).
    { eapply sv_E; [exact I'|reflexivity|eassumption]. }
    assert (HF := sv_facts defs root (set_env bs s) (plug C told) skips h q' C m0 (tkey t) c out kids t s2 s3).
    split; [exact (e_nodup _ _ _ _ HE)|].
    split. { intros x J. destruct (e_fresh _ _ _ _ HE x J) as [K|K]; [left; exact K|right; simpl in K; lia]. }
    split. { simpl. destruct HF as (_ & _ & _ & _ & _ & _ & F7 & _); auto. rewrite F7. exact (e_hooks _ _ _ _ HE). }
    split. { eapply sv_put with (s := set_env bs s); [exact I'|reflexivity|eassumption|assumption|reflexivity]. }
    pose proof (sv_inst root (set_env bs s) (plug C told) h C m0 (tkey t) c out kids t hp I' eq_refl ltac:(eassumption) ltac:(eassumption) eq_refl) as [A B].
    split; [exact A|]. split; [exact B|]. split; [|split; [assumption|split; [exact L5|exact L6]]].
    eapply sv_evolves with (s := set_env bs s); eauto.
Qed.

(** ** Preservation of [Base] *)

Lemma Base_init : Base (init root) T0.
Proof.
  constructor; [apply Inv_init|red; unfold T0; eauto 10| |intros e []|].
  - left. split; [reflexivity|]. split; [reflexivity|left; reflexivity].
  - intros h m c o [J|[]]. injection J as <- <- <- <-. intros e (l1 & l2 & E & _). destruct l1; discriminate.
Qed.

Lemma crash_app a b : no_crash a -> no_crash b -> no_crash (a ++ b).
Proof. intros A B e J. apply in_app_iff in J. destruct J; [eapply A|eapply B]; eauto. Qed.
Lemma crash_skips l : no_crash (map EvSkip l).
Proof. intros e J. apply in_map_iff in J. destruct J as (x & X & _). discriminate. Qed.
Lemma crash_effects l s : no_crash (effects_of l s).
Proof. intros e. unfold effects_of. intros J. apply in_map_iff in J. destruct J as (x & X & _). discriminate. Qed.
Lemma crash_ru l : Forall ru l -> no_crash l.
Proof. intros F e J. rewrite Forall_forall in F. apply F in J. exact J. Qed.

Lemma last_failure_app a b h e : last_failure a h e -> ~ In h (rendered b) -> last_failure (a ++ b) h e.
Proof.
  intros (x & y & -> & N) M. exists x, (y ++ b). rewrite <- app_assoc. split; [reflexivity|].
  rewrite rendered_app, in_app_iff. tauto.
Qed.
Lemma last_failure_inv a b h e : last_failure (a ++ b) h e -> (forall e', ~ In (EvError h e') b) -> last_failure a h e.
Proof.
  intros (x & y & E & N) M. apply app_eq_app in E. destruct E as (z & [[E1 E2]|[E1 E2]]).
  - destruct z as [|w z]; simpl in E2.
    + exfalso. apply (M e). rewrite <- E2. right; left; reflexivity.
    + injection E2 as <- E2. destruct z as [|w z]; simpl in E2.
      * exfalso. apply (M e). rewrite <- E2. left; reflexivity.
      * injection E2 as <- ->. exists x, z. split; [exact E1|]. rewrite rendered_app, in_app_iff in N. tauto.
  - exfalso. apply (M e). rewrite E2. apply in_or_app. right; right; left; reflexivity.
Qed.
(** A failure is logged right after its render. *)
Lemma last_returned p q h e : last_failure (p ++ EvRender h :: q) h e -> ~ In h (rendered q) -> exists q', q = EvError h e :: q'.
Proof.
  intros (x & y & E & N) M. symmetry in E. apply app_eq_app in E. destruct E as (z & [[E1 E2]|[E1 E2]]).
  - destruct z as [|w z]; simpl in E2; [injection E2 as E3; eauto|injection E2 as E2 E3]. exfalso. apply M. rewrite E3, rendered_app. apply in_or_app.
    right; left; reflexivity.
  - destruct z as [|w z]; simpl in E2; [injection E2 as E3; eauto|injection E2 as E2 E3]. exfalso. apply N.
    destruct z as [|w' z]; simpl in E3; [discriminate|]. injection E3 as _ ->. rewrite rendered_app. apply in_or_app. right; left; reflexivity.
Qed.
Lemma rendered_quiet (l : list event) : (forall e, In e l -> match e with EvRender _ => False | _ => True end) -> rendered l = [].
Proof.
  induction l as [|e l IH]; intros A; [reflexivity|]. pose proof (A e (or_introl eq_refl)) as X.
  destruct e; try contradiction; simpl; apply IH; intros; apply A; right; auto.
Qed.

Lemma stepped_fail s T op s' T' : Inv s T -> Inv s' T' -> stepped s T op s' T' ->
  (forall h m c o, In (h, (m, c, o)) (comps T) -> fated (s_log s) h o) ->
  forall h m c o, In (h, (m, c, o)) (comps T') -> fated (s_log s') h o.
Proof.
  intros I I' SP F.
  assert (KEEP : forall a b h o, fated a h o -> ~ In h (rendered b) -> (forall e, ~ In (EvError h e) b) -> fated (a ++ b) h o).
  { intros a b h [r|e x] FA NR NE; simpl in *; [|apply last_failure_app; auto].
    intros e LF. apply (FA e). eapply last_failure_inv; eauto. }
  assert (ES : forall sk h e, ~ In (EvError h e) (map EvSkip sk)).
  { intros sk h e J. apply in_map_iff in J. destruct J as (y & Y & _). discriminate. }
  assert (RS : forall sk, rendered (map EvSkip sk) = []).
  { intros sk. apply rendered_quiet. intros e J. apply in_map_iff in J. destruct J as (y & <- & _). exact Logic.I. }
  destruct (stepped_log _ _ _ _ _ I SP) as [(-> & [sk L] & LE & O)|(sk & l & t & s2 & u & told & Cx & h & L & ET & ET' & Eu & IC & Hh & L2 & L3 & L4 & ND & FR & LH & PUT & RI & OC & EV & ICt & SG & TR)].
  - intros h m c o J. rewrite L. apply KEEP; [eapply F; eauto| |apply ES]. rewrite RS. auto.
  - intros h' m c o J. rewrite L.
    assert (RE : rendered (effects_of (rev (hids t)) s2 ++ [EvUpdate (cpath Cx) (view t)]) = []).
    { apply rendered_quiet. intros y K. apply in_app_iff in K. destruct K as [K|[<-|[]]]; [|exact Logic.I].
      unfold effects_of in K. apply in_map_iff in K. destruct K as (z & <- & _). exact Logic.I. }
    assert (EE : forall e, ~ In (EvError h' e) (effects_of (rev (hids t)) s2 ++ [EvUpdate (cpath Cx) (view t)])).
    { intros e K. apply in_app_iff in K. destruct K as [K|[K|[]]]; [|discriminate].
      unfold effects_of in K. apply in_map_iff in K. destruct K as (z & Z & _). discriminate. }
    rewrite ET', comps_plug, !in_app_iff in J.
    assert (O : In (h', (m, c, o)) (comps t) \/ In (h', (m, c, o)) (cA Cx ++ cB Cx)) by (rewrite in_app_iff; tauto).
    destruct O as [O|O].
    + rewrite Forall_forall in TR. destruct (TR _ O) as (a & b & El & NB). cbn [fst snd] in El, NB.
      rewrite <- L2, El in ND. rewrite rendered_app in ND. destruct o as [r|e x]; cbn [ended app] in El, ND; cbn [fated].
      { intros e LF. rewrite El, <- !app_assoc in LF. rewrite (app_assoc (s_log s)), (app_assoc (s_log s ++ _)) in LF. simpl in LF.
        apply last_returned in LF.
        - destruct LF as [q E]. discriminate.
        - cbn [app rendered flat_map]. rewrite rendered_app, RE, app_nil_r. apply NoDup_remove_2 in ND. intros K. apply ND. apply in_or_app. right. exact K. }
      exists (s_log s ++ map EvSkip sk ++ a), (b ++ effects_of (rev (hids t)) s2 ++ [EvUpdate (cpath Cx) (view t)]).
      split; [rewrite El, <- !app_assoc; reflexivity|]. rewrite rendered_app, RE, app_nil_r.
      apply NoDup_remove_2 in ND. intros K. apply ND. apply in_or_app. auto.
    + assert (NL : ~ In h' (rendered l)).
      { rewrite L2. 
        pose proof (i_nodup _ _ _ I') as NT. rewrite ET', hids_plug in NT. intros K. apply in_app_iff in O.
        destruct O as [O|O]; apply (in_map fst) in O; cbn [fst] in O; fold (keys (cA Cx)) in O; fold (keys (cB Cx)) in O.
        - eapply NoDup_app_disj in O; [|exact NT]. apply O. apply in_or_app; auto.
        - apply NoDup_app_r in NT. eapply NoDup_app_disj in K; [|exact NT]. auto. }
      apply KEEP.
      * apply (F h' m c o). rewrite ET, comps_plug, !in_app_iff in *. tauto.
      * rewrite rendered_app, RS, rendered_app, RE, app_nil_r. exact NL.
      * intros e K. rewrite !in_app_iff in K. destruct K as [K|[K|K]].
        -- apply (ES _ _ _ K).
        -- apply NL. apply (seg_error l SG h' e K).
        -- apply (EE e). apply in_app_iff. exact K.
Qed.

Lemma stepped_Base s T o s' T' : Base s T -> stepped s T o s' T' -> Base s' T'.
Proof.
  intros [I R P C F] SP. constructor; [eapply stepped_Inv; eauto|eapply stepped_rooted; eauto| | |eapply stepped_fail; eauto using stepped_Inv].
  - destruct (stepped_log _ _ _ _ _ I SP) as [(-> & [sk L] & LE & O)|(sk & l & t & s2 & u & told & Cx & h & L & ET & ET' & Eu & IC & Hh & L2 & L3 & L4 & ND & FR & LH & PUT & _)].
    + assert (U : updates (s_log s') = updates (s_log s)) by (rewrite L, updates_app, updates_skips, app_nil_r; reflexivity).
      destruct P as [(P1 & P2 & P3)|P]; [left|right; red; rewrite U; exact P].
      split; [rewrite U; exact P1|]. split; [exact P2|].
      destruct O as [[e ->]|[O1 O2]]; [apply queue_env; auto|]. exfalso. specialize (O1 0 P3).
      rewrite (i_reg _ _ _ I), P2 in O1. discriminate.
    + right. red.
      assert (U : updates (s_log s') = updates (s_log s) ++ [u]).
      { rewrite L, !updates_app, updates_skips, updates_effects, (updates_ru l L4). subst u. reflexivity. }
      rewrite U, client_snoc. destruct P as [(P1 & P2 & P3)|P].
      * rewrite P1. rewrite P2 in ET. destruct (plug_T0 _ _ ET IC) as [-> ->]. subst u T'. reflexivity.
      * rewrite P. subst u. unfold client_step. cbn [fst snd].
        destruct (cpath Cx) eqn:EC.
        -- cbn [put_at] in PUT. injection PUT as ->. reflexivity.
        -- rewrite PUT. reflexivity.
  - destruct (stepped_log _ _ _ _ _ I SP) as [(-> & [sk L] & LE & O)|(sk & l & t & s2 & u & told & Cx & h & L & ET & ET' & Eu & IC & Hh & L2 & L3 & L4 & _)].
    + rewrite L. apply crash_app; auto. apply crash_skips.
    + rewrite L. apply crash_app; auto. apply crash_app; [apply crash_skips|]. apply crash_app; [apply crash_ru; auto|].
      apply crash_app; [apply crash_effects|]. intros e [J|[]]. discriminate.
Qed.

(** ** Unmounting *)

Fixpoint silent (l : list event) : Prop :=
  match l with
  | [] => True
  | EvUnmount h :: l' => (forall e, In e l' -> ~ about h e) /\ silent l'
  | _ :: l' => silent l'
  end.
Lemma silent_spec l : silent l -> silent_after_unmount l.
Proof.
  induction l as [|e l IH]; intros S l1 h l2 E.
  - destruct l1; discriminate.
  - destruct l1 as [|e1 l1]; simpl in E.
    + injection E as -> ->. apply S.
    + injection E as -> ->. apply (IH ltac:(destruct e1; simpl in S; tauto) l1 h l2 eq_refl).
Qed.
Lemma unmounted_In h l : In h (unmounted l) <-> In (EvUnmount h) l.
Proof.
  unfold unmounted. rewrite in_flat_map. split.
  - intros (e & J & K). destruct e; simpl in K; try contradiction. destruct K as [->|[]]. auto.
  - intros J. exists (EvUnmount h). simpl; auto.
Qed.
Lemma rendered_In h l : In h (rendered l) <-> In (EvRender h) l.
Proof.
  unfold rendered. rewrite in_flat_map. split.
  - intros (e & J & K). destruct e; simpl in K; try contradiction. destruct K as [->|[]]. auto.
  - intros J. exists (EvRender h). simpl; auto.
Qed.
Lemma silent_app l x : silent l -> silent x -> (forall h e, In h (unmounted l) -> In e x -> ~ about h e) -> silent (l ++ x).
Proof.
  induction l as [|e l IH]; intros S X D; simpl; auto.
  assert (D' : forall h e0, In h (unmounted l) -> In e0 x -> ~ about h e0).
  { intros h e0 J K. apply D; auto. unfold unmounted. cbn [flat_map]. apply in_or_app; auto. }
  destruct e; simpl in S; auto. destruct S as [S1 S2]. split; auto.
  intros e J. apply in_app_iff in J. destruct J as [J|J]; auto. apply D; auto. left; auto.
Qed.
Lemma silent_of x : NoDup (unmounted x) -> (forall h e, In h (unmounted x) -> In e x -> about h e -> e = EvUnmount h) -> silent x.
Proof.
  induction x as [|e x IH]; intros ND A; simpl; auto.
  assert (A' : forall h e0, In h (unmounted x) -> In e0 x -> about h e0 -> e0 = EvUnmount h).
  { intros h e0 J K. apply A; [unfold unmounted; cbn [flat_map]; apply in_or_app; auto|right; auto]. }
  destruct e; simpl; try (apply IH; auto; fail). simpl in ND. inversion ND as [|? ? NI ND']; subst. split; [|apply IH; auto].
  intros e J AB. assert (e = EvUnmount h) by (apply A; simpl; auto). subst e. apply NI. apply unmounted_In; auto.
Qed.

Record Acc (s : st) (T : tree) : Prop := {
  a_nodup : NoDup (unmounted (s_log s));
  a_out : forall x, In x (unmounted (s_log s)) -> ~ In x (hids T) /\ x < length (s_hooks s);
  a_in : forall x, In x (rendered (s_log s)) -> In x (hids T) \/ In x (unmounted (s_log s));
  a_silent : silent (s_log s)
}.

(** Extending the log by a pass in which [A] was replaced by [B]. *)
Lemma Acc_pass (s : st) (T T' : tree) (x : list event) (A B : list nat) n :
  Acc s T ->
  rendered x = B -> Permutation (unmounted x) (filter (fun y => negb (mem y B)) A) ->
  NoDup A -> (forall y, In y A -> In y (hids T)) -> (forall y, In y (hids T) -> y < length (s_hooks s)) ->
  (forall y, In y B -> In y A \/ length (s_hooks s) <= y) -> length (s_hooks s) <= n ->
  (forall e h, In e x -> about h e -> In h B \/ e = EvUnmount h) ->
  (forall y, In y (hids T') <-> (In y (hids T) /\ ~ In y A) \/ In y B) ->
  NoDup (unmounted (s_log s ++ x)) /\
  (forall y, In y (unmounted (s_log s ++ x)) -> ~ In y (hids T') /\ y < n) /\
  (forall y, In y (rendered (s_log s ++ x)) -> In y (hids T') \/ In y (unmounted (s_log s ++ x))) /\
  silent (s_log s ++ x).
Proof.
  intros [A1 A2 A3 A4] RB PU NA AT LT BF LN AB HT.
  assert (UX : forall y, In y (unmounted x) <-> In y A /\ ~ In y B).
  { intros y. rewrite (Permutation_in' eq_refl PU), filter_In, negb_true_iff, mem_not_In. reflexivity. }
  assert (NX : NoDup (unmounted x)).
  { eapply Permutation_NoDup; [apply Permutation_sym; exact PU|]. apply NoDup_filter; exact NA. }
  rewrite unmounted_app, rendered_app. split; [|split; [|split]].
  - revert A1 A2. generalize (unmounted (s_log s)). intros l. induction l as [|a l IH]; simpl; intros A1 A2; auto.
    inversion A1; subst. constructor.
    + rewrite in_app_iff. intros [J|J]; auto. apply UX in J. destruct (A2 a) as [X _]; auto. apply X, AT. tauto.
    + apply IH; auto.
  - intros y J. rewrite in_app_iff in J. destruct J as [J|J].
    + destruct (A2 y J) as [X Y]. split; [|lia]. rewrite HT. intros [[K1 K2]|K]; [auto|].
      destruct (BF y K) as [K'|K']; [apply X, AT; auto|lia].
    + apply UX in J. split; [rewrite HT; tauto|]. specialize (LT y (AT y (proj1 J))). lia.
  - intros y J. rewrite in_app_iff in J. destruct J as [J|J].
    + destruct (A3 y J) as [K|K]; [|right; apply in_or_app; auto].
      destruct (in_dec Nat.eq_dec y A) as [YA|NYA]; [|left; apply HT; auto].
      destruct (in_dec Nat.eq_dec y B) as [YB|NYB]; [left; apply HT; auto|].
      right. apply in_or_app. right. apply UX; auto.
    + left. rewrite RB in J. apply HT; auto.
  - apply silent_app; auto.
    + apply silent_of; auto. intros h e J K AE. apply UX in J. destruct (AB e h K AE) as [X|X]; [tauto|exact X].
    + intros h e J K AE. destruct (A2 h J) as [X Y]. destruct (AB e h K AE) as [Z|Z].
      * destruct (BF h Z) as [K'|K']; [apply X, AT; auto|lia].
      * subst e. assert (Q : In h (unmounted x)) by (apply unmounted_In; auto). apply UX in Q. apply X, AT; tauto.
Qed.

Lemma um_quiet (l : list event) : (forall e, In e l -> forall h, ~ about h e) -> unmounted l = [] /\ rendered l = [].
Proof.
  induction l as [|e l IH]; intros A; [split; reflexivity|].
  destruct IH as [I1 I2]; [intros; apply A; right; auto|].
  pose proof (A e (or_introl eq_refl)) as X. unfold unmounted, rendered in *. cbn [flat_map]. rewrite I1, I2.
  destruct e as [h|h r|h e|h|h es|h|pa m|e]; simpl; split; auto; exfalso; apply (X h); reflexivity.
Qed.

Lemma effects_facts l s : unmounted (effects_of l s) = [] /\ rendered (effects_of l s) = [] /\
  forall e h, In e (effects_of l s) -> about h e -> In h l.
Proof.
  split; [|split].
  - induction l; simpl; auto.
  - induction l; simpl; auto.
  - intros e h J AE. unfold effects_of in J. apply in_map_iff in J. destruct J as (x & <- & J). simpl in AE. subst; auto.
Qed.

Lemma Acc_init : Acc (init root) T0.
Proof. constructor; simpl; try (intros ? []); [constructor|exact I]. Qed.

Lemma skip_not_about sk e h : In e (map EvSkip sk) -> ~ about h e.
Proof. intros J. apply in_map_iff in J. destruct J as (x & <- & _). exact (fun f => f). Qed.

Lemma hids_plug_iff C told t : NoDup (hids (plug C told)) ->
  forall y, In y (hids (plug C t)) <-> (In y (hids (plug C told)) /\ ~ In y (hids told)) \/ In y (hids t).
Proof.
  intros ND y. rewrite !hids_plug, !in_app_iff. rewrite hids_plug in ND. split.
  - intros [J|[J|J]]; [left|right; auto|left].
    + split; auto. intros K. eapply NoDup_app_disj in J; [|exact ND]. apply J. apply in_or_app; auto.
    + split; auto. intros K. apply NoDup_app_r in ND. eapply NoDup_app_disj in K; [|exact ND]. auto.
  - tauto.
Qed.

Lemma stepped_Acc s T o s' T' : Base s T -> Acc s T -> stepped s T o s' T' -> Acc s' T'.
Proof.
  intros BS AC SP. pose proof (b_inv _ _ BS) as I.
  pose proof (stepped_Inv _ _ _ _ _ I SP) as I'.
  destruct (stepped_log _ _ _ _ _ I SP) as [(-> & [sk L] & LE & O)|(sk & l & t & s2 & u & told & Cx & h & L & ET & ET' & Eu & IC & Hh & L2 & L3 & L4 & ND & FR & LH & _ & _ & _ & _ & _ & SG & _)].
  - destruct AC as [A1 A2 A3 A4].
    destruct (um_quiet (map EvSkip sk)) as [U1 U2]; [intros e J h; eapply skip_not_about; eauto|].
    constructor; rewrite L, ?unmounted_app, ?rendered_app, ?U1, ?U2, ?app_nil_r; auto.
    + intros x J. destruct (A2 x J). split; auto. lia.
    + apply silent_app; auto.
      * apply silent_of; rewrite U1; [constructor|intros ? ? []].
      * intros x e J K. eapply skip_not_about; eauto.
  - destruct (effects_facts (rev (hids t)) s2) as (E1 & E2 & E3).
    destruct (um_quiet (map EvSkip sk)) as [U1 U2]; [intros e J y; eapply skip_not_about; eauto|].
    set (x := map EvSkip sk ++ l ++ effects_of (rev (hids t)) s2 ++ [EvUpdate (cpath Cx) (view t)]) in *.
    assert (UX : unmounted x = unmounted l) by (unfold x; rewrite !unmounted_app, U1, E1; simpl; rewrite app_nil_r; reflexivity).
    assert (RX : rendered x = rendered l) by (unfold x; rewrite !rendered_app, U2, E2; simpl; rewrite app_nil_r; reflexivity).
    destruct (Acc_pass s T T' x (hids told) (hids t) (length (s_hooks s'))) as (Q1 & Q2 & Q3 & Q4); auto.
    + rewrite RX; exact L2.
    + rewrite UX; exact L3.
    + pose proof (i_nodup _ _ _ I) as NT. rewrite ET, hids_plug in NT. apply NoDup_app_r, NoDup_app_l in NT. exact NT.
    + intros y J. rewrite ET, hids_plug, !in_app_iff. auto.
    + apply (i_lt _ _ _ I).
    + intros e y J AE. unfold x in J. rewrite !in_app_iff in J. destruct J as [J|[J|[J|[J|[]]]]].
      * exfalso. exact (skip_not_about _ _ _ J AE).
      * rewrite Forall_forall in L4. pose proof (L4 e J) as X. destruct e; simpl in X; try contradiction; simpl in AE; subst.
        -- left. rewrite <- L2. apply rendered_In; auto.
        -- left. rewrite <- L2. apply (seg_return l SG y r J).
        -- left. rewrite <- L2. apply (seg_error l SG y e J).
        -- right; reflexivity.
      * left. apply (E3 e y) in J; [|exact AE]. apply in_rev in J. exact J.
      * subst e. contradiction.
    + subst T T'. apply hids_plug_iff. apply (i_nodup _ _ _ I).
    + constructor; rewrite L; auto.
Qed.

End Main.
