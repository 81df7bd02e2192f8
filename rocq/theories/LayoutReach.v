(** * Consequences of the history invariants; proof-side only *)
From Coq Require Import String ZArith Bool Arith Lia List Permutation.
From Verif Require Import Dict Strings LayoutTypes LayoutModel BodySpec DisplaySpec GuardSpec LayoutObs LayoutTree LayoutDeriv LayoutExec
  LayoutFacts LayoutSettled LayoutContext LayoutHandlers LayoutShape LayoutOps LayoutNoCrash LayoutStep LayoutInv LayoutMain
  LayoutLive LayoutPending LayoutRun LayoutClose LayoutHistory.
Import ListNotations.
Local Open Scope string_scope.
Local Open Scope list_scope.

Lemma evolves_mono (P Q : nat -> Prop) : (forall x, P x -> Q x) -> forall old new, evolves P old new -> evolves Q old new.
Proof.
  intros PQ. fix IH 3. intros old new E.
  assert (KL : forall os ns, evolves_all P os ns -> evolves_all Q os ns).
  { fix IHl 3. intros os ns EA. destruct EA; constructor; auto. }
  destruct E; constructor; auto.
Qed.

Lemma no_failure_mild l : no_failure l -> mild_failures l.
Proof. intros N l1 h e l2 ->. exfalso. apply (N h e). apply in_or_app. right; left; reflexivity. Qed.

Lemma last_failure_fun l h e1 e2 : last_failure l h e1 -> last_failure l h e2 -> e1 = e2.
Proof.
  intros (a & b & -> & N) F. apply last_returned in F; [|simpl; exact N]. destruct F as [q E]. injection E as -> _. reflexivity.
Qed.
Lemma error_text_fun debug e x y : raised e -> error_text debug e x -> error_text debug e y -> x = y.
Proof. intros [->|[m ->]]; destruct debug; simpl; congruence. Qed.

Section Reach.
Variable debug : bool.
Variable defs : nat -> val -> list raw -> body.
Variable root : cinst.

Notation All := (All defs root).
Notation stepped := (stepped defs).

Lemma hist_texts ops s : history debug defs root ops s -> mild_failures (s_log s) -> exists T, All s T /\ texts debug (comps T).
Proof. intros [f R] NE. eapply reach_All; eauto. Qed.
Lemma hist_All ops s : history debug defs root ops s -> mild_failures (s_log s) -> exists T, All s T.
Proof. intros H NE. destruct (hist_texts _ _ H NE) as (T & A & _). eauto. Qed.

Lemma hist_next ops s o s' : history debug defs root ops s -> next debug defs s o s' -> mild_failures (s_log s') ->
  exists T T', All s T /\ stepped s T o s' T' /\ All s' T'.
Proof.
  intros H [f ST] NE. assert (NE1 : mild_failures (s_log s)) by (eapply no_err_ext; [eapply step_ext; eauto|exact NE]).
  destruct (hist_All _ _ H NE1) as [T A].
  destruct (step_ok debug defs root f o s s' T (b_inv _ _ _ (al_base _ _ _ _ A)) ST NE) as (T' & SP & _).
  exists T, T'. split; [auto|]. split; auto. eapply stepped_All; eauto.
Qed.

Lemma All_mounted s T n : All s T -> mounted s = Some n -> n = inst_of T /\ ids n = hids T.
Proof.
  intros A M. pose proof (al_base _ _ _ _ A) as B.
  rewrite (mounted_tree root _ _ (b_inv _ _ _ B) (b_root _ _ _ B)) in M. injection M as <-. split; auto.
  apply ids_tree; [apply (b_root _ _ _ B)|apply (i_wf _ _ _ (b_inv _ _ _ B))].
Qed.
Lemma All_is_mounted s T : All s T -> mounted s = Some (inst_of T).
Proof. intros A. pose proof (al_base _ _ _ _ A) as B. apply (mounted_tree root _ _ (b_inv _ _ _ B) (b_root _ _ _ B)). Qed.

(** Once something was sent, the client holds the view. *)
Lemma All_client s T : All s T -> updates (s_log s) <> [] \/ ~ In 0 (s_queue s) -> client (updates (s_log s)) = Some (Some (view T)).
Proof.
  intros A O. destruct (b_phase _ _ _ (al_base _ _ _ _ A)) as [(P1 & P2 & P3)|P]; [|exact P]. tauto.
Qed.

Lemma root_in s T : All s T -> In 0 (hids T).
Proof. intros A. destruct (b_root _ _ _ (al_base _ _ _ _ A)) as (m & k & c & out & kids & ->). left; reflexivity. Qed.

Lemma All_ctx s T : steady_app defs -> All s T -> updates (s_log s) <> [] \/ ~ In 0 (s_queue s) -> ctx_ok s no_ctx T.
Proof.
  intros SA A O. destruct (l_ctx _ _ _ _ (al_live _ _ _ _ A SA)) as [(ET & U & P)|C]; [|exact C].
  pose proof (All_client s T A O) as CL. rewrite U in CL. discriminate.
Qed.

(** ** Display *)

Lemma reach_display ops s n : history debug defs root ops s -> mild_failures (s_log s) -> mounted s = Some n ->
  updates (s_log s) <> [] \/ ~ In 0 (s_queue s) ->
  exists M binds, client (updates (s_log s)) = Some (Some M) /\
    displays (fun _ _ _ _ => True) no_ctx (RComp root) M n binds /\
    (steady_app defs -> displays (current debug defs s) no_ctx (RComp root) M n binds /\
                        displays (fun h c env _ => forall y, dget y (hk_ctx (get_hook h s)) = visible c env y) no_ctx (RComp root) M n binds) /\
    (keyed_app defs root -> NoDup (dkeys binds) /\ forall x, dget x (s_eh s) = dget x binds).
Proof.
  intros H NF MT O. destruct (hist_texts _ _ H NF) as (T & A & TX). destruct (All_mounted _ _ _ A MT) as [-> _].
  pose proof (b_inv _ _ _ (al_base _ _ _ _ A)) as I.
  exists (view T), (tgts T). split; [apply All_client; auto|]. split; [|split].
  - eapply displays_tree; [exact I|apply all_out_true].
  - intros SA. pose proof (All_ctx _ _ SA A O) as CX. split.
    + eapply displays_tree; [exact I|]. apply all_out_current; auto. intros i J. split; [apply (l_good _ _ _ _ (al_live _ _ _ _ A SA) i J)|].
      destruct i as [h [[m c] o]]. split; [exact (b_fate _ _ _ (al_base _ _ _ _ A) _ _ _ _ J)|].
      intros h1 m1 c1 e1 x1 [E|[]]. rewrite E in J. exact (TX _ _ _ _ _ J).
    + eapply displays_tree; [exact I|]. apply all_out_ctx; auto.
  - intros KA. pose proof (al_hand _ _ _ _ A KA) as HD. split; [|apply (hd_tab _ _ HD)].
    eapply tgts_NoDup; [eapply rep_kpok; apply (i_rep _ _ _ I)|apply (hd_tok _ _ HD)|apply (i_wf _ _ _ I)].
Qed.

Lemma quiescent_root ops s n : history debug defs root ops s -> mild_failures (s_log s) -> mounted s = Some n -> quiescent s n -> ~ In 0 (s_queue s).
Proof.
  intros H NF MT Q. destruct (hist_All _ _ H NF) as [T A]. destruct (All_mounted _ _ _ A MT) as [-> EI].
  apply Q. rewrite EI. eapply root_in; eauto.
Qed.

Lemma reach_quiescent ops s n : steady_app defs -> history debug defs root ops s -> mild_failures (s_log s) -> mounted s = Some n ->
  quiescent s n ->
  exists M binds, client (updates (s_log s)) = Some (Some M) /\
    displays (right debug defs s) no_ctx (RComp root) M n binds.
Proof.
  intros SA H NF MT Q. pose proof (quiescent_root _ _ _ H NF MT Q) as Q0.
  destruct (reach_display _ _ _ H NF MT (or_intror Q0)) as (M & b & CL & _ & D & _). destruct (D SA) as [D1 _].
  exists M, b. split; auto. destruct (displays_impl (current debug defs s) (right debug defs s)) as [X _].
  eapply X; [exact D1|]. intros h c env out J [K|K]; [|exact K]. exfalso. eapply Q; eauto.
Qed.

(** ** Registry *)

Lemma reach_registry ops s n : history debug defs root ops s -> mild_failures (s_log s) -> mounted s = Some n ->
  NoDup (ids n) /\ forall h, dget h (s_reg s) <> None <-> In h (ids n).
Proof.
  intros H NF MT. destruct (hist_All _ _ H NF) as [T A]. destruct (All_mounted _ _ _ A MT) as [-> EI].
  pose proof (b_inv _ _ _ (al_base _ _ _ _ A)) as I. rewrite EI. split; [apply (i_nodup _ _ _ I)|].
  intros h. rewrite (i_reg _ _ _ I). unfold hids. rewrite cregs_None. destruct (in_dec Nat.eq_dec h (map fst (comps T))); unfold keys in *; tauto.
Qed.

Lemma reach_mounted ops s : history debug defs root ops s -> mild_failures (s_log s) -> exists n, mounted s = Some n.
Proof. intros H NF. destruct (hist_All _ _ H NF) as [T A]. exists (inst_of T). apply All_is_mounted; auto. Qed.

(** The next queued component is rendered iff it is mounted. *)
Lemma reach_serve ops s n h q bs s' : history debug defs root ops s -> mounted s = Some n -> s_queue s = h :: q ->
  next debug defs s (ORender bs) s' -> mild_failures (s_log s') ->
  exists l, added s s' l /\
    (In h (ids n) -> In h (rendered l) /\ (forall x, ~ In (EvSkip x) l)) /\
    (~ In h (ids n) -> exists l', l = EvSkip h :: l').
Proof.
  intros H MT Q NX NF. assert (NF0 : mild_failures (s_log s)).
  { destruct NX as [f ST]. eapply no_err_ext; [eapply step_ext; eauto|exact NF]. }
  destruct (reach_registry _ _ _ H NF0 MT) as [_ RG].
  destruct (hist_next _ _ _ _ H NX NF) as (T & T' & A & SP & A'). destruct (All_mounted _ _ _ A MT) as [En EI].
  inversion SP as [|bs0 s0 SV|bs0 p m s0 T0' SV]; subst.
  - inversion SV as [NQ E1 E2|]; subst. simpl in NQ. exists (map EvSkip (h :: q)).
    split; [unfold added; simpl; rewrite Q; reflexivity|]. split.
    + intros J. apply RG in J. exfalso. apply J. apply NQ. rewrite Q. left; reflexivity.
    + intros _. simpl. eauto.
  - inversion SV; subst. cbn [s_queue set_env s_reg] in *.
    match goal with HH : _ = skips ++ _ |- _ => rename HH into QE end.
    match goal with RC : rc _ _ (Some ?td) _ _ _ _ |- _ => set (told := td) in *; rename RC into RCT end.
    pose proof (Inv_env root _ bs _ (b_inv _ _ _ (al_base _ _ _ _ A))) as I.
    destruct (sv_log defs root (set_env bs s) (plug C told) skips h0 q' C m0 (tkey t) c out kids t s2 s3 hp) as (l & L1 & L2 & L3 & L4 & _); auto.
    assert (HT : In h0 (hids (plug C told))) by (rewrite hids_plug, !in_app_iff; right; left; left; reflexivity).
    eexists. split. { unfold added. cbn [s_log set_log set_stack set_heap]. simpl in L1. rewrite L1. rewrite <- !app_assoc. reflexivity. }
    rewrite Q in QE. destruct skips as [|h1 sk]; simpl in QE; injection QE as -> ->.
    + split; [|intros NI; exfalso; apply NI; rewrite EI; exact HT]. intros _.
      destruct (rc_keeps defs _ _ _ _ _ _ _ _ _ _ RCT eq_refl) as (m2 & o2 & kd2 & ETt).
      simpl. rewrite !rendered_app. split.
      * apply in_or_app. left. rewrite L2, ETt. left; reflexivity.
      * intros x J. rewrite !in_app_iff in J. destruct J as [J|[J|[J|[]]]]; [| |discriminate].
        -- rewrite Forall_forall in L4. apply L4 in J. exact J.
        -- unfold effects_of in J. apply in_map_iff in J. destruct J as (y & Y & _). discriminate.
    + split; [|intros _; simpl; eauto]. intros J. apply RG in J. exfalso. apply J.
      match goal with HH : forall x, In x (h1 :: sk) -> _ = None |- _ => apply HH; left; reflexivity end.
Qed.

(** ** Identity, unmounting, effects *)

(** One update: some mounted instance [h] is re-rendered. *)
Lemma reach_update ops s n bs s' p m : history debug defs root ops s -> mounted s = Some n ->
  next debug defs s (ORender bs) s' -> mild_failures (s_log s') -> updates (s_log s') = updates (s_log s) ++ [(p, m)] ->
  exists n' h x x' l skips es,
    mounted s' = Some n' /\ occurs h n x /\ n' = replace_inst h x' n /\
    evolves (fun id => ~ In id (rendered (s_log s))) (Some x) x' /\
    added s s' (map EvSkip skips ++ l ++ es ++ [EvUpdate p m]) /\
    rendered l = ids x' /\ effects_started es = rev (ids x') /\ (forall e, In e es -> exists h l, e = EvEffects h l) /\
    (forall e, In e l -> exists h, e = EvRender h \/ (exists r, e = EvReturn h r) \/ e = EvUnmount h \/ exists x, e = EvError h x) /\
    NoDup (unmounted l) /\
    (forall id, In id (unmounted l) <-> In id (ids n) /\ ~ In id (ids n')) /\
    (forall id, In id (ids x') -> In id (ids n')) /\ NoDup (ids x') /\
    (forall a h e b, l = a ++ EvError h e :: b -> exists a', a = a' ++ [EvRender h]).
Proof.
  intros H MT NX NF UP.
  destruct (hist_next _ _ _ _ H NX NF) as (T & T' & A & SP & A'). destruct (All_mounted _ _ _ A MT) as [En EI].
  pose proof (b_inv _ _ _ (al_base _ _ _ _ A)) as I. pose proof (b_inv _ _ _ (al_base _ _ _ _ A')) as I'.
  destruct (stepped_log defs root _ _ _ _ _ I SP) as [(-> & [sk L] & _)|(sk & l & t & s2 & u & told & C & h & L & ET & ET' & Eu & IC & Hh & L2 & L3 & L4 & ND & FR & LH & PUT & RI & OC & EV & ICt & SG & _)].
  - exfalso. rewrite L, updates_app, updates_skips, app_nil_r in UP. assert (X : length (updates (s_log s)) = length (updates (s_log s) ++ [(p, m)])) by congruence.
    rewrite app_length in X. simpl in X. lia.
  - assert (E : (p, m) = (cpath C, view t)).
    { rewrite L, !updates_app, updates_skips, updates_effects, (updates_ru l L4) in UP. simpl in UP. apply app_inv_head in UP. congruence. }
    injection E as -> ->.
    exists (inst_of T'), h, (inst_of told), (inst_of t), l, sk, (effects_of (rev (hids t)) s2).
    assert (W' : wf (plug C t)) by (rewrite <- ET'; apply (i_wf _ _ _ I')).
    assert (WT : wf t) by (eapply wf_sub; exact W').
    assert (IT : ids (inst_of t) = hids t).
    { destruct (ids_inst _ WT) as [[y ->]|X]; [contradiction|exact X]. }
    assert (IT' : ids (inst_of T') = hids T') by (apply (All_mounted _ _ _ A' (All_is_mounted _ _ A'))).
    split; [apply All_is_mounted; auto|]. split; [subst n; exact OC|]. split; [subst n; exact RI|]. split.
    { assert (MONO : forall old new, evolves (fun x => length (s_hooks s) <= x) old new -> evolves (fun id => ~ In id (rendered (s_log s))) old new).
      { apply evolves_mono. intros id GE J. destruct (a_in _ _ (al_acc _ _ _ _ A) id J) as [K|K].
        - pose proof (i_lt _ _ _ I id K). lia.
        - pose proof (a_out _ _ (al_acc _ _ _ _ A) id K) as [_ K']. lia. }
      apply MONO. exact EV. }
    split; [exact L|]. split; [rewrite IT; exact L2|]. rewrite IT, IT', EI. split.
    { unfold effects_of. generalize (rev (hids t)). intros z. induction z as [|a z IH]; simpl; auto. f_equal; exact IH. }
    split. { intros e J. unfold effects_of in J. apply in_map_iff in J. destruct J as (y & <- & _). eauto. }
    split. { intros e J. rewrite Forall_forall in L4. specialize (L4 e J). destruct e as [h0|h0 r0|h0 e0|h0|h0 es|h0|pa m0|e0]; simpl in L4; try contradiction; exists h0; eauto 6. }
    assert (NT : NoDup (hids told)) by (pose proof (i_nodup _ _ _ I) as NT; rewrite ET, hids_plug in NT; apply NoDup_app_r, NoDup_app_l in NT; exact NT).
    split. { eapply Permutation_NoDup; [apply Permutation_sym; exact L3|]. apply NoDup_filter; auto. }
    assert (HI := hids_plug_iff defs C told t ltac:(rewrite <- ET; apply (i_nodup _ _ _ I))).
    split.
    + intros id. rewrite (Permutation_in' eq_refl L3), filter_In, negb_true_iff, mem_not_In. rewrite ET', HI, <- ET. split.
      * intros [J NJ]. split; [rewrite ET, hids_plug, !in_app_iff; auto|tauto].
      * intros [J NJ]. split; [|tauto]. destruct (in_dec Nat.eq_dec id (hids told)); tauto.
    + split; [intros id J; rewrite ET', HI; auto|].
      split; [|exact (seg_prev l SG)].
      pose proof (i_nodup _ _ _ I') as NT'. rewrite ET', hids_plug in NT'. apply NoDup_app_r, NoDup_app_l in NT'. exact NT'.
Qed.

(** A step without an update leaves the mounted instances alone. *)
Lemma reach_no_update ops s n o s' : history debug defs root ops s -> mounted s = Some n ->
  next debug defs s o s' -> mild_failures (s_log s') -> updates (s_log s') = updates (s_log s) ->
  mounted s' = Some n /\ exists skips, added s s' (map EvSkip skips).
Proof.
  intros H MT NX NF UP.
  destruct (hist_next _ _ _ _ H NX NF) as (T & T' & A & SP & A'). destruct (All_mounted _ _ _ A MT) as [En EI].
  pose proof (b_inv _ _ _ (al_base _ _ _ _ A)) as I.
  destruct (stepped_log defs root _ _ _ _ _ I SP) as [(-> & [sk L] & _)|(sk & l & t & s2 & u & told & C & h & L & ET & ET' & Eu & IC & Hh & L2 & L3 & L4 & _)].
  - split; [subst n; apply All_is_mounted; auto|exists sk; exact L].
  - exfalso. rewrite L, !updates_app, updates_skips, updates_effects, (updates_ru l L4) in UP. simpl in UP.
    rewrite <- (app_nil_r (updates (s_log s))) in UP at 2. apply app_inv_head in UP. discriminate.
Qed.

(** A render step sends at most one update. *)
Lemma reach_updates ops s o s' : history debug defs root ops s -> next debug defs s o s' -> mild_failures (s_log s') ->
  updates (s_log s') = updates (s_log s) \/ exists p m, updates (s_log s') = updates (s_log s) ++ [(p, m)].
Proof.
  intros H NX NF. destruct (hist_next _ _ _ _ H NX NF) as (T & T' & A & SP & A').
  pose proof (b_inv _ _ _ (al_base _ _ _ _ A)) as I.
  destruct (stepped_log defs root _ _ _ _ _ I SP) as [(-> & [sk L] & _)|(sk & l & t & s2 & u & told & C & h & L & ET & ET' & Eu & IC & Hh & L2 & L3 & L4 & _)].
  - left. rewrite L, updates_app, updates_skips, app_nil_r. reflexivity.
  - right. exists (cpath C), (view t). rewrite L, !updates_app, updates_skips, updates_effects, (updates_ru l L4). reflexivity.
Qed.

(** The updates apply to the client's model one after the other. *)
Lemma reach_apply ops s bs s' p m : history debug defs root ops s -> next debug defs s (ORender bs) s' -> mild_failures (s_log s') ->
  updates (s_log s') = updates (s_log s) ++ [(p, m)] ->
  (updates (s_log s) = [] /\ p = []) \/
  exists M M', client (updates (s_log s)) = Some (Some M) /\ put_at p m M = Some M' /\ client (updates (s_log s')) = Some (Some M').
Proof.
  intros H NX NF UP. destruct (hist_next _ _ _ _ H NX NF) as (T & T' & A & SP & A').
  assert (C' : client (updates (s_log s')) = Some (Some (view T'))).
  { apply All_client; auto. left. rewrite UP. destruct (updates (s_log s)); discriminate. }
  rewrite UP in C'. unfold client in C'. rewrite fold_left_app in C'. simpl in C'. fold (client (updates (s_log s))) in C'.
  destruct (updates (s_log s)) as [|u us] eqn:EU.
  - left. split; auto. destruct p; auto. discriminate.
  - right. assert (C : client (u :: us) = Some (Some (view T))).
    { rewrite <- EU. apply All_client; auto. left. rewrite EU. discriminate. }
    exists (view T), (view T'). split; [exact C|]. rewrite UP. unfold client at 1. rewrite fold_left_app. simpl fold_left at 1.
    change (fold_left client_step us (client_step None u)) with (client (u :: us)). rewrite C in *.
    unfold client_step in *. simpl in C' |- *. destruct p as [|i p].
    + injection C' as ->. auto.
    + injection C' as C'. rewrite C'. auto.
Qed.

(** The unmounts of one update. *)
Lemma reach_unmounts ops s n n' bs s' l : history debug defs root ops s -> mounted s = Some n ->
  next debug defs s (ORender bs) s' -> mild_failures (s_log s') -> mounted s' = Some n' -> added s s' l ->
  NoDup (unmounted l) /\ forall id, In id (unmounted l) <-> In id (ids n) /\ ~ In id (ids n').
Proof.
  intros H MT NX NF MT' AD.
  assert (US : forall sk, unmounted (map EvSkip sk) = []) by (induction sk; auto).
  destruct (reach_updates _ _ _ _ H NX NF) as [E|(p & m & E)].
  - destruct (reach_no_update _ _ _ _ _ H MT NX NF E) as [M2 [sk S2]]. unfold added in *. rewrite S2 in AD. apply app_inv_head in AD. subst l.
    rewrite US. assert (n' = n) by congruence. subst. split; [constructor|]. simpl. tauto.
  - destruct (reach_update _ _ _ _ _ _ _ H MT NX NF E) as (n2 & h & x & x' & l2 & sk & es & A & B & C & EV & AD2 & R1 & R2 & R3 & R4 & R5 & R6 & R7 & R8 & R9).
    assert (E2 : n' = n2) by congruence. rewrite E2 in *. clear E2 C. unfold added in *. rewrite AD2 in AD. apply app_inv_head in AD. subst l.
    assert (UE : unmounted es = []).
    { clear - R3. induction es as [|e es IH]; auto. destruct (R3 e (or_introl eq_refl)) as (h & l & ->). simpl. apply IH. intros e J. apply R3. right; auto. }
    assert (UA : forall a b, unmounted (a ++ b) = unmounted a ++ unmounted b) by (intros; apply flat_map_app).
    rewrite !UA, US, UE. simpl. rewrite app_nil_r. split; [exact R5|exact R6].
Qed.

(** ** The whole log *)

Lemma reach_log ops s n : history debug defs root ops s -> mild_failures (s_log s) -> mounted s = Some n ->
  NoDup (unmounted (s_log s)) /\ silent_after_unmount (s_log s) /\
  (forall id, In id (unmounted (s_log s)) -> ~ In id (ids n)) /\
  (forall id, In id (rendered (s_log s)) -> In id (ids n) \/ In id (unmounted (s_log s))) /\ no_crash (s_log s).
Proof.
  intros H NF MT. destruct (hist_All _ _ H NF) as [T A]. destruct (All_mounted _ _ _ A MT) as [-> EI]. rewrite EI.
  destruct (al_acc _ _ _ _ A) as [A1 A2 A3 A4]. split; [auto|]. split; [apply silent_spec; auto|].
  split; [intros id J; apply (A2 id J)|]. split; [exact A3|apply (b_crash _ _ _ (al_base _ _ _ _ A))].
Qed.

Lemma reach_exit ops s n bs s' : history debug defs root ops s -> mild_failures (s_log s) -> mounted s = Some n -> exits s bs s' ->
  exists l, added s s' l /\ rendered l = [] /\ Permutation (unmounted l) (ids n) /\
    NoDup (unmounted (s_log s')) /\ (forall id, In id (rendered (s_log s')) -> In id (unmounted (s_log s'))) /\
    silent_after_unmount (s_log s') /\ (forall h, dget h (s_reg s') = None) /\
    (keyed_app defs root -> forall x, dget x (s_eh s') = None).
Proof.
  intros H NF MT [f EX]. destruct (hist_All _ _ H NF) as [T A]. destruct (All_mounted _ _ _ A MT) as [-> EI]. rewrite EI.
  destruct (close_facts defs root _ _ _ _ _ A EX) as (l & C1 & C2 & C3 & C4 & C5 & C6 & C7 & C8 & C9).
  exists l. repeat split; auto. apply silent_spec; auto.
Qed.

Lemma reach_exit_total ops s fuel bs r s' : keyed_app defs root -> history debug defs root ops s -> mild_failures (s_log s) ->
  close fuel (set_env bs s) = (r, s') -> r = Ok tt \/ r = Fuel.
Proof. intros KA H NF CL. destruct (hist_All _ _ H NF) as [T A]. eapply close_total; eauto. Qed.

(** ** Pending renders *)

Lemma reach_queue ops s : history debug defs root ops s -> mild_failures (s_log s) -> NoDup (s_queue s).
Proof. intros H NF. destruct (hist_All _ _ H NF) as [T A]. apply (p_nodup _ _ (al_pend _ _ _ _ A)). Qed.

Lemma reach_pending ops s n h o s' : history debug defs root ops s -> mounted s = Some n -> In h (ids n) -> In h (s_queue s) ->
  next debug defs s o s' -> mild_failures (s_log s') ->
  In h (s_queue s') \/ exists l, added s s' l /\ In h (rendered l).
Proof.
  intros H MT IN IQ NX NF. destruct (hist_next _ _ _ _ H NX NF) as (T & T' & A & SP & A'). destruct (All_mounted _ _ _ A MT) as [En EI].
  rewrite EI in IN.
  destruct (stepped_Pend defs root _ _ _ _ _ (b_inv _ _ _ (al_base _ _ _ _ A)) (al_pend _ _ _ _ A) SP) as [_ P].
  exact (P h IQ IN).
Qed.

Lemma reach_change ops s n n' h o s' l : steady_app defs -> history debug defs root ops s -> mounted s = Some n -> mounted s' = Some n' ->
  In h (ids n) -> In h (ids n') ->
  next debug defs s o s' -> mild_failures (s_log s') -> added s s' l -> ~ In h (rendered l) -> state_of s' h <> state_of s h ->
  In h (s_queue s').
Proof.
  intros SA H MT MT' IN IN' NX NF AD NR NS.
  destruct (hist_next _ _ _ _ H NX NF) as (T & T' & A & SP & A'). destruct (All_mounted _ _ _ A MT) as [En EI].
  destruct (All_mounted _ _ _ A' MT') as [En' EI']. rewrite EI in IN. rewrite EI' in IN'.
  pose proof (b_inv _ _ _ (al_base _ _ _ _ A)) as IV. pose proof (i_lt _ _ _ IV h IN) as LT.
  pose proof (p_sched _ _ (al_pend _ _ _ _ A') h IN') as PS.
  destruct SP as [e|bs s' SV|bs p m s' T' SV].
  - destruct (hs_hook _ _ _ (hstep_env_step s e) h I LT) as (_ & _ & _ & _ & _ & [[X _]|[X|[_ X]]]).
    + exfalso. apply NS. exact X.
    + exact X.
    + apply PS. exact X.
  - inversion SV; subst. exfalso. apply NS. reflexivity.
  - assert (IV' : Inv root (set_env bs s) T) by (apply Inv_env; exact IV). inversion SV; subst.
    match goal with RC : rc _ _ (Some ?td) _ _ _ _ |- _ => set (told := td) in *; rename RC into RCT end.
    destruct (sv_facts defs root (set_env bs s) (plug C told) skips h0 q' C m0 (tkey t) c out kids t s2 s3 IV' eq_refl RCT ltac:(assumption)) as (_ & _ & _ & F4 & _ & _ & F7 & F8 & F9).
    destruct (sv_log defs root (set_env bs s) (plug C told) skips h0 q' C m0 (tkey t) c out kids t s2 s3 hp IV' eq_refl RCT ltac:(assumption)) as (l0 & L1 & L2 & L3 & L4 & _).
    assert (NI : ~ In h (keys (comps t))).
    { intros J. apply NR. unfold added in AD. cbn [s_log set_log] in AD. rewrite L1 in AD. simpl in AD. rewrite <- !app_assoc in AD. apply app_inv_head in AD.
      subst l. rewrite !rendered_app, !in_app_iff. right; left. rewrite L2. exact J. }
    assert (RDY : forall i, In i (comps (plug C told)) -> ready (get_hook (fst i) (set_env bs s))).
    { intros i J. apply (l_good _ _ _ _ (al_live _ _ _ _ A SA) i J). }
    pose proof (sv_G defs root (set_env bs s) (plug C told) skips h0 q' C m0 (tkey t) c out kids t s2 IV' eq_refl RCT (proj1 SA) RDY) as [G1 _].
    destruct (hs_hook _ _ _ G1 h NI LT) as (_ & _ & _ & _ & _ & O). destruct (F9 h) as (H1 & _ & _ & H4 & _).
    change (get_hook h (N s2)) with (get_hook h s2) in O. change (get_hook h (N (before (set_env bs s) skips q'))) with (get_hook h s) in O.
    destruct O as [[X _]|[X|[_ X]]].
    + exfalso. apply NS. unfold state_of. cbn [s_log set_log]. change (get_hook h (set_log _ _)) with (get_hook h s3). rewrite H1. exact X.
    + simpl. rewrite F4. exact X.
    + apply PS. change (get_hook h (set_log _ _)) with (get_hook h s3). rewrite H4. exact X.
Qed.

End Reach.
