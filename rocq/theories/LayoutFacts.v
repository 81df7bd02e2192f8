(** * What a successful render does to registry, log, stacks and hooks

    Proof-side only: facts by induction over the derivations of LayoutDeriv.v. *)
From Coq Require Import String ZArith Bool Arith Lia List Permutation.
From Verif Require Import Dict LayoutTypes LayoutModel BodySpec DisplaySpec LayoutObs LayoutTree LayoutDeriv.
Import ListNotations.
Local Open Scope string_scope.
Local Open Scope list_scope.

Definition keys (A : list cinfo) : list nat := map fst A.
Definition cregs (A : list cinfo) : dict nat nat := map (fun i => (fst i, fst (fst (snd i)))) A.

Lemma keys_app A B : keys (A ++ B) = keys A ++ keys B.
Proof. apply map_app. Qed.
Lemma dkeys_cregs A : dkeys (cregs A) = keys A.
Proof. unfold dkeys, cregs, keys. rewrite map_map. auto. Qed.
Lemma cregs_app A B : cregs (A ++ B) = cregs A ++ cregs B.
Proof. apply map_app. Qed.
Lemma cregs_None A x : dget x (cregs A) = None <-> ~ In x (keys A).
Proof. rewrite <- dkeys_cregs. apply dget_None. Qed.
Lemma cregs_Some A x m : dget x (cregs A) = Some m -> In x (keys A).
Proof. rewrite <- dkeys_cregs. apply dget_Some_key. Qed.

(** What a render pass logs: renders, failures right after the render they belong to, and unmounts. *)
Inductive seg : list event -> Prop :=
| seg_nil : seg []
| seg_un h l : seg l -> seg (EvUnmount h :: l)
| seg_ok h r l : seg l -> seg (EvRender h :: EvReturn h r :: l)
| seg_fail h e l : seg l -> seg (EvRender h :: EvError h e :: l).
Lemma seg_app a b : seg a -> seg b -> seg (a ++ b).
Proof. intros H K. induction H; simpl; auto using seg_un, seg_ok, seg_fail. Qed.
Lemma seg_head h e l : ~ seg (EvError h e :: l).
Proof. intros H; inversion H. Qed.
Lemma seg_error l : seg l -> forall h e, In (EvError h e) l -> In h (rendered l).
Proof.
  induction 1 as [|h l S IH|h r l S IH|h e l S IH]; intros h0 e0 J; simpl in *; try contradiction.
  - destruct J as [J|J]; [discriminate|eauto].
  - destruct J as [J|[J|J]]; [discriminate|discriminate|eauto].
  - destruct J as [J|[J|J]]; [discriminate|injection J as <- <-; auto|eauto].
Qed.
Lemma seg_return l : seg l -> forall h r, In (EvReturn h r) l -> In h (rendered l).
Proof.
  induction 1 as [|h l S IH|h r l S IH|h e l S IH]; intros h0 r0 J; simpl in *; try contradiction.
  - destruct J as [J|J]; [discriminate|eauto].
  - destruct J as [J|[J|J]]; [discriminate|injection J as <- <-; auto|eauto].
  - destruct J as [J|[J|J]]; [discriminate|discriminate|eauto].
Qed.
Lemma seg_prev l : seg l -> forall a h e b, l = a ++ EvError h e :: b -> exists a', a = a' ++ [EvRender h].
Proof.
  induction 1 as [|h l S IH|h r l S IH|h e l S IH]; intros a h0 e0 b E.
  - destruct a; discriminate.
  - destruct a as [|x a]; simpl in E; [discriminate|]. injection E as <- E. destruct (IH _ _ _ _ E) as [a' ->]. exists (EvUnmount h :: a'). reflexivity.
  - destruct a as [|x a]; simpl in E; [discriminate|]. injection E as <- E. destruct a as [|y a]; simpl in E; [discriminate|]. injection E as <- E.
    destruct (IH _ _ _ _ E) as [a' ->]. exists (EvRender h :: EvReturn h r :: a'). reflexivity.
  - destruct a as [|x a]; simpl in E; [discriminate|]. injection E as <- E. destruct a as [|y a]; simpl in E.
    + injection E as <- _ _. exists []. reflexivity.
    + injection E as <- E. destruct (IH _ _ _ _ E) as [a' ->]. exists (EvRender h :: EvError h e :: a'). reflexivity.
Qed.
Definition ru (e : event) : Prop := match e with EvRender _ | EvReturn _ _ | EvUnmount _ | EvError _ _ => True | _ => False end.
Lemma seg_ru l : seg l -> Forall ru l.
Proof. induction 1; repeat constructor; auto. Qed.

(** How the log [l] of a pass shows the end of a component's render. *)
Definition ended (h : nat) (o : fate) : list event := match o with Returned r => [EvReturn h r] | Failed e _ => [EvError h e] end.
Definition traced (l : list event) (i : cinfo) : Prop :=
  exists a b, l = a ++ EvRender (fst i) :: ended (fst i) (snd (snd i)) ++ b /\ forall e b', b <> EvError (fst i) e :: b'.
Lemma traced_l a b i : seg b -> traced a i -> traced (a ++ b) i.
Proof.
  intros S (x & y & -> & H). exists x, (y ++ b). rewrite <- !app_assoc. simpl. rewrite <- !app_assoc. split; auto.
  intros e b' E. destruct y as [|z y]; simpl in E; [|injection E as -> _; eapply H; reflexivity].
  subst b. apply (seg_head _ _ _ S).
Qed.
Lemma traced_r a b i : traced b i -> traced (a ++ b) i.
Proof. intros (x & y & -> & H). exists (a ++ x), y. rewrite <- !app_assoc. auto. Qed.

Lemma rendered_app a b : rendered (a ++ b) = rendered a ++ rendered b.
Proof. apply flat_map_app. Qed.
Lemma unmounted_app a b : unmounted (a ++ b) = unmounted a ++ unmounted b.
Proof. apply flat_map_app. Qed.

(** Instances [A] were mounted before; [B] are mounted (and were all rendered) after. *)
Record E (s : st) (A B : list cinfo) (s' : st) : Prop := {
  e_hooks : length (s_hooks s) <= length (s_hooks s');
  e_fresh : forall x, In x (keys B) -> In x (keys A) \/ length (s_hooks s) <= x < length (s_hooks s');
  e_nodup : NoDup (keys B);
  e_reg : forall x, dget x (s_reg s') = match dget x (cregs B) with
                                        | Some m => Some m
                                        | None => if mem x (keys A) then None else dget x (s_reg s)
                                        end;
  e_log : exists l, s_log s' = s_log s ++ l /\ rendered l = keys B /\
                    Permutation (unmounted l) (filter (fun x => negb (mem x (keys B))) (keys A)) /\ seg l /\ Forall (traced l) B;
  e_stack : s_stack s' = s_stack s;
  e_exit : s_exit s' = rev (keys B) ++ s_exit s
}.

Lemma mem_perm {A} `{EqDec A} (x : A) l l' : Permutation l l' -> mem x l = mem x l'.
Proof.
  intros P. destruct (mem x l) eqn:E1; symmetry.
  - apply mem_In. apply mem_In in E1. eapply Permutation_in; eauto.
  - apply mem_not_In. apply mem_not_In in E1. intros I. apply E1.
    eapply Permutation_in; [apply Permutation_sym|]; eauto.
Qed.
Lemma mem_app {A} `{EqDec A} (x : A) l l' : mem x (l ++ l') = mem x l || mem x l'.
Proof. induction l; simpl; auto. destruct (eq_dec x a); auto. Qed.
Lemma filter_perm {A} (f : A -> bool) l l' : Permutation l l' -> Permutation (filter f l) (filter f l').
Proof.
  induction 1; simpl; auto.
  - destruct (f x); auto.
  - destruct (f x), (f y); auto. constructor.
  - eapply Permutation_trans; eauto.
Qed.
Lemma filter_ext_in' {A} (f g : A -> bool) l : (forall x, In x l -> f x = g x) -> filter f l = filter g l.
Proof. intros H. apply filter_ext_in. auto. Qed.

Lemma E_perm s A A' B s' : Permutation A A' -> E s A B s' -> E s A' B s'.
Proof.
  intros P [H1 H2 H3 H4 H5 H6 H7]. assert (PK : Permutation (keys A) (keys A')) by (apply Permutation_map; auto).
  constructor; auto.
  - intros x I. destruct (H2 x I); auto. left. eapply Permutation_in; eauto.
  - intros x. rewrite H4, (mem_perm _ _ _ PK). auto.
  - destruct H5 as (l & L1 & L2 & L3 & L4). exists l. split; auto. split; auto. split; auto.
    eapply Permutation_trans; [exact L3|]. apply filter_perm; auto.
Qed.

Lemma E_quiet s s' :
  s_reg s' = s_reg s -> length (s_hooks s') = length (s_hooks s) -> s_log s' = s_log s ->
  s_stack s' = s_stack s -> s_exit s' = s_exit s -> E s [] [] s'.
Proof.
  intros H1 H2 H3 H4 H5. constructor; simpl; try lia; try contradiction; try assumption; try constructor.
  - intros; rewrite H1; auto.
  - exists []. rewrite app_nil_r. repeat split; auto; try constructor.
Qed.
Lemma E_refl s : E s [] [] s.
Proof. apply E_quiet; auto. Qed.

Lemma E_seq s A1 B1 s1 A2 B2 s2 :
  E s A1 B1 s1 -> E s1 A2 B2 s2 -> NoDup (keys A1 ++ keys A2) ->
  (forall x, In x (keys A1 ++ keys A2) -> x < length (s_hooks s)) ->
  E s (A1 ++ A2) (B1 ++ B2) s2.
Proof.
  intros [H1 H2 H3 H4 H5 H6 H7] [K1 K2 K3 K4 K5 K6 K7] ND LT.
  assert (DA : forall x, In x (keys A1) -> ~ In x (keys A2)).
  { intros x I J. clear - ND I J. induction (keys A1); simpl in *; [contradiction|].
    inversion ND; subst. destruct I as [->|I]; auto. apply H1. apply in_or_app; auto. }
  assert (D1 : forall x, In x (keys B1) -> ~ In x (keys A2)).
  { intros x I J. destruct (H2 x I) as [Q|Q]; [eapply DA; eauto|].
    assert (x < length (s_hooks s)) by (apply LT; apply in_or_app; auto). lia. }
  assert (D2 : forall x, In x (keys B2) -> ~ In x (keys A1)).
  { intros x I J. destruct (K2 x I) as [Q|Q]; [eapply DA; eauto|].
    assert (x < length (s_hooks s)) by (apply LT; apply in_or_app; auto). lia. }
  assert (D3 : forall x, In x (keys B1) -> ~ In x (keys B2)).
  { intros x I J. destruct (K2 x J) as [Q|Q]; [eapply D1; eauto|].
    destruct (H2 x I) as [R|R]; [|lia].
    assert (x < length (s_hooks s)) by (apply LT; apply in_or_app; auto). lia. }
  constructor.
  - lia.
  - rewrite !keys_app. intros x I. apply in_app_iff in I. destruct I as [I|I].
    + destruct (H2 x I); [left; apply in_or_app; auto|right; lia].
    + destruct (K2 x I); [left; apply in_or_app; auto|right; lia].
  - rewrite keys_app. clear - H3 K3 D3. induction (keys B1); simpl; auto.
    inversion H3; subst. constructor.
    + intros I. apply in_app_iff in I. destruct I; auto. apply (D3 a); simpl; auto.
    + apply IHl; auto. intros x I. apply D3. right; auto.
  - intros x. rewrite K4, cregs_app, dget_app, H4, keys_app, mem_app.
    destruct (dget x (cregs B2)) eqn:E2.
    + destruct (dget x (cregs B1)) eqn:E1; auto. apply cregs_Some in E1, E2. exfalso; eapply D3; eauto.
    + destruct (dget x (cregs B1)) eqn:E1.
      * destruct (mem x (keys A2)) eqn:E3; auto. apply mem_In in E3. apply cregs_Some in E1. exfalso; eapply D1; eauto.
      * destruct (mem x (keys A2)), (mem x (keys A1)); auto.
  - destruct H5 as (l & L1 & L2 & L3 & L4). destruct K5 as (m & M1 & M2 & M3 & M4).
    exists (l ++ m). rewrite M1, L1, app_assoc, rendered_app, unmounted_app, !keys_app, L2, M2, filter_app.
    split; auto. split; auto. split.
    + apply Permutation_app.
      * erewrite filter_ext_in'; [exact L3|]. intros x I. simpl. rewrite mem_app.
        replace (mem x (keys B2)) with false; [rewrite orb_false_r; auto|].
        symmetry. apply mem_not_In. intros J. eapply D2; eauto.
      * erewrite filter_ext_in'; [exact M3|]. intros x I. simpl. rewrite mem_app.
        replace (mem x (keys B1)) with false; auto.
        symmetry. apply mem_not_In. intros J. eapply D1; eauto.
    + destruct L4 as [L4 L5], M4 as [M4 M5]. split; [apply seg_app; auto|]. apply Forall_app. split.
      * eapply Forall_impl; [|exact L5]. intros i. apply traced_l; auto.
      * eapply Forall_impl; [|exact M5]. intros i. apply traced_r.
  - congruence.
  - rewrite K7, H7, keys_app, rev_app_distr, app_assoc. auto.
Qed.

(** ** Steps that touch neither registry nor log nor stacks *)

Definition quiet (s s' : st) : Prop :=
  s_reg s' = s_reg s /\ length (s_hooks s') = length (s_hooks s) /\ s_log s' = s_log s /\
  s_stack s' = s_stack s /\ s_exit s' = s_exit s.
Lemma quiet_refl s : quiet s s.
Proof. red; auto. Qed.
Lemma quiet_trans a b c : quiet a b -> quiet b c -> quiet a c.
Proof. unfold quiet. intuition congruence. Qed.
Lemma quiet_E s s' : quiet s s' -> E s [] [] s'.
Proof. unfold quiet. intros (A & B & C & D & F). apply E_quiet; auto. Qed.

Lemma quiet_put_hook h x s : quiet s (put_hook h x s).
Proof. red; simpl. rewrite upd_length. auto. Qed.
Lemma quiet_schedule h s : quiet s (schedule_render h s).
Proof.
  unfold schedule_render. destruct (hk_sched _); [apply quiet_refl|].
  eapply quiet_trans; [|apply quiet_put_hook]. red; auto.
Qed.
Lemma quiet_dispatch h i u s : quiet s (dispatch h i u s).
Proof.
  unfold dispatch. destruct (nth_error _ _) as [[]|]; try apply quiet_refl. destruct (veq _ _); [apply quiet_refl|].
  eapply quiet_trans; [apply quiet_put_hook|apply quiet_schedule].
Qed.
Lemma quiet_env_step s o : quiet s (env_step s o).
Proof.
  destruct o; simpl; [apply quiet_dispatch|]. unfold record_seq.
  destruct (0 <=? seq)%Z; [|apply quiet_refl]. destruct (_ <? _)%Z; [red; auto|apply quiet_refl].
Qed.
Lemma quiet_env_steps b s : quiet s (fold_left env_step b s).
Proof.
  revert s; induction b; simpl; intros; [apply quiet_refl|].
  eapply quiet_trans; [apply quiet_env_step|apply IHb].
Qed.
Lemma quiet_pause s u s' : pause s = (u, s') -> quiet s s'.
Proof.
  intros H; inversion H; subst. destruct (s_env s); [apply quiet_refl|].
  eapply quiet_trans; [|apply quiet_env_steps]. red; auto.
Qed.
Lemma quiet_run_body h b : pres quiet (run_body h b).
Proof.
  induction b; simpl; pres_tac quiet quiet_refl quiet_trans; try apply H; auto.
  - intros s r s'. unfold use_cell. destruct (hk_once _).
    + destruct (nth_error _ _); intros X; inversion X; subst; [apply quiet_put_hook|apply quiet_refl].
    + intros X; inversion X; subst; apply quiet_put_hook.
  - apply pres_modify. intros; apply quiet_put_hook.
  - apply pres_modify. intros; apply quiet_put_hook.
  - apply pres_modify. intros; apply quiet_put_hook.
  - apply pres_modify. intros; apply quiet_dispatch.
Qed.

Lemma quiet_del_handlers ts : pres quiet (del_handlers ts).
Proof.
  induction ts as [|t ts IH]; simpl; intros s r s' H.
  - inversion H; apply quiet_refl.
  - destruct (dmem t (s_eh s)); [|inversion H; apply quiet_refl]. apply IH in H. exact H.
Qed.

Lemma will_render_facts h s u s' : will_render h s = (u, s') ->
  s_reg s' = s_reg s /\ length (s_hooks s') = length (s_hooks s) /\ s_log s' = s_log s /\
  s_stack s' = h :: s_stack s /\ s_exit s' = s_exit s.
Proof.
  unfold will_render, bind. destruct (pause s) as [[v|e|] s1] eqn:Hp; try discriminate; [|unfold pause, modify in Hp; discriminate..].
  apply quiet_pause in Hp. destruct Hp as (A & B & C & D & F).
  unfold set_current, modify. simpl. intros H; inversion H; subst; clear H.
  destruct (s_stack s1) eqn:ES; simpl; rewrite ?upd_length, ?ES; repeat split; congruence.
Qed.

Lemma did_render_facts h s s' : did_render h s = (Ok tt, s') ->
  s_reg s' = s_reg s /\ length (s_hooks s') = length (s_hooks s) /\ s_log s' = s_log s /\
  s_stack s = h :: s_stack s' /\ s_exit s' = s_exit s.
Proof.
  unfold did_render, bind, unset_current. destruct (s_stack s) eqn:ES; [discriminate|].
  destruct (Nat.eq_dec n h) as [->|]; [|discriminate]. unfold modify. intros H; inversion H; subst; simpl.
  rewrite upd_length. auto.
Qed.

Lemma enter_facts defs h c s r s' : enter defs h c s r s' ->
  s_reg s' = s_reg s /\ length (s_hooks s') = length (s_hooks s) /\ s_log s' = s_log s ++ EvRender h :: ended h r /\
  s_stack s' = h :: s_stack s /\ s_exit s' = h :: s_exit s.
Proof.
  intros (a & x & s1 & H1 & H2 & H3). apply will_render_facts in H1. destruct H1 as (A & B & C & D & F).
  apply quiet_run_body in H2. destruct H2 as (A2 & B2 & C2 & D2 & F2). simpl in *.
  destruct r as [r|e text]; simpl in H3.
  - destruct H3 as [_ ->]. simpl. rewrite C2, C, <- app_assoc. repeat split; congruence.
  - destruct H3 as [_ ->]. simpl. rewrite C2, C, <- app_assoc. repeat split; congruence.
Qed.

(** ** Well-formed trees: children are nodes with distinct keys, or text *)

Fixpoint wf (t : tree) : Prop :=
  match t with
  | TText _ => True
  | TElem _ _ _ _ _ _ _ _ _ l => kids_ok l /\ NoDup (dkeys (kid_dict l)) /\ fold_right and True (map wf l)
  | TComp _ _ _ _ _ l => kids_ok l /\ NoDup (dkeys (kid_dict l)) /\ fold_right and True (map wf l)
  end.
Definition wfs (l : list tree) : Prop := fold_right and True (map wf l).

Lemma wfs_Forall l : wfs l <-> Forall wf l.
Proof.
  unfold wfs. induction l; simpl; split; intros H; auto.
  - constructor; tauto.
  - inversion H; tauto.
Qed.
Lemma wfs_app a b : wfs (a ++ b) <-> wfs a /\ wfs b.
Proof. rewrite !wfs_Forall. apply Forall_app. Qed.

Definition compss (l : list tree) : list cinfo := flat_map comps l.
Lemma compss_app a b : compss (a ++ b) = compss a ++ compss b.
Proof. apply flat_map_app. Qed.
Lemma compss_perm a b : Permutation a b -> Permutation (compss a) (compss b).
Proof. apply Permutation_flat_map. Qed.
Lemma compss_nodes l : kids_ok l -> compss (filter is_node l) = compss l.
Proof.
  induction l as [|t l IH]; simpl; intros OK; auto.
  assert (OKl : kids_ok l) by (intros t' I; apply OK; right; auto).
  destruct (is_node t) eqn:EN; simpl; [rewrite IH; auto|].
  destruct (OK t) as [F|[x ->]]; simpl; auto; congruence.
Qed.
Lemma compss_rev_nodes l : kids_ok l -> Permutation (compss l) (compss (rev (filter is_node l))).
Proof. intros OK. rewrite <- (compss_nodes l OK). apply compss_perm, Permutation_rev. Qed.

Lemma wfs_rev_nodes l : wfs l -> wfs (rev (filter is_node l)).
Proof.
  rewrite !wfs_Forall, !Forall_forall. intros H x I. apply H. apply in_rev in I. apply filter_In in I. tauto.
Qed.

Lemma NoDup_perm {A} (l l' : list A) : Permutation l l' -> NoDup l -> NoDup l'.
Proof. apply Permutation_NoDup. Qed.

Lemma um_E s ts s' : um s ts s' -> wfs ts -> NoDup (keys (compss ts)) ->
  (forall x, In x (keys (compss ts)) -> x < length (s_hooks s)) -> E s (compss ts) [] s'.
Proof.
  induction 1 as [s|s m k tag imp attrs js kp hs has kids ts s1 s' Hd Hu IH|s m k h c out kids ts s1 s2 s' Hr Hw Hu IH];
    intros W ND LT.
  - apply E_refl.
  - destruct W as [(OK & NDk & Wk) Wt]. fold (wfs kids) in Wk. fold (wfs ts) in Wt.
    change (compss (TElem m k tag imp attrs js kp hs has kids :: ts)) with (compss kids ++ compss ts) in *.
    assert (Q : E s [] [] s1).
    { apply quiet_E. eapply quiet_del_handlers; eauto. }
    assert (P : Permutation (compss (rev (filter is_node kids) ++ ts)) (compss kids ++ compss ts)).
    { rewrite compss_app. apply Permutation_app_tail. apply Permutation_sym, compss_rev_nodes; auto. }
    eapply E_perm; [exact P|].
    apply (E_seq s [] [] s1 _ [] s'); simpl; auto.
    + apply IH.
      * apply wfs_app; split; auto. apply wfs_rev_nodes; auto.
      * eapply NoDup_perm; [apply Permutation_sym, Permutation_map; exact P|auto].
      * intros x I. destruct Q as [Q1 _ _ _ _ _ _]. eapply Nat.lt_le_trans; [|exact Q1]. apply LT.
        eapply Permutation_in; [apply Permutation_map; exact P|auto].
    + eapply NoDup_perm; [apply Permutation_sym, Permutation_map; exact P|auto].
    + intros x I. apply LT. eapply Permutation_in; [apply Permutation_map; exact P|auto].
  - destruct W as [(OK & NDk & Wk) Wt]. fold (wfs kids) in Wk. fold (wfs ts) in Wt.
    change (compss (TComp m k h c out kids :: ts)) with ([(h, (m, c, out))] ++ compss kids ++ compss ts) in *.
    assert (P : Permutation (compss (rev (filter is_node kids) ++ ts)) (compss kids ++ compss ts)).
    { rewrite compss_app. apply Permutation_app_tail. apply Permutation_sym, compss_rev_nodes; auto. }
    assert (P2 : Permutation ([(h, (m, c, out))] ++ compss (rev (filter is_node kids) ++ ts)) ([(h, (m, c, out))] ++ compss kids ++ compss ts)).
    { apply Permutation_app_head; auto. }
    assert (Q : E s [(h, (m, c, out))] [] s2).
    { unfold del_reg in Hr. destruct (dmem h (s_reg s)); [|discriminate]. injection Hr as <-.
      unfold will_unmount, bind, log, modify in Hw.
      match type of Hw with pause ?x = _ => destruct (quiet_pause x _ _ Hw) as (Q1 & Q2 & Q3 & Q4 & Q5) end.
      simpl in *. constructor; simpl; auto; try lia; try contradiction; try constructor.
      - intros x. rewrite Q1, dget_ddel. destruct (eq_dec x h), (Nat.eq_dec x h); congruence.
      - exists [EvUnmount h]. rewrite Q3. repeat split; auto. repeat constructor. }
    eapply E_perm; [exact P2|].
    apply (E_seq s _ [] s2 _ [] s'); simpl; auto.
    + apply IH.
      * apply wfs_app; split; auto. apply wfs_rev_nodes; auto.
      * eapply NoDup_perm; [apply Permutation_sym, Permutation_map; exact P|]. inversion ND; auto.
      * intros x I. destruct Q as [Q1 _ _ _ _ _ _]. eapply Nat.lt_le_trans; [|exact Q1]. apply LT.
        right. eapply Permutation_in; [apply Permutation_map; exact P|auto].
    + change (NoDup (keys ([(h, (m, c, out))] ++ compss (rev (filter is_node kids) ++ ts)))).
      eapply NoDup_perm; [apply Permutation_map, Permutation_sym; exact P2|exact ND].
    + intros x I. apply LT. destruct I as [<-|I]; [left; auto|]. right.
      eapply Permutation_in; [apply Permutation_map; exact P|auto].
Qed.

(** ** Old children: those that vanish and those that are found again *)

Definition found (ks : list key) (okids : option (list tree)) : list tree :=
  flat_map (fun k => otree_list (opt_find k okids)) ks.
Definition okids_list (okids : option (list tree)) : list tree := match okids with Some l => l | None => [] end.
Definition okids_wf (okids : option (list tree)) : Prop :=
  kids_ok (okids_list okids) /\ NoDup (dkeys (kid_dict (okids_list okids))) /\ wfs (okids_list okids).

Lemma find_key_None k l : kids_ok l -> find_key k l = None <-> ~ In k (dkeys (kid_dict l)).
Proof.
  intros OK. rewrite <- dget_None, kid_dict_get by auto.
  split; [intros ->; auto|]. destruct (find_key k l) eqn:E; auto.
  apply find_key_In in E. destruct E as [I K]. destruct t; simpl in *; discriminate.
Qed.

Lemma kid_entry_key t k : is_node t = true -> tkey t = Some k -> dkeys (kid_entry t) = [k].
Proof.
  destruct t as [x|m k' tag imp attrs js kp hs has kk|m k' h c out kk]; simpl; intros N TK; try discriminate.
  - congruence.
  - subst k'. auto.
Qed.

Lemma find_key_nil_other k t l : tkey t <> Some k -> find_key k (t :: l) = find_key k l.
Proof.
  simpl. destruct (tkey t) as [k'|] eqn:E; auto. destruct (eq_dec k k'); auto. congruence.
Qed.

Lemma dkeys_app {K V} (a b : dict K V) : dkeys (a ++ b) = dkeys a ++ dkeys b.
Proof. apply map_app. Qed.

Lemma found_cons_notin ks t l : (forall k, tkey t = Some k -> ~ In k ks) ->
  found ks (Some (t :: l)) = found ks (Some l).
Proof.
  unfold found. induction ks; intros H; auto. simpl. fold (find_key a (t :: l)).
  change (match tkey t with
                    | Some k' => if eq_dec a k' then Some t else find_key a l
                    | None => find_key a l
                    end) with (find_key a (t :: l)).
  rewrite find_key_nil_other.
  - f_equal. apply IHks. intros k E I. eapply H; eauto. right; auto.
  - intros E. eapply H; eauto. left; auto.
Qed.

Lemma found_cons_in ks t l k : NoDup ks -> tkey t = Some k -> In k ks -> find_key k l = None ->
  Permutation (found ks (Some (t :: l))) (t :: found ks (Some l)).
Proof.
  intros ND TK I FN. apply in_split in I. destruct I as (a & b & ->).
  assert (NDa : ~ In k a /\ ~ In k b).
  { apply NoDup_remove_2 in ND. split; intros X; apply ND; apply in_or_app; auto. }
  unfold found. rewrite !flat_map_app. cbn [flat_map].
  assert (F : forall c, ~ In k c -> flat_map (fun k0 => otree_list (opt_find k0 (Some (t :: l)))) c =
                                   flat_map (fun k0 => otree_list (opt_find k0 (Some l))) c).
  { intros c NI. apply (found_cons_notin c t l). intros k0 E. rewrite TK in E. injection E as <-. auto. }
  rewrite (F a), (F b) by tauto. simpl opt_find. rewrite TK. destruct (eq_dec k k); [|congruence]. rewrite FN. simpl.
  apply Permutation_sym, Permutation_middle.
Qed.

Lemma gone_found ks l : NoDup ks -> kids_ok l -> NoDup (dkeys (kid_dict l)) ->
  Permutation (compss l) (compss (gone ks (Some l)) ++ compss (found ks (Some l))).
Proof.
  intros NDk. induction l as [|t l IH]; intros OK ND.
  - simpl. replace (found ks (Some [])) with (@nil tree); [constructor|].
    clear. unfold found. induction ks; auto.
  - assert (OKl : kids_ok l) by (intros t' I; apply OK; right; auto).
    unfold kid_dict in ND. simpl in ND. rewrite dkeys_app in ND.
    assert (NDl : NoDup (dkeys (kid_dict l))).
    { clear - ND. induction (dkeys (kid_entry t)); auto. inversion ND; auto. }
    specialize (IH OKl NDl).
    destruct (OK t) as [N|[x ->]]; [left; auto| |].
    + destruct (tkey t) as [k|] eqn:TK.
      2:{ destruct t as [x|? ? ? ? ? ? ? ? ? ?|? [?|] ? ? ? ?]; simpl in *; discriminate. }
      rewrite (kid_entry_key t k N TK) in ND. simpl in ND. inversion ND as [|? ? NI _]; subst.
      simpl gone. rewrite TK. change (compss (t :: l)) with (comps t ++ compss l).
      destruct (mem k ks) eqn:EM.
      * simpl. apply mem_In in EM.
        assert (FN : find_key k l = None) by (apply find_key_None; auto).
        eapply Permutation_trans; [|apply Permutation_app_head, compss_perm, Permutation_sym, (found_cons_in ks t l k); auto].
        change (compss (t :: found ks (Some l))) with (comps t ++ compss (found ks (Some l))).
        eapply Permutation_trans; [apply Permutation_app_head; exact IH|].
        rewrite !app_assoc. apply Permutation_app_tail, Permutation_app_comm.
      * simpl. rewrite <- app_assoc. apply mem_not_In in EM. rewrite found_cons_notin.
        -- apply Permutation_app_head. exact IH.
        -- intros k0 E. rewrite TK in E. injection E as <-. auto.
    + simpl. rewrite found_cons_notin by discriminate. exact IH.
Qed.

Lemma opt_find_wf k okids t : okids_wf okids -> opt_find k okids = Some t -> wf t.
Proof.
  intros (_ & _ & W) F. destruct okids as [l|]; [|discriminate]. simpl in *.
  apply find_key_In in F. destruct F as [I _]. rewrite wfs_Forall, Forall_forall in W. auto.
Qed.

Lemma gone_wf ks okids : okids_wf okids -> wfs (gone ks okids).
Proof.
  intros (_ & _ & W). destruct okids as [l|]; simpl in *; [|exact I]. rewrite wfs_Forall in *.
  rewrite Forall_forall in *. intros x I. apply filter_In in I. apply W. tauto.
Qed.
Lemma otree_wf k okids : okids_wf okids -> wfs (otree_list (opt_find k okids)).
Proof.
  intros W. destruct (opt_find k okids) eqn:EF; simpl; [|exact I].
  split; [|exact I]. eapply opt_find_wf; eauto.
Qed.

(** Subsets of the consumed instances. *)
Lemma NoDup_app_l {A} (a b : list A) : NoDup (a ++ b) -> NoDup a.
Proof. induction a; simpl; intros H; constructor; inversion H; subst; auto. intros I. apply H2. apply in_or_app; auto. Qed.
Lemma NoDup_app_r {A} (a b : list A) : NoDup (a ++ b) -> NoDup b.
Proof. induction a; simpl; intros H; auto. inversion H; auto. Qed.

Definition pre (s : st) (A : list cinfo) : Prop :=
  NoDup (keys A) /\ forall x, In x (keys A) -> x < length (s_hooks s).
Lemma pre_perm s A B : Permutation A B -> pre s A -> pre s B.
Proof.
  intros P [ND LT]. assert (PK : Permutation (keys A) (keys B)) by (apply Permutation_map; auto). split.
  - eapply NoDup_perm; eauto.
  - intros x I. apply LT. eapply Permutation_in; [apply Permutation_sym|]; eauto.
Qed.
Lemma pre_l s A B : pre s (A ++ B) -> pre s A.
Proof.
  intros [ND LT]. rewrite keys_app in *. split; [eapply NoDup_app_l; eauto|].
  intros; apply LT; apply in_or_app; auto.
Qed.
Lemma pre_r s A B : pre s (A ++ B) -> pre s B.
Proof.
  intros [ND LT]. rewrite keys_app in *. split; [eapply NoDup_app_r; eauto|].
  intros; apply LT; apply in_or_app; auto.
Qed.
Lemma pre_le s s' A : length (s_hooks s) <= length (s_hooks s') -> pre s A -> pre s' A.
Proof. intros LE [ND LT]. split; auto. intros x I. specialize (LT x I). lia. Qed.

Lemma E_seq' s A1 B1 s1 A2 B2 s2 :
  E s A1 B1 s1 -> (pre s1 A2 -> E s1 A2 B2 s2) -> pre s (A1 ++ A2) -> E s (A1 ++ A2) (B1 ++ B2) s2.
Proof.
  intros H1 H2 P. eapply E_seq; eauto.
  - apply H2. eapply pre_le; [apply (e_hooks _ _ _ _ H1)|]. eapply pre_r; eauto.
  - rewrite <- keys_app. apply P.
  - rewrite <- keys_app. apply P.
Qed.

Lemma um_E' s ts s' : um s ts s' -> wfs ts -> pre s (compss ts) -> E s (compss ts) [] s'.
Proof. intros H W [ND LT]. apply um_E; auto. Qed.

(** One component: registration, entering, children, leaving. *)
Lemma E_comp defs s sx Ah A' B' h m c r s2 s3 s' :
  s_reg sx = dset h m (s_reg s) -> s_log sx = s_log s -> s_stack sx = s_stack s -> s_exit sx = s_exit s ->
  length (s_hooks s) <= length (s_hooks sx) -> h < length (s_hooks sx) ->
  (keys Ah = [h] \/ Ah = [] /\ length (s_hooks s) <= h) ->
  enter defs h c sx r s2 ->
  (pre s2 A' -> E s2 A' B' s3) -> did_render h s3 = (Ok tt, s') ->
  pre s (Ah ++ A') -> (Ah = [] -> A' = []) ->
  E s (Ah ++ A') ((h, (m, c, r)) :: B') s'.
Proof.
  intros R L S X LH HL KA EN HE DR PR AE.
  apply enter_facts in EN. destruct EN as (N1 & N2 & N3 & N4 & N5).
  apply did_render_facts in DR. destruct DR as (D1 & D2 & D3 & D4 & D5).
  assert (P2 : pre s2 A').
  { eapply pre_le; [|eapply pre_r; exact PR]. lia. }
  specialize (HE P2). destruct HE as [H1 H2 H3 H4 H5 H6 H7].
  assert (HA : ~ In h (keys A')).
  { intros I. destruct KA as [KA|[-> LE]].
    - destruct PR as [ND _]. rewrite keys_app, KA in ND. simpl in ND. inversion ND; auto.
    - rewrite (AE eq_refl) in I. contradiction. }
  assert (HB : ~ In h (keys B')).
  { intros I. destruct (H2 h I); [auto|lia]. }
  constructor.
  - lia.
  - simpl. intros x [<-|I].
    + destruct KA as [KA|[-> LE]]; [left|right; lia]. rewrite keys_app, KA. simpl; auto.
    + destruct (H2 x I) as [J|J]; [left; rewrite keys_app; apply in_or_app; auto|right; lia].
  - simpl. constructor; auto.
  - intros x. rewrite D1, H4, N1, R, dget_dset, keys_app, mem_app. simpl.
    destruct (eq_dec x h) as [->|NE].
    + apply cregs_None in HB. rewrite HB. apply mem_not_In in HA. rewrite HA. auto.
    + destruct (dget x (cregs B')); auto.
      assert (mem x (keys Ah) = false).
      { apply mem_not_In. destruct KA as [->|[-> _]]; simpl; intuition. }
      rewrite H. simpl. auto.
  - destruct H5 as (l & L1 & L2 & L3 & L4). destruct L4 as [L4 L5].
    exists ((EvRender h :: ended h r) ++ l).
    rewrite D3, L1, N3, L, <- app_assoc. rewrite rendered_app, unmounted_app.
    replace (rendered (EvRender h :: ended h r)) with [h] by (destruct r; reflexivity).
    replace (unmounted (EvRender h :: ended h r)) with (@nil nat) by (destruct r; reflexivity).
    simpl. rewrite L2. split; auto. split; auto. split; [|split; [|constructor]].
    + eapply Permutation_trans; [exact L3|]. rewrite keys_app, filter_app.
      replace (filter _ (keys Ah)) with (@nil nat).
      2:{ destruct KA as [->|[-> _]]; auto. simpl. destruct (eq_dec h h); auto. congruence. }
      simpl. erewrite filter_ext_in'; [apply Permutation_refl|].
      intros x I. simpl. destruct (eq_dec x h) as [->|]; auto. contradiction.
    + destruct r; simpl; auto using seg_ok, seg_fail.
    + exists [], l. split; auto. intros e b' ->. apply (seg_head _ _ _ L4).
    + eapply Forall_impl; [|exact L5]. intros i. apply (traced_r (EvRender h :: ended h r)).
  - rewrite H6, N4, S in D4. injection D4; auto.
  - rewrite D5, H7, N5, X. simpl. rewrite <- app_assoc. auto.
Qed.

Section RenderE.
Variable defs : nat -> val -> list raw -> body.

Definition ocomps (o : option tree) : list cinfo := compss (otree_list o).

Theorem render_E :
  (forall s told k c s' t, rc defs s told k c s' t ->
     wfs (otree_list told) -> pre s (ocomps told) -> E s (ocomps told) (comps t) s') /\
  (forall s told k r s' t, rm defs s told k r s' t ->
     wfs (otree_list told) -> pre s (ocomps told) -> E s (ocomps told) (comps t) s') /\
  (forall s okids raws s' kids, rk defs s okids raws s' kids ->
     okids_wf okids -> pre s (compss (okids_list okids)) -> E s (compss (okids_list okids)) (compss kids) s') /\
  (forall s okids infos s' kids, rl defs s okids infos s' kids ->
     okids_wf okids -> pre s (compss (found (map snd infos) okids)) ->
     E s (compss (found (map snd infos) okids)) (compss kids) s').
Proof.
  apply (render_deriv_ind defs
    (fun s told k c s' t _ => wfs (otree_list told) -> pre s (ocomps told) -> E s (ocomps told) (comps t) s')
    (fun s told k r s' t _ => wfs (otree_list told) -> pre s (ocomps told) -> E s (ocomps told) (comps t) s')
    (fun s okids raws s' kids _ => okids_wf okids -> pre s (compss (okids_list okids)) -> E s (compss (okids_list okids)) (compss kids) s')
    (fun s okids infos s' kids _ => okids_wf okids -> pre s (compss (found (map snd infos) okids)) ->
       E s (compss (found (map snd infos) okids)) (compss kids) s')).
  - (* rc_fresh *)
    intros s told k c s0 h m s2 r s3 kids s' D Eh EN RK IH DR W PR.
    assert (U : E s (ocomps told) [] s0).
    { destruct D as [[-> ->]|(t & -> & _ & U)]; [apply E_refl|]. apply um_E'; auto. }
    rewrite <- (app_nil_r (ocomps told)) in PR |- *.
    change (comps (TComp m k h c r kids)) with ([] ++ (h, (m, c, r)) :: compss kids).
    eapply E_seq'; [exact U| |exact PR]. intros _.
    eapply (E_comp defs s0 (set_reg (dset h m (s_reg s0)) (set_hooks (s_hooks s0 ++ [no_hook]) s0)) [] [] (compss kids) h m c r); eauto; simpl; try reflexivity;
      try (rewrite app_length; simpl; lia).
    + right. split; auto. lia.
    + intros P2. apply IH; [split; [intros ? []|split; [constructor|exact I]]|split; [constructor|intros ? []]].
    + split; [constructor|intros ? []].
  - (* rc_same *)
    intros s m0 k h c0 out0 okids c m s2 r s3 kids s' ET EN FO RK IH DR W PR.
    unfold ocomps in *. simpl in W. destruct W as [(OK & NDk & Wk) _]. fold (wfs okids) in Wk.
    simpl otree_list in *.
    change (compss [TComp m0 k h c0 out0 okids]) with (((h, (m0, c0, out0)) :: compss okids) ++ []) in *.
    rewrite app_nil_r in *. change (comps (TComp m k h c r kids)) with ((h, (m, c, r)) :: compss kids).
    change ((h, (m0, c0, out0)) :: compss okids) with ([(h, (m0, c0, out0))] ++ compss okids) in *.
    eapply (E_comp defs s (set_reg (dset h m (s_reg s)) s) [(h, (m0, c0, out0))] (compss okids) (compss kids) h m c r); eauto; simpl; try reflexivity.
    + apply (proj2 PR). simpl; auto.
    + intros P2. apply IH; auto. split; auto.
    + discriminate.
  - (* rm_fresh *)
    intros s told k tag attrs hs js imp ch s0 m kp kids s' D RK IH W PR.
    assert (U : E s (ocomps told) [] s0).
    { destruct D as [[-> ->]|(t & -> & _ & U)]; [apply E_refl|]. apply um_E'; auto. }
    rewrite <- (app_nil_r (ocomps told)) in PR |- *. 
    match goal with |- E _ _ (comps ?t) _ => change (comps t) with ([] ++ compss kids) end.
    eapply E_seq'; [exact U| |exact PR]. intros _.
    change (@nil cinfo) with ([] ++ @nil cinfo). change (compss kids) with ([] ++ compss kids).
    eapply E_seq'; [|intros _; apply IH; [split; [intros ? []|split; [constructor|exact I]]|split; [constructor|intros ? []]]|].
    + apply E_quiet; auto.
    + split; [constructor|intros ? []].
  - (* rm_same *)
    intros s m0 k tag0 imp0 attrs0 js0 kp0 hs0 has0 okids tag attrs hs js imp ch s0 m kp kids s' D RK IH W PR.
    unfold ocomps in *. simpl in W. destruct W as [(OK & NDk & Wk) _]. fold (wfs okids) in Wk.
    simpl otree_list in *.
    change (compss [TElem m0 k tag0 imp0 attrs0 js0 kp0 hs0 has0 okids]) with (compss okids ++ []) in *.
    rewrite app_nil_r in *.
    match goal with |- E _ _ (comps ?t) _ => change (comps t) with ([] ++ compss kids) end.
    change (compss okids) with ([] ++ compss okids).
    eapply E_seq'; [|intros P2; apply IH; [split; auto|exact P2]|exact PR].
    apply quiet_del_handlers in D. apply quiet_E. eapply quiet_trans; [exact D|]. red; auto.
  - (* rk *)
    intros s okids raws s1 s' kids ND U RL IH W PR.
    assert (P : Permutation (compss (okids_list okids))
                  (compss (gone (map snd (children_infos 0 raws)) okids) ++ compss (found (map snd (children_infos 0 raws)) okids))).
    { destruct okids as [l|]; simpl.
      - apply gone_found; auto; apply W.
      - replace (found _ None) with (@nil tree); [constructor|].
        clear. induction (map snd (children_infos 0 raws)); auto. }
    eapply E_perm; [apply Permutation_sym; exact P|]. change (compss kids) with ([] ++ compss kids).
    eapply pre_perm in PR; [|exact P].
    eapply E_seq'; [|intros P2; apply IH; auto|exact PR].
    apply um_E'; auto. { apply gone_wf; auto. } eapply pre_l; eauto.
  - (* rl_nil *)
    intros s okids W PR. simpl. apply E_refl.
  - (* rl_dict *)
    intros s okids r k rest s1 t s' ts RM IHm RL IHl W PR.
    simpl in *. unfold found in *. simpl in *. rewrite compss_app in *.
    change (compss (t :: ts)) with (comps t ++ compss ts).
    eapply E_seq'; [|intros P2; apply IHl; auto|exact PR].
    apply IHm; [apply otree_wf; auto|]. eapply pre_l; eauto.
  - (* rl_comp *)
    intros s okids c k rest s1 t s' ts RM IHm RL IHl W PR.
    simpl in *. unfold found in *. simpl in *. rewrite compss_app in *.
    change (compss (t :: ts)) with (comps t ++ compss ts).
    eapply E_seq'; [|intros P2; apply IHl; auto|exact PR].
    apply IHm; [apply otree_wf; auto|]. eapply pre_l; eauto.
  - (* rl_str *)
    intros s okids x k rest s1 s' ts U RL IHl W PR.
    simpl in *. unfold found in *. simpl in *. rewrite compss_app in *.
    change (compss ts) with ([] ++ compss ts).
    eapply E_seq'; [|intros P2; apply IHl; auto|exact PR].
    apply um_E'; auto. { apply otree_wf; auto. } eapply pre_l; eauto.
Qed.

(** New trees are well-formed. *)
Lemma rl_keys s okids infos s' kids : rl defs s okids infos s' kids ->
  kids_ok kids /\ exists ks, dkeys (kid_dict kids) = ks /\ (forall k, In k ks -> In k (map snd infos)) /\
                           (NoDup (map snd infos) -> NoDup ks).
Proof.
  induction 1 as [s okids|s okids r k rest s1 t s' ts RM RL IH|s okids c k rest s1 t s' ts RM RL IH|s okids x k rest s1 s' ts U RL IH];
    simpl.
  - split; [intros ? []|]. exists []. repeat split; auto.
  - destruct IH as (OK & ks & E1 & E2 & E3).
    assert (TK : tkey t = Some k /\ is_node t = true) by (inversion RM; subst; auto). destruct TK as [TK N].
    split; [intros t' [<-|I]; auto|]. exists (k :: ks). split; [|split].
    + unfold kid_dict. simpl. rewrite dkeys_app, (kid_entry_key t k); auto. simpl. f_equal. exact E1.
    + intros k' [<-|I]; auto.
    + intros ND. inversion ND; subst. constructor; auto.
  - destruct IH as (OK & ks & E1 & E2 & E3).
    assert (TK : tkey t = Some k /\ is_node t = true) by (inversion RM; subst; auto). destruct TK as [TK N].
    split; [intros t' [<-|I]; auto|]. exists (k :: ks). split; [|split].
    + unfold kid_dict. simpl. rewrite dkeys_app, (kid_entry_key t k); auto. simpl. f_equal. exact E1.
    + intros k' [<-|I]; auto.
    + intros ND. inversion ND; subst. constructor; auto.
  - destruct IH as (OK & ks & E1 & E2 & E3).
    split; [intros t' [<-|I]; eauto|]. exists ks. split; [|split]; auto.
    intros ND. inversion ND; subst. auto.
Qed.

Theorem render_wf :
  (forall s told k c s' t, rc defs s told k c s' t -> wf t) /\
  (forall s told k r s' t, rm defs s told k r s' t -> wf t) /\
  (forall s okids raws s' kids, rk defs s okids raws s' kids ->
     kids_ok kids /\ NoDup (dkeys (kid_dict kids)) /\ wfs kids) /\
  (forall s okids infos s' kids, rl defs s okids infos s' kids -> wfs kids).
Proof.
  apply (render_deriv_ind defs (fun s told k c s' t _ => wf t) (fun s told k r s' t _ => wf t)
           (fun s okids raws s' kids _ => kids_ok kids /\ NoDup (dkeys (kid_dict kids)) /\ wfs kids)
           (fun s okids infos s' kids _ => wfs kids)); intros; simpl in *; auto; try exact I.
  - destruct (rl_keys _ _ _ _ _ r) as (OK & ks & E1 & E2 & E3). rewrite E1. auto.
  - split; auto.
  - split; auto.
  - split; auto. exact I.
Qed.
End RenderE.
