(** * Property C78, in every schedule: locks are released, and renders come to an end *)
From Coq Require Import Arith Bool Lia List Permutation.
From Verif Require Import Dict EffectModel EffectProps AsyncTree AsyncTreeFacts AsyncTreeInv AsyncTreeProps.
Import ListNotations.

Lemma in_dset (k v k' v' : nat) (d : dict nat nat) : In (k', v') (dset k v d) -> (k' = k /\ v' = v) \/ In (k', v') d.
Proof. induction d as [|[a b] d IH]; cbn; [intuition congruence|]. destruct (eq_dec k a) as [->|]; cbn; intros [E|I]; auto; [left; split; congruence|tauto]. Qed.

(** ** The invariant *)
(** Children and parents: ids grow from parent to child. *)
Record store (s : sys) : Prop := {
  w_kids : forall i m key x, nth_error (y_states s) i = Some m -> In (key, x) (m_kids m) -> x < length (y_states s) /\ m_lcs m < lcs s x;
  w_par : forall i m p, nth_error (y_states s) i = Some m -> m_parent m = Some p -> p < length (y_states s) /\ lcs s p < m_lcs m;
  w_lcs : forall i m, nth_error (y_states s) i = Some m -> m_lcs m < y_next s
}.
Definition pair_ok (s : sys) (n : nat) (old : option nat) : Prop :=
  n < length (y_states s) /\ match old with Some o => o < length (y_states s) /\ lcs s o = lcs s n | None => True end.
(** The frames around the component [c]. *)
Fixpoint stack (s : sys) (c : nat) (st : list frame) : Prop :=
  match st with
  | [] => True
  | f :: st' => pair_ok s (f_new f) (f_old f) /\ lcs s (f_new f) < c /\ stack s (lcs s (f_new f)) st'
  end.
Definition pc_ok (s : sys) (p : pc) : Prop :=
  match p with Wait n old st | Got n old st => pair_ok s n old /\ stack s (lcs s n) st | _ => True end.
Definition fs (s : sys) (st : list frame) : list nat := map (fun f => lcs s (f_new f)) st.
(** While task [k] runs, with the locks [cs]. *)
Record locks (s : sys) (k : nat) (cs : list nat) : Prop := {
  k_store : store s;
  k_task : k < length (y_tasks s);
  k_old : forall j t, nth_error (y_tasks s) j = Some t -> t_old t < length (y_states s);
  k_pc : forall j t, j <> k -> nth_error (y_tasks s) j = Some t -> pc_ok s (t_pc t);
  k_hold1 : forall c, y_holder s c = Some k <-> In c cs;
  k_hold2 : forall c j, j <> k -> (y_holder s c = Some j <-> exists t, nth_error (y_tasks s) j = Some t /\ In c (held s (t_pc t)))
}.
Record quiet (s : sys) : Prop := {
  q_store : store s;
  q_old : forall j t, nth_error (y_tasks s) j = Some t -> t_old t < length (y_states s);
  q_pc : forall j t, nth_error (y_tasks s) j = Some t -> pc_ok s (t_pc t);
  q_hold : forall c j, y_holder s c = Some j <-> exists t, nth_error (y_tasks s) j = Some t /\ In c (held s (t_pc t))
}.
Lemma quiet_locks s k t : quiet s -> nth_error (y_tasks s) k = Some t -> locks s k (held s (t_pc t)).
Proof.
  intros [Q1 Q2 Q3 Q4] T. split; auto.
  - apply nth_error_Some. congruence.
  - intros j u _ U. eauto.
  - intros c. rewrite Q4. split; [intros (u & U & I); congruence|eauto].
Qed.
(** ** Changes of the store *)
Definition ext (s s' : sys) : Prop := length (y_states s) <= length (y_states s') /\ forall i, i < length (y_states s) -> lcs s' i = lcs s i.
Lemma ext_pair s s' n old : ext s s' -> pair_ok s n old -> pair_ok s' n old.
Proof. intros [E1 E2] [P1 P2]. split; [lia|]. destruct old as [o|]; auto. destruct P2 as [P2 P3]. split; [lia|]. rewrite !E2; auto. Qed.
Lemma ext_stack s s' : ext s s' -> forall st c, stack s c st -> stack s' c st /\ fs s' st = fs s st.
Proof.
  intros E. induction st as [|f st IH]; intros c; cbn; [auto|]. intros (P & L & ST). destruct (IH _ ST) as [A B]. assert (lcs s' (f_new f) = lcs s (f_new f)) as -> by (apply E; apply P).
  split; [split; [eapply ext_pair; eauto|auto]|]. f_equal. exact B.
Qed.
Lemma ext_pc s s' p : ext s s' -> pc_ok s p -> pc_ok s' p /\ held s' p = held s p.
Proof.
  intros E P. destruct p as [|n old st|n old st| | |]; cbn in *; auto; destruct P as [P ST]; destruct (ext_stack _ _ E _ _ ST) as [A B]; (assert (LN : lcs s' n = lcs s n) by (apply E; apply P)); rewrite LN; unfold fs in B; rewrite B; split; auto; split; auto; eapply ext_pair; eauto.
Qed.
Lemma ext_refl s s' : y_states s' = y_states s -> ext s s'.
Proof. intros E. split; [rewrite E; lia|]. intros i _. rewrite !lcs_nth, E. reflexivity. Qed.
(** The end of a run: the task's program counter says what it holds. *)
Lemma locks_quiet s k cs p : locks s k cs -> pc_ok s p -> (forall c, In c (held s p) <-> In c cs) -> quiet (set_pc k p s).
Proof.
  intros [K1 K2 K3 K4 K5 K6] P C.
  assert (X : ext s (set_pc k p s)) by (apply ext_refl; unfold set_pc; destruct (nth_error (y_tasks s) k); reflexivity). revert X. unfold set_pc. destruct (nth_error (y_tasks s) k) as [t|] eqn:T; [|apply nth_error_None in T; lia].
  set (s' := set_tasks _ s). intros X. split; cbn [y_tasks y_states y_holder set_tasks s'].
  - destruct K1 as [W1 W2 W3]. split; auto.
  - intros j u. destruct (Nat.eq_dec k j) as [<-|NE]; [rewrite put_same by auto; intros [= <-]; cbn; eauto|rewrite put_other by auto; eauto].
  - intros j u. destruct (Nat.eq_dec k j) as [<-|NE]; [rewrite put_same by auto; intros [= <-]; apply (ext_pc s s'); auto|rewrite put_other by auto; intros U; apply (ext_pc s s'); eauto].
  - intros c j. destruct (Nat.eq_dec k j) as [<-|NE].
    + rewrite K5, put_same by auto. rewrite <- C. split; [intros I; eexists; split; [reflexivity|exact I]|]. intros (u & [= <-] & I). exact I.
    + rewrite put_other by auto. rewrite K6 by auto. split; intros (u & U & I); exists u; (split; [exact U|]); destruct (ext_pc s s' (t_pc u) X (K4 _ _ (not_eq_sym NE) U)) as [_ EQ]; congruence.
Qed.

Lemma locks_ext s s' k cs : locks s k cs -> ext s s' -> store s' -> y_tasks s' = y_tasks s -> y_holder s' = y_holder s -> locks s' k cs.
Proof.
  intros [K1 K2 K3 K4 K5 K6] E W ET EH. split; rewrite ?ET, ?EH; auto.
  - intros j t T. specialize (K3 _ _ T). destruct E. lia.
  - intros j t NE T. apply (ext_pc s s'); eauto.
  - intros c j NE. rewrite K6 by auto. split; intros (t & T & I); exists t; (split; [exact T|]); destruct (ext_pc s s' (t_pc t) E (K4 _ _ NE T)) as [_ EQ]; congruence.
Qed.
Lemma store_same s s' : store s -> y_states s' = y_states s -> y_next s' = y_next s -> store s'.
Proof.
  intros [W1 W2 W3] E1 E2. assert (EL : forall i, lcs s' i = lcs s i) by (intros i; rewrite !lcs_nth, E1; reflexivity). split; rewrite ?E1, ?E2; auto.
  - intros i m key x. rewrite EL. eauto.
  - intros i m p. rewrite EL. eauto.
Qed.
Lemma locks_same s s' k cs : locks s k cs -> y_states s' = y_states s -> y_next s' = y_next s -> y_tasks s' = y_tasks s -> y_holder s' = y_holder s -> locks s' k cs.
Proof. intros K E1 E2 E3 E4. eapply locks_ext; eauto; [apply ext_refl; auto|eapply store_same; eauto; apply K]. Qed.
Lemma locks_tasks s s' k cs : locks s k cs -> y_states s' = y_states s -> y_next s' = y_next s -> y_holder s' = y_holder s -> length (y_tasks s') = length (y_tasks s) ->
  (forall j t, nth_error (y_tasks s) j = Some t -> exists t', nth_error (y_tasks s') j = Some t' /\ t_old t' = t_old t /\ t_pc t' = t_pc t) -> locks s' k cs.
Proof.
  intros K E1 E2 E3 E4 F. assert (X : ext s s') by (apply ext_refl; auto).
  assert (G : forall j t', nth_error (y_tasks s') j = Some t' -> exists t, nth_error (y_tasks s) j = Some t /\ t_old t' = t_old t /\ t_pc t' = t_pc t).
  { intros j t' T. destruct (nth_error (y_tasks s) j) as [t|] eqn:Z; [|apply nth_error_None in Z; assert (j < length (y_tasks s')) by (apply nth_error_Some; congruence); lia].
    destruct (F _ _ Z) as (t2 & T2 & A & B). replace t2 with t' in * by congruence. eauto. }
  destruct K as [K1 K2 K3 K4 K5 K6]. split.
  - eapply store_same; eauto.
  - lia.
  - intros j t' T. destruct (G _ _ T) as (t & T1 & -> & _). rewrite E1. eauto.
  - intros j t' NE T. destruct (G _ _ T) as (t & T1 & _ & ->). apply (ext_pc s s'); eauto.
  - rewrite E3. exact K5.
  - intros c j NE. rewrite E3, (K6 c j NE). split.
    + intros (t & T & I). destruct (F _ _ T) as (t' & T' & _ & EP). exists t'. split; auto. rewrite EP. destruct (ext_pc s s' (t_pc t) X (K4 _ _ NE T)) as [_ ->]. exact I.
    + intros (t' & T' & I). destruct (G _ _ T') as (t & T & _ & EP). exists t. split; auto. rewrite EP in I. destruct (ext_pc s s' (t_pc t) X (K4 _ _ NE T)) as [_ EQ]. congruence.
Qed.
Lemma locks_holder s h k cs cs' : locks s k cs -> (forall c, h c = Some k <-> In c cs') -> (forall c j, j <> k -> (h c = Some j <-> y_holder s c = Some j)) -> locks (set_holder h s) k cs'.
Proof.
  intros [K1 K2 K3 K4 K5 K6] H1 H2. assert (X : ext s (set_holder h s)) by (apply ext_refl; auto). split; auto.
  - eapply store_same; eauto.
  - intros j t NE T. apply (ext_pc s _ _ X). eauto.
  - intros c j NE. cbn. rewrite (H2 c j NE), (K6 c j NE). split; intros (t & T & I); exists t; (split; [exact T|]); destruct (ext_pc s _ (t_pc t) X (K4 _ _ NE T)) as [_ EQ]; congruence.
Qed.
(** A new state. *)
Lemma lcs_new s s' m : y_states s' = y_states s ++ [m] -> lcs s' (length (y_states s)) = m_lcs m /\ ext s s'.
Proof.
  intros E. split; [rewrite lcs_nth, E, nth_error_app2, Nat.sub_diag by lia; reflexivity|]. split; [rewrite E, app_length; lia|]. intros i L. rewrite !lcs_nth, E, nth_error_app1 by auto. reflexivity.
Qed.
Lemma store_new s s' m : store s -> y_states s' = y_states s ++ [m] -> y_next s <= y_next s' -> m_kids m = [] -> m_lcs m < y_next s' ->
  (forall p, m_parent m = Some p -> p < length (y_states s) /\ lcs s p < m_lcs m) -> store s'.
Proof.
  intros [W1 W2 W3] E N K L P. destruct (lcs_new s s' m E) as [LN [X1 X2]]. split.
  - intros i mi key x. rewrite E, app_length. intros Ei I. apply nth_error_app_cases in Ei as [Ei|[<-|[]]]; [|rewrite K in I; destruct I]. destruct (W1 _ _ _ _ Ei I) as [A B]. rewrite X2 by auto. split; [lia|auto].
  - intros i mi p. rewrite E, app_length. intros Ei I. apply nth_error_app_cases in Ei as [Ei|[<-|[]]].
    + destruct (W2 _ _ _ Ei I) as [A B]. rewrite X2 by auto. split; [lia|auto].
    + destruct (P _ I) as [A B]. rewrite X2 by auto. split; [lia|auto].
  - intros i mi. rewrite E. intros Ei. apply nth_error_app_cases in Ei as [Ei|[<-|[]]]; [specialize (W3 _ _ Ei); lia|auto].
Qed.
(** A changed state. *)
Lemma modify_eq i f s m : nth_error (y_states s) i = Some m -> y_states (modify i f s) = put (y_states s) i (f m).
Proof. intros E. unfold modify. cbn. rewrite (state_nth _ _ _ E). reflexivity. Qed.
Lemma put_ext s s' i m m' : nth_error (y_states s) i = Some m -> m_lcs m' = m_lcs m -> y_states s' = put (y_states s) i m' -> ext s s' /\ ext s' s.
Proof.
  intros E L P. assert (LI : i < length (y_states s)) by (apply nth_error_Some; congruence).
  assert (EL : forall j, lcs s' j = lcs s j). { intros j. rewrite !lcs_nth, P. destruct (Nat.eq_dec i j) as [<-|NE]; [rewrite put_same by auto; rewrite E; auto|rewrite put_other by auto; reflexivity]. }
  assert (LL : length (y_states s') = length (y_states s)) by (rewrite P, put_length; reflexivity). split; (split; [lia|auto]).
Qed.
Lemma store_put s s' i m m' : store s -> nth_error (y_states s) i = Some m -> y_states s' = put (y_states s) i m' -> y_next s' = y_next s -> m_lcs m' = m_lcs m -> m_parent m' = m_parent m ->
  (forall key x, In (key, x) (m_kids m') -> In (key, x) (m_kids m) \/ (x < length (y_states s) /\ m_lcs m < lcs s x)) -> store s'.
Proof.
  intros [W1 W2 W3] E P N L PA K. destruct (put_ext _ _ _ _ _ E L P) as [[X1 X2] [X3 _]]. assert (LI : i < length (y_states s)) by (apply nth_error_Some; congruence). split; rewrite ?P, ?put_length, ?N.
  - intros j mj key x Ej I. assert (x < length (y_states s) /\ m_lcs mj < lcs s x) as [A B].
    { destruct (Nat.eq_dec i j) as [<-|NE]; [rewrite put_same in Ej by auto; injection Ej as <-; destruct (K _ _ I) as [I'|I']; [rewrite L; eauto|rewrite L; auto]|rewrite put_other in Ej by auto; eauto]. }
    split; [exact A|]. rewrite X2 by auto. exact B.
  - intros j mj p Ej I. assert (p < length (y_states s) /\ lcs s p < m_lcs mj) as [A B].
    { destruct (Nat.eq_dec i j) as [<-|NE]; [rewrite put_same in Ej by auto; injection Ej as <-; rewrite L; rewrite PA in I; eauto|rewrite put_other in Ej by auto; eauto]. }
    split; [exact A|]. rewrite X2 by auto. exact B.
  - intros j mj Ej. destruct (Nat.eq_dec i j) as [<-|NE]; [rewrite put_same in Ej by auto; injection Ej as <-; rewrite L; eauto|rewrite put_other in Ej by auto; eauto].
Qed.
Lemma unmount_same : forall fuel stk s, exists r e, snd (unmount fuel stk s) = set_eff e (set_reg r s).
Proof.
  induction fuel as [|fuel IH]; intros [|i stk] s; cbn; try (exists (y_reg s), (y_eff s); destruct s; reflexivity).
  destruct (dmem (lcs s i) (y_reg s)); [|exists (y_reg s), (y_eff s); destruct s; reflexivity]. edestruct IH as (r & e & ->). exists r, e. reflexivity.
Qed.

(** ** Entering a component *)
Lemma claim_quiet s k n old st : locks s k (fs s st) -> pair_ok s n old -> stack s (lcs s n) st -> quiet (claim k n old st s).
Proof.
  intros K PO ST. unfold claim. set (c := lcs s n). set (s1 := set_reg (dset c n (y_reg s)) s).
  match goal with |- quiet (match y_holder ?x _ with _ => _ end) => set (s2 := x) end.
  assert (K2 : locks s2 k (fs s2 st) /\ y_states s2 = y_states s).
  { unfold s2. assert (K1 : locks s1 k (fs s1 st)) by (apply (locks_same s); auto).
 destruct (y_by_id s1 c) as [j|]; [|auto]. destruct (Nat.eqb_spec j k) as [EJ|NE]; [auto|].
    unfold cancel. cbn [y_tasks set_by_id]. destruct (nth_error (y_tasks s1) j) as [u|] eqn:U; [|split; [apply (locks_same s1); auto|reflexivity]].
    destruct (finished u); [split; [apply (locks_same s1); auto|reflexivity]|]. split; [|reflexivity]. assert (LJ : j < length (y_tasks s1)) by (apply nth_error_Some; congruence).
    eapply (locks_tasks s1); [exact K1|reflexivity|reflexivity|reflexivity|cbn; apply put_length|]. intros i w W. cbn [y_tasks set_tasks set_by_id].
    destruct (Nat.eq_dec j i) as [<-|NI]; [rewrite put_same by auto; replace w with u by congruence; eexists; split; [reflexivity|auto]|rewrite put_other by auto; eauto]. }
  destruct K2 as [K2 ES]. assert (EX : ext s s2) by (apply ext_refl; auto). destruct (ext_stack _ _ EX _ _ ST) as [ST2 _]. assert (PO2 : pair_ok s2 n old) by (eapply ext_pair; eauto). assert (EL : lcs s2 n = c) by (apply EX; apply PO).
  destruct (y_holder s2 c) as [j|] eqn:HO.
  - eapply locks_quiet; [exact K2|cbn; rewrite EL; auto|reflexivity].
  - eapply locks_quiet with (cs := c :: fs s2 st).
    + eapply locks_holder; [exact K2| |].
      * intros c'. destruct (Nat.eq_dec c' c) as [->|NE]; [rewrite at_same; cbn; tauto|]. rewrite at_other by auto. rewrite (k_hold1 _ _ _ K2). cbn. intuition congruence.
      * intros c' j NK. destruct (Nat.eq_dec c' c) as [->|NE]; [|rewrite at_other by auto; reflexivity]. rewrite at_same. split; congruence.
    + apply (ext_pc s2); [apply ext_refl; reflexivity|cbn; rewrite EL; auto].
    + intros c'. destruct (ext_pc s2 (set_holder (at_ (y_holder s2) c (Some k)) s2) (Got n old st)) as [_ ->]; [apply ext_refl; reflexivity|cbn; rewrite EL; auto|]. cbn. rewrite EL. reflexivity.
Qed.
Lemma fresh_quiet s k par index key ty st : locks s k (fs s st) -> stack s (y_next s) st -> (forall p, par = Some p -> p < length (y_states s)) -> quiet (claim k (length (y_states s)) None st (fresh par index key ty s)).
Proof.
  intros K ST PA. set (m := Mst (y_next s) ty par index key (path_of s par index) [] (Node (y_next s) None [])).
  assert (E : y_states (fresh par index key ty s) = y_states s ++ [m]) by reflexivity. destruct (lcs_new _ _ _ E) as [LN EX]. destruct (ext_stack _ _ EX _ _ ST) as [ST' FS'].
  apply claim_quiet.
  - rewrite FS'. eapply locks_ext; [exact K|exact EX| |reflexivity|reflexivity]. eapply store_new; [apply K|exact E|cbn; lia|reflexivity|cbn; lia|]. intros p P. specialize (PA _ P). split; auto. rewrite lcs_nth. destruct (nth_error (y_states s) p) as [mp|] eqn:EP; [|apply nth_error_None in EP; lia]. apply (w_lcs _ (k_store _ _ _ K) _ _ EP).
  - split; [rewrite E, app_length; cbn; lia|exact I].
  - rewrite LN. exact ST'.
Qed.
Lemma renew_quiet s k o par index st : locks s k (fs s st) -> o < length (y_states s) -> stack s (lcs s o) st -> (forall p, par = Some p -> p < length (y_states s) /\ lcs s p < lcs s o) -> quiet (claim k (length (y_states s)) (Some o) st (renew o par index s)).
Proof.
  intros K LO ST PA. destruct (nth_error (y_states s) o) as [mo|] eqn:EO; [|apply nth_error_None in EO; lia]. assert (ELO : lcs s o = m_lcs mo) by (rewrite lcs_nth, EO; reflexivity).
  set (m := Mst (m_lcs mo) (m_type mo) par index (m_key mo) (path_of s par index) [] (Node (m_lcs mo) None [])).
  assert (E : y_states (renew o par index s) = y_states s ++ [m]) by (unfold renew; rewrite (state_nth _ _ _ EO); reflexivity). destruct (lcs_new _ _ _ E) as [LN EX]. destruct (ext_stack _ _ EX _ _ ST) as [ST' FS'].
  apply claim_quiet.
  - rewrite FS'. eapply locks_ext; [exact K|exact EX| |reflexivity|reflexivity]. eapply store_new; [apply K|exact E|reflexivity|reflexivity|apply (w_lcs _ (k_store _ _ _ K) _ _ EO)|]. intros p P. change (m_lcs m) with (m_lcs mo). rewrite <- ELO. apply PA. exact P.
  - split; [rewrite E, app_length; cbn; lia|]. split; [rewrite E, app_length; lia|]. rewrite LN. rewrite (proj2 EX) by auto. exact ELO.
  - rewrite LN. change (m_lcs m) with (m_lcs mo). rewrite <- ELO. exact ST'.
Qed.
Lemma stack_lt s c : forall st, stack s c st -> forall x, In x (fs s st) -> x < c.
Proof. intros st; revert c; induction st as [|f st IH]; intros c; cbn; [tauto|]. intros (_ & L & ST) x [<-|I]; [auto|]. specialize (IH _ ST _ I). lia. Qed.
Lemma stack_next s : store s -> forall st c, stack s c st -> c <= y_next s -> stack s (y_next s) st.
Proof. intros W [|f st] c; cbn; [auto|]. intros (P & L & ST) LE. split; [auto|]. split; [lia|auto]. Qed.

(** ** Descending *)
Definition open (s : sys) (st : list frame) : Prop := match st with [] => False | f :: st' => pair_ok s (f_new f) (f_old f) /\ stack s (lcs s (f_new f)) st' end.
Lemma open_stack s f st todo : store s -> open s (f :: st) -> stack s (y_next s) (Frame (f_new f) (f_old f) todo :: st).
Proof.
  intros W [P ST]. cbn. split; [exact P|]. split; [|exact ST]. rewrite lcs_nth. destruct P as [P _]. destruct (nth_error (y_states s) (f_new f)) as [m|] eqn:E; [apply (w_lcs _ W _ _ E)|apply nth_error_None in E; lia].
Qed.
Lemma ext_open s s' st : ext s s' -> open s st -> open s' st /\ fs s' st = fs s st.
Proof.
  intros E. destruct st as [|f st]; cbn; [tauto|]. intros [P ST]. destruct (ext_stack _ _ E _ _ ST) as [A B]. assert (lcs s' (f_new f) = lcs s (f_new f)) as -> by (apply E; apply P). split; [split; [eapply ext_pair; eauto|auto]|]. f_equal. exact B.
Qed.
Lemma start_effects_eq k s : exists e, start_effects k s = set_eff e s.
Proof. unfold start_effects. destruct (nth_error (y_tasks s) k); [eauto|]. exists (y_eff s). destruct s; reflexivity. Qed.
Lemma release_locks s k c cs : locks s k (c :: cs) -> ~ In c cs -> locks (release c s) k cs.
Proof.
  intros K NI. eapply locks_holder; [exact K| |].
  - intros c'. destruct (Nat.eq_dec c' c) as [->|NE]; [rewrite at_same; split; [discriminate|tauto]|]. rewrite at_other by auto. rewrite (k_hold1 _ _ _ K). cbn. intuition congruence.
  - intros c' j NK. destruct (Nat.eq_dec c' c) as [->|NE]; [|rewrite at_other by auto; reflexivity]. rewrite at_same. assert (y_holder s c = Some k) by (apply (k_hold1 _ _ _ K); cbn; auto). split; congruence.
Qed.
Lemma complete_quiet s k n : locks s k [] -> n < length (y_states s) -> quiet (complete k n s).
Proof.
  intros K LN. unfold complete. destruct (start_effects_eq k s) as [e ->]. set (s1 := set_eff e s). assert (K1 : locks s1 k []) by (apply (locks_same s); auto).
  destruct (nth_error (y_states s) n) as [m|] eqn:EN; [|apply nth_error_None in EN; lia]. assert (SN : state s1 n = m) by (apply state_nth; exact EN). rewrite SN.
  match goal with |- quiet (set_pc _ _ (set_log _ ?x)) => set (s2 := x) end.
  assert (K2 : locks s2 k []).
  { unfold s2. destruct (m_parent m) as [p|] eqn:EP; [|exact K1]. destruct (w_par _ (k_store _ _ _ K1) _ _ _ EN EP) as [LP LL].
    destruct (nth_error (y_states s1) p) as [mp|] eqn:EPP; [|apply nth_error_None in EPP; cbn in *; lia]. assert (LMP : lcs s1 p = m_lcs mp) by (rewrite lcs_nth, EPP; reflexivity).
    eapply locks_ext; [exact K1| | |reflexivity|reflexivity].
    - refine (proj1 (put_ext s1 _ p mp _ EPP _ (modify_eq p _ s1 mp EPP))). reflexivity.
    - eapply store_put; [apply K1|exact EPP|apply modify_eq; exact EPP|reflexivity|reflexivity|reflexivity|]. cbn [m_kids set_kids]. intros key x I. apply in_dset in I as [[-> ->]|I]; [right|auto].
      split; [exact LN|]. rewrite <- LMP. replace (lcs s1 n) with (m_lcs m) by (rewrite lcs_nth; cbn; rewrite EN; reflexivity). exact LL. }
  eapply locks_quiet with (cs := []); [apply (locks_same s2); auto|exact I|reflexivity].
Qed.
Lemma descend_quiet k : forall st s, locks s k (fs s st) -> open s st -> quiet (descend k st s).
Proof.
  induction st as [|f rest IH]; intros s K O; [destruct O|]. cbn [descend].
  assert (CLOSE : forall s, locks s k (fs s (f :: rest)) -> open s (f :: rest) -> quiet (let s1 := release (lcs s (f_new f)) s in match rest with [] => complete k (f_new f) s1 | g :: _ => descend k rest (attach (f_new g) (f_new f) s1) end)).
  { clear s K O. intros s K [P ST]. cbn [fs map] in K. fold (fs s rest) in K.
    apply release_locks in K; [|intros I; apply (stack_lt _ _ _ ST) in I; lia]. cbn zeta. set (s1 := release (lcs s (f_new f)) s) in *. assert (EX : ext s s1) by (apply ext_refl; reflexivity).
    destruct rest as [|g rest']; [apply complete_quiet; [exact K|apply P]|].
    cbn [stack] in ST. destruct ST as (PG & LG & ST). destruct (nth_error (y_states s) (f_new g)) as [mg|] eqn:EG; [|apply nth_error_None in EG; destruct PG; lia]. destruct P as [PF _].
    set (s2 := attach (f_new g) (f_new f) s1). assert (ES : exists m', y_states s2 = put (y_states s) (f_new g) m' /\ m_lcs m' = m_lcs mg /\ m_parent m' = m_parent mg /\ m_kids m' = dset (m_key (state s1 (f_new f))) (f_new f) (m_kids mg)).
    { eexists. split; [apply (modify_eq (f_new g) _ s1 mg EG)|]. cbn. auto. }
    destruct ES as (m' & ES & E1 & E2 & E3). destruct (put_ext s s2 _ _ _ EG E1 ES) as [X _].
    destruct (ext_open s s2 (g :: rest') X (conj PG ST)) as [O2 F2]. apply IH; [|exact O2]. rewrite F2. eapply locks_ext; [exact K| | |reflexivity|reflexivity].
    - destruct X as [X1 X2]. split; [exact X1|exact X2].
    - eapply (store_put s s2); [eapply store_same; [apply K|reflexivity|reflexivity]|exact EG|exact ES|reflexivity|exact E1|exact E2|]. rewrite E3. intros key x I. apply in_dset in I as [[-> ->]|I]; [right|auto].
      split; [exact PF|]. replace (m_lcs mg) with (lcs s (f_new g)) by (rewrite lcs_nth, EG; reflexivity). exact LG. }
  destruct (f_todo f) as [|[i [key ty]] todo]; [apply CLOSE; auto|].
  destruct O as [P ST]. assert (W := k_store _ _ _ K).
  set (st' := Frame (f_new f) (f_old f) todo :: rest). assert (FS : fs s st' = fs s (f :: rest)) by reflexivity.
  unfold enter. set (old := match f_old f with Some o => dget key (m_kids (state s o)) | None => None end).
  assert (OO : forall o, old = Some o -> o < length (y_states s) /\ lcs s (f_new f) < lcs s o).
  { intros o. unfold old. destruct (f_old f) as [fo|] eqn:FO; [|discriminate]. destruct P as [_ [P2 P3]]. destruct (nth_error (y_states s) fo) as [mf|] eqn:EF; [|apply nth_error_None in EF; lia].
    rewrite (state_nth _ _ _ EF). intros D. apply dget_Some_In in D. destruct (w_kids _ W _ _ _ _ EF D) as [A B]. split; auto. rewrite <- P3, (lcs_nth s fo), EF. exact B. }
  assert (PF : forall p, Some (f_new f) = Some p -> p < length (y_states s)) by (intros p [= <-]; apply P).
  destruct old as [o|].
  - destruct (OO o eq_refl) as [LO LL]. destruct (Nat.eqb (m_type (state s o)) ty).
    + apply renew_quiet; [rewrite FS; exact K|exact LO| |intros p [= <-]; split; [apply P|exact LL]]. cbn. auto.
    + destruct (unmount_same (length (y_reg s)) [o] s) as (r & e & US). destruct (unmount (length (y_reg s)) [o] s) as [[|] s1]; cbn in US; subst s1.
      * change (length (y_states s)) with (length (y_states (set_eff e (set_reg r s)))). apply fresh_quiet; [eapply locks_same; [exact K|reflexivity..]| |exact PF]. change (y_next (set_eff e (set_reg r s))) with (y_next s). apply (ext_stack s); [apply ext_refl; reflexivity|]. apply open_stack; [exact W|split; auto].
      * set (s1 := set_eff e (set_reg r s)). assert (LF : f_new f < length (y_states s)) by apply P. destruct (nth_error (y_states s) (f_new f)) as [m|] eqn:EM; [|apply nth_error_None in EM; lia].
        assert (ES : y_states (fail (f_new f) s1) = put (y_states s) (f_new f) (set_model (Node (m_lcs m) None []) m)) by (exact (modify_eq (f_new f) (fun m => set_model (Node (m_lcs m) None []) m) s1 m EM)).
        destruct (put_ext s (fail (f_new f) s1) _ _ _ EM (eq_refl : m_lcs (set_model (Node (m_lcs m) None []) m) = m_lcs m) ES) as [X _]. destruct (ext_open _ _ _ X (conj P ST : open s (f :: rest))) as [O2 F2].
        apply CLOSE; [|exact O2]. rewrite F2. eapply locks_ext; [exact K|exact X| |reflexivity|reflexivity]. eapply store_put; [exact W|exact EM|exact ES|reflexivity|reflexivity|reflexivity|auto].
  - apply fresh_quiet; [rewrite FS; exact K| |exact PF]. apply open_stack; [exact W|split; auto].
Qed.

(** ** Registrations are of states that exist *)
Definition grow (s s' : sys) : Prop := length (y_states s) <= length (y_states s') /\ forall c x, dget c (y_reg s') = Some x -> dget c (y_reg s) = Some x \/ x < length (y_states s').
Lemma grow_refl s : grow s s.
Proof. split; auto. Qed.
Lemma grow_trans a b c : grow a b -> grow b c -> grow a c.
Proof. intros [A1 A2] [B1 B2]. split; [lia|]. intros d x R. destruct (B2 _ _ R) as [R'|L]; [|auto]. destruct (A2 _ _ R') as [?|?]; [auto|right; lia]. Qed.
Lemma grow_same s s' : length (y_states s') = length (y_states s) -> y_reg s' = y_reg s -> grow s s'.
Proof. intros E1 E2. split; [lia|]. rewrite E2. auto. Qed.
Lemma modify_grow i f s : grow s (modify i f s).
Proof. apply grow_same; [cbn; apply put_length|reflexivity]. Qed.
Lemma set_pc_grow k p s : grow s (set_pc k p s).
Proof. unfold set_pc. destruct (nth_error (y_tasks s) k); apply grow_same; reflexivity. Qed.
Lemma cancel_grow k s : grow s (cancel k s).
Proof. unfold cancel. destruct (nth_error (y_tasks s) k) as [t|]; [destruct (finished t)|]; apply grow_same; reflexivity. Qed.
Lemma unmount_grow : forall fuel stk s, grow s (snd (unmount fuel stk s)).
Proof.
  induction fuel as [|fuel IH]; intros [|i stk] s; cbn; try apply grow_refl. destruct (dmem (lcs s i) (y_reg s)); [|apply grow_refl]. eapply grow_trans; [|apply IH]. split; [reflexivity|]. cbn. intros c x.
  destruct (Nat.eq_dec c (lcs s i)) as [->|NE]; [rewrite dget_ddel_same; discriminate|rewrite dget_ddel_other; auto].
Qed.
Lemma claim_grow k n old st s : n < length (y_states s) -> grow s (claim k n old st s).
Proof.
  intros L. unfold claim. set (s1 := set_reg (dset (lcs s n) n (y_reg s)) s). match goal with |- grow _ (match y_holder ?x _ with _ => _ end) => set (s2 := x) end.
  assert (G1 : grow s s1). { split; [reflexivity|]. cbn. intros c x. rewrite dget_dset. destruct (eq_dec c (lcs s n)); [intros [= <-]; auto|auto]. }
  assert (G2 : grow s1 s2). { unfold s2. destruct (y_by_id s1 (lcs s n)) as [j|]; [|apply grow_refl]. destruct (Nat.eqb j k); [apply grow_refl|]. eapply grow_trans; [|apply cancel_grow]. apply grow_same; reflexivity. }
  eapply grow_trans; [exact G1|]. eapply grow_trans; [exact G2|]. destruct (y_holder s2 (lcs s n)); [apply set_pc_grow|]. eapply grow_trans; [|apply set_pc_grow]. apply grow_same; reflexivity.
Qed.
Lemma new_grow s s' m : y_states s' = y_states s ++ [m] -> y_reg s' = y_reg s -> grow s s' /\ length (y_states s) < length (y_states s').
Proof. intros E1 E2. rewrite E1, app_length. cbn. split; [|lia]. split; [rewrite E1, app_length; lia|]. rewrite E2. auto. Qed.
Lemma fresh_grow k par index key ty old st s : grow s (claim k (length (y_states s)) old st (fresh par index key ty s)).
Proof. destruct (new_grow s (fresh par index key ty s) _ eq_refl eq_refl) as [A B]. eapply grow_trans; [exact A|apply claim_grow; exact B]. Qed.
Lemma renew_grow k o par index old st s : grow s (claim k (length (y_states s)) old st (renew o par index s)).
Proof. destruct (new_grow s (renew o par index s) _ eq_refl eq_refl) as [A B]. eapply grow_trans; [exact A|apply claim_grow; exact B]. Qed.
Lemma enter_grow k old par index key ty st s : grow s (snd (enter k old par index key ty st s)).
Proof.
  unfold enter. destruct old as [o|]; [|apply fresh_grow]. destruct (Nat.eqb (m_type (state s o)) ty); [apply renew_grow|].
  destruct (unmount_same (length (y_reg s)) [o] s) as (r & e & US). pose proof (unmount_grow (length (y_reg s)) [o] s) as G. destruct (unmount (length (y_reg s)) [o] s) as [[|] s1]; cbn in *; [|exact G].
  eapply grow_trans; [exact G|]. replace (length (y_states s)) with (length (y_states s1)) by (rewrite US; reflexivity). apply fresh_grow.
Qed.
Lemma complete_grow k n s : grow s (complete k n s).
Proof.
  unfold complete. destruct (start_effects_eq k s) as [e ->]. eapply grow_trans; [|apply set_pc_grow]. destruct (m_parent (state (set_eff e s) n)) as [p|]; [|apply grow_same; reflexivity].
  eapply grow_trans; [|apply grow_same; reflexivity]. eapply grow_trans; [|apply modify_grow]. apply grow_same; reflexivity.
Qed.
Lemma descend_grow k : forall st s, grow s (descend k st s).
Proof.
  induction st as [|f rest IH]; intros s; cbn [descend]; [apply grow_refl|].
  assert (CLOSE : forall s, grow s (let s1 := release (lcs s (f_new f)) s in match rest with [] => complete k (f_new f) s1 | g :: _ => descend k rest (attach (f_new g) (f_new f) s1) end)).
  { clear s. intros s. cbn zeta. eapply grow_trans; [apply (grow_same s (release (lcs s (f_new f)) s)); reflexivity|]. destruct rest as [|g rest']; [apply complete_grow|]. eapply grow_trans; [|apply IH]. apply modify_grow. }
  destruct (f_todo f) as [|[i [key ty]] todo]; [apply CLOSE|].
  match goal with |- context [enter ?a ?b ?c ?d ?e ?f ?g ?h] => pose proof (enter_grow a b c d e f g h) as G; destruct (enter a b c d e f g h) as [[|] s1] end; cbn in G; [exact G|].
  eapply grow_trans; [exact G|]. eapply grow_trans; [|apply CLOSE]. apply modify_grow.
Qed.

(** ** Every step *)
Section View.
Variable view : nat -> nat -> list (nat * nat).
Lemma body_grow k n old st s : grow s (body view k n old st s).
Proof.
  unfold body. set (kids := view _ _). set (s1 := set_flag _ s). set (s2 := match nth_error (y_tasks s1) k with Some t => _ | None => s1 end). set (s3 := modify n _ s2).
  assert (G : grow s s3). { eapply grow_trans; [|apply modify_grow]. unfold s2. destruct (nth_error (y_tasks s1) k); apply grow_same; reflexivity. }
  eapply grow_trans; [exact G|]. destruct (nodupb (map fst kids)); [|eapply grow_trans; [apply modify_grow|apply descend_grow]].
  match goal with |- context [unmount ?a ?b ?c] => pose proof (unmount_grow a b c) as U; destruct (unmount a b c) as [[|] s4] end; cbn in U; (eapply grow_trans; [exact U|]); [apply descend_grow|]. eapply grow_trans; [apply modify_grow|apply descend_grow].
Qed.
Lemma run_grow k s : grow s (run_task view k s).
Proof.
  unfold run_task. destruct (nth_error (y_tasks s) k) as [t|]; [|apply grow_refl]. destruct (finished t); [apply grow_refl|]. destruct (t_cancel t).
  - unfold unwind. destruct (start_effects_eq k (set_holder (fun c => if existsb (Nat.eqb c) (held s (t_pc t)) then None else y_holder s c) s)) as [e ->]. eapply grow_trans; [|apply set_pc_grow]. apply grow_same; reflexivity.
  - destruct (t_pc t) as [|n old st|n old st| | |]; try apply grow_refl; [| |apply body_grow].
    + unfold start. destruct (m_parent (state s (t_old t))) as [p|]; [destruct (alive s p)|]; try apply enter_grow. eapply grow_trans; [apply (set_pc_grow k Failed)|apply grow_same; reflexivity].
    + destruct (y_holder s (lcs s n)); [apply grow_refl|]. eapply grow_trans; [|apply body_grow]. apply grow_same; reflexivity.
Qed.

Lemma body_quiet k n old st s : locks s k (lcs s n :: fs s st) -> pair_ok s n old -> stack s (lcs s n) st -> quiet (body view k n old st s).
Proof.
  intros K P ST. unfold body. set (c := lcs s n) in *. set (kids := view _ _). set (s1 := set_flag _ s). set (s2 := match nth_error (y_tasks s1) k with Some t => _ | None => s1 end). set (s3 := modify n _ s2).
  assert (K2 : locks s2 k (c :: fs s st) /\ y_states s2 = y_states s).
  { assert (K1 : locks s1 k (c :: fs s st)) by (apply (locks_same s); auto). unfold s2. destruct (nth_error (y_tasks s1) k) as [t|] eqn:T; [|auto]. split; [|reflexivity]. assert (LK : k < length (y_tasks s1)) by (apply nth_error_Some; congruence).
    eapply (locks_tasks s1); [exact K1|reflexivity|reflexivity|reflexivity|cbn; apply put_length|]. intros i w W. cbn [y_tasks set_tasks].
    destruct (Nat.eq_dec k i) as [<-|NI]; [rewrite put_same by auto; replace w with t by congruence; eexists; split; [reflexivity|auto]|rewrite put_other by auto; eauto]. }
  destruct K2 as [K2 E2]. destruct (nth_error (y_states s2) n) as [m|] eqn:EM; [|apply nth_error_None in EM; rewrite E2 in EM; destruct P; lia].
  assert (MOD : forall s' f, locks s' k (c :: fs s st) -> ext s s' -> (exists m', nth_error (y_states s') n = Some m') -> (forall m', m_lcs (f m') = m_lcs m' /\ m_parent (f m') = m_parent m' /\ m_kids (f m') = m_kids m') ->
    locks (modify n f s') k (c :: fs s st) /\ ext s (modify n f s') /\ exists m', nth_error (y_states (modify n f s')) n = Some m').
  { intros s' f K' [X1 X2] [m' EM'] F. destruct (F m') as (F1 & F2 & F3). pose proof (modify_eq n f s' m' EM') as ME. destruct (put_ext s' _ n m' _ EM' F1 ME) as [[Y1 Y2] _].
    split; [|split].
    - eapply locks_ext; [exact K'|split; [exact Y1|exact Y2]| |reflexivity|reflexivity]. eapply store_put; [apply K'|exact EM'|exact ME|reflexivity|exact F1|exact F2|rewrite F3; auto].
    - split; [lia|]. intros i L. rewrite Y2 by lia. auto.
    - exists (f m'). rewrite ME. apply put_same. apply nth_error_Some. congruence. }
  destruct (MOD s2 (set_model (Node c (Some (y_ver s c)) []))) as (K3 & X3 & M3); [exact K2|apply ext_refl; exact E2|eauto|auto|]. fold s3 in K3, X3, M3.
  assert (DESC : forall s' todo, locks s' k (c :: fs s st) -> ext s s' -> quiet (descend k (Frame n old todo :: st) s')).
  { intros s' todo K' X. destruct (ext_stack _ _ X _ _ ST) as [ST' FS']. apply descend_quiet; cbn [fs map open f_new f_old]; fold (fs s' st); (rewrite (proj2 X n) by apply P).
    - rewrite FS'. exact K'.
    - split; [eapply ext_pair; eauto|exact ST']. }
  assert (FAIL : forall s' todo, locks s' k (c :: fs s st) -> ext s s' -> (exists m', nth_error (y_states s') n = Some m') -> quiet (descend k (Frame n old todo :: st) (fail n s'))).
  { intros s' todo K' X M'. destruct (MOD s' (fun m => set_model (Node (m_lcs m) None []) m) K' X M') as (K4 & X4 & _); [auto|]. apply DESC; auto. }
  destruct (nodupb (map fst kids)); [|apply FAIL; auto].
  match goal with |- context [unmount ?a ?b ?c] => destruct (unmount_same a b c) as (r & e & U); destruct (unmount a b c) as [[|] s4] end; cbn [snd] in U; subst s4.
  - apply DESC; [apply (locks_same s3); auto|exact X3].
  - apply FAIL; [apply (locks_same s3); auto|exact X3|exact M3].
Qed.
Lemma start_quiet k o s : locks s k [] -> o < length (y_states s) -> quiet (start k o s).
Proof.
  intros K LO. unfold start. destruct (nth_error (y_states s) o) as [m|] eqn:EO; [|apply nth_error_None in EO; lia]. rewrite (state_nth _ _ _ EO).
  assert (LL : lcs s o = m_lcs m) by (rewrite lcs_nth, EO; reflexivity).
  assert (GO : forall par, (forall p, par = Some p -> p < length (y_states s) /\ lcs s p < lcs s o) -> quiet (snd (enter k (Some o) par (m_index m) (m_key m) (m_type m) [] s))).
  { intros par PA. unfold enter. rewrite (state_nth _ _ _ EO), Nat.eqb_refl. cbn [snd]. apply renew_quiet; cbn; auto. }
  destruct (m_parent m) as [p|] eqn:EP; [destruct (alive s p)|].
  - apply GO. intros p' [= <-]. rewrite LL. apply (w_par _ (k_store _ _ _ K) _ _ _ EO EP).
  - assert (Q : quiet (set_pc k Failed s)) by (eapply locks_quiet; [exact K|exact I|reflexivity]). destruct Q as [Q1 Q2 Q3 Q4].
    set (s1 := set_pc k Failed s) in *. assert (X : ext s1 (set_over true s1)) by (apply ext_refl; reflexivity). split.
    + eapply store_same; [exact Q1|reflexivity|reflexivity].
    + exact Q2.
    + intros j t T. apply (ext_pc s1 _ _ X). eauto.
    + intros c j. cbn. rewrite Q4. split; intros (t & T & I); exists t; (split; [exact T|]); destruct (ext_pc s1 _ (t_pc t) X (Q3 _ _ T)) as [_ EQ]; congruence.
  - apply GO. discriminate.
Qed.
Definition regs (s : sys) : Prop := forall c x, dget c (y_reg s) = Some x -> x < length (y_states s).
Definition sound (s : sys) : Prop := quiet s /\ regs s.
Lemma grow_regs s s' : grow s s' -> regs s -> regs s'.
Proof. intros [G1 G2] R c x E. destruct (G2 _ _ E) as [E'|L]; [apply R in E'; lia|auto]. Qed.
Lemma run_sound k s : sound s -> sound (run_task view k s).
Proof.
  intros [Q R]. split; [|eapply grow_regs; [apply run_grow|exact R]]. unfold run_task. destruct (nth_error (y_tasks s) k) as [t|] eqn:T; [|exact Q]. destruct (finished t) eqn:FI; [exact Q|].
  pose proof (quiet_locks s k t Q T) as K. pose proof (q_pc _ Q _ _ T) as PC. destruct (t_cancel t).
  - unfold unwind. set (s1 := set_holder _ s). destruct (start_effects_eq k s1) as [e ->]. eapply locks_quiet with (cs := []); [|exact I|reflexivity]. eapply (locks_same s1); try reflexivity.
    eapply locks_holder; [exact K| |].
    + intros c. cbn. destruct (existsb (Nat.eqb c) (held s (t_pc t))) eqn:E; [split; [discriminate|tauto]|]. split; [|tauto]. intros H. apply (k_hold1 _ _ _ K) in H. apply (inb_in (held s (t_pc t)) c) in H. unfold inb in H. congruence.
    + intros c j NE. destruct (existsb (Nat.eqb c) (held s (t_pc t))) eqn:E; [|reflexivity]. apply (inb_in (held s (t_pc t)) c) in E. apply (k_hold1 _ _ _ K) in E. split; congruence.
  - destruct (t_pc t) as [|n old st|n old st| | |]; try exact Q.
    + apply start_quiet; [exact K|]. apply (q_old _ Q _ _ T).
    + destruct PC as [P ST]. destruct (y_holder s (lcs s n)) as [j|] eqn:HO; [exact Q|]. set (s1 := set_holder _ s). assert (X : ext s s1) by (apply ext_refl; reflexivity). destruct (ext_stack _ _ X _ _ ST) as [ST1 FS1].
      apply body_quiet; [|eapply ext_pair; eauto|exact ST1]. rewrite FS1. change (lcs s1 n) with (lcs s n). eapply locks_holder; [exact K| |].
      * intros c'. destruct (Nat.eq_dec c' (lcs s n)) as [->|NE]; [rewrite at_same; cbn; tauto|]. rewrite at_other by auto. rewrite (k_hold1 _ _ _ K). cbn. fold (fs s st). intuition congruence.
      * intros c' j NK. destruct (Nat.eq_dec c' (lcs s n)) as [->|NE]; [|rewrite at_other by auto; reflexivity]. rewrite at_same. split; congruence.
    + destruct PC as [P ST]. apply body_quiet; auto.
Qed.
Lemma set_state_sound c s : sound s -> sound (set_state c s).
Proof.
  intros [[Q1 Q2 Q3 Q4] R]. destruct (set_state_eq c s) as (vr & fl & by_ & ts & E & D). set (s' := set_state c s) in *. assert (X : ext s s') by (apply ext_refl; rewrite E; reflexivity).
  assert (ES : y_states s' = y_states s) by (rewrite E; reflexivity). assert (ER : y_reg s' = y_reg s) by (rewrite E; reflexivity).
  assert (ET : forall j t, nth_error (y_tasks s') j = Some t -> nth_error (y_tasks s) j = Some t \/ (t_pc t = Start /\ exists x, dget c (y_reg s) = Some x /\ t_old t = x)).
  { intros j t. rewrite E. cbn. destruct D as [(_ & _ & _ & ->)|[(_ & _ & _ & _ & ->)|[(_ & _ & _ & _ & ->)|(_ & _ & x & Rx & _ & ->)]]]; auto. intros T. apply nth_error_app_cases in T as [T|[<-|[]]]; [auto|]. right. cbn. eauto. }
  split; [split|].
  - eapply store_same; [exact Q1|exact ES|rewrite E; reflexivity].
  - intros j t T. rewrite ES. destruct (ET _ _ T) as [T'|[_ (x & Rx & <-)]]; eauto.
  - intros j t T. destruct (ET _ _ T) as [T'|[-> _]]; [apply (ext_pc s s' _ X); eauto|exact I].
  - intros c' j. replace (y_holder s' c') with (y_holder s c') by (rewrite E; reflexivity). rewrite Q4. split; intros (t & T & I).
    + exists t. split; [apply set_state_task; exact T|]. destruct (ext_pc s s' (t_pc t) X (Q3 _ _ T)) as [_ ->]. exact I.
    + destruct (ET _ _ T) as [T'|[PC _]]; [|rewrite PC in I; destruct I]. exists t. split; auto. destruct (ext_pc s s' (t_pc t) X (Q3 _ _ T')) as [_ EQ]. congruence.
  - intros c' x. rewrite ER, ES. apply R.
Qed.
Lemma init_sound : sound init.
Proof.
  split; [split|].
  - split.
    + intros [|[|i]] m key x; cbn; try discriminate. intros [= <-] [].
    + intros [|[|i]] m p; cbn; try discriminate. intros [= <-]. discriminate.
    + intros [|[|i]] m; cbn; try discriminate. intros [= <-]. cbn. lia.
  - intros [|[|i]] m; cbn; try discriminate. intros [= <-]. cbn. lia.
  - intros [|[|i]] m; cbn; try discriminate. intros [= <-]. exact I.
  - intros c j. cbn. split; [discriminate|]. intros (t & T & I). destruct j as [|[|j]]; try discriminate. injection T as <-. destruct I.
  - intros c x. cbn. destruct (eq_dec c 0); [intros [= <-]; lia|discriminate].
Qed.
Lemma run_all ops : sound (run view ops).
Proof. unfold run. generalize init_sound. generalize init. induction ops as [|o ops IH]; intros s S; cbn; auto. apply IH. destruct o as [c|k]; cbn; [apply set_state_sound|apply run_sound]; exact S. Qed.
End View.

(** ** Locks *)
Lemma held_unfinished s t c : In c (held s (t_pc t)) -> in_progress t = true.
Proof. unfold in_progress. destruct (t_pc t); cbn; tauto. Qed.
(** In every schedule of every program: a component is locked by at most one render, which is in progress; if no render is
    in progress nothing is locked. *)
Theorem C78_locks : forall view ops, let s := run view ops in
  (forall c k, y_holder s c = Some k -> exists t, nth_error (y_tasks s) k = Some t /\ in_progress t = true /\ In c (held s (t_pc t))) /\
  (forall c j k t u, nth_error (y_tasks s) j = Some t -> nth_error (y_tasks s) k = Some u -> In c (held s (t_pc t)) -> In c (held s (t_pc u)) -> j = k) /\
  (idle s -> forall c, y_holder s c = None).
Proof.
  intros view ops s. destruct (run_all view ops) as [Q _]. fold s in Q. split; [|split].
  - intros c k H. apply (q_hold _ Q) in H as (t & T & I). exists t. split; [exact T|]. split; [eapply held_unfinished; eauto|exact I].
  - intros c j k t u T U I1 I2. assert (H1 : y_holder s c = Some j) by (apply (q_hold _ Q); eauto). assert (H2 : y_holder s c = Some k) by (apply (q_hold _ Q); eauto). congruence.
  - intros ID c. destruct (y_holder s c) as [k|] eqn:H; [|reflexivity]. apply (q_hold _ Q) in H as (t & T & I). apply held_unfinished in I. rewrite (ID _ _ T) in I. discriminate.
Qed.
Print Assumptions C78_locks.

Lemma stack_below s : forall st c x, stack s c st -> In x (fs s st) -> x < c.
Proof. induction st as [|f st IH]; cbn; [tauto|]. intros c x (P & L & ST) [<-|I]; [exact L|]. specialize (IH _ _ ST I). lia. Qed.
Lemma ready_some s : quiet s -> forall d k t, nth_error (y_tasks s) k = Some t -> finished t = false ->
  (match t_pc t with Wait n _ _ => y_next s - lcs s n <= d | _ => True end) -> exists j u, nth_error (y_tasks s) j = Some u /\ finished u = false /\ ready s j = true.
Proof.
  intros Q. induction d as [|d IH]; intros k t T F D.
  all: destruct (ready s k) eqn:R; [exists k, t; auto|]; pose proof R as R'; unfold ready in R; rewrite T, F in R; cbn in R; destruct (t_cancel t); [discriminate|]; destruct (t_pc t) as [|n old st|n old st| | |] eqn:PC; cbn in R; try discriminate;
    destruct (y_holder s (lcs s n)) as [j|] eqn:HO; [|discriminate]; apply (q_hold _ Q) in HO as (u & U & I); pose proof (q_pc _ Q _ _ T) as PT; rewrite PC in PT; destruct PT as [[PL _] _].
  all: destruct (nth_error (y_states s) n) as [m|] eqn:EM; [|apply nth_error_None in EM; lia]; pose proof (w_lcs _ (q_store _ Q) _ _ EM) as LN; (assert (LL : lcs s n = m_lcs m) by (rewrite lcs_nth, EM; reflexivity)).
  - lia.
  - pose proof (q_pc _ Q _ _ U) as PU. assert (FU : finished u = false) by (apply held_unfinished in I; unfold in_progress in I; unfold finished; destruct (t_pc u); congruence). apply (IH j u U FU). destruct (t_pc u) as [|n' old' st'|n' old' st'| | |]; auto.
    cbn in I, PU. destruct PU as [_ ST]. fold (fs s st') in I. pose proof (stack_below _ _ _ _ ST I). lia.
Qed.
(** No deadlock: as long as a render task is not finished, some task can go on. *)
Theorem C78_progress : forall view ops k t, let s := run view ops in
  nth_error (y_tasks s) k = Some t -> finished t = false -> exists j u, nth_error (y_tasks s) j = Some u /\ finished u = false /\ ready s j = true.
Proof. intros view ops k t s T F. destruct (run_all view ops) as [Q _]. eapply (ready_some s Q (y_next s)); [exact T|exact F|]. destruct (t_pc t); auto. lia. Qed.
Print Assumptions C78_progress.

(** ** Renders end *)
Definition ty_of (s : sys) (i : nat) : nat := m_type (state s i).
Record mild (k : nat) (s s' : sys) : Prop := {
  d_len : length (y_states s) <= length (y_states s');
  d_ty : forall i, i < length (y_states s) -> ty_of s' i = ty_of s i;
  d_ver : y_ver s' = y_ver s;
  d_tasks : length (y_tasks s') = length (y_tasks s);
  d_task : forall j t, nth_error (y_tasks s) j = Some t -> exists t', nth_error (y_tasks s') j = Some t' /\ t_old t' = t_old t /\ (j <> k -> t_pc t' = t_pc t)
}.
Lemma mild_trans k a b c : mild k a b -> mild k b c -> mild k a c.
Proof.
  intros A B. split; [pose proof (d_len _ _ _ A); pose proof (d_len _ _ _ B); lia| | | |].
  - intros i L. rewrite (d_ty _ _ _ B) by (pose proof (d_len _ _ _ A); lia). apply (d_ty _ _ _ A); auto.
  - rewrite (d_ver _ _ _ B). apply (d_ver _ _ _ A).
  - rewrite (d_tasks _ _ _ B). apply (d_tasks _ _ _ A).
  - intros j t T. destruct (d_task _ _ _ A _ _ T) as (u & U & O & P). destruct (d_task _ _ _ B _ _ U) as (v & V & O' & P'). exists v. split; [exact V|]. split; [congruence|]. intros N. rewrite P', P; auto.
Qed.
Lemma mild_same k s s' : y_states s' = y_states s -> y_ver s' = y_ver s -> y_tasks s' = y_tasks s -> mild k s s'.
Proof. intros E1 E2 E3. split; auto; [rewrite E1; lia|intros i _; unfold ty_of, state; rewrite E1; reflexivity|rewrite E3; reflexivity|]. intros j t T. exists t. rewrite E3. auto. Qed.
Lemma modify_mild k i f s : (forall m, m_type (f m) = m_type m) -> mild k s (modify i f s).
Proof.
  intros F. split; auto; [cbn; rewrite put_length; lia| |intros j t T; exists t; auto]. intros j L. unfold ty_of, state, modify. cbn. destruct (Nat.eq_dec i j) as [<-|NE].
  - erewrite nth_error_nth; [|apply put_same; exact L]. apply F.
  - destruct (nth_error (y_states s) j) as [m|] eqn:E; [|apply nth_error_None in E; lia]. rewrite (nth_error_nth _ _ _ E). erewrite nth_error_nth; [reflexivity|]. rewrite put_other by auto. exact E.
Qed.

Lemma set_pc_mild k p s : mild k s (set_pc k p s).
Proof.
  unfold set_pc. destruct (nth_error (y_tasks s) k) as [t|] eqn:T; [|apply mild_same; reflexivity]. assert (LK : k < length (y_tasks s)) by (apply nth_error_Some; congruence).
  split; auto; [cbn; apply put_length|]. intros j u U. cbn. destruct (Nat.eq_dec k j) as [<-|NE]; [rewrite put_same by auto; eexists; split; [reflexivity|]; cbn; split; congruence|rewrite put_other by auto; eauto].
Qed.
Lemma cancel_mild k j s : mild k s (cancel j s).
Proof.
  unfold cancel. destruct (nth_error (y_tasks s) j) as [t|] eqn:T; [|apply mild_same; reflexivity]. destruct (finished t); [apply mild_same; reflexivity|]. assert (LK : j < length (y_tasks s)) by (apply nth_error_Some; congruence).
  split; auto; [cbn; apply put_length|]. intros i u U. cbn. destruct (Nat.eq_dec j i) as [<-|NE]; [rewrite put_same by auto; eexists; split; [reflexivity|]; cbn; replace u with t by congruence; auto|rewrite put_other by auto; eauto].
Qed.
Definition at_pc (k : nat) (s : sys) (p : pc) : Prop := exists t, nth_error (y_tasks s) k = Some t /\ t_pc t = p.
Lemma set_pc_at k p s : k < length (y_tasks s) -> at_pc k (set_pc k p s) p.
Proof. intros LK. unfold set_pc. destruct (nth_error (y_tasks s) k) as [t|] eqn:T; [|apply nth_error_None in T; lia]. eexists. cbn. rewrite put_same by auto. split; reflexivity. Qed.
Lemma claim_mild k n old st s : k < length (y_tasks s) -> mild k s (claim k n old st s) /\ (at_pc k (claim k n old st s) (Wait n old st) \/ at_pc k (claim k n old st s) (Got n old st)).
Proof.
  intros LK. unfold claim. set (s1 := set_reg (dset (lcs s n) n (y_reg s)) s). match goal with |- mild _ _ (match y_holder ?x _ with _ => _ end) /\ _ => set (s2 := x) end.
  assert (G : mild k s s2).
  { apply (mild_trans k s s1); [apply mild_same; reflexivity|]. unfold s2. destruct (y_by_id s1 (lcs s n)) as [j|]; [|apply mild_same; reflexivity]. destruct (Nat.eqb j k); [apply mild_same; reflexivity|].
    eapply mild_trans; [|apply cancel_mild]. apply mild_same; reflexivity. }
  assert (L2 : k < length (y_tasks s2)) by (rewrite (d_tasks _ _ _ G); exact LK).
  destruct (y_holder s2 (lcs s n)); [split; [eapply mild_trans; [exact G|apply set_pc_mild]|left; apply set_pc_at; exact L2]|].
  split; [|right; apply set_pc_at; exact L2]. eapply mild_trans; [exact G|]. eapply mild_trans; [|apply set_pc_mild]. apply mild_same; reflexivity.
Qed.
Lemma new_mild k s s' m : y_states s' = y_states s ++ [m] -> y_ver s' = y_ver s -> y_tasks s' = y_tasks s -> mild k s s' /\ length (y_states s) < length (y_states s') /\ ty_of s' (length (y_states s)) = m_type m.
Proof.
  intros E1 E2 E3. split; [|rewrite E1, app_length; cbn; split; [lia|]; unfold ty_of, state; rewrite E1, app_nth2, Nat.sub_diag by lia; reflexivity].
  split; auto; [rewrite E1, app_length; lia| |rewrite E3; reflexivity|intros j t T; exists t; rewrite E3; auto]. intros i L. unfold ty_of, state. rewrite E1, app_nth1 by auto. reflexivity.
Qed.
Lemma unmount_mild k fuel stk s : mild k s (snd (unmount fuel stk s)).
Proof. destruct (unmount_same fuel stk s) as (r & e & ->). apply mild_same; reflexivity. Qed.
Lemma enter_mild k old par index key ty st s : k < length (y_tasks s) -> mild k s (snd (enter k old par index key ty st s)) /\
  (fst (enter k old par index key ty st s) = true -> exists n o, n < length (y_states (snd (enter k old par index key ty st s))) /\ ty_of (snd (enter k old par index key ty st s)) n = ty /\
     (at_pc k (snd (enter k old par index key ty st s)) (Wait n o st) \/ at_pc k (snd (enter k old par index key ty st s)) (Got n o st))).
Proof.
  intros LK. unfold enter.
  assert (FR : forall s o, k < length (y_tasks s) -> let s' := claim k (length (y_states s)) o st (fresh par index key ty s) in
    mild k s s' /\ exists n o, n < length (y_states s') /\ ty_of s' n = ty /\ (at_pc k s' (Wait n o st) \/ at_pc k s' (Got n o st))).
  { clear s LK. intros s o LK s'. destruct (new_mild k s (fresh par index key ty s) _ eq_refl eq_refl eq_refl) as (A & B & C). destruct (claim_mild k (length (y_states s)) o st (fresh par index key ty s)) as [D E]; [exact LK|]. fold s' in D, E.
    split; [eapply mild_trans; eauto|]. exists (length (y_states s)), o. split; [pose proof (d_len _ _ _ D); lia|]. split; [rewrite (d_ty _ _ _ D) by exact B; exact C|exact E]. }
  destruct old as [o|]; [|cbn [fst snd]; destruct (FR s None LK) as [A B]; auto]. destruct (Nat.eqb_spec (m_type (state s o)) ty) as [E|NE]; cbn [fst snd].
  - destruct (new_mild k s (renew o par index s) _ eq_refl eq_refl eq_refl) as (A & B & C). destruct (claim_mild k (length (y_states s)) (Some o) st (renew o par index s)) as [D F]; [exact LK|].
    split; [eapply mild_trans; eauto|]. intros _. exists (length (y_states s)), (Some o). split; [pose proof (d_len _ _ _ D); lia|]. split; [rewrite (d_ty _ _ _ D) by exact B; rewrite C; exact E|exact F].
  - pose proof (unmount_mild k (length (y_reg s)) [o] s) as U. destruct (unmount_same (length (y_reg s)) [o] s) as (r & e & US). destruct (unmount (length (y_reg s)) [o] s) as [[|] s1]; cbn [fst snd] in *; [|split; [exact U|discriminate]].
    replace (length (y_states s)) with (length (y_states s1)) by (rewrite US; reflexivity). destruct (FR s1 None) as [A B]; [rewrite (d_tasks _ _ _ U); exact LK|]. split; [eapply mild_trans; eauto|auto].
Qed.
Lemma complete_mild k n s : k < length (y_tasks s) -> mild k s (complete k n s) /\ at_pc k (complete k n s) Done.
Proof.
  intros LK. unfold complete. destruct (start_effects_eq k s) as [e ->]. match goal with |- mild _ _ (set_pc _ _ ?x) /\ _ => assert (G : mild k s x) end.
  { destruct (m_parent (state (set_eff e s) n)) as [p|]; [|apply mild_same; reflexivity]. match goal with |- mild _ _ (set_log _ ?x) => apply (mild_trans k s x) end; [|apply mild_same; reflexivity]. apply (mild_trans k s (set_eff e s)); [apply mild_same; reflexivity|]. apply modify_mild. reflexivity. }
  split; [eapply mild_trans; [exact G|apply set_pc_mild]|]. apply set_pc_at. rewrite (d_tasks _ _ _ G). exact LK.
Qed.

Definition sum (l : list nat) : nat := fold_right Nat.add 0 l.
Lemma sum_app a b : sum (a ++ b) = sum a + sum b.
Proof. unfold sum. induction a; cbn; lia. Qed.
Section Weight.
Variable view : nat -> nat -> list (nat * nat).
Variable rank : nat -> nat.
Hypothesis deep : forall ty v key ty', In (key, ty') (view ty v) -> rank ty' < rank ty.
Variable top : nat.
(** The most that a render of a component can take. *)
Fixpoint cost (fuel ty : nat) : nat :=
  S (match fuel with 0 => 0 | S f => sum (map (fun v => sum (map (fun kt => cost f (snd kt)) (view ty v))) (seq 0 (S top))) end).
Definition weight (ty : nat) : nat := cost (rank ty) ty.
Lemma sum_in x l : In x l -> x <= sum l.
Proof. unfold sum. induction l as [|y l IH]; cbn; [tauto|]. intros [->|I]; [lia|specialize (IH I); lia]. Qed.
Lemma sum_le {A} (f g : A -> nat) l : (forall x, In x l -> f x <= g x) -> sum (map f l) <= sum (map g l).
Proof. unfold sum. induction l as [|y l IH]; cbn; [lia|]. intros H. assert (f y <= g y) by auto. assert (fold_right Nat.add 0 (map f l) <= fold_right Nat.add 0 (map g l)) by auto. lia. Qed.
Lemma cost_mono : forall f g ty, rank ty <= f -> f <= g -> cost f ty <= cost g ty.
Proof.
  induction f as [|f IH]; intros g ty R L; [destruct g; cbn; lia|]. destruct g as [|g]; [lia|]. cbn [cost]. apply le_n_S. apply sum_le. intros v _. apply sum_le. intros [key ty'] I. cbn. apply deep in I. apply IH; lia.
Qed.
Lemma weight_kids ty v : v <= top -> sum (map (fun kt => weight (snd kt)) (view ty v)) < weight ty.
Proof.
  intros LV. unfold weight at 2. destruct (rank ty) as [|r] eqn:R.
  - destruct (view ty v) as [|[key ty'] l] eqn:E; [cbn; lia|]. assert (I : In (key, ty') (view ty v)) by (rewrite E; left; reflexivity). apply deep in I. lia.
  - cbn [cost]. apply le_n_S. eapply Nat.le_trans; [|apply sum_in; apply in_map_iff; exists v; split; [reflexivity|apply in_seq; lia]]. apply sum_le. intros [key ty'] I. apply deep in I. cbn. apply cost_mono; lia.
Qed.
Lemma weight_pos ty : 1 <= weight ty.
Proof. unfold weight. destruct (rank ty); cbn; lia. Qed.
Definition todo_w (st : list frame) : nat := sum (map (fun f => sum (map (fun x => weight (snd (snd x))) (f_todo f))) st).
Lemma todo_cons f st : todo_w (f :: st) = sum (map (fun x => weight (snd (snd x))) (f_todo f)) + todo_w st.
Proof. reflexivity. Qed.
Lemma sum_cons x l : sum (x :: l) = x + sum l.
Proof. reflexivity. Qed.
Definition left (s : sys) (t : task) : nat :=
  match t_pc t with
  | Start => S (weight (ty_of s (t_old t)))
  | Wait n _ st | Got n _ st => weight (ty_of s n) + todo_w st
  | _ => 0
  end.
Definition left_of (k : nat) (s : sys) : nat := match nth_error (y_tasks s) k with Some t => left s t | None => 0 end.
Lemma descend_left k : forall st s, st <> [] -> k < length (y_tasks s) -> mild k s (descend k st s) /\ left_of k (descend k st s) <= todo_w st.
Proof.
  induction st as [|f rest IH]; intros s NE LK; [congruence|]. cbn [descend].
  assert (CLOSE : forall s, k < length (y_tasks s) -> let s' := let s1 := release (lcs s (f_new f)) s in match rest with [] => complete k (f_new f) s1 | g :: _ => descend k rest (attach (f_new g) (f_new f) s1) end in
    mild k s s' /\ left_of k s' <= todo_w rest).
  { clear s NE LK. intros s LK. cbn zeta. set (s1 := release _ s). assert (M1 : mild k s s1) by (apply mild_same; reflexivity). destruct rest as [|g rest'].
    - destruct (complete_mild k (f_new f) s1) as [M (t & T & P)]; [exact LK|]. split; [eapply mild_trans; eauto|]. unfold left_of. rewrite T. unfold left. rewrite P. lia.
    - set (s2 := attach _ _ s1). assert (M2 : mild k s1 s2) by (apply modify_mild; reflexivity). destruct (IH s2) as [A B]; [discriminate|exact LK|]. split; [|exact B]. eapply mild_trans; [exact M1|]. eapply mild_trans; eauto. }
  rewrite todo_cons.
  destruct (f_todo f) as [|[i [key ty]] todo]; [destruct (CLOSE s LK) as [A B]; split; [exact A|]; eapply Nat.le_trans; [exact B|]; lia|].
  set (old := match f_old f with Some _ => _ | None => None end). set (st' := Frame (f_new f) (f_old f) todo :: rest). destruct (enter_mild k old (Some (f_new f)) i key ty st' s LK) as [M H].
  destruct (enter k old (Some (f_new f)) i key ty st' s) as [[|] s1]; cbn [fst snd] in M, H.
  - split; [exact M|]. destruct (H eq_refl) as (n & o & _ & TY & P). assert (E : left_of k s1 = weight ty + todo_w st').
    { unfold left_of. destruct P as [(t & T & P)|(t & T & P)]; rewrite T; unfold left; rewrite P, TY; reflexivity. }
    rewrite E. unfold st'. rewrite todo_cons. cbn [map f_todo snd]. rewrite sum_cons. lia.
  - clear H. assert (L1 : k < length (y_tasks s1)) by (rewrite (d_tasks _ _ _ M); exact LK). destruct (CLOSE (fail (f_new f) s1) L1) as [A B]. split; [|eapply Nat.le_trans; [exact B|]; lia]. eapply mild_trans; [exact M|]. eapply mild_trans; [|exact A]. apply modify_mild. reflexivity.
Qed.
Lemma todo_number : forall (kids : list (nat * nat)) i, sum (map (fun x => weight (snd (snd x))) (number i kids)) = sum (map (fun kt => weight (snd kt)) kids).
Proof. unfold sum. induction kids as [|kt kids IH]; intros i; cbn; [reflexivity|]. rewrite IH. reflexivity. Qed.
Lemma body_left k n old st s : (forall c, y_ver s c <= top) -> k < length (y_tasks s) -> mild k s (body view k n old st s) /\ left_of k (body view k n old st s) < weight (ty_of s n) + todo_w st.
Proof.
  intros V LK. unfold body. set (kids := view _ _). set (s1 := set_flag _ s). set (s2 := match nth_error (y_tasks s1) k with Some t => _ | None => s1 end). set (s3 := modify n _ s2).
  assert (WK : sum (map (fun kt => weight (snd kt)) kids) < weight (ty_of s n)) by (apply weight_kids, V).
  assert (M3 : mild k s s3).
  { eapply mild_trans; [apply (mild_same k s s1); reflexivity|]. apply (mild_trans k s1 s2); [|apply modify_mild; reflexivity]. unfold s2. destruct (nth_error (y_tasks s1) k) as [t|] eqn:T; [|apply mild_same; reflexivity].
    assert (L1 : k < length (y_tasks s1)) by exact LK. split; auto; [cbn; apply put_length|]. intros j u U. cbn [y_tasks set_tasks]. destruct (Nat.eq_dec k j) as [<-|NE]; [rewrite put_same by auto; eexists; split; [reflexivity|]; cbn; split; congruence|rewrite put_other by auto; eauto]. }
  assert (L3 : k < length (y_tasks s3)) by (rewrite (d_tasks _ _ _ M3); exact LK).
  assert (GO : forall s' todo, mild k s s' -> sum (map (fun x => weight (snd (snd x))) todo) < weight (ty_of s n) -> let r := descend k (Frame n old todo :: st) s' in mild k s r /\ left_of k r < weight (ty_of s n) + todo_w st).
  { intros s' todo M W r. destruct (descend_left k (Frame n old todo :: st) s') as [A B]; [discriminate|rewrite (d_tasks _ _ _ M); exact LK|]. fold r in A, B. split; [eapply mild_trans; eauto|]. rewrite todo_cons in B. cbn [f_todo] in B. lia. }
  assert (FAIL : forall s', mild k s s' -> let r := descend k (Frame n old [] :: st) (fail n s') in mild k s r /\ left_of k r < weight (ty_of s n) + todo_w st).
  { intros s' M. apply GO; [eapply mild_trans; [exact M|apply modify_mild; reflexivity]|]. cbn. apply weight_pos. }
  destruct (nodupb (map fst kids)); [|apply FAIL; exact M3].
  match goal with |- context [unmount ?a ?b ?c] => pose proof (unmount_mild k a b c) as U; destruct (unmount a b c) as [[|] s4] end; cbn [snd] in U; [|apply FAIL; eapply mild_trans; eauto].
  apply GO; [eapply mild_trans; eauto|]. rewrite todo_number. exact WK.
Qed.
Lemma run_left k s : sound s -> (forall c, y_ver s c <= top) -> ready s k = true -> mild k s (run_task view k s) /\ left_of k (run_task view k s) < left_of k s.
Proof.
  intros [Q _] V R. unfold ready in R. unfold run_task, left_of at 2. destruct (nth_error (y_tasks s) k) as [t|] eqn:T; [|discriminate]. assert (LK : k < length (y_tasks s)) by (apply nth_error_Some; congruence).
  destruct (finished t) eqn:F; [discriminate|]. cbn in R. destruct (t_cancel t).
  - unfold unwind. match goal with |- context [start_effects k ?x] => destruct (start_effects_eq k x) as [e ->]; set (s1 := set_eff e x) end. assert (M1 : mild k s s1) by (apply mild_same; reflexivity).
    split; [eapply mild_trans; [exact M1|apply set_pc_mild]|]. destruct (set_pc_at k Cancelled s1 LK) as (u & U & P). unfold left_of. rewrite U. unfold left at 1. rewrite P. unfold left. unfold finished in F. destruct (t_pc t); try discriminate; try lia; pose proof (weight_pos (ty_of s new)); lia.
  - unfold left. destruct (t_pc t) as [|n old st|n old st| | |] eqn:PC; cbn in R; try discriminate; unfold finished in F; rewrite ?PC in F; try discriminate.
    + unfold start. pose proof (q_old _ Q _ _ T) as LO.
      assert (GO : forall par, let r := snd (enter k (Some (t_old t)) par (m_index (state s (t_old t))) (m_key (state s (t_old t))) (m_type (state s (t_old t))) [] s) in mild k s r /\ left_of k r < S (weight (ty_of s (t_old t)))).
      { intros par r. destruct (enter_mild k (Some (t_old t)) par (m_index (state s (t_old t))) (m_key (state s (t_old t))) (m_type (state s (t_old t))) [] s LK) as [M H]. fold r in M, H. split; [exact M|].
        destruct H as (n & o & _ & TY & P); [unfold enter; rewrite Nat.eqb_refl; reflexivity|]. unfold left_of. destruct P as [(u & U & P)|(u & U & P)]; rewrite U; unfold left; rewrite P, TY; unfold ty_of, todo_w; cbn; lia. }
      destruct (m_parent (state s (t_old t))) as [p|]; [destruct (alive s p)|]; try apply GO. split; [eapply mild_trans; [apply set_pc_mild|apply mild_same; reflexivity]|].
      destruct (set_pc_at k Failed s LK) as (u & U & P). unfold left_of. change (y_tasks (set_over true (set_pc k Failed s))) with (y_tasks (set_pc k Failed s)). rewrite U. unfold left. rewrite P. lia.
    + destruct (y_holder s (lcs s n)); [discriminate|]. set (s1 := set_holder _ s). destruct (body_left k n old st s1 V LK) as [A B]. split; [eapply mild_trans; [apply (mild_same k s s1); reflexivity|exact A]|exact B].
    + apply body_left; auto.
Qed.
Definition total (s : sys) : nat := sum (map (left s) (y_tasks s)).
Lemma left_mild k s s' j t t' : quiet s -> mild k s s' -> nth_error (y_tasks s) j = Some t -> t_old t' = t_old t -> t_pc t' = t_pc t -> left s' t' = left s t.
Proof.
  intros Q M T O P. unfold left. rewrite O, P. pose proof (q_old _ Q _ _ T) as LO. pose proof (q_pc _ Q _ _ T) as PO. destruct (t_pc t) as [|n old st|n old st| | |]; auto; cbn in PO; rewrite (d_ty _ _ _ M); auto; apply PO.
Qed.
Lemma sum_less {A} (f g : A -> nat) : forall (l l' : list A) k, length l' = length l -> (forall j x x', j <> k -> nth_error l j = Some x -> nth_error l' j = Some x' -> g x' = f x) ->
  (forall x x', nth_error l k = Some x -> nth_error l' k = Some x' -> g x' < f x) -> k < length l -> sum (map g l') < sum (map f l).
Proof.
  induction l as [|x l IH]; intros [|x' l'] k E H1 H2 L; cbn in *; try lia. injection E as E. destruct k as [|k].
  - assert (g x' < f x) by (apply H2; reflexivity). assert (EQ : map g l' = map f l).
    { clear - E H1. revert l' E H1. induction l as [|y l IH]; intros [|y' l'] E H1; cbn in *; try discriminate; auto. f_equal; [apply (H1 1); auto|]. apply IH; [congruence|]. intros [|j] z z' N Z Z'; [congruence|]. apply (H1 (S (S j))); auto. }
    rewrite EQ. unfold sum in *. cbn. lia.
  - assert (g x' = f x) by (apply (H1 0); auto). assert (sum (map g l') < sum (map f l)); [|unfold sum in *; cbn; lia]. apply (IH l' k); auto; [|lia]. intros j y y' N. apply (H1 (S j)). congruence.
Qed.
Lemma run_total k s : sound s -> (forall c, y_ver s c <= top) -> ready s k = true -> total (run_task view k s) < total s.
Proof.
  intros S V R. destruct (run_left k s S V R) as [M L]. destruct (nth_error (y_tasks s) k) as [t|] eqn:T; [|unfold ready in R; rewrite T in R; discriminate].
  unfold total. apply sum_less with (k := k).
  - apply (d_tasks _ _ _ M).
  - intros j x x' N X X'. destruct (d_task _ _ _ M _ _ X) as (y & Y & O & P). replace y with x' in * by congruence. eapply left_mild; [apply S|exact M|exact X|exact O|auto].
  - intros x x' X X'. unfold left_of in L. rewrite X, X' in L. exact L.
  - apply nth_error_Some. congruence.
Qed.
End Weight.
(** Every task run is one that can be resumed. *)
Fixpoint ready_runs (view : nat -> nat -> list (nat * nat)) (s : sys) (ks : list nat) : Prop :=
  match ks with [] => True | k :: r => ready s k = true /\ ready_runs view (step view s (Run k)) r end.
Lemma ready_bound view rank top (deep : forall ty v key ty', In (key, ty') (view ty v) -> rank ty' < rank ty) : forall ks s, sound s -> (forall c, y_ver s c <= top) -> ready_runs view s ks -> length ks <= total view rank top s.
Proof.
  induction ks as [|k ks IH]; intros s S V R; cbn; [lia|]. destruct R as [R1 R2]. cbn in R2. pose proof (run_total view rank deep top k s S V R1) as L. destruct (run_left view rank deep top k s S V R1) as [M _].
  assert (length ks <= total view rank top (run_task view k s)); [|lia]. apply IH; [apply run_sound; exact S|rewrite (d_ver _ _ _ M); exact V|exact R2].
Qed.
Lemma run_stuck view k s : ready s k = false -> run_task view k s = s.
Proof. unfold ready, run_task. destruct (nth_error (y_tasks s) k) as [t|]; [|auto]. destruct (finished t); [auto|]. cbn. destruct (t_cancel t); [discriminate|]. destruct (t_pc t) as [|n old st|n old st| | |]; cbn; try discriminate. destruct (y_holder s (lcs s n)); [auto|discriminate]. Qed.
Lemma ver_bound view rank ops (deep : forall ty v key ty', In (key, ty') (view ty v) -> rank ty' < rank ty) : exists top, forall c, y_ver (run view ops) c <= top.
Proof.
  unfold run. assert (V0 : exists top, forall c, y_ver init c <= top) by (exists 0; auto). revert V0. generalize init_sound. generalize init. induction ops as [|o ops IH]; intros s S [top V]; cbn; [eauto|]. apply IH.
  - destruct o as [c|k]; cbn; [apply set_state_sound|apply run_sound]; exact S.
  - destruct o as [c|k]; cbn.
    + exists (Datatypes.S top). intros d. destruct (set_state_eq c s) as (vr & fl & by_ & ts & -> & D). cbn. assert (V' : forall d, at_ (y_ver s) c (Datatypes.S (y_ver s c)) d <= Datatypes.S top) by (intros d'; unfold at_; destruct (Nat.eqb d' c); [specialize (V c)|specialize (V d')]; lia).
      destruct D as [(-> & _)|[(-> & _)|[(-> & _)|(-> & _)]]]; auto.
    + exists top. destruct (ready s k) eqn:R; [|rewrite run_stuck by exact R; exact V]. destruct (run_left view rank deep top k s S V R) as [M _]. rewrite (d_ver _ _ _ M). exact V.
Qed.
(** Renders end: if the components of the program do not nest without end, then from any point of any schedule on only so
    many runs are possible without further state changes, and when no task can go on every task is finished and nothing is
    locked. *)
Theorem C78_finish : forall view rank, (forall ty v key ty', In (key, ty') (view ty v) -> rank ty' < rank ty) ->
  forall ops, exists bound, forall ks, ready_runs view (run view ops) ks -> length ks <= bound /\
    let s := fold_left (step view) (map Run ks) (run view ops) in
    (forall k, ready s k = false) -> (forall k t, nth_error (y_tasks s) k = Some t -> finished t = true) /\ (forall c, y_holder s c = None).
Proof.
  intros view rank deep ops. destruct (ver_bound view rank ops deep) as [top V]. exists (total view rank top (run view ops)). intros ks R. split; [apply (ready_bound view rank top deep ks _ (run_all view ops) V R)|].
  intros s NR. assert (E : s = run view (ops ++ map Run ks)) by (unfold run; rewrite fold_left_app; reflexivity).
  assert (F : forall k t, nth_error (y_tasks s) k = Some t -> finished t = true).
  { intros k t T. destruct (finished t) eqn:F; [reflexivity|]. rewrite E in T. destruct (C78_progress _ _ _ _ T F) as (j & u & _ & _ & RJ). rewrite <- E in RJ. rewrite NR in RJ. discriminate. }
  split; [exact F|]. destruct (C78_locks view (ops ++ map Run ks)) as (_ & _ & ID). rewrite <- E in ID. apply ID. intros k t T. specialize (F _ _ T). unfold finished in F. unfold in_progress. destruct (t_pc t); congruence.
Qed.
Print Assumptions C78_finish.
(** A render of the root waits for the lock of a component that another render holds; what follows ends. *)
Example C78_finish_example :
  let rank ty := 5 - ty in
  let ops := runs 0 6 ++ [SetState 1; SetState 0; Run 1; Run 2; Run 2] in
  let s := run prog2 ops in
  (forall ty v key ty', In (key, ty') (prog2 ty v) -> rank ty' < rank ty) /\ y_holder s 1 = Some 1 /\ y_holder s 0 = Some 2 /\ ready s 2 = false /\ ready s 1 = true /\
  let ks := [1; 2; 2] in
  ready_runs prog2 s ks /\ forallb (fun k => negb (ready (fold_left (step prog2) (map Run ks) s) k)) [0; 1; 2] = true.
Proof.
  intros rank ops s. split.
  { intros ty v key ty'. destruct ty as [|[|[|ty]]], v as [|v]; cbn; intuition (try congruence); repeat match goal with H : (_, _) = (_, _) |- _ => injection H as <- <- end; lia. }
  split; [vm_compute; reflexivity|]. split; [vm_compute; reflexivity|]. split; [vm_compute; reflexivity|]. split; [vm_compute; reflexivity|]. intros ks. split; [|vm_compute; reflexivity]. repeat (split; [vm_compute; reflexivity|]). exact I.
Qed.
