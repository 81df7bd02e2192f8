(** * Property C77 when state changes come between renders *)
From Coq Require Import Arith Bool Lia List Permutation.
From Verif Require Import Dict EffectModel EffectProps AsyncTree AsyncTreeFacts AsyncTreeInv AsyncTreeProps AsyncTreeLocks.
Import ListNotations.

(** State changes happen when the first render is done and none is in progress, renders do not overlap, and none starts for
    a component that was removed after the request. *)
Fixpoint settled (view : nat -> nat -> list (nat * nat)) (s : sys) (ops : list op) : Prop :=
  match ops with
  | [] => True
  | o :: r =>
      match o with
      | SetState _ => idle s /\ y_log s <> []
      | Run k => (forall j t, j <> k -> nth_error (y_tasks s) j = Some t -> in_progress t = false) /\
                 (forall t, nth_error (y_tasks s) k = Some t -> t_pc t = Start -> t_cancel t = false -> registered s (lcs s (t_old t)) = true)
      end /\ settled view (step view s o) r
  end.

Definition due (s : sys) (j : nat) (t : task) : Prop := nth_error (y_tasks s) j = Some t /\ t_pc t = Start /\ t_cancel t = false.
Definition good (s : sys) (j : nat) (t : task) : Prop :=
  t_old t < length (y_states s) /\ (y_flag s (lcs s (t_old t)) = true \/ length (y_tasks s) = 1) /\ y_by_id s (lcs s (t_old t)) = Some j /\ forall x, dget (lcs s (t_old t)) (y_reg s) = Some x -> x = t_old t.
Definition others (k : nat) (s : sys) : Prop := forall j t, j <> k -> due s j t -> good s j t.
Definition none (k c : nat) (s : sys) : Prop := forall j t, j <> k -> due s j t -> lcs s (t_old t) <> c.
(** A change that keeps these. *)
Record keep (k : nat) (s s' : sys) : Prop := {
  e_ext : ext s s';
  e_flag : y_flag s' = y_flag s;
  e_by : y_by_id s' = y_by_id s;
  e_reg : forall c x, dget c (y_reg s') = Some x -> dget c (y_reg s) = Some x;
  e_due : forall j t, j <> k -> due s' j t -> due s j t;
  e_len : length (y_tasks s') = length (y_tasks s)
}.
Lemma keep_others k s s' : keep k s s' -> others k s -> others k s'.
Proof.
  intros [[X1 X2] F B R D LT] O j t N T. destruct (O j t N (D _ _ N T)) as (G1 & G2 & G3 & G4). unfold good. rewrite X2, F, B, LT by auto. split; [lia|]. split; [exact G2|]. split; [exact G3|]. intros x E. apply G4. apply R. exact E.
Qed.
Lemma keep_none k c s s' : keep k s s' -> others k s -> none k c s -> none k c s'.
Proof. intros [[X1 X2] F B R D LT] O NO j t N T. specialize (D _ _ N T). rewrite X2 by apply (O j t N D). eauto. Qed.
Lemma keep_trans k a b c : keep k a b -> keep k b c -> keep k a c.
Proof.
  intros [[X1 X2] F B R D LT] [[X1' X2'] F' B' R' D' LT']. split; [split; [lia|]|congruence|congruence| | |congruence]; eauto. intros i L. rewrite X2' by lia. auto.
Qed.
Lemma keep_same k s s' : y_states s' = y_states s -> y_flag s' = y_flag s -> y_by_id s' = y_by_id s -> y_reg s' = y_reg s -> y_tasks s' = y_tasks s -> keep k s s'.
Proof. intros E1 E2 E3 E4 E5. split; auto; [apply ext_refl; auto|rewrite E4; auto| |rewrite E5; reflexivity]. intros j t _ (T & P). split; [rewrite <- E5; exact T|exact P]. Qed.
Lemma keep_modify k i f s : (forall m, m_lcs (f m) = m_lcs m) -> keep k s (modify i f s).
Proof.
  intros F. split; auto. split; [cbn; rewrite put_length; lia|]. intros j L. unfold modify. rewrite !lcs_nth. cbn. destruct (Nat.eq_dec i j) as [<-|NE]; [|rewrite put_other by auto; reflexivity].
  rewrite put_same by auto. rewrite F. destruct (nth_error (y_states s) i) as [m|] eqn:E; [rewrite (state_nth _ _ _ E); reflexivity|apply nth_error_None in E; lia].
Qed.
Lemma keep_pc k p s : keep k s (set_pc k p s).
Proof.
  unfold set_pc. destruct (nth_error (y_tasks s) k) as [t|] eqn:T; [|apply keep_same; reflexivity]. split; auto; [apply ext_refl; reflexivity| |cbn; apply put_length]. intros j u N [U P]. cbn in U. rewrite put_other in U by auto. split; auto.
Qed.
Lemma keep_unmount k : forall fuel stk s, keep k s (snd (unmount fuel stk s)).
Proof.
  induction fuel as [|fuel IH]; intros [|i stk] s; cbn; try (apply keep_same; reflexivity). destruct (dmem (lcs s i) (y_reg s)); [|apply keep_same; reflexivity]. eapply keep_trans; [|apply IH]. split; auto; [apply ext_refl; reflexivity|]. cbn. intros c x.
  destruct (Nat.eq_dec c (lcs s i)) as [->|NE]; [rewrite dget_ddel_same; discriminate|rewrite dget_ddel_other; auto].
Qed.
Lemma keep_new k s s' m : y_states s' = y_states s ++ [m] -> y_flag s' = y_flag s -> y_by_id s' = y_by_id s -> y_reg s' = y_reg s -> y_tasks s' = y_tasks s -> keep k s s'.
Proof.
  intros E1 E2 E3 E4 E5. split; auto; [|rewrite E4; auto|intros j t _ (T & P); split; [rewrite <- E5; exact T|exact P]|rewrite E5; reflexivity]. split; [rewrite E1, app_length; lia|]. intros i L. rewrite !lcs_nth, E1, nth_error_app1 by auto. reflexivity.
Qed.
Lemma claim_others k n old st s : others k s -> others k (claim k n old st s) /\ none k (lcs s n) (claim k n old st s) /\ y_states (claim k n old st s) = y_states s.
Proof.
  intros O. unfold claim. set (c := lcs s n). set (s1 := set_reg (dset c n (y_reg s)) s). match goal with |- others _ (match y_holder ?x _ with _ => _ end) /\ _ => set (s2 := x) end.
  assert (LC : forall i, lcs s2 i = lcs s i) by (intros i; unfold s2; destruct (y_by_id s1 c) as [j|]; [destruct (Nat.eqb j k); [reflexivity|]|reflexivity]; unfold cancel; match goal with |- context [nth_error ?a ?b] => destruct (nth_error a b) as [t|]; [destruct (finished t)|] end; reflexivity).
  assert (ES : y_states s2 = y_states s) by (unfold s2; destruct (y_by_id s1 c) as [j|]; [destruct (Nat.eqb j k); [reflexivity|]|reflexivity]; unfold cancel; match goal with |- context [nth_error ?a ?b] => destruct (nth_error a b) as [t|]; [destruct (finished t)|] end; reflexivity).
  assert (DUE : forall j t, j <> k -> due s2 j t -> due s j t /\ lcs s (t_old t) <> c /\ y_flag s2 = y_flag s /\ y_reg s2 = dset c n (y_reg s) /\ (forall d, d <> c -> y_by_id s2 d = y_by_id s d)).
  { intros j t N (T & P & TC). unfold s2 in T |- *. change (y_by_id s1 c) with (y_by_id s c) in *. destruct (y_by_id s c) as [i|] eqn:BY.
    - destruct (Nat.eqb_spec i k) as [->|NI].
      + assert (D : due s j t) by (split; auto). split; [exact D|]. split; [|auto]. intros E. destruct (O j t N D) as (_ & _ & G & _). rewrite E in G. congruence.
      + set (s3 := set_by_id _ s1) in *.
        assert (D : due s j t /\ j <> i).
        { unfold cancel in T. destruct (nth_error (y_tasks s3) i) as [u|] eqn:U; [|split; [split; auto|]; intros ->; change (y_tasks s3) with (y_tasks s) in *; congruence]. destruct (finished u) eqn:FU.
          - split; [split; auto|]. intros ->. assert (u = t) as -> by congruence. unfold finished in FU. rewrite P in FU. discriminate.
          - cbn in T. destruct (Nat.eq_dec i j) as [<-|NE]; [rewrite put_same in T by (apply nth_error_Some; change (y_tasks s3) with (y_tasks s) in U; congruence); injection T as <-; discriminate|]. rewrite put_other in T by auto. split; [split; auto|auto]. }
        destruct D as [D NE]. split; [exact D|]. split; [intros E; destruct (O j t N D) as (_ & _ & G & _); rewrite E in G; congruence|].
        assert (X : y_flag (cancel i s3) = y_flag s /\ y_reg (cancel i s3) = dset c n (y_reg s) /\ y_by_id (cancel i s3) = at_ (y_by_id s) c None) by (unfold cancel; destruct (nth_error (y_tasks s3) i) as [u|]; [destruct (finished u)|]; auto).
        destruct X as (-> & -> & ->). split; [auto|]. split; [auto|]. intros d ND. apply at_other. auto.
    - assert (D : due s j t) by (split; auto). split; [exact D|]. split; [|auto]. intros E. destruct (O j t N D) as (_ & _ & G & _). rewrite E in G. congruence. }
  assert (LT : length (y_tasks s2) = length (y_tasks s)) by (unfold s2; destruct (y_by_id s1 c) as [j|]; [destruct (Nat.eqb j k); [reflexivity|]|reflexivity]; unfold cancel; match goal with |- context [nth_error ?a ?b] => destruct (nth_error a b) as [t|]; [destruct (finished t)|] end; try reflexivity; cbn; apply put_length).
  assert (O2 : others k s2 /\ none k c s2).
  { split; intros j t N D; destruct (DUE j t N D) as (D' & NE & F & R & B); [|rewrite LC; exact NE]. destruct (O j t N D') as (G1 & G2 & G3 & G4). unfold good. rewrite LC, ES, F, R, B, LT by auto. split; [exact G1|]. split; [exact G2|]. split; [exact G3|]. intros x. rewrite dget_dset_other by auto. apply G4. }
  destruct O2 as [O2 N2]. assert (K : forall p h, keep k s2 (set_pc k p (set_holder h s2))) by (intros p h; eapply keep_trans; [apply (keep_same k s2 (set_holder h s2)); reflexivity|apply keep_pc]).
  assert (SP : forall p u, y_states (set_pc k p u) = y_states u) by (intros p u; unfold set_pc; destruct (nth_error (y_tasks u) k); reflexivity).
  destruct (y_holder s2 c).
  - split; [eapply keep_others; [apply keep_pc|exact O2]|]. split; [eapply keep_none; [apply keep_pc|exact O2|exact N2]|]. rewrite SP. exact ES.
  - split; [eapply keep_others; [apply K|exact O2]|]. split; [eapply keep_none; [apply K|exact O2|exact N2]|]. rewrite SP. exact ES.
Qed.
(** At the end of a run of [k]. *)
Definition ended (k : nat) (s : sys) : Prop :=
  others k s /\ ~ at_pc k s Start /\ forall n o st, at_pc k s (Wait n o st) \/ at_pc k s (Got n o st) -> none k (lcs s n) s.
Lemma at_pc_eq k s p q : at_pc k s p -> at_pc k s q -> p = q.
Proof. intros (t & T & <-) (u & U & <-). congruence. Qed.
Lemma ended_claim k n old st s : k < length (y_tasks s) -> others k s -> ended k (claim k n old st s).
Proof.
  intros LK O. destruct (claim_others k n old st s O) as (A & B & E). destruct (claim_mild k n old st s LK) as [_ P]. split; [exact A|].
  assert (LL : lcs (claim k n old st s) n = lcs s n) by (rewrite !lcs_nth, E; reflexivity).
  split; [destruct P as [P|P]; intros Q; pose proof (at_pc_eq _ _ _ _ P Q); discriminate|]. intros n' o' st' Q. assert (n' = n) as -> by (destruct P as [P|P], Q as [Q|Q]; pose proof (at_pc_eq _ _ _ _ P Q); congruence). rewrite LL. exact B.
Qed.
Lemma ended_enter k old par index key ty st s : k < length (y_tasks s) -> others k s ->
  if fst (enter k old par index key ty st s) then ended k (snd (enter k old par index key ty st s)) else keep k s (snd (enter k old par index key ty st s)).
Proof.
  intros LK O. unfold enter.
  assert (NEW : forall s s' m o, k < length (y_tasks s) -> others k s -> y_states s' = y_states s ++ [m] -> y_flag s' = y_flag s -> y_by_id s' = y_by_id s -> y_reg s' = y_reg s -> y_tasks s' = y_tasks s -> ended k (claim k (length (y_states s)) o st s')).
  { clear s LK O. intros s s' m o LK O E1 E2 E3 E4 E5. apply ended_claim; [rewrite E5; exact LK|]. eapply keep_others; [eapply keep_new; eauto|exact O]. }
  destruct old as [o|]; [|cbn [fst snd]; eapply NEW; [exact LK|exact O| | | | |]; reflexivity]. destruct (Nat.eqb (m_type (state s o)) ty); cbn [fst snd]; [eapply NEW; [exact LK|exact O| | | | |]; reflexivity|].
  pose proof (keep_unmount k (length (y_reg s)) [o] s) as U. destruct (unmount_same (length (y_reg s)) [o] s) as (r & e & US). destruct (unmount (length (y_reg s)) [o] s) as [[|] s1]; cbn [fst snd] in *; [|exact U].
  replace (length (y_states s)) with (length (y_states s1)) by (rewrite US; reflexivity). eapply NEW; [rewrite US; exact LK|eapply keep_others; eauto| | | | |]; reflexivity.
Qed.
Lemma ended_pc k p s : k < length (y_tasks s) -> others k s -> match p with Done | Failed | Cancelled => True | _ => False end -> ended k (set_pc k p s).
Proof.
  intros LK O P. split; [eapply keep_others; [apply keep_pc|exact O]|]. pose proof (set_pc_at k p s LK) as A. split; [intros Q; pose proof (at_pc_eq _ _ _ _ A Q) as ->; exact P|].
  intros n o st [Q|Q]; pose proof (at_pc_eq _ _ _ _ A Q) as ->; destruct P.
Qed.
Lemma ended_complete k n s : k < length (y_tasks s) -> others k s -> ended k (complete k n s).
Proof.
  intros LK O. unfold complete. destruct (start_effects_eq k s) as [e ->]. match goal with |- ended _ (set_pc _ _ ?x) => assert (K : keep k s x /\ y_tasks x = y_tasks s) end.
  { destruct (m_parent (state (set_eff e s) n)) as [p|]; (split; [|reflexivity]); [|apply keep_same; reflexivity]. match goal with |- keep _ _ (set_log _ ?x) => apply (keep_trans k s x) end; [|apply keep_same; reflexivity].
    apply (keep_trans k s (set_eff e s)); [apply keep_same; reflexivity|]. apply keep_modify. reflexivity. }
  destruct K as [K E]. apply ended_pc; [rewrite E; exact LK|eapply keep_others; eauto|exact I].
Qed.
Lemma ended_descend k : forall st s, st <> [] -> k < length (y_tasks s) -> others k s -> ended k (descend k st s).
Proof.
  induction st as [|f rest IH]; intros s NE LK O; [congruence|]. cbn [descend].
  assert (CLOSE : forall s, k < length (y_tasks s) -> others k s -> ended k (let s1 := release (lcs s (f_new f)) s in match rest with [] => complete k (f_new f) s1 | g :: _ => descend k rest (attach (f_new g) (f_new f) s1) end)).
  { clear s NE LK O. intros s LK O. cbn zeta. set (s1 := release _ s). assert (O1 : others k s1) by (eapply keep_others; [|exact O]; apply keep_same; reflexivity). destruct rest as [|g rest']; [apply ended_complete; auto|].
    apply IH; [discriminate|exact LK|]. eapply keep_others; [|exact O1]. apply keep_modify. reflexivity. }
  destruct (f_todo f) as [|[i [key ty]] todo]; [apply CLOSE; auto|].
  set (old := match f_old f with Some _ => _ | None => None end). set (st' := Frame (f_new f) (f_old f) todo :: rest). pose proof (ended_enter k old (Some (f_new f)) i key ty st' s LK O) as H. destruct (enter_mild k old (Some (f_new f)) i key ty st' s LK) as [M _].
  destruct (enter k old (Some (f_new f)) i key ty st' s) as [[|] s1]; cbn [fst snd] in H, M; [exact H|]. apply CLOSE; [change (k < length (y_tasks s1)); rewrite (d_tasks _ _ _ M); exact LK|].
  eapply keep_others; [|exact O]. eapply keep_trans; [exact H|]. apply keep_modify. reflexivity.
Qed.
Section View.
Variable view : nat -> nat -> list (nat * nat).
Lemma ended_body k n old st s : k < length (y_tasks s) -> others k s -> none k (lcs s n) s -> ended k (body view k n old st s).
Proof.
  intros LK O NO. unfold body. set (c := lcs s n) in *. set (kids := view _ _). set (s1 := set_flag _ s). set (s2 := match nth_error (y_tasks s1) k with Some t => _ | None => s1 end). set (s3 := modify n _ s2).
  assert (O1 : others k s1). { intros j t N D. destruct (O j t N D) as (G1 & G2 & G3 & G4). split; [exact G1|]. split; [|auto]. unfold s1. cbn. rewrite at_other; [exact G2|]. apply (NO j t N D). }
  assert (L2 : length (y_tasks s2) = length (y_tasks s)) by (unfold s2; destruct (nth_error (y_tasks s1) k); [cbn; apply put_length|reflexivity]).
  assert (O3 : others k s3).
  { eapply keep_others; [apply keep_modify; reflexivity|]. eapply keep_others; [|exact O1]. unfold s2. destruct (nth_error (y_tasks s1) k) as [t|]; [|apply keep_same; reflexivity].
    split; [apply ext_refl; reflexivity|reflexivity|reflexivity|auto| |cbn; apply put_length]. intros j u N [U P]. cbn [y_tasks set_tasks] in U. rewrite put_other in U by auto. split; auto. }
  assert (L3 : k < length (y_tasks s3)) by (change (y_tasks s3) with (y_tasks s2); lia).
  assert (FAIL : forall s' todo, others k s' -> y_tasks s' = y_tasks s3 -> ended k (descend k (Frame n old todo :: st) (fail n s'))).
  { intros s' todo O' E. apply ended_descend; [discriminate|change (k < length (y_tasks s')); rewrite E; exact L3|]. eapply keep_others; [|exact O']. apply keep_modify. reflexivity. }
  destruct (nodupb (map fst kids)); [|apply FAIL; auto].
  match goal with |- context [unmount ?a ?b ?c] => destruct (unmount_same a b c) as (r & e & U); pose proof (keep_unmount k a b c) as K; destruct (unmount a b c) as [[|] s4] end; cbn [snd] in U, K; (assert (O4 : others k s4) by (eapply keep_others; [exact K|exact O3])).
  - apply ended_descend; [discriminate|rewrite U; exact L3|exact O4].
  - apply FAIL; [exact O4|rewrite U; reflexivity].
Qed.
Lemma body_mild k n old st s : k < length (y_tasks s) -> mild k s (body view k n old st s).
Proof.
  intros LK. unfold body. set (kids := view _ _). set (s1 := set_flag _ s). set (s2 := match nth_error (y_tasks s1) k with Some t => _ | None => s1 end). set (s3 := modify n _ s2).
  assert (M3 : mild k s s3).
  { eapply mild_trans; [apply (mild_same k s s1); reflexivity|]. apply (mild_trans k s1 s2); [|apply modify_mild; reflexivity]. unfold s2. destruct (nth_error (y_tasks s1) k) as [t|] eqn:T; [|apply mild_same; reflexivity].
    assert (L1 : k < length (y_tasks s1)) by exact LK. split; auto; [cbn; apply put_length|]. intros j u U. cbn [y_tasks set_tasks]. destruct (Nat.eq_dec k j) as [<-|NE]; [rewrite put_same by auto; eexists; split; [reflexivity|]; cbn; split; congruence|rewrite put_other by auto; eauto]. }
  assert (GO : forall s' todo, mild k s s' -> mild k s (descend k (Frame n old todo :: st) s')).
  { intros s' todo M. destruct (descend_left view (fun _ => 0) 0 k (Frame n old todo :: st) s') as [A _]; [discriminate|rewrite (d_tasks _ _ _ M); exact LK|]. eapply mild_trans; eauto. }
  assert (FAIL : forall s', mild k s s' -> mild k s (descend k (Frame n old [] :: st) (fail n s'))) by (intros s' M; apply GO; eapply mild_trans; [exact M|apply modify_mild; reflexivity]).
  destruct (nodupb (map fst kids)); [|apply FAIL; exact M3].
  match goal with |- context [unmount ?a ?b ?c] => pose proof (unmount_mild k a b c) as U; destruct (unmount a b c) as [[|] s4] end; cbn [snd] in U; [apply GO|apply FAIL]; eapply mild_trans; eauto.
Qed.
Lemma run_mild k s : mild k s (run_task view k s).
Proof.
  unfold run_task. destruct (nth_error (y_tasks s) k) as [t|] eqn:T; [|apply mild_same; reflexivity]. assert (LK : k < length (y_tasks s)) by (apply nth_error_Some; congruence). destruct (finished t); [apply mild_same; reflexivity|]. destruct (t_cancel t).
  - unfold unwind. match goal with |- context [start_effects k ?x] => destruct (start_effects_eq k x) as [e ->]; set (s1 := set_eff e x) end. apply (mild_trans k s s1); [apply mild_same; reflexivity|apply set_pc_mild].
  - destruct (t_pc t) as [|n old st|n old st| | |]; try (apply mild_same; reflexivity); [| |apply body_mild; exact LK].
    + unfold start. destruct (m_parent (state s (t_old t))) as [p|]; [destruct (alive s p)|]; try (apply enter_mild; exact LK). eapply mild_trans; [apply (set_pc_mild k Failed)|apply mild_same; reflexivity].
    + destruct (y_holder s (lcs s n)); [apply mild_same; reflexivity|]. match goal with |- mild _ _ (body _ _ _ _ _ ?x) => apply (mild_trans k s x) end; [apply mild_same; reflexivity|apply body_mild; exact LK].
Qed.
Definition tidy (s : sys) : Prop :=
  (forall j t, due s j t -> good s j t) /\
  (forall k n o st, at_pc k s (Wait n o st) \/ at_pc k s (Got n o st) -> none k (lcs s n) s).
Lemma tidy_run k s : sound s -> tidy s -> (forall j t, j <> k -> nth_error (y_tasks s) j = Some t -> in_progress t = false) ->
  (forall t, due s k t -> registered s (lcs s (t_old t)) = true) -> tidy (run_task view k s) /\ may_run s k.
Proof.
  intros S [J1 J2] ALONE REG. split.
  2: { split; [exact ALONE|]. intros t T P C. specialize (REG t (conj T (conj P C))). destruct (J1 k t (conj T (conj P C))) as (_ & _ & _ & G). unfold registered in REG. apply dmem_true in REG as [x E]. rewrite E. f_equal. auto. }
  assert (O : others k s) by (intros j t _ D; auto). destruct (ready s k) eqn:R; [|rewrite run_stuck by exact R; split; auto].
  assert (X : ended k (run_task view k s) /\ forall j t, j <> k -> nth_error (y_tasks (run_task view k s)) j = Some t -> in_progress t = false).
  2: { destruct X as [(E1 & E2 & E3) AL]. split.
       - intros j t D. destruct (Nat.eq_dec j k) as [->|N]; [|auto]. exfalso. apply E2. exists t. split; apply D.
       - intros i n o st P. destruct (Nat.eq_dec i k) as [->|N]; [eapply E3; exact P|]. destruct P as [(u & U & P)|(u & U & P)]; specialize (AL _ _ N U); unfold in_progress in AL; rewrite P in AL; discriminate. }
  split.
  - unfold ready in R. unfold run_task. destruct (nth_error (y_tasks s) k) as [t|] eqn:T; [|discriminate]. assert (LK : k < length (y_tasks s)) by (apply nth_error_Some; congruence). destruct (finished t) eqn:F; [discriminate|]. cbn in R. destruct (t_cancel t) eqn:TC.
    + unfold unwind. match goal with |- context [start_effects k ?x] => destruct (start_effects_eq k x) as [e ->]; set (s1 := set_eff e x) end. apply ended_pc; [exact LK| |exact I]. eapply keep_others; [|exact O]. apply keep_same; reflexivity.
    + destruct (t_pc t) as [|n old st|n old st| | |] eqn:PC; cbn in R; unfold finished in F; rewrite ?PC in F; try discriminate.
      * unfold start. assert (GO : forall par, ended k (snd (enter k (Some (t_old t)) par (m_index (state s (t_old t))) (m_key (state s (t_old t))) (m_type (state s (t_old t))) [] s))).
        { intros par. pose proof (ended_enter k (Some (t_old t)) par (m_index (state s (t_old t))) (m_key (state s (t_old t))) (m_type (state s (t_old t))) [] s LK O) as H. replace (fst (enter _ _ _ _ _ _ _ _)) with true in H by (unfold enter; rewrite Nat.eqb_refl; reflexivity). exact H. }
        destruct (m_parent (state s (t_old t))) as [p|]; [destruct (alive s p)|]; try apply GO. destruct (ended_pc k Failed s LK O I) as (E1 & E2 & E3). split; [|split]; [eapply keep_others; [|exact E1]; apply keep_same; reflexivity|exact E2|exact E3].
      * destruct (y_holder s (lcs s n)); [discriminate|]. set (s1 := set_holder _ s). assert (K : keep k s s1) by (apply keep_same; reflexivity). apply ended_body; [exact LK|eapply keep_others; eauto|]. eapply keep_none; [exact K|exact O|]. apply (J2 k n old st). left. exists t. auto.
      * apply ended_body; [exact LK|exact O|]. apply (J2 k n old st). right. exists t. auto.
  - intros j t N T. assert (M : mild k s (run_task view k s)) by apply run_mild. assert (L : j < length (y_tasks s)) by (rewrite <- (d_tasks _ _ _ M); apply nth_error_Some; congruence). destruct (nth_error (y_tasks s) j) as [u|] eqn:U; [|apply nth_error_None in U; lia].
    destruct (d_task _ _ _ M _ _ U) as (t' & T' & _ & P). replace t' with t in P by congruence. specialize (ALONE _ _ N U). unfold in_progress in *. rewrite P by auto. exact ALONE.
Qed.
Lemma tidy_set c s : sound s -> (forall d x, dget d (y_reg s) = Some x -> lcs s x = d) -> tidy s -> idle s -> (exists k, at_pc k s Done) -> tidy (set_state c s).
Proof.
  intros [Q R] RL [J1 J2] ID [k0 (t0 & T0 & P0)]. destruct (y_flag s c) eqn:FC.
  { unfold set_state. destruct (Nat.ltb c (y_next s)); [|split; assumption]. rewrite FC. split; [exact J1|exact J2]. }
  assert (ONE : forall j t, due s j t -> length (y_tasks s) = 1 -> False).
  { intros j t (T & P & _) L. assert (j < 1 /\ k0 < 1) as [Lj Lk] by (rewrite <- L; split; apply nth_error_Some; congruence). replace j with k0 in T by lia. congruence. }
  destruct (set_state_eq c s) as (vr & fl & by_ & ts & E & D). set (s' := set_state c s) in *. assert (ES : y_states s' = y_states s) by (rewrite E; reflexivity). assert (ER : y_reg s' = y_reg s) by (rewrite E; reflexivity).
  assert (LC : forall i, lcs s' i = lcs s i) by (intros i; rewrite !lcs_nth, ES; reflexivity).
  assert (G : forall j t, due s' j t -> (due s j t /\ (y_flag s' = y_flag s /\ y_by_id s' = y_by_id s \/ y_flag s' = at_ (y_flag s) c true /\ (y_by_id s' = y_by_id s \/ (lcs s (t_old t) <> c /\ forall d, d <> c -> y_by_id s' d = y_by_id s d)))) \/
     (y_flag s' = at_ (y_flag s) c true /\ y_by_id s' c = Some j /\ dget c (y_reg s) = Some (t_old t))).
  { intros j t (T & P & TC). rewrite E in T |- *. cbn in T |- *. destruct D as [(-> & -> & -> & ->)|[(-> & _ & -> & -> & ->)|[(-> & -> & _ & -> & ->)|(-> & -> & x & Rx & -> & ->)]]].
    - left. split; [split; auto|auto].
    - left. split; [split; auto|auto].
    - left. split; [split; auto|]. right. auto.
    - destruct (nth_error (y_tasks s) j) as [u|] eqn:U.
      + rewrite nth_error_app1 in T by (apply nth_error_Some; congruence). left. split; [split; auto|]. right. split; [reflexivity|]. right. split; [|intros d ND; apply at_other; auto].
        intros EC. destruct (J1 j t) as (_ & F & _); [split; auto|]. rewrite EC in F. destruct F as [F|F]; [congruence|]. apply (ONE j t); [split; auto|exact F].
      + apply nth_error_None in U. rewrite nth_error_app2 in T by auto. right. destruct (j - length (y_tasks s)) as [|d] eqn:DJ; [|destruct d; discriminate]. injection T as <-. split; [reflexivity|]. rewrite at_same. split; [f_equal; lia|exact Rx]. }
  split.
  - intros j t DU. unfold good. rewrite ES, ER, LC. destruct (G j t DU) as [[D0 C]|(F & B & Rx)].
    + destruct (J1 j t D0) as (G1 & G2 & G3 & G4). assert (G2' : y_flag s (lcs s (t_old t)) = true) by (destruct G2 as [G2|G2]; [exact G2|exfalso; eapply ONE; eauto]). split; [exact G1|]. destruct C as [[-> ->]|[-> C]]; [auto|]. assert (AT : at_ (y_flag s) c true (lcs s (t_old t)) = true) by (unfold at_; destruct (Nat.eqb _ _); auto). split; [left; exact AT|]. destruct C as [->|[N ->]]; auto.
    + split; [eapply R; exact Rx|]. rewrite (RL _ _ Rx). split; [left; rewrite F; apply at_same|]. split; [exact B|]. congruence.
  - intros k n o st P. exfalso. assert (X : exists u, nth_error (y_tasks s') k = Some u /\ in_progress u = true) by (destruct P as [(u & U & P)|(u & U & P)]; exists u; (split; [exact U|]); unfold in_progress; rewrite P; reflexivity).
    destruct X as (u & U & IP). rewrite E in U. cbn in U. assert (nth_error (y_tasks s) k = Some u \/ t_pc u = Start) as [U'|PS].
    { destruct D as [(_ & _ & _ & ->)|[(_ & _ & _ & _ & ->)|[(_ & _ & _ & _ & ->)|(_ & _ & x & _ & _ & ->)]]]; auto. apply nth_error_app_cases in U as [U|[<-|[]]]; auto. }
    + rewrite (ID _ _ U') in IP. discriminate.
    + unfold in_progress in IP. rewrite PS in IP. discriminate.
Qed.
Lemma inv_reg s : inv view s -> forall d x, dget d (y_reg s) = Some x -> lcs s x = d.
Proof.
  intros I d x E. assert (B : exists a b, base s a b) by (destruct I as [(B & _)|(k & t & n & old & st & m & okids & lk & lnew & lpend & H & out & cout & a & b & C & q & dcur & B & _)]; eauto).
  destruct B as (a & b & B). destruct (b_reg _ _ _ B _ _ E) as (m & Em & L). rewrite lcs_nth, Em. exact L.
Qed.
(** Updates are made by tasks that end. *)
Lemma pc_log k p s : y_log (set_pc k p s) = y_log s.
Proof. unfold set_pc. destruct (nth_error (y_tasks s) k); reflexivity. Qed.
Lemma claim_log k n old st s : y_log (claim k n old st s) = y_log s.
Proof.
  unfold claim. match goal with |- y_log (match y_holder ?x _ with _ => _ end) = _ => set (s2 := x); assert (E : y_log s2 = y_log s) end.
  { unfold s2. destruct (y_by_id _ _) as [j|]; [destruct (Nat.eqb j k); [reflexivity|]|reflexivity]. unfold cancel. match goal with |- context [nth_error ?a ?b] => destruct (nth_error a b) as [t|]; [destruct (finished t)|] end; reflexivity. }
  destruct (y_holder s2 (lcs s n)); rewrite pc_log; exact E.
Qed.
Lemma unmount_log fuel stk s : y_log (snd (unmount fuel stk s)) = y_log s.
Proof. destruct (unmount_same fuel stk s) as (r & e & ->). reflexivity. Qed.
Lemma enter_log k old par index key ty st s : y_log (snd (enter k old par index key ty st s)) = y_log s.
Proof.
  unfold enter. destruct old as [o|]; [|cbn [snd]; rewrite claim_log; reflexivity]. destruct (Nat.eqb (m_type (state s o)) ty); [cbn [snd]; rewrite claim_log; reflexivity|].
  pose proof (unmount_log (length (y_reg s)) [o] s) as U. destruct (unmount (length (y_reg s)) [o] s) as [[|] s1]; cbn [snd] in *; [rewrite claim_log|]; exact U.
Qed.
Definition logs (k : nat) (s s' : sys) : Prop := y_log s' = y_log s \/ at_pc k s' Done.
Lemma descend_log k : forall st s, k < length (y_tasks s) -> logs k s (descend k st s).
Proof.
  induction st as [|f rest IH]; intros s LK; cbn [descend]; [left; reflexivity|].
  assert (CLOSE : forall s, k < length (y_tasks s) -> logs k s (let s1 := release (lcs s (f_new f)) s in match rest with [] => complete k (f_new f) s1 | g :: _ => descend k rest (attach (f_new g) (f_new f) s1) end)).
  { clear s LK. intros s LK. cbn zeta. destruct rest as [|g rest']; [right; apply complete_mild; exact LK|]. destruct (IH (attach (f_new g) (f_new f) (release (lcs s (f_new f)) s)) LK) as [E|E]; [left; exact E|right; exact E]. }
  destruct (f_todo f) as [|[i [key ty]] todo]; [apply CLOSE; exact LK|].
  match goal with |- context [enter ?a ?b ?c ?d ?e ?f ?g ?h] => pose proof (enter_log a b c d e f g h) as E; destruct (enter_mild a b c d e f g h LK) as [M _]; destruct (enter a b c d e f g h) as [[|] s1] end; cbn [snd] in E, M; [left; exact E|].
  destruct (CLOSE (fail (f_new f) s1)) as [E'|E']; [change (k < length (y_tasks s1)); rewrite (d_tasks _ _ _ M); exact LK|left|right; exact E']. cbn zeta in E' |- *. rewrite E'. exact E.
Qed.
Lemma body_log k n old st s : k < length (y_tasks s) -> logs k s (body view k n old st s).
Proof.
  intros LK. unfold body. set (kids := view _ _). set (s1 := set_flag _ s). set (s2 := match nth_error (y_tasks s1) k with Some t => _ | None => s1 end). set (s3 := modify n _ s2).
  assert (E3 : y_log s3 = y_log s /\ length (y_tasks s3) = length (y_tasks s)) by (change (y_log s2 = y_log s /\ length (y_tasks s2) = length (y_tasks s)); unfold s2; destruct (nth_error (y_tasks s1) k); [split; [reflexivity|cbn; apply put_length]|split; reflexivity]). destruct E3 as [E3 L3].
  assert (GO : forall s' todo, y_log s' = y_log s -> length (y_tasks s') = length (y_tasks s) -> logs k s (descend k (Frame n old todo :: st) s')).
  { intros s' todo E L. destruct (descend_log k (Frame n old todo :: st) s') as [E'|E']; [lia|left; congruence|right; exact E']. }
  destruct (nodupb (map fst kids)); [|apply GO; [exact E3|exact L3]].
  match goal with |- context [unmount ?a ?b ?c] => destruct (unmount_same a b c) as (r & e & U); destruct (unmount a b c) as [[|] s4] end; cbn [snd] in U; subst s4; apply GO; auto.
Qed.
Lemma run_log k s : logs k s (run_task view k s).
Proof.
  unfold run_task. destruct (nth_error (y_tasks s) k) as [t|] eqn:T; [|left; reflexivity]. assert (LK : k < length (y_tasks s)) by (apply nth_error_Some; congruence). destruct (finished t); [left; reflexivity|]. destruct (t_cancel t).
  - left. unfold unwind. rewrite pc_log. unfold start_effects. match goal with |- context [nth_error ?a ?b] => destruct (nth_error a b) end; reflexivity.
  - destruct (t_pc t) as [|n old st|n old st| | |]; try (left; reflexivity); [| |apply body_log; exact LK].
    + left. unfold start. destruct (m_parent (state s (t_old t))) as [p|]; [destruct (alive s p)|]; try apply enter_log. cbn. apply pc_log.
    + destruct (y_holder s (lcs s n)); [left; reflexivity|]. apply (body_log k n old st (set_holder _ s)). exact LK.
Qed.
Definition logged (s : sys) : Prop := y_log s <> [] -> exists k, at_pc k s Done.
Lemma logged_step s o : logged s -> logged (step view s o).
Proof.
  intros L N. destruct o as [c|k]; cbn [step] in *.
  - assert (E : y_log (set_state c s) = y_log s) by (destruct (set_state_eq c s) as (vr & fl & by_ & ts & -> & _); reflexivity). rewrite E in N. destruct (L N) as (k & t & T & P). exists k, t. split; [apply set_state_task; exact T|exact P].
  - destruct (run_log k s) as [E|E]; [|eauto]. rewrite E in N. destruct (L N) as (i & t & T & P). exists i. destruct (Nat.eq_dec i k) as [->|NE].
    + rewrite run_stuck; [exists t; auto|]. unfold ready. rewrite T. unfold finished. rewrite P. reflexivity.
    + destruct (d_task _ _ _ (run_mild k s) _ _ T) as (u & U & _ & Q). exists u. split; [exact U|]. rewrite Q by exact NE. exact P.
Qed.
Lemma settled_separate : forall ops, (forall ty v, NoDup (map fst (view ty v))) -> forall s, sound s -> tidy s -> inv view s -> logged s -> settled view s ops -> separate view s ops.
Proof.
  induction ops as [|o ops IH]; intros V s S T I L H; cbn; [exact Logic.I|]. destruct H as [H1 H2]. destruct o as [c|k].
  - destruct H1 as [H1 H3]. split; [exact Logic.I|].
    apply IH; [exact V|apply set_state_sound; exact S|apply tidy_set; [exact S|apply inv_reg; exact I|exact T|exact H1|apply L; exact H3]|apply step_inv; [exact V|exact I|exact Logic.I]|apply logged_step; exact L|exact H2].
  - destruct H1 as [H1 H3]. destruct (tidy_run k s S T H1) as [A B]; [intros t (D1 & D2 & D3); auto|]. split; [exact B|]. apply IH; [exact V|apply run_sound; exact S|exact A|apply step_inv; [exact V|exact I|exact B]|apply logged_step; exact L|exact H2].
Qed.
Lemma init_tidy : tidy init.
Proof.
  split.
  - intros [|[|j]] t (T & P & C); try discriminate. cbn in T. injection T as <-. split; [cbn; lia|]. split; [right; reflexivity|]. split; [reflexivity|]. intros x. cbn. destruct (eq_dec 0 0); congruence.
  - intros [|[|k]] n o st [(u & U & P)|(u & U & P)]; try discriminate; cbn in U; injection U as <-; discriminate.
Qed.
End View.

(** ** C77 *)
(** As [C77_separate_partial], for state changes between renders: that a request is not overtaken by another render of the
    component need not be assumed then, since the other render takes its place. Missing: as there, overlapping renders, and
    requests for components that are removed. *)
Theorem C77_settled_partial view ops : (forall ty v, NoDup (map fst (view ty v))) -> settled view init ops ->
  let s := run view ops in let d := shown (y_log s) in
  idle s -> y_log s <> [] ->
  y_over s = false /\ fits view 0 d /\ NoDup (doc_ids d) /\
  (forall c, registered s c = true <-> In c (doc_ids d)) /\ (forall c, y_eff s c = true <-> In c (doc_ids d)) /\
  (forall c v, In (c, v) (doc_vers d) -> v = Some (y_ver s c) \/ waiting s c).
Proof.
  intros V ST. apply C77_separate_partial; [exact V|]. apply settled_separate; [exact V|apply init_sound|apply init_tidy|left; apply init_rest|intros N; exfalso; apply N; reflexivity|exact ST].
Qed.
Print Assumptions C77_settled_partial.

(** A check of [settled] by computation. *)
Definition calm (s : sys) (k : option nat) : bool :=
  forallb (fun j => match k with Some k => Nat.eqb j k | None => false end || match nth_error (y_tasks s) j with Some t => negb (in_progress t) | None => true end) (seq 0 (length (y_tasks s))).
Fixpoint settledb (view : nat -> nat -> list (nat * nat)) (s : sys) (ops : list op) : bool :=
  match ops with
  | [] => true
  | o :: r =>
      match o with
      | SetState _ => calm s None && negb (match y_log s with [] => true | _ => false end)
      | Run k => calm s (Some k) && match nth_error (y_tasks s) k with Some t => match t_pc t with Start => t_cancel t || registered s (lcs s (t_old t)) | _ => true end | None => true end
      end && settledb view (step view s o) r
  end.
Lemma calm_ok s k : calm s k = true -> forall j t, k <> Some j -> nth_error (y_tasks s) j = Some t -> in_progress t = false.
Proof.
  unfold calm. intros A j t NE E. rewrite forallb_forall in A. specialize (A j). rewrite E in A. assert (L : j < length (y_tasks s)) by (apply nth_error_Some; congruence).
  specialize (A ltac:(apply in_seq; lia)). apply orb_true_iff in A as [A|A]; [destruct k; [apply Nat.eqb_eq in A; congruence|discriminate]|apply negb_true_iff; exact A].
Qed.
Lemma settledb_ok view ops : forall s, settledb view s ops = true -> settled view s ops.
Proof.
  induction ops as [|o ops IH]; intros s H; cbn in *; [exact I|]. apply andb_true_iff in H as [H1 H2]. split; [|auto]. destruct o as [c|k]; apply andb_true_iff in H1 as [A B].
  - split; [intros k t T; eapply (calm_ok s None); eauto; discriminate|]. intros E. rewrite E in B. discriminate.
  - split; [intros j t NE; apply (calm_ok s (Some k)); [exact A|congruence]|]. intros t E PC TC. rewrite E, PC, TC in B. exact B.
Qed.
(** The hypotheses are met by a session in which the root is rendered before a component whose render was requested first,
    and takes its place. *)
Example C77_settled_example :
  let ops := runs 0 6 ++ [SetState 1; SetState 0] ++ runs 2 4 ++ [Run 1] in
  let s := run prog2 ops in
  settled prog2 init ops /\ idle s /\ (exists t, nth_error (y_tasks s) 1 = Some t /\ t_pc t = Cancelled) /\ doc_vers (shown (y_log s)) = [(0, Some 1); (1, Some 1); (4, Some 0)].
Proof.
  intros ops s. split; [apply settledb_ok; vm_compute; reflexivity|]. split; [|split; [|vm_compute; reflexivity]].
  - intros k t E. vm_compute in E. repeat (destruct k as [|k]; [injection E as <-; reflexivity|]). destruct k; discriminate.
  - eexists. split; vm_compute; reflexivity.
Qed.
