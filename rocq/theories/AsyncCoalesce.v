(** * Async rendering: state changes between two renders of a component share one render task (C26) *)
From Coq Require Import Arith Bool Lia List.
From Verif Require Import EffectModel EffectProps AsyncModel.
Import ListNotations.

(** Specification: the render tasks that were created for a component, and the renders it had in any task. *)
Definition requests (c : nat) (l : list rtask) : nat := length (filter (fun t => Nat.eqb (cid (r_tree t)) c) l).
Definition renders (c : nat) (l : list rtask) : nat := length (filter (fun p => Nat.eqb (fst p) c) (flat_map r_out l)).

Lemma requests_put c l : forall k t u, nth_error l k = Some t -> r_tree u = r_tree t -> requests c (put l k u) = requests c l.
Proof.
  unfold requests. induction l as [|a l IH]; intros [|k] t u E T; try discriminate; cbn [nth_error] in E; cbn [put filter].
  - injection E as ->. rewrite T. destruct (Nat.eqb (cid (r_tree t)) c); reflexivity.
  - destruct (Nat.eqb (cid (r_tree a)) c); cbn [length]; rewrite (IH k t u E T); reflexivity.
Qed.
Lemma renders_app c l l' : renders c (l ++ l') = renders c l + renders c l'.
Proof. unfold renders. rewrite flat_map_app, filter_app, app_length. reflexivity. Qed.
Lemma renders_cons c t l : renders c (t :: l) = renders c [t] + renders c l.
Proof. apply (renders_app c [t] l). Qed.
Lemma renders_put c l : forall k t u, nth_error l k = Some t -> renders c (put l k u) + renders c [t] = renders c l + renders c [u].
Proof.
  induction l as [|a l IH]; intros [|k] t u E; try discriminate; cbn [nth_error] in E; cbn [put].
  - injection E as ->. rewrite (renders_cons c t l), (renders_cons c u l). lia.
  - rewrite (renders_cons c a l), (renders_cons c a (put l k u)). specialize (IH k t u E). lia.
Qed.
Lemma renders_same c t u : r_out u = r_out t -> renders c [u] = renders c [t].
Proof. unfold renders. cbn [flat_map]. intros ->. reflexivity. Qed.

(** Whether the next change of the component will ask for a render. *)
Definition fresh (s : async) (c : nat) : nat := match s_shown s c with Some _ => if s_flag s c then 0 else 1 | None => 0 end.
Definition cinv (root : ctree) (s : async) : Prop :=
  forall c, requests c (s_tasks s) + fresh s c <= renders c (s_tasks s) + if Nat.eqb c (cid root) then 1 else 0.

(** Steps that only change how far a task is. *)
Definition still (s s' : async) : Prop :=
  (forall c, requests c (s_tasks s') = requests c (s_tasks s)) /\ (forall c, renders c (s_tasks s') = renders c (s_tasks s)) /\ (forall c, fresh s' c = fresh s c).
Lemma still_refl s : still s s.
Proof. split; [|split]; reflexivity. Qed.
Lemma still_trans a b c : still a b -> still b c -> still a c.
Proof. intros (P & Q & R) (P' & Q' & R'). split; [|split]; intros x; [rewrite P'|rewrite Q'|rewrite R']; auto. Qed.
Lemma still_inv root s s' : still s s' -> cinv root s -> cinv root s'.
Proof. intros (P & Q & R) I c. rewrite P, Q, R. exact (I c). Qed.
Lemma still_put s k t u : nth_error (s_tasks s) k = Some t -> r_tree u = r_tree t -> r_out u = r_out t -> still s (set_tasks s (put (s_tasks s) k u)).
Proof.
  intros E T O. split; [|split]; intros c; cbn [set_tasks s_tasks].
  - exact (requests_put c _ k t u E T).
  - pose proof (renders_put c _ k t u E). pose proof (renders_same c t u O). lia.
  - reflexivity.
Qed.
Lemma still_cancel k s : still s (cancel k s).
Proof.
  unfold cancel. destruct (nth_error (s_tasks s) k) as [t|] eqn:E; [|apply still_refl]. destruct (finished t); [apply still_refl|]. eapply still_put; [exact E|reflexivity|reflexivity].
Qed.
Lemma still_pc k pc s : still s (set_task_pc k pc s).
Proof.
  unfold set_task_pc. destruct (nth_error (s_tasks s) k) as [t|] eqn:E; [|apply still_refl]. eapply still_put; [exact E|reflexivity|reflexivity].
Qed.
Lemma still_holder s h : still s (set_holder s h).
Proof. split; [|split]; reflexivity. Qed.
Lemma still_by_id s b : still s (set_by_id s b).
Proof. split; [|split]; reflexivity. Qed.
Lemma still_enter k d st s : still s (enter k d st s).
Proof.
  unfold enter. eapply still_trans; [|apply still_pc]. destruct (s_by_id s (cid d)) as [j|]; [|apply still_refl]. destruct (Nat.eqb j k); [apply still_refl|].
  eapply still_trans; [apply still_by_id|apply still_cancel].
Qed.
Lemma still_descend k st : forall s, still s (descend k st s).
Proof.
  induction st as [|[c [|d ds]] st IH]; intros s; cbn [descend]; [apply still_pc| |apply still_enter]. eapply still_trans; [apply still_holder|apply IH].
Qed.

Lemma render_inv root k c s : nth_error (s_tasks s) k <> None -> cinv root s -> cinv root (render_own k c s).
Proof.
  intros N I d. specialize (I d). unfold render_own. destruct (nth_error (s_tasks s) k) as [t|] eqn:E; [|destruct (N eq_refl)].
  cbn [s_tasks]. rewrite (requests_put d _ k t _ E) by reflexivity.
  pose proof (renders_put d (s_tasks s) k t (RTask (r_tree t) (r_pc t) (r_cancel t) (r_out t ++ [(c, s_ver s c)])) E) as P.
  assert (Q : renders d [RTask (r_tree t) (r_pc t) (r_cancel t) (r_out t ++ [(c, s_ver s c)])] = renders d [t] + if Nat.eqb c d then 1 else 0).
  { unfold renders. cbn [flat_map r_out]. rewrite !app_nil_r, filter_app, app_length. cbn [filter fst]. destruct (Nat.eqb c d); reflexivity. }
  assert (F : forall a b, fresh (Async (s_ver s) (upd (s_shown s) c a) (upd (s_flag s) c false) (s_holder s) b (s_by_id s) (s_ready s) (s_unread s) (s_consumer s) (s_sent s)) d <= fresh s d + if Nat.eqb c d then 1 else 0).
  { intros a b. unfold fresh, upd. cbn [s_shown s_flag]. rewrite (Nat.eqb_sym d c). destruct (Nat.eqb c d); [destruct a; lia|lia]. }
  specialize (F (Some (s_ver s c)) (put (s_tasks s) k (RTask (r_tree t) (r_pc t) (r_cancel t) (r_out t ++ [(c, s_ver s c)])))). lia.
Qed.

Lemma step_inv root s o : cinv root s -> cinv root (rstep root s o).
Proof.
  intros I. destruct o as [c|k| |k]; cbn [rstep].
  - unfold set_state. destruct (find (fun t => Nat.eqb (cid t) c) (subs root)) as [t|] eqn:F; [|exact I]. destruct (s_shown s c) as [v|] eqn:V; [|exact I].
    apply find_some in F. destruct F as [_ F]. apply Nat.eqb_eq in F. cbv zeta. destruct (s_flag s c) eqn:G; [exact I|].
    intros d. specialize (I d). cbn [schedule s_tasks s_shown s_flag]. rewrite renders_app. unfold requests in *. rewrite filter_app, app_length. cbn [filter r_tree]. rewrite F.
    match goal with |- context [fresh ?x d] => assert (Z : fresh x d + (if Nat.eqb c d then 1 else 0) <= fresh s d) end.
    { unfold fresh, upd. cbn [schedule s_shown s_flag]. rewrite (Nat.eqb_sym d c). destruct (Nat.eqb_spec c d) as [<-|_]; [rewrite V, G; lia|lia]. }
    assert (Y : renders d [RTask t PStart false []] = 0) by reflexivity. destruct (Nat.eqb c d); cbn [length]; lia.
  - unfold run_task. destruct (nth_error (s_tasks s) k) as [t|] eqn:E; [|exact I]. destruct (finished t); [exact I|]. destruct (r_cancel t).
    + eapply still_inv; [eapply still_trans; [apply still_holder|apply still_pc]|exact I].
    + destruct (r_pc t) as [|d st|d st| |]; try exact I.
      * eapply still_inv; [apply still_enter|exact I].
      * destruct (s_holder s (cid d)); [exact I|]. eapply still_inv; [eapply still_trans; [apply still_holder|apply still_pc]|exact I].
      * eapply still_inv; [apply still_descend|]. apply render_inv; [congruence|exact I].
  - unfold consumer_acquire. destruct (s_consumer s); [exact I|]. destruct (s_ready s); exact I.
  - unfold consumer_take. destruct (s_consumer s) as [l|]; [|exact I]. destruct (nth_error (s_tasks s) k) as [t|]; [|exact I]. destruct (existsb (Nat.eqb k) l && finished t); exact I.
Qed.

(** C26: in every schedule a component has had at most one render task per render of it (the root one more, for the first): however often
    it changes before it is rendered again, there is one request. *)
Theorem C26_coalesced : forall root ops c,
  let s := rrun root ops in
  requests c (s_tasks s) <= renders c (s_tasks s) + (if Nat.eqb c (cid root) then 1 else 0).
Proof.
  intros root ops c s. assert (I : cinv root s); [|specialize (I c); lia]. unfold s, rrun.
  assert (H : forall l s, cinv root s -> cinv root (fold_left (rstep root) l s)) by (induction l as [|o l IH]; intros z Z; [exact Z|]; apply IH, step_inv, Z).
  apply H. intros d. cbn. unfold renders. cbn. rewrite (Nat.eqb_sym d (cid root)). destruct (Nat.eqb (cid root) d); cbn; lia.
Qed.

(** A child changes three times before it is rendered again: one render task besides the first one, which was the root's. *)
Example C26_coalesced_example : let s := rrun (CNode 0 [CNode 1 []]) [RRun 0; RRun 0; RRun 0; RRun 0; RRun 0; RSet 1; RSet 1; RSet 1] in
  requests 1 (s_tasks s) = 1 /\ renders 1 (s_tasks s) = 1 /\ s_ver s 1 = 3.
Proof. split; [|split]; reflexivity. Qed.

Print Assumptions C26_coalesced.
