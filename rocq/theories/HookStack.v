(** * Which component a hook belongs to, and property C95
    /repo/src/reactpy/core/_life_cycle_hook.py:25-57 ([_HookStack]), 254-278 ([set_current], [unset_current]);
    /repo/src/reactpy/core/_thread_local.py:9-25 ([ThreadLocal]); where they are called: /repo/src/reactpy/core/layout.py:229-272
    ([_create_layout_update]) and 274-351 ([_render_component]).
    Tasks run in turns. Context variables are Python's: each task has its own, copied from its creator at its start; the value of
    this one is a reference to a list, which a copy shares. *)
From Coq Require Import Bool Arith Lia List.
Import ListNotations.

(** ** Model *)

(** [Context]: [_HookStack._state] is a context variable (line 30). [Thread]: it is a [ThreadLocal] (_thread_local.py:9-25), and
    all tasks run in one thread. *)
Inductive mode := Context | Thread.

(** What is seen: a hook function ([use_state], …) asks for the current component's hook and gets it or [RuntimeError]
    (lines 49-54); a component starts to render under another one, whose context providers it takes over, or under none
    (lines 260-264); [unset_current] raises one of its errors (lines 268-278). *)
Inductive entry := Got (t : nat) (hook : option nat) | Under (t h : nat) (parent : option nat) | Broken (t h : nat).

(** The lists; each task's value of the variable; its tokens for [reset], which hold the earlier values. *)
Record state := State { lists : list (list nat); var : nat -> option nat; tokens : nat -> list (option nat); log : list entry }.
Definition upd {A} (f : nat -> A) (t : nat) (x : A) : nat -> A := fun t' => if Nat.eqb t' t then x else f t'.
Fixpoint set_nth {A} (l : list A) (i : nat) (x : A) : list A :=
  match l, i with [], _ => [] | _ :: l', 0 => x :: l' | y :: l', S i' => y :: set_nth l' i' x end.
Definition start : state := State [[]] (fun _ => None) (fun _ => []) [].

(** What a task does: it starts a task ([create_task]); [initialize] and [reset] (layout.py:232, 272); [set_current] and
    [unset_current] around a component's render (layout.py:330, 350); the callbacks that start the effects begin
    (layout.py:240-248, leaving the [AsyncExitStack]); a hook function is called. *)
Inductive op := Spawn (t t' : nat) | Begin (t : nat) | SetCurrent (t h : nat) | UnsetCurrent (t h : nat) | Effects (t : nat) | End (t : nat) | Call (t : nat).

Section Mode.
Variable m : mode.
(** [get], lines 32-36: which list; [None] is a list of its own that nobody else has. *)
Definition list_of (s : state) (t : nat) : option nat := match m with Context => var s t | Thread => Some 0 end.
Definition get (s : state) (t : nat) : list nat := match list_of s t with Some l => nth l (lists s) [] | None => [] end.
Definition put (s : state) (t : nat) (x : list nat) : list (list nat) := match list_of s t with Some l => set_nth (lists s) l x | None => lists s end.
Definition top (l : list nat) : option nat := match rev l with [] => None | h :: _ => Some h end.
Definition step (s : state) (o : op) : state :=
  match o with
  | Spawn t t' => State (lists s) (upd (var s) t' (var s t)) (tokens s) (log s)
  | Begin t => match m with
               | Context => State (lists s ++ [[]]) (upd (var s) t (Some (length (lists s)))) (upd (tokens s) t (var s t :: tokens s t)) (log s)
               | Thread => s
               end
  | SetCurrent t h => State (put s t (get s t ++ [h])) (var s) (tokens s) (log s ++ [Under t h (top (get s t))])
  | UnsetCurrent t h =>
      let l := get s t in
      State (put s t (removelast l)) (var s) (tokens s) (log s ++ match top l with Some h' => if Nat.eqb h' h then [] else [Broken t h] | None => [Broken t h] end)
  | Effects _ => s
  | End t => match m with
             | Context => match tokens s t with old :: r => State (lists s) (upd (var s) t old) (upd (tokens s) t r) (log s) | [] => s end
             | Thread => State (put s t []) (var s) (tokens s) (log s)
             end
  | Call t => State (lists s) (var s) (tokens s) (log s ++ [Got t (top (get s t))])
  end.
Definition run (l : list op) : state := fold_left step l start.
End Mode.

(** ** Specification: each task by itself *)

(** What a task is doing, from its own operations alone: the renders it is in, innermost first; of each the components whose
    render is open, innermost first, and whether its effects are being started. [None]: not what the layout does. *)
Definition frame : Type := list nat * bool.
Definition own_step (t : nat) (fr : option (list frame)) (o : op) : option (list frame) :=
  match fr with
  | None => None
  | Some fr =>
      match o with
      | Begin t0 => if Nat.eqb t0 t then Some (([], false) :: fr) else Some fr
      | SetCurrent t0 h => if Nat.eqb t0 t then match fr with (s, false) :: r => Some ((h :: s, false) :: r) | _ => None end else Some fr
      | UnsetCurrent t0 h => if Nat.eqb t0 t then match fr with (x :: s, false) :: r => if Nat.eqb x h then Some ((s, false) :: r) else None | _ => None end else Some fr
      | Effects t0 => if Nat.eqb t0 t then match fr with ([], false) :: r => Some (([], true) :: r) | _ => None end else Some fr
      | End t0 => if Nat.eqb t0 t then match fr with ([], _) :: r => Some r | _ => None end else Some fr
      | Spawn _ _ | Call _ => Some fr
      end
  end.
Definition doing (t : nat) (l : list op) : option (list frame) := fold_left (own_step t) l (Some []).
(** The tasks that occur in a schedule. *)
Definition tasks_of (o : op) : list nat := match o with Spawn t t' => [t; t'] | Begin t | SetCurrent t _ | UnsetCurrent t _ | Effects t | End t | Call t => [t] end.
(** A schedule: each task does what the layout does, in any interleaving; started tasks are new. *)
Inductive schedule : list op -> Prop :=
| s_nil : schedule []
| s_op l o : schedule l -> (forall t, doing t (l ++ [o]) <> None) -> (forall t t', o = Spawn t t' -> t' <> t /\ ~ In t' (flat_map tasks_of l)) -> schedule (l ++ [o]).
(** The component whose code a task is running. *)
Definition current (t : nat) (l : list op) : option nat := match doing t l with Some ((h :: _, _) :: _) => Some h | _ => None end.
(** A task is outside of all components: it was started by nobody in the schedule, or by a task that is outside and in no render, or
    as an effect (or by an effect's start). *)
Inductive outside : list op -> nat -> Prop :=
| o_root l t : (forall t0, ~ In (Spawn t0 t) l) -> outside l t
| o_plain l1 l2 t0 t : outside l1 t0 -> doing t0 l1 = Some [] -> outside (l1 ++ Spawn t0 t :: l2) t
| o_effect l1 l2 t0 t r : doing t0 l1 = Some (([], true) :: r) -> outside (l1 ++ Spawn t0 t :: l2) t.

(** ** Proofs *)

Lemma upd_eq {A} (f : nat -> A) t x : upd f t x t = x.
Proof. unfold upd. now rewrite Nat.eqb_refl. Qed.
Lemma upd_neq {A} (f : nat -> A) t x t' : t' <> t -> upd f t x t' = f t'.
Proof. intros N. unfold upd. destruct (Nat.eqb_spec t' t); congruence. Qed.
Lemma nth_set {A} (l : list A) d : forall i j x, i < length l -> nth j (set_nth l i x) d = if Nat.eqb j i then x else nth j l d.
Proof. induction l as [|y l IH]; intros [|i] [|j] x L; cbn in *; try lia; auto. apply IH. lia. Qed.
Lemma length_set {A} (l : list A) : forall i x, length (set_nth l i x) = length l.
Proof. induction l as [|y l IH]; intros [|i] x; cbn; auto. Qed.
Lemma top_snoc l h : top (l ++ [h]) = Some h.
Proof. unfold top. now rewrite rev_app_distr. Qed.
Lemma top_rev l : top (rev l) = match l with [] => None | h :: _ => Some h end.
Proof. unfold top. now rewrite rev_involutive. Qed.
Lemma doing_snoc t l o : doing t (l ++ [o]) = own_step t (doing t l) o.
Proof. unfold doing. now rewrite fold_left_app. Qed.
Lemma run_snoc m l o : run m (l ++ [o]) = step m (run m l) o.
Proof. unfold run. now rewrite fold_left_app. Qed.

Notation runs := (run Context).

(** Each render has a list of its own ([owned t], innermost first), which holds its open components; the tokens are the lists of the
    renders around it and what the task got from its creator ([from t]). Lists of no render are empty. Lists that tasks outside of components got are empty
    and stay so. *)
Definition dead (l : list op) (s : state) (owned : nat -> list nat) (i : nat) : Prop :=
  nth i (lists s) [] = [] /\ i < length (lists s) /\ forall t k, nth_error (owned t) k = Some i -> exists fr x, doing t l = Some fr /\ nth_error fr k = Some (x, true).
Record inv (l : list op) (s : state) (owned : nat -> list nat) (from : nat -> option nat) : Prop := {
  i_chain : forall t, var s t :: tokens s t = map Some (owned t) ++ [from t];
  i_lists : forall t fr, doing t l = Some fr -> length fr = length (owned t) /\ forall k i f, nth_error (owned t) k = Some i -> nth_error fr k = Some f -> nth i (lists s) [] = rev (fst f);
  i_bound : forall t i, In i (owned t) -> i < length (lists s);
  i_apart : forall t k t' k' i, nth_error (owned t) k = Some i -> nth_error (owned t') k' = Some i -> t = t' /\ k = k';
  i_retired : forall i, (forall t, ~ In i (owned t)) -> nth i (lists s) [] = [];
  i_outside : forall t, outside l t -> match from t with None => True | Some i => dead l s owned i end;
}.

Lemma inv_start : inv [] start (fun _ => []) (fun _ => None).
Proof.
  constructor; cbn; auto.
  - intros t fr [= <-]. split; [reflexivity|]. intros [|k] i f H; discriminate.
  - intros t i [].
  - intros t k t' k' i H. destruct k; discriminate.
  - intros [|[|i]] _; reflexivity.
Qed.

Lemma outside_snoc l o t : outside (l ++ [o]) t -> outside l t \/ exists t0, o = Spawn t0 t /\ ((outside l t0 /\ doing t0 l = Some []) \/ exists r, doing t0 l = Some (([], true) :: r)).
Proof.
  intros H. remember (l ++ [o]) as l' eqn:E. destruct H as [l' t N|l1 l2 t0 t O D|l1 l2 t0 t r D]; subst.
  - left. apply o_root. intros t0 I. apply (N t0), in_or_app. now left.
  - destruct l2 as [|x l2 _] using rev_ind.
    + apply app_inj_tail in E. destruct E as [-> <-]. right. exists t0. auto.
    + rewrite app_comm_cons, app_assoc in E. apply app_inj_tail in E. destruct E as [<- _]. left. now apply o_plain.
  - destruct l2 as [|x l2 _] using rev_ind.
    + apply app_inj_tail in E. destruct E as [-> <-]. right. exists t0. eauto.
    + rewrite app_comm_cons, app_assoc in E. apply app_inj_tail in E. destruct E as [<- _]. left. eapply o_effect. exact D.
Qed.
Lemma outside_weaken l o t : (forall t0, o <> Spawn t0 t) -> outside (l ++ [o]) t -> outside l t.
Proof. intros N H. apply outside_snoc in H. destruct H as [H|(t0 & E & _)]; [exact H|]. destruct (N t0 E). Qed.

Lemma outside_spawned l t0 t : ~ In t (flat_map tasks_of l) -> outside (l ++ [Spawn t0 t]) t ->
  (outside l t0 /\ doing t0 l = Some []) \/ exists r, doing t0 l = Some (([], true) :: r).
Proof.
  intros F H. remember (l ++ [Spawn t0 t]) as l' eqn:E.
  assert (Fr : forall l1 l2 t1, l = l1 ++ Spawn t1 t :: l2 -> False).
  { intros l1 l2 t1 ->. apply F. rewrite flat_map_app. apply in_or_app. right. cbn. auto. }
  destruct H as [l' t N|l1 l2 t1 t O D|l1 l2 t1 t r D]; subst.
  - destruct (N t0). apply in_or_app. right. now left.
  - destruct l2 as [|x l2 _] using rev_ind.
    + apply app_inj_tail in E. destruct E as [-> [= ->]]. auto.
    + rewrite app_comm_cons, app_assoc in E. apply app_inj_tail in E. destruct E as [<- _]. destruct (Fr _ _ _ eq_refl).
  - destruct l2 as [|x l2 _] using rev_ind.
    + apply app_inj_tail in E. destruct E as [-> [= ->]]. eauto.
    + rewrite app_comm_cons, app_assoc in E. apply app_inj_tail in E. destruct E as [<- _]. destruct (Fr _ _ _ eq_refl).
Qed.

(** The task that acts. *)
Definition actor (o : op) : nat := match o with Spawn t _ | Begin t | SetCurrent t _ | UnsetCurrent t _ | Effects t | End t | Call t => t end.
Lemma doing_other t l o : actor o <> t -> doing t (l ++ [o]) = doing t l.
Proof.
  intros N. rewrite doing_snoc. unfold own_step. destruct (doing t l) as [fr|]; [|reflexivity].
  destruct o; cbn in N; try reflexivity; apply Nat.eqb_neq in N; now rewrite N.
Qed.
Lemma doing_idle t l : ~ In t (flat_map tasks_of l) -> doing t l = Some [].
Proof.
  induction l as [|o l IH] using rev_ind; intros N; [reflexivity|].
  rewrite flat_map_app in N. rewrite doing_other.
  - apply IH. intros I. apply N, in_or_app. now left.
  - intros E. apply N, in_or_app. right. cbn. destruct o; cbn in *; auto.
Qed.
Lemma schedule_prefix l o : schedule (l ++ [o]) -> schedule l.
Proof. intros H. remember (l ++ [o]) as l' eqn:E. destruct H as [|l0 o0 H _ _]; [destruct l; discriminate|]. apply app_inj_tail in E. now destruct E as [-> _]. Qed.
Lemma schedule_last l o : schedule (l ++ [o]) -> (forall t, doing t (l ++ [o]) <> None) /\ forall t t', o = Spawn t t' -> t' <> t /\ ~ In t' (flat_map tasks_of l).
Proof. intros H. remember (l ++ [o]) as l' eqn:E. destruct H as [|l0 o0 _ A B]; [destruct l; discriminate|]. apply app_inj_tail in E. destruct E as [-> ->]. auto. Qed.
Lemma schedule_doing l : schedule l -> forall t, exists fr, doing t l = Some fr.
Proof.
  intros H t. destruct l as [|o l _] using rev_ind; [exists []; reflexivity|].
  apply schedule_last in H. destruct H as [H _]. specialize (H t). destruct (doing t (l ++ [o])) as [fr|]; [eauto|congruence].
Qed.

(** *** One step *)

Lemma inv_var l s owned from t : inv l s owned from -> var s t = match owned t with i :: _ => Some i | [] => from t end.
Proof. intros I. pose proof (i_chain _ _ _ _ I t) as C. destruct (owned t); cbn in C; congruence. Qed.
Lemma inv_get l s owned from t f fr : inv l s owned from -> doing t l = Some (f :: fr) ->
  exists i r, owned t = i :: r /\ var s t = Some i /\ i < length (lists s) /\ get Context s t = rev (fst f).
Proof.
  intros I D. pose proof (inv_var _ _ _ _ t I) as V. destruct (i_lists _ _ _ _ I t _ D) as [L N].
  destruct (owned t) as [|i r] eqn:E; cbn in L; [discriminate|]. exists i, r. repeat split; auto.
  - apply (i_bound _ _ _ _ I t). rewrite E. now left.
  - unfold get, list_of. rewrite V. apply (N 0 i f); reflexivity.
Qed.

(** A step that only touches the newest list of the acting task. *)
Lemma inv_touch l o s s' owned from t x f fr b' :
  inv l s owned from -> actor o = t -> (forall t0 t1, o <> Spawn t0 t1) ->
  doing t l = Some (f :: fr) -> doing t (l ++ [o]) = Some ((x, b') :: fr) ->
  snd f = false \/ (x = fst f /\ b' = true) ->
  var s' = var s -> tokens s' = tokens s -> lists s' = put Context s t (rev x) ->
  inv (l ++ [o]) s' owned from.
Proof.
  intros I A NS D D' B V T L.
  destruct (inv_get _ _ _ _ _ _ _ I D) as (i & r & O & Vi & Li & G).
  unfold put, list_of in L. rewrite Vi in L.
  assert (Len : length (lists s') = length (lists s)) by (rewrite L; apply length_set).
  assert (Same : forall j, j <> i -> nth j (lists s') [] = nth j (lists s) []).
  { intros j N. rewrite L, nth_set by exact Li. destruct (Nat.eqb_spec j i); congruence. }
  assert (At : nth i (lists s') [] = rev x) by (rewrite L, nth_set by exact Li; now rewrite Nat.eqb_refl).
  assert (Oth : forall t', t' <> t -> doing t' (l ++ [o]) = doing t' l) by (intros t' N; apply doing_other; congruence).
  constructor.
  - intros t'. rewrite V, T. apply (i_chain _ _ _ _ I).
  - intros t' fr' F. destruct (Nat.eq_dec t' t) as [->|N].
    + rewrite D' in F. injection F as <-. destruct (i_lists _ _ _ _ I t _ D) as [Ln Nn]. split; [exact Ln|].
      intros [|k] j g Hj Hg.
      * rewrite O in Hj. cbn in Hj, Hg. injection Hj as <-. injection Hg as <-. exact At.
      * cbn in Hg. rewrite Same; [apply (Nn (S k)); assumption|]. intros ->.
        assert (H0 : nth_error (owned t) 0 = Some i) by (rewrite O; reflexivity).
        destruct (i_apart _ _ _ _ I _ _ _ _ _ Hj H0) as [_ E]. discriminate.
    + rewrite (Oth _ N) in F. destruct (i_lists _ _ _ _ I t' _ F) as [Ln Nn]. split; [exact Ln|].
      intros k j g Hj Hg. rewrite Same; [apply (Nn k); assumption|]. intros ->.
      assert (H0 : nth_error (owned t) 0 = Some i) by (rewrite O; reflexivity).
      destruct (i_apart _ _ _ _ I _ _ _ _ _ Hj H0) as [E _]. congruence.
  - intros t' j H. rewrite Len. apply (i_bound _ _ _ _ I t' j H).
  - apply (i_apart _ _ _ _ I).
  - intros j H. rewrite Same; [apply (i_retired _ _ _ _ I j H)|]. intros ->. apply (H t). rewrite O. now left.
  - intros t' Out. assert (Out0 : outside l t') by (eapply outside_weaken; [intros t0; apply NS|exact Out]).
    pose proof (i_outside _ _ _ _ I _ Out0) as P. destruct (from t') as [j|]; [|exact Logic.I].
    destruct P as (P1 & P2 & P3). split; [|split].
    + destruct (Nat.eq_dec j i) as [->|N]; [|rewrite Same by exact N; exact P1]. rewrite At.
      assert (H0 : nth_error (owned t) 0 = Some i) by (rewrite O; reflexivity).
      destruct (P3 _ _ H0) as (fr0 & y & F0 & K0). rewrite D in F0. injection F0 as <-. cbn in K0. injection K0 as ->. cbn in B.
      destruct B as [B|[-> _]]; [discriminate|]. rewrite <- P1. unfold get, list_of in G. rewrite Vi in G. cbn in G |- *. congruence.
    + now rewrite Len.
    + intros t1 k H1. destruct (P3 _ _ H1) as (fr0 & y & F0 & K0). destruct (Nat.eq_dec t1 t) as [->|N].
      * rewrite D in F0. injection F0 as <-. rewrite D'. destruct k as [|k]; cbn in K0.
        -- injection K0 as ->. cbn in B. destruct B as [B|[-> ->]]; [discriminate|]. eexists _, _. split; [reflexivity|]. reflexivity.
        -- eexists _, _. split; [reflexivity|]. cbn. exact K0.
      * rewrite (Oth _ N). eauto.
Qed.

Lemma set_nth_same {A} (l : list A) d : forall i, set_nth l i (nth i l d) = l.
Proof. induction l as [|y l IH]; intros [|i]; cbn; auto. now rewrite IH. Qed.

Lemma inv_step l o owned from : schedule (l ++ [o]) -> inv l (runs l) owned from -> exists owned' from', inv (l ++ [o]) (runs (l ++ [o])) owned' from'.
Proof.
  intros Sc I. pose proof (schedule_last _ _ Sc) as [Ok New]. pose proof (schedule_doing _ (schedule_prefix _ _ Sc)) as Do. rewrite run_snoc.
  remember (runs l) as s eqn:Es. destruct o as [t t'|t|t h|t h|t|t|t].
  - (* Spawn *)
    destruct (New _ _ eq_refl) as [N F]. exists owned, (upd from t' (var s t)).
    assert (Same : forall t1, doing t1 (l ++ [Spawn t t']) = doing t1 l).
    { intros t1. rewrite doing_snoc. unfold own_step. now destruct (doing t1 l). }
    assert (Ot : owned t' = []).
    { destruct (i_lists _ _ _ _ I t' [] (doing_idle _ _ F)) as [L _]. destruct (owned t'); [reflexivity|discriminate]. }
    assert (Dead : forall j, dead l s owned j -> dead (l ++ [Spawn t t']) (step Context s (Spawn t t')) owned j).
    { intros j (P1 & P2 & P3). split; [exact P1|split; [exact P2|]]. intros t1 k H. rewrite Same. eauto. }
    constructor.
    + intros t1. cbn [step var tokens]. destruct (Nat.eq_dec t1 t') as [->|N1].
      * rewrite !upd_eq, Ot. pose proof (i_chain _ _ _ _ I t') as C. rewrite Ot in C. cbn in C |- *. congruence.
      * rewrite !upd_neq by exact N1. apply (i_chain _ _ _ _ I).
    + intros t1 fr. rewrite Same. apply (i_lists _ _ _ _ I).
    + apply (i_bound _ _ _ _ I).
    + apply (i_apart _ _ _ _ I).
    + apply (i_retired _ _ _ _ I).
    + intros t1 Out. destruct (Nat.eq_dec t1 t') as [->|N1].
      * rewrite upd_eq. rewrite (inv_var _ _ _ _ t I). destruct (outside_spawned _ _ _ F Out) as [[O D]|[r D]].
        -- destruct (i_lists _ _ _ _ I t _ D) as [L _]. destruct (owned t); [|discriminate].
           pose proof (i_outside _ _ _ _ I t O) as P. destruct (from t); auto.
        -- destruct (inv_get _ _ _ _ _ _ _ I D) as (i & q & Oi & Vi & Li & G). rewrite Oi. apply Dead.
           split; [|split; [exact Li|]].
           ++ unfold get, list_of in G. rewrite Vi in G. exact G.
           ++ intros t2 k H. assert (H0 : nth_error (owned t) 0 = Some i) by (rewrite Oi; reflexivity).
              destruct (i_apart _ _ _ _ I _ _ _ _ _ H H0) as [-> ->]. eexists _, _. split; [exact D|reflexivity].
      * rewrite upd_neq by exact N1.
        assert (Out0 : outside l t1) by (eapply outside_weaken; [|exact Out]; intros t0 [= _ E]; congruence).
        pose proof (i_outside _ _ _ _ I _ Out0) as P. destruct (from t1); auto.
  - (* Begin *)
    destruct (Do t) as [fr D]. set (n := length (lists s)). exists (upd owned t (n :: owned t)), from.
    assert (D' : doing t (l ++ [Begin t]) = Some (([], false) :: fr)).
    { rewrite doing_snoc, D. cbn. now rewrite Nat.eqb_refl. }
    assert (Oth : forall t1, t1 <> t -> doing t1 (l ++ [Begin t]) = doing t1 l) by (intros t1 N; apply doing_other; cbn; congruence).
    assert (Old : forall j, j < n -> nth j (lists s ++ [[]]) [] = nth j (lists s) []) by (intros j Hj; apply app_nth1; exact Hj).
    assert (Bd : forall t1 k j, nth_error (owned t1) k = Some j -> j < n) by (intros t1 k j H; apply nth_error_In in H; apply (i_bound _ _ _ _ I _ _ H)).
    constructor.
    + intros t1. cbn [step var tokens]. destruct (Nat.eq_dec t1 t) as [->|N].
      * rewrite !upd_eq. cbn. f_equal. apply (i_chain _ _ _ _ I).
      * rewrite !upd_neq by exact N. apply (i_chain _ _ _ _ I).
    + intros t1 fr1 F. cbn [step lists]. destruct (Nat.eq_dec t1 t) as [->|N].
      * rewrite D' in F. injection F as <-. rewrite upd_eq. destruct (i_lists _ _ _ _ I t _ D) as [Ln Nn]. split; [cbn; lia|].
        intros [|k] j g Hj Hg; cbn in Hj, Hg.
        -- injection Hj as <-. injection Hg as <-. rewrite app_nth2 by (unfold n; lia). unfold n. now rewrite Nat.sub_diag.
        -- rewrite Old by (eapply Bd; exact Hj). eapply Nn; eassumption.
      * rewrite (Oth _ N) in F. rewrite upd_neq by exact N. destruct (i_lists _ _ _ _ I t1 _ F) as [Ln Nn]. split; [exact Ln|].
        intros k j g Hj Hg. rewrite Old by (eapply Bd; exact Hj). eapply Nn; eassumption.
    + intros t1 j H. cbn [step lists]. rewrite app_length. cbn. fold n. destruct (Nat.eq_dec t1 t) as [->|N].
      * rewrite upd_eq in H. destruct H as [<-|H]; [lia|]. pose proof (i_bound _ _ _ _ I _ _ H). fold n in H0. lia.
      * rewrite upd_neq in H by exact N. pose proof (i_bound _ _ _ _ I _ _ H). fold n in H0. lia.
    + assert (At : forall t1 k j, nth_error (upd owned t (n :: owned t) t1) k = Some j -> (t1 = t /\ k = 0 /\ j = n) \/ (j < n /\ (exists k0, nth_error (owned t1) k0 = Some j /\ ((t1 = t /\ k = S k0) \/ (t1 <> t /\ k = k0))))).
      { intros t1 k j H. destruct (Nat.eq_dec t1 t) as [->|N].
        - rewrite upd_eq in H. destruct k as [|k]; cbn in H; [injection H as <-; auto|]. right. split; [eapply Bd; exact H|]. exists k. auto.
        - rewrite upd_neq in H by exact N. right. split; [eapply Bd; exact H|]. exists k. auto. }
      intros t1 k1 t2 k2 j H1 H2. apply At in H1, H2.
      destruct H1 as [(-> & -> & ->)|(L1 & q1 & E1 & C1)], H2 as [(-> & -> & E)|(L2 & q2 & E2 & C2)]; try lia; auto.
      destruct (i_apart _ _ _ _ I _ _ _ _ _ E1 E2) as [-> ->]. split; [reflexivity|]. destruct C1 as [[? ->]|[? ->]], C2 as [[? ->]|[? ->]]; congruence.
    + intros j H. cbn [step lists]. destruct (Nat.lt_ge_cases j n) as [Lj|Lj].
      * rewrite Old by exact Lj. apply (i_retired _ _ _ _ I). intros t1 H1. apply (H t1). destruct (Nat.eq_dec t1 t) as [->|N]; [rewrite upd_eq; now right|now rewrite upd_neq by exact N].
      * destruct (Nat.eq_dec j n) as [->|Nj]; [destruct (H t); rewrite upd_eq; now left|]. apply nth_overflow. rewrite app_length. cbn. fold n. lia.
    + intros t1 Out. assert (Out0 : outside l t1) by (eapply outside_weaken; [|exact Out]; discriminate).
      pose proof (i_outside _ _ _ _ I _ Out0) as P. destruct (from t1) as [j|]; [|exact Logic.I]. destruct P as (P1 & P2 & P3).
      cbn [step]. split; [|split]; cbn [lists].
      * rewrite Old by exact P2. exact P1.
      * rewrite app_length. lia.
      * intros t2 k H. destruct (Nat.eq_dec t2 t) as [->|N].
        -- rewrite upd_eq in H. destruct k as [|k]; cbn in H; [injection H as <-; unfold n in P2; lia|].
           destruct (P3 _ _ H) as (fr0 & y & F0 & K0). rewrite D in F0. injection F0 as <-. rewrite D'. eexists _, _. split; [reflexivity|exact K0].
        -- rewrite upd_neq in H by exact N. rewrite (Oth _ N). eauto.
  - (* SetCurrent *)
    destruct (Do t) as [fr D]. specialize (Ok t). rewrite doing_snoc, D in Ok. cbn in Ok. rewrite Nat.eqb_refl in Ok.
    destruct fr as [|[x [|]] fr]; try congruence. clear Ok.
    destruct (inv_get _ _ _ _ _ _ _ I D) as (i & r & O & Vi & Li & G). cbn in G.
    exists owned, from. eapply (inv_touch l _ s _ owned from t (h :: x) (x, false) fr false); try exact I; try exact D; try reflexivity; auto.
    + discriminate.
    + rewrite doing_snoc, D. cbn. now rewrite Nat.eqb_refl.
    + cbn [step lists]. rewrite G. reflexivity.
  - (* UnsetCurrent *)
    destruct (Do t) as [fr D]. specialize (Ok t). rewrite doing_snoc, D in Ok. cbn in Ok. rewrite Nat.eqb_refl in Ok.
    destruct fr as [|[[|y x] [|]] fr]; try congruence. destruct (Nat.eqb y h) eqn:Ey; [|congruence]. clear Ok.
    destruct (inv_get _ _ _ _ _ _ _ I D) as (i & r & O & Vi & Li & G). cbn in G.
    exists owned, from. eapply (inv_touch l _ s _ owned from t x (y :: x, false) fr false); try exact I; try exact D; try reflexivity; auto.
    + discriminate.
    + rewrite doing_snoc, D. cbn. now rewrite Nat.eqb_refl, Ey.
    + cbn [step lists]. rewrite G, removelast_last. reflexivity.
  - (* Effects *)
    destruct (Do t) as [fr D]. specialize (Ok t). rewrite doing_snoc, D in Ok. cbn in Ok. rewrite Nat.eqb_refl in Ok.
    destruct fr as [|[[|y x] [|]] fr]; try congruence. clear Ok.
    destruct (inv_get _ _ _ _ _ _ _ I D) as (i & r & O & Vi & Li & G). cbn in G.
    exists owned, from. eapply (inv_touch l _ s _ owned from t [] ([], false) fr true); try exact I; try exact D; try reflexivity; auto.
    + discriminate.
    + rewrite doing_snoc, D. cbn. now rewrite Nat.eqb_refl.
    + cbn [step lists]. unfold put, get, list_of in *. rewrite Vi in *. cbn. rewrite <- G. symmetry. apply set_nth_same.
  - (* End *)
    destruct (Do t) as [fr D]. specialize (Ok t). rewrite doing_snoc, D in Ok. cbn in Ok. rewrite Nat.eqb_refl in Ok.
    destruct fr as [|[[|y x] b] fr]; try congruence. clear Ok.
    destruct (inv_get _ _ _ _ _ _ _ I D) as (i & r & O & Vi & Li & G). cbn in G.
    pose proof (i_chain _ _ _ _ I t) as C. rewrite O in C. cbn in C.
    destruct (tokens s t) as [|old tk] eqn:Tk; [destruct r; discriminate|].
    exists (upd owned t r), from.
    assert (D' : doing t (l ++ [End t]) = Some fr) by (rewrite doing_snoc, D; cbn; now rewrite Nat.eqb_refl).
    assert (Oth : forall t1, t1 <> t -> doing t1 (l ++ [End t]) = doing t1 l) by (intros t1 N; apply doing_other; cbn; congruence).
    assert (At : forall t1 k j, nth_error (upd owned t r t1) k = Some j -> exists k0, nth_error (owned t1) k0 = Some j /\ ((t1 = t /\ k0 = S k) \/ (t1 <> t /\ k = k0))).
    { intros t1 k j H. destruct (Nat.eq_dec t1 t) as [->|N].
      - rewrite upd_eq in H. exists (S k). rewrite O. auto.
      - rewrite upd_neq in H by exact N. eauto. }
    cbn [step]. rewrite Tk. constructor; cbn [lists var tokens].
    + intros t1. destruct (Nat.eq_dec t1 t) as [->|N].
      * rewrite !upd_eq. congruence.
      * rewrite !upd_neq by exact N. apply (i_chain _ _ _ _ I).
    + intros t1 fr1 F. destruct (Nat.eq_dec t1 t) as [->|N].
      * rewrite D' in F. injection F as <-. rewrite upd_eq. destruct (i_lists _ _ _ _ I t _ D) as [Ln Nn]. rewrite O in Ln. cbn in Ln. split; [lia|].
        intros k j g Hj Hg. apply (Nn (S k)); [rewrite O|]; assumption.
      * rewrite (Oth _ N) in F. rewrite upd_neq by exact N. apply (i_lists _ _ _ _ I _ _ F).
    + intros t1 j H. apply (i_bound _ _ _ _ I t1). destruct (Nat.eq_dec t1 t) as [->|N]; [rewrite upd_eq in H; rewrite O; now right|now rewrite upd_neq in H by exact N].
    + intros t1 k1 t2 k2 j H1 H2. apply At in H1, H2. destruct H1 as (q1 & E1 & C1), H2 as (q2 & E2 & C2).
      destruct (i_apart _ _ _ _ I _ _ _ _ _ E1 E2) as [-> ->]. split; [reflexivity|]. destruct C1 as [[? ?]|[? ?]], C2 as [[? ?]|[? ?]]; congruence.
    + intros j H. destruct (Nat.eq_dec j i) as [->|Nj].
      * unfold get, list_of in G. now rewrite Vi in G.
      * apply (i_retired _ _ _ _ I). intros t1 H1. apply (H t1). destruct (Nat.eq_dec t1 t) as [->|N]; [|now rewrite upd_neq by exact N].
        rewrite O in H1. rewrite upd_eq. destruct H1 as [E|H1]; [congruence|exact H1].
    + intros t1 Out. assert (Out0 : outside l t1) by (eapply outside_weaken; [|exact Out]; discriminate).
      pose proof (i_outside _ _ _ _ I _ Out0) as P. destruct (from t1) as [j|]; [|exact Logic.I]. destruct P as (P1 & P2 & P3).
      split; [exact P1|split; [exact P2|]]. intros t2 k H. apply At in H. destruct H as (k0 & H & Ck).
      destruct (P3 _ _ H) as (fr0 & z & F0 & K0). destruct Ck as [[-> ->]|[N ->]].
      * rewrite D in F0. injection F0 as <-. rewrite D'. eexists _, _. split; [reflexivity|exact K0].
      * rewrite (Oth _ N). eauto.
  - (* Call *)
    exists owned, from.
    assert (Same : forall t1, doing t1 (l ++ [Call t]) = doing t1 l).
    { intros t1. rewrite doing_snoc. unfold own_step. now destruct (doing t1 l). }
    constructor; cbn [step lists var tokens].
    + apply (i_chain _ _ _ _ I).
    + intros t1 fr. rewrite Same. apply (i_lists _ _ _ _ I).
    + apply (i_bound _ _ _ _ I).
    + apply (i_apart _ _ _ _ I).
    + apply (i_retired _ _ _ _ I).
    + intros t1 Out. assert (Out0 : outside l t1) by (eapply outside_weaken; [|exact Out]; discriminate).
      pose proof (i_outside _ _ _ _ I _ Out0) as P. destruct (from t1) as [j|]; [|exact Logic.I]. destruct P as (P1 & P2 & P3).
      split; [exact P1|split; [exact P2|]]. intros t2 k H. rewrite Same. eauto.
Qed.

Lemma inv_run l : schedule l -> exists owned from, inv l (runs l) owned from.
Proof.
  induction l as [|o l IH] using rev_ind; intros Sc; [eexists _, _; apply inv_start|].
  destruct (IH (schedule_prefix _ _ Sc)) as (owned & from & I). eapply inv_step; eassumption.
Qed.

(** ** C95 *)

(** In every schedule, a hook function called in a component's body gets that component's hook — the one the calling task itself
    is rendering — and raises when the task's render is between components. *)
Theorem C95_own l t f fr : schedule (l ++ [Call t]) -> doing t l = Some (f :: fr) ->
  log (runs (l ++ [Call t])) = log (runs l) ++ [Got t (current t l)].
Proof.
  intros Sc D. destruct (inv_run _ (schedule_prefix _ _ Sc)) as (owned & from & I).
  destruct (inv_get _ _ _ _ _ _ _ I D) as (i & r & _ & _ & _ & G). rewrite run_snoc. cbn [step log]. rewrite G, top_rev. unfold current. rewrite D.
  destruct f as [[|h x] b]; reflexivity.
Qed.

(** A component takes over the context providers of the component around it in the same render, and of no other. *)
Theorem C95_under l t h : schedule (l ++ [SetCurrent t h]) -> log (runs (l ++ [SetCurrent t h])) = log (runs l) ++ [Under t h (current t l)].
Proof.
  intros Sc. destruct (inv_run _ (schedule_prefix _ _ Sc)) as (owned & from & I). destruct (schedule_last _ _ Sc) as [Ok _].
  specialize (Ok t). rewrite doing_snoc in Ok. destruct (doing t l) as [fr|] eqn:D; [|cbn in Ok; congruence]. cbn in Ok. rewrite Nat.eqb_refl in Ok.
  destruct fr as [|[x [|]] fr]; try congruence.
  destruct (inv_get _ _ _ _ _ _ _ I D) as (i & r & _ & _ & _ & G). rewrite run_snoc. cbn [step log]. rewrite G, top_rev. unfold current. rewrite D.
  destruct x; reflexivity.
Qed.

(** The stack is never found in a state that [unset_current] refuses. *)
Theorem C95_unbroken l t h : schedule l -> ~ In (Broken t h) (log (runs l)).
Proof.
  induction l as [|o l IH] using rev_ind; intros Sc; [intros []|].
  pose proof (schedule_prefix _ _ Sc) as Sp. specialize (IH Sp). destruct (inv_run _ Sp) as (owned & from & I). destruct (schedule_last _ _ Sc) as [Ok _].
  rewrite run_snoc. destruct o as [t1 t2|t1|t1 h1|t1 h1|t1|t1|t1]; cbn [step log]; try exact IH.
  - intros H. apply in_app_or in H. destruct H as [H|[H|[]]]; [auto|discriminate].
  - specialize (Ok t1). rewrite doing_snoc in Ok. destruct (doing t1 l) as [fr|] eqn:D; [|cbn in Ok; congruence]. cbn in Ok. rewrite Nat.eqb_refl in Ok.
    destruct fr as [|[[|y x] [|]] fr]; try congruence. destruct (Nat.eqb y h1) eqn:Ey; [|congruence].
    destruct (inv_get _ _ _ _ _ _ _ I D) as (i & r & _ & _ & _ & G). rewrite G, top_rev. cbn [fst]. rewrite Ey, app_nil_r. exact IH.
  - destruct (tokens (runs l) t1); exact IH.
  - intros H. apply in_app_or in H. destruct H as [H|[H|[]]]; [auto|discriminate].
Qed.

(** Outside of components — in event handlers, in effects and whatever these start — a hook function raises. *)
Theorem C95_outside l t : schedule l -> outside l t -> doing t l = Some [] -> log (runs (l ++ [Call t])) = log (runs l) ++ [Got t None].
Proof.
  intros Sc Out D. destruct (inv_run _ Sc) as (owned & from & I). rewrite run_snoc. cbn [step log].
  pose proof (inv_var _ _ _ _ t I) as V. destruct (i_lists _ _ _ _ I t _ D) as [L _]. destruct (owned t); [|discriminate].
  pose proof (i_outside _ _ _ _ I t Out) as P. unfold get, list_of. rewrite V. destruct (from t) as [i|]; [|reflexivity].
  destruct P as [-> _]. reflexivity.
Qed.

(** Whatever tasks there are: when no render is under way, a hook function raises. *)
Theorem C95_idle l t : schedule l -> (forall t', doing t' l = Some []) -> log (runs (l ++ [Call t])) = log (runs l) ++ [Got t None].
Proof.
  intros Sc D. destruct (inv_run _ Sc) as (owned & from & I). rewrite run_snoc. cbn [step log].
  assert (O : forall t', owned t' = []). { intros t'. destruct (i_lists _ _ _ _ I t' _ (D t')) as [L _]. destruct (owned t'); [reflexivity|discriminate]. }
  unfold get, list_of. destruct (var (runs l) t) as [i|]; [|reflexivity]. rewrite (i_retired _ _ _ _ I i); [reflexivity|]. intros t'. now rewrite O.
Qed.

(** *** Cases *)

(** Checks a schedule. *)
Definition fits (l : list op) (o : op) : bool :=
  forallb (fun t => match doing t (l ++ [o]) with Some _ => true | None => false end) (tasks_of o) &&
  match o with Spawn t t' => negb (Nat.eqb t' t) && forallb (fun x => negb (Nat.eqb x t')) (flat_map tasks_of l) | _ => true end.
Fixpoint all_fit (l rest : list op) : bool := match rest with [] => true | o :: r => fits l o && all_fit (l ++ [o]) r end.
Lemma all_fit_schedule rest : forall l, schedule l -> all_fit l rest = true -> schedule (l ++ rest).
Proof.
  induction rest as [|o r IH]; intros l Sc F; cbn in F; [now rewrite app_nil_r|].
  apply andb_true_iff in F. destruct F as [F R]. apply andb_true_iff in F. destruct F as [F1 F2].
  replace (l ++ o :: r) with ((l ++ [o]) ++ r) by now rewrite <- app_assoc.
  apply IH; [|exact R]. constructor; [exact Sc| |].
  - intros t. destruct (Nat.eq_dec (actor o) t) as [<-|N].
    + rewrite forallb_forall in F1. assert (H : In (actor o) (tasks_of o)) by (destruct o; cbn; auto).
      specialize (F1 _ H). destruct (doing (actor o) (l ++ [o])); congruence.
    + rewrite doing_other by exact N. destruct (schedule_doing _ Sc t) as [fr ->]. discriminate.
  - intros t t' ->. apply andb_true_iff in F2. destruct F2 as [F2 F3]. split.
    + intros ->. now rewrite Nat.eqb_refl in F2.
    + intros H. rewrite forallb_forall in F3. specialize (F3 _ H). now rewrite Nat.eqb_refl in F3.
Qed.
Ltac by_check := apply (all_fit_schedule _ []); [constructor|reflexivity].

(** Two renders in turns (tasks 1 and 2; components 10 with child 11, and 20); the first starts an effect (task 3) that calls a hook
    function while the second is inside its component; an event handler (task 4) does so too. *)
Definition two_renders : list op :=
  [Begin 1; SetCurrent 1 10; Begin 2; Call 1; SetCurrent 2 20; SetCurrent 1 11; Call 2; Call 1; UnsetCurrent 1 11; Call 1; UnsetCurrent 1 10;
   Effects 1; Spawn 1 3; Call 3; Call 4; End 1; Call 2; Call 3].
Example C95_case : schedule two_renders /\ doing 2 two_renders = Some [([20], false)] /\ outside two_renders 3 /\ outside two_renders 4 /\
  log (runs two_renders) = [Under 1 10 None; Got 1 (Some 10); Under 2 20 None; Under 1 11 (Some 10); Got 2 (Some 20); Got 1 (Some 11); Got 1 (Some 10);
                            Got 3 None; Got 4 None; Got 2 (Some 20); Got 3 None].
Proof.
  split; [by_check|]. split; [reflexivity|]. split; [|split; [|reflexivity]].
  - apply (o_effect [Begin 1; SetCurrent 1 10; Begin 2; Call 1; SetCurrent 2 20; SetCurrent 1 11; Call 2; Call 1; UnsetCurrent 1 11; Call 1; UnsetCurrent 1 10; Effects 1] [Call 3; Call 4; End 1; Call 2; Call 3] 1 3 []). reflexivity.
  - apply o_root. intros t0 H. cbn in H. repeat (destruct H as [H|H]; [discriminate|]). exact H.
Qed.

(** Finding: a task that a component's body starts has the render's list. While that render goes on, a hook function called there does
    not raise but works on whatever component is being rendered: here task 5, started by component 10, gets the hook of its child 11
    (the render gives way to other tasks while it waits for the child's lock, _life_cycle_hook.py:222, and at each [await]). *)
Theorem C95_started_refuted : exists l1 l2, let l := l1 ++ Spawn 1 5 :: l2 in
  schedule l /\ doing 5 l = Some [] /\ current 1 l1 = Some 10 /\ log (runs (l ++ [Call 5])) = log (runs l) ++ [Got 5 (Some 11)].
Proof.
  exists [Begin 1; SetCurrent 1 10], [SetCurrent 1 11]. split; [by_check|]. split; [reflexivity|]. split; reflexivity.
Qed.

(** Finding: with the thread-local variant, two renders in turns share one list: a component's body gets the other render's hook, takes over
    its context providers, and [unset_current] raises. *)
Theorem C95_thread_refuted : exists l, schedule l /\ current 1 l = Some 10 /\
  log (run Thread (l ++ [Call 1; UnsetCurrent 1 10])) = log (run Thread l) ++ [Got 1 (Some 20); Broken 1 10] /\ In (Under 2 20 (Some 10)) (log (run Thread l)).
Proof.
  exists [Begin 1; SetCurrent 1 10; Begin 2; SetCurrent 2 20]. split; [by_check|]. split; [reflexivity|]. split; [reflexivity|]. cbn. auto.
Qed.

Print Assumptions C95_own.
Print Assumptions C95_under.
Print Assumptions C95_unbroken.
Print Assumptions C95_outside.
Print Assumptions C95_idle.
Print Assumptions C95_started_refuted.
Print Assumptions C95_thread_refuted.
