(** * Running the functions of a merged event handler (C100)

    When an element gets several handlers for one event, a call of the merged one runs their functions side by side in an
    anyio task group (/repo/src/reactpy/core/events.py:264-279). The task group is modelled as documented by anyio: the first exception
    cancels the group; a task that has not started yet is started nevertheless, and is cancelled at its first [await]; every
    [await] in a cancelled group ends with [CancelledError], again and again; leaving the group waits for all tasks and
    raises if a task raised. Not modelled: cancellation of a task that shields itself. *)
From Coq Require Import Bool Arith Lia List.
Import ListNotations.

(** A function, already called with the event's data: what it does, step by step. [FAwait ok c]: it waits; [ok] is what it does
    when the wait is over, [c] what it does when the wait ends with [CancelledError] (nothing but [FStop], if it does not
    catch it). *)
Inductive func :=
| FReturn
| FRaise
| FStop
| FDo (x : nat) (k : func)
| FAwait (ok c : func).

Inductive ending := Returned | Failed | Stopped.
Inductive task := New (f : func) | Waiting (ok c : func) | Ended (e : ending).
(** What can be seen: a function starts, does something, ends. *)
Inductive seen := Starts (i : nat) | Does (i x : nat) | Ends (i : nat) (e : ending).
Record group := Group { g_tasks : list task; g_cancelled : bool; g_outside : bool; g_log : list seen }.

(** A function runs up to its next [await]. *)
Fixpoint go (i : nat) (f : func) : list seen * task :=
  match f with
  | FReturn => ([Ends i Returned], Ended Returned)
  | FRaise => ([Ends i Failed], Ended Failed)
  | FStop => ([Ends i Stopped], Ended Stopped)
  | FDo x k => let (l, t) := go i k in (Does i x :: l, t)
  | FAwait ok c => ([], Waiting ok c)
  end.
Fixpoint put {A} (l : list A) (i : nat) (x : A) : list A :=
  match l, i with [], _ => [] | _ :: l', 0 => x :: l' | y :: l', S i' => y :: put l' i' x end.
Definition failed (t : task) : bool := match t with Ended Failed => true | _ => false end.
Definition proceed (g : group) (i : nat) (pre : list seen) (f : func) : group :=
  let (l, t) := go i f in Group (put (g_tasks g) i t) (g_cancelled g || failed t) (g_outside g) (g_log g ++ pre ++ l).

(** [await_all_event_handlers], /repo/src/reactpy/core/events.py:274-277: one task per function. *)
Definition call (fs : list func) : group := Group (map New fs) false false [].
(** The event loop starts a task; the wait of a task is over; [CancelledError] is thrown into a waiting task of a cancelled
    group; the merged call is itself cancelled. *)
Inductive sched := Start (i : nat) | Wake (i : nat) | Throw (i : nat) | Outside.
Definition step (g : group) (s : sched) : group :=
  match s with
  | Start i => match nth_error (g_tasks g) i with Some (New f) => proceed g i [Starts i] f | _ => g end
  | Wake i => match nth_error (g_tasks g) i with Some (Waiting ok _) => proceed g i [] ok | _ => g end
  | Throw i => match nth_error (g_tasks g) i with Some (Waiting _ c) => if g_cancelled g then proceed g i [] c else g | _ => g end
  | Outside => Group (g_tasks g) true true (g_log g)
  end.
Definition run (fs : list func) (l : list sched) : group := fold_left step l (call fs).
(** The merged call is over when all tasks are; how it ends. *)
Definition over (g : group) : bool := forallb (fun t => match t with Ended _ => true | _ => false end) (g_tasks g).
Definition outcome (g : group) : option ending :=
  if over g then Some (if existsb failed (g_tasks g) then Failed else if g_outside g then Stopped else Returned) else None.

(** ** Specification *)

(** What a function does if every wait ends well, and how it ends. *)
Fixpoint alone (f : func) : list nat * ending :=
  match f with
  | FReturn => ([], Returned)
  | FRaise => ([], Failed)
  | FStop => ([], Stopped)
  | FDo x k => (x :: fst (alone k), snd (alone k))
  | FAwait ok _ => alone ok
  end.
(** A function that does not wait. *)
Fixpoint waits (f : func) : bool := match f with FAwait _ _ => true | FDo _ k => waits k | _ => false end.
(** What the function at place [i] was seen to do. *)
Definition about (i : nat) (s : seen) : bool := match s with Starts j | Does j _ | Ends j _ => Nat.eqb i j end.
Definition of_func (i : nat) (l : list seen) : list seen := filter (about i) l.
Definition full (i : nat) (f : func) : list seen := Starts i :: map (Does i) (fst (alone f)) ++ [Ends i (snd (alone f))].

(** ** Lemmas *)

Lemma put_length {A} (l : list A) i x : length (put l i x) = length l.
Proof. revert i. induction l; intros [|i]; cbn; auto. Qed.
Lemma nth_put {A} (l : list A) i j x : nth_error (put l i x) j = if Nat.eqb i j then match nth_error l j with Some _ => Some x | None => None end else nth_error l j.
Proof. revert i j. induction l as [|y l IH]; intros [|i] [|j]; cbn; auto; destruct (Nat.eqb i j); reflexivity. Qed.
Lemma of_app i a b : of_func i (a ++ b) = of_func i a ++ of_func i b.
Proof. apply filter_app. Qed.
Lemma go_about i f : of_func i (fst (go i f)) = fst (go i f) /\ forall j, j <> i -> of_func j (fst (go i f)) = [].
Proof.
  induction f as [| | |x k [A B]|ok _ c _]; cbn; rewrite ?Nat.eqb_refl; try (split; [reflexivity|]; intros j N; apply Nat.eqb_neq in N; rewrite ?N; reflexivity).
  destruct (go i k) as [l t]. cbn in *. rewrite Nat.eqb_refl. split; [congruence|]. intros j N. pose proof (B j N). apply Nat.eqb_neq in N. rewrite N. assumption.
Qed.

(** The state of the task at place [i] and what was seen of it belong together. [rest]: what it will still do on its own. *)
Definition tied (cut : bool) (i : nat) (f : func) (t : task) (l : list seen) : Prop :=
  match t with
  | New f' => f' = f /\ l = []
  | Waiting ok c => waits f = true /\ exists done, l = Starts i :: map (Does i) done /\ (cut = false -> alone f = (done ++ fst (alone ok), snd (alone ok)))
  | Ended e => exists done, l = Starts i :: map (Does i) done ++ [Ends i e] /\ (cut = false \/ waits f = false -> alone f = (done, e))
  end.
Lemma go_tied i f f0 done cut : (cut = false \/ waits f0 = false -> alone f0 = (done ++ fst (alone f), snd (alone f))) -> (waits f = true -> waits f0 = true) ->
  tied cut i f0 (snd (go i f)) (Starts i :: map (Does i) done ++ fst (go i f)).
Proof.
  revert done. induction f as [| | |x k IH|ok _ c _]; intros done E W; cbn.
  1-3: exists done; split; [reflexivity|]; intros H; rewrite (E H); cbn; rewrite app_nil_r; reflexivity.
  - specialize (IH (done ++ [x])). destruct (go i k) as [l t]. cbn in *. rewrite map_app in IH. rewrite <- !app_assoc in IH. cbn in IH. apply IH; [exact E|exact W].
  - split; [apply W; reflexivity|]. exists done. rewrite app_nil_r. split; [reflexivity|]. intros H. apply E. auto.
Qed.

(** The invariant: [cut] tells whether an exception was thrown into a task at place [i]. *)
Definition inv (fs : list func) (g : group) : Prop :=
  length (g_tasks g) = length fs /\
  (existsb failed (g_tasks g) || g_outside g = g_cancelled g) /\
  forall i f, nth_error fs i = Some f -> exists t, nth_error (g_tasks g) i = Some t /\ tied (g_cancelled g) i f t (of_func i (g_log g)).
Lemma tied_mono i f t l : tied false i f t l -> tied true i f t l.
Proof.
  destruct t; cbn; auto.
  - intros (W & d & E & _). split; [exact W|]. exists d. split; [exact E|discriminate].
  - intros (d & E & H). exists d. split; [exact E|]. auto.
Qed.
Lemma tied_more c i f t l : tied c i f t l -> tied true i f t l.
Proof. destruct c; auto using tied_mono. Qed.
Lemma failed_put l i t t' : nth_error l i = Some t -> failed t = false -> existsb failed (put l i t') = existsb failed l || failed t'.
Proof.
  revert i. induction l as [|y l IH]; intros [|i] E F; cbn in *; try discriminate.
  - injection E as ->. rewrite F. cbn. apply orb_comm.
  - rewrite (IH _ E F). apply orb_assoc.
Qed.
Lemma call_inv fs : inv fs (call fs).
Proof.
  split; [apply map_length|]. split.
  - cbn. rewrite orb_false_r. induction fs; cbn; auto.
  - intros i f E. exists (New f). cbn. rewrite nth_error_map, E. auto.
Qed.
Lemma proceed_inv fs g i t pre f' : inv fs g -> nth_error (g_tasks g) i = Some t -> failed t = false -> (forall s, In s pre -> about i s = true) ->
  (forall f, nth_error fs i = Some f -> tied (g_cancelled g) i f (snd (go i f')) (of_func i (g_log g) ++ pre ++ fst (go i f'))) ->
  inv fs (proceed g i pre f').
Proof.
  intros (L & C & T) E F P X. unfold proceed. destruct (go_about i f') as [GA GB]. destruct (go i f') as [l u] eqn:G. cbn [fst snd] in *. split; [cbn; rewrite put_length; exact L|]. split.
  - cbn. rewrite (failed_put _ _ _ _ E F), <- C. destruct (existsb failed _), (g_outside g), (failed u); reflexivity.
  - intros j f Ej. cbn [g_tasks g_cancelled g_log]. rewrite nth_put. rewrite !of_app. destruct (Nat.eqb_spec i j) as [<-|N].
    + rewrite E. exists u. split; [reflexivity|]. assert (PP : of_func i pre = pre). { clear -P. unfold of_func. induction pre as [|s pre IH]; cbn; [reflexivity|]. rewrite (P s) by (left; reflexivity). rewrite IH; [reflexivity|]. intros; apply P; right; assumption. }
      rewrite PP, GA. specialize (X f Ej). destruct (g_cancelled g); cbn [orb]; [exact X|]. destruct (failed u); [apply tied_mono|]; exact X.
    + destruct (T j f Ej) as (tj & Tj & Y). exists tj. split; [exact Tj|].
      assert (PP : of_func j pre = []). { clear -P N. unfold of_func. induction pre as [|s pre IH]; cbn; [reflexivity|]. assert (about j s = false). { specialize (P s (or_introl eq_refl)). destruct s; cbn in *; apply Nat.eqb_eq in P; subst; apply Nat.eqb_neq; congruence. } rewrite H. apply IH. intros; apply P; right; assumption. }
      rewrite PP, (GB j) by congruence. cbn. rewrite app_nil_r. destruct (g_cancelled g || failed u) eqn:O; [eapply tied_more; exact Y|]. apply orb_false_elim in O. destruct O as [O _]. rewrite O in Y. exact Y.
Qed.
Lemma step_inv fs g s : inv fs g -> inv fs (step g s).
Proof.
  intros I. pose proof I as (L & C & T). destruct s as [i|i|i|]; cbn [step].
  - destruct (nth_error (g_tasks g) i) as [[f'|ok c|e]|] eqn:E; try exact I. eapply proceed_inv; [exact I|exact E|reflexivity|intros s [<-|[]]; cbn; apply Nat.eqb_refl|].
    intros f Ef. destruct (T i f Ef) as (t & Et & Y). rewrite E in Et. injection Et as <-. cbn in Y. destruct Y as [-> ->]. cbn [app].
    apply (go_tied i f f []); [intros _; cbn; destruct (alone f); reflexivity|auto].
  - destruct (nth_error (g_tasks g) i) as [[f'|ok c|e]|] eqn:E; try exact I. eapply proceed_inv; [exact I|exact E|reflexivity|intros s []|].
    intros f Ef. destruct (T i f Ef) as (t & Et & Y). rewrite E in Et. injection Et as <-. cbn in Y. destruct Y as (W & d & -> & A). cbn [app].
    apply (go_tied i ok f d); [|auto]. intros [H|H]; [exact (A H)|congruence].
  - destruct (nth_error (g_tasks g) i) as [[f'|ok c|e]|] eqn:E; try exact I. destruct (g_cancelled g) eqn:GC; [|exact I]. eapply proceed_inv; [exact I|exact E|reflexivity|intros s []|].
    intros f Ef. destruct (T i f Ef) as (t & Et & Y). rewrite E in Et. injection Et as <-. cbn in Y. destruct Y as (W & d & -> & A). cbn [app]. rewrite GC.
    apply (go_tied i c f d); [|auto]. intros [H|H]; congruence.
  - split; [exact L|]. split; [cbn; apply orb_true_r|]. intros i f Ef. destruct (T i f Ef) as (t & Et & Y). exists t. split; [exact Et|]. cbn. eapply tied_more. exact Y.
Qed.
Lemma run_inv fs l : inv fs (run fs l).
Proof. unfold run. generalize (call fs) (call_inv fs). induction l as [|s l IH]; intros g I; [exact I|]. apply IH, step_inv, I. Qed.

(** ** Theorems *)

(** Every function is started at most once and ends at most once, and does nothing before its start or after its end. When
    the merged call is over, every function was started once and has ended. *)
Theorem C100_all_called fs l i f : nth_error fs i = Some f -> let seen_of := of_func i (g_log (run fs l)) in
  (seen_of = [] \/ exists done, seen_of = Starts i :: map (Does i) done \/ exists e, seen_of = Starts i :: map (Does i) done ++ [Ends i e]) /\
  (outcome (run fs l) <> None -> exists done e, seen_of = Starts i :: map (Does i) done ++ [Ends i e]).
Proof.
  intros E. cbn zeta. destruct (run_inv fs l) as (L & _ & T). destruct (T i f E) as (t & Et & Y). split.
  - destruct t; cbn in Y; [left; apply Y|right|right]; [destruct Y as (_ & d & -> & _)|destruct Y as (d & -> & _)]; exists d; [left; reflexivity|right; eauto].
  - unfold outcome. destruct (over (run fs l)) eqn:O; [|congruence]. intros _. unfold over in O. rewrite forallb_forall in O. specialize (O t (nth_error_In _ _ Et)).
    destruct t; try discriminate. destruct Y as (d & -> & _). eauto.
Qed.
(** It raises iff one of the functions did; otherwise it returns, unless it was itself cancelled. *)
Theorem C100_outcome fs l o : outcome (run fs l) = Some o ->
  (o = Failed <-> exists i, i < length fs /\ In (Ends i Failed) (g_log (run fs l))) /\
  (o = Stopped -> In Outside l) /\ (~ In Outside l -> o = Failed \/ o = Returned).
Proof.
  intros H. destruct (run_inv fs l) as (L & _ & T).
  assert (OU : g_outside (run fs l) = true -> In Outside l).
  { clear. unfold run. assert (X : forall g, g_outside (fold_left step l g) = true -> g_outside g = true \/ In Outside l).
    { induction l as [|s l IH]; intros g H; [auto|]. cbn in H. apply IH in H. destruct H as [H|H]; [|right; right; exact H].
      destruct s as [i|i|i|]; cbn in H; [| | |right; left; reflexivity]; left;
        (destruct (nth_error (g_tasks g) i) as [[?|? ?|?]|]; try exact H); unfold proceed in H; try (destruct (go _ _); exact H).
      destruct (g_cancelled g); [destruct (go _ _)|]; exact H. }
    intros H. destruct (X _ H) as [Y|Y]; [discriminate|exact Y]. }
  unfold outcome in H. destruct (over (run fs l)) eqn:O; [|discriminate]. injection H as H.
  assert (FA : existsb failed (g_tasks (run fs l)) = true <-> exists i, i < length fs /\ In (Ends i Failed) (g_log (run fs l))).
  { rewrite existsb_exists. split.
    - intros (t & I & F). apply In_nth_error in I. destruct I as [i I]. assert (LT : i < length fs) by (rewrite <- L; apply nth_error_Some; congruence).
      destruct (nth_error fs i) as [f|] eqn:E; [|apply nth_error_None in E; lia]. destruct (T i f E) as (t' & Et & Y). rewrite I in Et. injection Et as <-. destruct t as [| |[]]; try discriminate.
      destruct Y as (d & Y & _). exists i. split; [exact LT|]. assert (X : In (Ends i Failed) (of_func i (g_log (run fs l)))) by (rewrite Y; right; apply in_or_app; right; left; reflexivity).
      apply filter_In in X. apply X.
    - intros (i & LT & I). destruct (nth_error fs i) as [f|] eqn:E; [|apply nth_error_None in E; lia]. destruct (T i f E) as (t & Et & Y).
      assert (X : In (Ends i Failed) (of_func i (g_log (run fs l)))) by (apply filter_In; split; [exact I|cbn; apply Nat.eqb_refl]).
      exists t. split; [eapply nth_error_In; exact Et|]. unfold over in O. rewrite forallb_forall in O. specialize (O t (nth_error_In _ _ Et)). destruct t as [| |e]; try discriminate.
      destruct Y as (d & Y & _). rewrite Y in X. destruct X as [X|X]; [discriminate|]. apply in_app_or in X. destruct X as [X|[X|[]]]; [apply in_map_iff in X; destruct X as (? & ? & _); discriminate|]. injection X as ->. reflexivity. }
  destruct (existsb failed (g_tasks (run fs l))).
  - subst o. split; [split; auto; intros; apply FA; reflexivity|]. split; [discriminate|auto].
  - split; [split; [intros ->; destruct (g_outside _); discriminate|intros X; apply FA in X; discriminate]|]. split.
    + intros ->. apply OU. destruct (g_outside _); [reflexivity|discriminate].
    + intros N. right. destruct (g_outside _); [destruct N; apply OU; reflexivity|auto].
Qed.
Lemma calm_step fs g s : (forall f, In f fs -> snd (alone f) <> Failed) -> inv fs g -> g_cancelled g = false -> s <> Outside -> g_cancelled (step g s) = false.
Proof.
  intros NF (L & C & T) GC NO.
  assert (X : forall i t pre f', nth_error (g_tasks g) i = Some t -> (forall f, nth_error fs i = Some f -> exists d, alone f = (d ++ fst (alone f'), snd (alone f'))) -> g_cancelled (proceed g i pre f') = false).
  { intros i t pre f' E A. assert (LT : i < length fs) by (rewrite <- L; apply nth_error_Some; congruence). destruct (nth_error fs i) as [f|] eqn:Ef; [|apply nth_error_None in Ef; lia].
    destruct (A f eq_refl) as [d D]. assert (N : snd (alone f') <> Failed) by (pose proof (NF f (nth_error_In _ _ Ef)) as N; rewrite D in N; exact N).
    unfold proceed. assert (F : failed (snd (go i f')) = false).
    { clear -N. induction f' as [| | |x k IH|ok _ c _]; cbn in *; try reflexivity; [congruence|]. destruct (go i k). exact (IH N). }
    destruct (go i f') as [l u]. cbn in *. rewrite GC, F. reflexivity. }
  destruct s as [i|i|i|]; cbn [step]; [| | |congruence].
  - destruct (nth_error (g_tasks g) i) as [[f'|ok c|e]|] eqn:E; try exact GC. eapply X; [exact E|]. intros f Ef. destruct (T i f Ef) as (t & Et & Y). rewrite E in Et. injection Et as <-.
    destruct Y as [-> _]. exists []. destruct (alone f); reflexivity.
  - destruct (nth_error (g_tasks g) i) as [[f'|ok c|e]|] eqn:E; try exact GC. eapply X; [exact E|]. intros f Ef. destruct (T i f Ef) as (t & Et & Y). rewrite E in Et. injection Et as <-.
    destruct Y as (_ & d & _ & A). exists d. exact (A GC).
  - destruct (nth_error (g_tasks g) i) as [[f'|ok c|e]|]; rewrite ?GC; first [reflexivity|exact GC].
Qed.
(** If no function fails and the call is not cancelled, each does all that it would do on its own, whatever the order; and
    the call returns. *)
Theorem C100_undisturbed fs l : (forall g, In g fs -> snd (alone g) = Returned) -> ~ In Outside l -> outcome (run fs l) <> None ->
  outcome (run fs l) = Some Returned /\ forall i f, nth_error fs i = Some f -> of_func i (g_log (run fs l)) = full i f.
Proof.
  intros NF NO OV.
  assert (X : g_cancelled (run fs l) = false).
  { assert (Y : forall g, inv fs g -> g_cancelled g = false -> g_cancelled (fold_left step l g) = false).
    { clear OV. induction l as [|s l IH]; intros g I GC; [exact GC|]. cbn. apply IH; [intros Z; apply NO; right; exact Z|apply step_inv, I|].
      apply (calm_step fs); [|exact I|exact GC|intros ->; apply NO; left; reflexivity]. intros f If. rewrite (NF f If). discriminate. }
    apply Y; [apply call_inv|reflexivity]. }
  destruct (run_inv fs l) as (L & C & T). rewrite X in C. apply orb_false_elim in C. destruct C as [C1 C2]. unfold outcome in *. destruct (over (run fs l)) eqn:O; [|congruence]. rewrite C1, C2. split; [reflexivity|].
  intros i f E. destruct (T i f E) as (t & Et & Y). unfold over in O. rewrite forallb_forall in O. specialize (O t (nth_error_In _ _ Et)). destruct t as [| |e]; try discriminate.
  destruct Y as (d & -> & A). rewrite X in A. unfold full. rewrite (A (or_introl eq_refl)). reflexivity.
Qed.
(** A function that does not wait does all that it would do on its own, even if others fail or the call is cancelled. *)
Theorem C100_no_wait fs l i f : nth_error fs i = Some f -> waits f = false -> outcome (run fs l) <> None -> of_func i (g_log (run fs l)) = full i f.
Proof.
  intros E W OV. destruct (run_inv fs l) as (L & C & T). destruct (T i f E) as (t & Et & Y). unfold outcome in OV. destruct (over (run fs l)) eqn:O; [|congruence].
  unfold over in O. rewrite forallb_forall in O. specialize (O t (nth_error_In _ _ Et)). destruct t as [| |e]; try discriminate.
  destruct Y as (d & -> & A). unfold full. rewrite (A (or_intror W)). reflexivity.
Qed.
(** The call is never stuck: while it is not over, some task can start or wake up, and if that goes on it ends. *)
Fixpoint size (f : func) : nat := match f with FDo _ k => S (size k) | FAwait ok c => S (size ok + size c) | _ => 0 end.
Definition left_over (t : task) : nat := match t with New f => S (S (size f)) | Waiting ok c => S (size ok + size c) | Ended _ => 0 end.
Definition total (g : group) : nat := fold_right (fun t n => left_over t + n) 0 (g_tasks g).
Lemma go_left i f : left_over (snd (go i f)) <= size f.
Proof. induction f; cbn; try lia. destruct (go i f). cbn in *. lia. Qed.
Lemma total_put l i t t' : nth_error l i = Some t -> fold_right (fun t n => left_over t + n) 0 (put l i t') + left_over t = fold_right (fun t n => left_over t + n) 0 l + left_over t'.
Proof.
  revert i. induction l as [|y l IH]; intros [|i] E; cbn in *; try discriminate.
  - injection E as ->. lia.
  - pose proof (IH _ E). lia.
Qed.
Lemma proceed_total g i t pre f : nth_error (g_tasks g) i = Some t -> size f < left_over t -> total (proceed g i pre f) < total g.
Proof.
  intros E S. unfold proceed. pose proof (go_left i f) as G. destruct (go i f) as [l u]. unfold total. cbn [g_tasks snd] in *. pose proof (total_put _ _ _ u E). lia.
Qed.
(** Starting a task that has not started and waking one that waits bring the end nearer, and so does throwing. *)
Lemma step_total g s : step g s = g \/ s = Outside \/ total (step g s) < total g.
Proof.
  destruct s as [i|i|i|]; cbn [step]; [| | |auto];
    (destruct (nth_error (g_tasks g) i) as [[f'|ok c|e]|] eqn:E; auto); try (right; right; eapply proceed_total; [exact E|cbn; lia]).
  destruct (g_cancelled g); auto. right. right. eapply proceed_total; [exact E|cbn; lia].
Qed.
Theorem C100_ends fs l : exists l', length l' <= total (run fs l) /\ ~ In Outside l' /\ (forall i, ~ In (Throw i) l') /\ outcome (run fs (l ++ l')) <> None.
Proof.
  unfold run. setoid_rewrite fold_left_app. generalize (fold_left step l (call fs)). intros g. remember (total g) as n eqn:N. revert g N.
  induction n as [n IH] using lt_wf_ind. intros g ->. destruct (over g) eqn:O.
  - exists []. split; [cbn; lia|]. split; [auto|]. split; [auto|]. cbn. unfold outcome. rewrite O. discriminate.
  - assert (X : exists i t, nth_error (g_tasks g) i = Some t /\ match t with Ended _ => False | _ => True end).
    { unfold over in O. clear -O. induction (g_tasks g) as [|t l IH]; [discriminate|]. cbn in O. destruct t as [f|ok c|e]; [exists 0, (New f); auto|exists 0, (Waiting ok c); auto|]. destruct (IH O) as (i & t & E & M). exists (S i), t. auto. }
    destruct X as (i & t & E & M). set (s := match t with New _ => Start i | _ => Wake i end).
    assert (D : total (step g s) < total g).
    { destruct t as [f|ok c|e]; [| |destruct M]; unfold s; cbn [step]; rewrite E; eapply proceed_total; try exact E; cbn; lia. }
    destruct (IH _ D (step g s) eq_refl) as (l' & LE & NO & NT & OV). exists (s :: l'). split; [cbn; lia|].
    split; [intros [Z|Z]; [destruct t; discriminate|auto]|]. split; [intros j [Z|Z]; [destruct t; discriminate|exact (NT j Z)]|]. exact OV.
Qed.

(** ** Examples and the finding *)

Definition saves : func := FDo 1 (FAwait (FDo 2 FReturn) FStop).
Definition careful : func := FDo 3 (FAwait (FDo 4 FReturn) (FDo 5 FReturn)).
Definition breaks : func := FDo 6 FRaise.
Example C100_example :
  outcome (run [saves; careful] [Start 0; Start 1; Wake 1; Wake 0]) = Some Returned /\
  g_log (run [saves; careful] [Start 0; Start 1; Wake 1; Wake 0]) = [Starts 0; Does 0 1; Starts 1; Does 1 3; Does 1 4; Ends 1 Returned; Does 0 2; Ends 0 Returned] /\
  outcome (run [saves; breaks; careful] [Start 0; Start 1; Start 2; Throw 2]) = None /\
  outcome (run [breaks; FDo 7 FReturn] [Start 0; Start 1]) = Some Failed.
Proof. repeat split. Qed.
(** Finding: when one function fails, those that wait are cut short, and do not do all that they would do on their own: here
    the first function never makes its second step, although its wait would have ended well. *)
Theorem C100_cut_refuted : exists fs l i f, nth_error fs i = Some f /\ snd (alone f) = Returned /\ ~ In Outside l /\ outcome (run fs l) = Some Failed /\
  of_func i (g_log (run fs l)) <> full i f.
Proof.
  exists [saves; breaks], [Start 0; Start 1; Throw 0], 0, saves. split; [reflexivity|]. split; [reflexivity|]. split; [cbn; intuition discriminate|]. split; [reflexivity|discriminate].
Qed.

Print Assumptions C100_all_called.
Print Assumptions C100_outcome.
Print Assumptions C100_undisturbed.
Print Assumptions C100_no_wait.
Print Assumptions C100_ends.
Print Assumptions C100_cut_refuted.
