(** * Test helpers that wait and capture, and property C115
    (/repo/src/reactpy/testing/common.py:33-104 [poll]; 107-160 [HookCatcher]) *)
From Coq Require Import String ZArith Bool Arith Lia List.
From Verif Require Import Dict LayoutTypes.
Import ListNotations.
Local Open Scope Z_scope.

(** ** Model *)

(** Python objects: the identity and what [==] compares (simplification: [==] is an equivalence of other objects and does not raise),
    or a coroutine object, which equals only itself and is a new one for each call. *)
Inductive obj := Obj (id : nat) (eq : nat) | Coroutine.
(** A call ends after some time with a result or an exception, or never. *)
Inductive called := Gives (d : Z) (v : obj) | Fails (d : Z) (e : nat) | Hangs.
(** A function given to [poll]: what the [i]-th call does if it starts at a time. [AsyncDef]: [inspect.iscoroutinefunction] holds and the
    call's result is what the coroutine gives when awaited. [Plain]: anything else that can be called, whose result is taken as it is:
    [Coroutine] if it returns a coroutine, as a lambda around a coroutine function or an object with [async def __call__] does. *)
Inductive callable := AsyncDef (f : nat -> Z -> called) | Plain (f : nat -> Z -> called).
(** [poll.__init__], common.py:36-53: a plain function is wrapped ([async_func], 44-45), its result is not awaited. *)
Definition wrapped (c : callable) : nat -> Z -> called := match c with AsyncDef f => f | Plain f => f end.
(** [asyncio.sleep(delay)]: how long the [i]-th sleep lasts, at least [delay]; [time.time()] at each time. *)
Record world := World { w_sleep : nat -> Z; w_clock : Z -> Z }.
Inductive outcome := Returned (t : Z) | TimedOut (t : Z) (last : obj) | Raised (t : Z) (e : nat) | Stuck | Running.

Section Until.
Variable w : world.
Variable f : nat -> Z -> called.
(** The condition: [inl b], or an exception. *)
Variable cond : obj -> bool + nat.
Variable timeout : Z.
(** The loop of [until], common.py:68-76, from the [i]-th round on; [started] is what the clock showed at the beginning. *)
Fixpoint loop (fuel : nat) (i : nat) (started now : Z) : outcome :=
  match fuel with
  | O => Running
  | S fuel' =>
      let t1 := now + w_sleep w i in
      match f i t1 with
      | Hangs => Stuck
      | Fails d e => Raised (t1 + d) e
      | Gives d v =>
          let t2 := t1 + d in
          match cond v with
          | inr e => Raised t2 e
          | inl true => Returned t2
          | inl false => if timeout <? w_clock w t2 - started then TimedOut t2 v else loop fuel' (S i) started t2
          end
      end
  end.
(** [until], common.py:55-76 (the timeout is given; [None] stands for the configured one). *)
Definition until (fuel : nat) (start : Z) : outcome := loop fuel 0 (w_clock w start) start.
End Until.
(** [until_is] and [until_equals], common.py:78-104. *)
Definition identical (right left : obj) : bool + nat :=
  inl match left, right with Obj a _, Obj b _ => Nat.eqb a b | _, _ => false end.
Definition equal (right left : obj) : bool + nat :=
  inl match left, right with Obj _ a, Obj _ b => Nat.eqb a b | _, _ => false end.
Definition until_is w c right timeout := until w (wrapped c) (identical right) timeout.
Definition until_equals w c right timeout := until w (wrapped c) (equal right) timeout.

(** ** Specification *)
Section Rounds.
Variable w : world.
Variable f : nat -> Z -> called.
Variable start : Z.
(** When the calls start: after a sleep from the start, or from the end of the call before. *)
Inductive begins : nat -> Z -> Prop :=
| First : begins 0 (start + w_sleep w 0)
| Next i t d v : begins i t -> f i t = Gives d v -> begins (S i) (t + d + w_sleep w (S i)).
(** The result of the [i]-th call and when it ended. *)
Definition result (i : nat) (v : obj) (t : Z) : Prop := exists b d, begins i b /\ f i b = Gives d v /\ t = b + d.
End Rounds.
(** The clock runs like time; sleeps last between [delay] and [longest]; calls end within [most]; time passes in each round. *)
Definition steady (w : world) : Prop := exists c, forall t, w_clock w t = t + c.
Definition timely (w : world) (f : nat -> Z -> called) (delay longest most : Z) : Prop :=
  0 <= delay /\ (forall i, delay <= w_sleep w i <= longest) /\
  (forall i t, exists d, 0 <= d <= most /\ 1 <= w_sleep w i + d /\ ((exists v, f i t = Gives d v) \/ exists e, f i t = Fails d e)).

(** ** Proof *)
Lemma begins_fun w f start i t t' : begins w f start i t -> begins w f start i t' -> t = t'.
Proof.
  intros H. revert t'. induction H as [|i t d v H IH E]; intros t' H'; inversion H'; subst; [reflexivity|]. apply IH in H1. subst. rewrite E in H2. now injection H2 as <- <-.
Qed.
Lemma result_fun w f start i v t v' t' : result w f start i v t -> result w f start i v' t' -> v = v' /\ t = t'.
Proof.
  intros (b & d & B & E & ->) (b' & d' & B' & E' & ->). pose proof (begins_fun _ _ _ _ _ _ B B'). subst b'. rewrite E in E'. now injection E' as <- <-.
Qed.

Section Loop.
Variable w : world.
Variable f : nat -> Z -> called.
Variable cond : obj -> bool + nat.
Variable timeout : Z.
Variable start : Z.
Definition goes_on (j : nat) : Prop := exists v t, result w f start j v t /\ cond v = inl false /\ w_clock w t - w_clock w start <= timeout.
(** How the loop ended after rounds that went on. *)
Definition ended (i : nat) (o : outcome) : Prop :=
  match o with
  | Returned t => exists v, result w f start i v t /\ cond v = inl true
  | TimedOut t v => result w f start i v t /\ cond v = inl false /\ timeout < w_clock w t - w_clock w start
  | Raised t e => (exists v, result w f start i v t /\ cond v = inr e) \/ exists b d, begins w f start i b /\ f i b = Fails d e /\ t = b + d
  | Stuck => exists b, begins w f start i b /\ f i b = Hangs
  | Running => True
  end.
Lemma loop_ends fuel : forall i now, begins w f start i (now + w_sleep w i) -> (forall j, (j < i)%nat -> goes_on j) ->
  exists n, (forall j, (j < n)%nat -> goes_on j) /\ ended n (loop w f cond timeout fuel i (w_clock w start) now) /\
    (loop w f cond timeout fuel i (w_clock w start) now = Running -> n = (i + fuel)%nat).
Proof.
  induction fuel as [|fu IH]; intros i now B G; cbn [loop]; [exists i; split; [exact G|split; [exact Logic.I|lia]]|].
  destruct (f i (now + w_sleep w i)) as [d v|d e|] eqn:E.
  - assert (R : result w f start i v (now + w_sleep w i + d)) by (exists (now + w_sleep w i), d; auto).
    destruct (cond v) as [[|]|e] eqn:C; [exists i; split; [exact G|split; [exists v; auto|discriminate]]| |exists i; split; [exact G|split; [left; exists v; auto|discriminate]]].
    destruct (Z.ltb_spec timeout (w_clock w (now + w_sleep w i + d) - w_clock w start)) as [L|L]; [exists i; split; [exact G|split; [split; [exact R|split; [exact C|lia]]|discriminate]]|].
    destruct (IH (S i) (now + w_sleep w i + d)) as (n & A & N & Rn); [eapply Next; eauto| |exists n; split; [exact A|split; [exact N|intros H; rewrite (Rn H); lia]]].
    intros j Hj. assert (D : (j < i)%nat \/ j = i) by lia. destruct D as [D| ->]; [apply G, D|]. exists v, (now + w_sleep w i + d). split; [exact R|]. split; [exact C|lia].
  - exists i. split; [exact G|]. split; [right; exists (now + w_sleep w i), d; auto|discriminate].
  - exists i. split; [exact G|]. split; [exists (now + w_sleep w i); auto|discriminate].
Qed.
Lemma until_ended fuel : exists n, (forall j, (j < n)%nat -> goes_on j) /\ ended n (until w f cond timeout fuel start) /\ (until w f cond timeout fuel start = Running -> n = fuel).
Proof. apply (loop_ends fuel 0 start); [constructor|lia]. Qed.
End Loop.

(** What the end of a wait says: it returns at the end of a call whose result meets the condition, and no call before did; it times out at the
    end of a call whose result does not, nor did any before, and the time is over; in both cases the time was not over at the end of the calls before. *)
Theorem C115_returns : forall w f cond timeout fuel start t, until w f cond timeout fuel start = Returned t ->
  exists i v, result w f start i v t /\ cond v = inl true /\
    forall j, (j < i)%nat -> exists u s, result w f start j u s /\ cond u = inl false /\ w_clock w s - w_clock w start <= timeout.
Proof. intros w f cond timeout fuel start t E. destruct (until_ended w f cond timeout start fuel) as (n & G & N & _). rewrite E in N. destruct N as (v & R & C). exists n, v. auto. Qed.
Theorem C115_times_out : forall w f cond timeout fuel start t v, until w f cond timeout fuel start = TimedOut t v ->
  exists i, result w f start i v t /\ timeout < w_clock w t - w_clock w start /\
    forall j u s, (j <= i)%nat -> result w f start j u s -> cond u = inl false.
Proof.
  intros w f cond timeout fuel start t v E. destruct (until_ended w f cond timeout start fuel) as (n & G & N & _). rewrite E in N. destruct N as (R & C & L). exists n. split; [exact R|]. split; [exact L|].
  intros j u s Hj Rj. assert (D : (j < n)%nat \/ j = n) by lia. destruct D as [D| ->].
  - destruct (G j D) as (u' & s' & R' & C' & _). destruct (result_fun _ _ _ _ _ _ _ _ Rj R') as [-> _]. exact C'.
  - destruct (result_fun _ _ _ _ _ _ _ _ Rj R) as [-> _]. exact C.
Qed.
(** An exception of the function or of the condition ends the wait. *)
Theorem C115_raises : forall w f cond timeout fuel start t e, until w f cond timeout fuel start = Raised t e ->
  exists i, ((exists v, result w f start i v t /\ cond v = inr e) \/ exists b d, begins w f start i b /\ f i b = Fails d e /\ t = b + d) /\
    forall j, (j < i)%nat -> exists u s, result w f start j u s /\ cond u = inl false.
Proof.
  intros w f cond timeout fuel start t e E. destruct (until_ended w f cond timeout start fuel) as (n & G & N & _). rewrite E in N. exists n. split; [exact N|].
  intros j Hj. destruct (G j Hj) as (u & s & R & C & _). exists u, s. auto.
Qed.

Lemma begins_late w f delay longest most start : timely w f delay longest most -> forall i t, begins w f start i t -> start + delay <= t.
Proof.
  intros (D0 & SL & CA) i t H. induction H as [|i t d v H IH E]; [specialize (SL 0%nat); lia|]. specialize (SL (S i)). destruct (CA i t) as (d' & Hd & _ & [[v' E']|[e E']]); [|congruence].
  rewrite E in E'. injection E' as -> ->. lia.
Qed.
(** It never returns before one delay has passed, even if the condition holds all the time. *)
Theorem C115_not_before : forall w f delay longest most cond timeout fuel start t, timely w f delay longest most ->
  until w f cond timeout fuel start = Returned t -> start + delay <= t.
Proof.
  intros w f delay longest most cond timeout fuel start t T E. destruct (C115_returns _ _ _ _ _ _ _ E) as (i & v & (b & d & B & F & ->) & _). pose proof (begins_late _ _ _ _ _ _ T _ _ B).
  destruct T as (_ & _ & CA). destruct (CA i b) as (d' & Hd & _ & [[v' E']|[e E']]); [|congruence]. rewrite F in E'. injection E' as -> ->. lia.
Qed.
Lemma progress w f delay longest most start : timely w f delay longest most -> forall i v t, result w f start i v t -> start + Z.of_nat i + 1 <= t.
Proof.
  intros (D0 & SL & CA) i. induction i as [|i IH]; intros v t (b & d & B & F & ->).
  - inversion B; subst. destruct (CA 0%nat (start + w_sleep w 0)) as (d' & Hd & P & [[v' E']|[e E']]); [|congruence]. rewrite F in E'. injection E' as -> ->. lia.
  - inversion B; subst. assert (R : result w f start i v0 (t + d0)) by (exists t, d0; auto). apply IH in R.
    destruct (CA (S i) (t + d0 + w_sleep w (S i))) as (d' & Hd & P & [[v' E']|[e E']]); [|congruence]. rewrite F in E'. injection E' as -> ->. lia.
Qed.
Lemma round_end w f delay longest most start : timely w f delay longest most -> forall i v t, result w f start i v t ->
  forall t', match i with O => t' = start | S j => exists u, result w f start j u t' end -> t <= t' + longest + most.
Proof.
  intros (D0 & SL & CA) i v t (b & d & B & F & ->) t' H. destruct (CA i b) as (d' & Hd & _ & [[v' E']|[e E']]); [|congruence]. rewrite F in E'. injection E' as -> ->. specialize (SL i).
  inversion B; subst; [lia|]. destruct H as (u & R). assert (R2 : result w f start i0 v (t + d)) by (exists t, d; auto). destruct (result_fun _ _ _ _ _ _ _ _ R R2) as [_ ->]. lia.
Qed.
(** It ends: with a steady clock, sleeps and calls of bounded length, at most one sleep and one call after the time is over. *)
Theorem C115_ends : forall w f delay longest most cond timeout start, steady w -> timely w f delay longest most ->
  exists fuel, match until w f cond timeout fuel start with
               | Returned t | TimedOut t _ | Raised t _ => t <= start + Z.max 0 timeout + longest + most
               | Stuck | Running => False
               end.
Proof.
  intros w f delay longest most cond timeout start [c CL] T. exists (S (S (Z.to_nat (Z.max 0 timeout)))). set (fuel := S _).
  destruct (until_ended w f cond timeout start fuel) as (n & G & N & RN).
  assert (LE : forall t', match n with O => t' = start | S j => exists u, result w f start j u t' end -> t' <= start + Z.max 0 timeout).
  { intros t' H. destruct n as [|j]; [subst; lia|]. destruct H as (u & R). destruct (G j) as (u' & s & R' & _ & L); [lia|]. destruct (result_fun _ _ _ _ _ _ _ _ R R') as [_ ->]. rewrite !CL in L. lia. }
  assert (PV : exists t', match n with O => t' = start | S j => exists u, result w f start j u t' end).
  { destruct n as [|j]; [eauto|]. destruct (G j) as (u & s & R & _); [lia|]. exists s, u. exact R. }
  destruct PV as (t' & P). specialize (LE t' P).
  destruct (until w f cond timeout fuel start) as [t|t v|t e| |] eqn:E.
  - destruct N as (v & R & _). pose proof (round_end _ _ _ _ _ _ T _ _ _ R t' P). lia.
  - destruct N as (R & _). pose proof (round_end _ _ _ _ _ _ T _ _ _ R t' P). lia.
  - destruct N as [(v & R & _)|(b & d & B & F & ->)]; [pose proof (round_end _ _ _ _ _ _ T _ _ _ R t' P); lia|].
    destruct T as (D0 & SL & CA). destruct (CA n b) as (d' & Hd & _ & [[v' E']|[e' E']]); [congruence|]. rewrite F in E'. injection E' as -> ->. pose proof (SL n).
    inversion B; subst; [lia|]. destruct P as (u & R). assert (R2 : result w f start i v (t + d)) by (exists t, d; auto). destruct (result_fun _ _ _ _ _ _ _ _ R R2) as [_ ->]. lia.
  - destruct N as (b & B & F). destruct T as (D0 & SL & CA). destruct (CA n b) as (d' & _ & _ & [[v' E']|[e' E']]); congruence.
  - specialize (RN eq_refl). subst n. destruct P as (u & R). apply (progress _ _ _ _ _ _ T) in R. unfold fuel in *. lia.
Qed.
(** What holds for good within the time is found: if from [since] on every call gives a result that meets the condition, the calls do not raise, and a call
    started before [since] ends before the time is over, it returns, at most a call, a sleep and another call after [since]. *)
Theorem C115_found : forall w f delay longest most cond timeout start since, steady w -> timely w f delay longest most -> (forall i t d e, f i t <> Fails d e) ->
  (forall i t d v, f i t = Gives d v -> exists b, cond v = inl b /\ (since <= t -> b = true)) ->
  since + most <= start + timeout ->
  exists fuel t, until w f cond timeout fuel start = Returned t /\ t <= Z.max start (since + most) + longest + most.
Proof.
  intros w f delay longest most cond timeout start since [c CL] T NF ST SM. destruct (C115_ends w f delay longest most cond timeout start (ex_intro _ c CL) T) as (fuel & EN). exists fuel.
  destruct (until_ended w f cond timeout start fuel) as (n & G & N & _).
  assert (AT : forall j v t, result w f start j v t -> cond v = inl false -> t < since + most).
  { intros j v t (b & d & B & F & ->) C. destruct (ST _ _ _ _ F) as (x & Cx & S'). destruct (Z.le_gt_cases since b) as [L|L]; [rewrite (S' L) in Cx; congruence|].
    destruct T as (_ & _ & CA). destruct (CA j b) as (d' & Hd & _ & [[v' E']|[e' E']]); [|congruence]. rewrite F in E'. injection E' as -> ->. lia. }
  destruct (until w f cond timeout fuel start) as [t|t v|t e| |] eqn:E; [|exfalso|exfalso|contradiction|contradiction].
  - exists t. split; [reflexivity|]. destruct N as (v & R & C).
    assert (PV : exists t', match n with O => t' = start | S j => exists u, result w f start j u t' end /\ t' <= Z.max start (since + most)).
    { destruct n as [|j]; [exists start; split; [reflexivity|lia]|]. destruct (G j) as (u & s & R' & C' & _); [lia|]. exists s. split; [eauto|]. pose proof (AT _ _ _ R' C'). lia. }
    destruct PV as (t' & P & L). pose proof (round_end _ _ _ _ _ _ T _ _ _ R t' P). lia.
  - destruct N as (R & C & L). pose proof (AT _ _ _ R C). rewrite !CL in L. lia.
  - destruct N as [(v & (b & d & B & F & _) & C)|(b & d & B & F & _)]; [|exact (NF _ _ _ _ F)]. destruct (ST _ _ _ _ F) as (x & Cx & _). congruence.
Qed.
(** Waiting for an identical object is at most as quick as waiting for an equal one. *)
Theorem C115_is_and_equals : forall w c id eqc timeout fuel start t, until_is w c (Obj id eqc) timeout fuel start = Returned t ->
  (forall i b d e, wrapped c i b = Gives d (Obj id e) -> e = eqc) ->
  exists t', until_equals w c (Obj id eqc) timeout fuel start = Returned t' /\ exists i j v v', (j <= i)%nat /\ result w (wrapped c) start i v t /\ result w (wrapped c) start j v' t'.
Proof.
  intros w c id eqc timeout fuel start t E SV. unfold until_is, until_equals, until in *.
  assert (K : forall fu i now, begins w (wrapped c) start i (now + w_sleep w i) -> loop w (wrapped c) (identical (Obj id eqc)) timeout fu i (w_clock w start) now = Returned t ->
    exists t' i' j v v', loop w (wrapped c) (equal (Obj id eqc)) timeout fu i (w_clock w start) now = Returned t' /\ (i <= j <= i')%nat /\ result w (wrapped c) start i' v t /\ result w (wrapped c) start j v' t').
  { induction fu as [|fu IH]; intros i now B H; cbn [loop] in *; [discriminate|]. destruct (wrapped c i (now + w_sleep w i)) as [d v|d e|] eqn:F; try discriminate.
    assert (R : result w (wrapped c) start i v (now + w_sleep w i + d)) by (exists (now + w_sleep w i), d; auto).
    destruct (identical (Obj id eqc) v) as [[|]|] eqn:C; try discriminate.
    - injection H as <-. assert (Q : equal (Obj id eqc) v = inl true).
      { destruct v as [a b|]; [|discriminate]. unfold identical in C. injection C as C. apply Nat.eqb_eq in C. subst a. unfold equal. rewrite (SV _ _ _ _ F), Nat.eqb_refl. reflexivity. }
      rewrite Q. exists (now + w_sleep w i + d), i, i, v, v. split; [reflexivity|]. split; [lia|auto].
    - destruct (timeout <? w_clock w (now + w_sleep w i + d) - w_clock w start); [discriminate|].
      destruct (IH (S i) (now + w_sleep w i + d)) as (t' & i' & j & v1 & v2 & L & O' & R1 & R2); [eapply Next; eauto|exact H|].
      destruct (equal (Obj id eqc) v) as [[|]|e] eqn:Q.
      + exists (now + w_sleep w i + d), i', i, v1, v. split; [reflexivity|]. split; [lia|auto].
      + exists t', i', j, v1, v2. split; [exact L|]. split; [lia|auto].
      + destruct v; discriminate. }
  destruct (K fuel 0%nat start) as (t' & i & j & v & v' & L & O' & R1 & R2); [constructor|exact E|]. exists t'. split; [exact L|]. exists i, j, v, v'. split; [lia|auto].
Qed.

(** What the two waits look for: they return with the first call whose result is the object itself, or an equal one. *)
Theorem C115_compared : forall w c id eqc timeout fuel start t,
  (until_is w c (Obj id eqc) timeout fuel start = Returned t ->
   exists i e, result w (wrapped c) start i (Obj id e) t /\ forall j e' s, (j < i)%nat -> ~ result w (wrapped c) start j (Obj id e') s) /\
  (until_equals w c (Obj id eqc) timeout fuel start = Returned t ->
   exists i o, result w (wrapped c) start i (Obj o eqc) t /\ forall j o' s, (j < i)%nat -> ~ result w (wrapped c) start j (Obj o' eqc) s) /\
  (forall v, until_is w c (Obj id eqc) timeout fuel start = TimedOut t v -> exists i, result w (wrapped c) start i v t /\ forall j e' s, (j <= i)%nat -> ~ result w (wrapped c) start j (Obj id e') s) /\
  (forall v, until_equals w c (Obj id eqc) timeout fuel start = TimedOut t v -> exists i, result w (wrapped c) start i v t /\ forall j o' s, (j <= i)%nat -> ~ result w (wrapped c) start j (Obj o' eqc) s).
Proof.
  intros w c id eqc timeout fuel start t. unfold until_is, until_equals.
  split; [|split; [|split]].
  - intros E. destruct (C115_returns _ _ _ _ _ _ _ E) as (i & v & R & C & P). destruct v as [a b|]; [|discriminate C]. injection C as C. apply Nat.eqb_eq in C. subst a. exists i, b. split; [exact R|].
    intros j e' s L R'. destruct (P j L) as (u & s' & R'' & N & _). destruct (result_fun _ _ _ _ _ _ _ _ R' R'') as [<- _]. unfold identical, equal in N. rewrite Nat.eqb_refl in N. discriminate.
  - intros E. destruct (C115_returns _ _ _ _ _ _ _ E) as (i & v & R & C & P). destruct v as [a b|]; [|discriminate C]. injection C as C. apply Nat.eqb_eq in C. subst b. exists i, a. split; [exact R|].
    intros j e' s L R'. destruct (P j L) as (u & s' & R'' & N & _). destruct (result_fun _ _ _ _ _ _ _ _ R' R'') as [<- _]. unfold identical, equal in N. rewrite Nat.eqb_refl in N. discriminate.
  - intros v E. destruct (C115_times_out _ _ _ _ _ _ _ _ E) as (i & R & _ & P). exists i. split; [exact R|]. intros j e' s L R'. specialize (P j _ s L R'). unfold identical, equal in P. rewrite Nat.eqb_refl in P. discriminate.
  - intros v E. destruct (C115_times_out _ _ _ _ _ _ _ _ E) as (i & R & _ & P). exists i. split; [exact R|]. intros j e' s L R'. specialize (P j _ s L R'). unfold identical, equal in P. rewrite Nat.eqb_refl in P. discriminate.
Qed.
(** Findings. A function that is not itself a coroutine function but returns a coroutine is called and not awaited: the wait never succeeds. *)
Theorem C115_coroutine_refuted : forall w f right timeout fuel start t, (forall i b d v, f i b = Gives d v -> v = Coroutine) ->
  until_equals w (Plain f) right timeout fuel start <> Returned t /\ until_is w (Plain f) right timeout fuel start <> Returned t.
Proof.
  intros w f right timeout fuel start t A. split; intros E; destruct (C115_returns _ _ _ _ _ _ _ E) as (i & v & (b & d & _ & F & _) & C & _); apply A in F; subst v; discriminate.
Qed.
(** A call that never ends is never given up, whatever the timeout. *)
Theorem C115_hang_refuted : exists w f, steady w /\ forall cond timeout fuel start, match until w f cond timeout fuel start with Stuck | Running => True | _ => False end.
Proof.
  exists (World (fun _ => 1) (fun t => t)), (fun _ _ => Hangs). split; [exists 0; intros; cbn; lia|]. intros cond timeout [|fuel] start; exact Logic.I.
Qed.
Definition tick (good : Z -> bool) (_ : nat) (t : Z) : called := Gives 0 (Obj 0 (if good t then 1 else 0)).
(** The condition holds for a while within the time, longer than half the delay, and the wait times out. *)
Theorem C115_between_refuted : exists w good from to timeout start fuel t v,
  steady w /\ timely w (tick good) 10 10 0 /\ start <= from /\ from + 8 <= to /\ to <= start + timeout /\ (forall x, from <= x <= to -> good x = true) /\
  until_equals w (AsyncDef (tick good)) (Obj 5 1) timeout fuel start = TimedOut t v.
Proof.
  exists (World (fun _ => 10) (fun t => t)), (fun x => (11 <=? x) && (x <=? 19)), 11, 19, 25, 0, 9%nat, 30, (Obj 0 0).
  split; [exists 0; intros; cbn; lia|]. split; [split; [lia|]; split; [cbn; lia|]; intros i t; exists 0; cbn; split; [lia|]; split; [lia|]; left; eexists; reflexivity|].
  do 3 (split; [lia|]). split; [|vm_compute; reflexivity]. intros x H. apply andb_true_iff. rewrite !Z.leb_le. lia.
Qed.
(** The condition does not hold until long after the time is over, and the wait succeeds. *)
Theorem C115_late_refuted : exists w good timeout start fuel t,
  steady w /\ (forall x, x <= start + timeout + 100 -> good x = false) /\ until_equals w (AsyncDef (tick good)) (Obj 5 1) timeout fuel start = Returned t.
Proof.
  exists (World (fun _ => 200) (fun t => t)), (fun x => 150 <=? x), 20, 0, 3%nat, 200. split; [exists 0; intros; cbn; lia|]. split; [|vm_compute; reflexivity].
  intros x H. apply Z.leb_gt. lia.
Qed.
(** The time of day is used: if the clock is set back, the wait goes on beyond any time. *)
Theorem C115_clock_refuted : forall n, exists w f timeout start, timely w f 1 1 0 /\ start + timeout + Z.of_nat n <= Z.of_nat (n + 10) /\
  until_equals w (AsyncDef f) (Obj 5 1) timeout (n + 10) start = Running.
Proof.
  intros n. exists (World (fun _ => 1) (fun t => if t <=? 0 then t else 0)), (tick (fun _ => false)), 5, 0. split.
  { split; [lia|]. split; [cbn; lia|]. intros i t. exists 0. cbn. split; [lia|]. split; [lia|]. left. eexists. reflexivity. }
  split; [lia|]. unfold until_equals, until. cbn [w_clock].
  assert (K : forall fu i now, 0 <= now -> loop (World (fun _ => 1) (fun t => if t <=? 0 then t else 0)) (wrapped (AsyncDef (tick (fun _ => false)))) (equal (Obj 5 1)) 5 fu i 0 now = Running).
  { induction fu as [|fu IH]; intros i now L; [reflexivity|]. cbn [loop wrapped tick w_sleep w_clock equal]. cbn [Nat.eqb]. destruct (Z.leb_spec (now + 1 + 0) 0); [lia|]. cbn. apply IH. lia. }
  apply (K _ 0%nat 0). lia.
Qed.
Example C115_nonvacuous : let w := World (fun _ => 10) (fun t => t + 7) in let f := tick (fun x => 25 <=? x) in
  steady w /\ timely w f 10 10 0 /\ (forall i t d e, f i t <> Fails d e) /\
  (forall i t d v, f i t = Gives d v -> exists b, equal (Obj 5 1) v = inl b /\ (25 <= t -> b = true)) /\ until_equals w (AsyncDef f) (Obj 5 1) 26 9 0 = Returned 30.
Proof.
  intros w f. split; [exists 7; reflexivity|]. split; [split; [lia|]; split; [cbn; lia|]; intros i t; exists 0; cbn; split; [lia|]; split; [lia|]; left; eexists; reflexivity|].
  split; [discriminate|]. split; [|vm_compute; reflexivity]. intros i t d v [= <- <-]. exists (25 <=? t). cbn. split; [destruct (25 <=? t); reflexivity|]. intros H. now apply Z.leb_le.
Qed.
Print Assumptions C115_returns.
Print Assumptions C115_times_out.
Print Assumptions C115_raises.
Print Assumptions C115_not_before.
Print Assumptions C115_ends.
Print Assumptions C115_found.
Print Assumptions C115_is_and_equals.
Print Assumptions C115_compared.
Print Assumptions C115_coroutine_refuted.
Print Assumptions C115_hang_refuted.
Print Assumptions C115_between_refuted.
Print Assumptions C115_late_refuted.
Print Assumptions C115_clock_refuted.

(** ** Capturing hooks *)

(** [HookCatcher], common.py:107-131. *)
Record catcher := Catcher { c_latest : option nat; c_index : dict val nat }.
Definition new_catcher : catcher := Catcher None [].
(** A call of the captured function: whether the catcher still exists (it is held by a weak reference), the hook of the component being
    rendered if any, the positional arguments and those given by name. *)
Record capture_call := Call { k_alive : bool; k_hook : option nat; k_args : list val; k_kwargs : dict string val }.
Inductive captured := Passed | CollectedError | NoHookError | MissingName.
(** [wrapper], common.py:144-158: the catcher after it and whether the function itself is called (simplification: the indexed argument is hashable). *)
Definition capture (by_kwarg : option string) (k : capture_call) (c : catcher) : catcher * captured :=
  if negb (k_alive k) then (c, CollectedError)
  else match k_hook k with
       | None => (c, NoHookError)
       | Some h => match by_kwarg with
                   | None => (Catcher (Some h) (c_index c), Passed)
                   | Some name => match dget name (k_kwargs k) with
                                  | None => (c, MissingName)
                                  | Some v => (Catcher (Some h) (dset v h (c_index c)), Passed)
                                  end
                   end
       end.
Definition capture_all (by_kwarg : option string) (ks : list capture_call) : catcher := fold_left (fun c k => fst (capture by_kwarg k c)) ks new_catcher.

(** The hooks of the calls that reached the function, in order, with the value of the indexed argument. *)
Definition reached (by_kwarg : option string) (ks : list capture_call) (h : nat) (v : option val) (later : list capture_call) : Prop :=
  exists before k, ks = before ++ k :: later /\ k_alive k = true /\ k_hook k = Some h /\
    match by_kwarg with Some name => dget name (k_kwargs k) = v /\ v <> None | None => v = None end.
(** [latest] and [index[v]] are the hook of the last call, and of the last call with that argument: none of the later calls got through. *)
Theorem C115_captured : forall by_kwarg ks,
  (forall h, c_latest (capture_all by_kwarg ks) = Some h <-> exists v later, reached by_kwarg ks h v later /\ forall h' v' later', ~ reached by_kwarg later h' v' later') /\
  (forall x h, dget x (c_index (capture_all by_kwarg ks)) = Some h <-> exists later, reached by_kwarg ks h (Some x) later /\ forall h' later', ~ reached by_kwarg later h' (Some x) later').
Proof.
  intros by_kwarg ks. unfold capture_all.
  assert (SN : forall l k h v later, reached by_kwarg (l ++ [k]) h v later <-> (exists m, later = m ++ [k] /\ reached by_kwarg l h v m) \/ (later = [] /\ reached by_kwarg [k] h v [])).
  { intros l k h v later. split.
    - intros (b & q & E & A). assert (D : later = [] \/ exists m z, later = m ++ [z]) by (destruct later as [|y t]; [auto|right; destruct (exists_last (l := y :: t)) as (m & z & ->); [discriminate|eauto]]).
      destruct D as [->|(m & z & ->)].
      + apply app_inj_tail in E. destruct E as [_ <-]. right. split; [reflexivity|]. exists [], k. auto.
      + rewrite app_comm_cons, app_assoc in E. apply app_inj_tail in E. destruct E as [-> <-]. left. exists m. split; [reflexivity|]. exists b, q. auto.
    - intros [(m & -> & b & q & -> & A)|(-> & b & q & E & A)].
      + exists b, q. split; [rewrite <- app_assoc; reflexivity|exact A].
      + destruct b as [|z b]; [|destruct b; discriminate]. injection E as <-. exists l, k. auto. }
  assert (N0 : forall h v later, ~ reached by_kwarg [] h v later) by (intros h v later ([|z b] & q & E & _); discriminate).
  induction ks as [|k ks IH] using rev_ind.
  { cbn. split; intros; split; try discriminate; [intros (v & l & R & _)|intros (l & R & _)]; destruct (N0 _ _ _ R). }
  rewrite fold_left_app. cbn [fold_left]. set (c := fold_left _ ks new_catcher) in *. destruct IH as [IL II].
  assert (SAME : (forall h v, ~ reached by_kwarg [k] h v []) -> fst (capture by_kwarg k c) = c).
  { intros NO. unfold capture. destruct (k_alive k) eqn:A; [|reflexivity]. destruct (k_hook k) as [h|] eqn:H; [|reflexivity]. cbn [negb].
    destruct by_kwarg as [name|]; [|destruct (NO h None); exists [], k; auto]. destruct (dget name (k_kwargs k)) as [v|] eqn:D; [|reflexivity]. destruct (NO h (Some v)). exists [], k. split; [reflexivity|]. repeat split; auto. discriminate. }
  assert (NEW : forall h v, reached by_kwarg [k] h v [] -> fst (capture by_kwarg k c) = Catcher (Some h) (match v with Some x => dset x h (c_index c) | None => c_index c end)).
  { intros h v (b & q & E & A & H & B). destruct b as [|z b]; [|destruct b; discriminate]. injection E as <-. unfold capture. rewrite A, H. cbn [negb].
    destruct by_kwarg as [name|]; [|subst v; reflexivity]. destruct B as [<- B]. destruct (dget name (k_kwargs k)); [reflexivity|congruence]. }
  assert (UN : forall h v h' v', reached by_kwarg [k] h v [] -> reached by_kwarg [k] h' v' [] -> h = h' /\ v = v').
  { intros h v h' v' (b & q & E & A & H & B) (b' & q' & E' & A' & H' & B'). destruct b as [|z b]; [|destruct b; discriminate]. destruct b' as [|z b']; [|destruct b'; discriminate].
    injection E as <-. injection E' as <-. split; [congruence|]. destruct by_kwarg; [destruct B, B'; congruence|congruence]. }
  assert (DEC : (exists h v, reached by_kwarg [k] h v []) \/ forall h v, ~ reached by_kwarg [k] h v []).
  { destruct (k_alive k) eqn:A; [|right; intros h v (b & q & E & A' & _); destruct b as [|z b]; [|destruct b; discriminate]; injection E as <-; congruence].
    destruct (k_hook k) as [h|] eqn:H; [|right; intros h v (b & q & E & A' & H' & _); destruct b as [|z b]; [|destruct b; discriminate]; injection E as <-; congruence].
    destruct by_kwarg as [name|]; [|left; exists h, None, [], k; auto]. destruct (dget name (k_kwargs k)) as [v|] eqn:D; [left; exists h, (Some v), [], k; split; [reflexivity|]; repeat split; auto; discriminate|].
    right; intros h0 v (b & q & E & _ & _ & B & B'); destruct b as [|z b]; [|destruct b; discriminate]; injection E as <-; congruence. }
  assert (ONE : forall h v later, reached by_kwarg [k] h v later -> later = []).
  { intros h v later R. apply (SN []) in R. destruct R as [(m & _ & R)|[-> _]]; [destruct (N0 _ _ _ R)|reflexivity]. }
  split.
  - intros h. destruct DEC as [(h0 & v0 & R0)|NO].
    + rewrite (NEW h0 v0 R0). cbn. split.
      * intros [= <-]. exists v0, []. split; [apply SN; auto|exact N0].
      * intros (v & later & R & L). apply SN in R. destruct R as [(m & -> & R)|[-> R]]; [|destruct (UN _ _ _ _ R R0) as [-> _]; reflexivity].
        exfalso. apply (L h0 v0 []). apply SN. auto.
    + rewrite (SAME NO), IL. split; intros (v & later & R & L).
      * exists v, (later ++ [k]). split; [apply SN; left; eauto|]. intros h' v' l' R'. apply SN in R'. destruct R' as [(m & _ & R')|[_ R']]; [eapply L; eauto|eapply NO; eauto].
      * apply SN in R. destruct R as [(m & -> & R)|[_ R]]; [|destruct (NO _ _ R)]. exists v, m. split; [exact R|]. intros h' v' l' R'. apply (L h' v' (l' ++ [k])). apply SN. left. eauto.
  - intros x h. destruct DEC as [(h0 & v0 & R0)|NO].
    + rewrite (NEW h0 v0 R0). cbn. assert (D : v0 = Some x \/ v0 <> Some x) by (destruct v0 as [y|]; [destruct (eq_dec y x) as [->|N]; [left; reflexivity|right; congruence]|right; discriminate]).
      destruct D as [->|D].
      * rewrite dget_dset_same. split.
        -- intros [= <-]. exists []. split; [apply SN; auto|]. intros; apply N0.
        -- intros (later & R & L). apply SN in R. destruct R as [(m & -> & R)|[-> R]]; [|destruct (UN _ _ _ _ R R0) as [-> _]; reflexivity]. exfalso. apply (L h0 []). apply SN. auto.
      * assert (EQ : dget x (match v0 with Some y => dset y h0 (c_index c) | None => c_index c end) = dget x (c_index c)) by (destruct v0 as [y|]; [apply dget_dset_other; congruence|reflexivity]).
        rewrite EQ, II. split; intros (later & R & L).
        -- exists (later ++ [k]). split; [apply SN; left; eauto|]. intros h' l' R'. apply SN in R'. destruct R' as [(m & _ & R')|[_ R']]; [eapply L; eauto|]. destruct (UN _ _ _ _ R' R0) as [_ E]. congruence.
        -- apply SN in R. destruct R as [(m & -> & R)|[_ R]]; [|destruct (UN _ _ _ _ R R0) as [_ E]; congruence]. exists m. split; [exact R|]. intros h' l' R'. apply (L h' (l' ++ [k])). apply SN. left. eauto.
    + rewrite (SAME NO), II. split; intros (later & R & L).
      * exists (later ++ [k]). split; [apply SN; left; eauto|]. intros h' l' R'. apply SN in R'. destruct R' as [(m & _ & R')|[_ R']]; [eapply L; eauto|eapply NO; eauto].
      * apply SN in R. destruct R as [(m & -> & R)|[_ R]]; [|destruct (NO _ _ R)]. exists m. split; [exact R|]. intros h' l' R'. apply (L h' (l' ++ [k])). apply SN. left. eauto.
Qed.
(** Finding: a component that is given the indexed argument by position cannot be rendered: the helper raises KeyError before its function is called. *)
Theorem C115_position_refuted : exists name ks, Forall (fun k => k_alive k = true /\ k_hook k <> None /\ k_args k <> []) ks /\ ks <> [] /\
  Forall (fun k => forall c, snd (capture (Some name) k c) <> Passed) ks /\ c_latest (capture_all (Some name) ks) = None.
Proof.
  exists "k"%string, [Call true (Some 0%nat) [VInt 1] []; Call true (Some 1%nat) [VInt 2] []].
  split; [repeat constructor; discriminate|]. split; [discriminate|]. split; [repeat constructor; discriminate|reflexivity].
Qed.
Example C115_captured_nonvacuous : let k := "k"%string in
  let ks := [Call true (Some 0%nat) [] [(k, VInt 1)]; Call true (Some 1%nat) [] [(k, VInt 2)]; Call true (Some 2%nat) [] [(k, VInt 1)]; Call true (Some 3%nat) [VInt 2] []] in
  c_latest (capture_all (Some k) ks) = Some 2%nat /\ dget (VInt 1) (c_index (capture_all (Some k) ks)) = Some 2%nat /\ dget (VInt 2) (c_index (capture_all (Some k) ks)) = Some 1%nat.
Proof. vm_compute. auto. Qed.
Print Assumptions C115_captured.
Print Assumptions C115_position_refuted.
