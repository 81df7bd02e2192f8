(** * Model of the browser client's timers, socket and inputs
    (/repo/src/js/packages/@reactpy/client/src/, "client" below) and properties C61 to C65 *)
From Coq Require Import ZArith Bool Arith Lia List QArith Qminmax.
Import ListNotations.
Local Open Scope list_scope. Local Open Scope Z_scope.

(** Specification: times, newest first, at least [d] apart. *)
Fixpoint spaced (d : Z) (l : list Z) : Prop := match l with t :: ((u :: _) as r) => d <= t - u /\ spaced d r | _ => True end.

(** What happens: time passes, the page's event calls the wrapped handler, or the browser runs the timer. A timer may run
    late but not early. *)
Inductive op {A : Type} := Pass (d : Z) | Call (a : A) | Timer.
Arguments op : clear implicits.

(** ** C61 *)
Section Throttle.
  Context {A : Type} (interval : Z).
  (** The variables of [throttleHandler], client components.tsx:44-46, the time, and a record, newest first, of the calls of
      the wrapped function and of those of the handler. *)
  Record th := Th { t_now : Z; t_last : Z; t_pending : option A; t_timer : option Z; t_fired : list (Z * A); t_calls : list A }.
  (** Lines 48-74. *)
  Definition tstep (s : th) (o : op A) : th :=
    match o with
    | Pass d => Th (t_now s + Z.max 0 d) (t_last s) (t_pending s) (t_timer s) (t_fired s) (t_calls s)
    | Call a =>
        let elapsed := t_now s - t_last s in
        if interval <=? elapsed then Th (t_now s) (t_now s) (t_pending s) (t_timer s) ((t_now s, a) :: t_fired s) (a :: t_calls s)
        else Th (t_now s) (t_last s) (Some a) (match t_timer s with Some due => Some due | None => Some (t_now s + Z.max 0 (interval - elapsed)) end) (t_fired s) (a :: t_calls s)
    | Timer =>
        match t_timer s with
        | Some due => if due <=? t_now s then
                        match t_pending s with
                        | Some a => Th (t_now s) (t_now s) None None ((t_now s, a) :: t_fired s) (t_calls s)
                        | None => Th (t_now s) (t_last s) None None (t_fired s) (t_calls s)
                        end
                      else s
        | None => s
        end
    end.
  (** [lastFireTime] is 0 and [Date.now()] is a time of our days. *)
  Definition tinit (t0 : Z) : th := Th t0 0 None None [] [].
  Definition trun (t0 : Z) (l : list (op A)) : th := fold_left tstep l (tinit t0).
  (** No call comes while a timer is overdue. *)
  Fixpoint prompt (s : th) (l : list (op A)) : Prop :=
    match l with
    | [] => True
    | o :: r => match o, t_timer s with Call _, Some due => t_now s < due | _, _ => True end /\ prompt (tstep s o) r
    end.
  Record tinv (s : th) : Prop := {
    ti_timer : match t_timer s with Some due => due = t_last s + interval /\ t_pending s <> None | None => t_pending s = None end;
    ti_now : t_last s <= t_now s;
    ti_spaced : spaced interval (map fst (t_fired s));
    ti_last : match t_fired s with (t, _) :: _ => t = t_last s | [] => t_last s + interval <= t_now s /\ t_pending s = None end;
    ti_args : match t_pending s with Some a => hd_error (t_calls s) = Some a | None => hd_error (t_calls s) = hd_error (map snd (t_fired s)) end
  }.
  Lemma spaced_cons t l : (match l with (u, _) :: _ => interval <= t - u | [] => True end) -> spaced interval (map fst l) -> forall a : A, spaced interval (map fst ((t, a) :: l)).
  Proof. intros H S a. cbn [map fst]. destruct l as [|[u b] l]; [exact I|]. cbn [map fst] in *. split; auto. Qed.
  Lemma tstep_inv s o : tinv s -> match o, t_timer s with Call _, Some due => t_now s < due | _, _ => True end -> tinv (tstep s o).
  Proof.
    intros [TM NW SP LA AR] P. destruct s as [now last pending timer fired calls]; cbn [t_now t_last t_pending t_timer t_fired t_calls] in *. destruct o as [d|a|]; cbn [tstep t_now t_last t_pending t_timer t_fired t_calls].
    - split; cbn [t_now t_last t_pending t_timer t_fired t_calls]; auto; [lia|]. destruct fired as [|[t b] fired]; auto. destruct LA. split; auto. lia.
    - destruct (Z.leb_spec interval (now - last)) as [L|L].
      + assert (timer = None) as -> by (destruct timer as [due|]; auto; destruct TM as [-> _]; lia). subst pending.
        split; cbn [t_now t_last t_pending t_timer t_fired t_calls]; auto; [lia|]. apply spaced_cons; auto. destruct fired as [|[t b] fired]; auto. subst t. lia.
      + destruct fired as [|[t b] fired]; [destruct LA; lia|]. subst t.
        split; cbn [t_now t_last t_pending t_timer t_fired t_calls]; auto. destruct timer as [due|]; [destruct TM; split; [auto|discriminate]|]. split; [lia|discriminate].
    - destruct timer as [due|]; [|split; auto]. destruct (Z.leb_spec due now) as [L|L]; [|split; auto]. destruct TM as [-> NP]. destruct pending as [a|]; [|contradiction].
      split; cbn [t_now t_last t_pending t_timer t_fired t_calls]; auto; [lia|]. apply spaced_cons; auto. destruct fired as [|[t b] fired]; auto. subst t. lia.
  Qed.
  Lemma trun_inv t0 l : 0 <= interval <= t0 -> prompt (tinit t0) l -> tinv (trun t0 l).
  Proof.
    intros T P. unfold trun. assert (V : tinv (tinit t0)) by (split; cbn; auto; [lia|split; [lia|auto]]). revert P V. generalize (tinit t0). induction l as [|o l IH]; intros s P V; [exact V|]. destruct P as [P Q]. cbn [fold_left]. apply IH; auto. apply tstep_inv; auto.
  Qed.
  (** Two calls of the handler are at least the interval apart; the handler was last called with the arguments of the last
      event, or will be, at the latest when the interval since the last call is over. *)
  Theorem C61_throttle_partial t0 l : 0 <= interval <= t0 -> prompt (tinit t0) l -> let s := trun t0 l in
    spaced interval (map fst (t_fired s)) /\
    match t_timer s with
    | None => hd_error (map snd (t_fired s)) = hd_error (t_calls s)
    | Some due => exists t a b rest, t_fired s = (t, b) :: rest /\ due = t + interval /\ hd_error (t_calls s) = Some a /\
        forall d, due <= t_now s + Z.max 0 d -> exists u, hd_error (t_fired (tstep (tstep s (Pass d)) Timer)) = Some (u, a)
    end.
  Proof.
    intros T P s. assert (V := trun_inv t0 l T P). fold s in V. destruct V as [TM NW SP LA AR]. split; auto. destruct (t_timer s) as [due|] eqn:E.
    - destruct TM as [-> NP]. destruct (t_pending s) as [a|] eqn:PE; [|contradiction]. destruct (t_fired s) as [|[t b] rest]; [destruct LA; discriminate|]. subst t. exists (t_last s), a, b, rest. repeat split; auto.
      intros d D. exists (t_now s + Z.max 0 d). cbn [tstep t_timer t_now t_pending]. rewrite E, PE. apply Z.leb_le in D. rewrite D. reflexivity.
    - rewrite TM in AR. auto.
  Qed.
End Throttle.
Example C61_example : let l := [Call 1%nat; Pass 30; Call 2%nat; Pass 30; Call 3%nat; Pass 40; Timer; Pass 50; Call 4%nat] in
  prompt 100 (tinit 1000) l /\ t_fired (trun 100 1000 l) = [(1100, 3%nat); (1000, 1%nat)] /\ t_pending (trun 100 1000 l) = Some 4%nat.
Proof. split; [cbn; intuition lia|split; reflexivity]. Qed.
(** Finding: a call that comes before an overdue timer fires at once and leaves the older arguments pending, which are fired
    afterwards and so replace the newer ones, without waiting for the interval. *)
Theorem C61_overdue_refuted : let l := [Call 1%nat; Pass 30; Call 2%nat; Pass 75; Call 3%nat; Timer] in t_fired (trun 100 1000 l) = [(1105, 2%nat); (1105, 3%nat); (1000, 1%nat)].
Proof. reflexivity. Qed.
(** Finding: every render of the element wraps the handler anew (client components.tsx:202-205, 334-342), with
    [lastFireTime] = 0: an event after a render is fired at once. One list of operations for each render's wrapper, with the
    time at which it starts. *)
Definition renders {A} (interval : Z) (l : list (Z * list (op A))) : list (Z * A) := fold_left (fun f r => t_fired (trun interval (fst r) (snd r)) ++ f) l [].
Theorem C61_render_refuted : renders 100 [(1000, [Call 1%nat]); (1010, [Call 2%nat]); (1020, [Call 3%nat])] = [(1020, 3%nat); (1010, 2%nat); (1000, 1%nat)].
Proof. reflexivity. Qed.

(** ** C62 *)
Section Debounce.
  Context {A : Type} (delay : Z).
  (** The variables of [debounceHandler], client components.tsx:109-110, and the record, with the times of the calls. *)
  Record db := Db { d_now : Z; d_pending : option A; d_timer : option Z; d_fired : list (Z * A); d_calls : list (Z * A) }.
  (** Lines 112-125. *)
  Definition dstep (s : db) (o : op A) : db :=
    match o with
    | Pass d => Db (d_now s + Z.max 0 d) (d_pending s) (d_timer s) (d_fired s) (d_calls s)
    | Call a => Db (d_now s) (Some a) (Some (d_now s + delay)) (d_fired s) ((d_now s, a) :: d_calls s)
    | Timer =>
        match d_timer s with
        | Some due => if due <=? d_now s then Db (d_now s) None None (match d_pending s with Some a => (d_now s, a) :: d_fired s | None => d_fired s end) (d_calls s) else s
        | None => s
        end
    end.
  Definition drun (t0 : Z) (l : list (op A)) : db := fold_left dstep l (Db t0 None None [] []).

  (** Specification. Which calls are passed on, and when; both lists newest first. [outcome true]: the newest call has not
      been passed on yet. A call is passed on at most once, after the delay, with its arguments, and only as long as it is
      the newest one; nothing else is. *)
  Inductive outcome : bool -> list (Z * A) -> list (Z * A) -> Prop :=
  | o_nil : outcome false [] []
  | o_call p c a calls fired : outcome p calls fired -> (forall u b, hd_error fired = Some (u, b) -> u <= c) -> outcome true ((c, a) :: calls) fired
  | o_fire c a t calls fired : outcome true ((c, a) :: calls) fired -> c + delay <= t -> outcome false ((c, a) :: calls) ((t, a) :: fired).
  Record dinv (s : db) : Prop := {
    di_state : match d_timer s with
               | None => d_pending s = None /\ outcome false (d_calls s) (d_fired s)
               | Some due => exists c a r, d_calls s = (c, a) :: r /\ d_pending s = Some a /\ due = c + delay /\ c <= d_now s /\ outcome true (d_calls s) (d_fired s)
               end;
    di_now : forall u b, hd_error (d_fired s) = Some (u, b) -> u <= d_now s;
    di_spaced : spaced delay (map fst (d_fired s))
  }.
  Lemma dstep_inv s o : 0 <= delay -> dinv s -> dinv (dstep s o).
  Proof.
    intros D [ST NW SP]. destruct s as [now pending timer fired calls]; cbn [d_now d_pending d_timer d_fired d_calls] in *. destruct o as [d|a|]; cbn [dstep d_now d_pending d_timer d_fired d_calls].
    - split; cbn [d_now d_pending d_timer d_fired d_calls]; auto.
      + destruct timer as [due|]; auto. destruct ST as (c & a & r & E & P & F & L & X). exists c, a, r. split; auto. split; auto. split; auto. split; [lia|auto].
      + intros u b H. specialize (NW u b H). lia.
    - split; cbn [d_now d_pending d_timer d_fired d_calls]; auto. exists now, a, calls. split; auto. split; auto. split; auto. split; [lia|]. destruct timer as [due|].
      + destruct ST as (c & b & r & E & _ & _ & _ & X). eapply o_call; eauto.
      + destruct ST as [_ X]. eapply o_call; eauto.
    - destruct timer as [due|]; [|split; auto]. destruct (Z.leb_spec due now) as [L|L]; [|split; auto]. destruct ST as (c & a & r & -> & -> & -> & LC & X). inversion X; subst.
      split; cbn [d_now d_pending d_timer d_fired d_calls].
      + split; auto. apply o_fire; auto.
      + intros u b E. injection E as <- <-. lia.
      + cbn [map fst]. destruct fired as [|[u b] fired]; [exact I|]. cbn [map fst] in *. split; auto. match goal with H : forall u b, hd_error _ = Some (u, b) -> u <= c |- _ => specialize (H u b eq_refl) end. lia.
  Qed.
  (** The calls of the handler are the debounced ones, at least the delay apart; after the last event the handler is called
      with its arguments as soon as the timer runs. *)
  Theorem C62_debounce t0 l : 0 <= delay -> let s := drun t0 l in
    spaced delay (map fst (d_fired s)) /\
    match d_timer s with
    | None => outcome false (d_calls s) (d_fired s)
    | Some due => exists c a r, d_calls s = (c, a) :: r /\ due = c + delay /\ outcome true (d_calls s) (d_fired s) /\
        forall d, due <= d_now s + Z.max 0 d -> let s' := dstep (dstep s (Pass d)) Timer in d_timer s' = None /\ d_fired s' = (d_now s + Z.max 0 d, a) :: d_fired s
    end.
  Proof.
    intros D s. assert (V : dinv s).
    { unfold s, drun. assert (V : dinv (Db t0 None None [] [])) by (split; cbn; [split; [auto|apply o_nil]|discriminate|auto]). revert V. generalize (Db t0 None None [] []). induction l as [|o l IH]; intros s0 V; [exact V|]. cbn [fold_left]. apply IH, dstep_inv; auto. }
    destruct V as [ST NW SP]. split; auto. destruct (d_timer s) as [due|] eqn:E; [|apply ST]. destruct ST as (c & a & r & C & P & F & L & X). exists c, a, r. split; auto. split; auto. split; auto. intros d H. split; cbn [dstep d_now d_timer d_pending d_fired]; rewrite E; apply Z.leb_le in H; rewrite H; cbn [d_timer d_fired]; auto. rewrite P. reflexivity.
  Qed.
End Debounce.
Example C62_example : let s := drun 100 1000 [Call 1%nat; Pass 50; Call 2%nat; Pass 99; Timer; Pass 1; Timer; Call 3%nat] in d_fired s = [(1150, 2%nat)] /\ d_timer s = Some 1250.
Proof. split; reflexivity. Qed.
(** Finding: as for C61, every render has its own timer: events in one window, with a render between them, are all fired. *)
Theorem C62_render_refuted : d_fired (drun 100 1000 [Call 1%nat; Pass 100; Timer]) = [(1100, 1%nat)] /\ d_fired (drun 100 1050 [Call 2%nat; Pass 100; Timer]) = [(1150, 2%nat)].
Proof. split; reflexivity. Qed.

(** ** C63 *)
Section Reconnect.
  Context (interval maxInterval multiplier : Q) (maxRetries : nat).
  (** Where the connection is: [new WebSocket] was called, it is open, a timer for the next attempt runs, or no attempt will
      follow. *)
  Inductive link := Connecting | Opened | Waiting | GivenUp.
  (** The variables of [createReconnectingWebSocket], client websocket.ts:21-23, and the waiting times since the last
      opening, newest first. Simplified: numbers are rational, not floating point. *)
  Record rc := Rc { r_ever : bool; r_retries : nat; r_current : Q; r_link : link; r_waits : list Q }.
  Inductive rop := SocketOpens | SocketCloses | RetryTimer.
  (** [nextInterval], websocket.ts:78-89. *)
  Definition nextInterval (current : Q) : Q := Qmin (current * multiplier) maxInterval.
  (** Lines 27-70. *)
  Definition rstep (s : rc) (o : rop) : rc :=
    match o, r_link s with
    | SocketOpens, Connecting => Rc true 0 interval Opened []
    | SocketCloses, (Connecting | Opened) =>
        if negb (r_ever s) then Rc (r_ever s) (r_retries s) (r_current s) GivenUp (r_waits s)
        else if Nat.leb maxRetries (r_retries s) then Rc (r_ever s) (r_retries s) (r_current s) GivenUp (r_waits s)
        else Rc (r_ever s) (S (r_retries s)) (nextInterval (r_current s)) Waiting (r_current s :: r_waits s)
    | RetryTimer, Waiting => Rc (r_ever s) (r_retries s) (r_current s) Connecting (r_waits s)
    | _, _ => s
    end.
  Definition rrun (l : list rop) : rc := fold_left rstep l (Rc false 0 interval Connecting []).

  (** Specification: the interval multiplied [k] times. *)
  Fixpoint growth (k : nat) : Q := match k with O => interval | S k => (growth k * multiplier)%Q end.
  Hypothesis Hm : (1 <= multiplier)%Q.
  Hypothesis Hi : (0 <= interval)%Q.
  Hypothesis HM : (interval <= maxInterval)%Q.
  Lemma growth_pos k : (0 <= growth k)%Q.
  Proof. induction k as [|k IH]; [exact Hi|]. cbn [growth]. apply Qmult_le_0_compat; auto. apply Qle_trans with 1%Q; auto. discriminate. Qed.
  Lemma growth_le k : (growth k <= growth (S k))%Q.
  Proof. cbn [growth]. rewrite <- (Qmult_1_r (growth k)) at 1. rewrite (Qmult_comm _ 1), (Qmult_comm _ multiplier). apply Qmult_le_compat_r; auto. apply growth_pos. Qed.
  Lemma next_growth c k : (c == Qmin (growth k) maxInterval)%Q -> (nextInterval c == Qmin (growth (S k)) maxInterval)%Q.
  Proof.
    intros E. unfold nextInterval. rewrite E. assert (P : (0 <= maxInterval)%Q) by (eapply Qle_trans; eauto). destruct (Qlt_le_dec maxInterval (growth k)) as [L|L].
    - apply Qlt_le_weak in L. rewrite (Q.min_r (growth k) maxInterval L). rewrite !Q.min_r; [reflexivity| |].
      + eapply Qle_trans; [exact L|apply growth_le].
      + rewrite <- (Qmult_1_l maxInterval) at 1. rewrite (Qmult_comm maxInterval). apply Qmult_le_compat_r; auto.
    - rewrite (Q.min_l (growth k) maxInterval L). reflexivity.
  Qed.
  Record rinv (s : rc) : Prop := {
    ri_current : (r_current s == Qmin (growth (r_retries s)) maxInterval)%Q;
    ri_waits : forall k w, nth_error (rev (r_waits s)) k = Some w -> (w == Qmin (growth k) maxInterval)%Q;
    ri_count : length (r_waits s) = r_retries s;
    ri_max : (r_retries s <= maxRetries)%nat;
    ri_end : r_link s = GivenUp -> r_ever s = false \/ r_retries s = maxRetries
  }.
  Lemma rstep_inv s o : rinv s -> rinv (rstep s o).
  Proof.
    intros V. assert (V' := V). destruct V' as [CU WA CO MA EN]. assert (CL : rinv (if negb (r_ever s) then Rc (r_ever s) (r_retries s) (r_current s) GivenUp (r_waits s)
        else if Nat.leb maxRetries (r_retries s) then Rc (r_ever s) (r_retries s) (r_current s) GivenUp (r_waits s)
        else Rc (r_ever s) (S (r_retries s)) (nextInterval (r_current s)) Waiting (r_current s :: r_waits s))).
    { destruct (r_ever s) eqn:EV; cbn [negb]; [|split; cbn [r_current r_waits r_retries r_link r_ever]; auto]. destruct (Nat.leb_spec maxRetries (r_retries s)) as [L|L].
      - split; cbn [r_current r_waits r_retries r_link r_ever]; auto. intros _. right. lia.
      - split; cbn [r_current r_waits r_retries r_link r_ever]; [apply next_growth; auto| |cbn [length]; auto|lia|discriminate].
        intros k w H. cbn [rev] in H. assert (LR : length (rev (r_waits s)) = r_retries s) by (rewrite rev_length; auto). destruct (Nat.lt_ge_cases k (r_retries s)) as [LT|GE].
        + rewrite nth_error_app1 in H by lia. auto.
        + rewrite nth_error_app2 in H by lia. rewrite LR in H. destruct (k - r_retries s)%nat as [|n] eqn:EK; [|destruct n; discriminate]. injection H as <-. replace k with (r_retries s) by lia. exact CU. }
    destruct o; cbn [rstep]; destruct (r_link s) eqn:LK; auto.
    - split; cbn; auto; try lia; try discriminate. + symmetry. apply Q.min_l. exact HM. + intros [|k] w H; discriminate.
    - split; cbn [r_current r_waits r_retries r_link r_ever]; auto. discriminate.
  Qed.
  (** The k-th wait in a row is the interval multiplied k times, but at most the maximum. Attempts in a row are at most the
      number of retries, and the client gives up only after all of them, or if it was never connected. *)
  Theorem C63_backoff l : let s := rrun l in
    (forall k w, nth_error (rev (r_waits s)) k = Some w -> (w == Qmin (growth k) maxInterval)%Q /\ (w <= maxInterval)%Q) /\
    (length (r_waits s) <= maxRetries)%nat /\
    (r_link s = GivenUp -> r_ever s = false \/ length (r_waits s) = maxRetries).
  Proof.
    intros s. assert (V : rinv s).
    { unfold s, rrun. assert (V : rinv (Rc false 0 interval Connecting [])) by (split; cbn; auto; try lia; try discriminate; [symmetry; apply Q.min_l; exact HM|intros [|k] w H; discriminate]).
      revert V. generalize (Rc false 0 interval Connecting []). induction l as [|o l IH]; intros s0 V; [exact V|]. cbn [fold_left]. apply IH, rstep_inv, V. }
    destruct V as [CU WA CO MA EN]. split; [|rewrite CO; auto]. intros k w H. apply WA in H. split; auto. rewrite H. apply Q.le_min_r.
  Qed.
  (** Once connected, the client does try again: after a loss it tries [maxRetries] times in a row, and each attempt may
      bring the connection back. *)
  Theorem C63_retries l j : r_link (rrun l) = Opened -> (j < maxRetries)%nat ->
    let failed := SocketCloses :: concat (repeat [RetryTimer; SocketCloses] j) in
    r_link (rrun (l ++ failed)) = Waiting /\ length (r_waits (rrun (l ++ failed))) = S j /\
    r_link (rrun (l ++ failed ++ [RetryTimer])) = Connecting /\
    r_link (rrun (l ++ failed ++ [RetryTimer; SocketOpens])) = Opened /\ r_waits (rrun (l ++ failed ++ [RetryTimer; SocketOpens])) = [].
  Proof.
    intros O J failed.
    assert (OP : forall l, let s := rrun l in (r_ever s = false -> r_link s = Connecting \/ r_link s = GivenUp) /\ (r_link s = Opened -> r_retries s = 0%nat /\ r_waits s = [])).
    { clear. intros l. induction l as [|o l IH] using rev_ind; [cbn; split; auto; discriminate|]. unfold rrun. rewrite fold_left_app. fold (rrun l). cbn [fold_left]. destruct (rrun l) as [e r c k w]. cbn in IH |- *.
      destruct IH as [A B]. destruct o, k, e; cbn; try (destruct (Nat.leb maxRetries r)); cbn; split; intros E; try discriminate; auto; specialize (A eq_refl); destruct A; discriminate. }
    destruct (OP l) as [EV0 ZE]. destruct (ZE O) as [R0 W0]. assert (EV : r_ever (rrun l) = true) by (destruct (r_ever (rrun l)); auto; destruct EV0 as [X|X]; auto; congruence). clear EV0 ZE OP.
    assert (G : let s := rrun (l ++ failed) in r_ever s = true /\ r_link s = Waiting /\ r_retries s = S j /\ length (r_waits s) = S j).
    { subst failed. induction j as [|j IH].
      - cbn [repeat concat]. unfold rrun. rewrite fold_left_app. fold (rrun l). cbn [fold_left rstep]. rewrite O, EV, R0, W0. cbn [negb]. destruct (Nat.leb_spec maxRetries 0); [lia|]. cbn. auto.
      - assert (J' : (j < maxRetries)%nat) by lia. specialize (IH J'). cbv zeta in IH |- *. replace (repeat [RetryTimer; SocketCloses] (S j)) with (repeat [RetryTimer; SocketCloses] j ++ [[RetryTimer; SocketCloses]]) by (symmetry; apply (repeat_cons j [RetryTimer; SocketCloses])).
        rewrite concat_app, app_comm_cons, app_assoc. unfold rrun in IH |- *. rewrite fold_left_app. destruct (fold_left rstep (l ++ SocketCloses :: concat (repeat [RetryTimer; SocketCloses] j)) (Rc false 0 interval Connecting [])) as [e r c k w].
        cbn in IH. destruct IH as (-> & -> & -> & W). cbn [concat app fold_left rstep r_link r_ever r_retries r_current r_waits negb]. destruct (Nat.leb_spec maxRetries (S j)); [lia|]. cbn. auto. }
    cbv zeta in G. destruct G as (G1 & G2 & G3 & G4). split; auto. split; auto. rewrite !app_assoc. unfold rrun in *. rewrite !(fold_left_app _ (l ++ failed)).
    destruct (fold_left rstep (l ++ failed) (Rc false 0 interval Connecting [])) as [e r c k w]. cbn in G1, G2 |- *. subst. cbn. auto.
  Qed.
  (** So the waits never decrease. *)
  Theorem C63_increasing j k : (j <= k)%nat -> (Qmin (growth j) maxInterval <= Qmin (growth k) maxInterval)%Q.
  Proof. intros L. apply Q.min_le_compat_r. induction L; [apply Qle_refl|]. eapply Qle_trans; [exact IHL|apply growth_le]. Qed.
End Reconnect.
Example C63_example : let s := rrun 4 9 (3 # 2) 3 [SocketOpens; SocketCloses; RetryTimer; SocketCloses; RetryTimer; SocketCloses; RetryTimer; SocketCloses] in
  map Qred (rev (r_waits s)) = [4%Q; 6%Q; 9%Q] /\ r_link s = GivenUp.
Proof. split; reflexivity. Qed.
(** Finding: if the first attempt fails there is no second one. *)
Theorem C63_first_refuted : forall l, rrun 4 9 (3 # 2) 3 (SocketCloses :: l) = rrun 4 9 (3 # 2) 3 [SocketCloses] /\ r_link (rrun 4 9 (3 # 2) 3 [SocketCloses]) = GivenUp.
Proof. intros l. split; [|reflexivity]. unfold rrun. cbn [fold_left]. induction l as [|o l IH]; [reflexivity|]. cbn [fold_left]. destruct o; exact IH. Qed.

(** ** C64 *)
Section Queue.
  Context {M : Type}.
  (** [ReactPyClient]: whether [readyState] is OPEN, [messageQueue], and the messages given to the socket, oldest first. *)
  Record sq := Sq { q_open : bool; q_queue : list M; q_sent : list M }.
  Inductive qop := Send (m : M) | Open | Close.
  (** [sendMessage], client client.ts:82-91. *)
  Definition sendMessage (s : sq) (m : M) : sq := if q_open s then Sq true (q_queue s) (q_sent s ++ [m]) else Sq false (q_queue s ++ [m]) (q_sent s).
  (** [onOpen], client.ts:73-77; the state of the socket does not change during the loop. *)
  Fixpoint drain (fuel : nat) (s : sq) : sq := match fuel, q_queue s with S n, m :: r => drain n (sendMessage (Sq (q_open s) r (q_sent s)) m) | _, _ => s end.
  Definition qstep (s : sq) (o : qop) : sq :=
    match o with Send m => sendMessage s m | Open => drain (length (q_queue s)) (Sq true (q_queue s) (q_sent s)) | Close => Sq false (q_queue s) (q_sent s) end.
  Definition qrun (l : list qop) : sq := fold_left qstep l (Sq false [] []).
  Definition messages (l : list qop) : list M := flat_map (fun o => match o with Send m => [m] | _ => [] end) l.
  Lemma drain_all q sent : drain (length q) (Sq true q sent) = Sq true [] (sent ++ q).
  Proof. revert sent. induction q as [|m q IH]; intros sent; cbn [length drain q_queue]; [rewrite app_nil_r; reflexivity|]. cbn [sendMessage q_open q_queue q_sent]. rewrite IH, <- app_assoc. reflexivity. Qed.
  (** Every message is sent once, in order, or waits in the queue for the next opening. *)
  Theorem C64_queue l : let s := qrun l in q_sent s ++ q_queue s = messages l /\ (q_open s = true -> q_queue s = [] /\ q_sent s = messages l).
  Proof.
    cbv zeta. induction l as [|o l IH] using rev_ind; [cbn; auto|]. unfold qrun, messages in *. rewrite fold_left_app, flat_map_app. cbn [fold_left flat_map]. rewrite app_nil_r. destruct (fold_left qstep l (Sq false [] [])) as [op q sent]. cbn [q_open q_queue q_sent] in *. destruct IH as [A B]. destruct o as [m| |]; cbn [qstep].
    - unfold sendMessage. cbn [q_open q_queue q_sent]. destruct op; cbn [q_open q_queue q_sent].
      + destruct (B eq_refl) as [-> ->]. rewrite app_nil_r. auto.
      + rewrite app_assoc, A. split; [auto|discriminate].
    - cbn [q_queue q_sent]. rewrite drain_all. cbn [q_open q_queue q_sent]. rewrite !app_nil_r. auto.
    - cbn [q_open q_queue q_sent]. rewrite app_nil_r. split; [auto|discriminate].
  Qed.
End Queue.
Example C64_example : let s := qrun [Send 1%nat; Open; Send 2%nat; Close; Send 3%nat; Send 4%nat; Open] in q_sent s = [1; 2; 3; 4]%nat /\ q_queue s = [].
Proof. split; reflexivity. Qed.

(** ** C65 *)
Section Input.
  Context {V : Type} (normalise : V -> V).
  (** One input: [sharedOutgoingSeq] and [lastSentSeq] (client components.tsx:249, 254), the value in the page, the events
      on their way to the server with their number on the wire; the server's value, its highest number processed, and the
      updates on their way back (value, number acknowledged). Ghosts: how many events were processed when an update was made,
      and for the updates applied, how many were processed and how many sent. *)
  Record ui := Ui { u_next : Z; u_last : Z; u_dom : V; u_wire : list (Z * V); u_value : V; u_ack : Z; u_done : Z; u_updates : list (V * Z * Z); u_applied : list (Z * Z) }.
  Inductive uop := Type_ (v : V) | Process | Render | Receive.
  Definition ustep (s : ui) (o : uop) : ui :=
    match o with
    (* client components.tsx:361-375 and vdom.tsx:250: the handler's counter is set to seq + 1, which is then sent. *)
    | Type_ v => Ui (u_next s + 1) (Z.max (u_last s) (u_next s)) v (u_wire s ++ [(u_next s + 1, v)]) (u_value s) (u_ack s) (u_done s) (u_updates s) (u_applied s)
    (* Layout.py: the highest number is recorded; the handler sets the value. *)
    | Process => match u_wire s with
                 | (n, v) :: r => Ui (u_next s) (u_last s) (u_dom s) r (normalise v) (Z.max (u_ack s) n) (u_done s + 1) (u_updates s) (u_applied s)
                 | [] => s
                 end
    | Render => Ui (u_next s) (u_last s) (u_dom s) (u_wire s) (u_value s) (u_ack s) (u_done s) (u_updates s ++ [(u_value s, u_ack s, u_done s)]) (u_applied s)
    (* client components.tsx:282-311. *)
    | Receive => match u_updates s with
                 | (v, ack, d) :: r => if ack <? u_last s then Ui (u_next s) (u_last s) (u_dom s) (u_wire s) (u_value s) (u_ack s) (u_done s) r (u_applied s)
                                       else Ui (u_next s) (u_last s) v (u_wire s) (u_value s) (u_ack s) (u_done s) r ((d, u_next s) :: u_applied s)
                 | [] => s
                 end
    end.
  Definition urun (v : V) (l : list uop) : ui := fold_left ustep l (Ui 0 (-1) v [] v (-1) 0 [] []).
  Record uinv (s : ui) : Prop := {
    ui_last : u_last s = u_next s - 1;
    ui_next : 0 <= u_next s;
    ui_done : 0 <= u_done s;
    ui_wire : map fst (u_wire s) = map (fun k => u_done s + 1 + Z.of_nat k) (seq 0 (length (u_wire s)));
    ui_total : u_next s = u_done s + Z.of_nat (length (u_wire s));
    ui_ack : u_ack s = if u_done s =? 0 then -1 else u_done s;
    ui_updates : forall v a d, In (v, a, d) (u_updates s) -> 0 <= d <= u_done s /\ a = if d =? 0 then -1 else d;
    ui_applied : forall d n, In (d, n) (u_applied s) -> n <= d + 1
  }.
  Lemma ustep_inv s o : uinv s -> uinv (ustep s o).
  Proof.
    intros V'. assert (V0 := V'). destruct V0 as [LA NX DO WI TO AC UP AP]. destruct o as [v| | |]; cbn [ustep].
    - split; cbn [u_next u_last u_wire u_ack u_done u_updates u_applied]; auto; try lia.
      + rewrite map_app, app_length, Nat.add_comm. cbn [map fst length Nat.add]. rewrite seq_S, map_app, <- WI. cbn [map Nat.add]. do 2 f_equal. lia.
      + rewrite app_length. cbn [length]. lia.
    - destruct (u_wire s) as [|[n v] r] eqn:W; auto. cbn [map fst length seq] in *. injection WI as N WI.
      split; cbn [u_next u_last u_wire u_ack u_done u_updates u_applied]; auto; try lia.
      + rewrite WI, <- seq_shift, map_map. apply map_ext. intros k. lia.
      + rewrite AC. destruct (Z.eqb_spec (u_done s) 0), (Z.eqb_spec (u_done s + 1) 0); lia.
      + intros x a d I. destruct (UP x a d I). split; auto. lia.
    - split; cbn [u_next u_last u_wire u_ack u_done u_updates u_applied]; auto. intros x a d I. apply in_app_or in I. destruct I as [I|[I|[]]]; [exact (UP x a d I)|]. injection I as <- <- <-. split; [lia|exact AC].
    - destruct (u_updates s) as [|[[v a] d] r] eqn:U; auto. destruct (UP v a d (or_introl eq_refl)) as [D A]. destruct (Z.ltb_spec a (u_last s)); split; cbn [u_next u_last u_wire u_ack u_done u_updates u_applied]; auto; try (intros x b e I; apply (UP x b e); right; exact I).
      intros e n [I|I]; auto. injection I as <- <-. destruct (Z.eqb_spec d 0); lia.
  Qed.
  (** An update is applied to the input only if it was made after all events sent so far but at most one were processed. *)
  Theorem C65_partial v l d n : In (d, n) (u_applied (urun v l)) -> n <= d + 1.
  Proof.
    intros H. assert (V' : uinv (urun v l)).
    { clear H. unfold urun. assert (V' : uinv (Ui 0 (-1) v [] v (-1) 0 [] [])) by (split; cbn; auto; try lia; intros; contradiction). revert V'. generalize (Ui 0 (-1) v [] v (-1) 0 [] []). induction l as [|o l IH]; intros s V'; [exact V'|]. cbn [fold_left]. apply IH, ustep_inv, V'. }
    exact (ui_applied _ V' d n H).
  Qed.
End Input.
(** Finding: the update made after the first of two events overwrites what the second one entered: the user typed 2, the
    page shows 1. *)
Theorem C65_stale_refuted : let s := urun (fun v => v) 0%nat [Type_ 1%nat; Process; Render; Type_ 2%nat; Receive] in u_dom s = 1%nat /\ u_applied s = [(1, 2)].
Proof. split; reflexivity. Qed.
Example C65_example : let s := urun (fun v => v) 0%nat [Type_ 1%nat; Type_ 2%nat; Type_ 3%nat; Process; Render; Receive; Process; Process; Render; Receive] in u_dom s = 3%nat /\ u_applied s = [(3, 3)].
Proof. split; reflexivity. Qed.
Print Assumptions C61_throttle_partial.
Print Assumptions C62_debounce.
Print Assumptions C63_backoff.
Print Assumptions C63_retries.
Print Assumptions C63_increasing.
Print Assumptions C64_queue.
Print Assumptions C65_partial.
