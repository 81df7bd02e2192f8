(** One connection of a browser and the session that is served on it: [ComponentDispatchApp] and [ReactPyWebsocket]
    (executors/asgi/middleware.py) with [serve_layout] (core/serve.py). What the layout does with an event and how it makes
    updates is in the other files; here renders may end at any time with any update. Standard library only. *)

From Coq Require Import Bool Arith Lia List.
Import ListNotations.

(** ** The program *)

(** The [target] of a layout event: usable, missing ([event["target"]], core/layout.py:136, raises [KeyError]), or a list or object, which
    cannot be looked up ([TypeError], line 137). *)
Inductive target := Usable | Missing | Unhashable.
(** A message with the type "layout-event". [m_id] tells messages apart. *)
Record message := Message { m_id : nat; m_target : target }.
(** What the web server passes to [ws.receive] (middleware.py:170): a text that is a JSON object with the type "layout-event", one with another
    type, one that is no JSON object or no text at all (lines 174-175 raise), or the disconnect. *)
Inductive frame := Event (m : message) | Unknown | Broken | Disconnect.

(** An update; [u_json]: [orjson.dumps] accepts it (middleware.py:253). *)
Record update := Update { u_id : nat; u_json : bool }.

(** Why a session ends: the dispatcher task is cancelled, or something raised: no session could be started, an event had no usable target,
    a render raised, an update could not be sent. *)
Inductive why := Cancelled | NoSession | BadEvent | RenderRaised | NotSent.

(** [ComponentDispatchApp.__call__] (middleware.py:159-184): [ReactPyWebsocket.__aenter__] waits for the connection to be accepted (203-205);
    the loop waits for a frame; it waits in [rendering_queue.put]; it has ended, by an exception or not. *)
Inductive loop := Opening | Receiving | Putting (m : message) | Over (raised : bool).

(** The dispatcher task ([run_dispatcher], middleware.py:212-249): not started; in [serve_layout], with the [layout.deliver] tasks that were
    started and have not run, the update that is being sent and the number of mounted components; in [Layout.__aexit__], waiting for the tasks
    of the layout (core/layout.py:106-114) or unmounting (116); ended, with the number of components still mounted.
    Simplified: the tasks of the group end in one step when it is cancelled (each ends at its next turn); the log message is written at once. *)
Inductive disp :=
| Unstarted
| Serving (started : list message) (sending : option update) (mounted : nat)
| LeavingTasks (w : why) (mounted : nat)
| Unmounting (w : why) (mounted : nat)
| Stopped (w : why) (mounted : nat).

(** What can be seen from outside: a frame is received, an event is delivered to the layout, a render ended, an update is sent, the session is over
    (its tasks are stopped), an error is logged. *)
Inductive act := Got (f : frame) | Delivered (m : message) | Rendered (u : update) | Sent (u : update) | Ending (w : why) | Logged (w : why).

Record conn := Conn { c_in : list frame; c_app : loop; c_queue : list message; c_disp : disp; c_log : list act }.
Definition set_in x s := Conn x (c_app s) (c_queue s) (c_disp s) (c_log s).
Definition set_app x s := Conn (c_in s) x (c_queue s) (c_disp s) (c_log s).
Definition set_queue x s := Conn (c_in s) (c_app s) x (c_disp s) (c_log s).
Definition set_disp x s := Conn (c_in s) (c_app s) (c_queue s) x (c_log s).
Definition say a s := Conn (c_in s) (c_app s) (c_queue s) (c_disp s) (c_log s ++ [a]).

(** [asyncio.Queue(REACTPY_MAX_QUEUE_SIZE)] (middleware.py:198-200): 0 is no limit. *)
Definition room (cap : nat) (q : list message) : bool := Nat.eqb cap 0 || Nat.ltb (length q) cap.

(** The dispatcher task ends; an exception is logged (middleware.py:248-249), a cancellation is not. *)
Definition stop (w : why) (n : nat) (s : conn) : conn :=
  let s := set_disp (Stopped w n) s in
  match w with Cancelled => s | _ => say (Logged w) s end.

(** A task of the group in [serve_layout] raised: the others are cancelled and [Layout.__aexit__] begins (serve.py:34-37). *)
Definition fail (w : why) (s : conn) : conn :=
  match c_disp s with
  | Serving _ _ n => say (Ending w) (set_disp (LeavingTasks w n) s)
  | _ => s
  end.

(** [self.dispatcher.cancel()] (middleware.py:207-209). A task that has not started never runs. In [serve_layout] the group is cancelled and the layout
    left. While [__aexit__] waits for tasks the cancellation is suppressed (core/layout.py:108, 113); while it unmounts, it ends
    [affect_component_will_unmount] (_life_cycle_hook.py:248) and with it [__aexit__]. *)
Definition cancel (s : conn) : conn :=
  match c_disp s with
  | Unstarted => stop Cancelled 0 s
  | Serving _ _ n => say (Ending Cancelled) (set_disp (LeavingTasks Cancelled n) s)
  | LeavingTasks _ _ => s
  | Unmounting w n => stop Cancelled n s
  | Stopped _ _ => s
  end.

(** The loop's body for one frame (middleware.py:168-184) *)
Definition receive (cap : nat) (f : frame) (s : conn) : conn :=
  let s := say (Got f) s in
  match f with
  | Event m => if room cap (c_queue s) then set_queue (c_queue s ++ [m]) s else set_app (Putting m) s
  | Unknown => s
  | Broken => cancel (set_app (Over true) s)
  | Disconnect => cancel (set_app (Over false) s)
  end.

(** What can happen: the web server has a frame; it accepts the connection; the loop receives the next frame, or goes on when there is room again;
    the dispatcher task starts ([found]: there is a component for the URL (C58) and the query has a location (C79)); the incoming loop takes a
    message and starts a task for it (serve.py:68-71); the oldest of these tasks runs (core/layout.py:136-146); a render ends, with an update and so many
    mounted components, or raises; the update is sent, if the web server takes it; [__aexit__] is done with the tasks; a component is unmounted. *)
Inductive op := Arrive (f : frame) | Accept | Receive | Resume | Start (found : bool) | Take | Deliver
| Render (u : update) (n : nat) | RenderFails | Send (taken : bool) | TasksEnd | Unmount.

Definition usable (m : message) : bool := match m_target m with Usable => true | _ => false end.

Definition step (cap : nat) (s : conn) (o : op) : conn :=
  match o with
  | Arrive f => set_in (c_in s ++ [f]) s
  | Accept => match c_app s with Opening => set_app Receiving s | _ => s end
  | Receive => match c_app s, c_in s with Receiving, f :: r => receive cap f (set_in r s) | _, _ => s end
  | Resume => match c_app s with
              | Putting m => if room cap (c_queue s) then set_app Receiving (set_queue (c_queue s ++ [m]) s) else s
              | _ => s
              end
  | Start found => match c_disp s with
                   | Unstarted => if found then set_disp (Serving [] None 1) s else stop NoSession 0 s
                   | _ => s
                   end
  | Take => match c_disp s, c_queue s with
            | Serving ts out n, m :: q => set_disp (Serving (ts ++ [m]) out n) (set_queue q s)
            | _, _ => s
            end
  | Deliver => match c_disp s with
               | Serving (m :: ts) out n => if usable m then say (Delivered m) (set_disp (Serving ts out n) s) else fail BadEvent s
               | _ => s
               end
  | Render u n => match c_disp s with Serving ts None _ => say (Rendered u) (set_disp (Serving ts (Some u) n) s) | _ => s end
  | RenderFails => match c_disp s with Serving _ None _ => fail RenderRaised s | _ => s end
  | Send taken => match c_disp s with
                  | Serving ts (Some u) n =>
                      (* the web server takes nothing before it has accepted the connection *)
                      if u_json u && taken && match c_app s with Opening => false | _ => true end
                      then say (Sent u) (set_disp (Serving ts None n) s) else fail NotSent s
                  | _ => s
                  end
  | TasksEnd => match c_disp s with LeavingTasks w n => set_disp (Unmounting w n) s | _ => s end
  | Unmount => match c_disp s with
               | Unmounting w (S (S n)) => set_disp (Unmounting w (S n)) s
               | Unmounting w _ => stop w 0 s
               | _ => s
               end
  end.

Definition start : conn := Conn [] Opening [] Unstarted [].
Definition run (cap : nat) (ops : list op) : conn := fold_left (step cap) ops start.

(** ** What is said about it *)

(** The frames that came; the frames the application received; the layout events among frames; the events delivered to the layout; the updates that
    renders gave; the updates sent. *)
Definition came (ops : list op) : list frame := flat_map (fun o => match o with Arrive f => [f] | _ => [] end) ops.
Definition got (l : list act) : list frame := flat_map (fun a => match a with Got f => [f] | _ => [] end) l.
Definition events (l : list frame) : list message := flat_map (fun f => match f with Event m => [m] | _ => [] end) l.
Definition delivered (l : list act) : list message := flat_map (fun a => match a with Delivered m => [m] | _ => [] end) l.
Definition rendered (l : list act) : list update := flat_map (fun a => match a with Rendered u => [u] | _ => [] end) l.
Definition sent (l : list act) : list update := flat_map (fun a => match a with Sent u => [u] | _ => [] end) l.

(** The session is still to be started or at work. *)
Definition lasts (s : conn) : Prop := match c_disp s with Unstarted | Serving _ _ _ => True | _ => False end.
(** The application has returned (or raised). *)
Definition gone (s : conn) : Prop := exists b, c_app s = Over b.
Definition waits (m : loop) : list message := match m with Putting m => [m] | _ => [] end.

(** The events that are received and not delivered yet, in their order. *)
Definition pending (s : conn) : list message := match c_disp s with Serving ts _ _ => ts | _ => [] end ++ c_queue s ++ waits (c_app s).
(** The update being sent. *)
Definition on_the_way (s : conn) : list update := match c_disp s with Serving _ (Some u) _ => [u] | _ => [] end.

Lemma run_snoc cap ops o : run cap (ops ++ [o]) = step cap (run cap ops) o.
Proof. unfold run. rewrite fold_left_app. reflexivity. Qed.

Record inv (fs : list frame) (s : conn) : Prop := Inv {
  i_came : fs = got (c_log s) ++ c_in s;
  i_events : exists rest, events (got (c_log s)) = delivered (c_log s) ++ rest /\ (lasts s -> rest = pending s);
  i_usable : Forall (fun m => m_target m = Usable) (delivered (c_log s));
  i_updates : exists rest, rendered (c_log s) = sent (c_log s) ++ rest /\ (lasts s -> rest = on_the_way s) }.

Ltac flat := unfold got, delivered, rendered, sent, events in *; rewrite ?flat_map_app in *; cbn [flat_map app] in *; rewrite ?app_nil_r in *.

Lemma inv_quiet fs s s' : inv fs s -> c_in s' = c_in s ->
  got (c_log s') = got (c_log s) -> delivered (c_log s') = delivered (c_log s) -> rendered (c_log s') = rendered (c_log s) -> sent (c_log s') = sent (c_log s) ->
  (lasts s' -> lasts s /\ pending s' = pending s /\ on_the_way s' = on_the_way s) -> inv fs s'.
Proof.
  intros [A (r & B & B') C (r' & D & D')] I G E R S L. constructor.
  - rewrite I, G. exact A.
  - exists r. rewrite G, E. split; [exact B|]. intros X. destruct (L X) as (Y & -> & _). auto.
  - rewrite E. exact C.
  - exists r'. rewrite R, S. split; [exact D|]. intros X. destruct (L X) as (Y & _ & ->). auto.
Qed.

Lemma inv_cancel fs s : inv fs s -> inv fs (cancel s).
Proof.
  intros V. unfold cancel. destruct (c_disp s) eqn:D; try exact V; eapply inv_quiet; try exact V; unfold stop; try reflexivity; cbn; flat; try reflexivity; cbn [lasts set_disp c_disp]; intros [].
Qed.
Lemma inv_fail fs s w : inv fs s -> inv fs (fail w s).
Proof.
  intros V. unfold fail. destruct (c_disp s) eqn:D; try exact V. eapply inv_quiet; try exact V; try reflexivity; cbn; flat; try reflexivity. intros [].
Qed.
Lemma inv_stop fs s w n : inv fs s -> inv fs (stop w n s).
Proof. intros V. unfold stop. destruct w; eapply inv_quiet; try exact V; try reflexivity; cbn; flat; try reflexivity; intros []. Qed.

Lemma inv_step cap fs s o : inv fs s -> inv (fs ++ match o with Arrive f => [f] | _ => [] end) (step cap s o).
Proof.
  intros V. pose proof V as [A (r & B & B') C (r' & D & D')]. destruct o; cbn [step]; rewrite ?app_nil_r.
  - constructor; cbn [c_log c_in c_disp set_in]; [rewrite A, app_assoc; reflexivity|exists r; auto|exact C|exists r'; auto].
  - destruct (c_app s) eqn:P; try exact V. eapply inv_quiet; try exact V; try reflexivity. intros L. split; [exact L|]. unfold pending. rewrite P. split; reflexivity.
  - destruct (c_app s) eqn:P; try exact V. destruct (c_in s) as [|f i] eqn:I; [exact V|]. unfold receive. cbn [say set_in c_queue].
    assert (W : forall s', c_in s' = i -> c_log s' = c_log s ++ [Got f] -> c_disp s' = c_disp s -> c_queue s' ++ waits (c_app s') = c_queue s ++ events [f] -> inv fs s').
    { intros s' E1 E2 E3 E4. constructor; rewrite ?E1, ?E2; flat.
      - rewrite A. rewrite <- app_assoc. reflexivity.
      - exists (r ++ match f with Event m => [m] | _ => [] end). rewrite B. split; [rewrite <- app_assoc; reflexivity|]. intros L. assert (L' : lasts s) by (unfold lasts in *; rewrite E3 in L; exact L).
        rewrite (B' L'). unfold pending. rewrite P, E3, E4. cbn [waits]. rewrite app_nil_r, <- app_assoc. reflexivity.
      - exact C.
      - exists r'. split; [exact D|]. intros L. unfold lasts, on_the_way in *. rewrite E3 in *. auto. }
    destruct f as [m| | |].
    + destruct (room cap (c_queue s)); apply W; cbn; try reflexivity; rewrite ?P; cbn; rewrite ?app_nil_r; reflexivity.
    + apply W; cbn; try reflexivity. rewrite P. reflexivity.
    + apply inv_cancel. apply W; cbn; reflexivity.
    + apply inv_cancel. apply W; cbn; reflexivity.
  - destruct (c_app s) eqn:P; try exact V. destruct (room cap (c_queue s)); [|exact V]. eapply inv_quiet; try exact V; try reflexivity.
    intros L. split; [exact L|]. split; [|reflexivity]. unfold pending. cbn [set_app set_queue c_disp c_queue c_app waits]. rewrite P. cbn [waits]. rewrite app_nil_r. reflexivity.
  - destruct (c_disp s) eqn:Q; try exact V. destruct found; [|apply inv_stop; exact V]. eapply inv_quiet; try exact V; try reflexivity.
    intros L. unfold lasts, pending, on_the_way. rewrite Q. cbn. auto.
  - destruct (c_disp s) as [|ts out n| | |] eqn:Q; try exact V. destruct (c_queue s) as [|m q] eqn:E; [exact V|]. eapply inv_quiet; try exact V; try reflexivity.
    intros L. unfold lasts, pending, on_the_way. rewrite Q, E. cbn. rewrite <- app_assoc. auto.
  - destruct (c_disp s) as [|[|m ts] out n| | |] eqn:Q; try exact V. destruct (usable m) eqn:U; [|apply inv_fail; exact V].
    assert (L : lasts s) by (unfold lasts; rewrite Q; exact I). specialize (B' L). specialize (D' L). constructor; cbn [c_log c_in c_disp say set_disp]; flat; auto.
    + exists (pending (set_disp (Serving ts out n) s)). rewrite B, B'. unfold pending. rewrite Q. cbn. rewrite <- app_assoc. cbn. auto.
    + apply Forall_app. split; [exact C|]. repeat constructor. unfold usable in U. destruct (m_target m); congruence.
    + exists r'. split; [exact D|]. intros _. rewrite D'. unfold on_the_way. rewrite Q. reflexivity.
  - destruct (c_disp s) as [|ts [u'|] n'| | |] eqn:Q; try exact V.
    assert (L : lasts s) by (unfold lasts; rewrite Q; exact I). specialize (B' L). specialize (D' L). constructor; cbn [c_log c_in c_disp say set_disp]; flat; auto.
    + exists r. split; [exact B|]. intros _. rewrite B'. unfold pending. rewrite Q. reflexivity.
    + exists [u]. rewrite D. rewrite D'. unfold on_the_way. rewrite Q. rewrite app_nil_r. auto.
  - destruct (c_disp s) as [|ts [u'|] n'| | |] eqn:Q; try exact V. apply inv_fail. exact V.
  - destruct (c_disp s) as [|ts [u'|] n'| | |] eqn:Q; try exact V.
    destruct (u_json u' && taken && match c_app s with Opening => false | _ => true end); [|apply inv_fail; exact V].
    assert (L : lasts s) by (unfold lasts; rewrite Q; exact I). specialize (B' L). specialize (D' L). constructor; cbn [c_log c_in c_disp say set_disp]; flat; auto.
    + exists r. split; [exact B|]. intros _. rewrite B'. unfold pending. rewrite Q. reflexivity.
    + exists []. rewrite D, D'. unfold on_the_way. rewrite Q. rewrite app_nil_r. auto.
  - destruct (c_disp s) eqn:Q; try exact V. eapply inv_quiet; try exact V; try reflexivity. intros [].
  - destruct (c_disp s) as [| | |w [|[|n]]|] eqn:Q; try exact V; try (apply inv_stop; exact V). eapply inv_quiet; try exact V; try reflexivity. intros [].
Qed.
Lemma inv_run cap ops : inv (came ops) (run cap ops).
Proof.
  induction ops as [|o ops IH] using rev_ind.
  - constructor; cbn; auto; exists []; cbn; auto.
  - rewrite run_snoc. unfold came. rewrite flat_map_app. cbn [flat_map]. rewrite app_nil_r. apply inv_step. exact IH.
Qed.

(** The frames are received in the order in which they came. Of the layout events among them those delivered to the layout are the first, each once, in
    this order, and they have a target; as long as the session lasts, the others are still on their way to it. *)
Theorem C101_delivery cap ops : let s := run cap ops in
  came ops = got (c_log s) ++ c_in s /\
  (exists rest, events (got (c_log s)) = delivered (c_log s) ++ rest /\ (lasts s -> rest = pending s)) /\
  Forall (fun m => m_target m = Usable) (delivered (c_log s)).
Proof. cbv zeta. destruct (inv_run cap ops) as [A B C D]. auto. Qed.
Print Assumptions C101_delivery.

(** The updates sent are those that renders gave, each once, in their order, up to the one that is being sent. *)
Theorem C101_updates cap ops : let s := run cap ops in
  exists rest, rendered (c_log s) = sent (c_log s) ++ rest /\ (lasts s -> rest = on_the_way s).
Proof. cbv zeta. destruct (inv_run cap ops) as [A B C D]. auto. Qed.
Print Assumptions C101_updates.

(** ** How a session ends *)

Definition silent (b : act) : Prop := exists f, b = Got f.
Definition winding (b : act) : Prop := silent b \/ exists w, b = Logged w.
Definition ended_log (l : list act) : Prop := forall l1 a l2, l = l1 ++ a :: l2 ->
  (forall w, a = Ending w -> Forall winding l2) /\ (forall w, a = Logged w -> Forall silent l2).
Lemma ended_snoc l x : ended_log l ->
  (silent x \/ ((forall w, ~ In (Logged w) l) /\ ((exists w, x = Logged w) \/ forall w, ~ In (Ending w) l))) -> ended_log (l ++ [x]).
Proof.
  intros E H l1 a l2 Q. destruct l2 as [|y l2 _] using rev_ind.
  - split; intros; constructor.
  - rewrite app_comm_cons, app_assoc in Q. apply app_inj_tail in Q. destruct Q as [-> <-]. destruct (E l1 a l2 eq_refl) as [F G]. split; intros w ->; apply Forall_app; (split; [solve [eapply F; reflexivity | eapply G; reflexivity]|]); (constructor; [|constructor]).
    + destruct H as [H | [_ [H|H]]]; [left; exact H|right; exact H|]. exfalso. apply (H w), in_or_app. right. left. reflexivity.
    + destruct H as [H | [H _]]; [exact H|]. exfalso. apply (H w), in_or_app. right. left. reflexivity.
Qed.

Record fin (s : conn) : Prop := Fin {
  f_log : ended_log (c_log s);
  f_lasts : lasts s -> (forall w, ~ In (Logged w) (c_log s)) /\ (forall w, ~ In (Ending w) (c_log s));
  f_leaving : forall w n, c_disp s = LeavingTasks w n \/ c_disp s = Unmounting w n ->
    (forall w', ~ In (Logged w') (c_log s)) /\ In (Ending w) (c_log s) /\ (w = Cancelled -> gone s);
  f_stopped : forall w n, c_disp s = Stopped w n ->
    (w <> Cancelled -> n = 0 /\ In (Logged w) (c_log s)) /\ (n <> 0 -> gone s /\ exists w', w' <> Cancelled /\ In (Ending w') (c_log s));
  f_gone : gone s -> ~ lasts s }.

(** Steps that change neither the dispatcher nor the log, and do not end the loop. *)
Lemma fin_same s s' : fin s -> c_disp s' = c_disp s -> (c_log s' = c_log s \/ exists f, c_log s' = c_log s ++ [Got f]) -> (gone s' <-> gone s) -> fin s'.
Proof.
  intros [A B C D E] Q L G.
  assert (M : forall a, ~ silent a -> (In a (c_log s') <-> In a (c_log s))).
  { intros a N. destruct L as [->|(f & ->)]; [tauto|]. rewrite in_app_iff. cbn. split; [|tauto]. intros [H|[H|[]]]; [exact H|]. destruct N. exists f. auto. }
  assert (NL : forall w, ~ silent (Logged w)) by (intros w (f & H); discriminate).
  assert (NE : forall w, ~ silent (Ending w)) by (intros w (f & H); discriminate).
  constructor; unfold lasts in *; rewrite ?Q.
  - destruct L as [->|(f & ->)]; [exact A|]. apply ended_snoc; [exact A|]. left. exists f. reflexivity.
  - intros X. destruct (B X) as [B1 B2]. split; intros w H; apply M in H; auto; [apply (B1 w H)|apply (B2 w H)].
  - intros w n X. destruct (C w n X) as (C1 & C2 & C3). repeat split.
    + intros w' H. apply M in H; auto. apply (C1 w' H).
    + apply M; auto.
    + intros Y. apply G. auto.
  - intros w n X. destruct (D w n X) as [D1 D2]. split.
    + intros Y. destruct (D1 Y). split; [assumption|]. apply M; auto.
    + intros Y. destruct (D2 Y) as (Z & w' & W1 & W2). split; [apply G; exact Z|]. exists w'. split; [exact W1|]. apply M; auto.
  - intros X. apply E. apply G. exact X.
Qed.

(** The group fails or is cancelled. *)
Lemma fin_leave s s' w n : fin s -> lasts s -> c_log s' = c_log s ++ [Ending w] -> c_disp s' = LeavingTasks w n -> (w = Cancelled -> gone s') -> fin s'.
Proof.
  intros [A B C D E] Ls L Q G. destruct (B Ls) as [B1 B2].
  assert (B1' : forall w', ~ In (Logged w') (c_log s')) by (intros w' H; rewrite L in H; apply in_app_or in H; destruct H as [H|[H|[]]]; [apply (B1 w' H)|discriminate]).
  constructor; unfold lasts; rewrite ?Q.
  - rewrite L. apply ended_snoc; [exact A|]. right. split; [exact B1|]. right. exact B2.
  - intros [].
  - intros w' n' [X|X]; [|discriminate]. injection X as <- <-. split; [exact B1'|]. split; [|exact G]. rewrite L. apply in_or_app. right. left. reflexivity.
  - intros w' n' X. discriminate.
  - intros _ [].
Qed.

(** The dispatcher stops. *)
Lemma fin_stop s s' w n : fin s -> (forall w', ~ In (Logged w') (c_log s)) ->
  c_log s' = c_log s -> (w <> Cancelled -> n = 0) ->
  (n <> 0 -> gone s' /\ exists w', w' <> Cancelled /\ In (Ending w') (c_log s)) -> fin (stop w n s').
Proof.
  intros [A B C D E] N L Z I.
  assert (X : c_log (stop w n s') = c_log s \/ c_log (stop w n s') = c_log s ++ [Logged w]) by (unfold stop; destruct w; cbn; rewrite L; auto).
  assert (Y : c_disp (stop w n s') = Stopped w n) by (unfold stop; destruct w; reflexivity).
  assert (Y' : c_app (stop w n s') = c_app s') by (unfold stop; destruct w; reflexivity).
  assert (M : forall w', In (Ending w') (c_log s) -> In (Ending w') (c_log (stop w n s'))) by (intros w' H; destruct X as [-> | ->]; [exact H|apply in_or_app; auto]).
  constructor; unfold lasts; rewrite ?Y.
  - destruct X as [-> | ->]; [exact A|]. apply ended_snoc; [exact A|]. right. split; [exact N|]. left. exists w. reflexivity.
  - intros [].
  - intros w' n' [H|H]; discriminate.
  - intros w' n' H. injection H as <- <-. split.
    + intros Q. split; [auto|]. unfold stop. destruct w; [congruence|..]; cbn; rewrite L; apply in_or_app; right; left; reflexivity.
    + intros Q. destruct (I Q) as (G & w' & W1 & W2). split; [unfold gone in *; rewrite Y'; exact G|]. exists w'. auto.
  - intros _ [].
Qed.

Lemma fin_fail s w : fin s -> w <> Cancelled -> fin (fail w s).
Proof.
  intros F N. unfold fail. destruct (c_disp s) eqn:Q; try exact F. eapply (fin_leave s _ w mounted); try exact F; try reflexivity; [unfold lasts; rewrite Q; exact I|contradiction].
Qed.

Lemma fin_step cap s o : fin s -> fin (step cap s o).
Proof.
  intros F. assert (R : forall s', c_disp s' = c_disp s -> c_log s' = c_log s -> (gone s' <-> gone s) -> fin s') by (intros s' H1 H2 H3; eapply fin_same; eauto).
  destruct o; cbn [step].
  - apply R; [reflexivity..|tauto].
  - destruct (c_app s) eqn:P; try exact F. apply R; [reflexivity..|]. unfold gone. rewrite P. cbn. split; intros (b & H); discriminate.
  - destruct (c_app s) eqn:P; try exact F. destruct (c_in s) as [|f i] eqn:I; [exact F|]. unfold receive. cbn [say set_in c_queue].
    assert (NG : ~ gone s) by (unfold gone; rewrite P; intros (b & H); discriminate).
    assert (K : forall b g s', c_disp s' = c_disp s -> c_log s' = c_log s ++ [Got g] -> c_app s' = Over b -> fin (cancel s')).
    { intros b g s' H1 H2 H3. assert (G : gone s') by (exists b; exact H3).
      assert (Fm : fin (Conn (c_in s) (c_app s) (c_queue s) (c_disp s) (c_log s ++ [Got g]))) by (eapply fin_same; [exact F|reflexivity|right; exists g; reflexivity|unfold gone; cbn; tauto]).
      unfold cancel. destruct (c_disp s') eqn:Q.
      - eapply fin_stop; [exact Fm|..]; cbn [c_log]; auto; try congruence. intros w' H. destruct F as [_ B _ _ _]. destruct B as [B _]; [unfold lasts; rewrite <- H1; exact Logic.I|].
        apply in_app_or in H. destruct H as [H|[H|[]]]; [apply (B w' H)|discriminate].
      - eapply fin_leave; [exact Fm|..]; cbn; try reflexivity; [unfold lasts; cbn; rewrite <- H1; exact Logic.I|rewrite H2; reflexivity|intros _; exists b; exact H3].
      - destruct (f_leaving _ F w mounted) as (C1 & C2 & C3); [left; congruence|]. constructor; unfold lasts; rewrite ?Q; [rewrite H2; apply (f_log _ Fm)|intros []| |intros; discriminate|intros _ []].
        intros w' n' [X|X]; [|discriminate]. injection X as <- <-. rewrite H2. repeat split.
        + intros w' H. apply in_app_or in H. destruct H as [H|[H|[]]]; [apply (C1 w' H)|discriminate].
        + apply in_or_app. auto.
        + intros _. exact G.
      - destruct (f_leaving _ F w mounted) as (C1 & C2 & C3); [right; congruence|]. eapply fin_stop; [exact Fm|..]; cbn [c_log]; auto; try congruence.
        + intros w' H. apply in_app_or in H. destruct H as [H|[H|[]]]; [apply (C1 w' H)|discriminate].
        + intros _. split; [exact G|]. exists w. split; [intros ->; apply NG; auto|]. apply in_or_app. auto.
      - destruct (f_stopped _ F w mounted) as [D1 D2]; [congruence|]. constructor; unfold lasts; rewrite ?Q; [rewrite H2; apply (f_log _ Fm)|intros []|intros w' n' [X|X]; discriminate| |intros _ []].
        intros w' n' X. injection X as <- <-. rewrite H2. split.
        + intros Y. destruct (D1 Y). split; [assumption|]. apply in_or_app. auto.
        + intros Y. destruct (D2 Y) as [Z _]. contradiction. }
    destruct f as [m| | |].
    + destruct (room cap (c_queue s)); eapply fin_same; try exact F; try reflexivity; try (right; eexists; reflexivity); unfold gone; cbn; rewrite ?P; split; intros (b & H); discriminate.
    + eapply fin_same; try exact F; try reflexivity; try (right; eexists; reflexivity).
    + eapply K; reflexivity.
    + eapply K; reflexivity.
  - destruct (c_app s) eqn:P; try exact F. destruct (room cap (c_queue s)); [|exact F]. apply R; [reflexivity..|]. unfold gone. rewrite P. cbn. split; intros (b & H); discriminate.
  - destruct (c_disp s) eqn:Q; try exact F. destruct found.
    + destruct (f_lasts _ F) as [B1 B2]; [unfold lasts; rewrite Q; exact I|]. constructor; cbn; auto; try (intros; discriminate); try (apply (f_log _ F)).
      * intros w n [X|X]; discriminate.
      * intros G. exfalso. apply (f_gone _ F G). unfold lasts. rewrite Q. exact I.
    + eapply fin_stop; [exact F| |reflexivity|auto|congruence]. apply f_lasts; [exact F|]. unfold lasts. rewrite Q. exact I.
  - destruct (c_disp s) as [|ts out n| | |] eqn:Q; try exact F. destruct (c_queue s) as [|m q] eqn:E; [exact F|].
    destruct (f_lasts _ F) as [B1 B2]; [unfold lasts; rewrite Q; exact I|]. constructor; cbn; auto; try (intros; discriminate); try (apply (f_log _ F)).
    + intros w n' [X|X]; discriminate.
    + intros G. exfalso. apply (f_gone _ F G). unfold lasts. rewrite Q. exact I.
  - destruct (c_disp s) as [|[|m ts] out n| | |] eqn:Q; try exact F. destruct (usable m); [|apply fin_fail; [exact F|discriminate]].
    destruct (f_lasts _ F) as [B1 B2]; [unfold lasts; rewrite Q; exact I|]. constructor; cbn; try (intros; discriminate).
    + apply ended_snoc; [apply (f_log _ F)|]. right. auto.
    + intros _. split; intros w H; apply in_app_or in H; destruct H as [H|[H|[]]]; try discriminate; [apply (B1 w H)|apply (B2 w H)].
    + intros w n' [X|X]; discriminate.
    + intros G. exfalso. apply (f_gone _ F G). unfold lasts. rewrite Q. exact I.
  - destruct (c_disp s) as [|ts [u'|] n'| | |] eqn:Q; try exact F.
    destruct (f_lasts _ F) as [B1 B2]; [unfold lasts; rewrite Q; exact I|]. constructor; cbn; try (intros; discriminate).
    + apply ended_snoc; [apply (f_log _ F)|]. right. auto.
    + intros _. split; intros w H; apply in_app_or in H; destruct H as [H|[H|[]]]; try discriminate; [apply (B1 w H)|apply (B2 w H)].
    + intros w n'' [X|X]; discriminate.
    + intros G. exfalso. apply (f_gone _ F G). unfold lasts. rewrite Q. exact I.
  - destruct (c_disp s) as [|ts [u'|] n'| | |] eqn:Q; try exact F. apply fin_fail; [exact F|discriminate].
  - destruct (c_disp s) as [|ts [u'|] n'| | |] eqn:Q; try exact F.
    destruct (u_json u' && taken && match c_app s with Opening => false | _ => true end); [|apply fin_fail; [exact F|discriminate]].
    destruct (f_lasts _ F) as [B1 B2]; [unfold lasts; rewrite Q; exact I|]. constructor; cbn; try (intros; discriminate).
    + apply ended_snoc; [apply (f_log _ F)|]. right. auto.
    + intros _. split; intros w H; apply in_app_or in H; destruct H as [H|[H|[]]]; try discriminate; [apply (B1 w H)|apply (B2 w H)].
    + intros w n'' [X|X]; discriminate.
    + intros G. exfalso. apply (f_gone _ F G). unfold lasts. rewrite Q. exact I.
  - destruct (c_disp s) eqn:Q; try exact F. destruct (f_leaving _ F w mounted) as (C1 & C2 & C3); [auto|]. constructor; cbn; try (intros; discriminate); [apply (f_log _ F)|intros []| |intros _ []].
    intros w' n' [X|X]; [discriminate|]. injection X as <- <-. auto.
  - destruct (c_disp s) as [| | |w [|[|n]]|] eqn:Q; try exact F; destruct (f_leaving _ F w _ (or_intror Q)) as (C1 & C2 & C3).
    + eapply fin_stop; [exact F|exact C1|reflexivity|auto|congruence].
    + eapply fin_stop; [exact F|exact C1|reflexivity|auto|congruence].
    + constructor; cbn; try (intros; discriminate); [apply (f_log _ F)|intros []| |intros _ []]. intros w' n' [X|X]; [discriminate|]. injection X as <- <-. auto.
Qed.
Lemma fin_run cap ops : fin (run cap ops).
Proof.
  induction ops as [|o ops IH] using rev_ind.
  - constructor; cbn; auto; try (intros; discriminate).
    + intros l1 a l2 H. destruct l1; discriminate.
    + intros w n [H|H]; discriminate.
    + intros (b & H). discriminate.
  - rewrite run_snoc. apply fin_step. exact IH.
Qed.

(** When a session has begun to end, nothing is delivered, rendered or sent any more: its end may be logged, once, and frames are received. *)
Theorem C101_end cap ops l1 a l2 : c_log (run cap ops) = l1 ++ a :: l2 ->
  (forall w, a = Ending w -> Forall (fun b => (exists f, b = Got f) \/ exists w', b = Logged w') l2) /\
  (forall w, a = Logged w -> Forall (fun b => exists f, b = Got f) l2).
Proof. intros H. destruct (f_log _ (fin_run cap ops) l1 a l2 H) as [A B]. auto. Qed.
Print Assumptions C101_end.

(** When the dispatcher task has ended: if it was not cancelled, all components were unmounted and the error was logged; if the session ended only
    because the connection did, all components were unmounted. Missing: sessions that fail when the connection ends, see below. *)
Theorem C101_left_partial cap ops w n : let s := run cap ops in c_disp s = Stopped w n ->
  (w <> Cancelled -> n = 0 /\ In (Logged w) (c_log s)) /\
  ((forall w', In (Ending w') (c_log s) -> w' = Cancelled) -> n = 0).
Proof.
  cbv zeta. intros H. destruct (f_stopped _ (fin_run cap ops) w n H) as [A B]. split; [exact A|]. intros E. destruct (Nat.eq_dec n 0) as [Z|Z]; [exact Z|].
  destruct (B Z) as (_ & w' & W1 & W2). destruct W1. apply E. exact W2.
Qed.
Print Assumptions C101_left_partial.
(** What is logged is the failure that ended the session, or that none could be started; not that the client left. *)
Definition failed_with (l : list act) (w : why) : Prop := w <> Cancelled /\ (w = NoSession \/ In (Ending w) l).
Definition log_right (s : conn) : Prop := (forall w, In (Logged w) (c_log s) -> failed_with (c_log s) w) /\
  (forall w n, c_disp s = LeavingTasks w n \/ c_disp s = Unmounting w n -> In (Ending w) (c_log s)).
Lemma failed_mono l x w : failed_with l w -> failed_with (l ++ [x]) w.
Proof. intros [A [B|B]]; split; auto. right. apply in_or_app. auto. Qed.
Lemma log_right_say x s : (forall w, x <> Logged w) -> log_right s -> log_right (say x s).
Proof.
  intros N [A B]. split; cbn [say c_log c_disp].
  - intros w J. apply in_app_or in J. destruct J as [J|[J|[]]]; [apply failed_mono; auto|destruct (N w J)].
  - intros w n D. apply in_or_app. left. exact (B w n D).
Qed.
Lemma log_right_stop w n s : (w <> Cancelled -> w = NoSession \/ In (Ending w) (c_log s)) -> log_right s -> log_right (stop w n s).
Proof.
  intros W [A B]. unfold stop.
  assert (H : w <> Cancelled -> log_right (say (Logged w) (set_disp (Stopped w n) s))).
  { intros N. split; cbn [say set_disp c_log c_disp]; [|intros w' m [D|D]; discriminate].
    intros w' J. apply in_app_or in J. destruct J as [J|[J|[]]]; [apply failed_mono; auto|]. injection J as <-. split; [exact N|]. destruct (W N) as [X|X]; [auto|]. right. apply in_or_app. auto. }
  destruct w; try (apply H; discriminate). split; cbn [set_disp c_log c_disp]; [exact A|]. intros w' m [D|D]; discriminate.
Qed.
Lemma log_right_leave w n s : log_right s -> log_right (say (Ending w) (set_disp (LeavingTasks w n) s)).
Proof.
  intros [A B]. split; cbn [say set_disp c_log c_disp].
  - intros w' J. apply in_app_or in J. destruct J as [J|[J|[]]]; [apply failed_mono; auto|discriminate].
  - intros w' m [D|D]; [|discriminate]. injection D as <- _. apply in_or_app. right. left. reflexivity.
Qed.
Lemma log_right_fail w s : log_right s -> log_right (fail w s).
Proof. intros H. unfold fail. destruct (c_disp s); auto. apply log_right_leave. exact H. Qed.
Lemma log_right_cancel s : log_right s -> log_right (cancel s).
Proof. intros H. unfold cancel. destruct (c_disp s); auto; try (apply log_right_stop; [congruence|exact H]). apply log_right_leave. exact H. Qed.
Lemma log_right_same s s' : log_right s -> c_log s' = c_log s -> (forall w n, c_disp s' = LeavingTasks w n \/ c_disp s' = Unmounting w n -> exists m, c_disp s = LeavingTasks w m \/ c_disp s = Unmounting w m) -> log_right s'.
Proof. intros [A B] L D. split; rewrite L; [exact A|]. intros w n X. destruct (D w n X) as [m Y]. exact (B w m Y). Qed.
Lemma log_right_step cap s o : log_right s -> log_right (step cap s o).
Proof.
  intros H. assert (SAME : forall s', c_log s' = c_log s -> c_disp s' = c_disp s -> log_right s').
  { intros s' L D. apply (log_right_same s); auto. intros w n X. exists n. rewrite <- D. exact X. }
  destruct o as [f| | | |found| | |u k| |taken| |]; cbn [step].
  - apply SAME; reflexivity.
  - destruct (c_app s); exact H.
  - destruct (c_app s); auto. destruct (c_in s) as [|f r]; auto. unfold receive. cbv zeta.
    assert (S1 : log_right (say (Got f) (set_in r s))) by (apply log_right_say; [discriminate|apply SAME; reflexivity]). set (s1 := say (Got f) (set_in r s)) in *. clearbody s1.
    destruct f; auto.
    + destruct (room cap (c_queue s1)); exact S1.
    + apply log_right_cancel. exact S1.
    + apply log_right_cancel. exact S1.
  - destruct (c_app s); try exact H. destruct (room cap (c_queue s)); exact H.
  - destruct (c_disp s) eqn:D; auto. destruct found; [|apply log_right_stop; auto]. apply (log_right_same s); auto. intros w n [X|X]; discriminate X.
  - destruct (c_disp s) eqn:D; auto. destruct (c_queue s); auto. apply (log_right_same s); auto. intros w n [X|X]; discriminate X.
  - destruct (c_disp s) as [|[|m ts] out n| | |] eqn:D; auto. destruct (usable m); [|apply log_right_fail; exact H].
    apply log_right_say; [discriminate|]. apply (log_right_same s); auto. intros w k [X|X]; discriminate X.
  - destruct (c_disp s) as [|ts [v|] n| | |] eqn:D; auto. apply log_right_say; [discriminate|]. apply (log_right_same s); auto. intros w m [X|X]; discriminate X.
  - destruct (c_disp s) as [|ts [v|] n| | |] eqn:D; auto. apply log_right_fail. exact H.
  - destruct (c_disp s) as [|ts [v|] n| | |] eqn:D; auto. match goal with |- log_right (if ?b then _ else _) => destruct b end; [|apply log_right_fail; exact H].
    apply log_right_say; [discriminate|]. apply (log_right_same s); auto. intros w m [X|X]; discriminate X.
  - destruct (c_disp s) as [| |w n| |] eqn:D; auto. apply (log_right_same s); auto. intros w' m [X|X]; [discriminate X|]. injection X as <- _. rewrite D. eauto.
  - destruct (c_disp s) as [| | |w n|] eqn:D; auto.
    assert (E : log_right (stop w 0 s)) by (apply log_right_stop; [intros _; right; destruct H as [_ B]; apply (B w n); auto|exact H]).
    destruct n as [|[|n]]; auto. apply (log_right_same s); auto. intros w' m [X|X]; [discriminate X|]. injection X as <- _. rewrite D. eauto.
Qed.
Theorem C101_logged cap ops w : let s := run cap ops in In (Logged w) (c_log s) -> w <> Cancelled /\ (w = NoSession \/ In (Ending w) (c_log s)).
Proof.
  assert (H : log_right (run cap ops)).
  { induction ops as [|o ops IH] using rev_ind; [split; cbn; [contradiction|intros w' n [X|X]; discriminate]|]. rewrite run_snoc. apply log_right_step. exact IH. }
  intros s J. exact (proj1 H w J).
Qed.
Print Assumptions C101_logged.
(** The events that are received and not taken up wait in the queue, of which there are never more than its size allows, and one more: a client that sends
    faster than the session works is slowed down. *)
Theorem C101_backpressure cap ops : let s := run cap ops in 0 < cap -> length (c_queue s) <= cap /\ (forall m, c_app s = Putting m -> forall o, (exists f, o = Arrive f) \/ o = Receive -> got (c_log (step cap s o)) = got (c_log s)).
Proof.
  intros s C. split.
  - subst s. induction ops as [|o ops IH] using rev_ind; [cbn; lia|]. rewrite run_snoc. set (s := run cap ops) in *. clearbody s.
    assert (ROOM : room cap (c_queue s) = true -> length (c_queue s) < cap).
    { unfold room. destruct (Nat.eqb_spec cap 0); [lia|]. cbn [orb]. apply Nat.ltb_lt. }
    assert (STOP : forall w n s', c_queue (stop w n s') = c_queue s') by (intros [] n s'; reflexivity).
    assert (FAIL : forall w s', c_queue (fail w s') = c_queue s') by (intros w s'; unfold fail; destruct (c_disp s'); reflexivity).
    assert (CAN : forall s', c_queue (cancel s') = c_queue s') by (intros s'; unfold cancel; destruct (c_disp s'); try reflexivity; apply STOP).
    destruct o as [f| | | |found| | |u k| |taken| |]; cbn [step]; auto.
    + destruct (c_app s); auto.
    + destruct (c_app s); auto. destruct (c_in s) as [|f r]; auto. unfold receive. cbv zeta. destruct f; auto; try (rewrite CAN; exact IH).
      cbn [say set_in c_queue]. destruct (room cap (c_queue s)) eqn:R; [|exact IH]. cbn. rewrite app_length. cbn. specialize (ROOM eq_refl). lia.
    + destruct (c_app s); auto. destruct (room cap (c_queue s)) eqn:R; [|exact IH]. cbn. rewrite app_length. cbn. specialize (ROOM eq_refl). lia.
    + destruct (c_disp s); auto. destruct found; [exact IH|rewrite STOP; exact IH].
    + destruct (c_disp s); auto. destruct (c_queue s) eqn:Q; [rewrite Q; exact IH|]. cbn in *. lia.
    + destruct (c_disp s) as [|[|m ts] out n| | |]; auto. destruct (usable m); [exact IH|rewrite FAIL; exact IH].
    + destruct (c_disp s) as [|ts [v|] n| | |]; auto.
    + destruct (c_disp s) as [|ts [v|] n| | |]; auto. rewrite FAIL. exact IH.
    + destruct (c_disp s) as [|ts [v|] n| | |]; auto. match goal with |- context [if ?b then _ else _] => destruct b end; [exact IH|rewrite FAIL; exact IH].
    + destruct (c_disp s); auto.
    + destruct (c_disp s) as [| | |w n|]; auto. destruct n as [|[|n]]; try (rewrite STOP; exact IH). exact IH.
  - intros m P o [[f ->]| ->]; cbn [step]; [reflexivity|]. rewrite P. reflexivity.
Qed.
Print Assumptions C101_backpressure.

(** Finding: an update cannot be sent because the client has left; the session is being left when the disconnect is received: unmounting is
    cancelled, components stay mounted, and nothing is logged. *)
Theorem C101_interrupted_refuted : exists cap ops n, let s := run cap ops in
  came ops = [Disconnect] /\ (forall u, In u (rendered (c_log s)) -> u_json u = true) /\
  c_disp s = Stopped Cancelled (S n) /\ forall w, ~ In (Logged w) (c_log s).
Proof.
  exists 0, [Accept; Start true; Render (Update 0 true) 2; Send true; Render (Update 1 true) 2; Send false; TasksEnd; Arrive Disconnect; Receive], 1.
  cbv zeta. split; [reflexivity|]. split; [intros u H; vm_compute in H; destruct H as [<-|[<-|[]]]; reflexivity|]. split; [reflexivity|].
  intros w H. vm_compute in H. repeat (destruct H as [H|H]; [discriminate|]). destruct H.
Qed.
Print Assumptions C101_interrupted_refuted.

(** ** Which frames end the connection *)

Definition ends (f : frame) : bool := match f with Broken | Disconnect => true | _ => false end.
Lemma cancel_got s : got (c_log (cancel s)) = got (c_log s) /\ c_app (cancel s) = c_app s /\ c_in (cancel s) = c_in s.
Proof. unfold cancel, stop. destruct (c_disp s); cbn; unfold got; rewrite ?flat_map_app; cbn; rewrite ?app_nil_r; auto. Qed.
Lemma fail_got s w : got (c_log (fail w s)) = got (c_log s) /\ c_app (fail w s) = c_app s /\ c_in (fail w s) = c_in s.
Proof. unfold fail. destruct (c_disp s); cbn; unfold got; rewrite ?flat_map_app; cbn; rewrite ?app_nil_r; auto. Qed.
Lemma stop_got s w n : got (c_log (stop w n s)) = got (c_log s) /\ c_app (stop w n s) = c_app s /\ c_in (stop w n s) = c_in s.
Proof. unfold stop. destruct w; cbn; unfold got; rewrite ?flat_map_app; cbn; rewrite ?app_nil_r; auto. Qed.
Lemma existsb_snoc {A} (p : A -> bool) l x : existsb p (l ++ [x]) = existsb p l || p x.
Proof. rewrite existsb_app. cbn. rewrite orb_false_r. reflexivity. Qed.

(** All but [Receive] leave the frames received as they are, and whether the application is over. *)
Lemma step_got cap s o : o <> Receive -> got (c_log (step cap s o)) = got (c_log s) /\ (gone (step cap s o) <-> gone s).
Proof.
  assert (T : forall s', got (c_log s') = got (c_log s) -> c_app s' = c_app s -> got (c_log s') = got (c_log s) /\ (gone s' <-> gone s)) by (intros s' E1 E2; split; [exact E1|unfold gone; rewrite E2; tauto]).
  assert (F : forall w, got (c_log (fail w s)) = got (c_log s) /\ (gone (fail w s) <-> gone s)) by (intros w; apply T; apply fail_got).
  assert (G : forall w n, got (c_log (stop w n s)) = got (c_log s) /\ (gone (stop w n s) <-> gone s)) by (intros w n; apply T; apply stop_got).
  assert (Q : forall a d, got [a] = [] -> got (c_log (say a (set_disp d s))) = got (c_log s) /\ (gone (say a (set_disp d s)) <-> gone s)) by (intros a d E; apply T; [cbn; unfold got in *; rewrite flat_map_app, E, app_nil_r; reflexivity|reflexivity]).
  intros N. destruct o; cbn [step]; try congruence.
  - apply T; reflexivity.
  - destruct (c_app s) eqn:P; try (apply T; auto; fail). split; [reflexivity|]. unfold gone. rewrite P. cbn. split; intros (b & H); discriminate.
  - destruct (c_app s) eqn:P; try (apply T; auto; fail). destruct (room cap (c_queue s)); [|apply T; auto]. split; [reflexivity|]. unfold gone. rewrite P. cbn. split; intros (b & H); discriminate.
  - destruct (c_disp s); try (apply T; auto; fail). destruct found; [apply T; reflexivity|apply G].
  - destruct (c_disp s); try (apply T; auto; fail). destruct (c_queue s); apply T; reflexivity.
  - destruct (c_disp s) as [|[|m ts] out n| | |]; try (apply T; auto; fail). destruct (usable m); [apply Q; reflexivity|apply F].
  - destruct (c_disp s) as [|ts [u'|] n'| | |]; try (apply T; auto; fail). apply Q. reflexivity.
  - destruct (c_disp s) as [|ts [u'|] n'| | |]; try (apply T; auto; fail). apply F.
  - destruct (c_disp s) as [|ts [u'|] n'| | |]; try (apply T; auto; fail). destruct (u_json u' && taken && match c_app s with Opening => false | _ => true end); [apply Q; reflexivity|apply F].
  - destruct (c_disp s); try (apply T; auto; fail).
  - destruct (c_disp s) as [| | |w [|[|n]]|]; try (apply T; auto; fail); apply G.
Qed.
Lemma gone_iff cap ops : gone (run cap ops) <-> existsb ends (got (c_log (run cap ops))) = true.
Proof.
  induction ops as [|o ops IH] using rev_ind.
  - cbn. split; [intros (b & H); discriminate|discriminate].
  - rewrite run_snoc. set (s := run cap ops) in *. assert (D : {o = Receive} + {o <> Receive}) by (destruct o; auto; right; discriminate). destruct D as [->|D].
    + cbn [step]. destruct (c_app s) eqn:P; try exact IH. destruct (c_in s) as [|f i]; [exact IH|]. unfold receive.
      assert (Z : existsb ends (got (c_log s)) = false) by (destruct (existsb ends (got (c_log s))); [|reflexivity]; destruct IH as [_ IH]; destruct IH as (b & H); [reflexivity|congruence]).
      assert (GL : forall x, got (c_log s ++ [Got x]) = got (c_log s) ++ [x]) by (intros x; unfold got; rewrite flat_map_app; reflexivity).
      destruct f as [m| | |]; cbn [say set_in c_queue c_log].
      * destruct (room cap (c_queue s)); cbn [set_queue set_app c_log]; unfold say, set_in; cbn [c_log]; rewrite GL, existsb_snoc, Z; cbn; unfold gone; cbn; rewrite ?P; (split; [intros (b & H)|]; discriminate).
      * unfold gone, say, set_in. cbn [c_app c_log]. rewrite P, GL, existsb_snoc, Z. cbn. split; [intros (b & H)|]; discriminate.
      * unfold gone. destruct (cancel_got (set_app (Over true) (say (Got Broken) (set_in i s)))) as (E1 & E2 & _). unfold say, set_in in *. cbn [c_log c_app c_queue c_disp set_app c_in] in *. unfold set_app in *. cbn [c_log c_app c_queue c_disp c_in] in *. rewrite E1, E2, GL, existsb_snoc, Z. cbn. split; [reflexivity|]. intros _. eexists. reflexivity.
      * unfold gone. destruct (cancel_got (set_app (Over false) (say (Got Disconnect) (set_in i s)))) as (E1 & E2 & _). unfold say, set_in in *. cbn [c_log c_app c_queue c_disp set_app c_in] in *. unfold set_app in *. cbn [c_log c_app c_queue c_disp c_in] in *. rewrite E1, E2, GL, existsb_snoc, Z. cbn. split; [reflexivity|]. intros _. eexists. reflexivity.
    + destruct (step_got cap s o D) as [E1 E2]. rewrite E1, E2. exact IH.
Qed.

(** ** Everything that came is dealt with *)

(** The steps of the loop and of the session that handle frames. Renders, and sending what can be sent, may come between them. *)
Definition forward (o : op) : bool := match o with Receive | Resume | Take | Deliver => true | _ => false end.
Definition harmless (o : op) : bool := match o with Render u _ => u_json u | Send taken => taken | _ => false end.
(** So the connection goes on: each of these steps does something. *)
Inductive goes_on (cap : nat) : conn -> list op -> Prop :=
| On_nil s : goes_on cap s []
| On_forward s o l : forward o = true -> step cap s o <> s -> goes_on cap (step cap s o) l -> goes_on cap s (o :: l)
| On_harmless s o l : harmless o = true -> goes_on cap (step cap s o) l -> goes_on cap s (o :: l).
(** The session is at work, and what it is sending can be sent. *)
Definition at_work (s : conn) : Prop := exists ts out n, c_disp s = Serving ts out n /\ match out with Some u => u_json u = true | None => True end.

Definition work (s : conn) : nat :=
  4 * length (c_in s) + 3 * length (waits (c_app s)) + 2 * length (c_queue s) + length (match c_disp s with Serving ts _ _ => ts | _ => [] end).
Definition fine (s : conn) : Prop :=
  (gone s /\ ~ lasts s) \/ (at_work s /\ c_app s <> Opening /\ ~ gone s /\ Forall (fun m => m_target m = Usable) (pending s ++ events (c_in s))).

Lemma fine_gone_forward cap s o : gone s -> ~ lasts s -> forward o = true -> step cap s o = s.
Proof.
  intros (b & G) L F. unfold lasts in L. destruct o; try discriminate; cbn [step]; rewrite ?G; try reflexivity; destruct (c_disp s); try reflexivity; destruct L; exact I.
Qed.
Lemma cancel_work s : match c_disp s with Serving _ _ _ => True | _ => False end -> c_in (cancel s) = c_in s /\ c_app (cancel s) = c_app s /\ c_queue (cancel s) = c_queue s /\ ~ lasts (cancel s) /\ work (cancel s) <= work s.
Proof.
  unfold cancel. destruct (c_disp s) eqn:Q; intros H; try contradiction. cbn. repeat split; auto. unfold work. cbn [c_in c_app c_queue c_disp say set_disp]. rewrite Q. cbn [length]. lia.
Qed.

Lemma forward_step cap s o : fine s -> ~ gone s -> forward o = true ->
  step cap s o = s \/ (fine (step cap s o) /\ work (step cap s o) < work s).
Proof.
  intros [[G _]|((ts & out & n & Q & J) & P & N & U)] N' F; [contradiction|]. clear N'.
  unfold pending in U. rewrite Q in U. destruct o; try discriminate; cbn [step].
  - destruct (c_app s) eqn:A; auto. destruct (c_in s) as [|f i] eqn:I; [auto|]. right. unfold receive. cbn [say set_in c_queue]. cbn [waits] in U. rewrite app_nil_r in U.
    assert (K : forall b, let s' := cancel (set_app (Over b) (Conn i (c_app s) (c_queue s) (c_disp s) (c_log s ++ [Got f]))) in fine s' /\ work s' < work s).
    { intros b. cbv zeta. destruct (cancel_work (set_app (Over b) (Conn i (c_app s) (c_queue s) (c_disp s) (c_log s ++ [Got f])))) as (E1 & E2 & E3 & E4 & E5); [cbn; rewrite Q; exact Logic.I|]. split.
      - left. split; [exists b; rewrite E2; reflexivity|exact E4].
      - eapply Nat.le_lt_trans; [exact E5|]. unfold work. cbn [c_in c_app c_queue c_disp set_app waits]. rewrite I, A. cbn [length waits]. lia. }
    destruct f as [m| | |].
    + destruct (room cap (c_queue s)) eqn:R.
      * split.
        -- right. cbn [set_queue c_app c_disp c_in]. split; [exists ts, out, n; auto|]. split; [cbn; rewrite A; discriminate|]. split; [unfold gone; cbn; rewrite A; intros (b & H); discriminate|].
           unfold pending. cbn [set_queue say set_in c_app c_disp c_in c_queue]. rewrite Q, A. cbn [waits]. rewrite app_nil_r. cbn [events flat_map app] in U. fold (events i) in U.
           rewrite !Forall_app in *. destruct U as [[U1 U2] U3]. inversion U3; subst. repeat split; auto.
        -- unfold work. cbn [set_queue say set_in c_in c_app c_queue c_disp]. rewrite I, A, Q, app_length. cbn [length waits]. lia.
      * split.
        -- right. cbn [set_app c_app c_disp c_in]. split; [exists ts, out, n; auto|]. split; [discriminate|]. split; [unfold gone; cbn; intros (b & H); discriminate|].
           unfold pending. cbn [set_app say set_in c_app c_disp c_in c_queue]. rewrite Q. cbn [waits]. cbn [events flat_map app] in U. fold (events i) in U.
           rewrite !Forall_app in *. destruct U as [[U1 U2] U3]. inversion U3; subst. repeat split; auto.
        -- unfold work. cbn [set_app say set_in c_in c_app c_queue c_disp]. rewrite I, A, Q. cbn [length waits]. lia.
    + split.
      * right. cbn [c_app c_disp c_in]. split; [exists ts, out, n; auto|]. split; [cbn; rewrite A; discriminate|]. split; [unfold gone; cbn; rewrite A; intros (b & H); discriminate|].
        unfold pending. cbn [say set_in c_app c_disp c_in c_queue]. rewrite Q, A. cbn [waits]. rewrite app_nil_r. exact U.
      * unfold work. cbn [say set_in c_in c_app c_queue c_disp]. rewrite I, A. cbn [length waits]. lia.
    + apply K.
    + apply K.
  - destruct (c_app s) eqn:A; auto. destruct (room cap (c_queue s)) eqn:R; [|auto]. right. split.
    + right. cbn [set_app set_queue c_app c_disp c_in]. split; [exists ts, out, n; auto|]. split; [discriminate|]. split; [intros (b & H); discriminate|].
      unfold pending. cbn [set_app set_queue c_app c_disp c_in c_queue waits]. rewrite Q, app_nil_r. exact U.
    + unfold work. cbn [set_app set_queue c_in c_app c_queue c_disp]. rewrite A, app_length. cbn [length waits]. lia.
  - rewrite Q. destruct (c_queue s) as [|m q] eqn:E; [auto|]. right. split.
    + right. split; [exists (ts ++ [m]), out, n; auto|]. split; [exact P|]. split; [exact N|].
      unfold pending. cbn [set_disp set_queue c_app c_disp c_in c_queue]. rewrite <- !app_assoc in *. exact U.
    + unfold work. cbn [set_disp set_queue c_in c_app c_queue c_disp]. rewrite Q, E, app_length. cbn [length]. lia.
  - rewrite Q. destruct ts as [|m ts]; [auto|]. right. cbn [app] in U. inversion U as [|x l X U']; subst.
    assert (Y : usable m = true) by (unfold usable; rewrite X; reflexivity). rewrite Y. split.
    + right. split; [exists ts, out, n; auto|]. split; [exact P|]. split; [exact N|]. unfold pending. cbn [say set_disp c_app c_disp c_in c_queue]. exact U'.
    + unfold work. cbn [say set_disp c_in c_app c_queue c_disp]. rewrite Q. cbn [length]. lia.
Qed.
Lemma harmless_step cap s o : fine s -> harmless o = true -> fine (step cap s o) /\ work (step cap s o) <= work s.
Proof.
  intros V H. destruct o; try discriminate; cbn [step].
  - destruct (c_disp s) as [|ts [u'|] n'| | |] eqn:Q; auto. destruct V as [[G L]|(W & P & N & U)]; [destruct L; unfold lasts; rewrite Q; exact I|]. split.
    + right. split; [exists ts, (Some u), n; auto|]. split; [exact P|]. split; [exact N|]. unfold pending in *. rewrite Q in U. exact U.
    + unfold work. cbn [say set_disp c_in c_app c_queue c_disp]. rewrite Q. lia.
  - destruct (c_disp s) as [|ts [u'|] n'| | |] eqn:Q; auto. destruct V as [[G L]|((ts' & out & n & Q' & J) & P & N & U)]; [destruct L; unfold lasts; rewrite Q; exact I|].
    rewrite Q in Q'. injection Q' as <- <- <-. cbn [harmless] in H. rewrite J, H. destruct (c_app s) eqn:A; try contradiction; cbn [andb]; (split;
    [right; split; [exists ts, None, n'; auto|]; (split; [cbn; rewrite A; discriminate|]); (split; [unfold gone; cbn; exact N|]); unfold pending in *; rewrite Q, A in U; cbn [say set_disp c_app c_disp c_in c_queue]; rewrite A; exact U
    |unfold work; cbn [say set_disp c_in c_app c_queue c_disp]; rewrite Q; lia]).
Qed.

Lemma goes_on_bound cap s l : goes_on cap s l -> fine s -> length (filter forward l) <= work s /\ fine (fold_left (step cap) l s).
Proof.
  induction 1 as [s|s o l F E G IH|s o l H G IH]; intros V; cbn [filter fold_left length].
  - split; [lia|exact V].
  - rewrite F. cbn [length]. assert (K : {c_app s = Over true} + {c_app s = Over false} + {~ gone s}).
    { destruct (c_app s) as [| | |[]] eqn:A; auto; right; unfold gone; rewrite A; intros (b & X); discriminate. }
    assert (NG : ~ gone s).
    { intros X. destruct V as [[Y1 Y2]|(_ & _ & Y & _)]; [|contradiction]. apply E. apply fine_gone_forward; auto. }
    destruct (forward_step cap s o V NG F) as [X|[X Y]]; [contradiction|]. destruct (IH X) as [I1 I2]. split; [lia|exact I2].
  - destruct (harmless_step cap s o V H) as [X Y]. destruct (IH X) as [I1 I2]. split; [|exact I2].
    assert (forward o = false) as -> by (destruct o; try discriminate; reflexivity). lia.
Qed.
Lemma goes_on_came cap s l : goes_on cap s l -> came l = [].
Proof. induction 1 as [s|s o l F E G IH|s o l H G IH]; [reflexivity|..]; unfold came in *; cbn [flat_map]; rewrite IH; destruct o; try discriminate; reflexivity. Qed.

(** At rest, everything received was delivered, or the connection is over. *)
Lemma at_rest cap s : fine s -> (forall o, forward o = true -> step cap s o = s) -> ~ gone s -> c_in s = [] /\ pending s = [].
Proof.
  intros [[G _]|((ts & out & n & Q & J) & P & N & U)] R N0; [contradiction|]. clear N0.
  pose proof (R Deliver eq_refl) as RD. pose proof (R Take eq_refl) as RT. pose proof (R Resume eq_refl) as RR. pose proof (R Receive eq_refl) as RC. cbn [step] in *. rewrite Q in *. clear R.
  assert (T : c_queue s = []).
  { destruct (c_queue s) as [|m q] eqn:E; [reflexivity|]. apply (f_equal c_queue) in RT. cbn in RT. rewrite E in RT. apply (f_equal (@length _)) in RT. cbn in RT. lia. }
  assert (D : ts = []).
  { destruct ts as [|m ts]; [reflexivity|]. unfold pending in U. rewrite Q in U. cbn [app] in U. inversion U as [|x l X U']; subst. unfold usable in RD. rewrite X in RD.
    apply (f_equal c_disp) in RD. cbn in RD. rewrite Q in RD. injection RD as RD. apply (f_equal (@length _)) in RD. cbn in RD. lia. }
  destruct (c_app s) as [| |m|b] eqn:A.
  - congruence.
  - destruct (c_in s) as [|f i] eqn:I.
    + split; [reflexivity|]. unfold pending. rewrite Q, T, A, D. reflexivity.
    + exfalso. assert (X : c_in (receive cap f (set_in i s)) = i).
      { unfold receive. destruct f as [m| | |]; cbn [say set_in c_queue]; [destruct (room cap (c_queue s)); reflexivity|reflexivity|..];
        match goal with |- c_in (cancel ?x) = _ => destruct (cancel_got x) as (_ & _ & ->) end; reflexivity. }
      rewrite RC, I in X. apply (f_equal (@length _)) in X. cbn in X. lia.
  - exfalso. rewrite T in RR. unfold room in RR. cbn [length] in RR. destruct (Nat.eqb_spec cap 0) as [Z|Z]; cbn [orb] in RR.
    + apply (f_equal c_app) in RR. cbn in RR. congruence.
    + destruct (Nat.ltb_spec 0 cap); [|lia]. apply (f_equal c_app) in RR. cbn in RR. congruence.
  - exfalso. apply N. exists b. exact A.
Qed.

Lemma all_usable cap ops : (forall m, In m (events (came ops)) -> m_target m = Usable) -> lasts (run cap ops) ->
  Forall (fun m => m_target m = Usable) (pending (run cap ops) ++ events (c_in (run cap ops))).
Proof.
  intros U L. destruct (inv_run cap ops) as [A (r & B & B') _ _]. apply Forall_forall. intros m H. apply U. rewrite A. unfold events. rewrite flat_map_app. fold (events (got (c_log (run cap ops)))).
  fold (events (c_in (run cap ops))). rewrite B, (B' L). rewrite !in_app_iff in *. tauto.
Qed.

(** If the session is at work and every layout event has a target, then after finitely many steps of the loop and the session, in whatever order and with whatever
    renders in between, everything that came is dealt with: the connection is over if a disconnect (or something that is no message) came, and
    else all layout events have been delivered. A full queue only delays this. *)
Theorem C101_finish cap ops : let s := run cap ops in
  at_work s -> c_app s <> Opening -> (forall m, In m (events (came ops)) -> m_target m = Usable) ->
  exists bound, forall l, goes_on cap s l -> length (filter forward l) <= bound /\
    let s' := run cap (ops ++ l) in
    (forall o, forward o = true -> step cap s' o = s') ->
    if existsb ends (came ops) then gone s' else ~ gone s' /\ delivered (c_log s') = events (came ops).
Proof.
  cbv zeta. intros W P U. set (s := run cap ops) in *. assert (L : lasts s) by (destruct W as (ts & out & n & Q & _); unfold lasts; rewrite Q; exact I).
  assert (NG : ~ gone s) by (intros G; apply (f_gone _ (fin_run cap ops) G); exact L).
  assert (V : fine s) by (right; repeat (split; [assumption|]); apply all_usable; assumption).
  exists (work s). intros l G. destruct (goes_on_bound cap s l G V) as [B V']. split; [exact B|]. intros R.
  assert (E : run cap (ops ++ l) = fold_left (step cap) l s) by (unfold run; rewrite fold_left_app; reflexivity).
  assert (C : came (ops ++ l) = came ops) by (unfold came; rewrite flat_map_app; fold (came l); rewrite (goes_on_came _ _ _ G), app_nil_r; reflexivity).
  rewrite <- E in V'. pose proof (inv_run cap (ops ++ l)) as [A (r & D & D') _ _]. rewrite C in A. pose proof (gone_iff cap (ops ++ l)) as GI. set (s' := run cap (ops ++ l)) in *.
  destruct (existsb ends (came ops)) eqn:X.
  - destruct (c_app s') as [| | |b] eqn:AP; try (exists b; exact AP); exfalso; (assert (N : ~ gone s') by (unfold gone; rewrite AP; intros (b & H); discriminate));
    destruct (at_rest cap s' V' R N) as [I1 I2]; rewrite I1, app_nil_r in A; apply N, GI; rewrite <- A; exact X.
  - assert (N : ~ gone s').
    { intros H. apply GI in H. rewrite A, existsb_app, H in X. discriminate. }
    split; [exact N|]. destruct (at_rest cap s' V' R N) as [I1 I2]. rewrite I1, app_nil_r in A. rewrite A, D, D', I2, app_nil_r; [reflexivity|].
    destruct V' as [[H _]|((ts & out & n & Q & _) & _)]; [contradiction|]. unfold lasts. rewrite Q. exact I.
Qed.
Print Assumptions C101_finish.

(** In particular a disconnect ends the connection of a session at work. *)
Theorem C74_ends_partial cap ops : let s := run cap ops in
  at_work s -> c_app s <> Opening -> (forall m, In m (events (came ops)) -> m_target m = Usable) -> In Disconnect (came ops) ->
  exists bound, forall l, goes_on cap s l -> length (filter forward l) <= bound /\
    let s' := run cap (ops ++ l) in (forall o, forward o = true -> step cap s' o = s') -> gone s'.
Proof.
  cbv zeta. intros W P U D. destruct (C101_finish cap ops W P U) as (bound & H). exists bound. intros l G. destruct (H l G) as [B R]. split; [exact B|]. intros Q. specialize (R Q).
  assert (E : existsb ends (came ops) = true) by (apply existsb_exists; exists Disconnect; auto). rewrite E in R. exact R.
Qed.
Print Assumptions C74_ends_partial.

(** A queue of one place, three events, a disconnect: all at the beginning. *)
Example C101_finish_example :
  let e i := Event (Message i Usable) in
  let ops := [Accept; Start true; Arrive (e 1); Arrive Unknown; Arrive (e 2); Arrive (e 3); Receive; Receive; Receive] in
  let l := [Take; Resume; Render (Update 0 true) 3; Deliver; Receive; Take; Send true; Resume; Deliver; Take; Deliver] in
  at_work (run 1 ops) /\ c_app (run 1 ops) = Putting (Message 2 Usable) /\ goes_on 1 (run 1 ops) l /\ (forall o, forward o = true -> step 1 (run 1 (ops ++ l)) o = run 1 (ops ++ l)) /\
  map m_id (delivered (c_log (run 1 (ops ++ l)))) = [1; 2; 3].
Proof.
  cbv zeta. split; [exists [], None, 1; split; [reflexivity|exact I]|]. split; [reflexivity|]. split.
  - repeat first [apply On_forward; [reflexivity|vm_compute; discriminate|vm_compute] | apply On_harmless; [reflexivity|vm_compute]]. constructor.
  - split; [|reflexivity]. intros o F. destruct o; try discriminate F; vm_compute; reflexivity.
Qed.

(** When the application has returned, the session is being left or has ended, and unmounting can always be brought to its end. *)
Theorem C101_gone cap ops : let s := run cap ops in gone s ->
  ~ lasts s /\ exists k w n, c_disp (run cap (ops ++ TasksEnd :: repeat Unmount k)) = Stopped w n.
Proof.
  cbv zeta. intros G. pose proof (f_gone _ (fin_run cap ops) G) as L. split; [exact L|].
  assert (E : forall k, run cap (ops ++ TasksEnd :: repeat Unmount k) = fold_left (step cap) (repeat Unmount k) (step cap (run cap ops) TasksEnd)) by (intros k; unfold run; rewrite fold_left_app; reflexivity).
  assert (K : forall n s w, c_disp s = Unmounting w n -> exists k w' n', c_disp (fold_left (step cap) (repeat Unmount k) s) = Stopped w' n').
  { assert (ST : forall w s, c_disp (stop w 0 s) = Stopped w 0) by (intros w s; unfold stop; destruct w; reflexivity).
    induction n as [|n IH]; intros s w D.
    - exists 1, w, 0. cbn [repeat fold_left step]. rewrite D. apply ST.
    - destruct n as [|n]; [exists 1, w, 0; cbn [repeat fold_left step]; rewrite D; apply ST|].
      destruct (IH (step cap s Unmount) w) as (k & w' & n' & H); [cbn [step]; rewrite D; reflexivity|]. exists (S k), w', n'. cbn [repeat fold_left]. exact H. }
  set (s := run cap ops) in *. destruct (c_disp s) eqn:Q.
  - destruct L. unfold lasts. rewrite Q. exact I.
  - destruct L. unfold lasts. rewrite Q. exact I.
  - destruct (K mounted (step cap s TasksEnd) w) as (k & w' & n' & H); [cbn [step]; rewrite Q; reflexivity|]. exists k, w', n'. rewrite E. exact H.
  - destruct (K mounted (step cap s TasksEnd) w) as (k & w' & n' & H); [cbn [step]; rewrite Q; exact Q|]. exists k, w', n'. rewrite E. exact H.
  - exists 0, w, mounted. rewrite E. cbn [repeat fold_left step]. rewrite Q. exact Q.
Qed.
Print Assumptions C101_gone.

(** ** A session that failed *)

(** Nothing more is delivered or sent. *)
Lemma ended_step cap s o : ~ lasts s -> ~ lasts (step cap s o) /\ delivered (c_log (step cap s o)) = delivered (c_log s) /\ sent (c_log (step cap s o)) = sent (c_log s).
Proof.
  assert (K : forall s0, ~ lasts s0 -> ~ lasts (cancel s0) /\ delivered (c_log (cancel s0)) = delivered (c_log s0) /\ sent (c_log (cancel s0)) = sent (c_log s0)).
  { intros s0 L. unfold lasts in *. unfold cancel. destruct (c_disp s0) eqn:Q; try (destruct L; exact I); unfold stop; cbn; rewrite ?Q; auto. }
  assert (S1 : forall w n s0, ~ lasts (stop w n s0) /\ delivered (c_log (stop w n s0)) = delivered (c_log s0) /\ sent (c_log (stop w n s0)) = sent (c_log s0)).
  { intros w n s0. unfold stop, lasts. destruct w; cbn; unfold delivered, sent; rewrite ?flat_map_app; cbn; rewrite ?app_nil_r; auto. }
  intros L. unfold lasts in L. destruct o; cbn [step]; try (unfold lasts; cbn; auto; fail).
  - destruct (c_app s); unfold lasts; cbn; auto.
  - destruct (c_app s); try (unfold lasts; auto; fail). destruct (c_in s) as [|f i]; [unfold lasts; auto|]. unfold receive.
    assert (Y : forall x, delivered (c_log s ++ [Got x]) = delivered (c_log s) /\ sent (c_log s ++ [Got x]) = sent (c_log s)) by (intros x; unfold delivered, sent; rewrite !flat_map_app; cbn; rewrite !app_nil_r; auto).
    destruct f as [m| | |]; cbn [say set_in c_queue].
    + destruct (room cap (c_queue s)); unfold lasts; cbn [set_queue set_app c_log c_disp]; unfold say, set_in; cbn [c_log c_disp]; destruct (Y (Event m)) as [-> ->]; auto.
    + unfold lasts. unfold say, set_in. cbn [c_log c_disp]. destruct (Y Unknown) as [-> ->]. auto.
    + destruct (Y Broken) as [Y1 Y2]. destruct (K (set_app (Over true) (Conn i (c_app s) (c_queue s) (c_disp s) (c_log s ++ [Got Broken])))) as (K1 & K2 & K3); [unfold lasts; cbn; exact L|]. cbn [set_app c_log] in K2, K3. rewrite Y1 in K2. rewrite Y2 in K3. auto.
    + destruct (Y Disconnect) as [Y1 Y2]. destruct (K (set_app (Over false) (Conn i (c_app s) (c_queue s) (c_disp s) (c_log s ++ [Got Disconnect])))) as (K1 & K2 & K3); [unfold lasts; cbn; exact L|]. cbn [set_app c_log] in K2, K3. rewrite Y1 in K2. rewrite Y2 in K3. auto.
  - destruct (c_app s); try (unfold lasts; auto; fail). destruct (room cap (c_queue s)); unfold lasts; cbn; auto.
  - destruct (c_disp s) eqn:Q; try (unfold lasts; rewrite Q; auto; fail). destruct L. exact I.
  - destruct (c_disp s) eqn:Q; try (unfold lasts; rewrite Q; auto; fail). destruct L. exact I.
  - destruct (c_disp s) eqn:Q; try (unfold lasts; rewrite Q; auto; fail). destruct L. exact I.
  - destruct (c_disp s) eqn:Q; try (unfold lasts; rewrite Q; auto; fail). destruct L. exact I.
  - destruct (c_disp s) eqn:Q; try (unfold lasts; rewrite Q; auto; fail). destruct L. exact I.
  - destruct (c_disp s) eqn:Q; try (unfold lasts; rewrite Q; auto; fail). destruct L. exact I.
  - destruct (c_disp s) eqn:Q; try (unfold lasts; rewrite Q; auto; fail). unfold lasts. cbn. auto.
  - destruct (c_disp s) as [| | |w [|[|n]]|] eqn:Q; try (unfold lasts; rewrite Q; auto; fail); try apply S1. unfold lasts. cbn. auto.
Qed.
Lemma ended_run cap ops ops' : ~ lasts (run cap ops) -> let s := run cap ops in let s' := run cap (ops ++ ops') in
  ~ lasts s' /\ delivered (c_log s') = delivered (c_log s) /\ sent (c_log s') = sent (c_log s).
Proof.
  cbv zeta. intros L. induction ops' as [|o l IH] using rev_ind; [rewrite app_nil_r; auto|]. rewrite app_assoc, run_snoc. destruct IH as (A & B & C). destruct (ended_step cap _ o A) as (A' & B' & C'). split; [exact A'|]. split; congruence.
Qed.
(** Finding: when a session has failed, its connection stays open: as long as the client does not close it, the client is not told, nothing is sent to it and its events are
    not delivered. So does an update that cannot be written as JSON (an attribute that is a set, say) stop the page for good. *)
Theorem C101_silent_refuted : exists cap ops, came ops = [] /\ rendered (c_log (run cap ops)) <> [] /\
  forall ops', existsb ends (came ops') = false -> let s := run cap (ops ++ ops') in
  ~ gone s /\ delivered (c_log s) = [] /\ sent (c_log s) = [].
Proof.
  exists 0, [Accept; Start true; Render (Update 0 false) 2; Send true]. split; [reflexivity|]. split; [discriminate|]. intros ops' E. cbv zeta. set (ops := [Accept; Start true; Render (Update 0 false) 2; Send true]) in *.
  destruct (ended_run 0 ops ops') as (A & B & C); [intros H; exact H|]. rewrite B, C. split; [|split; reflexivity].
  intros G. apply gone_iff in G. pose proof (i_came _ _ (inv_run 0 (ops ++ ops'))) as D. unfold came in D. rewrite flat_map_app in D. fold (came ops') in D. change (came ops' = got (c_log (run 0 (ops ++ ops'))) ++ c_in (run 0 (ops ++ ops'))) in D.
  rewrite D, existsb_app, G in E. discriminate.
Qed.
Print Assumptions C101_silent_refuted.

(** Finding: a layout event without target ends the session (but not the connection), so that later events are not delivered. *)
Theorem C101_malformed_refuted : exists cap ops, came ops = [Event (Message 0 Missing); Event (Message 1 Usable)] /\ c_in (run cap ops) = [] /\
  forall ops', existsb ends (came ops') = false -> delivered (c_log (run cap (ops ++ ops'))) = [].
Proof.
  exists 0, [Accept; Start true; Arrive (Event (Message 0 Missing)); Arrive (Event (Message 1 Usable)); Receive; Receive; Take; Take; Deliver]. split; [reflexivity|]. split; [reflexivity|]. intros ops' _.
  match goal with |- delivered (c_log (run 0 (?o ++ _))) = _ => destruct (ended_run 0 o ops') as (_ & B & _); [intros H; exact H|] end. rewrite B. reflexivity.
Qed.
Print Assumptions C101_malformed_refuted.

(** Finding: the dispatcher is started before the connection is accepted. If accepting takes longer than the first render, the update is refused and the
    session is over before it began, although everything could be sent. *)
Theorem C101_early_refuted : exists cap ops, came ops = [] /\ (forall b, In (Send b) ops -> b = true) /\ In Accept ops /\
  (forall u, In u (rendered (c_log (run cap ops))) -> u_json u = true) /\ ~ lasts (run cap ops) /\ sent (c_log (run cap ops)) = [].
Proof.
  exists 0, [Start true; Render (Update 0 true) 2; Send true; Accept]. split; [reflexivity|]. split; [intros b H; cbn in H; repeat (destruct H as [H|H]; [congruence|]); destruct H|].
  split; [cbn; tauto|]. split; [intros u H; vm_compute in H; destruct H as [<-|[]]; reflexivity|]. split; [intros H; exact H|reflexivity].
Qed.
Print Assumptions C101_early_refuted.

(** A session from its beginning to its end: an event, two updates, a disconnect with a component still to be unmounted. *)
Example C101_example :
  let ops := [Start true; Accept; Render (Update 0 true) 2; Send true; Arrive (Event (Message 7 Usable)); Receive; Take; Deliver; Render (Update 1 true) 3; Arrive Disconnect; Send true; Receive;
              TasksEnd; Unmount; Unmount; Unmount] in
  let s := run 2 ops in
  gone s /\ c_disp s = Stopped Cancelled 0 /\ map m_id (delivered (c_log s)) = [7] /\ map u_id (sent (c_log s)) = [0; 1] /\ (forall w, In (Ending w) (c_log s) -> w = Cancelled) /\
  exists l1 l2, c_log s = l1 ++ Ending Cancelled :: l2.
Proof.
  cbv zeta. split; [exists false; reflexivity|]. split; [reflexivity|]. split; [reflexivity|]. split; [reflexivity|]. split.
  - intros w H. vm_compute in H. repeat (destruct H as [H|H]; [congruence|]). destruct H.
  - eexists [_; _; _; _; _; _; _], []. vm_compute. reflexivity.
Qed.
