(** * Leaving a layout, and property C96
    /repo/src/reactpy/core/layout.py:100-128 ([Layout.__aexit__]), on top of AsyncTree.v (renders, components, effects) with the
    tasks that run event handlers (layout.py:130-190); called when the connection ends, /repo/src/reactpy/core/serve.py:34-37. *)
From Coq Require Import Arith Bool Lia List Permutation.
From Verif Require Import Dict EffectModel EffectProps AsyncTree AsyncTreeFacts AsyncTreeInv AsyncTreeProps AsyncTreeLocks.
Import ListNotations.

(** ** Model *)

(** A task of [_process_event_queue] (layout.py:152-190): running a handler or waiting for an event; cancelled and not yet told;
    ended. *)
Record hd := Hd { h_busy : bool; h_cancel : bool; h_ended : bool }.

(** Where [__aexit__] is: not called; waiting for render task [k], with the tasks [rest] of the set to come and the size the set had
    (lines 106-109); waiting for handler task [h] (lines 111-114); returned; raised. [root]: the state that was registered for the
    root when it was called (lines 103-104). *)
Inductive phase := Open | AwaitR (root k : nat) (rest : list nat) (size : nat) | AwaitH (root h : nat) (rest : list nat) | Closed | Raised.
Record session := Session { z_sys : sys; z_handlers : list hd; z_phase : phase }.
Definition set_sys v z := Session v (z_handlers z) (z_phase z).
Definition set_handlers v z := Session (z_sys z) v (z_phase z).
Definition set_phase v z := Session (z_sys z) (z_handlers z) v.

(** Lines 116-128. As in AsyncTree.v unmounting takes no time. *)
Definition finish (root : nat) (z : session) : session :=
  match unmount (length (y_reg (z_sys z))) [root] (z_sys z) with
  | (true, s) => set_phase Closed (set_sys s z)
  | (false, s) => set_phase Raised (set_sys s z)
  end.
(** Lines 111-114, up to the next suspension: [await] of an ended task does not suspend. *)
Fixpoint hloop (root : nat) (todo : list nat) (z : session) : session :=
  match todo with
  | [] => finish root z
  | h :: r =>
      match nth_error (z_handlers z) h with
      | Some x => if h_ended x then hloop root r z
                  else set_phase (AwaitH root h r) (set_handlers (put (z_handlers z) h (Hd (h_busy x) true false)) z)
      | None => hloop root r z
      end
  end.
(** Lines 106-109: [await] of a task that raised raises; [CancelledError] is suppressed. *)
Fixpoint rloop (root : nat) (todo : list nat) (z : session) : session :=
  match todo with
  | [] => hloop root (seq 0 (length (z_handlers z))) z
  | k :: r =>
      let z1 := set_sys (cancel k (z_sys z)) z in
      match nth_error (y_tasks (z_sys z1)) k with
      | Some t => match t_pc t with
                  | Done | Cancelled => rloop root r z1
                  | Failed => set_phase Raised z1
                  | _ => set_phase (AwaitR root k r (length (y_tasks (z_sys z1)))) z1
                  end
      | None => rloop root r z1
      end
  end.

(** What happens to a handler task: it takes an event, its handler returns, it ends with [CancelledError], or the handler catches
    the [CancelledError] and the loop of line 155 goes on. *)
Inductive hevent := Takes | Returns | Obeys | Catches.
Definition handle (e : hevent) (x : hd) : hd :=
  if h_ended x then x else
  match e with
  | Takes => Hd true (h_cancel x) false
  | Returns => Hd false (h_cancel x) false
  | Obeys => if h_cancel x then Hd (h_busy x) false true else x
  | Catches => if h_cancel x && h_busy x then Hd (h_busy x) false false else x
  end.

(** [Leave order]: [__aexit__] is called; [order] is the order in which the set of render tasks is gone through, which holds the tasks
    that [render()] has not taken (layout.py:220-222). [Resume]: what it waits for may have ended. Iterating a set whose size has
    changed raises [RuntimeError]; sizes change by new tasks, since [render()] takes no more. After the end nothing is followed. *)
Inductive zop := Base (o : op) | Arrive | Handle (h : nat) (e : hevent) | Leave (order : list nat) | Resume.
Section View.
Variable view : nat -> nat -> list (nat * nat).
Definition zstep (z : session) (o : zop) : session :=
  match z_phase z with
  | Closed | Raised => z
  | p =>
      match o with
      | Base o => set_sys (step view (z_sys z) o) z
      | Arrive => match p with Open => set_handlers (z_handlers z ++ [Hd false false false]) z | _ => z end
      | Handle h e => match nth_error (z_handlers z) h with Some x => set_handlers (put (z_handlers z) h (handle e x)) z | None => z end
      | Leave order =>
          match p with
          | Open => match dget 0 (y_reg (z_sys z)) with Some root => rloop root order z | None => set_phase Raised z end
          | _ => z
          end
      | Resume =>
          match p with
          | AwaitR root k r n =>
              match nth_error (y_tasks (z_sys z)) k with
              | Some t => match t_pc t with
                          | Done | Cancelled => if Nat.eqb (length (y_tasks (z_sys z))) n then rloop root r z else set_phase Raised z
                          | Failed => set_phase Raised z
                          | _ => z
                          end
              | None => z
              end
          | AwaitH root h r => match nth_error (z_handlers z) h with Some x => if h_ended x then hloop root r z else z | None => z end
          | _ => z
          end
      end
  end.
Definition zrun (z : session) (l : list zop) : session := fold_left zstep l z.
End View.

(** ** Specification *)

(** Everything has ended: renders, handlers, components and their effects. *)
Definition over (z : session) : Prop :=
  (forall k t, nth_error (y_tasks (z_sys z)) k = Some t -> finished t = true) /\ (forall h x, nth_error (z_handlers z) h = Some x -> h_ended x = true) /\
  (forall c, registered (z_sys z) c = false) /\ (forall c, y_eff (z_sys z) c = false).
(** Nothing changes a state and no handler catches a [CancelledError]. *)
Definition benign (o : zop) : Prop := match o with Base (SetState _) => False | Handle _ Catches => False | _ => True end.
(** What is left to wait for. *)
Definition left_over (z : session) : nat :=
  match z_phase z with
  | AwaitR _ k r _ => match nth_error (y_tasks (z_sys z)) k with Some t => if finished t then 0 else 1 | None => 0 end + 2 * length r + 2 * length (z_handlers z) + 1
  | AwaitH _ h r => match nth_error (z_handlers z) h with Some x => if h_ended x then 0 else 1 | None => 0 end + 2 * length r + 1
  | _ => 0
  end.

(** ** Failed renders end the session *)
Definition nf (s s' : sys) : Prop :=
  (y_over s = true -> y_over s' = true) /\
  forall k t', nth_error (y_tasks s') k = Some t' -> t_pc t' = Failed -> y_over s' = true \/ exists t, nth_error (y_tasks s) k = Some t /\ t_pc t = Failed.
Lemma nf_refl s : nf s s.
Proof. split; eauto. Qed.
Lemma nf_trans a b c : nf a b -> nf b c -> nf a c.
Proof.
  intros [A1 A2] [B1 B2]. split; auto. intros k t H F. destruct (B2 _ _ H F) as [?|(u & U & Fu)]; auto. destruct (A2 _ _ U Fu); auto.
Qed.
Lemma nf_same s s' : y_tasks s' = y_tasks s -> y_over s' = y_over s -> nf s s'.
Proof. intros T O. split; [congruence|]. intros k t. rewrite T. eauto. Qed.
Lemma nf_put s s' k t u : nth_error (y_tasks s) k = Some t -> y_tasks s' = put (y_tasks s) k u -> y_over s' = y_over s -> (t_pc u = Failed -> t_pc t = Failed) -> nf s s'.
Proof.
  intros K T O P. split; [congruence|]. intros j x H F. rewrite T in H. destruct (Nat.eq_dec k j) as [->|N].
  - rewrite put_same in H by (apply nth_error_Some; congruence). injection H as <-. right. eauto.
  - rewrite put_other in H by exact N. eauto.
Qed.
Lemma set_pc_nf k p s : p <> Failed -> nf s (set_pc k p s).
Proof. intros N. unfold set_pc. destruct (nth_error (y_tasks s) k) eqn:E; [|apply nf_refl]. eapply nf_put; [exact E|reflexivity|reflexivity|]. cbn. congruence. Qed.
Lemma cancel_nf k s : nf s (cancel k s).
Proof.
  unfold cancel. destruct (nth_error (y_tasks s) k) eqn:E; [|apply nf_refl]. destruct (finished t); [apply nf_refl|].
  eapply nf_put; [exact E|reflexivity|reflexivity|]. auto.
Qed.
Lemma modify_nf i f s : nf s (modify i f s).
Proof. apply nf_same; reflexivity. Qed.
Lemma unmount_nf fuel stk s : nf s (snd (unmount fuel stk s)).
Proof. destruct (unmount_same fuel stk s) as (r & e & ->). apply nf_same; reflexivity. Qed.
Lemma claim_nf k n old st s : nf s (claim k n old st s).
Proof.
  unfold claim. set (s1 := set_reg _ s).
  assert (A : nf s s1) by (apply nf_same; reflexivity).
  match goal with |- nf s (match y_holder ?X _ with _ => _ end) => assert (B : nf s X) end.
  { destruct (y_by_id s1 (lcs s n)); [|exact A]. destruct (Nat.eqb n0 k); [exact A|].
    eapply nf_trans; [|apply cancel_nf]. apply nf_same; reflexivity. }
  match goal with |- nf s (match ?H with _ => _ end) => destruct H end.
  - eapply nf_trans; [exact B|]. apply set_pc_nf. discriminate.
  - eapply nf_trans; [exact B|]. eapply nf_trans; [|apply set_pc_nf; discriminate]. apply nf_same; reflexivity.
Qed.
Lemma enter_nf k old par index key ty st s : nf s (snd (enter k old par index key ty st s)).
Proof.
  unfold enter. destruct old as [o|]; cbn [snd].
  - destruct (Nat.eqb _ _); cbn [snd].
    + eapply nf_trans; [|apply claim_nf]. apply nf_same; reflexivity.
    + pose proof (unmount_nf (length (y_reg s)) [o] s) as U. destruct (unmount _ _ s) as [[|] s1]; cbn [snd] in *; [|exact U].
      eapply nf_trans; [exact U|]. eapply nf_trans; [|apply claim_nf]. apply nf_same; reflexivity.
  - eapply nf_trans; [|apply claim_nf]. apply nf_same; reflexivity.
Qed.
Lemma complete_nf k n s : nf s (complete k n s).
Proof.
  unfold complete. destruct (start_effects_eq k s) as [e ->]. eapply nf_trans; [|apply set_pc_nf; discriminate].
  apply nf_same; destruct (m_parent _); reflexivity.
Qed.
Lemma descend_nf k : forall st s, nf s (descend k st s).
Proof.
  induction st as [|f rest IH]; intros s; [apply nf_refl|]. cbn [descend].
  assert (C : forall s0, nf s s0 -> nf s (let s1 := release (lcs s0 (f_new f)) s0 in match rest with [] => complete k (f_new f) s1 | g :: _ => descend k rest (attach (f_new g) (f_new f) s1) end)).
  { intros s0 A. cbv zeta. destruct rest as [|g rest].
    - eapply nf_trans; [exact A|]. eapply nf_trans; [|apply complete_nf]. apply nf_same; reflexivity.
    - eapply nf_trans; [exact A|]. eapply nf_trans; [|apply IH]. apply nf_same; reflexivity. }
  destruct (f_todo f) as [|[i [key ty]] todo]; [apply C, nf_refl|].
  match goal with |- context [enter k ?old ?par i key ty ?st s] => pose proof (enter_nf k old par i key ty st s) as E; destruct (enter k old par i key ty st s) as [[|] s1] end; cbn [snd] in E; [exact E|].
  apply C. eapply nf_trans; [exact E|apply modify_nf].
Qed.
Lemma run_nf view k s : nf s (run_task view k s).
Proof.
  unfold run_task. destruct (nth_error (y_tasks s) k) as [t|] eqn:T; [|apply nf_refl]. destruct (finished t) eqn:F; [apply nf_refl|].
  assert (B : forall n old st s0, nf s s0 -> nf s (body view k n old st s0)).
  { intros n old st s0 A. eapply nf_trans; [exact A|]. unfold body. set (s1 := set_flag _ s0).
    match goal with |- nf s0 (if _ then match unmount _ _ ?X with _ => _ end else _) => assert (D : nf s0 X) end.
    { eapply nf_trans; [|apply modify_nf]. destruct (nth_error (y_tasks s1) k) as [u|] eqn:U; [|apply nf_same; reflexivity].
      apply nf_trans with s1; [apply nf_same; reflexivity|]. eapply nf_put; [exact U|reflexivity|reflexivity|]. auto. }
    destruct (nodupb _).
    - match goal with |- nf s0 (match unmount ?a ?b ?X with _ => _ end) => pose proof (unmount_nf a b X) as U; destruct (unmount a b X) as [[|] s4] end; cbn [snd] in U.
      + eapply nf_trans; [exact D|]. eapply nf_trans; [exact U|apply descend_nf].
      + eapply nf_trans; [exact D|]. eapply nf_trans; [exact U|]. eapply nf_trans; [apply modify_nf|apply descend_nf].
    - eapply nf_trans; [exact D|]. eapply nf_trans; [apply modify_nf|apply descend_nf]. }
  destruct (t_cancel t).
  - unfold unwind. eapply nf_trans; [|apply set_pc_nf; discriminate]. destruct (start_effects_eq k (set_holder (fun c => if existsb (Nat.eqb c) (held s (t_pc t)) then None else y_holder s c) s)) as [e ->]. apply nf_same; reflexivity.
  - destruct (t_pc t) as [|n old st|n old st| | |]; try apply nf_refl.
    + unfold start. destruct (m_parent _) as [p|].
      * destruct (alive s p); [apply enter_nf|]. split; [reflexivity|]. intros j u _ _. left. reflexivity.
      * apply enter_nf.
    + destruct (y_holder s (lcs s n)); [apply nf_refl|]. apply B. apply nf_same; reflexivity.
    + apply B, nf_refl.
Qed.
Lemma set_state_nf c s : nf s (set_state c s).
Proof.
  destruct (set_state_eq c s) as (vr & fl & by_ & ts & -> & D). split; [auto|]. cbn [y_tasks y_over]. intros k t H F.
  destruct D as [(_ & _ & _ & ->)|[(_ & _ & _ & _ & ->)|[(_ & _ & _ & _ & ->)|(_ & _ & x & _ & _ & ->)]]]; eauto.
  destruct (Nat.lt_ge_cases k (length (y_tasks s))) as [L|L]; [rewrite nth_error_app1 in H by exact L; eauto|].
  rewrite nth_error_app2 in H by exact L. destruct (k - length (y_tasks s)) as [|q]; [injection H as <-; discriminate|destruct q; discriminate].
Qed.
Lemma failed_over view ops k t : nth_error (y_tasks (run view ops)) k = Some t -> t_pc t = Failed -> y_over (run view ops) = true.
Proof.
  assert (A : nf init (run view ops)).
  { unfold run. generalize init. induction ops as [|o ops IH]; intros s; cbn [fold_left]; [apply nf_refl|].
    eapply nf_trans; [|apply IH]. destruct o; [apply set_state_nf|apply run_nf]. }
  intros H F. destruct (proj2 A _ _ H F) as [?|(u & U & Fu)]; auto. destruct k as [|[|k]]; cbn in U; try discriminate. injection U as <-. discriminate.
Qed.

(** ** Leaving at rest *)
Definition same (s0 s : sys) : Prop := y_states s = y_states s0 /\ y_reg s = y_reg s0 /\ forall c, y_eff s c = y_eff s0 c.
Definition clears (s : sys) (root : nat) : Prop :=
  exists s1, unmount (length (y_reg s)) [root] s = (true, s1) /\ forall c, registered s1 c = false /\ y_eff s1 c = false.
Lemma unmount_congr : forall fuel stk s s', same s s' ->
  fst (unmount fuel stk s') = fst (unmount fuel stk s) /\ y_reg (snd (unmount fuel stk s')) = y_reg (snd (unmount fuel stk s)) /\ forall c, y_eff (snd (unmount fuel stk s')) c = y_eff (snd (unmount fuel stk s)) c.
Proof.
  induction fuel as [|fuel IH]; intros [|i stk] s s' (A & B & C); cbn [unmount]; try (cbn; now auto).
  unfold lcs, state. rewrite A, B. destruct (dmem _ _); [|cbn; auto]. apply IH. split; [exact A|split; [reflexivity|]].
  intros c. cbn [y_eff set_eff set_reg]. unfold at_. now rewrite C.
Qed.
Lemma clears_congr s s' root : same s s' -> clears s root -> clears s' root.
Proof.
  intros S (s1 & U & D). destruct (unmount_congr (length (y_reg s)) [root] s s' S) as (F & R & E). rewrite U in *. cbn [fst snd] in *.
  destruct S as (_ & B & _). exists (snd (unmount (length (y_reg s')) [root] s')). rewrite B. split.
  - rewrite <- F. now destruct (unmount (length (y_reg s)) [root] s').
  - intros c. destruct (D c) as [D1 D2]. split; [unfold registered in *; now rewrite R|now rewrite E].
Qed.
Lemma rest_clears view s : (forall ty v, NoDup (map fst (view ty v))) -> rest_ view s -> exists root, dget 0 (y_reg s) = Some root /\ clears s root.
Proof.
  intros V (B & HO & E1 & r & m & R & E & SL & D). exists r. split; [exact R|].
  destruct D as [(K & O & L0 & ALL)|(l & d & TR & ONE & COV & E2 & SH & NL)].
  - unfold clears.
    assert (M : m_lcs m = 0). { destruct (b_reg _ _ _ B _ _ R) as (m' & E' & M'). congruence. }
    assert (RG : exists q, length (y_reg s) = S q). { destruct (y_reg s) as [|x q] eqn:Q; [discriminate|]. cbn. eauto. }
    destruct RG as [q Q]. rewrite Q. cbn [unmount]. unfold lcs. rewrite (state_nth _ _ _ E), M, K. cbn [dvals map rev app].
    assert (DM : dmem 0 (y_reg s) = true) by (apply dmem_true; eauto). rewrite DM.
    replace (rev (dvals ([] : dict nat nat)) ++ []) with (@nil nat) by reflexivity.
    eexists. split; [destruct q; reflexivity|].
    assert (G : forall c, dget c (ddel 0 (y_reg s)) = None).
    { intros c. destruct (dget c (ddel 0 (y_reg s))) as [x|] eqn:X; [|reflexivity]. destruct (Nat.eq_dec c 0) as [->|N].
      - rewrite dget_ddel_same in X. discriminate.
      - rewrite dget_ddel_other in X by congruence. apply ALL in X. congruence. }
    intros c. cbn [y_eff set_eff set_reg]. split.
    + unfold registered. cbn [y_reg set_eff set_reg]. destruct (dmem c (ddel 0 (y_reg s))) eqn:X; [|reflexivity]. apply dmem_true in X. destruct X as [x X]. rewrite G in X. discriminate.
    + unfold at_. destruct (Nat.eqb_spec c 0); [reflexivity|]. destruct (y_eff s c) eqn:Y; [|reflexivity]. destruct (E1 _ Y) as [x X]. apply ALL in X. congruence.
  - assert (T : trees view (y_states s) (y_reg s) [r] [l]) by (constructor; [eauto|constructor]).
    assert (CL : concat [l] = l) by (cbn; apply app_nil_r).
    assert (LEN : length (concat [l]) <= length (y_reg s)).
    { rewrite CL. apply reg_len; [|exact ONE]. intros c H. apply cnt_in in H. destruct (proj1 (tree_reg view _ _) _ _ _ TR _ H) as (x & _ & _ & Rx & _). eauto. }
    destruct (unmount_ok view (length (y_reg s)) [r] [l] s T ltac:(rewrite CL; exact ONE) LEN) as (r' & e & U & P & N). rewrite CL in *.
    exists (set_eff e (set_reg r' s)). split; [exact U|]. intros c. cbn [y_eff set_eff]. unfold registered. cbn [y_reg set_eff set_reg].
    assert (G : dget c r' = None /\ e c = false).
    { destruct (Nat.eq_dec (cnt c l) 0) as [Z|Z]; [|apply P; lia]. destruct (N c Z) as [N1 N2].
      assert (X : dget c (y_reg s) = None). { destruct (dget c (y_reg s)) eqn:Y; [|reflexivity]. apply COV in Y. lia. }
      split; [congruence|]. rewrite N2. destruct (y_eff s c) eqn:Y; [|reflexivity]. destruct (E1 _ Y). congruence. }
    destruct G as [G1 G2]. split; [|exact G2]. destruct (dmem c r') eqn:X; [|reflexivity]. apply dmem_true in X. destruct X. congruence.
Qed.

Definition okfin (t : task) : Prop := t_pc t = Done \/ t_pc t = Cancelled.
Lemma okfin_finished t : okfin t -> finished t = true.
Proof. unfold finished. intros [-> | ->]; reflexivity. Qed.
Inductive good (s0 : sys) (root : nat) (z : session) : Prop :=
| g_R k r t : z_phase z = AwaitR root k r (length (y_tasks (z_sys z))) -> same s0 (z_sys z) ->
    (forall j u, j <> k -> nth_error (y_tasks (z_sys z)) j = Some u -> okfin u) -> nth_error (y_tasks (z_sys z)) k = Some t ->
    (t_pc t = Start /\ t_cancel t = true /\ t_hooks t = []) \/ okfin t -> good s0 root z
| g_H h r x : z_phase z = AwaitH root h r -> same s0 (z_sys z) -> (forall j u, nth_error (y_tasks (z_sys z)) j = Some u -> okfin u) ->
    nth_error (z_handlers z) h = Some x -> h_cancel x = true \/ h_ended x = true ->
    (forall i y, nth_error (z_handlers z) i = Some y -> h_ended y = true \/ i = h \/ In i r) -> good s0 root z
| g_C : z_phase z = Closed -> over z -> good s0 root z.

Lemma hloop_good s0 root : clears s0 root -> forall todo z, same s0 (z_sys z) -> (forall j u, nth_error (y_tasks (z_sys z)) j = Some u -> okfin u) ->
  (forall i y, nth_error (z_handlers z) i = Some y -> h_ended y = true \/ In i todo) -> good s0 root (hloop root todo z) /\ left_over (hloop root todo z) <= 2 * length todo.
Proof.
  intros CL. induction todo as [|h r IH]; intros z S T H; cbn [hloop].
  - split; [|unfold finish; destruct (unmount _ _ _) as [[|] s]; cbn; lia].
    pose proof (clears_congr _ _ _ S CL) as (s1 & U & D). unfold finish. rewrite U. apply g_C; [reflexivity|].
    assert (TS : y_tasks s1 = y_tasks (z_sys z)). { destruct (unmount_same (length (y_reg (z_sys z))) [root] (z_sys z)) as (r & e & X). rewrite U in X. cbn in X. now rewrite X. }
    repeat split; cbn [z_sys z_handlers set_phase set_sys]; try apply D.
    + intros k t. rewrite TS. intros X. apply okfin_finished. eauto.
    + intros h x X. destruct (H _ _ X) as [?|[]]; auto.
  - destruct (nth_error (z_handlers z) h) as [x|] eqn:X.
    + destruct (h_ended x) eqn:En.
      * destruct (IH z S T) as [A B]. { intros i y Y. destruct (H _ _ Y) as [?|[<-|?]]; auto. left. congruence. } split; [exact A|]. cbn [length]. lia.
      * assert (L : h < length (z_handlers z)) by (apply nth_error_Some; congruence). split.
        -- eapply g_H; cbn [z_phase z_sys z_handlers set_phase set_handlers]; [reflexivity|exact S|exact T|apply put_same; exact L|cbn; auto|].
           intros i y Y. destruct (Nat.eq_dec i h) as [->|N]; [auto|]. rewrite put_other in Y by congruence. destruct (H _ _ Y) as [?|[?|?]]; auto.
        -- unfold left_over. cbn [z_phase z_handlers set_phase set_handlers length]. rewrite put_same by exact L. cbn. lia.
    + destruct (IH z S T) as [A B]. { intros i y Y. destruct (H _ _ Y) as [?|[<-|?]]; auto. congruence. } split; [exact A|]. cbn [length]. lia.
Qed.
Lemma cancel_same k s : same s (cancel k s).
Proof. unfold cancel. destruct (nth_error (y_tasks s) k); [|split; auto]. destruct (finished t); split; auto. Qed.
Lemma same_trans a b c : same a b -> same b c -> same a c.
Proof. intros (A & B & C) (D & E & F). split; [congruence|split; [congruence|]]. intros x. rewrite F. apply C. Qed.
Lemma cancel_finished k s t : nth_error (y_tasks s) k = Some t -> finished t = true -> cancel k s = s.
Proof. intros H F. unfold cancel. now rewrite H, F. Qed.
Lemma rloop_good s0 root : clears s0 root -> forall todo z, same s0 (z_sys z) ->
  (forall j u, nth_error (y_tasks (z_sys z)) j = Some u -> okfin u \/ (In j todo /\ t_pc u = Start /\ t_hooks u = [])) ->
  (forall j k u v, nth_error (y_tasks (z_sys z)) j = Some u -> nth_error (y_tasks (z_sys z)) k = Some v -> finished u = false -> finished v = false -> j = k) ->
  good s0 root (rloop root todo z) /\ left_over (rloop root todo z) <= 2 * length todo + 2 * length (z_handlers z).
Proof.
  intros CL. induction todo as [|k r IH]; intros z S T U; cbn [rloop].
  - destruct (hloop_good s0 root CL (seq 0 (length (z_handlers z))) z S) as [A B].
    + intros j u X. destruct (T _ _ X) as [?|[[] _]]; auto.
    + intros i y Y. right. apply in_seq. split; [lia|]. cbn. apply nth_error_Some. congruence.
    + split; [exact A|]. rewrite seq_length in B. cbn. lia.
  - cbn [set_sys z_sys]. destruct (nth_error (y_tasks (z_sys z)) k) as [t|] eqn:K.
    + destruct (T _ _ K) as [O|(_ & PC & HK)].
      * rewrite (cancel_finished _ _ _ K (okfin_finished _ O)), K.
        assert (Z : set_sys (z_sys z) z = z) by (destruct z; reflexivity). rewrite Z.
        destruct (IH z S) as [A B]; [|exact U|].
        { intros j u X. destruct (T _ _ X) as [?|([<-|I] & P1 & P2)]; auto. left. congruence. }
        destruct O as [-> | ->]; (split; [exact A|cbn [length]; lia]).
      * assert (L : k < length (y_tasks (z_sys z))) by (apply nth_error_Some; congruence).
        unfold cancel. rewrite K. assert (F : finished t = false) by (unfold finished; now rewrite PC). rewrite F.
        cbn [y_tasks set_tasks]. rewrite put_same by exact L. cbn [t_pc]. rewrite PC, put_length. split.
        -- eapply g_R; cbn [z_phase z_sys set_phase set_sys y_tasks set_tasks]; [rewrite put_length; reflexivity|destruct S as (S1 & S2 & S3); split; auto| |apply put_same; exact L|left; cbn; auto].
           intros j u N X. rewrite put_other in X by congruence. destruct (T _ _ X) as [?|(_ & P1 & P2)]; [assumption|].
           destruct N. apply (U j k u t); auto. unfold finished. now rewrite P1.
        -- unfold left_over. cbn [z_phase z_sys z_handlers set_phase set_sys y_tasks set_tasks length]. rewrite put_same by exact L. unfold finished. cbn. lia.
    + unfold cancel. rewrite K. assert (Z : set_sys (z_sys z) z = z) by (destruct z; reflexivity). rewrite Z, K.
      destruct (IH z S) as [A B]; [|exact U|split; [exact A|cbn [length]; lia]].
      intros j u X. destruct (T _ _ X) as [?|([<-|I] & P1 & P2)]; auto. congruence.
Qed.

Section Steps.
Variable view : nat -> nat -> list (nat * nat).
Lemma run_done k s t : nth_error (y_tasks s) k = Some t -> finished t = true -> run_task view k s = s.
Proof. intros H F. unfold run_task. now rewrite H, F. Qed.
Lemma run_cancelled k s t : nth_error (y_tasks s) k = Some t -> t_pc t = Start -> t_cancel t = true -> t_hooks t = [] ->
  same s (run_task view k s) /\ y_tasks (run_task view k s) = put (y_tasks s) k (Task (t_old t) Cancelled true []).
Proof.
  intros H PC TC HK. unfold run_task. rewrite H. unfold finished. rewrite PC, TC. unfold unwind, held. rewrite PC. cbn [existsb].
  unfold start_effects. cbn [y_tasks set_holder]. rewrite H, HK. unfold set_pc. cbn [y_tasks set_eff set_holder]. rewrite H, TC, HK. split; [split; auto|reflexivity].
Qed.
Lemma good_step s0 root z o : clears s0 root -> good s0 root z -> benign o -> good s0 root (zstep view z o) /\ left_over (zstep view z o) <= left_over z.
Proof.
  intros CL G Be. destruct G as [k r t P S T K D|h r x P S T X C HS|P O]; unfold zstep; rewrite P.
  - destruct o as [[c|j]| |i e|order|]; cbn in Be; try contradiction.
    + cbn [step]. destruct (Nat.eq_dec j k) as [->|N].
      * destruct D as [(PC & TC & HK)|O].
        -- destruct (run_cancelled _ _ _ K PC TC HK) as [S' TS].
           assert (L : k < length (y_tasks (z_sys z))) by (apply nth_error_Some; congruence). split.
           ++ eapply g_R; cbn [z_phase z_sys set_sys]; [rewrite P, TS, put_length; reflexivity|eapply same_trans; eassumption| |rewrite TS; apply put_same; exact L|right; right; reflexivity].
              intros j u N X. rewrite TS, put_other in X by congruence. eauto.
           ++ unfold left_over. cbn [z_phase z_sys z_handlers set_sys]. rewrite P, TS, put_same by exact L. cbn. rewrite K. destruct (finished t); lia.
        -- rewrite (run_done _ _ _ K (okfin_finished _ O)). assert (Z : set_sys (z_sys z) z = z) by (destruct z; reflexivity). rewrite Z. split; [|lia]. eapply g_R; eauto.
      * destruct (nth_error (y_tasks (z_sys z)) j) as [u|] eqn:J.
        -- rewrite (run_done _ _ _ J (okfin_finished _ (T _ _ N J))). assert (Z : set_sys (z_sys z) z = z) by (destruct z; reflexivity). rewrite Z. split; [|lia]. eapply g_R; eauto.
        -- unfold run_task. rewrite J. assert (Z : set_sys (z_sys z) z = z) by (destruct z; reflexivity). rewrite Z. split; [|lia]. eapply g_R; eauto.
    + split; [eapply g_R; eauto|lia].
    + destruct (nth_error (z_handlers z) i) as [y|] eqn:Y; [|split; [eapply g_R; eauto|lia]]. split; [eapply g_R; eauto|].
      unfold left_over. cbn [z_phase z_sys z_handlers set_handlers]. rewrite P, put_length. lia.
    + split; [eapply g_R; eauto|lia].
    + rewrite K. destruct D as [(PC & TC & HK)|O]; [rewrite PC; split; [eapply g_R; eauto|lia]|].
      rewrite Nat.eqb_refl. destruct (rloop_good s0 root CL r z S) as [A B].
      { intros j u X. left. destruct (Nat.eq_dec j k) as [->|N]; [congruence|eauto]. }
      { intros j j' u v X1 X2 F1 _. exfalso. assert (OK : okfin u) by (destruct (Nat.eq_dec j k) as [->|N]; [congruence|eauto]). apply okfin_finished in OK. congruence. }
      assert (LO : left_over z = 2 * length r + 2 * length (z_handlers z) + 1) by (unfold left_over; rewrite P, K, (okfin_finished _ O); reflexivity).
      destruct O as [-> | ->]; (split; [exact A|rewrite LO; eapply Nat.le_trans; [exact B|lia]]).
  - assert (Rn : forall j, run_task view j (z_sys z) = z_sys z).
    { intros j. destruct (nth_error (y_tasks (z_sys z)) j) as [u|] eqn:J; [apply (run_done _ _ _ J), okfin_finished; eauto|unfold run_task; now rewrite J]. }
    destruct o as [[c|j]| |i e|order|]; cbn in Be; try contradiction.
    + cbn [step]. rewrite Rn. assert (Z : set_sys (z_sys z) z = z) by (destruct z; reflexivity). rewrite Z. split; [eapply g_H; eauto|lia].
    + split; [eapply g_H; eauto|lia].
    + destruct (nth_error (z_handlers z) i) as [y|] eqn:Y; [|split; [eapply g_H; eauto|lia]].
      assert (L : i < length (z_handlers z)) by (apply nth_error_Some; congruence).
      assert (M : h_ended y = true -> h_ended (handle e y) = true) by (intros Q; unfold handle; rewrite Q; exact Q).
      assert (M2 : h_cancel y = true \/ h_ended y = true -> h_cancel (handle e y) = true \/ h_ended (handle e y) = true).
      { unfold handle. destruct (h_ended y) eqn:En; [now auto|]. intros [C1|C1]; [|discriminate]. rewrite C1. destruct e; cbn in *; try contradiction; auto. }
      split.
      * assert (HX : exists x', nth_error (put (z_handlers z) i (handle e y)) h = Some x' /\ (h_cancel x' = true \/ h_ended x' = true)).
        { destruct (Nat.eq_dec i h) as [->|N]; [rewrite put_same by exact L; rewrite X in Y; injection Y as <-; eauto|rewrite put_other by exact N; eauto]. }
        destruct HX as (x' & HX1 & HX2). eapply g_H; cbn [z_phase z_sys z_handlers set_handlers]; [exact P|exact S|exact T|exact HX1|exact HX2|].
        intros q w W. destruct (Nat.eq_dec i q) as [->|N]; [rewrite put_same in W by exact L; injection W as <-; destruct (HS _ _ Y) as [?|?]; auto|rewrite put_other in W by exact N; eauto].
      * unfold left_over. cbn [z_phase z_handlers set_handlers]. rewrite P. destruct (Nat.eq_dec i h) as [->|N].
        -- rewrite put_same by exact L. rewrite Y. destruct (h_ended y) eqn:En; [rewrite M by reflexivity; lia|destruct (h_ended (handle e y)); lia].
        -- rewrite put_other by exact N. lia.
    + split; [eapply g_H; eauto|lia].
    + rewrite X. destruct (h_ended x) eqn:En; [|split; [eapply g_H; eauto; rewrite En; exact C|lia]].
      destruct (hloop_good s0 root CL r z S T) as [A B]. { intros i y Y. destruct (HS _ _ Y) as [?|[->|?]]; auto. left. congruence. }
      split; [exact A|]. eapply Nat.le_trans; [exact B|]. unfold left_over. rewrite P. lia.
  - split; [|lia]. apply g_C; assumption.
Qed.
Lemma good_progress s0 root z : clears s0 root -> good s0 root z -> z_phase z <> Closed -> exists o, benign o /\ left_over (zstep view z o) < left_over z.
Proof.
  intros CL G NC. destruct G as [k r t P S T K D|h r x P S T X C HS|P O]; [| |congruence].
  - destruct D as [(PC & TC & HK)|O].
    + exists (Base (Run k)). split; [exact I|]. unfold zstep. rewrite P. cbn [step]. destruct (run_cancelled _ _ _ K PC TC HK) as [S' TS].
      unfold left_over. cbn [z_phase z_sys z_handlers set_sys]. rewrite P, TS, put_same by (apply nth_error_Some; congruence). rewrite K. unfold finished. rewrite PC. cbn. lia.
    + exists Resume. split; [exact I|]. unfold zstep. rewrite P, K, Nat.eqb_refl.
      destruct (rloop_good s0 root CL r z S) as [A B].
      { intros j u X. left. destruct (Nat.eq_dec j k) as [->|N]; [congruence|eauto]. }
      { intros j j' u v X1 X2 F1 _. exfalso. assert (OK : okfin u) by (destruct (Nat.eq_dec j k) as [->|N]; [congruence|eauto]). apply okfin_finished in OK. congruence. }
      assert (LO : left_over z = 2 * length r + 2 * length (z_handlers z) + 1) by (unfold left_over; rewrite P, K, (okfin_finished _ O); reflexivity).
      destruct O as [-> | ->]; (rewrite LO; eapply Nat.le_lt_trans; [exact B|lia]).
  - destruct (h_ended x) eqn:En.
    + exists Resume. split; [exact I|]. unfold zstep. rewrite P, X, En.
      destruct (hloop_good s0 root CL r z S T) as [A B]. { intros i y Y. destruct (HS _ _ Y) as [?|[->|?]]; auto. left. congruence. }
      eapply Nat.le_lt_trans; [exact B|]. unfold left_over. rewrite P, X, En. lia.
    + exists (Handle h Obeys). split; [exact I|]. unfold zstep. rewrite P, X. unfold left_over. cbn [z_phase z_handlers set_handlers]. rewrite P.
      rewrite put_same by (apply nth_error_Some; congruence). rewrite X, En. unfold handle. rewrite En. destruct C as [C|C]; [|discriminate]. rewrite C. cbn. lia.
Qed.
Lemma good_run s0 root l : clears s0 root -> Forall benign l -> forall z, good s0 root z -> good s0 root (zrun view z l).
Proof. intros CL F. induction F as [|o l B F IH]; intros z G; [exact G|]. apply IH. now apply good_step. Qed.
End Steps.

(** ** C96 *)

(** Leaving a layout ends everything: for every program, every earlier schedule as in C77, whatever the handlers are doing and in
    whatever order the tasks are gone through, if no render is in progress when the connection ends and at most one is requested, nothing
    changes a state meanwhile and no handler catches the cancellation, then [__aexit__] does not raise, and when it returns no render,
    handler, component or effect is left. *)
Theorem C96_leaves_partial view ops hs order l :
  (forall ty v, NoDup (map fst (view ty v))) -> separate view init ops -> let s := run view ops in
  idle s -> (forall j k t u, nth_error (y_tasks s) j = Some t -> nth_error (y_tasks s) k = Some u -> finished t = false -> finished u = false -> j = k) ->
  (forall k t, nth_error (y_tasks s) k = Some t -> finished t = false -> In k order) -> Forall benign l ->
  let z := zrun view (Session s hs Open) (Leave order :: l) in
  z_phase z <> Open /\ z_phase z <> Raised /\ (z_phase z = Closed -> over z) /\
  (forall o, benign o -> left_over (zstep view z o) <= left_over z) /\ (z_phase z <> Closed -> exists o, benign o /\ left_over (zstep view z o) < left_over z).
Proof.
  intros V SP s ID ONE ORD BE z.
  assert (I : inv view s) by (apply run_inv; [exact V|left; apply init_rest|exact SP]).
  destruct I as [R|[k M]].
  2: { destruct M as (t & n & old & st & m & okids & lk & lnew & lpend & H & out & cout & a & b & C & q & dcur & B & PC & N & R & K0 & M0 & O & ND & P & CH & X).
       specialize (ID k t (c_task _ _ _ _ _ _ _ _ _ _ _ _ _ _ _ X)). unfold in_progress in ID. rewrite PC in ID. discriminate. }
  destruct (rest_clears view s V R) as (root & R0 & CL). destruct R as (B & _).
  assert (G : good s root z).
  { unfold z, zrun. cbn [fold_left]. apply good_run; [exact CL|exact BE|]. unfold zstep. cbn [z_phase z_sys]. rewrite R0.
    apply rloop_good; [exact CL|split; auto| |exact ONE].
    intros j u X. destruct (b_task _ _ _ B _ _ X) as [_ D]. destruct (D ltac:(discriminate)) as [[P1 P2]|F].
    - right. split; [|auto]. apply (ORD _ _ X). unfold finished. now rewrite P1.
    - left. unfold finished in F. unfold okfin. destruct (t_pc u) eqn:Pc; try discriminate; auto.
      assert (y_over s = true) by (eapply failed_over; [exact X|exact Pc]). pose proof (b_over _ _ _ B). congruence. }
  split; [destruct G; congruence|]. split; [destruct G; congruence|]. split; [|split].
  - destruct G as [? ? ? P|? ? ? P|P O]; intros; congruence || exact O.
  - intros o Bo. eapply good_step; eauto.
  - intros NC. eapply good_progress; eauto.
Qed.
Print Assumptions C96_leaves_partial.

(** The hypotheses are met by a session with five components in which one lost a child, a render is due, and two handlers are waiting or
    at work; it is over in eight steps. *)
Example C96_leaves_example :
  let ops := runs 0 6 ++ [SetState 2; SetState 1; Run 1; Run 1; Run 1; Run 2; Run 2; Run 2; SetState 0] in
  let s := run prog2 ops in
  let hs := [Hd true false false; Hd false false false] in
  let z := zrun prog2 (Session s hs Open) [Leave [3]; Base (Run 3); Resume; Handle 0 Returns; Handle 0 Obeys; Resume; Handle 1 Obeys; Resume] in
  separate prog2 init ops /\ idle s /\ (exists t, nth_error (y_tasks s) 3 = Some t /\ finished t = false) /\ y_eff s 4 = true /\
  left_over (zrun prog2 (Session s hs Open) [Leave [3]]) = 6 /\ z_phase z = Closed /\ y_eff (z_sys z) 4 = false.
Proof.
  intros ops s hs z. split; [apply separateb_ok; vm_compute; reflexivity|]. split; [|split; [|vm_compute; auto]].
  - intros k t E. vm_compute in E. repeat (destruct k as [|k]; [injection E as <-; reflexivity|]). destruct k; discriminate.
  - eexists. split; vm_compute; reflexivity.
Qed.

(** A root with a leaf and a component that swaps its child. *)
Definition prog4 (ty v : nat) : list (nat * nat) := match ty, v with 0, _ => [(0, 3); (1, 1)] | 1, 0 => [(0, 2)] | 1, _ => [(1, 3)] | _, _ => [] end.
Lemma prog4_keys ty v : NoDup (map fst (prog4 ty v)).
Proof. destruct ty as [|[|ty]], v as [|v]; cbn; repeat constructor; cbn; intuition discriminate. Qed.

(** If the root is being rendered again, [__aexit__] returns and the components below it are still mounted with their effects. *)
Theorem C96_root_refuted : exists view ops order l, (forall ty v, NoDup (map fst (view ty v))) /\ separate view init ops /\ Forall benign l /\
  let s := run view ops in let z := zrun view (Session s [] Open) (Leave order :: l) in
  (forall k t, nth_error (y_tasks s) k = Some t -> finished t = false -> In k order) /\ doc_ids (shown (y_log s)) = [0; 1; 2; 3] /\
  z_phase z = Closed /\ (forall k t, nth_error (y_tasks (z_sys z)) k = Some t -> finished t = true) /\
  forall c, In c [1; 2; 3] -> registered (z_sys z) c = true /\ y_eff (z_sys z) c = true.
Proof.
  exists prog4, (runs 0 5 ++ [SetState 0; Run 1]), [1], [Base (Run 1); Resume]. split; [apply prog4_keys|]. split; [apply separateb_ok; vm_compute; reflexivity|].
  split; [repeat constructor|]. intros s z. split; [|split; [vm_compute; reflexivity|split; [vm_compute; reflexivity|split]]].
  - intros k t E F. vm_compute in E. destruct k as [|[|k]]; [injection E as <-; discriminate|cbn; auto|destruct k; discriminate].
  - intros k t E. vm_compute in E. repeat (destruct k as [|k]; [injection E as <-; reflexivity|]). destruct k; discriminate.
  - intros c [<-|[<-|[<-|[]]]]; vm_compute; auto.
Qed.
Print Assumptions C96_root_refuted.
(** If another component is being rendered again and has already dropped a child, [__aexit__] raises the [KeyError] of unmounting that
    child twice, and the components still to be unmounted stay mounted with their effects. *)
Theorem C96_twice_refuted : exists view ops order l, (forall ty v, NoDup (map fst (view ty v))) /\ separate view init ops /\ Forall benign l /\
  let s := run view ops in let z := zrun view (Session s [] Open) (Leave order :: l) in
  (forall k t, nth_error (y_tasks s) k = Some t -> finished t = false -> In k order) /\
  z_phase z = Raised /\ registered (z_sys z) 1 = true /\ y_eff (z_sys z) 1 = true.
Proof.
  exists prog4, (runs 0 5 ++ [SetState 2; Run 1; Run 1]), [1], [Base (Run 1); Resume]. split; [apply prog4_keys|]. split; [apply separateb_ok; vm_compute; reflexivity|].
  split; [repeat constructor|]. intros s z. split; [|vm_compute; auto].
  intros k t E F. vm_compute in E. destruct k as [|[|k]]; [injection E as <-; discriminate|cbn; auto|destruct k; discriminate].
Qed.
Print Assumptions C96_twice_refuted.
(** With three renders requested and none started when the connection ends the third gets far enough for the same to happen, as the
    tasks are cancelled one after the other. *)
Theorem C96_several_refuted : exists view ops order l, (forall ty v, NoDup (map fst (view ty v))) /\ separate view init ops /\ Forall benign l /\
  let s := run view ops in let z := zrun view (Session s [] Open) (Leave order :: l) in
  idle s /\ (forall k t, nth_error (y_tasks s) k = Some t -> finished t = false -> In k order) /\
  z_phase z = Raised /\ registered (z_sys z) 1 = true /\ y_eff (z_sys z) 1 = true.
Proof.
  exists prog4, (runs 0 5 ++ [SetState 1; SetState 0; SetState 2]), [1; 2; 3], (map (fun k => Base (Run k)) [1; 2; 3] ++ [Resume; Base (Run 2); Base (Run 3); Resume; Base (Run 3); Resume]).
  split; [apply prog4_keys|]. split; [apply separateb_ok; vm_compute; reflexivity|].
  split; [repeat constructor|]. intros s z. split; [|split; [|vm_compute; auto]].
  - intros k t E. vm_compute in E. repeat (destruct k as [|k]; [injection E as <-; reflexivity|]). destruct k; discriminate.
  - intros k t E F. vm_compute in E. destruct k as [|[|[|[|k]]]]; [injection E as <-; discriminate|cbn; auto|cbn; auto|cbn; auto|destruct k; discriminate].
Qed.
Print Assumptions C96_several_refuted.
(** A state that changes while the cancelled render is waited for (handlers are still at work then) makes [__aexit__] raise
    ("Set changed size during iteration"): nothing is unmounted, and the handler goes on. *)
Theorem C96_size_refuted : exists view ops order l, (forall ty v, NoDup (map fst (view ty v))) /\ separate view init ops /\
  let s := run view ops in let z := zrun view (Session s [Hd true false false] Open) (Leave order :: l) in
  idle s /\ (forall k t, nth_error (y_tasks s) k = Some t -> finished t = false -> In k order) /\
  z_phase z = Raised /\ z_handlers z = [Hd true false false] /\ forall c, In c [0; 1; 2; 3] -> registered (z_sys z) c = true /\ y_eff (z_sys z) c = true.
Proof.
  exists prog4, (runs 0 5 ++ [SetState 2]), [1], [Base (SetState 1); Base (Run 1); Resume]. split; [apply prog4_keys|]. split; [apply separateb_ok; vm_compute; reflexivity|].
  intros s z. split; [|split; [|split; [vm_compute; reflexivity|split; [vm_compute; reflexivity|]]]].
  - intros k t E. vm_compute in E. repeat (destruct k as [|k]; [injection E as <-; reflexivity|]). destruct k; discriminate.
  - intros k t E F. vm_compute in E. destruct k as [|[|k]]; [injection E as <-; discriminate|cbn; auto|destruct k; discriminate].
  - intros c [<-|[<-|[<-|[<-|[]]]]]; vm_compute; auto.
Qed.
Print Assumptions C96_size_refuted.
(** A state that changes while a handler is waited for: [__aexit__] returns with a render requested and not cancelled. *)
Theorem C96_late_refuted : exists view ops order l, (forall ty v, NoDup (map fst (view ty v))) /\ separate view init ops /\
  let s := run view ops in let z := zrun view (Session s [Hd true false false] Open) (Leave order :: l) in
  (forall k t, nth_error (y_tasks s) k = Some t -> finished t = true) /\ z_phase z = Closed /\
  exists k t, nth_error (y_tasks (z_sys z)) k = Some t /\ finished t = false /\ t_cancel t = false.
Proof.
  exists prog4, (runs 0 5), [], [Base (SetState 1); Handle 0 Obeys; Resume]. split; [apply prog4_keys|]. split; [apply separateb_ok; vm_compute; reflexivity|].
  intros s z. split; [|split; [vm_compute; reflexivity|]].
  - intros k t E. vm_compute in E. repeat (destruct k as [|k]; [injection E as <-; reflexivity|]). destruct k; discriminate.
  - exists 1. eexists. split; [vm_compute; reflexivity|split; reflexivity].
Qed.
Print Assumptions C96_late_refuted.
(** A render that failed and that [render()] did not take (as in C77_removed_refuted): [__aexit__] raises, and nothing is unmounted. *)
Theorem C96_failed_refuted : exists view ops order, (forall ty v, NoDup (map fst (view ty v))) /\ in_turn view init [0] ops = true /\
  let s := run view ops in let z := zrun view (Session s [] Open) [Leave order] in
  (forall k t, nth_error (y_tasks s) k = Some t -> finished t = true) /\ z_phase z = Raised /\ forall c, In c [0; 1] -> registered (z_sys z) c = true /\ y_eff (z_sys z) c = true.
Proof.
  exists prog1, (runs 0 4 ++ [SetState 1; Run 1; SetState 2; Run 1; Run 2]), [2]. split.
  { intros ty v. destruct ty as [|[|ty]], v as [|v]; cbn; repeat constructor; cbn; tauto. }
  split; [vm_compute; reflexivity|]. intros s z. split; [|split; [vm_compute; reflexivity|]].
  - intros k t E. vm_compute in E. repeat (destruct k as [|k]; [injection E as <-; reflexivity|]). destruct k; discriminate.
  - intros c [<-|[<-|[]]]; vm_compute; auto.
Qed.
Print Assumptions C96_failed_refuted.

(** A handler that catches the [CancelledError]: from then on [__aexit__] waits for it, whatever happens. *)
Lemma caught_step view z o root h r x : z_phase z = AwaitH root h r -> nth_error (z_handlers z) h = Some x -> h_cancel x = false -> h_ended x = false ->
  let z' := zstep view z o in z_phase z' = AwaitH root h r /\ exists x', nth_error (z_handlers z') h = Some x' /\ h_cancel x' = false /\ h_ended x' = false.
Proof.
  intros P X C E z'. unfold z', zstep. rewrite P. destruct o as [o| |i e|order|]; cbn [z_phase z_handlers set_sys set_handlers]; eauto.
  - destruct (nth_error (z_handlers z) i) as [y|] eqn:Y; [|eauto]. cbn [z_phase z_handlers set_handlers]. split; [exact P|].
    destruct (Nat.eq_dec i h) as [->|N].
    + rewrite X in Y. injection Y as <-. exists (handle e x). split; [apply put_same; apply nth_error_Some; congruence|]. unfold handle. rewrite E. destruct e; rewrite ?C; cbn; auto.
    + exists x. rewrite put_other by exact N. auto.
  - rewrite X, E. eauto.
Qed.
Theorem C96_catch_refuted view : exists root,
  forall l, z_phase (zrun view (Session init [Hd true false false] Open) ([Leave [0]; Base (Run 0); Resume; Handle 0 Catches] ++ l)) = AwaitH root 0 [].
Proof.
  exists 0. intros l. unfold zrun. rewrite fold_left_app.
  assert (H : forall l z x, z_phase z = AwaitH 0 0 [] -> nth_error (z_handlers z) 0 = Some x -> h_cancel x = false -> h_ended x = false -> z_phase (fold_left (zstep view) l z) = AwaitH 0 0 []).
  { clear l. induction l as [|o l IH]; intros z x P X C E; [exact P|]. destruct (caught_step view z o 0 0 [] x P X C E) as (P' & x' & X' & C' & E'). cbn [fold_left]. eauto. }
  eapply H; reflexivity.
Qed.
Print Assumptions C96_catch_refuted.
