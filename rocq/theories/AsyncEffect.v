(** * Model and properties of use_async_effect (C23)

    One [use_async_effect] call of one component as a small-step machine over all schedules:
    /repo/src/reactpy/core/hooks.py:195-291 ([use_async_effect]), 647-650 ([run_effect_cleanup]),
    /repo/src/reactpy/core/_life_cycle_hook.py:235-252.

    Simplifications: the life-cycle hook's stop events are one flag (they are all set together when the component
    unmounts); clean-up functions do not raise; cancelling the helper task that waits for the stop event takes no time. *)
From Coq Require Import Arith Bool Lia List.
From Verif Require Import EffectModel.
Import ListNotations.

(** How the coroutine of an effect (the body) ends: it returns (with a clean-up function or not), it is cancelled, it
    raises something else. *)
Inductive bend := BReturned (cleanup : bool) | BCancelled | BRaised.
(** A body task: running (with or without a pending cancellation), or ended. *)
Inductive bstate := BRunning (cancelled : bool) | BEnded (e : bend).

(** Where an effect task is suspended: not started; awaiting the previous body (hooks.py:241); in [asyncio.wait]
    (255-258); awaiting the cancelled body (277); awaiting the stop event (270); returned; failed. *)
Inductive apc := ANew | AWaitPrev (p : nat) | AWaitBody (b : nat) | AWaitCancel (b : nat) | AWaitStop | ADone | AFailed.

(** Observable: body [b] is started, ends, its clean-up is called. *)
Inductive aev := Began (b : nat) | Ended (b : nat) (e : bend) | ACleaned (b : nat).

Record ast := Ast {
  a_tasks : list apc;          (** all effect tasks, oldest first *)
  a_bodies : list bstate;      (** all body tasks *)
  a_pending : option nat;      (** [pending_task.current] *)
  a_clean : option nat;        (** [cleanup_func.current]: whose clean-up is stored *)
  a_stop : bool;               (** the stop event is set *)
  a_log : list aev             (** newest last *)
}.
Definition ainit : ast := Ast [] [] None None false [].

Section Shield.
(** The [shield] argument. *)
Variable shield : bool.

Definition set_pc (i : nat) (x : apc) (s : ast) : ast := Ast (put (a_tasks s) i x) (a_bodies s) (a_pending s) (a_clean s) (a_stop s) (a_log s).
(** [run_effect_cleanup], hooks.py:647-650. *)
Definition acleanup (s : ast) : ast :=
  match a_clean s with
  | None => s
  | Some b => Ast (a_tasks s) (a_bodies s) (a_pending s) None (a_stop s) (a_log s ++ [ACleaned b])
  end.
(** [task.cancel()] unless shielded (hooks.py:239, 275). *)
Definition acancel (b : nat) (s : ast) : ast :=
  if shield then s
  else match nth_error (a_bodies s) b with
       | Some (BRunning _) => Ast (a_tasks s) (put (a_bodies s) b (BRunning true)) (a_pending s) (a_clean s) (a_stop s) (a_log s)
       | _ => s
       end.
Definition set_pending (p : option nat) (s : ast) : ast := Ast (a_tasks s) (a_bodies s) p (a_clean s) (a_stop s) (a_log s).
Definition set_clean (c : option nat) (s : ast) : ast := Ast (a_tasks s) (a_bodies s) (a_pending s) c (a_stop s) (a_log s).
(** [if pending_task.current is task: pending_task.current = None]. *)
Definition unpend (b : nat) (s : ast) : ast :=
  match a_pending s with Some p => if Nat.eqb p b then set_pending None s else s | None => s end.

(** hooks.py:245-258: run the stored clean-up, create the body, wait. *)
Definition begin_body (i : nat) (s : ast) : ast :=
  let s1 := acleanup s in
  let b := length (a_bodies s1) in
  Ast (put (a_tasks s1) i (AWaitBody b)) (a_bodies s1 ++ [BRunning false]) (Some b) (a_clean s1) (a_stop s1) (a_log s1 ++ [Began b]).
(** hooks.py:240-245, after the previous body [p] ended with [e]: a cancellation is suppressed, another exception propagates. *)
Definition after_prev (i p : nat) (e : bend) (s : ast) : ast :=
  match e with
  | BRaised => set_pc i AFailed s
  | _ => begin_body i (unpend p s)
  end.
(** [cleanup_func.current = task.result()]: [None] clears the reference; a cancellation is suppressed. *)
Definition store (b : nat) (e : bend) (s : ast) : ast :=
  match e with
  | BReturned true => set_clean (Some b) s
  | BReturned false => set_clean None s
  | _ => s
  end.

(** Run effect task [i] until its next suspension; nothing happens if it cannot run. *)
Definition arun_task (i : nat) (s : ast) : ast :=
  match nth_error (a_tasks s) i with
  | None => s
  | Some ANew =>
      match a_pending s with
      | None => begin_body i s
      | Some p =>
          let s1 := acancel p s in
          match nth_error (a_bodies s1) p with
          | Some (BEnded e) => after_prev i p e s1
          | _ => set_pc i (AWaitPrev p) s1
          end
      end
  | Some (AWaitPrev p) =>
      match nth_error (a_bodies s) p with
      | Some (BEnded e) => after_prev i p e s
      | _ => s
      end
  | Some (AWaitBody b) =>
      match nth_error (a_bodies s) b with
      | Some (BEnded e) =>
          let s1 := set_pending None s in
          match e with
          | BRaised => set_pc i AFailed s1
          | _ => set_pc i AWaitStop (store b e s1)
          end
      | _ => if a_stop s then set_pc i (AWaitCancel b) (acancel b s) else s
      end
  | Some (AWaitCancel b) =>
      match nth_error (a_bodies s) b with
      | Some (BEnded e) =>
          match e with
          | BRaised => set_pc i AFailed s
          | _ => set_pc i ADone (acleanup (unpend b (store b e s)))
          end
      | _ => s
      end
  | Some AWaitStop => if a_stop s then set_pc i ADone (acleanup s) else s
  | Some ADone | Some AFailed => s
  end.

(** Body [b] ends with [e]; a body that nobody cancelled does not end with a cancellation. *)
Definition abody_end (b : nat) (e : bend) (s : ast) : ast :=
  match nth_error (a_bodies s) b with
  | Some (BRunning c) =>
      match e, c with
      | BCancelled, false => s
      | _, _ => Ast (a_tasks s) (put (a_bodies s) b (BEnded e)) (a_pending s) (a_clean s) (a_stop s) (a_log s ++ [Ended b e])
      end
  | _ => s
  end.

(** Ops: the dependencies changed and the layout finished a render (a new effect task); the event loop runs effect
    task [i]; body [b] ends; the component unmounts. *)
Inductive aop := ASpawn | ARunTask (i : nat) | ABodyEnd (b : nat) (e : bend) | AUnmount.
Definition astep (s : ast) (o : aop) : ast :=
  match o with
  | ASpawn => Ast (a_tasks s ++ [ANew]) (a_bodies s) (a_pending s) (a_clean s) (a_stop s) (a_log s)
  | ARunTask i => arun_task i s
  | ABodyEnd b e => abody_end b e s
  | AUnmount => Ast (a_tasks s) (a_bodies s) (a_pending s) (a_clean s) true (a_log s)
  end.
Definition arun (ops : list aop) : ast := fold_left astep ops ainit.
End Shield.

(** ** Specification, from the log alone *)

(** The bodies that run after a history: begun and not ended. *)
Fixpoint running (l : list aev) (acc : list nat) : list nat :=
  match l with
  | [] => acc
  | Began b :: l' => running l' (b :: acc)
  | Ended b _ :: l' => running l' (remove Nat.eq_dec b acc)
  | ACleaned _ :: l' => running l' acc
  end.
Definition one_at_a_time (l : list aev) : Prop := forall a b, l = a ++ b -> length (running a []) <= 1.
Definition acleanups (b : nat) (l : list aev) : nat := length (filter (fun e => match e with ACleaned j => Nat.eqb j b | _ => false end) l).
(** The clean-ups called in [l] were returned before. *)
Definition all_done (s : ast) : Prop := a_stop s = true /\ forall i x, nth_error (a_tasks s) i = Some x -> x = ADone.

(** ** The finding *)

(** Three changes of the dependencies while bodies run: the second and third body run at the same time, and the clean-up
    of the second is lost (bodies end only because they were cancelled or by returning; nothing raises). *)
Theorem C23_overlap_refuted : exists ops,
  let s := arun false ops in
  ~ one_at_a_time (a_log s) /\ all_done s /\
  In (Ended 1 (BReturned true)) (a_log s) /\ acleanups 1 (a_log s) = 0.
Proof.
  exists [ASpawn; ARunTask 0; ASpawn; ARunTask 1; ABodyEnd 0 BCancelled; ARunTask 1; ARunTask 0; ASpawn; ARunTask 2;
          ABodyEnd 1 (BReturned true); ARunTask 1; ABodyEnd 2 (BReturned true); ARunTask 2; AUnmount; ARunTask 0; ARunTask 1; ARunTask 2].
  cbv zeta. split; [|split; [|split]].
  - intros H. specialize (H [Began 0; Ended 0 BCancelled; Began 1; Began 2] [Ended 1 (BReturned true); Ended 2 (BReturned true); ACleaned 2]).
    vm_compute in H. specialize (H eq_refl). lia.
  - split; [vm_compute; reflexivity|]. intros i x E. vm_compute in E. destruct i as [|[|[|i]]]; try (injection E as <-; reflexivity). destruct i; discriminate.
  - vm_compute. tauto.
  - vm_compute. reflexivity.
Qed.
Print Assumptions C23_overlap_refuted.

(** With [shield=True] one change while the body runs is enough to lose its clean-up. *)
Theorem C23_shield_lost_refuted : exists ops,
  let s := arun true ops in
  all_done s /\ In (Ended 0 (BReturned true)) (a_log s) /\ acleanups 0 (a_log s) = 0.
Proof.
  exists [ASpawn; ARunTask 0; ASpawn; ARunTask 1; ABodyEnd 0 (BReturned true); ARunTask 1; ARunTask 0;
          ABodyEnd 1 (BReturned true); ARunTask 1; AUnmount; ARunTask 0; ARunTask 1].
  cbv zeta. split; [|split].
  - split; [vm_compute; reflexivity|]. intros i x E. vm_compute in E. destruct i as [|[|i]]; try (injection E as <-; reflexivity). destruct i; discriminate.
  - vm_compute. tauto.
  - vm_compute. reflexivity.
Qed.
Print Assumptions C23_shield_lost_refuted.
