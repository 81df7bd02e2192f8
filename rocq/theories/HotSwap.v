(** * Swapping what is displayed (C108)

    [_hotswap] and the fixtures that use it, /repo/src/reactpy/testing/backend.py:167-246 and 42-72. What the hooks do is taken from
    the models of the hooks: a dispatcher changes the value and requests a render unless the new value is [strictly_equal] to the old
    one (C24, StrictEq.v), an effect starts some time after its component's first render and is cleaned up some time after the unmount
    (C20-C22), and [use_callback] and [use_effect] of [HotSwap] have the same dependencies in all renders of a view, so each view adds
    one callback. *)
From Coq Require Import String ZArith Bool Arith Lia List.
From Verif Require Import Dict LayoutTypes StrictEq.
Import ListNotations.
Local Open Scope list_scope.

Section HotSwap.
(** Functions without arguments that make what is displayed, and [strictly_equal] on them. *)
Variable ctor : Type.
Variable same : ctor -> ctor -> bool.
(** The two functions [lambda: None], backend.py:209 and 229 (or 241): before the first swap, and for [swap(None)]. *)
Variables blank blanked : ctor.
(** [update_on_change]. *)
Variable update : bool.

(** ** Model *)

(** One view: what its state holds (only with [update_on_change]), whether a render of it is requested, whether its callback is in the
    set, whether it is displayed, and what its last render displayed. *)
Record view := View { v_value : ctor; v_due : bool; v_listens : bool; v_open : bool; v_shown : ctor }.
(** [constructor_ref.current], backend.py:209, and all views in the order in which they were opened. *)
Record world := World { w_latest : ctor; w_views : list view }.

(** A call of [swap]; a client opens a view; the effect of view [i] starts; view [i] is rendered (because it was requested, or
    because what contains it is rendered again); view [i] is unmounted; the effect of view [i] is cleaned up. *)
Inductive event := Swap (c : option ctor) | Open | Started (i : nat) | Render (i : nat) | Close (i : nat) | Cleaned (i : nat).

Fixpoint change {A} (f : A -> A) (i : nat) (l : list A) : list A :=
  match l, i with
  | [], _ => []
  | x :: r, 0 => f x :: r
  | x :: r, S j => x :: change f j r
  end.

(** [set_constructor(constructor)], backend.py:218 with [dispatch], core/hooks.py:90-94, for a view in the set. *)
Definition told (c : ctor) (v : view) : view :=
  if v_listens v then if same c (v_value v) then v else View c true true (v_open v) (v_shown v) else v.

(** [HotSwap], backend.py:215-226 or 237-238. *)
Definition rendered (latest : ctor) (v : view) : view :=
  if v_open v
  then View (v_value v) false (v_listens v) true (if update then v_value v else latest)
  else v.

Definition step (w : world) (e : event) : world :=
  match e with
  | Swap c =>
      (* backend.py:228-232 or 240-241 *)
      let c' := match c with Some x => x | None => blanked end in
      World c' (if update then map (told c') (w_views w) else w_views w)
  | Open => World (w_latest w) (w_views w ++ [View (w_latest w) false false true (w_latest w)])
  | Started i =>
      (* backend.py:221; without [update_on_change] there is no effect *)
      World (w_latest w) (change (fun v => View (v_value v) (v_due v) update (v_open v) (v_shown v)) i (w_views w))
  | Render i => World (w_latest w) (change (rendered (w_latest w)) i (w_views w))
  | Close i => World (w_latest w) (change (fun v => View (v_value v) (v_due v) (v_listens v) false (v_shown v)) i (w_views w))
  | Cleaned i =>
      (* backend.py:222 *)
      World (w_latest w) (change (fun v => View (v_value v) (v_due v) false (v_open v) (v_shown v)) i (w_views w))
  end.
Definition run (h : list event) : world := fold_left step h (World blank []).

(** ** Specification *)

(** What was swapped in last. *)
Fixpoint last_swap (acc : ctor) (h : list event) : ctor :=
  match h with
  | [] => acc
  | Swap (Some c) :: r => last_swap c r
  | Swap None :: r => last_swap blanked r
  | _ :: r => last_swap acc r
  end.
Definition current (h : list event) : ctor := last_swap blank h.
Definition is_swap (e : event) : Prop := exists c, e = Swap c.
Definition views (h : list event) : nat := length (filter (fun e => match e with Open => true | _ => false end) h).

(** ** Proofs *)

Lemma run_app h1 h2 : run (h1 ++ h2) = fold_left step h2 (run h1).
Proof. unfold run. apply fold_left_app. Qed.
Lemma run_snoc h e : run (h ++ [e]) = step (run h) e.
Proof. rewrite run_app. reflexivity. Qed.
Lemma last_swap_app h1 : forall acc h2, last_swap acc (h1 ++ h2) = last_swap (last_swap acc h1) h2.
Proof. induction h1 as [|e h1 IH]; intros acc h2; [reflexivity|]. cbn [app last_swap]. destruct e as [[c|]| | | | |]; apply IH. Qed.
Lemma latest_is h : w_latest (run h) = current h.
Proof.
  induction h as [|e h IH] using rev_ind; [reflexivity|]. rewrite run_snoc. unfold current. rewrite last_swap_app. fold (current h). rewrite <- IH.
  destruct e as [[c|]| | | | |]; reflexivity.
Qed.
Lemma change_length {A} (f : A -> A) l : forall i, length (change f i l) = length l.
Proof. induction l as [|x l IH]; intros [|i]; cbn; auto. Qed.
Lemma change_nth {A} (f : A -> A) l : forall i j, nth_error (change f i l) j = if Nat.eqb i j then option_map f (nth_error l j) else nth_error l j.
Proof. induction l as [|x l IH]; intros [|i] [|j]; cbn; auto. destruct (Nat.eqb i j); reflexivity. Qed.
Lemma views_count h : length (w_views (run h)) = views h.
Proof.
  induction h as [|e h IH] using rev_ind; [reflexivity|]. rewrite run_snoc. unfold views. rewrite filter_app, app_length. fold (views h). rewrite <- IH.
  destruct e as [c| | | | |]; cbn [step w_views filter length]; rewrite ?change_length, ?app_length; try lia; [destruct update; rewrite ?map_length; lia|cbn; lia].
Qed.

Definition refl := forall c, same c c = true.

(** A view that is in the set: its value is the latest constructor, up to [same]; and what is displayed is the value unless a render
    is requested. *)
Definition fresh (latest : ctor) (v : view) : Prop := same latest (v_value v) = true /\ (v_due v = false -> v_shown v = v_value v).

(** What happens to one view. *)
Definition vstep (i : nat) (latest : ctor) (v : view) (e : event) : view :=
  match e with
  | Swap c => if update then told (match c with Some x => x | None => blanked end) v else v
  | Open => v
  | Started j => if Nat.eqb j i then View (v_value v) (v_due v) update (v_open v) (v_shown v) else v
  | Render j => if Nat.eqb j i then rendered latest v else v
  | Close j => if Nat.eqb j i then View (v_value v) (v_due v) (v_listens v) false (v_shown v) else v
  | Cleaned j => if Nat.eqb j i then View (v_value v) (v_due v) false (v_open v) (v_shown v) else v
  end.
Lemma step_view w e i v : nth_error (w_views w) i = Some v -> nth_error (w_views (step w e)) i = Some (vstep i (w_latest w) v e).
Proof.
  intros E. destruct e as [c| |j|j|j|j]; cbn [step w_views vstep].
  - destruct update; [rewrite nth_error_map, E; reflexivity|exact E].
  - rewrite nth_error_app1; [exact E|]. apply nth_error_Some. congruence.
  - rewrite change_nth, E. destruct (Nat.eqb j i); reflexivity.
  - rewrite change_nth, E. destruct (Nat.eqb j i); reflexivity.
  - rewrite change_nth, E. destruct (Nat.eqb j i); reflexivity.
  - rewrite change_nth, E. destruct (Nat.eqb j i); reflexivity.
Qed.
Lemma opened h : nth_error (w_views (run (h ++ [Open]))) (views h) = Some (View (current h) false false true (current h)).
Proof. rewrite run_snoc. cbn [step w_views]. rewrite <- views_count, nth_error_app2, Nat.sub_diag by lia. cbn. rewrite latest_is. reflexivity. Qed.

(** The invariant along a history that starts with the opening of view [i]. *)
Lemma run_views (P : list event -> view -> Prop) h i v : nth_error (w_views (run h)) i = Some v -> P [] v ->
  (forall h' v e, P h' v -> P (h' ++ [e]) (vstep i (current (h ++ h')) v e)) ->
  forall h', exists v', nth_error (w_views (run (h ++ h'))) i = Some v' /\ P h' v'.
Proof.
  intros E P0 PS. induction h' as [|e h' IH] using rev_ind; [exists v; rewrite app_nil_r; auto|]. destruct IH as (v' & E' & P').
  exists (vstep i (current (h ++ h')) v' e). split; [|apply PS; exact P'].
  rewrite app_assoc, run_snoc. rewrite (step_view _ e i v' E'), latest_is. reflexivity.
Qed.

Lemma no_swaps h2 : (forall e, In e h2 -> ~ is_swap e) -> forall acc, last_swap acc h2 = acc.
Proof.
  induction h2 as [|e h2 IH]; intros N acc; [reflexivity|]. cbn [last_swap]. assert (NE : ~ is_swap e) by (apply N; left; reflexivity).
  assert (N' : forall x, In x h2 -> ~ is_swap x) by (intros x I; apply N; right; exact I).
  destruct e as [c| | | | |]; try (apply IH; exact N'). exfalso. apply NE. exists c. reflexivity.
Qed.

(** What the theorems say about view [i]: the view is there, and [P] holds of it. *)
Definition shows (h : list event) (i : nat) (P : view -> Prop) : Prop := exists v, nth_error (w_views (run h)) i = Some v /\ P v.

(** As soon as a view is opened it displays what was swapped in last, in both modes. *)
Theorem C108_opened : forall h, shows (h ++ [Open]) (views h) (fun v => v_shown v = current h /\ v_due v = false).
Proof. intros h. eexists. split; [apply opened|split; reflexivity]. Qed.

Section Updated.
Hypothesis U : update = true.
Hypothesis R : refl.

(** From its first render to the first swap, a view's value is the latest constructor. *)
Lemma waiting h h2 : (forall e, In e h2 -> ~ is_swap e) -> ~ In (Close (views h)) h2 ->
  shows (h ++ [Open] ++ h2) (views h) (fun v => v_value v = current h /\ v_shown v = current h /\ v_due v = false /\ v_open v = true).
Proof.
  intros N C. unfold shows. rewrite app_assoc. revert N C.
  destruct (run_views (fun h2 v => (forall e, In e h2 -> ~ is_swap e) -> ~ In (Close (views h)) h2 -> v_value v = current h /\ v_shown v = current h /\ v_due v = false /\ v_open v = true)
    (h ++ [Open]) (views h) _ (opened h)) with (h' := h2) as (v & E & P).
  - intros _ _. cbn. auto.
  - intros h' v e IH N C. destruct IH as (A & B & D & O); [intros x I; apply N, in_or_app; auto|intros I; apply C, in_or_app; auto|].
    assert (NE : ~ is_swap e) by (apply N, in_or_app; right; left; reflexivity).
    destruct e as [c| |j|j|j|j]; cbn [vstep]; auto.
    + exfalso. apply NE. exists c. reflexivity.
    + destruct (Nat.eqb j (views h)); auto.
    + destruct (Nat.eqb j (views h)); auto. unfold rendered. rewrite O, U. cbn. auto.
    + destruct (Nat.eqb_spec j (views h)) as [->|]; auto. exfalso. apply C, in_or_app. right. left. reflexivity.
    + destruct (Nat.eqb j (views h)); auto.
  - intros N C. exists v. split; [exact E|apply P; auto].
Qed.
Lemma listening h1 h3 i v : nth_error (w_views (run h1)) i = Some v -> v_listens v = true -> v_open v = true -> fresh (current h1) v ->
  ~ In (Close i) h3 -> ~ In (Cleaned i) h3 ->
  shows (h1 ++ h3) i (fun v => v_listens v = true /\ v_open v = true /\ fresh (current (h1 ++ h3)) v).
Proof.
  intros E L O F. unfold shows.
  destruct (run_views (fun h3 v => ~ In (Close i) h3 -> ~ In (Cleaned i) h3 -> v_listens v = true /\ v_open v = true /\ fresh (current (h1 ++ h3)) v) h1 i v E) with (h' := h3) as (v' & E' & P).
  - intros _ _. rewrite app_nil_r. auto.
  - intros h' w e IH C K. destruct IH as (L' & O' & S' & D'); [intros I; apply C, in_or_app; auto|intros I; apply K, in_or_app; auto|].
    assert (CE : e <> Close i) by (intros ->; apply C, in_or_app; right; left; reflexivity). assert (KE : e <> Cleaned i) by (intros ->; apply K, in_or_app; right; left; reflexivity).
    assert (CUR : current (h1 ++ h' ++ [e]) = last_swap (current (h1 ++ h')) [e]) by (rewrite app_assoc; unfold current; apply last_swap_app). rewrite CUR. clear CUR.
    destruct e as [c| |j|j|j|j]; cbn [vstep].
    + rewrite U. assert (Q : last_swap (current (h1 ++ h')) [Swap c] = match c with Some x => x | None => blanked end) by (destruct c; reflexivity). rewrite Q. clear Q.
      set (c' := match c with Some x => x | None => blanked end). unfold told. rewrite L'. destruct (same c' (v_value w)) eqn:Z; [split; [exact L'|split; [exact O'|split; assumption]]|].
      cbn. split; [reflexivity|]. split; [exact O'|]. split; [apply R|discriminate].
    + cbn [last_swap]. split; [exact L'|split; [exact O'|split; assumption]].
    + cbn [last_swap]. destruct (Nat.eqb j i); cbn; (split; [auto|split; [exact O'|split; assumption]]).
    + cbn [last_swap]. destruct (Nat.eqb j i); [|split; [exact L'|split; [exact O'|split; assumption]]]. unfold rendered. rewrite O', U. cbn. split; [exact L'|split; [reflexivity|]]. split; [exact S'|auto].
    + cbn [last_swap]. destruct (Nat.eqb_spec j i) as [->|]; [congruence|]. split; [exact L'|split; [exact O'|split; assumption]].
    + cbn [last_swap]. destruct (Nat.eqb_spec j i) as [->|]; [congruence|]. split; [exact L'|split; [exact O'|split; assumption]].
  - intros C K. exists v'. split; [exact E'|apply P; auto].
Qed.

(** C108, partial: a view whose effect has started before the next swap displays what was swapped in last, or something [strictly_equal]
    takes for it, or a render of it is requested, after which it does. Missing: a swap between the first render and the start of the
    effect ([C108_lost_refuted]). *)
Theorem C108_updated_partial : forall h1 h2 h3, let i := views h1 in let h := h1 ++ [Open] ++ h2 ++ [Started i] ++ h3 in
  (forall e, In e h2 -> ~ is_swap e) -> ~ In (Close i) (h2 ++ h3) -> ~ In (Cleaned i) h3 ->
  shows h i (fun v => v_due v = true \/ same (current h) (v_shown v) = true) /\
  shows (h ++ [Render i]) i (fun v => v_due v = false /\ same (current h) (v_shown v) = true).
Proof.
  intros h1 h2 h3 i h N C K.
  destruct (waiting h1 h2 N) as (v & E & A & B & D & O); [intros I; apply C, in_or_app; auto|].
  set (g := h1 ++ [Open] ++ h2) in *.
  assert (G : h = (g ++ [Started i]) ++ h3) by (unfold h, g; rewrite <- !app_assoc; reflexivity).
  assert (Q : current (g ++ [Started i]) = current h1).
  { unfold current, g. rewrite !last_swap_app. cbn [last_swap]. apply no_swaps. exact N. }
  assert (E2 : nth_error (w_views (run (g ++ [Started i]))) i = Some (View (v_value v) (v_due v) true (v_open v) (v_shown v))).
  { rewrite run_snoc, (step_view _ _ _ _ E). cbn [vstep]. rewrite Nat.eqb_refl, U. reflexivity. }
  assert (F : forall h3', ~ In (Close i) h3' -> ~ In (Cleaned i) h3' -> shows ((g ++ [Started i]) ++ h3') i (fun v => v_listens v = true /\ v_open v = true /\ fresh (current ((g ++ [Started i]) ++ h3')) v)).
  { intros h3' C' K'. apply (listening _ _ _ _ E2); auto. split; cbn; [rewrite Q, A; apply R|congruence]. }
  assert (C3 : ~ In (Close i) h3) by (intros I; apply C, in_or_app; auto).
  destruct (F h3 C3 K) as (w & EW & LW & OW & SW & DW). rewrite <- G in EW, SW. split.
  - exists w. split; [exact EW|]. destruct (v_due w); [left; reflexivity|right]. rewrite DW by reflexivity. exact SW.
  - exists (rendered (current h) w). split.
    + rewrite run_snoc, (step_view _ _ _ _ EW), latest_is. cbn [vstep]. rewrite Nat.eqb_refl. reflexivity.
    + unfold rendered. rewrite OW, U. cbn. auto.
Qed.

(** Nothing but a swap changes the value of a view. *)
Lemma unmoved h1 h2 i v : nth_error (w_views (run h1)) i = Some v -> v_value v = v_shown v -> (forall e, In e h2 -> ~ is_swap e) ->
  shows (h1 ++ h2) i (fun w => v_shown w = v_shown v).
Proof.
  intros E V N. unfold shows.
  destruct (run_views (fun h2 w => (forall e, In e h2 -> ~ is_swap e) -> v_value w = v_shown v /\ v_shown w = v_shown v) h1 i v E) with (h' := h2) as (w & EW & P).
  - intros _. auto.
  - intros h' w e IH N'. destruct IH as [A B]; [intros x I; apply N', in_or_app; auto|]. assert (NE : ~ is_swap e) by (apply N', in_or_app; right; left; reflexivity).
    destruct e as [c| |j|j|j|j]; cbn [vstep]; auto; try (destruct (Nat.eqb j i); cbn; auto).
    + exfalso. apply NE. exists c. reflexivity.
    + unfold rendered. destruct (v_open w); [rewrite U|]; cbn; auto.
  - exists w. split; [exact EW|apply P; exact N].
Qed.

(** Finding: a swap between a view's first render and the start of its effect is lost: until the next swap the view goes on displaying
    the old one, however often it is rendered. *)
Theorem C108_lost_refuted : forall c1 c2 rest, (forall e, In e rest -> ~ is_swap e) ->
  let h := [Swap (Some c1); Open; Swap (Some c2); Started 0] ++ rest in
  current h = c2 /\ shows h 0 (fun v => v_shown v = c1).
Proof.
  intros c1 c2 rest N h. split; [unfold h, current; rewrite last_swap_app; cbn [last_swap]; apply no_swaps; exact N|].
  apply (unmoved [Swap (Some c1); Open; Swap (Some c2); Started 0] rest 0 (View c1 false true true c1)); [|reflexivity|exact N].
  unfold run. cbn [fold_left step w_views w_latest]. rewrite U. reflexivity.
Qed.

(** The same if [strictly_equal] cannot tell the new one from the old one. *)
Lemma not_told c1 c2 rest : same c2 c1 = true -> (forall e, In e rest -> ~ is_swap e) ->
  let h := [Swap (Some c1); Open; Started 0; Swap (Some c2)] ++ rest in
  current h = c2 /\ shows h 0 (fun v => v_shown v = c1).
Proof.
  intros S1 N h. split; [unfold h, current; rewrite last_swap_app; cbn [last_swap]; apply no_swaps; exact N|].
  apply (unmoved [Swap (Some c1); Open; Started 0; Swap (Some c2)] rest 0 (View c1 false true true c1)); [|reflexivity|exact N].
  unfold run. cbn [fold_left step w_views w_latest]. rewrite U. cbn. unfold told. cbn. rewrite S1. reflexivity.
Qed.
End Updated.

(** Without [update_on_change] a view displays what had been swapped in at its last render, whether that was its first one or a later one;
    swaps do not change it. *)
Theorem C108_static : update = false ->
  (forall h1 h2, ~ In (Render (views h1)) h2 -> shows (h1 ++ [Open] ++ h2) (views h1) (fun v => v_shown v = current h1 /\ v_due v = false)) /\
  (forall h1 h2 h3, let i := views h1 in ~ In (Close i) h2 -> ~ In (Render i) h3 ->
     shows (h1 ++ [Open] ++ h2 ++ [Render i] ++ h3) i (fun v => v_shown v = current (h1 ++ [Open] ++ h2) /\ v_due v = false)).
Proof.
  intros U.
  assert (K : forall h1 i v c, nth_error (w_views (run h1)) i = Some v -> v_shown v = c -> v_due v = false -> forall h2, ~ In (Render i) h2 -> shows (h1 ++ h2) i (fun v => v_shown v = c /\ v_due v = false)).
  { intros h1 i v c E V D h2. unfold shows. destruct (run_views (fun h2 v => ~ In (Render i) h2 -> v_shown v = c /\ v_due v = false) h1 i v E) with (h' := h2) as (w & EW & P).
    - auto.
    - intros h' w e IH N. destruct IH as [A B]; [intros I; apply N, in_or_app; auto|]. assert (NE : e <> Render i) by (intros ->; apply N, in_or_app; right; left; reflexivity).
      destruct e as [c'| |j|j|j|j]; cbn [vstep]; try rewrite U; auto; destruct (Nat.eqb_spec j i) as [->|]; cbn; auto. congruence.
    - intros N. exists w. split; [exact EW|apply P; exact N]. }
  split.
  - intros h1 h2 N. rewrite app_assoc. apply (K _ _ _ _ (opened h1)); auto.
  - intros h1 h2 h3 i C N. destruct (run_views (fun h2 v => ~ In (Close i) h2 -> v_open v = true) (h1 ++ [Open]) i _ (opened h1)) with (h' := h2) as (v & E & P).
    + reflexivity.
    + intros h' w e IH C'. assert (O : v_open w = true) by (apply IH; intros I; apply C', in_or_app; auto). assert (NE : e <> Close i) by (intros ->; apply C', in_or_app; right; left; reflexivity).
      destruct e as [c'| |j|j|j|j]; cbn [vstep]; try rewrite U; auto; destruct (Nat.eqb_spec j i) as [->|]; cbn; auto; try congruence. unfold rendered. rewrite O. reflexivity.
    + specialize (P C). replace (h1 ++ [Open] ++ h2 ++ [Render i] ++ h3) with ((((h1 ++ [Open]) ++ h2) ++ [Render i]) ++ h3) by (rewrite <- !app_assoc; reflexivity).
      replace (h1 ++ [Open] ++ h2) with ((h1 ++ [Open]) ++ h2) by (rewrite <- !app_assoc; reflexivity).
      apply (K _ i (rendered (current ((h1 ++ [Open]) ++ h2)) v)).
      * rewrite run_snoc, (step_view _ _ _ _ E), latest_is. cbn [vstep]. rewrite Nat.eqb_refl. reflexivity.
      * unfold rendered. rewrite P, U. reflexivity.
      * unfold rendered. rewrite P. reflexivity.
      * exact N.
Qed.

(** A view whose effect has been cleaned up is told nothing any more: its callback is gone, and no render of it is requested by later swaps. *)
Theorem C108_forgotten : forall h1 h2 i v, nth_error (w_views (run (h1 ++ [Cleaned i]))) i = Some v -> ~ In (Started i) h2 ->
  shows (h1 ++ [Cleaned i] ++ h2) i (fun w => v_listens w = false /\ (v_due v = false -> v_due w = false)).
Proof.
  intros h1 h2 i v E N. rewrite app_assoc.
  assert (L : v_listens v = false).
  { rewrite run_snoc in E. cbn [step w_views] in E. rewrite change_nth, Nat.eqb_refl in E. destruct (nth_error (w_views (run h1)) i); [|discriminate]. injection E as <-. reflexivity. }
  unfold shows. destruct (run_views (fun h2 w => ~ In (Started i) h2 -> v_listens w = false /\ (v_due v = false -> v_due w = false)) (h1 ++ [Cleaned i]) i v E) with (h' := h2) as (w & EW & P).
  - auto.
  - intros h' w e IH N'. destruct IH as [A B]; [intros I; apply N', in_or_app; auto|]. assert (NE : e <> Started i) by (intros ->; apply N', in_or_app; right; left; reflexivity).
    destruct e as [c'| |j|j|j|j]; cbn [vstep]; auto.
    + unfold told. destruct update; [rewrite A|]; auto.
    + destruct (Nat.eqb_spec j i) as [->|]; cbn; auto. congruence.
    + destruct (Nat.eqb j i); auto. unfold rendered. destruct (v_open w); cbn; auto.
    + destruct (Nat.eqb j i); cbn; auto.
    + destruct (Nat.eqb j i); cbn; auto.
  - exists w. split; [exact EW|apply P; exact N].
Qed.
End HotSwap.

Arguments Swap {ctor}. Arguments Open {ctor}. Arguments Started {ctor}. Arguments Render {ctor}. Arguments Close {ctor}. Arguments Cleaned {ctor}.
Print Assumptions C108_opened.
Print Assumptions C108_updated_partial.
Print Assumptions C108_lost_refuted.
Print Assumptions C108_static.
Print Assumptions C108_forgotten.

(** ** Components with the same name *)

(** The function that [component] makes of [f], core/component.py:11-32, as [strictly_equal] sees it: [wraps] gives it the qualified name
    of [f], its code is that of [constructor] for all components, and [f] is a captured variable. *)
Definition component_of (id type : nat) (code : list (string * nat)) (qualname : string) (f : val) : obj := Obj id type qualname (Some code) [f].

(** Finding: with [update_on_change], two components that are defined in functions and have the same qualified name, as when a test
    defines its component anew, are not told apart: the view goes on displaying the first. *)
Theorem C108_same_name_refuted : forall py_eq attr_eq type code p q f g id1 id2 blank blanked rest,
  (forall a, attr_eq a a = true) -> NoDup (map fst code) -> (forall e, In e rest -> ~ is_swap obj e) ->
  let name := (p ++ "<locals>" ++ q)%string in
  let old := component_of id1 type code name f in let new := component_of id2 type code name g in
  let same x y := match strictly_equal py_eq attr_eq x y with Some b => b | None => false end in
  let h := [Swap (Some old); Open; Started 0; Swap (Some new)] ++ rest in
  current obj blank blanked h = new /\ shows obj same blank blanked true h 0 (fun v => v_shown obj v = old).
Proof.
  intros py_eq attr_eq type code p q f g id1 id2 blank blanked rest RA ND N name old new same h.
  apply not_told; [reflexivity| |exact N]. unfold same, strictly_equal, old, new, component_of. cbn [o_type o_qualname o_code]. rewrite Nat.eqb_refl. cbn [negb].
  assert (L : local_name name = true) by (apply local_name_iff; exists p, q; right; reflexivity). rewrite L. cbn [andb]. rewrite String.eqb_refl. cbn [negb].
  rewrite (same_code_refl attr_eq code RA ND code (incl_refl _)). reflexivity.
Qed.
Print Assumptions C108_same_name_refuted.

(** ** Fixtures *)

(** What a test does with its fixtures: it mounts a component on fixture [f] ([BackendFixture.mount]), or a client opens its page. *)
Inductive action (ctor : Type) := Mount (f : nat) (c : ctor) | Visit (f : nat).
Arguments Mount {ctor}. Arguments Visit {ctor}.
(** All fixtures have the same function to mount and the same root component: backend.py:54, 60, 65, 246. *)
Definition swapped {ctor} (a : action ctor) : event ctor := match a with Mount _ c => Swap (Some c) | Visit _ => Open end.

(** Specification: what was mounted last on fixture [f]. *)
Fixpoint mounted {ctor} (f : nat) (acc : ctor) (l : list (action ctor)) : ctor :=
  match l with
  | [] => acc
  | Mount g c :: r => mounted f (if Nat.eqb g f then c else acc) r
  | Visit _ :: r => mounted f acc r
  end.
Definition visits {ctor} (l : list (action ctor)) : nat := length (filter (fun a => match a with Visit _ => true | _ => false end) l).

(** If one fixture is used, each client sees what was mounted when it came; whatever is mounted later. *)
Theorem C108_fixture_partial : forall ctor same (blank blanked : ctor) f l1 l2,
  (forall g c, In (Mount g c) l1 -> g = f) ->
  shows ctor same blank blanked false (map swapped (l1 ++ [Visit f] ++ l2)) (visits l1) (fun v => v_shown ctor v = mounted f blank l1).
Proof.
  intros ctor same blank blanked f l1 l2 O.
  assert (V : visits l1 = views ctor (map swapped l1)).
  { unfold visits, views. clear. induction l1 as [|[g c|g] l1 IH]; cbn; auto. }
  assert (M : mounted f blank l1 = current ctor blank blanked (map swapped l1)).
  { unfold current. revert O. generalize blank. clear. induction l1 as [|[g c|g] l1 IH]; intros b O; [reflexivity| |].
    - cbn. rewrite (O g c) by (left; reflexivity). rewrite Nat.eqb_refl. apply IH. intros g' c' I. apply (O g' c'). right. exact I.
    - cbn. apply IH. intros g' c' I. apply (O g' c'). right. exact I. }
  rewrite V, M. rewrite !map_app. cbn [map swapped].
  destruct (C108_static ctor same blank blanked false eq_refl) as [A _].
  destruct (A (map swapped l1) (map swapped l2)) as (v & E & P & _); [|exists v; split; [exact E|exact P]].
  intros I. apply in_map_iff in I. destruct I as ([g c|g] & D & _); discriminate.
Qed.
Print Assumptions C108_fixture_partial.

(** Finding: what is mounted on one fixture is displayed by all others. *)
Theorem C108_shared_refuted : forall ctor same (blank blanked c : ctor) f g, f <> g ->
  let l := [Mount g c; Visit f] in
  mounted f blank l = blank /\ shows ctor same blank blanked false (map swapped l) 0 (fun v => v_shown ctor v = c).
Proof.
  intros ctor same blank blanked c f g N l. split; [cbn; destruct (Nat.eqb_spec g f); [congruence|reflexivity]|]. eexists. split; reflexivity.
Qed.
Print Assumptions C108_shared_refuted.

(** A case that meets the hypotheses: two views, one opened between the swaps, and one that is closed. *)
Example C108_example :
  let h := [Swap (Some 1); Open; Started 0; Open; Render 1; Started 1; Swap (Some 2); Render 0; Close 1; Swap None; Open] in
  w_views nat (run nat Nat.eqb 0 9 true h) = [View nat 9 true true true 2; View nat 9 true true false 1; View nat 9 false false true 9] /\
  current nat 0 9 h = 9.
Proof. vm_compute. auto. Qed.
Example C108_names : let code := [("co_argcount", 0); ("co_code", 5)]%string in let name := "test.<locals>.Counter"%string in
  strictly_equal (fun _ _ => None) Nat.eqb (component_of 1 0 code name (VInt 1%Z)) (component_of 2 0 code name (VInt 2%Z)) = Some true.
Proof. reflexivity. Qed.
