(** * [use_debug_value] (C106)

    The renders of one component whose body calls [use_debug_value] once, in debug mode or not, with any message. *)

From Coq Require Import ZArith Bool Arith Lia List.
Import ListNotations.
Local Open Scope list_scope.

(** ** Python's objects *)

(** What an object is at some moment: its type, its value, and whether comparing it with [==] or [!=] gives something that has no
    truth value, as for an array.  Objects of different types may be equal, as 1 and True are. *)
Record content := { c_type : nat; c_value : Z; c_array : bool }.

(** The identity of an object.  The heap tells what each object is; a list or dictionary may change between two renders. *)
Definition obj := nat.
Definition heap := obj -> content.

(** The truth value of [x != y]; [None]: an exception. *)
Definition differ (x y : content) : option bool :=
  if c_array x || c_array y then None else Some (negb (Z.eqb (c_value x) (c_value y))).

(** The truth value of [strictly_equal(x, y)], hooks.py:591-643, for objects that are not functions. *)
Definition strictly_equal (x y : content) : option bool :=
  if Nat.eqb (c_type x) (c_type y)
  then match differ x y with Some b => Some (negb b) | None => None end
  else Some false.

(** ** One render *)

(** The message is an object that is not callable, or a function: what it gives if it is called in this render ([None]: it raises an
    exception), and what is in its closure ([None]: a callable that is not a plain function). *)
Inductive message := Value (o : obj) | Function (gives : option obj) (closure : option (list obj)).

(** The argument [dependencies]: left out, or given. *)
Inductive dependencies := Inferred | Given (d : option (list obj)).

Record render := { r_debug : bool; r_message : message; r_deps : dependencies; r_heap : heap }.

(** What the hook keeps: the last object logged ([None]: the fresh object() of the first render, which is unequal to all others;
    comparing it with an array has no truth value either), and the memo. *)
Record state := { s_old : option obj; s_deps : list obj; s_value : option obj }.
Definition start : state := {| s_old := None; s_deps := []; s_value := None |}.

(** What a render makes of the call: nothing is logged, an object is logged with the content it has then, or the call raises. *)
Inductive outcome := Quiet | Logged (c : content) | Raised.

(** [_try_to_infer_closure_values], hooks.py:575-588; the function around a message that is no function has it in its closure,
    hooks.py:317. *)
Definition infer (m : message) (d : dependencies) : option (list obj) :=
  match d with
  | Given x => x
  | Inferred => match m with Value o => Some [o] | Function _ closure => closure end
  end.

(** The comparison of dependencies, hooks.py:515-522: Python's [all] stops at the first that is not equal. *)
Fixpoint all_equal (h : heap) (a b : list obj) : option bool :=
  match a, b with
  | x :: a', y :: b' =>
      match strictly_equal (h x) (h y) with
      | Some true => all_equal h a' b'
      | Some false => Some false
      | None => None
      end
  | _, _ => Some true
  end.

Definition unchanged (h : heap) (a b : list obj) : option bool :=
  if Nat.eqb (length a) (length b) then all_equal h a b else Some false.

Definition gives (m : message) : option obj := match m with Value o => Some o | Function x _ => x end.

(** [use_memo], hooks.py:486-539: the new memo, and the value or [None] for an exception. *)
Definition memo (st : state) (r : render) : state * option obj :=
  let deps := infer (r_message r) (r_deps r) in
  let compute d :=
    match gives (r_message r) with
    | Some o => ({| s_old := s_old st; s_deps := d; s_value := Some o |}, Some o)
    | None => ({| s_old := s_old st; s_deps := d; s_value := s_value st |}, None)
    end in
  match s_value st, deps with
  | None, None => compute []
  | None, Some d => compute d
  | Some _, None => compute []
  | Some v, Some d =>
      match unchanged (r_heap r) (s_deps st) d with
      | None => (st, None)
      | Some true => (st, Some v)
      | Some false => compute d
      end
  end.

(** [old.current != new], hooks.py:320. *)
Definition old_differs (h : heap) (old : option obj) (new : obj) : option bool :=
  match old with
  | None => if c_array (h new) then None else Some true
  | Some o => differ (h o) (h new)
  end.

(** [use_debug_value], hooks.py:294-322. *)
Definition use_debug_value (st : state) (r : render) : state * outcome :=
  match memo st r with
  | (st', None) => (st', Raised)
  | (st', Some new) =>
      if r_debug r then
        match old_differs (r_heap r) (s_old st') new with
        | None => (st', Raised)
        | Some true => ({| s_old := Some new; s_deps := s_deps st'; s_value := s_value st' |}, Logged (r_heap r new))
        | Some false => (st', Quiet)
        end
      else (st', Quiet)
  end.

Fixpoint renders (st : state) (l : list render) : state * list outcome :=
  match l with
  | [] => (st, [])
  | r :: l' => let (st1, o) := use_debug_value st r in let (st2, os) := renders st1 l' in (st2, o :: os)
  end.

Definition outcomes (l : list render) : list outcome := snd (renders start l).

(** ** Specification *)

(** The last message that was logged. *)
Fixpoint last_logged (os : list outcome) : option content :=
  match os with
  | [] => None
  | o :: os' => match last_logged os' with Some c => Some c | None => match o with Logged c => Some c | _ => None end end
  end.

(** The message of a render, for one whose function does not raise. *)
Definition says (r : render) (c : content) : Prop :=
  match r_message r with Value o | Function (Some o) _ => r_heap r o = c | Function None _ => False end.

(** Nothing is changed in place, there are no arrays, and functions do not raise. *)
Definition plain (l : list render) : Prop :=
  exists h : heap, (forall o, c_array (h o) = false) /\
  forall r, In r l -> r_heap r = h /\ match r_message r with Function None _ => False | _ => True end.

(** Where the dependencies of two renders are equal, so are the messages. *)
Definition honest (l : list render) : Prop :=
  forall r1 r2 d1 d2 c1 c2, In r1 l -> In r2 l -> infer (r_message r1) (r_deps r1) = Some d1 -> infer (r_message r2) (r_deps r2) = Some d2 ->
    length d1 = length d2 -> Forall2 (fun x y => c_type (r_heap r1 x) = c_type (r_heap r2 y) /\ c_value (r_heap r1 x) = c_value (r_heap r2 y)) d1 d2 ->
    says r1 c1 -> says r2 c2 -> c_value c1 = c_value c2.

(** ** Proofs *)

Lemma all_equal_spec h : (forall o, c_array (h o) = false) -> forall a b, length a = length b ->
  all_equal h a b = Some true /\ Forall2 (fun x y => c_type (h x) = c_type (h y) /\ c_value (h x) = c_value (h y)) a b \/ all_equal h a b = Some false.
Proof.
  intros A. induction a as [|x a IH]; intros [|y b] L; try discriminate; [left; split; [reflexivity|constructor]|].
  injection L as L. cbn [all_equal]. unfold strictly_equal, differ. rewrite !A. cbn [orb].
  destruct (Nat.eqb (c_type (h x)) (c_type (h y))) eqn:T; [|right; reflexivity].
  destruct (Z.eqb (c_value (h x)) (c_value (h y))) eqn:V; cbn [negb]; [|right; reflexivity].
  apply Nat.eqb_eq in T. apply Z.eqb_eq in V. destruct (IH b L) as [[E F]|E]; [left|right]; auto.
Qed.

Lemma renders_app l : forall st r, renders st (l ++ [r]) =
  (fst (use_debug_value (fst (renders st l)) r), snd (renders st l) ++ [snd (use_debug_value (fst (renders st l)) r)]).
Proof.
  induction l as [|a l IH]; intros st r; cbn [app renders].
  - cbn [fst snd app]. destruct (use_debug_value st r) as [s o]. reflexivity.
  - destruct (use_debug_value st a) as [s o]. rewrite IH. destruct (renders s l) as [s' os]. reflexivity.
Qed.

Lemma last_logged_app os o : last_logged (os ++ [o]) = match o with Logged c => Some c | _ => last_logged os end.
Proof.
  induction os as [|x os IH]; cbn [app last_logged]; [destruct o; reflexivity|]. rewrite IH. destruct o; reflexivity.
Qed.

(** The state after renders: what was logged last, and a memo that belongs to one of them. *)
Definition inv (h : heap) (l : list render) (st : state) (os : list outcome) : Prop :=
  last_logged os = match s_old st with Some o => Some (h o) | None => None end /\
  match s_value st with
  | None => l = []
  | Some v => exists r, In r l /\ gives (r_message r) = Some v /\
      (infer (r_message r) (r_deps r) = Some (s_deps st) \/ infer (r_message r) (r_deps r) = None /\ s_deps st = [])
  end.

(** A memo made without dependencies is used by a later render only if that one has an empty list of them. *)
Definition same_style (l : list render) : Prop :=
  (forall r, In r l -> infer (r_message r) (r_deps r) = None) \/ (forall r, In r l -> infer (r_message r) (r_deps r) <> None).

Lemma step_inv h l r :
  (forall o, c_array (h o) = false) -> (forall x, In x (l ++ [r]) -> r_heap x = h /\ match r_message x with Function None _ => False | _ => True end) ->
  honest (l ++ [r]) -> same_style (l ++ [r]) -> forall st os, inv h l st os ->
  exists c, says r c /\
  snd (use_debug_value st r) =
    (if r_debug r then match last_logged os with
       | Some c' => if Z.eqb (c_value c') (c_value c) then Quiet else Logged (h (match s_value (fst (memo st r)) with Some v => v | None => 0 end))
       | None => Logged (h (match s_value (fst (memo st r)) with Some v => v | None => 0 end)) end else Quiet) /\
  (exists v, s_value (fst (memo st r)) = Some v /\ c_value (h v) = c_value c) /\
  inv h (l ++ [r]) (fst (use_debug_value st r)) (os ++ [snd (use_debug_value st r)]).
Proof.
  intros A P HN SS st os [L M].
  destruct (P r) as [Hr Pr]; [apply in_app_iff; right; left; reflexivity|].
  assert (G : exists o, gives (r_message r) = Some o /\ says r (h o)).
  { unfold says. rewrite Hr. destruct (r_message r) as [o|[o|] cl]; cbn [gives]; [| |contradiction]; eauto. }
  destruct G as (o & G & Sa). exists (h o). split; [exact Sa|].
  (* the memo *)
  assert (Q : exists st' v, memo st r = (st', Some v) /\ s_value st' = Some v /\ s_old st' = s_old st /\ c_value (h v) = c_value (h o) /\
     exists r', In r' (l ++ [r]) /\ gives (r_message r') = Some v /\
      (infer (r_message r') (r_deps r') = Some (s_deps st') \/ infer (r_message r') (r_deps r') = None /\ s_deps st' = [])).
  { unfold memo. rewrite G. destruct (s_value st) as [v|] eqn:V.
    - destruct M as (r' & I & G' & D). destruct (infer (r_message r) (r_deps r)) as [d|] eqn:E.
      + assert (N' : infer (r_message r') (r_deps r') = Some (s_deps st)).
        { destruct D as [D|[D _]]; [exact D|]. destruct SS as [SS|SS].
          - rewrite (SS r) in E by (apply in_app_iff; right; left; reflexivity). discriminate.
          - exfalso. apply (SS r'); [apply in_app_iff; auto|exact D]. }
        unfold unchanged. rewrite Hr. destruct (Nat.eqb (length (s_deps st)) (length d)) eqn:LE.
        * apply Nat.eqb_eq in LE. destruct (all_equal_spec h A _ _ LE) as [[-> F]| ->].
          -- exists st, v. repeat split; auto.
             ++ destruct (P r') as [Hr' Pr']; [apply in_app_iff; auto|]. apply (HN r' r (s_deps st) d (h v) (h o)).
                ** apply in_app_iff; auto.
                ** apply in_app_iff; right; left; reflexivity.
                ** exact N'.
                ** exact E.
                ** exact LE.
                ** rewrite Hr, Hr'. exact F.
                ** unfold says. rewrite Hr'. destruct (r_message r') as [w|[w|] cl]; cbn [gives] in G'; try discriminate; injection G' as ->; reflexivity.
                ** exact Sa.
             ++ exists r'. split; [apply in_app_iff; auto|]. auto.
          -- eexists _, o. split; [reflexivity|]. cbn. split; [reflexivity|]. split; [reflexivity|]. split; [reflexivity|].
             exists r. split; [apply in_app_iff; right; left; reflexivity|]. auto.
        * eexists _, o. split; [reflexivity|]. cbn. split; [reflexivity|]. split; [reflexivity|]. split; [reflexivity|].
          exists r. split; [apply in_app_iff; right; left; reflexivity|]. auto.
      + eexists _, o. split; [reflexivity|]. cbn. split; [reflexivity|]. split; [reflexivity|]. split; [reflexivity|].
        exists r. split; [apply in_app_iff; right; left; reflexivity|]. auto.
    - destruct (infer (r_message r) (r_deps r)) as [d|] eqn:E;
      (eexists _, o; split; [reflexivity|]; cbn; split; [reflexivity|]; split; [reflexivity|]; split; [reflexivity|];
       exists r; split; [apply in_app_iff; right; left; reflexivity|]; auto). }
  destruct Q as (st' & v & Q & V & O & C & R). rewrite Q. cbn [fst]. rewrite V.
  unfold use_debug_value. rewrite Q, Hr. unfold old_differs, differ. rewrite O, !A. cbn [orb].
  destruct (r_debug r).
  - destruct (s_old st) as [w|] eqn:W; rewrite L.
    + rewrite A. cbn [orb]. rewrite <- C. destruct (Z.eqb (c_value (h w)) (c_value (h v))) eqn:EQ; cbn [negb fst snd].
      * split; [reflexivity|]. split; [eauto|]. split; [rewrite last_logged_app, O, L; reflexivity|]. rewrite V. exact R.
      * split; [reflexivity|]. split; [eauto|]. split; [rewrite last_logged_app; reflexivity|]. cbn [s_value s_deps]. rewrite V. exact R.
    + cbn [fst snd]. split; [reflexivity|]. split; [eauto|]. split; [rewrite last_logged_app; reflexivity|]. cbn [s_value s_deps]. rewrite V. exact R.
  - cbn [fst snd]. split; [reflexivity|]. split; [eauto|]. split; [rewrite last_logged_app, O; exact L|]. rewrite V. exact R.
Qed.

Lemma sub_app {A} (P : A -> Prop) (l : list A) r : (forall x, In x (l ++ [r]) -> P x) -> forall x, In x l -> P x.
Proof. intros H x I. apply H, in_app_iff. auto. Qed.

Lemma runs_inv h l : (forall o, c_array (h o) = false) -> (forall x, In x l -> r_heap x = h /\ match r_message x with Function None _ => False | _ => True end) ->
  honest l -> same_style l -> inv h l (fst (renders start l)) (outcomes l).
Proof.
  intros A. induction l as [|r l IH] using rev_ind; intros P HN SS; [split; reflexivity|].
  unfold outcomes. rewrite renders_app. cbn [fst snd].
  assert (I : inv h l (fst (renders start l)) (outcomes l)).
  { apply IH.
    - exact (sub_app _ _ _ P).
    - intros r1 r2 d1 d2 c1 c2 I1 I2. apply HN; apply in_app_iff; auto.
    - destruct SS as [SS|SS]; [left|right]; exact (sub_app _ _ _ SS). }
  destruct (step_inv h l r A P HN SS _ _ I) as (c & _ & _ & _ & J). exact J.
Qed.

(** C106, partial: a render logs exactly if debug mode is on and the message differs from the one logged last, and what it logs is
    (equal to) its message.  The messages may come from a function whose dependencies say when it changes.  Missing: objects that are
    changed in place, arrays, functions that raise, and renders of which some have dependencies and some have none
    ([C106_in_place_refuted], [C106_array_refuted], [C106_raise_refuted], [C106_style_refuted]). *)
Theorem C106_logs_partial l r : plain (l ++ [r]) -> honest (l ++ [r]) -> same_style (l ++ [r]) ->
  exists c, says r c /\ exists o, outcomes (l ++ [r]) = outcomes l ++ [o] /\
  ((o = Quiet /\ (r_debug r = false \/ exists c', last_logged (outcomes l) = Some c' /\ c_value c' = c_value c)) \/
   (exists m, o = Logged m /\ c_value m = c_value c /\ r_debug r = true /\ forall c', last_logged (outcomes l) = Some c' -> c_value c' <> c_value c)).
Proof.
  intros (h & A & P) HN SS.
  assert (I : inv h l (fst (renders start l)) (outcomes l)).
  { apply runs_inv.
    - exact A.
    - exact (sub_app _ _ _ P).
    - intros r1 r2 d1 d2 c1 c2 I1 I2. apply HN; apply in_app_iff; auto.
    - destruct SS as [SS|SS]; [left|right]; exact (sub_app _ _ _ SS). }
  destruct (step_inv h l r A P HN SS _ _ I) as (c & Sa & E & (v & V & C) & _). exists c. split; [exact Sa|].
  exists (snd (use_debug_value (fst (renders start l)) r)). split; [unfold outcomes; rewrite renders_app; reflexivity|].
  rewrite E, V. destruct (r_debug r); [|left; auto].
  destruct (last_logged (outcomes l)) as [c'|] eqn:LL.
  - destruct (Z.eqb (c_value c') (c_value c)) eqn:EQ.
    + left. split; [reflexivity|]. right. exists c'. apply Z.eqb_eq in EQ. auto.
    + right. eexists. split; [reflexivity|]. split; [exact C|]. split; [reflexivity|]. intros c'' [= <-]. apply Z.eqb_neq. exact EQ.
  - right. eexists. split; [reflexivity|]. split; [exact C|]. split; [reflexivity|]. intros c'' [=].
Qed.

(** C106: for messages that are no functions, with the dependencies left out, no more has to be assumed. *)
Theorem C106_values l r : plain (l ++ [r]) -> (forall x, In x (l ++ [r]) -> r_deps x = Inferred /\ exists o, r_message x = Value o) ->
  exists c, says r c /\ exists o, outcomes (l ++ [r]) = outcomes l ++ [o] /\
  ((o = Quiet /\ (r_debug r = false \/ exists c', last_logged (outcomes l) = Some c' /\ c_value c' = c_value c)) \/
   (exists m, o = Logged m /\ c_value m = c_value c /\ r_debug r = true /\ forall c', last_logged (outcomes l) = Some c' -> c_value c' <> c_value c)).
Proof.
  intros P V. apply C106_logs_partial; [exact P| |].
  - intros r1 r2 d1 d2 c1 c2 I1 I2 E1 E2 _ F S1 S2. destruct (V r1 I1) as (D1 & o1 & M1). destruct (V r2 I2) as (D2 & o2 & M2).
    unfold says in *. rewrite M1, D1 in *. rewrite M2, D2 in *. cbn [infer] in *. injection E1 as <-. injection E2 as <-.
    inversion F as [|? ? ? ? [_ Q] _]; subst. exact Q.
  - right. intros x I. destruct (V x I) as (-> & o & ->). discriminate.
Qed.

(** C106: whatever the messages, outside debug mode nothing is logged. *)
Theorem C106_quiet l n r c : nth_error l n = Some r -> nth_error (outcomes l) n = Some (Logged c) -> r_debug r = true.
Proof.
  unfold outcomes. revert n. generalize start. induction l as [|a l IH]; intros st n I O; [destruct n; discriminate|].
  cbn [renders] in O. destruct (use_debug_value st a) as [s o] eqn:E. destruct n as [|n].
  - injection I as <-. destruct (renders s l) as [s' os]. injection O as ->. unfold use_debug_value in E.
    destruct (memo st a) as [s1 [v|]]; [|discriminate]. destruct (r_debug a); [reflexivity|discriminate].
  - apply (IH s n I). destruct (renders s l) as [s' os]. exact O.
Qed.

(** The same renders, in or outside debug mode. *)
Definition mode (debug : list bool) (l : list render) : list render :=
  map (fun p => {| r_debug := fst p; r_message := r_message (snd p); r_deps := r_deps (snd p); r_heap := r_heap (snd p) |}) (combine debug l).

Definition fails (o : outcome) : bool := match o with Raised => true | _ => false end.

(** C106: without arrays, debug mode does not change in which renders the hook raises; whatever is done in place, and for all functions
    and dependencies. *)
Theorem C106_harmless l d1 d2 : length d1 = length l -> length d2 = length l -> (forall r o, In r l -> c_array (r_heap r o) = false) ->
  forall n, nth_error (outcomes (mode d1 l)) n = Some Raised -> nth_error (outcomes (mode d2 l)) n = Some Raised.
Proof.
  intros L1 L2 A. unfold outcomes.
  assert (G : forall l d1 d2 s1 s2, length d1 = length l -> length d2 = length l -> (forall r o, In r l -> c_array (r_heap r o) = false) ->
     s_deps s1 = s_deps s2 -> s_value s1 = s_value s2 -> map fails (snd (renders s1 (mode d1 l))) = map fails (snd (renders s2 (mode d2 l)))).
  { clear. induction l as [|r l IH]; intros [|b1 d1] [|b2 d2] s1 s2 L1 L2 A D V; try discriminate; [reflexivity|].
    injection L1 as L1. injection L2 as L2. cbn [mode combine map fst snd renders].
    set (r1 := {| r_debug := b1; r_message := r_message r; r_deps := r_deps r; r_heap := r_heap r |}).
    set (r2 := {| r_debug := b2; r_message := r_message r; r_deps := r_deps r; r_heap := r_heap r |}).
    assert (M : snd (memo s1 r1) = snd (memo s2 r2) /\ s_deps (fst (memo s1 r1)) = s_deps (fst (memo s2 r2)) /\ s_value (fst (memo s1 r1)) = s_value (fst (memo s2 r2))).
    { unfold memo. cbn [r_message r_deps r_heap r1 r2]. rewrite D, V.
      destruct (gives (r_message r)) as [o|]; destruct (s_value s2) as [v|] eqn:V2; destruct (infer (r_message r) (r_deps r)) as [d|]; cbn [fst snd s_deps s_value]; try (repeat split; congruence);
      destruct (unchanged (r_heap r) (s_deps s2) d) as [[|]|]; cbn [fst snd s_deps s_value]; repeat split; congruence. }
    assert (Q : fails (snd (use_debug_value s1 r1)) = fails (snd (use_debug_value s2 r2)) /\ s_deps (fst (use_debug_value s1 r1)) = s_deps (fst (use_debug_value s2 r2)) /\
                s_value (fst (use_debug_value s1 r1)) = s_value (fst (use_debug_value s2 r2))).
    { unfold use_debug_value. destruct M as (M1 & M2 & M3). destruct (memo s1 r1) as [t1 w1], (memo s2 r2) as [t2 w2]. cbn [fst snd] in *. subst w2. destruct w1 as [v|]; [|auto].
      assert (B : forall (b : bool) t, exists o t', (if b then match old_differs (r_heap r) (s_old t) v with
          | None => (t, Raised) | Some true => ({| s_old := Some v; s_deps := s_deps t; s_value := s_value t |}, Logged (r_heap r v)) | Some false => (t, Quiet) end else (t, Quiet)) = (t', o) /\
          fails o = false /\ s_deps t' = s_deps t /\ s_value t' = s_value t).
      { intros [|] t; [|eexists _, _; split; [reflexivity|auto]]. unfold old_differs, differ. assert (A' : forall o, c_array (r_heap r o) = false) by (intros o; apply A; left; reflexivity).
        destruct (s_old t) as [w|]; rewrite !A'; cbn [orb]; [destruct (negb _)|]; (eexists _, _; split; [reflexivity|auto]). }
      cbn [r_debug r_heap r1 r2]. destruct (B b1 t1) as (o1 & u1 & -> & F1 & G1 & H1). destruct (B b2 t2) as (o2 & u2 & -> & F2 & G2 & H2). cbn [fst snd].
      rewrite F1, F2, G1, G2, H1, H2. auto. }
    destruct Q as (Q1 & Q2 & Q3). destruct (use_debug_value s1 r1) as [u1 o1], (use_debug_value s2 r2) as [u2 o2]. cbn [fst snd] in *.
    assert (N : map fails (snd (renders u1 (mode d1 l))) = map fails (snd (renders u2 (mode d2 l)))) by (apply IH; auto; intros x o I; apply A; right; exact I).
    fold (mode d1 l) (mode d2 l). destruct (renders u1 (mode d1 l)), (renders u2 (mode d2 l)). cbn [snd map] in *. congruence. }
  intros n E. specialize (G l d1 d2 start start L1 L2 A eq_refl eq_refl). apply (map_nth_error fails) in E. rewrite G, nth_error_map in E.
  destruct (nth_error (snd (renders start (mode d2 l))) n) as [[| |]|]; try discriminate E. reflexivity.
Qed.

(** ** Findings and examples *)

Definition num (z : Z) : content := {| c_type := 0; c_value := z; c_array := false |}.
Definition at_debug (m : message) (d : dependencies) (h : heap) : render := {| r_debug := true; r_message := m; r_deps := d; r_heap := h |}.
Definition nums : heap := fun o => num (Z.of_nat o).

(** Finding: a list that is changed in place between two renders differs from what was logged, and is not logged again. *)
Theorem C106_in_place_refuted : exists r1 r2 c1 c2, says r1 c1 /\ says r2 c2 /\ c_value c1 <> c_value c2 /\ r_debug r2 = true /\
  outcomes [r1; r2] = [Logged c1; Quiet].
Proof.
  exists (at_debug (Value 1) Inferred (fun _ => num 1)), (at_debug (Value 1) Inferred (fun _ => num 2)), (num 1), (num 2).
  repeat split. discriminate.
Qed.

(** Finding: a message that is an array makes the component fail, but only in debug mode. *)
Theorem C106_array_refuted : exists r, outcomes (mode [true] [r]) = [Raised] /\ outcomes (mode [false] [r]) = [Quiet].
Proof. exists (at_debug (Value 1) Inferred (fun _ => {| c_type := 1; c_value := 0; c_array := true |})). split; reflexivity. Qed.

(** Finding: after the function has raised, the next render with the same dependencies takes the message of the earlier ones. *)
Theorem C106_raise_refuted : exists r1 r2 r3 c3, says r3 c3 /\ honest [r1; r2; r3] /\
  outcomes [r1; r2; r3] = [Logged (num 1); Raised; Quiet] /\ c_value c3 <> 1%Z.
Proof.
  exists (at_debug (Function (Some 1) None) (Given (Some [5])) nums), (at_debug (Function None None) (Given (Some [6])) nums),
    (at_debug (Function (Some 2) None) (Given (Some [6])) nums), (num 2). split; [reflexivity|]. split; [|split; [reflexivity|discriminate]].
  intros a b d1 d2 c1 c2 [<-|[<-|[<-|[]]]] [<-|[<-|[<-|[]]]] [= <-] [= <-] _ F S1 S2; cbn in S1, S2; try contradiction; subst;
    try reflexivity; exfalso; inversion F as [|? ? ? ? [_ Q] _]; subst; cbn in Q; discriminate.
Qed.

(** Finding: a render that gives no dependencies leaves an empty list, which a later render with an empty list takes for its own. *)
Theorem C106_style_refuted : exists r1 r2 c2, says r2 c2 /\ honest [r1; r2] /\ plain [r1; r2] /\ outcomes [r1; r2] = [Logged (num 1); Quiet] /\ c_value c2 <> 1%Z.
Proof.
  exists (at_debug (Function (Some 1) None) (Given None) nums), (at_debug (Function (Some 2) None) (Given (Some [])) nums), (num 2).
  split; [reflexivity|]. split; [|split; [|split; [reflexivity|discriminate]]].
  - intros a b d1 d2 c1 c2 [<-|[<-|[]]] [<-|[<-|[]]] E1 E2 _ _ S1 S2; try discriminate E1; try discriminate E2. rewrite <- S1, <- S2. reflexivity.
  - exists nums. split; [reflexivity|]. intros r [<-|[<-|[]]]; split; reflexivity || exact I.
Qed.

(** Debug mode is switched on at the second render; the third has an equal message of another type; a function gives the fifth. *)
Definition demo : list render :=
  let h : heap := fun o => match o with 1 => num 7 | 2 => {| c_type := 1; c_value := 7; c_array := false |} | _ => num 9 end in
  [ {| r_debug := false; r_message := Value 1; r_deps := Inferred; r_heap := h |}; at_debug (Value 1) Inferred h; at_debug (Value 2) Inferred h;
    at_debug (Value 3) Inferred h; at_debug (Function (Some 1) (Some [2; 3])) Inferred h ].

Example C106_example : outcomes demo = [Quiet; Logged (num 7); Quiet; Logged (num 9); Logged (num 7)].
Proof. reflexivity. Qed.

Example C106_guards : plain demo /\ honest demo /\ same_style demo.
Proof.
  split; [|split].
  - exists (fun o => match o with 1 => num 7 | 2 => {| c_type := 1; c_value := 7; c_array := false |} | _ => num 9 end). split.
    + intros [|[|[|o]]]; reflexivity.
    + intros r [<-|[<-|[<-|[<-|[<-|[]]]]]]; split; reflexivity || exact I.
  - intros a b d1 d2 c1 c2 [<-|[<-|[<-|[<-|[<-|[]]]]]] [<-|[<-|[<-|[<-|[<-|[]]]]]] [= <-] [= <-] L F S1 S2; cbn in S1, S2; subst; try reflexivity; try discriminate;
      exfalso; inversion F as [|? ? ? ? [_ Q] _]; subst; cbn in Q; discriminate.
  - right. intros r [<-|[<-|[<-|[<-|[<-|[]]]]]]; discriminate.
Qed.

Print Assumptions C106_logs_partial.
Print Assumptions C106_values.
Print Assumptions C106_quiet.
Print Assumptions C106_harmless.
Print Assumptions C106_in_place_refuted.
Print Assumptions C106_array_refuted.
Print Assumptions C106_raise_refuted.
Print Assumptions C106_style_refuted.
