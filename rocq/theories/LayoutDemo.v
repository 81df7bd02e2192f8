(** * A concrete application, used to show that the theorems' hypotheses are met *)
From Coq Require Import String ZArith Bool Arith Lia List.
From Verif Require Import Dict Strings LayoutTypes LayoutModel BodySpec DisplaySpec GuardSpec LayoutObs LayoutHistory HooksModel HooksSteady.
Import ListNotations.
Local Open Scope string_scope.
Local Open Scope list_scope.

Definition on_click : dict string handler := [("onClick", Handler 1 false true None None None)].

(** [Counter]: a button showing its count and the theme, with an effect. *)
Definition counter_prog : prog :=
  PState (VInt 0) (fun v _ =>
    PContext 7 (VStr "light") (fun theme =>
      PEffect (Some []) 5
        (PRet (RElem "button" (Some [("class", theme)]) on_click None None
                (Some [RText (match v with VInt z => show_Z z | _ => "?" end)]))))).
Definition counter (k : option key) : raw := RComp (Cinst (CTUser 1) k VNone []).

(** [App]: a theme around two keyed counters that it can swap or remove. *)
Definition app_prog : prog :=
  PState (VInt 0) (fun v _ =>
    PRet (RComp (Cinst (CTContext 7) None (VStr "dark")
      (match v with
       | VInt 0 => [counter (Some (KStr "a")); RNone; RText "and"; counter (Some (KStr "b"))]
       | VInt 1 => [counter (Some (KStr "b")); RText "and"; counter (Some (KStr "a"))]
       | _ => [RElem "input" (Some [("value", VStr "x")]) on_click None None None; counter (Some (KStr "b"))]
       end)))).

Definition demo_prog (n : nat) (p : val) (kids : list raw) : prog :=
  match n with 0 => app_prog | 1 => counter_prog | _ => PRet RNone end.
Definition demo (n : nat) (p : val) (kids : list raw) : body := compile (demo_prog n p kids).
Definition demo_root : cinst := Cinst (CTUser 0) None VNone [].

(** Instances: 0 the app, 1 the provider, 2 and 3 the counters. *)
Definition demo_ops : list op :=
  [ORender [];
   OEnv (EDispatch 3 0 (UVal (VInt 5)));
   OEnv (EDispatch 0 0 (UVal (VInt 1)));
   OEnv (EDispatch 3 0 (UFun (fun v => match v with VInt z => VInt (z + 1) | _ => v end)));
   ORender [];
   ORender [[EDispatch 2 0 (UVal (VInt 9))]]].
Definition demo_more : list op := [ORender []; OEnv (EDispatch 0 0 (UVal (VInt 2))); ORender [[]; [EDispatch 2 0 (UVal (VInt 1))]]].

Definition end_of (ops : list op) : st :=
  match run true demo 40 ops (init demo_root) with Some s => s | None => init demo_root end.
Definition demo_mid : st := Eval vm_compute in end_of demo_ops.
Definition demo_end : st := Eval vm_compute in end_of (demo_ops ++ demo_more).

Lemma demo_mid_history : history true demo demo_root demo_ops demo_mid.
Proof. exists 40. vm_compute. reflexivity. Qed.
Lemma demo_end_history : history true demo demo_root (demo_ops ++ demo_more) demo_end.
Proof. exists 40. vm_compute. reflexivity. Qed.

Definition is_error (e : event) : bool := match e with EvError _ _ => true | _ => false end.
Lemma no_failure_dec l : existsb is_error l = false -> no_failure l.
Proof.
  intros E h e J. assert (X : existsb is_error l = true) by (apply existsb_exists; exists (EvError h e); auto). congruence.
Qed.
Lemma demo_mid_ok : no_failure (s_log demo_mid).
Proof. apply no_failure_dec. reflexivity. Qed.
Lemma demo_end_ok : no_failure (s_log demo_end).
Proof. apply no_failure_dec. reflexivity. Qed.

(** [Flaky]: raises until its state says that it is ready. *)
Definition flaky_prog : prog :=
  PState (VInt 0) (fun v _ => if veq v (VInt 0) then PRaise "not ready" else PRet (RText "ready")).
Definition flaky_app : prog :=
  PRet (RElem "div" None [] None None (Some [RComp (Cinst (CTUser 1) None VNone []); RComp (Cinst (CTUser 2) None VNone [])])).
Definition flaky_progs (n : nat) (p : val) (kids : list raw) : prog :=
  match n with 0 => flaky_app | 1 => flaky_prog | 2 => counter_prog | _ => PRet RNone end.
Definition flaky (n : nat) (p : val) (kids : list raw) : body := compile (flaky_progs n p kids).
Definition flaky_ops : list op := [ORender []; OEnv (EDispatch 2 0 (UVal (VInt 3))); ORender []].
Definition flaky_more : list op := [OEnv (EDispatch 1 0 (UVal (VInt 1))); ORender []].
Definition flaky_at (ops : list op) : st :=
  match run true flaky 40 ops (init demo_root) with Some s => s | None => init demo_root end.
Definition flaky_mid : st := Eval vm_compute in flaky_at flaky_ops.
Definition flaky_end : st := Eval vm_compute in flaky_at (flaky_ops ++ flaky_more).
Lemma flaky_mid_history : history true flaky demo_root flaky_ops flaky_mid.
Proof. exists 40. vm_compute. reflexivity. Qed.
Lemma flaky_end_history : history true flaky demo_root (flaky_ops ++ flaky_more) flaky_end.
Proof. exists 40. vm_compute. reflexivity. Qed.
(** It fails again after it was shown, and recovers again. *)
Definition flaky_again : list op := [OEnv (EDispatch 1 0 (UVal (VInt 0))); ORender []].
Definition flaky_down : st := Eval vm_compute in flaky_at (flaky_ops ++ flaky_more ++ flaky_again).
Definition flaky_up : st := Eval vm_compute in flaky_at (flaky_ops ++ flaky_more ++ flaky_again ++ flaky_more).
Lemma flaky_down_history : history true flaky demo_root (flaky_ops ++ flaky_more ++ flaky_again) flaky_down.
Proof. exists 40. vm_compute. reflexivity. Qed.
Lemma flaky_up_history : history true flaky demo_root (flaky_ops ++ flaky_more ++ flaky_again ++ flaky_more) flaky_up.
Proof. exists 40. vm_compute. reflexivity. Qed.
Lemma flaky_down_failed : last_failure (s_log flaky_down) 1 (EUser "not ready").
Proof.
  set (l := s_log flaky_down).
  exists (firstn (length l - 4) l), (skipn (length l - 2) l). split; [vm_compute; reflexivity|vm_compute; intuition discriminate].
Qed.
Lemma flaky_steady : steady_app flaky.
Proof.
  split; intros; [apply compile_steady; intros h|apply compile_no_provide]. destruct n as [|[|[|n]]]; simpl; auto.
  intros v. destruct (veq v (VInt 0)); simpl; auto.
Qed.

(** The errors and the texts of a model. *)
Fixpoint errors_in (m : model) : list string :=
  match m with
  | MText _ => []
  | MNode _ _ _ _ _ ch er => match er with Some e => [e] | None => [] end ++ match ch with Some l => flat_map errors_in l | None => [] end
  end.
Fixpoint texts_in (m : model) : list string :=
  match m with
  | MText t => [t]
  | MNode _ _ _ _ _ ch _ => match ch with Some l => flat_map texts_in l | None => [] end
  end.

(** Deciding [mild_failures]. *)
Fixpoint plainb (r : raw) : bool :=
  match r with
  | RNone | RText _ => true
  | RElem _ _ [] _ _ (Some l) => forallb plainb l
  | RElem _ _ [] _ _ None => true
  | _ => false
  end.
Fixpoint plainb_plain (r : raw) : plainb r = true -> plain r.
Proof.
  destruct r as [|x|tag attrs hs js imp ch|c]; intros E; try discriminate; try constructor.
  destruct hs; [|discriminate]. destruct ch as [l|]; [|constructor]. simpl in E. constructor. revert E.
  induction l as [|x l IHl]; [intros _ r []|]. intros E r J. simpl in E. apply andb_prop in E. destruct E as [E1 E2]. destruct J as [J|J].
  - rewrite <- J. exact (plainb_plain x E1).
  - exact (IHl E2 r J).
Qed.
Definition is_raised (e : exn) : bool := match e with EIndexError | EUser _ => true | _ => false end.
Fixpoint mild_from (p l : list event) : bool :=
  match l with
  | [] => true
  | e :: l' => match e with
               | EvError h x => is_raised x && forallb (fun y => match y with EvReturn z r => if Nat.eqb z h then plainb r else true | _ => true end) p
               | _ => true
               end && mild_from (p ++ [e]) l'
  end.
Lemma mild_dec l : mild_from [] l = true -> mild_failures l.
Proof.
  assert (G : forall l p, mild_from p l = true -> forall l1 h e l2, l = l1 ++ EvError h e :: l2 ->
    raised e /\ forall r, In (EvReturn h r) (p ++ l1) -> plain r).
  { clear l. induction l as [|x l IH]; intros p E l1 h e l2 X; [destruct l1; discriminate|]. simpl in E. apply andb_true_iff in E.
    destruct E as [E1 E2]. destruct l1 as [|y l1]; simpl in X; injection X as -> X.
    - apply andb_true_iff in E1. destruct E1 as [E1 E3]. rewrite app_nil_r. split.
      + destruct e; try discriminate; first [right; eexists; reflexivity|left; reflexivity].
      + intros r J. rewrite forallb_forall in E3. specialize (E3 _ J). simpl in E3. rewrite Nat.eqb_refl in E3. apply plainb_plain, E3.
    - destruct (IH _ E2 _ _ _ _ X) as [A B]. split; [exact A|]. rewrite <- app_assoc in B. exact B. }
  intros E l1 h e l2 X. apply (G l [] E l1 h e l2 X).
Qed.
Lemma flaky_mid_ok : mild_failures (s_log flaky_mid).
Proof. apply mild_dec. reflexivity. Qed.
Lemma flaky_end_ok : mild_failures (s_log flaky_end).
Proof. apply mild_dec. reflexivity. Qed.

Lemma demo_scoped n p l h : scoped h 0 (demo_prog n p l).
Proof. destruct n as [|[|n]]; simpl; auto. Qed.
Lemma demo_steady : steady_app demo.
Proof. split; intros; [apply compile_steady; intros; apply demo_scoped|apply compile_no_provide]. Qed.

Lemma nochar_dec c s : existsb (Ascii.eqb c) (list_ascii_of_string s) = false -> nochar c s.
Proof. induction s as [|a s IH]; simpl; auto. rewrite orb_false_iff. intros [A B]. apply Ascii.eqb_neq in A. split; auto. Qed.

Ltac siblings := split; [repeat constructor; simpl; intuition discriminate|cbn; repeat constructor; discriminate].
Lemma click_ok : handlers_ok on_click.
Proof.
  split; [repeat constructor; intros []|]. intros ev h [E|[]]. injection E as <- <-. split; [reflexivity|apply nochar_dec; reflexivity].
Qed.
Lemma demo_keyed : keyed_app demo demo_root.
Proof.
  split; [|simpl; auto]. intros n p kids _. destruct n as [|[|n]].
  - intros h i [v| | | ]; simpl; auto. split; [|siblings]. simpl.
    assert (X : forall l, l = [counter (Some (KStr "a")); RNone; RText "and"; counter (Some (KStr "b"))] \/
                 l = [counter (Some (KStr "b")); RText "and"; counter (Some (KStr "a"))] \/
                 l = [RElem "input" (Some [("value", VStr "x")]) on_click None None None; counter (Some (KStr "b"))] ->
                 fold_right and True (map raw_ok l) /\ siblings_ok l).
    { intros l [ -> | [ -> | -> ] ]; (split; [cbn; intuition (apply click_ok)|siblings]). }
    apply X. destruct v as [ | |z| | | ]; auto. destruct z as [ |q|q]; auto. destruct q; auto.
  - intros h i [v| | | ]; simpl; auto. intros theme. intros h1 i1 [w|md mv|w|w]; simpl; auto.
    assert (Y : forall th z, out_ok (RElem "button" (Some [("class", th)]) on_click None None (Some [RText z]))).
    { intros th z. split; [|siblings]. simpl. split; [apply click_ok|]. split; [siblings|auto]. }
    destruct (memo_changed md mv (Some [])); simpl.
    + intros _ j [ | |w| ]; simpl; auto; apply Y.
    + intros _ j [ | |w| ]; simpl; auto. destruct mv; simpl; auto; apply Y.
  - simpl. split; [exact I|]. split; constructor.
Qed.
