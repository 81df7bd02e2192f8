(** * Model of event handler inspection and merging, and properties C34, C35

    /repo/src/reactpy/core/_event_inspect.py, /repo/src/reactpy/core/events.py.
    A function is given by what [dis.get_instructions] and its attributes show: the instructions (operation name and
    [argval]), [co_argcount], [co_varnames], [co_names], [__defaults__], [__kwdefaults__] and the closure. *)
From Coq Require Import String ZArith Bool Arith Lia List.
From Verif Require Import Dict.
Import ListNotations.
Local Open Scope string_scope. Local Open Scope list_scope.

(** [Instruction.argval]: a name (or a string constant), a pair of names (fused instructions), an int that is not a bool,
    anything else. *)
Inductive argval := AStr (s : string) | APair (a b : string) | AInt (z : Z) | AOther.
Record instr := Instr { opname : string; arg : argval }.
(** [f_defaults], [f_kwdefaults], [f_closure]: [None] stands for a value that is not an int (or is a bool). *)
Record func := Func {
  f_code : list instr; f_argcount : nat; f_varnames : list string; f_names : list string;
  f_defaults : list (option Z); f_kwdefaults : list (string * option Z); f_closure : list (string * option Z)
}.

(** Whether an instruction loads the event: _event_inspect.py:75-96. *)
Definition loads (ev : string) (i : instr) : bool :=
  (mem (opname i) ["LOAD_FAST"; "LOAD_FAST_BORROW"] && match arg i with AStr s => String.eqb s ev | _ => false end) ||
  (mem (opname i) ["LOAD_FAST_LOAD_FAST"; "LOAD_FAST_BORROW_LOAD_FAST_BORROW"] && match arg i with APair _ b => String.eqb b ev | _ => false end).

(** [_function_arg_defaults], lines 142-167. *)
Fixpoint set_ints (l : list (string * option Z)) (d : dict string Z) : dict string Z :=
  match l with
  | [] => d
  | (n, Some z) :: l' => set_ints l' (dset n z d)
  | (_, None) :: l' => set_ints l' d
  end.
Definition arg_defaults (f : func) : dict string Z :=
  set_ints (f_kwdefaults f) (set_ints (combine (skipn (f_argcount f - length (f_defaults f)) (f_varnames f)) (f_defaults f)) []).
(** [_closure_lookup], lines 170-186. *)
Definition closure_by_name (f : func) : dict string Z := set_ints (f_closure f) [].

(** [_resolve_debounce_value], lines 201-265. *)
Definition resolve (f : func) (ev : string) (k : nat) : option Z :=
  if Nat.ltb k 1 then None
  else match nth_error (f_code f) (k - 1) with
       | None => None
       | Some prev =>
           if mem (opname prev) ["LOAD_FAST_LOAD_FAST"; "LOAD_FAST_BORROW_LOAD_FAST_BORROW"]
           then match arg prev with
                | APair a b => if String.eqb b ev then dget a (arg_defaults f) else None
                | _ => None
                end
           else if Nat.ltb k 2 then None
           else match nth_error (f_code f) (k - 2) with
                | None => None
                | Some v =>
                    if negb (mem (opname prev) ["LOAD_FAST"; "LOAD_FAST_BORROW"; "LOAD_FAST_LOAD_FAST"]) then None
                    else if negb (match arg prev with AStr s => String.eqb s ev | _ => false end) then None
                    else if mem (opname v) ["LOAD_CONST"; "LOAD_SMALL_INT"] then match arg v with AInt z => Some z | _ => None end
                    else if mem (opname v) ["LOAD_FAST"; "LOAD_FAST_BORROW"] then match arg v with AStr n => dget n (arg_defaults f) | _ => None end
                    else if String.eqb (opname v) "LOAD_DEREF" then match arg v with AStr n => dget n (closure_by_name f) | _ => None end
                    else None
                end
       end.

(** The state of the loop, lines 68-137: what was found, the three [check_...] flags and [last_was_event]. The flag
    [debounce_tainted] has no effect, because [check_debounce] is cleared together with it. *)
Record scan := Scan { sc_prevent : bool; sc_stop : bool; sc_debounce : option Z; ck_prevent : bool; ck_stop : bool; ck_debounce : bool; sc_last : bool }.
Definition is_attr_load (n : string) (i : instr) : bool :=
  mem (opname i) ["LOAD_METHOD"; "LOAD_ATTR"] && match arg i with AStr s => String.eqb s n | _ => false end.
Definition is_store (n : string) (i : instr) : bool :=
  String.eqb (opname i) "STORE_ATTR" && match arg i with AStr s => String.eqb s n | _ => false end.
Fixpoint scan_loop (f : func) (ev : string) (k : nat) (l : list instr) (s : scan) : scan :=
  match l with
  | [] => s
  | i :: l' =>
      if loads ev i then scan_loop f ev (S k) l' (Scan (sc_prevent s) (sc_stop s) (sc_debounce s) (ck_prevent s) (ck_stop s) (ck_debounce s) true)
      else if negb (sc_last s) then scan_loop f ev (S k) l' s
      else
        let s1 :=
          if mem (opname i) ["LOAD_METHOD"; "LOAD_ATTR"]
          then if ck_prevent s && match arg i with AStr n => String.eqb n "preventDefault" | _ => false end
               then Scan true (sc_stop s) (sc_debounce s) false (ck_stop s) (ck_debounce s) true
               else if ck_stop s && match arg i with AStr n => String.eqb n "stopPropagation" | _ => false end
               then Scan (sc_prevent s) true (sc_debounce s) (ck_prevent s) false (ck_debounce s) true
               else s
          else if ck_debounce s && is_store "debounce" i
          then Scan (sc_prevent s) (sc_stop s) (resolve f ev k) (ck_prevent s) (ck_stop s) false true
          else s in
        if negb (ck_prevent s1 || ck_stop s1 || ck_debounce s1) then s1
        else scan_loop f ev (S k) l' (Scan (sc_prevent s1) (sc_stop s1) (sc_debounce s1) (ck_prevent s1) (ck_stop s1) (ck_debounce s1) false)
  end.
(** [inspect_event_handler], lines 22-139. *)
Definition inspect (f : func) : bool * bool * option Z :=
  if Nat.leb (f_argcount f) 0 then (false, false, None)
  else
    let p := mem "preventDefault" (f_names f) in
    let q := mem "stopPropagation" (f_names f) in
    let d := mem "debounce" (f_names f) in
    if negb (p || q || d) then (false, false, None)
    else
      let s := scan_loop f (hd "" (f_varnames f)) 0 (f_code f) (Scan false false None p q d false) in
      (sc_prevent s, sc_stop s, sc_debounce s).

(** ** Specification of C35 *)

(** The instruction loads the variable [ev] on the stack, last. *)
Definition loads_var (ev : string) (i : instr) : Prop :=
  (In (opname i) ["LOAD_FAST"; "LOAD_FAST_BORROW"] /\ arg i = AStr ev) \/
  (In (opname i) ["LOAD_FAST_LOAD_FAST"; "LOAD_FAST_BORROW_LOAD_FAST_BORROW"] /\ exists a, arg i = APair a ev).
(** It reads, or assigns, the attribute [n] of what is on the stack. *)
Definition reads_attr (n : string) (i : instr) : Prop := In (opname i) ["LOAD_METHOD"; "LOAD_ATTR"] /\ arg i = AStr n.
Definition assigns_attr (n : string) (i : instr) : Prop := opname i = "STORE_ATTR" /\ arg i = AStr n.
(** The event: the first argument. *)
Definition event_of (f : func) : string := hd "" (f_varnames f).
(** The instruction at [k] is such a use of the event: it directly follows a load of the first argument. *)
Definition on_event (f : func) (use : instr -> Prop) (k : nat) : Prop :=
  exists i j, k >= 1 /\ nth_error (f_code f) (k - 1) = Some i /\ nth_error (f_code f) k = Some j /\
    loads_var (event_of f) i /\ use j.
(** The first assignment to [event.debounce]. *)
Definition first_debounce (f : func) (k : nat) : Prop :=
  on_event f (assigns_attr "debounce") k /\ forall k', k' < k -> ~ on_event f (assigns_attr "debounce") k'.
(** Parameter [n] has the int [z] as its default: the last [length defaults] positional parameters have the positional
    defaults, in order; keyword-only parameters have theirs by name. *)
Definition has_default (f : func) (n : string) (z : Z) : Prop :=
  (exists j, nth_error (f_varnames f) (f_argcount f - length (f_defaults f) + j) = Some n /\ nth_error (f_defaults f) j = Some (Some z)) \/
  In (n, Some z) (f_kwdefaults f).
(** The captured variable [n] holds the int [z]. *)
Definition captures (f : func) (n : string) (z : Z) : Prop := In (n, Some z) (f_closure f).
(** What holds of every Python function: parameters and local variables have different names, so have captured variables;
    only parameters have positional defaults, and these are not keyword-only. *)
Definition wf_func (f : func) : Prop :=
  NoDup (f_varnames f) /\ length (f_defaults f) <= f_argcount f <= length (f_varnames f) /\
  NoDup (map fst (f_kwdefaults f)) /\ (forall n, In n (map fst (f_kwdefaults f)) -> ~ In n (firstn (f_argcount f) (f_varnames f))) /\
  NoDup (map fst (f_closure f)).
(** The value stored at [k] is statically known: an int literal, a parameter with an int default, or a captured int. *)
Inductive known_value (f : func) (k : nat) (z : Z) : Prop :=
| kn_fused i n : nth_error (f_code f) (k - 1) = Some i -> In (opname i) ["LOAD_FAST_LOAD_FAST"; "LOAD_FAST_BORROW_LOAD_FAST_BORROW"] ->
    arg i = APair n (event_of f) -> has_default f n z -> known_value f k z
| kn_plain i v : nth_error (f_code f) (k - 1) = Some i -> In (opname i) ["LOAD_FAST"; "LOAD_FAST_BORROW"] -> k >= 2 -> nth_error (f_code f) (k - 2) = Some v ->
    (In (opname v) ["LOAD_CONST"; "LOAD_SMALL_INT"] /\ arg v = AInt z \/
     In (opname v) ["LOAD_FAST"; "LOAD_FAST_BORROW"] /\ (exists n, arg v = AStr n /\ has_default f n z) \/
     opname v = "LOAD_DEREF" /\ (exists n, arg v = AStr n /\ captures f n z)) -> known_value f k z.
(** The compiler lists every attribute name a function uses in [co_names]. *)
Definition names_listed (f : func) : Prop :=
  forall i n, In i (f_code f) -> reads_attr n i \/ assigns_attr n i -> In n (f_names f).

(** ** The same with the model's functions *)

(** The instruction at [k] is a use [use] of an attribute of the event: it directly follows a load of the first argument. *)
Definition used_at (f : func) (use : instr -> bool) (k : nat) : Prop :=
  exists i j, k >= 1 /\ nth_error (f_code f) (k - 1) = Some i /\ nth_error (f_code f) k = Some j /\
    loads (hd "" (f_varnames f)) i = true /\ use j = true.
Definition calls (f : func) (n : string) : Prop := exists k, used_at f (is_attr_load n) k.
(** The first assignment to [event.debounce]. *)
Definition first_assignment (f : func) (k : nat) : Prop :=
  used_at f (is_store "debounce") k /\ forall k', k' < k -> ~ used_at f (is_store "debounce") k'.
(** The value stored at [k] is statically known: an int literal, a parameter with an int default, or a captured int. *)
Inductive resolved (f : func) (k : nat) (z : Z) : Prop :=
| kv_fused i n : nth_error (f_code f) (k - 1) = Some i -> In (opname i) ["LOAD_FAST_LOAD_FAST"; "LOAD_FAST_BORROW_LOAD_FAST_BORROW"] ->
    arg i = APair n (hd "" (f_varnames f)) -> dget n (arg_defaults f) = Some z -> resolved f k z
| kv_const i v : nth_error (f_code f) (k - 1) = Some i -> In (opname i) ["LOAD_FAST"; "LOAD_FAST_BORROW"] -> k >= 2 -> nth_error (f_code f) (k - 2) = Some v ->
    In (opname v) ["LOAD_CONST"; "LOAD_SMALL_INT"] -> arg v = AInt z -> resolved f k z
| kv_default i v n : nth_error (f_code f) (k - 1) = Some i -> In (opname i) ["LOAD_FAST"; "LOAD_FAST_BORROW"] -> k >= 2 -> nth_error (f_code f) (k - 2) = Some v ->
    In (opname v) ["LOAD_FAST"; "LOAD_FAST_BORROW"] -> arg v = AStr n -> dget n (arg_defaults f) = Some z -> resolved f k z
| kv_captured i v n : nth_error (f_code f) (k - 1) = Some i -> In (opname i) ["LOAD_FAST"; "LOAD_FAST_BORROW"] -> k >= 2 -> nth_error (f_code f) (k - 2) = Some v ->
    opname v = "LOAD_DEREF" -> arg v = AStr n -> dget n (closure_by_name f) = Some z -> resolved f k z.
Definition names_listed' (f : func) : Prop :=
  forall i n, In i (f_code f) -> is_attr_load n i = true \/ is_store n i = true -> In n (f_names f).

(** ** Proofs *)

Lemma loads_spec ev i : loads ev i = true <->
  (In (opname i) ["LOAD_FAST"; "LOAD_FAST_BORROW"] /\ arg i = AStr ev) \/
  (In (opname i) ["LOAD_FAST_LOAD_FAST"; "LOAD_FAST_BORROW_LOAD_FAST_BORROW"] /\ exists a, arg i = APair a ev).
Proof.
  unfold loads. rewrite orb_true_iff, !andb_true_iff, !mem_In. destruct (arg i) as [s|a b|z|]; split; intros [[H1 H2]|[H1 H2]]; try discriminate.
  - apply String.eqb_eq in H2. subst. auto.
  - left. split; auto. injection H2 as ->. apply String.eqb_refl.
  - destruct H2 as [x H2]. discriminate.
  - apply String.eqb_eq in H2. subst. right. eauto.
  - right. split; auto. destruct H2 as [x H2]. injection H2 as -> ->. apply String.eqb_refl.
  - destruct H2 as [x H2]. discriminate.
  - destruct H2 as [x H2]. discriminate.
Qed.
Lemma store_not_load n ev i : is_store n i = true -> loads ev i = false.
Proof.
  unfold is_store. rewrite andb_true_iff, String.eqb_eq. intros [E _]. unfold loads. rewrite E. reflexivity.
Qed.
Lemma attr_not_load n ev i : is_attr_load n i = true -> loads ev i = false.
Proof.
  unfold is_attr_load. rewrite andb_true_iff, mem_In. intros [[E|[E|[]]] _]; unfold loads; rewrite <- E; reflexivity.
Qed.
Lemma attr_not_store n m i : is_attr_load n i = true -> is_store m i = false.
Proof.
  unfold is_attr_load. rewrite andb_true_iff, mem_In. intros [[E|[E|[]]] _]; unfold is_store; rewrite <- E; reflexivity.
Qed.

Lemma resolve_spec f k z i j : k >= 1 -> nth_error (f_code f) (k - 1) = Some i -> nth_error (f_code f) k = Some j -> loads (hd "" (f_varnames f)) i = true ->
  resolve f (hd "" (f_varnames f)) k = Some z <-> resolved f k z.
Proof.
  intros K I J L. unfold resolve. destruct (Nat.ltb_spec k 1); [lia|]. rewrite I. apply loads_spec in L. destruct L as [[O A]|[O (a & A)]].
  - assert (O1 : mem (opname i) ["LOAD_FAST_LOAD_FAST"; "LOAD_FAST_BORROW_LOAD_FAST_BORROW"] = false) by (destruct O as [<-|[<-|[]]]; reflexivity).
    assert (O2 : mem (opname i) ["LOAD_FAST"; "LOAD_FAST_BORROW"; "LOAD_FAST_LOAD_FAST"] = true) by (destruct O as [<-|[<-|[]]]; reflexivity).
    assert (NF : forall n, arg i <> APair n (hd "" (f_varnames f))) by (rewrite A; discriminate).
    rewrite O1. destruct (Nat.ltb_spec k 2).
    + split; [discriminate|]. intros H1. inversion H1; try lia; exfalso; match goal with X : arg _ = APair ?n _ |- _ => apply (NF n) end; congruence.
    + destruct (nth_error (f_code f) (k - 2)) as [v|] eqn:V.
      2:{ split; [discriminate|]. intros H1. inversion H1; try congruence; exfalso; match goal with X : arg _ = APair ?n _ |- _ => apply (NF n) end; congruence. }
      rewrite O2, A. simpl negb. rewrite String.eqb_refl. simpl negb. cbv iota.
      destruct (mem (opname v) ["LOAD_CONST"; "LOAD_SMALL_INT"]) eqn:M1.
      { apply mem_In in M1. split.
        - destruct (arg v) eqn:AV; try discriminate. intros E. injection E as <-. eapply kv_const; eauto.
        - intros H1. inversion H1 as [? ? E1 E2 E3 E4|? ? E1 E2 E3 E4 E5 E6|? ? ? E1 E2 E3 E4 E5 E6 E7|? ? ? E1 E2 E3 E4 E5 E6 E7].
          + rewrite I in E1. injection E1 as <-. exfalso. eapply NF; eauto.
          + rewrite V in E4. injection E4 as <-. rewrite E6. auto.
          + rewrite V in E4. injection E4 as <-. exfalso. destruct M1 as [M1|[M1|[]]], E5 as [E5|[E5|[]]]; congruence.
          + rewrite V in E4. injection E4 as <-. exfalso. destruct M1 as [M1|[M1|[]]]; congruence. }
      apply mem_not_In in M1. destruct (mem (opname v) ["LOAD_FAST"; "LOAD_FAST_BORROW"]) eqn:M2.
      { apply mem_In in M2. split.
        - destruct (arg v) eqn:AV; try discriminate. intros E. eapply kv_default; eauto.
        - intros H1. inversion H1 as [? ? E1 E2 E3 E4|? ? E1 E2 E3 E4 E5 E6|? ? ? E1 E2 E3 E4 E5 E6 E7|? ? ? E1 E2 E3 E4 E5 E6 E7].
          + rewrite I in E1. injection E1 as <-. exfalso. eapply NF; eauto.
          + rewrite V in E4. injection E4 as <-. contradiction.
          + rewrite V in E4. injection E4 as <-. rewrite E6. auto.
          + rewrite V in E4. injection E4 as <-. exfalso. destruct M2 as [M2|[M2|[]]]; congruence. }
      apply mem_not_In in M2. destruct (String.eqb_spec (opname v) "LOAD_DEREF") as [M3|M3].
      { split.
        - destruct (arg v) eqn:AV; try discriminate. intros E. eapply kv_captured; eauto.
        - intros H1. inversion H1 as [? ? E1 E2 E3 E4|? ? E1 E2 E3 E4 E5 E6|? ? ? E1 E2 E3 E4 E5 E6 E7|? ? ? E1 E2 E3 E4 E5 E6 E7].
          + rewrite I in E1. injection E1 as <-. exfalso. eapply NF; eauto.
          + rewrite V in E4. injection E4 as <-. contradiction.
          + rewrite V in E4. injection E4 as <-. contradiction.
          + rewrite V in E4. injection E4 as <-. rewrite E6. auto. }
      split; [discriminate|]. intros H1. inversion H1 as [? ? E1 E2 E3 E4|? ? E1 E2 E3 E4 E5 E6|? ? ? E1 E2 E3 E4 E5 E6 E7|? ? ? E1 E2 E3 E4 E5 E6 E7].
      * rewrite I in E1. injection E1 as <-. exfalso. eapply NF; eauto.
      * rewrite V in E4. injection E4 as <-. contradiction.
      * rewrite V in E4. injection E4 as <-. contradiction.
      * rewrite V in E4. injection E4 as <-. contradiction.
  - assert (O1 : mem (opname i) ["LOAD_FAST_LOAD_FAST"; "LOAD_FAST_BORROW_LOAD_FAST_BORROW"] = true) by (apply mem_In; auto).
    rewrite O1, A, String.eqb_refl. split; [intros E; eapply kv_fused; eauto|].
    intros H1. inversion H1 as [? ? E1 E2 E3 E4|? ? E1 E2 E3 E4 E5 E6|? ? ? E1 E2 E3 E4 E5 E6 E7|? ? ? E1 E2 E3 E4 E5 E6 E7]; rewrite I in E1; injection E1 as <-.
    + rewrite A in E3. injection E3 as ->. auto.
    + exfalso. destruct O as [O|[O|[]]], E2 as [E2|[E2|[]]]; congruence.
    + exfalso. destruct O as [O|[O|[]]], E2 as [E2|[E2|[]]]; congruence.
    + exfalso. destruct O as [O|[O|[]]], E2 as [E2|[E2|[]]]; congruence.
Qed.

(** Among the first [k] instructions. *)
Definition used_before (f : func) (use : instr -> bool) (k : nat) : Prop := exists k', k' < k /\ used_at f use k'.
Definition last_is (f : func) (k : nat) : Prop := k >= 1 /\ exists i, nth_error (f_code f) (k - 1) = Some i /\ loads (hd "" (f_varnames f)) i = true.
Record scan_inv (f : func) (k : nat) (s : scan) : Prop := {
  n_prevent : sc_prevent s = true <-> In "preventDefault" (f_names f) /\ used_before f (is_attr_load "preventDefault") k;
  n_ckp : ck_prevent s = true <-> In "preventDefault" (f_names f) /\ sc_prevent s = false;
  n_stop : sc_stop s = true <-> In "stopPropagation" (f_names f) /\ used_before f (is_attr_load "stopPropagation") k;
  n_cks : ck_stop s = true <-> In "stopPropagation" (f_names f) /\ sc_stop s = false;
  n_ckd : ck_debounce s = true <-> In "debounce" (f_names f) /\ ~ used_before f (is_store "debounce") k;
  n_deb : (ck_debounce s = true -> sc_debounce s = None) /\
          (forall z, sc_debounce s = Some z <-> In "debounce" (f_names f) /\ exists j, j < k /\ first_assignment f j /\ resolved f j z)
}.
Lemma used_before_S f use k : used_before f use (S k) <-> used_before f use k \/ used_at f use k.
Proof.
  split; [intros (k' & L & U); destruct (Nat.eq_dec k' k) as [->|N]; [auto|left; exists k'; split; [lia|auto]]|].
  intros [(k' & L & U)|U]; [exists k'; split; [lia|auto]|exists k; split; [lia|auto]].
Qed.
Lemma bool_iff_eq (a b : bool) : (a = true <-> b = true) -> a = b.
Proof. destruct a, b; intros [H1 H2]; auto; try (symmetry; apply H1; auto); try (apply H2; auto). Qed.
(** One instruction that uses nothing of the event. *)
Lemma scan_inv_skip f k s b : (forall n, ~ used_at f (is_attr_load n) k) -> ~ used_at f (is_store "debounce") k -> scan_inv f k s ->
  scan_inv f (S k) (Scan (sc_prevent s) (sc_stop s) (sc_debounce s) (ck_prevent s) (ck_stop s) (ck_debounce s) b).
Proof.
  intros NA NS [I1 I2 I3 I4 I5 [I6 I7]]. constructor; simpl; rewrite ?used_before_S; auto.
  - rewrite I1. split; [tauto|]. intros [A [B|B]]; [tauto|]. exfalso. eapply NA; eauto.
  - rewrite I3. split; [tauto|]. intros [A [B|B]]; [tauto|]. exfalso. eapply NA; eauto.
  - rewrite I5. tauto.
  - split; auto. intros z. rewrite I7. split; intros (A & j & L & F & KV); split; auto; exists j.
    + split; [lia|auto].
    + split; [|auto]. destruct (Nat.eq_dec j k) as [->|N]; [|lia]. exfalso. apply NS. apply F.
Qed.

(** What the scan must report in the end. *)
Record final (f : func) (s : scan) : Prop := {
  z_prevent : sc_prevent s = true <-> In "preventDefault" (f_names f) /\ calls f "preventDefault";
  z_stop : sc_stop s = true <-> In "stopPropagation" (f_names f) /\ calls f "stopPropagation";
  z_deb : forall z, sc_debounce s = Some z <-> In "debounce" (f_names f) /\ exists j, first_assignment f j /\ resolved f j z
}.
Lemma used_dec f use k : used_at f use k \/ ~ used_at f use k.
Proof.
  destruct k as [|k]; [right; intros (i & j & L & _); lia|].
  destruct (nth_error (f_code f) k) as [i|] eqn:I; [|right; intros (i & j & _ & H & _); rewrite Nat.sub_succ, Nat.sub_0_r in H; congruence].
  destruct (nth_error (f_code f) (S k)) as [j|] eqn:J; [|right; intros (i' & j & _ & _ & H & _); congruence].
  destruct (loads (hd "" (f_varnames f)) i) eqn:L; [|right; intros (i' & j' & _ & H & _ & H1 & _); rewrite Nat.sub_succ, Nat.sub_0_r in H; congruence].
  destruct (use j) eqn:U; [|right; intros (i' & j' & _ & _ & H & _ & H1); congruence].
  left. exists i, j. rewrite Nat.sub_succ, Nat.sub_0_r. repeat split; auto; lia.
Qed.
Lemma used_before_dec f use k : used_before f use k \/ ~ used_before f use k.
Proof.
  induction k as [|k IH]; [right; intros (k' & L & _); lia|]. rewrite used_before_S. destruct IH, (used_dec f use k); tauto.
Qed.
Lemma first_exists f k : used_before f (is_store "debounce") k -> exists j, j < k /\ first_assignment f j.
Proof.
  induction k as [|k IH]; [intros (k' & L & _); lia|]. intros U. destruct (used_before_dec f (is_store "debounce") k) as [B|B].
  - destruct (IH B) as (j & L & F). exists j. split; [lia|auto].
  - apply used_before_S in U. destruct U as [U|U]; [contradiction|]. exists k. split; [lia|]. split; auto.
    intros k' L U'. apply B. exists k'. auto.
Qed.
Lemma first_unique f i j : first_assignment f i -> first_assignment f j -> i = j.
Proof.
  intros [A1 A2] [B1 B2]. destruct (lt_eq_lt_dec i j) as [[L|E]|L]; auto; [exfalso; eapply B2; eauto|exfalso; eapply A2; eauto].
Qed.
Lemma used_in_range f use k : used_at f use k -> k < length (f_code f).
Proof. intros (i & j & _ & _ & J & _). apply nth_error_Some. congruence. Qed.
Lemma inv_final f s : scan_inv f (length (f_code f)) s -> final f s.
Proof.
  intros [I1 I2 I3 I4 I5 [I6 I7]]. constructor.
  - rewrite I1. split; intros [A (k & B)]; split; auto; exists k; [apply B|split; auto; eapply used_in_range; eauto].
  - rewrite I3. split; intros [A (k & B)]; split; auto; exists k; [apply B|split; auto; eapply used_in_range; eauto].
  - intros z. rewrite I7. split; intros [A (k & B)]; split; auto; exists k; [tauto|]. split; auto. eapply used_in_range. apply B.
Qed.
Lemma inv_break f k s : scan_inv f k s -> ck_prevent s = false -> ck_stop s = false -> ck_debounce s = false -> final f s.
Proof.
  intros [I1 I2 I3 I4 I5 [I6 I7]] C1 C2 C3. constructor.
  - split; [intros P; apply I1 in P; destruct P as [A (k' & _ & B)]; split; auto; exists k'; auto|].
    intros [A B]. destruct (sc_prevent s) eqn:E; auto. destruct I2 as [_ I2]. rewrite C1 in I2. apply I2. auto.
  - split; [intros P; apply I3 in P; destruct P as [A (k' & _ & B)]; split; auto; exists k'; auto|].
    intros [A B]. destruct (sc_stop s) eqn:E; auto. destruct I4 as [_ I4]. rewrite C2 in I4. apply I4. auto.
  - intros z. rewrite I7. split; intros [A (j & B)]; split; auto; exists j; [tauto|].
    assert (U : used_before f (is_store "debounce") k).
    { destruct (used_before_dec f (is_store "debounce") k) as [U|U]; auto. exfalso. assert (ck_debounce s = true) by (apply I5; auto). congruence. }
    destruct (first_exists f k U) as (j' & L & F). rewrite (first_unique f j j'); [|apply B|auto]. split; auto. split; auto.
    rewrite (first_unique f j' j); [apply B|auto|apply B].
Qed.

Lemma skipn_step {A} (l : list A) k i l' : skipn k l = i :: l' -> nth_error l k = Some i /\ skipn (S k) l = l'.
Proof.
  revert k. induction l as [|a l IH]; intros [|k] H; try discriminate.
  - injection H as <- <-. auto.
  - simpl in H. apply IH in H. auto.
Qed.
Lemma skipn_nil_le {A} (l : list A) k : skipn k l = [] -> length l <= k.
Proof. revert k. induction l as [|a l IH]; intros [|k] H; simpl; try lia; try discriminate. simpl in H. apply IH in H. lia. Qed.

Lemma not_used_last f use k : ~ last_is f k -> ~ used_at f use k.
Proof. intros N (i & j & K & I & _ & L & _). apply N. split; auto. exists i. auto. Qed.
Lemma not_used_use f use k j : nth_error (f_code f) k = Some j -> use j = false -> ~ used_at f use k.
Proof. intros J U (i & j' & _ & _ & J' & _ & U'). congruence. Qed.
Lemma used_intro f use k j : last_is f k -> nth_error (f_code f) k = Some j -> use j = true -> used_at f use k.
Proof. intros [K (i & I & L)] J U. exists i, j. auto. Qed.

Lemma scan_loop_final f : forall l k s, skipn k (f_code f) = l -> k <= length (f_code f) -> scan_inv f k s -> (sc_last s = true <-> last_is f k) ->
  final f (scan_loop f (hd "" (f_varnames f)) k l s).
Proof.
  induction l as [|i l IH]; intros k s K LE I LS.
  - simpl. apply skipn_nil_le in K. replace k with (length (f_code f)) in I by lia. apply inv_final. auto.
  - apply skipn_step in K. destruct K as [E K]. assert (LT : k < length (f_code f)) by (apply nth_error_Some; congruence).
    cbn [scan_loop]. destruct (loads (hd "" (f_varnames f)) i) eqn:L.
    { apply IH; auto.
      - apply scan_inv_skip; auto.
        + intros n. eapply not_used_use; eauto. destruct (is_attr_load n i) eqn:A; auto. apply (attr_not_load n (hd "" (f_varnames f))) in A. congruence.
        + eapply not_used_use; eauto. destruct (is_store "debounce" i) eqn:A; auto. apply (store_not_load _ (hd "" (f_varnames f))) in A. congruence.
      - cbn [sc_last]. split; auto. intros _. split; [lia|]. exists i. rewrite Nat.sub_succ, Nat.sub_0_r. auto. }
    assert (NL : ~ last_is f (S k)) by (intros [_ (i' & E' & L')]; rewrite Nat.sub_succ, Nat.sub_0_r in E'; congruence).
    destruct (sc_last s) eqn:SL.
    2:{ simpl negb. cbv iota. assert (NLK : ~ last_is f k) by (intros H; apply LS in H; discriminate). apply IH; auto.
        - replace s with (Scan (sc_prevent s) (sc_stop s) (sc_debounce s) (ck_prevent s) (ck_stop s) (ck_debounce s) (sc_last s)) by (destruct s; auto).
          apply scan_inv_skip; auto using not_used_last.
        - rewrite SL. split; [discriminate|contradiction]. }
    assert (LK : last_is f k) by (apply LS; auto). simpl negb. cbv iota.
    match goal with |- context [if negb (ck_prevent ?x || _ || _) then _ else _] => set (s1 := x) end.
    assert (I1 : scan_inv f (S k) s1).
    { destruct I as [J1 J2 J3 J4 J5 [J6 J7]]. subst s1.
      match goal with |- scan_inv _ _ (if ?c then _ else _) => change c with (mem (opname i) ["LOAD_METHOD"; "LOAD_ATTR"]) end.
      destruct (mem (opname i) ["LOAD_METHOD"; "LOAD_ATTR"]) eqn:M.
      - assert (ST : ~ used_at f (is_store "debounce") k).
        { eapply not_used_use; eauto. unfold is_store. apply mem_In in M. destruct M as [<-|[<-|[]]]; reflexivity. }
        assert (DEB : forall z, (In "debounce" (f_names f) /\ exists j, j < k /\ first_assignment f j /\ resolved f j z) <->
                                (In "debounce" (f_names f) /\ exists j, j < S k /\ first_assignment f j /\ resolved f j z)).
        { intros z. split; intros (A & j & B1 & B2); split; auto; exists j; split; auto.
          destruct (Nat.eq_dec j k) as [->|N]; [|lia]. exfalso. apply ST. apply B2. }
        assert (USE : forall n, used_at f (is_attr_load n) k <-> arg i = AStr n).
        { intros n. split.
          - intros (i1 & i2 & _ & _ & A & _ & B). rewrite E in A. injection A as <-. unfold is_attr_load in B. apply andb_true_iff in B. destruct B as [_ B].
            destruct (arg i); try discriminate. apply String.eqb_eq in B. congruence.
          - intros A. apply used_intro with (j := i); auto. unfold is_attr_load. rewrite M, A, String.eqb_refl. auto. }
        destruct (ck_prevent s && match arg i with AStr n => String.eqb n "preventDefault" | _ => false end) eqn:P1.
        + apply andb_true_iff in P1. destruct P1 as [C1 P1]. destruct (arg i) as [n| | |] eqn:AI; try discriminate. apply String.eqb_eq in P1. subst n.
          apply J2 in C1. destruct C1 as [C1 C1']. constructor; simpl; rewrite ?used_before_S, ?USE; auto.
          * split; auto.
          * split; [discriminate|intros [_ X]; discriminate].
          * rewrite J3. split; [tauto|]. intros [A [B|B]]; [auto|discriminate].
          * rewrite J5. tauto.
          * split; auto. intros z. rewrite J7. apply DEB.
        + destruct (ck_stop s && match arg i with AStr n => String.eqb n "stopPropagation" | _ => false end) eqn:P2.
          * apply andb_true_iff in P2. destruct P2 as [C1 P2]. destruct (arg i) as [n| | |] eqn:AI; try discriminate. apply String.eqb_eq in P2. subst n.
            apply J4 in C1. destruct C1 as [C1 C1']. constructor; simpl; rewrite ?used_before_S, ?USE; auto.
            -- rewrite J1. split; [tauto|]. intros [A [B|B]]; [auto|discriminate].
            -- split; auto.
            -- split; [discriminate|intros [_ X]; discriminate].
            -- rewrite J5. tauto.
            -- split; auto. intros z. rewrite J7. apply DEB.
          * constructor; rewrite ?used_before_S, ?USE; auto.
            -- rewrite J1. split; [tauto|]. intros [A [B|B]]; [auto|]. rewrite B in P1. simpl in P1. rewrite andb_true_r in P1.
               destruct (sc_prevent s) eqn:SP; [apply J1; auto|]. exfalso. assert (ck_prevent s = true) by (apply J2; auto). congruence.
            -- rewrite J3. split; [tauto|]. intros [A [B|B]]; [auto|]. rewrite B in P2. simpl in P2. rewrite andb_true_r in P2.
               destruct (sc_stop s) eqn:SP; [apply J3; auto|]. exfalso. assert (ck_stop s = true) by (apply J4; auto). congruence.
            -- rewrite J5. tauto.
            -- split; auto. intros z. rewrite J7. apply DEB.
      - assert (NA : forall n, ~ used_at f (is_attr_load n) k).
        { intros n. eapply not_used_use; eauto. unfold is_attr_load. rewrite M. auto. }
        destruct (ck_debounce s && is_store "debounce" i) eqn:P.
        + apply andb_true_iff in P. destruct P as [C P]. assert (US : used_at f (is_store "debounce") k) by (eapply used_intro; eauto).
          assert (C' := C). apply J5 in C'. destruct C' as [C1 C2].
          assert (FA : first_assignment f k) by (split; auto; intros k' L' U'; apply C2; exists k'; auto).
          constructor; simpl; rewrite ?used_before_S; auto.
          * rewrite J1. split; [tauto|]. intros [A [B|B]]; [auto|]. exfalso. eapply NA; eauto.
          * rewrite J3. split; [tauto|]. intros [A [B|B]]; [auto|]. exfalso. eapply NA; eauto.
          * split; [discriminate|tauto].
          * split; [discriminate|]. intros z. destruct LK as [GE (i0 & E0 & L0)]. rewrite (resolve_spec f k z i0 i GE E0 E L0).
            split; [intros KV; split; auto; exists k; auto|]. intros (_ & j & _ & F & KV). rewrite (first_unique f k j FA F). auto.
        + replace s with (Scan (sc_prevent s) (sc_stop s) (sc_debounce s) (ck_prevent s) (ck_stop s) (ck_debounce s) (sc_last s)) by (destruct s; auto).
          destruct (is_store "debounce" i) eqn:IS.
          * rewrite andb_true_r in P. assert (US : used_at f (is_store "debounce") k) by (eapply used_intro; eauto).
            constructor; simpl; rewrite ?used_before_S; auto.
            -- rewrite J1. split; [tauto|]. intros [A [B|B]]; [auto|]. exfalso. eapply NA; eauto.
            -- rewrite J3. split; [tauto|]. intros [A [B|B]]; [auto|]. exfalso. eapply NA; eauto.
            -- rewrite P. split; [discriminate|tauto].
            -- split; auto. intros z. rewrite J7. split; intros (A & j & B1 & B2 & B3); split; auto; exists j; split; auto.
               destruct (used_before_dec f (is_store "debounce") k) as [UB|UB].
               ++ destruct (first_exists f k UB) as (j' & L' & F'). rewrite (first_unique f j j'); auto.
               ++ exfalso. assert (ck_debounce s = true) by (apply J5; auto). congruence.
          * apply scan_inv_skip; auto; [eapply not_used_use; eauto|constructor; auto]. }
    destruct (negb (ck_prevent s1 || ck_stop s1 || ck_debounce s1)) eqn:B.
    + apply negb_true_iff, orb_false_iff in B. destruct B as [B B3]. apply orb_false_iff in B. destruct B as [B1 B2]. eapply inv_break; eauto.
    + apply IH; auto.
      * destruct I1 as [J1 J2 J3 J4 J5 [J6 J7]]. constructor; auto.
      * cbn [sc_last]. split; [discriminate|contradiction].
Qed.

(** ** C35 *)

Lemma inspection_resolved f : names_listed' f ->
  (fst (fst (inspect f)) = true <-> f_argcount f > 0 /\ calls f "preventDefault") /\
  (snd (fst (inspect f)) = true <-> f_argcount f > 0 /\ calls f "stopPropagation") /\
  (forall z, snd (inspect f) = Some z <-> f_argcount f > 0 /\ exists j, first_assignment f j /\ resolved f j z).
Proof.
  intros NL.
  assert (CN : forall n, calls f n -> In n (f_names f)).
  { intros n (k & i & j & _ & _ & J & _ & U). apply (NL j n); [eapply nth_error_In; eauto|auto]. }
  assert (DN : forall j, first_assignment f j -> In "debounce" (f_names f)).
  { intros j [(i & j' & _ & _ & J & _ & U) _]. apply (NL j' "debounce"); [eapply nth_error_In; eauto|auto]. }
  unfold inspect. destruct (Nat.leb_spec (f_argcount f) 0) as [L|L].
  { simpl. repeat split; try discriminate; try (intros [H _]; lia). }
  destruct (negb _) eqn:B.
  { apply negb_true_iff, orb_false_iff in B. destruct B as [B B3]. apply orb_false_iff in B. destruct B as [B1 B2]. apply mem_not_In in B1, B2, B3. simpl.
    repeat split; try discriminate.
    - intros [_ C]. exfalso. auto.
    - intros [_ C]. exfalso. auto.
    - intros [_ (j & F & _)]. exfalso. eauto. }
  cbv zeta. cbn [fst snd].
  assert (F : final f (scan_loop f (hd "" (f_varnames f)) 0 (f_code f) (Scan false false None (mem "preventDefault" (f_names f)) (mem "stopPropagation" (f_names f)) (mem "debounce" (f_names f)) false))).
  { apply scan_loop_final; auto; [lia| |].
    - assert (NB : forall u, ~ used_before f u 0) by (intros u (k & K & _); lia). constructor; simpl.
      + split; [discriminate|]. intros [_ H]. exfalso. eapply NB; eauto.
      + rewrite mem_In. tauto.
      + split; [discriminate|]. intros [_ H]. exfalso. eapply NB; eauto.
      + rewrite mem_In. tauto.
      + rewrite mem_In. specialize (NB (is_store "debounce")). tauto.
      + split; auto. intros z. split; [discriminate|]. intros (_ & j & J & _). lia.
    - simpl. split; [discriminate|]. intros [H _]. lia. }
  destruct F as [F1 F2 F3]. rewrite F1, F2. split; [|split].
  - split; [intros [_ C]; auto|intros [_ C]; auto].
  - split; [intros [_ C]; auto|intros [_ C]; auto].
  - intros z. rewrite F3. split; intros [A (j & F & KV)]; split; eauto.
Qed.

(** ** The two agree *)
Lemma reads_iff n i : is_attr_load n i = true <-> reads_attr n i.
Proof.
  unfold is_attr_load, reads_attr. rewrite andb_true_iff, mem_In. destruct (arg i) as [s|a b|z|]; try (split; intros [_ H]; discriminate).
  rewrite String.eqb_eq. split; intros [A B]; split; congruence.
Qed.
Lemma assigns_iff n i : is_store n i = true <-> assigns_attr n i.
Proof.
  unfold is_store, assigns_attr. rewrite andb_true_iff, String.eqb_eq. destruct (arg i) as [s|a b|z|]; try (split; intros [_ H]; discriminate).
  rewrite String.eqb_eq. split; intros [A B]; split; congruence.
Qed.
Lemma used_iff f use use' k : (forall i, use i = true <-> use' i) -> used_at f use k <-> on_event f use' k.
Proof.
  intros U. unfold used_at, on_event, event_of. split; intros (i & j & K & I & J & L & S); exists i, j; (split; [exact K|split; [exact I|split; [exact J|split]]]).
  - apply loads_spec. exact L.
  - apply U. exact S.
  - apply loads_spec. exact L.
  - apply U. exact S.
Qed.
Lemma first_iff f k : first_assignment f k <-> first_debounce f k.
Proof.
  assert (U := used_iff f (is_store "debounce") (assigns_attr "debounce")). unfold first_assignment, first_debounce. rewrite U by (intros; apply assigns_iff).
  split; intros [A B]; (split; [exact A|]); intros k' K' X; apply (B k' K'); apply (U k' (fun i => assigns_iff "debounce" i)); exact X.
Qed.
Lemma names_iff f : names_listed f <-> names_listed' f.
Proof.
  unfold names_listed, names_listed'. split; intros H i n I U; apply (H i n I); rewrite reads_iff, assigns_iff in *; exact U.
Qed.
Lemma set_ints_iff : forall l d n z, NoDup (map fst l) -> (forall m, In m (map fst l) -> dget m d = None) ->
  dget n (set_ints l d) = Some z <-> In (n, Some z) l \/ dget n d = Some z.
Proof.
  induction l as [|[m [y|]] l IH]; intros d n z ND F; simpl.
  - tauto.
  - simpl in ND. inversion ND as [|? ? N ND']; subst. rewrite IH.
    + destruct (String.eqb_spec n m) as [->|E].
      * rewrite dget_dset_same. split.
        -- intros [H|H]; [left; right; exact H|left; left; congruence].
        -- intros [[H|H]|H]; [right; congruence|exfalso; apply N; apply (in_map fst) in H; exact H|].
           rewrite (F m) in H by (left; auto). discriminate.
      * rewrite dget_dset_other by congruence. split; [tauto|]. intros [[H|H]|H]; [congruence|tauto|tauto].
    + exact ND'.
    + intros x X. destruct (String.eqb_spec x m) as [->|E]; [contradiction|]. rewrite dget_dset_other by congruence. apply F. right. exact X.
  - simpl in ND. inversion ND as [|? ? N ND']; subst. rewrite IH; [|exact ND'|intros; apply F; right; auto]. split; [tauto|]. intros [[H|H]|H]; [congruence|tauto|tauto].
Qed.
Lemma in_combine_iff {A B} : forall (l : list A) (l' : list B) a b, In (a, b) (combine l l') <-> exists j, nth_error l j = Some a /\ nth_error l' j = Some b.
Proof.
  induction l as [|x l IH]; intros [|y l'] a b; simpl.
  - split; [tauto|]. intros (j & H & _). destruct j; discriminate.
  - split; [tauto|]. intros (j & H & _). destruct j; discriminate.
  - split; [tauto|]. intros (j & _ & H). destruct j; discriminate.
  - rewrite IH. split.
    + intros [E|(j & P & Q)]; [exists 0; injection E as -> ->; auto|exists (S j); auto].
    + intros ([|j] & P & Q); [left; simpl in *; congruence|right; exists j; auto].
Qed.
Lemma nth_skipn {A} : forall n (l : list A) j, nth_error (skipn n l) j = nth_error l (n + j).
Proof. induction n as [|n IH]; intros [|x l] j; simpl; auto; destruct j; auto. Qed.
Lemma nth_firstn {A} : forall n (l : list A) j x, j < n -> nth_error l j = Some x -> In x (firstn n l).
Proof. induction n as [|n IH]; intros [|y l] [|j] x J E; try lia; try discriminate; simpl in *; [left; congruence|right; apply (IH l j); [lia|exact E]]. Qed.
Lemma nodup_combine {A B} : forall (l : list A) (l' : list B), NoDup l -> NoDup (map fst (combine l l')).
Proof.
  induction l as [|x l IH]; intros [|y l'] ND; simpl; try constructor.
  - inversion ND as [|? ? N ND']; subst. intros X. apply N. apply in_map_iff in X. destruct X as ([a b] & <- & X). apply in_combine_l in X. exact X.
  - inversion ND; subst. apply IH. assumption.
Qed.
Lemma nodup_skipn {A} : forall n (l : list A), NoDup l -> NoDup (skipn n l).
Proof. induction n as [|n IH]; intros [|x l] ND; simpl; auto. inversion ND; subst. auto. Qed.
Lemma defaults_iff f n z : wf_func f -> dget n (arg_defaults f) = Some z <-> has_default f n z.
Proof.
  intros (ND & [LE LE'] & NK & DIS & _). unfold arg_defaults, has_default.
  set (pos := combine (skipn (f_argcount f - length (f_defaults f)) (f_varnames f)) (f_defaults f)).
  assert (P : forall m y, In (m, y) pos <-> exists j, nth_error (f_varnames f) (f_argcount f - length (f_defaults f) + j) = Some m /\ nth_error (f_defaults f) j = Some y).
  { intros m y. unfold pos. rewrite in_combine_iff. split; intros (j & A & B); exists j; rewrite nth_skipn in *; auto. }
  assert (NP : NoDup (map fst pos)) by (apply nodup_combine, nodup_skipn; exact ND).
  rewrite set_ints_iff; [|exact NK|].
  - rewrite set_ints_iff; [|exact NP|intros; reflexivity]. rewrite P. split.
    + intros [H|[H|H]]; [right; exact H|left; exact H|discriminate].
    + intros [H|H]; [right; left; exact H|left; exact H].
  - intros m M. destruct (dget m (set_ints pos [])) as [y|] eqn:E; [|reflexivity]. exfalso.
    apply (set_ints_iff pos [] m y NP) in E; [|intros; reflexivity]. destruct E as [E|E]; [|discriminate].
    apply P in E. destruct E as (j & A & B). apply (DIS m M). apply (nth_firstn _ _ (f_argcount f - length (f_defaults f) + j)); [|exact A].
    assert (j < length (f_defaults f)) by (apply nth_error_Some; congruence). lia.
Qed.
Lemma captures_iff f n z : wf_func f -> dget n (closure_by_name f) = Some z <-> captures f n z.
Proof.
  intros (_ & _ & _ & _ & NC). unfold closure_by_name, captures. rewrite set_ints_iff; [|exact NC|intros; reflexivity]. split; [intros [H|H]; [exact H|discriminate]|auto].
Qed.
Lemma known_iff f k z : wf_func f -> resolved f k z <-> known_value f k z.
Proof.
  intros W. split.
  - intros [i n A B C D|i v A B C D E F|i v n A B C D E F G|i v n A B C D E F G].
    + eapply kn_fused; [exact A|exact B|exact C|apply defaults_iff; [exact W|exact D]].
    + eapply kn_plain; [exact A|exact B|exact C|exact D|left; split; [exact E|exact F]].
    + eapply kn_plain; [exact A|exact B|exact C|exact D|right; left; split; [exact E|exists n; split; [exact F|apply defaults_iff; [exact W|exact G]]]].
    + eapply kn_plain; [exact A|exact B|exact C|exact D|right; right; split; [exact E|exists n; split; [exact F|apply captures_iff; [exact W|exact G]]]].
  - intros [i n A B C D|i v A B C D [[E F]|[[E (n & F & G)]|[E (n & F & G)]]]].
    + eapply kv_fused; [exact A|exact B|exact C|apply defaults_iff; [exact W|exact D]].
    + eapply kv_const; [exact A|exact B|exact C|exact D|exact E|exact F].
    + eapply kv_default; [exact A|exact B|exact C|exact D|exact E|exact F|apply defaults_iff; [exact W|exact G]].
    + eapply kv_captured; [exact A|exact B|exact C|exact D|exact E|exact F|apply captures_iff; [exact W|exact G]].
Qed.

(** For code whose attribute names the compiler listed, inspection reports exactly the calls of
    [event.preventDefault] and [event.stopPropagation] on the first argument, and for [event.debounce] the statically
    known value of the FIRST assignment. *)
Theorem C35_inspection f : wf_func f -> names_listed f ->
  (fst (fst (inspect f)) = true <-> f_argcount f > 0 /\ exists k, on_event f (reads_attr "preventDefault") k) /\
  (snd (fst (inspect f)) = true <-> f_argcount f > 0 /\ exists k, on_event f (reads_attr "stopPropagation") k) /\
  (forall z, snd (inspect f) = Some z <-> f_argcount f > 0 /\ exists k, first_debounce f k /\ known_value f k z).
Proof.
  intros W NL. apply names_iff in NL. destruct (inspection_resolved f NL) as (P & Q & R).
  assert (C : forall n, calls f n <-> exists k, on_event f (reads_attr n) k).
  { intros n. unfold calls. split; intros [k K]; exists k; apply (used_iff f (is_attr_load n) (reads_attr n) k (reads_iff n)); exact K. }
  rewrite P, Q, !C. split; [tauto|split; [tauto|]]. intros z. rewrite R.
  split; intros (A & k & B & D); (split; [exact A|]); exists k; (split; [apply first_iff; exact B|apply known_iff; [exact W|exact D]]).
Qed.

(** ** What the code does when it runs

    A small machine for branch-free bytecode: a value stack, the local variables and the value last stored in
    [event.debounce]. Instructions outside this list may do anything to the stack ([oth]), but not to the local variables or
    the event's attributes. The call passes the event only, so the other parameters have their default values ([loc]);
    [cap] gives the captured variables. *)
Inductive val := VEvent | VInt (z : Z) | VOther.
Record machine := Machine { m_stack : list val; m_locals : string -> val; m_deb : option val }.
(** The values of variables when [f] is called with an event. *)
Definition called (f : func) (loc cap : string -> val) : Prop :=
  loc (event_of f) = VEvent /\ (forall n z, n <> event_of f -> has_default f n z -> loc n = VInt z) /\ (forall n z, captures f n z -> cap n = VInt z).
Definition start (loc : string -> val) : machine := Machine [] loc None.
Definition exec (cap : string -> val) (oth : instr -> list val -> list val) (i : instr) (m : machine) : machine :=
  if mem (opname i) ["LOAD_FAST"; "LOAD_FAST_BORROW"]
  then match arg i with AStr n => Machine (m_locals m n :: m_stack m) (m_locals m) (m_deb m) | _ => m end
  else if mem (opname i) ["LOAD_FAST_LOAD_FAST"; "LOAD_FAST_BORROW_LOAD_FAST_BORROW"]
  then match arg i with APair a b => Machine (m_locals m b :: m_locals m a :: m_stack m) (m_locals m) (m_deb m) | _ => m end
  else if mem (opname i) ["LOAD_CONST"; "LOAD_SMALL_INT"]
  then Machine ((match arg i with AInt z => VInt z | _ => VOther end) :: m_stack m) (m_locals m) (m_deb m)
  else if String.eqb (opname i) "LOAD_DEREF"
  then match arg i with AStr n => Machine (cap n :: m_stack m) (m_locals m) (m_deb m) | _ => m end
  else if String.eqb (opname i) "STORE_FAST"
  then match arg i, m_stack m with
       | AStr n, v :: st => Machine st (fun x => if String.eqb x n then v else m_locals m x) (m_deb m)
       | _, _ => m
       end
  else if String.eqb (opname i) "STORE_ATTR"
  then match m_stack m with
       | VEvent :: v :: st => Machine st (m_locals m) (if is_store "debounce" i then Some v else m_deb m)
       | _ :: _ :: st => Machine st (m_locals m) (m_deb m)
       | _ => m
       end
  else Machine (oth i (m_stack m)) (m_locals m) (m_deb m).
Definition exec_all (cap : string -> val) oth (l : list instr) (m : machine) : machine := fold_left (fun m i => exec cap oth i m) l m.
(** Branch-free code that assigns no local variable and has one assignment to an attribute [debounce]. *)
Definition single_assignment (f : func) : Prop :=
  (forall i, In i (f_code f) -> opname i <> "STORE_FAST") /\
  (forall j k i i', nth_error (f_code f) j = Some i -> nth_error (f_code f) k = Some i' -> assigns_attr "debounce" i -> assigns_attr "debounce" i' -> j = k).

Lemma exec_locals f oth i m : opname i <> "STORE_FAST" -> m_locals (exec f oth i m) = m_locals m.
Proof.
  intros N. unfold exec. repeat match goal with |- context [if ?c then _ else _] => destruct c eqn:? end; auto.
  all: try (destruct (arg i); auto; fail).
  all: try (apply String.eqb_eq in Heqb3; contradiction).
  all: destruct (m_stack m) as [|[] [|]]; auto.
Qed.
Lemma exec_deb f oth i m : is_store "debounce" i = false -> m_deb (exec f oth i m) = m_deb m.
Proof.
  intros N. unfold exec. rewrite N. repeat match goal with |- context [if ?c then _ else _] => destruct c end; auto.
  all: try (destruct (arg i); auto; fail).
  all: try (destruct (arg i), (m_stack m); auto; fail).
  all: destruct (m_stack m) as [|[] [|]]; auto.
Qed.
Lemma exec_all_locals f oth l m : (forall i, In i l -> opname i <> "STORE_FAST") -> m_locals (exec_all f oth l m) = m_locals m.
Proof.
  revert m. induction l as [|i l IH]; intros m H; [reflexivity|]. change (exec_all f oth (i :: l) m) with (exec_all f oth l (exec f oth i m)). rewrite IH by (intros; apply H; right; auto).
  apply exec_locals. apply H. left. auto.
Qed.
Lemma exec_all_deb f oth l m : (forall i, In i l -> is_store "debounce" i = false) -> m_deb (exec_all f oth l m) = m_deb m.
Proof.
  revert m. induction l as [|i l IH]; intros m H; [reflexivity|]. change (exec_all f oth (i :: l) m) with (exec_all f oth l (exec f oth i m)). rewrite IH by (intros; apply H; right; auto).
  apply exec_deb. apply H. left. auto.
Qed.
Lemma nth_error_split2 {A} (l : list A) k x : nth_error l k = Some x -> l = firstn k l ++ x :: skipn (S k) l.
Proof. revert k. induction l as [|a l IH]; intros [|k] H; try discriminate; simpl in *; [congruence|]. f_equal. auto. Qed.
Lemma exec_all_app f oth l1 l2 m : exec_all f oth (l1 ++ l2) m = exec_all f oth l2 (exec_all f oth l1 m).
Proof. apply fold_left_app. Qed.
Lemma store_exec f oth j m v st : is_store "debounce" j = true -> m_stack m = VEvent :: v :: st -> m_deb (exec f oth j m) = Some v.
Proof.
  intros S E. unfold exec. assert (O := S). unfold is_store in O. apply andb_true_iff in O. destruct O as [O _]. apply String.eqb_eq in O.
  rewrite O, E, S. reflexivity.
Qed.
Lemma exec_load f oth i n m : In (opname i) ["LOAD_FAST"; "LOAD_FAST_BORROW"] -> arg i = AStr n -> exec f oth i m = Machine (m_locals m n :: m_stack m) (m_locals m) (m_deb m).
Proof. intros O A. unfold exec. destruct O as [<-|[<-|[]]]; simpl; rewrite A; auto. Qed.

Lemma exec_pair f oth i a b m : In (opname i) ["LOAD_FAST_LOAD_FAST"; "LOAD_FAST_BORROW_LOAD_FAST_BORROW"] -> arg i = APair a b ->
  exec f oth i m = Machine (m_locals m b :: m_locals m a :: m_stack m) (m_locals m) (m_deb m).
Proof. intros O A. unfold exec. destruct O as [<-|[<-|[]]]; simpl; rewrite A; auto. Qed.

(** When inspection reports a debounce for such a function, running it does store exactly that value. *)
Theorem C35_reported_is_stored f loc cap oth z : wf_func f -> names_listed f -> single_assignment f ->
  (forall z', ~ has_default f (event_of f) z') -> called f loc cap ->
  snd (inspect f) = Some z -> m_deb (exec_all cap oth (f_code f) (start loc)) = Some (VInt z).
Proof.
  intros W NL [NS U] NE (CE & CD & CC) R. apply names_iff in NL. apply (inspection_resolved f NL) in R. destruct R as [_ (k & [(i & j & K & I & J & L & S) _] & KV)].
  unfold event_of in *. set (ev := hd "" (f_varnames f)) in *.
  assert (INIT : m_locals (start loc) ev = VEvent) by exact CE.
  assert (DEF : forall n, dget n (arg_defaults f) = Some z -> m_locals (start loc) n = VInt z).
  { intros n D. apply (defaults_iff f n z W) in D. apply CD; [|exact D]. intros ->. exact (NE z D). }
  assert (POST : forall x, In x (skipn (Datatypes.S k) (f_code f)) -> is_store "debounce" x = false).
  { intros x X. destruct (is_store "debounce" x) eqn:E; auto. apply In_nth_error in X. destruct X as [m X].
    assert (nth_error (f_code f) (Datatypes.S k + m) = Some x).
    { clear -X. revert m k X. induction (f_code f) as [|a c IH]; intros m k X.
      - destruct m; discriminate.
      - destruct k as [|k]; [exact X|]. change (Datatypes.S (Datatypes.S k) + m) with (Datatypes.S (Datatypes.S k + m)). simpl nth_error. apply IH. exact X. }
    assert (Datatypes.S k + m = k) by (eapply U; [eassumption|eassumption|apply assigns_iff; assumption|apply assigns_iff; assumption]). lia. }
  assert (FS : forall n x, In x (firstn n (f_code f)) -> opname x <> "STORE_FAST").
  { intros n x X. apply NS. rewrite <- (firstn_skipn n). apply in_or_app. auto. }
  assert (SPL := nth_error_split2 (f_code f) k j J). rewrite SPL, exec_all_app. change (j :: ?x) with ([j] ++ x). rewrite exec_all_app.
  rewrite exec_all_deb by auto. simpl exec_all.
  assert (STK : exists st, m_stack (exec_all cap oth (firstn k (f_code f)) (start loc)) = VEvent :: VInt z :: st).
  { destruct k as [|k]; [lia|]. rewrite Nat.sub_succ, Nat.sub_0_r in I.
    assert (F1 : firstn (Datatypes.S k) (f_code f) = firstn k (f_code f) ++ [i]).
    { clear -I. revert k I. induction (f_code f) as [|a c IH]; intros [|k] I; try discriminate; simpl; [simpl in I; congruence|]. f_equal. apply IH. exact I. }
    rewrite F1, exec_all_app. set (m := exec_all cap oth (firstn k (f_code f)) (start loc)).
    assert (ML : m_locals m = m_locals (start loc)) by (apply exec_all_locals; apply FS). simpl exec_all.
    inversion KV as [i' n E1 E2 E3 E4|i' v E1 E2 E3 E4 E5 E6|i' v n E1 E2 E3 E4 E5 E6 E7|i' v n E1 E2 E3 E4 E5 E6 E7];
      rewrite Nat.sub_succ, Nat.sub_0_r in E1; rewrite I in E1; injection E1 as <-.
    - exists (m_stack m). rewrite (exec_pair cap oth i n ev m E2 E3), ML, INIT, (DEF n E4). reflexivity.
    - assert (A : arg i = AStr ev).
      { apply loads_spec in L. destruct L as [[_ A]|[O _]]; auto. exfalso. destruct E2 as [E2|[E2|[]]], O as [O|[O|[]]]; congruence. }
      rewrite (exec_load cap oth i ev m E2 A), ML, INIT. simpl m_stack. destruct k as [|k]; [lia|]. simpl in E4. rewrite Nat.sub_0_r in E4.
      assert (F2 : firstn (Datatypes.S k) (f_code f) = firstn k (f_code f) ++ [v]).
      { clear -E4. revert k E4. induction (f_code f) as [|a c IH]; intros [|k] I; try discriminate; simpl; [simpl in I; congruence|]. f_equal. apply IH. exact I. }
      subst m. rewrite F2, exec_all_app. simpl exec_all. unfold exec at 1. destruct E5 as [<-|[<-|[]]]; simpl; rewrite E6; eexists; reflexivity.
    - assert (A : arg i = AStr ev).
      { apply loads_spec in L. destruct L as [[_ A]|[O _]]; auto. exfalso. destruct E2 as [E2|[E2|[]]], O as [O|[O|[]]]; congruence. }
      rewrite (exec_load cap oth i ev m E2 A), ML, INIT. simpl m_stack. destruct k as [|k]; [lia|]. simpl in E4. rewrite Nat.sub_0_r in E4.
      assert (F2 : firstn (Datatypes.S k) (f_code f) = firstn k (f_code f) ++ [v]).
      { clear -E4. revert k E4. induction (f_code f) as [|a c IH]; intros [|k] I; try discriminate; simpl; [simpl in I; congruence|]. f_equal. apply IH. exact I. }
      subst m. rewrite F2, exec_all_app. change (exec_all cap oth [v] ?x) with (exec cap oth v x). rewrite (exec_load cap oth v n _ E5 E6). simpl m_stack.
      rewrite exec_all_locals by apply FS. rewrite (DEF n E7). eexists; reflexivity.
    - assert (A : arg i = AStr ev).
      { apply loads_spec in L. destruct L as [[_ A]|[O _]]; auto. exfalso. destruct E2 as [E2|[E2|[]]], O as [O|[O|[]]]; congruence. }
      rewrite (exec_load cap oth i ev m E2 A), ML, INIT. simpl m_stack. destruct k as [|k]; [lia|]. simpl in E4. rewrite Nat.sub_0_r in E4.
      assert (F2 : firstn (Datatypes.S k) (f_code f) = firstn k (f_code f) ++ [v]).
      { clear -E4. revert k E4. induction (f_code f) as [|a c IH]; intros [|k] I; try discriminate; simpl; [simpl in I; congruence|]. f_equal. apply IH. exact I. }
      subst m. rewrite F2, exec_all_app. simpl exec_all. unfold exec at 1. rewrite E5. simpl. rewrite E6. apply (captures_iff f n z W) in E7. rewrite (CC n z E7). eexists; reflexivity. }
  destruct STK as [st STK]. eapply store_exec; eauto.
Qed.

(** [names_listed] as a computation. *)
Definition names_listed_b (f : func) : bool :=
  forallb (fun i => match arg i with
                    | AStr n => if mem (opname i) ["LOAD_METHOD"; "LOAD_ATTR"; "STORE_ATTR"] then mem n (f_names f) else true
                    | _ => true
                    end) (f_code f).
Lemma names_listed_ok f : names_listed_b f = true -> names_listed f.
Proof.
  intros H0. apply names_iff. revert H0. unfold names_listed_b, names_listed'. rewrite forallb_forall. intros H i n I U. specialize (H i I).
  assert (AI : arg i = AStr n /\ In (opname i) ["LOAD_METHOD"; "LOAD_ATTR"; "STORE_ATTR"]).
  { destruct U as [U|U]; [unfold is_attr_load in U|unfold is_store in U]; apply andb_true_iff in U; destruct U as [O A].
    - destruct (arg i); try discriminate. apply String.eqb_eq in A. split; [congruence|]. apply mem_In in O. destruct O as [O|[O|[]]]; rewrite <- O; simpl; auto.
    - destruct (arg i); try discriminate. apply String.eqb_eq in A. split; [congruence|]. apply String.eqb_eq in O. rewrite O. simpl. auto. }
  destruct AI as [A O]. rewrite A in H. apply mem_In in O. rewrite O in H. apply mem_In. auto.
Qed.

(** [def handler(event, ms=300): event.preventDefault(); event.debounce = ms] *)
Definition handler_ok : func :=
  Func [Instr "RESUME" AOther; Instr "LOAD_FAST" (AStr "event"); Instr "LOAD_METHOD" (AStr "preventDefault"); Instr "CALL" AOther; Instr "POP_TOP" AOther;
        Instr "LOAD_FAST" (AStr "ms"); Instr "LOAD_FAST" (AStr "event"); Instr "STORE_ATTR" (AStr "debounce"); Instr "RETURN_CONST" AOther]
       2 ["event"; "ms"] ["preventDefault"; "debounce"] [Some 300%Z] [] [].
Example handler_ok_inspected : wf_func handler_ok /\ names_listed handler_ok /\ inspect handler_ok = (true, false, Some 300%Z).
Proof.
  split; [|split; [apply names_listed_ok|]; reflexivity]. unfold wf_func. simpl. repeat split; auto; try constructor.
  - simpl. intros [H|[]]. discriminate.
  - constructor; [intros []|constructor].
Qed.
Example handler_ok_single : single_assignment handler_ok /\ (forall z, ~ has_default handler_ok (event_of handler_ok) z) /\
  called handler_ok (fun n => if String.eqb n "event" then VEvent else VInt 300) (fun _ => VOther).
Proof.
  split; [split|split].
  - intros i I. repeat (destruct I as [<-|I]; [discriminate|]). destruct I.
  - assert (H : forall j i, nth_error (f_code handler_ok) j = Some i -> assigns_attr "debounce" i -> j = 7).
    { intros j i E [S _]. do 9 (destruct j as [|j]; [injection E as <-; try discriminate; auto|]). destruct j; discriminate. }
    intros j k i i' J K S S'. rewrite (H j i J S), (H k i' K S'). auto.
  - intros z [([|[|j]] & H & D)|[]]; discriminate.
  - split; [reflexivity|split; [|intros n z []]]. intros n z N [([|j] & H & D)|[]]; [|destruct j; discriminate].
    simpl in H, D. injection H as <-. injection D as <-. reflexivity.
Qed.

(** Documented, lines 69-72: "If any assignment uses an unresolvable value ... return [None]". Refuted:
    [event.debounce = 100] followed by [event.debounce = x], [x] a local variable, reports 100. *)
Definition tainted_handler : func :=
  Func [Instr "RESUME" AOther; Instr "LOAD_CONST" (AInt 100); Instr "LOAD_FAST" (AStr "event"); Instr "STORE_ATTR" (AStr "debounce");
        Instr "LOAD_FAST" (AStr "x"); Instr "LOAD_FAST" (AStr "event"); Instr "STORE_ATTR" (AStr "debounce"); Instr "RETURN_CONST" AOther]
       1 ["event"; "x"] ["debounce"] [] [] [].
Theorem C35_unresolvable_later_refuted :
  exists f k, wf_func f /\ names_listed f /\ on_event f (assigns_attr "debounce") k /\ (forall z, ~ known_value f k z) /\ snd (inspect f) <> None.
Proof.
  assert (W : wf_func tainted_handler).
  { unfold wf_func. simpl. repeat split; auto; try constructor.
    - simpl. intros [H|[]]. discriminate.
    - constructor; [intros []|constructor]. }
  exists tainted_handler, 6. split; [exact W|]. split; [apply names_listed_ok; reflexivity|]. split; [|split].
  - exists (Instr "LOAD_FAST" (AStr "event")), (Instr "STORE_ATTR" (AStr "debounce")). split; [lia|]. split; [reflexivity|]. split; [reflexivity|].
    split; [left; simpl; auto|split; reflexivity].
  - intros z KV. apply (known_iff _ _ _ W) in KV. apply (resolve_spec tainted_handler 6 z (Instr "LOAD_FAST" (AStr "event")) (Instr "STORE_ATTR" (AStr "debounce"))) in KV; try reflexivity; [discriminate KV|lia].
  - discriminate.
Qed.
(** A parameter assigned before it is used: inspection reports the default, the code stores another value.
    [def handler(event, ms=300): ms = 100; event.debounce = ms] *)
Definition reassigned_handler : func :=
  Func [Instr "RESUME" AOther; Instr "LOAD_CONST" (AInt 100); Instr "STORE_FAST" (AStr "ms");
        Instr "LOAD_FAST" (AStr "ms"); Instr "LOAD_FAST" (AStr "event"); Instr "STORE_ATTR" (AStr "debounce"); Instr "RETURN_CONST" AOther]
       2 ["event"; "ms"] ["debounce"] [Some 300%Z] [] [].
Theorem C35_reassigned_default_refuted :
  exists f loc cap z z', z <> z' /\ names_listed f /\ called f loc cap /\ snd (inspect f) = Some z /\
    m_deb (exec_all cap (fun _ st => st) (f_code f) (start loc)) = Some (VInt z').
Proof.
  exists reassigned_handler, (fun n => if String.eqb n "event" then VEvent else VInt 300), (fun _ => VOther), 300%Z, 100%Z.
  split; [discriminate|]. split; [apply names_listed_ok; reflexivity|]. split; [|split; reflexivity].
  split; [reflexivity|split; [|intros n z []]]. intros n z N [([|j] & H & D)|[]]; [|destruct j; discriminate].
  simpl in H, D. injection H as <-. injection D as <-. reflexivity.
Qed.
(** Two literal assignments: the first is reported, the last one wins. *)
Definition two_literals : func :=
  Func [Instr "LOAD_CONST" (AInt 100); Instr "LOAD_FAST" (AStr "event"); Instr "STORE_ATTR" (AStr "debounce");
        Instr "LOAD_CONST" (AInt 200); Instr "LOAD_FAST" (AStr "event"); Instr "STORE_ATTR" (AStr "debounce")]
       1 ["event"] ["debounce"] [] [] [].
Theorem C35_two_literals_refuted :
  exists f loc cap z z', z <> z' /\ names_listed f /\ called f loc cap /\ snd (inspect f) = Some z /\
    m_deb (exec_all cap (fun _ st => st) (f_code f) (start loc)) = Some (VInt z').
Proof.
  exists two_literals, (fun _ => VEvent), (fun _ => VOther), 100%Z, 200%Z. split; [discriminate|]. split; [apply names_listed_ok; reflexivity|].
  split; [|split; reflexivity]. split; [reflexivity|split; [|intros n z []]]. intros n z N [(j & H & D)|[]]. destruct j; discriminate.
Qed.

(** ** Event handlers: /repo/src/reactpy/core/events.py:91-147 *)

(** What is given to [EventHandler]: a Python function, a function with [__wrapped__], a [partial], or a callable without
    [__code__] (a builtin, a callable object). *)
Inductive callable := CFun (f : func) | CWrapped (own : func) (inner : callable) | CPartial (inner : callable) | CNoCode.
Fixpoint unwrap (c : callable) : callable := match c with CWrapped _ c' => unwrap c' | _ => c end.
Definition code_of (c : callable) : option func := match c with CFun f => Some f | CWrapped own _ => Some own | _ => None end.
(** The function that is inspected; [None]: [func.__code__] raises [AttributeError]. *)
Definition inspected (c : callable) : option func :=
  match unwrap c with CPartial c' => code_of c' | c' => code_of c' end.
(** The handler: what it calls, and its five options. Calling a handler is a list of calls [(function id, data)]; their
    relative timing is not modelled. *)
Record ehandler := EHandler {
  h_calls : list nat; h_stop : bool; h_prevent : bool; h_target : option string; h_debounce : option Z; h_throttle : option Z
}.
(** [EventHandler.__init__] *)
Definition event_handler (calls : list nat) (c : callable) (stop prevent : bool) (target : option string) (debounce throttle : option Z) : option ehandler :=
  match inspected c with
  | None => None
  | Some f => let '(p, s, d) := inspect f in
      Some (EHandler calls (stop || s) (prevent || p) target (match d with Some z => Some z | None => debounce end) throttle)
  end.
(** [await_all_event_handlers], lines 274-277: an [async def] with one parameter. *)
Definition await_all_code : func :=
  Func [Instr "RESUME" AOther; Instr "LOAD_GLOBAL" (AStr "create_task_group"); Instr "CALL" AOther; Instr "STORE_FAST" (AStr "group");
        Instr "LOAD_DEREF" (AStr "functions"); Instr "GET_ITER" AOther; Instr "FOR_ITER" AOther; Instr "STORE_FAST" (AStr "func");
        Instr "LOAD_FAST" (AStr "group"); Instr "LOAD_ATTR" (AStr "start_soon"); Instr "LOAD_FAST" (AStr "func"); Instr "LOAD_FAST" (AStr "data");
        Instr "CALL" AOther; Instr "POP_TOP" AOther; Instr "JUMP_BACKWARD" AOther]
       1 ["data"; "group"; "func"] ["create_task_group"; "start_soon"] [] [] [("functions", None)].
(** [merge_event_handler_funcs], lines 264-279: [None] is [ValueError]. *)
Definition merge_funcs (fs : list (list nat)) : option (list nat) :=
  match fs with [] => None | [f] => Some f | _ => Some (concat fs) end.
Definition opt_eqb {A} (eqb : A -> A -> bool) (a b : option A) : bool :=
  match a, b with Some x, Some y => eqb x y | None, None => true | _, _ => false end.
(** [merge_event_handlers], lines 215-261: [None] is [ValueError]. *)
Definition agrees (f h : ehandler) : bool :=
  Bool.eqb (h_stop h) (h_stop f) && Bool.eqb (h_prevent h) (h_prevent f) && opt_eqb Z.eqb (h_debounce h) (h_debounce f) &&
  opt_eqb Z.eqb (h_throttle h) (h_throttle f) && opt_eqb String.eqb (h_target h) (h_target f).
Definition merge_handlers (hs : list ehandler) : option ehandler :=
  match hs with
  | [] => None
  | [h] => Some h
  | f :: _ =>
      if forallb (agrees f) hs
      then match merge_funcs (map h_calls hs) with
           | None => None
           | Some calls => event_handler calls (CFun await_all_code) (h_stop f) (h_prevent f) (h_target f) (h_debounce f) (h_throttle f)
           end
      else None
  end.

Definition options (h : ehandler) : bool * bool * option string * option Z * option Z := (h_stop h, h_prevent h, h_target h, h_debounce h, h_throttle h).
Lemma opt_eqb_eq {A} (eqb : A -> A -> bool) a b : (forall x y, eqb x y = true <-> x = y) -> opt_eqb eqb a b = true <-> a = b.
Proof.
  intros H. destruct a, b; simpl; try (split; congruence).
  - rewrite H. split; congruence.
Qed.
Lemma agrees_iff f h : agrees f h = true <-> options h = options f.
Proof.
  unfold agrees, options. rewrite !andb_true_iff, !Bool.eqb_true_iff, !opt_eqb_eq; auto using Z.eqb_eq, String.eqb_eq.
  split; [intros [[[[A B] C] D] E]; congruence|]. intros E. injection E. auto.
Qed.

(** C34: merging succeeds iff the list is not empty and all handlers have the same five options; the merged handler has
    these options, and a call of it makes exactly the calls of all given handlers. *)
Theorem C34_merge hs :
  ((exists h, merge_handlers hs = Some h) <-> hs <> [] /\ forall a b, In a hs -> In b hs -> options a = options b) /\
  (forall h, merge_handlers hs = Some h -> (forall a, In a hs -> options h = options a) /\ h_calls h = concat (map h_calls hs)).
Proof.
  destruct hs as [|f [|g l]].
  - split; [|discriminate]. split; [intros [h H]; discriminate|]. intros [H _]. contradiction.
  - split.
    + split; [|intros _; exists f; auto]. intros _. split; [discriminate|]. intros a b [<-|[]] [<-|[]]. auto.
    + intros h E. injection E as <-. split; [intros a [<-|[]]; auto|]. simpl. rewrite app_nil_r. auto.
  - set (hs := f :: g :: l). assert (M : merge_handlers hs = if forallb (agrees f) hs then event_handler (concat (map h_calls hs)) (CFun await_all_code) (h_stop f) (h_prevent f) (h_target f) (h_debounce f) (h_throttle f) else None) by reflexivity.
    assert (E : event_handler (concat (map h_calls hs)) (CFun await_all_code) (h_stop f) (h_prevent f) (h_target f) (h_debounce f) (h_throttle f) =
                Some (EHandler (concat (map h_calls hs)) (h_stop f || false) (h_prevent f || false) (h_target f) (h_debounce f) (h_throttle f))) by reflexivity.
    rewrite !orb_false_r in E. rewrite M, E. destruct (forallb (agrees f) hs) eqn:A.
    + rewrite forallb_forall in A. assert (AG : forall a, In a hs -> options a = options f) by (intros a I; apply agrees_iff; auto). split.
      * split; [|eauto]. intros _. split; [discriminate|]. intros a b IA IB. rewrite (AG a IA), (AG b IB). auto.
      * intros h H. injection H as <-. split; auto. intros a I. rewrite (AG a I). reflexivity.
    + split; [|discriminate]. split; [intros [h H]; discriminate|]. intros [_ H]. exfalso.
      assert (forallb (agrees f) hs = true); [|congruence]. apply forallb_forall. intros a I. apply agrees_iff. apply H; auto. left. auto.
Qed.
Example C34_example :
  let h n := EHandler [n] true false None (Some 100%Z) None in
  merge_handlers [h 1; h 2; h 3] = Some (EHandler [1; 2; 3] true false None (Some 100%Z) None) /\
  merge_handlers [h 1; EHandler [2] true false None None None] = None.
Proof. split; reflexivity. Qed.

(** C34: the functions alone: merging succeeds iff there is one, and a call of the result makes the calls of all. *)
Theorem C34_functions fs calls : merge_funcs fs = Some calls <-> fs <> [] /\ calls = concat fs.
Proof.
  destruct fs as [|f [|g l]]; cbn [merge_funcs].
  - split; [discriminate|intros [H _]; contradiction].
  - cbn [concat]. rewrite app_nil_r. split; [intros E; injection E as ->; split; [discriminate|reflexivity]|intros [_ ->]; reflexivity].
  - split; [intros E; injection E as <-; split; [discriminate|reflexivity]|intros [_ ->]; reflexivity].
Qed.
Print Assumptions C34_functions.

(** The function whose code is looked at: that of a function; below [__wrapped__], that of the function wrapped last; of a [partial], that
    of the function it is made of, wrapped or not. *)
Inductive looks_at : callable -> func -> Prop :=
| looks_fun f : looks_at (CFun f) f
| looks_wrapped own c f : looks_at c f -> looks_at (CWrapped own c) f
| looks_partial f : looks_at (CPartial (CFun f)) f
| looks_partial_wrapped own c : looks_at (CPartial (CWrapped own c)) own.
Lemma inspected_spec c f : inspected c = Some f <-> looks_at c f.
Proof.
  unfold inspected. split.
  - induction c as [g|own c IH|c IH|]; cbn [unwrap]; intros H.
    + injection H as <-. constructor.
    + constructor. apply IH, H.
    + destruct c as [g|own c|c|]; try discriminate; injection H as <-; constructor.
    + discriminate.
  - intros L. induction L; try reflexivity. exact IHL.
Qed.
(** Constructing a handler: it succeeds iff there is such a function; the result's options are the given ones joined with what
    inspection finds, and a found debounce wins over a given one. *)
Theorem C35_handler_options calls c stop prevent target debounce throttle :
  (forall f, looks_at c f -> exists h, event_handler calls c stop prevent target debounce throttle = Some h /\
      (h_prevent h = true <-> prevent = true \/ fst (fst (inspect f)) = true) /\ (h_stop h = true <-> stop = true \/ snd (fst (inspect f)) = true) /\
      (forall z, snd (inspect f) = Some z -> h_debounce h = Some z) /\ (snd (inspect f) = None -> h_debounce h = debounce) /\
      h_target h = target /\ h_throttle h = throttle /\ h_calls h = calls) /\
  ((forall f, ~ looks_at c f) -> event_handler calls c stop prevent target debounce throttle = None).
Proof.
  unfold event_handler. split.
  - intros f L. apply inspected_spec in L. rewrite L. destruct (inspect f) as [[p s] d]. eexists. split; [reflexivity|]. simpl.
    rewrite !orb_true_iff. repeat split; auto; intros; subst; auto.
  - intros N. destruct (inspected c) as [f|] eqn:E; [|reflexivity]. apply inspected_spec in E. destruct (N f E).
Qed.
(** A builtin or any other callable without [__code__] (for example [some_list.append]) cannot be an event handler, although
    the API accepts "a function or coroutine responsible for handling the event": constructing the handler raises. *)
Theorem C35_no_code_refuted : exists c, event_handler [1] c false false None None None = None.
Proof. exists CNoCode. reflexivity. Qed.
(** A bound method's first argument is [self]: its [event.preventDefault()] is not detected.
    [def on_click(self, event): event.preventDefault()] *)
Definition method_handler : func :=
  Func [Instr "RESUME" AOther; Instr "LOAD_FAST" (AStr "event"); Instr "LOAD_METHOD" (AStr "preventDefault"); Instr "CALL" AOther; Instr "POP_TOP" AOther]
       2 ["self"; "event"] ["preventDefault"] [] [] [].
Theorem C35_method_refuted : exists f, names_listed f /\ In (Instr "LOAD_METHOD" (AStr "preventDefault")) (f_code f) /\ inspect f = (false, false, None).
Proof. exists method_handler. split; [apply names_listed_ok; reflexivity|]. split; [simpl; auto|reflexivity]. Qed.

Print Assumptions C34_merge.
Print Assumptions C35_inspection.
Print Assumptions C35_reported_is_stored.
