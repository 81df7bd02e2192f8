(** * Model of configuration options (/repo/src/reactpy/_option.py, config.py) and properties C46-C48 *)
From Coq Require Import Bool Arith Lia List.
From Verif Require Import EffectModel EffectProps.
Import ListNotations.

(** A Python value: [is] compares the object, [==] the value. *)
Record value := Val { v_obj : nat; v_val : nat }.
Definition same (a b : value) : bool := Nat.eqb (v_obj a) (v_obj b) && Nat.eqb (v_val a) (v_val b).
Definition differs (a b : value) : bool := negb (Nat.eqb (v_val a) (v_val b)).

(** A subscriber. [SChild c]: [set_current] of the child option [c] (_option.py:38); [SUser] a callback without effect on
    options; [SRaise] one that raises; [SSet o w] one that sets option [o] to [w]. *)
Inductive sub := SChild (c : nat) | SUser (n : nat) | SRaise (n : nat) | SSet (o : nat) (w : value).
(** [Option], _option.py:15-70. [o_valid v = None]: the validator raises. [o_cur = None]: [_current] is not set. *)
Record opt := Opt { o_mut : bool; o_def : value; o_cur : option value; o_valid : value -> option value; o_subs : list sub }.
Definition current (op : opt) : value := match o_cur op with Some v => v | None => o_def op end.
Definition with_cur (c : option value) (op : opt) : opt := Opt (o_mut op) (o_def op) c (o_valid op) (o_subs op).
Definition with_sub (s : sub) (op : opt) : opt := Opt (o_mut op) (o_def op) (o_cur op) (o_valid op) (o_subs op ++ [s]).

(** All options, and the calls of subscribers so far: [(o, k, v)] is the call of the [k]-th subscriber of [o] with [v]. *)
Record state := State { opts : list opt; calls : list (nat * nat * value) }.
Inductive error := TypeErr | ValueErr | AttrErr | CallbackErr | NoOption.
Inductive result := Done | Raised (e : error) | NoFuel.
Definition put_opt (o : nat) (op : opt) (st : state) : state := State (put (opts st) o op) (calls st).
Definition add_call (c : nat * nat * value) (st : state) : state := State (opts st) (calls st ++ [c]).

(** The loops over the subscribers, _option.py:108-110 and 133-135. [set o new st] sets an option. *)
Fixpoint notify (set : nat -> value -> state -> result * state) (o : nat) (v : value) (k : nat) (subs : list sub) (st : state) : result * state :=
  match subs with
  | [] => (Done, st)
  | s :: rest =>
      let st1 := add_call (o, k, v) st in
      let (r, st2) := match s with
                      | SChild c => set c v st1
                      | SUser _ => (Done, st1)
                      | SRaise _ => (Raised CallbackErr, st1)
                      | SSet o' w => set o' w st1
                      end in
      match r with Done => notify set o v (S k) rest st2 | _ => (r, st2) end
  end.
(** [set_current], _option.py:89-110. The logging and the message are not modelled. The fuel bounds nested calls. *)
Fixpoint set_current (fuel : nat) (o : nat) (new : value) (st : state) : result * state :=
  match fuel with
  | 0 => (NoFuel, st)
  | S f =>
      match nth_error (opts st) o with
      | None => (Raised NoOption, st)
      | Some op =>
          let old := current op in
          if same new old then (Done, st)
          else if negb (o_mut op) then (Raised TypeErr, st)
          else match o_valid op new with
               | None => (Raised ValueErr, st)
               | Some v =>
                   let st1 := put_opt o (with_cur (Some v) op) st in
                   if differs v old then notify (set_current f) o v 0 (o_subs op) st1 else (Done, st1)
               end
      end
  end.

Definition set (o : nat) (new : value) (st : state) : result * state := set_current (S (length (opts st))) o new st.

(** [unset], _option.py:125-135. *)
Definition unset (o : nat) (st : state) : result * state :=
  match nth_error (opts st) o with
  | None => (Raised NoOption, st)
  | Some op =>
      if negb (o_mut op) then (Raised TypeErr, st)
      else let old := current op in
           let st1 := put_opt o (with_cur None op) st in
           if differs (o_def op) old then notify (set_current (length (opts st))) o (o_def op) 0 (o_subs op) st1 else (Done, st1)
  end.
(** [subscribe], _option.py:76-83. *)
Definition subscribe (o : nat) (s : sub) (st : state) : result * state :=
  match nth_error (opts st) o with
  | None => (Raised NoOption, st)
  | Some op =>
      if negb (o_mut op) then (Raised TypeErr, st)
      else notify (set_current (S (length (opts st)))) o (current op) (length (o_subs op)) [s] (put_opt o (with_sub s op) st)
  end.
(** [Option.__init__], _option.py:18-44; [env]: the value of the environment variable. An option whose constructor
    raises after subscribing to its parent stays subscribed; it keeps its place in the list. *)
Definition create (env : option value) (default : value) (mut : bool) (parent : option nat) (valid : value -> option value) (st : state) : result * state :=
  match (match env with None => Some None | Some e => match valid e with Some v => Some (Some v) | None => None end end) with
  | None => (Raised ValueErr, st)
  | Some cur =>
      match parent with
      | None => (Done, State (opts st ++ [Opt mut default cur valid []]) (calls st))
      | Some p =>
          match nth_error (opts st) p with
          | None => (Raised NoOption, st)
          | Some pop => if o_mut pop && mut
                        then subscribe p (SChild (length (opts st))) (State (opts st ++ [Opt mut (o_def pop) cur valid []]) (calls st))
                        else (Raised TypeErr, st)
          end
      end
  end.
(** [set_default], _option.py:112-119: the returned value, if any. *)
Definition set_default (o : nat) (new : value) (st : state) : option value * result * state :=
  match nth_error (opts st) o with
  | None => (None, Raised NoOption, st)
  | Some op =>
      match o_cur op with
      | Some v => (Some v, Done, st)
      | None =>
          match set o new st with
          | (Done, st') => match nth_error (opts st') o with
                           | Some op' => match o_cur op' with Some v => (Some v, Done, st') | None => (None, Raised AttrErr, st') end
                           | None => (None, Raised NoOption, st')
                           end
          | (r, st') => (None, r, st')
          end
      end
  end.
(** [reload], _option.py:121-123. *)
Definition reload (o : nat) (env : option value) (st : state) : result * state :=
  match nth_error (opts st) o with
  | None => (Raised NoOption, st)
  | Some op => set o (match env with Some e => e | None => o_def op end) st
  end.

(** Histories. *)
Inductive op :=
| ONew (env : option value) (default : value) (mut : bool) (parent : option nat) (valid : value -> option value)
| OSet (o : nat) (v : value) | OUnset (o : nat) | OSub (o n : nat) | OSetDefault (o : nat) (v : value) | OReload (o : nat) (env : option value).
Definition run1 (st : state) (x : op) : state :=
  match x with
  | ONew env d m p v => snd (create env d m p v st)
  | OSet o v => snd (set o v st)
  | OUnset o => snd (unset o st)
  | OSub o n => snd (subscribe o (SUser n) st)
  | OSetDefault o v => snd (set_default o v st)
  | OReload o e => snd (reload o e st)
  end.
Definition run (l : list op) : state := fold_left run1 l (State [] []).

(** ** Facts *)
Definition subs_of (st : state) (o : nat) : list sub := match nth_error (opts st) o with Some x => o_subs x | None => [] end.
Inductive desc (S : nat -> list sub) : nat -> nat -> Prop :=
| desc_refl o : desc S o o
| desc_step o c x : In (SChild c) (S o) -> desc S c x -> desc S o x.
Lemma desc_ext S S' o x : (forall o, S o = S' o) -> desc S o x -> desc S' o x.
Proof. intros E. induction 1; [constructor|]. econstructor; eauto. rewrite <- E. auto. Qed.
(** Options form a forest: children come later than their parent and have one parent. *)
Record wf (st : state) : Prop := {
  wf_order : forall o c, In (SChild c) (subs_of st o) -> o < c < length (opts st);
  wf_parent : forall o o' c, In (SChild c) (subs_of st o) -> In (SChild c) (subs_of st o') -> o = o';
  wf_once : forall o, NoDup (filter (fun s => match s with SChild _ => true | _ => false end) (subs_of st o));
  wf_quiet : forall o s, In s (subs_of st o) -> (exists c, s = SChild c) \/ exists n, s = SUser n
}.
(** [st'] comes from [st] by changing only the current values of the options in [D] and calling their subscribers. *)
Record ext (D : nat -> Prop) (st st' : state) : Prop := {
  ext_len : length (opts st') = length (opts st);
  ext_opt : forall x p, nth_error (opts st) x = Some p -> exists c, nth_error (opts st') x = Some (with_cur c p) /\ (~ D x -> c = o_cur p);
  ext_calls : exists l, calls st' = calls st ++ l /\ forall o k v, In (o, k, v) l -> D o
}.
Lemma with_cur_same p : with_cur (o_cur p) p = p.
Proof. destruct p; reflexivity. Qed.
Lemma ext_refl D st : ext D st st.
Proof. split; auto; [|exists []; rewrite app_nil_r; split; auto; simpl; tauto]. intros x p H. exists (o_cur p). rewrite with_cur_same. auto. Qed.
Lemma ext_trans D st1 st2 st3 : ext D st1 st2 -> ext D st2 st3 -> ext D st1 st3.
Proof.
  intros [L1 O1 (l1 & C1 & D1)] [L2 O2 (l2 & C2 & D2)]. split; [congruence| |].
  - intros x p H. destruct (O1 x p H) as (c1 & H1 & N1). destruct (O2 _ _ H1) as (c2 & H2 & N2). exists c2. split; [exact H2|]. intros N. rewrite N2 by auto. simpl. auto.
  - exists (l1 ++ l2). split; [rewrite C2, C1, app_assoc; auto|]. intros o k v I. apply in_app_or in I. destruct I; eauto.
Qed.
Lemma ext_weak (D D' : nat -> Prop) st st' : (forall x, D x -> D' x) -> ext D st st' -> ext D' st st'.
Proof. intros W [L O (l & C & DC)]. split; auto; [|exists l; split; eauto]. intros x p H. destruct (O x p H) as (c & H1 & N). exists c. split; auto. Qed.
Lemma ext_subs D st st' o : ext D st st' -> subs_of st' o = subs_of st o.
Proof.
  intros E. unfold subs_of. destruct (nth_error (opts st) o) as [p|] eqn:H.
  - destruct (ext_opt _ _ _ E o p H) as (c & -> & _). reflexivity.
  - apply nth_error_None in H. rewrite <- (ext_len _ _ _ E) in H. apply nth_error_None in H. rewrite H. reflexivity.
Qed.
Lemma ext_wf D st st' : ext D st st' -> wf st -> wf st'.
Proof.
  intros E [W1 W2 W3 W4]. assert (S := fun o => ext_subs D st st' o E). split.
  - intros o c I. rewrite S in I. rewrite (ext_len _ _ _ E). apply W1. auto.
  - intros o o' c. rewrite !S. apply W2.
  - intros o. rewrite S. apply W3.
  - intros o s. rewrite S. apply W4.
Qed.
Lemma ext_put (D : nat -> Prop) st o p c : nth_error (opts st) o = Some p -> D o -> ext D st (put_opt o (with_cur c p) st).
Proof.
  intros H DO. assert (LT : o < length (opts st)) by (apply nth_error_Some; congruence). split; cbn [opts calls put_opt]; [apply put_length| |exists []; rewrite app_nil_r; split; auto; simpl; tauto].
  intros x q Hx. destruct (Nat.eq_dec o x) as [<-|N].
  - rewrite H in Hx. injection Hx as <-. exists c. rewrite put_same by auto. tauto.
  - exists (o_cur q). rewrite put_other, with_cur_same by auto. auto.
Qed.
Lemma ext_call (D : nat -> Prop) st o k v : D o -> ext D st (add_call (o, k, v) st).
Proof.
  intros DO. split; cbn [opts calls add_call]; auto.
  - intros x p H. exists (o_cur p). rewrite with_cur_same. auto.
  - exists [(o, k, v)]. split; auto. intros o' k' v' [H|[]]. injection H as <- <- <-. auto.
Qed.

(** Every set changes only the option and its descendants, and does not run out of fuel. *)
Definition good_set (sets : nat -> value -> state -> result * state) (lb n : nat) : Prop :=
  forall o new st, wf st -> lb <= o -> o < length (opts st) -> length (opts st) = n ->
    ext (desc (subs_of st) o) st (snd (sets o new st)) /\ fst (sets o new st) <> NoFuel.
Lemma notify_ext sets o v : forall subs k st, good_set sets (S o) (length (opts st)) -> wf st -> incl subs (subs_of st o) ->
  ext (desc (subs_of st) o) st (snd (notify sets o v k subs st)) /\ fst (notify sets o v k subs st) <> NoFuel.
Proof.
  induction subs as [|s subs IH]; intros k st G W I; cbn [notify]; [split; [apply ext_refl|discriminate]|].
  assert (E1 := ext_call (desc (subs_of st) o) st o k v (desc_refl _ _)). set (st1 := add_call (o, k, v) st) in *.
  assert (W1 := ext_wf _ _ _ E1 W). assert (IS : In s (subs_of st o)) by (apply I; left; auto).
  assert (NEXT : forall r st2, ext (desc (subs_of st) o) st1 st2 -> r <> NoFuel ->
     ext (desc (subs_of st) o) st (snd (match r with Done => notify sets o v (S k) subs st2 | _ => (r, st2) end)) /\
     fst (match r with Done => notify sets o v (S k) subs st2 | _ => (r, st2) end) <> NoFuel).
  { intros r st2 E2 NF. assert (E := ext_trans _ _ _ _ E1 E2). destruct r; [|split; [exact E|discriminate]|congruence].
    destruct (IH (S k) st2) as [A B]; [rewrite (ext_len _ _ _ E); auto|apply (ext_wf _ _ _ E W)|rewrite (ext_subs _ _ _ o E); intros y Y; apply I; right; auto|]. split; auto.
    eapply ext_trans; [exact E|]. eapply ext_weak; [|exact A]. intros x. apply desc_ext. intros y. apply (ext_subs _ _ _ y E). }
  destruct (wf_quiet _ W o s IS) as [[c ->]|[n ->]].
  - destruct (wf_order _ W o c IS) as [LT LL]. destruct (G c v st1 W1) as [A B]; [lia|exact LL|reflexivity|]. destruct (sets c v st1) as [r st2] eqn:SE. cbn [fst snd] in *.
    apply NEXT; auto. eapply ext_weak; [|exact A]. intros x X. econstructor; [exact IS|]. eapply desc_ext; [|exact X]. intros y. apply (ext_subs _ _ _ y E1).
  - apply (NEXT Done st1); [apply ext_refl|discriminate].
Qed.
Lemma set_current_ext fuel : forall o new st, wf st -> length (opts st) < fuel + o -> o < length (opts st) ->
  ext (desc (subs_of st) o) st (snd (set_current fuel o new st)) /\ fst (set_current fuel o new st) <> NoFuel.
Proof.
  induction fuel as [|f IH]; intros o new st W F L; [lia|]. cbn [set_current].
  destruct (nth_error (opts st) o) as [p|] eqn:H; [|apply nth_error_None in H; lia].
  destruct (same new (current p)); [split; [apply ext_refl|discriminate]|]. destruct (negb (o_mut p)); [split; [apply ext_refl|discriminate]|].
  destruct (o_valid p new) as [v|]; [|split; [apply ext_refl|discriminate]].
  assert (E := ext_put (desc (subs_of st) o) st o p (Some v) H (desc_refl _ _)). destruct (differs v (current p)); [|split; [exact E|discriminate]].
  set (st1 := put_opt o (with_cur (Some v) p) st) in *. assert (W1 := ext_wf _ _ _ E W).
  destruct (notify_ext (set_current f) o v (o_subs p) 0 st1) as [A B]; auto.
  - intros o' new' st' W' L1 L2 L3. apply IH; auto. assert (X := ext_len _ _ _ E). lia.
  - rewrite (ext_subs _ _ _ o E). unfold subs_of. rewrite H. apply incl_refl.
  - split; auto. eapply ext_trans; [exact E|]. eapply ext_weak; [|exact A]. intros x. apply desc_ext. intros y. apply (ext_subs _ _ _ y E).
Qed.
Lemma set_good st fuel lb : length (opts st) < fuel + lb -> good_set (set_current fuel) lb (length (opts st)).
Proof. intros F o new st' W L1 L2 L3. apply set_current_ext; auto. lia. Qed.

Lemma desc_order st o x : wf st -> desc (subs_of st) o x -> o <= x.
Proof. intros W. induction 1; [lia|]. apply (wf_order _ W) in H. lia. Qed.
Lemma desc_inv st o c x : wf st -> In (SChild x) (subs_of st o) -> desc (subs_of st) c x -> c = x \/ desc (subs_of st) c o.
Proof.
  intros W I D. remember (subs_of st) as S eqn:ES. induction D as [y|y z x IZ D IH]; [auto|]. subst S. right. destruct (IH I) as [->|X].
  - rewrite (wf_parent _ W _ _ _ IZ I). constructor.
  - econstructor; eauto.
Qed.
(** Setting one child does not touch another child of the same parent. *)
Lemma siblings st o c c' : wf st -> In (SChild c) (subs_of st o) -> In (SChild c') (subs_of st o) -> c <> c' -> ~ desc (subs_of st) c' c.
Proof.
  intros W I1 I2 N D. destruct (desc_inv st o c' c W I1 D) as [E|D2]; [congruence|]. apply desc_order in D2; auto. apply (wf_order _ W) in I2. lia.
Qed.

Definition is_child (s : sub) : bool := match s with SChild _ => true | _ => false end.
Definition own (o : nat) (l : list (nat * nat * value)) : list (nat * value) := map (fun c => (snd (fst c), snd c)) (filter (fun c => Nat.eqb (fst (fst c)) o) l).
Lemma own_app o l1 l2 : own o (l1 ++ l2) = own o l1 ++ own o l2.
Proof. unfold own. rewrite filter_app, map_app. reflexivity. Qed.
Lemma own_none o l : (forall o' k v, In (o', k, v) l -> o' <> o) -> own o l = [].
Proof.
  induction l as [|[[o' k] v] l IH]; intros H; [reflexivity|]. unfold own in *. cbn [filter fst]. destruct (Nat.eqb_spec o' o) as [->|N]; [exfalso; eapply H; [left; reflexivity|auto]|].
  apply IH. intros. eapply H. right. eauto.
Qed.
Definition cur_of (st : state) (o : nat) : option value := option_map current (nth_error (opts st) o).
Lemma ext_cur (D : nat -> Prop) st st' x : ext D st st' -> ~ D x -> cur_of st' x = cur_of st x.
Proof.
  intros E N. unfold cur_of. destruct (nth_error (opts st) x) as [p|] eqn:H.
  - destruct (ext_opt _ _ _ E x p H) as (c & -> & C). rewrite C, with_cur_same by auto. reflexivity.
  - apply nth_error_None in H. rewrite <- (ext_len _ _ _ E) in H. apply nth_error_None in H. rewrite H. reflexivity.
Qed.
(** What an option holds after being set to [v] without error. *)
Definition took (st st' : state) (c : nat) (v : value) : Prop :=
  exists p w, nth_error (opts st) c = Some p /\ cur_of st' c = Some w /\ (v = w \/ o_valid p v = Some w).
Lemma same_iff a b : same a b = true <-> a = b.
Proof.
  unfold same. rewrite andb_true_iff, !Nat.eqb_eq. destruct a as [a a'], b as [b b']. cbn [v_obj v_val]. split; [intros [-> ->]; reflexivity|intros E; injection E; auto].
Qed.
Lemma same_not a b : same a b = false <-> a <> b.
Proof. rewrite <- same_iff. destruct (same a b); split; congruence. Qed.
Lemma differs_iff a b : differs a b = true <-> v_val a <> v_val b.
Proof. unfold differs. rewrite negb_true_iff, Nat.eqb_neq. reflexivity. Qed.
Lemma differs_not a b : differs a b = false <-> v_val a = v_val b.
Proof. unfold differs. rewrite negb_false_iff, Nat.eqb_eq. reflexivity. Qed.
Lemma set_current_took f c v st st' : wf st -> length (opts st) < f + c -> c < length (opts st) -> set_current f c v st = (Done, st') -> took st st' c v.
Proof.
  intros W F L. destruct f as [|f]; [lia|]. cbn [set_current]. destruct (nth_error (opts st) c) as [p|] eqn:H; [|apply nth_error_None in H; lia].
  destruct (same v (current p)) eqn:SM.
  - intros X. injection X as <-. exists p, (current p). unfold cur_of. rewrite H. apply same_iff in SM. auto.
  - destruct (negb (o_mut p)); [discriminate|]. destruct (o_valid p v) as [w|] eqn:V; [|discriminate].
    assert (E := ext_put (desc (subs_of st) c) st c p (Some w) H (desc_refl _ _)). set (st1 := put_opt c (with_cur (Some w) p) st) in *.
    assert (C1 : cur_of st1 c = Some w) by (unfold cur_of, st1; cbn [opts put_opt]; rewrite put_same by auto; reflexivity).
    destruct (differs w (current p)).
    + intros X. assert (W1 := ext_wf _ _ _ E W).
      assert (OWN : forall subs k st2 st3, wf st2 -> length (opts st2) = length (opts st) -> incl subs (subs_of st2 c) -> notify (set_current f) c w k subs st2 = (Done, st3) -> cur_of st3 c = cur_of st2 c).
      { clear - F L. induction subs as [|s subs IH]; intros k st2 st3 W2 LE I; cbn [notify]; [intros X; injection X as <-; auto|].
        assert (E1 := ext_call (desc (subs_of st2) c) st2 c k w (desc_refl _ _)). set (st21 := add_call (c, k, w) st2) in *.
        assert (IS : In s (subs_of st2 c)) by (apply I; left; auto). assert (I' : incl subs (subs_of st2 c)) by (intros y Y; apply I; right; auto).
        destruct (wf_quiet _ W2 c s IS) as [[d ->]|[n ->]].
        - destruct (wf_order _ W2 c d IS) as [L1 L2]. destruct (set_current f d w st21) as [r st22] eqn:SE. destruct r; try discriminate.
          assert (G := set_good st21 f d). destruct (set_current_ext f d w st21) as [A B]; [eapply ext_wf; eauto|cbn [st21 opts add_call]; lia|exact L2|]. rewrite SE in A. cbn [snd] in A.
          intros X. rewrite (IH (S k) st22 st3); auto.
          + rewrite (ext_cur _ _ _ c A); [reflexivity|]. intros D. apply desc_order in D; [lia|]. eapply ext_wf; eauto.
          + eapply ext_wf; [exact A|]. eapply ext_wf; eauto.
          + rewrite (ext_len _ _ _ A). exact LE.
          + rewrite (ext_subs _ _ _ c A). exact I'.
        - intros X. rewrite (IH (S k) st21 st3); auto. eapply ext_wf; eauto. }
      exists p, w. split; auto. split; auto. rewrite (OWN (o_subs p) 0 st1 st'); auto; [apply (ext_len _ _ _ E)|].
      rewrite (ext_subs _ _ _ c E). unfold subs_of. rewrite H. apply incl_refl.
    + intros X. injection X as <-. exists p, w. auto.
Qed.

(** What a round of notifications does. *)
Lemma notify_spec sets o v : forall subs k st st', good_set sets (S o) (length (opts st)) ->
  (forall c st0 st1, wf st0 -> length (opts st0) = length (opts st) -> o < c < length (opts st) -> sets c v st0 = (Done, st1) -> took st0 st1 c v) ->
  wf st -> incl subs (subs_of st o) -> NoDup (filter is_child subs) -> notify sets o v k subs st = (Done, st') ->
  (exists l, calls st' = calls st ++ l /\ own o l = map (fun j => (j, v)) (seq k (length subs))) /\
  cur_of st' o = cur_of st o /\ forall c, In (SChild c) subs -> took st st' c v.
Proof.
  induction subs as [|s subs IH]; intros k st st' G T W I ND; cbn [notify].
  - intros X. injection X as <-. split; [exists []; rewrite app_nil_r; auto|]. split; auto. intros c [].
  - assert (E1 := ext_call (desc (subs_of st) o) st o k v (desc_refl _ _)). set (st1 := add_call (o, k, v) st) in *.
    assert (W1 := ext_wf _ _ _ E1 W). assert (IS : In s (subs_of st o)) by (apply I; left; auto). assert (I' : incl subs (subs_of st o)) by (intros y Y; apply I; right; auto).
    assert (ND' : NoDup (filter is_child subs)) by (cbn [filter] in ND; destruct (is_child s); [inversion ND; auto|auto]).
    assert (O1 : own o [(o, k, v)] = [(k, v)]) by (unfold own; cbn [filter fst]; rewrite Nat.eqb_refl; reflexivity).
    assert (NEXT : forall st2, ext (fun x => desc (subs_of st) o x /\ x <> o) st1 st2 -> notify sets o v (S k) subs st2 = (Done, st') ->
      (forall c, In (SChild c) subs -> forall p, nth_error (opts st) c = Some p -> exists c', nth_error (opts st2) c = Some (with_cur c' p)) ->
      ((exists l, calls st' = calls st ++ l /\ own o l = (k, v) :: map (fun j => (j, v)) (seq (S k) (length subs))) /\
       cur_of st' o = cur_of st o) /\ (forall c, In (SChild c) subs -> took st st' c v)).
    { intros st2 E2 X PR. assert (L2 : length (opts st2) = length (opts st)) by (rewrite (ext_len _ _ _ E2); reflexivity).
      destruct (IH (S k) st2 st') as ((l & C & O) & CU & TK); auto.
      - rewrite L2. auto.
      - rewrite L2. auto.
      - eapply ext_wf; eauto.
      - rewrite (ext_subs _ _ _ o E2). exact I'.
      - split; [split|].
        + destruct (ext_calls _ _ _ E2) as (l2 & C2 & D2). exists ((o, k, v) :: l2 ++ l). split.
          * rewrite C, C2. cbn [st1 calls add_call]. rewrite <- !app_assoc. reflexivity.
          * change ((o, k, v) :: l2 ++ l) with ([(o, k, v)] ++ l2 ++ l). rewrite !own_app, O1, O. rewrite (own_none o l2); [reflexivity|]. intros o' k' v' IN. apply D2 in IN. tauto.
        + rewrite CU. rewrite (ext_cur _ _ _ o E2); [reflexivity|tauto].
        + intros c IC. destruct (TK c IC) as (p2 & w & H2 & CW & VW). assert (HP : exists p, nth_error (opts st) c = Some p).
          { destruct (nth_error (opts st) c) eqn:H; eauto. apply nth_error_None in H. apply I' in IC. apply (wf_order _ W) in IC. lia. }
          destruct HP as [p HP]. destruct (PR c IC p HP) as [c' H3]. rewrite H3 in H2. injection H2 as <-. exists p, w. auto. }
    assert (PR0 : forall D st2, ext D st1 st2 -> forall c p, nth_error (opts st) c = Some p -> exists c', nth_error (opts st2) c = Some (with_cur c' p)).
    { intros D st2 E2 c p H. destruct (ext_opt _ _ _ E2 c p H) as (c' & H' & _). eauto. }
    destruct (wf_quiet _ W o s IS) as [[c ->]|[n ->]].
    + destruct (wf_order _ W o c IS) as [LT LL]. destruct (G c v st1 W1) as [A B]; [lia|exact LL|reflexivity|]. destruct (sets c v st1) as [r st2] eqn:SE. cbn [fst snd] in *.
      destruct r; try discriminate. intros X.
      assert (E2 : ext (fun x => desc (subs_of st) o x /\ x <> o) st1 st2).
      { eapply ext_weak; [|exact A]. intros x D. assert (D' : desc (subs_of st) c x) by (eapply desc_ext; [|exact D]; intros y; apply (ext_subs _ _ _ y E1)). split; [econstructor; eauto|].
        intros ->. apply desc_order in D'; auto. lia. }
      destruct (NEXT st2 E2 X) as [[Q1 Q2] Q3]; [intros d _ p H; eapply PR0; eauto|]. split; [exact Q1|]. split; [exact Q2|].
      intros d [Y|Y]; [|auto]. injection Y as <-. destruct (T c st1 st2 W1 eq_refl (conj LT LL) SE) as (p & w & HP & CW & VW).
      exists p, w. split; [exact HP|]. split; [|exact VW].
      (* later notifications do not touch this child *)
      assert (NI : ~ In (SChild c) subs) by (cbn [filter is_child] in ND; inversion ND as [|? ? N0 _]; subst; intros Z; apply N0; apply filter_In; auto).
      assert (L2 : length (opts st2) = length (opts st)) by (rewrite (ext_len _ _ _ E2); reflexivity).
      assert (W2 := ext_wf _ _ _ E2 W1). rewrite <- CW. clear - NI G T W W2 L2 I' E2 X E1 IS. assert (IS2 : In (SChild c) (subs_of st2 o)) by (rewrite (ext_subs _ _ _ o E2); exact IS).
      assert (I2 : incl subs (subs_of st2 o)) by (rewrite (ext_subs _ _ _ o E2); exact I'). clear I' IS E2 st1 E1 W.
      revert st2 L2 W2 X IS2 I2. generalize (S k). induction subs as [|s subs IH]; intros j st2 L2 W2; cbn [notify]; [intros X _ _; injection X as <-; auto|].
      assert (E1 := ext_call (desc (subs_of st2) o) st2 o j v (desc_refl _ _)). set (st21 := add_call (o, j, v) st2) in *. intros X IS2 I2.
      assert (W21 := ext_wf _ _ _ E1 W2). assert (IS : In s (subs_of st2 o)) by (apply I2; left; auto). assert (I2' : incl subs (subs_of st2 o)) by (intros y Y; apply I2; right; auto).
      assert (NI' : ~ In (SChild c) subs) by (intros Z; apply NI; right; auto). specialize (IH NI').
      destruct (wf_quiet _ W2 o s IS) as [[d ->]|[n ->]].
      * destruct (wf_order _ W2 o d IS) as [LT LL]. destruct (G d v st21 W21) as [A B]; [lia|exact LL|exact L2|]. destruct (sets d v st21) as [r st22] eqn:SE. cbn [fst snd] in *. destruct r; try discriminate.
        rewrite (IH (S j) st22).
        -- rewrite (ext_cur _ _ _ c A); [reflexivity|]. apply (siblings st21 o c d); auto. intros ->. apply NI. left. auto.
        -- rewrite (ext_len _ _ _ A). exact L2.
        -- eapply ext_wf; eauto.
        -- exact X.
        -- rewrite (ext_subs _ _ _ o A). exact IS2.
        -- rewrite (ext_subs _ _ _ o A). exact I2'.
      * apply (IH (S j) st21); auto.
    + intros X. destruct (NEXT st1 (ext_refl _ _) X) as [[Q1 Q2] Q3]; [intros d _ p H; eapply (PR0 (fun _ => True)); [apply ext_refl|exact H]|].
      split; [exact Q1|]. split; [exact Q2|]. intros d [Y|Y]; [discriminate|auto].
Qed.

(** ** C46 *)

Lemma set_facts st o new p : wf st -> nth_error (opts st) o = Some p ->
  let r := fst (set o new st) in let st' := snd (set o new st) in
  (same new (current p) = true -> r = Done /\ st' = st) /\
  (same new (current p) = false -> o_mut p = false -> r = Raised TypeErr /\ st' = st) /\
  (same new (current p) = false -> o_mut p = true -> o_valid p new = None -> r = Raised ValueErr /\ st' = st) /\
  (forall v, same new (current p) = false -> o_mut p = true -> o_valid p new = Some v ->
     (forall x, ~ desc (subs_of st) o x -> cur_of st' x = cur_of st x) /\
     (differs v (current p) = false -> r = Done /\ cur_of st' o = Some v /\ calls st' = calls st) /\
     (differs v (current p) = true -> r = Done ->
        cur_of st' o = Some v /\
        (exists l, calls st' = calls st ++ l /\ own o l = map (fun k => (k, v)) (seq 0 (length (o_subs p)))) /\
        forall c, In (SChild c) (o_subs p) -> took st st' c v)).
Proof.
  intros W H r st'. assert (L : o < length (opts st)) by (apply nth_error_Some; congruence).
  assert (E := proj1 (set_current_ext (S (length (opts st))) o new st W ltac:(lia) L)). fold (set o new st) in E. fold st' in E.
  unfold r, st', set in *. cbn [set_current] in *. rewrite H in *. clear r st'.
  split; [intros ->; auto|]. split; [intros -> ->; auto|]. split; [intros -> -> ->; auto|].
  intros v S1 M V. rewrite S1, M, V in *. cbn [negb] in *. split; [intros x N; apply (ext_cur _ _ _ x E N)|].
  set (st1 := put_opt o (with_cur (Some v) p) st) in *.
  assert (C1 : cur_of st1 o = Some v) by (unfold cur_of, st1; cbn [opts put_opt]; rewrite put_same by auto; reflexivity).
  split; intros D; rewrite D in *; [auto|]. intros RD. assert (E1 := ext_put (desc (subs_of st) o) st o p (Some v) H (desc_refl _ _)). fold st1 in E1.
  assert (LE : length (opts st1) = length (opts st)) by apply (ext_len _ _ _ E1). assert (SU : subs_of st1 o = o_subs p) by (rewrite (ext_subs _ _ _ o E1); unfold subs_of; rewrite H; auto).
  destruct (notify (set_current (length (opts st))) o v 0 (o_subs p) st1) as [r st'] eqn:NE. cbn [fst snd] in *. subst r.
  destruct (notify_spec (set_current (length (opts st))) o v (o_subs p) 0 st1 st') as (Q1 & Q2 & Q3); auto.
  - apply set_good. lia.
  - intros c st0 st2 W0 L0 LT SE. apply (set_current_took (length (opts st))); auto; lia.
  - eapply ext_wf; eauto.
  - rewrite SU. apply incl_refl.
  - assert (X := wf_once _ W o). unfold subs_of in X. rewrite H in X. exact X.
  - split; [congruence|]. split; [exact Q1|]. intros c I. destruct (Q3 c I) as (q & w & HQ & CW & VW).
    assert (N : c <> o). { assert (X : In (SChild c) (subs_of st o)) by (unfold subs_of; rewrite H; auto). apply (wf_order _ W) in X. lia. }
    unfold st1 in HQ. cbn [opts put_opt] in HQ. rewrite put_other in HQ by auto. exists q, w. auto.
Qed.

(** Setting an option: the same object changes nothing; an immutable option or a rejected value raises and changes
    nothing; otherwise the validated value is stored; the subscribers are called when it differs from the old value, each
    once, in order, with the new value; and each child option takes it over. *)
Theorem C46_set st o new p : wf st -> nth_error (opts st) o = Some p ->
  let r := fst (set o new st) in let st' := snd (set o new st) in
  (new = current p -> r = Done /\ st' = st) /\
  (new <> current p -> o_mut p = false -> r = Raised TypeErr /\ st' = st) /\
  (new <> current p -> o_mut p = true -> o_valid p new = None -> r = Raised ValueErr /\ st' = st) /\
  (forall v, new <> current p -> o_mut p = true -> o_valid p new = Some v ->
     (forall x, ~ desc (subs_of st) o x -> cur_of st' x = cur_of st x) /\
     (v_val v = v_val (current p) -> r = Done /\ cur_of st' o = Some v /\ calls st' = calls st) /\
     (v_val v <> v_val (current p) -> r = Done ->
        cur_of st' o = Some v /\
        (exists l, calls st' = calls st ++ l /\ own o l = map (fun k => (k, v)) (seq 0 (length (o_subs p)))) /\
        forall c, In (SChild c) (o_subs p) -> took st st' c v)).
Proof.
  intros W H r st'. destruct (set_facts st o new p W H) as (A & B & C & D). fold r st' in A, B, C, D. rewrite same_iff in A. rewrite same_not in B, C.
  split; auto. split; auto. split; auto. intros v N M V. apply same_not in N. destruct (D v N M V) as (E & F & G). rewrite differs_not in F. rewrite differs_iff in G. auto.
Qed.

(** If the option and its descendants are mutable and accept every value, setting does not raise. *)
Definition accepting (st : state) (o : nat) : Prop :=
  forall x p w, desc (subs_of st) o x -> nth_error (opts st) x = Some p -> o_mut p = true /\ o_valid p w <> None.
Lemma accepting_ext D st st' o : ext D st st' -> accepting st o -> accepting st' o.
Proof.
  intros E A x p w DX H. assert (DX' : desc (subs_of st) o x) by (eapply desc_ext; [|exact DX]; intros y; apply (ext_subs _ _ _ y E)).
  destruct (nth_error (opts st) x) as [q|] eqn:HQ.
  - destruct (ext_opt _ _ _ E x q HQ) as (c & H' & _). rewrite H in H'. injection H' as ->. destruct (A x q w DX' HQ). auto.
  - apply nth_error_None in HQ. rewrite <- (ext_len _ _ _ E) in HQ. apply nth_error_None in HQ. congruence.
Qed.
Lemma set_current_done fuel : forall o new st, wf st -> length (opts st) < fuel + o -> o < length (opts st) -> accepting st o -> fst (set_current fuel o new st) = Done.
Proof.
  induction fuel as [|f IH]; intros o new st W F L A; [lia|]. cbn [set_current].
  destruct (nth_error (opts st) o) as [p|] eqn:H; [|apply nth_error_None in H; lia]. destruct (same new (current p)); [reflexivity|].
  destruct (A o p new (desc_refl _ _) H) as [M V]. rewrite M. cbn [negb]. destruct (o_valid p new) as [v|]; [|congruence].
  assert (E := ext_put (desc (subs_of st) o) st o p (Some v) H (desc_refl _ _)). destruct (differs v (current p)); [|reflexivity].
  set (st1 := put_opt o (with_cur (Some v) p) st) in *.
  assert (N : forall subs k st2, wf st2 -> length (opts st2) = length (opts st) -> incl subs (subs_of st2 o) -> accepting st2 o -> fst (notify (set_current f) o v k subs st2) = Done).
  { clear - IH F. induction subs as [|s subs IHs]; intros k st2 W2 L2 I2 A2; cbn [notify]; [reflexivity|].
    assert (E1 := ext_call (desc (subs_of st2) o) st2 o k v (desc_refl _ _)). set (st21 := add_call (o, k, v) st2) in *. assert (W21 := ext_wf _ _ _ E1 W2).
    assert (IS : In s (subs_of st2 o)) by (apply I2; left; auto). assert (I' : incl subs (subs_of st2 o)) by (intros y Y; apply I2; right; auto).
    destruct (wf_quiet _ W2 o s IS) as [[c ->]|[n ->]].
    - destruct (wf_order _ W2 o c IS) as [LT LL].
      assert (A3 : accepting st21 c). { intros x p w D H. apply (accepting_ext _ _ _ _ E1 A2 x p w); auto. econstructor; [|exact D]. rewrite (ext_subs _ _ _ o E1). exact IS. }
      assert (DN := IH c v st21 W21 ltac:(cbn [st21 opts add_call]; lia) LL A3).
      destruct (set_current_ext f c v st21 W21 ltac:(cbn [st21 opts add_call]; lia) LL) as [E2 _].
      destruct (set_current f c v st21) as [r st22]. cbn [fst snd] in *. subst r. apply IHs.
      + eapply ext_wf; eauto.
      + rewrite (ext_len _ _ _ E2). exact L2.
      + rewrite (ext_subs _ _ _ o E2). exact I'.
      + eapply accepting_ext; [exact E2|]. eapply accepting_ext; eauto.
    - apply IHs; auto. }
  apply N.
  - eapply ext_wf; eauto.
  - apply (ext_len _ _ _ E).
  - rewrite (ext_subs _ _ _ o E). unfold subs_of. rewrite H. apply incl_refl.
  - eapply accepting_ext; eauto.
Qed.
Theorem C46_accepting st o new : wf st -> o < length (opts st) -> accepting st o -> fst (set o new st) = Done.
Proof. intros W L A. apply set_current_done; auto. lia. Qed.

Lemma unset_facts st o p : wf st -> nth_error (opts st) o = Some p ->
  let r := fst (unset o st) in let st' := snd (unset o st) in
  (o_mut p = false -> r = Raised TypeErr /\ st' = st) /\
  (o_mut p = true -> r = Done -> cur_of st' o = Some (o_def p) /\
     exists l, calls st' = calls st ++ l /\
       own o l = (if differs (o_def p) (current p) then map (fun k => (k, o_def p)) (seq 0 (length (o_subs p))) else []) /\
     (differs (o_def p) (current p) = true -> forall c, In (SChild c) (o_subs p) -> took st st' c (o_def p))).
Proof.
  intros W H r st'. assert (L : o < length (opts st)) by (apply nth_error_Some; congruence). unfold r, st', unset. rewrite H. clear r st'.
  split; [intros ->; auto|]. intros M. rewrite M. cbn [negb]. set (st1 := put_opt o (with_cur None p) st).
  assert (C1 : cur_of st1 o = Some (o_def p)) by (unfold cur_of, st1; cbn [opts put_opt]; rewrite put_same by auto; reflexivity).
  assert (E1 := ext_put (desc (subs_of st) o) st o p None H (desc_refl _ _)). fold st1 in E1.
  assert (LE : length (opts st1) = length (opts st)) by apply (ext_len _ _ _ E1). assert (SU : subs_of st1 o = o_subs p) by (rewrite (ext_subs _ _ _ o E1); unfold subs_of; rewrite H; auto).
  destruct (differs (o_def p) (current p)).
  - destruct (notify (set_current (length (opts st))) o (o_def p) 0 (o_subs p) st1) as [r st'] eqn:NE. cbn [fst snd]. intros ->.
    destruct (notify_spec (set_current (length (opts st))) o (o_def p) (o_subs p) 0 st1 st') as ((l & Q1 & Q1') & Q2 & Q3); auto.
    + apply set_good. lia.
    + intros c st0 st2 W0 L0 LT SE. apply (set_current_took (length (opts st))); auto; lia.
    + eapply ext_wf; eauto.
    + rewrite SU. apply incl_refl.
    + assert (X := wf_once _ W o). unfold subs_of in X. rewrite H in X. exact X.
    + split; [congruence|]. exists l. split; [exact Q1|]. split; [exact Q1'|]. intros _ c I. destruct (Q3 c I) as (q & w & HQ & CW & VW).
      assert (N : c <> o). { assert (X : In (SChild c) (subs_of st o)) by (unfold subs_of; rewrite H; auto). apply (wf_order _ W) in X. lia. }
      unfold st1 in HQ. cbn [opts put_opt] in HQ. rewrite put_other in HQ by auto. exists q, w. auto.
  - cbn [fst snd]. intros _. split; auto. exists []. rewrite app_nil_r. split; [reflexivity|]. split; [reflexivity|discriminate].
Qed.

(** Unsetting restores the default and tells the subscribers when that differs. *)
Theorem C46_unset st o p : wf st -> nth_error (opts st) o = Some p ->
  let r := fst (unset o st) in let st' := snd (unset o st) in
  (o_mut p = false -> r = Raised TypeErr /\ st' = st) /\
  (o_mut p = true -> r = Done -> cur_of st' o = Some (o_def p) /\
     exists l, calls st' = calls st ++ l /\
       (v_val (o_def p) = v_val (current p) -> own o l = []) /\
       (v_val (o_def p) <> v_val (current p) -> own o l = map (fun k => (k, o_def p)) (seq 0 (length (o_subs p))) /\
          forall c, In (SChild c) (o_subs p) -> took st st' c (o_def p))).
Proof.
  intros W H r st'. destruct (unset_facts st o p W H) as (A & B). fold r st' in A, B. split; auto. intros M D. destruct (B M D) as (C & l & L & O & T). split; auto. exists l. split; auto. split; intros E.
  - apply differs_not in E. rewrite E in O. exact O.
  - apply differs_iff in E. rewrite E in O. split; [exact O|]. apply T. exact E.
Qed.

(** Every reachable state is a forest of options, and immutable options never change. *)
Record keeps (st st' : state) : Prop := {
  k_len : length (opts st) <= length (opts st');
  k_imm : forall o p, nth_error (opts st) o = Some p -> exists p', nth_error (opts st') o = Some p' /\
            o_mut p' = o_mut p /\ o_def p' = o_def p /\ (o_mut p = false -> o_cur p' = o_cur p) /\ incl (o_subs p) (o_subs p')
}.
Lemma keeps_refl st : keeps st st.
Proof. split; auto. intros o p H. exists p. auto using incl_refl. Qed.
Lemma keeps_trans a b c : keeps a b -> keeps b c -> keeps a c.
Proof.
  intros [L1 K1] [L2 K2]. split; [lia|]. intros o p H. destruct (K1 o p H) as (p' & H' & M & D & C & I). destruct (K2 o p' H') as (p2 & H2 & M2 & D2 & C2 & I2).
  exists p2. split; auto. split; [congruence|]. split; [congruence|]. split; [intros F; rewrite C2, C by congruence; reflexivity|]. eapply incl_tran; eauto.
Qed.
Definition children_mut (st : state) : Prop := forall o c p, In (SChild c) (subs_of st o) -> nth_error (opts st) c = Some p -> o_mut p = true.
Definition inv (st : state) : Prop := wf st /\ children_mut st.
Lemma ext_children D st st' : ext D st st' -> wf st -> children_mut st -> children_mut st'.
Proof.
  intros E W C o c p I H. rewrite (ext_subs _ _ _ o E) in I. destruct (nth_error (opts st) c) as [q|] eqn:HQ.
  - destruct (ext_opt _ _ _ E c q HQ) as (x & H' & _). rewrite H in H'. injection H' as ->. exact (C o c q I HQ).
  - apply nth_error_None in HQ. apply (wf_order _ W) in I. lia.
Qed.
Lemma ext_keeps (D : nat -> Prop) st st' : ext D st st' -> (forall x p, D x -> nth_error (opts st) x = Some p -> o_mut p = true) -> keeps st st'.
Proof.
  intros E DM. split; [rewrite (ext_len _ _ _ E); auto|]. intros o p H. destruct (ext_opt _ _ _ E o p H) as (c & H' & N). exists (with_cur c p). split; auto. split; auto. split; auto. split; [|apply incl_refl].
  intros F. apply N. intros DO. assert (X := DM o p DO H). congruence.
Qed.
Lemma desc_mut st o x p : inv st -> desc (subs_of st) o x -> nth_error (opts st) x = Some p -> x = o \/ o_mut p = true.
Proof.
  intros [W C] D. remember (subs_of st) as S eqn:ES. induction D as [y|y z x I D IH]; intros H; [auto|]. subst S. destruct (IH H) as [->|M]; auto. right. eapply C; eauto.
Qed.
Lemma set_keeps fuel st o new : inv st -> o < length (opts st) -> length (opts st) < fuel + o -> inv (snd (set_current fuel o new st)) /\ keeps st (snd (set_current fuel o new st)).
Proof.
  intros V L F. destruct V as [W C]. destruct (set_current_ext fuel o new st W F L) as [E _]. split; [split; [eapply ext_wf; eauto|eapply ext_children; eauto]|].
  destruct (nth_error (opts st) o) as [p|] eqn:H; [|apply nth_error_None in H; lia]. destruct (o_mut p) eqn:M.
  - eapply ext_keeps; [exact E|]. intros x q D HQ. destruct (desc_mut st o x q (conj W C) D HQ) as [->|]; auto. congruence.
  - destruct fuel as [|f]; [lia|]. cbn [set_current]. rewrite H, M. cbn [negb]. destruct (same new (current p)); apply keeps_refl.
Qed.
Lemma unset_keeps st o : inv st -> inv (snd (unset o st)) /\ keeps st (snd (unset o st)).
Proof.
  intros V. destruct (V) as [W C]. unfold unset. destruct (nth_error (opts st) o) as [p|] eqn:H; [|split; [auto|apply keeps_refl]]. destruct (o_mut p) eqn:M; cbn [negb]; [|split; [auto|apply keeps_refl]].
  assert (L : o < length (opts st)) by (apply nth_error_Some; congruence).
  assert (E1 := ext_put (desc (subs_of st) o) st o p None H (desc_refl _ _)). set (st1 := put_opt o (with_cur None p) st) in *.
  assert (EE : ext (desc (subs_of st) o) st (snd (if differs (o_def p) (current p) then notify (set_current (length (opts st))) o (o_def p) 0 (o_subs p) st1 else (Done, st1)))).
  { destruct (differs (o_def p) (current p)); [|exact E1]. eapply ext_trans; [exact E1|].
    destruct (notify_ext (set_current (length (opts st))) o (o_def p) (o_subs p) 0 st1) as [A _].
    - rewrite <- (ext_len _ _ _ E1). apply set_good. lia.
    - eapply ext_wf; eauto.
    - rewrite (ext_subs _ _ _ o E1). unfold subs_of. rewrite H. apply incl_refl.
    - eapply ext_weak; [|exact A]. intros x. apply desc_ext. intros y. apply (ext_subs _ _ _ y E1). }
  split; [split; [eapply ext_wf; eauto|eapply ext_children; eauto]|]. eapply ext_keeps; [exact EE|]. intros x q D HQ. destruct (desc_mut st o x q V D HQ) as [->|]; auto. congruence.
Qed.
Lemma subs_with_sub st o p s x : nth_error (opts st) o = Some p -> subs_of (put_opt o (with_sub s p) st) x = if Nat.eq_dec o x then o_subs p ++ [s] else subs_of st x.
Proof.
  intros H. assert (L : o < length (opts st)) by (apply nth_error_Some; congruence). unfold subs_of. cbn [opts put_opt]. destruct (Nat.eq_dec o x) as [<-|N].
  - rewrite put_same by auto. reflexivity.
  - rewrite put_other by auto. reflexivity.
Qed.
Lemma keeps_sub st o p s : nth_error (opts st) o = Some p -> keeps st (put_opt o (with_sub s p) st).
Proof.
  intros H. assert (L : o < length (opts st)) by (apply nth_error_Some; congruence). split; cbn [opts put_opt]; [rewrite put_length; auto|].
  intros x q HQ. destruct (Nat.eq_dec o x) as [<-|N]; [|exists q; rewrite put_other by auto; auto using incl_refl]. rewrite HQ in H. injection H as ->. exists (with_sub s p). rewrite put_same by auto. do 4 (split; auto). apply incl_appl, incl_refl.
Qed.
Lemma put_mut st o p s x q : nth_error (opts st) o = Some p -> nth_error (opts (put_opt o (with_sub s p) st)) x = Some q -> exists q0, nth_error (opts st) x = Some q0 /\ o_mut q = o_mut q0.
Proof.
  intros H HQ. cbn [opts put_opt] in HQ. apply nth_error_put_iff in HQ. destruct HQ as [(-> & -> & _)|(N & HQ)]; [exists p; auto|exists q; auto].
Qed.
Lemma subscribe_user_keeps st o n : inv st -> inv (snd (subscribe o (SUser n) st)) /\ keeps st (snd (subscribe o (SUser n) st)).
Proof.
  intros V. unfold subscribe. destruct (nth_error (opts st) o) as [p|] eqn:H; [|split; [auto|apply keeps_refl]]. destruct (o_mut p); cbn [negb]; [|split; [auto|apply keeps_refl]].
  cbn [notify fst snd]. set (st1 := put_opt o (with_sub (SUser n) p) st). assert (S1 := fun x => subs_with_sub st o p (SUser n) x H). fold st1 in S1. destruct V as [[W1 W2 W3 W4] C].
  assert (IC : forall x c, In (SChild c) (subs_of st1 x) -> In (SChild c) (subs_of st x)).
  { intros x c. rewrite S1. destruct (Nat.eq_dec o x) as [<-|N]; auto. unfold subs_of. rewrite H. intros I. apply in_app_or in I. destruct I as [I|[I|[]]]; auto; discriminate. }
  assert (LE : length (opts st1) = length (opts st)) by (unfold st1; cbn [opts put_opt]; apply put_length).
  split; [split; [split|]|].
  - intros x c I. cbn [opts add_call]. rewrite LE. apply W1. apply IC. exact I.
  - intros x x' c I I'. apply (W2 x x' c); apply IC; auto.
  - intros x. change (subs_of (add_call (o, length (o_subs p), current p) st1) x) with (subs_of st1 x). rewrite S1. destruct (Nat.eq_dec o x) as [<-|N]; auto.
    rewrite filter_app. cbn [filter]. rewrite app_nil_r. assert (X := W3 o). unfold subs_of in X. rewrite H in X. exact X.
  - intros x s. change (subs_of (add_call (o, length (o_subs p), current p) st1) x) with (subs_of st1 x). rewrite S1. destruct (Nat.eq_dec o x) as [<-|N]; [|apply W4].
    intros I. apply in_app_or in I. destruct I as [I|[<-|[]]]; eauto. apply (W4 o). unfold subs_of. rewrite H. auto.
  - intros x c q I HQ. apply IC in I. destruct (put_mut st o p (SUser n) c q H HQ) as (q0 & HQ0 & ->). eapply C; eauto.
  - destruct (keeps_sub st o p (SUser n) H) as [k1 k2]. split; [exact k1|exact k2].
Qed.
Lemma inv_app st q : inv st -> o_subs q = [] -> inv (State (opts st ++ [q]) (calls st)) /\ keeps st (State (opts st ++ [q]) (calls st)).
Proof.
  intros [[W1 W2 W3 W4] C] QS.
  assert (S1 : forall x, subs_of (State (opts st ++ [q]) (calls st)) x = subs_of st x).
  { intros x. unfold subs_of. cbn [opts]. destruct (Nat.lt_ge_cases x (length (opts st))) as [L|L].
    - rewrite nth_error_app1 by auto. reflexivity.
    - rewrite nth_error_app2 by auto. assert (N : nth_error (opts st) x = None) by (apply nth_error_None; auto). rewrite N.
      destruct (x - length (opts st)) as [|[|k]]; simpl; auto. }
  split; [split; [split|]|].
  - intros x c I. rewrite S1 in I. apply W1 in I. cbn [opts]. rewrite app_length. simpl. lia.
  - intros x x' c. rewrite !S1. apply W2.
  - intros x. rewrite S1. apply W3.
  - intros x s. rewrite S1. apply W4.
  - intros x c p I. rewrite S1 in I. cbn [opts]. assert (L := W1 _ _ I). rewrite nth_error_app1 by lia. apply (C x c p I).
  - split; cbn [opts]; [rewrite app_length; lia|]. intros x p H. exists p. rewrite nth_error_app1 by (apply nth_error_Some; congruence). auto using incl_refl.
Qed.
Lemma create_keeps st env d m p v : inv st -> inv (snd (create env d m p v st)) /\ keeps st (snd (create env d m p v st)).
Proof.
  intros V. unfold create. destruct (match env with None => Some None | Some e => _ end) as [cur|]; [|split; [auto|apply keeps_refl]].
  destruct p as [p|]; [|apply inv_app; auto]. destruct (nth_error (opts st) p) as [pop|] eqn:H; [|split; [auto|apply keeps_refl]].
  destruct (o_mut pop && m) eqn:MM; [|split; [auto|apply keeps_refl]]. apply andb_true_iff in MM. destruct MM as [M1 M2].
  set (n := length (opts st)). set (q := Opt m (o_def pop) cur v []). destruct (inv_app st q V eq_refl) as [V1 K1]. set (st1 := State (opts st ++ [q]) (calls st)) in *.
  assert (LP : p < n) by (apply nth_error_Some; congruence).
  assert (H1 : nth_error (opts st1) p = Some pop) by (unfold st1; cbn [opts]; rewrite nth_error_app1 by auto; auto).
  assert (HN : nth_error (opts st1) n = Some q) by (unfold st1, n; cbn [opts]; rewrite nth_error_app2 by auto; rewrite Nat.sub_diag; reflexivity).
  assert (LN : length (opts st1) = S n) by (unfold st1, n; cbn [opts]; rewrite app_length; simpl; lia).
  unfold subscribe. rewrite H1, M1. cbn [negb notify]. set (st2 := put_opt p (with_sub (SChild n) pop) st1).
  assert (S2 := fun x => subs_with_sub st1 p pop (SChild n) x H1). fold st2 in S2.
  assert (FR : forall x, ~ In (SChild n) (subs_of st x)) by (intros x I; apply (wf_order _ (proj1 V)) in I; unfold n in I; lia).
  assert (S0 : forall x, subs_of st1 x = subs_of st x \/ subs_of st1 x = []).
  { intros x. unfold subs_of, st1. cbn [opts]. destruct (Nat.lt_ge_cases x (length (opts st))) as [L|L]; [rewrite nth_error_app1 by auto; auto|].
    rewrite nth_error_app2 by auto. right. destruct (x - length (opts st)) as [|[|k]]; reflexivity. }
  assert (FR1 : forall x, ~ In (SChild n) (subs_of st1 x)) by (intros x; destruct (S0 x) as [-> | ->]; auto).
  destruct V1 as [[W1 W2 W3 W4] C1].
  assert (PS : subs_of st1 p = o_subs pop) by (unfold subs_of; rewrite H1; reflexivity).
  assert (V2 : inv st2).
  { assert (IC : forall x c, In (SChild c) (subs_of st2 x) -> In (SChild c) (subs_of st1 x) \/ (x = p /\ c = n)).
    { intros x c. rewrite S2. destruct (Nat.eq_dec p x) as [<-|N]; auto. rewrite <- PS. intros I. apply in_app_or in I. destruct I as [I|[I|[]]]; auto. injection I as <-. auto. }
    assert (LE : length (opts st2) = length (opts st1)) by (unfold st2; cbn [opts put_opt]; apply put_length).
    split; [split|].
    - intros x c I. rewrite LE. destruct (IC _ _ I) as [I'|[-> ->]]; [apply W1; auto|lia].
    - intros x x' c I I'. destruct (IC _ _ I) as [J|J]; destruct (IC _ _ I') as [J2|J2].
      + apply (W2 x x' c); auto.
      + destruct J2 as [_ ->]. exfalso. eapply FR1; eauto.
      + destruct J as [_ ->]. exfalso. eapply FR1; eauto.
      + destruct J as [-> _], J2 as [-> _]. reflexivity.
    - intros x. rewrite S2. destruct (Nat.eq_dec p x) as [<-|N]; auto. rewrite filter_app. cbn [filter]. apply nodup_snoc; [rewrite <- PS; apply W3|].
      intros I. apply filter_In in I. destruct I as [I _]. rewrite <- PS in I. eapply FR1; eauto.
    - intros x s. rewrite S2. destruct (Nat.eq_dec p x) as [<-|N]; [|apply W4]. rewrite <- PS. intros I. apply in_app_or in I. destruct I as [I|[<-|[]]]; eauto.
    - intros x c r I HQ. destruct (put_mut st1 p pop (SChild n) c r H1 HQ) as (r0 & HQ0 & ->). destruct (IC _ _ I) as [I'|[-> ->]]; [eapply C1; eauto|].
      rewrite HN in HQ0. injection HQ0 as <-. exact M2. }
  assert (K2 : keeps st1 st2) by apply keeps_sub, H1.
  set (st3 := add_call (p, length (o_subs pop), current pop) st2).
  assert (V3 : inv st3). { assert (E3 := ext_call (fun _ => True) st2 p (length (o_subs pop)) (current pop) I). split; [eapply ext_wf; [exact E3|apply V2]|eapply ext_children; [exact E3|apply V2|apply V2]]. }
  assert (L3 : length (opts st3) = S n) by (unfold st3, st2; cbn [opts add_call put_opt]; rewrite put_length; auto).
  destruct (set_keeps (S (length (opts st1))) st3 n (current pop) V3) as [V4 K4]; [lia|lia|].
  destruct (set_current (S (length (opts st1))) n (current pop) st3) as [r st4]. cbn [fst snd] in *.
  assert (RES : snd (match r with Done => (Done, st4) | Raised e => (r, st4) | NoFuel => (r, st4) end) = st4) by (destruct r; reflexivity). rewrite RES.
  split; auto. eapply keeps_trans; [exact K1|]. eapply keeps_trans; [exact K2|]. destruct K4 as [k1 k2]. split; [exact k1|exact k2].
Qed.
Lemma set_inv st o new : inv st -> inv (snd (set o new st)) /\ keeps st (snd (set o new st)).
Proof.
  intros V. destruct (nth_error (opts st) o) as [p|] eqn:H.
  - apply set_keeps; auto; [apply nth_error_Some; congruence|lia].
  - unfold set. cbn [set_current]. rewrite H. split; [auto|apply keeps_refl].
Qed.
Lemma run1_keeps st x : inv st -> inv (run1 st x) /\ keeps st (run1 st x).
Proof.
  intros V. destruct x as [env d m p v|o v|o|o n|o v|o e]; cbn [run1].
  - apply create_keeps; auto.
  - apply set_inv; auto.
  - apply unset_keeps; auto.
  - apply subscribe_user_keeps; auto.
  - unfold set_default. destruct (nth_error (opts st) o) as [p|]; [|split; [auto|apply keeps_refl]]. destruct (o_cur p); [split; [auto|apply keeps_refl]|].
    destruct (set_inv st o v V) as [V1 K1]. destruct (set o v st) as [[|e|] st']; cbn [fst snd] in *; auto. destruct (nth_error (opts st') o) as [p'|]; auto. destruct (o_cur p'); auto.
  - unfold reload. destruct (nth_error (opts st) o) as [p|]; [|split; [auto|apply keeps_refl]]. apply set_inv; auto.
Qed.
Lemma run_inv l st : inv st -> inv (fold_left run1 l st) /\ keeps st (fold_left run1 l st).
Proof.
  revert st. induction l as [|x l IH]; intros st V; cbn [fold_left]; [split; [auto|apply keeps_refl]|]. destruct (run1_keeps st x V) as [V1 K1]. destruct (IH _ V1) as [V2 K2].
  split; auto. eapply keeps_trans; eauto.
Qed.
Lemma inv_empty : inv (State [] []).
Proof.
  assert (N : forall o, subs_of (State [] []) o = []) by (intros [|o]; reflexivity).
  split; [split|].
  - intros o c I. rewrite N in I. destruct I.
  - intros o o' c I. rewrite N in I. destruct I.
  - intros o. rewrite N. constructor.
  - intros o s I. rewrite N in I. destruct I.
  - intros o c p I. rewrite N in I. destruct I.
Qed.
Theorem C46_reachable l : wf (run l).
Proof. apply run_inv. apply inv_empty. Qed.
Theorem C46_immutable l1 l2 o p : nth_error (opts (run l1)) o = Some p -> o_mut p = false -> cur_of (run (l1 ++ l2)) o = Some (current p).
Proof.
  intros H M. unfold run. rewrite fold_left_app. fold (run l1). destruct (run_inv l2 (run l1)) as [_ [_ K]]; [apply run_inv; apply inv_empty|].
  destruct (K o p H) as (p' & H' & _ & D & C & _). unfold cur_of. rewrite H'. cbn [option_map]. unfold current. rewrite C, D by auto. reflexivity.
Qed.

(** Subscribing: the callback is called at once with the current value, and with every later one (C46_set). *)
Theorem C46_subscribe st o n p : nth_error (opts st) o = Some p ->
  let r := fst (subscribe o (SUser n) st) in let st' := snd (subscribe o (SUser n) st) in
  (o_mut p = false -> r = Raised TypeErr /\ st' = st) /\
  (o_mut p = true -> r = Done /\ calls st' = calls st ++ [(o, length (o_subs p), current p)] /\
     exists p', nth_error (opts st') o = Some p' /\ o_subs p' = o_subs p ++ [SUser n] /\ forall x, cur_of st' x = cur_of st x).
Proof.
  intros H r st'. unfold r, st', subscribe. rewrite H. split; intros M; rewrite M; cbn [negb]; [auto|]. cbn [notify fst snd]. split; [reflexivity|]. split; [reflexivity|].
  assert (L : o < length (opts st)) by (apply nth_error_Some; congruence). exists (with_sub (SUser n) p). cbn [opts add_call put_opt]. rewrite put_same by auto. split; [reflexivity|]. split; [reflexivity|].
  intros x. unfold cur_of. cbn [opts add_call put_opt]. destruct (Nat.eq_dec o x) as [<-|N]; [rewrite put_same by auto; rewrite H; reflexivity|rewrite put_other by auto; reflexivity].
Qed.
(** A child option follows its parent: it takes over the parent's value when it is made, and every new value that the
    parent is given later. *)
Theorem C46_follows l1 env d valid o l2 : let n := length (opts (run l1)) in let st0 := run (l1 ++ [ONew env d true (Some o) valid]) in
  fst (create env d true (Some o) valid (run l1)) = Done ->
  (exists w v, cur_of (run l1) o = Some v /\ cur_of st0 n = Some w /\ (v = w \/ valid v = Some w)) /\
  forall new p v, let st := run (l1 ++ ONew env d true (Some o) valid :: l2) in let st' := snd (set o new st) in
    nth_error (opts st) o = Some p -> fst (set o new st) = Done -> new <> current p -> o_valid p new = Some v -> v_val v <> v_val (current p) ->
    took st st' n v.
Proof.
  intros n st0 CR. assert (V := proj1 (run_inv l1 (State [] []) inv_empty)). fold (run l1) in V. set (s := run l1) in *.
  assert (E0 : st0 = snd (create env d true (Some o) valid s)) by (unfold st0, run; rewrite fold_left_app; reflexivity).
  assert (CK := create_keeps s env d true (Some o) valid V). rewrite <- E0 in CK. destruct CK as [V0 K0].
  assert (SUB : In (SChild n) (subs_of st0 o) /\ exists w v, cur_of s o = Some v /\ cur_of st0 n = Some w /\ (v = w \/ valid v = Some w)).
  { rewrite E0. revert CR. unfold create. destruct (match env with None => Some None | Some e => _ end) as [cur|]; [|discriminate]. destruct (nth_error (opts s) o) as [pop|] eqn:H; [|discriminate].
    destruct (o_mut pop) eqn:M; cbn [andb]; [|discriminate]. set (q := Opt true (o_def pop) cur valid []). set (st1 := State (opts s ++ [q]) (calls s)). fold n.
    assert (LP : o < n) by (apply nth_error_Some; congruence). assert (H1 : nth_error (opts st1) o = Some pop) by (unfold st1; cbn [opts]; rewrite nth_error_app1 by auto; auto).
    assert (HN : nth_error (opts st1) n = Some q) by (unfold st1, n; cbn [opts]; rewrite nth_error_app2 by auto; rewrite Nat.sub_diag; reflexivity).
    assert (LN : length (opts st1) = S n) by (unfold st1, n; cbn [opts]; rewrite app_length; simpl; lia).
    unfold subscribe. rewrite H1, M. cbn [negb notify]. set (st2 := put_opt o (with_sub (SChild n) pop) st1). set (st3 := add_call (o, length (o_subs pop), current pop) st2).
    destruct (inv_app s q V eq_refl) as [V1 _]. fold st1 in V1.
    assert (L3 : length (opts st3) = S n) by (unfold st3, st2; cbn [opts add_call put_opt]; rewrite put_length; auto).
    assert (S3 : In (SChild n) (subs_of st3 o)) by (change (subs_of st3 o) with (subs_of st2 o); unfold st2; rewrite (subs_with_sub st1 o pop _ o H1); destruct (Nat.eq_dec o o); [apply in_or_app; right; left; reflexivity|congruence]).
    assert (H3 : nth_error (opts st3) n = Some q) by (unfold st3, st2; cbn [opts add_call put_opt]; rewrite put_other by lia; exact HN).
    assert (W3 : wf st3).
    { destruct V1 as [[W1 W2 W3 W4] _]. assert (S2 := fun x => subs_with_sub st1 o pop (SChild n) x H1). change (forall x, subs_of st3 x = if Nat.eq_dec o x then o_subs pop ++ [SChild n] else subs_of st1 x) in S2.
      assert (PS : subs_of st1 o = o_subs pop) by (unfold subs_of; rewrite H1; reflexivity).
      assert (FR1 : forall x, ~ In (SChild n) (subs_of st1 x)).
      { intros x I. unfold subs_of, st1 in I. cbn [opts] in I. destruct (Nat.lt_ge_cases x (length (opts s))) as [L|L].
        - rewrite nth_error_app1 in I by auto. apply (wf_order _ (proj1 V) x) in I. unfold n in I. lia.
        - rewrite nth_error_app2 in I by auto. destruct (x - length (opts s)) as [|[|k]]; destruct I. }
      assert (IC : forall x c, In (SChild c) (subs_of st3 x) -> In (SChild c) (subs_of st1 x) \/ (x = o /\ c = n)).
      { intros x c. rewrite S2. destruct (Nat.eq_dec o x) as [<-|N]; auto. rewrite <- PS. intros I. apply in_app_or in I. destruct I as [I|[I|[]]]; auto. injection I as <-. auto. }
      split.
      - intros x c I. rewrite L3. destruct (IC _ _ I) as [I'|[-> ->]]; [apply W1 in I'; lia|lia].
      - intros x x' c I I'. destruct (IC _ _ I) as [J|J]; destruct (IC _ _ I') as [J2|J2].
        + apply (W2 x x' c); auto.
        + destruct J2 as [_ ->]. exfalso. eapply FR1; eauto.
        + destruct J as [_ ->]. exfalso. eapply FR1; eauto.
        + destruct J as [-> _], J2 as [-> _]. reflexivity.
      - intros x. rewrite S2. destruct (Nat.eq_dec o x) as [<-|N]; auto. rewrite filter_app. cbn [filter]. apply nodup_snoc; [rewrite <- PS; apply W3|].
        intros I. apply filter_In in I. destruct I as [I _]. rewrite <- PS in I. eapply FR1; eauto.
      - intros x sb. rewrite S2. destruct (Nat.eq_dec o x) as [<-|N]; [|apply W4]. rewrite <- PS. intros I. apply in_app_or in I. destruct I as [I|[<-|[]]]; eauto. }
    destruct (set_current (S (length (opts st1))) n (current pop) st3) as [r st4] eqn:SE. destruct r; try discriminate. intros _. cbn [snd].
    destruct (set_current_ext (S (length (opts st1))) n (current pop) st3 W3 ltac:(lia) ltac:(lia)) as [EX _]. rewrite SE in EX. cbn [snd] in EX.
    split; [rewrite (ext_subs _ _ _ o EX); exact S3|]. destruct (set_current_took (S (length (opts st1))) n (current pop) st3 st4 W3 ltac:(lia) ltac:(lia) SE) as (q' & w & HQ & CW & VW).
    rewrite H3 in HQ. injection HQ as <-. exists w, (current pop). unfold cur_of at 1. rewrite H. split; [reflexivity|]. split; [exact CW|exact VW]. }
  destruct SUB as [SUB INI]. split; [exact INI|]. intros new p v st st' H D NC V' NE.
  assert (ST : st = fold_left run1 l2 st0) by (unfold st, st0, run; rewrite !fold_left_app; reflexivity).
  destruct (run_inv l2 st0 V0) as [V2 [_ K2]]. rewrite <- ST in V2, K2.
  assert (IS : In (SChild n) (o_subs p)).
  { unfold subs_of in SUB. destruct (nth_error (opts st0) o) as [p0|] eqn:H0; [|destruct SUB]. destruct (K2 o p0 H0) as (p' & H' & _ & _ & _ & I). rewrite H in H'. injection H' as <-. apply I. exact SUB. }
  destruct (C46_set st o new p (proj1 V2) H) as (_ & B & _ & E).
  assert (MU : o_mut p = true) by (destruct (o_mut p) eqn:M; auto; destruct (B NC eq_refl) as [X _]; rewrite X in D; discriminate).
  destruct (E v NC MU V') as (_ & _ & G). apply G; auto.
Qed.
(** A history with a parent, two children and a subscriber. *)
Definition any (v : value) : option value := Some v.
Definition small (v : value) : option value := if Nat.ltb (v_val v) 10 then Some v else None.
Definition C46_history : list op :=
  [ONew None (Val 0 0) true None any; ONew None (Val 1 0) true (Some 0) any; OSub 0 7; ONew None (Val 1 0) true (Some 0) small; OSet 0 (Val 2 5)].
Example C46_example : let st := run C46_history in cur_of st 0 = Some (Val 2 5) /\ cur_of st 1 = Some (Val 2 5) /\ cur_of st 2 = Some (Val 2 5) /\
  own 0 (calls st) = [(0, Val 0 0); (1, Val 0 0); (2, Val 0 0); (0, Val 2 5); (1, Val 2 5); (2, Val 2 5)].
Proof. repeat split; reflexivity. Qed.
Example C46_immutable_example : exists p, nth_error (opts (run [ONew None (Val 0 3) false None any])) 0 = Some p /\ o_mut p = false /\
  cur_of (run [ONew None (Val 0 3) false None any; OSet 0 (Val 1 4); OUnset 0; OReload 0 (Some (Val 2 5))]) 0 = Some (Val 0 3).
Proof. eexists. split; [reflexivity|]. split; reflexivity. Qed.
(** Finding: when a child rejects the value, the call raises although the parent has changed (and later subscribers are
    not told). *)
Theorem C46_child_rejects_refuted : exists l, fst (set 0 (Val 3 50) (run l)) = Raised ValueErr /\ cur_of (snd (set 0 (Val 3 50) (run l))) 0 = Some (Val 3 50).
Proof. exists C46_history. split; reflexivity. Qed.
(** Finding: if a subscriber sets the option again, later subscribers are told the outdated value last, so that a child
    ends up with a value that its parent no longer has. *)
Theorem C46_reentrant_refuted : let st := State [Opt true (Val 0 0) None any [SSet 0 (Val 2 2); SChild 1]; Opt true (Val 0 0) None any []] [] in
  let st' := snd (set 0 (Val 1 1) st) in fst (set 0 (Val 1 1) st) = Done /\ cur_of st' 0 = Some (Val 2 2) /\ cur_of st' 1 = Some (Val 1 1).
Proof. repeat split; reflexivity. Qed.

(** ** C47 *)

(** Without a parent the environment variable, if set, decides the initial value. *)
Theorem C47_no_parent env d m valid st :
  match env with
  | None => create env d m None valid st = (Done, State (opts st ++ [Opt m d None valid []]) (calls st))
  | Some e => match valid e with
              | None => create env d m None valid st = (Raised ValueErr, st)
              | Some v => create env d m None valid st = (Done, State (opts st ++ [Opt m d (Some v) valid []]) (calls st)) /\
                          cur_of (snd (create env d m None valid st)) (length (opts st)) = Some v
              end
  end.
Proof.
  destruct env as [e|]; unfold create; [|reflexivity]. destruct (valid e) as [v|]; [|reflexivity]. split; [reflexivity|]. cbn [snd]. unfold cur_of. cbn [opts].
  rewrite nth_error_app2 by auto. rewrite Nat.sub_diag. reflexivity.
Qed.
(** Reloading gives a mutable option the value of the environment variable, or its default if the variable is not set, validated;
    if the validator rejects it, nothing changes. *)
Theorem C47_reload st o env p : wf st -> nth_error (opts st) o = Some p -> o_mut p = true ->
  let r := fst (reload o env st) in let st' := snd (reload o env st) in
  (forall e, env = Some e -> e <> current p -> o_valid p e = None -> r = Raised ValueErr /\ st' = st) /\
  (forall e, env = Some e -> r = Done -> (cur_of st' o = Some e /\ e = current p) \/ (cur_of st' o = o_valid p e /\ o_valid p e <> None)) /\
  (env = None -> r = Done -> (cur_of st' o = Some (o_def p) /\ o_def p = current p) \/ (cur_of st' o = o_valid p (o_def p) /\ o_valid p (o_def p) <> None)).
Proof.
  intros W P M. cbv zeta. unfold reload. rewrite P.
  assert (G : forall e, fst (set o e st) = Done -> (cur_of (snd (set o e st)) o = Some e /\ e = current p) \/ (cur_of (snd (set o e st)) o = o_valid p e /\ o_valid p e <> None)).
  { intros e D. destruct (C46_set st o e p W P) as (A & _ & C & E). destruct (same e (current p)) eqn:S.
    - apply same_iff in S. left. split; [|exact S]. rewrite (proj2 (A S)). unfold cur_of. rewrite P. cbn. congruence.
    - apply same_not in S. right. destruct (o_valid p e) as [v|] eqn:V; [|rewrite (proj1 (C S M eq_refl)) in D; discriminate].
      split; [|discriminate]. destruct (E v S M eq_refl) as (_ & X & Y). destruct (Nat.eq_dec (v_val v) (v_val (current p))) as [Q|Q]; [apply (X Q)|apply (Y Q D)]. }
  repeat split.
  - intros. subst env. apply (C46_set st o e p W P); assumption.
  - intros. subst env. apply (C46_set st o e p W P); assumption.
  - intros e ->. apply G.
  - intros ->. apply G.
Qed.
Example C47_reloaded : let st := run [ONew (Some (Val 1 1)) (Val 0 0) true None Some] in
  wf st /\ reload 0 (Some (Val 2 2)) st = (Done, snd (set 0 (Val 2 2) st)) /\ cur_of (snd (reload 0 (Some (Val 2 2)) st)) 0 = Some (Val 2 2) /\
  cur_of (snd (reload 0 None st)) 0 = Some (Val 0 0).
Proof. split; [apply C46_reachable|]. repeat split. Qed.
(** Finding: the environment variable of an option with a parent is overwritten at once, as for
    [REACTPY_CHECK_VDOM_SPEC] (config.py:45-47). *)
Theorem C47_parent_refuted : exists st, st = run [ONew None (Val 0 0) true None any] /\
  let st' := snd (create (Some (Val 1 1)) (Val 9 9) true (Some 0) any st) in
  fst (create (Some (Val 1 1)) (Val 9 9) true (Some 0) any st) = Done /\ cur_of st' 1 = Some (Val 0 0).
Proof. eexists. split; [reflexivity|]. split; reflexivity. Qed.

(** ** C48 *)

(** [set_default] returns the current value: that of a set option, else the new one, validated. *)
Theorem C48_set_default st o p new : wf st -> nth_error (opts st) o = Some p ->
  (forall v, o_cur p = Some v -> set_default o new st = (Some v, Done, st)) /\
  (o_cur p = None -> new <> o_def p -> forall r v st', set_default o new st = (v, r, st') -> r = Done -> v = cur_of st' o /\ o_valid p new = v).
Proof.
  intros W H. unfold set_default. rewrite H. split; [intros v ->; reflexivity|]. intros C N r v st' SD RD. apply same_not in N. rewrite C in SD.
  destruct (set_facts st o new p W H) as (_ & Q2 & Q3 & Q4). unfold current in *. rewrite C in *.
  assert (EXT : ext (desc (subs_of st) o) st (snd (set o new st))) by (apply set_current_ext; auto; [lia|apply nth_error_Some; congruence]).
  destruct (ext_opt _ _ _ EXT o p H) as (c & HC & _).
  destruct (o_mut p) eqn:M; [|destruct (Q2 N eq_refl) as [X _]; destruct (set o new st) as [r0 s0]; cbn [fst] in X; subst r0; injection SD as <- <- <-; discriminate].
  destruct (o_valid p new) as [w|] eqn:V; [|destruct (Q3 N eq_refl eq_refl) as [X _]; destruct (set o new st) as [r0 s0]; cbn [fst] in X; subst r0; injection SD as <- <- <-; discriminate].
  destruct (Q4 w N eq_refl eq_refl) as (_ & Q5 & Q6).
  assert (CW : fst (set o new st) = Done -> cur_of (snd (set o new st)) o = Some w).
  { intros D. destruct (differs w (o_def p)) eqn:DD; [apply Q6; auto|apply Q5; auto]. }
  destruct (set o new st) as [r0 s0]. cbn [fst snd] in *. destruct r0; try (injection SD as <- <- <-; discriminate). rewrite HC in SD. specialize (CW eq_refl).
  unfold cur_of in *. rewrite HC in *. cbn [option_map] in CW. unfold current in CW. cbn [with_cur o_cur o_def] in *. destruct c as [x|].
  - injection SD as <- <- <-. rewrite HC. cbn. split; auto.
  - injection SD as <- <- <-. discriminate.
Qed.
(** Finding: giving an unset option its own default raises [AttributeError]. *)
Theorem C48_default_refuted : exists l p, nth_error (opts (run l)) 0 = Some p /\ set_default 0 (o_def p) (run l) = (None, Raised AttrErr, run l).
Proof. exists [ONew None (Val 0 0) true None any]. eexists. split; reflexivity. Qed.
Example C48_example : set_default 0 (Val 1 4) (run [ONew None (Val 0 0) true None any]) = (Some (Val 1 4), Done, State [Opt true (Val 0 0) (Some (Val 1 4)) any []] []).
Proof. reflexivity. Qed.
Print Assumptions C46_set.
Print Assumptions C46_unset.
Print Assumptions C46_immutable.
Print Assumptions C46_subscribe.
Print Assumptions C46_follows.
Print Assumptions C47_reload.
Print Assumptions C48_set_default.
