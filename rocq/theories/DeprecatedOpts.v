(** * Model of deprecated options (/repo/src/reactpy/_option.py:141-160) and property C118

    [DeprecatedOption] is an [Option] whose property [current] warns when it is read. [Option] reads [current] itself
    (_option.py:82, 94, 130, 133, 135, and in [__repr__], line 138, for the messages of lines 99 and 128), so its methods
    warn as well. The methods are those of OptionModel.v with these reads added; [strict] says that the filters of Python's
    [warnings] make the warning an exception ("error"). A filter that hides or counts warnings does not matter: what is
    recorded is each call of [warn]. *)
From Coq Require Import Bool Arith Lia List.
From Verif Require Import EffectModel EffectProps OptionModel.
Import ListNotations.

(** All options, those with a deprecation message ([_deprecation_message] is set, line 146), and the calls of [warn]
    (line 159), each with the option it is about. *)
Record dstate := DS { d_st : state; d_dep : list nat; d_warned : list nat }.
(** How a call ends: as in OptionModel, or with the warning as an exception. *)
Inductive dresult := R (r : result) | DeprecationErr.
Definition deprecated (o : nat) (s : dstate) : bool := existsb (Nat.eqb o) (d_dep s).
Definition lift (f : state -> state) (s : dstate) : dstate := DS (f (d_st s)) (d_dep s) (d_warned s).

Section Methods.
Variable strict : bool.
(** Reading [current], _option.py:148-160: whether it raises. *)
Definition touch (o : nat) (s : dstate) : bool * dstate :=
  if deprecated o s then (strict, DS (d_st s) (d_dep s) (d_warned s ++ [o])) else (false, s).
(** The loops over the subscribers, _option.py:108-110 ([again = false]) and 133-135 ([again]: [self.current] is read for
    each subscriber). *)
Fixpoint dnotify (set : nat -> value -> dstate -> dresult * dstate) (again : bool) (o : nat) (v : value) (k : nat) (subs : list sub) (s : dstate) : dresult * dstate :=
  match subs with
  | [] => (R Done, s)
  | x :: rest =>
      let (e, s0) := if again then touch o s else (false, s) in
      if e then (DeprecationErr, s0)
      else
        let s1 := lift (add_call (o, k, v)) s0 in
        let (r, s2) := match x with
                       | SChild c => set c v s1
                       | SUser _ => (R Done, s1)
                       | SRaise _ => (R (Raised CallbackErr), s1)
                       | SSet o' w => set o' w s1
                       end in
        match r with R Done => dnotify set again o v (S k) rest s2 | _ => (r, s2) end
  end.
(** [set_current], _option.py:89-110. *)
Fixpoint dset_current (fuel : nat) (o : nat) (new : value) (s : dstate) : dresult * dstate :=
  match fuel with
  | 0 => (R NoFuel, s)
  | S f =>
      match nth_error (opts (d_st s)) o with
      | None => (R (Raised NoOption), s)
      | Some op =>
          let (e, s0) := touch o s in
          if e then (DeprecationErr, s0)
          else
            let old := current op in
            if same new old then (R Done, s0)
            else if negb (o_mut op) then let (e, s1) := touch o s0 in (if e then DeprecationErr else R (Raised TypeErr), s1)
            else match o_valid op new with
                 | None => (R (Raised ValueErr), s0)
                 | Some v =>
                     let s1 := lift (put_opt o (with_cur (Some v) op)) s0 in
                     if differs v old then dnotify (dset_current f) false o v 0 (o_subs op) s1 else (R Done, s1)
                 end
      end
  end.
Definition dset (o : nat) (new : value) (s : dstate) : dresult * dstate := dset_current (S (length (opts (d_st s)))) o new s.
(** [unset], _option.py:125-135. *)
Definition dunset (o : nat) (s : dstate) : dresult * dstate :=
  match nth_error (opts (d_st s)) o with
  | None => (R (Raised NoOption), s)
  | Some op =>
      let (e, s0) := touch o s in
      if negb (o_mut op) then (if e then DeprecationErr else R (Raised TypeErr), s0)
      else if e then (DeprecationErr, s0)
      else
        let old := current op in
        let s1 := lift (put_opt o (with_cur None op)) s0 in
        let (e, s2) := touch o s1 in
        if e then (DeprecationErr, s2)
        else if differs (o_def op) old then dnotify (dset_current (length (opts (d_st s)))) true o (o_def op) 0 (o_subs op) s2 else (R Done, s2)
  end.
(** [subscribe], _option.py:76-83. *)
Definition dsubscribe (o : nat) (x : sub) (s : dstate) : dresult * dstate :=
  match nth_error (opts (d_st s)) o with
  | None => (R (Raised NoOption), s)
  | Some op =>
      if negb (o_mut op) then (R (Raised TypeErr), s)
      else
        let (e, s1) := touch o (lift (put_opt o (with_sub x op)) s) in
        if e then (DeprecationErr, s1)
        else dnotify (dset_current (S (length (opts (d_st s))))) false o (current op) (length (o_subs op)) [x] s1
  end.
(** [DeprecatedOption.__init__], _option.py:144-146, with [dep], and [Option.__init__], lines 18-44, without. The message is
    set when [Option.__init__] has ended. *)
Definition dcreate (dep : bool) (env : option value) (default : value) (mut : bool) (parent : option nat) (valid : value -> option value) (s : dstate) : dresult * dstate :=
  let new := length (opts (d_st s)) in
  let named (rs : dresult * dstate) :=
    match rs with
    | (R Done, s') => (R Done, if dep then DS (d_st s') (d_dep s' ++ [new]) (d_warned s') else s')
    | _ => rs
    end in
  match (match env with None => Some None | Some e => match valid e with Some v => Some (Some v) | None => None end end) with
  | None => (R (Raised ValueErr), s)
  | Some cur =>
      match parent with
      | None => named (R Done, lift (fun st => State (opts st ++ [Opt mut default cur valid []]) (calls st)) s)
      | Some p =>
          match nth_error (opts (d_st s)) p with
          | None => (R (Raised NoOption), s)
          | Some pop => if o_mut pop && mut
                        then named (dsubscribe p (SChild new) (lift (fun st => State (opts st ++ [Opt mut (o_def pop) cur valid []]) (calls st)) s))
                        else (R (Raised TypeErr), s)
          end
      end
  end.
(** [set_default], _option.py:112-119: [is_set] and [self._current] do not read [current]. *)
Definition dset_default (o : nat) (new : value) (s : dstate) : option value * dresult * dstate :=
  match nth_error (opts (d_st s)) o with
  | None => (None, R (Raised NoOption), s)
  | Some op =>
      match o_cur op with
      | Some v => (Some v, R Done, s)
      | None =>
          match dset o new s with
          | (R Done, s') => match nth_error (opts (d_st s')) o with
                            | Some op' => match o_cur op' with Some v => (Some v, R Done, s') | None => (None, R (Raised AttrErr), s') end
                            | None => (None, R (Raised NoOption), s')
                            end
          | (r, s') => (None, r, s')
          end
      end
  end.
(** [reload], _option.py:121-123. *)
Definition dreload (o : nat) (env : option value) (s : dstate) : dresult * dstate :=
  match nth_error (opts (d_st s)) o with
  | None => (R (Raised NoOption), s)
  | Some op => dset o (match env with Some e => e | None => o_def op end) s
  end.
(** Reading [option.current] or [repr(option)], _option.py:137-138, 148-160. *)
Definition dread (o : nat) (s : dstate) : option value * dresult * dstate :=
  match nth_error (opts (d_st s)) o with
  | None => (None, R (Raised NoOption), s)
  | Some op => let (e, s') := touch o s in if e then (None, DeprecationErr, s') else (Some (current op), R Done, s')
  end.

(** What a program does with options: [Use x] as in OptionModel (a [New] one is plain), [New]: a deprecated option. *)
Inductive dop := Use (x : op) | New (env : option value) (default : value) (mut : bool) (parent : option nat) (valid : value -> option value) | Read (o : nat).
Definition dstep (s : dstate) (x : dop) : dresult * dstate :=
  match x with
  | Use (ONew env d m p v) => dcreate false env d m p v s
  | Use (OSet o v) => dset o v s
  | Use (OUnset o) => dunset o s
  | Use (OSub o n) => dsubscribe o (SUser n) s
  | Use (OSetDefault o v) => let '(_, r, s') := dset_default o v s in (r, s')
  | Use (OReload o e) => dreload o e s
  | New env d m p v => dcreate true env d m p v s
  | Read o => let '(_, r, s') := dread o s in (r, s')
  end.
Definition drun (l : list dop) : dstate := fold_left (fun s x => snd (dstep s x)) l (DS (State [] []) [] []).
End Methods.

(** ** Specification *)
(** The same program with plain options only, and without its reads. *)
Definition plainly (x : dop) : list op := match x with Use x => [x] | New env d m p v => [ONew env d m p v] | Read _ => [] end.
(** [x] is [o] or is set when [o] changes. *)
Inductive below (S : nat -> list sub) : nat -> nat -> Prop :=
| below_refl o : below S o o
| below_child o c x : In (SChild c) (S o) -> below S c x -> below S o x
| below_set o c w x : In (SSet c w) (S o) -> below S c x -> below S o x.
(** The option a step is about. *)
Definition about (x : dop) : option nat :=
  match x with
  | Use (ONew _ _ _ p _) | New _ _ _ p _ => p
  | Use (OSet o _) | Use (OUnset o) | Use (OSub o _) | Use (OSetDefault o _) | Use (OReload o _) | Read o => Some o
  end.

(** ** Facts *)
Lemma touch_st strict o s : d_st (snd (touch strict o s)) = d_st s /\ d_dep (snd (touch strict o s)) = d_dep s.
Proof. unfold touch. destruct (deprecated o s); split; reflexivity. Qed.
Lemma touch_quiet o s : fst (touch false o s) = false.
Proof. unfold touch. destruct (deprecated o s); reflexivity. Qed.

Definition tracks (dset : nat -> value -> dstate -> dresult * dstate) (set : nat -> value -> state -> result * state) : Prop :=
  forall o v s, fst (dset o v s) = R (fst (set o v (d_st s))) /\ d_st (snd (dset o v s)) = snd (set o v (d_st s)) /\ d_dep (snd (dset o v s)) = d_dep s.

Lemma notify_tracks ds ss again o v : tracks ds ss -> forall subs k s,
  fst (dnotify false ds again o v k subs s) = R (fst (notify ss o v k subs (d_st s))) /\
  d_st (snd (dnotify false ds again o v k subs s)) = snd (notify ss o v k subs (d_st s)) /\
  d_dep (snd (dnotify false ds again o v k subs s)) = d_dep s.
Proof.
  intros T. induction subs as [|x subs IH]; intros k s; [repeat split|]. cbn [dnotify notify].
  assert (Q : exists s0, (if again then touch false o s else (false, s)) = (false, s0) /\ d_st s0 = d_st s /\ d_dep s0 = d_dep s).
  { destruct again; [|exists s; repeat split]. pose proof (touch_quiet o s) as Q. destruct (touch_st false o s) as [A B].
    destruct (touch false o s) as [e s0]; cbn in *; subst e. exists s0. repeat split; assumption. }
  destruct Q as (s0 & -> & A & B). cbv zeta.
  assert (W : d_st (lift (add_call (o, k, v)) s0) = add_call (o, k, v) (d_st s) /\ d_dep (lift (add_call (o, k, v)) s0) = d_dep s).
  { unfold lift; cbn [d_st d_dep]. rewrite A. split; [reflexivity|exact B]. }
  revert W. generalize (lift (add_call (o, k, v)) s0). intros s1 [C D].
  assert (X : forall r s2 st2, r = R (fst st2) -> d_st s2 = snd st2 -> d_dep s2 = d_dep s ->
    let out := match r with R Done => dnotify false ds again o v (S k) subs s2 | _ => (r, s2) end in
    let (r', st') := (st2 : result * state) in
    let out' := match r' with Done => notify ss o v (S k) subs st' | _ => (r', st') end in
    fst out = R (fst out') /\ d_st (snd out) = snd out' /\ d_dep (snd out) = d_dep s).
  { intros r s2 [r' st'] -> E F; cbn [fst snd] in *. destruct r'; cbn; try (repeat split; assumption).
    destruct (IH (S k) s2) as (G & H & I). rewrite E in G, H. repeat split; try assumption. rewrite I. exact F. }
  destruct x as [c|n|n|c w].
  - destruct (T c v s1) as (E & F & G). rewrite C in E, F. specialize (X (fst (ds c v s1)) (snd (ds c v s1)) (ss c v (add_call (o, k, v) (d_st s))) E F (eq_trans G D)).
    destruct (ds c v s1) as [r s2]; destruct (ss c v (add_call (o, k, v) (d_st s))) as [r' st']; exact X.
  - exact (X (R Done) s1 (Done, add_call (o, k, v) (d_st s)) eq_refl C D).
  - exact (X (R (Raised CallbackErr)) s1 (Raised CallbackErr, add_call (o, k, v) (d_st s)) eq_refl C D).
  - destruct (T c w s1) as (E & F & G). rewrite C in E, F. specialize (X (fst (ds c w s1)) (snd (ds c w s1)) (ss c w (add_call (o, k, v) (d_st s))) E F (eq_trans G D)).
    destruct (ds c w s1) as [r s2]; destruct (ss c w (add_call (o, k, v) (d_st s))) as [r' st']; exact X.
Qed.

Ltac quiet_touch o s :=
  let e := fresh "e" in let s0 := fresh "s0" in let Q := fresh "Q" in let A := fresh "A" in let B := fresh "B" in
  pose proof (touch_quiet o s) as Q; destruct (touch_st false o s) as [A B]; destruct (touch false o s) as [e s0]; cbn [fst snd] in Q, A, B; subst e.

Lemma set_tracks fuel : tracks (dset_current false fuel) (set_current fuel).
Proof.
  induction fuel as [|f IH]; intros o new s; [repeat split|]. cbn [dset_current set_current].
  destruct (nth_error (opts (d_st s)) o) as [op|]; [|repeat split]. quiet_touch o s. cbv zeta.
  destruct (same new (current op)); [repeat split; assumption|]. destruct (o_mut op); cbn [negb].
  - destruct (o_valid op new) as [v|]; [|repeat split; assumption].
    destruct (differs v (current op)).
    + destruct (notify_tracks _ _ false o v IH (o_subs op) 0 (lift (put_opt o (with_cur (Some v) op)) s0)) as (C & D & E).
      change (d_st (lift (put_opt o (with_cur (Some v) op)) s0)) with (put_opt o (with_cur (Some v) op) (d_st s0)) in C, D.
      change (d_dep (lift (put_opt o (with_cur (Some v) op)) s0)) with (d_dep s0) in E. rewrite A in C, D. rewrite B in E. repeat split; assumption.
    + unfold lift; cbn. rewrite A. repeat split; assumption.
  - quiet_touch o s0. cbn. repeat split; congruence.
Qed.

(** [s'] comes from [s] without new options, subscribers or messages, and with warnings about deprecated options set with [o] only. *)
Definition warns (o : nat) (s s' : dstate) : Prop :=
  (forall x, subs_of (d_st s') x = subs_of (d_st s) x) /\ length (opts (d_st s')) = length (opts (d_st s)) /\ d_dep s' = d_dep s /\
  exists w, d_warned s' = d_warned s ++ w /\ forall y, In y w -> In y (d_dep s) /\ below (subs_of (d_st s)) o y.
Lemma below_ext S S' o x : (forall o, S o = S' o) -> below S o x -> below S' o x.
Proof. intros E. induction 1 as [o|o c x I _ IH|o c w x I _ IH]; [apply below_refl|eapply below_child|eapply below_set]; try exact IH; rewrite <- E; exact I. Qed.
Lemma warns_refl o s : warns o s s.
Proof. repeat split. exists []. rewrite app_nil_r. split; [reflexivity|intros y []]. Qed.
Lemma warns_trans o s1 s2 s3 : warns o s1 s2 -> warns o s2 s3 -> warns o s1 s3.
Proof.
  intros (A & B & C & w & D & E) (A' & B' & C' & w' & D' & E'). split; [intros x; rewrite A'; apply A|]. split; [congruence|]. split; [congruence|].
  exists (w ++ w'). split; [rewrite D', D, app_assoc; reflexivity|]. intros y Y. apply in_app_or in Y. destruct Y as [Y|Y]; [apply E; exact Y|].
  destruct (E' y Y) as [F G]. split; [rewrite <- C; exact F|]. eapply below_ext; [|exact G]. exact A.
Qed.
Lemma warns_down o c s s' : (forall y, below (subs_of (d_st s)) c y -> below (subs_of (d_st s)) o y) -> warns c s s' -> warns o s s'.
Proof. intros H (A & B & C & w & D & E). repeat split; try assumption. exists w. split; [exact D|]. intros y Y. destruct (E y Y). split; [assumption|]. apply H. assumption. Qed.
Lemma touch_warns strict o s : warns o s (snd (touch strict o s)).
Proof.
  unfold touch. destruct (deprecated o s) eqn:X; [|apply warns_refl]. repeat split. exists [o]. split; [reflexivity|]. intros y [<-|[]].
  split; [|apply below_refl]. unfold deprecated in X. apply existsb_exists in X. destruct X as (z & Z & E). apply Nat.eqb_eq in E. subst z. exact Z.
Qed.
Lemma lift_warns o f s : (forall x, subs_of (f (d_st s)) x = subs_of (d_st s) x) -> length (opts (f (d_st s))) = length (opts (d_st s)) -> warns o s (lift f s).
Proof. intros A B. repeat split; try assumption. exists []. cbn. rewrite app_nil_r. split; [reflexivity|intros y []]. Qed.
Lemma put_cur_warns x o c p s : nth_error (opts (d_st s)) o = Some p -> warns x s (lift (put_opt o (with_cur c p)) s).
Proof.
  intros P. pose proof (ext_put (fun _ => True) (d_st s) o p c P Logic.I) as E. apply lift_warns; [intros y; eapply ext_subs; exact E|apply E].
Qed.
Lemma call_warns x c s : warns x s (lift (add_call c) s).
Proof. apply lift_warns; reflexivity. Qed.

Lemma notify_warns strict ds again o v : (forall c new s, warns c s (snd (ds c new s))) ->
  forall subs k s, incl subs (subs_of (d_st s) o) -> warns o s (snd (dnotify strict ds again o v k subs s)).
Proof.
  intros T. induction subs as [|x subs IH]; intros k s I; [apply warns_refl|]. cbn [dnotify].
  assert (W0 : warns o s (snd (if again then touch strict o s else (false, s)))) by (destruct again; [apply touch_warns|apply warns_refl]).
  destruct (if again then touch strict o s else (false, s)) as [e s0]; cbn [snd] in W0. destruct e; [exact W0|]. cbv zeta.
  pose proof (warns_trans _ _ _ _ W0 (call_warns o (o, k, v) s0)) as W1. revert W1. generalize (lift (add_call (o, k, v)) s0). intros s1 W1.
  assert (X : forall rs : dresult * dstate, warns o s1 (snd rs) ->
    warns o s (snd (let (r, s2) := rs in match r with R Done => dnotify strict ds again o v (S k) subs s2 | _ => (r, s2) end))).
  { intros [r s2] W2. cbn [snd] in W2. pose proof (warns_trans _ _ _ _ W1 W2) as W. destruct r as [[| |]|]; try exact W.
    eapply warns_trans; [exact W|]. apply IH. destruct W as (A & _). rewrite A. intros y Y. apply I. right. exact Y. }
  assert (J : In x (subs_of (d_st s1) o)) by (destruct W1 as (A & _); rewrite A; apply I; left; reflexivity).
  destruct x as [c|n|n|c w].
  - apply X. eapply warns_down; [|apply T]. intros y Y. eapply below_child; eassumption.
  - apply (X (R Done, s1)). apply warns_refl.
  - apply (X (R (Raised CallbackErr), s1)). apply warns_refl.
  - apply X. eapply warns_down; [|apply T]. intros y Y. eapply below_set; eassumption.
Qed.
Lemma subs_here st o p : nth_error (opts st) o = Some p -> subs_of st o = o_subs p.
Proof. intros E. unfold subs_of. rewrite E. reflexivity. Qed.
Lemma set_warns strict fuel : forall o new s, warns o s (snd (dset_current strict fuel o new s)).
Proof.
  induction fuel as [|f IH]; intros o new s; [apply warns_refl|]. cbn [dset_current].
  destruct (nth_error (opts (d_st s)) o) as [op|] eqn:P; [|apply warns_refl].
  pose proof (touch_warns strict o s) as W0. destruct (touch_st strict o s) as [T _]. destruct (touch strict o s) as [e s0]; cbn [snd] in W0, T. destruct e; [exact W0|]. cbv zeta.
  destruct (same new (current op)); [exact W0|]. destruct (o_mut op); cbn [negb].
  - destruct (o_valid op new) as [v|]; [|exact W0].
    assert (W1 : warns o s (lift (put_opt o (with_cur (Some v) op)) s0)) by (eapply warns_trans; [exact W0|apply put_cur_warns; rewrite T; exact P]).
    destruct (differs v (current op)); [|exact W1]. eapply warns_trans; [exact W1|]. apply notify_warns; [exact IH|].
    destruct W1 as (A & _). rewrite A, (subs_here _ _ _ P). apply incl_refl.
  - pose proof (touch_warns strict o s0) as W1. destruct (touch strict o s0) as [e s1]; cbn [snd] in *. eapply warns_trans; eassumption.
Qed.
Lemma unset_warns strict o s : warns o s (snd (dunset strict o s)).
Proof.
  unfold dunset. destruct (nth_error (opts (d_st s)) o) as [op|] eqn:P; [|apply warns_refl].
  pose proof (touch_warns strict o s) as W0. destruct (touch_st strict o s) as [T _]. destruct (touch strict o s) as [e s0]; cbn [snd] in W0, T.
  destruct (o_mut op); cbn [negb]; [|exact W0]. destruct e; [exact W0|]. cbv zeta.
  assert (W1 : warns o s (lift (put_opt o (with_cur None op)) s0)) by (eapply warns_trans; [exact W0|apply put_cur_warns; rewrite T; exact P]).
  revert W1. generalize (lift (put_opt o (with_cur None op)) s0). intros s1 W1.
  pose proof (warns_trans _ _ _ _ W1 (touch_warns strict o s1)) as W2. destruct (touch strict o s1) as [e s2]; cbn [snd] in W2. destruct e; [exact W2|].
  destruct (differs (o_def op) (current op)); [|exact W2]. eapply warns_trans; [exact W2|]. apply notify_warns; [apply set_warns|].
  destruct W2 as (A & _). rewrite A, (subs_here _ _ _ P). apply incl_refl.
Qed.
Lemma set_default_warns strict o v s : warns o s (snd (dset_default strict o v s)).
Proof.
  unfold dset_default. destruct (nth_error (opts (d_st s)) o) as [op|]; [|apply warns_refl]. destruct (o_cur op); [apply warns_refl|].
  pose proof (set_warns strict (S (length (opts (d_st s)))) o v s) as W. unfold dset. destruct (dset_current strict (S (length (opts (d_st s)))) o v s) as [r s']; cbn [snd] in W.
  destruct r as [[| |]|]; try exact W. destruct (nth_error (opts (d_st s')) o) as [op'|]; [|exact W]. destruct (o_cur op'); exact W.
Qed.
(** A new subscriber comes after the others. *)
Definition warns_end (o : nat) (s s' : dstate) : Prop :=
  length (opts (d_st s')) = length (opts (d_st s)) /\ d_dep s' = d_dep s /\
  exists w, d_warned s' = d_warned s ++ w /\ forall y, In y w -> In y (d_dep s) /\ below (subs_of (d_st s')) o y.
Lemma warns_ends o s s' : warns o s s' -> warns_end o s s'.
Proof. intros (A & B & C & w & D & E). repeat split; try assumption. exists w. split; [exact D|]. intros y Y. destruct (E y Y). split; [assumption|]. eapply below_ext; [|eassumption]. intros. symmetry. apply A. Qed.
Lemma nth_put {A} (l : list A) i a b : nth_error l i = Some b -> nth_error (put l i a) i = Some a.
Proof. intros E. apply put_same. apply nth_error_Some. rewrite E. discriminate. Qed.
Lemma subscribe_warns strict o x s : warns_end o s (snd (dsubscribe strict o x s)).
Proof.
  unfold dsubscribe. destruct (nth_error (opts (d_st s)) o) as [op|] eqn:P; [|apply warns_ends, warns_refl].
  destruct (o_mut op); cbn [negb]; [|apply warns_ends, warns_refl].
  set (s0 := lift (put_opt o (with_sub x op)) s).
  assert (W : warns o s0 (snd (let (e, s1) := touch strict o s0 in if e then (DeprecationErr, s1)
     else dnotify strict (dset_current strict (S (length (opts (d_st s))))) false o (current op) (length (o_subs op)) [x] s1))).
  { pose proof (touch_warns strict o s0) as W0. destruct (touch strict o s0) as [e s1]; cbn [snd] in W0. destruct e; [exact W0|].
    eapply warns_trans; [exact W0|]. apply notify_warns; [apply set_warns|]. destruct W0 as (A & _). rewrite A.
    intros y [<-|[]]. unfold s0, subs_of, lift, put_opt; cbn [d_st opts]. erewrite nth_put by exact P. cbn. apply in_or_app. right. left. reflexivity. }
  apply warns_ends in W. destruct W as (A & B & w & C & D). split; [rewrite A; unfold s0, lift, put_opt; cbn; apply put_length|]. split; [exact B|]. exists w. split; [exact C|exact D].
Qed.

(** [Option.__init__] adds at most one option. *)
Lemma create_warns strict dep env d m p v s : let s' := snd (dcreate strict dep env d m p v s) in
  length (opts (d_st s)) <= length (opts (d_st s')) /\
  (forall o, In o (d_dep s') -> In o (d_dep s) \/ (dep = true /\ o = length (opts (d_st s)) /\ o < length (opts (d_st s')))) /\ incl (d_dep s) (d_dep s') /\
  exists w, d_warned s' = d_warned s ++ w /\ forall y, In y w -> In y (d_dep s) /\ exists o, p = Some o /\ below (subs_of (d_st s')) o y.
Proof.
  assert (Z : let s' := s in length (opts (d_st s)) <= length (opts (d_st s')) /\
    (forall o, In o (d_dep s') -> In o (d_dep s) \/ (dep = true /\ o = length (opts (d_st s)) /\ o < length (opts (d_st s')))) /\ incl (d_dep s) (d_dep s') /\
    exists w, d_warned s' = d_warned s ++ w /\ forall y, In y w -> In y (d_dep s) /\ exists o, p = Some o /\ below (subs_of (d_st s')) o y).
  { cbv zeta. repeat split; auto. apply incl_refl. exists []. rewrite app_nil_r. split; [reflexivity|intros y []]. }
  unfold dcreate. cbv zeta in *. destruct (match env with None => Some None | Some e => match v e with Some v => Some (Some v) | None => None end end) as [cur|]; [|exact Z].
  destruct p as [p|].
  - destruct (nth_error (opts (d_st s)) p) as [pop|]; [|exact Z]. destruct (o_mut pop && m); [|exact Z].
    set (s1 := lift (fun st => State (opts st ++ [Opt m (o_def pop) cur v []]) (calls st)) s).
    pose proof (subscribe_warns strict p (SChild (length (opts (d_st s)))) s1) as (A & B & w & C & D).
    assert (L : length (opts (d_st s1)) = S (length (opts (d_st s)))) by (unfold s1, lift; cbn; rewrite app_length; cbn; lia). rewrite L in A.
    destruct (dsubscribe strict p (SChild (length (opts (d_st s)))) s1) as [r s2]. cbn [snd] in *.
    assert (Y : length (opts (d_st s)) <= length (opts (d_st s2)) /\
      (forall o, In o (d_dep s2) -> In o (d_dep s) \/ (dep = true /\ o = length (opts (d_st s)) /\ o < length (opts (d_st s2)))) /\ incl (d_dep s) (d_dep s2) /\
      exists w, d_warned s2 = d_warned s ++ w /\ forall y, In y w -> In y (d_dep s) /\ exists o, Some p = Some o /\ below (subs_of (d_st s2)) o y).
    { rewrite A, B. repeat split; [lia|intros o O; left; exact O|apply incl_refl|]. exists w. split; [exact C|]. intros y Y. destruct (D y Y) as [E F]. split; [exact E|]. exists p. split; [reflexivity|exact F]. }
    destruct r as [[| |]|]; try exact Y. destruct dep; [|exact Y]. cbn [snd d_st d_dep d_warned]. destruct Y as (_ & _ & _ & Y). repeat split.
    + rewrite A. lia.
    + intros o O. apply in_app_or in O. destruct O as [O|[<-|[]]]; [left; rewrite B in O; exact O|right]. repeat split. rewrite A. lia.
    + rewrite B. apply incl_appl, incl_refl.
    + exact Y.
  - destruct dep; cbn [snd lift d_st d_dep d_warned opts]; rewrite app_length; cbn [length]; repeat split; try lia.
    + intros o O. apply in_app_or in O. destruct O as [O|[<-|[]]]; [left; exact O|right]. repeat split. lia.
    + apply incl_appl, incl_refl.
    + exists []. rewrite app_nil_r. split; [reflexivity|intros y []].
    + intros o O. left. exact O.
    + apply incl_refl.
    + exists []. rewrite app_nil_r. split; [reflexivity|intros y []].
Qed.
Lemma read_warns strict o s : warns o s (snd (dread strict o s)).
Proof.
  unfold dread. destruct (nth_error (opts (d_st s)) o); [|apply warns_refl]. pose proof (touch_warns strict o s) as W.
  destruct (touch strict o s) as [e s']; cbn [snd] in W. destruct e; exact W.
Qed.
Lemma reload_warns strict o e s : warns o s (snd (dreload strict o e s)).
Proof. unfold dreload. destruct (nth_error (opts (d_st s)) o); [apply set_warns|apply warns_refl]. Qed.
Lemma step_warns strict s x : let s' := snd (dstep strict s x) in
  length (opts (d_st s)) <= length (opts (d_st s')) /\
  (forall o, In o (d_dep s') -> In o (d_dep s) \/ ((exists env d m p v, x = New env d m p v) /\ o = length (opts (d_st s)) /\ o < length (opts (d_st s')))) /\
  exists w, d_warned s' = d_warned s ++ w /\ forall y, In y w -> In y (d_dep s) /\ exists o, about x = Some o /\ below (subs_of (d_st s')) o y.
Proof.
  cbv zeta.
  assert (G : forall o s', about x = Some o -> warns_end o s s' -> length (opts (d_st s)) <= length (opts (d_st s')) /\
    (forall o, In o (d_dep s') -> In o (d_dep s) \/ ((exists env d m p v, x = New env d m p v) /\ o = length (opts (d_st s)) /\ o < length (opts (d_st s')))) /\
    exists w, d_warned s' = d_warned s ++ w /\ forall y, In y w -> In y (d_dep s) /\ exists o, about x = Some o /\ below (subs_of (d_st s')) o y).
  { intros o s' E (A & B & w & C & D). rewrite A, B. repeat split; [lia|intros; left; assumption|]. exists w. split; [exact C|]. intros y Y. destruct (D y Y). split; [assumption|]. exists o. split; assumption. }
  destruct x as [[env d m p v|o v|o|o n|o v|o e]|env d m p v|o]; cbn [dstep].
  - destruct (create_warns strict false env d m p v s) as (A & B & _ & C). split; [exact A|]. split; [|exact C]. intros o O. destruct (B o O) as [X|(X & _)]; [left; exact X|discriminate].
  - apply (G o); [reflexivity|]. apply warns_ends, set_warns.
  - apply (G o); [reflexivity|]. apply warns_ends, unset_warns.
  - apply (G o); [reflexivity|]. apply subscribe_warns.
  - apply (G o); [reflexivity|]. pose proof (set_default_warns strict o v s) as W. destruct (dset_default strict o v s) as [[a b] s']. apply warns_ends. exact W.
  - apply (G o); [reflexivity|]. apply warns_ends, reload_warns.
  - destruct (create_warns strict true env d m p v s) as (A & B & _ & C). split; [exact A|]. split; [|exact C]. intros o O. destruct (B o O) as [X|(_ & X & Y)]; [left; exact X|right].
    split; [do 5 eexists; reflexivity|split; assumption].
  - apply (G o); [reflexivity|]. pose proof (read_warns strict o s) as W. destruct (dread strict o s) as [[a b] s']. apply warns_ends. exact W.
Qed.
Lemma drun_app strict l x : drun strict (l ++ [x]) = snd (dstep strict (drun strict l) x).
Proof. unfold drun. rewrite fold_left_app. reflexivity. Qed.
Lemma dep_exists strict l : forall o, In o (d_dep (drun strict l)) -> o < length (opts (d_st (drun strict l))).
Proof.
  induction l as [|x l IH] using rev_ind; [intros o []|]. rewrite drun_app. intros o O.
  destruct (step_warns strict (drun strict l) x) as (A & B & _). destruct (B o O) as [C|(_ & _ & C)]; [|exact C]. specialize (IH o C). lia.
Qed.
Lemma dep_iff o s : deprecated o s = true <-> In o (d_dep s).
Proof.
  unfold deprecated. rewrite existsb_exists. split; [intros (x & X & E); apply Nat.eqb_eq in E; subst; exact X|intros I; exists o; split; [exact I|apply Nat.eqb_refl]].
Qed.

(** ** C118 *)
(** How a call of a plain option ends. *)
Definition outcome (st : state) (x : op) : result :=
  match x with
  | ONew env d m p v => fst (create env d m p v st)
  | OSet o v => fst (set o v st)
  | OUnset o => fst (unset o st)
  | OSub o n => fst (subscribe o (SUser n) st)
  | OSetDefault o v => snd (fst (set_default o v st))
  | OReload o e => fst (reload o e st)
  end.
Lemma set_default_tracks o v s : snd (fst (dset_default false o v s)) = R (snd (fst (set_default o v (d_st s)))) /\
  d_st (snd (dset_default false o v s)) = snd (set_default o v (d_st s)) /\ fst (fst (dset_default false o v s)) = fst (fst (set_default o v (d_st s))).
Proof.
  unfold dset_default, set_default. destruct (nth_error (opts (d_st s)) o) as [op|]; [|repeat split]. destruct (o_cur op); [repeat split|].
  unfold dset, set. destruct (set_tracks (S (length (opts (d_st s)))) o v s) as (A & B & _).
  destruct (dset_current false (S (length (opts (d_st s)))) o v s) as [r s']. destruct (set_current (S (length (opts (d_st s)))) o v (d_st s)) as [r' st']. cbn [fst snd] in A, B. subst r st'.
  destruct r'; try (repeat split; reflexivity). destruct (nth_error (opts (d_st s')) o) as [op'|]; [|repeat split]. destruct (o_cur op'); repeat split.
Qed.
Lemma unset_tracks o s : fst (dunset false o s) = R (fst (unset o (d_st s))) /\ d_st (snd (dunset false o s)) = snd (unset o (d_st s)).
Proof.
  unfold dunset, unset. destruct (nth_error (opts (d_st s)) o) as [op|]; [|split; reflexivity]. quiet_touch o s.
  destruct (o_mut op); cbn [negb]; [|split; [reflexivity|exact A]]. cbv zeta.
  assert (W : d_st (lift (put_opt o (with_cur None op)) s0) = put_opt o (with_cur None op) (d_st s)) by (unfold lift; cbn; rewrite A; reflexivity).
  revert W. generalize (lift (put_opt o (with_cur None op)) s0). intros s1 W. quiet_touch o s1. rewrite W in A0.
  destruct (differs (o_def op) (current op)); [|split; [reflexivity|exact A0]].
  destruct (notify_tracks _ _ true o (o_def op) (set_tracks (length (opts (d_st s)))) (o_subs op) 0 s2) as (X & Y & _). rewrite A0 in X, Y. split; assumption.
Qed.
Lemma subscribe_tracks o x s : fst (dsubscribe false o x s) = R (fst (subscribe o x (d_st s))) /\ d_st (snd (dsubscribe false o x s)) = snd (subscribe o x (d_st s)).
Proof.
  unfold dsubscribe, subscribe. destruct (nth_error (opts (d_st s)) o) as [op|]; [|split; reflexivity].
  destruct (o_mut op); cbn [negb]; [|split; reflexivity].
  set (s0 := lift (put_opt o (with_sub x op)) s). assert (W : d_st s0 = put_opt o (with_sub x op) (d_st s)) by reflexivity. clearbody s0. quiet_touch o s0. rewrite W in A.
  destruct (notify_tracks _ _ false o (current op) (set_tracks (S (length (opts (d_st s))))) [x] (length (o_subs op)) s1) as (X & Y & _). rewrite A in X, Y. split; assumption.
Qed.
Lemma create_tracks dep env d m p v s : fst (dcreate false dep env d m p v s) = R (fst (create env d m p v (d_st s))) /\ d_st (snd (dcreate false dep env d m p v s)) = snd (create env d m p v (d_st s)).
Proof.
  unfold dcreate, create. cbv zeta. destruct (match env with None => Some None | Some e => match v e with Some v => Some (Some v) | None => None end end) as [cur|]; [|split; reflexivity].
  destruct p as [p|].
  - destruct (nth_error (opts (d_st s)) p) as [pop|]; [|split; reflexivity]. destruct (o_mut pop && m); [|split; reflexivity].
    destruct (subscribe_tracks p (SChild (length (opts (d_st s)))) (lift (fun st => State (opts st ++ [Opt m (o_def pop) cur v []]) (calls st)) s)) as [A B].
    change (d_st (lift (fun st => State (opts st ++ [Opt m (o_def pop) cur v []]) (calls st)) s)) with (State (opts (d_st s) ++ [Opt m (o_def pop) cur v []]) (calls (d_st s))) in A, B.
    destruct (dsubscribe false p _ _) as [r s']. destruct (subscribe p _ _) as [r' st']. cbn [fst snd] in *. subst r st'. destruct r'; [|split; reflexivity|split; reflexivity]. destruct dep; split; reflexivity.
  - destruct dep; split; reflexivity.
Qed.
Lemma step_tracks x s : (forall u, x = Use u -> fst (dstep false s x) = R (outcome (d_st s) u)) /\ d_st (snd (dstep false s x)) = fold_left run1 (plainly x) (d_st s).
Proof.
  destruct x as [[env d m p v|o v|o|o n|o v|o e]|env d m p v|o]; cbn [dstep plainly fold_left run1 outcome].
  - destruct (create_tracks false env d m p v s) as [A B]. split; [intros u [= <-]; exact A|exact B].
  - destruct (set_tracks (S (length (opts (d_st s)))) o v s) as (A & B & _). split; [intros u [= <-]; exact A|exact B].
  - destruct (unset_tracks o s) as [A B]. split; [intros u [= <-]; exact A|exact B].
  - destruct (subscribe_tracks o (SUser n) s) as [A B]. split; [intros u [= <-]; exact A|exact B].
  - destruct (set_default_tracks o v s) as (A & B & _). destruct (dset_default false o v s) as [[a r] s']. cbn [fst snd] in *. split; [intros u [= <-]; exact A|exact B].
  - unfold dreload. split; [intros u [= <-]|]; cbn [outcome]; unfold reload; destruct (nth_error (opts (d_st s)) o) as [op|]; try reflexivity;
    apply (set_tracks (S (length (opts (d_st s)))) o (match e with Some e => e | None => o_def op end) s).
  - destruct (create_tracks true env d m p v s) as [A B]. split; [discriminate|exact B].
  - split; [discriminate|]. unfold dread. destruct (nth_error (opts (d_st s)) o); [|reflexivity]. quiet_touch o s. exact A.
Qed.

(** Unless warnings are made errors, deprecated options are like plain ones: the same values, the same calls of subscribers and
    the same exceptions; reading one gives its value. *)
Theorem C118_like_plain l :
  d_st (drun false l) = run (flat_map plainly l) /\
  (forall x, fst (dstep false (drun false l) (Use x)) = R (outcome (run (flat_map plainly l)) x)) /\
  (forall o op, nth_error (opts (run (flat_map plainly l))) o = Some op -> fst (dread false o (drun false l)) = (Some (current op), R Done)).
Proof.
  assert (E : d_st (drun false l) = run (flat_map plainly l)).
  { induction l as [|x l IH] using rev_ind; [reflexivity|]. rewrite drun_app, (proj2 (step_tracks x _)), IH. unfold run. rewrite flat_map_app, fold_left_app. cbn. rewrite app_nil_r. reflexivity. }
  split; [exact E|]. split.
  - intros x. rewrite <- E. apply (proj1 (step_tracks (Use x) (drun false l)) x eq_refl).
  - intros o op P. rewrite <- E in P. unfold dread. rewrite P. quiet_touch o (drun false l). reflexivity.
Qed.
(** A warning is about an option that was made as deprecated, exists already, and is the option in use or is set with it. *)
Theorem C118_warned_only strict l x : exists w,
  d_warned (snd (dstep strict (drun strict l) x)) = d_warned (drun strict l) ++ w /\
  forall y, In y w ->
    (exists l1 env d m p v l2, l = l1 ++ New env d m p v :: l2 /\ y = length (opts (d_st (drun strict l1)))) /\
    y < length (opts (d_st (drun strict l))) /\
    exists o, about x = Some o /\ below (subs_of (d_st (snd (dstep strict (drun strict l) x)))) o y.
Proof.
  destruct (step_warns strict (drun strict l) x) as (_ & _ & w & A & B). exists w. split; [exact A|]. intros y Y. destruct (B y Y) as [D C]. split; [|split; [apply dep_exists; exact D|exact C]].
  clear -D. induction l as [|x l IH] using rev_ind; [destruct D|]. rewrite drun_app in D. destruct (step_warns strict (drun strict l) x) as (_ & B & _).
  destruct (B y D) as [E|((env & d & m & p & v & ->) & E & _)].
  - destruct (IH E) as (l1 & env & d & m & p & v & l2 & -> & F). exists l1, env, d, m, p, v, (l2 ++ [x]). split; [rewrite <- app_assoc; reflexivity|exact F].
  - exists l, env, d, m, p, v, []. split; [reflexivity|exact E].
Qed.
Lemma step_dep strict s x : incl (d_dep s) (d_dep (snd (dstep strict s x))).
Proof.
  destruct x as [[env d m p v|o v|o|o n|o v|o e]|env d m p v|o]; cbn [dstep].
  - apply create_warns.
  - destruct (set_warns strict (S (length (opts (d_st s)))) o v s) as (_ & _ & A & _). unfold dset. rewrite A. apply incl_refl.
  - destruct (unset_warns strict o s) as (_ & _ & A & _). rewrite A. apply incl_refl.
  - destruct (subscribe_warns strict o (SUser n) s) as (_ & A & _). rewrite A. apply incl_refl.
  - destruct (set_default_warns strict o v s) as (_ & _ & A & _). destruct (dset_default strict o v s) as [[a b] s']. cbn [snd] in *. rewrite A. apply incl_refl.
  - destruct (reload_warns strict o e s) as (_ & _ & A & _). rewrite A. apply incl_refl.
  - apply create_warns.
  - destruct (read_warns strict o s) as (_ & _ & A & _). destruct (dread strict o s) as [[a b] s']. cbn [snd] in *. rewrite A. apply incl_refl.
Qed.
Lemma create_marks strict env d m p v s : fst (dcreate strict true env d m p v s) = R Done -> In (length (opts (d_st s))) (d_dep (snd (dcreate strict true env d m p v s))).
Proof.
  unfold dcreate. cbv zeta. destruct (match env with None => Some None | Some e => match v e with Some v => Some (Some v) | None => None end end) as [cur|]; [|discriminate].
  destruct p as [p|].
  - destruct (nth_error (opts (d_st s)) p) as [pop|]; [|discriminate]. destruct (o_mut pop && m); [|discriminate].
    destruct (dsubscribe strict p _ _) as [r s']. destruct r as [[| |]|]; try discriminate. intros _. cbn. apply in_or_app. right. left. reflexivity.
  - intros _. cbn. apply in_or_app. right. left. reflexivity.
Qed.
Lemma marked strict l1 env d m p v l2 : fst (dstep strict (drun strict l1) (New env d m p v)) = R Done ->
  In (length (opts (d_st (drun strict l1)))) (d_dep (drun strict (l1 ++ New env d m p v :: l2))).
Proof.
  intros H. induction l2 as [|x l2 IH] using rev_ind.
  - rewrite drun_app. apply create_marks. exact H.
  - change (New env d m p v :: l2 ++ [x]) with ((New env d m p v :: l2) ++ [x]). rewrite app_assoc, drun_app. apply step_dep. exact IH.
Qed.
Lemma touch_deprecated strict o s : deprecated o s = true -> touch strict o s = (strict, DS (d_st s) (d_dep s) (d_warned s ++ [o])).
Proof. intros D. unfold touch. rewrite D. reflexivity. Qed.
Lemma after_first o o' s s' ws : d_warned s = ws ++ [o] -> warns o' s s' -> exists w, d_warned s' = ws ++ o :: w.
Proof. intros E (_ & _ & _ & w & F & _). exists w. rewrite F, E, <- app_assoc. reflexivity. Qed.
Lemma set_first strict o v s op : nth_error (opts (d_st s)) o = Some op -> deprecated o s = true ->
  exists w, d_warned (snd (dset strict o v s)) = d_warned s ++ o :: w.
Proof.
  intros P D. unfold dset. cbn [dset_current]. rewrite P, (touch_deprecated strict o s D). set (s0 := DS (d_st s) (d_dep s) (d_warned s ++ [o])).
  assert (P0 : nth_error (opts (d_st s0)) o = Some op) by exact P.
  apply (after_first o o s0); [reflexivity|]. destruct strict; [apply warns_refl|]. cbv zeta.
  destruct (same v (current op)); [apply warns_refl|]. destruct (o_mut op); cbn [negb].
  - destruct (o_valid op v) as [v'|]; [|apply warns_refl]. pose proof (put_cur_warns o o (Some v') op s0 P0) as W1.
    destruct (differs v' (current op)); [|exact W1]. eapply warns_trans; [exact W1|]. apply notify_warns; [apply set_warns|].
    destruct W1 as (A & _). rewrite A, (subs_here _ _ _ P0). apply incl_refl.
  - pose proof (touch_warns false o s0) as W. destruct (touch false o s0). exact W.
Qed.
Lemma unset_first strict o s op : nth_error (opts (d_st s)) o = Some op -> deprecated o s = true ->
  exists w, d_warned (snd (dunset strict o s)) = d_warned s ++ o :: w.
Proof.
  intros P D. unfold dunset. rewrite P, (touch_deprecated strict o s D). set (s0 := DS (d_st s) (d_dep s) (d_warned s ++ [o])).
  assert (P0 : nth_error (opts (d_st s0)) o = Some op) by exact P.
  apply (after_first o o s0); [reflexivity|]. destruct (o_mut op); cbn [negb]; [|apply warns_refl]. destruct strict; [apply warns_refl|]. cbv zeta.
  pose proof (put_cur_warns o o None op s0 P0) as W1. revert W1. generalize (lift (put_opt o (with_cur None op)) s0). intros s1 W1.
  pose proof (warns_trans _ _ _ _ W1 (touch_warns false o s1)) as W2. destruct (touch false o s1) as [e s2]; cbn [snd] in W2. destruct e; [exact W2|].
  destruct (differs (o_def op) (current op)); [|exact W2]. eapply warns_trans; [exact W2|]. apply notify_warns; [apply set_warns|].
  destruct W2 as (A & _). rewrite A, (subs_here _ _ _ P0). apply incl_refl.
Qed.
Lemma subscribe_first strict o n s op : nth_error (opts (d_st s)) o = Some op -> o_mut op = true -> deprecated o s = true ->
  exists w, d_warned (snd (dsubscribe strict o (SUser n) s)) = d_warned s ++ o :: w.
Proof.
  intros P M D. unfold dsubscribe. rewrite P, M. cbn [negb]. set (s0 := lift (put_opt o (with_sub (SUser n) op)) s).
  rewrite (touch_deprecated strict o s0 D). destruct strict; [exists []; reflexivity|]. exists []. reflexivity.
Qed.

(** A deprecated option whose constructor has ended warns from then on, whatever happens: each read, set, unset and reload
    warns about it, and so does a subscription to it if it is mutable. *)
Theorem C118_always strict l1 env d m p v l2 x :
  let o := length (opts (d_st (drun strict l1))) in
  fst (dstep strict (drun strict l1) (New env d m p v)) = R Done ->
  let s := drun strict (l1 ++ New env d m p v :: l2) in
  (x = Read o \/ (exists a, x = Use (OSet o a)) \/ x = Use (OUnset o) \/ (exists e, x = Use (OReload o e)) \/
   ((exists n, x = Use (OSub o n)) /\ exists op, nth_error (opts (d_st s)) o = Some op /\ o_mut op = true)) ->
  exists w, d_warned (snd (dstep strict s x)) = d_warned s ++ o :: w.
Proof.
  cbv zeta. intros H. pose proof (marked strict l1 env d m p v l2 H) as I. pose proof (dep_exists strict _ _ I) as L. revert I L.
  generalize (drun strict (l1 ++ New env d m p v :: l2)) (length (opts (d_st (drun strict l1)))). intros s o I L.
  apply dep_iff in I. destruct (nth_error (opts (d_st s)) o) as [op|] eqn:P; [|apply nth_error_None in P; lia].
  intros [->|[(a & ->)|[->|[(e & ->)|((n & ->) & op' & E & M)]]]]; cbn [dstep].
  - unfold dread. rewrite P, (touch_deprecated strict o s I). exists []. destruct strict; reflexivity.
  - eapply set_first; eassumption.
  - eapply unset_first; eassumption.
  - unfold dreload. rewrite P. eapply set_first; eassumption.
  - injection E as <-. eapply subscribe_first; eassumption.
Qed.
(** When warnings are errors, a read, set, unset or reload of a deprecated option raises the warning and changes nothing. *)
Theorem C118_errors l1 env d m p v l2 x :
  let o := length (opts (d_st (drun true l1))) in
  fst (dstep true (drun true l1) (New env d m p v)) = R Done ->
  let s := drun true (l1 ++ New env d m p v :: l2) in
  (x = Read o \/ (exists a, x = Use (OSet o a)) \/ x = Use (OUnset o) \/ exists e, x = Use (OReload o e)) ->
  fst (dstep true s x) = DeprecationErr /\ d_st (snd (dstep true s x)) = d_st s.
Proof.
  cbv zeta. intros H. pose proof (marked true l1 env d m p v l2 H) as I. pose proof (dep_exists true _ _ I) as L. revert I L.
  generalize (drun true (l1 ++ New env d m p v :: l2)) (length (opts (d_st (drun true l1)))). intros s o I L.
  apply dep_iff in I. destruct (nth_error (opts (d_st s)) o) as [op|] eqn:P; [|apply nth_error_None in P; lia].
  intros [->|[(a & ->)|[->|(e & ->)]]]; cbn [dstep].
  - unfold dread. rewrite P, (touch_deprecated true o s I). split; reflexivity.
  - unfold dset. cbn [dset_current]. rewrite P, (touch_deprecated true o s I). split; reflexivity.
  - unfold dunset. rewrite P, (touch_deprecated true o s I). destruct (o_mut op); split; reflexivity.
  - unfold dreload, dset. rewrite P. cbn [dset_current]. rewrite P, (touch_deprecated true o s I). split; reflexivity.
Qed.

(** A parent, a deprecated child, a subscriber of the parent; the validators accept everything. *)
Definition family : list dop :=
  [Use (ONew None (Val 1 1) true None Some); New None (Val 9 9) true (Some 0) Some; Use (OSub 0 7)].
(** The warning says that the option is in use; but it also comes when only the parent is set, and only the parent is new code. *)
Theorem C118_unused_refuted : ~ forall l x y, In y (skipn (length (d_warned (drun false l))) (d_warned (snd (dstep false (drun false l) x)))) -> about x = Some y.
Proof. intros H. specialize (H family (Use (OSet 0 (Val 2 2))) 1). assert (Some 0 = Some 1) by (apply H; vm_compute; left; reflexivity). discriminate. Qed.
(** Not every use warns: [set_default] returns the value of an option that is set without a warning. *)
Theorem C118_set_default_refuted : let s := drun false (family ++ [Use (OSet 1 (Val 3 3))]) in
  fst (dset_default false 1 (Val 4 4) s) = (Some (Val 3 3), R Done) /\ d_warned (snd (dset_default false 1 (Val 4 4) s)) = d_warned s /\ In 1 (d_dep s).
Proof. vm_compute. repeat split. left. reflexivity. Qed.
(** When warnings are errors, setting the parent fails half way: it has the new value, its child has not, and the subscriber is not called. *)
Theorem C118_partway_refuted : let s := drun true family in let rs := dstep true s (Use (OSet 0 (Val 2 2))) in
  fst rs = DeprecationErr /\ map current (opts (d_st s)) = [Val 1 1; Val 1 1] /\ map current (opts (d_st (snd rs))) = [Val 2 2; Val 1 1] /\
  calls (d_st (snd rs)) = calls (d_st s) ++ [(0, 0, Val 2 2)].
Proof. vm_compute. repeat split. Qed.
(** When warnings are errors, [subscribe] fails, but the callback is registered. *)
Theorem C118_subscribe_refuted : let s := drun true family in let rs := dstep true s (Use (OSub 1 8)) in
  fst rs = DeprecationErr /\ subs_of (d_st s) 1 = [] /\ subs_of (d_st (snd rs)) 1 = [SUser 8].
Proof. vm_compute. repeat split. Qed.

(** The hypotheses hold for a deprecated child. Its constructor does not warn; setting its parent warns once, reading it once and
    unsetting it twice. *)
Example C118_nonvacuous :
  fst (dstep false (drun false (firstn 1 family)) (New None (Val 9 9) true (Some 0) Some)) = R Done /\
  d_warned (drun false family) = [] /\ d_warned (drun false (family ++ [Use (OSet 0 (Val 2 2)); Read 1; Use (OUnset 1)])) = [1; 1; 1; 1] /\
  map current (opts (d_st (drun false (family ++ [Use (OSet 0 (Val 2 2))])))) = [Val 2 2; Val 2 2] /\
  about (Use (OSet 0 (Val 2 2))) = Some 0 /\ below (subs_of (d_st (drun false family))) 0 1.
Proof. repeat split; try (vm_compute; reflexivity). eapply below_child; [|apply below_refl]. vm_compute. left. reflexivity. Qed.

Print Assumptions C118_like_plain.
Print Assumptions C118_warned_only.
Print Assumptions C118_always.
Print Assumptions C118_errors.
Print Assumptions C118_unused_refuted.
Print Assumptions C118_set_default_refuted.
Print Assumptions C118_partway_refuted.
Print Assumptions C118_subscribe_refuted.
