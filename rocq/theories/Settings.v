(** * Model of an application's settings and of the options they set, and property C90
    /repo/src/reactpy/executors/utils.py:49-59 ([process_settings]), /repo/src/reactpy/config.py:13-139 (the options).
    A single option: OptionModel.v. *)
From Coq Require Import String Ascii ZArith Bool Arith Lia List Permutation.
From Verif Require Import EffectModel EffectProps Strings PyStr OptionModel.
Import ListNotations.
Local Open Scope string_scope. Local Open Scope list_scope.

(** ** Model *)

(** Python values, as far as [boolean] tells them apart. *)
Inductive pyval := PBool (b : bool) | PInt (n : Z) | PStr (s : string) | POther.
(** [boolean], config.py:17-33; [None]: it raises. Simplified: [lower] maps ASCII letters only, and floats and other objects
    are [POther]. *)
Definition boolean (v : pyval) : option bool :=
  match v with
  | PBool b => Some b
  | PInt n => Some (negb (Z.eqb n 0))
  | PStr s => if existsb (String.eqb (lower s)) ["true"; "1"] then Some true
              else if existsb (String.eqb (lower s)) ["false"; "0"] then Some false
              else None
  | POther => None
  end.

(** [s.upper()], for ASCII letters. *)
Definition upper (s : string) : string := smap up s.

(** The names in config.py that [getattr(config, f"REACTPY_{...}")] can find, by the number of their option: config.py:36-139,
    in the order of their definition. *)
Definition names : list (string * nat) :=
  [("REACTPY_DEBUG", 0); ("REACTPY_CHECK_VDOM_SPEC", 1); ("REACTPY_CHECK_JSON_ATTRS", 2); ("REACTPY_WEB_MODULES_DIR", 3);
   ("REACTPY_TESTS_DEFAULT_TIMEOUT", 4); ("REACTPY_ASYNC_RENDERING", 5); ("REACTPY_RECONNECT_INTERVAL", 6);
   ("REACTPY_RECONNECT_MAX_INTERVAL", 7); ("REACTPY_RECONNECT_MAX_RETRIES", 8); ("REACTPY_RECONNECT_BACKOFF_MULTIPLIER", 9);
   ("REACTPY_PATH_PREFIX", 10); ("REACTPY_MAX_QUEUE_SIZE", 11)].
Fixpoint find_name (n : string) (l : list (string * nat)) : option nat :=
  match l with [] => None | (m, o) :: l' => if String.eqb n m then Some o else find_name n l' end.
Definition option_of (setting : string) : option nat := find_name ("REACTPY_" ++ upper setting)%string names.

(** [process_settings], utils.py:49-59, on the settings in the order of the dictionary. *)
Fixpoint process (settings : list (string * value)) (st : state) : result * state :=
  match settings with
  | [] => (Done, st)
  | (n, v) :: rest =>
      match option_of n with
      | None => (Raised ValueErr, st)
      | Some o => match set o v st with (Done, st') => process rest st' | r => r end
      end
  end.

Section Config.
(** What Python value an object is, and the object for a truth value; the other validators ([Path], [float], [int], [str]), the
    environment variables and the defaults. Objects of the model: OptionModel.v. *)
Variable kind : value -> pyval.
Variable truth : bool -> value.
Variables to_path to_float to_int to_str : value -> option value.
Variable env : nat -> option value.
Variable default : nat -> value.
Definition to_bool (v : value) : option value := option_map truth (boolean (kind v)).

(** The options, config.py:36, 45-47, 53-55, 66-70, 78-83, 86-91, 94-99, 102-107, 110-115, 118-123, 126-131,
    134-139. *)
Definition config_py : list op :=
  [ONew (env 0) (default 0) true None to_bool; ONew (env 1) (default 0) true (Some 0) to_bool; ONew (env 2) (default 0) true (Some 0) to_bool;
   ONew (env 3) (default 3) true None to_path; ONew (env 4) (default 4) false None to_float; ONew (env 5) (default 5) true None to_bool;
   ONew (env 6) (default 6) true None to_int; ONew (env 7) (default 7) true None to_int; ONew (env 8) (default 8) true None to_int;
   ONew (env 9) (default 9) true None to_float; ONew (env 10) (default 10) true None to_str; ONew (env 11) (default 11) true None to_int].
End Config.

(** ** Proofs *)

(** What never changes in an option: whether it is mutable, its validator, its child options. *)
Definition loud (s : sub) : bool := match s with SUser _ => false | _ => true end.
Definition sk (p : opt) : bool * (value -> option value) * list sub := (o_mut p, o_valid p, filter loud (o_subs p)).
Definition skel (st : state) := map sk (opts st).
Lemma map_put {A B} (f : A -> B) l : forall o x, map f (put l o x) = put (map f l) o (f x).
Proof. induction l as [|y l IH]; intros [|o] x; cbn; auto. now rewrite IH. Qed.
Lemma put_id {A} (l : list A) : forall o x, nth_error l o = Some x -> put l o x = l.
Proof. induction l as [|y l IH]; intros [|o] x H; cbn in *; auto; [congruence|]. now rewrite IH. Qed.
Lemma skel_put st o p q : nth_error (opts st) o = Some p -> sk q = sk p -> skel (put_opt o q st) = skel st.
Proof. intros H E. unfold skel. cbn [opts put_opt]. rewrite map_put, E. apply put_id. now rewrite nth_error_map, H. Qed.
Lemma notify_skel sets : (forall o v st, skel (snd (sets o v st)) = skel st) ->
  forall subs o v k st, skel (snd (notify sets o v k subs st)) = skel st.
Proof.
  intros K. induction subs as [|s subs IH]; intros o v k st; [reflexivity|]. cbn [notify].
  assert (E : forall st0, skel (add_call (o, k, v) st0) = skel st0) by reflexivity.
  destruct s as [c|n|n|o' w].
  - specialize (K c v (add_call (o, k, v) st)). destruct (sets c v (add_call (o, k, v) st)) as [r st2]. cbn [snd] in K. destruct r; cbn [snd]; try (rewrite K; apply E).
    rewrite IH, K. apply E.
  - rewrite IH. apply E.
  - apply E.
  - specialize (K o' w (add_call (o, k, v) st)). destruct (sets o' w (add_call (o, k, v) st)) as [r st2]. cbn [snd] in K. destruct r; cbn [snd]; try (rewrite K; apply E).
    rewrite IH, K. apply E.
Qed.
Lemma set_current_skel f : forall o v st, skel (snd (set_current f o v st)) = skel st.
Proof.
  induction f as [|f IH]; intros o v st; [reflexivity|]. cbn [set_current]. destruct (nth_error (opts st) o) as [p|] eqn:H; [|reflexivity].
  destruct (same v (current p)); [reflexivity|]. destruct (o_mut p) eqn:M; cbn [negb]; [|reflexivity]. destruct (o_valid p v) as [w|]; [|reflexivity].
  assert (S1 : skel (put_opt o (with_cur (Some w) p) st) = skel st) by (apply skel_put with p; auto).
  destruct (differs w (current p)); [|exact S1]. now rewrite notify_skel.
Qed.
Lemma set_skel o v st : skel (snd (set o v st)) = skel st.
Proof. apply set_current_skel. Qed.
Lemma unset_skel o st : skel (snd (unset o st)) = skel st.
Proof.
  unfold unset. destruct (nth_error (opts st) o) as [p|] eqn:H; [|reflexivity]. destruct (o_mut p) eqn:M; cbn [negb]; [|reflexivity].
  assert (S1 : skel (put_opt o (with_cur None p) st) = skel st) by (apply skel_put with p; auto).
  destruct (differs (o_def p) (current p)); [|exact S1]. rewrite notify_skel; auto. apply set_current_skel.
Qed.
Lemma filter_last {A} (f : A -> bool) l x : filter f (l ++ [x]) = filter f l ++ (if f x then [x] else []).
Proof. rewrite filter_app. cbn. destruct (f x); reflexivity. Qed.
Lemma subscribe_user_skel o n st : skel (snd (subscribe o (SUser n) st)) = skel st.
Proof.
  unfold subscribe. destruct (nth_error (opts st) o) as [p|] eqn:H; [|reflexivity]. destruct (o_mut p) eqn:M; cbn [negb]; [|reflexivity].
  rewrite notify_skel by apply set_current_skel. apply skel_put with p; auto. unfold sk. cbn [with_sub o_mut o_valid o_subs]. rewrite filter_last. cbn. now rewrite app_nil_r.
Qed.
(** The skeleton of a new option. *)
Definition grow (sks : list (bool * (value -> option value) * list sub)) (x : op) :=
  match x with
  | ONew _ _ m None v => sks ++ [(m, v, [])]
  | ONew _ _ m (Some p) v => match nth_error sks p with
                             | Some (m0, v0, subs) => put (sks ++ [(m, v, [])]) p (m0, v0, subs ++ [SChild (length sks)])
                             | None => sks
                             end
  | _ => sks
  end.
Lemma create_skel env d m p v st : skel (snd (create env d m p v st)) = skel st \/ skel (snd (create env d m p v st)) = grow (skel st) (ONew env d m p v).
Proof.
  unfold create. destruct (match env with None => Some None | Some e => _ end) as [cur|]; [|now left].
  destruct p as [p|]; [|right; unfold skel; cbn [snd opts grow]; now rewrite map_app].
  destruct (nth_error (opts st) p) as [pop|] eqn:H; [|now left]. destruct (o_mut pop && m) eqn:MM; [|now left]. right.
  set (st1 := State (opts st ++ [Opt m (o_def pop) cur v []]) (calls st)).
  assert (H1 : nth_error (opts st1) p = Some pop) by (unfold st1; cbn [opts]; rewrite nth_error_app1; [auto|apply nth_error_Some; congruence]).
  apply andb_true_iff in MM. destruct MM as [M1 M2]. unfold subscribe. rewrite H1, M1. cbn [negb]. rewrite notify_skel by apply set_current_skel.
  unfold skel at 1. cbn [opts put_opt]. rewrite map_put. unfold st1. cbn [opts]. rewrite map_app. cbn [grow]. unfold skel. rewrite nth_error_map, H. cbn [option_map sk].
  unfold sk at 2. rewrite map_length. f_equal. unfold sk. cbn [with_sub o_mut o_valid o_subs]. now rewrite filter_last.
Qed.
Lemma grow_length sks x : (forall e d m p v, x = ONew e d m (Some p) v -> p < length sks) -> (exists e d m p v, x = ONew e d m p v) -> length (grow sks x) = S (length sks).
Proof.
  intros P (e & d & m & p & v & ->). destruct p as [p|]; cbn [grow]; [|rewrite app_length; cbn; lia].
  specialize (P _ _ _ _ _ eq_refl). destruct (nth_error sks p) as [[[m0 v0] subs]|] eqn:H; [|apply nth_error_None in H; lia]. rewrite put_length, app_length. cbn. lia.
Qed.
Lemma create_len env d m p v st : length (opts (snd (create env d m p v st))) <= S (length (opts st)).
Proof.
  assert (E : forall s, length (opts s) = length (skel s)) by (intros; unfold skel; now rewrite map_length).
  rewrite !E. destruct (create_skel env d m p v st) as [-> | ->]; [lia|]. destruct p as [p|]; cbn [grow]; [|rewrite app_length; cbn; lia].
  destruct (nth_error (skel st) p) as [[[m0 v0] subs]|]; [|lia]. rewrite put_length, app_length. cbn. lia.
Qed.
Definition is_new (x : op) : bool := match x with ONew _ _ _ _ _ => true | _ => false end.
Lemma news_len l : forall st, Forall (fun x => is_new x = true) l -> length (opts (fold_left run1 l st)) <= length (opts st) + length l.
Proof.
  induction l as [|x l IH]; intros st F; cbn [fold_left length]; [lia|]. inversion F; subst. specialize (IH (run1 st x) H2).
  destruct x; try discriminate H1. cbn [run1] in *. pose proof (create_len env default mut parent valid st). lia.
Qed.
Lemma news_skel l : forall st, Forall (fun x => is_new x = true) l -> length (opts (fold_left run1 l st)) = length (opts st) + length l ->
  skel (fold_left run1 l st) = fold_left grow l (skel st).
Proof.
  induction l as [|x l IH]; intros st F L; [reflexivity|]. cbn [fold_left length] in *. inversion F; subst. destruct x; try discriminate H1. cbn [run1] in *.
  pose proof (create_len env default mut parent valid st). pose proof (news_len l (snd (create env default mut parent valid st)) H2).
  rewrite IH; [|auto|lia]. f_equal. destruct (create_skel env default mut parent valid st) as [E|E]; [|auto].
  assert (E' : length (skel (snd (create env default mut parent valid st))) = length (skel st)) by now rewrite E. unfold skel in E'. rewrite !map_length in E'. lia.
Qed.
Lemma later_skel l : forall st, Forall (fun x => is_new x = false) l -> skel (fold_left run1 l st) = skel st.
Proof.
  induction l as [|x l IH]; intros st F; [reflexivity|]. cbn [fold_left]. inversion F; subst. rewrite IH by auto. destruct x; try discriminate H1; cbn [run1].
  - apply set_skel.
  - apply unset_skel.
  - apply subscribe_user_skel.
  - unfold set_default. destruct (nth_error (opts st) o) as [p|] eqn:H; [|reflexivity]. destruct (o_cur p); [reflexivity|]. pose proof (set_skel o v st) as K.
    destruct (set o v st) as [r st']. destruct r; auto. destruct (nth_error (opts st') o) as [q|]; [|auto]. destruct (o_cur q); auto.
  - unfold reload. destruct (nth_error (opts st) o); [|reflexivity]. apply set_skel.
Qed.

(** *** Locality: what setting an option does depends on the option and its descendants only *)
Definition agree (D : nat -> Prop) (s1 s2 : state) : Prop := forall x, D x -> nth_error (opts s1) x = nth_error (opts s2) x.
Definition closed (D : nat -> Prop) (st : state) : Prop :=
  forall x p s, D x -> nth_error (opts st) x = Some p -> In s (o_subs p) -> match s with SChild c => D c | SUser _ => True | _ => False end.
Lemma agree_put (D : nat -> Prop) s1 s2 o q : length (opts s1) = length (opts s2) -> agree D s1 s2 -> agree D (put_opt o q s1) (put_opt o q s2).
Proof.
  intros L A x Dx. cbn [opts put_opt]. destruct (Nat.eq_dec o x) as [<-|N]; [|rewrite !put_other by auto; auto].
  destruct (Nat.lt_ge_cases o (length (opts s1))) as [H|H]; [rewrite !put_same; auto; lia|].
  rewrite (proj2 (nth_error_None _ _)) by (rewrite put_length; lia). symmetry. apply nth_error_None. rewrite put_length. lia.
Qed.
Lemma closed_subs (D : nat -> Prop) s s' : (forall x, subs_of s' x = subs_of s x) -> closed D s -> closed D s'.
Proof.
  intros E C x p t Dx H I. assert (I' : In t (subs_of s x)) by (rewrite <- E; unfold subs_of; rewrite H; auto). unfold subs_of in I'.
  destruct (nth_error (opts s) x) as [q|] eqn:Q; [|destruct I']. exact (C x q t Dx Q I').
Qed.
Lemma subs_put o p c st x : nth_error (opts st) o = Some p -> subs_of (put_opt o (with_cur c p) st) x = subs_of st x.
Proof.
  intros H. unfold subs_of. cbn [opts put_opt]. destruct (Nat.eq_dec o x) as [<-|N]; [|now rewrite put_other].
  rewrite put_same by (apply nth_error_Some; congruence). now rewrite H.
Qed.
Definition local_sets (D : nat -> Prop) (sets : nat -> value -> state -> result * state) : Prop := forall o v s1 s2,
  D o -> length (opts s1) = length (opts s2) -> agree D s1 s2 -> closed D s1 ->
  fst (sets o v s1) = fst (sets o v s2) /\ agree D (snd (sets o v s1)) (snd (sets o v s2)) /\
  length (opts (snd (sets o v s1))) = length (opts s1) /\ length (opts (snd (sets o v s2))) = length (opts s1) /\ closed D (snd (sets o v s1)).
Lemma notify_local D sets : local_sets D sets -> forall subs o v k s1 s2,
  (forall s, In s subs -> match s with SChild c => D c | SUser _ => True | _ => False end) ->
  length (opts s1) = length (opts s2) -> agree D s1 s2 -> closed D s1 ->
  fst (notify sets o v k subs s1) = fst (notify sets o v k subs s2) /\ agree D (snd (notify sets o v k subs s1)) (snd (notify sets o v k subs s2)) /\
  length (opts (snd (notify sets o v k subs s1))) = length (opts s1) /\ length (opts (snd (notify sets o v k subs s2))) = length (opts s1) /\
  closed D (snd (notify sets o v k subs s1)).
Proof.
  intros K. induction subs as [|s subs IH]; intros o v k s1 s2 Q L A C; [cbn; auto|]. cbn [notify].
  assert (A1 : agree D (add_call (o, k, v) s1) (add_call (o, k, v) s2)) by exact A. assert (C1 : closed D (add_call (o, k, v) s1)) by exact C.
  assert (QS := Q s (or_introl eq_refl)). destruct s as [c|n|n|o' w]; try contradiction.
  - destruct (K c v (add_call (o, k, v) s1) (add_call (o, k, v) s2) QS L A1 C1) as (E1 & E2 & E3 & E4 & E5).
    destruct (sets c v (add_call (o, k, v) s1)) as [r1 t1]. destruct (sets c v (add_call (o, k, v) s2)) as [r2 t2]. cbn [fst snd] in *. subst r2.
    destruct r1; cbn [fst snd]; auto. cbn [opts add_call] in E3, E4.
    destruct (IH o v (S k) t1 t2) as (F1 & F2 & F3 & F4 & F5); auto; [intros s I; apply Q; now right|congruence|]. rewrite F3, F4. auto.
  - exact (IH o v (S k) (add_call (o, k, v) s1) (add_call (o, k, v) s2) (fun s I => Q s (or_intror I)) L A1 C1).
Qed.
Lemma set_current_local D f : local_sets D (set_current f).
Proof.
  induction f as [|f IH]; intros o v s1 s2 Do L A C; cbn [set_current]; [auto|]. rewrite <- (A o Do). destruct (nth_error (opts s1) o) as [p|] eqn:H; [|auto].
  destruct (same v (current p)); [auto|]. destruct (o_mut p); cbn [negb]; [|auto]. destruct (o_valid p v) as [w|]; [|auto].
  assert (A1 : agree D (put_opt o (with_cur (Some w) p) s1) (put_opt o (with_cur (Some w) p) s2)) by (apply agree_put; auto).
  assert (C1 : closed D (put_opt o (with_cur (Some w) p) s1)) by (eapply closed_subs; [intros x; apply subs_put; auto|auto]).
  assert (L1 : length (opts (put_opt o (with_cur (Some w) p) s1)) = length (opts s1)) by (cbn [opts put_opt]; apply put_length).
  assert (L2 : length (opts (put_opt o (with_cur (Some w) p) s2)) = length (opts s1)) by (cbn [opts put_opt]; rewrite put_length; auto).
  destruct (differs w (current p)); [|cbn [fst snd]; auto].
  destruct (notify_local D (set_current f) IH (o_subs p) o w 0 _ _ (fun s I => C o p s Do H I) (eq_trans L1 (eq_sym L2)) A1 C1) as (F1 & F2 & F3 & F4 & F5).
  rewrite L1 in F3, F4. auto.
Qed.

(** *** The options of config.py *)
Definition debug_family (x : nat) : bool := Nat.eqb x 1 || Nat.eqb x 2.
(** Which options are given a new value when the option [o] is. *)
Definition touches (o x : nat) : Prop := x = o \/ (o = 0 /\ debug_family x = true).
(** A round of notifications in which every child accepts the value. *)
Lemma notify_done sets v : (forall o v st, skel (snd (sets o v st)) = skel st) -> forall subs o k st,
  (forall s, In s subs -> loud s = false \/ exists c, s = SChild c /\ forall st0, skel st0 = skel st -> fst (sets c v st0) = Done) -> fst (notify sets o v k subs st) = Done.
Proof.
  intros K. induction subs as [|s subs IH]; intros o k st Q; [reflexivity|]. cbn [notify].
  destruct (Q s (or_introl eq_refl)) as [U|(c & -> & U)].
  - destruct s; try discriminate U. apply IH. intros s I. destruct (Q s (or_intror I)) as [|(c & -> & R)]; [now left|right; exists c; auto].
  - specialize (U (add_call (o, k, v) st) eq_refl). specialize (K c v (add_call (o, k, v) st)). destruct (sets c v (add_call (o, k, v) st)) as [r st2]. cbn [fst snd] in *. subst r.
    apply IH. intros s I. destruct (Q s (or_intror I)) as [|(c' & -> & R)]; [now left|right; exists c'; split; auto]. intros st0 E. apply R. rewrite E, K. reflexivity.
Qed.
Lemma skel_at st o : nth_error (skel st) o = option_map sk (nth_error (opts st) o).
Proof. unfold skel. apply nth_error_map. Qed.
Lemma quiet_in p s : In s (o_subs p) -> loud s = false \/ In s (snd (sk p)).
Proof. intros I. destruct (loud s) eqn:E; [right|now left]. unfold sk. cbn [snd]. apply filter_In. auto. Qed.
(** Setting an option that has no children. *)
Lemma leaf_done f c w st m valid : nth_error (skel st) c = Some (m, valid, []) -> m = true -> valid w <> None -> fst (set_current (S f) c w st) = Done.
Proof.
  intros H M V. rewrite skel_at in H. destruct (nth_error (opts st) c) as [p|] eqn:P; [|discriminate]. cbn [option_map] in H. unfold sk in H. injection H as E1 E2 E3. rewrite M in E1. clear M.
  cbn [set_current]. rewrite P. destruct (same w (current p)); [reflexivity|]. rewrite E1. cbn [negb]. rewrite E2. destruct (valid w) as [w'|]; [|congruence].
  destruct (differs w' (current p)); [|reflexivity]. apply notify_done; [apply set_current_skel|]. intros s I. destruct (quiet_in p s I) as [|J]; [now left|]. unfold sk in J. cbn [snd] in J. rewrite E3 in J. destruct J.
Qed.

Section Reached.
Variable kind : value -> pyval.
Variable truth : bool -> value.
Variables to_path to_float to_int to_str : value -> option value.
Hypothesis kind_truth : forall b, kind (truth b) = PBool b.
Let tb := to_bool kind truth.
Definition K : list (bool * (value -> option value) * list sub) :=
  [(true, tb, [SChild 1; SChild 2]); (true, tb, []); (true, tb, []); (true, to_path, []); (false, to_float, []); (true, tb, []);
   (true, to_int, []); (true, to_int, []); (true, to_int, []); (true, to_float, []); (true, to_str, []); (true, to_int, [])].
Definition config (st : state) : Prop := wf st /\ skel st = K.
Lemma config_reached env default later : let start := config_py kind truth to_path to_float to_int to_str env default in
  length (opts (run start)) = 12 -> Forall (fun x => is_new x = false) later -> config (run (start ++ later)).
Proof.
  intros start L F. split; [apply C46_reachable|]. unfold run in *. rewrite fold_left_app, later_skel by auto.
  rewrite news_skel; [reflexivity| |rewrite L; reflexivity]. repeat constructor.
Qed.
Lemma tb_truth v w : tb v = Some w -> tb w = Some w.
Proof. unfold tb, to_bool. destruct (boolean (kind v)) as [b|]; [|discriminate]. cbn. intros [= <-]. rewrite kind_truth. reflexivity. Qed.
Lemma config_at st o : config st -> o < 12 -> exists p m valid subs, nth_error (opts st) o = Some p /\ nth_error K o = Some (m, valid, subs) /\
  o_mut p = m /\ o_valid p = valid /\ filter loud (o_subs p) = subs.
Proof.
  intros [_ E] L. pose proof (skel_at st o) as S. rewrite E in S. destruct (nth_error (opts st) o) as [p|].
  - exists p, (o_mut p), (o_valid p), (filter loud (o_subs p)). split; [reflexivity|]. rewrite S. auto.
  - exfalso. cbn in S. apply nth_error_None in S. change (length K) with 12 in S. lia.
Qed.
Lemma config_len st : config st -> length (opts st) = 12.
Proof. intros [_ E]. assert (X : length (skel st) = 12) by now rewrite E. unfold skel in X. now rewrite map_length in X. Qed.
Lemma K_subs o m valid subs s : nth_error K o = Some (m, valid, subs) -> In s subs -> o = 0 /\ (s = SChild 1 \/ s = SChild 2).
Proof.
  intros H I. do 12 (destruct o as [|o]; [cbn in H; injection H as <- <- <-; cbn in I; solve [contradiction | intuition congruence]|]). cbn in H. destruct o; discriminate H.
Qed.
Lemma config_subs st x s : config st -> In s (subs_of st x) -> loud s = false \/ (x = 0 /\ (s = SChild 1 \/ s = SChild 2)).
Proof.
  intros C I. unfold subs_of in I. destruct (nth_error (opts st) x) as [p|] eqn:P; [|destruct I].
  destruct (quiet_in p s I) as [|J]; [now left|]. right. pose proof (skel_at st x) as S. rewrite P, (proj2 C) in S. cbn [option_map] in S. unfold sk in S.
  unfold sk in J. cbn [snd] in J. exact (K_subs _ _ _ _ s S J).
Qed.
Lemma config_desc st o x : config st -> desc (subs_of st) o x -> touches o x.
Proof.
  intros C. induction 1 as [o|o c x I D IH]; [now left|]. destruct (config_subs st o _ C I) as [|(-> & [E|E])]; [discriminate| |]; injection E as ->.
  - destruct IH as [->|[X _]]; [|discriminate]. right. auto.
  - destruct IH as [->|[X _]]; [|discriminate]. right. auto.
Qed.
Lemma config_closed st o : config st -> closed (touches o) st.
Proof.
  intros C x p s T H I. assert (I' : In s (subs_of st x)) by (unfold subs_of; now rewrite H). destruct (config_subs st x s C I') as [L|(-> & E)]; [destruct s; try discriminate L; exact Logic.I|].
  assert (O : o = 0) by (destruct T as [<-|[-> _]]; auto). subst o. destruct E as [-> | ->]; right; auto.
Qed.

(** The value [v] was accepted by the option [o] and is its value now, as the validator gave it. *)
Definition accepted (st : state) (o : nat) (v : value) : Prop :=
  exists p, nth_error (opts st) o = Some p /\ (v = current p \/ (o_mut p = true /\ o_valid p v <> None)).
Definition takes (st st' : state) (o : nat) (v : value) : Prop :=
  exists p w, nth_error (opts st) o = Some p /\ cur_of st' o = Some w /\ ((v = current p /\ w = v) \/ (v <> current p /\ o_mut p = true /\ o_valid p v = Some w)).
Lemma set_config o v st : config st -> o < 12 -> let st' := snd (set o v st) in
  config st' /\ (forall x, ~ touches o x -> nth_error (opts st') x = nth_error (opts st) x) /\
  (fst (set o v st) = Done <-> accepted st o v) /\ (fst (set o v st) = Done -> takes st st' o v) /\ (fst (set o v st) <> Done -> st' = st).
Proof.
  intros C L st'. assert (LN := config_len st C). destruct (config_at st o C L) as (p & m & valid & subs & P & KO & M & V & F).
  assert (E := proj1 (set_current_ext (S (length (opts st))) o v st (proj1 C) ltac:(lia) ltac:(lia))). fold (set o v st) in E. fold st' in E.
  assert (C' : config st') by (split; [eapply ext_wf; [exact E|exact (proj1 C)]|unfold st'; rewrite set_skel; exact (proj2 C)]).
  split; [exact C'|]. split.
  { intros x T. destruct (nth_error (opts st) x) as [q|] eqn:Q.
    - destruct (ext_opt _ _ _ E x q Q) as (c & -> & N). rewrite N; [now rewrite with_cur_same|]. intros D. exact (T (config_desc st o x C D)).
    - apply nth_error_None in Q. apply nth_error_None. rewrite (ext_len _ _ _ E). exact Q. }
  assert (DN : same v (current p) = false -> o_mut p = true -> forall w, o_valid p v = Some w -> fst (set o v st) = Done).
  { intros S MM w W. unfold set. cbn [set_current]. rewrite P, S, MM. cbn [negb]. rewrite W. destruct (differs w (current p)); [|reflexivity].
    apply notify_done; [apply set_current_skel|]. intros s I. destruct (quiet_in p s I) as [|J]; [now left|]. unfold sk in J. cbn [snd] in J. rewrite F in J.
    destruct (K_subs _ _ _ _ s KO J) as (-> & SC). right. cbn in KO. injection KO as <- <- <-. rewrite LN.
    assert (TB : tb w <> None) by (rewrite V in W; rewrite (tb_truth _ _ W); discriminate).
    destruct SC as [-> | ->]; eexists; (split; [reflexivity|]); intros st0 E0; (eapply leaf_done; [rewrite E0, skel_put with (p := p); [|exact P|reflexivity]; rewrite (proj2 C); reflexivity|reflexivity|exact TB]). }
  destruct (C46_set st o v p (proj1 C) P) as (A1 & A2 & A3 & A4). fold st' in A1, A2, A3, A4.
  destruct (same v (current p)) eqn:S.
  - apply same_iff in S. destruct (A1 S) as [R1 R2]. split; [split; auto; intros _; exists p; auto|]. split; [|intros X; contradiction]. intros _. exists p, v.
    split; [auto|]. rewrite R2. unfold cur_of. rewrite P. cbn. rewrite <- S. auto.
  - assert (S' := S). apply same_not in S'. destruct (o_mut p) eqn:MM.
    + destruct (o_valid p v) as [w|] eqn:W.
      * specialize (DN eq_refl eq_refl w eq_refl). split; [split; auto; intros _; exists p; split; auto; right; split; auto; congruence|]. split; [|intros X; contradiction].
        intros _. exists p, w. split; [auto|]. split; [|auto]. destruct (A4 w S' eq_refl eq_refl) as (_ & B1 & B2).
        destruct (Nat.eq_dec (v_val w) (v_val (current p))) as [Q|Q]; [apply B1; auto|apply B2; auto].
      * destruct (A3 S' eq_refl eq_refl) as [R1 R2]. rewrite R1. split; [split; [discriminate|]|split; [discriminate|auto]]. intros (p' & P' & Q). rewrite P in P'. injection P' as <-.
        destruct Q as [Q|[_ Q]]; congruence.
    + destruct (A2 S' eq_refl) as [R1 R2]. rewrite R1. split; [split; [discriminate|]|split; [discriminate|auto]]. intros (p' & P' & Q). rewrite P in P'. injection P' as <-.
      destruct Q as [Q|[Q _]]; congruence.
Qed.
Lemma set_local o v s1 s2 : config s1 -> config s2 -> agree (touches o) s1 s2 ->
  fst (set o v s1) = fst (set o v s2) /\ agree (touches o) (snd (set o v s1)) (snd (set o v s2)).
Proof.
  intros C1 C2 A. unfold set. rewrite (config_len _ C1), (config_len _ C2).
  assert (L : length (opts s1) = length (opts s2)) by now rewrite (config_len _ C1), (config_len _ C2).
  destruct (set_current_local (touches o) 13 o v s1 s2 (or_introl eq_refl) L A (config_closed _ _ C1)) as (E1 & E2 & _). auto.
Qed.

(** ** C90 *)
(** Two settings are about different things: they are not for the same option, nor one for [debug] and the other for one of the
    checks, [check_vdom_spec] and [check_json_attrs], which follow it. *)
Definition follows (n m : string) : Prop := upper n = "DEBUG" /\ (upper m = "CHECK_VDOM_SPEC" \/ upper m = "CHECK_JSON_ATTRS").
Definition apart (a b : string * value) : Prop := upper (fst a) <> upper (fst b) /\ ~ follows (fst a) (fst b) /\ ~ follows (fst b) (fst a).
(** The setting is known and its value accepted by the option. *)
Definition fits (st : state) (a : string * value) : Prop := exists o, option_of (fst a) = Some o /\ accepted st o (snd a).

Lemma append_inj p a b : (p ++ a)%string = (p ++ b)%string -> a = b.
Proof. induction p as [|c p IH]; cbn; auto. intros [= H]. auto. Qed.
Lemma find_name_in n l o : find_name n l = Some o -> In (n, o) l.
Proof. induction l as [|[m x] l IH]; cbn [find_name]; [discriminate|]. destruct (String.eqb n m) eqn:E; [apply String.eqb_eq in E; intros [= ->]; subst; now left|right; auto]. Qed.
Lemma option_of_range n o : option_of n = Some o -> o < 12.
Proof. intros H. apply find_name_in in H. unfold names in H. cbn in H. repeat (destruct H as [H|H]; [injection H as _ <-; lia|]). destruct H. Qed.
Lemma names_once n m o : In (n, o) names -> In (m, o) names -> n = m.
Proof.
  intros H1 H2. assert (N : NoDup (map snd names)) by (vm_compute; repeat constructor; cbn; intuition discriminate).
  revert N H1 H2. generalize names. induction l as [|[a x] l IH]; cbn; [tauto|]. intros N. inversion N; subst. intros [E1|I1] [E2|I2].
  - congruence.
  - injection E1 as -> ->. exfalso. apply H1. apply in_map_iff. exists (m, o). auto.
  - injection E2 as -> ->. exfalso. apply H1. apply in_map_iff. exists (n, o). auto.
  - auto.
Qed.
Lemma option_name n o x : option_of n = Some o -> In (("REACTPY_" ++ x)%string, o) names -> upper n = x.
Proof. intros H I. apply find_name_in in H. pose proof (names_once _ _ _ H I) as E. now apply append_inj in E. Qed.
Lemma apart_touch a b o o' : apart a b -> option_of (fst a) = Some o -> option_of (fst b) = Some o' -> forall x, touches o x -> ~ touches o' x.
Proof.
  intros (A1 & A2 & A3) H1 H2 x T T'.
  assert (Q : forall n m i j, option_of n = Some i -> option_of m = Some j -> i = 0 -> debug_family j = true -> follows n m).
  { intros n m i j N M -> F. split; [apply (option_name n 0); [auto|now left]|]. unfold debug_family in F. apply orb_true_iff in F. destruct F as [F|F]; apply Nat.eqb_eq in F; subst j.
    - left. apply (option_name m 1); [auto|right; now left].
    - right. apply (option_name m 2); [auto|right; right; now left]. }
  destruct T as [->|[-> F]]; destruct T' as [T'|[T' F']].
  - subst o'. apply A1. apply find_name_in in H1, H2. eapply append_inj. eapply names_once; eauto.
  - apply A3. eapply Q; eauto.
  - subst x. apply A2. eapply Q; eauto.
  - subst o'. apply A1. apply find_name_in in H1, H2. eapply append_inj. eapply names_once; eauto.
Qed.
Lemma accepted_agree o v s1 s2 : nth_error (opts s1) o = nth_error (opts s2) o -> accepted s1 o v -> accepted s2 o v.
Proof. intros E (p & H & A). exists p. rewrite <- E. auto. Qed.
Lemma process_config s : forall st, config st -> config (snd (process s st)).
Proof.
  induction s as [|[n v] s IH]; intros st C; [exact C|]. cbn [process]. destruct (option_of n) as [o|] eqn:O; [|exact C].
  destruct (set_config o v st C (option_of_range _ _ O)) as [C' _]. destruct (set o v st) as [r st']. cbn [snd] in C'. destruct r; auto.
Qed.
Lemma cur_at s1 s2 x : nth_error (opts s1) x = nth_error (opts s2) x -> cur_of s1 x = cur_of s2 x.
Proof. unfold cur_of. now intros ->. Qed.
Lemma debug_set v st p w : config st -> nth_error (opts st) 0 = Some p -> v <> current p -> o_valid p v = Some w -> v_val w <> v_val (current p) ->
  forall c, debug_family c = true -> cur_of (snd (set 0 v st)) c = Some w.
Proof.
  intros C P N V D c F. destruct (config_at st 0 C ltac:(lia)) as (p' & m & valid & subs & P' & KO & M & VV & FF). rewrite P in P'. injection P' as <-. cbn in KO. injection KO as <- <- <-.
  destruct (set_config 0 v st C ltac:(lia)) as (_ & _ & A & _). assert (DN : fst (set 0 v st) = Done) by (apply A; exists p; split; [auto|right; split; [auto|congruence]]).
  destruct (C46_set st 0 v p (proj1 C) P) as (_ & _ & _ & A4). destruct (A4 w N M V) as (_ & _ & B). destruct (B D DN) as (_ & _ & T).
  assert (I : In (SChild c) (o_subs p)).
  { apply (filter_In loud). rewrite FF. unfold debug_family in F. apply orb_true_iff in F. destruct F as [F|F]; apply Nat.eqb_eq in F; subst c; cbn; auto. }
  destruct (T c I) as (q & w' & Q & E & R). rewrite E. f_equal. destruct R as [R|R]; [auto|].
  assert (LC : c < 12) by (unfold debug_family in F; apply orb_true_iff in F; destruct F as [F|F]; apply Nat.eqb_eq in F; lia).
  destruct (config_at st c C LC) as (q' & m & valid & subs & Q' & KO & _ & VQ & _). rewrite Q in Q'. injection Q' as <-.
  assert (VT : valid = tb). { unfold debug_family in F; apply orb_true_iff in F; destruct F as [F|F]; apply Nat.eqb_eq in F; subst c; cbn in KO; congruence. }
  rewrite VT in VQ. rewrite VQ in R. rewrite VV in V. rewrite (tb_truth _ _ V) in R. congruence.
Qed.
Lemma process_all s : forall st, config st -> ForallOrdPairs apart s -> let st' := snd (process s st) in
  (fst (process s st) = Done <-> Forall (fits st) s) /\
  (fst (process s st) = Done ->
     (forall a o, In a s -> option_of (fst a) = Some o -> takes st st' o (snd a)) /\
     (forall x, (forall a o, In a s -> option_of (fst a) = Some o -> ~ touches o x) -> nth_error (opts st') x = nth_error (opts st) x) /\
     (forall a p w, In a s -> option_of (fst a) = Some 0 -> nth_error (opts st) 0 = Some p -> snd a <> current p -> o_valid p (snd a) = Some w -> v_val w <> v_val (current p) ->
        forall c, debug_family c = true -> cur_of st' c = Some w)).
Proof.
  induction s as [|[n v] s IH]; intros st C F st'.
  { cbn in *. split; [split; auto|]. intros _. split; [tauto|]. split; auto. intros; contradiction. }
  inversion F as [|a l FA FS]; subst a l. unfold st'. cbn [process]. destruct (option_of n) as [o|] eqn:O.
  2:{ cbn [fst snd]. split; [split; [discriminate|]|discriminate]. intros X. inversion X as [|a l (o & O' & _) _]; subst. cbn [fst] in O'. congruence. }
  assert (L := option_of_range _ _ O). destruct (set_config o v st C L) as (C1 & U & A & T & _). destruct (set o v st) as [r st1] eqn:SE. cbn [fst snd] in *.
  destruct r; try (cbn [fst snd]; split; [split; [discriminate|]|discriminate]; intros X; inversion X as [|a l (o' & O' & AC) _]; subst; cbn [fst snd] in O', AC; rewrite O in O'; injection O' as <-; apply A in AC; discriminate).
  assert (EQ : forall b o', In b s -> option_of (fst b) = Some o' -> nth_error (opts st1) o' = nth_error (opts st) o').
  { intros b o' I O'. apply U. intros X. rewrite Forall_forall in FA. refine (apart_touch _ _ _ _ (FA b I) O O' o' X _). now left. }
  destruct (IH st1 C1 FS) as (I1 & I2). split.
  { rewrite I1. split.
    - intros X. constructor; [exists o; split; auto; apply A; reflexivity|]. rewrite Forall_forall in *. intros b I. destruct (X b I) as (o' & O' & AC). exists o'. split; auto.
      eapply accepted_agree; [|exact AC]. apply (EQ b); auto.
    - intros X. inversion X as [|a l _ X']; subst. rewrite Forall_forall in *. intros b I. destruct (X' b I) as (o' & O' & AC). exists o'. split; auto.
      eapply accepted_agree; [|exact AC]. symmetry. apply (EQ b); auto. }
  intros DN. destruct (I2 DN) as (J1 & J2 & J3).
  assert (HEAD : forall x, touches o x -> nth_error (opts (snd (process s st1))) x = nth_error (opts st1) x).
  { intros x TX. apply J2. intros b o' I O' TX'. rewrite Forall_forall in FA. exact (apart_touch _ _ _ _ (FA b I) O O' x TX TX'). }
  split; [|split].
  - intros a o' [<-|I] O'.
    + cbn [fst snd] in *. rewrite O in O'. injection O' as <-. destruct (T eq_refl) as (p & w & P & CU & R). exists p, w. split; [auto|]. split; [|auto].
      rewrite <- CU. apply cur_at. apply HEAD. now left.
    + destruct (J1 a o' I O') as (p & w & P & CU & R). exists p, w. split; [rewrite <- (EQ a o' I O'); auto|auto].
  - intros x X. rewrite J2; [apply U; apply (X (n, v)); auto; now left|]. intros b o' I. apply X. now right.
  - intros a p w [<-|I] O' P N V D c FC.
    + cbn [fst snd] in *. rewrite O in O'. injection O' as ->. rewrite (cur_at _ st1 c); [|apply HEAD; right; auto]. pose proof (debug_set v st p w C P N V D c FC) as DS. rewrite SE in DS. exact DS.
    + refine (J3 a p w I O' _ N V D c FC). rewrite (EQ a 0 I O'). exact P.
Qed.

(** *** The order of the settings *)
Lemma nth_ext_eq {A} (l : list A) : forall l', (forall x, nth_error l x = nth_error l' x) -> l = l'.
Proof.
  induction l as [|a l IH]; intros [|b l'] H; auto; try (specialize (H 0); discriminate H). f_equal; [specialize (H 0); cbn in H; congruence|]. apply IH. intros x. exact (H (S x)).
Qed.
Lemma touches_dec o x : touches o x \/ ~ touches o x.
Proof. unfold touches. destruct (Nat.eq_dec x o); [tauto|]. destruct (Nat.eq_dec o 0); [|tauto]. destruct (debug_family x) eqn:E; [tauto|]. right. intros [?|[_ ?]]; [auto|discriminate]. Qed.
Lemma set_same o v s1 s2 : config s1 -> config s2 -> o < 12 -> opts s1 = opts s2 -> fst (set o v s1) = fst (set o v s2) /\ opts (snd (set o v s1)) = opts (snd (set o v s2)).
Proof.
  intros C1 C2 L E. destruct (set_local o v s1 s2 C1 C2) as [F A]; [intros x _; now rewrite E|]. split; [auto|]. apply nth_ext_eq. intros x.
  destruct (touches_dec o x) as [T|T]; [auto|]. destruct (set_config o v s1 C1 L) as (_ & U1 & _). destruct (set_config o v s2 C2 L) as (_ & U2 & _). rewrite U1, U2 by auto. now rewrite E.
Qed.
Lemma process_same s : forall s1 s2, config s1 -> config s2 -> opts s1 = opts s2 -> fst (process s s1) = fst (process s s2) /\ opts (snd (process s s1)) = opts (snd (process s s2)).
Proof.
  induction s as [|[n v] s IH]; intros s1 s2 C1 C2 E; [cbn; auto|]. cbn [process]. destruct (option_of n) as [o|] eqn:O; [|cbn; auto]. assert (L := option_of_range _ _ O).
  destruct (set_same o v s1 s2 C1 C2 L E) as [F G]. destruct (set_config o v s1 C1 L) as (D1 & _). destruct (set_config o v s2 C2 L) as (D2 & _).
  destruct (set o v s1) as [r1 t1]. destruct (set o v s2) as [r2 t2]. cbn [fst snd] in *. subst r2. destruct r1; cbn [fst snd]; auto.
Qed.
Lemma swap a b st : config st -> apart a b -> fst (process [a; b] st) = Done -> fst (process [b; a] st) = Done /\ opts (snd (process [b; a] st)) = opts (snd (process [a; b] st)).
Proof.
  destruct a as [n v]. destruct b as [m w]. intros C AP H. cbn [process] in *. destruct (option_of n) as [oa|] eqn:OA; [|discriminate H]. assert (LA := option_of_range _ _ OA).
  destruct (set_config oa v st C LA) as (CA & UA & _). destruct (set oa v st) as [ra sa] eqn:EA. cbn [fst snd] in CA, UA. destruct ra; try discriminate H.
  destruct (option_of m) as [ob|] eqn:OB; [|discriminate H]. assert (LB := option_of_range _ _ OB).
  assert (TT := apart_touch _ _ _ _ AP OA OB).
  destruct (set_config ob w sa CA LB) as (CAB & UAB & _). destruct (set_config ob w st C LB) as (CB & UB & _).
  destruct (set_local ob w sa st CA C) as [FB AB]; [intros x T; apply UA; intros T'; exact (TT x T' T)|].
  destruct (set ob w sa) as [rab sab]. destruct (set ob w st) as [rb sb] eqn:EB. cbn [fst snd] in *. subst rb. destruct rab; try discriminate H.
  destruct (set_config oa v sb CB LA) as (CBA & UBA & _). destruct (set_local oa v sb st CB C) as [FA AA]; [intros x T; apply UB; intros T'; exact (TT x T T')|].
  rewrite EA in FA, AA. destruct (set oa v sb) as [rba sba]. cbn [fst snd] in *. subst rba. split; [reflexivity|]. cbn [snd]. apply nth_ext_eq. intros x.
  destruct (touches_dec oa x) as [T|T].
  - rewrite (AA x T). symmetry. apply UAB. exact (TT x T).
  - destruct (touches_dec ob x) as [T'|T'].
    + rewrite UBA by auto. symmetry. exact (AB x T').
    + rewrite UBA, UB, UAB, UA by auto. reflexivity.
Qed.
Lemma process_app s1 s2 st : process (s1 ++ s2) st = match process s1 st with (Done, st') => process s2 st' | r => r end.
Proof.
  revert st. induction s1 as [|[n v] s1 IH]; intros st; [reflexivity|]. cbn [app process]. destruct (option_of n) as [o|]; [|reflexivity]. destruct (set o v st) as [r st']. destruct r; auto.
Qed.
Lemma apart_sym a b : apart a b -> apart b a.
Proof. unfold apart. intuition congruence. Qed.
Lemma pairs_perm {A} (R : A -> A -> Prop) : (forall a b, R a b -> R b a) -> forall l l', Permutation l l' -> ForallOrdPairs R l -> ForallOrdPairs R l'.
Proof.
  intros S. induction 1 as [|x l l' P IH|x y l|l1 l2 l3 P1 IH1 P2 IH2]; intros F; auto.
  - inversion F; subst. constructor; auto. rewrite Forall_forall in *. intros y I. apply H1. eapply Permutation_in; [apply Permutation_sym; exact P|auto].
  - inversion F as [|? ? F1 F2]; subst. inversion F2 as [|? ? F3 F4]; subst. inversion F1; subst. constructor; [constructor; auto|]. constructor; auto.
Qed.
Lemma process_perm s s' : Permutation s s' -> forall st, config st -> ForallOrdPairs apart s -> fst (process s st) = Done ->
  fst (process s' st) = Done /\ opts (snd (process s' st)) = opts (snd (process s st)).
Proof.
  induction 1 as [|[n v] l l' P IH|a b l|l1 l2 l3 P1 IH1 P2 IH2]; intros st C F D.
  - auto.
  - cbn [process] in *. destruct (option_of n) as [o|] eqn:O; [|discriminate D]. destruct (set_config o v st C (option_of_range _ _ O)) as (C1 & _).
    destruct (set o v st) as [r st1]. cbn [snd] in C1. destruct r; try discriminate D. inversion F; subst. apply IH; auto.
  - inversion F as [|? ? F1 F2]; subst. inversion F1; subst. assert (AP : apart b a) by auto. change (b :: a :: l) with ([b; a] ++ l) in *. change (a :: b :: l) with ([a; b] ++ l). rewrite process_app in *.
    assert (D1 : fst (process [b; a] st) = Done) by (destruct (process [b; a] st) as [r s1]; destruct r; auto; discriminate D).
    destruct (swap b a st C AP D1) as [D2 E2]. assert (K1 := process_config [b; a] st C). assert (K2 := process_config [a; b] st C). rewrite process_app.
    destruct (process [b; a] st) as [r1 t1]. destruct (process [a; b] st) as [r2 t2]. cbn [fst snd] in *. subst r1 r2. destruct (process_same l t2 t1 K2 K1 E2) as [G1 G2]. rewrite G1. auto.
  - destruct (IH1 st C F D) as [D1 E1]. assert (F2 : ForallOrdPairs apart l2) by (eapply pairs_perm; [exact apart_sym|exact P1|auto]). destruct (IH2 st C F2 D1) as [D2 E2]. split; [auto|congruence].
Qed.
Lemma process_fails s : forall st e st', process s st = (Raised e, st') -> config st ->
  exists s1 a s2 st1, s = s1 ++ a :: s2 /\ process s1 st = (Done, st1) /\ ~ fits st1 a /\ st' = st1.
Proof.
  induction s as [|[n v] s IH]; intros st e st' H C; [discriminate H|]. cbn [process] in H. destruct (option_of n) as [o|] eqn:O.
  2:{ injection H as _ <-. exists [], (n, v), s, st. split; [reflexivity|]. split; [reflexivity|]. split; [|reflexivity]. intros (o & O' & _). cbn [fst] in O'. congruence. }
  destruct (set_config o v st C (option_of_range _ _ O)) as (C1 & _ & A & _ & R). destruct (set o v st) as [r st1] eqn:SE. cbn [fst snd] in *. destruct r.
  - destruct (IH st1 e st' H C1) as (s1 & a & s2 & st2 & E & P & NF & Q). exists ((n, v) :: s1), a, s2, st2. split; [now rewrite E|]. split; [|auto]. cbn [process]. now rewrite O, SE.
  - injection H as _ <-. exists [], (n, v), s, st. split; [reflexivity|]. split; [reflexivity|]. split; [|apply R; discriminate]. intros (o' & O' & AC). cbn [fst snd] in *. rewrite O in O'. injection O' as <-. apply A in AC. discriminate.
  - discriminate H.
Qed.
End Reached.

(** A state after the import of config.py, if no option was refused, and any later use of the options. *)
Definition reached kind truth to_path to_float to_int to_str (st : state) : Prop := exists env default later,
  let start := config_py kind truth to_path to_float to_int to_str env default in
  length (opts (run start)) = 12 /\ Forall (fun x => is_new x = false) later /\ st = run (start ++ later).
Lemma reached_config kind truth tp tf ti ts st : reached kind truth tp tf ti ts st -> config kind truth tp tf ti ts st.
Proof. intros (env & default & later & L & F & ->). now apply config_reached. Qed.

(** Settings about different things are processed without error exactly if each is known and its value accepted. Then each
    option named has the value of its setting, validated; the two checks have the value of [debug] if that has changed; and all
    other options are as before. *)
Theorem C90_settings kind truth tp tf ti ts st s : (forall b, kind (truth b) = PBool b) -> reached kind truth tp tf ti ts st ->
  ForallOrdPairs apart s -> let st' := snd (process s st) in
  (fst (process s st) = Done <-> Forall (fits st) s) /\
  (fst (process s st) = Done ->
     (forall n v, In (n, v) s -> exists o, option_of n = Some o /\ takes st st' o v) /\
     (forall n v p w, In (n, v) s -> upper n = "DEBUG" -> nth_error (opts st) 0 = Some p -> v <> current p -> o_valid p v = Some w -> v_val w <> v_val (current p) ->
        cur_of st' 1 = Some w /\ cur_of st' 2 = Some w) /\
     (forall x, (forall n v, In (n, v) s -> option_of n <> Some x /\ ((x = 1 \/ x = 2) -> upper n <> "DEBUG")) -> cur_of st' x = cur_of st x)).
Proof.
  intros KT R F st'. apply reached_config in R. destruct (process_all kind truth tp tf ti ts KT s st R F) as [A B]. fold st' in A, B. split; [exact A|]. intros D.
  destruct (B D) as (B1 & B2 & B3). apply A in D. rewrite Forall_forall in D. split; [|split].
  - intros n v I. destruct (D _ I) as (o & O & _). exists o. split; [exact O|]. exact (B1 _ o I O).
  - intros n v p w I U P N V DF. assert (O : option_of n = Some 0) by (unfold option_of; now rewrite U). split; apply (B3 (n, v) p w I O P N V DF); reflexivity.
  - intros x X. apply cur_at, B2. intros [n v] o I O. cbn [fst] in O. destruct (X n v I) as [X1 X2]. intros [->|[-> FX]]; [contradiction|].
    assert (U : upper n = "DEBUG") by (eapply option_name; [exact O|now left]). apply X2; [|exact U]. unfold debug_family in FX. apply orb_true_iff in FX. rewrite !Nat.eqb_eq in FX. exact FX.
Qed.
Print Assumptions C90_settings.

(** Their order does not matter. *)
Theorem C90_order kind truth tp tf ti ts st s s' : (forall b, kind (truth b) = PBool b) -> reached kind truth tp tf ti ts st ->
  ForallOrdPairs apart s -> Permutation s s' -> fst (process s st) = Done ->
  fst (process s' st) = Done /\ forall x, cur_of (snd (process s' st)) x = cur_of (snd (process s st)) x.
Proof.
  intros KT R F P D. apply reached_config in R. destruct (process_perm kind truth tp tf ti ts KT s s' P st R F D) as [A B]. split; [exact A|]. intros x. apply cur_at. now rewrite B.
Qed.
Print Assumptions C90_order.

(** When a setting is refused, nothing of it and of the settings after it is applied; but those before it are (see below). *)
Theorem C90_refused_partial kind truth tp tf ti ts st s e st' : (forall b, kind (truth b) = PBool b) -> reached kind truth tp tf ti ts st ->
  process s st = (Raised e, st') -> exists s1 n v s2, s = s1 ++ (n, v) :: s2 /\ process s1 st = (Done, st') /\ ~ fits st' (n, v).
Proof.
  intros KT R H. apply reached_config in R. destruct (process_fails kind truth tp tf ti ts KT s st e st' H R) as (s1 & [n v] & s2 & st1 & E & P & NF & ->). exists s1, n, v, s2. auto.
Qed.
Print Assumptions C90_refused_partial.

(** What a value says about a switch: [True] and [False], numbers other than 0 and 0, and the words, in letters of any case. *)
Inductive says : pyval -> bool -> Prop :=
| says_bool b : says (PBool b) b
| says_zero : says (PInt 0) false
| says_number n : n <> 0%Z -> says (PInt n) true
| says_true s : In (lower s) ["true"; "1"] -> says (PStr s) true
| says_false s : In (lower s) ["false"; "0"] -> says (PStr s) false.
Lemma boolean_says v b : boolean v = Some b <-> says v b.
Proof.
  assert (E : forall s l, existsb (String.eqb (lower s)) l = true <-> In (lower s) l).
  { intros s l. rewrite existsb_exists. split; [intros (x & I & Q); apply String.eqb_eq in Q; now subst|intros I; exists (lower s); split; [exact I|apply String.eqb_refl]]. }
  destruct v as [c|n|s|]; cbn [boolean].
  - split; [intros [= <-]; constructor|now inversion 1].
  - destruct (Z.eqb_spec n 0) as [->|N]; cbn; split; try (intros [= <-]; now constructor); inversion 1; subst; auto; contradiction.
  - pose proof (E s ["true"; "1"]) as T. pose proof (E s ["false"; "0"]) as F.
    destruct (existsb (String.eqb (lower s)) ["true"; "1"]); [|destruct (existsb (String.eqb (lower s)) ["false"; "0"])].
    + split; [intros [= <-]; apply says_true; now apply T|]. inversion 1 as [| | |x I Q|x I Q]; subst; [reflexivity|].
      exfalso. destruct (proj1 T eq_refl) as [A|[A|[]]]; destruct I as [B|[B|[]]]; rewrite <- A in B; discriminate.
    + split; [intros [= <-]; apply says_false; now apply F|]. inversion 1 as [| | |x I Q|x I Q]; subst; [apply T in I; discriminate|reflexivity].
    + split; [discriminate|]. inversion 1 as [| | |x I Q|x I Q]; subst; [apply T in I|apply F in I]; discriminate.
  - split; [discriminate|now inversion 1].
Qed.
(** The settings that are switches take what the value says and refuse values that say neither. *)
Theorem C90_switches kind truth tp tf ti ts st n v o : (forall b, kind (truth b) = PBool b) -> reached kind truth tp tf ti ts st ->
  In (upper n, o) [("DEBUG", 0); ("CHECK_VDOM_SPEC", 1); ("CHECK_JSON_ATTRS", 2); ("ASYNC_RENDERING", 5)] -> cur_of st o <> Some v ->
  (fst (process [(n, v)] st) = Done <-> exists b, says (kind v) b) /\
  (forall b, says (kind v) b -> cur_of (snd (process [(n, v)] st)) o = Some (truth b)).
Proof.
  intros KT R I N. apply reached_config in R. assert (O : option_of n = Some o /\ o < 12).
  { unfold option_of. destruct I as [I|[I|[I|[I|[]]]]]; injection I as <- <-; split; try reflexivity; lia. }
  destruct O as [O L]. destruct (config_at kind truth tp tf ti ts st o R L) as (p & m & valid & subs & P & KO & M & V & _).
  assert (MV : m = true /\ valid = to_bool kind truth) by (destruct I as [I|[I|[I|[I|[]]]]]; injection I as _ <-; cbn in KO; injection KO as <- <- _; auto).
  destruct MV as [-> ->]. assert (NC : v <> current p) by (unfold cur_of in N; rewrite P in N; cbn in N; congruence).
  destruct (set_config kind truth tp tf ti ts KT o v st R L) as (_ & _ & A & T & _).
  assert (PR : fst (process [(n, v)] st) = fst (set o v st) /\ snd (process [(n, v)] st) = snd (set o v st)).
  { cbn [process]. rewrite O. destruct (set o v st) as [[| |] x]; auto. }
  destruct PR as [-> ->].
  assert (S : forall b, says (kind v) b -> o_valid p v = Some (truth b)) by (intros b Q; rewrite V; unfold to_bool; apply boolean_says in Q; now rewrite Q).
  assert (D : fst (set o v st) = Done <-> exists b, says (kind v) b).
  { rewrite A. unfold accepted. split.
    - intros (q & Q & [X|[_ X]]); rewrite P in Q; injection Q as <-; [contradiction|]. rewrite V in X. unfold to_bool in X.
      destruct (boolean (kind v)) as [b|] eqn:E; [exists b; now apply boolean_says|contradiction X; reflexivity].
    - intros [b Q]. exists p. split; [exact P|]. right. split; [exact M|]. rewrite (S b Q). discriminate. }
  split; [exact D|]. intros b Q. destruct (T (proj2 D (ex_intro _ b Q))) as (q & w & P' & C & X). rewrite P in P'. injection P' as <-.
  rewrite C. destruct X as [[X _]|(_ & _ & X)]; [contradiction|]. rewrite (S b Q) in X. now injection X as ->.
Qed.
Print Assumptions C90_switches.

(** A concrete interpretation of values: 0 and 1 are the truth values, 2 is the text "1". *)
Definition kind0 (v : value) : pyval := match v_val v with 0 => PBool false | 1 => PBool true | 2 => PStr "1" | _ => POther end.
Definition truth0 (b : bool) : value := if b then Val 1 1 else Val 0 0.
Definition start0 : state := run (config_py kind0 truth0 any any small any (fun _ => None) (fun _ => Val 0 0)).
Lemma start0_reached : reached kind0 truth0 any any small any start0.
Proof. exists (fun _ => None), (fun _ => Val 0 0), []. split; [reflexivity|]. split; [constructor|reflexivity]. Qed.
Lemma kind0_truth b : kind0 (truth0 b) = PBool b.
Proof. destruct b; reflexivity. Qed.

(** Finding: settings are not applied together or not at all. A constructor that raises because of one setting has already
    changed the options of the earlier ones, for the whole process. *)
Theorem C90_atomic_refuted : exists st s, reached kind0 truth0 any any small any st /\ ForallOrdPairs apart s /\
  fst (process s st) = Raised ValueErr /\ cur_of st 0 = Some (Val 0 0) /\ cur_of (snd (process s st)) 0 = Some (Val 1 1).
Proof.
  exists start0, [("debug", Val 1 1); ("max_queue_size", Val 50 50)]. split; [exact start0_reached|].
  split; [repeat constructor; unfold follows; cbn; intuition discriminate|]. vm_compute. auto.
Qed.
Print Assumptions C90_atomic_refuted.

(** Finding: for [debug] and its checks the order decides. *)
Theorem C90_order_refuted : exists st s s', reached kind0 truth0 any any small any st /\ Permutation s s' /\ NoDup (map fst s) /\
  fst (process s st) = Done /\ fst (process s' st) = Done /\ cur_of (snd (process s st)) 1 <> cur_of (snd (process s' st)) 1.
Proof.
  exists (snd (process [("check_vdom_spec", Val 1 1)] start0)), [("debug", Val 1 1); ("check_vdom_spec", Val 0 0)], [("check_vdom_spec", Val 0 0); ("debug", Val 1 1)].
  split.
  { exists (fun _ => None), (fun _ => Val 0 0), [OSet 1 (Val 1 1)]. split; [reflexivity|]. split; [repeat constructor|]. vm_compute. reflexivity. }
  split; [apply perm_swap|]. split; [repeat constructor; cbn; intuition discriminate|]. vm_compute. split; [reflexivity|]. split; [reflexivity|]. discriminate.
Qed.
Print Assumptions C90_order_refuted.

(** Finding: [tests_default_timeout] is among the settings ([ReactPyConfig], /repo/src/reactpy/types.py:1124-1134), but its option
    is not mutable, so that every other value is refused. *)
Theorem C90_timeout_refuted kind truth tp tf ti ts st v : (forall b, kind (truth b) = PBool b) -> reached kind truth tp tf ti ts st ->
  cur_of st 4 <> Some v -> process [("tests_default_timeout", v)] st = (Raised TypeErr, st).
Proof.
  intros KT R N. apply reached_config in R. destruct (config_at kind truth tp tf ti ts st 4 R ltac:(lia)) as (p & m & valid & subs & P & KO & M & _). cbn in KO. injection KO as <- <- <-.
  unfold cur_of in N. rewrite P in N. cbn in N. cbn [process]. change (option_of "tests_default_timeout") with (Some 4).
  destruct (C46_set st 4 v p (proj1 R) P) as (_ & A & _). destruct A as [A1 A2]; [congruence|exact M|]. destruct (set 4 v st) as [r st']. cbn [fst snd] in *. subst r st'. reflexivity.
Qed.
Print Assumptions C90_timeout_refuted.

Example C90_example :
  reached kind0 truth0 any any small any start0 /\ ForallOrdPairs apart [("debug", Val 9 2); ("path_prefix", Val 7 7); ("max_queue_size", Val 3 3)] /\
  let (r, st') := process [("debug", Val 9 2); ("path_prefix", Val 7 7); ("max_queue_size", Val 3 3)] start0 in
  r = Done /\ map (cur_of st') [0; 1; 2; 10; 11; 5] = map Some [Val 1 1; Val 1 1; Val 1 1; Val 7 7; Val 3 3; Val 0 0].
Proof. split; [exact start0_reached|]. split; [repeat constructor; unfold follows; cbn; intuition discriminate|]. vm_compute. auto. Qed.
Example C90_boolean : map boolean [PStr "True"; PStr "0"; PStr "yes"; PInt 7; PInt 0; PBool true; POther] = [Some true; Some false; None; Some true; Some false; Some true; None].
Proof. reflexivity. Qed.
Example C90_switch_cases : says (PStr "TRUE") true /\ says (PStr "0") false /\ (forall b, ~ says (PStr "yes") b) /\
  cur_of start0 5 <> Some (Val 9 2) /\ says (kind0 (Val 9 2)) true /\ cur_of (snd (process [("async_rendering", Val 9 2)] start0)) 5 = Some (truth0 true).
Proof.
  split; [apply says_true; now left|]. split; [apply says_false; right; now left|]. split; [intros b H; apply boolean_says in H; discriminate|].
  split; [vm_compute; discriminate|]. split; [apply boolean_says; reflexivity|]. vm_compute. reflexivity.
Qed.
