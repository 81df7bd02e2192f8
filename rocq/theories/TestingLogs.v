(** * The log assertions of [reactpy.testing]
    [capture_reactpy_logs], [assert_reactpy_did_log], [assert_reactpy_did_not_log], [list_logged_exceptions] (/repo/src/reactpy/testing/logs.py) and
    what [BackendFixture] does with them (testing/backend.py). A test is a list of statements with blocks inside blocks. Standard library only. *)
From Coq Require Import String Bool Arith Lia List.
Import ListNotations.

(** ** The program *)

(** [record.exc_info]: none; the three [None]s that [exc_info=True] gives when there is no exception; or an exception with its class, its text and the
    text of its traceback. *)
Inductive exc_info := NoInfo | Empty | Exc (class : nat) (text traceback : string).
(** A log record; [r_id] tells records apart. *)
Record record := Rec { r_id : nat; r_level : nat; r_message : string; r_exc : exc_info }.
(** The arguments of the assertions (logs.py:16-29): whether a text has a match for [match_message], the class, and [match_error] unless it is empty. *)
Record cond := Cond { c_message : string -> bool; c_type : option nat; c_error : option (string -> bool) }.
(** What comes out of a block: an assertion error of the module (a class of its own, logs.py:11-12) or another exception. *)
Inductive error := LogAssertion | Other (n : nat).
Inductive outcome := Completed | Raised (e : error).
(** For the statements about it: what happened, in order. *)
Inductive happening := Logged (r : record) | Opened | Closed | Listed (found : list record).
(** [_LOG_RECORD_CAPTOR.records]; whether it is among the handlers of the logger "reactpy"; the level of that logger; web servers at work. *)
Record state := State { s_records : list record; s_attached : bool; s_level : nat; s_servers : nat; s_trace : list happening }.
Definition start_at (level : nat) : state := State [] false level 0 [].

Section Code.
(** [issubclass]. *)
Variable sub : nat -> nat -> bool.
(** The condition of [assert_reactpy_did_log] (logs.py:38-60). *)
Definition hit (c : cond) (r : record) : bool :=
  c_message c (r_message r)
  && match c_type c with None => true | Some t => match r_exc r with Exc k _ _ => sub k t | _ => false end end
  && match c_error c with
     | None => true
     | Some p => match r_exc r with NoInfo => false | Empty => p "NoneType: None"%string | Exc _ _ tb => p tb end
     end.
(** The condition of [list_logged_exceptions] (logs.py:109-115). *)
Record wanted := Wanted { w_level : nat; w_type : nat; w_pattern : string -> bool }.
Definition listed (w : wanted) (r : record) : bool :=
  Nat.leb (w_level w) (r_level r) && match r_exc r with Exc k t _ => sub k (w_type w) && w_pattern w t | _ => false end.

(** [del l[n]]: an index below zero counts from the end; it raises if there is none, which does not happen here. *)
Definition del_at {A} (n : nat) (l : list A) : list A := firstn n l ++ skipn (S n) l.
(** The loop (logs.py:108-119): [enumerate] goes on with the next index of the list that is being changed. [fuel]: the length of the list. *)
Fixpoint sweep (p : record -> bool) (delete : bool) (fuel i : nat) (l found : list record) : list record * list record :=
  match fuel with
  | 0 => (found, l)
  | S fuel => match nth_error l i with
              | None => (found, l)
              | Some r => if p r then sweep p delete fuel (S i) (if delete then del_at (i - length found) l else l) (found ++ [r])
                          else sweep p delete fuel (S i) l found
              end
  end.
Definition list_logged (w : wanted) (delete : bool) (l : list record) : list record * list record :=
  sweep (listed w) delete (length l) 0 l [].

(** [capture_reactpy_logs] (logs.py:122-149): the list of records is the same one for all. What a block keeps: the level and, if the records are captured
    already, the number of records. *)
Definition enter (s : state) : state * (nat * option nat) :=
  (State (s_records s) true 10 (s_servers s) (s_trace s ++ [Opened]), (s_level s, if s_attached s then Some (length (s_records s)) else None)).
Definition leave (k : nat * option nat) (s : state) : state :=
  match snd k with
  | Some n => State (firstn n (s_records s)) (s_attached s) (fst k) (s_servers s) (s_trace s ++ [Closed])
  | None => State [] false (fst k) (s_servers s) (s_trace s ++ [Closed])
  end.

Inductive kind := Captures | DidLog (c : cond) | DidNotLog (c : cond) | Fixture.
(** A test: log something (anywhere below the logger "reactpy"); change the level ([REACTPY_DEBUG.current = ...], reactpy/logging.py:30-36); raise;
    list logged exceptions; a [BackendFixture] whose server does not start in ten seconds (backend.py:121-127); a [with] block. *)
Inductive stmt := Log (r : record) | SetLevel (n : nat) | Fail (e : error) | ListErrors (w : wanted) (delete : bool) | StartFails | Block (k : kind) (body : list stmt).

(** [logging]: a record below the level is not made; the captor takes every other one (logs.py:157-159). *)
Definition emit (r : record) (s : state) : state :=
  State (if s_attached s && Nat.leb (s_level s) (r_level r) then s_records s ++ [r] else s_records s) (s_attached s) (s_level s) (s_servers s) (s_trace s ++ [Logged r]).
Definition set_records l s := State l (s_attached s) (s_level s) (s_servers s) (s_trace s).
Definition set_level n s := State (s_records s) (s_attached s) n (s_servers s) (s_trace s).
Definition set_servers n s := State (s_records s) (s_attached s) (s_level s) n (s_trace s).
Definition tell h s := State (s_records s) (s_attached s) (s_level s) (s_servers s) (s_trace s ++ [h]).

(** [assert_reactpy_did_log] (logs.py:31-68), given what came out of the body, and [assert_reactpy_did_not_log] (71-89). *)
Definition did_log (c : cond) (o : outcome) (l : list record) : outcome :=
  match o with Completed => if existsb (hit c) l then Completed else Raised LogAssertion | Raised e => Raised e end.
Definition did_not_log (c : cond) (o : outcome) (l : list record) : outcome :=
  match did_log c o l with Raised LogAssertion => Completed | Completed => Raised LogAssertion | Raised e => Raised e end.
(** [BackendFixture.__aexit__] (backend.py:142-156): the capture is left first, then the same list is looked through with the default arguments
    (any [Exception], level [ERROR]); the server is shut down if nothing is found. *)
Definition any_error : wanted := Wanted 40 0 (fun _ => true).
Definition leave_fixture (k : nat * option nat) (o : outcome) (s : state) : outcome * state :=
  let s := leave k s in
  match fst (list_logged any_error false (s_records s)) with
  | [] => (o, set_servers (pred (s_servers s)) s)
  | _ :: _ => (Raised LogAssertion, s)
  end.

Fixpoint exec (x : stmt) (s : state) : outcome * state :=
  match x with
  | Log r => (Completed, emit r s)
  | SetLevel n => (Completed, set_level n s)
  | Fail e => (Raised e, s)
  | ListErrors w d => let '(found, l) := list_logged w d (s_records s) in (Completed, tell (Listed found) (set_records l s))
  | StartFails => (Raised (Other 0), set_servers (S (s_servers s)) (fst (enter s)))
  | Block k body =>
      let '(s1, ctx) := enter s in
      let '(o, s2) := (fix go l s := match l with [] => (Completed, s) | y :: l' => match exec y s with (Completed, s') => go l' s' | r => r end end)
                        body (match k with Fixture => set_servers (S (s_servers s1)) s1 | _ => s1 end) in
      match k with
      | Captures => (o, leave ctx s2)
      | DidLog c => (did_log c o (s_records s2), leave ctx s2)
      | DidNotLog c => (did_not_log c o (s_records s2), leave ctx s2)
      | Fixture => leave_fixture ctx o s2
      end
  end.
Fixpoint run (l : list stmt) (s : state) : outcome * state :=
  match l with [] => (Completed, s) | y :: l' => match exec y s with (Completed, s') => run l' s' | r => r end end.

(** ** What is said about it *)

(** The records of the blocks that are open, the innermost first. *)
Definition push (st : list (list record)) (h : happening) : list (list record) :=
  match h with
  | Opened => [] :: st
  | Closed => tl st
  | Logged r => match st with [] => [] | t :: st' => (t ++ [r]) :: st' end
  | Listed _ => st
  end.
Definition open_blocks (l : list happening) : list (list record) := fold_left push l [].
(** All of them, in their order. *)
Definition held (l : list happening) : list record := concat (rev (open_blocks l)).
(** What is logged in a stretch, outside of blocks that are opened and closed in it ([d]: how many are open). *)
Fixpoint own (d : nat) (l : list happening) : list record :=
  match l with
  | [] => []
  | Logged r :: l' => if Nat.eqb d 0 then r :: own d l' else own d l'
  | Opened :: l' => own (S d) l'
  | Closed :: l' => own (pred d) l'
  | Listed _ :: l' => own d l'
  end.
(** A record is as described: its message, the class of its exception, the text of its traceback. *)
Definition fits (c : cond) (r : record) : Prop :=
  c_message c (r_message r) = true /\
  (forall t, c_type c = Some t -> exists k m tb, r_exc r = Exc k m tb /\ sub k t = true) /\
  (forall p, c_error c = Some p -> exists tb, ((exists k m, r_exc r = Exc k m tb) \/ (r_exc r = Empty /\ tb = "NoneType: None"%string)) /\ p tb = true).
Lemma hit_fits c r : hit c r = true <-> fits c r.
Proof.
  unfold hit, fits. rewrite !andb_true_iff. split.
  - intros [[A B] C]. split; [exact A|]. split.
    + intros t T. rewrite T in B. destruct (r_exc r) as [| |k m tb]; try discriminate. exists k, m, tb. auto.
    + intros p P. rewrite P in C. destruct (r_exc r) as [| |k m tb]; [discriminate| |]; [exists "NoneType: None"%string; split; [right; auto|exact C]|exists tb; split; [left; eauto|exact C]].
  - intros (A & B & C). split; [split; [exact A|]|].
    + destruct (c_type c) as [t|]; [|reflexivity]. destruct (B t eq_refl) as (k & m & tb & -> & S). exact S.
    + destruct (c_error c) as [p|]; [|reflexivity]. destruct (C p eq_refl) as (tb & [(k & m & ->)|[-> ->]] & P); exact P.
Qed.
(** Statements as they should be inside blocks: nothing turns the logger down, no records are removed, and the levels are those of [logging]. *)
Fixpoint steady (x : stmt) : Prop :=
  match x with
  | Log r => 10 <= r_level r
  | SetLevel _ => False
  | Fail _ => True
  | ListErrors _ d => d = false
  | StartFails => False
  | Block _ body => (fix all l := match l with [] => True | y :: l' => steady y /\ all l' end) body
  end.
Fixpoint all_steady (l : list stmt) : Prop := match l with [] => True | y :: l' => steady y /\ all_steady l' end.
(** A moment of a test: after some statements, perhaps in a block; inside blocks and in them statements are steady. *)
Inductive reached : state -> Prop :=
| R_start n : reached (start_at n)
| R_level s n : reached s -> open_blocks (s_trace s) = [] -> reached (set_level n s)
| R_log s r : reached s -> open_blocks (s_trace s) = [] -> reached (emit r s)
| R_step s x o s' : reached s -> steady x -> exec x s = (o, s') -> reached s'
| R_enter s : reached s -> reached (fst (enter s)).

(** ** Proofs *)

(** *** The loop over the records *)

Lemma sweep_keeps p fuel : forall i l found, length l <= fuel + i -> sweep p false fuel i l found = (found ++ filter p (skipn i l), l).
Proof.
  induction fuel as [|fuel IH]; intros i l found LE; cbn [sweep].
  - rewrite skipn_all2 by lia. rewrite app_nil_r. reflexivity.
  - destruct (nth_error l i) as [r|] eqn:N.
    + assert (SK : skipn i l = r :: skipn (S i) l).
      { clear -N. revert i N. induction l as [|x l IHl]; intros [|i] N; try discriminate; [injection N as ->; reflexivity|]. exact (IHl i N). }
      rewrite SK. cbn [filter]. destruct (p r); rewrite IH by lia; [rewrite <- app_assoc|]; reflexivity.
    + apply nth_error_None in N. rewrite skipn_all2 by lia. cbn. rewrite app_nil_r. reflexivity.
Qed.
Lemma list_keeps w l : list_logged w false l = (filter (listed w) l, l).
Proof. unfold list_logged. rewrite sweep_keeps by lia. reflexivity. Qed.
Lemma sweep_skip p d a : forall fuel pre c found, Forall (fun r => p r = false) a -> sweep p d (length a + fuel) (length pre) (pre ++ a ++ c) found = sweep p d fuel (length (pre ++ a)) (pre ++ a ++ c) found.
Proof.
  induction a as [|r a IH]; intros fuel pre c found F; [rewrite app_nil_r; reflexivity|]. inversion F as [|r' a' F1 F2]; subst. cbn [length Nat.add sweep].
  rewrite nth_error_app2, Nat.sub_diag by lia. cbn [nth_error app]. rewrite F1. specialize (IH fuel (pre ++ [r]) c found F2). rewrite app_length in IH. cbn [length] in IH.
  replace (length pre + 1) with (S (length pre)) in IH by lia. rewrite <- !app_assoc in IH. cbn [app] in IH. rewrite IH. reflexivity.
Qed.
Lemma sweep_end p d fuel i l found : length l <= i -> sweep p d fuel i l found = (found, l).
Proof. intros LE. destruct fuel; [reflexivity|]. cbn [sweep]. assert (N : nth_error l i = None) by (apply nth_error_None; exact LE). rewrite N. reflexivity. Qed.
Lemma del_at_app {A} (a : list A) r b : del_at (length a) (a ++ r :: b) = a ++ b.
Proof. unfold del_at. rewrite firstn_app, Nat.sub_diag, firstn_all. cbn [firstn]. rewrite app_nil_r. f_equal. rewrite skipn_app, skipn_all2 by lia. replace (S (length a) - length a) with 1 by lia. reflexivity. Qed.
(** At the first record that matches. *)
Lemma sweep_hit p a r b : Forall (fun x => p x = false) a -> p r = true ->
  sweep p true (length (a ++ r :: b)) 0 (a ++ r :: b) [] = sweep p true (length b) (S (length a)) (a ++ b) [r].
Proof.
  intros F R. rewrite app_length. cbn [length]. pose proof (sweep_skip p true a (S (length b)) [] (r :: b) [] F) as E. cbn [length app] in E. rewrite E. cbn [sweep].
  rewrite nth_error_app2, Nat.sub_diag by lia. cbn [nth_error length]. rewrite R, Nat.sub_0_r, del_at_app. reflexivity.
Qed.

(** A stretch that closes what it opens. *)
Definition balanced (seg : list happening) : Prop :=
  (forall st, fold_left push seg st = match st with [] => [] | t :: rest => (t ++ own 0 seg) :: rest end) /\
  (forall d l, own d (seg ++ l) = (if Nat.eqb d 0 then own 0 seg else []) ++ own d l).
Lemma balanced_nil : balanced [].
Proof. split; [intros [|t rest]; simpl; rewrite ?app_nil_r; reflexivity|]. intros d l. cbn. destruct (Nat.eqb d 0); reflexivity. Qed.
Lemma balanced_app a b : balanced a -> balanced b -> balanced (a ++ b).
Proof.
  intros [A1 A2] [B1 B2].
  assert (E : own 0 (a ++ b) = own 0 a ++ own 0 b) by (rewrite A2; reflexivity). split.
  - intros st. rewrite fold_left_app, A1. destruct st as [|t rest]; rewrite B1; [reflexivity|]. rewrite E, app_assoc. reflexivity.
  - intros d l. rewrite <- app_assoc, A2, B2, E. destruct (Nat.eqb d 0); [rewrite app_assoc|]; reflexivity.
Qed.
Lemma balanced_block a : balanced a -> balanced (Opened :: a ++ [Closed]).
Proof.
  intros [A1 A2]. assert (E : own 0 (Opened :: a ++ [Closed]) = []) by (cbn [own]; rewrite A2; reflexivity). split.
  - intros st. rewrite E. cbn [fold_left push]. rewrite fold_left_app, A1. cbn. destruct st as [|t rest]; [reflexivity|]. rewrite app_nil_r. reflexivity.
  - intros d l. rewrite E. cbn [app own]. rewrite <- app_assoc, A2. cbn. destruct (Nat.eqb d 0); reflexivity.
Qed.
Lemma balanced_log r : balanced [Logged r].
Proof. split; [intros [|t rest]; reflexivity|]. intros d l. cbn. destruct (Nat.eqb d 0); reflexivity. Qed.
Lemma balanced_listed f : balanced [Listed f].
Proof. split; [intros [|t rest]; cbn; rewrite ?app_nil_r; reflexivity|]. intros d l. cbn. destruct (Nat.eqb d 0); reflexivity. Qed.

(** The captor holds the records of the open blocks. *)
Record good (s : state) : Prop := Good {
  g_records : s_records s = held (s_trace s);
  g_attached : s_attached s = match open_blocks (s_trace s) with [] => false | _ => true end;
  g_level : s_attached s = true -> s_level s = 10 }.
(** What statements do. *)
Record does (s s' : state) : Prop := Does {
  d_seg : exists seg, s_trace s' = s_trace s ++ seg /\ balanced seg;
  d_good : good s';
  d_level : s_level s' = s_level s }.
Lemma open_app a b : open_blocks (a ++ b) = fold_left push b (open_blocks a).
Proof. unfold open_blocks. apply fold_left_app. Qed.
Lemma open_seg a seg : balanced seg -> open_blocks (a ++ seg) = match open_blocks a with [] => [] | t :: rest => (t ++ own 0 seg) :: rest end.
Proof. intros [B _]. rewrite open_app. apply B. Qed.
Lemma held_seg a seg : balanced seg -> held (a ++ seg) = held a ++ match open_blocks a with [] => [] | _ => own 0 seg end.
Proof.
  intros B. unfold held. rewrite (open_seg a seg B). destruct (open_blocks a) as [|t rest]; [reflexivity|]. cbn [rev]. rewrite !concat_app. cbn [concat]. rewrite !app_nil_r, app_assoc. reflexivity.
Qed.
Lemma does_trans a b c : does a b -> does b c -> does a c.
Proof.
  intros [(x & X & BX) _ LX] [(y & Y & BY) G LY]. split; [|exact G|congruence]. exists (x ++ y). split; [rewrite Y, X, app_assoc; reflexivity|apply balanced_app; auto].
Qed.
Lemma good_refl s : good s -> does s s.
Proof. intros G. split; auto. exists []. split; [rewrite app_nil_r; reflexivity|apply balanced_nil]. Qed.
Lemma good_enter s : good s -> good (fst (enter s)) /\ open_blocks (s_trace (fst (enter s))) = [] :: open_blocks (s_trace s).
Proof.
  intros [R A L]. assert (O : open_blocks (s_trace s ++ [Opened]) = [] :: open_blocks (s_trace s)) by (rewrite open_app; reflexivity).
  split; [|exact O]. split; cbn [enter fst s_records s_attached s_level s_trace]; auto.
  - rewrite R. unfold held. rewrite O. cbn [rev]. rewrite concat_app. cbn. rewrite app_nil_r. reflexivity.
  - rewrite O. reflexivity.
Qed.
Lemma does_leave s s2 : good s -> does (fst (enter s)) s2 -> does s (leave (snd (enter s)) s2).
Proof.
  intros G [(seg & T & B) G2 _]. destruct (good_enter s G) as [_ O]. destruct G as [R A L]. destruct G2 as [R2 A2 _]. cbn [enter fst s_trace] in T, O.
  rewrite T in A2, R2. rewrite (open_seg _ seg B), O in A2. rewrite (held_seg _ seg B), O in R2.
  assert (H : held (s_trace s ++ [Opened]) = held (s_trace s)) by (unfold held; rewrite O; cbn [rev]; rewrite concat_app; cbn; rewrite app_nil_r; reflexivity). rewrite H in R2.
  assert (TR : s_trace (leave (snd (enter s)) s2) = s_trace s ++ (Opened :: seg ++ [Closed])).
  { unfold leave. destruct (snd (snd (enter s))); cbn [s_trace]; rewrite T, <- !app_assoc; reflexivity. }
  assert (BB : balanced (Opened :: seg ++ [Closed])) by (apply balanced_block; exact B).
  assert (OW : own 0 (Opened :: seg ++ [Closed]) = []) by (cbn [own]; rewrite (proj2 B); reflexivity).
  assert (LV : s_level (leave (snd (enter s)) s2) = s_level s) by (unfold leave, enter; cbn [fst snd]; destruct (s_attached s); reflexivity).
  split; [exists (Opened :: seg ++ [Closed]); auto| |exact LV].
  assert (OP : open_blocks (s_trace (leave (snd (enter s)) s2)) = open_blocks (s_trace s)).
  { rewrite TR, (open_seg _ _ BB), OW. destruct (open_blocks (s_trace s)); [|rewrite app_nil_r]; reflexivity. }
  split.
  - unfold held. rewrite OP. fold (held (s_trace s)). unfold leave, enter. cbn [fst snd]. destruct (s_attached s) eqn:AT; cbn [s_records].
    + rewrite R2, R, firstn_app, Nat.sub_diag, firstn_all. cbn. rewrite app_nil_r. reflexivity.
    + unfold held. destruct (open_blocks (s_trace s)); [reflexivity|discriminate].
  - rewrite OP, <- A. unfold leave, enter. cbn [fst snd]. destruct (s_attached s) eqn:AT; cbn [s_attached]; [|reflexivity]. exact A2.
  - rewrite LV. intros X. apply L. revert X. unfold leave, enter. cbn [fst snd]. destruct (s_attached s) eqn:AT; cbn [s_attached]; auto.
Qed.
Lemma does_emit r s : 10 <= r_level r -> good s -> does s (emit r s).
Proof.
  intros LV G. destruct G as [R A L]. split; [exists [Logged r]; split; [reflexivity|apply balanced_log]| |reflexivity].
  assert (O : open_blocks (s_trace s ++ [Logged r]) = match open_blocks (s_trace s) with [] => [] | t :: rest => (t ++ [r]) :: rest end) by (rewrite open_app; reflexivity).
  split; cbn [emit s_records s_attached s_level s_trace].
  - rewrite (held_seg _ _ (balanced_log r)), <- R. cbn. destruct (s_attached s) eqn:AT.
    + rewrite (L eq_refl). assert (X : Nat.leb 10 (r_level r) = true) by (apply Nat.leb_le; exact LV). rewrite X. cbn [andb]. destruct (open_blocks (s_trace s)); [discriminate|reflexivity].
    + cbn [andb]. destruct (open_blocks (s_trace s)); [rewrite app_nil_r; reflexivity|discriminate].
  - rewrite O, A. destruct (open_blocks (s_trace s)); reflexivity.
  - exact L.
Qed.
Lemma does_servers n s s' : does s s' -> does s (set_servers n s').
Proof. intros [D [R A L] E]. split; auto. split; auto. Qed.

Definition body_run := fix go (l : list stmt) (s : state) : outcome * state :=
  match l with [] => (Completed, s) | y :: l' => match exec y s with (Completed, s') => go l' s' | r => r end end.
Lemma body_run_run l : forall s, body_run l s = run l s.
Proof. induction l as [|y l IH]; intros s; [reflexivity|]. simpl. destruct (exec y s) as [[|e] s']; auto. Qed.
(** The same induction over statements and their bodies, by their size. *)
Fixpoint size (x : stmt) : nat := match x with Block _ body => S ((fix all l := match l with [] => 0 | y :: l' => size y + all l' end) body) | _ => 1 end.
Fixpoint sizes (l : list stmt) : nat := match l with [] => 0 | y :: l' => size y + sizes l' end.
Lemma size_block k body : size (Block k body) = S (sizes body).
Proof. simpl. f_equal. Qed.
Lemma size_pos x : 0 < size x. Proof. destruct x; simpl; lia. Qed.
Lemma steady_block k body : steady (Block k body) <-> all_steady body.
Proof. simpl. induction body as [|y l IH]; simpl; tauto. Qed.
Lemma steady_does n : (forall x s o s', size x <= n -> steady x -> good s -> exec x s = (o, s') -> does s s') /\
  (forall l s o s', sizes l <= n -> all_steady l -> good s -> run l s = (o, s') -> does s s').
Proof.
  induction n as [|n [IHx IHl]].
  - split; [intros x s o s' Z; pose proof (size_pos x); lia|]. intros [|y l] s o s' Z _ G E; [|simpl in Z; pose proof (size_pos y); lia]. injection E as <- <-. apply good_refl. exact G.
  - assert (X : forall x s o s', size x <= S n -> steady x -> good s -> exec x s = (o, s') -> does s s').
    { intros x s o s' Z ST G E. destruct x as [r|k|e|w d| |k body].
      - injection E as <- <-. apply does_emit; auto.
      - destruct ST.
      - injection E as <- <-. apply good_refl. exact G.
      - simpl in ST. subst d. cbn [exec] in E. rewrite list_keeps in E. injection E as <- <-. split; [exists [Listed (filter (listed w) (s_records s))]; split; [reflexivity|apply balanced_listed]| |reflexivity].
        destruct G as [R A L]. assert (O : open_blocks (s_trace s ++ [Listed (filter (listed w) (s_records s))]) = open_blocks (s_trace s)) by (rewrite open_app; reflexivity).
        split; cbn [tell set_records s_records s_attached s_level s_trace]; auto; [unfold held|]; rewrite O; auto.
      - destruct ST.
      - rewrite size_block in Z. apply steady_block in ST. cbn [exec] in E. fold body_run in E. destruct (enter s) as [s1 ctx] eqn:EN.
        assert (E1 : s1 = fst (enter s)) by (rewrite EN; reflexivity). assert (E2 : ctx = snd (enter s)) by (rewrite EN; reflexivity). clear EN. rewrite body_run_run in E.
        destruct (run body _) as [ob s2] eqn:RB. destruct (good_enter s G) as [G1 _]. rewrite <- E1 in G1.
        assert (D : does s1 s2).
        { assert (G1' : good (match k with Fixture => set_servers (S (s_servers s1)) s1 | _ => s1 end)) by (destruct k; auto; destruct G1 as [R A L]; split; auto).
          destruct (IHl body _ _ _ ltac:(lia) ST G1' RB) as [D1 D2 D3]. split; [|exact D2|]; destruct k; auto. }
        assert (DL : does s (leave ctx s2)) by (rewrite E2; apply does_leave; [exact G|rewrite <- E1; exact D]).
        destruct k as [|c|c|]; try (injection E as <- <-; exact DL). unfold leave_fixture in E. destruct (fst _) in E; injection E as <- <-; [apply does_servers|]; exact DL. }
    split; [exact X|]. intros l s o s' Z ST G E. revert s G E. induction l as [|y l IH]; intros s G E; [injection E as <- <-; apply good_refl; exact G|].
    simpl in Z, ST, E. destruct ST as [S1 S2]. pose proof (size_pos y). destruct (exec y s) as [oy sy] eqn:EY. pose proof (X y s oy sy ltac:(lia) S1 G EY) as DY.
    destruct oy as [|e]; [|injection E as <- <-; exact DY]. apply (does_trans s sy s' DY). apply IH; [lia|exact S2|apply (d_good _ _ DY)|exact E].
Qed.
Lemma reached_good s : reached s -> good s.
Proof.
  induction 1 as [n|s n H IH O|s r H IH O|s x o s' H IH ST E|s H IH].
  - split; [reflexivity|reflexivity|discriminate].
  - destruct IH as [R A L]. rewrite O in A. split; cbn [set_level s_records s_attached s_level s_trace]; [exact R|rewrite O; exact A|congruence].
  - destruct IH as [R A L]. rewrite O in A. assert (O' : open_blocks (s_trace s ++ [Logged r]) = []) by (rewrite open_app, O; reflexivity).
    split; cbn [emit s_records s_attached s_trace s_level]; [|rewrite O'; exact A|congruence]. rewrite A. cbn. unfold held in *. rewrite O', R, O. reflexivity.
  - exact (d_good _ _ (proj1 (steady_does (size x)) x s o s' (le_n _) ST IH E)).
  - apply good_enter. exact IH.
Qed.
(** A block, seen from its body. *)
Lemma block_parts s body ob s2 : reached s -> all_steady body -> run body (fst (enter s)) = (ob, s2) ->
  exists seg, s_trace s2 = s_trace s ++ Opened :: seg /\ s_records s2 = held (s_trace s) ++ own 0 seg.
Proof.
  intros H ST RB. pose proof (reached_good s H) as G. destruct (good_enter s G) as [G1 O].
  destruct (proj2 (steady_does (sizes body)) body _ _ _ (le_n _) ST G1 RB) as [(seg & T & B) [R2 _ _] _]. exists seg. cbn [enter fst s_trace] in T, O. split; [rewrite T, <- app_assoc; reflexivity|].
  rewrite R2, T, (held_seg _ seg B), O. f_equal. unfold held. rewrite O. cbn [rev]. rewrite concat_app. cbn. rewrite app_nil_r. reflexivity.
Qed.
Lemma exec_did_log c s body ob s2 : run body (fst (enter s)) = (ob, s2) -> exec (Block (DidLog c) body) s = (did_log c ob (s_records s2), leave (snd (enter s)) s2).
Proof. intros RB. cbn [exec]. fold body_run. rewrite (surjective_pairing (enter s)) at 1. rewrite body_run_run, RB. reflexivity. Qed.
Lemma exec_did_not_log c s body ob s2 : run body (fst (enter s)) = (ob, s2) -> exec (Block (DidNotLog c) body) s = (did_not_log c ob (s_records s2), leave (snd (enter s)) s2).
Proof. intros RB. cbn [exec]. fold body_run. rewrite (surjective_pairing (enter s)) at 1. rewrite body_run_run, RB. reflexivity. Qed.

(** An exception of the body comes out of the block. If no earlier record of the surrounding blocks is as described, the block passes exactly if its body
    logged such a record. *)
Theorem C102_did_log_partial c s body ob s2 : reached s -> all_steady body -> run body (fst (enter s)) = (ob, s2) ->
  let o := fst (exec (Block (DidLog c) body) s) in
  exists seg, s_trace s2 = s_trace s ++ Opened :: seg /\
  (forall e, ob = Raised e -> o = Raised e) /\
  (ob = Completed -> (forall r, In r (held (s_trace s)) -> ~ fits c r) ->
    (o = Completed /\ exists r, In r (own 0 seg) /\ fits c r) \/ (o = Raised LogAssertion /\ forall r, In r (own 0 seg) -> ~ fits c r)).
Proof.
  intros H ST RB o. destruct (block_parts s body ob s2 H ST RB) as (seg & T & R). exists seg. split; [exact T|]. subst o. rewrite (exec_did_log c s body ob s2 RB). cbn [fst].
  split; [intros e ->; reflexivity|]. intros -> N. unfold did_log. rewrite R, existsb_app.
  assert (E : existsb (hit c) (held (s_trace s)) = false).
  { destruct (existsb (hit c) (held (s_trace s))) eqn:E; [|reflexivity]. apply existsb_exists in E. destruct E as (r & I & F). apply hit_fits in F. destruct (N r I F). }
  rewrite E. cbn [orb]. destruct (existsb (hit c) (own 0 seg)) eqn:X.
  - left. split; [reflexivity|]. apply existsb_exists in X. destruct X as (r & I & F). exists r. split; [exact I|apply hit_fits; exact F].
  - right. split; [reflexivity|]. intros r I F. apply hit_fits in F. assert (Y : existsb (hit c) (own 0 seg) = true) by (apply existsb_exists; eauto). congruence.
Qed.
(** The opposite assertion; exceptions of its body come out unless they are failures of log assertions. *)
Theorem C102_did_not_log_partial c s body ob s2 : reached s -> all_steady body -> run body (fst (enter s)) = (ob, s2) -> ob <> Raised LogAssertion ->
  let o := fst (exec (Block (DidNotLog c) body) s) in
  exists seg, s_trace s2 = s_trace s ++ Opened :: seg /\
  (forall e, ob = Raised e -> o = Raised e) /\
  (ob = Completed -> (forall r, In r (held (s_trace s)) -> ~ fits c r) ->
    (o = Completed /\ forall r, In r (own 0 seg) -> ~ fits c r) \/ (o = Raised LogAssertion /\ exists r, In r (own 0 seg) /\ fits c r)).
Proof.
  intros H ST RB NA o. destruct (C102_did_log_partial c s body ob s2 H ST RB) as (seg & T & A & B). exists seg. split; [exact T|]. subst o. rewrite (exec_did_not_log c s body ob s2 RB).
  rewrite (exec_did_log c s body ob s2 RB) in A, B. cbn [fst] in *. unfold did_not_log. split.
  - intros e ->. rewrite (A e eq_refl). destruct e; [congruence|reflexivity].
  - intros C N. destruct (B C N) as [[-> X]|[-> X]]; [right|left]; auto.
Qed.
(** A block leaves the logger and the records as they were, however it ends. *)
Theorem C102_restored s k body : reached s -> all_steady body -> let s' := snd (exec (Block k body) s) in
  s_level s' = s_level s /\ s_attached s' = s_attached s /\ s_records s' = s_records s /\ (open_blocks (s_trace s) = [] -> s_attached s' = false /\ s_records s' = []).
Proof.
  intros H ST s'. pose proof (reached_good s H) as G. destruct (exec (Block k body) s) as [o z] eqn:E. cbn [snd] in s'. subst s'.
  assert (SB : steady (Block k body)) by (apply steady_block; exact ST).
  assert (D : does s z) by exact (proj1 (steady_does (size (Block k body))) _ s o z (le_n _) SB G E).
  assert (OW : open_blocks (s_trace z) = open_blocks (s_trace s) /\ held (s_trace z) = held (s_trace s)).
  { assert (TZ : exists seg, s_trace z = s_trace s ++ (Opened :: seg ++ [Closed]) /\ balanced seg).
    { cbn [exec] in E. fold body_run in E. rewrite (surjective_pairing (enter s)) in E. rewrite body_run_run in E. destruct (good_enter s G) as [G1 _].
      assert (G1' : good (match k with Fixture => set_servers (S (s_servers (fst (enter s)))) (fst (enter s)) | _ => fst (enter s) end)) by (destruct k; auto; destruct G1 as [R A L]; split; auto).
      destruct (run body _) as [ob s2] eqn:RB. destruct (proj2 (steady_does (sizes body)) body _ _ _ (le_n _) ST G1' RB) as [(seg & T & B) _ _]. exists seg. split; [|exact B].
      assert (TE : s_trace (match k with Fixture => set_servers (S (s_servers (fst (enter s)))) (fst (enter s)) | _ => fst (enter s) end) = s_trace s ++ [Opened]) by (destruct k; reflexivity). rewrite TE in T.
      assert (TL : s_trace (leave (snd (enter s)) s2) = s_trace s ++ Opened :: seg ++ [Closed]).
      { unfold leave. destruct (snd (snd (enter s))); cbn [s_trace]; rewrite T, <- !app_assoc; reflexivity. }
      destruct k as [|c|c|]; try (injection E as _ <-; exact TL). unfold leave_fixture in E. destruct (fst _) in E; injection E as _ <-; exact TL. }
    destruct TZ as (seg & T & B). pose proof (balanced_block seg B) as BB. assert (ZO : own 0 (Opened :: seg ++ [Closed]) = []) by (cbn [own]; rewrite (proj2 B); reflexivity).
    rewrite T. split.
    - rewrite (open_seg _ _ BB), ZO. destruct (open_blocks (s_trace s)); [|rewrite app_nil_r]; reflexivity.
    - rewrite (held_seg _ _ BB), ZO. destruct (open_blocks (s_trace s)); rewrite app_nil_r; reflexivity. }
  destruct OW as [OW HW]. destruct D as [_ [R A L] LV]. destruct G as [R0 A0 L0].
  assert (Q : s_records z = s_records s) by congruence. assert (Q' : s_attached z = s_attached s) by (rewrite A, A0, OW; reflexivity).
  split; [exact LV|]. split; [exact Q'|]. split; [exact Q|]. intros O. rewrite Q', A0, Q, R0. unfold held. rewrite O. auto.
Qed.

(** ** Logged exceptions *)

(** A record of a logged exception with the class, the level and the text asked for. *)
Definition wants (w : wanted) (r : record) : Prop :=
  w_level w <= r_level r /\ exists k t tb, r_exc r = Exc k t tb /\ sub k (w_type w) = true /\ w_pattern w t = true.
Lemma listed_wants w r : listed w r = true <-> wants w r.
Proof.
  unfold listed, wants. rewrite andb_true_iff, Nat.leb_le. split.
  - intros [A B]. split; [exact A|]. destruct (r_exc r) as [| |k t tb]; try discriminate. apply andb_true_iff in B. destruct B as [B C]. exists k, t, tb. auto.
  - intros [A (k & t & tb & -> & B & C)]. rewrite B, C. auto.
Qed.
Lemma not_listed w r : listed w r = false <-> ~ wants w r.
Proof. rewrite <- listed_wants. destruct (listed w r); split; congruence. Qed.
Lemma none_listed w l : Forall (fun x => ~ wants w x) l -> Forall (fun x => listed w x = false) l.
Proof. intros F. eapply Forall_impl; [|exact F]. intros r N. apply not_listed. exact N. Qed.
(** Without [del_log_records] the list has every logged exception that is wanted, in order, and no record is removed. *)
Theorem C103_list w l : exists f, (forall r, f r = true <-> wants w r) /\ list_logged w false l = (filter f l, l).
Proof. exists (listed w). split; [apply listed_wants|apply list_keeps]. Qed.
(** With it (the default) this is so, and just this record is removed, if at most one record is wanted. *)
Theorem C103_remove_partial w a r b : Forall (fun x => ~ wants w x) (a ++ b) ->
  list_logged w true (a ++ b) = ([], a ++ b) /\ (wants w r -> list_logged w true (a ++ r :: b) = ([r], a ++ b)).
Proof.
  intros F. apply none_listed in F. split.
  - unfold list_logged. pose proof (sweep_skip (listed w) true (a ++ b) 0 [] [] [] F) as E. cbn [length app] in E. rewrite Nat.add_0_r, app_nil_r in E. rewrite E. reflexivity.
  - intros R. apply listed_wants in R. unfold list_logged. apply Forall_app in F. destruct F as [FA FB]. rewrite (sweep_hit _ a r b FA R).
    destruct b as [|x b]; [rewrite sweep_end; [reflexivity|]; rewrite app_nil_r; lia|]. inversion FB as [|x' b' F1 F2]; subst. cbn [length].
    pose proof (sweep_skip (listed w) true b 1 (a ++ [x]) [] [r] F2) as E. rewrite app_length in E. cbn [length] in E. rewrite <- !app_assoc in E. cbn [app] in E. rewrite app_nil_r in E.
    replace (length a + 1) with (S (length a)) in E by lia. replace (length b + 1) with (S (length b)) in E by lia. rewrite E. apply sweep_end. rewrite !app_length. cbn. lia.
Qed.
(** Finding: of two wanted records one after the other the second is neither listed nor removed. *)
Theorem C103_adjacent_refuted w a r1 r2 b : Forall (fun x => ~ wants w x) (a ++ b) -> wants w r1 -> wants w r2 ->
  list_logged w true (a ++ r1 :: r2 :: b) = ([r1], a ++ r2 :: b).
Proof.
  intros F R1 R2. apply none_listed in F. apply listed_wants in R1. apply listed_wants in R2. apply Forall_app in F. destruct F as [FA FB]. unfold list_logged. rewrite (sweep_hit _ a r1 (r2 :: b) FA R1). cbn [length].
  pose proof (sweep_skip (listed w) true b 1 (a ++ [r2]) [] [r1] FB) as E. rewrite app_length in E. cbn [length] in E. rewrite <- !app_assoc in E. cbn [app] in E. rewrite app_nil_r in E.
  replace (length a + 1) with (S (length a)) in E by lia. replace (length b + 1) with (S (length b)) in E by lia. rewrite E. apply sweep_end. rewrite !app_length. cbn. lia.
Qed.
(** Finding: of two wanted records with others between them both are listed, but the second stays and the record before it is removed instead. *)
Theorem C103_wrong_refuted w a r1 m x r2 : Forall (fun x => ~ wants w x) (a ++ m ++ [x]) -> wants w r1 -> wants w r2 ->
  list_logged w true (a ++ r1 :: m ++ [x; r2]) = ([r1; r2], a ++ m ++ [r2]).
Proof.
  intros F R1 R2. apply none_listed in F. apply listed_wants in R1. apply listed_wants in R2. apply Forall_app in F. destruct F as [FA FM]. unfold list_logged. rewrite (sweep_hit _ a r1 (m ++ [x; r2]) FA R1).
  apply Forall_app in FM. destruct FM as [FM FX]. assert (FX' : listed w x = false) by (inversion FX; auto).
  assert (H : sweep (listed w) true (length (m ++ [x; r2])) (S (length a)) (a ++ m ++ [x; r2]) [r1] = sweep (listed w) true 2 (length a + S (length m)) (a ++ m ++ [x; r2]) [r1]).
  { destruct m as [|y m]; [cbn [length app]; rewrite Nat.add_1_r; reflexivity|]. inversion FM as [|y' m' F1 F2]; subst.
    pose proof (sweep_skip (listed w) true (m ++ [x]) 2 (a ++ [y]) [r2] [r1]) as E. rewrite !app_length in *. cbn [length] in *. rewrite <- !app_assoc in E. cbn [app] in *.
    replace (length m + 1 + 2) with (S (length m) + 2) in E by lia. replace (length a + 1) with (S (length a)) in E by lia. rewrite E; [|apply Forall_app; auto]. f_equal. lia. }
  rewrite H. cbn [sweep]. rewrite app_assoc. assert (N : nth_error ((a ++ m) ++ [x; r2]) (length a + S (length m)) = Some r2).
  { rewrite nth_error_app2 by (rewrite app_length; lia). rewrite app_length. replace (length a + S (length m) - (length a + length m)) with 1 by lia. reflexivity. }
  rewrite N, R2. cbn [length app]. replace (length a + S (length m) - 1) with (length (a ++ m)) by (rewrite app_length; lia). rewrite del_at_app, <- app_assoc. cbn [app].
  assert (Q : nth_error (a ++ m ++ [r2]) (S (length a + S (length m))) = None) by (apply nth_error_None; rewrite !app_length; cbn; lia). rewrite Q. reflexivity.
Qed.

(** *** The fixture *)

Lemma exec_fixture s body ob s2 : run body (set_servers (S (s_servers s)) (fst (enter s))) = (ob, s2) -> exec (Block Fixture body) s = leave_fixture (snd (enter s)) ob s2.
Proof. intros RB. cbn [exec]. fold body_run. rewrite (surjective_pairing (enter s)) at 1. rewrite body_run_run. cbn [enter fst s_servers] in *. rewrite RB. reflexivity. Qed.
Lemma fixture_records s body ob s2 : reached s -> all_steady body -> run body (set_servers (S (s_servers s)) (fst (enter s))) = (ob, s2) ->
  s_records (leave (snd (enter s)) s2) = held (s_trace s).
Proof.
  intros H ST RB. pose proof (reached_good s H) as G. destruct (good_enter s G) as [G1 _].
  assert (G1' : good (set_servers (S (s_servers s)) (fst (enter s)))) by (destruct G1; split; auto).
  destruct (proj2 (steady_does (sizes body)) body _ _ _ (le_n _) ST G1' RB) as [D1 D2 D3].
  assert (D : does (fst (enter s)) s2) by (split; auto). pose proof (does_leave s s2 G D) as [(seg & T & B) [R A L] LV]. destruct G as [R0 A0 L0].
  unfold leave, enter. cbn [fst snd]. destruct (s_attached s) eqn:AT; cbn [s_records].
  - unfold leave, enter in R, T. cbn [fst snd] in R, T. rewrite AT in R, T. cbn [s_records s_trace] in R, T.
    destruct D1 as (seg' & T' & B'). cbn [set_servers enter fst s_trace] in T'.
    rewrite R, T'. rewrite <- !app_assoc. cbn [app]. pose proof (balanced_block seg' B') as BB. rewrite (held_seg _ _ BB).
    assert (ZO : own 0 (Opened :: seg' ++ [Closed]) = []) by (cbn [own]; rewrite (proj2 B'); reflexivity). rewrite ZO. destruct (open_blocks (s_trace s)); rewrite app_nil_r; reflexivity.
  - unfold held. destruct (open_blocks (s_trace s)); [reflexivity|discriminate].
Qed.
(** A logged error: a record of level 40 ([logging.ERROR]) or more with an exception of the class [Exception] (0). *)
Definition an_error (r : record) : Prop := 40 <= r_level r /\ exists k t tb, r_exc r = Exc k t tb /\ sub k 0 = true.
Lemma any_error_wants r : wants any_error r <-> an_error r.
Proof.
  rewrite <- listed_wants. unfold listed, an_error, any_error. cbn [w_level w_type w_pattern]. rewrite andb_true_iff, Nat.leb_le.
  split; intros [L E]; (split; [exact L|]).
  - destruct (r_exc r) as [| |k t tb]; try discriminate. rewrite andb_true_r in E. exists k, t, tb. auto.
  - destruct E as [k [t [tb [-> E]]]]. rewrite E. reflexivity.
Qed.
(** If there is no error among the records of surrounding blocks, what comes out of the body comes out of the fixture, and one web server less is at work. *)
Theorem C103_fixture_partial s body ob s2 : reached s -> all_steady body -> run body (set_servers (S (s_servers s)) (fst (enter s))) = (ob, s2) ->
  (forall r, In r (held (s_trace s)) -> ~ an_error r) ->
  let '(o, s') := exec (Block Fixture body) s in o = ob /\ s_servers s' = pred (s_servers s2).
Proof.
  intros H ST RB N0. assert (N : forall r, In r (held (s_trace s)) -> ~ wants any_error r) by (intros r I; rewrite any_error_wants; exact (N0 r I)).
  rewrite (exec_fixture s body ob s2 RB). unfold leave_fixture. rewrite list_keeps. cbn [fst]. rewrite (fixture_records s body ob s2 H ST RB).
  assert (E : filter (listed any_error) (held (s_trace s)) = []).
  { revert N. generalize (held (s_trace s)). intros l N. induction l as [|r l IH]; [reflexivity|]. cbn. rewrite (proj2 (not_listed _ _) (N r (or_introl eq_refl))). apply IH. intros x I. apply N. right. exact I. }
  rewrite E. split; [reflexivity|]. unfold leave. destruct (snd (snd (enter s))); reflexivity.
Qed.
(** Finding: outside of other blocks the fixture never reports what was logged in it, because the records are gone when it looks. *)
Theorem C103_fixture_refuted s body ob s2 : reached s -> open_blocks (s_trace s) = [] -> all_steady body -> run body (set_servers (S (s_servers s)) (fst (enter s))) = (ob, s2) ->
  fst (exec (Block Fixture body) s) = ob.
Proof.
  intros H O ST RB. pose proof (C103_fixture_partial s body ob s2 H ST RB) as P. destruct (exec (Block Fixture body) s) as [o s']. cbn [fst]. apply P. unfold held. rewrite O. intros r [].
Qed.
(** Finding: inside a block in which an error was logged before, it fails whatever happens in it, and does not shut its server down. *)
Theorem C103_earlier_refuted s body ob s2 r : reached s -> all_steady body -> run body (set_servers (S (s_servers s)) (fst (enter s))) = (ob, s2) ->
  In r (held (s_trace s)) -> an_error r ->
  let '(o, s') := exec (Block Fixture body) s in o = Raised LogAssertion /\ s_servers s' = s_servers s2.
Proof.
  intros H ST RB I L. apply any_error_wants, listed_wants in L. rewrite (exec_fixture s body ob s2 RB). unfold leave_fixture. rewrite list_keeps. cbn [fst]. rewrite (fixture_records s body ob s2 H ST RB).
  destruct (filter (listed any_error) (held (s_trace s))) as [|x l] eqn:E.
  - exfalso. assert (X : In r (filter (listed any_error) (held (s_trace s)))) by (apply filter_In; auto). rewrite E in X. destruct X.
  - split; [reflexivity|]. unfold leave. destruct (snd (snd (enter s))); reflexivity.
Qed.
(** Finding: a failing log assertion inside [assert_reactpy_did_not_log] is taken for its success. *)
Theorem C102_swallowed_refuted c s body s2 : run body (fst (enter s)) = (Raised LogAssertion, s2) -> fst (exec (Block (DidNotLog c) body) s) = Completed.
Proof. intros RB. rewrite (exec_did_not_log c s body _ s2 RB). reflexivity. Qed.
(** Finding: if the server does not start, the logs are captured from then on, and the server goes on starting. *)
Theorem C103_start_refuted s : let '(o, s') := exec StartFails s in
  o = Raised (Other 0) /\ s_attached s' = true /\ s_level s' = 10 /\ s_servers s' = S (s_servers s).
Proof. cbn. auto. Qed.
End Code.
Print Assumptions C102_did_log_partial.
Print Assumptions C102_did_not_log_partial.
Print Assumptions C102_restored.
Print Assumptions C103_list.
Print Assumptions C103_remove_partial.
Print Assumptions C103_adjacent_refuted.
Print Assumptions C103_wrong_refuted.
Print Assumptions C103_fixture_partial.
Print Assumptions C103_fixture_refuted.
Print Assumptions C103_earlier_refuted.
Print Assumptions C102_swallowed_refuted.

(** ** Examples and findings *)

(** Classes: 0 is [Exception], 1 [ValueError], 2 [KeyError]. *)
Definition sub0 (a b : nat) : bool := Nat.eqb b 0 || Nat.eqb a b.
Definition about (m : string) : cond := Cond (String.eqb m) None None.
Definition said (i : nat) (m : string) : record := Rec i 20 m NoInfo.
Definition failed (i : nat) (m : string) : record := Rec i 40 m (Exc 1 m ("Traceback: " ++ m)).
Ltac steadily := cbn; repeat split; try lia.
(** The assertion about "ready" is in a block in which "starting" was logged, and passes because "ready" is logged in it. *)
Example C102_example : let s := snd (exec sub0 (Log (said 0 "starting")) (fst (enter (start_at 20)))) in
  let body := [Log (said 1 "ready"); Log (failed 2 "no")] in
  reached sub0 s /\ all_steady body /\ held (s_trace s) = [said 0 "starting"] /\
  fst (exec sub0 (Block (DidLog (about "ready")) body) s) = Completed /\
  fst (exec sub0 (Block (DidNotLog (about "ready")) body) s) = Raised LogAssertion /\
  fst (exec sub0 (Block (DidLog (Cond (fun _ => true) (Some 1) (Some (fun t => String.eqb t "Traceback: no")))) body) s) = Completed /\
  fst (exec sub0 (Block (DidLog (Cond (fun _ => true) (Some 2) None)) body) s) = Raised LogAssertion.
Proof.
  split; [|vm_compute; repeat split; lia]. apply (R_step _ (fst (enter (start_at 20))) (Log (said 0 "starting")) Completed); [|cbn; lia|reflexivity]. apply R_enter. apply R_start.
Qed.
(** Finding: in a block inside another one (a [BackendFixture], say) the assertion passes because of what was logged before its block. *)
Theorem C102_nested_refuted : exists s body, reached sub0 s /\ all_steady body /\
  let '(o, s') := exec sub0 (Block (DidLog (about "ready")) body) s in
  o = Completed /\ s_trace s' = s_trace s ++ [Opened; Closed] /\ fst (exec sub0 (Block (DidNotLog (about "ready")) body) s) = Raised LogAssertion.
Proof.
  exists (snd (exec sub0 (Log (said 0 "ready")) (fst (enter (start_at 20))))), []. split; [|vm_compute; auto].
  apply (R_step _ (fst (enter (start_at 20))) (Log (said 0 "ready")) Completed); [|cbn; lia|reflexivity]. apply R_enter. apply R_start.
Qed.
(** Finding: what is logged in a block inside another is not seen by the outer one. *)
Theorem C102_hidden_refuted : exists body, all_steady body /\
  let s := start_at 20 in let '(o, s') := exec sub0 (Block (DidNotLog (about "ready")) body) s in
  o = Completed /\ In (Logged (said 0 "ready")) (s_trace s') /\ fst (exec sub0 (Block (DidLog (about "ready")) body) s) = Raised LogAssertion.
Proof. exists [Block (DidLog (about "ready")) [Log (said 0 "ready")]]. split; [steadily|]. vm_compute. auto 10. Qed.
(** Finding: switching the debug mode in a block does not last, and records can be missed in it. *)
Theorem C102_level_refuted : exists r body, r_level r = 10 /\ let s := start_at 20 in
  let '(o, s') := exec sub0 (Block (DidNotLog (about "detail")) body) s in
  o = Completed /\ In (Logged r) (s_trace s') /\ r_message r = "detail"%string /\
  s_level (snd (exec sub0 (Block Captures [SetLevel 10]) s)) = 20.
Proof. exists (Rec 0 10 "detail" NoInfo), [SetLevel 20; Log (Rec 0 10 "detail" NoInfo)]. vm_compute. auto 10. Qed.
Example C102_swallowed_example : fst (exec sub0 (Block (DidNotLog (about "lost")) [Block (DidLog (about "ready")) []]) (start_at 20)) = Completed.
Proof. reflexivity. Qed.
(** Three errors: one is listed with its record removed, then two with nothing between them, then two with a record between them. *)
Example C103_example : let w := any_error in
  list_logged sub0 w true [said 0 "a"; failed 1 "b"; said 2 "c"] = ([failed 1 "b"], [said 0 "a"; said 2 "c"]) /\
  list_logged sub0 w true [failed 1 "b"; failed 2 "c"] = ([failed 1 "b"], [failed 2 "c"]) /\
  list_logged sub0 w true [failed 1 "b"; said 2 "c"; failed 3 "d"] = ([failed 1 "b"; failed 3 "d"], [failed 3 "d"]) /\
  list_logged sub0 w false [failed 1 "b"; said 2 "c"; failed 3 "d"] = ([failed 1 "b"; failed 3 "d"], [failed 1 "b"; said 2 "c"; failed 3 "d"]).
Proof. vm_compute. auto. Qed.
(** A fixture in which an error is logged ends as if nothing had happened; one in a block with an earlier error fails and keeps its server. *)
Example C103_fixture_example : let s := start_at 20 in let inside := snd (exec sub0 (Log (failed 1 "b")) (fst (enter s))) in
  exec sub0 (Block Fixture [Log (failed 1 "b")]) s = (Completed, State [] false 20 0 [Opened; Logged (failed 1 "b"); Closed]) /\
  reached sub0 inside /\ fst (exec sub0 (Block Fixture []) inside) = Raised LogAssertion /\ s_servers (snd (exec sub0 (Block Fixture []) inside)) = 1.
Proof.
  split; [vm_compute; reflexivity|]. split; [|vm_compute; auto].
  apply (R_step _ (fst (enter (start_at 20))) (Log (failed 1 "b")) Completed); [|cbn; lia|reflexivity]. apply R_enter. apply R_start.
Qed.
Print Assumptions C102_nested_refuted.
Print Assumptions C102_hidden_refuted.
Print Assumptions C102_level_refuted.
Print Assumptions C103_start_refuted.
