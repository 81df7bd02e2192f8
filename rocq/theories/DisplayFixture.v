(** * Model of the fixture that shows components to tests (/repo/src/reactpy/testing/display.py) and property C119

    A [DisplayFixture] is given a browser and a backend, or opens them itself, opens one page, mounts components and goes to
    addresses, and closes at the end of the block what is on its [AsyncExitStack]. Playwright is not part of /repo: opening
    something may fail, a page can only be made by a browser that is open, and only an open page can go anywhere. *)
From Coq Require Import String Bool Arith Lia List.
Import ListNotations.
Local Open Scope list_scope.

(** What is opened and closed. Simplified: timeouts, [expect.set_options] and the loggers of the page are not modelled. *)
Inductive kind := Playwright | Browser (headless : bool) | Page (browser : nat) | Backend.
Inductive event :=
| Opened (r : nat) (k : kind)
| Closed (r : nat)
| Mounted (backend : nat) (c : option nat)
| Went (page backend : nat) (path : string).
(** The number for the next resource, what is open (last first), and what has happened. *)
Record world := World { w_next : nat; w_open : list nat; w_log : list event }.
(** The fixture's attributes, display.py:28-46; [None]: not set. [f_stack]: the exit stack, last entered first. *)
Record fixture := Fixture { f_browser : option nat; f_backend : option nat; f_page : option nat; f_headless : bool; f_stack : list nat }.
(** [DisplayFixture.__init__], display.py:28-46. *)
Definition new (backend browser : option nat) (headless : bool) : fixture := Fixture browser backend None headless [].

Section Running.
(** Which resources cannot be opened; whether the environment variable [PLAYWRIGHT_VISIBLE] is "1" ([_playwright_visible], display.py:107-113,
    here called without a configuration). *)
Variable fails : nat -> bool.
Variable visible : bool.

Definition is_open (r : nat) (w : world) : bool := existsb (Nat.eqb r) (w_open w).
Definition note (e : event) (w : world) : world := World (w_next w) (w_open w) (w_log w ++ [e]).
(** Opening a resource: its number, unless it fails. *)
Definition opens (k : kind) (w : world) : option nat * world :=
  let n := w_next w in
  if fails n then (None, World (S n) (w_open w) (w_log w)) else (Some n, World (S n) (n :: w_open w) (w_log w ++ [Opened n k])).
Definition push (r : nat) (f : fixture) : fixture := Fixture (f_browser f) (f_backend f) (f_page f) (f_headless f) (r :: f_stack f).

(** [configure_page], display.py:77-95: [false]: an exception. *)
Definition configure_page (f : fixture) (w : world) : bool * fixture * world :=
  match f_page f with
  | Some _ => (true, f, w)
  | None =>
      match f_browser f with
      | None => (false, f, w)
      | Some b =>
          if is_open b w
          then match opens (Page b) w with
               | (Some p, w1) => (true, push p (Fixture (f_browser f) (f_backend f) (Some p) (f_headless f) (f_stack f)), w1)
               | (None, w1) => (false, f, w1)
               end
          else (false, f, w)
      end
  end.
(** Lines 62-66. *)
Definition open_browser (f : fixture) (w : world) : bool * fixture * world :=
  match f_browser f with
  | Some _ => (true, f, w)
  | None =>
      match opens Playwright w with
      | (None, w1) => (false, f, w1)
      | (Some pw, w1) =>
          let f1 := push pw f in
          match opens (Browser (negb visible)) w1 with
          | (None, w2) => (false, f1, w2)
          | (Some b, w2) => (true, push b (Fixture (Some b) (f_backend f1) (f_page f1) (f_headless f1) (f_stack f1)), w2)
          end
      end
  end.
(** Lines 71-73. *)
Definition open_backend (f : fixture) (w : world) : bool * fixture * world :=
  match f_backend f with
  | Some _ => (true, f, w)
  | None =>
      match opens Backend w with
      | (None, w1) => (false, Fixture (f_browser f) (Some (w_next w)) (f_page f) (f_headless f) (f_stack f), w1)
      | (Some s, w1) => (true, push s (Fixture (f_browser f) (Some s) (f_page f) (f_headless f) (f_stack f)), w1)
      end
  end.
(** [__aenter__], display.py:59-75. *)
Definition enter (f : fixture) (w : world) : bool * fixture * world :=
  let f0 := Fixture (f_browser f) (f_backend f) (f_page f) (f_headless f) [] in
  match open_browser f0 w with
  | (true, f1, w1) =>
      match configure_page f1 w1 with
      | (true, f2, w2) => open_backend f2 w2
      | r => r
      end
  | r => r
  end.

(** What a test does inside the block: [show], [goto] (with [ok = false] the navigation fails, after it was asked for), or raise an exception. *)
Inductive op := Show (c : nat) (ok : bool) | Goto (path : string) (ok : bool) | Raise.
(** [goto], display.py:55-57. *)
Definition goto (path : string) (ok : bool) (f : fixture) (w : world) : bool * fixture * world :=
  match configure_page f w with
  | (true, f1, w1) =>
      match f_page f1, f_backend f1 with
      | Some p, Some s => if is_open p w1 then (ok, f1, note (Went p s path) w1) else (false, f1, w1)
      | _, _ => (false, f1, w1)
      end
  | r => r
  end.
(** [show], display.py:48-53. *)
Definition show (c : nat) (ok : bool) (f : fixture) (w : world) : bool * fixture * world :=
  match f_backend f with
  | None => (false, f, w)
  | Some s => goto "/" ok f (note (Mounted s (Some c)) w)
  end.
Fixpoint perform (l : list op) (f : fixture) (w : world) : bool * fixture * world :=
  match l with
  | [] => (true, f, w)
  | x :: l' =>
      match (match x with Show c ok => show c ok f w | Goto path ok => goto path ok f w | Raise => (false, f, w) end) with
      | (true, f1, w1) => perform l' f1 w1
      | r => r
      end
  end.
(** [AsyncExitStack.aclose]: last entered first; each is closed even if another one raises. *)
Fixpoint close_all (stack : list nat) (w : world) : world :=
  match stack with
  | [] => w
  | r :: stack' => close_all stack' (World (w_next w) (remove Nat.eq_dec r (w_open w)) (w_log w ++ [Closed r]))
  end.
(** [__aexit__], display.py:97-104. *)
Definition exit (f : fixture) (w : world) : fixture * world :=
  match f_backend f with
  | None => (f, w)
  | Some s => (Fixture (f_browser f) (f_backend f) (f_page f) (f_headless f) [], close_all (f_stack f) (note (Mounted s None) w))
  end.
(** An [async with] block: without a successful [__aenter__] there is no [__aexit__]. The flag: no exception. *)
Definition block (l : list op) (f : fixture) (w : world) : bool * fixture * world :=
  match enter f w with
  | (true, f1, w1) => let '(ok, f2, w2) := perform l f1 w1 in let (f3, w3) := exit f2 w2 in (ok, f3, w3)
  | r => r
  end.
End Running.

(** ** Specification *)
(** What the page and the backend get to do, up to the first failure. *)
Fixpoint visits (page backend : nat) (l : list op) : list event :=
  match l with
  | [] => []
  | Show c ok :: l' => [Mounted backend (Some c); Went page backend "/"] ++ (if ok then visits page backend l' else [])
  | Goto path ok :: l' => Went page backend path :: (if ok then visits page backend l' else [])
  | Raise :: _ => []
  end.
Definition no_failure (l : list op) : bool := forallb (fun x => match x with Show _ ok | Goto _ ok => ok | Raise => false end) l.
(** Everything that is open has a number already. *)
Definition numbered (w : world) : Prop := forall r, In r (w_open w) -> r < w_next w.

(** ** C119 *)
Lemma open_iff r w : is_open r w = true <-> In r (w_open w).
Proof. unfold is_open. rewrite existsb_exists. split; [intros (x & X & E); apply Nat.eqb_eq in E; subst; exact X|intros I; exists r; split; [exact I|apply Nat.eqb_refl]]. Qed.

Lemma opens_eq fails k n open log : opens fails k (World n open log) = if fails n then (None, World (S n) open log) else (Some n, World (S n) (n :: open) (log ++ [Opened n k])).
Proof. reflexivity. Qed.
Lemma perform_spec fails page backend l : forall f w, f_page f = Some page -> f_backend f = Some backend -> In page (w_open w) ->
  perform fails l f w = (no_failure l, f, World (w_next w) (w_open w) (w_log w ++ visits page backend l)).
Proof.
  induction l as [|x l IH]; intros f w P B O; [cbn; rewrite app_nil_r; destruct w; reflexivity|].
  assert (G : forall path ok w, In page (w_open w) -> goto fails path ok f w = (ok, f, note (Went page backend path) w)).
  { intros path ok w' O'. unfold goto, configure_page. rewrite P. cbv iota. rewrite P, B. apply open_iff in O'. rewrite O'. reflexivity. }
  cbn [perform visits no_failure forallb]. destruct x as [c ok|path ok|].
  - unfold show. rewrite B, G by exact O. destruct ok; cbn [andb].
    + rewrite IH by assumption. cbn. rewrite <- !app_assoc. reflexivity.
    + unfold note. cbn. rewrite <- !app_assoc. reflexivity.
  - rewrite G by exact O. destruct ok; cbn [andb].
    + rewrite IH by assumption. cbn. rewrite <- !app_assoc. reflexivity.
    + unfold note. cbn. reflexivity.
  - cbn. rewrite app_nil_r. destruct w; reflexivity.
Qed.
Lemma remove_head (r : nat) l : ~ In r l -> remove Nat.eq_dec r (r :: l) = l.
Proof. intros N. cbn. destruct (Nat.eq_dec r r); [|congruence]. apply notin_remove. exact N. Qed.
Lemma close_spec stack : forall n l log, NoDup stack -> (forall r, In r stack -> ~ In r l) -> close_all stack (World n (stack ++ l) log) = World n l (log ++ map Closed stack).
Proof.
  induction stack as [|r stack IH]; intros n l log D N; cbn [close_all map app]; [rewrite app_nil_r; reflexivity|]. cbn [w_next w_open w_log]. inversion D; subst.
  rewrite remove_head.
  - rewrite IH; [rewrite <- app_assoc; reflexivity|assumption|intros x X; apply N; right; exact X].
  - intros I. apply in_app_or in I. destruct I as [I|I]; [contradiction|]. apply (N r); [left; reflexivity|exact I].
Qed.

Lemma close_eq stack l w : w_open w = stack ++ l -> NoDup stack -> (forall r, In r stack -> ~ In r l) -> close_all stack w = World (w_next w) l (w_log w ++ map Closed stack).
Proof. intros E D N. destruct w as [n open log]; cbn in *; subst. apply close_spec; assumption. Qed.

(** A block of a new fixture whose beginning succeeds: everything is shown in one page of the given browser, or its own one,
    and mounted on the given backend, or its own one; afterwards nothing is mounted, exactly what it has opened is closed, in
    reverse order, and all else is as before. That holds however the block ends. *)
Theorem C119_block fails visible given_backend given_browser headless l w :
  numbered w -> (forall b, given_browser = Some b -> In b (w_open w)) ->
  let f := new given_backend given_browser headless in
  fst (fst (enter fails visible f w)) = true ->
  exists browser page backend kinds,
    let own := map fst kinds in
    let '(ok, _, w') := block fails visible l f w in
    ok = no_failure l /\ w_open w' = w_open w /\
    w_log w' = w_log w ++ map (fun rk => Opened (fst rk) (snd rk)) kinds ++ visits page backend l ++ [Mounted backend None] ++ map Closed (rev own) /\
    In (page, Page browser) kinds /\
    (forall r k, In (r, k) kinds -> ~ In r (w_open w) /\
       match k with Playwright => given_browser = None | Browser h => given_browser = None /\ r = browser /\ h = negb visible | Page b => r = page /\ b = browser | Backend => given_backend = None /\ r = backend end) /\
    (forall b, given_browser = Some b -> browser = b) /\ (given_browser = None -> In (browser, Browser (negb visible)) kinds) /\
    (forall s, given_backend = Some s -> backend = s) /\ (given_backend = None -> In (backend, Backend) kinds).
Proof.
  intros N B. cbv zeta. destruct w as [n open log]. unfold numbered in N. cbn [w_next w_open w_log] in *. unfold block, enter, new, open_browser. cbn [f_browser f_backend f_page f_headless f_stack].
  assert (Fr : forall r, n <= r -> ~ In r open) by (intros r R I; specialize (N r I); lia).
  destruct given_browser as [b|].
  - unfold configure_page. cbn [f_browser f_backend f_page f_headless f_stack]. specialize (B b eq_refl).
    assert (O : is_open b (World n open log) = true) by (apply open_iff; exact B). rewrite O. unfold opens. cbn [w_next w_open w_log].
    destruct (fails n) eqn:F1; [discriminate|]. unfold open_backend. cbn [push f_browser f_backend f_page f_headless f_stack].
    destruct given_backend as [s|].
    + intros _. exists b, n, s, [(n, Page b)].
      rewrite (perform_spec fails n s) by (try reflexivity; left; reflexivity). unfold exit, note, push. cbn [w_next w_open w_log f_browser f_backend f_page f_headless f_stack].
      rewrite (close_eq [n] open); [|reflexivity|repeat constructor; intros []|intros r [<-|[]]; apply Fr; lia].
      cbn [w_open w_log map rev fst snd app]. split; [reflexivity|]. split; [reflexivity|]. split; [rewrite <- !app_assoc; reflexivity|]. split; [left; reflexivity|].
      split; [intros r k [[= <- <-]|[]]; split; [apply Fr; lia|split; reflexivity]|]. repeat split; try discriminate; intros ? [= <-]; reflexivity.
    + unfold opens. cbn [w_next w_open w_log]. destruct (fails (S n)) eqn:F2; [discriminate|]. intros _. exists b, n, (S n), [(n, Page b); (S n, Backend)].
      cbn [push f_browser f_backend f_page f_headless f_stack].
      rewrite (perform_spec fails n (S n)) by (try reflexivity; right; left; reflexivity). unfold exit, note, push. cbn [w_next w_open w_log f_browser f_backend f_page f_headless f_stack].
      rewrite (close_eq [S n; n] open); [|reflexivity|constructor; [intros [E|[]]; lia|repeat constructor; intros []]|intros r [<-|[<-|[]]]; apply Fr; lia].
      cbn [w_open w_log map rev fst snd app]. split; [reflexivity|]. split; [reflexivity|]. split; [rewrite <- !app_assoc; reflexivity|]. split; [left; reflexivity|].
      split; [intros r k [[= <- <-]|[[= <- <-]|[]]]; (split; [apply Fr; lia|split; reflexivity])|].
      split; [intros ? [= <-]; reflexivity|]. split; [discriminate|]. split; [discriminate|]. intros _. right. left. reflexivity.
  - rewrite opens_eq. destruct (fails n) eqn:F0; [discriminate|].
    cbv iota beta zeta. rewrite opens_eq. destruct (fails (S n)) eqn:F1; [discriminate|].
    unfold configure_page. cbn [push f_browser f_backend f_page f_headless f_stack].
    match goal with |- context [is_open ?b ?w] => assert (O : is_open b w = true) by (apply open_iff; left; reflexivity); rewrite O end.
    unfold opens. cbn [w_next w_open w_log]. destruct (fails (S (S n))) eqn:F2; [discriminate|]. unfold open_backend. cbn [push f_browser f_backend f_page f_headless f_stack].
    destruct given_backend as [s|].
    + intros _. exists (S n), (S (S n)), s, [(n, Playwright); (S n, Browser (negb visible)); (S (S n), Page (S n))].
      rewrite (perform_spec fails (S (S n)) s) by (try reflexivity; left; reflexivity). unfold exit, note, push. cbn [w_next w_open w_log f_browser f_backend f_page f_headless f_stack].
      rewrite (close_eq [S (S n); S n; n] open); [|reflexivity|repeat constructor; cbn; lia|intros r [<-|[<-|[<-|[]]]]; apply Fr; lia].
      cbn [w_open w_log map rev fst snd app]. split; [reflexivity|]. split; [reflexivity|]. split; [rewrite <- !app_assoc; reflexivity|]. split; [right; right; left; reflexivity|].
      split; [intros r k [[= <- <-]|[[= <- <-]|[[= <- <-]|[]]]]; (split; [apply Fr; lia|repeat split])|].
      split; [discriminate|]. split; [intros _; right; left; reflexivity|]. split; [intros ? [= <-]; reflexivity|discriminate].
    + unfold opens. cbn [w_next w_open w_log]. destruct (fails (S (S (S n)))) eqn:F3; [discriminate|].
      intros _. exists (S n), (S (S n)), (S (S (S n))), [(n, Playwright); (S n, Browser (negb visible)); (S (S n), Page (S n)); (S (S (S n)), Backend)].
      cbn [push f_browser f_backend f_page f_headless f_stack].
      rewrite (perform_spec fails (S (S n)) (S (S (S n)))) by (try reflexivity; right; left; reflexivity). unfold exit, note, push. cbn [w_next w_open w_log f_browser f_backend f_page f_headless f_stack].
      rewrite (close_eq [S (S (S n)); S (S n); S n; n] open); [|reflexivity|repeat constructor; cbn; lia|intros r [<-|[<-|[<-|[<-|[]]]]]; apply Fr; lia].
      cbn [w_open w_log map rev fst snd app]. split; [reflexivity|]. split; [reflexivity|]. split; [rewrite <- !app_assoc; reflexivity|]. split; [right; right; left; reflexivity|].
      split; [intros r k [[= <- <-]|[[= <- <-]|[[= <- <-]|[[= <- <-]|[]]]]]; (split; [apply Fr; lia|repeat split])|].
      split; [discriminate|]. split; [intros _; right; left; reflexivity|]. split; [discriminate|]. intros _. right. right. right. left. reflexivity.
Qed.

(** Findings. If the beginning of the block fails, here because the backend does not start, the browser and the page stay open. *)
Theorem C119_leak_refuted : let w := World 0 [] [] in
  let '(ok, _, w') := block (fun r => Nat.eqb r 3) false [] (new None None false) w in
  ok = false /\ w_open w' = [2; 1; 0] /\ w_log w' = [Opened 0 Playwright; Opened 1 (Browser true); Opened 2 (Page 1)].
Proof. vm_compute. repeat split. Qed.
(** In a second block the fixture uses the page that the first one has closed: the component is mounted, but nothing is shown. *)
Theorem C119_twice_refuted : let w := World 2 [1; 0] [] in let f := new (Some 0) (Some 1) false in
  let '(ok1, f1, w1) := block (fun _ => false) false [Show 7 true] f w in
  let '(ok2, _, w2) := block (fun _ => false) false [Show 8 true] f1 w1 in
  ok1 = true /\ ok2 = false /\ w_log w1 = [Opened 2 (Page 1); Mounted 0 (Some 7); Went 2 0 "/"; Mounted 0 None; Closed 2] /\
  w_log w2 = w_log w1 ++ [Mounted 0 (Some 8); Mounted 0 None].
Proof. vm_compute. repeat split. Qed.
(** The argument [headless] makes no difference: the browser is headless unless the environment says otherwise. *)
Theorem C119_headless_refuted : ~ forall visible headless r h,
  In (Opened r (Browser h)) (w_log (snd (enter (fun _ => false) visible (new None None headless) (World 0 [] [])))) -> h = headless.
Proof. intros H. assert (true = false) by (apply (H false false 1); vm_compute; right; left; reflexivity). discriminate. Qed.

(** A block with everything of its own and one with a given browser and backend, the second with a failing navigation. *)
Example C119_nonvacuous : let w := World 2 [1; 0] [] in
  numbered w /\ fst (fst (enter (fun _ => false) false (new None None true) w)) = true /\
  (let '(ok, _, w') := block (fun _ => false) false [Show 7 true; Goto "/a" true] (new None None true) w in
   ok = true /\ w_open w' = [1; 0] /\
   w_log w' = [Opened 2 Playwright; Opened 3 (Browser true); Opened 4 (Page 3); Opened 5 Backend; Mounted 5 (Some 7); Went 4 5 "/"; Went 4 5 "/a";
               Mounted 5 None; Closed 5; Closed 4; Closed 3; Closed 2]) /\
  (let '(ok, _, w') := block (fun _ => false) true [Show 7 false; Goto "/a" true] (new (Some 0) (Some 1) true) w in
   ok = false /\ w_open w' = [1; 0] /\ w_log w' = [Opened 2 (Page 1); Mounted 0 (Some 7); Went 2 0 "/"; Mounted 0 None; Closed 2]).
Proof. vm_compute. repeat split. intros r [<-|[<-|[]]]; repeat constructor. Qed.

Print Assumptions C119_block.
Print Assumptions C119_leak_refuted.
Print Assumptions C119_twice_refuted.
Print Assumptions C119_headless_refuted.
