(** * Warnings about children without keys (C105)

    In debug mode, constructing an element looks at the lists among its children and warns about the items that have no key.
    This file models the flattening of the children with these warnings, [_warnings.warn], which attributes a warning to the
    code that called into the package, and how Python finds the frame that a stack level names. *)

From Coq Require Import String Ascii Bool Arith Lia List.
Import ListNotations.
Open Scope string_scope.

(** ** The call stack *)

(** A frame of the Python stack: [__name__] of its globals (absent if the globals have none), a number for the place in the
    source, and whether its file is one of importlib's bootstrap files. *)
Record frame := { f_name : option string; f_place : nat; f_importlib : bool }.

(** One turn of the loop of [_frame_depth_in_module], _warnings.py:22-25: the loop goes on if there is a name, not empty, that
    starts with the prefix.  (The empty name does not start with it either.) *)
Definition in_module (f : frame) : bool :=
  match f_name f with Some name => prefix "reactpy." name | None => false end.

(** [_iter_frames], _warnings.py:29-36, on the stack with the generator's own frame first. *)
Fixpoint iter_frames (index : nat) (stack : list frame) : list frame :=
  match index, stack with
  | O, _ => stack
  | S index', _ :: stack' => iter_frames index' stack'
  | S _, [] => []
  end.

Fixpoint leading (frames : list frame) : nat :=
  match frames with f :: fs => if in_module f then S (leading fs) else 0 | [] => 0 end.

(** A frame of a function of the package; the place is the line on which the function is defined. *)
Definition pkg_frame (module : string) (place : nat) : frame := {| f_name := Some module; f_place := place; f_importlib := false |}.

(** [_frame_depth_in_module], _warnings.py:19-26; [stack] has the caller first.  The frames of the generator and of this
    function are the two that [_iter_frames(2)] leaves out. *)
Definition frame_depth (stack : list frame) : nat :=
  leading (iter_frames 2 (pkg_frame "reactpy._warnings" 29 :: pkg_frame "reactpy._warnings" 19 :: stack)).

(** [_next_external_frame] of Python's warnings module: the next frame that is not one of importlib's. *)
Fixpoint drop_importlib (stack : list frame) : list frame :=
  match stack with f :: fs => if f_importlib f then drop_importlib fs else stack | [] => [] end.

Fixpoint externals (n : nat) (stack : list frame) : list frame :=
  match n with O => stack | S n' => externals n' (drop_importlib (tl stack)) end.

(** Where [warnings.warn(..., stacklevel=level)] of Python puts a warning; [stack] has its caller first.  [None] stands for the
    place "sys", line 1, which is used if the stack is not that deep.  Levels are at least 1 here. *)
Definition py_where (level : nat) (stack : list frame) : option frame :=
  if Nat.leb level 1 || match stack with f :: _ => f_importlib f | [] => false end then nth_error stack (level - 1)
  else hd_error (externals (level - 1) stack).

(** ** Children *)

(** What may be given as a child, as far as [_flatten_children] tells them apart: a text or any other object that is neither a
    mapping nor iterable; a component with its key ([None] if it has none); an element, or any mapping, with the entry "key" of
    its attributes ([None]: no entry, [Some None]: the value None); and an iterable, with whether it has a length, and its items.
    The numbers stand for everything else about an object.  Not modelled: mappings whose "attributes" are not a mapping;
    an iterable with a length whose items differ from one iteration to the next; exceptions in a [__repr__]. *)
Inductive value :=
| Text (n : nat)
| Comp (n : nat) (key : option nat)
| Elem (n : nat) (key : option (option nat))
| Items (sized : bool) (l : list value).

Inductive about := NoKey (child : value) | NotVerified (iterable : value).
Record warning := { w_about : about; w_where : option frame }.

(** What a call gives: its result, or [None] if a warning was turned into an exception, and the warnings so far. *)
Definition out (A : Type) : Type := option A * list warning.
Definition ret {A} (a : A) : out A := (Some a, []).
Definition bind {A B} (x : out A) (f : A -> out B) : out B :=
  match x with
  | (Some a, ws) => let (r, ws') := f a in (r, (ws ++ ws')%list)
  | (None, ws) => (None, ws)
  end.

(** [warn], _warnings.py:9-12; [strict]: the user's filters turn warnings into exceptions.  [stack] has the caller first. *)
Definition warn (strict : bool) (what : about) (stack : list frame) : out unit :=
  let stack' := pkg_frame "reactpy._warnings" 10 :: stack in
  (if strict then None else Some tt, [{| w_about := what; w_where := py_where (frame_depth stack' + 1) stack' |}]).

Definition vdom_frame (place : nat) : frame := pkg_frame "reactpy.core.vdom" place.

(** The loop of [_validate_child_key_integrity], vdom.py:275-283. *)
Fixpoint check_items (strict : bool) (stack : list frame) (l : list value) : out unit :=
  match l with
  | [] => ret tt
  | child :: l' =>
      bind (match child with
            | Comp _ None => warn strict (NoKey child) stack
            | Elem _ None => warn strict (NoKey child) stack
            | _ => ret tt
            end) (fun _ => check_items strict stack l')
  end.

(** [_validate_child_key_integrity], vdom.py:268-283. *)
Definition validate (strict : bool) (stack : list frame) (sized : bool) (l : list value) : out unit :=
  let stack' := vdom_frame 268 :: stack in
  if sized then check_items strict stack' l else warn strict (NotVerified (Items sized l)) stack'.

(** [_flatten_children] and [_is_single_child], vdom.py:250-265: what one child contributes, with the frame of
    [_flatten_children] first in [stack]. *)
Fixpoint flatten1 (debug strict : bool) (stack : list frame) (v : value) {struct v} : out (list value) :=
  match v with
  | Items sized l =>
      bind (if debug then validate strict (vdom_frame 260 :: stack) sized l else ret tt) (fun _ =>
      (fix go (l : list value) : out (list value) :=
         match l with
         | [] => ret []
         | x :: l' => bind (flatten1 debug strict (vdom_frame 250 :: stack) x) (fun a => bind (go l') (fun b => ret (a ++ b)%list))
         end) l)
  | _ => ret [v]
  end.

Definition flatten (debug strict : bool) (stack : list frame) : list value -> out (list value) :=
  fix go (l : list value) : out (list value) :=
    match l with
    | [] => ret []
    | x :: l' => bind (flatten1 debug strict (vdom_frame 250 :: stack) x) (fun a => bind (go l') (fun b => ret (a ++ b)%list))
    end.

(** The children of [Vdom.__call__], vdom.py:169-173 and 209-225, called from the frame that is first in [stack].  A
    dictionary of attributes as the first argument does not count as a child and is left out. *)
Definition construct (debug strict : bool) (stack : list frame) (children : list value) : out (list value) :=
  flatten debug strict (vdom_frame 209 :: vdom_frame 169 :: stack) children.

(** ** Specification *)

(** [w] is [v], or given inside it at some depth. *)
Inductive inside : value -> value -> Prop :=
| in_self v : inside v v
| in_item s l x w : In x l -> inside x w -> inside (Items s l) w.

Definition given (children : list value) (w : value) : Prop := exists c, In c children /\ inside c w.

(** [x] is an item of a list, at any depth, among the children. *)
Definition listed (children : list value) (x : value) : Prop := exists l, given children (Items true l) /\ In x l.

(** [x] can only be told from its siblings by its position. *)
Definition keyless (x : value) : Prop :=
  match x with Comp _ None | Elem _ None | Elem _ (Some None) => True | _ => False end.

Definition no_none_key (children : list value) : Prop := forall n, ~ given children (Elem n (Some None)).

(** Code of a module below the package. *)
Definition part_of_package (g : frame) : Prop := exists name, f_name g = Some ("reactpy." ++ name).
Definition warnings {A} (o : out A) : list warning := snd o.
Definition result {A} (o : out A) : option A := fst o.
Definition warned {A} (o : out A) (what : about) : Prop := exists w, In w (warnings o) /\ w_about w = what.

(** The number of warnings: one for each occurrence of a child without a key in a list, and one for each iterable without a
    length. *)
Fixpoint unkeyed (l : list value) : nat :=
  match l with
  | Comp _ None :: l' | Elem _ None :: l' => S (unkeyed l')
  | _ :: l' => unkeyed l'
  | [] => 0
  end.
Fixpoint total (v : value) : nat :=
  match v with
  | Items s l => (if s then unkeyed l else 1) + list_sum (map total l)
  | _ => 0
  end.

(** Elements, components and texts in the order they are given. *)
Fixpoint plain (v : value) : list value :=
  match v with Items _ l => flat_map plain l | _ => [v] end.

(** ** Where a warning is put *)

Lemma externals_spec pkg f rest :
  Forall (fun g => in_module g = true /\ f_importlib g = false) pkg -> f_importlib f = false -> forall g, f_importlib g = false ->
  hd_error (externals (S (length pkg)) (g :: pkg ++ f :: rest)) = Some f.
Proof.
  intros F I. induction F as [|h pkg [A B] F IH]; intros g G.
  - cbn [length externals tl app drop_importlib]. rewrite I. reflexivity.
  - cbn [length]. change (externals (S (S (length pkg))) (g :: (h :: pkg) ++ f :: rest)) with (externals (S (length pkg)) (drop_importlib ((h :: pkg) ++ f :: rest))).
    cbn [app drop_importlib]. rewrite B. exact (IH h B).
Qed.

Lemma leading_spec pkg f rest :
  Forall (fun g => in_module g = true /\ f_importlib g = false) pkg -> in_module f = false -> leading (pkg ++ f :: rest) = length pkg.
Proof.
  intros F I. induction F as [|h pkg [A B] F IH]; cbn [app leading length]; [rewrite I|rewrite A, IH]; reflexivity.
Qed.

Lemma where_caller strict what pkg f rest :
  Forall (fun g => in_module g = true /\ f_importlib g = false) pkg -> in_module f = false -> f_importlib f = false ->
  warnings (warn strict what (pkg ++ f :: rest)) = [{| w_about := what; w_where := Some f |}].
Proof.
  intros F I J. unfold warn, warnings. cbn [snd]. do 2 f_equal. unfold frame_depth. cbn [iter_frames].
  set (g := pkg_frame "reactpy._warnings" 10).
  assert (L : leading (g :: pkg ++ f :: rest) = S (length pkg)) by (cbn [leading]; change (in_module g) with true; cbn iota; rewrite (leading_spec _ _ _ F I); reflexivity).
  rewrite L. unfold py_where. replace (S (length pkg) + 1) with (S (S (length pkg))) by lia. cbn [Nat.leb orb f_importlib g pkg_frame].
  replace (S (S (length pkg)) - 1) with (S (length pkg)) by lia. exact (externals_spec pkg f rest F J g eq_refl).
Qed.

(** ** The warnings of a construction *)

Lemma value_deep (P : value -> Prop) :
  (forall n, P (Text n)) -> (forall n k, P (Comp n k)) -> (forall n k, P (Elem n k)) ->
  (forall s l, Forall P l -> P (Items s l)) -> forall v, P v.
Proof.
  intros A B C D. fix IH 1. intros [n|n k|n k|s l]; [apply A|apply B|apply C|]. apply D. induction l; constructor; [apply IH|exact IHl].
Qed.

Lemma flatten1_items debug strict stack s l :
  flatten1 debug strict stack (Items s l) =
  bind (if debug then validate strict (vdom_frame 260 :: stack) s l else ret tt) (fun _ => flatten debug strict stack l).
Proof.
  reflexivity.
Qed.

Lemma flatten_cons debug strict stack x l :
  flatten debug strict stack (x :: l) =
  bind (flatten1 debug strict (vdom_frame 250 :: stack) x) (fun a => bind (flatten debug strict stack l) (fun b => ret (a ++ b)%list)).
Proof. reflexivity. Qed.

(** Without [strict] nothing fails and warnings of parts are put together. *)
Lemma bind_some {A B} (x : out A) (f : A -> out B) a ws : x = (Some a, ws) -> bind x f = (fst (f a), (ws ++ snd (f a))%list).
Proof. intros ->. unfold bind. destruct (f a). reflexivity. Qed.

Lemma lenient_items stack l : exists ws, check_items false stack l = (Some tt, ws) /\ length ws = unkeyed l /\
  forall a, (exists w, In w ws /\ w_about w = a) <-> exists x, In x l /\ a = NoKey x /\ match x with Comp _ None | Elem _ None => True | _ => False end.
Proof.
  induction l as [|x l (ws & E & L & W)].
  - exists []. split; [reflexivity|]. split; [reflexivity|]. intros a. split; [intros (w & [] & _)|intros (x & [] & _)].
  - assert (C : (exists n, x = Comp n None) \/ (exists n, x = Elem n None) \/ match x with Comp _ None | Elem _ None => False | _ => True end)
      by (destruct x as [n|n [k|]|n [k|]|s k]; eauto).
    destruct C as [(n & ->)|[(n & ->)|C]].
    1, 2: eexists; split; [cbn [check_items]; erewrite bind_some; [rewrite E; cbn [fst snd]; reflexivity|reflexivity]|]; cbn [app length unkeyed];
      split; [rewrite L; reflexivity|]; intros a; split;
      [intros (w & [<-|I] & <-); [eexists; split; [left; reflexivity|split; [reflexivity|exact Logic.I]]|
         destruct (proj1 (W _) (ex_intro _ w (conj I eq_refl))) as (x & J & K); exists x; split; [right; exact J|exact K]]
      |intros (x & [<-|J] & -> & K); [eexists; split; [left; reflexivity|reflexivity]|
         destruct (proj2 (W _) (ex_intro _ x (conj J (conj eq_refl K)))) as (w & I & M); exists w; split; [right; exact I|exact M]]].
    exists ws. split.
    { cbn [check_items]. destruct x as [n|n [k|]|n [k|]|s k]; try contradiction; erewrite bind_some; try reflexivity; rewrite E; reflexivity. }
    split. { rewrite L. destruct x as [n|n [k|]|n [k|]|s k]; try contradiction; reflexivity. }
    intros a. rewrite W. split; intros (y & I & -> & K).
    + exists y. split; [right; exact I|]. auto.
    + destruct I as [->|I]; [|eauto]. exfalso. destruct y as [n|n [k|]|n [k|]|s k]; contradiction.
Qed.

Definition expected (l : list value) (a : about) : Prop :=
  (exists x, listed l x /\ a = NoKey x /\ match x with Comp _ None | Elem _ None => True | _ => False end) \/
  (exists k, given l (Items false k) /\ a = NotVerified (Items false k)).

Lemma given_cons x l w : given (x :: l) w <-> inside x w \/ given l w.
Proof.
  split.
  - intros (c & [->|I] & J); [left; exact J|right; exists c; auto].
  - intros [J|(c & I & J)]; [exists x|exists c]; cbn; auto.
Qed.

Lemma expected_cons x l a : expected (x :: l) a <-> expected [x] a \/ expected l a.
Proof.
  assert (N : forall w, ~ given [] w) by (intros w (c & [] & _)).
  unfold expected, listed. split.
  - intros [(y & (k & G & I) & R)|(k & G & R)]; apply given_cons in G as [G|G].
    + left. left. exists y. split; [|exact R]. exists k. rewrite given_cons. auto.
    + right. left. exists y. split; [|exact R]. exists k. auto.
    + left. right. exists k. rewrite given_cons. auto.
    + right. right. exists k. auto.
  - intros [[(y & (k & G & I) & R)|(k & G & R)]|[(y & (k & G & I) & R)|(k & G & R)]].
    + left. exists y. split; [|exact R]. exists k. rewrite given_cons in *. destruct G as [G|G]; [auto|destruct (N _ G)].
    + right. exists k. rewrite given_cons in *. destruct G as [G|G]; [auto|destruct (N _ G)].
    + left. exists y. split; [|exact R]. exists k. rewrite given_cons. auto.
    + right. exists k. rewrite given_cons. auto.
Qed.

Lemma expected_items s l a :
  expected [Items s l] a <->
  (if s then exists x, In x l /\ a = NoKey x /\ match x with Comp _ None | Elem _ None => True | _ => False end else a = NotVerified (Items false l)) \/ expected l a.
Proof.
  assert (G : forall w, given [Items s l] w <-> w = Items s l \/ given l w).
  { intros w. split.
    - intros (c & [<-|[]] & J). inversion J as [v|s' l' x w' I K]; subst; [left; reflexivity|right; exists x; auto].
    - intros [->|(c & I & J)]; exists (Items s l); (split; [left; reflexivity|]); [constructor|econstructor; eauto]. }
  unfold expected, listed. split.
  - intros [(y & (k & H & I) & R)|(k & H & R)]; apply G in H as [H|H].
    + injection H as <- <-. left. eauto.
    + right. left. exists y. split; [|exact R]. exists k. auto.
    + injection H as <- <-. left. exact R.
    + right. right. eauto.
  - intros [R|[(y & (k & H & I) & R)|(k & H & R)]].
    + destruct s.
      * destruct R as (x & I & R). left. exists x. split; [|exact R]. exists l. rewrite G. auto.
      * right. exists l. rewrite G. auto.
    + left. exists y. split; [|exact R]. exists k. rewrite G. auto.
    + right. exists k. rewrite G. auto.
Qed.

(** A stack on which the package was called from [f]. *)
Definition from (f : frame) (stack : list frame) : Prop :=
  exists pkg rest, stack = (pkg ++ f :: rest)%list /\ Forall (fun g => in_module g = true /\ f_importlib g = false) pkg /\ in_module f = false /\ f_importlib f = false.

Lemma from_push f stack n : from f stack -> from f (vdom_frame n :: stack).
Proof.
  intros (pkg & rest & -> & F & I & J). exists (vdom_frame n :: pkg), rest. split; [reflexivity|]. split; [|auto]. constructor; [split; reflexivity|exact F].
Qed.

Lemma warn_from strict what f stack : from f stack -> forall w, In w (warnings (warn strict what stack)) -> w_where w = Some f.
Proof.
  intros (pkg & rest & -> & F & I & J) w H. rewrite where_caller in H by assumption. destruct H as [<-|[]]. reflexivity.
Qed.

Lemma bind_from {A B} (f : frame) (x : out A) (g : A -> out B) :
  (forall w, In w (warnings x) -> w_where w = Some f) -> (forall a w, In w (warnings (g a)) -> w_where w = Some f) ->
  forall w, In w (warnings (bind x g)) -> w_where w = Some f.
Proof.
  intros X G w. destruct x as [[a|] ws]; unfold bind, warnings in *; cbn [snd] in *.
  - specialize (G a). destruct (g a) as [r ws']. cbn [snd] in *. rewrite in_app_iff. intros [I|I]; auto.
  - exact (X w).
Qed.

Lemma ret_from {A} (a : A) f w : In w (warnings (ret a)) -> w_where w = Some f.
Proof. intros []. Qed.

Lemma validate_from strict f stack s l : from f stack -> forall w, In w (warnings (validate strict stack s l)) -> w_where w = Some f.
Proof.
  intros F. unfold validate. apply (from_push _ _ 268) in F. destruct s; [|apply warn_from; exact F].
  induction l as [|x l IH]; [apply ret_from|]. cbn [check_items]. apply bind_from; [|intros _; exact IH].
  destruct x as [n|n [k|]|n [k|]|s k]; try apply ret_from; apply warn_from; exact F.
Qed.

Lemma flatten1_from debug strict f : forall v stack, from f stack -> forall w, In w (warnings (flatten1 debug strict stack v)) -> w_where w = Some f.
Proof.
  induction v as [n|n k|n k|s l IH] using value_deep; intros stack F; try apply ret_from.
  rewrite flatten1_items. apply bind_from.
  - destruct debug; [apply validate_from, from_push, F|apply ret_from].
  - intros _. induction IH as [|x l X _ IHl]; [apply ret_from|]. rewrite flatten_cons. apply bind_from; [apply X, from_push, F|].
    intros a. apply bind_from; [exact IHl|]. intros b. apply ret_from.
Qed.

Lemma flatten_from debug strict f stack l : from f stack -> forall w, In w (warnings (flatten debug strict stack l)) -> w_where w = Some f.
Proof.
  intros F. induction l as [|x l IH]; [apply ret_from|]. rewrite flatten_cons. apply bind_from; [apply flatten1_from, from_push, F|].
  intros a. apply bind_from; [exact IH|]. intros b. apply ret_from.
Qed.

Lemma in_module_spec g : in_module g = true <-> part_of_package g.
Proof.
  assert (P : forall p s, prefix p s = true <-> exists rest, s = (p ++ rest)%string).
  { induction p as [|a p IH]; intros s; [split; [exists s; reflexivity|destruct s; reflexivity]|].
    destruct s as [|b s]; cbn [prefix]; [split; [discriminate|intros [r E]; discriminate]|]. destruct (Ascii.ascii_dec a b) as [->|N].
    - rewrite IH. split; intros [r E]; exists r; [rewrite E; reflexivity|injection E as E; exact E].
    - split; [discriminate|intros [r E]; injection E as E _; congruence]. }
  unfold in_module, part_of_package. destruct (f_name g) as [n|].
  - rewrite P. split; intros [r E]; exists r; [rewrite E; reflexivity|injection E as E; exact E].
  - split; [discriminate|intros [r E]; discriminate].
Qed.

(** C105: every warning is put where the code that is not part of the package called into it, at any nesting of the lists and
    however many functions of the package are in between. *)
Theorem C105_where debug strict pkg f rest children w :
  Forall (fun g => part_of_package g /\ f_importlib g = false) pkg -> ~ part_of_package f -> f_importlib f = false ->
  In w (warnings (construct debug strict (pkg ++ f :: rest) children)) -> w_where w = Some f.
Proof.
  intros F I J. apply flatten_from. do 2 apply from_push. exists pkg, rest. split; [reflexivity|]. split.
  - eapply Forall_impl; [|exact F]. intros g [A B]. split; [apply in_module_spec, A|exact B].
  - split; [|exact J]. destruct (in_module f) eqn:E; [|reflexivity]. apply in_module_spec in E. contradiction.
Qed.

Lemma lenient_validate stack s l : exists ws, validate false stack s l = (Some tt, ws) /\ length ws = (if s then unkeyed l else 1) /\
  forall a, (exists w, In w ws /\ w_about w = a) <->
  (if s then exists x, In x l /\ a = NoKey x /\ match x with Comp _ None | Elem _ None => True | _ => False end else a = NotVerified (Items false l)).
Proof.
  destruct s.
  - apply lenient_items.
  - eexists. split; [reflexivity|]. split; [reflexivity|]. intros a. split.
    + intros (w & [<-|[]] & <-). reflexivity.
    + intros ->. eexists. split; [left; reflexivity|reflexivity].
Qed.

Lemma ex_app (ws ws' : list warning) a :
  (exists w, In w (ws ++ ws')%list /\ w_about w = a) <-> (exists w, In w ws /\ w_about w = a) \/ (exists w, In w ws' /\ w_about w = a).
Proof.
  split.
  - intros (w & I & E). apply in_app_iff in I as [I|I]; eauto.
  - intros [(w & I & E)|(w & I & E)]; exists w; rewrite in_app_iff; auto.
Qed.

Definition good (stack : list frame) (l : list value) : Prop :=
  exists ws, flatten true false stack l = (Some (flat_map plain l), ws) /\ length ws = list_sum (map total l) /\
  forall a, (exists w, In w ws /\ w_about w = a) <-> expected l a.

Definition good1 (stack : list frame) (v : value) : Prop :=
  exists ws, flatten1 true false stack v = (Some (plain v), ws) /\ length ws = total v /\
  forall a, (exists w, In w ws /\ w_about w = a) <-> expected [v] a.

Lemma good_nil stack : good stack [].
Proof.
  exists []. split; [reflexivity|]. split; [reflexivity|]. intros a. split; [intros (w & [] & _)|].
  intros [(x & (k & (c & [] & _) & _) & _)|(k & (c & [] & _) & _)].
Qed.

Lemma good_cons stack x l : good1 (vdom_frame 250 :: stack) x -> good stack l -> good stack (x :: l).
Proof.
  intros (ws & E & L & W) (ws' & E' & L' & W'). exists (ws ++ ws')%list. split.
  { rewrite flatten_cons. erewrite bind_some by exact E. erewrite bind_some by exact E'. cbn [fst snd ret]. rewrite app_nil_r. reflexivity. }
  split. { rewrite app_length, L, L'. reflexivity. }
  intros a. rewrite ex_app, W, W', <- expected_cons. reflexivity.
Qed.

Lemma all_good v : forall stack, good1 stack v.
Proof.
  induction v as [n|n k|n k|s l IH] using value_deep; intros stack.
  1-3: exists []; split; [reflexivity|]; split; [reflexivity|]; intros a; split; [intros (w & [] & _)|];
    intros [(x & (j & (c & [<-|[]] & I) & _) & _)|(j & (c & [<-|[]] & I) & _)]; inversion I.
  assert (G : good stack l).
  { induction IH as [|x l X _ IHl]; [apply good_nil|]. apply good_cons; auto. }
  destruct G as (ws' & E' & L' & W'). destruct (lenient_validate (vdom_frame 260 :: stack) s l) as (ws & E & L & W).
  exists (ws ++ ws')%list. split.
  { rewrite flatten1_items. erewrite bind_some by exact E. rewrite E'. reflexivity. }
  split. { rewrite app_length, L, L'. reflexivity. }
  intros a. rewrite ex_app, W, W', expected_items. reflexivity.
Qed.

Lemma flatten_good stack l : good stack l.
Proof. induction l as [|x l IH]; [apply good_nil|]. apply good_cons; [apply all_good|exact IH]. Qed.

(** C105: the children themselves are the same with and without the checks: those given, in their order. *)
Theorem C105_children debug stack children :
  result (construct debug false stack children) = Some (flat_map plain children).
Proof.
  unfold construct. generalize (vdom_frame 209 :: vdom_frame 169 :: stack). clear stack. intros stack. destruct debug.
  - destruct (flatten_good stack children) as (ws & -> & _). reflexivity.
  - assert (Q1 : forall v stack, flatten1 false false stack v = (Some (plain v), [])).
    { induction v as [n|n k|n k|s l IH] using value_deep; intros st; try reflexivity. rewrite flatten1_items. cbn [plain].
      erewrite bind_some by reflexivity. cbn [app].
      assert (Q : flatten false false st l = (Some (flat_map plain l), [])).
      { induction IH as [|x l X _ IHl]; [reflexivity|]. rewrite flatten_cons, X. erewrite bind_some by reflexivity. rewrite IHl. reflexivity. }
      rewrite Q. reflexivity. }
    assert (Q : flatten false false stack children = (Some (flat_map plain children), [])).
    { induction children as [|x l IHl]; [reflexivity|]. rewrite flatten_cons, Q1. erewrite bind_some by reflexivity. rewrite IHl. reflexivity. }
    rewrite Q. reflexivity.
Qed.

(** C105: outside debug mode nothing is checked, whatever the filters do with warnings. *)
Theorem C105_quiet strict stack children :
  construct false strict stack children = (Some (flat_map plain children), []).
Proof.
  unfold construct. generalize (vdom_frame 209 :: vdom_frame 169 :: stack). clear stack. intros stack.
  assert (Q1 : forall v stack, flatten1 false strict stack v = (Some (plain v), [])).
  { induction v as [n|n k|n k|s l IH] using value_deep; intros st; try reflexivity. rewrite flatten1_items. cbn [plain].
    erewrite bind_some by reflexivity. cbn [app].
    assert (Q : flatten false strict st l = (Some (flat_map plain l), [])).
    { induction IH as [|x l X _ IHl]; [reflexivity|]. rewrite flatten_cons, X. erewrite bind_some by reflexivity. rewrite IHl. reflexivity. }
    rewrite Q. reflexivity. }
  induction children as [|x l IHl]; [reflexivity|]. rewrite flatten_cons, Q1. erewrite bind_some by reflexivity. rewrite IHl. reflexivity.
Qed.

(** C105, partial: in debug mode the children without a key that are reported are exactly those that are items of a list, at any
    depth.  Missing: elements whose key is None ([C105_none_key_refuted]) and the items of iterables without a length
    ([C105_generator_refuted]). *)
Theorem C105_reported_partial stack children x :
  no_none_key children ->
  (warned (construct true false stack children) (NoKey x) <-> listed children x /\ keyless x).
Proof.
  intros N. unfold warned, construct. destruct (flatten_good (vdom_frame 209 :: vdom_frame 169 :: stack) children) as (ws & E & _ & W).
  rewrite E. cbn [warnings snd]. rewrite W. unfold expected. split.
  - intros [(y & I & [= <-] & K)|(k & _ & [=])]. split; [exact I|]. destruct x as [n|n [k|]|n [k|]|s k]; try contradiction; exact Logic.I.
  - intros ((l & (c & C & D) & I) & K). left. exists x. split; [exists l; split; [exists c; auto|exact I]|]. split; [reflexivity|].
    destruct x as [n|n [k|]|n [[k|]|]|s k]; try contradiction; try exact Logic.I.
    apply (N n). exists c. split; [exact C|]. clear -D I. remember (Items true l) as w eqn:Ew. induction D as [v|s k y w J D IH]; [subst v; econstructor; [exact I|constructor]|].
    econstructor; [exact J|auto].
Qed.

(** C105: an iterable without a length is reported as such, and only then. *)
Theorem C105_not_verified stack children v :
  warned (construct true false stack children) (NotVerified v) <-> given children v /\ exists l, v = Items false l.
Proof.
  unfold warned, construct. destruct (flatten_good (vdom_frame 209 :: vdom_frame 169 :: stack) children) as (ws & E & _ & W).
  rewrite E. cbn [warnings snd]. rewrite W. unfold expected. split.
  - intros [(y & I & [=] & K)|(k & G & [= ->])]. eauto.
  - intros (G & l & ->). right. eauto.
Qed.

(** C105: every occurrence is reported once. *)
Theorem C105_once stack children : length (warnings (construct true false stack children)) = list_sum (map total children).
Proof.
  unfold construct. destruct (flatten_good (vdom_frame 209 :: vdom_frame 169 :: stack) children) as (ws & E & L & _).
  rewrite E. exact L.
Qed.

(** ** Warnings as errors *)

(** How a strict run relates to a lenient one: the same, or it stops at the first warning. *)
Definition strictly {A} (x y : out A) : Prop :=
  match snd y with [] => x = y | w :: _ => x = (None, [w]) end.

Lemma strictly_bind {A B} (x y : out A) (f g : A -> out B) :
  strictly x y -> fst y <> None -> (forall a, strictly (f a) (g a)) -> strictly (bind x f) (bind y g).
Proof.
  intros X N F. destruct y as [[a|] ws]; [|contradiction (N eq_refl)]. unfold strictly in *. cbn [snd] in X. destruct ws as [|w ws].
  - subst x. unfold bind. specialize (F a). destruct (g a) as [r ws'], (f a) as [r' ws'']. cbn [snd app] in *. destruct ws' as [|w ws']; [|]; injection F as -> ->; reflexivity.
  - subst x. unfold bind. destruct (g a) as [r ws']. reflexivity.
Qed.

Lemma strictly_warn what stack : strictly (warn true what stack) (warn false what stack).
Proof. reflexivity. Qed.

Lemma strictly_ret {A} (a : A) : strictly (ret a) (ret a).
Proof. reflexivity. Qed.

Lemma strictly_items stack l : strictly (check_items true stack l) (check_items false stack l).
Proof.
  induction l as [|x l IH]; [apply strictly_ret|]. cbn [check_items]. apply strictly_bind; [| |intros _; exact IH];
    destruct x as [n|n [k|]|n [k|]|s k]; try apply strictly_ret; try apply strictly_warn; discriminate.
Qed.

Lemma strictly_validate stack s l : strictly (validate true stack s l) (validate false stack s l).
Proof. unfold validate. destruct s; [apply strictly_items|apply strictly_warn]. Qed.

Lemma strictly_flatten1 v : forall stack, strictly (flatten1 true true stack v) (flatten1 true false stack v).
Proof.
  induction v as [n|n k|n k|s l IH] using value_deep; intros stack; try apply strictly_ret.
  rewrite !flatten1_items. apply strictly_bind; [apply strictly_validate| |].
  - destruct (lenient_validate (vdom_frame 260 :: stack) s l) as (ws & -> & _). discriminate.
  - intros _. induction IH as [|x l X _ IHl]; [apply strictly_ret|]. rewrite !flatten_cons. apply strictly_bind; [apply X| |].
    + destruct (all_good x (vdom_frame 250 :: stack)) as (ws & -> & _). discriminate.
    + intros a. apply strictly_bind; [exact IHl| |intros b; apply strictly_ret]. destruct (flatten_good stack l) as (ws & -> & _). discriminate.
Qed.

(** C105: where the filters turn warnings into exceptions, constructing the element fails exactly if something would be
    reported, and with the first report. *)
Theorem C105_strict stack children :
  match warnings (construct true false stack children) with
  | [] => construct true true stack children = (Some (flat_map plain children), [])
  | w :: _ => construct true true stack children = (None, [w])
  end.
Proof.
  unfold construct. generalize (vdom_frame 209 :: vdom_frame 169 :: stack). clear stack. intros stack.
  assert (T : strictly (flatten true true stack children) (flatten true false stack children)).
  { induction children as [|x l IHl]; [apply strictly_ret|]. rewrite !flatten_cons. apply strictly_bind; [apply strictly_flatten1| |].
    - destruct (all_good x (vdom_frame 250 :: stack)) as (ws & -> & _). discriminate.
    - intros a. apply strictly_bind; [exact IHl| |intros b; apply strictly_ret]. destruct (flatten_good stack l) as (ws & -> & _). discriminate. }
  destruct (flatten_good stack children) as (ws & E & _). rewrite E in T. unfold strictly in T. cbn [snd] in T. rewrite E. cbn [warnings snd].
  destruct ws; exact T.
Qed.

(** ** Findings and examples *)

Definition user : frame := {| f_name := Some "__main__"; f_place := 7; f_importlib := false |}.

(** Finding: an element whose key is None is an item of a list, has no key, and is not reported. *)
Theorem C105_none_key_refuted : exists children x,
  listed children x /\ keyless x /\ warnings (construct true false [user] children) = [].
Proof.
  exists [Items true [Elem 1 (Some None)]], (Elem 1 (Some None)). split; [|split; [exact Logic.I|reflexivity]].
  exists [Elem 1 (Some None)]. split; [|left; reflexivity]. eexists. split; [left; reflexivity|constructor].
Qed.

(** Finding: the items of a generator are not looked at, though they are all in the result and could be checked there. *)
Theorem C105_generator_refuted : exists children x l,
  given children (Items false l) /\ In x l /\ keyless x /\ ~ warned (construct true false [user] children) (NoKey x) /\
  result (construct true false [user] children) = Some [x].
Proof.
  exists [Items false [Comp 1 None]], (Comp 1 None), [Comp 1 None]. split; [eexists; split; [left; reflexivity|constructor]|].
  split; [left; reflexivity|]. split; [exact Logic.I|]. split; [|reflexivity]. intros (w & [<-|[]] & [=]).
Qed.

(** Finding: code of a package's own top module is not taken for a part of the package, so a warning may be put there. *)
Theorem C105_top_module_refuted : exists f, f_name f = Some "reactpy" /\
  forall what stack, warnings (warn false what (f :: user :: stack)) = [{| w_about := what; w_where := Some f |}].
Proof.
  exists (pkg_frame "reactpy" 1). split; [reflexivity|]. intros what stack.
  exact (where_caller false what [] (pkg_frame "reactpy" 1) (user :: stack) (Forall_nil _) eq_refl eq_refl).
Qed.

(** A list in a list, from the user's code through a function of the package. *)
Definition demo : list value :=
  [Text 0; Comp 1 None; Items true [Comp 2 None; Comp 3 (Some 5); Items true [Elem 4 None; Text 5]; Elem 6 (Some (Some 2))]; Items false [Items true [Comp 7 None]]].

Example C105_example :
  construct true false [pkg_frame "reactpy.widgets" 3; user] demo =
  (Some [Text 0; Comp 1 None; Comp 2 None; Comp 3 (Some 5); Elem 4 None; Text 5; Elem 6 (Some (Some 2)); Comp 7 None],
   map (fun a => {| w_about := a; w_where := Some user |})
     [NoKey (Comp 2 None); NoKey (Elem 4 None); NotVerified (Items false [Items true [Comp 7 None]]); NoKey (Comp 7 None)]) /\
  construct true true [user] demo = (None, [{| w_about := NoKey (Comp 2 None); w_where := Some user |}]).
Proof. split; reflexivity. Qed.

Lemma inside_plain v n k : inside v (Elem n k) -> In (Elem n k) (plain v).
Proof.
  intros I. remember (Elem n k) as w eqn:E. induction I as [v|s l x w J D IH]; [subst v; left; reflexivity|].
  cbn [plain]. apply in_flat_map. exists x. auto.
Qed.

Example C105_guard_example : no_none_key demo.
Proof.
  intros n (c & C & D). apply inside_plain in D. assert (I : In (Elem n (Some None)) (flat_map plain demo)) by (apply in_flat_map; eauto).
  cbn in I. repeat destruct I as [[=]|I]. exact I.
Qed.

Print Assumptions C105_where.
Print Assumptions C105_children.
Print Assumptions C105_quiet.
Print Assumptions C105_reported_partial.
Print Assumptions C105_not_verified.
Print Assumptions C105_once.
Print Assumptions C105_strict.
Print Assumptions C105_none_key_refuted.
Print Assumptions C105_generator_refuted.
Print Assumptions C105_top_module_refuted.
