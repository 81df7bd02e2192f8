(** * Model of the code of a browser-side component and property C86
    /repo/src/reactpy/executors/pyscript/utils.py:53-106 and component_template.py: the user's files are put into a template, and
    that into a script element of the page. *)
From Coq Require Import String Ascii NArith Bool Arith Lia List.
From Verif Require Import PyStr MinifyModel RewriteLines.
Import ListNotations.
Local Open Scope list_scope.

(** Texts are lists of code points. *)
Definition lit (s : string) : line := map N_of_ascii (list_ascii_of_string s).

(** ** Model *)

(** The text of component_template.py:1-25. *)
Definition template_source : string :=
"# ruff: noqa: N816, RUF006
# type: ignore
import asyncio

from reactpy.executors.pyscript.layout_handler import ReactPyLayoutHandler


# User component is inserted below by regex replacement
def user_workspace_UUID():
    """"""Encapsulate the user's code with a completely unique function (workspace)
    to prevent overlapping imports and variable names between different components.

    This code is designed to be run directly by PyScript, and is not intended to be run
    in a normal Python environment.

    ReactPy-Django performs string substitutions to turn this file into valid PyScript.
    """"""

    def root(): ...

    return root()


# Create a task to run the user's component workspace
task_UUID = asyncio.create_task(ReactPyLayoutHandler(""UUID"").run(user_workspace_UUID))
"%string.

(** [PYSCRIPT_COMPONENT_TEMPLATE], utils.py:53-55. *)
Definition template : line := lit (minify template_source).

Fixpoint starts (p text : line) : bool :=
  match p, text with
  | [], _ => true
  | a :: p', c :: text' => (a =? c)%N && starts p' text'
  | _ :: _, [] => false
  end.

(** [text.replace(old, new)], for an [old] that is not empty; [skip]: the rest of a match. *)
Fixpoint replace (old new : line) (skip : nat) (text : line) : line :=
  match text with
  | [] => []
  | c :: r =>
      match skip with
      | S k => replace old new k r
      | 0 => if starts old text then new ++ replace old new (length old - 1) r else c :: replace old new 0 r
      end
  end.

(** [old in text] *)
Fixpoint contained (old text : line) : bool := starts old text || match text with [] => false | _ :: r => contained old r end.

Definition four : line := repeat blank_char 4.
(** utils.py:77-80 *)
Definition user_code (files : list line) : line := indent (replace [9%N] four 0 (join_nl files)) four.

(** What is taken of a file with the given text, [fetch_cached_python_file], utils.py:456-459. Simplifications: ASCII texts; a file
    that changes later is not read again. *)
Definition fetched (text : string) : line := lit (minify (PyStr.strip text)).

(** [pyscript_executor_html], utils.py:61-89; [files]: the contents of the files. [None]: ValueError. *)
Definition executor (files : list line) (uuid root : line) : option line :=
  let e := replace (lit "UUID") uuid 0 template in
  let e := replace (lit "return root()") (lit "return " ++ root ++ lit "()") 0 e in
  let code := user_code files in
  if contained (lit "def " ++ root ++ lit "():") code then Some (replace (lit "    def root(): ...") code 0 e) else None.

(** [pyscript_component_html], utils.py:92-106; [initial]: the initial HTML. *)
Definition component_html (files : list line) (initial uuid root : line) : option line :=
  match executor files uuid root with
  | None => None
  | Some e =>
      Some (lit "<div id=""pyscript-" ++ uuid ++ lit """ class=""pyscript"" data-uuid=""" ++ uuid ++ lit """>" ++ initial ++ lit "</div>" ++
            lit "<script type='py'>" ++ e ++ lit "</script>")
  end.

(** ** Specification *)

Definition hex (c : N) : bool := ((48 <=? c) && (c <=? 57) || (97 <=? c) && (c <=? 102))%N.
Definition solid (l : line) : Prop := Forall (fun c => space c = false) l.

(** The program that runs in the browser: a function around [body] that ends by calling the root component, and a task that runs
    the component. *)
Definition program (uuid root body : line) : line :=
  lit "import asyncio" ++ [nl] ++
  lit "from reactpy.executors.pyscript.layout_handler import ReactPyLayoutHandler" ++ [nl] ++
  lit "def user_workspace_" ++ uuid ++ lit "():" ++ [nl] ++
  body ++ [nl] ++
  lit "    return " ++ root ++ lit "()" ++ [nl] ++
  lit "task_" ++ uuid ++ lit " = asyncio.create_task(ReactPyLayoutHandler(""" ++ uuid ++ lit """).run(user_workspace_" ++ uuid ++ lit "))".

(** The lines of a text with their ends, as [str.splitlines] has them: no line break but at the end, where there is one, except
    in the last line. *)
Definition line_end (e : line) : Prop := (exists c, e = [c] /\ boundary c = true) \/ e = [13%N; 10%N].
Inductive lines_of : line -> list line -> Prop :=
| lines_none : lines_of [] []
| lines_last l : l <> [] -> unbroken l -> lines_of l [l]
| lines_more l e text ls : unbroken l -> line_end e -> (e = [13%N] -> hd_error text <> Some 10%N) -> lines_of text ls -> lines_of (l ++ e ++ text) ((l ++ e) :: ls).

(** A line four spaces further to the right; a blank one is left alone. *)
Definition shifted (l : line) : line := if blank l then l else four ++ l.
(** Tabs as four spaces. *)
Definition untabbed (text : line) : line := flat_map (fun c => if (c =? 9)%N then four else [c]) text.
Definition in_text (p text : line) : Prop := exists a b, text = a ++ p ++ b.

(** The text of the first script element of a page: up to the first "</script" (upper case is not needed here). *)
Inductive first_at (p : line) : line -> line -> line -> Prop :=
  first_split a b : (forall x y, a ++ p ++ b = x ++ p ++ y -> length a <= length x) -> first_at p (a ++ p ++ b) a b.

(** ** Proofs *)
Example template_text : template = lit
"import asyncio
from reactpy.executors.pyscript.layout_handler import ReactPyLayoutHandler
def user_workspace_UUID():
    def root(): ...
    return root()
task_UUID = asyncio.create_task(ReactPyLayoutHandler(""UUID"").run(user_workspace_UUID))".
Proof. vm_compute. reflexivity. Qed.

Lemma starts_app p : forall a b, starts p (a ++ b) = true -> starts p a = true \/ starts a p = true.
Proof.
  induction p as [|x p IH]; intros a b H; [left; reflexivity|]. destruct a as [|c a]; [right; reflexivity|]. cbn in *. apply andb_true_iff in H. destruct H as [E H].
  rewrite E, N.eqb_sym, E. cbn. exact (IH a b H).
Qed.
Lemma starts_split p : forall text, starts p text = true <-> exists b, text = p ++ b.
Proof.
  induction p as [|x p IH]; intros text; cbn; [split; intros; [exists text; reflexivity|reflexivity]|].
  destruct text as [|c text]; [split; [discriminate|intros [b Q]; discriminate]|].
  rewrite andb_true_iff, N.eqb_eq, IH. split.
  - intros [-> [b ->]]. exists b. reflexivity.
  - intros [b Q]. injection Q as -> ->. split; [reflexivity|]. exists b. reflexivity.
Qed.
Lemma contained_in p : forall text, contained p text = true <-> in_text p text.
Proof.
  induction text as [|c text IH]; cbn [contained]; rewrite orb_true_iff, starts_split.
  - split.
    + intros [[b Q]|Q]; [|discriminate]. exists [], b. exact Q.
    + intros (a & b & Q). destruct a; [|discriminate]. left. exists b. exact Q.
  - rewrite IH. split.
    + intros [[b Q]|(a & b & Q)]; [exists [], b; exact Q|]. exists (c :: a), b. rewrite Q. reflexivity.
    + intros (a & b & Q). destruct a as [|x a]; [left; exists b; exact Q|]. injection Q as -> Q. right. exists a, b. exact Q.
Qed.

(** *** Replacing *)
Fixpoint safe (old a : line) : bool :=
  match a with [] => true | _ :: r => negb (starts old a) && negb (starts a old) && safe old r end.
Lemma replace_safe old new a b : safe old a = true -> replace old new 0 (a ++ b) = a ++ replace old new 0 b.
Proof.
  induction a as [|c a IH]; intros H; [reflexivity|]. cbn [safe] in H. apply andb_true_iff in H. destruct H as [H S]. apply andb_true_iff in H. destruct H as [H1 H2].
  cbn [app replace]. change (c :: a ++ b) with ((c :: a) ++ b). destruct (starts old ((c :: a) ++ b)) eqn:E.
  - destruct (starts_app _ _ _ E) as [Q|Q]; rewrite Q in *; discriminate.
  - cbn [app]. rewrite IH by exact S. reflexivity.
Qed.
Lemma safe_first c old a : Forall (fun x => x <> c) a -> safe (c :: old) a = true.
Proof.
  induction a as [|x a IH]; intros H; [reflexivity|]. inversion H; subst. cbn [safe]. rewrite IH by assumption. cbn [starts].
  replace (c =? x)%N with false by (symmetry; apply N.eqb_neq; congruence). replace (x =? c)%N with false by (symmetry; apply N.eqb_neq; congruence). reflexivity.
Qed.
Lemma replace_skip old new a b : replace old new (length a) (a ++ b) = replace old new 0 b.
Proof. induction a as [|c a IH]; [reflexivity|]. exact IH. Qed.
Lemma replace_here old new b : old <> [] -> replace old new 0 (old ++ b) = new ++ replace old new 0 b.
Proof.
  destruct old as [|c old]; [congruence|]. intros _. cbn [app replace]. replace (starts (c :: old) (c :: old ++ b)) with true.
  - replace (length (c :: old) - 1) with (length old) by (cbn [length]; lia). rewrite replace_skip. reflexivity.
  - symmetry. apply starts_split. exists b. reflexivity.
Qed.
Lemma replace_tab text : replace [9%N] four 0 text = untabbed text.
Proof.
  induction text as [|c text IH]; [reflexivity|]. cbn [replace starts]. rewrite andb_true_r, N.eqb_sym. cbn [untabbed flat_map].
  destruct (c =? 9)%N; cbn [length Nat.sub]; rewrite IH; reflexivity.
Qed.

Lemma hex_not c l : hex c = false -> Forall (fun x => hex x = true) l -> Forall (fun x => x <> c) l.
Proof. intros H. apply Forall_impl. intros x X ->. congruence. Qed.
Lemma solid_not c l : space c = true -> solid l -> Forall (fun x => x <> c) l.
Proof. intros H. apply Forall_impl. intros x X ->. congruence. Qed.

Lemma step_uuid uuid : replace (lit "UUID") uuid 0 template =
  (lit "import asyncio" ++ [nl] ++ lit "from reactpy.executors.pyscript.layout_handler import ReactPyLayoutHandler" ++ [nl] ++ lit "def user_workspace_") ++ uuid ++
  (lit "():" ++ [nl] ++ lit "    def root(): ..." ++ [nl] ++ lit "    ") ++ lit "return root()" ++ ([nl] ++ lit "task_") ++ uuid ++
  lit " = asyncio.create_task(ReactPyLayoutHandler(""" ++ uuid ++ lit """).run(user_workspace_" ++ uuid ++ lit "))".
Proof. rewrite template_text. vm_compute. reflexivity. Qed.

Lemma step_root uuid root : Forall (fun c => hex c = true) uuid ->
  replace (lit "return root()") (lit "return " ++ root ++ lit "()") 0 (replace (lit "UUID") uuid 0 template) =
  (lit "import asyncio" ++ [nl] ++ lit "from reactpy.executors.pyscript.layout_handler import ReactPyLayoutHandler" ++ [nl] ++ lit "def user_workspace_") ++ uuid ++
  (lit "():" ++ [nl] ++ lit "    def root(): ..." ++ [nl] ++ lit "    ") ++ (lit "return " ++ root ++ lit "()") ++ ([nl] ++ lit "task_") ++ uuid ++
  lit " = asyncio.create_task(ReactPyLayoutHandler(""" ++ uuid ++ lit """).run(user_workspace_" ++ uuid ++ lit "))" ++ [].
Proof.
  intros U. rewrite step_uuid.
  assert (SU : safe (lit "return root()") uuid = true) by (apply safe_first; apply hex_not; [reflexivity|exact U]).
  rewrite replace_safe by (vm_compute; reflexivity). rewrite replace_safe by exact SU.
  rewrite replace_safe by (vm_compute; reflexivity). rewrite replace_here by discriminate.
  rewrite replace_safe by (vm_compute; reflexivity). rewrite replace_safe by exact SU.
  rewrite replace_safe by (vm_compute; reflexivity). rewrite replace_safe by exact SU.
  rewrite replace_safe by (vm_compute; reflexivity). rewrite replace_safe by exact SU.
  rewrite <- (app_nil_r (lit "))")) at 1. rewrite replace_safe by (vm_compute; reflexivity). reflexivity.
Qed.

Lemma step_code uuid root code : Forall (fun c => hex c = true) uuid -> solid root ->
  replace (lit "    def root(): ...") code 0
    (replace (lit "return root()") (lit "return " ++ root ++ lit "()") 0 (replace (lit "UUID") uuid 0 template)) = program uuid root code.
Proof.
  intros U R. rewrite step_root by exact U.
  assert (SU : safe (lit "    def root(): ...") uuid = true) by (apply safe_first; apply hex_not; [reflexivity|exact U]).
  rewrite replace_safe by (vm_compute; reflexivity). rewrite replace_safe by exact SU.
  replace (lit "():" ++ [nl] ++ lit "    def root(): ..." ++ [nl] ++ lit "    ") with ((lit "():" ++ [nl]) ++ lit "    def root(): ..." ++ [nl] ++ lit "    ") by (vm_compute; reflexivity).
  rewrite <- !app_assoc. rewrite (app_assoc (lit "():") [nl]). rewrite replace_safe by (vm_compute; reflexivity). rewrite replace_here by discriminate.
  replace (lit "return ") with (lit "return" ++ lit " ") by (vm_compute; reflexivity). rewrite <- !app_assoc.
  rewrite (app_assoc [nl] (lit "    ")), (app_assoc ([nl] ++ lit "    ") (lit "return")). rewrite replace_safe by (vm_compute; reflexivity).
  rewrite (app_assoc root (lit "()")), (app_assoc (lit " ") (root ++ lit "()")).
  assert (SR : safe (lit "    def root(): ...") (lit " " ++ root ++ lit "()") = true).
  { change (lit " " ++ root ++ lit "()") with (32%N :: root ++ lit "()"). cbn [safe]. rewrite !andb_true_iff. split; [|].
    - assert (Q : exists c r, root ++ lit "()" = c :: r /\ c <> 32%N).
      { destruct root as [|c root]; [exists 40%N, [41%N]; split; [reflexivity|discriminate]|]. exists c, (root ++ lit "()"). split; [reflexivity|]. inversion R; subst. intros ->. discriminate. }
      destruct Q as (c & r & -> & Q). apply N.eqb_neq in Q. change (lit "    def root(): ...") with (32%N :: 32%N :: lit "  def root(): ..."). cbn [starts].
      rewrite (N.eqb_sym 32 c), Q. split; reflexivity.
    - apply safe_first. apply Forall_app. split; [apply solid_not; [reflexivity|exact R]|]. repeat constructor; discriminate. }
  rewrite replace_safe by exact SR. rewrite (app_assoc [nl] (lit "task_")). rewrite replace_safe by (vm_compute; reflexivity). rewrite replace_safe by exact SU.
  rewrite replace_safe by (vm_compute; reflexivity). rewrite replace_safe by exact SU.
  rewrite replace_safe by (vm_compute; reflexivity). rewrite replace_safe by exact SU.
  rewrite replace_safe by (vm_compute; reflexivity). unfold program. rewrite <- !app_assoc. cbn [replace]. rewrite app_nil_r.
  change (lit "    return ") with (lit "    " ++ lit "return" ++ lit " "). rewrite <- !app_assoc. reflexivity.
Qed.

(** *** Lines *)
Lemma splitlines_lines n : forall cur text, length text <= n -> unbroken (rev cur) -> lines_of (rev cur ++ text) (splitlines cur text).
Proof.
  induction n as [|n IH]; intros cur text LE U.
  - destruct text; [|cbn in LE; lia]. rewrite app_nil_r. destruct cur as [|c cur]; [constructor|]. cbn [splitlines]. apply lines_last; [|exact U].
    cbn [rev]. destruct (rev cur); discriminate.
  - destruct text as [|c text].
    + rewrite app_nil_r. destruct cur as [|c cur]; [constructor|]. cbn [splitlines]. apply lines_last; [|exact U]. cbn [rev]. destruct (rev cur); discriminate.
    + destruct (boundary c) eqn:B.
      * destruct (N.eq_dec c 13) as [->|NE].
        -- destruct text as [|d text].
           ++ change (splitlines cur [13%N]) with ([rev (13%N :: cur)]). cbn [rev]. change (rev cur ++ [13%N]) with (rev cur ++ [13%N] ++ []) at 1.
              apply lines_more; [exact U|left; exists 13%N; split; reflexivity|intros _; discriminate|constructor].
           ++ destruct (N.eq_dec d 10) as [->|ND].
              ** change (splitlines cur (13%N :: 10%N :: text)) with (rev (10%N :: 13%N :: cur) :: splitlines [] text). cbn [rev]. rewrite <- app_assoc.
                 change (rev cur ++ 13%N :: 10%N :: text) with (rev cur ++ [13%N; 10%N] ++ text). change ([13%N] ++ [10%N]) with [13%N; 10%N].
                 apply lines_more; [exact U|right; reflexivity|discriminate|]. apply (IH [] text); [cbn in LE; lia|constructor].
              ** assert (E : splitlines cur (13%N :: d :: text) = rev (13%N :: cur) :: splitlines [] (d :: text)).
                 { cbn [splitlines]. destruct d as [|q]; [reflexivity|]. repeat (destruct q as [q|q|]; try reflexivity). congruence. }
                 rewrite E. cbn [rev]. change (rev cur ++ 13%N :: d :: text) with (rev cur ++ [13%N] ++ d :: text).
                 apply lines_more; [exact U|left; exists 13%N; split; reflexivity|intros _ Q; injection Q as ->; congruence|]. apply (IH [] (d :: text)); [cbn in *; lia|constructor].
        -- assert (E : splitlines cur (c :: text) = rev (c :: cur) :: splitlines [] text).
           { cbn [splitlines]. rewrite B. destruct c as [|q]; [reflexivity|]. repeat (destruct q as [q|q|]; try reflexivity). congruence. }
           rewrite E. cbn [rev]. change (rev cur ++ c :: text) with (rev cur ++ [c] ++ text).
           apply lines_more; [exact U|left; exists c; split; [reflexivity|exact B]|congruence|]. apply (IH [] text); [cbn in *; lia|constructor].
      * rewrite splitlines_cons by exact B. replace (rev cur ++ c :: text) with (rev (c :: cur) ++ text) by (cbn [rev]; rewrite <- app_assoc; reflexivity).
        apply IH; [cbn in *; lia|]. cbn [rev]. unfold unbroken. apply Forall_app. split; [exact U|]. constructor; [exact B|constructor].
Qed.
Lemma lines_text text ls : lines_of text ls -> concat ls = text.
Proof. intros H. induction H; cbn; [reflexivity|apply app_nil_r|]. rewrite IHlines_of, <- app_assoc. reflexivity. Qed.

(** *** Where a text occurs *)
Lemma prefix_cut (c : N) p : ~ In c p -> forall a b y, a ++ c :: b = p ++ y -> exists y', a = p ++ y'.
Proof.
  induction p as [|x p IH]; intros NI a b y E; [exists a; reflexivity|]. destruct a as [|z a].
  - cbn in E. injection E as -> _. elim NI. left. reflexivity.
  - cbn in E. injection E as -> E. destruct (IH (fun i => NI (or_intror i)) a b y E) as [y' ->]. exists y'. reflexivity.
Qed.
Lemma in_cut (c : N) p a b : ~ In c p -> in_text p (a ++ c :: b) -> in_text p a \/ in_text p b.
Proof.
  intros NI (x & y & E). revert a E. induction x as [|z x IH]; intros a E.
  - left. destruct (prefix_cut c p NI a b y E) as [y' ->]. exists [], y'. reflexivity.
  - destruct a as [|w a].
    + cbn in E. injection E as _ E. right. exists x, y. exact E.
    + cbn in E. injection E as -> E. destruct (IH a E) as [(u & v & ->)|Q]; [|right; exact Q]. left. exists (z :: u), v. reflexivity.
Qed.
Lemma in_text_l p a b : in_text p a -> in_text p (a ++ b).
Proof. intros (x & y & ->). exists x, (y ++ b). rewrite <- !app_assoc. reflexivity. Qed.
Lemma in_text_r p a b : in_text p b -> in_text p (a ++ b).
Proof. intros (x & y & ->). exists (a ++ x), y. rewrite <- !app_assoc. reflexivity. Qed.
Lemma boundary_out c p : boundary c = true -> unbroken p -> ~ In c p.
Proof. intros B U I. unfold unbroken in U. rewrite Forall_forall in U. rewrite (U _ I) in B. discriminate. Qed.
Lemma in_end p a e b : line_end e -> unbroken p -> in_text p (a ++ e ++ b) -> in_text p a \/ in_text p b.
Proof.
  intros [(c & -> & B)| ->] U I.
  - exact (in_cut c p a b (boundary_out c p B U) I).
  - change (a ++ [13%N; 10%N] ++ b) with (a ++ 13%N :: 10%N :: b) in I. destruct (in_cut 13%N p _ _ (boundary_out 13%N p eq_refl U) I) as [Q|Q]; [left; exact Q|].
    change (10%N :: b) with ([] ++ 10%N :: b) in Q. destruct (in_cut 10%N p _ _ (boundary_out 10%N p eq_refl U) Q) as [(x & y & E)|Q']; [|right; exact Q'].
    left. destruct x; [|discriminate]. destruct p; [|discriminate]. exists [], a. reflexivity.
Qed.
(** A text that starts with a character other than [c] is not found across [c]s before it. *)
Lemma in_behind (c : N) p n l : match p with [] => False | x :: _ => x <> c end -> in_text p (repeat c n ++ l) -> in_text p l.
Proof.
  intros P. induction n as [|n IH]; [intros I; exact I|]. intros (x & y & E). apply IH. cbn [repeat app] in E. destruct x as [|z x].
  - destruct p as [|w p]; [contradiction|]. injection E as E _. congruence.
  - injection E as _ E. exists x, y. exact E.
Qed.
Lemma in_lines p text ls : match p with [] => False | x :: _ => space x = false end -> unbroken p -> lines_of text ls ->
  (in_text p (concat (map shifted ls)) <-> in_text p text).
Proof.
  intros P U H. assert (Q : match p with [] => False | x :: _ => x <> blank_char end) by (destruct p; [exact P|intros ->; discriminate]).
  induction H as [|l NE UL|l e text ls UL LE _ H IH].
  - reflexivity.
  - cbn [map concat]. rewrite app_nil_r. unfold shifted. destruct (blank l); [reflexivity|]. split; [apply (in_behind blank_char p 4 l Q)|apply in_text_r].
  - cbn [map concat]. split.
    + intros I. assert (J : in_text p ((four ++ l) ++ e ++ concat (map shifted ls)) \/ in_text p (l ++ e ++ concat (map shifted ls))).
      { unfold shifted at 1 in I. destruct (blank (l ++ e)); [right|left]; rewrite <- !app_assoc in *; exact I. }
      destruct J as [J|J].
      * destruct (in_end p _ _ _ LE U J) as [K|K]; [apply in_text_l; exact (in_behind blank_char p 4 l Q K)|]. apply in_text_r, in_text_r, IH, K.
      * destruct (in_end p _ _ _ LE U J) as [K|K]; [apply in_text_l; exact K|]. apply in_text_r, in_text_r, IH, K.
    + intros I. destruct (in_end p _ _ _ LE U I) as [K|K].
      * apply in_text_l. unfold shifted. destruct (blank (l ++ e)); [apply in_text_l; exact K|]. apply in_text_r, in_text_l, K.
      * apply in_text_r, IH, K.
Qed.

(** *** Tabs *)
Lemma untabbed_app a b : untabbed (a ++ b) = untabbed a ++ untabbed b.
Proof. apply flat_map_app. Qed.
Lemma untabbed_same p : ~ In 9%N p -> untabbed p = p.
Proof.
  induction p as [|c p IH]; intros N; [reflexivity|]. cbn [untabbed flat_map]. destruct (N.eqb_spec c 9) as [->|_]; [elim N; left; reflexivity|].
  cbn. f_equal. apply IH. intros I. apply N. right. exact I.
Qed.
Lemma solid_prefix p : solid p -> forall t y, untabbed t = p ++ y -> exists t', t = p ++ t' /\ untabbed t' = y.
Proof.
  induction p as [|x p IH]; intros S t y E; [exists t; split; [reflexivity|exact E]|]. inversion S as [|? ? SX SP]; subst. destruct t as [|c t]; [discriminate|]. cbn [untabbed flat_map] in E.
  destruct (c =? 9)%N; cbn in E.
  - injection E as <- _. discriminate.
  - injection E as -> E. destruct (IH SP t y E) as (t' & -> & Q). exists t'. split; [reflexivity|exact Q].
Qed.
Lemma behind_spaces n x : forall a v u, x <> 32%N -> repeat 32%N n ++ u = a ++ x :: v -> exists k, a = repeat 32%N n ++ k /\ u = k ++ x :: v.
Proof.
  induction n as [|n IH]; intros a v u NX E; [exists a; split; [reflexivity|exact E]|]. destruct a as [|z a]; cbn in E.
  - injection E as E _. congruence.
  - injection E as <- E. destruct (IH a v u NX E) as (k & -> & ->). exists k. split; reflexivity.
Qed.
Lemma in_untabbed p q t : solid p -> p <> [] -> solid q -> q <> [] ->
  (in_text (p ++ [32%N] ++ q) (untabbed t) <-> in_text (p ++ [32%N] ++ q) t) /\ (in_text p (untabbed t) <-> in_text p t).
Proof.
  intros SP NP SQ NQ.
  assert (GEN : forall r, match r with x :: _ => space x = false | [] => False end -> (forall t y, untabbed t = r ++ y -> exists t', t = r ++ t') -> in_text r (untabbed t) -> in_text r t).
  { intros r R PRE (a & b & E). revert t E. induction a as [n IH] using (induction_ltof1 _ (@length N)); unfold ltof in IH. intros t E. destruct n as [|z a].
    - destruct (PRE t b E) as [t' ->]. exists [], t'. reflexivity.
    - destruct t as [|c t]; [discriminate|]. cbn [untabbed flat_map] in E. destruct (c =? 9)%N.
      + destruct r as [|x r]; [contradiction|]. assert (NX : x <> 32%N) by (intros ->; discriminate).
        destruct (behind_spaces 4 x (z :: a) (r ++ b) (untabbed t) NX E) as (k & K & E'). apply (f_equal (@length N)) in K. cbn in K.
        destruct (IH k ltac:(cbn; lia) t E') as (u & v & ->). exists (c :: u), v. reflexivity.
      + injection E as _ E. destruct (IH a ltac:(cbn; lia) t E) as (u & v & ->). exists (c :: u), v. reflexivity. }
  assert (N9 : forall p, solid p -> ~ In 9%N p) by (intros p' S I; unfold solid in S; rewrite Forall_forall in S; specialize (S _ I); discriminate).
  split; split.
  - apply GEN; [destruct p; [congruence|inversion SP; assumption]|]. intros t' y E. rewrite <- !app_assoc in E.
    destruct (solid_prefix p SP t' _ E) as (u & -> & E1). destruct u as [|c u]; [discriminate|]. cbn [untabbed flat_map] in E1. destruct (c =? 9)%N; cbn in E1.
    + destruct q as [|x q]; [congruence|]. cbn in E1. injection E1 as E1 _. inversion SQ; subst. discriminate.
    + injection E1 as -> E1. destruct (solid_prefix q SQ u _ E1) as (v & -> & _). exists v. rewrite <- !app_assoc. reflexivity.
  - intros (a & b & ->). exists (untabbed a), (untabbed b). rewrite !untabbed_app, (untabbed_same p) by (apply N9, SP). rewrite (untabbed_same q) by (apply N9, SQ). reflexivity.
  - apply GEN; [destruct p; [congruence|inversion SP; assumption]|]. intros t' y E. destruct (solid_prefix p SP t' _ E) as (u & -> & _). exists u. reflexivity.
  - intros (a & b & ->). exists (untabbed a), (untabbed b). rewrite !untabbed_app, (untabbed_same p) by (apply N9, SP). reflexivity.
Qed.

(** *** Results *)
Lemma user_code_lines files : exists ls, lines_of (untabbed (join_nl files)) ls /\ user_code files = concat (map shifted ls).
Proof.
  exists (splitlines [] (untabbed (join_nl files))). split.
  - apply (splitlines_lines _ [] _ (le_n _)). constructor.
  - unfold user_code, indent. rewrite replace_tab. f_equal. apply map_ext. intros l. unfold shifted. rewrite is_blank_ok. reflexivity.
Qed.

(** The code that runs is the user's lines, in order and all moved to the right by four spaces, in a function with its own name
    that calls the root component. *)
Theorem C86_program files uuid root text : Forall (fun c => hex c = true) uuid -> solid root -> executor files uuid root = Some text ->
  exists ls, lines_of (untabbed (join_nl files)) ls /\ text = program uuid root (concat (map shifted ls)).
Proof.
  intros U R E. destruct (user_code_lines files) as (ls & L & C). exists ls. split; [exact L|]. unfold executor in E.
  destruct (contained _ _); [|discriminate].
  apply (f_equal (fun o => match o with Some x => x | None => [] end)) in E. cbv beta iota zeta in E. rewrite <- E, step_code by assumption. rewrite C. reflexivity.
Qed.
Print Assumptions C86_program.

(** Code is refused exactly if it does not contain the definition of the root component, written in one way. *)
Theorem C86_root files uuid root : solid root -> executor files uuid root = None <-> ~ in_text (lit "def " ++ root ++ lit "():") (join_nl files).
Proof.
  intros R. destruct (user_code_lines files) as (ls & L & C).
  assert (Q : in_text (lit "def " ++ root ++ lit "():") (user_code files) <-> in_text (lit "def " ++ root ++ lit "():") (join_nl files)).
  { rewrite C. assert (SQ : solid (root ++ lit "():")) by (apply Forall_app; split; [exact R|repeat constructor]).
    assert (NQ : root ++ lit "():" <> []) by (destruct root; discriminate).
    assert (SD : solid (lit "def")) by (repeat constructor).
    change (lit "def " ++ root ++ lit "():") with (lit "def" ++ [32%N] ++ root ++ lit "():").
    rewrite (in_lines _ (untabbed (join_nl files)) ls); [apply (in_untabbed (lit "def") (root ++ lit "():") (join_nl files) SD ltac:(discriminate) SQ NQ)|reflexivity| |exact L].
    apply Forall_app. split; [repeat constructor|]. apply Forall_app. split; [repeat constructor|].
    apply (Forall_impl _ (P := fun c => space c = false)); [|exact SQ]. intros c S. destruct (boundary c) eqn:B; [|reflexivity]. exfalso.
    unfold boundary in B. unfold space in S. rewrite !orb_true_iff, !andb_true_iff, !N.leb_le, !N.eqb_eq in B. rewrite !orb_false_iff, !andb_false_iff, !N.leb_gt, !N.eqb_neq in S. lia. }
  unfold executor. destruct (contained _ (user_code files)) eqn:E.
  - split; [discriminate|]. intros N. elim N. apply Q, contained_in, E.
  - split; [|reflexivity]. intros _ I. apply Q, contained_in in I. congruence.
Qed.
Print Assumptions C86_root.

Lemma in_first (c : N) p a b : Forall (fun x => x <> c) a -> in_text (c :: p) (a ++ b) -> in_text (c :: p) b.
Proof.
  intros H (x & y & E). revert x E. induction a as [|z a IH]; intros x E; [exists x, y; exact E|]. inversion H; subst. destruct x as [|w x]; cbn in E; injection E as ? E; [congruence|].
  exact (IH H3 x E).
Qed.
Lemma in_none (c : N) p a : Forall (fun x => x <> c) a -> ~ in_text (c :: p) a.
Proof. intros H I. rewrite <- (app_nil_r a) in I. apply in_first in I; [|exact H]. destruct I as (x & y & E). destruct x; discriminate. Qed.

(** On the page the code is the whole text of the script element, if it does not itself contain the end of one. *)
Theorem C86_page files initial uuid root page : Forall (fun c => hex c = true) uuid -> solid root -> ~ In 60%N root ->
  ~ in_text (lit "</script") (join_nl files) -> component_html files initial uuid root = Some page ->
  exists before code, executor files uuid root = Some code /\ page = before ++ lit "<script type='py'>" ++ code ++ lit "</script>" /\
    first_at (lit "</script") (code ++ lit "</script>") code (lit ">").
Proof.
  intros U R NR NI E. unfold component_html in E. destruct (executor files uuid root) as [code|] eqn:X; [|discriminate]. injection E as <-.
  exists (lit "<div id=""pyscript-" ++ uuid ++ lit """ class=""pyscript"" data-uuid=""" ++ uuid ++ lit """>" ++ initial ++ lit "</div>"), code.
  split; [reflexivity|]. split; [rewrite <- !app_assoc; reflexivity|].
  assert (NC : ~ in_text (lit "</script") code).
  { destruct (C86_program _ _ _ _ U R X) as (ls & L & ->). intros I. apply NI.
    assert (SP : solid (lit "</script")) by (repeat constructor).
    apply (in_untabbed (lit "</script") (lit "a") (join_nl files) SP ltac:(discriminate) ltac:(repeat constructor) ltac:(discriminate)).
    apply (in_lines _ _ ls); [reflexivity|repeat constructor|exact L|].
    assert (HU : Forall (fun x => x <> 60%N) uuid) by (apply hex_not; [reflexivity|exact U]).
    assert (HR : Forall (fun x => x <> 60%N) root) by (rewrite Forall_forall; intros x Y ->; exact (NR Y)).
    unfold program in I. change (lit "</script") with (60%N :: lit "/script") in *.
    do 5 (apply in_first in I; [|repeat (constructor; [discriminate|]); constructor]). apply in_first in I; [|exact HU].
    do 2 (apply in_first in I; [|repeat (constructor; [discriminate|]); constructor]).
    apply (in_cut nl) in I; [|intros [Q|Q]; [discriminate|]; cbn in Q; intuition discriminate]. destruct I as [I|I]; [exact I|]. exfalso. revert I. apply in_none.
    repeat (apply Forall_app; split); try assumption; repeat (constructor; [discriminate|]); constructor. }
  change (lit "</script>") with (lit "</script" ++ lit ">"). constructor. intros x y E. destruct (Nat.le_gt_cases (length code) (length x)) as [G|G]; [exact G|]. exfalso. apply NC.
  assert (W : exists w, code = x ++ w /\ w <> []).
  { clear - E G. revert code E G. induction x as [|z x IH]; intros code E G; [exists code; split; [reflexivity|intros ->; cbn in G; lia]|].
    destruct code as [|c code]; [cbn in G; lia|]. cbn in E. injection E as -> E. destruct (IH code E ltac:(cbn in G; lia)) as (w & -> & NW). exists w. split; [reflexivity|exact NW]. }
  destruct W as (w & -> & NW). rewrite <- !app_assoc in E. apply app_inv_head in E. destruct w as [|c w]; [congruence|]. cbn in E. injection E as -> E.
  change (w ++ 60%N :: 47%N :: 115%N :: 99%N :: 114%N :: 105%N :: 112%N :: 116%N :: [62%N] = lit "/script" ++ y) in E.
  destruct (prefix_cut 60%N (lit "/script") ltac:(cbn; intuition discriminate) w _ y E) as [y' ->]. exists x, y'. reflexivity.
Qed.
Print Assumptions C86_page.

Definition root_code : line := lit "def root():" ++ [nl; nl] ++ lit "    return html.p('hello')".
Example C86_example : executor [lit "from reactpy import html"; root_code] (lit "0a1f") (lit "root") = Some (lit
"import asyncio
from reactpy.executors.pyscript.layout_handler import ReactPyLayoutHandler
def user_workspace_0a1f():
    from reactpy import html
    def root():

        return html.p('hello')
    return root()
task_0a1f = asyncio.create_task(ReactPyLayoutHandler(""0a1f"").run(user_workspace_0a1f))").
Proof. vm_compute. reflexivity. Qed.
Example C86_case : Forall (fun c => hex c = true) (lit "0a1f") /\ solid (lit "root") /\ ~ In 60%N (lit "root") /\ ~ in_text (lit "</script") (join_nl [root_code]) /\ component_html [root_code] (lit "<p>wait</p>") (lit "0a1f") (lit "root") <> None.
Proof.
  split; [repeat constructor|]. split; [repeat constructor|]. split; [cbn; intuition discriminate|]. split; [|vm_compute; discriminate].
  rewrite <- contained_in. vm_compute. discriminate.
Qed.

(** Findings. The lines of a string literal that spans lines are moved too, and tabs in literals become spaces: the program's
    texts are others than the user's. *)
Definition quotes : line := [39%N; 39%N; 39%N].
Theorem C86_literal_refuted :
  let file := lit "def root():" ++ [nl] ++ lit "    return html.pre(" ++ quotes ++ lit "a" ++ [nl] ++ lit "b" ++ quotes ++ lit ")" in
  exists text, executor [file] (lit "0a") (lit "root") = Some text /\
    in_text (quotes ++ lit "a" ++ [nl] ++ lit "b" ++ quotes) file /\ ~ in_text (quotes ++ lit "a" ++ [nl] ++ lit "b" ++ quotes) text /\
    in_text (quotes ++ lit "a" ++ [nl] ++ lit "    b" ++ quotes) text.
Proof.
  intros file. destruct (executor [file] (lit "0a") (lit "root")) as [t|] eqn:E; [|vm_compute in E; discriminate]. exists t. split; [reflexivity|].
  vm_compute in E. injection E as <-. rewrite <- !contained_in. vm_compute. split; [reflexivity|split; [discriminate|reflexivity]].
Qed.
Print Assumptions C86_literal_refuted.
Theorem C86_tab_refuted :
  let file := lit "def root():" ++ [nl] ++ lit "    return html.pre('a" ++ [9%N] ++ lit "b')" in
  exists text, executor [file] (lit "0a") (lit "root") = Some text /\ in_text (lit "'a" ++ [9%N] ++ lit "b'") file /\ ~ in_text (lit "'a" ++ [9%N] ++ lit "b'") text /\ in_text (lit "'a    b'") text.
Proof.
  intros file. destruct (executor [file] (lit "0a") (lit "root")) as [t|] eqn:E; [|vm_compute in E; discriminate]. exists t. split; [reflexivity|].
  vm_compute in E. injection E as <-. rewrite <- !contained_in. vm_compute. split; [reflexivity|split; [discriminate|reflexivity]].
Qed.
Print Assumptions C86_tab_refuted.
(** A root component with an annotation is not found; a comment is taken for one. *)
Theorem C86_annotated_refuted : executor [lit "def root() -> object:" ++ [nl] ++ lit "    return html.p()"] (lit "0a") (lit "root") = None.
Proof. vm_compute. reflexivity. Qed.
Print Assumptions C86_annotated_refuted.
Theorem C86_comment_refuted : executor [lit "# write def root(): here"] (lit "0a") (lit "root") <> None.
Proof. vm_compute. discriminate. Qed.
Print Assumptions C86_comment_refuted.
(** Code with "</script>" in a literal is cut there. *)
Theorem C86_script_refuted :
  let file := lit "def root():" ++ [nl] ++ lit "    return '</script>'" in
  exists page before code a b, component_html [file] [] (lit "0a") (lit "root") = Some page /\ executor [file] (lit "0a") (lit "root") = Some code /\
    page = before ++ lit "<script type='py'>" ++ code ++ lit "</script>" /\ code ++ lit "</script>" = a ++ lit "</script" ++ b /\ length a < length code.
Proof.
  intros file. destruct (executor [file] (lit "0a") (lit "root")) as [code|] eqn:E; [|vm_compute in E; discriminate].
  exists (lit "<div id=""pyscript-0a"" class=""pyscript"" data-uuid=""0a""></div><script type='py'>" ++ code ++ lit "</script>").
  exists (lit "<div id=""pyscript-0a"" class=""pyscript"" data-uuid=""0a""></div>"), code.
  vm_compute in E. injection E as <-.
  match goal with |- exists a b, _ /\ _ /\ _ /\ ?t = _ /\ _ =>
    exists (firstn 147 t), (skipn (147 + 8) t) end.
  split; [vm_compute; reflexivity|]. split; [reflexivity|]. split; [vm_compute; reflexivity|]. split; [vm_compute; reflexivity|]. vm_compute. lia.
Qed.
Print Assumptions C86_script_refuted.
(** Files are minified first (C69): a colour in a literal is taken for a comment, and the program is no longer the user's. *)
Theorem C86_colour_refuted :
  let file := ("def root():" ++ String "010" "    return html.p({'style': {'color': '#fff'}})  " ++ String "010" "x = 1")%string in
  exists text, executor [fetched file] (lit "0a") (lit "root") = Some text /\ in_text (lit "'#fff'") (lit file) /\ ~ in_text (lit "#fff") text.
Proof.
  intros file. destruct (executor [fetched file] (lit "0a") (lit "root")) as [t|] eqn:E; [|vm_compute in E; discriminate]. exists t. split; [reflexivity|].
  vm_compute in E. injection E as <-. rewrite <- !contained_in. vm_compute. split; [reflexivity|discriminate].
Qed.
Print Assumptions C86_colour_refuted.
