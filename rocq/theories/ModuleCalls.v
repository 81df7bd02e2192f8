(** * Components made from JavaScript modules, call by call (C99, C73)

    The functions of /repo/src/reactpy/reactjs/__init__.py (component_from_url, component_from_npm, component_from_file and
    component_from_string) with the module directory, which outlives the process, the three caches, which do not, and a
    user who edits the source files between the calls. Which names a module exports is the subject of C50 and C72; that
    files are replaced atomically and under a lock is the subject of C53 and C54: here a call is one step, and nobody
    else holds the lock. *)
From Coq Require Import String Ascii ZArith Bool Arith Lia List.
From Verif Require Import Dict Strings PyStr JsModules.
Import ListNotations.
Local Open Scope string_scope. Local Open Scope list_scope.

(** ** Names and files *)

(** [s.partition(c)], without the separator. *)
Definition partition (c : ascii) (s : string) : string * string := match split1 c s with Some p => p | None => (s, "") end.
(** The parts of [s] before and after the last [c]. *)
Fixpoint rsplit (c : ascii) (s : string) : option (string * string) :=
  match s with
  | "" => None
  | String a s' => match rsplit c s' with
                   | Some (x, y) => Some (String a x, y)
                   | None => if Ascii.eqb a c then Some ("", s') else None
                   end
  end.
(** [PurePosixPath(s).suffix] for a path without empty or "." parts. *)
Definition path_suffix (s : string) : string :=
  let name := match rsplit "/" s with Some (_, y) => y | None => s end in
  match rsplit "." name with
  | Some (x, y) => if String.eqb x "" || String.eqb y "" then "" else String "." y
  | None => ""
  end.
(** [module_name_suffix], /repo/src/reactpy/reactjs/module.py:256-261. *)
Definition module_name_suffix (name : string) : string :=
  let name := match name with String a s => if Ascii.eqb a "@" then s else name | "" => name end in
  let head := fst (partition "@" name) in
  let tail := snd (partition "/" (snd (partition "@" name))) in
  match path_suffix (if String.eqb tail "" then head else tail) with "" => ".js" | s => s end.
(** The module's file below the module directory, which is also the source that the browser is told: module.py:52 and 55,
    94 and 96, [get_module_path], 264-267 ([with_suffix] gives the path its own suffix). Simplification: names are taken
    as they are, so that [a//b] and [a/b] are different files here. *)
Definition file_of (name : string) : string := (name ++ module_name_suffix name)%string.
(** The directory of a file below the module directory, and it with those above it. *)
Definition dir_of (t : string) : string := match rsplit "/" t with Some (x, _) => x | None => "" end.
Definition ancestors (d : string) : list string := map (fun k => join "/" (firstn k (split "/" d))) (seq 0 (S (length (split "/" d)))).

(** ** The state *)

(** A file of the module directory: a copy, or a symbolic link to a source file. *)
Inductive stored := SFile (s : string) | SLink (p : string).
(** The working directory of the process; the source files, by absolute path, which lie outside the module directory; the
    directories and the files of the module directory; the caches, /repo/src/reactpy/reactjs/__init__.py:30-32. *)
Record world := World {
  w_cwd : string;
  w_src : dict string string;
  w_dirs : list string;
  w_mods : dict string stored;
  w_url : dict string jsmodule;
  w_file : dict string jsmodule;
  w_str : dict string jsmodule }.
Definition set_src x w := World (w_cwd w) x (w_dirs w) (w_mods w) (w_url w) (w_file w) (w_str w).
Definition set_mods x w := World (w_cwd w) (w_src w) (w_dirs w) x (w_url w) (w_file w) (w_str w).
Definition mkdirs t w := World (w_cwd w) (w_src w) (ancestors (dir_of t) ++ w_dirs w) (w_mods w) (w_url w) (w_file w) (w_str w).

(** [Path(file).resolve()], module.py:54. Simplification: no ".." and no links among the source files. *)
Definition abs (cwd f : string) : string := match f with String a _ => if Ascii.eqb a "/" then f else (cwd ++ "/" ++ f)%string | "" => cwd end.
(** Reading a file of the module directory, through a link. [None]: [exists()] is false. *)
Definition reads (w : world) (t : string) : option string :=
  match dget t (w_mods w) with Some (SFile s) => Some s | Some (SLink p) => dget p (w_src w) | None => None end.

(** ** The calls *)

(** The arguments that the functions have in common; [a_found]: what resolving the module's names would give at that
    moment, if asked for ([None]: it raises, see C50). *)
Record args := Args { a_req : request; a_res : bool; a_depth : Z; a_fb : fallback; a_unm : bool; a_ch : bool; a_found : option (list string) }.
Inductive err := TimedOut | FileNotFound | FileExists | RequestFailed.
Inductive outcome := Ret (i : imported) | Err (e : err).
Definition key_of (name : string) (a : args) : string := cache_key name (a_res a) (a_depth a) (a_unm a).
Definition names_of (a : args) : option (option (list string)) := if a_res a then match a_found a with Some l => Some (Some l) | None => None end else Some None.
Definition answer (m : jsmodule) (a : args) : outcome := Ret (module_to_vdom m (a_req a) (a_fb a) (a_ch a)).

(** [component_from_url], /repo/src/reactpy/reactjs/__init__.py:91-103, with [url_to_module], module.py:22-40. *)
Definition from_url (url : string) (a : args) (w : world) : world * outcome :=
  match dget (key_of url a) (w_url w) with
  | Some m => (w, answer m a)
  | None => match names_of a with
            | None => (w, Err RequestFailed)
            | Some names =>
                let m := JsModule url true (a_fb a) names (a_unm a) in
                (World (w_cwd w) (w_src w) (w_dirs w) (w_mods w) (dset (key_of url a) m (w_url w)) (w_file w) (w_str w), answer m a)
            end
  end.

(** The address that [component_from_npm] makes, /repo/src/reactpy/reactjs/__init__.py:185-192; the rest of the call is
    [component_from_url]. *)
Fixpoint has_sub (x s : string) : bool := prefix x s || match s with "" => false | String _ s' => has_sub x s' end.
Definition npm_url (package version cdn : string) (bundle : bool) : string :=
  let url := (cdn ++ "/" ++ package ++ "@" ++ version)%string in
  if has_sub "esm.sh" cdn then
    (url ++ (if contains "?" url then "&" else "?") ++ "external=react,react-dom,react/jsx-runtime" ++ (if bundle then "&bundle" else "") ++ "&target=es2020")%string
  else url.

(** [copy_file], /repo/src/reactpy/reactjs/utils.py:160-188. With [symlink] and a link there whose file is gone, [exists()] is
    false and both [symlink_to] and [os.link] raise [FileExistsError]. *)
Definition copy_file (t p content : string) (symlink : bool) (w : world) : option world :=
  if symlink then
    match dget t (w_mods w), reads w t with
    | Some _, None => None
    | _, _ => Some (set_mods (dset t (SLink p) (w_mods w)) (mkdirs t w))
    end
  else Some (set_mods (dset t (SFile content) (w_mods w)) (mkdirs t w)).
(** [file_to_module], module.py:43-82. The lock is taken first: in a directory that is not there this fails after the
    timeout (/repo/src/reactpy/reactjs/utils.py:203-213). [are_files_identical] (utils.py:152-157) compares the contents, as
    both paths have been resolved. *)
Definition file_to_module (name f : string) (symlink : bool) (a : args) (w : world) : world * (err + jsmodule) :=
  let t := file_of name in
  let p := abs (w_cwd w) f in
  if negb (mem (dir_of t) (w_dirs w)) then (w, inl TimedOut) else
  match dget p (w_src w) with
  | None => (w, inl FileNotFound)
  | Some content =>
      match (if match reads w t with Some c => String.eqb c content | None => false end then Some w else copy_file t p content symlink w) with
      | None => (w, inl FileExists)
      | Some w' => match names_of a with
                   | None => (w', inl RequestFailed)
                   | Some names => (w', inr (JsModule t false (a_fb a) names (a_unm a)))
                   end
      end
  end.
(** [string_to_module], module.py:85-118. A file with another content is removed; then the content is written, through a
    link if there is one. Simplification: the directory of a link's file exists. *)
Definition string_to_module (name content : string) (a : args) (w : world) : world * (err + jsmodule) :=
  let t := file_of name in
  let w1 := if match reads w t with Some c => negb (String.eqb c content) | None => false end then set_mods (ddel t (w_mods w)) w else w in
  let w2 := mkdirs t w1 in
  let w3 := match dget t (w_mods w2) with
            | Some (SLink p) => set_src (dset p content (w_src w2)) w2
            | _ => set_mods (dset t (SFile content) (w_mods w2)) w2
            end in
  match names_of a with
  | None => (w3, inl RequestFailed)
  | Some names => (w3, inr (JsModule t false (a_fb a) names (a_unm a)))
  end.

(** ** Lemmas on names *)

Lemma rsplit_None c s : rsplit c s = None <-> nochar c s.
Proof.
  induction s as [|b s IH]; simpl; [split; auto|]. destruct (rsplit c s) as [[? ?]|].
  - split; [discriminate|]. intros [_ N]. apply IH in N. discriminate.
  - destruct (Ascii.eqb_spec b c); split; intros X; try discriminate; try tauto.
Qed.
Lemma rsplit_Some c s x y : rsplit c s = Some (x, y) -> s = (x ++ String c y)%string /\ nochar c y.
Proof.
  revert x y. induction s as [|a s IH]; intros x y E; [discriminate|]. simpl in E. destruct (rsplit c s) as [[x' y']|] eqn:R.
  - injection E as <- <-. destruct (IH _ _ eq_refl) as [-> N]. split; [reflexivity|exact N].
  - destruct (Ascii.eqb_spec a c) as [->|]; [|discriminate]. injection E as <- <-. split; [reflexivity|]. apply rsplit_None. exact R.
Qed.
Lemma path_suffix_form s : path_suffix s = "" \/ exists e, path_suffix s = String "." e /\ e <> "" /\ nochar "." e.
Proof.
  unfold path_suffix. destruct (rsplit "." _) as [[x y]|] eqn:R; [|auto]. destruct (rsplit_Some _ _ _ _ R) as [_ N].
  destruct (String.eqb_spec x ""), (String.eqb_spec y ""); simpl; auto. right. exists y. auto.
Qed.
Lemma suffix_form n : exists e, module_name_suffix n = String "." e /\ nochar "." e.
Proof.
  unfold module_name_suffix. set (z := if String.eqb _ "" then _ else _). generalize z. intros z'.
  destruct (path_suffix_form z') as [->|(e & -> & _ & N)]; [|eauto]. exists "js". split; [reflexivity|]. simpl. repeat split; discriminate.
Qed.
(** Different names have different files. *)
Lemma file_of_inj n n' : file_of n = file_of n' -> n = n'.
Proof.
  unfold file_of. destruct (suffix_form n) as (e & -> & N), (suffix_form n') as (e' & -> & N'). intros E.
  apply split_last in E; tauto.
Qed.
Lemma nochar_suffix c s : nochar c s -> nochar c (path_suffix s) \/ c = "."%char.
Proof.
  intros N. unfold path_suffix. set (nm := match rsplit "/" s with Some (_, y) => y | None => s end).
  assert (NN : nochar c nm).
  { unfold nm. destruct (rsplit "/" s) as [[x y]|] eqn:R; [|exact N]. apply rsplit_Some in R. destruct R as [-> _].
    apply nochar_app in N. destruct N as [_ [_ N]]. exact N. }
  destruct (rsplit "." nm) as [[x y]|] eqn:R; [|left; exact I]. apply rsplit_Some in R. destruct R as [E _]. rewrite E in NN.
  destruct (String.eqb x "" || String.eqb y ""); [left; exact I|]. apply nochar_app in NN. simpl in NN. left. simpl. tauto.
Qed.
Lemma nochar_partition c d s : nochar c s -> nochar c (fst (partition d s)) /\ nochar c (snd (partition d s)).
Proof.
  unfold partition. destruct (split1 d s) as [[x y]|] eqn:E; [|simpl; auto]. apply split1_Some in E. destruct E as [-> _]. intros N.
  apply nochar_app in N. simpl in N. simpl. tauto.
Qed.
Lemma nochar_file c n : nochar c n -> nochar c ".js" -> nochar c (file_of n).
Proof.
  intros N J. unfold file_of. apply nochar_app. split; [exact N|]. unfold module_name_suffix.
  set (n' := match n with String a s => if Ascii.eqb a "@" then s else n | "" => n end).
  assert (N' : nochar c n'). { unfold n'. destruct n as [|a s]; [exact N|]. destruct (Ascii.eqb a "@"); [|exact N]. exact (proj2 N). }
  destruct (nochar_partition c "@" n' N') as [A B]. destruct (nochar_partition c "/" _ B) as [_ C].
  assert (D : forall z, nochar c z -> nochar c (match path_suffix z with "" => ".js" | s => s end)).
  { intros z Z. destruct (nochar_suffix c z Z) as [X|X]; [|subst c; simpl in J; tauto]. destruct (path_suffix z); [exact J|exact X]. }
  apply D. destruct (String.eqb _ ""); assumption.
Qed.

(** [hashlib.sha256(s.encode()).hexdigest()[:10]]. *)
Section Calls.
Variable digest : string -> string.
(** [name or hashlib…], /repo/src/reactpy/reactjs/__init__.py:271 and 350. *)
Definition called (name s : string) : string := if String.eqb name "" then digest s else name.
(** [component_from_file], /repo/src/reactpy/reactjs/__init__.py:271-286. *)
Definition from_file (f name : string) (symlink : bool) (a : args) (w : world) : world * outcome :=
  let n := called name f in
  match dget (key_of n a) (w_file w) with
  | Some m => (w, answer m a)
  | None => match file_to_module n f symlink a w with
            | (w', inl e) => (w', Err e)
            | (w', inr m) => (World (w_cwd w') (w_src w') (w_dirs w') (w_mods w') (w_url w') (dset (key_of n a) m (w_file w')) (w_str w'), answer m a)
            end
  end.
(** [component_from_string], /repo/src/reactpy/reactjs/__init__.py:350-364. *)
Definition from_string (content name : string) (a : args) (w : world) : world * outcome :=
  let n := called name content in
  match dget (key_of n a) (w_str w) with
  | Some m => (w, answer m a)
  | None => match string_to_module n content a w with
            | (w', inl e) => (w', Err e)
            | (w', inr m) => (World (w_cwd w') (w_src w') (w_dirs w') (w_mods w') (w_url w') (w_file w') (dset (key_of n a) m (w_str w')), answer m a)
            end
  end.

(** What happens: a source file is written or removed, the process changes its directory or is started again, a call. *)
Inductive op :=
| Edit (p : string) (c : option string)
| Chdir (d : string)
| Restart
| FromUrl (url : string) (a : args)
| FromNpm (package version cdn : string) (bundle : bool) (a : args)
| FromFile (f name : string) (symlink : bool) (a : args)
| FromString (content name : string) (a : args).
Definition step (w : world) (o : op) : world * option outcome :=
  let call (r : world * outcome) := (fst r, Some (snd r)) in
  match o with
  | Edit p (Some c) => (set_src (dset p c (w_src w)) w, None)
  | Edit p None => (set_src (ddel p (w_src w)) w, None)
  | Chdir d => (World d (w_src w) (w_dirs w) (w_mods w) (w_url w) (w_file w) (w_str w), None)
  | Restart => (World (w_cwd w) (w_src w) (w_dirs w) (w_mods w) [] [] [], None)
  | FromUrl url a => call (from_url url a w)
  | FromNpm package version cdn bundle a => call (from_url (npm_url package version cdn bundle) a w)
  | FromFile f name symlink a => call (from_file f name symlink a w)
  | FromString content name a => call (from_string content name a w)
  end.
Definition after (w : world) (l : list op) : world := fold_left (fun w o => fst (step w o)) l w.
Definition result (w : world) (o : op) : option outcome := snd (step w o).

(** ** Specification *)

(** The name of a module: the one given, or the digest of the path or text. *)
Definition goes_by (name s : string) : string := if String.eqb name "" then digest s else name.
(** Where a source file is: a path that does not start at the root is taken from the directory of the process. *)
Definition place (cwd f : string) : string := match f with String a _ => if Ascii.eqb a "/" then f else (cwd ++ "/" ++ f)%string | "" => cwd end.

(** A process that has made no call yet; what the module directory holds from earlier ones is arbitrary. *)
Definition fresh (w : world) : Prop := w_url w = [] /\ w_file w = [] /\ w_str w = [].
(** The calls as they were made: kind, name and arguments. *)
Inductive kind := KUrl | KFile | KString.
Definition call_of (o : op) : option (kind * string * args) :=
  match o with
  | FromUrl url a => Some (KUrl, url, a)
  | FromNpm package version cdn bundle a => Some (KUrl, npm_url package version cdn bundle, a)
  | FromFile f name _ a => Some (KFile, goes_by name f, a)
  | FromString content name a => Some (KString, goes_by name content, a)
  | _ => None
  end.
(** Two calls for the same module with the same way of resolving its names and of unmounting. *)
Definition same_call (o o' : op) : Prop := exists k n a a', call_of o = Some (k, n, a) /\ call_of o' = Some (k, n, a') /\
  a_res a = a_res a' /\ a_depth a = a_depth a' /\ a_unm a = a_unm a'.
(** What the browser gets for a component: it imports the address [jsModulesPath + source]
    (/repo/src/js/packages/@reactpy/client/src/client.ts:93-95), so that what follows a "?" or "#" is no part of the path; the
    web server answers with the file of that name (/repo/src/reactpy/executors/asgi/middleware.py:282-302). *)
Fixpoint path_of (s : string) : string :=
  match s with
  | "" => ""
  | String a s' => if Ascii.eqb a "?" || Ascii.eqb a "#" then "" else String a (path_of s')
  end.
Definition served (w : world) (c : ctor) : option string := if c_url c then None else reads w (path_of (c_source c)).
Definition url_safe (n : string) : Prop := nochar "?" n /\ nochar "#" n.

(** A call that gave components, or was rejected for the names asked for; it did not fail otherwise. *)
Definition answered (w : world) (l : list op) (o : op) : Prop := exists i, result (after w l) o = Some (Ret i).
(** The components of a call, by a history. *)
Definition gives (w : world) (l : list op) (o : op) (c : ctor) : Prop := exists i, result (after w l) o = Some (Ret i) /\ In c (made i).

(** The model names modules and finds files as specified. *)
Lemma goes_by_called : goes_by = called.
Proof. reflexivity. Qed.
Lemma place_abs : place = abs.
Proof. reflexivity. Qed.
Ltac as_modelled := change goes_by with called in *; change place with abs in *.

(** ** Lemmas on the browser's path *)

Lemma path_of_id s : nochar "?" s -> nochar "#" s -> path_of s = s.
Proof.
  induction s as [|x a IH]; simpl; auto. intros [A1 A2] [B1 B2]. destruct (Ascii.eqb_spec x "?"); [congruence|]. destruct (Ascii.eqb_spec x "#"); [congruence|].
  simpl. rewrite IH; auto.
Qed.
Lemma path_of_file n : url_safe n -> path_of (file_of n) = file_of n.
Proof. intros [A B]. apply path_of_id; apply nochar_file; auto; simpl; repeat split; discriminate. Qed.

(** ** Lemmas on the caches *)

Definition cache (k : kind) (w : world) : dict string jsmodule := match k with KUrl => w_url w | KFile => w_file w | KString => w_str w end.
Definition module_for (k : kind) (n : string) (a : args) : jsmodule :=
  JsModule (match k with KUrl => n | _ => file_of n end) (match k with KUrl => true | _ => false end) (a_fb a) (if a_res a then a_found a else None) (a_unm a).
Lemma after_app w l1 l2 : after w (l1 ++ l2) = after (after w l1) l2.
Proof. apply fold_left_app. Qed.
Lemma after_snoc w l o : after w (l ++ [o]) = fst (step (after w l) o).
Proof. rewrite after_app. reflexivity. Qed.
Lemma names_some a x : names_of a = Some x -> x = if a_res a then a_found a else None.
Proof. unfold names_of. destruct (a_res a); [destruct (a_found a)|]; congruence. Qed.
Lemma mkdirs_cache k t w : cache k (mkdirs t w) = cache k w. Proof. destruct k; reflexivity. Qed.
Lemma set_mods_cache k x w : cache k (set_mods x w) = cache k w. Proof. destruct k; reflexivity. Qed.
Lemma set_src_cache k x w : cache k (set_src x w) = cache k w. Proof. destruct k; reflexivity. Qed.
Lemma file_module_cache n f sym a w k : cache k (fst (file_to_module n f sym a w)) = cache k w.
Proof.
  unfold file_to_module. destruct (negb _); [reflexivity|]. destruct (dget (abs _ _) _) as [content|]; [|reflexivity].
  match goal with |- context [match ?x with Some _ => _ | None => (w, inl FileExists) end] => destruct x as [w'|] eqn:E; [|reflexivity] end.
  assert (cache k w' = cache k w).
  { destruct (match reads w (file_of n) with Some _ => _ | None => _ end); [congruence|]. unfold copy_file in E.
    destruct sym; [destruct (dget (file_of n) (w_mods w)), (reads w (file_of n))|]; inversion E; rewrite set_mods_cache, mkdirs_cache; reflexivity. }
  destruct (names_of a); exact H.
Qed.
Lemma file_module_out n f sym a w m : snd (file_to_module n f sym a w) = inr m -> m = module_for KFile n a.
Proof.
  unfold file_to_module. destruct (negb _); [discriminate|]. destruct (dget (abs _ _) _) as [content|]; [|discriminate].
  match goal with |- context [match ?x with Some _ => _ | None => (w, inl FileExists) end] => destruct x as [w'|] eqn:E; [|discriminate] end.
  destruct (names_of a) eqn:N; [|discriminate]. apply names_some in N. subst. cbn. intros X. inversion X. reflexivity.
Qed.
Lemma string_module_cache n s a w k : cache k (fst (string_to_module n s a w)) = cache k w.
Proof.
  unfold string_to_module. set (w1 := if match reads w _ with Some c => _ | None => false end then _ else w).
  assert (E1 : cache k w1 = cache k w). { unfold w1. destruct (match reads w _ with Some c => _ | None => false end); [apply set_mods_cache|reflexivity]. }
  clearbody w1. set (w3 := match dget _ _ with Some (SLink p) => _ | _ => _ end).
  assert (E3 : cache k w3 = cache k w).
  { unfold w3. destruct (dget _ _) as [[?|?]|]; rewrite ?set_mods_cache, ?set_src_cache, mkdirs_cache; exact E1. }
  clearbody w3. destruct (names_of a); exact E3.
Qed.
Lemma string_module_out n s a w m : snd (string_to_module n s a w) = inr m -> m = module_for KString n a.
Proof.
  unfold string_to_module. destruct (names_of a) eqn:N; [|discriminate]. apply names_some in N. subst. cbn. intros X. inversion X. reflexivity.
Qed.
(** What a call does to the caches. *)
Lemma step_call w o k n a : call_of o = Some (k, n, a) ->
  match dget (key_of n a) (cache k w) with
  | Some m => step w o = (w, Some (answer m a))
  | None => ((exists e, result w o = Some (Err e)) /\ forall k', cache k' (fst (step w o)) = cache k' w) \/
            (result w o = Some (answer (module_for k n a) a) /\
             forall k', cache k' (fst (step w o)) = match k, k' with KUrl, KUrl | KFile, KFile | KString, KString => dset (key_of n a) (module_for k n a) (cache k' w) | _, _ => cache k' w end)
  end.
Proof.
  unfold result. intros C.
  assert (U : forall url b, (k, n, a) = (KUrl, url, b) ->
    match dget (key_of n a) (cache k w) with
    | Some m => from_url url b w = (w, answer m a)
    | None => ((exists e, snd (from_url url b w) = Err e) /\ forall k', cache k' (fst (from_url url b w)) = cache k' w) \/
              (snd (from_url url b w) = answer (module_for k n a) a /\
               forall k', cache k' (fst (from_url url b w)) = match k, k' with KUrl, KUrl | KFile, KFile | KString, KString => dset (key_of n a) (module_for k n a) (cache k' w) | _, _ => cache k' w end)
    end).
  { intros url b E. inversion E; subst. unfold from_url. cbn [cache]. destruct (dget _ _); [reflexivity|].
    destruct (names_of b) eqn:N; [|left; split; [eexists; reflexivity|reflexivity]]. apply names_some in N. subst. right. split; [reflexivity|]. intros []; reflexivity. }
  destruct o; try discriminate; cbn [call_of] in C; inversion C; clear C; subst; cbn [step]; as_modelled.
  - specialize (U n a eq_refl). destruct (dget _ _); [rewrite U; reflexivity|]. destruct U as [[[e E] X]|[E X]]; [left|right]; (split; [|exact X]); cbn [fst snd]; rewrite E; eauto.
  - specialize (U _ a eq_refl). destruct (dget _ _); [rewrite U; reflexivity|]. destruct U as [[[e E] X]|[E X]]; [left|right]; (split; [|exact X]); cbn [fst snd]; rewrite E; eauto.
  - clear U. unfold from_file. cbn [cache]. destruct (dget _ _); [reflexivity|].
    pose proof (file_module_cache (called name f) f symlink a w) as FC. pose proof (file_module_out (called name f) f symlink a w) as FO.
    destruct (file_to_module _ _ _ _ _) as [w' [e|m]]; cbn [fst snd] in *.
    + left. split; eauto.
    + right. rewrite (FO m eq_refl). split; [reflexivity|]. intros k'. specialize (FC k'). destruct k'; cbn [cache w_url w_file w_str] in *; congruence.
  - clear U. unfold from_string. cbn [cache]. destruct (dget _ _); [reflexivity|].
    pose proof (string_module_cache (called name content) content a w) as FC. pose proof (string_module_out (called name content) content a w) as FO.
    destruct (string_to_module _ _ _ _) as [w' [e|m]]; cbn [fst snd] in *.
    + left. split; eauto.
    + right. rewrite (FO m eq_refl). split; [reflexivity|]. intros k'. specialize (FC k'). destruct k'; cbn [cache w_url w_file w_str] in *; congruence.
Qed.
Lemma step_none w o k : call_of o = None -> cache k (fst (step w o)) = if match o with Restart => true | _ => false end then [] else cache k w.
Proof. destruct o; try discriminate; intros _; cbn; try (destruct c); try reflexivity; destruct k; reflexivity. Qed.
Definition keyed (k : kind) (key : string) (o : op) : Prop := exists n a, call_of o = Some (k, n, a) /\ key_of n a = key.
Lemma same_keyed o o' k n a : call_of o = Some (k, n, a) -> (same_call o' o <-> keyed k (key_of n a) o').
Proof.
  intros C. split.
  - intros (k' & n' & a' & a2 & C1 & C2 & R & D & U). rewrite C in C2. inversion C2; subst. exists n', a'. split; [exact C1|].
    unfold key_of. congruence.
  - intros (n' & a' & C1 & E). unfold key_of in E. apply C52_key_injective in E. destruct E as (-> & R & D & U). exists k, n, a', a. auto.
Qed.
Lemma snoc_split {A} (l x y : list A) o o' : l ++ [o] = x ++ o' :: y -> (x = l /\ o' = o /\ y = []) \/ exists y', y = y' ++ [o] /\ l = x ++ o' :: y'.
Proof.
  destruct (exists_last (l := o' :: y)) as (y' & z & E); [discriminate|]. rewrite E, app_assoc. intros H. apply app_inj_tail in H.
  destruct H as [-> ->]. destruct y' as [|b y']; cbn in E; injection E as -> E; [left|right]; subst.
  - rewrite app_nil_r. auto.
  - exists y'. split; auto.
Qed.
Lemma err_not_answered w l o e : result (after w l) o = Some (Err e) -> ~ answered w l o.
Proof. intros E [i H]. congruence. Qed.
Lemma cached w l : fresh w -> forall k key,
  match dget key (cache k (after w l)) with
  | Some m => exists l1 o1 l2 n a, l = l1 ++ o1 :: l2 /\ ~ In Restart l2 /\ call_of o1 = Some (k, n, a) /\ key_of n a = key /\ m = module_for k n a /\
                answered w l1 o1 /\ forall x o' y, l1 = x ++ o' :: y -> ~ In Restart y -> keyed k key o' -> ~ answered w x o'
  | None => forall x o' y, l = x ++ o' :: y -> ~ In Restart y -> keyed k key o' -> ~ answered w x o'
  end.
Proof.
  intros F k key. induction l as [|o l IH] using rev_ind.
  - replace (cache k (after w [])) with (@nil (string * jsmodule)). { cbn. intros [|? ?]; discriminate. }
    destruct F as (A & B & C). destruct k; cbn; auto.
  - rewrite after_snoc. set (W := after w l) in *.
    assert (SAME : o <> Restart -> dget key (cache k (fst (step W o))) = dget key (cache k W) -> (keyed k key o -> dget key (cache k W) = None -> ~ answered w l o) ->
      match dget key (cache k (fst (step W o))) with
      | Some m => exists l1 o1 l2 n a, l ++ [o] = l1 ++ o1 :: l2 /\ ~ In Restart l2 /\ call_of o1 = Some (k, n, a) /\ key_of n a = key /\ m = module_for k n a /\
                    answered w l1 o1 /\ forall x o' y, l1 = x ++ o' :: y -> ~ In Restart y -> keyed k key o' -> ~ answered w x o'
      | None => forall x o' y, l ++ [o] = x ++ o' :: y -> ~ In Restart y -> keyed k key o' -> ~ answered w x o'
      end).
    { intros DR E NA. rewrite E. destruct (dget key (cache k W)) as [m|] eqn:D.
      - destruct IH as (l1 & o1 & l2 & n & a & EL & NR & C & K & M & AN & FI). exists l1, o1, (l2 ++ [o]), n, a.
        split; [rewrite EL, <- app_assoc; reflexivity|]. split; [|auto]. rewrite in_app_iff. cbn. intros [X|[X|[]]]; auto.
      - intros x o' y SP NR KO. apply snoc_split in SP. destruct SP as [(-> & -> & ->)|(y' & -> & EL)]; [auto|].
        apply (IH x o' y'); auto. intros I. apply NR. apply in_or_app. auto. }
    destruct (call_of o) as [[[k' n] a]|] eqn:C.
    + assert (DR : o <> Restart) by (intros ->; discriminate).
      pose proof (step_call W o k' n a C) as SC. destruct (dget (key_of n a) (cache k' W)) as [m|] eqn:D.
      * apply SAME; [exact DR|rewrite SC; reflexivity|]. intros (n' & a' & C' & K) D'. rewrite C in C'. inversion C'; subst. congruence.
      * destruct SC as [[[e E] SC]|[E SC]]; [apply SAME; [exact DR|rewrite SC; reflexivity|intros _ _; apply (err_not_answered _ _ _ e); exact E]|].
        assert (KD : k = k' /\ key = key_of n a \/ ~ (k = k' /\ key = key_of n a)).
        { destruct (string_dec key (key_of n a)), k, k'; auto; right; intros [? ?]; congruence. }
        destruct KD as [[<- ->]|ND].
        -- assert (SK : cache k (fst (step W o)) = dset (key_of n a) (module_for k n a) (cache k W)) by (rewrite SC; destruct k; reflexivity).
           rewrite SK, dget_dset_same. exists l, o, [], n, a. rewrite D in IH. split; [reflexivity|]. split; [auto|]. repeat (split; [solve [auto]|]). split; [|exact IH].
           eexists. exact E.
        -- apply SAME; [exact DR| |].
           ++ rewrite SC. destruct k, k'; try reflexivity; apply dget_dset_other; intros X; apply ND; auto.
           ++ intros (n' & a' & C' & K) _. rewrite C in C'. inversion C'; subst. exfalso. apply ND. auto.
    + pose proof (step_none W o k C) as SN. assert (NK : ~ keyed k key o) by (intros (n & a & C' & _); congruence). destruct o; try discriminate; try (apply SAME; [discriminate|rewrite SN; reflexivity|tauto]).
      rewrite SN. cbn. intros x o' y SP NR KO. apply snoc_split in SP. destruct SP as [(-> & -> & ->)|(y' & -> & EL)]; [tauto|].
      exfalso. apply NR. apply in_or_app. cbn. auto.
Qed.

(** ** The components *)

(** Every call that does not fail gives one component per name, in order, of the kind asked for, for the address or the
    file of the module, whatever was called before; it is rejected for its names only if they are to be resolved. *)
Theorem C99_component w l o k n a i : fresh w -> call_of o = Some (k, n, a) -> result (after w l) o = Some (Ret i) ->
  (i = ValueError -> a_res a = true) /\
  (i <> ValueError ->
     match a_req a with One _ => exists c, i = Single c | Many _ => exists cs, i = Several cs end /\
     map c_name (made i) = wanted (a_req a) /\
     Forall (fun c => c_source c = match k with KUrl => n | _ => file_of n end /\ (c_url c = true <-> k = KUrl) /\
                      c_children c = a_ch a /\ c_unmount c = a_unm a) (made i)).
Proof.
  intros F C R. pose proof (step_call (after w l) o k n a C) as SC. pose proof (cached w l F k (key_of n a)) as CA.
  assert (X : exists b, a_res b = a_res a /\ a_unm b = a_unm a /\ Ret i = answer (module_for k n b) a).
  { destruct (dget _ _) as [m|].
    - destruct CA as (l1 & o1 & l2 & n1 & b & _ & _ & C1 & K & M & _). unfold result in R. rewrite SC in R. injection R as R.
      unfold key_of in K. apply C52_key_injective in K. destruct K as (-> & A & _ & B). exists b. rewrite <- R, M. auto.
    - destruct SC as [[[e E] _]|[E _]]; [congruence|]. exists a. rewrite E in R. injection R as <-. auto. }
  destruct X as (b & RB & UB & E). injection E as E. split.
  - intros V. rewrite V in E. symmetry in E. apply C51_rejects in E. destruct E as (ns & _ & _ & J & _). cbn in J. rewrite RB in J. destruct (a_res a); congruence.
  - intros V. rewrite E in V. pose proof (C51_constructors _ _ _ _ V) as [A B]. rewrite <- E in A, B. split; [|split; [exact A|]].
    + rewrite E. clear -V. unfold module_to_vdom in *. destruct (a_req a); destruct (match j_names _ with Some _ => _ | None => _ end); try congruence; eauto.
    + eapply Forall_impl; [|exact B]. cbn. intros c (-> & -> & -> & -> & _). split; [reflexivity|]. split; [destruct k; split; congruence|]. auto.
Qed.
(** The placeholder is the one given, if it counts as true; else that of the first call for the module, of those since
    the process started that did not fail. *)
Theorem C99_fallback w l o k n a c : fresh w -> call_of o = Some (k, n, a) -> gives w l o c ->
  exists l1 o1 l2 a1, l ++ [o] = l1 ++ o1 :: l2 /\ ~ In Restart l2 /\ same_call o1 o /\ call_of o1 = Some (k, n, a1) /\ answered w l1 o1 /\
    (forall x o' y, l1 = x ++ o' :: y -> ~ In Restart y -> same_call o' o -> ~ answered w x o') /\
    c_fallback c = match a_fb a with Truthy _ => a_fb a | _ => a_fb a1 end.
Proof.
  intros F C (i & R & IC). pose proof (step_call (after w l) o k n a C) as SC. pose proof (cached w l F k (key_of n a)) as CA.
  assert (DR : o <> Restart) by (intros ->; discriminate).
  assert (X : forall b, Ret i = answer (module_for k n b) a -> c_fallback c = match a_fb a with Truthy _ => a_fb a | _ => a_fb b end).
  { intros b E. injection E as E. assert (V : i <> ValueError) by (intros ->; destruct IC). rewrite E in V. pose proof (C51_constructors _ _ _ _ V) as [_ B].
    rewrite <- E in B. rewrite Forall_forall in B. apply B in IC. cbn in IC. destruct IC as (_ & _ & _ & _ & ->). reflexivity. }
  destruct (dget _ _) as [m|].
  - destruct CA as (l1 & o1 & l2 & n1 & b & EL & NR & C1 & K & M & AN & FI). exists l1, o1, (l2 ++ [o]).
    assert (KO : keyed k (key_of n a) o1) by (exists n1, b; auto). pose proof (proj2 (same_keyed o o1 k n a C) KO) as SO.
    unfold key_of in K. apply C52_key_injective in K. destruct K as (-> & _). exists b.
    split; [rewrite EL, <- app_assoc; reflexivity|]. split; [rewrite in_app_iff; cbn; intros [Z|[Z|[]]]; auto|]. split; [exact SO|]. split; [exact C1|]. split; [exact AN|]. split.
    + intros x o' y E NY SO'. apply (FI x o' y E NY). apply (same_keyed o o' k n a C). exact SO'.
    + apply X. unfold result in R. rewrite SC in R. injection R as R. rewrite <- R, M. reflexivity.
  - destruct SC as [[[e E] _]|[E _]]; [congruence|]. exists l, o, [], a. split; [reflexivity|]. split; [auto|]. split; [exists k, n, a, a; auto|]. split; [exact C|]. split; [exists i; exact R|]. split.
    + intros x o' y EL NY SO'. apply (CA x o' y EL NY). apply (same_keyed o o' k n a C). exact SO'.
    + apply X. rewrite E in R. injection R as <-. reflexivity.
Qed.

(** ** What the browser gets *)

Lemma reads_set w x t : reads (set_mods x w) t = match dget t x with Some (SFile s) => Some s | Some (SLink p) => dget p (w_src w) | None => None end.
Proof. reflexivity. Qed.
(** A call does nothing to the files of modules with other names. *)
Lemma file_module_mods n f sym a w t : t <> file_of n -> dget t (w_mods (fst (file_to_module n f sym a w))) = dget t (w_mods w).
Proof.
  intros N. unfold file_to_module. destruct (negb _); [reflexivity|]. destruct (dget (abs _ _) _) as [content|]; [|reflexivity].
  match goal with |- context [match ?x with Some _ => _ | None => (w, inl FileExists) end] => destruct x as [w'|] eqn:E; [|reflexivity] end.
  assert (X : dget t (w_mods w') = dget t (w_mods w)).
  { destruct (match reads w (file_of n) with Some _ => _ | None => _ end); [congruence|]. unfold copy_file in E.
    destruct sym; [destruct (dget (file_of n) (w_mods w)), (reads w (file_of n))|]; inversion E; cbn; apply dget_dset_other; congruence. }
  destruct (names_of a); exact X.
Qed.
Lemma file_module_src n f sym a w : w_src (fst (file_to_module n f sym a w)) = w_src w.
Proof.
  unfold file_to_module. destruct (negb _); [reflexivity|]. destruct (dget (abs _ _) _) as [content|]; [|reflexivity].
  match goal with |- context [match ?x with Some _ => _ | None => (w, inl FileExists) end] => destruct x as [w'|] eqn:E; [|reflexivity] end.
  assert (X : w_src w' = w_src w).
  { destruct (match reads w (file_of n) with Some _ => _ | None => _ end); [congruence|]. unfold copy_file in E.
    destruct sym; [destruct (dget (file_of n) (w_mods w)), (reads w (file_of n))|]; inversion E; reflexivity. }
  destruct (names_of a); exact X.
Qed.
Lemma file_module_cwd n f sym a w : w_cwd (fst (file_to_module n f sym a w)) = w_cwd w.
Proof.
  unfold file_to_module. destruct (negb _); [reflexivity|]. destruct (dget (abs _ _) _) as [content|]; [|reflexivity].
  match goal with |- context [match ?x with Some _ => _ | None => (w, inl FileExists) end] => destruct x as [w'|] eqn:E; [|reflexivity] end.
  assert (X : w_cwd w' = w_cwd w).
  { destruct (match reads w (file_of n) with Some _ => _ | None => _ end); [congruence|]. unfold copy_file in E.
    destruct sym; [destruct (dget (file_of n) (w_mods w)), (reads w (file_of n))|]; inversion E; reflexivity. }
  destruct (names_of a); exact X.
Qed.
(** What [string_to_module] leaves, without the case distinctions of the names. *)
Lemma string_module_world n s a w : exists w1, fst (string_to_module n s a w) = w1 /\ w_cwd w1 = w_cwd w /\
  (forall t, t <> file_of n -> dget t (w_mods w1) = dget t (w_mods w)) /\
  match dget (file_of n) (w_mods w) with
  | Some (SLink p) => match dget p (w_src w) with
                      | Some c => w_src w1 = w_src w /\ (c <> s -> dget (file_of n) (w_mods w1) = Some (SFile s)) \/
                                  c = s /\ w_src w1 = dset p s (w_src w) /\ w_mods w1 = w_mods w
                      | None => w_src w1 = dset p s (w_src w) /\ w_mods w1 = w_mods w
                      end
  | _ => w_src w1 = w_src w /\ dget (file_of n) (w_mods w1) = Some (SFile s)
  end.
Proof.
  exists (fst (string_to_module n s a w)). split; [reflexivity|]. unfold string_to_module, reads.
  destruct (dget (file_of n) (w_mods w)) as [[c|p]|] eqn:D.
  - destruct (String.eqb_spec c s) as [->|NE]; cbn [negb].
    + cbn [mkdirs w_mods]. rewrite D. destruct (names_of a); cbn; (split; [reflexivity|]; split; [intros; apply dget_dset_other; congruence|]; split; [reflexivity|apply dget_dset_same]).
    + cbn [mkdirs w_mods set_mods]. rewrite dget_ddel_same. destruct (names_of a); cbn; (split; [reflexivity|]; split; [intros; rewrite dget_dset_other, dget_ddel_other by congruence; reflexivity|]; split; [reflexivity|apply dget_dset_same]).
  - destruct (dget p (w_src w)) as [c|] eqn:P.
    + destruct (String.eqb_spec c s) as [->|NE]; cbn [negb].
      * cbn [mkdirs w_mods]. rewrite D. destruct (names_of a); cbn; (split; [reflexivity|]; split; [reflexivity|]; right; auto).
      * cbn [mkdirs w_mods set_mods]. rewrite dget_ddel_same. destruct (names_of a); cbn; (split; [reflexivity|]; split; [intros; rewrite dget_dset_other, dget_ddel_other by congruence; reflexivity|]; left; split; [reflexivity|intros; apply dget_dset_same]).
    + cbn [mkdirs w_mods]. rewrite D. destruct (names_of a); cbn; (split; [reflexivity|]; split; [reflexivity|]; auto).
  - cbn [mkdirs w_mods]. rewrite D. destruct (names_of a); cbn; (split; [reflexivity|]; split; [intros; apply dget_dset_other; congruence|]; split; [reflexivity|apply dget_dset_same]).
Qed.

Lemma step_mods w o n0 : (forall k n a, call_of o = Some (k, n, a) -> k <> KUrl -> n <> n0) -> dget (file_of n0) (w_mods (fst (step w o))) = dget (file_of n0) (w_mods w).
Proof.
  intros N. assert (U : forall url a, w_mods (fst (from_url url a w)) = w_mods w) by (intros; unfold from_url; destruct (dget _ (w_url w)); [reflexivity|]; destruct (names_of a); reflexivity).
  destruct o; cbn [step]; try (destruct c); try reflexivity; cbn [fst]; rewrite ?U; try reflexivity.
  - unfold from_file. destruct (dget _ (w_file w)); [reflexivity|]. pose proof (file_module_mods (called name f) f symlink a w (file_of n0)) as X.
    destruct (file_to_module _ _ _ _ _) as [w' [e|m]]; cbn [fst w_mods] in *; apply X; intros E; apply file_of_inj in E; apply (N KFile (called name f) a eq_refl); congruence.
  - unfold from_string. destruct (dget _ (w_str w)); [reflexivity|]. destruct (string_module_world (called name content) content a w) as (w1 & E1 & _ & X & _).
    destruct (string_to_module _ _ _ _) as [w' [e|m]]; cbn [fst w_mods] in *; subst; apply X; intros E; apply file_of_inj in E; apply (N KString (called name content) a eq_refl); congruence.
Qed.
Lemma step_cwd w o : (forall d, o <> Chdir d) -> w_cwd (fst (step w o)) = w_cwd w.
Proof.
  intros N. assert (U : forall url a, w_cwd (fst (from_url url a w)) = w_cwd w) by (intros; unfold from_url; destruct (dget _ (w_url w)); [reflexivity|]; destruct (names_of a); reflexivity).
  destruct o; cbn [step]; try (destruct c); try reflexivity; cbn [fst]; rewrite ?U; try reflexivity.
  - destruct (N d eq_refl).
  - unfold from_file. destruct (dget _ (w_file w)); [reflexivity|]. pose proof (file_module_cwd (called name f) f symlink a w) as X.
    destruct (file_to_module _ _ _ _ _) as [w' [e|m]]; exact X.
  - unfold from_string. destruct (dget _ (w_str w)); [reflexivity|]. destruct (string_module_world (called name content) content a w) as (w1 & E1 & X & _).
    destruct (string_to_module _ _ _ _) as [w' [e|m]]; cbn [fst w_mods] in *; subst; exact X.
Qed.
Lemma step_src w o p s : (forall c, o <> Edit p c) -> dget p (w_src w) = Some s -> dget p (w_src (fst (step w o))) = Some s.
Proof.
  intros N D. assert (U : forall url a, w_src (fst (from_url url a w)) = w_src w) by (intros; unfold from_url; destruct (dget _ (w_url w)); [reflexivity|]; destruct (names_of a); reflexivity).
  destruct o; cbn [step]; try exact D; cbn [fst]; rewrite ?U; try exact D.
  - assert (p <> p0) by (intros ->; exact (N c eq_refl)). destruct c; cbn; [rewrite dget_dset_other by congruence|rewrite dget_ddel_other by congruence]; exact D.
  - unfold from_file. destruct (dget _ (w_file w)); [exact D|]. pose proof (file_module_src (called name f) f symlink a w) as X.
    destruct (file_to_module _ _ _ _ _) as [w' [e|m]]; cbn [fst w_src] in *; rewrite X; exact D.
  - unfold from_string. destruct (dget _ (w_str w)); [exact D|]. destruct (string_module_world (called name content) content a w) as (w1 & E1 & _ & _ & X).
    assert (Y : dget p (w_src w1) = Some s).
    { destruct (dget (file_of _) (w_mods w)) as [[?|q]|]; try (destruct X as [X _]; rewrite X; exact D).
      destruct (dget q (w_src w)) as [c|] eqn:Q.
      - destruct X as [[X _]|(X1 & X & _)]; rewrite X; [exact D|]. subst. destruct (string_dec p q) as [->|NE]; [rewrite dget_dset_same; congruence|rewrite dget_dset_other by congruence; exact D].
      - destruct X as [X _]. rewrite X. destruct (string_dec p q) as [->|NE]; [congruence|rewrite dget_dset_other by congruence; exact D]. }
    destruct (string_to_module _ _ _ _) as [w' [e|m]]; cbn [fst w_src] in *; subst; exact Y.
Qed.
(** The functions never change or remove a source file. *)
Theorem C99_sources w l p s : (forall c, ~ In (Edit p c) l) -> dget p (w_src w) = Some s -> dget p (w_src (after w l)) = Some s.
Proof.
  revert w. induction l as [|o l IH]; intros w N D; [exact D|]. apply IH.
  - intros c I. apply (N c). right. exact I.
  - apply step_src; [|exact D]. intros c ->. apply (N c). left. reflexivity.
Qed.

(** A [component_from_file] call that is not answered from the cache. *)
Lemma file_module_good n f sym a w : let t := file_of n in let p := abs (w_cwd w) f in let r := file_to_module n f sym a w in
  (exists e, r = (w, inl e) /\ e <> RequestFailed) \/
  exists content, dget p (w_src w) = Some content /\ reads (fst r) t = Some content /\
    (dget t (w_mods (fst r)) = dget t (w_mods w) /\ reads w t = Some content \/ dget t (w_mods (fst r)) = Some (if sym then SLink p else SFile content)).
Proof.
  cbn zeta. unfold file_to_module. destruct (negb _); [left; exists TimedOut; split; [reflexivity|discriminate]|].
  destruct (dget (abs _ _) _) as [content|] eqn:P; [|left; exists FileNotFound; split; [reflexivity|discriminate]].
  destruct (reads w (file_of n)) as [c|] eqn:R.
  - destruct (String.eqb_spec c content) as [->|NE].
    + right. exists content. split; [reflexivity|]. destruct (names_of a); cbn [fst]; auto.
    + unfold copy_file. rewrite R. destruct sym.
      * assert (DD : exists z, dget (file_of n) (w_mods w) = Some z). { unfold reads in R. destruct (dget _ (w_mods w)); [eauto|discriminate]. }
        destruct DD as [z ->]. right. exists content. split; [reflexivity|]. destruct (names_of a); cbn [fst]; rewrite reads_set; cbn; rewrite dget_dset_same; rewrite ?P; auto.
      * right. exists content. split; [reflexivity|]. destruct (names_of a); cbn [fst]; rewrite reads_set; cbn; rewrite dget_dset_same; auto.
  - unfold copy_file. rewrite R. destruct sym.
    + destruct (dget (file_of n) (w_mods w)) eqn:D; [left; exists FileExists; split; [reflexivity|discriminate]|].
      right. exists content. split; [reflexivity|]. destruct (names_of a); cbn [fst]; rewrite reads_set; cbn; rewrite dget_dset_same; rewrite ?P; auto.
    + right. exists content. split; [reflexivity|]. destruct (names_of a); cbn [fst]; rewrite reads_set; cbn; rewrite dget_dset_same; auto.
Qed.
Lemma ret_sources w l o k n a c : fresh w -> call_of o = Some (k, n, a) -> gives w l o c -> c_source c = (match k with KUrl => n | _ => file_of n end) /\ (c_url c = true <-> k = KUrl).
Proof.
  intros F C (i & R & IC). destruct (C99_component w l o k n a i F C R) as [_ X]. destruct X as (_ & _ & X); [intros ->; destruct IC|].
  rewrite Forall_forall in X. apply X in IC. tauto.
Qed.
Lemma gives_cached w l o k n a c : call_of o = Some (k, n, a) -> gives w l o c -> dget (key_of n a) (cache k (after w (l ++ [o]))) <> None.
Proof.
  intros C (i & R & _). rewrite after_snoc. pose proof (step_call (after w l) o k n a C) as SC. destruct (dget _ _) eqn:D.
  - rewrite SC. cbn [fst]. congruence.
  - destruct SC as [[[e E] _]|[_ E]]; [congruence|]. rewrite E. destruct k; rewrite dget_dset_same; discriminate.
Qed.

Lemma stays k key l w : ~ In Restart l -> dget key (cache k w) <> None -> dget key (cache k (after w l)) <> None.
Proof.
  revert w. induction l as [|o l IH]; intros w NR X; [exact X|]. cbn in NR. apply IH; [tauto|]. destruct (call_of o) as [[[k' n'] b']|] eqn:C.
  - pose proof (step_call w o k' n' b' C) as SC. destruct (dget (key_of n' b') (cache k' w)); [rewrite SC; exact X|].
    destruct SC as [[_ SC]|[_ SC]]; rewrite SC; [exact X|]. destruct k', k; try exact X;
      (destruct (string_dec key (key_of n' b')) as [->|NE]; [rewrite dget_dset_same; discriminate|rewrite dget_dset_other by congruence; exact X]).
  - rewrite step_none by exact C. destruct o; try discriminate; try exact X. tauto.
Qed.

(** Nothing happens to the source file [p], the process keeps its directory and goes on running, and the name [n] is used for
    the file [f] only. *)
Definition calm (f n p : string) (o : op) : Prop :=
  match o with
  | Edit q _ => q <> p
  | Chdir _ | Restart => False
  | FromFile g name _ _ => goes_by name g = n -> g = f
  | FromString s name _ => goes_by name s <> n
  | _ => True
  end.
(** The module's file, if there is one from earlier, is no link to another file. *)
Definition no_other_link (w : world) (n p : string) : Prop := forall q, dget (file_of n) (w_mods w) = Some (SLink q) -> q = p.
(** Then the browser gets the source file for every component, from then on. *)
Theorem C99_file_partial w l1 o l2 f name sym a c : let n := goes_by name f in let p := place (w_cwd w) f in let W := after w (l1 ++ o :: l2) in
  o = FromFile f name sym a -> fresh w -> url_safe n -> no_other_link w n p -> Forall (calm f n p) (l1 ++ o :: l2) -> gives w l1 o c ->
  exists content, dget p (w_src W) = Some content /\ served W c = Some content.
Proof.
  intros n p W -> F US NL CA G.
  set (J := fun W => w_cwd W = w_cwd w /\ no_other_link W n p /\
    ((exists a, dget (key_of n a) (w_file W) <> None) -> exists content, dget p (w_src W) = Some content /\ reads W (file_of n) = Some content)).
  assert (J0 : J w). { split; [reflexivity|]. split; [exact NL|]. intros [b B]. destruct F as (_ & F & _). rewrite F in B. cbn in B. congruence. }
  assert (JS : forall W o, J W -> calm f n p o -> J (fst (step W o))).
  { clear W G CA. intros W o (JC & JL & JG) CO.
    assert (CW : w_cwd (fst (step W o)) = w_cwd w) by (rewrite step_cwd; [exact JC|intros d ->; exact CO]).
    split; [exact CW|].
    assert (OT : (forall k n' b, call_of o = Some (k, n', b) -> k <> KUrl -> n' <> n) -> no_other_link (fst (step W o)) n p /\
      ((exists a, dget (key_of n a) (w_file (fst (step W o))) <> None) -> exists content, dget p (w_src (fst (step W o))) = Some content /\ reads (fst (step W o)) (file_of n) = Some content)).
    { intros N. pose proof (step_mods W o n N) as SM. split; [intros q; rewrite SM; apply JL|].
      intros [b B]. destruct JG as (content & P & R).
      - exists b. intros Z. apply B. destruct (call_of o) as [[[k n'] b']|] eqn:C.
        + pose proof (step_call W o k n' b' C) as SC. destruct (dget _ (cache k W)).
          * rewrite SC. exact Z.
          * destruct SC as [[_ SC]|[_ SC]]; specialize (SC KFile); cbn [cache] in SC; rewrite SC; [exact Z|]. destruct k; try exact Z.
            rewrite dget_dset_other; [exact Z|]. unfold key_of. intros E. apply C52_key_injective in E. apply (N KFile n' b' eq_refl); [discriminate|]. symmetry. apply E.
        + pose proof (step_none W o KFile C) as SN. cbn [cache] in SN. rewrite SN. destruct o; try discriminate; try exact Z. reflexivity.
      - exists content. split.
        + apply step_src; [|exact P]. intros c' ->. cbn in CO. congruence.
        + unfold reads in R |- *. rewrite SM. destruct (dget (file_of n) (w_mods W)) as [[s'|q]|] eqn:D; [exact R| |exact R].
          rewrite (JL q D) in *. apply step_src; [|exact R]. intros c' ->. cbn in CO. congruence. }
    destruct o; try (apply OT; cbn; intros; congruence).
    - destruct (string_dec (called name0 f0) n) as [E|NE]; [|apply OT; cbn; as_modelled; intros; congruence]. clear OT; as_modelled.
      cbn in CO. specialize (CO E). subst f0. cbn [step fst]. unfold from_file. rewrite E. destruct (dget _ (w_file W)) as [m|] eqn:D; [split; [exact JL|exact JG]|].
      assert (AB : abs (w_cwd W) f = p) by (rewrite JC; reflexivity).
      pose proof (file_module_good n f symlink a0 W) as FG. cbn zeta in FG. rewrite AB in FG. pose proof (file_module_src n f symlink a0 W) as FS. destruct FG as [(e & FG & _)|(content & P & R & FG)].
      + rewrite FG. cbn [fst]. split; [exact JL|exact JG].
      + assert (L : no_other_link (fst (file_to_module n f symlink a0 W)) n p).
        { intros q Q. destruct FG as [[FG _]|FG]; rewrite FG in Q; [exact (JL q Q)|]. destruct symlink; congruence. }
        destruct (file_to_module _ _ _ _ _) as [w' [e|m]]; cbn [fst] in *; (split; [exact L|]; intros _; exists content; split; [cbn; congruence|exact R]). }
  assert (JA : forall l W, J W -> Forall (calm f n p) l -> J (after W l)).
  { induction l as [|o l IH]; intros W0 JW FA; [exact JW|]. inversion FA; subst. apply IH; auto. }
  assert (JW : J W) by (apply JA; assumption). destruct JW as (_ & _ & JG).
  destruct JG as (content & P & R).
  - exists a. pose proof (gives_cached w l1 (FromFile f name sym a) KFile n a c eq_refl G) as X. cbn [cache] in X. unfold W.
    replace (l1 ++ FromFile f name sym a :: l2) with ((l1 ++ [FromFile f name sym a]) ++ l2) by (rewrite <- app_assoc; reflexivity).
    rewrite after_app. change (w_file ?x) with (cache KFile x). apply stays; [|exact X]. apply Forall_app in CA. destruct CA as [_ CA]. inversion CA; subst.
    intros I. rewrite Forall_forall in *. match goal with H : forall x, In x l2 -> _ |- _ => exact (H _ I) end.
  - exists content. split; [exact P|]. destruct (ret_sources w l1 (FromFile f name sym a) KFile n a c F eq_refl G) as [S1 S2]. unfold served.
    destruct (c_url c); [destruct S2 as [S2 _]; specialize (S2 eq_refl); discriminate|]. rewrite S1, path_of_file; assumption.
Qed.

(** The name [n] is used only for links to the file [f]. The file may change, and the process may be started again. *)
Definition linked (f n : string) (o : op) : Prop :=
  match o with
  | Chdir _ => False
  | FromFile g name sym _ => goes_by name g = n -> g = f /\ sym = true
  | FromString s name _ => goes_by name s <> n
  | _ => True
  end.
(** Then the browser gets what the source file holds at the time, if it is there. *)
Theorem C99_symlink_partial w l1 o l2 f name a c : let n := goes_by name f in let p := place (w_cwd w) f in let W := after w (l1 ++ o :: l2) in
  o = FromFile f name true a -> fresh w -> url_safe n -> (forall s, dget (file_of n) (w_mods w) = Some s -> s = SLink p) ->
  Forall (linked f n) (l1 ++ o :: l2) -> gives w l1 o c ->
  served W c = dget p (w_src W).
Proof.
  intros n p W -> F US NL CA G.
  set (K := fun W => w_cwd W = w_cwd w /\ forall s, dget (file_of n) (w_mods W) = Some s -> s = SLink p).
  set (L := fun W : world => dget (file_of n) (w_mods W) = Some (SLink p)).
  assert (FM : forall W sym b, sym = true -> K W -> let r := file_to_module n f sym b W in K (fst r) /\ (L W -> L (fst r)) /\ (forall m, snd r = inr m -> L (fst r))).
  { intros W0 sym b -> [KC KS]. cbn zeta. pose proof (file_module_good n f true b W0) as FG. cbn zeta in FG. assert (AB : abs (w_cwd W0) f = p) by (rewrite KC; reflexivity). rewrite AB in FG.
    pose proof (file_module_cwd n f true b W0) as FC. destruct FG as [(e & FG & _)|(content & P & R & FG)].
    - rewrite FG. cbn [fst snd]. split; [split; assumption|]. split; [auto|discriminate].
    - assert (LL : L (fst (file_to_module n f true b W0))).
      { unfold L. destruct FG as [[FG R0]|FG]; [|exact FG]. rewrite FG. unfold reads in R0. destruct (dget (file_of n) (w_mods W0)) as [z|] eqn:D; [|discriminate]. rewrite (KS z eq_refl). reflexivity. }
      split; [split; [congruence|intros z Z; unfold L in LL; congruence]|]. auto. }
  assert (KS : forall W o, K W -> linked f n o -> K (fst (step W o)) /\ (L W -> L (fst (step W o)))).
  { clear W G CA. intros W o KW CO. assert (CW : w_cwd (fst (step W o)) = w_cwd W) by (apply step_cwd; intros d ->; exact CO).
    assert (OT : (forall k n' b, call_of o = Some (k, n', b) -> k <> KUrl -> n' <> n) -> K (fst (step W o)) /\ (L W -> L (fst (step W o)))).
    { intros N. pose proof (step_mods W o n N) as SM. destruct KW as [KC KW]. split; [split; [congruence|]; intros z; rewrite SM; apply KW|]. unfold L. rewrite SM. auto. }
    destruct o; try (apply OT; cbn; intros; congruence).
    destruct (string_dec (called name0 f0) n) as [E|NE]; [|apply OT; cbn; as_modelled; intros; congruence]. clear OT; as_modelled.
    cbn in CO. specialize (CO E). destruct CO as [-> SY]. cbn [step fst]. unfold from_file. rewrite E. destruct (dget _ (w_file W)) as [m|] eqn:D; [auto|].
    destruct (FM W symlink a0 SY KW) as (A & B & _). destruct (file_to_module _ _ _ _ _) as [w' [e|m]]; cbn [fst] in *; (split; [exact A|exact B]). }
  assert (KA : forall l W, K W -> Forall (linked f n) l -> K (after W l) /\ (L W -> L (after W l))).
  { induction l as [|o l IH]; intros W0 JW FA; [split; auto|]. inversion FA; subst. destruct (KS W0 o JW H1) as [A B]. destruct (IH _ A H2) as [C D]. split; [exact C|auto]. }
  (* links for the cached modules *)
  assert (CL : forall l, Forall (linked f n) l -> (exists b, dget (key_of n b) (w_file (after w l)) <> None) -> L (after w l)).
  { clear W G CA. induction l as [|o l IH] using rev_ind; intros FA [b B].
    - destruct F as (_ & F & _). cbn in B. rewrite F in B. cbn in B. congruence.
    - apply Forall_app in FA. destruct FA as [FA FO]. inversion FO; subst. rewrite after_snoc in *. set (W := after w l) in *.
      assert (KW : K W) by (apply KA; [split; [reflexivity|exact NL]|exact FA]). destruct (KS W o KW H1) as [_ KL].
      destruct (dget (key_of n b) (w_file W)) as [m|] eqn:D; [apply KL, IH; [exact FA|exists b; congruence]|].
      destruct (call_of o) as [[[k n'] b']|] eqn:C; [|exfalso; apply B; change (w_file ?x) with (cache KFile x); rewrite step_none by exact C; destruct o; try discriminate; try exact D; reflexivity].
      pose proof (step_call W o k n' b' C) as SC. destruct (dget (key_of n' b') (cache k W)) eqn:D'; [rewrite SC in B; cbn [fst] in B; congruence|].
      destruct SC as [[_ SC]|[RE SC]]; specialize (SC KFile); cbn [cache] in SC; rewrite SC in B; [congruence|]. destruct k; try congruence.
      destruct (string_dec (key_of n b) (key_of n' b')) as [E|NE]; [|rewrite dget_dset_other in B by congruence; congruence].
      unfold key_of in E. apply C52_key_injective in E. destruct E as (<- & _). destruct o; try discriminate. cbn [call_of] in C. injection C as C1 C2. subst b'.
      cbn in H1. destruct (H1 C1) as [-> SY]. unfold result in RE. cbn [step fst snd] in *. unfold from_file in *. as_modelled; rewrite C1 in *. cbn [cache] in D'. rewrite D' in *.
      destruct (FM W symlink a0 SY KW) as (_ & _ & FL). destruct (file_to_module _ _ _ _ _) as [w' [e|m]]; cbn [fst snd] in *; [discriminate|]. exact (FL m eq_refl). }
  assert (LW : L W).
  { unfold W. replace (l1 ++ FromFile f name true a :: l2) with ((l1 ++ [FromFile f name true a]) ++ l2) in * by (rewrite <- app_assoc; reflexivity). apply Forall_app in CA. destruct CA as [CA1 CA2].
    rewrite after_app. apply KA; [apply KA; [split; [reflexivity|exact NL]|exact CA1]|exact CA2|]. apply CL; [exact CA1|]. exists a.
    exact (gives_cached w l1 (FromFile f name true a) KFile n a c eq_refl G). }
  destruct (ret_sources w l1 (FromFile f name true a) KFile n a c F eq_refl G) as [S1 S2]. unfold served.
  destruct (c_url c); [destruct S2 as [S2 _]; specialize (S2 eq_refl); discriminate|]. rewrite S1, path_of_file by assumption. unfold reads. unfold L in LW. rewrite LW. reflexivity.
Qed.

(** The name [n] is used for the text [s] only. *)
Definition worded (s n : string) (o : op) : Prop :=
  match o with
  | FromFile g name _ _ => goes_by name g <> n
  | FromString s' name _ => goes_by name s' = n -> s' = s
  | _ => True
  end.
(** Then the browser gets the text for every component, from then on. *)
Theorem C99_text_partial w l1 o l2 s name a c : let n := goes_by name s in let W := after w (l1 ++ o :: l2) in
  o = FromString s name a -> fresh w -> url_safe n -> (forall p, dget (file_of n) (w_mods w) <> Some (SLink p)) ->
  Forall (worded s n) (l1 ++ o :: l2) -> gives w l1 o c ->
  served W c = Some s.
Proof.
  intros n W -> F US NL CA G.
  set (K := fun W => forall p, dget (file_of n) (w_mods W) <> Some (SLink p)).
  set (L := fun W : world => dget (file_of n) (w_mods W) = Some (SFile s)).
  assert (FM : forall W b, K W -> L (fst (string_to_module n s b W))).
  { intros W0 b KW. destruct (string_module_world n s b W0) as (w1 & -> & _ & _ & X). unfold L.
    destruct (dget (file_of n) (w_mods W0)) as [[?|p]|] eqn:D; try apply X. destruct (KW p D). }
  assert (LK : forall W, L W -> K W) by (intros W0 LW p; unfold L in LW; congruence).
  assert (KS : forall W o, K W -> worded s n o -> K (fst (step W o)) /\ (L W -> L (fst (step W o)))).
  { clear W G CA. intros W o KW CO.
    assert (OT : (forall k n' b, call_of o = Some (k, n', b) -> k <> KUrl -> n' <> n) -> K (fst (step W o)) /\ (L W -> L (fst (step W o)))).
    { intros N. pose proof (step_mods W o n N) as SM. split; [intros p; rewrite SM; apply KW|]. unfold L. rewrite SM. auto. }
    destruct o; try (apply OT; cbn; intros; congruence).
    destruct (string_dec (called name0 content) n) as [E|NE]; [|apply OT; cbn; as_modelled; intros; congruence]. clear OT; as_modelled.
    cbn in CO. specialize (CO E). subst content. cbn [step fst]. unfold from_string. rewrite E. destruct (dget _ (w_str W)) as [m|] eqn:D; [auto|].
    pose proof (FM W a0 KW) as A. destruct (string_to_module _ _ _ _) as [w' [e|m]]; cbn [fst] in *; (split; [apply LK|intros _]; exact A). }
  assert (KA : forall l W, K W -> Forall (worded s n) l -> K (after W l) /\ (L W -> L (after W l))).
  { induction l as [|o l IH]; intros W0 JW FA; [split; auto|]. inversion FA; subst. destruct (KS W0 o JW H1) as [A B]. destruct (IH _ A H2) as [C D]. split; [exact C|auto]. }
  assert (CL : forall l, Forall (worded s n) l -> (exists b, dget (key_of n b) (w_str (after w l)) <> None) -> L (after w l)).
  { clear W G CA. induction l as [|o l IH] using rev_ind; intros FA [b B].
    - destruct F as (_ & _ & F). cbn in B. rewrite F in B. cbn in B. congruence.
    - apply Forall_app in FA. destruct FA as [FA FO]. inversion FO; subst. rewrite after_snoc in *. set (W := after w l) in *.
      assert (KW : K W) by (apply KA; [exact NL|exact FA]). destruct (KS W o KW H1) as [_ KL].
      destruct (dget (key_of n b) (w_str W)) as [m|] eqn:D; [apply KL, IH; [exact FA|exists b; congruence]|].
      destruct (call_of o) as [[[k n'] b']|] eqn:C; [|exfalso; apply B; change (w_str ?x) with (cache KString x); rewrite step_none by exact C; destruct o; try discriminate; try exact D; reflexivity].
      pose proof (step_call W o k n' b' C) as SC. destruct (dget (key_of n' b') (cache k W)) eqn:D'; [rewrite SC in B; cbn [fst] in B; congruence|].
      destruct SC as [[_ SC]|[RE SC]]; specialize (SC KString); cbn [cache] in SC; rewrite SC in B; [congruence|]. destruct k; try congruence.
      destruct (string_dec (key_of n b) (key_of n' b')) as [E|NE]; [|rewrite dget_dset_other in B by congruence; congruence].
      unfold key_of in E. apply C52_key_injective in E. destruct E as (<- & _). destruct o; try discriminate. cbn [call_of] in C. injection C as C1 C2. subst b'.
      cbn in H1. specialize (H1 C1). subst content. unfold result in RE. cbn [step fst snd] in *. unfold from_string in *. as_modelled; rewrite C1 in *. cbn [cache] in D'. rewrite D' in *.
      pose proof (FM W a0 KW) as FL. destruct (string_to_module _ _ _ _) as [w' [e|m]]; cbn [fst snd] in *; exact FL. }
  assert (LW : L W).
  { unfold W. replace (l1 ++ FromString s name a :: l2) with ((l1 ++ [FromString s name a]) ++ l2) in * by (rewrite <- app_assoc; reflexivity). apply Forall_app in CA. destruct CA as [CA1 CA2].
    rewrite after_app. apply KA; [apply KA; [exact NL|exact CA1]|exact CA2|]. apply CL; [exact CA1|]. exists a.
    exact (gives_cached w l1 (FromString s name a) KString n a c eq_refl G). }
  destruct (ret_sources w l1 (FromString s name a) KString n a c F eq_refl G) as [S1 S2]. unfold served.
  destruct (c_url c); [destruct S2 as [S2 _]; specialize (S2 eq_refl); discriminate|]. rewrite S1, path_of_file by assumption. unfold reads. unfold L in LW. rewrite LW. reflexivity.
Qed.

(** Without names given, a file or text is never taken for another one, as long as the digests of those used differ and no
    text is the path of a file. *)
Definition unnamed (o : op) : Prop := match o with FromFile _ name _ _ | FromString _ name _ => name = "" | _ => True end.
Definition used (o : op) : list string := match o with FromFile f _ _ _ => [f] | FromString s _ _ => [s] | _ => [] end.
Theorem C99_unnamed w l1 o l2 c : let H := l1 ++ o :: l2 in let W := after w H in
  fresh w -> (forall t q, dget t (w_mods w) <> Some (SLink q)) -> (forall x, url_safe (digest x)) ->
  Forall unnamed H ->
  (forall x y, In x (flat_map used H) -> In y (flat_map used H) -> digest x = digest y -> x = y) ->
  (forall f sym a s b, In (FromFile f "" sym a) H -> In (FromString s "" b) H -> f <> s) ->
  gives w l1 o c ->
  (forall s a, o = FromString s "" a -> served W c = Some s) /\
  (forall f sym a, o = FromFile f "" sym a -> let p := place (w_cwd w) f in
     (forall o', In o' H -> o' <> Restart /\ (forall d, o' <> Chdir d) /\ (forall t, o' <> Edit p t)) ->
     exists content, dget p (w_src W) = Some content /\ served W c = Some content).
Proof.
  intros H W F NL US UN DI PT G.
  assert (IU : forall o' x, In o' H -> In x (used o') -> In x (flat_map used H)) by (intros o' x A B; apply in_flat_map; eauto).
  assert (IO : In o H) by (apply in_or_app; right; left; reflexivity).
  split.
  - intros s a ->. eapply C99_text_partial; try eassumption; try reflexivity; [apply US|intros; apply NL|]. fold H.
    rewrite Forall_forall in UN |- *. intros o' I. specialize (UN o' I). destruct o'; cbn in UN |- *; try exact Logic.I; subst.
    + cbn. intros E. apply (PT _ _ _ _ _ I IO). apply DI; [eapply IU; [exact I|left; reflexivity]|eapply IU; [exact IO|left; reflexivity]|exact E].
    + cbn. intros E. apply DI; [eapply IU; [exact I|left; reflexivity]|eapply IU; [exact IO|left; reflexivity]|exact E].
  - intros f sym a -> p ST. eapply C99_file_partial; try eassumption; try reflexivity; [apply US|intros q Q; destruct (NL _ _ Q)|]. fold H.
    rewrite Forall_forall in UN |- *. intros o' I. specialize (UN o' I). destruct (ST o' I) as (S1 & S2 & S3). destruct o'; cbn in UN |- *; try exact Logic.I; subst; try congruence.
    + intros ->. exact (S3 _ eq_refl).
    + cbn. intros E. apply DI; [eapply IU; [exact I|left; reflexivity]|eapply IU; [exact IO|left; reflexivity]|exact E].
    + cbn. intros E. apply (PT _ _ _ _ _ IO I). symmetry. apply DI; [eapply IU; [exact I|left; reflexivity]|eapply IU; [exact IO|left; reflexivity]|exact E].
Qed.

(** ** Directories (C73) *)

Lemma step_dirs w o d : In d (w_dirs w) -> In d (w_dirs (fst (step w o))).
Proof.
  intros I. assert (U : forall url a, w_dirs (fst (from_url url a w)) = w_dirs w) by (intros; unfold from_url; destruct (dget _ (w_url w)); [reflexivity|]; destruct (names_of a); reflexivity).
  destruct o; cbn [step]; try (destruct c); try exact I; cbn [fst]; rewrite ?U; try exact I.
  - unfold from_file. destruct (dget _ (w_file w)); [exact I|].
    assert (X : In d (w_dirs (fst (file_to_module (called name f) f symlink a w)))).
    { unfold file_to_module. destruct (negb _); [exact I|]. destruct (dget (abs _ _) _) as [content|]; [|exact I].
      match goal with |- context [match ?x with Some _ => _ | None => (w, inl FileExists) end] => destruct x as [w'|] eqn:E; [|exact I] end.
      assert (X : In d (w_dirs w')).
      { destruct (match reads w _ with Some _ => _ | None => _ end); [congruence|]. unfold copy_file in E.
        destruct symlink; [destruct (dget (file_of (called name f)) (w_mods w)), (reads w (file_of (called name f)))|]; inversion E; cbn [set_mods mkdirs w_dirs]; apply in_or_app; auto. }
      destruct (names_of a); exact X. }
    destruct (file_to_module _ _ _ _ _) as [w' [e|m]]; exact X.
  - unfold from_string. destruct (dget _ (w_str w)); [exact I|].
    assert (X : In d (w_dirs (fst (string_to_module (called name content) content a w)))).
    { unfold string_to_module. set (w1 := if match reads w _ with Some c => _ | None => false end then _ else w).
      assert (E1 : w_dirs w1 = w_dirs w) by (unfold w1; destruct (match reads w _ with Some c => _ | None => false end); reflexivity). clearbody w1.
      set (w3 := match dget _ _ with Some (SLink p) => _ | _ => _ end).
      assert (E3 : w_dirs w3 = w_dirs (mkdirs (file_of (called name content)) w1)) by (unfold w3; destruct (dget _ _) as [[?|?]|]; reflexivity). clearbody w3.
      assert (X : In d (w_dirs w3)) by (rewrite E3; cbn [mkdirs w_dirs]; apply in_or_app; right; rewrite E1; exact I). destruct (names_of a); exact X. }
    destruct (string_to_module _ _ _ _) as [w' [e|m]]; exact X.
Qed.
Lemma after_dirs w l d : In d (w_dirs w) -> In d (w_dirs (after w l)).
Proof. revert w. induction l as [|o l IH]; intros w I; [exact I|]. apply IH, step_dirs, I. Qed.
Lemma ancestors_self d : In d (ancestors d).
Proof.
  unfold ancestors. apply in_map_iff. exists (length (split "/" d)). split; [|apply in_seq; lia].
  rewrite firstn_all. apply join_split.
Qed.
Lemma string_module_dir n s a w : In (dir_of (file_of n)) (w_dirs (fst (string_to_module n s a w))).
Proof.
  unfold string_to_module. set (w1 := if match reads w _ with Some c => _ | None => false end then _ else w). clearbody w1.
  set (w3 := match dget _ _ with Some (SLink p) => _ | _ => _ end).
  assert (E3 : w_dirs w3 = w_dirs (mkdirs (file_of n) w1)) by (unfold w3; destruct (dget _ _) as [[?|?]|]; reflexivity). clearbody w3.
  assert (X : In (dir_of (file_of n)) (w_dirs w3)) by (rewrite E3; cbn [mkdirs w_dirs]; apply in_or_app; left; apply ancestors_self). destruct (names_of a); exact X.
Qed.
(** If the directory is there, [component_from_file] answers for every source file that is there, unless the names can not be
    resolved or a link is asked for where there is a link to a file that is gone. *)
Theorem C73_directory w l f name sym a : let n := goes_by name f in let W := after w l in
  In (dir_of (file_of n)) (w_dirs W) -> dget (place (w_cwd W) f) (w_src W) <> None -> (a_res a = true -> a_found a <> None) ->
  (sym = true -> dget (file_of n) (w_mods W) <> None -> reads W (file_of n) <> None) ->
  answered w l (FromFile f name sym a).
Proof. as_modelled.
  intros n W DI SR NA LK. unfold answered, result. fold W. cbn [step snd]. unfold from_file. fold n. destruct (dget _ (w_file W)); [cbn; unfold answer; eauto|].
  assert (X : exists w' m, file_to_module n f sym a W = (w', inr m)).
  { unfold file_to_module. apply mem_In in DI. rewrite DI. cbn [negb]. destruct (dget (abs _ _) _) as [content|]; [|congruence].
    match goal with |- context [match ?x with Some _ => _ | None => (W, inl FileExists) end] => assert (Y : x <> None) end.
    { destruct (reads W (file_of n)) as [c|] eqn:R; [destruct (String.eqb c content); [discriminate|]|]; unfold copy_file; rewrite R;
        (destruct sym; [|discriminate]); destruct (dget (file_of n) (w_mods W)); try discriminate. exfalso. apply LK; auto; discriminate. }
    match goal with |- context [match ?x with Some _ => _ | None => (W, inl FileExists) end] => destruct x as [w'|]; [|congruence] end.
    unfold names_of. destruct (a_res a); [destruct (a_found a); [|destruct (NA eq_refl); reflexivity]|]; eauto. }
  destruct X as (w' & m & ->). cbn. unfold answer. eauto.
Qed.
(** The directory is there once [component_from_string] was called for some module in it. *)
Theorem C73_text_first w l f name s name' a' : fresh w -> In (FromString s name' a') l ->
  dir_of (file_of (goes_by name' s)) = dir_of (file_of (goes_by name f)) ->
  In (dir_of (file_of (goes_by name f))) (w_dirs (after w l)).
Proof.
  intros F I <-. set (n := called name' s).
  assert (CL : forall l b, dget (key_of n b) (w_str (after w l)) <> None -> In (dir_of (file_of n)) (w_dirs (after w l))).
  { clear l I. induction l as [|o l IH] using rev_ind; intros b B.
    - destruct F as (_ & _ & F). cbn in B. rewrite F in B. cbn in B. congruence.
    - rewrite after_snoc in *. set (W := after w l) in *.
      destruct (dget (key_of n b) (w_str W)) as [m|] eqn:D; [apply step_dirs, (IH b); congruence|].
      destruct (call_of o) as [[[k n'] b']|] eqn:C; [|exfalso; apply B; change (w_str ?x) with (cache KString x); rewrite step_none by exact C; destruct o; try discriminate; try exact D; reflexivity].
      pose proof (step_call W o k n' b' C) as SC. destruct (dget (key_of n' b') (cache k W)) eqn:D'; [rewrite SC in B; cbn [fst] in B; congruence|].
      destruct SC as [[_ SC]|[RE SC]]; specialize (SC KString); cbn [cache] in SC; rewrite SC in B; [congruence|]. destruct k; try congruence.
      destruct (string_dec (key_of n b) (key_of n' b')) as [E|NE]; [|rewrite dget_dset_other in B by congruence; congruence].
      unfold key_of in E. apply C52_key_injective in E. destruct E as (<- & _). destruct o; try discriminate. cbn [call_of] in C. injection C as C1 C2. subst b'.
      unfold result in RE. cbn [step fst snd] in *. unfold from_string in *. as_modelled; rewrite C1 in *. cbn [cache] in D'. rewrite D' in *.
      pose proof (string_module_dir n content a W) as X. destruct (string_to_module _ _ _ _) as [w' [e|m]]; exact X. }
  apply in_split in I. destruct I as (x & y & ->). replace (x ++ FromString s name' a' :: y) with ((x ++ [FromString s name' a']) ++ y) by (rewrite <- app_assoc; reflexivity).
  rewrite after_app. apply after_dirs. rewrite after_snoc. cbn [step fst]. unfold from_string. fold n. destruct (dget _ (w_str (after w x))) eqn:D; [apply (CL x a'); congruence|].
  pose proof (string_module_dir n s a' (after w x)) as X. destruct (string_to_module _ _ _ _) as [w' [e|m]]; exact X.
Qed.
(** Finding: without it, a name in a directory can never be used: whatever other calls come first, the call fails after
    waiting for the lock. *)
Theorem C73_directory_refuted w l f name sym a : fresh w -> w_dirs w = [""] -> (forall s name' a', ~ In (FromString s name' a') l) ->
  dir_of (file_of (goes_by name f)) <> "" -> result (after w l) (FromFile f name sym a) = Some (Err TimedOut).
Proof.
  as_modelled. intros F WD NS ND. set (n := called name f) in *.
  assert (K : (forall d, In d (w_dirs (after w l)) -> d = "") /\ forall b, dget (key_of n b) (w_file (after w l)) = None).
  { induction l as [|o l IH] using rev_ind.
    - cbn. rewrite WD. split; [intros d [<-|[]]; reflexivity|]. destruct F as (_ & -> & _). reflexivity.
    - destruct IH as [ID IC]; [intros s' n' a' I; apply (NS s' n' a'), in_or_app; auto|]. rewrite after_snoc. set (W := after w l) in *.
      assert (U : forall url b, w_dirs (fst (from_url url b W)) = w_dirs W /\ w_file (fst (from_url url b W)) = w_file W) by (intros; unfold from_url; destruct (dget _ (w_url W)); [auto|]; destruct (names_of b); auto).
      destruct o; cbn [step fst]; try (destruct c); try (split; [exact ID|exact IC]); try (split; [exact ID|reflexivity]).
      + destruct (U url a0) as [-> ->]. auto.
      + destruct (U (npm_url package version cdn bundle) a0) as [-> ->]. auto.
      + unfold from_file. destruct (dget _ (w_file W)); [auto|].
        assert (X : (forall d, In d (w_dirs (fst (file_to_module (called name0 f0) f0 symlink a0 W))) -> d = "") /\
          (forall m, snd (file_to_module (called name0 f0) f0 symlink a0 W) = inr m -> dir_of (file_of (called name0 f0)) = "")).
        { unfold file_to_module. destruct (mem _ (w_dirs W)) eqn:M; cbn [negb]; [|split; [exact ID|discriminate]]. apply mem_In in M. apply ID in M.
          destruct (dget (abs _ _) _) as [content|]; [|split; [exact ID|discriminate]].
          match goal with |- context [match ?x with Some _ => _ | None => (W, inl FileExists) end] => destruct x as [w'|] eqn:E; [|split; [exact ID|discriminate]] end.
          assert (X : forall d, In d (w_dirs w') -> d = "").
          { destruct (match reads W _ with Some _ => _ | None => _ end); [inversion E; subst; exact ID|]. unfold copy_file in E.
            destruct symlink; [destruct (dget (file_of (called name0 f0)) (w_mods W)), (reads W (file_of (called name0 f0)))|]; inversion E; cbn; rewrite M; cbn; intuition. }
          destruct (names_of a0); cbn [fst snd]; auto. }
        pose proof (file_module_cache (called name0 f0) f0 symlink a0 W KFile) as FC. cbn [cache] in FC.
        destruct (file_to_module _ _ _ _ _) as [w' [e|m]]; cbn [fst snd] in *.
        * split; [apply X|]. rewrite FC. exact IC.
        * split; [apply X|]. intros b. cbn [w_file]. rewrite dget_dset_other, FC; [apply IC|]. intros E. unfold key_of in E. apply C52_key_injective in E. destruct E as [E _].
          apply ND. rewrite <- E in X || rewrite E. apply (proj2 X m eq_refl).
      + destruct (NS content name0 a0). apply in_or_app. right. left. reflexivity. }
  destruct K as [KD KC]. unfold result. cbn [step snd]. unfold from_file. fold n. rewrite KC. unfold file_to_module.
  destruct (mem (dir_of (file_of n)) (w_dirs (after w l))) eqn:M; [|reflexivity]. apply mem_In in M. apply KD in M. congruence.
Qed.

End Calls.

(** ** npm packages *)

Lemma has_sub_spec x s : has_sub x s = true <-> exists a b, s = (a ++ x ++ b)%string.
Proof.
  split.
  - induction s as [|c s IH]; cbn [has_sub].
    + rewrite orb_false_r. intros P. exists "", "". destruct x; [reflexivity|discriminate].
    + destruct (prefix x (String c s)) eqn:P; cbn [orb].
      * intros _. exists "". clear IH. revert P. generalize (String c s). clear. induction x as [|a x IH]; intros s P; [exists s; reflexivity|]. destruct s as [|b s]; [discriminate|].
        cbn in P. destruct (ascii_dec a b) as [->|]; [|discriminate]. destruct (IH s P) as [y Y]. exists y. cbn in *. rewrite Y. reflexivity.
      * intros H. destruct (IH H) as (a & b & ->). exists (String c a), b. reflexivity.
  - intros (a & b & ->). induction a as [|c a IH].
    + change ("" ++ x ++ b)%string with (x ++ b)%string. assert (P : prefix x (x ++ b) = true). { induction x as [|c x IH]; [destruct b; reflexivity|]. cbn. destruct (ascii_dec c c); [exact IH|congruence]. }
      destruct (x ++ b)%string eqn:E; cbn [has_sub]; rewrite P; reflexivity.
    + cbn [append has_sub]. rewrite IH. apply orb_true_r.
Qed.
Definition esm (cdn : string) : Prop := exists a b, cdn = (a ++ "esm.sh" ++ b)%string.
Lemma app_assoc_s (a b c : string) : ((a ++ b) ++ c = a ++ b ++ c)%string.
Proof. induction a; cbn; congruence. Qed.
(** The address asks for the package and its version at the server; what follows is a query, and only at esm.sh. *)
Theorem C99_npm_address package version cdn bundle : exists q, npm_url package version cdn bundle = (cdn ++ "/" ++ package ++ "@" ++ version ++ q)%string /\
  (~ esm cdn -> q = "") /\ (esm cdn -> exists d r, q = String d r /\ (d = "&"%char <-> contains "?" (cdn ++ "/" ++ package ++ "@" ++ version) = true) /\ (d = "?"%char \/ d = "&"%char)).
Proof.
  unfold npm_url. destruct (has_sub "esm.sh" cdn) eqn:H.
  - apply has_sub_spec in H. eexists. split; [rewrite !app_assoc_s; reflexivity|]. split; [unfold esm; tauto|]. intros _.
    destruct (contains _ _) eqn:C; cbn [append]; do 2 eexists; (split; [reflexivity|]); rewrite ?C; (split; [split; congruence|auto]).
  - exists "". split; [|split; [auto|]].
    + assert (X : forall z : string, (z ++ "" = z)%string) by (induction z; cbn; congruence). rewrite X. reflexivity.
    + intros E. apply has_sub_spec in E. congruence.
Qed.
(** Different packages, versions and, at esm.sh, ways of bundling have different addresses. *)
Theorem C99_npm_distinct cdn p v b p' v' b' :
  nochar "?" cdn -> nochar "?" p -> nochar "?" v -> nochar "?" p' -> nochar "?" v' -> nochar "@" v -> nochar "@" v' ->
  npm_url p v cdn b = npm_url p' v' cdn b' -> p = p' /\ v = v' /\ (esm cdn -> b = b').
Proof.
  intros N1 N2 N3 N4 N5 V V' E. unfold npm_url in E.
  assert (Q : nochar "?" (cdn ++ "/" ++ p ++ "@" ++ v)) by (repeat (apply nochar_app; split; try assumption); cbn; repeat split; discriminate).
  assert (Q' : nochar "?" (cdn ++ "/" ++ p' ++ "@" ++ v')) by (repeat (apply nochar_app; split; try assumption); cbn; repeat split; discriminate).
  assert (R : (cdn ++ "/" ++ p ++ "@" ++ v)%string = (cdn ++ "/" ++ p' ++ "@" ++ v')%string -> p = p' /\ v = v').
  { intros R. assert (Z : forall a x y : string, (a ++ x = a ++ y)%string -> x = y) by (induction a; cbn; intros x y W; [exact W|injection W; auto]).
    apply Z in R. injection R as R. apply split_last in R; assumption. }
  destruct (has_sub "esm.sh" cdn) eqn:H.
  - rewrite (proj2 (contains_nochar _ _) Q), (proj2 (contains_nochar _ _) Q') in E.
    apply (split_first "?") in E; try assumption; try (right; eexists; reflexivity). destruct E as [E1 E2]. destruct (R E1) as [-> ->]. split; [reflexivity|]. split; [reflexivity|]. intros _.
    destruct b, b'; try reflexivity; discriminate.
  - destruct (R E) as [-> ->]. split; [reflexivity|]. split; [reflexivity|]. intros X. apply has_sub_spec in X. congruence.
Qed.
Example C99_npm_example : npm_url "@mui/material" "6.1.0" "https://esm.sh/v135" true =
    "https://esm.sh/v135/@mui/material@6.1.0?external=react,react-dom,react/jsx-runtime&bundle&target=es2020" /\
  npm_url "chart.js" "latest" "https://cdn.skypack.dev" true = "https://cdn.skypack.dev/chart.js@latest".
Proof. split; reflexivity. Qed.

(** ** Names and extensions *)

(** A name without a dot gets the extension ".js". *)
Theorem C99_extension_partial n : nochar "." n -> file_of n = (n ++ ".js")%string.
Proof.
  intros N. unfold file_of, module_name_suffix.
  set (n' := match n with String a s => if Ascii.eqb a "@" then s else n | "" => n end).
  assert (N' : nochar "." n'). { unfold n'. destruct n as [|a s]; [exact N|]. destruct (Ascii.eqb a "@"); [|exact N]. exact (proj2 N). }
  destruct (nochar_partition "." "@" n' N') as [A B]. destruct (nochar_partition "." "/" _ B) as [_ C].
  assert (D : forall z, nochar "." z -> path_suffix z = "").
  { intros z Z. unfold path_suffix. set (nm := match rsplit "/" z with Some (_, y) => y | None => z end).
    assert (NN : nochar "." nm). { unfold nm. destruct (rsplit "/" z) as [[x y]|] eqn:R; [|exact Z]. apply rsplit_Some in R. destruct R as [-> _]. apply nochar_app in Z. destruct Z as [_ [_ Z]]. exact Z. }
    apply rsplit_None in NN. rewrite NN. reflexivity. }
  rewrite D; [reflexivity|]. destruct (String.eqb _ ""); assumption.
Qed.
Example C99_extension_example : file_of "button" = "button.js" /\ file_of "@mui/material" = "@mui/material.js" /\ file_of "@mui/material@6.1.0" = "@mui/material@6.1.0.js" /\
  file_of "pkg@1.2.3/dist/index.mjs" = "pkg@1.2.3/dist/index.mjs.mjs".
Proof. repeat split. Qed.
(** Finding: else the end of the name becomes the extension, for which the server does not tell the browser that it is
    JavaScript. *)
Theorem C99_extension_refuted : file_of "my.button" = "my.button.button".
Proof. reflexivity. Qed.

(** ** Histories *)

Definition plain_args : args := Args (One "Button") false 5 NoFallback false true None.
Definition empty : world := World "/app" [("/app/a.js", "AAA"); ("/app/b.js", "BBB")] [""] [] [] [] [].
(** What the browser gets for the components of a call after further events. *)
Definition gets (digest : string -> string) (w : world) (l1 : list op) (o : op) (l2 : list op) : option (list (option string)) :=
  match result digest (after digest w l1) o with Some (Ret i) => Some (map (served (after digest w (l1 ++ o :: l2))) (made i)) | _ => None end.
Definition shout (s : string) : string := ("d" ++ s)%string.
(** Two files and a text, with and without names. *)
Example C99_nonvacuous :
  let l1 := [FromFile "a.js" "" false plain_args; FromString "TTT" "" plain_args] in
  let l2 := [FromString "UUU" "u" plain_args; FromFile "/app/a.js" "" true plain_args; FromUrl "https://h/x.js" plain_args] in
  gets shout empty l1 (FromFile "b.js" "" false plain_args) l2 = Some [Some "BBB"] /\
  gets shout empty [] (FromFile "a.js" "" false plain_args) (FromString "TTT" "" plain_args :: l2) = Some [Some "AAA"] /\
  gets shout empty [FromFile "a.js" "" false plain_args] (FromString "TTT" "" plain_args) (Restart :: Edit "/app/a.js" None :: l2) = Some [Some "TTT"].
Proof. vm_compute. repeat split. Qed.
Lemma gets_gives digest w l1 o l2 r x : gets digest w l1 o l2 = Some (x :: r) -> exists c, gives digest w l1 o c /\ served (after digest w (l1 ++ o :: l2)) c = x.
Proof.
  unfold gets, gives. destruct (result digest (after digest w l1) o) as [[i|e]|]; try discriminate. destruct (made i) as [|c cs] eqn:M; [discriminate|].
  cbn. intros E. injection E as E _. exists c. split; [|exact E]. exists i. split; [reflexivity|]. rewrite M. left. reflexivity.
Qed.
(** The hypotheses of C99_file_partial, C99_symlink_partial and C99_text_partial hold in such histories. *)
Example C99_file_nonvacuous : let l := [FromString "TTT" "t" plain_args; Edit "/app/a.js" (Some "new"); FromFile "b.js" "b" false plain_args; FromFile "b.js" "b" true plain_args] in
  fresh empty /\ url_safe "b" /\ no_other_link empty "b" (place "/app" "b.js") /\ Forall (calm shout "b.js" "b" (place "/app" "b.js")) l /\
  gets shout empty [FromString "TTT" "t" plain_args; Edit "/app/a.js" (Some "new")] (FromFile "b.js" "b" false plain_args) [FromFile "b.js" "b" true plain_args] = Some [Some "BBB"].
Proof.
  cbn zeta. split; [repeat split|]. split; [vm_compute; repeat split; discriminate|]. split; [intros q; discriminate|]. split; [|reflexivity].
  repeat constructor; cbn; try discriminate; auto.
Qed.
Example C99_symlink_nonvacuous : let o := FromFile "b.js" "b" true plain_args in let l2 := [Edit "/app/b.js" (Some "new"); Restart; FromFile "b.js" "b" true plain_args; Edit "/app/b.js" (Some "newer")] in
  Forall (linked shout "b.js" "b") (o :: l2) /\ gets shout empty [] o l2 = Some [Some "newer"] /\ gets shout empty [] o [] = Some [Some "BBB"].
Proof. cbn zeta. split; [repeat constructor; cbn; auto; discriminate|]. vm_compute. auto. Qed.
Example C99_text_nonvacuous : let o := FromString "TTT" "ui/t" plain_args in let l2 := [Restart; FromString "TTT" "ui/t" plain_args; FromString "UUU" "u" plain_args] in
  Forall (worded shout "TTT" "ui/t") (o :: l2) /\ gets shout empty [] o l2 = Some [Some "TTT"].
Proof. cbn zeta. split; [repeat constructor; cbn; auto; discriminate|]. vm_compute. auto. Qed.
Example C73_nonvacuous : let o := FromFile "b.js" "ui/b" false plain_args in
  gets shout empty [] o [] = None /\ gets shout empty [FromString "TTT" "ui/t" plain_args] o [] = Some [Some "BBB"].
Proof. vm_compute. auto. Qed.
(** The second call has no placeholder of its own, the third one has. *)
Example C99_fallback_nonvacuous : let a f := Args (One "Button") false 5 f false true None in
  map (fun l => match result shout (after shout empty (removelast l)) (List.last l Restart) with Some (Ret i) => map c_fallback (made i) | _ => [] end)
    [[FromFile "b.js" "b" false (a NoFallback)];
     [FromFile "no.js" "b" false (a (Truthy 1)); FromFile "b.js" "b" false (a (Truthy 2)); FromFile "b.js" "b" false (a NoFallback)];
     [FromFile "b.js" "b" false (a (Truthy 2)); FromFile "b.js" "b" false (a (Truthy 3))];
     [FromFile "b.js" "b" false (a (Truthy 2)); Restart; FromFile "b.js" "b" false (a NoFallback)]] =
  [[NoFallback]; [Truthy 2]; [Truthy 3]; [NoFallback]].
Proof. reflexivity. Qed.

(** Finding: a component without a placeholder shows that of an earlier component of its module. *)
Theorem C99_fallback_refuted digest : exists w l o c a, fresh w /\ call_of digest o = Some (KUrl, "https://h/x.js", a) /\ a_fb a = NoFallback /\ gives digest w l o c /\ c_fallback c = Truthy 1.
Proof.
  exists empty, [FromUrl "https://h/x.js" (Args (One "Button") false 5 (Truthy 1) false true None)], (FromUrl "https://h/x.js" plain_args).
  eexists. exists plain_args. split; [repeat split|]. split; [reflexivity|]. split; [reflexivity|]. split; [eexists; split; [reflexivity|left; reflexivity]|reflexivity].
Qed.
(** Finding: an edited file is not loaded again by a later call. *)
Theorem C99_edited_refuted digest : let o := FromFile "b.js" "b" false plain_args in let l := [o; Edit "/app/b.js" (Some "new")] in
  gets digest empty l o [] = Some [Some "BBB"] /\ dget "/app/b.js" (w_src (after digest empty (l ++ [o]))) = Some "new".
Proof. vm_compute. auto. Qed.
(** Finding: with other flags it is, and then also for the earlier components. *)
Theorem C99_flags_refuted digest : let o := FromFile "b.js" "b" false plain_args in let o' := FromFile "a.js" "b" false (Args (One "Button") false 5 NoFallback true true None) in
  gets digest empty [] o [] = Some [Some "BBB"] /\ gets digest empty [] o [o'] = Some [Some "AAA"].
Proof. vm_compute. auto. Qed.
(** Finding: two files under one name: the second call gives the first file. *)
Theorem C99_name_refuted digest : gets digest empty [FromFile "a.js" "x" false plain_args] (FromFile "b.js" "x" false plain_args) [] = Some [Some "AAA"].
Proof. reflexivity. Qed.
(** Finding: a relative path is remembered as it was given, although it depends on the working directory. *)
Theorem C99_chdir_refuted digest : digest "a.js" = "0123456789" ->
  let w := World "/app" [("/app/a.js", "AAA"); ("/other/a.js", "OOO")] [""] [] [] [] [] in
  gets digest w [FromFile "a.js" "" false plain_args; Chdir "/other"] (FromFile "a.js" "" false plain_args) [] = Some [Some "AAA"].
Proof. intros E w. cbn. unfold gets, result, after, fold_left, step, from_file, called. cbn [String.eqb]. rewrite E. reflexivity. Qed.
(** Finding: where a copy with the same content is left from earlier, no link is made although one is asked for. *)
Theorem C99_symlink_refuted digest : let w := World "/app" [("/app/b.js", "BBB")] [""] [("b.js", SFile "BBB")] [] [] [] in
  gets digest w [] (FromFile "b.js" "b" true plain_args) [Edit "/app/b.js" (Some "new")] = Some [Some "BBB"].
Proof. reflexivity. Qed.
(** Finding: a text is written to the place of a source file that is gone, if its name was used for a link to it. *)
Theorem C99_write_refuted digest : let l := [FromFile "b.js" "b" true plain_args; Edit "/app/b.js" None; FromString "TTT" "b" plain_args] in
  dget "/app/b.js" (w_src (after digest empty l)) = Some "TTT".
Proof. reflexivity. Qed.
(** Finding: with a "?" or "#" in its name a module can not be loaded. *)
Theorem C99_query_refuted digest : gets digest empty [] (FromString "TTT" "what?" plain_args) [] = Some [None].
Proof. reflexivity. Qed.

Print Assumptions C99_component.
Print Assumptions C99_fallback.
Print Assumptions C99_sources.
Print Assumptions C99_file_partial.
Print Assumptions C99_symlink_partial.
Print Assumptions C99_text_partial.
Print Assumptions C99_unnamed.
Print Assumptions C99_npm_address.
Print Assumptions C99_npm_distinct.
Print Assumptions C99_extension_partial.
Print Assumptions C73_directory.
Print Assumptions C73_text_first.
Print Assumptions C73_directory_refuted.
