(** * Model of the clients' models (/repo/src/reactpy/executors/pyscript/layout_handler.py and
    /repo/src/js/packages/@reactpy/client/src/components.tsx) and properties C59, C60 *)
From Coq Require Import String Ascii ZArith Bool Arith Lia List.
From Coq Require DecimalString DecimalNat.
From Verif Require Import Dict Strings PyStr LayoutTypes DisplaySpec.
Import ListNotations.
Local Open Scope string_scope. Local Open Scope list_scope.

(** A value decoded from JSON. [JAtom]: any value without parts. *)
Inductive json := JStr (s : string) | JAtom (n : nat) | JArr (l : list json) | JObj (d : dict string json).

(** Numbers in paths: f"{index}". *)
Definition dec (n : nat) : string := DecimalString.NilEmpty.string_of_uint (Nat.to_uint n).
Definition undec (s : string) : option nat := match DecimalString.NilEmpty.uint_of_string s with Some d => Some (Nat.of_uint d) | None => None end.
(** [patch_path], /repo/src/reactpy/core/layout.py:610, 630, 670. *)
Fixpoint path_string (p : list nat) : string := match p with [] => "" | i :: r => ("/children/" ++ dec i ++ path_string r)%string end.
(** The tokens of a JSON pointer: after the first slash, separated by slashes. Simplified: tokens with "~", which stands for
    escaped characters, do not occur in these paths. *)
Definition tokens (path : string) : list string := match path with "" => [] | _ => tl (split "/" path) end.

(** [set_pointer] of jsonpointer, used in layout_handler.py:29: walk to the last container and assign. [None]: an exception.
    Simplified: an array index with a leading zero is taken as a number, and "-" is not modelled. *)
Fixpoint set_tokens (ts : list string) (v : json) (doc : json) : option json :=
  match ts with
  | [] => Some v
  | t :: r =>
      match doc with
      | JObj d => match r with
                  | [] => Some (JObj (dset t v d))
                  | _ => match dget t d with Some x => match set_tokens r v x with Some y => Some (JObj (dset t y d)) | None => None end | None => None end
                  end
      | JArr l => match undec t with
                  | Some i => match nth_error l i with Some x => match set_tokens r v x with Some y => Some (JArr (upd l i y)) | None => None end | None => None end
                  | None => None
                  end
      | _ => None
      end
  end.
(** [update_model], layout_handler.py:26-33. The root model is a dict; [update] of a text would raise. *)
Definition update_model (path : string) (model : json) (root : dict string json) : option (dict string json) :=
  if String.eqb path "" then match model with JObj d => Some (dupdate [] d) | _ => None end
  else match set_tokens (tokens path) model (JObj root) with Some (JObj d) => Some d | _ => None end.
(** The browser's client, components.tsx:145-149: [Object.assign] at the root. Its [setJsonPointer] would make missing
    containers, which is not modelled: an update that needs them is [None] here. *)
Definition js_update (path : string) (model : json) (root : dict string json) : option (dict string json) :=
  if String.eqb path "" then match model with JObj d => Some (dupdate root d) | _ => None end
  else match set_tokens (tokens path) model (JObj root) with Some (JObj d) => Some d | _ => None end.

Section Encoding.
  (** How attribute values, handlers and other parts are written as JSON does not matter. *)
  Context (ev : dict string val -> json) (es : dict string string -> json) (eh : dict string hjson -> json).
  Definition field (k : string) (v : option json) : dict string json := match v with Some x => [(k, x)] | None => [] end.
  Fixpoint enc (m : model) : json :=
    match m with
    | MText s => JStr s
    | MNode tag imp attrs js hs ch err =>
        JObj ([("tagName", JStr tag)] ++ field "importSource" (option_map JStr imp) ++ field "attributes" (option_map ev attrs) ++ field "inlineJavaScript" (option_map es js) ++
              field "eventHandlers" (option_map eh hs) ++ field "children" (match ch with Some l => Some (JArr (map enc l)) | None => None end) ++ field "error" (option_map JStr err))
    end.
  Definition is_node (m : model) : Prop := match m with MNode _ _ _ _ _ _ _ => True | MText _ => False end.

  Lemma undec_dec n : undec (dec n) = Some n.
  Proof. unfold undec, dec. rewrite DecimalString.NilEmpty.usu. f_equal. apply DecimalNat.Unsigned.of_to. Qed.
  Lemma dec_noslash n : nochar "/" (dec n).
  Proof. unfold dec. generalize (Nat.to_uint n). induction u; simpl; auto; split; auto; discriminate. Qed.
  Fixpoint path_tokens (p : list nat) : list string := match p with [] => [] | i :: r => "children" :: dec i :: path_tokens r end.
  Lemma split_path p s : nochar "/" s -> split "/" (s ++ path_string p) = s :: path_tokens p.
  Proof.
    revert s. induction p as [|i p IH]; intros s N; cbn [path_string path_tokens]; [rewrite app_nil_s; apply split_no; auto|].
    change ("/children/" ++ dec i ++ path_string p)%string with (String "/" ("children" ++ String "/" (dec i ++ path_string p)))%string.
    rewrite split_app by auto. f_equal. rewrite split_app by (repeat split; discriminate). f_equal. apply IH, dec_noslash.
  Qed.
  Lemma tokens_path p : tokens (path_string p) = path_tokens p.
  Proof.
    destruct p as [|i p]; [reflexivity|]. assert (H := split_path (i :: p) "" I). cbn [append] in H. unfold tokens. destruct (path_string (i :: p)) eqn:E; [discriminate|]. rewrite H. reflexivity.
  Qed.
  Lemma put_at_enc p m : forall M M', put_at p m M = Some M' -> set_tokens (path_tokens p) (enc m) (enc M) = Some (enc M').
  Proof.
    induction p as [|i p IH]; intros M M' H; cbn [put_at path_tokens] in *; [injection H as <-; reflexivity|].
    destruct M as [s|tag imp attrs js hs ch err]; [discriminate|]. destruct ch as [l|]; [|discriminate]. destruct (nth_error l i) as [x|] eqn:N; [|discriminate]. destruct (put_at p m x) as [x'|] eqn:P; [|discriminate]. injection H as <-.
    specialize (IH x x' P).
    assert (A : set_tokens (dec i :: path_tokens p) (enc m) (JArr (map enc l)) = Some (JArr (map enc (upd l i x')))).
    { cbn [set_tokens]. rewrite undec_dec. rewrite (map_nth_error enc i l N). rewrite IH. do 2 f_equal. clear. revert i. induction l as [|y l IH]; intros [|i]; cbn; auto. f_equal. auto. }
    assert (ST : forall d t r v, set_tokens ("children" :: t :: r) v (JObj d) = match dget "children" d with Some x => match set_tokens (t :: r) v x with Some y => Some (JObj (dset "children" y d)) | None => None end | None => None end) by reflexivity.
    cbn [enc]. rewrite ST. set (d := _ ++ _). assert (D : dget "children" d = Some (JArr (map enc l))) by (unfold d; destruct imp, attrs, js, hs; reflexivity). rewrite D, A. unfold d. destruct imp, attrs, js, hs, err; reflexivity.
  Qed.
  Lemma enc_unique m d : enc m = JObj d -> dupdate [] d = d.
  Proof. destruct m as [s|tag imp attrs js hs ch err]; [discriminate|]. cbn [enc]. intros E. injection E as <-. destruct imp, attrs, js, hs, ch, err; reflexivity. Qed.
  (** One update: a root update replaces the model whatever it was; another one sets the part at its path. *)
  Theorem C59_update p m M M' d : is_node m -> enc M = JObj d -> put_at p m M = Some M' -> exists d', update_model (path_string p) (enc m) d = Some d' /\ JObj d' = enc M'.
  Proof.
    intros N E H. unfold update_model. destruct p as [|i p].
    - cbn [path_string put_at] in *. injection H as <-. cbn [String.eqb]. destruct m as [s|tag imp attrs js hs ch err]; [destruct N|]. destruct (enc (MNode tag imp attrs js hs ch err)) as [| | |d'] eqn:F; try discriminate. exists d'. rewrite (enc_unique _ _ F). auto.
    - assert (NE : String.eqb (path_string (i :: p)) "" = false) by reflexivity. rewrite NE, tokens_path, <- E. rewrite (put_at_enc _ _ _ _ H). cbn [put_at] in H. destruct M as [s|tag imp attrs js hs ch err]; [discriminate|]. destruct ch as [l|]; [|discriminate].
      destruct (nth_error l i); [|discriminate]. destruct (put_at p m m0); [|discriminate]. injection H as <-. cbn [enc]. eauto.
  Qed.
  Theorem C59_root m d : is_node m -> exists d', update_model "" (enc m) d = Some d' /\ JObj d' = enc m.
  Proof. intros N. unfold update_model. cbn [String.eqb]. destruct m as [s|tag imp attrs js hs ch err]; [destruct N|]. destruct (enc (MNode tag imp attrs js hs ch err)) as [| | |d'] eqn:F; try discriminate. exists d'. rewrite (enc_unique _ _ F). auto. Qed.
  (** A history of updates, starting with the empty dict (line 155): the client holds what the updates describe. *)
  Definition pyscript (us : list (list nat * model)) : option (dict string json) :=
    fold_left (fun r u => match r with Some d => update_model (path_string (fst u)) (enc (snd u)) d | None => None end) us (Some []).
  Theorem C59_history us M : (forall u, In u us -> is_node (snd u)) -> (forall us', (exists r, us = us' ++ r) -> client us' <> Some None) -> client us = Some (Some M) -> exists d, pyscript us = Some d /\ JObj d = enc M.
  Proof.
    revert M. induction us as [|[p m] us IH] using rev_ind; intros M N OK H; [discriminate|]. unfold client, pyscript in *. rewrite fold_left_app in *. cbn [fold_left fst snd] in *.
    assert (NM : is_node m) by (apply (N (p, m)); apply in_or_app; right; left; reflexivity).
    destruct (fold_left client_step us None) as [[M0|]|] eqn:C.
    - destruct (IH M0) as (d & E & F); auto; [intros u I; apply N; apply in_or_app; auto|intros us' (r & R); apply OK; exists (r ++ [(p, m)]); rewrite R, app_assoc; reflexivity|]. rewrite E. unfold client_step in H. cbn [fst snd] in H. destruct p as [|i p].
      + injection H as <-. apply C59_root; auto.
      + injection H as H. eapply C59_update; eauto.
    - exfalso. apply (OK us); [exists [(p, m)]; reflexivity|exact C].
    - unfold client_step in H. cbn [fst snd] in H. destruct p as [|i p]; [|discriminate]. injection H as <-. assert (us = []) as ->.
      { destruct us as [|u us] using rev_ind; auto. rewrite fold_left_app in C. cbn [fold_left] in C. unfold client_step in C at 1. destruct (fst u) as [|? ?], (fold_left client_step us None) as [[?|]|]; discriminate. }
      apply C59_root; auto.
  Qed.
  (** ** C60 *)
  (** The browser's client does the same below the root, and at the root if the new model has all parts of the old one. *)
  Theorem C60_nested i p m M M' d : enc M = JObj d -> put_at (i :: p) m M = Some M' -> exists d', js_update (path_string (i :: p)) (enc m) d = Some d' /\ JObj d' = enc M'.
  Proof.
    intros E H. unfold js_update. assert (NE : String.eqb (path_string (i :: p)) "" = false) by reflexivity. rewrite NE, tokens_path, <- E. rewrite (put_at_enc _ _ _ _ H). cbn [put_at] in H. destruct M as [s|tag imp attrs js hs ch err]; [discriminate|]. destruct ch as [l|]; [|discriminate].
    destruct (nth_error l i); [|discriminate]. destruct (put_at p m m0); [|discriminate]. injection H as <-. cbn [enc]. eauto.
  Qed.
  Lemma enc_nodup m d : enc m = JObj d -> NoDup (dkeys d).
  Proof. destruct m as [s|tag imp attrs js hs ch err]; [discriminate|]. cbn [enc]. intros E. injection E as <-. destruct imp, attrs, js, hs, ch, err; cbn; repeat constructor; cbn; intuition discriminate. Qed.
  Theorem C60_root_partial m d' root : enc m = JObj d' -> (forall k, dget k d' = None -> dget k root = None) -> exists r, js_update "" (enc m) root = Some r /\ forall k, dget k r = dget k d'.
  Proof.
    intros E S. unfold js_update. cbn [String.eqb]. rewrite E. eexists. split; [reflexivity|]. intros k. rewrite dget_dupdate by (eapply enc_nodup; eauto). destruct (dget k d') eqn:G; auto.
  Qed.
  (** Finding: after an error of the root component was shown, the next model keeps it ([Element] shows the error and nothing
      else, components.tsx:164-170). *)
  Theorem C60_error_refuted : let failed := MNode "" None None None None None (Some "boom") in let ok := MNode "" None None None None (Some [MText "hi"]) None in
    exists d r, enc failed = JObj d /\ js_update "" (enc ok) d = Some r /\ dget "error" r = Some (JStr "boom") /\ dget "error" (match enc ok with JObj x => x | _ => [] end) = None.
  Proof. cbv zeta. eexists. eexists. split; [reflexivity|]. split; [reflexivity|]. split; reflexivity. Qed.
End Encoding.
Example C59_example : let e (_ : dict string val) := JAtom 0 in let f (_ : dict string string) := JAtom 0 in let g (_ : dict string hjson) := JAtom 0 in
  let n ch := MNode "" None None None None (Some ch) None in
  pyscript e f g [([], n [MText "a"; n [MText "b"]]); ([1; 0], n [MText "c"])] = match enc e f g (n [MText "a"; n [n [MText "c"]]]) with JObj d => Some d | _ => None end.
Proof. reflexivity. Qed.
Print Assumptions C59_update.
Print Assumptions C59_history.
Print Assumptions C60_root_partial.
Print Assumptions C60_error_refuted.
