(** * Property C09 (error containment on first mount) and the displayed half of C08

    Vocabulary: [mounts] (MountSpec.v), [history], [next] (LayoutHistory.v), [clash] (GuardSpec.v). *)
From Coq Require Import String ZArith Bool Arith Lia List.
From Verif Require Import Dict Strings LayoutTypes LayoutModel BodySpec DisplaySpec GuardSpec LayoutObs LayoutHistory ChildrenFacts
  HooksModel MountSpec FirstMount FirstRoot.
Import ListNotations.
Local Open Scope string_scope.
Local Open Scope list_scope.

(** ** C09 *)

(** The first render of any tree, whichever of its components raise and whatever the environment does meanwhile,
    emits one update at the root: the expansion of the tree with error nodes exactly for the nearest enclosing
    component of each failure ([mounts]). *)
Theorem C09_first_mount : forall debug defs root es bs s s',
  history debug defs root (map OEnv es) s -> next debug defs s (ORender bs) s' ->
  exists m, updates (s_log s') = [([], m)] /\ mounts debug defs no_ctx (RComp root) (inl m).
Proof. exact first_update. Qed.
Print Assumptions C09_first_mount.

(** A component never makes its parent fail, whatever happens inside it. *)
Theorem C09_contained : forall debug defs env c f, ~ mounts debug defs env (RComp c) (inr f).
Proof. intros debug defs env c f H. inversion H. Qed.
Print Assumptions C09_contained.

(** The error texts in a model, and the nodes that carry one. *)
Fixpoint errors (m : model) : list string :=
  match m with
  | MText _ => []
  | MNode _ _ _ _ _ ch err =>
      (match err with Some e => [e] | None => [] end) ++
      (match ch with Some l => flat_map errors l | None => [] end)
  end.

Scheme mounts_mut := Minimality for mounts Sort Prop
  with mounts_all_mut := Minimality for mounts_all Sort Prop.
Combined Scheme mounts_both from mounts_mut, mounts_all_mut.

(** Without debug mode no error text reaches the client. *)
Theorem C09_message_only_in_debug : forall defs root es bs s s' m,
  history false defs root (map OEnv es) s -> next false defs s (ORender bs) s' ->
  updates (s_log s') = [([], m)] -> forall e, In e (errors m) -> e = "".
Proof.
  intros defs root es bs s s' m H N U. destruct (first_update _ _ _ _ _ _ _ H N) as (m' & U' & MO).
  rewrite U in U'. injection U' as <-. clear -MO. revert MO.
  assert (X : (forall env r o, mounts false defs env r o -> forall m, o = inl m -> forall e, In e (errors m) -> e = "") /\
              (forall env l o, mounts_all false defs env l o -> forall ms, o = inl ms -> forall e, In e (flat_map errors ms) -> e = "")).
  { apply mounts_both; intros; try discriminate;
      repeat match goal with H : inl _ = inl _ |- _ => injection H as <- end; simpl in *; eauto.
    - destruct ch as [[|? ?]|]; simpl in *; eauto; contradiction.
    - intuition.
    - intuition.
    - contradiction.
    - match goal with H : In _ (_ ++ _) |- _ => apply in_app_iff in H as [J|J]; eauto end. }
  intros MO. eapply (proj1 X); eauto.
Qed.
Print Assumptions C09_message_only_in_debug.

(** Four components: the root shows a text, a raising component, a component whose element has duplicate keys, and a
    component containing a raising one. *)
Definition failing (n : nat) (_ : val) (_ : list raw) : body :=
  let comp k := RComp (Cinst (CTUser k) None VNone []) in
  match n with
  | 0 => compile (PState (VInt 1) (fun v _ => PRet (RElem "main" None [] None None (Some [RText "a"; comp 1; comp 2; comp 3]))))
  | 1 => compile (PRaise "boom")
  | 2 => compile (PRet (RElem "ul" None [] None None (Some [RText "x"; RComp (Cinst (CTUser 1) (Some (KInt 0)) VNone [])])))
  | _ => compile (PRet (RElem "p" None [] None None (Some [comp 1; RText "z"])))
  end.
Definition failing_root : cinst := Cinst (CTUser 0) None VNone [].
Definition comp_node (m : model) : model := MNode "" None None None None (Some [m]) None.
Definition failed (e : string) : model := MNode "" None None None None None (Some e).

Example C09_nonvacuous : forall debug, exists s',
  history debug failing failing_root (map OEnv [ESeq "t" 3]) (set_seq [("t", 3%Z)] (init failing_root)) /\
  next debug failing (set_seq [("t", 3%Z)] (init failing_root)) (ORender []) s' /\
  updates (s_log s') = [([], comp_node (MNode "main" None None None None (Some
    [MText "a"; failed (if debug then "boom" else ""); failed (if debug then "ValueError: Duplicate keys" else "");
     comp_node (MNode "p" None None None None (Some [failed (if debug then "boom" else ""); MText "z"]) None)]) None))].
Proof.
  intros [|]; (eexists; split; [exists 0; reflexivity|]; split; [exists 20; vm_compute; reflexivity|reflexivity]).
Qed.

(** ** C08, what is displayed *)

(** A component whose output is an element with clashing keys among its children is shown as an error node: nothing
    of the list is displayed. *)
Theorem C08_error_shown : forall debug defs root es bs s s' tag attrs hs js imp l,
  history debug defs root (map OEnv es) s -> next debug defs s (ORender bs) s' ->
  (forall h, exists env', first_run h [] no_ctx (program defs root) = inl (RElem tag attrs hs js imp (Some l), env')) ->
  clash l ->
  updates (s_log s') = [([], error_node debug Duplicate)].
Proof.
  intros debug defs root es bs s s' tag attrs hs js imp l H N FR CL.
  destruct (first_update _ _ _ _ _ _ _ H N) as (m & U & MO). rewrite U. repeat f_equal.
  inversion MO as [| | |env c h out env' ms R1 A1|env c h msg R1|env c h out env' f R1 A1]; subst;
    destruct (FR h) as (env2 & R2); rewrite R1 in R2; try discriminate.
  - injection R2 as -> ->. exfalso. inversion A1 as [| | | |? ? ? ? ? M1 _| |]; subst. inversion M1; subst. contradiction.
  - injection R2 as -> ->. inversion A1 as [| | | | |? ? ? ? M1|? ? ? ? ? M1 A2]; subst.
    + inversion M1; subst; [reflexivity|contradiction].
    + inversion A2.
Qed.
Print Assumptions C08_error_shown.

Example C08_shown_nonvacuous :
  let root := Cinst (CTUser 2) None VNone [] in
  (forall h, exists env', first_run h [] no_ctx (program failing root) =
     inl (RElem "ul" None [] None None (Some [RText "x"; RComp (Cinst (CTUser 1) (Some (KInt 0)) VNone [])]), env')) /\
  clash [RText "x"; RComp (Cinst (CTUser 1) (Some (KInt 0)) VNone [])].
Proof.
  split; [intros h; eexists; reflexivity|]. exists 0, 1, (RText "x"), (RComp (Cinst (CTUser 1) (Some (KInt 0)) VNone [])).
  repeat split; auto; discriminate.
Qed.
