(** * Property C31, second part: the acknowledgement attached to an element *)
From Coq Require Import String ZArith Bool Arith Lia List.
From Verif Require Import Dict LayoutTypes LayoutModel.
Import ListNotations.
Local Open Scope string_scope. Local Open Scope list_scope.

(** [n] is the greatest recorded number of the targets [ts]; [None]: none of them has one. *)
Definition greatest_ack (seqs : dict string Z) (ts : list string) (r : option Z) : Prop :=
  match r with
  | None => forall t, In t ts -> dget t seqs = None
  | Some n => (exists t, In t ts /\ dget t seqs = Some n) /\ forall t m, In t ts -> dget t seqs = Some m -> (m <= n)%Z
  end.
Lemma max_ack_spec seqs ts : forall seen acc, greatest_ack seqs seen acc -> greatest_ack seqs (seen ++ ts) (max_ack seqs ts acc).
Proof.
  induction ts as [|t ts IH]; intros seen acc H; simpl; [rewrite app_nil_r; auto|]. replace (seen ++ t :: ts) with ((seen ++ [t]) ++ ts) by (rewrite <- app_assoc; auto).
  destruct (dget t seqs) as [a|] eqn:E; apply IH.
  - destruct acc as [b|]; simpl in H.
    + destruct H as ((u & J & U) & ALL). destruct (Z.ltb_spec b a); simpl; (split; [|intros v m K V; apply in_app_iff in K; destruct K as [K|[<-|[]]]; [specialize (ALL v m K V); lia|rewrite E in V; injection V as <-; lia]]).
      * exists t. rewrite in_app_iff. simpl. auto.
      * exists u. rewrite in_app_iff. auto.
    + split; [exists t; rewrite in_app_iff; simpl; auto|]. intros v m K V. apply in_app_iff in K. destruct K as [K|[<-|[]]]; [rewrite (H v K) in V; discriminate|rewrite E in V; injection V as <-; lia].
  - destruct acc as [b|]; simpl in *.
    + destruct H as ((u & J & U) & ALL). split; [exists u; rewrite in_app_iff; auto|]. intros v m K V. apply in_app_iff in K. destruct K as [K|[<-|[]]]; [eauto|congruence].
    + intros v K. apply in_app_iff in K. destruct K as [K|[<-|[]]]; auto.
Qed.

(** The attributes of an element after a render, given its attributes in the component's output and its event targets:
    every other attribute is as written; the number is attached only to input elements, and it is the greatest number
    recorded for the element's targets (an attribute of that name written by the component is kept). *)
Theorem C31_attached : forall seqs tag ts d,
  exists d', inject_ack seqs tag ts (Some d) = Some d' /\
    (forall k, k <> "_reactpy_ack_seq" -> dget k d' = dget k d) /\
    (~ In tag ["input"; "select"; "textarea"] -> d' = d) /\
    (In tag ["input"; "select"; "textarea"] -> dget "_reactpy_ack_seq" d = None ->
       exists r, greatest_ack seqs ts r /\ dget "_reactpy_ack_seq" d' = option_map VInt r).
Proof.
  intros seqs tag ts d. unfold inject_ack. pose proof (max_ack_spec seqs ts [] None (fun t J => match J with end)) as G. simpl in G. unfold is_input_tag. destruct (mem tag _) eqn:T.
  - apply mem_In in T. destruct (max_ack seqs ts None) as [a|].
    + exists (dsetdefault "_reactpy_ack_seq" (VInt a) d). split; [auto|]. unfold dsetdefault. split; [|split; [contradiction|]].
      * intros k N. destruct (dmem _ d); auto. apply dget_dset_other. auto.
      * intros _ N. exists (Some a). split; auto. unfold dmem. rewrite N. apply dget_dset_same.
    + exists d. repeat split; auto. intros _ N. exists None. auto.
  - apply mem_not_In in T. exists d. repeat split; auto. intros J. contradiction.
Qed.
Print Assumptions C31_attached.
Example C31_attached_example : inject_ack [("1:onChange", 4%Z); ("1:onBlur", 7%Z)] "input" ["1:onChange"; "1:onBlur"; "1:onFocus"] (Some [("value", VStr "x")])
  = Some [("value", VStr "x"); ("_reactpy_ack_seq", VInt 7)].
Proof. reflexivity. Qed.
(** An input element without attributes of its own is never given a number, whatever was recorded. *)
Theorem C31_no_attributes_refuted : exists seqs tag ts n,
  In tag ["input"; "select"; "textarea"] /\ greatest_ack seqs ts (Some n) /\ inject_ack seqs tag ts None = None.
Proof.
  exists [("1:onChange", 4%Z)], "input", ["1:onChange"], 4%Z. split; [left; auto|]. split; [|reflexivity]. split; [exists "1:onChange"; simpl; auto|].
  intros t m [<-|[]] E. vm_compute in E. injection E as <-. lia.
Qed.
Print Assumptions C31_no_attributes_refuted.
