(** * String lemmas *)
From Coq Require Import String Ascii Bool Arith Lia List.
Import ListNotations.
Local Open Scope string_scope.

Fixpoint nochar (c : ascii) (s : string) : Prop :=
  match s with
  | "" => True
  | String a s' => a <> c /\ nochar c s'
  end.

Lemma nochar_app c a b : nochar c (a ++ b) <-> nochar c a /\ nochar c b.
Proof. induction a; simpl; tauto. Qed.

Lemma app_assoc_s (a b c : string) : (a ++ b) ++ c = a ++ (b ++ c).
Proof. induction a; simpl; congruence. Qed.
Lemma app_nil_s (a : string) : a ++ "" = a.
Proof. induction a; simpl; congruence. Qed.
Lemma app_inj_l (a b c : string) : a ++ b = a ++ c -> b = c.
Proof. induction a; simpl; intros H; auto. injection H; auto. Qed.
Lemma app_len (a b : string) : String.length (a ++ b) = String.length a + String.length b.
Proof. induction a; simpl; auto. Qed.

(** Splitting at the last occurrence of a separator. *)
Lemma split_last c a b e1 e2 : a ++ String c e1 = b ++ String c e2 -> nochar c e1 -> nochar c e2 -> a = b /\ e1 = e2.
Proof.
  revert b; induction a as [|x a IH]; destruct b as [|y b]; simpl; intros H N1 N2.
  - injection H; auto.
  - injection H as -> ->. apply nochar_app in N1. simpl in N1. tauto.
  - injection H as -> <-. apply nochar_app in N2. simpl in N2. tauto.
  - injection H as -> H. destruct (IH b H N1 N2). subst; auto.
Qed.

(** Splitting at the first occurrence of a separator. *)
Definition starts (c : ascii) (r : string) : Prop := r = "" \/ exists r', r = String c r'.
Lemma split_first c s1 s2 r1 r2 : s1 ++ r1 = s2 ++ r2 -> nochar c s1 -> nochar c s2 -> starts c r1 -> starts c r2 ->
  s1 = s2 /\ r1 = r2.
Proof.
  revert s2; induction s1 as [|x s1 IH]; destruct s2 as [|y s2]; simpl; intros H N1 N2 S1 S2.
  - auto.
  - subst r1. destruct S1 as [S1|[r' S1]]; [discriminate|]. injection S1 as -> _. tauto.
  - subst r2. destruct S2 as [S2|[r' S2]]; [discriminate|]. injection S2 as -> _. tauto.
  - injection H as -> H. destruct (IH s2 H); try tauto. subst; auto.
Qed.
