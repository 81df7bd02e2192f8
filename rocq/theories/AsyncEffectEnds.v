(** * use_async_effect: nothing is cancelled or cleaned up without a reason, and everything ends after the component is gone (C23) *)
From Coq Require Import Arith Bool Lia List.
From Verif Require Import EffectModel EffectProps AsyncEffect AsyncEffectProps.
Import ListNotations.

(** ** As long as the component is mounted *)

(** The number of effects so far: the first one and the changes of the dependencies. *)
Definition effects (ops : list aop) : nat := length (filter (fun o => match o with ASpawn => true | _ => false end) ops).

Record kinv (sh : bool) (s : ast) : Prop := {
  k_stop : a_stop s = false;
  k_clean : forall b, a_clean s = Some b -> b < length (a_bodies s);
  k_pcs : forall i b, nth_error (a_tasks s) i <> Some (AWaitCancel b);
  k_owned : forall i b, nth_error (a_tasks s) i = Some (AWaitBody b) -> b < length (a_bodies s);
  k_log : forall i b, nth_error (a_log s) i = Some (ACleaned b) -> exists b', b < b' /\ nth_error (a_log s) (S i) = Some (Began b');
  k_some : a_bodies s <> [] -> exists j x, nth_error (a_tasks s) j = Some x /\ x <> ANew;
  k_running : forall b, nth_error (a_bodies s) b = Some (BRunning true) -> sh = false /\ 2 <= length (a_tasks s);
  k_ended : forall b, In (Ended b BCancelled) (a_log s) -> sh = false /\ 2 <= length (a_tasks s)
}.

Lemma log_other l e : (forall b, e <> ACleaned b) ->
  (forall i b, nth_error l i = Some (ACleaned b) -> exists b', b < b' /\ nth_error l (S i) = Some (Began b')) ->
  forall i b, nth_error (l ++ [e]) i = Some (ACleaned b) -> exists b', b < b' /\ nth_error (l ++ [e]) (S i) = Some (Began b').
Proof.
  intros N H i b E. apply nth_error_app_cases in E. destruct E as [E|[E|[]]]; [|destruct (N b E)].
  destruct (H i b E) as (b' & L & E'). exists b'. split; [exact L|]. rewrite nth_error_app1; [exact E'|]. apply nth_error_Some. congruence.
Qed.

Lemma log_clean l c d : c < d ->
  (forall i b, nth_error l i = Some (ACleaned b) -> exists b', b < b' /\ nth_error l (S i) = Some (Began b')) ->
  forall i b, nth_error ((l ++ [ACleaned c]) ++ [Began d]) i = Some (ACleaned b) -> exists b', b < b' /\ nth_error ((l ++ [ACleaned c]) ++ [Began d]) (S i) = Some (Began b').
Proof.
  intros N H i b E. rewrite <- app_assoc in *. cbn [app] in *. destruct (Nat.lt_ge_cases i (length l)) as [L|L].
  - rewrite nth_error_app1 in E by exact L. destruct (H i b E) as (b' & L' & E'). exists b'. split; [exact L'|]. rewrite nth_error_app1; [exact E'|]. apply nth_error_Some. congruence.
  - rewrite nth_error_app2 in * by lia. destruct (i - length l) as [|[|k]] eqn:D; cbn in E; [|discriminate|destruct k; discriminate].
    injection E as <-. exists d. split; [exact N|]. replace (S i - length l) with 1 by lia. reflexivity.
Qed.

Lemma kinv_init sh : kinv sh ainit.
Proof. split; cbn; try reflexivity; try discriminate; try (intros b []; fail); try (intros [|i]; discriminate). intros N. destruct (N eq_refl). Qed.

Lemma kinv_begin sh i s : nth_error (a_tasks s) i <> None -> kinv sh s -> kinv sh (begin_body i s).
Proof.
  intros T [K1 K2 K3 K4 K5 K6 K7 K8]. assert (L : i < length (a_tasks s)) by (apply nth_error_Some; exact T).
  unfold begin_body, acleanup. destruct (a_clean s) as [c|] eqn:C; cbn [a_tasks a_bodies a_stop a_clean a_log a_pending]; split; cbn [a_tasks a_bodies a_stop a_clean a_log a_pending]; rewrite ?app_length, ?put_length; cbn [length].
  all: try exact K1.
  all: try discriminate.
  - intros j b E. apply nth_error_put_iff in E. destruct E as [(_ & E & _)|[_ E]]; [discriminate|exact (K3 j b E)].
  - intros j b E. apply nth_error_put_iff in E. destruct E as [(_ & E & _)|[_ E]]; [injection E as ->; lia|]. specialize (K4 j b E). lia.
  - apply log_clean; [exact (K2 c eq_refl)|exact K5].
  - intros _. exists i. eexists. split; [apply put_same; exact L|discriminate].
  - intros b E. apply nth_error_app_cases in E. destruct E as [E|[E|[]]]; [exact (K7 b E)|discriminate].
  - intros b I. apply in_app_iff in I. destruct I as [I|[I|[]]]; [|discriminate]. apply in_app_iff in I. destruct I as [I|[I|[]]]; [exact (K8 b I)|discriminate].
  - intros b E. rewrite C in E. discriminate.
  - intros j b E. apply nth_error_put_iff in E. destruct E as [(_ & E & _)|[_ E]]; [discriminate|exact (K3 j b E)].
  - intros j b E. apply nth_error_put_iff in E. destruct E as [(_ & E & _)|[_ E]]; [injection E as ->; lia|]. specialize (K4 j b E). lia.
  - apply log_other; [discriminate|exact K5].
  - intros _. exists i. eexists. split; [apply put_same; exact L|discriminate].
  - intros b E. apply nth_error_app_cases in E. destruct E as [E|[E|[]]]; [exact (K7 b E)|discriminate].
  - intros b I. apply in_app_iff in I. destruct I as [I|[I|[]]]; [exact (K8 b I)|discriminate].
Qed.

Lemma kinv_pc sh i x s : x <> ANew -> (forall b, x <> AWaitCancel b) -> (forall b, x <> AWaitBody b) -> kinv sh s -> kinv sh (set_pc i x s).
Proof.
  intros N1 N2 N3 [K1 K2 K3 K4 K5 K6 K7 K8]. split; cbn; rewrite ?put_length; auto.
  - intros j b E. apply nth_error_put_iff in E. destruct E as [(_ & E & _)|[_ E]]; [symmetry in E; destruct (N2 b E)|exact (K3 j b E)].
  - intros j b E. apply nth_error_put_iff in E. destruct E as [(_ & E & _)|[_ E]]; [symmetry in E; destruct (N3 b E)|exact (K4 j b E)].
  - intros N. destruct (K6 N) as (j & y & E & D). destruct (Nat.eq_dec i j) as [<-|D2].
    + exists i, x. split; [apply put_same; apply nth_error_Some; congruence|exact N1].
    + exists j, y. rewrite put_other by exact D2. auto.
Qed.

Lemma kinv_pending sh p s : kinv sh s -> kinv sh (set_pending p s).
Proof. intros [K1 K2 K3 K4 K5 K6 K7 K8]. split; assumption. Qed.
Lemma kinv_unpend sh b s : kinv sh s -> kinv sh (unpend b s).
Proof. intros K. unfold unpend. destruct (a_pending s); [|exact K]. destruct (Nat.eqb n b); [apply kinv_pending|]; exact K. Qed.
Lemma kinv_store sh b e s : b < length (a_bodies s) -> kinv sh s -> kinv sh (store b e s).
Proof.
  intros L K. destruct e as [[|]| |]; try exact K; destruct K as [K1 K2 K3 K4 K5 K6 K7 K8]; split; cbn; try assumption; try discriminate.
  intros c [= <-]. exact L.
Qed.
Lemma kinv_cancel sh i p s : nth_error (a_tasks s) i = Some ANew -> kinv sh s -> kinv sh (acancel sh p s).
Proof.
  intros T K. unfold acancel. destruct sh; [exact K|]. destruct (nth_error (a_bodies s) p) as [[c|e]|] eqn:B; try exact K.
  destruct K as [K1 K2 K3 K4 K5 K6 K7 K8].
  assert (TWO : 2 <= length (a_tasks s)).
  { destruct K6 as (j & x & E & N). { intros Z. rewrite Z in B. destruct p; discriminate. }
    assert (i <> j) by congruence. assert (i < length (a_tasks s)) by (apply nth_error_Some; congruence). assert (j < length (a_tasks s)) by (apply nth_error_Some; congruence). lia. }
  split; cbn; rewrite ?put_length; auto.
  intros _. apply K6. intros Z. rewrite Z in B. destruct p; discriminate.
Qed.

Lemma kinv_after sh i p e s : nth_error (a_tasks s) i <> None -> kinv sh s -> kinv sh (after_prev i p e s).
Proof.
  intros T K. unfold after_prev. destruct e; try (apply kinv_begin; [unfold unpend; destruct (a_pending s) as [q|]; [destruct (Nat.eqb q p)|]; exact T|apply kinv_unpend; exact K]).
  apply kinv_pc; try discriminate. exact K.
Qed.

Lemma kinv_run sh i s : kinv sh s -> kinv sh (arun_task sh i s).
Proof.
  intros K. unfold arun_task. destruct (nth_error (a_tasks s) i) as [x|] eqn:T; [|exact K]. destruct x as [|p|b|b| | |]; try exact K.
  - destruct (a_pending s) as [p|]; [|apply kinv_begin; [congruence|exact K]]. pose proof (kinv_cancel sh i p s T K) as K'.
    assert (T' : a_tasks (acancel sh p s) = a_tasks s) by (unfold acancel; destruct sh; [reflexivity|]; destruct (nth_error (a_bodies s) p) as [[?|?]|]; reflexivity).
    cbv zeta. destruct (nth_error (a_bodies (acancel sh p s)) p) as [[c|e]|]; [apply kinv_pc; try discriminate; exact K'|apply kinv_after; [rewrite T'; congruence|exact K']|apply kinv_pc; try discriminate; exact K'].
  - destruct (nth_error (a_bodies s) p) as [[c|e]|]; try exact K. apply kinv_after; [congruence|exact K].
  - rewrite (k_stop _ _ K). destruct (nth_error (a_bodies s) b) as [[c|e]|] eqn:B; try exact K. cbv zeta.
    assert (L : b < length (a_bodies s)) by (apply nth_error_Some; congruence).
    destruct e; apply kinv_pc; try discriminate; try (apply (kinv_store sh b _ (set_pending None s)); [exact L|]); apply kinv_pending; exact K.
  - destruct (k_pcs _ _ K i b T).
  - rewrite (k_stop _ _ K). exact K.
Qed.

Lemma kinv_end sh b e s : kinv sh s -> kinv sh (abody_end b e s).
Proof.
  intros K. unfold abody_end. destruct (nth_error (a_bodies s) b) as [[c|x]|] eqn:B; try exact K. destruct K as [K1 K2 K3 K4 K5 K6 K7 K8].
  assert (G : (e = BCancelled -> c = true) -> kinv sh (Ast (a_tasks s) (put (a_bodies s) b (BEnded e)) (a_pending s) (a_clean s) (a_stop s) (a_log s ++ [Ended b e]))).
  { intros D. split; cbn; rewrite ?put_length; auto.
    - apply log_other; [discriminate|exact K5].
    - intros _. apply K6. intros Z. rewrite Z in B. destruct b; discriminate.
    - intros b' E. apply nth_error_put_iff in E. destruct E as [(_ & E & _)|[_ E]]; [discriminate|exact (K7 b' E)].
    - intros b' I. apply in_app_iff in I. destruct I as [I|[[= -> ->]|[]]]; [exact (K8 b' I)|]. rewrite (D eq_refl) in B. exact (K7 b' B). }
  destruct e; [apply G; discriminate| |apply G; discriminate]. destruct c; [apply G; reflexivity|split; assumption].
Qed.

Lemma kinv_ops sh ops : ~ In AUnmount ops -> forall s, kinv sh s -> kinv sh (fold_left (astep sh) ops s).
Proof.
  induction ops as [|o ops IH]; intros N s K; [exact K|]. cbn [fold_left]. apply IH; [intros I; apply N; right; exact I|]. destruct o as [|i|b e|]; cbn [astep].
  - destruct K as [K1 K2 K3 K4 K5 K6 K7 K8]. split; cbn; rewrite ?app_length; auto.
    + intros j b E. apply nth_error_app_cases in E. destruct E as [E|[E|[]]]; [exact (K3 j b E)|discriminate].
    + intros j b E. apply nth_error_app_cases in E. destruct E as [E|[E|[]]]; [exact (K4 j b E)|discriminate].
    + intros Z. destruct (K6 Z) as (j & x & E & D). exists j, x. split; [|exact D]. rewrite nth_error_app1; [exact E|]. apply nth_error_Some. congruence.
    + intros b E. destruct (K7 b E). split; [assumption|lia].
    + intros b E. destruct (K8 b E). split; [assumption|lia].
  - apply kinv_run. exact K.
  - apply kinv_end. exact K.
  - destruct N. left. reflexivity.
Qed.

Lemma tasks_count sh ops : forall s, length (a_tasks (fold_left (astep sh) ops s)) = length (a_tasks s) + effects ops.
Proof.
  assert (P : forall i s, length (a_tasks (begin_body i s)) = length (a_tasks s)) by (intros i s; unfold begin_body, acleanup; destruct (a_clean s); cbn; apply put_length).
  assert (U : forall b s, a_tasks (unpend b s) = a_tasks s) by (intros b s; unfold unpend; destruct (a_pending s) as [q|]; [destruct (Nat.eqb q b)|]; reflexivity).
  assert (C : forall p s, a_tasks (acancel sh p s) = a_tasks s) by (intros p s; unfold acancel; destruct sh; [reflexivity|]; destruct (nth_error (a_bodies s) p) as [[?|?]|]; reflexivity).
  assert (D : forall s, a_tasks (acleanup s) = a_tasks s) by (intros s; unfold acleanup; destruct (a_clean s); reflexivity).
  assert (E : forall b e s, a_tasks (store b e s) = a_tasks s) by (intros b e s; destruct e as [[|]| |]; reflexivity).
  assert (A : forall i p e s, length (a_tasks (after_prev i p e s)) = length (a_tasks s)) by (intros i p e s; destruct e; cbn [after_prev]; rewrite ?P, ?U; cbn; rewrite ?put_length; reflexivity).
  induction ops as [|o ops IH]; intros s; [cbn; lia|]. cbn [fold_left]. rewrite IH. destruct o as [|i|b e|]; cbn [astep].
  - cbn [a_tasks]. rewrite app_length. change (effects (ASpawn :: ops)) with (S (effects ops)). cbn [length]. lia.
  - change (effects (ARunTask i :: ops)) with (effects ops). f_equal. unfold arun_task. destruct (nth_error (a_tasks s) i) as [[|p|b|b| | |]|]; try reflexivity.
    + destruct (a_pending s) as [p|]; [|apply P]. cbv zeta. destruct (nth_error (a_bodies (acancel sh p s)) p) as [[c|e]|]; rewrite ?A; cbn; rewrite ?put_length, C; reflexivity.
    + destruct (nth_error (a_bodies s) p) as [[c|e]|]; rewrite ?A; reflexivity.
    + destruct (nth_error (a_bodies s) b) as [[c|e]|]; try (destruct (a_stop s); cbn; rewrite ?put_length, ?C; reflexivity). cbv zeta.
      destruct e; cbn [set_pc a_tasks]; rewrite put_length, ?E; reflexivity.
    + destruct (nth_error (a_bodies s) b) as [[c|e]|]; try reflexivity. destruct e; cbn [set_pc a_tasks]; rewrite put_length, ?D, ?U, ?E; reflexivity.
    + destruct (a_stop s); [|reflexivity]. cbn. rewrite put_length, D. reflexivity.
  - change (effects (ABodyEnd b e :: ops)) with (effects ops). f_equal. unfold abody_end. destruct (nth_error (a_bodies s) b) as [[c|x]|]; try reflexivity. destruct e; try reflexivity. destruct c; reflexivity.
  - reflexivity.
Qed.

(** As long as the component is mounted, in every schedule: a clean-up is called only right before the next body begins, and a body is
    cancelled only if it is not shielded and there was a second effect. *)
Theorem C23_kept : forall shield ops, ~ In AUnmount ops ->
  let log := a_log (arun shield ops) in
  (forall i b, nth_error log i = Some (ACleaned b) -> exists b', b < b' /\ nth_error log (S i) = Some (Began b')) /\
  (forall b, In (Ended b BCancelled) log -> shield = false /\ 2 <= effects ops).
Proof.
  intros sh ops N log. pose proof (kinv_ops sh ops N ainit (kinv_init sh)) as K. fold (arun sh ops) in K. split; [exact (k_log _ _ K)|].
  intros b I. destruct (k_ended _ _ K b I) as [Z L]. unfold arun in L. rewrite tasks_count in L. cbn in L. auto.
Qed.

(** ** After the component is gone *)

(** What is left to be done: steps of the effects' tasks, and ends of bodies. *)
Definition weight (x : apc) : nat := match x with ANew => 5 | AWaitPrev _ => 4 | AWaitBody _ => 2 | AWaitCancel _ => 1 | AWaitStop => 1 | ADone | AFailed => 0 end.
Definition busy (x : bstate) : nat := match x with BRunning _ => 1 | BEnded _ => 0 end.
Definition left_to_do (s : ast) : nat := list_sum (map weight (a_tasks s)) + list_sum (map busy (a_bodies s)).

Lemma sum_put {A} (w : A -> nat) l : forall i x y, nth_error l i = Some y -> list_sum (map w (put l i x)) + w y = list_sum (map w l) + w x.
Proof.
  unfold list_sum. induction l as [|a l IH]; intros [|i] x y E; try discriminate; cbn [nth_error] in E; cbn [put map fold_right].
  - injection E as ->. lia.
  - specialize (IH i x y E). lia.
Qed.
Lemma sum_snoc {A} (w : A -> nat) l x : list_sum (map w (l ++ [x])) = list_sum (map w l) + w x.
Proof. rewrite map_app, list_sum_app. cbn. lia. Qed.

(** Parts that do not change what is left, except the task's own. *)
Definition alike (s s' : ast) : Prop := a_tasks s' = a_tasks s /\ list_sum (map busy (a_bodies s')) = list_sum (map busy (a_bodies s)).
Lemma alike_cleanup s : alike s (acleanup s).
Proof. unfold acleanup. destruct (a_clean s); split; reflexivity. Qed.
Lemma alike_unpend b s : alike s (unpend b s).
Proof. unfold unpend. destruct (a_pending s) as [q|]; [destruct (Nat.eqb q b)|]; split; reflexivity. Qed.
Lemma alike_store b e s : alike s (store b e s).
Proof. destruct e as [[|]| |]; split; reflexivity. Qed.
Lemma alike_cancel sh b s : alike s (acancel sh b s).
Proof.
  unfold acancel. destruct sh; [split; reflexivity|]. destruct (nth_error (a_bodies s) b) as [[c|e]|] eqn:B; split; try reflexivity. cbn [a_bodies].
  pose proof (sum_put busy (a_bodies s) b (BRunning true) (BRunning c) B) as E. cbn [busy] in E. lia.
Qed.
Lemma alike_trans a b c : alike a b -> alike b c -> alike a c.
Proof. intros [P Q] [R S']. split; congruence. Qed.
Lemma left_pc i x y s s' : alike s s' -> nth_error (a_tasks s) i = Some y -> weight x < weight y -> left_to_do (set_pc i x s') < left_to_do s.
Proof.
  intros [P Q] E L. unfold left_to_do. cbn [set_pc a_tasks a_bodies]. rewrite P, Q. pose proof (sum_put weight (a_tasks s) i x y E). lia.
Qed.
Lemma left_begin i y s s' : alike s s' -> nth_error (a_tasks s) i = Some y -> 3 < weight y -> left_to_do (begin_body i s') < left_to_do s.
Proof.
  intros A E L. destruct (alike_trans _ _ _ A (alike_cleanup s')) as [P Q]. unfold left_to_do, begin_body. cbn [a_tasks a_bodies]. rewrite P, sum_snoc, Q. cbn [busy].
  pose proof (sum_put weight (a_tasks s) i (AWaitBody (length (a_bodies (acleanup s')))) y E) as Z. cbn [weight] in Z. lia.
Qed.
Lemma left_after i p e y s s' : alike s s' -> nth_error (a_tasks s) i = Some y -> 3 < weight y -> left_to_do (after_prev i p e s') < left_to_do s.
Proof.
  intros A E L. destruct e; cbn [after_prev]; try (eapply left_begin; [eapply alike_trans; [exact A|apply alike_unpend]|exact E|exact L]).
  eapply left_pc; [exact A|exact E|cbn; lia].
Qed.

(** A step of a task changes nothing or leaves less to do. *)
Lemma run_less sh i s : arun_task sh i s = s \/ left_to_do (arun_task sh i s) < left_to_do s.
Proof.
  unfold arun_task. destruct (nth_error (a_tasks s) i) as [x|] eqn:T; [|left; reflexivity].
  assert (R : alike s s) by (split; reflexivity).
  destruct x as [|p|b|b| | |]; try (left; reflexivity).
  - right. destruct (a_pending s) as [p|]; [|eapply left_begin; [exact R|exact T|cbn; lia]]. cbv zeta. pose proof (alike_cancel sh p s) as A.
    destruct (nth_error (a_bodies (acancel sh p s)) p) as [[c|e]|]; [eapply left_pc; [exact A|exact T|cbn; lia]|eapply left_after; [exact A|exact T|cbn; lia]|eapply left_pc; [exact A|exact T|cbn; lia]].
  - destruct (nth_error (a_bodies s) p) as [[c|e]|]; try (left; reflexivity). right. eapply left_after; [exact R|exact T|cbn; lia].
  - destruct (nth_error (a_bodies s) b) as [[c|e]|].
    + destruct (a_stop s); [right|left; reflexivity]. eapply left_pc; [apply alike_cancel|exact T|cbn; lia].
    + right. cbv zeta. assert (N : alike s (set_pending None s)) by (split; reflexivity).
      destruct e; (eapply left_pc; [|exact T|cbn; lia]); try exact N; eapply alike_trans; [exact N|apply alike_store].
    + destruct (a_stop s); [right|left; reflexivity]. eapply left_pc; [apply alike_cancel|exact T|cbn; lia].
  - destruct (nth_error (a_bodies s) b) as [[c|e]|]; try (left; reflexivity). right.
    destruct e; (eapply left_pc; [|exact T|cbn; lia]); try exact R; (eapply alike_trans; [eapply alike_trans; [apply alike_store|apply alike_unpend]|apply alike_cleanup]).
  - destruct (a_stop s); [right|left; reflexivity]. eapply left_pc; [apply alike_cleanup|exact T|cbn; lia].
Qed.
Lemma end_less b e s : abody_end b e s = s \/ left_to_do (abody_end b e s) < left_to_do s.
Proof.
  unfold abody_end. destruct (nth_error (a_bodies s) b) as [[c|x]|] eqn:B; try (left; reflexivity).
  assert (G : left_to_do (Ast (a_tasks s) (put (a_bodies s) b (BEnded e)) (a_pending s) (a_clean s) (a_stop s) (a_log s ++ [Ended b e])) < left_to_do s).
  { unfold left_to_do. cbn [a_tasks a_bodies]. pose proof (sum_put busy (a_bodies s) b (BEnded e) (BRunning c) B) as Z. cbn [busy] in Z. lia. }
  destruct e; [right; exact G| |right; exact G]. destruct c; [right; exact G|left; reflexivity].
Qed.

(** No body has raised, and nobody waits for a body that is not there. *)
Record rinv (s : ast) : Prop := {
  r_pending : forall p, a_pending s = Some p -> p < length (a_bodies s);
  r_wait : forall i x b, nth_error (a_tasks s) i = Some x -> x = AWaitPrev b \/ x = AWaitBody b \/ x = AWaitCancel b -> b < length (a_bodies s);
  r_task : forall i, nth_error (a_tasks s) i <> Some AFailed;
  r_body : forall b, nth_error (a_bodies s) b <> Some (BEnded BRaised)
}.
Lemma rinv_pc i x s : rinv s -> x <> AFailed -> (forall b, x = AWaitPrev b \/ x = AWaitBody b \/ x = AWaitCancel b -> b < length (a_bodies s)) -> rinv (set_pc i x s).
Proof.
  intros [R1 R2 R3 R4] N W. split; cbn; auto.
  - intros j y b E O. apply nth_error_put_iff in E. destruct E as [(_ & -> & _)|[_ E]]; [exact (W b O)|exact (R2 j y b E O)].
  - intros j E. apply nth_error_put_iff in E. destruct E as [(_ & E & _)|[_ E]]; [congruence|exact (R3 j E)].
Qed.
Lemma rinv_cleanup s : rinv s -> rinv (acleanup s).
Proof. intros R. unfold acleanup. destruct (a_clean s); [|exact R]. destruct R as [R1 R2 R3 R4]. split; assumption. Qed.
Lemma rinv_nopending s : rinv s -> rinv (set_pending None s).
Proof. intros [R1 R2 R3 R4]. split; try assumption. discriminate. Qed.
Lemma rinv_unpend b s : rinv s -> rinv (unpend b s).
Proof. intros R. unfold unpend. destruct (a_pending s) as [q|]; [|exact R]. destruct (Nat.eqb q b); [apply rinv_nopending|]; exact R. Qed.
Lemma rinv_store b e s : rinv s -> rinv (store b e s).
Proof. intros R. destruct e as [[|]| |]; try exact R; destruct R as [R1 R2 R3 R4]; split; assumption. Qed.
Lemma rinv_cancel sh b s : rinv s -> rinv (acancel sh b s).
Proof.
  intros R. unfold acancel. destruct sh; [exact R|]. destruct (nth_error (a_bodies s) b) as [[c|e]|]; try exact R. destruct R as [R1 R2 R3 R4]. split; cbn; rewrite ?put_length; auto.
  intros j E. apply nth_error_put_iff in E. destruct E as [(_ & E & _)|[_ E]]; [discriminate|exact (R4 j E)].
Qed.
Lemma rinv_begin i s : rinv s -> rinv (begin_body i s).
Proof.
  intros R. apply rinv_cleanup in R. unfold begin_body. destruct R as [R1 R2 R3 R4]. split; cbn; rewrite ?app_length; cbn.
  - intros p [= <-]. lia.
  - intros j y b E O. apply nth_error_put_iff in E. destruct E as [(_ & -> & _)|[_ E]]; [|specialize (R2 j y b E O); lia]. destruct O as [O|[[= <-]|O]]; try discriminate. lia.
  - intros j E. apply nth_error_put_iff in E. destruct E as [(_ & E & _)|[_ E]]; [discriminate|exact (R3 j E)].
  - intros b E. apply nth_error_app_cases in E. destruct E as [E|[E|[]]]; [exact (R4 b E)|discriminate].
Qed.
Lemma rinv_run sh i s : rinv s -> rinv (arun_task sh i s).
Proof.
  intros R. unfold arun_task. destruct (nth_error (a_tasks s) i) as [x|] eqn:T; [|exact R].
  assert (NR : forall b e, nth_error (a_bodies s) b = Some (BEnded e) -> e <> BRaised) by (intros b e E ->; exact (r_body _ R b E)).
  destruct x as [|p|b|b| | |]; try exact R.
  - destruct (a_pending s) as [p|] eqn:P; [|apply rinv_begin; exact R]. pose proof (rinv_cancel sh p s R) as R'. cbv zeta.
    assert (L : p < length (a_bodies (acancel sh p s))).
    { pose proof (r_pending _ R p P) as L. unfold acancel. destruct sh; [exact L|]. destruct (nth_error (a_bodies s) p) as [[c|e]|]; cbn; rewrite ?put_length; exact L. }
    assert (W : rinv (set_pc i (AWaitPrev p) (acancel sh p s))) by (apply rinv_pc; [exact R'|discriminate|intros b [[= <-]|[E|E]]; [exact L|discriminate|discriminate]]).
    destruct (nth_error (a_bodies (acancel sh p s)) p) as [[c|e]|] eqn:B; [exact W| |exact W].
    destruct e; cbn [after_prev]; try (apply rinv_begin, rinv_unpend; exact R'). destruct (r_body _ R' p B).
  - destruct (nth_error (a_bodies s) p) as [[c|e]|] eqn:B; try exact R. destruct e; cbn [after_prev]; try (apply rinv_begin, rinv_unpend; exact R). destruct (NR _ _ B eq_refl).
  - pose proof (r_wait _ R i _ b T (or_intror (or_introl eq_refl))) as L.
    assert (W : rinv (set_pc i (AWaitCancel b) (acancel sh b s))).
    { apply rinv_pc; [apply rinv_cancel; exact R|discriminate|]. intros c [E|[E|[= <-]]]; try discriminate. unfold acancel. destruct sh; [exact L|]. destruct (nth_error (a_bodies s) b) as [[?|?]|]; cbn; rewrite ?put_length; exact L. }
    destruct (nth_error (a_bodies s) b) as [[c|e]|] eqn:B; try (destruct (a_stop s); assumption). cbv zeta.
    destruct e; try (apply rinv_pc; [apply rinv_store, rinv_nopending; exact R|discriminate|intros c [E|[E|E]]; discriminate]). destruct (NR _ _ B eq_refl).
  - destruct (nth_error (a_bodies s) b) as [[c|e]|] eqn:B; try exact R.
    destruct e; try (apply rinv_pc; [apply rinv_cleanup, rinv_unpend, rinv_store; exact R|discriminate|intros c [E|[E|E]]; discriminate]). destruct (NR _ _ B eq_refl).
  - destruct (a_stop s); [|exact R]. apply rinv_pc; [apply rinv_cleanup; exact R|discriminate|intros c [E|[E|E]]; discriminate].
Qed.
Lemma rinv_ops sh ops : (forall b, ~ In (ABodyEnd b BRaised) ops) -> forall s, rinv s -> rinv (fold_left (astep sh) ops s).
Proof.
  induction ops as [|o ops IH]; intros N s R; [exact R|]. cbn [fold_left]. apply IH; [intros b I; apply (N b); right; exact I|]. destruct o as [|i|b e|]; cbn [astep].
  - destruct R as [R1 R2 R3 R4]. split; cbn; auto.
    + intros j y b E O. apply nth_error_app_cases in E. destruct E as [E|[<-|[]]]; [exact (R2 j y b E O)|]. destruct O as [O|[O|O]]; discriminate.
    + intros j E. apply nth_error_app_cases in E. destruct E as [E|[E|[]]]; [exact (R3 j E)|discriminate].
  - apply rinv_run. exact R.
  - unfold abody_end. destruct (nth_error (a_bodies s) b) as [[c|x]|] eqn:B; try exact R. destruct R as [R1 R2 R3 R4].
    assert (G : e <> BRaised -> rinv (Ast (a_tasks s) (put (a_bodies s) b (BEnded e)) (a_pending s) (a_clean s) (a_stop s) (a_log s ++ [Ended b e]))).
    { intros D. split; cbn; rewrite ?put_length; auto. intros j E. apply nth_error_put_iff in E. destruct E as [(_ & E & _)|[_ E]]; [congruence|exact (R4 j E)]. }
    destruct e; [apply G; discriminate| |destruct (N b); left; reflexivity]. destruct c; [apply G; discriminate|split; assumption].
  - destruct R as [R1 R2 R3 R4]. split; assumption.
Qed.

(** What is known of the bodies from the log. *)
Record jinv (s : ast) : Prop := {
  j_began : forall b, b < length (a_bodies s) -> In (Began b) (a_log s);
  j_running : forall b c e, nth_error (a_bodies s) b = Some (BRunning c) -> ~ In (Ended b e) (a_log s);
  j_fresh : forall b e, length (a_bodies s) <= b -> ~ In (Ended b e) (a_log s)
}.
Lemma jinv_same s s' : a_bodies s' = a_bodies s -> a_log s' = a_log s -> jinv s -> jinv s'.
Proof. intros E1 E2 [J1 J2 J3]. split; rewrite ?E1, ?E2; assumption. Qed.
Lemma jinv_cleanup s : jinv s -> jinv (acleanup s).
Proof.
  intros J. unfold acleanup. destruct (a_clean s); [|exact J]. destruct J as [J1 J2 J3]. split; cbn.
  - intros b L. apply in_app_iff. left. exact (J1 b L).
  - intros b c e E I. apply in_app_iff in I. destruct I as [I|[I|[]]]; [exact (J2 b c e E I)|discriminate].
  - intros b e L I. apply in_app_iff in I. destruct I as [I|[I|[]]]; [exact (J3 b e L I)|discriminate].
Qed.
Lemma jinv_unpend b s : jinv s -> jinv (unpend b s).
Proof. apply jinv_same; unfold unpend; destruct (a_pending s) as [q|]; try (destruct (Nat.eqb q b)); reflexivity. Qed.
Lemma jinv_store b e s : jinv s -> jinv (store b e s).
Proof. apply jinv_same; destruct e as [[|]| |]; reflexivity. Qed.
Lemma jinv_cancel sh b s : jinv s -> jinv (acancel sh b s).
Proof.
  intros J. unfold acancel. destruct sh; [exact J|]. destruct (nth_error (a_bodies s) b) as [[c|e]|] eqn:B; try exact J. destruct J as [J1 J2 J3]. split; cbn; rewrite ?put_length; auto.
  intros j d e E. apply nth_error_put_iff in E. destruct E as [(-> & _)|[_ E]]; [exact (J2 b c e B)|exact (J2 j d e E)].
Qed.
Lemma jinv_begin i s : jinv s -> jinv (begin_body i s).
Proof.
  intros J. apply jinv_cleanup in J. unfold begin_body. destruct J as [J1 J2 J3]. split; cbn; rewrite ?app_length; cbn.
  - intros b L. apply in_app_iff. destruct (Nat.eq_dec b (length (a_bodies (acleanup s)))) as [->|N]; [right; left; reflexivity|left; apply J1; lia].
  - intros b c e E I. apply in_app_iff in I. destruct I as [I|[I|[]]]; [|discriminate]. apply nth_error_app_cases in E as E'.
    destruct (Nat.lt_ge_cases b (length (a_bodies (acleanup s)))) as [L|L]; [rewrite nth_error_app1 in E by exact L; exact (J2 b c e E I)|exact (J3 b e L I)].
  - intros b e L I. apply in_app_iff in I. destruct I as [I|[I|[]]]; [apply (J3 b e); [lia|exact I]|discriminate].
Qed.
Lemma jinv_after i p e s : jinv s -> jinv (after_prev i p e s).
Proof. intros J. destruct e; cbn [after_prev]; try (apply jinv_begin, jinv_unpend; exact J). (apply (jinv_same s); [reflexivity|reflexivity|exact J]). Qed.
Lemma jinv_step sh s o : jinv s -> jinv (astep sh s o).
Proof.
  intros J. destruct o as [|i|b e|]; cbn [astep]; try (apply (jinv_same s); [reflexivity|reflexivity|exact J]).
  - assert (P : forall x s', jinv s' -> jinv (set_pc i x s')) by (intros x s' J'; (apply (jinv_same s'); [reflexivity|reflexivity|exact J'])).
    assert (Q : jinv (set_pending None s)) by (apply (jinv_same s); [reflexivity|reflexivity|exact J]).
    unfold arun_task. destruct (nth_error (a_tasks s) i) as [[|p|b|b| | |]|]; try exact J.
    + destruct (a_pending s) as [p|]; [|apply jinv_begin; exact J]. cbv zeta. pose proof (jinv_cancel sh p s J) as J'.
      destruct (nth_error (a_bodies (acancel sh p s)) p) as [[c|e]|]; [apply P; exact J'|apply jinv_after; exact J'|apply P; exact J'].
    + destruct (nth_error (a_bodies s) p) as [[c|e]|]; try exact J. apply jinv_after. exact J.
    + destruct (nth_error (a_bodies s) b) as [[c|e]|]; try (destruct (a_stop s); [apply P, jinv_cancel|]; exact J). cbv zeta. destruct e; apply P; try apply jinv_store; exact Q.
    + destruct (nth_error (a_bodies s) b) as [[c|e]|]; try exact J. destruct e; apply P; try (apply jinv_cleanup, jinv_unpend, jinv_store); exact J.
    + destruct (a_stop s); [apply P, jinv_cleanup|]; exact J.
  - unfold abody_end. destruct (nth_error (a_bodies s) b) as [[c|x]|] eqn:B; try exact J. destruct J as [J1 J2 J3].
    assert (G : jinv (Ast (a_tasks s) (put (a_bodies s) b (BEnded e)) (a_pending s) (a_clean s) (a_stop s) (a_log s ++ [Ended b e]))).
    { split; cbn; rewrite ?put_length.
      - intros j L. apply in_app_iff. left. exact (J1 j L).
      - intros j d f E I. apply nth_error_put_iff in E. destruct E as [(_ & E & _)|[N E]]; [discriminate|]. apply in_app_iff in I. destruct I as [I|[[= -> _]|[]]]; [exact (J2 j d f E I)|destruct (N eq_refl)].
      - intros j f L I. apply in_app_iff in I. destruct I as [I|[[= -> _]|[]]]; [exact (J3 j f L I)|]. assert (j < length (a_bodies s)) by (apply nth_error_Some; congruence). lia. }
    destruct e; [exact G| |exact G]. destruct c; [exact G|split; assumption].
Qed.
Lemma jinv_ops sh ops : forall s, jinv s -> jinv (fold_left (astep sh) ops s).
Proof. induction ops as [|o ops IH]; intros s J; [exact J|]. apply IH, jinv_step, J. Qed.

Lemma stop_step sh s o : a_stop s = true -> a_stop (astep sh s o) = true.
Proof.
  assert (B : forall i s', a_stop s' = true -> a_stop (begin_body i s') = true) by (intros i s' E; unfold begin_body, acleanup; destruct (a_clean s'); exact E).
  assert (U : forall b s', a_stop (unpend b s') = a_stop s') by (intros b s'; unfold unpend; destruct (a_pending s') as [q|]; [destruct (Nat.eqb q b)|]; reflexivity).
  assert (C : forall p s', a_stop (acancel sh p s') = a_stop s') by (intros p s'; unfold acancel; destruct sh; [reflexivity|]; destruct (nth_error (a_bodies s') p) as [[?|?]|]; reflexivity).
  assert (D : forall s', a_stop (acleanup s') = a_stop s') by (intros s'; unfold acleanup; destruct (a_clean s'); reflexivity).
  assert (F : forall b e s', a_stop (store b e s') = a_stop s') by (intros b e s'; destruct e as [[|]| |]; reflexivity).
  assert (A : forall i p e s', a_stop s' = true -> a_stop (after_prev i p e s') = true) by (intros i p e s' E; destruct e; cbn [after_prev]; try (apply B; rewrite U); exact E).
  intros E. destruct o as [|i|b e|]; cbn [astep]; try exact E; try reflexivity.
  - unfold arun_task. destruct (nth_error (a_tasks s) i) as [[|p|b|b| | |]|]; try exact E.
    + destruct (a_pending s) as [p|]; [|apply B; exact E]. cbv zeta. destruct (nth_error (a_bodies (acancel sh p s)) p) as [[c|e]|]; [cbn; rewrite C; exact E|apply A; rewrite C; exact E|cbn; rewrite C; exact E].
    + destruct (nth_error (a_bodies s) p) as [[c|e]|]; try exact E. apply A. exact E.
    + rewrite E. destruct (nth_error (a_bodies s) b) as [[c|e]|]; try (cbn; rewrite C; exact E). cbv zeta. destruct e; cbn [set_pc a_stop]; rewrite ?F; exact E.
    + destruct (nth_error (a_bodies s) b) as [[c|e]|]; try exact E. destruct e; cbn [set_pc a_stop]; rewrite ?D, ?U, ?F; exact E.
    + rewrite E. cbn. rewrite D. exact E.
  - unfold abody_end. destruct (nth_error (a_bodies s) b) as [[c|x]|]; try exact E. destruct e; try exact E. destruct c; exact E.
Qed.
Lemma stop_ops sh ops : forall s, In AUnmount ops \/ a_stop s = true -> a_stop (fold_left (astep sh) ops s) = true.
Proof.
  induction ops as [|o ops IH]; intros s I; [destruct I as [[]|E]; exact E|]. cbn [fold_left]. apply IH. destruct I as [[->|I]|E]; [right; reflexivity|left; exact I|right; apply stop_step; exact E].
Qed.

Lemma find_task l : (forall i x, nth_error l i = Some x -> x = ADone) \/ exists i x, nth_error l i = Some x /\ x <> ADone.
Proof.
  induction l as [|a l IH]; [left; intros [|i]; discriminate|]. assert (D : a = ADone \/ a <> ADone) by (destruct a; (left; reflexivity) || (right; discriminate)).
  destruct D as [->|N]; [|right; exists 0, a; split; [reflexivity|exact N]]. destruct IH as [IH|(i & x & E & N)]; [left|right; exists (S i), x; split; assumption].
  intros [|i] x E; [injection E as <-; reflexivity|exact (IH i x E)].
Qed.
Lemma find_body l : (forall b x, nth_error l b = Some x -> exists e, x = BEnded e) \/ exists b c, nth_error l b = Some (BRunning c).
Proof.
  induction l as [|[c|e] l IH]; [left; intros [|b]; discriminate|right; exists 0, c; reflexivity|]. destruct IH as [IH|(b & c & E)]; [left|right; exists (S b), c; exact E].
  intros [|b] x E; [injection E as <-; exists e; reflexivity|exact (IH b x E)].
Qed.

(** In every schedule in which no body raises, shielded or not: once the component is gone every step of an effect or end of a body that
    changes anything leaves less to do, and as long as not all effects have returned there is such a step: one of an effect's task, or
    the end of a body that still runs. So all effects return when the bodies do. *)
Theorem C23_ends : forall shield ops, (forall b, ~ In (ABodyEnd b BRaised) ops) -> In AUnmount ops ->
  let s := arun shield ops in
  (forall o, o <> ASpawn -> astep shield s o = s \/ left_to_do (astep shield s o) < left_to_do s) /\
  (~ all_done s -> exists o, left_to_do (astep shield s o) < left_to_do s /\
    ((exists i, o = ARunTask i) \/ exists b, o = ABodyEnd b (BReturned false) /\ In (Began b) (a_log s) /\ forall e, ~ In (Ended b e) (a_log s))).
Proof.
  intros sh ops N U s. assert (RI : rinv ainit) by (split; cbn; try discriminate; intros [|i]; discriminate).
  assert (JI : jinv ainit) by (split; cbn; [intros b L; lia|intros [|b]; discriminate|intros b e _ []]).
  pose proof (rinv_ops sh ops N ainit RI) as R. pose proof (jinv_ops sh ops ainit JI) as J. pose proof (stop_ops sh ops ainit (or_introl U)) as E.
  fold (arun sh ops) in R, J, E. fold s in R, J, E. clearbody s. split.
  - intros [|i|b e|] D; cbn [astep]; [destruct (D eq_refl)|apply run_less|apply end_less|left]. destruct s as [a1 a2 a3 a4 a5 a6]. cbn in E. subst a5. reflexivity.
  - intros ND. destruct (find_body (a_bodies s)) as [AE|(b & c & B)].
    + destruct (find_task (a_tasks s)) as [D|(i & x & T & NX)]; [destruct ND; split; assumption|]. exists (ARunTask i). split; [|left; exists i; reflexivity].
      cbn [astep]. assert (RF : alike s s) by (split; reflexivity).
      assert (W : forall b, b < length (a_bodies s) -> exists e, nth_error (a_bodies s) b = Some (BEnded e)).
      { intros b L. destruct (nth_error (a_bodies s) b) as [y|] eqn:Y; [|apply nth_error_None in Y; lia]. destruct (AE b y Y) as [e ->]. exists e. reflexivity. }
      destruct (run_less sh i s) as [Z|Z]; [exfalso|exact Z]. apply (f_equal left_to_do) in Z. revert Z. apply Nat.lt_neq. unfold arun_task. rewrite T.
      destruct x as [|p|b|b| | |].
      * destruct (a_pending s) as [p|]; [|eapply left_begin; [exact RF|exact T|cbn; lia]]. cbv zeta. pose proof (alike_cancel sh p s) as A.
        destruct (nth_error (a_bodies (acancel sh p s)) p) as [[c|e]|]; [eapply left_pc; [exact A|exact T|cbn; lia]|eapply left_after; [exact A|exact T|cbn; lia]|eapply left_pc; [exact A|exact T|cbn; lia]].
      * destruct (W p (r_wait _ R i _ p T (or_introl eq_refl))) as [e ->]. eapply left_after; [exact RF|exact T|cbn; lia].
      * destruct (W b (r_wait _ R i _ b T (or_intror (or_introl eq_refl)))) as [e ->]. cbv zeta. assert (NP : alike s (set_pending None s)) by (split; reflexivity).
        destruct e; (eapply left_pc; [|exact T|cbn; lia]); try exact NP; eapply alike_trans; [exact NP|apply alike_store].
      * destruct (W b (r_wait _ R i _ b T (or_intror (or_intror eq_refl)))) as [e ->].
        destruct e; (eapply left_pc; [|exact T|cbn; lia]); try exact RF; (eapply alike_trans; [eapply alike_trans; [apply alike_store|apply alike_unpend]|apply alike_cleanup]).
      * rewrite E. eapply left_pc; [apply alike_cleanup|exact T|cbn; lia].
      * destruct (NX eq_refl).
      * destruct (r_task _ R i T).
    + exists (ABodyEnd b (BReturned false)). split.
      * cbn [astep]. unfold abody_end. rewrite B. unfold left_to_do. cbn [a_tasks a_bodies]. pose proof (sum_put busy (a_bodies s) b (BEnded (BReturned false)) (BRunning c) B) as Z. cbn [busy] in Z. lia.
      * right. exists b. split; [reflexivity|]. split; [apply (j_began _ J); apply nth_error_Some; congruence|]. intros e. exact (j_running _ J b c e B).
Qed.

(** The first theorem's case: two effects, the first of which is interrupted and the second left to run; then the component goes, and the
    body that runs is what is waited for. *)
Example C23_kept_example : let ops := [ASpawn; ARunTask 0; ABodyEnd 0 (BReturned true); ARunTask 0; ASpawn; ARunTask 1; ASpawn; ARunTask 2; ABodyEnd 1 BCancelled; ARunTask 2] in
  a_log (arun false ops) = [Began 0; Ended 0 (BReturned true); ACleaned 0; Began 1; Ended 1 BCancelled; Began 2] /\ effects ops = 3 /\ ~ In AUnmount ops.
Proof. split; [reflexivity|]. split; [reflexivity|]. cbn. intuition discriminate. Qed.
Example C23_ends_example : let ops := [ASpawn; ARunTask 0; AUnmount; ARunTask 0] in
  left_to_do (arun false ops) = 2 /\ left_to_do (arun false (ops ++ [ABodyEnd 0 BCancelled; ARunTask 0])) = 0 /\ all_done (arun false (ops ++ [ABodyEnd 0 BCancelled; ARunTask 0])).
Proof. split; [reflexivity|]. split; [reflexivity|]. split; [reflexivity|]. intros [|[|i]] x; cbn; congruence. Qed.

Print Assumptions C23_kept.
Print Assumptions C23_ends.
