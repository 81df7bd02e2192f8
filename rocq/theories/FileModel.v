(** * Model of writing web module files (/repo/src/reactpy/reactjs/utils.py, module.py) and properties C53, C54 *)
From Coq Require Import String Ascii ZArith Bool Arith Lia List.
From Verif Require Import Dict Strings EffectModel EffectProps.
Import ListNotations.
Local Open Scope string_scope. Local Open Scope list_scope.

(** ** C53 *)

(** The files of a directory by name; the steps that the operating system makes one at a time. A process may be killed
    between any two of them, and another one may read between any two of them. *)
Definition fs := dict string string.
Inductive io := Truncate (p : string) | Append (p c : string) | Rename (a b : string) | Unlink (p : string).
Definition step (d : fs) (x : io) : fs :=
  match x with
  | Truncate p => dset p "" d
  | Append p c => dset p ((match dget p d with Some s => s | None => "" end) ++ c)%string d
  | Rename a b => match dget a d with Some s => dset b s (ddel a d) | None => d end
  | Unlink p => ddel p d
  end.
Definition steps (d : fs) (l : list io) : fs := fold_left step l d.
(** Writing a file: opening truncates it, the content arrives in chunks ([shutil.copy], [write_text]). *)
Definition write (p : string) (chunks : list string) : list io := Truncate p :: map (Append p) chunks.
Definition whole (chunks : list string) : string := String.concat "" chunks.
(** [copy_file] without symlink, utils.py:173-176: copy to a temporary file, then replace. Simplified: the directory exists (line 161 makes it);
    [with_suffix] appends ".tmp" to the name; a retry of a failed replace (180-182) changes nothing before it succeeds. *)
Definition copy_file (target : string) (chunks : list string) : list io :=
  let tmp := (target ++ ".tmp")%string in write tmp chunks ++ [Rename tmp target].
(** Lines 183-188: both attempts to replace fail. *)
Definition copy_file_fallback (target : string) (chunks : list string) : list io :=
  let tmp := (target ++ ".tmp")%string in write tmp chunks ++ [Unlink target; Rename tmp target].
(** Lines 162-171: an existing target is removed before the symbolic link is made; the link shows the source's content.
    Simplified: a link is modelled by the content it shows at that moment. *)
Definition copy_file_symlink (target source : string) (d : fs) : list io :=
  (if dmem target d then [Unlink target] else []) ++ [Append target (match dget source d with Some s => s | None => "" end)].
(** [string_to_module], /repo/src/reactpy/reactjs/module.py:97-105. *)
Definition string_to_module (target : string) (chunks : list string) (d : fs) : list io :=
  (match dget target d with Some old => if String.eqb old (whole chunks) then [] else [Unlink target] | None => [] end) ++ write target chunks.

Lemma write_progress p chunks d k : dget p (steps d (firstn (S k) (write p chunks))) = Some (whole (firstn k chunks)) /\ forall q, q <> p -> dget q (steps d (firstn (S k) (write p chunks))) = dget q d.
Proof.
  unfold write, whole. cbn [firstn]. unfold steps. cbn [fold_left step]. rewrite firstn_map.
  assert (G : forall l acc e, dget p e = Some acc -> dget p (fold_left step (map (Append p) l) e) = Some (acc ++ String.concat "" l)%string /\ forall q, q <> p -> dget q (fold_left step (map (Append p) l) e) = dget q e).
  { induction l as [|c l IH]; intros acc e E; cbn [map fold_left]; [cbn; rewrite app_nil_s; auto|]. destruct (IH (acc ++ c)%string (step e (Append p c))) as [A B].
    - cbn [step]. rewrite E. apply dget_dset_same.
    - split.
      + rewrite A. f_equal. rewrite app_assoc_s. f_equal. cbn [String.concat]. destruct l; [cbn; rewrite app_nil_s; auto|reflexivity].
      + intros q Q. rewrite (B q Q). cbn [step]. apply dget_dset_other. auto. }
  destruct (G (firstn k chunks) "" (dset p "" d)) as [A B]; [apply dget_dset_same|]. split; [exact A|]. intros q Q. rewrite (B q Q). apply dget_dset_other. auto.
Qed.
Lemma tmp_other target : target <> (target ++ ".tmp")%string.
Proof. intros E. apply (f_equal String.length) in E. rewrite app_len in E. simpl in E. lia. Qed.
(** At every moment the target has its old content or the complete new content; at the end the new one. *)
Theorem C53_atomic target chunks d k :
  let d' := steps d (firstn k (copy_file target chunks)) in
  (dget target d' = dget target d \/ dget target d' = Some (whole chunks)) /\
  (length (copy_file target chunks) <= k -> dget target d' = Some (whole chunks)).
Proof.
  cbv zeta. unfold copy_file. set (tmp := (target ++ ".tmp")%string). assert (NT : target <> tmp) by apply tmp_other. set (w := write tmp chunks).
  assert (LW : length w = S (length chunks)) by (unfold w, write; cbn; rewrite map_length; auto). rewrite app_length. cbn [length].
  destruct (Nat.le_gt_cases k (length w)) as [L|L].
  - split; [|intros X; lia]. left. rewrite firstn_app. replace (k - length w) with 0 by lia. cbn [firstn]. rewrite app_nil_r. destruct k as [|k]; [reflexivity|]. apply (write_progress tmp chunks d k). auto.
  - assert (E : dget target (steps d (firstn k (w ++ [Rename tmp target]))) = Some (whole chunks)); [|auto]. rewrite firstn_all2 by (rewrite app_length; change (length [Rename tmp target]) with 1; lia).
    unfold steps. rewrite fold_left_app. cbn [fold_left step]. destruct (write_progress tmp chunks d (length chunks)) as [A _]. fold w in A. rewrite firstn_all2 in A by lia. rewrite firstn_all in A. unfold steps in A. rewrite A. apply dget_dset_same.
Qed.
(** No other file but the temporary one is touched. *)
Theorem C53_others target chunks d k q : q <> target -> q <> (target ++ ".tmp")%string -> dget q (steps d (firstn k (copy_file target chunks))) = dget q d.
Proof.
  intros N1 N2. unfold copy_file. set (tmp := (target ++ ".tmp")%string) in *.
  assert (G : forall l e, Forall (fun x => match x with Truncate p | Append p _ | Unlink p => p = tmp | Rename a b => a = tmp /\ b = target end) l -> dget q (steps e l) = dget q e).
  { induction l as [|x l IH]; intros e F; [reflexivity|]. inversion F; subst. unfold steps in *. cbn [fold_left]. rewrite IH by auto. destruct x; cbn [step]; subst.
    - apply dget_dset_other. auto.
    - apply dget_dset_other. auto.
    - destruct H1 as [-> ->]. destruct (dget tmp e); auto. rewrite dget_dset_other by auto. apply dget_ddel_other. auto.
    - apply dget_ddel_other. auto. }
  apply G. apply Forall_forall. intros x I. assert (I' : In x (write tmp chunks ++ [Rename tmp target])) by (rewrite <- (firstn_skipn k); apply in_or_app; auto). clear I. rename I' into I. apply in_app_or in I. destruct I as [I|[<-|[]]]; auto. unfold write in I. destruct I as [<-|I]; auto. apply in_map_iff in I. destruct I as (c & <- & _). auto.
Qed.

Example C53_example : let d := [("m.js", "old")] in let l := copy_file "m.js" ["ne"; "w"] in
  map (fun k => dget "m.js" (steps d (firstn k l))) [0; 1; 2; 3; 4] = [Some "old"; Some "old"; Some "old"; Some "old"; Some "new"].
Proof. reflexivity. Qed.
(** Finding: while [string_to_module] runs, the file is missing, empty or incomplete, even if its content does not change. *)
Theorem C53_string_refuted : let d := [("m.js", "old")] in let l := string_to_module "m.js" ["ne"; "w"] d in
  map (fun k => dget "m.js" (steps d (firstn k l))) [0; 1; 2; 3; 4] = [Some "old"; None; Some ""; Some "ne"; Some "new"].
Proof. reflexivity. Qed.
Theorem C53_string_same_refuted : let d := [("m.js", "old")] in let l := string_to_module "m.js" ["old"] d in dget "m.js" (steps d (firstn 1 l)) = Some "".
Proof. reflexivity. Qed.
(** It does end with the new content. *)
Theorem C53_string_end target chunks d : dget target (steps d (string_to_module target chunks d)) = Some (whole chunks).
Proof.
  unfold string_to_module, steps. rewrite fold_left_app. set (e := fold_left step _ d). assert (W := proj1 (write_progress target chunks e (length chunks))).
  rewrite firstn_all2 in W by (unfold write; cbn; rewrite map_length; lia). rewrite firstn_all in W. exact W.
Qed.
(** Findings: the fallback and the symbolic link are not atomic. *)
Theorem C53_fallback_refuted : let d := [("m.js", "old")] in dget "m.js" (steps d (firstn 3 (copy_file_fallback "m.js" ["new"]))) = None.
Proof. reflexivity. Qed.
Theorem C53_symlink_refuted : let d := [("m.js", "old"); ("src.js", "new")] in dget "m.js" (steps d (firstn 1 (copy_file_symlink "m.js" "src.js" d))) = None.
Proof. reflexivity. Qed.

(** Still, both never show an incomplete file. With the fallback, while the target is missing the temporary file has the
    complete new content, so that nothing is lost. *)
Theorem C53_fallback target chunks d k :
  let d' := steps d (firstn k (copy_file_fallback target chunks)) in
  (dget target d' = dget target d \/ dget target d' = Some (whole chunks) \/ (dget target d' = None /\ dget (target ++ ".tmp")%string d' = Some (whole chunks))) /\
  (length (copy_file_fallback target chunks) <= k -> dget target d' = Some (whole chunks)).
Proof.
  cbv zeta. unfold copy_file_fallback. set (tmp := (target ++ ".tmp")%string). assert (NT : target <> tmp) by apply tmp_other. set (w := write tmp chunks).
  assert (LW : length w = S (length chunks)) by (unfold w, write; cbn; rewrite map_length; auto). rewrite app_length. cbn [length].
  destruct (write_progress tmp chunks d (length chunks)) as [A B]. fold w in A, B. rewrite firstn_all2 in A, B by lia. rewrite firstn_all in A. unfold steps in A, B |- *.
  destruct (Nat.le_gt_cases k (length w)) as [L|L].
  - split; [|intros X; lia]. left. rewrite firstn_app. replace (k - length w) with 0 by lia. cbn [firstn]. rewrite app_nil_r. destruct k as [|k]; [reflexivity|]. apply (write_progress tmp chunks d k). auto.
  - rewrite firstn_app, firstn_all2 by lia. rewrite fold_left_app. destruct (k - length w) as [|[|n]] eqn:K; [lia| |].
    + split; [|intros X; lia]. right. right. cbn [firstn fold_left step]. split; [apply dget_ddel_same|]. rewrite dget_ddel_other by auto. exact A.
    + assert (E : dget target (fold_left step (firstn (S (S n)) [Unlink target; Rename tmp target]) (fold_left step w d)) = Some (whole chunks)); [|auto].
      rewrite firstn_all2 by (cbn; lia). cbn [fold_left step]. rewrite dget_ddel_other by auto. rewrite A. apply dget_dset_same.
Qed.
(** The link replaces the target: at every moment the old file, nothing or the source is shown, and at the end the source, which is kept. *)
Theorem C53_symlink target source d text k : source <> target -> dget source d = Some text ->
  let d' := steps d (firstn k (copy_file_symlink target source d)) in
  (dget target d' = dget target d \/ dget target d' = None \/ dget target d' = Some text) /\ dget source d' = Some text /\
  (length (copy_file_symlink target source d) <= k -> dget target d' = Some text).
Proof.
  intros N S. cbv zeta. unfold copy_file_symlink, steps. rewrite S. destruct (dmem target d) eqn:M; cbn [app].
  - destruct k as [|[|k]]; cbn [firstn fold_left step length].
    + split; [auto|]. split; [exact S|lia].
    + split; [right; left; apply dget_ddel_same|]. split; [rewrite dget_ddel_other by auto; exact S|lia].
    + rewrite firstn_nil. cbn [fold_left]. rewrite dget_ddel_same, dget_dset_same. split; [auto|]. split; [rewrite dget_dset_other, dget_ddel_other by auto; exact S|auto].
  - apply dmem_false in M. destruct k as [|k]; cbn [firstn fold_left step length].
    + split; [auto|]. split; [exact S|lia].
    + rewrite firstn_nil. cbn [fold_left]. rewrite M, dget_dset_same. split; [auto|]. split; [rewrite dget_dset_other by auto; exact S|auto].
Qed.
Example C53_replaced : let d := [("m.js", "old"); ("src.js", "new")] in
  map (fun k => dget "m.js" (steps d (firstn k (copy_file_fallback "m.js" ["ne"; "w"])))) [0; 3; 4; 5] = [Some "old"; Some "old"; None; Some "new"] /\
  map (fun k => dget "m.js" (steps d (firstn k (copy_file_symlink "m.js" "src.js" d)))) [0; 1; 2] = [Some "old"; None; Some "new"].
Proof. split; reflexivity. Qed.
Print Assumptions C53_fallback.
Print Assumptions C53_symlink.

(** ** C54 *)

(** A process in [file_lock], utils.py:202-218: not yet there, waiting since a time, inside the [with] block, out of it,
    given up with [TimeoutError], or killed (inside the block or not). *)
Inductive proc := Idle | Waiting (start : Z) | Inside | Left | TimedOut (start now : Z) | Dead (inside : bool).
Record lock := Lock { l_file : bool; l_dir : bool; l_now : Z; l_procs : list proc }.
(** [Enter i]: the call; [Try i]: one round of the loop; [Leave i]: the end of the block, by an exception or not;
    [Kill i]; [Tick n]: time passes. [l_dir]: the directory of the lock file exists, else [os.open]
    fails as well. Simplified: nobody makes or removes the directory or the lock file otherwise, and the [os.unlink] of line 218
    succeeds; being killed between [os.open] and [yield] counts as killed inside. *)
Inductive act := Enter (i : nat) | Try (i : nat) | Leave (i : nat) | Kill (i : nat) | Tick (n : Z).
Definition with_proc (i : nat) (p : proc) (file : bool) (s : lock) : lock := Lock file (l_dir s) (l_now s) (put (l_procs s) i p).
Definition lstep (timeout : Z) (s : lock) (a : act) : lock :=
  match a with
  | Enter i => match nth_error (l_procs s) i with Some Idle => with_proc i (Waiting (l_now s)) (l_file s) s | _ => s end
  | Try i => match nth_error (l_procs s) i with
             | Some (Waiting t0) => if l_dir s && negb (l_file s) then with_proc i Inside true s
                                    else if Z.ltb timeout (l_now s - t0) then with_proc i (TimedOut t0 (l_now s)) (l_file s) s else s
             | _ => s
             end
  | Leave i => match nth_error (l_procs s) i with Some Inside => with_proc i Left false s | _ => s end
  | Kill i => match nth_error (l_procs s) i with
              | Some (Idle | Waiting _) => with_proc i (Dead false) (l_file s) s
              | Some Inside => with_proc i (Dead true) (l_file s) s
              | _ => s
              end
  | Tick n => Lock (l_file s) (l_dir s) (l_now s + Z.max 0 n) (l_procs s)
  end.
Definition lrun (timeout : Z) (dir : bool) (n : nat) (l : list act) : lock := fold_left (lstep timeout) l (Lock false dir 0 (repeat Idle n)).

Definition owner (p : proc) : Prop := p = Inside \/ p = Dead true.
(** The lock file exists iff exactly one process is inside or was killed inside. *)
Record linv (timeout : Z) (s : lock) : Prop := {
  li_one : forall i j p q, nth_error (l_procs s) i = Some p -> nth_error (l_procs s) j = Some q -> owner p -> owner q -> i = j;
  li_file : l_file s = true <-> exists i p, nth_error (l_procs s) i = Some p /\ owner p;
  li_time : forall i a b, nth_error (l_procs s) i = Some (TimedOut a b) -> (timeout < b - a)%Z
}.
Lemma put_cases {A} (l : list A) i x j y : nth_error (put l i x) j = Some y -> (j = i /\ y = x) \/ nth_error l j = Some y.
Proof. intros H. apply nth_error_put_iff in H. destruct H as [(-> & -> & _)|[_ H]]; auto. Qed.
Lemma lstep_inv timeout s a : linv timeout s -> linv timeout (lstep timeout s a).
Proof.
  intros V. assert (V' := V). destruct V' as [ONE FILE TIME].
  assert (KEEP : forall i p p', nth_error (l_procs s) i = Some p -> (owner p <-> owner p') -> (forall a b, p' = TimedOut a b -> (timeout < b - a)%Z) -> linv timeout (with_proc i p' (l_file s) s)).
  { intros i p p' H O T. assert (L : i < length (l_procs s)) by (apply nth_error_Some; congruence). split; cbn [with_proc l_procs l_file].
    - intros j k x y HJ HK OX OY. apply put_cases in HJ, HK. destruct HJ as [[-> ->]|HJ], HK as [[-> ->]|HK]; auto.
      + apply (ONE i k p y); auto. apply O; auto.
      + apply (ONE j i x p); auto. apply O; auto.
      + apply (ONE j k x y); auto.
    - rewrite FILE. split; intros (j & x & HJ & OX).
      + destruct (Nat.eq_dec i j) as [<-|N].
        * exists i, p'. rewrite put_same by auto. split; auto. apply O. rewrite H in HJ. injection HJ as ->. auto.
        * exists j, x. rewrite put_other by auto. auto.
      + apply put_cases in HJ. destruct HJ as [[-> ->]|HJ]; [exists i, p; split; auto; apply O; auto|eauto].
    - intros j x y HJ. apply put_cases in HJ. destruct HJ as [[-> E]|HJ]; eauto. }
  assert (NO : forall p, match p with Inside | Dead true => False | _ => True end -> ~ owner p) by (intros p M [-> | ->]; destruct M).
  destruct a as [i|i|i|i|n]; cbn [lstep].
  - destruct (nth_error (l_procs s) i) as [[]|] eqn:H; auto. apply (KEEP i Idle); auto; [|discriminate]. split; intros X; apply NO in X; auto; contradiction.
  - destruct (nth_error (l_procs s) i) as [[| t0 | | | |]|] eqn:H; auto. destruct (l_dir s && negb (l_file s)) eqn:F.
    + assert (FF : l_file s = false) by (apply andb_true_iff in F; destruct F as [_ F]; apply negb_true_iff in F; auto). assert (L : i < length (l_procs s)) by (apply nth_error_Some; congruence).
      assert (NONE : forall j p, nth_error (l_procs s) j = Some p -> ~ owner p) by (intros j p HJ O; assert (X : l_file s = true) by (apply FILE; eauto); congruence).
      split; cbn [with_proc l_procs l_file].
      * intros j k x y HJ HK OX OY. apply put_cases in HJ, HK. destruct HJ as [[-> ->]|HJ], HK as [[-> ->]|HK]; auto; exfalso; eapply NONE; eauto.
      * split; auto. intros _. exists i, Inside. rewrite put_same by auto. split; auto. left; auto.
      * intros j x y HJ. apply put_cases in HJ. destruct HJ as [[_ E]|HJ]; [discriminate|eauto].
    + destruct (Z.ltb_spec timeout (l_now s - t0)); auto. apply (KEEP i (Waiting t0)); auto.
      * split; intros X; apply NO in X; auto; contradiction.
      * intros a b E. injection E as <- <-. auto.
  - destruct (nth_error (l_procs s) i) as [[]|] eqn:H; auto. assert (L : i < length (l_procs s)) by (apply nth_error_Some; congruence).
    split; cbn [with_proc l_procs l_file].
    + intros j k x y HJ HK OX OY. apply put_cases in HJ, HK. destruct HJ as [[-> ->]|HJ], HK as [[-> ->]|HK]; auto.
      * exfalso. eapply NO; [|exact OX]; exact I.
      * exfalso. eapply NO; [|exact OY]; exact I.
      * apply (ONE j k x y); auto.
    + split; [discriminate|]. intros (j & x & HJ & OX). apply nth_error_put_iff in HJ. destruct HJ as [(-> & -> & _)|[N HJ]].
      * exfalso. eapply NO; [|exact OX]; exact I.
      * exfalso. apply N. apply (ONE j i x Inside); auto. left; auto.
    + intros j x y HJ. apply put_cases in HJ. destruct HJ as [[_ E]|HJ]; [discriminate|eauto].
  - destruct (nth_error (l_procs s) i) as [[]|] eqn:H; auto.
    + apply (KEEP i Idle); auto; [|discriminate]. split; intros X; apply NO in X; auto; contradiction.
    + apply (KEEP i (Waiting start)); auto; [|discriminate]. split; intros X; apply NO in X; auto; contradiction.
    + apply (KEEP i Inside); auto; [|discriminate]. split; intros _; [right|left]; auto.
  - split; auto.
Qed.
Lemma lrun_inv timeout dir n l : linv timeout (lrun timeout dir n l).
Proof.
  unfold lrun. assert (G : forall l s, linv timeout s -> linv timeout (fold_left (lstep timeout) l s)) by (induction l0 as [|a l0 IH]; intros s V; [exact V|]; cbn [fold_left]; apply IH, lstep_inv, V).
  apply G. assert (R : forall i p, nth_error (repeat Idle n) i = Some p -> p = Idle) by (intros i p H; apply nth_error_In in H; apply repeat_spec in H; auto). split; cbn [l_procs l_file].
  - intros i j p q HI HJ [-> | ->]; apply R in HI; discriminate.
  - split; [discriminate|]. intros (i & p & HI & [-> | ->]); apply R in HI; discriminate.
  - intros i a b H. apply R in H. discriminate.
Qed.
(** In every interleaving at most one process is inside the block. *)
Theorem C54_exclusive timeout dir n l i j : nth_error (l_procs (lrun timeout dir n l)) i = Some Inside -> nth_error (l_procs (lrun timeout dir n l)) j = Some Inside -> i = j.
Proof. intros H1 H2. apply (li_one _ _ (lrun_inv timeout dir n l) i j Inside Inside); auto; left; auto. Qed.
(** A process that asks for the lock gets it at once if the directory exists and no process is inside or was killed
    inside; it gives up only after more than the timeout. *)
Theorem C54_progress timeout n l i t0 : let s := lrun timeout true n l in
  nth_error (l_procs s) i = Some (Waiting t0) -> (forall j p, nth_error (l_procs s) j = Some p -> p <> Inside /\ p <> Dead true) ->
  nth_error (l_procs (lstep timeout s (Try i))) i = Some Inside.
Proof.
  intros s H N. assert (V := lrun_inv timeout true n l). fold s in V. assert (F : l_file s = false).
  { destruct (l_file s) eqn:E; auto. apply (li_file _ _ V) in E. destruct E as (j & p & HJ & [-> | ->]); destruct (N j _ HJ); congruence. }
  assert (D : l_dir s = true). { unfold s, lrun. assert (G : forall l s, l_dir (fold_left (lstep timeout) l s) = l_dir s).
    { induction l0 as [|a l0 IH]; intros s0; [reflexivity|]. cbn [fold_left]. rewrite IH. destruct a; cbn [lstep]; auto; destruct (nth_error (l_procs s0) i0) as [[]|]; auto.
      destruct (l_dir s0 && negb (l_file s0)); auto. destruct (Z.ltb timeout (l_now s0 - start)); auto. }
    rewrite G. reflexivity. }
  cbn [lstep]. rewrite H, D, F. cbn [andb negb with_proc l_procs]. apply put_same. apply nth_error_Some. congruence.
Qed.
Theorem C54_timeout timeout dir n l i a b : nth_error (l_procs (lrun timeout dir n l)) i = Some (TimedOut a b) -> (timeout < b - a)%Z.
Proof. apply (li_time _ _ (lrun_inv timeout dir n l)). Qed.
Example C54_example : let s := lrun 10 true 2 [Enter 0; Try 0; Enter 1; Try 1; Tick 3; Try 1; Leave 0; Try 1] in l_procs s = [Left; Inside] /\ l_file s = true.
Proof. split; reflexivity. Qed.
(** Finding: once a process was killed inside the block no process ever enters it again. *)
Lemma blocked timeout s : (exists j, nth_error (l_procs s) j = Some (Dead true)) -> linv timeout s ->
  forall a, (exists j, nth_error (l_procs (lstep timeout s a)) j = Some (Dead true)).
Proof.
  intros (j & H) V a. assert (K : forall i p f, i <> j -> exists j, nth_error (l_procs (with_proc i p f s)) j = Some (Dead true)) by (intros i p f N; exists j; cbn; rewrite put_other; auto).
  destruct a as [i|i|i|i|n]; cbn [lstep]; eauto; destruct (Nat.eq_dec i j) as [->|N]; try (rewrite H; eauto); destruct (nth_error (l_procs s) i) as [[]|]; eauto.
  destruct (l_dir s && negb (l_file s)); eauto. destruct (Z.ltb timeout (l_now s - start)); eauto.
Qed.
Theorem C54_killed_refuted timeout dir n l1 l2 i j : nth_error (l_procs (lrun timeout dir n l1)) i = Some (Dead true) -> nth_error (l_procs (lrun timeout dir n (l1 ++ l2))) j <> Some Inside.
Proof.
  intros H HI. assert (E : lrun timeout dir n (l1 ++ l2) = fold_left (lstep timeout) l2 (lrun timeout dir n l1)) by (unfold lrun; apply fold_left_app).
  assert (X : exists k, nth_error (l_procs (lrun timeout dir n (l1 ++ l2))) k = Some (Dead true)).
  { rewrite E. assert (G : forall l s, linv timeout s -> (exists k, nth_error (l_procs s) k = Some (Dead true)) -> exists k, nth_error (l_procs (fold_left (lstep timeout) l s)) k = Some (Dead true)).
    { induction l as [|a l IH]; intros s V D; [exact D|]. cbn [fold_left]. apply IH; [apply lstep_inv; auto|apply blocked; auto]. }
    apply G; eauto. apply lrun_inv. }
  destruct X as (k & HK). assert (j = k) by (apply (li_one _ _ (lrun_inv timeout dir n (l1 ++ l2)) j k Inside (Dead true)); auto; [left|right]; auto). subst k. congruence.
Qed.
Example C54_killed_example : nth_error (l_procs (lrun 10 true 2 [Enter 0; Try 0; Kill 0])) 0 = Some (Dead true).
Proof. reflexivity. Qed.
(** Finding: [file_to_module] takes the lock before it makes the directory (/repo/src/reactpy/reactjs/module.py:57-63), so that for a module name
    with a new directory ("ui/button") nobody ever gets it, and the call fails after ten seconds. *)
Theorem C54_directory_refuted timeout n l i : nth_error (l_procs (lrun timeout false n l)) i <> Some Inside.
Proof.
  unfold lrun. assert (G : forall l s, l_dir s = false -> (forall i, nth_error (l_procs s) i <> Some Inside) -> forall i, nth_error (l_procs (fold_left (lstep timeout) l s)) i <> Some Inside).
  { induction l0 as [|a l0 IH]; intros s D N; [exact N|]. cbn [fold_left]. assert (K : forall k p f, p <> Inside -> forall i, nth_error (l_procs (with_proc k p f s)) i <> Some Inside).
    { intros k p f NP j HJ. cbn in HJ. apply put_cases in HJ. destruct HJ as [[_ E]|HJ]; [congruence|]. exact (N j HJ). }
    apply IH; destruct a as [k|k|k|k|m]; cbn [lstep]; auto; try (destruct (nth_error (l_procs s) k) as [[]|]; auto; try (apply K; discriminate); fail).
    - destruct (nth_error (l_procs s) k) as [[]|]; auto. rewrite D. cbn [andb]. destruct (Z.ltb timeout (l_now s - start)); auto.
    - destruct (nth_error (l_procs s) k) as [[]|]; auto. rewrite D. cbn [andb]. destruct (Z.ltb timeout (l_now s - start)); auto. apply K. discriminate. }
  apply G; auto. cbn. intros j H. apply nth_error_In in H. apply repeat_spec in H. discriminate.
Qed.
Print Assumptions C53_atomic.
Print Assumptions C53_others.
Print Assumptions C54_exclusive.
Print Assumptions C54_progress.
Print Assumptions C54_killed_refuted.
Print Assumptions C54_directory_refuted.
