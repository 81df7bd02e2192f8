(** * Model and properties of the wheel that PyScript pages load (C98)

    /repo/src/reactpy/executors/pyscript/utils.py:163-423. Every page with PyScript components names a wheel of ReactPy
    which the browser installs. With a source checkout the wheel is built from the sources when it is older than one of
    them; without one it is put together from the installed files when it is missing. *)
From Coq Require Import String Ascii NArith Bool Arith Lia List.
From Verif Require Import Strings PyStr EffectModel EffectProps.
Import ListNotations.
Local Open Scope string_scope.
Local Open Scope list_scope.

(** ** Names and versions *)

(** [re.sub(r"[-_.]+", "-", value).lower()], utils.py:230-231; the flag: the previous character was replaced. ASCII only. *)
Definition sep (a : ascii) : bool := Ascii.eqb a "-" || Ascii.eqb a "_" || Ascii.eqb a ".".
Fixpoint norm (after : bool) (s : string) : string :=
  match s with
  | "" => ""
  | String a r => if sep a then (if after then norm true r else String "-" (norm true r)) else String (low a) (norm false r)
  end.
Definition normalize (s : string) : string := norm false s.
(** [str.removesuffix]. *)
Definition ends_with (suffix s : string) : bool :=
  Nat.leb (String.length suffix) (String.length s) &&
  String.eqb (substring (String.length s - String.length suffix) (String.length suffix) s) suffix.
Definition removesuffix (suffix s : string) : string :=
  if ends_with suffix s then substring 0 (String.length s - String.length suffix) s else s.
(** [path.replace("_", "-")]. *)
Definition dashes (s : string) : string := smap (fun a => if Ascii.eqb a "_" then "-"%char else a) s.
(** [_wheel_matches_local_version], utils.py:220-227, on the name. *)
Definition matches_version (version name : string) : bool :=
  match split "-" (removesuffix ".whl" name) with
  | p0 :: p1 :: r => Nat.leb 5 (length (p0 :: p1 :: r)) && String.eqb (lower (dashes p0)) "reactpy" && String.eqb (normalize p1) (normalize version)
  | _ => false
  end.
(** [directory.glob("reactpy-*.whl")] on a case-sensitive file system. *)
Definition globbed (name : string) : bool := String.prefix "reactpy-" name && ends_with ".whl" name && Nat.leb 12 (String.length name).

(** A wheel file: the sources it was made from (path and contents, which are represented by a number), and its time of
    modification. *)
Record wheel := Wheel { wh_files : list (string * nat); wh_time : nat }.
Definition dir := list (string * wheel).
(** [_find_current_reactpy_wheel], utils.py:208-217: the first in the order of the names. *)
Fixpoint least (l : dir) : option (string * wheel) :=
  match l with
  | [] => None
  | x :: r => match least r with
              | Some y => if String.ltb (fst y) (fst x) then Some y else Some x
              | None => Some x
              end
  end.
Definition find_wheel (version : string) (d : dir) : option (string * wheel) :=
  least (filter (fun x => globbed (fst x) && matches_version version (fst x)) d).

(** ** Answering requests *)

(** A watched file, utils.py:234-253: [pyproject.toml] and the files under [src/reactpy] but for byte code and the wheels
    themselves. The wheel is made from the watched files. *)
Record source := Source { sf_path : string; sf_content : nat; sf_time : nat }.
Definition snapshot (l : list source) : list (string * nat) := map (fun f => (sf_path f, sf_content f)) l.
(** [_wheel_is_stale_for_source] *)
Definition stale (l : list source) (w : wheel) : bool := existsb (fun f => Nat.ltb (wh_time w) (sf_time f)) l.

(** What a request for the wheel results in: a wheel, or [RuntimeError]. With the sources at that time. *)
Inductive answer := Served (name : string) (w : wheel) (now : list source) | Refused (now : list source).
Record world := World {
  w_now : nat;                                (* the clock of the file system *)
  w_src : list source;
  w_static : dir;                             (* static/wheels of the package *)
  w_dist : dir;                               (* dist of the checkout *)
  w_build : option (list (string * nat));     (* a build is running, with the sources it has read *)
  w_out : list answer
}.
(** Operations: a watched file is written, removed, or moved to its place with an older time; the clock advances; another
    wheel is put into dist; a page is made; the build that it started ends. *)
Inductive wop :=
| WEdit (p : string) (c : nat)
| WRemove (p : string)
| WMove (p : string) (c t : nat)
| WTick
| WLeft (name : string) (w : wheel)
| WRequest
| WBuilt (ok : bool).

Section Requests.
(** Whether there is a source checkout (utils.py:196-197), the version of the running package, the name of the wheel that
    Hatch makes, and the name of the wheel made from the installed files (393-423). *)
Variable checkout : bool.
Variable version built_name installed_name : string.

Definition without (p : string) (l : list source) : list source := filter (fun f => negb (String.eqb (sf_path f) p)) l.
Definition save (name : string) (w : wheel) (d : dir) : dir := filter (fun x => negb (String.eqb (fst x) name)) d ++ [(name, w)].
(** [_ensure_local_reactpy_wheel] (170-193) up to the build, or [_rebuild_installed_reactpy_wheel] (340-390). *)
Definition request (s : world) : world :=
  match w_build s with
  | Some _ => s
  | None =>
      let found := find_wheel version (w_static s) in
      if checkout
      then match found with
           | Some (n, w) =>
               if stale (w_src s) w
               then World (w_now s) (w_src s) (w_static s) (w_dist s) (Some (snapshot (w_src s))) (w_out s)
               else World (w_now s) (w_src s) (w_static s) (w_dist s) None (w_out s ++ [Served n w (w_src s)])
           | None => World (w_now s) (w_src s) (w_static s) (w_dist s) (Some (snapshot (w_src s))) (w_out s)
           end
      else match found with
           | Some (n, w) => World (w_now s) (w_src s) (w_static s) (w_dist s) None (w_out s ++ [Served n w (w_src s)])
           | None =>
               let w := Wheel (snapshot (w_src s)) (w_now s) in
               World (w_now s) (w_src s) (save installed_name w (w_static s)) (w_dist s) None (w_out s ++ [Served installed_name w (w_src s)])
           end
  end.
(** The rest: [_build_reactpy_wheel_from_source] (256-295), which takes the first fitting wheel of dist, and
    [_copy_reactpy_wheel_to_static_dir] (315-330), which removes the other wheels and keeps the time of the file. *)
Definition built (ok : bool) (s : world) : world :=
  match w_build s with
  | None => s
  | Some files =>
      let dist := if ok then save built_name (Wheel files (w_now s)) (w_dist s) else w_dist s in
      match (if ok then find_wheel version dist else None) with
      | Some (n, w) => World (w_now s) (w_src s) (save n w (filter (fun x => negb (globbed (fst x))) (w_static s))) dist None (w_out s ++ [Served n w (w_src s)])
      | None => World (w_now s) (w_src s) (w_static s) dist None (w_out s ++ [Refused (w_src s)])
      end
  end.
Definition wstep (s : world) (o : wop) : world :=
  match o with
  | WEdit p c => World (w_now s) (without p (w_src s) ++ [Source p c (w_now s)]) (w_static s) (w_dist s) (w_build s) (w_out s)
  | WRemove p => World (w_now s) (without p (w_src s)) (w_static s) (w_dist s) (w_build s) (w_out s)
  | WMove p c t => World (w_now s) (without p (w_src s) ++ [Source p c t]) (w_static s) (w_dist s) (w_build s) (w_out s)
  | WTick => World (S (w_now s)) (w_src s) (w_static s) (w_dist s) (w_build s) (w_out s)
  | WLeft n w => World (w_now s) (w_src s) (w_static s) (save n w (w_dist s)) (w_build s) (w_out s)
  | WRequest => request s
  | WBuilt ok => built ok s
  end.
(** A package without wheels and sources yet. *)
Definition winit : world := World 0 [] [] [] None [].
Definition wrun (ops : list wop) : world := fold_left wstep ops winit.

(** ** Specification *)

(** Versions that differ in letter case and in the kind and number of separators only. *)
Definition all_sep (x : string) : Prop := x <> "" /\ forall a, In a (list_ascii_of_string x) -> In a ["-"; "_"; "."]%char.
Definition letter (a : ascii) : Prop := ~ In a ["-"; "_"; "."]%char.
Definition starts_with_letter (s : string) : Prop := match s with "" => True | String a _ => letter a end.
End Requests.
Inductive same_version : string -> string -> Prop :=
| same_end : same_version "" ""
| same_letter a b s t : letter a -> letter b -> low a = low b -> same_version s t -> same_version (String a s) (String b t)
| same_gap x y s t : all_sep x -> all_sep y -> starts_with_letter s -> starts_with_letter t -> same_version s t -> same_version (x ++ s)%string (y ++ t)%string.
(** reactpy-<version>-<python>-<abi>-<platform>.whl, possibly with a build tag and so on. *)
Definition wheel_of (version name : string) : Prop :=
  exists v a b c, name = ("reactpy-" ++ v ++ "-" ++ a ++ "-" ++ b ++ "-" ++ c ++ ".whl")%string /\ nochar "-" v /\ same_version v version.
(** A wheel with just these sources. *)
Definition made_from (w : wheel) (l : list source) : Prop := forall p c, In (p, c) (wh_files w) <-> exists t, In (Source p c t) l.

(** ** Names *)
Lemma sep_iff a : sep a = true <-> ~ letter a.
Proof.
  unfold sep, letter. rewrite !orb_true_iff, !Ascii.eqb_eq. simpl. split.
  - intros [[->| ->]| ->] N; apply N; auto.
  - intros N. destruct (ascii_dec a "-"), (ascii_dec a "_"), (ascii_dec a "."); auto. exfalso. apply N. intros [X|[X|[X|[]]]]; congruence.
Qed.
Lemma sep_false a : sep a = false <-> letter a.
Proof.
  destruct (sep a) eqn:E.
  - apply sep_iff in E. split; [discriminate|contradiction].
  - split; auto. intros _ X. assert (sep a = true); [|congruence]. apply sep_iff. intros N. contradiction.
Qed.
Lemma low_letter a : letter a -> low a <> "-"%char.
Proof. intros L E. apply (low_neq a "-") in E; [|reflexivity]. apply L. left. auto. Qed.
Lemma norm_seps x : forall s, all_sep x -> norm false (x ++ s) = String "-" (norm true s) /\ norm true (x ++ s) = norm true s.
Proof.
  induction x as [|a x IH]; intros s [NE A]; [congruence|]. assert (Sa : sep a = true).
  { apply sep_iff. intros L. apply L. apply A. left. auto. }
  simpl. rewrite Sa. destruct x as [|b x]; [auto|]. destruct (IH s) as [H1 H2].
  - split; [discriminate|]. intros z J. apply A. right. exact J.
  - split; [rewrite H2; auto|exact H2].
Qed.
Lemma norm_letter s : starts_with_letter s -> norm true s = norm false s.
Proof. destruct s as [|a s]; auto. simpl. intros L. apply sep_false in L. rewrite L. auto. Qed.
(** Leading separators. *)
Lemma gap_split s : exists x t, s = (x ++ t)%string /\ (x = "" \/ all_sep x) /\ starts_with_letter t.
Proof.
  induction s as [|a s (x & t & -> & X & T)]; [exists "", ""; simpl; auto|]. destruct (sep a) eqn:Sa.
  - exists (String a x), t. split; auto. split; auto. right. split; [discriminate|]. intros z [<-|J].
    + destruct (in_dec ascii_dec a ["-"; "_"; "."]%char); auto. apply sep_iff in Sa. contradiction.
    + destruct X as [->|[_ X]]; [contradiction J|auto].
  - apply sep_false in Sa. exists "", (String a x ++ t)%string. simpl. auto.
Qed.
Lemma normalize_iff s t : normalize s = normalize t <-> same_version s t.
Proof.
  split.
  - remember (String.length s + String.length t) as n eqn:L. assert (Hn : String.length s + String.length t <= n) by lia. clear L. revert s t Hn.
    unfold normalize. induction n as [|n IH]; intros s t L E.
    + destruct s, t; simpl in L; try lia. constructor.
    + destruct (gap_split s) as (x & s' & -> & X & SL). destruct (gap_split t) as (y & t' & -> & Y & TL). rewrite !app_len in L.
      destruct X as [->|X], Y as [->|Y].
      * simpl in *. destruct s' as [|a s'], t' as [|b t']; [constructor| | |].
        -- simpl in E, TL. apply sep_false in TL. rewrite TL in E. discriminate.
        -- simpl in E, SL. apply sep_false in SL. rewrite SL in E. discriminate.
        -- simpl in SL, TL. pose proof (proj2 (sep_false a) SL) as SA. pose proof (proj2 (sep_false b) TL) as SB. cbn [norm] in E. rewrite SA, SB in E.
           injection E as E1 E2. constructor; auto. apply IH; auto. simpl in L. lia.
      * exfalso. rewrite (proj1 (norm_seps y t' Y)) in E. simpl in E. destruct s' as [|a s']; [discriminate|]. simpl in E. simpl in SL. pose proof (proj2 (sep_false a) SL) as SA. rewrite SA in E.
        injection E as E1 _. exact (low_letter a SL E1).
      * exfalso. rewrite (proj1 (norm_seps x s' X)) in E. simpl in E. destruct t' as [|b t']; [discriminate|]. simpl in E. simpl in TL. pose proof (proj2 (sep_false b) TL) as SB. rewrite SB in E.
        injection E as E1 _. symmetry in E1. exact (low_letter b TL E1).
      * rewrite (proj1 (norm_seps x s' X)), (proj1 (norm_seps y t' Y)), !norm_letter in E by auto. injection E as E. apply same_gap; auto. apply IH; auto.
        destruct X as [NX _], Y as [NY _]. destruct x; [congruence|]. simpl in L. lia.
  - unfold normalize. induction 1 as [|a b s t LA LB E _ IH|x y s t X Y SL TL _ IH]; auto.
    + simpl. rewrite (proj2 (sep_false a) LA), (proj2 (sep_false b) LB). congruence.
    + rewrite (proj1 (norm_seps x s X)), (proj1 (norm_seps y t Y)), !norm_letter by auto. congruence.
Qed.
Lemma substring_all s : substring 0 (String.length s) s = s.
Proof. induction s as [|a s IH]; simpl; auto. rewrite IH. auto. Qed.
Lemma substring_app_l a b : substring 0 (String.length a) (a ++ b) = a.
Proof. induction a as [|x a IH]; simpl; [destruct b; auto|]. rewrite IH. auto. Qed.
Lemma substring_app_r a b : substring (String.length a) (String.length b) (a ++ b) = b.
Proof. induction a as [|x a IH]; simpl; auto. apply substring_all. Qed.
Lemma substring_cut n : forall s, n <= String.length s -> (substring 0 n s ++ substring n (String.length s - n) s)%string = s.
Proof.
  induction n as [|n IH]; intros s L; [simpl; rewrite Nat.sub_0_r; destruct s; simpl; auto; rewrite substring_all; auto|].
  destruct s as [|a s]; simpl in *; [lia|]. rewrite IH by lia. auto.
Qed.
Lemma ends_with_iff x s : ends_with x s = true <-> exists p, s = (p ++ x)%string.
Proof.
  unfold ends_with. rewrite andb_true_iff, Nat.leb_le, String.eqb_eq. split.
  - intros [L E]. exists (substring 0 (String.length s - String.length x) s).
    pose proof (substring_cut (String.length s - String.length x) s) as C. replace (String.length s - (String.length s - String.length x)) with (String.length x) in C by lia.
    rewrite E in C. symmetry. apply C. lia.
  - intros (p & ->). rewrite app_len. split; [lia|]. replace (String.length p + String.length x - String.length x) with (String.length p) by lia. apply substring_app_r.
Qed.
Lemma removesuffix_app x p : removesuffix x (p ++ x) = p.
Proof.
  unfold removesuffix. replace (ends_with x (p ++ x)) with true by (symmetry; apply ends_with_iff; eauto). rewrite app_len.
  replace (String.length p + String.length x - String.length x) with (String.length p) by lia. apply substring_app_l.
Qed.
Lemma prefix_iff x : forall s, String.prefix x s = true <-> exists r, s = (x ++ r)%string.
Proof.
  induction x as [|a x IH]; intros s; [split; [intros _; exists s; reflexivity|intros _; destruct s; reflexivity]|]. destruct s as [|b s]; simpl; [split; [discriminate|intros (r & E); discriminate]|].
  destruct (ascii_dec a b) as [->|N].
  - rewrite IH. split; [intros (r & ->); eauto|intros (r & E); injection E as ->; eauto].
  - split; [discriminate|intros (r & E); injection E as -> _; congruence].
Qed.
Lemma split_two c s p q r : split c s = p :: q :: r -> exists t, s = (p ++ String c t)%string /\ split c t = q :: r /\ nochar c p.
Proof.
  intros E. pose proof (join_split c s) as J. rewrite E, join_cons in J. pose proof (split_nochar c s) as N. rewrite E in N. inversion N as [|? ? NP NR]; subst.
  exists (join (String c "") (q :: r)). split; [reflexivity|]. split; [apply split_join; [discriminate|exact NR]|exact NP].
Qed.
Lemma split_length c x y : length (split c (x ++ String c y)) = length (split c x) + length (split c y).
Proof.
  induction x as [|a x IH]; simpl.
  - rewrite Ascii.eqb_refl. reflexivity.
  - destruct (Ascii.eqb a c); simpl; [rewrite IH; reflexivity|]. destruct (split_cons c (x ++ String c y)) as (u & us & E1). destruct (split_cons c x) as (v & vs & E2). rewrite E1, E2 in *. simpl in *. lia.
Qed.
Lemma matches_iff version name : globbed name && matches_version version name = true <-> wheel_of version name.
Proof.
  rewrite andb_true_iff. unfold globbed. rewrite !andb_true_iff, prefix_iff, ends_with_iff. split.
  - intros [[[(r & P) (b & B)] L] Mv]. apply Nat.leb_le in L. unfold matches_version in Mv. rewrite B, removesuffix_app in Mv.
    destruct (split "-" b) as [|p0 [|p1 l]] eqn:SP; try discriminate. rewrite !andb_true_iff, Nat.leb_le, !String.eqb_eq in Mv. destruct Mv as [[L5 P0] V].
    apply split_two in SP. destruct SP as (t & Eb & ST & N0).
    destruct l as [|p2 [|p3 [|p4 l]]]; simpl in L5; try lia. apply split_two in ST. destruct ST as (t2 & Et & ST2 & N1). apply split_two in ST2. destruct ST2 as (t3 & Et2 & ST3 & N2).
    apply split_two in ST3. destruct ST3 as (t4 & Et3 & ST4 & N3).
    assert (E0 : p0 = "reactpy").
    { rewrite B, Eb, app_assoc_s in P. change (("reactpy-" ++ r)%string) with (("reactpy" ++ String "-" r)%string) in P. simpl (_ ++ ".whl")%string in P.
      destruct (split_first "-" p0 "reactpy" (String "-" t ++ ".whl") (String "-" r) P) as [X _]; auto.
      - simpl. repeat split; discriminate.
      - right. exists (t ++ ".whl")%string. reflexivity.
      - right. eauto. }
    exists p1, p2, p3, t4. split; [|split; [exact N1|apply normalize_iff; exact V]]. rewrite B, Eb, Et, Et2, Et3, E0. repeat (rewrite app_assoc_s; simpl). reflexivity.
  - intros (v & a & b & c & E & N & V). assert (E2 : name = (("reactpy" ++ String "-" (v ++ String "-" (a ++ String "-" (b ++ String "-" c)))) ++ ".whl")%string).
    { rewrite E. simpl. rewrite ?app_assoc_s. simpl. rewrite ?app_assoc_s. simpl. rewrite ?app_assoc_s. simpl. reflexivity. }
    split; [split; [split|]|].
    + rewrite E. eexists. reflexivity.
    + rewrite E2. eexists. reflexivity.
    + rewrite E. apply Nat.leb_le. repeat (rewrite ?app_len; simpl). lia.
    + unfold matches_version. rewrite E2, removesuffix_app. rewrite split_app by (simpl; repeat split; discriminate). rewrite split_app by exact N.
      rewrite !andb_true_iff, Nat.leb_le, !String.eqb_eq. split; [split|apply normalize_iff; exact V]; [|reflexivity].
      cbn [length]. rewrite split_length, split_length. destruct (split_cons "-" a) as (? & ? & ->), (split_cons "-" b) as (? & ? & ->), (split_cons "-" c) as (? & ? & ->). simpl. lia.
Qed.
Lemma ltb_trans a b c : String.ltb a b = true -> String.ltb b c = true -> String.ltb a c = true.
Proof.
  unfold String.ltb. revert b c. induction a as [|x a IH]; intros [|y b] [|z c]; simpl; try discriminate; auto.
  unfold Ascii.compare. destruct (N.compare_spec (N_of_ascii x) (N_of_ascii y)) as [E1|E1|E1]; try discriminate;
    destruct (N.compare_spec (N_of_ascii y) (N_of_ascii z)) as [E2|E2|E2]; try discriminate; intros H1 H2.
  - rewrite E1, E2, N.compare_refl. eauto.
  - rewrite E1. apply N.compare_lt_iff in E2. rewrite E2. auto.
  - rewrite <- E2. apply N.compare_lt_iff in E1. rewrite E1. auto.
  - assert (E : (N_of_ascii x < N_of_ascii z)%N) by (eapply N.lt_trans; eauto). apply N.compare_lt_iff in E. rewrite E. auto.
Qed.
Lemma ltb_irrefl a : String.ltb a a = false.
Proof. unfold String.ltb. induction a as [|x a IH]; simpl; auto. unfold Ascii.compare. rewrite N.compare_refl. auto. Qed.
Lemma ltb_total a b : String.ltb a b = false -> String.ltb b a = false -> a = b.
Proof.
  unfold String.ltb. rewrite (String.compare_antisym b a). destruct (String.compare a b) eqn:E; simpl; try discriminate. intros _ _. apply String.compare_eq_iff. exact E.
Qed.
Lemma least_in l : match least l with
  | Some x => In x l /\ forall y, In y l -> String.ltb (fst y) (fst x) = false
  | None => l = []
  end.
Proof.
  induction l as [|x l IH]; simpl; auto. destruct (least l) as [y|].
  - destruct IH as [J H]. destruct (String.ltb (fst y) (fst x)) eqn:E.
    + split; auto. intros z [<-|K]; auto. destruct (String.ltb (fst x) (fst y)) eqn:F; auto. pose proof (ltb_trans _ _ _ E F) as X. rewrite ltb_irrefl in X. discriminate.
    + split; auto. intros z [<-|K]; [apply ltb_irrefl|]. destruct (String.ltb (fst z) (fst x)) eqn:F; auto.
      destruct (String.ltb (fst y) (fst z)) eqn:G; [pose proof (ltb_trans _ _ _ G F); congruence|].
      rewrite (ltb_total _ _ G (H z K)) in E. congruence.
  - subst l. split; auto. intros z [<-|[]]. apply ltb_irrefl.
Qed.
Lemma find_wheel_spec version d : match find_wheel version d with
  | Some (n, w) => In (n, w) d /\ wheel_of version n /\ forall m w', In (m, w') d -> wheel_of version m -> String.ltb m n = false
  | None => forall m w', In (m, w') d -> ~ wheel_of version m
  end.
Proof.
  unfold find_wheel. pose proof (least_in (filter (fun x => globbed (fst x) && matches_version version (fst x)) d)) as L. destruct (least _) as [[n w]|].
  - destruct L as [J H]. apply filter_In in J. destruct J as [J B]. split; auto. split; [apply matches_iff; exact B|]. intros m w' K V. apply (H (m, w')). apply filter_In. split; auto. apply matches_iff. exact V.
  - intros m w' K V. assert (X : In (m, w') (filter (fun x => globbed (fst x) && matches_version version (fst x)) d)) by (apply filter_In; split; auto; apply matches_iff; exact V).
    rewrite L in X. exact X.
Qed.

(** ** Requests *)
Section Proofs.
Variable checkout : bool.
Variable version built_name installed_name : string.
Notation step := (wstep checkout version built_name installed_name).
Notation run := (wrun checkout version built_name installed_name).
Lemma in_save n w d m x : In (m, x) (save n w d) <-> (m, x) = (n, w) \/ (m <> n /\ In (m, x) d).
Proof.
  unfold save. rewrite in_app_iff, filter_In, negb_true_iff. simpl. split.
  - intros [[J E]|[E|[]]]; auto. apply String.eqb_neq in E. auto.
  - intros [E|[E J]]; [injection E as -> ->; auto|]. left. split; auto. apply String.eqb_neq. exact E.
Qed.
Lemma run_snoc ops o : run (ops ++ [o]) = step (run ops) o.
Proof. unfold wrun. rewrite fold_left_app. reflexivity. Qed.
(** Answers are only added. *)
Lemma out_step s o : exists l, w_out (step s o) = w_out s ++ l /\ (l = [] \/
  (exists n w, l = [Served n w (w_src s)] /\ (wheel_of version n \/ checkout = false /\ n = installed_name)) \/ l = [Refused (w_src s)]).
Proof.
  assert (NONE : forall x, x = w_out s -> exists l, x = w_out s ++ l /\ (l = [] \/
    (exists n w, l = [Served n w (w_src s)] /\ (wheel_of version n \/ checkout = false /\ n = installed_name)) \/ l = [Refused (w_src s)])).
  { intros x ->. exists []. rewrite app_nil_r. auto. }
  destruct o; simpl; try (apply NONE; reflexivity).
  - unfold request. pose proof (find_wheel_spec version (w_static s)) as F. destruct (w_build s); [apply NONE; reflexivity|]. destruct (find_wheel version (w_static s)) as [[n w]|].
    + destruct F as (_ & V & _). destruct checkout; [destruct (stale (w_src s) w)|]; simpl; try (apply NONE; reflexivity); (eexists; split; [reflexivity|right; left; exists n, w; auto]).
    + destruct checkout; simpl; [apply NONE; reflexivity|]. eexists. split; [reflexivity|]. right. left. eexists. eexists. split; [reflexivity|auto].
  - unfold built. destruct (w_build s) as [b|]; [|apply NONE; reflexivity]. destruct ok; simpl; [|eexists; split; [reflexivity|auto]].
    pose proof (find_wheel_spec version (save built_name (Wheel b (w_now s)) (w_dist s))) as F. destruct (find_wheel version _) as [[n w]|]; simpl; (eexists; split; [reflexivity|]); auto.
    right. left. exists n, w. destruct F as (_ & V & _). auto.
Qed.
(** Whatever happens, the wheel that is named in a page is one for the running version (by its name). *)
Theorem C98_version : forall ops n w l,
  In (Served n w l) (w_out (run ops)) -> wheel_of version n \/ (checkout = false /\ n = installed_name).
Proof.
  intros ops. induction ops as [|o ops IH] using rev_ind; intros n w l J; [contradiction J|]. rewrite run_snoc in J. destruct (out_step (run ops) o) as (x & E & X). rewrite E in J.
  apply in_app_iff in J. destruct J as [J|J]; [eauto|]. destruct X as [->|[(m & v & -> & V)| ->]]; simpl in J; [contradiction| |destruct J as [J|[]]; discriminate].
  destruct J as [J|[]]. injection J as <- <- <-. exact V.
Qed.

(** The guard: files change only between builds and when the clock has advanced since the last wheel was written; they are
    not removed, and not replaced by files with an older time; no other wheel of this version is put into dist. *)
Definition careful_op (s : world) (o : wop) : Prop :=
  match o with
  | WEdit _ _ => w_build s = None /\ forall n w, In (n, w) (w_static s ++ w_dist s) -> wh_time w < w_now s
  | WRemove _ | WMove _ _ _ => False
  | WLeft n _ => ~ wheel_of version n
  | _ => True
  end.
Fixpoint careful (s : world) (ops : list wop) : Prop :=
  match ops with [] => True | o :: r => careful_op s o /\ careful (step s o) r end.
Lemma careful_snoc ops o : forall s, careful s (ops ++ [o]) <-> careful s ops /\ careful_op (fold_left step ops s) o.
Proof. induction ops as [|x ops IH]; intros s; simpl; [tauto|]. rewrite IH. tauto. Qed.
(** What a wheel knows of the sources: they have not changed since, unless they are newer. *)
Definition good (src : list source) (w : wheel) : Prop :=
  (forall f, In f src -> sf_time f <= wh_time w -> In (sf_path f, sf_content f) (wh_files w)) /\
  (forall p c, In (p, c) (wh_files w) -> exists f, In f src /\ sf_path f = p /\ (sf_time f <= wh_time w -> sf_content f = c)).
Record winv (s : world) : Prop := {
  i_time : forall f, In f (w_src s) -> sf_time f <= w_now s;
  i_static : forall n w, In (n, w) (w_static s) -> wheel_of version n -> good (w_src s) w;
  i_dist : forall n w, In (n, w) (w_dist s) -> wheel_of version n -> n = built_name /\ good (w_src s) w;
  i_build : forall b, w_build s = Some b -> b = snapshot (w_src s);
  i_out : forall n w l, In (Served n w l) (w_out s) -> made_from w l
}.
Lemma good_new src t : (forall f, In f src -> sf_time f <= t) -> good src (Wheel (snapshot src) t).
Proof.
  intros T. split.
  - intros f J _. simpl. apply in_map_iff. eauto.
  - intros p c J. simpl in J. apply in_map_iff in J. destruct J as (f & E & J). injection E as <- <-. eauto.
Qed.
Lemma good_made src w : good src w -> stale src w = false -> made_from w src.
Proof.
  intros [G1 G2] ST. assert (T : forall f, In f src -> sf_time f <= wh_time w).
  { intros f J. destruct (Nat.ltb (wh_time w) (sf_time f)) eqn:E; [|apply Nat.ltb_ge in E; exact E]. exfalso. unfold stale in ST. rewrite <- not_true_iff_false in ST. apply ST. apply existsb_exists. eauto. }
  intros p c. split.
  - intros J. destruct (G2 _ _ J) as (f & K & <- & C). exists (sf_time f). rewrite <- (C (T f K)). destruct f. exact K.
  - intros (t & J). exact (G1 _ J (T _ J)).
Qed.
Lemma good_edit src w p c t : wh_time w < t -> good src w -> good (without p src ++ [Source p c t]) w.
Proof.
  intros L [G1 G2]. split.
  - intros f J T. apply in_app_iff in J. destruct J as [J|[<-|[]]]; [|simpl in T; lia]. apply filter_In in J. apply G1; tauto.
  - intros q d J. destruct (G2 _ _ J) as (f & K & E & C). destruct (String.eqb_spec q p) as [->|N].
    + exists (Source p c t). split; [apply in_app_iff; right; left; auto|]. split; auto. simpl. lia.
    + exists f. split; auto. apply in_app_iff. left. apply filter_In. split; auto. rewrite E. apply negb_true_iff, String.eqb_neq. exact N.
Qed.
Lemma made_new src t : made_from (Wheel (snapshot src) t) src.
Proof.
  intros p c. simpl. unfold snapshot. rewrite in_map_iff. split.
  - intros (f & E & J). injection E as <- <-. destruct f. eauto.
  - intros (t' & J). exists (Source p c t'). auto.
Qed.
Lemma winv_step s o : checkout = true -> careful_op s o -> winv s -> winv (step s o).
Proof.
  intros CK G [T ST D B O]. destruct o as [p c|p|p c t| |n w| |ok]; simpl in G; try contradiction.
  - destruct G as [NB L]. constructor; simpl; auto.
    + intros f J. apply in_app_iff in J. destruct J as [J|[<-|[]]]; [|simpl; lia]. apply filter_In in J. apply T. tauto.
    + intros n w J V. apply good_edit; eauto. apply (L n). apply in_app_iff. auto.
    + intros n w J V. destruct (D n w J V). split; auto. apply good_edit; auto. apply (L n). apply in_app_iff. auto.
    + rewrite NB. discriminate.
  - constructor; simpl; auto.
  - constructor; simpl; auto. intros m x J V. apply in_save in J. destruct J as [E|[_ J]]; [injection E as -> ->; contradiction|eauto].
  - simpl. unfold request. destruct (w_build s) eqn:BS; [constructor; auto; rewrite BS; auto|]. rewrite CK. pose proof (find_wheel_spec version (w_static s)) as F.
    destruct (find_wheel version (w_static s)) as [[n w]|].
    + destruct F as (J & V & _). destruct (stale (w_src s) w) eqn:SL; constructor; simpl; auto; try discriminate.
      * intros b E. injection E as <-. auto.
      * intros m x l K. apply in_app_iff in K. destruct K as [K|[K|[]]]; [eauto|]. injection K as <- <- <-. apply good_made; eauto.
    + constructor; simpl; auto. intros b E. injection E as <-. auto.
  - simpl. unfold built. destruct (w_build s) as [b|] eqn:BS; [|constructor; auto; rewrite BS; auto]. specialize (B b eq_refl). subst b.
    destruct ok; simpl.
    + set (new := Wheel (snapshot (w_src s)) (w_now s)). assert (GN : good (w_src s) new) by (apply good_new; auto).
      assert (DN : forall n w, In (n, w) (save built_name new (w_dist s)) -> wheel_of version n -> n = built_name /\ w = new).
      { intros n w J V. apply in_save in J. destruct J as [E|[N J]]; [injection E as -> ->; auto|]. destruct (D n w J V). contradiction. }
      pose proof (find_wheel_spec version (save built_name new (w_dist s))) as F. destruct (find_wheel version _) as [[n w]|].
      * destruct F as (J & V & _). destruct (DN n w J V) as [-> ->]. constructor; simpl; auto; try discriminate.
        -- intros m x K W. apply in_save in K. destruct K as [E|[_ K]]; [injection E as -> ->; auto|]. apply filter_In in K. eapply ST; [apply K|exact W].
        -- intros m x K W. destruct (DN m x K W) as [-> ->]. auto.
        -- intros m x l K. apply in_app_iff in K. destruct K as [K|[K|[]]]; [eauto|]. injection K as <- <- <-. apply made_new.
      * constructor; simpl; auto; try discriminate.
        -- intros m x K W. destruct (DN m x K W) as [-> ->]. auto.
        -- intros m x l K. apply in_app_iff in K. destruct K as [K|[K|[]]]; [eauto|discriminate].
    + constructor; simpl; auto; try discriminate. intros m x l K. apply in_app_iff in K. destruct K as [K|[K|[]]]; [eauto|discriminate].
Qed.
Lemma winv_run ops : checkout = true -> careful winit ops -> winv (run ops).
Proof.
  intros CK. induction ops as [|o ops IH] using rev_ind; intros C; [constructor; simpl; try contradiction; discriminate|].
  apply careful_snoc in C. destruct C as [C1 C2]. rewrite run_snoc. apply winv_step; auto.
Qed.
(** With a checkout, under the guard: every wheel that a page names has the sources of that moment. *)
Theorem C98_current_partial : forall ops n w l,
  checkout = true -> careful winit ops -> In (Served n w l) (w_out (run ops)) -> made_from w l.
Proof. intros ops n w l CK C. apply (i_out _ (winv_run ops CK C)). Qed.
(** After a build there is no other one until a source changes. *)
Theorem C98_built_once : forall ops k,
  checkout = true -> careful winit ops -> wheel_of version built_name -> w_build (run ops) <> None ->
  let before := ops ++ WBuilt true :: repeat WTick k in
  exists w, w_build (run (before ++ [WRequest])) = None /\ w_out (run (before ++ [WRequest])) = w_out (run before) ++ [Served built_name w (w_src (run ops))].
Proof.
  intros ops k CK C V NB before. pose proof (winv_run ops CK C) as W. set (s := run ops) in *. destruct (w_build s) as [b|] eqn:B; [|congruence]. rewrite (i_build _ W b B) in B. clear b NB.
  set (new := Wheel (snapshot (w_src s)) (w_now s)).
  assert (FD : find_wheel version (save built_name new (w_dist s)) = Some (built_name, new)).
  { pose proof (find_wheel_spec version (save built_name new (w_dist s))) as F. destruct (find_wheel version _) as [[n w]|].
    - destruct F as (J & VN & _). apply in_save in J. destruct J as [E|[N J]]; [rewrite E; auto|]. destruct (i_dist _ W n w J VN). contradiction.
    - exfalso. apply (F built_name new); auto. apply in_save. auto. }
  set (st := save built_name new (filter (fun x => negb (globbed (fst x))) (w_static s))).
  assert (FS : find_wheel version st = Some (built_name, new)).
  { pose proof (find_wheel_spec version st) as F. destruct (find_wheel version st) as [[n w]|].
    - destruct F as (J & VN & _). unfold st in J. apply in_save in J. destruct J as [E|[N J]]; [rewrite E; auto|]. apply filter_In in J. destruct J as [_ J]. simpl in J. exfalso.
      apply (matches_iff version n) in VN. apply andb_true_iff in VN. destruct VN as [VN _]. rewrite VN in J. discriminate.
    - exfalso. apply (F built_name new); auto. unfold st. apply in_save. auto. }
  assert (RB : forall j, let s' := run (ops ++ WBuilt true :: repeat WTick j) in w_src s' = w_src s /\ w_static s' = st /\ w_build s' = None).
  { induction j as [|j IHj].
    - cbv zeta. simpl repeat. rewrite run_snoc. fold s. simpl. unfold built. rewrite B. fold new. rewrite FD. simpl. auto.
    - cbv zeta in *. replace (repeat WTick (S j)) with (repeat WTick j ++ [WTick]) by (rewrite <- repeat_cons; reflexivity). rewrite app_comm_cons, app_assoc, run_snoc. simpl. exact IHj. }
  destruct (RB k) as (E1 & E2 & E3). fold before in E1, E2, E3. exists new. rewrite run_snoc. simpl. unfold request. rewrite E3, E2, FS, E1, CK.
  assert (NS : stale (w_src s) new = false).
  { unfold stale. apply not_true_iff_false. intros X. apply existsb_exists in X. destruct X as (f & J & X). apply Nat.ltb_lt in X. simpl in X. pose proof (i_time _ W f J). lia. }
  rewrite NS. simpl. auto.
Qed.
(** A page is refused only if the build fails, or if Hatch names the wheel in another way. *)
Theorem C98_refused : forall ops l,
  (checkout = true -> wheel_of version built_name) -> ~ In (WBuilt false) ops -> ~ In (Refused l) (w_out (run ops)).
Proof.
  intros ops l V N. assert (H : (checkout = false -> w_build (run ops) = None) /\ forall l, ~ In (Refused l) (w_out (run ops))); [|apply H].
  induction ops as [|o ops IH] using rev_ind; [split; [reflexivity|intros ? []]|].
  destruct IH as [IH1 IH2]; [intros J; apply N; apply in_app_iff; auto|]. rewrite run_snoc. assert (NO : o <> WBuilt false) by (intros ->; apply N; apply in_app_iff; right; left; auto). clear N.
  destruct o; simpl; auto.
  - unfold request. destruct (w_build (run ops)) eqn:B; [split; [intros X; specialize (IH1 X); congruence|exact IH2]|].
    assert (ADD : forall n w l0 l', ~ In (Refused l') (w_out (run ops) ++ [Served n w l0])).
    { intros n w l0 l' J. apply in_app_iff in J. destruct J as [J|[J|[]]]; [exact (IH2 _ J)|discriminate]. }
    clear V. destruct (find_wheel version (w_static (run ops))) as [[n w]|]; destruct checkout; [destruct (stale _ _)| | |]; simpl; (split; [first [discriminate|reflexivity]|]); first [exact IH2|apply ADD].
  - unfold built. destruct (w_build (run ops)) as [b|] eqn:B; [|split; [intros _; exact B|exact IH2]]. destruct ok; [|congruence]. assert (CK : checkout = true) by (apply not_false_iff_true; intros X; specialize (IH1 X); congruence).
    pose proof (find_wheel_spec version (save built_name (Wheel b (w_now (run ops))) (w_dist (run ops)))) as F. destruct (find_wheel version _) as [[n w]|]; simpl.
    + split; auto. intros l' J. apply in_app_iff in J. destruct J as [J|[J|[]]]; [eapply IH2; eauto|discriminate].
    + exfalso. apply (F built_name (Wheel b (w_now (run ops)))); auto. apply in_save. auto.
Qed.
(** Without a checkout: every wheel has the installed files, if they do not change any more. *)
Definition changes (o : wop) : Prop := match o with WEdit _ _ | WRemove _ | WMove _ _ _ => True | _ => False end.
Theorem C98_installed_partial : forall ops1 ops2 n w l,
  checkout = false -> ~ In WRequest ops1 -> (forall o, In o ops2 -> ~ changes o) ->
  In (Served n w l) (w_out (run (ops1 ++ ops2))) -> made_from w l.
Proof.
  intros ops1 ops2 n w l CK N1 N2.
  assert (H1 : w_static (run ops1) = [] /\ w_out (run ops1) = [] /\ w_build (run ops1) = None).
  { induction ops1 as [|o ops IH] using rev_ind; [auto|]. destruct IH as (A & B & C); [intros J; apply N1; apply in_app_iff; auto|]. rewrite run_snoc.
    destruct o; simpl; auto; [exfalso; apply N1; apply in_app_iff; right; left; auto|]. unfold built. rewrite C. auto. }
  assert (H : let s := run (ops1 ++ ops2) in w_build s = None /\ (forall m x, In (m, x) (w_static s) -> made_from x (w_src s)) /\ forall m x l', In (Served m x l') (w_out s) -> made_from x l'); [|intros J; eapply H; eauto].
  induction ops2 as [|o ops IH] using rev_ind.
  - cbv zeta. rewrite app_nil_r. destruct H1 as (A & B & C). rewrite A, B. split; auto. split; intros; contradiction.
  - destruct IH as (A & B & C); [intros x J; apply N2; apply in_app_iff; auto|]. specialize (N2 o). rewrite app_assoc. cbv zeta. rewrite run_snoc. set (s := run (ops1 ++ ops)) in *.
    assert (NC : ~ changes o) by (apply N2; apply in_app_iff; right; left; auto). destruct o; simpl in NC; try tauto; simpl; auto.
    + unfold request. rewrite A, CK. pose proof (find_wheel_spec version (w_static s)) as F. destruct (find_wheel version (w_static s)) as [[m x]|]; simpl.
      * split; auto. split; auto. intros m' x' l' J. apply in_app_iff in J. destruct J as [J|[J|[]]]; [eauto|]. injection J as <- <- <-. destruct F as [F _]. eauto.
      * split; auto. split.
        -- intros m' x' J. apply in_save in J. destruct J as [E|[_ J]]; [injection E as -> ->; apply made_new|eauto].
        -- intros m' x' l' J. apply in_app_iff in J. destruct J as [J|[J|[]]]; [eauto|]. injection J as <- <- <-. apply made_new.
    + unfold built. rewrite A. auto.
Qed.
End Proofs.
Print Assumptions C98_version.
Print Assumptions C98_current_partial.
Print Assumptions C98_built_once.
Print Assumptions C98_refused.
Print Assumptions C98_installed_partial.

(** *** A concrete package *)
Definition v13 : string := "2.0.0b13".
Definition w13 : string := "reactpy-2.0.0b13-py3-none-any.whl".
Lemma same_version_refl s : same_version s s.
Proof. apply normalize_iff. reflexivity. Qed.
Lemma w13_of_v13 : wheel_of v13 w13.
Proof. exists "2.0.0b13", "py3", "none", "any". split; [reflexivity|]. split; [simpl; intuition discriminate|apply same_version_refl]. Qed.
(** Names: other spellings of the version, another version, a missing part. *)
Example C98_names_example :
  wheel_of "2.0.0-B13" "reactpy-2.0.0_b13-1-py3-none-any.whl" /\ ~ wheel_of v13 "reactpy-2.0.0b1-py3-none-any.whl" /\ ~ wheel_of v13 "reactpy-2.0.0b13-py3-none.whl".
Proof. split; [|split]; rewrite <- matches_iff; [reflexivity|vm_compute; discriminate|vm_compute; discriminate]. Qed.
(** A decision procedure for the guard. *)
Definition careful_opb (version : string) (s : world) (o : wop) : bool :=
  match o with
  | WEdit _ _ => match w_build s with None => true | Some _ => false end && forallb (fun x => Nat.ltb (wh_time (snd x)) (w_now s)) (w_static s ++ w_dist s)
  | WRemove _ | WMove _ _ _ => false
  | WLeft n _ => negb (globbed n && matches_version version n)
  | _ => true
  end.
Fixpoint carefulb c version bn inn (s : world) (ops : list wop) : bool :=
  match ops with [] => true | o :: r => careful_opb version s o && carefulb c version bn inn (wstep c version bn inn s o) r end.
Lemma carefulb_careful c version bn inn ops : forall s, carefulb c version bn inn s ops = true -> careful c version bn inn s ops.
Proof.
  induction ops as [|o ops IH]; intros s H; simpl in *; auto. apply andb_true_iff in H. destruct H as [H1 H2]. split; auto. destruct o; simpl in *; try discriminate; auto.
  - apply andb_true_iff in H1. destruct H1 as [A B]. split; [destruct (w_build s); [discriminate|auto]|]. intros n w J. rewrite forallb_forall in B. apply Nat.ltb_lt. apply (B (n, w) J).
  - rewrite <- matches_iff. apply negb_true_iff in H1. rewrite H1. discriminate.
Qed.
Definition first_day : list wop :=
  [WEdit "pyproject.toml" 1; WEdit "layout.py" 10; WTick; WRequest; WTick; WBuilt true; WRequest; WTick; WEdit "layout.py" 11; WRequest; WTick; WBuilt true; WRequest].
Definition shape (a : answer) : string * list (string * nat) * nat := match a with Served n w _ => (n, wh_files w, wh_time w) | Refused _ => ("", [], 0) end.
(** Two builds for four pages. *)
Example C98_current_example :
  careful true v13 w13 "" winit first_day /\ wheel_of v13 w13 /\
  w_build (wrun true v13 w13 "" (firstn 4 first_day)) <> None /\
  map shape (w_out (wrun true v13 w13 "" first_day)) =
    [(w13, [("pyproject.toml", 1); ("layout.py", 10)], 2); (w13, [("pyproject.toml", 1); ("layout.py", 10)], 2);
     (w13, [("pyproject.toml", 1); ("layout.py", 11)], 4); (w13, [("pyproject.toml", 1); ("layout.py", 11)], 4)].
Proof. split; [apply carefulb_careful; vm_compute; reflexivity|]. split; [exact w13_of_v13|]. split; [vm_compute; discriminate|vm_compute; reflexivity]. Qed.
(** Without a checkout: made once, then used. *)
Example C98_installed_example :
  map shape (w_out (wrun false v13 "" w13 ([WEdit "layout.py" 10] ++ [WTick; WRequest; WTick; WRequest]))) = [(w13, [("layout.py", 10)], 1); (w13, [("layout.py", 10)], 1)].
Proof. vm_compute. reflexivity. Qed.
(** From now on all pages name a wheel which was not made from the sources there are. *)
Definition outdated_for_good (checkout : bool) (version built_name installed_name : string) (ops : list wop) : Prop :=
  forall k, exists n w l,
    last (w_out (wrun checkout version built_name installed_name (ops ++ repeat WRequest (S k)))) (Refused []) = Served n w l /\ ~ made_from w l.
Lemma outdated c version bn inn ops n w :
  let s := wrun c version bn inn ops in
  w_build s = None -> find_wheel version (w_static s) = Some (n, w) -> (c = true -> stale (w_src s) w = false) -> ~ made_from w (w_src s) ->
  outdated_for_good c version bn inn ops.
Proof.
  intros s B F ST NM k. exists n, w, (w_src s). split; auto.
  assert (R : forall t, w_build t = None -> find_wheel version (w_static t) = Some (n, w) -> (c = true -> stale (w_src t) w = false) ->
    request c version inn t = World (w_now t) (w_src t) (w_static t) (w_dist t) None (w_out t ++ [Served n w (w_src t)])).
  { intros t B' F' ST'. unfold request. rewrite B', F'. destruct c; [rewrite ST' by auto|]; auto. }
  assert (H : forall j, exists o, wrun c version bn inn (ops ++ repeat WRequest (S j)) = World (w_now s) (w_src s) (w_static s) (w_dist s) None (o ++ [Served n w (w_src s)])).
  { induction j as [|j [o IH]].
    - exists (w_out s). unfold wrun. rewrite fold_left_app. fold (wrun c version bn inn ops). fold s. simpl. apply R; auto.
    - exists (o ++ [Served n w (w_src s)]). replace (repeat WRequest (S (S j))) with (repeat WRequest (S j) ++ [WRequest]) by (rewrite <- repeat_cons; reflexivity).
      rewrite app_assoc. unfold wrun in *. rewrite fold_left_app, IH. cbn [fold_left wstep]. rewrite R; auto. }
  destruct (H k) as (o & ->). cbn [w_out]. apply last_last.
Qed.
(** It has a source that is not there, or not with these contents. *)
Lemma not_made w l p c : existsb (fun x => String.eqb (fst x) p && Nat.eqb (snd x) c) (wh_files w) = true ->
  existsb (fun f => String.eqb (sf_path f) p && Nat.eqb (sf_content f) c) l = false -> ~ made_from w l.
Proof.
  intros A B H. apply existsb_exists in A. destruct A as ([q d] & J & E). simpl in E. apply andb_true_iff in E. destruct E as [E1 E2]. apply String.eqb_eq in E1. apply Nat.eqb_eq in E2. subst.
  apply H in J. destruct J as (t & J). rewrite <- not_true_iff_false in B. apply B. apply existsb_exists. exists (Source p c t). split; auto. simpl. rewrite String.eqb_refl, Nat.eqb_refl. auto.
Qed.
Ltac outdated_by p c := eapply outdated; [vm_compute; reflexivity|vm_compute; reflexivity|vm_compute; auto|apply (not_made _ _ p c); vm_compute; reflexivity].
Definition built_once : list wop := [WEdit "layout.py" 10; WEdit "old.py" 1; WTick; WRequest; WBuilt true; WTick].
(** Findings. With a checkout: a source was removed, ... *)
Theorem C98_removed_refuted : outdated_for_good true v13 w13 "" (built_once ++ [WRemove "old.py"]).
Proof. outdated_by "old.py" 1. Qed.
(** ... or replaced by a file with an older time, ... *)
Theorem C98_moved_refuted : outdated_for_good true v13 w13 "" (built_once ++ [WMove "layout.py" 11 0]).
Proof. outdated_by "layout.py" 10. Qed.
(** ... or changed in the tick in which the wheel was written, ... *)
Theorem C98_tick_refuted : outdated_for_good true v13 w13 "" (removelast built_once ++ [WEdit "layout.py" 11]).
Proof. outdated_by "layout.py" 10. Qed.
(** ... or changed while the wheel was built. *)
Theorem C98_during_refuted : outdated_for_good true v13 w13 "" [WEdit "layout.py" 10; WTick; WRequest; WTick; WEdit "layout.py" 11; WTick; WBuilt true].
Proof. outdated_by "layout.py" 10. Qed.
(** Without a checkout: the wheel stays when ReactPy is installed again with other contents and the same version. *)
Theorem C98_installed_refuted : outdated_for_good false v13 "" w13 [WEdit "layout.py" 10; WTick; WRequest; WTick; WEdit "layout.py" 11].
Proof. outdated_by "layout.py" 10. Qed.
(** A wheel of the same version left in dist, whose name comes first: each page builds a wheel and is given the old one. *)
Definition w13_old : string := "reactpy-2.0.0b13-1-py3-none-any.whl".
Theorem C98_left_refuted : forall k,
  let ops := [WTick; WEdit "layout.py" 10; WLeft w13_old (Wheel [("layout.py", 9)] 0)] in
  let s := wrun true v13 w13 "" (ops ++ flat_map (fun _ => [WRequest; WBuilt true]) (repeat tt (S k))) in
  map shape (w_out s) = repeat (w13_old, [("layout.py", 9)], 0) (S k) /\ snapshot (w_src s) = [("layout.py", 10)].
Proof.
  intros k ops s. set (src := [Source "layout.py" 10 1]). set (old := Wheel [("layout.py", 9)] 0).
  assert (H : forall j, wrun true v13 w13 "" (ops ++ flat_map (fun _ => [WRequest; WBuilt true]) (repeat tt (S j))) =
    World 1 src [(w13_old, old)] [(w13_old, old); (w13, Wheel [("layout.py", 10)] 1)] None (repeat (Served w13_old old src) (S j))).
  { induction j as [|j IH]; [vm_compute; reflexivity|]. replace (repeat tt (S (S j))) with (repeat tt (S j) ++ [tt]) by (rewrite <- repeat_cons; reflexivity).
    rewrite flat_map_app, app_assoc. unfold wrun in *. rewrite fold_left_app, IH. clear IH. replace (repeat (Served w13_old old src) (S (S j))) with (repeat (Served w13_old old src) (S j) ++ [Served w13_old old src]) by (rewrite <- repeat_cons; reflexivity).
    remember (repeat (Served w13_old old src) (S j)) as o. clear Heqo. vm_compute. reflexivity. }
  unfold s. rewrite H. split; [|reflexivity]. cbn [w_out]. generalize (S k). intros n. induction n as [|n IH]; simpl; [auto|]. rewrite IH. reflexivity.
Qed.
(** Hatch writes versions in the form of PEP 440. With another spelling in the package the wheel that was built is not
    found, and each page is refused. *)
Theorem C98_spelling_refuted : forall k,
  let s := wrun true "2.0.0-beta.1" "reactpy-2.0.0b1-py3-none-any.whl" "" (flat_map (fun _ => [WRequest; WBuilt true]) (repeat tt (S k))) in
  w_out s = repeat (Refused []) (S k).
Proof.
  intros k s. set (bn := "reactpy-2.0.0b1-py3-none-any.whl").
  assert (H : forall j, wrun true "2.0.0-beta.1" bn "" (flat_map (fun _ => [WRequest; WBuilt true]) (repeat tt (S j))) = World 0 [] [] [(bn, Wheel [] 0)] None (repeat (Refused []) (S j))).
  { induction j as [|j IH]; [vm_compute; reflexivity|]. replace (repeat tt (S (S j))) with (repeat tt (S j) ++ [tt]) by (rewrite <- repeat_cons; reflexivity).
    rewrite flat_map_app. unfold wrun in *. rewrite fold_left_app, IH. clear IH. replace (repeat (Refused []) (S (S j))) with (repeat (Refused []) (S j) ++ [Refused []]) by (rewrite <- repeat_cons; reflexivity).
    remember (repeat (Refused []) (S j)) as o. clear Heqo. vm_compute. reflexivity. }
  unfold s. fold bn. rewrite H. reflexivity.
Qed.
Print Assumptions C98_removed_refuted.
Print Assumptions C98_moved_refuted.
Print Assumptions C98_tick_refuted.
Print Assumptions C98_during_refuted.
Print Assumptions C98_installed_refuted.
Print Assumptions C98_left_refuted.
Print Assumptions C98_spelling_refuted.

(** ** Writing the wheel

    [_copy_reactpy_wheel_to_static_dir], utils.py:315-330, and the end of [_rebuild_installed_reactpy_wheel] (356-386): the
    wheel is written to a second name and renamed. The web server gives out whatever the wheel's name stands for. *)
Record fsys := FS {
  fs_names : list (string * nat);      (* names and the files (inodes) they stand for *)
  fs_files : list (list nat)           (* the contents of all files *)
}.
Definition lookup (n : string) (f : fsys) : option nat := option_map snd (find (fun x => String.eqb (fst x) n) (fs_names f)).
Definition contents (n : string) (f : fsys) : option (list nat) := match lookup n f with Some i => nth_error (fs_files f) i | None => None end.
Definition unname (n : string) (l : list (string * nat)) : list (string * nat) := filter (fun x => negb (String.eqb (fst x) n)) l.
(** [open(n, "wb")]: an existing file is emptied. *)
Definition fopen (n : string) (f : fsys) : nat * fsys :=
  match lookup n f with
  | Some i => (i, FS (fs_names f) (put (fs_files f) i []))
  | None => (length (fs_files f), FS (fs_names f ++ [(n, length (fs_files f))]) (fs_files f ++ [[]]))
  end.
(** Writing a byte at a position: a gap is filled with zeros. *)
Definition write_at (l : list nat) (k b : nat) : list nat := firstn k (l ++ repeat 0 k) ++ b :: skipn (S k) l.
Definition fwrite (i k b : nat) (f : fsys) : fsys :=
  FS (fs_names f) (put (fs_files f) i (write_at (nth i (fs_files f) []) k b)).
(** [os.replace]; [None]: FileNotFoundError. *)
Definition frename (a b : string) (f : fsys) : option fsys :=
  match lookup a f with
  | Some i => Some (FS (unname b (unname a (fs_names f)) ++ [(b, i)]) (fs_files f))
  | None => None
  end.
(** A process that writes the wheel (327-329 and 356-386): where it is, the file and the position in it, and the bytes
    still to be written, one at a time. A rename is one step. *)
Inductive wpc := CStart | CWrite (i k : nat) (rest : list nat) | CDone | CFailed.
Section Copy.
Variable tmp target : string.
Definition cstep (data : list nat) (c : wpc * fsys) : wpc * fsys :=
  match fst c with
  | CStart => let (i, f) := fopen tmp (snd c) in (CWrite i 0 data, f)
  | CWrite i k (b :: r) => (CWrite i (S k) r, fwrite i k b (snd c))
  | CWrite i k [] => match frename tmp target (snd c) with Some f => (CDone, f) | None => (CFailed, snd c) end
  | CDone => c
  | CFailed => c
  end.
(** Processes one after the other, each of which ends (or is killed) after some steps. *)
Definition attempt (f : fsys) (a : list nat * nat) : fsys := snd (Nat.iter (snd a) (cstep (fst a)) (CStart, f)).
Definition attempts (l : list (list nat * nat)) (f : fsys) : fsys := fold_left attempt l f.
(** Two at the same time: the schedule says who runs. *)
Definition two_steps (d1 d2 : list nat) (sched : list bool) (f : fsys) : wpc * wpc * fsys :=
  fold_left (fun x (one : bool) => let '(c1, c2, g) := x in
                                   if one then let (c, g') := cstep d1 (c1, g) in (c, c2, g') else let (c, g') := cstep d2 (c2, g) in (c1, c, g'))
            sched (CStart, CStart, f).
End Copy.
(** No two names for one file, and each name stands for a file. *)
Definition plain (f : fsys) : Prop := NoDup (map fst (fs_names f)) /\ NoDup (map snd (fs_names f)) /\ forall n i, In (n, i) (fs_names f) -> i < length (fs_files f).
Lemma lookup_iff n i f : plain f -> lookup n f = Some i <-> In (n, i) (fs_names f).
Proof.
  intros [N _]. unfold lookup. induction (fs_names f) as [|[a b] r IH]; simpl in *; [split; [discriminate|intros []]|].
  inversion N as [|? ? N1 N2]; subst. destruct (String.eqb_spec a n) as [->|X]; simpl.
  - split; [intros E; injection E as <-; auto|intros [E|E]; [congruence|]]. exfalso. apply N1. apply in_map_iff. exists (n, i). auto.
  - rewrite (IH N2). split; [auto|intros [E|E]; [congruence|auto]].
Qed.
Lemma lookup_none n f : lookup n f = None <-> ~ In n (map fst (fs_names f)).
Proof.
  unfold lookup. induction (fs_names f) as [|[a b] r IH]; simpl; [split; auto|]. destruct (String.eqb_spec a n) as [->|X]; simpl.
  - split; [discriminate|intros H; exfalso; auto].
  - rewrite IH. split; [intros H [E|E]; auto|intros H E; auto].
Qed.
Lemma in_unname n a i l : In (a, i) (unname n l) <-> In (a, i) l /\ a <> n.
Proof. unfold unname. rewrite filter_In. simpl. destruct (String.eqb_spec a n); simpl; split; intros [A B]; split; auto; congruence. Qed.
Lemma nodup_sub {A B} (g : A -> B) (h : A -> bool) l : NoDup (map g l) -> NoDup (map g (filter h l)).
Proof.
  induction l as [|x r IH]; simpl; intros N; [auto|]. inversion N as [|? ? N1 N2]; subst. destruct (h x); simpl; auto. constructor; auto.
  intros H. apply N1. apply in_map_iff in H as [y [E Y]]. apply filter_In in Y as [Y _]. apply in_map_iff. eauto.
Qed.
Lemma plain_files f files : plain f -> length files = length (fs_files f) -> plain (FS (fs_names f) files).
Proof. intros [A [B C]] L. split; [|split]; simpl; auto. intros n i H. rewrite L. eauto. Qed.
Lemma plain_inj f n m i : plain f -> lookup n f = Some i -> lookup m f = Some i -> n = m.
Proof.
  intros P A B. apply (lookup_iff _ _ _ P) in A. apply (lookup_iff _ _ _ P) in B. destruct P as [_ [N _]].
  induction (fs_names f) as [|[a b] r IH]; simpl in *; [tauto|]. inversion N as [|? ? N1 N2]; subst.
  destruct A as [A|A], B as [B|B]; try congruence; auto.
  - exfalso. apply N1. injection A as -> ->. apply in_map_iff. exists (m, i). auto.
  - exfalso. apply N1. injection B as -> ->. apply in_map_iff. exists (n, i). auto.
Qed.
Lemma plain_bound f n i : plain f -> lookup n f = Some i -> i < length (fs_files f).
Proof. intros P H. apply (lookup_iff _ _ _ P) in H. destruct P as [_ [_ C]]. eauto. Qed.
Lemma nodup_snoc {A} (l : list A) x : NoDup l -> ~ In x l -> NoDup (l ++ [x]).
Proof. intros N H. apply NoDup_Add with (a := x) (l := l); [|auto]. rewrite <- (app_nil_r l) at 1. apply Add_app. Qed.
(** Opening the second name: it is empty and everything else is as before. *)
Lemma fopen_spec n f i g : plain f -> fopen n f = (i, g) ->
  plain g /\ lookup n g = Some i /\ contents n g = Some [] /\ forall m, m <> n -> contents m g = contents m f.
Proof.
  intros P. unfold fopen. destruct (lookup n f) as [j|] eqn:L; intros E; injection E as <- <-.
  - pose proof (plain_bound _ _ _ P L) as B. split; [|split; [|split]].
    + apply plain_files; [auto|apply put_length].
    + exact L.
    + unfold contents. change (lookup n (FS (fs_names f) (put (fs_files f) j []))) with (lookup n f). rewrite L. simpl. apply put_same. exact B.
    + intros m M. unfold contents. change (lookup m (FS (fs_names f) (put (fs_files f) j []))) with (lookup m f).
      destruct (lookup m f) as [k|] eqn:K; [|reflexivity]. simpl. apply put_other. intros ->. apply M. eapply plain_inj; eauto.
  - set (g := FS _ _). assert (PG : plain g).
    { destruct P as [A [B C]]. unfold g. split; [|split]; simpl.
      - rewrite map_app. simpl. apply nodup_snoc; [auto|]. apply lookup_none. exact L.
      - rewrite map_app. simpl. apply nodup_snoc; [auto|]. intros H. apply in_map_iff in H as [[a b] [E H]]. simpl in E. subst b. apply C in H. lia.
      - intros a b H. rewrite app_length. simpl. apply in_app_or in H as [H|[H|[]]]; [apply C in H; lia|injection H as <- <-; lia]. }
    assert (LN : lookup n g = Some (length (fs_files f))). { apply (lookup_iff _ _ _ PG). unfold g. simpl. apply in_or_app. right. left. reflexivity. }
    split; [auto|split; [auto|split]].
    + unfold contents. rewrite LN. unfold g. simpl. rewrite nth_error_app2, Nat.sub_diag; [reflexivity|auto].
    + intros m M. unfold contents. destruct (lookup m f) as [k|] eqn:K.
      * assert (LM : lookup m g = Some k). { apply (lookup_iff _ _ _ PG). unfold g. simpl. apply in_or_app. left. apply (lookup_iff _ _ _ P). exact K. }
        rewrite LM. unfold g. simpl. apply nth_error_app1. eapply plain_bound; eauto.
      * assert (LM : lookup m g = None). { apply lookup_none. unfold g. simpl. rewrite map_app. intros H. apply in_app_or in H as [H|[H|[]]]; [apply lookup_none in K; auto|simpl in H; congruence]. }
        rewrite LM. reflexivity.
Qed.
Lemma write_end l b : write_at l (length l) b = l ++ [b].
Proof.
  unfold write_at. rewrite firstn_app, Nat.sub_diag, firstn_all, firstn_O, app_nil_r. rewrite skipn_all2; [reflexivity|lia].
Qed.
Lemma fwrite_spec n f i l b : plain f -> lookup n f = Some i -> contents n f = Some l ->
  let g := fwrite i (length l) b f in
  plain g /\ lookup n g = Some i /\ contents n g = Some (l ++ [b]) /\ forall m, m <> n -> contents m g = contents m f.
Proof.
  intros P L C g. pose proof (plain_bound _ _ _ P L) as B.
  assert (D : nth i (fs_files f) [] = l). { unfold contents in C. rewrite L in C. apply nth_error_nth with (d := []) in C. exact C. }
  assert (LK : forall m, lookup m g = lookup m f) by reflexivity.
  split; [|split; [|split]].
  - unfold g, fwrite. apply plain_files; [auto|apply put_length].
  - rewrite LK. exact L.
  - unfold contents. rewrite LK, L. unfold g, fwrite. simpl. rewrite D, write_end. apply put_same. exact B.
  - intros m M. unfold contents. rewrite LK. destruct (lookup m f) as [k|] eqn:K; [|reflexivity]. unfold g, fwrite. simpl.
    apply put_other. intros ->. apply M. eapply plain_inj; eauto.
Qed.
Lemma frename_spec a b f i : a <> b -> plain f -> lookup a f = Some i ->
  exists g, frename a b f = Some g /\ plain g /\ contents b g = contents a f /\ contents a g = None /\ forall m, m <> a -> m <> b -> contents m g = contents m f.
Proof.
  intros AB P L. unfold frename. rewrite L. eexists. split; [reflexivity|]. set (g := FS _ _).
  assert (IN : forall m k, In (m, k) (fs_names g) <-> (In (m, k) (fs_names f) /\ m <> a /\ m <> b) \/ (m = b /\ k = i)).
  { intros m k. unfold g. simpl. rewrite in_app_iff, !in_unname. simpl. split.
    - intros [[[A B] C]|[E|[]]]; [auto|injection E as <- <-; auto].
    - intros [[A [B C]]|[-> ->]]; auto. }
  assert (PG : plain g).
  { pose proof P as [A [B C]]. split; [|split].
    - unfold g. simpl. rewrite map_app. simpl. apply nodup_snoc; [unfold unname; apply nodup_sub, nodup_sub; auto|].
      intros H. apply in_map_iff in H as [[x y] [E H]]. simpl in E. subst x. apply in_unname in H as [_ H]. auto.
    - unfold g. simpl. rewrite map_app. simpl. apply nodup_snoc; [unfold unname; apply nodup_sub, nodup_sub; auto|].
      intros H. apply in_map_iff in H as [[x y] [E H]]. simpl in E. subst y. apply in_unname in H as [H _]. apply in_unname in H as [H N].
      apply (lookup_iff _ _ _ P) in H. apply N. eapply plain_inj; eauto.
    - intros n k H. unfold g. simpl fs_files. apply IN in H as [[H _]|[-> ->]]; [eauto|eapply plain_bound; eauto]. }
  assert (LB : lookup b g = Some i) by (apply (lookup_iff _ _ _ PG), IN; auto).
  split; [auto|split; [|split]].
  - unfold contents. rewrite LB, L. reflexivity.
  - unfold contents. destruct (lookup a g) as [k|] eqn:K; [|reflexivity]. apply (lookup_iff _ _ _ PG), IN in K as [[_ [K _]]|[K _]]; congruence.
  - intros m MA MB. unfold contents. destruct (lookup m f) as [k|] eqn:K.
    + assert (LM : lookup m g = Some k). { apply (lookup_iff _ _ _ PG), IN. left. split; auto. apply (lookup_iff _ _ _ P). exact K. }
      rewrite LM. reflexivity.
    + destruct (lookup m g) as [k|] eqn:K2; [|reflexivity]. apply (lookup_iff _ _ _ PG), IN in K2 as [[K2 _]|[K2 _]]; [|congruence].
      apply (lookup_iff _ _ _ P) in K2. congruence.
Qed.
Section CopyProofs.
Variable tmp target : string.
Hypothesis two_names : tmp <> target.
Definition progress (data : list nat) (f : fsys) (j : nat) (c : wpc * fsys) : Prop :=
  plain (snd c) /\ (forall m, m <> tmp -> m <> target -> contents m (snd c) = contents m f) /\
  match fst c with
  | CStart => j = 0 /\ snd c = f
  | CWrite i k rest => lookup tmp (snd c) = Some i /\ j = S k /\ k <= length data /\ rest = skipn k data /\
                       contents tmp (snd c) = Some (firstn k data) /\ contents target (snd c) = contents target f
  | CDone => length data + 2 <= j /\ contents target (snd c) = Some data
  | CFailed => False
  end.
Lemma progress_step data f j c : progress data f j c -> progress data f (S j) (cstep tmp target data c).
Proof.
  destruct c as [pc g]. unfold progress, cstep. cbn [fst snd]. intros [P [O H]]. destruct pc as [|i k [|b r]| |].
  - destruct H as [-> ->]. destruct (fopen tmp f) as [i g] eqn:E. cbn [fst snd]. apply fopen_spec in E as [PG [L [C M]]]; [|auto].
    split; [auto|split; [auto|]]. split; [auto|]. split; [auto|]. split; [lia|]. split; [reflexivity|]. split; [exact C|]. apply M. auto.
  - destruct H as [L [-> [K [R [C T]]]]]. destruct (frename_spec tmp target g i two_names P L) as [g' [E [PG [T' [_ M]]]]]. rewrite E. cbn [fst snd].
    assert (KL : k = length data). { symmetry in R. apply (f_equal (@length nat)) in R. rewrite skipn_length in R. simpl in R. lia. }
    split; [auto|split]. { intros m A B. rewrite M; auto. } split; [lia|]. rewrite T', C, KL, firstn_all. reflexivity.
  - destruct H as [L [-> [K [R [C T]]]]]. cbn [fst snd].
    assert (KL : k < length data). { symmetry in R. apply (f_equal (@length nat)) in R. rewrite skipn_length in R. simpl in R. lia. }
    assert (FL : length (firstn k data) = k) by (rewrite firstn_length; lia).
    assert (SK : firstn (S k) data = firstn k data ++ [b] /\ skipn (S k) data = r).
    { pose proof (firstn_skipn k data) as D. rewrite <- R in D. split.
      - rewrite <- D at 1. rewrite firstn_app, FL, firstn_firstn. replace (S k - k) with 1 by lia. replace (Nat.min (S k) k) with k by lia. reflexivity.
      - rewrite <- D. rewrite skipn_app, FL. replace (S k - k) with 1 by lia. rewrite skipn_all2; [reflexivity|lia]. }
    destruct (fwrite_spec tmp g i (firstn k data) b P L C) as [PG [L' [C' M]]]. rewrite FL in *.
    split; [auto|split]. { intros m A B. rewrite M; auto. }
    split; [auto|]. split; [auto|]. split; [lia|]. destruct SK as [S1 S2]. rewrite S1, S2. split; [auto|]. split; [auto|]. rewrite M; auto.
  - cbn [fst snd]. destruct H as [H C]. split; [auto|split; [auto|split; [lia|auto]]].
  - destruct H.
Qed.
Lemma progress_all data f j : plain f -> progress data f j (Nat.iter j (cstep tmp target data) (CStart, f)).
Proof.
  intros P. induction j as [|j IH]; simpl; [split; [auto|split; [auto|split; auto]]|]. apply progress_step. exact IH.
Qed.
Lemma attempt_spec f a : plain f ->
  plain (attempt tmp target f a) /\ (forall m, m <> tmp -> m <> target -> contents m (attempt tmp target f a) = contents m f) /\
  (snd a < length (fst a) + 2 -> contents target (attempt tmp target f a) = contents target f) /\
  (length (fst a) + 2 <= snd a -> contents target (attempt tmp target f a) = Some (fst a)).
Proof.
  intros P. destruct a as [d j]. unfold attempt. cbn [fst snd]. pose proof (progress_all d f j P) as [PG [O H]].
  destruct (Nat.iter j (cstep tmp target d) (CStart, f)) as [[|i k r| |] g]; cbn [fst snd] in *.
  - destruct H as [-> ->]. split; [auto|split; [auto|split; [auto|lia]]].
  - destruct H as [_ [-> [K [R [_ T]]]]]. split; [auto|split; [auto|split; [auto|lia]]].
  - destruct H as [L C]. split; [auto|split; [auto|split; [lia|auto]]].
  - destruct H.
Qed.
End CopyProofs.
(** Processes that write the wheel one after the other, each killed at any point: the wheel's name stands for the last
    wheel that was written to its end, or else for what it stood for before; nothing else is changed. *)
Definition finished (a : list nat * nat) : bool := Nat.leb (length (fst a) + 2) (snd a).
Theorem C98_crash : forall tmp target f l, tmp <> target -> plain f ->
  contents target (attempts tmp target l f) =
    match rev (filter finished l) with a :: _ => Some (fst a) | [] => contents target f end /\
  forall m, m <> tmp -> m <> target -> contents m (attempts tmp target l f) = contents m f.
Proof.
  intros tmp target f l T P. cut (plain (attempts tmp target l f) /\ contents target (attempts tmp target l f) =
    match rev (filter finished l) with a :: _ => Some (fst a) | [] => contents target f end /\
    forall m, m <> tmp -> m <> target -> contents m (attempts tmp target l f) = contents m f); [tauto|].
  induction l as [|a l IH] using rev_ind; [split; [exact P|split; [reflexivity|reflexivity]]|].
  unfold attempts in *. rewrite fold_left_app. simpl. destruct IH as [PG [C M]].
  destruct (attempt_spec tmp target T _ a PG) as [PH [O [S1 S2]]]. split; [auto|]. split; [|intros m A B; rewrite O; auto].
  rewrite filter_app, rev_app_distr. simpl. unfold finished at 1. destruct (Nat.leb_spec (length (fst a) + 2) (snd a)) as [L|L]; simpl.
  - apply S2. exact L.
  - rewrite S1; auto.
Qed.
Print Assumptions C98_crash.
Example C98_crash_example :
  let f := FS [("w", 0); ("x", 1)] [[7]; [8]] in
  plain f /\ contents "w" (attempts "t" "w" [([1; 2; 3], 3)] f) = Some [7] /\ contents "t" (attempts "t" "w" [([1; 2; 3], 3)] f) = Some [1; 2] /\
  contents "w" (attempts "t" "w" [([1; 2; 3], 3); ([1; 2; 3], 5); ([4], 2)] f) = Some [1; 2; 3].
Proof.
  split; [|vm_compute; auto]. split; [|split]; simpl.
  - repeat constructor; simpl; intuition congruence.
  - repeat constructor; simpl; intuition congruence.
  - intros n i [E|[E|[]]]; injection E as <- <-; lia.
Qed.
(** Two processes at once use the same second name: the wheel's name stands for an incomplete wheel - here while the other
    process still writes, and for good if it is killed - and the process that comes second fails. *)
Theorem C98_two_refuted :
  let f := FS [] [] in
  (exists sched, let '(c1, c2, g) := two_steps "t" "w" [1; 2; 3] [1; 2; 3] sched f in
     c1 = CDone /\ contents "w" g <> Some [1; 2; 3]) /\
  (exists sched, let '(c1, c2, g) := two_steps "t" "w" [1; 2; 3] [1; 2; 3] sched f in c1 = CDone /\ c2 = CFailed).
Proof.
  split.
  - exists [true; true; true; true; false; true]. vm_compute. split; [reflexivity|congruence].
  - exists [true; false; true; true; true; true; false; false; false; false]. vm_compute. auto.
Qed.
Print Assumptions C98_two_refuted.
