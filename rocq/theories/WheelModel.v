(** * Model of the reconstruction of a wheel (/repo/src/reactpy/executors/pyscript/utils.py) and property C68 *)
From Coq Require Import String Ascii Bool Arith Lia List.
From Verif Require Import Strings PyStr.
Import ListNotations.
Local Open Scope string_scope. Local Open Scope list_scope.

(** A [PurePosixPath]: absolute or not, and its components; empty components and "." are dropped. Simplified: exactly two
    leading slashes count as one. *)
Record path := { abs : bool; parts : list string }.
Definition path_of (s : string) : path :=
  {| abs := match s with String a _ => Ascii.eqb a "/" | "" => false end;
     parts := filter (fun p => negb (String.eqb p "") && negb (String.eqb p ".")) (split "/" s) |}.
(** [as_posix]. *)
Definition as_posix (p : path) : string :=
  if abs p then String "/" (join "/" (parts p)) else match parts p with [] => "." | l => join "/" l end.
(** [.name]: the last component. *)
Definition name_of (p : path) : string := last (parts p) "".
(** [.parent]: without the last component. *)
Definition parent (p : path) : path := {| abs := abs p; parts := removelast (parts p) |}.

(** [_wheel_archive_name], utils.py:333-337. *)
Definition wheel_archive_name (p : path) : option string :=
  if abs p || existsb (String.eqb "..") (parts p) then None else Some (as_posix p).
(** [_installed_wheel_record_name], lines 426-441. *)
Definition record_name (version : string) (files : list string) : string :=
  match find (fun f => String.eqb (name_of (path_of f)) "RECORD") files with
  | Some f => as_posix (path_of f)
  | None => let d := match find (fun f => String.eqb (name_of (path_of f)) "WHEEL") files with
                     | Some f => as_posix (parent (path_of f))
                     | None => ("reactpy-" ++ version ++ ".dist-info")%string
                     end in (d ++ "/RECORD")%string
  end.

Section Wheel.
  (** Contents of files; [digest]: the hash and the size of [_record_row], lines 444-446; [text]: [_record_text]. [read f]: the
      content of the installed file, [None] if there is no such regular file. *)
  Context {data dig : Type} (digest : data -> dig) (text : list (string * option dig) -> data) (read : string -> option data).
  (** The loop of [_rebuild_installed_reactpy_wheel], lines 361-381: the archive's members and the rows. *)
  Fixpoint pack (record : string) (files : list string) (zip : list (string * data)) (rows : list (string * option dig)) : list (string * data) * list (string * option dig) :=
    match files with
    | [] => (zip, rows)
    | f :: r => match wheel_archive_name (path_of f) with
                | None => pack record r zip rows
                | Some n => if String.eqb n record then pack record r zip rows
                            else match read f with
                                 | None => pack record r zip rows
                                 | Some d => pack record r (zip ++ [(n, d)]) (rows ++ [(n, Some (digest d))])
                                 end
                end
    end.
  (** The whole of it, lines 340-390: [None] without files. *)
  Definition rebuild (version : string) (files : list string) : option (list (string * data) * list (string * option dig)) :=
    match files with
    | [] => None
    | _ => let rec := record_name version files in
           let '(zip, rows) := pack rec files [] [] in
           let rows := rows ++ [(rec, None)] in
           Some (zip ++ [(rec, text rows)], rows)
    end.

  (** Specification. A member's name stays inside the directory into which the archive is unpacked. *)
  Definition inside (n : string) : Prop := first_char n <> Some "/"%char /\ ~ In ".." (split "/" n).

  Lemma parts_ok s : Forall (fun p => nochar "/" p /\ p <> "") (parts (path_of s)).
  Proof.
    apply Forall_forall. intros p I. apply filter_In in I. destruct I as [I F]. apply andb_true_iff in F. destruct F as [F _]. apply negb_true_iff, String.eqb_neq in F. split; auto.
    assert (N := split_nochar "/" s). rewrite Forall_forall in N. auto.
  Qed.
  Lemma first_join p l : p <> "" -> first_char (join "/" (p :: l)) = first_char p.
  Proof. intros N. destruct p; [congruence|]. destruct l; reflexivity. Qed.
  Lemma archive_inside s n : wheel_archive_name (path_of s) = Some n -> inside n.
  Proof.
    unfold wheel_archive_name. destruct (abs (path_of s)) eqn:A; [discriminate|]. cbn [orb]. destruct (existsb _ _) eqn:E; [discriminate|]. intros H. injection H as <-.
    assert (P := parts_ok s). assert (D : ~ In ".." (parts (path_of s))).
    { intros I. assert (X : existsb (String.eqb "..") (parts (path_of s)) = true) by (apply existsb_exists; exists ".."; split; auto). congruence. }
    unfold as_posix. rewrite A. destruct (parts (path_of s)) as [|p l] eqn:PE; [split; [discriminate|cbn; intuition discriminate]|].
    inversion P as [|? ? [N1 N2] P']; subst. split.
    - rewrite first_join by auto. destruct p as [|a p]; [congruence|]. cbn. destruct N1. congruence.
    - rewrite split_join; [exact D|discriminate|]. eapply Forall_impl; [|exact P]. intros a [X _]. exact X.
  Qed.
  (** What the loop adds: for each file in turn that has a name in the archive, is not the record and is a regular file, its
      name and content. *)
  Definition member (record f : string) : list (string * data) :=
    match wheel_archive_name (path_of f), read f with
    | Some n, Some d => if String.eqb n record then [] else [(n, d)]
    | _, _ => []
    end.
  Lemma pack_spec rec files : forall zip rows, pack rec files zip rows = (zip ++ flat_map (member rec) files, rows ++ map (fun nd => (fst nd, Some (digest (snd nd)))) (flat_map (member rec) files)).
  Proof.
    induction files as [|f r IH]; intros zip rows; cbn [pack flat_map]; [cbn; rewrite !app_nil_r; reflexivity|]. unfold member at 1 3.
    destruct (wheel_archive_name (path_of f)) as [n|]; [|rewrite IH; reflexivity]. destruct (String.eqb n rec) eqn:E.
    - rewrite IH. destruct (read f); rewrite ?E; reflexivity.
    - destruct (read f) as [d|]; rewrite IH; [|reflexivity]. rewrite ?E, map_app, <- !app_assoc. reflexivity.
  Qed.
  (** RECORD lists the members of the archive, in order, each with the hash of its content, and itself last, without one; it is
      the content of the last member. *)
  Theorem C68_listed version files zip rows : rebuild version files = Some (zip, rows) ->
    exists zip' rec, zip = zip' ++ [(rec, text rows)] /\ rows = map (fun nd => (fst nd, Some (digest (snd nd)))) zip' ++ [(rec, None)] /\ ~ In rec (map fst zip').
  Proof.
    unfold rebuild. destruct files as [|f r]; [discriminate|]. rewrite pack_spec. set (rec := record_name version (f :: r)). intros H. injection H as <- <-. cbn [app].
    exists (flat_map (member rec) (f :: r)), rec. repeat split. intros I. apply in_map_iff in I. destruct I as ([n d] & E & I). cbn in E. subst n. apply in_flat_map in I. destruct I as (g & _ & I).
    unfold member in I. destruct (wheel_archive_name (path_of g)) as [n|]; [|destruct I]. destruct (read g); [|destruct I]. destruct (String.eqb_spec n rec); [destruct I|]. destruct I as [I|[]]. congruence.
  Qed.
  (** Nothing is left out: a listed regular file with a relative name without ".." is a member, under its normalized name,
      unless this is the name of the record. *)
  Theorem C68_complete version files zip rows f d : rebuild version files = Some (zip, rows) -> In f files -> read f = Some d ->
    first_char f <> Some "/"%char -> ~ In ".." (split "/" f) ->
    let n := as_posix (path_of f) in n = record_name version files \/ In (n, d) zip.
  Proof.
    unfold rebuild. destruct files as [|f0 r]; [discriminate|]. rewrite pack_spec. set (rec := record_name version (f0 :: r)). intros H I R A D. injection H as <- <-. cbn [app].
    destruct (string_dec (as_posix (path_of f)) rec) as [E|N]; [left; auto|right]. apply in_or_app. left. change (member rec f0 ++ flat_map (member rec) r) with (flat_map (member rec) (f0 :: r)). apply in_flat_map. exists f. split; auto. unfold member, wheel_archive_name.
    assert (AB : abs (path_of f) = false). { cbn. destruct f as [|a f]; auto. cbn in A. destruct (eqb_spec' a "/"); auto. congruence. }
    assert (DD : existsb (String.eqb "..") (parts (path_of f)) = false).
    { destruct (existsb _ _) eqn:E; auto. apply existsb_exists in E. destruct E as (x & X & Y). apply String.eqb_eq in Y. subst x. apply filter_In in X. tauto. }
    rewrite AB, DD. cbn [orb]. rewrite R. apply String.eqb_neq in N. rewrite N. left. reflexivity.
  Qed.
  (** Nothing is made up: each member but the record is a listed file with its content. *)
  Theorem C68_sound version files zip rows n d : rebuild version files = Some (zip, rows) -> In (n, d) zip ->
    (n = record_name version files /\ d = text rows) \/ (exists f, In f files /\ read f = Some d /\ n = as_posix (path_of f) /\ inside n).
  Proof.
    unfold rebuild. destruct files as [|f0 r]; [discriminate|]. rewrite pack_spec. set (rec := record_name version (f0 :: r)). intros H I. injection H as <- <-. cbn [app] in *.
    apply in_app_or in I. destruct I as [I|[I|[]]]; [right|left; split; congruence]. change (member rec f0 ++ flat_map (member rec) r) with (flat_map (member rec) (f0 :: r)) in I. apply in_flat_map in I. destruct I as (f & F & I). exists f. unfold member in I.
    destruct (wheel_archive_name (path_of f)) as [m|] eqn:W; [|destruct I]. destruct (read f) as [d'|]; [|destruct I]. destruct (String.eqb m rec); [destruct I|]. destruct I as [I|[]]. injection I as -> ->.
    assert (IN := archive_inside f n W). unfold wheel_archive_name in W. destruct (_ || _); [discriminate|]. injection W as <-. auto.
  Qed.
  (** All members stay inside if the files named RECORD and WHEEL do. *)
  Definition tame (f : string) : Prop := first_char f <> Some "/"%char /\ ~ In ".." (split "/" f).
  Lemma as_posix_inside f : tame f -> wheel_archive_name (path_of f) = Some (as_posix (path_of f)).
  Proof.
    intros [A D]. unfold wheel_archive_name.
    assert (AB : abs (path_of f) = false). { cbn. destruct f as [|a f]; auto. cbn in A. destruct (eqb_spec' a "/"); auto. congruence. }
    assert (DD : existsb (String.eqb "..") (parts (path_of f)) = false).
    { destruct (existsb _ _) eqn:E; auto. apply existsb_exists in E. destruct E as (x & X & Y). apply String.eqb_eq in Y. subst x. apply filter_In in X. tauto. }
    rewrite AB, DD. reflexivity.
  Qed.
  Theorem C68_inside_partial version files zip rows : nochar "/" version -> Forall (fun f => In (last (split "/" f) "") ["RECORD"; "WHEEL"; ""; "."] -> tame f) files ->
    rebuild version files = Some (zip, rows) -> Forall (fun nd => inside (fst nd)) zip.
  Proof.
    intros V F H. apply Forall_forall. intros [n d] I. cbn [fst]. destruct (C68_sound _ _ _ _ _ _ H I) as [[-> _]|(f & _ & _ & _ & X)]; auto.
    assert (LN : forall f x, x = "RECORD" \/ x = "WHEEL" -> name_of (path_of f) = x -> In (last (split "/" f) "") ["RECORD"; "WHEEL"; ""; "."]).
    { intros f x X N. unfold name_of in N. cbn [path_of parts] in N. destruct (split_cons "/" f) as (p & ps & SP). destruct (@exists_last _ (split "/" f)) as (l & z & E); [rewrite SP; discriminate|].
      rewrite E in *. rewrite last_last. rewrite filter_app in N. cbn [filter] in N. destruct (String.eqb_spec z ""); [subst; cbn; tauto|]. destruct (String.eqb_spec z "."); [subst; cbn; tauto|].
      cbn [negb andb] in N. rewrite last_last in N. subst z. destruct X as [-> | ->]; cbn; tauto. }
    rewrite Forall_forall in F. unfold record_name. destruct (find _ files) as [f|] eqn:FR.
    - apply find_some in FR. destruct FR as [IF E]. apply String.eqb_eq in E. eapply archive_inside. apply as_posix_inside. apply F; auto. apply (LN f "RECORD"); auto.
    - clear FR. destruct (find _ files) as [f|] eqn:FW.
      + apply find_some in FW. destruct FW as [IF E]. apply String.eqb_eq in E. assert (T : tame f) by (apply F; auto; apply (LN f "WHEEL"); auto).
        assert (W := as_posix_inside f T). unfold wheel_archive_name in W. destruct (abs (path_of f)) eqn:A; [discriminate|]. cbn [orb] in W. destruct (existsb _ _) eqn:EX; [discriminate|]. clear W.
        assert (P := parts_ok f). assert (D : ~ In ".." (parts (path_of f))).
        { intros IX. assert (X : existsb (String.eqb "..") (parts (path_of f)) = true) by (apply existsb_exists; exists ".."; split; auto). congruence. }
        unfold as_posix, parent. cbn [abs parts]. rewrite A. unfold name_of in E. destruct (parts (path_of f)) as [|p l] eqn:PE; [discriminate E|].
        destruct (@exists_last _ (p :: l)) as (q & z & Q); [discriminate|]. rewrite Q in *. rewrite removelast_last. apply Forall_app in P. destruct P as [P _]. destruct q as [|p' q]; [split; [discriminate|cbn; intuition discriminate]|].
        assert (J : (join "/" (p' :: q) ++ "/RECORD")%string = join "/" ((p' :: q) ++ ["RECORD"])).
        { clear. revert p'. induction q as [|x q IH]; intros p'; [reflexivity|]. cbn [app]. rewrite !join_cons. cbn [app] in IH. rewrite <- IH, !app_assoc_s. reflexivity. }
        rewrite J. inversion P as [|? ? [N1 N2] P']; subst. split.
        * cbn [app]. rewrite first_join by auto. destruct p' as [|a p']; [congruence|]. cbn. destruct N1. congruence.
        * rewrite split_join; [|discriminate|]. { intros IX. apply in_app_or in IX. destruct IX as [IX|[IX|[]]]; [|discriminate]. apply D. apply in_or_app. auto. }
          apply Forall_app. split; [|repeat constructor; try discriminate]. eapply Forall_impl; [|exact P]. intros a [X _]. exact X.
      + assert (NS : nochar "/" ("reactpy-" ++ version ++ ".dist-info")). { apply nochar_app. split; [repeat split; discriminate|]. apply nochar_app. split; auto. repeat split; discriminate. }
        split; [cbn; discriminate|]. change "/RECORD" with (String "/" "RECORD"). rewrite split_app by exact NS. cbn. intuition discriminate.
  Qed.
End Wheel.
Example C68_example : rebuild (fun d : nat => d) (fun rows => length rows) (fun f => if String.eqb f "gone" then None else Some 7) "2"
    ["reactpy/a.py"; "../bin/x"; "/etc/y"; "gone"; "reactpy-2.dist-info/RECORD"; "reactpy//./b.py"]
  = Some ([("reactpy/a.py", 7); ("reactpy/b.py", 7); ("reactpy-2.dist-info/RECORD", 3)], [("reactpy/a.py", Some 7); ("reactpy/b.py", Some 7); ("reactpy-2.dist-info/RECORD", None)]).
Proof. reflexivity. Qed.
(** Findings: the record's own name is not checked, so that the archive may have a member outside; and a file named RECORD that
    is not the distribution's may be taken for it: it is left out, and the installed RECORD is packed as an ordinary file. *)
Theorem C68_record_refuted : exists files zip rows n, rebuild (fun d : nat => d) (fun rows => length rows) (fun _ => Some 7) "2" files = Some (zip, rows) /\ In n (map fst zip) /\ In ".." (split "/" n).
Proof. exists ["reactpy/a.py"; "../../RECORD"]. eexists _, _, "../../RECORD". split; [reflexivity|]. split; cbn; tauto. Qed.
Theorem C68_absolute_refuted : exists files zip rows n, rebuild (fun d : nat => d) (fun rows => length rows) (fun _ => Some 7) "2" files = Some (zip, rows) /\ In n (map fst zip) /\ first_char n = Some "/"%char.
Proof. exists ["reactpy/a.py"; "/opt/WHEEL"]. eexists _, _, "/opt/RECORD". split; [reflexivity|]. split; cbn; tauto. Qed.
Theorem C68_other_record_refuted : rebuild (fun d : nat => d) (fun rows => length rows) (fun _ => Some 7) "2" ["reactpy/a/RECORD"; "reactpy-2.dist-info/RECORD"]
  = Some ([("reactpy-2.dist-info/RECORD", 7); ("reactpy/a/RECORD", 2)], [("reactpy-2.dist-info/RECORD", Some 7); ("reactpy/a/RECORD", None)]).
Proof. reflexivity. Qed.

Print Assumptions C68_record_refuted.
Print Assumptions C68_absolute_refuted.
Print Assumptions C68_other_record_refuted.
