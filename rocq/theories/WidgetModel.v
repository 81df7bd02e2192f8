(** * Model of the widgets (/repo/src/reactpy/widgets.py) and properties C55, C56 *)
From Coq Require Import String Ascii Bool Arith Lia List.
From Verif Require Import Dict Strings.
Import ListNotations.
Local Open Scope string_scope. Local Open Scope list_scope.

(** ** C55 *)

(** [b64encode] of the standard library (widgets.py:25), by RFC 4648: three bytes give four characters, each for six
    bits; a rest of one or two bytes is padded. A byte is a Coq character, most significant bit last. *)
Definition alphabet : string := "ABCDEFGHIJKLMNOPQRSTUVWXYZabcdefghijklmnopqrstuvwxyz0123456789+/".
Definition bit (b : bool) (n : nat) : nat := if b then n else 0.
Definition c64 (b5 b4 b3 b2 b1 b0 : bool) : ascii :=
  match String.get (bit b5 32 + bit b4 16 + bit b3 8 + bit b2 4 + bit b1 2 + bit b0 1) alphabet with Some c => c | None => "="%char end.
Definition first6 (x : ascii) : ascii := let (_, _, x2, x3, x4, x5, x6, x7) := x in c64 x7 x6 x5 x4 x3 x2.
Definition second6 (x y : ascii) : ascii := let (x0, x1, _, _, _, _, _, _) := x in let (_, _, _, _, y4, y5, y6, y7) := y in c64 x1 x0 y7 y6 y5 y4.
Definition third6 (y z : ascii) : ascii := let (y0, y1, y2, y3, _, _, _, _) := y in let (_, _, _, _, _, _, z6, z7) := z in c64 y3 y2 y1 y0 z7 z6.
Definition fourth6 (z : ascii) : ascii := let (z0, z1, z2, z3, z4, z5, _, _) := z in c64 z5 z4 z3 z2 z1 z0.
Fixpoint b64encode (s : string) : string :=
  match s with
  | EmptyString => ""
  | String x EmptyString => String (first6 x) (String (second6 x zero) "==")
  | String x (String y EmptyString) => String (first6 x) (String (second6 x y) (String (third6 y zero) "="))
  | String x (String y (String z r)) => String (first6 x) (String (second6 x y) (String (third6 y z) (String (fourth6 z) (b64encode r))))
  end.
(** [image], widgets.py:12-28. Simplified: a text value is given by its UTF-8 bytes; attribute values are strings. *)
Definition image (format value : string) (attributes : dict string string) : dict string string :=
  let format := if String.eqb format "svg" then "svg+xml" else format in
  dupdate [("src", ("data:image/" ++ format ++ ";base64," ++ b64encode value)%string)] attributes.

(** Specification: decoding by bits. Every character other than the padding stands for the six bits of its position in
    the alphabet of RFC 4648, table 1, which is written out here once more; the bits in a row, cut into groups of eight, are the bytes, and fewer than eight bits left are ignored. *)
Fixpoint position (c : ascii) (s : string) : nat := match s with EmptyString => 0 | String x r => if Ascii.eqb x c then 0 else S (position c r) end.
Definition rfc4648 : string := "ABCDEFGHIJKLMNOPQRSTUVWXYZ" ++ "abcdefghijklmnopqrstuvwxyz" ++ "0123456789" ++ "+" ++ "/".
Definition bits6 (n : nat) : list bool := map (Nat.testbit n) [5; 4; 3; 2; 1; 0].
Fixpoint text_bits (s : string) : list bool :=
  match s with EmptyString => [] | String c r => if Ascii.eqb c "=" then text_bits r else bits6 (position c rfc4648) ++ text_bits r end.
Definition byte_bits (c : ascii) : list bool := map (Nat.testbit (nat_of_ascii c)) [7; 6; 5; 4; 3; 2; 1; 0].
Fixpoint all_bits (s : string) : list bool := match s with EmptyString => [] | String c r => byte_bits c ++ all_bits r end.
Definition decodes (text value : string) : Prop := exists rest, text_bits text = all_bits value ++ rest /\ length rest < 8.

Lemma c64_bits b5 b4 b3 b2 b1 b0 r : text_bits (String (c64 b5 b4 b3 b2 b1 b0) r) = [b5; b4; b3; b2; b1; b0] ++ text_bits r.
Proof. destruct b5, b4, b3, b2, b1, b0; reflexivity. Qed.
Lemma byte_bits_eq b0 b1 b2 b3 b4 b5 b6 b7 : byte_bits (Ascii b0 b1 b2 b3 b4 b5 b6 b7) = [b7; b6; b5; b4; b3; b2; b1; b0].
Proof. destruct b0, b1, b2, b3, b4, b5, b6, b7; reflexivity. Qed.
Lemma string_ind3 (P : string -> Prop) : P "" -> (forall x, P (String x "")) -> (forall x y, P (String x (String y ""))) -> (forall x y z r, P r -> P (String x (String y (String z r)))) -> forall s, P s.
Proof. intros H0 H1 H2 H3. fix IH 1. intros [|x [|y [|z r]]]; [exact H0|apply H1|apply H2|apply H3, IH]. Qed.
Lemma b64_bits s : exists rest, text_bits (b64encode s) = all_bits s ++ rest /\ length rest < 8.
Proof.
  induction s as [|x|x y|x y z r (rest & E & L)] using string_ind3; cbn [b64encode all_bits].
  - exists []. simpl. auto with arith.
  - destruct x. cbn [first6 second6 zero]. rewrite !c64_bits, byte_bits_eq. eexists [false; false; false; false]. split; [reflexivity|simpl; lia].
  - destruct x, y. cbn [first6 second6 third6 zero]. rewrite !c64_bits, !byte_bits_eq. eexists [false; false]. split; [reflexivity|simpl; lia].
  - destruct x, y, z. cbn [first6 second6 third6 fourth6]. rewrite !c64_bits, !byte_bits_eq, E. exists rest. split; [reflexivity|auto].
Qed.
Lemma byte_bits_inj a b l m : byte_bits a ++ l = byte_bits b ++ m -> a = b /\ l = m.
Proof. destruct a, b. rewrite !byte_bits_eq. cbn. intros H. injection H. intros. subst. auto. Qed.
Lemma all_bits_length s : length (all_bits s) = 8 * String.length s.
Proof. induction s as [|c s IH]; auto. cbn [all_bits String.length]. rewrite app_length, IH. change (length (byte_bits c)) with 8. lia. Qed.
(** A text decodes to at most one value. *)
Theorem C55_unique t v w : decodes t v -> decodes t w -> v = w.
Proof.
  intros (r & E & L) (q & F & M). rewrite E in F. clear E t. assert (N : String.length v = String.length w).
  { apply (f_equal (@length bool)) in F. rewrite !app_length, !all_bits_length in F. lia. }
  clear L M. revert w F N. induction v as [|a v IH]; intros [|b w] F N; try discriminate; auto. cbn [all_bits] in F. rewrite <- !app_assoc in F. apply byte_bits_inj in F. destruct F as [-> F]. f_equal. apply IH; auto.
Qed.
(** The source of the image is a data URL whose payload decodes to the value, unless the attributes give a source; all
    given attributes are kept. *)
Theorem C55_image format value attributes : NoDup (dkeys attributes) -> let d := image format value attributes in
  (dget "src" attributes = None -> exists t, dget "src" d = Some ("data:image/" ++ (if String.eqb format "svg" then "svg+xml" else format) ++ ";base64," ++ t)%string /\ decodes t value) /\
  (forall k v, dget k attributes = Some v -> dget k d = Some v) /\
  (forall k, k <> "src" -> dget k attributes = None -> dget k d = None).
Proof.
  intros ND d. unfold d, image. repeat split.
  - intros N. exists (b64encode value). split; [|apply b64_bits]. rewrite dget_dupdate by auto. rewrite N. reflexivity.
  - intros k v H. rewrite dget_dupdate by auto. rewrite H. reflexivity.
  - intros k N H. rewrite dget_dupdate by auto. rewrite H. cbn. destruct (eq_dec k "src"); congruence.
Qed.
(** The payload is well padded: its length is a multiple of four. *)
Theorem C55_padding s : exists n, String.length (b64encode s) = 4 * n /\ 3 * n < String.length s + 3.
Proof.
  induction s as [|x|x y|x y z r (n & E & L)] using string_ind3; cbn [b64encode String.length].
  - exists 0. simpl. auto with arith.
  - exists 1. simpl. auto with arith.
  - exists 1. simpl. auto with arith.
  - exists (S n). rewrite E. lia.
Qed.
Example C55_example : b64encode "Man!" = "TWFuIQ==" /\ dget "src" (image "svg" "Ma" [("alt", "x")]) = Some "data:image/svg+xml;base64,TWE=".
Proof. split; reflexivity. Qed.

(** ** C56 *)

(** An attribute value: one of the user's, a value of the state, or the handler. *)
Inductive aval := User (n : nat) | Value (s : string) | Sync.
Section Linked.
  (** [cast] may raise; a value that [on_change] was called with is recorded whether or not it raises. *)
  Context {V : Type} (cast : string -> option V) (ignore_empty : bool).
  Record linked := Linked { ln_value : string; ln_log : list V }.
  (** [sync_inputs], widgets.py:62-67, run to its end: it has no [await]. The state update of line 64 is modelled by its
      effect at the next render (see C14 for [use_state]). *)
  Definition sync (s : linked) (new : string) : linked :=
    if andb (String.eqb new "") ignore_empty then Linked new (ln_log s)
    else Linked new (ln_log s ++ match cast new with Some v => [v] | None => [] end).
  (** Line 71: the attributes given to [html.input]. *)
  Definition inputs (attributes : list (dict string aval)) (s : linked) : list (dict string aval) :=
    map (fun a => dset "value" (Value (ln_value s)) (dset "onChange" Sync a)) attributes.
  (** Change events: which input, and its new value; every input has the same handler. *)
  Definition events (initial : string) (l : list (nat * string)) : linked := fold_left (fun s e => sync s (snd e)) l (Linked initial []).

  (** Specification: the values reported, in order. *)
  Inductive reported : list (nat * string) -> list V -> Prop :=
  | rp_nil : reported [] []
  | rp_empty i l r : ignore_empty = true -> reported l r -> reported ((i, "") :: l) r
  | rp_raise i w l r : w <> "" \/ ignore_empty = false -> cast w = None -> reported l r -> reported ((i, w) :: l) r
  | rp_value i w v l r : w <> "" \/ ignore_empty = false -> cast w = Some v -> reported l r -> reported ((i, w) :: l) (v :: r).
  Theorem C56_linked attributes initial l :
    let s := events initial l in
    length (inputs attributes s) = length attributes /\
    (forall a, In a (inputs attributes s) -> dget "value" a = Some (Value (last (map snd l) initial)) /\ dget "onChange" a = Some Sync) /\
    (forall i a k, nth_error attributes i = Some a -> k <> "value" -> k <> "onChange" -> exists b, nth_error (inputs attributes s) i = Some b /\ dget k b = dget k a) /\
    reported l (ln_log s).
  Proof.
    cbv zeta. assert (LAST : ln_value (events initial l) = last (map snd l) initial).
    { unfold events. assert (G : forall (l0 : list (nat * string)) (s : linked), ln_value (fold_left (fun s e => sync s (snd e)) l0 s) = last (map snd l0) (ln_value s)).
      { induction l0 as [|[i w] l0 IH]; intros s; [reflexivity|]. cbn [fold_left map snd]. rewrite IH. assert (E : ln_value (sync s w) = w) by (unfold sync; destruct (andb _ _); reflexivity). rewrite E.
        destruct l0 as [|e l0]; [reflexivity|]. change (last (w :: map snd (e :: l0)) (ln_value s)) with (last (map snd (e :: l0)) (ln_value s)). clear. cbn [map]. generalize (snd e). induction (map snd l0) as [|x m IH]; intros y; [reflexivity|]. exact (IH x). }
      apply G. }
    split; [apply map_length|]. split; [|split].
    - intros a I. apply in_map_iff in I. destruct I as (b & <- & _). rewrite dget_dset_same, LAST. split; auto. rewrite dget_dset_other by discriminate. apply dget_dset_same.
    - intros i a k H N1 N2. exists (dset "value" (Value (ln_value (events initial l))) (dset "onChange" Sync a)). split; [unfold inputs; apply (map_nth_error (fun b => dset "value" (Value (ln_value (events initial l))) (dset "onChange" Sync b)) i attributes); auto|]. rewrite !dget_dset_other by auto. reflexivity.
    - clear LAST. unfold events. assert (G : forall (l0 : list (nat * string)) (s : linked), exists r, ln_log (fold_left (fun s e => sync s (snd e)) l0 s) = ln_log s ++ r /\ reported l0 r).
      { induction l0 as [|[i w] l0 IH]; intros s; [exists []; rewrite app_nil_r; split; [reflexivity|constructor]|]. cbn [fold_left snd]. destruct (IH (sync s w)) as (r & E & R). rewrite E. unfold sync.
        destruct (String.eqb_spec w "") as [->|NW]; [destruct ignore_empty eqn:IG|]; cbn [andb ln_log].
        - exists r. split; auto. constructor; auto.
        - rewrite <- app_assoc. eexists. split; [reflexivity|]. destruct (cast "") eqn:C; cbn [app]; [apply rp_value|apply rp_raise]; auto.
        - rewrite <- app_assoc. eexists. split; [reflexivity|]. destruct (cast w) eqn:C; cbn [app]; [apply rp_value|apply rp_raise]; auto. }
      destruct (G l (Linked initial [])) as (r & E & R). rewrite E. exact R.
  Qed.
End Linked.
Example C56_example : let c w := if String.eqb w "x" then None else Some (String.length w) in
  let s := events c true "" [(0, "a"); (1, ""); (0, "x"); (1, "abc")] in ln_log s = [1; 3] /\
  inputs [[("type", User 0)]; []] s = [[("type", User 0); ("onChange", Sync); ("value", Value "abc")]; [("onChange", Sync); ("value", Value "abc")]].
Proof. split; reflexivity. Qed.
Print Assumptions C55_unique.
Print Assumptions C55_image.
Print Assumptions C55_padding.
Print Assumptions C56_linked.
