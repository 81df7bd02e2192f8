(** * The browser's location on the server, and property C79

    /repo/src/js/packages/@reactpy/client/src/mount.tsx:6-21, /repo/src/js/packages/@reactpy/client/src/websocket.ts:4-31,
    /repo/src/reactpy/executors/asgi/middleware.py:45-50 (with [urllib.parse.parse_qs] of CPython 3.11 and
    [URLSearchParams] of the WHATWG URL standard).
    Texts are given by their UTF-8 bytes. Decoding these on the server is not modelled: invalid UTF-8 becomes U+FFFD
    there. What a browser sends is valid. *)
From Coq Require Import String Ascii Bool Arith Lia List.
From Verif Require Import Strings PyStr.
Import ListNotations.
Local Open Scope string_scope. Local Open Scope list_scope.

(** ** The browser *)

(** The application/x-www-form-urlencoded percent-encode set: letters, digits and [*-._] are kept, a space becomes a plus,
    any other byte is written in hexadecimal. *)
Definition kept (a : ascii) : bool :=
  let n := nat_of_ascii a in
  (Nat.leb 48 n && Nat.leb n 57) || (Nat.leb 65 n && Nat.leb n 90) || (Nat.leb 97 n && Nat.leb n 122) ||
  Ascii.eqb a "*" || Ascii.eqb a "-" || Ascii.eqb a "." || Ascii.eqb a "_".
Definition hex_digit (n : nat) : ascii := ascii_of_nat (if Nat.ltb n 10 then 48 + n else 55 + n).
Definition quote1 (a : ascii) : string :=
  if kept a then String a ""
  else if Ascii.eqb a " " then "+"
  else String "%" (String (hex_digit (Nat.div (nat_of_ascii a) 16)) (String (hex_digit (Nat.modulo (nat_of_ascii a) 16)) "")).
Fixpoint quote (s : string) : string := match s with "" => "" | String a s' => (quote1 a ++ quote s')%string end.
(** The query of a URL whose [searchParams] are [ps] and were changed. *)
Definition serialize (ps : list (string * string)) : string :=
  join "&" (map (fun p => (quote (fst p) ++ String "=" (quote (snd p)))%string) ps).
(** [searchParams.append], [searchParams.delete], [searchParams.set] (the URL standard). *)
Definition pappend (n v : string) (ps : list (string * string)) := ps ++ [(n, v)].
Definition pdelete (n : string) (ps : list (string * string)) := filter (fun p => negb (String.eqb (fst p) n)) ps.
Fixpoint pset (n v : string) (ps : list (string * string)) : list (string * string) :=
  match ps with
  | [] => [(n, v)]
  | p :: ps' => if String.eqb (fst p) n then (n, v) :: pdelete n ps' else p :: pset n v ps'
  end.
(** [window.location]: [pathname] and [search]. *)
Record location := Location { path : string; search : string }.
(** [mountReactPy], mount.tsx:14-18, for a component URL with the parameters [ps]. *)
Definition mount (here : location) (ps : list (string * string)) : list (string * string) :=
  let ps1 := pappend "path" (path here) ps in
  if String.eqb (search here) "" then ps1 else pappend "qs" (search here) ps1.
(** [syncBrowserLocation], websocket.ts:4-15. *)
Definition sync (here : location) (ps : list (string * string)) : list (string * string) :=
  let ps1 := pset "path" (path here) ps in
  if String.eqb (search here) "" then pdelete "qs" ps1 else pset "qs" (search here) ps1.

(** ** The server *)

Definition hex_value (a : ascii) : option nat :=
  let n := nat_of_ascii a in
  if Nat.leb 48 n && Nat.leb n 57 then Some (n - 48)
  else if Nat.leb 65 n && Nat.leb n 70 then Some (n - 55)
  else if Nat.leb 97 n && Nat.leb n 102 then Some (n - 87)
  else None.
(** [urllib.parse.unquote]: a percent sign that is not followed by two hexadecimal digits is kept. *)
Fixpoint unquote (s : string) : string :=
  match s with
  | "" => ""
  | String a s' =>
      if Ascii.eqb a "%"
      then match s' with
           | String b (String c s'') =>
               match hex_value b, hex_value c with
               | Some x, Some y => String (ascii_of_nat (16 * x + y)) (unquote s'')
               | _, _ => String a (unquote s')
               end
           | _ => String a (unquote s')
           end
      else String a (unquote s')
  end.
Definition unquote_plus (s : string) : string := unquote (smap (fun a => if Ascii.eqb a "+" then " "%char else a) s).
(** [parse_qsl(.., strict_parsing=True)]: a field without [=] is [ValueError] ([None]), one with an empty value is
    skipped. *)
Fixpoint fields (l : list string) : option (list (string * string)) :=
  match l with
  | [] => Some []
  | f :: l' =>
      match split1 "=" f with
      | None => None
      | Some (n, v) =>
          match fields l' with
          | None => None
          | Some r => Some (if String.eqb v "" then r else (unquote_plus n, unquote_plus v) :: r)
          end
      end
  end.
Definition parse_qsl (q : string) : option (list (string * string)) := if String.eqb q "" then Some [] else fields (split "&" q).
(** [parse_qs(..).get(n, [""])[0]]. *)
Definition first_value (n : string) (l : list (string * string)) : string :=
  match find (fun p => String.eqb (fst p) n) l with Some p => snd p | None => "" end.
(** [_location_from_websocket_query_string], middleware.py:45-50. *)
Definition location_of (q : string) : option location :=
  match parse_qsl q with None => None | Some l => Some (Location (first_value "path" l) (first_value "qs" l)) end.

(** ** A client's connections

    [connect], websocket.ts:27-31, is called at first and again after each lost connection; [history] has the browser's
    location at these times. The result: the query the server is sent each time. *)
Fixpoint connects (ps : list (string * string)) (history : list location) : list string :=
  match history with
  | [] => []
  | here :: history' => let ps' := sync here ps in serialize ps' :: connects ps' history'
  end.

(** ** Proofs *)
Definition safe1 (a : ascii) : bool := negb (Ascii.eqb a "&") && negb (Ascii.eqb a "=").
Fixpoint allb (p : ascii -> bool) (s : string) : bool := match s with "" => true | String a s' => p a && allb p s' end.
Lemma allb_app p s t : allb p (s ++ t) = allb p s && allb p t.
Proof. induction s as [|a s IH]; simpl; [reflexivity|]. rewrite IH. apply andb_assoc. Qed.
Definition ok1 (a : ascii) : bool := allb safe1 (quote1 a) && String.eqb (unquote_plus (quote1 a)) (String a "") && negb (String.eqb (quote1 a) "").
Lemma ok1_all : forall a, ok1 a = true.
Proof. intros [[] [] [] [] [] [] [] []]; vm_compute; reflexivity. Qed.
Lemma quote_safe s : allb safe1 (quote s) = true.
Proof.
  induction s as [|a s IH]; [reflexivity|]. simpl. rewrite allb_app, IH, andb_true_r. assert (H := ok1_all a). unfold ok1 in H.
  apply andb_true_iff in H. destruct H as [H _]. apply andb_true_iff in H. destruct H as [H _]. exact H.
Qed.
Lemma safe_nochar c s : (c = "&"%char \/ c = "="%char) -> allb safe1 s = true -> nochar c s.
Proof.
  intros C. induction s as [|a s IH]; simpl; [auto|]. intros H. apply andb_true_iff in H. destruct H as [H1 H2]. split; [|apply IH; exact H2].
  unfold safe1 in H1. apply andb_true_iff in H1. destruct H1 as [H1 H3]. apply negb_true_iff in H1, H3. apply Ascii.eqb_neq in H1, H3.
  destruct C as [->| ->]; assumption.
Qed.
Lemma quote1_cases a :
  (exists b, quote1 a = String b "" /\ Ascii.eqb b "%" = false /\ (if Ascii.eqb b "+" then " "%char else b) = a) \/
  (exists x y i j, quote1 a = String "%" (String x (String y "")) /\ Ascii.eqb x "+" = false /\ Ascii.eqb y "+" = false /\
    hex_value x = Some i /\ hex_value y = Some j /\ ascii_of_nat (16 * i + j) = a).
Proof.
  destruct a as [[] [] [] [] [] [] [] []];
    first [left; eexists; split; [vm_compute; reflexivity|split; reflexivity]
          |right; do 4 eexists; split; [vm_compute; reflexivity|split; [reflexivity|split; [reflexivity|split; [reflexivity|split; [reflexivity|vm_compute; reflexivity]]]]]].
Qed.
Lemma unquote_quote s : unquote_plus (quote s) = s.
Proof.
  induction s as [|a s IH]; [reflexivity|]. cbn [quote]. destruct (quote1_cases a) as [(b & Q & P & A)|(x & y & i & j & Q & X & Y & I & J & A)]; rewrite Q.
  - unfold unquote_plus in *. cbn [append smap unquote]. rewrite A. destruct (Ascii.eqb a "%") eqn:E.
    + exfalso. apply Ascii.eqb_eq in E. subst a. destruct (Ascii.eqb b "+"); [discriminate|]. rewrite E in P. discriminate.
    + rewrite IH. reflexivity.
  - unfold unquote_plus in *. cbn [append smap]. rewrite X, Y. change (if Ascii.eqb "%" "+" then " "%char else "%"%char) with "%"%char.
    cbn [unquote]. change (Ascii.eqb "%" "%") with true. cbv iota. rewrite I, J, A, IH. reflexivity.
Qed.
Lemma quote_empty s : quote s = "" -> s = "".
Proof.
  destruct s as [|a s]; [auto|]. cbn [quote]. destruct (quote1_cases a) as [(b & Q & _)|(x & y & i & j & Q & _)]; rewrite Q; discriminate.
Qed.

Definition nonblank (p : string * string) : bool := negb (String.eqb (snd p) "").
Lemma fields_serialized ps : fields (map (fun p => (quote (fst p) ++ String "=" (quote (snd p)))%string) ps) = Some (filter nonblank ps).
Proof.
  induction ps as [|[n v] ps IH]; [reflexivity|]. cbn [map fields fst snd].
  assert (E : split1 "=" (quote n ++ String "=" (quote v)) = Some (quote n, quote v)).
  { apply split1_Some. split; [reflexivity|]. apply safe_nochar; [right; reflexivity|apply quote_safe]. }
  rewrite E, IH. cbn [filter]. change (nonblank (n, v)) with (negb (String.eqb v "")). f_equal. destruct (String.eqb_spec (quote v) "") as [Q|Q].
  - apply quote_empty in Q. subst v. reflexivity.
  - destruct (String.eqb_spec v "") as [->|N]; [exfalso; apply Q; reflexivity|]. cbn [negb]. rewrite !unquote_quote. reflexivity.
Qed.
Lemma parse_serialized ps : ps <> [] -> parse_qsl (serialize ps) = Some (filter nonblank ps).
Proof.
  intros N. unfold parse_qsl, serialize. destruct (String.eqb_spec (join "&" (map (fun p => (quote (fst p) ++ String "=" (quote (snd p)))%string) ps)) "") as [E|E].
  - exfalso. destruct ps as [|[n v] [|q ps]]; [contradiction| |].
    + simpl in E. destruct (quote n); discriminate.
    + cbn [map fst snd] in E. rewrite join_cons in E. destruct (quote n); discriminate.
  - rewrite split_join; [apply fields_serialized| |].
    + destruct ps; [contradiction|discriminate].
    + apply Forall_forall. intros f F. apply in_map_iff in F. destruct F as ([n v] & <- & _). apply nochar_app. cbn [fst snd nochar].
      split; [apply safe_nochar; [left; reflexivity|apply quote_safe]|]. split; [discriminate|]. apply safe_nochar; [left; reflexivity|apply quote_safe].
Qed.

(** The value of the only parameter with a name. *)
Inductive only (n v : string) (ps : list (string * string)) : Prop :=
| only_at a b : ps = a ++ (n, v) :: b -> (forall p, In p a -> fst p <> n) -> (forall p, In p b -> fst p <> n) -> only n v ps.
Lemma in_pdelete n p ps : In p (pdelete n ps) <-> In p ps /\ fst p <> n.
Proof. unfold pdelete. rewrite filter_In, negb_true_iff, String.eqb_neq. tauto. Qed.
Lemma pset_only n v ps : only n v (pset n v ps).
Proof.
  induction ps as [|p ps IH]; simpl.
  - apply (only_at _ _ _ [] []); [reflexivity|intros q []|intros q []].
  - destruct (String.eqb_spec (fst p) n) as [E|E].
    + apply (only_at _ _ _ [] (pdelete n ps)); [reflexivity|intros q []|]. intros q Q. apply in_pdelete in Q. apply Q.
    + destruct IH as [a b H A B]. apply (only_at _ _ _ (p :: a) b); [simpl; congruence| |exact B]. intros q [<-|Q]; [exact E|apply A; exact Q].
Qed.
Lemma pdelete_app n a b : pdelete n (a ++ b) = pdelete n a ++ pdelete n b.
Proof. apply filter_app. Qed.
Lemma pdelete_id n a : (forall p, In p a -> fst p <> n) -> pdelete n a = a.
Proof.
  induction a as [|p a IH]; intros H; [reflexivity|]. simpl. destruct (String.eqb_spec (fst p) n) as [E|E].
  - exfalso. apply (H p); [left; reflexivity|exact E].
  - simpl. f_equal. apply IH. intros q Q. apply H. right. exact Q.
Qed.
Lemma only_pdelete n m v ps : n <> m -> only n v ps -> only n v (pdelete m ps).
Proof.
  intros N [a b -> A B]. rewrite pdelete_app. simpl. destruct (String.eqb_spec n m) as [E|_]; [contradiction|]. simpl.
  apply (only_at _ _ _ (pdelete m a) (pdelete m b)); [reflexivity| |]; intros p P; apply in_pdelete in P; [apply A|apply B]; apply P.
Qed.
Lemma pset_spec n v ps : exists a b, (pset n v ps = a ++ (n, v) :: b) /\ pdelete n ps = a ++ b /\ (forall p, In p (a ++ b) -> fst p <> n).
Proof.
  induction ps as [|p ps IH]; simpl.
  - exists [], []. split; [reflexivity|split; [reflexivity|intros p []]].
  - destruct (String.eqb_spec (fst p) n) as [E|E]; simpl.
    + exists [], (pdelete n ps). split; [reflexivity|split; [reflexivity|]]. intros q Q. apply in_pdelete in Q. apply Q.
    + destruct IH as (a & b & H1 & H2 & H3). exists (p :: a), b. rewrite H1, H2. split; [reflexivity|split; [reflexivity|]].
      intros q [<-|Q]; [exact E|apply H3; exact Q].
Qed.
Lemma only_pset n m v w ps : n <> m -> only n v ps -> only n v (pset m w ps).
Proof.
  intros N O. destruct (only_pdelete n m v ps N O) as [a b H A B]. destruct (pset_spec m w ps) as (c & d & H1 & H2 & _). rewrite H1. rewrite H2 in H.
  (* the pair is in c or in d *)
  assert (C : (exists c2, c = a ++ (n, v) :: c2 /\ b = c2 ++ d) \/ (exists d1, a = c ++ d1 /\ d = d1 ++ (n, v) :: b)).
  { clear -H. revert a H. induction c as [|x c IH]; intros a H; simpl in H.
    - right. exists a. split; [reflexivity|exact H].
    - destruct a as [|y a]; simpl in H; injection H as -> H.
      + left. exists c. split; [reflexivity|congruence].
      + destruct (IH a H) as [(c2 & -> & ->)|(d1 & -> & ->)]; [left; exists c2; auto|right; exists d1; auto]. }
  destruct C as [(c2 & -> & ->)|(d1 & -> & ->)].
  - rewrite <- app_assoc. simpl. apply (only_at _ _ _ a (c2 ++ (m, w) :: d)); [reflexivity|exact A|].
    intros p P. apply in_app_or in P. destruct P as [P|[<-|P]]; [apply B; apply in_or_app; auto|simpl; congruence|apply B; apply in_or_app; auto].
  - apply (only_at _ _ _ (c ++ (m, w) :: d1) b); [rewrite <- app_assoc; reflexivity| |exact B].
    intros p P. apply in_app_or in P. destruct P as [P|[<-|P]]; [apply A; apply in_or_app; auto|simpl; congruence|apply A; apply in_or_app; auto].
Qed.
Lemma find_none n l : (forall p : string * string, In p l -> fst p <> n) -> find (fun p => String.eqb (fst p) n) l = None.
Proof.
  induction l as [|p l IH]; intros H; [reflexivity|]. simpl. destruct (String.eqb_spec (fst p) n) as [E|E]; [exfalso; apply (H p); [left; reflexivity|exact E]|].
  apply IH. intros q Q. apply H. right. exact Q.
Qed.
Lemma find_app n (a b : list (string * string)) : (forall p, In p a -> fst p <> n) -> find (fun p => String.eqb (fst p) n) (a ++ b) = find (fun p => String.eqb (fst p) n) b.
Proof.
  induction a as [|p a IH]; intros H; [reflexivity|]. simpl. destruct (String.eqb_spec (fst p) n) as [E|E]; [exfalso; apply (H p); [left; reflexivity|exact E]|].
  apply IH. intros q Q. apply H. right. exact Q.
Qed.
Lemma first_only n v ps : only n v ps -> first_value n (filter nonblank ps) = v.
Proof.
  intros [a b -> A B]. unfold first_value. rewrite filter_app. rewrite find_app by (intros p P; apply filter_In in P; apply A; apply P).
  simpl. unfold nonblank at 1. cbn [snd]. destruct (String.eqb_spec v "") as [->|N]; cbn [negb].
  - rewrite find_none; [reflexivity|]. intros p P. apply filter_In in P. apply B. apply P.
  - simpl. rewrite String.eqb_refl. reflexivity.
Qed.
Lemma first_absent n ps : (forall p, In p ps -> fst p <> n) -> first_value n (filter nonblank ps) = "".
Proof. intros H. unfold first_value. rewrite find_none; [reflexivity|]. intros p P. apply filter_In in P. apply H. apply P. Qed.
Lemma sync_located here ps : location_of (serialize (sync here ps)) = Some here.
Proof.
  unfold location_of, sync. destruct here as [p s]. cbn [path search]. assert (O := pset_only "path" p ps). destruct (String.eqb_spec s "") as [->|N].
  - assert (O' := only_pdelete "path" "qs" p _ ltac:(discriminate) O). rewrite parse_serialized.
    + rewrite (first_only _ _ _ O'), first_absent; [reflexivity|]. intros q Q. apply in_pdelete in Q. apply Q.
    + destruct O' as [a b -> _ _]. destruct a; discriminate.
  - assert (O' := only_pset "path" "qs" p s _ ltac:(discriminate) O). rewrite parse_serialized.
    + rewrite (first_only _ _ _ O'), (first_only _ _ _ (pset_only "qs" s _)). reflexivity.
    + destruct O' as [a b -> _ _]. destruct a; discriminate.
Qed.

(** ** C79 *)

(** Whatever parameters the component's URL has and wherever the page was when it was mounted: at every connection, the
    first one and each reconnection, the server's location is the browser's at that time, exactly. *)
Theorem C79_location ps mounted_at history :
  map location_of (connects (mount mounted_at ps) history) = map Some history.
Proof.
  generalize (mount mounted_at ps). clear ps. induction history as [|here history IH]; intros ps; [reflexivity|]. cbn [connects map]. rewrite sync_located, IH. reflexivity.
Qed.

(** The other parameters of the URL reach the server at every connection, in order (except those without a value, which the
    server drops), and nothing else does. *)
Definition other (p : string * string) : bool := negb (String.eqb (fst p) "path" || String.eqb (fst p) "qs").
Lemma other_pdelete n ps : n = "path" \/ n = "qs" -> filter other (pdelete n ps) = filter other ps.
Proof.
  intros N. induction ps as [|p ps IH]; [reflexivity|]. simpl. destruct (String.eqb_spec (fst p) n) as [E|E]; simpl; rewrite IH; [|reflexivity].
  unfold other at 2. rewrite E. destruct N as [->| ->]; reflexivity.
Qed.
Lemma other_pset n v ps : n = "path" \/ n = "qs" -> filter other (pset n v ps) = filter other ps.
Proof.
  intros N. induction ps as [|p ps IH]; simpl.
  - unfold other. cbn [fst]. destruct N as [->| ->]; reflexivity.
  - destruct (String.eqb_spec (fst p) n) as [E|E]; simpl.
    + rewrite other_pdelete by exact N.
      assert (O1 : other (n, v) = false) by (destruct N as [->| ->]; reflexivity).
      assert (O2 : other p = false) by (unfold other; rewrite E; destruct N as [->| ->]; reflexivity). rewrite O1, O2. reflexivity.
    + rewrite IH. reflexivity.
Qed.
Lemma other_sync here ps : filter other (sync here ps) = filter other ps.
Proof.
  unfold sync. destruct (String.eqb (search here) ""); [rewrite other_pdelete by auto|rewrite other_pset by auto]; apply other_pset; auto.
Qed.
Lemma filter_comm {A} (f g : A -> bool) l : filter f (filter g l) = filter g (filter f l).
Proof. induction l as [|a l IH]; [reflexivity|]. simpl. destruct (f a) eqn:F, (g a) eqn:G; simpl; rewrite ?F, ?G, IH; reflexivity. Qed.
Theorem C79_parameters ps mounted_at history q :
  In q (connects (mount mounted_at ps) history) ->
  exists l, parse_qsl q = Some l /\ filter other l = filter (fun p => negb (String.eqb (snd p) "")) (filter other ps).
Proof.
  assert (M : filter other (mount mounted_at ps) = filter other ps).
  { unfold mount, pappend. destruct (String.eqb (search mounted_at) ""); rewrite ?filter_app; simpl; rewrite ?app_nil_r; reflexivity. }
  rewrite <- M. generalize (mount mounted_at ps). clear M ps. induction history as [|here history IH]; intros ps; [intros []|]. intros [<-|I].
  - assert (N : sync here ps <> []).
    { unfold sync. assert (O := pset_only "path" (path here) ps). destruct (String.eqb (search here) "").
      - destruct (only_pdelete "path" "qs" _ _ ltac:(discriminate) O) as [a b -> _ _]. destruct a; discriminate.
      - destruct (only_pset "path" "qs" _ (search here) _ ltac:(discriminate) O) as [a b -> _ _]. destruct a; discriminate. }
    eexists. split; [apply parse_serialized; exact N|]. rewrite filter_comm, other_sync. reflexivity.
  - destruct (IH _ I) as (l & H1 & H2). exists l. split; [exact H1|]. rewrite H2, other_sync. reflexivity.
Qed.

(** For any other client: the server rejects exactly the non-empty queries that have a field without an equals sign. *)
Theorem C79_malformed q : location_of q = None <->
  q <> "" /\ exists l f, q = join "&" l /\ Forall (nochar "&") l /\ In f l /\ nochar "=" f.
Proof.
  unfold location_of, parse_qsl. destruct (String.eqb_spec q "") as [->|N].
  - split; [discriminate|]. intros [H _]. contradiction.
  - assert (F : forall l, fields l = None <-> exists f, In f l /\ nochar "=" f).
    { induction l as [|f l IH]; simpl.
      - split; [discriminate|]. intros (f & [] & _).
      - destruct (split1 "=" f) as [[n v]|] eqn:S.
        + assert (X : ~ nochar "=" f) by (intros X; apply split1_None in X; congruence). destruct (fields l) as [r|].
          * split; [discriminate|]. intros (g & [<-|G] & NG); [contradiction|]. assert (Y : Some r = None) by (apply IH; exists g; auto). discriminate.
          * split; [|reflexivity]. intros _. destruct (proj1 IH eq_refl) as (g & G & NG). exists g. auto.
        + split; [|reflexivity]. intros _. exists f. split; [left; reflexivity|apply split1_None; exact S]. }
    split.
    + intros H. split; [exact N|]. exists (split "&" q). destruct (fields (split "&" q)) eqn:E; [discriminate|]. apply F in E. destruct E as (f & I & X).
      exists f. split; [symmetry; apply (join_split "&" q)|]. split; [apply split_nochar|]. split; assumption.
    + intros (_ & l & f & -> & NL & I & X). rewrite split_join; [|intros ->; destruct I|exact NL].
      assert (E : fields l = None) by (apply F; exists f; auto). rewrite E. reflexivity.
Qed.

Example C79_example :
  let home := Location "/a%20b/c" "" in let other_page := Location "/d" "?x=1&y=a+b%26" in
  connects (mount home [("token", "t&1"); ("path", "stale")]) [home; other_page; home] =
  ["token=t%261&path=%2Fa%2520b%2Fc"; "token=t%261&path=%2Fd&qs=%3Fx%3D1%26y%3Da%2Bb%2526"; "token=t%261&path=%2Fa%2520b%2Fc"].
Proof. vm_compute. reflexivity. Qed.
Example C79_malformed_example : location_of "path=%2F&x" = None /\ location_of "path=%2F&x=" = Some (Location "/" "").
Proof. split; vm_compute; reflexivity. Qed.

Print Assumptions C79_location.
Print Assumptions C79_parameters.
Print Assumptions C79_malformed.
