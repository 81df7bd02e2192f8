(** * Components of one JavaScript module inside those of another, and property C82

    /repo/src/js/packages/@reactpy/client/src/vdom.tsx:155-163,313-394: the element [reactpy-child]. Loading a module takes
    time, and loads may end in any order. *)
From Coq Require Import String Bool Arith Lia List.
Import ListNotations.
Local Open Scope string_scope. Local Open Scope list_scope.

(** An import source: its name and its type. Simplification: [fallback] and [unmountBeforeUpdate] play no role here. *)
Record source := Source { src_name : string; src_type : string }.
(** A model: what [importSource] it has, and anything else. [createImportSourceElement] makes these elements only for models that
    have an import source (lines 80-92), so the test in line 343 never applies. *)
Record model := Model { m_source : source; m_rest : nat }.
(** Calls of a module's binding: [bind], [render] and [unmount]. *)
Inductive call := Bind (b : nat) (s : source) | Render (b : nat) (m : model) | Unmount (b : nat).

(** ** Model *)

(** [isImportSourceEqual], lines 155-163. *)
Definition same (a b : source) : bool := String.eqb (src_name a) (src_name b) && String.eqb (src_type a) (src_type b).
Record child := Child {
  connected : bool; binding : option nat; current : option source; latest : option model;
  loads : list (nat * source); next : nat; calls : list call }.
Definition start : child := Child false None None None [] 0 [].
(** How a load ends: it fails, [bind] throws, [bind] gives no proper binding (lines 45-54), or it gives one. Errors thrown by a
    binding's [render] and [unmount] are not modelled. *)
Inductive result := Fails | Throws | Improper | Proper.
(** What happens to the element: [node.model = m; node.requestUpdate()] (lines 86-90), the end of a load, insertion into and
    removal from the document. *)
Inductive event := Update (m : model) | Loaded (k : nat) (r : result) | Connect | Disconnect.
Definition emit (cs : list call) (s : child) : list call := calls s ++ cs.
(** [update] up to its [await], lines 347-362, and lines 380-384. *)
Definition update (m : model) (s : child) : child :=
  let new := m_source m in
  match binding s, current s with
  | Some b, Some c =>
      if same c new
      then Child (connected s) (Some b) (Some c) (Some m) (loads s) (next s) (emit [Render b m] s)
      else Child (connected s) None (Some new) (Some m) (loads s ++ [(next s, new)]) (S (next s)) (emit [Unmount b] s)
  | Some b, None => Child (connected s) None (Some new) (Some m) (loads s ++ [(next s, new)]) (S (next s)) (emit [Unmount b] s)
  | None, _ => Child (connected s) None (Some new) (Some m) (loads s ++ [(next s, new)]) (S (next s)) (calls s)
  end.
(** After the [await], lines 363-379. Bindings are named by the load that made them. *)
Definition loaded (k : nat) (src : source) (r : result) (s : child) : child :=
  let rest := filter (fun l => negb (Nat.eqb (fst l) k)) (loads s) in
  let done b cs := Child (connected s) b (current s) (latest s) rest (next s) (emit cs s) in
  match r with
  | Fails => done (binding s) []
  | _ =>
      if connected s && match current s with Some c => same c src | None => false end
      then let old := match binding s with Some b => [Unmount b] | None => [] end in
           match r with
           | Throws => done (binding s) old
           | Proper => done (Some k) (old ++ Bind k src :: match latest s with Some m => [Render k m] | None => [] end)
           | _ => done None old
           end
      else done (binding s) []
  end.
Definition step (s : child) (e : event) : child :=
  match e with
  | Update m => update m s
  | Loaded k r => match find (fun l => Nat.eqb (fst l) k) (loads s) with Some l => loaded k (snd l) r s | None => s end
  | Connect => Child true (binding s) (current s) (latest s) (loads s) (next s) (calls s)
  | Disconnect =>
      (** [disconnectedCallback], lines 387-393 *)
      match binding s with
      | Some b => Child false None None (latest s) (loads s) (next s) (emit [Unmount b] s)
      | None => Child false None (current s) (latest s) (loads s) (next s) (calls s)
      end
  end.
Definition run (l : list event) : child := fold_left step l start.

(** ** Specification: what is on the page

    [None]: a binding was used wrongly: made while another one was in use, or used while it was not (before it was made, or
    after it was unmounted). *)
Definition shown : Type := option (nat * source * option model).
Fixpoint play (cs : list call) (now : shown) : option shown :=
  match cs with
  | [] => Some now
  | Bind b s :: r => match now with None => play r (Some (b, s, None)) | Some _ => None end
  | Render b m :: r => match now with Some (b', s, _) => if Nat.eqb b b' then play r (Some (b', s, Some m)) else None | None => None end
  | Unmount b :: r => match now with Some (b', _, _) => if Nat.eqb b b' then play r None else None | None => None end
  end.
Definition page (l : list event) : option shown := play (calls (run l)) None.
Fixpoint last_model (l : list event) : option model :=
  match l with [] => None | Update m :: r => match last_model r with None => Some m | x => x end | _ :: r => last_model r end.
Definition no_throw (e : event) : Prop := match e with Loaded _ Throws => False | _ => True end.
Fixpoint attached (now : bool) (l : list event) : bool :=
  match l with [] => now | Connect :: r => attached true r | Disconnect :: r => attached false r | _ :: r => attached now r end.

(** ** Proofs *)

Lemma play_app a b now : play (a ++ b) now = match play a now with Some x => play b x | None => None end.
Proof.
  revert now. induction a as [|c a IH]; intros now; [reflexivity|]. cbn [app play]. destruct c as [k s|k m|k], now as [[[k' s'] m']|]; try reflexivity; try apply IH;
    destruct (Nat.eqb k k'); try reflexivity; apply IH.
Qed.
Lemma same_eq a b : same a b = true <-> a = b.
Proof.
  unfold same. rewrite andb_true_iff, !String.eqb_eq. destruct a as [x y], b as [z w]. cbn [src_name src_type]. split; [intros [-> ->]; reflexivity|intros [= -> ->]; split; reflexivity].
Qed.
Record ok (s : child) : Prop := {
  ok_page : play (calls s) None =
    Some (match binding s, current s, latest s with Some b, Some c, Some m => Some (b, c, Some m) | _, _, _ => None end);
  ok_bound : binding s <> None -> connected s = true /\ exists m, latest s = Some m /\ current s = Some (m_source m);
  ok_latest : match current s with Some c => exists m, latest s = Some m /\ m_source m = c | None => True end }.
Lemma ok_step s e : no_throw e -> ok s -> ok (step s e).
Proof.
  intros NT [P B L]. destruct e as [m|k r| |]; cbn [step].
  - unfold update. destruct (binding s) as [b|] eqn:Eb.
    + destruct B as [C (m0 & L0 & C0)]; [discriminate|]. rewrite C0, L0 in P. rewrite C0. destruct (same (m_source m0) (m_source m)) eqn:S.
      * apply same_eq in S. split; cbn [calls binding current latest emit connected]; unfold emit; cbn [calls].
        -- rewrite play_app, P. cbn [play]. rewrite Nat.eqb_refl. reflexivity.
        -- intros _. split; [exact C|]. exists m. rewrite S. split; reflexivity.
        -- exists m. split; [reflexivity|]. congruence.
      * split; cbn [calls binding current latest emit connected]; unfold emit.
        -- rewrite play_app, P. cbn [play]. rewrite Nat.eqb_refl. reflexivity.
        -- congruence.
        -- exists m. split; reflexivity.
    + split; cbn [calls binding current latest emit connected]; [exact P|congruence|exists m; split; reflexivity].
  - destruct (find _ (loads s)) as [[k' src]|] eqn:F; [|split; assumption]. apply find_some in F. destruct F as [_ F]. cbn [fst] in F. apply Nat.eqb_eq in F. subst k'. cbn [snd].
    assert (D : ok (Child (connected s) (binding s) (current s) (latest s) (filter (fun l => negb (Nat.eqb (fst l) k)) (loads s)) (next s) (emit [] s))).
    { split; cbn [calls binding current latest connected]; [|exact B|exact L]. unfold emit. rewrite app_nil_r. exact P. }
    unfold loaded. destruct r; [exact D|contradiction| |]; (destruct (connected s && _) eqn:Q; [|exact D]).
    + apply andb_true_iff in Q. destruct Q as [C Q]. split; cbn [calls binding current latest connected]; [|congruence|exact L]. unfold emit. rewrite play_app, P.
      destruct (binding s) as [b|] eqn:Eb; [|reflexivity]. destruct B as [_ (m0 & L0 & C0)]; [discriminate|]. rewrite C0, L0. cbn [play]. rewrite Nat.eqb_refl. reflexivity.
    + apply andb_true_iff in Q. destruct Q as [C Q]. destruct (current s) as [c|] eqn:Ec; [|discriminate]. apply same_eq in Q. subst src.
      destruct L as (m & Lm & Sm). split; cbn [calls binding current latest connected]; [| |exists m; split; assumption].
      * unfold emit. rewrite play_app, P, Lm. destruct (binding s) as [b|]; cbn [app play]; rewrite ?Nat.eqb_refl; cbn [play]; rewrite ?Nat.eqb_refl; reflexivity.
      * intros _. split; [exact C|]. exists m. split; [exact Lm|congruence].
  - split; cbn [calls binding current latest connected]; [exact P| |exact L]. intros N. split; [reflexivity|apply B; exact N].
  - destruct (binding s) as [b|] eqn:Eb.
    + destruct B as [C (m0 & L0 & C0)]; [discriminate|]. rewrite C0, L0 in P. split; cbn [calls binding current latest connected]; [|congruence|exact I].
      unfold emit. rewrite play_app, P. cbn [play]. rewrite Nat.eqb_refl. reflexivity.
    + split; cbn [calls binding current latest connected]; [exact P|congruence|exact L].
Qed.
Lemma ok_fold l s : Forall no_throw l -> ok s -> ok (fold_left step l s).
Proof. intros F. revert s. induction F as [|e l N _ IH]; intros s H; [exact H|]. cbn [fold_left]. apply IH, ok_step; assumption. Qed.
Lemma ok_run l : Forall no_throw l -> ok (run l).
Proof. intros F. apply ok_fold; [exact F|]. split; cbn; [reflexivity|congruence|exact I]. Qed.
Lemma latest_step s e : latest (step s e) = match e with Update m => Some m | _ => latest s end.
Proof.
  destruct e as [m|k r| |]; cbn [step].
  - unfold update. destruct (binding s), (current s); try destruct (same _ _); reflexivity.
  - destruct (find _ _) as [[k' src]|]; [|reflexivity]. unfold loaded. destruct r; try reflexivity; destruct (connected s && _); reflexivity.
  - reflexivity.
  - destruct (binding s); reflexivity.
Qed.
Lemma latest_fold l s : latest (fold_left step l s) = match last_model l with Some m => Some m | None => latest s end.
Proof.
  revert s. induction l as [|e l IH]; intros s; [reflexivity|]. cbn [fold_left]. rewrite IH, latest_step. destruct e; cbn [last_model]; destruct (last_model l); reflexivity.
Qed.
Lemma connected_step s e : connected (step s e) = match e with Connect => true | Disconnect => false | _ => connected s end.
Proof.
  destruct e as [m|k r| |]; cbn [step].
  - unfold update. destruct (binding s), (current s); try destruct (same _ _); reflexivity.
  - destruct (find _ _) as [[k' src]|]; [|reflexivity]. unfold loaded. destruct r; try reflexivity; destruct (connected s && _); reflexivity.
  - reflexivity.
  - destruct (binding s); reflexivity.
Qed.
Lemma connected_fold l s : connected (fold_left step l s) = attached (connected s) l.
Proof. revert s. induction l as [|e l IH]; intros s; [reflexivity|]. cbn [fold_left]. rewrite IH, connected_step. destruct e; reflexivity. Qed.

(** Whatever happens in whatever order, if [bind] does not throw: bindings are used rightly, what is on the page is the latest model, made by the module
    of that model, and nothing is left on the page when the element is not in the document. *)
Theorem C82_page l : Forall no_throw l -> exists now, page l = Some now /\
  match now with
  | None => True
  | Some (_, s, m) => exists m', last_model l = Some m' /\ m = Some m' /\ s = m_source m' /\ attached false l = true
  end.
Proof.
  intros F. destruct (ok_run l F) as [P B L]. unfold page. rewrite P. eexists. split; [reflexivity|].
  destruct (binding (run l)) as [b|] eqn:Eb; [|exact I]. destruct B as [C (m & Lm & Cm)]; [discriminate|]. rewrite Cm, Lm.
  unfold run in *. rewrite latest_fold in Lm. rewrite connected_fold in C. cbn [latest start connected] in *. exists m.
  split; [destruct (last_model l); [exact Lm|discriminate]|split; [reflexivity|split; [reflexivity|exact C]]].
Qed.

(** When all loads have ended the latest model is there: unless the load of its module failed, or the element left the document
    after the model arrived. *)
Definition quiet (e : event) : Prop := match e with Update _ | Loaded _ Proper => True | _ => False end.
Record wait (s : child) : Prop := {
  w_conn : connected s = true; w_cur : exists c, current s = Some c;
  w_load : binding s = None -> exists k c, In (k, c) (loads s) /\ current s = Some c;
  w_ids : NoDup (map fst (loads s)) /\ forall k c, In (k, c) (loads s) -> k < next s }.
Lemma ids_step s e : (NoDup (map fst (loads s)) /\ forall k c, In (k, c) (loads s) -> k < next s) ->
  NoDup (map fst (loads (step s e))) /\ forall k c, In (k, c) (loads (step s e)) -> k < next (step s e).
Proof.
  intros [N I].
  assert (Add : forall src, NoDup (map fst (loads s ++ [(next s, src)])) /\ forall k c, In (k, c) (loads s ++ [(next s, src)]) -> k < S (next s)).
  { intros src. split.
    - rewrite map_app. cbn [map fst]. apply NoDup_rev in N. rewrite <- (rev_involutive (_ ++ _)). apply NoDup_rev. rewrite rev_app_distr. cbn [rev app]. constructor; [|exact N].
      rewrite <- in_rev. intros H. apply in_map_iff in H. destruct H as ([k c] & E & H). apply I in H. cbn [fst] in E. lia.
    - intros k c H. apply in_app_or in H. destruct H as [H|[[= <- <-]|[]]]; [apply I in H|]; lia. }
  assert (Del : forall k0, NoDup (map fst (filter (fun l => negb (Nat.eqb (fst l) k0)) (loads s))) /\ forall k c, In (k, c) (filter (fun l => negb (Nat.eqb (fst l) k0)) (loads s)) -> k < next s).
  { intros k0. split.
    - clear I Add. induction (loads s) as [|[k c] r IH]; [constructor|]. cbn [map fst] in N. inversion N; subst. cbn [filter fst]. destruct (negb (Nat.eqb k k0)); [|apply IH; assumption].
      cbn [map fst]. constructor; [|apply IH; assumption]. intros H. apply in_map_iff in H. destruct H as (x & <- & H). apply filter_In in H. apply H1. apply in_map. apply H.
    - intros k c H. apply filter_In in H. apply (I k c). apply H. }
  destruct e as [m|k r| |]; cbn [step].
  - unfold update. destruct (binding s), (current s); try destruct (same _ _); cbn [loads next]; try apply Add. split; assumption.
  - destruct (find _ _) as [[k' src]|]; [|split; assumption]. unfold loaded. destruct r; try apply Del; destruct (connected s && _); apply Del.
  - split; assumption.
  - destruct (binding s); split; assumption.
Qed.
Lemma wait_step s e : quiet e -> wait s -> wait (step s e).
Proof.
  intros Q [C (c & Cu) W I]. pose proof (ids_step s e I) as I'. split; [rewrite connected_step; destruct e; (exact C || contradiction)| | |exact I'].
  - destruct e as [m|k r| |]; cbn [step]; try contradiction.
    + unfold update. destruct (binding s); rewrite ?Cu; [destruct (same _ _)|]; eexists; reflexivity.
    + destruct (find _ _) as [[k' src]|]; [|exists c; exact Cu]. unfold loaded. destruct r; try contradiction. destruct (connected s && _); exists c; exact Cu.
  - destruct e as [m|k r| |]; cbn [step]; try contradiction.
    + unfold update. rewrite Cu. destruct (binding s) as [b|]; [destruct (same c (m_source m))|]; cbn [binding loads current]; [discriminate| |];
        intros _; exists (next s), (m_source m); (split; [apply in_or_app; right; left; reflexivity|reflexivity]).
    + destruct (find _ (loads s)) as [[k' src]|] eqn:F; [|exact W]. pose proof F as F'. apply find_some in F. destruct F as [F1 F]. cbn [fst] in F. apply Nat.eqb_eq in F. subst k'. cbn [snd].
      unfold loaded. destruct r; try contradiction. rewrite C, Cu. cbn [andb]. destruct (same c src) eqn:S; cbn [binding loads current]; [discriminate|].
      intros N. destruct (W N) as (k1 & c1 & J & E). rewrite Cu in E. injection E as <-. exists k1, c. split; [|reflexivity]. apply filter_In. split; [exact J|]. cbn [fst].
      destruct (Nat.eqb k1 k) eqn:K; [|reflexivity]. apply Nat.eqb_eq in K. subst k1. exfalso.
      assert (src = c); [|subst; rewrite (proj2 (same_eq c c) eq_refl) in S; discriminate]. destruct I as [N' _]. clear -N' J F1.
      induction (loads s) as [|[a b] r IH]; [destruct J|]. cbn [map fst] in N'. inversion N'; subst. destruct J as [[= -> ->]|J], F1 as [F1|F1].
      * congruence.
      * exfalso. apply H1. apply in_map_iff. eexists. split; [|exact F1]. reflexivity.
      * injection F1 as -> ->. exfalso. apply H1. apply in_map_iff. eexists. split; [|exact J]. reflexivity.
      * apply IH; assumption.
Qed.
Theorem C82_shown before m after : Forall no_throw before -> attached false before = true -> Forall quiet after ->
  loads (run (before ++ Update m :: after)) = [] ->
  exists b m', last_model (Update m :: after) = Some m' /\ page (before ++ Update m :: after) = Some (Some (b, m_source m', Some m')).
Proof.
  intros NT A Q E. assert (NT' : Forall no_throw after).
  { eapply Forall_impl; [|exact Q]. intros [x|k [| | |]| |]; cbn; auto. }
  destruct (ok_run (before ++ Update m :: after)) as [P B L]; [apply Forall_app; split; [exact NT|constructor; [exact I|exact NT']]|]. unfold page. unfold run in *. rewrite fold_left_app in *. cbn [fold_left] in *.
  set (s0 := fold_left step before start) in *.
  assert (W : wait (step s0 (Update m))).
  { split.
    - rewrite connected_step. unfold s0. rewrite connected_fold. exact A.
    - cbn [step]. unfold update. destruct (binding s0), (current s0); try destruct (same _ _); eexists; reflexivity.
    - cbn [step]. unfold update. destruct (binding s0) as [b|], (current s0) as [c|]; try destruct (same c (m_source m)); cbn [binding loads current]; try discriminate;
        intros _; exists (next s0), (m_source m); (split; [apply in_or_app; right; left; reflexivity|reflexivity]).
    - apply ids_step. unfold s0. clear. assert (H : NoDup (map fst (loads start)) /\ forall k c, In (k, c) (loads start) -> k < next start) by (split; [constructor|intros k c []]).
      revert H. generalize start as s. induction before as [|e l IH]; intros s H; [exact H|]. cbn [fold_left]. apply IH. apply ids_step. exact H. }
  assert (W' : wait (fold_left step after (step s0 (Update m)))).
  { clear P B L E NT'. revert W. generalize (step s0 (Update m)) as s. induction Q as [|e l He _ IH]; intros s W; [exact W|]. cbn [fold_left]. apply IH. apply wait_step; assumption. }
  pose proof (latest_fold after (step s0 (Update m))) as La. rewrite latest_step in La.
  destruct W' as [_ _ W' _]. rewrite E in W'. destruct (binding (fold_left step after (step s0 (Update m)))) as [b|]; [|destruct (W' eq_refl) as (k & c & [] & _)].
  destruct B as [_ (m' & Lm & Cm)]; [discriminate|]. rewrite P, Cm, Lm. exists b, m'. split; [|reflexivity]. cbn [last_model]. rewrite <- Lm, La. destruct (last_model after); reflexivity.
Qed.

(** Two modules; the loads end in the other order, and the second one twice. *)
Example C82_example :
  let a := Source "a.js" "URL" in let b := Source "b.js" "URL" in
  let l := [Connect] ++ Update (Model a 1) :: [Update (Model b 2); Loaded 1 Proper; Loaded 0 Proper; Update (Model b 3); Update (Model a 4); Update (Model a 5); Loaded 2 Proper; Loaded 3 Proper] in
  attached false [Connect] = true /\ loads (run l) = [] /\ page l = Some (Some (3, a, Some (Model a 5))) /\
  calls (run l) = [Bind 1 b; Render 1 (Model b 2); Render 1 (Model b 3); Unmount 1; Bind 2 a; Render 2 (Model a 5); Unmount 2; Bind 3 a; Render 3 (Model a 5)].
Proof. split; [reflexivity|split; [reflexivity|split; reflexivity]]. Qed.

(** If [bind] throws when a module is loaded for the second time, the binding that was unmounted for it is used again. *)
Theorem C82_throw_refuted : exists a, let l := [Connect; Update (Model a 1); Update (Model a 2); Loaded 0 Proper; Loaded 1 Throws; Update (Model a 3)] in
  page l = None /\ calls (run l) = [Bind 0 a; Render 0 (Model a 2); Unmount 0; Render 0 (Model a 3)].
Proof. exists (Source "a.js" "URL"). split; reflexivity. Qed.

Print Assumptions C82_page.
Print Assumptions C82_shown.
Print Assumptions C82_throw_refuted.
