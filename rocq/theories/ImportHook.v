(** * Components of JavaScript modules on the page, and property C83

    /repo/src/js/packages/@reactpy/client/src/components.tsx:452-530: the hook [useImportSource], and
    /repo/src/js/packages/@reactpy/client/src/bind.tsx:29-58: the bindings used for modules without a [bind] function.

    Preact renders a component and later, but before its next render, runs its effects: first the cleanups of those whose
    dependencies changed, then the effects. Loads of modules may end at any time. *)
From Coq Require Import Bool Arith Lia List.
Import ListNotations.
Local Open Scope list_scope.

(** An import source as JSON text: a number for all of it but [unmountBeforeUpdate]. *)
Record source := Source { s_text : nat; s_before : bool }.
Record model := Model { m_source : source; m_rest : nat }.
(** Calls of a module's binding. *)
Inductive call := Bind (b : nat) (s : source) | Render (b : nat) (m : model) | Unmount (b : nat).

(** ** Model *)

Definition same (a b : source) : bool := Nat.eqb (s_text a) (s_text b) && Bool.eqb (s_before a) (s_before b).
(** The first effect as it last ran (lines 489-513): its number, its dependencies (the source, and whether [mountPoint.current]
    was set when the component was rendered) and [currentBinding]. *)
Record effect := Effect { e_id : nat; e_source : source; e_node : bool; e_binding : option nat }.
(** A render whose effects did not run yet: its model, the value of [binding] and whether [mountPoint.current] was set. *)
Record closure := Closure { c_model : model; c_binding : option nat; c_node : bool }.
Record hook := Hook {
  alive : bool; node : bool; state : option nat; bound : option source; shown : option model; first : option effect; second : option nat;
  pending : option closure; dirty : bool; loads : list (nat * source); next : nat; calls : list call }.
Definition start : hook := Hook true false None None None None None None false [] 0 [].
(** How a load ends: it (or [bind]) fails, [bind] gives no proper binding, or it gives one. *)
Inductive result := Fails | Improper | Proper.
(** A render with the model from the server, a render because [setBinding] was called, the effects of the last render, the end of
    a load and the removal of the component. *)
Inductive event := Props (m : model) | Again | Effects | Loaded (k : nat) (r : result) | Remove.

(** The cleanup of the first effect, lines 503-512. *)
Definition clean_first (e : option effect) : list call :=
  match e with
  | Some e => match e_binding e with Some b => if s_before (e_source e) then [] else [Unmount b] | None => [] end
  | None => []
  end.
(** That of the second, line 525. *)
Definition clean_second (b : option nat) : list call := match b with Some b => [Unmount b] | None => [] end.
Definition changed (e : option effect) (c : closure) : bool :=
  match e with Some e => negb (same (e_source e) (m_source (c_model c)) && Bool.eqb (e_node e) (c_node c)) | None => true end.
Definition flush (s : hook) : hook :=
  match pending s with
  | None => s
  | Some c =>
      let m := c_model c in
      let new := changed (first s) c in
      let cleanups := (if new then clean_first (first s) else []) ++ clean_second (second s) in
      let first' := if new then Some (Effect (next s) (m_source m) (c_node c) None) else first s in
      let loads' := if new then loads s ++ [(next s, m_source m)] else loads s in
      let next' := if new then S (next s) else next s in
      (** lines 516-527 *)
      let used := match c_binding c, bound s with Some b, Some src => if same src (m_source m) then Some b else None | _, _ => None end in
      Hook (alive s) (node s) (state s) (bound s) (shown s) first' (if s_before (m_source m) then used else None) None (dirty s) loads' next'
        (calls s ++ cleanups ++ match used with Some b => [Render b m] | None => [] end)
  end.
(** A render; afterwards [mountPoint] refers to the element. *)
Definition render (m : model) (s0 : hook) : hook :=
  let s := flush s0 in
  Hook (alive s) true (state s) (bound s) (Some m) (first s) (second s) (Some (Closure m (state s) (node s))) false (loads s) (next s) (calls s).
(** Lines 494-500, for the load that effect [k] started. Bindings are named by the effect that made them. *)
Definition loaded (k : nat) (src : source) (r : result) (s : hook) : hook :=
  let rest := filter (fun l => negb (Nat.eqb (fst l) k)) (loads s) in
  let nothing := Hook (alive s) (node s) (state s) (bound s) (shown s) (first s) (second s) (pending s) (dirty s) rest (next s) (calls s) in
  match r, first s with
  | Fails, _ | _, None => nothing
  | _, Some e =>
      if Nat.eqb (e_id e) k && node s
      then match r with
           | Proper => Hook (alive s) (node s) (Some k) (Some src) (shown s) (Some (Effect k (e_source e) (e_node e) (Some k))) (second s) (pending s) true rest (next s) (calls s ++ [Bind k src])
           | _ => Hook (alive s) (node s) None (Some src) (shown s) (first s) (second s) (pending s) (dirty s || match state s with Some _ => true | None => false end) rest (next s) (calls s)
           end
      else nothing
  end.
Definition step (s : hook) (e : event) : hook :=
  if alive s
  then match e with
       | Props m => render m s
       | Again => if dirty s then match shown s with Some m => render m s | None => s end else s
       | Effects => flush s
       | Loaded k r => match find (fun l => Nat.eqb (fst l) k) (loads s) with Some l => loaded k (snd l) r s | None => s end
       | Remove =>
           (** Preact runs the cleanups, so that no effect is the current one, and empties [mountPoint] *)
           Hook false false (state s) (bound s) (shown s) None None None false (loads s) (next s) (calls s ++ clean_first (first s) ++ clean_second (second s))
       end
  else match e with
       | Loaded k r => match find (fun l => Nat.eqb (fst l) k) (loads s) with Some l => loaded k (snd l) r s | None => s end
       | _ => s
       end.
Definition run (l : list event) : hook := fold_left step l start.

(** [ImportedElement], lines 456-474: what it renders (lines 463-470 are never reached). *)
Inductive output := Nothing | MountPoint | Text (t : nat) | Fallback (m : nat).
Inductive fallback := NoFallback | TextFallback (t : nat) | ModelFallback (m : nat).
Definition imported (src : option fallback) : output :=
  match src with
  | None => Nothing
  | Some f =>
      match src with
      | None => match f with NoFallback => Nothing | TextFallback t => Text t | ModelFallback m => Fallback m end
      | Some _ => MountPoint
      end
  end.

(** ** Specification *)

(** The component is at rest: no load, render or effect is outstanding. *)
Definition at_rest (s : hook) : Prop := loads s = [] /\ pending s = None /\ dirty s = false.
Fixpoint last_model (l : list event) : option model :=
  match l with [] => None | Props m :: r => match last_model r with None => Some m | x => x end | _ :: r => last_model r end.
Definition proper (e : event) : Prop := match e with Loaded _ Proper => True | Loaded _ _ => False | _ => True end.
Definition stays (e : event) : Prop := e <> Remove.

(** React on the element, with the bindings of bind.tsx:29-58: which root the element's entry in [roots] is, the roots that
    bindings hold, and the root that is mounted, with what it shows. [None]: React would complain, because a root was used after it
    was unmounted or a second root was made for the element. *)
Record react := React { entry : option nat; holds : list (nat * nat); mounted : option (nat * model); fresh : nat }.
Definition held (b : nat) (r : react) : option nat := match find (fun p => Nat.eqb (fst p) b) (holds r) with Some p => Some (snd p) | None => None end.
Definition drop (b : nat) (l : list (nat * nat)) : list (nat * nat) := filter (fun p => negb (Nat.eqb (fst p) b)) l.
Definition react1 (r : react) (c : call) : option react :=
  match c with
  | Bind b _ => Some (React (entry r) (drop b (holds r)) (mounted r) (fresh r))
  | Render b m =>
      let use k h := match mounted r with Some (k', _) => if Nat.eqb k k' then Some (React (entry r) h (Some (k, m)) (fresh r)) else None | None => None end in
      match held b r with
      | Some k => use k (holds r)
      | None =>
          match entry r with
          | Some k => use k ((b, k) :: drop b (holds r))
          | None => match mounted r with
                    | Some _ => None
                    | None => Some (React (Some (fresh r)) ((b, fresh r) :: drop b (holds r)) (Some (fresh r, m)) (S (fresh r)))
                    end
          end
      end
  | Unmount b =>
      match held b r with
      | None => Some r
      | Some k => Some (React (match entry r with Some k' => if Nat.eqb k k' then None else Some k' | None => None end) (drop b (holds r))
                              (match mounted r with Some (k', m) => if Nat.eqb k k' then None else Some (k', m) | None => None end) (fresh r))
      end
  end.
Fixpoint reacts (r : react) (cs : list call) : option react :=
  match cs with [] => Some r | c :: cs => match react1 r c with Some r' => reacts r' cs | None => None end end.
Definition page (l : list event) : option react := reacts (React None [] None 0) (calls (run l)).

(** ** Proofs *)

Lemma same_eq a b : same a b = true <-> a = b.
Proof.
  unfold same. rewrite andb_true_iff, Nat.eqb_eq, Bool.eqb_true_iff. destruct a as [x y], b as [z w]. cbn [s_text s_before]. split; [intros [-> ->]; reflexivity|intros [= -> ->]; split; reflexivity].
Qed.
Lemma same_refl a : same a a = true.
Proof. apply same_eq. reflexivity. Qed.
Lemma reacts_app r a b : reacts r (a ++ b) = match reacts r a with Some r' => reacts r' b | None => None end.
Proof. revert r. induction a as [|c a IH]; intros r; [reflexivity|]. cbn [app reacts]. destruct (react1 r c); [apply IH|reflexivity]. Qed.

(** *** React *)

Lemma held_drop b b' h e m f : held b (React e (drop b' h) m f) = if Nat.eqb b b' then None else held b (React e h m f).
Proof.
  unfold held, drop. cbn [holds]. induction h as [|[x k] h IH]; [destruct (Nat.eqb b b'); reflexivity|]. cbn [filter find fst].
  destruct (Nat.eqb x b') eqn:E; cbn [negb].
  - rewrite IH. apply Nat.eqb_eq in E. subst x. destruct (Nat.eqb b b') eqn:F; [reflexivity|]. rewrite Nat.eqb_sym, F. reflexivity.
  - cbn [find fst]. destruct (Nat.eqb x b) eqn:G.
    + apply Nat.eqb_eq in G. subst x. rewrite E. reflexivity.
    + exact IH.
Qed.
Lemma held_add b b' k h e m f : held b (React e ((b', k) :: drop b' h) m f) = if Nat.eqb b b' then Some k else held b (React e h m f).
Proof.
  unfold held at 1. cbn [holds find fst]. rewrite (Nat.eqb_sym b' b). destruct (Nat.eqb b b') eqn:E; [reflexivity|].
  pose proof (held_drop b b' h e m f) as H. rewrite E in H. unfold held at 1 in H. cbn [holds] in H. exact H.
Qed.
Lemma held_indep b e h m f e' m' f' : held b (React e h m f) = held b (React e' h m' f').
Proof. reflexivity. Qed.
(** [U]: the bindings that are still referred to. *)
Record good (U : nat -> Prop) (r : react) : Prop := {
  g_entry : entry r = match mounted r with Some (k, _) => Some k | None => None end;
  g_held : forall b k, U b -> held b r = Some k -> entry r = Some k;
  g_one : forall b b', U b -> U b' -> held b r <> None -> held b' r <> None -> b = b' }.
Lemma good_mono (U V : nat -> Prop) r : (forall b, V b -> U b) -> good U r -> good V r.
Proof. intros S [A B C]. split; [exact A|intros b k H; apply B, S, H|intros b b' H H'; apply C; apply S; assumption]. Qed.
Lemma unmount_good U r b : good U r -> U b ->
  exists r', react1 r (Unmount b) = Some r' /\ good U r' /\ held b r' = None /\ (forall b', held b' r = None -> held b' r' = None) /\
    (held b r <> None -> mounted r' = None) /\ (held b r = None -> r' = r).
Proof.
  intros [A B C] Ub. cbn [react1]. destruct (held b r) as [k|] eqn:H.
  - pose proof (B b k Ub H) as E. rewrite E, Nat.eqb_refl.
    destruct (mounted r) as [[k' m]|] eqn:M; [|congruence]. rewrite E in A. injection A as <-. rewrite Nat.eqb_refl.
    eexists. split; [reflexivity|]. destruct r as [en ho mo fr]. cbn [entry holds mounted fresh] in *. subst mo.
    assert (Hd : forall b', held b' (React None (drop b ho) None fr) = if Nat.eqb b' b then None else held b' (React en ho (Some (k, m)) fr)).
    { intros b'. rewrite held_drop. destruct (Nat.eqb b' b); reflexivity. }
    split; [|split; [|split; [|split]]].
    + split; [reflexivity| |].
      * intros b' k' U' H'. rewrite Hd in H'. destruct (Nat.eqb b' b) eqn:Q; [discriminate|]. assert (b' = b); [|subst; rewrite Nat.eqb_refl in Q; discriminate]. apply C; try assumption; congruence.
      * intros b1 b2 U1 U2 H1 H2. rewrite Hd in H1, H2. destruct (Nat.eqb b1 b) eqn:Q1; [congruence|]. destruct (Nat.eqb b2 b) eqn:Q2; [congruence|]. apply C; assumption.
    + rewrite Hd, Nat.eqb_refl. reflexivity.
    + intros b' H'. rewrite Hd. destruct (Nat.eqb b' b); [reflexivity|exact H'].
    + reflexivity.
    + discriminate.
  - exists r. split; [reflexivity|split; [split; assumption|split; [exact H|split; [auto|split; [congruence|reflexivity]]]]].
Qed.
Lemma bind_good U r b s : good U r -> ~ U b ->
  exists r', react1 r (Bind b s) = Some r' /\ good (fun x => U x \/ x = b) r' /\ held b r' = None /\ (forall b', b' <> b -> held b' r' = held b' r) /\ entry r' = entry r /\ mounted r' = mounted r.
Proof.
  intros [A B C] Nb. cbn [react1]. eexists. split; [reflexivity|]. destruct r as [en ho mo fr]. cbn [entry holds mounted fresh] in *.
  assert (Hd : forall b', held b' (React en (drop b ho) mo fr) = if Nat.eqb b' b then None else held b' (React en ho mo fr)) by (intros b'; apply held_drop).
  split; [|split; [|split; [|split; reflexivity]]].
  - split; [exact A| |].
    + intros b' k [U'| ->] H'; rewrite Hd in H'; [|rewrite Nat.eqb_refl in H'; discriminate]. destruct (Nat.eqb b' b); [discriminate|]. apply (B b' k U' H').
    + intros b1 b2 U1 U2 H1 H2. rewrite Hd in H1, H2. destruct (Nat.eqb b1 b) eqn:Q1; [congruence|]. destruct (Nat.eqb b2 b) eqn:Q2; [congruence|].
      apply Nat.eqb_neq in Q1, Q2. destruct U1 as [U1|U1]; [|congruence]. destruct U2 as [U2|U2]; [|congruence]. apply C; assumption.
  - rewrite Hd, Nat.eqb_refl. reflexivity.
  - intros b' N. rewrite Hd. apply Nat.eqb_neq in N. rewrite N. reflexivity.
Qed.
Lemma render_good (U V : nat -> Prop) r b m : good U r -> U b -> (forall b', V b' -> b' <> b -> held b' r = None) ->
  exists r' k, react1 r (Render b m) = Some r' /\ good (fun x => V x \/ x = b) r' /\ held b r' = Some k /\ entry r' = Some k /\ mounted r' = Some (k, m) /\
    (forall b', b' <> b -> held b' r' = held b' r).
Proof.
  intros [A B C] Ub Vh. destruct r as [en ho mo fr]. cbn [entry holds mounted fresh] in *.
  assert (G : forall r' k, (forall b', b' <> b -> held b' r' = held b' (React en ho mo fr)) -> held b r' = Some k -> entry r' = Some k -> mounted r' = Some (k, m) ->
    good (fun x => V x \/ x = b) r').
  { intros r' k Hn Hb He Hm. split.
    - rewrite He, Hm. reflexivity.
    - intros b' k' [Vb'| ->] H'; [|congruence]. destruct (Nat.eq_dec b' b) as [->|N]; [congruence|]. rewrite (Hn b' N), (Vh b' Vb' N) in H'. discriminate.
    - intros b1 b2 V1 V2 H1 H2. assert (X : forall x, (V x \/ x = b) -> held x r' <> None -> x = b).
      { intros x [Vx|Vx] Hx; [|exact Vx]. destruct (Nat.eq_dec x b) as [E|N]; [exact E|]. rewrite (Hn x N), (Vh x Vx N) in Hx. congruence. }
      rewrite (X b1 V1 H1), (X b2 V2 H2). reflexivity. }
  cbn [react1 entry holds mounted fresh]. destruct (held b (React en ho mo fr)) as [k|] eqn:H.
  - pose proof (B b k Ub H) as E. rewrite E in A. destruct mo as [[k' m']|]; [|discriminate]. injection A as <-. rewrite Nat.eqb_refl.
    exists (React en ho (Some (k, m)) fr), k. assert (Hb : held b (React en ho (Some (k, m)) fr) = Some k) by exact H.
    split; [reflexivity|split; [apply (G _ k); [intros; reflexivity|exact Hb|exact E|reflexivity]|split; [exact Hb|split; [exact E|split; [reflexivity|intros; reflexivity]]]]].
  - destruct en as [k|].
    + destruct mo as [[k' m']|]; [|discriminate]. injection A as <-. rewrite Nat.eqb_refl.
      set (r' := React (Some k) ((b, k) :: drop b ho) (Some (k, m)) fr). exists r', k.
      assert (Hn : forall b', b' <> b -> held b' r' = held b' (React (Some k) ho (Some (k, m')) fr)).
      { intros b' N. unfold r'. rewrite held_add. apply Nat.eqb_neq in N. rewrite N. reflexivity. }
      assert (Hb : held b r' = Some k) by (unfold r'; rewrite held_add, Nat.eqb_refl; reflexivity).
      split; [reflexivity|split; [apply (G _ k); [exact Hn|exact Hb|reflexivity|reflexivity]|split; [exact Hb|split; [reflexivity|split; [reflexivity|exact Hn]]]]].
    + destruct mo as [[k' m']|]; [discriminate|].
      set (r' := React (Some fr) ((b, fr) :: drop b ho) (Some (fr, m)) (S fr)). exists r', fr.
      assert (Hn : forall b', b' <> b -> held b' r' = held b' (React None ho None fr)).
      { intros b' N. unfold r'. rewrite held_add. apply Nat.eqb_neq in N. rewrite N. reflexivity. }
      assert (Hb : held b r' = Some fr) by (unfold r'; rewrite held_add, Nat.eqb_refl; reflexivity).
      split; [reflexivity|split; [apply (G _ fr); [exact Hn|exact Hb|reflexivity|reflexivity]|split; [exact Hb|split; [reflexivity|split; [reflexivity|exact Hn]]]]].
Qed.

(** *** The hook *)

Definition used (s : hook) (b : nat) : Prop :=
  state s = Some b \/ (exists c, pending s = Some c /\ c_binding c = Some b) \/ (exists e, first s = Some e /\ e_binding e = Some b) \/ second s = Some b.
Definition init : react := React None [] None 0.
Record inv (s : hook) (r : react) : Prop := {
  i_react : reacts init (calls s) = Some r;
  i_good : good (used s) r;
  i_ids : forall k src, In (k, src) (loads s) -> k < next s /\ ~ used s k /\ ~ In (Unmount k) (calls s);
  i_used : forall b, used s b -> b < next s;
  i_unm : forall b, In (Unmount b) (calls s) -> b < next s;
  i_first : forall e, first s = Some e -> e_id e < next s /\ forall src, In (e_id e, src) (loads s) -> src = e_source e /\ e_binding e = None;
  i_cur : forall e k, first s = Some e -> e_binding e = Some k -> state s = Some k /\ bound s = Some (e_source e) /\
    In (Bind k (e_source e)) (calls s) /\ (s_before (e_source e) = false -> second s <> Some k /\ ~ In (Unmount k) (calls s));
  i_rest : pending s = None -> match shown s with Some m => exists e, first s = Some e /\ e_source e = m_source m | None => first s = None end;
  i_pend : forall c, pending s = Some c -> shown s = Some (c_model c);
  i_clean : forall c, dirty s = false -> pending s = Some c -> c_binding c = state s;
  i_dirty : forall b, dirty s = true -> state s = Some b -> held b r = None /\ forall c, pending s = Some c -> c_binding c <> Some b;
  i_last : forall e k, pending s = None -> dirty s = false -> first s = Some e -> e_binding e = Some k ->
    exists pre m root, shown s = Some m /\ calls s = pre ++ [Render k m] /\ mounted r = Some (root, m) /\ held k r = Some root /\
      (s_before (e_source e) = true -> second s = Some k);
  i_node : shown s <> None -> node s = true;
  i_shown : first s <> None -> shown s <> None }.
Lemma unmounts_good U bs : forall r, good U r -> (forall b, In b bs -> U b) ->
  exists r', reacts r (map Unmount bs) = Some r' /\ good U r' /\ (forall b, In b bs -> held b r' = None) /\ (forall b, held b r = None -> held b r' = None) /\
    (forall b, In b bs -> held b r <> None -> mounted r' = None) /\ (mounted r = None -> mounted r' = None).
Proof.
  induction bs as [|b bs IH]; intros r G S.
  - exists r. split; [reflexivity|split; [exact G|split; [intros b []|split; [auto|split; [intros b []|auto]]]]].
  - destruct (unmount_good U r b G (S b (or_introl eq_refl))) as (r1 & E1 & G1 & H1 & K1 & M1 & N1).
    assert (MN : mounted r = None -> mounted r1 = None).
    { intros Z. destruct (held b r) as [k|] eqn:Q; [apply M1; discriminate|rewrite (N1 eq_refl); exact Z]. }
    destruct (IH r1 G1 (fun x Hx => S x (or_intror Hx))) as (r2 & E2 & G2 & H2 & K2 & M2 & N2).
    exists r2. cbn [map reacts]. rewrite E1. split; [exact E2|split; [exact G2|split; [|split; [|split]]]].
    + intros x [<-|Hx]; [apply K2; exact H1|apply H2; exact Hx].
    + intros x Hx. apply K2, K1, Hx.
    + intros x [<-|Hx] Q; [apply N2, M1, Q|]. destruct (held x r1) as [k|] eqn:Z; [apply (M2 x Hx); congruence|]. apply N2.
      destruct (held b r) as [kb|] eqn:Y; [apply M1; discriminate|]. rewrite (N1 eq_refl) in Z. congruence.
    + intros Z. apply N2, MN, Z.
Qed.
(** The bindings that a run of the effects unmounts. *)
Definition opt (b : option nat) : list nat := match b with Some b => [b] | None => [] end.
Definition first_unmounts (e : option effect) : list nat :=
  match e with Some e => if s_before (e_source e) then [] else opt (e_binding e) | None => [] end.
Lemma clean_first_map e : clean_first e = map Unmount (first_unmounts e).
Proof. destruct e as [e|]; [|reflexivity]. cbn. destruct (e_binding e), (s_before (e_source e)); reflexivity. Qed.
Lemma clean_second_map b : clean_second b = map Unmount (opt b).
Proof. destruct b; reflexivity. Qed.
Lemma first_used s b : In b (first_unmounts (first s)) -> used s b.
Proof.
  unfold first_unmounts. destruct (first s) as [e|] eqn:E; [|intros []]. destruct (s_before _); [intros []|]. destruct (e_binding e) as [k|] eqn:B; [|intros []]. intros [<-|[]].
  right. right. left. exists e. split; [exact E|exact B].
Qed.
Lemma second_used s b : In b (opt (second s)) -> used s b.
Proof. destruct (second s) as [k|] eqn:E; [|intros []]. intros [<-|[]]. right. right. right. exact E. Qed.

Lemma inv_flush s r : inv s r -> exists r', inv (flush s) r' /\ pending (flush s) = None.
Proof.
  intros I. unfold flush. destruct (pending s) as [c|] eqn:P; [|exists r; split; [exact I|exact P]].
  destruct I as [R G Ids Us Um Fi Cu Re Pe Cl Di La No Sh].
  set (m := c_model c). set (new := changed (first s) c).
  set (ub := match c_binding c, bound s with Some b, Some src => if same src (m_source m) then Some b else None | _, _ => None end).
  set (bs := (if new then first_unmounts (first s) else []) ++ opt (second s)).
  assert (Ebs : (if new then clean_first (first s) else []) ++ clean_second (second s) = map Unmount bs).
  { unfold bs. rewrite map_app, clean_second_map. destruct new; [rewrite clean_first_map|]; reflexivity. }
  rewrite Ebs.
  set (s' := Hook _ _ _ _ _ _ _ _ _ _ _ _).
  assert (Ubs : forall b, In b bs -> used s b).
  { intros b Hb. apply in_app_or in Hb. destruct Hb as [Hb|Hb]; [|apply second_used; exact Hb]. destruct new; [apply first_used; exact Hb|destruct Hb]. }
  destruct (unmounts_good _ bs r G Ubs) as (r1 & E1 & G1 & H1 & K1 & _ & _).
  assert (Uub : forall b, ub = Some b -> c_binding c = Some b /\ used s b /\ bound s = Some (m_source m)).
  { intros b Hb. unfold ub in Hb. destruct (c_binding c) as [x|] eqn:X; [|discriminate]. destruct (bound s) as [y|]; [|discriminate]. destruct (same y (m_source m)) eqn:Y; [|discriminate].
    injection Hb as <-. split; [reflexivity|split]. - right. left. exists c. split; [exact P|exact X]. - apply same_eq in Y. congruence. }
  assert (Used' : forall b, used s' b -> used s b /\ (state s = Some b \/ ub = Some b)).
  { intros b [H|[(c' & H & _)|[(e & H & B)|H]]]; cbn [s' state pending first second] in H.
    - split; [left; exact H|left; exact H].
    - discriminate.
    - destruct new; [injection H as <-; discriminate|]. split; [right; right; left; exists e; split; assumption|]. left. apply (Cu e b H B).
    - destruct (s_before (m_source m)); [|discriminate]. split; [apply (Uub b H)|right; exact H]. }
  assert (R2 : exists r2, reacts r1 (match ub with Some b => [Render b m] | None => [] end) = Some r2 /\ good (used s') r2 /\
     (forall b, held b r1 = None -> ub <> Some b -> held b r2 = None) /\
     (forall b, ub = Some b -> exists root, mounted r2 = Some (root, m) /\ held b r2 = Some root)).
  { destruct ub as [b|] eqn:Ub.
    - destruct (Uub b eq_refl) as (C1 & U1 & B1).
      destruct (render_good (used s) (used s') r1 b m G1 U1) as (r2 & root & E2 & G2 & Hb & _ & Mo & Hn).
      + intros b' H' N. destruct (Used' b' H') as [U' [S'|S']]; [|congruence]. apply K1. destruct (dirty s) eqn:D; [apply (Di b' eq_refl S')|].
        rewrite (Cl c eq_refl P) in C1. congruence.
      + exists r2. split; [cbn [reacts]; rewrite E2; reflexivity|split; [|split]].
        * eapply good_mono; [|exact G2]. intros x Hx. left. exact Hx.
        * intros x Hx N. rewrite Hn; [exact Hx|congruence].
        * intros x [= <-]. exists root. split; [exact Mo|exact Hb].
    - exists r1. split; [reflexivity|split; [|split]].
      + eapply good_mono; [|exact G1]. intros b H. apply (Used' b H).
      + auto.
      + discriminate. }
  destruct R2 as (r2 & E2 & G2 & K2 & M2). exists r2. split; [|reflexivity].
  assert (NewE : new = false -> exists e, first s = Some e /\ e_source e = m_source m).
  { unfold new, changed. destruct (first s) as [e|]; [|discriminate]. intros H. apply negb_false_iff, andb_true_iff in H. destruct H as [H _]. apply same_eq in H. exists e. split; [reflexivity|exact H]. }
  assert (InU : forall b, In (Unmount b) (calls s ++ map Unmount bs ++ match ub with Some b => [Render b m] | None => [] end) -> In (Unmount b) (calls s) \/ In b bs).
  { intros b H. apply in_app_or in H. destruct H as [H|H]; [left; exact H|]. apply in_app_or in H. destruct H as [H|H].
    - right. apply in_map_iff in H. destruct H as (x & [= <-] & H). exact H.
    - destruct ub; [destruct H as [H|[]]; discriminate|destruct H]. }
  split; cbn [s' calls loads next state bound shown first second pending dirty node].
  - rewrite reacts_app, R, reacts_app, E1. exact E2.
  - exact G2.
  - intros k src H. assert (O : In (k, src) (loads s) \/ (new = true /\ k = next s)).
    { destruct new; [|left; exact H]. apply in_app_or in H. destruct H as [H|[[= <- <-]|[]]]; [left; exact H|right; split; reflexivity]. }
    assert (k < (if new then S (next s) else next s)) by (destruct O as [O|[-> ->]]; [apply Ids in O; destruct new; lia|lia]).
    split; [assumption|]. destruct O as [O|[Hnew ->]].
    + destruct (Ids k src O) as (_ & N & M). split; [intros U; apply N; apply (Used' k U)|]. intros U. apply InU in U. destruct U as [U|U]; [exact (M U)|]. apply N. apply Ubs. exact U.
    + split; [intros U; apply Used' in U; destruct U as [U _]; apply Us in U; lia|]. intros U. apply InU in U. destruct U as [U|U]; [apply Um in U; lia|]. apply Ubs, Us in U. lia.
  - intros b U. apply Used' in U. destruct U as [U _]. apply Us in U. destruct new; lia.
  - intros b U. apply InU in U. assert (b < next s) by (destruct U as [U|U]; [apply Um; exact U|apply Us, Ubs, U]). destruct new; lia.
  - intros e H. destruct new.
    + injection H as <-. cbn [e_id e_source e_binding]. split; [lia|]. intros src H. apply in_app_or in H. destruct H as [H|[[= <-]|[]]]; [apply Ids in H; lia|]. split; reflexivity.
    + apply Fi. exact H.
  - intros e k H B. destruct new eqn:Nw; [injection H as <-; discriminate|]. destruct (Cu e k H B) as (C1 & C2 & C3 & C4). split; [exact C1|split; [exact C2|split]].
    + apply in_or_app. left. exact C3.
    + intros S0. destruct (NewE eq_refl) as (e' & F' & S'). rewrite H in F'. injection F' as <-. rewrite <- S', S0. split; [discriminate|]. destruct (C4 S0) as [C5 C6].
      intros U. apply InU in U. destruct U as [U|U]; [exact (C6 U)|]. unfold bs in U. cbn [app] in U. destruct (second s) as [x|]; [|destruct U]. destruct U as [->|[]]. congruence.
  - intros _. rewrite (Pe c P). fold m. destruct new; [eexists; split; reflexivity|apply NewE; reflexivity].
  - discriminate.
  - discriminate.
  - intros b D S. destruct (Di b D S) as [D1 D2]. split; [|discriminate]. apply K2; [apply K1; exact D1|]. intros U. destruct (Uub b U) as (C1 & _). exact (D2 c P C1).
  - intros e k _ D H B. destruct new eqn:Nw; [injection H as <-; discriminate|]. destruct (Cu e k H B) as (C1 & C2 & _). destruct (NewE eq_refl) as (e' & F' & S'). rewrite H in F'. injection F' as <-.
    assert (Ub : ub = Some k). { unfold ub. rewrite (Cl c D P), C1, C2, S', same_refl. reflexivity. }
    destruct (M2 k Ub) as (root & Mo & Hk). exists (calls s ++ map Unmount bs), m, root. rewrite Ub.
    split; [apply (Pe c P)|split; [rewrite app_assoc; reflexivity|split; [exact Mo|split; [exact Hk|]]]]. rewrite S'. intros ->. reflexivity.
  - exact No.
  - intros _. rewrite (Pe c P). discriminate.
Qed.
Lemma flush_shown s : shown (flush s) = shown s /\ alive (flush s) = alive s /\ node (flush s) = node s /\ dirty (flush s) = dirty s.
Proof. unfold flush. destruct (pending s); repeat split. Qed.
Lemma inv_render s r m : inv s r -> exists r', inv (render m s) r'.
Proof.
  intros I. destruct (inv_flush s r I) as (r' & [R G Ids Us Um Fi Cu Re Pe Cl Di La No Sh] & P). exists r'. unfold render. set (s1 := flush s) in *.
  set (s' := Hook _ _ _ _ _ _ _ _ _ _ _ _).
  assert (Used' : forall b, used s' b -> used s1 b).
  { intros b [H|[(c' & [= <-] & B)|[H|H]]]; [left; exact H|left; exact B|right; right; left; exact H|right; right; right; exact H]. }
  split; cbn [s' calls loads next state bound shown first second pending dirty node]; try assumption.
  - eapply good_mono; [|exact G]. exact Used'.
  - intros k src H. destruct (Ids k src H) as (A & B & C). split; [exact A|split; [intros U; apply B, Used', U|exact C]].
  - intros b U. apply Us, Used', U.
  - discriminate.
  - intros c [= <-]. reflexivity.
  - intros c _ [= <-]. reflexivity.
  - discriminate.
  - discriminate.
  - reflexivity.
  - discriminate.
Qed.
Lemma inv_loaded s r k src res : inv s r -> In (k, src) (loads s) -> exists r', inv (loaded k src res s) r'.
Proof.
  intros I J. pose proof I as [R G Ids Us Um Fi Cu Re Pe Cl Di La No Sh].
  assert (Sub : forall x y, In (x, y) (filter (fun l => negb (Nat.eqb (fst l) k)) (loads s)) -> In (x, y) (loads s) /\ x <> k).
  { intros x y H. apply filter_In in H. cbn [fst] in H. destruct H as [H N]. apply negb_true_iff, Nat.eqb_neq in N. split; assumption. }
  assert (D : inv (Hook (alive s) (node s) (state s) (bound s) (shown s) (first s) (second s) (pending s) (dirty s) (filter (fun l => negb (Nat.eqb (fst l) k)) (loads s)) (next s) (calls s)) r).
  { split; cbn [calls loads next state bound shown first second pending dirty node]; try assumption.
    - intros x y H. apply (Ids x y). apply Sub. exact H.
    - intros e H. destruct (Fi e H) as [A B]. split; [exact A|]. intros y Hy. apply B, Sub, Hy. }
  unfold loaded. destruct res; [exists r; exact D| |]; (destruct (first s) as [e|] eqn:F; [|exists r; exact D]); (destruct (Nat.eqb (e_id e) k && node s) eqn:Q; [|exists r; exact D]).
  - apply andb_true_iff in Q. destruct Q as [Q Nd]. apply Nat.eqb_eq in Q. exists r. subst k. destruct (Fi e eq_refl) as [F1 F2]. destruct (F2 src J) as [-> F3].
    set (s' := Hook _ _ _ _ _ _ _ _ _ _ _ _).
    assert (Used' : forall b, used s' b -> used s b).
    { intros b [H|[H|[H|H]]]; cbn [s' state pending first second] in H; [discriminate|right; left; exact H|right; right; left; rewrite F; exact H|right; right; right; exact H]. }
    split; cbn [s' calls loads next state bound shown first second pending dirty node]; try assumption.
    + eapply good_mono; [|exact G]. exact Used'.
    + intros x y H. apply Sub in H. destruct H as [H _]. destruct (Ids x y H) as (A & B & C). split; [exact A|split; [intros U; apply B, Used', U|exact C]].
    + intros b U. apply Us, Used', U.
    + intros e' [= <-]. split; [exact F1|]. intros y Hy. apply Sub in Hy. destruct Hy as [_ Hy]. congruence.
    + intros e' x [= <-] B. congruence.
    + intros c D0 Pc. apply orb_false_iff in D0. destruct D0 as [D0 S0]. rewrite (Cl c D0 Pc). destruct (state s); [discriminate|reflexivity].
    + discriminate.
    + intros e' x _ _ [= <-] B. congruence.
  - apply andb_true_iff in Q. destruct Q as [Q Nd]. apply Nat.eqb_eq in Q. subst k. destruct (Fi e eq_refl) as [F1 F2]. destruct (F2 src J) as [-> F3].
    destruct (Ids _ _ J) as (I1 & I2 & I3). destruct (bind_good _ r (e_id e) (e_source e) G I2) as (r' & E & G' & Hk & Hn & En & Mo). exists r'.
    set (s' := Hook _ _ _ _ _ _ _ _ _ _ _ _).
    assert (Used' : forall b, used s' b -> used s b \/ b = e_id e).
    { intros b [H|[H|[(e' & H & B)|H]]]; cbn [s' state pending first second] in H;
        [injection H as <-; right; reflexivity|left; right; left; exact H|injection H as <-; injection B as <-; right; reflexivity|left; right; right; right; exact H]. }
    assert (InU : forall b, In (Unmount b) (calls s ++ [Bind (e_id e) (e_source e)]) -> In (Unmount b) (calls s)).
    { intros b H. apply in_app_or in H. destruct H as [H|[H|[]]]; [exact H|discriminate]. }
    split; cbn [s' calls loads next state bound shown first second pending dirty node]; try assumption.
    + rewrite reacts_app, R. cbn [reacts]. rewrite E. reflexivity.
    + eapply good_mono; [|exact G']. exact Used'.
    + intros x y H. apply Sub in H. destruct H as [H N]. destruct (Ids x y H) as (A & B & C). split; [exact A|split; [|intros U; apply C, InU, U]].
      intros U. apply Used' in U. destruct U as [U|U]; [exact (B U)|congruence].
    + intros b U. apply Used' in U. destruct U as [U| ->]; [apply Us, U|exact I1].
    + intros b U. apply Um, InU, U.
    + intros e' [= <-]. cbn [e_id e_source e_binding]. split; [exact F1|]. intros y Hy. apply Sub in Hy. destruct Hy as [_ Hy]. congruence.
    + intros e' x [= <-] [= <-]. cbn [e_source]. split; [reflexivity|split; [reflexivity|split; [apply in_or_app; right; left; reflexivity|]]]. intros _. split.
      * intros S. apply I2. right. right. right. exact S.
      * intros U. apply I3, InU, U.
    + intros P. specialize (Re P). destruct (shown s) as [m|]; [|congruence]. destruct Re as (e' & F' & S'). injection F' as <-. eexists. split; [reflexivity|exact S'].
    + discriminate.
    + intros b _ [= <-]. split; [exact Hk|]. intros c Pc B. apply I2. right. left. exists c. split; [exact Pc|exact B].
    + discriminate.
    + intros _. apply Sh. discriminate.
Qed.
Lemma inv_step s r e : inv s r -> stays e -> alive s = true -> alive (step s e) = true /\ exists r', inv (step s e) r'.
Proof.
  intros I S A. unfold step. rewrite A. destruct e as [m| | |k res|]; [| | | |congruence].
  - split; [unfold render; cbn [alive]; destruct (flush_shown s) as (_ & -> & _); exact A|apply (inv_render s r m I)].
  - destruct (dirty s); [|split; [exact A|exists r; exact I]]. destruct (shown s) as [m|]; [|split; [exact A|exists r; exact I]].
    split; [unfold render; cbn [alive]; destruct (flush_shown s) as (_ & -> & _); exact A|apply (inv_render s r m I)].
  - split; [destruct (flush_shown s) as (_ & -> & _); exact A|]. destruct (inv_flush s r I) as (r' & I' & _). exists r'. exact I'.
  - destruct (find _ (loads s)) as [[k' src]|] eqn:F; [|split; [exact A|exists r; exact I]]. apply find_some in F. destruct F as [F E]. cbn [fst] in E. apply Nat.eqb_eq in E. subst k'. cbn [snd].
    split; [|apply (inv_loaded s r k src res I F)]. unfold loaded. destruct res, (first s) as [e|]; try exact A; destruct (Nat.eqb (e_id e) k && node s); exact A.
Qed.
Lemma inv_start : inv start init.
Proof.
  assert (N : forall b, ~ used start b). { intros b [H|[(c & H & _)|[(e & H & _)|H]]]; discriminate. }
  split; cbn; try discriminate; try contradiction; try reflexivity.
  - split; cbn; [reflexivity|discriminate|]. intros b b' H. destruct (N b H).
  - intros b H. destruct (N b H).
Qed.
Lemma inv_run l : Forall stays l -> alive (run l) = true /\ exists r, inv (run l) r.
Proof.
  unfold run. assert (G : alive start = true /\ exists r, inv start r) by (split; [reflexivity|exists init; exact inv_start]). revert G. generalize start as s.
  intros s G F. revert s G. induction F as [|e l H _ IH]; intros s (A & r & I); [split; [exact A|exists r; exact I]|]. cbn [fold_left]. apply IH. apply (inv_step s r e); assumption.
Qed.

(** While every load succeeds, an effect without a binding has a load outstanding. *)
Definition awaits (s : hook) : Prop := forall e, first s = Some e -> e_binding e = None -> In (e_id e, e_source e) (loads s).
Lemma awaits_flush s : awaits s -> awaits (flush s).
Proof.
  intros W. unfold flush. destruct (pending s) as [c|]; [|exact W]. intros e. cbn [first loads]. destruct (changed (first s) c).
  - intros [= <-] _. cbn [e_id e_source]. apply in_or_app. right. left. reflexivity.
  - apply W.
Qed.
Lemma awaits_step s r e : inv s r -> stays e -> proper e -> alive s = true -> awaits s -> awaits (step s e).
Proof.
  intros I S Pr A W. unfold step. rewrite A. destruct e as [m| | |k res|]; [| | | |congruence].
  - apply (awaits_flush s W).
  - destruct (dirty s); [|exact W]. destruct (shown s) as [m|]; [|exact W]. apply (awaits_flush s W).
  - apply (awaits_flush s W).
  - destruct (find _ (loads s)) as [[k' src]|] eqn:F; [|exact W]. apply find_some in F. destruct F as [F E]. cbn [fst] in E. apply Nat.eqb_eq in E. subst k'. cbn [snd].
    destruct res; [destruct Pr|destruct Pr|]. unfold loaded. destruct (first s) as [e|] eqn:Fs.
    + destruct (Nat.eqb (e_id e) k && node s) eqn:Q.
      * intros e'. cbn [first]. intros [= <-]. discriminate.
      * intros e'. cbn [first loads]. intros [= <-] B. apply filter_In. split; [apply W; assumption|]. cbn [fst]. apply negb_true_iff.
        destruct (Nat.eqb (e_id e) k); [|reflexivity]. cbn [andb] in Q. rewrite (i_node s r I) in Q; [discriminate|]. apply (i_shown s r I). congruence.
    + intros e'. cbn [first]. discriminate.
Qed.
Lemma shown_step s e : stays e -> alive s = true -> shown (step s e) = match e with Props m => Some m | _ => shown s end.
Proof.
  intros S A. unfold step. rewrite A. destruct e as [m| | |k res|]; [| | | |congruence].
  - reflexivity.
  - destruct (dirty s); [|reflexivity]. destruct (shown s) as [m|] eqn:E; [reflexivity|exact E].
  - apply flush_shown.
  - destruct (find _ _) as [[k' src]|]; [|reflexivity]. unfold loaded. destruct res, (first s) as [e|]; try reflexivity; cbn [snd]; destruct (Nat.eqb (e_id e) k && node s); reflexivity.
Qed.
Lemma run_facts l : Forall stays l -> Forall proper l -> alive (run l) = true /\ (exists r, inv (run l) r) /\ awaits (run l) /\ shown (run l) = last_model l.
Proof.
  intros F P. enough (H : forall s, alive s = true -> (exists r, inv s r) -> awaits s ->
    alive (fold_left step l s) = true /\ (exists r, inv (fold_left step l s) r) /\ awaits (fold_left step l s) /\ shown (fold_left step l s) = match last_model l with Some m => Some m | None => shown s end).
  { destruct (H start eq_refl) as (A & B & C & D); [exists init; exact inv_start|intros e; discriminate|]. split; [exact A|split; [exact B|split; [exact C|]]].
    unfold run. rewrite D. destruct (last_model l); reflexivity. }
  revert P. induction F as [|e l S _ IH]; intros P s A (r & I) W.
  - split; [exact A|split; [exists r; exact I|split; [exact W|reflexivity]]].
  - inversion P as [|? ? Pe Pl]; subst. cbn [fold_left]. destruct (inv_step s r e I S A) as (A' & I').
    destruct (IH Pl (step s e) A' I' (awaits_step s r e I S Pe A W)) as (B & C & D & E). split; [exact B|split; [exact C|split; [exact D|]]].
    rewrite E, (shown_step s e S A). destruct e; cbn [last_model]; destruct (last_model l); reflexivity.
Qed.
Lemma dead_run l : forall s, alive s = false -> first s = None -> calls (fold_left step l s) = calls s.
Proof.
  induction l as [|e l IH]; intros s A F; [reflexivity|]. cbn [fold_left].
  assert (H : alive (step s e) = false /\ first (step s e) = None /\ calls (step s e) = calls s).
  { unfold step. rewrite A. destruct e as [m| | |k res|]; try (split; [exact A|split; [exact F|reflexivity]]).
    destruct (find _ _) as [x|]; [|split; [exact A|split; [exact F|reflexivity]]]. unfold loaded. rewrite F. destruct res; (split; [exact A|split; reflexivity]). }
  destruct H as (H1 & H2 & H3). rewrite IH, H3 by assumption. reflexivity.
Qed.
Lemma idle_run l : Forall stays l -> last_model l = None -> run l = start.
Proof.
  unfold run. intros F. induction F as [|e l S _ IH]; intros H; [reflexivity|]. cbn [fold_left]. destruct e as [m| | |k res|]; try (apply IH; exact H); [|congruence].
  cbn [last_model] in H. destruct (last_model l); discriminate.
Qed.

(** ** C83 *)

(** When nothing is outstanding and every module loaded, what the element shows is the latest model: the last call is a render of
    it, by a binding made for its module, which was never unmounted (unless the module is to be unmounted before each update, when
    it is unmounted and used again); and with the bindings of bind.tsx React shows that model. *)
Theorem C83_shown l m : Forall stays l -> Forall proper l -> at_rest (run l) -> last_model l = Some m ->
  exists b pre root r, calls (run l) = pre ++ [Render b m] /\ In (Bind b (m_source m)) pre /\ (s_before (m_source m) = false -> ~ In (Unmount b) pre) /\
    page l = Some r /\ mounted r = Some (root, m).
Proof.
  intros F P (Lo & Pe & Di) LM. destruct (run_facts l F P) as (A & (r & I) & W & Sh). rewrite LM in Sh. pose proof (i_rest _ _ I Pe) as Re. rewrite Sh in Re. destruct Re as (e & Fe & Se).
  destruct (e_binding e) as [k|] eqn:B; [|exfalso; pose proof (W e Fe B) as K; rewrite Lo in K; destruct K].
  destruct (i_last _ _ I e k Pe Di Fe B) as (pre & m' & root & Sm & Ca & Mo & _ & _). rewrite Sh in Sm. injection Sm as <-.
  destruct (i_cur _ _ I e k Fe B) as (_ & _ & Bi & Un). rewrite Se in Bi, Un.
  exists k, pre, root, r. split; [exact Ca|split; [|split; [|split; [exact (i_react _ _ I)|exact Mo]]]].
  - rewrite Ca in Bi. apply in_app_or in Bi. destruct Bi as [Bi|[Bi|[]]]; [exact Bi|discriminate].
  - intros S0 U. destruct (Un S0) as [_ N]. apply N. rewrite Ca. apply in_or_app. left. exact U.
Qed.
(** With those bindings React never complains, whatever the order of renders, effects, ends of loads and removal. *)
Theorem C83_react l : page l <> None.
Proof.
  assert (H : forall l, Forall stays l \/ exists a b, l = a ++ Remove :: b /\ Forall stays a).
  { clear l. induction l as [|e l IH]; [left; constructor|].
    assert (D : e = Remove \/ stays e) by (destruct e; [right; discriminate|right; discriminate|right; discriminate|right; discriminate|left; reflexivity]).
    destruct D as [->|D]; [right; exists [], l; split; [reflexivity|constructor]|].
    destruct IH as [IH|(a & b & -> & IH)]; [left; constructor; assumption|right; exists (e :: a), b; split; [reflexivity|constructor; assumption]]. }
  unfold page. change (React None [] None 0) with init. destruct (H l) as [F|(a & b & -> & F)].
  - destruct (inv_run l F) as (_ & r & I). rewrite (i_react _ _ I). discriminate.
  - destruct (inv_run a F) as (A & r & I). unfold run. rewrite fold_left_app. cbn [fold_left]. fold (run a). rewrite dead_run by (unfold step; rewrite A; reflexivity).
    unfold step. rewrite A. cbn [calls]. rewrite reacts_app, (i_react _ _ I), clean_first_map, clean_second_map, <- map_app.
    destruct (unmounts_good _ (first_unmounts (first (run a)) ++ opt (second (run a))) r (i_good _ _ I)) as (r' & -> & _); [|discriminate].
    intros x Hx. apply in_app_or in Hx. destruct Hx as [Hx|Hx]; [apply first_used; exact Hx|apply second_used; exact Hx].
Qed.
(** A component that is removed at rest leaves nothing mounted. *)
Theorem C83_clean_partial l : Forall stays l -> Forall proper l -> at_rest (run l) -> exists r, page (l ++ [Remove]) = Some r /\ mounted r = None.
Proof.
  intros F P (Lo & Pe & Di). destruct (run_facts l F P) as (A & (r & I) & W & Sh). unfold page. change (React None [] None 0) with init. unfold run. rewrite fold_left_app. cbn [fold_left]. fold (run l).
  unfold step. rewrite A. cbn [calls]. rewrite reacts_app, (i_react _ _ I), clean_first_map, clean_second_map, <- map_app.
  set (bs := first_unmounts (first (run l)) ++ opt (second (run l))).
  assert (Ub : forall b, In b bs -> used (run l) b). { intros x Hx. apply in_app_or in Hx. destruct Hx as [Hx|Hx]; [apply first_used; exact Hx|apply second_used; exact Hx]. }
  destruct (unmounts_good _ bs r (i_good _ _ I) Ub) as (r' & E & _ & _ & _ & M & N). exists r'. split; [exact E|].
  pose proof (i_rest _ _ I Pe) as Re. destruct (shown (run l)) as [m|] eqn:S.
  - destruct Re as (e & Fe & Se). destruct (e_binding e) as [k|] eqn:B; [|exfalso; pose proof (W e Fe B) as K; rewrite Lo in K; destruct K].
    destruct (i_last _ _ I e k Pe Di Fe B) as (pre & m' & root & Sm & Ca & Mo & He & Sb). apply (M k); [|congruence]. unfold bs. apply in_or_app. destruct (s_before (e_source e)) eqn:Q.
    + right. rewrite (Sb eq_refl). left. reflexivity.
    + left. unfold first_unmounts. rewrite Fe, Q, B. left. reflexivity.
  - apply N. pose proof (i_react _ _ I) as R. symmetry in Sh. rewrite (idle_run l F Sh) in R. injection R as <-. reflexivity.
Qed.

(** After its removal the component calls nothing. *)
Theorem C83_removed l l' : calls (run (l ++ Remove :: l')) = calls (run (l ++ [Remove])).
Proof.
  unfold run. rewrite !fold_left_app. cbn [fold_left]. fold (run l).
  assert (D : forall l, alive (run l) = false -> first (run l) = None).
  { clear. intros l. unfold run. assert (G : alive start = false -> first start = None) by discriminate. revert G. generalize start as s. induction l as [|e l IH]; intros s G; [exact G|]. cbn [fold_left]. apply IH.
    destruct (alive s) eqn:A.
    - destruct e as [m| | |k res|].
      + intros N. exfalso. revert N. unfold step. rewrite A. unfold render. cbn [alive]. destruct (flush_shown s) as (_ & -> & _). congruence.
      + intros N. exfalso. revert N. unfold step. rewrite A. destruct (dirty s); [|congruence]. destruct (shown s); [|congruence]. unfold render. cbn [alive]. destruct (flush_shown s) as (_ & -> & _). congruence.
      + intros N. exfalso. revert N. unfold step. rewrite A. destruct (flush_shown s) as (_ & -> & _). congruence.
      + intros N. exfalso. revert N. unfold step. rewrite A. destruct (find _ _) as [x|]; [|congruence]. unfold loaded. destruct res, (first s) as [e|]; cbn [alive]; try congruence; destruct (Nat.eqb (e_id e) k && node s); cbn [alive]; congruence.
      + intros _. unfold step. rewrite A. reflexivity.
    - intros _. specialize (G eq_refl). unfold step. rewrite A. destruct e as [m| | |k res|]; try exact G. destruct (find _ _) as [x|]; [|exact G]. unfold loaded. rewrite G. destruct res; reflexivity. }
  apply dead_run; unfold step; destruct (alive (run l)) eqn:A; [reflexivity|exact A|reflexivity|apply D; exact A].
Qed.

(** Every first display binds the module twice: [mountPoint.current] is null when the component is first rendered and is not at its
    second render, which is a change of the first effect's dependencies. The first binding is then unmounted, and used after that. *)
Definition first_display (m : model) : list event := [Props m; Effects; Loaded 0 Proper; Again; Effects; Loaded 1 Proper; Again; Effects].
Theorem C83_twice_refuted m : s_before (m_source m) = false ->
  at_rest (run (first_display m)) /\ calls (run (first_display m)) = [Bind 0 (m_source m); Unmount 0; Render 0 m; Bind 1 (m_source m); Render 1 m].
Proof.
  destruct m as [[t b] x]. cbn [m_source s_before]. intros ->. unfold first_display, run, at_rest. cbn -[same Nat.eqb]. unfold changed. cbn -[same]. rewrite same_refl. cbn -[same]. rewrite ?same_refl. cbn. rewrite ?Nat.eqb_refl. repeat split.
Qed.
(** If the component is removed before the second load ends, what the first binding rendered stays mounted. *)
Theorem C83_leak_refuted m : s_before (m_source m) = false ->
  match page [Props m; Effects; Loaded 0 Proper; Again; Effects; Remove; Loaded 1 Proper] with Some r => mounted r = Some (0, m) | None => False end.
Proof.
  destruct m as [[t b] x]. cbn [m_source s_before]. intros ->. unfold page, run. cbn -[same Nat.eqb]. unfold changed. cbn -[same]. rewrite ?same_refl. cbn. rewrite ?Nat.eqb_refl. reflexivity.
Qed.
(** When the module changes, a render whose effects run after the new module was bound gives the new model to the old module's
    binding, although that was unmounted. *)
Definition module_a : source := Source 0 false.
Definition module_b : source := Source 1 false.
Definition change : list event :=
  first_display (Model module_a 7) ++ [Props (Model module_b 8); Effects; Props (Model module_b 9); Loaded 2 Proper; Effects].
Theorem C83_wrong_module_refuted :
  exists pre, calls (run change) = pre ++ [Render 1 (Model module_b 9)] /\ In (Bind 1 module_a) pre /\ In (Unmount 1) pre.
Proof. eexists (firstn 7 (calls (run change))). vm_compute. split; [reflexivity|]. split; auto 10. Qed.
(** A fallback is never shown. *)
Theorem C83_fallback_refuted src : match imported src with Text _ | Fallback _ => False | _ => True end.
Proof. destruct src; exact I. Qed.

(** Non-vacuity: the module changes while a load is outstanding, and [unmountBeforeUpdate] is set. *)
Definition busy : list event := change ++ [Again; Effects; Props (Model module_b 10); Effects].
Example C83_busy : Forall stays busy /\ Forall proper busy /\ last_model busy = Some (Model module_b 10) /\ at_rest (run busy) /\
  match page busy with Some r => mounted r = Some (1, Model module_b 10) | None => False end.
Proof.
  split; [repeat (constructor; [discriminate|]); constructor|split; [repeat (constructor; [exact I|]); constructor|]]. vm_compute. repeat split.
Qed.
Definition before : list event := first_display (Model (Source 0 true) 7) ++ [Props (Model (Source 0 true) 8); Effects].
Example C83_before : Forall stays before /\ Forall proper before /\ last_model before = Some (Model (Source 0 true) 8) /\ at_rest (run before) /\
  calls (run before) = [Bind 0 (Source 0 true); Render 0 (Model (Source 0 true) 7); Bind 1 (Source 0 true); Unmount 0;
    Render 1 (Model (Source 0 true) 7); Unmount 1; Render 1 (Model (Source 0 true) 8)].
Proof.
  split; [repeat (constructor; [discriminate|]); constructor|split; [repeat (constructor; [exact I|]); constructor|]]. vm_compute. repeat split.
Qed.
Print Assumptions C83_shown.
Print Assumptions C83_react.
Print Assumptions C83_clean_partial.
Print Assumptions C83_removed.
Print Assumptions C83_twice_refuted.
Print Assumptions C83_leak_refuted.
Print Assumptions C83_wrong_module_refuted.
Print Assumptions C83_fallback_refuted.
