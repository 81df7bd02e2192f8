(** * Properties C14-C20: hooks

    A history is a list of calls ([call], HookCalls.v) made by any number of components in any order: beginnings and
    ends of renders, hook calls, and uses of the returned setters, dispatchers and references at any time.
    [reply R n a c] is the result of call [c] after the history [a] of [n] components; [R] gives the reducer functions. *)
From Coq Require Import String ZArith Bool Arith Lia List.
From Verif Require Import Dict LayoutTypes LayoutModel LayoutDeriv LayoutFacts LayoutSettled LayoutContext HooksModel HooksSteady HookCalls FirstMount HookCallsFacts HookHistory.
From Verif Require LayoutHistory LayoutFindings DisplaySpec.
Import ListNotations.
Local Open Scope string_scope.
Local Open Scope list_scope.

(** Render functions written with the hooks do nothing else to the hooks' state than such calls. *)
Theorem C14_render_functions_are_calls R h p s :
  let '(out, cs, s') := play h p s in
  run_body h (compile p) s = (out, s') /\
  (forall c, In c cs -> caller c = Some h \/ exists h' i u, c = KDispatch h' i u) /\
  (out <> Fuel -> snd (exec_all R cs s) = s').
Proof.
  pose proof (play_compile h p s) as A. pose proof (play_calls h p s) as B. pose proof (play_exec R h p s) as C.
  destruct (play h p s) as [[out cs] s']. auto.
Qed.

Section Props.
Variable R : nat -> val -> val -> val.
Local Notation reply := (HookCalls.reply R).
Local Notation state_after := (HookCalls.state_after R).

(** ** C14 *)

(** The initial value, if no earlier call of the component got this slot. *)
Lemma state_first n a h init i v :
  on n (a ++ [KState h init]) ->
  reply n a (KState h init) = RState i v ->
  (forall a1 c a2, a = a1 ++ c :: a2 -> caller c = Some h -> slot_of (reply n a1 c) <> Some i) ->
  v = init.
Proof.
  intros ON E F. destruct (on_app _ _ _ ON) as [ON1 ON2]. pose proof (ON2 _ h (or_introl eq_refl) eq_refl) as L.
  destruct (state_call R n h init _ _ _ i v (exec_pair R _ _) (after_ok R n a) L E) as (N & EI & _ & P & Q).
  destruct (nth_error (cells h (state_after n a)) i) as [x|] eqn:EX; [|auto]. exfalso.
  assert (exists w, x = CState w) as (w & ->).
  { destruct (exec_cell R _ _ _ _ _ _ _ _ (exec_pair R (KState h init) (state_after n a)) (after_ok R n a) (proj1 (on_cons _ _ _ ON2)) EX) as (x' & EX' & CA).
    assert (x' = CState v) as -> by congruence. destruct x; simpl in CA; eauto; try discriminate; [destruct CA as (? & ? & ?)|destruct CA]; discriminate. }
  destruct (origin_state R n a h i w ON1 EX) as (a1 & c & a2 & EA & CC & SL). exact (F a1 c a2 EA CC SL).
Qed.

(** The value at a later call is the fold of the updates sent in between. *)
Lemma state_fold n a b h init init' i v v' :
  on n (a ++ KState h init :: b ++ [KState h init']) ->
  reply n a (KState h init) = RState i v ->
  reply n (a ++ KState h init :: b) (KState h init') = RState i v' ->
  v' = fold_left take (flat_map (sent R h i) b) v.
Proof.
  intros ON E1 E2. destruct (on_app _ _ _ ON) as [ON1 ON2]. destruct (on_cons _ _ _ ON2) as [ON3 ON4]. destruct (on_app _ _ _ ON4) as [ON5 ON6].
  pose proof (ON3 h eq_refl) as L.
  destruct (state_call R n h init _ _ _ i v (exec_pair R _ _) (after_ok R n a) L E1) as (N & _).
  pose proof (exec_ok R n _ _ _ _ (exec_pair R (KState h init) (state_after n a)) (after_ok R n a)) as O1.
  pose proof (all_state R n b _ h i v O1 ON5 N) as A. rewrite <- after_cons in A.
  destruct (state_call R n h init' _ _ _ i v' (exec_pair R _ _) (after_ok R n _) L E2) as (_ & _ & _ & _ & Q). apply Q. exact A.
Qed.

(** A dispatch changes the state and asks for a render exactly if it changes the value. *)
Lemma dispatch_requests n a h i u v :
  slot_value h i (state_after n a) = Some v ->
  let new := match u with UVal x => x | UFun f => f v end in
  let s := state_after n a in
  let s' := state_after n (a ++ [KDispatch h i u]) in
  (veq new v = true -> s' = s) /\
  (veq new v = false ->
     slot_value h i s' = Some new /\ hk_sched (get_hook h s') = true /\
     s_queue s' = if hk_sched (get_hook h s) then s_queue s else queue_put h (s_queue s)).
Proof.
  intros E new s s'. subst s'. rewrite after_snoc. simpl. fold s in E |- *. unfold slot_value in *.
  destruct (nth_error (hk_cells (get_hook h s)) i) as [[w| | |]|] eqn:EN; try discriminate. injection E as ->.
  assert (L : h < length (s_hooks s)).
  { destruct (Nat.lt_ge_cases h (length (s_hooks s))); auto. rewrite get_beyond in EN by auto. destruct i; discriminate. }
  unfold dispatch. rewrite EN. cbv zeta. fold new. split; intros V; rewrite V; auto.
  unfold schedule_render. rewrite get_put_same by auto. cbn [hk_sched]. destruct (hk_sched (get_hook h s)) eqn:ES.
  - rewrite get_put_same by auto. simpl. rewrite nth_upd_same by (apply nth_error_Some; congruence). auto.
  - rewrite get_put_same by (change (s_hooks (set_queue ?q ?x)) with (s_hooks x); rewrite put_len; auto).
    simpl. rewrite nth_upd_same by (apply nth_error_Some; congruence). auto.
Qed.

(** ** C15 *)

(** The slots taken since the component's last render ended. *)
Lemma slot_position n a b h c i :
  on n (a ++ KEnd h :: b ++ [c]) -> h < n ->
  reply n a (KEnd h) = RDone ->
  smooth R h b (state_after n (a ++ [KEnd h])) ->
  caller c = Some h -> slot_of (reply n (a ++ KEnd h :: b) c) = Some i -> i = taken h b.
Proof.
  intros ON L ER SM CC SL. destruct (on_app _ _ _ ON) as [ON1 ON2]. destruct (on_cons _ _ _ ON2) as [_ ON3]. destruct (on_app _ _ _ ON3) as [ON4 _].
  pose proof (call_slot R n c _ _ _ h i (exec_pair R _ _) (after_ok R n _) CC L SL) as ->.
  change (KEnd h :: b) with ([KEnd h] ++ b). rewrite app_assoc, after_app. rewrite (smooth_idx R n h b _ (after_ok R n _) ON4 SM).
  assert (idx h (state_after n (a ++ [KEnd h])) = 0) as ->; [|lia]. rewrite after_snoc.
  destruct (end_spec R h _ _ _ (exec_pair R (KEnd h) (state_after n a))) as (_ & _ & [(e & X & _)|(_ & _ & _ & X)]); [unfold HookCalls.reply in ER; congruence|].
  apply X. destruct (after_ok R n a) as (_ & -> & _). exact L.
Qed.
Lemma slot_position_first n b h c i :
  on n (b ++ [c]) -> h < n -> smooth R h b (fresh n) ->
  caller c = Some h -> slot_of (reply n b c) = Some i -> i = taken h b.
Proof.
  intros ON L SM CC SL. destruct (on_app _ _ _ ON) as [ON1 _].
  pose proof (call_slot R n c _ _ _ h i (exec_pair R _ _) (after_ok R n _) CC L SL) as ->.
  unfold HookCalls.state_after. rewrite (smooth_idx R n h b _ (ok_fresh n) ON1 SM). unfold idx, get_hook, fresh. simpl. rewrite nth_repeat. simpl. lia.
Qed.

(** A dispatch to one slot changes no other slot of any component. *)
Lemma dispatch_local n a h i u h' i' : (h', i') <> (h, i) ->
  nth_error (hk_cells (get_hook h' (state_after n (a ++ [KDispatch h i u])))) i' = nth_error (hk_cells (get_hook h' (state_after n a))) i'.
Proof.
  intros N. rewrite after_snoc. simpl. destruct (dispatch_cells h i u (state_after n a) h') as [->|(-> & _ & v & _ & E & _)]; auto.
  unfold cells in E. rewrite E. apply nth_upd_other. congruence.
Qed.

(** ** C16 *)

Lemma reducer_first n a h red init i v d :
  on n (a ++ [KReducer h red init]) ->
  reply n a (KReducer h red init) = RReducer i v d ->
  (forall a1 c a2, a = a1 ++ c :: a2 -> caller c = Some h -> slot_of (reply n a1 c) <> Some i) ->
  v = init /\ d = VPair (VInt (Z.of_nat red)) (VSetter h i).
Proof.
  intros ON E F. destruct (on_app _ _ _ ON) as [ON1 ON2]. pose proof (ON2 _ h (or_introl eq_refl) eq_refl) as L.
  destruct (reducer_call R n h red init _ _ _ i v d (exec_pair R _ _) (after_ok R n a) L E) as (N & _ & _ & _ & P & _).
  destruct (nth_error (cells h (state_after n a)) i) as [x|] eqn:EX; [|auto]. exfalso.
  assert (exists w, x = CState w) as (w & ->).
  { destruct (exec_cell R _ _ _ _ _ _ _ _ (exec_pair R (KReducer h red init) (state_after n a)) (after_ok R n a) (proj1 (on_cons _ _ _ ON2)) EX) as (x' & EX' & CA).
    assert (x' = CState v) as -> by congruence. destruct x; simpl in CA; eauto; try discriminate; [destruct CA as (? & ? & ?)|destruct CA]; discriminate. }
  destruct (origin_state R n a h i w ON1 EX) as (a1 & c & a2 & EA & CC & SL). exact (F a1 c a2 EA CC SL).
Qed.
Lemma reducer_fold n a b h red red' init init' i v v' d d' :
  on n (a ++ KReducer h red init :: b ++ [KReducer h red' init']) ->
  reply n a (KReducer h red init) = RReducer i v d ->
  reply n (a ++ KReducer h red init :: b) (KReducer h red' init') = RReducer i v' d' ->
  d' = d /\ v' = fold_left take (flat_map (sent R h i) b) v.
Proof.
  intros ON E1 E2. destruct (on_app _ _ _ ON) as [ON1 ON2]. destruct (on_cons _ _ _ ON2) as [ON3 ON4]. destruct (on_app _ _ _ ON4) as [ON5 ON6].
  pose proof (ON3 h eq_refl) as L.
  destruct (reducer_call R n h red init _ _ _ i v d (exec_pair R _ _) (after_ok R n a) L E1) as (N & N2 & _).
  pose proof (exec_ok R n _ _ _ _ (exec_pair R (KReducer h red init) (state_after n a)) (after_ok R n a)) as O1.
  pose proof (all_state R n b _ h i v O1 ON5 N) as A. rewrite <- after_cons in A.
  pose proof (all_const R n b _ h (S i) d O1 ON5 N2) as B. rewrite <- after_cons in B.
  destruct (reducer_call R n h red' init' _ _ _ i v' d' (exec_pair R _ _) (after_ok R n _) L E2) as (_ & _ & _ & _ & _ & Q & Q').
  split; [apply Q'; exact B|apply Q; exact A].
Qed.

(** ** C17-C19: memoisation *)

Lemma veq_sym x y : veq x y = veq y x.
Proof.
  destruct x as [ |a|a|a|a1 a2| ], y as [ |b|b|b|b1 b2| ]; simpl; auto; [destruct a, b; reflexivity|apply Z.eqb_sym|apply String.eqb_sym|].
  destruct (eq_dec a1 b1), (eq_dec b1 a1), (eq_dec a2 b2), (eq_dec b2 a2); congruence.
Qed.
Lemma veq_trans x y z : veq x y = true -> veq y z = true -> veq x z = true.
Proof.
  destruct x as [ |a|a|a|a1 a2| ], y as [ |b|b|b|b1 b2| ], z as [ |c|c|c|c1 c2| ]; simpl; try discriminate; auto.
  - rewrite !Bool.eqb_true_iff. congruence.
  - rewrite !Z.eqb_eq. congruence.
  - rewrite !String.eqb_eq. congruence.
  - destruct (eq_dec a1 b1), (eq_dec a2 b2); try discriminate. destruct (eq_dec b1 c1), (eq_dec b2 c2); try discriminate. subst.
    destruct (eq_dec c1 c1), (eq_dec c2 c2); congruence.
Qed.

(** Dependency lists with the same length and strictly equal items. *)
Definition same_items (a b : list val) : Prop := Forall2 (fun x y => veq x y = true) a b.
Lemma same_deps_items a : forall b, same_deps a b = true <-> same_items a b.
Proof.
  induction a as [|x a IH]; intros [|y b]; simpl; split; intros H; try discriminate; try (inversion H; fail); try constructor; auto.
  - apply andb_true_iff in H. tauto.
  - apply IH. apply andb_true_iff in H. tauto.
  - inversion H as [|? ? ? ? P Q]; subst. rewrite P. apply IH. exact Q.
Qed.
Lemma same_items_sym a b : same_items a b -> same_items b a.
Proof. unfold same_items. induction 1; constructor; auto. rewrite veq_sym. auto. Qed.
Lemma same_items_trans a b : same_items a b -> forall c, same_items b c -> same_items a c.
Proof. unfold same_items. induction 1 as [|x y a b E _ IH]; intros c H2; inversion H2; subst; constructor; eauto using veq_trans. Qed.

(** [None] counts as the empty sequence. *)
Definition given (d : option (list val)) : list val := match d with None => [] | Some x => x end.

(** The first use of a slot computes. *)
Lemma memo_first n a c h d f i ran :
  on n (a ++ [c]) -> memo_of c = Some (h, d, f) -> memo_reply (reply n a c) = Some (i, ran) ->
  (forall a1 c' a2, a = a1 ++ c' :: a2 -> caller c' = Some h -> is_memo c' = true -> slot_of (reply n a1 c') <> Some i) ->
  ran = true /\ exists v, f = inl v /\ forall j w b, reply n a c = RMemo j w b -> w = v.
Proof.
  intros ON MC MR F. destruct (on_app _ _ _ ON) as [ON1 ON2].
  assert (L : h < n) by (apply (ON2 c h (or_introl eq_refl)); destruct c; try discriminate; simpl in *; congruence).
  destruct (memo_call R n c h d f _ _ _ i ran (exec_pair R _ _) (after_ok R n a) L MC MR) as (md & mv & A & B & C & EQ & v & N & V & W).
  assert (mv = None) as ->.
  { destruct (nth_error (cells h (state_after n a)) i) as [x|] eqn:EX; [|auto]. destruct (C x eq_refl) as (d0 & m0 & ->). destruct (B d0 m0 eq_refl) as [-> ->].
    destruct m0 as [w|]; auto. exfalso. destruct (origin_memo R n a h i _ _ ON1 EX) as (a1 & c' & a2 & EA & CC & IM & SL). exact (F a1 c' a2 EA CC IM SL). }
  simpl in EQ. subst ran. split; auto. exists v. auto.
Qed.

(** A later use computes unless the dependencies are the same as at the last use. *)
Lemma memo_again n a c b c' h d f d' f' i ran ran' :
  on n (a ++ c :: b ++ [c']) -> memo_of c = Some (h, d, f) -> memo_of c' = Some (h, d', f') ->
  memo_reply (reply n a c) = Some (i, ran) ->
  untouched R h i b (state_after n (a ++ [c])) ->
  memo_reply (reply n (a ++ c :: b) c') = Some (i, ran') ->
  (ran' = false <-> exists ds, d' = Some ds /\ same_items (given d) ds) /\
  (ran' = true -> exists v, f' = inl v /\ forall j w x, reply n (a ++ c :: b) c' = RMemo j w x -> w = v) /\
  (ran' = false -> forall j w x j' w' x', reply n a c = RMemo j w x -> reply n (a ++ c :: b) c' = RMemo j' w' x' -> w' = w).
Proof.
  intros ON MC MC' MR U MR'. destruct (on_app _ _ _ ON) as [ON1 ON2]. destruct (on_cons _ _ _ ON2) as [ON3 ON4]. destruct (on_app _ _ _ ON4) as [ON5 ON6].
  assert (L : h < n) by (apply ON3; destruct c; try discriminate; simpl in *; congruence).
  destruct (memo_call R n c h d f _ _ _ i ran (exec_pair R _ _) (after_ok R n a) L MC MR) as (md & mv & _ & _ & _ & EQ & v & N & V & W).
  rewrite after_snoc in U.
  pose proof (exec_ok R n _ _ _ _ (exec_pair R c (state_after n a)) (after_ok R n a)) as O1.
  pose proof (untouched_memo R n h i b _ _ _ O1 ON5 U N) as K. rewrite <- after_cons in K.
  destruct (memo_call R n c' h d' f' _ _ _ i ran' (exec_pair R _ _) (after_ok R n _) L MC' MR') as (md' & mv' & _ & B & _ & EQ' & v' & N' & V' & W').
  destruct (B _ _ K) as [-> ->]. clear B.
  (* the stored dependencies are the same as those of the last use *)
  assert (SD : forall ds, same_items (if ran then memo_deps d else md) ds <-> same_items (given d) ds).
  { intros ds. destruct ran; [reflexivity|]. unfold memo_changed in EQ. destruct mv; [|discriminate]. destruct d as [x|]; [|discriminate].
    symmetry in EQ. apply negb_false_iff in EQ. apply same_deps_items in EQ. simpl. split; intros S; [eapply same_items_trans; [apply same_items_sym; exact EQ|exact S]|eapply same_items_trans; eauto]. }
  split; [|split].
  - rewrite EQ'. simpl. destruct d' as [ds|]; [|split; [discriminate|intros (ds & X & _); discriminate]].
    rewrite negb_false_iff, same_deps_items, SD. split; [eauto|]. intros (x & X & Y). injection X as ->. exact Y.
  - intros ->. exists v'. auto.
  - intros ->. intros j w x j' w' x' R1 R2. rewrite (V' _ _ _ R2). rewrite (V _ _ _ R1). congruence.
Qed.

(** ** C18: who computed the value *)

(** A raising memo function leaves every slot's value; the dependencies of one slot may be those of the call. *)
Lemma memo_start_cells h deps s r s' i d0 m : do_memo_start h deps s = (r, s') -> h < length (s_hooks s) -> nth_error (cells h s) i = Some (CMemo d0 m) ->
  h < length (s_hooks s') /\ (nth_error (cells h s') i = Some (CMemo d0 m) \/ nth_error (cells h s') i = Some (CMemo (given deps) m)).
Proof.
  intros E L N. unfold do_memo_start, bind in E. destruct (use_cell h (CMemo [] None) s) as [r1 s1] eqn:EU. destruct (use_cell_spec _ _ _ _ _ EU L) as (C & K).
  pose proof (cp_len _ _ _ C) as CL.
  assert (N1 : nth_error (cells h s1) i = Some (CMemo d0 m)).
  { destruct K as [(_ & _ & -> & _)|[(_ & x & _ & _ & -> & _)|(_ & _ & _ & ->)]]; auto. rewrite nth_error_app1; auto. apply nth_error_Some. congruence. }
  destruct r1 as [[j x]|e|]; [|injection E as <- <-; split; [lia|auto]|injection E as <- <-; split; [lia|auto]].
  destruct (use_cell_slot _ _ _ _ _ _ EU L) as (NJ & _).
  cbn [fst snd] in E. destruct x as [ |md mv| | ]; try (injection E as <- <-; split; [lia|auto]).
  destruct (memo_changed md mv deps); unfold modify in E; cbn in E; injection E as <- <-; [|split; [lia|auto]].
  split; [unfold set_cell, put_hook; cbn; rewrite upd_length; lia|].
  destruct (Nat.eq_dec j i) as [->|NE].
  - right. rewrite set_cell_nth by eauto. rewrite N1 in NJ. injection NJ as <- <-. reflexivity.
  - left. unfold set_cell, cells in *. rewrite get_put_same by lia. cbn. rewrite nth_upd_other; auto.
Qed.
Lemma ref_cells h v s r s' i d0 m : do_ref h v s = (r, s') -> h < length (s_hooks s) -> nth_error (cells h s) i = Some (CMemo d0 m) ->
  h < length (s_hooks s') /\ nth_error (cells h s') i = Some (CMemo d0 m).
Proof.
  intros E L N. unfold do_ref, bind in E. destruct (use_cell h (CRef v) s) as [r1 s1] eqn:EU. destruct (use_cell_spec _ _ _ _ _ EU L) as (C & K).
  pose proof (cp_len _ _ _ C) as CL.
  assert (N1 : nth_error (cells h s1) i = Some (CMemo d0 m)).
  { destruct K as [(_ & _ & -> & _)|[(_ & x & _ & _ & -> & _)|(_ & _ & _ & ->)]]; auto. rewrite nth_error_app1; auto. apply nth_error_Some. congruence. }
  destruct r1 as [[j x]|e|]; [destruct x|..]; injection E as <- <-; split; auto; lia.
Qed.
Lemma exec_memo_raise c s e s' h d f i d0 m : exec R c s = (RRaised e, s') -> memo_of c = Some (h, d, f) -> h < length (s_hooks s) ->
  nth_error (cells h s) i = Some (CMemo d0 m) ->
  nth_error (cells h s') i = Some (CMemo d0 m) \/ nth_error (cells h s') i = Some (CMemo (given d) m).
Proof.
  intros E MC L N.
  assert (DM : forall f0 r, do_memo h d f0 s = (r, s') -> (forall x, r <> Ok x) -> nth_error (cells h s') i = Some (CMemo d0 m) \/ nth_error (cells h s') i = Some (CMemo (given d) m)).
  { intros f0 r ED NO. unfold do_memo, bind in ED. destruct (do_memo_start h d s) as [r1 s1] eqn:ES. destruct (memo_start_cells _ _ _ _ _ _ _ _ ES L N) as [_ X].
    destruct r1 as [[[j ch] mv]|x|]; try (injection ED as <- <-; exact X). unfold do_memo_setup in ED.
    destruct ch; [destruct f0; [exfalso; unfold bind, modify in ED; cbn in ED; injection ED as <- _; eapply NO; reflexivity|]|destruct mv]; injection ED as <- <-; exact X. }
  destruct c; try discriminate; injection MC as -> -> _; cbn [exec] in E; unfold answer in E.
  - destruct (do_memo h d f0 s) as [[x|x|] s1] eqn:ED; try discriminate; injection E as _ <-; eapply DM; eauto; discriminate.
  - destruct (do_memo h d (inl f0) s) as [[x|x|] s1] eqn:ED; try discriminate; injection E as _ <-; eapply DM; eauto; discriminate.
  - unfold do_effect, bind in E. destruct (do_memo_start h d s) as [r1 s1] eqn:ES. destruct (memo_start_cells _ _ _ _ _ _ _ _ ES L N) as [L1 X].
    destruct r1 as [[[j ch] mv]|x|]; try (injection E as _ <-; exact X).
    assert (Y : forall v r t, do_ref h v s1 = (r, t) -> h < length (s_hooks t) /\ (nth_error (cells h t) i = Some (CMemo d0 m) \/ nth_error (cells h t) i = Some (CMemo (given d) m))).
    { intros v r t ER. destruct X as [X|X]; destruct (ref_cells _ _ _ _ _ _ _ _ ER L1 X); auto. }
    destruct (do_ref h VNone s1) as [r2 s2] eqn:ER. destruct (Y _ _ _ ER) as [L2 X2]. clear Y.
    destruct r2 as [x|x|]; try (injection E as _ <-; exact X2). destruct async.
    + assert (Y : forall v r t, do_ref h v s2 = (r, t) -> (nth_error (cells h t) i = Some (CMemo d0 m) \/ nth_error (cells h t) i = Some (CMemo (given d) m))).
      { intros v r t ER2. destruct X2 as [X2|X2]; destruct (ref_cells _ _ _ _ _ _ _ _ ER2 L2 X2); auto. }
      destruct (do_ref h VNone s2) as [r3 s3] eqn:ER2. specialize (Y _ _ _ ER2).
      destruct r3 as [y|y|]; cbn in E; try (injection E as _ <-; exact Y). destruct ch; [discriminate|]. destruct mv; [discriminate|]. injection E as _ <-. exact Y.
    + cbn in E. destruct ch; [discriminate|]. destruct mv; [discriminate|]. injection E as _ <-. exact X2.
Qed.

(** A reused value was computed by an earlier call, with the same dependencies unless a call raised since then with those of now. *)
Definition raised_with n (a1 : list call) (c : call) (a2 : list call) h (ds : list val) : Prop :=
  exists b1 c1 b2 d1 f1 e, a2 = b1 ++ c1 :: b2 /\ memo_of c1 = Some (h, d1, f1) /\ reply n (a1 ++ c :: b1) c1 = RRaised e /\ ds = given d1.
Lemma raised_more n a1 c a2 h ds x : raised_with n a1 c a2 h ds -> raised_with n a1 c (a2 ++ [x]) h ds.
Proof. intros (b1 & c1 & b2 & d1 & f1 & e & -> & X). exists b1, c1, (b2 ++ [x]), d1, f1, e. rewrite <- app_assoc. auto. Qed.
Lemma memo_belongs n c' h d' f' i v' ran' : forall a,
  on n (a ++ [c']) -> memo_of c' = Some (h, d', f') ->
  reply n a c' = RMemo i v' ran' ->
  f' = inl v' \/
  exists a1 c a2 d, a = a1 ++ c :: a2 /\ memo_of c = Some (h, d, inl v') /\ memo_reply (reply n a1 c) = Some (i, true) /\
    exists ds, d' = Some ds /\ (same_items (given d) ds \/ exists d1, raised_with n a1 c a2 h d1 /\ same_items d1 ds).
Proof.
  intros a ON MC' E'.
  (* invariant of the memo slot *)
  assert (INV : forall b, on n b -> forall md v, nth_error (cells h (state_after n b)) i = Some (CMemo md (Some v)) ->
     exists a1 c a2 d, b = a1 ++ c :: a2 /\ memo_of c = Some (h, d, inl v) /\ memo_reply (reply n a1 c) = Some (i, true) /\ (md = given d \/ raised_with n a1 c a2 h md)).
  { induction b as [|c b IH] using rev_ind; intros ONb md v EM.
    - exfalso. unfold HookCalls.state_after, cells, get_hook, fresh in EM. simpl in EM. rewrite nth_repeat in EM. destruct i; discriminate.
    - destruct (on_app _ _ _ ONb) as [ONb1 ONb2]. pose proof (exec_pair R c (state_after n b)) as EP.
      rewrite after_snoc in EM.
      assert (OLD : nth_error (cells h (state_after n b)) i = Some (CMemo md (Some v)) -> exists a1 c0 a2 d, b ++ [c] = a1 ++ c0 :: a2 /\ memo_of c0 = Some (h, d, inl v) /\ memo_reply (reply n a1 c0) = Some (i, true) /\ (md = given d \/ raised_with n a1 c0 a2 h md)).
      { intros EO. destruct (IH ONb1 md v EO) as (a1 & c1 & a2 & d & -> & X1 & X2 & X3). exists a1, c1, (a2 ++ [c]), d. rewrite <- app_assoc. repeat (split; auto). destruct X3; auto using raised_more. }
      destruct (is_memo c && match caller c with Some x => if Nat.eq_dec x h then true else false | None => false end && match slot_of (reply n b c) with Some j => if Nat.eq_dec j i then true else false | None => false end) eqn:T.
      + apply andb_true_iff in T. destruct T as [T T3]. apply andb_true_iff in T. destruct T as [T1 T2].
        destruct (caller c) as [hc|] eqn:ECC; [|discriminate]. destruct (Nat.eq_dec hc h) as [->|]; [|discriminate].
        destruct (slot_of (reply n b c)) as [j|] eqn:ESL; [|discriminate]. destruct (Nat.eq_dec j i) as [->|]; [|discriminate].
        assert (exists d f, memo_of c = Some (h, d, f)) as (d & f & MC) by (destruct c; try discriminate; injection ECC as ->; simpl; eauto).
        assert (exists ran, memo_reply (reply n b c) = Some (i, ran)) as (ran & MR).
        { unfold HookCalls.reply, exec, answer in *. destruct c; try discriminate.
          - destruct (do_memo h0 deps f0 (state_after n b)) as [[[[? ?] ?]|?|] ?]; simpl in *; try discriminate. injection ESL as ->. eauto.
          - destruct (do_memo h0 deps (inl f0) (state_after n b)) as [[[[? ?] ?]|?|] ?]; simpl in *; try discriminate. injection ESL as ->. eauto.
          - destruct (do_effect h0 deps fn async (state_after n b)) as [[[? ?]|?|] ?]; simpl in *; try discriminate. injection ESL as ->. eauto. }
        assert (L : h < n) by (apply (ONb2 c h (or_introl eq_refl)); auto).
        destruct (memo_call R n c h d f _ _ _ i ran EP (after_ok R n b) L MC MR) as (md0 & mv0 & A & B & C & EQ & v0 & N & V & W).
        rewrite EM in N. injection N as -> ->. destruct ran.
        * exists b, c, [], d. subst f. auto.
        * subst mv0. apply OLD. destruct (nth_error (cells h (state_after n b)) i) as [x|] eqn:EX; [|specialize (A eq_refl); discriminate].
          destruct (C x eq_refl) as (d0 & m0 & ->). destruct (B _ _ eq_refl) as [-> <-]. reflexivity.
      + destruct (exec_origin R _ _ _ _ _ _ _ _ EP (after_ok R n b) (proj1 (on_cons _ _ _ ONb2)) EM) as [_ Q].
        destruct (Q _ _ eq_refl) as [(d0 & Q1)|(Q1 & Q2 & Q3)].
        * pose proof (exec_memo_other R n c _ _ _ h i _ _ EP (after_ok R n b) (proj1 (on_cons _ _ _ ONb2)) Q1) as Q4.
          destruct (is_memo c) eqn:IM0; [destruct (caller c) as [hc|] eqn:CC0; [destruct (Nat.eq_dec hc h) as [->|NH]|]|].
          { assert (exists d f, memo_of c = Some (h, d, f)) as (d & f & MC) by (destruct c; try discriminate; injection CC0 as ->; simpl; eauto).
            destruct (reply n b c) as [| | | | | |e] eqn:RP; try (apply OLD; rewrite Q4 in EM; [congruence|]; intros _ _; split; [intros e; unfold HookCalls.reply in RP; rewrite RP; discriminate|]; unfold HookCalls.reply in RP, T; rewrite RP in *; simpl in *; intros SL; try discriminate SL; injection SL as ->; destruct (Nat.eq_dec h h), (Nat.eq_dec i i); simpl in T; congruence).
            assert (LH : h < length (s_hooks (state_after n b))) by (destruct (after_ok R n b) as (_ & -> & _); apply (ONb2 c h (or_introl eq_refl)); auto).
            unfold HookCalls.reply in RP. destruct (exec R c (state_after n b)) as [rp s2] eqn:EX. cbn [fst snd] in *. subst rp.
            destruct (exec_memo_raise _ _ _ _ _ _ _ _ _ _ EX MC LH Q1) as [X|X]; rewrite X in EM; injection EM as <-; [apply OLD; exact Q1|].
            destruct (IH ONb1 d0 v Q1) as (a1 & c1 & a2 & d1 & -> & X1 & X2 & X3). exists a1, c1, (a2 ++ [c]), d1. rewrite <- app_assoc. split; [reflexivity|]. split; [exact X1|]. split; [exact X2|]. right.
            exists a2, c, [], d, f, e. split; [reflexivity|]. split; [exact MC|]. split; [|reflexivity]. unfold HookCalls.reply. rewrite EX. reflexivity. }
          all: apply OLD; rewrite Q4 in EM; [congruence|]; intros CC IM; try congruence.
        * rewrite Q2, Q1 in T. simpl in T. destruct (Nat.eq_dec h h); [|congruence]. unfold HookCalls.reply in T. simpl in T. rewrite Q3 in T. destruct (Nat.eq_dec i i); congruence. }
  destruct (on_app _ _ _ ON) as [ON1 ON2].
  assert (L : h < n) by (apply (ON2 c' h (or_introl eq_refl)); destruct c'; try discriminate; simpl in *; congruence).
  assert (MR : memo_reply (reply n a c') = Some (i, ran')) by (rewrite E'; reflexivity).
  destruct (memo_call R n c' h d' f' _ _ _ i ran' (exec_pair R _ _) (after_ok R n a) L MC' MR) as (md & mv & A & B & C & EQ & v & N & V & W).
  assert (v = v') as -> by (symmetry; eapply V; unfold HookCalls.reply in E'; exact E').
  destruct ran'; [left; auto|right]. subst mv. destruct (nth_error (cells h (state_after n a)) i) as [x|] eqn:EX; [|specialize (A eq_refl); discriminate].
  destruct (C x eq_refl) as (d0 & m0 & ->). destruct (B _ _ eq_refl) as [-> <-].
  destruct (INV a ON1 _ _ EX) as (a1 & c & a2 & d & EA & MC & MR1 & MD). exists a1, c, a2, d. split; auto. split; auto. split; auto.
  simpl in EQ. destruct d' as [ds|]; [|discriminate]. symmetry in EQ. apply negb_false_iff in EQ. apply same_deps_items in EQ. exists ds. split; [reflexivity|].
  destruct MD as [->|MD]; [left; exact EQ|right; eauto].
Qed.

(** ** C19: use_ref *)

Lemma ref_stable n a b h init init' i i' v v' :
  on n (a ++ KRef h init :: b ++ [KRef h init']) ->
  reply n a (KRef h init) = RRef i v ->
  reply n (a ++ KRef h init :: b) (KRef h init') = RRef i' v' ->
  i' = i ->
  (forall c w, In c b -> c = KSetRef h i w -> False) -> v' = v.
Proof.
  intros ON E1 E2 -> NS. destruct (on_app _ _ _ ON) as [ON1 ON2]. destruct (on_cons _ _ _ ON2) as [ON3 ON4]. destruct (on_app _ _ _ ON4) as [ON5 ON6].
  pose proof (ON3 h eq_refl) as L.
  destruct (ref_call R n h init _ _ _ i v (exec_pair R _ _) (after_ok R n a) L E1) as (N & _).
  pose proof (exec_ok R n _ _ _ _ (exec_pair R (KRef h init) (state_after n a)) (after_ok R n a)) as O1.
  assert (K : nth_error (cells h (state_after n (a ++ KRef h init :: b))) i = Some (CRef v)).
  { rewrite after_cons. set (s1 := snd (exec R (KRef h init) (state_after n a))) in *. clearbody s1. clear E2 ON1 ON2 ON3 ON4 ON6 ON. revert s1 N O1.
    induction b as [|c b IH]; intros s1 N O1; simpl; auto. destruct (on_cons _ _ _ ON5) as [P1 P2]. destruct (exec R c s1) as [r s2] eqn:EC.
    assert (N2 : nth_error (cells h s2) i = Some (CRef v)).
    { destruct (caller c) as [hc|] eqn:ECC.
      - pose proof O1 as (Q1 & Q2 & Q3). specialize (P1 hc eq_refl). rewrite <- Q2 in P1. pose proof (exec_caller R _ _ _ _ _ EC ECC P1 (Q3 hc)) as C.
        destruct (Nat.eq_dec h hc) as [->|NH]; [|unfold cells in *; rewrite (cp_other _ _ _ C) by auto; auto].
        destruct (cp_grow _ _ _ C _ _ N) as (x & X & M). simpl in M. congruence.
      - pose proof O1 as (Q1 & Q2 & Q3). destruct c; try discriminate.
        + destruct (begin_spec _ _ _ _ _ EC Q1) as (_ & _ & _ & C). destruct (C h) as (-> & _ & _). auto.
        + destruct (end_spec _ _ _ _ _ EC) as (_ & _ & [(e & _ & C)|(_ & C1 & C2 & C3)]).
          * unfold cells, get_hook in *. rewrite C. auto.
          * destruct (Nat.eq_dec h h0) as [->|NH]; [rewrite C2; auto|]. unfold cells in *; rewrite C1; auto.
        + injection EC as <- <-. destruct (dispatch_after h i h0 i0 u s1 _ N) as (x' & EX & ->). exact EX.
        + assert (s2 = s1 \/ exists h i u, s2 = dispatch h i u s1) as [->|(h0 & i0 & u & ->)]; auto.
          { destruct d as [ | | | |[ | |z| | | ] [ | | | | |h0 i0]| ]; injection EC as <- <-; eauto. }
          destruct (dispatch_after h i h0 i0 u s1 _ N) as (x' & EX & ->). exact EX.
        + injection EC as <- <-. unfold set_ref. destruct (nth_error (hk_cells (get_hook h0 s1)) i0) as [[ | | | ]|] eqn:EN; auto.
          assert (LL : h0 < length (s_hooks s1)).
          { destruct (Nat.lt_ge_cases h0 (length (s_hooks s1))); auto. rewrite get_beyond in EN by auto. destruct i0; discriminate. }
          destruct (Nat.eq_dec h0 h) as [->|NH]; unfold set_cell, cells in *; [|rewrite get_put_other by auto; auto].
          rewrite get_put_same by auto. simpl. rewrite nth_upd_other; auto. intros ->. eapply NS; [left; reflexivity|reflexivity]. }
    specialize (IH (fun c w J => NS c w (or_intror J)) P2 s2 N2 (exec_ok R n _ _ _ _ EC O1)). destruct (exec_all R b s2). exact IH. }
  destruct (ref_call R n h init' _ _ _ i v' (exec_pair R _ _) (after_ok R n _) L E2) as (_ & _ & _ & _ & Q). apply Q. exact K.
Qed.

(** ** C20 *)

(** Once a render has ended, the number of slots is fixed, whatever happens later. *)
Lemma slots_fixed n a b h : on n (a ++ KEnd h :: b) -> h < n -> reply n a (KEnd h) = RDone ->
  length (hk_cells (get_hook h (state_after n (a ++ KEnd h :: b)))) = length (hk_cells (get_hook h (state_after n a))).
Proof.
  intros ON L ER. destruct (on_app _ _ _ ON) as [ON1 ON2]. destruct (on_cons _ _ _ ON2) as [_ ON3].
  rewrite after_cons. destruct (end_spec R h _ _ _ (exec_pair R (KEnd h) (state_after n a))) as (_ & _ & [(e & X & _)|(_ & _ & C & X)]); [unfold HookCalls.reply in ER; congruence|].
  assert (LH : h < length (s_hooks (state_after n a))) by (destruct (after_ok R n a) as (_ & -> & _); exact L).
  destruct (X LH) as [_ O]. pose proof (exec_ok R n _ _ _ _ (exec_pair R (KEnd h) (state_after n a)) (after_ok R n a)) as O1.
  destruct (all_once R n b _ h O1 ON3 O) as [_ LN]. unfold cells in *. rewrite LN, C. reflexivity.
Qed.

(** Calls beyond the slots of the first render raise IndexError, in every later render. *)
Lemma beyond_raises n a b1 b2 h c :
  on n (a ++ KEnd h :: b1 ++ KEnd h :: b2 ++ [c]) -> h < n ->
  smooth R h a (fresh n) -> reply n a (KEnd h) = RDone ->
  reply n (a ++ KEnd h :: b1) (KEnd h) = RDone ->
  smooth R h b2 (state_after n ((a ++ KEnd h :: b1) ++ [KEnd h])) ->
  taken h b2 = taken h a -> caller c = Some h ->
  reply n (a ++ KEnd h :: b1 ++ KEnd h :: b2) c = RRaised EIndexError.
Proof.
  intros ON L SM ER ER2 SM2 TK CC. 
  assert (ONa : on n a) by (destruct (on_app _ _ _ ON); auto).
  assert (ONb : on n b1) by (destruct (on_app _ _ _ ON) as [_ P]; destruct (on_cons _ _ _ P) as [_ P2]; destruct (on_app _ _ _ P2); auto).
  assert (ONc : on n b2).
  { destruct (on_app _ _ _ ON) as [_ P]; destruct (on_cons _ _ _ P) as [_ P2]; destruct (on_app _ _ _ P2) as [_ P3]. destruct (on_cons _ _ _ P3) as [_ P4]. destruct (on_app _ _ _ P4); auto. }
  set (s := state_after n (a ++ KEnd h :: b1 ++ KEnd h :: b2)).
  assert (O : HookCallsFacts.ok n s) by apply after_ok.
  assert (LH : forall x, h < length (s_hooks (state_after n x))) by (intros x; destruct (after_ok R n x) as (_ & -> & _); exact L).
  (* the slots of the first render *)
  assert (LA : length (cells h (state_after n a)) = taken h a /\ once h (state_after n a) = false).
  { assert (OF : once h (state_after n a) = false).
    { clear - SM ONa. destruct SM as [NK _]. unfold HookCalls.state_after. pose proof (ok_fresh n) as O. assert (F : once h (fresh n) = false) by (unfold once, get_hook, fresh; simpl; rewrite nth_repeat; reflexivity).
      revert O F. generalize (fresh n). induction a as [|c a IH]; intros s O F; simpl; auto. destruct (on_cons _ _ _ ONa) as [P1 P2].
      destruct (exec R c s) as [r s1] eqn:EC. specialize (IH (fun J => NK (or_intror J)) P2 s1 (exec_ok R n _ _ _ _ EC O)).
      assert (F1 : once h s1 = false).
      { pose proof O as (O1 & O2 & O3). destruct (caller c) as [hc|] eqn:ECC.
        - specialize (P1 hc eq_refl). rewrite <- O2 in P1. pose proof (exec_caller R _ _ _ _ _ EC ECC P1 (O3 hc)) as C. destruct (Nat.eq_dec h hc) as [->|N]; [rewrite (cp_once _ _ _ C); auto|unfold once in *; rewrite (cp_other _ _ _ C); auto].
        - destruct c; try discriminate.
          + destruct (begin_spec _ _ _ _ _ EC O1) as (_ & _ & _ & C). destruct (C h) as (_ & _ & ->). auto.
          + destruct (end_spec _ _ _ _ _ EC) as (_ & _ & [(e & _ & C)|(_ & C1 & C2 & C3)]); [unfold once, get_hook in *; rewrite C; auto|].
            unfold once in *. rewrite C1; auto. intros ->. apply NK. left. auto.
          + injection EC as <- <-. destruct (dispatch_cells h0 i u s h) as [C|(-> & _ & v & _ & _ & _ & C)]; [unfold once in *; rewrite C; auto|]. rewrite C. auto.
          + assert (s1 = s \/ exists h i u, s1 = dispatch h i u s) as [->|(h0 & i & u & ->)]; auto.
            { destruct d as [ | | | |[ | |z| | | ] [ | | | | |h0 i]| ]; injection EC as <- <-; eauto. }
            destruct (dispatch_cells h0 i u s h) as [C|(-> & _ & v & _ & _ & _ & C)]; [unfold once in *; rewrite C; auto|]. rewrite C. auto.
          + injection EC as <- <-. unfold set_ref. destruct (nth_error _ _) as [[ | | | ]|] eqn:EN; auto.
            assert (LL : h0 < length (s_hooks s)).
            { destruct (Nat.lt_ge_cases h0 (length (s_hooks s))); auto. rewrite get_beyond in EN by auto. destruct i; discriminate. }
            destruct (Nat.eq_dec h0 h) as [->|N]; unfold set_cell, once in *; [rewrite get_put_same by auto; simpl; auto|rewrite get_put_other by auto; auto]. }
      specialize (IH F1). destruct (exec_all R a s1). exact IH. }
    split; auto. destruct (after_ok R n a) as (_ & _ & AL). rewrite <- (AL h OF). unfold HookCalls.state_after. rewrite (smooth_idx R n h a _ (ok_fresh n) ONa SM).
    unfold idx, get_hook, fresh. simpl. rewrite nth_repeat. simpl. lia. }
  destruct LA as [LA _].
  assert (LS : length (cells h s) = taken h a /\ once h s = true).
  { unfold s. rewrite after_cons. destruct (end_spec R h _ _ _ (exec_pair R (KEnd h) (state_after n a))) as (_ & _ & [(e & X & _)|(_ & _ & C & X)]); [unfold HookCalls.reply in ER; congruence|].
    destruct (X (LH a)) as [_ ONCE]. pose proof (exec_ok R n _ _ _ _ (exec_pair R (KEnd h) (state_after n a)) (after_ok R n a)) as O1.
    assert (ONr : on n (b1 ++ KEnd h :: b2)).
    { intros c0 x J CX. apply in_app_iff in J. destruct J as [J|[<-|J]]; [apply (ONb c0 x J CX)|discriminate|apply (ONc c0 x J CX)]. }
    destruct (all_once R n _ _ h O1 ONr ONCE) as [A B]. rewrite B, C. split; auto. }
  destruct LS as [LS OS].
  assert (IS : idx h s = taken h a).
  { unfold s. assert (EQ : a ++ KEnd h :: b1 ++ KEnd h :: b2 = ((a ++ KEnd h :: b1) ++ [KEnd h]) ++ b2) by (rewrite <- !app_assoc; simpl; reflexivity).
    rewrite EQ, after_app, (smooth_idx R n h b2 _ (after_ok R n _) ONc SM2).
    assert (idx h (state_after n ((a ++ KEnd h :: b1) ++ [KEnd h])) = 0) as ->; [|lia]. rewrite after_snoc.
    destruct (end_spec R h _ _ _ (exec_pair R (KEnd h) (state_after n (a ++ KEnd h :: b1)))) as (_ & _ & [(e & X & _)|(_ & _ & _ & X)]); [unfold HookCalls.reply in ER2; congruence|].
    apply X. apply LH. }
  assert (LHs : h < length (s_hooks s)) by apply LH.
  assert (UC : forall init, use_cell h init s = (Raise EIndexError, s)).
  { intros init. unfold use_cell. unfold once in OS. rewrite OS. rewrite (proj2 (nth_error_None _ _)); [reflexivity|]. fold (cells h s). fold (idx h s). lia. }
  unfold HookCalls.reply. fold s. destruct c; try discriminate; injection CC as ->; cbn [exec]; unfold answer.
  - unfold do_state. unfold bind. rewrite UC. reflexivity.
  - unfold do_reducer, do_state, bind. rewrite UC. reflexivity.
  - unfold do_memo, do_memo_start, bind. rewrite UC. reflexivity.
  - unfold do_memo, do_memo_start, bind. rewrite UC. reflexivity.
  - unfold do_ref, bind. rewrite UC. reflexivity.
  - unfold do_effect, do_memo_start, bind. rewrite UC. reflexivity.
Qed.
End Props.
