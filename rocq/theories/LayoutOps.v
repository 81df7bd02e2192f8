(** * Replacing one component of a tree; proof-side only *)
From Coq Require Import String ZArith Bool Arith Lia List Permutation.
From Verif Require Import Dict LayoutTypes LayoutModel BodySpec DisplaySpec LayoutObs LayoutTree LayoutDeriv LayoutExec LayoutFacts
  LayoutSettled LayoutContext LayoutShape Strings LayoutHandlers.
Import ListNotations.
Local Open Scope string_scope.
Local Open Scope list_scope.

Inductive frame :=
| FElem (m : nat) (k : key) (tag : string) (imp : option string) (attrs : option (dict string val))
        (js : option (dict string string)) (kp : string) (hs : dict string handler) (has : bool) (l r : list tree)
| FComp (m : nat) (k : option key) (h : nat) (c : cinst) (out : fate) (l r : list tree).

Definition plug1 (f : frame) (t : tree) : tree :=
  match f with
  | FElem m k tag imp attrs js kp hs has l r => TElem m k tag imp attrs js kp hs has (l ++ t :: r)
  | FComp m k h c out l r => TComp m k h c out (l ++ t :: r)
  end.
(** Outermost frame first. *)
Fixpoint plug (C : list frame) (t : tree) : tree :=
  match C with [] => t | f :: C' => plug1 f (plug C' t) end.

Definition is_comp (t : tree) : Prop := match t with TComp _ _ _ _ _ _ => True | _ => False end.
Lemma inert_plug C t0 : is_comp t0 -> inertb (plug C t0) = false.
Proof.
  intros IC. induction C as [|f C IH]; [destruct t0; auto; contradiction|]. cbn [plug].
  destruct f as [m k tag imp attrs js kp hs has l r|m k x c out l r]; cbn [plug1 inertb]; auto.
  rewrite forallb_app. simpl. rewrite IH. simpl. rewrite !andb_false_r. reflexivity.
Qed.
(** Instances with components or handlers below them: those of the replacement, or there before. *)
Lemma branches_plug C t t0 : is_comp t0 -> forall h, In h (branches (plug C t)) -> In h (branches t) \/ In h (branches (plug C t0)).
Proof.
  intros IC. induction C as [|f C IH]; intros h J; [left; exact J|]. cbn [plug] in *.
  assert (K : forall l r, In h (flat_map branches (l ++ plug C t :: r)) ->
            In h (branches t) \/ In h (flat_map branches (l ++ plug C t0 :: r))).
  { intros l r X. rewrite flat_map_app in *. cbn [flat_map] in *. rewrite !in_app_iff in *. destruct X as [X|[X|X]]; auto.
    destruct (IH h X); auto. }
  destruct f as [m k tag imp attrs js kp hs has l r|m k x c out l r]; cbn [plug1 branches] in *; [apply K; exact J|].
  apply in_app_iff in J. destruct J as [J|J].
  - right. apply in_or_app. left. rewrite forallb_app. simpl. rewrite (inert_plug C t0 IC). simpl. rewrite andb_false_r.
    destruct (forallb inertb _) in J; [contradiction|exact J].
  - destruct (K _ _ J) as [X|X]; auto. right. apply in_or_app. auto.
Qed.
Lemma branches_sub C t : forall h, In h (branches t) -> In h (branches (plug C t)).
Proof.
  induction C as [|f C IH]; intros h J; [exact J|]. cbn [plug]. specialize (IH h J).
  destruct f as [m k tag imp attrs js kp hs has l r|m k x c out l r]; cbn [plug1 branches].
  - rewrite flat_map_app. cbn [flat_map]. rewrite !in_app_iff. auto.
  - rewrite flat_map_app. cbn [flat_map]. rewrite !in_app_iff. auto.
Qed.
(** What is shown for plain output. *)
Lemma shape_inert :
  (forall r t, shape r t -> plain r -> inertb t = true) /\
  (forall i rs ts, shapes i rs ts -> (forall r, In r rs -> plain r) -> forallb inertb ts = true).
Proof.
  apply shape_mind.
  - intros tag attrs hs js imp ch attrs' m k kp kids _ _ IH P. cbn [inertb]. inversion P; subst; apply IH; auto. intros r [].
  - intros m k h c out kids S IH P. inversion P.
  - reflexivity.
  - intros i l ts _ IH P. apply IH. intros; apply P; right; auto.
  - intros i s l ts _ IH P. simpl. apply IH. intros; apply P; right; auto.
  - intros i r l t ts _ IH1 _ _ IH2 P. simpl. rewrite IH1, IH2; auto; intros; apply P; simpl; auto.
Qed.
(** An instance with components or handlers below it returned them. *)
Lemma branches_returned :
  (forall r t, shape r t -> forall h, In h (branches t) -> exists m c x, In (h, (m, c, Returned x)) (comps t) /\ ~ plain x) /\
  (forall i rs ts, shapes i rs ts -> forall h, In h (flat_map branches ts) -> exists m c x, In (h, (m, c, Returned x)) (flat_map comps ts) /\ ~ plain x).
Proof.
  apply shape_mind.
  - intros tag attrs hs js imp ch attrs' m k kp kids _ _ IH h J. simpl in *. auto.
  - intros m k h c out kids S IH h0 J. cbn [branches comps] in *. apply in_app_iff in J. destruct J as [J|J].
    + destruct (forallb inertb kids) eqn:EI; [contradiction|]. destruct J as [<-|[]]. destruct out as [r|e x].
      * exists m, c, r. split; [left; reflexivity|]. intros P. rewrite (proj2 shape_inert _ _ _ S) in EI; [discriminate|]. intros x [<-|[]]. exact P.
      * inversion S; subst. discriminate.
    + destruct (IH h0 J) as (m' & c' & x & K & NP). exists m', c', x. split; [right; exact K|exact NP].
  - intros i h [].
  - auto.
  - intros i s l ts _ IH h J. simpl in *. auto.
  - intros i r l t ts _ IH1 _ _ IH2 h J. cbn [flat_map] in *. apply in_app_iff in J.
    destruct J as [J|J]; [destruct (IH1 h J) as (m & c & x & K & NP)|destruct (IH2 h J) as (m & c & x & K & NP)];
      exists m, c, x; split; auto; apply in_or_app; auto.
Qed.

Definition fl (f : frame) := match f with FElem _ _ _ _ _ _ _ _ _ l _ => l | FComp _ _ _ _ _ l _ => l end.
Definition fr (f : frame) := match f with FElem _ _ _ _ _ _ _ _ _ _ r => r | FComp _ _ _ _ _ _ r => r end.
Definition fm (f : frame) := match f with FElem m _ _ _ _ _ _ _ _ _ _ => m | FComp m _ _ _ _ _ _ => m end.
Definition cpath (C : list frame) : list nat := map (fun f => length (fl f)) C.

Lemma locate h m c out T : In (h, (m, c, out)) (comps T) -> exists C k kids, T = plug C (TComp m k h c out kids).
Proof.
  assert (K : forall kids, Forall (fun T => In (h, (m, c, out)) (comps T) -> exists C k kids, T = plug C (TComp m k h c out kids)) kids ->
     In (h, (m, c, out)) (flat_map comps kids) -> exists l r C k kids', kids = l ++ plug C (TComp m k h c out kids') :: r).
  { intros kids F I. apply in_flat_map in I. destruct I as (t & It & I). rewrite Forall_forall in F.
    destruct (F t It I) as (C & k & kids' & ->). apply in_split in It. destruct It as (l & r & ->).
    exists l, r, C, k, kids'. auto. }
  induction T using tree_ind'; intros I; simpl in I; [contradiction| |].
  - destruct (K _ H I) as (l & r & C & k' & kids' & ->).
    exists (FElem m0 k tag imp attrs js kp hs has l r :: C), k', kids'. auto.
  - destruct I as [I|I].
    + injection I as -> -> -> ->. exists [], k, kids. auto.
    + destruct (K _ H I) as (l & r & C & k' & kids' & ->).
      exists (FComp m0 k h0 c0 out0 l r :: C), k', kids'. auto.
Qed.

(** ** Heap *)

Lemma rep_path hp t : forall par i path kp m, rep hp par i path kp t -> In m (mids t) ->
  exists x suf, nth_error hp m = Some x /\ ms_path x = path ++ suf.
Proof.
  assert (K : forall path kids, Forall (fun t => forall par i path kp m, rep hp par i path kp t -> In m (mids t) ->
     exists x suf, nth_error hp m = Some x /\ ms_path x = path ++ suf) kids ->
     forall p j kp m, rep_list hp p path kp j kids -> In m (flat_map mids kids) ->
     exists x suf, nth_error hp m = Some x /\ ms_path x = path ++ suf).
  { intros path kids. induction kids as [|a l IH]; intros F p j kp m R I; [contradiction|].
    inversion F; subst. destruct R as [R1 R2]. simpl in I. apply in_app_iff in I. destruct I as [I|I].
    - destruct (H1 _ _ _ _ _ R1 I) as (x & suf & N & P). exists x, (j :: suf). split; auto. rewrite P, <- app_assoc. auto.
    - eapply IH; eauto. }
  induction t using tree_ind'; intros par i path kp' m0 R I.
  - contradiction.
  - apply rep_elem in R. destruct R as (_ & (md & N) & _ & L). destruct I as [<-|I].
    + eexists; exists []. split; [exact N|]. rewrite app_nil_r. auto.
    + eapply K; eauto.
  - apply rep_comp in R. destruct R as ((md & N) & _ & L). destruct I as [<-|I].
    + eexists; exists []. split; [exact N|]. rewrite app_nil_r. auto.
    + eapply K; eauto.
Qed.

(** A cell of the child at position [j] is not the parent's and not in the siblings. *)
Lemma rep_list_sep hp m path kp : forall l j t par i kp' p, 
  rep_list hp m path kp j l -> rep hp par i (path ++ [i]) kp' t -> (i < j \/ j + length l <= i) -> In p (mids t) ->
  Forall (fun m => m <> p) (flat_map mids l).
Proof.
  induction l as [|a l IH]; intros j t par i kp' p R Rt D I; simpl; [constructor|].
  destruct R as [R1 R2]. apply Forall_app. split.
  - apply Forall_forall. intros m' Im ->.
    destruct (rep_path _ _ _ _ _ _ _ R1 Im) as (x & suf & N & P).
    destruct (rep_path _ _ _ _ _ _ _ Rt I) as (x' & suf' & N' & P'). rewrite N in N'. injection N' as <-.
    rewrite P in P'. rewrite <- !app_assoc in P'. apply app_inv_head in P'. simpl in P'. injection P' as P' _. simpl in D. lia.
  - eapply IH; eauto. simpl in D. lia.
Qed.

Lemma path_neq (p q : list nat) i suf : p = q -> p <> (q ++ [i]) ++ suf.
Proof.
  intros -> E. apply (f_equal (@length nat)) in E. rewrite !app_length in E. simpl in E. lia.
Qed.

Lemma rep_own hp par i path kp t m : rep hp par i path kp t -> tmid t = Some m ->
  exists x, nth_error hp m = Some x /\ ms_path x = path /\ ms_keypath x = kp /\ ms_parent x = par /\ ms_index x = i /\
            ms_key x = tkey t /\ ms_children x = kid_dict (tkids t).
Proof.
  intros R E. destruct t; simpl in E; [discriminate| |]; injection E as ->.
  - apply rep_elem in R. destruct R as (_ & (md & N) & _). eexists. split; [exact N|]. auto 10.
  - apply rep_comp in R. destruct R as ((md & N) & _). eexists. split; [exact N|]. auto 10.
Qed.

Lemma kid_dict_set l r sub new k n : tkey sub = Some k -> tkey new = Some k -> is_node sub = true -> is_node new = true ->
  tmid new = Some n -> NoDup (dkeys (kid_dict (l ++ sub :: r))) ->
  dset k n (kid_dict (l ++ sub :: r)) = kid_dict (l ++ new :: r).
Proof.
  intros K1 K2 N1 N2 M ND.
  assert (ES : exists m0, kid_entry sub = [(k, m0)]).
  { destruct sub as [?|? ? ? ? ? ? ? ? ? ?|? [?|] ? ? ? ?]; simpl in *; try discriminate; injection K1 as ->; eauto. }
  assert (EN : kid_entry new = [(k, n)]).
  { destruct new as [?|? ? ? ? ? ? ? ? ? ?|? [?|] ? ? ? ?]; simpl in *; try discriminate; injection K2 as ->; injection M as ->; auto. }
  destruct ES as [m0 ES]. rewrite !kid_dict_app in *. unfold kid_dict in *. simpl in *. rewrite ES, EN in *. simpl in *.
  assert (NI : ~ In k (dkeys (flat_map kid_entry l))).
  { rewrite dkeys_app in ND. simpl in ND. apply NoDup_remove_2 in ND. intros J. apply ND. apply in_or_app; auto. }
  clear - NI. induction (flat_map kid_entry l) as [|[a b] d IH]; simpl.
  - destruct (eq_dec k k); congruence.
  - simpl in NI. destruct (eq_dec k a) as [->|]; [tauto|]. f_equal. apply IH. tauto.
Qed.

(** Where the hole's parent is: the cell of the innermost frame. *)
Definition hole_par (C : list frame) (par : option nat) : option nat :=
  match rev C with [] => par | f :: _ => Some (fm f) end.

Lemma hole_par_cons f C par : hole_par (f :: C) par = hole_par C (Some (fm f)).
Proof.
  unfold hole_par. simpl. destruct (rev C) eqn:E; simpl; auto.
Qed.

Lemma tmid_plug1 f t : tmid (plug1 f t) = Some (fm f).
Proof. destruct f; auto. Qed.
Lemma hole_par_in C sub p : hole_par C None = Some p -> In p (mids (plug C sub)).
Proof.
  assert (K : forall C q, hole_par C (Some q) = Some p -> q = p \/ In p (mids (plug C sub))).
  { induction C0 as [|f C0 IH]; intros q E; [injection E; auto|]. rewrite hole_par_cons in E. right.
    destruct (IH _ E) as [<-|I].
    - destruct f; simpl; auto.
    - destruct f; simpl; right; rewrite flat_map_app; apply in_or_app; right; simpl; apply in_or_app; auto. }
  destruct C as [|f C]; [discriminate|]. rewrite hole_par_cons. intros E.
  destruct (K C _ E) as [<-|I].
  - destruct f; simpl; auto.
  - destruct f; simpl; right; rewrite flat_map_app; apply in_or_app; right; simpl; apply in_or_app; auto.
Qed.

Lemma plug1_rep f t hp par i path kp : rep hp par i path kp (plug1 f t) ->
  (exists x, nth_error hp (fm f) = Some x /\ ms_path x = path /\ ms_keypath x = kp /\ ms_children x = kid_dict (fl f ++ t :: fr f)) /\
  kids_ok (fl f ++ t :: fr f) /\ rep_list hp (fm f) path kp 0 (fl f) /\
  rep hp (Some (fm f)) (length (fl f)) (path ++ [length (fl f)]) (sub_keypath kp (tkey t)) t /\
  rep_list hp (fm f) path kp (S (length (fl f))) (fr f).
Proof.
  destruct f; simpl; intros R.
  - apply rep_elem in R. destruct R as (-> & (md & N) & OK & L). apply rep_list_app in L. destruct L as [L1 [L2 L3]].
    split; [eexists; split; [exact N|auto]|]. auto.
  - apply rep_comp in R. destruct R as ((md & N) & OK & L). apply rep_list_app in L. destruct L as [L1 [L2 L3]].
    split; [eexists; split; [exact N|auto]|]. auto.
Qed.

Lemma rep_plug1 f t0 t hp hp' par i path kp :
  rep hp par i path kp (plug1 f t0) ->
  (exists x md, nth_error hp (fm f) = Some x /\
     nth_error hp' (fm f) = Some (with_children (kid_dict (fl f ++ t :: fr f)) (with_model md x))) ->
  kids_ok (fl f ++ t :: fr f) -> rep_list hp' (fm f) path kp 0 (fl f) ->
  rep hp' (Some (fm f)) (length (fl f)) (path ++ [length (fl f)]) (sub_keypath kp (tkey t)) t ->
  rep_list hp' (fm f) path kp (S (length (fl f))) (fr f) ->
  rep hp' par i path kp (plug1 f t).
Proof.
  intros R (x & md & N1 & N2) OK L1 L2 L3.
  destruct f; simpl in *.
  - apply rep_elem in R. destruct R as (-> & (md0 & N) & _). rewrite N in N1. injection N1 as <-.
    apply rep_elem. split; auto. split; [eexists; exact N2|]. split; auto. apply rep_list_app. simpl. auto.
  - apply rep_comp in R. destruct R as ((md0 & N) & _). rewrite N in N1. injection N1 as <-.
    apply rep_comp. split; [eexists; exact N2|]. split; auto. apply rep_list_app. simpl. auto.
Qed.

Lemma wf_plug1 f t : wf (plug1 f t) -> NoDup (dkeys (kid_dict (fl f ++ t :: fr f))) /\ wf t /\ wfs (fl f) /\ wfs (fr f) /\ kids_ok (fl f ++ t :: fr f).
Proof.
  destruct f; simpl; intros (OK & ND & W); fold (wfs (l ++ t :: r)) in W; apply wfs_app in W; destruct W as [W1 [W2 W3]]; auto.
Qed.


Lemma splice C : forall hp par i path kp sub, rep hp par i path kp (plug C sub) -> wf (plug C sub) -> is_comp sub ->
  exists i' kp',
    rep hp (hole_par C par) i' (path ++ cpath C) kp' sub /\
    match C with
    | [] => i' = i /\ kp' = kp
    | _ => exists p px k, hole_par C par = Some p /\ tkey sub = Some k /\ is_node sub = true /\ nth_error hp p = Some px /\
             path ++ cpath C = ms_path px ++ [i'] /\ kp' = sub_keypath (ms_keypath px) (Some k) /\
             forall hp1 new n md, hpres all hp hp1 -> rep hp1 (Some p) i' (path ++ cpath C) kp' new ->
               tmid new = Some n -> tkey new = Some k -> is_node new = true ->
               Forall (fun m => length hp <= m) (mids new) ->
               rep (upd hp1 p (with_children (dset k n (ms_children px)) (with_model md px))) par i path kp (plug C new)
    end.
Proof.
  induction C as [|f C IH]; intros hp par i path kp sub R W IC.
  - exists i, kp. simpl. rewrite app_nil_r. auto.
  - cbn [plug] in R, W |- *. rewrite hole_par_cons.
    destruct (plug1_rep _ _ _ _ _ _ _ R) as ((x & Nx & Px & Kx & Cx) & OK & L1 & Rt & L3).
    destruct (wf_plug1 _ _ W) as (NDk & Wt & Wl & Wr & _).
    destruct (IH _ _ _ _ _ _ Rt Wt IC) as (i' & kp' & Rs & Q).
    cbn [cpath map]. replace (path ++ length (fl f) :: map (fun f => length (fl f)) C) with ((path ++ [length (fl f)]) ++ cpath C) by (rewrite <- app_assoc; auto).
    exists i', kp'. split; auto.
    assert (SEP : forall p, In p (mids (plug C sub)) -> Forall (fun m => m <> p) (flat_map mids (fl f)) /\ Forall (fun m => m <> p) (flat_map mids (fr f)) /\ fm f <> p).
    { intros p I. split; [|split].
      - eapply rep_list_sep; [exact L1|exact Rt| |exact I]. right. lia.
      - eapply rep_list_sep; [exact L3|exact Rt| |exact I]. left. lia.
      - intros <-. destruct (rep_path _ _ _ _ _ _ _ Rt I) as (y & suf & Ny & Py). rewrite Nx in Ny. injection Ny as <-.
        eapply path_neq; [exact Px|exact Py]. }
    destruct C as [|g C'].
    + destruct Q as [-> ->]. simpl in *.
      assert (NODE : is_node sub = true).
      { destruct (OK sub) as [N|[y ->]]; [apply in_or_app; simpl; auto|exact N|contradiction]. }
      assert (KEY : exists k, tkey sub = Some k).
      { destruct sub as [?|? ? ? ? ? ? ? ? ? ?|? [?|] ? ? ? ?]; simpl in *; try discriminate; eauto. }
      destruct KEY as [k KEY].
      exists (fm f), x, k. split; auto. split; auto. split; auto. split; auto. rewrite app_nil_r, KEY in *. split; [congruence|].
      split; [congruence|]. intros hp1 new n md HP Rn Mn Kn Nn Fn.
      assert (Lf : fm f < length hp) by (apply nth_error_Some; congruence).
      assert (HP2 : hpres (fun m => m <> fm f) hp (upd hp1 (fm f) (with_children (dset k n (ms_children x)) (with_model md x)))).
      { eapply hpres_trans; [eapply hpres_weaken; [|exact HP]; intros; exact I|apply hpres_upd]. }
      assert (SELF : forall l j, rep_list hp (fm f) path kp j l -> Forall (fun m => m <> fm f) (flat_map mids l)).
      { intros l j RL. apply Forall_forall. intros m Im ->.
        apply in_flat_map in Im. destruct Im as (t' & It & Im). destruct (rep_list_In _ _ _ _ _ _ _ RL It) as [j' Rj].
        destruct (rep_path _ _ _ _ _ _ _ Rj Im) as (y & suf & Ny & Py). rewrite Nx in Ny. injection Ny as <-.
        eapply path_neq; [exact Px|exact Py]. }
      eapply rep_plug1; [exact R| | | | |].
      * exists x, md. split; auto. rewrite nth_upd_same.
        { f_equal. f_equal. rewrite Cx. eapply kid_dict_set; eauto. }
        apply nth_error_Some. rewrite (HP _ _ I Nx). discriminate.
      * intros t' It. apply in_app_iff in It. destruct It as [It|[<-|It]]; auto; apply OK; apply in_or_app; simpl; auto.
      * eapply rep_list_frame; [exact HP2|exact L1|eauto].
      * rewrite Kn. eapply rep_frame; [apply hpres_upd|exact Rn|]. eapply Forall_impl; [|exact Fn]. simpl. intros; lia.
      * eapply rep_list_frame; [exact HP2|exact L3|eauto].
    + destruct Q as (p & px & k & HPp & KEY & NODE & Np & PP & KP & RB).
      exists p, px, k. split; auto. split; auto. split; auto. split; auto. split; auto. split; auto.
      intros hp1 new n md HP Rn Mn Kn Nn Fn.
      specialize (RB hp1 new n md HP Rn Mn Kn Nn Fn).
      assert (Ip : In p (mids (plug (g :: C') sub))).
      { apply hole_par_in. rewrite <- HPp. rewrite !hole_par_cons. auto. }
      destruct (SEP p Ip) as (S1 & S2 & S3).
      assert (HP2 : hpres (fun m => m <> p) hp (upd hp1 p (with_children (dset k n (ms_children px)) (with_model md px)))).
      { eapply hpres_trans; [eapply hpres_weaken; [|exact HP]; intros; exact I|apply hpres_upd]. }
      assert (TK : tkey (plug (g :: C') new) = tkey (plug (g :: C') sub)) by (destruct g; auto).
      assert (TN : is_node (plug (g :: C') new) = is_node (plug (g :: C') sub)) by (destruct g; auto).
      assert (TM : kid_dict (fl f ++ plug (g :: C') new :: fr f) = kid_dict (fl f ++ plug (g :: C') sub :: fr f)).
      { rewrite !kid_dict_app. f_equal. unfold kid_dict. simpl. f_equal. destruct g; auto. }
      eapply rep_plug1; [exact R| | | | |].
      * exists x, (ms_model x). split; auto. rewrite TM, <- Cx. rewrite nth_upd_other by auto.
        rewrite (HP _ _ I Nx). destruct x; auto.
      * intros t' It. apply in_app_iff in It. destruct It as [It|[<-|It]]; [apply OK; apply in_or_app; auto| |apply OK; apply in_or_app; simpl; auto].
        rewrite TN. destruct (OK (plug (g :: C') sub)) as [N|[y E]]; [apply in_or_app; simpl; auto|auto|]. destruct g; discriminate E.
      * eapply rep_list_frame; [exact HP2|exact L1|auto].
      * rewrite TK. exact RB.
      * eapply rep_list_frame; [exact HP2|exact L3|auto].
Qed.

(** ** Parts of a plugged tree *)

Fixpoint cA (C : list frame) : list cinfo :=
  match C with
  | [] => []
  | f :: C' => match f with FElem _ _ _ _ _ _ _ _ _ _ _ => [] | FComp m _ h c out _ _ => [(h, (m, c, out))] end
               ++ compss (fl f) ++ cA C'
  end.
Fixpoint cB (C : list frame) : list cinfo :=
  match C with [] => [] | f :: C' => cB C' ++ compss (fr f) end.
Lemma comps_plug C t : comps (plug C t) = cA C ++ comps t ++ cB C.
Proof.
  induction C as [|f C IH]; simpl; [rewrite app_nil_r; auto|].
  destruct f; simpl; rewrite flat_map_app; simpl; rewrite IH; unfold compss; rewrite <- !app_assoc; auto.
Qed.

Fixpoint tA (C : list frame) : list (string * handler) :=
  match C with
  | [] => []
  | f :: C' => match f with FElem _ _ _ _ _ _ kp hs _ _ _ => elem_tgts kp hs | FComp _ _ _ _ _ _ _ => [] end
               ++ tgtss (fl f) ++ tA C'
  end.
Fixpoint tB (C : list frame) : list (string * handler) :=
  match C with [] => [] | f :: C' => tB C' ++ tgtss (fr f) end.
Lemma tgts_plug C t : tgts (plug C t) = tA C ++ tgts t ++ tB C.
Proof.
  induction C as [|f C IH]; simpl; [rewrite app_nil_r; auto|].
  destruct f; simpl; rewrite flat_map_app; simpl; rewrite IH; unfold tgtss; rewrite <- !app_assoc; auto.
Qed.

(** Two nodes that can replace each other. *)
Definition similar (t t' : tree) : Prop := tkey t' = tkey t /\ is_comp t /\ is_comp t'.
Lemma similar_node t t' : similar t t' -> is_node t' = is_node t.
Proof. intros (K & A & B). destruct t, t'; simpl in *; try contradiction. subst. auto. Qed.
Lemma plug1_key f t t' : tkey (plug1 f t') = tkey (plug1 f t).
Proof. destruct f; auto. Qed.
Lemma plug1_node f t t' : is_node (plug1 f t') = is_node (plug1 f t).
Proof. destruct f as [| ? [] ]; auto. Qed.
Lemma plug_key C t t' : similar t t' -> tkey (plug C t') = tkey (plug C t).
Proof. intros S. destruct C as [|f C]; simpl; [apply S|apply plug1_key]. Qed.
Lemma plug_node C t t' : similar t t' -> is_node (plug C t') = is_node (plug C t).
Proof. intros S. destruct C as [|f C]; simpl; [apply similar_node; auto|apply plug1_node]. Qed.
Lemma plug_nottext C t : is_comp t -> forall x, plug C t <> TText x.
Proof. intros IC x. destruct C as [|f C]; simpl; [intros ->; contradiction|]. destruct f; discriminate. Qed.

Lemma kid_keys l r t t' : tkey t' = tkey t -> is_node t = true -> is_node t' = true ->
  dkeys (kid_dict (l ++ t' :: r)) = dkeys (kid_dict (l ++ t :: r)).
Proof.
  intros K N N'. rewrite !kid_dict_app, !dkeys_app. f_equal. unfold kid_dict. simpl. rewrite !dkeys_app. f_equal.
  destruct (tkey t) as [k|] eqn:EK.
  - rewrite (kid_entry_key t k), (kid_entry_key t' k); auto.
  - destruct t as [?|? ? ? ? ? ? ? ? ? ?|? [?|] ? ? ? ?]; simpl in *; discriminate.
Qed.

Lemma wf_plug C t t' : similar t t' -> wf t' -> wf (plug C t) -> wf (plug C t').
Proof.
  intros S W'. induction C as [|f C IH]; simpl; auto. intros W.
  destruct (wf_plug1 _ _ W) as (ND & Wt & Wl & Wr & OK). specialize (IH Wt).
  assert (OKt : is_node (plug C t) = true).
  { destruct (OK (plug C t)) as [N|[x E]]; [apply in_or_app; simpl; auto|auto|]. exfalso. destruct S as (_ & S1 & _). exact (plug_nottext C t S1 x E). }
  assert (ND' : NoDup (dkeys (kid_dict (fl f ++ plug C t' :: fr f)))).
  { rewrite (kid_keys _ _ (plug C t)); auto. - apply plug_key; auto. - rewrite (plug_node C t t'); auto. }
  assert (OK' : kids_ok (fl f ++ plug C t' :: fr f)).
  { intros x I. apply in_app_iff in I. destruct I as [I|[<-|I]].
    - apply OK. apply in_or_app; auto.
    - left. rewrite (plug_node C t t'); auto.
    - apply OK. apply in_or_app; simpl; auto. }
  assert (WS : wfs (fl f ++ plug C t' :: fr f)) by (apply wfs_app; split; [exact Wl|split; [exact IH|exact Wr]]).
  destruct f; simpl in *; (split; [exact OK'|split; [exact ND'|exact WS]]).
Qed.

Lemma mids_plug C : exists a b, forall t', mids (plug C t') = a ++ mids t' ++ b.
Proof.
  induction C as [|f C (a & b & IH)]; [exists [], []; intros; simpl; rewrite app_nil_r; auto|].
  exists (fm f :: flat_map mids (fl f) ++ a), (b ++ flat_map mids (fr f)).
  intros t'; destruct f; simpl; rewrite flat_map_app; simpl; rewrite IH, <- !app_assoc; auto.
Qed.

Lemma incr_plug C t t' n : incr (plug C t) -> incr t' -> Forall (fun m => m < n) (mids (plug C t)) ->
  Forall (fun m => n <= m) (mids t') -> incr (plug C t').
Proof.
  intros I1 I2 F1 F2. induction C as [|f C IH]; simpl; auto.
  assert (Q : Forall (fun m' => fm f < m') (flat_map mids (fl f ++ plug C t :: fr f)) /\ incrs (fl f ++ plug C t :: fr f)) by (destruct f; exact I1).
  destruct Q as [Q1 Q2]. unfold incrs in Q2. rewrite map_app, fold_right_app in Q2. simpl in Q2.
  assert (Fm : Forall (fun m => m < n) (fm f :: flat_map mids (fl f ++ plug C t :: fr f))) by (destruct f; exact F1).
  inversion Fm as [|? ? Fm1 Fm2]; subst.
  assert (SPLIT : forall l (P : Prop), fold_right and P (map incr l) <-> incrs l /\ P).
  { clear. unfold incrs. induction l; simpl; intros; [tauto|]. rewrite IHl. tauto. }
  rewrite SPLIT in Q2. destruct Q2 as (Q2 & Q3 & Q4).
  rewrite flat_map_app in Q1, Fm2. simpl in Q1, Fm2. apply Forall_app in Q1, Fm2. destruct Q1 as [Qa Qb], Fm2 as [Fa Fb].
  apply Forall_app in Qb, Fb. destruct Qb as [Qb Qc], Fb as [Fb Fc].
  specialize (IH Q3 Fb).
  assert (RES : Forall (fun m' => fm f < m') (flat_map mids (fl f ++ plug C t' :: fr f)) /\ incrs (fl f ++ plug C t' :: fr f)).
  { split.
    - rewrite flat_map_app. simpl. apply Forall_app. split; auto. apply Forall_app. split; auto.
      destruct (mids_plug C) as (a & b & M). rewrite M in Qb |- *. apply Forall_app in Qb. destruct Qb as [X Y].
      apply Forall_app in Y. destruct Y as [Y Z]. apply Forall_app. split; auto. apply Forall_app. split; auto.
      eapply Forall_impl; [|exact F2]. simpl. intros; lia.
    - unfold incrs. rewrite map_app, fold_right_app. simpl. rewrite SPLIT. split; auto. }
  destruct f; exact RES.
Qed.

(** ** Shape and view *)

Lemma shapes_mid l : forall i raws t r, shapes i raws (l ++ t :: r) -> (forall x, t <> TText x) ->
  exists r', shape r' t /\ (forall t', shape r' t' -> tkey t' = tkey t -> shapes i raws (l ++ t' :: r)) /\ raws <> [].
Proof.
  intros i raws. revert l i. induction raws as [|r0 raws IH]; intros l i t r SH NT; [inversion SH; destruct l; discriminate|].
  assert (E2 : exists tl, l ++ t :: r = tl /\ shapes i (r0 :: raws) tl) by eauto. clear SH. destruct E2 as (tl & E2 & SH).
  inversion SH as [|? ? ? SH'|? s ? ts SH' EQ1 EQ2 EQ3|? ? ? t0 ts S0 K0 SH' EQ1 EQ2 EQ3]; clear SH; subst i0;
    try (rewrite <- EQ3 in E2; clear EQ3).
  - subst tl. destruct (IH _ _ _ _ SH' NT) as (r' & A & B & _). exists r'. split; auto. split; [|discriminate]. intros. apply Shs_none. auto.
  - destruct l as [|a l]; simpl in E2; injection E2 as E2 E3; [exfalso; eapply NT; eauto|]. subst.
    destruct (IH _ _ _ _ SH' NT) as (r' & A & B & _). exists r'. split; auto. split; [|discriminate]. intros. apply Shs_text. auto.
  - destruct l as [|a l]; simpl in E2; injection E2 as E2 E3; subst.
    + exists r0. split; auto. split; [|discriminate]. intros. simpl. apply Shs_cons; auto. congruence.
    + destruct (IH _ _ _ _ SH' NT) as (r' & A & B & _). exists r'. split; auto. split; [|discriminate].
      intros. simpl. apply Shs_cons; auto.
Qed.

Lemma shape_plug C : forall r t t' c, shape r (plug C t) -> similar t t' -> shape (RComp c) t ->
  (shape (RComp c) t') -> shape r (plug C t') /\ put_at (cpath C) (view t') (view (plug C t)) = Some (view (plug C t')).
Proof.
  induction C as [|f C IH]; intros r t t' c SH SM S1 S2.
  - simpl in *. split; auto. destruct SM as (_ & A & B). destruct t; simpl in A; try contradiction.
    inversion SH; subst. inversion S1; subst. auto.
  - assert (NT : forall x, plug C t <> TText x) by (apply plug_nottext; apply SM).
    assert (UP : forall (l r : list tree) a, upd (map view (l ++ plug C t :: r)) (length l) a = map view l ++ a :: map view r).
    { clear. induction l as [|b l IHl]; intros; simpl; auto. rewrite IHl. auto. }
    assert (NTH : forall (l r : list tree), nth_error (map view (l ++ plug C t :: r)) (length l) = Some (view (plug C t))).
    { intros. rewrite map_app. rewrite nth_error_app2 by (rewrite map_length; lia). rewrite map_length, Nat.sub_diag. auto. }
    destruct f; simpl in *.
    + inversion SH; subst.
      match goal with H : shapes _ _ _ |- _ => destruct (shapes_mid _ _ _ _ _ H NT) as (r' & A & B & NE) end.
      destruct (IH _ _ _ _ A SM S1 S2) as [X Y]. split.
      * apply Sh_elem; auto. apply B; auto. apply plug_key; auto.
      * destruct ch as [[|? ?]|]; try congruence. rewrite NTH, Y, UP, map_app. auto.
    + inversion SH; subst.
      match goal with H : shapes _ _ _ |- _ => destruct (shapes_mid _ _ _ _ _ H NT) as (r' & A & B & NE) end.
      destruct (IH _ _ _ _ A SM S1 S2) as [X Y]. split.
      * apply Sh_comp; auto. apply B; auto. apply plug_key; auto.
      * destruct out as [o|e x]; [|exfalso; apply NE; reflexivity]. simpl. rewrite NTH, Y, UP, map_app. auto.
Qed.

Lemma shape_sub C : forall r t, shape r (plug C t) -> is_comp t -> exists c, shape (RComp c) t.
Proof.
  induction C as [|f C IH]; intros r t SH IC; simpl in *.
  - destruct t; simpl in IC; try contradiction. inversion SH; subst. eauto.
  - assert (NT : forall x, plug C t <> TText x) by (apply plug_nottext; auto).
    destruct f; simpl in *; inversion SH; subst;
      match goal with H : shapes _ _ _ |- _ => destruct (shapes_mid _ _ _ _ _ H NT) as (r' & A & B & NE) end; eauto.
Qed.

(** ** Contexts *)

Fixpoint cenv (C : list frame) (env : nat -> option val) : nat -> option val :=
  match C with
  | [] => env
  | f :: C' => cenv C' (match f with FElem _ _ _ _ _ _ _ _ _ _ _ => env | FComp _ _ _ c _ _ _ => visible c env end)
  end.

Lemma ctx_plug C : forall s env t, ctx_ok s env (plug C t) ->
  ctx_ok s (cenv C env) t /\
  forall s' t', (forall x, In x (keys (cA C ++ cB C)) -> hk_ctx (get_hook x s') = hk_ctx (get_hook x s)) ->
    ctx_ok s' (cenv C env) t' -> ctx_ok s' env (plug C t').
Proof.
  induction C as [|f C IH]; intros s env t CO; [split; auto|].
  destruct f as [m k tag imp attrs js kp hs has l r|m k h c out l r]; simpl in CO |- *.
  - fold (ctxs_ok s env (l ++ plug C t :: r)) in CO. apply ctxs_app in CO. destruct CO as [C1 [C2 C3]]. fold (ctxs_ok s env r) in C3.
    destruct (IH _ _ _ C2) as [A B]. split; auto. intros s' t' HX CT.
    fold (ctxs_ok s' env (l ++ plug C t' :: r)). apply ctxs_app. split; [|split].
    + eapply ctxs_ok_hooks; [|exact C1]. intros x I. apply HX. rewrite !keys_app, !in_app_iff. auto.
    + apply B; auto. intros x I. apply HX. rewrite !keys_app, !in_app_iff in *. tauto.
    + fold (ctxs_ok s' env r). eapply ctxs_ok_hooks; [|exact C3]. intros x I. apply HX. rewrite !keys_app, !in_app_iff. auto.
  - destruct CO as (N1 & N2 & CO). fold (ctxs_ok s (visible c env) (l ++ plug C t :: r)) in CO.
    apply ctxs_app in CO. destruct CO as [C1 [C2 C3]]. fold (ctxs_ok s (visible c env) r) in C3.
    destruct (IH _ _ _ C2) as [A B]. split; auto. intros s' t' HX CT.
    assert (Eh : hk_ctx (get_hook h s') = hk_ctx (get_hook h s)) by (apply HX; simpl; auto).
    unfold ctx_of in *. rewrite Eh. split; auto. split; auto.
    fold (ctxs_ok s' (visible c env) (l ++ plug C t' :: r)). apply ctxs_app. split; [|split].
    + eapply ctxs_ok_hooks; [|exact C1]. intros x I. apply HX. simpl. rewrite !keys_app, !in_app_iff. auto.
    + apply B; auto. intros x I. apply HX. simpl. rewrite !keys_app, !in_app_iff in *. tauto.
    + fold (ctxs_ok s' (visible c env) r). eapply ctxs_ok_hooks; [|exact C3]. intros x I. apply HX. simpl. rewrite !keys_app, !in_app_iff. auto.
Qed.

(** ** Identities *)

Lemma hids_kids t' l : In t' l -> forall x, In x (hids t') -> In x (map fst (flat_map comps l)).
Proof. intros I x J. unfold hids in J. apply in_map_iff in J. destruct J as (i & <- & J). apply in_map. apply in_flat_map. eauto. Qed.

Lemma replace_absent h new t : ~ In h (hids t) -> replace_inst h new (inst_of t) = inst_of t.
Proof.
  assert (K : forall l, Forall (fun t => ~ In h (hids t) -> replace_inst h new (inst_of t) = inst_of t) l ->
     ~ In h (map fst (flat_map comps l)) -> map (fun kn => (fst kn, replace_inst h new (snd kn))) (insts l) = insts l).
  { induction l as [|a l IH]; simpl; intros F NI; auto. inversion F as [|? ? F1 F2]; subst.
    rewrite map_app, in_app_iff in NI. unfold insts. simpl. rewrite map_app. f_equal; [|apply IH; tauto].
    destruct (tkey a); simpl; auto. rewrite F1; auto. }
  induction t using tree_ind'; intros NI; simpl; auto.
  - f_equal. apply K; auto.
  - unfold hids in NI. simpl in NI. destruct (Nat.eq_dec h0 h) as [->|NE]; [tauto|]. f_equal. apply K; auto.
Qed.

Lemma NoDup_app_disj {A} (a b : list A) x : NoDup (a ++ b) -> In x a -> ~ In x b.
Proof.
  induction a; simpl; intros ND I; [contradiction|]. inversion ND; subst. destruct I as [->|I]; auto.
  intros J. apply H1. apply in_or_app; auto.
Qed.

Lemma inst_plug C : forall m k h c out kids new, NoDup (hids (plug C (TComp m k h c out kids))) ->
  similar (TComp m k h c out kids) new ->
  inst_of (plug C new) = replace_inst h (inst_of new) (inst_of (plug C (TComp m k h c out kids))) /\
  (C <> [] -> wf (plug C (TComp m k h c out kids)) -> occurs h (inst_of (plug C (TComp m k h c out kids))) (inst_of (TComp m k h c out kids))).
Proof.
  induction C as [|f C IH]; intros m k h c out kids new ND SM.
  - simpl. destruct (Nat.eq_dec h h); [|congruence]. split; auto. congruence.
  - set (sub := TComp m k h c out kids) in *.
    assert (IN : In h (hids (plug C sub))).
    { unfold hids. rewrite comps_plug. rewrite !map_app. apply in_or_app. right. apply in_or_app. left. simpl; auto. }
    assert (PK : tkey (plug C new) = tkey (plug C sub)) by (apply plug_key; auto).
    assert (K : forall l r, NoDup (map fst (flat_map comps (l ++ plug C sub :: r))) ->
       insts (l ++ plug C new :: r) = map (fun kn => (fst kn, replace_inst h (inst_of new) (snd kn))) (insts (l ++ plug C sub :: r)) /\ NoDup (hids (plug C sub))).
    { intros l r N. rewrite flat_map_app in N. simpl in N. rewrite !map_app in N.
      assert (N2 : NoDup (hids (plug C sub))) by (apply NoDup_app_r in N; apply NoDup_app_l in N; exact N).
      split; auto.
      assert (NL : forall l', (forall x, In x (map fst (flat_map comps l')) -> x <> h) ->
         map (fun kn => (fst kn, replace_inst h (inst_of new) (snd kn))) (insts l') = insts l').
      { intros l' NI. unfold insts. induction l' as [|a l' IHl]; simpl; auto. rewrite map_app. f_equal.
        - destruct (tkey a); simpl; auto. rewrite replace_absent; auto. intros J. eapply NI; [|reflexivity].
          eapply hids_kids; [left; reflexivity|auto].
        - apply IHl. intros x I. apply NI. simpl. rewrite map_app. apply in_or_app; auto. }
      unfold insts. rewrite !flat_map_app, map_app. simpl. rewrite map_app. f_equal; [|f_equal].
      - symmetry. apply NL. intros x I ->. eapply NoDup_app_disj in I; [|exact N]. apply I. apply in_or_app; auto.
      - rewrite PK. destruct (tkey (plug C sub)); simpl; auto. f_equal. f_equal. apply IH; auto.
      - symmetry. apply NL. intros x I ->. apply NoDup_app_r in N. eapply NoDup_app_disj in N; [|exact IN]. auto. }
    assert (OCC : forall l r, kids_ok (l ++ plug C sub :: r) -> wf (plug C sub) -> NoDup (hids (plug C sub)) -> exists k n, In (k, n) (insts (l ++ plug C sub :: r)) /\ occurs h n (inst_of sub)).
    { intros l r OK W N2. assert (KEY : exists k', tkey (plug C sub) = Some k').
      { destruct (OK (plug C sub)) as [N|[x E]]; [apply in_or_app; simpl; auto| |exfalso; eapply plug_nottext; [|exact E]; exact I].
        destruct (plug C sub) as [?|? ? ? ? ? ? ? ? ? ?|? [?|] ? ? ? ?]; simpl in *; try discriminate; eauto. }
      destruct KEY as [k' KEY]. exists k', (inst_of (plug C sub)). split.
      - unfold insts. apply in_flat_map. exists (plug C sub). rewrite KEY. split; [apply in_or_app; simpl; auto|simpl; auto].
      - destruct C as [|g C']; [constructor|].
        destruct (IH m k h c out kids new N2 SM) as [_ X]. apply X; [discriminate|exact W]. }
    destruct f as [m0 k0 tag imp attrs js kp hs has l r|m0 k0 h0 c0 out0 l r]; unfold hids in ND; simpl in ND |- *.
    + destruct (K l r ND) as [K1 K2]. split; [f_equal; exact K1|]. intros _ (OK & _ & W).
      fold (wfs (l ++ plug C sub :: r)) in W. apply wfs_app in W. destruct W as [_ [W _]].
      destruct (OCC l r OK W K2) as (k' & n & I & O). eapply Oc_elem; [exact I|exact O].
    + inversion ND as [|? ? NI ND']; subst. destruct (K l r ND') as [K1 K2]. split.
      * destruct (Nat.eq_dec h0 h) as [->|NE].
        { exfalso. apply NI. rewrite flat_map_app. simpl. rewrite !map_app. apply in_or_app. right. apply in_or_app; auto. }
        f_equal. exact K1.
      * intros _ (OK & _ & W). fold (wfs (l ++ plug C sub :: r)) in W. apply wfs_app in W. destruct W as [_ [W _]].
        destruct (OCC l r OK W K2) as (k' & n & I & O). eapply Oc_comp; [exact I|exact O].
Qed.

(** ** Liveness of parents *)

Lemma reaches_tree hp p t : forall par i path kp m fuel, rep hp par i path kp t -> incr t -> tmid t = Some m ->
  In p (mids t) -> p - m <= fuel -> reaches fuel hp m p = true.
Proof.
  assert (K : forall kids, Forall (fun t => forall par i path kp m fuel, rep hp par i path kp t -> incr t -> tmid t = Some m ->
       In p (mids t) -> p - m <= fuel -> reaches fuel hp m p = true) kids ->
     forall m path kp fuel, kids_ok kids -> rep_list hp m path kp 0 kids -> Forall (fun m' => m < m') (flat_map mids kids) -> incrs kids ->
     In p (flat_map mids kids) -> p - m <= S fuel -> existsb (fun c => reaches fuel hp c p) (dvals (kid_dict kids)) = true).
  { intros kids F m path kp fuel OK RL Q1 Q2 I LE. apply existsb_exists.
    apply in_flat_map in I. destruct I as (t' & It & I). rewrite Forall_forall in F.
    destruct (rep_list_In _ _ _ _ _ _ _ RL It) as [j Rj].
    destruct (OK t' It) as [N|[x ->]]; [|contradiction].
    assert (KM : exists k m', kid_entry t' = [(k, m')] /\ tmid t' = Some m').
    { destruct t' as [?|? ? ? ? ? ? ? ? ? ?|? [?|] ? ? ? ?]; simpl in *; try discriminate; eauto. }
    destruct KM as (k & m' & KE & TM). exists m'. split.
    - unfold dvals, kid_dict. apply in_map_iff. exists (k, m'). split; auto. apply in_flat_map. exists t'. rewrite KE. simpl; auto.
    - eapply F; eauto.
      + unfold incrs in Q2. clear - It Q2. induction kids; [contradiction|]. simpl in *. destruct It as [->|It]; tauto.
      + assert (IM : In m' (flat_map mids kids)).
        { apply in_flat_map. exists t'. split; auto. destruct t'; simpl in *; try discriminate; injection TM as ->; auto. }
        rewrite Forall_forall in Q1. specialize (Q1 m' IM). lia. }
  induction t using tree_ind'; intros par i path kp' m0 fuel R IC TM I LE; [contradiction| |].
  - simpl in TM. injection TM as ->. apply rep_elem in R. destruct R as (-> & (md & N) & OK & L). simpl in IC. destruct IC as [Q1 Q2].
    destruct fuel as [|fuel]; simpl; destruct (Nat.eq_dec m0 p) as [|NE]; auto.
    + simpl in I. destruct I as [->|I]; [congruence|]. rewrite Forall_forall in Q1. specialize (Q1 p I). lia.
    + rewrite N. simpl. simpl in I. destruct I as [->|I]; [congruence|]. eapply K; eauto.
  - simpl in TM. injection TM as ->. apply rep_comp in R. destruct R as ((md & N) & OK & L). simpl in IC. destruct IC as [Q1 Q2].
    destruct fuel as [|fuel]; simpl; destruct (Nat.eq_dec m0 p) as [|NE]; auto.
    + simpl in I. destruct I as [->|I]; [congruence|]. rewrite Forall_forall in Q1. specialize (Q1 p I). lia.
    + rewrite N. simpl. simpl in I. destruct I as [->|I]; [congruence|]. eapply K; eauto.
Qed.
