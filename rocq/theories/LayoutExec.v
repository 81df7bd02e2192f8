(** * Runs without failures have derivations

    Every successful run of the rendering functions that logs no render failure corresponds to a derivation
    of LayoutDeriv.v, and the resulting heap represents the derived tree. Proof-side only. *)
From Coq Require Import String ZArith Bool Arith Lia List Permutation.
From Verif Require Import Dict LayoutTypes LayoutModel BodySpec DisplaySpec LayoutObs LayoutTree LayoutDeriv LayoutFacts.
Import ListNotations.
Local Open Scope string_scope.
Local Open Scope list_scope.

Tactic Notation "bok" ident(H) "as" simple_intropattern(a) ident(s1) ident(H1) :=
  apply bind_ok in H; destruct H as (a & s1 & H1 & H).

Lemma kid_mids l : kids_ok l -> map tmid (filter is_node l) = map Some (dvals (kid_dict l)).
Proof.
  induction l as [|t l IH]; simpl; intros OK; auto.
  assert (OKl : kids_ok l) by (intros t' I; apply OK; right; auto).
  specialize (IH OKl). unfold kid_dict, dvals in *. simpl. rewrite map_app, map_app.
  destruct t as [s|m k' tag imp attrs js kp hs has kids|m k' h c out kids]; simpl.
  - auto.
  - rewrite IH; auto.
  - destruct k' as [k'|]; simpl.
    + rewrite IH; auto.
    + destruct (OK (TComp m None h c out kids)) as [F|[s F]]; simpl; auto; discriminate.
Qed.

Definition somewhere (hp : list mstate) (t : tree) : Prop := exists par i path kp, rep hp par i path kp t.

Lemma somewhere_kids_elem hp m k tag imp attrs js kp hs has kids :
  somewhere hp (TElem m k tag imp attrs js kp hs has kids) -> Forall (somewhere hp) kids.
Proof.
  intros (par & i & path & kp' & R). apply rep_elem in R. destruct R as (_ & _ & _ & L).
  apply Forall_forall. intros t I. destruct (rep_list_In _ _ _ _ _ _ _ L I) as [j R]. red; eauto.
Qed.
Lemma somewhere_kids_comp hp m k h c out kids :
  somewhere hp (TComp m k h c out kids) -> Forall (somewhere hp) kids.
Proof.
  intros (par & i & path & kp' & R). apply rep_comp in R. destruct R as (_ & _ & L).
  apply Forall_forall. intros t I. destruct (rep_list_In _ _ _ _ _ _ _ L I) as [j R]. red; eauto.
Qed.

Lemma Forall_filter {A} (P : A -> Prop) f l : Forall P l -> Forall P (filter f l).
Proof. rewrite !Forall_forall. intros H x I. apply filter_In in I. apply H; tauto. Qed.

Lemma exec_unmount f : forall stk s s' ts,
  unmount f stk s = (Ok tt, s') -> map tmid ts = map Some stk -> Forall (somewhere (s_heap s)) ts ->
  s_heap s' = s_heap s /\ um (N s) ts (N s').
Proof.
  induction f as [|f IH]; simpl; intros stk s s' ts H E W; [discriminate|].
  destruct stk as [|m stk].
  { destruct ts; [|discriminate]. inversion H; subst. split; auto. constructor. }
  destruct ts as [|t ts]; [discriminate|]. simpl in E. injection E as Em Ets.
  inversion W as [|? ? W1 W2]; subst.
  bok H as x sx H1. apply get_ms_ok in H1. destruct H1 as [-> Hx].
  bok H as [] sd Hd. bok H as [] sl Hl.
  destruct t as [txt|m' k tag imp attrs js kp hs has kids|m' k h c out kids]; simpl in Em; [discriminate| |];
    injection Em as ->.
  - pose proof (somewhere_kids_elem _ _ _ _ _ _ _ _ _ _ _ W1) as Wk.
    destruct W1 as (par & i & path & kp' & R). apply rep_elem in R. destruct R as (-> & (md & Nx) & OK & L).
    rewrite Hx in Nx. injection Nx as ->. simpl in *. inversion Hl; subst sl; clear Hl.
    pose proof (hfree_heap _ _ _ _ (hfree_del_handlers _) Hd) as Eh. rewrite <- Eh in *.
    apply IH with (ts := rev (filter is_node kids) ++ ts) in H.
    + destruct H as [H1 H2]. split; [congruence|]. apply um_elem with (s1 := N sd); auto.
      apply hfree_N; auto using hfree_del_handlers.
    + rewrite !map_app, Ets. f_equal. rewrite !map_rev. f_equal. apply kid_mids; auto.
    + apply Forall_app; split; auto. apply Forall_rev. apply Forall_filter; auto.
  - pose proof (somewhere_kids_comp _ _ _ _ _ _ _ W1) as Wk.
    destruct W1 as (par & i & path & kp' & R). apply rep_comp in R. destruct R as ((md & Nx) & OK & L).
    rewrite Hx in Nx. injection Nx as ->. simpl in *. inversion Hd; subst sd; clear Hd. bok Hl as [] sr Hr.
    pose proof (hfree_heap _ _ _ _ (hfree_del_reg _) Hr) as E1.
    pose proof (hfree_heap _ _ _ _ (hfree_will_unmount _) Hl) as E2.
    rewrite <- E1, <- E2 in *.
    apply IH with (ts := rev (filter is_node kids) ++ ts) in H.
    + destruct H as [H1 H2]. split; [congruence|]. apply um_comp with (s1 := N sr) (s2 := N sl); auto.
      * apply hfree_N; auto using hfree_del_reg.
      * apply hfree_N; auto using hfree_will_unmount.
    + rewrite !map_app, Ets. f_equal. rewrite !map_rev. f_equal. apply kid_mids; auto.
    + apply Forall_app; split; auto. apply Forall_rev. apply Forall_filter; auto.
Qed.

Lemma dset_fresh {K V} `{EqDec K} (k : K) (v : V) (d : dict K V) : ~ In k (dkeys d) -> dset k v d = d ++ [(k, v)].
Proof.
  induction d as [|[a b] d IH]; simpl; intros NI; auto.
  destruct (eq_dec k a) as [->|]; [tauto|]. rewrite IH; auto.
Qed.

(** ** Attributes *)

Lemma set_set_heap a b s : set_heap a (set_heap b s) = set_heap a s.
Proof. reflexivity. Qed.
Lemma N_set_heap a s : N (set_heap a s) = N s.
Proof. reflexivity. Qed.

Lemma exec_register m l : forall s js s' x,
  register_handlers m l s = (Ok js, s') -> nth_error (s_heap s) m = Some x ->
  js = hjsons (ms_keypath x) l /\
  s' = set_heap (upd (s_heap s) m (with_targets (fold_left (fun acc eh => dset (fst eh) (target_of (ms_keypath x) (fst eh) (snd eh)) acc) l (ms_targets x)) x))
         (set_eh (reg_all (ms_keypath x) l (s_eh s)) s).
Proof.
  induction l as [|[ev h] l IH]; simpl; intros s js s' x H E.
  - inversion H; subst. split; auto. unfold reg_all. simpl.
    replace (with_targets (ms_targets x) x) with x by (destruct x; auto).
    rewrite upd_same_id; auto. destruct s'; auto.
  - bok H as y sy H1. apply get_ms_ok in H1. destruct H1 as [-> E1]. rewrite E in E1. injection E1 as <-.
    bok H as [] s1 H1. inversion H1; subst; clear H1. bok H as [] s2 H1. inversion H1; subst; clear H1.
    bok H as l1 s3 H1.
    inversion H; subst; clear H. simpl in *.
    eapply IH in H1.
    2:{ simpl. apply nth_upd_same. apply nth_error_Some. congruence. }
    destruct H1 as [-> ->]. simpl. split; auto.
    unfold set_heap, set_eh, reg_all; simpl. f_equal.
    assert (U : forall (l : list mstate) n a b, upd (upd l n a) n b = upd l n b).
    { clear. induction l; destruct n; simpl; intros; auto. rewrite IHl; auto. }
    rewrite U. auto.
Qed.

Lemma exec_attrs old new tag attrs hs js imp s s' nx ots :
  render_attributes old new tag attrs hs js imp s = (Ok tt, s') ->
  nth_error (s_heap s) new = Some nx -> ms_targets nx = [] ->
  (match old with None => ots = [] | Some o => exists ox, nth_error (s_heap s) o = Some ox /\ ms_targets ox = ots end) ->
  exists s0,
    del_handlers (dvals (filter (fun et => negb (dmem (fst et) hs)) ots)) s = (Ok tt, s0) /\
    s' = set_heap (upd (s_heap s) new
                       (with_model (MNode tag imp (inject_ack (s_seq s0) tag (dvals (targets (ms_keypath nx) hs)) attrs) js
                                          (match hs with [] => None | _ => Some (hjsons (ms_keypath nx) hs) end) None None)
                                   (with_targets (targets (ms_keypath nx) hs) nx)))
                  (set_eh (reg_all (ms_keypath nx) hs (s_eh s0)) s0).
Proof.
  unfold render_attributes. intros H En Et Ho. bok H as [] s1 H0. bok H as a0 s2 H2. bok H as x s3 H1.
  apply get_ms_ok in H1. destruct H1 as [-> E1].
  bok H as sq s4 H1. injection H1 as <- <-. injection H as <-.
  assert (D : del_handlers (dvals (filter (fun et => negb (dmem (fst et) hs)) ots)) s = (Ok tt, s1)).
  { destruct old.
    - bok H0 as oy s5 H1. apply get_ms_ok in H1. destruct H1 as [-> E]. destruct Ho as (ox & Eo & <-).
      rewrite Eo in E. injection E as <-. auto.
    - subst ots. simpl in *. inversion H0; auto. }
  exists s1. split; auto.
  pose proof (hfree_heap _ _ _ _ (hfree_del_handlers _) D) as Eh. rewrite <- Eh in En.
  assert (R : a0 = (match hs with [] => None | _ => Some (hjsons (ms_keypath nx) hs) end) /\
              s2 = set_heap (upd (s_heap s) new (with_targets (targets (ms_keypath nx) hs) nx))
                     (set_eh (reg_all (ms_keypath nx) hs (s_eh s1)) s1)).
  { destruct hs as [|h0 hs].
    - inversion H2; subst. split; auto. unfold targets, reg_all; simpl.
      replace (with_targets [] nx) with nx by (destruct nx; simpl in *; subst; auto).
      rewrite upd_same_id; [|congruence]. rewrite <- Eh. destruct s2; auto.
    - bok H2 as l1 s5 H1. inversion H2; subst; clear H2. eapply exec_register in H1; eauto. destruct H1 as [-> ->].
      rewrite Et, Eh. split; auto. }
  destruct R as [-> ->]. simpl in *.
  rewrite nth_upd_same in E1 by (apply nth_error_Some; congruence). injection E1 as <-. simpl.
  unfold set_heap; simpl. f_equal.
  clear. revert new. induction (s_heap s); destruct new; simpl; intros; auto. rewrite IHl; auto.
Qed.

(** ** Rendering *)

Definition info_ok (x : child_kind * key) : Prop :=
  match fst x with
  | DictChild r => exists tag attrs hs js imp ch,
      r = RElem tag attrs hs js imp ch /\ (forall k', attr_key attrs = Some k' -> k' = snd x)
  | _ => True
  end.

Lemma children_infos_ok i l : Forall info_ok (children_infos i l).
Proof.
  revert i; induction l as [|r l IH]; simpl; intros i; [constructor|].
  destruct r; simpl; auto.
  - constructor; auto. exact I.
  - destruct (attr_key attrs) eqn:E; constructor; auto; red; simpl; repeat eexists; intros; congruence.
  - destruct (ci_key c); constructor; auto; exact I.
Qed.

Lemma has_duplicates_NoDup l : has_duplicates l = false <-> NoDup l.
Proof.
  induction l; simpl; [split; auto; constructor|].
  destruct (mem a l) eqn:E.
  - split; [discriminate|]. intros ND; inversion ND; subst. apply mem_In in E. contradiction.
  - rewrite IHl. apply mem_not_In in E. split; [constructor; auto|]. intros ND; inversion ND; auto.
Qed.

Definition told_ok (hp : list mstate) (told : option tree) (old : option nat) (k : option key) : Prop :=
  match told with
  | None => old = None
  | Some t => exists o, old = Some o /\ tmid t = Some o /\ somewhere hp t /\ tkey t = k
  end.

Definition okids_ok (hp : list mstate) (new : nat) (okids : option (list tree)) (old : option nat) : Prop :=
  match okids with
  | None => old = None
  | Some l => exists o ox, old = Some o /\ o <> new /\ nth_error hp o = Some ox /\ ms_children ox = kid_dict l /\
                           kids_ok l /\ Forall (somewhere hp) l /\ Forall (fun m => m <> new) (flat_map mids l)
  end.

Lemma somewhere_frame (P : nat -> Prop) hp hp' t :
  hpres P hp hp' -> somewhere hp t -> Forall P (mids t) -> somewhere hp' t.
Proof. intros HP (par & i & path & kp & R) F. exists par, i, path, kp. eapply rep_frame; eauto. Qed.

Lemma okids_ok_pres hp hp' new okids old :
  hpres (fun m => m <> new) hp hp' -> okids_ok hp new okids old -> okids_ok hp' new okids old.
Proof.
  intros HP. destruct okids as [l|]; simpl; auto.
  intros (o & ox & E & NE & Eo & C & OK & W & F). exists o, ox.
  split; auto. split; auto. split; [apply HP; auto|]. repeat (split; auto).
  clear - HP W F. induction l; simpl in *; constructor.
  - inversion W; subst. apply Forall_app in F. eapply somewhere_frame; [apply HP| |]; tauto.
  - inversion W; subst. apply Forall_app in F. apply IHl; tauto.
Qed.

Definition all (_ : nat) : Prop := True.
Lemma all_Forall l : Forall all l.
Proof. apply Forall_forall. intros. exact I. Qed.

Definition good_new (hp hp' : list mstate) par i path kp k t n : Prop :=
  tmid t = Some n /\ tkey t = k /\ rep hp' par i path kp t /\ hpres all hp hp' /\ length hp <= length hp' /\
  Forall (fun m => length hp <= m) (mids t) /\ incr t /\ exists x, nth_error hp' n = Some x /\ ms_model x = view t.

Definition kids_new (hp hp' : list mstate) new path kp j kids : Prop :=
  hpres (fun m => m <> new) hp hp' /\ length hp <= length hp' /\ kids_ok kids /\
  rep_list hp' new path kp j kids /\ Forall (fun m => length hp <= m) (flat_map mids kids) /\ incrs kids.

Definition path_ok hp told (parent : option nat) i k c path kp : Prop :=
  match parent with
  | Some p => exists pm, nth_error hp p = Some pm /\ path = ms_path pm ++ [i] /\ kp = sub_keypath (ms_keypath pm) k
  | None => exists t, told = Some t /\ rep hp None i path kp t /\ same_comp t c
  end.

(** ** Only render functions raise exceptions of their own *)

Definition calm {A} (m : M A) : Prop := forall s e s', m s = (Raise e, s') -> ~ raised e.
Lemma calm_ret {A} (a : A) : calm (ret a).
Proof. intros s e s' H; discriminate. Qed.
Lemma calm_no_fuel {A} : calm (@no_fuel A).
Proof. intros s e s' H; discriminate. Qed.
Lemma calm_modify f : calm (modify f).
Proof. intros s e s' H; discriminate. Qed.
Lemma calm_raise {A} e : ~ raised e -> calm (@raise A e).
Proof. intros R s e' s' H. inversion H; subst; auto. Qed.
Lemma calm_bind {A B} (m : M A) (f : A -> M B) : calm m -> (forall a, calm (f a)) -> calm (bind m f).
Proof.
  intros Hm Hf s e s'. unfold bind. destruct (m s) as [[a|e'|] s1] eqn:E; intros H; try discriminate.
  - eapply Hf; eauto.
  - injection H as <- <-. eapply Hm; eauto.
Qed.
Lemma calm_catch {A} (m : M A) f : (forall a, calm (f a)) -> calm (catch m f).
Proof.
  intros Hf s e s'. unfold catch. destruct (m s) as [[a|e'|] s1] eqn:E; intros H; try discriminate.
  eapply Hf; eauto.
Qed.
Lemma calm_finally {A} (m : M A) f : calm m -> calm f -> calm (finally m f).
Proof.
  intros Hm Hf s e s'. unfold finally. destruct (m s) as [[a|e1|] s1] eqn:E; intros H; try discriminate.
  - destruct (f s1) as [[x|e2|] s2] eqn:E2; inversion H; subst. eapply Hf; eauto.
  - destruct (f s1) as [[x|e2|] s2] eqn:E2; inversion H; subst; [eapply Hm|eapply Hf]; eauto.
Qed.
Lemma calm_get_ms m : calm (get_ms m).
Proof.
  intros s e s'. unfold get_ms. destruct (nth_error _ _); intros H; inversion H; subst. intros [K|[? K]]; discriminate.
Qed.
Ltac calm_step :=
  match goal with
  | |- calm (ret _) => apply calm_ret
  | |- calm no_fuel => apply calm_no_fuel
  | |- calm (modify _) => apply calm_modify
  | |- calm (log _) => apply calm_modify
  | |- calm (put_ms _ _) => apply calm_modify
  | |- calm pause => apply calm_modify
  | |- calm (gets _) => let H := fresh in intros ? ? ? H; discriminate H
  | |- calm (new_ms _) => let H := fresh in intros ? ? ? H; discriminate H
  | |- calm new_hook => let H := fresh in intros ? ? ? H; discriminate H
  | |- calm (raise _) => apply calm_raise; intros [?|[? ?]]; discriminate
  | |- calm (get_ms _) => apply calm_get_ms
  | |- calm (bind _ _) => apply calm_bind; [|intros ?]
  | |- calm (catch _ _) => apply calm_catch; intros ?
  | |- calm (finally _ _) => apply calm_finally
  | |- calm (match ?x with _ => _ end) => destruct x
  | |- calm (if ?x then _ else _) => destruct x
  | |- calm (let _ := _ in _) => cbv zeta
  end.
Lemma calm_change_ms m f : calm (change_ms m f).
Proof. unfold change_ms. repeat calm_step. Qed.
Lemma calm_del_handlers l : calm (del_handlers l).
Proof.
  induction l as [|t l IH]; simpl; [apply calm_ret|]. intros s e s'. destruct (dmem _ _); [apply IH|].
  intros H; inversion H; subst. intros [K|[? K]]; discriminate.
Qed.
Lemma calm_del_reg h : calm (del_reg h).
Proof.
  intros s e s'. unfold del_reg. destruct (dmem _ _); intros H; inversion H; subst. intros [K|[? K]]; discriminate.
Qed.
Lemma calm_unmount f : forall l, calm (unmount f l).
Proof.
  induction f; intros l; simpl; [apply calm_no_fuel|].
  repeat first [apply calm_del_handlers | apply calm_del_reg | apply IHf | calm_step | unfold will_unmount].
Qed.
Lemma calm_will_render h : calm (will_render h).
Proof. unfold will_render, set_current. repeat calm_step. Qed.
Lemma calm_did_render h : calm (did_render h).
Proof.
  unfold did_render. apply calm_bind; [|intros; apply calm_modify].
  intros s e s'. unfold unset_current. destruct (s_stack s) as [|p l]; [|destruct (Nat.eq_dec p h)]; intros H;
    inversion H; subst; intros [K|[? K]]; discriminate.
Qed.
Lemma calm_register m l : calm (register_handlers m l).
Proof. induction l as [|[ev h] l IH]; simpl; repeat first [apply IH | calm_step]. Qed.
Lemma calm_attributes o n tag attrs hs js imp : calm (render_attributes o n tag attrs hs js imp).
Proof.
  unfold render_attributes. repeat first [apply calm_del_handlers | apply calm_register | calm_step].
Qed.

(** The instances of a tree that have components or handlers below them. *)
Fixpoint branches (t : tree) : list nat :=
  match t with
  | TText _ => []
  | TElem _ _ _ _ _ _ _ _ _ l => flat_map branches l
  | TComp _ _ h _ _ l => (if forallb inertb l then [] else [h]) ++ flat_map branches l
  end.
(** [h] has shown components or handlers. *)
Definition ok_render (l : list event) (h : nat) : Prop := exists r, In (EvReturn h r) l /\ ~ plain r.
Lemma ok_render_app l l' h : ok_render l h -> ok_render (l ++ l') h.
Proof. intros (r & J & N). exists r. split; [apply in_or_app; left; exact J|exact N]. Qed.
Lemma ok_render_ext s s' l : ext s s' -> Forall (ok_render (s_log s)) l -> Forall (ok_render (s_log s')) l.
Proof. intros [x ->] H. eapply Forall_impl; [|exact H]. intros h. apply ok_render_app. Qed.

Section Exec.
Variable debug : bool.
Variable defs : nat -> val -> list raw -> body.

Lemma calm_render f :
  (forall old p i k c, calm (render_component debug defs f old p i k c)) /\
  (forall old p i k r, calm (render_model debug defs f old p i k r)) /\
  (forall old n raws, calm (render_children debug defs f old n raws)) /\
  (forall old n i infos, calm (render_child_list debug defs f old n i infos)).
Proof.
  induction f as [|f (A & B & C & D)]; [repeat split; intros; simpl; apply calm_no_fuel|].
  repeat split; intros; simpl;
    repeat first [ apply A | apply B | apply C | apply D | apply calm_unmount | apply calm_change_ms
                 | apply calm_will_render | apply calm_did_render | apply calm_attributes | calm_step ].
Qed.

(** The errors shown in a tree. *)
Definition texts (l : list cinfo) : Prop :=
  forall h m c e x, In (h, (m, c, Failed e x)) l -> error_text debug e x.
Lemma texts_app a b : texts a -> texts b -> texts (a ++ b).
Proof. unfold texts. intros A B h m c e x I. apply in_app_iff in I. destruct I; eauto. Qed.
Lemma texts_nil : texts [].
Proof. intros h m c e x []. Qed.

Definition told_log (s : st) (told : option tree) : Prop :=
  Forall (ok_render (s_log s)) (flat_map branches (otree_list told)).
Definition okids_log (s : st) (okids : option (list tree)) : Prop :=
  Forall (ok_render (s_log s)) (flat_map branches (match okids with Some l => l | None => [] end)).
Lemma okids_log_ext s s' o : ext s s' -> okids_log s o -> okids_log s' o.
Proof. apply ok_render_ext. Qed.
Lemma told_log_ext s s' o : ext s s' -> told_log s o -> told_log s' o.
Proof. apply ok_render_ext. Qed.
Lemma okids_log_find s k o : okids_log s o -> told_log s (opt_find k o).
Proof.
  unfold okids_log, told_log. destruct o as [l|]; simpl; [|constructor]. intros H.
  destruct (find_key k l) as [t|] eqn:E; simpl; [|constructor]. rewrite app_nil_r.
  apply find_key_In in E. destruct E as [I _]. rewrite Forall_forall in *. intros h J. apply H.
  apply in_flat_map. eauto.
Qed.

Definition P_rc f := forall old parent i k c s n s' told path kp,
  render_component debug defs f old parent i k c s = (Ok n, s') -> no_err s' ->
  told_ok (s_heap s) told old k -> told_log s told -> path_ok (s_heap s) told parent i k c path kp ->
  exists t, good_new (s_heap s) (s_heap s') parent i path kp k t n /\ texts (comps t) /\ rc defs (N s) told k c (N s') t.

Definition P_rm f := forall old p i k r s n s' told pm,
  render_model debug defs f old p i (Some k) r s = (Ok n, s') -> no_err s' ->
  told_ok (s_heap s) told old (Some k) -> told_log s told -> nth_error (s_heap s) p = Some pm ->
  info_ok (DictChild r, k) ->
  exists t, good_new (s_heap s) (s_heap s') (Some p) i (ms_path pm ++ [i]) (sub_keypath (ms_keypath pm) (Some k)) (Some k) t n /\
            texts (comps t) /\ rm defs (N s) told k r (N s') t.

Definition P_rk f := forall old new raws s s' okids nx tag imp attrs js eh,
  render_children debug defs f old new raws s = (Ok tt, s') -> no_err s' ->
  okids_ok (s_heap s) new okids old -> okids_log s okids -> nth_error (s_heap s) new = Some nx ->
  ms_children nx = [] -> ms_model nx = MNode tag imp attrs js eh None None ->
  exists kids, kids_new (s_heap s) (s_heap s') new (ms_path nx) (ms_keypath nx) 0 kids /\
    nth_error (s_heap s') new = Some (with_children (kid_dict kids) (with_model
       (MNode tag imp attrs js eh (match raws with [] => None | _ => Some (map view kids) end) None) nx)) /\
    texts (flat_map comps kids) /\ rk defs (N s) okids raws (N s') kids.

Definition P_rl f := forall old new infos s s' okids nx tag imp attrs js eh dk,
  render_child_list debug defs f old new (length dk) infos s = (Ok tt, s') -> no_err s' ->
  okids_ok (s_heap s) new okids old -> okids_log s okids -> nth_error (s_heap s) new = Some nx ->
  ms_children nx = kid_dict dk -> ms_model nx = MNode tag imp attrs js eh (Some (map view dk)) None ->
  NoDup (map snd infos) -> (forall k, In k (map snd infos) -> ~ In k (dkeys (kid_dict dk))) ->
  Forall info_ok infos ->
  exists kids, kids_new (s_heap s) (s_heap s') new (ms_path nx) (ms_keypath nx) (length dk) kids /\
    nth_error (s_heap s') new = Some (with_children (kid_dict (dk ++ kids)) (with_model
       (MNode tag imp attrs js eh (Some (map view (dk ++ kids))) None) nx)) /\
    texts (flat_map comps kids) /\ rl defs (N s) okids infos (N s') kids.

Lemma kids_new_refl hp new path kp j : kids_new hp hp new path kp j [].
Proof. repeat split; auto using hpres_refl. - intros t []. - constructor. Qed.

(** After the first child [t] (rendered or text), the rest. *)
Lemma kids_new_cons hp0 hp1 hp2 new path kp j t kids :
  hpres (fun m => m <> new) hp0 hp1 -> length hp0 <= length hp1 -> new < length hp0 ->
  (is_node t = true \/ exists s, t = TText s) ->
  rep hp1 (Some new) j (path ++ [j]) (sub_keypath kp (tkey t)) t ->
  Forall (fun m => length hp0 <= m) (mids t) -> incr t ->
  kids_new hp1 hp2 new path kp (S j) kids ->
  kids_new hp0 hp2 new path kp j (t :: kids).
Proof.
  intros HP LE LT OK R F IC (HP2 & LE2 & OK2 & R2 & F2 & IC2). split; [|split; [|split; [|split; [|split]]]].
  - eapply hpres_trans; eauto.
  - lia.
  - intros t' [<-|I]; auto.
  - simpl. split; auto. eapply rep_frame; eauto. eapply Forall_impl; [|exact F]. simpl; intros; lia.
  - simpl. apply Forall_app; split; auto. eapply Forall_impl; [|exact F2]. simpl; intros; lia.
  - split; auto.
Qed.

Lemma kid_dict_snoc l t : kid_dict (l ++ [t]) = kid_dict l ++ kid_entry t.
Proof. rewrite kid_dict_app. unfold kid_dict at 2. simpl. rewrite app_nil_r. auto. Qed.

Lemma exec_rl f : P_rc f -> P_rm f -> P_rl f -> P_rl (S f).
Proof.
  unfold P_rc, P_rm, P_rl. intros IHc IHm IHl old new infos s s' okids nx tag imp attrs js eh dk H NE OK OL En Ec Em ND FR IO.
  simpl in H. destruct infos as [|[kd k] rest].
  - inversion H; subst. exists []. rewrite app_nil_r. split; [apply kids_new_refl|].
    split; [|split; [apply texts_nil|constructor]]. rewrite En. destruct nx; simpl in *; subst; auto.
  - assert (LT : new < length (s_heap s)) by (apply nth_error_Some; congruence).
    simpl in ND. inversion ND as [|? ? NI ND']; subst. inversion IO as [|? ? IO1 IO2]; subst.
    bok H as oc s0 Hoc.
    assert (OC : s0 = s /\ told_ok (s_heap s) (opt_find k okids) oc (Some k)).
    { destruct okids as [l|]; simpl in OK.
      - destruct OK as (o & ox & -> & NEo & Eo & Co & OKo & Wo & Fo).
        bok Hoc as oy sy H1. apply get_ms_ok in H1. destruct H1 as [-> Eo']. rewrite Eo in Eo'. injection Eo' as <-.
        inversion Hoc; subst; clear Hoc. split; auto. rewrite Co, kid_dict_get by auto. simpl.
        destruct (find_key k l) eqn:EF; simpl; auto. apply find_key_In in EF. destruct EF as [I TK].
        destruct (tmid t) eqn:ET.
        + eexists; split; eauto. split; auto. split; auto. rewrite Forall_forall in Wo; auto.
        + destruct t; simpl in *; try discriminate.
      - subst old. inversion Hoc; subst. split; auto. reflexivity. }
    destruct OC as [-> OC]. clear Hoc.
    bok H as [] s1 Hk.
    assert (EX : ext s s1).
    { revert Hk. destruct (render_ext debug defs f) as (XC & XM & _).
      match goal with |- ?m _ = _ -> _ => intros Hk; assert (PM : pres ext m) end; [|exact (PM _ _ _ Hk)].
      destruct kd; repeat first [ apply XC | apply XM | apply change_ms_ext | apply unmount_ext
        | progress pres_tac ext ext_refl ext_trans | match goal with |- pres _ (match ?x with _ => _ end) => destruct x end ]. }
    assert (NE1 : no_err s1).
    { eapply no_err_ext; [|exact NE]. eapply (proj2 (proj2 (proj2 (render_ext debug defs f)))); eauto. }
    assert (K : forall t n s2,
       good_new (s_heap s) (s_heap s2) (Some new) (length dk) (ms_path nx ++ [length dk])
                (sub_keypath (ms_keypath nx) (Some k)) (Some k) t n ->
       is_node t = true ->
       (nx <- get_ms n ;; change_ms new (fun x => with_children (dset k n (ms_children x))
                          (with_model (add_child_model (ms_model nx) (ms_model x)) x))) s2 = (Ok tt, s1) ->
       exists kids, kids_new (s_heap s) (s_heap s') new (ms_path nx) (ms_keypath nx) (length dk) (t :: kids) /\
          nth_error (s_heap s') new = Some (with_children (kid_dict (dk ++ t :: kids)) (with_model
            (MNode tag imp attrs js eh (Some (map view (dk ++ t :: kids))) None) nx)) /\
          N s1 = N s2 /\ texts (flat_map comps kids) /\ rl defs (N s1) okids rest (N s') kids).
    { intros t n s2 (G1 & G2 & G3 & G4 & G5 & G6 & IC & nn & G7 & G8) NDt Hs.
      bok Hs as nx2 s3 H1. apply get_ms_ok in H1. destruct H1 as [-> E2]. rewrite G7 in E2. injection E2 as <-.
      apply change_ms_ok in Hs. destruct Hs as (x & Ex & ->).
      pose proof (G4 new nx I En) as En2. rewrite Ex in En2. injection En2 as ->.
      assert (LT2 : new < length (s_heap s2)) by lia.
      rewrite G8, Ec, Em in *. simpl in H.
      rewrite dset_fresh in H by (apply FR; simpl; auto).
      assert (KE : kid_entry t = [(k, n)]).
      { destruct t as [|m k' ? ? ? ? ? ? ? ?|m k' h c out kk]; simpl in *; try discriminate.
        - congruence.
        - subst k'. congruence. }
      assert (HP1 : hpres (fun m => m <> new) (s_heap s) (upd (s_heap s2) new
         (with_children (kid_dict dk ++ [(k, n)]) (with_model (MNode tag imp attrs js eh (Some (map view dk ++ [view t])) None) nx)))).
      { eapply hpres_trans; [eapply hpres_weaken; [|exact G4]|apply hpres_upd]. intros; exact I. }
      replace (S (length dk)) with (length (dk ++ [t])) in H by (rewrite app_length; simpl; lia).
      eapply IHl with (okids := okids) (tag := tag) (imp := imp) (attrs := attrs) (js := js) (eh := eh)
        (nx := with_children (kid_dict dk ++ [(k, n)]) (with_model
                 (MNode tag imp attrs js eh (Some (map view dk ++ [view t])) None) nx)) in H; [|exact NE|..].
      - destruct H as (kids & H1 & H2 & H3). exists kids. rewrite app_length in H1; simpl in H1.
        rewrite Nat.add_1_r in H1. simpl in H1, H2.
        split; [|split; [|split]].
        + eapply kids_new_cons; [exact HP1|rewrite upd_length; lia|exact LT|auto| | |exact IC|exact H1].
          * rewrite G2. eapply rep_frame; [apply hpres_upd|exact G3|].
            eapply Forall_impl; [|exact G6]. simpl; intros; lia.
          * exact G6.
        + rewrite <- app_assoc in H2. exact H2.
        + reflexivity.
        + exact H3.
      - eapply okids_ok_pres; eauto.
      - eapply okids_log_ext; [|exact OL]. exact EX.
      - apply nth_upd_same; auto.
      - rewrite kid_dict_snoc, KE. reflexivity.
      - simpl. rewrite map_app. reflexivity.
      - auto.
      - intros k' I' I2. rewrite kid_dict_snoc, KE in I2. unfold dkeys in I2. rewrite map_app in I2.
        apply in_app_iff in I2. destruct I2 as [I2|I2].
        + eapply FR; [right; exact I'|exact I2].
        + simpl in I2. destruct I2 as [<-|[]]. auto.
      - auto. }
    destruct kd as [r|c|x].
    + bok Hk as n s2 H1.
      assert (NE2 : no_err s2).
      { eapply no_err_ext; [|exact NE1]. bok Hk as y sy H2. apply get_ms_ok in H2. destruct H2 as [-> _].
        eapply change_ms_ext; eauto. }
      eapply IHm in H1; eauto using okids_log_find. destruct H1 as (t & G & D).
      destruct (K t n s2 G) as (kids & A1 & A2 & A3 & A4 & A5); auto.
      { destruct D as [_ D]; inversion D; subst; auto. }
      destruct D as [DT D].
      exists (t :: kids). split; auto. split; auto. split; [apply texts_app; auto|]. econstructor; eauto. rewrite <- A3. auto.
    + bok Hk as n s2 H1.
      assert (NE2 : no_err s2).
      { eapply no_err_ext; [|exact NE1]. bok Hk as y sy H2. apply get_ms_ok in H2. destruct H2 as [-> _].
        eapply change_ms_ext; eauto. }
      eapply IHc with (told := opt_find k okids) in H1; eauto using okids_log_find.
      2:{ red. exists nx. eauto. }
      destruct H1 as (t & G & D).
      destruct (K t n s2 G) as (kids & A1 & A2 & A3 & A4 & A5); auto.
      { destruct D as [_ D]; inversion D; subst; auto. }
      destruct D as [DT D].
      exists (t :: kids). split; auto. split; auto. split; [apply texts_app; auto|]. econstructor; eauto. rewrite <- A3. auto.
    + bok Hk as [] s2 H1.
      assert (U : s_heap s2 = s_heap s /\ um (N s) (otree_list (opt_find k okids)) (N s2)).
      { destruct (opt_find k okids) as [t|] eqn:EO; simpl in OC.
        - destruct OC as (o & -> & TM & W & TK). eapply exec_unmount with (ts := [t]) in H1; auto.
          simpl. rewrite TM. auto.
        - subst oc. inversion H1; subst. split; auto. constructor. }
      destruct U as [EH U]. apply change_ms_ok in Hk. destruct Hk as (y & Ey & ->).
      rewrite EH, En in Ey. injection Ey as <-. rewrite EH, Em in *. simpl in H.
      replace (S (length dk)) with (length (dk ++ [TText x])) in H by (rewrite app_length; simpl; lia).
      eapply IHl with (okids := okids) (tag := tag) (imp := imp) (attrs := attrs) (js := js) (eh := eh)
        (nx := with_model (MNode tag imp attrs js eh (Some (map view dk ++ [MText x])) None) nx) in H; [|exact NE|..].
      * destruct H as (kids & H2 & H3 & H4). exists (TText x :: kids). rewrite app_length in H2; simpl in H2.
        rewrite Nat.add_1_r in H2. simpl in H2, H3.
        split; [|split].
        -- eapply kids_new_cons; [apply hpres_upd|rewrite upd_length; lia|exact LT|eauto| | |exact I|exact H2].
           ++ Transparent rep. exact I. Opaque rep.
           ++ constructor.
        -- rewrite <- app_assoc in H3. exact H3.
        -- split; [exact (proj1 H4)|econstructor; eauto; exact (proj2 H4)].
      * eapply okids_ok_pres; [apply hpres_upd|]; auto.
      * eapply okids_log_ext; [exact EX|exact OL].
      * apply nth_upd_same; auto.
      * rewrite kid_dict_snoc. simpl. rewrite app_nil_r. auto.
      * simpl. rewrite map_app. reflexivity.
      * auto.
      * intros k' I' I2. rewrite kid_dict_snoc in I2. simpl in I2. rewrite app_nil_r in I2.
        eapply FR; [right; exact I'|exact I2].
      * auto.
Qed.

Lemma exec_rk f : P_rl f -> P_rk (S f).
Proof.
  unfold P_rl, P_rk. intros IHl old new raws s s' okids nx tag imp attrs js eh H NE OK OL En Ec Em. simpl in H.
  destruct (has_duplicates (map snd (children_infos 0 raws))) eqn:ED; [discriminate|].
  apply has_duplicates_NoDup in ED.
  bok H as [] s1 Hg.
  assert (EX : ext s s1).
  { match type of Hg with ?m _ = _ => assert (PM : pres ext m) end; [|exact (PM _ _ _ Hg)].
    repeat first [ apply unmount_ext | progress pres_tac ext ext_refl ext_trans
                 | match goal with |- pres _ (match ?x with _ => _ end) => destruct x end ]. }
  assert (U : s_heap s1 = s_heap s /\ um (N s) (gone (map snd (children_infos 0 raws)) okids) (N s1)).
  { destruct okids as [l|]; simpl in OK.
    - destruct OK as (o & ox & -> & NEo & Eo & Co & OKo & Wo & Fo).
      bok Hg as oy sy H1. apply get_ms_ok in H1. destruct H1 as [-> Eo']. rewrite Eo in Eo'. injection Eo' as <-.
      assert (Q : map tmid (gone (map snd (children_infos 0 raws)) (Some l)) =
                  map Some (dvals (filter (fun km => negb (mem (fst km) (map snd (children_infos 0 raws)))) (ms_children ox)))).
      { rewrite Co. clear - OKo. induction l as [|t l IH]; simpl; auto.
        assert (OKl : kids_ok l) by (intros t' I; apply OKo; right; auto).
        specialize (IH OKl). simpl in IH. unfold kid_dict in *. simpl. rewrite filter_app. unfold dvals in *. rewrite !map_app, <- IH.
        destruct t as [?|m k' ? ? ? ? ? ? ? ?|m k' h c out kids]; simpl; auto.
        - destruct (mem k' _); simpl; auto.
        - destruct k' as [k'|]; simpl; auto. destruct (mem k' _); simpl; auto. }
      assert (W : Forall (somewhere (s_heap s)) (gone (map snd (children_infos 0 raws)) (Some l))).
      { simpl. apply Forall_filter; auto. }
      destruct (dvals _) eqn:EV in Hg.
      + rewrite EV in Q. inversion Hg; subst. split; auto.
        destruct (gone _ _); [constructor|discriminate].
      + rewrite EV in Q. eapply exec_unmount in Hg; eauto.
    - subst old. inversion Hg; subst. split; auto. constructor. }
  destruct U as [EH U].
  destruct raws as [|r raws].
  - inversion H; subst. exists []. rewrite EH. split; [apply kids_new_refl|]. split; [|split].
    + rewrite En. destruct nx; simpl in *; subst; auto.
    + apply texts_nil.
    + econstructor; eauto. constructor.
  - bok H as [] s2 H1. apply change_ms_ok in H1. destruct H1 as (y & Ey & ->).
    rewrite EH, En in Ey. injection Ey as <-. rewrite EH, Em in *. simpl start_children in H.
    assert (LT : new < length (s_heap s)) by (apply nth_error_Some; congruence).
    apply IHl with (dk := []) (okids := okids) (tag := tag) (imp := imp) (attrs := attrs) (js := js) (eh := eh)
      (nx := with_model (MNode tag imp attrs js eh (Some []) None) nx) in H; auto.
    + destruct H as (kids & H2 & H3 & H4). exists kids.
      destruct H2 as (A1 & A2 & A3 & A4 & A5 & A6). simpl in A1, A2, A4, A5. rewrite upd_length in A2, A5.
      split; [|split; [|split]].
      * split; [eapply hpres_trans; [apply hpres_upd|exact A1]|]. repeat (split; auto).
      * exact H3.
      * exact (proj1 H4).
      * econstructor; eauto. exact (proj2 H4).
    + simpl. eapply okids_ok_pres; [apply hpres_upd|]; auto.
    + eapply okids_log_ext; [exact EX|exact OL].
    + apply nth_upd_same; auto.
    + apply children_infos_ok.
Qed.

(** The model of a component whose render ended as [r]. *)
Definition cview (r : fate) (kids : list tree) : model :=
  match r with
  | Returned _ => MNode "" None None None None (Some (map view kids)) None
  | Failed _ x => MNode "" None None None None None (Some x)
  end.
Lemma error_model_text e : exists x, error_model debug e = MNode "" None None None None None (Some x) /\ error_text debug e x.
Proof. unfold error_model, error_text. destruct debug; eexists; split; try reflexivity. destruct e; auto. Qed.

Lemma no_err_heap hp s : no_err (set_heap hp s) <-> no_err s.
Proof. reflexivity. Qed.

Lemma exec_tail f new old' h c s n s' x okids : P_rk f ->
  (modify (fun s => set_reg (dset h new (s_reg s)) s) ;;
   will_render h ;;
   modify (fun s => set_exit (h :: s_exit s) s) ;;
   finally
     (catch
        (log (EvRender h) ;;
         r <- run_body h (render_fn defs c) ;;
         log (EvReturn h r) ;;
         change_ms new (with_model empty_model) ;;
         render_children debug defs f old' new [r])
        (fun e => log (EvError h e) ;; change_ms new (with_model (error_model debug e))))
     (did_render h) ;;
   ret new) s = (Ok n, s') ->
  no_err s' -> nth_error (s_heap s) new = Some x -> ms_children x = [] -> okids_ok (s_heap s) new okids old' ->
  okids_log s okids -> (forall l, okids = Some l -> forallb inertb l = true \/ ok_render (s_log s) h) ->
  n = new /\ exists s2 r s3 kids,
    enter defs h c (set_reg (dset h new (s_reg (N s))) (N s)) r (N s2) /\
    match r with Returned _ => True | Failed _ _ => forallb inertb (match okids with Some l => l | None => [] end) = true end /\
    match r with Returned _ => True | Failed e x => error_text debug e x /\ kids = [] end /\
    texts (flat_map comps kids) /\ rk defs (N s2) okids (outs r) (N s3) kids /\ did_render h (N s3) = (Ok tt, N s') /\ kids_new (s_heap s) (s_heap s') new (ms_path x) (ms_keypath x) 0 kids /\ nth_error (s_heap s') new = Some (with_children (kid_dict kids) (with_model
       (cview r kids) x)).
Proof.
  unfold P_rk. intros IHk H NE Ex Ec OK OL OH.
  bok H as [] s1 H1. injection H1 as <-.
  bok H as [] sa Ha.
  bok H as [] s2 H1. injection H1 as <-.
  bok H as [] s2 Hf. injection H as <- <-. split; auto.
  apply finally_ok in Hf. destruct Hf as (s3 & Hc & Hd).
  assert (NE3 : no_err s3) by (eapply no_err_ext; [eapply did_render_ext; eauto|auto]).
  unfold catch in Hc.
  match type of Hc with context [match ?m ?a with _ => _ end] => destruct (m a) as [[[]|e|] sb] eqn:Hb end;
    try discriminate.
  2:{ bok Hc as [] s4 H1. injection H1 as <-. apply change_ms_ok in Hc. destruct Hc as (y & Ey & ->). simpl in Ey.
      destruct (NE3 (s_log sb) h e [] eq_refl) as [RE NR].
      assert (Hr : run_body h (render_fn defs c) (set_log (s_log sa ++ [EvRender h]) (set_exit (h :: s_exit sa) sa)) = (Raise e, sb)).
      { unfold bind at 1 in Hb. simpl in Hb. unfold bind at 1 in Hb.
        destruct (run_body _ _ _) as [[r|e'|] s5] eqn:Er in Hb; [|injection Hb as <- <-; exact Er|discriminate].
        exfalso. refine (calm_bind _ _ _ _ _ _ _ Hb RE); [repeat calm_step|intros; apply calm_bind; [apply calm_change_ms|intros; apply calm_render]]. }
      pose proof (hfree_heap _ _ _ _ (hfree_will_render _) Ha) as E1. simpl in E1.
      pose proof (hfree_heap _ _ _ _ (hfree_run_body _ _) Hr) as E2. simpl in E2.
      pose proof (hfree_heap _ _ _ _ (hfree_did_render _) Hd) as E3.
      assert (LT : new < length (s_heap s)) by (apply nth_error_Some; congruence).
      rewrite E2, E1, Ex in Ey. injection Ey as <-.
      destruct (error_model_text e) as (text & ET & ER).
      assert (OE : forallb inertb (match okids with Some l => l | None => [] end) = true).
      { destruct okids as [l|]; auto. destruct (OH l eq_refl) as [->|(r & JR & NP)]; auto. exfalso.
        assert (LB : s_log sb = s_log s ++ [EvRender h]).
        { apply will_render_facts in Ha. destruct Ha as (_ & _ & L1 & _).
          apply quiet_run_body in Hr. destruct Hr as (_ & _ & L2 & _). simpl in *. congruence. }
        apply NP, NR. rewrite LB. apply in_or_app. left. exact JR. }
      eexists (set_log (s_log sb ++ [EvError h e]) sb), (Failed e text), _, [].
      split; [|split; [exact OE|split; [auto|split; [apply texts_nil|split; [|split; [apply hfree_N; [apply hfree_did_render|exact Hd]|split]]]]]].
      - exists (N sa), (Raise e), (N sb). split; [apply (hfree_N _ _ _ _ (hfree_will_render h) Ha)|].
        split; [apply (hfree_N _ _ _ _ (hfree_run_body h _) Hr)|]. split; reflexivity.
      - simpl. econstructor; [constructor| |constructor]. simpl. rewrite N_set_heap.
        destruct okids as [l|]; simpl; [|constructor]. eapply um_inert; [apply le_n| |].
        + apply forallb_forall. intros t J. apply filter_In in J. rewrite forallb_forall in OE. apply OE, J.
        + apply Forall_forall. intros t J. apply filter_In in J. destruct J as [_ J].
          destruct t as [?|? ? ? ? ? ? ? ? ? ?|? [?|] ? ? ? ?]; simpl in *; congruence.
      - rewrite E3. simpl. rewrite E2, E1. destruct (kids_new_refl (s_heap s) new (ms_path x) (ms_keypath x) 0) as (_ & _ & Q3 & _ & Q5 & Q6).
        split; [apply hpres_upd|]. split; [rewrite upd_length; lia|]. split; [exact Q3|].
        split; [|split; [exact Q5|exact Q6]]. exact I.
      - rewrite E3. simpl. rewrite E2, E1, nth_upd_same by auto. rewrite ET.
        unfold with_children, with_model; simpl. rewrite Ec. reflexivity. }
  injection Hc as ->.
  bok Hb as [] s4 H1. injection H1 as <-. bok Hb as r s5 Hr. bok Hb as [] s7 H1. injection H1 as <-. bok Hb as [] s6 H1.
  pose proof (hfree_heap _ _ _ _ (hfree_will_render _) Ha) as E1. simpl in E1.
  pose proof (hfree_heap _ _ _ _ (hfree_run_body _ _) Hr) as E2. simpl in E2.
  pose proof (hfree_heap _ _ _ _ (hfree_did_render _) Hd) as E3.
  assert (LT : new < length (s_heap s)) by (apply nth_error_Some; congruence).
  apply change_ms_ok in H1. destruct H1 as (y & Ey & ->).
  simpl s_heap in Ey, Hb. rewrite E2, E1, Ex in Ey. injection Ey as <-. rewrite E2, E1 in Hb.
  eapply IHk with (okids := okids) (nx := with_model empty_model x) in Hb; eauto.
  2:{ simpl. eapply okids_ok_pres; [apply hpres_upd|]; auto. }
  2:{ eapply okids_log_ext; [|exact OL]. eapply ext_trans; [apply (will_render_ext _ _ _ _ Ha)|].
      eapply ext_trans; [|eapply ext_trans; [apply (run_body_ext _ _ _ _ _ Hr)|exists [EvReturn h r]; reflexivity]]. exists [EvRender h]. reflexivity. }
  2:{ apply nth_upd_same; auto. }
  2:{ reflexivity. }
  destruct Hb as (kids & B1 & B2 & B4 & B3). simpl in B1, B2, B3.
  exists (set_log (s_log s5 ++ [EvReturn h r]) s5), (Returned r), s3, kids. rewrite E3.
  split; [|split; [exact I|split; [exact I|split; [exact B4|split; [exact B3|split; [|split]]]]]].
  - exists (N sa), (Ok r), (N s5). split; [apply (hfree_N _ _ _ _ (hfree_will_render h) Ha)|].
    split; [apply (hfree_N _ _ _ _ (hfree_run_body h _) Hr)|]. split; reflexivity.
  - apply hfree_N; auto using hfree_did_render.
  - destruct B1 as (A1 & A2 & A3 & A4 & A5 & A6). rewrite upd_length in A2, A5.
    split; [eapply hpres_trans; [apply hpres_upd|exact A1]|]. repeat (split; auto).
  - exact B2.
Qed.

Lemma hpres_new hp x hp' : hpres (fun m => m <> length hp) (hp ++ [x]) hp' -> hpres all hp hp'.
Proof.
  intros H m y _ E. assert (LT : m < length hp) by (apply nth_error_Some; congruence).
  apply H; [lia|]. rewrite nth_error_app1; auto.
Qed.
Lemma nth_new {A} (hp : list A) x : nth_error (hp ++ [x]) (length hp) = Some x.
Proof. rewrite nth_error_app2, Nat.sub_diag; auto. Qed.

Lemma tkids_mids t : Forall (fun m => In m (mids t)) (flat_map mids (tkids t)).
Proof. apply Forall_forall. destruct t; simpl; intros; auto; contradiction. Qed.

Lemma Forall_weaken {A} (P Q : A -> Prop) l : (forall x, P x -> Q x) -> Forall P l -> Forall Q l.
Proof. intros W H. eapply Forall_impl; eauto. Qed.

Lemma somewhere_app hp x t : somewhere hp t -> somewhere (hp ++ [x]) t.
Proof. intros W. eapply somewhere_frame; [apply hpres_app|exact W|apply all_Forall]. Qed.

(** The children of an old node [t] may serve as old children. *)
Lemma okids_of_elem hp x o m k tag imp attrs js kp hs has kids :
  tmid (TElem m k tag imp attrs js kp hs has kids) = Some o ->
  somewhere hp (TElem m k tag imp attrs js kp hs has kids) ->
  okids_ok (hp ++ [x]) (length hp) (Some kids) (Some o).
Proof.
  intros E W. simpl in E. injection E as <-.
  pose proof (somewhere_kids_elem _ _ _ _ _ _ _ _ _ _ _ W) as Wk.
  destruct W as (par & i & path & kp' & R).
  pose proof (rep_bound _ _ _ _ _ _ R) as B. simpl in B. inversion B; subst.
  apply rep_elem in R. destruct R as (-> & (md & Nx) & OK & L). simpl.
  exists m. eexists. split; auto. split; [lia|]. split; [apply hpres_app with (P := all); [exact I|exact Nx]|].
  simpl. repeat (split; auto).
  - eapply Forall_weaken; [|exact Wk]. intros; apply somewhere_app; auto.
  - eapply Forall_weaken; [|exact H2]. simpl; intros; lia.
Qed.
Lemma okids_of_comp hp x o m k h c out kids :
  tmid (TComp m k h c out kids) = Some o ->
  somewhere hp (TComp m k h c out kids) ->
  okids_ok (hp ++ [x]) (length hp) (Some kids) (Some o).
Proof.
  intros E W. simpl in E. injection E as <-.
  pose proof (somewhere_kids_comp _ _ _ _ _ _ _ W) as Wk.
  destruct W as (par & i & path & kp' & R).
  pose proof (rep_bound _ _ _ _ _ _ R) as B. simpl in B. inversion B; subst.
  apply rep_comp in R. destruct R as ((md & Nx) & OK & L). simpl.
  exists m. eexists. split; auto. split; [lia|]. split; [apply hpres_app with (P := all); [exact I|exact Nx]|].
  simpl. repeat (split; auto).
  - eapply Forall_weaken; [|exact Wk]. intros; apply somewhere_app; auto.
  - eapply Forall_weaken; [|exact H2]. simpl; intros; lia.
Qed.

Lemma good_comp hp x hp' parent i path kp k h c r kids :
  x = MState parent i k path kp empty_model [] [] (Some (h, c)) ->
  kids_new (hp ++ [x]) hp' (length hp) path kp 0 kids ->
  nth_error hp' (length hp) = Some (with_children (kid_dict kids) (with_model (cview r kids) x)) ->
  good_new hp hp' parent i path kp k (TComp (length hp) k h c r kids) (length hp).
Proof.
  intros -> (A1 & A2 & A3 & A4 & A5 & A6) E. rewrite app_length in A2, A5; simpl in A2, A5.
  split; auto. split; auto. split; [|split; [|split; [|split; [|split]]]].
  - apply rep_comp. split; [eexists; exact E|]. split; auto.
  - eapply hpres_new; eauto.
  - lia.
  - simpl. constructor; auto. eapply Forall_weaken; [|exact A5]. simpl; intros; lia.
  - simpl. split; auto. eapply Forall_weaken; [|exact A5]. simpl; intros; lia.
  - eexists; split; [exact E|]. destruct r; reflexivity.
Qed.
Lemma texts_comp m k h c r kids :
  match r with Returned _ => True | Failed e x => error_text debug e x /\ kids = [] end ->
  texts (flat_map comps kids) -> texts (comps (TComp m k h c r kids)).
Proof.
  intros T K h' m' c' e x I. simpl in I. destruct I as [I|I]; [|eapply K; eauto].
  injection I as <- <- <- ->. apply T.
Qed.

Lemma new_ms_ok x s n s' : new_ms x s = (Ok n, s') -> n = length (s_heap s) /\ s' = set_heap (s_heap s ++ [x]) s.
Proof. unfold new_ms. intros H; inversion H; auto. Qed.

Lemma exec_rc f : P_rk f -> P_rc (S f).
Proof.
  intros IHk. red. intros old parent i k c s n s' told path kp H NE TO TL PO. simpl in H.
  bok H as no s1 Hs. bok H as nx s2 H1. apply get_ms_ok in H1. destruct H1 as [-> Enx].
  (* the fresh case *)
  assert (EX : ext s s1).
  { match type of Hs with ?m _ = _ => assert (PM : pres ext m) end; [|exact (PM _ _ _ Hs)].
    repeat first [ apply unmount_ext | apply new_ms_ext | apply new_hook_ext | progress pres_tac ext ext_refl ext_trans
                 | match goal with |- pres _ (match ?x with _ => _ end) => destruct x end ]. }
  assert (FRESH : forall s0, s_heap s0 = s_heap s ->
     (told = None /\ N s0 = N s \/ exists t, told = Some t /\ ~ same_comp t c /\ um (N s) [t] (N s0)) ->
     match parent with
     | Some p => pm <- get_ms p ;; h <- new_hook ;; n <- new_ms (make_component_ms p pm i k h c) ;; ret (n, None)
     | None => raise EBadVdom
     end s0 = (Ok no, s1) ->
     exists t, good_new (s_heap s) (s_heap s') parent i path kp k t n /\ texts (comps t) /\ rc defs (N s) told k c (N s') t).
  { intros s0 EH0 D0 HF. destruct parent as [p|]; [|discriminate].
    destruct PO as (pm & Ep & -> & ->).
    bok HF as pm' sy H1. apply get_ms_ok in H1. destruct H1 as [-> Ep']. rewrite EH0, Ep in Ep'. injection Ep' as <-.
    bok HF as h sh H1. injection H1 as <- <-.
    bok HF as m sm H1. apply new_ms_ok in H1. destruct H1 as [-> ->]. injection HF as <- <-. simpl in *.
    rewrite EH0 in *. rewrite nth_new in Enx. injection Enx as <-. simpl in H.
    eapply exec_tail with (okids := None) in H;
      [|exact IHk|exact NE|simpl; apply nth_new|reflexivity|reflexivity|constructor|discriminate].
    destruct H as (-> & s3 & r & s4 & kids & A1 & _ & AT & AK & A2 & A3 & A4 & A5). simpl in A4, A5.
    eexists. split; [eapply good_comp; eauto; reflexivity|]. split; [apply texts_comp; auto|].
    eapply rc_fresh with (s0 := N s0); eauto. }
  destruct told as [t|]; simpl in TO.
  - destruct TO as (o & -> & TM & W & TK).
    bok Hs as ox s2 H1. apply get_ms_ok in H1. destruct H1 as [-> Eo].
    assert (UM : forall u sx, unmount f [o] s = (Ok u, sx) -> s_heap sx = s_heap s /\ um (N s) [t] (N sx)).
    { intros [] sx U. eapply exec_unmount with (ts := [t]) in U; auto. simpl. rewrite TM. auto. }
    destruct t as [txt|m0 k0 tag imp attrs js kp0 hs has okids|m0 k0 h c0 out0 okids]; simpl in TM; [discriminate| |];
      injection TM as ->.
    + pose proof W as W0. destruct W0 as (par0 & i0 & path0 & kp1 & R0). apply rep_elem in R0.
      destruct R0 as (-> & (md & Nx) & _). rewrite Eo in Nx. injection Nx as ->. simpl in Hs.
      bok Hs as u sx U. apply UM in U. destruct U as [EH U].
      eapply FRESH; [exact EH| |exact Hs]. right. eexists; split; eauto.
    + pose proof W as W0. destruct W0 as (par0 & i0 & path0 & kp1 & R0). pose proof R0 as R1. apply rep_comp in R0.
      destruct R0 as ((md & Nx) & _). rewrite Eo in Nx. injection Nx as ->. simpl in Hs.
      simpl in TK. subst k0.
      destruct (eq_dec (ci_type c0) (ci_type c)) as [ET|NT].
      * assert (X : exists x, no = (length (s_heap s), Some o) /\ s1 = set_heap (s_heap s ++ [x]) s /\
                               x = MState parent i k path kp empty_model [] [] (Some (h, c))).
        { destruct parent as [p|].
          - destruct PO as (pm & Ep & -> & ->).
            bok Hs as pm' sy H1. apply get_ms_ok in H1. destruct H1 as [-> Ep']. rewrite Ep in Ep'. injection Ep' as <-.
            bok Hs as m sm H1. apply new_ms_ok in H1. destruct H1 as [-> ->]. injection Hs as <- <-.
            eexists. split; auto.
          - destruct PO as (t & Et & R2 & _). injection Et as <-. apply rep_comp in R2.
            destruct R2 as ((md2 & Nx2) & _). rewrite Eo in Nx2. injection Nx2 as -> -> -> -> ->.
            bok Hs as m sm H1. apply new_ms_ok in H1. destruct H1 as [-> ->]. injection Hs as <- <-.
            eexists. split; auto. }
        destruct X as (x & -> & -> & Ex). simpl in *. rewrite nth_new in Enx. injection Enx as <-.
        rewrite Ex in H. simpl in H. rewrite <- Ex in H.
        eapply exec_tail with (okids := Some okids) in H;
          [|exact IHk|exact NE|simpl; apply nth_new|rewrite Ex; reflexivity|simpl; eapply okids_of_comp; eauto; reflexivity| |].
        2:{ unfold told_log in TL. simpl in TL. rewrite app_nil_r in TL. apply Forall_app in TL. apply TL. }
        2:{ intros l El. injection El as <-. destruct (forallb inertb okids) eqn:EI; auto. right.
            unfold told_log in TL. simpl in TL. rewrite EI in TL. inversion TL; auto. }
        destruct H as (-> & s3 & r & s4 & kids & A1 & AF & AT & AK & A2 & A3 & A4 & A5). simpl in A4, A5.
        rewrite Ex in A4 at 2 3. simpl in A4.
        eexists. split; [eapply good_comp; eauto|]. split; [apply texts_comp; auto|].
        eapply rc_same; eauto.
      * bok Hs as u sx U. apply UM in U. destruct U as [EH U].
        eapply FRESH; [exact EH| |exact Hs]. right. eexists; split; eauto.
  - subst old. eapply FRESH; [reflexivity| |exact Hs]. auto.
Qed.

Lemma good_elem hp x hp' p i path kp k tag imp attrs js hs has kids :
  ms_parent x = Some p -> ms_index x = i -> ms_key x = Some k -> ms_path x = path -> ms_keypath x = kp ->
  ms_targets x = targets kp hs -> ms_lcs x = None ->
  kids_new (hp ++ [x]) hp' (length hp) path kp 0 kids ->
  nth_error hp' (length hp) = Some (with_children (kid_dict kids) (with_model
       (MNode tag imp attrs js (match hs with [] => None | _ => Some (hjsons kp hs) end)
              (if has : bool then Some (map view kids) else None) None) x)) ->
  good_new hp hp' (Some p) i path kp (Some k) (TElem (length hp) k tag imp attrs js kp hs has kids) (length hp).
Proof.
  intros E1 E2 E3 E4 E5 E6 E7 (A1 & A2 & A3 & A4 & A5 & A6) E. rewrite app_length in A2, A5; simpl in A2, A5.
  unfold with_children, with_model in E. simpl in E. rewrite E1, E2, E3, E4, E5, E6, E7 in E.
  split; auto. split; auto. split; [|split; [|split; [|split; [|split]]]].
  - apply rep_elem. split; auto. split; [eexists; exact E|]. split; auto.
  - eapply hpres_new; eauto.
  - lia.
  - simpl. constructor; auto. eapply Forall_weaken; [|exact A5]. simpl; intros; lia.
  - simpl. split; auto. eapply Forall_weaken; [|exact A5]. simpl; intros; lia.
  - eexists; split; [exact E|]. reflexivity.
Qed.

Lemma upd_new {A} (hp : list A) x y : upd (hp ++ [x]) (length hp) y = hp ++ [y].
Proof. induction hp; simpl; auto. rewrite IHhp; auto. Qed.

Lemma exec_rm f : P_rk f -> P_rm (S f).
Proof.
  unfold P_rk. intros IHk. red. intros old p i k r s n s' told pm H NE TO TL Ep IO. simpl in H.
  destruct IO as (tag & attrs & hs & js & imp & ch & -> & AK). simpl in AK.
  bok H as no s1 Hs.
  set (x0 := MState (Some p) i (Some k) (ms_path pm ++ [i]) (sub_keypath (ms_keypath pm) (Some k)) empty_model [] [] None).
  assert (X : exists s0, s_heap s0 = s_heap s /\ s1 = set_heap (s_heap s ++ [x0]) s0 /\ fst no = length (s_heap s) /\
     ((snd no = None /\ (told = None /\ N s0 = N s \/ exists t, told = Some t /\ ~ is_elem t /\ um (N s) [t] (N s0))) \/
      (s0 = s /\ exists m0 tag0 imp0 attrs0 js0 kp0 hs0 has0 okids,
          told = Some (TElem m0 k tag0 imp0 attrs0 js0 kp0 hs0 has0 okids) /\ snd no = Some m0 /\
          somewhere (s_heap s) (TElem m0 k tag0 imp0 attrs0 js0 kp0 hs0 has0 okids)))).
  { destruct told as [t|]; simpl in TO.
    - destruct TO as (o & -> & TM & W & TK).
      bok Hs as ox s2 H1. apply get_ms_ok in H1. destruct H1 as [-> Eo].
      destruct t as [txt|m0 k0 tag0 imp0 attrs0 js0 kp0 hs0 has okids|m0 k0 h c0 out0 okids]; simpl in TM; [discriminate| |];
        injection TM as ->.
      + pose proof W as W0. destruct W0 as (par0 & i0 & path0 & kp1 & R0). apply rep_elem in R0.
        destruct R0 as (-> & (md & Nx) & _). rewrite Eo in Nx. injection Nx as ->. simpl in Hs.
        simpl in TK. injection TK as ->.
        bok Hs as pm' sy H1. apply get_ms_ok in H1. destruct H1 as [-> Ep']. rewrite Ep in Ep'. injection Ep' as <-.
        bok Hs as m sm H1. apply new_ms_ok in H1. destruct H1 as [-> ->]. injection Hs as <- <-.
        exists s. split; auto. split; auto. split; auto. right. split; auto. exists o, tag0, imp0, attrs0, js0, kp1, hs0, has, okids. auto.
      + pose proof W as W0. destruct W0 as (par0 & i0 & path0 & kp1 & R0). apply rep_comp in R0.
        destruct R0 as ((md & Nx) & _). rewrite Eo in Nx. injection Nx as ->. simpl in Hs.
        bok Hs as [] s2 U. eapply exec_unmount with (ts := [TComp o k0 h c0 out0 okids]) in U; auto.
        destruct U as [EH U].
        bok Hs as pm' sy H1. apply get_ms_ok in H1. destruct H1 as [-> Ep']. rewrite EH, Ep in Ep'. injection Ep' as <-.
        bok Hs as m sm H1. apply new_ms_ok in H1. destruct H1 as [-> ->]. injection Hs as <- <-.
        exists s2. rewrite EH. split; [auto|]. split; [auto|]. split; [auto|]. left. split; [auto|]. right. eexists; split; eauto.
    - subst old.
      bok Hs as pm' sy H1. apply get_ms_ok in H1. destruct H1 as [-> Ep']. rewrite Ep in Ep'. injection Ep' as <-.
      bok Hs as m sm H1. apply new_ms_ok in H1. destruct H1 as [-> ->]. injection Hs as <- <-.
      exists s. split; [auto|]. split; [auto|]. split; [auto|]. left. auto. }
  destruct X as (s0 & EH & -> & En & CASES).
  destruct no as [new old']. simpl in En, CASES, H. subst new.
  bok H as [] s2 Hk.
  assert (s2 = set_heap (s_heap s ++ [x0]) s0).
  { destruct (attr_key attrs) eqn:EA.
    - apply change_ms_ok in Hk. destruct Hk as (y & Ey & ->). simpl in Ey. rewrite nth_new in Ey. injection Ey as <-.
      specialize (AK _ eq_refl). subst k0. simpl. rewrite upd_new. reflexivity.
    - inversion Hk; auto. }
  subst s2. clear Hk.
  bok H as [] s3 Ha. bok H as [] s4 Hc. injection H as <- <-.
  assert (HASE : forall kids : list tree, (match (match ch with Some l => l | None => [] end) with [] => None | _ :: _ => Some (map view kids) end)
                 = (if (match ch with Some (_ :: _) => true | _ => false end) then Some (map view kids) else None)).
  { destruct ch as [[|]|]; auto. }
  destruct CASES as [(-> & D)|(-> & m0 & tag0 & imp0 & attrs0 & js0 & kp0 & hs0 & has0 & okids & -> & -> & W)].
  - eapply exec_attrs with (ots := []) in Ha; [|simpl; apply nth_new|reflexivity|reflexivity].
    destruct Ha as (sd & Hd & ->). simpl in Hd. injection Hd as <-. simpl in Hc.
    rewrite upd_new in Hc.
    eapply IHk with (okids := None) in Hc; [|exact NE|reflexivity|constructor|simpl; apply nth_new|reflexivity|reflexivity].
    destruct Hc as (kids & B1 & B2 & BT & B3). simpl in B1, B2. rewrite HASE in B2.
    eexists. split; [eapply good_elem with (x := with_model _ (with_targets _ x0)); try reflexivity; [exact B1|exact B2]|].
    split; [exact BT|].
    eapply rm_fresh with (s0 := N s0); eauto.
  - eapply exec_attrs with (ots := targets kp0 hs0) in Ha; [|simpl; apply nth_new|reflexivity|].
    2:{ destruct W as (par0 & i0 & path0 & kp1 & R0). apply rep_elem in R0.
        destruct R0 as (-> & (md & Nx) & _). eexists. split; [apply hpres_app with (P := all); [exact I|exact Nx]|].
        reflexivity. }
    destruct Ha as (sd & Hd & ->). simpl in Hc. rewrite upd_new in Hc.
    eapply IHk with (okids := Some okids) in Hc;
      [|exact NE|simpl; eapply okids_of_elem; eauto; reflexivity| |simpl; apply nth_new|reflexivity|reflexivity].
    2:{ apply (okids_log_ext s). { destruct (del_handlers_ext _ _ _ _ Hd) as [lx EL]. exists lx. exact EL. }
        unfold told_log in TL. simpl in TL. rewrite app_nil_r in TL. exact TL. }
    destruct Hc as (kids & B1 & B2 & BT & B3). simpl in B1, B2. rewrite HASE in B2.
    eexists. split; [eapply good_elem with (x := with_model _ (with_targets _ x0)); try reflexivity; [exact B1|exact B2]|].
    split; [exact BT|].
    apply hfree_N in Hd; [|apply hfree_del_handlers]. rewrite N_set_heap in Hd.
    eapply rm_same with (s0 := N sd); eauto.
Qed.

Theorem exec f : P_rc f /\ P_rm f /\ P_rk f /\ P_rl f.
Proof.
  induction f as [|f (A & B & C & D)].
  - unfold P_rc, P_rm, P_rk, P_rl. repeat split; intros; simpl in *; discriminate.
  - auto using exec_rc, exec_rm, exec_rk, exec_rl.
Qed.

End Exec.
