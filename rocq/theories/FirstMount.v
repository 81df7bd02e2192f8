(** * The first mount; proof-side only *)
From Coq Require Import String ZArith Bool Arith Lia List.
From Verif Require Import Dict Strings LayoutTypes LayoutModel BodySpec DisplaySpec GuardSpec LayoutObs LayoutTree LayoutDeriv LayoutExec
  LayoutFacts LayoutSettled LayoutContext LayoutHandlers LayoutShape ChildrenFacts MountSpec.
Import ListNotations.
Local Open Scope string_scope.
Local Open Scope list_scope.

Lemma bind_ok {A B} (m : M A) (f : A -> M B) s a s1 : m s = (Ok a, s1) -> bind m f s = f a s1.
Proof. intros E. unfold bind. rewrite E. reflexivity. Qed.
Lemma bind_raise {A B} (m : M A) (f : A -> M B) s e s1 : m s = (Raise e, s1) -> bind m f s = (Raise e, s1).
Proof. intros E. unfold bind. rewrite E. reflexivity. Qed.
Lemma bind_fuel {A B} (m : M A) (f : A -> M B) s s1 : m s = (Fuel, s1) -> bind m f s = (Fuel, s1).
Proof. intros E. unfold bind. rewrite E. reflexivity. Qed.
Lemma bind_assoc {A B C} (m : M A) (f : A -> M B) (g : B -> M C) s : bind (bind m f) g s = bind m (fun a => bind (f a) g) s.
Proof. unfold bind. destruct (m s) as [[a|e|] s1]; reflexivity. Qed.

(** ** Frame *)

Record fr (P : nat -> Prop) (s s' : st) : Prop := {
  f_len : length (s_heap s) <= length (s_heap s');
  f_heap : forall m, m < length (s_heap s) -> P m -> nth_error (s_heap s') m = nth_error (s_heap s) m;
  f_stack : s_stack s' = s_stack s;
  f_hooks : length (s_hooks s) <= length (s_hooks s');
  f_ctx : forall h, h < length (s_hooks s) -> hk_ctx (get_hook h s') = hk_ctx (get_hook h s)
}.

Lemma fr_refl P s : fr P s s.
Proof. constructor; auto. Qed.
Lemma fr_trans P a b c : fr P a b -> fr P b c -> fr P a c.
Proof.
  intros [A1 A2 A3 A4 A5] [B1 B2 B3 B4 B5]. constructor; [lia| |congruence|lia|].
  - intros m L Pm. rewrite B2 by (auto; lia). auto.
  - intros h L. rewrite B5 by lia. auto.
Qed.
Lemma fr_trans' (P Q : nat -> Prop) a b c : fr P a b -> fr Q b c -> (forall m, m < length (s_heap a) -> P m -> Q m) -> fr P a c.
Proof.
  intros [A1 A2 A3 A4 A5] [B1 B2 B3 B4 B5] W. constructor; [lia| |congruence|lia|].
  - intros m L Pm. rewrite B2 by (auto; lia). auto.
  - intros h L. rewrite B5 by lia. auto.
Qed.
Lemma fr_weaken (P Q : nat -> Prop) s s' : (forall m, m < length (s_heap s) -> Q m -> P m) -> fr P s s' -> fr Q s s'.
Proof. intros W [A1 A2 A3 A4 A5]. constructor; auto. Qed.

(** Steps that touch neither heap nor contexts nor the stack. *)
Definition calm (s s' : st) : Prop :=
  s_heap s' = s_heap s /\ s_stack s' = s_stack s /\ length (s_hooks s') = length (s_hooks s) /\
  (forall h, hk_ctx (get_hook h s') = hk_ctx (get_hook h s)) /\
  (forall h, hk_cells (get_hook h s) = [] -> get_hook h s' = get_hook h s).
Lemma calm_refl s : calm s s.
Proof. repeat split; auto. Qed.
Lemma calm_trans a b c : calm a b -> calm b c -> calm a c.
Proof.
  intros (A1 & A2 & A3 & A4 & A5) (B1 & B2 & B3 & B4 & B5). split; [congruence|]. split; [congruence|]. split; [congruence|]. split.
  - intros h. rewrite B4; auto.
  - intros h E. rewrite <- (A5 h E). apply B5. rewrite A5; auto.
Qed.
Lemma calm_fr P s s' : calm s s' -> fr P s s'.
Proof. intros (A1 & A2 & A3 & A4 & A5). constructor; rewrite ?A1, ?A3; auto. Qed.

Lemma calm_dispatch h i u s : calm s (dispatch h i u s).
Proof.
  split; [|split; [|split; [|split]]].
  - unfold dispatch, schedule_render. destruct (nth_error _ _) as [[]|]; auto. destruct (veq _ _); auto. destruct (hk_sched _); auto.
  - pose proof (quiet_dispatch h i u s) as (A & B & C & D & E). auto.
  - pose proof (quiet_dispatch h i u s) as (A & B & C & D & E). auto.
  - intros x. apply ctx_same_hstep; [apply hstep_dispatch|]. pose proof (quiet_dispatch h i u s) as (A & B & C & D & E). auto.
  - intros x E. destruct (Nat.eq_dec h x) as [->|N]; [|apply get_dispatch_other; auto].
    unfold dispatch. rewrite E. destruct i; reflexivity.
Qed.
Lemma calm_env_step s o : calm s (env_step s o).
Proof.
  destruct o; simpl; [apply calm_dispatch|]. unfold record_seq. destruct (0 <=? seq)%Z; [|apply calm_refl].
  destruct (_ <? _)%Z; [|apply calm_refl]. repeat split; auto.
Qed.
Lemma calm_env_steps b : forall s, calm s (fold_left env_step b s).
Proof. induction b; simpl; intros; [apply calm_refl|]. eapply calm_trans; [apply calm_env_step|apply IHb]. Qed.
Lemma calm_pause s : exists s', pause s = (Ok tt, s') /\ calm s s'.
Proof.
  unfold pause, modify. eexists. split; [reflexivity|]. destruct (s_env s); [apply calm_refl|].
  eapply calm_trans; [|apply calm_env_steps]. repeat split; auto.
Qed.

(** ** Render functions *)

Definition sees (s : st) (h : nat) (env : nat -> option val) : Prop :=
  NoDup (dkeys (hk_ctx (get_hook h s))) /\ forall y, dget y (hk_ctx (get_hook h s)) = env y.
Lemma sees_ctx s s' h env : hk_ctx (get_hook h s') = hk_ctx (get_hook h s) -> sees s h env -> sees s' h env.
Proof. unfold sees. intros ->. auto. Qed.

Lemma run_body_first h b : forall s ctx r s', run_body h b s = (r, s') ->
  h < length (s_hooks s) -> hk_once (get_hook h s) = false -> sees s h ctx ->
  s_heap s' = s_heap s /\ s_stack s' = s_stack s /\ length (s_hooks s') = length (s_hooks s) /\
  (forall x, x <> h -> hk_ctx (get_hook x s') = hk_ctx (get_hook x s)) /\
  match first_run h (hk_cells (get_hook h s)) ctx b with
  | inl (out, ctx') => r = Ok out /\ sees s' h ctx'
  | inr msg => r = Raise (EUser msg)
  end.
Proof.
  induction b as [r0|msg|init k IH|i c k IH|e k IH|c k IH|c v k IH|h' i u k IH]; intros s ctx r s' H L NO SE; simpl in H |- *.
  - injection H as <- <-. auto 10.
  - injection H as <- <-. auto 10.
  - unfold bind, use_cell in H. rewrite NO in H. simpl in H.
    eapply IH in H; [|simpl; rewrite upd_length; auto|rewrite get_put_same; auto|].
    + rewrite get_put_same in H by auto. simpl in H. rewrite upd_length in H. destruct H as (A & B & C & D & E).
      split; [exact A|]. split; [exact B|]. split; [exact C|]. split; [|exact E].
      intros x N. rewrite D by auto. rewrite get_put_other; auto.
    + eapply sees_ctx; [|exact SE]. rewrite get_put_same by auto. reflexivity.
  - unfold bind, modify, set_cell in H. simpl in H.
    eapply IH in H; [|simpl; rewrite upd_length; auto|rewrite get_put_same; auto|].
    + rewrite get_put_same in H by auto. simpl in H. rewrite upd_length in H. destruct H as (A & B & C & D & E).
      split; [exact A|]. split; [exact B|]. split; [exact C|]. split; [|exact E].
      intros x N. rewrite D by auto. rewrite get_put_other; auto.
    + eapply sees_ctx; [|exact SE]. rewrite get_put_same by auto. reflexivity.
  - unfold bind, modify, add_effect in H. simpl in H.
    eapply IH in H; [|simpl; rewrite upd_length; auto|rewrite get_put_same; auto|].
    + rewrite get_put_same in H by auto. simpl in H. rewrite upd_length in H. destruct H as (A & B & C & D & E).
      split; [exact A|]. split; [exact B|]. split; [exact C|]. split; [|exact E].
      intros x N. rewrite D by auto. rewrite get_put_other; auto.
    + eapply sees_ctx; [|exact SE]. rewrite get_put_same by auto. reflexivity.
  - unfold bind, gets in H. rewrite (proj2 SE) in H. eapply IH in H; eauto.
  - unfold bind, modify, set_provider in H. simpl in H.
    eapply IH with (ctx := ctx_set c v ctx) in H; [|simpl; rewrite upd_length; auto|rewrite get_put_same; auto|].
    + rewrite get_put_same in H by auto. simpl in H. rewrite upd_length in H. destruct H as (A & B & C & D & E).
      split; [exact A|]. split; [exact B|]. split; [exact C|]. split; [|exact E].
      intros x N. rewrite D by auto. rewrite get_put_other; auto.
    + unfold sees. rewrite get_put_same by auto. simpl. split; [apply NoDup_dset, SE|]. intros y. rewrite dget_dset. unfold ctx_set.
      destruct (eq_dec y c), (Nat.eq_dec y c); try congruence. apply SE.
  - unfold bind, modify in H. pose proof (calm_dispatch h' i u s) as (Q1 & Q2 & Q3 & Q4 & _).
    pose proof (hs_hook _ _ _ (hstep_dispatch h' i u s) h Logic.I L) as (_ & X1 & _).
    eapply IH in H; [|rewrite Q3; exact L|rewrite X1; exact NO|eapply sees_ctx; [apply Q4|exact SE]].
    rewrite Q1, Q2, Q3 in H. destruct H as (A & B & C & D & E). split; auto. split; auto. split; auto. split; [intros x N; rewrite D by auto; apply Q4|].
    assert (EC : first_run h (hk_cells (get_hook h (dispatch h' i u s))) ctx k =
       (if Nat.eq_dec h' h
        then match nth_error (hk_cells (get_hook h s)) i with
           | Some (CState v) =>
               let v' := match u with UVal x => x | UFun f => f v end in
               if veq v' v then first_run h (hk_cells (get_hook h s)) ctx k else first_run h (upd (hk_cells (get_hook h s)) i (CState v')) ctx k
           | _ => first_run h (hk_cells (get_hook h s)) ctx k
           end
        else first_run h (hk_cells (get_hook h s)) ctx k)).
    { destruct (Nat.eq_dec h' h) as [->|N]; [|rewrite get_dispatch_other; auto].
      unfold dispatch. destruct (nth_error (hk_cells (get_hook h s)) i) as [[v| | |]|]; auto. cbv zeta. destruct (veq _ _); auto.
      unfold schedule_render. rewrite get_put_same by auto. cbn [hk_sched].
      destruct (hk_sched (get_hook h s)); [rewrite get_put_same by auto; reflexivity|].
      rewrite get_put_same by (simpl; rewrite upd_length; auto). reflexivity. }
    rewrite EC in E. exact E.
Qed.

(** ** The four functions on first mount *)

Section First.
Variable debug : bool.
Variable defs : nat -> val -> list raw -> body.

Definition exn_of (f : failure) : exn := match f with Raised m => EUser m | Duplicate => EDuplicateKeys end.
Lemma error_model_of f : error_model debug (exn_of f) = error_node debug f.
Proof. destruct f; reflexivity. Qed.

Definition any (m : nat) : Prop := True.
Definition top (s : st) (env : nat -> option val) : Prop :=
  exists h rest, s_stack s = h :: rest /\ h < length (s_hooks s) /\ sees s h env.
Lemma top_fr P s s' env : fr P s s' -> top s env -> top s' env.
Proof.
  intros F (h & rest & E & L & SE). exists h, rest. split; [rewrite (f_stack _ _ _ F); auto|].
  pose proof (f_hooks _ _ _ F). split; [lia|]. eapply sees_ctx; [apply (f_ctx _ _ _ F); auto|exact SE].
Qed.

Definition Q_rc f := forall p i k c s r s' env, render_component debug defs f None (Some p) i k c s = (r, s') ->
  p < length (s_heap s) -> top s env -> r = Fuel \/
  fr any s s' /\ exists n x, r = Ok n /\ nth_error (s_heap s') n = Some x /\ mounts debug defs env (RComp c) (inl (ms_model x)).
Definition Q_rm f := forall p i k rw s r s' env, render_model debug defs f None p i k rw s = (r, s') ->
  (exists tag attrs hs js imp ch, rw = RElem tag attrs hs js imp ch) ->
  p < length (s_heap s) -> top s env -> r = Fuel \/
  fr any s s' /\
  ((exists n x, r = Ok n /\ nth_error (s_heap s') n = Some x /\ mounts debug defs env rw (inl (ms_model x))) \/
   (exists e, r = Raise (exn_of e) /\ mounts debug defs env rw (inr e))).
Definition with_kids (m : model) (ch : option (list model)) : model :=
  match m with MNode tag imp attrs js eh _ err => MNode tag imp attrs js eh ch err | MText s => MText s end.
(** An old state, if any, without children. *)
Definition nokids (s : st) (old : option nat) (new : nat) : Prop :=
  old = None \/ exists o ox, old = Some o /\ nth_error (s_heap s) o = Some ox /\ ms_children ox = [] /\ o <> new.
Lemma nokids_fr s s' old new : fr (fun m => m <> new) s s' -> nokids s old new -> nokids s' old new.
Proof.
  intros F [->|(o & ox & -> & E & C & N)]; [left; auto|]. right. exists o, ox. split; auto. split; auto.
  rewrite (f_heap _ _ _ F); auto. apply nth_error_Some. congruence.
Qed.
Lemma any_but new s s' : fr any s s' -> fr (fun m => m <> new) s s'.
Proof. apply fr_weaken. intros; exact Logic.I. Qed.

Definition Q_rk f := forall old new raws s r s' env nx, render_children debug defs f old new raws s = (r, s') ->
  nokids s old new ->
  nth_error (s_heap s) new = Some nx -> top s env -> r = Fuel \/
  fr (fun m => m <> new) s s' /\
  exists nx', nth_error (s_heap s') new = Some nx' /\ 
  ((r = Ok tt /\ exists ms, mounts_all debug defs env raws (inl ms) /\ ~ clash raws /\
      (raws <> [] -> ms_model nx' = with_kids (ms_model nx) (Some ms)) /\ (raws = [] -> ms_model nx' = ms_model nx)) \/
   (r = Raise EDuplicateKeys /\ clash raws) \/
   (exists e, r = Raise (exn_of e) /\ ~ clash raws /\ mounts_all debug defs env raws (inr e))).

(** Showing a list of child infos. *)
Definition infos_mount env (infos : list (child_kind * key)) o :=
  mounts_all debug defs env (map (fun x => match fst x with DictChild r => r | CompChild c => RComp c | StrChild s => RText s end) infos) o.
Definition Q_rl f := forall old new i infos s r s' env nx, render_child_list debug defs f old new i infos s = (r, s') ->
  nokids s old new ->
  Forall info_ok infos ->
  nth_error (s_heap s) new = Some nx -> top s env -> r = Fuel \/
  fr (fun m => m <> new) s s' /\
  exists nx', nth_error (s_heap s') new = Some nx' /\
  ((r = Ok tt /\ exists ms, infos_mount env infos (inl ms) /\
      forall ms0, (exists m0, ms_model nx = with_kids m0 (Some ms0)) -> ms_model nx' = with_kids (ms_model nx) (Some (ms0 ++ ms))) \/
   (exists e, r = Raise (exn_of e) /\ infos_mount env infos (inr e))).

Lemma infos_mounts env l : forall i o, infos_mount env (children_infos i l) o -> mounts_all debug defs env l o.
Proof.
  induction l as [|r l IH]; intros i o H; [exact H|]. cbn [children_infos] in H. unfold infos_mount in *.
  destruct r as [ |t|tag attrs hs js imp ch|c]; cbn [child_info] in H.
  - constructor. eapply IH; exact H.
  - cbn in H. inversion H; subst; try (constructor; eapply IH; eassumption); match goal with X : mounts _ _ _ (RText _) _ |- _ => inversion X end.
  - destruct (attr_key attrs); cbn in H; (inversion H; subst; [eapply Ma_cons|eapply Ma_here|eapply Ma_later]; eauto).
  - destruct (ci_key c); cbn in H; (inversion H; subst; [eapply Ma_cons|eapply Ma_here|eapply Ma_later]; eauto).
Qed.

Lemma get_ms_eq m s x : nth_error (s_heap s) m = Some x -> get_ms m s = (Ok x, s).
Proof. intros E. unfold get_ms. rewrite E. reflexivity. Qed.
Lemma change_ms_eq m g s x : nth_error (s_heap s) m = Some x -> change_ms m g s = (Ok tt, set_heap (upd (s_heap s) m (g x)) s).
Proof. intros E. unfold change_ms, bind. rewrite (get_ms_eq _ _ _ E). reflexivity. Qed.

Lemma fr_upd m y s : fr (fun z => z <> m) s (set_heap (upd (s_heap s) m y) s).
Proof. constructor; simpl; auto; [rewrite upd_length; auto|]. intros z L N. apply nth_upd_other; auto. Qed.
Lemma fr_new x s : fr any s (set_heap (s_heap s ++ [x]) s).
Proof. constructor; simpl; auto; [rewrite app_length; lia|]. intros m L _. apply nth_error_app1; auto. Qed.

Lemma with_kids_add m c ms0 m0 : m = with_kids m0 (Some ms0) -> add_child_model c m = with_kids m (Some (ms0 ++ [c])).
Proof. destruct m0; intros ->; reflexivity. Qed.
Lemma with_kids_twice m a b : with_kids (with_kids m a) b = with_kids m b.
Proof. destruct m; reflexivity. Qed.

Lemma first_rl f : Q_rc f -> Q_rm f -> Q_rl f -> Q_rl (S f).
Proof.
  unfold Q_rc, Q_rm, Q_rl. intros IC IM IL old new i infos s r s' env nx H NK OK EN TP. cbn [render_child_list] in H.
  destruct infos as [|[kd k] rest].
  { injection H as <- <-. right. split; [apply fr_refl|]. exists nx. split; auto. left. split; auto. exists []. split; [constructor|].
    intros ms0 [m0 ->]. rewrite app_nil_r, with_kids_twice. reflexivity. }
  inversion OK as [|? ? OK1 OK2]; subst.
  assert (L : new < length (s_heap s)) by (apply nth_error_Some; congruence).
  unfold bind at 1 in H.
  assert (EO : (match old with None => ret None | Some o => ox <- get_ms o ;; ret (dget k (ms_children ox)) end) s = (Ok None, s)).
  { destruct NK as [->|(o & ox & -> & E & C & N)]; [reflexivity|]. unfold bind. rewrite (get_ms_eq _ _ _ E), C. reflexivity. }
  rewrite EO in H. clear EO.
  (* a common continuation for nodes *)
  assert (CONT : forall r0 n x s1, fr any s s1 -> nth_error (s_heap s1) n = Some x -> mounts debug defs env r0 (inl (ms_model x)) ->
    (nx0 <- get_ms n ;; change_ms new (fun x => with_children (dset k n (ms_children x)) (with_model (add_child_model (ms_model nx0) (ms_model x)) x)) ;;
     render_child_list debug defs f old new (S i) rest) s1 = (r, s') ->
    r0 = (match kd with DictChild r => r | CompChild c => RComp c | StrChild s => RText s end) ->
    r = Fuel \/ fr (fun m => m <> new) s s' /\
      exists nx', nth_error (s_heap s') new = Some nx' /\
      ((r = Ok tt /\ exists ms, infos_mount env ((kd, k) :: rest) (inl ms) /\
          forall ms0, (exists m0, ms_model nx = with_kids m0 (Some ms0)) -> ms_model nx' = with_kids (ms_model nx) (Some (ms0 ++ ms))) \/
       (exists e, r = Raise (exn_of e) /\ infos_mount env ((kd, k) :: rest) (inr e)))).
  { intros r0 n x s1 F1 EX MX HC ->. rewrite (bind_ok _ _ _ _ _ (get_ms_eq _ _ _ EX)) in HC.
    assert (EN1 : nth_error (s_heap s1) new = Some nx) by (rewrite (f_heap _ _ _ F1); [auto|auto|exact Logic.I]).
    rewrite (bind_ok _ _ _ _ _ (change_ms_eq _ _ _ _ EN1)) in HC. eapply IL in HC; [|eapply nokids_fr; [apply fr_upd|]; eapply nokids_fr; [apply any_but; exact F1|exact NK]|exact OK2|simpl; apply nth_upd_same; apply nth_error_Some; congruence|].
    2:{ eapply top_fr; [apply fr_upd|]. eapply top_fr; [exact F1|exact TP]. }
    destruct HC as [->|(F2 & nx' & EX' & HC)]; [auto|]. right. split.
    { eapply fr_trans; [eapply fr_weaken; [|exact F1]; intros; exact Logic.I|]. eapply fr_trans; [apply fr_upd|exact F2]. }
    exists nx'. split; auto. destruct HC as [(-> & ms & MM & KK)|(e & -> & MM)].
    - left. split; auto. exists (ms_model x :: ms). split; [apply Ma_cons; auto|]. intros ms0 [m0 E0].
      cbn in KK. rewrite (KK (ms0 ++ [ms_model x])).
      + rewrite (with_kids_add _ _ _ _ E0), with_kids_twice, <- app_assoc. reflexivity.
      + rewrite (with_kids_add _ _ _ _ E0). eauto.
    - right. exists e. split; auto. eapply Ma_later; eauto. }
  destruct kd as [rw|c|t].
  - rewrite bind_assoc in H. destruct (render_model debug defs f None new i (Some k) rw s) as [rr s1] eqn:ER. assert (ER0 := ER).
    eapply IM in ER; [|destruct OK1 as (tag & attrs & hs & js & imp & ch & -> & _); eauto 10|exact L|exact TP].
    destruct rr as [n|e|].
    + destruct ER as [X|(F1 & [(n1 & x & X & EX & MX)|(e & X & _)])]; try discriminate. injection X as <-.
      eapply (CONT rw n x s1); eauto. rewrite (bind_ok _ _ _ _ _ ER0), bind_assoc in H. exact H.
    + destruct ER as [X|(F1 & [(n1 & x & X & _)|(e1 & X & MX)])]; try discriminate. injection X as ->.
      rewrite (bind_raise _ _ _ _ _ ER0) in H. injection H as <- <-. right. split; [eapply fr_weaken; [|exact F1]; intros; exact Logic.I|].
      exists nx. split; [rewrite (f_heap _ _ _ F1); [auto|auto|exact Logic.I]|]. right. exists e1. split; auto. apply Ma_here. exact MX.
    + rewrite (bind_fuel _ _ _ _ ER0) in H. injection H as <- <-. auto.
  - rewrite bind_assoc in H. destruct (render_component debug defs f None (Some new) i (Some k) c s) as [rr s1] eqn:ER. assert (ER0 := ER).
    eapply IC in ER; [|exact L|exact TP].
    destruct ER as [->|(F1 & n & x & -> & EX & MX)].
    + rewrite (bind_fuel _ _ _ _ ER0) in H. injection H as <- <-. auto.
    + eapply (CONT (RComp c) n x s1); eauto. rewrite (bind_ok _ _ _ _ _ ER0), bind_assoc in H. exact H.
  - rewrite bind_assoc in H. rewrite (bind_ok _ _ _ _ _ (eq_refl : ret tt s = (Ok tt, s))) in H.
    rewrite (bind_ok _ _ _ _ _ (change_ms_eq _ _ _ _ EN)) in H. eapply IL in H; [|eapply nokids_fr; [apply fr_upd|exact NK]|exact OK2|simpl; apply nth_upd_same; auto|].
    2:{ eapply top_fr; [apply fr_upd|exact TP]. }
    destruct H as [->|(F2 & nx' & EX' & HC)]; [auto|]. right. split; [eapply fr_trans; [apply fr_upd|exact F2]|].
    exists nx'. split; auto. destruct HC as [(-> & ms & MM & KK)|(e & -> & MM)].
    + left. split; auto. exists (MText t :: ms). split; [apply Ma_text; auto|]. intros ms0 [m0 E0].
      cbn in KK. rewrite (KK (ms0 ++ [MText t])).
      * rewrite (with_kids_add _ _ _ _ E0), with_kids_twice, <- app_assoc. reflexivity.
      * rewrite (with_kids_add _ _ _ _ E0). eauto.
    + right. exists e. split; auto. apply Ma_text_fail. exact MM.
Qed.


Lemma dup_clash l : forall i, has_duplicates (keys_from i l) = true -> clash_from i l.
Proof.
  induction l as [|r l IH]; intros i E; [discriminate|].
  assert (SH : clash_from (S i) l -> clash_from i (r :: l)).
  { intros (j1 & j2 & a & b & LT & E1 & E2 & N1 & N2 & EK). exists (S j1), (S j2), a, b. rewrite !Nat.add_succ_r. repeat split; auto; lia. }
  assert (D : r = RNone \/ r <> RNone) by (destruct r; [left; reflexivity|right; discriminate..]).
  destruct D as [->|NR]; [apply SH, IH; exact E|]. rewrite keys_from_cons in E by auto. simpl in E.
  destruct (mem (effective_key i r) (keys_from (S i) l)) eqn:EM; [|apply SH, IH; exact E].
  apply mem_In, keys_from_In in EM. destruct EM as (j & b & EJ & NB & EK).
  exists 0, (S j), r, b. rewrite Nat.add_0_r, Nat.add_succ_r. repeat split; auto. lia.
Qed.
Lemma clash_cases l : (clash l /\ snd (get_children_info l) = None) \/ (~ clash l /\ exists ks, snd (get_children_info l) = Some ks).
Proof.
  destruct (has_duplicates (keys_from 0 l)) eqn:E.
  - left. split; [apply dup_clash in E; exact E|]. unfold get_children_info. simpl. rewrite <- keys_infos, E. reflexivity.
  - right. assert (NC : ~ clash l) by (apply ChildrenFacts.has_duplicates_NoDup, NoDup_clash in E; exact E). split; auto.
    apply no_clash_accepted in NC. eauto.
Qed.

Lemma first_rk f : Q_rl f -> Q_rk (S f).
Proof.
  unfold Q_rl, Q_rk. intros IL old new raws s r s' env nx H NK EN TP.
  assert (L : new < length (s_heap s)) by (apply nth_error_Some; congruence).
  destruct (clash_cases raws) as [[CL _]|[NC [ks EK]]].
  - rewrite clash_raises in H by auto. injection H as <- <-. right. split; [apply fr_refl|]. exists nx. split; auto.
  - cbn [render_children] in H. destruct (get_children_info raws) as [infos kso] eqn:EI. simpl in EK. subst kso.
    assert (infos = children_infos 0 raws) as -> by (unfold get_children_info in EI; injection EI; auto).
    unfold bind at 1 in H. match type of H with match ?m s with _ => _ end = _ => assert (EO : m s = (Ok tt, s)) end.
    { destruct NK as [->|(o & ox & -> & E & C & N)]; [reflexivity|]. unfold bind. rewrite (get_ms_eq _ _ _ E), C. reflexivity. }
    rewrite EO in H. clear EO. destruct raws as [|r0 raws'].
    + injection H as <- <-. right. split; [apply fr_refl|]. exists nx. split; auto. left. split; auto. exists [].
      split; [constructor|]. split; auto. split; [congruence|auto].
    + rewrite (bind_ok _ _ _ _ _ (change_ms_eq _ _ _ _ EN)) in H.
      eapply IL in H; [|eapply nokids_fr; [apply fr_upd|exact NK]|apply children_infos_ok|simpl; apply nth_upd_same; auto|eapply top_fr; [apply fr_upd|exact TP]].
      destruct H as [->|(F2 & nx' & EX' & HC)]; [auto|]. right. split; [eapply fr_trans; [apply fr_upd|exact F2]|].
      exists nx'. split; auto. destruct HC as [(-> & ms & MM & KK)|(e & -> & MM)].
      * left. split; auto. exists ms. split; [eapply infos_mounts; exact MM|]. split; auto. split; [|discriminate]. intros _.
        assert (ES : start_children (ms_model nx) = with_kids (ms_model nx) (Some [])) by (destruct (ms_model nx); reflexivity).
        cbn in KK. rewrite (KK []); rewrite ES; [apply with_kids_twice|eauto].
      * right; right. exists e. split; auto. split; auto. eapply infos_mounts; exact MM.
Qed.

Lemma reg_ok m l : forall s x, nth_error (s_heap s) m = Some x ->
  exists js s', register_handlers m l s = (Ok js, s').
Proof.
  induction l as [|[ev h] l IH]; simpl; intros s x E; [unfold ret; eauto|].
  unfold bind. rewrite (get_ms_eq _ _ _ E). simpl.
  match goal with |- context [register_handlers m l ?z] => edestruct (IH z) as (js & s1 & E1) end.
  { simpl. apply nth_upd_same. apply nth_error_Some. congruence. }
  rewrite E1. unfold ret. eauto.
Qed.

Lemma first_attrs new tag attrs hs js imp s nx : nth_error (s_heap s) new = Some nx -> ms_targets nx = [] ->
  exists s' nx' attrs' eh own, render_attributes None new tag attrs hs js imp s = (Ok tt, s') /\ fr (fun m => m <> new) s s' /\
    nth_error (s_heap s') new = Some nx' /\ ms_model nx' = MNode tag imp attrs' js eh None None /\
    attrs_shown tag attrs attrs' /\ handlers_shown hs eh own.
Proof.
  intros EN ET.
  assert (OK : exists s', render_attributes None new tag attrs hs js imp s = (Ok tt, s')).
  { unfold render_attributes, bind, ret. destruct hs as [|h0 hs'].
    - rewrite (get_ms_eq _ _ _ EN). unfold gets, put_ms, modify. eauto.
    - destruct (reg_ok new (h0 :: hs') s nx EN) as (l & s1 & E1). rewrite E1.
      destruct (exec_register _ _ _ _ _ _ E1 EN) as [_ ->].
      rewrite (get_ms_eq new _ (with_targets (fold_left (fun acc eh => dset (fst eh) (target_of (ms_keypath nx) (fst eh) (snd eh)) acc) (h0 :: hs') (ms_targets nx)) nx))
        by (simpl; apply nth_upd_same; apply nth_error_Some; congruence).
      unfold gets, put_ms, modify. eauto. }
  destruct OK as [s' OK]. destruct (exec_attrs None new tag attrs hs js imp s s' nx [] OK EN ET eq_refl) as (s0 & D & E).
  simpl in D. injection D as <-.
  assert (L : new < length (s_heap s)) by (apply nth_error_Some; congruence).
  exists s'. eexists. exists (inject_ack (s_seq s) tag (dvals (targets (ms_keypath nx) hs)) attrs), (match hs with [] => None | _ => Some (hjsons (ms_keypath nx) hs) end), (elem_tgts (ms_keypath nx) hs).
  split; [exact OK|]. split.
  { rewrite E. constructor; simpl; auto; [rewrite upd_length; auto|]. intros z LZ N. apply nth_upd_other; auto. }
  split; [rewrite E; simpl; apply nth_upd_same; exact L|]. split; [reflexivity|]. split; [apply inject_ack_shown|apply handlers_shown_tree].
Qed.

Lemma first_rm f : Q_rk f -> Q_rm (S f).
Proof.
  unfold Q_rk, Q_rm. intros IK p i k rw s r s' env H (tag & attrs & hs & js & imp & ch & ->) L TP. cbn [render_model] in H.
  destruct (nth_error (s_heap s) p) as [pm|] eqn:EP; [|apply nth_error_None in EP; lia].
  unfold bind at 1 2 3 in H. rewrite (get_ms_eq _ _ _ EP) in H. cbn in H.
  set (x0 := make_element_ms p pm i k) in *. set (n := length (s_heap s)) in *. set (s0 := set_heap (s_heap s ++ [x0]) s) in *.
  assert (F0 : fr any s s0) by apply fr_new.
  assert (exists s1 x1, (match attr_key attrs with Some k' => change_ms n (with_key (Some k')) | None => ret tt end) s0 = (Ok tt, s1) /\
             fr any s s1 /\ nth_error (s_heap s1) n = Some x1 /\ ms_targets x1 = []) as (s1 & x1 & E1 & F1 & EX1 & ET1).
  { assert (EX0 : nth_error (s_heap s0) n = Some x0) by (unfold s0, n; simpl; rewrite nth_error_app2, Nat.sub_diag; auto).
    destruct (attr_key attrs) as [k'|].
    - rewrite (change_ms_eq _ _ _ _ EX0). eexists _, _. split; [reflexivity|]. split.
      + eapply fr_trans'; [exact F0|apply fr_upd|]. unfold n. intros; lia.
      + split; [apply nth_upd_same; apply nth_error_Some; congruence|reflexivity].
    - exists s0, x0. split; [reflexivity|]. auto. }
  unfold bind at 1 in H. rewrite E1 in H.
  destruct (first_attrs n tag attrs hs js imp s1 x1 EX1 ET1) as (s2 & x2 & attrs' & eh & own & E2 & F2 & EX2 & EM2 & AS & HS).
  unfold bind at 1 in H. rewrite E2 in H.
  assert (F12 : fr any s s2) by (eapply fr_trans'; [exact F1|exact F2|unfold n; intros; lia]).
  set (l := match ch with Some l => l | None => [] end) in *.
  destruct (render_children debug defs f None n l s2) as [rr s3] eqn:ER.
  assert (ER0 := ER). eapply IK in ER; [|left; reflexivity|exact EX2|eapply top_fr; [exact F12|exact TP]].
  destruct ER as [->|(F3 & x3 & EX3 & HC)]; [rewrite (bind_fuel _ _ _ _ ER0) in H; injection H as <- <-; auto|]. right.
  assert (F : fr any s s3) by (eapply fr_trans'; [exact F12|exact F3|unfold n; intros; lia]).
  destruct HC as [(-> & ms & MM & NC & K1 & K2)|[(-> & CL)|(e & -> & NC & MM)]].
  - rewrite (bind_ok _ _ _ _ _ ER0) in H. injection H as <- <-. split; auto. left. exists n, x3. split; auto. split; auto.
    replace (ms_model x3) with (MNode tag imp attrs' js eh (match ch with Some (_ :: _) => Some ms | _ => None end) None);
      [econstructor; eauto|].
    destruct l as [|r0 l0] eqn:EL.
    + rewrite K2 by auto. rewrite EM2. destruct ch as [[|? ?]|]; try reflexivity. discriminate EL.
    + rewrite K1 by discriminate. rewrite EM2. destruct ch as [[|? ?]|]; try discriminate EL. reflexivity.
  - rewrite (bind_raise _ _ _ _ _ ER0) in H. injection H as <- <-. split; auto. right. exists Duplicate. split; auto. destruct ch as [l0|]; [constructor; exact CL|].
    exfalso. destruct CL as ([|?] & ? & ? & ? & _ & X & _); discriminate X.
  - rewrite (bind_raise _ _ _ _ _ ER0) in H. injection H as <- <-. split; auto. right. exists e. split; auto. destruct ch as [l0|]; [apply Mo_fail; auto|].
    inversion MM.
Qed.

(** From the fresh model state on: registering, running the render function, rendering the output. *)
Definition tail f (old' : option nat) (new h : nat) (c : cinst) : M nat :=
  modify (fun s => set_reg (dset h new (s_reg s)) s) ;;
  will_render h ;;
  modify (fun s => set_exit (h :: s_exit s) s) ;;
  finally
    (catch
       (log (EvRender h) ;;
        r <- run_body h (render_fn defs c) ;;
        log (EvReturn h r) ;;
        change_ms new (with_model empty_model) ;;
        render_children debug defs f old' new [r])
       (fun e => log (EvError h e) ;; change_ms new (with_model (error_model debug e))))
    (did_render h) ;;
  ret new.

Lemma program_render c : render_fn defs c = program defs c.
Proof. destruct c as [[n|x] k p kids]; reflexivity. Qed.

Lemma did_render_eq h rest s : s_stack s = h :: rest -> exists s', did_render h s = (Ok tt, s') /\
  s_heap s' = s_heap s /\ s_stack s' = rest /\ length (s_hooks s') = length (s_hooks s) /\
  (forall x, hk_ctx (get_hook x s') = hk_ctx (get_hook x s)).
Proof.
  intros E. unfold did_render, bind, unset_current. rewrite E. destruct (Nat.eq_dec h h); [|congruence]. unfold modify.
  eexists. split; [reflexivity|]. simpl. rewrite upd_length. repeat split; auto. intros x.
  destruct (Nat.eq_dec h x) as [<-|N]; [|rewrite get_put_other by auto; reflexivity].
  destruct (Nat.lt_ge_cases h (length (s_hooks s))) as [LT|GE].
  - rewrite get_put_same by auto. reflexivity.
  - rewrite !get_beyond; auto. simpl. rewrite upd_length. auto.
Qed.

Lemma will_render_eq h s env : h < length (s_hooks s) -> get_hook h s = no_hook ->
  (s_stack s = [] /\ env = no_ctx \/ top s env /\ (forall p r, s_stack s = p :: r -> p <> h)) ->
  exists s', will_render h s = (Ok tt, s') /\ s_heap s' = s_heap s /\ s_stack s' = h :: s_stack s /\
    length (s_hooks s') = length (s_hooks s) /\ (forall x, x <> h -> hk_ctx (get_hook x s') = hk_ctx (get_hook x s)) /\
    hk_once (get_hook h s') = false /\ hk_cells (get_hook h s') = [] /\ sees s' h env.
Proof.
  intros L NH TP. unfold will_render, bind. destruct (calm_pause s) as (s1 & E1 & C1 & C2 & C3 & C4 & C5). rewrite E1.
  assert (NH1 : get_hook h s1 = no_hook) by (rewrite C5; auto; rewrite NH; reflexivity).
  unfold modify at 1. rewrite NH1. set (s2 := put_hook h _ s1).
  assert (L1 : h < length (s_hooks s1)) by lia.
  assert (L2 : h < length (s_hooks s2)) by (unfold s2; simpl; rewrite upd_length; lia).
  assert (G2 : get_hook h s2 = no_hook) by (unfold s2; rewrite get_put_same by auto; reflexivity).
  assert (O2 : forall x, x <> h -> get_hook x s2 = get_hook x s1) by (intros; unfold s2; rewrite get_put_other; auto).
  assert (ST2 : s_stack s2 = s_stack s) by (unfold s2; simpl; auto).
  assert (HP2 : s_heap s2 = s_heap s) by (unfold s2; simpl; auto).
  assert (LN2 : length (s_hooks s2) = length (s_hooks s)) by (unfold s2; simpl; rewrite upd_length; auto).
  clearbody s2.
  unfold set_current, modify. cbv zeta.
  destruct TP as [[ST EE]|[(p & rest & ST & LP & SE) NP]]; rewrite ST2, ST.
  - eexists. split; [reflexivity|]. simpl. rewrite HP2, ST2, ST. repeat split; auto.
    + intros x N. change (hk_ctx (get_hook x s2) = hk_ctx (get_hook x s)). rewrite O2 by auto. apply C4.
    + change (hk_once (get_hook h s2) = false). rewrite G2. reflexivity.
    + change (hk_cells (get_hook h s2) = []). rewrite G2. reflexivity.
    + change (NoDup (dkeys (hk_ctx (get_hook h s2)))). rewrite G2. constructor.
    + change (forall y, dget y (hk_ctx (get_hook h s2)) = env y). rewrite G2, EE. reflexivity.
  - rewrite G2. cbn [hk_cells hk_idx hk_once hk_sched hk_effects hk_ctx no_hook]. eexists. split; [reflexivity|]. simpl. rewrite HP2, ST2, ST, upd_length. repeat split; auto.
    + intros x N. change (hk_ctx (get_hook x (put_hook h (Hook [] 0 false false [] (dupdate [] (hk_ctx (get_hook p s2)))) s2)) = hk_ctx (get_hook x s)).
      rewrite get_put_other by auto. rewrite O2 by auto. apply C4.
    + change (hk_once (get_hook h (put_hook h (Hook [] 0 false false [] (dupdate [] (hk_ctx (get_hook p s2)))) s2)) = false).
      rewrite get_put_same by auto. reflexivity.
    + change (hk_cells (get_hook h (put_hook h (Hook [] 0 false false [] (dupdate [] (hk_ctx (get_hook p s2)))) s2)) = []).
      rewrite get_put_same by auto. reflexivity.
    + change (NoDup (dkeys (hk_ctx (get_hook h (put_hook h (Hook [] 0 false false [] (dupdate [] (hk_ctx (get_hook p s2)))) s2))))).
      rewrite get_put_same by auto. apply NoDup_dupdate; constructor.
    + change (forall y, dget y (hk_ctx (get_hook h (put_hook h (Hook [] 0 false false [] (dupdate [] (hk_ctx (get_hook p s2)))) s2))) = env y).
      rewrite get_put_same by auto. cbn [hk_ctx]. rewrite O2 by (eapply NP; eauto). rewrite C4. destruct SE as [ND SE]. intros y. rewrite dget_dupdate by exact ND. rewrite SE. destruct (env y); auto.
Qed.

Lemma first_tail f old' new h c s r s' env nx : Q_rk f ->
  tail f old' new h c s = (r, s') -> nokids s old' new ->
  nth_error (s_heap s) new = Some nx -> h < length (s_hooks s) -> get_hook h s = no_hook ->
  (s_stack s = [] /\ env = no_ctx \/ top s env /\ (forall p r, s_stack s = p :: r -> p <> h)) ->
  r = Fuel \/
  (length (s_heap s) <= length (s_heap s') /\ (forall m, m < length (s_heap s) -> m <> new -> nth_error (s_heap s') m = nth_error (s_heap s) m) /\
   s_stack s' = s_stack s /\ length (s_hooks s) <= length (s_hooks s') /\
   (forall x, x < length (s_hooks s) -> x <> h -> hk_ctx (get_hook x s') = hk_ctx (get_hook x s))) /\
  r = Ok new /\ exists x, nth_error (s_heap s') new = Some x /\ mounts debug defs env (RComp c) (inl (ms_model x)).
Proof.
  unfold Q_rk. intros IK H NK EN L NH TP.
  assert (LN : new < length (s_heap s)) by (apply nth_error_Some; congruence).
  unfold tail in H. unfold bind at 1 in H. unfold modify at 1 in H. set (s0 := set_reg _ s) in H.
  destruct (will_render_eq h s0 env) as (s1 & E1 & W1 & W2 & W3 & W4 & W5 & W6 & W7); [exact L|exact NH|exact TP|].
  unfold bind at 1 in H. rewrite E1 in H. unfold bind at 1 in H. unfold modify at 1 in H.
  set (s2 := set_exit _ s1) in H.
  (* the error branch *)
  assert (ERR : forall t e,
     length (s_heap s) <= length (s_heap t) -> (forall m, m < length (s_heap s) -> m <> new -> nth_error (s_heap t) m = nth_error (s_heap s) m) ->
     (exists x, nth_error (s_heap t) new = Some x) ->
     s_stack t = h :: s_stack s -> length (s_hooks s) <= length (s_hooks t) ->
     (forall x, x < length (s_hooks s) -> x <> h -> hk_ctx (get_hook x t) = hk_ctx (get_hook x s)) ->
     mounts debug defs env (RComp c) (inl (error_node debug e)) ->
     exists t', (match (log (EvError h (exn_of e)) ;; change_ms new (with_model (error_model debug (exn_of e)))) t with
        | (Ok a, t1) => match did_render h t1 with (Ok _, t2) => (Ok a, t2) | (Raise e, t2) => (Raise e, t2) | (Fuel, t2) => (Fuel, t2) end
        | (Raise e, t1) => match did_render h t1 with (Ok _, t2) => (Raise e, t2) | (Raise e', t2) => (Raise e', t2) | (Fuel, t2) => (Fuel, t2) end
        | (Fuel, t1) => (Fuel, t1) end) = (Ok tt, t') /\
     (length (s_heap s) <= length (s_heap t') /\ (forall m, m < length (s_heap s) -> m <> new -> nth_error (s_heap t') m = nth_error (s_heap s) m) /\
      s_stack t' = s_stack s /\ length (s_hooks s) <= length (s_hooks t') /\
      (forall x, x < length (s_hooks s) -> x <> h -> hk_ctx (get_hook x t') = hk_ctx (get_hook x s))) /\
     exists x, nth_error (s_heap t') new = Some x /\ mounts debug defs env (RComp c) (inl (ms_model x))).
  { intros t e A1 A2 [x0 A3] A4 A5 A6 A7. unfold bind, log, modify. 
    rewrite (change_ms_eq new _ _ x0) by exact A3. 
    match goal with |- context [did_render h ?z] => destruct (did_render_eq h (s_stack s) z) as (t' & E' & D1 & D2 & D3 & D4); [exact A4|] end.
    rewrite E'. exists t'. split; [reflexivity|]. rewrite D1, D3. simpl. rewrite upd_length. split.
    - split; [auto|]. split; [intros m Lm Nm; rewrite nth_upd_other by auto; auto|]. split; [auto|]. split; [auto|].
      intros x Lx Nx. rewrite D4. apply A6; auto.
    - eexists. split; [apply nth_upd_same; apply nth_error_Some; congruence|]. simpl. rewrite error_model_of. exact A7. }
  unfold bind at 1, finally, catch in H. unfold bind at 1 in H. unfold log at 1, modify at 1 in H. set (s3 := set_log _ s2) in H.
  unfold bind at 1 in H. destruct (run_body h (render_fn defs c) s3) as [rb s4] eqn:ERB. rewrite program_render in ERB.
  destruct (run_body_first h (program defs c) s3 env rb s4 ERB) as (B1 & B2 & B3 & B4 & B5).
  { simpl. rewrite W3. exact L. } { exact W5. } { exact W7. }
  change (hk_cells (get_hook h s3)) with (hk_cells (get_hook h s1)) in B5. rewrite W6 in B5.
  change (s_heap s3) with (s_heap s1) in B1. rewrite W1 in B1. change (s_heap s0) with (s_heap s) in B1.
  change (s_stack s3) with (s_stack s1) in B2. rewrite W2 in B2. change (s_stack s0) with (s_stack s) in B2.
  change (s_hooks s3) with (s_hooks s1) in B3. rewrite W3 in B3. change (s_hooks s0) with (s_hooks s) in B3.
  assert (B4' : forall x, x < length (s_hooks s) -> x <> h -> hk_ctx (get_hook x s4) = hk_ctx (get_hook x s)).
  { intros x Lx Nx. rewrite B4 by auto. change (get_hook x s3) with (get_hook x s1). rewrite W4 by auto. reflexivity. }
  assert (EN4 : nth_error (s_heap s4) new = Some nx) by (rewrite B1; exact EN).
  destruct (first_run h [] env (program defs c)) as [[out env']|msg] eqn:EFR.
  - destruct B5 as [-> SE4]. unfold bind at 1 in H. unfold log at 1, modify at 1 in H. set (s4l := set_log _ s4) in H.
    change (nth_error (s_heap s4l) new = Some nx) in EN4. unfold bind at 1 in H. rewrite (change_ms_eq _ _ _ _ EN4) in H. set (s5 := set_heap _ s4l) in H.
    destruct (render_children debug defs f old' new [out] s5) as [rk s6] eqn:ERK.
    assert (X := ERK). eapply IK in X.
    2:{ destruct NK as [->|(o & ox & -> & E & C & N)]; [left; auto|]. right. exists o, ox. split; auto. split; auto.
        unfold s5. simpl. rewrite nth_upd_other by auto. rewrite B1. exact E. }
    2:{ unfold s5. simpl. apply nth_upd_same. rewrite B1. exact LN. }
    2:{ exists h, (s_stack s). split; [exact B2|]. split; [simpl; rewrite B3; exact L|]. exact SE4. }
    destruct X as [->|(F6 & x6 & EX6 & HC)]; [cbn in H; injection H as <- <-; auto|]. right.
    assert (A1 : length (s_heap s) <= length (s_heap s6)).
    { pose proof (f_len _ _ _ F6) as Y. unfold s5 in Y. simpl in Y. rewrite upd_length, B1 in Y. exact Y. }
    assert (A2 : forall m, m < length (s_heap s) -> m <> new -> nth_error (s_heap s6) m = nth_error (s_heap s) m).
    { intros m Lm Nm. rewrite (f_heap _ _ _ F6); auto.
      - unfold s5. simpl. rewrite nth_upd_other by auto. rewrite B1. reflexivity.
      - unfold s5. simpl. rewrite upd_length, B1. exact Lm. }
    assert (A4 : s_stack s6 = h :: s_stack s) by (rewrite (f_stack _ _ _ F6); exact B2).
    assert (A5 : length (s_hooks s) <= length (s_hooks s6)) by (pose proof (f_hooks _ _ _ F6) as Y; simpl in Y; lia).
    assert (A6 : forall x, x < length (s_hooks s) -> x <> h -> hk_ctx (get_hook x s6) = hk_ctx (get_hook x s)).
    { intros x Lx Nx. rewrite (f_ctx _ _ _ F6); [apply B4'; auto|]. simpl. rewrite B3. exact Lx. }
    destruct HC as [(-> & ms & MM & NC & K1 & K2)|[(-> & CL)|(e & -> & NC & MM)]].
    + destruct (did_render_eq h (s_stack s) s6 A4) as (s7 & E7 & D1 & D2 & D3 & D4). rewrite E7 in H. injection H as <- <-.
      split; [rewrite D1, D2, D3; repeat split; auto; intros x Lx Nx; rewrite D4; apply A6; auto|]. split; auto.
      exists x6. split; [rewrite D1; exact EX6|]. rewrite K1 by discriminate. simpl. eapply Mo_comp; eauto.
    + exfalso. destruct CL as (j1 & j2 & a & b & LT & _ & X & _). destruct j2 as [|[|j2]]; [lia|discriminate X|discriminate X].
    + destruct (ERR s6 e) as (t' & E' & R1 & x & R2 & R3); eauto using Mo_inside. rewrite E' in H. injection H as <- <-. split; auto. split; auto. eauto.
  - subst rb. right. destruct (ERR s4 (Raised msg)) as (t' & E' & R1 & x & R2 & R3); eauto using Mo_raises.
    { rewrite B1. auto. } { intros; rewrite B1; auto. } { rewrite B3; auto. }
    cbn [exn_of] in E'. rewrite E' in H. injection H as <- <-. split; auto. split; auto. eauto.
Qed.

Lemma first_rc f : Q_rk f -> Q_rc (S f).
Proof.
  intros IK p i k c s r s' env H L TP. cbn [render_component] in H.
  destruct (nth_error (s_heap s) p) as [pm|] eqn:EP; [|apply nth_error_None in EP; lia].
  unfold bind at 1 2 3 4 in H. rewrite (get_ms_eq _ _ _ EP) in H. cbn [new_hook new_ms ret fst snd] in H.
  set (h := length (s_hooks s)) in *. set (s0 := set_hooks (s_hooks s ++ [no_hook]) s) in *.
  set (n := length (s_heap s0)) in *. set (x0 := make_component_ms p pm i k h c) in *. set (s1 := set_heap (s_heap s0 ++ [x0]) s0) in *.
  assert (EX0 : nth_error (s_heap s1) n = Some x0) by (unfold s1, n; simpl; rewrite nth_error_app2, Nat.sub_diag; auto).
  unfold bind at 1 in H. rewrite (get_ms_eq _ _ _ EX0) in H. cbn [x0 make_component_ms ms_lcs] in H.
  change (tail f None n h c s1 = (r, s')) in H.
  assert (G1 : forall x, x < length (s_hooks s) -> get_hook x s1 = get_hook x s).
  { intros x Lx. unfold get_hook, s1, s0. simpl. apply app_nth1. exact Lx. }
  assert (LH : length (s_hooks s1) = S (length (s_hooks s))) by (unfold s1, s0; simpl; rewrite app_length; simpl; lia).
  eapply first_tail with (env := env) in H; [|exact IK|left; reflexivity|exact EX0|rewrite LH; unfold h; lia|unfold get_hook, s1, s0, h; simpl; rewrite app_nth2, Nat.sub_diag; auto|].
  2:{ right. destruct TP as (q & rest & ST & LQ & SE). split.
      - exists q, rest. split; [exact ST|]. split; [rewrite LH; lia|]. eapply sees_ctx; [|exact SE]. rewrite G1; auto.
      - intros p0 r0 E0. change (s_stack s1) with (s_stack s) in E0. rewrite ST in E0. injection E0 as <- _. unfold h. lia. }
  destruct H as [->|((A1 & A2 & A3 & A4 & A5) & -> & x & EX & MX)]; [auto|]. right. split; [|eauto].
  assert (LS1 : length (s_heap s1) = S (length (s_heap s))) by (unfold s1; simpl; rewrite app_length; simpl; lia).
  constructor.
  - lia.
  - intros m Lm _. rewrite A2; [unfold s1; simpl; apply nth_error_app1; auto|lia|unfold n; simpl; lia].
  - rewrite A3. reflexivity.
  - lia.
  - intros x1 L1. rewrite A5 by (try rewrite LH; unfold h; lia). rewrite G1; auto.
Qed.

Theorem first f : Q_rc f /\ Q_rm f /\ Q_rk f /\ Q_rl f.
Proof.
  induction f as [|f (IC & IM & IK & IL)].
  - repeat split; red; intros; simpl in *; match goal with H : no_fuel _ = _ |- _ => injection H as <- <-; auto end.
  - split; [apply first_rc; auto|]. split; [apply first_rm; auto|]. split; [apply first_rk; auto|apply first_rl; auto].
Qed.

Lemma run_exit_ok hs : forall s, exists s', run_exit hs s = (Ok tt, s') /\ s_heap s' = s_heap s /\
  updates (s_log s') = updates (s_log s).
Proof.
  induction hs as [|h hs IH]; intros s; simpl; [unfold ret; eauto|]. unfold bind, layout_did_render, log, modify.
  match goal with |- context [run_exit hs ?z] => destruct (IH z) as (s' & E & A & B) end. exists s'. split; [exact E|]. split; [rewrite A; reflexivity|].
  rewrite B. simpl. unfold updates. rewrite flat_map_app. simpl. apply app_nil_r.
Qed.
End First.
