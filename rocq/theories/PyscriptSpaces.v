(** * Model of the life of browser-side components on a page and property C88
    /repo/src/reactpy/executors/pyscript/components.py:16-37 (rendering), layout_handler.py:119-154 (start and clean-up),
    component_template.py:5,9,25 (the program), and src/js/packages/@reactpy/client/src/components.tsx:417-450 (script elements). *)
From Coq Require Import String Ascii Bool Arith Lia List.
From Verif Require Import Dict Strings PyStr VdomModel HtmlAttrs HtmlModel.
Import ListNotations.
Local Open Scope string_scope. Local Open Scope list_scope.

(** ** Model *)
(** Where a class is defined; [globals()] in its methods is the namespace of that module. *)
Inductive home := InPage | InModule.
(** Values of global names: a class [ReactPyLayoutHandler], a workspace function, the task of a component with the class whose
    [run] it executes, or something else. *)
Inductive value := Class (h : home) | Function | Task (uuid : string) (h : home) | Other.
Notation namespace := (dict string value).

(** The names after the script of executors/pyscript/utils.py:122, which is layout_handler.py itself, has run in the page, and
    those of the module layout_handler in the installed package (layout_handler.py:2-12). *)
Definition setup (h : home) : namespace :=
  [("asyncio", Other); ("logging", Other); ("js", Other); ("set_pointer", Other); ("add_event_listener", Other); ("morphdom", Other);
   ("Layout", Other); ("ReactPyLayoutHandler", Class h)].

(** The program of a component, component_template.py:3-25. [imports]: whether it has line 5, the import of the class from the
    package; it has. The new task, with its class. *)
Definition program (imports : bool) (uuid : string) (ns : namespace) : namespace * option home :=
  let ns := dset "asyncio" Other ns in
  let ns := if imports then dset "ReactPyLayoutHandler" (Class InModule) ns else ns in
  let ns := dset ("user_workspace_" ++ uuid)%string Function ns in
  match dget "ReactPyLayoutHandler" ns with
  | Some (Class h) => (dset ("task_" ++ uuid)%string (Task uuid h) ns, Some h)
  | _ => (ns, None)
  end.

(** [value.split("_")[-1] for value in globals() if value.startswith("user_workspace_")], layout_handler.py:128-132. *)
Definition workspaces (ns : namespace) : list string :=
  nodup eq_dec (map (fun k => last (split "_" k) "") (filter (prefix "user_workspace_") (dkeys ns))).
(** [delete_old_workspaces], lines 135-150, for one id: the namespace, the cancelled tasks. Simplifications: messages to the log are
    left out; a value that is no task, on which [cancel] would raise, is treated as if it had no such name. *)
Definition delete_one (uuid : string) (ns : namespace) : namespace * list string :=
  let (ns, cancelled) := match dget ("task_" ++ uuid)%string ns with
                         | Some (Task id _) => (ddel ("task_" ++ uuid)%string ns, [id])
                         | _ => (ns, []) end in
  (ddel ("user_workspace_" ++ uuid)%string ns, cancelled).
Fixpoint delete_all (uuids : list string) (ns : namespace) : namespace * list string :=
  match uuids with
  | [] => (ns, [])
  | u :: us => let (ns1, c1) := delete_one u ns in let (ns2, c2) := delete_all us ns1 in (ns2, c1 ++ c2)
  end.
Definition delete_old (dom : list string) (ns : namespace) : namespace * list string :=
  delete_all (filter (fun u => negb (mem u dom)) (workspaces ns)) ns.

(** The script element of a component, executors/pyscript/utils.py:104, as read by [string_to_reactpy] (src/reactpy/utils.py:161-165), and its
    key (_html.py:119-171). Simplification: of the text of the program there is only the name of its function, which has the id. *)
Definition program_text (uuid : string) : string := ("user_workspace_" ++ uuid)%string.
Definition script_element (uuid : string) : res hv :=
  match make "script" [("type", "py")] [HText (program_text uuid)] with
  | Ok el => required_transforms true el
  | Err e => Err e
  end.
Definition script_key (uuid : string) : option string :=
  match script_element uuid with
  | Ok (HEl _ (Some attrs) _ _ _) => match dget "key" attrs with Some (AS (SStr s)) => Some s | _ => None end
  | _ => None
  end.

(** What is at the places of the page where components are shown: the id of the [div] and the key with which the effect of the
    script element last ran. [scripts]: scripts in the page PyScript has not run yet; [waiting]: tasks that have not started. *)
Record st := St { places : dict nat (string * option string); page : namespace; module : namespace;
                  scripts : list string; waiting : list (string * home); executed : list string; stopped : list string }.
Inductive op :=
| Show (p : nat) (uuid : string)   (* the client shows, or shows again, a component at a place *)
| Hide (p : nat)                   (* the client shows nothing there *)
| Exec (uuid : string)             (* PyScript runs a script *)
| Begin (uuid : string).           (* the event loop starts a task *)

(** A render of [_pyscript_component], components.py:24-37: the first one of a mounted component shows nothing (lines 27-31); any other
    one shows elements with the new id [uuid] (executors/pyscript/utils.py:97). *)
Definition render (p : nat) (rendered : bool) (uuid : string) : op := if rendered then Show p uuid else Hide p.

(** components.tsx:417-450: the effect, which adds the script to the page, runs when the element is new or its key has changed. *)
Definition key_eqb (a b : option string) : bool :=
  match a, b with None, None => true | Some a, Some b => String.eqb a b | _, _ => false end.
Definition runs_effect (before : option (string * option string)) (uuid : string) : bool :=
  match before with None => true | Some (_, k) => negb (key_eqb k (script_key uuid)) end.

Definition dom (s : st) : list string := map fst (dvals (places s)).
Definition step (imports : bool) (s : st) (o : op) : st :=
  match o with
  | Show p uuid =>
      St (dset p (uuid, script_key uuid) (places s)) (page s) (module s)
         (if runs_effect (dget p (places s)) uuid then scripts s ++ [uuid] else scripts s) (waiting s) (executed s) (stopped s)
  | Hide p => St (ddel p (places s)) (page s) (module s) (scripts s) (waiting s) (executed s) (stopped s)
  | Exec uuid =>
      if mem uuid (scripts s) then
        let (ns, h) := program imports uuid (page s) in
        St (places s) ns (module s) (remove_one uuid (scripts s)) (match h with Some h => waiting s ++ [(uuid, h)] | None => waiting s end)
           (executed s ++ [uuid]) (stopped s)
      else s
  | Begin uuid =>
      match dget uuid (waiting s) with
      | None => s
      | Some h =>
          let w := ddel uuid (waiting s) in
          if mem uuid (stopped s) then St (places s) (page s) (module s) (scripts s) w (executed s) (stopped s)
          else match h with
               | InPage => let (ns, c) := delete_old (dom s) (page s) in St (places s) ns (module s) (scripts s) w (executed s) (stopped s ++ c)
               | InModule => let (ns, c) := delete_old (dom s) (module s) in St (places s) (page s) ns (scripts s) w (executed s) (stopped s ++ c)
               end
      end
  end.
Definition start : st := St [] (setup InPage) (setup InModule) [] [] [] [].
Definition run (imports : bool) (ops : list op) : st := fold_left (step imports) ops start.

(** ** Specification *)
Definition shown_ids (ops : list op) : list string := flat_map (fun o => match o with Show _ u => [u] | _ => [] end) ops.
(** Ids are hexadecimal and new. *)
Definition new_ids (ops : list op) : Prop := NoDup (shown_ids ops) /\ Forall (nochar "_") (shown_ids ops).
(** What a place shows after a history, by the history alone. *)
Fixpoint at_place (p : nat) (ops : list op) (before : option string) : option string :=
  match ops with
  | [] => before
  | Show q u :: ops => at_place p ops (if Nat.eqb p q then Some u else before)
  | Hide q :: ops => at_place p ops (if Nat.eqb p q then None else before)
  | _ :: ops => at_place p ops before
  end.
Definition on_page (ops : list op) (u : string) : Prop := exists p, at_place p ops None = Some u.
(** A component runs: its program has run and its task has not been stopped. (Not modelled: its own code may end it; so does an error
    when it next changes something and its element is not on the page any more.) *)
Definition running (s : st) (u : string) : Prop := In u (executed s) /\ ~ In u (stopped s).


(** ** Proofs *)
Definition ws (u : string) : string := ("user_workspace_" ++ u)%string.
Definition tk (u : string) : string := ("task_" ++ u)%string.
Lemma ws_inj u v : ws u = ws v -> u = v. Proof. apply (app_inj_l "user_workspace_"). Qed.
Lemma tk_inj u v : tk u = tk v -> u = v. Proof. apply (app_inj_l "task_"). Qed.
Lemma ws_tk u v : ws u <> tk v. Proof. discriminate. Qed.
Lemma last_ws u : nochar "_" u -> last (split "_" (ws u)) "" = u.
Proof.
  intros N. change (ws u) with ("user" ++ String "_" ("workspace" ++ String "_" u))%string.
  rewrite split_app by (cbn; repeat split; discriminate). rewrite split_app by (cbn; repeat split; discriminate). rewrite split_no by exact N. reflexivity.
Qed.
Lemma prefix_ws u : prefix "user_workspace_" (ws u) = true.
Proof. cbn. destruct u; reflexivity. Qed.
Lemma script_key_eq u : script_key u = Some (program_text u). Proof. reflexivity. Qed.

Lemma at_place_app p a b x : at_place p (a ++ b) x = at_place p b (at_place p a x).
Proof. revert x. induction a as [|o a IH]; intros x; [reflexivity|]. destruct o; cbn; apply IH. Qed.
Lemma at_place_shown p ops : forall x u, at_place p ops x = Some u -> x = Some u \/ In u (shown_ids ops).
Proof.
  induction ops as [|o ops IH]; intros x u E; [left; exact E|].
  destruct o as [q v|q|v|v]; cbn in *; apply IH in E; destruct E as [E|E]; auto.
  - destruct (Nat.eqb p q); [injection E as <-|]; auto.
  - destruct (Nat.eqb p q); [discriminate|]; auto.
Qed.
Lemma shown_app a b : shown_ids (a ++ b) = shown_ids a ++ shown_ids b.
Proof. apply flat_map_app. Qed.
Lemma mem_remove_one {A} `{EqDec A} (x y : A) l : In y (remove_one x l) -> In y l.
Proof. induction l as [|z l IH]; cbn; [auto|]. destruct (eq_dec x z); cbn; intuition. Qed.
Lemma remove_one_other {A} `{EqDec A} (x y : A) l : y <> x -> In y l -> In y (remove_one x l).
Proof. induction l as [|z l IH]; cbn; [auto|]. intros N I. destruct (eq_dec x z) as [->|D]; cbn; destruct I as [I|I]; auto; congruence. Qed.
Lemma NoDup_move {A} `{EqDec A} (x : A) l m : In x l -> NoDup (l ++ m) -> NoDup (remove_one x l ++ m ++ [x]).
Proof.
  induction l as [|z l IH]; cbn; [intros []|]. intros I N. inversion N as [|? ? N1 N2]; subst. destruct (eq_dec x z) as [->|D].
  - rewrite app_assoc. apply NoDup_snoc; assumption.
  - destruct I as [->|I]; [congruence|]. cbn. constructor; [|apply IH; assumption].
    rewrite !in_app_iff. rewrite in_app_iff in N1. intros [J|[J|[J|[]]]]; [apply mem_remove_one in J|..]; auto; congruence.
Qed.

Lemma delete_all_spec h us : forall ns : namespace, NoDup us -> (forall u, In u us -> dget (tk u) ns = Some (Task u h)) ->
  snd (delete_all us ns) = us /\
  forall k, dget k (fst (delete_all us ns)) = if mem k (map ws us ++ map tk us) then None else dget k ns.
Proof.
  induction us as [|u us IH]; intros ns ND T; [split; [reflexivity|intros k; reflexivity]|].
  cbn [delete_all]. unfold delete_one. fold (tk u). fold (ws u). rewrite (T u) by (left; reflexivity). inversion ND as [|? ? N1 N2]; subst.
  destruct (IH (ddel (ws u) (ddel (tk u) ns)) N2) as [A B].
  { intros v I. rewrite dget_ddel_other by (apply not_eq_sym, ws_tk). rewrite dget_ddel_other by (intros X; apply tk_inj in X; congruence). apply T. right. exact I. }
  destruct (delete_all us _) as [ns2 c2] eqn:E. cbn [fst snd] in *. split; [rewrite A; reflexivity|].
  intros k. rewrite B, !dget_ddel.
  destruct (mem k (map ws us ++ map tk us)) eqn:M.
  - apply mem_In in M. assert (M' : mem k (map ws (u :: us) ++ map tk (u :: us)) = true); [|rewrite M'; reflexivity].
    apply mem_In. cbn. rewrite in_app_iff in *. cbn. tauto.
  - apply mem_not_In in M. destruct (eq_dec k (ws u)) as [->|D1]; [|destruct (eq_dec k (tk u)) as [->|D2]].
    + assert (M' : mem (ws u) (map ws (u :: us) ++ map tk (u :: us)) = true); [|rewrite M'; reflexivity]. apply mem_In. cbn. auto.
    + assert (M' : mem (tk u) (map ws (u :: us) ++ map tk (u :: us)) = true); [|rewrite M'; reflexivity]. apply mem_In. rewrite in_app_iff. cbn. auto.
    + assert (M' : mem k (map ws (u :: us) ++ map tk (u :: us)) = false); [|rewrite M'; reflexivity]. apply mem_not_In. intros X. rewrite in_app_iff in X, M. cbn in X. destruct X as [[X|X]|[X|X]]; [exact (D1 (eq_sym X))|apply M; left; exact X|exact (D2 (eq_sym X))|apply M; right; exact X].
Qed.
Lemma workspaces_In ns u : In u (workspaces ns) <-> exists k, In k (dkeys ns) /\ prefix "user_workspace_" k = true /\ last (split "_" k) "" = u.
Proof.
  unfold workspaces. rewrite nodup_In, in_map_iff. split.
  - intros [k [E I]]. apply filter_In in I. exists k. tauto.
  - intros [k [I [P E]]]. exists k. rewrite filter_In. tauto.
Qed.

Definition home_of (imports : bool) : home := if imports then InModule else InPage.
Record inv (imports : bool) (ops : list op) (s : st) : Prop := {
  i_places : forall p, dget p (places s) = option_map (fun u => (u, Some (program_text u))) (at_place p ops None);
  i_keys : NoDup (dkeys (places s));
  i_shown : forall u, In u (shown_ids ops) <-> In u (scripts s) \/ In u (executed s);
  i_once : NoDup (scripts s ++ executed s);
  i_module : module s = setup InModule;
  i_wait : forall u h, In (u, h) (waiting s) -> h = home_of imports;
  i_class : imports = false -> dget "ReactPyLayoutHandler" (page s) = Some (Class InPage);
  i_stop : imports = true -> stopped s = [];
  i_task : forall u, In u (executed s) -> In u (stopped s) \/ (dget (ws u) (page s) = Some Function /\ dget (tk u) (page s) = Some (Task u (home_of imports)));
  i_ws : forall k, In k (dkeys (page s)) -> prefix "user_workspace_" k = true -> exists u, k = ws u /\ In u (executed s) /\ ~ In u (stopped s);
  i_gone : forall u, In u (stopped s) -> In u (executed s) /\ forall p, at_place p ops None <> Some u }.
Lemma inv_start imports : inv imports [] start.
Proof.
  split; try reflexivity.
  - constructor.
  - intros u. cbn. tauto.
  - constructor.
  - intros u h [].
  - intros u [].
  - intros k I P. cbn -[prefix] in I. repeat (destruct I as [<-|I]; [discriminate|]). destruct I.
  - intros u [].
Qed.
Lemma in_dom imports ops s u : inv imports ops s -> In u (dom s) <-> on_page ops u.
Proof.
  intros I. unfold dom, dvals, on_page. rewrite map_map, in_map_iff. split.
  - intros [[p [v k]] [E J]]. cbn in E. subst v. apply In_dget in J; [|apply (i_keys _ _ _ I)]. rewrite (i_places _ _ _ I) in J. exists p.
    destruct (at_place p ops None); [|discriminate]. cbn in J. congruence.
  - intros [p E]. exists (p, (u, Some (program_text u))). split; [reflexivity|]. apply dget_Some_In. rewrite (i_places _ _ _ I), E. reflexivity.
Qed.
Lemma in_workspaces imports ops s u : inv imports ops s -> Forall (nochar "_") (shown_ids ops) -> In u (workspaces (page s)) <-> In u (executed s) /\ ~ In u (stopped s).
Proof.
  intros I F. rewrite workspaces_In. rewrite Forall_forall in F. split.
  - intros [k [J [P E]]]. destruct (i_ws _ _ _ I k J P) as [v [-> [X Y]]]. rewrite last_ws in E by (apply F, (i_shown _ _ _ I); auto). subst v. auto.
  - intros [X Y]. exists (ws u). destruct (i_task _ _ _ I u X) as [Z|[Z _]]; [contradiction|].
    split; [apply dget_Some_key in Z; exact Z|]. split; [apply prefix_ws|apply last_ws, F, (i_shown _ _ _ I); auto].
Qed.
Lemma module_clean d : delete_old d (setup InModule) = (setup InModule, []).
Proof. reflexivity. Qed.

Lemma dget_In_keys {V} k (d : dict string V) : dget k d <> None <-> In k (dkeys d).
Proof. destruct (dget k d) eqn:E; split; intros H; try congruence; [apply dget_Some_key in E; exact E|]. apply dget_None in E. contradiction. Qed.
Lemma inv_step imports ops s o : new_ids (ops ++ [o]) -> inv imports ops s -> inv imports (ops ++ [o]) (step imports s o).
Proof.
  intros [ND FN] I. rewrite shown_app in ND, FN. destruct o as [p u|p|u|u].
  - (* Show *) cbn in ND, FN. assert (NEW : ~ In u (shown_ids ops)).
    { apply NoDup_remove_2 in ND. rewrite app_nil_r in ND. exact ND. }
    assert (RE : runs_effect (dget p (places s)) u = true).
    { rewrite (i_places _ _ _ I). destruct (at_place p ops None) as [v|] eqn:A; [|reflexivity]. cbn [option_map runs_effect]. rewrite script_key_eq. cbn [key_eqb].
      destruct (String.eqb_spec (program_text v) (program_text u)) as [E|E]; [|reflexivity]. apply ws_inj in E. subst v.
      apply at_place_shown in A. destruct A as [A|A]; [discriminate|contradiction]. }
    cbn [step]. rewrite RE. split; cbn [places page module scripts waiting executed stopped]; try apply I.
    + intros q. rewrite at_place_app. cbn. rewrite dget_dset. destruct (eq_dec q p) as [->|D].
      * rewrite Nat.eqb_refl. reflexivity.
      * destruct (Nat.eqb_spec q p) as [E|_]; [contradiction|]. apply (i_places _ _ _ I).
    + apply NoDup_dset, I.
    + intros v. rewrite shown_app, !in_app_iff, (i_shown _ _ _ I). cbn. tauto.
    + rewrite <- app_assoc. apply NoDup_Add with (a := u) (l := scripts s ++ executed s); [apply Add_app|]. split; [apply I|].
      rewrite in_app_iff, <- (i_shown _ _ _ I). exact NEW.
    + intros v J. destruct (i_gone _ _ _ I v J) as [X Y]. split; [exact X|]. intros q. rewrite at_place_app. cbn. destruct (Nat.eqb q p); [|apply Y].
      intros E. injection E as <-. apply NEW, (i_shown _ _ _ I). auto.
  - (* Hide *) cbn [step]. split; cbn [places page module scripts waiting executed stopped]; try apply I.
    + intros q. rewrite at_place_app. cbn. rewrite dget_ddel. destruct (eq_dec q p) as [->|D].
      * rewrite Nat.eqb_refl. reflexivity.
      * destruct (Nat.eqb_spec q p) as [E|_]; [contradiction|]. apply (i_places _ _ _ I).
    + apply NoDup_ddel, I.
    + intros v. rewrite shown_app, app_nil_r. apply I.
    + intros v J. destruct (i_gone _ _ _ I v J) as [X Y]. split; [exact X|]. intros q. rewrite at_place_app. cbn. destruct (Nat.eqb q p); [discriminate|apply Y].
  - (* Exec *) assert (AT : forall q, at_place q (ops ++ [Exec u]) None = at_place q ops None) by (intros q; rewrite at_place_app; reflexivity).
    cbn in ND, FN. rewrite app_nil_r in ND, FN. cbn [step]. destruct (mem u (scripts s)) eqn:M.
    2:{ split; try apply I; [intros q; rewrite AT; apply I|intros v; rewrite shown_app, app_nil_r; apply I|].
        intros v J. destruct (i_gone _ _ _ I v J) as [X Y]. split; [exact X|]. intros q. rewrite AT. apply Y. }
    apply mem_In in M. assert (NE : ~ In u (executed s)).
    { intros X. pose proof (i_once _ _ _ I) as N. apply in_split in M. destruct M as [a [b M]]. rewrite M, <- app_assoc in N. cbn in N. apply NoDup_remove_2 in N.
      apply N. rewrite !in_app_iff. auto. }
    assert (NS : ~ In u (stopped s)) by (intros X; apply (i_gone _ _ _ I) in X; tauto).
    set (p1 := dset "asyncio" Other (page s)). set (p2 := if imports then dset "ReactPyLayoutHandler" (Class InModule) p1 else p1).
    assert (PR : program imports u (page s) = (dset (tk u) (Task u (home_of imports)) (dset (ws u) Function p2), Some (home_of imports))).
    { unfold program. fold p1. fold p2. fold (ws u). fold (tk u). rewrite dget_dset_other by discriminate. unfold p2. destruct imports.
      - rewrite dget_dset_same. reflexivity.
      - unfold p1. rewrite dget_dset_other by discriminate. rewrite (i_class _ _ _ I) by reflexivity. reflexivity. }
    assert (G : forall k, k <> "asyncio" -> k <> "ReactPyLayoutHandler" -> k <> ws u -> k <> tk u ->
       dget k (dset (tk u) (Task u (home_of imports)) (dset (ws u) Function p2)) = dget k (page s)).
    { intros k N1 N2 N3 N4. rewrite !dget_dset_other by assumption. unfold p2, p1. destruct imports; rewrite ?dget_dset_other by assumption; reflexivity. }
    rewrite PR. split; cbn [places page module scripts waiting executed stopped]; try apply I.
    + intros q. rewrite AT. apply I.
    + intros v. rewrite shown_app, app_nil_r, (i_shown _ _ _ I), in_app_iff. cbn. split.
      * intros [X|X]; [|tauto]. destruct (eq_dec v u) as [->|D]; [tauto|]. left. apply remove_one_other; assumption.
      * intros [X|[X|[<-|[]]]]; [apply mem_remove_one in X|..]; tauto.
    + apply NoDup_move; [exact M|apply I].
    + intros v h J. apply in_app_iff in J. destruct J as [J|[J|[]]]; [apply (i_wait _ _ _ I) in J; exact J|congruence].
    + intros ->. rewrite !dget_dset_other by discriminate. unfold p2, p1. rewrite dget_dset_other by discriminate. apply I. reflexivity.
    + intros v J. apply in_app_iff in J. destruct (eq_dec v u) as [->|D].
      * right. rewrite dget_dset_other by (apply ws_tk). rewrite !dget_dset_same. auto.
      * destruct J as [J|[J|[]]]; [|congruence]. destruct (i_task _ _ _ I v J) as [X|[X Y]]; [auto|]. right.
        rewrite (G (ws v)), (G (tk v)); try discriminate; [auto|intros E; apply tk_inj in E; contradiction|intros E; apply ws_inj in E; contradiction].
    + intros k J P. destruct (eq_dec k (ws u)) as [->|D].
      * exists u. rewrite in_app_iff. cbn. auto.
      * destruct (i_ws _ _ _ I k) as [v [-> [X Y]]]; [|exact P|exists v; rewrite in_app_iff; auto].
        rewrite <- dget_In_keys in *. rewrite G in J; [exact J| | |exact D|]; intros ->; cbn in P; try discriminate; destruct u; discriminate.
    + intros v J. destruct (i_gone _ _ _ I v J) as [X Y]. rewrite in_app_iff. split; [auto|]. intros q. rewrite AT. apply Y.
  - (* Begin *) assert (AT : forall q, at_place q (ops ++ [Begin u]) None = at_place q ops None) by (intros q; rewrite at_place_app; reflexivity).
    cbn in ND, FN. rewrite app_nil_r in ND, FN. cbn [step].
    assert (SH : forall v, In v (shown_ids (ops ++ [Begin u])) <-> In v (scripts s) \/ In v (executed s)) by (intros v; rewrite shown_app, app_nil_r; apply I).
    assert (PL : forall q, dget q (places s) = option_map (fun u => (u, Some (program_text u))) (at_place q (ops ++ [Begin u]) None)) by (intros q; rewrite AT; apply I).
    assert (GO : forall v, In v (stopped s) -> In v (executed s) /\ forall p, at_place p (ops ++ [Begin u]) None <> Some v).
    { intros v J. destruct (i_gone _ _ _ I v J) as [X Y]. split; [exact X|]. intros q. rewrite AT. apply Y. }
    destruct (dget u (waiting s)) as [h|] eqn:W.
    2:{ split; try apply I; assumption. }
    assert (W2 : forall v h, In (v, h) (ddel u (waiting s)) -> h = home_of imports).
    { intros v h' J. apply (i_wait _ _ _ I v). clear - J. induction (waiting s) as [|[x y] l IH]; [destruct J|]. cbn in J. destruct (eq_dec u x); cbn in *; tauto. }
    assert (HH : h = home_of imports) by (apply dget_Some_In in W; apply (i_wait _ _ _ I) in W; exact W).
    destruct (mem u (stopped s)) eqn:MS.
    + split; cbn [places page module scripts waiting executed stopped]; try apply I; assumption.
    + destruct imports; cbn in HH; subst h.
      * rewrite (i_module _ _ _ I), module_clean. rewrite app_nil_r. split; cbn [places page module scripts waiting executed stopped]; try apply I; try assumption; try reflexivity.
      * unfold delete_old. set (us := filter (fun v => negb (mem v (dom s))) (workspaces (page s))).
        assert (US : forall v, In v us <-> (In v (executed s) /\ ~ In v (stopped s)) /\ ~ on_page ops v).
        { intros v. unfold us. rewrite filter_In, negb_true_iff, mem_not_In, (in_dom _ _ _ v I), (in_workspaces _ _ _ v I FN). tauto. }
        assert (TK : forall v, In v us -> dget (tk v) (page s) = Some (Task v InPage)).
        { intros v J. apply US in J. destruct J as [[J1 J2] _]. destruct (i_task _ _ _ I v J1) as [X|[_ X]]; [contradiction|exact X]. }
        destruct (delete_all_spec InPage us (page s)) as [A B]; [apply NoDup_filter, NoDup_nodup|exact TK|].
        destruct (delete_all us (page s)) as [ns c]. cbn [fst snd] in A, B. subst c.
        split; cbn [places page module scripts waiting executed stopped]; try apply I; try assumption.
        -- intros _. rewrite B. destruct (mem "ReactPyLayoutHandler" (map ws us ++ map tk us)) eqn:X; [|apply I; reflexivity]. apply mem_In in X. exfalso.
           rewrite in_app_iff, !in_map_iff in X. destruct X as [[v [X _]]|[v [X _]]]; discriminate.
        -- discriminate.
        -- intros v J. rewrite in_app_iff. destruct (in_dec eq_dec v us) as [Y|Y]; [auto|]. destruct (i_task _ _ _ I v J) as [X|[X1 X2]]; [auto|]. right.
           rewrite !B. assert (M1 : mem (ws v) (map ws us ++ map tk us) = false).
           { apply mem_not_In. rewrite in_app_iff, !in_map_iff. intros [[w [E K]]|[w [E K]]]; [apply ws_inj in E; congruence|]. symmetry in E. apply ws_tk in E. exact E. }
           assert (M2 : mem (tk v) (map ws us ++ map tk us) = false).
           { apply mem_not_In. rewrite in_app_iff, !in_map_iff. intros [[w [E K]]|[w [E K]]]; [apply ws_tk in E; exact E|apply tk_inj in E; congruence]. }
           rewrite M1, M2. auto.
        -- intros k J P. rewrite <- dget_In_keys in J. rewrite B in J. destruct (mem k (map ws us ++ map tk us)) eqn:X; [congruence|]. apply mem_not_In in X.
           rewrite dget_In_keys in J. destruct (i_ws _ _ _ I k J P) as [v [-> [E1 E2]]]. exists v. split; [reflexivity|]. split; [exact E1|].
           rewrite in_app_iff. intros [Y|Y]; [contradiction|]. apply X. rewrite in_app_iff. left. apply in_map. exact Y.
        -- intros v J. apply in_app_iff in J. destruct J as [J|J]; [apply GO; exact J|]. apply US in J. destruct J as [[J1 J2] J3]. split; [exact J1|].
           intros q. rewrite AT. intros E. apply J3. exists q. exact E.
Qed.
Lemma new_ids_app a b : new_ids (a ++ b) -> new_ids a.
Proof. unfold new_ids. rewrite shown_app. intros [N F]. apply Forall_app in F. split; [|tauto]. revert N. generalize (shown_ids a), (shown_ids b). intros l m. induction l; cbn; [constructor|]. intros N. inversion N; subst. constructor; [rewrite in_app_iff in *; tauto|auto]. Qed.
Lemma run_snoc imports ops o : run imports (ops ++ [o]) = step imports (run imports ops) o.
Proof. unfold run. rewrite fold_left_app. reflexivity. Qed.
Lemma inv_run imports ops : new_ids ops -> inv imports ops (run imports ops).
Proof.
  induction ops as [|o ops IH] using rev_ind; intros N; [apply inv_start|]. rewrite run_snoc. apply inv_step; [exact N|]. apply IH. apply new_ids_app in N. exact N.
Qed.

(** Every component that is shown has its program run, when PyScript comes to it, and once only. *)
Theorem C88_started imports ops : new_ids ops ->
  NoDup (executed (run imports ops)) /\
  forall u, In u (shown_ids ops) -> In u (executed (run imports ops)) \/ In u (executed (run imports (ops ++ [Exec u]))).
Proof.
  intros N. pose proof (inv_run imports ops N) as I. split.
  - pose proof (i_once _ _ _ I) as O. clear - O. induction (scripts (run imports ops)) as [|x l IH]; cbn in O; [exact O|]. inversion O; auto.
  - intros u J. apply (i_shown _ _ _ I) in J. destruct J as [J|J]; [right|auto]. rewrite run_snoc. cbn [step]. apply mem_In in J. rewrite J.
    destruct (program imports u (page (run imports ops))) as [ns h]. cbn. rewrite in_app_iff. cbn. auto.
Qed.
Print Assumptions C88_started.

(** A component on the page is not stopped. *)
Theorem C88_kept imports ops u : new_ids ops -> on_page ops u -> ~ In u (stopped (run imports ops)).
Proof. intros N [p E] J. destruct (i_gone _ _ _ (inv_run imports ops N) u J) as [_ Y]. exact (Y p E). Qed.
Print Assumptions C88_kept.

Lemma executed_step imports s o u : In u (executed s) -> In u (executed (step imports s o)).
Proof.
  intros J. destruct o as [p v|p|v|v]; cbn [step]; try exact J.
  - destruct (mem v (scripts s)); [|exact J]. destruct (program imports v (page s)) as [ns h]. cbn. rewrite in_app_iff. auto.
  - destruct (dget v (waiting s)) as [h|]; [|exact J]. destruct (mem v (stopped s)); [exact J|].
    destruct h; destruct (delete_old _ _); exact J.
Qed.
Lemma executed_more imports ops more u : In u (executed (run imports ops)) -> In u (executed (run imports (ops ++ more))).
Proof.
  intros J. induction more as [|o more IH] using rev_ind; [rewrite app_nil_r; exact J|]. rewrite app_assoc, run_snoc. apply executed_step. exact IH.
Qed.
Lemma exec_now imports ops u : new_ids ops -> In u (shown_ids ops) -> In u (executed (run imports (ops ++ [Exec u]))).
Proof. intros N J. destruct (C88_started imports ops N) as [_ H]. destruct (H u J) as [X|X]; [apply executed_more|]; exact X. Qed.
Lemma waits imports ops u : new_ids ops -> In u (executed (run imports ops)) -> dget u (waiting (run imports ops)) <> None \/ In (Begin u) ops.
Proof.
  induction ops as [|o ops IH] using rev_ind; intros N J; [destruct J|]. pose proof (inv_run imports ops (new_ids_app _ _ N)) as I. specialize (IH (new_ids_app _ _ N)).
  rewrite in_app_iff. rewrite run_snoc in *. set (s := run imports ops) in *. destruct o as [p v|p|v|v]; cbn [step] in *.
  - cbn in *. tauto.
  - cbn in *. tauto.
  - destruct (mem v (scripts s)); [|cbn; tauto].
    assert (PR : exists ns h, program imports v (page s) = (ns, Some h)).
    { unfold program. rewrite dget_dset_other by discriminate. destruct imports; [rewrite dget_dset_same; eauto|]. rewrite dget_dset_other by discriminate. rewrite (i_class _ _ _ I) by reflexivity. eauto. }
    destruct PR as [ns [h PR]]. rewrite PR in *. cbn in J |- *. apply in_app_iff in J. rewrite dget_app. destruct J as [J|[<-|[]]].
    + destruct (IH J) as [X|X]; [|tauto]. left. destruct (dget u (waiting s)); [discriminate|congruence].
    + left. destruct (dget v (waiting s)); [discriminate|]. cbn. destruct (eq_dec v v); [discriminate|congruence].
  - destruct (eq_dec u v) as [->|D]; [cbn; tauto|].
    assert (J' : In u (executed s)).
    { destruct (dget v (waiting s)) as [h|]; [|exact J]. destruct (mem v (stopped s)); [exact J|]. destruct h; destruct (delete_old _ _); exact J. }
    destruct (IH J') as [X|X]; [|tauto]. left. destruct (dget v (waiting s)) as [h|] eqn:W; [|exact X].
    assert (X' : dget u (ddel v (waiting s)) <> None) by (rewrite dget_ddel_other by exact D; exact X).
    destruct (mem v (stopped s)); [exact X'|]. destruct h; destruct (delete_old _ _); exact X'.
Qed.

(** Without the import of the class in the program, a component that has left the page would be stopped when the next one starts. *)
Theorem C88_clean_partial ops u : new_ids ops -> on_page ops u -> In u (executed (run false ops)) -> ~ In (Begin u) ops ->
  forall v, running (run false (ops ++ [Begin u])) v -> on_page ops v.
Proof.
  intros N P E NB v [R1 R2]. pose proof (inv_run false ops N) as I. pose proof (C88_kept false ops u N P) as K.
  destruct (waits false ops u N E) as [W|W]; [|contradiction]. rewrite run_snoc in *. set (s := run false ops) in *. cbn [step] in *.
  destruct (dget u (waiting s)) as [h|] eqn:WU; [|congruence]. apply dget_Some_In, (i_wait _ _ _ I) in WU. cbn in WU. subst h.
  apply mem_not_In in K. rewrite K in *. unfold delete_old in *.
  set (us := filter (fun v => negb (mem v (dom s))) (workspaces (page s))) in *.
  assert (US : forall v, In v us <-> (In v (executed s) /\ ~ In v (stopped s)) /\ ~ on_page ops v).
  { intros w. unfold us. rewrite filter_In, negb_true_iff, mem_not_In, (in_dom _ _ _ w I), (in_workspaces _ _ _ w I (proj2 N)). tauto. }
  destruct (delete_all_spec InPage us (page s)) as [A _]; [apply NoDup_filter, NoDup_nodup| |].
  { intros w J. apply US in J. destruct J as [[J1 J2] _]. destruct (i_task _ _ _ I w J1) as [X|[_ X]]; [contradiction|exact X]. }
  destruct (delete_all us (page s)) as [ns c]. cbn in *. subst c. rewrite in_app_iff in R2.
  destruct (mem v (dom s)) eqn:M; [apply mem_In, (in_dom _ _ _ v I) in M; exact M|]. exfalso. apply R2. right. apply US.
  apply mem_not_In in M. rewrite (in_dom _ _ _ v I) in M. tauto.
Qed.
Print Assumptions C88_clean_partial.

(** Finding: with the import, [globals()] of the class is not the page's, so no component is ever stopped and no code deleted,
    wherever and for however long nothing is shown of it. *)
Theorem C88_leak_refuted ops : new_ids ops ->
  forall u, In u (executed (run true ops)) -> running (run true ops) u /\ dget ("user_workspace_" ++ u)%string (page (run true ops)) = Some Function.
Proof.
  intros N u J. pose proof (inv_run true ops N) as I. pose proof (i_stop _ _ _ I eq_refl) as S. unfold running. rewrite S.
  destruct (i_task _ _ _ I u J) as [X|[X _]]; [rewrite S in X; destruct X|]. cbn. tauto.
Qed.
Print Assumptions C88_leak_refuted.

(** After a reconnection the component is shown and runs, whatever was there before. *)
Theorem C88_reconnect ops p u0 u : let ops' := ops ++ [render p false u0; render p true u; Exec u] in
  new_ids ops' -> at_place p ops' None = Some u /\ running (run true ops') u.
Proof.
  cbn zeta. intros N. split.
  - rewrite at_place_app. cbn. rewrite Nat.eqb_refl. reflexivity.
  - apply C88_leak_refuted; [exact N|]. change [render p false u0; render p true u; Exec u] with ([Hide p; Show p u] ++ [Exec u]) in *.
    rewrite app_assoc in *. apply exec_now; [apply new_ids_app in N; exact N|]. rewrite shown_app. apply in_app_iff. cbn. auto.
Qed.
Print Assumptions C88_reconnect.

(** Finding: a component is started anew, with a new id, at every render of its parent, so that its state in the browser is lost;
    the earlier ones, no longer on the page, all run on. *)
Theorem C88_rerender_refuted us u : NoDup (us ++ [u]) -> Forall (nochar "_") (us ++ [u]) ->
  let ops := flat_map (fun u => [render 0 true u; Exec u; Begin u]) (us ++ [u]) in
  (forall v, on_page ops v <-> v = u) /\ forall v, In v (us ++ [u]) -> running (run true ops) v.
Proof.
  intros ND F ops. assert (SH : forall l, shown_ids (flat_map (fun u => [render 0 true u; Exec u; Begin u]) l) = l).
  { induction l as [|x l IH]; [reflexivity|]. cbn. f_equal. exact IH. }
  assert (NI : new_ids ops) by (unfold new_ids, ops; rewrite SH; auto). split.
  - intros v. unfold on_page, ops. rewrite flat_map_app. cbn [flat_map app]. split.
    + intros [p E]. rewrite at_place_app in E. cbn in E. destruct p; cbn in E; [congruence|]. exfalso. clear - E.
      assert (G : forall l x, at_place (S p) (flat_map (fun u => [render 0 true u; Exec u; Begin u]) l) x = x) by (induction l as [|y l IH]; intros x; [reflexivity|cbn; apply IH]).
      rewrite G in E. discriminate.
    + intros ->. exists 0. rewrite at_place_app. reflexivity.
  - intros v J. apply C88_leak_refuted; [exact NI|]. apply in_split in J. destruct J as [a [b J]]. unfold ops. rewrite J. rewrite flat_map_app. cbn [flat_map].
    set (A := flat_map _ a). set (B := flat_map _ b). change (A ++ [render 0 true v; Exec v; Begin v] ++ B) with (A ++ ([Show 0 v; Exec v] ++ ([Begin v] ++ B))).
    rewrite app_assoc. apply executed_more.
    change [Show 0 v; Exec v] with ([Show 0 v] ++ [Exec v]). rewrite app_assoc. apply exec_now; [|rewrite shown_app, in_app_iff; cbn; auto]. unfold A.
    unfold new_ids. rewrite shown_app, SH. cbn. rewrite J in ND, F. change (v :: b) with ([v] ++ b) in ND, F. rewrite app_assoc in ND, F. apply Forall_app in F. split; [|tauto].
    revert ND. generalize (a ++ [v]). intros l. clear. induction l; cbn; [constructor|]. intros N. inversion N; subst. constructor; [rewrite in_app_iff in *; tauto|auto].
Qed.
Print Assumptions C88_rerender_refuted.

(** Two components come and one goes before a third starts. *)
Example C88_example : let ops := [Show 0 "a1"; Show 1 "b2"; Exec "b2"; Exec "a1"; Begin "b2"; Begin "a1"; Hide 0; Show 2 "c3"; Exec "c3"] in
  new_ids ops /\ on_page ops "c3" /\ ~ on_page ops "a1" /\ In "c3" (executed (run false ops)) /\ ~ In (Begin "c3") ops /\
  stopped (run false (ops ++ [Begin "c3"])) = ["a1"] /\ stopped (run true (ops ++ [Begin "c3"])) = [].
Proof.
  cbn zeta. repeat match goal with |- _ /\ _ => split end; try (vm_compute; reflexivity).
  - split; cbn; [|repeat constructor; discriminate].
    repeat (constructor; [cbn; intros X; repeat (destruct X as [X|X]; [discriminate X|]); exact X|]). constructor.
  - exists 2. reflexivity.
  - intros [p E]. destruct p as [|[|[|p]]]; discriminate.
  - vm_compute. auto.
  - cbn. intros X. repeat (destruct X as [X|X]; try discriminate X). exact X.
Qed.
