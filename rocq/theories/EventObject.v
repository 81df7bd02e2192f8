(** * Conversion of browser events to plain data (/repo/src/js/packages/event-to-object/src/index.ts); property C76 *)
From Coq Require Import String Ascii ZArith Bool Arith Lia List.
From Verif Require Import Dict Strings.
Import ListNotations.
Local Open Scope string_scope. Local Open Scope list_scope.

(** ** Objects of the browser *)
Inductive prim := PStr (s : string) | PNum (z : Z) | PBool (b : bool).
(** A JavaScript value; [JObj n] is the object with number [n]. Symbols and big integers are left out. *)
Inductive jsv := JNull | JUndef | JFun | JPrim (p : prim) | JObj (n : nat).
(** [KIgnored]: CSSStyleSheet, Window or Document; [KStyle]: CSSStyleDeclaration; [KForm]: HTMLFormElement (a Node, too). *)
Inductive class := KOther | KIgnored | KStyle | KNode | KForm.
(** A property: its name, whether [for in] visits it, and its value; [None] when reading it raises. *)
Record prop := Prop_ { p_key : string; p_enum : bool; p_val : option jsv }.
(** [o_items]: the items, for arrays and array-like objects (index.ts:113-122); [o_elements]: the elements of a form. *)
Record obj := Obj { o_class : class; o_items : option (list (option jsv)); o_props : list prop; o_elements : list nat }.
Definition empty_obj : obj := Obj KOther None [] [].
Definition heap := list obj.
Definition get (h : heap) (n : nat) : obj := nth n h empty_obj.

(** ** The conversion *)
(** [/^[A-Z_]+$/.test(keyName)] with [keyName.length > 0], index.ts:279. *)
Definition shout (a : ascii) : bool := (Nat.leb 65 (nat_of_ascii a) && Nat.leb (nat_of_ascii a) 90) || Ascii.eqb a "_".
Fixpoint all_shout (s : string) : bool := match s with EmptyString => true | String a s' => shout a && all_shout s' end.
(** The names that are left out of DOM nodes, index.ts:289-321. *)
Definition node_names : list string :=
  ["parentNode"; "parentElement"; "ownerDocument"; "getRootNode"; "childNodes"; "children"; "firstChild"; "lastChild"; "previousSibling"; "nextSibling";
   "previousElementSibling"; "nextElementSibling"; "innerHTML"; "outerHTML"; "offsetParent"; "offsetWidth"; "offsetHeight"; "offsetLeft"; "offsetTop";
   "clientTop"; "clientLeft"; "clientWidth"; "clientHeight"; "scrollWidth"; "scrollHeight"; "scrollTop"; "scrollLeft"].
(** [shouldIgnoreValue], index.ts:266-323. [parent]: the class of the parent, if one is passed. *)
Definition ignore (h : heap) (v : jsv) (key : string) (parent : option class) : bool :=
  match v with JNull | JUndef => true | _ => false end
  || String.prefix "__" key
  || (negb (String.eqb key "") && all_shout key)
  || match v with JFun => true | _ => false end
  || match v with JObj n => match o_class (get h n) with KIgnored => true | _ => false end | _ => false end
  || mem key ["view"; "size"; "length"]
  || match parent, v with Some KStyle, JPrim (PStr "") => true | _, _ => false end
  || match parent with Some KNode | Some KForm => mem key node_names | _ => false end.

(** [ONull] only occurs in the selection. *)
Inductive out := ONull | OPrim (p : prim) | OArr (l : list out) | OObj (kvs : list (string * out)).
(** [Stop] is [maxDepthSignal]; [Throw] an exception; [Fuel] only says that the model's fuel is too small. *)
Inductive res (A : Type) := Val (a : A) | Stop | Throw | Fuel.
Arguments Val {A} _. Arguments Stop {A}. Arguments Throw {A}. Arguments Fuel {A}.

Section loops.
  Variable h : heap.
  (** [deepCloneClass] for a given depth. *)
  Variable cl : nat -> jsv -> res out.
  (** [classToArray], index.ts:131-158. *)
  Fixpoint items_loop (d : nat) (l : list (option jsv)) : res (list out) :=
    match l with
    | [] => Val []
    | None :: _ => Throw
    | Some v :: l' =>
        if ignore h v "" None then items_loop d l'
        else match cl d v with
             | Val o => match items_loop d l' with Val os => Val (o :: os) | r => r end
             | Stop => items_loop d l'
             | Throw => Throw
             | Fuel => Fuel
             end
    end.
  (** The loop of [classToObject], index.ts:171-191, and of [convert], index.ts:23-43: a value that cannot be read or
      converted is skipped. *)
  Fixpoint props_loop (parent : option class) (d : nat) (l : list prop) (acc : dict string out) : res (dict string out) :=
    match l with
    | [] => Val acc
    | p :: l' =>
        if p_enum p then
          match p_val p with
          | None => props_loop parent d l' acc
          | Some v =>
              if ignore h v (p_key p) parent then props_loop parent d l' acc
              else match cl d v with
                   | Val o => props_loop parent d l' (dset (p_key p) o acc)
                   | Stop | Throw => props_loop parent d l' acc
                   | Fuel => Fuel
                   end
          end
        else props_loop parent d l' acc
    end.
  (** The properties that are read even if [for in] does not visit them, index.ts:193-232; [depth] is the depth used. *)
  Definition find_prop (k : string) (o : obj) : option prop := find (fun p => String.eqb (p_key p) k) (o_props o).
  Definition extra (o : obj) (k : string) (d : nat) (acc : dict string out) : res (dict string out) :=
    match find_prop k o with
    | None => Val acc
    | Some p =>
        if dmem k acc then Val acc
        else match p_val p with
             | None => Throw
             | Some v =>
                 if ignore h v k (Some (o_class o)) then Val acc
                 else match cl d v with
                      | Val x => Val (dset k x acc)
                      | Stop => Val acc
                      | Throw => Throw
                      | Fuel => Fuel
                      end
             end
    end.
  Definition bind {A B} (r : res A) (f : A -> res B) : res B :=
    match r with Val a => f a | Stop => Stop | Throw => Throw | Fuel => Fuel end.
  Definition extras (o : obj) (d : nat) (acc : dict string out) : res (dict string out) :=
    bind (extra o "dataset" d acc) (fun acc =>
    bind (extra o "value" d acc) (fun acc =>
    bind (extra o "checked" d acc) (fun acc =>
    bind (extra o "files" (Nat.max d 3) acc) (fun acc =>
    bind (extra o "type" d acc) (fun acc => extra o "name" d acc))))).
  (** The elements of a form, index.ts:234-261. A name that is not a string is not modelled (it is taken as absent). *)
  Fixpoint elements_loop (o : obj) (d : nat) (l : list nat) (acc : dict string out) : res (dict string out) :=
    match l with
    | [] => Val acc
    | n :: l' =>
        match find_prop "name" (get h n) with
        | Some p =>
            match p_val p with
            | None => Throw
            | Some (JPrim (PStr k)) =>
                if String.eqb k "" || dmem k acc || ignore h (JObj n) k (Some (o_class o)) then elements_loop o d l' acc
                else match cl d (JObj n) with
                     | Val x => elements_loop o d l' (dset k x acc)
                     | Stop => elements_loop o d l' acc
                     | Throw => Throw
                     | Fuel => Fuel
                     end
            | Some _ => elements_loop o d l' acc
            end
        | None => elements_loop o d l' acc
        end
    end.
  (** [classToObject], index.ts:160-264. *)
  Definition to_object (o : obj) (d : nat) : res out :=
    bind (props_loop (Some (o_class o)) d (o_props o) []) (fun acc =>
    bind (extras o d acc) (fun acc =>
    bind (match o_class o with KForm => elements_loop o d (o_elements o) acc | _ => Val acc end) (fun acc => Val (OObj acc)))).
End loops.

(** [deepCloneClass], index.ts:87-129: [d] is [_maxDepth], [vis] the objects being converted. *)
Fixpoint clone (fuel : nat) (h : heap) (vis : list nat) (d : nat) (v : jsv) : res out :=
  match fuel with
  | 0 => Fuel
  | S fuel' =>
      match v with
      | JObj n =>
          if Nat.leb (d - 1) 0 then Stop
          else if existsb (Nat.eqb n) vis then Stop
          else match o_items (get h n) with
               | Some items => bind (items_loop h (clone fuel' h (n :: vis)) (d - 1) items) (fun l => Val (OArr l))
               | None => to_object h (clone fuel' h (n :: vis)) (get h n) (d - 1)
               end
      | JPrim p => Val (OPrim p)
      | _ => Throw
      end
  end.

(** [serializeSelection], index.ts:57-85, with the selected text and offsets given; [maxDepthSignal] is written as it is. *)
Record selection := Sel { s_fields : list (string * out); s_anchor : option nat; s_focus : option nat }.
Definition signal : out := OObj [("__stop__", OPrim (PBool true))].
Definition node_value (cl : jsv -> res out) (n : option nat) : res out :=
  match n with None => Val ONull | Some n => match cl (JObj n) with Stop => Val signal | r => r end end.
Definition selection_value (cl : jsv -> res out) (s : option selection) : res out :=
  match s with
  | None => Val ONull
  | Some s => bind (node_value cl (s_anchor s)) (fun a => bind (node_value cl (s_focus s)) (fun f =>
                Val (OObj (s_fields s ++ [("anchorNode", a); ("focusNode", f)]))))
  end.
(** [convert], index.ts:6-55, of the object [n]; [sel]: [Some s] if it is an [Event] and [s] the current selection. An
    array is visited by its indices here: its [o_props] hold "0", "1", ... *)
Definition convert_fuel (fuel : nat) (h : heap) (d : nat) (n : nat) (sel : option (option selection)) : res out :=
  bind (props_loop h (clone fuel h [n]) None d (o_props (get h n)) []) (fun acc =>
    match sel with
    | None => Val (OObj acc)
    | Some s => bind (selection_value (clone fuel h [n] d) s) (fun x => Val (OObj (dset "selection" x acc)))
    end).
Definition convert (h : heap) := convert_fuel (2 + length h) h.

(** ** Specification *)
(** The property [k] of [o] has the value [v] and is visited or one of those that are always read, or [v] is the element named [k] of the form [o]. *)
Inductive child (h : heap) (o : obj) : string -> jsv -> Prop :=
| child_prop p v : In p (o_props o) -> p_enum p = true \/ In (p_key p) ["dataset"; "value"; "checked"; "files"; "type"; "name"] ->
    p_val p = Some v -> child h o (p_key p) v
| child_element n p k : o_class o = KForm -> In n (o_elements o) -> In p (o_props (get h n)) -> p_key p = "name" ->
    p_val p = Some (JPrim (PStr k)) -> child h o k (JObj n).
Definition one_of (l : string) (a : ascii) : Prop := In a (list_ascii_of_string l).
(** Names that are never reported. *)
Definition hidden (k : string) : Prop :=
  (exists r, k = ("__" ++ r)%string) \/ In k ["view"; "size"; "length"] \/
  (k <> "" /\ forall a, In a (list_ascii_of_string k) -> one_of "ABCDEFGHIJKLMNOPQRSTUVWXYZ_" a).
(** Names of DOM nodes that are not reported, values without content. *)
Definition node_hidden : list string :=
  ["childNodes"; "children"; "clientHeight"; "clientLeft"; "clientTop"; "clientWidth"; "firstChild"; "getRootNode"; "innerHTML"; "lastChild";
   "nextElementSibling"; "nextSibling"; "offsetHeight"; "offsetLeft"; "offsetParent"; "offsetTop"; "offsetWidth"; "outerHTML"; "ownerDocument";
   "parentElement"; "parentNode"; "previousElementSibling"; "previousSibling"; "scrollHeight"; "scrollLeft"; "scrollTop"; "scrollWidth"].
Definition useless (h : heap) (v : jsv) : Prop :=
  v = JNull \/ v = JUndef \/ v = JFun \/ exists n, v = JObj n /\ o_class (get h n) = KIgnored.
Definition kept (h : heap) (parent : option class) (k : string) (v : jsv) : Prop :=
  ~ hidden k /\ ~ useless h v /\ ~ (parent = Some KStyle /\ v = JPrim (PStr "")) /\
  ~ ((parent = Some KNode \/ parent = Some KForm) /\ In k node_hidden).
(** [some_of l l']: [l] is [l'] with some items left out. *)
Inductive some_of {A} : list A -> list A -> Prop :=
| so_nil : some_of [] []
| so_take x l l' : some_of l l' -> some_of (x :: l) (x :: l')
| so_skip x l l' : some_of l l' -> some_of l (x :: l').
(** The data [x] comes from [v], without any of the objects in [vis] and without an object inside itself. *)
Inductive from (h : heap) : list nat -> jsv -> out -> Prop :=
| from_prim vis p : from h vis (JPrim p) (OPrim p)
| from_arr vis n items l os : ~ In n vis -> o_items (get h n) = Some items -> some_of (map Some l) items -> Forall (fun v => ~ useless h v) l ->
    Forall2 (from h (n :: vis)) l os -> from h vis (JObj n) (OArr os)
| from_obj vis n kvs : ~ In n vis -> o_items (get h n) = None -> NoDup (map fst kvs) ->
    (forall k x, In (k, x) kvs -> exists v, child h (get h n) k v /\ kept h (Some (o_class (get h n))) k v /\ from h (n :: vis) v x) ->
    from h vis (JObj n) (OObj kvs).
(** The number of nested objects and arrays. *)
Fixpoint height (o : out) : nat :=
  match o with
  | ONull | OPrim _ => 0
  | OArr l => S (list_max (map height l))
  | OObj kvs => S (list_max (map (fun kv => height (snd kv)) kvs))
  end.

(** ** Proofs *)
Lemma shout_spec a : shout a = true <-> one_of "ABCDEFGHIJKLMNOPQRSTUVWXYZ_" a.
Proof.
  assert (E : shout a = existsb (Ascii.eqb a) (list_ascii_of_string "ABCDEFGHIJKLMNOPQRSTUVWXYZ_")) by (destruct a as [[] [] [] [] [] [] [] []]; vm_compute; reflexivity).
  rewrite E, existsb_exists. unfold one_of. split; [intros (x & I & H); apply Ascii.eqb_eq in H; subst; auto|]. intros I. exists a. split; auto. apply Ascii.eqb_refl.
Qed.
Lemma all_shout_spec s : all_shout s = true <-> forall a, In a (list_ascii_of_string s) -> one_of "ABCDEFGHIJKLMNOPQRSTUVWXYZ_" a.
Proof.
  induction s as [|b s IH]; [split; [intros _ a []|reflexivity]|]. cbn [all_shout list_ascii_of_string In]. rewrite andb_true_iff, IH, shout_spec. split.
  - intros [H1 H2] a [->|I]; auto.
  - intros H. split; [apply H; auto|]. intros a I. apply H. auto.
Qed.
Lemma prefix_spec k : String.prefix "__" k = true <-> exists r, k = ("__" ++ r)%string.
Proof.
  split.
  - destruct k as [|a [|b k]].
    + discriminate.
    + cbn [String.prefix]. intros H. destruct (ascii_dec "_" a); discriminate.
    + cbn [String.prefix]. destruct (ascii_dec "_" a) as [<-|]; [|discriminate]. destruct (ascii_dec "_" b) as [<-|]; [|discriminate]. intros _. exists k. reflexivity.
  - intros [r ->]. cbn. destruct r; reflexivity.
Qed.
Lemma node_hidden_iff k : In k node_names <-> In k node_hidden.
Proof. unfold node_names, node_hidden. cbn [In]. tauto. Qed.
Lemma hidden_spec k : hidden k <-> String.prefix "__" k || (negb (String.eqb k "") && all_shout k) || mem k ["view"; "size"; "length"] = true.
Proof.
  unfold hidden. rewrite !orb_true_iff, andb_true_iff, negb_true_iff, String.eqb_neq, all_shout_spec, prefix_spec, mem_In. tauto.
Qed.
Lemma ignore_spec h v k parent : ignore h v k parent = false <-> kept h parent k v.
Proof.
  unfold kept. rewrite hidden_spec. unfold ignore, useless. rewrite !orb_false_iff, !orb_true_iff. split.
  - intros [[[[[[[H1 H2] H3] H4] H5] H6] H7] H8]. rewrite H2, H3, H6. split; [intuition discriminate|]. split; [|split].
    + intros [->|[->|[->|(n & -> & H)]]]; try discriminate. rewrite H in H5. discriminate.
    + intros [-> ->]. discriminate.
    + intros [[-> | ->] I]; apply node_hidden_iff in I; apply mem_not_In in H8; contradiction.
  - intros (H & U & S & N). repeat split.
    + destruct v; auto; exfalso; apply U; auto.
    + destruct (String.prefix "__" k); auto. exfalso. apply H. auto.
    + destruct (negb (String.eqb k "") && all_shout k); auto. exfalso. apply H. auto.
    + destruct v; auto. exfalso. apply U. auto.
    + destruct v as [| | | |n]; auto. destruct (o_class (get h n)) eqn:C; auto. exfalso. apply U. right. right. right. eauto.
    + destruct (mem k _); auto. exfalso. apply H. auto.
    + destruct parent as [[]|]; auto. destruct v as [| | |[[|a s]| |]|]; auto. exfalso. apply S. auto.
    + destruct parent as [[]|]; auto; apply mem_not_In; intros I; apply N; split; auto; apply node_hidden_iff; auto.
Qed.

Lemma dset_in {V} (k : string) (v : V) (d : dict string V) k' v' : In (k', v') (dset k v d) -> (k' = k /\ v' = v) \/ In (k', v') d.
Proof.
  induction d as [|[a b] d IH]; cbn [dset]; [intros [H|[]]; left; injection H; auto|]. destruct (eq_dec k a).
  - intros [H|H]; [left; injection H; subst; auto|right; right; auto].
  - intros [H|H]; [right; left; auto|]. destruct (IH H); auto. right. right. auto.
Qed.
Section loop_facts.
  Variable h : heap.
  Variable cl : nat -> jsv -> res out.
  (** *** Fuel *)
  Hypothesis NF : forall d v, cl d v <> Fuel.
  Lemma items_fuel d l : items_loop h cl d l <> Fuel.
  Proof.
    induction l as [|[v|] l IH]; cbn [items_loop]; try discriminate. destruct (ignore _ _ _ _); auto. pose proof (NF d v). destruct (cl d v); try congruence.
    destruct (items_loop h cl d l); congruence.
  Qed.
  Lemma props_fuel parent d l : forall acc, props_loop h cl parent d l acc <> Fuel.
  Proof.
    induction l as [|p l IH]; intros acc; cbn [props_loop]; [discriminate|]. destruct (p_enum p); auto. destruct (p_val p) as [v|]; auto. destruct (ignore _ _ _ _); auto.
    pose proof (NF d v). destruct (cl d v); auto.
  Qed.
  Lemma extra_fuel o k d acc : extra h cl o k d acc <> Fuel.
  Proof.
    unfold extra. destruct (find_prop k o) as [p|]; [|discriminate]. destruct (dmem k acc); [discriminate|]. destruct (p_val p) as [v|]; [|discriminate]. destruct (ignore _ _ _ _); [discriminate|].
    pose proof (NF d v). destruct (cl d v); congruence.
  Qed.
  Lemma bind_fuel {A B} (r : res A) (f : A -> res B) : r <> Fuel -> (forall a, f a <> Fuel) -> bind r f <> Fuel.
  Proof. destruct r; cbn; intros; auto; discriminate. Qed.
  Lemma extras_fuel o d acc : extras h cl o d acc <> Fuel.
  Proof. unfold extras. repeat (apply bind_fuel; [apply extra_fuel|intros]). apply extra_fuel. Qed.
  Lemma elements_fuel o d l : forall acc, elements_loop h cl o d l acc <> Fuel.
  Proof.
    induction l as [|n l IH]; intros acc; cbn [elements_loop]; [discriminate|]. destruct (find_prop "name" (get h n)) as [p|]; auto. destruct (p_val p) as [[| | |[k| |]|]|]; auto; [|discriminate].
    destruct (_ || _); auto. pose proof (NF d (JObj n)). destruct (cl d (JObj n)); auto; discriminate.
  Qed.
  Lemma to_object_fuel o d : to_object h cl o d <> Fuel.
  Proof.
    unfold to_object. apply bind_fuel; [apply props_fuel|intros]. apply bind_fuel; [apply extras_fuel|intros]. apply bind_fuel; [|discriminate].
    destruct (o_class o); try discriminate. apply elements_fuel.
  Qed.
End loop_facts.

(** A larger fuel gives the same result. *)
Section more_fuel.
  Variable h : heap.
  Variables cl cl' : nat -> jsv -> res out.
  Hypothesis MORE : forall d v, cl d v <> Fuel -> cl' d v = cl d v.
  Ltac more d v := let E := fresh in pose proof (MORE d v) as E; destruct (cl d v); [rewrite E by discriminate|rewrite E by discriminate|rewrite E by discriminate|congruence].
  Lemma items_more d l : items_loop h cl d l <> Fuel -> items_loop h cl' d l = items_loop h cl d l.
  Proof.
    induction l as [|[v|] l IH]; cbn [items_loop]; auto. destruct (ignore _ _ _ _); auto. intros H. more d v; auto.
    rewrite IH; auto. intros E. rewrite E in H. auto.
  Qed.
  Lemma props_more parent d l : forall acc, props_loop h cl parent d l acc <> Fuel -> props_loop h cl' parent d l acc = props_loop h cl parent d l acc.
  Proof.
    induction l as [|p l IH]; intros acc; cbn [props_loop]; auto. destruct (p_enum p); auto. destruct (p_val p) as [v|]; auto. destruct (ignore _ _ _ _); auto. intros H. more d v; auto.
  Qed.
  Lemma extra_more o k d acc : extra h cl o k d acc <> Fuel -> extra h cl' o k d acc = extra h cl o k d acc.
  Proof.
    unfold extra. destruct (find_prop k o) as [p|]; auto. destruct (dmem k acc); auto. destruct (p_val p) as [v|]; auto. destruct (ignore _ _ _ _); auto. intros H. more d v; auto.
  Qed.
  Lemma bind_more {A B} (r r' : res A) (f f' : A -> res B) : (r <> Fuel -> r' = r) -> (forall a, f a <> Fuel -> f' a = f a) -> bind r f <> Fuel -> bind r' f' = bind r f.
  Proof. intros H1 H2 H3. rewrite H1; [destruct r; cbn in *; auto|]. intros ->. apply H3. reflexivity. Qed.
  Lemma extras_more o d acc : extras h cl o d acc <> Fuel -> extras h cl' o d acc = extras h cl o d acc.
  Proof. unfold extras. repeat (apply bind_more; [apply extra_more|intros ?]). apply extra_more. Qed.
  Lemma elements_more o d l : forall acc, elements_loop h cl o d l acc <> Fuel -> elements_loop h cl' o d l acc = elements_loop h cl o d l acc.
  Proof.
    induction l as [|n l IH]; intros acc; cbn [elements_loop]; auto. destruct (find_prop "name" (get h n)) as [p|]; auto. destruct (p_val p) as [[| | |[k| |]|]|]; auto.
    destruct (_ || _); auto. intros H. more d (JObj n); auto.
  Qed.
  Lemma to_object_more o d : to_object h cl o d <> Fuel -> to_object h cl' o d = to_object h cl o d.
  Proof.
    unfold to_object. apply bind_more; [apply props_more|intros a]. apply bind_more; [apply extras_more|intros a']. apply bind_more; [|auto].
    destruct (o_class o); auto. apply elements_more.
  Qed.
End more_fuel.
Lemma clone_S fuel h vis d v : clone (S fuel) h vis d v =
  match v with
  | JObj n =>
      if Nat.leb (d - 1) 0 then Stop
      else if existsb (Nat.eqb n) vis then Stop
      else match o_items (get h n) with
           | Some items => bind (items_loop h (clone fuel h (n :: vis)) (d - 1) items) (fun l => Val (OArr l))
           | None => to_object h (clone fuel h (n :: vis)) (get h n) (d - 1)
           end
  | JPrim p => Val (OPrim p)
  | _ => Throw
  end.
Proof. reflexivity. Qed.
Lemma clone_more fuel : forall h vis d v, clone fuel h vis d v <> Fuel -> clone (S fuel) h vis d v = clone fuel h vis d v.
Proof.
  induction fuel as [|fuel IH]; intros h vis d v H; [destruct H; reflexivity|]. rewrite clone_S in H. rewrite (clone_S (S fuel)), (clone_S fuel).
  destruct v as [| | | |n]; auto. destruct (Nat.leb _ _); auto. destruct (existsb _ _); auto. destruct (o_items (get h n)) as [items|].
  - revert H. apply bind_more; auto. apply items_more. auto.
  - revert H. apply to_object_more. auto.
Qed.
Lemma clone_more' fuel fuel' h vis d v : fuel <= fuel' -> clone fuel h vis d v <> Fuel -> clone fuel' h vis d v = clone fuel h vis d v.
Proof. intros L H. induction L as [|m L IH]; auto. rewrite clone_more; auto. rewrite IH. auto. Qed.

Lemma vis_bound (vis : list nat) N : NoDup vis -> Forall (fun n => n < N) vis -> length vis <= N.
Proof.
  intros ND F. rewrite <- (seq_length N 0). apply NoDup_incl_length; auto. intros x I. rewrite Forall_forall in F. apply in_seq. specialize (F x I). lia.
Qed.
Lemma get_out h n : length h <= n -> get h n = empty_obj.
Proof. intros L. apply nth_overflow. auto. Qed.
Lemma clone_fuel fuel : forall h vis d v, NoDup vis -> Forall (fun n => n < length h) vis -> 2 + length h <= fuel + length vis -> clone fuel h vis d v <> Fuel.
Proof.
  induction fuel as [|fuel IH]; intros h vis d v ND F L.
  - pose proof (vis_bound vis _ ND F). lia.
  - cbn [clone]. destruct v as [| | | |n]; try discriminate. destruct (Nat.leb _ _); [discriminate|]. destruct (existsb (Nat.eqb n) vis) eqn:X; [discriminate|].
    assert (NI : ~ In n vis).
    { intros I. assert (existsb (Nat.eqb n) vis = true) by (apply existsb_exists; exists n; split; auto; apply Nat.eqb_refl). congruence. }
    destruct (Nat.lt_ge_cases n (length h)) as [LT|GE].
    + assert (CL : forall d' v', clone fuel h (n :: vis) d' v' <> Fuel) by (intros; apply IH; [constructor; auto|constructor; auto|cbn [length]; lia]).
      destruct (o_items (get h n)); [apply bind_fuel; [apply items_fuel; auto|discriminate]|apply to_object_fuel; auto].
    + rewrite get_out by auto. cbn. discriminate.
Qed.
Lemma top_fuel fuel h n d v : n < length h -> 2 + length h <= fuel -> clone fuel h [n] d v <> Fuel.
Proof. intros LT L. apply clone_fuel; [constructor; [intros []|constructor]|constructor; auto|cbn; lia]. Qed.
Lemma convert_more fuel h d n sel : n < length h -> 2 + length h <= fuel -> convert_fuel fuel h d n sel = convert h d n sel.
Proof.
  intros LT L. unfold convert, convert_fuel.
  assert (M : forall d v, clone fuel h [n] d v = clone (2 + length h) h [n] d v) by (intros; apply clone_more'; auto; apply top_fuel; auto).
  assert (NF : forall d v, clone (2 + length h) h [n] d v <> Fuel) by (intros; apply top_fuel; auto).
  rewrite (props_more h (clone (2 + length h) h [n]) (clone fuel h [n])); [|auto|apply props_fuel; auto].
  destruct (props_loop _ _ _ _ _ _); cbn [bind]; auto. destruct sel as [[s|]|]; auto. cbn [selection_value].
  assert (N : forall x, node_value (clone fuel h [n] d) x = node_value (clone (2 + length h) h [n] d) x) by (intros [x|]; cbn [node_value]; [rewrite M|]; reflexivity).
  rewrite !N. reflexivity.
Qed.
Lemma convert_total h d n sel : n < length h -> convert h d n sel <> Fuel.
Proof.
  intros LT. assert (NF : forall d v, clone (2 + length h) h [n] d v <> Fuel) by (intros; apply top_fuel; auto).
  unfold convert, convert_fuel. apply bind_fuel; [apply props_fuel; auto|]. intros acc. destruct sel as [[s|]|]; [|discriminate|discriminate]. apply bind_fuel; [|discriminate].
  cbn [selection_value]. assert (N : forall x, node_value (clone (2 + length h) h [n] d) x <> Fuel).
  { intros [x|]; cbn [node_value]; [|discriminate]. pose proof (NF d (JObj x)). destruct (clone _ _ _ _ _); congruence. }
  apply bind_fuel; auto. intros a. apply bind_fuel; auto. discriminate.
Qed.

(** *** What the result is made of *)
Section sound.
  Variable h : heap.
  Variable cl : nat -> jsv -> res out.
  Lemma items_in d l : forall os, items_loop h cl d l = Val os -> exists vs, some_of (map Some vs) l /\ Forall2 (fun v o => kept h None "" v /\ cl d v = Val o) vs os.
  Proof.
    induction l as [|[v|] l IH]; cbn [items_loop]; intros os H.
    - injection H as <-. exists []. split; constructor.
    - destruct (ignore h v "" None) eqn:I; [destruct (IH _ H) as (vs & S & F); exists vs; split; [constructor|]; auto|].
      destruct (cl d v) as [o| | |] eqn:C; try discriminate.
      + destruct (items_loop h cl d l) as [os'| | |]; try discriminate. injection H as <-. destruct (IH os') as (vs & S & F); auto. exists (v :: vs). split; [constructor; auto|].
        constructor; auto. split; auto. apply ignore_spec. auto.
      + destruct (IH _ H) as (vs & S & F). exists vs. split; [constructor|]; auto.
    - discriminate.
  Qed.
  (** [k] gets [x] in the result, converted at depth [d]. *)
  Definition comes (o : obj) (parent : option class) (d : nat) (k : string) (x : out) : Prop :=
    exists v d', child h o k v /\ kept h parent k v /\ cl d' v = Val x /\ (d' = d \/ (d' = Nat.max d 3 /\ exists p, In p (o_props o) /\ p_key p = "files" /\ p_val p = Some v)).
  Definition good (o : obj) (parent : option class) (d : nat) (acc : dict string out) : Prop :=
    NoDup (map fst acc) /\ forall k x, In (k, x) acc -> comes o parent d k x.
  Lemma good_set o parent d acc k x : good o parent d acc -> comes o parent d k x -> good o parent d (dset k x acc).
  Proof.
    intros [ND G] C. split; [apply (NoDup_dset k x acc ND)|]. intros k' x' I. apply dset_in in I. destruct I as [[-> ->]|I]; auto.
  Qed.
  Lemma props_in o parent d l : incl l (o_props o) -> forall acc acc', good o parent d acc -> props_loop h cl parent d l acc = Val acc' -> good o parent d acc'.
  Proof.
    induction l as [|p l IH]; intros S acc acc' G H; cbn [props_loop] in H; [injection H as <-; auto|].
    assert (S' : incl l (o_props o)) by (intros x X; apply S; right; auto). specialize (IH S').
    destruct (p_enum p) eqn:EN; eauto. destruct (p_val p) as [v|] eqn:V; eauto. destruct (ignore h v (p_key p) parent) eqn:I; eauto. destruct (cl d v) as [x| | |] eqn:C; eauto; [|discriminate].
    revert H. apply IH. apply good_set; auto. exists v, d. split; [apply child_prop; auto; apply S; left; auto|]. split; [apply ignore_spec; auto|]. auto.
  Qed.
  Lemma find_in k o p : find_prop k o = Some p -> In p (o_props o) /\ p_key p = k.
  Proof. intros H. apply find_some in H. destruct H as [I E]. apply String.eqb_eq in E. auto. Qed.
  Lemma extra_in o k d d' acc acc' : In k ["dataset"; "value"; "checked"; "files"; "type"; "name"] -> (d' = d \/ (k = "files" /\ d' = Nat.max d 3)) -> good o (Some (o_class o)) d acc -> extra h cl o k d' acc = Val acc' -> good o (Some (o_class o)) d acc'.
  Proof.
    intros EX D G. unfold extra. destruct (find_prop k o) as [p|] eqn:F; [|intros E; injection E as <-; auto]. destruct (dmem k acc); [intros E; injection E as <-; auto|].
    destruct (p_val p) as [v|] eqn:V; [|discriminate]. destruct (ignore h v k _) eqn:I; [intros E; injection E as <-; auto|].
    destruct (cl d' v) as [x| | |] eqn:C; try discriminate; intros E; injection E as <-; auto. apply find_in in F. destruct F as [F <-].
    apply good_set; auto. exists v, d'. split; [apply child_prop; auto|]. split; [apply ignore_spec; auto|]. split; auto. destruct D as [D|[D1 D2]]; [left; auto|right]. split; auto. exists p. auto.
  Qed.
  Lemma bind_val {A B} (r : res A) (f : A -> res B) b : bind r f = Val b -> exists a, r = Val a /\ f a = Val b.
  Proof. destruct r as [a| | |]; cbn; try discriminate. eauto. Qed.
  Lemma extras_in o d acc acc' : good o (Some (o_class o)) d acc -> extras h cl o d acc = Val acc' -> good o (Some (o_class o)) d acc'.
  Proof.
    intros G. unfold extras. intros H.
    apply bind_val in H as (a1 & H1 & H). apply bind_val in H as (a2 & H2 & H). apply bind_val in H as (a3 & H3 & H). apply bind_val in H as (a4 & H4 & H). apply bind_val in H as (a5 & H5 & H).
    apply extra_in with (d := d) in H1; [|cbn; tauto|auto|auto]. apply extra_in with (d := d) in H2; [|cbn; tauto|auto|auto]. apply extra_in with (d := d) in H3; [|cbn; tauto|auto|auto].
    apply extra_in with (d := d) in H4; [|cbn; tauto|auto|auto]. apply extra_in with (d := d) in H5; [|cbn; tauto|auto|auto]. apply extra_in with (d := d) in H; [|cbn; tauto|auto|auto]. auto.
  Qed.
  Lemma elements_in o d l : o_class o = KForm -> incl l (o_elements o) -> forall acc acc', good o (Some (o_class o)) d acc -> elements_loop h cl o d l acc = Val acc' -> good o (Some (o_class o)) d acc'.
  Proof.
    intros K. induction l as [|n l IH]; intros S acc acc' G H; cbn [elements_loop] in H; [injection H as <-; auto|].
    assert (S' : incl l (o_elements o)) by (intros x X; apply S; right; auto). specialize (IH S').
    destruct (find_prop "name" (get h n)) as [p|] eqn:F; eauto. destruct (p_val p) as [[| | |[k| |]|]|] eqn:V; eauto; [|discriminate].
    destruct (String.eqb k "" || dmem k acc || ignore h (JObj n) k (Some (o_class o))) eqn:I; eauto. apply orb_false_iff in I as [_ I].
    destruct (cl d (JObj n)) as [x| | |] eqn:C; try discriminate; eauto. revert H. apply IH. apply good_set; auto. apply find_in in F as [F1 F2]. exists (JObj n), d.
    split; [eapply child_element; eauto; apply S; left; auto|]. split; [apply ignore_spec; auto|]. auto.
  Qed.
  Lemma to_object_in o d r : to_object h cl o d = Val r -> exists kvs, r = OObj kvs /\ good o (Some (o_class o)) d kvs.
  Proof.
    unfold to_object. intros H. apply bind_val in H as (a1 & H1 & H). apply bind_val in H as (a2 & H2 & H). apply bind_val in H as (a3 & H3 & H). injection H as <-. exists a3. split; auto.
    apply (props_in o) in H1; [|apply incl_refl|split; [constructor|intros k x []]]. apply extras_in in H2; auto.
    destruct (o_class o) eqn:K; try (injection H3 as <-; auto; fail). rewrite <- K in *. apply elements_in in H3; auto. apply incl_refl.
  Qed.
End sound.
Lemma not_existsb n vis : existsb (Nat.eqb n) vis = false -> ~ In n vis.
Proof. intros X I. assert (existsb (Nat.eqb n) vis = true) by (apply existsb_exists; exists n; split; auto; apply Nat.eqb_refl). congruence. Qed.
Lemma clone_from fuel : forall h vis d v x, clone fuel h vis d v = Val x -> from h vis v x.
Proof.
  induction fuel as [|fuel IH]; intros h vis d v x H; [discriminate|]. rewrite clone_S in H. destruct v as [| | |p|n]; try discriminate; [injection H as <-; constructor|].
  destruct (Nat.leb _ _); [discriminate|]. destruct (existsb _ _) eqn:X; [discriminate|]. apply not_existsb in X. destruct (o_items (get h n)) as [items|] eqn:IT.
  - apply bind_val in H as (os & H & E). injection E as <-. apply items_in in H as (vs & S & F). eapply from_arr; eauto; clear S.
    + induction F as [|a b vs os [K _] F IHF]; constructor; auto. apply K.
    + induction F as [|a b vs os [_ C] F IHF]; constructor; eauto.
  - apply to_object_in in H as (kvs & -> & ND & G). apply from_obj; auto. intros k x I. destruct (G k x I) as (v & d' & C & K & E & _). exists v. split; auto. split; eauto.
Qed.
(** Everything reported about an event is what the page's objects hold, under its own name, without the names and values
    to be left out, and without an object inside itself. *)
Theorem C76_sound h d n r : convert h d n None = Val r -> exists kvs, r = OObj kvs /\ NoDup (map fst kvs) /\
  forall k x, In (k, x) kvs -> exists v, In (Prop_ k true (Some v)) (o_props (get h n)) /\ kept h None k v /\ from h [n] v x.
Proof.
  unfold convert, convert_fuel. intros H. apply bind_val in H as (acc & H & E). injection E as <-. exists acc. split; auto.
  split; [apply (props_in h _ (get h n)) in H; [|apply incl_refl|split; [constructor|intros k x []]]; apply H|].
  assert (G : forall l acc0 acc, incl l (o_props (get h n)) -> props_loop h (clone (2 + length h) h [n]) None d l acc0 = Val acc -> 
    forall k x, In (k, x) acc -> In (k, x) acc0 \/ exists v, In (Prop_ k true (Some v)) (o_props (get h n)) /\ kept h None k v /\ from h [n] v x).
  { clear H. intros l. induction l as [|p l IH]; intros acc0 acc1 S H k x I; cbn [props_loop] in H; [injection H as <-; auto|]. assert (S' : incl l (o_props (get h n))) by (intros y Y; apply S; right; auto).
    destruct (p_enum p) eqn:EN; [|eauto]. destruct (p_val p) as [v|] eqn:V; [|eauto]. destruct (ignore h v (p_key p) None) eqn:IG; [eauto|].
    destruct (clone (2 + length h) h [n] d v) as [y| | |] eqn:C; [|eauto|eauto|discriminate]. destruct (IH _ _ S' H k x I) as [J|J]; auto. apply dset_in in J as [[-> ->]|J]; auto. right. exists v.
    split; [|split; [apply ignore_spec; auto|eapply clone_from; eauto]]. assert (P : In p (o_props (get h n))) by (apply S; left; auto). destruct p as [pk pe pv]. cbn in *. subst. auto. }
  intros k x I. destruct (G _ _ _ (incl_refl _) H k x I) as [[]|J]. auto.
Qed.
(** It always ends, and for an object that is not an [Event] never fails. *)
Theorem C76_terminates h d n sel : n < length h ->
  convert h d n sel <> Fuel /\ (forall fuel, 2 + length h <= fuel -> convert_fuel fuel h d n sel = convert h d n sel) /\
  exists r, convert h d n None = Val r.
Proof.
  intros L. split; [apply convert_total; auto|]. split; [intros; apply convert_more; auto|].
  assert (G : forall cl l acc, (forall v, cl d v <> Fuel) -> exists acc', props_loop h cl None d l acc = Val acc').
  { clear. intros cl l. induction l as [|p l IH]; intros acc NF; cbn [props_loop]; [eauto|]. destruct (p_enum p); auto. destruct (p_val p) as [v|]; auto. destruct (ignore _ _ _ _); auto.
    pose proof (NF v). destruct (cl d v); auto. congruence. }
  unfold convert, convert_fuel. destruct (G (clone (2 + length h) h [n]) (o_props (get h n)) []) as [acc E]; [intros; apply top_fuel; auto|]. rewrite E. eexists. reflexivity.
Qed.

(** *** Depth *)
Definition in_set (F : nat -> Prop) (v : jsv) : Prop := match v with JObj n => F n | _ => True end.
(** Everything that the objects in [F] refer to is in [F]. *)
Definition closed (h : heap) (F : nat -> Prop) : Prop := forall n, F n ->
  (forall k v, child h (get h n) k v -> in_set F v) /\ (forall items v, o_items (get h n) = Some items -> In (Some v) items -> in_set F v).
Definition no_files (h : heap) (n : nat) : Prop := forall p, In p (o_props (get h n)) -> p_key p <> "files".
Lemma some_of_in {A} (l l' : list A) : some_of l l' -> forall x, In x l -> In x l'.
Proof. induction 1; intros y I; auto; [destruct I; [left|right]; auto|right; auto]. Qed.
Lemma list_max_bound {A} (f : A -> nat) l n : (forall x, In x l -> f x <= n) -> list_max (map f l) <= n.
Proof. intros H. apply list_max_le. apply Forall_forall. intros y I. apply in_map_iff in I as (x & <- & I). auto. Qed.
Lemma flat_height F h : closed h F -> (forall n, F n -> no_files h n) -> forall fuel vis d v x, in_set F v -> clone fuel h vis d v = Val x -> height x <= d - 1.
Proof.
  intros CL NF. induction fuel as [|fuel IH]; intros vis d v x V H; [discriminate|]. rewrite clone_S in H. destruct v as [| | |p|n]; try discriminate; [injection H as <-; cbn; lia|].
  destruct (Nat.leb (d - 1) 0) eqn:D; [discriminate|]. apply Nat.leb_gt in D. destruct (existsb _ _); [discriminate|]. cbn [in_set] in V. destruct (o_items (get h n)) as [items|] eqn:IT.
  - apply bind_val in H as (os & H & E). injection E as <-. apply items_in in H as (vs & S & FA). cbn [height].
    assert (B : list_max (map height os) <= d - 1 - 1); [|lia]. apply list_max_bound. intros o O. assert (G : exists v, In v vs /\ clone fuel h (n :: vis) (d - 1) v = Val o).
    { clear -FA O. induction FA as [|a b vs os [_ C] FA IHF]; [destruct O|]. destruct O as [->|O]; [exists a; split; auto; left; auto|]. destruct (IHF O) as (v & I & E). exists v. split; auto. right. auto. }
    destruct G as (v & I & E). apply (IH _ _ _ _) in E; auto. apply (CL n V) with (items := items); auto. apply (some_of_in _ _ S). apply in_map. auto.
  - apply to_object_in in H as (kvs & -> & _ & G). cbn [height]. assert (B : list_max (map (fun kv => height (snd kv)) kvs) <= d - 1 - 1); [|lia]. apply list_max_bound. intros [k y] I. cbn [snd].
    destruct (G k y I) as (v & d' & C & _ & E & [->|[_ (p & P1 & P2 & _)]]); [|destruct (NF n V p P1 P2)]. apply (IH _ _ _ _) in E; auto. apply (CL n V) in C. auto.
Qed.
(** No object below a property [files] has itself a property of that name. *)
Definition flat_files (h : heap) : Prop := exists F, closed h F /\ (forall n, F n -> no_files h n) /\
  forall n p v, In p (o_props (get h n)) -> p_key p = "files" -> p_val p = Some v -> in_set F v.
Lemma files_height h : flat_files h -> forall fuel vis d v x, clone fuel h vis d v = Val x -> height x <= d + 1.
Proof.
  intros (F & CL & NF & FF). induction fuel as [|fuel IH]; intros vis d v x H; [discriminate|]. rewrite clone_S in H. destruct v as [| | |p|n]; try discriminate; [injection H as <-; cbn; lia|].
  destruct (Nat.leb (d - 1) 0) eqn:D; [discriminate|]. apply Nat.leb_gt in D. destruct (existsb _ _); [discriminate|]. destruct (o_items (get h n)) as [items|] eqn:IT.
  - apply bind_val in H as (os & H & E). injection E as <-. apply items_in in H as (vs & S & FA). cbn [height].
    assert (B : list_max (map height os) <= d); [|lia]. apply list_max_bound. intros o O. assert (G : exists v, clone fuel h (n :: vis) (d - 1) v = Val o).
    { clear -FA O. induction FA as [|a b vs os [_ C] FA IHF]; [destruct O|]. destruct O as [->|O]; eauto. }
    destruct G as (v & E). apply IH in E. lia.
  - apply to_object_in in H as (kvs & -> & _ & G). cbn [height]. assert (B : list_max (map (fun kv => height (snd kv)) kvs) <= d); [|lia]. apply list_max_bound. intros [k y] I. cbn [snd].
    destruct (G k y I) as (v & d' & C & _ & E & [->|[-> (p & P1 & P2 & P3)]]); [apply IH in E; lia|].
    apply (flat_height F h CL NF) in E; [lia|]. apply (FF n p v); auto.
Qed.
Lemma top_height h d n b r : (forall v x, clone (2 + length h) h [n] d v = Val x -> height x <= b) -> convert h d n None = Val r -> height r <= S b.
Proof.
  intros B. unfold convert, convert_fuel. intros H. apply bind_val in H as (acc & H & E). injection E as <-. cbn [height]. apply le_n_S, list_max_bound. intros [k x] I. cbn [snd].
  assert (G : forall l acc0, (forall k x, In (k, x) acc0 -> height x <= b) -> props_loop h (clone (2 + length h) h [n]) None d l acc0 = Val acc -> height x <= b).
  { clear H. intros l. induction l as [|p l IH]; intros acc0 A H; cbn [props_loop] in H; [injection H as <-; eauto|]. destruct (p_enum p); eauto. destruct (p_val p) as [v|]; eauto.
    destruct (ignore _ _ _ _); eauto. destruct (clone (2 + length h) h [n] d v) as [y| | |] eqn:C; eauto; [|discriminate]. revert H. apply IH. intros k' x' J. apply dset_in in J as [[-> ->]|J]; eauto. }
  apply (G _ [] ltac:(intros ? ? []) H).
Qed.
(** The depth limit holds if no object has a property [files]; it is exceeded by at most two if no such properties are
    nested. *)
Theorem C76_depth_partial h d n r : 1 <= d -> convert h d n None = Val r ->
  ((forall m, no_files h m) -> height r <= d) /\ (flat_files h -> height r <= d + 2).
Proof.
  intros D H. split.
  - intros NF. replace d with (S (d - 1)) by lia. apply (top_height h d n (d - 1)); auto. intros v x C. revert C. apply (flat_height (fun _ => True) h); auto.
    + intros m _. split; intros; destruct v0; exact I.
    + destruct v; exact I.
  - intros FF. replace (d + 2) with (S (d + 1)) by lia. apply (top_height h d n (d + 1)); auto. intros v x. apply files_height. auto.
Qed.

(** *** Finding: nested properties [files] escape the depth limit *)
Definition chain (N : nat) : heap :=
  map (fun i => Obj KOther None [Prop_ "files" true (Some (if Nat.ltb i N then JObj (S i) else JPrim (PNum 0)))] []) (seq 0 (S N)).
Lemma chain_get N i : i <= N -> get (chain N) i = Obj KOther None [Prop_ "files" true (Some (if Nat.ltb i N then JObj (S i) else JPrim (PNum 0)))] [].
Proof.
  intros L. unfold get, chain. set (f := fun i => Obj KOther None [Prop_ "files" true (Some (if Nat.ltb i N then JObj (S i) else JPrim (PNum 0)))] []).
  rewrite (nth_indep _ empty_obj (f 0)) by (rewrite map_length, seq_length; lia). rewrite map_nth, seq_nth by lia. reflexivity.
Qed.
Lemma chain_kept N i k v : k = "files" -> i <= N -> v = (if Nat.ltb i N then JObj (S i) else JPrim (PNum 0)) -> ignore (chain N) v k (Some KOther) = false.
Proof.
  intros -> L ->. destruct (Nat.ltb_spec i N); [|reflexivity]. unfold ignore. rewrite chain_get by lia. reflexivity.
Qed.
Lemma extra_none h cl o k d acc : find_prop k o = None -> extra h cl o k d acc = Val acc.
Proof. intros H. unfold extra. rewrite H. reflexivity. Qed.
Lemma chain_clone N k : forall i fuel vis d, i + k = N -> Forall (fun m => m < i) vis -> 2 <= d -> 2 + k <= fuel -> exists x, clone fuel (chain N) vis d (JObj i) = Val x /\ k < height x.
Proof.
  induction k as [|k IH]; intros i fuel vis d E F D L.
  - destruct fuel as [|[|fuel]]; [lia|lia|]. rewrite clone_S. destruct (Nat.leb_spec (d - 1) 0); [lia|].
    destruct (existsb (Nat.eqb i) vis) eqn:X; [apply existsb_exists in X as (m & I & M); apply Nat.eqb_eq in M; subst m; rewrite Forall_forall in F; specialize (F i I); lia|].
    rewrite chain_get by lia. cbn [o_items]. unfold to_object. cbn [o_props props_loop p_enum p_val p_key o_class]. rewrite (chain_kept N i) by (auto; lia).
    destruct (Nat.ltb_spec i N); [lia|]. cbn. eexists. split; [reflexivity|]. cbn. lia.
  - destruct fuel as [|fuel]; [lia|]. rewrite clone_S. destruct (Nat.leb_spec (d - 1) 0); [lia|].
    destruct (existsb (Nat.eqb i) vis) eqn:X; [apply existsb_exists in X as (m & I & M); apply Nat.eqb_eq in M; subst m; rewrite Forall_forall in F; specialize (F i I); lia|].
    rewrite chain_get by lia. cbn [o_items]. unfold to_object. cbn [o_props props_loop p_enum p_val p_key o_class]. rewrite (chain_kept N i) by (auto; lia).
    destruct (Nat.ltb_spec i N) as [LT|GE]; [|lia]. assert (F' : Forall (fun m => m < S i) (i :: vis)) by (constructor; [lia|eapply Forall_impl; [|exact F]; cbn; lia]).
    assert (K : ignore (chain N) (JObj (S i)) "files" (Some KOther) = false) by (apply (chain_kept N i); auto; [lia|]; destruct (Nat.ltb_spec i N); [auto|lia]).
    destruct (Nat.le_gt_cases 2 (d - 1)) as [D2|D2].
    + destruct (IH (S i) fuel (i :: vis) (d - 1)) as (x & C & Hx); auto; try lia. rewrite C. cbn [bind]. unfold extras, extra, find_prop.
      cbn -[Nat.max]. eexists. split; [reflexivity|]. cbn. lia.
    + replace (d - 1) with 1 by lia. assert (S1 : clone fuel (chain N) (i :: vis) 1 (JObj (S i)) = Stop) by (destruct fuel; [lia|reflexivity]). rewrite S1. cbn [bind].
      destruct (IH (S i) fuel (i :: vis) 3) as (x & C & Hx); auto; try lia. unfold extras.
      rewrite extra_none by reflexivity. cbn [bind]. rewrite extra_none by reflexivity. cbn [bind]. rewrite extra_none by reflexivity. cbn [bind]. change (Nat.max 1 3) with 3.
      unfold extra at 1. unfold find_prop at 1. cbn [o_props find p_key]. change (String.eqb "files" "files") with true. cbn [dmem dget p_val o_class]. rewrite K, C. cbn [bind].
      rewrite extra_none by reflexivity. cbn [bind]. rewrite extra_none by reflexivity. cbn. eexists. split; [reflexivity|]. cbn. lia.
Qed.
Theorem C76_files_refuted N : exists h r, convert h 10 0 None = Val r /\ N < height r.
Proof.
  exists (chain (S N)). unfold convert, convert_fuel. rewrite chain_get by lia. cbn [o_props props_loop p_enum p_val p_key]. destruct (Nat.ltb_spec 0 (S N)); [|lia].
  assert (K : ignore (chain (S N)) (JObj 1) "files" None = false) by (unfold ignore; rewrite chain_get by lia; reflexivity). rewrite K.
  destruct (chain_clone (S N) N 1 (2 + length (chain (S N))) [0] 10) as (x & C & Hx); auto; try lia; [unfold chain; rewrite map_length, seq_length; lia|]. rewrite C. eexists. split; [reflexivity|]. cbn. lia.
Qed.

(** *** Nothing within the depth limit is lost *)
Inductive step := Key (k : string) | Item.
(** The element [m] has the name [k]. *)
Definition named (h : heap) (m : nat) (k : string) : Prop := exists en, In (Prop_ "name" en (Some (JPrim (PStr k)))) (o_props (get h m)).
(** A way through the page's objects to a number, string or boolean: by properties that [for in] visits or that are read in
    any case, by the elements of forms, by array items; never through an object twice, never by what is to be left out. A
    form's element is only reported if the form has no property of that name and no earlier element has it. *)
Inductive path (h : heap) : list nat -> jsv -> list step -> prim -> Prop :=
| path_end vis p : path h vis (JPrim p) [] p
| path_key vis n k en v st p : ~ In n vis -> o_items (get h n) = None -> In (Prop_ k en (Some v)) (o_props (get h n)) ->
    en = true \/ In k ["dataset"; "value"; "checked"; "files"; "type"; "name"] ->
    kept h (Some (o_class (get h n))) k v -> path h (n :: vis) v st p -> path h vis (JObj n) (Key k :: st) p
| path_element vis n l m l' k st p : ~ In n vis -> o_items (get h n) = None -> o_class (get h n) = KForm -> o_elements (get h n) = l ++ m :: l' ->
    named h m k -> k <> "" -> (forall m', In m' l -> ~ named h m' k) -> ~ In k (map p_key (o_props (get h n))) ->
    kept h (Some KForm) k (JObj m) -> path h (n :: vis) (JObj m) st p -> path h vis (JObj n) (Key k :: st) p
| path_item vis n items v st p : ~ In n vis -> o_items (get h n) = Some items -> In (Some v) items -> ~ useless h v ->
    path h (n :: vis) v st p -> path h vis (JObj n) (Item :: st) p.
Inductive has : out -> list step -> prim -> Prop :=
| has_end p : has (OPrim p) [] p
| has_key kvs k x st p : In (k, x) kvs -> has x st p -> has (OObj kvs) (Key k :: st) p
| has_item l x st p : In x l -> has x st p -> has (OArr l) (Item :: st) p.
(** Property names are distinct; array items and the properties that are read outside of a [try] can be read. *)
Record quiet (h : heap) : Prop := {
  q_keys : forall n, NoDup (map p_key (o_props (get h n)));
  q_items : forall n items, o_items (get h n) = Some items -> ~ In None items;
  q_props : forall n p, In p (o_props (get h n)) -> In (p_key p) ["dataset"; "value"; "checked"; "files"; "type"; "name"] -> p_val p <> None
}.
Section quiet_loops.
  Variable h : heap.
  Variable cl : nat -> jsv -> res out.
  Hypothesis Q : quiet h.
  Hypothesis NT : forall d v, ~ useless h v -> cl d v <> Throw.
  Hypothesis NF : forall d v, cl d v <> Fuel.
  Lemma kept_useful parent k v : ignore h v k parent = false -> ~ useless h v.
  Proof. intros I. apply ignore_spec in I. apply I. Qed.
  Lemma items_quiet d l : ~ In None l -> exists os, items_loop h cl d l = Val os /\
    forall v x, In (Some v) l -> ~ useless h v -> cl d v = Val x -> In x os.
  Proof.
    induction l as [|[v|] l IH]; intros N.
    - exists []. split; [reflexivity|intros v x []].
    - destruct IH as (os & E & A); [intros I; apply N; right; auto|]. cbn [items_loop]. destruct (ignore h v "" None) eqn:I.
      + exists os. split; auto. intros v' x' [J|J] U C; [|eauto]. injection J as ->. exfalso. assert (K : kept h None "" v'); [|apply ignore_spec in K; congruence].
        split; [|split; auto; split; intros [X _]; [discriminate|destruct X; discriminate]]. intros [[r R]|[J|[J _]]]; [destruct r; discriminate|cbn in J; intuition discriminate|congruence].
      + pose proof (NT d v (kept_useful _ _ _ I)). pose proof (NF d v). destruct (cl d v) as [o| | |] eqn:C; try congruence.
        * rewrite E. exists (o :: os). split; auto. intros v' x' [J|J] U C'; [injection J as ->; left; congruence|right; eauto].
        * exists os. split; auto. intros v' x' [J|J] U C'; [injection J as ->; congruence|eauto].
    - exfalso. apply N. left. auto.
  Qed.
  Lemma props_quiet parent d l : NoDup (map p_key l) -> forall acc, exists acc', props_loop h cl parent d l acc = Val acc' /\
    (forall k v x, In (Prop_ k true (Some v)) l -> kept h parent k v -> cl d v = Val x -> dget k acc' = Some x) /\
    (forall k, ~ In k (map p_key l) -> dget k acc' = dget k acc).
  Proof.
    induction l as [|p l IH]; intros ND acc.
    - exists acc. split; [reflexivity|split; [intros k v x []|reflexivity]].
    - cbn [map] in ND. inversion ND as [|? ? NI ND']; subst. cbn [props_loop]. specialize (IH ND').
      assert (SKIP : (forall k v x, p = Prop_ k true (Some v) -> kept h parent k v -> cl d v = Val x -> False) -> exists acc', props_loop h cl parent d l acc = Val acc' /\
        (forall k v x, In (Prop_ k true (Some v)) (p :: l) -> kept h parent k v -> cl d v = Val x -> dget k acc' = Some x) /\ (forall k, ~ In k (map p_key (p :: l)) -> dget k acc' = dget k acc)).
      { intros N. destruct (IH acc) as (acc' & E & A & B). exists acc'. split; auto. split.
        - intros k v x [J|J] K C; [exfalso; eapply N; eauto|eauto].
        - intros k K. apply B. intros J. apply K. right. auto. }
      destruct (p_enum p) eqn:EN; [|apply SKIP; intros k v x -> K C; discriminate]. destruct (p_val p) as [v|] eqn:V; [|apply SKIP; intros k v x -> K C; discriminate].
      destruct (ignore h v (p_key p) parent) eqn:I.
      + apply SKIP. intros k v' x -> K C. cbn in V, I. injection V as ->. apply ignore_spec in K. congruence.
      + pose proof (NF d v). destruct (cl d v) as [o| | |] eqn:C; try congruence.
        * destruct (IH (dset (p_key p) o acc)) as (acc' & E & A & B). exists acc'. split; auto. split.
          -- intros k v' x [J|J] K C'; [|eauto]. subst p. cbn in V, NI, B. injection V as ->. rewrite B by auto. rewrite dget_dset_same. congruence.
          -- intros k K. rewrite B by (intros J; apply K; right; auto). apply dget_dset_other. intros ->. apply K. left. auto.
        * apply SKIP. intros k v' x -> K C'. cbn in V. injection V as ->. congruence.
        * apply SKIP. intros k v' x -> K C'. cbn in V. injection V as ->. congruence.
  Qed.
  Lemma find_named l k p : NoDup (map p_key l) -> In p l -> p_key p = k -> find (fun p => String.eqb (p_key p) k) l = Some p.
  Proof.
    induction l as [|q l IH]; intros ND I K; [destruct I|]. cbn [map] in ND. inversion ND as [|? ? NI ND']; subst. cbn [find]. destruct I as [->|I].
    - rewrite String.eqb_refl. auto.
    - destruct (String.eqb_spec (p_key q) (p_key p)) as [E|]; auto. exfalso. apply NI. rewrite E. apply in_map. auto.
  Qed.
  Lemma silent_absent parent d l k v : NoDup (map p_key l) -> In (Prop_ k false (Some v)) l -> forall acc acc', dget k acc = None -> props_loop h cl parent d l acc = Val acc' -> dget k acc' = None.
  Proof.
    intros ND I. assert (N : forall p, In p l -> p_enum p = true -> p_key p <> k).
    { intros p J E K. pose proof (find_named l k _ ND J K) as X. pose proof (find_named l k _ ND I eq_refl) as Y. rewrite X in Y. injection Y as ->. discriminate. }
    clear ND I. induction l as [|p l IH]; intros acc acc' G E; [injection E as <-; auto|]. cbn [props_loop] in E. assert (N' : forall p, In p l -> p_enum p = true -> p_key p <> k) by (intros; apply N; auto; right; auto).
    destruct (p_enum p) eqn:EN; [|eauto]. destruct (p_val p); [|eauto]. destruct (ignore _ _ _ _); [eauto|]. destruct (cl d j); try discriminate; eauto.
    eapply IH; [eauto| |eauto]. rewrite dget_dset_other; auto. intros K. apply (N p); auto. left. auto.
  Qed.
  Definition more (acc acc' : dict string out) : Prop := forall k x, dget k acc = Some x -> dget k acc' = Some x.
  Lemma set_more k x acc : dmem k acc = false -> more acc (dset k x acc).
  Proof. intros D k' x' G. apply dmem_false in D. rewrite dget_dset_other; auto. intros ->. congruence. Qed.
  Lemma extra_quiet n k d acc : In k ["dataset"; "value"; "checked"; "files"; "type"; "name"] -> exists acc', extra h cl (get h n) k d acc = Val acc' /\ more acc acc' /\
    (forall k', k' <> k \/ ~ In k' (map p_key (o_props (get h n))) -> dget k' acc' = dget k' acc) /\
    (forall en v x, In (Prop_ k en (Some v)) (o_props (get h n)) -> kept h (Some (o_class (get h n))) k v -> cl d v = Val x -> dget k acc = None -> dget k acc' = Some x).
  Proof.
    intros K. unfold extra.
    assert (SAME : (forall en v x, In (Prop_ k en (Some v)) (o_props (get h n)) -> kept h (Some (o_class (get h n))) k v -> cl d v = Val x -> dget k acc = None -> False) -> exists acc', Val acc = Val acc' /\ more acc acc' /\
       (forall k', k' <> k \/ ~ In k' (map p_key (o_props (get h n))) -> dget k' acc' = dget k' acc) /\
       (forall en v x, In (Prop_ k en (Some v)) (o_props (get h n)) -> kept h (Some (o_class (get h n))) k v -> cl d v = Val x -> dget k acc = None -> dget k acc' = Some x)).
    { intros N. exists acc. split; [reflexivity|]. split; [intros k' x G; exact G|]. split; [reflexivity|]. intros en v x I KP C D. destruct (N en v x I KP C D). }
    destruct (find_prop k (get h n)) as [p|] eqn:F.
    2: { apply SAME. intros en v x I _ _ _. unfold find_prop in F. rewrite (find_named _ k _ (q_keys h Q n) I eq_refl) in F. discriminate. }
    assert (U : forall en v, In (Prop_ k en (Some v)) (o_props (get h n)) -> p = Prop_ k en (Some v)).
    { intros en v I. unfold find_prop in F. rewrite (find_named _ k _ (q_keys h Q n) I eq_refl) in F. congruence. }
    apply find_in in F as [F FK].
    destruct (dmem k acc) eqn:D; [apply SAME; intros en v x I _ _ G; apply dmem_true in D as [y D]; congruence|]. destruct (p_val p) as [v|] eqn:V; [|exfalso; subst k; exact (q_props h Q n p F K V)].
    destruct (ignore h v k _) eqn:I; [apply SAME; intros en v' x I' KP _ _; rewrite (U _ _ I') in V; injection V as ->; apply ignore_spec in KP; congruence|].
    pose proof (NT d v (kept_useful _ _ _ I)). pose proof (NF d v). destruct (cl d v) as [o| | |] eqn:C; try congruence.
    - exists (dset k o acc). split; auto. split; [apply set_more; auto|]. split.
      + intros k' [N|N]; apply dget_dset_other; auto. intros ->. apply N. rewrite <- FK. apply in_map. auto.
      + intros en v' x I' _ C' _. rewrite (U _ _ I') in V. injection V as ->. rewrite dget_dset_same. congruence.
    - apply SAME. intros en v' x I' _ C' _. rewrite (U _ _ I') in V. injection V as ->. congruence.
  Qed.
  Lemma more_trans a b c : more a b -> more b c -> more a c.
  Proof. intros H1 H2 k x G. auto. Qed.
  Lemma extras_quiet n d acc : exists acc', extras h cl (get h n) d acc = Val acc' /\ more acc acc' /\
    (forall k, ~ In k (map p_key (o_props (get h n))) -> dget k acc' = dget k acc) /\
    (forall k en v, In k ["dataset"; "value"; "checked"; "files"; "type"; "name"] -> In (Prop_ k en (Some v)) (o_props (get h n)) -> kept h (Some (o_class (get h n))) k v -> dget k acc = None ->
       exists d', d <= d' /\ forall x, cl d' v = Val x -> dget k acc' = Some x).
  Proof.
    unfold extras. destruct (extra_quiet n "dataset" d acc) as (a1 & E1 & M1 & O1 & S1); [cbn; tauto|]. destruct (extra_quiet n "value" d a1) as (a2 & E2 & M2 & O2 & S2); [cbn; tauto|].
    destruct (extra_quiet n "checked" d a2) as (a3 & E3 & M3 & O3 & S3); [cbn; tauto|]. destruct (extra_quiet n "files" (Nat.max d 3) a3) as (a4 & E4 & M4 & O4 & S4); [cbn; tauto|].
    destruct (extra_quiet n "type" d a4) as (a5 & E5 & M5 & O5 & S5); [cbn; tauto|]. destruct (extra_quiet n "name" d a5) as (a6 & E6 & M6 & O6 & S6); [cbn; tauto|].
    rewrite E1. cbn [bind]. rewrite E2. cbn [bind]. rewrite E3. cbn [bind]. rewrite E4. cbn [bind]. rewrite E5. cbn [bind]. exists a6. split; auto.
    split; [do 5 (eapply more_trans; [eassumption|]); assumption|]. split; [intros k N; rewrite O6, O5, O4, O3, O2, O1; auto|].
    intros k en v K I KP G. cbn [In] in K. destruct K as [<-|[<-|[<-|[<-|[<-|[<-|[]]]]]]].
    - exists d. split; auto. intros x C. apply M6, M5, M4, M3, M2. eapply S1; eauto.
    - exists d. split; auto. intros x C. apply M6, M5, M4, M3. eapply S2; eauto. rewrite O1; auto. left. discriminate.
    - exists d. split; auto. intros x C. apply M6, M5, M4. eapply S3; eauto. rewrite O2, O1; auto; left; discriminate.
    - exists (Nat.max d 3). split; [lia|]. intros x C. apply M6, M5. eapply S4; eauto. rewrite O3, O2, O1; auto; left; discriminate.
    - exists d. split; auto. intros x C. apply M6. eapply S5; eauto. rewrite O4, O3, O2, O1; auto; left; discriminate.
    - exists d. split; auto. intros x C. eapply S6; eauto. rewrite O5, O4, O3, O2, O1; auto; left; discriminate.
  Qed.
  Lemma named_val m k p : find_prop "name" (get h m) = Some p -> named h m k -> p_val p = Some (JPrim (PStr k)).
  Proof. intros F [en I]. unfold find_prop in F. rewrite (find_named _ "name" _ (q_keys h Q m) I eq_refl) in F. injection F as <-. auto. Qed.
  Lemma elements_quiet n d l : forall acc, exists acc', elements_loop h cl (get h n) d l acc = Val acc' /\ more acc acc' /\
    (forall l1 m l2 k x, l = l1 ++ m :: l2 -> named h m k -> k <> "" -> (forall m', In m' l1 -> ~ named h m' k) -> kept h (Some (o_class (get h n))) k (JObj m) ->
       cl d (JObj m) = Val x -> dget k acc = None -> dget k acc' = Some x).
  Proof.
    induction l as [|m l IH]; intros acc; [exists acc; split; [reflexivity|split; [intros k' x G; exact G|intros [] ? ? ? ? E; discriminate]]|]. cbn [elements_loop].
    assert (SAME : (forall k x, named h m k -> k <> "" -> kept h (Some (o_class (get h n))) k (JObj m) -> cl d (JObj m) = Val x -> dget k acc = None -> False) ->
      exists acc', elements_loop h cl (get h n) d l acc = Val acc' /\ more acc acc' /\
        (forall l1 m' l2 k x, m :: l = l1 ++ m' :: l2 -> named h m' k -> k <> "" -> (forall m', In m' l1 -> ~ named h m' k) -> kept h (Some (o_class (get h n))) k (JObj m') ->
          cl d (JObj m') = Val x -> dget k acc = None -> dget k acc' = Some x)).
    { intros N. destruct (IH acc) as (acc' & E & M & S). exists acc'. split; auto. split; auto. intros [|m1 l1] m' l2 k x EQ NM NE B KP C G; injection EQ as -> ->.
      - destruct (N k x NM NE KP C G).
      - eapply S; eauto. intros m'' I. apply B. right. auto. }
    destruct (find_prop "name" (get h m)) as [p|] eqn:F.
    2: { apply SAME. intros k x [en I]. unfold find_prop in F. rewrite (find_named _ "name" _ (q_keys h Q m) I eq_refl) in F. discriminate. }
    pose proof (named_val m) as NV. apply find_in in F as [F1 F2]. assert (NV' : forall k, named h m k -> p_val p = Some (JPrim (PStr k))).
    { intros k [en I]. pose proof (find_named _ "name" _ (q_keys h Q m) I eq_refl) as X. pose proof (find_named _ "name" _ (q_keys h Q m) F1 F2) as Y. rewrite X in Y. injection Y as <-. auto. }
    destruct (p_val p) as [[| | |[k| |]|]|] eqn:V; try (apply SAME; intros k' x' N'; specialize (NV' _ N'); discriminate); [|exfalso; apply (q_props h Q m p F1); auto; rewrite F2; cbn; tauto].
    destruct (String.eqb k "" || dmem k acc || ignore h (JObj m) k (Some (o_class (get h n)))) eqn:I.
    { apply SAME. intros k' x' N' NE KP C G. specialize (NV' _ N'). injection NV' as <-. apply ignore_spec in KP. rewrite KP, orb_false_r in I. apply orb_true_iff in I as [I|I].
      - apply String.eqb_eq in I. auto.
      - apply dmem_true in I as [y I]. congruence. }
    apply orb_false_iff in I as [I1 I]. apply orb_false_iff in I1 as [_ D].
    pose proof (NT d (JObj m) (kept_useful _ _ _ I)). pose proof (NF d (JObj m)). destruct (cl d (JObj m)) as [o| | |] eqn:C; try congruence; [|apply SAME; intros; congruence].
    destruct (IH (dset k o acc)) as (acc' & E & M & S). exists acc'. split; auto. split; [apply more_trans with (dset k o acc); [apply set_more; auto|auto]|].
    intros [|m1 l1] m' l2 k' x EQ NM NE B KP C' G; injection EQ as -> ->.
    - specialize (NV' _ NM). injection NV' as ->. apply M. rewrite dget_dset_same. congruence.
    - eapply S; eauto; [intros m'' J; apply B; right; auto|]. rewrite dget_dset_other; auto. intros ->. apply (B m1); [left; auto|]. destruct p as [pk pe pv]. cbn in F2, V. subst. eexists. eauto.
  Qed.
  Lemma object_quiet n d : exists kvs, to_object h cl (get h n) d = Val (OObj kvs) /\
    (forall k en v, In (Prop_ k en (Some v)) (o_props (get h n)) -> en = true \/ In k ["dataset"; "value"; "checked"; "files"; "type"; "name"] -> kept h (Some (o_class (get h n))) k v ->
       exists d', d <= d' /\ forall x, cl d' v = Val x -> dget k kvs = Some x) /\
    (forall l m l' k x, o_class (get h n) = KForm -> o_elements (get h n) = l ++ m :: l' -> named h m k -> k <> "" -> (forall m', In m' l -> ~ named h m' k) ->
       ~ In k (map p_key (o_props (get h n))) -> kept h (Some KForm) k (JObj m) -> cl d (JObj m) = Val x -> dget k kvs = Some x).
  Proof.
    unfold to_object. destruct (props_quiet (Some (o_class (get h n))) d (o_props (get h n)) (q_keys h Q n) []) as (a1 & E1 & A & O). destruct (extras_quiet n d a1) as (a2 & E2 & M2 & O2 & S2).
    rewrite E1. cbn [bind]. rewrite E2. cbn [bind]. assert (X : exists a3, match o_class (get h n) with KForm => elements_loop h cl (get h n) d (o_elements (get h n)) a2 | _ => Val a2 end = Val a3 /\ more a2 a3 /\
      (forall l m l' k x, o_class (get h n) = KForm -> o_elements (get h n) = l ++ m :: l' -> named h m k -> k <> "" -> (forall m', In m' l -> ~ named h m' k) ->
        kept h (Some KForm) k (JObj m) -> cl d (JObj m) = Val x -> dget k a2 = None -> dget k a3 = Some x)).
    { destruct (elements_quiet n d (o_elements (get h n)) a2) as (a3 & E3 & M3 & S3). destruct (o_class (get h n)); try (exists a2; split; [reflexivity|split; [intros k' x G; exact G|intros; discriminate]]).
      exists a3. split; auto. split; auto. intros l m l' k x _. apply S3. }
    destruct X as (a3 & E3 & M3 & S3). rewrite E3. cbn [bind]. exists a3. split; auto. split.
    - intros k en v I [->|K] KP.
      + exists d. split; auto. intros x C. apply M3, M2. eauto.
      + destruct (dget k a1) as [y|] eqn:G.
        * destruct en; [exists d; split; auto; intros x C; apply M3, M2; eauto|]. exfalso. pose proof (silent_absent _ _ _ _ _ (q_keys h Q n) I [] a1 eq_refl E1). congruence.
        * destruct (S2 k en v K I KP G) as (d' & L & B). exists d'. split; auto.
    - intros l m l' k x KF EL NM NE B NI KP C. eapply S3; eauto. rewrite O2 by auto. rewrite O by auto. reflexivity.
  Qed.
End quiet_loops.
Lemma clone_quiet fuel : forall h vis d v, quiet h -> NoDup vis -> Forall (fun n => n < length h) vis -> 2 + length h <= fuel + length vis -> ~ useless h v -> clone fuel h vis d v <> Throw.
Proof.
  induction fuel as [|fuel IH]; intros h vis d v Q ND F L U; [discriminate|]. rewrite clone_S. destruct v as [| | |p|n]; try discriminate; try (exfalso; apply U; unfold useless; tauto).
  destruct (Nat.leb _ _); [discriminate|]. destruct (existsb (Nat.eqb n) vis) eqn:X; [discriminate|]. apply not_existsb in X. destruct (Nat.lt_ge_cases n (length h)) as [LT|GE].
  - assert (CT : forall d' v', ~ useless h v' -> clone fuel h (n :: vis) d' v' <> Throw) by (intros; apply IH; auto; [constructor; auto|cbn [length]; lia]).
    assert (CF : forall d' v', clone fuel h (n :: vis) d' v' <> Fuel) by (intros; apply clone_fuel; [constructor; auto|constructor; auto|cbn [length]; lia]).
    destruct (o_items (get h n)) as [items|] eqn:IT.
    + destruct (items_quiet h (clone fuel h (n :: vis)) CT CF (d - 1) items) as (os & E & _); [eapply q_items; eauto|]. rewrite E. discriminate.
    + destruct (object_quiet h (clone fuel h (n :: vis)) Q CT CF n (d - 1)) as (kvs & E & _). rewrite E. discriminate.
  - rewrite get_out by auto. cbn. discriminate.
Qed.
Lemma dget_in {V} (k : string) (v : V) (d : dict string V) : dget k d = Some v -> In (k, v) d.
Proof. induction d as [|[a b] d IH]; cbn [dget]; [discriminate|]. destruct (eq_dec k a) as [->|]; [intros H; injection H as <-; left; auto|right; auto]. Qed.
Lemma clone_path h st : quiet h -> forall fuel vis d v p, NoDup vis -> Forall (fun n => n < length h) vis -> 2 + length h <= fuel + length vis -> length st < d ->
  path h vis v st p -> exists x, clone fuel h vis d v = Val x /\ has x st p.
Proof.
  intros Q. induction st as [|s st IH]; intros fuel vis d v p ND F L D P.
  - pose proof (vis_bound vis _ ND F). destruct fuel as [|fuel]; [lia|]. inversion P; subst. rewrite clone_S. eexists. split; [reflexivity|]. constructor.
  - pose proof (vis_bound vis _ ND F). destruct fuel as [|fuel]; [lia|]. cbn [length] in D. rewrite clone_S. assert (exists n, v = JObj n /\ ~ In n vis /\ n < length h) as (n & -> & NI & LT).
    { inversion P as [|? n k en v' ? ? NI IT I EN K P'|? n l m l' k ? ? NI IT KF EL NM NE B NP K P'|? n items v' ? ? NI IT I U P']; subst; exists n; split; auto; split; auto;
        (destruct (Nat.lt_ge_cases n (length h)) as [LT|GE]; [exact LT|]); exfalso; rewrite get_out in * by auto; first [destruct I; fail|discriminate]. }
    destruct (Nat.leb_spec (d - 1) 0); [lia|]. destruct (existsb (Nat.eqb n) vis) eqn:X; [apply existsb_exists in X as (m & I' & M); apply Nat.eqb_eq in M; subst m; contradiction|].
    assert (CT : forall d' v', ~ useless h v' -> clone fuel h (n :: vis) d' v' <> Throw) by (intros; apply clone_quiet; auto; [constructor; auto|cbn [length]; lia]).
    assert (CF : forall d' v', clone fuel h (n :: vis) d' v' <> Fuel) by (intros; apply clone_fuel; [constructor; auto|constructor; auto|cbn [length]; lia]).
    assert (IH' : forall d' v', d - 1 <= d' -> path h (n :: vis) v' st p -> exists x, clone fuel h (n :: vis) d' v' = Val x /\ has x st p)
      by (intros; apply IH; [constructor; auto|constructor; auto|cbn [length]; lia|lia|auto]).
    inversion P as [|? ? k en v' ? ? _ IT I EN K P'|? ? l m l' k ? ? _ IT KF EL NM NE B NP K P'|? ? items v' ? ? _ IT I U P']; subst; rewrite IT.
    + destruct (object_quiet h (clone fuel h (n :: vis)) Q CT CF n (d - 1)) as (kvs & E & A & _). rewrite E. destruct (A k en v' I EN K) as (d' & L' & A'). destruct (IH' d' v' L' P') as (x & C & Hx).
      eexists. split; [reflexivity|]. econstructor; eauto. apply dget_in. eauto.
    + destruct (object_quiet h (clone fuel h (n :: vis)) Q CT CF n (d - 1)) as (kvs & E & _ & A). rewrite E. destruct (IH' (d - 1) (JObj m) (le_n _) P') as (x & C & Hx).
      eexists. split; [reflexivity|]. econstructor; eauto. apply dget_in. eapply A; eauto.
    + destruct (items_quiet h (clone fuel h (n :: vis)) CT CF (d - 1) items) as (os & E & A); [eapply q_items; eauto|]. rewrite E. destruct (IH' (d - 1) v' (le_n _) P') as (x & C & Hx).
      eexists. split; [reflexivity|]. econstructor; eauto.
Qed.
Theorem C76_complete h d n k v st p : quiet h -> n < length h -> In (Prop_ k true (Some v)) (o_props (get h n)) -> kept h None k v -> path h [n] v st p -> length st < d ->
  exists r, convert h d n None = Val r /\ has r (Key k :: st) p.
Proof.
  intros Q LT I K P D. destruct (clone_path h st Q (2 + length h) [n] d v p) as (x & C & Hx); auto; [constructor; [intros []|constructor]|cbn; lia|].
  assert (CF : forall d' v', clone (2 + length h) h [n] d' v' <> Fuel) by (intros; apply top_fuel; auto).
  destruct (props_quiet h (clone (2 + length h) h [n]) CF None d (o_props (get h n)) (q_keys h Q n) []) as (acc & E & A & _).
  exists (OObj acc). unfold convert, convert_fuel. rewrite E. split; [reflexivity|]. econstructor; eauto. apply dget_in. eauto.
Qed.

(** *** The selection *)
Lemma items_stop h cl d l : items_loop h cl d l <> Stop.
Proof. induction l as [|[v|] l IH]; cbn [items_loop]; try discriminate. destruct (ignore _ _ _ _); auto. destruct (cl d v); try discriminate; auto. destruct (items_loop h cl d l); congruence. Qed.
Lemma props_stop h cl parent d l : forall acc, props_loop h cl parent d l acc <> Stop.
Proof. induction l as [|p l IH]; intros acc; cbn [props_loop]; [discriminate|]. destruct (p_enum p); auto. destruct (p_val p) as [v|]; auto. destruct (ignore _ _ _ _); auto. destruct (cl d v); auto; discriminate. Qed.
Lemma extra_stop h cl o k d acc : extra h cl o k d acc <> Stop.
Proof. unfold extra. destruct (find_prop k o) as [p|]; [|discriminate]. destruct (dmem k acc); [discriminate|]. destruct (p_val p) as [v|]; [|discriminate]. destruct (ignore _ _ _ _); [discriminate|]. destruct (cl d v); discriminate. Qed.
Lemma bind_stop {A B} (r : res A) (f : A -> res B) : r <> Stop -> (forall a, f a <> Stop) -> bind r f <> Stop.
Proof. destruct r; cbn; auto; congruence. Qed.
Lemma elements_stop h cl o d l : forall acc, elements_loop h cl o d l acc <> Stop.
Proof.
  induction l as [|m l IH]; intros acc; cbn [elements_loop]; [discriminate|]. destruct (find_prop "name" (get h m)) as [p|]; auto. destruct (p_val p) as [[| | |[k| |]|]|]; auto; [|discriminate].
  destruct (_ || _ || _); auto. destruct (cl d (JObj m)); auto; discriminate.
Qed.
Lemma to_object_stop h cl o d : to_object h cl o d <> Stop.
Proof.
  unfold to_object, extras. apply bind_stop; [apply props_stop|]. intros a. apply bind_stop; [repeat (apply bind_stop; [apply extra_stop|intros ?]); apply extra_stop|].
  intros b. apply bind_stop; [|discriminate]. destruct (o_class o); try discriminate. apply elements_stop.
Qed.
Theorem C76_selection h d n s r : convert h d n (Some s) = Val r ->
  exists kvs kvs' x, convert h d n None = Val (OObj kvs) /\ r = OObj kvs' /\ (forall k, dget k kvs' = if String.eqb k "selection" then Some x else dget k kvs) /\
    match s with
    | None => x = ONull
    | Some s => exists a f, x = OObj (s_fields s ++ [("anchorNode", a); ("focusNode", f)]) /\
        forall m y, (m, y) = (s_anchor s, a) \/ (m, y) = (s_focus s, f) ->
          match m with
          | None => y = ONull
          | Some m => from h [n] (JObj m) y \/ ((d <= 1 \/ m = n) /\ y = OObj [("__stop__", OPrim (PBool true))])
          end
    end.
Proof.
  unfold convert, convert_fuel. destruct (props_loop _ _ _ _ _ _) as [acc| | |] eqn:E; cbn [bind]; try discriminate. intros H. exists acc.
  destruct (selection_value (clone (2 + length h) h [n] d) s) as [x| | |] eqn:SV; cbn [bind] in H; try discriminate. injection H as <-. exists (dset "selection" x acc), x. split; auto. split; auto. split.
  - intros k. destruct (String.eqb_spec k "selection") as [->|N]; [apply dget_dset_same|apply dget_dset_other; auto].
  - unfold selection_value in SV. destruct s as [s|]; [|congruence].
    destruct (node_value _ (s_anchor s)) as [a| | |] eqn:A; cbn [bind] in SV; try discriminate. destruct (node_value _ (s_focus s)) as [f| | |] eqn:F; cbn [bind] in SV; try discriminate.
    injection SV as <-. exists a, f. split; auto.
    assert (G : forall m y, node_value (clone (2 + length h) h [n] d) m = Val y -> match m with None => y = ONull | Some m => from h [n] (JObj m) y \/ ((d <= 1 \/ m = n) /\ y = signal) end).
    { intros [m|] y N; [|cbn in N; congruence]. unfold node_value in N. destruct (clone (2 + length h) h [n] d (JObj m)) as [o| | |] eqn:C; try discriminate; injection N as <-.
      - left. eapply clone_from; eauto.
      - right. split; auto. cbn [Nat.add] in C. rewrite clone_S in C. destruct (Nat.leb_spec (d - 1) 0); [left; lia|]. destruct (existsb (Nat.eqb m) [n]) eqn:X.
        + apply existsb_exists in X as (m' & [<-|[]] & X). apply Nat.eqb_eq in X. auto.
        + exfalso. destruct (o_items (get h m)) as [items|].
          * destruct (items_loop _ _ _ items) eqn:IL; cbn [bind] in C; try discriminate. eapply items_stop; eauto.
          * eapply to_object_stop; eauto. }
    intros m y [J|J]; injection J as -> ->; apply G; auto.
Qed.

(** *** Examples *)
Definition str s := Some (JPrim (PStr s)).
(** A change of a file input in a form: 0 the event, 1 the input, 2 its data set, 3 the window, 4 the form, 5 a list of
    files, 6 a file. *)
Definition page : heap := [
  Obj KOther None [Prop_ "type" true (str "change"); Prop_ "target" true (Some (JObj 1)); Prop_ "view" true (Some (JObj 3)); Prop_ "preventDefault" true (Some JFun);
                   Prop_ "AT_TARGET" true (Some (JPrim (PNum 2))); Prop_ "source" true (Some (JObj 3)); Prop_ "detail" true (Some JNull)] [];
  Obj KNode None [Prop_ "name" true (str "upload"); Prop_ "value" false (str "a.txt"); Prop_ "dataset" false (Some (JObj 2)); Prop_ "parentNode" true (Some (JObj 4)); Prop_ "form" true (Some (JObj 4));
                  Prop_ "files" false (Some (JObj 5)); Prop_ "selectionStart" true None] [];
  Obj KOther None [Prop_ "id" true (str "7")] [];
  Obj KIgnored None [Prop_ "name" true (str "w")] [];
  Obj KForm None [Prop_ "id" true (str "f")] [1];
  Obj KOther (Some [Some JNull; Some (JObj 6)]) [] [];
  Obj KOther None [Prop_ "name" true (str "a.txt"); Prop_ "size" true (Some (JPrim (PNum 12)))] [] ].
Definition ostr s := OPrim (PStr s).
Example C76_page : convert page 10 0 None = Val (OObj [("type", ostr "change");
  ("target", OObj [("name", ostr "upload"); ("form", OObj [("id", ostr "f")]); ("dataset", OObj [("id", ostr "7")]); ("value", ostr "a.txt"); ("files", OArr [OObj [("name", ostr "a.txt")]])])]).
Proof. reflexivity. Qed.
(** At depth 2 only the files are still followed. *)
Example C76_page_shallow : convert page 2 0 None = Val (OObj [("type", ostr "change");
  ("target", OObj [("name", ostr "upload"); ("value", ostr "a.txt"); ("files", OArr [OObj [("name", ostr "a.txt")]])])]).
Proof. reflexivity. Qed.
Lemma page_quiet : quiet page.
Proof.
  split.
  - intros n. do 7 (destruct n as [|n]; [vm_compute; repeat (constructor; [intros H; cbn in H; repeat (destruct H as [H|H]; [discriminate|]); exact H|]); constructor|]). rewrite get_out by (cbn; lia). constructor.
  - intros n items. do 7 (destruct n as [|n]; [cbn; intros H; try discriminate; injection H as <-; cbn; intros H; repeat (destruct H as [H|H]; [discriminate|]); exact H|]). rewrite get_out by (cbn; lia). discriminate.
  - intros n p. do 7 (destruct n as [|n]; [cbn; intros I K; repeat (destruct I as [<-|I]; [cbn in K |- *; try discriminate; repeat (destruct K as [K|K]; [discriminate|]); destruct K|]); destruct I|]). rewrite get_out by (cbn; lia). intros [].
Qed.
Example C76_path_page : kept page None "target" (JObj 1) /\ path page [0] (JObj 1) [Key "files"; Item; Key "name"] (PStr "a.txt").
Proof.
  split; [apply ignore_spec; reflexivity|]. eapply (path_key page [0] 1 "files" false (JObj 5)); [cbn; intuition discriminate|reflexivity|cbn; tauto|right; cbn; tauto|apply ignore_spec; reflexivity|].
  eapply (path_item page [1; 0] 5 _ (JObj 6)); [cbn; intuition discriminate|reflexivity|cbn; tauto|intros [H|[H|[H|[m [H1 H2]]]]]; try discriminate; injection H1 as <-; discriminate|].
  eapply (path_key page [5; 1; 0] 6 "name" true (JPrim (PStr "a.txt"))); [cbn; intuition discriminate|reflexivity|cbn; tauto|left; reflexivity|apply ignore_spec; reflexivity|constructor].
Qed.
Example C76_selection_example : exists kvs, convert page 10 0 (Some (Some (Sel [("type", ostr "Range")] (Some 2) None))) = Val (OObj kvs) /\
  dget "selection" kvs = Some (OObj [("type", ostr "Range"); ("anchorNode", OObj [("id", ostr "7")]); ("focusNode", ONull)]).
Proof. eexists. split; reflexivity. Qed.
(** Findings. The size of a file and names in upper case are lost; so are the null items of an array, so that the later
    ones move; and an array given to a callback becomes an object. *)
Theorem C76_names_refuted : exists h r v, convert h 10 0 None = Val r /\ In (Prop_ "URL" true (Some (JPrim v))) (o_props (get h 0)) /\ ~ has r [Key "URL"] v.
Proof.
  exists [Obj KOther None [Prop_ "URL" true (str "x")] []], (OObj []), (PStr "x"). split; [reflexivity|]. split; [left; reflexivity|]. intros H. inversion H as [|? ? ? ? ? I| ]. destruct I.
Qed.
Theorem C76_items_refuted : exists h, convert h 10 0 None = Val (OObj [("rows", OArr [OPrim (PNum 1)])]) /\
  o_items (get h 1) = Some [Some JNull; Some (JPrim (PNum 1))] /\ o_props (get h 0) = [Prop_ "rows" true (Some (JObj 1))].
Proof. exists [Obj KOther None [Prop_ "rows" true (Some (JObj 1))] []; Obj KOther (Some [Some JNull; Some (JPrim (PNum 1))]) [] []]. split; [|split]; reflexivity. Qed.
Print Assumptions C76_sound.
Print Assumptions C76_terminates.
Print Assumptions C76_complete.
Print Assumptions C76_selection.
Print Assumptions C76_depth_partial.
Print Assumptions C76_files_refuted.
