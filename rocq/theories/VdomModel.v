(** * Model of element construction (/repo/src/reactpy/core/vdom.py, _html.py, types.py) and properties C37-C40 *)
From Coq Require Import String Ascii ZArith Bool Arith Lia List Sorted.
From Verif Require Import Dict.
Import ListNotations.
Local Open Scope string_scope. Local Open Scope list_scope.

(** Python values that can be given to an element constructor.
    [PJs] is an [InlineJavaScript] (a [str] subclass, /repo/src/reactpy/types.py:927-930); [PFun n code] a callable with or without
    [__code__]; [PHandler] a [BaseEventHandler]; [PMap plain items] a mapping, [plain] when its type is exactly [dict];
    [PSeq] any other iterable (a list, tuple, generator); [PObj] any other object (a component instance, for example). *)
Inductive pv :=
| PNone | PNum (z : Z) | PStr (s : string) | PJs (s : string) | PFun (n : nat) (code : bool) | PHandler (n : nat)
| PMap (plain : bool) (items : list (string * pv)) | PSeq (l : list pv) | PObj (n : nat).

Inductive err := TypeError | ValueError | AttributeError | KeyError.
Inductive res (A : Type) := Ok (a : A) | Err (e : err).
Arguments Ok {A} _. Arguments Err {A} _.

(** [EVENT_ATTRIBUTE_PATTERN = ^on[A-Z]\w+] used with [match], vdom.py:34. Simplification: [\w] on ASCII only. *)
Definition between (lo hi : nat) (a : ascii) : bool := Nat.leb lo (nat_of_ascii a) && Nat.leb (nat_of_ascii a) hi.
Definition upper (a : ascii) : bool := between 65 90 a.
Definition word (a : ascii) : bool := between 65 90 a || between 97 122 a || between 48 57 a || Ascii.eqb a "_"%char.
Definition event_name (k : string) : bool :=
  match k with
  | String o (String n (String c (String d _))) => Ascii.eqb o "o"%char && Ascii.eqb n "n"%char && upper c && word d
  | _ => false
  end.

(** What an attribute becomes. [EventHandler(to_event_handler_function(v))] keeps the function. *)
Inductive eh := EHFun (n : nat) | EHObj (n : nat).

(** [separate_attributes_handlers_and_inline_javascript], vdom.py:228-247. [Err]: [EventHandler] raises for a callable
    without [__code__] (EventInspect.v, [C35_no_code_refuted]). *)
Fixpoint separate (items : list (string * pv)) (A : dict string pv) (E : dict string eh) (J : dict string string) :
  res (dict string pv * dict string eh * dict string string) :=
  match items with
  | [] => Ok (A, E, J)
  | (k, v) :: rest =>
      match v with
      | PFun n true => separate rest A (dset k (EHFun n) E) J
      | PFun n false => Err AttributeError
      | PHandler n => separate rest A (dset k (EHObj n) E) J
      | PStr s => if event_name k then separate rest A E (dset k s J) else separate rest (dset k v A) E J
      | PJs s => separate rest A E (dset k s J)
      | _ => separate rest (dset k v A) E J
      end
  end.

(** [_is_single_child] and [_flatten_children], vdom.py:250-265 (the debug warnings are not modelled). *)
Definition single (v : pv) : bool := match v with PSeq _ => false | _ => true end.
Fixpoint flatten1 (v : pv) : list pv :=
  match v with
  | PSeq l => (fix go l := match l with [] => [] | x :: l' => flatten1 x ++ go l' end) l
  | _ => [v]
  end.
Definition flatten_children (l : list pv) : list pv := flat_map flatten1 l.
(** The code's own recursion. *)
Lemma flatten_children_eq l : flatten_children l = flat_map (fun c => if single c then [c] else match c with PSeq l' => flatten_children l' | _ => [] end) l.
Proof.
  unfold flatten_children. apply flat_map_ext. intros []; reflexivity.
Qed.

(** [separate_attributes_and_children], vdom.py:209-225. *)
Definition separate_children (values : list pv) : list (string * pv) * list pv :=
  match values with
  | PMap true items :: rest => (items, flatten_children rest)
  | _ => ([], flatten_children values)
  end.

(** A [VdomDict] (/repo/src/reactpy/types.py:828-884) as built by the constructors; an absent key is [None]. *)
Record elem := Elem {
  e_tag : string; e_children : option (list pv); e_attrs : option (dict string pv); e_handlers : option (dict string eh);
  e_js : option (dict string string); e_import : option string
}.
Definition non_empty {A} (l : list A) : option (list A) := match l with [] => None | _ => Some l end.

(** [_fragment], _html.py:99-116. *)
Definition fragment (attrs : dict string pv) (children : list pv) (handlers : dict string eh) : res elem :=
  if existsb (fun kv => negb (String.eqb (fst kv) "key")) attrs || negb (match handlers with [] => true | _ => false end)
  then Err TypeError
  else Ok (Elem "" (non_empty children) (non_empty attrs) None None None).

Definition is_str (v : pv) : bool := match v with PStr _ | PJs _ => true | _ => false end.
Definition opt_none (v : option pv) : option pv := match v with Some PNone => None | _ => v end.
(** [_script], _html.py:119-170. *)
Definition script (attrs : dict string pv) (children : list pv) (handlers : dict string eh) : res elem :=
  match handlers with
  | _ :: _ => Err ValueError
  | [] =>
      let key := opt_none (dget "key" attrs) in
      match children with
      | _ :: _ :: _ => Err ValueError
      | [c] => if is_str c
               then let key' := match key with None => Some c | Some k => Some k end in
                    Ok (Elem "script" (Some children) (match key' with Some k => Some (dset "key" k attrs) | None => non_empty attrs end) None None None)
               else Err ValueError
      | [] => let key' := match key with None => opt_none (dget "src" attrs) | Some k => Some k end in
              Ok (Elem "script" None (match key' with Some k => Some (dset "key" k attrs) | None => non_empty attrs end) None None None)
      end
  end.

(** [Vdom], vdom.py:125-206. [c_custom]: the custom constructor. [REACTPY_CHECK_JSON_ATTRS] is off. *)
Inductive custom := NoCustom | CFragment | CScript.
Record ctor := Ctor { c_tag : string; c_allow : bool; c_custom : custom; c_import : option string }.
Definition with_tag (t : string) (e : elem) : elem := Elem t (e_children e) (e_attrs e) (e_handlers e) (e_js e) (e_import e).
Definition vdom_call (c : ctor) (args : list pv) : res elem :=
  let (items, children) := separate_children args in
  match separate items [] [] [] with
  | Err e => Err e
  | Ok (A, E, J) =>
      match (match c_custom c with
             | NoCustom => Ok (Elem "" (non_empty children) (non_empty A) (non_empty E) (non_empty J) (c_import c))
             | CFragment => fragment A children E
             | CScript => script A children E
             end) with
      | Err e => Err e
      | Ok r =>
          if negb (match children with [] => true | _ => false end) && negb (c_allow c) then Err TypeError
          else Ok (with_tag (c_tag c) r)
      end
  end.

(** ** C37 *)

(** "on", a capital, and a letter, digit or underscore. *)
Definition one_of (l : string) (a : ascii) : bool := existsb (Ascii.eqb a) (list_ascii_of_string l).
Definition event_key (k : string) : bool :=
  String.prefix "on" k &&
  match String.get 2 k, String.get 3 k with
  | Some c, Some d => one_of "ABCDEFGHIJKLMNOPQRSTUVWXYZ" c && one_of "ABCDEFGHIJKLMNOPQRSTUVWXYZabcdefghijklmnopqrstuvwxyz0123456789_" d
  | _, _ => false
  end.
(** The documented rule. *)
Inductive attr_kind := KAttr | KHandler | KJs.
Definition rule (k : string) (v : pv) : attr_kind :=
  match v with
  | PFun _ _ | PHandler _ => KHandler
  | PJs _ => KJs
  | PStr _ => if event_key k then KJs else KAttr
  | _ => KAttr
  end.
Lemma upper_one_of a : upper a = one_of "ABCDEFGHIJKLMNOPQRSTUVWXYZ" a.
Proof. destruct a as [[] [] [] [] [] [] [] []]; vm_compute; reflexivity. Qed.
Lemma word_one_of a : word a = one_of "ABCDEFGHIJKLMNOPQRSTUVWXYZabcdefghijklmnopqrstuvwxyz0123456789_" a.
Proof. destruct a as [[] [] [] [] [] [] [] []]; vm_compute; reflexivity. Qed.
Lemma event_key_eq k : event_key k = event_name k.
Proof.
  unfold event_key. destruct k as [|o [|n [|c [|d k]]]]; cbn [String.get String.prefix event_name]; try rewrite andb_false_r; auto.
  rewrite <- upper_one_of, <- word_one_of, (Ascii.eqb_sym o), (Ascii.eqb_sym n). destruct (ascii_dec "o" o) as [<-|N]; cbn [andb].
  - destruct (ascii_dec "n" n) as [<-|N]; [reflexivity|]. apply Ascii.eqb_neq in N. rewrite N. reflexivity.
  - apply Ascii.eqb_neq in N. rewrite N. reflexivity.
Qed.
Definition has_code (v : pv) : bool := match v with PFun _ c => c | _ => true end.
Definition as_handler (v : pv) : eh := match v with PFun n _ => EHFun n | PHandler n => EHObj n | _ => EHObj 0 end.
Definition as_js (v : pv) : string := match v with PStr s | PJs s => s | _ => "" end.
Definition of_kind (d : attr_kind) (kv : string * pv) : bool :=
  match rule (fst kv) (snd kv), d with KAttr, KAttr | KHandler, KHandler | KJs, KJs => true | _, _ => false end.
Definition map_snd {A B} (f : A -> B) (l : list (string * A)) : list (string * B) := map (fun kv => (fst kv, f (snd kv))) l.

Lemma of_kind_eq d k v : of_kind d (k, v) = match rule k v, d with KAttr, KAttr | KHandler, KHandler | KJs, KJs => true | _, _ => false end.
Proof. reflexivity. Qed.
Lemma dset_fresh {V} (k : string) (v : V) (d : dict string V) : ~ In k (map fst d) -> dset k v d = d ++ [(k, v)].
Proof.
  induction d as [|[k' v'] d IH]; intros H; simpl; auto. simpl in H. destruct (eq_dec k' k) as [->|N]; [tauto|].
  destruct (eq_dec k k') as [->|N2]; [tauto|]. f_equal. apply IH. tauto.
Qed.
Lemma separate_spec items : forall A E J, NoDup (map fst items) ->
  (forall k, In k (map fst items) -> ~ In k (map fst A) /\ ~ In k (map fst E) /\ ~ In k (map fst J)) ->
  separate items A E J =
  if forallb (fun kv => has_code (snd kv)) items
  then Ok (A ++ filter (of_kind KAttr) items, E ++ map_snd as_handler (filter (of_kind KHandler) items), J ++ map_snd as_js (filter (of_kind KJs) items))
  else Err AttributeError.
Proof.
  induction items as [|[k v] items IH]; intros A E J ND FR; [simpl; rewrite !app_nil_r; auto|].
  inversion ND as [|? ? NI ND']; subst. assert (FK := FR k (or_introl eq_refl)).
  assert (IHA : forall A' E' J', (forall x, In x (map fst A') -> In x (map fst A) \/ x = k) -> (forall x, In x (map fst E') -> In x (map fst E) \/ x = k) ->
           (forall x, In x (map fst J') -> In x (map fst J) \/ x = k) -> separate items A' E' J' =
    if forallb (fun kv => has_code (snd kv)) items
    then Ok (A' ++ filter (of_kind KAttr) items, E' ++ map_snd as_handler (filter (of_kind KHandler) items), J' ++ map_snd as_js (filter (of_kind KJs) items))
    else Err AttributeError).
  { intros A' E' J' HA HE HJ. apply IH; auto. intros x X. assert (x <> k) by (intros ->; auto). destruct (FR x (or_intror X)) as (F1 & F2 & F3).
    split; [|split]; intros I; [apply HA in I|apply HE in I|apply HJ in I]; tauto. }
  assert (INS : forall V (v : V) (d : dict string V) x, ~ In k (map fst d) -> In x (map fst (dset k v d)) -> In x (map fst d) \/ x = k).
  { intros V w d x N I. rewrite dset_fresh in I by auto. rewrite map_app in I. apply in_app_or in I. destruct I as [I|[<-|[]]]; auto. }
  destruct FK as (FA & FE & FJ).
  assert (GA : forall w, rule k w = KAttr -> has_code w = true -> separate items (dset k w A) E J =
     if forallb (fun kv => has_code (snd kv)) ((k, w) :: items)
     then Ok (A ++ filter (of_kind KAttr) ((k, w) :: items), E ++ map_snd as_handler (filter (of_kind KHandler) ((k, w) :: items)), J ++ map_snd as_js (filter (of_kind KJs) ((k, w) :: items)))
     else Err AttributeError).
  { intros w R C. rewrite IHA by (auto; intros; eapply INS; eauto). rewrite dset_fresh by auto. cbn [filter forallb snd]. rewrite !of_kind_eq, R, C. rewrite <- app_assoc. cbn [andb app map_snd map fst snd].
    destruct (forallb _ items); reflexivity. }
  assert (GE : forall w, rule k w = KHandler -> has_code w = true -> separate items A (dset k (as_handler w) E) J =
     if forallb (fun kv => has_code (snd kv)) ((k, w) :: items)
     then Ok (A ++ filter (of_kind KAttr) ((k, w) :: items), E ++ map_snd as_handler (filter (of_kind KHandler) ((k, w) :: items)), J ++ map_snd as_js (filter (of_kind KJs) ((k, w) :: items)))
     else Err AttributeError).
  { intros w R C. rewrite IHA by (auto; intros; eapply INS; eauto). rewrite dset_fresh by auto. cbn [filter forallb snd]. rewrite !of_kind_eq, R, C. rewrite <- app_assoc. cbn [andb app map_snd map fst snd].
    destruct (forallb _ items); reflexivity. }
  assert (GJ : forall w, rule k w = KJs -> has_code w = true -> separate items A E (dset k (as_js w) J) =
     if forallb (fun kv => has_code (snd kv)) ((k, w) :: items)
     then Ok (A ++ filter (of_kind KAttr) ((k, w) :: items), E ++ map_snd as_handler (filter (of_kind KHandler) ((k, w) :: items)), J ++ map_snd as_js (filter (of_kind KJs) ((k, w) :: items)))
     else Err AttributeError).
  { intros w R C. rewrite IHA by (auto; intros; eapply INS; eauto). rewrite dset_fresh by auto. cbn [filter forallb snd]. rewrite !of_kind_eq, R, C. rewrite <- app_assoc. cbn [andb app map_snd map fst snd].
    destruct (forallb _ items); reflexivity. }
  destruct v; cbn [separate].
  all: try (apply GA; reflexivity).
  - destruct (event_name k) eqn:EN; rewrite <- event_key_eq in EN; [apply (GJ (PStr s))|apply (GA (PStr s))]; simpl; try rewrite EN; reflexivity.
  - apply (GJ (PJs s)); reflexivity.
  - destruct code; [apply (GE (PFun n true)); reflexivity|]. reflexivity.
  - apply (GE (PHandler n)); reflexivity.
Qed.

(** Every attribute of a constructor call ends up in exactly one of the three groups, by the rule, in the given order and
    under its name; construction raises iff some callable has no [__code__]. *)
Theorem C37_partition c items children : c_custom c = NoCustom -> c_allow c = true -> NoDup (map fst items) ->
  (forallb (fun kv => has_code (snd kv)) items = true ->
    exists e, vdom_call c (PMap true items :: children) = Ok e /\
      e_attrs e = non_empty (filter (of_kind KAttr) items) /\
      e_handlers e = non_empty (map_snd as_handler (filter (of_kind KHandler) items)) /\
      e_js e = non_empty (map_snd as_js (filter (of_kind KJs) items)) /\
      e_tag e = c_tag c /\ e_import e = c_import c) /\
  (forallb (fun kv => has_code (snd kv)) items = false -> vdom_call c (PMap true items :: children) = Err AttributeError).
Proof.
  intros CC CA ND. unfold vdom_call. cbn [separate_children]. rewrite separate_spec by (auto; intros; simpl; tauto). rewrite !app_nil_l.
  split; intros HC; rewrite HC; auto. rewrite CC, CA, andb_false_r. eexists. split; [reflexivity|]. simpl. auto 8.
Qed.
(** "Exactly one": the groups are disjoint and cover the attributes. *)
Theorem C37_exactly_one items k v : In (k, v) items ->
  (In (k, v) (filter (of_kind KAttr) items) /\ ~ In (k, v) (filter (of_kind KHandler) items) /\ ~ In (k, v) (filter (of_kind KJs) items)) \/
  (~ In (k, v) (filter (of_kind KAttr) items) /\ In (k, v) (filter (of_kind KHandler) items) /\ ~ In (k, v) (filter (of_kind KJs) items)) \/
  (~ In (k, v) (filter (of_kind KAttr) items) /\ ~ In (k, v) (filter (of_kind KHandler) items) /\ In (k, v) (filter (of_kind KJs) items)).
Proof.
  intros I. rewrite !filter_In. unfold of_kind. simpl. destruct (rule k v); intuition discriminate.
Qed.
Example C37_example : exists e,
  vdom_call (Ctor "button" true NoCustom None)
    [PMap true [("class", PStr "x"); ("onClick", PFun 1 true); ("onBlur", PStr "f()"); ("online", PStr "y"); ("run", PJs "g()")]; PStr "go"] = Ok e /\
  e_attrs e = Some [("class", PStr "x"); ("online", PStr "y")] /\ e_handlers e = Some [("onClick", EHFun 1)] /\
  e_js e = Some [("onBlur", "f()"); ("run", "g()")] /\ e_children e = Some [PStr "go"].
Proof. eexists. split; [reflexivity|]. auto. Qed.
(** Finding: constructors with a custom constructor (script, fragment) are not given the inline JavaScript, so such an
    attribute disappears silently. *)
Theorem C37_custom_refuted : exists items e, forallb (fun kv => has_code (snd kv)) items = true /\
  vdom_call (Ctor "script" true CScript None) [PMap true items] = Ok e /\ In ("onLoad", PStr "f()") items /\
  (forall d, e_attrs e = Some d -> dget "onLoad" d = None) /\ e_handlers e = None /\ e_js e = None.
Proof.
  exists [("src", PStr "a.js"); ("onLoad", PStr "f()")]. eexists. split; [reflexivity|]. split; [reflexivity|]. split; [simpl; auto|].
  split; auto. intros d E. injection E as <-. reflexivity.
Qed.

(** ** C38 *)

(** A position inside nested iterables: the index at each level. *)
Fixpoint at_path (l : list pv) (p : list nat) : option pv :=
  match p with
  | [] => None
  | i :: p' => match nth_error l i with
               | None => None
               | Some v => match p' with
                           | [] => Some v
                           | _ => match v with PSeq l' => at_path l' p' | _ => None end
                           end
               end
  end.
(** Strings, mappings and everything that is not iterable are leaves. *)
Definition leaf (v : pv) : Prop := forall l, v <> PSeq l.
Definition leaf_at (l : list pv) (p : list nat) (v : pv) : Prop := at_path l p = Some v /\ leaf v.
(** Left to right. *)
Inductive before : list nat -> list nat -> Prop :=
| bf_here i j p q : i < j -> before (i :: p) (j :: q)
| bf_deeper i p q : before p q -> before (i :: p) (i :: q).

(** Positions of the leaves (proof side). *)
Fixpoint vpaths (v : pv) : list (list nat) :=
  match v with
  | PSeq l => (fix go k l := match l with [] => [] | x :: l' => map (cons k) (vpaths x) ++ go (S k) l' end) 0 l
  | _ => [[]]
  end.
Fixpoint lpaths (k : nat) (l : list pv) : list (list nat) :=
  match l with [] => [] | x :: l' => map (cons k) (vpaths x) ++ lpaths (S k) l' end.
Lemma vpaths_seq l : vpaths (PSeq l) = lpaths 0 l.
Proof. reflexivity. Qed.
Lemma flatten1_seq l : flatten1 (PSeq l) = flatten_children l.
Proof. reflexivity. Qed.

Section PvInd.
  Variable P : pv -> Prop.
  Hypothesis HL : forall v, leaf v -> P v.
  Hypothesis HS : forall l, Forall P l -> P (PSeq l).
  Fixpoint pv_seq_ind (v : pv) : P v :=
    match v with
    | PSeq l => HS l ((fix go l : Forall P l := match l with [] => Forall_nil P | x :: l' => Forall_cons x (pv_seq_ind x) (go l') end) l)
    | PNone => HL PNone (fun l H => ltac:(discriminate H))
    | PNum z => HL (PNum z) (fun l H => ltac:(discriminate H))
    | PStr s => HL (PStr s) (fun l H => ltac:(discriminate H))
    | PJs s => HL (PJs s) (fun l H => ltac:(discriminate H))
    | PFun n c => HL (PFun n c) (fun l H => ltac:(discriminate H))
    | PHandler n => HL (PHandler n) (fun l H => ltac:(discriminate H))
    | PMap p i => HL (PMap p i) (fun l H => ltac:(discriminate H))
    | PObj n => HL (PObj n) (fun l H => ltac:(discriminate H))
    end.
End PvInd.

(** What is to be shown of one value placed below index [k]. *)
Definition at_value (v : pv) (p : list nat) : option pv :=
  match p with [] => Some v | _ => match v with PSeq l => at_path l p | _ => None end end.
Record vspec (v : pv) : Prop := {
  v_sorted : StronglySorted before (vpaths v);
  v_items : Forall2 (fun p x => at_value v p = Some x /\ leaf x) (vpaths v) (flatten1 v);
  v_all : forall p x, at_value v p = Some x -> leaf x -> In p (vpaths v)
}.
Lemma at_path_cons l i p : at_path l (i :: p) = match nth_error l i with Some v => at_value v p | None => None end.
Proof. simpl. destruct (nth_error l i); auto. Qed.
Lemma sorted_app {A} (R : A -> A -> Prop) l1 l2 : StronglySorted R l1 -> StronglySorted R l2 -> (forall x y, In x l1 -> In y l2 -> R x y) -> StronglySorted R (l1 ++ l2).
Proof.
  induction l1 as [|a l1 IH]; intros S1 S2 H; auto. inversion S1 as [|? ? S1' F]; subst. simpl. constructor.
  - apply IH; auto. intros. apply H; auto. right. auto.
  - apply Forall_app. split; auto. apply Forall_forall. intros y Y. apply H; auto. left. auto.
Qed.
Lemma sorted_cons_map k l : StronglySorted before l -> StronglySorted before (map (cons k) l).
Proof.
  induction 1 as [|a l S IH F]; simpl; constructor; auto. apply Forall_forall. intros y Y. apply in_map_iff in Y. destruct Y as (q & <- & Q).
  apply bf_deeper. rewrite Forall_forall in F. auto.
Qed.
Lemma lpaths_ge k l p : In p (lpaths k l) -> exists i q, p = i :: q /\ k <= i.
Proof.
  revert k. induction l as [|x l IH]; intros k I; [destruct I|]. simpl in I. apply in_app_or in I. destruct I as [I|I].
  - apply in_map_iff in I. destruct I as (q & <- & _). eauto.
  - apply IH in I. destruct I as (i & q & -> & L). exists i, q. split; auto. lia.
Qed.
Lemma Forall2_impl2 {A B} (R R' : A -> B -> Prop) l l' : (forall a b, R a b -> R' a b) -> Forall2 R l l' -> Forall2 R' l l'.
Proof. intros H. induction 1; constructor; auto. Qed.
Lemma lspec l : Forall vspec l -> forall k full, (forall i, nth_error full (k + i) = nth_error l i) ->
  StronglySorted before (lpaths k l) /\
  Forall2 (fun p x => at_path full p = Some x /\ leaf x) (lpaths k l) (flatten_children l) /\
  (forall i p x, k <= i -> at_path full (i :: p) = Some x -> leaf x -> In (i :: p) (lpaths k l)).
Proof.
  induction 1 as [|v l V F IH]; intros k full N.
  - cbn [lpaths]. split; [constructor|]. split; [constructor|]. intros i p x L A _. rewrite at_path_cons in A. specialize (N (i - k)).
    replace (k + (i - k)) with i in N by lia. rewrite N in A. destruct (i - k); discriminate.
  - destruct V as [V1 V2 V3]. destruct (IH (S k) full) as (I1 & I2 & I3).
    { intros i. specialize (N (S i)). simpl in N. rewrite <- N. f_equal. lia. }
    assert (N0 : nth_error full k = Some v) by (specialize (N 0); rewrite Nat.add_0_r in N; auto). cbn [lpaths]. split; [|split].
    + apply sorted_app; auto using sorted_cons_map. intros p q P Q. apply in_map_iff in P. destruct P as (p' & <- & _).
      apply lpaths_ge in Q. destruct Q as (i & q' & -> & L). apply bf_here. lia.
    + unfold flatten_children. simpl. apply Forall2_app; auto. clear -V2 N0. induction V2 as [|p x ps xs [A L] F IH]; simpl; constructor; auto.
      rewrite at_path_cons, N0. auto.
    + intros i p x L A LF. apply in_or_app. destruct (Nat.eq_dec i k) as [->|NE].
      * left. apply in_map. rewrite at_path_cons, N0 in A. eapply V3; eauto.
      * right. eapply I3; eauto. lia.
Qed.
Lemma vspec_all v : vspec v.
Proof.
  induction v as [v L|l F] using pv_seq_ind.
  - assert (E1 : vpaths v = [[]]) by (destruct v; auto; exfalso; eapply L; eauto). assert (E2 : flatten1 v = [v]) by (destruct v; auto; exfalso; eapply L; eauto).
    constructor; rewrite ?E1, ?E2; [repeat constructor|constructor; [split; [reflexivity|exact L]|constructor]|].
    intros [|i p] x A LF; [left; auto|]. simpl in A. destruct v; try discriminate. exfalso. eapply L; eauto.
  - destruct (lspec l F 0 l) as (I1 & I2 & I3); [auto|]. constructor.
    + rewrite vpaths_seq. auto.
    + rewrite vpaths_seq, flatten1_seq. assert (NE : forall p, In p (lpaths 0 l) -> p <> []).
      { intros p P. apply lpaths_ge in P. destruct P as (i & q & -> & _). discriminate. }
      clear -I2 NE. induction I2 as [|p x ps xs H F IH]; constructor; [|apply IH; intros q Q; apply NE; right; auto].
      destruct p; [exfalso; eapply NE; [left|]; auto|]. simpl. exact H.
    + rewrite vpaths_seq. intros [|i p] x A LF.
      * simpl in A. injection A as <-. exfalso. eapply LF; eauto.
      * eapply I3; [lia|exact A|auto].
Qed.

(** The arguments that are children: all, except a leading plain dict. *)
Definition child_args (args : list pv) : list pv := match args with PMap true _ :: rest => rest | _ => args end.

Lemma flatten_leaves args : exists ps,
  StronglySorted before ps /\
  Forall2 (leaf_at (child_args args)) ps (snd (separate_children args)) /\
  (forall p v, leaf_at (child_args args) p v -> In p ps).
Proof.
  assert (E : snd (separate_children args) = flatten_children (child_args args)) by (destruct args as [|[| | | | | |[]| |] args]; reflexivity).
  rewrite E. exists (lpaths 0 (child_args args)). assert (F : Forall vspec (child_args args)) by (apply Forall_forall; intros; apply vspec_all).
  destruct (lspec _ F 0 (child_args args)) as (I1 & I2 & I3); [auto|]. split; auto. split; auto.
  intros [|i p] v [A L]; [discriminate|]. eapply I3; eauto. lia.
Qed.
(** The children of the element are exactly the leaves of the child arguments, left to right, each once. *)
Definition children_of (e : elem) : list pv := match e_children e with Some l => l | None => [] end.
(** [l] lists the leaves of [args], left to right, each once. *)
Definition leaves (args l : list pv) : Prop := exists ps,
  StronglySorted before ps /\ Forall2 (leaf_at args) ps l /\ (forall p v, leaf_at args p v -> In p ps).
Lemma before_irrefl p : ~ before p p.
Proof. induction p; intros H; inversion H; subst; [lia|auto]. Qed.
Lemma before_trans p : forall q r, before p q -> before q r -> before p r.
Proof.
  induction p as [|i p IH]; intros q r H1 H2; inversion H1; subst; inversion H2; subst.
  - apply bf_here. lia.
  - apply bf_here. auto.
  - apply bf_here. auto.
  - apply bf_deeper. eauto.
Qed.
Lemma sorted_same (l : list (list nat)) : forall l', StronglySorted before l -> StronglySorted before l' -> (forall p, In p l <-> In p l') -> l = l'.
Proof.
  induction l as [|a l IH]; intros [|b l'] S S' H; auto.
  - exfalso. apply (H b). left. auto.
  - exfalso. apply (H a). left. auto.
  - apply StronglySorted_inv in S as [S F]. apply StronglySorted_inv in S' as [S' F']. rewrite Forall_forall in F, F'.
    assert (E : a = b).
    { pose proof (proj1 (H a) (or_introl eq_refl)) as [X|X]; auto. pose proof (proj2 (H b) (or_introl eq_refl)) as [Y|Y]; auto.
      exfalso. apply (before_irrefl a). eapply before_trans; [apply F, Y|apply F', X]. }
    subst b. f_equal. apply IH; auto. intros p. split; intros I.
    + pose proof (proj1 (H p) (or_intror I)) as [X|X]; auto. subst p. destruct (before_irrefl a (F _ I)).
    + pose proof (proj2 (H p) (or_intror I)) as [X|X]; auto. subst p. destruct (before_irrefl a (F' _ I)).
Qed.
Lemma leaves_unique args l l' : leaves args l -> leaves args l' -> l = l'.
Proof.
  intros (ps & S & F & A) (ps' & S' & F' & A').
  assert (G : forall qs ms, Forall2 (leaf_at args) qs ms -> forall p, In p qs -> exists v, leaf_at args p v).
  { intros qs ms H. induction H as [|p0 v0 qs ms V0 H0 IH0]; intros p; [intros []|]. intros [X|X]; [subst; eauto|eauto]. }
  assert (E : ps = ps').
  { apply sorted_same; auto. intros p. split; intros I; [destruct (G _ _ F p I) as [v V]|destruct (G _ _ F' p I) as [v V]]; eauto. }
  subst ps'. clear -F F'. revert l' F'. induction F as [|p v ps l V F IH]; intros l' F'; inversion F'; subst; auto.
  f_equal; [|apply IH; auto]. match goal with H : leaf_at args p ?y |- _ = ?y => destruct V as [V _], H as [H _]; congruence end.
Qed.
Theorem C38_flatten c args e : vdom_call c args = Ok e -> leaves (child_args args) (children_of e).
Proof.
  intros H. destruct (flatten_leaves args) as (ps & A & B & C). exists ps. split; auto. split; auto. replace (children_of e) with (snd (separate_children args)); auto.
  revert H. clear. unfold vdom_call. destruct (separate_children args) as [items ch]. cbn [snd]. destruct (separate items [] [] []) as [[[A E] J]|]; [|discriminate].
  assert (NE : forall l : list pv, match non_empty l with Some l' => l' | None => [] end = l) by (intros [|x l]; reflexivity).
  destruct (match c_custom c with NoCustom => _ | CFragment => _ | CScript => _ end) as [x|] eqn:X; [|discriminate]. destruct (_ && _); [discriminate|]. intros H. injection H as <-. unfold with_tag, children_of. cbn [e_children].
  destruct (c_custom c).
  - injection X as <-. cbn [e_children]. rewrite NE. reflexivity.
  - unfold fragment in X. destruct (_ || _); [discriminate|]. injection X as <-. cbn [e_children]. rewrite NE. reflexivity.
  - unfold script in X. destruct E; [|discriminate]. destruct ch as [|v [|w ch]]; [injection X as <-; reflexivity| |discriminate]. destruct (is_str v); [|discriminate]. injection X as <-. reflexivity.
Qed.
(** Only a leading plain [dict] is taken as the attributes; a [VdomDict] or other mapping is a child. *)
Theorem C38_attributes args items : fst (separate_children args) = items ->
  (exists rest, args = PMap true items :: rest) \/ (items = [] /\ forall items' rest, args <> PMap true items' :: rest).
Proof.
  intros <-. destruct args as [|[| | | | | |[]| |] args]; simpl; eauto; right; split; auto; discriminate.
Qed.
Example C38_example :
  separate_children [PMap true [("id", PStr "a")]; PStr "x"; PSeq [PNum 1; PSeq [PMap true []; PSeq []]; PNone]; PObj 7]
  = ([("id", PStr "a")], [PStr "x"; PNum 1; PMap true []; PNone; PObj 7]).
Proof. reflexivity. Qed.

(** ** C39: [VdomDict], /repo/src/reactpy/types.py:828-884 *)

Definition allowed_keys : list string := ["tagName"; "children"; "attributes"; "eventHandlers"; "inlineJavaScript"; "importSource"].
(** [VdomDict.__init__] and [__setitem__] on a dictionary of arbitrary values. *)
Definition vd_new (kwargs : dict string pv) : res (dict string pv) :=
  if negb (dmem "tagName" kwargs) then Err ValueError
  else if existsb (fun kv => negb (mem (fst kv) allowed_keys)) kwargs then Err ValueError
  else Ok kwargs.
Definition vd_set (k : string) (v : pv) (d : dict string pv) : res (dict string pv) :=
  if negb (mem k allowed_keys) then Err KeyError else Ok (dset k v d).
(** A failing assignment raises and leaves the dictionary unchanged. *)
Definition vd_try (d : dict string pv) (kv : string * pv) : dict string pv :=
  match vd_set (fst kv) (snd kv) d with Ok d' => d' | Err _ => d end.
(** Inherited from [dict] and not overridden: [update], [|=] and [del]. *)
Definition vd_update (kv : string * pv) (d : dict string pv) : dict string pv := dset (fst kv) (snd kv) d.
Definition vd_del (k : string) (d : dict string pv) : dict string pv := ddel k d.

Definition well_keyed (d : dict string pv) : Prop :=
  In "tagName" (map fst d) /\ forall k, In k (map fst d) -> In k ["tagName"; "children"; "attributes"; "eventHandlers"; "inlineJavaScript"; "importSource"].
Lemma dset_keys {V} (k : string) (v : V) (d : dict string V) x : In x (map fst (dset k v d)) <-> x = k \/ In x (map fst d).
Proof.
  induction d as [|[k' v'] d IH]; simpl; [split; intros [H|[]]; auto|]. destruct (eq_dec k k') as [->|N]; simpl; [|rewrite IH]; intuition congruence.
Qed.
Theorem C39_keys kwargs d ops : vd_new kwargs = Ok d -> well_keyed (fold_left vd_try ops d).
Proof.
  unfold vd_new. destruct (dmem "tagName" kwargs) eqn:T; [|discriminate]. destruct (existsb _ kwargs) eqn:X; [discriminate|]. intros E. injection E as <-.
  assert (W : well_keyed kwargs).
  { split.
    - unfold dmem in T. destruct (dget "tagName" kwargs) eqn:G; [|discriminate]. clear -G. induction kwargs as [|[k' v'] d IH]; [discriminate|]. simpl in G |- *. destruct (eq_dec "tagName" k') as [<-|N]; auto.
    - intros k I. destruct (in_dec string_dec k allowed_keys) as [Y|Y]; auto. exfalso. apply in_map_iff in I. destruct I as ([k' v] & <- & I).
      assert (existsb (fun kv => negb (mem (fst kv) allowed_keys)) kwargs = true); [|congruence]. apply existsb_exists. exists (k', v). split; auto.
      apply negb_true_iff. apply mem_not_In. exact Y. }
  clear T X. revert W. generalize kwargs as d. induction ops as [|[k v] ops IH]; intros d W; auto. simpl. apply IH. unfold vd_try, vd_set. simpl fst. simpl snd.
  destruct (negb (mem k allowed_keys)) eqn:M; auto. apply negb_false_iff, mem_In in M. destruct W as [W1 W2]. split.
  - apply dset_keys. auto.
  - intros x I. apply dset_keys in I. destruct I as [->|I]; auto.
Qed.
(** Exactly the assignments of other keys raise; the others store the value and change nothing else. *)
Theorem C39_setitem k v d :
  (vd_set k v d = Err KeyError <-> ~ In k ["tagName"; "children"; "attributes"; "eventHandlers"; "inlineJavaScript"; "importSource"]) /\
  (forall d', vd_set k v d = Ok d' -> dget k d' = Some v /\ forall k', k' <> k -> dget k' d' = dget k' d).
Proof.
  unfold vd_set. split.
  - destruct (negb (mem k allowed_keys)) eqn:M; [apply negb_true_iff, mem_not_In in M|apply negb_false_iff, mem_In in M].
    + split; auto.
    + split; [discriminate|intros N; contradiction].
  - intros d'. destruct (negb _); [discriminate|]. intros E. injection E as <-. split; [apply dget_dset_same|]. intros k' N. apply dget_dset_other. auto.
Qed.
Theorem C39_init kwargs : (exists d, vd_new kwargs = Ok d) <-> well_keyed kwargs.
Proof.
  split.
  - intros [d E]. assert (W := C39_keys kwargs d [] E). simpl in W. unfold vd_new in E. destruct (negb _); [discriminate|]. destruct (existsb _ _); [discriminate|]. injection E as ->. auto.
  - intros [W1 W2]. unfold vd_new. apply dmem_In in W1. rewrite W1. cbn [negb]. destruct (existsb _ _) eqn:X; eauto. exfalso.
    apply existsb_exists in X. destruct X as ([k v] & I & N). apply negb_true_iff, mem_not_In in N. apply N. apply W2. apply (in_map fst) in I. auto.
Qed.
Example C39_example : exists d, vd_new [("tagName", PStr "div")] = Ok d /\
  fold_left vd_try [("children", PSeq []); ("style", PNone); ("tagName", PStr "p")] d = [("tagName", PStr "p"); ("children", PSeq [])].
Proof. eexists. split; reflexivity. Qed.
(** Finding: [dict.update] and [del] are not overridden, so a [VdomDict] can be given other keys and lose its tag. *)
Theorem C39_other_mutators_refuted : exists d, vd_new [("tagName", PStr "div")] = Ok d /\
  ~ well_keyed (vd_update ("style", PNone) d) /\ ~ well_keyed (vd_del "tagName" d).
Proof.
  eexists. split; [reflexivity|]. split.
  - intros [_ W]. specialize (W "style"). simpl in W. destruct (W (or_intror (or_introl eq_refl))) as [H|H]; [discriminate|]. repeat (destruct H as [H|H]; [discriminate|]). destruct H.
  - intros [[] _].
Qed.

(** ** C40 *)

(** [HtmlConstructor.__getattr__] and [SvgConstructor.__getattr__], _html.py:292-302, 191-201: the cache returns what was
    built before for the same name, so it does not change results. *)
Definition no_children_html : list string :=
  ["area"; "base"; "br"; "col"; "command"; "embed"; "hr"; "img"; "input"; "iframe"; "keygen"; "link"; "meta"; "param"; "portal"; "source"; "track"; "wbr"].
Definition no_children_svg : list string :=
  ["animate"; "animateMotion"; "animateTransform"; "circle"; "desc"; "discard"; "ellipse"; "feBlend"; "feColorMatrix"; "feComponentTransfer"; "feComposite";
   "feConvolveMatrix"; "feDiffuseLighting"; "feDisplacementMap"; "feDistantLight"; "feDropShadow"; "feFlood"; "feFuncA"; "feFuncB"; "feFuncG"; "feFuncR";
   "feGaussianBlur"; "feImage"; "feMerge"; "feMergeNode"; "feMorphology"; "feOffset"; "fePointLight"; "feSpecularLighting"; "feSpotLight"; "feTile";
   "feTurbulence"; "filter"; "foreignObject"; "hatch"; "hatchpath"; "image"; "line"; "linearGradient"; "metadata"; "mpath"; "path"; "polygon"; "polyline";
   "radialGradient"; "rect"; "script"; "set"; "stop"; "style"; "text"; "textPath"; "title"; "tspan"; "use"; "view"].
(** [value.rstrip("_").replace("_", "-")] *)
Fixpoint all_underscores (s : string) : bool := match s with EmptyString => true | String a s' => Ascii.eqb a "_"%char && all_underscores s' end.
Fixpoint rstrip_ (s : string) : string :=
  match s with EmptyString => EmptyString | String a s' => if all_underscores s then EmptyString else String a (rstrip_ s') end.
Fixpoint dashes (s : string) : string :=
  match s with EmptyString => EmptyString | String a s' => String (if Ascii.eqb a "_"%char then "-"%char else a) (dashes s') end.
Definition html_ctor (name : string) : ctor :=
  let v := dashes (rstrip_ name) in
  if String.eqb v "script" then Ctor "script" true CScript None
  else if String.eqb v "fragment" then Ctor "" true CFragment None
  else Ctor v (negb (mem v no_children_html)) NoCustom None.
Definition svg_ctor (name : string) : ctor :=
  let v := dashes (rstrip_ name) in Ctor v (negb (mem v no_children_svg)) NoCustom None.

(** The parts of an argument list, as [C37]/[C38] describe them. *)
Definition attrs_of (args : list pv) : list (string * pv) := match args with PMap true items :: _ => items | _ => [] end.
Definition legal_attrs (args : list pv) : Prop := NoDup (map fst (attrs_of args)) /\ forallb (fun kv => has_code (snd kv)) (attrs_of args) = true.
Lemma separate_legal args : legal_attrs args -> separate (fst (separate_children args)) [] [] [] =
  Ok (filter (of_kind KAttr) (attrs_of args), map_snd as_handler (filter (of_kind KHandler) (attrs_of args)), map_snd as_js (filter (of_kind KJs) (attrs_of args))).
Proof.
  intros [ND HC]. replace (fst (separate_children args)) with (attrs_of args) by (destruct args as [|[| | | | | |[]| |] args]; reflexivity).
  rewrite separate_spec by (auto; intros; simpl; tauto). rewrite HC. reflexivity.
Qed.
Definition kids (args : list pv) : list pv := snd (separate_children args).
Lemma vdom_call_legal c args : legal_attrs args -> vdom_call c args =
  match (match c_custom c with
         | NoCustom => Ok (Elem "" (non_empty (kids args)) (non_empty (filter (of_kind KAttr) (attrs_of args))) (non_empty (map_snd as_handler (filter (of_kind KHandler) (attrs_of args))))
                                (non_empty (map_snd as_js (filter (of_kind KJs) (attrs_of args)))) (c_import c))
         | CFragment => fragment (filter (of_kind KAttr) (attrs_of args)) (kids args) (map_snd as_handler (filter (of_kind KHandler) (attrs_of args)))
         | CScript => script (filter (of_kind KAttr) (attrs_of args)) (kids args) (map_snd as_handler (filter (of_kind KHandler) (attrs_of args)))
         end) with
  | Err e => Err e
  | Ok r => if negb (match kids args with [] => true | _ => false end) && negb (c_allow c) then Err TypeError else Ok (with_tag (c_tag c) r)
  end.
Proof.
  intros L. apply separate_legal in L. unfold vdom_call, kids. destruct (separate_children args) as [items ch]. simpl in L |- *. rewrite L. reflexivity.
Qed.

(** Elements without custom constructor: a [TypeError] iff the tag is declared childless and there is a child. *)
Lemma kids_leaves args : leaves (child_args args) (kids args).
Proof. exact (flatten_leaves args). Qed.
Lemma void_kids c args : c_custom c = NoCustom -> legal_attrs args ->
  (exists e, vdom_call c args = Err e) <-> c_allow c = false /\ kids args <> [].
Proof.
  intros CC L. rewrite vdom_call_legal, CC by auto. destruct (kids args) as [|k ks], (c_allow c); simpl; split.
  all: try (intros [e E]; discriminate).
  all: try (intros [H1 H2]; congruence).
  - intros _. split; [auto|discriminate].
  - eauto.
Qed.
Theorem C40_void c args l : c_custom c = NoCustom -> legal_attrs args -> leaves (child_args args) l ->
  (vdom_call c args = Err TypeError <-> c_allow c = false /\ l <> []) /\ (forall e, vdom_call c args = Err e -> e = TypeError).
Proof.
  intros CC L LV. assert (K : l = kids args) by (eapply leaves_unique; eauto; apply kids_leaves). subst l. rewrite vdom_call_legal, CC by auto.
  destruct (kids args) as [|k ks], (c_allow c); cbn; split; try (intros e; congruence); split; intros H; try discriminate; try (destruct H; congruence); split; congruence.
Qed.
Lemma void_html name args : ~ In (dashes (rstrip_ name)) ["script"; "fragment"] -> legal_attrs args ->
  (exists e, vdom_call (html_ctor name) args = Err e) <-> In (dashes (rstrip_ name)) no_children_html /\ kids args <> [].
Proof.
  intros N L. assert (E : html_ctor name = Ctor (dashes (rstrip_ name)) (negb (mem (dashes (rstrip_ name)) no_children_html)) NoCustom None).
  { unfold html_ctor. destruct (String.eqb_spec (dashes (rstrip_ name)) "script"); [exfalso; apply N; left; auto|].
    destruct (String.eqb_spec (dashes (rstrip_ name)) "fragment"); [exfalso; apply N; right; left; auto|]. reflexivity. }
  rewrite E, void_kids by auto. cbn [c_allow]. rewrite negb_false_iff, mem_In. reflexivity.
Qed.
(** The tag that a Python name stands for: trailing underscores are dropped, the others are dashes. *)
Definition tag_of (name t : string) : Prop :=
  exists body us, name = (body ++ us)%string /\ (forall i a, String.get i us = Some a -> a = "_"%char) /\ (forall b, body <> (b ++ "_")%string) /\
    forall i, String.get i t = match String.get i body with Some a => Some (if Ascii.eqb a "_" then "-"%char else a) | None => None end.
Lemma get_ext s : forall t, (forall i, String.get i s = String.get i t) -> s = t.
Proof.
  induction s as [|a s IH]; intros [|b t] H; auto; try (specialize (H 0); discriminate). f_equal; [specialize (H 0); cbn in H; congruence|]. apply IH. intros i. apply (H (S i)).
Qed.
Lemma get_dashes s : forall i, String.get i (dashes s) = match String.get i s with Some a => Some (if Ascii.eqb a "_" then "-"%char else a) | None => None end.
Proof. induction s as [|a s IH]; intros i; [reflexivity|]. destruct i as [|i]; [reflexivity|]. apply IH. Qed.
Lemma all_underscores_iff s : all_underscores s = true <-> forall i a, String.get i s = Some a -> a = "_"%char.
Proof.
  induction s as [|b s IH]; [split; auto; intros _ i a H; discriminate|]. cbn [all_underscores]. rewrite andb_true_iff, IH, Ascii.eqb_eq. split.
  - intros [-> H] [|i] a E; [cbn in E; congruence|apply (H i a E)].
  - intros H. split; [apply (H 0); reflexivity|]. intros i a E. apply (H (S i) a E).
Qed.
Lemma rstrip_under body us : all_underscores us = true -> (forall b, body <> (b ++ "_")%string) -> rstrip_ (body ++ us) = body.
Proof.
  intros U. induction body as [|a body IH]; intros N.
  - cbn [append]. destruct us; [reflexivity|]. cbn [rstrip_]. rewrite U. reflexivity.
  - cbn [append rstrip_]. destruct (all_underscores (String a (body ++ us))) eqn:E.
    + exfalso. clear IH. rewrite all_underscores_iff in E. assert (G : forall s, s <> "" -> (forall i x, String.get i (s ++ us) = Some x -> x = "_"%char) -> exists b, s = (b ++ "_")%string).
      { clear. induction s as [|c s IH]; [congruence|]. intros _ H. assert (c = "_"%char) by (apply (H 0); reflexivity). subst c. destruct s as [|d s]; [exists ""; reflexivity|].
        destruct IH as [b B]; [discriminate|intros i x X; apply (H (S i) x X)|]. exists (String "_" b). cbn [append]. rewrite B. reflexivity. }
      destruct (G (String a body)) as [b B]; [discriminate|exact E|]. exact (N b B).
    + f_equal. apply IH. intros b ->. apply (N (String a b)). reflexivity.
Qed.
Lemma tag_of_spec name t : tag_of name t <-> t = dashes (rstrip_ name).
Proof.
  split.
  - intros (body & us & -> & U & N & G). apply all_underscores_iff in U. rewrite rstrip_under by auto. apply get_ext. intros i. rewrite G, get_dashes. reflexivity.
  - intros ->. assert (D : exists us, name = (rstrip_ name ++ us)%string /\ all_underscores us = true /\ forall b, rstrip_ name <> (b ++ "_")%string).
    { induction name as [|a name IH]; [exists ""; split; [reflexivity|split; [reflexivity|intros [|c b]; discriminate]]|]. cbn [rstrip_]. destruct (all_underscores (String a name)) eqn:E.
      - exists (String a name). split; [reflexivity|]. split; auto. intros [|c b]; discriminate.
      - destruct IH as (us & H & U & N). exists us. split; [cbn [append]; congruence|]. split; auto. intros [|c b] X.
        + injection X as -> X. rewrite X in H. cbn [append] in H. subst name. cbn [all_underscores] in E. rewrite U in E. discriminate.
        + injection X as -> X. exact (N b X). }
    destruct D as (us & H & U & N). exists (rstrip_ name), us. split; auto. split; [apply all_underscores_iff; auto|]. split; auto. intros i. apply get_dashes.
Qed.
(** The HTML elements that are declared childless. *)
Definition childless : list string :=
  ["area"; "base"; "br"; "col"; "command"; "embed"; "hr"; "iframe"; "img"; "input"; "keygen"; "link"; "meta"; "param"; "portal"; "source"; "track"; "wbr"].
Lemma childless_iff t : In t no_children_html <-> In t childless.
Proof. cbn. tauto. Qed.
Theorem C40_void_html name t args l : tag_of name t -> t <> "script" -> t <> "fragment" -> legal_attrs args -> leaves (child_args args) l ->
  (vdom_call (html_ctor name) args = Err TypeError <-> In t childless /\ l <> []) /\
  (forall e, vdom_call (html_ctor name) args = Err e -> e = TypeError) /\
  (forall e, vdom_call (html_ctor name) args = Ok e -> e_tag e = t).
Proof.
  intros T N1 N2 L LV. assert (TT := T). apply tag_of_spec in TT. subst t.
  assert (E : html_ctor name = Ctor (dashes (rstrip_ name)) (negb (mem (dashes (rstrip_ name)) no_children_html)) NoCustom None).
  { unfold html_ctor. destruct (String.eqb_spec (dashes (rstrip_ name)) "script"); [congruence|]. destruct (String.eqb_spec (dashes (rstrip_ name)) "fragment"); [congruence|]. reflexivity. }
  destruct (C40_void (html_ctor name) args l) as [V1 V2]; auto; [rewrite E; reflexivity|]. split; [|split; [exact V2|]].
  - rewrite V1, E. cbn [c_allow]. rewrite negb_false_iff, mem_In, childless_iff. reflexivity.
  - intros e. rewrite E, vdom_call_legal by auto. cbn [c_custom c_allow c_tag c_import]. destruct (_ && _); [discriminate|]. intros H. injection H as <-. reflexivity.
Qed.
(** SVG elements: the same, with their own list. *)
Theorem C40_void_svg name t args l : tag_of name t -> legal_attrs args -> leaves (child_args args) l ->
  (vdom_call (svg_ctor name) args = Err TypeError <-> In t no_children_svg /\ l <> []) /\
  (forall e, vdom_call (svg_ctor name) args = Err e -> e = TypeError) /\
  (forall e, vdom_call (svg_ctor name) args = Ok e -> e_tag e = t).
Proof.
  intros T L LV. assert (TT := T). apply tag_of_spec in TT. subst t. destruct (C40_void (svg_ctor name) args l) as [V1 V2]; auto. split; [|split; [exact V2|]].
  - rewrite V1. unfold svg_ctor. cbn [c_allow]. rewrite negb_false_iff, mem_In. reflexivity.
  - intros e. rewrite vdom_call_legal by auto. unfold svg_ctor. cbn [c_custom c_allow c_tag c_import]. destruct (_ && _); [discriminate|]. intros H. injection H as <-. reflexivity.
Qed.
Example C40_tag_example : tag_of "font_face__" "font-face" /\ tag_of "del_" "del".
Proof. split; apply tag_of_spec; reflexivity. Qed.
(** Fragments: a [TypeError] iff there is an attribute other than [key] or an event handler. *)
Lemma fragment_errors args : legal_attrs args ->
  (exists e, vdom_call (html_ctor "fragment") args = Err e) <->
  exists k v, In (k, v) (attrs_of args) /\ ((rule k v = KAttr /\ k <> "key") \/ rule k v = KHandler).
Proof.
  intros L. rewrite vdom_call_legal by auto. simpl c_custom. cbv iota. unfold fragment. split.
  - intros [e E]. destruct (existsb _ _) eqn:X.
    + apply existsb_exists in X. destruct X as ([k v] & I & N). apply filter_In in I. destruct I as [I K]. exists k, v. split; auto. left.
      unfold of_kind in K. simpl in K, N. apply negb_true_iff, String.eqb_neq in N. destruct (rule k v); try discriminate. auto.
    + destruct (filter (of_kind KHandler) (attrs_of args)) as [|[k v] l] eqn:F.
      * simpl in E. rewrite andb_false_r in E. discriminate.
      * exists k, v. assert (I : In (k, v) (filter (of_kind KHandler) (attrs_of args))) by (rewrite F; left; auto). apply filter_In in I. destruct I as [I K].
        split; auto. right. unfold of_kind in K. simpl in K. destruct (rule k v); auto; discriminate.
  - intros (k & v & I & [[R N]|R]).
    + assert (X : existsb (fun kv : string * pv => negb (String.eqb (fst kv) "key")) (filter (of_kind KAttr) (attrs_of args)) = true).
      { apply existsb_exists. exists (k, v). split; [apply filter_In; split; auto; unfold of_kind; simpl; rewrite R; auto|]. apply negb_true_iff, String.eqb_neq. auto. }
      rewrite X. eexists. reflexivity.
    + assert (F : In (k, v) (filter (of_kind KHandler) (attrs_of args))) by (apply filter_In; split; auto; unfold of_kind; simpl; rewrite R; auto).
      destruct (filter (of_kind KHandler) (attrs_of args)) as [|kv l]; [destruct F|]. simpl negb. rewrite orb_true_r. eexists. reflexivity.
Qed.
Theorem C40_fragment args : legal_attrs args ->
  (vdom_call (html_ctor "fragment") args = Err TypeError <->
   exists k v, In (k, v) (attrs_of args) /\ ((rule k v = KAttr /\ k <> "key") \/ rule k v = KHandler)) /\
  (forall e, vdom_call (html_ctor "fragment") args = Err e -> e = TypeError) /\
  (forall e, vdom_call (html_ctor "fragment") args = Ok e -> e_tag e = "").
Proof.
  intros L. assert (T : forall e, vdom_call (html_ctor "fragment") args = Err e -> e = TypeError).
  { intros e. rewrite vdom_call_legal by auto. cbn. unfold fragment. destruct (_ || _); [congruence|]. rewrite andb_false_r. discriminate. }
  split; [|split; auto].
  - rewrite <- fragment_errors by auto. split; [eauto|]. intros [e E]. rewrite E. f_equal. auto.
  - intros e. rewrite vdom_call_legal by auto. cbn. unfold fragment. destruct (_ || _); [discriminate|]. rewrite andb_false_r. intros H. injection H as <-. reflexivity.
Qed.
Definition is_string (v : pv) : Prop := exists s, v = PStr s \/ v = PJs s.
Lemma is_str_iff v : is_str v = true <-> is_string v.
Proof. unfold is_string. destruct v; simpl; split; try discriminate; eauto; intros [x [H|H]]; discriminate. Qed.
(** Scripts: an error iff there is an event handler, more than one child, or a child that is not a string. *)
Lemma script_errors args : legal_attrs args ->
  (exists e, vdom_call (html_ctor "script") args = Err e) <->
  (exists k v, In (k, v) (attrs_of args) /\ rule k v = KHandler) \/ length (kids args) > 1 \/ (exists v, kids args = [v] /\ ~ is_string v).
Proof.
  intros L. rewrite vdom_call_legal by auto. simpl c_custom. simpl c_allow. cbv iota. unfold script. rewrite andb_false_r.
  destruct (map_snd as_handler (filter (of_kind KHandler) (attrs_of args))) as [|h l] eqn:F.
  - assert (NH : ~ exists k v, In (k, v) (attrs_of args) /\ rule k v = KHandler).
    { intros (k & v & I & R). assert (I2 : In (k, v) (filter (of_kind KHandler) (attrs_of args))) by (apply filter_In; split; auto; unfold of_kind; simpl; rewrite R; auto).
      destruct (filter (of_kind KHandler) (attrs_of args)); [destruct I2|discriminate]. }
    destruct (kids args) as [|c [|c2 ks]].
    + split; [intros [e E]; discriminate|]. intros [H|[H|(v & H & _)]]; [contradiction|simpl in H; lia|discriminate].
    + destruct (is_str c) eqn:S; split.
      * intros [e E]. discriminate.
      * intros [H|[H|(v & H & N)]]; [contradiction|simpl in H; lia|]. injection H as <-. apply is_str_iff in S. contradiction.
      * intros _. right. right. exists c. split; auto. intros X. apply is_str_iff in X. congruence.
      * eauto.
    + split; [|eauto]. intros _. right. left. simpl. lia.
  - split; [|eauto]. intros _. left. destruct (filter (of_kind KHandler) (attrs_of args)) as [|[k v] l'] eqn:F2; [discriminate|].
    exists k, v. assert (I : In (k, v) (filter (of_kind KHandler) (attrs_of args))) by (rewrite F2; left; auto). apply filter_In in I. destruct I as [I K].
    split; auto. unfold of_kind in K. simpl in K. destruct (rule k v); auto; discriminate.
Qed.
Theorem C40_script args l : legal_attrs args -> leaves (child_args args) l ->
  (vdom_call (html_ctor "script") args = Err ValueError <->
   (exists k v, In (k, v) (attrs_of args) /\ rule k v = KHandler) \/ length l > 1 \/ (exists v, l = [v] /\ ~ is_string v)) /\
  (forall e, vdom_call (html_ctor "script") args = Err e -> e = ValueError) /\
  (forall e, vdom_call (html_ctor "script") args = Ok e -> e_tag e = "script").
Proof.
  intros L LV. assert (K : l = kids args) by (eapply leaves_unique; eauto; apply kids_leaves). subst l.
  assert (T : forall e, vdom_call (html_ctor "script") args = Err e -> e = ValueError).
  { intros e. rewrite vdom_call_legal by auto. cbn. unfold script. destruct (map_snd _ _); [|congruence]. rewrite andb_false_r.
    destruct (kids args) as [|c [|]]; [discriminate| |congruence]. destruct (is_str c); [discriminate|congruence]. }
  split; [|split; auto].
  - rewrite <- script_errors by auto. split; [eauto|]. intros [e E]. rewrite E. f_equal. auto.
  - intros e. rewrite vdom_call_legal by auto. cbn. destruct (script _ _ _) as [x|]; [|discriminate]. rewrite andb_false_r. intros H. injection H as <-. reflexivity.
Qed.
(** The key of a script: the given one, else its content, else its [src], else none. *)
Definition given (k : string) (args : list pv) : option pv :=
  match dget k (filter (of_kind KAttr) (attrs_of args)) with Some PNone => None | o => o end.
Lemma given_eq k args : given k args = opt_none (dget k (filter (of_kind KAttr) (attrs_of args))).
Proof. unfold given, opt_none. destruct (dget k _) as [[]|]; auto. Qed.
Theorem C40_script_key args l e : legal_attrs args -> leaves (child_args args) l -> vdom_call (html_ctor "script") args = Ok e ->
  match e_attrs e with Some d => opt_none (dget "key" d) | None => None end =
  match given "key" args, l with
  | Some k, _ => Some k
  | None, c :: _ => Some c
  | None, [] => given "src" args
  end.
Proof.
  intros L LV. assert (K : l = kids args) by (eapply leaves_unique; eauto; apply kids_leaves). subst l.
  rewrite vdom_call_legal by auto. simpl c_custom. simpl c_allow. cbv iota. unfold script. rewrite !given_eq, andb_false_r.
  destruct (map_snd as_handler _); [|discriminate]. set (A := filter (of_kind KAttr) (attrs_of args)).
  assert (NN : forall o, opt_none (opt_none o) = opt_none o) by (intros [[]|]; auto).
  assert (NE : opt_none (dget "key" A) = None -> match non_empty A with Some d => opt_none (dget "key" d) | None => None end = None).
  { intros H. destruct A; auto. }
  destruct (kids args) as [|c [|c2 ks]]; [| |discriminate].
  - intros E. injection E as <-. simpl e_attrs. destruct (opt_none (dget "key" A)) as [k|] eqn:K.
    + rewrite dget_dset_same. rewrite <- K, NN. auto.
    + destruct (opt_none (dget "src" A)) as [k|] eqn:S; auto. rewrite dget_dset_same, <- S, NN. auto.
  - destruct (is_str c) eqn:S; [|discriminate]. intros E. injection E as <-. simpl e_attrs. destruct (opt_none (dget "key" A)) as [k|] eqn:K.
    + rewrite dget_dset_same. rewrite <- K, NN. auto.
    + rewrite dget_dset_same. destruct c; try discriminate; auto.
Qed.
Example C40_examples :
  vdom_call (html_ctor "br") [PStr "x"] = Err TypeError /\
  (exists e, vdom_call (html_ctor "br") [PMap true [("id", PStr "x")]] = Ok e) /\
  vdom_call (html_ctor "fragment") [PMap true [("id", PStr "x")]] = Err TypeError /\
  (exists e, vdom_call (html_ctor "fragment") [PMap true [("key", PStr "x")]; PStr "a"] = Ok e) /\
  vdom_call (html_ctor "script") [PStr "a"; PStr "b"] = Err ValueError /\
  (exists e, vdom_call (html_ctor "script") [PMap true [("src", PStr "u")]] = Ok e /\ e_attrs e = Some [("src", PStr "u"); ("key", PStr "u")]) /\
  legal_attrs [PMap true [("src", PStr "u")]] /\ leaves (child_args [PMap true []; PSeq [PStr "a"; PSeq []]]) [PStr "a"].
Proof.
  repeat match goal with |- _ /\ _ => split end; try reflexivity; eauto; try (eexists; try split; reflexivity); [simpl; repeat constructor; simpl; tauto|].
  exact (kids_leaves [PMap true []; PSeq [PStr "a"; PSeq []]]).
Qed.
(** Finding: [text], [tspan], [title], [style] and other SVG elements whose content is text are declared childless, so
    [html.svg.text("hello")] raises. *)
Theorem C40_svg_text_refuted : vdom_call (svg_ctor "text") [PStr "hello"] = Err TypeError.
Proof. reflexivity. Qed.

Print Assumptions C37_partition.
Print Assumptions C38_flatten.
Print Assumptions C39_keys.
Print Assumptions C40_script_key.
