(** * Concrete applications that break unguarded forms of the layout properties *)
From Coq Require Import String ZArith Bool Arith Lia List.
From Verif Require Import Dict Strings LayoutTypes LayoutModel BodySpec DisplaySpec GuardSpec LayoutObs LayoutHistory HooksModel.
Import ListNotations.
Local Open Scope string_scope.
Local Open Scope list_scope.

Definition app_of (p : prog) (kid : prog) (n : nat) (_ : val) (_ : list raw) : body :=
  match n with 0 => compile p | _ => compile kid end.
Definition root0 : cinst := Cinst (CTUser 0) None VNone [].
Definition ends (defs : nat -> val -> list raw -> body) (ops : list op) : st :=
  match run false defs 40 ops (init root0) with Some s => s | None => init root0 end.
Definition elem (tag : string) (hs : dict string handler) (kids : list raw) : raw := RElem tag None hs None None (Some kids).
Definition keyed (k : string) (hs : dict string handler) : raw := RElem "b" (Some [("key", VStr k)]) hs None None None.
Definition click (fn : nat) (target : option string) : dict string handler := [("onClick", Handler fn false false target None None)].

(** A parent whose second render raises; its child keeps state. *)
Definition raising := app_of
  (PState (VInt 0) (fun v _ => if veq v (VInt 0) then PRet (RComp (Cinst (CTUser 1) None VNone [])) else PRaise "boom"))
  (PState (VInt 0) (fun v _ => PRet (RText "child"))).
Definition raising_ops : list op := [ORender []; OEnv (EDispatch 0 0 (UVal (VInt 1))); ORender []].
Definition raising_end : st := Eval vm_compute in ends raising raising_ops.
Definition raising_crash : list op := [OEnv (EDispatch 1 0 (UVal (VInt 3))); ORender []].

(** An element whose user-chosen target changes. *)
Definition retarget := app_of
  (PState (VInt 0) (fun v _ => PRet (elem "p" (click 1 (Some (if veq v (VInt 0) then "old" else "new"))) [])))
  (PRet RNone).
Definition retarget_ops : list op := [ORender []; OEnv (EDispatch 0 0 (UVal (VInt 1))); ORender []].
Definition retarget_end : st := Eval vm_compute in ends retarget retarget_ops.

(** Two siblings with different handlers, the first with the key "1", the second without a key. *)
Definition colliding := app_of (PRet (elem "p" [] [keyed "1" (click 1 None); RElem "b" None (click 2 None) None None None])) (PRet RNone).
Definition colliding_end : st := Eval vm_compute in ends colliding [ORender []].

(** Two elements with the same user-chosen target, both removed later. *)
Definition sharing := app_of
  (PState (VInt 0) (fun v _ => PRet (elem "p" [] (if veq v (VInt 0) then [elem "b" (click 1 (Some "t")) []; elem "b" (click 2 (Some "t")) []] else []))))
  (PRet RNone).
Definition sharing_ops : list op := [ORender []; OEnv (EDispatch 0 0 (UVal (VInt 1))); ORender []].
Definition sharing_end : st := Eval vm_compute in ends sharing sharing_ops.

