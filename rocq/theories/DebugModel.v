(** DebugModel.v — [Debug] of nodes, trees and forests on the modelled memory.  No proofs.
    [show]: what [T]'s [Debug] writes; [showp]: what [{:?}] writes for an address. *)
From Coq Require Import Ascii String.
From stdpp Require Import base gmap list.
From Verif Require Import Spec ClientSpec Machine NodeModel ClientModel CmpModel.

Section model.
Context {A : Type} (show : A -> string) (showp : ptr -> string).
Implicit Types (p q : ptr).
Local Open Scope string_scope.

(** [for child in iter { child.fmt(f)?; write!(f, sep)?; }] *)
Fixpoint iter_dbg (sep : string) (fmtn : ptr -> M A string) g a : M A string :=
  match g with
  | 0 => fail EFuel
  | S g' =>
    let! r := ci_next a in
    match r.1 with
    | None => ret ""
    | Some x => let! w := fmtn x in let! w' := iter_dbg sep fmtn g' r.2 in ret (w ++ sep ++ w')
    end
  end.
(** macros.rs:97-112 [Debug for Node] (node.rs:600); [Debug for Tree] is that of its root (macros.rs:5-7, tree.rs:251) *)
Fixpoint node_dbg_ g f p : M A string :=
  match f with
  | 0 => fail EFuel
  | S f' =>
    let! e := has_no_child p in
    let! x := data p in
    let w0 := show x ++ "@" ++ showp p ++ " " in
    if e : bool then ret w0
    else let! a := iter p in let! w := iter_dbg "" (node_dbg_ g f') g a in ret (w0 ++ "( " ++ w ++ ")")
  end.
Definition node_dbg p : M A string := let! f := fuel in node_dbg_ f f p.
(** macros.rs:19-32 [Debug for Forest] (forest.rs:290) *)
Definition forest_dbg p : M A string :=
  let! e := has_no_child p in
  if e : bool then ret "()"
  else let! f := fuel in let! a := iter p in let! w := iter_dbg " " (node_dbg_ f f) f a in ret ("( " ++ w ++ ")").
End model.
