(** MoveSpec.v — which operations of a client make new nodes, and which write data.  No proofs. *)
From stdpp Require Import base gmap list.
From Verif Require Import Spec ClientSpec.

Section move.
Context {A : Type}.

(** the operation may make nodes that were not there before: constructors, copies, conversions from visits, and [Tree::abandon]
    (tree.rs:175-183, which gives the root's data a node of its own and leaves the old one to the forest) *)
Definition creates (o : op A) : bool :=
  match o with
  | ONewTree _ _ | ONewForest _ | OAbandon _ _ | OClone _ _ _ | OCloneForest _ _ _ | OFromBfs _ _ | OFromVisits _ _
  | OMapInto _ _ _ | OMapBfs _ _ _ _ | OMapBfsChildren _ _ _ _ => true
  | _ => false
  end.

(** the operation lets the client write the data of a node *)
Definition act_writes (a : act A) : bool := match a with AMod _ _ => true | _ => false end.
Definition writes (o : op A) : bool :=
  match o with
  | OModify _ _ _ | OBfsMut _ _ _ | OBfsChildrenMut _ _ _ => true
  | OEach _ _ acts => existsb (existsb act_writes) acts
  | _ => false
  end.

(** the values held by all the variables *)
Definition values (env : gmap nat (item A)) : list A := flat_map (fun x => item_post x.2) (map_to_list env).
End move.
