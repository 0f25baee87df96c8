(** TupleModel.v — tuple.rs, NodeVec::construct_tree / construct_forest (node_vec.rs:67-169), Tree::from_tuple
    (tree.rs:47-55), Forest::from_tuple (forest.rs:46-54).  No proofs. *)
From stdpp Require Import base gmap list.
From Verif Require Import Machine NodeModel BfsModel.

(** A nested tuple: tuple.rs:26 a bare value of [T]; tuple.rs:49-53 [(T,T1,..,Tn)].  A forest tuple (tuple.rs:128-131)
    [(T0,..,Tn)] is a list.  The code has [n <= 32]; here any [n].  The [Shape] parameter only guides type inference.
    The associated constants and functions depend on the type alone; here they are computed from the value. *)
Inductive tuple (A : Type) : Type :=
  | Val (a : A)
  | Tup (a : A) (ts : list (tuple A)).
Arguments Val {A} a.
Arguments Tup {A} a ts.

(** tuple.rs:8-13 [enum Visit] *)
Inductive tvisit (A : Type) : Type := Branch (a : A) | Leaf (a : A) | Frame.
Arguments Branch {A} a.
Arguments Leaf {A} a.
Arguments Frame {A}.

Section tuple.
Context {A : Type}.
Implicit Types (t : tuple A) (ts : list (tuple A)).

(** tuple.rs:27, 54-57 [TupleTree::SIZE]: degree and descendants *)
Fixpoint tt_desc t : nat :=
  match t with
  | Val _ => 0
  | Tup _ ts => list_sum (map (fun k => tt_desc k + 1) ts)
  end.
Definition tt_size t : nat * nat :=
  match t with Val _ => (0, 0) | Tup _ ts => (length ts, tt_desc t) end.
(** tuple.rs:132-135 [TupleForest::SIZE] *)
Definition tf_size ts : nat * nat := (length ts, list_sum (map (fun k => (tt_size k).2 + 1) ts)).

(** tuple.rs:28, 59-65 [TupleTree::descendants] *)
Fixpoint tt_descendants t (indirect_level : nat) : nat :=
  match t with
  | Val _ => 0
  | Tup _ ts =>
    match indirect_level with
    | 0 => length ts
    | S l => list_sum (map (fun k => tt_descendants k l) ts)
    end
  end.
(** tuple.rs:137-143 [TupleForest::descendants] *)
Definition tf_descendants ts (indirect_level : nat) : nat :=
  match indirect_level with
  | 0 => length ts
  | S l => list_sum (map (fun k => tt_descendants k l) ts)
  end.

(** tuple.rs:29, 67-69 [TupleTree::height]: [1 + max of 0 and the heights of the children] *)
Fixpoint tt_height t : nat :=
  match t with Val _ => 1 | Tup _ ts => 1 + list_max (0 :: map tt_height ts) end.
(** tuple.rs:145-147 [TupleForest::height] *)
Definition tf_height ts : nat := 0 + list_max (0 :: map tt_height ts).

(** tuple.rs:31-33, 71-79 [TupleTree::preorder]: the arguments of the successive calls of [f] *)
Fixpoint tt_preorder t : list (tvisit A) :=
  match t with
  | Val a => [Leaf a]
  | Tup a ts => if Nat.eqb (length ts) 0 then [Leaf a] else [Branch a] ++ flat_map tt_preorder ts ++ [Frame]
  end.
(** tuple.rs:35-37, 81-90 [preorder_with_size_hint] *)
Fixpoint tt_preorder_hint t : list (tvisit A * (nat * nat)) :=
  match t with
  | Val a => [(Leaf a, (0, 0))]
  | Tup a ts =>
    let size := tt_size t in
    if Nat.eqb size.1 0 then [(Leaf a, size)]
    else [(Branch a, size)] ++ flat_map tt_preorder_hint ts ++ [(Frame, size)]
  end.
(** tuple.rs:39-41, 92-100 [postorder] *)
Fixpoint tt_postorder t : list (tvisit A) :=
  match t with
  | Val a => [Leaf a]
  | Tup a ts => if Nat.eqb (length ts) 0 then [Leaf a] else [Frame] ++ flat_map tt_postorder ts ++ [Branch a]
  end.
(** tuple.rs:43-45, 102-111 [postorder_with_size_hint] *)
Fixpoint tt_postorder_hint t : list (tvisit A * (nat * nat)) :=
  match t with
  | Val a => [(Leaf a, (0, 0))]
  | Tup a ts =>
    let size := tt_size t in
    if Nat.eqb size.1 0 then [(Leaf a, size)]
    else [(Branch a, size)] ++ flat_map tt_postorder_hint ts ++ [(Frame, size)]
  end.
(** tuple.rs:149-163 the same for [TupleForest] *)
Definition tf_preorder ts : list (tvisit A) := flat_map tt_preorder ts.
Definition tf_preorder_hint ts : list (tvisit A * (nat * nat)) := flat_map tt_preorder_hint ts.
Definition tf_postorder ts : list (tvisit A) := flat_map tt_postorder ts.
Definition tf_postorder_hint ts : list (tvisit A * (nat * nat)) := flat_map tt_postorder_hint ts.

(** * node_vec.rs:67-169 *)

(** node_vec.rs:70-79, 127-136: the table of offsets; [descendants] is the function of the tuple type.
    [offsets[depth-1]] is in range in every iteration. *)
Fixpoint offsets_from (descendants : nat -> nat) (n depth last : nat) : list nat :=
  match n with
  | 0 => []
  | S n' => let o := last + descendants (depth - 2) in o :: offsets_from descendants n' (S depth) o
  end.
Definition offsets_of (height : nat) (descendants : nat -> nat) : list nat :=
  if Nat.ltb 1 height then 0 :: 1 :: offsets_from descendants (height - 2) 2 1 else [0].

(** the variables captured by the closure, node_vec.rs:83-86, 142-144 *)
Record bst : Type := Bst { b_root : bool; b_leaf : bool; b_par : nat; b_depth : nat; b_off : list nat }.

(** [offsets[i]]: panics when out of range *)
Definition idx (l : list nat) (i : nat) : M A nat := unwrap (l !! i).

(** the branches common to both closures, node_vec.rs:98-107, 148-157 *)
Definition on_branch (v : nat) (st : bst) (a : A) (sz : nat * nat) : M A bst :=
  let! o := idx (b_off st) (b_depth st) in
  append_child v (b_par st) o a sz.1 sz.2 ;;
  ret (Bst (b_root st) (b_leaf st) o (S (b_depth st)) (b_off st)).
Definition on_leaf (v : nat) (st : bst) (a : A) (sz : nat * nat) : M A bst :=
  let! o := idx (b_off st) (b_depth st) in
  append_child v (b_par st) o a sz.1 sz.2 ;;
  ret (Bst (b_root st) true (b_par st) (b_depth st) (<[b_depth st := S o]> (b_off st))).

(** node_vec.rs:87-119 *)
Definition tree_visit (v : nat) (st : bst) (x : tvisit A * (nat * nat)) : M A bst :=
  let sz := x.2 in
  if b_root st then
    match x.1 with
    | Branch a | Leaf a =>
      make_piled_node v None 0 a sz.1 sz.2 ;; ret (Bst false (b_leaf st) (b_par st) (b_depth st) (b_off st))
    | Frame => fail EPanic
    end
  else
    match x.1 with
    | Branch a => on_branch v st a sz
    | Leaf a => on_leaf v st a sz
    | Frame =>
      let! d := sub (b_depth st) 1 in
      if b_leaf st then
        let! o := idx (b_off st) d in
        let off := <[d := S o]> (b_off st) in
        if Nat.ltb 0 d then
          let! p := idx off (d - 1) in ret (Bst (b_root st) false p d off)
        else ret (Bst (b_root st) false (b_par st) d off)
      else ret (Bst (b_root st) false (b_par st) d (b_off st))
    end.
(** node_vec.rs:145-167 *)
Definition forest_visit (v : nat) (st : bst) (x : tvisit A * (nat * nat)) : M A bst :=
  let sz := x.2 in
  match x.1 with
  | Branch a => on_branch v st a sz
  | Leaf a => on_leaf v st a sz
  | Frame =>
    let! d := sub (b_depth st) 1 in
    if b_leaf st then
      let! o := idx (b_off st) d in
      let off := <[d := S o]> (b_off st) in
      let! d1 := sub d 1 in
      let! p := idx off d1 in ret (Bst (b_root st) false p d off)
    else ret (Bst (b_root st) false (b_par st) d (b_off st))
  end.

(** calling the closure on each visit in turn *)
Fixpoint visit_all (f : bst -> tvisit A * (nat * nat) -> M A bst) (st : bst) (l : list (tvisit A * (nat * nat))) : M A bst :=
  match l with
  | [] => ret st
  | x :: l' => let! st' := f st x in visit_all f st' l'
  end.

(** node_vec.rs:67-122 *)
Definition construct_tree (v : nat) t : M A unit :=
  visit_all (tree_visit v) (Bst true false 0 1 (offsets_of (tt_height t) (tt_descendants t))) (tt_preorder_hint t) ;; ret tt.
(** node_vec.rs:124-169 *)
Definition construct_forest (v : nat) ts : M A unit :=
  vec_make_node v None 0 (DPiledN v) (tf_size ts).1 (tf_size ts).2 ;;
  visit_all (forest_visit v) (Bst false false 0 1 (offsets_of (tf_height ts + 1) (tf_descendants ts))) (tf_preorder_hint ts) ;; ret tt.

(** tree.rs:47-55 [Tree::from_tuple]: [SIZE.descendants + 1] slots, built from slot 0 *)
Definition tree_from_tuple t : M A ptr :=
  let! v := new_vec ((tt_size t).2 + 1) in
  construct_tree v t ;;
  let! p := slot v 0 in
  tree_from_node p.
(** forest.rs:46-54 [Forest::from_tuple] *)
Definition forest_from_tuple ts : M A ptr :=
  let! v := new_vec ((tf_size ts).2 + 1) in
  construct_forest v ts ;;
  slot v 0.

End tuple.
