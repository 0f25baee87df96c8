(** BfsModel.v — node_vec.rs:16-65, bfs.rs, bfs_impls.rs.  No proofs. *)
From stdpp Require Import base gmap list.
From Verif Require Import Machine NodeModel.

Section model.
Context {A : Type}.
Implicit Types (p q : ptr).

(** * node_vec.rs: building a buffer *)

(** node_vec.rs:16-23 [NodeVec::new_raw_non_null]: [cap] default nodes, each with [Shared::count] 1 (rc.rs:8-20),
    [ref_cnt = cap] *)
Definition vec_slots (v cap : nat) : list (ptr * node A) := (fun i => ((v, i), node_default)) <$> seq 0 cap.
Definition new_vec (cap : nat) : M A nat := fun s =>
  let v := m_fresh s in
  Ok v (Mem (list_to_map (vec_slots v cap) ∪ m_heap s)
            (list_to_map ((fun i => ((v, i), 1)) <$> seq 0 cap) ∪ m_cnt s)
            (<[v := (cap, cap)]> (m_vec s)) (S v) (m_log s)).

(** node_vec.rs:31-35 [non_null_node]: [get_unchecked], out of bounds is undefined behaviour *)
Definition slot (v i : nat) : M A ptr := let! n := get (v, i) in ret (v, i).

(** node_vec.rs:44-54 [NodeVec::make_node]; assigning [node.data] drops the previous content *)
Definition vec_make_node (v : nat) (parent : option ptr) (i : nat) (d : dat A) (dg ds : nat) : M A ptr :=
  let! n := get (v, i) in
  log_drop (dat_vals (n_dat n)) ;;
  put (v, i) (set_dat d (set_size dg ds (set_up parent n))) ;;
  ret (v, i).
(** node_vec.rs:40-42 [make_piled_node] *)
Definition make_piled_node v parent i (a : A) dg ds : M A ptr := vec_make_node v parent i (DPiled a v) dg ds.

(** node_vec.rs:56-65 [append_child] *)
Definition append_child (v parent child : nat) (a : A) (dg ds : nat) : M A unit :=
  let! pp := slot v parent in
  let! c := make_piled_node v (Some pp) child a dg ds in
  let! pn := get (v, parent) in
  (match n_tail pn with
   | Some t => connect_next t c
   | None => upd (v, parent) (set_head (Some c))
   end) ;;
  upd (v, parent) (set_tail (Some c)).

(** * bfs.rs *)

(** bfs.rs:8-12 [Visit] : data, size.degree, size.descendants *)
Definition visit : Type := A * nat * nat.

(** bfs.rs:156-195 [Splitted<Iter>] over [Iter] ([&Node], bfs_impls.rs:127-134) and over [IterMut]
    (bfs_impls.rs:136-149): a queue of child iterators.  [next] drops exhausted iterators from the front, yields the next
    node of the first non-exhausted one and puts the iterator over its children at the end of the queue. *)
Fixpoint sp_next_node (q : list citer) : M A (option (ptr * nat * nat) * list citer) :=
  match q with
  | [] => ret (None, [])
  | it :: q' =>
    let! r := ci_next it in
    match r.1 with
    | Some p =>
      let! a := data p in
      let! it' := iter p in
      let! n := get p in
      ret (Some (p, ci_size_hint it', n_desc n), (r.2 :: q') ++ [it'])
    | None => sp_next_node q'
    end
  end.
(** the [Visit] yielded: here with the value of the data at that moment *)
Definition sp_next (q : list citer) : M A (option visit * list citer) :=
  let! r := sp_next_node q in
  match r.1 with
  | None => ret (None, r.2)
  | Some (p, dg, ds) => let! a := data p in ret (Some (a, dg, ds), r.2)
  end.

(** bfs_impls.rs:103-105 [Node::bfs], 121-124 [bfs_mut]: iterator and size *)
Definition bfs p : M A (list citer * (nat * nat)) :=
  let! n := get p in ret ([ci_once p], (1, n_desc n)).
(** bfs_impls.rs:69 [bfs_children], 85-88 [bfs_children_mut], 165 [Forest::bfs], 180-183 [Forest::bfs_mut] *)
Definition bfs_children p : M A (list citer * (nat * nat)) :=
  let! it := iter p in let! n := get p in ret ([it], (n_deg n, n_desc n)).

(** collecting an iterator *)
Fixpoint collect {S X} (next : S -> M A (option X * S)) (f : nat) (it : S) : M A (list X) :=
  match f with
  | 0 => fail EFuel
  | Datatypes.S f' =>
    let! r := next it in
    match r.1 with
    | None => ret []
    | Some x => let! l := collect next f' r.2 in ret (x :: l)
    end
  end.
Definition bfs_visits p : M A (list visit) :=
  let! b := bfs p in let! f := fuel in collect sp_next f b.1.
Definition bfs_children_visits p : M A (list visit) :=
  let! b := bfs_children p in let! f := fuel in collect sp_next f b.1.

(** [for visit in bfs_mut() { *visit.data = g(n, *visit.data) }] where [n] counts the visits *)
Fixpoint bfs_mut_loop (f n : nat) (g : nat -> A -> A) (q : list citer) : M A unit :=
  match f with
  | 0 => fail EFuel
  | Datatypes.S f' =>
    let! r := sp_next_node q in
    match r.1 with
    | None => ret tt
    | Some (p, _, _) => modify_data p (g n) ;; bfs_mut_loop f' (S n) g r.2
    end
  end.
Definition bfs_mut p (g : nat -> A -> A) : M A unit :=
  let! b := bfs p in let! f := fuel in bfs_mut_loop f 0 g b.1.
Definition bfs_children_mut p (g : nat -> A -> A) : M A unit :=
  let! b := bfs_children p in let! f := fuel in bfs_mut_loop f 0 g b.1.

(** * bfs_impls.rs:271-306 [From<BfsTree> for Tree], 320-355 [From<BfsForest> for Forest], for any iterator *)

(** the inner loop: [while remains == 0 { parent += 1; remains = node(parent).degree(); if parent == child break }] *)
Fixpoint skip_full (f v parent child remains : nat) : M A (nat * nat) :=
  match remains with
  | S _ => ret (parent, remains)
  | 0 =>
    match f with
    | 0 => fail EFuel
    | S f' =>
      let! n := get (v, S parent) in
      if Nat.eqb (S parent) child then ret (S parent, n_deg n)
      else skip_full f' v (S parent) child (n_deg n)
    end
  end.

Fixpoint from_bfs_loop {S} (next : S -> M A (option visit * S)) (f v parent child remains : nat) (it : S) : M A unit :=
  match f with
  | 0 => fail EFuel
  | Datatypes.S f' =>
    let! r := next it in
    match r.1 with
    | None => ret tt
    | Some (a, dg, ds) =>
      append_child v parent child a dg ds ;;
      let! rem := sub remains 1 in
      let! g := fuel in
      let! pr := skip_full g v parent child rem in
      from_bfs_loop next f' v pr.1 (Datatypes.S child) pr.2 r.2
    end
  end.

Definition tree_from_bfs {S} (next : S -> M A (option visit * S)) (it : S) : M A ptr :=
  let! r := next it in
  let! x := unwrap r.1 in
  match x with
  | (a, dg, ds) =>
    let! v := new_vec (ds + 1) in
    make_piled_node v None 0 a dg ds ;;
    let! f := fuel in
    from_bfs_loop next f v 0 1 dg r.2 ;;
    let! p := slot v 0 in
    tree_from_node p
  end.

Definition forest_from_bfs {S} (next : S -> M A (option visit * S)) (it : S) (dg ds : nat) : M A ptr :=
  let! v := new_vec (ds + 1) in
  vec_make_node v None 0 (DPiledN v) dg ds ;;
  let! f := fuel in
  from_bfs_loop next f v 0 1 dg it ;;
  slot v 0.

(** an iterator over a given list of visits (the fields of [BfsTree]/[BfsForest] are public) *)
Definition list_next {X} (l : list X) : M A (option X * list X) :=
  match l with [] => ret (None, []) | x :: l' => ret (Some x, l') end.

(** * bfs_impls.rs:21-31 [deep_clone], 44-54 [deep_clone_forest] (also tree.rs:232-236, forest.rs:284-288 [Clone]);
    [T::clone] gives an equal value *)
Definition deep_clone p : M A ptr := let! b := bfs p in tree_from_bfs sp_next b.1.
Definition deep_clone_forest p : M A ptr :=
  let! b := bfs_children p in forest_from_bfs sp_next b.1 b.2.1 b.2.2.

(** * bfs.rs:47-55 [BfsTree::map], 91-99 [BfsForest::map]: the iterator that gives the visits of [it] with the data changed by the closure [f]; the
    second component of the state is what the closure has been called with so far *)
Definition map_next {S : Type} (f : list A -> A -> A) (next : S -> M A (option visit * S)) (it : S * list A) : M A (option visit * (S * list A)) :=
  let! r := next it.1 in
  match r.1 with
  | None => ret (None, (r.2, it.2))
  | Some (a, dg, ds) => ret (Some (f it.2 a, dg, ds), (r.2, it.2 ++ [a]))
  end.

(** * into_bfs *)

(** bfs_impls.rs:308-318 [Split for Tree]: gives the data, the owning iterator over the children (a forest) and the
    number of descendants *)
Definition split_tree p : M A (A * ptr * nat) :=
  let! n := get p in
  let! fr := abandon p in
  let! a := into_data fr.2 in
  ret (a, fr.1, n_desc n).

(** bfs.rs:156-195 over [IntoIter]: exhausted iterators are dropped when removed from the queue *)
Fixpoint isp_next (q : list ptr) : M A (option visit * list ptr) :=
  match q with
  | [] => ret (None, [])
  | fr :: q' =>
    let! o := into_iter_next fr in
    match o with
    | Some t =>
      let! x := split_tree t in
      let! dg := into_iter_size_hint x.1.2 in
      ret (Some (x.1.1, dg, x.2), (fr :: q') ++ [x.1.2])
    | None => into_iter_drop fr ;; isp_next q'
    end
  end.

(** dropping a [Splitted<IntoIter>]: the iterators of the queue are dropped front to back *)
Fixpoint isp_drop (q : list ptr) : M A unit :=
  match q with [] => ret tt | fr :: q' => into_iter_drop fr ;; isp_drop q' end.

(** bfs_impls.rs:265-268 [Tree::into_bfs], 208-211 [Forest::into_bfs] *)
Definition tree_into_bfs p : M A (list ptr * (nat * nat)) :=
  let! n := get p in
  let! fr := tree_into_iter p in ret ([fr], (1, n_desc n)).
Definition forest_into_bfs p : M A (list ptr * (nat * nat)) :=
  let! n := get p in ret ([p], (n_deg n, n_desc n)).

End model.
