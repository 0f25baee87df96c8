(** ApiModel.v — the methods of [Tree] and [Forest] themselves, which hand the call on to the root node: tree.rs, forest.rs, bfs_impls.rs.  No proofs. *)
From stdpp Require Import base gmap list.
From Verif Require Import Spec ClientSpec Machine NodeModel BfsModel ClientModel ApiSpec.

Section model.
Context {A : Type}.
Implicit Types (p q : ptr).

(** node.rs:348-350 [front_mut] *)
Definition front_mut p : M A (option ptr) := let! n := get p in ret (n_head n).
(** node.rs:360-362 [back_mut] *)
Definition back_mut p : M A (option ptr) := let! n := get p in ret (n_tail n).
(** node.rs:328-333 [iter_mut]: the iterator keeps the first child and the number of children (iter.rs:132-134) *)
Definition iter_mut p : M A citer := let! n := get p in ret (match n_head n with Some c => CIter (Some c) (n_deg n) | None => CIter None 0 end).

(** A variable of type [Tree] holds the address of the root node, and a reference to a node is its address (node.rs:546-548 [non_null]).
    tree.rs:69 [Tree::root], 72 [root_mut], 74 [root_mut_], 241 [deref] *)
Definition tree_root p : ptr := p.
(** forest.rs:27 [Forest::root_], 28 [root_mut_] *)
Definition forest_root p : ptr := p.

(** tree.rs:101-103 [Tree::push_front], 117-119 [Tree::push_back] *)
Definition tree_push (e : side) p q : M A unit := match e with Front => push_front (tree_root p) q | Back => push_back (tree_root p) q end.
(** forest.rs:178-180 [Forest::push_front], 194-196 [Forest::push_back] *)
Definition forest_push (e : side) p q : M A unit := match e with Front => push_front (forest_root p) q | Back => push_back (forest_root p) q end.
(** tree.rs:202 [Tree::pop_front], 221 [Tree::pop_back] *)
Definition tree_pop (e : side) p : M A (option ptr) := match e with Front => pop_front (tree_root p) | Back => pop_back (tree_root p) end.
(** forest.rs:213-215 [Forest::pop_front], 232-234 [Forest::pop_back] *)
Definition forest_pop (e : side) p : M A (option ptr) := match e with Front => pop_front (forest_root p) | Back => pop_back (forest_root p) end.
(** tree.rs:137-139 [Tree::prepend], 157-159 [Tree::append] *)
Definition tree_concat (e : side) p q : M A unit := match e with Front => prepend (tree_root p) q | Back => append (tree_root p) q end.
(** forest.rs:251-253 [Forest::prepend], 270-272 [Forest::append] *)
Definition forest_concat (e : side) p q : M A unit := match e with Front => prepend (forest_root p) q | Back => append (forest_root p) q end.
(** tree.rs:225 [Tree::front_mut], 229 [Tree::back_mut] *)
Definition tree_end_mut (e : side) p : M A (option ptr) := match e with Front => front_mut (tree_root p) | Back => back_mut (tree_root p) end.
(** forest.rs:152-154 [Forest::front_mut], 162-164 [Forest::back_mut] *)
Definition forest_end_mut (e : side) p : M A (option ptr) := match e with Front => front_mut (forest_root p) | Back => back_mut (forest_root p) end.
(** forest.rs:146-148 [Forest::front], 156-158 [Forest::back]; a [Tree] has these by [Deref] *)
Definition forest_end (e : side) p : M A (option ptr) := match e with Front => front (forest_root p) | Back => back (forest_root p) end.
Definition tree_end (e : side) p : M A (option ptr) := match e with Front => front (tree_root p) | Back => back (tree_root p) end.
(** forest.rs:86 [Forest::has_no_child], 97 [degree], 108 [node_count], 126 [iter]; a [Tree] has these by [Deref] *)
Definition forest_has_no_child p : M A bool := has_no_child (forest_root p).
Definition forest_degree p : M A nat := degree (forest_root p).
Definition forest_node_count p : M A nat := node_count (forest_root p).
Definition forest_iter p : M A citer := iter (forest_root p).
(** tree.rs:87 [Tree::iter_mut] *)
Definition tree_iter_mut p : M A citer := iter_mut (tree_root p).
(** forest.rs:142 [Forest::iter_mut] *)
Definition forest_iter_mut p : M A citer := iter_mut (forest_root p).
(** tree.rs:232-236 [Clone for Tree] *)
Definition tree_clone p : M A ptr := deep_clone (tree_root p).
(** forest.rs:284-288 [Clone for Forest] *)
Definition forest_clone p : M A ptr := deep_clone_forest (forest_root p).
(** bfs_impls.rs:228 [Tree::bfs_children_mut], 243 [Tree::bfs_mut], with the client's loop over the visits *)
Definition tree_bfs_mut p (g : nat -> A -> A) : M A unit := bfs_mut (tree_root p) g.
Definition tree_bfs_children_mut p (g : nat -> A -> A) : M A unit := bfs_children_mut (tree_root p) g.
(** bfs_impls.rs:165 [Forest::bfs], 180-183 [Forest::bfs_mut] *)
Definition forest_bfs p : M A (list visit) := bfs_children_visits (forest_root p).
Definition forest_bfs_mut p (g : nat -> A -> A) : M A unit := bfs_children_mut (forest_root p) g.

(** the client's loop over [iter_mut()] (iter.rs:141-149 [IterMut::next], 151 [size_hint]) *)
Fixpoint write_loop (f n : nat) (it : citer) (g : nat -> A -> A) : M A (list (nat * A) * (nat * bool)) :=
  match f with
  | 0 => fail EFuel
  | S f' =>
    let! r := ci_next it in
    match r.1 with
    | None => let! r' := ci_next r.2 in ret ([], (ci_size_hint r.2, match r'.1 with Some _ => true | None => false end))
    | Some c =>
      let! a := data c in
      modify_data c (g n) ;;
      let! l := write_loop f' (S n) r.2 g in
      ret ((ci_size_hint it, a) :: l.1, l.2)
    end
  end.

Definition api_call (env : gmap nat handle) (h : nat) (m : method A) : M A (out A * gmap nat handle) :=
  let bad := ret (RBad, env) in
  match env !! h with
  | None => bad
  | Some hd =>
    match m with
    | MPush e y =>
      match env !! y with
      | Some (HT q) => match hd with HT p => tree_push e p q | HF p => forest_push e p q end ;; ret (RUnit, delete y env)
      | _ => bad
      end
    | MConcat e y =>
      match env !! y with
      | Some (HF q) => match hd with HT p => tree_concat e p q | HF p => forest_concat e p q end ;; ret (RUnit, delete y env)
      | _ => bad
      end
    | MPop e x =>
      let! r := match hd with HT p => tree_pop e p | HF p => forest_pop e p end in
      match r with Some q => ret (RBool true, <[x := HT q]> env) | None => ret (RBool false, env) end
    | MNoChild => let! b := match hd with HT p => has_no_child (tree_root p) | HF p => forest_has_no_child p end in ret (RBool b, env)
    | MDegree => let! n := match hd with HT p => degree (tree_root p) | HF p => forest_degree p end in ret (RNat n, env)
    | MCount => let! n := match hd with HT p => node_count (tree_root p) | HF p => forest_node_count p end in ret (RNat n, env)
    | MIter =>
      let! it := match hd with HT p => iter (tree_root p) | HF p => forest_iter p end in
      let! f := fuel in let! cs := ci_collect f it in let! l := datas cs in ret (RVals l, env)
    | MEnd e => let! q := match hd with HT p => tree_end e p | HF p => forest_end e p end in let! a := data_opt q in ret (ROpt a, env)
    | MEndMut e f =>
      let! q := match hd with HT p => tree_end_mut e p | HF p => forest_end_mut e p end in
      match q with Some c => modify_data c f ;; ret (RBool true, env) | None => ret (RBool false, env) end
    | MIterMut g =>
      let! it := match hd with HT p => tree_iter_mut p | HF p => forest_iter_mut p end in
      let! f := fuel in let! l := write_loop f 0 it g in ret (REach l.1 l.2.1 l.2.2, env)
    | MRoot => match hd with HT p => let! a := data (tree_root p) in ret (RVal a, env) | HF _ => bad end
    | MRootMut f => match hd with HT p => modify_data (tree_root p) f ;; ret (RUnit, env) | HF _ => bad end
    | MAbandon x =>
      match hd with HT p => let! r := abandon p in ret (RUnit, <[x := HF r.1]> (<[h := HT r.2]> env)) | HF _ => bad end
    | MClone x =>
      match hd with
      | HT p => let! q := tree_clone p in ret (RUnit, <[x := HT q]> env)
      | HF p => let! q := forest_clone p in ret (RUnit, <[x := HF q]> env)
      end
    | MBfs => let! l := match hd with HT p => bfs_visits (tree_root p) | HF p => forest_bfs p end in ret (RVisits l, env)
    | MBfsMut g => match hd with HT p => tree_bfs_mut p g | HF p => forest_bfs_mut p g end ;; ret (RUnit, env)
    | MBfsChildren => match hd with HT p => let! l := bfs_children_visits (tree_root p) in ret (RVisits l, env) | HF _ => bad end
    | MBfsChildrenMut g => match hd with HT p => tree_bfs_children_mut p g ;; ret (RUnit, env) | HF _ => bad end
    end
  end.

Definition api_step (c : cst A) (h : nat) (m : method A) : cres (out A) :=
  match api_call (c_env c) h m (c_mem c) with Ok (r, env') s' => Done r (CSt env' s') | Err e => Fails e end.
Fixpoint api_run (c : cst A) (ms : list (nat * method A)) : cres (list (out A)) :=
  match ms with
  | [] => Done [] c
  | (h, m) :: ms' =>
    match api_step c h m with
    | Done r c' => match api_run c' ms' with Done rs c'' => Done (r :: rs) c'' | Fails e => Fails e end
    | Fails e => Fails e
    end
  end.
End model.
