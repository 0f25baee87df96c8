(** PanicModel.v — calls that panic, with the unwinding of the stack, on the modelled memory.  No proofs.

    In Machine.v an error ends the execution.  Here the places where foreign code is called return a second result for a panic; the locals of the frames that
    are unwound are dropped as Rust does. *)
From stdpp Require Import base gmap list.
From Verif Require Import Spec ClientSpec Machine NodeModel BfsModel ClientModel PanicSpec.

Section model.
Context {A : Type}.
Implicit Types (p q : ptr).

(** bfs.rs:47-55 [BfsTree::map], 91-99 [BfsForest::map] (also the [map] in [deep_clone], bfs_impls.rs:26, 49) with a closure that may panic: [inr] carries what is
    left of the underlying iterator when the panic leaves [next].  [own a]: what unwinding the closure does with its argument (a value is dropped, a reference
    is not). *)
Definition pmap_next {S : Type} (own : A -> M A unit) (f : list A -> A -> option A) (next : S -> M A (option (visit (A:=A)) * S)) (it : S * list A)
    : M A (option (visit (A:=A)) * (S * list A) + S) :=
  let! r := next it.1 in
  match r.1 with
  | None => ret (inl (None, (r.2, it.2)))
  | Some (a, dg, ds) =>
    match f it.2 a with
    | Some b => ret (inl (Some (b, dg, ds), (r.2, it.2 ++ [a])))
    | None => own a ;; ret (inr r.2)
    end
  end.

(** bfs_impls.rs:289-303, 338-352: the loop of [From<BfsTree>]/[From<BfsForest>]; when [next] panics the buffer, held by a raw pointer (bfs_impls.rs:279, 327), is
    not dropped: only the iterator is *)
Fixpoint pfrom_loop {S U} (next : S -> M A (option (visit (A:=A)) * S + U)) (f v parent child remains : nat) (it : S) : M A (unit + U) :=
  match f with
  | 0 => fail EFuel
  | Datatypes.S f' =>
    let! r := next it in
    match r with
    | inr u => ret (inr u)
    | inl (None, _) => ret (inl tt)
    | inl (Some (a, dg, ds), it') =>
      append_child v parent child a dg ds ;;
      let! rem := sub remains 1 in
      let! g := fuel in
      let! pr := skip_full g v parent child rem in
      pfrom_loop next f' v pr.1 (Datatypes.S child) pr.2 it'
    end
  end.

(** bfs_impls.rs:271-306 *)
Definition ptree_from_bfs {S U} (next : S -> M A (option (visit (A:=A)) * S + U)) (it : S) : M A (ptr + U) :=
  let! r := next it in
  match r with
  | inr u => ret (inr u)
  | inl (o, it') =>
    let! x := unwrap o in
    match x with
    | (a, dg, ds) =>
      let! v := new_vec (ds + 1) in
      make_piled_node v None 0 a dg ds ;;
      let! f := fuel in
      let! r := pfrom_loop next f v 0 1 dg it' in
      match r with
      | inr u => ret (inr u)
      | inl _ => let! p := slot v 0 in let! p := tree_from_node p in ret (inl p)
      end
    end
  end.

(** bfs_impls.rs:320-355 *)
Definition pforest_from_bfs {S U} (next : S -> M A (option (visit (A:=A)) * S + U)) (it : S) (dg ds : nat) : M A (ptr + U) :=
  let! v := new_vec (ds + 1) in
  vec_make_node v None 0 (DPiledN v) dg ds ;;
  let! f := fuel in
  let! r := pfrom_loop next f v 0 1 dg it in
  match r with
  | inr u => ret (inr u)
  | inl _ => let! p := slot v 0 in ret (inl p)
  end.

(** heap.rs:32-46 [drop_node] where [T::drop] panics when it is called the [k]+1st time: the value is dropped last, so a panic leaves nothing undone here.  The
    result is the number of calls left before the panic, [None]: it has happened. *)
Definition pdrop_node (k : nat) p : M A (option nat) :=
  let! n := get p in
  drop_node p ;;
  ret (match dat_vals (n_dat n) with [] => Some k | _ => match k with 0 => None | S k' => Some k' end end).
(** tree.rs:244-249, forest.rs:277-282 [Drop]: a panic in the drop of the popped tree leaves the loop; [Tree] and [Forest] have no fields to drop *)
Fixpoint pdrop_loop (f k : nat) p : M A (option nat) :=
  match f with
  | 0 => fail EFuel
  | S f' =>
    let! o := pop_front p in
    match o with
    | Some c =>
      let! r := pdrop_loop f' k c in
      match r with Some k' => pdrop_loop f' k' p | None => ret None end
    | None => pdrop_node k p
    end
  end.
Definition pdrop_tree (k : nat) p : M A (option nat) := let! f := fuel in pdrop_loop f k p.

(** into_iter.rs:28-32 [Drop for IntoIter]: a panic in the drop of a tree taken from the iterator leaves the loop; the field [forest] is dropped in any case *)
Fixpoint pdrain (f k : nat) fr : M A (option nat) :=
  match f with
  | 0 => fail EFuel
  | S f' =>
    let! o := into_iter_next fr in
    match o with
    | Some c => let! r := pdrop_tree k c in match r with Some k' => pdrain f' k' fr | None => ret None end
    | None => ret (Some k)
    end
  end.
Definition pinto_iter_drop (k : nat) fr : M A (option nat) :=
  let! f := fuel in let! r := pdrain f k fr in drop_tree fr ;; ret r.

(** node.rs:205, 235, 265: [insert_prev_sib], [insert_next_sib] and [detach] begin with [self.up.unwrap()]; the argument is dropped by unwinding *)
Definition has_parent p : M A bool := let! n := get p in ret (match n_up n with Some _ => true | None => false end).

Definition pcstep (env : gmap nat handle) (o : pop A) : M A (pout A * gmap nat handle) :=
  let bad := ret (PRet RBad, env) in
  let plain (o : op A) := let! r := cstep env o in ret (PRet r.1, r.2) in
  match o with
  | POp o =>
    match o with
    | OInsert e h path y =>
      match env !! y, delete y env !! h with
      | Some (HT q), Some hd =>
        if is_forest_root hd path then bad else
        let! o := resolve (addr hd) path in
        match o with
        | Some p =>
          let! b := has_parent p in
          if b then (match e with Front => insert_prev_sib p q | Back => insert_next_sib p q end) ;; ret (PRet RUnit, delete y env)
          else drop_tree q ;; ret (PPanic, delete y env)
        | None => bad
        end
      | _, _ => bad
      end
    | ODetach h path x =>
      match env !! h, env !! x with
      | Some hd, None =>
        if is_forest_root hd path then bad else
        let! o := resolve (addr hd) path in
        match o with
        | Some p =>
          let! b := has_parent p in
          if b then let! q := detach p in ret (PRet RUnit, <[x := HT q]> env) else ret (PPanic, env)
        | None => bad
        end
      | _, _ => bad
      end
    | _ => plain o
    end
  | PForget h => match env !! h with Some _ => ret (PRet RUnit, delete h env) | None => bad end
  | PMapInto h x f =>
    match env !! h, env !! x with
    | Some hd, None =>
      let next := pmap_next (fun a => log_drop [a]) f isp_next in
      let! b := match hd with HT p => tree_into_bfs p | HF p => forest_into_bfs p end in
      let! r := match hd with HT _ => ptree_from_bfs next (b.1, []) | HF _ => pforest_from_bfs next (b.1, []) b.2.1 b.2.2 end in
      match r with
      | inl q => ret (PRet RUnit, <[x := match hd with HT _ => HT q | HF _ => HF q end]> (delete h env))
      | inr it => isp_drop it ;; ret (PPanic, delete h env)
      end
    | _, _ => bad
    end
  | PMapBfs h path x f =>
    match env !! h, env !! x with
    | Some hd, None =>
      if is_forest_root hd path then bad else
      let! o := resolve (addr hd) path in
      match o with
      | Some p =>
        let! b := bfs p in
        let! r := ptree_from_bfs (pmap_next (fun _ => ret tt) f sp_next) (b.1, []) in
        match r with inl q => ret (PRet RUnit, <[x := HT q]> env) | inr _ => ret (PPanic, env) end
      | None => bad
      end
    | _, _ => bad
    end
  | PMapBfsChildren h path x f =>
    match env !! h, env !! x with
    | Some hd, None =>
      let! o := resolve (addr hd) path in
      match o with
      | Some p =>
        let! b := bfs_children p in
        let! r := pforest_from_bfs (pmap_next (fun _ => ret tt) f sp_next) (b.1, []) b.2.1 b.2.2 in
        match r with inl q => ret (PRet RUnit, <[x := HF q]> env) | inr _ => ret (PPanic, env) end
      | None => bad
      end
    | _, _ => bad
    end
  | PDrop h k =>
    match env !! h with
    | Some hd =>
      let! r := pdrop_tree k (addr hd) in
      ret (match r with Some _ => PRet RUnit | None => PPanic end, delete h env)
    | None => bad
    end
  | PDropIter h k =>
    match env !! h with
    | Some hd =>
      let! fr := match hd with HT p => tree_into_iter p | HF p => ret p end in
      let! r := pinto_iter_drop k fr in
      ret (match r with Some _ => PRet RUnit | None => PPanic end, delete h env)
    | None => bad
    end
  end.

Definition pstep (c : cst A) (o : pop A) : cres (pout A) :=
  match pcstep (c_env c) o (c_mem c) with
  | Ok (r, env') s' => Done r (CSt env' s')
  | Err e => Fails e
  end.
Fixpoint prun (c : cst A) (os : list (pop A)) : cres (list (pout A)) :=
  match os with
  | [] => Done [] c
  | o :: os' =>
    match pstep c o with
    | Done r c' => match prun c' os' with Done rs c'' => Done (r :: rs) c'' | Fails e => Fails e end
    | Fails e => Fails e
    end
  end.
(** states a client can get into that catches panics *)
Definition preachable (c : cst A) : Prop := exists os rs, prun cst0 os = Done rs c.
End model.
