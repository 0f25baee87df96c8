(** CallModel.v — the constructions of bfs_impls.rs with closures that use the library themselves.  No proofs. *)
From stdpp Require Import base gmap list.
From Verif Require Import Spec ClientSpec Machine NodeModel BfsModel ClientModel CallSpec.

Section model.
Context {A H : Type}.

(** bfs_impls.rs:271-306 and 320-355, as [from_bfs_loop], [tree_from_bfs] and [forest_from_bfs] of BfsModel.v, but also giving back the iterator in
    its final state *)
Fixpoint from_bfs_loop_st {S} (next : S -> M A (option visit * S)) (f v parent child remains : nat) (it : S) : M A S :=
  match f with
  | 0 => fail EFuel
  | Datatypes.S f' =>
    let! r := next it in
    match r.1 with
    | None => ret r.2
    | Some (a, dg, ds) =>
      append_child v parent child a dg ds ;;
      let! rem := sub remains 1 in
      let! g := fuel in
      let! pr := skip_full g v parent child rem in
      from_bfs_loop_st next f' v pr.1 (Datatypes.S child) pr.2 r.2
    end
  end.
Definition tree_from_bfs_st {S} (next : S -> M A (option visit * S)) (it : S) : M A (ptr * S) :=
  let! r := next it in
  let! x := unwrap r.1 in
  match x with
  | (a, dg, ds) =>
    let! v := new_vec (ds + 1) in
    make_piled_node v None 0 a dg ds ;;
    let! f := fuel in
    let! it' := from_bfs_loop_st next f v 0 1 dg r.2 in
    let! p := slot v 0 in
    let! q := tree_from_node p in
    ret (q, it')
  end.
Definition forest_from_bfs_st {S} (next : S -> M A (option visit * S)) (it : S) (dg ds : nat) : M A (ptr * S) :=
  let! v := new_vec (ds + 1) in
  vec_make_node v None 0 (DPiledN v) dg ds ;;
  let! f := fuel in
  let! it' := from_bfs_loop_st next f v 0 1 dg it in
  let! p := slot v 0 in
  ret (p, it').

(** bfs.rs:47-55 [BfsTree::map], 91-99 [BfsForest::map]; for [T::clone]: bfs_impls.rs:21-31 [deep_clone], 44-54 [deep_clone_forest].  The closure runs
    when the visit has been taken from the iterator; the second component of the state: the memory of the closure and the client's variables *)
Definition call_next {S : Type} (call : H -> A -> gmap nat handle -> M A (A * H * gmap nat handle)) (next : S -> M A (option visit * S))
    (it : S * (H * gmap nat handle)) : M A (option visit * (S * (H * gmap nat handle))) :=
  let! r := next it.1 in
  match r.1 with
  | None => ret (None, (r.2, it.2))
  | Some (a, dg, ds) => let! y := call it.2.1 a it.2.2 in ret (Some (y.1.1, dg, ds), (r.2, (y.1.2, y.2)))
  end.

Definition is_free_c (R : list nat) (benv : gmap nat handle) (x : nat) : Prop := x ∉ R /\ benv !! x = None.
Global Instance is_free_c_dec R benv x : Decision (is_free_c R benv x).
Proof. unfold is_free_c. apply _. Defined.

(** the end of the borrow of [h] *)
Definition give_back (env : gmap nat handle) (h : nat) (env' : gmap nat handle) : gmap nat handle :=
  match env !! h with Some hd => <[h := hd]> env' | None => env' end.

(** the program run on the memory; [benv]: the variables being visited, [R]: the names of the trees being built *)
Fixpoint cprog {X : Type} (R : list nat) (benv env : gmap nat handle) (p : prog A H X) {struct p} : M A (X * gmap nat handle) :=
  match p with
  | PRet a => ret (a, env)
  | PDo o k =>
    if reads o then let! r := cstep (env ∪ benv) o in cprog R benv env (k r.1)
    else if decide (Forall (is_free_c R benv) (op_names o)) then let! r := cstep env o in cprog R benv r.2 (k r.1)
    else cprog R benv env (k RBad)
  | PMap src x st f k =>
    if decide (is_free_c R benv x /\ env !! x = None) then
      match src with
      | SNode h path =>
        match (env ∪ benv) !! h with
        | Some hd =>
          if is_forest_root hd path then cprog R benv env (k None) else
          let! o := resolve (addr hd) path in
          match o with
          | Some p =>
            let! b := bfs p in
            let! q := tree_from_bfs_st (call_next (fun st a env => cprog (x :: R) (<[h := hd]> benv) env (f st a)) sp_next) (b.1, (st, delete h env)) in
            cprog R benv (<[x := HT q.1]> (give_back env h q.2.2.2)) (k (Some q.2.2.1))
          | None => cprog R benv env (k None)
          end
        | None => cprog R benv env (k None)
        end
      | SKids h path =>
        match (env ∪ benv) !! h with
        | Some hd =>
          let! o := resolve (addr hd) path in
          match o with
          | Some p =>
            let! b := bfs_children p in
            let! q := forest_from_bfs_st (call_next (fun st a env => cprog (x :: R) (<[h := hd]> benv) env (f st a)) sp_next)
                        (b.1, (st, delete h env)) b.2.1 b.2.2 in
            cprog R benv (<[x := HF q.1]> (give_back env h q.2.2.2)) (k (Some q.2.2.1))
          | None => cprog R benv env (k None)
          end
        | None => cprog R benv env (k None)
        end
      | SInto h =>
        match env !! h with
        | Some (HT p) =>
          let! b := tree_into_bfs p in
          let! q := tree_from_bfs_st (call_next (fun st a env => cprog (x :: R) benv env (f st a)) isp_next) (b.1, (st, delete h env)) in
          cprog R benv (<[x := HT q.1]> q.2.2.2) (k (Some q.2.2.1))
        | Some (HF p) =>
          let! b := forest_into_bfs p in
          let! q := forest_from_bfs_st (call_next (fun st a env => cprog (x :: R) benv env (f st a)) isp_next) (b.1, (st, delete h env)) b.2.1 b.2.2 in
          cprog R benv (<[x := HF q.1]> q.2.2.2) (k (Some q.2.2.1))
        | None => cprog R benv env (k None)
        end
      end
    else cprog R benv env (k None)
  end.

(** a program run from an empty heap *)
Definition run_prog {X : Type} (p : prog A H X) : cres (A := A) X :=
  match cprog [] ∅ ∅ p (c_mem cst0) with
  | Ok (x, env) s => Done x (CSt env s)
  | Err e => Fails e
  end.
End model.
