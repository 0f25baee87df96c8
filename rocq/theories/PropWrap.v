(** PropWrap.v — C19: the enum [Bfs]. *)
From stdpp Require Import base gmap list.
From Verif Require Import Spec ClientSpec Machine NodeModel BfsModel ClientModel Demo WrapModel WrapProofs.

(** For every node [t] of every tree or forest: what [bfs().wrap()] and [bfs_children().wrap()] give through [iter], [iter_and_size], [tree_iter] and [forest_iter]:
    the level order with sizes, the size of the whole, and nothing where the kind does not match; the memory is unchanged. *)
Theorem C19_wrapped {A : Type} (c : cst A) (env : gmap nat (item A)) (h : nat) (hd : handle) (path : list nat) (p : ptr) (it : item A) (t : tree A) :
  reachable c -> contents c env -> env !! h = Some it -> c_env c !! h = Some hd ->
  resolve (addr hd) path (c_mem c) = Ok (Some p) (c_mem c) -> node_at it path = Some t ->
  let s := c_mem c in
  let l := visit_of <$> level_order t in let lf := visit_of <$> level_order_f (kids t) in
  let n := (1, nodes_f (kids t)) in let nf := (length (kids t), nodes_f (kids t)) in
  (visits_iter true p s = Ok l s /\ visits_and_size true p s = Ok (l, n) s /\ visits_tree_iter true p s = Ok (Some l) s /\ visits_forest_iter true p s = Ok None s) /\
  (visits_iter false p s = Ok lf s /\ visits_and_size false p s = Ok (lf, nf) s /\ visits_tree_iter false p s = Ok None s /\ visits_forest_iter false p s = Ok (Some lf) s).
Proof. exact (wrap_prop c env h hd path p it t). Qed.
Print Assumptions C19_wrapped.
Example C19_wrapped_ex : reachable demo_c /\ contents demo_c demo_env /\ demo_env !! 0 = Some (ITree demo_tree) /\
  match c_env demo_c !! 0 with
  | Some hd => match resolve (addr hd) [0] (c_mem demo_c) with
               | Ok (Some p) s => match visits_and_size true p s with Ok r _ => r = ([(1, 2, 2); (2, 0, 0); (3, 0, 0)], (1, 2)) | _ => False end
               | _ => False end | None => False end /\
  node_at (ITree demo_tree) [0] = Some (Tr 1 [Tr 2 []; Tr 3 []]).
Proof. split; [exact (proj1 demo_ok)|]. split; [exact (proj2 demo_ok)|]. vm_compute. auto. Qed.
