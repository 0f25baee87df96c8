(** WrapProofs.v — a wrapped breadth-first iterator is the iterator. *)
From stdpp Require Import base gmap list.
From Verif Require Import Spec ClientSpec Machine NodeModel Sep Rep NodeProofs Inv BfsModel ClientModel Abs ClientProofs FromBfs BfsBuild BfsIter ClientRef ClientStep ClientRead BfsProps MoveProofs WrapModel.

Section proofs.
Context {A : Type}.
Implicit Types (c : cst A) (env : gmap nat (item A)) (it : item A) (ts : list (tree A)).

Lemma wrap_tree p s l q n : bfs_visits (A:=A) p s = Ok l s -> bfs p s = Ok (q, n) s ->
  visits_iter true p s = Ok l s /\ visits_and_size true p s = Ok (l, n) s /\ visits_tree_iter true p s = Ok (Some l) s /\ visits_forest_iter true p s = Ok None s.
Proof.
  intros H1 H2. unfold visits_iter, visits_and_size, visits_tree_iter, visits_forest_iter, any_of, node_bfs, opt_visits, collect_any. unfold bfs_visits in H1. unfold bind in *.
  rewrite H2 in *. cbn [ret fst snd bt_wrap any_iter any_iter_and_size any_tree_iter any_forest_iter bt_iter bt_size]. cbn [fst snd] in H1.
  unfold fuel, gets in *. by rewrite H1.
Qed.
Lemma wrap_forest p s l q n : bfs_children_visits (A:=A) p s = Ok l s -> bfs_children p s = Ok (q, n) s ->
  visits_iter false p s = Ok l s /\ visits_and_size false p s = Ok (l, n) s /\ visits_tree_iter false p s = Ok None s /\ visits_forest_iter false p s = Ok (Some l) s.
Proof.
  intros H1 H2. unfold visits_iter, visits_and_size, visits_tree_iter, visits_forest_iter, any_of, node_bfs_children, opt_visits, collect_any. unfold bfs_children_visits in H1. unfold bind in *.
  rewrite H2 in *. cbn [ret fst snd bf_wrap any_iter any_iter_and_size any_tree_iter any_forest_iter bf_iter bf_size]. cbn [fst snd] in H1.
  unfold fuel, gets in *. by rewrite H1.
Qed.
Lemma wrap_prop c env h hd path p it t : reachable c -> contents c env -> env !! h = Some it -> c_env c !! h = Some hd ->
  resolve (addr hd) path (c_mem c) = Ok (Some p) (c_mem c) -> node_at it path = Some t -> 
  let s := c_mem c in
  let l := visit_of <$> level_order t in let lf := visit_of <$> level_order_f (kids t) in
  let n := (1, nodes_f (kids t)) in let nf := (length (kids t), nodes_f (kids t)) in
  (visits_iter true p s = Ok l s /\ visits_and_size true p s = Ok (l, n) s /\ visits_tree_iter true p s = Ok (Some l) s /\ visits_forest_iter true p s = Ok None s) /\
  (visits_iter false p s = Ok lf s /\ visits_and_size false p s = Ok (lf, nf) s /\ visits_tree_iter false p s = Ok None s /\ visits_forest_iter false p s = Ok (Some lf) s).
Proof.
  intros Hr Hc Hh Hhd Hres Hn s l lf n nf.
  assert (kids_at it path = Some (kids t)) as Hk.
  { destruct it as [x|xs]; cbn in *; [by rewrite Hn|]. destruct path as [|i path]; [done|]. destruct (xs !! i); [by rewrite Hn|done]. }
  destruct (bfs_size_prop c env h hd path p it (kids t) Hr Hc Hh Hhd Hres Hk) as [[q1 B1] [q2 B2]].
  destruct (bfs_prop c env h path it t Hr Hc Hh Hn) as (c1 & E1 & _). destruct (bfs_children_prop c env h path it (kids t) Hr Hc Hh Hk) as (c2 & E2 & _).
  assert (is_forest_root hd path = false) as Hf.
  { destruct hd; [done|]. destruct path; [|done]. pose proof (Hc h) as H. rewrite Hhd in H. destruct H as (it' & Hri & Hit). rewrite Hh in Hit. injection Hit as <-.
    destruct it; [|done]. unfold read_item, bind, fuel, gets in Hri. repeat case_match; simplify_eq. }
  unfold step, cstep, with_node, bind in E1, E2. rewrite Hhd in E1, E2. rewrite Hres in E1, E2. rewrite Hf in E1.
  split.
  - eapply wrap_tree; [|exact B1]. fold s in E1. destruct (bfs_visits p s) as [l' s'|e] eqn:E; [|done]. pose proof (MoveProofs.pure_bfs_visits p _ _ _ E) as ->.
    cbn [ret] in E1. injection E1 as -> _. done.
  - eapply wrap_forest; [|exact B2]. fold s in E2. destruct (bfs_children_visits p s) as [l' s'|e] eqn:E; [|done]. pose proof (MoveProofs.pure_bfs_children_visits p _ _ _ E) as ->.
    cbn [ret] in E2. injection E2 as -> _. done.
Qed.
End proofs.
