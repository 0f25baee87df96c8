(** NodeModel.v — heap.rs, node.rs, tree.rs, forest.rs, iter.rs, into_iter.rs, node_vec.rs:16-64,171-186,
    function by function.  No proofs.  A [Tree] / [Forest] / [&Node] value is the address of its node. *)
From stdpp Require Import base gmap list.
From Verif Require Import Machine.

Section model.
Context {A : Type}.
Implicit Types (p q : ptr) (n : node A).

(** * node.rs: Data *)

(** node.rs:72-80 [impl AsRef<T> for Data<T>] ([unreachable!] panics), node.rs:112 [Node::data] *)
Definition dat_ref (d : dat A) : M A A :=
  match d with DPiled a _ => ret a | DScat a _ => ret a | _ => fail EPanic end.
Definition data p : M A A := let! n := get p in dat_ref (n_dat n).

(** node.rs:82-90 [impl AsMut<T> for Data<T>], node.rs:115 [Node::data_mut]: the reference obtained is used
    here to store [f old]; the old value is overwritten in place by an arbitrary function of it *)
Definition dat_map (f : A -> A) (d : dat A) : M A (dat A) :=
  match d with DPiled a o => ret (DPiled (f a) o) | DScat a o => ret (DScat (f a) o) | _ => fail EPanic end.
Definition modify_data p (f : A -> A) : M A unit :=
  let! n := get p in let! d := dat_map f (n_dat n) in put p (set_dat d n).

(** node.rs:33-51 [Data::take], applied to [node.data] *)
Definition take_data p : M A A :=
  let! n := get p in
  match n_dat n with
  | DScat a o => put p (set_dat (DScatN o) n) ;; ret a
  | DPiled a o => put p (set_dat (DPiledN o) n) ;; ret a
  | _ => fail EPanic
  end.

(** * node_vec.rs: reference count of a buffer *)

(** rc.rs:23-49 [RefCount::decr]: panics at 0 *)
(** node_vec.rs:171-179 [NodeVec::decr_ref]; node_vec.rs:182-186 [Drop for NodeVec]: [set_len(0)], so the slots
    are released without dropping what they contain *)
Definition decr_ref (v : nat) : M A unit := fun s =>
  match m_vec s !! v with
  | None => Err EUB
  | Some (cap, rc) =>
    match rc with
    | 0 => Err EPanic
    | S 0 => Ok tt (Mem (filter (fun x => x.1.1 <> v) (m_heap s)) (filter (fun x => x.1.1 <> v) (m_cnt s))
                        (delete v (m_vec s)) (m_fresh s) (m_log s))
    | S rc' => Ok tt (Mem (m_heap s) (m_cnt s) (<[v := (cap, rc')]> (m_vec s)) (m_fresh s) (m_log s))
    end
  end.

(** dropping a value of [T] *)
Definition log_drop (l : list A) : M A unit := fun s =>
  Ok tt (Mem (m_heap s) (m_cnt s) (m_vec s) (m_fresh s) (m_log s ++ l)).

Definition dat_vals (d : dat A) : list A := match d with DScat a _ | DPiled a _ => [a] | _ => [] end.

(** dropping an [Rc<RefCell<Node>>]: decrement the strong count; at zero the node is released and the data
    it still holds is dropped *)
Definition rc_drop p : M A unit := fun s =>
  match m_cnt s !! p, m_heap s !! p with
  | Some (S c), Some n =>
    match c with
    | 0 => Ok tt (Mem (delete p (m_heap s)) (delete p (m_cnt s)) (m_vec s) (m_fresh s) (m_log s ++ dat_vals (n_dat n)))
    | S _ => Ok tt (Mem (m_heap s) (<[p := c]> (m_cnt s)) (m_vec s) (m_fresh s) (m_log s))
    end
  | _, _ => Err EUB
  end.

(** node.rs:57-69 [Data::into_inner] *)
Definition into_inner (d : dat A) : M A A :=
  match d with
  | DPiled a o => decr_ref o ;; ret a
  | DScat a o => rc_drop o ;; ret a
  | _ => fail EPanic
  end.

(** * heap.rs *)

(** heap.rs:7-30 [make_node]; the [owner] of the data is set to the new [Rc] *)
Definition own (d : dat A) p : dat A :=
  match d with DScatN _ => DScatN p | DScat a _ => DScat a p | d => d end.
Definition make_node (d : dat A) : M A ptr := fun s =>
  let p := (m_fresh s, 0) in
  Ok p (Mem (<[p := set_dat (own d p) node_default]> (m_heap s)) (<[p := 1]> (m_cnt s)) (m_vec s)
            (S (m_fresh s)) (m_log s)).

(** heap.rs:32-46 [drop_node]; the data replaced by [Data::None] is a temporary of the [match] and is dropped
    at its end, after the [Rc]/buffer was released *)
Definition drop_node p : M A unit :=
  let! n := get p in
  put p (set_dat DNone n) ;;
  (match n_dat n with
   | DNone => ret tt
   | DScatN o | DScat _ o => rc_drop o
   | DPiledN o | DPiled _ o => decr_ref o
   end) ;;
  log_drop (dat_vals (n_dat n)).

(** * node.rs: Node *)

(** node.rs:591-597 [is_forest] *)
Definition is_forest_dat (d : dat A) : bool := match d with DPiledN _ | DScatN _ => true | _ => false end.
(** node.rs:129 [has_no_child] *)
Definition has_no_child p : M A bool :=
  let! n := get p in ret (match n_head n with None => true | Some _ => false end).
(** node.rs:145 [degree] *)
Definition degree p : M A nat := let! n := get p in ret (n_deg n).
(** node.rs:157-163 [node_count] *)
Definition node_count p : M A nat :=
  let! n := get p in ret (if is_forest_dat (n_dat n) then n_desc n else n_desc n + 1).

(** node.rs:178-190 [parent] *)
Fixpoint parent_loop (f : nat) p : M A (option ptr) :=
  match f with
  | 0 => fail EFuel
  | S f' =>
    let! n := get p in
    match n_up n with
    | None => ret None
    | Some u => let! m := get u in
                if is_forest_dat (n_dat m) then parent_loop f' u else ret (Some u)
    end
  end.
Definition parent p : M A (option ptr) := let! f := fuel in parent_loop f p.

(** node.rs:562-565 [connect_next] *)
Definition connect_next p q : M A unit := upd p (set_next (Some q)) ;; upd q (set_prev (Some p)).

(** node.rs:567-577 [inc_sizes] *)
Fixpoint inc_up (f : nat) (o : option ptr) (c : nat) : M A unit :=
  match o with
  | None => ret tt
  | Some p =>
    match f with
    | 0 => fail EFuel
    | S f' => let! n := get p in put p (set_size (n_deg n) (n_desc n + c) n) ;; inc_up f' (n_up n) c
    end
  end.
Definition inc_sizes p (dg c : nat) : M A unit :=
  let! n := get p in
  put p (set_size (n_deg n + dg) (n_desc n + c) n) ;;
  let! f := fuel in inc_up f (n_up n) c.

(** [a -= b] on usize *)
Definition sub (a b : nat) : M A nat := if Nat.leb b a then ret (a - b) else fail EPanic.

(** node.rs:579-589 [dec_sizes] *)
Fixpoint dec_up (f : nat) (o : option ptr) (c : nat) : M A unit :=
  match o with
  | None => ret tt
  | Some p =>
    match f with
    | 0 => fail EFuel
    | S f' => let! n := get p in let! d := sub (n_desc n) c in
              put p (set_size (n_deg n) d n) ;; dec_up f' (n_up n) c
    end
  end.
Definition dec_sizes p (dg c : nat) : M A unit :=
  let! n := get p in
  let! g := sub (n_deg n) dg in
  let! d := sub (n_desc n) c in
  put p (set_size g d n) ;;
  let! f := fuel in dec_up f (n_up n) c.

(** tree.rs:63-66 [Tree::from_node] *)
Definition tree_from_node p : M A ptr := upd p (set_up None) ;; ret p.

(** node.rs:204-221 [insert_prev_sib]; [t] is the root of the tree [sib] *)
Definition insert_prev_sib p t : M A unit :=
  let! n := get p in
  let! up := unwrap (n_up n) in
  upd t (set_up (Some up)) ;;
  (match n_prev n with
   | Some pv => connect_next pv t
   | None => upd up (set_head (Some t))
   end) ;;
  connect_next t p ;;
  let! c := node_count t in
  inc_sizes up 1 c.

(** node.rs:234-251 [insert_next_sib] *)
Definition insert_next_sib p t : M A unit :=
  let! n := get p in
  let! up := unwrap (n_up n) in
  upd t (set_up (Some up)) ;;
  (match n_next n with
   | Some nx => connect_next t nx
   | None => upd up (set_tail (Some t))
   end) ;;
  connect_next p t ;;
  let! c := node_count t in
  inc_sizes up 1 c.

(** node.rs:263-294 [detach] *)
Definition detach p : M A ptr :=
  let! n := get p in
  let! up := unwrap (n_up n) in
  let! u := get up in
  (match n_deg u with
   | 1 => upd up (set_head None) ;; upd up (set_tail None)
   | _ =>
     match n_prev n with
     | None =>
       let! nx := unwrap (n_next n) in
       upd nx (set_prev None) ;; upd up (set_head (Some nx)) ;; upd p (set_next None)
     | Some pv =>
       match n_next n with
       | None => upd pv (set_next None) ;; upd up (set_tail (Some pv)) ;; upd p (set_prev None)
       | Some nx => connect_next pv nx ;; upd p (set_prev None) ;; upd p (set_next None)
       end
     end
   end) ;;
  let! c := node_count p in
  dec_sizes up 1 c ;;
  upd p (set_up None) ;;
  ret p.

(** node.rs:342-344 [front], 354-356 [back] *)
Definition front p : M A (option ptr) := let! n := get p in ret (n_head n).
Definition back p : M A (option ptr) := let! n := get p in ret (n_tail n).

(** node.rs:377-387 [push_front] *)
Definition push_front p t : M A unit :=
  upd t (set_up (Some p)) ;;
  let! n := get p in
  (match n_head n with
   | None => upd p (set_tail (Some t))
   | Some h => connect_next t h
   end) ;;
  upd p (set_head (Some t)) ;;
  let! c := node_count t in
  inc_sizes p 1 c.

(** node.rs:402-412 [push_back] *)
Definition push_back p t : M A unit :=
  upd t (set_up (Some p)) ;;
  let! n := get p in
  (match n_head n with
   | None => upd p (set_head (Some t))
   | Some _ => let! tl := unwrap (n_tail n) in connect_next tl t
   end) ;;
  upd p (set_tail (Some t)) ;;
  let! c := node_count t in
  inc_sizes p 1 c.

(** node.rs:428-448 [pop_front] *)
Definition pop_front p : M A (option ptr) :=
  let! n := get p in
  match n_deg n with
  | 0 => ret None
  | 1 =>
    let! h := unwrap (n_head n) in
    upd p (set_head None) ;; upd p (set_tail None) ;;
    let! hn := get h in
    dec_sizes p 1 (n_desc hn + 1) ;;
    let! r := tree_from_node h in ret (Some r)
  | _ =>
    let! h := unwrap (n_head n) in
    let! hn := get h in
    let! nh := unwrap (n_next hn) in
    upd nh (set_prev None) ;;
    upd h (set_next None) ;;
    upd p (set_head (Some nh)) ;;
    let! hn' := get h in
    dec_sizes p 1 (n_desc hn' + 1) ;;
    let! r := tree_from_node h in ret (Some r)
  end.

(** node.rs:464-484 [pop_back] *)
Definition pop_back p : M A (option ptr) :=
  let! n := get p in
  match n_deg n with
  | 0 => ret None
  | 1 =>
    let! t := unwrap (n_tail n) in
    upd p (set_head None) ;; upd p (set_tail None) ;;
    let! tn := get t in
    dec_sizes p 1 (n_desc tn + 1) ;;
    let! r := tree_from_node t in ret (Some r)
  | _ =>
    let! t := unwrap (n_tail n) in
    let! tn := get t in
    let! nt := unwrap (n_prev tn) in
    upd nt (set_next None) ;;
    upd t (set_prev None) ;;
    upd p (set_tail (Some nt)) ;;
    let! tn' := get t in
    dec_sizes p 1 (n_desc tn' + 1) ;;
    let! r := tree_from_node t in ret (Some r)
  end.

(** * iter.rs *)

(** iter.rs:8-36 [UncountedRawIter], 39-86 [CountedRawIter] (also [Iter], [IterMut], [IterRc], which wrap it) *)
Record citer : Type := CIter { ci_curr : option ptr; ci_len : nat }.

(** iter.rs:29-35 [UncountedRawIter::next], iter.rs:67-75 [CountedRawIter::next] *)
Definition ci_next (it : citer) : M A (option ptr * citer) :=
  match ci_len it with
  | 0 => ret (None, it)
  | S l =>
    match ci_curr it with
    | None => ret (None, CIter None l)
    | Some c => let! n := get c in ret (Some c, CIter (n_next n) l)
    end
  end.
(** iter.rs:77-79 [CountedRawIter::size_hint] (lower = upper bound) *)
Definition ci_size_hint (it : citer) : nat := ci_len it.
(** iter.rs:52-54 [once] *)
Definition ci_once p : citer := CIter (Some p) 1.

(** node.rs:313-318 [iter], node.rs:333-338 [iter_mut] *)
Definition iter p : M A citer :=
  let! n := get p in
  ret (match n_head n with Some c => CIter (Some c) (n_deg n) | None => CIter None 0 end).

(** collecting an iterator, [for x in it] *)
Fixpoint ci_collect (f : nat) (it : citer) : M A (list ptr) :=
  match f with
  | 0 => fail EFuel
  | S f' =>
    let! r := ci_next it in
    match r.1 with
    | None => ret []
    | Some c => let! l := ci_collect f' r.2 in ret (c :: l)
    end
  end.
(** [node.iter().collect()] *)
Definition children p : M A (list ptr) :=
  let! it := iter p in let! f := fuel in ci_collect f it.

(** * node.rs: prepend / append, forest.rs *)

(** forest.rs:60-64 [Forest::set_up]: [for_each] over [iter_mut()] *)
Fixpoint set_ups (f : nat) (it : citer) p : M A unit :=
  match f with
  | 0 => fail EFuel
  | S f' =>
    let! r := ci_next it in
    match r.1 with
    | None => ret tt
    | Some c => upd c (set_up (Some p)) ;; set_ups f' r.2 p
    end
  end.
Definition forest_set_up fr p : M A unit :=
  let! it := iter fr in let! f := fuel in set_ups f it p.

(** forest.rs:66-73 [Forest::clear] *)
Definition forest_clear fr : M A unit :=
  upd fr (set_head None) ;; upd fr (set_tail None) ;; upd fr (set_size 0 0).

(** tree.rs:244-249, forest.rs:277-282 [Drop]: [while let Some(_) = pop_front() {}; drop_node(root)].  The loop and
    the recursion into the drop of the popped tree share one bound. *)
Fixpoint drop_loop (f : nat) p : M A unit :=
  match f with
  | 0 => fail EFuel
  | S f' =>
    let! o := pop_front p in
    match o with
    | Some c => drop_loop f' c ;; drop_loop f' p
    | None => drop_node p
    end
  end.
Definition drop_tree p : M A unit := let! f := fuel in drop_loop f p.

(** node.rs:501-514 [prepend]; at the end the (emptied or empty) argument forest is dropped *)
Definition prepend_body p fr : M A unit :=
  let! e := has_no_child fr in
  (if e then ret tt else
   forest_set_up fr p ;;
   let! n := get p in
   (match n_head n with
    | None => let! b := back fr in let! b := unwrap b in upd p (set_tail (Some b))
    | Some h => let! fn := get fr in let! tl := unwrap (n_tail fn) in connect_next tl h
    end) ;;
   let! ft := front fr in let! ft := unwrap ft in
   upd p (set_head (Some ft)) ;;
   let! fn := get fr in
   inc_sizes p (n_deg fn) (n_desc fn) ;;
   forest_clear fr) .
Definition prepend p fr : M A unit := prepend_body p fr ;; drop_tree fr.

(** node.rs:531-544 [append] *)
Definition append_body p fr : M A unit :=
  let! e := has_no_child fr in
  (if e then ret tt else
   forest_set_up fr p ;;
   let! n := get p in
   (match n_head n with
    | None => let! h := front fr in let! h := unwrap h in upd p (set_head (Some h))
    | Some _ => let! tl := unwrap (n_tail n) in
                let! fn := get fr in let! h := unwrap (n_head fn) in connect_next tl h
    end) ;;
   let! bk := back fr in let! bk := unwrap bk in
   upd p (set_tail (Some bk)) ;;
   let! fn := get fr in
   inc_sizes p (n_deg fn) (n_desc fn) ;;
   forest_clear fr) .
Definition append p fr : M A unit := append_body p fr ;; drop_tree fr.

(** * tree.rs, forest.rs *)

(** tree.rs:29-34 [Tree::new] *)
Definition tree_new (a : A) : M A ptr := make_node (DScat a (0,0)).
(** forest.rs:30-32 [Forest::new] *)
Definition forest_new : M A ptr := make_node (DScatN (0,0)).
(** tree.rs:57-61 [Tree::into_data]: the root must already have no children (they would leak) *)
Definition into_data p : M A A :=
  let! n := get p in
  put p (set_dat DNone n) ;;
  into_inner (n_dat n).
(** tree.rs:175-183 [Tree::abandon]: returns the forest and the new root of the tree *)
Definition abandon p : M A (ptr * ptr) :=
  let! a := take_data p in
  let! np := make_node (DScat a (0,0)) in
  ret (p, np).

(** * into_iter.rs *)

(** into_iter.rs:16-18 [IntoIter::next] is [pop_front] of its forest; 20-23 [size_hint] is [degree];
    28-32 [Drop for IntoIter] drains, then the field [forest] is dropped *)
Definition into_iter_next fr : M A (option ptr) := pop_front fr.
Definition into_iter_size_hint fr : M A nat := degree fr.
Fixpoint into_iter_drain (f : nat) fr : M A unit :=
  match f with
  | 0 => fail EFuel
  | S f' =>
    let! o := into_iter_next fr in
    match o with
    | Some c => drop_tree c ;; into_iter_drain f' fr
    | None => ret tt
    end
  end.
Definition into_iter_drop fr : M A unit :=
  let! f := fuel in into_iter_drain f fr ;; drop_tree fr.
(** into_iter.rs:34-43 [IntoIterator for Tree]; 45-50 for [Forest] is the identity *)
Definition tree_into_iter p : M A ptr :=
  let! fr := forest_new in push_back fr p ;; ret fr.

End model.
