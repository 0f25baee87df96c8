(** RcOwnModel.v — dropping a handle of a shared node when the values of the nodes own handles themselves ([T] has fields of type [RcNode<T>]), so that dropping a value drops
    further handles in the middle of the drop.  No proofs. *)
From stdpp Require Import base gmap list.
From Verif Require Import Spec ClientSpec RcSpec Machine NodeModel ClientModel RcModel.

Section model.
(** [own a]: the variables of type [RcNode] that are fields of the value [a], in the order they are dropped in *)
Context {A : Type} (own : A -> list nat).
Implicit Types (p : ptr) (H : gmap nat rnode).

(** [T]'s destructor begins *)
Definition log_vals (l : list A) : M A unit := fun s => Ok tt (Mem (m_heap s) (m_cnt s) (m_vec s) (m_fresh s) (m_log s ++ l)).
(** the memory of a node by itself is released; a slot of a buffer may not be used any more *)
Definition dealloc p : M A unit := fun s =>
  match m_heap s !! p with Some _ => Ok tt (Mem (delete p (m_heap s)) (delete p (m_cnt s)) (m_vec s) (m_fresh s) (m_log s)) | None => Err EUB end.
Definition vacate p : M A unit := fun s =>
  match m_heap s !! p with Some _ => Ok tt (Mem (delete p (m_heap s)) (m_cnt s) (m_vec s) (m_fresh s) (m_log s)) | None => Err EUB end.

(** rc.rs:125-153 [Drop for RcNode] (RcModel.v [rc_drop_loop], [rc_pops]).  [H]: the handles that exist besides the one being dropped; the result is what is left
    of them.  [Rc]'s destructor counts down, drops the value in place and then releases the memory; [drop_in_place] of a slot is followed by [decr_ref].
    (Simplification: the destructor of [T] itself does nothing but drop its fields.) *)
Fixpoint rd_loop (f : nat) (B : borrows) H (r : rnode) : M A (gmap nat rnode) :=
  match f with
  | 0 => fail EFuel
  | S f' =>
    match r with
    | RScat p =>
      let! c := cnt_get p in
      if Nat.eqb c 1 then
        let! H1 := rd_pops f' B H r in
        cnt_decr p ;;
        let! n := get p in
        log_vals (dat_vals (n_dat n)) ;;
        let! H2 := rd_all f' B H1 (flat_map own (dat_vals (n_dat n))) in
        dealloc p ;;
        ret H2
      else rc_drop p ;; ret H
    | RPile v i =>
      vec_ref v ;;
      let! c := cnt_decr (v, i) in
      if Nat.eqb c 0 then
        let! H1 := rd_pops f' B H r in
        let! n := get (v, i) in
        log_vals (dat_vals (n_dat n)) ;;
        let! H2 := rd_all f' B H1 (flat_map own (dat_vals (n_dat n))) in
        vacate (v, i) ;;
        decr_ref v ;;
        ret H2
      else decr_ref v ;; ret H
    end
  end
with rd_pops (f : nat) (B : borrows) H (r : rnode) : M A (gmap nat rnode) :=
  match f with
  | 0 => fail EFuel
  | S f' =>
    node_borrow_mut B r ;;
    let! o := pop_front (raddr r) in
    match o with
    | None => ret H
    | Some c =>
      let! q := rc_from c in
      let! H1 := rd_loop f' B H q in
      rd_pops f' B H1 r
    end
  end
with rd_all (f : nat) (B : borrows) H (gs : list nat) : M A (gmap nat rnode) :=
  match f with
  | 0 => fail EFuel
  | S f' =>
    match gs with
    | [] => ret H
    | g :: gs' =>
      match H !! g with
      | Some r => let! H1 := rd_loop f' B (delete g H) r in rd_all f' B H1 gs'
      | None => fail EUB (* a handle that has been dropped already *)
      end
    end
  end.
(** enough for all loops and recursion: every round takes a child from its parent or drops a handle *)
Definition rd_handle (B : borrows) H (r : rnode) : M A (gmap nat rnode) := fun s => rd_loop (4 * size (m_heap s) + 2 * size H + 2) B H r s.

(** [drop(h)], as [SDrop] in RcModel.v *)
Definition rdrop_owning (c : rst A) (h : nat) : rres (out A) :=
  match r_h c !! h with
  | Some r =>
    if bool_decide (h ∈ ((map_to_list (r_g c)).*2).*1) then RDone RBad c
    else match rd_handle (r_b c) (delete h (r_h c)) r (r_mem c) with
         | Ok H s => RDone RUnit (set_rh (set_mem c s) H)
         | Err e => RFails e
         end
  | None => RDone RBad c
  end.
End model.
