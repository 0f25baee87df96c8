(** RcDropPanicModel.v — dropping a handle of a shared node when [T::drop] panics, with the unwinding of the stack, on the modelled memory.  No proofs.

    [T::drop] panics when it is called the [k]+1st time during the drop; the results are the number of calls left before the panic, [None]: it has happened. *)
From stdpp Require Import base gmap list.
From Verif Require Import Spec ClientSpec RcSpec PanicSpec Machine NodeModel ClientModel RcModel.

Section model.
Context {A : Type}.
Implicit Types (p : ptr) (c : rst A).

(** dropping the data of a node *)
Definition tick (k : nat) (n : node A) : option nat :=
  match dat_vals (n_dat n) with [] => Some k | _ => match k with 0 => None | S k' => Some k' end end.

(** rc.rs:125-153 [Drop for RcNode] (RcModel.v [rc_drop_loop], [rc_pops]).  A panic that comes out of [pop_front]'s result being dropped leaves the loop and the
    body; for a scattered node unwinding still drops the field, an [Rc]; for a piled node the rest of the body, [drop_in_place] and [decr_ref], is not run, and
    neither is [decr_ref] when [drop_in_place] panics.  ([T::drop] does not panic again while unwinding.) *)
Fixpoint pd_loop (f : nat) (B : borrows) (k : nat) (r : rnode) : M A (option nat) :=
  match f with
  | 0 => fail EFuel
  | S f' =>
    match r with
    | RScat p =>
      let! c := cnt_get p in
      if Nat.eqb c 1 then
        let! o := pd_pops f' B k r in
        let! n := get p in
        rc_drop p ;;
        ret (match o with Some k' => tick k' n | None => None end)
      else rc_drop p ;; ret (Some k)
    | RPile v i =>
      vec_ref v ;;
      let! c := cnt_decr (v, i) in
      if Nat.eqb c 0 then
        let! o := pd_pops f' B k r in
        match o with
        | Some k' =>
          let! n := get (v, i) in
          drop_in_place (v, i) ;;
          match tick k' n with Some k'' => decr_ref v ;; ret (Some k'') | None => ret None end
        | None => ret None
        end
      else decr_ref v ;; ret (Some k)
    end
  end
with pd_pops (f : nat) (B : borrows) (k : nat) (r : rnode) : M A (option nat) :=
  match f with
  | 0 => fail EFuel
  | S f' =>
    node_borrow_mut B r ;;
    let! o := pop_front (raddr r) in
    match o with
    | None => ret (Some k)
    | Some c =>
      let! q := rc_from c in
      let! o' := pd_loop f' B k q in
      match o' with Some k' => pd_pops f' B k' r | None => ret None end
    end
  end.
Definition pd_handle (B : borrows) (k : nat) (r : rnode) : M A (option nat) := let! f := fuel in pd_loop (2 * f) B k r.

(** [drop(h)], the panic is caught; as [SDrop] in RcModel.v *)
Definition rdrop_panics c (h k : nat) : rres (pout A) :=
  match r_h c !! h with
  | Some r =>
    if bool_decide (h ∈ ((map_to_list (r_g c)).*2).*1) then RDone (PRet RBad) c
    else match pd_handle (r_b c) k r (r_mem c) with
         | Ok o s => RDone (match o with Some _ => PRet RUnit | None => PPanic end) (set_rh (set_mem c s) (delete h (r_h c)))
         | Err e => RFails e
         end
  | None => RDone (PRet RBad) c
  end.
End model.
