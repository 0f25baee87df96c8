(** StackRcModel.v — [Drop for RcNode] with a bound on the depth of the call stack.  No proofs. *)
From stdpp Require Import base gmap list.
From Verif Require Import Spec ClientSpec Machine NodeModel ClientModel RcModel RcSpec.

Section model.
Context {A : Type}.

(** specification: how many calls of [drop] nest when the last [RcNode] of a node is dropped and no other variable keeps it alive.  [P j]: node [j] is
    still referred to by a variable, so that dropping the handle of the popped child ends at once. *)
Fixpoint rheight (P : nat -> bool) (t : ltree A) : nat :=
  S (foldr (fun k m => max (if P (lid k) then 1 else rheight P k) m) 0 (lkids t)).
(** the same when the variable [h] of node [i] is dropped: the node lives on if it has a parent or another variable *)
Definition drop_height (σ : rss A) (h i : nat) : nat :=
  let P := held (delete h (rs_h σ)) in
  if P i then 1 else match filter (fun t => lid t = i) (rs_sh σ) with t :: _ => rheight P t | [] => 1 end.

(** rc.rs:125-153 [Drop for RcNode] as in RcModel ([rc_drop_loop], [rc_pops]), with room for [D] calls of [drop] on the stack; [f]: as in RcModel *)
Fixpoint rcs_loop (f D : nat) (B : borrows) (r : rnode) : M A unit :=
  match f with
  | 0 => fail EFuel
  | S f' =>
    match D with
    | 0 => fail EStack
    | S D' =>
      match r with
      | RScat p =>
        let! c := cnt_get p in
        (if Nat.eqb c 1 then rcs_pops f' D' B r else ret tt) ;;
        rc_drop p
      | RPile v i =>
        vec_ref v ;;
        let! c := cnt_decr (v, i) in
        (if Nat.eqb c 0 then rcs_pops f' D' B r ;; drop_in_place (v, i) else ret tt) ;;
        decr_ref v
      end
    end
  end
with rcs_pops (f D : nat) (B : borrows) (r : rnode) : M A unit :=
  match f with
  | 0 => fail EFuel
  | S f' =>
    node_borrow_mut B r ;;
    let! o := pop_front (raddr r) in
    match o with
    | None => ret tt
    | Some c => let! k := rc_from c in rcs_loop f' D B k ;; rcs_pops f' D B r
    end
  end.
Definition rc_drop_stack (D : nat) (B : borrows) (r : rnode) : M A unit :=
  let! f := fuel in rcs_loop (2 * f) D B r.
End model.
