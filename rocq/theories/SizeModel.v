(** SizeModel.v — size.rs.  No proofs. *)
From stdpp Require Import base.

(** size.rs:7-11 [struct Size] *)
Record Size : Type := MkSize { sz_degree : nat; sz_descendants : nat }.
(** size.rs:7 [derive(Default)] *)
Definition size_default : Size := MkSize 0 0.
(** size.rs:13-16 [Add] *)
Definition size_add (a b : Size) : Size := MkSize (sz_degree a + sz_degree b) (sz_descendants a + sz_descendants b).
(** size.rs:18-22 [AddAssign]: the new value of the left operand *)
Definition size_add_assign (a b : Size) : Size := MkSize (sz_degree a + sz_degree b) (sz_descendants a + sz_descendants b).
(** checked subtraction of [usize]; [None] is the panic *)
Definition usub (a b : nat) : option nat := if Nat.leb b a then Some (a - b) else None.
(** size.rs:24-27 [Sub] *)
Definition size_sub (a b : Size) : option Size :=
  match usub (sz_degree a) (sz_degree b) with
  | None => None
  | Some d => match usub (sz_descendants a) (sz_descendants b) with None => None | Some n => Some (MkSize d n) end
  end.
(** size.rs:29-33 [SubAssign] *)
Definition size_sub_assign (a b : Size) : option Size :=
  match usub (sz_degree a) (sz_degree b) with
  | None => None
  | Some d => match usub (sz_descendants a) (sz_descendants b) with None => None | Some n => Some (MkSize d n) end
  end.
