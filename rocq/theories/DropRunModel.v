(** DropRunModel.v — tree.rs, forest.rs and heap.rs with a [T::drop] that uses the library itself.  No proofs. *)
From stdpp Require Import base gmap list.
From Verif Require Import Spec ClientSpec Machine NodeModel ClientModel DropRunSpec.

Section model.
Context {A H : Type}.

Section body.
(** [call R a]: the call of [T::drop] for [a] *)
Context (call : list nat -> A -> H -> gmap nat handle -> M A (unit * H * gmap nat handle)).

Fixpoint run_calls (R : list nat) (l : list A) (st : H) (env : gmap nat handle) : M A (unit * H * gmap nat handle) :=
  match l with
  | [] => ret (tt, st, env)
  | a :: l' => let! r := call R a st env in run_calls R l' r.1.2 r.2
  end.

(** tree.rs:244-249, forest.rs:277-282, as [NodeModel.drop_loop]: [while let Some(_) = pop_front() {}; drop_node(root)].  heap.rs:32-46 [drop_node]:
    the data taken out by [replace] is a temporary of the [match]: it is dropped at its end, after the memory of the node has been given back *)
Fixpoint drop_loop_h (R : list nat) (f : nat) (p : ptr) (st : H) (env : gmap nat handle) : M A (unit * H * gmap nat handle) :=
  match f with
  | 0 => fail EFuel
  | S f' =>
    let! o := pop_front p in
    match o with
    | Some c => let! r := drop_loop_h R f' c st env in drop_loop_h R f' p r.1.2 r.2
    | None => let! n := get p in drop_node p ;; run_calls R (dat_vals (n_dat n)) st env
    end
  end.

(** node.rs:115 [data_mut] in [*node.data_mut() = v]: the assignment drops the old value in its place (its fields must not be used by anybody
    while that runs: the tree is borrowed, the variable is not available), then writes the new one *)
Fixpoint mbody {X} (R : list nat) (p : dprog X) (st : H) (env : gmap nat handle) : M A (X * H * gmap nat handle) :=
  match p with
  | DRet a => ret (a, st, env)
  | DMem g k => mbody R (k st) (g st) env
  | DDo o k =>
    if decide (silent o = true /\ Forall (fun x => x ∉ R) (op_names o)) then let! r := cstep env o in mbody R (k r.1) st r.2
    else mbody R (k RBad) st env
  | DDrop h k =>
    match env !! h with
    | Some hd => let! f := fuel in let! r := drop_loop_h R f (addr hd) st (delete h env) in mbody R (k true) r.1.2 r.2
    | None => mbody R (k false) st env
    end
  | DSet h path v k =>
    match env !! h with
    | Some hd =>
      let! o := resolve (addr hd) path in
      match o with
      | Some p =>
        if is_forest_root hd path then mbody R (k false) st env else
        let! a := data p in
        log_drop [a] ;;
        let! r := run_calls (h :: R) [a] st (delete h env) in
        modify_data p (fun _ => v) ;;
        mbody R (k true) r.1.2 (<[h := hd]> r.2)
      | None => mbody R (k false) st env
      end
    | None => mbody R (k false) st env
    end
  end.
End body.

(** the call of [T::drop] (by the compiler's drop glue, at the places above), with a stack that has room for [n] nested calls *)
Fixpoint mhandle (handler : A -> dprog unit) (n : nat) : list nat -> A -> H -> gmap nat handle -> M A (unit * H * gmap nat handle) :=
  match n with
  | 0 => fun _ _ _ _ => fail EStack
  | S n' => fun R a st env => mbody (mhandle handler n') R (handler a) st env
  end.

(** a program run from an empty heap *)
Inductive dout (X : Type) : Type := MDone (x : X) (st : H) (c : cst A) | MFails (e : err).
Arguments MDone {X} x st c.
Arguments MFails {X} e.
Definition mdrun (handler : A -> dprog unit) (n : nat) {X} (p : dprog X) (st : H) : dout X :=
  match mbody (mhandle handler n) [] p st ∅ (c_mem cst0) with
  | Ok (x, st', env) s => MDone x st' (CSt env s)
  | Err e => MFails e
  end.
End model.
Global Arguments MDone {A H X} x st c.
Global Arguments MFails {A H X} e.
