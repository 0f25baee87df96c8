(** PanicSpec.v — what a client sees when calls panic and the panic is caught ([std::panic::catch_unwind], or a thread of its own).  No proofs.

    Code that is not the library's can panic while the library runs it: [T::clone], the closure given to [map] of a breadth-first visit, [T::drop].  The
    library itself panics when a node without parent is asked to take a sibling or to detach. *)
From stdpp Require Import base gmap list.
From Verif Require Import Spec ClientSpec.

Section spec.
Context {A : Type}.

(** operations: those of ClientSpec.v, and calls of foreign code that may panic.  A closure sees the values it was called with before and returns [None] to
    panic.  [T::clone] that panics now and then is the case of a closure that returns its argument otherwise. *)
Inductive pop : Type :=
  | POp (o : op A)
  | PForget (h : nat)                                              (* mem::forget(h) *)
  | PMapInto (h x : nat) (f : list A -> A -> option A)             (* let x = Tree::from(h.into_bfs().map(f)), resp. Forest *)
  | PMapBfs (h : nat) (path : list nat) (x : nat) (f : list A -> A -> option A)          (* let x = Tree::from(node.bfs().map(f)); node.deep_clone() *)
  | PMapBfsChildren (h : nat) (path : list nat) (x : nat) (f : list A -> A -> option A)  (* let x = Forest::from(node.bfs_children().map(f)); node.deep_clone_forest() *)
  | PDrop (h k : nat)                                              (* drop(h) where T::drop panics when it is called the [k]+1st time *)
  | PDropIter (h k : nat).                                         (* drop(h.into_iter()), likewise *)

Inductive pout : Type := PRet (r : out A) | PPanic.

(** the number of calls before the first that panics *)
Fixpoint panics_at (f : list A -> A -> option A) (hist l : list A) : option nat :=
  match l with
  | [] => None
  | a :: l' => match f hist a with None => Some 0 | Some _ => S <$> panics_at f (hist ++ [a]) l' end
  end.
(** the closure where it does not panic *)
Definition calm (f : list A -> A -> option A) (hist : list A) (a : A) : A := default a (f hist a).

(** the trees [ts] are dropped one after the other; when the [k]+1st value panics the rest of its tree is not dropped, the other trees are *)
Fixpoint each_dropped (k : nat) (ts : list (tree A)) : list A :=
  match ts with
  | [] => []
  | t :: ts' => if decide (k < length (postorder t)) then take (S k) (postorder t) ++ postorder_f ts'
                else postorder t ++ each_dropped (k - length (postorder t)) ts'
  end.

(** a call that does not panic has the meaning of ClientSpec.v *)
Definition lift (σ : sst A) (r : option (out A * sst A)) : pout * sst A :=
  match r with Some (r, σ') => (PRet r, σ') | None => (PPanic, σ) end.

Definition psstep (σ : sst A) (o : pop) : pout * sst A :=
  let env := s_env σ in
  let bad := (PRet RBad, σ) in
  match o with
  | POp o =>
    match sstep σ o with
    | Some (r, σ') => (PRet r, σ')
    | None =>
      (* the call panics: its argument is dropped, nothing else changes *)
      match o with
      | OInsert _ _ _ y =>
        match env !! y with Some it => (PPanic, SSt (delete y env) (s_log σ ++ item_post it)) | None => (PPanic, σ) end
      | _ => (PPanic, σ)
      end
    end
  | PForget h => match env !! h with Some _ => (PRet RUnit, SSt (delete h env) (s_log σ)) | None => bad end
  | PMapInto h x f =>
    match env !! h, env !! x with
    | Some it, None =>
      let vs := root_of <$> item_level_order it in
      match panics_at f [] vs with
      | None => lift σ (sstep σ (OMapInto h x (calm f)))
      | Some k =>
        (* the value given to the closure is dropped, then what has not been visited; what the closure returned before is lost *)
        (PPanic, SSt (delete h env) (s_log σ ++ take 1 (drop k vs) ++ postorder_f (bfs_rest (S k) (trees_of it))))
      end
    | _, _ => bad
    end
  | PMapBfs h path x f =>
    match env !! h, env !! x with
    | Some it, None =>
      match node_at it path with
      | Some t => match panics_at f [] (root_of <$> level_order t) with
                  | None => lift σ (sstep σ (OMapBfs h path x (calm f)))
                  | Some _ => (PPanic, σ)
                  end
      | None => bad
      end
    | _, _ => bad
    end
  | PMapBfsChildren h path x f =>
    match env !! h, env !! x with
    | Some it, None =>
      match kids_at it path with
      | Some ts => match panics_at f [] (root_of <$> level_order_f ts) with
                   | None => lift σ (sstep σ (OMapBfsChildren h path x (calm f)))
                   | Some _ => (PPanic, σ)
                   end
      | None => bad
      end
    | _, _ => bad
    end
  | PDrop h k =>
    match env !! h with
    | Some it => (if decide (k < length (item_post it)) then PPanic else PRet RUnit,
                  SSt (delete h env) (s_log σ ++ take (S k) (item_post it)))
    | None => bad
    end
  | PDropIter h k =>
    match env !! h with
    | Some it => (if decide (k < length (item_post it)) then PPanic else PRet RUnit,
                  SSt (delete h env) (s_log σ ++ each_dropped k (trees_of it)))
    | None => bad
    end
  end.

Fixpoint psrun (σ : sst A) (os : list pop) : list pout * sst A :=
  match os with
  | [] => ([], σ)
  | o :: os' => let '(r, σ') := psstep σ o in let '(rs, σ'') := psrun σ' os' in (r :: rs, σ'')
  end.
(** foreign code does not panic in a call, nor in a history, and nothing is forgotten; the library may panic *)
Definition quiet (σ : sst A) (o : pop) : Prop :=
  match o with POp _ => True | PForget h => s_env σ !! h = None | _ => (psstep σ o).1 <> PPanic end.
Fixpoint quiets (σ : sst A) (os : list pop) : Prop :=
  match os with [] => True | o :: os' => quiet σ o /\ quiets (psstep σ o).2 os' end.
End spec.
Arguments pop : clear implicits.
Arguments pout : clear implicits.
