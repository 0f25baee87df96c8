(** CallSpec.v — client programs whose closures use the library themselves: what they do, in terms of immutable rose trees.

    The closure [f] in [Tree::from(node.bfs().map(f))], [Forest::from(node.bfs_children().map(f))] and [Tree::from(tree.into_bfs().map(f))] — and
    [T::clone], called by [deep_clone], [deep_clone_forest] and [Clone] — is code of the client: it runs in the middle of the construction and may
    operate on any tree that is not borrowed, read the borrowed ones, and build trees with such closures again. *)
From stdpp Require Import base gmap list.
From Verif Require Import Spec ClientSpec.

Section spec.
(** [A]: the data; [H]: what the closures remember from one call to the next *)
Context {A H : Type}.

(** the operations that only read: they are possible on a tree that is borrowed ([&]) by somebody else *)
Definition reads (o : op A) : bool :=
  match o with
  | OData _ _ | ODegree _ _ | OCount _ _ | ONoChild _ _ | OEnd _ _ _ | OIter _ _ | OParent _ _ | OBfs _ _ | OBfsChildren _ _ => true
  | _ => false
  end.

(** what the visits are taken from *)
Inductive source : Type :=
  | SNode (h : nat) (path : list nat)   (* node.bfs() *)
  | SKids (h : nat) (path : list nat)   (* node.bfs_children(), for a forest: h.bfs() *)
  | SInto (h : nat).                    (* h.into_bfs() *)

(** a program of the client: operations, whose results it may look at, and constructions with closures that are programs themselves.
    [PMap src x st f k]: let x = Tree::from(src.map(f)) or Forest::from(src.map(f)), where the closure starts with the memory [st]; then [k] with its
    memory at the end ([None]: not a program, as for [RBad]) *)
Inductive prog (X : Type) : Type :=
  | PRet (a : X)
  | PDo (o : op A) (k : out A -> prog X)
  | PMap (src : source) (x : nat) (st : H) (f : H -> A -> prog (A * H)) (k : option H -> prog X).
Global Arguments PRet {X} a.
Global Arguments PDo {X} o k.
Global Arguments PMap {X} src x st f k.

(** the items with the data, in level order, replaced by those of the list *)
Definition relabel (l : list A) (it : item A) : item A :=
  match it with
  | ITree t => ITree (bfs_map (fun n a => default a (l !! n)) t)
  | IForest ts => IForest (bfs_map_f (fun n a => default a (l !! n)) ts)
  end.

(** a closure called with the values of a list, one after the other; [call]: one call.  The values returned, the memory and the state at the end;
    [None]: a call panics *)
Fixpoint calls (call : H -> A -> sst A -> option (A * H * sst A)) (st : H) (l : list A) (σ : sst A) : option (list A * H * sst A) :=
  match l with
  | [] => Some ([], st, σ)
  | a :: l' =>
    match call st a σ with
    | Some (b, st', σ') => match calls call st' l' σ' with Some (bs, st'', σ'') => Some (b :: bs, st'', σ'') | None => None end
    | None => None
    end
  end.

(** [R]: the names of the trees being built; [benv]: the trees being visited, that can only be read.  Both are not free for other uses. *)
Definition is_free (R : list nat) (benv : gmap nat (item A)) (x : nat) : Prop := x ∉ R /\ benv !! x = None.
Global Instance is_free_dec R benv x : Decision (is_free R benv x).
Proof. unfold is_free. apply _. Defined.

(** the source of a construction: the item the visits are taken from, the variables and the borrowed variables during the construction *)
Definition open_source (env benv : gmap nat (item A)) (src : source) : option (item A * gmap nat (item A) * gmap nat (item A)) :=
  match src with
  | SNode h path =>
    match (env ∪ benv) !! h with
    | Some it => match node_at it path with Some t => Some (ITree t, delete h env, <[h := it]> benv) | None => None end
    | None => None
    end
  | SKids h path =>
    match (env ∪ benv) !! h with
    | Some it => match kids_at it path with Some ts => Some (IForest ts, delete h env, <[h := it]> benv) | None => None end
    | None => None
    end
  | SInto h => match env !! h with Some it => Some (it, delete h env, benv) | None => None end
  end.
(** after the construction the borrow ends: a variable of the client is the client's again *)
Definition close_source (env : gmap nat (item A)) (src : source) (env' : gmap nat (item A)) : gmap nat (item A) :=
  match src with
  | SNode h _ | SKids h _ => match env !! h with Some it => <[h := it]> env' | None => env' end
  | SInto _ => env'
  end.

(** what a program does: its result and the state at the end, [None]: it panics *)
Fixpoint sprog {X : Type} (R : list nat) (benv : gmap nat (item A)) (σ : sst A) (p : prog X) {struct p} : option (X * sst A) :=
  match p with
  | PRet a => Some (a, σ)
  | PDo o k =>
    if reads o then
      match sstep (SSt (s_env σ ∪ benv) (s_log σ)) o with Some (r, _) => sprog R benv σ (k r) | None => None end
    else if decide (Forall (is_free R benv) (op_names o)) then
      match sstep σ o with Some (r, σ') => sprog R benv σ' (k r) | None => None end
    else sprog R benv σ (k RBad)
  | PMap src x st f k =>
    if decide (is_free R benv x /\ s_env σ !! x = None) then
      match open_source (s_env σ) benv src with
      | Some (it, env1, benv1) =>
        match calls (fun st a σ => sprog (x :: R) benv1 σ (f st a)) st (root_of <$> item_level_order it) (SSt env1 (s_log σ)) with
        | Some (l, st', σ') => sprog R benv (SSt (<[x := relabel l it]> (close_source (s_env σ) src (s_env σ'))) (s_log σ')) (k (Some st'))
        | None => None
        end
      | None => sprog R benv σ (k None)
      end
    else sprog R benv σ (k None)
  end.

End spec.
Arguments prog : clear implicits.
