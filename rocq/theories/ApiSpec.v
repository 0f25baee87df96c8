(** ApiSpec.v — the methods that [Tree] and [Forest] have themselves, called on a variable: what they do to the list of top trees.  The children of the root of
    a tree and the trees of a forest are handled alike; no paths, no memory. *)
From stdpp Require Import base gmap list.
From Verif Require Import Spec ClientSpec.

Section spec.
Context {A : Type}.
Implicit Types (it : item A) (env : gmap nat (item A)).

(** the children of the root of a tree, the trees of a forest *)
Definition tops it : list (tree A) := match it with ITree (Tr _ ts) => ts | IForest ts => ts end.
Definition with_tops it (ts : list (tree A)) : item A := match it with ITree (Tr a _) => ITree (Tr a ts) | IForest _ => IForest ts end.
(** the nodes of an item: a forest is not a node itself *)
Definition item_nodes it : nat := match it with ITree t => nodes t | IForest ts => nodes_f ts end.
(** the tree with [f] applied to its root *)
Definition retop (f : A -> A) (t : tree A) : tree A := match t with Tr a ts => Tr (f a) ts end.
(** [l] with [f] applied to its first, its last element *)
Definition on_end {X} (e : side) (f : X -> X) (l : list X) : list X :=
  match e with Front => match l with [] => [] | x :: l' => f x :: l' end | Back => match reverse l with [] => [] | x :: l' => reverse (f x :: l') end end.
Definition end_of {X} (e : side) (l : list X) : option X := match e with Front => head l | Back => last l end.
(** the list without its first, its last element *)
Definition without {X} (e : side) (l : list X) : list X := match e with Front => tail l | Back => removelast l end.
Definition join {X} (e : side) (l new : list X) : list X := match e with Front => new ++ l | Back => l ++ new end.

Inductive method : Type :=
  | MPush (e : side) (y : nat)               (* h.push_front(y) / push_back(y) *)
  | MPop (e : side) (x : nat)                (* let x = h.pop_front() / pop_back(); whether there was one *)
  | MConcat (e : side) (y : nat)             (* h.prepend(y) / append(y) *)
  | MNoChild | MDegree | MCount              (* h.has_no_child(), h.degree(), h.node_count() *)
  | MIter                                    (* h.iter().map(data).collect() *)
  | MEnd (e : side)                          (* h.front().map(data) / back().map(data) *)
  | MEndMut (e : side) (f : A -> A)          (* if let Some(c) = h.front_mut() / back_mut() { *c.data_mut() = f(c.data()); true } else { false } *)
  | MIterMut (g : nat -> A -> A)
      (* let mut it = h.iter_mut(); let mut n = 0; while { hint = it.size_hint(); let Some(c) = it.next() } { seen.push((hint, c.data())); *c.data_mut() = g(n, c.data()); n += 1 }; seen *)
  | MRoot | MRootMut (f : A -> A)            (* h.root().data() or h.data(); *h.root_mut().data_mut() = f(..): trees only *)
  | MAbandon (x : nat)                       (* let x = h.abandon(): trees only *)
  | MClone (x : nat)                         (* let x = h.clone() *)
  | MBfs                                     (* h.bfs().iter.collect() *)
  | MBfsMut (g : nat -> A -> A)              (* h.bfs_mut(): the [n]-th visit is given [g n] of its data *)
  | MBfsChildren | MBfsChildrenMut (g : nat -> A -> A).  (* trees only *)

(** what the method gives and what the variables are afterwards; [None]: not a program (unknown or used name, wrong type, a method a forest does not have) *)
Definition api_spec env (h : nat) (m : method) : option (out A * gmap nat (item A)) :=
  match env !! h with
  | None => None
  | Some it =>
    let ok r it' := Some (r, <[h := it']> env) in
    match m with
    | MPush e y => match env !! y with Some (ITree t) => if decide (y = h) then None else Some (RUnit, <[h := with_tops it (join e (tops it) [t])]> (delete y env)) | _ => None end
    | MConcat e y => match env !! y with Some (IForest ts) => if decide (y = h) then None else Some (RUnit, <[h := with_tops it (join e (tops it) ts)]> (delete y env)) | _ => None end
    | MPop e x =>
      match env !! x with
      | Some _ => None
      | None => match end_of e (tops it) with
                | Some t => Some (RBool true, <[x := ITree t]> (<[h := with_tops it (without e (tops it))]> env))
                | None => Some (RBool false, env)
                end
      end
    | MNoChild => Some (RBool (bool_decide (tops it = [])), env)
    | MDegree => Some (RNat (length (tops it)), env)
    | MCount => Some (RNat (item_nodes it), env)
    | MIter => Some (RVals (root_of <$> tops it), env)
    | MEnd e => Some (ROpt (root_of <$> end_of e (tops it)), env)
    | MEndMut e f => ok (RBool (negb (bool_decide (tops it = [])))) (with_tops it (on_end e (retop f) (tops it)))
    | MIterMut g => ok (REach (imap (fun i t => (length (tops it) - i, root_of t)) (tops it)) 0 false) (with_tops it (imap (fun i => retop (g i)) (tops it)))
    | MRoot => match it with ITree (Tr a _) => Some (RVal a, env) | _ => None end
    | MRootMut f => match it with ITree t => ok RUnit (ITree (retop f t)) | _ => None end
    | MAbandon x =>
      match it, env !! x with ITree t, None => Some (RUnit, <[x := IForest (tops it)]> (<[h := with_tops it []]> env)) | _, _ => None end
    | MClone x => match env !! x with None => Some (RUnit, <[x := it]> env) | _ => None end
    | MBfs => Some (RVisits (visit_of <$> item_level_order it), env)
    | MBfsMut g => ok RUnit (match it with ITree t => ITree (bfs_map g t) | IForest ts => IForest (bfs_map_f g ts) end)
    | MBfsChildren => match it with ITree _ => Some (RVisits (visit_of <$> level_order_f (tops it)), env) | _ => None end
    | MBfsChildrenMut g => match it with ITree _ => ok RUnit (with_tops it (bfs_map_f g (tops it))) | _ => None end
    end
  end.
(** calls one after the other *)
Fixpoint api_spec_run env (ms : list (nat * method)) : option (list (out A) * gmap nat (item A)) :=
  match ms with
  | [] => Some ([], env)
  | (h, m) :: ms' =>
    match api_spec env h m with
    | Some (r, env') => match api_spec_run env' ms' with Some (rs, env'') => Some (r :: rs, env'') | None => None end
    | None => None
    end
  end.
End spec.
Arguments method : clear implicits.
