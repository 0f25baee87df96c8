(** ClientSpec.v — what a client sees of the exclusive-ownership API, in terms of immutable rose trees.
    The client owns trees and forests under names (variables) and addresses a node by the name of its owner and a
    path of child indices.  No memory, no pointers, no cached sizes here. *)
From stdpp Require Import base gmap list.
From Verif Require Import Spec.

Section spec.
Context {A : Type}.

(** what a variable holds *)
Inductive item : Type := ITree (t : tree A) | IForest (ts : list (tree A)).

(** the children of the node at [path]; the path [] in a forest stands for the forest itself *)
Definition kids_at (it : item) (path : list nat) : option (list (tree A)) :=
  match it, path with
  | ITree t, _ => kids <$> subtree t path
  | IForest ts, [] => Some ts
  | IForest ts, i :: path' => match ts !! i with Some t => kids <$> subtree t path' | None => None end
  end.

(** the node at [path], with everything below it; a forest itself is not a node *)
Definition node_at (it : item) (path : list nat) : option (tree A) :=
  match it, path with
  | ITree t, _ => subtree t path
  | IForest ts, [] => None
  | IForest ts, i :: path' => match ts !! i with Some t => subtree t path' | None => None end
  end.

(** the item in which the node at [path] has the children [ts'] *)
Definition set_kids_tree (path : list nat) (ts' : list (tree A)) : tree A -> tree A :=
  update_at path (fun t => Tr (root_of t) ts').
Definition set_kids (it : item) (path : list nat) (ts' : list (tree A)) : item :=
  match it, path with
  | ITree t, _ => ITree (set_kids_tree path ts' t)
  | IForest _, [] => IForest ts'
  | IForest ts, i :: path' => IForest (alter (set_kids_tree path' ts') i ts)
  end.

(** the item in which the node at [path] has the data [a] *)
Definition set_data_tree (path : list nat) (a : A) : tree A -> tree A :=
  update_at path (fun t => Tr a (kids t)).
Definition set_data (it : item) (path : list nat) (a : A) : item :=
  match it, path with
  | ITree t, _ => ITree (set_data_tree path a t)
  | IForest ts, [] => it
  | IForest ts, i :: path' => IForest (alter (set_data_tree path' a) i ts)
  end.

(** a path split into the path of the parent and the index among its children *)
Definition split_last (path : list nat) : option (list nat * nat) :=
  match reverse path with [] => None | i :: r => Some (reverse r, i) end.

(** all values in drop order: subtrees left to right, then their root *)
Definition item_post (it : item) : list A :=
  match it with ITree t => postorder t | IForest ts => postorder_f ts end.

(** * The API *)
Inductive side : Type := Front | Back.

(** what the body of a [for c in node.iter_mut()] loop does; [j] is the number of the child in order of yielding: the
    references yielded so far may all be kept and used *)
Inductive act : Type :=
  | AIns (j : nat) (e : side) (y : nat)     (* c_j.insert_prev_sib(y) / c_j.insert_next_sib(y) *)
  | AMod (j : nat) (f : A -> A)             (* let d = c_j.data_mut(); *d = f(d) *)
  | APush (j : nat) (e : side) (y : nat)    (* c_j.push_front(y) / c_j.push_back(y) *)
  | ADetach (j : nat) (x : nat).            (* let x = c_j.detach(); this ends the use of c_j *)

Inductive op : Type :=
  | ONewTree (x : nat) (a : A)                          (* let x = Tree::new(a)  *)
  | ONewForest (x : nat)                                (* let x = Forest::new() *)
  | OPush (e : side) (h : nat) (path : list nat) (y : nat)    (* node.push_front(y) / push_back(y) *)
  | OPop (e : side) (h : nat) (path : list nat) (x : nat)     (* let x = node.pop_front() / pop_back() *)
  | OConcat (e : side) (h : nat) (path : list nat) (y : nat)  (* node.prepend(y) / append(y) *)
  | OInsert (e : side) (h : nat) (path : list nat) (y : nat)  (* node.insert_prev_sib(y) / insert_next_sib(y) *)
  | ODetach (h : nat) (path : list nat) (x : nat)       (* let x = node.detach() *)
  | OAbandon (h : nat) (x : nat)                        (* let x = h.abandon() *)
  | OModify (h : nat) (path : list nat) (f : A -> A)    (* let d = node.data_mut(); *d = f(d) *)
  | ODrop (h : nat)                                     (* drop(h) *)
  | OData (h : nat) (path : list nat)                   (* node.data() *)
  | ODegree (h : nat) (path : list nat)                 (* node.degree() *)
  | OCount (h : nat) (path : list nat)                  (* node.node_count() *)
  | ONoChild (h : nat) (path : list nat)                (* node.has_no_child() *)
  | OEnd (e : side) (h : nat) (path : list nat)         (* node.front().map(data) / back().map(data) *)
  | OIter (h : nat) (path : list nat)                   (* node.iter().map(data).collect() *)
  | OParent (h : nat) (path : list nat)                 (* node.parent().map(data) *)
  | OClone (h : nat) (path : list nat) (x : nat)        (* let x = node.deep_clone(), for path []: h.clone() *)
  | OCloneForest (h : nat) (path : list nat) (x : nat)  (* let x = node.deep_clone_forest(), for a forest: h.clone() *)
  | OBfs (h : nat) (path : list nat)                    (* node.bfs().iter.collect() *)
  | OBfsChildren (h : nat) (path : list nat)            (* node.bfs_children().iter.collect(), for a forest: h.bfs() *)
  | OBfsMut (h : nat) (path : list nat) (g : nat -> A -> A)
      (* for (n, visit) in node.bfs_mut().iter.enumerate() { *visit.data = g(n, *visit.data) } *)
  | OBfsChildrenMut (h : nat) (path : list nat) (g : nat -> A -> A)
  | OIntoBfs (h : nat) (n : nat)
      (* let mut it = h.into_bfs().iter; it.by_ref().take(n).collect(); drop(it) *)
  | OFromBfs (h : nat) (x : nat)                        (* let x = Tree::from(h.into_bfs()) / Forest::from(h.into_bfs()) *)
  | OFromVisits (x : nat) (it : item)
      (* let x = Tree::from(BfsTree{ iter, size }) / Forest::from(..) where iter gives the level-order visits of [it] *)
  | OIntoIter (h : nat) (xs : list nat)
      (* let mut it = h.into_iter(); for each name x: it.size_hint(); if let Some(x) = it.next(); then drop(it) *)
  | OMove (h : nat) (x : nat)                           (* let x = h *)
  | OMapInto (h : nat) (x : nat) (f : list A -> A -> A)
      (* let x = Tree::from(h.into_bfs().map(f)) / Forest::from(h.into_bfs().map(f)); [f]: what the closure returns, given the values it has been
         called with before and the value it is called with (to change the type of the data, take a sum of the two types for [A]) *)
  | OMapBfs (h : nat) (path : list nat) (x : nat) (f : list A -> A -> A)          (* let x = Tree::from(node.bfs().map(f)) *)
  | OMapBfsChildren (h : nat) (path : list nat) (x : nat) (f : list A -> A -> A)  (* let x = Forest::from(node.bfs_children().map(f)) *)
  | OEach (h : nat) (path : list nat) (acts : list (list act)).
      (* let mut it = node.iter_mut(); loop { it.size_hint(); match it.next() { Some(c) => { c.data(); the next list of actions on the
         children yielded so far } None => break } } it.size_hint(); it.next() *)

Inductive out : Type :=
  | RUnit | RBool (b : bool) | RNat (n : nat) | RVal (a : A) | ROpt (o : option A) | RVals (l : list A)
  | RVisits (l : list (A * nat * nat)) | RNats (l : list nat)
  | REach (l : list (nat * A)) (n : nat) (more : bool)  (* size hints before the calls of next and data yielded; hint at the end; whether next gave something after None *)
  | RBad.  (* not a program: unknown or already used name, no such node, wrong type, moving a borrowed tree *)

(** the client's variables, and the values dropped so far *)
Record sst : Type := SSt { s_env : gmap nat item; s_log : list A }.
Definition sst0 : sst := SSt ∅ [].

(** put the new children [ts'] at [path] of [h] *)
Definition put_kids (env : gmap nat item) (h : nat) (it : item) (path : list nat) (ts' : list (tree A)) : gmap nat item :=
  <[h := set_kids it path ts']> env.

(** what has become of a child already yielded: the siblings inserted before it, itself unless detached, the siblings
    inserted after it *)
Local Notation seg := (list (tree A) * option (tree A) * list (tree A))%type.
Definition seg_trees (g : seg) : list (tree A) := g.1.1 ++ option_list g.1.2 ++ g.2.
(** one action on the children [gs] yielded so far of a node of [h]; an action that is not a program (child not yielded
    yet or detached, unknown or used name, wrong type) is left out *)
Definition each_act (h : nat) (a : act) (st : gmap nat item * list seg) : gmap nat item * list seg :=
  let '(env, gs) := st in
  match a with
  | AIns j e y =>
    match gs !! j, delete h env !! y with
    | Some (pre, Some t, post), Some (ITree u) =>
      (delete y env, <[j := match e with Front => (pre ++ [u], Some t, post) | Back => (pre, Some t, u :: post) end]> gs)
    | _, _ => st
    end
  | AMod j f =>
    match gs !! j with
    | Some (pre, Some t, post) => (env, <[j := (pre, Some (Tr (f (root_of t)) (kids t)), post)]> gs)
    | _ => st
    end
  | APush j e y =>
    match gs !! j, delete h env !! y with
    | Some (pre, Some t, post), Some (ITree u) =>
      (delete y env, <[j := (pre, Some (Tr (root_of t) (match e with Front => u :: kids t | Back => kids t ++ [u] end)), post)]> gs)
    | _, _ => st
    end
  | ADetach j x =>
    match gs !! j, env !! x with
    | Some (pre, Some t, post), None => (<[x := ITree t]> env, <[j := (pre, None, post)]> gs)
    | _, _ => st
    end
  end.
Fixpoint each_acts (h : nat) (acts : list act) (st : gmap nat item * list seg) : gmap nat item * list seg :=
  match acts with [] => st | a :: acts' => each_acts h acts' (each_act h a st) end.
(** the children [ts] of the original list are yielded one after the other; after each the next list of actions *)
Fixpoint each_child (h : nat) (acts : list (list act)) (ts : list (tree A)) (st : gmap nat item * list seg)
    : gmap nat item * list seg :=
  match ts with
  | [] => st
  | t :: ts' => each_child h (tail acts) ts' (each_acts h (default [] (head acts)) (st.1, st.2 ++ [([], Some t, [])]))
  end.

(** names [xs] for the trees [ts], as many as there are *)
Fixpoint bind_trees (xs : list nat) (ts : list (tree A)) (env : gmap nat item) : gmap nat item :=
  match xs, ts with
  | x :: xs', t :: ts' => bind_trees xs' ts' (<[x := ITree t]> env)
  | _, _ => env
  end.

(** the trees an owning iterator over an item gives *)
Definition trees_of (it : item) : list (tree A) := match it with ITree t => [t] | IForest ts => ts end.
(** all nodes of an item in level order *)
Definition item_level_order (it : item) : list (tree A) :=
  match it with ITree t => level_order t | IForest ts => level_order_f ts end.

(** a closure called with the values of a list, one after the other: [hist] are the values before *)
Fixpoint map_hist (f : list A -> A -> A) (hist l : list A) : list A :=
  match l with [] => [] | a :: l' => f hist a :: map_hist f (hist ++ [a]) l' end.
(** the trees with the data replaced by what [f] returns, called in level order *)
Definition bfs_fmap (f : list A -> A -> A) (t : tree A) : tree A :=
  bfs_map (fun n a => default a (map_hist f [] (root_of <$> level_order t) !! n)) t.
Definition bfs_fmap_f (f : list A -> A -> A) (ts : list (tree A)) : list (tree A) :=
  bfs_map_f (fun n a => default a (map_hist f [] (root_of <$> level_order_f ts) !! n)) ts.
Definition item_fmap (f : list A -> A -> A) (it : item) : item :=
  match it with ITree t => ITree (bfs_fmap f t) | IForest ts => IForest (bfs_fmap_f f ts) end.

(** One operation.  [None]: the call panics. *)
Definition sstep (σ : sst) (o : op) : option (out * sst) :=
  let env := s_env σ in
  let bad := Some (RBad, σ) in
  let ok (r : out) (env' : gmap nat item) := Some (r, SSt env' (s_log σ)) in
  match o with
  | ONewTree x a => match env !! x with None => ok RUnit (<[x := ITree (Tr a [])]> env) | _ => bad end
  | ONewForest x => match env !! x with None => ok RUnit (<[x := IForest []]> env) | _ => bad end
  | OPush e h path y =>
    match env !! y, delete y env !! h with
    | Some (ITree t), Some it =>
      match kids_at it path with
      | Some ts => ok RUnit (put_kids (delete y env) h it path (match e with Front => t :: ts | Back => ts ++ [t] end))
      | None => bad
      end
    | _, _ => bad
    end
  | OPop e h path x =>
    match env !! h, env !! x with
    | Some it, None =>
      match kids_at it path with
      | Some ts =>
        match (match e with Front => head ts | Back => last ts end) with
        | Some t => ok (RBool true)
                       (<[x := ITree t]> (put_kids env h it path
                           (match e with Front => tail ts | Back => removelast ts end)))
        | None => ok (RBool false) env
        end
      | None => bad
      end
    | _, _ => bad
    end
  | OConcat e h path y =>
    match env !! y, delete y env !! h with
    | Some (IForest fs), Some it =>
      match kids_at it path with
      | Some ts => ok RUnit (put_kids (delete y env) h it path (match e with Front => fs ++ ts | Back => ts ++ fs end))
      | None => bad
      end
    | _, _ => bad
    end
  | OInsert e h path y =>
    match env !! y, delete y env !! h with
    | Some (ITree t), Some it =>
      match split_last path with
      | None => match it with ITree _ => None | IForest _ => bad end
      | Some (path', i) =>
        match kids_at it path' with
        | Some ts =>
          if decide (i < length ts) then
            let j := match e with Front => i | Back => S i end in
            ok RUnit (put_kids (delete y env) h it path' (take j ts ++ t :: drop j ts))
          else bad
        | None => bad
        end
      end
    | _, _ => bad
    end
  | ODetach h path x =>
    match env !! h, env !! x with
    | Some it, None =>
      match split_last path with
      | None => match it with ITree _ => None | IForest _ => bad end
      | Some (path', i) =>
        match kids_at it path' with
        | Some ts =>
          match ts !! i with
          | Some t => ok RUnit (<[x := ITree t]> (put_kids env h it path' (take i ts ++ drop (S i) ts)))
          | None => bad
          end
        | None => bad
        end
      end
    | _, _ => bad
    end
  | OAbandon h x =>
    match env !! h, env !! x with
    | Some (ITree (Tr a ts)), None => ok RUnit (<[x := IForest ts]> (<[h := ITree (Tr a [])]> env))
    | _, _ => bad
    end
  | OModify h path f =>
    match env !! h with
    | Some it =>
      match node_at it path with
      | Some t => ok RUnit (<[h := set_data it path (f (root_of t))]> env)
      | None => bad
      end
    | None => bad
    end
  | ODrop h =>
    match env !! h with
    | Some it => Some (RUnit, SSt (delete h env) (s_log σ ++ item_post it))
    | None => bad
    end
  | OData h path =>
    match env !! h with
    | Some it => match node_at it path with Some t => ok (RVal (root_of t)) env | None => bad end
    | None => bad
    end
  | ODegree h path =>
    match env !! h with
    | Some it => match kids_at it path with Some ts => ok (RNat (length ts)) env | None => bad end
    | None => bad
    end
  | OCount h path =>
    match env !! h with
    | Some it =>
      match kids_at it path with
      | Some ts => ok (RNat (match node_at it path with Some t => nodes t | None => nodes_f ts end)) env
      | None => bad
      end
    | None => bad
    end
  | ONoChild h path =>
    match env !! h with
    | Some it => match kids_at it path with
                 | Some ts => ok (RBool (match ts with [] => true | _ => false end)) env | None => bad end
    | None => bad
    end
  | OEnd e h path =>
    match env !! h with
    | Some it => match kids_at it path with
                 | Some ts => ok (ROpt (root_of <$> match e with Front => head ts | Back => last ts end)) env
                 | None => bad end
    | None => bad
    end
  | OIter h path =>
    match env !! h with
    | Some it => match kids_at it path with Some ts => ok (RVals (root_of <$> ts)) env | None => bad end
    | None => bad
    end
  | OParent h path =>
    match env !! h with
    | Some it =>
      match node_at it path with
      | Some _ =>
        ok (ROpt (match split_last path with
                  | Some (path', _) => root_of <$> node_at it path'
                  | None => None
                  end)) env
      | None => bad
      end
    | None => bad
    end
  | OClone h path x =>
    match env !! h, env !! x with
    | Some it, None =>
      match node_at it path with Some t => ok RUnit (<[x := ITree t]> env) | None => bad end
    | _, _ => bad
    end
  | OCloneForest h path x =>
    match env !! h, env !! x with
    | Some it, None =>
      match kids_at it path with Some ts => ok RUnit (<[x := IForest ts]> env) | None => bad end
    | _, _ => bad
    end
  | OBfs h path =>
    match env !! h with
    | Some it => match node_at it path with Some t => ok (RVisits (visit_of <$> level_order t)) env | None => bad end
    | None => bad
    end
  | OBfsChildren h path =>
    match env !! h with
    | Some it => match kids_at it path with Some ts => ok (RVisits (visit_of <$> level_order_f ts)) env | None => bad end
    | None => bad
    end
  | OBfsMut h path g =>
    match env !! h with
    | Some it =>
      match node_at it path with
      | Some t => ok RUnit (<[h := set_data (set_kids it path (kids (bfs_map g t))) path (root_of (bfs_map g t))]> env)
      | None => bad
      end
    | None => bad
    end
  | OBfsChildrenMut h path g =>
    match env !! h with
    | Some it =>
      match kids_at it path with
      | Some ts => ok RUnit (put_kids env h it path (bfs_map_f g ts))
      | None => bad
      end
    | None => bad
    end
  | OIntoBfs h n =>
    match env !! h with
    | Some it => Some (RVisits (take n (visit_of <$> item_level_order it)),
                       SSt (delete h env) (s_log σ ++ postorder_f (bfs_rest n (trees_of it))))
    | None => bad
    end
  | OFromBfs h x =>
    match env !! h, env !! x with
    | Some it, None => ok RUnit (<[x := it]> (delete h env))
    | _, _ => bad
    end
  | OFromVisits x it => match env !! x with None => ok RUnit (<[x := it]> env) | _ => bad end
  | OIntoIter h xs =>
    match env !! h with
    | Some it =>
      if decide (NoDup xs /\ Forall (fun x => env !! x = None) xs) then
        let ts := trees_of it in
        Some (RNats (imap (fun i _ => length ts - i) xs),
              SSt (bind_trees xs ts (delete h env)) (s_log σ ++ postorder_f (drop (length xs) ts)))
      else bad
    | None => bad
    end
  | OMove h x =>
    match env !! h, env !! x with Some it, None => ok RUnit (<[x := it]> (delete h env)) | _, _ => bad end
  | OMapInto h x f =>
    match env !! h, env !! x with
    | Some it, None => ok RUnit (<[x := item_fmap f it]> (delete h env))
    | _, _ => bad
    end
  | OMapBfs h path x f =>
    match env !! h, env !! x with
    | Some it, None =>
      match node_at it path with Some t => ok RUnit (<[x := ITree (bfs_fmap f t)]> env) | None => bad end
    | _, _ => bad
    end
  | OMapBfsChildren h path x f =>
    match env !! h, env !! x with
    | Some it, None =>
      match kids_at it path with Some ts => ok RUnit (<[x := IForest (bfs_fmap_f f ts)]> env) | None => bad end
    | _, _ => bad
    end
  | OEach h path acts =>
    match env !! h with
    | Some it =>
      match kids_at it path with
      | Some ts =>
        let '(env', gs) := each_child h acts ts (env, []) in
        ok (REach (imap (fun i t => (length ts - i, root_of t)) ts) 0 false) (<[h := set_kids it path (flat_map seg_trees gs)]> env')
      | None => bad
      end
    | None => bad
    end
  end.

(** the variables an operation mentions *)
Definition act_names (a : act) : list nat :=
  match a with AIns _ _ y | APush _ _ y => [y] | ADetach _ x => [x] | AMod _ _ => [] end.
Definition op_names (o : op) : list nat :=
  match o with
  | ONewTree x _ | ONewForest x | OFromVisits x _ => [x]
  | OPush _ h _ y | OConcat _ h _ y | OInsert _ h _ y => [h; y]
  | OPop _ h _ x | ODetach h _ x | OAbandon h x | OClone h _ x | OCloneForest h _ x | OFromBfs h x | OMove h x
  | OMapInto h x _ | OMapBfs h _ x _ | OMapBfsChildren h _ x _ => [h; x]
  | OModify h _ _ | ODrop h | OData h _ | ODegree h _ | OCount h _ | ONoChild h _ | OEnd _ h _ | OIter h _ | OParent h _
  | OBfs h _ | OBfsChildren h _ | OBfsMut h _ _ | OBfsChildrenMut h _ _ | OIntoBfs h _ => [h]
  | OIntoIter h xs => h :: xs
  | OEach h _ acts => h :: flat_map (flat_map act_names) acts
  end.

(** a history *)
Fixpoint srun (σ : sst) (os : list op) : option (list out * sst) :=
  match os with
  | [] => Some ([], σ)
  | o :: os' =>
    match sstep σ o with
    | Some (r, σ') => match srun σ' os' with Some (rs, σ'') => Some (r :: rs, σ'') | None => None end
    | None => None
    end
  end.

End spec.
Arguments item : clear implicits.
Arguments act : clear implicits.
Arguments op : clear implicits.
Arguments out : clear implicits.
Arguments sst : clear implicits.
