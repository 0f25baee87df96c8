(** CursorSpec.v — iterators and walks that the client holds while it goes on using the library: what the calls do, in terms of immutable rose trees.

    [node.iter()], [node.bfs()] and [node.bfs_children()] borrow a tree: it can be read, but not changed, until the last of its iterators is gone.
    [into_iter()], [into_bfs()], [TreeWalk::from] and [ForestWalk::from] take the tree or forest.
    [node.iter_mut()], [node.bfs_mut()] and [node.bfs_children_mut()] borrow their tree exclusively: it can be named again, maybe under another name, when the borrow ends ([KBack]). *)
From stdpp Require Import base gmap list.
From Verif Require Import Spec ClientSpec Machine NodeModel ClientModel WalkModel WalkSpec CallSpec.

Section spec.
Context {A H : Type}.

(** an iterator or walk of the client *)
Inductive scur : Type :=
  | SIter (h : nat) (ts : list (tree A))              (* node.iter(): the children still to come; [h] is borrowed *)
  | SBfs (h : nat) (ys : list (A * nat * nat))        (* node.bfs(), node.bfs_children(): the visits still to come; [h] is borrowed *)
  | SInto (ts : list (tree A))                        (* h.into_iter(): the trees still to come *)
  | SIntoBfs (it : item A) (n : nat)                  (* h.into_bfs(), after [n] visits *)
  | SWalk (it : item A) (cu : cursor)                 (* TreeWalk::from(h), ForestWalk::from(h) *)
  | SMut (it : item A) (path : list nat) (gs : list (list (tree A) * option (tree A) * list (tree A))) (ts : list (tree A))
      (* node.iter_mut() at [path] of [it]: what has become of the children yielded (each: the siblings inserted before it, itself unless detached,
         the siblings inserted after it), and the children still to come *)
  | SBfsMut (it : item A) (path : list nat) (top : bool) (g : nat -> A -> A) (n : nat).
      (* node.bfs_mut() (with [top]), node.bfs_children_mut() at [path] of [it], after [n] visits: [it] as it was, and what has been done to the data of the visits, by number *)
Definition origin (c : scur) : option nat := match c with SIter h _ | SBfs h _ => Some h | _ => None end.

(** the tree or forest an [iter_mut] is borrowing, as it is now *)
Definition mut_item (it : item A) (path : list nat) (gs : list (list (tree A) * option (tree A) * list (tree A))) (ts : list (tree A)) : item A :=
  set_kids it path (flat_map seg_trees gs ++ ts).
(** the nodes that a [bfs_mut] visits, in order; the tree or forest it is borrowing, as it is now *)
Definition bfs_mut_order (it : item A) (path : list nat) (top : bool) : list (tree A) :=
  if top then match node_at it path with Some t => level_order t | None => [] end
  else match kids_at it path with Some ts => level_order_f ts | None => [] end.
Definition bfs_mut_item (it : item A) (path : list nat) (top : bool) (g : nat -> A -> A) : item A :=
  if top then
    match node_at it path with
    | Some t => set_data (set_kids it path (kids (bfs_map g t))) path (root_of (bfs_map g t))
    | None => it
    end
  else match kids_at it path with Some ts => set_kids it path (bfs_map_f g ts) | None => it end.
(** [f] is done to the data of visit [j] *)
Definition done_to (j : nat) (f : A -> A) (g : nat -> A -> A) : nat -> A -> A := fun m a => if Nat.eqb m j then f (g m a) else g m a.

(** the calls on a mutable reference to a child *)
Inductive rop : Type :=
  | RfSee                                             (* (r.data(), r.degree(), r.node_count() - 1) *)
  | RfParent                                          (* the same of r.parent() *)
  | RfModify (f : A -> A)                             (* let d = r.data_mut(); *d = f(d) *)
  | RfPush (e : side) (y : nat)                       (* r.push_front(y), r.push_back(y) *)
  | RfPop (e : side) (x : nat)                        (* let x = r.pop_front(), r.pop_back() *)
  | RfConcat (e : side) (y : nat)                     (* r.prepend(y), r.append(y) *)
  | RfInsert (e : side) (y : nat)                     (* r.insert_prev_sib(y), r.insert_next_sib(y) *)
  | RfDetach (x : nat).                               (* let x = r.detach(); the client makes no further use of r (it could: C45) *)

(** the calls; [i] names an iterator or walk *)
Inductive kop : Type :=
  | KProg (p : prog A H (out A))                      (* any program of CallSpec.v *)
  | KIter (i h : nat) (path : list nat)               (* let i = node.iter() *)
  | KBfs (i h : nat) (path : list nat)                (* let i = node.bfs().iter *)
  | KBfsKids (i h : nat) (path : list nat)            (* let i = node.bfs_children().iter *)
  | KIntoIter (i h : nat)                             (* let i = h.into_iter() *)
  | KIntoBfs (i h : nat)                              (* let i = h.into_bfs().iter *)
  | KWalk (i h : nat)                                 (* let i = TreeWalk::from(h) / ForestWalk::from(h) *)
  | KIterMut (i h : nat) (path : list nat)            (* let i = node.iter_mut() *)
  | KBfsMut (i h : nat) (path : list nat)             (* let i = node.bfs_mut().iter *)
  | KBfsKidsMut (i h : nat) (path : list nat)         (* let i = node.bfs_children_mut().iter *)
  | KData (i j : nat) (f : A -> A)                    (* let a = *d; *d = f(a); a, where [d] is the data of the [j]-th visit that [i] gave *)
  | KYield (i : nat)                                  (* i.next() of iter_mut; the reference is kept *)
  | KRef (i j : nat) (o : rop)                        (* a call on the [j]-th reference that [i] gave *)
  | KNext (i : nat)                                   (* i.next() of iter, bfs, bfs_children, into_bfs, bfs_mut, bfs_children_mut; the reference to the data is kept *)
  | KTake (i x : nat)                                 (* let x = i.next() of into_iter *)
  | KHint (i : nat)                                   (* i.len(), for iter, into_iter and iter_mut *)
  | KWalkOp (i : nat) (o : wop)                       (* i.get(), i.forward(), ... *)
  | KBack (i x : nat)                                 (* let x = i.into() of a walk; the borrow of an iter_mut or bfs_mut ends *)
  | KClose (i : nat).                                 (* drop(i); for iter_mut and bfs_mut, of the tree or forest too *)

(** what a call returns; nodes are told by their data, degree and number of descendants.  [KBad]: not a program *)
Inductive kout : Type :=
  | KOut (r : out A)
  | KVisit (o : option (A * nat * nat))
  | KGot (b : bool)
  | KNat (n : nat)
  | KDatum (a : A)
  | KWalked (r : wout (vkind * (A * nat * nat)) (A * nat * nat))
  | KUnit
  | KBad.

(** the variables, the borrowed ones among them apart; the iterators and walks; the values dropped *)
Record kss : Type := KS { ks_env : gmap nat (item A); ks_benv : gmap nat (item A); ks_cur : gmap nat scur; ks_log : list A }.
Definition kss0 : kss := KS ∅ ∅ ∅ [].

(** [h] is not borrowed by any of the iterators *)
Definition unborrowed (h : nat) (cur : gmap nat scur) : Prop := map_Forall (fun _ c => origin c <> Some h) cur.
Global Instance unborrowed_dec h cur : Decision (unborrowed h cur).
Proof. unfold unborrowed. apply _. Defined.

(** a borrow begins; a borrow ends when the last iterator is gone *)
Definition borrow (σ : kss) (i h : nat) (it : item A) (c : scur) : kss :=
  KS (delete h (ks_env σ)) (<[h := it]> (ks_benv σ)) (<[i := c]> (ks_cur σ)) (ks_log σ).
Definition release (σ : kss) (i h : nat) : kss :=
  let cur := delete i (ks_cur σ) in
  if decide (unborrowed h cur) then
    match ks_benv σ !! h with
    | Some it => KS (<[h := it]> (ks_env σ)) (delete h (ks_benv σ)) cur (ks_log σ)
    | None => KS (ks_env σ) (ks_benv σ) cur (ks_log σ)
    end
  else KS (ks_env σ) (ks_benv σ) cur (ks_log σ).

Definition show_walk (r : wout (svisit (A := A)) snode) : wout (vkind * (A * nat * nat)) (A * nat * nat) :=
  match r with
  | WVisit o => WVisit ((fun v : svisit => (v.1.1, visit_of v.2)) <$> o)
  | WNode o => WNode ((fun n : snode => visit_of n.2) <$> o)
  | WUnit => WUnit
  end.

(** one call on the [j]-th reference; [None]: not a program *)
Definition ref_step (env benv : gmap nat (item A)) (it : item A) (path : list nat) (gs : list (list (tree A) * option (tree A) * list (tree A))) (ts : list (tree A)) (j : nat) (o : rop) :
    option (kout * gmap nat (item A) * list (list (tree A) * option (tree A) * list (tree A))) :=
  match gs !! j with
  | Some (pre, Some t, post) =>
    let put t' := <[j := (pre, Some t', post)]> gs in
    match o with
    | RfSee => Some (KVisit (Some (visit_of t)), env, gs)
    | RfParent => Some (KVisit (match node_at (mut_item it path gs ts) path with Some u => Some (visit_of u) | None => None end), env, gs)
    | RfModify f => Some (KUnit, env, put (Tr (f (root_of t)) (kids t)))
    | RfPush e y =>
      match env !! y with
      | Some (ITree u) => Some (KUnit, delete y env, put (Tr (root_of t) (match e with Front => u :: kids t | Back => kids t ++ [u] end)))
      | _ => None
      end
    | RfPop e x =>
      if decide (env !! x = None /\ benv !! x = None) then
        match e, kids t, last (kids t) with
        | Front, u :: us, _ => Some (KGot true, <[x := ITree u]> env, put (Tr (root_of t) us))
        | Back, us, Some u => Some (KGot true, <[x := ITree u]> env, put (Tr (root_of t) (removelast us)))
        | _, _, _ => Some (KGot false, env, gs)
        end
      else None
    | RfConcat e y =>
      match env !! y with
      | Some (IForest us) => Some (KUnit, delete y env, put (Tr (root_of t) (match e with Front => us ++ kids t | Back => kids t ++ us end)))
      | _ => None
      end
    | RfInsert e y =>
      match env !! y with
      | Some (ITree u) => Some (KUnit, delete y env, <[j := match e with Front => (pre ++ [u], Some t, post) | Back => (pre, Some t, u :: post) end]> gs)
      | _ => None
      end
    | RfDetach x => if decide (env !! x = None /\ benv !! x = None) then Some (KUnit, <[x := ITree t]> env, <[j := (pre, None, post)]> gs) else None
    end
  | _ => None
  end.

(** one call; [None]: it panics *)
Definition ksstep (σ : kss) (o : kop) : option (kout * kss) :=
  let bad := Some (KBad, σ) in
  let upd i c := KS (ks_env σ) (ks_benv σ) (<[i := c]> (ks_cur σ)) (ks_log σ) in
  let fresh i := ks_cur σ !! i in
  match o with
  | KProg p =>
    match sprog [] (ks_benv σ) (SSt (ks_env σ) (ks_log σ)) p with
    | Some (r, σ') => Some (KOut r, KS (s_env σ') (ks_benv σ) (ks_cur σ) (s_log σ'))
    | None => None
    end
  | KIter i h path =>
    match fresh i, (ks_env σ ∪ ks_benv σ) !! h with
    | None, Some it => match kids_at it path with Some ts => Some (KUnit, borrow σ i h it (SIter h ts)) | None => bad end
    | _, _ => bad
    end
  | KBfs i h path =>
    match fresh i, (ks_env σ ∪ ks_benv σ) !! h with
    | None, Some it => match node_at it path with Some t => Some (KUnit, borrow σ i h it (SBfs h (visit_of <$> level_order t))) | None => bad end
    | _, _ => bad
    end
  | KBfsKids i h path =>
    match fresh i, (ks_env σ ∪ ks_benv σ) !! h with
    | None, Some it => match kids_at it path with Some ts => Some (KUnit, borrow σ i h it (SBfs h (visit_of <$> level_order_f ts))) | None => bad end
    | _, _ => bad
    end
  | KIntoIter i h =>
    match fresh i, ks_env σ !! h with
    | None, Some it => Some (KUnit, KS (delete h (ks_env σ)) (ks_benv σ) (<[i := SInto (trees_of it)]> (ks_cur σ)) (ks_log σ))
    | _, _ => bad
    end
  | KIntoBfs i h =>
    match fresh i, ks_env σ !! h with
    | None, Some it => Some (KUnit, KS (delete h (ks_env σ)) (ks_benv σ) (<[i := SIntoBfs it 0]> (ks_cur σ)) (ks_log σ))
    | _, _ => bad
    end
  | KWalk i h =>
    match fresh i, ks_env σ !! h with
    | None, Some it => Some (KUnit, KS (delete h (ks_env σ)) (ks_benv σ) (<[i := SWalk it (c_start (tops it))]> (ks_cur σ)) (ks_log σ))
    | _, _ => bad
    end
  | KIterMut i h path =>
    match fresh i, ks_env σ !! h with
    | None, Some it =>
      match kids_at it path with
      | Some ts => Some (KUnit, KS (delete h (ks_env σ)) (ks_benv σ) (<[i := SMut it path [] ts]> (ks_cur σ)) (ks_log σ))
      | None => bad
      end
    | _, _ => bad
    end
  | KBfsMut i h path =>
    match fresh i, ks_env σ !! h with
    | None, Some it =>
      match node_at it path with
      | Some _ => Some (KUnit, KS (delete h (ks_env σ)) (ks_benv σ) (<[i := SBfsMut it path true (fun _ a => a) 0]> (ks_cur σ)) (ks_log σ))
      | None => bad
      end
    | _, _ => bad
    end
  | KBfsKidsMut i h path =>
    match fresh i, ks_env σ !! h with
    | None, Some it =>
      match kids_at it path with
      | Some _ => Some (KUnit, KS (delete h (ks_env σ)) (ks_benv σ) (<[i := SBfsMut it path false (fun _ a => a) 0]> (ks_cur σ)) (ks_log σ))
      | None => bad
      end
    | _, _ => bad
    end
  | KData i j f =>
    match ks_cur σ !! i with
    | Some (SBfsMut it path top g n) =>
      match take n (bfs_mut_order it path top) !! j with
      | Some u => Some (KDatum (g j (root_of u)), upd i (SBfsMut it path top (done_to j f g) n))
      | None => bad
      end
    | _ => bad
    end
  | KYield i =>
    match ks_cur σ !! i with
    | Some (SMut it path gs (t :: ts)) => Some (KGot true, upd i (SMut it path (gs ++ [([], Some t, [])]) ts))
    | Some (SMut it path gs []) => Some (KGot false, σ)
    | _ => bad
    end
  | KRef i j o =>
    match ks_cur σ !! i with
    | Some (SMut it path gs ts) =>
      match ref_step (ks_env σ) (ks_benv σ) it path gs ts j o with
      | Some (r, env', gs') => Some (r, KS env' (ks_benv σ) (<[i := SMut it path gs' ts]> (ks_cur σ)) (ks_log σ))
      | None => bad
      end
    | _ => bad
    end
  | KNext i =>
    match ks_cur σ !! i with
    | Some (SIter h []) | Some (SBfs h []) => Some (KVisit None, σ)
    | Some (SIter h (t :: ts)) => Some (KVisit (Some (visit_of t)), upd i (SIter h ts))
    | Some (SBfs h (y :: ys)) => Some (KVisit (Some y), upd i (SBfs h ys))
    | Some (SIntoBfs it n) =>
      match (visit_of <$> item_level_order it) !! n with
      | Some y => Some (KVisit (Some y), upd i (SIntoBfs it (S n)))
      | None => Some (KVisit None, σ)
      end
    | Some (SBfsMut it path top g n) =>
      match (visit_of <$> bfs_mut_order it path top) !! n with
      | Some y => Some (KVisit (Some y), upd i (SBfsMut it path top g (S n)))
      | None => Some (KVisit None, σ)
      end
    | _ => bad
    end
  | KTake i x =>
    if decide (ks_env σ !! x = None /\ ks_benv σ !! x = None) then
      match ks_cur σ !! i with
      | Some (SInto []) => Some (KGot false, σ)
      | Some (SInto (t :: ts)) => Some (KGot true, KS (<[x := ITree t]> (ks_env σ)) (ks_benv σ) (<[i := SInto ts]> (ks_cur σ)) (ks_log σ))
      | _ => bad
      end
    else bad
  | KHint i =>
    match ks_cur σ !! i with
    | Some (SIter _ ts) | Some (SInto ts) | Some (SMut _ _ _ ts) => Some (KNat (length ts), σ)
    | _ => bad
    end
  | KWalkOp i o =>
    match ks_cur σ !! i with
    | Some (SWalk it cu) =>
      match c_step (tops it) cu o with Some (r, cu') => Some (KWalked (show_walk r), upd i (SWalk it cu')) | None => None end
    | _ => bad
    end
  | KBack i x =>
    if decide (ks_env σ !! x = None /\ ks_benv σ !! x = None) then
      match ks_cur σ !! i with
      | Some (SMut it path gs ts) => Some (KUnit, KS (<[x := mut_item it path gs ts]> (ks_env σ)) (ks_benv σ) (delete i (ks_cur σ)) (ks_log σ))
      | Some (SBfsMut it path top g n) => Some (KUnit, KS (<[x := bfs_mut_item it path top g]> (ks_env σ)) (ks_benv σ) (delete i (ks_cur σ)) (ks_log σ))
      | Some (SWalk it cu) => Some (KUnit, KS (<[x := it]> (ks_env σ)) (ks_benv σ) (delete i (ks_cur σ)) (ks_log σ))
      | _ => bad
      end
    else bad
  | KClose i =>
    let drops l := Some (KUnit, KS (ks_env σ) (ks_benv σ) (delete i (ks_cur σ)) (ks_log σ ++ l)) in
    match ks_cur σ !! i with
    | Some (SIter h _) | Some (SBfs h _) => Some (KUnit, release σ i h)
    | Some (SInto ts) => drops (postorder_f ts)
    | Some (SIntoBfs it n) => drops (postorder_f (bfs_rest n (trees_of it)))
    | Some (SWalk it _) => drops (item_post it)
    | Some (SMut it path gs ts) => drops (item_post (mut_item it path gs ts))
    | Some (SBfsMut it path top g n) => drops (item_post (bfs_mut_item it path top g))
    | None => bad
    end
  end.
Fixpoint ksrun (σ : kss) (os : list kop) : option (list kout * kss) :=
  match os with
  | [] => Some ([], σ)
  | o :: os' =>
    match ksstep σ o with
    | Some (r, σ') => match ksrun σ' os' with Some (rs, σ'') => Some (r :: rs, σ'') | None => None end
    | None => None
    end
  end.
End spec.
Arguments scur : clear implicits.
Arguments rop : clear implicits.
Arguments kop : clear implicits.
Arguments kout : clear implicits.
Arguments kss : clear implicits.

(** ** for the statements *)
(** what an iterator has still to give *)
Definition rest {A} (c : scur A) : list (A * nat * nat) :=
  match c with
  | SIter _ ts => visit_of <$> ts
  | SBfs _ ys => ys
  | SIntoBfs it n => drop n (visit_of <$> item_level_order it)
  | SBfsMut it path top _ n => drop n (visit_of <$> bfs_mut_order it path top)
  | _ => []
  end.
Definition is_next {A H} (i : nat) (o : kop A H) : bool := match o with KNext j => bool_decide (i = j) | _ => false end.
(** the number of calls [i.next()] *)
Fixpoint asked {A H} (i : nat) (os : list (kop A H)) : nat :=
  match os with o :: os' => if is_next i o then S (asked i os') else asked i os' | [] => 0 end.
(** what the calls [i.next()] in [os] returned, [rs] being what all calls returned *)
Fixpoint nexts {A H} (i : nat) (os : list (kop A H)) (rs : list (kout A)) : list (kout A) :=
  match os, rs with
  | o :: os', r :: rs' => if is_next i o then r :: nexts i os' rs' else nexts i os' rs'
  | _, _ => []
  end.
(** the first [n] results of an iterator: the items, and [None] ever after *)
Definition served {A} (n : nat) (l : list (A * nat * nat)) : list (kout A) := take n ((fun y => KVisit (Some y)) <$> l) ++ replicate (n - length l) (KVisit None).
(** the calls that make an iterator *)
Definition opens {A H} (o : kop A H) (i h : nat) (it : item A) (l : list (A * nat * nat)) : Prop :=
  match o with
  | KIter j h' path => j = i /\ h' = h /\ exists ts, kids_at it path = Some ts /\ l = visit_of <$> ts
  | KBfs j h' path => j = i /\ h' = h /\ exists t, node_at it path = Some t /\ l = visit_of <$> level_order t
  | KBfsKids j h' path => j = i /\ h' = h /\ exists ts, kids_at it path = Some ts /\ l = visit_of <$> level_order_f ts
  | KIntoBfs j h' => j = i /\ h' = h /\ l = visit_of <$> item_level_order it
  | _ => False
  end.
(** the walk [i] is dropped or given back *)
Definition ends {A H} (i : nat) (o : kop A H) : bool := match o with KClose j | KBack j _ => bool_decide (i = j) | _ => false end.
(** the calls on the walk [i], and what they returned *)
Definition walk_op {A H} (i : nat) (o : kop A H) : option wop := match o with KWalkOp j w => if bool_decide (i = j) then Some w else None | _ => None end.
Fixpoint walk_ops {A H} (i : nat) (os : list (kop A H)) : list wop :=
  match os with o :: os' => match walk_op i o with Some w => w :: walk_ops i os' | None => walk_ops i os' end | [] => [] end.
Fixpoint walked {A H} (i : nat) (os : list (kop A H)) (rs : list (kout A)) : list (kout A) :=
  match os, rs with
  | o :: os', r :: rs' => match walk_op i o with Some _ => r :: walked i os' rs' | None => walked i os' rs' end
  | _, _ => []
  end.
(** the calls [i.next()] of [iter_mut], what they returned, and the calls on the references they gave *)
Definition is_yield {A H} (i : nat) (o : kop A H) : bool := match o with KYield j => bool_decide (i = j) | _ => false end.
Definition is_ref {A H} (i : nat) (o : kop A H) : bool := match o with KRef j _ _ => bool_decide (i = j) | _ => false end.
Fixpoint yielded {A H} (i : nat) (os : list (kop A H)) (rs : list (kout A)) : list (kout A) :=
  match os, rs with
  | o :: os', r :: rs' => if is_yield i o then r :: yielded i os' rs' else yielded i os' rs'
  | _, _ => []
  end.
(** the calls that make a [bfs_mut]; what was done to the data of visit [m], in order: the calls that returned the data *)
Definition opens_mut {A H} (o : kop A H) (i h : nat) (path : list nat) (top : bool) : Prop := o = if top then KBfsMut i h path else KBfsKidsMut i h path.
Definition data_op {A H} (i m : nat) (o : kop A H) (r : kout A) : option (A -> A) :=
  match o, r with KData j k f, KDatum _ => if bool_decide (i = j /\ m = k) then Some f else None | _, _ => None end.
Fixpoint changes {A H} (i m : nat) (os : list (kop A H)) (rs : list (kout A)) : list (A -> A) :=
  match os, rs with
  | o :: os', r :: rs' => match data_op i m o r with Some f => f :: changes i m os' rs' | None => changes i m os' rs' end
  | _, _ => []
  end.
