(** PropCall.v — C64: closures given to the breadth-first constructions (and [T::clone]) that use the library themselves. *)
From stdpp Require Import base gmap list.
From Verif Require Import Spec ClientSpec Machine NodeModel BfsModel ClientModel CallSpec CallModel CallProps.

(** Every client program, whatever its closures do to the trees that are not borrowed and however deep the constructions are nested: the result,
    the contents of all variables and the values dropped are those of CallSpec.v; a program that panics there panics, no other failure (use of freed
    memory, reference-count misuse, an exhausted loop bound) occurs *)
Theorem C64_program {A H X : Type} (p : prog A H X) :
  match sprog [] ∅ sst0 p with
  | Some (x, σ) => exists c, run_prog p = Done x c /\ contents c (s_env σ) /\ m_log (c_mem c) = s_log σ
  | None => run_prog p = Fails EPanic
  end.
Proof. exact (prog_refines p). Qed.
Print Assumptions C64_program.

(** the memory afterwards: the nodes of the variables, and slots of buffers in which such a node lives; nothing when there are no variables *)
Theorem C64_memory {A H X : Type} (p : prog A H X) (x : X) (c : cst A) : run_prog p = Done x c ->
  (forall q, live c q -> is_Some (m_heap (c_mem c) !! q)) /\
  (forall q, is_Some (m_heap (c_mem c) !! q) ->
     live c q \/ exists cap rc q', m_vec (c_mem c) !! q.1 = Some (cap, rc) /\ q.2 < cap /\ live c q' /\ q'.1 = q.1) /\
  (forall v, is_Some (m_vec (c_mem c) !! v) -> exists q, live c q /\ q.1 = v) /\
  (c_env c = ∅ -> m_heap (c_mem c) = ∅ /\ m_cnt (c_mem c) = ∅ /\ m_vec (c_mem c) = ∅).
Proof. exact (prog_memory p x c). Qed.
Print Assumptions C64_memory.

(** the tree built has the shape of the source; its data in level order are the values the closure returned, in the order of the calls *)
Theorem C64_built {A H : Type} (call : H -> A -> sst A -> option (A * H * sst A)) (st st' : H) (σ σ' : sst A) (it : item A) (l : list A) :
  calls call st (root_of <$> item_level_order it) σ = Some (l, st', σ') ->
  root_of <$> item_level_order (relabel l it) = l /\
  (fun t => (length (kids t), nodes_f (kids t))) <$> item_level_order (relabel l it) = (fun t => (length (kids t), nodes_f (kids t))) <$> item_level_order it.
Proof. exact (fun Hc => relabel_law l it (eq_trans (calls_length call _ st σ l st' σ' Hc) (fmap_length _ _))). Qed.
Print Assumptions C64_built.

(** closures that do not use the library: the operations of ClientSpec.v *)
Theorem C64_pure {A : Type} (src : source) (x : nat) (f : list A -> A -> A) (σ : sst A) :
  sprog [] ∅ σ (PMap src x [] (fun hist a => PRet (f hist a, hist ++ [a])) (fun _ => PRet tt)) =
  match sstep σ (match src with SNode h path => OMapBfs h path x f | SKids h path => OMapBfsChildren h path x f | SInto h => OMapInto h x f end) with
  | Some (_, σ') => Some (tt, σ')
  | None => None
  end.
Proof. exact (pure_closures src x f σ). Qed.
Print Assumptions C64_pure.

(** ** Examples.  Variable 0: 0( 1 2( 3 ) ); variable 1: an empty forest.
    [Tree::from(t.bfs().map(|a| { forest.push_back(tr(a)); let c = deep_clone of t; n = c.node_count() + forest.degree(); drop(c); a + 10 * n }))] *)
Definition setup {X} (k : prog nat nat X) : prog nat nat X :=
  PDo (ONewTree 0 0) (fun _ => PDo (ONewTree 2 1) (fun _ => PDo (OPush Back 0 [] 2) (fun _ =>
  PDo (ONewTree 2 2) (fun _ => PDo (ONewTree 3 3) (fun _ => PDo (OPush Back 2 [] 3) (fun _ => PDo (OPush Back 0 [] 2) (fun _ =>
  PDo (ONewForest 1) (fun _ => k)))))))).
Definition num (r : out nat) : nat := match r with RNat n => n | _ => 100 end.
Definition busy (st a : nat) : prog nat nat (nat * nat) :=
  PDo (ONewTree 5 a) (fun _ => PDo (OPush Back 1 [] 5) (fun _ =>
  PMap (SNode 0 []) 6 0 (fun m b => PRet (b, S m)) (fun o =>
  PDo (ODegree 1 []) (fun r => PDo (ODrop 6) (fun _ => PRet (a + 10 * (num r + default 0 o), st + a)))))).
Definition demo_prog : prog nat nat (option nat * list (out nat)) :=
  setup (PMap (SNode 0 []) 7 100 busy (fun o =>
    PDo (OBfs 7 []) (fun r1 => PDo (OBfs 0 []) (fun r2 => PDo (OBfsChildren 1 []) (fun r3 => PRet (o, [r1; r2; r3])))))).
Example C64_ex : match run_prog demo_prog with Done x c => Some (x, length (m_log (c_mem c))) | _ => None end =
  Some ((Some 106, [RVisits [(50, 2, 3); (61, 0, 0); (72, 1, 1); (83, 0, 0)]; RVisits [(0, 2, 3); (1, 0, 0); (2, 1, 1); (3, 0, 0)];
                    RVisits [(0, 0, 0); (1, 0, 0); (2, 0, 0); (3, 0, 0)]]), 16).
Proof. vm_compute. reflexivity. Qed.
(** the borrowed tree cannot be changed in the closure, the tree being built cannot be named *)
Definition demo_prog2 : prog nat nat (list (out nat)) :=
  setup (PMap (SKids 0 []) 7 0 (fun st a =>
      PDo (OPop Front 0 [] 9) (fun r1 => PDo (ODegree 7 []) (fun r2 => PRet ((match r1, r2 with RBad, RBad => a | _, _ => 50 end), st))))
    (fun _ => PDo (OBfsChildren 7 []) (fun r => PRet [r]))).
Example C64_ex_borrow : match run_prog demo_prog2 with Done x c => Some x | _ => None end = Some [RVisits [(1, 0, 0); (2, 1, 1); (3, 0, 0)]].
Proof. vm_compute. reflexivity. Qed.
(** the source is consumed while the closure appends to the tree in variable 2; dropping everything at the end leaves nothing *)
Definition demo_prog3 : prog nat nat (list (out nat)) :=
  setup (PDo (ONewTree 2 8) (fun _ => PMap (SInto 0) 7 0 (fun st a => PDo (ONewTree 5 a) (fun _ => PDo (OPush Front 2 [] 5) (fun _ => PRet (S a, st))))
    (fun _ => PDo (OBfs 7 []) (fun r => PDo (OBfs 2 []) (fun r' => PDo (ODrop 7) (fun _ => PDo (ODrop 1) (fun _ => PDo (ODrop 2) (fun _ => PRet [r; r'])))))))).
Example C64_ex_into : match run_prog demo_prog3 with Done x c => Some (x, m_log (c_mem c), map_to_list (c_env c), length (map_to_list (m_heap (c_mem c)))) | _ => None end =
  Some ([RVisits [(1, 2, 3); (2, 0, 0); (3, 1, 1); (4, 0, 0)]; RVisits [(8, 4, 4); (3, 0, 0); (2, 0, 0); (1, 0, 0); (0, 0, 0)]],
        [2; 4; 3; 1; 3; 2; 1; 0; 8], [], 0).
Proof. vm_compute. reflexivity. Qed.
(** a closure that panics in its second call ([insert_next_sib] on a root) *)
Definition demo_prog4 : prog nat nat nat :=
  setup (PMap (SNode 0 []) 7 0 (fun st a => match st with 0 => PRet (a, 1) | _ => PDo (ONewTree 5 9) (fun _ => PDo (OInsert Back 1 [0] 5) (fun _ => PDo (ONewTree 5 9) (fun _ =>
    PDo (ONewTree 6 9) (fun _ => PDo (OInsert Back 5 [] 6) (fun _ => PRet (a, 1)))))) end) (fun _ => PRet 5)).
Example C64_ex_panic : match run_prog demo_prog4 with Fails e => Some e | _ => None end = Some EPanic.
Proof. vm_compute. reflexivity. Qed.
Example C64_built_ex : calls (fun st a (σ : sst nat) => Some (a + st, st * 2, σ)) 1 (root_of <$> item_level_order (ITree (Tr 0 [Tr 1 []; Tr 2 [Tr 3 []]]))) sst0 = Some ([1; 3; 6; 11], 16, sst0) /\
  relabel [1; 3; 6; 11] (ITree (Tr 0 [Tr 1 []; Tr 2 [Tr 3 []]])) = ITree (Tr 1 [Tr 3 []; Tr 6 [Tr 11 []]]).
Proof. split; reflexivity. Qed.
