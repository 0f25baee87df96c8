(** PropClient.v — property theorems about the exclusive-ownership API (Tree/Forest/Node).
    Vocabulary: [step c o] runs one API call of the modelled code in the client state [c] (ClientModel.v);
    [contents c env]: reading back every variable of [c] with data()/iter() gives [env];
    [reachable c]: some finite history of calls from the empty state ends in [c];
    [sstep]/[srun]: the same calls on immutable rose trees (ClientSpec.v). *)
From stdpp Require Import base gmap list.
From Verif Require Import Spec ClientSpec Machine NodeModel ClientModel ClientRead ClientProps SizeModel SizeProofs Demo.

Theorem C01_refines_rose_trees {A : Type} (os : list (op A)) :
  match srun sst0 os with
  | Some (rs, σ) => exists c, run cst0 os = Done rs c /\ contents c (s_env σ) /\ m_log (c_mem c) = s_log σ
  | None => run cst0 os = Fails EPanic
  end.
Proof. exact (refinement os). Qed.
Print Assumptions C01_refines_rose_trees.
(** a history that runs through, and one that panics (detaching a root) *)
Example C01_ex : is_Some (srun sst0 demo_ops) /\ srun sst0 (demo_ops ++ [ODetach 0 [] 3]) = None /\
  run cst0 (demo_ops ++ [ODetach 0 [] 3]) = Fails EPanic.
Proof. vm_compute. split; [eauto|]. auto. Qed.

Theorem C01_step_refines_rose_trees {A : Type} (c : cst A) (env : gmap nat (item A)) (o : op A) : reachable c -> contents c env ->
  match sstep (SSt env (m_log (c_mem c))) o with
  | Some (r, σ') => exists c', step c o = Done r c' /\ contents c' (s_env σ') /\ m_log (c_mem c') = s_log σ' /\ reachable c'
  | None => step c o = Fails EPanic
  end.
Proof. exact (step_from c env o). Qed.
Print Assumptions C01_step_refines_rose_trees.
Example C01_step_ex : reachable demo_c /\ contents demo_c demo_env /\ 
  match step demo_c (OParent 0 [0; 1]) with Done r _ => r = ROpt (Some 1) | Fails _ => False end.
Proof. split; [exact (proj1 demo_ok)|]. split; [exact (proj2 demo_ok)|]. vm_compute. auto 10. Qed.

Theorem C02_counts_exact {A : Type} (c : cst A) (env : gmap nat (item A)) (h : nat) (hd : handle) (path : list nat) (p : ptr) (it : item A) (ts : list (tree A)) :
  reachable c -> contents c env -> env !! h = Some it -> c_env c !! h = Some hd ->
  resolve (addr hd) path (c_mem c) = Ok (Some p) (c_mem c) -> kids_at it path = Some ts ->
  node_count p (c_mem c) = Ok (match node_at it path with Some t => nodes t | None => nodes_f ts end) (c_mem c) /\
  degree p (c_mem c) = Ok (length ts) (c_mem c).
Proof. exact (count_prop c env h hd path p it ts). Qed.
Print Assumptions C02_counts_exact.
Example C02_ex : reachable demo_c /\ contents demo_c demo_env /\ demo_env !! 0 = Some (ITree demo_tree) /\
  kids_at (ITree demo_tree) [0] = Some [Tr 2 []; Tr 3 []] /\
  match step demo_c (OCount 0 [0]) with Done r _ => r = RNat 3 | Fails _ => False end.
Proof. split; [exact (proj1 demo_ok)|]. split; [exact (proj2 demo_ok)|]. vm_compute. auto. Qed.

Theorem C03_observers_agree {A : Type} (c : cst A) (h : nat) (hd : handle) (path : list nat) (p : ptr) :
  reachable c -> c_env c !! h = Some hd -> resolve (addr hd) path (c_mem c) = Ok (Some p) (c_mem c) ->
  exists cs, children p (c_mem c) = Ok cs (c_mem c) /\
    degree p (c_mem c) = Ok (length cs) (c_mem c) /\
    has_no_child p (c_mem c) = Ok (bool_decide (cs = [])) (c_mem c) /\
    front p (c_mem c) = Ok (head cs) (c_mem c) /\
    back p (c_mem c) = Ok (last cs) (c_mem c) /\
    (forall i, resolve (addr hd) (path ++ [i]) (c_mem c) = Ok (cs !! i) (c_mem c)) /\
    (forall i q, cs !! i = Some q ->
       parent q (c_mem c) = Ok (if is_forest_root hd path then None else Some p) (c_mem c)).
Proof. exact (observers_agree c h hd path p). Qed.
Print Assumptions C03_observers_agree.
Example C03_ex : reachable demo_c /\ contents demo_c demo_env /\ 
  match c_env demo_c !! 0 with
  | Some hd => match resolve (addr hd) [0] (c_mem demo_c) with
    | Ok (Some p) _ => match children p (c_mem demo_c) with Ok cs _ => length cs = 2 | _ => False end | _ => False end
  | None => False end /\
  match c_env demo_c !! 2 with
  | Some hd => match resolve (addr hd) [] (c_mem demo_c) with
    | Ok (Some p) _ => is_forest_root hd [] = true /\ match children p (c_mem demo_c) with Ok cs _ => length cs = 2 | _ => False end | _ => False end
  | None => False end.
Proof. split; [exact (proj1 demo_ok)|]. split; [exact (proj2 demo_ok)|]. vm_compute. auto 10. Qed.

Theorem C04_root_has_no_parent {A : Type} (c : cst A) (h : nat) (hd : handle) : reachable c -> c_env c !! h = Some hd -> parent (addr hd) (c_mem c) = Ok None (c_mem c).
Proof. exact (root_parent c h hd). Qed.
Print Assumptions C04_root_has_no_parent.
Example C04_ex : reachable demo_c /\ contents demo_c demo_env /\ is_Some (c_env demo_c !! 0) /\ is_Some (c_env demo_c !! 2) /\
  match step demo_c (OParent 2 [0]) with Done r _ => r = ROpt None | Fails _ => False end /\
  match step demo_c (OParent 2 [0; 0]) with Done r _ => r = ROpt (Some 7) | Fails _ => False end.
Proof. split; [exact (proj1 demo_ok)|]. split; [exact (proj2 demo_ok)|]. vm_compute. eauto 10. Qed.

Theorem C05_push {A : Type} (c : cst A) (env : gmap nat (item A)) (e : side) (h : nat) (path : list nat) (y : nat) (it : item A) (ts : list (tree A)) (t : tree A) :
  reachable c -> contents c env -> env !! h = Some it -> kids_at it path = Some ts -> env !! y = Some (ITree t) -> h <> y ->
  exists c', step c (OPush e h path y) = Done RUnit c' /\ reachable c' /\ m_log (c_mem c') = m_log (c_mem c) /\
    contents c' (<[h := set_kids it path (match e with Front => t :: ts | Back => ts ++ [t] end)]> (delete y env)).
Proof. exact (push_prop c env e h path y it ts t). Qed.
Print Assumptions C05_push.
Example C05_ex : reachable demo_c /\ contents demo_c demo_env /\ demo_env !! 0 = Some (ITree demo_tree) /\
  kids_at (ITree demo_tree) [0] = Some [Tr 2 []; Tr 3 []] /\ demo_env !! 1 = Some (ITree (Tr 9 [])) /\ demo_env !! 3 = None.
Proof. split; [exact (proj1 demo_ok)|]. split; [exact (proj2 demo_ok)|]. vm_compute. auto. Qed.

Theorem C05_pop {A : Type} (c : cst A) (env : gmap nat (item A)) (e : side) (h : nat) (path : list nat) (x : nat) (it : item A) (ts : list (tree A)) :
  reachable c -> contents c env -> env !! h = Some it -> kids_at it path = Some ts -> env !! x = None ->
  match (match e with Front => head ts | Back => last ts end) with
  | None => exists c', step c (OPop e h path x) = Done (RBool false) c' /\ contents c' env /\ reachable c' /\ m_log (c_mem c') = m_log (c_mem c)
  | Some t => exists c', step c (OPop e h path x) = Done (RBool true) c' /\ reachable c' /\ m_log (c_mem c') = m_log (c_mem c) /\
      contents c' (<[x := ITree t]> (<[h := set_kids it path (match e with Front => tail ts | Back => removelast ts end)]> env))
  end.
Proof. exact (pop_prop c env e h path x it ts). Qed.
Print Assumptions C05_pop.
Example C05_pop_ex : reachable demo_c /\ contents demo_c demo_env /\ demo_env !! 0 = Some (ITree demo_tree) /\
  kids_at (ITree demo_tree) [0] = Some [Tr 2 []; Tr 3 []] /\ kids_at (ITree demo_tree) [1] = Some [] /\ demo_env !! 3 = None /\
  match step demo_c (OPop Back 0 [0] 3) with Done r _ => r = RBool true | Fails _ => False end /\
  match step demo_c (OPop Back 0 [1] 3) with Done r _ => r = RBool false | Fails _ => False end.
Proof. split; [exact (proj1 demo_ok)|]. split; [exact (proj2 demo_ok)|]. vm_compute. auto 10. Qed.

Theorem C05_push_pop {A : Type} (c : cst A) (env : gmap nat (item A)) (e : side) (h : nat) (path : list nat) (y : nat) (it : item A) (ts : list (tree A)) (t : tree A) :
  reachable c -> contents c env -> env !! h = Some it -> kids_at it path = Some ts -> env !! y = Some (ITree t) -> h <> y ->
  exists c' c'', step c (OPush e h path y) = Done RUnit c' /\ step c' (OPop e h path y) = Done (RBool true) c'' /\
    reachable c'' /\ contents c'' env /\ m_log (c_mem c'') = m_log (c_mem c).
Proof. exact (push_pop_prop c env e h path y it ts t). Qed.
Print Assumptions C05_push_pop.
Example C05_push_pop_ex : reachable demo_c /\ contents demo_c demo_env /\ demo_env !! 0 = Some (ITree demo_tree) /\
  kids_at (ITree demo_tree) [0] = Some [Tr 2 []; Tr 3 []] /\ demo_env !! 1 = Some (ITree (Tr 9 [])).
Proof. split; [exact (proj1 demo_ok)|]. split; [exact (proj2 demo_ok)|]. vm_compute. auto 10. Qed.

Theorem C06_concat {A : Type} (c : cst A) (env : gmap nat (item A)) (e : side) (h : nat) (path : list nat) (y : nat) (it : item A) (ts : list (tree A)) (fs : list (tree A)) :
  reachable c -> contents c env -> env !! h = Some it -> kids_at it path = Some ts -> env !! y = Some (IForest fs) -> h <> y ->
  exists c', step c (OConcat e h path y) = Done RUnit c' /\ reachable c' /\ m_log (c_mem c') = m_log (c_mem c) /\
    contents c' (<[h := set_kids it path (match e with Front => fs ++ ts | Back => ts ++ fs end)]> (delete y env)).
Proof. exact (concat_prop c env e h path y it ts fs). Qed.
Print Assumptions C06_concat.
Example C06_ex : reachable demo_c /\ contents demo_c demo_env /\ demo_env !! 0 = Some (ITree demo_tree) /\
  kids_at (ITree demo_tree) [0] = Some [Tr 2 []; Tr 3 []] /\ demo_env !! 2 = Some (IForest demo_forest).
Proof. split; [exact (proj1 demo_ok)|]. split; [exact (proj2 demo_ok)|]. vm_compute. auto. Qed.

Theorem C06_concat_counts {A : Type} (c : cst A) (env : gmap nat (item A)) (e : side) (h : nat) (path : list nat) (path' : list nat) (y : nat) (it : item A) (ts : list (tree A)) (fs : list (tree A)) (n : nat) (c0 : cst A) :
  reachable c -> contents c env -> env !! h = Some it -> kids_at it (path ++ path') = Some ts -> env !! y = Some (IForest fs) -> h <> y ->
  step c (OCount h path) = Done (RNat n) c0 ->
  exists c' c'', step c (OConcat e h (path ++ path') y) = Done RUnit c' /\ step c' (OCount h path) = Done (RNat (n + nodes_f fs)) c''.
Proof. exact (concat_count c env e h path path' y it ts fs n c0). Qed.
Print Assumptions C06_concat_counts.
Example C06_counts_ex : reachable demo_c /\ contents demo_c demo_env /\ demo_env !! 0 = Some (ITree demo_tree) /\
  kids_at (ITree demo_tree) ([] ++ [0]) = Some [Tr 2 []; Tr 3 []] /\ demo_env !! 2 = Some (IForest demo_forest) /\
  match step demo_c (OCount 0 []) with Done r _ => r = RNat 5 | Fails _ => False end /\ nodes_f demo_forest = 3.
Proof. split; [exact (proj1 demo_ok)|]. split; [exact (proj2 demo_ok)|]. vm_compute. auto 10. Qed.

Theorem C07_insert {A : Type} (c : cst A) (env : gmap nat (item A)) (e : side) (h : nat) (path : list nat) (i : nat) (y : nat) (it : item A) (L : list (tree A)) (u : tree A) (R : list (tree A)) (t : tree A) :
  reachable c -> contents c env -> env !! h = Some it -> kids_at it path = Some (L ++ u :: R) -> i = length L ->
  env !! y = Some (ITree t) -> h <> y ->
  exists c', step c (OInsert e h (path ++ [i]) y) = Done RUnit c' /\ reachable c' /\ m_log (c_mem c') = m_log (c_mem c) /\
    contents c' (<[h := set_kids it path (match e with Front => L ++ t :: u :: R | Back => L ++ u :: t :: R end)]> (delete y env)).
Proof. exact (insert_prop c env e h path i y it L u R t). Qed.
Print Assumptions C07_insert.
Example C07_ex : reachable demo_c /\ contents demo_c demo_env /\ demo_env !! 0 = Some (ITree demo_tree) /\
  kids_at (ITree demo_tree) [0] = Some ([Tr 2 []] ++ Tr 3 [] :: []) /\ demo_env !! 1 = Some (ITree (Tr 9 [])) /\ demo_env !! 3 = None.
Proof. split; [exact (proj1 demo_ok)|]. split; [exact (proj2 demo_ok)|]. vm_compute. auto. Qed.

Theorem C07_insert_at_root_panics {A : Type} (c : cst A) (env : gmap nat (item A)) (e : side) (h : nat) (y : nat) (u : tree A) (t : tree A) :
  reachable c -> contents c env -> env !! h = Some (ITree u) -> env !! y = Some (ITree t) -> h <> y ->
  step c (OInsert e h [] y) = Fails EPanic.
Proof. exact (insert_root_prop c env e h y u t). Qed.
Print Assumptions C07_insert_at_root_panics.
Example C07_root_ex : reachable demo_c /\ contents demo_c demo_env /\ demo_env !! 0 = Some (ITree demo_tree) /\ demo_env !! 1 = Some (ITree (Tr 9 [])).
Proof. split; [exact (proj1 demo_ok)|]. split; [exact (proj2 demo_ok)|]. vm_compute. auto 10. Qed.

Theorem C08_detach {A : Type} (c : cst A) (env : gmap nat (item A)) (h : nat) (path : list nat) (i : nat) (x : nat) (it : item A) (L : list (tree A)) (u : tree A) (R : list (tree A)) :
  reachable c -> contents c env -> env !! h = Some it -> kids_at it path = Some (L ++ u :: R) -> i = length L -> env !! x = None ->
  exists c', step c (ODetach h (path ++ [i]) x) = Done RUnit c' /\ reachable c' /\ m_log (c_mem c') = m_log (c_mem c) /\
    contents c' (<[x := ITree u]> (<[h := set_kids it path (L ++ R)]> env)).
Proof. exact (detach_prop c env h path i x it L u R). Qed.
Print Assumptions C08_detach.
Example C08_ex : reachable demo_c /\ contents demo_c demo_env /\ demo_env !! 0 = Some (ITree demo_tree) /\ demo_env !! 3 = None /\
  kids_at (ITree demo_tree) [] = Some ([] ++ Tr 1 [Tr 2 []; Tr 3 []] :: [Tr 4 []]) /\
  match step demo_c (ODetach 0 ([] ++ [0]) 3) with Done r _ => r = RUnit | Fails _ => False end.
Proof. split; [exact (proj1 demo_ok)|]. split; [exact (proj2 demo_ok)|]. vm_compute. auto 10. Qed.

Theorem C08_detach_root_panics {A : Type} (c : cst A) (env : gmap nat (item A)) (h : nat) (x : nat) (u : tree A) :
  reachable c -> contents c env -> env !! h = Some (ITree u) -> env !! x = None ->
  step c (ODetach h [] x) = Fails EPanic.
Proof. exact (detach_root_prop c env h x u). Qed.
Print Assumptions C08_detach_root_panics.
Example C08_root_ex : reachable demo_c /\ contents demo_c demo_env /\ demo_env !! 0 = Some (ITree demo_tree) /\ demo_env !! 3 = None.
Proof. split; [exact (proj1 demo_ok)|]. split; [exact (proj2 demo_ok)|]. vm_compute. auto 10. Qed.

Theorem C09_abandon {A : Type} (c : cst A) (env : gmap nat (item A)) (h : nat) (x : nat) (a : A) (ts : list (tree A)) :
  reachable c -> contents c env -> env !! h = Some (ITree (Tr a ts)) -> env !! x = None ->
  exists c', step c (OAbandon h x) = Done RUnit c' /\ reachable c' /\ m_log (c_mem c') = m_log (c_mem c) /\
    contents c' (<[x := IForest ts]> (<[h := ITree (Tr a [])]> env)).
Proof. exact (abandon_prop c env h x a ts). Qed.
Print Assumptions C09_abandon.
Example C09_ex : reachable demo_c /\ contents demo_c demo_env /\ demo_env !! 0 = Some (ITree (Tr 0 [Tr 1 [Tr 2 []; Tr 3 []]; Tr 4 []])) /\ demo_env !! 3 = None.
Proof. split; [exact (proj1 demo_ok)|]. split; [exact (proj2 demo_ok)|]. vm_compute. auto 10. Qed.

Theorem C11_memory_safe {A : Type} (os : list (op A)) : match run (A:=A) cst0 os with Done _ _ => True | Fails e => e = EPanic /\ srun sst0 os = None end.
Proof. exact (safe_prop os). Qed.
Print Assumptions C11_memory_safe.
Example C11_ex : match run cst0 demo_ops with Done _ _ => True | Fails _ => False end.
Proof. vm_compute. exact I. Qed.

Theorem C12_drop {A : Type} (c : cst A) (env : gmap nat (item A)) (h : nat) (it : item A) :
  reachable c -> contents c env -> env !! h = Some it ->
  exists c', step c (ODrop h) = Done RUnit c' /\ reachable c' /\ contents c' (delete h env) /\
    m_log (c_mem c') = m_log (c_mem c) ++ item_post it.
Proof. exact (drop_prop c env h it). Qed.
Print Assumptions C12_drop.
Example C12_drop_ex : reachable demo_c /\ contents demo_c demo_env /\ demo_env !! 0 = Some (ITree demo_tree) /\
  match step demo_c (ODrop 0) with Done _ c => m_log (c_mem c) = [2; 3; 1; 4; 0] | Fails _ => False end.
Proof. split; [exact (proj1 demo_ok)|]. split; [exact (proj2 demo_ok)|]. vm_compute. auto 10. Qed.

Theorem C12_C13_memory_exact {A : Type} (c : cst A) : reachable c ->
  (forall p, live c p -> is_Some (m_heap (c_mem c) !! p)) /\
  (forall p, is_Some (m_heap (c_mem c) !! p) ->
     live c p \/ exists cap rc q, m_vec (c_mem c) !! p.1 = Some (cap, rc) /\ p.2 < cap /\ live c q /\ q.1 = p.1) /\
  (forall v, is_Some (m_vec (c_mem c) !! v) -> exists q, live c q /\ q.1 = v) /\
  (forall p, is_Some (m_heap (c_mem c) !! p) -> m_cnt (c_mem c) !! p = Some 1) /\
  (forall p, is_Some (m_cnt (c_mem c) !! p) -> is_Some (m_heap (c_mem c) !! p) \/ exists q, live c q /\ q.1 = p.1).
Proof. exact (memory_exact c). Qed.
Print Assumptions C12_C13_memory_exact.
(** variables 5 and 6 share a buffer of 5 slots; dropping 5 keeps it allocated with 3 nodes alive, dropping 6 too releases it *)
Example C13_ex : reachable demo_c /\
  match run demo_c [ODrop 5] with Done _ c => snd <$> map_to_list (m_vec (c_mem c)) = [(5, 3)] | Fails _ => False end /\
  match run demo_c [ODrop 5; ODrop 6] with Done _ c => map_to_list (m_vec (c_mem c)) = [] | Fails _ => False end.
Proof. split; [exact (proj1 demo_ok)|]. vm_compute. auto. Qed.

Theorem C12_nothing_left {A : Type} (c : cst A) : reachable c -> contents c ∅ ->
  m_heap (c_mem c) = ∅ /\ m_cnt (c_mem c) = ∅ /\ m_vec (c_mem c) = ∅.
Proof. exact (nothing_left c). Qed.
Print Assumptions C12_nothing_left.
Example C12_ex : match run cst0 (demo_ops ++ [ODrop 2; ODrop 0; ODrop 1; ODrop 5; ODrop 6]) with
  | Done _ c => m_log (c_mem c) = [8; 7; 6; 2; 3; 1; 4; 0; 9; 4; 0; 2; 3; 1] /\ map_to_list (c_env c) = [] /\ map_to_list (m_heap (c_mem c)) = []
  | Fails _ => False end.
Proof. vm_compute. auto. Qed.

Theorem C40_size_arithmetic :
  (forall a b, sz_degree (size_add a b) = sz_degree a + sz_degree b /\ sz_descendants (size_add a b) = sz_descendants a + sz_descendants b) /\
  (forall a b, size_sub (size_add a b) b = Some a) /\
  (forall a b c, size_add a (size_add b c) = size_add (size_add a b) c) /\
  (forall a b, size_add a b = size_add b a) /\
  (forall a, size_add a size_default = a) /\
  (forall a b, size_add_assign a b = size_add a b) /\
  (forall a b, size_sub_assign a b = size_sub a b) /\
  (forall a b, size_sub a b = None <-> (sz_degree a < sz_degree b \/ sz_descendants a < sz_descendants b)) /\
  (forall a b d, size_sub a b = Some d -> size_add d b = a).
Proof. exact size_laws. Qed.
Print Assumptions C40_size_arithmetic.
Example C40_ex : size_sub (MkSize 2 5) (MkSize 3 1) = None /\ size_sub (MkSize 3 5) (MkSize 2 1) = Some (MkSize 1 4).
Proof. vm_compute. auto. Qed.
