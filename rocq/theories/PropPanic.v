(** PropPanic.v — property theorems about panics that are caught (C50-C53).
    Vocabulary: [prun c ps] runs a history of calls in which foreign code may panic (PanicModel.v); [psrun] says on immutable rose trees what such a history
    does (PanicSpec.v); [preachable c]: such a history ends in [c]; [contents c env]: reading back every variable of [c] gives [env]. *)
From stdpp Require Import base gmap list.
From Verif Require Import Spec ClientSpec Machine NodeModel ClientModel PanicSpec PanicModel PanicProps Demo PanicDemo.

(** whatever panics where: no undefined behaviour, the outcomes, the contents and the values dropped are those of the specification *)
Theorem C50_panic_safety {A : Type} (ps : list (pop A)) :
  exists c, prun cst0 ps = Done (psrun sst0 ps).1 c /\ contents c (s_env (psrun sst0 ps).2) /\ m_log (c_mem c) = s_log (psrun sst0 ps).2.
Proof. exact (prefinement ps). Qed.
Print Assumptions C50_panic_safety.
Example C50_ex : drop 19 (psrun sst0 pdemo_ops).1 = [PPanic; PPanic; PPanic; PPanic] /\ s_log (psrun sst0 pdemo_ops).2 = [2; 3; 4; 9].
Proof. vm_compute. auto. Qed.

(** after any panics the library works as before: every call does to the variables what it does on rose trees *)
Theorem C50_usable_after_panics {A : Type} (c : cst A) (env : gmap nat (item A)) (o : op A) : preachable c -> contents c env ->
  match sstep (SSt env (m_log (c_mem c))) o with
  | Some (r, σ') => exists c', step c o = Done r c' /\ pstep c (POp o) = Done (PRet r) c' /\ contents c' (s_env σ') /\ m_log (c_mem c') = s_log σ' /\ preachable c'
  | None => step c o = Fails EPanic
  end.
Proof. exact (pstep_usable c env o). Qed.
Print Assumptions C50_usable_after_panics.
Example C50_usable_ex : preachable pdemo_c /\ contents pdemo_c pdemo_env /\
  match run pdemo_c [OIter 0 [0]; OClone 0 [] 5; ODrop 0; OBfs 5 []] with
  | Done rs c => rs = [RVals [2; 3]; RUnit; RUnit; RVisits [(0, 2, 4); (1, 2, 2); (4, 0, 0); (2, 0, 0); (3, 0, 0)]] | Fails _ => False end.
Proof. split; [exact (proj1 pdemo_ok)|]. split; [exact (proj2 pdemo_ok)|]. vm_compute. auto. Qed.

(** a [clone], or a [map] over the visits of a borrowed node, or [detach] that panics changes nothing: same variables, same contents, no value dropped, every node
    still at its address and as it was *)
Theorem C51_borrowing_panic_changes_nothing {A : Type} (c : cst A) (o : pop A) (c' : cst A) : preachable c ->
  match o with PMapBfs _ _ _ _ | PMapBfsChildren _ _ _ _ | POp (ODetach _ _ _) => True | _ => False end -> pstep c o = Done PPanic c' ->
  c_env c' = c_env c /\ (forall env, contents c env -> contents c' env) /\ m_log (c_mem c') = m_log (c_mem c) /\
  forall h hd path, c_env c !! h = Some hd -> exists q, resolve (addr hd) path (c_mem c) = Ok q (c_mem c) /\ resolve (addr hd) path (c_mem c') = Ok q (c_mem c') /\
    forall p, q = Some p -> m_heap (c_mem c') !! p = m_heap (c_mem c) !! p.
Proof. exact (borrow_panic_prop c o c'). Qed.
Print Assumptions C51_borrowing_panic_changes_nothing.
Example C51_ex : preachable pdemo_c /\
  match pstep pdemo_c (PMapBfs 0 [] 3 (fussy 3)) with Done r _ => r = PPanic | _ => False end /\
  match pstep pdemo_c (PMapBfsChildren 2 [] 3 (fussy 8)) with Done r _ => r = PPanic | _ => False end /\
  match pstep pdemo_c (POp (ODetach 0 [] 3)) with Done r _ => r = PPanic | _ => False end.
Proof. split; [exact (proj1 pdemo_ok)|]. vm_compute. auto. Qed.

(** exactly when such a [map] panics: when the closure does for one of the visits; otherwise the new variable is as C49 says *)
Theorem C51_map_panics_iff {A : Type} (c : cst A) (env : gmap nat (item A)) (h : nat) (path : list nat) (x : nat) (f : list A -> A -> option A) (it : item A) (t : tree A) :
  preachable c -> contents c env -> env !! h = Some it -> node_at it path = Some t -> env !! x = None ->
  match panics_at f [] (root_of <$> level_order t) with
  | Some _ => exists c', pstep c (PMapBfs h path x f) = Done PPanic c' /\ contents c' env /\ m_log (c_mem c') = m_log (c_mem c)
  | None => exists c', pstep c (PMapBfs h path x f) = Done (PRet RUnit) c' /\ contents c' (<[x := ITree (bfs_fmap (calm f) t)]> env) /\ m_log (c_mem c') = m_log (c_mem c)
  end.
Proof. exact (map_panics_iff c env h path x f it t). Qed.
Print Assumptions C51_map_panics_iff.
Example C51_iff_ex : preachable pdemo_c /\ contents pdemo_c pdemo_env /\ pdemo_env !! 0 = Some (ITree demo_tree) /\ pdemo_env !! 3 = None /\
  panics_at (fussy 3) [] (root_of <$> level_order demo_tree) = Some 4 /\ panics_at (fussy 7) [] (root_of <$> level_order demo_tree) = None.
Proof. split; [exact (proj1 pdemo_ok)|]. split; [exact (proj2 pdemo_ok)|]. vm_compute. auto 10. Qed.

(** [insert_prev_sib]/[insert_next_sib] on a root panics: the argument is dropped, nothing else happens *)
Theorem C51_insert_at_root_panics {A : Type} (c : cst A) (env : gmap nat (item A)) (e : side) (h y : nat) (t u : tree A) :
  preachable c -> contents c env -> h <> y -> env !! h = Some (ITree t) -> env !! y = Some (ITree u) ->
  exists c', pstep c (POp (OInsert e h [] y)) = Done PPanic c' /\ preachable c' /\ contents c' (delete y env) /\
    m_log (c_mem c') = m_log (c_mem c) ++ postorder u.
Proof. exact (insert_root_prop c env e h y t u). Qed.
Print Assumptions C51_insert_at_root_panics.
Example C51_insert_ex : reachable demo_c /\ contents demo_c demo_env /\ demo_env !! 1 = Some (ITree (Tr 9 [])) /\ demo_env !! 0 = Some (ITree demo_tree) /\
  match pstep demo_c (POp (OInsert Front 1 [] 0)) with Done r c => r = PPanic /\ m_log (c_mem c) = [2; 3; 1; 4; 0] | Fails _ => False end.
Proof. split; [exact (proj1 demo_ok)|]. split; [exact (proj2 demo_ok)|]. vm_compute. auto. Qed.

(** a closure that panics in [Tree::from(tree.into_bfs().map(f))]: the values it was not asked about before are dropped, each exactly once *)
Theorem C52_owned_map_panic {A : Type} (c : cst A) (env : gmap nat (item A)) (h x : nat) (f : list A -> A -> option A) (it : item A) (k : nat) :
  preachable c -> contents c env -> env !! h = Some it -> env !! x = None -> panics_at f [] (root_of <$> item_level_order it) = Some k ->
  exists c' gone, pstep c (PMapInto h x f) = Done PPanic c' /\ preachable c' /\ contents c' (delete h env) /\
    m_log (c_mem c') = m_log (c_mem c) ++ gone /\ take k (root_of <$> item_level_order it) ++ gone ≡ₚ item_post it.
Proof. exact (map_into_panic_prop c env h x f it k). Qed.
Print Assumptions C52_owned_map_panic.
Example C52_ex : preachable pdemo_c /\ contents pdemo_c pdemo_env /\ pdemo_env !! 0 = Some (ITree demo_tree) /\ pdemo_env !! 3 = None /\
  panics_at (fussy 4) [] (root_of <$> item_level_order (ITree demo_tree)) = Some 2 /\
  match pstep pdemo_c (PMapInto 0 3 (fussy 4)) with Done _ c => drop 4 (m_log (c_mem c)) = [4; 2; 3] | _ => False end.
Proof. split; [exact (proj1 pdemo_ok)|]. split; [exact (proj2 pdemo_ok)|]. vm_compute. auto 10. Qed.

(** a [T::drop] that panics when it is called the k+1st time ends the drop of its tree: the values up to that one are dropped, in the usual order, the others never;
    all other variables keep their contents *)
Theorem C52_drop_panic {A : Type} (c : cst A) (env : gmap nat (item A)) (h k : nat) (it : item A) :
  preachable c -> contents c env -> env !! h = Some it -> k < length (item_post it) ->
  exists c', pstep c (PDrop h k) = Done PPanic c' /\ preachable c' /\ contents c' (delete h env) /\
    m_log (c_mem c') = m_log (c_mem c) ++ take (S k) (item_post it).
Proof. exact (drop_panic_prop c env h k it). Qed.
Print Assumptions C52_drop_panic.
Example C52_drop_ex : preachable pdemo_c /\ contents pdemo_c pdemo_env /\ pdemo_env !! 0 = Some (ITree demo_tree) /\ item_post (ITree demo_tree) = [2; 3; 1; 4; 0] /\
  match pstep pdemo_c (PDrop 0 2) with Done r c => r = PPanic /\ drop 4 (m_log (c_mem c)) = [2; 3; 1] | _ => False end.
Proof. split; [exact (proj1 pdemo_ok)|]. split; [exact (proj2 pdemo_ok)|]. vm_compute. auto 10. Qed.

(** when the owning iterator is dropped instead, only the rest of the tree whose value panics is not dropped; the trees after it are *)
Theorem C52_drop_iter_panic {A : Type} (c : cst A) (env : gmap nat (item A)) (h j : nat) (it : item A) (ts1 ts2 : list (tree A)) (t : tree A) :
  preachable c -> contents c env -> env !! h = Some it -> trees_of it = ts1 ++ t :: ts2 -> j < length (postorder t) ->
  exists c', pstep c (PDropIter h (length (postorder_f ts1) + j)) = Done PPanic c' /\ preachable c' /\ contents c' (delete h env) /\
    m_log (c_mem c') = m_log (c_mem c) ++ postorder_f ts1 ++ take (S j) (postorder t) ++ postorder_f ts2.
Proof. exact (drop_iter_panic_prop c env h j it ts1 ts2 t). Qed.
Print Assumptions C52_drop_iter_panic.
Example C52_drop_iter_ex : preachable pdemo_c /\ contents pdemo_c pdemo_env /\ (exists ts, pdemo_env !! 2 = Some (IForest ts) /\ ts = [Tr 7 [Tr 8 []]] ++ Tr 6 [] :: [] /\ postorder_f [Tr 7 [Tr 8 []]] = [8; 7]) /\
  match pstep pdemo_c (PDropIter 2 0) with Done r c => r = PPanic /\ drop 4 (m_log (c_mem c)) = [8; 6] | _ => False end /\
  match pstep pdemo_c (PDrop 2 0) with Done r c => r = PPanic /\ drop 4 (m_log (c_mem c)) = [8] | _ => False end.
Proof. split; [exact (proj1 pdemo_ok)|]. split; [exact (proj2 pdemo_ok)|]. split; [eexists; vm_compute; auto|]. vm_compute. auto 10. Qed.

(** FINDING: after a panic memory can be lost.  A [clone] whose [T::clone] panics leaves its buffer behind, with the values cloned so far *)
Theorem C53_panics_leak_nothing_refuted : exists ps : list (pop nat), Forall (fun p => match p with PForget _ => False | _ => True end) ps /\
  s_env (psrun sst0 ps).2 = ∅ /\ match prun cst0 ps with Done _ c => length (map_to_list (m_heap (c_mem c))) = 5 /\ m_log (c_mem c) = [2; 3; 1; 4; 0] | Fails _ => False end.
Proof.
  exists ((POp <$> take 9 demo_ops) ++ [PMapBfs 0 [] 3 (fussy 3); POp (ODrop 0)]). split; [repeat constructor|]. split; [apply map_eq; intros i; vm_compute; destruct i as [|p]; [reflexivity|]; destruct p as [|[|[|p]]]; reflexivity|].
  vm_compute. auto.
Qed.
Print Assumptions C53_panics_leak_nothing_refuted.

(** a history in which only the library panics (the closures and [T::drop] do not) and nothing is given to [mem::forget] leaks nothing.
    Missing: the panics of foreign code, where the claim is false. *)
Theorem C53_panics_leak_nothing_partial {A : Type} (ps : list (pop A)) : quiets sst0 ps -> s_env (psrun sst0 ps).2 = ∅ ->
  exists c, prun cst0 ps = Done (psrun sst0 ps).1 c /\ m_heap (c_mem c) = ∅ /\ m_cnt (c_mem c) = ∅ /\ m_vec (c_mem c) = ∅.
Proof. exact (quiet_no_leak ps). Qed.
Print Assumptions C53_panics_leak_nothing_partial.
Example C53_ex : let ps := [POp (ONewTree 0 0); POp (ONewTree 1 1); POp (OInsert Back 0 [] 1); POp (ODetach 0 [] 3); PMapInto 0 1 (fussy 3); PDrop 1 7] : list (pop nat) in
  (psrun sst0 ps).1 = [PRet RUnit; PRet RUnit; PPanic; PPanic; PRet RUnit; PRet RUnit] /\ map_to_list (s_env (psrun sst0 ps).2) = [] /\ s_log (psrun sst0 ps).2 = [1; 10] /\
  quiets sst0 ps.
Proof. split; [vm_compute; reflexivity|]. split; [vm_compute; reflexivity|]. split; [vm_compute; reflexivity|]. cbn [quiets quiet]. repeat match goal with |- _ /\ _ => split end; try exact I; vm_compute; congruence. Qed.
