(** PropWalk.v — C23-C28, C41: the depth-first walks [TreeWalk] and [ForestWalk].
    [hd] is the tree or forest of the client's variable [h], [it] its contents; [walk_run hd os] converts it into a walk and
    calls the operations [os]; [same_visit]/[is_node] say which node of the contents an address returned by the walk is. *)
From stdpp Require Import base gmap list.
From Verif Require Import Spec ClientSpec Machine NodeModel ClientModel Reach WalkModel WalkSpec WalkClient Demo.

Section theorems.
Context {A : Type} (c : cst A) (env : gmap nat (item A)) (h : nat) (hd : handle) (it : item A).

(** the specification's traversal is what the property says: each node of the tree or forest, with the right kinds, and nothing else, *)
Theorem C23_traversal_nodes (k : vkind) (p : list nat) (y : tree A) :
  (k, p, y) ∈ dfss [] 0 (tops it) <->
  exists j q x, tops it !! j = Some x /\ subtree x q = Some y /\ p = j :: q /\ match kids y with [] => k = VLeaf | _ => k = VBegin \/ k = VEnd end.
Proof. exact (traversal_nodes it k p y). Qed.
(** each visit once, *)
Theorem C23_traversal_once : NoDup (dfss [] 0 (tops it)).*1.
Proof. exact (dfss_nodup (tops it) [] 0). Qed.
(** and the visits of a branch around those of its children in order; *)
Theorem C23_traversal_order (p : list nat) (a : A) (ts : list (tree A)) :
  ts <> [] -> dfs p (Tr a ts) = (VBegin, p, Tr a ts) :: concat (imap (fun i t => dfs (p ++ [i]) t) ts) ++ [(VEnd, p, Tr a ts)].
Proof. exact (dfs_order p a ts). Qed.
(** [get] after [n] times [forward] tells the n-th visit, None after the last one, *)
Theorem C23_get_forward (n : nat) :
  reachable c -> contents c env -> env !! h = Some it -> c_env c !! h = Some hd ->
  exists o, returns c (walk_run hd (replicate n WForward ++ [WGet])) (replicate n WUnit ++ [WVisit o]) /\
    same_opt (same_visit c hd it) o (dfss [] 0 (tops it) !! n).
Proof. exact (fun Hr Hc Hh Hhd => visits_prop c env Hr Hc h hd it Hh Hhd n). Qed.
(** and so do [get] and then [next] repeatedly. *)
Theorem C23_next (n : nat) :
  reachable c -> contents c env -> env !! h = Some it -> c_env c !! h = Some hd ->
  exists o rs, returns c (walk_run hd (WGet :: replicate n WNext)) (WVisit o :: rs) /\
    Forall2 (same_out c hd it) (WVisit o :: rs) ((fun i => WVisit (dfss [] 0 (tops it) !! i)) <$> seq 0 (S n)).
Proof. exact (fun Hr Hc Hh Hhd => nexts_prop c env Hr Hc h hd it Hh Hhd n). Qed.

(** C24.  A walk operation returns or panics: no loop goes on, nothing undefined happens, *)
Theorem C24_operations_end (os : list wop) :
  reachable c -> contents c env -> env !! h = Some it -> c_env c !! h = Some hd ->
  (exists rs, returns c (walk_run hd os) rs) \/ walk_run hd os (c_mem c) = Err EPanic.
Proof. exact (fun Hr Hc Hh Hhd => total_prop c env Hr Hc h hd it Hh Hhd os). Qed.
(** [forward], [next], [to_parent], [get_parent] return in every state, *)
Theorem C24_forward_returns (os : list wop) (rs : list (wout (vkind * ptr) ptr)) (o : wop) :
  reachable c -> contents c env -> env !! h = Some it -> c_env c !! h = Some hd ->
  returns c (walk_run hd os) rs -> o = WForward \/ o = WNext \/ o = WToParent \/ o = WGetParent ->
  exists r, returns c (walk_run hd (os ++ [o])) (rs ++ [r]).
Proof. exact (fun Hr Hc Hh Hhd => forward_prop c env Hr Hc h hd it Hh Hhd os rs o). Qed.
(** and a completed traversal stays completed. *)
Theorem C24_stays_completed (os os' : list wop) (rs : list (wout (vkind * ptr) ptr)) :
  reachable c -> contents c env -> env !! h = Some it -> c_env c !! h = Some hd ->
  returns c (walk_run hd (os ++ [WGet])) (rs ++ [WVisit None]) -> Forall (fun o => o = WForward \/ o = WNext) os' ->
  returns c (walk_run hd (os ++ os' ++ [WGet])) (rs ++ ((fun o => match o with WNext => WVisit None | _ => WUnit end) <$> os') ++ [WVisit None]).
Proof. exact (fun Hr Hc Hh Hhd => ended_prop c env Hr Hc h hd it Hh Hhd os rs os'). Qed.

(** C25.  At the current node, the [i]-th below [p]: *)
Theorem C25_parent (os : list wop) (rs : list (wout (vkind * ptr) ptr)) (k : vkind) (q : ptr) :
  reachable c -> contents c env -> env !! h = Some it -> c_env c !! h = Some hd ->
  returns c (walk_run hd (os ++ [WGet])) (rs ++ [WVisit (Some (k, q))]) ->
  exists p i x, is_node c hd it q (p ++ [i], x) /\
  ((p = [] /\ returns c (walk_run hd (os ++ [WGetParent])) (rs ++ [WNode None]) /\
    returns c (walk_run hd (os ++ [WToParent; WGet])) (rs ++ [WVisit None; WVisit None])) \/
   (p <> [] /\ exists q' y, is_node c hd it q' (p, y) /\ kids y !! i = Some x /\
    returns c (walk_run hd (os ++ [WGetParent])) (rs ++ [WNode (Some q')]) /\
    returns c (walk_run hd (os ++ [WToParent])) (rs ++ [WVisit (Some (VEnd, q'))]) /\
    continues c hd it (os ++ [WToParent]) (rs ++ [WVisit (Some (VEnd, q'))]) (VEnd, p, y))).
Proof. exact (fun Hr Hc Hh Hhd => parent_prop c env Hr Hc h hd it Hh Hhd os rs k q). Qed.

(** C26 *)
Theorem C26_to_child (os : list wop) (rs : list (wout (vkind * ptr) ptr)) (k : vkind) (q : ptr) (n : nat) :
  reachable c -> contents c env -> env !! h = Some it -> c_env c !! h = Some hd ->
  returns c (walk_run hd (os ++ [WGet])) (rs ++ [WVisit (Some (k, q))]) ->
  exists p x, is_node c hd it q (p, x) /\
  match kids x !! n with
  | Some y => exists q', is_node c hd it q' (p ++ [n], y) /\
      returns c (walk_run hd (os ++ [WToChild n])) (rs ++ [WVisit (Some (first_visit y, q'))]) /\
      continues c hd it (os ++ [WToChild n]) (rs ++ [WVisit (Some (first_visit y, q'))]) (first_visit y, p ++ [n], y)
  | None => returns c (walk_run hd (os ++ [WToChild n])) (rs ++ [WVisit None])
  end.
Proof. exact (fun Hr Hc Hh Hhd => child_prop c env Hr Hc h hd it Hh Hhd os rs k q n). Qed.
Theorem C26_to_sib (os : list wop) (rs : list (wout (vkind * ptr) ptr)) (k : vkind) (q : ptr) (n : nat) :
  reachable c -> contents c env -> env !! h = Some it -> c_env c !! h = Some hd ->
  returns c (walk_run hd (os ++ [WGet])) (rs ++ [WVisit (Some (k, q))]) ->
  exists p i x ts, is_node c hd it q (p ++ [i], x) /\ sibs (tops it) p = Some ts /\ ts !! i = Some x /\
  match ts !! (i + n) with
  | Some y => exists q', is_node c hd it q' (p ++ [i + n], y) /\
      returns c (walk_run hd (os ++ [WToSib n])) (rs ++ [WVisit (Some (first_visit y, q'))]) /\
      continues c hd it (os ++ [WToSib n]) (rs ++ [WVisit (Some (first_visit y, q'))]) (first_visit y, p ++ [i + n], y)
  | None => returns c (walk_run hd (os ++ [WToSib n])) (rs ++ [WVisit None])
  end.
Proof. exact (fun Hr Hc Hh Hhd => sib_prop c env Hr Hc h hd it Hh Hhd os rs k q n). Qed.

(** C27.  [revisit] at a Begin or Leaf visit: no later result depends on it; *)
Theorem C27_revisit_unchanged (os : list wop) (rs : list (wout (vkind * ptr) ptr)) (k : vkind) (q : ptr) :
  reachable c -> contents c env -> env !! h = Some it -> c_env c !! h = Some hd ->
  returns c (walk_run hd (os ++ [WGet])) (rs ++ [WVisit (Some (k, q))]) -> k <> VEnd ->
  forall os', (forall rs', returns c (walk_run hd (os ++ WRevisit :: os')) (rs ++ WUnit :: rs') <-> returns c (walk_run hd (os ++ os')) (rs ++ rs')) /\
    (walk_run hd (os ++ WRevisit :: os') (c_mem c) = Err EPanic <-> walk_run hd (os ++ os') (c_mem c) = Err EPanic).
Proof. exact (fun Hr Hc Hh Hhd => revisit_same_prop c env Hr Hc h hd it Hh Hhd os rs k q). Qed.
(** at an End visit: the Begin visit of the same node, and the traversal goes on from there; *)
Theorem C27_revisit_end (os : list wop) (rs : list (wout (vkind * ptr) ptr)) (q : ptr) :
  reachable c -> contents c env -> env !! h = Some it -> c_env c !! h = Some hd ->
  returns c (walk_run hd (os ++ [WGet])) (rs ++ [WVisit (Some (VEnd, q))]) ->
  returns c (walk_run hd (os ++ [WRevisit; WGet])) (rs ++ [WUnit; WVisit (Some (VBegin, q))]) /\
  exists p x, is_node c hd it q (p, x) /\ continues c hd it (os ++ [WRevisit]) (rs ++ [WUnit]) (VBegin, p, x).
Proof. exact (fun Hr Hc Hh Hhd => revisit_end_prop c env Hr Hc h hd it Hh Hhd os rs q). Qed.
(** after completion: everything is as with a fresh walk. *)
Theorem C27_revisit_restarts (os : list wop) (rs : list (wout (vkind * ptr) ptr)) :
  reachable c -> contents c env -> env !! h = Some it -> c_env c !! h = Some hd ->
  returns c (walk_run hd (os ++ [WGet])) (rs ++ [WVisit None]) ->
  forall os', (forall rs', returns c (walk_run hd (os ++ WRevisit :: os')) (rs ++ WUnit :: rs') <-> returns c (walk_run hd os') rs') /\
    (walk_run hd (os ++ WRevisit :: os') (c_mem c) = Err EPanic <-> walk_run hd os' (c_mem c) = Err EPanic).
Proof. exact (fun Hr Hc Hh Hhd => revisit_over_prop c env Hr Hc h hd it Hh Hhd os rs). Qed.

(** C28 holds as long as [to_child]/[to_sib] have not led off the siblings. *)
Theorem C28_get_partial (os : list wop) (rs : list (wout (vkind * ptr) ptr)) :
  reachable c -> contents c env -> env !! h = Some it -> c_env c !! h = Some hd ->
  returns c (walk_run hd os) rs -> astray false os rs = false ->
  exists o, returns c (walk_run hd (os ++ [WGet])) (rs ++ [WVisit o]).
Proof. exact (fun Hr Hc Hh Hhd => get_prop c env Hr Hc h hd it Hh Hhd os rs). Qed.

(** Exactly when a walk panics: a call that looks at the current node, after [to_sib]/[to_child] led off the siblings ([led_off]). *)
Theorem C28_panics_exactly_partial (os : list wop) (rs : list (wout (vkind * ptr) ptr)) (o : wop) :
  reachable c -> contents c env -> env !! h = Some it -> c_env c !! h = Some hd -> returns c (walk_run hd os) rs ->
  (walk_run hd (os ++ [o]) (c_mem c) = Err EPanic <-> looks_at_node o = true /\ led_off c hd os rs) /\
  (walk_run hd (os ++ [o]) (c_mem c) = Err EPanic \/ exists r, returns c (walk_run hd (os ++ [o])) (rs ++ [r])).
Proof. exact (fun Hr Hc Hh Hhd => panics_iff c env Hr Hc h hd it Hh Hhd os rs o). Qed.

(** C41.  Whatever was done with the walk, the tree or forest comes back, the memory is as before. *)
Theorem C41_into_back (os : list wop) (rs : list (wout (vkind * ptr) ptr)) :
  reachable c -> contents c env -> env !! h = Some it -> c_env c !! h = Some hd ->
  (exists m', walk_run hd os (c_mem c) = Ok rs m') -> walk_session hd os (c_mem c) = Ok (rs, hd) (c_mem c).
Proof. exact (fun Hr Hc Hh Hhd => session_back c env Hr Hc h hd it Hh Hhd os rs). Qed.
End theorems.
Print Assumptions C23_traversal_nodes.
Print Assumptions C23_traversal_once.
Print Assumptions C23_traversal_order.
Print Assumptions C23_get_forward.
Print Assumptions C23_next.
Print Assumptions C24_operations_end.
Print Assumptions C24_forward_returns.
Print Assumptions C24_stays_completed.
Print Assumptions C25_parent.
Print Assumptions C26_to_child.
Print Assumptions C26_to_sib.
Print Assumptions C27_revisit_unchanged.
Print Assumptions C27_revisit_end.
Print Assumptions C27_revisit_restarts.
Print Assumptions C28_get_partial.
Print Assumptions C28_panics_exactly_partial.
Print Assumptions C41_into_back.

(** The hypotheses are met by the demo client: variable 0 is 0( 1( 2 3 ) 4 ), variable 2 the forest ( 7( 8 ) 6 ). *)
Definition the_hd (h : nat) : handle := match c_env demo_c !! h with Some hd => hd | None => HT (0, 0) end.
Definition data_of (o : wout (vkind * ptr) ptr) : wout (vkind * option nat) (option nat) :=
  let rd q := match data q (c_mem demo_c) with Ok a _ => Some a | Err _ => None end in
  match o with
  | WVisit v => WVisit (match v with Some (k, q) => Some (k, rd q) | None => None end)
  | WNode v => WNode (match v with Some q => Some (rd q) | None => None end)
  | WUnit => WUnit
  end.
Definition demo_walk (h : nat) (os : list wop) : option (list (wout (vkind * option nat) (option nat))) :=
  match walk_run (the_hd h) os (c_mem demo_c) with Ok rs _ => Some (data_of <$> rs) | Err _ => None end.
Example walk_hyps : reachable demo_c /\ contents demo_c demo_env /\ demo_env !! 0 = Some (ITree demo_tree) /\ c_env demo_c !! 0 = Some (the_hd 0) /\
  demo_env !! 2 = Some (IForest demo_forest) /\ c_env demo_c !! 2 = Some (the_hd 2).
Proof. split; [exact (proj1 demo_ok)|]. split; [exact (proj2 demo_ok)|]. vm_compute. auto. Qed.
Example C23_ex : demo_walk 0 (WGet :: replicate 9 WNext) =
  Some [WVisit (Some (VBegin, Some 0)); WVisit (Some (VBegin, Some 1)); WVisit (Some (VLeaf, Some 2)); WVisit (Some (VLeaf, Some 3));
        WVisit (Some (VEnd, Some 1)); WVisit (Some (VLeaf, Some 4)); WVisit (Some (VEnd, Some 0)); WVisit None; WVisit None; WVisit None].
Proof. vm_compute. reflexivity. Qed.
Example C23_ex_forest : demo_walk 2 (WGet :: replicate 5 WNext) =
  Some [WVisit (Some (VBegin, Some 7)); WVisit (Some (VLeaf, Some 8)); WVisit (Some (VEnd, Some 7)); WVisit (Some (VLeaf, Some 6)); WVisit None; WVisit None].
Proof. vm_compute. reflexivity. Qed.
(** C24-C27: hypotheses met *)
Example C25_ex : demo_walk 0 [WForward; WForward; WGet; WGetParent; WToParent; WNext] =
  Some [WUnit; WUnit; WVisit (Some (VLeaf, Some 2)); WNode (Some (Some 1)); WVisit (Some (VEnd, Some 1)); WVisit (Some (VLeaf, Some 4))].
Proof. vm_compute. reflexivity. Qed.
Example C26_ex : demo_walk 0 [WGet; WToChild 0; WToChild 1; WNext; WToSib 1; WNext; WToChild 9] =
  Some [WVisit (Some (VBegin, Some 0)); WVisit (Some (VBegin, Some 1)); WVisit (Some (VLeaf, Some 3)); WVisit (Some (VEnd, Some 1));
        WVisit (Some (VLeaf, Some 4)); WVisit (Some (VEnd, Some 0)); WVisit None].
Proof. vm_compute. reflexivity. Qed.
Example C27_ex : demo_walk 0 [WForward; WToChild 1; WNext; WRevisit; WGet; WNext; WRevisit; WNext; WNext; WNext; WNext; WNext; WRevisit; WGet] =
  Some [WUnit; WVisit (Some (VLeaf, Some 3)); WVisit (Some (VEnd, Some 1)); WUnit; WVisit (Some (VBegin, Some 1)); WVisit (Some (VLeaf, Some 2)); WUnit;
        WVisit (Some (VLeaf, Some 3)); WVisit (Some (VEnd, Some 1)); WVisit (Some (VLeaf, Some 4)); WVisit (Some (VEnd, Some 0)); WVisit None; WUnit;
        WVisit (Some (VBegin, Some 0))].
Proof. vm_compute. reflexivity. Qed.

(** C28 is false: in 0( 1( 2 3 ) 4 ), [to_child(5)] at the start returns None and the next [get] panics *)
Theorem C28_get_never_panics_refuted : exists (c : cst nat) (env : gmap nat (item nat)) (h : nat) (hd : handle) (it : item nat) (os : list wop),
  reachable c /\ contents c env /\ env !! h = Some it /\ c_env c !! h = Some hd /\
  (exists rs, returns c (walk_run hd os) rs) /\ walk_run hd (os ++ [WGet]) (c_mem c) = Err EPanic.
Proof.
  exact (off_panics demo_c demo_env (proj1 demo_ok) (proj2 demo_ok) 0 (the_hd 0) (ITree demo_tree) ltac:(vm_compute; auto) ltac:(vm_compute; auto) [WToChild 5]
    ltac:(vm_compute; eauto) ltac:(vm_compute; auto)).
Qed.
Print Assumptions C28_get_never_panics_refuted.
Example C28_ex : demo_walk 0 [WToChild 5] = Some [WVisit None] /\ demo_walk 0 [WToChild 5; WGet] = None /\
  astray false [WToChild 5; WToParent] [WVisit None; WVisit (Some (VEnd, (0, 0)))] = false /\
  demo_walk 0 [WToChild 5; WToParent; WGet] = Some [WVisit None; WVisit (Some (VEnd, Some 0)); WVisit (Some (VEnd, Some 0))].
Proof. vm_compute. auto. Qed.
Example C28_exactly_ex :
  (exists rs, returns demo_c (walk_run (the_hd 0) [WForward; WToSib 7; WGetParent]) rs /\ led_off demo_c (the_hd 0) [WForward; WToSib 7; WGetParent] rs) /\
  demo_walk 0 [WForward; WForward; WToChild 0; WGet] = Some [WUnit; WUnit; WVisit None; WVisit (Some (VLeaf, Some 2))] /\
  demo_walk 0 [WForward; WToSib 7; WGetParent; WNext] = Some [WUnit; WVisit None; WNode (Some (Some 0)); WVisit (Some (VEnd, Some 0))].
Proof.
  split; [|vm_compute; auto]. eexists. split; [vm_compute; reflexivity|]. exists [WForward], (WToSib 7), 1, [WUnit], VBegin. eexists. split; [reflexivity|]. split; [vm_compute; reflexivity|].
  split; [exists 7; by left|]. vm_compute. reflexivity.
Qed.
