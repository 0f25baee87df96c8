(** BfsProps.v — the properties C10, C14, C19-C22, C38 and the frame property of C01 as lemmas over reachable client states. *)
From stdpp Require Import base gmap list.
From Verif Require Import Spec ClientSpec SpecProofs Machine NodeModel BfsModel ClientModel Sep Rep NodeProofs Inv Abs ClientProofs FromBfs BfsBuild BfsIter BfsMut BfsMap ClientRef ClientStep ClientRead ClientProps.

Section props.
Context {A : Type}.
Implicit Types (c : cst A) (env : gmap nat (item A)) (it : item A) (t : tree A) (ts fs : list (tree A)) (h x y : nat).

(** ** variables not mentioned do not change *)
Lemma each_act_frame h (a : act A) st x : x ∉ act_names a -> (each_act h a st).1 !! x = st.1 !! x.
Proof.
  destruct st as [env gs]. intros Hx. destruct a; simpl in *; repeat case_match; simpl; try done;
    rewrite ?lookup_delete_ne, ?lookup_insert_ne; set_solver.
Qed.
Lemma each_acts_frame h (acts : list (act A)) x : forall st, x ∉ flat_map act_names acts -> (each_acts h acts st).1 !! x = st.1 !! x.
Proof.
  induction acts as [|a acts IH]; intros st Hx; [done|]. simpl in *. rewrite IH by set_solver. apply each_act_frame. set_solver.
Qed.
Lemma each_child_frame h ts x : forall (acts : list (list (act A))) st, x ∉ flat_map (flat_map act_names) acts ->
  (each_child h acts ts st).1 !! x = st.1 !! x.
Proof.
  induction ts as [|t ts IH]; intros acts st Hx; [done|]. cbn [each_child]. rewrite IH.
  - rewrite each_acts_frame; [done|]. destruct acts; simpl in *; set_solver.
  - destruct acts; simpl in *; set_solver.
Qed.
Lemma bind_trees_frame xs ts x : forall env, x ∉ xs -> bind_trees xs ts env !! x = env !! x.
Proof.
  revert ts. induction xs as [|y xs IH]; intros ts env Hx; [done|]. destruct ts as [|t ts]; [done|]. simpl.
  rewrite IH by set_solver. rewrite lookup_insert_ne; set_solver.
Qed.
Lemma sstep_frame (σ σ' : sst A) o r x : sstep σ o = Some (r, σ') -> x ∉ op_names o -> s_env σ' !! x = s_env σ !! x.
Proof.
  intros H Hx. destruct σ as [env log]. destruct o; simpl in H, Hx; unfold put_kids in H.
  all: try (repeat case_match; simplify_eq; simpl; rewrite ?lookup_insert_ne, ?lookup_delete_ne by set_solver; done).
  - repeat case_match; simplify_eq; simpl; try done. rewrite bind_trees_frame, lookup_delete_ne by set_solver. done.
  - destruct (env !! h); [|by simplify_eq]. destruct (kids_at i path) as [ts|]; [|by simplify_eq].
    pose proof (each_child_frame h ts x acts (env, [])) as Hf. destruct (each_child h acts ts (env, [])) as [env' gs]. simplify_eq. simpl in *.
    rewrite lookup_insert_ne by set_solver. apply Hf. set_solver.
Qed.

Lemma step_frame c env o r c' : reachable c -> contents c env -> step c o = Done r c' ->
  exists env', contents c' env' /\ reachable c' /\ forall x, x ∉ op_names o -> env' !! x = env !! x.
Proof.
  intros Hr Hc Hs. pose proof (step_from c env o Hr Hc) as H. destruct (sstep _ o) as [[r' σ']|] eqn:E; [|congruence].
  destruct H as (c2 & Hs2 & Hc2 & _ & Hr2). rewrite Hs in Hs2. simplify_eq. exists (s_env σ'). split_and!; [done..|].
  intros x Hx. apply (sstep_frame _ _ _ _ x E Hx).
Qed.
Lemma run_frame os : forall c env rs c', reachable c -> contents c env -> run c os = Done rs c' ->
  exists env', contents c' env' /\ reachable c' /\ forall x, Forall (fun o => x ∉ op_names o) os -> env' !! x = env !! x.
Proof.
  induction os as [|o os IH]; intros c env rs c' Hr Hc Hs; simpl in Hs.
  - simplify_eq. eauto.
  - destruct (step c o) as [r c1|] eqn:E; [|done]. destruct (run c1 os) as [rs1 c2|] eqn:E2; [|done]. simplify_eq.
    destruct (step_frame _ _ _ _ _ Hr Hc E) as (env1 & Hc1 & Hr1 & Hf1).
    destruct (IH _ _ _ _ Hr1 Hc1 E2) as (env2 & Hc2 & Hr2 & Hf2). exists env2. split_and!; [done..|].
    intros x Hx. inversion Hx; subst. rewrite Hf2 by done. by apply Hf1.
Qed.

(** ** clones *)
Lemma clone_prop c env h path x it t :
  reachable c -> contents c env -> env !! h = Some it -> node_at it path = Some t -> env !! x = None ->
  exists c', step c (OClone h path x) = Done RUnit c' /\ reachable c' /\ m_log (c_mem c') = m_log (c_mem c) /\
    contents c' (<[x := ITree t]> env).
Proof.
  intros Hr Hc Hh Hk Hx. pose proof (step_from c env (OClone h path x) Hr Hc) as H. cbn [sstep s_env s_log] in H.
  rewrite Hh, Hx, Hk in H. destruct H as (c' & ? & ? & ? & ?). eauto 10.
Qed.
Lemma clone_forest_prop c env h path x it ts :
  reachable c -> contents c env -> env !! h = Some it -> kids_at it path = Some ts -> env !! x = None ->
  exists c', step c (OCloneForest h path x) = Done RUnit c' /\ reachable c' /\ m_log (c_mem c') = m_log (c_mem c) /\
    contents c' (<[x := IForest ts]> env).
Proof.
  intros Hr Hc Hh Hk Hx. pose proof (step_from c env (OCloneForest h path x) Hr Hc) as H. cbn [sstep s_env s_log] in H.
  rewrite Hh, Hx, Hk in H. destruct H as (c' & ? & ? & ? & ?). eauto 10.
Qed.

(** ** breadth-first traversal *)
Lemma bfs_prop c env h path it t :
  reachable c -> contents c env -> env !! h = Some it -> node_at it path = Some t ->
  exists c', step c (OBfs h path) = Done (RVisits (visit_of <$> level_order t)) c' /\ contents c' env /\ reachable c'.
Proof.
  intros Hr Hc Hh Hk. pose proof (step_from c env (OBfs h path) Hr Hc) as H. cbn [sstep s_env s_log] in H.
  rewrite Hh, Hk in H. destruct H as (c' & ? & ? & ? & ?). eauto 10.
Qed.
Lemma bfs_children_prop c env h path it ts :
  reachable c -> contents c env -> env !! h = Some it -> kids_at it path = Some ts ->
  exists c', step c (OBfsChildren h path) = Done (RVisits (visit_of <$> level_order_f ts)) c' /\ contents c' env /\ reachable c'.
Proof.
  intros Hr Hc Hh Hk. pose proof (step_from c env (OBfsChildren h path) Hr Hc) as H. cbn [sstep s_env s_log] in H.
  rewrite Hh, Hk in H. destruct H as (c' & ? & ? & ? & ?). eauto 10.
Qed.
Lemma bfs_size_prop c env h hd path p it ts :
  reachable c -> contents c env -> env !! h = Some it -> c_env c !! h = Some hd ->
  resolve (addr hd) path (c_mem c) = Ok (Some p) (c_mem c) -> kids_at it path = Some ts ->
  (exists q, bfs p (c_mem c) = Ok (q, (1, nodes_f ts)) (c_mem c)) /\
  (exists q, bfs_children p (c_mem c) = Ok (q, (length ts, nodes_f ts)) (c_mem c)).
Proof.
  intros Hr Hc Hh Hhd Hres Hk. destruct (reachable_contents _ _ Hr Hc) as (Wm & HR & _).
  pose proof (RE_lookup _ _ _ _ h HR) as H. cbn [s_env] in H. rewrite Hh in H.
  destruct H as (t & Ht & Hri & Henv & _). rewrite Hhd in Henv. simplify_eq.
  pose proof (RE_locate _ _ _ _ _ _ _ path HR Ht Hri) as HL. rewrite Hk in HL.
  destruct HL as (C & p' & pl & v & ks & Heq & Haf & Hres' & HI & Hks & _ & Hn & _ & Hroot).
  rewrite Hres in Hres'. simplify_eq. unfold bfs, bfs_children, iter, bind, get. rewrite !(lookup_at _ _ _ _ _ _ _ _ HI).
  cbn [ret mk n_desc n_deg n_head]. rewrite !(lookup_at _ _ _ _ _ _ _ _ HI). cbn [ret mk n_desc n_deg n_head]. rewrite (rts_cnts _ _ Hks), (Forall2_length _ _ _ Hks). split; eauto.
Qed.
Lemma bfs_mut_prop c env h path g it t :
  reachable c -> contents c env -> env !! h = Some it -> node_at it path = Some t ->
  exists c', step c (OBfsMut h path g) = Done RUnit c' /\ reachable c' /\ m_log (c_mem c') = m_log (c_mem c) /\
    contents c' (<[h := set_data (set_kids it path (kids (bfs_map g t))) path (root_of (bfs_map g t))]> env).
Proof.
  intros Hr Hc Hh Hk. pose proof (step_from c env (OBfsMut h path g) Hr Hc) as H. cbn [sstep s_env s_log] in H.
  rewrite Hh, Hk in H. destruct H as (c' & ? & ? & ? & ?). eauto 10.
Qed.
Lemma bfs_children_mut_prop c env h path g it ts :
  reachable c -> contents c env -> env !! h = Some it -> kids_at it path = Some ts ->
  exists c', step c (OBfsChildrenMut h path g) = Done RUnit c' /\ reachable c' /\ m_log (c_mem c') = m_log (c_mem c) /\
    contents c' (<[h := set_kids it path (bfs_map_f g ts)]> env).
Proof.
  intros Hr Hc Hh Hk. pose proof (step_from c env (OBfsChildrenMut h path g) Hr Hc) as H. cbn [sstep s_env s_log] in H.
  rewrite Hh, Hk in H. destruct H as (c' & ? & ? & ? & ?). eauto 10.
Qed.
Lemma into_bfs_prop c env h n it :
  reachable c -> contents c env -> env !! h = Some it ->
  exists c', step c (OIntoBfs h n) = Done (RVisits (take n (visit_of <$> item_level_order it))) c' /\ reachable c' /\
    contents c' (delete h env) /\ m_log (c_mem c') = m_log (c_mem c) ++ postorder_f (bfs_rest n (trees_of it)).
Proof.
  intros Hr Hc Hh. pose proof (step_from c env (OIntoBfs h n) Hr Hc) as H. cbn [sstep s_env s_log] in H.
  rewrite Hh in H. destruct H as (c' & ? & ? & ? & ?). eauto 10.
Qed.
Lemma from_bfs_prop c env h x it :
  reachable c -> contents c env -> env !! h = Some it -> env !! x = None ->
  exists c', step c (OFromBfs h x) = Done RUnit c' /\ reachable c' /\ m_log (c_mem c') = m_log (c_mem c) /\
    contents c' (<[x := it]> (delete h env)).
Proof.
  intros Hr Hc Hh Hx. pose proof (step_from c env (OFromBfs h x) Hr Hc) as H. cbn [sstep s_env s_log] in H.
  rewrite Hh, Hx in H. destruct H as (c' & ? & ? & ? & ?). eauto 10.
Qed.
Lemma map_into_prop c env h x f it :
  reachable c -> contents c env -> env !! h = Some it -> env !! x = None ->
  exists c' it', step c (OMapInto h x f) = Done RUnit c' /\ reachable c' /\ m_log (c_mem c') = m_log (c_mem c) /\
    match it with
    | ITree t => exists t', it' = ITree t' /\ same_shape t' t
    | IForest ts => exists ts', it' = IForest ts' /\ Forall2 same_shape ts' ts
    end /\
    root_of <$> item_level_order it' = map_hist f [] (root_of <$> item_level_order it) /\
    contents c' (<[x := it']> (delete h env)).
Proof.
  intros Hr Hc Hh Hx. pose proof (step_from c env (OMapInto h x f) Hr Hc) as H. cbn [sstep s_env s_log] in H.
  rewrite Hh, Hx in H. destruct H as (c' & ? & ? & ? & ?). exists c', (item_fmap f it). split_and!; try done.
  - destruct it; cbn [item_fmap]; eexists; (split; [reflexivity|]); [apply bfs_fmap_shape|apply bfs_fmap_f_shape].
  - destruct it; cbn [item_fmap item_level_order]; [apply bfs_fmap_data|apply bfs_fmap_f_data].
Qed.
Lemma map_bfs_prop c env h path x f it t :
  reachable c -> contents c env -> env !! h = Some it -> node_at it path = Some t -> env !! x = None ->
  exists c' t', step c (OMapBfs h path x f) = Done RUnit c' /\ reachable c' /\ m_log (c_mem c') = m_log (c_mem c) /\
    same_shape t' t /\ root_of <$> level_order t' = map_hist f [] (root_of <$> level_order t) /\ contents c' (<[x := ITree t']> env).
Proof.
  intros Hr Hc Hh Hk Hx. pose proof (step_from c env (OMapBfs h path x f) Hr Hc) as H. cbn [sstep s_env s_log] in H.
  rewrite Hh, Hx, Hk in H. destruct H as (c' & ? & ? & ? & ?). exists c', (bfs_fmap f t). split_and!; try done; [apply bfs_fmap_shape|apply bfs_fmap_data].
Qed.
Lemma map_bfs_children_prop c env h path x f it ts :
  reachable c -> contents c env -> env !! h = Some it -> kids_at it path = Some ts -> env !! x = None ->
  exists c' ts', step c (OMapBfsChildren h path x f) = Done RUnit c' /\ reachable c' /\ m_log (c_mem c') = m_log (c_mem c) /\
    Forall2 same_shape ts' ts /\ root_of <$> level_order_f ts' = map_hist f [] (root_of <$> level_order_f ts) /\ contents c' (<[x := IForest ts']> env).
Proof.
  intros Hr Hc Hh Hk Hx. pose proof (step_from c env (OMapBfsChildren h path x f) Hr Hc) as H. cbn [sstep s_env s_log] in H.
  rewrite Hh, Hx, Hk in H. destruct H as (c' & ? & ? & ? & ?). exists c', (bfs_fmap_f f ts). split_and!; try done; [apply bfs_fmap_f_shape|apply bfs_fmap_f_data].
Qed.
Lemma into_iter_prop c env h xs it :
  reachable c -> contents c env -> env !! h = Some it -> NoDup xs -> Forall (fun x => env !! x = None) xs ->
  exists c', step c (OIntoIter h xs) = Done (RNats (imap (fun i _ => length (trees_of it) - i) xs)) c' /\ reachable c' /\
    contents c' (bind_trees xs (trees_of it) (delete h env)) /\
    m_log (c_mem c') = m_log (c_mem c) ++ postorder_f (drop (length xs) (trees_of it)).
Proof.
  intros Hr Hc Hh Hnd Hx. pose proof (step_from c env (OIntoIter h xs) Hr Hc) as H. cbn [sstep s_env s_log] in H.
  rewrite Hh, decide_True in H by done. destruct H as (c' & ? & ? & ? & ?). eauto 10.
Qed.
Lemma each_prop c env h path acts it ts :
  reachable c -> contents c env -> env !! h = Some it -> kids_at it path = Some ts ->
  exists c', step c (OEach h path acts) = Done (REach (imap (fun i (t : tree A) => (length ts - i, root_of t)) ts) 0 false) c' /\ reachable c' /\ m_log (c_mem c') = m_log (c_mem c) /\
    contents c' (<[h := set_kids it path (flat_map seg_trees (each_child h acts ts (env, [])).2)]> (each_child h acts ts (env, [])).1).
Proof.
  intros Hr Hc Hh Hk. pose proof (step_from c env (OEach h path acts) Hr Hc) as H. cbn [sstep s_env s_log] in H.
  rewrite Hh, Hk in H. destruct (each_child h acts ts (env, [])) as [env' gs]. destruct H as (c' & ? & ? & ? & ?). eauto 10.
Qed.

(** every value is handed out or dropped exactly once *)
Lemma postorder_f_app ts fs : postorder_f (ts ++ fs) = postorder_f ts ++ postorder_f fs.
Proof. apply flat_map_app. Qed.
Lemma qo_rest n : forall q r, qo q r -> (root_of <$> take n r) ++ postorder_f (bfs_rest n q) ≡ₚ postorder_f (A:=A) q.
Proof.
  induction n as [|n IH]; intros q r Hq; [done|]. destruct Hq as [|t q r Hq]; [done|]. cbn [take bfs_rest fmap list_fmap app].
  rewrite (IH _ _ Hq), postorder_f_app. destruct t as [a ts]. change (postorder_f (Tr a ts :: q)) with (postorder (Tr a ts) ++ postorder_f q).
  change (postorder (Tr a ts)) with (postorder_f ts ++ [a]). cbn [root_of kids].
  rewrite <-app_assoc, (Permutation_app_comm (postorder_f q)), Permutation_middle. done.
Qed.
Lemma visit_data ts : (fst ∘ fst) <$> (visit_of <$> ts) = root_of <$> ts.
Proof. by rewrite <-list_fmap_compose. Qed.
Lemma into_bfs_once it n : ((fst ∘ fst) <$> take n (visit_of <$> item_level_order it)) ++ postorder_f (bfs_rest n (trees_of it)) ≡ₚ item_post it.
Proof.
  rewrite <-fmap_take, visit_data. transitivity (postorder_f (trees_of it)).
  - apply qo_rest. destruct it; [apply qo_level_order|apply qo_level_order_f].
  - destruct it; simpl; [|done]. by rewrite app_nil_r.
Qed.
Lemma into_bfs_once_prop c env h n it :
  reachable c -> contents c env -> env !! h = Some it ->
  exists vs gone c', step c (OIntoBfs h n) = Done (RVisits vs) c' /\ reachable c' /\ contents c' (delete h env) /\
    vs = take n (visit_of <$> item_level_order it) /\ m_log (c_mem c') = m_log (c_mem c) ++ gone /\
    ((fst ∘ fst) <$> vs) ++ gone ≡ₚ item_post it.
Proof.
  intros Hr Hc Hh. destruct (into_bfs_prop c env h n it Hr Hc Hh) as (c' & H1 & H2 & H3 & H4).
  eexists _, _, c'. split_and!; [done..|]. apply into_bfs_once.
Qed.

(** the level order lists every node of the tree exactly once *)
Lemma level_order_all t : NoDup (bfs_paths t) /\ (forall path, path ∈ bfs_paths t <-> is_Some (subtree t path)) /\
  subtree t <$> bfs_paths t = Some <$> level_order t.
Proof. split_and!; [apply NoDup_bfs_paths|apply bfs_paths_elem|apply subtree_bfs_paths]. Qed.

(** [bfs_mut] in terms of shape and values *)
Lemma bfs_mut_prop2 c env h path g it t :
  reachable c -> contents c env -> env !! h = Some it -> node_at it path = Some t ->
  exists c' t', step c (OBfsMut h path g) = Done RUnit c' /\ reachable c' /\ m_log (c_mem c') = m_log (c_mem c) /\
    same_shape t' t /\ root_of <$> level_order t' = imap g (root_of <$> level_order t) /\
    contents c' (<[h := set_data (set_kids it path (kids t')) path (root_of t')]> env).
Proof.
  intros Hr Hc Hh Hk. destruct (bfs_mut_prop c env h path g it t Hr Hc Hh Hk) as (c' & ? & ? & ? & ?). exists c', (bfs_map g t).
  split_and!; [done..|apply pmap_ss|apply bfs_map_values|done].
Qed.
Lemma bfs_children_mut_prop2 c env h path g it ts :
  reachable c -> contents c env -> env !! h = Some it -> kids_at it path = Some ts ->
  exists c' ts', step c (OBfsChildrenMut h path g) = Done RUnit c' /\ reachable c' /\ m_log (c_mem c') = m_log (c_mem c) /\
    Forall2 same_shape ts' ts /\ root_of <$> level_order_f ts' = imap g (root_of <$> level_order_f ts) /\
    contents c' (<[h := set_kids it path ts']> env).
Proof.
  intros Hr Hc Hh Hk. destruct (bfs_children_mut_prop c env h path g it ts Hr Hc Hh Hk) as (c' & ? & ? & ? & ?). exists c', (bfs_map_f g ts).
  split_and!; [done..|apply pmap_f_ss|apply bfs_map_f_values|done].
Qed.

(** ** contiguity *)
Lemma contiguous_resolve s W (t : atree A) (v : nat) : MInvX s (t :: W) [] -> addrs t ≡ₚ (fun k => (v, k)) <$> seq 0 (cntn t) ->
  forall p, (exists path, resolve (aptr t) path s = Ok (Some p) s) <-> exists k, p = (v, k) /\ k < cntn t.
Proof.
  intros HI Hp p. transitivity (p ∈ addrs t).
  - rewrite addrs_afind. split.
    + intros [path Hres]. rewrite (resolve_at _ _ _ _ path HI) in Hres. destruct (afind t path) as [[C t']|] eqn:E; [|done].
      simpl in Hres. simplify_eq. eauto.
    + intros (path & C & t' & Hf & <-). exists path. by rewrite (resolve_at _ _ _ _ path HI), Hf.
  - rewrite Hp, elem_of_list_fmap. split; intros (k & -> & Hk); exists k; (split; [done|]).
    + apply elem_of_seq in Hk. lia.
    + apply elem_of_seq. lia.
Qed.

(** the tree built from visits, or a clone, lies in one buffer of exactly its size: slots 0, 1, ..., nothing else *)
Lemma from_visits_contiguous c env x it :
  reachable c -> contents c env -> env !! x = None ->
  exists c' v hd, step c (OFromVisits x it) = Done RUnit c' /\ reachable c' /\ m_log (c_mem c') = m_log (c_mem c) /\
    contents c' (<[x := it]> env) /\ c_env c' !! x = Some hd /\
    forall p, (exists path, resolve (addr hd) path (c_mem c') = Ok (Some p) (c_mem c')) <->
      exists k, p = (v, k) /\ k < match it with ITree t => nodes t | IForest ts => S (nodes_f ts) end.
Proof.
  intros Hr Hc Hx. pose proof (step_from c env (OFromVisits x it) Hr Hc) as H. cbn [sstep s_env s_log] in H. rewrite Hx in H.
  destruct H as (c' & Hs & Hc' & Hl & Hr'). exists c'. destruct (reachable_contents _ _ Hr Hc) as (Wm & HR & _).
  pose proof (RE_lookup _ _ _ _ x HR) as H. cbn [s_env] in H. rewrite Hx in H. destruct H as [_ Hx'].
  unfold step in Hs. cbn [cstep] in Hs. rewrite Hx' in Hs. unfold bind in Hs. destruct it as [y|ys].
  - destruct (tree_from_visits_spec (EL := []) (c_mem c) (vals Wm) y) as (t' & s' & Hcl & HI' & Hrt & (v & Hv) & _); [apply HR|]. rewrite Hcl in Hs. cbn [ret] in Hs.
    simplify_eq. exists v, (HT (aptr t')). cbn [c_env c_mem] in *. split_and!; [|done..|by rewrite lookup_insert|].
    + unfold step. cbn [cstep]. rewrite Hx'. unfold bind. by rewrite Hcl.
    + intros p. cbn [addr]. rewrite (contiguous_resolve _ _ _ _ HI' Hv). by rewrite (rt_cntn _ _ Hrt).
  - destruct (forest_from_visits_spec (EL := []) (c_mem c) (vals Wm) ys) as (t' & s' & Hcl & HI' & Hrt & (v & Hv) & _); [apply HR|]. rewrite Hcl in Hs. cbn [ret] in Hs.
    simplify_eq. exists v, (HF (aptr t')). cbn [c_env c_mem] in *. split_and!; [|done..|by rewrite lookup_insert|].
    + unfold step. cbn [cstep]. rewrite Hx'. unfold bind. by rewrite Hcl.
    + intros p. cbn [addr]. rewrite (contiguous_resolve _ _ _ _ HI' Hv). destruct t' as [q ql w ks]. simpl in Hrt. destruct Hrt as [-> Hks].
      by rewrite cntn_eq, (rts_cnts _ _ Hks).
Qed.
Lemma clone_contiguous c env h path x it t :
  reachable c -> contents c env -> env !! h = Some it -> node_at it path = Some t -> env !! x = None ->
  exists c' v hd, step c (OClone h path x) = Done RUnit c' /\ c_env c' !! x = Some hd /\
    forall p, (exists path, resolve (addr hd) path (c_mem c') = Ok (Some p) (c_mem c')) <-> exists k, p = (v, k) /\ k < nodes t.
Proof.
  intros Hr Hc Hh Hk Hx. destruct (reachable_contents _ _ Hr Hc) as (Wm & HR & _).
  pose proof (RE_lookup _ _ _ _ x HR) as H. cbn [s_env] in H. rewrite Hx in H. destruct H as [_ Hx'].
  pose proof (RE_lookup _ _ _ _ h HR) as H. cbn [s_env] in H. rewrite Hh in H. destruct H as (t0 & Ht & Hri & Henv & _).
  pose proof (RE_locate _ _ _ _ _ _ _ path HR Ht Hri) as HL. 
  destruct (kids_at it path) as [ts|] eqn:Hkk.
  - destruct HL as (C & p' & pl & v & ks & -> & Haf & Hres' & HI & Hks & _ & Hn & _ & Hroot).
    rewrite Hk in Hn. destruct v as [a|]; [|done]. simplify_eq.
    destruct (deep_clone_spec (EL := []) (c_mem c) (vals Wm) C (AN p' pl (Some a) ks) (Tr a ts)) as (t' & s' & Hcl & HI' & Hrt & (v & Hv) & Hl).
    { eexists. symmetry. by apply vals_delete. }
    { by constructor. }
    { apply HR. }
    cbn [aptr] in Hcl. exists (CSt (<[x := HT (aptr t')]> (c_env c)) s'), v, (HT (aptr t')). split_and!.
    + unfold step. cbn [cstep]. rewrite Hx'. unfold with_node. rewrite Henv. unfold bind. rewrite Hres', Hroot, Hcl. done.
    + cbn [c_env]. by rewrite lookup_insert.
    + intros p. cbn [addr c_mem]. rewrite (contiguous_resolve _ _ _ _ HI' Hv). by rewrite (rt_cntn _ _ Hrt).
  - exfalso. clear -Hk Hkk. destruct it as [u|us]; simpl in *; [by rewrite Hk in Hkk|]. destruct path; [done|]. destruct (us !! n); [|done]. by rewrite Hk in Hkk.
Qed.

End props.
