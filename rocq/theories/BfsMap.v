(** BfsMap.v — the iterator adaptor [map] on breadth-first visits. *)
From stdpp Require Import base gmap list.
From Verif Require Import Spec ClientSpec Machine NodeModel BfsModel ClientModel Sep Rep NodeProofs Inv SpecProofs Abs ClientProofs FromBfs BfsBuild BfsIter BfsMut.

Section map.
Context {A : Type}.
Implicit Types (t u : tree A) (ts us : list (tree A)) (f : list A -> A -> A).

(** ** lists of visits *)
Fixpoint map_vis f (hist : list A) (l : list (visit (A:=A))) : list (visit (A:=A)) :=
  match l with [] => [] | (a, dg, ds) :: l' => (f hist a, dg, ds) :: map_vis f (hist ++ [a]) l' end.
Lemma map_hist_length f l : forall hist, length (map_hist f hist l) = length l.
Proof. induction l as [|a l IH]; intros hist; simpl; [done|]. by rewrite IH. Qed.
Lemma imap_hist f l : imap (fun n a => default a (map_hist f [] l !! n)) l = map_hist f [] l.
Proof.
  apply list_eq. intros i. rewrite list_lookup_imap. destruct (l !! i) as [a|] eqn:E; simpl.
  - destruct (map_hist f [] l !! i) as [b|] eqn:E2; [done|]. apply lookup_ge_None in E2. rewrite map_hist_length in E2. apply lookup_lt_Some in E. lia.
  - symmetry. apply lookup_ge_None. rewrite map_hist_length. by apply lookup_ge_None.
Qed.
Lemma map_vis_spec f us : forall ts hist, (fun u => (length (kids u), nodes_f (kids u))) <$> us = (fun t => (length (kids t), nodes_f (kids t))) <$> ts ->
  root_of <$> us = map_hist f hist (root_of <$> ts) -> visit_of <$> us = map_vis f hist (visit_of <$> ts).
Proof.
  induction us as [|u us IH]; intros [|t ts] hist H1 H2; try done. cbn in H1, H2. injection H1 as Ha Hb H1. injection H2 as Hc H2. cbn [fmap list_fmap map_vis visit_of].
  rewrite (IH ts (hist ++ [root_of t]) H1 H2). unfold visit_of. by rewrite Ha, Hb, Hc.
Qed.

(** ** trees of the same shape *)
Lemma ss_nodes : forall t u, same_shape t u -> nodes t = nodes u.
Proof.
  fix IH 3. intros t u H. destruct H as [a b ts us H]. cbn [nodes]. f_equal. induction H as [|x y xs ys Hxy _ IHl]; [done|]. simpl. rewrite IHl. f_equal. by apply IH.
Qed.
Lemma ss_nodes_f ts us : Forall2 same_shape ts us -> nodes_f ts = nodes_f us.
Proof. intros H. unfold nodes_f. induction H as [|x y xs ys Hxy _ IHl]; [done|]. simpl. rewrite IHl. by rewrite (ss_nodes _ _ Hxy). Qed.
Lemma ss_flat {X} (g : X -> list (tree A)) (g' : X -> list (tree A)) l : (forall x, Forall2 same_shape (g x) (g' x)) -> Forall2 same_shape (flat_map g l) (flat_map g' l).
Proof. intros H. induction l as [|x l IH]; [constructor|]. cbn. by apply Forall2_app. Qed.
Lemma ss_level n : forall t u, same_shape t u -> Forall2 same_shape (level n t) (level n u).
Proof.
  induction n as [|n IH]; intros t u H; [by repeat constructor|]. destruct t as [a ts], u as [b us]. apply ss_kids in H. cbn [level kids] in *.
  induction H as [|x y xs ys Hxy _ IHl]; [constructor|]. cbn. apply Forall2_app; [by apply IH|done].
Qed.
Lemma ss_level_order t u : same_shape t u -> Forall2 same_shape (level_order t) (level_order u).
Proof. intros H. unfold level_order. rewrite (ss_height _ _ H). apply ss_flat. intros n. by apply ss_level. Qed.
Lemma ss_level_order_f ts us : Forall2 same_shape ts us -> Forall2 same_shape (level_order_f ts) (level_order_f us).
Proof.
  intros H. unfold level_order_f. rewrite (ss_heights _ _ H). apply ss_flat. intros n.
  induction H as [|x y xs ys Hxy _ IHl]; [constructor|]. cbn. apply Forall2_app; [by apply ss_level|done].
Qed.
Lemma ss_sizes ts us : Forall2 same_shape ts us -> (fun u => (length (kids u), nodes_f (kids u))) <$> ts = (fun t => (length (kids t), nodes_f (kids t))) <$> us.
Proof.
  intros H. induction H as [|x y xs ys Hxy _ IHl]; [done|]. cbn. rewrite IHl. apply ss_kids in Hxy. by rewrite (Forall2_length _ _ _ Hxy), (ss_nodes_f _ _ Hxy).
Qed.

Lemma bfs_fmap_shape f t : same_shape (bfs_fmap f t) t.
Proof. apply pmap_ss. Qed.
Lemma bfs_fmap_f_shape f ts : Forall2 same_shape (bfs_fmap_f f ts) ts.
Proof. apply pmap_f_ss. Qed.
Lemma bfs_fmap_data f t : root_of <$> level_order (bfs_fmap f t) = map_hist f [] (root_of <$> level_order t).
Proof. unfold bfs_fmap. by rewrite bfs_map_values, imap_hist. Qed.
Lemma bfs_fmap_f_data f ts : root_of <$> level_order_f (bfs_fmap_f f ts) = map_hist f [] (root_of <$> level_order_f ts).
Proof. unfold bfs_fmap_f. by rewrite bfs_map_f_values, imap_hist. Qed.
Lemma bfs_fmap_visits f t : visit_of <$> level_order (bfs_fmap f t) = map_vis f [] (visit_of <$> level_order t).
Proof. apply map_vis_spec; [|apply bfs_fmap_data]. apply ss_sizes, ss_level_order, bfs_fmap_shape. Qed.
Lemma bfs_fmap_f_visits f ts : visit_of <$> level_order_f (bfs_fmap_f f ts) = map_vis f [] (visit_of <$> level_order_f ts).
Proof. apply map_vis_spec; [|apply bfs_fmap_f_data]. apply ss_sizes, ss_level_order_f, bfs_fmap_f_shape. Qed.

(** ** the iterator *)
Lemma map_yields {S} f (next : S -> M A (option (visit (A:=A)) * S)) R Rend : yields next R Rend ->
  yields (map_next f next) (fun it ys W => exists ys0, R it.1 ys0 W /\ ys = map_vis f it.2 ys0) Rend.
Proof.
  intros H [it hist] ys W E s (ys0 & HR & ->) HI. specialize (H it ys0 W E s HR HI). unfold map_next, bind. cbn [fst snd] in *.
  destruct ys0 as [|[[a dg] ds] ys0]; cbn [map_vis].
  - destruct H as (it' & s' & W' & -> & ? & ? & ?). cbn. eauto 10.
  - destruct H as (it' & s' & W' & -> & ? & ? & ?). cbn. eexists _, s', W'. split_and!; [done|done| |done]. exists ys0. done.
Qed.
Lemma pure_map_next {S} f (next : S -> M A (option (visit (A:=A)) * S)) it : (forall it, pure (next it)) -> pure (map_next f next it).
Proof. intros H. apply pure_bind; [apply H|]. intros r. destruct r.1 as [[[??]?]|]; apply pure_ret. Qed.

Lemma map_bfs_spec {EL : list (ptr * node A)} f s W C (t : atree A) (x : tree A) : located W C t -> rt t x -> MInvX s W EL ->
  exists (t' : atree A) s', (let! b := bfs (aptr t) in tree_from_bfs (map_next f sp_next) (b.1, [])) s = Ok (aptr t') s' /\
    MInvX s' (t' :: W) EL /\ rt t' (bfs_fmap f x) /\ contiguous t' /\ m_log s' = m_log s.
Proof.
  intros Hl Hr HI.
  assert (exists ys0, Rsp W [ci_once (aptr t)] ys0 W /\ visit_of <$> level_order (bfs_fmap f x) = map_vis f [] ys0) as HR.
  { exists (visit_of <$> level_order x). split; [by eapply Rsp_tree|apply bfs_fmap_visits]. }
  destruct (tree_from_bfs_spec _ _ _ (map_yields f _ _ _ (sp_yields W)) _ ([ci_once (aptr t)], []) _ _ _ _ (qo_level_order (bfs_fmap f x)) HR HI) as (t' & s' & W' & Hc & HI' & Hr' & Hco & -> & Hlog).
  exists t', s'. split_and!; [|done..]. unfold bfs. destruct t as [p pl v ks]. cbn [aptr] in *.
  unfold bind, get. rewrite (located_get _ _ _ _ _ _ _ _ Hl HI). cbn [ret fst]. done.
Qed.
Lemma map_bfs_children_spec {EL : list (ptr * node A)} f s W C p pl v ks xs : located W C (AN p pl v ks) -> Forall2 rt ks xs -> MInvX s W EL ->
  exists (t' : atree A) s', (let! b := bfs_children p in forest_from_bfs (map_next f sp_next) (b.1, []) b.2.1 b.2.2) s = Ok (aptr t') s' /\
    MInvX s' (t' :: W) EL /\ ri t' (IForest (bfs_fmap_f f xs)) /\ contiguous t' /\ m_log s' = m_log s.
Proof.
  intros Hl Hr HI. destruct (crel_iter _ _ _ _ _ _ _ _ Hl HI) as (it & Hit & Hcr).
  assert (exists ys0, Rsp W [it] ys0 W /\ visit_of <$> level_order_f (bfs_fmap_f f xs) = map_vis f [] ys0) as HR.
  { exists (visit_of <$> level_order_f xs). split; [by eapply Rsp_kids|apply bfs_fmap_f_visits]. }
  destruct (forest_from_bfs_spec _ _ _ (map_yields f _ _ _ (sp_yields W)) _ ([it], []) _ _ _ _ (qo_level_order_f (bfs_fmap_f f xs)) HR HI) as (t' & s' & W' & Hc & HI' & Hr' & Hco & -> & Hlog).
  exists t', s'. split_and!; [|done..]. unfold bfs_children.
  unfold bind, get. rewrite Hit, (located_get _ _ _ _ _ _ _ _ Hl HI). cbn [ret fst snd mk n_deg n_desc].
  pose proof (bfs_fmap_f_shape f xs) as Hs. rewrite (Forall2_length _ _ _ Hs), (ss_nodes_f _ _ Hs) in Hc.
  by rewrite (Forall2_length _ _ _ Hr), (rts_cnts _ _ Hr), Hc.
Qed.
End map.
