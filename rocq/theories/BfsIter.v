(** BfsIter.v — the breadth-first iterators: reading ([bfs], [bfs_mut]) and owning ([into_bfs]). *)
From stdpp Require Import base gmap list.
From Verif Require Import Spec ClientSpec Machine NodeModel BfsModel Sep Rep NodeProofs Inv ClientModel Abs ClientProofs FromBfs BfsBuild.

Section iters.
Context {A : Type}.
Implicit Types (p : ptr) (W : list (atree A)) (s : mem A) (E : list (ptr * node A)) (t k : atree A) (ks : list (atree A)) (C : ctx A).

(** [t] is part of one of the trees [W], in the context [C] *)
Definition located W C t : Prop := exists W', W ≡ₚ plug C t :: W'.

Lemma located_kid W C p pl v ks i k : located W C (AN p pl v ks) -> ks !! i = Some k ->
  located W (Fr p pl v (take i ks) (drop (S i) ks) :: C) k.
Proof. intros [W' HW] Hk. exists W'. by rewrite HW, (kid_in C p pl v ks i k Hk). Qed.
Lemma located_inv s W E C t : located W C t -> MInvX s W E -> exists W', MInvX s (plug C t :: W') E.
Proof. intros [W' HW] H. exists W'. by eapply MInv_perm. Qed.
Lemma located_elem W t : t ∈ W -> located W [] t.
Proof. intros (W1 & W2 & ->)%elem_of_list_split. exists (W1 ++ W2). by rewrite <-Permutation_middle. Qed.
Lemma located_get s W E C p pl v ks : located W C (AN p pl v ks) -> MInvX s W E ->
  m_heap s !! p = Some (mk (up_of C) (prev_of C) (next_of C) p pl v ks).
Proof. intros Hl H. destruct (located_inv _ _ _ _ _ Hl H) as [W' H']. by eapply lookup_at. Qed.
Lemma located_data s W E C p pl a ks : located W C (AN p pl (Some a) ks) -> MInvX s W E -> data p s = Ok a s.
Proof. intros Hl H. destruct (located_inv _ _ _ _ _ Hl H) as [W' H']. by eapply data_at. Qed.

(** [ks] are consecutive siblings *)
Inductive chain W : list (atree A) -> Prop :=
  | chain_nil : chain W []
  | chain_cons C k ks : located W C k -> (ks <> [] -> next_of C = hdp ks None) -> chain W ks -> chain W (k :: ks).

Lemma chain_once W C t : located W C t -> chain W [t].
Proof. intros. econstructor; [done|done|constructor]. Qed.
Lemma chain_kids W C p pl v ks : located W C (AN p pl v ks) -> chain W ks.
Proof.
  intros Hl. assert (forall j, chain W (drop j ks)) as H; [|by apply (H 0)].
  intros j. remember (length ks - j) as m eqn:Hm. revert j Hm. induction m as [|m IH]; intros j Hm.
  - rewrite drop_ge by lia. constructor.
  - destruct (ks !! j) as [k|] eqn:Hk; [|apply lookup_ge_None in Hk; lia]. rewrite (drop_S _ _ _ Hk).
    econstructor; [by eapply located_kid|done|]. apply IH. lia.
Qed.

(** the iterator [it] still gives [ks] *)
Record crel W (it : citer) ks : Prop := {
  cr_len : ci_len it = length ks;
  cr_cur : ks <> [] -> ci_curr it = hdp ks None;
  cr_chain : chain W ks }.

Lemma crel_nil W it s : crel W it [] -> ci_next it s = Ok (None, it) s.
Proof. intros [Hl _ _]. unfold ci_next. by rewrite Hl. Qed.
Lemma crel_cons W E it k ks s : crel W it (k :: ks) -> MInvX s W E ->
  exists it', ci_next it s = Ok (Some (aptr k), it') s /\ crel W it' ks.
Proof.
  intros [Hl Hc Hch] HI. inversion Hch as [|C ? ? Hloc Hn Hch']; subst. destruct k as [p pl v kk].
  eexists. split.
  - unfold ci_next. rewrite Hl. cbn [length]. rewrite Hc by done. cbn [hdp aptr]. unfold bind, get.
    rewrite (located_get _ _ _ _ _ _ _ _ Hloc HI). cbn [mk n_next]. done.
  - split; cbn [ci_len ci_curr]; [done|done|done].
Qed.
Lemma crel_iter W E C p pl v ks s : located W C (AN p pl v ks) -> MInvX s W E ->
  exists it, iter p s = Ok it s /\ crel W it ks.
Proof.
  intros Hloc HI. unfold iter, bind, get. rewrite (located_get _ _ _ _ _ _ _ _ Hloc HI). cbn [mk n_head n_deg].
  eexists. split; [done|]. pose proof (chain_kids _ _ _ _ _ _ Hloc). destruct ks; (split; [done|done|done]).
Qed.

Lemma chain_located W ks k : chain W ks -> k ∈ ks -> exists C, located W C k.
Proof. intros H Hk. induction H as [|C k' ks Hl _ H IH]; [by apply elem_of_nil in Hk|]. apply elem_of_cons in Hk as [->|Hk]; eauto. Qed.
Lemma crels_located W q qs k : Forall2 (crel W) q qs -> k ∈ concat qs -> exists C, located W C k.
Proof.
  intros H Hk. induction H as [|it ks q qs Hc H IH]; simpl in Hk; [by apply elem_of_nil in Hk|].
  apply elem_of_app in Hk as [Hk|Hk]; [|eauto]. destruct Hc as [_ _ Hch]. by eapply chain_located.
Qed.

Lemma sp_next_node_none W s q qs : Forall2 (crel W) q qs -> concat qs = [] -> sp_next_node q s = Ok (None, []) s.
Proof.
  intros H Hc. induction H as [|it ks q qs Hr H IH]; [done|]. cbn [concat] in Hc. apply app_eq_nil in Hc as [-> Hc].
  cbn [sp_next_node]. unfold bind at 1. rewrite (crel_nil _ _ s Hr). cbn [fst snd]. by apply IH.
Qed.
Lemma sp_next_node_some W E s q qs p pl a ks rest : Forall2 (crel W) q qs -> MInvX s W E ->
  concat qs = AN p pl (Some a) ks :: rest ->
  exists q' qs', sp_next_node q s = Ok (Some (p, length ks, cnts ks), q') s /\ Forall2 (crel W) q' qs' /\ concat qs' = rest ++ ks.
Proof.
  intros H HI Hc. induction H as [|it ks1 q qs Hr H IH]; [done|]. cbn [concat] in Hc. cbn [sp_next_node]. destruct ks1 as [|k ks1].
  - unfold bind at 1. rewrite (crel_nil _ _ s Hr). cbn [fst snd]. by apply IH.
  - simpl in Hc. injection Hc as -> Hc. destruct (crel_cons _ _ _ _ _ _ Hr HI) as (it' & Hn & Hr').
    unfold bind at 1. rewrite Hn. cbn [fst snd aptr].
    destruct (chain_located W (AN p pl (Some a) ks :: ks1) (AN p pl (Some a) ks)) as [C Hloc]; [apply Hr|left|].
    unfold bind at 1. rewrite (located_data _ _ _ _ _ _ _ _ Hloc HI).
    destruct (crel_iter _ _ _ _ _ _ _ _ Hloc HI) as (it2 & Hit & Hr2). unfold bind at 1. rewrite Hit.
    unfold bind, get. rewrite (located_get _ _ _ _ _ _ _ _ Hloc HI). unfold ret, ci_size_hint. rewrite (cr_len _ _ _ Hr2). cbn [mk n_desc].
    exists ((it' :: q) ++ [it2]), ((ks1 :: qs) ++ [ks]). split; [done|]. split.
    + apply Forall2_app; constructor; done || by constructor.
    + rewrite concat_app. simpl. by rewrite app_nil_r, Hc.
Qed.

(** reading iterators give the visits of the nodes in queue order *)
Definition Rsp W0 (it : list citer) (ys : list (visit (A:=A))) W : Prop :=
  W = W0 /\ exists qs xs r, Forall2 (crel W) it qs /\ Forall2 rt (concat qs) xs /\ qo xs r /\ ys = visit_of <$> r.

Lemma sp_yields W0 : yields sp_next (Rsp W0) (fun W => W = W0).
Proof.
  intros it ys W E s (-> & qs & xs & r & Hq & Hrt & Hqo & ->) HI. inversion Hqo as [|x q r' Hqo']; subst.
  - rewrite fmap_nil. inversion Hrt as [Hc|]. exists [], s, W0. split_and!; [|done|done|done].
    unfold sp_next, bind. by rewrite (sp_next_node_none _ s _ _ Hq).
  - rewrite fmap_cons. inversion Hrt as [|k ? rest ? Hk Hrest Hc]; subst. symmetry in Hc.
    inversion Hk as [p pl a ks xs Hks]; subst.
    destruct (sp_next_node_some _ _ _ _ _ _ _ _ _ _ Hq HI Hc) as (q' & qs' & Hn & Hq' & Hc').
    exists q', s, W0. split_and!; [|done| |done].
    + unfold sp_next, bind. rewrite Hn. cbn [fst snd].
      destruct (crels_located _ _ _ (AN p pl (Some a) ks) Hq) as [C Hloc]; [rewrite Hc; left|].
      rewrite (located_data _ _ _ _ _ _ _ _ Hloc HI). unfold ret, visit_of. cbn [root_of kids].
      by rewrite (Forall2_length _ _ _ Hks), (rts_cnts _ _ Hks).
    + split; [done|]. exists qs', (q ++ xs), r'. split_and!; [done| |done|done]. rewrite Hc'. by apply Forall2_app.
Qed.

Lemma Rsp_tree W C t x : located W C t -> rt t x -> Rsp W [ci_once (aptr t)] (visit_of <$> level_order x) W.
Proof.
  intros Hl Hr. split; [done|]. exists [[t]], [x], (level_order x). split_and!; [|by repeat constructor|apply qo_level_order|done].
  constructor; [|constructor]. split; [done|done|by eapply chain_once].
Qed.
Lemma Rsp_kids W it ks xs : crel W it ks -> Forall2 rt ks xs -> Rsp W [it] (visit_of <$> level_order_f xs) W.
Proof.
  intros Hl Hr. split; [done|]. exists [ks], xs, (level_order_f xs). split_and!; [constructor; [done|constructor]| |apply qo_level_order_f|done].
  simpl. by rewrite app_nil_r.
Qed.

(** collecting *)
Lemma collect_spec {S} (next : S -> M A (option (visit (A:=A)) * S)) R Rend : yields next R Rend ->
  forall ys it W E s f, R it ys W -> MInvX s W E -> length ys < f ->
  exists s' W', collect next f it s = Ok ys s' /\ MInvX s' W' E /\ Rend W' /\ m_log s' = m_log s.
Proof.
  intros Hy ys. induction ys as [|y ys IH]; intros it W E s f HR HI Hf; (destruct f as [|f]; [simpl in Hf; lia|]); cbn [collect]; unfold bind at 1.
  - destruct (Hy _ _ _ _ _ HR HI) as (it' & s' & W' & -> & HI' & HR' & Hl). eauto 10.
  - destruct (Hy _ _ _ _ _ HR HI) as (it' & s' & W' & -> & HI' & HR' & Hl). cbn [fst snd].
    destruct (IH it' W' E s' f HR' HI') as (s2 & W2 & Hc & HI2 & HR2 & Hl2); [simpl in Hf; lia|].
    unfold bind. rewrite Hc. exists s2, W2. split_and!; [done|done|done|congruence].
Qed.

Lemma located_size s W E C t : located W C t -> MInvX s W E -> cntn t <= size (m_heap s).
Proof.
  intros Hl HI. destruct (located_inv _ _ _ _ _ Hl HI) as [W' H]. pose proof (MInv_size _ _ _ _ H) as Hs.
  rewrite <-addrs_length in Hs. rewrite plug_addrs, app_length, addrs_length in Hs. lia.
Qed.
Lemma level_order_length (x : tree A) : length (level_order x) = nodes x.
Proof. rewrite (qo_length _ _ (qo_level_order x)). unfold nodes_f. simpl. lia. Qed.
Lemma level_order_f_length (xs : list (tree A)) : length (level_order_f xs) = nodes_f xs.
Proof. by rewrite (qo_length _ _ (qo_level_order_f xs)). Qed.


(** operations that only read *)
Definition pure {X} (m : M A X) : Prop := forall s x s', m s = Ok x s' -> s' = s.
Lemma pure_ret {X} (x : X) : pure (ret x).
Proof. by intros s y s' [= _ <-]. Qed.
Lemma pure_fail {X} e : pure (fail (X:=X) e).
Proof. done. Qed.
Lemma pure_bind {X Y} (m : M A X) (f : X -> M A Y) : pure m -> (forall x, pure (f x)) -> pure (bind m f).
Proof. intros Hm Hf s y s'. unfold bind. destruct (m s) as [x s1|] eqn:E; [|done]. apply Hm in E as ->. apply Hf. Qed.
Lemma pure_get p : pure (get (A:=A) p).
Proof. intros s x s'. unfold get. destruct (m_heap s !! p); [|done]. by intros [= _ <-]. Qed.
Lemma pure_gets {X} (f : mem A -> X) : pure (gets f).
Proof. by intros s y s' [= _ <-]. Qed.
Ltac pu := repeat first [apply pure_ret|apply pure_fail|apply pure_get|apply pure_gets|apply pure_bind; [|intros ?]|progress case_match].
Lemma pure_data p : pure (data (A:=A) p).
Proof. unfold data. apply pure_bind; [apply pure_get|]. intros n. unfold dat_ref. pu. Qed.
Lemma pure_iter p : pure (iter (A:=A) p).
Proof. unfold iter. pu. Qed.
Lemma pure_ci_next it : pure (ci_next (A:=A) it).
Proof. unfold ci_next. pu. Qed.
Lemma pure_sp_next_node q : pure (sp_next_node (A:=A) q).
Proof.
  induction q as [|it q IH]; cbn [sp_next_node]; [pu|]. apply pure_bind; [apply pure_ci_next|]. intros [[p|] it']; cbn [fst snd]; [|done].
  apply pure_bind; [apply pure_data|]. intros _. apply pure_bind; [apply pure_iter|]. intros ?. pu.
Qed.
Lemma pure_sp_next q : pure (sp_next (A:=A) q).
Proof.
  unfold sp_next. apply pure_bind; [apply pure_sp_next_node|]. intros [[[[p dg] ds]|] q']; cbn [fst snd]; [|pu].
  apply pure_bind; [apply pure_data|]. intros ?. pu.
Qed.
Lemma pure_collect {S X} (next : S -> M A (option X * S)) f : (forall it, pure (next it)) -> forall it, pure (collect next f it).
Proof.
  intros Hn. induction f as [|f IH]; intros it; cbn [collect]; [pu|]. apply pure_bind; [done|].
  intros [[x|] it']; cbn [fst snd]; [|pu]. apply pure_bind; [done|]. intros l. pu.
Qed.

Lemma bfs_visits_spec s W E C t x : located W C t -> rt t x -> MInvX s W E ->
  bfs_visits (aptr t) s = Ok (visit_of <$> level_order x) s.
Proof.
  intros Hl Hr HI. pose proof (Rsp_tree _ _ _ _ Hl Hr) as HR.
  destruct (collect_spec _ _ _ (sp_yields W) _ _ _ _ s (Datatypes.S (size (m_heap s))) HR HI) as (s' & W' & Hc & _).
  { rewrite fmap_length, level_order_length, <-(rt_cntn _ _ Hr). pose proof (located_size _ _ _ _ _ Hl HI). lia. }
  unfold bfs_visits, bfs. destruct t as [p pl v ks]. cbn [aptr] in *.
  unfold bind, get, fuel, gets. rewrite (located_get _ _ _ _ _ _ _ _ Hl HI). cbn [ret fst]. rewrite Hc.
  by rewrite (pure_collect _ _ pure_sp_next _ _ _ _ Hc).
Qed.
Lemma bfs_children_visits_spec s W E C p pl v ks xs : located W C (AN p pl v ks) -> Forall2 rt ks xs -> MInvX s W E ->
  bfs_children_visits p s = Ok (visit_of <$> level_order_f xs) s.
Proof.
  intros Hl Hr HI. destruct (crel_iter _ _ _ _ _ _ _ _ Hl HI) as (it & Hit & Hcr). pose proof (Rsp_kids _ _ _ _ Hcr Hr) as HR.
  destruct (collect_spec _ _ _ (sp_yields W) _ _ _ _ s (Datatypes.S (size (m_heap s))) HR HI) as (s' & W' & Hc & _).
  { rewrite fmap_length, level_order_f_length, <-(rts_cnts _ _ Hr). pose proof (located_size _ _ _ _ _ Hl HI) as Hs. rewrite cntn_eq in Hs. lia. }
  unfold bfs_children_visits, bfs_children. unfold bind, get, fuel, gets. rewrite Hit, (located_get _ _ _ _ _ _ _ _ Hl HI). cbn [ret fst]. rewrite Hc.
  by rewrite (pure_collect _ _ pure_sp_next _ _ _ _ Hc).
Qed.

(** cloning *)
Lemma deep_clone_spec {EL : list (ptr * node A)} s W C t x : located W C t -> rt t x -> MInvX s W EL ->
  exists t' s', deep_clone (aptr t) s = Ok (aptr t') s' /\ MInvX s' (t' :: W) EL /\ rt t' x /\ contiguous t' /\ m_log s' = m_log s.
Proof.
  intros Hl Hr HI. destruct (tree_from_bfs_spec _ _ _ (sp_yields W) _ _ _ _ _ _ (qo_level_order x) (Rsp_tree _ _ _ _ Hl Hr) HI)
    as (t' & s' & W' & Hc & HI' & Hr' & Hco & -> & Hlog).
  exists t', s'. split_and!; [|done..]. unfold deep_clone, bfs. destruct t as [p pl v ks]. cbn [aptr] in *.
  unfold bind, get. rewrite (located_get _ _ _ _ _ _ _ _ Hl HI). cbn [ret fst]. by rewrite Hc.
Qed.
Lemma deep_clone_forest_spec {EL : list (ptr * node A)} s W C p pl v ks xs : located W C (AN p pl v ks) -> Forall2 rt ks xs -> MInvX s W EL ->
  exists t' s', deep_clone_forest p s = Ok (aptr t') s' /\ MInvX s' (t' :: W) EL /\ ri t' (IForest xs) /\ contiguous t' /\ m_log s' = m_log s.
Proof.
  intros Hl Hr HI. destruct (crel_iter _ _ _ _ _ _ _ _ Hl HI) as (it & Hit & Hcr).
  destruct (forest_from_bfs_spec _ _ _ (sp_yields W) _ _ _ _ _ _ (qo_level_order_f xs) (Rsp_kids _ _ _ _ Hcr Hr) HI)
    as (t' & s' & W' & Hc & HI' & Hr' & Hco & -> & Hlog).
  exists t', s'. split_and!; [|done..]. unfold deep_clone_forest, bfs_children.
  unfold bind, get. rewrite Hit, (located_get _ _ _ _ _ _ _ _ Hl HI). cbn [ret fst snd mk n_deg n_desc].
  by rewrite (Forall2_length _ _ _ Hr), (rts_cnts _ _ Hr), Hc.
Qed.

(** a list of visits *)
Lemma list_yields W0 : yields list_next (fun it ys W => it = ys /\ W = W0) (fun W => W = W0).
Proof. intros it ys W E s [-> ->] HI. destruct ys; simpl; eauto 10. Qed.
Lemma tree_from_visits_spec {EL : list (ptr * node A)} s W x : MInvX s W EL ->
  exists t' s', tree_from_bfs list_next (visit_of <$> level_order x) s = Ok (aptr t') s' /\ MInvX s' (t' :: W) EL /\ rt t' x /\ contiguous t' /\ m_log s' = m_log s.
Proof.
  intros HI. destruct (tree_from_bfs_spec _ _ _ (list_yields W) EL (visit_of <$> level_order x) W s x _ (qo_level_order x))
    as (t' & s' & W' & Hc & HI' & Hr' & Hco & -> & Hlog); [done|done|]. eauto 10.
Qed.
Lemma forest_from_visits_spec {EL : list (ptr * node A)} s W xs : MInvX s W EL ->
  exists t' s', forest_from_bfs list_next (visit_of <$> level_order_f xs) (length xs) (nodes_f xs) s = Ok (aptr t') s' /\ MInvX s' (t' :: W) EL /\ ri t' (IForest xs) /\ contiguous t' /\ m_log s' = m_log s.
Proof.
  intros HI. destruct (forest_from_bfs_spec _ _ _ (list_yields W) EL (visit_of <$> level_order_f xs) W s xs _ (qo_level_order_f xs))
    as (t' & s' & W' & Hc & HI' & Hr' & Hco & -> & Hlog); [done|done|]. eauto 10.
Qed.

(** * the owning iterator *)
Lemma into_data_spec s W E p pl a :
  MInvX s (AN p pl (Some a) [] :: W) E ->
  exists s', into_data p s = Ok a s' /\ MInvX s' W E /\ m_log s' = m_log s /\ m_fresh s' = m_fresh s.
Proof.
  intros H. destruct (drop_node_spec _ _ _ _ _ _ H) as (s' & Hd & HI & Hl & Hf).
  unfold drop_node, into_data in *. unfold bind, get in *. rewrite (lookup_at s [] p pl (Some a) [] W E H) in *. cbn [mk n_dat] in *.
  destruct (put p _ s) as [[] s1|] eqn:Hp; [|done]. destruct pl; cbn [dat_of] in *; unfold into_inner, bind.
  - destruct (decr_ref p.1 s1) as [[] s2|] eqn:Hr; [|done]. cbn [dat_vals] in Hd. unfold log_drop in Hd. simplify_eq. simpl in *.
    exists s2. apply app_inj_tail in Hl as [Hl _]. split_and!; [done| |done|done]. destruct HI. by split.
  - destruct (rc_drop p s1) as [[] s2|] eqn:Hr; [|done]. cbn [dat_vals] in Hd. unfold log_drop in Hd. simplify_eq. simpl in *.
    exists s2. apply app_inj_tail in Hl as [Hl _]. split_and!; [done| |done|done]. destruct HI. by split.
Qed.

Lemma split_tree_spec s W E p pl a ks : MInvX s (AN p pl (Some a) ks :: W) E ->
  exists s', split_tree p s = Ok (a, p, cnts ks) s' /\ MInvX s' (AN p pl None ks :: W) E /\ m_log s' = m_log s.
Proof.
  intros H. unfold split_tree, bind, get. rewrite (lookup_at s [] p pl (Some a) ks W E H).
  destruct (abandon_at _ _ _ _ _ _ _ H) as (s1 & np & -> & H1 & Hl1).
  cbn [fst snd]. destruct (into_data_spec _ _ _ _ _ _ H1) as (s2 & -> & H2 & Hl2 & _). cbn [ret mk n_desc].
  exists s2. split_and!; [done|done|congruence].
Qed.

Lemma into_iter_drain_spec p pl W E ks : forall f s, length ks < f -> MInvX s (AN p pl None ks :: W) E ->
  exists s', into_iter_drain f p s = Ok tt s' /\ MInvX s' (AN p pl None [] :: W) E /\ m_log s' = m_log s ++ aposts ks.
Proof.
  induction ks as [|k ks IH]; intros f s Hf H; (destruct f as [|f]; [simpl in Hf; lia|]); cbn [into_iter_drain]; unfold bind at 1, into_iter_next.
  - rewrite (pop_front_root_none _ _ _ _ _ _ H). exists s. simpl. rewrite app_nil_r. done.
  - destruct (pop_front_root_some _ _ _ _ _ _ _ _ H) as (h & -> & H1). unfold bind.
    destruct (drop_tree_spec _ _ _ _ H1) as (s2 & -> & H2 & Hl2 & _).
    destruct (IH f s2) as (s3 & H3 & H4 & Hl3); [simpl in Hf; lia|done|]. exists s3. split_and!; [done|done|].
    rewrite Hl3, Hl2. simpl. by rewrite app_assoc.
Qed.
Lemma into_iter_drop_spec p pl W E ks s : MInvX s (AN p pl None ks :: W) E ->
  exists s', into_iter_drop p s = Ok tt s' /\ MInvX s' W E /\ m_log s' = m_log s ++ aposts ks.
Proof.
  intros H. unfold into_iter_drop, bind, fuel, gets.
  assert (length ks < Datatypes.S (size (m_heap s))) as Hlen.
  { pose proof (MInv_size _ _ _ _ H) as Hs. rewrite cntn_eq in Hs. pose proof (length_cnts ks). lia. }
  destruct (into_iter_drain_spec _ _ _ _ _ (Datatypes.S (size (m_heap s))) _ Hlen H)
    as (s1 & -> & H1 & Hl1).
  destruct (drop_tree_spec _ _ _ _ H1) as (s2 & H2 & HI2 & Hl2 & _). cbn [aptr] in H2. exists s2. split_and!; [done|done|].
  rewrite Hl2, Hl1. simpl. by rewrite app_nil_r.
Qed.

(** the queue [fs] of forests is owned by the iterator *)
Definition isq W0 (it : list ptr) (fs W : list (atree A)) : Prop :=
  it = aptr <$> fs /\ W ≡ₚ fs ++ W0 /\ Forall (fun f => aval f = None) fs.

Lemma isp_next_none W0 E fs : forall it W s, isq W0 it fs W -> MInvX s W E -> flat_map akids fs = [] ->
  exists s', isp_next it s = Ok (None, []) s' /\ MInvX s' W0 E /\ m_log s' = m_log s.
Proof.
  induction fs as [|[p pl v ks] fs IH]; intros it W s (-> & HW & Hv) HI Hc.
  - exists s. split_and!; [done| |done]. by eapply MInv_perm.
  - cbn [flat_map akids] in Hc. apply app_eq_nil in Hc as [-> Hc]. apply Forall_cons in Hv as [Hv0 Hv]. simpl in Hv0. subst v.
    rewrite fmap_cons. cbn [isp_next aptr]. assert (MInvX s (AN p pl None [] :: fs ++ W0) E) as HI' by (by eapply MInv_perm).
    unfold bind at 1, into_iter_next. rewrite (pop_front_root_none _ _ _ _ _ _ HI').
    destruct (into_iter_drop_spec _ _ _ _ _ _ HI') as (s1 & H1 & HI1 & Hl1). unfold bind. rewrite H1.
    destruct (IH (aptr <$> fs) (fs ++ W0) s1) as (s2 & H2 & HI2 & Hl2); [done|done|done|]. exists s2. split_and!; [done|done|].
    rewrite Hl2, Hl1. simpl. by rewrite app_nil_r.
Qed.
Lemma isp_next_some W0 E fs p pl a ks rest : forall it W s, isq W0 it fs W -> MInvX s W E -> flat_map akids fs = AN p pl (Some a) ks :: rest ->
  exists it' fs' W' s', isp_next it s = Ok (Some (a, length ks, cnts ks), it') s' /\ MInvX s' W' E /\ isq W0 it' fs' W' /\
    flat_map akids fs' = rest ++ ks /\ m_log s' = m_log s.
Proof.
  induction fs as [|[f fl v gs] fs IH]; intros it W s (-> & HW & Hv) HI Hc; [done|].
  apply Forall_cons in Hv as [Hv0 Hv]. simpl in Hv0. subst v. rewrite fmap_cons. cbn [isp_next aptr].
  assert (MInvX s (AN f fl None gs :: fs ++ W0) E) as HI' by (by eapply MInv_perm).
  unfold bind at 1, into_iter_next. destruct gs as [|g gs].
  - rewrite (pop_front_root_none _ _ _ _ _ _ HI'). destruct (into_iter_drop_spec _ _ _ _ _ _ HI') as (s1 & H1 & HI1 & Hl1). unfold bind. rewrite H1.
    simpl in Hl1. rewrite app_nil_r in Hl1.
    destruct (IH (aptr <$> fs) (fs ++ W0) s1) as (it' & fs' & W' & s2 & H2 & HI2 & Hq & Hc2 & Hl2); [done|done|done|].
    exists it', fs', W', s2. split_and!; [done..|congruence].
  - simpl in Hc. injection Hc as -> Hc. destruct (pop_front_root_some _ _ _ _ _ _ _ _ HI') as (h & -> & HI1). cbn [aptr].
    destruct (split_tree_spec _ _ _ _ _ _ _ HI1) as (s2 & H2 & HI2 & Hl2). unfold bind at 1. rewrite H2. cbn [fst snd].
    unfold into_iter_size_hint, degree, bind, get. rewrite (lookup_at s2 [] p pl None ks _ _ HI2). cbn [ret mk n_deg].
    eexists _, ((AN f fl None gs :: fs) ++ [AN p pl None ks]), _, s2. split_and!; [done|exact HI2| | |].
    + split_and!.
      * by rewrite fmap_app.
      * rewrite <-app_assoc. simpl. rewrite <-Permutation_middle. apply Permutation_swap.
      * apply Forall_app. split; [by constructor|]. by repeat constructor.
    + rewrite flat_map_app. simpl. by rewrite app_nil_r, Hc.
    + rewrite Hl2. done.
Qed.

Definition Risp W0 (it : list ptr) (ys : list (visit (A:=A))) W : Prop :=
  exists fs xs r, isq W0 it fs W /\ Forall2 rt (flat_map akids fs) xs /\ qo xs r /\ ys = visit_of <$> r.

Lemma isp_yields W0 : yields isp_next (Risp W0) (fun W => W = W0).
Proof.
  intros it ys W E s (fs & xs & r & Hq & Hrt & Hqo & ->) HI. inversion Hqo as [|x q r' Hqo']; subst.
  - rewrite fmap_nil. inversion Hrt as [Hc|]. destruct (isp_next_none _ _ _ _ _ _ Hq HI) as (s' & H1 & H2 & H3); [done|]. eauto 10.
  - rewrite fmap_cons. inversion Hrt as [|k ? rest ? Hk Hrest Hc]; subst. symmetry in Hc.
    inversion Hk as [p pl a ks xs Hks]; subst.
    destruct (isp_next_some _ _ _ _ _ _ _ _ _ _ _ Hq HI Hc) as (it' & fs' & W' & s' & H1 & H2 & H3 & H4 & H5).
    exists it', s', W'. split_and!; [|done| |done].
    + rewrite H1. unfold visit_of. cbn [root_of kids]. by rewrite (Forall2_length _ _ _ Hks), (rts_cnts _ _ Hks).
    + exists fs', (q ++ xs), r'. split_and!; [done| |done|done]. rewrite H4. by apply Forall2_app.
Qed.

Lemma tree_into_iter_spec s W E p pl a ks : MInvX s (AN p pl (Some a) ks :: W) E ->
  exists f s', tree_into_iter p s = Ok f s' /\ MInvX s' (AN f false None [AN p pl (Some a) ks] :: W) E /\ m_log s' = m_log s.
Proof.
  intros H. destruct (make_node_spec s _ E (DScatN (0,0)) None H eq_refl) as (s1 & Hm & HI & Hl & _).
  set (f := (m_fresh s, 0)) in *. unfold tree_into_iter, forest_new, bind. rewrite Hm.
  destruct (push_at Back s1 [] f false None [] p pl a ks W E) as (h & Hp & HI').
  { eapply MInv_perm; [|exact HI]. apply Permutation_swap. }
  rewrite Hp. exists f, (set_heap s1 h). split_and!; [done|done|done].
Qed.


Lemma tree_into_bfs_spec s W0 E t x : rt t x -> MInvX s (t :: W0) E ->
  exists it fs s' W, tree_into_bfs (aptr t) s = Ok (it, (1, nodes_f (kids x))) s' /\ MInvX s' W E /\ isq W0 it fs W /\
    flat_map akids fs = [t] /\ m_log s' = m_log s.
Proof.
  intros Hr HI. inversion Hr as [p pl a ks xs Hks]; subst. unfold tree_into_bfs, bind, get. cbn [aptr].
  rewrite (lookup_at s [] p pl (Some a) ks W0 E HI). destruct (tree_into_iter_spec _ _ _ _ _ _ _ HI) as (f & s' & -> & HI' & Hl).
  exists [f], [AN f false None [AN p pl (Some a) ks]], s', (AN f false None [AN p pl (Some a) ks] :: W0).
  split_and!; [|done| |done|done].
  - cbn [ret mk n_desc]. by rewrite (rts_cnts _ _ Hks).
  - split_and!; [done|done|]. by repeat constructor.
Qed.
Lemma forest_into_bfs_spec s W0 E t xs : ri t (IForest xs) -> MInvX s (t :: W0) E ->
  exists it fs, forest_into_bfs (aptr t) s = Ok (it, (length xs, nodes_f xs)) s /\ isq W0 it fs (t :: W0) /\ flat_map akids fs = akids t.
Proof.
  intros Hr HI. destruct t as [p pl v ks]. destruct Hr as [Hv Hks]. simpl in Hv, Hks. subst v. unfold forest_into_bfs, bind, get. cbn [aptr].
  rewrite (lookup_at s [] p pl None ks W0 E HI). exists [p], [AN p pl None ks]. split_and!.
  - cbn [ret mk n_desc n_deg]. by rewrite (rts_cnts _ _ Hks), (Forall2_length _ _ _ Hks).
  - split_and!; [done|done|]. by repeat constructor.
  - simpl. by rewrite app_nil_r.
Qed.

Lemma isp_drop_spec W0 E fs : forall it W s, isq W0 it fs W -> MInvX s W E ->
  exists s', isp_drop it s = Ok tt s' /\ MInvX s' W0 E /\ m_log s' = m_log s ++ aposts (flat_map akids fs).
Proof.
  induction fs as [|[p pl v ks] fs IH]; intros it W s (-> & HW & Hv) HI.
  - exists s. split_and!; [done|by eapply MInv_perm|by rewrite app_nil_r].
  - apply Forall_cons in Hv as [Hv0 Hv]. simpl in Hv0. subst v. rewrite fmap_cons. cbn [isp_drop aptr].
    assert (MInvX s (AN p pl None ks :: fs ++ W0) E) as HI' by (by eapply MInv_perm).
    destruct (into_iter_drop_spec _ _ _ _ _ _ HI') as (s1 & H1 & HI1 & Hl1). unfold bind. rewrite H1.
    destruct (IH (aptr <$> fs) (fs ++ W0) s1) as (s2 & H2 & HI2 & Hl2); [done|done|]. exists s2. split_and!; [done|done|].
    rewrite Hl2, Hl1. cbn [flat_map akids]. unfold aposts. by rewrite flat_map_app, app_assoc.
Qed.
End iters.
