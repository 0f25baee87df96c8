(** RcProps3.v — [into_tree]. *)
From stdpp Require Import base gmap list.
From Verif Require Import Spec ClientSpec RcSpec Machine NodeModel BfsModel ClientModel RcModel RcAllowed RcClient Sep Rep NodeProofs Inv Abs ClientProofs
  BfsIter ClientRef ClientProps ClientStep CountFrame RcRelease RcLab RcRef RcStep RcStep2 RcStep3 RcStep4 RcBorrow RcProps RcProps2.

Section props.
Context {A : Type}.
Implicit Types (p q : ptr) (s : mem A) (c : rst A) (σ : rss A) (o : rop A) (i j h x : nat) (t u : ltree A) (ts : list (ltree A)).

Lemma pure_parent_loop f p : pure (parent_loop (A:=A) f p).
Proof. revert p. induction f as [|f IH]; intros p; cbn [parent_loop]; [apply pure_fail|]. apply pure_bind; [apply pure_get|]. intros n. destruct (n_up n); [|apply pure_ret].
  apply pure_bind; [apply pure_get|]. intros m. destruct (is_forest_dat _); [apply IH|apply pure_ret].
Qed.
Lemma pure_parent p : pure (parent (A:=A) p).
Proof. apply pure_bind; [apply pure_gets|]. intros f. apply pure_parent_loop. Qed.
Lemma pure_vec_ref v : pure (vec_ref (A:=A) v).
Proof. intros s y s'. unfold vec_ref. destruct (m_vec s !! v); [|done]. by intros [= _ <-]. Qed.
Lemma pure_borrow B r : pure (node_borrow (A:=A) B r).
Proof.
  unfold node_borrow. apply pure_bind; [destruct r; [apply pure_ret|apply pure_vec_ref]|]. intros _. apply pure_bind; [apply pure_get|]. intros n.
  destruct (bool_decide _); [apply pure_fail|]. destruct (is_none_dat _); [apply pure_fail|apply pure_ret].
Qed.
Lemma pure_into_tree B r : pure (rc_into_tree (A:=A) B r).
Proof.
  unfold rc_into_tree. apply pure_bind.
  - unfold rc_is_root. apply pure_bind; [apply pure_borrow|]. intros _. apply pure_bind; [apply pure_parent|]. intros o. apply pure_ret.
  - intros []; [|apply pure_fail]. destruct r; [destruct (bool_decide _); [apply pure_fail|apply pure_ret]|]. apply pure_bind; [apply pure_vec_ref|]. intros _. apply pure_ret.
Qed.
Lemma into_tree_addr B r s p s' : rc_into_tree (A:=A) B r s = Ok p s' -> p = raddr r.
Proof.
  unfold rc_into_tree, bind. destruct (rc_is_root B r s) as [[] s1|]; try done. destruct r; cbn [raddr].
  - destruct (bool_decide _); [done|]. by intros [= <- _].
  - destruct (vec_ref v s1); [|done]. by intros [= <- _].
Qed.

Lemma into_tree_prop c σ h i t x : reached c σ -> rs_h σ !! h = Some i -> lfind i (rs_sh σ) = Some t -> op_allowed c σ (SIntoTree h x) ->
  env_of σ !! x = None -> (forall g m, rs_g σ !! g <> Some (h, m)) ->
  (i ∈ lid <$> rs_sh σ -> exists c' σ', rstep c (SIntoTree h x) = RDone RUnit c' /\ reached c' σ' /\ r_mem c' = r_mem c /\
     env_of σ' = <[x := ITree (erase t)]> (env_of σ) /\ rs_h σ' = delete h (rs_h σ) /\ lids (rs_sh σ') ⊆ lids (rs_sh σ) /\
     (forall j, j ∈ lids (rs_sh σ) -> j ∈ lids (rs_sh σ') <-> j ∉ lid <$> lsubs t)) /\
  (i ∉ lid <$> rs_sh σ -> rstep c (SIntoTree h x) = RFails EPanic).
Proof.
  intros HRc Hh Hf Hal Hx Hg. pose proof (reached_step c σ (SIntoTree h x) HRc Hal) as Hst. cbn [rsstep] in Hst. unfold reading, on_node in Hst. rewrite Hx, Hh, Hf in Hst.
  assert (bool_decide (h ∈ ((map_to_list (rs_g σ)).*2).*1) = false) as Eg.
  { apply bool_decide_eq_false. intros Hin. apply elem_of_list_fmap in Hin as ([h' m] & -> & Hin). apply elem_of_list_fmap in Hin as ([g y] & Heq & Hin). cbn in Heq. subst y.
    apply elem_of_map_to_list in Hin. by apply (Hg g m). }
  rewrite Eg in Hst. destruct (Hal i t Hh Hf) as (O1 & O2 & O3).
  assert (readable σ i = true) as Hrd.
  { destruct (readable σ i) eqn:E; [done|]. apply readable_spec, guards_spec in E as (g & h' & E1 & E2). destruct (decide (h' = h)) as [->|Hne]; [by destruct (Hg g true)|].
    destruct (O1 h' i Hne E2). apply lfind_some in Hf as [_ <-]. destruct t. rewrite lids_node. left. }
  rewrite Hrd in Hst. split; intros Hroot.
  - rewrite decide_True in Hst by done. destruct Hst as (c' & E & HR'). eexists c', _. split; [exact E|]. split; [exact HR'|]. cbn [env_of rs_x rs_h rs_sh set_h set_sh set_env set_x s_env]. split_and!; try done.
    + cbn [rstep] in E. destruct (r_env c !! x); [done|]. destruct (r_h c !! h); [|done]. destruct (bool_decide _); [done|]. unfold call in E.
      destruct (rc_into_tree (r_b c) r (r_mem c)) as [p s|] eqn:Er; [|done]. apply pure_into_tree in Er. injection E as <-. done.
    + intros j. unfold lids, lall. rewrite !elem_of_list_fmap. intros (u & -> & Hu). exists u. split; [done|]. apply elem_of_list_In, in_flat_map in Hu as (v & Hv & Hu). apply elem_of_list_In, in_flat_map.
      exists v. split; [|done]. apply elem_of_list_In. apply elem_of_list_In, elem_of_list_filter in Hv. tauto.
    + pose proof (RI_ids _ _ (reached_RI _ _ HRc)) as HN. apply elem_of_list_fmap in Hroot as (t' & -> & Ht'). apply elem_of_list_split in Ht' as (L1 & L2 & HL).
      assert (t' = t) as ->. { rewrite HL in Hf, HN. pose proof (loc_find L1 L2 [] t' HN) as Hf'. cbn in Hf'. congruence. }
      rewrite HL in *. assert (filter (fun u : ltree A => lid u <> lid t) (L1 ++ t :: L2) = L1 ++ L2) as Hfl.
      { pose proof HN as HN1. rewrite lids_split in HN1. apply NoDup_app in HN1 as (HN1 & _). rewrite fmap_app in HN1. simpl in HN1. apply NoDup_app in HN1 as (_ & N2 & N3). apply NoDup_cons in N3 as [N3 _].
        rewrite filter_app, filter_cons_False by tauto. rewrite !filter_root; [done|done|]. intros Hq. apply (N2 _ Hq). left. }
      rewrite Hfl. rewrite (lids_app L1 (t :: L2)), (lids_app L1 L2), (lids_cons t) in *. intros j Hj. apply NoDup_app in HN as (_ & N2 & N3). apply NoDup_app in N3 as (_ & N3 & _).
      rewrite !elem_of_app in *. split.
      * intros [H1|H2] Hjt; [apply (N2 j H1); apply elem_of_app; by left|by apply (N3 j)].
      * tauto.
  - rewrite decide_False in Hst by done. done.
Qed.

Lemma label_ge (y : tree A) : forall n j, j ∈ lid <$> lsubs (label n y) -> n <= j.
Proof.
  induction y as [a xs IH] using tree_ind'. intros n j. rewrite label_eq, lids_node, elem_of_cons. intros [->|Hj]; [lia|].
  enough (forall m, j ∈ lids (label_f m xs) -> m <= j) as He; [specialize (He _ Hj); lia|]. clear Hj. induction IH as [|y xs Hy _ IH]; intros m Hj; [by apply elem_of_nil in Hj|].
  cbn [label_f] in Hj. rewrite lids_cons, elem_of_app in Hj. destruct Hj as [Hj|Hj]; [by apply Hy|]. specialize (IH _ Hj). lia.
Qed.
Lemma RI_old c σ : RI c σ -> (forall w j, rs_w σ !! w = Some j -> j < rs_next σ) /\ (forall it j n, rs_it σ !! it = Some (Some j, n) -> j < rs_next σ).
Proof.
  intros (Wm & SH & Hs & s & ψ & HR). destruct (iv_id _ _ _ _ _ _ _ HR) as (_ & Hb & _). split.
  - intros w j Hj. pose proof (iv_w _ _ _ _ _ _ _ HR w) as Hw. rewrite Hj in Hw. inversion Hw as [y z Hyz Hy Hz|]; subst. destruct Hyz as (q & _ & Hq & _). by eapply Hb.
  - intros it j n Hj. pose proof (iv_it _ _ _ _ _ _ _ HR it) as Hi. rewrite Hj in Hi. inversion Hi as [y z Hyz Hy Hz|]; subst. destruct Hyz as [Hq _]. cbn in Hq. inversion Hq; subst. by eapply Hb.
Qed.
Lemma from_into_tree c σ x h (t : tree A) : reached c σ -> env_of σ !! x = Some (ITree t) -> rs_h σ !! h = None ->
  rrun c [SFrom x h; SIntoTree h x] = RDone [RUnit; RUnit] c.
Proof.
  intros HRc Hx Hh. destruct (RI_old c σ (reached_RI _ _ HRc)) as [Hw Hit]. pose proof (reached_step c σ (SFrom x h) HRc I) as H1. cbn [rsstep] in H1. rewrite Hh, Hx in H1. destruct H1 as (c1 & E1 & HR1).
  set (σ1 := set_nx _ _) in HR1.
  assert (rs_h σ1 !! h = Some (rs_next σ)) as Hh1. { unfold σ1. cbn. by rewrite lookup_insert. }
  assert (lid (label (rs_next σ) t) = rs_next σ) as Hlid by by destruct t.
  pose proof (RI_ids _ _ (reached_RI _ _ HR1)) as HN. cbn [σ1 set_nx set_h set_sh rs_sh] in HN.
  pose proof (loc_find (rs_sh σ) [] [] (label (rs_next σ) t) HN) as Hf. rewrite Hlid in Hf. change (lfind (rs_next σ) (rs_sh σ1) = Some (label (rs_next σ) t)) in Hf.
  assert (forall g m, rs_g σ1 !! g <> Some (h, m)) as Hg.
  { intros g m Hg. change (rs_g σ1) with (rs_g σ) in Hg. apply (RI_guard_h _ _ _ _ _ (reached_RI _ _ HRc)) in Hg as [? Hg]. congruence. }
  destruct (into_tree_prop c1 σ1 h (rs_next σ) (label (rs_next σ) t) x HR1 Hh1 Hf) as [H2 _].
  - intros i u Hi Hu. rewrite Hh1 in Hi. injection Hi as <-. rewrite Hf in Hu. injection Hu as <-. split_and!.
    + intros h' j Hne Hj Hin. cbn [σ1 set_nx set_h set_sh rs_h] in Hj. rewrite lookup_insert_ne in Hj by done. pose proof (RI_alive_h _ _ _ _ (reached_RI _ _ HRc) Hj) as Hal.
      rewrite lids_app in HN. apply NoDup_app in HN as (_ & HN & _). apply (HN j Hal). rewrite lids_cons. apply elem_of_app. by left.
    + intros w j Hj Hin. apply Hw in Hj. apply label_ge in Hin. lia.
    + intros it j n Hj Hin. apply Hit in Hj. apply label_ge in Hin. lia.
  - cbn. by rewrite lookup_delete.
  - exact Hg.
  - destruct H2 as (c2 & σ2 & E2 & _ & Hmem & _).
    { cbn [σ1 set_nx set_h set_sh rs_sh]. rewrite fmap_app, elem_of_app. right. cbn. rewrite Hlid. left. }
    cbn [rrun]. rewrite E1, E2. do 2 f_equal.
    (* the states are the same *)
    destruct (reached_RI _ _ HRc) as (Wm & SH & Hs & s & ψ & HR). pose proof (RI_var _ _ _ _ _ _ _ x HR) as Hv. rewrite Hx in Hv. destruct Hv as (k & Hk & Hr & Hxc).
    assert (r_h c !! h = None) as Hhc. { pose proof (RI_handle HR h) as Hx2. by rewrite Hh in Hx2. }
    assert (rc_from (aptr k) (r_mem c) = Ok (rform (aptr k) (apl k)) (r_mem c)) as Hrun.
    { rewrite (iv_mem _ _ _ _ _ _ _ HR). pose proof (var_minv _ _ _ _ _ _ _ _ _ HR Hk) as HI. destruct Hr as [q ql b qs xs Hqs]. exact (into_rc_alive s [] q ql b qs _ _ _ _ HI). }
    cbn [rstep] in E1. rewrite Hhc, Hxc in E1. unfold call in E1. rewrite Hrun in E1. injection E1 as <-.
    cbn [rstep set_rh set_renv set_mem r_env r_h r_g r_b r_mem] in E2. rewrite lookup_delete, lookup_insert in E2. destruct (bool_decide _); [done|]. unfold call in E2. cbn [r_mem set_rh set_renv set_mem] in E2.
    destruct (rc_into_tree (r_b c) (rform (aptr k) (apl k)) (r_mem c)) as [p s'|] eqn:Et; [|done]. pose proof (pure_into_tree _ _ _ _ _ Et) as ->. apply into_tree_addr in Et as ->. injection E2 as <-.
    destruct c as [env H w g b it m]. cbn in *. unfold set_rh, set_renv, set_mem. cbn. f_equal.
    + rewrite raddr_rform, insert_delete_insert. by apply insert_id.
    + by rewrite delete_insert.
Qed.
End props.
