(** RcOwnTop.v — dropping a handle when values own handles: what is released. *)
From stdpp Require Import base gmap list.
From Verif Require Import Spec ClientSpec RcSpec Machine NodeModel BfsModel ClientModel RcModel RcAllowed RcClient Sep Rep NodeProofs Inv Abs ClientProofs ClientRef ClientProps CountFrame
  RcRelease RcLab RcRef RcStep RcStep2 RcStep3 RcStep4 RcProps RcProps2 CounterSpec CounterProofs RcOwnModel RcOwnSpec RcOwnProofs RcOwnStep RcOwnMain.

Section top.
Context {A : Type} (own : A -> list nat).
Implicit Types (c : rst A) (σ : rss A) (ts : list (ltree A)).

Lemma nr_le ts : nr ts <= length (lall ts).
Proof. induction ts as [|[i a ks] ts IH]; [done|]. rewrite nr_cons, lall_cons, lsubs_eq, app_length. simpl. lia. Qed.
Lemma nodes_heap c σ : reached c σ -> length (lall (rs_sh σ)) <= size (m_heap (r_mem c)).
Proof.
  intros HR%reached_RI. destruct HR as (Wm & SH & Hs & s & ψ & HR). rewrite (iv_mem _ _ _ _ _ _ _ HR). cbn [m_heap addc adj]. pose proof (cells _ _ _ (RI_minv HR)) as Hc. rewrite addrss_app, app_length in Hc.
  pose proof (Forall2_length _ _ _ (lreps_ids _ _ _ (iv_sh _ _ _ _ _ _ _ HR))) as Hl. unfold lids in Hl. rewrite fmap_length in Hl. lia.
Qed.
Lemma zc_nil (m : gmap ptr nat) : zc [] m = m.
Proof. apply map_eq. intros p. rewrite zc_look. destruct (m !! p); [|done]. cbn [fmap option_fmap option_map]. f_equal. Qed.

Lemma same_node ts t t' : NoDup (lids ts) -> t ∈ lall ts -> t' ∈ lall ts -> lid t = lid t' -> t = t'.
Proof. intros HN Ht Ht' E. pose proof (lfind_in _ _ HN Ht) as H1. pose proof (lfind_in _ _ HN Ht') as H2. rewrite E in H1. congruence. Qed.
Lemma sub_by_id ts t u : NoDup (lids ts) -> t ∈ lall ts -> u ∈ lall ts -> lid t ∈ lid <$> lsubs u -> t ∈ lsubs u.
Proof. intros HN Ht Hu Hin. apply elem_of_list_fmap in Hin as (v & E & Hv). assert (t = v) as ->; [|done]. apply (same_node ts); [done|done|by eapply lall_trans|done]. Qed.

Theorem drop_owning c σ h : reached c σ -> rs_g σ = ∅ -> is_Some (rs_h σ !! h) -> one_owner own σ h ->
  exists c' σ' l, reached c' σ' /\ rdrop_owning own c h = RDone RUnit (with_log c' (m_log (r_mem c) ++ l)) /\ m_log (r_mem c') ≡ₚ m_log (r_mem c) ++ l /\
    (forall g, rs_h σ' !! g = if decide (g ∈ h :: flat_map own l) then None else rs_h σ !! g) /\
    (closed own σ h (fun g => g ∈ h :: flat_map own l) /\ forall S, closed own σ h S -> forall g, g ∈ h :: flat_map own l -> S g) /\
    env_of σ' = env_of σ /\ lval <$> lall (rs_sh σ) ≡ₚ l ++ (lval <$> lall (rs_sh σ')) /\
    (forall i, i ∈ lids (rs_sh σ') <-> kept (rs_h σ') (rs_sh σ) i) /\
    (forall g i, rs_h σ' !! g = Some i -> lfind i (rs_sh σ') = lfind i (rs_sh σ)) /\
    (forall h', h' ∉ owned_by own (rs_sh σ) -> one_owner own σ' h').
Proof.
  intros HR Hg [i Hi] [Hnd Hin]. destruct (rh_some c σ h i HR Hi) as [r Hr]. pose proof (RI_ids _ _ (reached_RI _ _ HR)) as HN.
  assert (ow own (pairs (rs_sh σ)) = owned_by own (rs_sh σ)) as Ho by (unfold ow, owned_by; by rewrite pairs_vals).
  assert (St own c σ [] [] [] (pairs (rs_sh σ)) [h]) as HS.
  { split; [done|done| | | |done| |].
    - intros m Hm. by apply elem_of_nil in Hm.
    - intros m Hm. by apply elem_of_nil in Hm.
    - intros m Hm. by apply elem_of_nil in Hm.
    - rewrite Ho. assert (owned_by own (rs_sh σ) ++ [h] ≡ₚ h :: owned_by own (rs_sh σ)) as -> by solve_Permutation. done.
    - intros g. rewrite Ho. intros [Hg'|Hg']%elem_of_app; (split; [apply not_elem_of_nil|]); [by apply Hin|]. apply elem_of_list_singleton in Hg' as ->. eauto. }
  assert (tab [h] c (delete h (r_h c))) as HT. { intros g. destruct (decide (h = g)) as [->|Hne]; [by rewrite lookup_delete, decide_True by left|]. rewrite lookup_delete_ne, decide_False by set_solver. done. }
  destruct (loops own (4 * size (m_heap (r_mem c)) + 2 * size (delete h (r_h c)) + 2)) as [HL _].
  destruct (HL c σ [] [] [] (pairs (rs_sh σ)) [] h r (m_log (r_mem c)) (delete h (r_h c)) HS Hr HT) as (c' & σ' & D & P' & H' & E & S' & R & HP & T & J).
  { pose proof (nr_le (rs_sh σ)). pose proof (nodes_heap c σ HR). lia. }
  pose proof (st_r _ _ _ _ _ _ _ _ S') as HR'. pose proof (RI_ids _ _ (reached_RI _ _ HR')) as HN'.
  assert (forall i, i ∈ lids (rs_sh σ') <-> kept (rs_h σ') (rs_sh σ) i) as Hkept.
  { intros j. rewrite (alive_kept c' σ' j HR'). split; intros (t & Ht & (g & Hgt) & Hj); exists t; split_and!; eauto.
    - pose proof (rl_find _ _ _ _ _ _ _ R g _ (not_elem_of_nil g) Hgt) as Hf. rewrite (lfind_in t _ HN' Ht) in Hf. symmetry in Hf. by apply lfind_some in Hf as [? _].
    - pose proof (rl_find _ _ _ _ _ _ _ R g _ (not_elem_of_nil g) Hgt) as Hf. rewrite (lfind_in t _ HN Ht) in Hf. by apply lfind_some in Hf as [? _]. }
  exists c', σ', D.*2. split; [done|]. split; [|split; [|split; [|split; [split|split; [|split; [|split; [|split]]]]]]].
  - unfold rdrop_owning. rewrite Hr. destruct (no_guard c σ h HR Hg) as [-> _]. unfold rd_handle.
    assert (zl [] (m_log (r_mem c)) (r_mem c) = r_mem c) as Hz. { unfold zl. rewrite zc_nil. by destruct (r_mem c). }
    rewrite Hz in E. rewrite E. f_equal. assert (H' = r_h c') as ->. { apply map_eq. intros g. rewrite T. rewrite decide_False by apply not_elem_of_nil. done. }
    unfold with_log, zl. rewrite zc_nil. rewrite (rl_c _ _ _ _ _ _ _ R) at 6. done.
  - rewrite (RI_log _ _ (reached_RI _ _ HR')), (RI_log _ _ (reached_RI _ _ HR)). apply (rl_log _ _ _ _ _ _ _ R).
  - apply (rl_h _ _ _ _ _ _ _ R).
  - split; [left|]. intros t Ht Hall g Hgo. right. assert ((lid t, lval t) ∈ D ++ P') as HtD. { rewrite <-HP. apply elem_of_list_fmap. eauto. }
    apply elem_of_app in HtD as [HtD|HtP].
    + apply elem_of_list_In, in_flat_map. exists (lval t). split; apply elem_of_list_In; [|done]. apply elem_of_list_fmap. by exists (lid t, lval t).
    + exfalso. assert (lid t ∈ lids (rs_sh σ')) as Hal. { rewrite <-pairs_ids. apply elem_of_list_fmap. exists (lid t, lval t). split; [done|]. rewrite (st_p _ _ _ _ _ _ _ _ S'). done. }
      apply Hkept in Hal as (u & Hu & (g' & Hg') & Hin'). destruct (rl_back _ _ _ _ _ _ _ _ _ R Hg') as [Hn Hg0]. apply Hn. apply (Hall u g' Hu Hg0). exact (sub_by_id _ _ _ HN Ht Hu Hin').
  - intros S [Sh Sc] g [->|Hgl]%elem_of_cons; [done|]. fold (ow own D) in Hgl.
    assert (forall D1 D2, D = D1 ++ D2 -> forall g, g ∈ ow own D1 -> S g) as Hpre; [|exact (Hpre D [] (eq_sym (app_nil_r D)) g Hgl)]. clear g Hgl. intros D1. induction D1 as [|x D1 IH] using rev_ind; [intros D2 _ g Hgl; by apply elem_of_nil in Hgl|].
    intros D2 HD g Hgl. rewrite <-app_assoc in HD. simpl in HD. rewrite ow_app in Hgl. apply elem_of_app in Hgl as [Hgl|Hgl]; [by apply (IH _ HD)|]. rewrite ow_cons in Hgl. apply elem_of_app in Hgl as [Hgl|Hgl]; [|by apply elem_of_nil in Hgl].
    assert (x ∈ pairs (rs_sh σ)) as Hx. { rewrite HP, HD. rewrite !elem_of_app. left. right. left. } apply elem_of_list_fmap in Hx as (t & -> & Ht). apply (Sc t Ht); [|done].
    intros u g' Hu Hg' Htu. pose proof (J D1 _ D2 HD g' (lid u) u Hg' (lfind_in _ _ HN Hu)) as HJ. cbn [fst] in HJ. assert (g' ∈ [h] ++ ow own D1) as Hin'. { apply HJ. by apply elem_of_list_fmap_1. }
    apply elem_of_app in Hin' as [Hin'|Hin']; [by apply elem_of_list_singleton in Hin' as ->|by apply (IH _ HD)].
  - apply (rl_x _ _ _ _ _ _ _ R).
  - rewrite <-!pairs_vals. rewrite HP, (st_p _ _ _ _ _ _ _ _ S'). rewrite fmap_app. done.
  - exact Hkept.
  - intros g j. apply (rl_find _ _ _ _ _ _ _ R). apply not_elem_of_nil.
  - intros h' Hh'. assert (ow own P' ≡ₚ owned_by own (rs_sh σ')) as Ho'. { unfold owned_by. rewrite <-pairs_vals. change (flat_map own (pairs (rs_sh σ')).*2) with (ow own (pairs (rs_sh σ'))). apply ow_perm. by rewrite (st_p _ _ _ _ _ _ _ _ S'). }
    pose proof (ow_perm own _ _ HP) as HoD. rewrite Ho, ow_app in HoD. split.
    + constructor; [|rewrite <-Ho'; pose proof (st_nd _ _ _ _ _ _ _ _ S') as Hn'; by rewrite app_nil_r in Hn']. rewrite <-Ho'. intros Hc. apply Hh'. rewrite HoD. apply elem_of_app. by right.
    + intros g Hgo. rewrite <-Ho' in Hgo. apply (st_in _ _ _ _ _ _ _ _ S'). apply elem_of_app. by left.
Qed.
End top.
