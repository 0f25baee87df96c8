(** RcProps.v — consequences of the refinement (RcStep4) and of the specification (RcSpec) for nodes with shared ownership. *)
From stdpp Require Import base gmap list sorting.
From Verif Require Import Spec ClientSpec RcSpec Machine NodeModel BfsModel ClientModel RcModel RcAllowed RcClient Sep Rep NodeProofs Inv Abs ClientProofs
  BfsIter ClientRef ClientProps ClientStep CountFrame RcRelease RcLab RcRef RcStep RcStep2 RcStep3 RcStep4.

Section props.
Context {A : Type}.
Implicit Types (p q : ptr) (s : mem A) (SH : list (atree A)) (Hs : list ptr) (ψ : gmap ptr nat) (c : rst A) (σ : rss A) (Wm : gmap nat (atree A)).
Implicit Types (i j : nat) (t u k : ltree A) (ts ks : list (ltree A)).
Local Notation trees Wm := ((map_to_list Wm).*2).

(** * What the invariant says about the variables *)
Lemma RI_alive_h c σ h i : RI c σ -> rs_h σ !! h = Some i -> i ∈ lids (rs_sh σ).
Proof.
  intros (Wm & SH & Hs & s & ψ & HR) Hh. pose proof (RI_handle HR h) as H. rewrite Hh in H.
  destruct H as (p & pl & a & aks & S1 & S2 & D & L1 & L2 & C & ks & _ & _ & Hsh & _). rewrite Hsh. apply (elem_of_list_fmap_1 lid _ (LN i a ks)). apply loc_in.
Qed.
Lemma RI_root_held c σ t : RI c σ -> t ∈ rs_sh σ -> exists h, rs_h σ !! h = Some (lid t).
Proof.
  intros (Wm & SH & Hs & s & ψ & HR) Ht. pose proof (iv_sh _ _ _ _ _ _ _ HR) as Hsh. apply elem_of_list_lookup in Ht as [n Hn].
  destruct (Forall2_lookup_r _ _ _ _ _ Hsh Hn) as (av & Hav & Hr). destruct (iv_h _ _ _ _ _ _ _ HR) as [H1 H2].
  assert (aptr av ∈ raddr <$> trees (r_h c)) as Hin. { rewrite H2. apply elem_of_app. right. apply elem_of_list_fmap_1. by eapply elem_of_list_lookup_2. }
  apply elem_of_list_fmap in Hin as (r & Ha & Hx). apply elem_of_list_fmap in Hx as ([h r'] & Heq & Hx). simpl in Heq. subst r'. apply elem_of_map_to_list in Hx.
  exists h. specialize (H1 h). rewrite Hx in H1. inversion H1 as [? j (q & ql & -> & Hq & Hj) Hu Hv|]; subst. rewrite raddr_rform in Ha. subst q. rewrite (lrep_lid _ _ _ Hr) in Hj. congruence.
Qed.
Lemma RI_guard_h c σ g h m : RI c σ -> rs_g σ !! g = Some (h, m) -> is_Some (rs_h σ !! h).
Proof.
  intros (Wm & SH & Hs & s & ψ & HR) Hg. rewrite <-(iv_gs _ _ _ _ _ _ _ HR) in Hg. destruct (guard_handle _ _ _ _ _ _ _ _ _ _ HR Hg) as [r Hr].
  pose proof (free_handle _ _ _ _ _ _ _ h HR) as Hf. destruct (rs_h σ !! h); [eauto|congruence].
Qed.
Lemma RI_ids c σ : RI c σ -> NoDup (lids (rs_sh σ)).
Proof. intros (Wm & SH & Hs & s & ψ & HR). exact (RI_nodup HR). Qed.
Lemma RI_log c σ : RI c σ -> m_log (r_mem c) = s_log (rs_x σ).
Proof. intros (Wm & SH & Hs & s & ψ & HR). rewrite (iv_mem _ _ _ _ _ _ _ HR). apply HR. Qed.
Lemma RI_gs c σ : RI c σ -> r_g c = rs_g σ.
Proof. intros (Wm & SH & Hs & s & ψ & HR). apply HR. Qed.
(** the memory of the node of a variable *)
Lemma RI_node_alive c σ h r : RI c σ -> r_h c !! h = Some r -> is_Some (m_heap (r_mem c) !! raddr r).
Proof.
  intros (Wm & SH & Hs & s & ψ & HR) Hr. pose proof (RI_handle HR h) as H. destruct (rs_h σ !! h) as [i|]; [|congruence].
  destruct H as (p & pl & a & aks & S1 & S2 & D & L1 & L2 & C & ks & Hrh & _ & _ & _ & _ & _ & _ & _ & _ & HI). rewrite Hrh in Hr. inversion Hr; subst. rewrite raddr_rform.
  rewrite (iv_mem _ _ _ _ _ _ _ HR). cbn [m_heap addc adj]. rewrite (lookup_at _ _ _ _ _ _ _ _ HI). eauto.
Qed.
(** nothing left *)
Lemma RI_empty c σ : RI c σ -> r_env c = ∅ -> r_h c = ∅ -> m_heap (r_mem c) = ∅ /\ m_cnt (r_mem c) = ∅ /\ m_vec (r_mem c) = ∅.
Proof.
  intros (Wm & SH & Hs & s & ψ & HR) He Hh. destruct (iv_h _ _ _ _ _ _ _ HR) as [_ H2]. rewrite Hh, map_to_list_empty in H2. apply Permutation_nil_l in H2.
  symmetry in H2. apply app_nil in H2 as [-> H2]. apply fmap_nil_inv in H2. subst SH.
  assert (Wm = ∅) as ->. { apply (fmap_empty_inv hof). rewrite <-(re_env _ _ _ _ (iv_env _ _ _ _ _ _ _ HR)). done. }
  pose proof (RI_minv HR) as HI. rewrite map_to_list_empty in HI. destruct (MInv_nil _ HI) as (E1 & E2 & E3). rewrite (iv_mem _ _ _ _ _ _ _ HR). cbn [m_heap m_cnt m_vec addc adj].
  rewrite E1, E2, E3. split_and!; [done|by rewrite map_imap_empty..].
Qed.

(** * Where nodes are *)
Lemma lsubs_located t u : u ∈ lsubs t -> exists C : list lframe, t = lplug C u.
Proof.
  revert u. induction t as [i a ks IH] using ltree_ind'. intros u. rewrite lsubs_eq. intros [->|Hu]%elem_of_cons; [by exists []|].
  apply elem_of_list_In, in_flat_map in Hu as (k & Hk & Hu). apply elem_of_list_In in Hk, Hu. rewrite Forall_forall in IH. destruct (IH k Hk u Hu) as [C ->].
  apply elem_of_list_split in Hk as (L & R & ->). exists (C ++ [LFr i a L R]). by rewrite lplug_snoc.
Qed.
Lemma lall_located ts u : u ∈ lall ts -> exists L1 L2 (C : list lframe), ts = L1 ++ lplug C u :: L2.
Proof.
  intros Hu. apply elem_of_list_In, in_flat_map in Hu as (t & Ht & Hu). apply elem_of_list_In in Ht, Hu. apply lsubs_located in Hu as [C ->].
  apply elem_of_list_split in Ht as (L1 & L2 & ->). by exists L1, L2, C.
Qed.
Lemma lfind_some i ts t : lfind i ts = Some t -> t ∈ lall ts /\ lid t = i.
Proof.
  unfold lfind. intros H. destruct (filter _ _) as [|x l] eqn:E; [done|]. inversion H; subst. assert (t ∈ filter (fun t => lid t = i) (lall ts)) as Hx by (rewrite E; left).
  apply elem_of_list_filter in Hx. tauto.
Qed.
Lemma lparent_some i ts u : lparent i ts = Some u -> u ∈ lall ts /\ exists k, k ∈ lkids u /\ lid k = i.
Proof.
  unfold lparent. intros H. destruct (filter _ _) as [|x l] eqn:E; [done|]. inversion H; subst. assert (u ∈ filter (fun t => i ∈ lid <$> lkids t) (lall ts)) as Hx by (rewrite E; left).
  apply elem_of_list_filter in Hx as [Hx ?]. apply elem_of_list_fmap in Hx as (k & -> & Hk). eauto.
Qed.
Fixpoint lctx (C : list (lframe (A:=A))) : list (ltree A) := match C with [] => [] | LFr i a L R :: C' => (LN i a [] :: L ++ R) ++ lctx C' end.
Lemma lids_plug (C : list lframe) t : lid <$> lsubs (lplug C t) ≡ₚ (lid <$> lsubs t) ++ lids (lctx C).
Proof.
  revert t. induction C as [|[i a L R] C IH]; intros t; [by rewrite app_nil_r|]. rewrite lplug_cons, IH. cbn [lplug1 lctx]. rewrite lids_node.
  rewrite !lids_app, !lids_cons, lids_app, lids_node. cbn. solve_Permutation.
Qed.
Lemma lids_loc L1 L2 (C : list lframe) t : lids (L1 ++ lplug C t :: L2) ≡ₚ (lid <$> lsubs t) ++ lids L1 ++ lids (lctx C) ++ lids L2.
Proof. rewrite lids_app, lids_cons, lids_plug. solve_Permutation. Qed.

(** * Release *)
Lemma held_spec (H : gmap nat nat) i : held H i = true <-> exists h, H !! h = Some i.
Proof.
  unfold held. rewrite bool_decide_eq_true, elem_of_list_fmap. split.
  - intros ([h j] & -> & Hx). apply elem_of_map_to_list in Hx. eauto.
  - intros [h Hh]. exists (h, i). split; [done|]. by apply elem_of_map_to_list.
Qed.

Lemma surv_kept (P : nat -> bool) t i : i ∈ lids (surv P t) <-> exists u, u ∈ lall (lkids t) /\ P (lid u) = true /\ i ∈ lid <$> lsubs u.
Proof.
  induction t as [j a ks IH] using ltree_ind'. rewrite surv_eq. cbn [lkids]. clear j a. induction IH as [|k ks Hk _ IHks].
  - simpl. split; [intros H; by apply elem_of_nil in H|]. intros (u & Hu & _). by apply elem_of_nil in Hu.
  - simpl flat_map. rewrite lids_app, elem_of_app, IHks. split.
    + intros [H|(u & Hu & HP & Hi)].
      * destruct (P (lid k)) eqn:E.
        -- exists k. split_and!; [rewrite lall_cons; apply elem_of_app; left; apply lsubs_self|done|]. rewrite lids_cons in H. apply elem_of_app in H as [?|H]; [done|by apply elem_of_nil in H].
        -- apply Hk in H as (u & Hu & HP & Hi). exists u. split_and!; [|done|done]. rewrite lall_cons. apply elem_of_app. left. destruct k. rewrite lsubs_eq. by right.
      * exists u. split_and!; [|done|done]. rewrite lall_cons. apply elem_of_app. by right.
    + intros (u & Hu & HP & Hi). rewrite lall_cons in Hu. apply elem_of_app in Hu as [Hu|Hu]; [left|right; eauto].
      destruct (P (lid k)) eqn:E.
      * rewrite lids_cons. apply elem_of_app. left. apply elem_of_list_fmap in Hi as (v & -> & Hv). apply elem_of_list_fmap_1.
        assert (u ∈ lall [k]) as Hu2. { rewrite lall_cons. apply elem_of_app. by left. } pose proof (lall_trans _ _ _ Hu2 Hv) as Hx. rewrite lall_cons in Hx. apply elem_of_app in Hx as [?|Hx]; [done|by apply elem_of_nil in Hx].
      * apply Hk. exists u. split_and!; [|done|done]. destruct k as [j' a' ks']. rewrite lsubs_eq in Hu. apply elem_of_cons in Hu as [->|Hu]; [|done]. simpl in HP. simpl in E. congruence.
Qed.
Lemma surv_sub (P : nat -> bool) t u : u ∈ lall (surv P t) -> u ∈ lsubs t.
Proof.
  induction t as [j a ks IH] using ltree_ind'. rewrite surv_eq, lsubs_eq. intros Hu. right. clear j a. induction IH as [|k ks Hk _ IHks]; [done|].
  simpl flat_map in Hu. rewrite lall_app, elem_of_app in Hu. rewrite lall_cons, elem_of_app. destruct Hu as [Hu|Hu]; [left|right; auto].
  destruct (P (lid k)); [|auto]. rewrite lall_cons in Hu. apply elem_of_app in Hu as [?|Hu]; [done|by apply elem_of_nil in Hu].
Qed.
(** every value is either dropped or kept *)
Lemma surv_vals (P : nat -> bool) t : lval <$> lsubs t ≡ₚ lost P t ++ (lval <$> lall (surv P t)).
Proof.
  induction t as [j a ks IH] using ltree_ind'. rewrite surv_eq, lost_eq, lsubs_eq. simpl.
  assert (lval <$> lall ks ≡ₚ flat_map (fun k => if P (lid k) then [] else lost P k) ks ++ (lval <$> lall (flat_map (fun k => if P (lid k) then [k] else surv P k) ks))) as H.
  { induction IH as [|k ks Hk _ IHks]; [done|]. rewrite lall_cons, fmap_app, IHks. simpl. rewrite lall_app, fmap_app. destruct (P (lid k)).
    - rewrite lall_cons, fmap_app. simpl. solve_Permutation.
    - rewrite Hk. solve_Permutation. }
  rewrite H. solve_Permutation.
Qed.

Lemma RI_kept c σ i : RI c σ -> i ∈ lids (rs_sh σ) -> kept (rs_h σ) (rs_sh σ) i.
Proof.
  intros HR Hi. apply elem_of_list_fmap in Hi as (u & -> & Hu). apply elem_of_list_In, in_flat_map in Hu as (t & Ht & Hu). apply elem_of_list_In in Ht, Hu.
  destruct (RI_root_held _ _ _ HR Ht) as [h Hh]. exists t. split_and!; [by apply lall_in|by exists h|by apply elem_of_list_fmap_1].
Qed.
(** [drop] of a variable *)
Lemma drop_spec c σ h i : RI c σ -> rs_h σ !! h = Some i ->
  let σ' := drop_handle σ h i in
  (forall j, j ∈ lids (rs_sh σ') <-> kept (delete h (rs_h σ)) (rs_sh σ) j) /\
  (forall u, u ∈ lall (rs_sh σ') -> u ∈ lall (rs_sh σ)) /\
  exists l, s_log (rs_x σ') = s_log (rs_x σ) ++ l /\ lval <$> lall (rs_sh σ) ≡ₚ l ++ (lval <$> lall (rs_sh σ')).
Proof.
  intros HR Hh σ'. pose proof (RI_ids _ _ HR) as HN. subst σ'. unfold drop_handle. set (H' := delete h (rs_h σ)).
  assert (forall j, held H' j = true -> j ∈ lids (rs_sh σ)) as Hal. { intros j Hj. apply held_spec in Hj as [h' Hj]. apply lookup_delete_Some in Hj as [_ Hj]. by eapply RI_alive_h. }
  assert (forall j, kept H' (rs_sh σ) j -> j ∈ lids (rs_sh σ)) as Hkl.
  { intros j (t & Ht & _ & Hj). apply elem_of_list_fmap in Hj as (u & -> & Hu). apply elem_of_list_fmap_1. by eapply lall_trans. }
  assert (forall t, t ∈ rs_sh σ -> (held H' i = true \/ i <> lid t) -> held H' (lid t) = true) as Hro.
  { intros t Ht Hor. destruct (RI_root_held _ _ _ HR Ht) as [h' Hh']. destruct (decide (h' = h)) as [->|Hne].
    - assert (lid t = i) as Hti by congruence. destruct Hor as [Hor|Hor]; [by rewrite Hti|by destruct Hor].
    - apply held_spec. exists h'. unfold H'. by rewrite lookup_delete_ne. }
  assert (forall j t, t ∈ rs_sh σ -> held H' (lid t) = true -> j ∈ lid <$> lsubs t -> kept H' (rs_sh σ) j) as Hkr.
  { intros j t Ht Hht Hj. exists t. split_and!; [by apply lall_in|by apply held_spec|done]. }
  assert (forall j, j ∈ lids (rs_sh σ) -> exists t, t ∈ rs_sh σ /\ j ∈ lid <$> lsubs t) as Hroot.
  { intros j Hj. apply elem_of_list_fmap in Hj as (u & -> & Hu). apply elem_of_list_In, in_flat_map in Hu as (t & Ht & Hu). apply elem_of_list_In in Ht, Hu.
    exists t. split; [done|]. by apply elem_of_list_fmap_1. }
  destruct (held H' i) eqn:Eh.
  { simpl. split_and!; [|done|exists []; by rewrite app_nil_r]. intros j. split; [|apply Hkl]. intros Hj. destruct (Hroot j Hj) as (t & Ht & Hjt).
    apply (Hkr j t Ht); [|done]. apply Hro; [done|by left]. }
  destruct (decide (i ∈ lid <$> rs_sh σ)) as [Hr|Hr]; cbn [rs_sh rs_x set_x set_sh set_h s_log].
  2: { split_and!; [|done|exists []; by rewrite app_nil_r]. intros j. split; [|apply Hkl]. intros Hj. destruct (Hroot j Hj) as (t & Ht & Hjt).
    apply (Hkr j t Ht); [|done]. apply Hro; [done|]. right. intros ->. apply Hr. by apply elem_of_list_fmap_1. }
  apply elem_of_list_fmap in Hr as (t & -> & Ht). apply elem_of_list_split in Ht as (L1 & L2 & HL). rewrite HL in *.
  rewrite (flat_at (surv (held H')) (fun t => [t]) L1 L2 t HN), (flat_at (lost (held H')) (fun _ => []) L1 L2 t HN), !flat_self, !flat_nil, app_nil_r. simpl.
  split_and!.
  - intros j. rewrite !lids_app, !elem_of_app, surv_kept. split.
    + intros [Hj|[(u & Hu & HP & Hj)|Hj]].
      * apply elem_of_list_fmap in Hj as (u & -> & Hu). apply elem_of_list_In, in_flat_map in Hu as (r & Hr & Hu). apply elem_of_list_In in Hr, Hu.
        apply (Hkr _ r); [apply elem_of_app; by left| |by apply elem_of_list_fmap_1]. apply Hro; [apply elem_of_app; by left|]. right. intros Heq.
        rewrite lids_split in HN. apply NoDup_app in HN as (HN & _). rewrite fmap_app in HN. simpl in HN. apply NoDup_app in HN as (_ & N2 & _). apply (N2 (lid t)); [rewrite Heq; by apply elem_of_list_fmap_1|left].
      * exists u. split_and!; [|by apply held_spec|done]. rewrite lall_app, lall_cons, !elem_of_app. right. left. destruct t. rewrite lsubs_eq. by right.
      * apply elem_of_list_fmap in Hj as (u & -> & Hu). apply elem_of_list_In, in_flat_map in Hu as (r & Hr & Hu). apply elem_of_list_In in Hr, Hu.
        apply (Hkr _ r); [apply elem_of_app; right; by right| |by apply elem_of_list_fmap_1]. apply Hro; [apply elem_of_app; right; by right|]. right. intros Heq.
        rewrite lids_split in HN. apply NoDup_app in HN as (HN & _). rewrite fmap_app in HN. simpl in HN. apply NoDup_app in HN as (_ & _ & N3). apply NoDup_cons in N3 as [N3 _]. apply N3. rewrite Heq. by apply elem_of_list_fmap_1.
    + intros (u & Hu & HP & Hj). apply held_spec in HP. rewrite lall_app, lall_cons, !elem_of_app in Hu.
      assert (forall L, u ∈ lall L -> j ∈ lids L) as Hin. { intros L HuL. apply elem_of_list_fmap in Hj as (v & -> & Hv). apply elem_of_list_fmap_1. by eapply lall_trans. }
      destruct Hu as [Hu|[Hu|Hu]]; [left; auto| |right; right; auto]. right. left. exists u. split_and!; [|done|done].
      destruct t as [j' a' ks']. rewrite lsubs_eq in Hu. apply elem_of_cons in Hu as [->|Hu]; [|done]. simpl in HP, Eh. congruence.
  - intros u. rewrite !lall_app, lall_cons, !elem_of_app. intros [?|[Hu|?]]; [by left| |by right; right]. right. left. by eapply surv_sub.
  - exists (lost (held H') t). split; [done|]. rewrite !lall_app, lall_cons, !fmap_app, (surv_vals (held H') t). solve_Permutation.
Qed.

(** * Memory *)
Lemma RI_resolve c σ Wm SH Hs s ψ (C : ctx A) (t : atree A) W path : RInv c σ Wm SH Hs s ψ -> MInvX s (plug C t :: W) [] ->
  resolve (aptr t) path (r_mem c) = Ok (aptr ∘ snd <$> afind t path) (r_mem c).
Proof.
  intros HR HI. rewrite (iv_mem _ _ _ _ _ _ _ HR). pose proof (resolve_plug _ _ _ path _ _ HI) as E.
  pose proof (hp_resolve (A:=A) (aptr t) path s (addc Hs s) eq_refl) as H. rewrite E in H. destruct H as (_ & _ & ->). by destruct s.
Qed.
Lemma rlive_addrs c σ Wm SH Hs s ψ p : RInv c σ Wm SH Hs s ψ -> rlive c p <-> p ∈ addrss (trees Wm ++ SH).
Proof.
  intros HR. unfold addrss. rewrite flat_map_app, elem_of_app. split.
  - intros (q & path & Hq & E). destruct Hq as [(x & hd & Hx & ->)|(h & r & Hr & ->)].
    + left. rewrite (re_env _ _ _ _ (iv_env _ _ _ _ _ _ _ HR)), lookup_fmap in Hx. destruct (Wm !! x) as [t|] eqn:Ht; [|done]. simpl in Hx. simplify_eq.
      pose proof (RE_inv _ _ _ _ _ _ (iv_env _ _ _ _ _ _ _ HR) Ht) as HI. rewrite addr_hof, (RI_resolve _ _ _ _ _ _ _ [] t _ path HR HI) in E.
      destruct (afind t path) as [[C t']|] eqn:Hf; [|done]. simpl in E. simplify_eq. apply elem_of_list_In, in_flat_map. exists t. split.
      * apply elem_of_list_In, elem_of_list_fmap. exists (x, t). split; [done|]. by apply elem_of_map_to_list.
      * apply elem_of_list_In, addrs_afind. eauto.
    + right. pose proof (RI_handle HR h) as H. destruct (rs_h σ !! h) as [i|]; [|congruence].
      destruct H as (p' & pl & a & aks & S1 & S2 & D & L1 & L2 & C & ks & Hrh & HSH & _ & _ & _ & _ & _ & _ & _ & HI). rewrite Hrh in Hr. simplify_eq. rewrite raddr_rform in E.
      change p' with (aptr (AN p' pl (Some a) aks)) in E. rewrite (RI_resolve _ _ _ _ _ _ _ _ _ _ path HR HI) in E.
      destruct (afind (AN p' pl (Some a) aks) path) as [[C' t']|] eqn:Hf; [|done]. simpl in E. simplify_eq. fold (addrss (S1 ++ plug D (AN p' pl (Some a) aks) :: S2)).
      apply infoss_addrss. assert (aptr t' ∈ addrs (AN p' pl (Some a) aks)) as Hin by (apply addrs_afind; eauto).
      rewrite <-infos_fst in Hin. apply elem_of_list_fmap in Hin as ([q l] & Hq & Hin). simpl in Hq. exists l. rewrite Hq. rewrite infoss_app, infoss_cons, plug_infos, !elem_of_app. tauto.
  - intros [Hp|Hp]; apply elem_of_list_In, in_flat_map in Hp as (t & Ht & Hp); apply elem_of_list_In in Ht, Hp; apply addrs_afind in Hp as (path & C & t' & Hf & <-).
    + apply elem_of_list_fmap in Ht as ([x t0] & -> & Ht). apply elem_of_map_to_list in Ht. simpl in Hf. exists (aptr t0), path. split.
      * left. exists x, (hof t0). by rewrite (re_env _ _ _ _ (iv_env _ _ _ _ _ _ _ HR)), lookup_fmap, Ht, addr_hof.
      * pose proof (RE_inv _ _ _ _ _ _ (iv_env _ _ _ _ _ _ _ HR) Ht) as HI. by rewrite (RI_resolve _ _ _ _ _ _ _ [] t0 _ path HR HI), Hf.
    + exists (aptr t), path. split.
      * right. destruct (iv_h _ _ _ _ _ _ _ HR) as [H1 H2].
        assert (aptr t ∈ raddr <$> trees (r_h c)) as Hin. { rewrite H2. apply elem_of_app. right. by apply elem_of_list_fmap_1. }
        apply elem_of_list_fmap in Hin as (r & Ha & Hx). apply elem_of_list_fmap in Hx as ([h r'] & Heq & Hx). simpl in Heq. subst r'. apply elem_of_map_to_list in Hx. eauto.
      * apply elem_of_list_split in Ht as (S1 & S2 & HSH). assert (MInvX s (plug [] t :: trees Wm ++ S1 ++ S2) []) as HI.
        { eapply MInv_perm; [|apply (RI_minv HR)]. rewrite HSH. simpl. solve_Permutation. }
        by rewrite (RI_resolve _ _ _ _ _ _ _ _ _ _ path HR HI), Hf.
Qed.
Lemma rmemory_exact c σ : RI c σ ->
  (forall p, rlive c p -> is_Some (m_heap (r_mem c) !! p)) /\
  (forall p, is_Some (m_heap (r_mem c) !! p) ->
     rlive c p \/ exists cap rc q, m_vec (r_mem c) !! p.1 = Some (cap, rc) /\ p.2 < cap /\ rlive c q /\ q.1 = p.1) /\
  (forall v, is_Some (m_vec (r_mem c) !! v) -> exists q, rlive c q /\ q.1 = v) /\
  (forall p, is_Some (m_cnt (r_mem c) !! p) -> is_Some (m_heap (r_mem c) !! p) \/ exists q, rlive c q /\ q.1 = p.1).
Proof.
  intros (Wm & SH & Hs & s & ψ & HR). pose proof (fun p => rlive_addrs _ _ _ _ _ _ _ p HR) as HL. pose proof (RI_minv HR) as HI.
  rewrite (iv_mem _ _ _ _ _ _ _ HR). cbn [m_heap addc adj].
  assert (forall v, is_Some (m_vec (addc Hs s) !! v) -> is_Some (m_vec s !! v)) as Hv1.
  { intros v. cbn [m_vec addc adj]. rewrite map_lookup_imap. destruct (m_vec s !! v); [eauto|intros [? [=]]]. }
  assert (forall v, is_Some (m_vec s !! v) -> exists q, rlive c q /\ q.1 = v) as Hvec.
  { intros v [[cap rc] Hv]. destruct (mi_vec _ _ _ HI _ _ _ Hv) as (_&Hrest). destruct (Hrest (inE_nil v)) as (Hrc&Hp&_). rewrite Hrc in Hp.
    apply live_in_pos_inv in Hp as (q & pl & Hq & Hq1). exists q. split; [|done]. apply HL, infoss_addrss. eauto. }
  split_and!.
  - intros p Hp. apply HL in Hp. destruct HI as [(D & [HN HE] & _) _ _ _ _ _ _ _]. rewrite HE. apply ltm_some. rewrite fmap_app, layW_fst. apply elem_of_app. by left.
  - intros p Hp. pose proof HI as [(D & [HN HE] & HD) _ _ _ _ H4 _ _]. pose proof Hp as Hp0. rewrite HE in Hp.
    destruct Hp as [n Hn]. apply elem_of_list_to_map_2, (elem_of_list_fmap_1 fst) in Hn. simpl in Hn.
    rewrite app_nil_r, fmap_app, layW_fst in Hn. apply elem_of_app in Hn as [Hn|Hn]; [left; by apply HL|]. right.
    destruct (HD p Hn) as [Hv _]. destruct (Hvec _ Hv) as (q & Hq & Hq1). destruct Hv as [[cap rc] Hv].
    exists cap, (rc + occb p.1 Hs), q. split_and!; [cbn [m_vec addc adj]; by rewrite map_lookup_imap, Hv| |done|done]. destruct (H4 _ _ _ Hv) as (_&Hrest).
    destruct (Hrest (inE_nil _)) as (_&_&Hc). apply Hc. by destruct p.
  - intros v Hv. by apply Hvec, Hv1.
  - intros p Hp. assert (is_Some (m_cnt s !! p)) as Hc. { revert Hp. cbn [m_cnt addc adj]. rewrite map_lookup_imap. destruct (m_cnt s !! p); [eauto|intros [? [=]]]. }
    destruct (mi_cnt2 _ _ _ HI p Hc) as [?|?]; [by left|right]. by apply Hvec.
Qed.
End props.
