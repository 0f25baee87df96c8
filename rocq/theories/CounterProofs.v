(** CounterProofs.v — all the counters are bounded by the number of nodes and handles in memory. *)
From stdpp Require Import base gmap list.
From Verif Require Import Spec ClientSpec RcSpec Machine NodeModel ClientModel RcModel RcAllowed RcClient Sep Rep NodeProofs Inv Abs ClientProofs ClientRef ClientStep ClientRead ClientProps CountFrame RcRelease RcLab RcRef RcProps RcProps2 CounterSpec.

Section counters.
Context {A : Type}.
Implicit Types (p q : ptr) (s : mem A) (W SH : list (atree A)) (Hs : list ptr).
Local Notation trees Wm := ((map_to_list Wm).*2).

Lemma length_cnts (ks : list (atree A)) : length ks <= cnts ks.
Proof. induction ks as [|[q pl v ls] ks IH]; [done|]. rewrite cnts_cons, cntn_eq. simpl. lia. Qed.
Lemma size_ltm {X} (l : list (ptr * X)) : NoDup l.*1 -> size (list_to_map l : gmap ptr X) = length l.
Proof.
  induction l as [|[p x] l IH]; [done|]. cbn [fmap list_fmap fst]. intros [Hp HN]%NoDup_cons. cbn [list_to_map foldr]. simpl. rewrite map_size_insert_None; [by rewrite IH|].
  by apply not_elem_of_list_to_map_1.
Qed.
Lemma cells s W E : MInvX s W E -> length (addrss W) <= size (m_heap s).
Proof.
  intros HI. destruct (mi_hp _ _ _ HI) as (D & [HN HE] & _). rewrite HE, size_ltm by done. rewrite <-layW_fst, fmap_length, !app_length. lia.
Qed.
Lemma at_addr s W E p : MInvX s W E -> p ∈ addrss W -> exists t W' C pl v ks, W ≡ₚ t :: W' /\ t = plug C (AN p pl v ks).
Proof.
  intros HI Hp. unfold addrss in Hp. apply elem_of_list_In, in_flat_map in Hp as (t & Ht & Hp). apply elem_of_list_In in Ht, Hp.
  apply addrs_afind in Hp as (path & C & [q pl v ks] & Hf & Hq). simpl in Hq. subst q. apply elem_of_Permutation in Ht as [W' HW].
  exists t, W', C, pl, v, ks. split; [done|]. symmetry. by eapply afind_plug.
Qed.
Lemma sizes s W E p : MInvX s W E -> p ∈ addrss W -> exists n, m_heap s !! p = Some n /\ n_deg n <= n_desc n /\ n_desc n < size (m_heap s).
Proof.
  intros HI Hp. pose proof (cells _ _ _ HI) as Hl. destruct (at_addr _ _ _ _ HI Hp) as (t & W' & C & pl & v & ks & HW & ->).
  apply (MInv_perm _ _ _ _ HW) in HI. pose proof (cells _ _ _ HI) as Hc. exists (mk (up_of C) (prev_of C) (next_of C) p pl v ks). split; [by eapply lookup_at|]. unfold mk. cbn [n_deg n_desc]. split; [apply length_cnts|].
  rewrite <-infoss_fst, fmap_length, infoss_cons, app_length, plug_infos, app_length, infos_eq in Hc. simpl in Hc.
  rewrite <-addrss_length, <-infoss_fst, fmap_length. lia.
Qed.
Lemma live_in_le b (l : list (ptr * bool)) : live_in b l <= length l.
Proof. unfold live_in. apply filter_length. Qed.
Lemma occb_le b Hs : occb b Hs <= length Hs.
Proof. unfold occb. apply filter_length. Qed.
Lemma occ_le p Hs : occ p Hs <= length Hs.
Proof. unfold occ. apply filter_length. Qed.
Lemma buffers s W v cap k : MInvX s W [] -> m_vec s !! v = Some (cap, k) -> k <= size (m_heap s).
Proof.
  intros HI Hv. destruct (mi_vec _ _ _ HI _ _ _ Hv) as (_ & Hr). destruct (Hr (inE_nil v)) as (-> & _). etrans; [apply live_in_le|]. rewrite <-(fmap_length fst), infoss_fst. by eapply cells.
Qed.

Theorem counters_plain (c : cst A) : reachable c ->
  (forall p, live c p -> exists n, m_heap (c_mem c) !! p = Some n /\ m_cnt (c_mem c) !! p = Some 1 /\ n_deg n <= n_desc n /\ n_desc n < size (m_heap (c_mem c))) /\
  (forall v cap k, m_vec (c_mem c) !! v = Some (cap, k) -> k <= size (m_heap (c_mem c))).
Proof.
  intros Hr. destruct (reachable_CInv c Hr) as (σ & Wm & HR & _). pose proof (re_inv _ _ _ _ HR) as HI. split.
  - intros p Hp. apply (live_addrs c _ _ Wm p HR eq_refl) in Hp. destruct (sizes _ _ _ _ HI Hp) as (n & Hn & Hd). exists n. split_and!; try tauto. by apply (mi_cnt _ _ _ HI).
  - intros v cap k Hv. by eapply buffers.
Qed.

Lemma occ_app p l l' : occ p (l ++ l') = occ p l + occ p l'.
Proof. unfold occ. by rewrite filter_app, app_length. Qed.
Lemma refs_occ (c : rst A) p : refs c p = occ p (raddr <$> trees (r_h c)).
Proof. unfold refs, occ. induction (trees (r_h c)) as [|r l IH]; [done|]. rewrite fmap_cons, !filter_cons. repeat case_decide; simpl; congruence. Qed.
Lemma occ_nodup p l : NoDup l -> p ∈ l -> occ p l = 1.
Proof.
  induction 1 as [|q l Hq HN IH]; [by intros ?%elem_of_nil|]. intros [->|Hp]%elem_of_cons; unfold occ in *; rewrite filter_cons.
  - rewrite decide_True by done. simpl. f_equal. fold (occ q l). by apply occ_0.
  - rewrite decide_False; [by apply IH|]. intros ->. done.
Qed.

Lemma nodup_roots W : NoDup (addrss W) -> NoDup (aptr <$> W).
Proof.
  induction W as [|[q pl v ks] W IH]; [constructor|]. unfold addrss. cbn [flat_map]. fold (addrss W). rewrite addrs_eq. intros (_ & H2 & H3)%NoDup_app. cbn [fmap list_fmap aptr]. constructor; [|by apply IH].
  intros Hin. apply (H2 q); [left|]. apply elem_of_list_fmap in Hin as (t & -> & Ht). unfold addrss. apply elem_of_list_In, in_flat_map. exists t. split; apply elem_of_list_In; [done|].
  destruct t. rewrite addrs_eq. left.
Qed.
Lemma root_addrs W (t : atree A) : t ∈ W -> aptr t ∈ addrss W.
Proof. intros Ht. unfold addrss. apply elem_of_list_In, in_flat_map. exists t. split; apply elem_of_list_In; [done|]. destruct t. rewrite addrs_eq. left. Qed.

Theorem counters_shared (c : rst A) (σ : rss A) : reached c σ ->
  (forall p, rlive c p -> exists n k, m_heap (r_mem c) !! p = Some n /\ m_cnt (r_mem c) !! p = Some k /\ n_deg n <= n_desc n /\ n_desc n < size (m_heap (r_mem c)) /\
     (owned c p -> k = 1 + refs c p) /\ (~ owned c p -> k = refs c p)) /\
  (forall v cap k, m_vec (r_mem c) !! v = Some (cap, k) -> k <= size (m_heap (r_mem c)) + size (r_h c)).
Proof.
  intros HR%reached_RI. destruct HR as (Wm & SH & Hs & s & ψ & HR). pose proof (RI_minv HR) as HI. pose proof (iv_mem _ _ _ _ _ _ _ HR) as Hm.
  destruct (iv_h _ _ _ _ _ _ _ HR) as [_ Hp]. split.
  - intros p Hl. apply (rlive_addrs _ _ _ _ _ _ _ p HR) in Hl. destruct (sizes _ _ _ _ HI Hl) as (n & Hn & Hd1 & Hd2).
    pose proof (mi_cnt _ _ _ HI p (ex_intro _ n Hn)) as Hc. exists n, (1 + occ p Hs). rewrite Hm. cbn [m_heap m_cnt addc adj]. rewrite map_lookup_imap, Hc.
    split_and!; [done|done|done|done| |]; rewrite refs_occ.
    + intros Ho. rewrite (occ_perm _ _ _ Hp), occ_app, (occ_0 p (aptr <$> SH)); [lia|]. intros Hin. apply elem_of_list_fmap in Hin as (t & Ht & Hin).
      destruct Ho as [(n' & q & Hn' & Hu)|(x & hd & Hx & Hhd)].
      * rewrite Hm in Hn'. cbn [m_heap addc adj] in Hn'. destruct t as [q' pl v ks]. simpl in Ht. subst q'.
        apply elem_of_Permutation in Hin as [SH' HSH]. assert (MInvX s (plug [] (AN p pl v ks) :: (trees Wm ++ SH')) []) as HI'. { eapply MInv_perm; [|exact HI]. rewrite HSH. simpl. solve_Permutation. }
        rewrite (lookup_at _ _ _ _ _ _ _ _ HI') in Hn'. injection Hn' as <-. done.
      * rewrite (re_env _ _ _ _ (iv_env _ _ _ _ _ _ _ HR)), lookup_fmap in Hx. destruct (Wm !! x) as [t'|] eqn:Hw; [|done]. simpl in Hx. injection Hx as <-. rewrite addr_hof in Hhd.
        pose proof (MInv_nodup _ _ _ HI) as HN. unfold addrss in HN. rewrite flat_map_app in HN. apply NoDup_app in HN as (_ & HN & _). apply (HN p).
        -- rewrite <-Hhd. apply root_addrs. apply elem_of_list_fmap. exists (x, t'). split; [done|]. by apply elem_of_map_to_list.
        -- rewrite Ht. by apply root_addrs.
    + intros Ho. rewrite (occ_perm _ _ _ Hp), occ_app, (occ_nodup p (aptr <$> SH)); [lia| |].
      * apply nodup_roots. exact (RI_nodup_addrs HR).
      * destruct (at_addr _ _ _ _ HI Hl) as (t & W' & C & pl & v & ks & HW & Ht). assert (t ∈ trees Wm ++ SH) as Hin by (rewrite HW; left).
        apply (MInv_perm _ _ _ _ HW) in HI. rewrite Ht in HI. pose proof (lookup_at _ _ _ _ _ _ _ _ HI) as Hn'. destruct C as [|[q' pl' v' L R] C].
        2: { destruct Ho. left. do 2 eexists. rewrite Hm. split; [exact Hn'|done]. }
        apply elem_of_app in Hin as [Hin|Hin]; [|rewrite Ht in Hin; by apply (elem_of_list_fmap_1 aptr) in Hin].
        destruct Ho. right. apply elem_of_list_fmap in Hin as ([x t'] & -> & Hin). apply elem_of_map_to_list in Hin. simpl in *. exists x, (hof t').
        split; [|by rewrite addr_hof, Ht]. by rewrite (re_env _ _ _ _ (iv_env _ _ _ _ _ _ _ HR)), lookup_fmap, Hin.
  - intros v cap k. rewrite Hm. cbn [m_heap m_vec addc adj]. rewrite map_lookup_imap. destruct (m_vec s !! v) as [[cap' k']|] eqn:Ev; [|done]. simpl. intros [= <- <-].
    pose proof (buffers _ _ _ _ _ HI Ev). pose proof (occb_le v Hs). assert (length (raddr <$> trees (r_h c)) = length Hs + length (aptr <$> SH)) as Hq by (by rewrite Hp, app_length).
    rewrite !fmap_length in Hq. change (size (r_h c)) with (length (map_to_list (r_h c))). lia.
Qed.
End counters.
