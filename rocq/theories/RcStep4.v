(** RcStep4.v — detaching and releasing nodes; all histories. *)
From stdpp Require Import base gmap list sorting.
From Verif Require Import Spec ClientSpec RcSpec Machine NodeModel BfsModel ClientModel RcModel RcAllowed Sep Rep NodeProofs Inv Abs ClientProofs
  BfsIter ClientRef ClientProps ClientStep CountFrame RcRelease RcLab RcRef RcStep RcStep2 RcStep3.

Section step.
Context {A : Type}.
Implicit Types (p q : ptr) (s : mem A) (W SH : list (atree A)) (Hs : list ptr) (ψ : gmap ptr nat) (c : rst A) (σ : rss A) (Wm : gmap nat (atree A)).
Local Notation REnv F := (@ClientRef.REnv A F []).
Local Notation trees Wm := ((map_to_list Wm).*2).

Ltac hnd HR h := let H := fresh "Hh" in pose proof (RI_handle HR h) as H;
  match type of H with match rs_h ?σ !! h with _ => _ end => let i := fresh "i" in destruct (rs_h σ !! h) as [i|] eqn:?;
    [destruct H as (p & pl & a & aks & S1 & S2 & D & L1 & L2 & C & ks & Hrh & HSH & Hsh & HS1 & HS2 & HD & Hi & Hks & Hfind & HI); rewrite Hrh, ?Hfind
    |rewrite H] end.
Ltac bad := eexists; split; [reflexivity|by eexists _, _, _, _, _].
Ltac start := intros c σ (Wm & SH & Hs & s & ψ & HR) Hok; cbn [rstep rsstep]; unfold reading, writing, on_node.
Ltac reads HR HI Hi i := rewrite (read_call _ _ _ _ _ _ _ _ _ i _ _ _ _ _ _ HR HI Hi); match goal with |- context [readable ?σ i] => destruct (readable σ i); [|done] end.
Ltac writes HR HI Hi i := rewrite (write_call _ _ _ _ _ _ _ _ _ i _ _ _ _ _ _ HR HI Hi); match goal with |- context [writable ?σ i] => destruct (writable σ i); [|done] end.
Ltac free HR h := let H := fresh "Hfree" in pose proof (free_handle _ _ _ _ _ _ _ h HR) as H;
  match type of H with match rs_h ?σ !! h with _ => _ end => destruct (rs_h σ !! h) eqn:?; [destruct H as [? ->]; bad|rewrite H] end.


(** ** the handles *)
Lemma roots_ids ψ SH (sh : list (ltree A)) : Forall2 (lrep ψ) SH sh -> Forall2 (fun p i => ψ !! p = Some i) (aptr <$> SH) (lid <$> sh).
Proof. induction 1 as [|k x ? ? Hk _ IH]; simpl; constructor; [by apply lrep_lid|done]. Qed.
Lemma RI_root_iff c σ Wm SH Hs s ψ p i : RInv c σ Wm SH Hs s ψ -> ψ !! p = Some i -> p ∈ aptr <$> SH <-> i ∈ lid <$> rs_sh σ.
Proof. intros HR Hi. eapply ids_iff; [apply (iv_id _ _ _ _ _ _ _ HR)|apply roots_ids, HR|done]. Qed.
Lemma roots_nodup c σ Wm SH Hs s ψ : RInv c σ Wm SH Hs s ψ -> NoDup (aptr <$> SH).
Proof.
  intros HR. pose proof (RI_nodup_addrs HR) as HN. clear -HN. induction SH as [|t SH IH]; [constructor|]. rewrite addrss_cons in HN. apply NoDup_app in HN as (_ & N2 & N3).
  rewrite fmap_cons. constructor; [|by apply IH]. intros Hx. apply elem_of_list_fmap in Hx as (u & Hu & Hin). apply (N2 (aptr t)); [apply aptr_addrs|].
  rewrite Hu. apply elem_of_list_In, in_flat_map. exists u. split; [by apply elem_of_list_In|]. apply elem_of_list_In, aptr_addrs.
Qed.
Lemma handle_perm (H : gmap nat rnode) h r : H !! h = Some r -> raddr <$> trees H ≡ₚ raddr r :: (raddr <$> trees (delete h H)).
Proof. intros Hh. by rewrite (trees_delete _ _ _ Hh). Qed.
Lemma held_in c σ Wm SH Hs s ψ h p i : RInv c σ Wm SH Hs s ψ -> ψ !! p = Some i ->
  held (delete h (rs_h σ)) i = true <-> p ∈ raddr <$> trees (delete h (r_h c)).
Proof.
  intros HR Hi. unfold held. rewrite bool_decide_eq_true. destruct (iv_h _ _ _ _ _ _ _ HR) as [H1 _]. pose proof (opt_rel_delete _ _ _ h H1) as H2.
  rewrite !elem_of_list_fmap. split.
  - intros ([h' i'] & Heq & Hx). simpl in Heq. subst i'. apply elem_of_map_to_list in Hx. specialize (H2 h'). rewrite Hx in H2. inversion H2 as [r ? (q & ql & -> & Hq & Hj) Hr|]; subst.
    exists (rform q ql). split; [rewrite raddr_rform; by eapply (proj1 (iv_id _ _ _ _ _ _ _ HR))|]. apply elem_of_list_fmap. exists (h', rform q ql). split; [done|]. by apply elem_of_map_to_list.
  - intros (r & -> & Hx). apply elem_of_list_fmap in Hx as ([h' r'] & Heq & Hx). simpl in Heq. subst r'. apply elem_of_map_to_list in Hx. specialize (H2 h'). rewrite Hx in H2.
    inversion H2 as [? j (q & ql & -> & Hq & Hj) Hu Hr|]; subst. rewrite raddr_rform in Hi. assert (j = i) as -> by congruence. exists (h', i). split; [done|]. by apply elem_of_map_to_list.
Qed.

Lemma step_detach_h h : rstep_good (A:=A) (SDetach h).
Proof.
  start. hnd HR h; [|bad]. unfold rc_detach. writes HR HI Hi i. rewrite raddr_rform.
  destruct HD as [|fr fr' D' C' Hf HD'].
  { rewrite (up_root _ _ _ _ _ _ _ _ _ _ _ _ HR Hsh). unfold call, bind at 1. rewrite (iv_mem _ _ _ _ _ _ _ HR). unfold addc.
    rewrite (hp_err _ _ _ _ _ (hp_detach p) (detach_root _ _ _ _ _ _ _ HI)). done. }
  destruct Hf as [u ul b AL AR j L R Hj HL HRR].
  assert (p ∈ Hs) as HpHs.
  { destruct (iv_h _ _ _ _ _ _ _ HR) as [_ Hp]. assert (p ∈ Hs ++ (aptr <$> SH)) as Hin. { rewrite <-Hp, (handle_perm _ _ _ Hrh), raddr_rform. left. }
    apply elem_of_app in Hin as [?|Hin]; [done|]. exfalso. apply (RI_root_iff _ _ _ _ _ _ _ _ _ HR Hi) in Hin. pose proof (RI_nodup HR) as HN.
    revert Hin. rewrite Hsh in *. by apply (loc_isroot L1 L2 _ C' (LN i a ks)). }
  rewrite plug_cons in HI, HSH. rewrite lplug_cons in Hsh. cbn [plug1 lplug1] in *.
  destruct (up_some _ _ _ _ _ _ _ _ _ _ _ _ _ _ _ _ _ HR Hsh) as (-> & HnL & HnR). cbn [lid].
  destruct (detach_at _ _ _ _ _ _ _ _ _ _ _ _ _ HI) as (hp' & E & HI').
  rewrite (call_bind _ _ _ _ _ _ (mem_ok _ _ _ _ _ _ _ _ _ _ HR (hp_detach p) E)).
  assert (rc_from p (addc Hs (set_heap s hp')) = Ok (rform p pl) (addc Hs (set_heap s hp'))) as Hfrom by exact (into_rc_alive _ [] p pl a aks _ _ _ _ HI').
  rewrite (call_bind (set_mem c (addc Hs (set_heap s hp'))) _ _ _ _ _ Hfrom).
  apply elem_of_Permutation in HpHs as [Hs' HpHs].
  assert (rc_drop_handle (<[p := (-1)%Z]> (r_b c)) (rform p pl) (addc Hs (set_heap s hp')) = Ok tt (addc Hs' (set_heap s hp'))) as Hdrop.
  { rewrite (addc_perm _ _ _ HpHs). eapply drop_handle_keep; [exact HI'|]. rewrite infoss_cons. apply elem_of_app. left. left. }
  assert (call (set_mem (set_mem c (addc Hs (set_heap s hp'))) (addc Hs (set_heap s hp'))) (rc_drop_handle (<[p := (-1)%Z]> (r_b c)) (rform p pl)) (fun _ s0 => RDone RUnit (set_mem c s0)) =
    RDone RUnit (set_mem c (addc Hs' (set_heap s hp')))) as ->. { unfold call. cbn [r_mem set_mem]. by rewrite Hdrop. }
  eexists; split; [reflexivity|].
  set (x := LN i a ks) in *. change j with (lid (LN j b (L ++ x :: R))) at 1. rewrite (lmap_loc _ _ _ _ _ _ (RI_nodup HR) Hsh). cbn [set_lkids].
  assert (remove_kid i (L ++ x :: R) = L ++ R) as -> by exact (remove_kid_at x L R HnL HnR).
  assert (forall z, z ∈ infoss SH -> z ∈ infoss (S1 ++ plug D' (AN u ul (Some b) (AL ++ AR)) :: S2 ++ [AN p pl (Some a) aks])) as Hinf.
  { intros z. rewrite HSH. repeat (rewrite infoss_app || rewrite infoss_cons || rewrite plug_infos || rewrite infos_eq || rewrite elem_of_app || rewrite elem_of_cons). tauto. }
  refine (RI_gen0 c σ Wm SH Hs s ψ Wm (S1 ++ plug D' (AN u ul (Some b) (AL ++ AR)) :: S2 ++ [AN p pl (Some a) aks]) Hs' (set_heap s hp') (r_h c) (rs_h σ) (r_env c) _ (rs_x σ) HR _ _ _ _ _ _ _).
  - eapply comm_evolves; [|exact E]. apply comm_hp, hp_detach.
  - intros z Hz. apply infoss_addrss in Hz as [zl Hz]. apply infoss_addrss. exists zl. by apply Hinf.
  - eapply REnv_F; [apply HR|]. eapply MInv_perm; [|exact HI']. solve_Permutation.
  - apply HR.
  - rewrite <-app_assoc. apply Forall2_app; [done|]. simpl. constructor; [apply lrep_plug; [done|]; constructor; [done|by apply Forall2_app]|]. apply Forall2_app; [done|]. constructor; [|constructor]. by constructor.
  - eapply hrel_mono; [apply HR|exact Hinf|done|]. rewrite HpHs, HSH, !fmap_app, !fmap_cons, fmap_app. simpl.
    rewrite (aptr_plug_eq D' (AN u ul (Some b) (AL ++ AN p pl (Some a) aks :: AR)) (AN u ul (Some b) (AL ++ AR)) eq_refl). solve_Permutation.
  - apply HR.
Qed.

(** ** [drop] *)
Lemma gons_none (H : gmap nat rnode) (G : gmap nat (nat * bool)) h q : h ∉ ((map_to_list G).*2).*1 -> q ∉ raddr <$> trees (delete h H) -> gons H G q = [].
Proof.
  intros Hh Hq. unfold gons. revert Hh. induction (map_to_list G).*2 as [|[h' m] l IH]; intros Hh; [done|]. cbn in Hh |- *. rewrite decide_False; [apply IH; set_solver|].
  intros Heq. apply Hq. destruct (H !! h') as [r|] eqn:E; [|done]. simpl in Heq. inversion Heq; subst. apply elem_of_list_fmap_1. apply elem_of_list_fmap. exists (h', r). split; [done|].
  apply elem_of_map_to_list. rewrite lookup_delete_ne; [done|]. set_solver.
Qed.
Lemma guards_ne (G : gmap nat (nat * bool)) h : h ∉ ((map_to_list G).*2).*1 -> forall g h' m, G !! g = Some (h', m) -> h' <> h.
Proof.
  intros Hh g h' m Hg ->. apply Hh. apply elem_of_list_fmap. exists (h, m). split; [done|]. apply elem_of_list_fmap. exists (g, (h, m)). split; [done|]. by apply elem_of_map_to_list.
Qed.
Lemma asurv_infos P z : forall t : atree A, z ∈ infoss (asurv P t) -> z ∈ infos t.
Proof.
  fix IH 1. intros [p pl v ks]. rewrite asurv_eq, infos_eq. intros Hq. right. revert Hq. induction ks as [|k ks IHks]; [done|].
  rewrite asurvs_cons, infoss_app, infoss_cons, !elem_of_app. intros [Hq|Hq]; [left|right; by apply IHks].
  destruct (P (aptr k)); [|by apply IH]. rewrite infoss_cons in Hq. by rewrite app_nil_r in Hq.
Qed.
Lemma infoss_uniq W q l l' : NoDup (addrss (A:=A) W) -> (q, l) ∈ infoss W -> (q, l') ∈ infoss W -> l = l'.
Proof.
  intros HN Hp Hp'. rewrite <-infoss_fst in HN. apply elem_of_list_lookup in Hp as [x Hx]. apply elem_of_list_lookup in Hp' as [y Hy].
  assert (x = y) as ->. { eapply NoDup_lookup; [exact HN| |]; rewrite list_lookup_fmap, ?Hx, ?Hy; done. } congruence.
Qed.
Lemma flat_at {X} (f : ltree A -> list X) (g : ltree A -> list X) L1 L2 t : NoDup (lids (L1 ++ t :: L2)) ->
  flat_map (fun u => if decide (lid u = lid t) then f u else g u) (L1 ++ t :: L2) = flat_map g L1 ++ f t ++ flat_map g L2.
Proof.
  intros HN. rewrite flat_map_app. simpl. rewrite decide_True by done. rewrite lids_split in HN. apply NoDup_app in HN as (HN & _). rewrite fmap_app in HN. simpl in HN.
  apply NoDup_app in HN as (_ & N2 & N3). apply NoDup_cons in N3 as [N3 _].
  assert (forall L, lid t ∉ lid <$> L -> flat_map (fun u => if decide (lid u = lid t) then f u else g u) L = flat_map g L) as HL.
  { intros L. induction L as [|u L IH]; [done|]. intros Hn. simpl. rewrite decide_False by set_solver. f_equal. apply IH. set_solver. }
  rewrite !HL; [done|done|]. intros Hx. apply (N2 _ Hx). left.
Qed.
Lemma flat_self (L : list (ltree A)) : flat_map (fun t => [t]) L = L.
Proof. induction L; [done|]. simpl. by f_equal. Qed.
Lemma flat_nil {X} (L : list (ltree A)) : flat_map (fun _ => @nil X) L = [].
Proof. by induction L. Qed.

Lemma step_drop_h h : rstep_good (A:=A) (SDrop h).
Proof.
  start. hnd HR h; [|bad]. rewrite (iv_gs _ _ _ _ _ _ _ HR). destruct (bool_decide (h ∈ ((map_to_list (rs_g σ)).*2).*1)) eqn:Eg; [bad|].
  apply bool_decide_eq_false in Eg. rewrite <-(iv_gs _ _ _ _ _ _ _ HR) in Eg. pose proof (guards_ne _ _ Eg) as Hgne.
  pose proof (iv_h _ _ _ _ _ _ _ HR) as [Hh1 Hh2]. pose proof (held_in _ _ _ _ _ _ _ h p i HR Hi) as Hheld.
  pose proof (handle_perm _ _ _ Hrh) as HT. rewrite raddr_rform in HT. rewrite Hh2 in HT. set (T := raddr <$> trees (delete h (r_h c))) in *.
  pose proof (roots_nodup _ _ _ _ _ _ _ HR) as HNr.
  destruct (decide (p ∈ T \/ p ∉ aptr <$> SH)) as [Hkeep|Hrel].
  - assert (p ∈ Hs) as HpHs.
    { assert (p ∈ Hs ++ (aptr <$> SH)) as Hin by (rewrite HT; left). destruct (decide (p ∈ Hs)) as [?|Hn]; [done|]. apply elem_of_app in Hin as [?|Hin]; [done|]. destruct Hkeep as [Hk|?]; [|done].
      exfalso. apply elem_of_Permutation in Hin as [l Hl]. rewrite Hl in HT, HNr. rewrite <-Permutation_middle in HT. apply Permutation_cons_inv in HT. rewrite <-HT in Hk.
      apply NoDup_cons in HNr as [Hpl _]. apply elem_of_app in Hk as [?|?]; done. }
    apply elem_of_Permutation in HpHs as [Hs' HpHs].
    assert (rc_drop_handle (r_b c) (rform p pl) (r_mem c) = Ok tt (addc Hs' s)) as Hdrop.
    { rewrite (iv_mem _ _ _ _ _ _ _ HR), (addc_perm _ _ _ HpHs). eapply drop_handle_keep; [exact HI|]. rewrite infoss_cons, plug_infos. rewrite !elem_of_app. left. left. left. }
    rewrite (call_run _ _ _ _ _ Hdrop). eexists; split; [reflexivity|].
    assert (drop_handle σ h i = set_h σ (delete h (rs_h σ))) as ->.
    { unfold drop_handle. destruct (held (delete h (rs_h σ)) i) eqn:Eh; [done|]. rewrite decide_False; [done|]. rewrite <-(RI_root_iff _ _ _ _ _ _ _ _ _ HR Hi).
      destruct Hkeep as [Hk|?]; [|done]. apply Hheld in Hk. congruence. }
    refine (RI_gen0 c σ Wm SH Hs s ψ Wm SH Hs' s _ _ (r_env c) _ (rs_x σ) HR _ _ _ _ _ _ _).
    + apply evolves_refl.
    + done.
    + apply HR.
    + apply HR.
    + apply HR.
    + split; [by apply opt_rel_delete|]. rewrite HpHs in HT. simpl in HT. apply Permutation_cons_inv in HT. symmetry. exact HT.
    + apply grel_del; [apply HR|exact Hgne].
  - assert (p ∉ T /\ p ∈ aptr <$> SH) as [HpT Hroot]. { destruct (decide (p ∈ T)), (decide (p ∈ aptr <$> SH)); tauto. } clear Hrel.
    assert (D = []) as ->.
    { destruct HD as [|fr fr' D' C' Hf HD']; [done|]. exfalso. apply (RI_root_iff _ _ _ _ _ _ _ _ _ HR Hi) in Hroot. pose proof (RI_nodup HR) as HN.
      revert Hroot. rewrite Hsh in *. destruct fr'. by apply (loc_isroot L1 L2 _ C' (LN i a ks)). }
    inversion HD; subst C. clear HD. cbn [plug lplug foldl] in *. set (t := AN p pl (Some a) aks) in *.
    change (plug [] t) with t in *.
    assert (T ≡ₚ Hs ++ (aptr <$> S1 ++ S2)) as HT2.
    { rewrite HSH, fmap_app, fmap_cons in HT. cbn [aptr] in HT. change (aptr t) with p in HT. apply (Permutation_cons_inv (a:=p)). rewrite <-HT, fmap_app. solve_Permutation. }
    assert (forall q, q ∈ T <-> q ∈ Hs \/ q ∈ aptr <$> S1 ++ S2) as HTin by (intros q; rewrite <-elem_of_app; apply elem_of_Permutation_proper; exact HT2).
    pose proof (RI_nodup_addrs HR) as HNa. set (P := fun q => bool_decide (q ∈ T)).
    assert (forall q, q ∈ addrs t -> q ∉ addrss (S1 ++ S2)) as Hdis.
    { intros q Hq Hx. assert (NoDup (addrss (t :: S1 ++ S2))) as HN2.
      { rewrite <-infoss_fst in HNa |- *. rewrite infoss_cons, infoss_app. rewrite HSH, infoss_app, infoss_cons in HNa. assert (infos t ++ infoss S1 ++ infoss S2 ≡ₚ infoss S1 ++ infos t ++ infoss S2) as HPm by solve_Permutation. by rewrite HPm. }
      rewrite addrss_cons in HN2. apply NoDup_app in HN2 as (_ & HN2 & _). by apply (HN2 q). }
    assert (forall q, q ∈ aptr <$> S1 ++ S2 -> q ∈ addrss (S1 ++ S2)) as Hroots.
    { intros q Hq. apply elem_of_list_fmap in Hq as (u & -> & Hu). apply elem_of_list_In, in_flat_map. exists u. split; [by apply elem_of_list_In|]. apply elem_of_list_In, aptr_addrs. }
    assert (lrep ψ t (LN i a ks)) as Htr by by constructor.
    destruct (drop_handle_release (r_b c) P s (trees Wm ++ S1 ++ S2) t Hs) as (s' & Hs1 & Hdrop & HI' & HH & HW & Hlog & Hfr & Hshr & Hal).
    + exact HI.
    + by eapply lrep_full.
    + apply bool_decide_eq_false. exact HpT.
    + intros q Hq. unfold P. rewrite bool_decide_eq_true, HTin. split; [|tauto]. intros [?|Hx]; [done|]. exfalso. by apply (Hdis q Hq), Hroots.
    + intros q Hq HP. apply bool_decide_eq_false in HP. destruct (iv_g _ _ _ _ _ _ _ HR) as (_ & G2 & _). rewrite G2, (gons_none _ _ h q Eg HP). done.
    + intros q Hq. apply (RI_Hs HR) in Hq. rewrite HSH in Hq. rewrite !addrss_cons, !addrss_app in *. rewrite addrss_cons in Hq. rewrite !elem_of_app in *. tauto.
    + cbn [aptr apl] in Hdrop. rewrite <-(iv_mem _ _ _ _ _ _ _ HR) in Hdrop. change (aptr t) with p in Hdrop. change (apl t) with pl in Hdrop.
      rewrite (call_run _ _ _ _ _ Hdrop). eexists; split; [reflexivity|].
      assert (forall q j, ψ !! q = Some j -> P q = held (delete h (rs_h σ)) j) as HP.
      { intros q j Hj. pose proof (held_in _ _ _ _ _ _ _ h q j HR Hj) as Hx. fold T in Hx. unfold P. destruct (held (delete h (rs_h σ)) j).
        - apply bool_decide_eq_true. by apply Hx. - apply bool_decide_eq_false. intros Hq. apply Hx in Hq. done. }
      destruct (surv_rep ψ P _ t (LN i a ks) HP Htr) as [Hsv Hlo].
      pose proof (RI_nodup HR) as HN. rewrite Hsh in HN.
      assert (drop_handle σ h i = RSS (SSt (env_of σ) (s_log (rs_x σ) ++ alost P t)) (L1 ++ surv (held (delete h (rs_h σ))) (LN i a ks) ++ L2) (delete h (rs_h σ)) (rs_w σ) (rs_g σ) (rs_it σ) (rs_next σ)) as ->.
      { unfold drop_handle. destruct (held (delete h (rs_h σ)) i) eqn:Eh; [exfalso; by apply HpT, Hheld|]. rewrite decide_True by by apply (RI_root_iff _ _ _ _ _ _ _ _ _ HR Hi).
        rewrite Hsh, Hlo. pose proof (flat_at (surv (held (delete h (rs_h σ)))) (fun t => [t]) L1 L2 (LN i a ks) HN) as E1.
        pose proof (flat_at (lost (held (delete h (rs_h σ)))) (fun _ => []) L1 L2 (LN i a ks) HN) as E2. cbn [lid] in E1, E2. rewrite E1, E2, !flat_self, !flat_nil, app_nil_r. done. }
      assert (NoDup (addrss (asurv P t ++ trees Wm ++ S1 ++ S2))) as HN3 by exact (MInv_nodup _ _ _ HI').
      exists Wm, (S1 ++ asurv P t ++ S2), Hs1, s', ψ. split; cbn [r_mem set_rh set_mem r_env r_h r_w r_g r_b r_it rs_x rs_sh rs_h rs_w rs_g rs_it rs_next].
      * done.
      * eapply REnv_F; [apply HR|]. eapply MInv_perm; [|exact HI']. solve_Permutation.
      * simpl. rewrite Hlog. f_equal. apply HR.
      * apply Forall2_app; [done|]. by apply Forall2_app.
      * destruct (iv_id _ _ _ _ _ _ _ HR) as (Hinj & Hb & Hd). split_and!; [done|done|]. intros q j Hj. destruct (Hd q j Hj) as [Hlt Hx]. split; [by rewrite Hfr|]. intros Hq.
        pose proof (Hx (proj1 Hshr q Hq)) as Hin. rewrite HSH in Hin. rewrite addrss_app, addrss_cons, !elem_of_app in Hin. rewrite !addrss_app, !elem_of_app.
        destruct Hin as [?|[Hin|?]]; [by left| |by right; right]. right. left. by apply Hal.
      * split.
        -- intros h'. destruct (decide (h' = h)) as [->|Hne]; [rewrite !lookup_delete; constructor|]. rewrite !lookup_delete_ne by done. pose proof (Hh1 h') as Hx.
           destruct (r_h c !! h') as [r|] eqn:Er, (rs_h σ !! h') as [j|] eqn:Ej; [|by inversion Hx|by inversion Hx|constructor]. assert (hok SH ψ r j) as Hokr by by inversion Hx. constructor. destruct Hokr as (q & ql & -> & Hq & Hj). exists q, ql. split_and!; [done| |done].
           assert (q ∈ T) as HqT. { apply elem_of_list_fmap. exists (rform q ql). rewrite raddr_rform. split; [done|]. apply elem_of_list_fmap. exists (h', rform q ql). split; [done|]. apply elem_of_map_to_list. by rewrite lookup_delete_ne. }
           rewrite HSH, infoss_app, infoss_cons, !elem_of_app in Hq. rewrite !infoss_app, !elem_of_app. destruct Hq as [?|[Hq|?]]; [by left| |by right; right]. right. left.
           assert (q ∈ addrs t) as Hqt by (apply in_addrs; eauto). assert (q ∈ Hs) as HqHs. { apply HTin in HqT. destruct HqT as [?|Hx2]; [done|]. exfalso. by apply (Hdis q Hqt), Hroots. }
           assert (q ∈ addrss (asurv P t)) as Hqs.
           { rewrite HH, elem_of_app in HqHs. destruct HqHs as [Hx2|Hx2].
             - apply elem_of_list_fmap in Hx2 as (u & -> & Hu). apply elem_of_list_In, in_flat_map. exists u. split; [by apply elem_of_list_In|]. apply elem_of_list_In, aptr_addrs.
             - apply HW in Hx2. rewrite !addrss_app, !elem_of_app in Hx2. destruct Hx2 as [?|[Hx2|Hx2]]; [done| |]; exfalso.
               + pose proof (MInv_nodup _ _ _ HI) as HN4. rewrite addrss_cons, addrss_app in HN4. apply NoDup_app in HN4 as (_ & HN4 & _). apply (HN4 q Hqt). apply elem_of_app. by left.
               + apply (Hdis q Hqt). by rewrite addrss_app, elem_of_app. }
           apply infoss_addrss in Hqs as [ql' Hqs]. assert (ql' = ql) as ->; [|done]. apply asurv_infos in Hqs as Hqs'. eapply (infoss_uniq SH q); [exact HNa| |]; rewrite HSH, infoss_app, infoss_cons, !elem_of_app; [right; left; exact Hqs'|right; left; exact Hq].
        -- fold T. rewrite HT2, HH, !fmap_app. solve_Permutation.
      * eapply (wrel_mono _ _ s s' SH ψ ψ (rs_next σ)); [apply HR|apply HR| |done]. split_and!; [by rewrite Hfr|intros b _; apply Hshr|intros q _; apply Hshr].
      * apply grel_del; [apply HR|exact Hgne].
      * apply HR.
      * apply HR.
Qed.

(** ** iterators and [into_tree] *)
Lemma step_iterclone it it' : rstep_good (A:=A) (SIterClone it it').
Proof.
  start. pose proof (opt_rel_look _ _ _ it' (iv_it _ _ _ _ _ _ _ HR)) as H1. pose proof (opt_rel_look _ _ _ it (iv_it _ _ _ _ _ _ _ HR)) as H2.
  destruct (rs_it σ !! it') as [y'|]; [destruct H1 as (? & -> & _); bad|]. rewrite H1. destruct (rs_it σ !! it) as [y|]; [|rewrite H2; bad].
  destruct H2 as (x & -> & Hx). eexists; split; [reflexivity|]. exists Wm, SH, Hs, s, ψ. destruct HR as [R1 R2 R3 R4 R5 R6 R7 R8 R9 R10]. split; simpl; try done.
  unfold rc_iter_clone. exact (opt_rel_insert _ _ _ _ _ _ R10 Hx).
Qed.
Lemma lrep_ext ψ ψ' av (t : ltree A) : (forall p, p ∈ addrs av -> ψ' !! p = ψ !! p) -> lrep ψ av t -> lrep ψ' av t.
Proof.
  intros He H. revert He. pattern av, t. revert av t H. apply (lrep_ind' ψ). intros p pl a aks i ks Hi Hf IH He. constructor.
  - rewrite He; [done|]. rewrite addrs_eq. left.
  - assert (forall q, q ∈ addrss aks -> ψ' !! q = ψ !! q) as He2. { intros q Hq. apply He. rewrite addrs_eq. by right. } clear He Hf Hi.
    induction IH as [|k x aks ks Hk _ IH]; [constructor|]. rewrite addrss_cons in He2. setoid_rewrite elem_of_app in He2. constructor; [apply Hk; auto|apply IH; auto].
Qed.
Lemma lreps_ext ψ ψ' aks (ks : list (ltree A)) : (forall p, p ∈ addrss aks -> ψ' !! p = ψ !! p) -> Forall2 (lrep ψ) aks ks -> Forall2 (lrep ψ') aks ks.
Proof.
  intros He H. induction H as [|k x aks ks Hk _ IH]; [constructor|]. rewrite addrss_cons in He. setoid_rewrite elem_of_app in He.
  constructor; [eapply lrep_ext; [|exact Hk]; auto|apply IH; auto].
Qed.
Lemma filter_root (i : nat) (L : list (ltree A)) : i ∉ lid <$> L -> filter (fun u : ltree A => lid u <> i) L = L.
Proof.
  induction L as [|u L IH]; [done|]. rewrite fmap_cons, not_elem_of_cons. intros [H1 H2]. rewrite filter_cons_True by congruence. f_equal. auto.
Qed.
Lemma into_tree_run c σ Wm SH Hs s ψ p pl i D (C : list lframe) a aks W : RInv c σ Wm SH Hs s ψ -> MInvX s (plug D (AN p pl (Some a) aks) :: W) [] ->
  ψ !! p = Some i -> Forall2 (frep ψ) D C -> readable σ i = true -> (D = [] -> writable σ i = true) ->
  rc_into_tree (r_b c) (rform p pl) (r_mem c) = match D with [] => Ok p (addc Hs s) | _ => Err EPanic end.
Proof.
  intros HR HI Hi HD Hrd Hwr. unfold rc_into_tree, rc_is_root, bind. rewrite (iv_mem _ _ _ _ _ _ _ HR).
  unfold addc at 1. rewrite (borrow_eq _ _ _ _ _ _ _ _ _ _ HI), (flag_readable HR p i Hi), Hrd. cbn [negb].
  assert (parent p s = Ok (up_of D) s) as Hp.
  { rewrite (parent_at _ _ _ _ _ _ _ _ HI); [|intros; by eapply frep_none]. destruct HD as [|fr ? D' ? Hf]; [done|]. by destruct Hf. }
  rewrite raddr_rform. rewrite (hp_ok _ _ _ _ _ _ (hp_parent p) Hp). unfold ret. destruct HD as [|fr fr' D' C' Hf HD']; [|destruct Hf; done].
  cbn [up_of]. destruct pl; cbn [rform].
  - destruct p as [v n]. cbn [fst snd]. pose proof (acquire_ok s [] (v, n) true a aks W (fun q x => x + occ q Hs) (fun b => occb b Hs) HI) as Hq. cbn [acquire rform fst snd] in Hq. unfold addc. by rewrite Hq.
  - rewrite (flag_writable HR p i Hi), Hwr by done. done.
Qed.
Lemma step_into_tree h x : rstep_good (A:=A) (SIntoTree h x).
Proof.
  start. pose proof (RI_var _ _ _ _ _ _ _ x HR) as Hv. destruct (env_of σ !! x) as [[xt|xs]|] eqn:Ey.
  1: { destruct Hv as (k & _ & _ & ->). bad. }
  1: { destruct Hv as (k & _ & _ & ->). bad. }
  destruct Hv as [Hx ->]. cbn [op_allowed] in Hok.
  hnd HR h. 2: { destruct (bool_decide (h ∈ ((map_to_list (rs_g σ)).*2).*1)); bad. }
  rewrite (iv_gs _ _ _ _ _ _ _ HR). destruct (bool_decide (h ∈ ((map_to_list (rs_g σ)).*2).*1)) eqn:Eg; [bad|].
  apply bool_decide_eq_false in Eg. rewrite <-(iv_gs _ _ _ _ _ _ _ HR) in Eg. pose proof (guards_ne _ _ Eg) as Hgne.
  destruct (readable σ i) eqn:Erd.
  2: { unfold call, rc_into_tree, rc_is_root, bind. rewrite (iv_mem _ _ _ _ _ _ _ HR). unfold addc at 1.
       by rewrite (borrow_eq _ _ _ _ _ _ _ _ _ _ HI), (flag_readable HR p i Hi), Erd. }
  destruct (Hok i (LN i a ks) eq_refl Hfind) as (O1 & O2 & O3). clear Hok.
  assert (writable σ i = true) as Hwr.
  { unfold writable. apply bool_decide_eq_true. rewrite <-(gons_guards HR p i Hi). apply (gons_none _ _ h p Eg). intros Hin.
    pose proof (held_in _ _ _ _ _ _ _ h p i HR Hi) as Hheld. apply Hheld in Hin. unfold held in Hin. apply bool_decide_eq_true in Hin.
    apply elem_of_list_fmap in Hin as ([h' j] & Heq & Hin). simpl in Heq. subst j. apply elem_of_map_to_list in Hin. apply lookup_delete_Some in Hin as [Hne Hin].
    apply (O1 h' i); [congruence|done|]. rewrite lids_node. left. }
  unfold call. rewrite (into_tree_run _ _ _ _ _ _ _ _ _ _ _ _ _ _ _ HR HI Hi HD Erd (fun _ => Hwr)).
  pose proof (RI_nodup HR) as HN. pose proof (RI_nodup_addrs HR) as HNa.
  destruct HD as [|fr fr' D' C' Hf HD'].
  2: { rewrite decide_False; [done|]. rewrite Hsh in *. destruct Hf. by apply (loc_isroot L1 L2 _ C' (LN i a ks)). }
  change (plug [] (AN p pl (Some a) aks)) with (AN p pl (Some a) aks) in *. change (lplug [] (LN i a ks)) with (LN i a ks) in *.
  set (t := AN p pl (Some a) aks) in *. assert (lrep ψ t (LN i a ks)) as Ht by by constructor.
  rewrite decide_True. 2: { rewrite Hsh, fmap_app. apply elem_of_app. right. left. }
  eexists; split; [reflexivity|].
  assert (filter (fun u : ltree A => lid u <> i) (rs_sh σ) = L1 ++ L2) as ->.
  { rewrite Hsh in HN |- *. rewrite lids_split in HN. apply NoDup_app in HN as (HN & _). rewrite fmap_app in HN. simpl in HN. apply NoDup_app in HN as (_ & N2 & N3). apply NoDup_cons in N3 as [N3 _].
    rewrite filter_app, filter_cons_False by (cbn; tauto). rewrite !filter_root; [done|done|]. intros Hq. apply (N2 _ Hq). left. }
  set (ψ' := filter (fun z : ptr * nat => z.1 ∉ addrs t) ψ).
  assert (forall q, q ∉ addrs t -> ψ' !! q = ψ !! q) as Hout.
  { intros q Hq. unfold ψ'. destruct (ψ !! q) eqn:E; [|by apply map_filter_lookup_None; left]. by apply map_filter_lookup_Some. }
  assert (forall q j, ψ' !! q = Some j -> ψ !! q = Some j /\ q ∉ addrs t) as Hin.
  { intros q j Hq. unfold ψ' in Hq. by apply map_filter_lookup_Some in Hq. }
  assert (forall q j, ψ !! q = Some j -> j ∉ lid <$> lsubs (LN i a ks) -> q ∉ addrs t) as Hids.
  { intros q j Hq Hj Hx2. apply Hj. by apply (ids_iff ψ (addrs t) (lid <$> lsubs (LN i a ks)) q j (proj1 (iv_id _ _ _ _ _ _ _ HR)) (lrep_ids _ _ _ Ht) Hq). }
  assert (forall q, q ∈ addrss S1 \/ q ∈ addrss S2 -> q ∉ addrs t) as Hdis.
  { intros q Hq Hqt. rewrite HSH, addrss_app, addrss_cons in HNa. apply NoDup_app in HNa as (_ & N2 & N3). apply NoDup_app in N3 as (_ & N3 & _). destruct Hq as [Hq|Hq].
    - apply (N2 q Hq). apply elem_of_app. by left. - by apply (N3 q). }
  pose proof (iv_h _ _ _ _ _ _ _ HR) as [Hh1 Hh2].
  exists (<[x := t]> Wm), (S1 ++ S2), Hs, s, ψ'. split; cbn [r_mem set_rh set_renv set_mem r_env r_h r_w r_g r_b r_it rs_x rs_sh rs_h rs_w rs_g rs_it rs_next set_h set_sh set_env set_x env_of s_env s_log].
  - done.
  - destruct (iv_env _ _ _ _ _ _ _ HR) as [E1 E2 E3]. split.
    + eapply MInv_perm; [|exact HI]. unfold ClientRef.vals. rewrite (trees_insert _ _ _ Hx). solve_Permutation.
    + rewrite E2, fmap_insert. done.
    + apply opt_rel_insert; [done|]. by eapply lrep_erase.
  - apply HR.
  - apply Forall2_app; (eapply lreps_ext; [|eassumption]); intros q Hq; apply Hout, Hdis; auto.
  - destruct (iv_id _ _ _ _ _ _ _ HR) as (Hinj & Hb & Hd). split_and!.
    + intros q q' j Hq Hq'. apply Hin in Hq as [Hq _]. apply Hin in Hq' as [Hq' _]. by eapply Hinj.
    + intros q j Hq. apply Hin in Hq as [Hq _]. by eapply Hb.
    + intros q j Hq. apply Hin in Hq as [Hq Hqt]. destruct (Hd q j Hq) as [H1 H2]. split; [done|]. intros Hs2. apply H2 in Hs2. rewrite HSH in Hs2.
      rewrite addrss_app, addrss_cons, !elem_of_app in Hs2. rewrite addrss_app, elem_of_app. tauto.
  - split.
    + intros h'. destruct (decide (h' = h)) as [->|Hne]; [rewrite !lookup_delete; constructor|]. rewrite !lookup_delete_ne by done. pose proof (Hh1 h') as Hx2.
      destruct (r_h c !! h') as [r|] eqn:Er, (rs_h σ !! h') as [j|] eqn:Ej; [|by inversion Hx2|by inversion Hx2|constructor]. constructor.
      assert (hok SH ψ r j) as (q & ql & -> & Hq & Hj) by by inversion Hx2. pose proof (Hids q j Hj (O1 h' j Hne Ej)) as Hqt. exists q, ql. split_and!; [done| |by rewrite Hout].
      rewrite HSH, infoss_app, infoss_cons, !elem_of_app in Hq. rewrite infoss_app, elem_of_app. destruct Hq as [?|[Hq|?]]; [by left| |by right]. exfalso. apply Hqt, in_addrs. eauto.
    + pose proof (handle_perm _ _ _ Hrh) as HT. rewrite raddr_rform, Hh2, HSH, fmap_app, fmap_cons in HT. change (aptr t) with p in HT.
      apply (Permutation_cons_inv (a:=p)). rewrite <-HT, fmap_app. solve_Permutation.
  - refine (fun w => _). pose proof (iv_w _ _ _ _ _ _ _ HR w) as Hw. destruct (r_w c !! w) as [wn|] eqn:Ew, (rs_w σ !! w) as [j|] eqn:Ej; [|by inversion Hw|by inversion Hw|constructor].
    constructor. assert (exists q, wn = WScat q /\ ψ !! q = Some j /\ m_vec s !! q.1 = None) as (q & -> & Hq & Hvq) by by inversion Hw. exists q. split_and!; [done| |done].
    rewrite Hout; [done|]. apply (Hids q j Hq). by apply (O2 w).
  - apply grel_del; [apply HR|exact Hgne].
  - apply HR.
  - refine (fun it => _). pose proof (iv_it _ _ _ _ _ _ _ HR it) as Hit. destruct (r_it c !! it) as [ci|] eqn:Ec, (rs_it σ !! it) as [[cur n]|] eqn:Es; [|by inversion Hit|by inversion Hit|constructor].
    constructor. assert (option_Forall2 (fun p i => ψ !! p = Some i) (ci_curr ci) cur /\ ci_len ci = n) as [H1 H2] by by inversion Hit. split; [|done]. cbn [fst].
    destruct H1 as [q j Hq|]; constructor. rewrite Hout; [done|]. apply (Hids q j Hq). by apply (O3 it j n).
Qed.

(** * All histories *)
Theorem rstep_ok (o : rop A) : rstep_good o.
Proof.
  destruct o.
  - apply step_x. - apply step_from. - apply step_clone_h. - apply step_drop_h. - apply step_end. - apply step_parent_h. - apply step_pop_h. - apply step_push_h.
  - apply step_concat_h. - apply step_insert_h. - apply step_detach_h. - apply step_data. - apply step_modify_h. - apply step_degree. - apply step_count. - apply step_nochild.
  - apply step_isroot. - apply step_deepclone. - apply step_down. - apply step_up. - apply step_dropweak. - apply step_guard. - apply step_read. - apply step_write. - apply step_unguard.
  - apply step_iter. - apply step_next. - apply step_hint. - apply step_iterclone. - apply step_into_tree.
Qed.

Lemma RI_init : RI (A:=A) rst0 rss0.
Proof.
  exists ∅, [], [], mem0, ∅. split; cbn [rst0 rss0 r_mem r_env r_h r_w r_g r_b r_it rs_x rs_sh rs_h rs_w rs_g rs_it rs_next].
  - apply mem_eq; try done; cbn; by rewrite map_imap_empty.
  - split; [|symmetry; apply fmap_empty|intros h; unfold env_of; simpl; rewrite !lookup_empty; constructor]. unfold ClientRef.vals. rewrite map_to_list_empty. apply MInv_empty.
  - done.
  - constructor.
  - split_and!; [intros p q i Hx|intros p i Hx|intros p i Hx]; by rewrite lookup_empty in Hx.
  - split; [intros h; rewrite !lookup_empty; constructor|]. by rewrite map_to_list_empty.
  - intros w. rewrite !lookup_empty. constructor.
  - split_and!; [intros g h m Hx; by rewrite lookup_empty in Hx|intros p..]; unfold gons; rewrite map_to_list_empty; simpl; [done|]. intros Hx. by apply elem_of_nil in Hx.
  - done.
  - intros w. rewrite !lookup_empty. constructor.
Qed.

Lemma rrun_ok (os : list (rop A)) : forall c σ, RI c σ -> allowed c σ os ->
  match rsrun σ os with
  | Some (rs, σ') => exists c', rrun c os = RDone rs c' /\ RI c' σ'
  | None => rrun c os = RFails EPanic
  end.
Proof.
  induction os as [|o os IH]; intros c σ HR Hal; simpl; [eauto|]. destruct Hal as [Ho Hal]. pose proof (rstep_ok o c σ HR Ho) as Hs. destruct (rsstep σ o) as [[r σ1]|]; [|by rewrite Hs].
  destruct Hs as (c1 & E & HR1). rewrite E in *. specialize (IH c1 σ1 HR1 Hal). destruct (rsrun σ1 os) as [[rs σ2]|]; [|by rewrite IH].
  destruct IH as (c2 & -> & HR2). eauto.
Qed.
End step.
