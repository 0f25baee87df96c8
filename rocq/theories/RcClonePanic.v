(** RcClonePanic.v — [deep_clone] of a shared node where [T::clone] panics. *)
From stdpp Require Import base gmap list sorting.
From Verif Require Import Spec ClientSpec RcSpec Machine NodeModel BfsModel ClientModel PanicSpec PanicModel RcModel RcAllowed RcClient RcClonePanicModel Sep Rep NodeProofs Inv SpecProofs Abs ClientProofs FromBfs BfsBuild BfsIter BfsMut BfsMap ClientRef ClientProps ClientStep CountFrame RcRelease RcLab RcRef RcStep RcStep2 RcStep4 RcProps RcProps2 PanicProofs PanicStep.

Section proofs.
Context {A : Type}.
Local Notation trees Wm := ((map_to_list Wm).*2).
Local Notation comm := (CountFrame.comm (A:=A)).

Lemma comm_pmap f q : comm (pmap_next (A:=A) (fun _ => ret tt) f sp_next q).
Proof. unfold pmap_next. apply comm_bind; [apply comm_sp_next|]. intros [[[[a ?] ?]|] ?]; cbn; [|apply comm_ret]. case_match; [apply comm_ret|]. apply comm_bind; intros; apply comm_ret. Qed.
Lemma comm_pfrom f0 n : forall v P ch r (it : list citer * list A), comm (pfrom_loop (pmap_next (fun _ => ret tt) f0 sp_next) n v P ch r it).
Proof.
  induction n as [|n IH]; intros v P ch r it; cbn [pfrom_loop]; [apply comm_fail|]. apply comm_bind; [apply comm_pmap|]. intros [[[[[a ?] ?]|] ?]|?]; [|apply comm_ret..].
  apply comm_bind; [apply comm_append_child|]. intros. comm_solve; first [apply IH|idtac].
Qed.
Lemma comm_ptree f0 (it : list citer * list A) : comm (ptree_from_bfs (pmap_next (fun _ => ret tt) f0 sp_next) it).
Proof.
  unfold ptree_from_bfs, make_piled_node. apply comm_bind; [apply comm_pmap|]. intros [[[[[a ?] ?]|] ?]|?]; [| |apply comm_ret]; cbn [unwrap].
  - comm_solve; first [apply comm_vec_make_node|apply comm_pfrom|idtac].
  - comm_solve; first [apply comm_vec_make_node|apply comm_pfrom|idtac].
Qed.

(** the nodes of the live trees, their counters and those of their buffers, before and after *)
Lemma same_world (s s' : mem A) W EL' Hs p : MInvX s W [] -> MInvX s' W EL' -> p ∈ addrss W ->
  m_heap (addc Hs s') !! p = m_heap (addc Hs s) !! p /\ m_cnt (addc Hs s') !! p = m_cnt (addc Hs s) !! p /\ snd <$> m_vec (addc Hs s') !! p.1 = snd <$> m_vec (addc Hs s) !! p.1.
Proof.
  intros HI HI' Hp. apply infoss_addrss in Hp as [pl Hp]. assert (exists n, (p, n) ∈ layW W) as [n Hn].
  { apply (elem_of_list_fmap_1 fst) in Hp. rewrite infoss_fst, <-layW_fst in Hp. apply elem_of_list_fmap in Hp as ([q n] & Hq & Hn). simpl in Hq. subst. eauto. }
  pose proof (MInv_lookup _ _ _ _ _ HI Hn) as H1. pose proof (MInv_lookup _ _ _ _ _ HI' Hn) as H2.
  assert (m_heap (addc Hs s') !! p = m_heap (addc Hs s) !! p) as Hh by (transitivity (Some n); [exact H2|symmetry; exact H1]). split; [done|]. split.
  - unfold addc. cbn [m_cnt adj]. rewrite !map_lookup_imap. rewrite (mi_cnt _ _ _ HI), (mi_cnt _ _ _ HI') by eauto. done.
  - unfold addc. cbn [m_vec adj]. rewrite !map_lookup_imap. destruct pl.
    + destruct (mi_pile _ _ _ HI p Hp) as [[cap rc] Hv]. destruct (mi_pile _ _ _ HI' p Hp) as [[cap' rc'] Hv'].
      pose proof (proj1 (proj2 (mi_vec _ _ _ HI _ _ _ Hv) (inE_nil _))) as ->. pose proof (proj1 (proj2 (mi_vec _ _ _ HI' _ _ _ Hv') (mi_extW _ _ _ HI' _ _ Hp))) as ->.
      rewrite Hv, Hv'. done.
    + destruct (mi_scat _ _ _ HI p Hp) as (_ & _ & ->). destruct (mi_scat _ _ _ HI' p Hp) as (_ & _ & ->). done.
Qed.

Lemma rc_clone_panic (c : rst A) σ f h x i t : reached c σ -> rs_h σ !! h = Some i -> lfind i (rs_sh σ) = Some t -> env_of σ !! x = None -> readable σ i = true ->
  match panics_at f [] (root_of <$> level_order (erase t)) with
  | Some _ => exists s', rp_deep_clone c f h x = RDone PPanic (set_mem c s') /\ m_log s' = m_log (r_mem c) /\
      forall p, rlive c p -> m_heap s' !! p = m_heap (r_mem c) !! p /\ m_cnt s' !! p = m_cnt (r_mem c) !! p /\ snd <$> m_vec s' !! p.1 = snd <$> m_vec (r_mem c) !! p.1
  | None => exists c', rp_deep_clone c f h x = RDone (PRet RUnit) c' /\ RI c' (set_env σ (<[x := ITree (bfs_fmap (calm f) (erase t))]> (env_of σ)))
  end.
Proof.
  intros HR%reached_RI Hh Ht Ex Hrd. destruct HR as (Wm & SH & Hs & s & ψ & HR).
  pose proof (RI_var _ _ _ _ _ _ _ x HR) as Hv. rewrite Ex in Hv. destruct Hv as [Hx Hxe].
  pose proof (RI_handle HR h) as H. rewrite Hh in H.
  destruct H as (p & pl & a & aks & S1 & S2 & D & L1 & L2 & C & ks & Hrh & HSH & Hsh & HS1 & HS2 & HD & Hi & Hks & Hfind & HI). rewrite Hfind in Ht. injection Ht as <-.
  unfold rp_deep_clone. rewrite Hrh, Hxe.
  assert (lrep ψ (AN p pl (Some a) aks) (LN i a ks)) as Hrep by by constructor.
  set (u := erase (LN i a ks)) in *. assert (rt (AN p pl (Some a) aks) u) as Hrt by by eapply lrep_erase.
  assert (Hloc : located (trees Wm ++ SH) D (AN p pl (Some a) aks)). { exists (trees Wm ++ S1 ++ S2). rewrite HSH. solve_Permutation. }
  pose proof (RI_minv HR) as HI0.
  pose proof (Rsp_tree _ _ _ _ Hloc Hrt) as HRsp. cbn [aptr] in HRsp.
  pose proof (ptree_map (fun _ => ret tt) (fun _ => []) f _ _ _ _ _ s [] u own_ref (sp_yields (trees Wm ++ SH)) HRsp HI0) as HM.
  assert (Hlift : forall y s' W' EL, ptree_from_bfs (pmap_next (fun _ => ret tt) f sp_next) ([ci_once p], []) s = Ok y s' -> MInvX s' W' EL ->
    (forall q, q ∈ addrss (trees Wm ++ SH) -> q ∈ addrss W') -> rc_pdeep_clone (r_b c) f (rform p pl) (r_mem c) = Ok y (addc Hs s')).
  { intros y s' W' EL E HI' Hsub. unfold rc_pdeep_clone. unfold bind at 1.
    assert (node_borrow (r_b c) (rform p pl) (r_mem c) = Ok tt (r_mem c)) as ->.
    { rewrite (iv_mem _ _ _ _ _ _ _ HR). unfold addc. rewrite (borrow_eq _ _ _ _ _ _ _ _ _ _ HI), (flag_readable HR p i Hi), Hrd. done. }
    rewrite raddr_rform. unfold bind, bfs, bind, get. rewrite (iv_mem _ _ _ _ _ _ _ HR). cbn [m_heap addc adj].
    change (m_heap (addc Hs s)) with (m_heap s).
    pose proof (located_get _ _ _ _ _ _ _ _ Hloc HI0) as Hg. unfold get in Hg. destruct (m_heap s !! p) as [n|] eqn:Hn; [|done]. cbn [ret fst snd].
    destruct (comm_ptree f _ _ _ _ E) as (_ & _ & _ & H). apply H. apply Forall_forall. intros q Hq.
    apply (RI_Hs HR) in Hq. split; [by apply (RI_alive HR)|]. assert (q ∈ addrss W') as Hq' by (apply Hsub; rewrite addrss_app; apply elem_of_app; by right).
    apply infoss_addrss in Hq' as [pl' Hq']. apply (elem_of_list_fmap_1 fst) in Hq'. rewrite infoss_fst, <-layW_fst in Hq'.
    apply elem_of_list_fmap in Hq' as ([q' n'] & Heq & Hn'). simpl in Heq. subst. exists n'. by eapply MInv_lookup. }
  destruct (panics_at f [] (root_of <$> level_order u)) as [k|].
  - destruct HM as (it' & s' & W' & EL' & y & Hc & HI' & HR' & _ & Hl). apply Rsp_W in HR' as ->.
    rewrite (Hlift _ _ _ _ Hc HI') by done. exists (addc Hs s'). split; [done|]. rewrite (iv_mem _ _ _ _ _ _ _ HR). split; [transitivity (m_log s'); [done|]; by rewrite Hl, app_nil_r|].
    intros q Hq. apply (rlive_addrs _ _ _ _ _ _ _ q HR) in Hq. by eapply same_world.
  - destruct HM as (t' & s' & W' & Hc & HI' & Hr' & -> & Hl).
    rewrite (Hlift _ _ _ _ Hc HI'). 2:{ intros q Hq. rewrite addrss_cons. apply elem_of_app. by right. }
    eexists; split; [reflexivity|].
    refine (RI_gen0 c σ Wm SH Hs s ψ (<[x := t']> Wm) SH Hs s' (r_h c) (rs_h σ) (<[x := HT (aptr t')]> (r_env c)) (rs_sh σ) (SSt (<[x := ITree (bfs_fmap (calm f) u)]> (env_of σ)) (s_log (rs_x σ))) HR _ _ _ _ _ _ _).
    + eapply comm_evolves; [|exact Hc]. apply comm_ptree.
    + done.
    + rewrite <-(hof_T _ _ Hr'). refine (RE_new _ _ _ _ _ _ (ITree (bfs_fmap (calm f) u)) _ (iv_env _ _ _ _ _ _ _ HR) Hx HI' Hr').
    + simpl. rewrite Hl. apply HR.
    + apply HR.
    + apply HR.
    + apply HR.
Qed.

(** ... and the program goes on as if the clone had been an owned tree of those values *)
Lemma rc_clone_goes_on (c : rst A) σ f h x i t os : reached c σ -> rs_h σ !! h = Some i -> lfind i (rs_sh σ) = Some t -> env_of σ !! x = None -> readable σ i = true ->
  panics_at f [] (root_of <$> level_order (erase t)) = None ->
  exists c', rp_deep_clone c f h x = RDone (PRet RUnit) c' /\
    let σ' := set_env σ (<[x := ITree (bfs_fmap (calm f) (erase t))]> (env_of σ)) in
    (allowed c' σ' os -> match rsrun σ' os with Some (rs, _) => exists c'', rrun c' os = RDone rs c'' | None => rrun c' os = RFails EPanic end).
Proof.
  intros HR Hh Ht Ex Hrd Hp. pose proof (rc_clone_panic c σ f h x i t HR Hh Ht Ex Hrd) as H. rewrite Hp in H. destruct H as (c' & Hc & HI). exists c'. split; [done|].
  cbv zeta. intros Ha. pose proof (rrun_ok os _ _ HI Ha) as H. destruct (rsrun _ os) as [[rs σ2]|]; [|done]. destruct H as (c2 & H & _). eauto.
Qed.
(** a panicking clone, as a statement on its own *)
Lemma rc_clone_panics (c : rst A) σ f h x i t k : reached c σ -> rs_h σ !! h = Some i -> lfind i (rs_sh σ) = Some t -> env_of σ !! x = None -> readable σ i = true ->
  panics_at f [] (root_of <$> level_order (erase t)) = Some k ->
  exists s', rp_deep_clone c f h x = RDone PPanic (set_mem c s') /\ m_log s' = m_log (r_mem c) /\
    forall p, rlive c p -> m_heap s' !! p = m_heap (r_mem c) !! p /\ m_cnt s' !! p = m_cnt (r_mem c) !! p /\ snd <$> m_vec s' !! p.1 = snd <$> m_vec (r_mem c) !! p.1.
Proof. intros HR Hh Ht Ex Hrd Hp. pose proof (rc_clone_panic c σ f h x i t HR Hh Ht Ex Hrd) as H. by rewrite Hp in H. Qed.
(** while a [RefMut] of the node is alive the call panics before anything is cloned *)
Lemma rc_clone_borrowed (c : rst A) σ f h x i t : reached c σ -> rs_h σ !! h = Some i -> lfind i (rs_sh σ) = Some t -> env_of σ !! x = None -> readable σ i = false ->
  rp_deep_clone c f h x = RFails EPanic.
Proof.
  intros HR%reached_RI Hh Ht Ex Hrd. destruct HR as (Wm & SH & Hs & s & ψ & HR).
  pose proof (RI_var _ _ _ _ _ _ _ x HR) as Hv. rewrite Ex in Hv. destruct Hv as [Hx Hxe].
  pose proof (RI_handle HR h) as H. rewrite Hh in H.
  destruct H as (p & pl & a & aks & S1 & S2 & D & L1 & L2 & C & ks & Hrh & HSH & Hsh & HS1 & HS2 & HD & Hi & Hks & Hfind & HI).
  unfold rp_deep_clone. rewrite Hrh, Hxe. unfold rc_pdeep_clone. unfold bind at 1.
  assert (node_borrow (r_b c) (rform p pl) (r_mem c) = Err EPanic) as ->; [|done].
  rewrite (iv_mem _ _ _ _ _ _ _ HR). unfold addc. rewrite (borrow_eq _ _ _ _ _ _ _ _ _ _ HI), (flag_readable HR p i Hi), Hrd. done.
Qed.
End proofs.
