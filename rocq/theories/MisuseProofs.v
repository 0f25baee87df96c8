(** MisuseProofs.v — a reference kept after [detach]. *)
From stdpp Require Import base gmap list.
From Verif Require Import Spec ClientSpec Machine NodeModel ClientModel Sep Rep NodeProofs Inv Abs ClientProofs ClientRef ClientStep
  ClientRead ClientProps CountFrame MisuseModel.

Section misuse.
Context {A : Type}.

Lemma detach_ref (c : cst A) env h hd it path i p x :
  reachable c -> contents c env -> env !! h = Some it -> c_env c !! h = Some hd ->
  resolve (addr hd) (path ++ [i]) (c_mem c) = Ok (Some p) (c_mem c) -> node_at it (path ++ [i]) = Some x ->
  (exists s, detach_data p (c_mem c) = Ok (p, root_of x) s) /\
  (m_vec (c_mem c) !! p.1 = None -> detach_drop_data p (c_mem c) = Err EUB).
Proof.
  intros Hr Hc Hit Hh Hres Hx. destruct (reachable_contents _ _ Hr Hc) as (Wm & HR & _). simpl in HR.
  pose proof (RE_lookup _ _ _ _ h HR) as Hl. rewrite Hit in Hl. destruct Hl as (t & Ht & Hri & Hh' & _). rewrite Hh in Hh'. injection Hh' as ->.
  pose proof (RE_locate _ _ _ _ h t it (path ++ [i]) HR Ht Hri) as Hloc.
  destruct (kids_at it (path ++ [i])) as [xs|]; [|destruct Hloc as [Hn _]; congruence].
  destruct Hloc as (C & q & pl & v & ks & Hplug & Hf & Hres' & HI & Hks & _ & Hna & _). rewrite Hres in Hres'. injection Hres' as ->.
  rewrite Hx in Hna. destruct v as [a|]; [|done]. injection Hna as ->. cbn [root_of].
  rewrite afind_app in Hf. destruct (afind t path) as [[C0 [u ul uv us]]|]; [|done]. simpl in Hf.
  destruct (us !! i) as [k|] eqn:Ek; [|done]. injection Hf as <- ->. cbn [plug] in HI.
  destruct (detach_at _ _ _ _ _ _ _ _ _ _ _ _ _ HI) as (hp & Hd & HI1).
  pose proof (data_at _ [] _ _ _ _ _ _ HI1) as Hda.
  unfold detach_data, detach_drop_data, bind. rewrite Hd. split; [rewrite Hda; eexists; reflexivity|].
  intros Hv. destruct (drop_tree_spec _ _ _ _ HI1) as (s2 & Hdr & HI2 & _ & Hfr). cbn [aptr] in Hdr. rewrite Hdr.
  unfold data, bind, get. destruct (m_heap s2 !! q) as [n|] eqn:En; [exfalso|done].
  destruct (comm_drop_tree q _ _ _ Hdr) as (_ & Hvm & _).
  pose proof (MInv_nodup _ _ _ HI1) as HN. cbn [addrss flat_map] in HN. apply NoDup_app in HN as (_ & HN & _).
  pose proof HI2 as [(D & [_ HE] & HD) _ _ _ _ _ _ _]. rewrite HE in En. apply elem_of_list_to_map_2, (elem_of_list_fmap_1 fst) in En.
  rewrite !fmap_app, layW_fst in En. simpl in En. apply elem_of_app in En as [En|[En|En]%elem_of_app].
  - eapply HN; [|exact En]. simpl. left.
  - destruct (HD _ En) as [Hs _]. apply Hvm in Hs; [|].
    + simpl in Hs. rewrite Hv in Hs. by destruct Hs.
    + eapply MInv_fresh; [exact HI1|]. erewrite (lookup_at _ [] _ _ _ _ _ _ HI1). eauto.
  - by apply elem_of_nil in En.
Qed.

Lemma drop_leaf (s : mem A) (p o : ptr) n m a :
  m_heap s !! p = Some n -> n_deg n = 0 -> n_dat n = DScat a o -> o <> p -> m_heap s !! o = Some m -> m_cnt s !! o = Some 1 ->
  exists s', drop_tree p s = Ok tt s' /\ m_heap s' = delete o (<[p := set_dat DNone n]> (m_heap s)).
Proof.
  intros Hp Hd Ha Ho Hm Hc. unfold drop_tree. unfold bind at 1, fuel at 1, gets at 1. cbn [drop_loop].
  unfold bind at 1. unfold pop_front, bind at 1, get at 1. rewrite Hp, Hd. unfold ret at 1.
  unfold drop_node, bind, get, put. rewrite Hp. cbn [m_heap]. rewrite Hp. cbn [m_heap]. rewrite Ha. unfold rc_drop. cbn [m_heap set_heap m_cnt]. rewrite Hc.
  rewrite lookup_insert_ne, Hm by done. unfold log_drop. eexists. split; reflexivity.
Qed.

Lemma swap_leaves (c : cst A) env h1 h2 p1 p2 a1 a2 :
  reachable c -> contents c env -> h1 <> h2 ->
  env !! h1 = Some (ITree (Tr a1 [])) -> env !! h2 = Some (ITree (Tr a2 [])) ->
  c_env c !! h1 = Some (HT p1) -> c_env c !! h2 = Some (HT p2) ->
  m_vec (c_mem c) !! p1.1 = None -> m_vec (c_mem c) !! p2.1 = None ->
  exists s, swap_nodes p1 p2 (c_mem c) = Ok tt s /\ run (CSt (c_env c) s) [ODrop h1; ODrop h2] = Fails EUB.
Proof.
  intros Hr Hc Hne E1 E2 H1 H2 V1 V2. destruct (reachable_contents _ _ Hr Hc) as (Wm & HR & _). simpl in HR.
  assert (Hleaf : forall h p a, env !! h = Some (ITree (Tr a [])) -> c_env c !! h = Some (HT p) -> m_vec (c_mem c) !! p.1 = None ->
     Wm !! h = Some (AN p false (Some a) []) /\ m_heap (c_mem c) !! p = Some (Node None None None None None 0 0 (DScat a p)) /\ m_cnt (c_mem c) !! p = Some 1).
  { intros h p a E H V. pose proof (RE_lookup _ _ _ _ h HR) as Hl. rewrite E in Hl. destruct Hl as (t & Ht & Hri & Hh' & Hof).
    rewrite H in Hh'. simpl in Hri. inversion Hri as [q pl b ks xs Hks]; subst. inversion Hks; subst. simpl in Hh'. injection Hh' as ->.
    pose proof (RE_inv _ _ _ _ _ _ HR Ht) as HI. pose proof (lookup_at _ [] _ _ _ _ _ _ HI) as Hlk.
    destruct pl.
    - exfalso. destruct (mi_pile _ _ _ HI q) as [? ?]; [left|]. congruence.
    - split_and!; [done|exact Hlk|]. apply (mi_cnt _ _ _ HI). eauto. }
  destruct (Hleaf _ _ _ E1 H1 V1) as (W1 & L1 & C1), (Hleaf _ _ _ E2 H2 V2) as (W2 & L2 & C2).
  assert (p1 <> p2) as Hp.
  { intros <-. pose proof (RE_inv _ _ _ _ _ _ HR W1) as HI. pose proof (MInv_nodup _ _ _ HI) as HN.
    assert (p1 ∈ addrss (vals (delete h1 Wm))) as Hin.
    { unfold addrss. apply elem_of_list_In, in_flat_map. exists (AN p1 false (Some a2) []). split; [|by left].
      apply elem_of_list_In. rewrite <-(vals_delete (delete h1 Wm) h2); [left|]. by rewrite lookup_delete_ne. }
    simpl in HN. inversion HN; subst. done. }
  unfold swap_nodes, bind, get, put. rewrite L1, L2. cbn [m_heap set_heap]. rewrite L1. cbn [m_heap set_heap].
  rewrite lookup_insert_ne, L2 by done. eexists. split; [done|].
  match goal with |- run (CSt _ ?s) _ = _ => destruct (drop_leaf s p1 p2 (Node None None None None None 0 0 (DScat a2 p2)) (Node None None None None None 0 0 (DScat a1 p1)) a2) as (s' & Hd & Hh) end;
    cbn [m_heap set_heap m_cnt].
  { by rewrite lookup_insert_ne, lookup_insert. } { done. } { done. } { done. } { by rewrite lookup_insert. } { done. }
  cbn [run]. unfold step at 1. cbn [cstep c_env c_mem]. rewrite H1. unfold bind at 1. cbn [addr]. rewrite Hd. unfold ret.
  unfold step. cbn [cstep c_env c_mem]. rewrite lookup_delete_ne, H2 by done. unfold bind at 1. cbn [addr].
  unfold drop_tree. unfold bind at 1, fuel, gets. cbn [drop_loop]. unfold bind at 1. unfold pop_front, bind at 1, get. rewrite Hh, lookup_delete. done.
Qed.

(** * What is left of a dropped node *)
Lemma drop_node_keeps (s : mem A) W E p pl v s' : MInvX s (AN p pl v [] :: W) E -> drop_node p s = Ok tt s' ->
  forall q, is_Some (m_heap s !! q) -> is_Some (m_vec s' !! q.1) -> is_Some (m_heap s' !! q).
Proof.
  intros HI Hd q Hq Hv. pose proof (lookup_at _ [] _ _ _ _ _ _ HI) as Hp. unfold drop_node in Hd. unfold bind at 1, get in Hd. rewrite Hp in Hd.
  unfold bind at 1, put in Hd. rewrite Hp in Hd. cbn [mk n_dat] in Hd.
  assert (forall s1, is_Some (m_heap s1 !! q) -> is_Some (m_vec s1 !! q.1) -> log_drop (dat_vals (dat_of p pl v)) s1 = Ok tt s' -> is_Some (m_heap s' !! q)) as Hlog.
  { intros s1 H1 _ H. unfold log_drop in H. by simplify_eq. }
  set (n' := set_dat DNone _) in Hd. set (s0 := set_heap s _) in Hd.
  assert (is_Some (m_heap s0 !! q)) as Hq0. { unfold s0. simpl. destruct (decide (p = q)) as [->|]; [rewrite lookup_insert; eauto|by rewrite lookup_insert_ne]. }
  destruct pl.
  - assert ((match dat_of p true v with DNone => (ret tt : M A unit) | DScatN o | DScat _ o => rc_drop o
             | DPiledN o | DPiled _ o => decr_ref o end) = (decr_ref p.1 : M A unit)) as Heq by by destruct v.
    rewrite Heq in Hd. unfold bind in Hd. unfold decr_ref in Hd. destruct (m_vec s0 !! p.1) as [[cap [|[|rc]]]|]; [done| | |done].
    + unfold log_drop in Hd. simplify_eq. simpl in *. destruct (decide (q.1 = p.1)) as [He|He].
      * rewrite He, lookup_delete in Hv. by destruct Hv.
      * destruct Hq0 as [m Hm]. exists m. by apply map_filter_lookup_Some.
    + unfold log_drop in Hd. simplify_eq. simpl in *. exact Hq0.
  - destruct (mi_scat _ _ _ HI p) as (_ & _ & Hpv); [left|].
    assert ((match dat_of p false v with DNone => (ret tt : M A unit) | DScatN o | DScat _ o => rc_drop o
             | DPiledN o | DPiled _ o => decr_ref o end) = (rc_drop p : M A unit)) as Heq by by destruct v.
    rewrite Heq in Hd. unfold bind in Hd. unfold rc_drop in Hd. destruct (m_cnt s0 !! p) as [[|[|k]]|]; [done| | |done];
      destruct (m_heap s0 !! p); try done; unfold log_drop in Hd; simplify_eq; simpl in *; [|exact Hq0].
    destruct (decide (p = q)) as [->|Hne]; [rewrite Hpv in Hv; by destruct Hv|]. by rewrite lookup_delete_ne.
Qed.
Lemma drop_loop_keeps f : forall (s : mem A) W E t s', cntn t <= f -> MInvX s (t :: W) E -> drop_loop f (aptr t) s = Ok tt s' ->
  forall q, is_Some (m_heap s !! q) -> is_Some (m_vec s' !! q.1) -> is_Some (m_heap s' !! q).
Proof.
  induction f as [|f IH]; intros s W E [p pl v ks] s' Hf HI Hd q Hq Hv; [rewrite cntn_eq in Hf; lia|].
  cbn [drop_loop aptr] in Hd. destruct ks as [|k ks].
  - unfold bind in Hd. rewrite (pop_front_root_none _ _ _ _ pl v HI) in Hd. by eapply drop_node_keeps.
  - unfold bind at 1 in Hd. destruct (pop_front_root_some _ _ _ _ _ _ _ _ HI) as (h & Hp & H1). rewrite Hp in Hd.
    assert (is_Some (h !! q)) as Hq1. { pose proof (hp_pop_front p s s eq_refl) as H. rewrite Hp in H. destruct H as (_ & H & _). by apply H. }
    rewrite cntn_eq, cnts_cons, cntn_akids in Hf.
    destruct (drop_loop_spec f (set_heap s h) (AN p pl v ks :: W) E k) as (s1 & E1 & HI1 & L1 & F1); [rewrite cntn_akids; lia|done|].
    unfold bind in Hd. rewrite E1 in Hd.
    assert (q.1 < m_fresh s) as Hlt by (eapply MInv_fresh; eauto).
    apply (IH s1 W E (AN p pl v ks) s'); [rewrite cntn_eq; lia|done|done| |done].
    apply (IH (set_heap s h) (AN p pl v ks :: W) E k s1); [rewrite cntn_akids; lia|done|done|done|].
    pose proof (comm_drop_loop f p _ _ _ Hd) as (_ & Hvm & _). apply Hvm; [rewrite F1; simpl; lia|done].
Qed.

Lemma addrss_plug C (t : atree A) W : addrss (plug C t :: W) ≡ₚ addrs t ++ addrs_ctx C ++ addrss W.
Proof.
  rewrite <-(layW_fst (plug C t :: W)), <-(app_nil_r (layW _)), lay_plug_perm, !fmap_app, lay_fst, lay_ctx_fst, layW_fst. by rewrite app_nil_r.
Qed.

(** the reference kept after [detach], once the tree is dropped *)
Lemma detach_ref_exact (c : cst A) env h hd it path i p x :
  reachable c -> contents c env -> env !! h = Some it -> c_env c !! h = Some hd ->
  resolve (addr hd) (path ++ [i]) (c_mem c) = Ok (Some p) (c_mem c) -> node_at it (path ++ [i]) = Some x ->
  let other := exists q, live c q /\ q.1 = p.1 /\ ~ exists sub, resolve p sub (c_mem c) = Ok (Some q) (c_mem c) in
  (other -> detach_drop_data p (c_mem c) = Err EPanic) /\ (~ other -> detach_drop_data p (c_mem c) = Err EUB).
Proof.
  intros Hr Hc Hit Hh Hres Hx other. destruct (reachable_contents _ _ Hr Hc) as (Wm & HR & _). simpl in HR.
  pose proof (fun p => live_addrs c _ _ Wm p HR eq_refl) as HL.
  pose proof (RE_lookup _ _ _ _ h HR) as Hl. rewrite Hit in Hl. destruct Hl as (t & Ht & Hri & Hh' & _). rewrite Hh in Hh'. injection Hh' as ->.
  pose proof (RE_locate _ _ _ _ h t it (path ++ [i]) HR Ht Hri) as Hloc.
  destruct (kids_at it (path ++ [i])) as [xs|]; [|destruct Hloc as [Hn _]; congruence].
  destruct Hloc as (C & q0 & pl & v & ks & Hplug & Hf & Hres' & HI & Hks & _ & Hna & _). rewrite Hres in Hres'. injection Hres' as <-.
  rewrite Hx in Hna. destruct v as [a|]; [|done]. injection Hna as ->.
  assert (Hsub : forall q, (exists sub, resolve p sub (c_mem c) = Ok (Some q) (c_mem c)) <-> q ∈ addrs (AN p pl (Some a) ks)).
  { intros q. rewrite addrs_afind. split.
    - intros (sub & Hs). rewrite (resolve_plug _ _ _ sub _ _ HI : resolve p sub (c_mem c) = _) in Hs. destruct (afind _ sub) as [[C' t']|] eqn:Ef; [|done].
      simpl in Hs. exists sub, C', t'. split; [done|congruence].
    - intros (sub & C' & t' & Hf' & <-). exists sub. rewrite (resolve_plug _ _ _ sub _ _ HI : resolve p sub (c_mem c) = _), Hf'. done. }
  assert (Hall : forall q, live c q <-> q ∈ addrss (plug C (AN p pl (Some a) ks) :: vals (delete h Wm))).
  { intros q. rewrite (HL q). rewrite <-Hplug. unfold addrss. by rewrite (vals_delete _ _ _ Ht). }
  rewrite afind_app in Hf. destruct (afind t path) as [[C0 [u ul uv us]]|]; [|done]. simpl in Hf.
  destruct (us !! i) as [k|] eqn:Ek; [|done]. injection Hf as <- ->. cbn [plug] in HI, Hall.
  destruct (detach_at _ _ _ _ _ _ _ _ _ _ _ _ _ HI) as (hp & Hd & HI1).
  set (W1 := plug C0 _ :: _) in HI1.
  assert (Hoth : other <-> exists q, q ∈ addrss W1 /\ q.1 = p.1).
  { assert (forall q, live c q <-> q ∈ addrs (AN p pl (Some a) ks) \/ q ∈ addrss W1) as Hsplit.
    { intros q. rewrite Hall. unfold W1. rewrite !addrss_plug, !addrs_eq. unfold addrss. rewrite !flat_map_app. simpl. rewrite !elem_of_cons, !elem_of_app, !elem_of_cons, !elem_of_app. tauto. }
    pose proof (MInv_nodup _ _ _ HI1) as HN. cbn [addrss flat_map] in HN. apply NoDup_app in HN as (_ & HN & _).
    unfold other. split.
    - intros (q & Hq & Hq1 & Hns). exists q. split; [|done]. apply Hsplit in Hq as [Hq|Hq]; [|done]. exfalso. by apply Hns, Hsub.
    - intros (q & Hq & Hq1). exists q. split_and!; [apply Hsplit; by right|done|]. rewrite Hsub. intros Hin. by apply (HN q). }
  rewrite Hoth. clear other Hoth.
  unfold detach_drop_data, bind. rewrite Hd. destruct (drop_tree_spec _ _ _ _ HI1) as (s2 & Hdr & HI2 & _ & Hfr). cbn [aptr] in Hdr. rewrite Hdr.
  pose proof (MInv_nodup _ _ _ HI1) as HN. cbn [addrss flat_map] in HN. apply NoDup_app in HN as (_ & HN & _).
  assert (Hpn : p ∉ addrss W1) by (apply HN; rewrite addrs_eq; left).
  assert (Hcell : is_Some (m_heap (set_heap (c_mem c) hp) !! p)) by (erewrite (lookup_at _ [] _ _ _ _ _ _ HI1); eauto).
  unfold data, bind, get. split.
  - intros (q & Hq & Hq1). destruct (m_heap s2 !! p) as [n|] eqn:En.
    + pose proof (mi_clean _ _ _ HI2 _ _ En Hpn (inE_nil _)) as Hcl. destruct (n_dat n); done.
    + exfalso. assert (is_Some (m_heap s2 !! p)) as [? ?]; [|congruence].
      unfold drop_tree, bind, fuel, gets in Hdr.
      eapply drop_loop_keeps; [|exact HI1|exact Hdr|exact Hcell|]; [pose proof (MInv_size _ _ _ _ HI1); lia|].
      apply infoss_addrss in Hq as ([|] & Hq); [rewrite <-Hq1; by apply (mi_pile _ _ _ HI2)|]. exfalso.
      assert ((q, false) ∈ infoss (AN p pl (Some a) ks :: W1)) as Hq' by (rewrite infoss_cons; apply elem_of_app; by right).
      destruct (mi_scat _ _ _ HI1 q Hq') as (Hq2 & _ & Hqv). destruct pl.
      * destruct (mi_pile _ _ _ HI1 p) as [? Hpv]; [left|]. rewrite Hq1 in Hqv. congruence.
      * destruct (mi_scat _ _ _ HI1 p) as (Hp2 & _ & _); [left|]. apply Hpn. assert (p = q) as ->; [destruct p, q; simpl in *; congruence|].
        apply infoss_addrss. eauto.
  - intros Hno. destruct (m_heap s2 !! p) as [n|] eqn:En; [exfalso|done]. apply Hno. 
    pose proof HI2 as [(D & [_ HE] & HD) _ _ _ _ H4 _ _]. rewrite HE in En. apply elem_of_list_to_map_2, (elem_of_list_fmap_1 fst) in En.
    rewrite !fmap_app, layW_fst in En. simpl in En. apply elem_of_app in En as [En|[En|En]%elem_of_app]; [done| |by apply elem_of_nil in En].
    destruct (HD _ En) as [[[cap rc] Hs] _]. destruct (H4 _ _ _ Hs) as (_ & Hrest). destruct (Hrest (inE_nil _)) as (Hrc & Hpos & _).
    rewrite Hrc in Hpos. apply live_in_pos_inv in Hpos as (q & pl' & Hq & Hq1). exists q. split; [|done]. apply infoss_addrss. eauto.
Qed.
End misuse.
