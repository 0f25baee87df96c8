(** RcProps2.v — properties of single operations on nodes with shared ownership, in states reached by allowed histories. *)
From stdpp Require Import base gmap list sorting.
From Verif Require Import Spec ClientSpec RcSpec Machine NodeModel BfsModel ClientModel RcModel RcAllowed RcClient Sep Rep NodeProofs Inv Abs ClientProofs
  BfsIter ClientRef ClientProps ClientStep CountFrame RcRelease RcLab RcRef RcStep RcStep2 RcStep3 RcStep4 RcBorrow RcProps.

Section props.
Context {A : Type}.
Implicit Types (p q : ptr) (s : mem A) (c : rst A) (σ : rss A) (o : rop A) (i j h : nat) (t u : ltree A) (ts : list (ltree A)).

(** * Histories *)
Lemma reached_RI c σ : reached c σ -> RI c σ.
Proof. intros (os & rs & Hal & E1 & E2). pose proof (rrun_ok os _ _ RI_init Hal) as H. rewrite E2 in H. destruct H as (c' & E & HR). rewrite E1 in E. by inversion E; subst. Qed.
Lemma reached_reachable c σ : reached c σ -> rreachable c.
Proof. intros (os & rs & _ & E & _). by exists os, rs. Qed.
Lemma allowed_app os : forall os' c σ rs c' σ', allowed c σ os -> rrun c os = RDone rs c' -> rsrun σ os = Some (rs, σ') -> allowed (A:=A) c' σ' os' -> allowed c σ (os ++ os').
Proof.
  induction os as [|o os IH]; intros os' c σ rs c' σ' Hal E1 E2 Hal'; cbn in *; [by simplify_eq|]. destruct Hal as [Ho Hal]. split; [done|].
  destruct (rstep c o) as [r c1|]; [|done]. destruct (rsstep σ o) as [[r2 σ1]|]; [|done].
  destruct (rrun c1 os) as [rs1 c2|] eqn:F1; [|done]. destruct (rsrun σ1 os) as [[rs2 σ2]|] eqn:F2; [|done]. simplify_eq. by eapply IH.
Qed.
Lemma rrun_app os : forall os' c rs (c' : rst A), rrun c os = RDone rs c' ->
  rrun c (os ++ os') = match rrun c' os' with RDone rs' c'' => RDone (rs ++ rs') c'' | RFails e => RFails e end.
Proof.
  induction os as [|o os IH]; intros os' c rs c' E; cbn in *; [simplify_eq; by destruct (rrun c' os')|].
  destruct (rstep c o) as [r c1|]; [|done]. destruct (rrun c1 os) as [rs1 c2|] eqn:F1; [|done]. simplify_eq. rewrite (IH os' _ _ _ F1). by destruct (rrun c' os').
Qed.
Lemma rsrun_app os : forall os' σ rs (σ' : rss A), rsrun σ os = Some (rs, σ') ->
  rsrun σ (os ++ os') = match rsrun σ' os' with Some (rs', σ'') => Some (rs ++ rs', σ'') | None => None end.
Proof.
  induction os as [|o os IH]; intros os' σ rs σ' E; cbn in *; [simplify_eq; by destruct (rsrun σ' os') as [[]|]|].
  destruct (rsstep σ o) as [[r σ1]|]; [|done]. destruct (rsrun σ1 os) as [[rs1 σ2]|] eqn:F1; [|done]. simplify_eq. rewrite (IH os' _ _ _ F1). by destruct (rsrun σ' os') as [[]|].
Qed.
(** a step from a reached state *)
Lemma reached_step c σ o : reached c σ -> op_allowed c σ o ->
  match rsstep σ o with
  | Some (r, σ') => exists c', rstep c o = RDone r c' /\ reached c' σ'
  | None => rstep c o = RFails EPanic
  end.
Proof.
  intros HR Ho. pose proof (rstep_ok o c σ (reached_RI _ _ HR) Ho) as Hs. destruct (rsstep σ o) as [[r σ']|] eqn:Es; [|done].
  destruct Hs as (c' & E & HI). exists c'. split; [done|]. destruct HR as (os & rs & Hal & E1 & E2). exists (os ++ [o]), (rs ++ [r]). split_and!.
  - eapply allowed_app; [done|done|done|]. split; [done|]. by rewrite E, Es.
  - rewrite (rrun_app _ _ _ _ _ E1). cbn. by rewrite E.
  - rewrite (rsrun_app _ _ _ _ _ E2). cbn. by rewrite Es.
Qed.
Lemma safety os : allowed (A:=A) rst0 rss0 os ->
  match rsrun rss0 os with
  | Some (rs, σ) => exists c, rrun rst0 os = RDone rs c /\ m_log (r_mem c) = s_log (rs_x σ)
  | None => rrun rst0 os = RFails EPanic
  end.
Proof.
  intros Hal. pose proof (rrun_ok os _ _ RI_init Hal) as H. destruct (rsrun rss0 os) as [[rs σ]|]; [|done]. destruct H as (c & E & HR). exists c. split; [done|]. by eapply RI_log.
Qed.

(** * Which operations release nodes *)
Lemma ids_map c σ i f : RI c σ -> i ∈ lids (rs_sh σ) -> (forall t, lfind i (rs_sh σ) = Some t -> forall j, j ∈ lid <$> lsubs t -> j ∈ lid <$> lsubs (f t)) ->
  forall j, j ∈ lids (rs_sh σ) -> j ∈ lids (map (lmap_at i f) (rs_sh σ)).
Proof.
  intros HR Hi Hf j. pose proof (RI_ids _ _ HR) as HN. apply elem_of_list_fmap in Hi as (t & -> & Ht). apply lall_located in Ht as (L1 & L2 & C & HL). rewrite HL in *.
  rewrite (loc_map L1 L2 C t HN). specialize (Hf t (loc_find L1 L2 C t HN)). rewrite !lids_loc, !elem_of_app. intros [?|?]; [left; by apply Hf|by right].
Qed.
Lemma set_lkids_ids (g : list (ltree A) -> list (ltree A)) t : (forall j, j ∈ lids (lkids t) -> j ∈ lids (g (lkids t))) -> forall j, j ∈ lid <$> lsubs t -> j ∈ lid <$> lsubs (set_lkids g t).
Proof. destruct t as [i a ks]. cbn [set_lkids lkids]. intros H j. rewrite !lids_node, !elem_of_cons. intros [?|?]; [by left|right; auto]. Qed.
Lemma lfind_ids c σ h i t : RI c σ -> rs_h σ !! h = Some i -> lfind i (rs_sh σ) = Some t -> i ∈ lids (rs_sh σ) /\ lid t = i /\ t ∈ lall (rs_sh σ).
Proof. intros HR Hh Hf. apply lfind_some in Hf as [H1 H2]. split_and!; [by eapply RI_alive_h|done|done]. Qed.
Lemma insert_sib_ids e i x (ks : list (ltree A)) j : j ∈ lids ks -> j ∈ lids (insert_sib e i x ks).
Proof.
  induction ks as [|k ks IH]; [done|]. unfold insert_sib in *. cbn [flat_map]. rewrite lids_cons, lids_app, !elem_of_app. intros [Hj|Hj]; [left|right; auto].
  destruct (decide (lid k = i)); [destruct e|]; rewrite !lids_cons, !elem_of_app; tauto.
Qed.
Lemma remove_ids (ks : list (ltree A)) k j : k ∈ ks -> NoDup (lid <$> ks) -> j ∈ lids ks -> j ∈ lids (remove_kid (lid k) ks) \/ j ∈ lid <$> lsubs k.
Proof.
  intros Hk HN. apply elem_of_list_split in Hk as (L & R & ->). rewrite fmap_app in HN. simpl in HN. apply NoDup_app in HN as (_ & N2 & N3). apply NoDup_cons in N3 as [N3 _].
  rewrite remove_kid_at; [|intros Hx; by apply (N2 _ Hx); left|done]. rewrite !lids_app, lids_cons, !elem_of_app. tauto.
Qed.
Lemma kids_ids_nodup ts t : NoDup (lids ts) -> t ∈ lall ts -> NoDup (lid <$> lkids (A:=A) t).
Proof.
  intros HN Ht. apply lall_located in Ht as (L1 & L2 & C & ->). rewrite lids_loc in HN. apply NoDup_app in HN as (HN & _). destruct t as [i a ks]. rewrite lids_node in HN. apply NoDup_cons in HN as [_ HN].
  cbn [lkids]. rewrite lids_split in HN. by apply NoDup_app in HN as (HN & _).
Qed.
(** taking out child [k] of node [u] *)
Lemma remove_alive c σ u k : RI c σ -> u ∈ lall (rs_sh σ) -> k ∈ lkids u ->
  forall j, j ∈ lids (rs_sh σ) -> j ∈ lids (map (lmap_at (lid u) (set_lkids (remove_kid (lid k)))) (rs_sh σ) ++ [k]).
Proof.
  intros HR Hu Hk j Hj. pose proof (RI_ids _ _ HR) as HN. pose proof (kids_ids_nodup _ _ HN Hu) as HNk. apply lall_located in Hu as (L1 & L2 & C & HL). rewrite HL in *.
  rewrite (loc_map L1 L2 C u HN). rewrite lids_app, elem_of_app, lids_cons, app_nil_r. rewrite !lids_loc, !elem_of_app in *. destruct Hj as [Hj|Hj]; [|by left; right].
  destruct u as [i a ks]. cbn [set_lkids lkids] in *. rewrite lids_node in *. apply elem_of_cons in Hj as [->|Hj]; [left; left; left|].
  destruct (remove_ids ks k j Hk HNk Hj); [left; left; by right|by right].
Qed.

Lemma step_alive c σ o r σ' : RI c σ -> rsstep σ o = Some (r, σ') -> (forall h, o <> SDrop h) -> (forall h x, o <> SIntoTree h x) -> forall j, j ∈ lids (rs_sh σ) -> j ∈ lids (rs_sh σ').
Proof.
  intros HR E Ho Ho2 j Hj.
  assert (forall h', give σ h' = fun x => match x with Some i => Some (RBool true, set_h σ (<[h' := i]> (rs_h σ))) | None => Some (RBool false, σ) end) as Hgive by done.
  destruct o; cbn [rsstep] in E; unfold reading, writing, on_node, give in E;
    try (by destruct (Ho _ eq_refl)); try (by destruct (Ho2 _ _ eq_refl));
    try (repeat match type of E with context [match ?x with _ => _ end] => destruct x; try done end; simplify_eq; exact Hj).
  - (* From *)
    repeat match type of E with context [match ?x with _ => _ end] => destruct x; try done end; simplify_eq; try exact Hj.
    cbn [rs_sh set_nx set_h set_sh set_env set_x]. rewrite lids_app, elem_of_app. by left.
  - (* Pop *)
    destruct (rs_h σ !! h'); [by simplify_eq|]. destruct (rs_h σ !! h) as [i|] eqn:Hh; [|by simplify_eq]. destruct (lfind i (rs_sh σ)) as [t|] eqn:Hf; [|by simplify_eq].
    destruct (writable σ i); [|done]. destruct (lfind_ids _ _ _ _ _ HR Hh Hf) as (_ & <- & Ht).
    destruct (match e with Front => head (lkids t) | Back => last (lkids t) end) as [k|] eqn:Ek; [|by simplify_eq].
    assert (k ∈ lkids t) as Hk. { apply (endk_in e). by destruct e. } simplify_eq. cbn [rs_sh set_h set_sh]. by eapply remove_alive.
  - (* Push *)
    destruct e; (repeat (match type of E with context [match ?x with _ => _ end] => destruct x eqn:?; try done; try (by simplify_eq) end));
      inversion E; subst; clear E; cbn [rs_sh set_nx set_sh set_env set_x];
      (match goal with H1 : rs_h _ !! _ = Some _, H2 : lfind _ _ = Some _ |- _ => destruct (lfind_ids _ _ _ _ _ HR H1 H2) as (Hi & _) end);
      (refine (ids_map _ _ _ _ HR Hi _ j Hj)); intros t' Ht'; apply set_lkids_ids; intros j' Hj'; rewrite ?lids_cons, ?lids_app, elem_of_app; tauto.
  - (* Concat *)
    destruct e; (repeat (match type of E with context [match ?x with _ => _ end] => destruct x eqn:?; try done; try (by simplify_eq) end));
      inversion E; subst; clear E; cbn [rs_sh set_nx set_sh set_env set_x];
      (match goal with H1 : rs_h _ !! _ = Some _, H2 : lfind _ _ = Some _ |- _ => destruct (lfind_ids _ _ _ _ _ HR H1 H2) as (Hi & _) end);
      (refine (ids_map _ _ _ _ HR Hi _ j Hj)); intros t' Ht'; apply set_lkids_ids; intros j' Hj'; rewrite ?lids_cons, ?lids_app, elem_of_app; tauto.
  - (* Insert *)
    repeat (match type of E with context [match ?x with _ => _ end] => destruct x eqn:?; try done; try (by simplify_eq) end). inversion E; subst; clear E. cbn [rs_sh set_nx set_sh set_env set_x].
    match goal with H : lparent _ _ = Some ?u |- _ => apply lparent_some in H as [Hu _] end.
    refine (ids_map _ _ _ _ HR (elem_of_list_fmap_1 lid _ _ Hu) _ j Hj). intros t' Ht'. apply set_lkids_ids. intros j' Hj'. by apply insert_sib_ids.
  - (* Detach *)
    destruct (rs_h σ !! h) as [i|] eqn:Hh; [|by simplify_eq]. destruct (lfind i (rs_sh σ)) as [t|] eqn:Hf; [|by simplify_eq].
    destruct (writable σ i); [|done]. destruct (lfind_ids _ _ _ _ _ HR Hh Hf) as (_ & Ht1 & Ht).
    destruct (lparent i (rs_sh σ)) as [u|] eqn:Hp; [|done]. simplify_eq. cbn [rs_sh set_sh].
    apply lparent_some in Hp as (Hu & k & Hk & Hkid). pose proof (RI_ids _ _ HR) as HN.
    assert (k = t) as ->. { pose proof (lfind_in k (rs_sh σ) HN (lall_kid _ _ _ Hu Hk)) as H1. rewrite Hkid in H1. congruence. }
    by eapply remove_alive.
  - (* Modify *)
    repeat (match type of E with context [match ?x with _ => _ end] => destruct x eqn:?; try done; try (by simplify_eq) end). inversion E; subst; clear E. cbn [rs_sh set_sh].
    match goal with H1 : rs_h σ !! _ = Some _, H2 : lfind _ _ = Some _ |- _ => destruct (lfind_ids _ _ _ _ _ HR H1 H2) as (Hi & _) end. refine (ids_map _ _ _ _ HR Hi _ j Hj). intros [? ? ?] Ht' j'. cbn [set_lval]. by rewrite !lids_node.
  - (* Write *)
    destruct (rs_g σ !! g) as [[h [|]]|]; [|by simplify_eq..]. destruct (rs_h σ !! h) as [i|] eqn:Hh; [|by simplify_eq]. destruct (lfind i (rs_sh σ)) as [t|] eqn:Hf; [|by simplify_eq].
    inversion E; subst; clear E. cbn [rs_sh set_sh].
    destruct (lfind_ids _ _ _ _ _ HR Hh Hf) as (Hi & _). refine (ids_map _ _ _ _ HR Hi _ j Hj). intros [? ? ?] Ht' j'. cbn [set_lval]. by rewrite !lids_node.
Qed.

(** * Release *)
Lemma kept_dec (H : gmap nat nat) ts i : kept H ts i \/ ~ kept H ts i.
Proof.
  destruct (decide (Exists (fun t => held H (lid t) = true /\ i ∈ lid <$> lsubs t) (lall ts))) as [He|He]; [left|right].
  - apply Exists_exists in He as (t & Ht & Hh & Hi). exists t. split_and!; [done|by apply held_spec|done].
  - intros (t & Ht & Hh & Hi). apply He, Exists_exists. exists t. split_and!; [done|by apply held_spec|done].
Qed.
Lemma released_exactly c σ o r σ' i : reached c σ -> rsstep σ o = Some (r, σ') -> (forall h x, o <> SIntoTree h x) -> i ∈ lids (rs_sh σ) ->
  i ∉ lids (rs_sh σ') <-> exists h, o = SDrop h /\ r = RUnit /\ ~ kept (delete h (rs_h σ)) (rs_sh σ) i.
Proof.
  intros HR%reached_RI E Hit Hi. split.
  - intros Hn. assert ((exists h, o = SDrop h) \/ forall h, o <> SDrop h) as [[h ->]|Ho]. { destruct o; solve [left; eauto|right; done]. }
    2: { destruct Hn. by eapply step_alive. }
    exists h. split; [done|]. cbn [rsstep] in E. destruct (rs_h σ !! h) as [j|] eqn:Hh; [|by simplify_eq]. destruct (bool_decide _); [by simplify_eq|]. simplify_eq.
    split; [done|]. destruct (drop_spec _ _ _ _ HR Hh) as (H1 & _). by rewrite <-H1.
  - intros (h & -> & -> & Hk). cbn [rsstep] in E. destruct (rs_h σ !! h) as [j|] eqn:Hh; [|by simplify_eq]. destruct (bool_decide _); [by simplify_eq|]. simplify_eq.
    destruct (drop_spec _ _ _ _ HR Hh) as (H1 & _). by rewrite H1.
Qed.
Lemma alive_kept c σ i : reached c σ -> i ∈ lids (rs_sh σ) <-> kept (rs_h σ) (rs_sh σ) i.
Proof.
  intros HR%reached_RI. split; [by eapply RI_kept|]. intros (t & Ht & _ & Hi). apply elem_of_list_fmap in Hi as (u & -> & Hu). apply elem_of_list_fmap_1. by eapply lall_trans.
Qed.
Lemma drop_keeps c σ h σ' i : reached c σ -> rsstep σ (SDrop h) = Some (RUnit, σ') -> i ∈ lids (rs_sh σ') -> lfind i (rs_sh σ') = lfind i (rs_sh σ).
Proof.
  intros HR E Hi. pose proof (reached_step c σ (SDrop h) HR I) as Hs. rewrite E in Hs. destruct Hs as (c' & _ & HR'). apply reached_RI in HR, HR'.
  cbn [rsstep] in E. destruct (rs_h σ !! h) as [j|] eqn:Hh; [|done]. destruct (bool_decide _); [done|]. simplify_eq.
  destruct (drop_spec _ _ _ _ HR Hh) as (_ & H2 & _). apply elem_of_list_fmap in Hi as (u & -> & Hu).
  rewrite (lfind_in u _ (RI_ids _ _ HR') Hu). by rewrite (lfind_in u _ (RI_ids _ _ HR) (H2 _ Hu)).
Qed.
Lemma drop_values c σ h σ' : reached c σ -> rsstep σ (SDrop h) = Some (RUnit, σ') ->
  exists l, s_log (rs_x σ') = s_log (rs_x σ) ++ l /\ lval <$> lall (rs_sh σ) ≡ₚ l ++ (lval <$> lall (rs_sh σ')).
Proof.
  intros HR%reached_RI E. cbn [rsstep] in E. destruct (rs_h σ !! h) as [j|] eqn:Hh; [|done]. destruct (bool_decide _); [done|]. simplify_eq.
  destruct (drop_spec _ _ _ _ HR Hh) as (_ & _ & H3). done.
Qed.
Lemma root_has_handle c σ t : reached c σ -> t ∈ rs_sh σ -> exists h, rs_h σ !! h = Some (lid t).
Proof. intros HR%reached_RI. by eapply RI_root_held. Qed.
Lemma handle_node c σ h r : reached c σ -> r_h c !! h = Some r -> allocated c r /\ exists i t, rs_h σ !! h = Some i /\ lfind i (rs_sh σ) = Some t /\ lid t = i.
Proof.
  intros HR%reached_RI Hr. pose proof (RI_node_alive _ _ _ _ HR Hr) as Ha. destruct HR as (Wm & SH & Hs & s & ψ & HR). pose proof (RI_handle HR h) as H. destruct (rs_h σ !! h) as [i|]; [|congruence].
  destruct H as (p & pl & a & aks & S1 & S2 & D & L1 & L2 & C & ks & Hrh & _ & _ & _ & _ & _ & _ & _ & Hf & HI). rewrite Hrh in Hr. simplify_eq. split; [split; [done|]|by exists i, (LN i a ks)].
  destruct pl; [|done]. simpl. destruct (alive_vec s _ p HI) as (cap & rc & Hv & _). { rewrite infoss_cons, plug_infos. rewrite !elem_of_app. left. left. left. }
  rewrite (iv_mem _ _ _ _ _ _ _ HR). cbn [m_vec addc adj]. rewrite map_lookup_imap, Hv. eauto.
Qed.
Lemma handle_iff c σ h : reached c σ -> is_Some (r_h c !! h) <-> is_Some (rs_h σ !! h).
Proof.
  intros (Wm & SH & Hs & s & ψ & HR)%reached_RI. pose proof (free_handle _ _ _ _ _ _ _ h HR) as H. destruct (rs_h σ !! h); [split; eauto|]. rewrite H. split; intros [? [=]].
Qed.
Lemma handles_same c σ h1 h2 r1 r2 : reached c σ -> r_h c !! h1 = Some r1 -> r_h c !! h2 = Some r2 -> raddr r1 = raddr r2 <-> rs_h σ !! h1 = rs_h σ !! h2.
Proof.
  intros (Wm & SH & Hs & s & ψ & HR)%reached_RI H1 H2. pose proof (proj1 (iv_h _ _ _ _ _ _ _ HR) h1) as E1. pose proof (proj1 (iv_h _ _ _ _ _ _ _ HR) h2) as E2.
  rewrite H1 in E1. rewrite H2 in E2. inversion E1 as [? i (p & pl & -> & Hp & Hi) Hu Hv|]; subst. inversion E2 as [? j (q & ql & -> & Hq & Hj) Hu' Hv'|]; subst.
  rewrite !raddr_rform. split; [intros ->; congruence|]. intros [= ->]. by eapply (proj1 (iv_id _ _ _ _ _ _ _ HR)).
Qed.

(** a change through one handle is seen through the others *)
Lemma write_seen c σ h h' i f : reached c σ -> rs_h σ !! h = Some i -> rs_h σ !! h' = Some i -> rs_g σ = ∅ ->
  exists a c1 c2 c3, rstep c (SData h) = RDone (RVal a) c1 /\ rstep c (SModify h f) = RDone RUnit c2 /\ rstep c2 (SData h') = RDone (RVal (f a)) c3.
Proof.
  intros HR Hh Hh' Hg. pose proof (reached_step c σ (SData h) HR I) as S1. pose proof (reached_step c σ (SModify h f) HR I) as S2. cbn [rsstep] in S1, S2. unfold reading, writing, on_node in *.
  rewrite Hh in *. pose proof (RI_alive_h _ _ _ _ (reached_RI _ _ HR) Hh) as Hi. pose proof (RI_ids _ _ (reached_RI _ _ HR)) as HN.
  apply elem_of_list_fmap in Hi as (t & -> & Ht). rewrite (lfind_in t _ HN Ht) in *.
  assert (forall j, readable σ j = true) as Hrd. { intros j. unfold readable, guards_on. rewrite Hg, map_to_list_empty. cbn. apply bool_decide_eq_true. intros H. by apply elem_of_nil in H. }
  assert (writable σ (lid t) = true) as Hw. { unfold writable, guards_on. rewrite Hg, map_to_list_empty. done. }
  rewrite Hrd in S1. rewrite Hw in S2. destruct S1 as (c1 & E1 & _). destruct S2 as (c2 & E2 & HR2). exists (lval t), c1, c2.
  pose proof (reached_step c2 _ (SData h') HR2 I) as S3. cbn [rsstep] in S3. unfold reading, on_node in S3. cbn [rs_h set_sh rs_sh] in S3. rewrite Hh' in S3.
  apply lall_located in Ht as (L1 & L2 & C & HL). rewrite HL in *. rewrite (loc_map L1 L2 C t HN) in S3.
  pose proof (RI_ids _ _ (reached_RI _ _ HR2)) as HN2. cbn [rs_sh set_sh] in HN2. rewrite (loc_map L1 L2 C t HN) in HN2.
  assert (lid (set_lval f t) = lid t) as Hl by by destruct t. rewrite <-Hl, (loc_find L1 L2 C _ HN2), Hl in S3.
  assert (readable (set_sh σ (L1 ++ lplug C (set_lval f t) :: L2)) (lid t) = true) as Hr3 by apply Hrd. rewrite Hr3 in S3. destruct S3 as (c3 & E3 & _). exists c3. split_and!; [done|done|]. rewrite E3. by destruct t.
Qed.

(** * Clone and drop of a handle *)
Lemma clone_drop_scattered c h h' p c1 x : rreachable c -> r_h c !! h = Some (RScat p) -> r_h c !! h' = None -> rstep c (SClone h h') = RDone x c1 ->
  x = RUnit /\ r_h c1 = <[h' := RScat p]> (r_h c) /\ (is_Some (m_heap (r_mem c) !! p) -> rstep c1 (SDrop h') = RDone RUnit c).
Proof.
  intros HG%reachable_grel Hh Hh' E. cbn [rstep] in E. rewrite Hh', Hh in E. unfold call, rc_clone, bind, cnt_incr in E.
  destruct (m_cnt (r_mem c) !! p) as [[|n]|] eqn:En; try done. unfold ret in E. simplify_eq. split_and!; [done|done|]. intros [nd Hnd].
  cbn [rstep r_h set_rh set_mem r_g r_b]. rewrite lookup_insert. rewrite bool_decide_false.
  - unfold call, rc_drop_handle, fuel, gets, bind. cbn [r_mem m_heap set_rh set_mem]. rewrite Nat.mul_succ_r, Nat.add_comm. cbn [Nat.add rc_drop_loop]. unfold bind, cnt_get. cbn [m_cnt].
    rewrite lookup_insert. cbn [Nat.eqb]. unfold ret, rc_drop. cbn [m_cnt m_heap]. rewrite lookup_insert. rewrite Hnd. cbn. rewrite delete_insert by exact Hh'. rewrite insert_insert. rewrite (insert_id _ p (S n)) by exact En.
    destruct c as [E1 E2 E3 E4 E5 E6 [M1 M2 M3 M4 M5]]. done.
  - intros Hin. apply elem_of_list_fmap in Hin as ([h0 m0] & -> & Hin). apply elem_of_list_fmap in Hin as ([g hm] & Heq & Hin). cbn in Heq. subst hm.
    apply elem_of_map_to_list in Hin. destruct HG as (H1 & _). destruct (H1 _ _ _ Hin) as [? ?]. cbn in *. congruence.
Qed.
(** * Weak references *)
Lemma down_drop_scattered c h w p c1 x : r_h c !! h = Some (RScat p) -> r_w c !! w = None -> rstep c (SDown h w) = RDone x c1 ->
  x = RUnit /\ rstep c1 (SDropWeak w) = RDone RUnit c.
Proof.
  intros Hh Hw E. cbn [rstep] in E. rewrite Hw, Hh in E. simplify_eq. split; [done|]. cbn [rstep r_w set_rw rc_downgrade]. rewrite lookup_insert. unfold call. cbn.
  rewrite delete_insert by done. by destruct c.
Qed.
Lemma upgrade_exact c σ w h i : reached c σ -> rs_w σ !! w = Some i -> rs_h σ !! h = None ->
  exists c', (i ∈ lids (rs_sh σ) -> rstep c (SUp w h) = RDone (RBool true) c' /\ reached c' (set_h σ (<[h := i]> (rs_h σ)))) /\
             (i ∉ lids (rs_sh σ) -> rstep c (SUp w h) = RDone (RBool false) c' /\ reached c' σ).
Proof.
  intros HR Hw Hh. pose proof (reached_step c σ (SUp w h) HR I) as S. cbn [rsstep] in S. rewrite Hh, Hw in S. unfold give in S.
  destruct (decide (i ∈ lids (rs_sh σ))); destruct S as (c' & E & HR'); exists c'; split; done.
Qed.

(** * Iterators *)
Lemma iter_new c σ h i t it : reached c σ -> rs_h σ !! h = Some i -> lfind i (rs_sh σ) = Some t -> rs_g σ = ∅ -> rs_it σ !! it = None ->
  exists c' σ', rstep c (SIter h it) = RDone RUnit c' /\ reached c' σ' /\ to_yield σ' it (lid <$> lkids t).
Proof.
  intros HR Hh Hf Hg Hit. pose proof (reached_step c σ (SIter h it) HR I) as S. cbn [rsstep] in S. unfold reading, on_node in S. rewrite Hit, Hh, Hf in S.
  assert (readable σ i = true) as Hrd. { unfold readable, guards_on. rewrite Hg, map_to_list_empty. cbn. apply bool_decide_eq_true. intros H. by apply elem_of_nil in H. }
  rewrite Hrd in S. destruct S as (c' & E & HR'). eexists c', _. split_and!; [exact E|exact HR'|]. split.
  - cbn [rs_it set_it]. rewrite lookup_insert, fmap_length. by destruct (lkids t).
  - right. exists t, []. apply lfind_some in Hf as [? _]. done.
Qed.
Lemma iter_next c σ it j l h' : reached c σ -> to_yield σ it (j :: l) -> rs_h σ !! h' = None ->
  exists c' σ', rstep c (SNext it h') = RDone (RBool true) c' /\ reached c' σ' /\ rs_h σ' = <[h' := j]> (rs_h σ) /\ rs_sh σ' = rs_sh σ /\ to_yield σ' it l.
Proof.
  intros HR [Hit Hu] Hh. destruct Hu as [?|(u & L & Hu & HL)]; [done|]. pose proof (RI_ids _ _ (reached_RI _ _ HR)) as HN.
  assert (exists L0 k R0, lkids u = L0 ++ k :: R0 /\ lid <$> L0 = L /\ lid k = j /\ lid <$> R0 = l) as (L0 & k & R0 & Hk & HL0 & Hkj & HR0).
  { apply fmap_app_inv in HL as (L0 & K & HL0 & HK & ->). destruct K as [|k R0]; [done|]. simpl in HK. simplify_eq. by exists L0, k, R0. }
  assert (k ∈ lall (rs_sh σ)) as Hkin. { apply (lall_kid u); [done|]. rewrite Hk. apply elem_of_app. right. left. }
  assert (op_allowed c σ (SNext it h')) as Hok. { cbn. rewrite Hit. cbn. rewrite <-Hkj. by apply elem_of_list_fmap_1. }
  pose proof (reached_step c σ (SNext it h') HR Hok) as S. cbn [rsstep] in S. rewrite Hh, Hit in S. cbn [head length] in S. unfold give in S.
  destruct S as (c' & E & HR'). eexists c', _. split_and!; [exact E|exact HR'|done|done|]. split.
  - cbn [rs_it set_h set_it]. rewrite lookup_insert. do 2 f_equal. unfold lnext. rewrite <-Hkj. rewrite (lparent_in u k _ HN Hu); [|rewrite Hk; apply elem_of_app; right; left].
    rewrite Hk. rewrite follower_at. { rewrite <-HR0. by destruct R0. }
    pose proof (kids_ids_nodup _ _ HN Hu) as HNk. rewrite Hk, fmap_app in HNk. simpl in HNk. apply NoDup_app in HNk as (_ & N2 & _). intros Hx. apply (N2 _ Hx). left.
  - destruct l; [by left|right]. exists u, (L ++ [j]). split; [done|]. by rewrite HL, <-app_assoc.
Qed.
Lemma iter_end c σ it h' : reached c σ -> to_yield σ it [] -> rs_h σ !! h' = None -> exists c', rstep c (SNext it h') = RDone (RBool false) c' /\ reached c' σ.
Proof.
  intros HR [Hit _] Hh. assert (op_allowed c σ (SNext it h')) as Hok by (cbn; by rewrite Hit). pose proof (reached_step c σ (SNext it h') HR Hok) as S. cbn [rsstep] in S. by rewrite Hh, Hit in S.
Qed.
Lemma iter_frame σ o r σ' it l : rsstep σ o = Some (r, σ') -> (forall h', o <> SNext it h') -> to_yield σ it l ->
  (l = [] \/ exists u L, u ∈ lall (rs_sh σ') /\ lid <$> lkids u = L ++ l) -> to_yield σ' it l.
Proof.
  intros E Ho [Hit _] Hu. split; [|done]. rewrite <-Hit. destruct o; cbn [rsstep] in E; unfold reading, writing, on_node, give, drop_handle in E;
    try (repeat match type of E with context [match ?x with _ => _ end] => destruct x eqn:?; try done end; simplify_eq; exact eq_refl).
  - destruct (rs_it σ !! it0) eqn:Ei; [by simplify_eq|]. repeat match type of E with context [match ?x with _ => _ end] => destruct x eqn:?; try done end; simplify_eq; try done.
    cbn [rs_it set_it]. rewrite lookup_insert_ne; [done|]. intros ->. congruence.
  - assert (it0 <> it) as Hne by (intros ->; by eapply Ho). repeat match type of E with context [match ?x with _ => _ end] => destruct x eqn:?; try done end; simplify_eq; try done; cbn [rs_it set_it set_h]; by rewrite lookup_insert_ne.
  - destruct (rs_it σ !! it') eqn:Ei; [by simplify_eq|]. destruct (rs_it σ !! it0); simplify_eq; try done. cbn [rs_it set_it]. rewrite lookup_insert_ne; [done|]. intros ->. congruence.
Qed.

Lemma lfind_in_ex i ts : NoDup (lids ts) -> i ∈ lids ts -> exists t, lfind i ts = Some t.
Proof. intros HN Hi. apply elem_of_list_fmap in Hi as (t & -> & Ht). exists t. by apply lfind_in. Qed.
(** * Panics *)
Lemma guards_spec (H : gmap nat nat) (G : gmap nat (nat * bool)) i m : m ∈ guards_on H G i <-> exists g h, G !! g = Some (h, m) /\ H !! h = Some i.
Proof.
  unfold guards_on. rewrite elem_of_list_omap. split.
  - intros ([h m'] & Hx & Hd). apply elem_of_list_fmap in Hx as ([g hm] & Heq & Hx). cbn in Heq. subst hm. apply elem_of_map_to_list in Hx. cbn in Hd. destruct (decide _); [|done]. simplify_eq. eauto.
  - intros (g & h & Hg & Hh). exists (h, m). cbn. rewrite decide_True by done. split; [|done]. apply elem_of_list_fmap. exists (g, (h, m)). split; [done|]. by apply elem_of_map_to_list.
Qed.
Lemma guarded_spec c σ h r i m : reached c σ -> r_h c !! h = Some r -> rs_h σ !! h = Some i -> guarded c (raddr r) m <-> m ∈ guards_on (rs_h σ) (rs_g σ) i.
Proof.
  intros HR Hr Hi. rewrite guards_spec. rewrite <-(RI_gs _ _ (reached_RI _ _ HR)). split.
  - intros (g & h' & r' & Hg & Hr' & Ha). exists g, h'. split; [done|]. rewrite <-Hi. by apply (handles_same c σ h' h r' r).
  - intros (g & h' & Hg & Hh'). destruct (r_h c !! h') as [r'|] eqn:Hr'.
    + exists g, h', r'. split_and!; [done|done|]. apply (handles_same c σ h' h r' r); [done..|congruence].
    + exfalso. assert (is_Some (r_h c !! h')) as [? ?] by (apply (handle_iff c σ h'); [done|by rewrite Hh']). congruence.
Qed.
Lemma writable_spec σ i : writable σ i = false <-> exists m, m ∈ guards_on (rs_h σ) (rs_g σ) i.
Proof.
  unfold writable. rewrite bool_decide_eq_false. split.
  - intros Hn. destruct (guards_on _ _ _) as [|m l]; [done|]. exists m. left.
  - intros [m Hm] Hn. rewrite Hn in Hm. by apply elem_of_nil in Hm.
Qed.
Lemma readable_spec σ i : readable σ i = false <-> true ∈ guards_on (rs_h σ) (rs_g σ) i.
Proof. unfold readable. rewrite bool_decide_eq_false. destruct (decide (true ∈ guards_on (rs_h σ) (rs_g σ) i)); tauto. Qed.
Lemma root_lparent c σ i : RI c σ -> i ∈ lids (rs_sh σ) -> lparent i (rs_sh σ) = None <-> i ∈ lid <$> rs_sh σ.
Proof.
  intros HR Hi. pose proof (RI_ids _ _ HR) as HN. split.
  - intros Hp. rewrite lids_split in Hi. apply elem_of_app in Hi as [?|Hi]; [done|]. exfalso. apply elem_of_list_In, in_flat_map in Hi as (u & Hu & Hi). apply elem_of_list_In in Hu, Hi.
    unfold kid_ids in Hi. apply elem_of_list_fmap in Hi as (k & -> & Hk). rewrite (lparent_in u k _ HN Hu Hk) in Hp. done.
  - intros Hr. apply elem_of_list_fmap in Hr as (t & -> & Ht). by apply lparent_root.
Qed.
(** the outcome of an operation through [h] *)
Lemma outcome c σ o h r i : reached c σ -> changes_via o = Some h \/ looks_via o = Some h -> typed c o -> r_h c !! h = Some r -> rs_h σ !! h = Some i ->
  let panics := (changes_via o = Some h /\ exists m, guarded c (raddr r) m) \/ (looks_via o = Some h /\ guarded c (raddr r) true) \/
                (needs_parent o = true /\ i ∈ lid <$> rs_sh σ) in
  (panics -> rstep c o = RFails EPanic) /\ (~ panics -> exists x c' σ', rstep c o = RDone x c' /\ x <> RBad /\ reached c' σ').
Proof.
  intros HR Hv Ht Hr Hi panics.
  assert (op_allowed c σ o) as Hok. { destruct o; cbn; try done; destruct Hv; done. }
  pose proof (reached_step c σ o HR Hok) as S. pose proof (reached_RI _ _ HR) as HI. pose proof (RI_alive_h _ _ _ _ HI Hi) as Hal.
  pose proof (RI_ids _ _ HI) as HN. pose proof (lfind_in_ex _ _ HN Hal) as [t Hf].
  assert (panics <-> (changes_via o = Some h /\ writable σ i = false) \/ (looks_via o = Some h /\ readable σ i = false) \/ (needs_parent o = true /\ lparent i (rs_sh σ) = None)) as Hpan.
  { unfold panics. rewrite writable_spec, readable_spec, (root_lparent c σ i HI Hal). rewrite (guarded_spec c σ h r i true HR Hr Hi).
    assert ((exists m, guarded c (raddr r) m) <-> exists m, m ∈ guards_on (rs_h σ) (rs_g σ) i) as Hex. { split; intros [m Hm]; exists m; by apply (guarded_spec c σ h r i m HR Hr Hi). } tauto. }
  assert (forall x, rsstep σ o = x -> (panics -> x = None) /\ (~ panics -> exists r' σ', x = Some (r', σ') /\ r' <> RBad)) as Hx.
  2: { destruct (Hx _ eq_refl) as [H1 H2]. split.
       - intros Hp. rewrite (H1 Hp) in S. done.
       - intros Hp. destruct (H2 Hp) as (r' & σ' & E & Hb). rewrite E in S. destruct S as (c' & Ec & HR'). by exists r', c', σ'. }
  clear S Hok. intros x <-. rewrite Hpan. clear Hpan panics.
  assert (forall h', r_h c !! h' = None -> rs_h σ !! h' = None) as Hfree.
  { intros h' Hn. destruct (rs_h σ !! h') eqn:E; [|done]. assert (is_Some (r_h c !! h')) as [? ?] by (apply (handle_iff c σ h'); [done|by rewrite E]). congruence. }
  pose proof HI as (Wm & SH & Hs & s & ψ & HRI).
  assert (forall y, match r_env c !! y with Some (HT _) => exists (t0 : tree A), env_of σ !! y = Some (ITree t0) | Some (HF _) => exists (ts : list (tree A)), env_of σ !! y = Some (IForest ts) | None => env_of σ !! y = None end) as Henv.
  { intros y. pose proof (RE_lookup _ _ _ _ y (iv_env _ _ _ _ _ _ _ HRI)) as H. destruct (env_of σ !! y) as [[x|xs]|].
    - destruct H as (t' & _ & _ & -> & ->). eauto. - destruct H as (t' & _ & _ & -> & ->). eauto. - destruct H as [_ ->]. done. }
  assert (r_g c = rs_g σ) as Hgs by apply HRI.
  assert (forall it, r_it c !! it = None -> rs_it σ !! it = None) as Hits.
  { intros it Hn. pose proof (iv_it _ _ _ _ _ _ _ HRI it) as H. rewrite Hn in H. by inversion H. }
  destruct o; cbn in Hv; try (by destruct Hv);
    repeat match type of Hv with context [match ?x with _ => _ end] => destruct x end;
    (destruct Hv as [Hv|Hv]; try done); inversion Hv; subst; clear Hv; cbn [changes_via looks_via needs_parent typed] in Ht |- *;
    cbn [rsstep]; unfold reading, writing, on_node, give.
  all: try rewrite (Hfree _ Ht).
  all: try match type of Ht with ex _ => destruct Ht as [py Ht] end.
  all: try match type of Ht with r_env _ !! ?y = _ => pose proof (Henv y) as Hey; rewrite Ht in Hey; try match type of Hey with ex _ => destruct Hey as [ty Hey] end; rewrite Hey end.
  all: try (rewrite Hgs in Ht; rewrite Ht).
  all: try rewrite (Hits _ Ht).
  all: rewrite Hi, Hf.
  all: match goal with |- context [if ?b then _ else None] => destruct b eqn:Hw end.
  all: split.
  all: try (intros [[? ?]|[[? ?]|[? ?]]]; congruence).
  all: try (intros Hn; exfalso; apply Hn; tauto).
  all: try (intros _; repeat match goal with |- context [match ?x with _ => _ end] => destruct x eqn:? end; eexists _, _; split; [reflexivity|done]).
  all: try (intros [[? ?]|[[? ?]|[? Hp]]]; [congruence..|by rewrite Hp]).
  all: try (intros Hn; destruct (lparent i (rs_sh σ)) eqn:Hp; [eexists _, _; split; [reflexivity|done]|exfalso; apply Hn; tauto]).
  all: intros _; first [eexists _, _; split; [reflexivity|done] | match goal with |- context [match ?x with Some _ => _ | None => _ end] => destruct x end; eexists _, _; (split; [reflexivity|done])].
Qed.
End props.
