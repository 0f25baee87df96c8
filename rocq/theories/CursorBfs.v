(** CursorBfs.v — [bfs_mut] and [bfs_children_mut] held by the client: the relation of the iterator to its specification. *)
From stdpp Require Import base gmap list.
From Verif Require Import Spec ClientSpec Machine NodeModel BfsModel ClientModel WalkModel WalkSpec CallSpec CallModel CursorSpec CursorModel Sep Rep NodeProofs Inv SpecProofs Abs ClientProofs
  FromBfs BfsBuild BfsIter BfsMut BfsMap ClientRef ClientStep ClientRead ClientProps BfsProps WalkProofs CallBuild CallProofs CallStep.

Section bm.
Context {A : Type}.
Implicit Types (s : mem A) (t k : atree A) (ks us Lat W : list (atree A)) (x : tree A) (xs : list (tree A)).

(** the address map of what was done to the visits *)
Definition bmap (g : nat -> A -> A) Lat : ptr -> A -> A := mods g (aptr <$> Lat) 0.

Record bmrel (hd : handle) (q : list citer) (ps : list ptr) (own : list (atree A)) (im : item A) (path : list nat) (top : bool) (g : nat -> A -> A) (n : nat)
    (th : atree A) Lat us xs (qs : list (list (atree A))) : Prop := {
  bm_own : own = [amap (bmap g Lat) th];
  bm_hd : hd = hof th;
  bm_ri : forall g', ri (amap (bmap g' Lat) th) (bfs_mut_item im path top g');
  bm_lat : Forall2 rt Lat (bfs_mut_order im path top);
  bm_loc : Forall (fun k => exists C, located [th] C k) Lat;
  bm_nd : NoDup (aptr <$> Lat);
  bm_id : forall m a, n <= m -> g m a = a;
  bm_ps : ps = aptr <$> take n Lat;
  bm_q : Forall2 (crel own) q qs;
  bm_qs : concat qs = amap (bmap g Lat) <$> us;
  bm_us : Forall2 rt us xs;
  bm_qo : qo xs (drop n (bfs_mut_order im path top));
  bm_qa : qo (shape <$> us) (shape <$> drop n Lat) }.

Lemma qo_lift W : forall X Lo, qo X Lo -> forall R, Forall2 rt R X -> Forall (fun k => exists C, located W C k) R ->
  exists Lat, Forall2 rt Lat Lo /\ qo (shape <$> R) (shape <$> Lat) /\ Forall (fun k => exists C, located W C k) Lat.
Proof.
  intros X Lo Hq. induction Hq as [|x q r Hq IH]; intros R HR Hl.
  - inversion HR; subst. exists []. split_and!; constructor.
  - inversion HR as [|k ? R' ? Hk HR']; subst. apply Forall_cons in Hl as [[C Hlk] Hl]. pose proof Hk as Hk2. inversion Hk2 as [p pl a ks xs Hks]; subst.
    destruct (IH (R' ++ ks)) as (Lat & H1 & H2 & H3).
    + by apply Forall2_app.
    + apply Forall_app. split; [done|]. apply Forall_lookup. intros i k Hi. eexists. by eapply located_kid.
    + exists (AN p pl (Some a) ks :: Lat). split_and!; [by constructor| |constructor; eauto].
      rewrite !fmap_cons. constructor. rewrite shape_eq. cbn [kids]. by rewrite <-fmap_app.
Qed.

Lemma aptr_shape Lat : root_of <$> (shape <$> Lat) = aptr <$> Lat.
Proof. rewrite <-list_fmap_compose. apply list_fmap_ext. by intros ? [] _. Qed.

Lemma bmap_id g Lat : (forall m a, g m a = a) -> forall q a, bmap g Lat q a = a.
Proof.
  intros Hg q a. unfold bmap. generalize 0. induction (aptr <$> Lat) as [|p l IH]; intros n; cbn [mods]; [done|]. unfold upd1. destruct (decide _); [rewrite Hg|]; apply IH.
Qed.
Lemma fmap_amap_id2 f W : (forall q a, f q a = a) -> amap f <$> W = W.
Proof. intros Hf. apply fmap_amap_id. intros q a _. apply Hf. Qed.
Lemma amap_id2 f t : (forall q a, f q a = a) -> amap f t = t.
Proof. intros Hf. pose proof (fmap_amap_id2 f [t] Hf) as Hx. cbn in Hx. congruence. Qed.

Lemma bm_plug f C t (W : list (atree A)) : NoDup (addrs (plug C t)) -> (forall q a, q ∉ addrs t -> f q a = a) -> amap f (plug C t) = plug C (amap f t).
Proof.
  intros HN Hf. rewrite plug_amap. rewrite (amapF_id _ C); [done|]. intros q a Hq. apply Hf. rewrite plug_addrs in HN. apply NoDup_app in HN as (_ & HN & _). intros Hq'. by apply (HN q).
Qed.

(** the tree or forest, as the data of the visits change *)
Lemma bm_ri_kids th im path C p pl v ks xs Lat g : th = plug C (AN p pl v ks) -> NoDup (addrs th) -> Forall2 rt ks xs ->
  (forall ks' xs', Forall2 rt ks' xs' -> ri (plug C (AN p pl v ks')) (set_kids im path xs')) -> qo (shape <$> ks) (shape <$> Lat) ->
  ri (amap (bmap g Lat) th) (set_kids im path (bfs_map_f g xs)).
Proof.
  intros -> HN Hr Hset Hq. pose proof (qo_fun _ _ _ Hq (qo_level_order_f (shape <$> ks))) as HL.
  assert (Hb : bmap g Lat = mods g (root_of <$> level_order_f (shape <$> ks)) 0) by (unfold bmap; by rewrite <-HL, aptr_shape). rewrite Hb. set (F := mods g _ 0) in *.
  assert (HF : forall q b, q ∉ addrss ks -> F q b = b).
  { intros q b Hqn. apply mods_notin. rewrite (qo_preorder _ _ (qo_level_order_f (shape <$> ks))). by rewrite preorder_shapes. }
  pose proof HN as HN2. rewrite plug_addrs in HN2. apply NoDup_app in HN2 as (HN2 & _ & _). rewrite addrs_eq in HN2. apply NoDup_cons in HN2 as [Hp HN2].
  rewrite (bm_plug F C _ []); [|done|].
  2:{ intros q b Hqn. apply HF. intros Hin. apply Hqn. rewrite addrs_eq. by right. }
  rewrite amap_eq. assert (F p <$> v = v) as -> by (destruct v; [simpl; by rewrite HF|done]). apply Hset.
  unfold bfs_map_f. rewrite <-(ss_bfs_paths_f _ _ (rts_shape _ _ Hr)). apply rts_amap; [done|]. intros path' u b Hu. by apply mods_forest.
Qed.
Lemma bm_ri_tree th im path C p pl a ks xs Lat g : th = plug C (AN p pl (Some a) ks) -> afind th path = Some (C, AN p pl (Some a) ks) -> NoDup (addrs th) -> Forall2 rt ks xs ->
  (forall ks' xs', Forall2 rt ks' xs' -> ri (plug C (AN p pl (Some a) ks')) (set_kids im path xs')) -> qo [shape (AN p pl (Some a) ks)] (shape <$> Lat) ->
  ri (amap (bmap g Lat) th) (set_data (set_kids im path (kids (bfs_map g (Tr a xs)))) path (root_of (bfs_map g (Tr a xs)))).
Proof.
  intros Hth Haf HN Hks Hset Hq. set (t := AN p pl (Some a) ks) in *. assert (Hr : rt t (Tr a xs)) by (by constructor).
  pose proof (qo_fun _ _ _ Hq (qo_level_order (shape t))) as HL.
  assert (Hb : bmap g Lat = mods g (root_of <$> level_order (shape t)) 0) by (unfold bmap; by rewrite <-HL, aptr_shape). rewrite Hb. set (F := mods g _ 0) in *.
  assert (HF : forall q b, q ∉ addrs t -> F q b = b).
  { intros q b Hqn. apply mods_notin. rewrite (qo_preorder _ _ (qo_level_order (shape t))). cbn [flat_map]. by rewrite app_nil_r, preorder_shape. }
  pose proof HN as HN2. rewrite Hth, plug_addrs in HN2. apply NoDup_app in HN2 as (HN2 & _ & _).
  assert (Hr' : rt (amap F t) (bfs_map g (Tr a xs))).
  { unfold bfs_map. rewrite <-(ss_bfs_paths _ _ (rt_shape _ _ Hr)). apply rt_amap; [done|]. intros path' u b Hu. by apply mods_tree. }
  rewrite Hth in HN |- *. rewrite (bm_plug F C _ []) by done. unfold t in Hr' |- *. rewrite amap_eq in Hr' |- *. cbn [fmap option_fmap option_map] in Hr' |- *.
  set (a' := F p a) in *. set (ks' := amap F <$> ks) in *.
  pose proof (rt_kids _ _ Hr') as Hk'. cbn [akids] in Hk'. specialize (Hset _ _ Hk').
  pose proof (locate_kids _ _ path Hset) as HLo. destruct (kids_at (set_kids im path (kids (bfs_map g (Tr a xs)))) path) as [zs|].
  - destruct HLo as (C2 & p2 & pl2 & v2 & ks2 & Haf2 & _ & _ & _ & Hd & _).
    rewrite (afind_set _ _ _ _ _ Haf) in Haf2. injection Haf2 as <- <- <- <- <-.
    pose proof (rt_val _ _ Hr') as Ha. cbn [aval] in Ha. assert (a' = root_of (bfs_map g (Tr a xs))) as -> by congruence. apply Hd. eauto.
  - rewrite (afind_set _ _ _ _ _ Haf) in HLo. by destruct HLo.
Qed.

Lemma cnts_amap f ks : cnts (amap f <$> ks) = cnts ks.
Proof.
  rewrite <-!addrss_length. f_equal. unfold addrss. induction ks as [|k ks IH]; [done|]. rewrite fmap_cons. cbn [flat_map]. by rewrite IH, addrs_amap.
Qed.

(** [next] *)
Lemma bm_next hd q ps own im path top g n th Lat us xs qs s W E : bmrel hd q ps own im path top g n th Lat us xs qs -> MInvX s (own ++ W) E ->
  match bfs_mut_order im path top !! n with
  | None => sp_next_node q s = Ok (None, []) s /\ bmrel hd [] ps own im path top g n th Lat [] [] []
  | Some x => exists p q' us' xs' qs', sp_next_node q s = Ok (Some (p, length (kids x), nodes_f (kids x)), q') s /\ data p s = Ok (root_of x) s /\
      bmrel hd q' (ps ++ [p]) own im path top g (S n) th Lat us' xs' qs'
  end.
Proof.
  intros [H1 H2 H3 H4 H5 H6 H7 H8 H9 H10 H11 H12 H13] HI. set (Lo := bfs_mut_order im path top) in *.
  assert (HqW : Forall2 (crel (own ++ W)) q qs) by (eapply Forall2_impl; [exact H9|]; intros; by apply crel_weaken).
  inversion H12 as [He1 He2|x q0 r' Hqo' He1 He2]; subst xs.
  - assert (Lo !! n = None) as ->. { apply lookup_ge_None. symmetry in He2. apply (f_equal length) in He2. rewrite drop_length in He2. cbn in He2. lia. }
    inversion H11; subst us. split; [exact (sp_next_node_none _ s _ _ HqW H10)|]. by split.
  - assert (Hx : Lo !! n = Some x). { rewrite <-(Nat.add_0_r n), <-lookup_drop, <-He2. done. } rewrite Hx.
    apply Forall2_cons_inv_r in H11 as (k & us' & Hkx & Hus & ->). destruct (rt_inv _ _ Hkx) as (p & pl & ks & -> & Hks). set (a := root_of x) in *. set (zs := kids x) in *.
    rewrite fmap_cons, amap_eq in H10. cbn [fmap option_fmap option_map] in H10.
    destruct (sp_next_node_someV _ _ _ _ _ _ _ _ _ _ _ H9 HI H10) as (q' & qs' & Hn & Hq' & Hc').
    destruct (crels_located _ _ _ (AN p pl (Some (bmap g Lat p a)) (amap (bmap g Lat) <$> ks)) HqW) as [C Hloc]; [rewrite H10; left|].
    destruct (Forall2_lookup_r _ _ _ _ _ H4 Hx) as (k & Hk & Hkr).
    assert (HdL : drop n Lat = k :: drop (S n) Lat) by (by apply drop_S).
    rewrite HdL, !fmap_cons in H13. inversion H13 as [|? ? ? Hqa Hsh Hsh2].
    assert (Hpk : aptr k = p). { clear -Hsh2. destruct k. rewrite !shape_eq in Hsh2. by injection Hsh2. }
    assert (Hpa : (aptr <$> Lat) !! n = Some p) by (by rewrite list_lookup_fmap, Hk, <-Hpk).
    assert (Hval : bmap g Lat p a = a). { unfold bmap. rewrite (mods_lookup _ _ _ _ _ _ H6 Hpa). by apply H7. }
    pose proof (located_data _ _ _ _ _ _ _ _ Hloc HI) as Hd. rewrite Hval in Hd.
    exists p, q', (us' ++ ks), (q0 ++ zs), qs'. split_and!; [|done|].
    + rewrite Hn. rewrite fmap_length, (Forall2_length _ _ _ Hks). by rewrite cnts_amap, (rts_cnts _ _ Hks).
    + split; try done.
      * intros m b Hm. apply H7. lia.
      * rewrite H8, (take_S_r _ _ _ Hk), fmap_app, <-Hpk. done.
      * by rewrite Hc', fmap_app.
      * by apply Forall2_app.
      * fold Lo. assert (drop (S n) Lo = r') as ->; [|done]. rewrite <-Nat.add_1_r, <-drop_drop, <-He2. done.
      * rewrite fmap_app. exact Hqa.
Qed.

(** the data of a visit *)
Lemma bmap_done g Lat j p f : NoDup (aptr <$> Lat) -> (aptr <$> Lat) !! j = Some p -> forall q a, upd1 p f q (bmap g Lat q a) = bmap (done_to j f g) Lat q a.
Proof.
  intros HN Hj q a. unfold bmap. destruct (decide (q ∈ aptr <$> Lat)) as [Hq|Hq].
  - apply elem_of_list_lookup in Hq as [i Hi]. rewrite !(mods_lookup _ _ _ _ _ _ HN Hi). cbn [Nat.add]. unfold upd1, done_to.
    destruct (Nat.eqb_spec i j) as [->|Hne]; [rewrite decide_True by congruence; done|]. rewrite decide_False; [done|]. intros ->. apply Hne. exact (NoDup_lookup _ _ _ _ HN Hi Hj).
  - rewrite !mods_notin by done. unfold upd1. rewrite decide_False; [done|]. intros ->. apply Hq. by eapply elem_of_list_lookup_2.
Qed.
Lemma bm_data hd q ps own im path top g n th Lat us xs qs s W E j f : bmrel hd q ps own im path top g n th Lat us xs qs -> MInvX s (own ++ W) E ->
  match take n (bfs_mut_order im path top) !! j with
  | None => ps !! j = None
  | Some u => exists p hp own' qs', ps !! j = Some p /\ data p s = Ok (g j (root_of u)) s /\ modify_data p f s = Ok tt (set_heap s hp) /\ MInvX (set_heap s hp) (own' ++ W) E /\
      bmrel hd q ps own' im path top (done_to j f g) n th Lat us xs qs'
  end.
Proof.
  intros [H1 H2 H3 H4 H5 H6 H7 H8 H9 H10 H11 H12 H13] HI. set (Lo := bfs_mut_order im path top) in *.
  pose proof (Forall2_take _ _ _ n H4) as Ht. destruct (take n Lo !! j) as [u|] eqn:Hu.
  2:{ apply lookup_ge_None in Hu. rewrite H8. apply lookup_ge_None. by rewrite fmap_length, (Forall2_length _ _ _ Ht). }
  destruct (Forall2_lookup_r _ _ _ _ _ Ht Hu) as (k & Hk & Hku). inversion Hku as [p pl a ks xs' Hks]; subst u. cbn [root_of].
  assert (Hjn : j < n). { apply lookup_lt_Some in Hk. rewrite take_length in Hk. lia. }
  assert (HkL : Lat !! j = Some k). { rewrite <-Hk. symmetry. by apply lookup_take. }
  assert (Hpa : (aptr <$> Lat) !! j = Some p) by (by rewrite list_lookup_fmap, HkL, <-H).
  pose proof H5 as H5a. rewrite Forall_forall in H5a. destruct (H5a k) as [C Hloc]; [by eapply elem_of_list_lookup_2|]. rewrite <-H in Hloc.
  assert (Hpth : p ∈ addrs th).
  { destruct Hloc as [W2 HW2]. apply Permutation_length_1_inv in HW2. injection HW2 as <- _. rewrite plug_addrs, addrs_eq. apply elem_of_app. left. by left. }
  apply (located_amap (bmap g Lat)) in Hloc. cbn [fmap list_fmap] in Hloc.
  rewrite <-H1, amap_eq in Hloc. cbn [fmap option_fmap option_map] in Hloc. apply (located_weaken _ W) in Hloc.
  destruct (modify_amap _ _ _ _ _ _ _ _ f Hloc HI) as (hp & W' & Hm & HI' & HW').
  assert (HWW : amap (upd1 p f) <$> W = W).
  { apply fmap_amap_id. intros q' b Hq'. unfold upd1. rewrite decide_False; [done|]. intros ->.
    pose proof (MInv_nodup _ _ _ HI) as HN. rewrite H1 in HN. unfold addrss in HN. cbn [app flat_map] in HN. rewrite addrs_amap in HN.
    apply NoDup_app in HN as (_ & HN & _). by apply (HN p). }
  exists p, hp, [amap (bmap (done_to j f g) Lat) th], (map (map (amap (upd1 p f))) qs).
  assert (Hcomp : forall l : list (atree A), amap (upd1 p f) <$> (amap (bmap g Lat) <$> l) = amap (bmap (done_to j f g) Lat) <$> l).
  { intros l. rewrite <-list_fmap_compose. apply list_fmap_ext. intros ? ? _. cbn [compose]. rewrite amap_amap. apply amap_ext. intros q' b _. by apply bmap_done. }
  assert (Hown : amap (upd1 p f) <$> own = [amap (bmap (done_to j f g) Lat) th]) by (rewrite H1; exact (Hcomp [th])).
  split_and!.
  - rewrite H8, list_lookup_fmap, Hk, <-H. done.
  - rewrite (located_data _ _ _ _ _ _ _ _ Hloc HI). unfold bmap. by rewrite (mods_lookup _ _ _ _ _ _ H6 Hpa).
  - done.
  - eapply MInv_perm; [|exact HI']. by rewrite HW', fmap_app, HWW, Hown.
  - split; try done.
    + intros m b Hm'. unfold done_to. destruct (Nat.eqb_spec m j); [lia|]. by apply H7.
    + apply (Forall2_fmap_r (fmap (amap (upd1 p f)))). eapply Forall2_impl; [exact H9|]. intros it l Hr. rewrite <-Hown. by apply crel_amap.
    + rewrite <-Hcomp, <-H10. clear. induction qs as [|l qs IH]; [done|]. cbn [map concat]. rewrite IH. by rewrite fmap_app.
Qed.

(** the start; [R]: the nodes the iterator starts with *)
Lemma bm_start th (im : item A) path (top : bool) (C : ctx A) p pl v ks xs q s W E : let R := if top then [AN p pl v ks] else ks in
  th = plug C (AN p pl v ks) -> afind th path = Some (C, AN p pl v ks) -> MInvX s (th :: W) E -> Forall2 rt ks xs -> kids_at im path = Some xs ->
  (forall ks' xs', Forall2 rt ks' xs' -> ri (plug C (AN p pl v ks')) (set_kids im path xs')) ->
  node_at im path = match v with Some a => Some (Tr a xs) | None => None end -> (top = true -> is_Some v) -> Forall2 (crel [th]) q [R] ->
  exists Lat us xs qs, bmrel (hof th) q [] [th] im path top (fun _ a => a) 0 th Lat us xs qs.
Proof.
  intros R Hth Haf HI Hks Hkids Hset Hnode Htop Hq.
  pose proof (MInv_nodup _ _ _ HI) as HN. unfold addrss in HN. cbn [flat_map] in HN. apply NoDup_app in HN as (HN & _ & _).
  assert (Hloc : located [th] C (AN p pl v ks)) by (exists []; by rewrite Hth).
  set (X := if top then match v with Some a => [Tr a xs] | None => [] end else xs).
  assert (HRX : Forall2 rt R X).
  { unfold R, X. destruct top; [|done]. destruct (Htop eq_refl) as [a ->]. by repeat constructor. }
  assert (HRl : Forall (fun k => exists C, located [th] C k) R).
  { unfold R. destruct top; [constructor; [by exists C|constructor]|]. apply Forall_lookup. intros i k Hi. eexists. by eapply located_kid. }
  assert (HXo : qo X (bfs_mut_order im path top)).
  { unfold X, bfs_mut_order. rewrite Hnode, Hkids. destruct top; [|apply qo_level_order_f]. destruct (Htop eq_refl) as [a ->]. apply qo_level_order. }
  destruct (qo_lift [th] X _ HXo R HRX HRl) as (Lat & H1 & H2 & H3). exists Lat, R, X, [R].
  assert (Hid : forall q a, bmap (fun _ a => a) Lat q a = a) by (by apply bmap_id).
  split; try done.
  - by rewrite amap_id2.
  - intros g. unfold bfs_mut_item. rewrite Hnode, Hkids. unfold R in H2. destruct top.
    + destruct (Htop eq_refl) as [a ->]. by eapply bm_ri_tree.
    + by eapply bm_ri_kids.
  - rewrite <-aptr_shape, (qo_preorder _ _ H2), preorder_shapes. rewrite Hth, plug_addrs in HN. apply NoDup_app in HN as (HN & _ & _). unfold R, addrss. destruct top.
    + cbn [flat_map]. by rewrite app_nil_r.
    + rewrite addrs_eq in HN. by apply NoDup_cons in HN as [_ HN].
  - rewrite fmap_amap_id2 by done. cbn [concat]. by rewrite app_nil_r.
Qed.
End bm.
