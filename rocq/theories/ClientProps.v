(** ClientProps.v — the properties C01-C09, C11-C13 as lemmas over reachable client states. *)
From stdpp Require Import base gmap list.
From Verif Require Import Spec ClientSpec SpecProofs Machine NodeModel ClientModel Sep Rep NodeProofs Inv Abs ClientProofs ClientRef ClientStep ClientRead.

Section props.
Context {A : Type}.
Implicit Types (c : cst A) (env : gmap nat (item A)) (it : item A) (t : tree A) (ts fs : list (tree A)) (h x y : nat).

Lemma push_prop c env e h path y it ts t :
  reachable c -> contents c env -> env !! h = Some it -> kids_at it path = Some ts -> env !! y = Some (ITree t) -> h <> y ->
  exists c', step c (OPush e h path y) = Done RUnit c' /\ reachable c' /\ m_log (c_mem c') = m_log (c_mem c) /\
    contents c' (<[h := set_kids it path (match e with Front => t :: ts | Back => ts ++ [t] end)]> (delete y env)).
Proof.
  intros Hr Hc Hh Hk Hy Hne. pose proof (step_from c env (OPush e h path y) Hr Hc) as H. cbn [sstep s_env s_log] in H.
  rewrite Hy, lookup_delete_ne, Hh, Hk in H by done. destruct H as (c' & ? & ? & ? & ?). eauto 10.
Qed.

Lemma pop_prop c env e h path x it ts :
  reachable c -> contents c env -> env !! h = Some it -> kids_at it path = Some ts -> env !! x = None ->
  match (match e with Front => head ts | Back => last ts end) with
  | None => exists c', step c (OPop e h path x) = Done (RBool false) c' /\ contents c' env /\ reachable c' /\ m_log (c_mem c') = m_log (c_mem c)
  | Some t => exists c', step c (OPop e h path x) = Done (RBool true) c' /\ reachable c' /\ m_log (c_mem c') = m_log (c_mem c) /\
      contents c' (<[x := ITree t]> (<[h := set_kids it path (match e with Front => tail ts | Back => removelast ts end)]> env))
  end.
Proof.
  intros Hr Hc Hh Hk Hx. pose proof (step_from c env (OPop e h path x) Hr Hc) as H. cbn [sstep s_env s_log] in H.
  rewrite Hh, Hx, Hk in H. destruct (match e with Front => _ | Back => _ end).
  - destruct H as (c' & ? & ? & ? & ?). eauto 10.
  - destruct H as (c' & ? & ? & ? & ?). eauto 10.
Qed.

Lemma concat_prop c env e h path y it ts fs :
  reachable c -> contents c env -> env !! h = Some it -> kids_at it path = Some ts -> env !! y = Some (IForest fs) -> h <> y ->
  exists c', step c (OConcat e h path y) = Done RUnit c' /\ reachable c' /\ m_log (c_mem c') = m_log (c_mem c) /\
    contents c' (<[h := set_kids it path (match e with Front => fs ++ ts | Back => ts ++ fs end)]> (delete y env)).
Proof.
  intros Hr Hc Hh Hk Hy Hne. pose proof (step_from c env (OConcat e h path y) Hr Hc) as H. cbn [sstep s_env s_log] in H.
  rewrite Hy, lookup_delete_ne, Hh, Hk in H by done. destruct H as (c' & ? & ? & ? & ?). eauto 10.
Qed.

Lemma insert_prop c env e h path i y it L u R t :
  reachable c -> contents c env -> env !! h = Some it -> kids_at it path = Some (L ++ u :: R) -> i = length L ->
  env !! y = Some (ITree t) -> h <> y ->
  exists c', step c (OInsert e h (path ++ [i]) y) = Done RUnit c' /\ reachable c' /\ m_log (c_mem c') = m_log (c_mem c) /\
    contents c' (<[h := set_kids it path (match e with Front => L ++ t :: u :: R | Back => L ++ u :: t :: R end)]> (delete y env)).
Proof.
  intros Hr Hc Hh Hk -> Hy Hne. pose proof (step_from c env (OInsert e h (path ++ [length L]) y) Hr Hc) as H. cbn [sstep s_env s_log] in H.
  rewrite Hy, lookup_delete_ne, Hh, split_last_app, Hk in H by done.
  rewrite decide_True in H by (rewrite app_length; simpl; lia). destruct H as (c' & ? & Hcc & ? & ?). exists c'. split_and!; [done..|].
  destruct e.
  - cbn [s_env] in Hcc. by rewrite take_app, drop_app in Hcc.
  - cbn [s_env] in Hcc. assert (L ++ u :: R = (L ++ [u]) ++ R) as Hl by by rewrite <-app_assoc. rewrite Hl in Hcc.
    replace (S (length L)) with (length (L ++ [u])) in Hcc by (rewrite app_length; simpl; lia).
    rewrite take_app, drop_app in Hcc. by rewrite <-app_assoc in Hcc.
Qed.

Lemma insert_root_prop c env e h y u t :
  reachable c -> contents c env -> env !! h = Some (ITree u) -> env !! y = Some (ITree t) -> h <> y ->
  step c (OInsert e h [] y) = Fails EPanic.
Proof.
  intros Hr Hc Hh Hy Hne. pose proof (step_from c env (OInsert e h [] y) Hr Hc) as H. cbn [sstep s_env s_log] in H.
  by rewrite Hy, lookup_delete_ne, Hh in H.
Qed.

Lemma detach_prop c env h path i x it L u R :
  reachable c -> contents c env -> env !! h = Some it -> kids_at it path = Some (L ++ u :: R) -> i = length L -> env !! x = None ->
  exists c', step c (ODetach h (path ++ [i]) x) = Done RUnit c' /\ reachable c' /\ m_log (c_mem c') = m_log (c_mem c) /\
    contents c' (<[x := ITree u]> (<[h := set_kids it path (L ++ R)]> env)).
Proof.
  intros Hr Hc Hh Hk -> Hx. pose proof (step_from c env (ODetach h (path ++ [length L]) x) Hr Hc) as H. cbn [sstep s_env s_log] in H.
  rewrite Hh, Hx, split_last_app, Hk in H. rewrite list_lookup_middle in H by done.
  destruct H as (c' & ? & Hcc & ? & ?). exists c'. split_and!; [done..|]. cbn [s_env] in Hcc. rewrite take_app in Hcc.
  assert (L ++ u :: R = (L ++ [u]) ++ R) as Hl by by rewrite <-app_assoc. rewrite Hl in Hcc. replace (S (length L)) with (length (L ++ [u])) in Hcc by (rewrite app_length; simpl; lia).
  by rewrite drop_app in Hcc.
Qed.
Lemma detach_root_prop c env h x u :
  reachable c -> contents c env -> env !! h = Some (ITree u) -> env !! x = None ->
  step c (ODetach h [] x) = Fails EPanic.
Proof.
  intros Hr Hc Hh Hx. pose proof (step_from c env (ODetach h [] x) Hr Hc) as H. cbn [sstep s_env s_log] in H.
  by rewrite Hh, Hx in H.
Qed.

Lemma abandon_prop c env h x a ts :
  reachable c -> contents c env -> env !! h = Some (ITree (Tr a ts)) -> env !! x = None ->
  exists c', step c (OAbandon h x) = Done RUnit c' /\ reachable c' /\ m_log (c_mem c') = m_log (c_mem c) /\
    contents c' (<[x := IForest ts]> (<[h := ITree (Tr a [])]> env)).
Proof.
  intros Hr Hc Hh Hx. pose proof (step_from c env (OAbandon h x) Hr Hc) as H. cbn [sstep s_env s_log] in H.
  rewrite Hh, Hx in H. destruct H as (c' & ? & ? & ? & ?). eauto 10.
Qed.

Lemma drop_prop c env h it :
  reachable c -> contents c env -> env !! h = Some it ->
  exists c', step c (ODrop h) = Done RUnit c' /\ reachable c' /\ contents c' (delete h env) /\
    m_log (c_mem c') = m_log (c_mem c) ++ item_post it.
Proof.
  intros Hr Hc Hh. pose proof (step_from c env (ODrop h) Hr Hc) as H. cbn [sstep s_env s_log] in H.
  rewrite Hh in H. destruct H as (c' & ? & ? & ? & ?). eauto 10.
Qed.

(** safety *)
Lemma safe_prop os : match run (A:=A) cst0 os with Done _ _ => True | Fails e => e = EPanic /\ srun sst0 os = None end.
Proof.
  pose proof (refinement os) as H. destruct (srun sst0 os) as [[rs σ]|].
  - destruct H as (c & -> & _). done.
  - by rewrite H.
Qed.

(** ** live nodes *)
Lemma addrs_afind (t : atree A) : forall p, p ∈ addrs t <-> exists path C (t' : atree A), afind t path = Some (C, t') /\ aptr t' = p.
Proof.
  induction t as [q pl v ks IH] using atree_ind'. intros p. rewrite addrs_eq. split.
  - intros [->|Hp]%elem_of_cons.
    + exists [], [], (AN q pl v ks). done.
    + unfold addrss in Hp. apply elem_of_list_In, in_flat_map in Hp as (k & Hk & Hp). apply elem_of_list_In in Hk, Hp.
      rewrite Forall_forall in IH. apply (IH k Hk) in Hp as (path & C & t' & Hf & Ht').
      apply elem_of_list_lookup in Hk as [i Hi]. exists (i :: path). simpl. rewrite Hi, Hf. eauto.
  - intros (path & C & t' & Hf & <-). destruct path as [|i path]; simpl in Hf; [simplify_eq; left|].
    destruct (ks !! i) as [k|] eqn:Hk; [|done]. destruct (afind k path) as [[C' t'']|] eqn:Hf'; [|done]. simplify_eq.
    right. unfold addrss. apply elem_of_list_In, in_flat_map. exists k. split; [apply elem_of_list_In; by eapply elem_of_list_lookup_2|].
    apply elem_of_list_In. rewrite Forall_forall in IH. apply (IH k); [by eapply elem_of_list_lookup_2|]. eauto 10.
Qed.

Lemma live_addrs c cenv senv Wm p : REnv (c_mem c) cenv senv Wm -> cenv = c_env c ->
  live c p <-> p ∈ addrss (vals Wm).
Proof.
  intros HR ->. unfold live. split.
  - intros (h & hd & path & Hh & Hres). pose proof (re_env _ _ _ _ HR) as He. rewrite He, lookup_fmap in Hh.
    destruct (Wm !! h) as [t|] eqn:Ht; [|done]. simpl in Hh. simplify_eq.
    rewrite addr_hof, (resolve_at _ _ _ _ path (RE_inv _ _ _ _ _ _ HR Ht)) in Hres.
    destruct (afind t path) as [[C t']|] eqn:Hf; [|done]. simpl in Hres. simplify_eq.
    unfold addrss. apply elem_of_list_In, in_flat_map. exists t. split.
    + apply elem_of_list_In. rewrite <-(vals_delete _ _ _ Ht). left.
    + apply elem_of_list_In. apply addrs_afind. eauto.
  - intros Hp. unfold addrss in Hp. apply elem_of_list_In, in_flat_map in Hp as (t & Ht & Hp).
    apply elem_of_list_In in Ht, Hp. unfold ClientRef.vals in Ht. rewrite app_nil_r in Ht. apply elem_of_list_fmap in Ht as ([h t'] & -> & Ht).
    apply elem_of_map_to_list in Ht. simpl in Hp. apply addrs_afind in Hp as (path & C & t'' & Hf & <-).
    exists h, (hof t'), path. split.
    + by rewrite (re_env _ _ _ _ HR), lookup_fmap, Ht.
    + rewrite addr_hof, (resolve_at _ _ _ _ path (RE_inv _ _ _ _ _ _ HR Ht)), Hf. done.
Qed.

Lemma infoss_addrss (W : list (atree A)) p : p ∈ addrss W <-> exists pl, (p, pl) ∈ infoss W.
Proof.
  rewrite <-infoss_fst, elem_of_list_fmap. split.
  - intros ([q pl] & -> & H). eauto.
  - intros [pl H]. exists (p, pl). done.
Qed.

Lemma ltm_some (l : list (ptr * node A)) (p : ptr) : p ∈ l.*1 -> is_Some ((list_to_map l : gmap ptr (node A)) !! p).
Proof.
  intros H. destruct ((list_to_map l : gmap ptr (node A)) !! p) eqn:E; [eauto|]. apply not_elem_of_list_to_map in E. done.
Qed.

Lemma memory_exact_inv c σ : CInv c σ ->
  (forall p, live c p -> is_Some (m_heap (c_mem c) !! p)) /\
  (forall p, is_Some (m_heap (c_mem c) !! p) ->
     live c p \/ exists cap rc q, m_vec (c_mem c) !! p.1 = Some (cap, rc) /\ p.2 < cap /\ live c q /\ q.1 = p.1) /\
  (forall v, is_Some (m_vec (c_mem c) !! v) -> exists q, live c q /\ q.1 = v) /\
  (forall p, is_Some (m_heap (c_mem c) !! p) -> m_cnt (c_mem c) !! p = Some 1) /\
  (forall p, is_Some (m_cnt (c_mem c) !! p) -> is_Some (m_heap (c_mem c) !! p) \/ exists q, live c q /\ q.1 = p.1).
Proof.
  intros (Wm & HR & _).
  pose proof (fun p => live_addrs c _ _ Wm p HR eq_refl) as HL.
  pose proof (re_inv _ _ _ _ HR) as HI.
  assert (Hvec : forall v, is_Some (m_vec (c_mem c) !! v) -> exists q, live c q /\ q.1 = v).
  { intros v [[cap rc] Hv]. destruct HI as [_ _ _ _ _ H4 _ _]. destruct (H4 _ _ _ Hv) as (_&Hrest).
    destruct (Hrest (inE_nil v)) as (Hrc&Hp&_). rewrite Hrc in Hp. apply live_in_pos_inv in Hp as (q & pl & Hq & Hq1).
    exists q. split; [|done]. apply HL, infoss_addrss. eauto. }
  split_and!; [| |exact Hvec| |].
  - intros p Hp. apply HL in Hp. destruct HI as [(D & [HN HE] & _) _ _ _ _ _ _ _]. rewrite HE.
    apply ltm_some. rewrite fmap_app, layW_fst. apply elem_of_app. by left.
  - intros p Hp. pose proof HI as [(D & [HN HE] & HD) _ _ _ _ H4 _ _]. rewrite HE in Hp. 
    destruct Hp as [n Hn]. apply elem_of_list_to_map_2, (elem_of_list_fmap_1 fst) in Hn. simpl in Hn.
    rewrite app_nil_r, fmap_app, layW_fst in Hn. apply elem_of_app in Hn as [Hn|Hn]; [left; by apply HL|]. right.
    destruct (HD p Hn) as [Hv _]. destruct (Hvec _ Hv) as (q & Hq & Hq1). destruct Hv as [[cap rc] Hv].
    exists cap, rc, q. split_and!; [done| |done|done]. destruct (H4 _ _ _ Hv) as (_&Hrest).
    destruct (Hrest (inE_nil _)) as (_&_&Hc). apply Hc. rewrite HE. destruct p as [b i].
    apply ltm_some. rewrite app_nil_r, fmap_app. apply elem_of_app. by right.
  - apply HI.
  - intros p Hp. destruct (mi_cnt2 _ _ _ HI p Hp) as [?|?]; [by left|right]. by apply Hvec.
Qed.
Lemma memory_exact c : reachable c ->
  (forall p, live c p -> is_Some (m_heap (c_mem c) !! p)) /\
  (forall p, is_Some (m_heap (c_mem c) !! p) ->
     live c p \/ exists cap rc q, m_vec (c_mem c) !! p.1 = Some (cap, rc) /\ p.2 < cap /\ live c q /\ q.1 = p.1) /\
  (forall v, is_Some (m_vec (c_mem c) !! v) -> exists q, live c q /\ q.1 = v) /\
  (forall p, is_Some (m_heap (c_mem c) !! p) -> m_cnt (c_mem c) !! p = Some 1) /\
  (forall p, is_Some (m_cnt (c_mem c) !! p) -> is_Some (m_heap (c_mem c) !! p) \/ exists q, live c q /\ q.1 = p.1).
Proof. intros Hr. destruct (reachable_CInv c Hr) as (σ & HC). exact (memory_exact_inv c σ HC). Qed.

Lemma nothing_left c : reachable c -> contents c ∅ ->
  m_heap (c_mem c) = ∅ /\ m_cnt (c_mem c) = ∅ /\ m_vec (c_mem c) = ∅.
Proof.
  intros Hr Hc. destruct (reachable_contents _ _ Hr Hc) as (Wm & HR & _).
  assert (Wm = ∅) as ->.
  { apply map_empty. intros h. pose proof (re_ri _ _ _ _ HR h) as H. simpl in H. rewrite lookup_empty in H. by inversion H. }
  apply MInv_nil. destruct HR as [HI _ _]. exact HI.
Qed.

(** ** pointer-level agreement of the observers *)
Lemma observers_agree c h hd path p :
  reachable c -> c_env c !! h = Some hd -> resolve (addr hd) path (c_mem c) = Ok (Some p) (c_mem c) ->
  exists cs, children p (c_mem c) = Ok cs (c_mem c) /\
    degree p (c_mem c) = Ok (length cs) (c_mem c) /\
    has_no_child p (c_mem c) = Ok (bool_decide (cs = [])) (c_mem c) /\
    front p (c_mem c) = Ok (head cs) (c_mem c) /\
    back p (c_mem c) = Ok (last cs) (c_mem c) /\
    (forall i, resolve (addr hd) (path ++ [i]) (c_mem c) = Ok (cs !! i) (c_mem c)) /\
    (forall i q, cs !! i = Some q ->
       parent q (c_mem c) = Ok (if is_forest_root hd path then None else Some p) (c_mem c)).
Proof.
  intros Hr Hh Hres. destruct (reachable_CInv c Hr) as (σ & Wm & HR & _).
  pose proof (RE_lookup _ _ _ _ h HR) as H. destruct (s_env σ !! h) as [it|]; [|destruct H; congruence].
  destruct H as (t & Ht & Hri & Henv & _). rewrite Hh in Henv. simplify_eq.
  pose proof (RE_locate _ _ _ _ _ _ _ path HR Ht Hri) as HL. destruct (kids_at it path) as [xs|]; [|destruct HL; congruence].
  destruct HL as (C & p' & pl & v & ks & Heq & Haf & Hres' & HI & Hks & _ & Hn & _ & Hroot).
  rewrite Hres in Hres'. simplify_eq. exists (aptr <$> ks). split_and!.
  - by eapply children_at.
  - rewrite fmap_length. by eapply degree_at.
  - rewrite (has_no_child_at _ _ _ _ _ _ _ _ HI). f_equal. by destruct ks.
  - rewrite (end_at Front _ _ _ _ _ _ _ _ HI). f_equal. by destruct ks.
  - rewrite (end_at Back _ _ _ _ _ _ _ _ HI). f_equal. by rewrite fmap_last.
  - intros i. rewrite addr_hof, (resolve_at _ _ _ _ _ HI), afind_app, Haf. simpl. rewrite list_lookup_fmap. by destruct (ks !! i).
  - intros i q Hq. rewrite list_lookup_fmap in Hq. destruct (ks !! i) as [k|] eqn:Hk; [|done]. simpl in Hq. simplify_eq.
    rewrite Hroot. pose proof HI as HI2. rewrite (kid_in C p' pl v ks i k Hk) in HI2. destruct k as [kp kl kv kks]. simpl.
    rewrite (parent_at _ _ _ _ _ _ _ _ HI2); [by destruct v|].
    intros u ul uv L R C1 [= -> -> -> <- <- <-] ->. 
    assert (afind (plug C (AN u ul None ks)) (path ++ [i]) = Some (Fr u ul None (take i ks) (drop (S i) ks) :: C, AN kp kl kv kks)) as Haf'.
    { rewrite afind_app, Haf. simpl. by rewrite Hk. }
    eapply (afind_ctx _ _ _ _ _ Hri Haf' (Fr u ul None _ _) [] C); done.
Qed.

Lemma root_parent c h hd : reachable c -> c_env c !! h = Some hd -> parent (addr hd) (c_mem c) = Ok None (c_mem c).
Proof.
  intros Hr Hh. destruct (reachable_CInv c Hr) as (σ & Wm & HR & _).
  rewrite (re_env _ _ _ _ HR), lookup_fmap in Hh. destruct (Wm !! h) as [t|] eqn:Ht; [|done]. simpl in Hh. simplify_eq.
  pose proof (RE_inv _ _ _ _ _ _ HR Ht) as HI. rewrite addr_hof. destruct t as [p pl v ks].
  cbn [aptr]. by rewrite (parent_at _ [] _ _ _ _ _ _ HI).
Qed.

Lemma count_prop c env h hd path p it ts :
  reachable c -> contents c env -> env !! h = Some it -> c_env c !! h = Some hd ->
  resolve (addr hd) path (c_mem c) = Ok (Some p) (c_mem c) -> kids_at it path = Some ts ->
  node_count p (c_mem c) = Ok (match node_at it path with Some t => nodes t | None => nodes_f ts end) (c_mem c) /\
  degree p (c_mem c) = Ok (length ts) (c_mem c).
Proof.
  intros Hr Hc Hh Hhd Hres Hk. destruct (reachable_contents _ _ Hr Hc) as (Wm & HR & _).
  pose proof (RE_lookup _ _ _ _ h HR) as H. cbn [s_env] in H. rewrite Hh in H.
  destruct H as (t & Ht & Hri & Henv & _). rewrite Hhd in Henv. simplify_eq.
  pose proof (RE_locate _ _ _ _ _ _ _ path HR Ht Hri) as HL. rewrite Hk in HL.
  destruct HL as (C & p' & pl & v & ks & Heq & Haf & Hres' & HI & Hks & _ & Hn & _ & Hroot).
  rewrite Hres in Hres'. simplify_eq. split.
  - rewrite (node_count_at _ _ _ _ _ _ _ _ HI), Hn, (rts_cnts _ _ Hks). by destruct v.
  - rewrite (degree_at _ _ _ _ _ _ _ _ HI). by rewrite (Forall2_length _ _ _ Hks).
Qed.

(** a pop at the end just pushed *)
Lemma push_pop_prop c env e h path y it ts t :
  reachable c -> contents c env -> env !! h = Some it -> kids_at it path = Some ts -> env !! y = Some (ITree t) -> h <> y ->
  exists c' c'', step c (OPush e h path y) = Done RUnit c' /\ step c' (OPop e h path y) = Done (RBool true) c'' /\
    reachable c'' /\ contents c'' env /\ m_log (c_mem c'') = m_log (c_mem c).
Proof.
  intros Hr Hc Hh Hk Hy Hne. destruct (push_prop c env e h path y it ts t Hr Hc Hh Hk Hy Hne) as (c' & Hs & Hr' & Hl & Hc').
  set (l := match e with Front => t :: ts | Back => ts ++ [t] end) in *.
  pose proof (pop_prop c' _ e h path y (set_kids it path l) l Hr' Hc') as H.
  rewrite lookup_insert in H. rewrite lookup_insert_ne, lookup_delete in H by done.
  specialize (H eq_refl (kids_set_kids _ _ _ _ Hk) eq_refl).
  assert ((match e with Front => head l | Back => last l end) = Some t /\
    (match e with Front => tail l | Back => removelast l end) = ts) as [H1 H2].
  { subst l. destruct e; simpl; [done|]. by rewrite last_snoc, removelast_last. }
  rewrite H1 in H. destruct H as (c'' & Hs2 & Hr2 & Hl2 & Hc2). exists c', c''. split_and!; [done..| |congruence].
  rewrite H2, set_kids_set_kids, (set_kids_id _ _ _ Hk) in Hc2.
  rewrite insert_insert in Hc2. replace (<[y:=ITree t]> (<[h:=it]> (delete y env))) with env in Hc2; [done|].
  apply map_eq. intros j. destruct (decide (j = y)) as [->|]; [by rewrite lookup_insert|].
  rewrite lookup_insert_ne by done. destruct (decide (j = h)) as [->|]; [by rewrite lookup_insert|].
  by rewrite lookup_insert_ne, lookup_delete_ne.
Qed.

(** node_count of the node itself and of every ancestor grows by the number of nodes added by [prepend]/[append] *)
Lemma concat_count c env e h path path' y it ts fs n c0 :
  reachable c -> contents c env -> env !! h = Some it -> kids_at it (path ++ path') = Some ts -> env !! y = Some (IForest fs) -> h <> y ->
  step c (OCount h path) = Done (RNat n) c0 ->
  exists c' c'', step c (OConcat e h (path ++ path') y) = Done RUnit c' /\ step c' (OCount h path) = Done (RNat (n + nodes_f fs)) c''.
Proof.
  intros Hr Hc Hh Hk Hy Hne Hn. destruct (concat_prop c env e h (path ++ path') y it ts fs Hr Hc Hh Hk Hy Hne) as (c' & Hs & Hr' & _ & Hc').
  pose proof (step_from c env (OCount h path) Hr Hc) as H. cbn [sstep s_env s_log] in H. rewrite Hh in H.
  assert (count_at it path = Some n) as Hcnt.
  { unfold count_at. destruct (kids_at it path).
    - destruct H as (c2 & H & _). rewrite Hn in H. by simplify_eq.
    - destruct H as (c2 & H & _). rewrite Hn in H. by simplify_eq. }
  destruct (count_set_kids it path path' ts (match e with Front => fs ++ ts | Back => ts ++ fs end) n Hk Hcnt) as (n' & Hn' & Hsum).
  pose proof (step_from c' _ (OCount h path) Hr' Hc') as H'. cbn [sstep s_env s_log] in H'. rewrite lookup_insert in H'.
  unfold count_at in Hn'. destruct (kids_at (set_kids _ _ _) path); [|done]. destruct H' as (c3 & H' & _ & _ & _).
  exists c', c3. split; [done|]. rewrite H'. injection Hn' as Hn'. do 2 f_equal. rewrite Hn'.
  destruct e; rewrite nodes_f_app in Hsum; lia.
Qed.

End props.
