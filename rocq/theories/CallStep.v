(** CallStep.v — every program does what its specification says. *)
From stdpp Require Import base gmap list.
From Verif Require Import Spec ClientSpec Machine NodeModel BfsModel ClientModel CallSpec CallModel Sep Rep NodeProofs Inv SpecProofs Abs ClientProofs FromBfs BfsBuild BfsIter BfsMut BfsMap
  ClientRef ClientStep ClientRead ClientProps BfsProps MoveProofs CallBuild CallProofs.

Section reads.
Context {A : Type}.
Lemma reads_pure env (o : op A) : reads o = true -> MoveProofs.pure (cstep env o).
Proof.
  intros Hr. destruct o; try done; unfold cstep, with_node.
  all: destruct (env !! h) as [hd|]; [|apply MoveProofs.pure_ret].
  all: apply MoveProofs.pure_bind; [apply MoveProofs.pure_resolve|intros [p|]; [|apply MoveProofs.pure_ret]].
  all: try (destruct (is_forest_root hd path); [apply MoveProofs.pure_ret|]).
  all: try (destruct e).
  all: apply MoveProofs.pure_bind; [|intros ?].
  all: first [apply MoveProofs.pure_data|apply MoveProofs.pure_degree|apply MoveProofs.pure_node_count|apply MoveProofs.pure_has_no_child|apply MoveProofs.pure_front|apply MoveProofs.pure_back
    |apply MoveProofs.pure_children|apply MoveProofs.pure_parent|apply MoveProofs.pure_bfs_visits|apply MoveProofs.pure_bfs_children_visits|idtac].
  all: try apply MoveProofs.pure_ret.
  all: apply MoveProofs.pure_bind; [|intros ?; apply MoveProofs.pure_ret].
  all: first [apply MoveProofs.pure_data_opt|apply MoveProofs.pure_datas].
Qed.
End reads.

Section step.
Context {A H : Type}.
Implicit Types (F : list (atree A)) (EL E : list (ptr * node A)) (s : mem A) (Wm Bm : gmap nat (atree A)) (senv sbenv : gmap nat (item A)) (env benv : gmap nat handle)
  (R : list nat).
Local Notation vals F := (@ClientRef.vals A F).

Lemma good_ret {X} (a : X) : prog_good (A:=A) (H:=H) (PRet a).
Proof. intros F EL R s env benv senv sbenv Wm Bm HS HI. cbn [sprog cprog]. exists env, s, Wm. done. Qed.

Lemma good_do {X} (o : op A) (k : out A -> prog A H X) : (forall r, prog_good (k r)) -> prog_good (PDo o k).
Proof.
  intros Hk F EL R s env benv senv sbenv Wm Bm HS HI. cbn [sprog cprog s_env s_log]. destruct (reads o) eqn:Hro.
  - destruct (union_RE _ _ _ _ _ _ _ _ _ _ HS HI) as (F2 & _ & HU).
    pose proof (step_ok (F:=F2) (EL:=EL) o (CSt (env ∪ benv) s) (SSt (senv ∪ sbenv) (m_log s))) as Hst.
    specialize (Hst ltac:(by exists (Wm ∪ Bm))). unfold step in Hst. cbn [c_env c_mem] in Hst.
    destruct (sstep _ o) as [[r σ']|].
    + destruct Hst as (c' & Hc & _). destruct (cstep (env ∪ benv) o s) as [[r' env'] s'|] eqn:Ec; [|done]. injection Hc as -> _.
      pose proof (reads_pure _ o Hro _ _ _ Ec) as ->. rewrite (bind_ok _ _ _ _ _ Ec). cbn [fst]. exact (Hk r F EL R s env benv senv sbenv Wm Bm HS HI).
    + destruct (cstep (env ∪ benv) o s) as [[r' env'] s'|e] eqn:Ec; [done|]. injection Hst as ->. by rewrite (bind_err _ _ _ _ Ec).
  - destruct (decide (Forall (is_free R sbenv) (op_names o))) as [Hf|Hf].
    + rewrite decide_True by (eapply Forall_impl; [exact Hf|]; intros x; apply (SEnv_free _ _ _ _ _ _ _ _ _ HS)).
      pose proof (step_ok (F:=F) (EL:=EL) o (CSt env s) (SSt senv (m_log s))) as Hst.
      specialize (Hst ltac:(exists Wm; split; [by eapply SEnv_REnv|done])). unfold step in Hst. cbn [c_env c_mem] in Hst.
      destruct (sstep _ o) as [[r [senv' lg]]|] eqn:Es.
      * destruct Hst as (c' & Hc & (Wm' & HR & Hl)). destruct (cstep env o s) as [[r' env'] s'|] eqn:Ec; [|done]. injection Hc as -> <-. cbn [c_env c_mem s_env s_log] in *.
        rewrite (bind_ok _ _ _ _ _ Ec). cbn [fst snd]. subst lg. destruct HR as [HI' He Hri].
        assert (forall x, is_free R sbenv x \/ senv' !! x = senv !! x) as Hfr.
        { intros x. destruct (decide (x ∈ op_names o)) as [Hx|Hx]; [left; by eapply Forall_forall in Hf|right]. by apply (BfsProps.sstep_frame _ _ _ _ x Es). }
        refine (Hk r F EL R s' env' benv senv' sbenv Wm' Bm _ HI'). destruct HS as [? ? ? ? ? HRn Hdis]. split; try done.
        -- intros x Hx. destruct (Hfr x) as [[? _]|Hq]; [done|]. rewrite Hq. by apply HRn.
        -- intros x Hx. destruct (Hfr x) as [[_ Hn]|Hq]; [rewrite Hn in Hx; by destruct Hx|]. rewrite Hq. by apply Hdis.
      * destruct (cstep env o s) as [[r' env'] s'|e] eqn:Ec; [done|]. injection Hst as ->. by rewrite (bind_err _ _ _ _ Ec).
    + rewrite decide_False. { exact (Hk RBad F EL R s env benv senv sbenv Wm Bm HS HI). } intros Hx. apply Hf. eapply Forall_impl; [exact Hx|]. intros x. apply (SEnv_free _ _ _ _ _ _ _ _ _ HS).
Qed.

(** the iterator with the closure *)
Section closure.
Context {S : Type} (next : S -> M A (option (visit (A:=A)) * S)) (Rs : S -> list (visit (A:=A)) -> list (atree A) -> Prop) (Hend : list (atree A)).
Context (F3 : list (atree A)) (R : list nat) (benv : gmap nat handle) (sbenv : gmap nat (item A)) (Bm : gmap nat (atree A)) (f : H -> A -> prog A H (A * H)).
Context (res : option (H * sst A)).
Hypothesis Hsrc : src_ok next Rs Hend.
Hypothesis Hf : forall st a, prog_good (f st a).
Hypothesis Hsub : forall it ys Hd, Rs it ys Hd -> exists F2, Hd ++ F3 ≡ₚ (map_to_list Bm).*2 ++ F2.

Local Notation scall := (fun st a σ => sprog R sbenv σ (f st a)).
Local Notation ccall := (fun st a env => cprog R benv env (f st a)).

Definition RC (it : S * (H * gmap nat handle)) (ys : list (visit (A:=A))) (W : list (atree A)) (lg : list A) : Prop :=
  exists senv Wm Hd ys0, W ≡ₚ Hd ++ vals F3 Wm /\ SEnv (Hd ++ F3) R it.2.2 benv senv sbenv Wm Bm /\ Rs it.1 ys0 Hd /\
    outcome scall it.2.1 (vd <$> ys0) (SSt senv lg) = res /\ ys = zipd (fdata scall it.2.1 (vd <$> ys0) (SSt senv lg)) ys0.
Definition RCend (it : S * (H * gmap nat handle)) (W : list (atree A)) (lg : list A) : Prop :=
  exists senv Wm Hd0, W ≡ₚ Hend ++ vals F3 Wm /\ SEnv (Hd0 ++ F3) R it.2.2 benv senv sbenv Wm Bm /\ res = Some (it.2.1, SSt senv lg).

Lemma vals_app Hd F Wm : vals (Hd ++ F) Wm ≡ₚ Hd ++ vals F Wm.
Proof. unfold ClientRef.vals. by rewrite Permutation_app_swap_app. Qed.

Lemma SEnv_F F F' env senv Wm : SEnv F R env benv senv sbenv Wm Bm -> (exists F2, F' ≡ₚ (map_to_list Bm).*2 ++ F2) -> SEnv F' R env benv senv sbenv Wm Bm.
Proof. intros [? ? ? ? ? ? ?] ?. by split. Qed.

Lemma call_yields : yieldsL (call_next ccall next) RC RCend (res = None).
Proof.
  intros [it [st env]] ys W E s (senv & Wm & Hd & ys0 & HW & HS & HR & Ho & ->) HI. cbn [fst snd] in *.
  assert (HI0 : MInvX s (Hd ++ vals F3 Wm) E) by (by eapply MInv_perm).
  pose proof (Hsrc _ _ _ _ _ _ HR HI0) as Hn. destruct ys0 as [|[[a dg] ds] ys0].
  - destruct Hn as (it' & s' & Hn & HI' & Hl). right. cbn [zipd fdata zip_with fmap list_fmap]. 
    exists (it', (st, env)), s', (Hend ++ vals F3 Wm). split_and!; [unfold call_next; cbn [fst snd]; by rewrite (bind_ok _ _ _ _ _ Hn)|done|].
    exists senv, Wm, Hd. cbn [fst snd]. split_and!; [done|done|]. rewrite Hl. by rewrite <-Ho.
  - destruct Hn as (it' & s' & Hd' & Hn & HI' & HR' & Hl). rewrite fmap_cons in Ho |- *. change (vd (a, dg, ds)) with a in *.
    assert (HI2 : MInvX s' (vals (Hd' ++ F3) Wm) E) by (eapply MInv_perm; [|exact HI']; by rewrite vals_app).
    assert (HS2 : SEnv (Hd' ++ F3) R env benv senv sbenv Wm Bm) by (eapply SEnv_F; [exact HS|by eapply Hsub]).
    pose proof (Hf st a _ _ _ _ _ _ _ _ _ _ HS2 HI2) as Hp. rewrite Hl in Hp.
    unfold outcome in Ho. cbn [calls] in Ho. cbn [fdata]. 
    destruct (sprog R sbenv (SSt senv (m_log s)) (f st a)) as [[[b st'] σ']|] eqn:Es.
    + destruct Hp as (env' & s2 & Wm' & Hc & HS' & HI3 & Hl3). right. cbn [zipd zip_with fst snd].
      exists (it', (st', env')), s2, (vals (Hd' ++ F3) Wm'). split_and!.
      * unfold call_next. cbn [fst snd]. rewrite (bind_ok _ _ _ _ _ Hn). cbn [fst snd]. by rewrite (bind_ok _ _ _ _ _ Hc).
      * done.
      * exists (s_env σ'), Wm', Hd', ys0. cbn [fst snd]. split_and!; [apply vals_app|done|done| |].
        -- unfold outcome. destruct σ' as [senv' lg']. cbn [s_env s_log] in *. rewrite Hl3.
           destruct (calls scall st' (vd <$> ys0) (SSt senv' lg')) as [[[bs st2] σ2]|] eqn:Ec; exact Ho.
        -- destruct σ' as [senv' lg']. cbn [s_env s_log] in *. by rewrite Hl3.
    + left. split; [|by rewrite <-Ho]. unfold call_next. cbn [fst snd]. rewrite (bind_ok _ _ _ _ _ Hn). cbn [fst snd]. by rewrite (bind_err _ _ _ _ Hp).
Qed.

Lemma build_tree EL s it st env senv Wm Hd (t : tree A) :
  SEnv (Hd ++ F3) R env benv senv sbenv Wm Bm -> MInvX s (Hd ++ vals F3 Wm) EL -> Rs it (visit_of <$> level_order t) Hd ->
  res = outcome scall st (root_of <$> level_order t) (SSt senv (m_log s)) ->
  match calls scall st (root_of <$> level_order t) (SSt senv (m_log s)) with
  | None => tree_from_bfs_st (call_next ccall next) (it, (st, env)) s = Err EPanic
  | Some (l, st', σ') => exists (t' : atree A) it' env' s' Wm' Hd0, tree_from_bfs_st (call_next ccall next) (it, (st, env)) s = Ok (aptr t', (it', (st', env'))) s' /\
      MInvX s' (t' :: Hend ++ vals F3 Wm') EL /\ ri t' (relabel l (ITree t)) /\ SEnv (Hd0 ++ F3) R env' benv (s_env σ') sbenv Wm' Bm /\ m_log s' = s_log σ'
  end.
Proof.
  intros HS HI HR Hres. set (l0 := root_of <$> level_order t) in *.
  set (x := bfs_map (fun n a => default a (fdata scall st l0 (SSt senv (m_log s)) !! n)) t).
  assert (HRC : RC (it, (st, env)) (visit_of <$> level_order x) (Hd ++ vals F3 Wm) (m_log s)).
  { exists senv, Wm, Hd, (visit_of <$> level_order t). cbn [fst snd]. rewrite vd_visits. split_and!; [done|done|done|done|].
    unfold x. apply relabel_tree_visits. rewrite fdata_length. unfold l0. by rewrite fmap_length, level_order_length. }
  destruct (tree_from_bfs_specL _ _ _ _ call_yields EL (it, (st, env)) _ s x _ (qo_level_order x) HRC HI) as [[Hc Hb]|(t' & [it' [st' env']] & s' & W' & Hc & HI' & Hrt & _ & (senv' & Wm' & Hd0 & HW & HS' & He))].
  - rewrite Hres in Hb. unfold outcome in Hb. destruct (calls scall st l0 _) as [[[??]?]|]; done.
  - cbn [fst snd] in *. rewrite Hres in He. unfold outcome in He. destruct (calls scall st l0 _) as [[[l st2] σ2]|] eqn:Ec; [|done]. injection He as -> ->.
    exists t', it', env', s', Wm', Hd0. cbn [s_env s_log]. split_and!; [done| | |done|done].
    + eapply MInv_perm; [|exact HI']. by rewrite HW.
    + cbn [relabel ri]. by rewrite <-(fdata_calls _ _ _ _ _ _ _ Ec).
Qed.
Lemma build_forest EL s it st env senv Wm Hd (ts : list (tree A)) :
  SEnv (Hd ++ F3) R env benv senv sbenv Wm Bm -> MInvX s (Hd ++ vals F3 Wm) EL -> Rs it (visit_of <$> level_order_f ts) Hd ->
  res = outcome scall st (root_of <$> level_order_f ts) (SSt senv (m_log s)) ->
  match calls scall st (root_of <$> level_order_f ts) (SSt senv (m_log s)) with
  | None => forest_from_bfs_st (call_next ccall next) (it, (st, env)) (length ts) (nodes_f ts) s = Err EPanic
  | Some (l, st', σ') => exists (t' : atree A) it' env' s' Wm' Hd0, forest_from_bfs_st (call_next ccall next) (it, (st, env)) (length ts) (nodes_f ts) s = Ok (aptr t', (it', (st', env'))) s' /\
      MInvX s' (t' :: Hend ++ vals F3 Wm') EL /\ ri t' (relabel l (IForest ts)) /\ SEnv (Hd0 ++ F3) R env' benv (s_env σ') sbenv Wm' Bm /\ m_log s' = s_log σ'
  end.
Proof.
  intros HS HI HR Hres. set (l0 := root_of <$> level_order_f ts) in *.
  set (xs := bfs_map_f (fun n a => default a (fdata scall st l0 (SSt senv (m_log s)) !! n)) ts).
  assert (HRC : RC (it, (st, env)) (visit_of <$> level_order_f xs) (Hd ++ vals F3 Wm) (m_log s)).
  { exists senv, Wm, Hd, (visit_of <$> level_order_f ts). cbn [fst snd]. rewrite vd_visits. split_and!; [done|done|done|done|].
    unfold xs. apply relabel_forest_visits. rewrite fdata_length. unfold l0. by rewrite fmap_length, level_order_f_length. }
  assert (Hss : Forall2 same_shape xs ts) by apply pmap_f_ss.
  pose proof (forest_from_bfs_specL _ _ _ _ call_yields EL (it, (st, env)) _ s xs _ (qo_level_order_f xs) HRC HI) as Hcases.
  rewrite (Forall2_length _ _ _ Hss), (ss_nodes_f _ _ Hss) in Hcases.
  destruct Hcases as [[Hc Hb]|(t' & [it' [st' env']] & s' & W' & Hc & HI' & Hrt & _ & (senv' & Wm' & Hd0 & HW & HS' & He))].
  - rewrite Hres in Hb. unfold outcome in Hb. destruct (calls scall st l0 _) as [[[??]?]|]; done.
  - cbn [fst snd] in *. rewrite Hres in He. unfold outcome in He. destruct (calls scall st l0 _) as [[[l st2] σ2]|] eqn:Ec; [|done]. injection He as -> ->.
    exists t', it', env', s', Wm', Hd0. cbn [s_env s_log]. split_and!; [done| | |done|done].
    + eapply MInv_perm; [|exact HI']. by rewrite HW.
    + unfold xs in Hrt. rewrite (fdata_calls _ _ _ _ _ _ _ Ec) in Hrt. exact Hrt.
Qed.
End closure.

(** a borrow begins *)
Lemma SEnv_borrow F EL R s env benv senv sbenv Wm Bm (h x : nat) it : SEnv F R env benv senv sbenv Wm Bm -> MInvX s (vals F Wm) EL ->
  is_free R sbenv x -> senv !! x = None -> (senv ∪ sbenv) !! h = Some it ->
  exists th F3, ri th it /\ (env ∪ benv) !! h = Some (hof th) /\ (Wm ∪ Bm) !! h = Some th /\
    SEnv ([th] ++ F3) (x :: R) (delete h env) (<[h := hof th]> benv) (delete h senv) (<[h := it]> sbenv) (delete h Wm) (<[h := th]> Bm) /\
    vals F Wm ≡ₚ [th] ++ vals F3 (delete h Wm) /\
    (forall Hd0 env' senv' Wm' (t' : atree A) it', SEnv (Hd0 ++ F3) (x :: R) env' (<[h := hof th]> benv) senv' (<[h := it]> sbenv) Wm' (<[h := th]> Bm) -> ri t' it' ->
       SEnv F R (<[x := hof t']> (give_back env h env')) benv (<[x := it']> (match senv !! h with Some it => <[h := it]> senv' | None => senv' end)) sbenv
            (<[x := t']> (match Wm !! h with Some th => <[h := th]> Wm' | None => Wm' end)) Bm /\
       t' :: [th] ++ vals F3 Wm' ≡ₚ vals F (<[x := t']> (match Wm !! h with Some th => <[h := th]> Wm' | None => Wm' end))).
Proof.
  intros HS HI [HxR Hxb] Hxs Hu. pose proof (SEnv_disj _ _ _ _ _ _ _ _ HS) as Hdj.
  destruct (union_RE _ _ _ _ _ _ _ _ _ _ HS HI) as (F2 & HF & HU).
  pose proof (RE_lookup _ _ _ _ h HU) as Hlk. rewrite Hu in Hlk. destruct Hlk as (th & Ht & Hri & He & _).
  assert (Hsplit : (Wm !! h = Some th /\ senv !! h = Some it /\ env !! h = Some (hof th) /\ Bm !! h = None /\ sbenv !! h = None) \/
                   (Wm !! h = None /\ senv !! h = None /\ env !! h = None /\ Bm !! h = Some th /\ sbenv !! h = Some it)).
  { destruct (SEnv_dom _ _ _ _ _ _ _ _ h HS) as (D1 & D2 & D3 & D4). destruct (Wm !! h) as [t|] eqn:Hw.
    - left. rewrite lookup_union_l' in Ht by eauto. rewrite Hw in Ht. injection Ht as ->.
      destruct (senv !! h) as [it2|] eqn:E; [|by discriminate (proj2 D3 eq_refl)]. rewrite lookup_union_l' in Hu by eauto. rewrite E in Hu. injection Hu as ->.
      assert (sbenv !! h = None) as Hsb. { destruct (sbenv !! h) eqn:E2; [|done]. rewrite (se_dis _ _ _ _ _ _ _ _ HS h) in E; [done|eauto]. }
      split_and!; [done|done| |tauto|done]. by rewrite (se_env _ _ _ _ _ _ _ _ HS), lookup_fmap, Hw.
    - right. assert (senv !! h = None) as Hs by tauto. rewrite lookup_union_r in Ht by done. rewrite lookup_union_r in Hu by done. split_and!; tauto. }
  exists th. destruct Hsplit as [(Hw & Hs & Hev & Hb & Hsb)|(Hw & Hs & Hev & Hb & Hsb)].
  - exists F. split_and!; [done|done|done| | |].
    + destruct HS as [? ? ? ? ? HRn Hdis]. split.
      * by subst env; rewrite fmap_delete.
      * intros k. destruct (decide (h = k)) as [->|]; [rewrite !lookup_delete; constructor|by rewrite !lookup_delete_ne].
      * by subst benv; rewrite fmap_insert.
      * intros k. destruct (decide (h = k)) as [->|]; [rewrite !lookup_insert; by constructor|by rewrite !lookup_insert_ne].
      * exists F2. rewrite map_to_list_insert by done. cbn. by rewrite HF.
      * intros y [->|Hy]%elem_of_cons; apply lookup_delete_None; [by right|right; by apply HRn].
      * intros k Hk. apply lookup_delete_None. destruct (decide (h = k)) as [->|]; [by left|right]. rewrite lookup_insert_ne in Hk by done. by apply Hdis.
    + cbn [app]. by rewrite vals_delete.
    + intros Hd0 env' senv' Wm' t' it' HS' Hri'. rewrite Hs, Hw. unfold give_back. rewrite Hev.
      assert (x <> h) as Hne by (intros ->; congruence).
      assert (Wm' !! h = None) as Hwh. { apply (SEnv_dom _ _ _ _ _ _ _ _ _ HS'). apply (se_dis _ _ _ _ _ _ _ _ HS'). rewrite lookup_insert. eauto. }
      assert (Wm' !! x = None) as Hwx. { apply (SEnv_dom _ _ _ _ _ _ _ _ _ HS'). apply (se_R _ _ _ _ _ _ _ _ HS'). left. }
      split.
      * destruct HS as [? ? ? ? ? HRn Hdis], HS' as [? Hri2 ? ? ? HRn' Hdis']. split.
        -- subst env'. by rewrite !fmap_insert.
        -- intros k. destruct (decide (x = k)) as [->|]; [rewrite !lookup_insert; by constructor|]. rewrite !(lookup_insert_ne _ x) by done.
           destruct (decide (h = k)) as [->|]; [rewrite !lookup_insert; by constructor|]. by rewrite !lookup_insert_ne.
        -- done.
        -- done.
        -- done.
        -- intros y Hy. rewrite lookup_insert_ne by congruence. rewrite lookup_insert_ne by (intros ->; rewrite HRn in Hs; done). apply HRn'. by right.
        -- intros k Hk. rewrite lookup_insert_ne by (intros ->; rewrite Hxb in Hk; by destruct Hk). rewrite lookup_insert_ne by (intros ->; rewrite Hsb in Hk; by destruct Hk).
           apply Hdis'. rewrite lookup_insert_ne; [done|]. intros ->. rewrite Hsb in Hk; by destruct Hk.
      * cbn [app]. rewrite vals_insert by (by rewrite lookup_insert_ne). by rewrite vals_insert.
  - assert (exists F3, F ≡ₚ th :: F3 /\ F3 ≡ₚ (map_to_list (delete h Bm)).*2 ++ F2) as (F3 & HF3 & HF4).
    { exists ((map_to_list (delete h Bm)).*2 ++ F2). split; [|done]. rewrite HF. rewrite <-(map_to_list_delete Bm h th Hb). done. }
    exists F3. rewrite (delete_notin Wm h Hw), (delete_notin senv h Hs), (delete_notin env h Hev).
    assert (<[h := hof th]> benv = benv) as -> by (apply insert_id; by rewrite (se_benv _ _ _ _ _ _ _ _ HS), lookup_fmap, Hb).
    rewrite (insert_id sbenv h it Hsb), (insert_id Bm h th Hb).
    split_and!; [done|done|done| | |].
    + destruct HS as [? ? ? ? ? HRn Hdis]. split; try done.
      * exists F2. cbn [app]. by rewrite <-HF3, HF.
      * intros y [->|Hy]%elem_of_cons; [done|by apply HRn].
    + unfold ClientRef.vals. rewrite HF3. cbn [app]. by rewrite Permutation_middle.
    + intros Hd0 env' senv' Wm' t' it' HS' Hri'. rewrite Hs, Hw. unfold give_back. rewrite Hev.
      assert (Wm' !! x = None) as Hwx. { apply (SEnv_dom _ _ _ _ _ _ _ _ _ HS'). apply (se_R _ _ _ _ _ _ _ _ HS'). left. }
      split.
      * destruct HS as [? ? ? ? ? HRn Hdis], HS' as [? Hri2 ? ? ? HRn' Hdis']. split; try done.
        -- subst env'. by rewrite !fmap_insert.
        -- intros k. destruct (decide (x = k)) as [->|]; [rewrite !lookup_insert; by constructor|]. by rewrite !(lookup_insert_ne _ x) by done.
        -- intros y Hy. rewrite lookup_insert_ne by congruence. apply HRn'. by right.
        -- intros k Hk. rewrite lookup_insert_ne by (intros ->; rewrite Hxb in Hk; by destruct Hk). by apply Hdis'.
      * rewrite vals_insert by done. cbn [app]. unfold ClientRef.vals. rewrite HF3. by rewrite <-Permutation_middle.
Qed.

Lemma SEnv_lookup F EL R s env benv senv sbenv Wm Bm h : SEnv F R env benv senv sbenv Wm Bm -> MInvX s (vals F Wm) EL -> (senv ∪ sbenv) !! h = None -> (env ∪ benv) !! h = None.
Proof.
  intros HS HI Hu. destruct (union_RE _ _ _ _ _ _ _ _ _ _ HS HI) as (F2 & HF & HU). pose proof (RE_lookup _ _ _ _ h HU) as Hlk. rewrite Hu in Hlk. by destruct Hlk.
Qed.

Lemma Hsub_sp (th : atree A) F3 R env benv senv sbenv Wm Bm : SEnv ([th] ++ F3) R env benv senv sbenv Wm Bm ->
  forall it ys Hd, Rsp1 [th] it ys Hd -> exists F2, Hd ++ F3 ≡ₚ (map_to_list Bm).*2 ++ F2.
Proof. intros HS it ys Hd [-> _]. exact (se_sub _ _ _ _ _ _ _ _ HS). Qed.
Lemma Hsub_any F R env benv senv sbenv Wm Bm : SEnv F R env benv senv sbenv Wm Bm ->
  forall (Hd : list (atree A)), exists F2, Hd ++ F ≡ₚ (map_to_list Bm).*2 ++ F2.
Proof. intros HS Hd. destruct (se_sub _ _ _ _ _ _ _ _ HS) as [F2 HF]. exists (Hd ++ F2). rewrite HF. by rewrite Permutation_app_swap_app. Qed.

Lemma good_map_node {X} h path x st (f : H -> A -> prog A H (A * H)) (k : option H -> prog A H X) :
  (forall st a, prog_good (f st a)) -> (forall o, prog_good (k o)) -> prog_good (PMap (SNode h path) x st f k).
Proof.
  intros Hf Hk F EL R s env benv senv sbenv Wm Bm HS HI. cbn [sprog cprog s_env s_log open_source close_source].
  pose proof (Hk None F EL R s env benv senv sbenv Wm Bm HS HI) as Hnone.
  destruct (decide (is_free R sbenv x /\ senv !! x = None)) as [[Hfr Hx]|Hnf].
  2:{ rewrite decide_False; [exact Hnone|]. intros [Hfc He]. apply Hnf. split; [by apply (SEnv_free _ _ _ _ _ _ _ _ _ HS)|]. by apply (proj1 (SEnv_dom _ _ _ _ _ _ _ _ x HS)). }
  rewrite decide_True by (split; [by apply (SEnv_free _ _ _ _ _ _ _ _ _ HS)|by apply (proj1 (SEnv_dom _ _ _ _ _ _ _ _ x HS))]).
  destruct ((senv ∪ sbenv) !! h) as [it|] eqn:Hu.
  2:{ rewrite (SEnv_lookup _ _ _ _ _ _ _ _ _ _ _ HS HI Hu). exact Hnone. }
  destruct (SEnv_borrow _ _ _ _ _ _ _ _ _ _ h x it HS HI Hfr Hx Hu) as (th & F3 & Hri & He & Ht & HS1 & Hperm & Hfin). rewrite He.
  destruct (union_RE _ _ _ _ _ _ _ _ _ _ HS HI) as (F2 & HF & HU). pose proof (RE_locate _ _ _ _ _ _ _ path HU Ht Hri) as HL.
  destruct (kids_at it path) as [xs|].
  2:{ destruct HL as [Hres Hn]. rewrite Hn. destruct (is_forest_root (hof th) path); [exact Hnone|]. rewrite (bind_ok _ _ _ _ _ Hres). exact Hnone. }
  destruct HL as (C & p & pl & v & ks & Hth & _ & Hres & HIp & Hks & _ & Hn & _ & Hroot). rewrite Hn, Hroot. destruct v as [a|]; [|exact Hnone].
  rewrite (bind_ok _ _ _ _ _ Hres). clear Hn Hres Hroot.
  assert (Hloc : located [th] C (AN p pl (Some a) ks)) by (exists []; by rewrite Hth).
  assert (HI1 : MInvX s ([th] ++ vals F3 (delete h Wm)) EL) by (by eapply MInv_perm).
  assert (exists sz, bfs p s = Ok ([ci_once p], sz) s) as [sz Hbfs].
  { unfold bfs, bind, get. rewrite (lookup_at _ _ _ _ _ _ _ _ HIp). eexists. done. }
  rewrite (bind_ok _ _ _ _ _ Hbfs). cbn [fst item_level_order].
  pose proof (build_tree sp_next (Rsp1 [th]) [th] F3 (x :: R) (<[h := hof th]> benv) (<[h := it]> sbenv) (<[h := th]> Bm) f
    (outcome (fun st a σ => sprog (x :: R) (<[h := it]> sbenv) σ (f st a)) st (root_of <$> level_order (Tr a xs)) (SSt (delete h senv) (m_log s)))
    (sp_src [th]) Hf (Hsub_sp _ _ _ _ _ _ _ _ _ HS1) EL s [ci_once p] st (delete h env) (delete h senv) (delete h Wm) [th] (Tr a xs) HS1 HI1) as Hb.
  specialize (Hb ltac:(eapply (Rsp1_tree [th] C (AN p pl (Some a) ks)); [exact Hloc|by constructor]) eq_refl).
  destruct (calls _ st (root_of <$> level_order (Tr a xs)) _) as [[[l st'] σ']|].
  - destruct Hb as (t' & it' & env' & s' & Wm' & Hd0 & Hc & HI' & Hrt & HS' & Hl'). rewrite (bind_ok _ _ _ _ _ Hc). cbn [fst snd].
    destruct (Hfin Hd0 env' (s_env σ') Wm' t' (relabel l (ITree (Tr a xs))) HS' Hrt) as [HSf Hpf].
    rewrite <-Hl'. rewrite <-(hof_T t' _ Hrt). apply (Hk (Some st') F EL R s' _ benv _ sbenv _ Bm HSf). eapply MInv_perm; [|exact HI']. exact Hpf.
  - by rewrite (bind_err _ _ _ _ Hb).
Qed.

Lemma good_map_kids {X} h path x st (f : H -> A -> prog A H (A * H)) (k : option H -> prog A H X) :
  (forall st a, prog_good (f st a)) -> (forall o, prog_good (k o)) -> prog_good (PMap (SKids h path) x st f k).
Proof.
  intros Hf Hk F EL R s env benv senv sbenv Wm Bm HS HI. cbn [sprog cprog s_env s_log open_source close_source].
  pose proof (Hk None F EL R s env benv senv sbenv Wm Bm HS HI) as Hnone.
  destruct (decide (is_free R sbenv x /\ senv !! x = None)) as [[Hfr Hx]|Hnf].
  2:{ rewrite decide_False; [exact Hnone|]. intros [Hfc He]. apply Hnf. split; [by apply (SEnv_free _ _ _ _ _ _ _ _ _ HS)|]. by apply (proj1 (SEnv_dom _ _ _ _ _ _ _ _ x HS)). }
  rewrite decide_True by (split; [by apply (SEnv_free _ _ _ _ _ _ _ _ _ HS)|by apply (proj1 (SEnv_dom _ _ _ _ _ _ _ _ x HS))]).
  destruct ((senv ∪ sbenv) !! h) as [it|] eqn:Hu.
  2:{ rewrite (SEnv_lookup _ _ _ _ _ _ _ _ _ _ _ HS HI Hu). exact Hnone. }
  destruct (SEnv_borrow _ _ _ _ _ _ _ _ _ _ h x it HS HI Hfr Hx Hu) as (th & F3 & Hri & He & Ht & HS1 & Hperm & Hfin). rewrite He.
  destruct (union_RE _ _ _ _ _ _ _ _ _ _ HS HI) as (F2 & HF & HU). pose proof (RE_locate _ _ _ _ _ _ _ path HU Ht Hri) as HL.
  destruct (kids_at it path) as [xs|].
  2:{ destruct HL as [Hres Hn]. rewrite (bind_ok _ _ _ _ _ Hres). exact Hnone. }
  destruct HL as (C & p & pl & v & ks & Hth & _ & Hres & HIp & Hks & _ & Hn & _ & Hroot).
  rewrite (bind_ok _ _ _ _ _ Hres). clear Hn Hres Hroot.
  assert (Hloc : located [th] C (AN p pl v ks)) by (exists []; by rewrite Hth).
  assert (HI1 : MInvX s ([th] ++ vals F3 (delete h Wm)) EL) by (by eapply MInv_perm).
  destruct (crel_iterV _ _ _ _ _ _ _ _ _ Hloc HI1) as (it0 & Hit & Hcr).
  assert (bfs_children p s = Ok ([it0], (length xs, nodes_f xs)) s) as Hbfs.
  { unfold bfs_children. rewrite (bind_ok _ _ _ _ _ Hit). unfold bind, get. rewrite (lookup_at _ _ _ _ _ _ _ _ HIp). cbn [ret mk n_deg n_desc].
    by rewrite (Forall2_length _ _ _ Hks), (rts_cnts _ _ Hks). }
  rewrite (bind_ok _ _ _ _ _ Hbfs). cbn [fst snd item_level_order].
  pose proof (build_forest sp_next (Rsp1 [th]) [th] F3 (x :: R) (<[h := hof th]> benv) (<[h := it]> sbenv) (<[h := th]> Bm) f
    (outcome (fun st a σ => sprog (x :: R) (<[h := it]> sbenv) σ (f st a)) st (root_of <$> level_order_f xs) (SSt (delete h senv) (m_log s)))
    (sp_src [th]) Hf (Hsub_sp _ _ _ _ _ _ _ _ _ HS1) EL s [it0] st (delete h env) (delete h senv) (delete h Wm) [th] xs HS1 HI1) as Hb.
  specialize (Hb ltac:(by eapply Rsp1_kids) eq_refl).
  destruct (calls _ st (root_of <$> level_order_f xs) _) as [[[l st'] σ']|].
  - destruct Hb as (t' & it' & env' & s' & Wm' & Hd0 & Hc & HI' & Hrt & HS' & Hl'). rewrite (bind_ok _ _ _ _ _ Hc). cbn [fst snd].
    destruct (Hfin Hd0 env' (s_env σ') Wm' t' (relabel l (IForest xs)) HS' Hrt) as [HSf Hpf].
    rewrite <-Hl'. rewrite <-(hof_F t' _ Hrt). apply (Hk (Some st') F EL R s' _ benv _ sbenv _ Bm HSf). eapply MInv_perm; [|exact HI']. exact Hpf.
  - by rewrite (bind_err _ _ _ _ Hb).
Qed.

(** an owning iterator: the tree is the iterator's *)
Lemma SEnv_take F R env benv senv sbenv Wm Bm (h x : nat) Hd : SEnv F R env benv senv sbenv Wm Bm ->
  senv !! x = None -> SEnv (Hd ++ F) (x :: R) (delete h env) benv (delete h senv) sbenv (delete h Wm) Bm.
Proof.
  intros HS Hxs. pose proof (Hsub_any _ _ _ _ _ _ _ _ HS Hd) as Hsub. destruct HS as [? ? ? ? ? HRn Hdis]. split.
  - by subst env; rewrite fmap_delete.
  - intros j. destruct (decide (h = j)) as [->|]; [rewrite !lookup_delete; constructor|by rewrite !lookup_delete_ne].
  - done.
  - done.
  - done.
  - intros y [->|Hy]%elem_of_cons; apply lookup_delete_None; [by right|right; by apply HRn].
  - intros j Hj. apply lookup_delete_None. right. by apply Hdis.
Qed.
Lemma SEnv_new F Hd0 R env benv senv sbenv Wm Bm env0 senv0 Wm0 (x : nat) t' it' : SEnv F R env0 benv senv0 sbenv Wm0 Bm -> is_free R sbenv x ->
  SEnv (Hd0 ++ F) (x :: R) env benv senv sbenv Wm Bm -> ri t' it' ->
  SEnv F R (<[x := hof t']> env) benv (<[x := it']> senv) sbenv (<[x := t']> Wm) Bm /\ t' :: vals F Wm ≡ₚ vals F (<[x := t']> Wm).
Proof.
  intros HS [HxR Hxb] HS' Hri'.
  assert (Wm !! x = None) as Hwx. { apply (SEnv_dom _ _ _ _ _ _ _ _ _ HS'). apply (se_R _ _ _ _ _ _ _ _ HS'). left. }
  split; [|by rewrite vals_insert]. destruct HS as [_ _ _ _ ? _ _], HS' as [? Hri2 ? ? _ HRn' Hdis']. split; try done.
  - subst env. by rewrite !fmap_insert.
  - intros j. destruct (decide (x = j)) as [->|]; [rewrite !lookup_insert; by constructor|]. by rewrite !(lookup_insert_ne _ x) by done.
  - intros y Hy. rewrite lookup_insert_ne by congruence. apply HRn'. by right.
  - intros j Hj. rewrite lookup_insert_ne by (intros ->; rewrite Hxb in Hj; by destruct Hj). by apply Hdis'.
Qed.

Lemma good_map_into {X} h x st (f : H -> A -> prog A H (A * H)) (k : option H -> prog A H X) :
  (forall st a, prog_good (f st a)) -> (forall o, prog_good (k o)) -> prog_good (PMap (SInto h) x st f k).
Proof.
  intros Hf Hk F EL R s env benv senv sbenv Wm Bm HS HI. cbn [sprog cprog s_env s_log open_source close_source].
  pose proof (Hk None F EL R s env benv senv sbenv Wm Bm HS HI) as Hnone.
  destruct (decide (is_free R sbenv x /\ senv !! x = None)) as [[Hfr Hx]|Hnf].
  2:{ rewrite decide_False; [exact Hnone|]. intros [Hfc He]. apply Hnf. split; [by apply (SEnv_free _ _ _ _ _ _ _ _ _ HS)|]. by apply (proj1 (SEnv_dom _ _ _ _ _ _ _ _ x HS)). }
  rewrite decide_True by (split; [by apply (SEnv_free _ _ _ _ _ _ _ _ _ HS)|by apply (proj1 (SEnv_dom _ _ _ _ _ _ _ _ x HS))]).
  pose proof (SEnv_REnv _ _ _ _ _ _ _ _ _ _ HS HI) as HR. pose proof (RE_lookup _ _ _ _ h HR) as Hlk.
  destruct (senv !! h) as [it|] eqn:Hs.
  2:{ destruct Hlk as [_ ->]. exact Hnone. }
  destruct Hlk as (t & Ht & Hri & -> & Hho). rewrite Hho. pose proof (RE_inv _ _ _ _ _ _ HR Ht) as HIt.
  destruct it as [y|ys]; cbn [item_level_order].
  - destruct (tree_into_bfs_spec _ _ _ _ _ Hri HIt) as (q & fs & s1 & W1 & Hb1 & HI1 & (Hq & HW1 & Hv1) & Hak & Hl1). rewrite (bind_ok _ _ _ _ _ Hb1). cbn [fst snd].
    assert (HI2 : MInvX s1 (fs ++ vals F (delete h Wm)) EL) by (by eapply MInv_perm).
    pose proof (SEnv_take _ _ _ _ _ _ _ _ h x fs HS Hx) as HS1.
    pose proof (build_tree isp_next Risp1 [] F (x :: R) benv sbenv Bm f
      (outcome (fun st a σ => sprog (x :: R) sbenv σ (f st a)) st (root_of <$> level_order y) (SSt (delete h senv) (m_log s1)))
      isp_src Hf (fun _ _ Hd _ => Hsub_any _ _ _ _ _ _ _ _ HS Hd) EL s1 q st (delete h env) (delete h senv) (delete h Wm) fs y HS1 HI2) as Hb.
    specialize (Hb ltac:(split_and!; [done|done|]; exists [y], (level_order y); rewrite Hak; split_and!; [by repeat constructor|apply qo_level_order|done]) eq_refl).
    rewrite <-Hl1. destruct (calls _ st (root_of <$> level_order y) _) as [[[l st'] σ']|].
    + destruct Hb as (t' & it' & env' & s' & Wm' & Hd0 & Hc & HI' & Hrt & HS' & Hl'). rewrite (bind_ok _ _ _ _ _ Hc). cbn [fst snd].
      destruct (SEnv_new _ _ _ _ _ _ _ _ _ _ _ _ x t' (relabel l (ITree y)) HS Hfr HS' Hrt) as [HSf Hpf].
      rewrite <-Hl'. rewrite <-(hof_T t' _ Hrt). apply (Hk (Some st') F EL R s' _ benv _ sbenv _ Bm HSf). eapply MInv_perm; [|exact HI']. exact Hpf.
    + by rewrite (bind_err _ _ _ _ Hb).
  - destruct (forest_into_bfs_spec _ _ _ _ _ Hri HIt) as (q & fs & Hb1 & (Hq & HW1 & Hv1) & Hak). rewrite (bind_ok _ _ _ _ _ Hb1). cbn [fst snd].
    assert (HI2 : MInvX s (fs ++ vals F (delete h Wm)) EL) by (by eapply MInv_perm).
    pose proof (SEnv_take _ _ _ _ _ _ _ _ h x fs HS Hx) as HS1.
    pose proof (build_forest isp_next Risp1 [] F (x :: R) benv sbenv Bm f
      (outcome (fun st a σ => sprog (x :: R) sbenv σ (f st a)) st (root_of <$> level_order_f ys) (SSt (delete h senv) (m_log s)))
      isp_src Hf (fun _ _ Hd _ => Hsub_any _ _ _ _ _ _ _ _ HS Hd) EL s q st (delete h env) (delete h senv) (delete h Wm) fs ys HS1 HI2) as Hb.
    specialize (Hb ltac:(split_and!; [done|done|]; exists ys, (level_order_f ys); rewrite Hak; split_and!; [destruct t; by apply Hri|apply qo_level_order_f|done]) eq_refl).
    destruct (calls _ st (root_of <$> level_order_f ys) _) as [[[l st'] σ']|].
    + destruct Hb as (t' & it' & env' & s' & Wm' & Hd0 & Hc & HI' & Hrt & HS' & Hl'). rewrite (bind_ok _ _ _ _ _ Hc). cbn [fst snd].
      destruct (SEnv_new _ _ _ _ _ _ _ _ _ _ _ _ x t' (relabel l (IForest ys)) HS Hfr HS' Hrt) as [HSf Hpf].
      rewrite <-Hl'. rewrite <-(hof_F t' _ Hrt). apply (Hk (Some st') F EL R s' _ benv _ sbenv _ Bm HSf). eapply MInv_perm; [|exact HI']. exact Hpf.
    + by rewrite (bind_err _ _ _ _ Hb).
Qed.

Theorem prog_ok {X} (p : prog A H X) : prog_good p.
Proof.
  revert X p. fix IH 2. intros X [a|o k|src x st f k].
  - apply good_ret.
  - apply good_do. intros r. apply IH.
  - destruct src as [h path|h path|h]; [apply good_map_node|apply good_map_kids|apply good_map_into]; intros; apply IH.
Qed.
End step.
