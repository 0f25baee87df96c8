(** CallProofs.v — programs with closures that use the library: the sources of visits, the iterator with the closure. *)
From stdpp Require Import base gmap list.
From Verif Require Import Spec ClientSpec Machine NodeModel BfsModel ClientModel CallSpec CallModel Sep Rep NodeProofs Inv SpecProofs Abs ClientProofs FromBfs BfsBuild BfsIter BfsMut BfsMap
  ClientRef ClientStep ClientRead ClientProps BfsProps CallBuild.

Section lists.
Context {A : Type}.
Definition vd (y : visit (A:=A)) : A := y.1.1.
(** visits with their data replaced *)
Definition zipd (l : list A) (ys : list (visit (A:=A))) : list (visit (A:=A)) := zip_with (fun b y => (b, y.1.2, y.2)) l ys.

Lemma vd_visits (ts : list (tree A)) : vd <$> (visit_of <$> ts) = root_of <$> ts.
Proof. rewrite <-list_fmap_compose. apply list_fmap_ext. by intros ? [? ?]. Qed.
Lemma imap_default (l xs : list A) : length l = length xs -> imap (fun n a => default a (l !! n)) xs = l.
Proof.
  intros Hl. apply list_eq. intros i. rewrite list_lookup_imap. destruct (xs !! i) as [a|] eqn:E; simpl.
  - destruct (l !! i) as [b|] eqn:E2; [done|]. apply lookup_ge_None in E2. apply lookup_lt_Some in E. lia.
  - symmetry. apply lookup_ge_None. rewrite Hl. by apply lookup_ge_None.
Qed.
Lemma zipd_spec (us : list (tree A)) : forall (ts : list (tree A)) l, (fun u => (length (kids u), nodes_f (kids u))) <$> us = (fun t => (length (kids t), nodes_f (kids t))) <$> ts ->
  root_of <$> us = l -> visit_of <$> us = zipd l (visit_of <$> ts).
Proof.
  induction us as [|u us IH]; intros [|t ts] l H1 <-; try done. cbn in H1. injection H1 as Ha Hb H1. cbn [fmap list_fmap zipd zip_with].
  unfold zipd in IH. rewrite (IH ts _ H1 eq_refl). unfold visit_of. cbn [fst snd]. by rewrite Ha, Hb.
Qed.
Lemma relabel_tree_visits l (t : tree A) : length l = nodes t -> visit_of <$> level_order (bfs_map (fun n a => default a (l !! n)) t) = zipd l (visit_of <$> level_order t).
Proof.
  intros Hl. apply zipd_spec; [apply ss_sizes, ss_level_order, pmap_ss|]. rewrite bfs_map_values, imap_default; [done|].
  by rewrite fmap_length, level_order_length.
Qed.
Lemma relabel_forest_visits l (ts : list (tree A)) : length l = nodes_f ts -> visit_of <$> level_order_f (bfs_map_f (fun n a => default a (l !! n)) ts) = zipd l (visit_of <$> level_order_f ts).
Proof.
  intros Hl. apply zipd_spec; [apply ss_sizes, ss_level_order_f, pmap_f_ss|]. rewrite bfs_map_f_values, imap_default; [done|].
  by rewrite fmap_length, level_order_f_length.
Qed.
End lists.

Section fdata.
Context {A H : Type} (call : H -> A -> sst A -> option (A * H * sst A)).
(** the values returned, up to a panic; then the original ones *)
Fixpoint fdata (st : H) (l : list A) (σ : sst A) : list A :=
  match l with
  | [] => []
  | a :: l' => match call st a σ with Some (b, st', σ') => b :: fdata st' l' σ' | None => a :: l' end
  end.
Lemma fdata_length l : forall st σ, length (fdata st l σ) = length l.
Proof. induction l as [|a l IH]; intros st σ; [done|]. simpl. destruct (call st a σ) as [[[b st'] σ']|]; simpl; [by rewrite IH|done]. Qed.
Lemma fdata_calls l : forall st σ bs st' σ', calls call st l σ = Some (bs, st', σ') -> fdata st l σ = bs.
Proof.
  induction l as [|a l IH]; intros st σ bs st' σ' Hc; simpl in *; [by simplify_eq|]. destruct (call st a σ) as [[[b st1] σ1]|]; [|done].
  destruct (calls call st1 l σ1) as [[[bs1 st2] σ2]|] eqn:E; [|done]. simplify_eq. f_equal. by eapply IH.
Qed.
Definition outcome (st : H) (l : list A) (σ : sst A) : option (H * sst A) :=
  match calls call st l σ with Some (_, st', σ') => Some (st', σ') | None => None end.
End fdata.

(** * The sources *)
Section sources.
Context {A : Type}.
Implicit Types (W V : list (atree A)) (s : mem A) (E : list (ptr * node A)) (t th : atree A) (ks : list (atree A)).

(** [Rs it ys Hd]: the iterator still gives [ys] and depends on the trees [Hd] *)
Definition src_ok {S} (next : S -> M A (option (visit (A:=A)) * S)) (Rs : S -> list (visit (A:=A)) -> list (atree A) -> Prop) (Hend : list (atree A)) : Prop :=
  forall it ys Hd W0 E s, Rs it ys Hd -> MInvX s (Hd ++ W0) E ->
  match ys with
  | [] => exists it' s', next it s = Ok (None, it') s' /\ MInvX s' (Hend ++ W0) E /\ m_log s' = m_log s
  | y :: ys' => exists it' s' Hd', next it s = Ok (Some y, it') s' /\ MInvX s' (Hd' ++ W0) E /\ Rs it' ys' Hd' /\ m_log s' = m_log s
  end.

Lemma located_weaken V W0 C t : located V C t -> located (V ++ W0) C t.
Proof. intros [W' HW]. exists (W' ++ W0). by rewrite HW. Qed.
Lemma chain_weaken V W0 ks : chain V ks -> chain (V ++ W0) ks.
Proof. intros Hc. induction Hc as [|C k ks Hl Hn _ IH]; [constructor|]. econstructor; [by apply located_weaken|done|done]. Qed.
Lemma crel_weaken V W0 it ks : crel V it ks -> crel (V ++ W0) it ks.
Proof. intros [? ? ?]. split; [done|done|by apply chain_weaken]. Qed.

Lemma crel_consV V W0 E it k ks s : crel V it (k :: ks) -> MInvX s (V ++ W0) E ->
  exists it', ci_next it s = Ok (Some (aptr k), it') s /\ crel V it' ks.
Proof.
  intros [Hl Hc Hch] HI. inversion Hch as [|C ? ? Hloc Hn Hch']; subst. destruct k as [p pl v kk].
  eexists. split.
  - unfold ci_next. rewrite Hl. cbn [length]. rewrite Hc by done. cbn [hdp aptr]. unfold bind, get.
    rewrite (located_get _ _ _ _ _ _ _ _ (located_weaken _ W0 _ _ Hloc) HI). cbn [mk n_next]. done.
  - split; cbn [ci_len ci_curr]; [done|done|done].
Qed.
Lemma crel_iterV V W0 E C p pl v ks s : located V C (AN p pl v ks) -> MInvX s (V ++ W0) E ->
  exists it, iter p s = Ok it s /\ crel V it ks.
Proof.
  intros Hloc HI. unfold iter, bind, get. rewrite (located_get _ _ _ _ _ _ _ _ (located_weaken _ W0 _ _ Hloc) HI). cbn [mk n_head n_deg].
  eexists. split; [done|]. pose proof (chain_kids _ _ _ _ _ _ Hloc). destruct ks; (split; [done|done|done]).
Qed.
Lemma sp_next_node_someV V W0 E s q qs p pl a ks rest : Forall2 (crel V) q qs -> MInvX s (V ++ W0) E ->
  concat qs = AN p pl (Some a) ks :: rest ->
  exists q' qs', sp_next_node q s = Ok (Some (p, length ks, cnts ks), q') s /\ Forall2 (crel V) q' qs' /\ concat qs' = rest ++ ks.
Proof.
  intros H HI Hc. induction H as [|it ks1 q qs Hr H IH]; [done|]. cbn [concat] in Hc. cbn [sp_next_node]. destruct ks1 as [|k ks1].
  - unfold bind at 1. rewrite (crel_nil _ _ s Hr). cbn [fst snd]. by apply IH.
  - simpl in Hc. injection Hc as -> Hc. destruct (crel_consV _ _ _ _ _ _ _ Hr HI) as (it' & Hn & Hr').
    unfold bind at 1. rewrite Hn. cbn [fst snd aptr].
    destruct (chain_located V (AN p pl (Some a) ks :: ks1) (AN p pl (Some a) ks)) as [C Hloc]; [apply Hr|left|].
    pose proof (located_weaken _ W0 _ _ Hloc) as Hloc2.
    unfold bind at 1. rewrite (located_data _ _ _ _ _ _ _ _ Hloc2 HI).
    destruct (crel_iterV _ _ _ _ _ _ _ _ _ Hloc HI) as (it2 & Hit & Hr2). unfold bind at 1. rewrite Hit.
    unfold bind, get. rewrite (located_get _ _ _ _ _ _ _ _ Hloc2 HI). unfold ret, ci_size_hint. rewrite (cr_len _ _ _ Hr2). cbn [mk n_desc].
    exists ((it' :: q) ++ [it2]), ((ks1 :: qs) ++ [ks]). split; [done|]. split.
    + apply Forall2_app; constructor; done || by constructor.
    + rewrite concat_app. simpl. by rewrite app_nil_r, Hc.
Qed.

Definition Rsp1 V (it : list citer) (ys : list (visit (A:=A))) (Hd : list (atree A)) : Prop :=
  Hd = V /\ exists qs xs r, Forall2 (crel V) it qs /\ Forall2 rt (concat qs) xs /\ qo xs r /\ ys = visit_of <$> r.
Lemma sp_src V : src_ok sp_next (Rsp1 V) V.
Proof.
  intros it ys Hd W0 E s (-> & qs & xs & r & Hq & Hrt & Hqo & ->) HI. inversion Hqo as [|x q r' Hqo']; subst.
  - rewrite fmap_nil. inversion Hrt as [Hc|]. exists [], s. split_and!; [|done|done].
    unfold sp_next, bind. by rewrite (sp_next_node_none _ s _ _ Hq).
  - rewrite fmap_cons. inversion Hrt as [|k ? rest ? Hk Hrest Hc]; subst. symmetry in Hc.
    inversion Hk as [p pl a ks xs Hks]; subst.
    destruct (sp_next_node_someV _ _ _ _ _ _ _ _ _ _ _ Hq HI Hc) as (q' & qs' & Hn & Hq' & Hc').
    exists q', s, V. split_and!; [|done| |done].
    + unfold sp_next, bind. rewrite Hn. cbn [fst snd].
      destruct (crels_located _ _ _ (AN p pl (Some a) ks) Hq) as [C Hloc]; [rewrite Hc; left|].
      rewrite (located_data _ _ _ _ _ _ _ _ (located_weaken _ W0 _ _ Hloc) HI). unfold ret, visit_of. cbn [root_of kids].
      by rewrite (Forall2_length _ _ _ Hks), (rts_cnts _ _ Hks).
    + split; [done|]. exists qs', (q ++ xs), r'. split_and!; [done| |done|done]. rewrite Hc'. by apply Forall2_app.
Qed.
Lemma Rsp1_tree V C t x : located V C t -> rt t x -> Rsp1 V [ci_once (aptr t)] (visit_of <$> level_order x) V.
Proof.
  intros Hl Hr. split; [done|]. exists [[t]], [x], (level_order x). split_and!; [|by repeat constructor|apply qo_level_order|done].
  constructor; [|constructor]. split; [done|done|by eapply chain_once].
Qed.
Lemma Rsp1_kids V it ks xs : crel V it ks -> Forall2 rt ks xs -> Rsp1 V [it] (visit_of <$> level_order_f xs) V.
Proof.
  intros Hl Hr. split; [done|]. exists [ks], xs, (level_order_f xs). split_and!; [constructor; [done|constructor]| |apply qo_level_order_f|done].
  simpl. by rewrite app_nil_r.
Qed.

Definition Risp1 (it : list ptr) (ys : list (visit (A:=A))) (Hd : list (atree A)) : Prop :=
  it = aptr <$> Hd /\ Forall (fun f => aval f = None) Hd /\ exists xs r, Forall2 rt (flat_map akids Hd) xs /\ qo xs r /\ ys = visit_of <$> r.
Lemma isp_src : src_ok isp_next Risp1 [].
Proof.
  intros it ys Hd W0 E s (-> & Hv & xs & r & Hrt & Hqo & ->) HI.
  assert (Hq : isq W0 (aptr <$> Hd) Hd (Hd ++ W0)) by done. inversion Hqo as [|x q r' Hqo']; subst.
  - rewrite fmap_nil. inversion Hrt as [Hc|]. destruct (isp_next_none _ _ _ _ _ _ Hq HI) as (s' & H1 & H2 & H3); [done|]. eauto 10.
  - rewrite fmap_cons. inversion Hrt as [|k ? rest ? Hk Hrest Hc]; subst. symmetry in Hc.
    inversion Hk as [p pl a ks xs Hks]; subst.
    destruct (isp_next_some _ _ _ _ _ _ _ _ _ _ _ Hq HI Hc) as (it' & fs' & W' & s' & H1 & H2 & (-> & HW & Hv') & H4 & H5).
    exists (aptr <$> fs'), s', fs'. split_and!; [| | |done].
    + rewrite H1. unfold visit_of. cbn [root_of kids]. by rewrite (Forall2_length _ _ _ Hks), (rts_cnts _ _ Hks).
    + by eapply MInv_perm.
    + split_and!; [done|done|]. exists (q ++ xs), r'. split_and!; [|done|done]. rewrite H4. by apply Forall2_app.
Qed.
End sources.

(** * The invariant of a program *)
Section inv.
Context {A H : Type}.
Implicit Types (F : list (atree A)) (EL : list (ptr * node A)) (s : mem A) (Wm Bm : gmap nat (atree A)) (senv sbenv : gmap nat (item A)) (env benv : gmap nat handle)
  (R : list nat).
Local Notation vals F := (@ClientRef.vals A F).
Local Notation REnv F EL := (@ClientRef.REnv A F EL).

(** the variables without the memory *)
Record SEnv F R env benv senv sbenv Wm Bm : Prop := {
  se_env : env = hof <$> Wm;
  se_ri : forall h, option_Forall2 ri (Wm !! h) (senv !! h);
  se_benv : benv = hof <$> Bm;
  se_bri : forall h, option_Forall2 ri (Bm !! h) (sbenv !! h);
  se_sub : exists F2, F ≡ₚ (map_to_list Bm).*2 ++ F2;
  se_R : forall x, x ∈ R -> senv !! x = None;
  se_dis : forall h, is_Some (sbenv !! h) -> senv !! h = None }.

Definition prog_good {X} (p : prog A H X) : Prop := forall F EL R s env benv senv sbenv Wm Bm,
  SEnv F R env benv senv sbenv Wm Bm -> MInvX s (vals F Wm) EL ->
  match sprog R sbenv (SSt senv (m_log s)) p with
  | Some (x, σ') => exists env' s' Wm', cprog R benv env p s = Ok (x, env') s' /\
      SEnv F R env' benv (s_env σ') sbenv Wm' Bm /\ MInvX s' (vals F Wm') EL /\ m_log s' = s_log σ'
  | None => cprog R benv env p s = Err EPanic
  end.

Lemma SEnv_REnv F EL R s env benv senv sbenv Wm Bm : SEnv F R env benv senv sbenv Wm Bm -> MInvX s (vals F Wm) EL -> REnv F EL s env senv Wm.
Proof. intros [? ? ? ? ? ? ?] HI. by split. Qed.

Lemma SEnv_dom F R env benv senv sbenv Wm Bm h : SEnv F R env benv senv sbenv Wm Bm -> (env !! h = None <-> senv !! h = None) /\ (benv !! h = None <-> sbenv !! h = None) /\
  (Wm !! h = None <-> senv !! h = None) /\ (Bm !! h = None <-> sbenv !! h = None).
Proof.
  intros [He Hr Hb Hbr _ _ _]. rewrite He, Hb, !lookup_fmap. specialize (Hr h). specialize (Hbr h).
  inversion Hr; inversion Hbr; done.
Qed.
Lemma SEnv_free F R env benv senv sbenv Wm Bm x : SEnv F R env benv senv sbenv Wm Bm -> is_free_c R benv x <-> is_free R sbenv x.
Proof. intros HS. unfold is_free_c, is_free. destruct (SEnv_dom _ _ _ _ _ _ _ _ x HS) as (_ & ? & _). tauto. Qed.

Lemma map_vals_union Wm Bm : Wm ##ₘ Bm -> (map_to_list (Wm ∪ Bm)).*2 ≡ₚ (map_to_list Wm).*2 ++ (map_to_list Bm).*2.
Proof.
  revert Bm. induction Wm as [|h t Wm Hh IH] using map_ind; intros Bm Hd.
  - by rewrite map_empty_union, map_to_list_empty.
  - apply map_disjoint_insert_l in Hd as [Hb Hd]. rewrite <-insert_union_l. rewrite map_to_list_insert by (by apply lookup_union_None).
    rewrite (map_to_list_insert Wm) by done. cbn. by rewrite IH.
Qed.
Lemma SEnv_disj F R env benv senv sbenv Wm Bm : SEnv F R env benv senv sbenv Wm Bm -> Wm ##ₘ Bm.
Proof.
  intros HS. apply map_disjoint_spec. intros h t t' H1 H2. destruct (SEnv_dom _ _ _ _ _ _ _ _ h HS) as (_ & _ & HW & HB).
  assert (senv !! h = None); [|by rewrite (proj2 HW) in H1]. apply (se_dis _ _ _ _ _ _ _ _ HS). destruct (sbenv !! h) eqn:E; [eauto|]. by rewrite (proj2 HB) in H2.
Qed.
(** all variables that can be read *)
Lemma union_RE F EL R s env benv senv sbenv Wm Bm : SEnv F R env benv senv sbenv Wm Bm -> MInvX s (vals F Wm) EL ->
  exists F2, F ≡ₚ (map_to_list Bm).*2 ++ F2 /\ REnv F2 EL s (env ∪ benv) (senv ∪ sbenv) (Wm ∪ Bm).
Proof.
  intros HS HI. destruct (se_sub _ _ _ _ _ _ _ _ HS) as [F2 HF]. exists F2. split; [done|]. split.
  - eapply MInv_perm; [|exact HI]. unfold ClientRef.vals. rewrite (map_vals_union _ _ (SEnv_disj _ _ _ _ _ _ _ _ HS)), HF. by rewrite app_assoc.
  - rewrite (se_env _ _ _ _ _ _ _ _ HS), (se_benv _ _ _ _ _ _ _ _ HS). by rewrite map_fmap_union.
  - intros h. pose proof (se_ri _ _ _ _ _ _ _ _ HS h) as H1. pose proof (se_bri _ _ _ _ _ _ _ _ HS h) as H2.
    rewrite !lookup_union. inversion H1; inversion H2; simpl; by constructor.
Qed.
End inv.
