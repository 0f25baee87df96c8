(** CursorProofs.v — iterators and walks held by the client: the invariant and the calls. *)
From stdpp Require Import base gmap list.
From Verif Require Import Spec ClientSpec Machine NodeModel BfsModel ClientModel WalkModel WalkSpec CallSpec CallModel CursorSpec CursorModel Sep Rep NodeProofs Inv SpecProofs Abs ClientProofs
  FromBfs BfsBuild BfsIter BfsMut BfsMap ClientRef ClientStep ClientRead ClientProps BfsProps WalkProofs CallBuild CallProofs CallStep CursorBfs.

Section inv.
Context {A H : Type}.
Implicit Types (F : list (atree A)) (s : mem A) (Wm Bm : gmap nat (atree A)) (K : gmap nat (list (atree A))) (senv sbenv : gmap nat (item A)) (env benv : gmap nat handle) (cur : gmap nat ccur) (scu : gmap nat (scur A)).
Local Notation vals F := (@ClientRef.vals A F).

(** the trees that are not the client's: borrowed ones and those of iterators and walks *)
Definition FK Bm K : list (atree A) := (map_to_list Bm).*2 ++ concat (map_to_list K).*2.
Lemma FK_insert Bm K i own : K !! i = None -> FK Bm (<[i := own]> K) ≡ₚ own ++ FK Bm K.
Proof. intros Hi. unfold FK. rewrite (map_to_list_insert _ _ _ Hi). cbn. by rewrite Permutation_app_swap_app. Qed.
Lemma FK_delete Bm K i own : K !! i = Some own -> FK Bm K ≡ₚ own ++ FK Bm (delete i K).
Proof. intros Hi. rewrite <-(insert_delete K i own Hi) at 1. apply FK_insert, lookup_delete. Qed.
Lemma FK_update Bm K i own own' : K !! i = Some own -> FK Bm (<[i := own']> K) ≡ₚ own' ++ FK Bm (delete i K).
Proof. intros Hi. rewrite <-insert_delete_insert. apply FK_insert, lookup_delete. Qed.
Lemma FK_borrow Bm K h t : Bm !! h = None -> FK (<[h := t]> Bm) K ≡ₚ t :: FK Bm K.
Proof. intros Hi. unfold FK. by rewrite (map_to_list_insert _ _ _ Hi). Qed.
Lemma FK_borrowed Bm K h t : Bm !! h = Some t -> FK Bm K ≡ₚ t :: FK (delete h Bm) K.
Proof. intros Hi. rewrite <-(insert_delete Bm h t Hi) at 1. apply FK_borrow, lookup_delete. Qed.
Lemma vals_F F F' Wm : F ≡ₚ F' -> vals F Wm ≡ₚ vals F' Wm.
Proof. intros HF. unfold ClientRef.vals. by rewrite HF. Qed.
Lemma vals_FK F own Wm : vals (own ++ F) Wm ≡ₚ own ++ vals F Wm.
Proof. unfold ClientRef.vals. by rewrite Permutation_app_swap_app. Qed.

Lemma SEnv_FK F R env benv senv sbenv Wm Bm K : SEnv F R env benv senv sbenv Wm Bm -> SEnv (FK Bm K) [] env benv senv sbenv Wm Bm.
Proof. intros [? ? ? ? ? ? ?]. split; try done. - by exists (concat (map_to_list K).*2). - intros x Hx. by apply elem_of_nil in Hx. Qed.

Definition tops_a (t : atree A) : list (atree A) := match aval t with Some _ => [t] | None => akids t end.

(** an iterator or walk, and the trees it owns *)
Definition curel Bm (c : ccur) (sc : scur A) (own : list (atree A)) : Prop :=
  match c, sc with
  | CIter h it, SIter h' ts => h = h' /\ own = [] /\ exists th ks, Bm !! h = Some th /\ BfsIter.crel [th] it ks /\ Forall2 rt ks ts
  | CBfs h it, SBfs h' ys => h = h' /\ own = [] /\ exists th, Bm !! h = Some th /\ Rsp1 [th] it ys [th]
  | CInto fr, SInto ts => exists pl ks, own = [AN fr pl None ks] /\ Forall2 rt ks ts
  | CIntoBfs it, SIntoBfs im n => it = aptr <$> own /\ Forall (fun f => aval f = None) own /\ exists xs, Forall2 rt (flat_map akids own) xs /\
      xs = bfs_rest n (trees_of im) /\ qo xs (drop n (item_level_order im))
  | CWalk hd w, SWalk im cu => exists t, own = [t] /\ ri t im /\ hd = hof t /\ wrel (tops_a t) w cu
  | CMut hd it cs, SMut im path gs ts => exists C p pl v gsA kp, own = [plug C (AN p pl v (flat_map aseg_trees gsA ++ kp))] /\ hd = hof (plug C (AN p pl v [])) /\
      (forall ks' xs', Forall2 rt ks' xs' -> ri (plug C (AN p pl v ks')) (set_kids im path xs')) /\
      (forall xs', node_at (set_kids im path xs') path = match v with Some a => Some (Tr a xs') | None => None end) /\
      Forall2 segrel gsA gs /\ Forall2 rt kp ts /\ cs = cs_of gsA /\ ci_len it = length kp /\ (kp <> [] -> ci_curr it = hdp kp None)
  | CBfsMut hd q ps, SBfsMut im path top g n => exists th Lat us xs qs, bmrel hd q ps own im path top g n th Lat us xs qs
  | _, _ => False
  end.
Lemma curel_origin Bm c sc own : curel Bm c sc own -> corigin c = origin sc.
Proof. destruct c, sc; try done; cbn; intros [-> _]; done. Qed.
Lemma curel_ext Bm Bm' c sc own : (forall h, origin sc = Some h -> Bm' !! h = Bm !! h) -> curel Bm c sc own -> curel Bm' c sc own.
Proof.
  intros Hx. destruct c, sc; try done; cbn.
  - intros (-> & ? & ?). split_and!; [done|done|]. by rewrite Hx.
  - intros (-> & ? & ?). split_and!; [done|done|]. by rewrite Hx.
Qed.
Definition currel Bm (o : option ccur) (so : option (scur A)) (ko : option (list (atree A))) : Prop :=
  match o, so, ko with
  | Some c, Some sc, Some own => curel Bm c sc own
  | None, None, None => True
  | _, _, _ => False
  end.

Record KInvW (e : kenv) s (σ : kss A) Wm Bm K : Prop := {
  ki_env : SEnv (FK Bm K) [] (ke_env e) (ke_benv e) (ks_env σ) (ks_benv σ) Wm Bm;
  ki_inv : MInvX s (vals (FK Bm K) Wm) [];
  ki_log : m_log s = ks_log σ;
  ki_cur : forall i, currel Bm (ke_cur e !! i) (ks_cur σ !! i) (K !! i);
  ki_bor : forall h, is_Some (ks_benv σ !! h) -> exists i c, ks_cur σ !! i = Some c /\ origin c = Some h }.
Definition KInv e s σ : Prop := exists Wm Bm K, KInvW e s σ Wm Bm K.

(** ** the maps of iterators *)
Lemma cur_none e s σ Wm Bm K i : KInvW e s σ Wm Bm K -> ks_cur σ !! i = None -> ke_cur e !! i = None /\ K !! i = None.
Proof. intros HK Hi. pose proof (ki_cur _ _ _ _ _ _ HK i) as Hc. rewrite Hi in Hc. unfold currel in Hc. destruct (ke_cur e !! i), (K !! i); done. Qed.
Lemma cur_some e s σ Wm Bm K i sc : KInvW e s σ Wm Bm K -> ks_cur σ !! i = Some sc -> exists c own, ke_cur e !! i = Some c /\ K !! i = Some own /\ curel Bm c sc own.
Proof. intros HK Hi. pose proof (ki_cur _ _ _ _ _ _ HK i) as Hc. rewrite Hi in Hc. unfold currel in Hc. destruct (ke_cur e !! i), (K !! i); try done. eauto. Qed.
Lemma currel_insert Bm cur scu K i c sc own : (forall j, currel Bm (cur !! j) (scu !! j) (K !! j)) -> curel Bm c sc own ->
  forall j, currel Bm (<[i := c]> cur !! j) (<[i := sc]> scu !! j) (<[i := own]> K !! j).
Proof. intros Hc Hn j. destruct (decide (i = j)) as [->|]; [by rewrite !lookup_insert|]. by rewrite !lookup_insert_ne. Qed.
Lemma currel_delete Bm cur scu K i : (forall j, currel Bm (cur !! j) (scu !! j) (K !! j)) ->
  forall j, currel Bm (delete i cur !! j) (delete i scu !! j) (delete i K !! j).
Proof. intros Hc j. destruct (decide (i = j)) as [->|]; [by rewrite !lookup_delete|]. by rewrite !lookup_delete_ne. Qed.
Lemma unborrowed_iff Bm cur scu K h : (forall j, currel Bm (cur !! j) (scu !! j) (K !! j)) -> unborrowed_c h cur <-> unborrowed h scu.
Proof.
  intros Hc. split; intros Hu j x Hj; specialize (Hc j); rewrite Hj in Hc; unfold currel in Hc.
  - destruct (cur !! j) as [c|] eqn:E; [|done]. destruct (K !! j); [|done]. rewrite <-(curel_origin _ _ _ _ Hc). exact (Hu j c E).
  - destruct (scu !! j) as [c|] eqn:E; [|done]. destruct (K !! j); [|done]. rewrite (curel_origin _ _ _ _ Hc). exact (Hu j c E).
Qed.

(** an iterator or walk goes on with other trees of its own; the variables, which may change too, are all accounted for *)
Lemma KI_step e s σ Wm Bm K i c sc own c' sc' own' env' senv' Wm' s' log' : KInvW e s σ Wm Bm K -> ks_cur σ !! i = Some sc -> K !! i = Some own -> origin sc' = origin sc ->
  SEnv (FK Bm K) [] env' (ke_benv e) senv' (ks_benv σ) Wm' Bm -> MInvX s' (own' ++ vals (FK Bm (delete i K)) Wm') [] -> m_log s' = log' -> curel Bm c' sc' own' -> ke_cur e !! i = Some c ->
  KInv (KE env' (ke_benv e) (<[i := c']> (ke_cur e))) s' (KS senv' (ks_benv σ) (<[i := sc']> (ks_cur σ)) log').
Proof.
  intros HK Hi Ho Hor HS HI Hl Hc Hcc. exists Wm', Bm, (<[i := own']> K). split; cbn [ke_env ke_benv ke_cur ks_env ks_benv ks_cur ks_log].
  - by eapply SEnv_FK.
  - eapply MInv_perm; [|exact HI]. rewrite <-vals_FK. apply vals_F. symmetry. by eapply FK_update.
  - done.
  - apply currel_insert; [apply HK|done].
  - intros h Hh. destruct (ki_bor _ _ _ _ _ _ HK h Hh) as (j & d & Hj & Hd). destruct (decide (i = j)) as [->|].
    + exists j, sc'. rewrite lookup_insert. split; [done|]. congruence.
    + exists j, d. by rewrite lookup_insert_ne.
Qed.
(** an iterator or walk ends that borrowed nothing *)
Lemma KI_end e s σ Wm Bm K i sc own env' senv' Wm' s' log' : KInvW e s σ Wm Bm K -> ks_cur σ !! i = Some sc -> K !! i = Some own -> origin sc = None ->
  SEnv (FK Bm K) [] env' (ke_benv e) senv' (ks_benv σ) Wm' Bm -> MInvX s' (vals (FK Bm (delete i K)) Wm') [] -> m_log s' = log' ->
  KInv (KE env' (ke_benv e) (delete i (ke_cur e))) s' (KS senv' (ks_benv σ) (delete i (ks_cur σ)) log').
Proof.
  intros HK Hi Ho Hor HS HI Hl. exists Wm', Bm, (delete i K). split; cbn [ke_env ke_benv ke_cur ks_env ks_benv ks_cur ks_log].
  - by eapply SEnv_FK.
  - done.
  - done.
  - apply currel_delete, HK.
  - intros h Hh. destruct (ki_bor _ _ _ _ _ _ HK h Hh) as (j & d & Hj & Hd). exists j, d. rewrite lookup_delete_ne; [done|]. intros ->. congruence.
Qed.
(** a new one that takes a tree of the client *)
Lemma KI_new e s σ Wm Bm K i h t c sc own s' : KInvW e s σ Wm Bm K -> ks_cur σ !! i = None -> Wm !! h = Some t -> origin sc = None ->
  MInvX s' (own ++ vals (FK Bm K) (delete h Wm)) [] -> m_log s' = m_log s -> curel Bm c sc own ->
  KInv (KE (delete h (ke_env e)) (ke_benv e) (<[i := c]> (ke_cur e))) s' (KS (delete h (ks_env σ)) (ks_benv σ) (<[i := sc]> (ks_cur σ)) (ks_log σ)).
Proof.
  intros HK Hi Ht Hor HI Hl Hc. destruct (cur_none _ _ _ _ _ _ _ HK Hi) as [Hce Hki]. exists (delete h Wm), Bm, (<[i := own]> K).
  split; cbn [ke_env ke_benv ke_cur ks_env ks_benv ks_cur ks_log].
  - eapply SEnv_FK. destruct (ki_env _ _ _ _ _ _ HK) as [He Hr ? ? ? ? Hdis]. split; try done.
    + by rewrite He, fmap_delete.
    + intros j. destruct (decide (h = j)) as [->|]; [rewrite !lookup_delete; constructor|by rewrite !lookup_delete_ne].
    + intros x Hx. by apply elem_of_nil in Hx.
    + intros j Hj. apply lookup_delete_None. right. by apply Hdis.
  - eapply MInv_perm; [|exact HI]. rewrite <-vals_FK. apply vals_F. symmetry. by apply FK_insert.
  - rewrite Hl. apply HK.
  - apply currel_insert; [apply HK|done].
  - intros h' Hh. destruct (ki_bor _ _ _ _ _ _ HK h' Hh) as (j & d & Hj & Hd). exists j, d. rewrite lookup_insert_ne; [done|]. intros ->. congruence.
Qed.

(** ** borrows *)
Lemma borrow_begin e s σ Wm Bm K h it : KInvW e s σ Wm Bm K -> (ks_env σ ∪ ks_benv σ) !! h = Some it ->
  exists th, ri th it /\ (ke_env e ∪ ke_benv e) !! h = Some (hof th) /\
    (forall path, match kids_at it path with
      | Some xs => exists C p pl v ks, th = plug C (AN p pl v ks) /\ resolve (addr (hof th)) path s = Ok (Some p) s /\ Forall2 rt ks xs /\
          node_at it path = match v with Some a => Some (Tr a xs) | None => None end /\
          is_forest_root (hof th) path = match v with Some _ => false | None => true end
      | None => resolve (addr (hof th)) path s = Ok None s /\ node_at it path = None end) /\
    (exists W, MInvX s ([th] ++ W) []) /\
    forall i c sc, ks_cur σ !! i = None -> curel (<[h := th]> Bm) c sc [] -> origin sc = Some h ->
      KInv (borrow_c e i h (hof th) c) s (borrow σ i h it sc).
Proof.
  intros HK Hu. pose proof HK as [HS HI Hlog Hcur Hbor].
  set (x := fresh (dom (ks_env σ) ∪ dom (ks_benv σ))).
  assert (Hx : x ∉ dom (ks_env σ) ∪ dom (ks_benv σ)) by apply is_fresh. apply not_elem_of_union in Hx as [Hx1 Hx2].
  apply not_elem_of_dom in Hx1, Hx2.
  destruct (SEnv_borrow _ _ _ _ _ _ _ _ _ _ h x it HS HI) as (th & F3 & Hri & He & Ht & HS1 & Hperm & _); [split; [apply not_elem_of_nil|done]|done|done|].
  exists th. split_and!; [done|done| | |].
  - intros path. destruct (union_RE _ _ _ _ _ _ _ _ _ _ HS HI) as (F2 & HF & HU). pose proof (RE_locate _ _ _ _ _ _ _ path HU Ht Hri) as HL.
    destruct (kids_at it path) as [xs|]; [|by destruct HL].
    destruct HL as (C & p & pl & v & ks & Hth & _ & Hres & HIp & Hks & _ & Hn & _ & Hroot). exists C, p, pl, v, ks. done.
  - exists (vals F3 (delete h Wm)). by eapply MInv_perm.
  - intros i c sc Hi Hc Hor. destruct (cur_none _ _ _ _ _ _ _ HK Hi) as [Hce Hki].
    assert (HBm : Bm !! h = None /\ Wm !! h = Some th \/ Bm !! h = Some th /\ Wm !! h = None).
    { pose proof (SEnv_disj _ _ _ _ _ _ _ _ HS) as Hdj. apply lookup_union_Some in Ht; [|done]. destruct Ht as [Ht|Ht].
      - left. split; [|done]. by eapply map_disjoint_Some_l.
      - right. split; [done|]. by eapply map_disjoint_Some_r. }
    exists (delete h Wm), (<[h := th]> Bm), (<[i := []]> K). split; cbn [borrow borrow_c ke_env ke_benv ke_cur ks_env ks_benv ks_cur ks_log].
    + by eapply SEnv_FK.
    + eapply MInv_perm; [|exact HI]. transitivity (vals (FK (<[h := th]> Bm) K) (delete h Wm)); [|apply vals_F; symmetry; by apply (FK_insert _ _ _ [])].
      destruct HBm as [[Hb Hw]|[Hb Hw]].
      * rewrite <-(vals_delete _ _ _ Hw). rewrite (vals_F (FK (<[h := th]> Bm) K) ([th] ++ FK Bm K)) by (by apply FK_borrow). by rewrite vals_FK.
      * by rewrite (insert_id Bm h th Hb), (delete_notin Wm h Hw).
    + done.
    + apply currel_insert; [|done]. intros j. specialize (Hcur j). unfold currel in *.
      destruct (ke_cur e !! j), (ks_cur σ !! j) as [d|] eqn:E, (K !! j) as [o|]; try done. eapply curel_ext; [|exact Hcur].
      intros h' Hh'. destruct (decide (h = h')) as [<-|]; [|by rewrite lookup_insert_ne]. rewrite lookup_insert. destruct HBm as [[Hb Hw]|[Hb Hw]]; [|done].
      exfalso. destruct c0, d; try done; cbn in Hh', Hcur; injection Hh' as ->; destruct Hcur as (-> & _ & ? & ?); [destruct H0 as (? & ? & _)|destruct H0 as (? & _)]; congruence.
    + intros h' Hh'. destruct (decide (h = h')) as [<-|Hne].
      * exists i, sc. by rewrite lookup_insert.
      * rewrite lookup_insert_ne in Hh' by done. destruct (Hbor h' Hh') as (j & d & Hj & Hd). exists j, d. rewrite lookup_insert_ne; [done|]. intros ->. congruence.
Qed.
Lemma borrow_none e s σ Wm Bm K h : KInvW e s σ Wm Bm K -> (ks_env σ ∪ ks_benv σ) !! h = None -> (ke_env e ∪ ke_benv e) !! h = None.
Proof. intros HK Hu. exact (SEnv_lookup _ _ _ _ _ _ _ _ _ _ _ (ki_env _ _ _ _ _ _ HK) (ki_inv _ _ _ _ _ _ HK) Hu). Qed.

Lemma borrow_end e s σ Wm Bm K i h sc own : KInvW e s σ Wm Bm K -> ks_cur σ !! i = Some sc -> K !! i = Some own -> own = [] -> origin sc = Some h -> is_Some (Bm !! h) ->
  KInv (release_c e i h) s (release σ i h).
Proof.
  intros HK Hi Ho Hown Hor [th Hth]. pose proof HK as [HS HI Hlog Hcur Hbor].
  pose proof (currel_delete _ _ _ _ i Hcur) as Hcur'. pose proof (unborrowed_iff _ _ _ _ h Hcur') as Hub.
  assert (Hb : ke_benv e !! h = Some (hof th)) by (by rewrite (se_benv _ _ _ _ _ _ _ _ HS), lookup_fmap, Hth).
  pose proof (se_bri _ _ _ _ _ _ _ _ HS h) as Hri. rewrite Hth in Hri. inversion Hri as [? it Hrt Hx Hsb|]. subst.
  assert (HFd : FK Bm K ≡ₚ FK Bm (delete i K)) by (by rewrite (FK_delete _ _ _ _ Ho)).
  unfold release_c, release. destruct (decide (unborrowed h (delete i (ks_cur σ)))) as [Hd|Hd].
  - rewrite decide_True by (by apply Hub). rewrite Hb, <-Hsb.
    assert (Hw : Wm !! h = None). { apply (SEnv_dom _ _ _ _ _ _ _ _ h HS). apply (se_dis _ _ _ _ _ _ _ _ HS). eauto. }
    exists (<[h := th]> Wm), (delete h Bm), (delete i K). split; cbn [ke_env ke_benv ke_cur ks_env ks_benv ks_cur ks_log].
    + eapply SEnv_FK. destruct HS as [He Hr Hbe Hbr _ _ Hdis]. split.
      * by rewrite He, fmap_insert.
      * intros j. destruct (decide (h = j)) as [<-|]; [rewrite !lookup_insert; by constructor|by rewrite !lookup_insert_ne].
      * by rewrite Hbe, fmap_delete.
      * intros j. destruct (decide (h = j)) as [<-|]; [rewrite !lookup_delete; constructor|by rewrite !lookup_delete_ne].
      * by exists (concat (map_to_list (delete i K)).*2).
      * intros x Hx. by apply elem_of_nil in Hx.
      * intros j [y Hj]. apply lookup_delete_Some in Hj as [Hne Hj]. rewrite lookup_insert_ne by done. apply Hdis. eauto.
    + eapply MInv_perm; [|exact HI]. rewrite (vals_insert _ _ _ Hw), (vals_F _ _ _ HFd). rewrite (vals_F (FK Bm (delete i K)) ([th] ++ FK (delete h Bm) (delete i K))) by (by apply FK_borrowed).
      by rewrite vals_FK.
    + done.
    + intros j. specialize (Hcur' j). unfold currel in *. destruct (delete i (ke_cur e) !! j), (delete i (ks_cur σ) !! j) as [d|] eqn:E, (delete i K !! j); try done.
      eapply curel_ext; [|exact Hcur']. intros h' Hh'. rewrite lookup_delete_ne; [done|]. intros <-. exact (Hd j d E Hh').
    + intros h' [y Hh']. apply lookup_delete_Some in Hh' as [Hne Hh']. destruct (Hbor h') as (j & d & Hj & Hdo); [eauto|]. exists j, d.
      rewrite lookup_delete_ne; [done|]. intros ->. congruence.
  - rewrite decide_False by (by rewrite Hub). exists Wm, Bm, (delete i K). split; cbn [ke_env ke_benv ke_cur ks_env ks_benv ks_cur ks_log].
    + by eapply SEnv_FK.
    + eapply MInv_perm; [|exact HI]. by apply vals_F.
    + done.
    + done.
    + intros h' Hh'. destruct (decide (h = h')) as [<-|Hne].
      * unfold unborrowed in Hd. apply map_not_Forall in Hd as (j & d & Hj & Hd); [|apply _]. exists j, d. split; [done|]. by apply dec_stable.
      * destruct (Hbor h' Hh') as (j & d & Hj & Hdo). exists j, d. rewrite lookup_delete_ne; [done|]. intros ->. congruence.
Qed.
End inv.
