(** CursorStep.v — every call does what its specification says, whatever iterators and walks are held. *)
From stdpp Require Import base gmap list.
From Verif Require Import Spec ClientSpec Machine NodeModel BfsModel ClientModel WalkModel WalkSpec CallSpec CallModel CursorSpec CursorModel Sep Rep NodeProofs Inv SpecProofs Abs ClientProofs
  FromBfs BfsBuild BfsIter BfsMut BfsMap ClientRef ClientStep ClientRead ClientProps BfsProps WalkProofs CallBuild CallProofs CallStep CursorBfs CursorProofs.

Section step.
Context {A H : Type}.
Implicit Types (F : list (atree A)) (s : mem A) (Wm Bm : gmap nat (atree A)) (K : gmap nat (list (atree A))) (senv sbenv : gmap nat (item A)) (env benv : gmap nat handle).
Local Notation vals F := (@ClientRef.vals A F).

Definition kgood (o : kop A H) : Prop := forall e s σ, KInv e s σ ->
  match ksstep σ o with
  | Some (r, σ') => exists e' s', kstep e o s = Ok (r, e') s' /\ KInv e' s' σ'
  | None => kstep e o s = Err EPanic
  end.

Lemma observe_at s W E C t (x : tree A) : located W C t -> MInvX s W E -> rt t x -> observe (aptr t) s = Ok (visit_of x) s.
Proof.
  intros Hl HI Hr. inversion Hr as [p pl a ks xs Hks]; subst. unfold observe. cbn [aptr]. rewrite (bind_ok _ _ _ _ _ (located_data _ _ _ _ _ _ _ _ Hl HI)).
  destruct (located_inv _ _ _ _ _ Hl HI) as [W' HI']. rewrite (bind_ok _ _ _ _ _ (degree_at _ _ _ _ _ _ _ _ HI')), (bind_ok _ _ _ _ _ (node_count_at _ _ _ _ _ _ _ _ HI')).
  unfold bind, sub. destruct (Nat.leb_spec 1 (S (cnts ks))) as [_|?]; [|lia]. unfold ret, visit_of. cbn [root_of kids]. rewrite (Forall2_length _ _ _ Hks), <-(rts_cnts _ _ Hks).
  do 3 f_equal. lia.
Qed.

Lemma bfs_rest_S n : forall l x q, bfs_rest (A := A) n l = x :: q -> bfs_rest (S n) l = q ++ kids x.
Proof. induction n as [|n IH]; intros l x q Hl; [cbn in *; by subst|]. destruct l as [|y l]; [done|]. cbn [bfs_rest] in Hl. by apply IH in Hl. Qed.

(** the trees of an iterator *)
Lemma own_inv e s σ Wm Bm K i own : KInvW e s σ Wm Bm K -> K !! i = Some own -> MInvX s (own ++ vals (FK Bm (delete i K)) Wm) [].
Proof. intros HK Hi. eapply MInv_perm; [|apply HK]. rewrite <-vals_FK. apply vals_F. by apply FK_delete. Qed.
Lemma bor_inv e s σ Wm Bm K h th : KInvW e s σ Wm Bm K -> Bm !! h = Some th -> MInvX s ([th] ++ vals (FK (delete h Bm) K) Wm) [].
Proof. intros HK Hi. eapply MInv_perm; [|apply HK]. rewrite <-vals_FK. apply vals_F. by apply FK_borrowed. Qed.

Lemma kss_eta (σ : kss A) i sc : ks_cur σ !! i = Some sc -> KS (ks_env σ) (ks_benv σ) (<[i := sc]> (ks_cur σ)) (ks_log σ) = σ.
Proof. intros Hi. rewrite insert_id by done. by destruct σ. Qed.
Lemma KI_upd e s σ Wm Bm K i c sc own c' sc' s' own' : KInvW e s σ Wm Bm K -> ks_cur σ !! i = Some sc -> K !! i = Some own -> ke_cur e !! i = Some c -> origin sc' = origin sc ->
  MInvX s' (own' ++ vals (FK Bm (delete i K)) Wm) [] -> m_log s' = m_log s -> curel Bm c' sc' own' ->
  KInv (KE (ke_env e) (ke_benv e) (<[i := c']> (ke_cur e))) s' (KS (ks_env σ) (ks_benv σ) (<[i := sc']> (ks_cur σ)) (ks_log σ)).
Proof.
  intros HK Hi Hk Hc Hor HI Hl Hr. eapply (KI_step e s σ Wm Bm K i c sc own c' sc' own'); try done; [apply HK|]. rewrite Hl. apply HK.
Qed.

Ltac bad HK := eexists _, _; split; [done|exact HK].

Lemma k_prog p : kgood (KProg p).
Proof.
  intros e s σ (Wm & Bm & K & HK). cbn [ksstep kstep]. pose proof (prog_ok p (FK Bm K) [] [] s _ _ _ _ _ _ (ki_env _ _ _ _ _ _ HK) (ki_inv _ _ _ _ _ _ HK)) as HG.
  rewrite (ki_log _ _ _ _ _ _ HK) in HG. destruct (sprog [] (ks_benv σ) _ p) as [[r σ']|].
  - destruct HG as (env' & s' & Wm' & Hc & HS & HI & Hl). rewrite (bind_ok _ _ _ _ _ Hc). cbn [fst snd]. eexists _, _. split; [done|].
    exists Wm', Bm, K. destruct HK. by split.
  - by rewrite (bind_err _ _ _ _ HG).
Qed.

Lemma k_iter i h path : kgood (KIter i h path).
Proof.
  intros e s σ HKI. pose proof HKI as (Wm & Bm & K & HK). cbn [ksstep kstep].
  destruct (ks_cur σ !! i) as [sc|] eqn:Hi.
  { destruct (cur_some _ _ _ _ _ _ _ _ HK Hi) as (c & own & -> & _). bad HKI. }
  destruct (cur_none _ _ _ _ _ _ _ HK Hi) as [-> _]. destruct ((ks_env σ ∪ ks_benv σ) !! h) as [it|] eqn:Hu.
  2:{ rewrite (borrow_none _ _ _ _ _ _ _ HK Hu). bad HKI. }
  destruct (borrow_begin _ _ _ _ _ _ _ _ HK Hu) as (th & Hri & -> & HL & [W HW] & Hfin). specialize (HL path).
  destruct (kids_at it path) as [xs|].
  2:{ destruct HL as [Hres _]. rewrite (bind_ok _ _ _ _ _ Hres). bad HKI. }
  destruct HL as (C & p & pl & v & ks & Hth & Hres & Hks & _ & _). rewrite (bind_ok _ _ _ _ _ Hres).
  assert (Hloc : located [th] C (AN p pl v ks)) by (exists []; by rewrite Hth).
  destruct (crel_iterV _ _ _ _ _ _ _ _ _ Hloc HW) as (it0 & Hit & Hcr). rewrite (bind_ok _ _ _ _ _ Hit). eexists _, _. split; [done|].
  apply Hfin; [done| |done]. cbn. split_and!; [done|done|]. exists th, ks. by rewrite lookup_insert.
Qed.
Lemma k_bfs i h path : kgood (KBfs i h path).
Proof.
  intros e s σ HKI. pose proof HKI as (Wm & Bm & K & HK). cbn [ksstep kstep].
  destruct (ks_cur σ !! i) as [sc|] eqn:Hi.
  { destruct (cur_some _ _ _ _ _ _ _ _ HK Hi) as (c & own & -> & _). bad HKI. }
  destruct (cur_none _ _ _ _ _ _ _ HK Hi) as [-> _]. destruct ((ks_env σ ∪ ks_benv σ) !! h) as [it|] eqn:Hu.
  2:{ rewrite (borrow_none _ _ _ _ _ _ _ HK Hu). bad HKI. }
  destruct (borrow_begin _ _ _ _ _ _ _ _ HK Hu) as (th & Hri & -> & HL & [W HW] & Hfin). specialize (HL path).
  destruct (kids_at it path) as [xs|].
  2:{ destruct HL as [Hres ->]. destruct (is_forest_root (hof th) path); [bad HKI|]. rewrite (bind_ok _ _ _ _ _ Hres). bad HKI. }
  destruct HL as (C & p & pl & v & ks & Hth & Hres & Hks & -> & ->). destruct v as [a|]; [|bad HKI]. rewrite (bind_ok _ _ _ _ _ Hres).
  assert (Hloc : located [th] C (AN p pl (Some a) ks)) by (exists []; by rewrite Hth).
  assert (exists sz, bfs p s = Ok ([ci_once p], sz) s) as [sz Hbfs].
  { unfold bfs, bind, get. rewrite (located_get _ _ _ _ _ _ _ _ (located_weaken _ W _ _ Hloc) HW). eexists. done. }
  rewrite (bind_ok _ _ _ _ _ Hbfs). cbn [fst]. eexists _, _. split; [done|].
  apply Hfin; [done| |done]. cbn. split_and!; [done|done|]. exists th. rewrite lookup_insert. split; [done|].
  apply (Rsp1_tree [th] C (AN p pl (Some a) ks) (Tr a xs)); [done|by constructor].
Qed.
Lemma k_bfs_kids i h path : kgood (KBfsKids i h path).
Proof.
  intros e s σ HKI. pose proof HKI as (Wm & Bm & K & HK). cbn [ksstep kstep].
  destruct (ks_cur σ !! i) as [sc|] eqn:Hi.
  { destruct (cur_some _ _ _ _ _ _ _ _ HK Hi) as (c & own & -> & _). bad HKI. }
  destruct (cur_none _ _ _ _ _ _ _ HK Hi) as [-> _]. destruct ((ks_env σ ∪ ks_benv σ) !! h) as [it|] eqn:Hu.
  2:{ rewrite (borrow_none _ _ _ _ _ _ _ HK Hu). bad HKI. }
  destruct (borrow_begin _ _ _ _ _ _ _ _ HK Hu) as (th & Hri & -> & HL & [W HW] & Hfin). specialize (HL path).
  destruct (kids_at it path) as [xs|].
  2:{ destruct HL as [Hres _]. rewrite (bind_ok _ _ _ _ _ Hres). bad HKI. }
  destruct HL as (C & p & pl & v & ks & Hth & Hres & Hks & _ & _). rewrite (bind_ok _ _ _ _ _ Hres).
  assert (Hloc : located [th] C (AN p pl v ks)) by (exists []; by rewrite Hth).
  destruct (crel_iterV _ _ _ _ _ _ _ _ _ Hloc HW) as (it0 & Hit & Hcr).
  assert (exists sz, bfs_children p s = Ok ([it0], sz) s) as [sz Hbfs].
  { unfold bfs_children. rewrite (bind_ok _ _ _ _ _ Hit). unfold bind, get. rewrite (located_get _ _ _ _ _ _ _ _ (located_weaken _ W _ _ Hloc) HW). eexists. done. }
  rewrite (bind_ok _ _ _ _ _ Hbfs). cbn [fst]. eexists _, _. split; [done|].
  apply Hfin; [done| |done]. cbn. split_and!; [done|done|]. exists th. rewrite lookup_insert. split; [done|]. by eapply Rsp1_kids.
Qed.

(** ** iterators and walks that take a tree *)
Lemma take_lookup e s σ Wm Bm K h : KInvW e s σ Wm Bm K ->
  match ks_env σ !! h with
  | Some it => exists t, Wm !! h = Some t /\ ri t it /\ ke_env e !! h = Some (hof t) /\ hof t = match it with ITree _ => HT (aptr t) | IForest _ => HF (aptr t) end /\
      MInvX s (t :: vals (FK Bm K) (delete h Wm)) []
  | None => ke_env e !! h = None
  end.
Proof.
  intros HK. pose proof (SEnv_REnv _ _ _ _ _ _ _ _ _ _ (ki_env _ _ _ _ _ _ HK) (ki_inv _ _ _ _ _ _ HK)) as HR. pose proof (RE_lookup _ _ _ _ h HR) as Hlk.
  destruct (ks_env σ !! h) as [it|]; [|by destruct Hlk]. destruct Hlk as (t & Ht & Hri & He & Hho). exists t. split_and!; try done. by eapply RE_inv.
Qed.
Lemma k_into_iter i h : kgood (KIntoIter i h).
Proof.
  intros e s σ HKI. pose proof HKI as (Wm & Bm & K & HK). cbn [ksstep kstep].
  destruct (ks_cur σ !! i) as [sc|] eqn:Hi.
  { destruct (cur_some _ _ _ _ _ _ _ _ HK Hi) as (c & own & -> & _). bad HKI. }
  destruct (cur_none _ _ _ _ _ _ _ HK Hi) as [-> _]. pose proof (take_lookup _ _ _ _ _ _ h HK) as Hlk. destruct (ks_env σ !! h) as [it|] eqn:Hh; [|rewrite Hlk; bad HKI].
  destruct Hlk as (t & Ht & Hri & -> & Hho & HI). rewrite Hho. destruct it as [y|ys].
  - inversion Hri as [p pl a ks xs Hks]; subst. cbn [aptr]. destruct (tree_into_iter_spec _ _ _ _ _ _ _ HI) as (f & s' & H2 & H3 & H4).
    rewrite (bind_ok _ _ _ _ _ H2). eexists _, _. split; [done|]. eapply (KI_new e s σ Wm Bm K i h _ _ _ [AN f false None [AN p pl (Some a) ks]]); try done.
    cbn. eexists _, _. split; [done|]. by repeat constructor.
  - destruct t as [p pl v ks]. destruct Hri as [Hv Hks]. cbn [aval akids] in Hv, Hks. subst v. cbn [aptr].
    eexists _, _. split; [done|]. eapply (KI_new e s σ Wm Bm K i h _ _ _ [AN p pl None ks]); try done. cbn. eauto.
Qed.
Lemma k_into_bfs i h : kgood (KIntoBfs i h).
Proof.
  intros e s σ HKI. pose proof HKI as (Wm & Bm & K & HK). cbn [ksstep kstep].
  destruct (ks_cur σ !! i) as [sc|] eqn:Hi.
  { destruct (cur_some _ _ _ _ _ _ _ _ HK Hi) as (c & own & -> & _). bad HKI. }
  destruct (cur_none _ _ _ _ _ _ _ HK Hi) as [-> _]. pose proof (take_lookup _ _ _ _ _ _ h HK) as Hlk. destruct (ks_env σ !! h) as [it|] eqn:Hh; [|rewrite Hlk; bad HKI].
  destruct Hlk as (t & Ht & Hri & -> & Hho & HI).
  destruct (into_bfs_any (EL := []) _ _ _ _ Hri HI) as (q & fs & s1 & W1 & H2 & HI1 & (Hq & HW1 & Hv1) & Hrt & Hl1). rewrite (bind_ok _ _ _ _ _ H2). cbn [fst].
  eexists _, _. split; [done|]. eapply (KI_new e s σ Wm Bm K i h _ _ _ fs); try done; [by eapply MInv_perm|].
  cbn. split_and!; [done|done|]. exists (trees_of it). split_and!; [done|done|]. rewrite drop_0. apply item_qo.
Qed.
Lemma tops_rel (t : atree A) it : ri t it -> Forall2 rt (tops_a t) (tops it).
Proof.
  destruct it as [y|ys]; cbn [tops ri]; intros Hri.
  - unfold tops_a. rewrite (rt_val _ _ Hri). by repeat constructor.
  - destruct Hri as [Hv Hk]. unfold tops_a. by rewrite Hv.
Qed.
Lemma tops_good W (t : atree A) : t ∈ W -> good W (tops_a t).
Proof. intros Ht. unfold tops_a. destruct (aval t); [by apply good_root|]. eapply good_kids. by apply located_elem. Qed.
Lemma k_walk i h : kgood (KWalk i h).
Proof.
  intros e s σ HKI. pose proof HKI as (Wm & Bm & K & HK). cbn [ksstep kstep].
  destruct (ks_cur σ !! i) as [sc|] eqn:Hi.
  { destruct (cur_some _ _ _ _ _ _ _ _ HK Hi) as (c & own & -> & _). bad HKI. }
  destruct (cur_none _ _ _ _ _ _ _ HK Hi) as [-> _]. pose proof (take_lookup _ _ _ _ _ _ h HK) as Hlk. destruct (ks_env σ !! h) as [it|] eqn:Hh; [|rewrite Hlk; bad HKI].
  destruct Hlk as (t & Ht & Hri & -> & Hho & HI).
  assert (Hw : exists w, walk_from (hof t) s = Ok w s /\ wrel (tops_a t) w (c_start (tops it))).
  { rewrite Hho. destruct it as [y|ys]; cbn [ri] in Hri.
    - unfold tops_a. rewrite (rt_val _ _ Hri). apply (from_tree _ _ _ _ HI). left.
    - destruct t as [q pl v kk]. destruct Hri as [Hv Hkk]. cbn [aval akids aptr] in *. subst v. unfold tops_a. cbn [aval akids].
      destruct (from_forest _ _ _ q pl kk HI ltac:(left)) as (w & Hw & Hrel). exists w. split; [done|]. cbn [tops]. by destruct Hkk. }
  destruct Hw as (w & Hw & Hrel). rewrite (bind_ok _ _ _ _ _ Hw). eexists _, _. split; [done|].
  eapply (KI_new e s σ Wm Bm K i h _ _ _ [t]); try done. cbn. eauto.
Qed.

(** ** next *)
Lemma k_next i : kgood (KNext i).
Proof.
  intros e s σ HKI. pose proof HKI as (Wm & Bm & K & HK). cbn [ksstep kstep].
  destruct (ks_cur σ !! i) as [sc|] eqn:Hi.
  2:{ destruct (cur_none _ _ _ _ _ _ _ HK Hi) as [-> _]. bad HKI. }
  destruct (cur_some _ _ _ _ _ _ _ _ HK Hi) as (c & own & Hc & Hk & Hr). rewrite Hc. pose proof (own_inv _ _ _ _ _ _ _ _ HK Hk) as HIo.
  destruct c as [h it|h it|fr|it|hd w|hd it cs|hd it ps], sc as [h' ts|h' ys|ts|im n|im cu|im path gs ts|im path top g n]; try done.
  - destruct Hr as (<- & -> & th & ks & Hth & Hcr & Hks). pose proof (bor_inv _ _ _ _ _ _ _ _ HK Hth) as HIb. destruct Hks as [|k x ks ts Hkx Hks].
    + rewrite (bind_ok _ _ _ _ _ (crel_nil _ _ s Hcr)). cbn [fst snd]. eexists _, _. split; [done|]. rewrite <-(kss_eta σ i _ Hi) at 1.
      eapply (KI_upd e s σ Wm Bm K i _ _ [] _ _ s []); try done. cbn. split_and!; [done|done|]. exists th, []. split_and!; [done|done|constructor].
    + destruct (crel_consV _ _ _ _ _ _ _ Hcr HIb) as (it' & Hn & Hcr'). rewrite (bind_ok _ _ _ _ _ Hn). cbn [fst snd].
      destruct (chain_located [th] (k :: ks) k) as [C Hloc]; [apply Hcr|left|].
      rewrite (bind_ok _ _ _ _ _ (observe_at _ _ _ _ _ _ (located_weaken _ _ _ _ Hloc) HIb Hkx)). eexists _, _. split; [done|].
      eapply (KI_upd e s σ Wm Bm K i _ _ [] _ _ s []); try done. cbn. split_and!; [done|done|]. eauto.
  - destruct Hr as (<- & -> & th & Hth & Hrs). pose proof (bor_inv _ _ _ _ _ _ _ _ HK Hth) as HIb.
    destruct ys as [|y ys].
    + destruct Hrs as (_ & qs & xs & r & Hq & Hrt & Hqo & Hys). destruct r; [|done]. inversion Hqo; subst. inversion Hrt as [Hcc|].
      assert (Hn : sp_next it s = Ok (None, []) s) by (unfold sp_next, bind; by rewrite (sp_next_node_none _ s _ _ Hq)).
      rewrite (bind_ok _ _ _ _ _ Hn). cbn [fst snd]. eexists _, _. split; [done|]. rewrite <-(kss_eta σ i _ Hi) at 1.
      eapply (KI_upd e s σ Wm Bm K i _ _ [] _ _ s []); try done. cbn. split_and!; [done|done|]. exists th. split; [done|]. split; [done|].
      exists [], [], []. split_and!; [constructor|constructor|constructor|done].
    + destruct (sp_src [th] it (y :: ys) [th] _ [] s Hrs HIb) as (it' & s' & Hd' & Hn & HI' & Hrs' & Hl').
      assert (s' = s) as -> by (exact (pure_sp_next it s _ _ Hn)).
      rewrite (bind_ok _ _ _ _ _ Hn). cbn [fst snd]. eexists _, _. split; [done|].
      eapply (KI_upd e s σ Wm Bm K i _ _ [] _ _ s []); try done. cbn. split_and!; [done|done|]. exists th. split; [done|]. by destruct Hrs' as [-> ?].
  - bad HKI.
  - destruct Hr as (-> & Hv & xs & Hrt & Hxs & Hqo). rewrite list_lookup_fmap.
    assert (Hq : isq (vals (FK Bm (delete i K)) Wm) (aptr <$> own) own (own ++ vals (FK Bm (delete i K)) Wm)) by done.
    inversion Hqo as [He1 He2|x q r' Hqo' He1 He2]; subst.
    + assert (item_level_order im !! n = None) as ->. { apply lookup_ge_None. symmetry in He2. apply (f_equal length) in He2. rewrite drop_length in He2. cbn in He2. lia. }
      rewrite <-He1 in Hrt. inversion Hrt as [Hcc|]. destruct (isp_next_none _ _ _ _ _ _ Hq HIo) as (s' & H1 & H2 & H3); [done|]. cbn [fmap option_fmap option_map].
      rewrite (bind_ok _ _ _ _ _ H1). cbn [fst snd]. eexists _, _. split; [done|]. rewrite <-(kss_eta σ i _ Hi) at 1.
      eapply (KI_upd e s σ Wm Bm K i _ _ own _ _ s' []); try done. cbn. split_and!; [done|constructor|]. exists []. rewrite <-He2. split_and!; [constructor|done|constructor].
    + assert (item_level_order im !! n = Some x) as ->. { rewrite <-(Nat.add_0_r n), <-lookup_drop, <-He2. done. }
      rewrite <-He1 in Hrt. inversion Hrt as [|k ? rest ? Hkx Hrest Hcc]; subst. symmetry in Hcc. inversion Hkx as [p pl a ks xs Hks]; subst.
      destruct (isp_next_some _ _ _ _ _ _ _ _ _ _ _ Hq HIo Hcc) as (it' & fs' & W' & s' & H1 & H2 & (-> & HW & Hv') & H4 & H5).
      rewrite (bind_ok _ _ _ _ _ H1). cbn [fst snd fmap option_fmap option_map]. unfold visit_of at 1. cbn [root_of kids]. rewrite (Forall2_length _ _ _ Hks), (rts_cnts _ _ Hks).
      eexists _, _. split; [done|]. eapply (KI_upd e s σ Wm Bm K i _ _ own _ _ s' fs'); try done; [by eapply MInv_perm|].
      cbn. split_and!; [done|done|]. exists (q ++ xs). split_and!.
      * rewrite H4. by apply Forall2_app.
      * symmetry in He1. exact (eq_sym (bfs_rest_S _ _ _ _ He1)).
      * assert (drop (S n) (item_level_order im) = r') as ->; [|done]. rewrite <-Nat.add_1_r, <-drop_drop, <-He2. done.
  - bad HKI.
  - bad HKI.
  - destruct Hr as (th & Lat & us & xs & qs & Hr). pose proof (bm_next _ _ _ _ _ _ _ _ _ _ _ _ _ _ _ _ _ Hr HIo) as HN. rewrite list_lookup_fmap.
    destruct (bfs_mut_order im path top !! n) as [x|]; cbn [fmap option_fmap option_map].
    + destruct HN as (p & q' & us' & xs' & qs' & Hn & Hd & Hr'). rewrite (bind_ok _ _ _ _ _ Hn). cbn [fst snd]. rewrite (bind_ok _ _ _ _ _ Hd).
      eexists _, _. split; [done|]. eapply (KI_upd e s σ Wm Bm K i _ _ own _ _ s own); try done. cbn. eauto 10.
    + destruct HN as [Hn Hr']. rewrite (bind_ok _ _ _ _ _ Hn). cbn [fst snd]. eexists _, _. split; [done|]. rewrite <-(kss_eta σ i _ Hi) at 1.
      eapply (KI_upd e s σ Wm Bm K i _ _ own _ _ s own); try done. cbn. eauto 10.
Qed.

(** ** the rest *)
Lemma SEnv_add F env benv senv sbenv Wm Bm x t it : SEnv F [] env benv senv sbenv Wm Bm -> senv !! x = None -> sbenv !! x = None -> ri t it ->
  SEnv F [] (<[x := hof t]> env) benv (<[x := it]> senv) sbenv (<[x := t]> Wm) Bm /\ vals F (<[x := t]> Wm) ≡ₚ t :: vals F Wm.
Proof.
  intros HS Hx Hb Hri. assert (Hw : Wm !! x = None) by (by apply (SEnv_dom _ _ _ _ _ _ _ _ x HS)). split; [|by apply vals_insert].
  destruct HS as [He Hr Hbe Hbr Hsub HR Hdis]. split; try done.
  - by rewrite He, fmap_insert.
  - intros j. destruct (decide (x = j)) as [<-|]; [rewrite !lookup_insert; by constructor|by rewrite !lookup_insert_ne].
  - intros y Hy. by apply elem_of_nil in Hy.
  - intros j [y Hj]. rewrite lookup_insert_ne; [eauto|]. intros <-. congruence.
Qed.
Lemma free_iff e s σ Wm Bm K x : KInvW e s σ Wm Bm K -> (ke_env e !! x = None /\ ke_benv e !! x = None) <-> (ks_env σ !! x = None /\ ks_benv σ !! x = None).
Proof. intros HK. destruct (SEnv_dom _ _ _ _ _ _ _ _ x (ki_env _ _ _ _ _ _ HK)) as (H1 & H2 & _). by rewrite H1, H2. Qed.

Lemma k_take i x : kgood (KTake i x).
Proof.
  intros e s σ HKI. pose proof HKI as (Wm & Bm & K & HK). cbn [ksstep kstep]. pose proof (free_iff _ _ _ _ _ _ x HK) as Hfr.
  destruct (decide (ks_env σ !! x = None /\ ks_benv σ !! x = None)) as [Hx|Hx].
  2:{ rewrite decide_False by (by rewrite Hfr). bad HKI. }
  rewrite decide_True by (by rewrite Hfr). destruct Hx as [Hx Hxb].
  destruct (ks_cur σ !! i) as [sc|] eqn:Hi.
  2:{ destruct (cur_none _ _ _ _ _ _ _ HK Hi) as [-> _]. bad HKI. }
  destruct (cur_some _ _ _ _ _ _ _ _ HK Hi) as (c & own & Hc & Hk & Hr). rewrite Hc. pose proof (own_inv _ _ _ _ _ _ _ _ HK Hk) as HIo.
  destruct c as [h it|h it|fr|it|hd w|hd it cs|hd it ps], sc as [h' ts|h' ys|ts|im n|im cu|im path gs ts|im path top g n]; try done; [bad HKI|bad HKI| |bad HKI|bad HKI|bad HKI|bad HKI].
  destruct Hr as (pl & ks & -> & Hks). unfold into_iter_next. destruct Hks as [|k t ks ts Hkt Hks].
  - rewrite (bind_ok _ _ _ _ _ (pop_front_root_none _ _ _ _ _ _ HIo)). bad HKI.
  - destruct (pop_front_root_some _ _ _ _ _ _ _ _ HIo) as (hp & Hp & HI'). rewrite (bind_ok _ _ _ _ _ Hp).
    assert (Hho : HT (aptr k) = hof k) by (unfold hof; by rewrite (rt_val _ _ Hkt)). rewrite Hho.
    destruct (SEnv_add _ _ _ _ _ _ _ x k (ITree t) (ki_env _ _ _ _ _ _ HK) Hx Hxb Hkt) as [HS _].
    eexists _, _. split; [done|]. rewrite <-(insert_id (ke_cur e) i _ Hc).
    eapply (KI_step e s σ Wm Bm K i _ _ _ _ _ [AN fr pl None ks] _ _ (<[x := k]> Wm)); try done.
    + assert (Hw : Wm !! x = None) by (by apply (SEnv_dom _ _ _ _ _ _ _ _ x (ki_env _ _ _ _ _ _ HK))).
      eapply MInv_perm; [|exact HI']. rewrite (vals_insert _ _ _ Hw). cbn [app]. by rewrite Permutation_swap.
    + cbn. apply HK.
    + cbn. eauto.
Qed.
Lemma k_hint i : kgood (KHint i).
Proof.
  intros e s σ HKI. pose proof HKI as (Wm & Bm & K & HK). cbn [ksstep kstep].
  destruct (ks_cur σ !! i) as [sc|] eqn:Hi.
  2:{ destruct (cur_none _ _ _ _ _ _ _ HK Hi) as [-> _]. bad HKI. }
  destruct (cur_some _ _ _ _ _ _ _ _ HK Hi) as (c & own & Hc & Hk & Hr). rewrite Hc. pose proof (own_inv _ _ _ _ _ _ _ _ HK Hk) as HIo.
  destruct c as [h it|h it|fr|it|hd w|hd it cs|hd it ps], sc as [h' ts|h' ys|ts|im n|im cu|im path gs ts|im path top g n]; try done; [|bad HKI| |bad HKI|bad HKI| |bad HKI].
  - destruct Hr as (<- & -> & th & ks & Hth & Hcr & Hks). unfold ci_size_hint. rewrite (cr_len _ _ _ Hcr), (Forall2_length _ _ _ Hks). bad HKI.
  - destruct Hr as (pl & ks & -> & Hks). unfold into_iter_size_hint. rewrite (bind_ok _ _ _ _ _ (degree_at s [] fr pl None ks _ _ HIo)), (Forall2_length _ _ _ Hks). bad HKI.
  - destruct Hr as (C & p & pl & v & gsA & kp & -> & _ & _ & _ & _ & Hks & _ & Hlen & _). unfold ci_size_hint. rewrite Hlen, (Forall2_length _ _ _ Hks). bad HKI.
Qed.
Lemma k_walk_op i o : kgood (KWalkOp i o).
Proof.
  intros e s σ HKI. pose proof HKI as (Wm & Bm & K & HK). cbn [ksstep kstep].
  destruct (ks_cur σ !! i) as [sc|] eqn:Hi.
  2:{ destruct (cur_none _ _ _ _ _ _ _ HK Hi) as [-> _]. bad HKI. }
  destruct (cur_some _ _ _ _ _ _ _ _ HK Hi) as (c & own & Hc & Hk & Hr). rewrite Hc. pose proof (own_inv _ _ _ _ _ _ _ _ HK Hk) as HIo.
  destruct c as [h it|h it|fr|it|hd w|hd it cs|hd it ps], sc as [h' ts|h' ys|ts|im n|im cu|im path gs ts|im path top g n]; try done; [bad HKI|bad HKI|bad HKI|bad HKI| |bad HKI|bad HKI].
  destruct Hr as (t & -> & Hri & Hhd & Hw). set (W := [t] ++ _) in HIo.
  assert (Hg : good W (tops_a t)) by (apply tops_good; left).
  pose proof (step_run s W [] HIo _ _ Hg (tops_rel _ _ Hri) w cu o Hw) as HR.
  destruct (c_step (tops im) cu o) as [[r' cu']|].
  2:{ by rewrite (bind_err _ _ _ _ HR). }
  destruct HR as (r & w' & Hst & Ho & Hw'). rewrite (bind_ok _ _ _ _ _ Hst). cbn [fst snd].
  assert (Hobs : forall p j st ks k x, stk (tops_a t) p st ks -> ks !! j = Some k -> rt k x -> observe (aptr k) s = Ok (visit_of x) s).
  { intros p j st ks k x Hsk Hkj Hkx. destruct (good_stk _ _ _ _ _ Hg Hsk _ _ Hkj) as (C & Hl & _). exact (observe_at _ _ _ _ _ _ Hl HIo Hkx). }
  assert (Hov : observe_walk r s = Ok (show_walk r') s).
  { destruct r as [[[k p]|]|[p|]|], r' as [[v'|]|[n'|]|]; try done; cbn in Ho.
    - destruct Ho as (q & j & st & ks & t' & _ & Hsk & Hkj & Hrt & Hv). injection Hv as -> ->. unfold observe_walk. rewrite (bind_ok _ _ _ _ _ (Hobs _ _ _ _ _ _ Hsk Hkj Hrt)). done.
    - destruct Ho as (q & j & st & ks & t' & _ & Hsk & Hkj & Hrt & ->). unfold observe_walk. rewrite (bind_ok _ _ _ _ _ (Hobs _ _ _ _ _ _ Hsk Hkj Hrt)). done. }
  rewrite (bind_ok _ _ _ _ _ Hov). eexists _, _. split; [done|].
  eapply (KI_upd e s σ Wm Bm K i _ _ [t] _ _ s [t]); try done. cbn. eauto.
Qed.
Lemma k_back i x : kgood (KBack i x).
Proof.
  intros e s σ HKI. pose proof HKI as (Wm & Bm & K & HK). cbn [ksstep kstep]. pose proof (free_iff _ _ _ _ _ _ x HK) as Hfr.
  destruct (decide (ks_env σ !! x = None /\ ks_benv σ !! x = None)) as [Hx|Hx].
  2:{ rewrite decide_False by (by rewrite Hfr). bad HKI. }
  rewrite decide_True by (by rewrite Hfr). destruct Hx as [Hx Hxb].
  destruct (ks_cur σ !! i) as [sc|] eqn:Hi.
  2:{ destruct (cur_none _ _ _ _ _ _ _ HK Hi) as [-> _]. bad HKI. }
  destruct (cur_some _ _ _ _ _ _ _ _ HK Hi) as (c & own & Hc & Hk & Hr). rewrite Hc. pose proof (own_inv _ _ _ _ _ _ _ _ HK Hk) as HIo.
  destruct c as [h it|h it|fr|it|hd w|hd it cs|hd it ps], sc as [h' ts|h' ys|ts|im n|im cu|im path gs ts|im path top g n]; try done; [bad HKI|bad HKI|bad HKI|bad HKI| | |].
  - destruct Hr as (t & -> & Hri & -> & _). destruct (SEnv_add _ _ _ _ _ _ _ x t im (ki_env _ _ _ _ _ _ HK) Hx Hxb Hri) as [HS _].
    eexists _, _. split; [done|]. eapply (KI_end e s σ Wm Bm K i _ _ _ _ (<[x := t]> Wm)); try done; [|apply HK].
    assert (Hw : Wm !! x = None) by (by apply (SEnv_dom _ _ _ _ _ _ _ _ x (ki_env _ _ _ _ _ _ HK))).
    eapply MInv_perm; [|exact HIo]. by rewrite (vals_insert _ _ _ Hw).
  - destruct Hr as (C & p & pl & v & gsA & kp & -> & -> & Hset & _ & Hsg & Hks & _). set (t := plug C (AN p pl v (flat_map aseg_trees gsA ++ kp))) in *.
    assert (Hri : ri t (mut_item im path gs ts)). { apply Hset. apply Forall2_app; [by apply segrels_trees|done]. }
    rewrite (hof_plug C p pl v [] (flat_map aseg_trees gsA ++ kp)). fold t.
    destruct (SEnv_add _ _ _ _ _ _ _ x t _ (ki_env _ _ _ _ _ _ HK) Hx Hxb Hri) as [HS _].
    eexists _, _. split; [done|]. eapply (KI_end e s σ Wm Bm K i _ _ _ _ (<[x := t]> Wm)); try done; [|apply HK].
    assert (Hw : Wm !! x = None) by (by apply (SEnv_dom _ _ _ _ _ _ _ _ x (ki_env _ _ _ _ _ _ HK))).
    eapply MInv_perm; [|exact HIo]. by rewrite (vals_insert _ _ _ Hw).
  - destruct Hr as (th & Lat & us & xs & qs & Hr). pose proof (bm_hd _ _ _ _ _ _ _ _ _ _ _ _ _ _ Hr) as ->. pose proof (bm_own _ _ _ _ _ _ _ _ _ _ _ _ _ _ Hr) as ->.
    pose proof (bm_ri _ _ _ _ _ _ _ _ _ _ _ _ _ _ Hr g) as Hri. set (t := amap (bmap g Lat) th) in *.
    assert (hof th = hof t) as -> by (by destruct th as [? ? [?|] ?]).
    destruct (SEnv_add _ _ _ _ _ _ _ x t _ (ki_env _ _ _ _ _ _ HK) Hx Hxb Hri) as [HS _].
    eexists _, _. split; [done|]. eapply (KI_end e s σ Wm Bm K i _ _ _ _ (<[x := t]> Wm)); try done; [|apply HK].
    assert (Hw : Wm !! x = None) by (by apply (SEnv_dom _ _ _ _ _ _ _ _ x (ki_env _ _ _ _ _ _ HK))).
    eapply MInv_perm; [|exact HIo]. by rewrite (vals_insert _ _ _ Hw).
Qed.
Lemma k_close i : kgood (KClose i).
Proof.
  intros e s σ HKI. pose proof HKI as (Wm & Bm & K & HK). cbn [ksstep kstep].
  destruct (ks_cur σ !! i) as [sc|] eqn:Hi.
  2:{ destruct (cur_none _ _ _ _ _ _ _ HK Hi) as [-> _]. bad HKI. }
  destruct (cur_some _ _ _ _ _ _ _ _ HK Hi) as (c & own & Hc & Hk & Hr). rewrite Hc. pose proof (own_inv _ _ _ _ _ _ _ _ HK Hk) as HIo.
  pose proof (ki_env _ _ _ _ _ _ HK) as HS. pose proof (ki_log _ _ _ _ _ _ HK) as Hlog.
  destruct c as [h it|h it|fr|it|hd w|hd it cs|hd it ps], sc as [h' ts|h' ys|ts|im n|im cu|im path gs ts|im path top g n]; try done.
  - destruct Hr as (<- & -> & th & ks & Hth & _). eexists _, _. split; [done|]. eapply borrow_end; try done; eauto.
  - destruct Hr as (<- & -> & th & Hth & _). eexists _, _. split; [done|]. eapply borrow_end; try done; eauto.
  - destruct Hr as (pl & ks & -> & Hks). destruct (into_iter_drop_spec _ _ _ _ _ _ HIo) as (s' & H1 & H2 & H3). rewrite (bind_ok _ _ _ _ _ H1).
    eexists _, _. split; [done|]. eapply (KI_end e s σ Wm Bm K i); try done. by rewrite H3, Hlog, (rts_post _ _ Hks).
  - destruct Hr as (-> & Hv & xs & Hrt & Hxs & Hqo).
    destruct (isp_drop_spec (vals (FK Bm (delete i K)) Wm) [] own (aptr <$> own) (own ++ vals (FK Bm (delete i K)) Wm) s) as (s' & H1 & H2 & H3); [by split|exact HIo|]. rewrite (bind_ok _ _ _ _ _ H1).
    eexists _, _. split; [done|]. eapply (KI_end e s σ Wm Bm K i); try done. by rewrite H3, Hlog, (rts_post _ _ Hrt), Hxs.
  - destruct Hr as (t & -> & Hri & -> & _). rewrite addr_hof. destruct (drop_tree_spec _ _ _ _ HIo) as (s' & H1 & H2 & H3 & _). rewrite (bind_ok _ _ _ _ _ H1).
    eexists _, _. split; [done|]. eapply (KI_end e s σ Wm Bm K i); try done. by rewrite H3, Hlog, (ri_post _ _ Hri).
  - destruct Hr as (C & p & pl & v & gsA & kp & -> & -> & Hset & _ & Hsg & Hks & _). set (t := plug C (AN p pl v (flat_map aseg_trees gsA ++ kp))) in *.
    assert (Hri : ri t (mut_item im path gs ts)). { apply Hset. apply Forall2_app; [by apply segrels_trees|done]. }
    rewrite (hof_plug C p pl v [] (flat_map aseg_trees gsA ++ kp)). fold t.
    rewrite addr_hof. destruct (drop_tree_spec _ _ _ _ HIo) as (s' & H1 & H2 & H3 & _). rewrite (bind_ok _ _ _ _ _ H1).
    eexists _, _. split; [done|]. eapply (KI_end e s σ Wm Bm K i); try done. by rewrite H3, Hlog, (ri_post _ _ Hri).
  - destruct Hr as (th & Lat & us & xs & qs & Hr). pose proof (bm_hd _ _ _ _ _ _ _ _ _ _ _ _ _ _ Hr) as ->. pose proof (bm_own _ _ _ _ _ _ _ _ _ _ _ _ _ _ Hr) as ->.
    pose proof (bm_ri _ _ _ _ _ _ _ _ _ _ _ _ _ _ Hr g) as Hri. set (t := amap (bmap g Lat) th) in *.
    assert (hof th = hof t) as -> by (by destruct th as [? ? [?|] ?]).
    rewrite addr_hof. destruct (drop_tree_spec _ _ _ _ HIo) as (s' & H1 & H2 & H3 & _). rewrite (bind_ok _ _ _ _ _ H1).
    eexists _, _. split; [done|]. eapply (KI_end e s σ Wm Bm K i); try done. by rewrite H3, Hlog, (ri_post _ _ Hri).
Qed.

(** ** mutable references *)
Lemma SEnv_del F env benv senv sbenv Wm Bm y : SEnv F [] env benv senv sbenv Wm Bm -> SEnv F [] (delete y env) benv (delete y senv) sbenv (delete y Wm) Bm.
Proof.
  intros [He Hr ? ? ? ? Hdis]. split; try done.
  - by rewrite He, fmap_delete.
  - intros j. destruct (decide (y = j)) as [->|]; [rewrite !lookup_delete; constructor|by rewrite !lookup_delete_ne].
  - intros x Hx. by apply elem_of_nil in Hx.
  - intros j Hj. apply lookup_delete_None. right. by apply Hdis.
Qed.
Lemma node_set_kids (it : item A) path ts l : kids_at it path = Some ts -> node_at (set_kids it path l) path = match node_at it path with Some t => Some (Tr (root_of t) l) | None => None end.
Proof.
  destruct it as [t|fs]; cbn [kids_at node_at set_kids].
  - intros H1. destruct (subtree t path) as [u|] eqn:Hu; [|done]. unfold set_kids_tree. by rewrite (subtree_update _ _ _ _ Hu).
  - destruct path as [|i path]; cbn [node_at]; [done|]. intros H1. destruct (fs !! i) as [t|] eqn:Ht; [|done].
    rewrite (alter_Some_eq _ _ _ _ Ht). unfold set_kids_tree. destruct (subtree t path) as [u|] eqn:Hu; [|done].
    by rewrite (subtree_update _ _ _ _ Hu).
Qed.
Lemma ri_inner (C : ctx A) : forall f t it, ri (plug (f :: C) t) it -> exists x, rt t x.
Proof.
  induction C as [|g C IH]; intros [u ul uv L R] t it Hr; rewrite plug_cons in Hr; cbn [plug1] in Hr.
  - cbn [plug foldl] in Hr. assert (exists xs, Forall2 rt (L ++ t :: R) xs) as [xs Hxs].
    { destruct it as [x|xs]; cbn [ri] in Hr; [|destruct Hr; eauto]. apply rt_kids in Hr. eauto. }
    apply Forall2_app_inv_l in Hxs as (? & ? & _ & Hx & _). inversion Hx; subst; eauto.
  - destruct (IH g _ it Hr) as [x Hx]. apply rt_kids in Hx. cbn [akids] in Hx. apply Forall2_app_inv_l in Hx as (? & ? & _ & Hx' & _). inversion Hx'; subst; eauto.
Qed.
Lemma ri_none (C : ctx A) p pl ks it : ri (plug C (AN p pl None ks)) it -> C = [].
Proof. destruct C as [|f C]; [done|]. intros Hr. destruct (ri_inner _ _ _ _ Hr) as [x Hx]. inversion Hx. Qed.

Lemma k_iter_mut i h path : kgood (KIterMut i h path).
Proof.
  intros e s σ HKI. pose proof HKI as (Wm & Bm & K & HK). cbn [ksstep kstep].
  destruct (ks_cur σ !! i) as [sc|] eqn:Hi.
  { destruct (cur_some _ _ _ _ _ _ _ _ HK Hi) as (c & own & -> & _). bad HKI. }
  destruct (cur_none _ _ _ _ _ _ _ HK Hi) as [-> _]. pose proof (take_lookup _ _ _ _ _ _ h HK) as Hlk. destruct (ks_env σ !! h) as [it|] eqn:Hh; [|rewrite Hlk; bad HKI].
  destruct Hlk as (t & Ht & Hri & -> & _ & HI).
  pose proof (SEnv_REnv _ _ _ _ _ _ _ _ _ _ (ki_env _ _ _ _ _ _ HK) (ki_inv _ _ _ _ _ _ HK)) as HR.
  pose proof (RE_locate _ _ _ _ _ _ _ path HR Ht Hri) as HL. destruct (kids_at it path) as [xs|] eqn:Hkids.
  2:{ destruct HL as [Hres _]. rewrite (bind_ok _ _ _ _ _ Hres). bad HKI. }
  destruct HL as (C & p & pl & v & ks & -> & _ & Hres & HI2 & Hks & Hset & Hn & _). rewrite (bind_ok _ _ _ _ _ Hres).
  assert (Hit : iter p s = Ok (NodeModel.CIter (hdp ks None) (length ks)) s).
  { unfold iter, bind, get. rewrite (lookup_at _ _ _ _ _ _ _ _ HI2). by destruct ks. }
  rewrite (bind_ok _ _ _ _ _ Hit). eexists _, _. split; [done|].
  eapply (KI_new e s σ Wm Bm K i h _ _ _ [plug C (AN p pl v ks)]); try done. cbn.
  exists C, p, pl, v, [], ks. split_and!; try done.
  - apply hof_plug.
  - intros xs'. rewrite (node_set_kids _ _ _ _ Hkids), Hn. by destruct v.
Qed.
Lemma k_bfs_mut i h path : kgood (KBfsMut i h path).
Proof.
  intros e s σ HKI. pose proof HKI as (Wm & Bm & K & HK). cbn [ksstep kstep].
  destruct (ks_cur σ !! i) as [sc|] eqn:Hi.
  { destruct (cur_some _ _ _ _ _ _ _ _ HK Hi) as (c & own & -> & _). bad HKI. }
  destruct (cur_none _ _ _ _ _ _ _ HK Hi) as [-> _]. pose proof (take_lookup _ _ _ _ _ _ h HK) as Hlk. destruct (ks_env σ !! h) as [it|] eqn:Hh; [|rewrite Hlk; bad HKI].
  destruct Hlk as (t & Ht & Hri & -> & _ & HI).
  pose proof (SEnv_REnv _ _ _ _ _ _ _ _ _ _ (ki_env _ _ _ _ _ _ HK) (ki_inv _ _ _ _ _ _ HK)) as HR.
  pose proof (RE_locate _ _ _ _ _ _ _ path HR Ht Hri) as HL. destruct (kids_at it path) as [xs|] eqn:Hkids.
  2:{ destruct HL as [Hres ->]. destruct (is_forest_root _ path); [bad HKI|]. rewrite (bind_ok _ _ _ _ _ Hres). bad HKI. }
  destruct HL as (C & p & pl & v & ks & Hth & Haf & Hres & HI2 & Hks & Hset & Hn & _ & Hroot). rewrite Hn, Hroot. destruct v as [a|]; [|bad HKI]. rewrite (bind_ok _ _ _ _ _ Hres).
  assert (exists sz, bfs p s = Ok ([ci_once p], sz) s) as [sz Hbfs].
  { unfold bfs, bind, get. rewrite (lookup_at _ _ _ _ _ _ _ _ HI2). eexists. done. }
  rewrite (bind_ok _ _ _ _ _ Hbfs). cbn [fst]. eexists _, _. split; [done|].
  eapply (KI_new e s σ Wm Bm K i h _ _ _ [t]); try done. cbn. exists t.
  refine (bm_start t it path true C p pl (Some a) ks xs _ s _ [] Hth Haf HI Hks Hkids Hset Hn _ _); [eauto|].
  constructor; [|constructor]. split; [done|done|]. eapply chain_once. exists []. by rewrite Hth.
Qed.
Lemma k_bfs_kids_mut i h path : kgood (KBfsKidsMut i h path).
Proof.
  intros e s σ HKI. pose proof HKI as (Wm & Bm & K & HK). cbn [ksstep kstep].
  destruct (ks_cur σ !! i) as [sc|] eqn:Hi.
  { destruct (cur_some _ _ _ _ _ _ _ _ HK Hi) as (c & own & -> & _). bad HKI. }
  destruct (cur_none _ _ _ _ _ _ _ HK Hi) as [-> _]. pose proof (take_lookup _ _ _ _ _ _ h HK) as Hlk. destruct (ks_env σ !! h) as [it|] eqn:Hh; [|rewrite Hlk; bad HKI].
  destruct Hlk as (t & Ht & Hri & -> & _ & HI).
  pose proof (SEnv_REnv _ _ _ _ _ _ _ _ _ _ (ki_env _ _ _ _ _ _ HK) (ki_inv _ _ _ _ _ _ HK)) as HR.
  pose proof (RE_locate _ _ _ _ _ _ _ path HR Ht Hri) as HL. destruct (kids_at it path) as [xs|] eqn:Hkids.
  2:{ destruct HL as [Hres _]. rewrite (bind_ok _ _ _ _ _ Hres). bad HKI. }
  destruct HL as (C & p & pl & v & ks & Hth & Haf & Hres & HI2 & Hks & Hset & Hn & _). rewrite (bind_ok _ _ _ _ _ Hres).
  assert (Hloc : located [t] C (AN p pl v ks)) by (exists []; by rewrite Hth).
  destruct (crel_iterV _ _ _ _ _ _ _ _ _ Hloc HI) as (it0 & Hit & Hcr).
  assert (exists sz, bfs_children p s = Ok ([it0], sz) s) as [sz Hbfs].
  { unfold bfs_children. rewrite (bind_ok _ _ _ _ _ Hit). unfold bind, get. rewrite (lookup_at _ _ _ _ _ _ _ _ HI2). eexists. done. }
  rewrite (bind_ok _ _ _ _ _ Hbfs). cbn [fst]. eexists _, _. split; [done|].
  eapply (KI_new e s σ Wm Bm K i h _ _ _ [t]); try done. cbn. exists t.
  refine (bm_start t it path false C p pl v ks xs _ s _ [] Hth Haf HI Hks Hkids Hset Hn _ _); [done|]. constructor; [exact Hcr|constructor].
Qed.
Lemma k_data i j f : kgood (KData i j f).
Proof.
  intros e s σ HKI. pose proof HKI as (Wm & Bm & K & HK). cbn [ksstep kstep].
  destruct (ks_cur σ !! i) as [sc|] eqn:Hi.
  2:{ destruct (cur_none _ _ _ _ _ _ _ HK Hi) as [-> _]. bad HKI. }
  destruct (cur_some _ _ _ _ _ _ _ _ HK Hi) as (c & own & Hc & Hk & Hr). rewrite Hc. pose proof (own_inv _ _ _ _ _ _ _ _ HK Hk) as HIo.
  destruct c as [h it|h it|fr|it|hd w|hd it cs|hd it ps], sc as [h' ts|h' ys|ts|im n|im cu|im path gs ts|im path top g n]; try done; [bad HKI|bad HKI|bad HKI|bad HKI|bad HKI|bad HKI|].
  destruct Hr as (th & Lat & us & xs & qs & Hr). pose proof (bm_data _ _ _ _ _ _ _ _ _ _ _ _ _ _ _ _ _ j f Hr HIo) as HN.
  destruct (take n (bfs_mut_order im path top) !! j) as [u|]; [|rewrite HN; bad HKI].
  destruct HN as (p & hp & own' & qs' & -> & Hd & Hm & HI' & Hr'). rewrite (bind_ok _ _ _ _ _ Hd), (bind_ok _ _ _ _ _ Hm). eexists _, _. split; [done|].
  destruct e as [env benv cur]. cbn [ke_env ke_benv ke_cur] in *. rewrite <-(insert_id cur i _ Hc) at 1.
  eapply (KI_upd (KE env benv cur) s σ Wm Bm K i _ _ own _ _ (set_heap s hp) own'); try done. cbn. eauto 10.
Qed.
Lemma k_yield i : kgood (KYield i).
Proof.
  intros e s σ HKI. pose proof HKI as (Wm & Bm & K & HK). cbn [ksstep kstep].
  destruct (ks_cur σ !! i) as [sc|] eqn:Hi.
  2:{ destruct (cur_none _ _ _ _ _ _ _ HK Hi) as [-> _]. bad HKI. }
  destruct (cur_some _ _ _ _ _ _ _ _ HK Hi) as (c & own & Hc & Hk & Hr). rewrite Hc. pose proof (own_inv _ _ _ _ _ _ _ _ HK Hk) as HIo.
  destruct c as [h it|h it|fr|it|hd w|hd it cs|hd it ps], sc as [h' ts|h' ys|ts|im n|im cu|im path gs ts|im path top g n]; try done; [bad HKI|bad HKI|bad HKI|bad HKI|bad HKI| |bad HKI].
  destruct Hr as (C & p & pl & v & gsA & kp & -> & -> & Hset & Hn & Hsg & Hks & -> & Hlen & Hcur). destruct it as [ic il]. cbn [ci_len ci_curr] in Hlen, Hcur. subst il.
  destruct Hks as [|k t kp ts Hkt Hks].
  - cbn [length]. assert (Hnx : ci_next (NodeModel.CIter ic 0) s = Ok (None, NodeModel.CIter ic 0) s) by done. rewrite (bind_ok _ _ _ _ _ Hnx). cbn [fst snd].
    eexists _, _. split; [done|]. rewrite <-(kss_eta σ i _ Hi) at 1. eapply (KI_upd e s σ Wm Bm K i _ _ _ _ _ s); try done. cbn.
    exists C, p, pl, v, gsA, []. by split_and!.
  - rewrite (Hcur ltac:(done)). destruct k as [q ql qv qs]. cbn [hdp aptr length].
    assert (Hnx : ci_next (NodeModel.CIter (Some q) (S (length kp))) s = Ok (Some q, NodeModel.CIter (next_of (Fr p pl v (flat_map aseg_trees gsA) kp :: C)) (length kp)) s).
    { unfold ci_next, bind, get. cbn [ci_len ci_curr]. pose proof (lookup_at s (Fr p pl v (flat_map aseg_trees gsA) kp :: C) q ql qv qs _ _ HIo) as ->. done. }
    rewrite (bind_ok _ _ _ _ _ Hnx). cbn [fst snd]. eexists _, _. split; [done|].
    eapply (KI_upd e s σ Wm Bm K i _ _ _ _ _ s [plug C (AN p pl v (flat_map aseg_trees gsA ++ AN q ql qv qs :: kp))]); try done. cbn.
    exists C, p, pl, v, (gsA ++ [([], Some (AN q ql qv qs), [])]), kp. split_and!; try done.
    + rewrite flat_map_app. cbn [flat_map aseg_trees fst snd option_list]. by rewrite <-app_assoc.
    + apply Forall2_app; [done|]. by repeat constructor.
    + unfold cs_of. by rewrite fmap_app.
Qed.

Lemma bind_bind {X Y Z} (m : M A X) (g : X -> M A Y) (k : Y -> M A Z) s : bind (bind m g) k s = bind m (fun x => bind (g x) k) s.
Proof. unfold bind. by destruct (m s). Qed.
Lemma k_ref i j o : kgood (KRef i j o).
Proof.
  intros e s σ HKI. pose proof HKI as (Wm & Bm & K & HK). cbn [ksstep kstep].
  destruct (ks_cur σ !! i) as [sc|] eqn:Hi.
  2:{ destruct (cur_none _ _ _ _ _ _ _ HK Hi) as [-> _]. bad HKI. }
  destruct (cur_some _ _ _ _ _ _ _ _ HK Hi) as (c & own & Hc & Hk & Hr). rewrite Hc. pose proof (own_inv _ _ _ _ _ _ _ _ HK Hk) as HIo.
  destruct c as [h it|h it|fr|it|hd w|hd it cs|hd it ps], sc as [h' ts|h' ys|ts|im n|im cu|im path gs ts|im path top g n]; try done; [bad HKI|bad HKI|bad HKI|bad HKI|bad HKI| |bad HKI].
  destruct Hr as (C & p & pl & v & gsA & kp & -> & -> & Hset & Hn & Hsg & Hks & -> & Hlen & Hcur).
  set (hd := hof (plug C (AN p pl v []))) in *.
  assert (Hfin : forall gsA' gs' env' senv' Wm' s', Forall2 segrel gsA' gs' -> SEnv (FK Bm K) [] env' (ke_benv e) senv' (ks_benv σ) Wm' Bm ->
    MInvX s' (plug C (AN p pl v (flat_map aseg_trees gsA' ++ kp)) :: vals (FK Bm (delete i K)) Wm') [] -> m_log s' = m_log s ->
    KInv (KE env' (ke_benv e) (<[i := CMut hd it (cs_of gsA')]> (ke_cur e))) s' (KS senv' (ks_benv σ) (<[i := SMut im path gs' ts]> (ks_cur σ)) (ks_log σ))).
  { intros gsA' gs' env' senv' Wm' s' Hsg' HS' HI' Hl'. eapply (KI_step e s σ Wm Bm K i _ _ _ _ _ [plug C (AN p pl v (flat_map aseg_trees gsA' ++ kp))] _ _ Wm'); try done.
    - rewrite Hl'. apply HK.
    - cbn. exists C, p, pl, v, gsA', kp. by split_and!. }
  pose proof (ki_env _ _ _ _ _ _ HK) as HS. unfold ref_step. pose proof (cs_of_lookup gsA gs j Hsg) as Hj.
  destruct (gs !! j) as [[[pre [t|]] post]|] eqn:Hsj; [|rewrite Hj; bad HKI|rewrite Hj; bad HKI].
  destruct Hj as (apre & at_ & apost & Hgj & Hpre & Hat & Hpost & ->). destruct (rt_inv _ _ Hat) as (kq & kl & kks & -> & Hkks). cbn [aptr].
  pose proof HIo as HIj. rewrite (flat_split _ _ _ _ Hgj) in HIj. unfold aseg_trees at 2 in HIj. cbn [fst snd option_list app] in HIj.
  set (L := flat_map aseg_trees (take j gsA)) in *. set (R2 := flat_map aseg_trees (drop (S j) gsA)) in *. set (rest := vals (FK Bm (delete i K)) Wm) in *.
  set (fr := Fr p pl v (L ++ apre) (apost ++ R2 ++ kp)).
  assert (HIq : MInvX s (plug (fr :: C) (AN kq kl (Some (root_of t)) kks) :: rest) []).
  { rewrite plug_cons. cbn [plug1 fr]. eapply MInv_perm; [|exact HIj]. by rewrite <-!app_assoc. }
  assert (Hput : forall v' ks' env' senv' Wm' s' t', rt (AN kq kl (Some v') ks') t' -> SEnv (FK Bm K) [] env' (ke_benv e) senv' (ks_benv σ) Wm' Bm ->
    MInvX s' (plug (fr :: C) (AN kq kl (Some v') ks') :: vals (FK Bm (delete i K)) Wm') [] -> m_log s' = m_log s ->
    KInv (KE env' (ke_benv e) (<[i := CMut hd it (cs_of gsA)]> (ke_cur e))) s' (KS senv' (ks_benv σ) (<[i := SMut im path (<[j := (pre, Some t', post)]> gs) ts]> (ks_cur σ)) (ks_log σ))).
  { intros v' ks' env' senv' Wm' s' t' Ht' HS' HI' Hl'.
    rewrite <-(cs_of_insert_ptr gsA j _ (apre, Some (AN kq kl (Some v') ks'), apost) Hgj ltac:(done)). eapply Hfin; try done.
    - apply Forall2_insert; [done|]. split_and!; cbn [fst snd]; [done| |done]. by constructor.
    - rewrite plug_cons in HI'. cbn [plug1 fr] in HI'. eapply MInv_perm; [|exact HI']. rewrite (flat_split_ins _ _ _ _ _ Hgj). fold L R2.
      unfold aseg_trees; cbn [fst snd option_list app]; by rewrite <-!app_assoc. }
  assert (Hsame : KInv (KE (ke_env e) (ke_benv e) (<[i := CMut hd it (cs_of gsA)]> (ke_cur e))) s (KS (ks_env σ) (ks_benv σ) (<[i := SMut im path gs ts]> (ks_cur σ)) (ks_log σ))).
  { by eapply Hfin. }
  destruct o as [| |f|d y|d x|d y|d y|x]; cbn [ref_call].
  - (* see *)
    assert (Hob : observe kq s = Ok (visit_of t) s). { eapply (observe_at s _ [] (fr :: C) (AN kq kl (Some (root_of t)) kks) t); [by exists rest|exact HIq|done]. }
    rewrite bind_bind, (bind_ok _ _ _ _ _ Hob). eexists _, _. by split.
  - (* parent *)
    assert (Hri : Forall2 rt (flat_map aseg_trees gsA ++ kp) (flat_map seg_trees gs ++ ts)) by (apply Forall2_app; [by apply segrels_trees|done]).
    assert (Hpa : parent kq s = Ok (match v with Some _ => Some p | None => None end) s).
    { rewrite (parent_at _ _ _ _ _ _ _ _ HIq); [by destruct v|]. intros u ul uv L' R' C1 [= <- <- <- <- <- <-] ->. eapply ri_none. by apply (Hset _ _ Hri). }
    unfold mut_item. rewrite Hn. destruct v as [a|].
    + assert (Hob : observe p s = Ok (visit_of (Tr a (flat_map seg_trees gs ++ ts))) s).
      { eapply (observe_at s _ [] C (AN p pl (Some a) (flat_map aseg_trees gsA ++ kp))); [by exists rest|exact HIo|]. by constructor. }
      assert (Hrc : (let! u := parent kq in match u with Some u => let! w := observe u in ret (Some (KVisit (Some w), ke_env e, cs_of gsA)) | None => ret (Some (KVisit None, ke_env e, cs_of gsA)) end) s
        = Ok (Some (KVisit (Some (visit_of (Tr a (flat_map seg_trees gs ++ ts)))), ke_env e, cs_of gsA)) s).
      { rewrite (bind_ok _ _ _ _ _ Hpa). by rewrite (bind_ok _ _ _ _ _ Hob). }
      rewrite (bind_ok _ _ _ _ _ Hrc). eexists _, _. by split.
    + rewrite bind_bind, (bind_ok _ _ _ _ _ Hpa). eexists _, _. by split.
  - (* data_mut *)
    destruct (modify_at s (fr :: C) kq kl (root_of t) kks f rest [] HIq) as (hp & Hp & HI'). rewrite bind_bind, (bind_ok _ _ _ _ _ Hp).
    eexists _, _. split; [done|]. eapply (Hput (f (root_of t)) kks); try done; by constructor.
  - (* push *)
    pose proof (take_lookup _ _ _ _ _ _ y HK) as Hlk. destruct (ks_env σ !! y) as [[u|us]|] eqn:Hy; [|destruct Hlk as (? & _ & _ & -> & -> & _); bad HKI|rewrite Hlk; bad HKI].
    destruct Hlk as (u' & Hu & Hru & -> & -> & _). destruct (RE_hT _ _ Hru) as (q & ql & qs & -> & Hqs). cbn [aptr].
    destruct (push_at d s (fr :: C) kq kl (Some (root_of t)) kks q ql (root_of u) qs (vals (FK Bm (delete i K)) (delete y Wm)) []) as (hp & Hp & HI').
    { eapply MInv_perm; [|exact HIq]. unfold rest. rewrite <-(vals_delete _ _ _ Hu). apply Permutation_swap. }
    rewrite bind_bind, (bind_ok _ _ _ _ _ Hp). eexists _, _. split; [done|]. eapply Hput; [|by apply SEnv_del|exact HI'|done].
    constructor. destruct d; [by constructor|]. apply Forall2_app; [done|]. by repeat constructor.
  - (* pop *)
    pose proof (free_iff _ _ _ _ _ _ x HK) as Hfr. destruct (decide (ks_env σ !! x = None /\ ks_benv σ !! x = None)) as [Hx|Hx].
    2:{ rewrite decide_False by (by rewrite Hfr). bad HKI. }
    rewrite decide_True by (by rewrite Hfr). destruct Hx as [Hx Hxb].
    assert (Hw : Wm !! x = None) by (by apply (SEnv_dom _ _ _ _ _ _ _ _ x HS)).
    assert (Hget : forall (k : atree A) ks u us, rt k u -> Forall2 rt ks us -> kks = match d with Front => k :: ks | Back => ks ++ [k] end ->
      exists s', match d with Front => pop_front kq | Back => pop_back kq end s = Ok (Some (aptr k)) s' /\
      KInv (KE (<[x := HT (aptr k)]> (ke_env e)) (ke_benv e) (<[i := CMut hd it (cs_of gsA)]> (ke_cur e))) s' (KS (<[x := ITree u]> (ks_env σ)) (ks_benv σ) (<[i := SMut im path (<[j := (pre, Some (Tr (root_of t) us), post)]> gs) ts]> (ks_cur σ)) (ks_log σ))).
    { intros k ks u us Hku Hkus Hkk. rewrite Hkk in HIq. destruct (pop_at_some d s _ _ _ _ k ks _ _ HIq) as (hp & Hp & HI').
      eexists. split; [exact Hp|].
      assert (HT (aptr k) = hof k) as -> by (unfold hof; by rewrite (rt_val _ _ Hku)).
      destruct (SEnv_add _ _ _ _ _ _ _ x k (ITree u) HS Hx Hxb Hku) as [HS' _].
      eapply (Hput _ ks); [by constructor|exact HS'| |done]. eapply MInv_perm; [|exact HI']. rewrite (vals_insert _ _ _ Hw). apply Permutation_swap. }
    destruct d.
    + destruct Hkks as [|k u kks us Hku Hkks']; [|destruct (Hget k kks u us Hku Hkks' eq_refl) as (s' & Hp & HKn); rewrite bind_bind, (bind_ok _ _ _ _ _ Hp); eexists _, _; split; [done|exact HKn]].
      rewrite bind_bind, (bind_ok _ _ _ _ _ (pop_at_none Front _ _ _ _ _ _ _ HIq)). eexists _, _. by split.
    + destruct (kks) as [|k kks' _] using rev_ind.
      * inversion Hkks as [Hkn|]. cbn [last]. rewrite bind_bind, (bind_ok _ _ _ _ _ (pop_at_none Back _ _ _ _ _ _ _ HIq)). eexists _, _. by split.
      * apply Forall2_app_inv_l in Hkks as (us & us' & Hus & Hu' & Hkt). inversion Hu' as [|? u ? ? Hku Hnil]; subst. inversion Hnil; subst. rewrite Hkt, last_snoc.
        rewrite removelast_last. destruct (Hget k kks' u us Hku Hus eq_refl) as (s' & Hp & HKn); rewrite bind_bind, (bind_ok _ _ _ _ _ Hp); eexists _, _; split; [done|exact HKn].
  - (* concat *)
    pose proof (take_lookup _ _ _ _ _ _ y HK) as Hlk. destruct (ks_env σ !! y) as [[u|us]|] eqn:Hy; [destruct Hlk as (? & _ & _ & -> & -> & _); bad HKI| |rewrite Hlk; bad HKI].
    destruct Hlk as (u' & Hu & Hru & -> & -> & _). destruct (RE_hF _ _ Hru) as (q & ql & qs & -> & Hqs). cbn [aptr].
    destruct (concat_at d s (fr :: C) kq kl (Some (root_of t)) kks q ql qs (vals (FK Bm (delete i K)) (delete y Wm)) []) as (s' & Hp & HI' & Hl).
    { eapply MInv_perm; [|exact HIq]. unfold rest. rewrite <-(vals_delete _ _ _ Hu). apply Permutation_swap. }
    rewrite bind_bind, (bind_ok _ _ _ _ _ Hp). eexists _, _. split; [done|]. eapply Hput; [|by apply SEnv_del|exact HI'|done].
    constructor. destruct d; by apply Forall2_app.
  - (* insert *)
    pose proof (take_lookup _ _ _ _ _ _ y HK) as Hlk. destruct (ks_env σ !! y) as [[u|us]|] eqn:Hy; [|destruct Hlk as (? & _ & _ & -> & -> & _); bad HKI|rewrite Hlk; bad HKI].
    destruct Hlk as (u' & Hu & Hru & -> & -> & _). destruct (RE_hT _ _ Hru) as (q & ql & qs & -> & Hqs). cbn [aptr].
    destruct (insert_at d s C p pl v (L ++ apre) (apost ++ R2 ++ kp) kq kl (Some (root_of t)) kks q ql (root_of u) qs (vals (FK Bm (delete i K)) (delete y Wm)) []) as (hp & Hp & HI').
    { rewrite plug_cons in HIq. cbn [plug1 fr] in HIq. eapply MInv_perm; [|exact HIq]. unfold rest. rewrite <-(vals_delete _ _ _ Hu). apply Permutation_swap. }
    rewrite bind_bind, (bind_ok _ _ _ _ _ Hp). eexists _, _. split; [done|].
    set (g' := match d with Front => (apre ++ [AN q ql (Some (root_of u)) qs], Some (AN kq kl (Some (root_of t)) kks), apost)
                       | Back => (apre, Some (AN kq kl (Some (root_of t)) kks), AN q ql (Some (root_of u)) qs :: apost) end).
    rewrite <-(cs_of_insert_ptr gsA j _ g' Hgj) by (by destruct d). eapply Hfin; [|by apply SEnv_del| |done].
    + apply Forall2_insert; [done|]. unfold g'. destruct d; (split_and!; cbn [fst snd]; [|by constructor|]); try done.
      * apply Forall2_app; [done|]. by repeat constructor.
      * by constructor.
    + eapply MInv_perm; [|exact HI']. rewrite (flat_split_ins _ _ _ _ _ Hgj). fold L R2.
      unfold g'. destruct d; unfold aseg_trees; cbn [fst snd option_list]; by rewrite <-!app_assoc.
  - (* detach *)
    pose proof (free_iff _ _ _ _ _ _ x HK) as Hfr. destruct (decide (ks_env σ !! x = None /\ ks_benv σ !! x = None)) as [Hx|Hx].
    2:{ rewrite decide_False by (by rewrite Hfr). bad HKI. }
    rewrite decide_True by (by rewrite Hfr). destruct Hx as [Hx Hxb].
    assert (Hw : Wm !! x = None) by (by apply (SEnv_dom _ _ _ _ _ _ _ _ x HS)).
    destruct (detach_at s C p pl v (L ++ apre) (apost ++ R2 ++ kp) kq kl (root_of t) kks rest []) as (hp & Hp & HI').
    { rewrite plug_cons in HIq. exact HIq. }
    rewrite bind_bind, (bind_ok _ _ _ _ _ Hp). eexists _, _. split; [done|].
    destruct (SEnv_add _ _ _ _ _ _ _ x (AN kq kl (Some (root_of t)) kks) (ITree t) HS Hx Hxb Hat) as [HS' _].
    replace (<[j := None]> (cs_of gsA)) with (cs_of (<[j := (apre, None, apost)]> gsA)) by (unfold cs_of; by rewrite list_fmap_insert).
    eapply Hfin; [|exact HS'| |done].
    + apply Forall2_insert; [done|]. split_and!; cbn [fst snd]; [done| |done]. constructor.
    + eapply MInv_perm; [|exact HI']. rewrite (vals_insert _ _ _ Hw). rewrite (flat_split_ins _ _ _ _ _ Hgj). fold L R2.
      unfold aseg_trees; cbn [fst snd option_list app]. rewrite <-!app_assoc. apply Permutation_swap.
Qed.

Lemma step_all o : kgood o.
Proof.
  destruct o; [apply k_prog|apply k_iter|apply k_bfs|apply k_bfs_kids|apply k_into_iter|apply k_into_bfs|apply k_walk|apply k_iter_mut|apply k_bfs_mut|apply k_bfs_kids_mut|apply k_data|apply k_yield|apply k_ref|apply k_next|apply k_take|apply k_hint|apply k_walk_op|apply k_back|apply k_close].
Qed.
Lemma krun_ok (os : list (kop A H)) : forall e s σ, KInv e s σ ->
  match ksrun σ os with
  | Some (rs, σ') => exists e' s', krun e os s = Ok (rs, e') s' /\ KInv e' s' σ'
  | None => krun e os s = Err EPanic
  end.
Proof.
  induction os as [|o os IH]; intros e s σ HK; cbn [ksrun krun]; [eexists _, _; done|].
  pose proof (step_all o e s σ HK) as Ho. destruct (ksstep σ o) as [[r σ1]|]; [|by rewrite (bind_err _ _ _ _ Ho)].
  destruct Ho as (e1 & s1 & H1 & HK1). rewrite (bind_ok _ _ _ _ _ H1). cbn [fst snd]. specialize (IH e1 s1 σ1 HK1). destruct (ksrun σ1 os) as [[rs σ2]|].
  - destruct IH as (e2 & s2 & H2 & HK2). rewrite (bind_ok _ _ _ _ _ H2). eexists _, _. done.
  - by rewrite (bind_err _ _ _ _ IH).
Qed.
End step.
