(** ClientStep.v — the step lemma for cloning, breadth-first and owning iteration, and [iter_mut] loops; all histories. *)
From stdpp Require Import base gmap list.
From Verif Require Import Spec ClientSpec Machine NodeModel BfsModel ClientModel Sep Rep NodeProofs Inv Abs ClientProofs FromBfs BfsBuild BfsIter BfsMut BfsMap ClientRef.

Section step2.
Context {A : Type} {F : list (atree A)} {EL : list (ptr * node A)}.
Local Notation vals := (@ClientRef.vals A F).
Local Notation REnv := (@ClientRef.REnv A F EL).
Local Notation CInv := (@ClientRef.CInv A F EL).
Local Notation step_good := (@ClientRef.step_good A F EL).
Implicit Types (p q : ptr) (ks fs qs L R W : list (atree A)) (C : ctx A) (t k : atree A) (s : mem A)
  (x y : tree A) (xs ys : list (tree A)) (c : cst A) (σ : sst A) (Wm : gmap nat (atree A)) (it : item A).

Ltac lk HR h := let H := fresh "Hlk" in pose proof (RE_lookup _ _ _ _ h HR) as H;
  match type of H with match ?e with _ => _ end => 
    let it := fresh "it" in destruct e as [it|] eqn:?;
    [let t := fresh "t" in destruct H as (t & ? & ? & -> & ?) | destruct H as [? ->]] end.
Ltac bad Wm := eexists (CSt _ _); split; [done | exists Wm; done].
Ltac obs path HR H H0 Wm :=
  pose proof (RE_locate _ _ _ _ _ _ _ path HR H H0) as HL;
  match goal with |- context [kids_at ?it path] => destruct (kids_at it path) as [xs|] | _ : match kids_at ?it path with _ => _ end |- _ => destruct (kids_at it path) as [xs|] end;
  [destruct HL as (C & p & pl & v & ks & -> & Haf & Hres & HI & Hks & Hset & Hn & _ & Hroot); unfold bind; rewrite Hres
  | let Hn := fresh in destruct HL as [Hres Hn]; rewrite ?Hn; unfold bind; rewrite Hres; bad Wm].
Ltac start := intros c σ (Wm & HR & Hlog); destruct c as [env s], σ as [senv log]; simpl in *; unfold step, cstep, with_node; simpl.

Lemma hof_T t x : rt t x -> hof t = HT (aptr t).
Proof. intros H. unfold hof. by rewrite (rt_val _ _ H). Qed.
Lemma hof_F t xs : ri t (IForest xs) -> hof t = HF (aptr t).
Proof. intros [H _]. unfold hof. by rewrite H. Qed.

(** a new variable *)
Lemma RE_new s env senv Wm (x : nat) t it s' :
  REnv s env senv Wm -> Wm !! x = None -> MInvX s' (t :: vals Wm) EL -> ri t it ->
  REnv s' (<[x := hof t]> env) (<[x := it]> senv) (<[x := t]> Wm).
Proof. intros HR Hx HI Hri. eapply RE_insert; [exact HR| |done]. by rewrite delete_notin. Qed.

Lemma plug_located C t W : located (plug C t :: W) C t.
Proof. by exists W. Qed.

Lemma step_clone h path (x : nat) : step_good (OClone h path x).
Proof.
  start. lk HR x; [destruct (senv !! h); bad Wm|]. lk HR h; [|bad Wm].
  obs path HR H0 H1 Wm. rewrite Hn, Hroot. destruct v as [a|]; [|bad Wm].
  destruct (deep_clone_spec (EL := EL) s (vals Wm) C (AN p pl (Some a) ks) (Tr a xs)) as (t' & s' & Hc & HI' & Hr & _ & Hl).
  - eexists. symmetry. by apply vals_delete.
  - by constructor.
  - apply HR.
  - cbn [aptr] in Hc. rewrite Hc. eexists (CSt _ _); split; [done|]. eexists. split; [|by simpl; rewrite Hl]. simpl.
    rewrite <-(hof_T _ _ Hr). by eapply RE_new.
Qed.
Lemma step_clone_forest h path (x : nat) : step_good (OCloneForest h path x).
Proof.
  start. lk HR x; [destruct (senv !! h); bad Wm|]. lk HR h; [|bad Wm].
  obs path HR H0 H1 Wm.
  destruct (deep_clone_forest_spec (EL := EL) s (vals Wm) C p pl v ks xs) as (t' & s' & Hc & HI' & Hr & _ & Hl); [|done|apply HR|].
  - eexists. symmetry. by apply vals_delete.
  - rewrite Hc. eexists (CSt _ _); split; [done|]. eexists. split; [|by simpl; rewrite Hl]. simpl.
    rewrite <-(hof_F _ _ Hr). by eapply RE_new.
Qed.
Lemma step_bfs h path : step_good (OBfs h path).
Proof.
  start. lk HR h; [|bad Wm]. obs path HR H H0 Wm. rewrite Hn, Hroot. destruct v as [a|]; [|bad Wm].
  pose proof (bfs_visits_spec s _ EL C (AN p pl (Some a) ks) (Tr a xs) (plug_located _ _ _) ltac:(by constructor) HI) as Hv.
  cbn [aptr] in Hv. rewrite Hv. bad Wm.
Qed.
Lemma step_bfs_children h path : step_good (OBfsChildren h path).
Proof.
  start. lk HR h; [|bad Wm]. obs path HR H H0 Wm.
  rewrite (bfs_children_visits_spec s _ EL C p pl v ks xs (plug_located _ _ _) Hks HI). bad Wm.
Qed.

Lemma afind_set path : forall t C t' t'', afind t path = Some (C, t') -> afind (plug C t'') path = Some (C, t'').
Proof.
  induction path as [|i path IH]; intros [p pl v ks] C t' t''; simpl; [by intros [= <- <-]|].
  destruct (ks !! i) as [k|] eqn:Hk; [|done]. destruct (afind k path) as [[C' t1]|] eqn:Hf; [|done]. intros [= <- <-].
  rewrite plug_app. simpl. pose proof (lookup_lt_Some _ _ _ Hk) as Hlt.
  assert (length (take i ks) = i) as Hi by (rewrite take_length; lia).
  rewrite lookup_app_r by lia. rewrite Hi, Nat.sub_diag. simpl. rewrite (IH _ _ _ _ Hf).
  rewrite take_app_alt by done. rewrite drop_app_ge by lia. rewrite Hi. by replace (S i - i) with 1 by lia.
Qed.

Lemma step_bfs_mut h path g : step_good (OBfsMut h path g).
Proof.
  start. lk HR h; [|bad Wm]. obs path HR H H0 Wm. rewrite Hn, Hroot. destruct v as [a|]; [|bad Wm].
  assert (Hr0 : rt (AN p pl (Some a) ks) (Tr a xs)) by by constructor.
  destruct (bfs_mut_at _ _ _ _ _ _ _ _ _ g HI Hr0) as (s' & a' & ks' & Hm & HI' & Hl & Hr').
  rewrite Hm. eexists (CSt _ _); split; [done|]. eexists. split; [|by simpl; rewrite Hl].
  eapply RE_update; [exact HR|exact H| |exact HI'|].
  - rewrite (hof_plug C p pl (Some a') ks' ks). apply hof_plug_val.
  - pose proof (rt_kids _ _ Hr') as Hk'. cbn [akids] in Hk'. specialize (Hset _ _ Hk').
    pose proof (locate_kids _ _ path Hset) as HL. destruct (kids_at (set_kids it path (kids (bfs_map g (Tr a xs)))) path) as [zs|].
    + destruct HL as (C2 & p2 & pl2 & v2 & ks2 & Haf2 & _ & _ & _ & Hd & _).
      rewrite (afind_set _ _ _ _ _ Haf) in Haf2. injection Haf2 as <- <- <- <- <-.
      pose proof (rt_val _ _ Hr') as Ha. cbn [aval] in Ha. assert (a' = root_of (bfs_map g (Tr a xs))) as -> by congruence. apply Hd. eauto.
    + rewrite (afind_set _ _ _ _ _ Haf) in HL. by destruct HL.
Qed.
Lemma step_bfs_children_mut h path g : step_good (OBfsChildrenMut h path g).
Proof.
  start. lk HR h; [|bad Wm]. obs path HR H H0 Wm.
  destruct (bfs_children_mut_at _ _ _ _ _ _ _ _ _ g HI Hks) as (s' & ks' & Hm & HI' & Hl & Hr').
  rewrite Hm. eexists (CSt _ _); split; [done|]. eexists. split; [|by simpl; rewrite Hl].
  eapply RE_update; [exact HR|exact H|apply hof_plug|exact HI'|by apply Hset].
Qed.

(** ** owning breadth-first iteration *)
Lemma take_visits_spec W0 n : forall (it : list ptr) fs W s (xs r : list (tree A)),
  isq W0 it fs W -> MInvX s W EL -> Forall2 rt (flat_map akids fs) xs -> qo xs r ->
  exists (it' : list ptr) fs' W' s', take_visits n it s = Ok (take n (visit_of <$> r), it') s' /\ isq W0 it' fs' W' /\
    MInvX s' W' EL /\ Forall2 rt (flat_map akids fs') (bfs_rest n xs) /\ m_log s' = m_log s.
Proof.
  induction n as [|n IH]; intros it fs W s xs r Hq HI Hrt Hqo.
  - exists it, fs, W, s. by rewrite take_0.
  - cbn [take_visits]. unfold bind at 1. inversion Hqo as [|x q r' Hqo']; subst.
    + inversion Hrt as [Hc|]. destruct (isp_next_none _ _ _ _ _ _ Hq HI) as (s' & H1 & H2 & H3); [done|].
      rewrite H1. cbn [fst snd]. exists [], [], W0, s'. split_and!; [done| |done|constructor|done]. split_and!; [done|done|constructor].
    + inversion Hrt as [|k ? rest ? Hk Hrest Hc]; subst. symmetry in Hc. inversion Hk as [p pl a ks xs Hks]; subst.
      destruct (isp_next_some _ _ _ _ _ _ _ _ _ _ _ Hq HI Hc) as (it' & fs' & W' & s' & H1 & H2 & H3 & H4 & H5).
      rewrite H1. cbn [fst snd].
      destruct (IH it' fs' W' s' (q ++ xs) r' H3 H2) as (it2 & fs2 & W2 & s2 & G1 & G2 & G3 & G4 & G5).
      { rewrite H4. by apply Forall2_app. }
      { done. }
      unfold bind. rewrite G1. cbn [fst snd ret]. exists it2, fs2, W2, s2. split_and!; [|done|done|done|congruence].
      unfold ret. rewrite fmap_cons. cbn [take]. unfold visit_of at 2. cbn [root_of kids].
      by rewrite (Forall2_length _ _ _ Hks), (rts_cnts _ _ Hks).
Qed.

Lemma into_bfs_any s W0 t it : ri t it -> MInvX s (t :: W0) EL ->
  exists (q : list ptr) fs s' W, (match hof t with HT p => tree_into_bfs p | HF p => forest_into_bfs p end) s =
      Ok (q, (length (trees_of it), match it with ITree x => nodes_f (kids x) | IForest xs => nodes_f xs end)) s' /\
    MInvX s' W EL /\ isq W0 q fs W /\ Forall2 rt (flat_map akids fs) (trees_of it) /\ m_log s' = m_log s.
Proof.
  intros Hr HI. destruct it as [x|xs].
  - rewrite (hof_T t x Hr). destruct (tree_into_bfs_spec _ _ _ _ _ Hr HI) as (q & fs & s' & W & H1 & H2 & H3 & H4 & H5).
    exists q, fs, s', W. split_and!; [done..| |done]. rewrite H4. by repeat constructor.
  - rewrite (hof_F t xs Hr). destruct (forest_into_bfs_spec _ _ _ _ _ Hr HI) as (q & fs & H1 & H2 & H3).
    exists q, fs, s, (t :: W0). split_and!; [done..| |done]. rewrite H3. apply Hr.
Qed.
Lemma item_qo it : qo (trees_of it) (item_level_order it).
Proof. destruct it; [apply qo_level_order|apply qo_level_order_f]. Qed.

Lemma step_into_bfs h n : step_good (OIntoBfs h n).
Proof.
  start. lk HR h; [|bad Wm]. pose proof (RE_inv _ _ _ _ _ _ HR H) as HI.
  destruct (into_bfs_any _ _ _ _ H0 HI) as (q & fs & s1 & W1 & H2 & HI1 & Hq & Hrt & Hl1).
  destruct (take_visits_spec _ n _ _ _ _ _ _ Hq HI1 Hrt (item_qo it)) as (q2 & fs2 & W2 & s2 & G1 & G2 & G3 & G4 & G5).
  destruct (isp_drop_spec _ _ _ _ _ _ G2 G3) as (s3 & D1 & D2 & D3).
  unfold bind. rewrite H2. cbn [fst snd]. rewrite G1. cbn [fst snd]. rewrite D1. cbn [ret].
  eexists (CSt _ _); split; [done|]. eexists. split; [eapply RE_delete; [exact HR|exact H|exact D2]|].
  simpl. by rewrite D3, G5, Hl1, Hlog, (rts_post _ _ G4).
Qed.

Lemma RE_move s env senv Wm (h x : nat) t t' it s' :
  REnv s env senv Wm -> Wm !! h = Some t -> Wm !! x = None -> MInvX s' (t' :: vals (delete h Wm)) EL -> ri t' it ->
  REnv s' (<[x := hof t']> (delete h env)) (<[x := it]> (delete h senv)) (<[x := t']> (delete h Wm)).
Proof.
  intros [HI He Hr] Ht Hx HI' Hri. split.
  - eapply MInv_perm; [|exact HI']. rewrite vals_insert; [done|]. rewrite lookup_delete_ne by congruence. done.
  - by rewrite He, fmap_insert, fmap_delete.
  - intros h'. destruct (decide (x = h')) as [->|Hne]; [rewrite !lookup_insert; by constructor|].
    rewrite !(lookup_insert_ne _ x) by done. destruct (decide (h = h')) as [->|Hne']; [rewrite !lookup_delete; by constructor|].
    by rewrite !lookup_delete_ne.
Qed.

Lemma step_from_bfs h (x : nat) : step_good (OFromBfs h x).
Proof.
  start. lk HR h; [|bad Wm]. pose proof (RE_inv _ _ _ _ _ _ HR H) as HI.
  destruct (into_bfs_any _ _ _ _ H0 HI) as (q & fs & s1 & W1 & H2 & HI1 & Hq & Hrt & Hl1).
  destruct it as [y|ys]; rewrite H1 in *; (lk HR x; [bad Wm|]); unfold bind; rewrite H2; cbn [fst snd].
  - destruct (tree_from_bfs_spec _ _ _ (isp_yields (vals (delete h Wm))) EL q W1 s1 y _ (qo_level_order y)) as (t' & s' & W' & Hc & HI' & Hr' & Hco & -> & Hl).
    { exists fs, [y], (level_order y). split_and!; [done|done|apply qo_level_order|done]. }
    { done. }
    rewrite Hc. eexists (CSt _ _); split; [done|]. eexists. split; [|simpl; congruence]. cbn [ret c_env c_mem].
    rewrite <-(hof_T _ _ Hr'). eapply RE_move; done.
  - destruct (forest_from_bfs_spec _ _ _ (isp_yields (vals (delete h Wm))) EL q W1 s1 ys _ (qo_level_order_f ys)) as (t' & s' & W' & Hc & HI' & Hr' & Hco & -> & Hl).
    { exists fs, ys, (level_order_f ys). split_and!; [done|done|apply qo_level_order_f|done]. }
    { done. }
    cbn [trees_of]. rewrite Hc. eexists (CSt _ _); split; [done|]. eexists. split; [|simpl; congruence]. cbn [ret c_env c_mem].
    rewrite <-(hof_F _ _ Hr'). eapply RE_move; done.
Qed.
Lemma step_from_visits (x : nat) it : step_good (OFromVisits x it).
Proof.
  start. lk HR x; [bad Wm|]. unfold bind. destruct it as [y|ys].
  - destruct (tree_from_visits_spec (EL := EL) s (vals Wm) y) as (t' & s' & Hc & HI' & Hr & _ & Hl); [apply HR|]. rewrite Hc.
    eexists (CSt _ _); split; [done|]. eexists. split; [|simpl; congruence]. cbn [ret c_env c_mem].
    rewrite <-(hof_T _ _ Hr). by eapply RE_new.
  - destruct (forest_from_visits_spec (EL := EL) s (vals Wm) ys) as (t' & s' & Hc & HI' & Hr & _ & Hl); [apply HR|]. rewrite Hc.
    eexists (CSt _ _); split; [done|]. eexists. split; [|simpl; congruence]. cbn [ret c_env c_mem].
    rewrite <-(hof_F _ _ Hr). by eapply RE_new.
Qed.

(** ** owning iteration *)
Lemma into_names_spec f fl (ns : list nat) : forall s (senv : gmap nat (item A)) Wm ks ts,
  MInvX s (AN f fl None ks :: vals Wm) EL -> (forall h, option_Forall2 ri (Wm !! h) (senv !! h)) -> Forall2 rt ks ts ->
  NoDup ns -> Forall (fun x : nat => senv !! x = None) ns ->
  exists s' Wm', into_names f ns (hof <$> Wm) s = Ok (imap (fun i _ => length ts - i) ns, hof <$> Wm') s' /\
    MInvX s' (AN f fl None (drop (length ns) ks) :: vals Wm') EL /\
    (forall h, option_Forall2 ri (Wm' !! h) (bind_trees ns ts senv !! h)) /\ m_log s' = m_log s.
Proof.
  induction ns as [|n ns IH]; intros s senv Wm ks ts HI Hr Hks Hnd Hn.
  - exists s, Wm. split_and!; done.
  - apply NoDup_cons in Hnd as [Hni Hnd]. apply Forall_cons in Hn as [Hn0 Hn].
    cbn [into_names]. unfold bind at 1, into_iter_size_hint. rewrite (degree_at s [] _ _ _ _ _ _ HI).
    rewrite (Forall2_length _ _ _ Hks). unfold bind at 1, into_iter_next. destruct Hks as [|k t ks ts Hk Hks].
    + rewrite (pop_front_root_none _ _ _ _ _ _ HI).
      destruct (IH s senv Wm [] [] HI Hr) as (s' & Wm' & H1 & H2 & H3 & H4); [constructor|done|done|].
      unfold bind. rewrite H1. cbn [ret fst snd]. exists s', Wm'. split_and!; [done| |by destruct ns|done].
      by rewrite drop_nil in *.
    + destruct (pop_front_root_some _ _ _ _ _ _ _ _ HI) as (hp & Hp & HI1). rewrite Hp.
      assert (Wm !! n = None) as Hwn. { specialize (Hr n). rewrite Hn0 in Hr. by inversion Hr. }
      rewrite <-(hof_T _ _ Hk), <-fmap_insert.
      destruct (IH (set_heap s hp) (<[n := ITree t]> senv) (<[n := k]> Wm) ks ts) as (s' & Wm' & H1 & H2 & H3 & H4).
      * eapply MInv_perm; [|exact HI1]. rewrite vals_insert by done. apply Permutation_swap.
      * intros h'. destruct (decide (n = h')) as [->|Hne]; [rewrite !lookup_insert; by constructor|]. by rewrite !lookup_insert_ne.
      * done.
      * done.
      * apply Forall_forall. intros x Hx. rewrite lookup_insert_ne; [|by intros ->]. rewrite Forall_forall in Hn. by apply Hn.
      * unfold bind. rewrite H1. cbn [ret fst snd]. exists s', Wm'. split_and!; [done|done|done|done].
Qed.

Lemma names_guard s env senv Wm (ns : list nat) : REnv s env senv Wm ->
  NoDup ns /\ Forall (fun x : nat => env !! x = None) ns <-> NoDup ns /\ Forall (fun x : nat => senv !! x = None) ns.
Proof.
  intros HR. assert (forall x : nat, env !! x = None <-> senv !! x = None) as Hx.
  { intros x. pose proof (RE_lookup _ _ _ _ x HR) as H. destruct (senv !! x).
    - destruct H as (? & _ & _ & -> & _). done.
    - destruct H as [_ ->]. done. }
  split; intros [? HF]; (split; [done|]); eapply Forall_impl; try exact HF; intros y; simpl; apply Hx.
Qed.

Lemma step_into_iter h (ns : list nat) : step_good (OIntoIter h ns).
Proof.
  start. pose proof (names_guard _ _ _ _ ns HR) as Hg. lk HR h; [|bad Wm].
  destruct (decide (NoDup ns /\ Forall (fun x : nat => senv !! x = None) ns)) as [Hd|Hd];
   (destruct (decide (NoDup ns /\ Forall (fun x : nat => env !! x = None) ns)) as [Hd'|Hd']; [|try tauto]); [|tauto|bad Wm].
  clear Hd' Hg. destruct Hd as [Hnd Hnn]. pose proof (RE_inv _ _ _ _ _ _ HR H) as HI.
  assert (exists f fl ks s1, (match hof t with HT p => tree_into_iter p | HF p => ret p end) s = Ok f s1 /\
     MInvX s1 (AN f fl None ks :: vals (delete h Wm)) EL /\ Forall2 rt ks (trees_of it) /\ m_log s1 = m_log s) as (f & fl & ks & s1 & H2 & HI1 & Hks & Hl1).
  { destruct it as [y|ys].
    - rewrite H1. inversion H0 as [p pl a ks xs Hks]; subst. destruct (tree_into_iter_spec _ _ _ _ _ _ _ HI) as (f & s' & H2 & H3 & H4).
      eexists f, false, _, s'. split_and!; [done|done| |done]. by repeat constructor.
    - rewrite H1. destruct t as [p pl v ks]. destruct H0 as [Hv Hks]. simpl in Hv. subst v.
      exists p, pl, ks, s. done. }
  unfold bind. rewrite H2. destruct HR as [HI0 He Hr].
  destruct (into_names_spec f fl ns s1 (delete h senv) (delete h Wm) ks (trees_of it)) as (s2 & Wm' & G1 & G2 & G3 & G4); [done| |done|done| |].
  { intros h'. destruct (decide (h = h')) as [->|Hne]; [rewrite !lookup_delete; constructor|]. by rewrite !lookup_delete_ne. }
  { eapply Forall_impl; [exact Hnn|]. intros y Hy. rewrite lookup_delete_None. by right. }
  rewrite He, <-fmap_delete, G1.
  destruct (into_iter_drop_spec _ _ _ _ _ _ G2) as (s3 & D1 & D2 & D3). rewrite D1. cbn [ret fst snd].
  eexists (CSt _ _); split; [done|]. exists Wm'. split; [by split|]. simpl. rewrite D3, G4, Hl1, Hlog. f_equal.
  apply rts_post. by apply Forall2_drop.
Qed.

(** ** [iter_mut] loops *)
Section each.
Context (h : nat) (it : item A) (path : list nat) (C : ctx A) (p : ptr) (pl : bool) (v : option A).
Context (Hset : forall ks' xs', Forall2 rt ks' xs' -> ri (plug C (AN p pl v ks')) (set_kids it path xs')).

(** concrete counterpart of [seg] *)
Local Notation aseg := (list (atree A) * option (atree A) * list (atree A))%type.
Local Notation seg := (list (tree A) * option (tree A) * list (tree A))%type.
Definition aseg_trees (g : aseg) : list (atree A) := g.1.1 ++ option_list g.1.2 ++ g.2.
Definition segrel (g : aseg) (g' : seg) : Prop := Forall2 rt g.1.1 g'.1.1 /\ option_Forall2 rt g.1.2 g'.1.2 /\ Forall2 rt g.2 g'.2.
Lemma segrel_trees g g' : segrel g g' -> Forall2 rt (aseg_trees g) (seg_trees g').
Proof.
  intros (H1 & H2 & H3). unfold aseg_trees, seg_trees. apply Forall2_app; [done|]. apply Forall2_app; [|done].
  destruct H2; simpl; by repeat constructor.
Qed.
Lemma segrels_trees gs (gs' : list seg) : Forall2 segrel gs gs' -> Forall2 rt (flat_map aseg_trees gs) (flat_map seg_trees gs').
Proof. intros H. induction H as [|g g' gs gs' Hg _ IH]; simpl; [constructor|]. apply Forall2_app; [by apply segrel_trees|done]. Qed.
Definition cs_of (gs : list aseg) : list (option ptr) := (fun g : aseg => aptr <$> g.1.2) <$> gs.

Record ERel (s : mem A) (env : gmap nat handle) (R : list (atree A)) (R' : list (tree A)) (st : gmap nat (item A) * list seg) (gs : list aseg) Wm : Prop := {
  er_env : REnv s env (<[h := set_kids it path (flat_map seg_trees st.2 ++ R')]> st.1) Wm;
  er_h : Wm !! h = Some (plug C (AN p pl v (flat_map aseg_trees gs ++ R)));
  er_rel : Forall2 segrel gs st.2;
  er_in : is_Some (st.1 !! h) }.

Lemma flat_split {X} (f : X -> list (atree A)) (gs : list X) j g : gs !! j = Some g -> 
  flat_map f gs = flat_map f (take j gs) ++ f g ++ flat_map f (drop (S j) gs).
Proof. intros H. rewrite <-(take_drop_middle gs j g H) at 1. by rewrite flat_map_app. Qed.
Lemma flat_split_ins {X} (f : X -> list (atree A)) (gs : list X) j g g' : gs !! j = Some g -> 
  flat_map f (<[j := g']> gs) = flat_map f (take j gs) ++ f g' ++ flat_map f (drop (S j) gs).
Proof.
  intros H. rewrite (flat_split f (<[j:=g']> gs) j g') by (apply list_lookup_insert; by eapply lookup_lt_Some).
  by rewrite take_insert, drop_insert_gt by lia.
Qed.
Lemma cs_of_lookup gs (gs' : list seg) (j : nat) : Forall2 segrel gs gs' ->
  match gs' !! j with
  | Some (pre, Some t, post) => exists apre at_ apost, gs !! j = Some (apre, Some at_, apost) /\ Forall2 rt apre pre /\ rt at_ t /\ Forall2 rt apost post /\ cs_of gs !! j = Some (Some (aptr at_))
  | Some (_, None, _) => cs_of gs !! j = Some None
  | None => cs_of gs !! j = None
  end.
Proof.
  intros H. destruct (gs' !! j) as [[[pre o] post]|] eqn:Hj.
  - destruct (Forall2_lookup_r _ _ _ _ _ H Hj) as ([[apre ao] apost] & Ha & H1 & H2 & H3). simpl in *. unfold cs_of. rewrite list_lookup_fmap, Ha.
    destruct H2; [|done]. eauto 10.
  - unfold cs_of. rewrite list_lookup_fmap. destruct (gs !! j) eqn:Ha; [|done]. apply lookup_lt_Some in Ha. apply lookup_ge_None in Hj. pose proof (Forall2_length _ _ _ H). lia.
Qed.
Lemma cs_of_insert gs j g g' : gs !! j = Some g -> g'.1.2 = g.1.2 -> cs_of (<[j := g']> gs) = cs_of gs.
Proof.
  intros H Hg. unfold cs_of. rewrite list_fmap_insert. apply list_insert_id. rewrite list_lookup_fmap, H. simpl. by rewrite Hg.
Qed.
Lemma cs_of_insert_ptr gs j (g g' : aseg) : gs !! j = Some g -> aptr <$> g'.1.2 = aptr <$> g.1.2 -> cs_of (<[j := g']> gs) = cs_of gs.
Proof.
  intros H Hg. unfold cs_of. rewrite list_fmap_insert. apply list_insert_id. rewrite list_lookup_fmap, H. simpl. by rewrite Hg.
Qed.

Lemma each_act_ok R (R' : list (tree A)) (a : act A) s env st gs Wm : Forall2 rt R R' -> ERel s env R R' st gs Wm ->
  exists s' env' gs' Wm', each_act_c h (cs_of gs) a env s = Ok (env', cs_of gs') s' /\ ERel s' env' R R' (each_act h a st) gs' Wm' /\ m_log s' = m_log s.
Proof.
  intros HRR [HR Hh Hrel Hsh]. destruct st as [senv sgs]. cbn [fst snd] in *.
  assert (Hskip : exists s' env' gs' Wm', (ret (env, cs_of gs) : M A _) s = Ok (env', cs_of gs') s' /\ ERel s' env' R R' (senv, sgs) gs' Wm' /\ m_log s' = m_log s).
  { exists s, env, gs, Wm. split_and!; [done| |done]. by split. }
  pose proof (RE_inv _ _ _ _ _ _ HR Hh) as HI.
  assert (Hins : forall gs' sgs', Forall2 segrel gs' sgs' -> ri (plug C (AN p pl v (flat_map aseg_trees gs' ++ R))) (set_kids it path (flat_map seg_trees sgs' ++ R'))).
  { intros gs' sgs' H'. apply Hset. apply Forall2_app; [|done]. by apply segrels_trees. }
  destruct a as [j e y|j f|j e y|j x]; cbn [each_act each_act_c]; pose proof (cs_of_lookup gs sgs j Hrel) as Hj;
    (destruct (sgs !! j) as [[[pre [t|]] post]|] eqn:Hsj; [destruct Hj as (apre & at_ & apost & Hgj & Hpre & Hat & Hpost & ->)|rewrite Hj; exact Hskip|rewrite Hj; exact Hskip]).
  - pose proof (RE_del_lookup _ _ _ _ h y HR) as Hd. rewrite delete_insert_delete in Hd.
    destruct (delete h senv !! y) as [[u|us]|] eqn:Hy; [|destruct Hd as (u & _ & _ & _ & _ & -> & ->); exact Hskip|rewrite Hd; exact Hskip].
    destruct Hd as (u' & Hne & Hu & Hud & Hru & -> & ->).
    destruct (RE_hT _ _ Hru) as (q & ql & qs & -> & Hqs). destruct at_ as [kp kl kv kks]. cbn [aptr].
    rewrite (flat_split _ _ _ _ Hgj) in Hh. unfold aseg_trees at 2 in Hh. cbn [fst snd option_list] in Hh.
    set (L := flat_map aseg_trees (take j gs)) in *. set (R2 := flat_map aseg_trees (drop (S j) gs)) in *.
    destruct (insert_at e s C p pl v (L ++ apre) (apost ++ R2 ++ R) kp kl kv kks q ql (root_of u) qs (vals (delete h (delete y Wm))) EL) as (hp & Hp & HI').
    { eapply MInv_perm; [|apply HR]. rewrite (vals_delete2 _ h y _ _ ltac:(done) Hh Hu). by rewrite <-!app_assoc. }
    unfold bind. rewrite Hp. cbn [ret].
    set (gs' := <[j := match e with Front => (apre ++ [AN q ql (Some (root_of u)) qs], Some (AN kp kl kv kks), apost)
                       | Back => (apre, Some (AN kp kl kv kks), AN q ql (Some (root_of u)) qs :: apost) end]> gs).
    assert (Hrel' : Forall2 segrel gs' (<[j := match e with Front => (pre ++ [u], Some t, post) | Back => (pre, Some t, u :: post) end]> sgs)).
    { apply Forall2_insert; [done|]. destruct e; (split_and!; cbn [fst snd]; [|by constructor|]); try done.
      - apply Forall2_app; [done|]. by repeat constructor.
      - by constructor. }
    exists (set_heap s hp), (delete y env), gs', (<[h := plug C (AN p pl v (flat_map aseg_trees gs' ++ R))]> (delete y Wm)).
    split_and!; [| |done].
    + assert (cs_of gs' = cs_of gs) as ->; [|done]. eapply cs_of_insert; [exact Hgj|]. by destruct e.
    + split; cbn [fst snd].
      * replace (<[h := set_kids it path _]> (delete y senv)) with (<[h := set_kids it path (flat_map seg_trees (<[j := match e with Front => (pre ++ [u], Some t, post) | Back => (pre, Some t, u :: post) end]> sgs) ++ R')]> (delete y (<[h := set_kids it path (flat_map seg_trees sgs ++ R')]> senv))).
        2:{ rewrite delete_insert_ne by done. by rewrite insert_insert. }
        eapply RE_consume; [exact HR|by rewrite lookup_delete_ne|apply hof_plug| |by apply Hins].
        eapply MInv_perm; [|exact HI']. unfold gs'. rewrite (flat_split_ins _ _ _ _ _ Hgj). fold L R2.
        destruct e; unfold aseg_trees; cbn [fst snd option_list]; by rewrite <-!app_assoc.
      * by rewrite lookup_insert.
      * done.
      * by rewrite lookup_delete_ne.
  - destruct (rt_inv _ _ Hat) as (kp & kl & kks & -> & Hkks). cbn [aptr].
    rewrite (flat_split _ _ _ _ Hgj) in Hh, HI. unfold aseg_trees at 2 in Hh. unfold aseg_trees at 2 in HI. cbn [fst snd option_list] in Hh, HI.
    set (L := flat_map aseg_trees (take j gs)) in *. set (R2 := flat_map aseg_trees (drop (S j) gs)) in *.
    destruct (modify_at s (Fr p pl v (L ++ apre) (apost ++ R2 ++ R) :: C) kp kl (root_of t) kks f (vals (delete h Wm)) EL) as (hp & Hp & HI').
    { rewrite plug_cons. cbn [plug1]. eapply MInv_perm; [|exact HI]. by rewrite <-!app_assoc. }
    unfold bind. rewrite Hp. cbn [ret].
    set (gs' := <[j := (apre, Some (AN kp kl (Some (f (root_of t))) kks), apost)]> gs).
    assert (Hrel' : Forall2 segrel gs' (<[j := (pre, Some (Tr (f (root_of t)) (kids t)), post)]> sgs)).
    { apply Forall2_insert; [done|]. split_and!; cbn [fst snd]; [done| |done]. constructor. by constructor. }
    exists (set_heap s hp), env, gs', (<[h := plug C (AN p pl v (flat_map aseg_trees gs' ++ R))]> Wm).
    split_and!; [| |done].
    + assert (cs_of gs' = cs_of gs) as ->; [|done]. eapply cs_of_insert_ptr; [exact Hgj|done].
    + split; cbn [fst snd].
      * rewrite <-(insert_insert senv h _ (set_kids it path (flat_map seg_trees sgs ++ R'))).
        eapply RE_update; [exact HR|exact Hh|apply hof_plug| |by apply Hins].
        eapply MInv_perm; [|exact HI']. rewrite plug_cons. cbn [plug1]. unfold gs'. rewrite (flat_split_ins _ _ _ _ _ Hgj). fold L R2.
        unfold aseg_trees; cbn [fst snd option_list]; by rewrite <-!app_assoc.
      * by rewrite lookup_insert.
      * done.
      * done.
  - pose proof (RE_del_lookup _ _ _ _ h y HR) as Hd. rewrite delete_insert_delete in Hd.
    destruct (delete h senv !! y) as [[u|us]|] eqn:Hy; [|destruct Hd as (u & _ & _ & _ & _ & -> & ->); exact Hskip|rewrite Hd; exact Hskip].
    destruct Hd as (u' & Hne & Hu & Hud & Hru & -> & ->).
    destruct (RE_hT _ _ Hru) as (q & ql & qs & -> & Hqs). destruct (rt_inv _ _ Hat) as (kp & kl & kks & -> & Hkks). cbn [aptr].
    rewrite (flat_split _ _ _ _ Hgj) in Hh. unfold aseg_trees at 2 in Hh. cbn [fst snd option_list] in Hh.
    set (L := flat_map aseg_trees (take j gs)) in *. set (R2 := flat_map aseg_trees (drop (S j) gs)) in *.
    destruct (push_at e s (Fr p pl v (L ++ apre) (apost ++ R2 ++ R) :: C) kp kl (Some (root_of t)) kks q ql (root_of u) qs (vals (delete h (delete y Wm))) EL) as (hp & Hp & HI').
    { eapply MInv_perm; [|apply HR]. rewrite plug_cons. cbn [plug1]. rewrite (vals_delete2 _ h y _ _ ltac:(done) Hh Hu). by rewrite <-!app_assoc. }
    unfold bind. rewrite Hp. cbn [ret]. 
    set (ks' := match e with Front => AN q ql (Some (root_of u)) qs :: kks | Back => kks ++ [AN q ql (Some (root_of u)) qs] end) in *.
    set (ts' := match e with Front => u :: kids t | Back => kids t ++ [u] end).
    assert (Hts : Forall2 rt ks' ts').
    { unfold ks', ts'. destruct e; [by constructor|]. apply Forall2_app; [done|]. by repeat constructor. }
    set (gs' := <[j := (apre, Some (AN kp kl (Some (root_of t)) ks'), apost)]> gs).
    assert (Hrel' : Forall2 segrel gs' (<[j := (pre, Some (Tr (root_of t) ts'), post)]> sgs)).
    { apply Forall2_insert; [done|]. split_and!; cbn [fst snd]; [done| |done]. constructor. by constructor. }
    exists (set_heap s hp), (delete y env), gs', (<[h := plug C (AN p pl v (flat_map aseg_trees gs' ++ R))]> (delete y Wm)).
    split_and!; [| |done].
    + assert (cs_of gs' = cs_of gs) as ->; [|done]. eapply cs_of_insert_ptr; [exact Hgj|done].
    + split; cbn [fst snd].
      * replace (<[h := set_kids it path _]> (delete y senv)) with (<[h := set_kids it path (flat_map seg_trees (<[j := (pre, Some (Tr (root_of t) ts'), post)]> sgs) ++ R')]> (delete y (<[h := set_kids it path (flat_map seg_trees sgs ++ R')]> senv))).
        2:{ rewrite delete_insert_ne by done. by rewrite insert_insert. }
        eapply RE_consume; [exact HR|by rewrite lookup_delete_ne|apply hof_plug| |by apply Hins].
        eapply MInv_perm; [|exact HI']. rewrite plug_cons. cbn [plug1]. unfold gs'. rewrite (flat_split_ins _ _ _ _ _ Hgj). fold L R2.
        unfold aseg_trees; cbn [fst snd option_list]; by rewrite <-!app_assoc.
      * by rewrite lookup_insert.
      * done.
      * by rewrite lookup_delete_ne.
  - pose proof (RE_lookup _ _ _ _ x HR) as Hy. destruct (decide (x = h)) as [->|Hne].
    { rewrite lookup_insert in Hy. destruct Hy as (t' & _ & _ & -> & _). destruct Hsh as [z Hz]. rewrite Hz. exact Hskip. }
    rewrite lookup_insert_ne in Hy by done. destruct (senv !! x) as [z|] eqn:Hz.
    { destruct Hy as (t' & _ & _ & -> & _). exact Hskip. }
    destruct Hy as [Hwy ->]. destruct (rt_inv _ _ Hat) as (kp & kl & kks & -> & Hkks). cbn [aptr].
    rewrite (flat_split _ _ _ _ Hgj) in Hh, HI. unfold aseg_trees at 2 in Hh. unfold aseg_trees at 2 in HI. cbn [fst snd option_list] in Hh, HI.
    set (L := flat_map aseg_trees (take j gs)) in *. set (R2 := flat_map aseg_trees (drop (S j) gs)) in *.
    destruct (detach_at s C p pl v (L ++ apre) (apost ++ R2 ++ R) kp kl (root_of t) kks (vals (delete h Wm)) EL) as (hp & Hp & HI').
    { eapply MInv_perm; [|exact HI]. by rewrite <-!app_assoc. }
    unfold bind. rewrite Hp. cbn [ret].
    set (gs' := <[j := (apre, None, apost)]> gs).
    assert (Hrel' : Forall2 segrel gs' (<[j := (pre, None, post)]> sgs)).
    { apply Forall2_insert; [done|]. split_and!; cbn [fst snd]; [done| |done]. constructor. }
    eexists (set_heap s hp), _, gs', (<[x := AN kp kl (Some (root_of t)) kks]> (<[h := plug C (AN p pl v (flat_map aseg_trees gs' ++ R))]> Wm)).
    split_and!; [| |done].
    + unfold gs', cs_of. rewrite list_fmap_insert. done.
    + split; cbn [fst snd].
      * rewrite insert_commute by done. rewrite <-(insert_insert senv h _ (set_kids it path (flat_map seg_trees sgs ++ R'))).
        eapply (RE_produce _ _ _ _ h x _ _ (AN kp kl (Some (root_of t)) kks)); [exact HR|exact Hh|done|apply hof_plug| |by apply Hins|done].
        eapply MInv_perm; [|exact HI']. unfold gs'. rewrite (flat_split_ins _ _ _ _ _ Hgj). fold L R2.
        unfold aseg_trees; cbn [fst snd option_list app]; by rewrite <-!app_assoc.
      * rewrite lookup_insert_ne by done. by rewrite lookup_insert.
      * done.
      * by rewrite lookup_insert_ne.
Qed.

Lemma each_acts_ok R (R' : list (tree A)) (acts : list (act A)) : Forall2 rt R R' -> forall s env st gs Wm, ERel s env R R' st gs Wm ->
  exists s' env' gs' Wm', each_acts_c h (cs_of gs) acts env s = Ok (env', cs_of gs') s' /\ ERel s' env' R R' (each_acts h acts st) gs' Wm' /\ m_log s' = m_log s.
Proof.
  intros HRR. induction acts as [|a acts IH]; intros s env st gs Wm HE; cbn [each_acts each_acts_c].
  - exists s, env, gs, Wm. done.
  - destruct (each_act_ok R R' a _ _ _ _ _ HRR HE) as (s1 & env1 & gs1 & Wm1 & H1 & HE1 & Hl1). unfold bind. rewrite H1. cbn [fst snd].
    destruct (IH _ _ _ _ _ HE1) as (s2 & env2 & gs2 & Wm2 & H2 & HE2 & Hl2). exists s2, env2, gs2, Wm2. split_and!; [done|done|congruence].
Qed.

Lemma each_loop_ok R (R' : list (tree A)) : Forall2 rt R R' -> forall acts s env st gs Wm f,
  length R < f -> ERel s env R R' st gs Wm ->
  exists s' env' gs' Wm',
    each_loop f h (CIter (hdp R None) (length R)) (cs_of gs) acts env s = Ok (imap (fun i (t : tree A) => (length R' - i, root_of t)) R', (0, false), env') s' /\ ERel s' env' [] [] (each_child h acts R' st) gs' Wm' /\ m_log s' = m_log s.
Proof.
  intros HR0. induction HR0 as [|k xk R R' Hk HR0 IH]; intros acts s env st gs Wm f Hf HE;
    (destruct f as [|f]; [simpl in Hf; lia|]); cbn [each_loop each_child].
  - exists s, env, gs, Wm. done.
  - destruct HE as [HR Hh Hrel Hsh]. pose proof (RE_inv _ _ _ _ _ _ HR Hh) as HI. destruct (rt_inv _ _ Hk) as (kp & kl & kks & -> & Hkks).
    set (D := flat_map aseg_trees gs) in *.
    pose proof (lookup_at s (Fr p pl v D R :: C) kp kl (Some (root_of xk)) kks (vals (delete h Wm)) EL) as Hlk.
    rewrite plug_cons in Hlk. cbn [plug1] in Hlk. specialize (Hlk HI).
    unfold bind at 1. unfold ci_next at 1. cbn [ci_len ci_curr hdp length aptr]. unfold bind at 1, get at 1. rewrite Hlk. cbn [ret fst snd mk n_next].
    unfold bind at 1. pose proof (data_at s (Fr p pl v D R :: C) kp kl (root_of xk) kks (vals (delete h Wm)) EL) as Hda.
    rewrite plug_cons in Hda. cbn [plug1] in Hda. rewrite (Hda HI).
    destruct (each_acts_ok R R' (default [] (head acts)) HR0 s env (st.1, st.2 ++ [([], Some xk, [])]) (gs ++ [([], Some (AN kp kl (Some (root_of xk)) kks), [])]) Wm)
      as (s1 & env1 & gs1 & Wm1 & He & HE1 & Hlog1).
    { split; cbn [fst snd].
      - rewrite flat_map_app. cbn [flat_map seg_trees fst snd option_list]. rewrite <-app_assoc. exact HR.
      - rewrite flat_map_app. cbn [flat_map aseg_trees fst snd option_list]. rewrite <-app_assoc. exact Hh.
      - apply Forall2_app; [done|]. repeat constructor. done.
      - done. }
    assert (cs_of (gs ++ [([], Some (AN kp kl (Some (root_of xk)) kks), [])]) = cs_of gs ++ [Some kp]) as Hcs by (unfold cs_of; by rewrite fmap_app).
    rewrite Hcs in He. unfold bind at 1. rewrite He. cbn [fst snd].
    destruct (IH (tail acts) s1 env1 _ gs1 Wm1 f ltac:(simpl in Hf; lia) HE1) as (s2 & env2 & gs2 & Wm2 & Hc & HE2 & Hlog2).
    unfold bind at 1. cbn [next_of]. rewrite Hc. cbn [ret fst snd].
    exists s2, env2, gs2, Wm2. split_and!; [|done|congruence]. rewrite imap_cons. unfold ci_size_hint. cbn [ci_len length]. rewrite (Forall2_length _ _ _ HR0). done.
Qed.
End each.

Lemma step_each h path acts : step_good (OEach h path acts).
Proof.
  start. lk HR h; [|bad Wm]. obs path HR H H0 Wm.
  unfold iter at 1. unfold bind at 1. unfold get at 1. rewrite (lookup_at _ _ _ _ _ _ _ _ HI). cbn [mk n_head n_deg ret].
  destruct (each_loop_ok h it path C p pl v Hset ks xs Hks acts s env (senv, []) [] Wm (S (size (m_heap s)))) as (s' & env' & gs & Wm' & He & HE & Hl).
  - pose proof (located_size _ _ _ _ _ (plug_located C (AN p pl v ks) (vals (delete h Wm))) HI) as Hs. rewrite cntn_eq in Hs. pose proof (length_cnts ks). lia.
  - split; cbn [fst snd flat_map app].
    + rewrite <-(insert_id Wm h _ H). eapply (RE_update _ _ _ _ h _ _ _ _ HR H); [done|exact HI|]. by apply Hset.
    + done.
    + constructor.
    + eauto.
  - destruct (each_child h acts xs (senv, [])) as [senv' gs']. destruct HE as [HE _ _ _]. cbn [fst snd] in HE. rewrite app_nil_r in HE. unfold fuel, gets.
    cbn [cs_of fmap list_fmap] in He. destruct ks; cbn [length hdp aptr] in *; rewrite He; cbn [fst snd]; (eexists (CSt _ _); split; [done|]; exists Wm'; split; [exact HE|simpl; congruence]).
Qed.

Lemma step_map_into h (x : nat) f : step_good (OMapInto h x f).
Proof.
  start. lk HR h; [|bad Wm]. pose proof (RE_inv _ _ _ _ _ _ HR H) as HI.
  destruct (into_bfs_any _ _ _ _ H0 HI) as (q & fs & s1 & W1 & H2 & HI1 & Hq & Hrt & Hl1).
  destruct it as [y|ys]; rewrite H1 in *; (lk HR x; [bad Wm|]); unfold bind; rewrite H2; cbn [fst snd item_fmap].
  - destruct (tree_from_bfs_spec _ _ _ (map_yields f _ _ _ (isp_yields (vals (delete h Wm)))) EL (q, []) W1 s1 (bfs_fmap f y) _ (qo_level_order _)) as (t' & s' & W' & Hc & HI' & Hr' & Hco & -> & Hl).
    { exists (visit_of <$> level_order y). split; [|apply bfs_fmap_visits]. exists fs, [y], (level_order y). split_and!; [done|done|apply qo_level_order|done]. }
    { done. }
    rewrite Hc. eexists (CSt _ _); split; [done|]. eexists. split; [|simpl; congruence]. cbn [ret c_env c_mem].
    rewrite <-(hof_T _ _ Hr'). eapply RE_move; done.
  - destruct (forest_from_bfs_spec _ _ _ (map_yields f _ _ _ (isp_yields (vals (delete h Wm)))) EL (q, []) W1 s1 (bfs_fmap_f f ys) _ (qo_level_order_f _)) as (t' & s' & W' & Hc & HI' & Hr' & Hco & -> & Hl).
    { exists (visit_of <$> level_order_f ys). split; [|apply bfs_fmap_f_visits]. exists fs, ys, (level_order_f ys). split_and!; [done|done|apply qo_level_order_f|done]. }
    { done. }
    pose proof (bfs_fmap_f_shape f ys) as Hs. rewrite (Forall2_length _ _ _ Hs), (ss_nodes_f _ _ Hs) in Hc.
    cbn [trees_of]. rewrite Hc. eexists (CSt _ _); split; [done|]. eexists. split; [|simpl; congruence]. cbn [ret c_env c_mem].
    rewrite <-(hof_F _ _ Hr'). eapply RE_move; done.
Qed.
Lemma step_map_bfs h path (x : nat) f : step_good (OMapBfs h path x f).
Proof.
  start. lk HR x; [destruct (senv !! h); bad Wm|]. lk HR h; [|bad Wm].
  obs path HR H0 H1 Wm. rewrite Hn, Hroot. destruct v as [a|]; [|bad Wm].
  destruct (map_bfs_spec (EL := EL) f s (vals Wm) C (AN p pl (Some a) ks) (Tr a xs)) as (t' & s' & Hc & HI' & Hr & _ & Hl).
  - eexists. symmetry. by apply vals_delete.
  - by constructor.
  - apply HR.
  - cbn [aptr] in Hc. unfold bind in Hc |- *. destruct (bfs p s) as [b s0|]; [|done]. rewrite Hc. eexists (CSt _ _); split; [done|]. eexists. split; [|by simpl; rewrite Hl]. simpl.
    rewrite <-(hof_T _ _ Hr). by eapply RE_new.
Qed.
Lemma step_map_bfs_children h path (x : nat) f : step_good (OMapBfsChildren h path x f).
Proof.
  start. lk HR x; [destruct (senv !! h); bad Wm|]. lk HR h; [|bad Wm].
  obs path HR H0 H1 Wm.
  destruct (map_bfs_children_spec (EL := EL) f s (vals Wm) C p pl v ks xs) as (t' & s' & Hc & HI' & Hr & _ & Hl); [|done|apply HR|].
  - eexists. symmetry. by apply vals_delete.
  - unfold bind in Hc |- *. destruct (bfs_children p s) as [b s0|]; [|done]. rewrite Hc. eexists (CSt _ _); split; [done|]. eexists. split; [|by simpl; rewrite Hl]. simpl.
    rewrite <-(hof_F _ _ Hr). by eapply RE_new.
Qed.

Lemma step_move h (x : nat) : step_good (OMove h x).
Proof.
  start. lk HR x; [lk HR h; bad Wm|]. lk HR h; [|bad Wm].
  eexists (CSt _ _); split; [done|]. eexists. split; [|done]. simpl.
  eapply RE_move; [done|done|done|by eapply RE_inv|done].
Qed.

Theorem step_ok (o : op A) : step_good o.
Proof.
  destruct o.
  - intros c σ. apply step_new_tree.
  - intros c σ. apply step_new_forest.
  - apply step_push.
  - apply step_pop.
  - apply step_concat.
  - apply step_insert.
  - apply step_detach.
  - apply step_abandon.
  - apply step_modify.
  - apply step_drop.
  - apply step_data.
  - apply step_degree.
  - apply step_count.
  - apply step_nochild.
  - apply step_end.
  - apply step_iter.
  - apply step_parent.
  - apply step_clone.
  - apply step_clone_forest.
  - apply step_bfs.
  - apply step_bfs_children.
  - apply step_bfs_mut.
  - apply step_bfs_children_mut.
  - apply step_into_bfs.
  - apply step_from_bfs.
  - apply step_from_visits.
  - apply step_into_iter.
  - apply step_move.
  - apply step_map_into.
  - apply step_map_bfs.
  - apply step_map_bfs_children.
  - apply step_each.
Qed.

Lemma run_ok os : forall c σ, CInv c σ ->
  match srun σ os with
  | Some (rs, σ') => exists c', run c os = Done rs c' /\ CInv c' σ'
  | None => run c os = Fails EPanic
  end.
Proof.
  induction os as [|o os IH]; intros c σ H; simpl; [eauto|].
  pose proof (step_ok o c σ H) as Hs. destruct (sstep σ o) as [[r σ']|]; [|by rewrite Hs].
  destruct Hs as (c' & -> & H'). specialize (IH c' σ' H'). destruct (srun σ' os) as [[rs σ'']|]; [|by rewrite IH].
  destruct IH as (c'' & -> & H''). eauto.
Qed.

End step2.

(** the client without further trees *)
Notation vals := (@ClientRef.vals _ []).
Notation REnv := (@ClientRef.REnv _ [] []).
Notation CInv := (@ClientRef.CInv _ [] []).
