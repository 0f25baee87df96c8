(** ClientRef.v — the refinement: invariant of the client and the step lemma. *)
From stdpp Require Import base gmap list.
From Verif Require Import Spec ClientSpec Machine NodeModel ClientModel Sep Rep NodeProofs Inv Abs ClientProofs.

Section ref.
Context {A : Type}.
Implicit Types (p q : ptr) (ks fs qs L R W : list (atree A)) (C : ctx A) (t k : atree A) (s : mem A)
  (x y : tree A) (xs ys : list (tree A)) (c : cst A) (σ : sst A) (Wm : gmap nat (atree A)) (it : item A).

(** [F]: trees the client does not hold as variables (used for shared trees) *)
Context {F : list (atree A)}.
(** [EL]: cells of buffers that were abandoned while being built (used for panics) *)
Context {EL : list (ptr * node A)}.

Definition hof (t : atree A) : handle := match aval t with Some _ => HT (aptr t) | None => HF (aptr t) end.
Lemma addr_hof t : addr (hof t) = aptr t.
Proof. unfold hof. by destruct (aval t). Qed.

Definition vals (Wm : gmap nat (atree A)) : list (atree A) := (map_to_list Wm).*2 ++ F.

Lemma vals_insert Wm h t : Wm !! h = None -> vals (<[h := t]> Wm) ≡ₚ t :: vals Wm.
Proof. intros H. unfold vals. by rewrite (map_to_list_insert _ _ _ H). Qed.
Lemma vals_delete Wm h t : Wm !! h = Some t -> t :: vals (delete h Wm) ≡ₚ vals Wm.
Proof. intros H. unfold vals. by rewrite <-(map_to_list_delete _ _ _ H). Qed.
Lemma vals_update Wm h t t' : Wm !! h = Some t -> vals (<[h := t']> Wm) ≡ₚ t' :: vals (delete h Wm).
Proof.
  intros H. rewrite <-insert_delete_insert. apply vals_insert. apply lookup_delete.
Qed.

Record REnv (s : mem A) (env : gmap nat handle) (senv : gmap nat (item A)) Wm : Prop := {
  re_inv : MInvX s (vals Wm) EL;
  re_env : env = hof <$> Wm;
  re_ri : forall h, option_Forall2 ri (Wm !! h) (senv !! h)
}.

Definition CInv c σ : Prop := exists Wm, REnv (c_mem c) (c_env c) (s_env σ) Wm /\ m_log (c_mem c) = s_log σ.

Lemma RE_lookup s env senv Wm h : REnv s env senv Wm ->
  match senv !! h with
  | Some it => exists t, Wm !! h = Some t /\ ri t it /\ env !! h = Some (hof t) /\
                 hof t = match it with ITree _ => HT (aptr t) | IForest _ => HF (aptr t) end
  | None => Wm !! h = None /\ env !! h = None
  end.
Proof.
  intros [HI He Hr]. specialize (Hr h). rewrite He, lookup_fmap. destruct (senv !! h) as [it|].
  - inversion Hr as [t it' Hri Ht|]; subst. exists t. split_and!; [done|done|done|].
    unfold hof. destruct it as [x|xs]; simpl in Hri; [by rewrite (rt_val _ _ Hri)|]. by destruct Hri as [-> _].
  - inversion Hr. done.
Qed.

Lemma RE_inv s env senv Wm h t : REnv s env senv Wm -> Wm !! h = Some t -> MInvX s (t :: vals (delete h Wm)) EL.
Proof. intros [HI _ _] H. eapply MInv_perm; [|exact HI]. by rewrite vals_delete. Qed.

Lemma RE_delete s env senv Wm h t : REnv s env senv Wm -> Wm !! h = Some t -> 
  forall s', MInvX s' (vals (delete h Wm)) EL -> REnv s' (delete h env) (delete h senv) (delete h Wm).
Proof.
  intros [HI He Hr] H s' HI'. split; [done|by rewrite He, fmap_delete|].
  intros h'. destruct (decide (h = h')) as [->|Hne]; [rewrite !lookup_delete; constructor|].
  by rewrite !lookup_delete_ne.
Qed.

Lemma RE_insert s env senv Wm h t it s' :
  REnv s env senv Wm -> MInvX s' (t :: vals (delete h Wm)) EL -> ri t it ->
  REnv s' (<[h := hof t]> env) (<[h := it]> senv) (<[h := t]> Wm).
Proof.
  intros [HI He Hr] HI' Hri. split.
  - eapply MInv_perm; [|exact HI']. rewrite <-insert_delete_insert. by rewrite vals_insert by apply lookup_delete.
  - by rewrite He, fmap_insert.
  - intros h'. destruct (decide (h = h')) as [->|Hne]; [rewrite !lookup_insert; by constructor|].
    by rewrite !lookup_insert_ne.
Qed.

(** replacing the tree of a variable, its handle being unchanged *)
Lemma RE_update s env senv Wm h t t' it s' :
  REnv s env senv Wm -> Wm !! h = Some t -> hof t' = hof t -> MInvX s' (t' :: vals (delete h Wm)) EL -> ri t' it ->
  REnv s' env (<[h := it]> senv) (<[h := t']> Wm).
Proof.
  intros HR Ht Hh HI' Hri. pose proof (RE_insert _ _ _ _ h _ _ _ HR HI' Hri) as H.
  rewrite insert_id in H; [done|]. destruct HR as [_ He _]. by rewrite He, lookup_fmap, Ht, Hh.
Qed.

Lemma hof_plug C p pl v ks ks' : hof (plug C (AN p pl v ks)) = hof (plug C (AN p pl v ks')).
Proof.
  destruct C as [|[? ? ? ? ?] C _] using rev_ind; [done|]. rewrite !plug_app. done.
Qed.
Lemma hof_plug_val C p pl a a' ks : hof (plug C (AN p pl (Some a) ks)) = hof (plug C (AN p pl (Some a') ks)).
Proof.
  destruct C as [|[? ? ? ? ?] C _] using rev_ind; [done|]. rewrite !plug_app. done.
Qed.

(** ** paths *)
Lemma split_last_some path path' i : split_last path = Some (path', i) -> path = path' ++ [i].
Proof.
  unfold split_last. destruct (reverse path) as [|j r] eqn:E; [done|]. intros [= <- <-].
  rewrite <-(reverse_involutive path), E. by rewrite reverse_cons.
Qed.
Lemma split_last_none path : split_last path = None -> path = [].
Proof.
  unfold split_last. destruct (reverse path) as [|j r] eqn:E; [|done]. intros _.
  rewrite <-(reverse_involutive path), E. done.
Qed.
Lemma split_last_app path i : split_last (path ++ [i]) = Some (path, i).
Proof. unfold split_last. rewrite reverse_app. simpl. by rewrite reverse_involutive. Qed.

Lemma afind_app path : forall t path2, afind t (path ++ path2) =
  match afind t path with
  | Some (C, t') => match afind t' path2 with Some (C', t'') => Some (C' ++ C, t'') | None => None end
  | None => None
  end.
Proof.
  induction path as [|i path IH]; intros [p pl v ks] path2; simpl.
  - destruct (afind _ path2) as [[C t]|]; [|done]. by rewrite app_nil_r.
  - destruct (ks !! i) as [k|]; [|done]. rewrite IH. destruct (afind k path) as [[C t']|]; [|done].
    destruct (afind t' path2) as [[C' t'']|]; [|done]. by rewrite app_assoc.
Qed.

Lemma kids_at_app it path i : kids_at it (path ++ [i]) =
  match kids_at it path with Some ts => kids <$> (ts !! i) | None => None end.
Proof.
  assert (Htree : forall path x, kids <$> subtree x (path ++ [i]) =
     match kids <$> subtree x path with Some ts => kids <$> (ts !! i) | None => None end).
  { clear. intros path. induction path as [|j path IH]; intros x; simpl.
    - by destruct (kids x !! i).
    - by destruct (kids x !! j). }
  destruct it as [x|xs]; simpl; [apply Htree|]. destruct path as [|j path]; simpl.
  - by destruct (xs !! i).
  - destruct (xs !! j); [apply Htree|done].
Qed.
Lemma node_at_app it path i : node_at it (path ++ [i]) =
  match kids_at it path with Some ts => ts !! i | None => None end.
Proof.
  assert (Htree : forall path x, subtree x (path ++ [i]) =
     match kids <$> subtree x path with Some ts => (ts !! i) | None => None end).
  { clear. intros path. induction path as [|j path IH]; intros x; simpl.
    - by destruct (kids x !! i).
    - by destruct (kids x !! j). }
  destruct it as [x|xs]; simpl; [apply Htree|]. destruct path as [|j path]; simpl.
  - by destruct (xs !! i).
  - destruct (xs !! j); [apply Htree|done].
Qed.

(** context of a located node: only the outermost frame can be a forest *)
Lemma afind_ctx t it path C t' : ri t it -> afind t path = Some (C, t') ->
  forall fr C1 C2, C = C1 ++ fr :: C2 -> (let 'Fr _ _ v _ _ := fr in v = None) -> C2 = [].
Proof.
  assert (Htree : forall path t x C t', rt t x -> afind t path = Some (C, t') -> Forall (fun fr : frame A => let 'Fr _ _ v _ _ := fr in is_Some v) C).
  { clear. intros path. induction path as [|i path IH]; intros [p pl v ks] x C t' Hr Hf; simpl in Hf; [by simplify_eq|].
    destruct (ks !! i) as [k|] eqn:Hk; [|done]. destruct (afind k path) as [[C' t'']|] eqn:Hf'; [|done]. simplify_eq.
    inversion Hr as [? ? ? ? xs Hks]; subst. destruct (Forall2_lookup_l _ _ _ _ _ Hks Hk) as (y & ? & Hy).
    apply Forall_app. split; [eapply IH; eauto|]. constructor; [eauto|constructor]. }
  intros Hri Hf. destruct it as [x|xs]; simpl in Hri.
  - intros fr C1 C2 HC Hfr. pose proof (Htree _ _ _ _ _ Hri Hf) as HF. subst C. apply Forall_app in HF as [_ HF]. apply Forall_cons in HF as [HF _].
    destruct fr as [? ? v ? ?]. subst v. destruct HF. done.
  - destruct t as [p pl v ks]. destruct Hri as [Hv Hks]. simpl in Hv, Hks. subst v. destruct path as [|i path]; simpl in Hf; [simplify_eq; intros ? C1 ?; by destruct C1|].
    destruct (ks !! i) as [k|] eqn:Hk; [|done]. destruct (afind k path) as [[C' t'']|] eqn:Hf'; [|done]. simplify_eq.
    destruct (Forall2_lookup_l _ _ _ _ _ Hks Hk) as (y & ? & Hy). pose proof (Htree _ _ _ _ _ Hy Hf') as HF.
    intros fr C1 C2 HC Hfr.
    destruct C2 as [|fr2 C2 _] using rev_ind; [done|]. exfalso.
    rewrite app_comm_cons, app_assoc in HC. apply app_inj_tail in HC as [-> _].
    apply Forall_app in HF as [_ HF]. apply Forall_cons in HF as [HF _].
    destruct fr as [? ? v ? ?]. subst v. destruct HF. done.
Qed.

Lemma RE_locate s env senv Wm h t it path : REnv s env senv Wm -> Wm !! h = Some t -> ri t it ->
  match kids_at it path with
  | Some xs => exists C p pl v ks, t = plug C (AN p pl v ks) /\ afind t path = Some (C, AN p pl v ks) /\
      resolve (addr (hof t)) path s = Ok (Some p) s /\
      MInvX s (plug C (AN p pl v ks) :: vals (delete h Wm)) EL /\ Forall2 rt ks xs /\
      (forall ks' xs', Forall2 rt ks' xs' -> ri (plug C (AN p pl v ks')) (set_kids it path xs')) /\
      node_at it path = match v with Some a => Some (Tr a xs) | None => None end /\
      (forall a', is_Some v -> ri (plug C (AN p pl (Some a') ks)) (set_data it path a')) /\
      is_forest_root (hof t) path = match v with Some _ => false | None => true end
  | None => resolve (addr (hof t)) path s = Ok None s /\ node_at it path = None
  end.
Proof.
  intros HR Ht Hri. pose proof (RE_inv _ _ _ _ _ _ HR Ht) as HI. pose proof (locate_kids t it path Hri) as H.
  rewrite addr_hof, (resolve_at _ _ _ _ path HI). destruct (kids_at it path) as [xs|].
  - destruct H as (C & p & pl & v & ks & Hf & Hks & H1 & H2 & H3 & H4). pose proof (afind_plug _ _ _ _ Hf) as Hp.
    exists C, p, pl, v, ks. rewrite Hf. split_and!; try done; [by rewrite Hp|].
    destruct it as [x|xs0]; simpl in Hri; unfold hof.
    + rewrite (rt_val _ _ Hri). simpl. destruct v; [done|]. destruct H4 as [[[? ?] ?] _]; done.
    + destruct Hri as [-> _]. simpl. destruct path.
      * destruct H4 as [_ ->]; eauto.
      * destruct v; [done|]. destruct H4 as [[? ?] _]; done.
  - destruct H as [-> H]. done.
Qed.

Ltac lk HR h := let H := fresh "Hlk" in pose proof (RE_lookup _ _ _ _ h HR) as H;
  match type of H with match ?e with _ => _ end => 
    let it := fresh "it" in destruct e as [it|] eqn:?;
    [let t := fresh "t" in destruct H as (t & ? & ? & -> & ?) | destruct H as [? ->]] end.
Ltac bad Wm := eexists (CSt _ _); split; [done | exists Wm; done].

Lemma RE_hT t x : ri t (ITree x) -> exists p pl ks, t = AN p pl (Some (root_of x)) ks /\ Forall2 rt ks (kids x).
Proof. apply rt_inv. Qed.
Lemma RE_hF t xs : ri t (IForest xs) -> exists p pl ks, t = AN p pl None ks /\ Forall2 rt ks xs.
Proof. destruct t as [p pl v ks]. simpl. intros [-> ?]. eauto 6. Qed.

Lemma REnv_mem s s' env senv Wm : REnv s env senv Wm -> MInvX s' (vals Wm) EL -> REnv s' env senv Wm.
Proof. intros [? ? ?] ?. by split. Qed.

Lemma vals_delete2 Wm (h y : nat) t t' : h <> y -> Wm !! h = Some t -> Wm !! y = Some t' ->
  vals Wm ≡ₚ t' :: t :: vals (delete h (delete y Wm)).
Proof.
  intros Hne H1 H2. rewrite <-(vals_delete _ _ _ H2), <-(vals_delete (delete y Wm) h t); [done|].
  by rewrite lookup_delete_ne.
Qed.

(** consuming the variable [y] and changing the tree of [h] *)
Lemma RE_consume s env senv Wm (h y : nat) t t' it s' :
  REnv s env senv Wm -> delete y Wm !! h = Some t -> hof t' = hof t ->
  MInvX s' (t' :: vals (delete h (delete y Wm))) EL -> ri t' it ->
  REnv s' (delete y env) (<[h := it]> (delete y senv)) (<[h := t']> (delete y Wm)).
Proof.
  intros [HI He Hr] Ht Hh HI' Hri. split.
  - eapply MInv_perm; [|exact HI']. rewrite <-insert_delete_insert. by rewrite vals_insert by apply lookup_delete.
  - rewrite He, fmap_insert, fmap_delete, Hh. rewrite insert_id; [done|]. rewrite <-fmap_delete, lookup_fmap, Ht. done.
  - intros h'. destruct (decide (h = h')) as [->|Hne]; [rewrite !lookup_insert; by constructor|].
    rewrite !lookup_insert_ne by done. destruct (decide (y = h')) as [->|Hne']; [rewrite !lookup_delete; constructor|].
    by rewrite !lookup_delete_ne.
Qed.

(** a new variable [x] holding a tree split off from [h] *)
Lemma RE_produce s env senv Wm (h x : nat) t t' tx it itx s' :
  REnv s env senv Wm -> Wm !! h = Some t -> Wm !! x = None -> hof t' = hof t ->
  MInvX s' (tx :: t' :: vals (delete h Wm)) EL -> ri t' it -> ri tx itx ->
  REnv s' (<[x := hof tx]> env) (<[x := itx]> (<[h := it]> senv)) (<[x := tx]> (<[h := t']> Wm)).
Proof.
  intros [HI He Hr] Ht Hx Hh HI' Hri Hrx. assert (h <> x) by congruence. split.
  - eapply MInv_perm; [|exact HI']. rewrite vals_insert by by rewrite lookup_insert_ne. by rewrite (vals_update _ _ t).
  - rewrite He, !fmap_insert, Hh. f_equal. symmetry. apply insert_id. by rewrite lookup_fmap, Ht.
  - intros h'. destruct (decide (x = h')) as [->|Hne]; [rewrite !lookup_insert; by constructor|].
    rewrite !(lookup_insert_ne _ x) by done. destruct (decide (h = h')) as [->|Hne']; [rewrite !lookup_insert; by constructor|].
    by rewrite !lookup_insert_ne.
Qed.

Lemma datas_at s C p pl v ks xs W E :
  MInvX s (plug C (AN p pl v ks) :: W) E -> Forall2 rt ks xs -> datas (aptr <$> ks) s = Ok (root_of <$> xs) s.
Proof.
  intros H HF. assert (Forall2 (fun k x => data (aptr k) s = Ok (root_of x) s) ks xs) as HF'.
  { apply Forall2_same_length_lookup. split; [by eapply Forall2_length|]. intros i k x Hk Hx.
    pose proof (Forall2_lookup_lr _ _ _ _ _ _ HF Hk Hx) as Hr. rewrite (kid_in C p pl v ks i k Hk) in H.
    inversion Hr; subst. by eapply data_at. }
  clear HF H. induction HF' as [|k x ks xs Hk _ IH]; [done|]. csimpl. unfold bind. by rewrite Hk, IH.
Qed.

Lemma data_opt_kid s C p pl v ks xs i W E :
  MInvX s (plug C (AN p pl v ks) :: W) E -> Forall2 rt ks xs -> data_opt (aptr <$> ks !! i) s = Ok (root_of <$> xs !! i) s.
Proof.
  intros H HF. destruct (ks !! i) as [k|] eqn:Hk; simpl.
  - destruct (Forall2_lookup_l _ _ _ _ _ HF Hk) as (x & -> & Hr). rewrite (kid_in C p pl v ks i k Hk) in H.
    inversion Hr; subst. simpl. unfold bind. by rewrite (data_at _ _ _ _ _ _ _ _ H).
  - destruct (xs !! i) as [x|] eqn:Hx; [|done]. destruct (Forall2_lookup_r _ _ _ _ _ HF Hx) as (?&?&?). congruence.
Qed.

Lemma step_new_tree c σ (x : nat) a : CInv c σ ->
  match sstep σ (ONewTree x a) with
  | Some (r, σ') => exists c', step c (ONewTree x a) = Done r c' /\ CInv c' σ' | None => step c (ONewTree x a) = Fails EPanic end.
Proof.
  intros (Wm & HR & Hlog). destruct c as [env s], σ as [senv log]; simpl in *. unfold step, cstep; simpl. lk HR x.
  - bad Wm.
  - destruct (make_node_spec s (vals Wm) EL (DScat a (0,0)) (Some a)) as (s' & Hm & HI & Hl & _); [apply HR|done|].
    unfold bind, tree_new. rewrite Hm. eexists (CSt _ _); split; [done|]. eexists. split; [|by simpl; rewrite Hl].
    eapply (RE_insert _ _ _ _ _ (AN (m_fresh s, 0) false (Some a) []) (ITree (Tr a []))); [exact HR| |by constructor].
    by rewrite delete_notin.
Qed.
Lemma step_new_forest c σ (x : nat) : CInv c σ ->
  match sstep σ (ONewForest x) with
  | Some (r, σ') => exists c', step c (ONewForest x) = Done r c' /\ CInv c' σ' | None => step c (ONewForest x) = Fails EPanic end.
Proof.
  intros (Wm & HR & Hlog). destruct c as [env s], σ as [senv log]; simpl in *. unfold step, cstep; simpl. lk HR x.
  - bad Wm.
  - destruct (make_node_spec s (vals Wm) EL (DScatN (0,0)) None) as (s' & Hm & HI & Hl & _); [apply HR|done|].
    unfold bind, forest_new. rewrite Hm. eexists (CSt _ _); split; [done|]. eexists. split; [|by simpl; rewrite Hl].
    eapply (RE_insert _ _ _ _ _ (AN (m_fresh s, 0) false None []) (IForest [])); [exact HR| |split; [done|constructor]].
    by rewrite delete_notin.
Qed.

Definition step_good (o : op A) : Prop := forall c σ, CInv c σ ->
  match sstep σ o with
  | Some (r, σ') => exists c', step c o = Done r c' /\ CInv c' σ'
  | None => step c o = Fails EPanic
  end.

Lemma RE_del_lookup s env senv Wm (y h : nat) : REnv s env senv Wm ->
  match delete y senv !! h with
  | Some it => exists t, h <> y /\ Wm !! h = Some t /\ delete y Wm !! h = Some t /\ ri t it /\ delete y env !! h = Some (hof t) /\
                 hof t = match it with ITree _ => HT (aptr t) | IForest _ => HF (aptr t) end
  | None => delete y env !! h = None
  end.
Proof.
  intros HR. destruct (decide (y = h)) as [->|Hne]; [by rewrite !lookup_delete|].
  rewrite !lookup_delete_ne by done. pose proof (RE_lookup _ _ _ _ h HR) as H. destruct (senv !! h).
  - destruct H as (t & ? & ? & ? & ?). exists t. by rewrite ?lookup_delete_ne.
  - tauto.
Qed.

Lemma step_push e h path (y : nat) : step_good (OPush e h path y).
Proof.
  intros c σ (Wm & HR & Hlog). destruct c as [env s], σ as [senv log]; simpl in *. unfold step, cstep; simpl. lk HR y; [|bad Wm].
  destruct it as [ty|fy]; rewrite H1; [|bad Wm].
  pose proof (RE_del_lookup _ _ _ _ y h HR) as Hd. destruct (delete y senv !! h) as [it|]; [|rewrite Hd; bad Wm].
  destruct Hd as (u & Hne & Hu & Hud & Hri & -> & Hhu).
  pose proof (RE_locate _ _ _ _ _ _ _ path HR Hu Hri) as HL. destruct (kids_at it path) as [xs|].
  - destruct HL as (C & p & pl & v & ks & -> & _ & Hres & HI & Hks & Hset & _). unfold bind. rewrite Hres.
    destruct (RE_hT _ _ H0) as (q & ql & qs & -> & Hqs).
    destruct (push_at e s C p pl v ks q ql (root_of ty) qs (vals (delete h (delete y Wm))) EL) as (hp & Hp & HI').
    { eapply MInv_perm; [|apply HR]. by apply vals_delete2. }
    simpl. rewrite Hp. eexists (CSt _ _); split; [done|]. eexists. split; [|done].
    eapply RE_consume; [exact HR|exact Hud| |exact HI'|].
    + apply hof_plug.
    + apply Hset. destruct e.
      * constructor; [|done]. destruct ty. by constructor.
      * apply Forall2_app; [done|]. constructor; [|done]. destruct ty. by constructor.
  - destruct HL as [Hres _]. unfold bind. rewrite Hres. bad Wm.
Qed.

Lemma step_concat e h path (y : nat) : step_good (OConcat e h path y).
Proof.
  intros c σ (Wm & HR & Hlog). destruct c as [env s], σ as [senv log]; simpl in *. unfold step, cstep; simpl. lk HR y; [|bad Wm].
  destruct it as [ty|fy]; rewrite H1; [bad Wm|].
  pose proof (RE_del_lookup _ _ _ _ y h HR) as Hd. destruct (delete y senv !! h) as [it|]; [|rewrite Hd; bad Wm].
  destruct Hd as (u & Hne & Hu & Hud & Hri & -> & Hhu).
  pose proof (RE_locate _ _ _ _ _ _ _ path HR Hu Hri) as HL. destruct (kids_at it path) as [xs|].
  - destruct HL as (C & p & pl & v & ks & -> & _ & Hres & HI & Hks & Hset & _). unfold bind. rewrite Hres.
    destruct (RE_hF _ _ H0) as (q & ql & qs & -> & Hqs).
    destruct (concat_at e s C p pl v ks q ql qs (vals (delete h (delete y Wm))) EL) as (s' & Hp & HI' & Hl).
    { eapply MInv_perm; [|apply HR]. by apply vals_delete2. }
    simpl. rewrite Hp. eexists (CSt _ _); split; [done|]. eexists. split; [|by simpl; rewrite Hl].
    eapply RE_consume; [exact HR|exact Hud| |exact HI'|].
    + apply hof_plug.
    + apply Hset. destruct e; by apply Forall2_app.
  - destruct HL as [Hres _]. unfold bind. rewrite Hres. bad Wm.
Qed.

Lemma Forall2_last {X Y} (P : X -> Y -> Prop) l m : Forall2 P l m -> option_Forall2 P (last l) (last m).
Proof.
  intros H. destruct l as [|x l _] using rev_ind.
  - inversion H. constructor.
  - apply Forall2_app_inv_l in H as (m1 & m2 & H1 & H2 & ->). inversion H2 as [|? y ? ? Hxy Hn]; subst. inversion Hn; subst.
    rewrite !last_snoc. by constructor.
Qed.

Lemma step_pop e h path (x : nat) : step_good (OPop e h path x).
Proof.
  intros c σ (Wm & HR & Hlog). destruct c as [env s], σ as [senv log]; simpl in *. unfold step, cstep; simpl. lk HR h; [|bad Wm].
  lk HR x; [bad Wm|].
  pose proof (RE_locate _ _ _ _ _ _ _ path HR H H0) as HL. destruct (kids_at it path) as [xs|].
  - destruct HL as (C & p & pl & v & ks & -> & _ & Hres & HI & Hks & Hset & _). unfold bind. rewrite Hres.
    assert (Hcase : (ks = [] /\ xs = []) \/ exists k ks' y ys',
       ks = match e with Front => k :: ks' | Back => ks' ++ [k] end /\
       xs = match e with Front => y :: ys' | Back => ys' ++ [y] end /\ rt k y /\ Forall2 rt ks' ys').
    { destruct e.
      - inversion Hks; subst; [by left|]. right. eauto 10.
      - destruct ks as [|k ks' _] using rev_ind; [inversion Hks; by left|]. right.
        apply Forall2_app_inv_l in Hks as (m1 & m2 & ? & Hm2 & ->). inversion Hm2 as [|? y ? ? Hxy Hn]; subst. inversion Hn; subst.
        eauto 10. }
    destruct Hcase as [[-> ->]|(k & ks' & y & ys' & -> & -> & Hky & Hks')].
    + rewrite (pop_at_none e _ _ _ _ _ _ _ HI). destruct e; simpl; bad Wm.
    + destruct (pop_at_some e _ _ _ _ _ _ _ _ _ HI) as (hp & Hp & HI'). rewrite Hp. simpl.
      assert (match e with Front => head (match e with Front => y :: ys' | Back => ys' ++ [y] end)
              | Back => last (match e with Front => y :: ys' | Back => ys' ++ [y] end) end = Some y) as ->.
      { destruct e; [done|]. by rewrite last_snoc. }
      assert (match e with Front => tail (match e with Front => y :: ys' | Back => ys' ++ [y] end)
              | Back => removelast (match e with Front => y :: ys' | Back => ys' ++ [y] end) end = ys') as ->.
      { destruct e; [done|]. by rewrite removelast_last. }
      eexists (CSt _ _); split; [done|]. eexists. split; [|done].
      pose proof (RE_produce _ _ _ _ h x _ (plug C (AN p pl v ks')) k (set_kids it path ys') (ITree y) (set_heap s hp) HR H H2) as HRx.
      simpl in HRx. assert (hof k = HT (aptr k)) as Hk. { unfold hof. by rewrite (rt_val _ _ Hky). }
      rewrite <-Hk. apply HRx; [apply hof_plug|done|by apply Hset|done].
  - destruct HL as [Hres _]. unfold bind. rewrite Hres. bad Wm.
Qed.

Lemma RE_locate_kid s env senv Wm h t it path i : REnv s env senv Wm -> Wm !! h = Some t -> ri t it ->
  match kids_at it path with
  | Some xs => exists C p pl v ks, t = plug C (AN p pl v ks) /\ Forall2 rt ks xs /\
      MInvX s (plug C (AN p pl v ks) :: vals (delete h Wm)) EL /\
      resolve (addr (hof t)) (path ++ [i]) s = Ok (aptr <$> ks !! i) s /\
      (forall ks' xs', Forall2 rt ks' xs' -> ri (plug C (AN p pl v ks')) (set_kids it path xs'))
  | None => resolve (addr (hof t)) (path ++ [i]) s = Ok None s
  end.
Proof.
  intros HR Ht Hri. pose proof (RE_inv _ _ _ _ _ _ HR Ht) as HI. pose proof (locate_kids t it path Hri) as H.
  rewrite addr_hof, (resolve_at _ _ _ _ (path ++ [i]) HI). rewrite afind_app. destruct (kids_at it path) as [xs|].
  - destruct H as (C & p & pl & v & ks & Hf & Hks & H1 & _). pose proof (afind_plug _ _ _ _ Hf) as Hp.
    exists C, p, pl, v, ks. rewrite Hf. split_and!; try done; [by rewrite Hp|]. simpl. by destruct (ks !! i).
  - destruct H as [-> H]. done.
Qed.

Lemma is_forest_root_app hd path i : is_forest_root hd (path ++ [i]) = false.
Proof. destruct hd, path; done. Qed.

Lemma step_insert e h path (y : nat) : step_good (OInsert e h path y).
Proof.
  intros c σ (Wm & HR & Hlog). destruct c as [env s], σ as [senv log]; simpl in *. unfold step, cstep; simpl. lk HR y; [|bad Wm].
  destruct it as [ty|fy]; rewrite H1; [|bad Wm].
  pose proof (RE_del_lookup _ _ _ _ y h HR) as Hd. destruct (delete y senv !! h) as [it|]; [|rewrite Hd; bad Wm].
  destruct Hd as (u & Hne & Hu & Hud & Hri & -> & Hhu).
  destruct (split_last path) as [[path' i]|] eqn:Hsl.
  - apply split_last_some in Hsl as ->. rewrite is_forest_root_app.
    pose proof (RE_locate_kid _ _ _ _ _ _ _ path' i HR Hu Hri) as HL. destruct (kids_at it path') as [xs|].
    + destruct HL as (C & p & pl & v & ks & -> & Hks & HI & Hres & Hset). unfold bind. rewrite Hres.
      pose proof (Forall2_length _ _ _ Hks) as Hlen.
      destruct (decide (i < length xs)) as [Hlt|Hge].
      * destruct (lookup_lt_is_Some_2 ks i) as [k Hk]; [lia|]. rewrite Hk. simpl.
        destruct (lookup_lt_is_Some_2 xs i) as [xk Hxk]; [lia|].
        destruct (RE_hT _ _ H0) as (q & ql & qs & -> & Hqs). destruct k as [kp kl kv kks].
        destruct (insert_at e s C p pl v (take i ks) (drop (S i) ks) kp kl kv kks q ql (root_of ty) qs (vals (delete h (delete y Wm))) EL) as (hp & Hp & HI').
        { rewrite take_drop_middle by done. eapply MInv_perm; [|apply HR]. by apply vals_delete2. }
        cbn [aptr]. rewrite Hp. eexists (CSt _ _); split; [done|]. eexists. split; [|done].
        eapply RE_consume; [exact HR|exact Hud| |exact HI'|].
        -- apply hof_plug.
        -- apply Hset.
           assert (Hty : rt (AN q ql (Some (root_of ty)) qs) ty) by (destruct ty; by constructor).
           pose proof (Forall2_lookup_lr _ _ _ _ _ _ Hks Hk Hxk) as Hkx.
           destruct e.
           ++ apply Forall2_app; [by apply Forall2_take|]. constructor; [done|].
              rewrite (drop_S _ _ _ Hxk). constructor; [done|by apply Forall2_drop].
           ++ rewrite (take_S_r _ _ _ Hxk), <-app_assoc. apply Forall2_app; [by apply Forall2_take|].
              constructor; [done|]. constructor; [done|by apply Forall2_drop].
      * rewrite lookup_ge_None_2 by lia. simpl. bad Wm.
    + unfold bind. rewrite HL. bad Wm.
  - apply split_last_none in Hsl as ->. destruct it as [x|xs]; rewrite Hhu; simpl; [|bad Wm].
    unfold bind, ret. destruct u as [p pl v ks]. simpl. pose proof (RE_inv _ _ _ _ _ _ HR Hu) as HI.
    by rewrite (insert_root e _ _ _ _ _ (aptr t) _ _ HI).
Qed.

Lemma step_detach h path (x : nat) : step_good (ODetach h path x).
Proof.
  intros c σ (Wm & HR & Hlog). destruct c as [env s], σ as [senv log]; simpl in *. unfold step, cstep; simpl. lk HR h; [|bad Wm].
  lk HR x; [bad Wm|].
  destruct (split_last path) as [[path' i]|] eqn:Hsl.
  - apply split_last_some in Hsl as ->. rewrite is_forest_root_app.
    pose proof (RE_locate_kid _ _ _ _ _ _ _ path' i HR H H0) as HL. destruct (kids_at it path') as [xs|].
    + destruct HL as (C & p & pl & v & ks & -> & Hks & HI & Hres & Hset). unfold bind. rewrite Hres.
      destruct (xs !! i) as [y|] eqn:Hxi.
      * destruct (Forall2_lookup_r _ _ _ _ _ Hks Hxi) as (k & Hk & Hky). rewrite Hk. simpl.
        destruct (rt_inv _ _ Hky) as (kp & kl & kks & -> & Hkks).
        destruct (detach_at s C p pl v (take i ks) (drop (S i) ks) kp kl (root_of y) kks (vals (delete h Wm)) EL) as (hp & Hp & HI').
        { by rewrite take_drop_middle. }
        simpl. rewrite Hp. eexists (CSt _ _); split; [done|]. eexists. split; [|done].
        eapply (RE_produce _ _ _ _ h x _ _ (AN kp kl (Some (root_of y)) kks) _ (ITree y) _ HR H H2);
          [|exact HI'| |done]; [apply hof_plug|]. apply Hset. apply Forall2_app; [by apply Forall2_take|by apply Forall2_drop].
      * destruct (ks !! i) as [k|] eqn:Hk; [destruct (Forall2_lookup_l _ _ _ _ _ Hks Hk) as (?&?&?); congruence|]. simpl. bad Wm.
    + unfold bind. rewrite HL. bad Wm.
  - apply split_last_none in Hsl as ->. destruct it as [y|ys]; rewrite H1; simpl; [|bad Wm].
    unfold bind, ret. destruct t as [p pl v ks]. simpl. pose proof (RE_inv _ _ _ _ _ _ HR H) as HI.
    by rewrite (detach_root _ _ _ _ _ _ _ HI).
Qed.

Lemma step_abandon h (x : nat) : step_good (OAbandon h x).
Proof.
  intros c σ (Wm & HR & Hlog). destruct c as [env s], σ as [senv log]; simpl in *. unfold step, cstep; simpl. lk HR h; [|bad Wm].
  destruct it as [[a ts]|ts]; rewrite H1; [|bad Wm]. lk HR x; [bad Wm|].
  destruct (RE_hT _ _ H0) as (p & pl & ks & -> & Hks). simpl in Hks.
  pose proof (RE_inv _ _ _ _ _ _ HR H) as HI. simpl in HI.
  destruct (abandon_at _ _ _ _ _ _ _ HI) as (s' & np & Hab & HI' & Hl). simpl.
  unfold bind. rewrite Hab. eexists (CSt _ _); split; [done|]. eexists. split; [|by simpl; rewrite Hl].
  set (t1 := AN np false (Some a) []) in *. set (t2 := AN p pl None ks) in *.
  assert (Hhx : h <> x) by congruence.
  destruct HR as [HI0 He Hr]. split.
  - eapply (MInv_perm _ _ (vals (<[x := t2]> (<[h := t1]> Wm)))); [|exact HI']. rewrite vals_insert by by rewrite lookup_insert_ne.
    rewrite (vals_update _ _ _ _ H). apply Permutation_swap.
  - simpl. by rewrite He, !fmap_insert.
  - intros h'. simpl. destruct (decide (x = h')) as [->|Hne]; [rewrite !lookup_insert; constructor; by split|].
    rewrite !(lookup_insert_ne _ x) by done. destruct (decide (h = h')) as [->|Hne']; [rewrite !lookup_insert; constructor; by constructor|].
    by rewrite !lookup_insert_ne.
Qed.

Lemma step_modify h path f : step_good (OModify h path f).
Proof.
  intros c σ (Wm & HR & Hlog). destruct c as [env s], σ as [senv log]; simpl in *. unfold step, cstep, with_node; simpl. lk HR h; [|bad Wm].
  pose proof (RE_locate _ _ _ _ _ _ _ path HR H H0) as HL. destruct (kids_at it path) as [xs|].
  - destruct HL as (C & p & pl & v & ks & -> & _ & Hres & HI & Hks & _ & Hn & Hset & Hroot). unfold bind. rewrite Hres.
    rewrite Hn, Hroot. destruct v as [a|]; [|bad Wm]. simpl.
    destruct (modify_at _ _ _ _ _ _ f _ _ HI) as (hp & Hp & HI'). rewrite Hp. eexists (CSt _ _); split; [done|]. eexists. split; [|done].
    eapply RE_update; [exact HR|exact H| |exact HI'|]; [apply hof_plug_val|]. apply Hset. eauto.
  - destruct HL as [Hres ->]. unfold bind. rewrite Hres. bad Wm.
Qed.

Lemma step_drop h : step_good (ODrop h).
Proof.
  intros c σ (Wm & HR & Hlog). destruct c as [env s], σ as [senv log]; simpl in *. unfold step, cstep; simpl. lk HR h; [|bad Wm].
  destruct (drop_tree_spec _ _ _ _ (RE_inv _ _ _ _ _ _ HR H)) as (s' & Hd & HI & Hl & _). unfold bind.
  rewrite addr_hof, Hd. eexists (CSt _ _); split; [done|]. eexists. split; [eapply RE_delete; [exact HR|exact H|exact HI]|].
  simpl. by rewrite Hl, Hlog, (ri_post _ _ H0).
Qed.

Ltac obs path HR H H0 Wm :=
  pose proof (RE_locate _ _ _ _ _ _ _ path HR H H0) as HL;
  match goal with |- context [kids_at ?it path] => destruct (kids_at it path) as [xs|] | _ : match kids_at ?it path with _ => _ end |- _ => destruct (kids_at it path) as [xs|] end;
  [destruct HL as (C & p & pl & v & ks & -> & Haf & Hres & HI & Hks & _ & Hn & _ & Hroot); unfold bind; rewrite Hres
  | let Hn := fresh in destruct HL as [Hres Hn]; rewrite ?Hn; unfold bind; rewrite Hres; bad Wm].

Lemma step_data h path : step_good (OData h path).
Proof.
  intros c σ (Wm & HR & Hlog). destruct c as [env s], σ as [senv log]; simpl in *. unfold step, cstep, with_node; simpl. lk HR h; [|bad Wm].
  obs path HR H H0 Wm. rewrite Hn, Hroot. destruct v as [a|]; [|bad Wm]. rewrite (data_at _ _ _ _ _ _ _ _ HI). bad Wm.
Qed.
Lemma step_degree h path : step_good (ODegree h path).
Proof.
  intros c σ (Wm & HR & Hlog). destruct c as [env s], σ as [senv log]; simpl in *. unfold step, cstep, with_node; simpl. lk HR h; [|bad Wm].
  obs path HR H H0 Wm. rewrite (degree_at _ _ _ _ _ _ _ _ HI), (Forall2_length _ _ _ Hks). bad Wm.
Qed.
Lemma step_count h path : step_good (OCount h path).
Proof.
  intros c σ (Wm & HR & Hlog). destruct c as [env s], σ as [senv log]; simpl in *. unfold step, cstep, with_node; simpl. lk HR h; [|bad Wm].
  obs path HR H H0 Wm. rewrite (node_count_at _ _ _ _ _ _ _ _ HI), Hn, (rts_cnts _ _ Hks). destruct v; bad Wm.
Qed.
Lemma step_nochild h path : step_good (ONoChild h path).
Proof.
  intros c σ (Wm & HR & Hlog). destruct c as [env s], σ as [senv log]; simpl in *. unfold step, cstep, with_node; simpl. lk HR h; [|bad Wm].
  obs path HR H H0 Wm. rewrite (has_no_child_at _ _ _ _ _ _ _ _ HI). inversion Hks; bad Wm.
Qed.
Lemma head_lookup {X} (l : list X) : head l = l !! 0.
Proof. by destruct l. Qed.
Lemma step_end e h path : step_good (OEnd e h path).
Proof.
  intros c σ (Wm & HR & Hlog). destruct c as [env s], σ as [senv log]; simpl in *. unfold step, cstep, with_node; simpl. lk HR h; [|bad Wm].
  obs path HR H H0 Wm. rewrite (end_at e _ _ _ _ _ _ _ _ HI).
  pose proof (Forall2_length _ _ _ Hks) as Hlen.
  assert (data_opt (aptr <$> match e with Front => head ks | Back => last ks end) s = Ok (root_of <$> match e with Front => head xs | Back => last xs end) s) as ->.
  { destruct e; [rewrite !head_lookup|rewrite !last_lookup, Hlen]; eapply data_opt_kid; eauto. }
  bad Wm.
Qed.
Lemma step_iter h path : step_good (OIter h path).
Proof.
  intros c σ (Wm & HR & Hlog). destruct c as [env s], σ as [senv log]; simpl in *. unfold step, cstep, with_node; simpl. lk HR h; [|bad Wm].
  obs path HR H H0 Wm. rewrite (children_at _ _ _ _ _ _ _ _ HI), (datas_at _ _ _ _ _ _ _ _ _ HI Hks). bad Wm.
Qed.

Lemma step_parent h path : step_good (OParent h path).
Proof.
  intros c σ (Wm & HR & Hlog). destruct c as [env s], σ as [senv log]; simpl in *. unfold step, cstep, with_node; simpl. lk HR h; [|bad Wm].
  obs path HR H H0 Wm. rewrite Hn, Hroot. destruct v as [a|]; [|bad Wm].
  rewrite (parent_at _ _ _ _ _ _ _ _ HI); cycle 1.
  { intros u ul uv L R C1 -> ->. eapply (afind_ctx _ _ _ _ _ H0 Haf (Fr u ul None L R) [] C1); done. }
  destruct (split_last path) as [[path' i]|] eqn:Hsl.
  - apply split_last_some in Hsl as ->. rewrite afind_app in Haf.
    pose proof (locate_kids _ it path' H0) as HK. rewrite node_at_app in Hn.
    destruct (kids_at it path') as [xs'|]; [|done]. destruct HK as (C' & p' & pl' & v' & ks' & Hf' & Hks' & _ & Hn' & _).
    rewrite Hf' in Haf. simpl in Haf. destruct (ks' !! i) as [k|]; [|done]. simplify_eq. simpl. rewrite Hn'.
    destruct v' as [a'|]; simpl; [|bad Wm].
    cbn [app] in HI. rewrite plug_cons in HI. cbn [plug1] in HI. unfold bind. rewrite (data_at _ _ _ _ _ _ _ _ HI). bad Wm.
  - apply split_last_none in Hsl as ->. simpl in Haf. injection Haf as HC _. destruct C; [|done]. simpl. bad Wm.
Qed.

End ref.

Lemma CInv0 {A} : @CInv A [] [] cst0 sst0.
Proof.
  exists ∅. split; [|done]. split.
  - apply MInv_empty.
  - simpl. by rewrite fmap_empty.
  - intros h. rewrite !lookup_empty. constructor.
Qed.
