(** DebugProofs.v — [Debug]. *)
From Coq Require Import Ascii String.
From stdpp Require Import base gmap list.
From Verif Require Import Spec ClientSpec Machine NodeModel BfsModel CmpModel CmpSpec ClientModel Reach Sep Rep NodeProofs Inv Abs ClientProofs BfsBuild BfsIter ClientRef ClientStep ClientRead ClientProps CmpProofs DebugModel DebugSpec MisuseProofs.

Section dbg.
Context {A : Type} (show : A -> string) (showp : ptr -> string).
Implicit Types (p q : ptr) (x : tree A) (y : tree (A * ptr)).

Inductive ry : atree A -> tree (A * ptr) -> Prop :=
  | RY p pl a ks ys : Forall2 ry ks ys -> ry (AN p pl (Some a) ks) (Tr (a, p) ys).

Lemma rt_ry (t : atree A) : forall x, rt t x -> exists y, ry t y /\ tmap fst y = x.
Proof.
  induction t as [p pl v ks IH] using atree_ind'. intros x Hx. inversion Hx as [p' pl' a ks' xs Hks]; subst.
  assert (exists ys, Forall2 ry ks ys /\ map (tmap fst) ys = xs) as (ys & H1 & <-).
  { clear Hx. induction Hks as [|k z ks xs Hk _ IHl]; [exists []; by split; [constructor|]|]. inversion IH as [|? ? Ik Iks]; subst.
    destruct (Ik _ Hk) as (y & Hy & <-). destruct (IHl Iks) as (ys & Hys & <-). exists (y :: ys). split; [by constructor|done]. }
  exists (Tr (a, p) ys). split; [by constructor|done].
Qed.
Lemma rts_rys ks xs : Forall2 (rt (A:=A)) ks xs -> exists ys, Forall2 ry ks ys /\ tmap fst <$> ys = xs.
Proof.
  induction 1 as [|k x ks xs Hk _ (ys & H1 & <-)]; [exists []; by split; [constructor|]|]. destruct (rt_ry _ _ Hk) as (y & Hy & <-). exists (y :: ys). split; [by constructor|done].
Qed.
Lemma ry_addrs (t : atree A) : forall y, ry t y -> snd <$> preorder y = addrs t.
Proof.
  induction t as [p pl v ks IH] using atree_ind'. intros y Hy. inversion Hy as [p' pl' a ks' ys Hks]; subst. cbn [preorder]. rewrite fmap_cons, Rep.addrs_eq. cbn [snd]. f_equal.
  clear Hy. induction Hks as [|k z ks xs Hk _ IHl]; [done|]. inversion IH as [|? ? Ik Iks]; subst. cbn [flat_map addrss]. rewrite fmap_app. f_equal; [by apply Ik|by apply IHl].
Qed.
Lemma rys_addrs ks ys : Forall2 ry ks ys -> snd <$> flat_map preorder ys = addrss ks.
Proof. induction 1 as [|k y ks ys Hk _ IH]; [done|]. cbn [flat_map addrss]. rewrite fmap_app. f_equal; [by apply ry_addrs|done]. Qed.
Lemma ry_find path : forall (t : atree A) y z, ry t y -> subtree y path = Some z -> exists C t', afind t path = Some (C, t') /\ aptr t' = (root_of z).2.
Proof.
  induction path as [|i path IH]; intros t y z Hy Hz; inversion Hy as [p pl a ks ys Hks]; subst; cbn [subtree kids] in Hz.
  - injection Hz as <-. exists [], (AN p pl (Some a) ks). done.
  - destruct (ys !! i) as [y|] eqn:Hi; [|done]. destruct (Forall2_lookup_r _ _ _ _ _ Hks Hi) as (k & Hk & Hky). destruct (IH _ _ _ Hky Hz) as (C & t' & Hf & <-).
    cbn [afind]. rewrite Hk, Hf. eauto.
Qed.

Section run.
Context (s : mem A) (W : list (atree A)) (E : list (ptr * node A)) (HI : MInvX s W E).
Local Notation G := (S (size (m_heap s))).
Definition okd (fn : ptr -> M A string) (ks : list (atree A)) : Prop := forall k y, k ∈ ks -> ry k y -> fn (aptr k) s = Ok (debug show showp y) s.
Lemma iter_dbg_run sep hn g : forall ks ys a, okd hn ks -> crel W a ks -> Forall2 ry ks ys -> length ks < g ->
  iter_dbg sep hn g a s = Ok (fold_right (fun k w => debug show showp k ++ sep ++ w)%string ""%string ys) s.
Proof.
  induction g as [|g IH]; intros ks xs a He Ha Hx Hg; [lia|]. cbn [iter_dbg]. destruct Hx as [|k x ks xs Hk Hx].
  - unfold bind at 1. rewrite (crel_nil _ _ s Ha). done.
  - destruct (crel_cons _ _ _ _ _ _ Ha HI) as (a' & Hn & Ha'). unfold bind at 1. rewrite Hn. cbn [fst snd].
    unfold bind at 1. rewrite (He k x ltac:(left) Hk). unfold bind. rewrite (IH ks xs); [done| |done..|simpl in Hg; lia].
    intros k0 x0 H0. apply He. by right.
Qed.
Lemma sapp_assoc (a b c : string) : ((a ++ b) ++ c)%string = (a ++ (b ++ c))%string.
Proof. induction a as [|x a IH]; [done|]. exact (f_equal (String x) IH). Qed.
Lemma node_dbg_run f : forall t y C, cntn t <= f -> ry t y -> located W C t -> node_dbg_ show showp G f (aptr t) s = Ok (debug show showp y) s.
Proof.
  induction f as [|f IH]; intros t y C Hf Ht Hl; [rewrite cntn_akids in Hf; lia|]. cbn [node_dbg_].
  inversion Ht as [p pl v ks xs Hks]; subst. cbn [aptr debug]. unfold bind at 1. rewrite (hnc_run _ _ _ HI _ _ _ _ _ Hl).
  unfold bind at 1. rewrite (located_data _ _ _ _ _ _ _ _ Hl HI). destruct Hks as [|k x ks xs Hk Hks].
  - unfold ret. done.
  - destruct (crel_iter _ _ _ _ _ _ _ _ Hl HI) as (a & Ha & Hra).
    unfold bind at 1. rewrite Ha. unfold bind. rewrite (iter_dbg_run _ _ _ (k :: ks) (x :: xs)); [|..|done|by constructor|by eapply kid_bound].
    + unfold ret. rewrite !sapp_assoc. done.
    + intros k0 x0 Hk0 Hkx. destruct (chain_located W (k :: ks) k0) as [Ck Hlk]; [by eapply chain_kids|done|].
      eapply IH; [|done..]. rewrite cntn_eq in Hf. pose proof (elem_cnt _ _ Hk0). lia.
Qed.
End run.

Section calls.
Context (c : cst A) (env : gmap nat (item A)) (Hr : reachable c) (Hc : contents c env).
Lemma call_node_dbg p x : node_is c env p x -> exists y, with_addresses c p x y /\ returns c (node_dbg show showp p) (debug show showp y).
Proof.
  destruct (at_world c env Hr Hc) as (W & HI & Hnode & _). intros Hp. destruct (Hnode _ _ Hp) as (C & t & Hl & Ht & <-). destruct (rt_ry _ _ Ht) as (y & Hy & Hyx). exists y. split; [split_and!|].
  - done.
  - rewrite (ry_addrs _ _ Hy). destruct Hl as [W' Hl]. pose proof (MInv_nodup _ _ _ HI) as HN. unfold addrss in HN. rewrite Hl in HN. fold (addrss (plug C t :: W')) in HN. rewrite addrss_plug in HN. by apply NoDup_app in HN as [? _].
  - intros path z Hz. destruct (ry_find _ _ _ _ Hy Hz) as (C' & t' & Hf & <-). destruct (located_inv _ _ _ _ _ Hl HI) as [W' H']. rewrite (resolve_plug _ _ _ path _ _ H'), Hf. done.
  - unfold returns, node_dbg. unfold bind at 1; unfold fuel at 1, gets at 1; cbv beta iota. eapply (node_dbg_run _ _ _ HI); try done. by eapply located_bound.
Qed.
Lemma call_forest_dbg p xs : forest_is c env p xs -> exists ys, with_addresses_f c p xs ys /\ returns c (forest_dbg show showp p) (debug_f show showp ys).
Proof.
  destruct (at_world c env Hr Hc) as (W & HI & _ & Hforest). intros Hp. destruct (Hforest _ _ Hp) as (C & pl & ks & Hl & Ht). destruct (rts_rys _ _ Ht) as (ys & Hys & Hyx). exists ys. split; [split_and!|].
  - done.
  - rewrite (rys_addrs _ _ Hys). destruct Hl as [W' Hl]. pose proof (MInv_nodup _ _ _ HI) as HN. unfold addrss in HN. rewrite Hl in HN. fold (addrss (plug C (AN p pl None ks) :: W')) in HN. rewrite addrss_plug, Rep.addrs_eq in HN.
    cbn [app] in HN. apply NoDup_cons in HN as [_ HN]. by apply NoDup_app in HN as [? _].
  - intros i path y z Hi Hz. destruct (Forall2_lookup_r _ _ _ _ _ Hys Hi) as (k & Hk & Hky). destruct (ry_find _ _ _ _ Hky Hz) as (C' & t' & Hf & <-). destruct (located_inv _ _ _ _ _ Hl HI) as [W' H'].
    change p with (aptr (AN p pl None ks)). rewrite (resolve_plug _ _ _ (i :: path) _ _ H'). cbn [afind]. rewrite Hk, Hf. done.
  - unfold returns, forest_dbg. unfold bind at 1. rewrite (hnc_run _ _ _ HI _ _ _ _ _ Hl). destruct Hys as [|k x ks ys Hk Hks]; [done|].
    unfold bind at 1; unfold fuel at 1, gets at 1; cbv beta iota. destruct (crel_iter _ _ _ _ _ _ _ _ Hl HI) as (a & Ha & Hra).
    unfold bind at 1; rewrite Ha. unfold bind. rewrite (iter_dbg_run _ _ _ HI _ _ _ (k :: ks) (x :: ys)); [done|..|done|by constructor|by eapply kid_bound].
    intros k0 y0 Hk0 Hky. destruct (chain_located W (k :: ks) k0) as [Ck Hlk]; [by eapply chain_kids|done|]. eapply (node_dbg_run _ _ _ HI); try done. by eapply located_bound.
Qed.
End calls.
End dbg.
