(** RcLab.v — labelled trees (RcSpec): nodes found by identity, and how they stand for trees in memory. *)
From stdpp Require Import base gmap list sorting.
From Verif Require Import Spec ClientSpec RcSpec Machine NodeModel Sep Rep NodeProofs Inv Abs ClientProofs ClientRef ClientProps RcRelease.

Section lab.
Context {A : Type}.
Implicit Types (p q : ptr) (i j : nat) (t u k : ltree A) (ts ks L R : list (ltree A)).

Lemma ltree_ind' (P : ltree A -> Prop) (H : forall i a ks, Forall P ks -> P (LN i a ks)) : forall t, P t.
Proof. fix IH 1. intros [i a ks]. apply H. induction ks; constructor; [apply IH|done]. Qed.

(** * Lists with unique keys *)
Lemma uniq_filter {X} (f : X -> nat) (l : list X) x : NoDup (f <$> l) -> x ∈ l -> filter (fun y => f y = f x) l = [x].
Proof.
  induction l as [|y l IH]; intros HN Hx; [by apply elem_of_nil in Hx|]. rewrite fmap_cons in HN. apply NoDup_cons in HN as [HyN HN].
  rewrite filter_cons. apply elem_of_cons in Hx as [->|Hx].
  - rewrite decide_True by done. f_equal. destruct (filter _ l) as [|z l'] eqn:E; [done|]. exfalso. apply HyN.
    assert (z ∈ filter (fun y0 => f y0 = f y) l) as Hz by (rewrite E; left). apply elem_of_list_filter in Hz as [Hz ?]. rewrite <-Hz. by apply elem_of_list_fmap_1.
  - rewrite decide_False; [by apply IH|]. intros Heq. apply HyN. rewrite Heq. by apply elem_of_list_fmap_1.
Qed.
Lemma uniq_flat {X} (f : X -> list nat) (l : list X) x (i : nat) : NoDup (flat_map f l) -> x ∈ l -> i ∈ f x -> filter (fun y => i ∈ f y) l = [x].
Proof.
  induction l as [|y l IH]; intros HN Hx Hi; [by apply elem_of_nil in Hx|]. simpl in HN. apply NoDup_app in HN as (HN1 & HN2 & HN3).
  rewrite filter_cons. apply elem_of_cons in Hx as [->|Hx].
  - rewrite decide_True by done. f_equal. destruct (filter _ l) as [|z l'] eqn:E; [done|]. exfalso.
    assert (z ∈ filter (fun y0 => i ∈ f y0) l) as Hz by (rewrite E; left). apply elem_of_list_filter in Hz as [Hz Hz']. apply (HN2 i Hi).
    apply elem_of_list_In, in_flat_map. exists z. split; by apply elem_of_list_In.
  - rewrite decide_False; [by apply IH|]. intros Hiy. apply (HN2 i Hiy). apply elem_of_list_In, in_flat_map. exists x. split; by apply elem_of_list_In.
Qed.

(** * Nodes *)
Lemma lsubs_eq i a ks : lsubs (LN i a ks) = LN i a ks :: lall ks.
Proof. done. Qed.
Lemma lall_cons t ts : lall (t :: ts) = lsubs t ++ lall ts.
Proof. done. Qed.
Lemma lall_app ts ts' : lall (ts ++ ts') = lall ts ++ lall ts'.
Proof. apply flat_map_app. Qed.
Lemma lids_cons t ts : lids (t :: ts) = (lid <$> lsubs t) ++ lids ts.
Proof. unfold lids. by rewrite lall_cons, fmap_app. Qed.
Lemma lids_app ts ts' : lids (ts ++ ts') = lids ts ++ lids ts'.
Proof. unfold lids. by rewrite lall_app, fmap_app. Qed.
Lemma lids_node i a ks : lid <$> lsubs (LN i a ks) = i :: lids ks.
Proof. done. Qed.
Lemma lsubs_self t : t ∈ lsubs t.
Proof. destruct t. rewrite lsubs_eq. left. Qed.
Lemma lall_in t ts : t ∈ ts -> t ∈ lall ts.
Proof. intros H. apply elem_of_list_In, in_flat_map. exists t. split; [by apply elem_of_list_In|]. apply elem_of_list_In, lsubs_self. Qed.
Lemma lall_trans t u ts : t ∈ lall ts -> u ∈ lsubs t -> u ∈ lall ts.
Proof.
  assert (Ht : forall x : ltree A, t ∈ lsubs x -> u ∈ lsubs t -> u ∈ lsubs x).
  { intros x. induction x as [i a ks IH] using ltree_ind'. rewrite lsubs_eq. intros [->|Hx]%elem_of_cons Hu; [done|]. right.
    apply elem_of_list_In, in_flat_map in Hx as (k & Hk & Hx). apply elem_of_list_In in Hk, Hx. rewrite Forall_forall in IH.
    apply elem_of_list_In, in_flat_map. exists k. split; [by apply elem_of_list_In|]. apply elem_of_list_In. by apply IH. }
  intros Hx Hu. apply elem_of_list_In, in_flat_map in Hx as (x & Hk & Hx). apply elem_of_list_In in Hx.
  apply elem_of_list_In, in_flat_map. exists x. split; [done|]. apply elem_of_list_In. by apply Ht.
Qed.
Lemma lall_kid t k ts : t ∈ lall ts -> k ∈ lkids t -> k ∈ lall ts.
Proof. intros Ht Hk. eapply lall_trans; [done|]. destruct t. rewrite lsubs_eq. right. by apply lall_in. Qed.

(** the identities: those of the roots, and those of the children of all nodes *)
Definition kid_ids t : list nat := lid <$> lkids t.
Lemma lids_split ts : lids ts ≡ₚ (lid <$> ts) ++ flat_map kid_ids (lall ts).
Proof.
  assert (Ht : forall t, lid <$> lsubs t ≡ₚ lid t :: flat_map kid_ids (lsubs t)).
  { intros t. induction t as [i a ks IH] using ltree_ind'. rewrite lids_node, lsubs_eq. simpl. constructor.
    unfold kid_ids at 1. simpl. clear i a. induction IH as [|k ks Hk _ IH]; [done|]. rewrite lids_cons, Hk, IH, lall_cons, flat_map_app. simpl. solve_Permutation. }
  induction ts as [|t ts IH]; [done|]. rewrite lids_cons, IH, Ht, lall_cons, flat_map_app. simpl. solve_Permutation.
Qed.

Lemma lfind_in t ts : NoDup (lids ts) -> t ∈ lall ts -> lfind (lid t) ts = Some t.
Proof. intros HN Ht. unfold lfind. by rewrite (uniq_filter lid (lall ts) t HN Ht). Qed.
Lemma lparent_in t k ts : NoDup (lids ts) -> t ∈ lall ts -> k ∈ lkids t -> lparent (lid k) ts = Some t.
Proof.
  intros HN Ht Hk. unfold lparent. rewrite lids_split in HN. apply NoDup_app in HN as (_ & _ & HN).
  pose proof (uniq_flat kid_ids (lall ts) t (lid k) HN Ht (elem_of_list_fmap_1 lid _ _ Hk)) as E. unfold kid_ids in E. by rewrite E.
Qed.
Lemma lparent_root t ts : NoDup (lids ts) -> t ∈ ts -> lparent (lid t) ts = None.
Proof.
  intros HN Ht. unfold lparent. destruct (filter _ _) as [|u l] eqn:E; [done|]. exfalso.
  assert (u ∈ filter (fun u => lid t ∈ lid <$> lkids u) (lall ts)) as Hu by (rewrite E; left). apply elem_of_list_filter in Hu as [Hu Hu'].
  rewrite lids_split in HN. apply NoDup_app in HN as (_ & HN & _). apply (HN (lid t)); [by apply elem_of_list_fmap_1|].
  apply elem_of_list_In, in_flat_map. exists u. split; by apply elem_of_list_In.
Qed.

(** * Contexts *)
Inductive lframe : Type := LFr (i : nat) (a : A) (L R : list (ltree A)).
Definition lplug1 (fr : lframe) t : ltree A := let 'LFr i a L R := fr in LN i a (L ++ t :: R).
Definition lplug (C : list lframe) t : ltree A := foldl (fun t fr => lplug1 fr t) t C.
Lemma lplug_cons fr C t : lplug (fr :: C) t = lplug C (lplug1 fr t).
Proof. done. Qed.
Lemma lplug_snoc fr C t : lplug (C ++ [fr]) t = lplug1 fr (lplug C t).
Proof. unfold lplug. by rewrite foldl_app. Qed.

Lemma lplug_sub C t : t ∈ lsubs (lplug C t).
Proof.
  induction C as [|[i a L R] C IH] using rev_ind; [apply lsubs_self|]. rewrite lplug_snoc. cbn [lplug1]. rewrite lsubs_eq, lall_app, lall_cons. right. apply elem_of_app. right.
  apply elem_of_app. by left.
Qed.

Lemma lmap_at_id i f : forall t, i ∉ lid <$> lsubs t -> lmap_at i f t = t.
Proof.
  intros t. induction t as [j a ks IH] using ltree_ind'. rewrite lids_node. intros Hi. simpl. rewrite decide_False by set_solver. f_equal.
  assert (i ∉ lids ks) as Hk by set_solver. clear Hi. induction IH as [|k ks Hk' _ IHf]; [done|]. rewrite lids_cons in Hk. simpl. f_equal; [apply Hk'|apply IHf]; set_solver.
Qed.
Lemma lmap_at_ids i f ts : i ∉ lids ts -> map (lmap_at i f) ts = ts.
Proof. induction ts as [|t ts IH]; [done|]. rewrite lids_cons. intros Hi. simpl. rewrite lmap_at_id, IH by set_solver. done. Qed.
Lemma lmap_at_plug f C t : NoDup (lid <$> lsubs (lplug C t)) -> lmap_at (lid t) f (lplug C t) = lplug C (f t).
Proof.
  induction C as [|[i a L R] C IH] using rev_ind.
  - intros _. destruct t. simpl. by rewrite decide_True.
  - rewrite !lplug_snoc. cbn [lplug1]. rewrite lids_node. intros HN. apply NoDup_cons in HN as [Hi HN].
    rewrite lids_app, lids_cons in HN, Hi. apply NoDup_app in HN as (N1 & N2 & N3). apply NoDup_app in N3 as (N3 & N4 & N5).
    assert (lid t ∈ lid <$> lsubs (lplug C t)) as Ht by (apply elem_of_list_fmap_1, lplug_sub).
    cbn [lmap_at]. rewrite decide_False by set_solver. f_equal. rewrite map_app. simpl. rewrite IH by done.
    rewrite (lmap_at_ids _ _ L), (lmap_at_ids _ _ R); [done|by apply N4|]. intros Hx. apply (N2 _ Hx). apply elem_of_app. by left.
Qed.

Section located.
Context (L1 L2 : list (ltree A)) (C : list lframe) (t : ltree A).
Let ts := L1 ++ lplug C t :: L2.
Context (HN : NoDup (lids ts)).
Lemma loc_in : t ∈ lall ts.
Proof. unfold ts. rewrite lall_app, lall_cons, !elem_of_app. right. left. apply lplug_sub. Qed.
Lemma loc_find : lfind (lid t) ts = Some t.
Proof. apply lfind_in; [done|apply loc_in]. Qed.
Lemma loc_map f : map (lmap_at (lid t) f) ts = L1 ++ lplug C (f t) :: L2.
Proof.
  unfold ts in *. rewrite map_app. simpl. rewrite lids_app, lids_cons in HN. apply NoDup_app in HN as (N1 & N2 & N3). apply NoDup_app in N3 as (N3 & N4 & N5).
  assert (lid t ∈ lid <$> lsubs (lplug C t)) as Ht by (apply elem_of_list_fmap_1, lplug_sub).
  rewrite lmap_at_plug by done. rewrite (lmap_at_ids _ _ L1), (lmap_at_ids _ _ L2); [done|by apply N4|]. intros Hx. apply (N2 _ Hx). apply elem_of_app. by left.
Qed.
End located.

Lemma loc_root L1 L2 t : NoDup (lids (L1 ++ t :: L2)) -> lparent (lid t) (L1 ++ t :: L2) = None.
Proof. intros HN. apply lparent_root; [done|]. set_solver. Qed.
Lemma loc_parent L1 L2 i a L R C t : let ts := L1 ++ lplug (LFr i a L R :: C) t :: L2 in NoDup (lids ts) ->
  lparent (lid t) ts = Some (LN i a (L ++ t :: R)).
Proof.
  intros ts HN. apply (lparent_in (LN i a (L ++ t :: R)) t ts HN); [|simpl; set_solver].
  unfold ts. rewrite lplug_cons. simpl. apply loc_in.
Qed.
Lemma loc_isroot L1 L2 fr C t : let ts := L1 ++ lplug (fr :: C) t :: L2 in NoDup (lids ts) -> lid t ∉ lid <$> ts.
Proof.
  intros ts HN Hr. apply elem_of_list_fmap in Hr as (r & Hr & Hin). destruct fr as [i a L R]. pose proof (loc_parent L1 L2 i a L R C t HN) as Hp.
  pose proof (lparent_root r ts HN Hin) as Hp'. rewrite <-Hr in Hp'. fold ts in Hp. congruence.
Qed.

(** the children of a node, at one of them *)
Lemma kids_nodup i a L R t L1 L2 C : NoDup (lids (L1 ++ lplug (LFr i a L R :: C) t :: L2)) -> lid t ∉ lid <$> L /\ lid t ∉ lid <$> R.
Proof.
  intros HN. rewrite lids_split in HN. apply NoDup_app in HN as (_ & _ & HN).
  assert (LN i a (L ++ t :: R) ∈ lall (L1 ++ lplug (LFr i a L R :: C) t :: L2)) as Hin by (rewrite lplug_cons; simpl; apply loc_in).
  apply elem_of_list_split in Hin as (l1 & l2 & Hin). rewrite Hin in HN. rewrite flat_map_app in HN. simpl in HN.
  apply NoDup_app in HN as (_ & _ & HN). apply NoDup_app in HN as (HN & _). unfold kid_ids in HN. simpl in HN. rewrite fmap_app in HN. simpl in HN.
  apply NoDup_app in HN as (_ & N2 & N3). apply NoDup_cons in N3 as [N3 _]. split; [|done]. intros Hx. apply (N2 _ Hx). left.
Qed.
Lemma follower_at t L R : lid t ∉ lid <$> L -> follower (lid t) (L ++ t :: R) = lid <$> head R.
Proof.
  induction L as [|k L IH]; intros Hn; simpl; [by rewrite decide_True|]. rewrite decide_False by set_solver. apply IH. set_solver.
Qed.
Lemma remove_kid_notin i L : i ∉ lid <$> L -> remove_kid i L = L.
Proof.
  induction L as [|k L IH]; intros Hn; [done|]. unfold remove_kid. rewrite filter_cons. rewrite decide_True by set_solver. f_equal. apply IH. set_solver.
Qed.
Lemma remove_kid_app i L R : remove_kid i (L ++ R) = remove_kid i L ++ remove_kid i R.
Proof. apply filter_app. Qed.
Lemma remove_kid_at t L R : lid t ∉ lid <$> L -> lid t ∉ lid <$> R -> remove_kid (lid t) (L ++ t :: R) = L ++ R.
Proof.
  intros HL HR. rewrite remove_kid_app, remove_kid_notin by done. f_equal. unfold remove_kid. rewrite filter_cons, decide_False by (intros H; by apply H).
  by apply remove_kid_notin.
Qed.
Lemma insert_sib_notin e i x L : i ∉ lid <$> L -> insert_sib e i x L = L.
Proof. induction L as [|k L IH]; intros Hn; [done|]. simpl. rewrite decide_False by set_solver. simpl. f_equal. apply IH. set_solver. Qed.
Lemma insert_sib_at e x t L R : lid t ∉ lid <$> L -> lid t ∉ lid <$> R ->
  insert_sib e (lid t) x (L ++ t :: R) = L ++ (match e with Front => [x; t] | Back => [t; x] end) ++ R.
Proof.
  intros HL HR. unfold insert_sib. rewrite flat_map_app. fold (insert_sib e (lid t) x L). rewrite insert_sib_notin by done. f_equal.
  simpl. rewrite decide_True by done. f_equal. by apply insert_sib_notin.
Qed.

(** * Labelled trees stand for trees in memory; [ψ]: identities of addresses *)
Implicit Types (av : atree A) (aks W : list (atree A)) (ψ : gmap ptr nat) (D : ctx A).
Inductive lrep ψ : atree A -> ltree A -> Prop :=
  LRep p pl a aks i ks : ψ !! p = Some i -> Forall2 (lrep ψ) aks ks -> lrep ψ (AN p pl (Some a) aks) (LN i a ks).

Lemma lrep_ind' ψ (P : atree A -> ltree A -> Prop)
  (H : forall p pl a aks i ks, ψ !! p = Some i -> Forall2 (lrep ψ) aks ks -> Forall2 P aks ks -> P (AN p pl (Some a) aks) (LN i a ks)) :
  forall av t, lrep ψ av t -> P av t.
Proof.
  fix IH 3. intros av t Hr. destruct Hr as [p pl a aks i ks Hi Hf]. apply H; [done|exact Hf|].
  induction Hf as [|k y ks' xs Hk _ IHf]; constructor; [by apply IH|exact IHf].
Qed.
Lemma lrep_mono ψ ψ' av t : ψ ⊆ ψ' -> lrep ψ av t -> lrep ψ' av t.
Proof.
  intros Hs H. induction H as [p pl a aks i ks Hi Hf IH] using lrep_ind'. constructor; [|done]. by eapply lookup_weaken.
Qed.
Lemma lreps_mono ψ ψ' aks ks : ψ ⊆ ψ' -> Forall2 (lrep ψ) aks ks -> Forall2 (lrep ψ') aks ks.
Proof. intros Hs H. eapply Forall2_impl; [exact H|]. intros ??. by apply lrep_mono. Qed.
Lemma lrep_full ψ av t : lrep ψ av t -> full av.
Proof. intros H. induction H as [p pl a aks i ks Hi Hf IH] using lrep_ind'. constructor. clear Hf. induction IH; by constructor. Qed.
Lemma lrep_lid ψ av t : lrep ψ av t -> ψ !! aptr av = Some (lid t).
Proof. by intros []. Qed.
Lemma lrep_lval ψ av t : lrep ψ av t -> aval av = Some (lval t).
Proof. by intros []. Qed.
Lemma lrep_lkids ψ av t : lrep ψ av t -> Forall2 (lrep ψ) (akids av) (lkids t).
Proof. by intros []. Qed.
Lemma lrep_erase ψ av t : lrep ψ av t -> rt av (erase t).
Proof. intros H. induction H as [p pl a aks i ks Hi Hf IH] using lrep_ind'. constructor. clear Hf. induction IH; by constructor. Qed.
Lemma lrep_ids ψ av t : lrep ψ av t -> Forall2 (fun p i => ψ !! p = Some i) (addrs av) (lid <$> lsubs t).
Proof.
  intros H. induction H as [p pl a aks i ks Hi Hf IH] using lrep_ind'. rewrite lids_node, addrs_eq. constructor; [done|]. clear Hf.
  induction IH as [|k x aks ks Hk _ IH]; [constructor|]. rewrite lids_cons, addrss_cons. by apply Forall2_app.
Qed.
Lemma lreps_ids ψ aks ks : Forall2 (lrep ψ) aks ks -> Forall2 (fun p i => ψ !! p = Some i) (addrss aks) (lids ks).
Proof. induction 1 as [|k x aks ks Hk _ IH]; [constructor|]. rewrite lids_cons, addrss_cons. apply Forall2_app; [by apply lrep_ids|done]. Qed.
Lemma lrep_count ψ av t : lrep ψ av t -> cntn av = length (lsubs t).
Proof. intros H. apply lrep_ids, Forall2_length in H. by rewrite fmap_length, addrs_length in H. Qed.
Definition inj ψ : Prop := forall p q i, ψ !! p = Some i -> ψ !! q = Some i -> p = q.
Lemma ids_nodup ψ (ps : list ptr) (l : list nat) : inj ψ -> Forall2 (fun p i => ψ !! p = Some i) ps l -> NoDup ps -> NoDup l.
Proof.
  intros Hi H. induction H as [|p i ps l Hp Hf IH]; [constructor|]. rewrite !NoDup_cons. intros [Hn HN]. split; [|by apply IH].
  intros Hx. apply Hn. apply elem_of_list_lookup in Hx as [k Hk]. destruct (Forall2_lookup_r _ _ _ _ _ Hf Hk) as (q & Hq & Hq').
  rewrite (Hi p q i Hp Hq'). by eapply elem_of_list_lookup_2.
Qed.
Lemma ids_iff ψ (ps : list ptr) (l : list nat) p i : inj ψ -> Forall2 (fun p i => ψ !! p = Some i) ps l -> ψ !! p = Some i -> p ∈ ps <-> i ∈ l.
Proof.
  intros Hi H Hp. rewrite !elem_of_list_lookup. split; intros [k Hk].
  - destruct (Forall2_lookup_l _ _ _ _ _ H Hk) as (j & Hj & Hj'). exists k. congruence.
  - destruct (Forall2_lookup_r _ _ _ _ _ H Hk) as (q & Hq & Hq'). exists k. by rewrite (Hi p q i Hp Hq').
Qed.

(** contexts *)
Inductive frep ψ : frame A -> lframe -> Prop :=
  FRep p pl a AL AR i L R : ψ !! p = Some i -> Forall2 (lrep ψ) AL L -> Forall2 (lrep ψ) AR R -> frep ψ (Fr p pl (Some a) AL AR) (LFr i a L R).
Lemma lrep_plug ψ D C av t : Forall2 (frep ψ) D C -> lrep ψ av t -> lrep ψ (plug D av) (lplug C t).
Proof.
  intros H. revert av t. induction H as [|fr fr' D C Hfr _ IH]; intros av t Ht; [done|]. rewrite plug_cons, lplug_cons. apply IH.
  destruct Hfr. simpl. constructor; [done|]. apply Forall2_app; [done|]. by constructor.
Qed.
Lemma lrep_unplug ψ D av x : lrep ψ (plug D av) x -> exists C t, x = lplug C t /\ Forall2 (frep ψ) D C /\ lrep ψ av t.
Proof.
  revert av. induction D as [|[p pl v AL AR] D IH]; intros av Hx; [by exists [], x|].
  rewrite plug_cons in Hx. apply IH in Hx as (C & t & -> & HD & Ht). simpl in Ht. inversion Ht as [? ? a ? i ks Hi Hks]; subst.
  apply Forall2_app_inv_l in Hks as (L & R' & HL & HR & ->). inversion HR as [|? k ? R Hk HR']; subst.
  exists (LFr i a L R :: C), k. split_and!; [done| |done]. constructor; [by constructor|done].
Qed.

(** a node with an identity: where it is, in memory and in the labelled trees *)
Lemma locate ψ SH ts p : Forall2 (lrep ψ) SH ts -> p ∈ addrss SH ->
  exists S1 S2 D av L1 L2 C t, SH = S1 ++ plug D av :: S2 /\ ts = L1 ++ lplug C t :: L2 /\ aptr av = p /\
    Forall2 (lrep ψ) S1 L1 /\ Forall2 (lrep ψ) S2 L2 /\ Forall2 (frep ψ) D C /\ lrep ψ av t.
Proof.
  intros HF Hp. apply elem_of_list_In, in_flat_map in Hp as (r & Hr & Hp). apply elem_of_list_In in Hr, Hp.
  apply addrs_afind in Hp as (path & D & av & Hf & Ha). apply afind_plug in Hf. subst r.
  apply elem_of_list_split in Hr as (S1 & S2 & ->). apply Forall2_app_inv_l in HF as (L1 & L2' & H1 & H2 & ->).
  inversion H2 as [|? x ? L2 Hx HL2]; subst. apply lrep_unplug in Hx as (C & t & -> & HD & Ht).
  exists S1, S2, D, av, L1, L2, C, t. done.
Qed.

(** new identities *)
Definition below ψ (n : nat) : Prop := forall p i, ψ !! p = Some i -> i < n.
Definition extends ψ ψ' n (ps : list ptr) m : Prop :=
  ψ ⊆ ψ' /\ inj ψ' /\ below ψ' (n + m) /\ (forall p i, ψ' !! p = Some i -> ψ !! p = Some i \/ p ∈ ps).
Lemma label_eq n a (xs : list (tree A)) : label n (Tr a xs) = LN n a (label_f (S n) xs).
Proof. done. Qed.
Definition ext_ok av (x : tree A) : Prop := forall ψ n, NoDup (addrs av) -> (forall p, p ∈ addrs av -> ψ !! p = None) -> inj ψ -> below ψ n ->
  exists ψ', extends ψ ψ' n (addrs av) (nodes x) /\ lrep ψ' av (label n x).
Lemma exts aks (xs : list (tree A)) : Forall2 ext_ok aks xs -> forall ψ n, NoDup (addrss aks) -> (forall p, p ∈ addrss aks -> ψ !! p = None) -> inj ψ -> below ψ n ->
  exists ψ', extends ψ ψ' n (addrss aks) (nodes_f xs) /\ Forall2 (lrep ψ') aks (label_f n xs).
Proof.
  induction 1 as [|k x aks xs Hk _ IH]; intros ψ n HN Hfresh Hinj Hb.
  - exists ψ. split; [|constructor]. split_and!; [done|done| |tauto]. intros q i Hq. apply Hb in Hq. lia.
  - rewrite addrss_cons in *. apply NoDup_app in HN as (N1 & N2 & N3).
    destruct (Hk ψ n) as (ψ1 & (E1 & E2 & E3 & E4) & Hr1); [done| |done|done|]. { intros q Hq. apply Hfresh. apply elem_of_app. by left. }
    destruct (IH ψ1 (n + nodes x)) as (ψ2 & (G1 & G2 & G3 & G4) & Hr2); [done| |done|done|].
    { intros q Hq. destruct (ψ1 !! q) as [i|] eqn:Hi; [|done]. apply E4 in Hi as [Hi|Hi]; [|by destruct (N2 q)].
      rewrite Hfresh in Hi; [done|]. apply elem_of_app. by right. }
    exists ψ2. split.
    + split_and!; [by etrans|done| |].
      * intros q i Hq. apply G3 in Hq. simpl. unfold nodes_f. simpl. unfold nodes_f in Hq. lia.
      * intros q i Hq. rewrite elem_of_app. apply G4 in Hq as [Hq|Hq]; [|tauto]. apply E4 in Hq as [Hq|Hq]; [by left|tauto].
    + simpl. constructor; [by eapply lrep_mono|done].
Qed.
Lemma label_ext av (x : tree A) : rt av x -> ext_ok av x.
Proof.
  revert av x. refine (rt_ind' _ _). intros p pl a aks xs Hf IH ψ n HN Hfresh Hinj Hb. rewrite addrs_eq in *. apply NoDup_cons in HN as [Hp HN].
  assert (ψ !! p = None) as Hpn by (apply Hfresh; left).
  destruct (exts aks xs IH (<[p := n]> ψ) (S n)) as (ψ' & (G1 & G2 & G3 & G4) & Hr); [done| | | |].
  - intros q Hq. rewrite lookup_insert_ne by (intros ->; done). apply Hfresh. by right.
  - intros q1 q2 i. destruct (decide (p = q1)) as [<-|], (decide (p = q2)) as [<-|]; rewrite ?lookup_insert, ?lookup_insert_ne by done; try done.
    + intros [= <-] Hq. apply Hb in Hq. lia.
    + intros Hq [= <-]. apply Hb in Hq. lia.
    + apply Hinj.
  - intros q i. destruct (decide (p = q)) as [<-|]; rewrite ?lookup_insert, ?lookup_insert_ne by done; [intros [= <-]; lia|]. intros Hq. apply Hb in Hq. lia.
  - exists ψ'. split.
    + split_and!; [|done| |].
      * etrans; [|exact G1]. by apply insert_subseteq.
      * intros q i Hq. apply G3 in Hq. simpl. unfold nodes_f in Hq. lia.
      * intros q i Hq. rewrite elem_of_cons. apply G4 in Hq as [Hq|Hq]; [|tauto]. destruct (decide (p = q)) as [<-|]; [tauto|]. rewrite lookup_insert_ne in Hq by done. by left.
    + rewrite label_eq. constructor; [|done]. eapply lookup_weaken; [|exact G1]. apply lookup_insert.
Qed.
Lemma label_f_ext aks (xs : list (tree A)) : Forall2 rt aks xs -> forall ψ n, NoDup (addrss aks) -> (forall p, p ∈ addrss aks -> ψ !! p = None) -> inj ψ -> below ψ n ->
  exists ψ', extends ψ ψ' n (addrss aks) (nodes_f xs) /\ Forall2 (lrep ψ') aks (label_f n xs).
Proof. intros H. apply exts. eapply Forall2_impl; [exact H|]. apply label_ext. Qed.

(** released roots *)
Lemma surv_eq (P : nat -> bool) i a ks : surv P (LN i a ks) = flat_map (fun k => if P (lid k) then [k] else surv P k) ks.
Proof. done. Qed.
Lemma lost_eq (P : nat -> bool) i a ks : lost P (LN i a ks) = flat_map (fun k => if P (lid k) then [] else lost P k) ks ++ [a].
Proof. done. Qed.
Lemma surv_rep ψ (P : ptr -> bool) (P' : nat -> bool) av t : (forall p i, ψ !! p = Some i -> P p = P' i) -> lrep ψ av t ->
  Forall2 (lrep ψ) (asurv P av) (surv P' t) /\ alost P av = lost P' t.
Proof.
  intros HP H. induction H as [p pl a aks i ks Hi Hf IH] using lrep_ind'. rewrite asurv_eq, alost_eq, surv_eq, lost_eq.
  assert (Forall2 (lrep ψ) (asurvs P aks) (flat_map (fun k => if P' (lid k) then [k] else surv P' k) ks) /\
          alosts P aks = flat_map (fun k => if P' (lid k) then [] else lost P' k) ks) as [H1 H2]; [|by rewrite H2].
  clear Hi i a p. induction IH as [|k x aks ks [Hk1 Hk2] _ IHf]; [split; [constructor|done]|].
  inversion Hf; subst. destruct IHf as [I1 I2]; [done|]. rewrite asurvs_cons, alosts_cons. simpl. rewrite I2.
  rewrite (HP (aptr k) (lid x)) by by apply lrep_lid. destruct (P' (lid x)); [|by split; [apply Forall2_app|rewrite Hk2]].
  split; [|done]. by apply Forall2_app; [constructor|].
Qed.
End lab.
