(** RcStep2.v — the operations of the reference-counting client that change values and links. *)
From stdpp Require Import base gmap list sorting.
From Verif Require Import Spec ClientSpec RcSpec Machine NodeModel BfsModel ClientModel RcModel RcAllowed Sep Rep NodeProofs Inv Abs ClientProofs
  BfsIter ClientRef ClientProps ClientStep CountFrame RcRelease RcLab RcRef RcStep.

Section step.
Context {A : Type}.
Implicit Types (p q : ptr) (s : mem A) (W SH : list (atree A)) (Hs : list ptr) (ψ : gmap ptr nat) (c : rst A) (σ : rss A) (Wm : gmap nat (atree A)).
Local Notation REnv F := (@ClientRef.REnv A F []).
Local Notation trees Wm := ((map_to_list Wm).*2).

Ltac hnd HR h := let H := fresh "Hh" in pose proof (RI_handle HR h) as H;
  match type of H with match rs_h ?σ !! h with _ => _ end => let i := fresh "i" in destruct (rs_h σ !! h) as [i|] eqn:?;
    [destruct H as (p & pl & a & aks & S1 & S2 & D & L1 & L2 & C & ks & Hrh & HSH & Hsh & HS1 & HS2 & HD & Hi & Hks & Hfind & HI); rewrite Hrh, ?Hfind
    |rewrite H] end.
Ltac bad := eexists; split; [reflexivity|by eexists _, _, _, _, _].
Ltac start := intros c σ (Wm & SH & Hs & s & ψ & HR) Hok; cbn [rstep rsstep]; unfold reading, writing, on_node.
Ltac reads HR HI Hi i := rewrite (read_call _ _ _ _ _ _ _ _ _ i _ _ _ _ _ _ HR HI Hi); match goal with |- context [readable ?σ i] => destruct (readable σ i); [|done] end.
Ltac writes HR HI Hi i := rewrite (write_call _ _ _ _ _ _ _ _ _ i _ _ _ _ _ _ HR HI Hi); match goal with |- context [writable ?σ i] => destruct (writable σ i); [|done] end.
Ltac free HR h := let H := fresh "Hfree" in pose proof (free_handle _ _ _ _ _ _ _ h HR) as H;
  match type of H with match rs_h ?σ !! h with _ => _ end => destruct (rs_h σ !! h) eqn:?; [destruct H as [? ->]; bad|rewrite H] end.

Lemma aptr_plug_eq (D : ctx A) (t t' : atree A) : aptr t = aptr t' -> aptr (plug D t) = aptr (plug D t').
Proof. revert t t'. induction D as [|fr D IH]; intros t t' H; [done|]. rewrite !plug_cons. apply IH. by destruct fr. Qed.
Lemma frep_mono ψ ψ' (fr : frame A) fr' : ψ ⊆ ψ' -> frep ψ fr fr' -> frep ψ' fr fr'.
Proof. intros Hs []. constructor; [by eapply lookup_weaken|by eapply lreps_mono..]. Qed.
Lemma freps_mono ψ ψ' (D : ctx A) (C : list lframe) : ψ ⊆ ψ' -> Forall2 (frep ψ) D C -> Forall2 (frep ψ') D C.
Proof. intros Hs H. eapply Forall2_impl; [exact H|]. intros ??. by apply frep_mono. Qed.
Lemma in_addrs (X : atree A) q : q ∈ addrs X <-> exists pl, (q, pl) ∈ infos X.
Proof.
  pose proof (infoss_addrss [X] q) as H. rewrite addrss_cons, infoss_cons, !app_nil_r in H. exact H.
Qed.

Lemma RI_grow c σ Wm SH Hs s ψ S1 S2 D X L1 L2 (C : list lframe) X' t' s' ψ' ps m Wm' env' x' :
  RInv c σ Wm SH Hs s ψ -> SH = S1 ++ plug D X :: S2 -> Forall2 (lrep ψ) S1 L1 -> Forall2 (lrep ψ) S2 L2 -> Forall2 (frep ψ) D C ->
  evolves s s' -> extends ψ ψ' (rs_next σ) ps m -> (forall p, p ∈ ps -> p ∈ addrs X') -> aptr X' = aptr X -> (forall x, x ∈ infos X -> x ∈ infos X') ->
  REnv (S1 ++ plug D X' :: S2) s' env' (s_env x') Wm' -> m_log s' = s_log x' -> lrep ψ' X' t' ->
  RI (RSt env' (r_h c) (r_w c) (r_g c) (r_b c) (r_it c) (addc Hs s'))
     (RSS x' (L1 ++ lplug C t' :: L2) (rs_h σ) (rs_w σ) (rs_g σ) (rs_it σ) (rs_next σ + m)).
Proof.
  intros HR HSH HS1 HS2 HD Hev Hex Hps Ha Hinf He Hl Ht'. assert (ψ ⊆ ψ') as Hsub by apply Hex.
  assert (forall x, x ∈ infoss SH -> x ∈ infoss (S1 ++ plug D X' :: S2)) as Hinf2.
  { intros x. rewrite HSH, !infoss_app, !infoss_cons, !plug_infos, !elem_of_app. intros [?|[[?|?]|?]]; auto. }
  refine (RI_gen c σ Wm SH Hs s ψ Wm' (S1 ++ plug D X' :: S2) Hs s' ψ' ps m (r_h c) (rs_h σ) env' _ x' HR Hev Hex _ _ He Hl _ _ _).
  - intros p Hp. apply Hps in Hp. apply in_addrs in Hp as [pl Hp]. destruct (alive_heap s' (trees Wm' ++ S1 ++ plug D X' :: S2) p pl) as [n Hn]; [exact (re_inv _ _ _ _ He)| |].
    + rewrite !infoss_app, infoss_cons, plug_infos, !elem_of_app. auto.
    + eapply MInv_fresh; [exact (re_inv _ _ _ _ He)|eauto].
  - intros p [Hp|Hp].
    + apply infoss_addrss in Hp as [pl Hp]. apply infoss_addrss. exists pl. auto.
    + apply Hps in Hp. apply in_addrs in Hp as [pl Hp]. apply infoss_addrss. exists pl. rewrite !infoss_app, !infoss_cons, !plug_infos, !elem_of_app. auto.
  - apply Forall2_app; [by eapply lreps_mono|]. constructor; [|by eapply lreps_mono]. apply lrep_plug; [by eapply freps_mono|done].
  - eapply hrel_mono; [apply HR|done|done|]. rewrite HSH, !fmap_app, !fmap_cons. by rewrite (aptr_plug_eq D X' X Ha).
  - apply HR.
Qed.

(** ** values *)
Lemma lmap_loc σ L1 L2 (C : list lframe) (t : ltree A) f : NoDup (lids (rs_sh σ)) -> rs_sh σ = L1 ++ lplug C t :: L2 ->
  map (lmap_at (lid t) f) (rs_sh σ) = L1 ++ lplug C (f t) :: L2.
Proof. intros HN Hsh. rewrite Hsh in *. by apply loc_map. Qed.

Lemma RI_modify c σ Wm SH Hs s ψ S1 S2 D L1 L2 (C : list lframe) p pl a aks i ks f h :
  RInv c σ Wm SH Hs s ψ -> SH = S1 ++ plug D (AN p pl (Some a) aks) :: S2 -> rs_sh σ = L1 ++ lplug C (LN i a ks) :: L2 ->
  Forall2 (lrep ψ) S1 L1 -> Forall2 (lrep ψ) S2 L2 -> Forall2 (frep ψ) D C -> ψ !! p = Some i -> Forall2 (lrep ψ) aks ks ->
  modify_data p f s = Ok tt (set_heap s h) -> MInvX (set_heap s h) (plug D (AN p pl (Some (f a)) aks) :: trees Wm ++ S1 ++ S2) [] ->
  RI (set_mem c (addc Hs (set_heap s h))) (set_sh σ (map (lmap_at i (set_lval f)) (rs_sh σ))).
Proof.
  intros HR HSH Hsh HS1 HS2 HD Hi Hks E HI. change i with (lid (LN i a ks)) at 1. rewrite (lmap_loc _ _ _ _ _ _ (RI_nodup HR) Hsh). cbn [set_lval].
  pose proof (iv_id _ _ _ _ _ _ _ HR) as (Hinj & Hb & _).
  assert (rs_next σ = rs_next σ + 0) as Hn by lia. unfold set_sh. rewrite Hn.
  refine (RI_grow c σ Wm SH Hs s ψ S1 S2 D (AN p pl (Some a) aks) L1 L2 C (AN p pl (Some (f a)) aks) _ (set_heap s h) ψ [] 0 Wm (r_env c) (rs_x σ) HR HSH HS1 HS2 HD _ _ _ _ _ _ _ _).
  - eapply comm_evolves; [|exact E]. apply comm_hp, hp_modify.
  - by apply extends_refl.
  - intros q Hq. by apply elem_of_nil in Hq.
  - done.
  - done.
  - eapply REnv_F; [apply HR|]. eapply MInv_perm; [|exact HI]. solve_Permutation.
  - apply HR.
  - by constructor.
Qed.

Lemma step_modify_h h f : rstep_good (A:=A) (SModify h f).
Proof.
  start. hnd HR h; [|bad]. unfold rc_modify. writes HR HI Hi i. rewrite raddr_rform.
  destruct (modify_at _ _ _ _ _ _ f _ _ HI) as (hp' & E & HI').
  rewrite (call_ok _ _ _ _ _ _ _ _ _ _ _ HR (hp_modify p f) E). eexists; split; [reflexivity|]. by eapply RI_modify.
Qed.
Lemma guard_handle c σ Wm SH Hs s ψ g h m : RInv c σ Wm SH Hs s ψ -> r_g c !! g = Some (h, m) -> is_Some (r_h c !! h).
Proof. intros HR Hg. by eapply (proj1 (iv_g _ _ _ _ _ _ _ HR)). Qed.
Lemma step_read g : rstep_good (A:=A) (SRead g).
Proof.
  start. rewrite (iv_gs _ _ _ _ _ _ _ HR). destruct (rs_g σ !! g) as [[h m]|]; [|bad]. hnd HR h; [|bad]. rewrite raddr_rform.
  rewrite (call_ok _ _ _ _ _ _ _ _ _ _ _ HR (hp_data p) (data_at _ _ _ _ _ _ _ _ HI)). eexists; split; [reflexivity|]. by eapply RI_same.
Qed.
Lemma step_write g f : rstep_good (A:=A) (SWrite g f).
Proof.
  start. rewrite (iv_gs _ _ _ _ _ _ _ HR). destruct (rs_g σ !! g) as [[h [|]]|]; [|bad|bad]. hnd HR h; [|bad]. rewrite raddr_rform.
  destruct (modify_at _ _ _ _ _ _ f _ _ HI) as (hp' & E & HI').
  rewrite (call_ok _ _ _ _ _ _ _ _ _ _ _ HR (hp_modify p f) E). eexists; split; [reflexivity|]. by eapply RI_modify.
Qed.

(** ** pushing exclusively owned trees *)
Lemma var_minv c σ Wm SH Hs s ψ y k : RInv c σ Wm SH Hs s ψ -> Wm !! y = Some k -> MInvX s (k :: trees (delete y Wm) ++ SH) [].
Proof. intros HR Hy. eapply MInv_perm; [|exact (RI_minv HR)]. by rewrite (trees_delete _ _ _ Hy). Qed.
Lemma fresh_ids c σ Wm SH Hs s ψ y k q : RInv c σ Wm SH Hs s ψ -> Wm !! y = Some k -> q ∈ addrs k -> ψ !! q = None.
Proof.
  intros HR Hy Hq. destruct (ψ !! q) as [j|] eqn:Hj; [|done]. exfalso.
  pose proof (var_minv _ _ _ _ _ _ _ _ _ HR Hy) as HI.
  pose proof (MInv_nodup _ _ _ HI) as HN. rewrite addrss_cons, addrss_app in HN. apply NoDup_app in HN as (_ & HN & _). apply (HN q Hq). apply elem_of_app. right.
  destruct (iv_id _ _ _ _ _ _ _ HR) as (_ & _ & Hd). apply (Hd q j Hj). apply in_addrs in Hq as [pl Hq]. eapply alive_heap; [exact HI|]. rewrite infoss_cons. apply elem_of_app. by left.
Qed.
Lemma nodup_var c σ Wm SH Hs s ψ y k : RInv c σ Wm SH Hs s ψ -> Wm !! y = Some k -> NoDup (addrs k).
Proof.
  intros HR Hy. pose proof (var_minv _ _ _ _ _ _ _ _ _ HR Hy) as HI.
  pose proof (MInv_nodup _ _ _ HI) as HN. rewrite addrss_cons in HN. by apply NoDup_app in HN as (HN & _).
Qed.
Lemma var_ext c σ Wm SH Hs s ψ y k x : RInv c σ Wm SH Hs s ψ -> Wm !! y = Some k -> rt k x ->
  exists ψ', extends ψ ψ' (rs_next σ) (addrs k) (nodes x) /\ lrep ψ' k (label (rs_next σ) x).
Proof.
  intros HR Hy Hr. pose proof (iv_id _ _ _ _ _ _ _ HR) as (Hinj & Hb & _). apply label_ext; [done|by eapply nodup_var| |done|done].
  intros q. by eapply fresh_ids.
Qed.
(** a variable of the client *)
Lemma RI_var c σ Wm SH Hs s ψ y : RInv c σ Wm SH Hs s ψ ->
  match env_of σ !! y with
  | Some (ITree x) => exists k, Wm !! y = Some k /\ rt k x /\ r_env c !! y = Some (HT (aptr k))
  | Some (IForest xs) => exists k, Wm !! y = Some k /\ ri k (IForest xs) /\ r_env c !! y = Some (HF (aptr k))
  | None => Wm !! y = None /\ r_env c !! y = None
  end.
Proof.
  intros HR. pose proof (RE_lookup _ _ _ _ y (iv_env _ _ _ _ _ _ _ HR)) as H. destruct (env_of σ !! y) as [[x|xs]|]; [| |done].
  - destruct H as (t & Ht & Hr & He & Hh). rewrite Hh in He. eauto.
  - destruct H as (t & Ht & Hr & He & Hh). rewrite Hh in He. eauto.
Qed.

Lemma step_push_h e h y : rstep_good (A:=A) (SPush e h y).
Proof.
  start. pose proof (RI_var _ _ _ _ _ _ _ y HR) as Hv. destruct (env_of σ !! y) as [[x|xs]|] eqn:Ey.
  2: { destruct Hv as (k & _ & _ & ->). bad. }
  2: { destruct Hv as [_ ->]. bad. }
  destruct Hv as (k & Hk & Hr & ->). hnd HR h; [|bad]. unfold rc_push. writes HR HI Hi i. rewrite raddr_rform.
  pose proof Hr as Hr2. destruct Hr2 as [q ql b qs xs Hqs]. cbn [aptr] in *. set (k := AN q ql (Some b) qs) in *.
  destruct (push_at e s D p pl (Some a) aks q ql b qs (trees (delete y Wm) ++ S1 ++ S2) []) as (hp' & E & HI').
  { eapply MInv_perm; [|exact HI]. rewrite (trees_delete _ _ _ Hk). fold k. solve_Permutation. }
  fold k in HI'.
  assert (hp (match e with Front => push_front (A:=A) p q | Back => push_back p q end)) as Hhp by (destruct e; [apply hp_push_front|apply hp_push_back]).
  rewrite (call_ok _ _ _ _ _ _ _ _ _ _ _ HR Hhp E). eexists; split; [reflexivity|].
  destruct (var_ext _ _ _ _ _ _ _ _ _ _ HR Hk Hr) as (ψ' & Hex & Hlab).
  change i with (lid (LN i a ks)). rewrite (lmap_loc _ _ _ _ _ _ (RI_nodup HR) Hsh). cbn [set_lkids].
  refine (RI_grow c σ Wm SH Hs s ψ S1 S2 D (AN p pl (Some a) aks) L1 L2 C (AN p pl (Some a) (match e with Front => k :: aks | Back => aks ++ [k] end)) _ (set_heap s hp') ψ' (addrs k) (nodes (Tr b xs))
    (delete y Wm) (delete y (r_env c)) (SSt (delete y (env_of σ)) (s_log (rs_x σ))) HR HSH HS1 HS2 HD _ Hex _ _ _ _ _ _).
  - eapply comm_evolves; [|exact E]. by apply comm_hp.
  - intros q' Hq'. rewrite addrs_eq. right. destruct e; [rewrite addrss_cons|rewrite addrss_app, addrss_cons, app_nil_r]; apply elem_of_app; auto.
  - done.
  - intros z. rewrite !infos_eq. rewrite !elem_of_cons. intros [?|?]; [by left|]. right.
    destruct e; [rewrite infoss_cons|rewrite infoss_app]; apply elem_of_app; auto.
  - eapply REnv_F_del; [apply HR|]. eapply MInv_perm; [|exact HI']. solve_Permutation.
  - apply HR.
  - constructor; [eapply lookup_weaken; [done|apply Hex]|]. pose proof (lreps_mono _ _ _ _ (proj1 Hex) Hks). destruct e; [by constructor|]. by apply Forall2_app; [|constructor].
Qed.
Lemma call_run {X} c (m : M A X) x s' k : m (r_mem c) = Ok x s' -> call c m k = k x s'.
Proof. intros E. unfold call. by rewrite E. Qed.

Lemma step_concat_h e h y : rstep_good (A:=A) (SConcat e h y).
Proof.
  start. pose proof (RI_var _ _ _ _ _ _ _ y HR) as Hv. destruct (env_of σ !! y) as [[x|xs]|] eqn:Ey.
  1: { destruct Hv as (k & _ & _ & ->). bad. }
  2: { destruct Hv as [_ ->]. bad. }
  destruct Hv as (k & Hk & [Hr1 Hr2] & ->). hnd HR h; [|bad]. unfold rc_concat. writes HR HI Hi i. rewrite raddr_rform.
  destruct k as [q ql v qs]. cbn [aval akids aptr] in *. subst v.
  destruct (concat_at e s D p pl (Some a) aks q ql qs (trees (delete y Wm) ++ S1 ++ S2) []) as (s' & E & HI' & Hlog).
  { eapply MInv_perm; [|exact HI]. rewrite (trees_delete _ _ _ Hk). solve_Permutation. }
  assert (comm (match e with Front => prepend (A:=A) p q | Back => append p q end)) as Hcm by (destruct e; [apply comm_prepend|apply comm_append]).
  assert (forall z, z ∈ infos (AN p pl (Some a) aks) -> z ∈ infos (AN p pl (Some a) (match e with Front => qs ++ aks | Back => aks ++ qs end))) as Hinf.
  { intros z. rewrite !infos_eq. rewrite !elem_of_cons. intros [?|?]; [by left|]. right. destruct e; rewrite infoss_app; apply elem_of_app; auto. }
  assert (match e with Front => prepend (A:=A) p q | Back => append p q end (r_mem c) = Ok tt (addc Hs s')) as Hrun.
  { eapply (RI_lift HR); [done|exact E|exact HI'|]. intros z Hz. apply infoss_addrss in Hz as [zl Hz]. apply infoss_addrss. exists zl.
    rewrite HSH in Hz. rewrite !infoss_app, !infoss_cons, plug_infos, !elem_of_app in Hz. rewrite infoss_cons, !infoss_app, plug_infos, !elem_of_app.
    destruct Hz as [?|[[?|?]|?]]; auto. }
  rewrite (call_run _ _ _ _ _ Hrun). eexists; split; [reflexivity|].
  pose proof (iv_id _ _ _ _ _ _ _ HR) as (Hinj & Hb & _).
  destruct (label_f_ext qs xs Hr2 ψ (rs_next σ)) as (ψ' & Hex & Hlab); [| |done|done|].
  { pose proof (nodup_var _ _ _ _ _ _ _ _ _ HR Hk) as HN. rewrite addrs_eq in HN. by apply NoDup_cons in HN as [_ HN]. }
  { intros z Hz. eapply fresh_ids; [done|done|]. rewrite addrs_eq. by right. }
  change i with (lid (LN i a ks)). rewrite (lmap_loc _ _ _ _ _ _ (RI_nodup HR) Hsh). cbn [set_lkids].
  refine (RI_grow c σ Wm SH Hs s ψ S1 S2 D (AN p pl (Some a) aks) L1 L2 C (AN p pl (Some a) (match e with Front => qs ++ aks | Back => aks ++ qs end)) _ s' ψ' (addrss qs) (nodes_f xs)
    (delete y Wm) (delete y (r_env c)) (SSt (delete y (env_of σ)) (s_log (rs_x σ))) HR HSH HS1 HS2 HD _ Hex _ _ Hinf _ _ _).
  - by eapply comm_evolves.
  - intros q' Hq'. rewrite addrs_eq. right. destruct e; rewrite addrss_app; apply elem_of_app; auto.
  - done.
  - eapply REnv_F_del; [apply HR|]. eapply MInv_perm; [|exact HI']. solve_Permutation.
  - rewrite Hlog. apply HR.
  - constructor; [eapply lookup_weaken; [done|apply Hex]|]. pose proof (lreps_mono _ _ _ _ (proj1 Hex) Hks). destruct e; by apply Forall2_app.
Qed.

(** the parent of the node of a variable *)
Lemma up_root c σ Wm SH Hs s ψ L1 L2 i a ks : RInv c σ Wm SH Hs s ψ -> rs_sh σ = L1 ++ LN i a ks :: L2 -> lparent i (rs_sh σ) = None.
Proof. intros HR Hsh. pose proof (RI_nodup HR) as HN. rewrite Hsh in *. exact (loc_root L1 L2 (LN i a ks) HN). Qed.
Lemma up_some c σ Wm SH Hs s ψ L1 L2 j b L R (C : list lframe) i a ks : RInv c σ Wm SH Hs s ψ ->
  rs_sh σ = L1 ++ lplug C (LN j b (L ++ LN i a ks :: R)) :: L2 ->
  lparent i (rs_sh σ) = Some (LN j b (L ++ LN i a ks :: R)) /\ i ∉ lid <$> L /\ i ∉ lid <$> R.
Proof.
  intros HR Hsh. pose proof (RI_nodup HR) as HN. rewrite Hsh in *. split; [exact (loc_parent L1 L2 j b L R C (LN i a ks) HN)|].
  exact (kids_nodup j b L R (LN i a ks) L1 L2 C HN).
Qed.

Lemma step_insert_h e h y : rstep_good (A:=A) (SInsert e h y).
Proof.
  start. pose proof (RI_var _ _ _ _ _ _ _ y HR) as Hv. destruct (env_of σ !! y) as [[x|xs]|] eqn:Ey.
  2: { destruct Hv as (k & _ & _ & ->). bad. }
  2: { destruct Hv as [_ ->]. bad. }
  destruct Hv as (k & Hk & Hr & ->). hnd HR h; [|bad]. unfold rc_insert. writes HR HI Hi i. rewrite raddr_rform.
  assert (hp (match e with Front => insert_prev_sib (A:=A) p (aptr k) | Back => insert_next_sib p (aptr k) end)) as Hhp by (destruct e; [apply hp_insert_prev_sib|apply hp_insert_next_sib]).
  destruct HD as [|fr fr' D' C' Hf HD'].
  { rewrite (up_root _ _ _ _ _ _ _ _ _ _ _ _ HR Hsh). apply (call_err _ _ _ _ _ _ _ _ _ _ HR Hhp). by eapply insert_root. }
  destruct Hf as [u ul b AL AR j L R Hj HL HRR]. rewrite plug_cons in HI, HSH. rewrite lplug_cons in Hsh. cbn [plug1 lplug1] in *.
  destruct (up_some _ _ _ _ _ _ _ _ _ _ _ _ _ _ _ _ _ HR Hsh) as (-> & HnL & HnR). cbn [lid].
  pose proof Hr as Hr2. destruct Hr2 as [q ql b2 qs xs Hqs]. cbn [aptr] in *. set (k := AN q ql (Some b2) qs) in *.
  destruct (insert_at e s D' u ul (Some b) AL AR p pl (Some a) aks q ql b2 qs (trees (delete y Wm) ++ S1 ++ S2) []) as (hp' & E & HI').
  { eapply MInv_perm; [|exact HI]. rewrite (trees_delete _ _ _ Hk). fold k. solve_Permutation. }
  fold k in HI'.
  rewrite (call_ok _ _ _ _ _ _ _ _ _ _ _ HR Hhp E). eexists; split; [reflexivity|].
  destruct (var_ext _ _ _ _ _ _ _ _ _ _ HR Hk Hr) as (ψ' & Hex & Hlab).
  set (x := LN i a ks) in *. change j with (lid (LN j b (L ++ x :: R))) at 1. rewrite (lmap_loc _ _ _ _ _ _ (RI_nodup HR) Hsh). cbn [set_lkids].
  assert (insert_sib e i (label (rs_next σ) (Tr b2 xs)) (L ++ x :: R) = L ++ match e with Front => [label (rs_next σ) (Tr b2 xs); x] | Back => [x; label (rs_next σ) (Tr b2 xs)] end ++ R) as ->
    by exact (insert_sib_at e _ x L R HnL HnR).
  refine (RI_grow c σ Wm SH Hs s ψ S1 S2 D' (AN u ul (Some b) (AL ++ AN p pl (Some a) aks :: AR)) L1 L2 C' (AN u ul (Some b) (match e with Front => AL ++ k :: AN p pl (Some a) aks :: AR | Back => AL ++ AN p pl (Some a) aks :: k :: AR end)) _ (set_heap s hp') ψ' (addrs k) (nodes (Tr b2 xs))
    (delete y Wm) (delete y (r_env c)) (SSt (delete y (env_of σ)) (s_log (rs_x σ))) HR HSH HS1 HS2 HD' _ Hex _ _ _ _ _ _).
  - eapply comm_evolves; [|exact E]. by apply comm_hp.
  - intros q' Hq'. rewrite addrs_eq. right. destruct e; rewrite addrss_app, !addrss_cons, !elem_of_app; auto.
  - done.
  - intros z. rewrite !infos_eq. rewrite !elem_of_cons. intros [?|Hz]; [by left|]. right. rewrite infoss_app, !infoss_cons, !elem_of_app in Hz.
    destruct e; rewrite infoss_app, !infoss_cons, !elem_of_app; destruct Hz as [?|[?|?]]; auto.
  - eapply REnv_F_del; [apply HR|]. eapply MInv_perm; [|exact HI']. solve_Permutation.
  - apply HR.
  - constructor; [eapply lookup_weaken; [done|apply Hex]|]. assert (lrep ψ' (AN p pl (Some a) aks) x) as Hx.
    { eapply lrep_mono; [apply Hex|]. by constructor. }
    pose proof (lreps_mono _ _ _ _ (proj1 Hex) HL). pose proof (lreps_mono _ _ _ _ (proj1 Hex) HRR).
    destruct e; apply Forall2_app; try done; simpl; repeat (constructor; try done).
Qed.

(** ** new variables for nodes *)
Lemma step_from x h : rstep_good (A:=A) (SFrom x h).
Proof.
  start. free HR h. pose proof (RI_var _ _ _ _ _ _ _ x HR) as Hv. destruct (env_of σ !! x) as [[xt|xs]|] eqn:Ey.
  2: { destruct Hv as (k & _ & _ & ->). bad. }
  2: { destruct Hv as [_ ->]. bad. }
  destruct Hv as (k & Hk & Hr & ->). destruct (var_ext _ _ _ _ _ _ _ _ _ _ HR Hk Hr) as (ψ' & Hex & Hlab).
  pose proof (var_minv _ _ _ _ _ _ _ _ _ HR Hk) as HI. 
  assert (rc_from (aptr k) (r_mem c) = Ok (rform (aptr k) (apl k)) (addc Hs s)) as Hrun.
  { rewrite (iv_mem _ _ _ _ _ _ _ HR). destruct Hr as [q ql b qs xs Hqs]. exact (into_rc_alive s [] q ql b qs _ _ _ _ HI). }
  rewrite (call_run _ _ _ _ _ Hrun). eexists; split; [reflexivity|]. assert (ψ ⊆ ψ') as Hsub by apply Hex.
  refine (RI_gen c σ Wm SH Hs s ψ (delete x Wm) (SH ++ [k]) Hs s ψ' (addrs k) (nodes xt) _ _ (delete x (r_env c)) _ (SSt (delete x (env_of σ)) (s_log (rs_x σ))) HR _ Hex _ _ _ _ _ _ _).
  - apply evolves_refl.
  - intros q Hq. apply in_addrs in Hq as [pl Hq]. eapply MInv_fresh; [exact HI|]. eapply alive_heap; [exact HI|]. rewrite infoss_cons. apply elem_of_app. by left.
  - intros q Hq. rewrite addrss_app, addrss_cons, app_nil_r. by apply elem_of_app.
  - eapply REnv_F_del; [apply HR|]. eapply MInv_perm; [|exact HI]. solve_Permutation.
  - apply HR.
  - apply Forall2_app; [|by constructor]. eapply lreps_mono; [done|apply HR].
  - eapply hrel_new; [apply HR| |done| |done| |].
    + intros z Hz. rewrite infoss_app. apply elem_of_app. by left.
    + rewrite fmap_app. simpl. solve_Permutation.
    + destruct k as [q ql v qs]. rewrite infoss_app, infoss_cons. apply elem_of_app. right. left.
    + destruct xt as [b xs]. apply (lrep_lid _ _ _ Hlab).
  - apply grel_new; [apply HR|done].
Qed.

(** the children of a node without the first / last *)
Definition joink {X} (e : side) (k : X) (l : list X) : list X := match e with Front => k :: l | Back => l ++ [k] end.
Lemma joink_inv {X} (e : side) (l : list X) k : (match e with Front => head l | Back => last l end) = Some k -> exists l', l = joink e k l'.
Proof. destruct e; simpl; [destruct l; [done|]; intros [= ->]; eauto|]. intros H. apply last_Some in H as (l' & ->). eauto. Qed.
Lemma joink_head {X} (e : side) (l : list X) k : (match e with Front => head (joink e k l) | Back => last (joink e k l) end) = Some k.
Proof. destruct e; simpl; [done|]. by rewrite last_snoc. Qed.
Lemma joink_F2 {X Y} (R : X -> Y -> Prop) (e : side) k l m : Forall2 R (joink e k l) m -> exists k' l', m = joink e k' l' /\ R k k' /\ Forall2 R l l'.
Proof.
  destruct e; simpl; intros H.
  - inversion H; subst. eauto.
  - apply Forall2_app_inv_l in H as (l' & r & Hl & Hr & ->). inversion Hr as [|? y ? ? Hy Hn]; subst. inversion Hn; subst. eauto.
Qed.
Lemma joink_infoss (e : side) (k : atree A) l z : z ∈ infoss (joink e k l) <-> z ∈ infos k \/ z ∈ infoss l.
Proof. destruct e; cbn [joink]; [by rewrite infoss_cons, elem_of_app|]. rewrite infoss_app, (infoss_cons k []), !elem_of_app. change (infoss []) with (@nil (ptr * bool)). rewrite elem_of_nil. tauto. Qed.
Lemma joink_remove (e : side) (k : ltree A) l : NoDup (lid <$> joink e k l) -> remove_kid (lid k) (joink e k l) = l.
Proof.
  destruct e; simpl; intros HN.
  - apply NoDup_cons in HN as [HN _]. exact (remove_kid_at k [] l (not_elem_of_nil _) HN).
  - rewrite fmap_app in HN. simpl in HN. apply NoDup_app in HN as (_ & HN & _). rewrite remove_kid_at; [by rewrite app_nil_r| |apply not_elem_of_nil].
    intros Hx. apply (HN _ Hx). left.
Qed.

Lemma kids_ids c σ Wm SH Hs s ψ L1 L2 (C : list lframe) i a ks : RInv c σ Wm SH Hs s ψ -> rs_sh σ = L1 ++ lplug C (LN i a ks) :: L2 -> NoDup (lid <$> ks).
Proof.
  intros HR Hsh. pose proof (RI_nodup HR) as HN. rewrite lids_split in HN. apply NoDup_app in HN as (_ & _ & HN).
  assert (LN i a ks ∈ lall (rs_sh σ)) as Hin by (rewrite Hsh; apply loc_in). apply elem_of_list_split in Hin as (l1 & l2 & Hin). rewrite Hin, flat_map_app in HN. simpl in HN.
  apply NoDup_app in HN as (_ & _ & HN). by apply NoDup_app in HN as (HN & _).
Qed.

Lemma step_pop_h e h h' : rstep_good (A:=A) (SPop e h h').
Proof.
  start. free HR h'. hnd HR h; [|bad]. unfold rc_pop. writes HR HI Hi i. rewrite raddr_rform. cbn [lkids].
  assert (hp (match e with Front => pop_front (A:=A) p | Back => pop_back p end)) as Hhp by (destruct e; [apply hp_pop_front|apply hp_pop_back]).
  destruct (match e with Front => head aks | Back => last aks end) as [k|] eqn:Ek.
  - apply joink_inv in Ek as [aks' ->]. apply joink_F2 in Hks as (x & ks' & -> & Hx & Hks').
    destruct (pop_at_some e s D p pl (Some a) k aks' (trees Wm ++ S1 ++ S2) [] HI) as (hp' & E & HI').
    rewrite joink_head. rewrite (call_bind _ _ _ _ _ _ (mem_ok _ _ _ _ _ _ _ _ _ _ HR Hhp E)).
    assert (rc_from (aptr k) (addc Hs (set_heap s hp')) = Ok (rform (aptr k) (apl k)) (addc Hs (set_heap s hp'))) as Hfrom.
    { destruct Hx as [q ql b qs j xs Hj Hxs]. exact (into_rc_alive _ [] q ql b qs _ _ _ _ HI'). }
    rewrite (call_bind (set_mem c (addc Hs (set_heap s hp'))) _ _ _ _ _ Hfrom). unfold call, ret. cbn [r_mem set_mem rgive]. eexists; split; [reflexivity|].
    change i with (lid (LN i a (joink e x ks'))). rewrite (lmap_loc _ _ _ _ _ _ (RI_nodup HR) Hsh). cbn [set_lkids].
    rewrite joink_remove by by eapply kids_ids.
    refine (RI_gen0 c σ Wm SH Hs s ψ Wm (S1 ++ plug D (AN p pl (Some a) aks') :: S2 ++ [k]) Hs (set_heap s hp') _ _ (r_env c) _ (rs_x σ) HR _ _ _ _ _ _ _).
    + eapply comm_evolves; [|exact E]. by apply comm_hp.
    + intros z Hz. rewrite HSH in Hz. apply infoss_addrss in Hz as [zl Hz]. apply infoss_addrss. exists zl.
      rewrite infoss_app, infoss_cons, plug_infos, infos_eq, !elem_of_app, elem_of_cons, joink_infoss in Hz.
      rewrite infoss_app, infoss_cons, plug_infos, infos_eq, infoss_app, infoss_cons, !elem_of_app, elem_of_cons. tauto.
    + eapply REnv_F; [apply HR|]. eapply MInv_perm; [|exact HI']. solve_Permutation.
    + apply HR.
    + rewrite <-app_assoc. apply Forall2_app; [done|]. simpl. constructor; [apply lrep_plug; [done|]; by constructor|]. apply Forall2_app; [done|by constructor].
    + eapply hrel_new; [apply HR| |done| |done| |].
      * intros z Hz. rewrite HSH in Hz. rewrite infoss_app, infoss_cons, plug_infos, infos_eq, !elem_of_app, elem_of_cons, joink_infoss in Hz.
        rewrite infoss_app, infoss_cons, plug_infos, infos_eq, infoss_app, infoss_cons, !elem_of_app, elem_of_cons. tauto.
      * rewrite HSH, !fmap_app, !fmap_cons, fmap_app. simpl. rewrite (aptr_plug_eq D (AN p pl (Some a) (joink e k aks')) (AN p pl (Some a) aks') eq_refl). solve_Permutation.
      * rewrite infoss_app, infoss_cons, infoss_app, infoss_cons, !elem_of_app. right. right. right. left. destruct k. left.
      * apply (lrep_lid _ _ _ Hx).
    + apply grel_new; [apply HR|done].
  - assert (aks = []) as ->. { destruct e; simpl in Ek; [by destruct aks|]. by apply last_None in Ek. }
    inversion Hks; subst ks. rewrite (call_bind _ _ _ _ _ _ (mem_ok _ _ _ _ _ _ _ _ _ _ HR Hhp (pop_at_none e _ _ _ _ _ _ _ HI))).
    unfold call, ret. cbn [r_mem set_mem rgive]. assert ((match e with Front => head (@nil (ltree A)) | Back => last [] end) = None) as -> by by destruct e.
    eexists; split; [reflexivity|]. by eapply RI_same.
Qed.
End step.
