(** RcExtProofs.v — extending a shared node is pushing the trees one by one. *)
From stdpp Require Import base gmap list.
From Verif Require Import Spec ClientSpec RcSpec Machine NodeModel ClientModel RcModel RcAllowed RcClient Rep Inv RcLab RcRef RcStep2 RcStep4 RcBorrow RcProps RcProps2 RcExtModel RcCmpProps.

Section ext.
Context {A : Type}.
Implicit Types (c : rst A) (σ : rss A).

Lemma lmap_at_comp i (f g : ltree A -> ltree A) t : (forall u, lid u = i -> lid (f u) = i) -> lmap_at i g (lmap_at i f t) = lmap_at i (fun u => g (f u)) t.
Proof.
  intros Hf. induction t as [j a ks IH] using ltree_ind'. cbn [lmap_at]. destruct (decide (j = i)) as [->|Hj].
  - destruct (f (LN i a ks)) as [j b us] eqn:E. assert (j = i) as -> by (rewrite <- (Hf (LN i a ks) eq_refl), E; done). cbn [lmap_at]. by rewrite decide_True.
  - cbn [lmap_at]. rewrite decide_False by done. f_equal. rewrite map_map. apply map_ext_Forall. done.
Qed.
Lemma erase_label (t : tree A) : forall n, erase (label n t) = t.
Proof.
  induction t as [a ts IH] using tree_ind'. intros n. cbn [label erase]. f_equal. generalize (S n). induction IH as [|t ts Ht _ IHl]; intros m; [done|]. cbn. by rewrite Ht, IHl.
Qed.

Definition pushed i (news : list (ltree A)) (ts : list (ltree A)) := map (lmap_at i (set_lkids (fun ks => ks ++ news))) ts.
Lemma pushed_nil i ts : pushed i [] ts = ts.
Proof.
  unfold pushed. rewrite <- (map_id ts) at 2. apply map_ext. intros t. induction t as [j a ks IH] using ltree_ind'. cbn [lmap_at set_lkids]. rewrite app_nil_r. destruct (decide _); [done|].
  f_equal. rewrite <- (map_id ks) at 2. by apply map_ext_Forall.
Qed.
Lemma pushed_app i n1 n2 ts : pushed i n2 (pushed i n1 ts) = pushed i (n1 ++ n2) ts.
Proof.
  unfold pushed. rewrite map_map. apply map_ext. intros t. rewrite lmap_at_comp by (by intros []).
  induction t as [j a ks IH] using ltree_ind'. cbn [lmap_at set_lkids]. destruct (decide _); [by rewrite app_assoc|]. f_equal. by apply map_ext_Forall.
Qed.

Definition dels {B} (e : gmap nat B) (ys : list nat) : gmap nat B := foldl (fun e y => delete y e) e ys.
Lemma dels_lookup {B} (e : gmap nat B) ys x : dels e ys !! x = if decide (x ∈ ys) then None else e !! x.
Proof.
  unfold dels. revert e. induction ys as [|y ys IH]; intros e; cbn [foldl]; [by rewrite decide_False by apply not_elem_of_nil|]. rewrite IH.
  destruct (decide (x ∈ ys)); [rewrite decide_True by (by right); done|]. destruct (decide (x = y)) as [->|].
  - rewrite decide_True by left. apply lookup_delete.
  - rewrite decide_False by set_solver. by apply lookup_delete_ne.
Qed.

Lemma extend_ok ts : forall ys c σ h r i, reached c σ -> r_h c !! h = Some r -> rs_h σ !! h = Some i -> writable σ i = true -> NoDup ys ->
  Forall2 (fun y t => env_of σ !! y = Some (ITree t)) ys ts ->
  exists ps s' σ' news n, mapM (fun y => match r_env c !! y with Some (HT p) => Some p | _ => None end) ys = Some ps /\
    rc_extend (r_b c) r ps (r_mem c) = Ok tt s' /\ reached (set_renv (set_mem c s') (dels (r_env c) ys)) σ' /\
    σ' = set_nx (set_sh (set_env σ (dels (env_of σ) ys)) (pushed i news (rs_sh σ))) n /\ map erase news = ts.
Proof.
  induction ts as [|t ts IH]; intros ys c σ h r i HR Hh Hi Hw HN HF.
  - apply Forall2_nil_inv_r in HF as ->. exists [], (r_mem c), σ, [], (rs_next σ). split_and!; [done|done|by destruct c| |done]. rewrite pushed_nil. destruct σ as [[] ? ? ? ? ?]; done.
  - apply Forall2_cons_inv_r in HF as (y & ys' & Hy & HF & ->). apply NoDup_cons in HN as [Hny HN].
    pose proof (reached_RI _ _ HR) as (Wm & SH & Hs & s & ψ & HI). pose proof (RI_var _ _ _ _ _ _ _ y HI) as Hv. rewrite Hy in Hv. destruct Hv as (k & _ & _ & Hyc).
    pose proof (reached_step c σ (SPush Back h y) HR I) as Hs1. cbn [rsstep rstep] in Hs1. rewrite Hy, Hyc in Hs1. unfold writing, on_node in Hs1. rewrite Hi in Hs1.
    destruct (lfind i (rs_sh σ)) as [u|] eqn:Hu.
    2:{ exfalso. pose proof (RI_alive_h _ _ _ _ (reached_RI _ _ HR) Hi) as Ha. unfold lids in Ha. apply elem_of_list_fmap in Ha as (v & -> & Hv).
        rewrite (lfind_in _ _ (RI_ids _ _ (reached_RI _ _ HR)) Hv) in Hu. done. }
    rewrite Hw in Hs1. destruct Hs1 as (c' & E & HR'). rewrite Hh in E. unfold call in E.
    destruct (rc_push Back (r_b c) r (aptr k) (r_mem c)) as [[] s1|] eqn:E1; [|done]. injection E as <-.
    edestruct (IH ys' _ _ h r i HR') as (ps & s' & σ' & news & n & Em & Ee & HR2 & Eσ & En); [done|done|done|done| |].
    { clear -HF Hny. induction HF as [|z u zs us Hz _ IHl]; constructor; [|apply IHl; set_solver]. unfold env_of, set_nx, set_sh, set_env, set_x. cbn. rewrite lookup_delete_ne by set_solver. exact Hz. }
    cbn [r_env r_b r_mem set_renv set_mem] in *. exists (aptr k :: ps), s', σ', (label (rs_next σ) t :: news), n. split_and!.
    + cbn. rewrite Hyc. cbn. erewrite (Forall_mapM_ext _ _ ys'); [rewrite Em; done|]. apply Forall_forall. intros z Hz. rewrite lookup_delete_ne by set_solver. done.
    + cbn [rc_extend]. unfold bind. by rewrite E1, Ee.
    + exact HR2.
    + rewrite Eσ. unfold set_nx, set_sh, set_env, set_x, env_of, dels. cbn. f_equal. change (label (rs_next σ) t :: news) with ([label (rs_next σ) t] ++ news). by rewrite <- pushed_app.
    + cbn. by rewrite erase_label, En.
Qed.

Lemma extend_done c σ h r i u ys ts : reached c σ -> r_h c !! h = Some r -> rs_h σ !! h = Some i -> lfind i (rs_sh σ) = Some u -> writable σ i = true -> NoDup ys ->
  Forall2 (fun y t => env_of σ !! y = Some (ITree t)) ys ts ->
  exists c' σ' news, rextend c h ys = RDone RUnit c' /\ reached c' σ' /\ map erase news = ts /\
    lfind i (rs_sh σ') = Some (set_lkids (fun ks => ks ++ news) u) /\ rs_sh σ' = map (lmap_at i (set_lkids (fun ks => ks ++ news))) (rs_sh σ) /\
    (forall x, env_of σ' !! x = if decide (x ∈ ys) then None else env_of σ !! x) /\
    rs_h σ' = rs_h σ /\ rs_w σ' = rs_w σ /\ rs_g σ' = rs_g σ /\ rs_it σ' = rs_it σ /\ s_log (rs_x σ') = s_log (rs_x σ).
Proof.
  intros HR Hh Hi Hu Hw HN HF. destruct (extend_ok ts ys c σ h r i HR Hh Hi Hw HN HF) as (ps & s' & σ' & news & n & Em & Ee & HR' & Eσ & En).
  exists (set_renv (set_mem c s') (dels (r_env c) ys)), σ', news. split_and!; try (by subst σ').
  - unfold rextend, call. by rewrite Hh, Em, Ee.
  - pose proof (reached_RI _ _ HR) as (Wm & SH & Hs & s & ψ & HI). pose proof (RI_handle HI h) as Hx. rewrite Hi in Hx.
    destruct Hx as (p & pl & a & aks & S1 & S2 & D & L1 & L2 & C & ks & _ & _ & Hsh & _ & _ & _ & _ & _ & Hf & _). rewrite Hu in Hf. injection Hf as ->.
    pose proof (RI_ids _ _ (reached_RI _ _ HR')) as HN'. assert (rs_sh σ' = L1 ++ lplug C (LN i a (ks ++ news)) :: L2) as E.
    { pose proof (RI_ids _ _ (reached_RI _ _ HR)) as HN0. rewrite Hsh in HN0. subst σ'. cbn. unfold pushed. rewrite Hsh. exact (loc_map L1 L2 C (LN i a ks) HN0 (set_lkids (fun ks => ks ++ news))). }
    rewrite E in HN' |- *. exact (loc_find L1 L2 C (LN i a (ks ++ news)) HN').
  - intros x. subst σ'. unfold env_of, set_nx, set_sh, set_env, set_x. cbn. apply dels_lookup.
Qed.

Lemma extend_panics c σ h r i ys ts : reached c σ -> r_h c !! h = Some r -> rs_h σ !! h = Some i -> writable σ i = false -> ys <> [] ->
  Forall2 (fun y t => env_of σ !! y = Some (ITree t)) ys ts -> rextend c h ys = RFails EPanic.
Proof.
  intros HR Hh Hi Hw Hy HF. pose proof (reached_RI _ _ HR) as (Wm & SH & Hs & s & ψ & HI).
  assert (exists ps, mapM (fun y => match r_env c !! y with Some (HT p) => Some p | _ => None end) ys = Some ps /\ ps <> []) as (ps & Em & Hps).
  { destruct ys as [|y0 ys0]; [done|]. clear Hy. remember (y0 :: ys0) as ys eqn:E. assert (exists ps, mapM (fun y => match r_env c !! y with Some (HT p) => Some p | _ => None end) ys = Some ps) as [ps Em].
    { clear E. induction HF as [|y t ys ts Hy _ [ps IH]]; [by exists []|]. pose proof (RI_var _ _ _ _ _ _ _ y HI) as Hv. rewrite Hy in Hv. destruct Hv as (k & _ & _ & Hyc). exists (aptr k :: ps). cbn. rewrite Hyc. cbn. by rewrite IH. }
    exists ps. split; [done|]. intros ->. apply mapM_length in Em. by subst. }
  unfold rextend. rewrite Hh, Em. destruct ps as [|p ps]; [done|]. destruct ys as [|y ys]; [done|]. apply Forall2_cons_inv_l in HF as (t & ts' & Hty & _ & ->).
  pose proof (reached_step c σ (SPush Back h y) HR I) as Hs1. cbn [rsstep rstep] in Hs1. rewrite Hty in Hs1. unfold writing, on_node in Hs1. rewrite Hi in Hs1.
  destruct (lfind i (rs_sh σ)) as [u|] eqn:Hu.
  2:{ exfalso. pose proof (RI_alive_h _ _ _ _ (reached_RI _ _ HR) Hi) as Ha. unfold lids in Ha. apply elem_of_list_fmap in Ha as (v & -> & Hv).
      rewrite (lfind_in _ _ (RI_ids _ _ (reached_RI _ _ HR)) Hv) in Hu. done. }
  rewrite Hw in Hs1. cbn in Em. destruct (r_env c !! y) as [[q|q]|]; [|done..]. cbn in Em. destruct (mapM _ ys) as [ps'|]; [|done]. injection Em as <- <-.
  rewrite Hh in Hs1. unfold call in *. cbn [rc_extend]. unfold bind. destruct (rc_push Back (r_b c) r q (r_mem c)); [done|]. by injection Hs1 as <-.
Qed.
End ext.
