(** ThreadLink.v — the events of dropping the variables of a reachable client state fit the counters of the buffers. *)
From stdpp Require Import base gmap list.
From Verif Require Import Spec ClientSpec Machine NodeModel ClientModel Sep Rep NodeProofs Inv Abs ClientProofs ClientRef ClientStep
  ClientRead ClientProps ThreadModel ThreadSpec ThreadProofs.

Section link.
Context {A : Type}.
Implicit Types (p q : ptr) (ks W : list (atree A)) (C : ctx A) (t k : atree A) (s : mem A) (c : cst A) (Wm : gmap nat (atree A)).

Fixpoint aev t : list ev :=
  let 'AN p pl _ ks := t in if pl then Touch p.1 :: flat_map aev ks ++ [Decr p.1] else flat_map aev ks.

Definition pil (v : nat) (l : list (ptr * bool)) : nat :=
  length (filter (fun x : ptr * bool => x.2 = true /\ x.1.1 = v) l).
Lemma pil_app v l l' : pil v (l ++ l') = pil v l + pil v l'.
Proof. unfold pil. by rewrite filter_app, app_length. Qed.
Lemma pil_perm v l l' : l ≡ₚ l' -> pil v l = pil v l'.
Proof. intros H. unfold pil. by rewrite H. Qed.
Lemma gives_app v l l' : gives v (l ++ l') = gives v l + gives v l'.
Proof. induction l as [|[w|w] l IH]; simpl; [done|done|]. rewrite IH. lia. Qed.

Lemma gives_aev v t : gives v (aev t) = pil v (infos t).
Proof.
  induction t as [p pl w ks IH] using atree_ind'.
  assert (gives v (flat_map aev ks) = pil v (infoss ks)) as Hks.
  { induction IH as [|k ks Hk _ IHks]; [done|]. simpl. by rewrite gives_app, pil_app, Hk, IHks. }
  rewrite infos_eq. cbn [aev]. destruct pl; unfold pil in *; rewrite filter_cons; cbn [fst snd].
  - cbn [gives]. rewrite gives_app, Hks. cbn [gives]. destruct (decide (p.1 = v)).
    + rewrite decide_True by done. simpl. lia.
    + rewrite decide_False by tauto. lia.
  - rewrite decide_False by (intros [? _]; done). done.
Qed.
Lemma gives_aevs v W : gives v (flat_map aev W) = pil v (infoss W).
Proof. induction W as [|t W IH]; [done|]. simpl. by rewrite gives_app, gives_aev, pil_app, IH. Qed.

Lemma owns_app keep l l' : owns keep l -> owns keep l' -> owns keep (l ++ l').
Proof.
  intros H H' l1 v l2 E. apply app_eq_inv in E as [(k & E1 & E2)|(k & E1 & E2)].
  - destruct k as [|e k].
    + simpl in E2. apply (H' [] v l2). by rewrite <-E2.
    + simpl in E2. injection E2 as <- ->. rewrite gives_app. pose proof (H l1 v k E1). lia.
  - apply (H' k v l2 E2).
Qed.
Lemma owns_aev keep t : owns keep (aev t).
Proof.
  induction t as [p pl w ks IH] using atree_ind'.
  assert (owns keep (flat_map aev ks)) as Hks.
  { induction IH as [|k ks Hk _ IHks]; [|by apply owns_app]. intros l1 v l2 E. by destruct l1. }
  cbn [aev]. destruct pl; [|done]. intros [|e l1] v l2 E; simpl in E.
  - injection E as -> <-. rewrite gives_app. simpl. rewrite decide_True by done. lia.
  - injection E as _ E. revert l1 v l2 E. change (owns keep (flat_map aev ks ++ [Decr p.1])). apply owns_app; [done|].
    intros [|e' [|]] v l2 E; done.
Qed.
Lemma owns_aevs keep W : owns keep (flat_map aev W).
Proof. induction W as [|t W IH]; [intros [|] ?? E; done|]. simpl. apply owns_app; [apply owns_aev|done]. Qed.

Lemma drop_events_at s W E f : forall C t, cntn t <= f -> MInvX s (plug C t :: W) E ->
  drop_events f (aptr t) s = Ok (aev t) s.
Proof.
  induction f as [|f IH]; intros C t Hf H; [rewrite cntn_akids in Hf; lia|]. destruct t as [p pl v ks].
  cbn [drop_events aptr]. unfold bind, get. rewrite (lookup_at _ _ _ _ _ _ _ _ H), (children_at _ _ _ _ _ _ _ _ H). rewrite cntn_eq in Hf.
  assert (Hall : forall i k, ks !! i = Some k -> drop_events f (aptr k) s = Ok (aev k) s).
  { intros i k Hk. apply (IH (Fr p pl v (take i ks) (drop (S i) ks) :: C)).
    - assert (cntn k <= cnts ks); [|lia]. rewrite <-(take_drop_middle _ _ _ Hk), cnts_app, cnts_cons. lia.
    - by rewrite <-(kid_in C p pl v ks i k Hk). }
  match goal with |- context [match ?g (aptr <$> ks) s with _ => _ end] => assert (g (aptr <$> ks) s = Ok (flat_map aev ks) s) as -> end.
  { clear -Hall. induction ks as [|k ks IHks]; [done|]. rewrite fmap_cons. cbv beta iota. unfold bind.
    rewrite (Hall 0 k) by done. rewrite IHks; [done|]. intros i. apply (Hall (S i)). }
  unfold ret, node_events, mk. cbn [n_dat aev]. destruct pl, v; done.
Qed.

Definition those Wm (hs : list nat) : list (atree A) := omap (fun h => Wm !! h) hs.

Lemma thread_events_at s cenv senv Wm hs : REnv s cenv senv Wm ->
  thread_events cenv hs s = Ok (flat_map aev (those Wm hs)) s.
Proof.
  intros HR. induction hs as [|h hs IH]; [done|]. cbn [thread_events]. unfold those. cbn [omap list_omap].
  assert (cenv !! h = hof <$> Wm !! h) as -> by (by rewrite (re_env _ _ _ _ HR), lookup_fmap).
  destruct (Wm !! h) as [t|] eqn:Ht; simpl; [|exact IH].
  pose proof (RE_inv _ _ _ _ _ _ HR Ht) as HI. pose proof (MInv_size _ _ _ _ HI) as Hs.
  unfold bind, fuel, gets. rewrite addr_hof, (drop_events_at s (vals (delete h Wm)) [] _ [] t); [|lia|done].
  rewrite IH. done.
Qed.
Lemma threads_events_at s cenv senv Wm hss : REnv s cenv senv Wm ->
  threads_events cenv hss s = Ok (map (fun hs => flat_map aev (those Wm hs)) hss) s.
Proof.
  intros HR. induction hss as [|hs hss IH]; [done|]. cbn [threads_events]. unfold bind.
  rewrite (thread_events_at _ _ _ _ _ HR), IH. done.
Qed.

Definition without Wm (hs : list nat) : gmap nat (atree A) := foldr delete Wm hs.
Lemma without_lookup Wm hs h : without Wm hs !! h = if decide (h ∈ hs) then None else Wm !! h.
Proof.
  induction hs as [|h' hs IH]; [by rewrite decide_False by apply not_elem_of_nil|]. cbn [without foldr]. fold (without Wm hs).
  destruct (decide (h = h')) as [->|Hne].
  - rewrite lookup_delete, decide_True; [done|left].
  - rewrite lookup_delete_ne by done. rewrite IH. destruct (decide (h ∈ hs)).
    + rewrite decide_True; [done|by right].
    + rewrite decide_False; [done|]. by intros [?|?]%elem_of_cons.
Qed.
Lemma those_without Wm hs : NoDup hs -> vals Wm ≡ₚ those Wm hs ++ vals (without Wm hs).
Proof.
  induction hs as [|h hs IH]; intros HN; [done|]. inversion HN as [|?? Hh HN']; subst. rewrite (IH HN').
  unfold those. cbn [omap list_omap without foldr]. change (foldr delete Wm hs) with (without Wm hs).
  destruct (Wm !! h) as [t|] eqn:Ht.
  - rewrite <-(vals_delete (without Wm hs) h t).
    + simpl. by rewrite Permutation_middle.
    + rewrite without_lookup. by rewrite decide_False.
  - rewrite delete_notin; [done|]. rewrite without_lookup. by rewrite decide_False.
Qed.

Lemma gives_all_those v Wm hss :
  gives_all v (map (fun hs => flat_map aev (those Wm hs)) hss) = pil v (infoss (those Wm (concat hss))).
Proof.
  unfold gives_all. induction hss as [|hs hss IH]; [done|]. simpl. rewrite IH, gives_aevs, <-pil_app, <-infoss_app.
  unfold those. by rewrite omap_app.
Qed.

Lemma live_pil s W v cap rc : MInvX s W [] -> m_vec s !! v = Some (cap, rc) -> live_in v (infoss W) = pil v (infoss W).
Proof.
  intros HI Hv. unfold live_in, pil. f_equal.
  assert (forall q pl, (q, pl) ∈ infoss W -> q.1 = v -> pl = true) as Hx.
  { intros q [|] Hq <-; [done|]. apply (mi_scat _ _ _ HI) in Hq as (_&_&?). congruence. }
  revert Hx. clear. induction (infoss W) as [|[q pl] l IH]; intros Hx; [done|]. rewrite !filter_cons. simpl.
  assert (forall q pl, (q, pl) ∈ l -> q.1 = v -> pl = true) as Hl by (intros; eapply Hx; [by right|done]).
  destruct (decide (q.1 = v)).
  - rewrite decide_True; [by rewrite IH|]. split; [|done]. eapply Hx; [left|done].
  - rewrite decide_False by tauto. by apply IH.
Qed.

Lemma pil_none s W v : MInvX s W [] -> m_vec s !! v = None -> pil v (infoss W) = 0.
Proof.
  intros HI Hv. unfold pil. destruct (filter _ (infoss W)) as [|[q pl] l] eqn:E; [done|exfalso].
  assert ((q, pl) ∈ filter (fun x : ptr * bool => x.2 = true /\ x.1.1 = v) (infoss W)) as H by (rewrite E; left).
  apply elem_of_list_filter in H as [[? ?] Hq]. simpl in *. subst. apply (mi_pile _ _ _ HI) in Hq as [??]. congruence.
Qed.

Definition keep_of Wm hss (v : nat) : nat := pil v (infoss (vals (without Wm (concat hss)))).

Lemma counted_at s cenv senv Wm hss : REnv s cenv senv Wm -> NoDup (concat hss) ->
  counted (keep_of Wm hss) (snd <$> m_vec s) (map (fun hs => flat_map aev (those Wm hs)) hss).
Proof.
  intros HR HN v. rewrite gives_all_those. unfold keep_of. rewrite <-pil_app, <-infoss_app.
  rewrite <-(pil_perm v _ _ (infoss_perm _ _ (those_without Wm _ HN))). rewrite lookup_fmap.
  pose proof (re_inv _ _ _ _ HR) as HI. destruct (m_vec s !! v) as [[cap rc]|] eqn:Hv; simpl.
  - rewrite <-(live_pil _ _ _ _ _ HI Hv). destruct (mi_vec _ _ _ HI _ _ _ Hv) as (_&Hrest).
    destruct (Hrest (inE_nil v)) as (<-&Hp&_). destruct rc; [lia|done].
  - by rewrite (pil_none _ _ _ HI Hv).
Qed.

Lemma keep_others c cenv senv Wm hss v : REnv (c_mem c) cenv senv Wm -> cenv = c_env c ->
  is_Some (m_vec (c_mem c) !! v) -> 0 < keep_of Wm hss v <-> used_by_others c (concat hss) v.
Proof.
  intros HR -> [[cap rc] Hv]. unfold keep_of, used_by_others.
  assert (Hp : 0 < pil v (infoss (vals (without Wm (concat hss)))) <->
    exists h t q pl, without Wm (concat hss) !! h = Some t /\ (q, pl) ∈ infos t /\ pl = true /\ q.1 = v).
  { unfold pil. split.
    - intros H. destruct (filter _ (infoss _)) as [|[q pl] l] eqn:E; [simpl in H; lia|].
      assert ((q, pl) ∈ filter (fun x : ptr * bool => x.2 = true /\ x.1.1 = v) (infoss (vals (without Wm (concat hss))))) as Hq by (rewrite E; left).
      apply elem_of_list_filter in Hq as [[??] Hq]. simpl in *. unfold infoss in Hq.
      apply elem_of_list_In, in_flat_map in Hq as (t & Ht & Hq). apply elem_of_list_In in Ht, Hq.
      unfold ClientRef.vals in Ht. rewrite app_nil_r in Ht. apply elem_of_list_fmap in Ht as ([h t'] & -> & Ht). simpl in *.
      apply elem_of_map_to_list in Ht. eauto 10.
    - intros (h & t & q & pl & Hh & Hq & -> & Hv').
      assert ((q, true) ∈ filter (fun x : ptr * bool => x.2 = true /\ x.1.1 = v) (infoss (vals (without Wm (concat hss))))) as Hin.
      { apply elem_of_list_filter. split; [done|]. unfold infoss. apply elem_of_list_In, in_flat_map. exists t. split; [|by apply elem_of_list_In].
        apply elem_of_list_In. unfold ClientRef.vals. rewrite app_nil_r. apply elem_of_list_fmap. exists (h, t). split; [done|].
        by apply elem_of_map_to_list. }
      destruct (filter _ (infoss _)); [by apply elem_of_nil in Hin|simpl; lia]. }
  rewrite Hp. clear Hp. pose proof (re_inv _ _ _ _ HR) as HI. split.
  - intros (h & t & q & pl & Hh & Hq & -> & Hqv). rewrite without_lookup in Hh. case_decide as Hin; [done|].
    assert (q ∈ addrs t) as Hqt by (rewrite <-infos_fst; by apply (elem_of_list_fmap_1 fst _ (q, true))).
    apply addrs_afind in Hqt as (path & C & t' & Hf & Hqe). exists h, (hof t), path, q. split_and!; try done.
    + by rewrite (re_env _ _ _ _ HR), lookup_fmap, Hh.
    + rewrite addr_hof, (resolve_at _ _ _ _ path (RE_inv _ _ _ _ _ _ HR Hh)), Hf. simpl. by rewrite Hqe.
  - intros (h & hd & path & q & Hin & Hh & Hres & Hqv). rewrite (re_env _ _ _ _ HR), lookup_fmap in Hh.
    destruct (Wm !! h) as [t|] eqn:Ht; [|done]. simpl in Hh. simplify_eq.
    rewrite addr_hof, (resolve_at _ _ _ _ path (RE_inv _ _ _ _ _ _ HR Ht)) in Hres.
    destruct (afind t path) as [[C t']|] eqn:Hf; [|done]. simpl in Hres. simplify_eq.
    assert (aptr t' ∈ addrs t) as Hq by (apply addrs_afind; eauto). rewrite <-infos_fst in Hq.
    apply elem_of_list_fmap in Hq as ([q pl] & Hqe & Hq). simpl in Hqe. exists h, t, q, pl.
    rewrite without_lookup, decide_False by done. split_and!; [done|done| |by rewrite Hqe].
    destruct pl; [done|exfalso]. assert ((q, false) ∈ infoss (vals Wm)) as Hq'.
    { rewrite <-(infoss_perm _ _ (vals_delete _ _ _ Ht)). rewrite infoss_cons. apply elem_of_app. by left. }
    apply (mi_scat _ _ _ HI) in Hq' as (_&_&Hn). rewrite Hqe in Hv. congruence.
Qed.

(** * Statements on reachable states *)
Lemma threads_safe c hss sched : reachable c -> NoDup (concat hss) ->
  exists progs st, threads_events (c_env c) hss (c_mem c) = Ok progs (c_mem c) /\
    trun (start (snd <$> m_vec (c_mem c)) progs) sched = TOk st /\
    (forall v, is_Some (m_vec (c_mem c) !! v) -> used_by_others c (concat hss) v -> is_Some (t_vec st !! v)) /\
    (forall v th, th ∈ t_th st -> (0 < gives v (prog th) \/ exists n, pending th = Some (v, n)) -> is_Some (t_vec st !! v)).
Proof.
  intros Hr HN. destruct (reachable_CInv c Hr) as (σ & Wm & HR & _).
  destruct (never_early _ _ _ sched (counted_at _ _ _ _ hss HR HN)) as (st & E & Hal).
  { apply Forall_forall. intros l Hl. apply elem_of_list_fmap in Hl as (hs & -> & _). apply owns_aevs. }
  eexists _, st. split_and!; [by apply (threads_events_at _ _ _ _ _ HR)|done|..].
  - intros v Hv Hu. apply Hal. apply (keep_others _ _ _ _ _ _ HR eq_refl Hv) in Hu. lia.
  - intros v th Hth Ho. apply Hal. apply elem_of_list_lookup in Hth as [k Hk]. pose proof (owed_lookup v _ _ _ Hk) as Hle.
    unfold owes in Hle. destruct Ho as [Ho|[n Hn]]; [lia|]. rewrite Hn, decide_True in Hle by done. lia.
Qed.

Lemma threads_exact c hss progs sched st : reachable c -> NoDup (concat hss) ->
  threads_events (c_env c) hss (c_mem c) = Ok progs (c_mem c) -> separate progs ->
  trun (start (snd <$> m_vec (c_mem c)) progs) sched = TOk st -> finished st ->
  forall v, is_Some (t_vec st !! v) <-> is_Some (m_vec (c_mem c) !! v) /\ used_by_others c (concat hss) v.
Proof.
  intros Hr HN He Hs Et Hf v. destruct (reachable_CInv c Hr) as (σ & Wm & HR & _).
  rewrite (threads_events_at _ _ _ _ _ HR) in He. injection He as <-.
  pose proof (counted_at _ _ _ _ hss HR HN) as Hc.
  rewrite (separate_end _ _ _ sched st Hc); [|by apply Forall_forall; intros l Hl; apply elem_of_list_fmap in Hl as (hs & -> & _); apply owns_aevs|done..].
  specialize (Hc v). rewrite lookup_fmap in Hc.
  destruct (m_vec (c_mem c) !! v) as [[cap rc]|] eqn:Hv; simpl in Hc.
  - pose proof (keep_others _ _ _ _ hss v HR eq_refl (ltac:(eauto))) as Hk. destruct (keep_of Wm hss v).
    + split; [by intros []|]. intros [_ Hu]. apply Hk in Hu. lia.
    + split; [|eauto]. intros _. split; [eauto|]. apply Hk. lia.
  - destruct (keep_of Wm hss v).
    + split; [by intros []|]. by intros [[] _].
    + rewrite Nat.add_comm in Hc. done.
Qed.

(** on one thread the events are what [drop] does *)
Lemma single_thread c h hd : reachable c -> c_env c !! h = Some hd ->
  exists es c', thread_events (c_env c) [h] (c_mem c) = Ok es (c_mem c) /\ step c (ODrop h) = Done RUnit c' /\
    forall sched st, trun (start (snd <$> m_vec (c_mem c)) [es]) sched = TOk st -> finished st -> t_vec st = snd <$> m_vec (c_mem c').
Proof.
  intros Hr Hh. destruct (reachable_CInv c Hr) as (σ & Wm & HR & Hlog).
  pose proof Hh as Hh'. rewrite (re_env _ _ _ _ HR), lookup_fmap in Hh'.
  destruct (Wm !! h) as [t|] eqn:Ht; [|done]. simpl in Hh'. injection Hh' as <-.
  destruct (drop_tree_spec _ _ _ _ (RE_inv _ _ _ _ _ _ HR Ht)) as (s' & Hd & HI' & _).
  exists (flat_map aev (those Wm [h])), (CSt (delete h (c_env c)) s').
  split_and!; [by apply (thread_events_at _ _ _ _ _ HR)| |].
  { unfold step. cbn [cstep]. rewrite Hh. unfold bind. rewrite addr_hof, Hd. done. }
  intros sched st Hrun Hfin. cbn [c_mem].
  assert (NoDup (concat [[h]])) as HN by (simpl; apply NoDup_singleton).
  pose proof (counted_at _ _ _ _ [[h]] HR HN) as Hc. apply map_eq. intros v.
  rewrite (separate_end _ _ _ sched st Hc); [|..|exact Hrun|done].
  2:{ apply Forall_forall; intros l Hl; apply elem_of_list_fmap in Hl as (hs & -> & _); apply owns_aevs. }
  2:{ intros [|i] [|j] l l' w Hi Hj; by simplify_eq/=. }
  rewrite lookup_fmap. unfold keep_of. cbn [concat app without foldr].
  destruct (m_vec s' !! v) as [[cap rc]|] eqn:Hv; simpl.
  - rewrite <-(live_pil _ _ _ _ _ HI' Hv). destruct (mi_vec _ _ _ HI' _ _ _ Hv) as (_&Hrest).
    destruct (Hrest (inE_nil v)) as (<-&Hp&_). destruct rc; [lia|done].
  - by rewrite (pil_none _ _ _ HI' Hv).
Qed.
End link.
