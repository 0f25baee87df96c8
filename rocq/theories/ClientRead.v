(** ClientRead.v — reading back the contents; consequences of the refinement stated on client states. *)
From stdpp Require Import base gmap list.
From Verif Require Import Spec ClientSpec Machine NodeModel ClientModel Sep Rep NodeProofs Inv Abs ClientProofs ClientRef ClientStep.

Section read.
Context {A : Type}.
Implicit Types (p q : ptr) (ks fs qs L R W : list (atree A)) (C : ctx A) (t k : atree A) (s : mem A)
  (c : cst A) (σ : sst A) (it : item A).

Lemma read_tree_eq f p : read_tree (A:=A) (S f) p =
  bind (data p) (fun a => bind (children p) (fun cs => bind (read_trees f cs) (fun ts => ret (Tr a ts)))).
Proof.
  reflexivity.
Qed.

Lemma read_tree_at s W E f : forall C t x, cntn t <= f -> rt t x -> MInvX s (plug C t :: W) E ->
  read_tree f (aptr t) s = Ok x s.
Proof.
  induction f as [|f IH]; intros C t x Hf Hr H; [rewrite cntn_akids in Hf; lia|].
  rewrite read_tree_eq. inversion Hr as [p pl a ks xs Hks]; subst. unfold bind. cbn [aptr].
  rewrite (data_at _ _ _ _ _ _ _ _ H), (children_at _ _ _ _ _ _ _ _ H). rewrite cntn_eq in Hf.
  assert (Hall : forall i k x, ks !! i = Some k -> xs !! i = Some x -> read_tree f (aptr k) s = Ok x s).
  { intros i k x Hk Hx. apply (IH (Fr p pl (Some a) (take i ks) (drop (S i) ks) :: C)).
    - assert (cntn k <= cnts ks); [|lia]. rewrite <-(take_drop_middle _ _ _ Hk), cnts_app, cnts_cons. lia.
    - by eapply Forall2_lookup_lr.
    - by rewrite <-(kid_in C p pl (Some a) ks i k Hk). }
  assert (read_trees f (aptr <$> ks) s = Ok xs s) as ->; [|done].
  clear -Hall Hks. revert Hall. induction Hks as [|k x ks xs Hk _ IH]; intros Hall; [done|]. rewrite fmap_cons. cbn [read_trees]. fold (read_trees (A:=A)). unfold bind.
  rewrite (Hall 0 k x) by done. rewrite IH; [done|]. intros i. apply (Hall (S i)).
Qed.

Lemma read_item_ok {F EL} s env senv Wm h t it : @ClientRef.REnv A F EL s env senv Wm -> Wm !! h = Some t -> ri t it ->
  read_item (hof t) s = Ok it s.
Proof.
  intros HR Ht Hri. pose proof (RE_inv _ _ _ _ _ _ HR Ht) as HI. pose proof (MInv_size _ _ _ _ HI) as Hs.
  unfold read_item, bind, fuel, gets, hof. destruct it as [x|xs]; simpl in Hri.
  - rewrite (rt_val _ _ Hri). rewrite (read_tree_at s (@ClientRef.vals A F (delete h Wm)) EL _ [] t x); [done|lia|done|done].
  - destruct t as [p pl v ks]. simpl in Hri. destruct Hri as [-> Hks]. simpl.
    rewrite (children_at s [] p pl None ks _ _ HI). rewrite cntn_eq in Hs.
    assert (read_trees (S (size (m_heap s))) (aptr <$> ks) s = Ok xs s) as ->; [|done].
    assert (Hall : forall i k x, ks !! i = Some k -> xs !! i = Some x -> read_tree (S (size (m_heap s))) (aptr k) s = Ok x s).
    { intros i k x Hk Hx. apply (read_tree_at s (@ClientRef.vals A F (delete h Wm)) EL _ [Fr p pl None (take i ks) (drop (S i) ks)]).
      - assert (cntn k <= cnts ks); [|lia]. rewrite <-(take_drop_middle _ _ _ Hk), cnts_app, cnts_cons. lia.
      - by eapply Forall2_lookup_lr.
      - rewrite <-(kid_in [] p pl None ks i k Hk). done. }
    clear -Hall Hks. revert Hall. induction Hks as [|k x ks xs Hk _ IH]; intros Hall; [done|]. rewrite fmap_cons. cbn [read_trees]. fold (read_trees (A:=A)). unfold bind.
    rewrite (Hall 0 k x) by done. rewrite IH; [done|]. intros i. apply (Hall (S i)).
Qed.

Lemma CInvF_contents {F EL} c σ : @ClientRef.CInv A F EL c σ -> contents c (s_env σ).
Proof.
  intros (Wm & HR & Hlog) h. pose proof (RE_lookup _ _ _ _ h HR) as H. destruct (s_env σ !! h) as [it|].
  - destruct H as (t & Ht & Hri & -> & _). exists it. split; [|done]. by eapply read_item_ok.
  - by destruct H as [_ ->].
Qed.

Lemma CInv_contents c σ : CInv c σ -> contents c (s_env σ).
Proof. apply CInvF_contents. Qed.

Lemma contents_fun c env1 env2 : contents c env1 -> contents c env2 -> env1 = env2.
Proof.
  intros H1 H2. apply map_eq. intros h. specialize (H1 h). specialize (H2 h).
  destruct (c_env c !! h) as [hd|]; [|congruence]. destruct H1 as (i1 & R1 & ->), H2 as (i2 & R2 & ->). congruence.
Qed.

Lemma reachable_CInv c : reachable c -> exists σ, CInv c σ.
Proof.
  intros (os & rs & H). pose proof (run_ok os cst0 sst0 CInv0) as Hr. destruct (srun sst0 os) as [[rs' σ]|]; [|congruence].
  destruct Hr as (c' & Hc & HI). exists σ. congruence.
Qed.

Lemma reachable_contents c env : reachable c -> contents c env -> CInv c (SSt env (m_log (c_mem c))).
Proof.
  intros Hr Hc. destruct (reachable_CInv c Hr) as (σ & HI). pose proof (CInv_contents _ _ HI) as Hc'.
  rewrite (contents_fun _ _ _ Hc Hc'). destruct HI as (Wm & HR & Hl). exists Wm. by split.
Qed.

Theorem refinement os :
  match srun sst0 os with
  | Some (rs, σ) => exists c, run cst0 os = Done rs c /\ contents c (s_env σ) /\ m_log (c_mem c) = s_log σ
  | None => run cst0 os = Fails EPanic
  end.
Proof.
  pose proof (run_ok os cst0 sst0 CInv0) as H. destruct (srun sst0 os) as [[rs σ]|]; [|done].
  destruct H as (c & Hc & HI). exists c. split_and!; [done|by apply CInv_contents|]. by destruct HI as (Wm & _ & ?).
Qed.

(** one step from any reachable state *)
Lemma step_from c env o : reachable c -> contents c env ->
  match sstep (SSt env (m_log (c_mem c))) o with
  | Some (r, σ') => exists c', step c o = Done r c' /\ contents c' (s_env σ') /\ m_log (c_mem c') = s_log σ' /\ reachable c'
  | None => step c o = Fails EPanic
  end.
Proof.
  intros Hr Hc. pose proof (step_ok o c _ (reachable_contents _ _ Hr Hc)) as H.
  destruct (sstep _ o) as [[r σ']|]; [|done]. destruct H as (c' & Hs & HI). exists c'.
  split_and!; [done|by apply CInv_contents|by destruct HI as (?&_&?)|].
  destruct Hr as (os & rs & Hrun). exists (os ++ [o]), (rs ++ [r]). revert Hrun Hs. clear.
  generalize (@cst0 A) as c0. intros c0. revert c0 rs. induction os as [|o' os IH]; intros c0 rs Hrun Hs; simpl in *.
  - simplify_eq. by rewrite Hs.
  - destruct (step c0 o') as [r' c''|]; [|done]. destruct (run c'' os) as [rs' c3|] eqn:E; [|done]. simplify_eq.
    rewrite (IH c'' rs' E Hs). done.
Qed.

Lemma reachable_has_contents c : reachable c -> exists env, contents c env.
Proof. intros H. destruct (reachable_CInv c H) as (σ & HI). eexists. by apply CInv_contents. Qed.

End read.
