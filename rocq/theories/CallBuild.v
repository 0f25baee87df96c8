(** CallBuild.v — the constructions from breadth-first visits for iterators that may change the memory in any way that keeps the buffer being built. *)
From stdpp Require Import base gmap list.
From Verif Require Import Spec ClientSpec Machine NodeModel BfsModel ClientModel CallSpec CallModel Sep Rep NodeProofs Inv SpecProofs Abs ClientProofs FromBfs BfsBuild BfsIter BfsMut BfsMap.

Section st.
Context {A : Type}.
Lemma bind_ok {X Y} (m : M A X) (f : X -> M A Y) s x s' : m s = Ok x s' -> bind m f s = f x s'.
Proof. intros Hm. unfold bind. by rewrite Hm. Qed.
Lemma bind_err {X Y} (m : M A X) (f : X -> M A Y) s e : m s = Err e -> bind m f s = Err e.
Proof. intros Hm. unfold bind. by rewrite Hm. Qed.
(** the versions with the final iterator are those of BfsModel.v *)
Lemma from_bfs_loop_st_eq {S} (next : S -> M A (option visit * S)) f : forall v P c r it s,
  from_bfs_loop next f v P c r it s = match from_bfs_loop_st next f v P c r it s with Ok _ s' => Ok tt s' | Err e => Err e end.
Proof.
  induction f as [|f IH]; intros v P c r it s; [done|]. cbn [from_bfs_loop from_bfs_loop_st]. unfold bind.
  destruct (next it s) as [[[[[a dg] ds]|] it'] s1|]; cbn [fst snd]; [|done|done].
  destruct (append_child v P c a dg ds s1) as [[] s2|]; [|done]. destruct (sub r 1 s2) as [rem s3|]; [|done].
  destruct (fuel s3) as [g s4|]; [|done]. destruct (skip_full g v P c rem s4) as [pr s5|]; [|done]. apply IH.
Qed.
Lemma tree_from_bfs_st_eq {S} (next : S -> M A (option visit * S)) it s :
  tree_from_bfs next it s = match tree_from_bfs_st next it s with Ok r s' => Ok r.1 s' | Err e => Err e end.
Proof.
  unfold tree_from_bfs, tree_from_bfs_st, bind. destruct (next it s) as [[o it'] s1|]; [|done]. cbn [fst snd].
  destruct (unwrap o s1) as [[[a dg] ds] s2|]; [|done]. destruct (new_vec (ds + 1) s2) as [v s3|]; [|done].
  destruct (make_piled_node v None 0 a dg ds s3) as [? s4|]; [|done]. unfold fuel, gets. rewrite from_bfs_loop_st_eq.
  destruct (from_bfs_loop_st _ _ _ _ _ _ _ _) as [it2 s6|]; [|done]. destruct (slot v 0 s6) as [p s7|]; [|done]. by destruct (tree_from_node p s7).
Qed.
Lemma forest_from_bfs_st_eq {S} (next : S -> M A (option visit * S)) it dg ds s :
  forest_from_bfs next it dg ds s = match forest_from_bfs_st next it dg ds s with Ok r s' => Ok r.1 s' | Err e => Err e end.
Proof.
  unfold forest_from_bfs, forest_from_bfs_st, bind. destruct (new_vec (ds + 1) s) as [v s3|]; [|done].
  destruct (vec_make_node v None 0 (DPiledN v) dg ds s3) as [? s4|]; [|done]. unfold fuel, gets. rewrite from_bfs_loop_st_eq.
  destruct (from_bfs_loop_st _ _ _ _ _ _ _ _) as [it2 s6|]; [|done]. by destruct (slot v 0 s6) as [p s7|].
Qed.
End st.

Section from.
Context {A : Type}.
Implicit Types (W : list (atree A)) (s : mem A) (E EL : list (ptr * node A)).
Context {S : Type} (next : S -> M A (option (visit (A:=A)) * S)).
(** [R it ys W lg]: with the live trees [W] and the values [lg] dropped so far, the iterator still gives [ys] (or panics, if [bad]); [Rend]: at its end *)
Context (R : S -> list (visit (A:=A)) -> list (atree A) -> list A -> Prop) (Rend : S -> list (atree A) -> list A -> Prop) (bad : Prop).

Definition yieldsL : Prop := forall it ys W E s, R it ys W (m_log s) -> MInvX s W E ->
  (next it s = Err EPanic /\ bad) \/
  match ys with
  | [] => exists it' s' W', next it s = Ok (None, it') s' /\ MInvX s' W' E /\ Rend it' W' (m_log s')
  | y :: ys' => exists it' s' W', next it s = Ok (Some y, it') s' /\ MInvX s' W' E /\ R it' ys' W' (m_log s')
  end.

Hypothesis Hy : yieldsL.

Lemma from_bfs_loop_specL EL v vs : bwf vs -> forall ys c P r it W s f,
  drop c vs = ovis <$> ys -> 1 <= c -> c <= length vs -> (ys = [] \/ (P = par vs c /\ r = fc vs (Datatypes.S P) - c)) -> length ys < f ->
  R it ys W (m_log s) -> MInvX s W (cellsf v (length vs) (gcell v vs c) ++ EL) ->
  (from_bfs_loop_st next f v P c r it s = Err EPanic /\ bad) \/
  exists it' s' W', from_bfs_loop_st next f v P c r it s = Ok it' s' /\ MInvX s' W' (cellsf v (length vs) (gcell v vs (length vs)) ++ EL) /\ Rend it' W' (m_log s').
Proof.
  intros Hw. induction ys as [|[[a d] ds] ys IH]; intros c P r it W s f Hd Hc HcN HP Hf HR HI; (destruct f as [|f]; [simpl in Hf; lia|]).
  - cbn [from_bfs_loop_st]. unfold bind. destruct (Hy _ _ _ _ _ HR HI) as [[-> Hb]|(it' & s' & W' & -> & HI' & He)]; [by left|right]. cbn [fst snd].
    assert (c = length vs) as ->. { apply (f_equal length) in Hd. rewrite drop_length in Hd. simpl in Hd. lia. }
    exists it', s', W'. done.
  - cbn [from_bfs_loop_st]. destruct (Hy _ _ _ _ _ HR HI) as [[Hx Hb]|(it' & s1 & W1 & Hx & HI1 & HR1)]; [left; by rewrite (bind_err _ _ _ _ Hx)|].
    rewrite (bind_ok _ _ _ _ _ Hx). cbn [fst snd]. clear Hx.
    rewrite fmap_cons in Hd. apply drop_lookup in Hd as [Hl Hd]. pose proof (lookup_lt_Some _ _ _ Hl) as Hlt.
    destruct HP as [?|[-> ->]]; [done|]. pose proof (par_spec vs c Hw Hc Hlt) as Hps. pose proof (par_lt vs c Hw Hc Hlt) as Hpl.
    edestruct (MInv_E s1 W1 _ _ EL _ _ (append_child_spec v vs c a d ds Hw Hc Hlt Hl)) as (s2 & Hx & HI2 & Hl2);
      [by rewrite !cellsf_fst|exact HI1|]. rewrite (bind_ok _ _ _ _ _ Hx). clear Hx.
    assert (sub (A:=A) (fc vs (Datatypes.S (par vs c)) - c) 1 s2 = Ok (fc vs (Datatypes.S (par vs c)) - c - 1) s2) as Hx by (unfold sub; destruct (Nat.leb_spec 1 (fc vs (Datatypes.S (par vs c)) - c)) as [_|]; [done|lia]).
    rewrite (bind_ok _ _ _ _ _ Hx). clear Hx.
    rewrite (bind_ok fuel _ s2 _ s2 eq_refl).
    destruct (skip_full_spec v vs c (Datatypes.S (size (m_heap s2))) (par vs c) (fc vs (Datatypes.S (par vs c)) - c - 1)) as (P' & r' & HT & Hfc & Hr' & HPc & Hor); [done..| |lia|lia|].
    { pose proof (MInv_sizeE _ _ _ HI2) as Hs. unfold cellsf in Hs. rewrite app_length, fmap_length, seq_length in Hs. lia. }
    edestruct (MInv_E s2 W1 _ _ EL _ _ HT) as (s3 & Hx & HI3 & Hl3); [done|exact HI2|]. rewrite (bind_ok _ _ _ _ _ Hx). cbn [fst snd]. clear Hx.
    destruct (IH (Datatypes.S c) P' r' it' W1 s3 f) as [Hbad|Hgood]; [done|lia|lia| |simpl in Hf; lia|by rewrite Hl3, Hl2|done|by left|by right].
    destruct ys as [|y ys]; [by left|]. right.
    assert (Hn : Datatypes.S c < length vs). { apply (f_equal length) in Hd. rewrite drop_length in Hd. simpl in Hd. lia. }
    split; [|done]. symmetry. apply par_uniq; [done|lia|done|]. split; [lia|].
    destruct Hor as [?| ->]; [lia|]. apply Hw in Hn. simpl in Hn |- *. lia.
Qed.

Lemma tree_from_bfs_specL EL it W s (x : tree A) (r : list (tree A)) :
  qo [x] r -> R it (visit_of <$> r) W (m_log s) -> MInvX s W EL ->
  (tree_from_bfs_st next it s = Err EPanic /\ bad) \/
  exists t it' s' W', tree_from_bfs_st next it s = Ok (aptr t, it') s' /\ MInvX s' (t :: W') EL /\ rt t x /\ contiguous t /\ Rend it' W' (m_log s').
Proof.
  intros Hq HR HI. inversion Hq as [|? ? r' Hq']; subst. set (vs := (ovis ∘ visit_of) <$> (x :: r')).
  assert (HN : length vs = nodes x).
  { unfold vs. rewrite fmap_length. pose proof (qo_length _ _ Hq) as Hl. unfold nodes_f in Hl. simpl in Hl |- *. lia. }
  assert (Hw : bwf vs).
  { destruct (qo_props vs _ _ Hq 0) as [H1 H2]; [done|lia|done|]. split; [|done]. intros i Hi. apply H1; [lia|done]. }
  unfold tree_from_bfs_st. destruct (Hy _ _ _ _ _ HR HI) as [[Hx Hb]|(it1 & s1 & W1 & Hx & HI1 & HR1)]; [left; by rewrite (bind_err _ _ _ _ Hx)|].
  rewrite (bind_ok _ _ _ _ _ Hx). cbn [fst snd unwrap]. clear Hx. rewrite (bind_ok (ret (visit_of x)) _ s1 _ s1 eq_refl). unfold visit_of.
  assert (nodes_f (kids x) + 1 = length vs) as HNN by (rewrite HN; destruct x; simpl; unfold nodes_f; lia). rewrite HNN.
  destruct (new_vec_spec s1 W1 EL (length vs) HI1) as (s2 & Hx & HI2 & Hl2 & HnE); [lia|]. rewrite (bind_ok _ _ _ _ _ Hx). clear Hx. set (v := m_fresh s1) in *.
  assert (HT1 : triple (cellsf v (length vs) (fun _ => node_default)) (make_piled_node v None 0 (root_of x) (length (kids x)) (nodes_f (kids x))) (v, 0)
            (cellsf v (length vs) (gcell v vs 1))).
  { unfold make_piled_node, vec_make_node. apply f_get; [lia|]. cbn [node_default n_dat dat_vals]. apply t_log_nil. apply f_put; [lia|].
    apply t_retl. apply reflexive_eq, cellsf_ext. intros k Hk. unfold fupd, gcell. destruct (Nat.eqb_spec k 0) as [->|]; [|destruct (Nat.ltb_spec k 1); [lia|done]].
    simpl. unfold cell. cbn [Nat.eqb]. destruct (Nat.ltb_spec (fc vs 0) (min 1 (fc vs 1))); [simpl in *; lia|]. done. }
  edestruct (MInv_E s2 W1 _ _ EL _ _ HT1) as (s3 & Hx & HI3 & Hl3); [by rewrite !cellsf_fst|exact HI2|]. rewrite (bind_ok _ _ _ _ _ Hx). clear Hx.
  rewrite (bind_ok fuel _ s3 _ s3 eq_refl).
  destruct (from_bfs_loop_specL EL v vs Hw (visit_of <$> r') 1 0 (length (kids x)) it1 W1 s3 (Datatypes.S (size (m_heap s3)))) as [[H4 Hb]|(it4 & s4 & W4 & H4 & HI4 & He4)]; [..|done| |].
  { unfold vs. rewrite fmap_cons. simpl. by rewrite drop_0, list_fmap_compose. }
  { lia. } { lia. }
  { destruct r' as [|y r']; [by left|]. right. assert (dgn vs 0 = length (kids x)) as Hd0 by done. 
    assert (0 = par vs 1) as <-.
    { symmetry. apply par_uniq; [done|lia|unfold vs; simpl; lia|]. simpl. rewrite Hd0.
      assert (kids x <> []); [|destruct (kids x); [done|simpl; lia]]. intros Hk. rewrite Hk in Hq'. simpl in Hq'. inversion Hq'. }
    split; [done|]. simpl. rewrite Hd0. lia. }
  { rewrite fmap_length. pose proof (MInv_sizeE _ _ _ HI3) as Hs. unfold cellsf in Hs. rewrite app_length, fmap_length, seq_length in Hs.
    unfold vs in Hs. rewrite fmap_length in Hs. simpl in Hs. lia. }
  { by rewrite Hl3, Hl2. }
  { left. by rewrite (bind_err _ _ _ _ H4). }
  right. rewrite (bind_ok _ _ _ _ _ H4).
  destruct (qo_rt v vs Hw _ _ Hq 0) as [Hrt Hds]; [done|lia|done|]. specialize (Hrt 0 x eq_refl). simpl in Hrt.
  assert (Hcn : cntn (T v vs 0) = length vs) by (rewrite (rt_cntn _ _ Hrt); done).
  pose proof (T_layout v vs Hw ltac:(lia) (fun i Hi => Hds i ltac:(lia) Hi) Hcn) as HL.
  assert (HI5 : MInvX s4 (T v vs 0 :: W4) EL).
  { eapply (MInv_adopt _ _ v (length vs)); [exact HI4|exact HnE|lia|by rewrite cellsf_fst|exact HL|]. apply (infos_T v vs Hw (length vs) 0); lia. }
  exists (T v vs 0).
  assert (HT2 : triple (lay None None None (T v vs 0)) (bind (slot v 0) (fun p => bind (tree_from_node p) (fun q => ret (q, it4)))) ((v, 0), it4) (lay None None None (T v vs 0))).
  { rewrite (T_eq v vs 0 Hw) by lia. rewrite lay_eq. unfold slot, tree_from_node. repeat step1. apply t_retl. perm; done. }
  edestruct (MInv_triple s4 (T v vs 0 :: W4) (T v vs 0 :: W4) EL _ _ (layW W4) _ _ HT2) as (h & Hr & HI6); [done|done|done|exact HI5|].
  rewrite Hr. exists it4, (set_heap s4 h), W4. split_and!; [by rewrite aptr_T|done|done| |done].
  exists v. rewrite Hcn, <-(cellsf_fst v (length vs) (gcell v vs (length vs))). rewrite <-HL. by rewrite lay_fst.
Qed.

Lemma forest_from_bfs_specL EL it W s (ts : list (tree A)) (r : list (tree A)) :
  qo ts r -> R it (visit_of <$> r) W (m_log s) -> MInvX s W EL ->
  (forest_from_bfs_st next it (length ts) (nodes_f ts) s = Err EPanic /\ bad) \/
  exists t it' s' W', forest_from_bfs_st next it (length ts) (nodes_f ts) s = Ok (aptr t, it') s' /\ MInvX s' (t :: W') EL /\ ri t (IForest ts) /\ contiguous t /\ Rend it' W' (m_log s').
Proof.
  intros Hq HR HI1. set (vs := ((None, length ts, nodes_f ts) : option A * nat * nat) :: ((ovis ∘ visit_of) <$> r)).
  assert (HN : length vs = Datatypes.S (nodes_f ts)).
  { unfold vs. simpl. rewrite fmap_length. by rewrite (qo_length _ _ Hq). }
  assert (Hd1 : drop 1 vs = (ovis ∘ visit_of) <$> r) by (unfold vs; simpl; by rewrite drop_0).
  assert (Hw : bwf vs).
  { destruct (qo_props vs _ _ Hq 1) as [H1 H2]; [done|lia|done|]. split; [|done]. intros [|i] Hi; [simpl; lia|]. apply H1; [lia|done]. }
  unfold forest_from_bfs_st. 
  assert (nodes_f ts + 1 = length vs) as HNN by lia. rewrite HNN.
  destruct (new_vec_spec s W EL (length vs) HI1) as (s2 & Hx & HI2 & Hl2 & HnE); [lia|]. rewrite (bind_ok _ _ _ _ _ Hx). clear Hx. set (v := m_fresh s) in *.
  assert (HT1 : triple (cellsf v (length vs) (fun _ => node_default)) (vec_make_node v None 0 (DPiledN v) (length ts) (nodes_f ts)) (v, 0)
            (cellsf v (length vs) (gcell v vs 1))).
  { unfold vec_make_node. apply f_get; [lia|]. cbn [node_default n_dat dat_vals]. apply t_log_nil. apply f_put; [lia|].
    apply t_retl. apply reflexive_eq, cellsf_ext. intros k Hk. unfold fupd, gcell. destruct (Nat.eqb_spec k 0) as [->|]; [|destruct (Nat.ltb_spec k 1); [lia|done]].
    simpl. unfold cell. cbn [Nat.eqb]. destruct (Nat.ltb_spec (fc vs 0) (min 1 (fc vs 1))); [simpl in *; lia|]. done. }
  edestruct (MInv_E s2 W _ _ EL _ _ HT1) as (s3 & Hx & HI3 & Hl3); [by rewrite !cellsf_fst|exact HI2|]. rewrite (bind_ok _ _ _ _ _ Hx). clear Hx.
  rewrite (bind_ok fuel _ s3 _ s3 eq_refl).
  destruct (from_bfs_loop_specL EL v vs Hw (visit_of <$> r) 1 0 (length ts) it W s3 (Datatypes.S (size (m_heap s3)))) as [[H4 Hb]|(it4 & s4 & W4 & H4 & HI4 & He4)]; [..|done| |].
  { by rewrite Hd1, list_fmap_compose. }
  { lia. } { lia. }
  { destruct r as [|y r']; [by left|]. right. assert (dgn vs 0 = length ts) as Hd0 by done. 
    assert (0 = par vs 1) as <-.
    { symmetry. apply par_uniq; [done|lia|unfold vs; simpl; lia|]. simpl. rewrite Hd0.
      assert (ts <> []); [|destruct ts; [done|simpl; lia]]. intros ->. inversion Hq. }
    split; [done|]. simpl. rewrite Hd0. lia. }
  { rewrite fmap_length. pose proof (MInv_sizeE _ _ _ HI3) as Hs. unfold cellsf in Hs. rewrite app_length, fmap_length, seq_length in Hs.
    unfold vs in Hs. simpl in Hs. rewrite fmap_length in Hs. lia. }
  { by rewrite Hl3, Hl2. }
  { left. by rewrite (bind_err _ _ _ _ H4). }
  right. rewrite (bind_ok _ _ _ _ _ H4).
  destruct (qo_rt v vs Hw _ _ Hq 1) as [Hrt Hds]; [done|lia|done|].
  assert (Hks : Forall2 rt (T v vs <$> seq 1 (length ts)) ts).
  { apply Forall2_same_length_lookup. split; [by rewrite fmap_length, seq_length|]. intros k a b Ha Hb.
    rewrite list_lookup_fmap in Ha. destruct (seq 1 (length ts) !! k) as [j|] eqn:Hj; [|done]. simpl in Ha. simplify_eq.
    apply lookup_seq in Hj as [-> Hk]. by apply Hrt. }
  assert (HT0 : T v vs 0 = AN (v, 0) true None (T v vs <$> seq 1 (length ts))) by (by rewrite (T_eq v vs 0 Hw) by lia).
  assert (Hcn : cntn (T v vs 0) = length vs) by (rewrite HT0, cntn_eq, (rts_cnts _ _ Hks); lia).
  assert (HL : lay None None None (T v vs 0) ≡ₚ cellsf v (length vs) (gcell v vs (length vs))).
  { apply T_layout; [done|lia| |done]. intros [|i] Hi; [|apply Hds; lia]. change (dsn vs 0) with (nodes_f ts). by rewrite <-(rts_cnts _ _ Hks). }
  assert (HI5 : MInvX s4 (T v vs 0 :: W4) EL).
  { eapply (MInv_adopt _ _ v (length vs)); [exact HI4|exact HnE|lia|by rewrite cellsf_fst|exact HL|]. apply (infos_T v vs Hw (length vs) 0); lia. }
  exists (T v vs 0).
  assert (HT2 : triple (lay None None None (T v vs 0)) (bind (slot v 0) (fun p => ret (p, it4))) ((v, 0), it4) (lay None None None (T v vs 0))).
  { rewrite HT0. rewrite lay_eq. unfold slot. repeat step1. apply t_retl. perm; done. }
  edestruct (MInv_triple s4 (T v vs 0 :: W4) (T v vs 0 :: W4) EL _ _ (layW W4) _ _ HT2) as (h & Hr & HI6); [done|done|done|exact HI5|].
  rewrite Hr. exists it4, (set_heap s4 h), W4. split_and!; [by rewrite aptr_T|done|by rewrite HT0| |done].
  exists v. rewrite Hcn, <-(cellsf_fst v (length vs) (gcell v vs (length vs))). rewrite <-HL. by rewrite lay_fst.
Qed.
End from.
