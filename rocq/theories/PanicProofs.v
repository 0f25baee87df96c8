(** PanicProofs.v — the memory invariant when foreign code panics. *)
From stdpp Require Import base gmap list.
From Verif Require Import Spec ClientSpec Machine NodeModel BfsModel ClientModel PanicSpec PanicModel Sep Rep NodeProofs Inv SpecProofs Abs ClientProofs FromBfs BfsBuild BfsIter BfsMut BfsMap ClientRef ClientStep.

Section loop.
Context {A : Type}.
Implicit Types (W : list (atree A)) (s : mem A) (E EL : list (ptr * node A)).

(** ** no panic *)
Definition calmed {S U} (next : S -> M A (option (visit (A:=A)) * S + U)) (it : S) : M A (option (visit (A:=A)) * S) :=
  let! r := next it in match r with inl x => ret x | inr _ => fail EPanic end.

Lemma calmed_eq {S U} (next : S -> M A (option (visit (A:=A)) * S + U)) it s :
  calmed next it s = match next it s with Ok (inl x) s1 => Ok x s1 | Ok (inr _) _ => Err EPanic | Err e => Err e end.
Proof. unfold calmed, bind. by destruct (next it s) as [[x|u] s1|e]. Qed.
Lemma pfrom_loop_fin {S U} (next : S -> M A (option (visit (A:=A)) * S + U)) f : forall v P c r it s s',
  from_bfs_loop (calmed next) f v P c r it s = Ok tt s' -> pfrom_loop next f v P c r it s = Ok (inl tt) s'.
Proof.
  induction f as [|f IH]; intros v P c r it s s'; [done|]. cbn [from_bfs_loop pfrom_loop]. unfold bind, fuel, gets. rewrite calmed_eq.
  destruct (next it s) as [[[[[[a dg] ds]|] it']|u] s1|e]; cbn [fst snd ret]; try done; [|unfold ret; by intros [= ->]].
  destruct (append_child v P c a dg ds s1) as [[] s2|e]; [|done].
  destruct (sub r 1 s2) as [r' s3|e]; [|done].
  destruct (skip_full _ v P c r' s3) as [pr s4|e]; [|done]. apply IH.
Qed.
Lemma ptree_fin {S U} (next : S -> M A (option (visit (A:=A)) * S + U)) it s p s' :
  tree_from_bfs (calmed next) it s = Ok p s' -> ptree_from_bfs next it s = Ok (inl p) s'.
Proof.
  unfold tree_from_bfs, ptree_from_bfs, bind, fuel, gets. rewrite calmed_eq.
  destruct (next it s) as [[[o it']|u] s1|e]; cbn [fst snd]; try done.
  destruct (unwrap o s1) as [[[a dg] ds] s2|e]; [|done].
  destruct (new_vec (ds + 1) s2) as [v s3|e]; [|done].
  destruct (make_piled_node v None 0 a dg ds s3) as [q s4|e]; [|done].
  destruct (from_bfs_loop _ _ v 0 1 dg it' s4) as [[] s5|e] eqn:Hl; [|done]. apply pfrom_loop_fin in Hl. rewrite Hl.
  destruct (slot v 0 s5) as [q' s6|e]; [|done]. destruct (tree_from_node q' s6) as [q'' s7|e]; [|done]. cbn. by intros [= -> ->].
Qed.
Lemma pforest_fin {S U} (next : S -> M A (option (visit (A:=A)) * S + U)) it dg ds s p s' :
  forest_from_bfs (calmed next) it dg ds s = Ok p s' -> pforest_from_bfs next it dg ds s = Ok (inl p) s'.
Proof.
  unfold forest_from_bfs, pforest_from_bfs, bind, fuel, gets.
  destruct (new_vec (ds + 1) s) as [v s3|e]; [|done].
  destruct (vec_make_node v None 0 (DPiledN v) dg ds s3) as [q s4|e]; [|done].
  destruct (from_bfs_loop _ _ v 0 1 dg it s4) as [[] s5|e] eqn:Hl; [|done]. apply pfrom_loop_fin in Hl. rewrite Hl.
  destruct (slot v 0 s5) as [q' s6|e]; [|done]. cbn. by intros [= -> ->].
Qed.

(** ** panic *)
Section panics.
Context {S U : Type} (next : S -> M A (option (visit (A:=A)) * S + U)).
(** [R it ys W]: with the live trees [W] the iterator gives [ys] and then panics; [Rpan u W l]: what it leaves, having dropped [l] *)
Context (R : S -> list (visit (A:=A)) -> list (atree A) -> Prop) (Rpan : U -> list (atree A) -> list A -> Prop).
Definition panics : Prop := forall it ys W E s, R it ys W -> MInvX s W E ->
  match ys with
  | [] => exists u s' W' l, next it s = Ok (inr u) s' /\ MInvX s' W' E /\ Rpan u W' l /\ m_log s' = m_log s ++ l
  | y :: ys' => exists it' s' W', next it s = Ok (inl (Some y, it')) s' /\ MInvX s' W' E /\ R it' ys' W' /\ m_log s' = m_log s
  end.
Hypothesis Hy : panics.

Lemma pfrom_loop_panic EL v vs : bwf vs -> forall ys tl c P r it W s f,
  drop c vs = (ovis <$> ys) ++ tl -> tl <> [] -> 1 <= c -> P = par vs c -> r = fc vs (Datatypes.S P) - c -> length ys < f ->
  R it ys W -> MInvX s W (cellsf v (length vs) (gcell v vs c) ++ EL) ->
  exists u s' W' EL' l, pfrom_loop next f v P c r it s = Ok (inr u) s' /\ MInvX s' W' EL' /\ Rpan u W' l /\ m_log s' = m_log s ++ l.
Proof.
  intros Hw. induction ys as [|[[a d] ds] ys IH]; intros tl c P r it W s f Hd Htl Hc HP Hr Hf HR HI; (destruct f as [|f]; [simpl in Hf; lia|]).
  - cbn [pfrom_loop]. unfold bind. destruct (Hy _ _ _ _ _ HR HI) as (u & s' & W' & l & -> & HI' & He & Hlog). exists u, s', W', (cellsf v (length vs) (gcell v vs c) ++ EL), l. done.
  - cbn [pfrom_loop]. unfold bind at 1. destruct (Hy _ _ _ _ _ HR HI) as (it' & s1 & W1 & -> & HI1 & HR1 & Hl1).
    rewrite fmap_cons in Hd. cbn [app] in Hd. apply drop_lookup in Hd as [Hl Hd]. pose proof (lookup_lt_Some _ _ _ Hl) as Hlt. subst P r.
    pose proof (par_spec vs c Hw Hc Hlt) as Hps. pose proof (par_lt vs c Hw Hc Hlt) as Hpl.
    unfold bind at 1. edestruct (MInv_E s1 W1 _ _ EL _ _ (append_child_spec v vs c a d ds Hw Hc Hlt Hl)) as (s2 & -> & HI2 & Hl2);
      [by rewrite !cellsf_fst|exact HI1|].
    unfold bind at 1, sub. destruct (Nat.leb_spec 1 (fc vs (Datatypes.S (par vs c)) - c)) as [_|]; [|lia]. cbn [ret].
    unfold bind at 1, fuel, gets.
    destruct (skip_full_spec v vs c (Datatypes.S (size (m_heap s2))) (par vs c) (fc vs (Datatypes.S (par vs c)) - c - 1)) as (P' & r' & HT & Hfc & Hr' & HPc & Hor); [done..| |lia|lia|].
    { pose proof (MInv_sizeE _ _ _ HI2) as Hs. unfold cellsf in Hs. rewrite app_length, fmap_length, seq_length in Hs. lia. }
    unfold bind. edestruct (MInv_E s2 W1 _ _ EL _ _ HT) as (s3 & -> & HI3 & Hl3); [done|exact HI2|]. cbn [fst snd].
    assert (Hn : Datatypes.S c < length vs).
    { apply (f_equal length) in Hd. rewrite drop_length, app_length in Hd. destruct tl; [done|]. simpl in Hd. lia. }
    destruct (IH tl (Datatypes.S c) P' r' it' W1 s3 f) as (u & s4 & W4 & EL4 & l & H4 & HI4 & He4 & Hl4); [done|done|lia| |done|simpl in Hf; lia|done|done|].
    { symmetry. apply par_uniq; [done|lia|done|]. split; [lia|].
      destruct Hor as [?| ->]; [lia|]. apply Hw in Hn. simpl in Hn |- *. lia. }
    exists u, s4, W4, EL4, l. split_and!; [done..|congruence].
Qed.

Lemma ptree_panic EL it W s (x : tree A) (r : list (tree A)) ys tl :
  qo [x] r -> visit_of <$> r = ys ++ tl -> tl <> [] -> R it ys W -> MInvX s W EL ->
  exists u s' W' EL' l, ptree_from_bfs next it s = Ok (inr u) s' /\ MInvX s' W' EL' /\ Rpan u W' l /\ m_log s' = m_log s ++ l.
Proof.
  intros Hq Hys Htl HR HI. unfold ptree_from_bfs, bind at 1. pose proof (Hy _ _ _ _ _ HR HI) as Hn. destruct ys as [|y ys].
  { destruct Hn as (u & s' & W' & l & -> & HI' & He & Hlog). exists u, s', W', EL, l. done. }
  destruct Hn as (it1 & s1 & W1 & -> & HI1 & HR1 & Hl1).
  inversion Hq as [|? ? r' Hq']; subst. rewrite fmap_cons in Hys. cbn [app] in Hys. injection Hys as <- Hys. set (vs := (ovis ∘ visit_of) <$> (x :: r')).
  assert (HN : length vs = nodes x).
  { unfold vs. rewrite fmap_length. pose proof (qo_length _ _ Hq) as Hl. unfold nodes_f in Hl. simpl in Hl |- *. lia. }
  assert (Hw : bwf vs).
  { destruct (qo_props vs _ _ Hq 0) as [H1 H2]; [done|lia|done|]. split; [|done]. intros i Hi. apply H1; [lia|done]. }
  cbn [unwrap]. unfold bind at 1, ret at 1, visit_of at 1.
  assert (nodes_f (kids x) + 1 = length vs) as HNN by (rewrite HN; destruct x; simpl; unfold nodes_f; lia). rewrite HNN.
  unfold bind at 1. destruct (new_vec_spec s1 W1 EL (length vs) HI1) as (s2 & -> & HI2 & Hl2 & HnE); [lia|]. set (v := m_fresh s1) in *.
  assert (HT1 : triple (cellsf v (length vs) (fun _ => node_default)) (make_piled_node v None 0 (root_of x) (length (kids x)) (nodes_f (kids x))) (v, 0)
            (cellsf v (length vs) (gcell v vs 1))).
  { unfold make_piled_node, vec_make_node. apply f_get; [lia|]. cbn [node_default n_dat dat_vals]. apply t_log_nil. apply f_put; [lia|].
    apply t_retl. apply reflexive_eq, cellsf_ext. intros k Hk. unfold fupd, gcell. destruct (Nat.eqb_spec k 0) as [->|]; [|destruct (Nat.ltb_spec k 1); [lia|done]].
    simpl. unfold cell. cbn [Nat.eqb]. destruct (Nat.ltb_spec (fc vs 0) (min 1 (fc vs 1))); [simpl in *; lia|]. done. }
  unfold bind at 1. edestruct (MInv_E s2 W1 _ _ EL _ _ HT1) as (s3 & -> & HI3 & Hl3); [by rewrite !cellsf_fst|exact HI2|].
  unfold bind at 1, fuel, gets.
  assert (Hrl : length ys < length r'). { apply (f_equal length) in Hys. rewrite fmap_length, app_length in Hys. destruct tl; [done|]. simpl in Hys. lia. }
  destruct r' as [|y r']; [simpl in Hrl; lia|]. assert (dgn vs 0 = length (kids x)) as Hd0 by done.
  destruct (pfrom_loop_panic EL v vs Hw ys (ovis <$> tl) 1 0 (length (kids x)) it1 W1 s3 (Datatypes.S (size (m_heap s3)))) as (u & s4 & W4 & EL4 & l & H4 & HI4 & He4 & Hl4); [..|done|done|].
  { unfold vs. rewrite fmap_cons. cbn [drop]. rewrite list_fmap_compose, Hys. by rewrite fmap_app. }
  { intros Hx. by apply fmap_nil_inv in Hx. } { lia. }
  { symmetry. apply par_uniq; [done|lia|unfold vs; simpl; lia|]. simpl. rewrite Hd0.
      assert (kids x <> []); [|destruct (kids x); [done|simpl; lia]]. intros Hk. rewrite Hk in Hq'. simpl in Hq'. inversion Hq'. }
  { simpl. rewrite Hd0. lia. }
  { pose proof (MInv_sizeE _ _ _ HI3) as Hs. unfold cellsf in Hs. rewrite app_length, fmap_length, seq_length in Hs.
    assert (length vs = Datatypes.S (Datatypes.S (length r'))) as Hvl by (unfold vs; by rewrite fmap_length). cbn [length] in Hrl. unfold visit in Hrl. lia. }
  unfold bind. rewrite H4. exists u, s4, W4, EL4, l. split_and!; [done..|congruence].
Qed.

Lemma pforest_panic EL it W s (ts r : list (tree A)) ys tl :
  qo ts r -> visit_of <$> r = ys ++ tl -> tl <> [] -> R it ys W -> MInvX s W EL ->
  exists u s' W' EL' l, pforest_from_bfs next it (length ts) (nodes_f ts) s = Ok (inr u) s' /\ MInvX s' W' EL' /\ Rpan u W' l /\ m_log s' = m_log s ++ l.
Proof.
  intros Hq Hys Htl HR HI1. set (vs := ((None, length ts, nodes_f ts) : option A * nat * nat) :: ((ovis ∘ visit_of) <$> r)).
  assert (HN : length vs = Datatypes.S (nodes_f ts)).
  { unfold vs. simpl. rewrite fmap_length. by rewrite (qo_length _ _ Hq). }
  assert (Hd1 : drop 1 vs = (ovis ∘ visit_of) <$> r) by (unfold vs; simpl; by rewrite drop_0).
  assert (Hw : bwf vs).
  { destruct (qo_props vs _ _ Hq 1) as [H1 H2]; [done|lia|done|]. split; [|done]. intros [|i] Hi; [simpl; lia|]. apply H1; [lia|done]. }
  unfold pforest_from_bfs. 
  assert (nodes_f ts + 1 = length vs) as HNN by lia. rewrite HNN.
  unfold bind at 1. destruct (new_vec_spec s W EL (length vs) HI1) as (s2 & -> & HI2 & Hl2 & HnE); [lia|]. set (v := m_fresh s) in *.
  assert (HT1 : triple (cellsf v (length vs) (fun _ => node_default)) (vec_make_node v None 0 (DPiledN v) (length ts) (nodes_f ts)) (v, 0)
            (cellsf v (length vs) (gcell v vs 1))).
  { unfold vec_make_node. apply f_get; [lia|]. cbn [node_default n_dat dat_vals]. apply t_log_nil. apply f_put; [lia|].
    apply t_retl. apply reflexive_eq, cellsf_ext. intros k Hk. unfold fupd, gcell. destruct (Nat.eqb_spec k 0) as [->|]; [|destruct (Nat.ltb_spec k 1); [lia|done]].
    simpl. unfold cell. cbn [Nat.eqb]. destruct (Nat.ltb_spec (fc vs 0) (min 1 (fc vs 1))); [simpl in *; lia|]. done. }
  unfold bind at 1. edestruct (MInv_E s2 W _ _ EL _ _ HT1) as (s3 & -> & HI3 & Hl3); [by rewrite !cellsf_fst|exact HI2|].
  unfold bind at 1, fuel, gets.
  assert (Hrl : length ys < length r). { apply (f_equal length) in Hys. rewrite fmap_length, app_length in Hys. destruct tl; [done|]. simpl in Hys. lia. }
  destruct r as [|y r']; [simpl in Hrl; lia|]. assert (dgn vs 0 = length ts) as Hd0 by done.
  destruct (pfrom_loop_panic EL v vs Hw ys (ovis <$> tl) 1 0 (length ts) it W s3 (Datatypes.S (size (m_heap s3)))) as (u & s4 & W4 & EL4 & l & H4 & HI4 & He4 & Hl4); [..|done|done|].
  { by rewrite Hd1, list_fmap_compose, Hys, fmap_app. }
  { intros Hx. by apply fmap_nil_inv in Hx. } { lia. }
  { symmetry. apply par_uniq; [done|lia|unfold vs; simpl; lia|]. simpl. rewrite Hd0.
      assert (ts <> []); [|destruct ts; [done|simpl; lia]]. intros ->. inversion Hq. }
  { simpl. rewrite Hd0. lia. }
  { pose proof (MInv_sizeE _ _ _ HI3) as Hs. unfold cellsf in Hs. rewrite app_length, fmap_length, seq_length in Hs.
    assert (length vs = Datatypes.S (Datatypes.S (length r'))) as Hvl by (unfold vs; cbn [length]; by rewrite fmap_length). cbn [length] in Hrl. unfold visit in Hrl. lia. }
  unfold bind. rewrite H4. exists u, s4, W4, EL4, l. split_and!; [done..|congruence].
Qed.
End panics.

(** ** the mapped iterators *)
Definition vdata (y : visit (A:=A)) : A := y.1.1.
Lemma MInv_log s W E l : MInvX s W E -> MInvX (Mem (m_heap s) (m_cnt s) (m_vec s) (m_fresh s) l) W E.
Proof. intros [H1 H2 H3 H4 H5 H6 H7 H8]. split; done. Qed.

Lemma pmap_calm {S} own f (next : S -> M A (option (visit (A:=A)) * S)) R Rend : yields next R Rend ->
  yields (calmed (pmap_next own f next)) (fun it ys W => exists ys0, R it.1 ys0 W /\ panics_at f it.2 (vdata <$> ys0) = None /\ ys = map_vis (calm f) it.2 ys0) Rend.
Proof.
  intros H [it hist] ys W E s (ys0 & HR & Hp & ->) HI. specialize (H it ys0 W E s HR HI). rewrite calmed_eq. unfold pmap_next, bind. cbn [fst snd] in *.
  destruct ys0 as [|[[a dg] ds] ys0]; cbn [map_vis].
  - destruct H as (it' & s' & W' & -> & ? & ? & ?). cbn. eauto 10.
  - destruct H as (it' & s' & W' & -> & ? & ? & ?). cbn. cbn in Hp. unfold calm at 1. destruct (f hist a) as [b|]; [|done]. cbn.
    eexists _, s', W'. split_and!; [done|done| |done]. exists ys0. split_and!; [done| |done]. cbn. by destruct (panics_at f (hist ++ [a]) _).
Qed.

Lemma pmap_panics {S} own olog f (next : S -> M A (option (visit (A:=A)) * S)) R Rend full K :
  (forall a s, exists s', own a s = Ok tt s' /\ m_log s' = m_log s ++ olog a /\ forall W E, MInvX s W E -> MInvX s' W E) -> yields next R Rend ->
  panics (pmap_next own f next)
    (fun it ys W => exists ys0 k n, R it.1 ys0 W /\ ys0 = drop n full /\ n + k = K /\ panics_at f it.2 (vdata <$> ys0) = Some k /\ ys = take k (map_vis (calm f) it.2 ys0))
    (fun u W l => exists y, R u (drop (Datatypes.S K) full) W /\ full !! K = Some y /\ l = olog (vdata y)).
Proof.
  intros Hown H [it hist] ys W E s (ys0 & k & n & HR & Hd & HK & Hp & ->) HI. specialize (H it ys0 W E s HR HI). unfold pmap_next, bind. cbn [fst snd] in *.
  destruct ys0 as [|[[a dg] ds] ys0]; [done|]. destruct H as (it' & s' & W' & -> & HI' & HR' & Hl'). cbn [fst snd]. cbn in Hp.
  symmetry in Hd. apply drop_lookup in Hd as [Hl Hd].
  destruct (f hist a) as [b|] eqn:Hf; cbn [map_vis]; unfold calm at 1; rewrite ?Hf.
  - destruct (panics_at f (hist ++ [a]) (vdata <$> ys0)) as [k'|] eqn:Hp'; [|done]. cbn in Hp. injection Hp as <-. cbn [take default].
    eexists _, s', W'. split_and!; [done|done| |done]. exists ys0, k', (Datatypes.S n). split_and!; [done|done|lia|done|done].
  - injection Hp as <-. cbn [take]. destruct (Hown a s') as (s2 & -> & Hl2 & HI2). eexists it', s2, W', _. split_and!; [done|by apply HI2| |by rewrite Hl2, Hl'].
    assert (n = K) as -> by lia. exists (a, dg, ds). rewrite Hd. done.
Qed.

Lemma own_ref (a : A) s : exists s', (ret tt : M A unit) s = Ok tt s' /\ m_log s' = m_log s ++ [] /\ forall W E, MInvX s W E -> MInvX s' W E.
Proof. exists s. rewrite app_nil_r. done. Qed.
Lemma own_val (a : A) s : exists s', log_drop [a] s = Ok tt s' /\ m_log s' = m_log s ++ [a] /\ forall W E, MInvX s W E -> MInvX s' W E.
Proof. eexists. split; [done|]. split; [done|]. intros W E. apply MInv_log. Qed.

Lemma bfs_rest_S n : forall (q : list (tree A)) x q', bfs_rest n q = x :: q' -> bfs_rest (Datatypes.S n) q = q' ++ kids x.
Proof.
  induction n as [|n IH]; intros q x q' H; [by simpl in H; subst q|].
  destruct q as [|t q]; [by destruct n|]. change (bfs_rest (Datatypes.S (Datatypes.S n)) (t :: q)) with (bfs_rest (Datatypes.S n) (q ++ kids t)). by apply IH.
Qed.
(** the owning iterator, with what it still holds *)
Definition Risp2 W0 (XS : list (tree A)) N (it : list ptr) (ys : list (visit (A:=A))) W : Prop :=
  exists fs xs r n, isq W0 it fs W /\ Forall2 rt (flat_map akids fs) xs /\ qo xs r /\ ys = visit_of <$> r /\ xs = bfs_rest n XS /\ n + length r = N.
Lemma isp_yields2 W0 XS N : yields isp_next (Risp2 W0 XS N) (fun W => W = W0).
Proof.
  intros it ys W E s (fs & xs & r & n & Hq & Hrt & Hqo & -> & Hxs & HN) HI. inversion Hqo as [|x q r' Hqo' Hx]; subst.
  - rewrite fmap_nil. rewrite <-H in Hrt. inversion Hrt as [Hc|]. destruct (isp_next_none _ _ _ _ _ _ Hq HI) as (s' & H1 & H2 & H3); [done|]. eauto 10.
  - rewrite <-Hx in Hrt. rewrite fmap_cons. inversion Hrt as [|k ? rest ? Hk Hrest Hc]; subst. symmetry in Hc.
    inversion Hk as [p pl a ks xs Hks]; subst.
    destruct (isp_next_some _ _ _ _ _ _ _ _ _ _ _ Hq HI Hc) as (it' & fs' & W' & s' & H1 & H2 & H3 & H4 & H5).
    exists it', s', W'. split_and!; [|done| |done].
    + rewrite H1. unfold visit_of. cbn [root_of kids]. by rewrite (Forall2_length _ _ _ Hks), (rts_cnts _ _ Hks).
    + exists fs', (q ++ xs), r', (Datatypes.S n). split_and!; [done| |done|done| |simpl; lia].
      * rewrite H4. by apply Forall2_app.
      * symmetry. by apply (bfs_rest_S _ _ (Tr a xs)).
Qed.
End loop.
