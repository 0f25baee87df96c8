(** PanicStep.v — every step of a client that catches panics keeps the memory invariant. *)
From stdpp Require Import base gmap list.
From Verif Require Import Spec ClientSpec Machine NodeModel BfsModel ClientModel PanicSpec PanicModel Sep Rep NodeProofs Inv SpecProofs Abs ClientProofs FromBfs BfsBuild BfsIter BfsMut BfsMap ClientRef ClientStep PanicProofs.

Section drop.
Context {A : Type}.
Implicit Types (W : list (atree A)) (s : mem A) (E EL : list (ptr * node A)) (t : atree A).

Lemma pdrop_node_spec k s W E p pl v : MInvX s (AN p pl v [] :: W) E ->
  exists s', pdrop_node k p s = Ok (match v with None => Some k | Some _ => match k with 0 => None | S k' => Some k' end end) s' /\ MInvX s' W E /\
    m_log s' = m_log s ++ (match v with Some a => [a] | None => [] end).
Proof.
  intros H. assert (Hget : m_heap s !! p = Some (mk None None None p pl v [])).
  { eapply MInv_lookup; [exact H|]. simpl. rewrite lay_eq. left. }
  destruct (drop_node_spec _ _ _ _ _ _ H) as (s' & Hd & HI & Hl & _). exists s'. split_and!; [|done|done].
  unfold pdrop_node, bind, get. rewrite Hget, Hd. unfold ret. f_equal. cbn [mk n_dat]. by destruct v, pl.
Qed.

Lemma pdrop_loop_spec f : forall k s W E t, cntn t <= f -> MInvX s (t :: W) E ->
  exists r s' LK, pdrop_loop f k (aptr t) s = Ok r s' /\ MInvX s' (LK ++ W) E /\ m_log s' = m_log s ++ take (S k) (apost t) /\
    r = (if decide (k < length (apost t)) then None else Some (k - length (apost t))) /\ (r <> None -> LK = []).
Proof.
  induction f as [|f IH]; intros k s W E [p pl v ks] Hf H; [rewrite cntn_eq in Hf; lia|].
  cbn [pdrop_loop aptr]. destruct ks as [|c ks].
  - unfold bind. rewrite (pop_front_root_none _ _ _ _ pl v H). destruct (pdrop_node_spec k _ _ _ _ _ _ H) as (s1 & H1 & HI & Hl). rewrite H1.
    eexists _, s1, []. split; [done|]. split; [done|]. split; [rewrite Hl; destruct v; simpl; by rewrite ?take_nil|]. split; [|done].
    destruct v, k; simpl; try done; f_equal; lia.
  - unfold bind at 1. destruct (pop_front_root_some _ _ _ _ _ _ _ _ H) as (h & -> & H1).
    rewrite cntn_eq, cnts_cons, cntn_akids in Hf.
    destruct (IH k (set_heap s h) (AN p pl v ks :: W) E c) as (r & s1 & LK & E1 & HI1 & L1 & Hr & HLK); [rewrite cntn_akids; lia|done|].
    unfold bind. rewrite E1.
    assert (Hap : apost (AN p pl v (c :: ks)) = apost c ++ apost (AN p pl v ks)) by (simpl; by rewrite app_assoc). rewrite Hap, app_length.
    destruct (decide (k < length (apost c))) as [Hlt|Hge].
    + subst r. exists None, s1, (LK ++ [AN p pl v ks]). split_and!; [done|by rewrite <-app_assoc| |by destruct (decide _); [|lia]|done].
      rewrite L1, take_app_le by lia. done.
    + subst r. rewrite HLK in HI1 by done.
      destruct (IH (k - length (apost c)) s1 W E (AN p pl v ks)) as (r & s2 & LK2 & E2 & HI2 & L2 & Hr2 & HLK2); [rewrite cntn_eq; lia|done|].
      cbn [aptr] in E2. rewrite E2. exists r, s2, LK2. split_and!; [done|done| | |done].
      * rewrite L2, L1, <-app_assoc. f_equal. rewrite take_ge by lia. rewrite take_app_ge by lia. do 2 f_equal. lia.
      * rewrite Hr2. destruct (decide _), (decide _); try lia; [done|]. f_equal. lia.
Qed.
Lemma pdrop_tree_spec k s W E t : MInvX s (t :: W) E ->
  exists r s' LK, pdrop_tree k (aptr t) s = Ok r s' /\ MInvX s' (LK ++ W) E /\ m_log s' = m_log s ++ take (S k) (apost t) /\
    r = (if decide (k < length (apost t)) then None else Some (k - length (apost t))) /\ (r <> None -> LK = []).
Proof.
  intros H. unfold pdrop_tree, bind, fuel, gets. pose proof (MInv_size _ _ _ _ H).
  destruct (pdrop_loop_spec (S (size (m_heap s))) k s W E t) as (r & s' & LK & ? & ? & ? & ? & ?); [lia|done|]. eauto 10.
Qed.
End drop.

(** only [insert] and [detach] on a node without parent panic *)
Lemma sstep_total {A} (σ : sst A) (o : op A) : sstep σ o = None ->
  (exists e h path y, o = OInsert e h path y) \/ (exists h path x, o = ODetach h path x).
Proof.
  destruct o; try (by eauto 10); intros H; exfalso; revert H; cbn [sstep]; intros H; repeat (case_match; try discriminate).
Qed.

Section pstep.
Context {A : Type}.
Implicit Types (W : list (atree A)) (s : mem A) (E EL : list (ptr * node A)) (t : atree A) (c : cst A) (σ : sst A) (Wm : gmap nat (atree A)) (it : item A).

(** the invariant, with the trees and the buffers that panics have left behind *)
Definition PInv c σ : Prop := exists F EL, @ClientRef.CInv A F EL c σ.
(** nothing is left behind if [q] *)
Definition QInv (q : Prop) F EL c σ : Prop := exists F' EL', @ClientRef.CInv A F' EL' c σ /\ (q -> F' = F /\ EL' = EL).
Definition pstep_good (o : pop A) : Prop := forall F EL c σ, @ClientRef.CInv A F EL c σ ->
  exists c', pstep c o = Done (psstep σ o).1 c' /\ QInv (quiet σ o) F EL c' (psstep σ o).2.

Lemma PInv_leak (q : Prop) F EL s env senv Wm log s' LK EL' :
  @ClientRef.REnv A F EL s env senv Wm -> MInvX s' (LK ++ @ClientRef.vals A F Wm) EL' -> m_log s' = log -> ~ q -> QInv q F EL (CSt env s') (SSt senv log).
Proof.
  intros [HI He Hr] HI' Hl Hq. exists (LK ++ F), EL'. split; [|done]. exists Wm. split; [|done]. split; [|done|done]. eapply MInv_perm; [|exact HI'].
  unfold ClientRef.vals. rewrite !app_assoc. apply Permutation_app_tail, Permutation_app_comm.
Qed.
(** taking the variable [h] out *)
Lemma PInv_out (q : Prop) F EL s env senv Wm (h : nat) t log s' LK EL' :
  @ClientRef.REnv A F EL s env senv Wm -> Wm !! h = Some t -> MInvX s' (LK ++ @ClientRef.vals A F (delete h Wm)) EL' -> m_log s' = log -> (q -> LK = [] /\ EL' = EL) ->
  QInv q F EL (CSt (delete h env) s') (SSt (delete h senv) log).
Proof.
  intros [HI He Hr] Ht HI' Hl Hq. exists (LK ++ F), EL'. split; [|intros Q; by destruct (Hq Q) as [-> ->]]. exists (delete h Wm). split; [|done]. split; cbn [c_mem c_env s_env].
  - eapply MInv_perm; [|exact HI']. unfold ClientRef.vals. rewrite !app_assoc. apply Permutation_app_tail, Permutation_app_comm.
  - by rewrite He, fmap_delete.
  - intros h'. destruct (decide (h = h')) as [->|Hne]; [rewrite !lookup_delete; constructor|by rewrite !lookup_delete_ne].
Qed.

Ltac lk HR h := let H := fresh "Hlk" in pose proof (RE_lookup _ _ _ _ h HR) as H;
  match type of H with match ?e with _ => _ end => 
    let it := fresh "it" in destruct e as [it|] eqn:?;
    [let t := fresh "t" in destruct H as (t & ? & ? & -> & ?) | destruct H as [? ->]] end.

Lemma has_parent_ins e p q s s' : (match e with Front => insert_prev_sib p q | Back => insert_next_sib p q end) s = Ok tt s' -> has_parent (A:=A) p s = Ok true s.
Proof.
  unfold insert_prev_sib, insert_next_sib, has_parent, bind, get. destruct e; destruct (m_heap s !! p) as [n|]; try done; destruct (n_up n); done.
Qed.
Lemma has_parent_det p q s s' : detach p s = Ok q s' -> has_parent (A:=A) p s = Ok true s.
Proof. unfold detach, has_parent, bind, get. destruct (m_heap s !! p) as [n|]; try done; destruct (n_up n); done. Qed.
Lemma has_parent_root s p pl v ks W E : MInvX s (AN p pl v ks :: W) E -> has_parent p s = Ok false s.
Proof. intros H. pose proof (lookup_at s [] p pl v ks W E H) as Hl. unfold has_parent, bind, get. by rewrite Hl. Qed.

(** a call that does not panic *)
Lemma pcstep_plain (env : gmap nat handle) (o : op A) s r env' s' : cstep env o s = Ok (r, env') s' -> pcstep env (POp o) s = Ok (PRet r, env') s'.
Proof.
  intros H. destruct o; cbn [pcstep]; try (by unfold bind; rewrite H).
  - cbn [cstep] in H. revert H.
    destruct (env !! y) as [[q|q]|]; try (unfold ret; by intros [= <- <- <-]).
    destruct (delete y env !! h) as [hd|]; try (unfold ret; by intros [= <- <- <-]).
    destruct (is_forest_root hd path); try (unfold ret; by intros [= <- <- <-]).
    unfold bind. destruct (resolve (addr hd) path s) as [[p|] s1|]; try (unfold ret; by intros [= <- <- <-]).
    destruct ((match e with Front => insert_prev_sib p q | Back => insert_next_sib p q end) s1) as [[] s2|] eqn:Hi; [|done].
    rewrite (has_parent_ins _ _ _ _ _ Hi), Hi. unfold ret. by intros [= <- <- <-].
  - cbn [cstep] in H. revert H.
    destruct (env !! h) as [hd|]; try (unfold ret; by intros [= <- <- <-]).
    destruct (env !! x) as [?|]; try (unfold ret; by intros [= <- <- <-]).
    destruct (is_forest_root hd path); try (unfold ret; by intros [= <- <- <-]).
    unfold bind. destruct (resolve (addr hd) path s) as [[p|] s1|]; try (unfold ret; by intros [= <- <- <-]).
    destruct (detach p s1) as [q s2|] eqn:Hi; [|done].
    rewrite (has_parent_det _ _ _ _ Hi), Hi. unfold ret. by intros [= <- <- <-].
Qed.

Lemma pstep_plain (o : op A) F EL c σ r σ' : @ClientRef.CInv A F EL c σ -> sstep σ o = Some (r, σ') -> exists c', pstep c (POp o) = Done (PRet r) c' /\ @ClientRef.CInv A F EL c' σ'.
Proof.
  intros HC Hs. pose proof (step_ok o c σ HC) as H. rewrite Hs in H. destruct H as (c' & Hc & HC').
  unfold step in Hc. destruct (cstep (c_env c) o (c_mem c)) as [[r' env'] s'|] eqn:Hcs; [|done]. injection Hc as -> <-.
  exists (CSt env' s'). split; [|done]. unfold pstep. by rewrite (pcstep_plain _ _ _ _ _ _ Hcs).
Qed.

Lemma pstep_op (o : op A) : pstep_good (POp o).
Proof.
  intros F EL c σ HC. cbn [psstep]. destruct (sstep σ o) as [[r σ']|] eqn:Hs; [destruct (pstep_plain o F EL c σ r σ' HC Hs) as (c' & H1 & H2); exists c'; split; [done|by exists F, EL]|].
  destruct HC as (Wm & HR & Hlog). destruct c as [env s], σ as [senv log]; cbn [c_env c_mem s_env s_log] in *.
  destruct (sstep_total _ _ Hs) as [(e & h & path & y & ->)|(h & path & x & ->)]; unfold pstep; cbn [sstep pcstep c_env c_mem s_env s_log] in *.
  - lk HR y; [|done]. destruct it as [ty|fy]; [|done]. rewrite H1.
    pose proof (RE_del_lookup _ _ _ _ y h HR) as Hd. destruct (delete y senv !! h) as [it|]; [|done].
    destruct Hd as (u & Hne & Hu & Hud & Hri & -> & Hhu).
    destruct (split_last path) as [[path' i]|] eqn:Hsl; [destruct (kids_at it path'); [destruct (decide _)|]; done|].
    apply split_last_none in Hsl as ->. destruct it as [x|xs]; [|done]. rewrite Hhu. cbn [is_forest_root resolve addr].
    unfold bind at 1, ret at 1. destruct u as [p pl v ks]. cbn [aptr].
    unfold bind. rewrite (has_parent_root _ _ _ _ _ _ _ (RE_inv _ _ _ _ _ _ HR Hu)).
    destruct (drop_tree_spec _ _ _ _ (RE_inv _ _ _ _ _ _ HR H)) as (s' & Hd & HI & Hl & _). rewrite Hd.
    eexists. split; [done|]. eapply (PInv_out _ _ _ _ _ _ _ _ _ _ _ [] _ HR H HI); [|done]. by rewrite Hl, Hlog, (ri_post _ _ H0).
  - lk HR h; [|done]. lk HR x; [done|].
    destruct (split_last path) as [[path' i]|] eqn:Hsl; [destruct (kids_at it path') as [ts|]; [destruct (ts !! i)|]; done|].
    apply split_last_none in Hsl as ->. destruct it as [y|ys]; [|done]. rewrite H1. cbn [is_forest_root resolve addr].
    unfold bind at 1, ret at 1. destruct t as [p pl v ks]. cbn [aptr].
    unfold bind. rewrite (has_parent_root _ _ _ _ _ _ _ (RE_inv _ _ _ _ _ _ HR H)).
    eexists. split; [done|]. exists F, EL. split; [by exists Wm|done].
Qed.

Lemma pstep_forget (h : nat) : pstep_good (PForget h).
Proof.
  intros F EL c σ (Wm & HR & Hlog). unfold quiet. destruct c as [env s], σ as [senv log]; unfold pstep; cbn [psstep pcstep c_env c_mem s_env s_log] in *.
  lk HR h.
  - eexists. split; [done|]. cbn [snd]. eapply (PInv_out _ _ _ _ _ _ _ _ _ _ _ [t] _ HR H); [by eapply RE_inv|done|congruence].
  - eexists. split; [done|]. exists F, EL. split; [by exists Wm|done].
Qed.

Lemma pstep_drop (h k : nat) : pstep_good (PDrop h k).
Proof.
  intros F EL c σ (Wm & HR & Hlog). unfold quiet. destruct c as [env s], σ as [senv log]; unfold pstep; cbn [psstep pcstep c_env c_mem s_env s_log] in *.
  lk HR h; [|eexists; split; [done|]; exists F, EL; split; [by exists Wm|done]].
  destruct (pdrop_tree_spec k _ _ _ _ (RE_inv _ _ _ _ _ _ HR H)) as (r & s' & LK & Hd & HI & Hl & Hr & HLK). unfold bind. rewrite addr_hof, Hd.
  cbn [fst snd]. rewrite (ri_post _ _ H0) in Hl, Hr. eexists. split; [subst r; by destruct (decide _)|].
  eapply (PInv_out _ _ _ _ _ _ _ _ _ _ _ LK _ HR H HI); [by rewrite Hl, Hlog|]. intros Q. split; [|done]. apply HLK. subst r. by destruct (decide _).
Qed.

Lemma pdrain_spec p pl W E ks : forall xs f k s, length ks < f -> MInvX s (AN p pl None ks :: W) E -> Forall2 rt ks xs ->
  exists r s' LK ks', pdrain f k p s = Ok r s' /\ MInvX s' (AN p pl None ks' :: LK ++ W) E /\ m_log s' ++ aposts ks' = m_log s ++ each_dropped k xs /\
    r = (if decide (k < length (postorder_f xs)) then None else Some (k - length (postorder_f xs))) /\ (r <> None -> LK = []).
Proof.
  induction ks as [|t ks IH]; intros xs f k s Hf HI Hx; (destruct f as [|f]; [simpl in Hf; lia|]); cbn [pdrain]; unfold bind at 1, into_iter_next.
  - inversion Hx; subst. rewrite (pop_front_root_none _ _ _ _ _ _ HI). exists (Some k), s, [], []. simpl. split_and!; try done. by rewrite Nat.sub_0_r.
  - inversion Hx as [|? x ? xs' Ht Hks]; subst. destruct (pop_front_root_some _ _ _ _ _ _ _ _ HI) as (h & -> & H1). unfold bind.
    destruct (pdrop_tree_spec k _ _ _ _ H1) as (r & s2 & LK & -> & H2 & Hl2 & Hr & HLK). rewrite (rt_post _ _ Ht) in Hl2, Hr.
    change (postorder_f (x :: xs')) with (postorder x ++ postorder_f xs'). rewrite app_length. cbn [each_dropped]. destruct (decide (k < length (postorder x))) as [Hk|Hk]; rewrite Hr.
    + exists None, s2, LK, ks. rewrite decide_True by lia. split_and!; [done| | |done|done].
      * eapply MInv_perm; [|exact H2]. by rewrite <-Permutation_middle.
      * rewrite Hl2, (rts_post _ _ Hks). simpl. by rewrite <-app_assoc.
    + assert (LK = []) as -> by (apply HLK; by rewrite Hr). destruct (IH xs' f (k - length (postorder x)) s2) as (r3 & s3 & LK3 & ks3 & E3 & H3 & Hl3 & Hr3 & HL3); [simpl in Hf; lia|done|done|].
      exists r3, s3, LK3, ks3. split_and!; [done|done| | |done].
      * rewrite Hl3, Hl2. rewrite take_ge by lia. simpl. by rewrite <-app_assoc.
      * rewrite Hr3. destruct (decide _), (decide _); try lia; [done|]. f_equal. lia.
Qed.
Lemma pstep_drop_iter (h k : nat) : pstep_good (PDropIter h k).
Proof.
  intros F EL c σ (Wm & HR & Hlog). unfold quiet. destruct c as [env s], σ as [senv log]; unfold pstep; cbn [psstep pcstep c_env c_mem s_env s_log] in *.
  lk HR h; [|eexists; split; [done|]; exists F, EL; split; [by exists Wm|done]]. pose proof (RE_inv _ _ _ _ _ _ HR H) as HI.
  assert (exists f fl ks s1, (match hof t with HT p => tree_into_iter p | HF p => ret p end) s = Ok f s1 /\
     MInvX s1 (AN f fl None ks :: @ClientRef.vals A F (delete h Wm)) EL /\ Forall2 rt ks (trees_of it) /\ m_log s1 = m_log s) as (f & fl & ks & s1 & H2 & HI1 & Hks & Hl1).
  { destruct it as [y|ys].
    - rewrite H1. inversion H0 as [p pl a ks xs Hks]; subst. destruct (tree_into_iter_spec _ _ _ _ _ _ _ HI) as (f & s' & H2 & H3 & H4).
      eexists f, false, _, s'. split_and!; [done|done| |done]. by repeat constructor.
    - rewrite H1. destruct t as [p pl v ks]. destruct H0 as [Hv Hks]. simpl in Hv. subst v. exists p, pl, ks, s. done. }
  unfold pinto_iter_drop. unfold bind at 1. rewrite H2.
  assert (length ks < S (size (m_heap s1))) as Hlen. { pose proof (MInv_size _ _ _ _ HI1) as Hs. rewrite cntn_eq in Hs. pose proof (length_cnts ks). lia. }
  destruct (pdrain_spec _ _ _ _ _ _ _ k _ Hlen HI1 Hks) as (r & s2 & LK & ks2 & E2 & HI2 & Hl2 & Hr & HLK).
  destruct (drop_tree_spec _ _ _ _ HI2) as (s3 & E3 & HI3 & Hl3 & _). cbn [aptr] in E3.
  unfold bind, fuel, gets. rewrite E2, E3. unfold ret. cbn [fst snd].
  assert (item_post it = postorder_f (trees_of it)) as Hpost. { destruct it; [|done]. simpl. by rewrite app_nil_r. } rewrite Hpost.
  eexists. split; [subst r; by destruct (decide _)|].
  eapply (PInv_out _ _ _ _ _ _ _ _ _ _ _ LK _ HR H HI3).
  - rewrite Hl3. change (apost (AN f fl None ks2)) with (aposts ks2 ++ []). rewrite app_nil_r, Hl2, Hl1, Hlog. done.
  - intros Q. split; [|done]. apply HLK. subst r. by destruct (decide _).
Qed.

Lemma panics_at_lt f (l : list A) : forall hist k, panics_at f hist l = Some k -> k < length l.
Proof.
  induction l as [|a l IH]; intros hist k; [done|]. simpl. destruct (f hist a); [|intros [= <-]; lia].
  destruct (panics_at f (hist ++ [a]) l) as [k'|] eqn:E; [|done]. intros [= <-]. apply IH in E. lia.
Qed.
Lemma vdata_visit (l : list (tree A)) : vdata <$> (visit_of <$> l) = root_of <$> l.
Proof. rewrite <-list_fmap_compose. by apply list_fmap_ext. Qed.
Lemma map_vis_length f (l : list (visit (A:=A))) : forall hist, length (map_vis f hist l) = length l.
Proof. induction l as [|[[a d] ds] l IH]; intros hist; [done|]. simpl. by rewrite IH. Qed.

Lemma calm_split f (l : list (visit (A:=A))) k : panics_at f [] (vdata <$> l) = Some k -> drop k (map_vis (calm f) [] l) <> [].
Proof.
  intros H. apply panics_at_lt in H. rewrite fmap_length in H. intros Hd. apply (f_equal length) in Hd. rewrite drop_length, map_vis_length in Hd. unfold visit in *. simpl in Hd. lia.
Qed.

(** building a tree from mapped visits *)
Lemma ptree_map {S} own olog f (next : S -> M A (option (visit (A:=A)) * S)) R Rend (it : S) W s EL (u : tree A) :
  (forall a s, exists s', own a s = Ok tt s' /\ m_log s' = m_log s ++ olog a /\ forall W E, MInvX s W E -> MInvX s' W E) ->
  yields next R Rend -> R it (visit_of <$> level_order u) W -> MInvX s W EL ->
  match panics_at f [] (root_of <$> level_order u) with
  | Some k => exists (it' : S) s' W' EL' y, ptree_from_bfs (pmap_next own f next) (it, []) s = Ok (inr it') s' /\ MInvX s' W' EL' /\
      R it' (drop (Datatypes.S k) (visit_of <$> level_order u)) W' /\ level_order u !! k = Some y /\ m_log s' = m_log s ++ olog (root_of y)
  | None => exists (t' : atree A) s' W', ptree_from_bfs (pmap_next own f next) (it, []) s = Ok (inl (aptr t')) s' /\ MInvX s' (t' :: W') EL /\
      rt t' (bfs_fmap (calm f) u) /\ Rend W' /\ m_log s' = m_log s
  end.
Proof.
  intros Hown Hy HR HI. set (vs := visit_of <$> level_order u) in *. pose proof (bfs_fmap_visits (calm f) u) as Hvis. fold vs in Hvis.
  rewrite <-vdata_visit. fold vs. destruct (panics_at f [] (vdata <$> vs)) as [k|] eqn:Hp.
  - destruct (ptree_panic _ _ _ (pmap_panics own olog f next R Rend vs k Hown Hy) EL (it, []) W s (bfs_fmap (calm f) u) _
       (take k (map_vis (calm f) [] vs)) (drop k (map_vis (calm f) [] vs)) (qo_level_order _)) as (it' & s' & W' & EL' & l & Hc & HI' & (y & HR' & Hk & ->) & Hl).
    + by rewrite take_drop.
    + by apply calm_split.
    + exists vs, k, 0. by split_and!.
    + done.
    + unfold vs in Hk. rewrite list_lookup_fmap in Hk. destruct (level_order u !! k) as [z|] eqn:Hz; [|done]. injection Hk as <-. exists it', s', W', EL', z. done.
  - destruct (tree_from_bfs_spec _ _ _ (pmap_calm own f next R Rend Hy) EL (it, []) W s (bfs_fmap (calm f) u) _ (qo_level_order _)) as (t' & s' & W' & Hc & HI' & Hr' & Hco & HRe & Hl).
    + exists vs. split_and!; done.
    + done.
    + exists t', s', W'. split; [by apply ptree_fin|done].
Qed.
Lemma pforest_map {S} own olog f (next : S -> M A (option (visit (A:=A)) * S)) R Rend (it : S) W s EL (us : list (tree A)) :
  (forall a s, exists s', own a s = Ok tt s' /\ m_log s' = m_log s ++ olog a /\ forall W E, MInvX s W E -> MInvX s' W E) ->
  yields next R Rend -> R it (visit_of <$> level_order_f us) W -> MInvX s W EL ->
  match panics_at f [] (root_of <$> level_order_f us) with
  | Some k => exists (it' : S) s' W' EL' y, pforest_from_bfs (pmap_next own f next) (it, []) (length us) (nodes_f us) s = Ok (inr it') s' /\ MInvX s' W' EL' /\
      R it' (drop (Datatypes.S k) (visit_of <$> level_order_f us)) W' /\ level_order_f us !! k = Some y /\ m_log s' = m_log s ++ olog (root_of y)
  | None => exists (t' : atree A) s' W', pforest_from_bfs (pmap_next own f next) (it, []) (length us) (nodes_f us) s = Ok (inl (aptr t')) s' /\ MInvX s' (t' :: W') EL /\
      ri t' (IForest (bfs_fmap_f (calm f) us)) /\ Rend W' /\ m_log s' = m_log s
  end.
Proof.
  intros Hown Hy HR HI. set (vs := visit_of <$> level_order_f us) in *. pose proof (bfs_fmap_f_visits (calm f) us) as Hvis. fold vs in Hvis.
  pose proof (bfs_fmap_f_shape (calm f) us) as Hs. 
  rewrite <-vdata_visit. fold vs. destruct (panics_at f [] (vdata <$> vs)) as [k|] eqn:Hp.
  - destruct (pforest_panic _ _ _ (pmap_panics own olog f next R Rend vs k Hown Hy) EL (it, []) W s (bfs_fmap_f (calm f) us) _
       (take k (map_vis (calm f) [] vs)) (drop k (map_vis (calm f) [] vs)) (qo_level_order_f _)) as (it' & s' & W' & EL' & l & Hc & HI' & (y & HR' & Hk & ->) & Hl).
    + by rewrite take_drop.
    + by apply calm_split.
    + exists vs, k, 0. by split_and!.
    + done.
    + rewrite (Forall2_length _ _ _ Hs), (ss_nodes_f _ _ Hs) in Hc.
      unfold vs in Hk. rewrite list_lookup_fmap in Hk. destruct (level_order_f us !! k) as [z|] eqn:Hz; [|done]. injection Hk as <-. exists it', s', W', EL', z. done.
  - destruct (forest_from_bfs_spec _ _ _ (pmap_calm own f next R Rend Hy) EL (it, []) W s (bfs_fmap_f (calm f) us) _ (qo_level_order_f _)) as (t' & s' & W' & Hc & HI' & Hr' & Hco & HRe & Hl).
    + exists vs. split_and!; done.
    + done.
    + rewrite (Forall2_length _ _ _ Hs), (ss_nodes_f _ _ Hs) in Hc. exists t', s', W'. split; [by apply pforest_fin|done].
Qed.

Lemma Rsp_W W0 (it : list citer) ys W : Rsp (A:=A) W0 it ys W -> W = W0.
Proof. intros (qs & xs & r & H). repeat match goal with H : _ /\ _ |- _ => destruct H end. done. Qed.

Lemma pstep_map_bfs (h : nat) path (x : nat) f : pstep_good (PMapBfs h path x f).
Proof.
  intros F EL c σ (Wm & HR & Hlog). unfold quiet. destruct c as [env s], σ as [senv log]; unfold pstep; cbn [psstep pcstep sstep c_env c_mem s_env s_log] in *.
  assert (Hsame : forall q, QInv q F EL (CSt env s) (SSt senv log)) by (intros q; exists F, EL; split; [by exists Wm|done]).
  lk HR h; [|eexists; split; done]. lk HR x; [eexists; split; done|].
  pose proof (RE_locate _ _ _ _ _ _ _ path HR H H0) as HL. destruct (kids_at it path) as [xs|].
  2:{ destruct HL as [Hres Hn]. rewrite Hn. destruct (is_forest_root (hof t) path); unfold bind; rewrite ?Hres; (eexists; split; done). }
  destruct HL as (C & p & pl & v & ks & -> & Haf & Hres & HI & Hks & Hset & Hn & _ & Hroot). rewrite Hn, Hroot. destruct v as [a|]; [|eexists; split; done].
  set (u := Tr a xs) in *.
  assert (Hloc : located (@ClientRef.vals A F Wm) C (AN p pl (Some a) ks)) by (eexists; symmetry; by apply vals_delete).
  assert (Hr : rt (AN p pl (Some a) ks) u) by (by constructor).
  unfold bind at 1. rewrite Hres. unfold bfs. unfold bind at 1. unfold bind at 1. unfold get. rewrite (located_get _ _ _ _ _ _ _ _ Hloc (re_inv _ _ _ _ HR)). cbn [ret fst snd].
  pose proof (Rsp_tree _ _ _ _ Hloc Hr) as HRsp. cbn [aptr] in HRsp. unfold bind.
  pose proof (ptree_map (fun _ => ret tt) (fun _ => []) f _ _ _ _ _ s EL u own_ref (sp_yields (@ClientRef.vals A F Wm)) HRsp (re_inv _ _ _ _ HR)) as HM.
  destruct (panics_at f [] (root_of <$> level_order u)) as [k|].
  - destruct HM as (it' & s' & W' & EL' & y & Hc & HI' & HR' & _ & Hl). unfold ret in Hc |- *. rewrite Hc. eexists. split; [done|]. cbn [snd].
    apply Rsp_W in HR' as ->. eapply (PInv_leak _ _ _ _ _ _ _ _ _ [] _ HR HI'); [by rewrite Hl, app_nil_r|cbn; tauto].
  - destruct HM as (t' & s' & W' & Hc & HI' & Hr' & -> & Hl). unfold ret in Hc |- *. rewrite Hc. eexists. split; [done|]. cbn [lift snd].
    exists F, EL. split; [|done]. eexists. split; [|by cbn; rewrite Hl]. cbn [c_env c_mem s_env]. rewrite <-(hof_T _ _ Hr'). by eapply RE_new.
Qed.
Lemma pstep_map_bfs_children (h : nat) path (x : nat) f : pstep_good (PMapBfsChildren h path x f).
Proof.
  intros F EL c σ (Wm & HR & Hlog). unfold quiet. destruct c as [env s], σ as [senv log]; unfold pstep; cbn [psstep pcstep sstep c_env c_mem s_env s_log] in *.
  assert (Hsame : forall q, QInv q F EL (CSt env s) (SSt senv log)) by (intros q; exists F, EL; split; [by exists Wm|done]).
  lk HR h; [|eexists; split; done]. lk HR x; [eexists; split; done|].
  pose proof (RE_locate _ _ _ _ _ _ _ path HR H H0) as HL. destruct (kids_at it path) as [xs|].
  2:{ destruct HL as [Hres _]. unfold bind; rewrite Hres. (eexists; split; done). }
  destruct HL as (C & p & pl & v & ks & -> & Haf & Hres & HI & Hks & Hset & Hn & _ & Hroot).
  assert (Hloc : located (@ClientRef.vals A F Wm) C (AN p pl v ks)) by (eexists; symmetry; by apply vals_delete).
  unfold bind at 1. rewrite Hres. unfold bfs_children.
  destruct (crel_iter _ _ _ _ _ _ _ _ Hloc (re_inv _ _ _ _ HR)) as (ci & Hit & Hcr).
  unfold bind, get. rewrite Hit, (located_get _ _ _ _ _ _ _ _ Hloc (re_inv _ _ _ _ HR)). cbn [ret fst snd mk n_deg n_desc].
  rewrite (Forall2_length _ _ _ Hks), (rts_cnts _ _ Hks).
  pose proof (Rsp_kids _ _ _ _ Hcr Hks) as HRsp.
  pose proof (pforest_map (fun _ => ret tt) (fun _ => []) f _ _ _ _ _ s EL xs own_ref (sp_yields (@ClientRef.vals A F Wm)) HRsp (re_inv _ _ _ _ HR)) as HM.
  destruct (panics_at f [] (root_of <$> level_order_f xs)) as [k|].
  - destruct HM as (it' & s' & W' & EL' & y & Hc & HI' & HR' & _ & Hl). unfold ret in Hc |- *. cbn [fst snd]. rewrite Hc. eexists. split; [done|]. cbn [snd].
    apply Rsp_W in HR' as ->. eapply (PInv_leak _ _ _ _ _ _ _ _ _ [] _ HR HI'); [by rewrite Hl, app_nil_r|cbn; tauto].
  - destruct HM as (t' & s' & W' & Hc & HI' & Hr' & -> & Hl). unfold ret in Hc |- *. cbn [fst snd]. rewrite Hc. eexists. split; [done|]. cbn [lift snd].
    exists F, EL. split; [|done]. eexists. split; [|by cbn; rewrite Hl]. cbn [c_env c_mem s_env]. rewrite <-(hof_F _ _ Hr'). by eapply RE_new.
Qed.

Lemma take1_drop {X} (l : list X) k y : l !! k = Some y -> take 1 (drop k l) = [y].
Proof. intros H. by rewrite (drop_S _ _ _ H). Qed.

Lemma pstep_map_into (h x : nat) f : pstep_good (PMapInto h x f).
Proof.
  intros F EL c σ (Wm & HR & Hlog). unfold quiet. destruct c as [env s], σ as [senv log]; unfold pstep; cbn [psstep pcstep sstep c_env c_mem s_env s_log] in *.
  assert (Hsame : forall q, QInv q F EL (CSt env s) (SSt senv log)) by (intros q; exists F, EL; split; [by exists Wm|done]).
  lk HR h; [|eexists; split; done]. lk HR x; [eexists; split; done|].
  pose proof (RE_inv _ _ _ _ _ _ HR H) as HI. set (W0 := @ClientRef.vals A F (delete h Wm)) in *.
  destruct (into_bfs_any _ _ _ _ H0 HI) as (q & fs & s1 & W1 & Hq1 & HI1 & Hq & Hrt & Hl1).
  set (N := length (item_level_order it)).
  assert (HRi : Risp2 W0 (trees_of it) N q (visit_of <$> item_level_order it) W1).
  { exists fs, (trees_of it), (item_level_order it), 0. split_and!; [done|done|apply item_qo|done|done|done]. }
  assert (Hrest : forall k (it' : list ptr) s' W' EL' y, MInvX s' W' EL' -> Risp2 W0 (trees_of it) N it' (drop (Datatypes.S k) (visit_of <$> item_level_order it)) W' ->
     item_level_order it !! k = Some y -> m_log s' = m_log s1 ++ [root_of y] ->
     exists s2, isp_drop it' s' = Ok tt s2 /\ forall Q : Prop, ~ Q -> QInv Q F EL (CSt (delete h env) s2)
       (SSt (delete h senv) (log ++ take 1 (drop k (root_of <$> item_level_order it)) ++ postorder_f (bfs_rest (Datatypes.S k) (trees_of it))))).
  { intros k it' s' W' EL' y HI' (fs' & xs & r & n & Hq' & Hrt' & Hqo & Hvr & Hxs & Hn) Hy Hl.
    destruct (isp_drop_spec _ _ _ _ _ _ Hq' HI') as (s2 & D1 & D2 & D3). exists s2. split; [done|].
    intros Q HQ. apply (PInv_out Q _ _ _ _ _ _ _ _ _ _ [] _ HR H D2); [|done].
    rewrite D3, Hl, Hl1, Hlog, (rts_post _ _ Hrt'), <-app_assoc. f_equal.
    rewrite (take1_drop _ _ (root_of y)) by (by rewrite list_lookup_fmap, Hy). f_equal. rewrite Hxs. do 2 f_equal.
    apply (f_equal length) in Hvr. rewrite drop_length, !fmap_length in Hvr. pose proof (lookup_lt_Some _ _ _ Hy). fold N in Hvr. unfold N in *. lia. }
  destruct it as [u|us]; rewrite H1 in *; unfold bind; rewrite Hq1; cbn [fst snd trees_of item_level_order] in *.
  - pose proof (ptree_map (fun a => log_drop [a]) (fun a => [a]) f _ _ _ _ _ s1 EL u own_val (isp_yields2 W0 [u] N) HRi HI1) as HM.
    destruct (panics_at f [] (root_of <$> level_order u)) as [k|].
    + destruct HM as (it' & s' & W' & EL' & y & Hc & HI' & HR' & Hy & Hl). rewrite Hc. destruct (Hrest k it' s' W' EL' y HI' HR' Hy Hl) as (s2 & Hd & HP). rewrite Hd.
      eexists. split; [done|apply HP; cbn; tauto].
    + destruct HM as (t' & s' & W' & Hc & HI' & Hr' & -> & Hl). rewrite Hc. eexists. split; [done|]. cbn [lift snd].
      exists F, EL. split; [|done]. eexists. split; [|cbn; congruence]. cbn [c_env c_mem s_env item_fmap]. rewrite <-(hof_T _ _ Hr'). by eapply RE_move.
  - pose proof (pforest_map (fun a => log_drop [a]) (fun a => [a]) f _ _ _ _ _ s1 EL us own_val (isp_yields2 W0 us N) HRi HI1) as HM.
    destruct (panics_at f [] (root_of <$> level_order_f us)) as [k|].
    + destruct HM as (it' & s' & W' & EL' & y & Hc & HI' & HR' & Hy & Hl). rewrite Hc. destruct (Hrest k it' s' W' EL' y HI' HR' Hy Hl) as (s2 & Hd & HP). rewrite Hd.
      eexists. split; [done|apply HP; cbn; tauto].
    + destruct HM as (t' & s' & W' & Hc & HI' & Hr' & -> & Hl). rewrite Hc. eexists. split; [done|]. cbn [lift snd].
      exists F, EL. split; [|done]. eexists. split; [|cbn; congruence]. cbn [c_env c_mem s_env item_fmap]. rewrite <-(hof_F _ _ Hr'). by eapply RE_move.
Qed.

Theorem pstep_ok (o : pop A) : pstep_good o.
Proof.
  destruct o.
  - apply pstep_op.
  - apply pstep_forget.
  - apply pstep_map_into.
  - apply pstep_map_bfs.
  - apply pstep_map_bfs_children.
  - apply pstep_drop.
  - apply pstep_drop_iter.
Qed.
Lemma pstep_inv (o : pop A) c σ : PInv c σ -> exists c', pstep c o = Done (psstep σ o).1 c' /\ PInv c' (psstep σ o).2.
Proof. intros (F & EL & HC). destruct (pstep_ok o F EL c σ HC) as (c' & H & F' & EL' & HC' & _). exists c'. split; [done|by exists F', EL']. Qed.
Lemma prun_ok os : forall c σ, PInv c σ -> exists c', prun c os = Done (psrun σ os).1 c' /\ PInv c' (psrun σ os).2.
Proof.
  induction os as [|o os IH]; intros c σ H; [by exists c|]. cbn [prun psrun].
  destruct (pstep_inv o c σ H) as (c1 & H1 & HC1). rewrite H1. destruct (psstep σ o) as [r σ1]. cbn [fst snd] in *.
  destruct (IH c1 σ1 HC1) as (c2 & H2 & HC2). rewrite H2. destruct (psrun σ1 os) as [rs σ2]. by exists c2.
Qed.
Lemma prun_quiet os F EL : forall c σ, quiets σ os -> @ClientRef.CInv A F EL c σ -> exists c', prun c os = Done (psrun σ os).1 c' /\ @ClientRef.CInv A F EL c' (psrun σ os).2.
Proof.
  induction os as [|o os IH]; intros c σ HF H; [by exists c|]. destruct HF as [Ho HF]. cbn [prun psrun].
  destruct (pstep_ok o F EL c σ H) as (c1 & H1 & F' & EL' & HC1 & Hq). destruct (Hq Ho) as [-> ->]. rewrite H1. destruct (psstep σ o) as [r σ1]. cbn [fst snd] in *.
  destruct (IH c1 σ1 HF HC1) as (c2 & H2 & HC2). rewrite H2. destruct (psrun σ1 os) as [rs σ2]. by exists c2.
Qed.
Lemma PInv0 : PInv cst0 sst0.
Proof. exists [], []. apply CInv0. Qed.
End pstep.
