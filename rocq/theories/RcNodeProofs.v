(** RcNodeProofs.v — proofs for C67. *)
From Coq Require Import Ascii String.
From stdpp Require Import base gmap list.
From Verif Require Import Spec ClientSpec RcSpec Machine NodeModel BfsModel ClientModel RcModel RcCmpModel CmpSpec CmpModel RcAllowed RcClient RcCmpClient RcNodeModel Sep Rep NodeProofs Inv Abs ClientProofs
  BfsBuild BfsIter ClientRef ClientProps ClientStep CmpProofs CmpLaws CountFrame RcRelease RcLab RcRef RcStep RcStep2 RcStep3 RcStep4 RcBorrow RcProps RcProps2 RcCmpProofs RcCmpProps.

Section hps.
Context {A : Type}.
Notation hp := (hp (A:=A)).
Ltac ind f := induction f as [|f IH]; intros; simpl; hp_solve.
Lemma hp_iter_eq eqn g : (forall p q, hp (eqn p q)) -> forall a b, hp (iter_eq eqn g a b).
Proof. intros H. ind g; first [apply H|apply IH]. Qed.
Lemma hp_node_eq_ eqA g f : forall p q, hp (node_eq_ eqA g f p q).
Proof. ind f. by apply hp_iter_eq. Qed.
Lemma hp_node_eq eqA p q : hp (node_eq eqA p q).
Proof. unfold node_eq. hp_solve. apply hp_node_eq_. Qed.
Lemma hp_iter_pcmp cn g : (forall p q, hp (cn p q)) -> forall a b, hp (iter_pcmp cn g a b).
Proof. intros H. ind g; first [apply H|apply IH]. Qed.
Lemma hp_node_pcmp_ pc g f : forall p q, hp (node_pcmp_ pc g f p q).
Proof. ind f. by apply hp_iter_pcmp. Qed.
Lemma hp_node_pcmp pc p q : hp (node_pcmp pc p q).
Proof. unfold node_pcmp. hp_solve. apply hp_node_pcmp_. Qed.
Lemma hp_iter_cmp cn g : (forall p q, hp (cn p q)) -> forall a b, hp (iter_cmp cn g a b).
Proof. intros H. ind g; first [apply H|apply IH]. Qed.
Lemma hp_node_cmp_ pc g f : forall p q, hp (node_cmp_ pc g f p q).
Proof. ind f. by apply hp_iter_cmp. Qed.
Lemma hp_node_cmp pc p q : hp (node_cmp pc p q).
Proof. unfold node_cmp. hp_solve. apply hp_node_cmp_. Qed.
Lemma hp_iter_hash {B} (hn : ptr -> M A (list B)) g : (forall p, hp (hn p)) -> forall a, hp (iter_hash hn g a).
Proof. intros H. ind g; first [apply H|apply IH]. Qed.
Lemma hp_node_hash_ {B} (h : A -> list B) g f : forall p, hp (node_hash_ h g f p).
Proof. ind f. by apply hp_iter_hash. Qed.
Lemma hp_node_hash {B} (h : A -> list B) p : hp (node_hash h p).
Proof. unfold node_hash. hp_solve. apply hp_node_hash_. Qed.
Lemma hp_iter_fmt fn g : (forall p, hp (fn p)) -> forall a, hp (iter_fmt (A:=A) fn g a).
Proof. intros H. ind g; first [apply H|apply IH]. Qed.
Lemma hp_node_fmt_ show g f : forall p, hp (node_fmt_ show g f p).
Proof. ind f. by apply hp_iter_fmt. Qed.
Lemma hp_node_fmt show p : hp (node_fmt show p).
Proof. unfold node_fmt. hp_solve. apply hp_node_fmt_. Qed.
Lemma hp_descend p path : hp (descend p path).
Proof. unfold descend. hp_solve. Qed.
Lemma hp_front_val p : hp (front_val p).  Proof. unfold front_val. hp_solve. Qed.
Lemma hp_back_val p : hp (back_val p).  Proof. unfold back_val. hp_solve. Qed.
Lemma hp_kid_vals p : hp (kid_vals p).  Proof. unfold kid_vals. hp_solve. Qed.
End hps.

Section rel.
Context {A : Type}.
Implicit Types (k : atree A) (W : list (atree A)) (s : mem A) (C : ctx A).
Lemma located_find W path : forall C k x y, located W C k -> rt k x -> subtree x path = Some y ->
  exists C' k', located W C' k' /\ rt k' y /\ forall s, MInvX s W [] -> descend (aptr k) path s = Ok (aptr k') s.
Proof.
  assert (forall C k x y, rt k x -> located W C k -> subtree x path = Some y -> exists C' k', located W C' k' /\ rt k' y /\ option_map snd (afind k path) = Some k') as Hgen.
  { induction path as [|i path IH]; intros C k x y Hr Hl Hy; cbn [subtree afind] in *.
    - injection Hy as <-. eexists _, k. split_and!; done.
    - destruct Hr as [p pl a ks xs Hf]. cbn [kids] in Hy. destruct (xs !! i) as [z|] eqn:Hz; [|done].
      destruct (Forall2_lookup_r _ _ _ _ _ Hf Hz) as (k0 & Hk & Hkz). rewrite Hk. pose proof (located_kid _ _ _ _ _ _ _ _ Hl Hk) as Hl0.
      destruct (IH _ _ _ _ Hkz Hl0 Hy) as (C' & k' & H1 & H2 & H3). exists C', k'. split_and!; [done..|]. by destruct (afind k0 path) as [[? ?]|]. }
  intros C k x y Hl Hr Hy. destruct (Hgen _ _ _ _ Hr Hl Hy) as (C' & k' & H1 & H2 & H3). exists C', k'. split_and!; [done..|].
  intros s HI. destruct (located_inv _ _ _ _ _ Hl HI) as [W' H']. unfold descend, bind. rewrite (resolve_plug _ _ _ _ _ _ H').
  destruct (afind k path) as [[C0 k0]|]; [|done]. cbn in H3. injection H3 as ->. done.
Qed.

(** the reading of [m] at a node with subtree [x] is [v] *)
Definition reads {X} (m : ptr -> M A X) (x : tree A) (v : X) : Prop :=
  (forall p, hp (m p)) /\ forall s W C k, located W C k -> rt k x -> MInvX s W [] -> m (aptr k) s = Ok v s.
Definition reads2 {X} (m : ptr -> ptr -> M A X) (x y : tree A) (v : X) : Prop :=
  (forall p q, hp (m p q)) /\ forall s W C k C' k', located W C k -> rt k x -> located W C' k' -> rt k' y -> MInvX s W [] -> m (aptr k) (aptr k') s = Ok v s.

Lemma rd_data a xs : reads data (Tr a xs) a.
Proof. split; [apply hp_data|]. intros s W C k Hl Hr HI. inversion Hr as [p pl b ks ys Hf]; subst. by apply (located_data _ _ _ _ _ _ _ _ Hl HI). Qed.
Ltac go := intros s W C k Hl Hr HI; inversion Hr as [p pl b ks ys Hf]; subst; destruct (located_inv _ _ _ _ _ Hl HI) as [W' H']; cbn [aptr].
Lemma rd_degree a xs : reads degree (Tr a xs) (length xs).
Proof. split; [apply hp_degree|]. go. rewrite (degree_at _ _ _ _ _ _ _ _ H'). by rewrite (Forall2_length _ _ _ Hf). Qed.
Lemma rd_count a xs : reads node_count (Tr a xs) (nodes (Tr a xs)).
Proof. split; [apply hp_node_count|]. go. rewrite (node_count_at _ _ _ _ _ _ _ _ H'). by rewrite (rts_cnts _ _ Hf). Qed.
Lemma rd_nochild a xs : reads has_no_child (Tr a xs) (match xs with [] => true | _ => false end).
Proof. split; [apply hp_has_no_child|]. go. rewrite (has_no_child_at _ _ _ _ _ _ _ _ H'). by destruct Hf. Qed.
Lemma rd_kids a xs : reads kid_vals (Tr a xs) (root_of <$> xs).
Proof. split; [apply hp_kid_vals|]. go. unfold kid_vals, bind. rewrite (children_at _ _ _ _ _ _ _ _ H'). by apply (datas_at _ _ _ _ _ _ _ _ _ H'). Qed.
Lemma kid_data s W C p pl v ks xs i k x : located W C (AN p pl v ks) -> MInvX s W [] -> Forall2 rt ks xs -> ks !! i = Some k -> xs !! i = Some x -> data (aptr k) s = Ok (root_of x) s.
Proof.
  intros Hl HI Hf Hk Hx. pose proof (located_kid _ _ _ _ _ _ _ _ Hl Hk) as Hl0. pose proof (Forall2_lookup_lr _ _ _ _ _ _ Hf Hk Hx) as Hr.
  destruct Hr as [q ql b us ys _]. apply (located_data _ _ _ _ _ _ _ _ Hl0 HI).
Qed.
Lemma rd_front a xs : reads front_val (Tr a xs) (root_of <$> head xs).
Proof.
  split; [apply hp_front_val|]. go. unfold front_val, bind. pose proof (end_at Front _ _ _ _ _ _ _ _ H') as He. cbn beta iota in He. rewrite He.
  destruct ks as [|k ks], xs as [|x xs]; try (by inversion Hf). unfold data_opt, bind. cbn [head fmap option_fmap option_map]. by rewrite (kid_data _ _ _ _ _ _ _ _ 0 k x Hl HI Hf).
Qed.
Lemma rd_back a xs : reads back_val (Tr a xs) (root_of <$> last xs).
Proof.
  split; [apply hp_back_val|]. go. unfold back_val, bind. pose proof (end_at Back _ _ _ _ _ _ _ _ H') as He. cbn beta iota in He. rewrite He.
  rewrite !last_lookup. pose proof (Forall2_length _ _ _ Hf) as Hlen. rewrite <-Hlen. destruct (ks !! pred (length ks)) as [k|] eqn:Hk.
  - destruct (Forall2_lookup_l _ _ _ _ _ Hf Hk) as (x & Hx & _). rewrite Hx. unfold data_opt, bind. cbn [fmap option_fmap option_map]. by rewrite (kid_data _ _ _ _ _ _ _ _ _ k x Hl HI Hf Hk Hx).
  - apply lookup_ge_None in Hk. rewrite (lookup_ge_None_2 xs) by lia. done.
Qed.
Lemma rd_bfs x : reads bfs_visits x (visit_of <$> level_order x).
Proof. split; [apply hp_bfs_visits|]. intros s W C k Hl Hr HI. by apply (bfs_visits_spec _ _ _ _ _ _ Hl Hr HI). Qed.
Lemma rd_bfs_children a xs : reads bfs_children_visits (Tr a xs) (visit_of <$> level_order_f xs).
Proof. split; [apply hp_bfs_children_visits|]. go. by apply (bfs_children_visits_spec _ _ _ _ _ _ _ _ _ Hl Hf HI). Qed.
Lemma rd_hash {B} (h : A -> list B) x : reads (node_hash h) x (flat_map h (preorder x)).
Proof. split; [apply hp_node_hash|]. intros s W C k Hl Hr HI. unfold node_hash, bind, fuel, gets. eapply node_hash_run; try done. pose proof (located_size _ _ _ _ _ Hl HI); lia. Qed.
Lemma rd_fmt show x : reads (node_fmt show) x (display show x).
Proof. split; [apply hp_node_fmt|]. intros s W C k Hl Hr HI. unfold node_fmt, bind, fuel, gets. eapply node_fmt_run; try done. pose proof (located_size _ _ _ _ _ Hl HI); lia. Qed.
Lemma rd_eq eqA x y : reads2 (node_eq eqA) x y (tree_eqb eqA x y).
Proof. split; [apply hp_node_eq|]. intros s W C k C' k' Hl Hr Hl' Hr' HI. unfold node_eq, bind, fuel, gets. eapply node_eq_run; try done. pose proof (located_size _ _ _ _ _ Hl HI); lia. Qed.
Lemma rd_pcmp pc x y : reads2 (node_pcmp pc) x y (tree_pcmp pc x y).
Proof. split; [apply hp_node_pcmp|]. intros s W C k C' k' Hl Hr Hl' Hr' HI. unfold node_pcmp, bind, fuel, gets. eapply node_pcmp_run; try done. pose proof (located_size _ _ _ _ _ Hl HI); lia. Qed.
Lemma rd_cmp cm x y : reads2 (node_cmp cm) x y (tree_cmp cm x y).
Proof. split; [apply hp_node_cmp|]. intros s W C k C' k' Hl Hr Hl' Hr' HI. unfold node_cmp, bind, fuel, gets. eapply node_cmp_run; try done. pose proof (located_size _ _ _ _ _ Hl HI); lia. Qed.

(** * In a reached state *)
Context (c : rst A) (σ : rss A) (HRc : reached c σ).
Lemma via_run {X} (m : ptr -> M A X) r t path x v : reads m x v -> handle_for c σ r t -> subtree (erase t) path = Some x ->
  via_node (r_b c) r path m (r_mem c) = if readable σ (lid t) then Ok v (r_mem c) else Err EPanic.
Proof.
  intros [Hhp Hm] Hk Hx. destruct (world c σ HRc) as (s & W & ψ & Hs & Hmem & HI & Hrd & Hw). destruct (Hw _ _ Hk) as (k & C & -> & Hkt & Hl). rewrite Hmem.
  pose proof (lrep_erase _ _ _ Hkt) as Hrt. destruct (located_find _ _ _ _ _ _ Hl Hrt Hx) as (C' & k' & Hl' & Hr' & Hd).
  unfold via_node, rc_node, bind at 1 2. destruct Hkt as [p pl a aks i ks Hi Hf]. cbn [aptr apl lid] in *.
  rewrite (borrow_run s W ψ (r_b c) (readable σ) HI Hrd _ _ _ _ _ _ _ Hl Hi). destruct (readable σ i); [|done]. unfold ret. rewrite raddr_rform.
  unfold bind. unfold addc. rewrite (hp_ok _ _ _ _ _ _ (hp_descend p path) (Hd s HI)). by rewrite (hp_ok _ _ _ _ _ _ (Hhp (aptr k')) (Hm s W C' k' Hl' Hr' HI)).
Qed.
Lemma via2_run {X} (m : ptr -> ptr -> M A X) r r' t u path path' x y v : reads2 m x y v -> handle_for c σ r t -> handle_for c σ r' u ->
  subtree (erase t) path = Some x -> subtree (erase u) path' = Some y ->
  via_nodes (r_b c) r r' path path' m (r_mem c) = if readable σ (lid t) && readable σ (lid u) then Ok v (r_mem c) else Err EPanic.
Proof.
  intros [Hhp Hm] Hk Hu Hx Hy. destruct (world c σ HRc) as (s & W & ψ & Hs & Hmem & HI & Hrd & Hw). destruct (Hw _ _ Hk) as (k & C & -> & Hkt & Hl). destruct (Hw _ _ Hu) as (k2 & C2 & -> & Hkt2 & Hl2). rewrite Hmem.
  pose proof (lrep_erase _ _ _ Hkt) as Hrt. destruct (located_find _ _ _ _ _ _ Hl Hrt Hx) as (C' & k' & Hl' & Hr' & Hd).
  pose proof (lrep_erase _ _ _ Hkt2) as Hrt2. destruct (located_find _ _ _ _ _ _ Hl2 Hrt2 Hy) as (C2' & k2' & Hl2' & Hr2' & Hd2).
  unfold via_nodes, rc_node. unfold bind at 1 2. destruct Hkt as [p pl a aks i ks Hi Hf]. destruct Hkt2 as [p2 pl2 a2 aks2 i2 ks2 Hi2 Hf2]. cbn [aptr apl lid] in *.
  rewrite (borrow_run s W ψ (r_b c) (readable σ) HI Hrd _ _ _ _ _ _ _ Hl Hi). destruct (readable σ i); [|done]. unfold ret at 1. rewrite raddr_rform. cbn [andb].
  unfold bind at 1 2. rewrite (borrow_run s W ψ (r_b c) (readable σ) HI Hrd _ _ _ _ _ _ _ Hl2 Hi2). destruct (readable σ i2); [|done]. unfold ret at 1. rewrite raddr_rform.
  unfold bind, addc. rewrite (hp_ok _ _ _ _ _ _ (hp_descend p path) (Hd s HI)), (hp_ok _ _ _ _ _ _ (hp_descend p2 path') (Hd2 s HI)).
  by rewrite (hp_ok _ _ _ _ _ _ (Hhp (aptr k') (aptr k2')) (Hm s W C' k' C2' k2' Hl' Hr' Hl2' Hr2' HI)).
Qed.
Lemma via_both {X} (m : ptr -> M A X) r t path x v : reads m x v -> handle_for c σ r t -> subtree (erase t) path = Some x ->
  (readable σ (lid t) = true -> evals c (via_node (r_b c) r path m) v) /\ (readable σ (lid t) = false -> panics c (via_node (r_b c) r path m)).
Proof. intros Hm Hk Hx. unfold evals, panics. rewrite (via_run m r t path x v Hm Hk Hx). split; by intros ->. Qed.
Lemma via2_both {X} (m : ptr -> ptr -> M A X) r r' t u path path' x y v : reads2 m x y v -> handle_for c σ r t -> handle_for c σ r' u ->
  subtree (erase t) path = Some x -> subtree (erase u) path' = Some y ->
  (readable σ (lid t) = true -> readable σ (lid u) = true -> evals c (via_nodes (r_b c) r r' path path' m) v) /\
  (readable σ (lid t) = false \/ readable σ (lid u) = false -> panics c (via_nodes (r_b c) r r' path path' m)).
Proof.
  intros Hm Hk Hu Hx Hy. unfold evals, panics. rewrite (via2_run m r r' t u path path' x y v Hm Hk Hu Hx Hy). split; [by intros -> ->|].
  intros [->| ->]; [done|]. by rewrite andb_false_r.
Qed.
End rel.

Section calls.
Context {A : Type} (c : rst A) (σ : rss A).
Local Notation thr r t path m v := ((readable σ (lid t) = true -> evals c (via_node (r_b c) r path m) v) /\ (readable σ (lid t) = false -> panics c (via_node (r_b c) r path m))) (only parsing).
Lemma call_node_read r t path (a : A) xs : reached c σ -> handle_for c σ r t -> subtree (erase t) path = Some (Tr a xs) ->
  thr r t path data a /\ thr r t path degree (length xs) /\ thr r t path node_count (nodes (Tr a xs)) /\
  thr r t path has_no_child (match xs with [] => true | _ => false end) /\ thr r t path kid_vals (root_of <$> xs) /\
  thr r t path front_val (root_of <$> head xs) /\ thr r t path back_val (root_of <$> last xs) /\
  thr r t path bfs_visits (visit_of <$> level_order (Tr a xs)) /\ thr r t path bfs_children_visits (visit_of <$> level_order_f xs) /\
  (forall H (h : A -> list H), thr r t path (node_hash h) (flat_map h (preorder (Tr a xs)))) /\ (forall show, thr r t path (node_fmt show) (display show (Tr a xs))).
Proof.
  intros HR Hk Hx.
  split; [exact (via_both c σ HR _ _ _ _ _ _ (rd_data a xs) Hk Hx)|].
  split; [exact (via_both c σ HR _ _ _ _ _ _ (rd_degree a xs) Hk Hx)|].
  split; [exact (via_both c σ HR _ _ _ _ _ _ (rd_count a xs) Hk Hx)|].
  split; [exact (via_both c σ HR _ _ _ _ _ _ (rd_nochild a xs) Hk Hx)|].
  split; [exact (via_both c σ HR _ _ _ _ _ _ (rd_kids a xs) Hk Hx)|].
  split; [exact (via_both c σ HR _ _ _ _ _ _ (rd_front a xs) Hk Hx)|].
  split; [exact (via_both c σ HR _ _ _ _ _ _ (rd_back a xs) Hk Hx)|].
  split; [exact (via_both c σ HR _ _ _ _ _ _ (rd_bfs _) Hk Hx)|].
  split; [exact (via_both c σ HR _ _ _ _ _ _ (rd_bfs_children a xs) Hk Hx)|].
  split; [intros H h; exact (via_both c σ HR _ _ _ _ _ _ (rd_hash h _) Hk Hx)|].
  intros show; exact (via_both c σ HR _ _ _ _ _ _ (rd_fmt show _) Hk Hx).
Qed.
Local Notation thr2 r r' t u path path' m v := ((readable σ (lid t) = true -> readable σ (lid u) = true -> evals c (via_nodes (r_b c) r r' path path' m) v) /\
  (readable σ (lid t) = false \/ readable σ (lid u) = false -> panics c (via_nodes (r_b c) r r' path path' m))) (only parsing).
Lemma call_node_compare r r' t u path path' (x y : tree A) : reached c σ -> handle_for c σ r t -> handle_for c σ r' u -> subtree (erase t) path = Some x -> subtree (erase u) path' = Some y ->
  (forall eqA, exists b, (b = true <-> tree_rel (fun a b => eqA a b = true) x y) /\ thr2 r r' t u path path' (node_eq eqA) b) /\
  (forall pc, thr2 r r' t u path path' (node_pcmp pc) (tree_pcmp pc x y)) /\
  (forall cm, thr2 r r' t u path path' (node_cmp cm) (tree_cmp cm x y)).
Proof.
  intros HR Hk Hu Hx Hy. split; [|split].
  - intros eqA. exists (tree_eqb eqA x y). split; [apply tree_eqb_spec|]. exact (via2_both c σ HR _ _ _ _ _ _ _ _ _ _ (rd_eq eqA x y) Hk Hu Hx Hy).
  - intros pc. exact (via2_both c σ HR _ _ _ _ _ _ _ _ _ _ (rd_pcmp pc x y) Hk Hu Hx Hy).
  - intros cm. exact (via2_both c σ HR _ _ _ _ _ _ _ _ _ _ (rd_cmp cm x y) Hk Hu Hx Hy).
Qed.
End calls.

(** * [node_mut] *)
Section mut.
Context {A : Type} (c : rst A) (σ : rss A) (HRc : reached c σ).
Implicit Types (s : mem A).
Lemma world2 : exists s W ψ Hs, r_mem c = addc Hs s /\ MInvX s W [] /\ inj ψ /\ (forall p i, ψ !! p = Some i -> bool_decide (flag (r_b c) p <> 0)%Z = negb (writable σ i)) /\
  (forall r t, handle_for c σ r t -> exists k C, r = rform (aptr k) (apl k) /\ lrep ψ k t /\ located W C k).
Proof.
  destruct (reached_RI _ _ HRc) as (Wm & SH & Hs & s & ψ & HR). exists s, ((map_to_list Wm).*2 ++ SH), ψ, Hs. split_and!.
  - apply HR. - apply (RI_minv HR). - apply (iv_id _ _ _ _ _ _ _ HR). - intros p i Hi. by apply (flag_writable HR).
  - intros r t (h & i & Hr & Hi & Hf). pose proof (RI_handle HR h) as Hh. rewrite Hi in Hh.
    destruct Hh as (p & pl & a & aks & S1 & S2 & D & L1 & L2 & C & ks & H1 & H2 & H3 & H4 & H5 & H6 & H7 & H8 & H9 & H10). rewrite H9 in Hf. injection Hf as <-. rewrite H1 in Hr. injection Hr as <-.
    exists (AN p pl (Some a) aks), D. split_and!; [done|by constructor|]. exists ((map_to_list Wm).*2 ++ S1 ++ S2). rewrite H2. solve_Permutation.
Qed.
Lemma located_lfind W ψ path : forall C k t u, located W C k -> lrep ψ k t -> lsub_at t path = Some u ->
  exists C' k', located W C' k' /\ lrep ψ k' u /\ forall s, MInvX s W [] -> descend (aptr k) path s = Ok (aptr k') s.
Proof.
  assert (forall C k t u, lrep ψ k t -> located W C k -> lsub_at t path = Some u -> exists C' k', located W C' k' /\ lrep ψ k' u /\ option_map snd (afind k path) = Some k') as Hgen.
  { induction path as [|i path IH]; intros C k t u Hr Hl Hy; cbn [lsub_at afind] in *.
    - injection Hy as <-. eexists _, k. split_and!; done.
    - destruct Hr as [p pl a aks j ks Hj Hf]. cbn [lkids] in Hy. destruct (ks !! i) as [z|] eqn:Hz; [|done].
      destruct (Forall2_lookup_r _ _ _ _ _ Hf Hz) as (k0 & Hk & Hkz). rewrite Hk. pose proof (located_kid _ _ _ _ _ _ _ _ Hl Hk) as Hl0.
      destruct (IH _ _ _ _ Hkz Hl0 Hy) as (C' & k' & H1 & H2 & H3). exists C', k'. split_and!; [done..|]. by destruct (afind k0 path) as [[? ?]|]. }
  intros C k t u Hl Hr Hy. destruct (Hgen _ _ _ _ Hr Hl Hy) as (C' & k' & H1 & H2 & H3). exists C', k'. split_and!; [done..|].
  intros s HI. destruct (located_inv _ _ _ _ _ Hl HI) as [W' H']. unfold descend, bind. rewrite (resolve_plug _ _ _ _ _ _ H').
  destruct (afind k path) as [[C0 k0]|]; [|done]. cbn in H3. injection H3 as ->. done.
Qed.
Lemma mut_run s W ψ B Hs C k t : MInvX s W [] -> located W C k -> lrep ψ k t -> (forall p i, ψ !! p = Some i -> bool_decide (flag B p <> 0)%Z = negb (writable σ i)) ->
  (node_borrow_mut B (rform (aptr k) (apl k)) : M A unit) (addc Hs s) = if writable σ (lid t) then Ok tt (addc Hs s) else Err EPanic.
Proof.
  intros HI Hl Hk Hw. destruct (located_inv _ _ _ _ _ Hl HI) as [W' H']. destruct Hk as [p pl a aks i ks Hi Hf]. cbn [aptr apl lid].
  unfold addc. rewrite (borrow_mut_eq B s C p pl a aks W' _ _ H'), (Hw _ _ Hi). by destruct (writable σ i).
Qed.
Lemma via_mut_run {X} (m : ptr -> M A X) r t path u r2 : handle_for c σ r t -> lsub_at t path = Some u -> handle_for c σ r2 u ->
  via_node_mut (r_b c) r path m (r_mem c) = if writable σ (lid t) then m (raddr r2) (r_mem c) else Err EPanic.
Proof.
  intros Hk Hx Hu. destruct world2 as (s & W & ψ & Hs & Hmem & HI & Hinj & Hwr & Hw). destruct (Hw _ _ Hk) as (k & C & -> & Hkt & Hl). destruct (Hw _ _ Hu) as (k2 & C2 & -> & Hku & Hl2). rewrite Hmem.
  destruct (located_lfind _ _ _ _ _ _ _ Hl Hkt Hx) as (C' & k' & Hl' & Hr' & Hd).
  unfold via_node_mut, rc_node_mut, bind at 1 2. rewrite (mut_run s W ψ (r_b c) Hs C k t HI Hl Hkt Hwr). destruct (writable σ (lid t)); [|done]. unfold ret.
  unfold bind. replace (raddr (rform (aptr k) (apl k))) with (aptr k) by (by rewrite raddr_rform). unfold addc. rewrite (hp_ok _ _ _ _ _ _ (hp_descend (aptr k) path) (Hd s HI)).
  replace (raddr (rform (aptr k2) (apl k2))) with (aptr k2) by (by rewrite raddr_rform). replace (aptr k') with (aptr k2); [done|].
  destruct Hr' as [p pl a aks i ks Hi Hf]. inversion Hku as [p2 pl2 a2 aks2 i2 ks2 Hi2 Hf2]; subst. cbn [aptr]. by eapply Hinj.
Qed.
Lemma safe_mut_run {X} (m : ptr -> M A X) r u : handle_for c σ r u -> writable σ (lid u) = true -> (node_borrow_mut (r_b c) r ;; m (raddr r)) (r_mem c) = m (raddr r) (r_mem c).
Proof.
  intros Hu Hwu. destruct world2 as (s & W & ψ & Hs & Hmem & HI & Hinj & Hwr & Hw). destruct (Hw _ _ Hu) as (k & C & -> & Hkt & Hl). rewrite Hmem.
  unfold bind. by rewrite (mut_run s W ψ (r_b c) Hs C k u HI Hl Hkt Hwr), Hwu.
Qed.
End mut.
Section calls_mut.
Context {A : Type} (c : rst A) (σ : rss A).
Lemma call_node_mut r t path u r2 : reached c σ -> handle_for c σ r t -> lsub_at t path = Some u -> handle_for c σ r2 u ->
  (writable σ (lid t) = false -> forall X (m : ptr -> M A X), panics c (via_node_mut (r_b c) r path m)) /\
  (writable σ (lid t) = true -> writable σ (lid u) = true ->
    (forall f, via_node_mut (r_b c) r path (fun p => modify_data p f) (r_mem c) = rc_modify (r_b c) r2 f (r_mem c)) /\
    (forall e y, via_node_mut (r_b c) r path (fun p => node_push e p y) (r_mem c) = rc_push e (r_b c) r2 y (r_mem c)) /\
    (forall e y, via_node_mut (r_b c) r path (fun p => node_concat e p y) (r_mem c) = rc_concat e (r_b c) r2 y (r_mem c)) /\
    (forall e y, via_node_mut (r_b c) r path (fun p => node_insert e p y) (r_mem c) = rc_insert e (r_b c) r2 y (r_mem c)) /\
    (forall e, (let! o := via_node_mut (r_b c) r path (node_pop e) in match o with None => ret None | Some y => let! k := rc_from y in ret (Some k) end) (r_mem c) = rc_pop e (r_b c) r2 (r_mem c))).
Proof.
  intros HR Hk Hx Hu. split; [intros Hw X m; unfold panics; by rewrite (via_mut_run c σ HR m r t path u r2 Hk Hx Hu), Hw|].
  intros Hw Hwu.
  assert (forall X (m : ptr -> M A X), via_node_mut (r_b c) r path m (r_mem c) = (node_borrow_mut (r_b c) r2 ;; m (raddr r2)) (r_mem c)) as Hg.
  { intros X m. by rewrite (via_mut_run c σ HR m r t path u r2 Hk Hx Hu), Hw, (safe_mut_run c σ HR m r2 u Hu Hwu). }
  split_and!; try (intros; apply Hg).
  intros e. unfold bind at 1. rewrite Hg. unfold rc_pop, node_pop, bind. destruct (node_borrow_mut (r_b c) r2 (r_mem c)) as [[] s|]; [|done]. by destruct e.
Qed.
End calls_mut.
