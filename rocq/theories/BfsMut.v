(** BfsMut.v — [bfs_mut]: changing the data of the nodes in level order. *)
From stdpp Require Import base gmap list.
From Verif Require Import Spec ClientSpec Machine NodeModel BfsModel Sep Rep NodeProofs Inv ClientModel Abs ClientProofs FromBfs BfsBuild BfsIter.

(** * the specification side *)
Section spec.
Context {A : Type}.
Implicit Types (t : tree A) (ts : list (tree A)).

Lemma pmap_eq (f : list nat -> A -> A) a ts : pmap f (Tr a ts) = Tr (f [] a) (pmap_f f ts).
Proof.
  cbn [pmap]. f_equal. unfold pmap_f.
  assert (forall i, (fix go (i : nat) (ts : list (tree A)) : list (tree A) :=
                  match ts with
                  | [] => []
                  | k :: ts' => pmap (fun path => f (i :: path)) k :: go (S i) ts'
                  end) i ts = imap (fun j k => pmap (fun path => f (i + j :: path)) k) ts) as H.
  { induction ts as [|t ts IH]; intros i; [done|]. cbn [imap]. f_equal; [by rewrite Nat.add_0_r|]. rewrite IH. apply imap_ext.
    intros j k _. simpl. by rewrite <-Nat.add_succ_comm. }
  by rewrite (H 0).
Qed.

Lemma root_pmap f t : root_of (pmap f t) = f [] (root_of t).
Proof. by destruct t. Qed.
Lemma kids_pmap f t : kids (pmap f t) = pmap_f f (kids t).
Proof. destruct t. by rewrite pmap_eq. Qed.

Lemma subtree_pmap path : forall f t, subtree (pmap f t) path = pmap (fun q => f (path ++ q)) <$> subtree t path.
Proof.
  induction path as [|i path IH]; intros f t; [done|]. cbn [subtree]. rewrite kids_pmap. unfold pmap_f. rewrite list_lookup_imap.
  destruct (kids t !! i) as [k|]; [|done]. simpl. apply IH.
Qed.

Lemma ss_kids {B C} (t : tree B) (u : tree C) : same_shape t u -> Forall2 same_shape (kids t) (kids u).
Proof. by intros []. Qed.

Lemma concat_imap_ss {B C X} (F : nat -> tree B -> list X) (G : nat -> tree C -> list X) (ts : list (tree B)) (us : list (tree C)) :
  Forall2 same_shape ts us -> (forall i (t : tree B) (u : tree C), same_shape t u -> F i t = G i u) -> concat (imap F ts) = concat (imap G us).
Proof.
  intros H. revert F G. induction H as [|t u ts us Ht H IH]; intros F G HFG; [done|]. cbn [imap concat]. f_equal; [by apply HFG|].
  apply IH. intros i t' u' Hs. by apply HFG.
Qed.
Lemma ss_level_paths {B C} n : forall (t : tree B) (u : tree C), same_shape t u -> level_paths n t = level_paths n u.
Proof.
  induction n as [|n IH]; intros t u H; [done|]. cbn [level_paths]. apply concat_imap_ss; [by apply ss_kids|]. intros i t' u' Hs. by rewrite (IH _ _ Hs).
Qed.
Lemma ss_height {B C} : forall (t : tree B) (u : tree C), same_shape t u -> height t = height u.
Proof.
  intros t. induction t as [a ts IH] using tree_ind'. intros u H. inversion H as [? b ? us Hf]; subst. simpl. do 2 f_equal.
  clear H. induction Hf as [|t u ts us Ht Hf IHf]; [done|]. apply Forall_cons in IH as [IHt IH]. simpl. f_equal; [by apply IHt|by apply IHf].
Qed.
Lemma ss_heights {B C} (ts : list (tree B)) (us : list (tree C)) : Forall2 same_shape ts us -> height_f ts = height_f us.
Proof. intros H. unfold height_f. f_equal. induction H as [|t u ts us Ht Hf IH]; [done|]. simpl. by rewrite (ss_height _ _ Ht), IH. Qed.
Lemma ss_bfs_paths {B C} (t : tree B) (u : tree C) : same_shape t u -> bfs_paths t = bfs_paths u.
Proof.
  intros H. unfold bfs_paths. rewrite (ss_height _ _ H). generalize (seq 0 (height u)) as l.
  induction l as [|n l IH]; [done|]. simpl. by rewrite IH, (ss_level_paths _ _ _ H).
Qed.
Lemma ss_bfs_paths_f {B C} (ts : list (tree B)) (us : list (tree C)) : Forall2 same_shape ts us -> bfs_paths_f ts = bfs_paths_f us.
Proof.
  intros H. unfold bfs_paths_f. rewrite (ss_heights _ _ H). generalize (seq 0 (height_f us)) as l.
  induction l as [|n l IH]; [done|]. cbn [flat_map]. rewrite IH. f_equal. apply concat_imap_ss; [done|]. intros i t u Hs. by rewrite (ss_level_paths _ _ _ Hs).
Qed.

(** paths and subtrees of a level correspond *)
Definition subtree_f ts (path : list nat) : option (tree A) :=
  match path with [] => None | i :: path' => match ts !! i with Some t => subtree t path' | None => None end end.

Lemma subtree_levels n : (forall t, subtree t <$> level_paths n t = Some <$> level n t) /\
  (forall ts, subtree_f ts <$> concat (imap (fun i k => cons i <$> level_paths n k) ts) = Some <$> flat_map (level n) ts).
Proof.
  assert (Hstep : forall n, (forall t, subtree t <$> level_paths n t = Some <$> level n t) ->
     (forall ts, subtree_f ts <$> concat (imap (fun i k => cons i <$> level_paths n k) ts) = Some <$> flat_map (level n) ts)).
  { clear n. intros n Hn ts.
    assert (forall pre ts, subtree_f (pre ++ ts) <$> concat (imap (fun i k => cons (length pre + i) <$> level_paths n k) ts) = Some <$> flat_map (level n) ts) as H.
    { clear ts. intros pre ts. revert pre. induction ts as [|t ts IH]; intros pre; [done|]. cbn [imap concat flat_map]. rewrite !fmap_app. f_equal.
      - rewrite <-Hn, <-list_fmap_compose. apply list_fmap_ext. intros ? path _. simpl. rewrite lookup_app_r by lia.
        by replace (length pre + 0 - length pre) with 0 by lia.
      - specialize (IH (pre ++ [t])). rewrite <-app_assoc in IH. simpl in IH. rewrite <-IH. f_equal. f_equal. apply imap_ext.
        intros i k _. simpl. by rewrite app_length, <-Nat.add_assoc. }
    apply (H [] ts). }
  induction n as [|n [IH1 IH2]].
  - assert (forall t, subtree t <$> level_paths 0 t = Some <$> level 0 t) as H by done. split; [done|]. by apply Hstep.
  - assert (forall t, subtree t <$> level_paths (S n) t = Some <$> level (S n) t) as H.
    { intros t. cbn [level_paths level]. rewrite <-IH2. apply list_fmap_ext. intros j0 path Hp.
      apply elem_of_list_lookup_2 in Hp. apply elem_of_list_In, in_concat in Hp as (l & Hl & Hp). apply elem_of_list_In in Hl.
      apply elem_of_lookup_imap_1 in Hl as (i & k & -> & Hk). apply elem_of_list_In, elem_of_list_fmap in Hp as (path' & -> & _). done. }
    split; [done|]. by apply Hstep.
Qed.
Lemma subtree_bfs_paths t : subtree t <$> bfs_paths t = Some <$> level_order t.
Proof.
  unfold bfs_paths, level_order. generalize (seq 0 (height t)) as l. induction l as [|n l IH]; [done|]. cbn [flat_map].
  rewrite !fmap_app, IH. f_equal. apply subtree_levels.
Qed.
Lemma subtree_bfs_paths_f ts : subtree_f ts <$> bfs_paths_f ts = Some <$> level_order_f ts.
Proof.
  unfold bfs_paths_f, level_order_f. generalize (seq 0 (height_f ts)) as l. induction l as [|n l IH]; [done|]. cbn [flat_map].
  rewrite !fmap_app, IH. f_equal. apply subtree_levels.
Qed.

Lemma preorder_eq a ts : preorder (Tr a ts) = a :: flat_map preorder ts.
Proof. done. Qed.

(** every node is in the list of paths, once *)
Lemma elem_of_imap_paths n ts i path : cons i path ∈ concat (imap (fun i k => cons i <$> level_paths n k) ts) <->
  exists k, ts !! i = Some k /\ path ∈ level_paths n k.
Proof.
  assert (forall j, cons (j + i) path ∈ concat (imap (fun i k => cons (j + i) <$> level_paths n k) ts) <->
    exists k, ts !! i = Some k /\ path ∈ level_paths n k) as H; [|apply (H 0)].
  revert i. induction ts as [|t ts IH]; intros i j; cbn [imap concat].
  { rewrite elem_of_nil. split; [done|]. by intros (k & ? & _). }
  rewrite elem_of_app, elem_of_list_fmap. destruct i as [|i].
  - simpl. split.
    + intros [(y & [= Hy] & Hin)|Hin]; [subst; eauto|]. exfalso. apply elem_of_list_In, in_concat in Hin as (l & Hl & Hin). apply elem_of_list_In in Hl.
      apply elem_of_lookup_imap_1 in Hl as (i & k & -> & _). apply elem_of_list_In, elem_of_list_fmap in Hin as (y & [= He] & _). lia.
    + intros (k & [= ->] & Hk). left. exists path. by rewrite Nat.add_0_r.
  - simpl. specialize (IH i (S j)). rewrite <-Nat.add_succ_comm. split.
    + intros [(y & [= Hy] & Hin)|Hin]; [lia|]. apply IH. erewrite imap_ext; [exact Hin|]. intros i' k _. simpl. by rewrite <-Nat.add_succ_comm.
    + intros Hk. right. apply IH in Hk. erewrite imap_ext; [exact Hk|]. intros i' k _. simpl. by rewrite <-Nat.add_succ_comm.
Qed.
Lemma imap_paths_cons n ts path : path ∈ concat (imap (fun i k => cons i <$> level_paths n k) ts) -> exists i path', path = i :: path'.
Proof.
  intros Hin. apply elem_of_list_In, in_concat in Hin as (l & Hl & Hin). apply elem_of_list_In in Hl.
  apply elem_of_lookup_imap_1 in Hl as (i & k & -> & _). apply elem_of_list_In, elem_of_list_fmap in Hin as (y & -> & _). eauto.
Qed.
Lemma level_paths_elem n : forall t path, path ∈ level_paths n t <-> length path = n /\ is_Some (subtree t path).
Proof.
  induction n as [|n IH]; intros t path.
  - cbn [level_paths]. rewrite elem_of_list_singleton. split; [intros ->; eauto|]. intros [H _]. by destruct path.
  - cbn [level_paths]. split.
    + intros Hp. destruct (imap_paths_cons _ _ _ Hp) as (i & path' & ->). apply elem_of_imap_paths in Hp as (k & Hk & Hp).
      apply IH in Hp as [Hl Hs]. simpl. rewrite Hk. split; [lia|done].
    + destruct path as [|i path]; [by intros [? _]|]. simpl. intros [Hl Hs]. apply elem_of_imap_paths.
      destruct (kids t !! i) as [k|]; [|by destruct Hs]. exists k. split; [done|]. apply IH. split; [lia|done].
Qed.
Lemma list_max_lookup (l : list nat) i m : l !! i = Some m -> m <= list_max l.
Proof. revert i. induction l as [|x l IH]; intros [|i] H; simpl in *; simplify_eq; [lia|]. specialize (IH _ H). lia. Qed.
Lemma subtree_height path : forall t, is_Some (subtree t path) -> length path < height t.
Proof.
  induction path as [|i path IH]; intros [a ts] H; [simpl; lia|]. cbn [subtree kids] in H.
  destruct (ts !! i) as [k|] eqn:Hk; [|by destruct H]. apply IH in H. simpl.
  assert (height k <= list_max (map height ts)); [|lia]. eapply (list_max_lookup _ i). change (height <$> ts !! i = Some (height k)) || idtac.
  rewrite (list_lookup_fmap height ts i : map height ts !! i = _), Hk. done.
Qed.
Lemma bfs_paths_elem t path : path ∈ bfs_paths t <-> is_Some (subtree t path).
Proof.
  unfold bfs_paths. rewrite elem_of_list_In, in_flat_map. split.
  - intros (n & _ & H). apply elem_of_list_In, level_paths_elem in H. tauto.
  - intros H. exists (length path). split; [|apply elem_of_list_In, level_paths_elem; done]. apply in_seq. pose proof (subtree_height _ _ H). lia.
Qed.
Lemma bfs_paths_f_elem ts path : path ∈ bfs_paths_f ts <-> is_Some (subtree_f ts path).
Proof.
  unfold bfs_paths_f. rewrite elem_of_list_In, in_flat_map. split.
  - intros (n & _ & H). apply elem_of_list_In in H. destruct (imap_paths_cons _ _ _ H) as (i & path' & ->).
    apply elem_of_imap_paths in H as (k & Hk & H). apply level_paths_elem in H as [_ H]. simpl. by rewrite Hk.
  - destruct path as [|i path]; [by intros [? ?]|]. simpl. destruct (ts !! i) as [k|] eqn:Hk; [|by intros [? ?]]. intros H. exists (length path). split.
    + apply in_seq. pose proof (subtree_height _ _ H). unfold height_f. assert (height k <= list_max (map height ts)); [|lia].
      eapply (list_max_lookup _ i). rewrite (list_lookup_fmap height ts i : map height ts !! i = _), Hk. done.
    + apply elem_of_list_In, elem_of_imap_paths. exists k. split; [done|]. by apply level_paths_elem.
Qed.
Lemma NoDup_imap_paths n ts : Forall (fun k => NoDup (level_paths n k)) ts -> NoDup (concat (imap (fun i k => cons i <$> level_paths n k) ts)).
Proof.
  intros H. assert (forall j, NoDup (concat (imap (fun i k => cons (j + i) <$> level_paths n k) ts))) as H'; [|apply (H' 0)].
  induction H as [|k ts Hk H IH]; intros j; [constructor|]. cbn [imap concat]. apply NoDup_app. split_and!.
  - apply NoDup_fmap; [by intros ?? [= ->]|done].
  - intros path (y & -> & _)%elem_of_list_fmap Hin. apply elem_of_list_In, in_concat in Hin as (l & Hl & Hin). apply elem_of_list_In in Hl.
    apply elem_of_lookup_imap_1 in Hl as (i & k' & -> & _). apply elem_of_list_In, elem_of_list_fmap in Hin as (y' & [= He] & _). lia.
  - erewrite imap_ext; [apply (IH (S j))|]. intros i k' _. simpl. by rewrite <-Nat.add_succ_comm.
Qed.
Lemma NoDup_level_paths n : forall t, NoDup (level_paths n t).
Proof.
  induction n as [|n IH]; intros t; [apply NoDup_singleton|]. cbn [level_paths]. apply NoDup_imap_paths. apply Forall_forall. auto.
Qed.
Lemma NoDup_flat_levels (F : nat -> list (list nat)) d l : NoDup l -> (forall n, NoDup (F n)) -> (forall n path, path ∈ F n -> length path = d + n) -> NoDup (flat_map F l).
Proof.
  intros Hl HF Hlen. induction Hl as [|n l Hn Hl IH]; [constructor|]. simpl. apply NoDup_app. split_and!; [done| |done].
  intros path Hp Hin. apply elem_of_list_In, in_flat_map in Hin as (m & Hm & Hin). apply elem_of_list_In in Hin. apply Hlen in Hp. apply Hlen in Hin.
  apply Hn. apply elem_of_list_In. by replace n with m by lia.
Qed.
Lemma NoDup_bfs_paths t : NoDup (bfs_paths t).
Proof.
  apply (NoDup_flat_levels _ 0); [apply NoDup_ListNoDup, seq_NoDup|intros; apply NoDup_level_paths|]. intros n path H. by apply level_paths_elem in H as [? _].
Qed.
Lemma NoDup_bfs_paths_f ts : NoDup (bfs_paths_f ts).
Proof.
  apply (NoDup_flat_levels _ 1); [apply NoDup_ListNoDup, seq_NoDup| |].
  - intros n. apply NoDup_imap_paths, Forall_forall. intros. apply NoDup_level_paths.
  - intros n path H. destruct (imap_paths_cons _ _ _ H) as (i & path' & ->). apply elem_of_imap_paths in H as (k & _ & H).
    apply level_paths_elem in H as [? _]. simpl. lia.
Qed.
Lemma pos_lookup path l : path ∈ l -> l !! pos path l = Some path.
Proof.
  induction l as [|x l IH]; intros Hp; [by apply elem_of_nil in Hp|]. simpl. destruct (decide (x = path)) as [->|]; [done|].
  simpl. apply IH. apply elem_of_cons in Hp as [->|]; done.
Qed.
Lemma lookup_pos l i path : NoDup l -> l !! i = Some path -> pos path l = i.
Proof.
  intros HN Hi. assert (path ∈ l) as Hp by (by eapply elem_of_list_lookup_2). pose proof (pos_lookup _ _ Hp) as H.
  by eapply NoDup_lookup.
Qed.

Lemma pmap_ss f t : same_shape (pmap f t) t.
Proof.
  revert f. induction t as [a ts IH] using tree_ind'. intros f. rewrite pmap_eq. constructor. unfold pmap_f. revert f.
  induction IH as [|k ts Hk _ IHts]; intros f; [constructor|]. cbn [imap]. constructor; [apply Hk|].
  apply (IHts (fun path => match path with [] => f [] | i :: path => f (S i :: path) end)).
Qed.
Lemma pmap_f_ss f ts : Forall2 same_shape (pmap_f f ts) ts.
Proof.
  unfold pmap_f. revert f. induction ts as [|k ts IH]; intros f; [constructor|]. cbn [imap]. constructor; [apply pmap_ss|].
  apply (IH (fun path => match path with [] => f [] | i :: path => f (S i :: path) end)).
Qed.

(** the change made by [bfs_map], read off in level order *)
Lemma bfs_map_values g t : root_of <$> level_order (bfs_map g t) = imap g (root_of <$> level_order t).
Proof.
  apply list_eq. intros i. rewrite list_lookup_imap, !list_lookup_fmap.
  pose proof (subtree_bfs_paths (bfs_map g t)) as H1. pose proof (subtree_bfs_paths t) as H2.
  unfold bfs_map in H1 at 2. rewrite (ss_bfs_paths _ _ (pmap_ss _ t)) in H1.
  apply (f_equal (lookup i)) in H1, H2. rewrite !list_lookup_fmap in H1, H2.
  destruct (bfs_paths t !! i) as [path|] eqn:Hp; simpl in H1, H2.
  - destruct (level_order t !! i) as [u|]; [|done]. simpl in H2. unfold bfs_map in H1 at 1. rewrite subtree_pmap in H1. injection H2 as H2. rewrite H2 in H1. simpl in H1.
    destruct (level_order (bfs_map g t) !! i) as [u'|]; [|done]. simpl in *. injection H1 as <-. rewrite root_pmap, app_nil_r.
    by rewrite (lookup_pos _ _ _ (NoDup_bfs_paths t) Hp).
  - destruct (level_order t !! i); [done|]. by destruct (level_order (bfs_map g t) !! i).
Qed.
Lemma subtree_f_pmap f ts path : subtree_f (pmap_f f ts) path = pmap (fun q => f (path ++ q)) <$> subtree_f ts path.
Proof.
  destruct path as [|i path]; [done|]. simpl. unfold pmap_f. rewrite list_lookup_imap. destruct (ts !! i) as [k|]; [|done]. simpl. apply subtree_pmap.
Qed.
Lemma bfs_map_f_values g ts : root_of <$> level_order_f (bfs_map_f g ts) = imap g (root_of <$> level_order_f ts).
Proof.
  apply list_eq. intros i. rewrite list_lookup_imap, !list_lookup_fmap.
  pose proof (subtree_bfs_paths_f (bfs_map_f g ts)) as H1. pose proof (subtree_bfs_paths_f ts) as H2.
  unfold bfs_map_f in H1 at 2. rewrite (ss_bfs_paths_f _ _ (pmap_f_ss _ ts)) in H1.
  apply (f_equal (lookup i)) in H1, H2. rewrite !list_lookup_fmap in H1, H2.
  destruct (bfs_paths_f ts !! i) as [path|] eqn:Hp; simpl in H1, H2.
  - destruct (level_order_f ts !! i) as [u|]; [|done]. simpl in H2. unfold bfs_map_f in H1 at 1. rewrite subtree_f_pmap in H1. injection H2 as H2. rewrite H2 in H1. simpl in H1.
    destruct (level_order_f (bfs_map_f g ts) !! i) as [u'|]; [|done]. simpl in *. injection H1 as <-. rewrite root_pmap, app_nil_r.
    by rewrite (lookup_pos _ _ _ (NoDup_bfs_paths_f ts) Hp).
  - destruct (level_order_f ts !! i); [done|]. by destruct (level_order_f (bfs_map_f g ts) !! i).
Qed.
Lemma qo_preorder (q r : list (tree A)) : qo q r -> root_of <$> r ≡ₚ flat_map preorder q.
Proof.
  intros H. induction H as [|t q r H IH]; [done|]. rewrite fmap_cons, IH, flat_map_app. destruct t as [a ts]. simpl. constructor.
  apply Permutation_app_comm.
Qed.

End spec.

Section mut.
Context {A : Type}.
Implicit Types (p : ptr) (W : list (atree A)) (s : mem A) (E : list (ptr * node A)) (t k : atree A) (ks : list (atree A)) (C : ctx A) (f : ptr -> A -> A).

(** changing values by address *)
Fixpoint amap f t : atree A := let 'AN p pl v ks := t in AN p pl (f p <$> v) (map (amap f) ks).
Definition amapF f (fr : frame A) : frame A := let 'Fr p pl v L R := fr in Fr p pl (f p <$> v) (amap f <$> L) (amap f <$> R).

Lemma amap_eq f p pl v ks : amap f (AN p pl v ks) = AN p pl (f p <$> v) (amap f <$> ks).
Proof. done. Qed.
Lemma aptr_amap f t : aptr (amap f t) = aptr t.
Proof. by destruct t. Qed.
Lemma hdp_amap f ks nx : hdp (amap f <$> ks) nx = hdp ks nx.
Proof. destruct ks; [done|]. simpl. by rewrite aptr_amap. Qed.
Lemma plug_amap f C : forall t, amap f (plug C t) = plug (amapF f <$> C) (amap f t).
Proof.
  induction C as [|[p pl v L R] C IH]; intros t; [done|]. rewrite fmap_cons, !plug_cons, IH. f_equal. cbn [plug1 amapF]. rewrite amap_eq, fmap_app. done.
Qed.
Lemma next_of_amap f C : next_of (amapF f <$> C) = next_of C.
Proof. destruct C as [|[p pl v L R] C]; [done|]. simpl. apply hdp_amap. Qed.
Lemma located_amap f W C t : located W C t -> located (amap f <$> W) (amapF f <$> C) (amap f t).
Proof. intros [W' HW]. exists (amap f <$> W'). rewrite HW, fmap_cons. by rewrite plug_amap. Qed.
Lemma chain_amap f W ks : chain W ks -> chain (amap f <$> W) (amap f <$> ks).
Proof.
  intros H. induction H as [|C k ks Hl Hn H IH]; [constructor|]. rewrite fmap_cons. econstructor; [by apply located_amap| |done].
  intros Hne. rewrite next_of_amap, hdp_amap. apply Hn. by destruct ks.
Qed.
Lemma crel_amap f W it ks : crel W it ks -> crel (amap f <$> W) it (amap f <$> ks).
Proof.
  intros [Hl Hc Hch]. split; [by rewrite fmap_length| |by apply chain_amap]. rewrite hdp_amap. intros. apply Hc. by destruct ks.
Qed.
Lemma located_perm W W' C t : W ≡ₚ W' -> located W C t -> located W' C t.
Proof. intros HW [W1 H1]. exists W1. by rewrite <-HW. Qed.
Lemma crel_perm W W' it ks : W ≡ₚ W' -> crel W it ks -> crel W' it ks.
Proof.
  intros HW [Hl Hc Hch]. split; [done|done|]. clear Hl Hc. induction Hch as [|C k ks Hloc Hn H IH]; [constructor|].
  econstructor; [by eapply located_perm|done|done].
Qed.

Lemma amap_ext f g t : (forall p a, p ∈ addrs t -> f p a = g p a) -> amap f t = amap g t.
Proof.
  induction t as [p pl v ks IH] using atree_ind'. intros H. rewrite !amap_eq. f_equal.
  - destruct v; [|done]. simpl. f_equal. apply H. rewrite addrs_eq. left.
  - assert (forall q a, q ∈ addrss ks -> f q a = g q a) as H' by (intros; apply H; rewrite addrs_eq; by right). clear H.
    induction IH as [|k ks Hk _ IHks]; [done|]. rewrite !fmap_cons. f_equal.
    + apply Hk. intros q a Hq. apply H'. simpl. apply elem_of_app. by left.
    + apply IHks. intros q a Hq. apply H'. simpl. apply elem_of_app. by right.
Qed.
Lemma amap_id t : amap (fun _ a => a) t = t.
Proof.
  induction t as [p pl v ks IH] using atree_ind'. rewrite amap_eq. f_equal; [by destruct v|].
  induction IH as [|k ks Hk _ IHks]; [done|]. rewrite fmap_cons, Hk. f_equal. done.
Qed.
Lemma amap_amap f g t : amap g (amap f t) = amap (fun p a => g p (f p a)) t.
Proof.
  induction t as [p pl v ks IH] using atree_ind'. rewrite !amap_eq. f_equal; [by destruct v|].
  induction IH as [|k ks Hk _ IHks]; [done|]. rewrite !fmap_cons, Hk. f_equal. done.
Qed.
Lemma addrs_amap f t : addrs (amap f t) = addrs t.
Proof.
  induction t as [p pl v ks IH] using atree_ind'. rewrite amap_eq, !addrs_eq. f_equal. unfold addrss.
  induction IH as [|k ks Hk _ IHks]; [done|]. rewrite fmap_cons. simpl. by rewrite Hk, IHks.
Qed.
Lemma amapF_id f C : (forall p a, p ∈ addrs_ctx C -> f p a = a) -> amapF f <$> C = C.
Proof.
  induction C as [|[p pl v L R] C IH]; intros H; [done|]. rewrite fmap_cons, IH; cycle 1.
  { intros q a Hq. apply H. simpl. right. apply elem_of_app. by right. }
  f_equal. cbn [amapF].
  assert (forall ks, (forall q a, q ∈ addrss ks -> f q a = a) -> amap f <$> ks = ks) as Hks.
  { clear. induction ks as [|k ks IH]; intros H; [done|]. rewrite fmap_cons, IH.
    - f_equal. rewrite <-(amap_id k) at 2. apply amap_ext. intros q a Hq. apply H. simpl. apply elem_of_app. by left.
    - intros q a Hq. apply H. simpl. apply elem_of_app. by right. }
  rewrite !Hks.
  - f_equal. destruct v; [|done]. simpl. f_equal. apply H. simpl. left.
  - intros q a Hq. apply H. simpl. right. rewrite !elem_of_app. auto.
  - intros q a Hq. apply H. simpl. right. rewrite !elem_of_app. auto.
Qed.

Definition upd1 p (g : A -> A) : ptr -> A -> A := fun q a => if decide (q = p) then g a else a.

Lemma fmap_amap_id f W : (forall q a, q ∈ addrss W -> f q a = a) -> amap f <$> W = W.
Proof.
  induction W as [|k W IH]; intros H; [done|]. rewrite fmap_cons, IH.
  - f_equal. rewrite <-(amap_id k) at 2. apply amap_ext. intros q a Hq. apply H. simpl. apply elem_of_app. by left.
  - intros q a Hq. apply H. simpl. apply elem_of_app. by right.
Qed.

Lemma modify_amap s W E C p pl a ks g : located W C (AN p pl (Some a) ks) -> MInvX s W E ->
  exists h W', modify_data p g s = Ok tt (set_heap s h) /\ MInvX (set_heap s h) W' E /\ W' ≡ₚ amap (upd1 p g) <$> W.
Proof.
  intros [W1 HW] HI. assert (HI1 : MInvX s (plug C (AN p pl (Some a) ks) :: W1) E) by (by eapply MInv_perm).
  destruct (modify_at _ _ _ _ _ _ g _ _ HI1) as (h & Hm & HI2). eexists h, _. split_and!; [exact Hm|exact HI2|].
  pose proof (MInv_nodup _ _ _ HI1) as HN. unfold addrss in HN. simpl in HN. rewrite plug_addrs, addrs_eq in HN. simpl in HN.
  apply NoDup_cons in HN as [HN _]. rewrite !elem_of_app in HN.
  rewrite HW, fmap_cons, plug_amap, amap_eq. rewrite amapF_id; cycle 1.
  { intros q b Hq. unfold upd1. rewrite decide_False; [done|]. intros ->. tauto. }
  rewrite !fmap_amap_id; cycle 1.
  { intros q b Hq. unfold upd1. rewrite decide_False; [done|]. intros ->. tauto. }
  { intros q b Hq. unfold upd1. rewrite decide_False; [done|]. intros ->. tauto. }
  simpl. unfold upd1. by rewrite decide_True.
Qed.

(** addresses as a tree *)
Fixpoint shape t : tree ptr := let 'AN p _ _ ks := t in Tr p (map shape ks).
Lemma shape_eq p pl v ks : shape (AN p pl v ks) = Tr p (shape <$> ks).
Proof. done. Qed.
Lemma shape_amap f t : shape (amap f t) = shape t.
Proof.
  induction t as [p pl v ks IH] using atree_ind'. rewrite amap_eq, !shape_eq. f_equal.
  induction IH as [|k ks Hk _ IHks]; [done|]. rewrite !fmap_cons. by rewrite Hk, IHks.
Qed.
Lemma preorder_shape t : preorder (shape t) = addrs t.
Proof.
  induction t as [p pl v ks IH] using atree_ind'. rewrite shape_eq, addrs_eq, preorder_eq. f_equal.
  induction IH as [|k ks Hk _ IHks]; [done|]. rewrite fmap_cons. simpl. by rewrite Hk, IHks.
Qed.
Lemma preorder_shapes ks : flat_map preorder (shape <$> ks) = addrss ks.
Proof. induction ks as [|k ks IH]; [done|]. rewrite fmap_cons. simpl. by rewrite preorder_shape, IH. Qed.
Lemma rt_shape t x : rt t x -> same_shape (shape t) x.
Proof.
  revert t x. refine (rt_ind' _ _). intros p pl a ks xs Hf IH. rewrite shape_eq. constructor.
  clear Hf. induction IH; constructor; auto.
Qed.
Lemma rts_shape ks xs : Forall2 rt ks xs -> Forall2 same_shape (shape <$> ks) xs.
Proof. intros H. induction H; constructor; auto using rt_shape. Qed.

(** the data of the nodes [ps] are changed one after the other *)
Fixpoint mods (g : nat -> A -> A) (ps : list ptr) (n : nat) : ptr -> A -> A :=
  match ps with [] => fun _ a => a | p :: ps' => fun q a => mods g ps' (S n) q (upd1 p (g n) q a) end.

Lemma mods_notin g ps : forall n q a, q ∉ ps -> mods g ps n q a = a.
Proof.
  induction ps as [|p ps IH]; intros n q a Hq; [done|]. apply not_elem_of_cons in Hq as [H1 H2]. simpl.
  unfold upd1. rewrite decide_False by done. by apply IH.
Qed.
Lemma mods_lookup g ps : forall n i q a, NoDup ps -> ps !! i = Some q -> mods g ps n q a = g (n + i) a.
Proof.
  induction ps as [|p ps IH]; intros n i q a HN Hi; [done|]. apply NoDup_cons in HN as [HN1 HN2]. destruct i as [|i]; simpl in Hi.
  - simplify_eq. simpl. unfold upd1. rewrite decide_True by done. rewrite mods_notin by done. by rewrite Nat.add_0_r.
  - simpl. unfold upd1. rewrite decide_False. { rewrite (IH _ i) by done. f_equal. lia. }
    intros ->. apply HN1. by eapply elem_of_list_lookup_2.
Qed.

Definition isv t : Prop := is_Some (aval t).
Inductive allv : atree A -> Prop := AllV p pl a ks : Forall allv ks -> allv (AN p pl (Some a) ks).
Lemma rt_allv t x : rt t x -> allv t.
Proof. revert t x. refine (rt_ind' _ _). intros p pl a ks xs Hf IH. constructor. clear Hf. induction IH; constructor; auto. Qed.
Lemma rts_allv ks xs : Forall2 rt ks xs -> Forall allv ks.
Proof. intros H. induction H; constructor; eauto using rt_allv. Qed.

Lemma bfs_mut_loop_spec g W0 E : forall (r : list (tree ptr)) (us : list (atree A)) q qs W s (n f : nat) (h0 : ptr -> A -> A),
  qo (shape <$> us) r -> concat qs = amap h0 <$> us -> Forall allv us -> W ≡ₚ amap h0 <$> W0 ->
  Forall2 (crel W) q qs -> MInvX s W E -> length r < f ->
  exists s' W', bfs_mut_loop f n g q s = Ok tt s' /\ MInvX s' W' E /\ m_log s' = m_log s /\
    W' ≡ₚ amap (fun p a => mods g (root_of <$> r) n p (h0 p a)) <$> W0.
Proof.
  intros r. induction r as [|x r IH]; intros us q qs W s n f h0 Hqo Hc Hall HW Hq HI Hf; (destruct f as [|f]; [simpl in Hf; lia|]); cbn [bfs_mut_loop]; unfold bind at 1.
  - inversion Hqo as [Hus|]. symmetry in Hus. apply fmap_nil_inv in Hus as ->. rewrite (sp_next_node_none _ s _ _ Hq Hc). cbn [fst snd].
    exists s, W. split_and!; [done..|]. exact HW.
  - inversion Hqo as [|? ? ? Hqo' Hus]; subst. destruct us as [|[p pl v ks] us]; [done|]. rewrite fmap_cons in Hus. simplify_eq. rename us into us0. rename us0 into us.
    apply Forall_cons in Hall as [Ha Hall]. inversion Ha as [? ? a ? Hks]; subst.
    rewrite fmap_cons, amap_eq in Hc. cbn [fmap option_fmap option_map] in Hc.
    destruct (sp_next_node_some _ _ _ _ _ _ _ _ _ _ Hq HI Hc) as (q' & qs' & Hn & Hq' & Hc'). rewrite Hn. cbn [fst snd].
    destruct (crels_located _ _ _ (AN p pl (Some (h0 p a)) (amap h0 <$> ks)) Hq) as [C Hloc]; [rewrite Hc; left|].
    destruct (modify_amap _ _ _ _ _ _ _ _ (g n) Hloc HI) as (h & W' & Hm & HI' & HW').
    unfold bind. rewrite Hm.
    set (h1 := fun q a => upd1 p (g n) q (h0 q a)).
    assert (Hcomp : forall l : list (atree A), amap (upd1 p (g n)) <$> (amap h0 <$> l) = amap h1 <$> l).
    { intros l. rewrite <-list_fmap_compose. apply list_fmap_ext. intros ? ? _. simpl. by rewrite amap_amap. }
    destruct (IH (us ++ ks) q' (map (map (amap (upd1 p (g n)))) qs') W' (set_heap s h) (S n) f h1) as (s2 & W2 & H2 & HI2 & Hl2 & HW2); try done.
    + rewrite fmap_app. done.
    + rewrite <-Hcomp, fmap_app, <-Hc'. clear. induction qs' as [|l qs IH]; [done|]. simpl. by rewrite fmap_app, <-IH.
    + by apply Forall_app.
    + rewrite HW', HW. by rewrite Hcomp.
    + apply (Forall2_fmap_r (fmap (amap (upd1 p (g n))))). eapply Forall2_impl; [exact Hq'|]. intros it l Hr. eapply crel_perm; [symmetry; exact HW'|]. by apply crel_amap.
    + simpl in Hf. lia.
    + exists s2, W2. split_and!; [done..|]. exact HW2.
Qed.

(** pushing a change by address through the abstraction *)
Lemma rt_amap : forall t x h h', rt t x -> (forall path u a, subtree (shape t) path = Some u -> h (root_of u) a = h' path a) -> rt (amap h t) (pmap h' x).
Proof.
  intros t x h h' H. revert h'. revert t x H. refine (rt_ind' _ _). intros p pl a ks xs Hf IH h' Hh. rewrite amap_eq, pmap_eq. cbn [fmap option_fmap option_map].
  rewrite (Hh [] (shape (AN p pl (Some a) ks)) a eq_refl : h p a = h' [] a). constructor.
  assert (forall i k path u a', ks !! i = Some k -> subtree (shape k) path = Some u -> h (root_of u) a' = h' (i :: path) a') as Hk.
  { intros i k path u a' Hk Hu. apply Hh. rewrite shape_eq. cbn [subtree kids]. by rewrite list_lookup_fmap, Hk. }
  clear Hh Hf. unfold pmap_f. revert h' Hk. induction IH as [|k x ks xs Hkx _ IHf]; intros h' Hk; [constructor|].
  rewrite fmap_cons. cbn [imap]. constructor.
  - apply Hkx. intros path u a' Hu. by apply (Hk 0 k).
  - apply (IHf (fun path => match path with [] => h' [] | i :: path => h' (S i :: path) end)).
    intros i k' path u a' Hk' Hu. by apply (Hk (S i) k').
Qed.
Lemma rts_amap ks xs h h' : Forall2 rt ks xs -> (forall path u a, subtree_f (shape <$> ks) path = Some u -> h (root_of u) a = h' path a) ->
  Forall2 rt (amap h <$> ks) (pmap_f h' xs).
Proof.
  intros H Hh.
  unfold pmap_f. revert h' Hh. induction H as [|k x ks xs Hkx _ IHf]; intros h' Hk; [constructor|].
  rewrite fmap_cons. cbn [imap]. constructor.
  - apply rt_amap; [done|]. intros path u a' Hu. apply (Hk (0 :: path)). done.
  - apply (IHf (fun path => match path with [] => h' [] | i :: path => h' (S i :: path) end)).
    intros [|i path] u a' Hu; [done|]. apply (Hk (S i :: path)). done.
Qed.

Lemma mods_tree g t path u a : NoDup (addrs t) -> subtree (shape t) path = Some u ->
  mods g (root_of <$> level_order (shape t)) 0 (root_of u) a = g (pos path (bfs_paths (shape t))) a.
Proof.
  intros HN Hu. assert (path ∈ bfs_paths (shape t)) as Hp by (apply bfs_paths_elem; eauto).
  rewrite (mods_lookup _ _ _ (pos path (bfs_paths (shape t)))); [done| |].
  - rewrite (qo_preorder _ _ (qo_level_order (shape t))). simpl. by rewrite app_nil_r, preorder_shape.
  - pose proof (subtree_bfs_paths (shape t)) as H. apply (f_equal (lookup (pos path (bfs_paths (shape t))))) in H.
    rewrite !list_lookup_fmap, (pos_lookup _ _ Hp) in H. simpl in H. rewrite Hu in H.
    rewrite list_lookup_fmap. destruct (level_order (shape t) !! _) as [u'|]; [|done]. simpl in *. by simplify_eq.
Qed.
Lemma mods_forest g ks path u a : NoDup (addrss ks) -> subtree_f (shape <$> ks) path = Some u ->
  mods g (root_of <$> level_order_f (shape <$> ks)) 0 (root_of u) a = g (pos path (bfs_paths_f (shape <$> ks))) a.
Proof.
  intros HN Hu. assert (path ∈ bfs_paths_f (shape <$> ks)) as Hp by (apply bfs_paths_f_elem; eauto).
  rewrite (mods_lookup _ _ _ (pos path (bfs_paths_f (shape <$> ks)))); [done| |].
  - rewrite (qo_preorder _ _ (qo_level_order_f (shape <$> ks))). by rewrite preorder_shapes.
  - pose proof (subtree_bfs_paths_f (shape <$> ks)) as H. apply (f_equal (lookup (pos path (bfs_paths_f (shape <$> ks))))) in H.
    rewrite !list_lookup_fmap, (pos_lookup _ _ Hp) in H. simpl in H. rewrite Hu in H.
    rewrite list_lookup_fmap. destruct (level_order_f (shape <$> ks) !! _) as [u'|]; [|done]. simpl in *. by simplify_eq.
Qed.

Lemma bfs_mut_at s C p pl a ks x W E g : MInvX s (plug C (AN p pl (Some a) ks) :: W) E -> rt (AN p pl (Some a) ks) x ->
  exists s' a' ks', bfs_mut p g s = Ok tt s' /\ MInvX s' (plug C (AN p pl (Some a') ks') :: W) E /\ m_log s' = m_log s /\
    rt (AN p pl (Some a') ks') (bfs_map g x).
Proof.
  intros HI Hr. set (t := AN p pl (Some a) ks) in *. set (W0 := plug C t :: W) in *.
  assert (Hloc : located W0 C t) by (by exists W). pose proof (qo_level_order (shape t)) as Hqo.
  pose proof (qo_length _ _ Hqo) as Hlen.
  destruct (bfs_mut_loop_spec g W0 E (level_order (shape t)) [t] [ci_once p] [[t]] W0 s 0 (S (size (m_heap s))) (fun _ a => a)) as (s' & W' & Hl & HI' & Hlog & HW').
  - done.
  - cbn [concat app fmap list_fmap]. by rewrite amap_id.
  - constructor; [by eapply rt_allv|constructor].
  - rewrite fmap_amap_id; done.
  - constructor; [|constructor]. split; [done|done|by eapply chain_once].
  - done.
  - rewrite Hlen. pose proof (located_size _ _ _ _ _ Hloc HI) as Hs. rewrite <-addrs_length, <-preorder_shape in Hs.
    assert (nodes_f [shape t] = length (preorder (shape t))) as ->; [|lia].
    rewrite <-Hlen, <-(fmap_length root_of). rewrite (qo_preorder _ _ Hqo). simpl. by rewrite app_nil_r.
  - set (F := mods g (root_of <$> level_order (shape t)) 0) in *.
    pose proof (MInv_nodup _ _ _ HI) as HN. unfold W0, addrss in HN. simpl in HN. rewrite plug_addrs in HN.
    assert (HF : forall q b, q ∉ addrs t -> F q b = b).
    { intros q b Hq. apply mods_notin. rewrite (qo_preorder _ _ Hqo). cbn [flat_map]. by rewrite app_nil_r, preorder_shape. }
    apply NoDup_app in HN as (HN & HNW & _). apply NoDup_app in HN as (HNt & HNC & _).
    assert (HW2 : W' ≡ₚ plug C (amap F t) :: W).
    { rewrite HW'. unfold W0. rewrite fmap_cons. rewrite plug_amap. rewrite (amapF_id _ C), (fmap_amap_id _ W); [done| |].
      - intros q b Hq. apply HF. intros Hq'. apply (HNW q); [|done]. apply elem_of_app. by left.
      - intros q b Hq. apply HF. intros Hq'. by apply (HNC q). }
    assert (Hrt : rt (amap F t) (bfs_map g x)).
    { unfold bfs_map. rewrite <-(ss_bfs_paths _ _ (rt_shape _ _ Hr)). apply rt_amap; [done|]. intros path u b Hu. by apply mods_tree. }
    unfold t in HW2, Hrt. rewrite amap_eq in HW2, Hrt. exists s'. eexists _, _. split_and!; [|by eapply MInv_perm|done|exact Hrt].
    unfold bfs_mut, bfs, bind, get, fuel, gets. rewrite (lookup_at _ _ _ _ _ _ _ _ HI). cbn [ret fst]. by rewrite Hl.
Qed.

Lemma bfs_children_mut_at s C p pl v ks xs W E g : MInvX s (plug C (AN p pl v ks) :: W) E -> Forall2 rt ks xs ->
  exists s' ks', bfs_children_mut p g s = Ok tt s' /\ MInvX s' (plug C (AN p pl v ks') :: W) E /\ m_log s' = m_log s /\
    Forall2 rt ks' (bfs_map_f g xs).
Proof.
  intros HI Hr. set (t := AN p pl v ks) in *. set (W0 := plug C t :: W) in *.
  assert (Hloc : located W0 C t) by (by exists W). pose proof (qo_level_order_f (shape <$> ks)) as Hqo.
  pose proof (qo_length _ _ Hqo) as Hlen. destruct (crel_iter _ _ _ _ _ _ _ _ Hloc HI) as (it & Hit & Hcr).
  destruct (bfs_mut_loop_spec g W0 E (level_order_f (shape <$> ks)) ks [it] [ks] W0 s 0 (S (size (m_heap s))) (fun _ a => a)) as (s' & W' & Hl & HI' & Hlog & HW').
  - done.
  - cbn [concat]. rewrite app_nil_r. rewrite fmap_amap_id; done.
  - by eapply rts_allv.
  - rewrite fmap_amap_id; done.
  - constructor; [done|constructor].
  - done.
  - rewrite Hlen. pose proof (located_size _ _ _ _ _ Hloc HI) as Hs. unfold t in Hs. rewrite cntn_eq, <-addrss_length, <-preorder_shapes in Hs.
    assert (nodes_f (shape <$> ks) = length (flat_map preorder (shape <$> ks))) as ->; [|lia].
    rewrite <-Hlen, <-(fmap_length root_of). by rewrite (qo_preorder _ _ Hqo).
  - set (F := mods g (root_of <$> level_order_f (shape <$> ks)) 0) in *.
    pose proof (MInv_nodup _ _ _ HI) as HN. unfold W0, addrss in HN. simpl in HN. rewrite plug_addrs in HN. 
    assert (HF : forall q b, q ∉ addrss ks -> F q b = b).
    { intros q b Hq. apply mods_notin. rewrite (qo_preorder _ _ Hqo). by rewrite preorder_shapes. }
    apply NoDup_app in HN as (HN & HNW & _). apply NoDup_app in HN as (HNt & HNC & _). unfold t in HNt, HNC, HNW. rewrite addrs_eq in HNt, HNC, HNW.
    apply NoDup_cons in HNt as [Hp HNt].
    assert (HW2 : W' ≡ₚ plug C (amap F t) :: W).
    { rewrite HW'. unfold W0. rewrite fmap_cons. rewrite plug_amap. rewrite (amapF_id _ C), (fmap_amap_id _ W); [done| |].
      - intros q b Hq. apply HF. intros Hq'. apply (HNW q); [|done]. apply elem_of_app. left. by right.
      - intros q b Hq. apply HF. intros Hq'. apply (HNC q); [by right|done]. }
    assert (Hrt : Forall2 rt (amap F <$> ks) (bfs_map_f g xs)).
    { unfold bfs_map_f. rewrite <-(ss_bfs_paths_f _ _ (rts_shape _ _ Hr)). apply rts_amap; [done|]. intros path u b Hu. by apply mods_forest. }
    unfold t in HW2. rewrite amap_eq in HW2. assert (F p <$> v = v) as Hv by (destruct v; [simpl; by rewrite HF|done]). rewrite Hv in HW2.
    exists s'. eexists _. split_and!; [|by eapply MInv_perm|done|exact Hrt].
    unfold bfs_children_mut, bfs_children, bind, get, fuel, gets. rewrite Hit, (lookup_at _ _ _ _ _ _ _ _ HI). cbn [ret fst]. by rewrite Hl.
Qed.

End mut.
