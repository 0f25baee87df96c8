(** TupleProps.v — from_tuple has the same effect as From<Bfs> on the level-order visits.  Proof side only. *)
From stdpp Require Import base gmap list.
From Verif Require Import Spec ClientSpec Machine NodeModel BfsModel Sep Rep NodeProofs Inv ClientModel Abs FromBfs BfsBuild TupleModel TupleSpec TupleProofs
  ClientProofs ClientRef ClientStep ClientRead BfsProps.

(** * the metadata *)
Section meta.
Context {A : Type}.
Implicit Types (t : tuple A) (ts : list (tuple A)).

Lemma sum_map_ext {X} (f g : X -> nat) l : Forall (fun x => f x = g x) l -> list_sum (map f l) = list_sum (map g l).
Proof. induction 1 as [|x l Hx _ IH]; [done|]. cbn [map]. change (f x + list_sum (map f l) = g x + list_sum (map g l)). congruence. Qed.
Lemma tt_size_spec t : tt_size t = (length (kids (denote t)), nodes_f (kids (denote t))).
Proof. destruct t as [a|a ts]; [done|]. unfold tt_size. rewrite tt_desc_nodes. cbn [denote kids]. by rewrite map_length. Qed.
Lemma tf_size_spec ts : tf_size ts = (length ts, nodes_f (map denote ts)).
Proof.
  unfold tf_size, nodes_f. f_equal. rewrite map_map. apply sum_map_ext. apply Forall_true. intros t.
  rewrite tt_size_spec. unfold nodes_f. cbn [snd]. destruct (denote t); simpl; lia.
Qed.
Lemma length_flat_map {X Y} (f : X -> list Y) l : length (flat_map f l) = list_sum (map (fun x => length (f x)) l).
Proof. induction l as [|x l IH]; [done|]. cbn [flat_map map]. rewrite app_length, IH. done. Qed.
Lemma tt_descendants_spec t : forall l, tt_descendants t l = length (level (S l) (denote t)).
Proof.
  induction t as [a|a ts IH] using tuple_ind'; intros l; [done|]. cbn [tt_descendants denote level kids].
  rewrite length_flat_map, map_map. destruct l as [|l].
  - cbn [level]. clear. induction ts as [|t ts IH]; [done|]. cbn [map length]. rewrite IH. done.
  - apply sum_map_ext. eapply Forall_impl; [exact IH|]. intros t Ht. apply Ht.
Qed.
Lemma tf_descendants_spec ts l : tf_descendants ts l = length (flat_map (level l) (map denote ts)).
Proof.
  unfold tf_descendants. rewrite length_flat_map, map_map. destruct l as [|l].
  - cbn [level]. clear. induction ts as [|t ts IH]; [done|]. cbn [map length]. rewrite IH. done.
  - apply sum_map_ext. apply Forall_true. intros t. apply tt_descendants_spec.
Qed.
Lemma tt_height_spec t : tt_height t = height (denote t).
Proof.
  induction t as [a|a ts IH] using tuple_ind'; [done|]. cbn [tt_height denote height]. rewrite map_map. simpl. f_equal.
  f_equal. apply map_ext_Forall. done.
Qed.
Lemma tf_height_spec ts : tf_height ts = height_f (map denote ts).
Proof. unfold tf_height, height_f. simpl. rewrite map_map. f_equal. apply map_ext_Forall, Forall_true. apply tt_height_spec. Qed.

Lemma flat_map_denote {Y} (f : tuple A -> list Y) (g : tree A -> list Y) ts :
  Forall (fun t => f t = g (denote t)) ts -> flat_map f ts = flat_map g (map denote ts).
Proof. induction 1 as [|t ts Ht _ IH]; [done|]. cbn [flat_map map]. by rewrite Ht, IH. Qed.
Lemma tt_preorder_spec t : tt_preorder t = visits_pre (denote t).
Proof.
  induction t as [a|a ts IH] using tuple_ind'; [done|]. cbn [tt_preorder denote]. apply flat_map_denote in IH. destruct ts as [|t ts]; [done|].
  cbn [length Nat.eqb]. rewrite IH. done.
Qed.
Lemma tt_preorder_hint_spec t : tt_preorder_hint t = visits_pre_sized (denote t).
Proof.
  induction t as [a|a ts IH] using tuple_ind'; [done|]. cbn [tt_preorder_hint]. apply flat_map_denote in IH. destruct ts as [|t ts]; [done|].
  rewrite tt_size_spec, IH. cbn [fst denote map kids length Nat.eqb]. done.
Qed.
Lemma tt_postorder_spec t : tt_postorder t = visits_post (denote t).
Proof.
  induction t as [a|a ts IH] using tuple_ind'; [done|]. cbn [tt_postorder denote]. apply flat_map_denote in IH. destruct ts as [|t ts]; [done|].
  cbn [length Nat.eqb]. rewrite IH. done.
Qed.
Lemma tt_postorder_hint_spec t : tt_postorder_hint t = visits_pre_sized (denote t).
Proof.
  induction t as [a|a ts IH] using tuple_ind'; [done|]. cbn [tt_postorder_hint]. apply flat_map_denote in IH. destruct ts as [|t ts]; [done|].
  rewrite tt_size_spec, IH. cbn [fst denote map kids length Nat.eqb]. done.
Qed.
Lemma tf_visits {Y} (f : tuple A -> list Y) (g : tree A -> list Y) ts : (forall t, f t = g (denote t)) ->
  flat_map f ts = flat_map g (map denote ts).
Proof. intros H. apply flat_map_denote. by apply Forall_true. Qed.
End meta.

Section same.
Context {A : Type}.
Implicit Types (t : tuple A) (ts : list (tuple A)).
Notation vis := (option A * nat * nat)%type.

Lemma triple_det {X} l (m m' : M A X) x l' s F : triple l m x l' -> triple l m' x l' -> HP (l ++ F) s -> m s = m' s.
Proof.
  intros H1 H2 HH. destruct (H1 _ _ HH) as (h1 & E1 & [_ Q1]), (H2 _ _ HH) as (h2 & E2 & [_ Q2]). simpl in *. congruence.
Qed.

(** the loop of From<Bfs> over a list of visits *)
Lemma list_loop v (vs : list vis) : bwf vs -> forall ys c P r f,
  drop c vs = ovis <$> ys -> 1 <= c -> c <= length vs -> (ys = [] \/ (P = par vs c /\ r = fc vs (S P) - c)) -> length ys < f ->
  triple (cellsf v (length vs) (gcell v vs c)) (from_bfs_loop list_next f v P c r ys) tt (cellsf v (length vs) (gcell v vs (length vs))).
Proof.
  intros Hw. induction ys as [|[[a d] ds] ys IH]; intros c P r f Hd Hc HcN HP Hf; (destruct f as [|f]; [simpl in Hf; lia|]).
  - assert (c = length vs) as ->. { apply (f_equal length) in Hd. rewrite drop_length in Hd. simpl in Hd. lia. }
    cbn [from_bfs_loop list_next]. step1. apply triple_ret.
  - cbn [from_bfs_loop list_next]. step1. cbn [fst snd].
    rewrite fmap_cons in Hd. apply drop_lookup in Hd as [Hl Hd]. pose proof (lookup_lt_Some _ _ _ Hl) as Hlt.
    destruct HP as [?|[-> ->]]; [done|]. pose proof (par_spec vs c Hw Hc Hlt) as Hps. pose proof (par_lt vs c Hw Hc Hlt) as Hpl.
    eapply triple_bind; [apply (append_child_spec v vs c a d ds Hw Hc Hlt Hl)|].
    eapply triple_bind; [apply triple_sub; lia|].
    apply triple_fuel. intros g Hg. unfold cellsf in Hg. rewrite fmap_length, seq_length in Hg.
    destruct (skip_full_spec v vs c g (par vs c) (fc vs (S (par vs c)) - c - 1)) as (P' & r' & HT & Hfc & Hr' & HPc & Hor); [done..|lia|lia|lia|].
    eapply triple_bind; [exact HT|]. cbn [fst snd]. apply IH; [done|lia|lia| |simpl in Hf; lia].
    destruct ys as [|y ys]; [by left|]. right.
    assert (Hn : S c < length vs). { apply (f_equal length) in Hd. rewrite drop_length in Hd. simpl in Hd. lia. }
    split; [|done]. symmetry. apply par_uniq; [done|lia|done|]. split; [lia|].
    destruct Hor as [?| ->]; [lia|]. apply Hw in Hn. simpl in Hn |- *. lia.
Qed.

(** the offsets *)
Lemma offsets_from_spec (vs : list vis) (desc : nat -> nat) n : forall d j,
  (forall e, fci vs (S (S e)) 0 = fci vs (S e) 0 + desc e) -> j < n ->
  offsets_from desc n (S (S d)) (fci vs (S d) 0) !! j = Some (fci vs (S (S d) + j) 0).
Proof.
  induction n as [|n IH]; intros d j Hdesc Hj; [lia|]. cbn [offsets_from].
  replace (S (S d) - 2) with d by lia. rewrite <-Hdesc. destruct j as [|j]; [by rewrite Nat.add_0_r|]. cbn [lookup list_lookup].
  transitivity (offsets_from desc n (S (S (S d))) (fci vs (S (S d)) 0) !! j); [done|]. rewrite IH by (done || lia). do 2 f_equal. lia.
Qed.
Lemma offsets_from_length (desc : nat -> nat) n : forall d l, length (offsets_from desc n d l) = n.
Proof. induction n as [|n IH]; intros d l; [done|]. cbn [offsets_from length]. by rewrite IH. Qed.
Lemma offsets_length h desc : 1 <= h -> length (offsets_of h desc) = h.
Proof.
  intros Hh. unfold offsets_of. destruct (Nat.ltb_spec 1 h); [|simpl; lia]. cbn [length]. rewrite offsets_from_length. lia.
Qed.
Lemma offsets_spec (vs : list vis) h desc j : (forall e, fci vs (S (S e)) 0 = fci vs (S e) 0 + desc e) -> j < h ->
  offsets_of h desc !! j = Some (fci vs j 0).
Proof.
  intros Hdesc Hj. unfold offsets_of. destruct (Nat.ltb_spec 1 h).
  - destruct j as [|[|j]]; [done|done|]. cbn [lookup list_lookup].
    transitivity (offsets_from desc (h - 2) 2 (fci vs 1 0) !! j); [done|]. by rewrite (offsets_from_spec vs desc (h - 2) 0 j) by (done || lia).
  - assert (j = 0) as -> by lia. done.
Qed.

Lemma level_order_cons (x : tree A) : exists r, level_order x = x :: r.
Proof. unfold level_order. destruct x as [a ts]. cbn [height seq flat_map level]. eauto. Qed.

Lemma start_cells (v : nat) (vs : list vis) a0 d0 ds0 : vs !! 0 = Some (a0, d0, ds0) -> bwf vs ->
  triple (cellsf v (length vs) (fun _ => node_default)) (vec_make_node v None 0 (dat_of (v, 0) true a0) d0 ds0) (v, 0) (cellsf v (length vs) (gcell v vs 1)).
Proof.
  intros H0 Hw. pose proof (lookup_lt_Some _ _ _ H0) as HN. unfold vec_make_node. apply f_get; [lia|]. cbn [node_default n_dat dat_vals]. apply t_log_nil. apply f_put; [lia|].
  apply t_retl. apply reflexive_eq, cellsf_ext. intros k Hk. unfold fupd, gcell. destruct (Nat.eqb_spec k 0) as [->|]; [|destruct (Nat.ltb_spec k 1); [lia|done]].
  simpl. unfold cell. cbn [Nat.eqb]. destruct (Nat.ltb_spec (fc vs 0) (min 1 (fc vs 1))); [simpl in *; lia|].
  unfold dgn, dsn, van. by rewrite H0.
Qed.

Lemma frame_tree v p d o sz (i P : nat) (s : mem A) : 1 <= d -> o !! d = Some i -> o !! (d - 1) = Some P ->
  tree_visit v (Bst false true p (S d) o) (Frame, sz) s = Ok (Bst false false P d (<[d := S i]> o)) s.
Proof.
  intros Hd Hi HP. unfold tree_visit, idx, sub. cbn [b_root b_leaf b_par b_depth b_off fst snd].
  unfold bind at 1. cbn [Nat.leb]. rewrite Nat.sub_succ, Nat.sub_0_r. cbn [ret]. unfold bind at 1. rewrite Hi. cbn [unwrap ret].
  destruct (Nat.ltb_spec 0 d); [|lia]. unfold bind. rewrite (list_lookup_insert_ne o d (d - 1) (S i)) by lia. by rewrite HP.
Qed.
Lemma frame_tree0 v p d o sz (s : mem A) : tree_visit v (Bst false false p (S d) o) (Frame, sz) s = Ok (Bst false false p d o) s.
Proof. unfold tree_visit, sub, bind. cbn [b_root b_leaf b_par b_depth b_off fst snd Nat.leb ret]. by rewrite Nat.sub_succ, Nat.sub_0_r. Qed.
Lemma frame_forest v p d o sz (i P : nat) (s : mem A) : 1 <= d -> o !! d = Some i -> o !! (d - 1) = Some P ->
  forest_visit v (Bst false true p (S d) o) (Frame, sz) s = Ok (Bst false false P d (<[d := S i]> o)) s.
Proof.
  intros Hd Hi HP. unfold forest_visit, idx, sub. cbn [b_root b_leaf b_par b_depth b_off fst snd].
  unfold bind at 1. cbn [Nat.leb]. rewrite Nat.sub_succ, Nat.sub_0_r. cbn [ret]. unfold bind at 1. rewrite Hi. cbn [unwrap ret].
  destruct d as [|d]; [lia|]. unfold bind. cbn [ret]. change (match unwrap (<[S d := S i]> o !! (S d - 1)) s with Ok x s1 => Ok (Bst false false x (S d) (<[S d := S i]> o)) s1 | Err e => Err e end = Ok (Bst false false P (S d) (<[S d := S i]> o)) s). rewrite (list_lookup_insert_ne o (S d) (S d - 1) (S i)) by lia. by rewrite HP.
Qed.
Lemma frame_forest0 v p d o sz (s : mem A) : forest_visit v (Bst false false p (S d) o) (Frame, sz) s = Ok (Bst false false p d o) s.
Proof. unfold forest_visit, sub, bind. cbn [b_root b_leaf b_par b_depth b_off fst snd Nat.leb ret]. by rewrite Nat.sub_succ, Nat.sub_0_r. Qed.

(** all slots are filled after the children of the root *)
Lemma all_done (vs : list vis) m w : bwf vs -> 0 < length vs -> dgn vs 0 = w ->
  m 0 = w -> (forall k, subr vs 1 (1 + w) k -> m k = dgn vs k) -> forall k, k < length vs -> m k = dgn vs k.
Proof.
  intros Hw HN Hd H0 Hs k. induction (lt_wf k) as [k _ IH]. intros Hk. destruct (decide (k = 0)) as [->|]; [congruence|].
  apply Hs. clear IH H0 Hs. induction (lt_wf k) as [k _ IH].
  pose proof (par_spec vs k Hw ltac:(lia) Hk) as Hp. pose proof (par_lt vs k Hw ltac:(lia) Hk) as Hl.
  destruct (decide (par vs k = 0)) as [Hp0|Hp0].
  - rewrite Hp0 in Hp. simpl in Hp. exists 0. unfold fci. simpl. lia.
  - destruct (IH (par vs k) Hl ltac:(lia) Hp0) as (j & Hj). exists (S j). unfold fci in *. simpl Nat.iter.
    pose proof (fc_mono vs (Nat.iter j (fc vs) 1) (par vs k)). pose proof (fc_mono vs (S (par vs k)) (Nat.iter j (fc vs) (1 + w))). simpl in *. lia.
Qed.

Lemma construct_tree_ok v t : supported (denote t) -> let vs := (ovis ∘ visit_of) <$> level_order (denote t) in
  triple (cellsf v (length vs) (fun _ => node_default)) (construct_tree v t) tt (cellsf v (length vs) (gcell v vs (length vs))).
Proof.
  intros Hs vs. set (x := denote t) in *. pose proof (qo_level_order x) as Hq. destruct (level_order_cons x) as (r & Hr). 
  assert (HN : length vs = nodes x).
  { unfold vs. rewrite fmap_length. pose proof (qo_length _ _ Hq) as Hl. unfold nodes_f in Hl. simpl in Hl |- *. lia. }
  assert (HN0 : 0 < length vs) by (rewrite HN; destruct x; simpl; lia).
  assert (Hw : bwf vs).
  { destruct (qo_props vs _ _ Hq 0) as [H1 H2]; [done|lia|done|]. split; [|done]. intros i Hi. apply H1; [lia|done]. }
  assert (Hlat : lat vs 0 x).
  { pose proof (qo_lat vs _ _ Hq 0 ltac:(done) ltac:(lia) ltac:(done) 0 x eq_refl). done. }
  assert (Hv0 : vs !! 0 = Some (ovis (visit_of x))) by (by inversion Hlat).
  assert (Hdesc : forall e, fci vs (S (S e)) 0 = fci vs (S e) 0 + tt_descendants t e).
  { intros e. rewrite (fci_S _ (S e)). change (fc vs 0) with (0 + length [x]). rewrite (fci_level vs (S e) [x] 0).
    - rewrite tt_descendants_spec. unfold x. cbn [map list_sum foldr]. lia.
    - intros [|k] y Hy; [|done]. simpl in Hy. by simplify_eq. }
  pose proof (start_cells v vs _ _ _ Hv0 Hw) as HT0.
  assert (Hhl : length (offsets_of (tt_height t) (tt_descendants t)) = height x).
  { rewrite offsets_length; [by rewrite tt_height_spec|]. rewrite tt_height_spec. destruct (denote t); simpl; lia. }
  set (off := offsets_of (tt_height t) (tt_descendants t)) in *.
  assert (Hoff : forall j, j < height x -> off !! j = Some (fci vs j 0)).
  { intros j Hj. apply offsets_spec; [done|]. by rewrite tt_height_spec. }
  assert (Hstart : forall a sz (st : bst), (a = root_of x) -> sz = (length (kids x), nodes_f (kids x)) ->
    triple (cellsf v (length vs) (fun _ => node_default))
      (bind (make_piled_node v None 0 a sz.1 sz.2) (fun _ => ret st)) st (cellsf v (length vs) (mcell v vs (fun _ => 0)))).
  { intros a sz st -> ->. cbn [fst snd]. eapply triple_bind; [exact HT0|]. rewrite mcell_start by done. apply triple_ret. }
  assert (Hfl : forall a, x = Tr a [] -> tt_preorder_hint t = [(Leaf a, (0, 0))] -> 
    triple (cellsf v (length vs) (fun _ => node_default)) (construct_tree v t) tt (cellsf v (length vs) (gcell v vs (length vs)))).
  { intros a Hx Hp. unfold construct_tree. rewrite Hp. cbn [visit_all]. unfold tree_visit at 1. cbn [b_root fst snd].
    eapply triple_bind; [eapply triple_bind; [apply (Hstart a (0, 0)); by rewrite Hx|apply triple_ret]|].
    rewrite (mcell_done v vs (fun _ => 0) Hw); [apply triple_ret|]. intros k Hk. rewrite HN, Hx in Hk. simpl in Hk.
    assert (k = 0) as -> by lia. unfold dgn. rewrite Hv0, Hx. done. }
  destruct t as [a|a ts]; [by apply (Hfl a)|]. assert (ts = [] \/ ts <> []) as [Hnil|Hne] by (destruct ts; [by left|by right]).
  { apply (Hfl a); [unfold x|]; by rewrite Hnil. }
  clear Hfl.
  assert (Hvis : tt_preorder_hint (Tup a ts) = [(Branch a, tt_size (Tup a ts))] ++ flat_map tt_preorder_hint ts ++ [(Frame, tt_size (Tup a ts))]).
  { cbn [tt_preorder_hint]. cbn [tt_size fst]. destruct (Nat.eqb_spec (length ts) 0) as [Hl|]; [|done]. by apply nil_length_inv in Hl. }
  unfold construct_tree. fold off. rewrite Hvis. set (sz := tt_size (Tup a ts)) in *.
  assert (Hsz : sz = (length (kids x), nodes_f (kids x))) by apply tt_size_spec.
  assert (Hd0 : dgn vs 0 = length ts) by (rewrite (lat_dgn _ _ _ Hlat); unfold x; cbn [denote kids]; by rewrite map_length).
  assert (Hh : 1 < height x).
  { unfold x. cbn [denote height]. destruct ts as [|[?|? ?] ?]; [done|simpl; lia..]. }
  destruct (trees_ok v vs (tree_visit v) ts Hw HN0) with (b := false) (st := Bst false false 0 1 off) (a := 1) (P := 0) (d := 1) (m := fun _ : nat => 0)
    as (st2 & m2 & HT2 & HP2 & _).
  { apply Forall_true. intros t'. apply all_tree_ok; try done.
    - intros. by apply frame_tree.
    - intros. apply frame_tree0. }
  { unfold x in Hs. cbn [denote] in Hs. remember (Tr a (map denote ts)) as x0 eqn:Hx0. destruct Hs as [a0|a0 ts0 k0 Hts0 Hk0]; injection Hx0 as Ha0 Heq.
    - symmetry in Heq. by apply map_eq_nil in Heq.
    - rewrite <-Heq. by constructor. }
  { apply (lat_kids _ _ _ Hlat). }
  { unfold pre. cbn [b_root b_par b_depth b_off]. split_and!; try done; try lia.
    - rewrite Nat.sub_diag. apply Hoff. lia.
    - change (fci vs 2 0) with (1 + dgn vs 0). lia.
    - intros j Hj. rewrite Hoff by lia. by rewrite fci_S.
    - rewrite Hhl. unfold x. cbn [denote height]. unfold height_f. lia. }
  destruct HP2 as (R1&R2&R3&R4&R5&R6&R7&R8&R9). cbn [b_off b_root b_depth b_par] in *.
  destruct st2 as [rt2 lf2 pr2 dp2 off2]. cbn [b_off b_root b_depth b_par b_leaf] in *. subst rt2 dp2.
  assert (HT3 : exists st3, forall (s : mem A), tree_visit v (Bst false lf2 pr2 1 off2) (Frame, sz) s = Ok st3 s).
  { destruct lf2; [|eexists; intros s; apply frame_tree0]. eexists. intros s. unfold tree_visit, idx, sub, bind.
    cbn [b_off b_root b_depth b_par b_leaf fst snd Nat.leb ret Nat.sub]. rewrite R8 by lia. rewrite Hoff by lia. cbn [unwrap ret Nat.ltb Nat.leb]. done. }
  destruct HT3 as (st3 & HT3).
  eapply triple_bind; [|apply triple_ret].
  cbn [app visit_all]. unfold tree_visit at 1. cbn [b_root b_leaf b_par b_depth b_off fst snd].
  eapply triple_bind; [apply (Hstart a sz); done|].
  eapply triple_ext; [intros s; apply visit_all_app|]. eapply triple_bind; [exact HT2|].
  cbn [visit_all]. eapply triple_bind; [|].
  { eapply triple_ext; [exact HT3|]. apply triple_ret. }
  rewrite <-(mcell_done v vs m2); [apply triple_ret|done|]. apply (all_done vs m2 (length ts)); try done.
Qed.

Lemma construct_forest_ok v ts : supported_f (map denote ts) ->
  let vs := ((None, length ts, nodes_f (map denote ts)) : vis) :: ((ovis ∘ visit_of) <$> level_order_f (map denote ts)) in
  triple (cellsf v (length vs) (fun _ => node_default)) (construct_forest v ts) tt (cellsf v (length vs) (gcell v vs (length vs))).
Proof.
  intros Hs vs. set (xs := map denote ts) in *. pose proof (qo_level_order_f xs) as Hq.
  assert (HN : length vs = S (nodes_f xs)).
  { unfold vs. simpl. rewrite fmap_length. by rewrite (qo_length _ _ Hq). }
  assert (HN0 : 0 < length vs) by lia.
  assert (Hd1 : drop 1 vs = (ovis ∘ visit_of) <$> level_order_f xs) by (unfold vs; simpl; by rewrite drop_0).
  assert (Hlen : length xs = length ts) by apply map_length.
  assert (Hf1 : fc vs 1 = 1 + length xs) by (rewrite Hlen; done).
  assert (Hw : bwf vs).
  { destruct (qo_props vs _ _ Hq 1) as [H1 H2]; [done|lia|done|]. split; [|done]. intros [|i] Hi; [simpl; lia|]. apply H1; [lia|done]. }
  assert (Hlat : lats vs 1 xs) by (apply (qo_lat vs _ _ Hq 1); [done|lia|done]).
  assert (Hdesc : forall e, fci vs (S (S e)) 0 = fci vs (S e) 0 + tf_descendants ts e).
  { intros e. rewrite !fci_S. change (fc vs 0) with 1. rewrite Hf1. rewrite (fci_level vs e xs 1 Hlat).
    rewrite tf_descendants_spec, length_flat_map. done. }
  pose proof (start_cells v vs _ _ _ (eq_refl : vs !! 0 = Some (None, length ts, nodes_f xs)) Hw) as HT0.
  assert (Hhl : length (offsets_of (tf_height ts + 1) (tf_descendants ts)) = S (height_f xs)).
  { rewrite offsets_length by lia. rewrite tf_height_spec. fold xs. lia. }
  unfold construct_forest.
  set (off := offsets_of (tf_height ts + 1) (tf_descendants ts)) in *.
  assert (Hoff : forall j, j < S (height_f xs) -> off !! j = Some (fci vs j 0)).
  { intros j Hj. apply offsets_spec; [done|]. rewrite tf_height_spec. fold xs. lia. }
  destruct (trees_ok v vs (forest_visit v) ts Hw HN0) with (b := false) (st := Bst false false 0 1 off) (a := 1) (P := 0) (d := 1) (m := fun _ : nat => 0)
    as (st2 & m2 & HT2 & HP2 & _).
  { apply Forall_true. intros t'. apply all_tree_ok; try done.
    - intros. by apply frame_forest.
    - intros. apply frame_forest0. }
  { done. }
  { done. }
  { unfold pre. cbn [b_root b_par b_depth b_off]. split_and!; try done; try lia.
    - rewrite Nat.sub_diag. apply Hoff. lia.
    - intros j Hj. rewrite Hoff by lia. by rewrite fci_S.
    - rewrite Hhl. fold xs. lia. }
  destruct HP2 as (R1&R2&R3&R4&R5&R6&R7&R8&R9). cbn [b_off b_root b_depth b_par] in *.
  rewrite tf_size_spec. cbn [fst snd]. eapply triple_bind; [exact HT0|]. rewrite <-(mcell_start v vs Hw).
  unfold tf_preorder_hint. eapply triple_bind; [exact HT2|].
  rewrite <-(mcell_done v vs m2); [apply triple_ret|done|]. apply (all_done vs m2 (length ts)); try done.
Qed.

(** both constructions give the same memory *)
Lemma fresh_HP (s : mem A) N : (forall p, is_Some (m_heap s !! p) -> p.1 < m_fresh s) ->
  exists F s1, new_vec N s = Ok (m_fresh s) s1 /\ HP (cellsf (m_fresh s) N (fun _ => node_default) ++ F) s1.
Proof.
  intros Hf. exists (map_to_list (m_heap s)). eexists. split; [done|]. set (v := m_fresh s). split; simpl.
  - rewrite fmap_app. apply NoDup_app. split_and!.
    + rewrite cellsf_fst. apply NoDup_fmap; [by intros ?? [= ->]|apply NoDup_seq].
    + intros p Hp Hp'. rewrite cellsf_fst in Hp. apply elem_of_list_fmap in Hp as (k & -> & _).
      apply elem_of_list_fmap in Hp' as ([q n] & Heq & Hq). simpl in Heq. subst q. apply elem_of_map_to_list in Hq.
      specialize (Hf (v, k) ltac:(eauto)). simpl in Hf. unfold v in Hf. lia.
    + apply NoDup_fst_map_to_list.
  - rewrite list_to_map_app, list_to_map_to_list. done.
Qed.

Lemma tree_from_tuple_same t (s : mem A) : (forall p, is_Some (m_heap s !! p) -> p.1 < m_fresh s) -> supported (denote t) ->
  tree_from_tuple t s = tree_from_bfs list_next (visit_of <$> level_order (denote t)) s.
Proof.
  intros Hfr Hs. pose proof (construct_tree_ok (m_fresh s) t Hs) as HT1. set (x := denote t) in *. cbv zeta in HT1. set (vs := (ovis ∘ visit_of) <$> level_order x) in *.
  pose proof (qo_level_order x) as Hq. destruct (level_order_cons x) as (r & Hr). 
  assert (HN : length vs = nodes x).
  { unfold vs. rewrite fmap_length. pose proof (qo_length _ _ Hq) as Hl. unfold nodes_f in Hl. simpl in Hl |- *. lia. }
  assert (HNx : nodes_f (kids x) + 1 = length vs) by (rewrite HN; destruct x; simpl; unfold nodes_f; lia).
  assert (Hw : bwf vs).
  { destruct (qo_props vs _ _ Hq 0) as [H1 H2]; [done|lia|done|]. split; [|done]. intros i Hi. apply H1; [lia|done]. }
  assert (HB : tree_from_bfs list_next (visit_of <$> level_order x) s = bind (new_vec (nodes_f (kids x) + 1)) (fun v =>
     bind (make_piled_node v None 0 (root_of x) (length (kids x)) (nodes_f (kids x))) (fun _ =>
     bind fuel (fun f => bind (from_bfs_loop list_next f v 0 1 (length (kids x)) (visit_of <$> r)) (fun _ =>
     bind (slot v 0) (fun p => tree_from_node p))))) s) by (unfold tree_from_bfs; rewrite Hr, fmap_cons; reflexivity).
  rewrite HB. unfold tree_from_tuple. rewrite (tt_size_spec t). fold x. cbn [snd]. rewrite HNx.
  destruct (fresh_HP s (length vs) Hfr) as (F & s1 & E1 & HH). unfold bind at 1. rewrite E1. symmetry. unfold bind at 1. rewrite E1. symmetry.
  set (v := m_fresh s) in *.
  assert (HT2 : triple (cellsf v (length vs) (fun _ => node_default))
    (bind (make_piled_node v None 0 (root_of x) (length (kids x)) (nodes_f (kids x))) (fun _ =>
       bind fuel (fun f => from_bfs_loop list_next f v 0 1 (length (kids x)) (visit_of <$> r)))) tt (cellsf v (length vs) (gcell v vs (length vs)))).
  { assert (Hv0 : vs !! 0 = Some (ovis (visit_of x))) by (unfold vs; by rewrite Hr).
    eapply triple_bind; [apply (start_cells v vs _ _ _ Hv0 Hw)|]. apply triple_fuel. intros f Hf. unfold cellsf in Hf. rewrite fmap_length, seq_length in Hf.
    assert (Hlr : length vs = S (length r)) by (unfold vs; rewrite Hr, fmap_length; done).
    apply list_loop; [done| |lia|lia| |rewrite fmap_length; lia].
    - unfold vs. rewrite Hr, fmap_cons. simpl. by rewrite drop_0, list_fmap_compose.
    - destruct r as [|y r']; [by left|]. right. assert (dgn vs 0 = length (kids x)) as Hd0 by (unfold dgn; by rewrite Hv0).
      assert (0 = par vs 1) as <-.
      { symmetry. apply par_uniq; [done|lia|simpl in Hlr; lia|]. simpl. rewrite Hd0.
        assert (kids x <> []); [|destruct (kids x); [done|simpl; lia]]. intros Hk. rewrite Hr in Hq. inversion Hq as [|? ? ? Hq']; subst. rewrite Hk in Hq'. simpl in Hq'. inversion Hq'. }
      split; [done|]. simpl. rewrite Hd0. lia. }
  pose proof (triple_det _ _ _ _ _ s1 F HT1 HT2 HH) as Heq. unfold bind at 1. rewrite Heq.
  unfold bind. destruct (make_piled_node v None 0 (root_of x) (length (kids x)) (nodes_f (kids x)) s1) as [? s2|]; [|done].
  destruct (fuel s2) as [f s3|]; [|done]. by destruct (from_bfs_loop _ _ _ _ _ _ _ _).
Qed.

Lemma forest_from_tuple_same ts (s : mem A) : (forall p, is_Some (m_heap s !! p) -> p.1 < m_fresh s) -> supported_f (map denote ts) ->
  forest_from_tuple ts s = forest_from_bfs list_next (visit_of <$> level_order_f (map denote ts)) (length (map denote ts)) (nodes_f (map denote ts)) s.
Proof.
  intros Hfr Hs. pose proof (construct_forest_ok (m_fresh s) ts Hs) as HT1. set (xs := map denote ts) in *. cbv zeta in HT1. set (r := level_order_f xs) in *. set (vs := _ :: _) in HT1.
  pose proof (qo_level_order_f xs) as Hq. fold r in Hq.
  assert (HN : length vs = nodes_f xs + 1).
  { unfold vs. simpl. rewrite fmap_length. rewrite (qo_length _ _ Hq). lia. }
  assert (Hlen : length xs = length ts) by apply map_length.
  assert (Hd1 : drop 1 vs = (ovis ∘ visit_of) <$> r) by (unfold vs; simpl; by rewrite drop_0).
  assert (Hw : bwf vs).
  { destruct (qo_props vs _ _ Hq 1) as [H1 H2]; [done|lia|by rewrite Hlen|]. split; [|done]. intros [|i] Hi; [simpl; lia|]. apply H1; [lia|done]. }
  unfold forest_from_tuple, forest_from_bfs. rewrite (tf_size_spec ts). fold xs. cbn [snd]. rewrite <-HN.
  destruct (fresh_HP s (length vs) Hfr) as (F & s1 & E1 & HH). unfold bind at 1. rewrite E1. symmetry. unfold bind at 1. rewrite E1. symmetry.
  set (v := m_fresh s) in *.
  assert (HT2 : triple (cellsf v (length vs) (fun _ => node_default))
    (bind (vec_make_node v None 0 (DPiledN v) (length xs) (nodes_f xs)) (fun _ =>
       bind fuel (fun f => from_bfs_loop list_next f v 0 1 (length xs) (visit_of <$> r)))) tt (cellsf v (length vs) (gcell v vs (length vs)))).
  { rewrite Hlen. eapply triple_bind; [apply (start_cells v vs None (length ts) (nodes_f xs) eq_refl Hw)|]. apply triple_fuel. intros f Hf. unfold cellsf in Hf. rewrite fmap_length, seq_length in Hf.
    assert (Hlr : length vs = S (length r)) by (unfold vs; cbn [length]; rewrite fmap_length; done).
    apply list_loop; [done| |lia|lia| |rewrite fmap_length; lia].
    - by rewrite Hd1, list_fmap_compose.
    - destruct r as [|y r']; [by left|]. right. assert (dgn vs 0 = length ts) as Hd0 by done.
      assert (0 = par vs 1) as <-.
      { symmetry. apply par_uniq; [done|lia|rewrite Hlr; cbn [length]; lia|]. simpl. rewrite Hd0.
        assert (xs <> []) as Hx; [|rewrite <-Hlen; destruct xs; [done|simpl; lia]]. intros Hk. rewrite Hk in Hq. inversion Hq. }
      split; [done|]. simpl. rewrite Hd0. lia. }
  pose proof (triple_det _ _ _ _ _ s1 F HT1 HT2 HH) as Heq. unfold bind at 1. rewrite Heq.
  unfold bind. destruct (vec_make_node v None 0 (DPiledN v) (length xs) (nodes_f xs) s1) as [? s2|]; [|done].
  destruct (fuel s2) as [f s3|]; [|done]. by destruct (from_bfs_loop _ _ _ _ _ _ _ _).
Qed.

End same.

Section client.
Context {A : Type}.
Lemma reach_fresh (c : cst A) : reachable c -> forall p, is_Some (m_heap (c_mem c) !! p) -> p.1 < m_fresh (c_mem c).
Proof. intros Hr p. destruct (reachable_CInv c Hr) as (σ & Wm & HR & _). eapply MInv_fresh; apply HR. Qed.

Lemma from_tuple_tree (c : cst A) env x t : reachable c -> contents c env -> env !! x = None -> supported (denote t) ->
  exists p s v, tree_from_tuple t (c_mem c) = Ok p s /\ m_log s = m_log (c_mem c) /\
    reachable (CSt (<[x := HT p]> (c_env c)) s) /\ contents (CSt (<[x := HT p]> (c_env c)) s) (<[x := ITree (denote t)]> env) /\
    forall q, (exists path, resolve p path s = Ok (Some q) s) <-> exists k, q = (v, k) /\ k < nodes (denote t).
Proof.
  intros Hr Hc Hx Hs. destruct (from_visits_contiguous c env x (ITree (denote t)) Hr Hc Hx) as (c' & v & hd & Hst & Hr' & Hl & Hc' & He & Hp).
  pose proof (Hc x) as Hcx. destruct (c_env c !! x) as [hd'|] eqn:Ex; [destruct Hcx as (it & _ & Hit); congruence|].
  unfold step in Hst. cbn [cstep] in Hst. rewrite Ex in Hst. unfold bind in Hst. rewrite <-(tree_from_tuple_same t) in Hst; [|by apply reach_fresh|done].
  destruct (tree_from_tuple t (c_mem c)) as [p s|]; [|done]. cbn [ret] in Hst. simplify_eq. cbn [c_env c_mem] in *. rewrite lookup_insert in He. simplify_eq.
  exists p, s, v. done.
Qed.
Lemma from_tuple_forest (c : cst A) env x ts : reachable c -> contents c env -> env !! x = None -> supported_f (map denote ts) ->
  exists p s v, forest_from_tuple ts (c_mem c) = Ok p s /\ m_log s = m_log (c_mem c) /\
    reachable (CSt (<[x := HF p]> (c_env c)) s) /\ contents (CSt (<[x := HF p]> (c_env c)) s) (<[x := IForest (map denote ts)]> env) /\
    forall q, (exists path, resolve p path s = Ok (Some q) s) <-> exists k, q = (v, k) /\ k < S (nodes_f (map denote ts)).
Proof.
  intros Hr Hc Hx Hs. destruct (from_visits_contiguous c env x (IForest (map denote ts)) Hr Hc Hx) as (c' & v & hd & Hst & Hr' & Hl & Hc' & He & Hp).
  pose proof (Hc x) as Hcx. destruct (c_env c !! x) as [hd'|] eqn:Ex; [destruct Hcx as (it & _ & Hit); congruence|].
  unfold step in Hst. cbn [cstep] in Hst. rewrite Ex in Hst. unfold bind in Hst. rewrite <-(forest_from_tuple_same ts) in Hst; [|by apply reach_fresh|done].
  destruct (forest_from_tuple ts (c_mem c)) as [p s|]; [|done]. cbn [ret] in Hst. simplify_eq. cbn [c_env c_mem] in *. rewrite lookup_insert in He. simplify_eq.
  exists p, s, v. done.
Qed.
End client.

Section final.
Context {A : Type}.
Lemma tree_meta (t : tuple A) :
  tt_size t = (length (kids (denote t)), nodes (denote t) - 1) /\
  tt_height t = height (denote t) /\
  (forall l, tt_descendants t l = length (level (S l) (denote t))) /\
  tt_preorder t = visits_pre (denote t) /\
  tt_preorder_hint t = visits_pre_sized (denote t).
Proof.
  split_and!; [|apply tt_height_spec|apply tt_descendants_spec|apply tt_preorder_spec|apply tt_preorder_hint_spec].
  rewrite tt_size_spec. f_equal. destruct (denote t). unfold nodes_f. simpl. lia.
Qed.
Lemma forest_meta (ts : list (tuple A)) :
  tf_size ts = (length ts, nodes_f (map denote ts)) /\
  tf_height ts = height_f (map denote ts) /\
  (forall l, tf_descendants ts l = length (flat_map (level l) (map denote ts))) /\
  tf_preorder ts = flat_map visits_pre (map denote ts) /\
  tf_preorder_hint ts = flat_map visits_pre_sized (map denote ts).
Proof.
  split_and!; [apply tf_size_spec|apply tf_height_spec|apply tf_descendants_spec|apply tf_visits, tt_preorder_spec|apply tf_visits, tt_preorder_hint_spec].
Qed.
Definition vals_of (l : list (tvisit A)) : list A := flat_map (fun x => match x with Branch a | Leaf a => [a] | Frame => [] end) l.
Lemma vals_app l1 l2 : vals_of (l1 ++ l2) = vals_of l1 ++ vals_of l2.
Proof. apply flat_map_app. Qed.
Lemma vals_flat {X} (f : X -> list (tvisit A)) (g : X -> list A) l : Forall (fun x => vals_of (f x) = g x) l -> vals_of (flat_map f l) = flat_map g l.
Proof. induction 1 as [|x l Hx _ IH]; [done|]. cbn [flat_map]. by rewrite vals_app, Hx, IH. Qed.
Lemma preorder_values (t : tuple A) : vals_of (tt_preorder t) = preorder (denote t).
Proof.
  rewrite tt_preorder_spec. induction (denote t) as [a ts IH] using tree_ind'. apply vals_flat in IH. destruct ts as [|t1 ts]; [done|].
  change (visits_pre (Tr a (t1 :: ts))) with ([Branch a] ++ flat_map visits_pre (t1 :: ts) ++ [Frame]). rewrite !vals_app, IH. change (vals_of [@Frame A]) with (@nil A). by rewrite app_nil_r.
Qed.
Lemma postorder_values (t : tuple A) : vals_of (tt_postorder t) = postorder (denote t).
Proof.
  rewrite tt_postorder_spec. induction (denote t) as [a ts IH] using tree_ind'. apply vals_flat in IH. destruct ts as [|t1 ts]; [done|].
  change (visits_post (Tr a (t1 :: ts))) with ([Frame] ++ flat_map visits_post (t1 :: ts) ++ [Branch a]). rewrite !vals_app, IH. done.
Qed.
Lemma postorder_visits (t : tuple A) (ts : list (tuple A)) :
  tt_postorder t = visits_post (denote t) /\ tf_postorder ts = flat_map visits_post (map denote ts) /\
  tt_postorder_hint t = visits_pre_sized (denote t) /\ tf_postorder_hint ts = flat_map visits_pre_sized (map denote ts) /\
  (map fst (tt_postorder_hint t) = tt_postorder t <-> kids (denote t) = []).
Proof.
  split_and!; [apply tt_postorder_spec|apply tf_visits, tt_postorder_spec|apply tt_postorder_hint_spec|apply tf_visits, tt_postorder_hint_spec|].
  rewrite tt_postorder_hint_spec, tt_postorder_spec. destruct (denote t) as [a [|k ks]]; [done|]. split; [|done]. intros H. cbn [visits_pre_sized visits_post map fst] in H. done.
Qed.
Lemma two_levels (a : A) (ts : list (tuple A)) :
  Forall (fun t => Forall (fun k => kids (denote k) = []) (match t with Val _ => [] | Tup _ ks => ks end)) ts ->
  supported (denote (Tup a ts)).
Proof.
  intros H. cbn [denote].
  assert (Hf : forall x : tree A, kids x = [] -> flat_end x).
  { intros [b ks] Hx. simpl in Hx. subst. constructor; [constructor|done]. }
  assert (Hsup : forall x : tree A, flat_end x -> supported x).
  { induction x as [b ks IH] using tree_ind'. intros Hx. inversion Hx as [? ? Hks Hl]; subst. 
    destruct ks as [|k ks _] using rev_ind; [constructor|]. apply Forall_app in Hks as [? Hk]. apply Forall_app in IH as [_ IH].
    constructor; [done|]. apply Forall_cons in IH as [IH _]. apply IH. by apply Forall_cons in Hk as [? _]. }
  assert (HF : Forall flat_end (map denote ts)).
  { induction H as [|t ts Ht _ IH]; [constructor|]. cbn [map]. constructor; [|done]. destruct t as [b|b ks]; [by apply Hf|].
    cbn [denote]. constructor.
    - induction Ht as [|k ks Hk _ IHk]; [constructor|]. cbn [map]. constructor; [by apply Hf|done].
    - intros k Hk. apply last_Some in Hk as (l & Hk). assert (Hin : k ∈ map denote ks) by (rewrite Hk; apply elem_of_app; right; left).
      apply elem_of_list_fmap in Hin as (k' & -> & Hk'). rewrite Forall_forall in Ht. by apply Ht. }
  destruct (map denote ts) as [|k ks _] using rev_ind; [constructor|]. apply Forall_app in HF as [? Hk]. constructor; [done|]. apply Hsup. by apply Forall_cons in Hk as [? _].
Qed.
End final.

Lemma from_tuple_wrong : exists (t : tuple nat) (p : ptr) (s : mem nat),
  denote t = Tr 0 [Tr 1 [Tr 2 [Tr 3 []]]; Tr 4 []] /\
  tree_from_tuple t mem0 = Ok p s /\ read_item (HT p) s = Ok (ITree (Tr 0 [Tr 4 []])) s /\ drop_tree p s = Err EPanic.
Proof.
  exists (Tup 0 [Tup 1 [Tup 2 [Val 3]]; Val 4]). eexists _, _. split; [done|]. split; [vm_compute; reflexivity|]. split; vm_compute; reflexivity.
Qed.
Lemma forest_from_tuple_wrong : exists (ts : list (tuple nat)) (p : ptr) (s : mem nat),
  map denote ts = [Tr 1 [Tr 2 [Tr 3 []]]; Tr 4 []] /\
  forest_from_tuple ts mem0 = Ok p s /\ read_item (HF p) s = Ok (IForest [Tr 4 []]) s /\ drop_tree p s = Err EPanic.
Proof.
  exists [Tup 1 [Tup 2 [Val 3]]; Val 4]. eexists _, _. split; [done|]. split; [vm_compute; reflexivity|]. split; vm_compute; reflexivity.
Qed.
Lemma postorder_differ : exists (t : tuple nat), map fst (tt_postorder_hint t) <> tt_postorder t.
Proof. exists (Tup 0 [Val 1]). done. Qed.

Lemma from_tuple_example : supported (denote (Tup 0 [Tup 1 [Val 2; Tup 3 [Val 4; Val 5]; Val 6]; Val 7; Tup 8 [Tup 9 [Val 10]]])) /\
  supported_f (map denote [Tup 1 [Val 2; Tup 3 [Val 4; Val 5]; Val 6]; Val 7; Tup 8 [Tup 9 [Val 10]]]).
Proof.
  assert (H : Forall flat_end (map denote [Tup 1 [Val 2; Tup 3 [Val 4; Val 5]; Val 6]; Val 7])).
  { cbn [map denote]. constructor; [|constructor; [|constructor]]; repeat (constructor; try (intros k Hk; simpl in Hk; simplify_eq; done)). }
  assert (H2 : supported (denote (Tup 8 [Tup 9 [Val 10]]))).
  { apply (SupNode 8 [] (Tr 9 [Tr 10 []])); [constructor|]. apply (SupNode 9 [] (Tr 10 [])); constructor. }
  split.
  - apply (SupNode 0 (map denote [Tup 1 [Val 2; Tup 3 [Val 4; Val 5]; Val 6]; Val 7])); done.
  - apply (SupSnoc (map denote [Tup 1 [Val 2; Tup 3 [Val 4; Val 5]; Val 6]; Val 7])); done.
Qed.
