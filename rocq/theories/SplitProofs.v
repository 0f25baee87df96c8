(** SplitProofs.v — [Splitted] over any source yields the levels one after the other. *)
From stdpp Require Import base gmap list.
From Verif Require Import Spec ClientSpec Machine NodeModel BfsModel ClientModel Reach ClientProps SplitModel SplitSpec BfsProps.

Section queue.
Context {A I : Type} (S : source A I).
Implicit Types (q : list (list I)) (l : list I).

Lemma next_cons q i l : concat q = i :: l -> exists q', gsp_next S q = (Some (shown S i), q') /\ concat q' = l ++ skids S i.
Proof.
  induction q as [|[|j m] q IH]; simpl; intros E; [done|by apply IH|]. inversion E; subst. eexists. split; [done|]. simpl. rewrite concat_app. simpl. by rewrite app_nil_r, app_assoc.
Qed.
Lemma next_nil q : concat q = [] -> gsp_next S q = (None, []).
Proof. induction q as [|[|j m] q IH]; simpl; intros E; [done|by apply IH|done]. Qed.
Lemma calls_app n m q : calls S (n + m) q = ((calls S n q).1 ++ (calls S m (calls S n q).2).1, (calls S m (calls S n q).2).2).
Proof. revert q. induction n as [|n IH]; intros q; simpl; [by destruct (calls S m q)|]. by rewrite IH. Qed.
Lemma calls_row l : forall q m, concat q = l ++ m -> exists q', calls S (length l) q = (Some <$> (shown S <$> l), q') /\ concat q' = m ++ flat_map (skids S) l.
Proof.
  induction l as [|i l IH]; intros q m E; [exists q; simpl; by rewrite app_nil_r|]. destruct (next_cons q i (l ++ m) E) as (q1 & E1 & C1).
  destruct (IH q1 (m ++ skids S i)) as (q2 & E2 & C2); [by rewrite C1, app_assoc|]. exists q2. cbn [length calls]. rewrite E1. cbn [snd fst]. rewrite E2. split; [done|].
  rewrite C2. simpl. by rewrite app_assoc.
Qed.
Lemma levels_S k l : levels S (Datatypes.S k) l = levels S k l ++ below_by S k l.
Proof. unfold levels. rewrite seq_S, flat_map_app. simpl. by rewrite app_nil_r. Qed.
Lemma calls_levels k l : exists q, calls S (length (levels S k l)) (gsp_from l) = (Some <$> (shown S <$> levels S k l), q) /\ concat q = below_by S k l.
Proof.
  induction k as [|k (q & E & C)]; [exists [l]; simpl; by rewrite app_nil_r|]. rewrite levels_S, app_length, calls_app, E. cbn [fst snd].
  destruct (calls_row (below_by S k l) q []) as (q2 & E2 & C2); [by rewrite app_nil_r|]. rewrite E2. exists q2. cbn [fst snd]. split; [by rewrite !fmap_app|done].
Qed.
Lemma calls_none n q : concat q = [] -> (calls S n q).1 = replicate n None.
Proof. revert q. induction n as [|n IH]; intros q E; [done|]. simpl. rewrite (next_nil q E). simpl. f_equal. by apply IH. Qed.
Theorem splitted_levels k l : exists q, calls S (length (levels S k l)) (gsp_from l) = (Some <$> (shown S <$> levels S k l), q) /\
  (below_by S k l = [] -> forall n, (calls S n q).1 = replicate n None).
Proof. destruct (calls_levels k l) as (q & E & C). exists q. split; [done|]. intros En n. apply calls_none. congruence. Qed.
End queue.

(** ** trees *)
Section trees.
Context {A : Type}.
Definition fl (n : nat) (ts : list (tree A)) : list (tree A) := flat_map (level n) ts.
Lemma fl_S n ts : fl (Datatypes.S n) ts = fl n (flat_map kids ts).
Proof. induction ts as [|t ts IH]; [done|]. unfold fl in *. cbn [flat_map]. rewrite flat_map_app. f_equal. exact IH. Qed.
Lemma fl_0 (ts : list (tree A)) : fl 0 ts = ts.
Proof. induction ts as [|t ts IH]; [done|]. unfold fl in *. simpl. by f_equal. Qed.
Lemma fl_kids n : forall ts, flat_map kids (fl n ts) = fl (Datatypes.S n) ts.
Proof. induction n as [|n IH]; intros ts; [by rewrite fl_S, !fl_0|]. by rewrite (fl_S n), IH, (fl_S (Datatypes.S n)). Qed.
Lemma level_high (t : tree A) : forall n, height t <= n -> level n t = [].
Proof.
  induction t as [a ts IH] using tree_ind'. intros [|n] Hn; [simpl in Hn; lia|]. cbn [level kids]. cbn [height] in Hn. assert (list_max (map height ts) <= n) as Hm by lia. clear Hn.
  apply list_max_le in Hm. rewrite Forall_map in Hm. induction IH as [|t ts Ht _ IH2]; [done|]. inversion Hm; subst. cbn [flat_map]. rewrite Ht by done. by apply IH2.
Qed.
Lemma fl_high n (ts : list (tree A)) : height_f ts <= n -> fl n ts = [].
Proof. intros Hm. apply list_max_le in Hm. rewrite Forall_map in Hm. induction Hm as [|t ts Ht _ IH]; [done|]. unfold fl. cbn [flat_map]. by rewrite level_high. Qed.
End trees.

Section looks.
Context {A I : Type} (S : source A I).
Lemma looks_kids l ts : Forall2 (looks_like S) l ts -> Forall2 (looks_like S) (flat_map (skids S) l) (flat_map kids ts).
Proof. induction 1 as [|i t l ts Hi _ IH]; [constructor|]. cbn [flat_map]. apply Forall2_app; [|done]. by destruct Hi. Qed.
Lemma looks_level k l ts : Forall2 (looks_like S) l ts -> Forall2 (looks_like S) (below_by S k l) (fl k ts).
Proof. intros H. induction k as [|k IH]; [by rewrite fl_0|]. rewrite <-fl_kids. by apply looks_kids. Qed.
Lemma looks_shown l ts : Forall2 (looks_like S) l ts -> shown S <$> l = visit_of <$> ts.
Proof. induction 1 as [|i t l ts Hi _ IH]; [done|]. rewrite !fmap_cons, IH. f_equal. destruct Hi as [i ts' _ H1 H2]. unfold shown, visit_of. simpl. by rewrite H1, H2. Qed.
Lemma looks_levels k l ts : Forall2 (looks_like S) l ts -> Forall2 (looks_like S) (levels S k l) (flat_map (fun n => fl n ts) (seq 0 k)).
Proof.
  intros H. unfold levels. induction (seq 0 k) as [|j js IH]; [constructor|]. cbn [flat_map]. apply Forall2_app; [by apply looks_level|done].
Qed.
Lemma looks_order l ts : Forall2 (looks_like S) l ts -> exists q, calls S (length (level_order_f ts)) (gsp_from l) = (Some <$> (visit_of <$> level_order_f ts), q) /\ concat q = [].
Proof.
  intros H. destruct (calls_levels S (height_f ts) l) as (q & E & C). exists q. pose proof (looks_levels (height_f ts) _ _ H) as HL. change (flat_map (fun n => fl n ts) (seq 0 (height_f ts))) with (level_order_f ts) in HL.
  rewrite (Forall2_length _ _ _ HL), (looks_shown _ _ HL) in E. split; [done|]. rewrite C. pose proof (looks_level (height_f ts) _ _ H) as Hn. rewrite fl_high in Hn by done. by inversion Hn.
Qed.
End looks.

(** ** building from a source is building from the list of its visits *)
Section build.
Context {A I : Type} (S : source A I).
Definition says (q : list (list I)) (l : list (A * nat * nat)) : Prop := exists q', calls S (length l) q = (Some <$> l, q') /\ concat q' = [].
Lemma says_next q l (s : mem A) : says q l -> match list_next l s with Ok (o, l') s1 => s1 = s /\ (gsp_next S q).1 = o /\ says (gsp_next S q).2 l' | Err _ => False end.
Proof.
  intros (q' & E & C). destruct l as [|x l]; simpl in *.
  - inversion E; subst. rewrite (next_nil S q' C). split_and!; try done. by exists [].
  - destruct (gsp_next S q) as [o q1] eqn:En. simpl in *. destruct (calls S (length l) q1) as [rs q2] eqn:E2. simpl in E. inversion E; subst. split_and!; try done. by exists q'.
Qed.
Lemma bind_same {X Y : Type} (m m' : M A X) (k k' : X -> M A Y) s : m s = m' s -> (forall x s1, k x s1 = k' x s1) -> bind m k s = bind m' k' s.
Proof. intros E K. unfold bind. rewrite E. by destruct (m' s). Qed.
Lemma next_same {Y : Type} q l (k : option (A * nat * nat) * list (list I) -> M A Y) (k' : option (A * nat * nat) * list (A * nat * nat) -> M A Y) s : says q l ->
  (forall o q1 l1, says q1 l1 -> k (o, q1) s = k' (o, l1) s) -> bind (ret (gsp_next S q)) k s = bind (list_next l) k' s.
Proof.
  intros H K. pose proof (says_next q l s H) as Hn. unfold bind, ret. destruct (list_next l s) as [[o l'] s1|]; [|done]. destruct Hn as (-> & Ho & Hs).
  destruct (gsp_next S q) as [o1 q1]. cbn [fst snd] in *. subst. by apply K.
Qed.
Lemma loop_same f : forall v parent child remains q l s, says q l ->
  from_bfs_loop (fun q => ret (gsp_next S q)) f v parent child remains q s = from_bfs_loop list_next f v parent child remains l s.
Proof.
  induction f as [|f IH]; intros v parent child remains q l s H; [done|]. cbn [from_bfs_loop]. apply next_same; [done|]. intros o q1 l1 H1. cbn [fst snd].
  destruct o as [[[a dg] ds]|]; [|done]. apply bind_same; [done|]. intros _ s1. apply bind_same; [done|]. intros rem s2. apply bind_same; [done|]. intros g s3.
  apply bind_same; [done|]. intros pr s4. by apply IH.
Qed.
Lemma tree_same l vs s : says (gsp_from l) vs -> tree_from_source S l s = tree_from_bfs list_next vs s.
Proof.
  intros H. unfold tree_from_source, tree_from_bfs. apply next_same; [done|]. intros o q1 l1 H1. cbn [fst snd]. apply bind_same; [done|]. intros [[a dg] ds] s1.
  apply bind_same; [done|]. intros v s2. apply bind_same; [done|]. intros _ s3. apply bind_same; [done|]. intros f s4. apply bind_same; [by apply loop_same|done].
Qed.
Lemma forest_same l vs dg ds s : says (gsp_from l) vs -> forest_from_source S l dg ds s = forest_from_bfs list_next vs dg ds s.
Proof.
  intros H. unfold forest_from_source, forest_from_bfs. apply bind_same; [done|]. intros v s2. apply bind_same; [done|]. intros _ s3. apply bind_same; [done|]. intros f s4.
  apply bind_same; [by apply loop_same|done].
Qed.
Lemma order_one (t : tree A) : level_order_f [t] = level_order t.
Proof. unfold level_order_f, level_order, height_f. simpl. rewrite Nat.max_0_r. apply flat_map_ext. intros n. by rewrite app_nil_r. Qed.

Theorem tree_from_source_prop (c : cst A) (env : gmap nat (item A)) (x : nat) (i : I) (t : tree A) : reachable c -> contents c env -> env !! x = None -> looks_like S i t ->
  exists p s, tree_from_source S [i] (c_mem c) = Ok p s /\ reachable (CSt (<[x := HT p]> (c_env c)) s) /\ contents (CSt (<[x := HT p]> (c_env c)) s) (<[x := ITree t]> env) /\
    m_log s = m_log (c_mem c).
Proof.
  intros Hr Hc Hx Hl. destruct (looks_order S [i] [t]) as (q & E & C); [by repeat constructor|]. rewrite order_one in E.
  rewrite (tree_same [i] (visit_of <$> level_order t)) by (exists q; by rewrite fmap_length).
  destruct (from_visits_contiguous c env x (ITree t) Hr Hc Hx) as (c' & v & hd & Hs & Hr' & Hlog & Hc' & _).
  unfold step in Hs. cbn [cstep] in Hs. pose proof (Hc x) as Hcx. destruct (c_env c !! x) eqn:Ex.
  { destruct Hcx as (it & _ & Hit). congruence. }
  unfold bind in Hs. destruct (tree_from_bfs list_next (visit_of <$> level_order t) (c_mem c)) as [p s|]; [|done]. unfold ret in Hs. inversion Hs; subst. eauto 10.
Qed.
Theorem forest_from_source_prop (c : cst A) (env : gmap nat (item A)) (x : nat) (l : list I) (ts : list (tree A)) : reachable c -> contents c env -> env !! x = None -> Forall2 (looks_like S) l ts ->
  exists p s, forest_from_source S l (length ts) (nodes_f ts) (c_mem c) = Ok p s /\ reachable (CSt (<[x := HF p]> (c_env c)) s) /\ contents (CSt (<[x := HF p]> (c_env c)) s) (<[x := IForest ts]> env) /\
    m_log s = m_log (c_mem c).
Proof.
  intros Hr Hc Hx Hl. destruct (looks_order S l ts Hl) as (q & E & C).
  rewrite (forest_same l (visit_of <$> level_order_f ts)) by (exists q; by rewrite fmap_length).
  destruct (from_visits_contiguous c env x (IForest ts) Hr Hc Hx) as (c' & v & hd & Hs & Hr' & Hlog & Hc' & _).
  unfold step in Hs. cbn [cstep] in Hs. pose proof (Hc x) as Hcx. destruct (c_env c !! x) eqn:Ex.
  { destruct Hcx as (it & _ & Hit). congruence. }
  unfold bind in Hs. destruct (forest_from_bfs list_next (visit_of <$> level_order_f ts) (length ts) (nodes_f ts) (c_mem c)) as [p s|]; [|done]. unfold ret in Hs. inversion Hs; subst. eauto 10.
Qed.

(** whatever the source says about lengths and sizes, if it has finitely many levels *)
Theorem source_as_visits k (l : list I) s : below_by S k l = [] -> tree_from_source S l s = tree_from_bfs list_next (shown S <$> levels S k l) s /\
  forall dg ds, forest_from_source S l dg ds s = forest_from_bfs list_next (shown S <$> levels S k l) dg ds s.
Proof.
  intros Hk. assert (says (gsp_from l) (shown S <$> levels S k l)) as H.
  { destruct (calls_levels S k l) as (q & E & C). exists q. rewrite fmap_length. split; [done|congruence]. }
  split; [by apply tree_same|]. intros dg ds. by apply forest_same.
Qed.
End build.
