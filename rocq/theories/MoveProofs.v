(** MoveProofs.v — operations do not move nodes: a walk through the modelled functions. *)
From stdpp Require Import base gmap list.
From Verif Require Import Spec ClientSpec MoveSpec Machine NodeModel BfsModel ClientModel Reach Sep Rep NodeProofs Inv Abs ClientProofs BfsBuild BfsIter ClientRef ClientStep ClientRead ClientProps CmpProofs.

Section stable.
Context {A : Type} (R : A -> A -> Prop) (Rr : forall a, R a a) (Rt : forall a b c, R a b -> R b c -> R a c).
Implicit Types (s : mem A) (p : ptr).

(** a cell that holds a value in [s'] held one in [s], related by [R], unless its block is at least [b] *)
Definition stable (b : nat) s s' : Prop := forall p n' a', m_heap s' !! p = Some n' -> dat_vals (n_dat n') = [a'] ->
  b <= p.1 \/ exists n a, m_heap s !! p = Some n /\ dat_vals (n_dat n) = [a] /\ R a a'.

Lemma stable_refl b s : stable b s s.
Proof. intros p n a Hp Ha. right. eauto. Qed.
Lemma stable_trans b s1 s2 s3 : stable b s1 s2 -> stable b s2 s3 -> stable b s1 s3.
Proof.
  intros H1 H2 p n a Hp Ha. destruct (H2 p n a Hp Ha) as [?|(n2 & a2 & Hp2 & Ha2 & HR)]; [by left|].
  destruct (H1 p n2 a2 Hp2 Ha2) as [?|(n1 & a1 & Hp1 & Ha1 & HR1)]; [by left|]. right. eauto 10.
Qed.

Definition StP (P : mem A -> Prop) (g : bool) (b : nat) {X} (m : M A X) : Prop :=
  forall s x s', P s -> m s = Ok x s' -> (g = true -> b <= m_fresh s) -> m_fresh s <= m_fresh s' /\ stable b s s'.
Definition St (g : bool) (b : nat) {X} (m : M A X) : Prop := StP (fun _ => True) g b m.
Definition pure {X} (m : M A X) : Prop := forall s x s', m s = Ok x s' -> s' = s.

Lemma StP_weak P g b {X} (m : M A X) : St g b m -> StP P g b m.
Proof. intros H s x s' _. by apply H. Qed.
Lemma St_false g b {X} (m : M A X) : St false b m -> St g b m.
Proof. intros H s x s' _ E _. by apply (H s x s'). Qed.
Lemma St_pure g b {X} (m : M A X) : pure m -> St g b m.
Proof. intros H s x s' _ E _. apply H in E as ->. split; [done|apply stable_refl]. Qed.
Lemma StP_bind P g b {X Y} (m : M A X) (k : X -> M A Y) : StP P g b m -> (forall x, St g b (k x)) -> StP P g b (bind m k).
Proof.
  intros H1 H2 s y s' HP E Hg. unfold bind in E. destruct (m s) as [x s1|] eqn:E1; [|done].
  destruct (H1 _ _ _ HP E1 Hg) as [F1 T1]. destruct (H2 x _ _ _ I E) as [F2 T2]; [intros G; specialize (Hg G); lia|].
  split; [lia|]. by eapply stable_trans.
Qed.
Lemma St_bind g b {X Y} (m : M A X) (k : X -> M A Y) : St g b m -> (forall x, St g b (k x)) -> St g b (bind m k).
Proof. apply StP_bind. Qed.
Lemma StP_pbind P g b {X Y} (m : M A X) (k : X -> M A Y) : pure m -> (forall x, StP P g b (k x)) -> StP P g b (bind m k).
Proof.
  intros H1 H2 s y s' HP E Hg. unfold bind in E. destruct (m s) as [x s1|] eqn:E1; [|done]. apply H1 in E1 as ->. by eapply H2.
Qed.
Lemma St_get g b p {Y} (k : node A -> M A Y) : (forall n, StP (fun s => m_heap s !! p = Some n) g b (k n)) -> St g b (bind (get p) k).
Proof.
  intros H s y s' _ E Hg. unfold bind, get in E. destruct (m_heap s !! p) as [n|] eqn:Ep; [|done]. by eapply (H n).
Qed.
Lemma StP_put g b p n n' : (dat_vals (n_dat n') = [] \/ n_dat n' = n_dat n \/ b <= p.1 \/ exists a a', dat_vals (n_dat n) = [a] /\ dat_vals (n_dat n') = [a'] /\ R a a') ->
  StP (fun s => m_heap s !! p = Some n) g b (put p n').
Proof.
  intros Hd s x s' Hp E _. unfold put in E. rewrite Hp in E. simplify_eq. split; [done|].
  intros q m a Hq Ha. simpl in Hq. destruct (decide (q = p)) as [->|Hne].
  - rewrite lookup_insert in Hq. simplify_eq. destruct Hd as [Hd|[Hd|[Hd|(a1 & a2 & H1 & H2 & H3)]]].
    + by rewrite Hd in Ha.
    + rewrite Hd in Ha. right. eauto.
    + by left.
    + rewrite H2 in Ha. simplify_eq. right. eauto.
  - rewrite lookup_insert_ne in Hq by done. right. eauto.
Qed.

Lemma pure_ret {X} (x : X) : pure (ret x).
Proof. intros s y s' H. unfold ret in H. by simplify_eq. Qed.
Lemma pure_fail {X} e : pure (fail e : M A X).
Proof. by intros s y s' H. Qed.
Lemma pure_gets {X} (f : mem A -> X) : pure (gets f).
Proof. intros s y s' H. unfold gets in H. by simplify_eq. Qed.
Lemma pure_fuel : pure (fuel : M A nat).
Proof. apply pure_gets. Qed.
Lemma pure_get p : pure (get p : M A (node A)).
Proof. intros s y s' H. unfold get in H. destruct (m_heap s !! p); by simplify_eq. Qed.
Lemma pure_unwrap {X} (o : option X) : pure (unwrap o : M A X).
Proof. destruct o; [apply pure_ret|apply pure_fail]. Qed.
Lemma pure_sub a b : pure (sub a b : M A nat).
Proof. unfold sub. destruct (Nat.leb b a); [apply pure_ret|apply pure_fail]. Qed.
Lemma pure_bind {X Y} (m : M A X) (k : X -> M A Y) : pure m -> (forall x, pure (k x)) -> pure (bind m k).
Proof.
  intros H1 H2 s y s' E. unfold bind in E. destruct (m s) as [x s1|] eqn:E1; [|done]. apply H1 in E1 as ->. by eapply H2.
Qed.
Create HintDb mv.
Hint Resolve pure_ret pure_fail pure_gets pure_fuel pure_get pure_unwrap pure_sub : mv.
Ltac pu := repeat first
  [ solve [auto with mv nocore]
  | match goal with |- pure (bind _ _) => apply pure_bind; [|intros] end
  | progress cbv beta
  | match goal with |- pure (match ?x with _ => _ end) => destruct x end ].

Lemma St_upd g b p f : (forall n, n_dat (f n) = n_dat n) -> St g b (upd p f).
Proof. intros H. unfold upd. apply St_get. intros n. apply StP_put. right. left. apply H. Qed.
Hint Extern 1 (St _ _ (upd _ _)) => (apply St_upd; intros; reflexivity) : mv.

(** pure functions *)
Lemma pure_dat_ref (d : dat A) : pure (dat_ref d).
Proof. unfold dat_ref. pu. Qed.
Hint Resolve pure_dat_ref : mv.
Lemma pure_data p : pure (data p : M A A).
Proof. unfold data. pu. Qed.
Lemma pure_has_no_child p : pure (has_no_child p : M A bool).
Proof. unfold has_no_child. pu. Qed.
Lemma pure_degree p : pure (degree p : M A nat).
Proof. unfold degree. pu. Qed.
Lemma pure_node_count p : pure (node_count p : M A nat).
Proof. unfold node_count. pu. Qed.
Lemma pure_parent_loop f : forall p, pure (parent_loop f p : M A (option ptr)).
Proof. induction f as [|f IH]; intros p; simpl; pu. Qed.
Lemma pure_parent p : pure (parent p : M A (option ptr)).
Proof. unfold parent. pu. apply pure_parent_loop. Qed.
Lemma pure_front p : pure (front p : M A (option ptr)).
Proof. unfold front. pu. Qed.
Lemma pure_back p : pure (back p : M A (option ptr)).
Proof. unfold back. pu. Qed.
Lemma pure_ci_next it : pure (ci_next it : M A (option ptr * citer)).
Proof. unfold ci_next. pu. Qed.
Lemma pure_iter p : pure (iter p : M A citer).
Proof. unfold iter. pu. Qed.
Hint Resolve pure_data pure_has_no_child pure_degree pure_node_count pure_parent pure_front pure_back pure_ci_next pure_iter : mv.
Lemma pure_ci_collect f : forall it, pure (ci_collect f it : M A (list ptr)).
Proof. induction f as [|f IH]; intros it; simpl; pu. Qed.
Lemma pure_children p : pure (children p : M A (list ptr)).
Proof. unfold children. pu. apply pure_ci_collect. Qed.
Hint Resolve pure_children : mv.
Lemma pure_datas ps : pure (datas ps : M A (list A)).
Proof. induction ps as [|p ps IH]; simpl; pu. Qed.
Lemma pure_data_opt o : pure (data_opt o : M A (option A)).
Proof. unfold data_opt. pu. Qed.
Lemma pure_resolve path : forall p, pure (resolve p path : M A (option ptr)).
Proof. induction path as [|i path IH]; intros p; simpl; pu. Qed.
Lemma pure_sp_next_node q : pure (sp_next_node q : M A (option (ptr * nat * nat) * list citer)).
Proof. induction q as [|it q IH]; simpl; pu. Qed.
Hint Resolve pure_datas pure_data_opt pure_resolve pure_sp_next_node : mv.
Lemma pure_sp_next q : pure (sp_next q : M A (option visit * list citer)).
Proof. unfold sp_next. pu. Qed.
Lemma pure_bfs p : pure (bfs p : M A (list citer * (nat * nat))).
Proof. unfold bfs. pu. Qed.
Lemma pure_bfs_children p : pure (bfs_children p : M A (list citer * (nat * nat))).
Proof. unfold bfs_children. pu. Qed.
Lemma pure_slot v i : pure (slot v i : M A ptr).
Proof. unfold slot. pu. Qed.
Lemma pure_hint fr : pure (into_iter_size_hint fr : M A nat).
Proof. unfold into_iter_size_hint. pu. Qed.
Hint Resolve pure_sp_next pure_bfs pure_bfs_children pure_slot pure_hint : mv.
Lemma pure_collect {S X} (next : S -> M A (option X * S)) f : (forall it, pure (next it)) -> forall it, pure (collect next f it).
Proof. intros Hn. induction f as [|f IH]; intros it; simpl; pu. Qed.
Lemma pure_bfs_visits p : pure (bfs_visits p : M A (list visit)).
Proof. unfold bfs_visits. pu. apply pure_collect. pu. Qed.
Lemma pure_bfs_children_visits p : pure (bfs_children_visits p : M A (list visit)).
Proof. unfold bfs_children_visits. pu. apply pure_collect. pu. Qed.
Lemma pure_list_next {X} (l : list X) : pure (list_next l : M A (option X * list X)).
Proof. unfold list_next. pu. Qed.
Lemma pure_skip_full f : forall v parent child rem, pure (skip_full f v parent child rem : M A (nat * nat)).
Proof. induction f as [|f IH]; intros v parent child [|rem]; simpl; pu. Qed.
Hint Resolve pure_bfs_visits pure_bfs_children_visits pure_list_next pure_skip_full : mv.

(** the walk *)
Ltac walk := repeat first
  [ solve [auto with mv nocore]
  | solve [apply St_pure; pu]
  | solve [apply StP_weak; auto with mv nocore]
  | progress cbv beta
  | match goal with |- St _ _ (bind _ _) => apply St_bind; [|intros] end
  | match goal with |- St _ _ (match ?x with _ => _ end) => destruct x end ].

Lemma St_log g b (l : list A) : St g b (log_drop l).
Proof. intros s x s' _ E _. unfold log_drop in E. simplify_eq. split; [done|]. apply (stable_refl b s). Qed.
Lemma St_decr g b v : St g b (decr_ref v : M A unit).
Proof.
  intros s x s' _ E _. unfold decr_ref in E. destruct (m_vec s !! v) as [[cap [|[|rc]]]|]; simplify_eq; (split; [done|]).
  - intros p n a Hp Ha. simpl in Hp. apply map_filter_lookup_Some in Hp as [Hp _]. right. eauto.
  - apply (stable_refl b s).
Qed.
Lemma St_rc_drop g b p : St g b (rc_drop p : M A unit).
Proof.
  intros s x s' _ E _. unfold rc_drop in E. destruct (m_cnt s !! p) as [[|[|c]]|]; [done| | |done]; destruct (m_heap s !! p) as [n|] eqn:Ep; simplify_eq; (split; [done|]).
  - intros q m a Hp Ha. simpl in Hp. apply lookup_delete_Some in Hp as [_ Hp]. right. eauto.
  - apply (stable_refl b s).
Qed.
Hint Resolve St_log St_decr St_rc_drop : mv.
Lemma St_drop_node g b p : St g b (drop_node p : M A unit).
Proof.
  unfold drop_node. apply St_get. intros n. apply StP_bind; [apply StP_put; by left|]. intros _. walk.
Qed.
Lemma St_connect g b p (q : ptr) : St g b (connect_next p q : M A unit).
Proof. unfold connect_next. walk. Qed.
Lemma St_inc_up g b f : forall o c, St g b (inc_up f o c : M A unit).
Proof.
  induction f as [|f IH]; intros [p|] c; simpl; try solve [walk]. apply St_get. intros n. apply StP_bind; [apply StP_put; by right; left|]. intros _. apply IH.
Qed.
Lemma St_dec_up g b f : forall o c, St g b (dec_up f o c : M A unit).
Proof.
  induction f as [|f IH]; intros [p|] c; simpl; try solve [walk]. apply St_get. intros n. apply StP_pbind; [pu|]. intros d.
  apply StP_bind; [apply StP_put; by right; left|]. intros _. apply IH.
Qed.
Hint Resolve St_drop_node St_connect St_inc_up St_dec_up : mv.
Lemma St_inc_sizes g b p d c : St g b (inc_sizes p d c : M A unit).
Proof. unfold inc_sizes. apply St_get. intros n. apply StP_bind; [apply StP_put; by right; left|]. intros _. walk. Qed.
Lemma St_dec_sizes g b p d c : St g b (dec_sizes p d c : M A unit).
Proof.
  unfold dec_sizes. apply St_get. intros n. do 2 (apply StP_pbind; [pu|]; intros ?). apply StP_bind; [apply StP_put; by right; left|]. intros _. walk.
Qed.
Hint Resolve St_inc_sizes St_dec_sizes : mv.
Lemma St_tree_from_node g b p : St g b (tree_from_node p : M A ptr).
Proof. unfold tree_from_node. walk. Qed.
Hint Resolve St_tree_from_node : mv.
Lemma St_insert_prev g b p t : St g b (insert_prev_sib p t : M A unit).
Proof. unfold insert_prev_sib. walk. Qed.
Lemma St_insert_next g b p t : St g b (insert_next_sib p t : M A unit).
Proof. unfold insert_next_sib. walk. Qed.
Lemma St_detach g b p : St g b (detach p : M A ptr).
Proof. unfold detach. walk. Qed.
Lemma St_push_front g b p t : St g b (push_front p t : M A unit).
Proof. unfold push_front. walk. Qed.
Lemma St_push_back g b p t : St g b (push_back p t : M A unit).
Proof. unfold push_back. walk. Qed.
Lemma St_pop_front g b p : St g b (pop_front p : M A (option ptr)).
Proof. unfold pop_front. walk. Qed.
Lemma St_pop_back g b p : St g b (pop_back p : M A (option ptr)).
Proof. unfold pop_back. walk. Qed.
Hint Resolve St_insert_prev St_insert_next St_detach St_push_front St_push_back St_pop_front St_pop_back : mv.
Lemma St_set_ups g b f : forall it p, St g b (set_ups f it p : M A unit).
Proof. induction f as [|f IH]; intros it p; simpl; walk. Qed.
Hint Resolve St_set_ups : mv.
Lemma St_forest_set_up g b fr p : St g b (forest_set_up fr p : M A unit).
Proof. unfold forest_set_up. walk. Qed.
Lemma St_forest_clear g b fr : St g b (forest_clear fr : M A unit).
Proof. unfold forest_clear. walk. Qed.
Hint Resolve St_forest_set_up St_forest_clear : mv.
Lemma St_drop_loop g b f : forall p, St g b (drop_loop f p : M A unit).
Proof. induction f as [|f IH]; intros p; simpl; walk. Qed.
Hint Resolve St_drop_loop : mv.
Lemma St_drop_tree g b p : St g b (drop_tree p : M A unit).
Proof. unfold drop_tree. walk. Qed.
Hint Resolve St_drop_tree : mv.
Lemma St_prepend g b p fr : St g b (prepend p fr : M A unit).
Proof. unfold prepend, prepend_body. walk. Qed.
Lemma St_append g b p fr : St g b (append p fr : M A unit).
Proof. unfold append, append_body. walk. Qed.
Hint Resolve St_prepend St_append : mv.

Lemma St_make_node b (d : dat A) : St true b (make_node d).
Proof.
  intros s x s' _ E Hg. unfold make_node in E. simplify_eq. split; [simpl; lia|].
  intros p n a Hp Ha. simpl in Hp. apply lookup_insert_Some in Hp as [[<- <-]|[Hne Hp]]; [left; simpl; auto|right; eauto].
Qed.
Lemma St_forest_new g b : St g b (forest_new : M A ptr).
Proof.
  intros s x s' _ E Hg. unfold forest_new, make_node in E. simplify_eq. split; [simpl; lia|].
  intros p n a Hp Ha. simpl in Hp. apply lookup_insert_Some in Hp as [[<- <-]|[Hne Hp]]; [done|right; eauto].
Qed.
Lemma St_tree_new b (a : A) : St true b (tree_new a).
Proof. apply St_make_node. Qed.
Lemma St_take_data g b p : St g b (take_data p : M A A).
Proof.
  unfold take_data. apply St_get. intros n. destruct (n_dat n) eqn:En; try solve [apply StP_weak; walk];
    (apply StP_bind; [apply StP_put; by left|]; intros _; walk).
Qed.
Hint Resolve St_make_node St_forest_new St_tree_new St_take_data : mv.
Lemma St_into_data g b p : St g b (into_data p : M A A).
Proof. unfold into_data. apply St_get. intros n. apply StP_bind; [apply StP_put; by left|]. intros _. unfold into_inner. walk. Qed.
Hint Resolve St_into_data : mv.
Lemma St_abandon b p : St true b (abandon p : M A (ptr * ptr)).
Proof. unfold abandon. walk. Qed.
Hint Resolve St_abandon : mv.
Lemma into_data_clears p s x s' n : into_data p s = Ok x s' -> m_heap s' !! p = Some n -> dat_vals (n_dat n) = [].
Proof.
  unfold into_data. intros E Hn. unfold bind at 1 in E. unfold get in E. destruct (m_heap s !! p) as [n0|] eqn:Ep; [|done].
  unfold bind at 1, put in E. rewrite Ep in E.
  set (s1 := set_heap s _) in E.
  assert (St false 0 (into_inner (n_dat n0))) as HS by (unfold into_inner; walk).
  destruct (dat_vals (n_dat n)) as [|a l] eqn:Ea; [done|].
  assert (dat_vals (n_dat n) = [a]) as Ea' by (destruct (n_dat n); simpl in *; simplify_eq; done).
  assert (forall b, St false b (into_inner (n_dat n0))) as HSb by (intros b; unfold into_inner; walk).
  destruct (HSb (S p.1) _ _ _ I E) as [_ Hst]; [done|]. destruct (Hst _ _ _ Hn Ea') as [?|(n2 & a2 & Hn2 & Ha2 & _)]; [lia|].
  unfold s1 in Hn2. simpl in Hn2. rewrite lookup_insert in Hn2. by simplify_eq.
Qed.
(** the node made by [abandon] is gone at the end of [split] *)
Lemma St_split g b p : St g b (split_tree p : M A (A * ptr * nat)).
Proof.
  unfold split_tree. apply St_bind; [walk|]. intros n0. intros s x s' _ E _.
  unfold bind at 1 in E. destruct (abandon p s) as [fr s1|] eqn:E1; [|done].
  unfold bind at 1 in E. destruct (into_data fr.2 s1) as [a s2|] eqn:E2; [|done]. unfold ret in E. simplify_eq.
  unfold abandon in E1. unfold bind at 1 in E1. destruct (take_data p s) as [a0 s0|] eqn:E0; [|done].
  unfold bind in E1. destruct (make_node (DScat a0 (0,0)) s0) as [np s3|] eqn:E3; [|done]. unfold ret in E1. simplify_eq. simpl in *.
  destruct (St_take_data false b p _ _ _ I E0) as [F0 T0]; [done|]. destruct (St_into_data false b np _ _ _ I E2) as [F2 T2]; [done|].
  unfold make_node in E3. simplify_eq. simpl in *. split; [lia|].
  intros q n' a' Hn' Ha'. pose proof (into_data_clears _ _ _ _ n' E2) as Hcl.
  destruct (T2 _ _ _ Hn' Ha') as [?|(n2 & a2 & Hn2 & Ha2 & HR2)]; [by left|]. simpl in Hn2.
  apply lookup_insert_Some in Hn2 as [[<- <-]|[Hne Hn2]]; [specialize (Hcl Hn'); congruence|].
  destruct (T0 _ _ _ Hn2 Ha2) as [?|(n1 & a1 & Hn1 & Ha1 & HR1)]; [by left|]. right. eauto 10.
Qed.
Hint Resolve St_split : mv.
Lemma St_into_iter_next g b fr : St g b (into_iter_next fr : M A (option ptr)).
Proof. unfold into_iter_next. walk. Qed.
Hint Resolve St_into_iter_next : mv.
Lemma St_drain g b f : forall fr, St g b (into_iter_drain f fr : M A unit).
Proof. induction f as [|f IH]; intros fr; cbn [into_iter_drain]; walk. Qed.
Hint Resolve St_drain : mv.
Lemma St_into_iter_drop g b fr : St g b (into_iter_drop fr : M A unit).
Proof. unfold into_iter_drop. walk. Qed.
Lemma St_tree_into_iter g b p : St g b (tree_into_iter p : M A ptr).
Proof. unfold tree_into_iter. walk. Qed.
Hint Resolve St_into_iter_drop St_tree_into_iter : mv.
Lemma St_isp_next g b q : St g b (isp_next q : M A (option visit * list ptr)).
Proof. induction q as [|fr q IH]; cbn [isp_next]; walk. Qed.
Lemma St_isp_drop g b q : St g b (isp_drop q : M A unit).
Proof. induction q as [|fr q IH]; cbn [isp_drop]; walk. Qed.
Lemma St_tree_into_bfs g b p : St g b (tree_into_bfs p : M A (list ptr * (nat * nat))).
Proof. unfold tree_into_bfs. walk. Qed.
Lemma St_forest_into_bfs g b p : St g b (forest_into_bfs p : M A (list ptr * (nat * nat))).
Proof. unfold forest_into_bfs. walk. Qed.
Hint Resolve St_isp_next St_isp_drop St_tree_into_bfs St_forest_into_bfs : mv.
Lemma St_take_visits g b n : forall q, St g b (take_visits n q : M A _).
Proof. induction n as [|n IH]; intros q; cbn [take_visits]; walk. Qed.
Lemma St_into_names g b fr xs : forall env, St g b (into_names fr xs env : M A _).
Proof. induction xs as [|x xs IH]; intros env; cbn [into_names]; walk. Qed.
Hint Resolve St_take_visits St_into_names : mv.

(** building a buffer *)
Lemma St_vec_make g b v par i (d : dat A) dg ds : b <= v -> St g b (vec_make_node v par i d dg ds).
Proof.
  intros Hv s x s' _ E _. unfold vec_make_node in E. unfold bind at 1, get in E. destruct (m_heap s !! ((v, i) : ptr)) as [n|] eqn:Ep; [|done].
  unfold bind at 1, log_drop in E. unfold bind, put in E. cbn [m_heap] in E. rewrite Ep in E. unfold ret in E. simplify_eq. split; [done|].
  intros q m a Hq Ha. simpl in Hq. apply lookup_insert_Some in Hq as [[<- <-]|[Hne Hq]]; [by left|right; eauto].
Qed.
Hint Resolve St_vec_make : mv.
Lemma St_append_child g b v par child (a : A) dg ds : b <= v -> St g b (append_child v par child a dg ds).
Proof. intros Hv. unfold append_child, make_piled_node. walk. Qed.
Hint Resolve St_append_child : mv.
Lemma St_from_loop {S} g b (next : S -> M A (option visit * S)) f : (forall it, St g b (next it)) -> forall v par child rem it, b <= v ->
  St g b (from_bfs_loop next f v par child rem it).
Proof.
  intros Hn. induction f as [|f IH]; intros v par child rem it Hv; cbn [from_bfs_loop]; walk.
Qed.
Hint Resolve St_from_loop : mv.
Lemma St_new_vec b N {Y} (k : nat -> M A Y) : (forall v, b <= v -> St true b (k v)) -> St true b (bind (new_vec N) k).
Proof.
  intros Hk s y s' _ E Hg. unfold bind, new_vec in E. cbv beta zeta iota in E. specialize (Hg eq_refl). destruct (Hk _ Hg _ _ _ I E) as [F T]; [simpl; lia|].
  simpl in F. split; [lia|]. eapply stable_trans; [|exact T]. intros p n a Hp Ha. simpl in Hp.
  apply lookup_union_Some_raw in Hp as [Hp|[_ Hp]]; [|right; eauto].
  apply elem_of_list_to_map_2 in Hp. unfold vec_slots in Hp. apply elem_of_list_fmap in Hp as (i & [= -> ->] & _). done.
Qed.
Lemma St_tree_from_bfs {S} b (next : S -> M A (option visit * S)) it : (forall it, St true b (next it)) -> St true b (tree_from_bfs next it).
Proof.
  intros Hn. unfold tree_from_bfs. apply St_bind; [apply Hn|]. intros r. apply St_bind; [walk|]. intros [[a dg] ds].
  apply St_new_vec. intros v Hv. unfold make_piled_node. walk.
Qed.
Lemma St_forest_from_bfs {S} b (next : S -> M A (option visit * S)) it dg ds : (forall it, St true b (next it)) -> St true b (forest_from_bfs next it dg ds).
Proof.
  intros Hn. unfold forest_from_bfs. apply St_new_vec. intros v Hv. walk.
Qed.
Lemma St_map_next {S} g b f (next : S -> M A (option visit * S)) it : (forall it, St g b (next it)) -> St g b (map_next f next it).
Proof. intros Hn. unfold map_next. walk. Qed.
Lemma St_deep_clone b p : St true b (deep_clone p : M A ptr).
Proof. unfold deep_clone. walk. apply St_tree_from_bfs. intros it. walk. Qed.
Lemma St_deep_clone_forest b p : St true b (deep_clone_forest p : M A ptr).
Proof. unfold deep_clone_forest. walk. apply St_forest_from_bfs. intros it. walk. Qed.
Hint Resolve St_deep_clone St_deep_clone_forest : mv.

(** writing data *)
Lemma St_modify g b p (f : A -> A) : (forall a, R a (f a)) -> St g b (modify_data p f).
Proof.
  intros Hf s x s' _ E _. unfold modify_data in E. unfold bind at 1, get in E. destruct (m_heap s !! p) as [n|] eqn:Ep; [|done].
  unfold bind at 1 in E. destruct (dat_map f (n_dat n) s) as [d s1|] eqn:Ed; [|done].
  assert (s1 = s /\ exists a, dat_vals (n_dat n) = [a] /\ dat_vals d = [f a]) as (-> & a & Ha & Hd).
  { destruct (n_dat n); simpl in Ed; unfold ret, fail in Ed; simplify_eq; simpl; eauto. }
  eapply (StP_put false b p n (set_dat d n)); [|exact Ep|exact E|done].
  right. right. right. exists a, (f a). eauto.
Qed.
Lemma St_bfs_mut_loop b g f : (forall n a, R a (g n a)) -> forall n q, St false b (bfs_mut_loop f n g q : M A unit).
Proof. intros Hg. induction f as [|f IH]; intros n q; simpl; walk. by apply St_modify. Qed.

Definition act_ok (a : act A) : Prop := match a with AMod _ f => forall a, R a (f a) | _ => True end.
Lemma St_each_act b h cs a env : act_ok a -> St false b (each_act_c h cs a env).
Proof. intros Ha. destruct a; unfold each_act_c; walk. by apply St_modify. Qed.
Lemma St_each_acts b h acts : Forall act_ok acts -> forall cs env, St false b (each_acts_c h cs acts env).
Proof. induction 1 as [|a acts Ha _ IH]; intros cs env; simpl; walk. by apply St_each_act. Qed.
Lemma St_each_loop b h f : forall it cs acts env, Forall (Forall act_ok) acts -> St false b (each_loop f h it cs acts env).
Proof.
  induction f as [|f IH]; intros it cs acts env Ha; cbn [each_loop]; walk.
  - apply St_each_acts. destruct Ha; simpl; [constructor|done].
  - apply IH. destruct Ha; simpl; [constructor|done].
Qed.

Definition op_ok (o : op A) : Prop :=
  match o with
  | OModify _ _ f => forall a, R a (f a)
  | OBfsMut _ _ g | OBfsChildrenMut _ _ g => forall n a, R a (g n a)
  | OEach _ _ acts => Forall (Forall act_ok) acts
  | _ => True
  end.
Lemma St_with_node g b env h path k : (forall hd p, St g b (k hd p)) -> St g b (with_node (A:=A) env h path k).
Proof. intros H. unfold with_node. walk. Qed.
Lemma St_cstep b env o : op_ok o -> St (creates o) b (cstep env o).
Proof.
  intros Ho. destruct o; cbn [cstep creates op_ok] in *; try (apply St_with_node; intros hd p); walk.
  all: try (apply St_with_node; intros; walk).
  all: try by apply St_modify. all: try by apply St_each_loop.
  all: try (unfold bfs_mut, bfs_children_mut; walk; by apply St_bfs_mut_loop).
  all: try (apply St_tree_from_bfs); try (apply St_forest_from_bfs); intros; try (apply St_map_next; intros); walk.
Qed.
End stable.

Section move.
Context {A : Type}.
Implicit Types (s : mem A) (p q : ptr) (x y : tree A).

Lemma dat_vals_of' p pl (v : option A) : dat_vals (dat_of p pl v) = match v with Some a => [a] | None => [] end.
Proof. by destruct pl, v. Qed.

(** the nodes a client can reach are exactly the cells that hold a value *)
Lemma node_cell (c : cst A) env p x : reachable c -> contents c env -> node_is c env p x ->
  exists n, m_heap (c_mem c) !! p = Some n /\ dat_vals (n_dat n) = [root_of x].
Proof.
  intros Hr Hc Hn. destruct (at_world c env Hr Hc) as (W & HI & Hnode & _). destruct (Hnode _ _ Hn) as (C & [q pl v ks] & [W' HW] & Ht & <-).
  apply (MInv_perm _ _ _ _ HW) in HI. inversion Ht; subst. simpl.
  pose proof (lookup_at _ _ _ _ _ _ _ _ HI) as HL. eexists. split; [exact HL|]. apply dat_vals_of'.
Qed.

Lemma cell_node (c : cst A) env p n a : reachable c -> contents c env -> m_heap (c_mem c) !! p = Some n -> dat_vals (n_dat n) = [a] ->
  exists x, node_is c env p x /\ root_of x = a.
Proof.
  intros Hr Hc Hp Ha. destruct (reachable_contents _ _ Hr Hc) as (Wm & HR & _).
  assert (live c p) as (h & hd & path & Hh & Hres).
  { apply (live_addrs c _ _ Wm p HR eq_refl). destruct (decide (p ∈ addrss (@ClientRef.vals A [] Wm))) as [|Hn]; [done|].
    rewrite (mi_clean _ _ _ (re_inv _ _ _ _ HR) _ _ Hp Hn (inE_nil _)) in Ha. done. }
  pose proof (RE_lookup _ _ _ _ h HR) as H. cbn [s_env] in H. destruct (env !! h) as [it|] eqn:Hit; [|destruct H; congruence].
  destruct H as (t & Ht & Hri & Henv & _). rewrite Hh in Henv. simplify_eq.
  pose proof (RE_locate _ _ _ _ _ _ _ path HR Ht Hri) as HL. destruct (kids_at it path) as [xs|]; [|destruct HL; congruence].
  destruct HL as (C & p' & pl & v & ks & Heq & Haf & Hres' & HI & Hks & _ & Hn & _). rewrite Hres in Hres'. assert (p' = p) as -> by congruence.
  destruct v as [b|].
  - exists (Tr b xs). split; [by exists h, (hof t), it, path|].
    destruct (node_cell c env p (Tr b xs) Hr Hc) as (n' & Hn' & Hd); [by exists h, (hof t), it, path|]. simplify_eq. simpl in *. congruence.
  - exfalso. rewrite (lookup_at _ _ _ _ _ _ _ _ HI) in Hp. simplify_eq. simpl in Ha. by rewrite dat_vals_of' in Ha.
Qed.

Lemma no_writes (o : op A) : writes o = false -> op_ok eq o.
Proof.
  destruct o as [| | | | | | | | | | | | | | | | | | | | | | | | | | | | | | |h path acts]; simpl; try done.
  intros H. induction acts as [|l acts IH]; [constructor|]. simpl in H. apply orb_false_elim in H as [H1 H2]. constructor; [|by apply IH].
  clear -H1. induction l as [|a l IH]; [constructor|]. simpl in H1. apply orb_false_elim in H1 as [H1 H2]. constructor; [by destruct a|by apply IH].
Qed.
Lemma any_ok (o : op A) : op_ok (fun _ _ => True) o.
Proof.
  destruct o as [| | | | | | | | | | | | | | | | | | | | | | | | | | | | | | |h path acts]; simpl; try done.
  apply Forall_forall. intros l _. apply Forall_forall. intros [] _; simpl; done.
Qed.

Lemma step_stable (R : A -> A -> Prop) (Rr : forall a, R a a) (Rt : forall a b c, R a b -> R b c -> R a c) (c c' : cst A) o r b : op_ok R o ->
  step c o = Done r c' -> (creates o = true -> b <= m_fresh (c_mem c)) -> stable R b (c_mem c) (c_mem c').
Proof.
  intros Ho H Hb. unfold step in H. destruct (cstep (c_env c) o (c_mem c)) as [[r' env'] s'|] eqn:E; [|done]. simplify_eq. simpl.
  by apply (St_cstep R Rr Rt b (c_env c) o Ho _ _ _ I E).
Qed.

(** an address holds the same value before and after, when both are reachable *)
Lemma same_data (c c' : cst A) env env' o r p x y : reachable c -> contents c env -> step c o = Done r c' -> reachable c' -> contents c' env' ->
  writes o = false -> node_is c env p x -> node_is c' env' p y -> root_of x = root_of y.
Proof.
  intros Hr Hc Hs Hr' Hc' Hw Hx Hy. destruct (node_cell _ _ _ _ Hr Hc Hx) as (n & Hn & Ha). destruct (node_cell _ _ _ _ Hr' Hc' Hy) as (n' & Hn' & Ha').
  assert (p.1 < m_fresh (c_mem c)) as Hlt.
  { destruct (reachable_contents _ _ Hr Hc) as (Wm & HR & _). eapply MInv_fresh; [apply (re_inv _ _ _ _ HR)|eauto]. }
  destruct (step_stable eq ltac:(done) ltac:(congruence) c c' o r (m_fresh (c_mem c)) (no_writes o Hw) Hs ltac:(done) _ _ _ Hn' Ha') as [?|(n1 & a1 & H1 & H2 & ->)]; [lia|].
  congruence.
Qed.

Lemma stay_put (c c' : cst A) env env' o r p y : reachable c -> contents c env -> step c o = Done r c' -> reachable c' -> contents c' env' ->
  creates o = false -> node_is c' env' p y -> exists x, node_is c env p x /\ (writes o = false -> root_of x = root_of y).
Proof.
  intros Hr Hc Hs Hr' Hc' Hcr Hy. destruct (node_cell _ _ _ _ Hr' Hc' Hy) as (n' & Hn' & Ha').
  assert (creates o = true -> S p.1 <= m_fresh (c_mem c)) as Hcr2 by (rewrite Hcr; intros; discriminate).
  destruct (step_stable (fun _ _ => True) ltac:(done) ltac:(done) c c' o r (S p.1) (any_ok o) Hs Hcr2 _ _ _ Hn' Ha') as [?|(n1 & a1 & H1 & H2 & _)]; [lia|].
  destruct (cell_node _ _ _ _ _ Hr Hc H1 H2) as (x & Hx & _). exists x. split; [done|]. intros Hw. exact (same_data c c' env env' o r p x y Hr Hc Hs Hr' Hc' Hw Hx Hy).
Qed.

Lemma reachable_next (c c' : cst A) o r : reachable c -> step c o = Done r c' -> reachable c'.
Proof.
  intros (os & rs & H) Hs. exists (os ++ [o]), (rs ++ [r]). revert rs H. generalize (@cst0 A) as c0.
  induction os as [|o1 os IH]; intros c0 rs H; simpl in *.
  - simplify_eq. by rewrite Hs.
  - destruct (step c0 o1) as [r1 c1|] eqn:E1; [|done]. destruct (run c1 os) as [rs1 c2|] eqn:E2; [|done]. simplify_eq. by rewrite (IH _ _ E2).
Qed.

(** distinct values: a value tells the node *)
Lemma NoDup_flat_map {X} (g : X -> list A) l (x y : X) (a : A) : NoDup (flat_map g l) -> x ∈ l -> y ∈ l -> a ∈ g x -> a ∈ g y -> x = y.
Proof.
  induction l as [|z l IH]; intros HN Hx Hy Hax Hay; [by apply elem_of_nil in Hx|]. simpl in HN. apply NoDup_app in HN as (N1 & N2 & N3).
  assert (forall w, w ∈ l -> a ∈ g w -> a ∈ flat_map g l) as Hin.
  { intros w Hw Ha. apply elem_of_list_In, in_flat_map. exists w. split; by apply elem_of_list_In. }
  apply elem_of_cons in Hx as [->|Hx]; apply elem_of_cons in Hy as [->|Hy]; eauto.
  - exfalso. eapply N2; eauto.
  - exfalso. eapply N2; eauto.
Qed.
Definition cv (x : ptr * node A) : list A := dat_vals (n_dat x.2).
Lemma lays_vals u (ks : list (atree A)) nx : (forall k, k ∈ ks -> forall u pv nx, flat_map cv (lay u pv nx k) ≡ₚ apost k) ->
  forall pv, flat_map cv (lays u pv ks nx) ≡ₚ aposts ks.
Proof.
  induction ks as [|k ks IH]; intros H pv; [done|]. cbn [lays]. rewrite flat_map_app, H by left. unfold aposts. cbn [flat_map]. f_equiv. apply IH. intros k' Hk'. apply H. by right.
Qed.
Lemma lay_vals (t : atree A) : forall u pv nx, flat_map cv (lay u pv nx t) ≡ₚ apost t.
Proof.
  induction t as [p pl v ks IH] using atree_ind'. intros u pv nx. rewrite lay_eq. cbn [flat_map]. rewrite lays_vals.
  - unfold cv at 1. cbn [snd mk n_dat]. rewrite dat_vals_of'. simpl. by rewrite Permutation_app_comm.
  - intros k Hk. by apply (proj1 (Forall_forall _ _) IH).
Qed.
Lemma layW_vals W : flat_map cv (layW W) ≡ₚ aposts W.
Proof. induction W as [|t W IH]; [done|]. rewrite layW_cons, flat_map_app, lay_vals, IH. done. Qed.

Lemma world_values s env senv (Wm : gmap nat (atree A)) : @ClientRef.REnv A [] [] s env senv Wm -> aposts (@ClientRef.vals A [] Wm) ≡ₚ values senv.
Proof.
  intros HR. assert (apost <$> Wm = item_post <$> senv) as Heq.
  { apply map_eq. intros h. rewrite !lookup_fmap. pose proof (re_ri _ _ _ _ HR h) as H. destruct H as [t it Hri|]; simpl; [|done]. f_equal. by apply ri_post. }
  assert (forall (X : Type) (g : X -> list A) (m : gmap nat X), flat_map (fun hx => g hx.2) (map_to_list m) ≡ₚ flat_map snd (map_to_list (g <$> m))) as Hg.
  { intros X g m. rewrite map_to_list_fmap. induction (map_to_list m) as [|[h x] l IH]; [done|]. simpl. by rewrite IH. }
  unfold values, ClientRef.vals. rewrite app_nil_r, (Hg _ item_post), <-Heq, <-(Hg _ apost).
  unfold aposts. induction (map_to_list Wm) as [|[h t] l IH]; [done|]. simpl. by rewrite IH.
Qed.

Lemma value_tells (c : cst A) env p q x y : reachable c -> contents c env -> NoDup (values env) -> node_is c env p x -> node_is c env q y ->
  root_of x = root_of y -> p = q.
Proof.
  intros Hr Hc HN Hx Hy Hxy. destruct (reachable_contents _ _ Hr Hc) as (Wm & HR & _). cbn [s_env] in HR.
  rewrite <-(world_values _ _ _ _ HR), <-layW_vals in HN.
  assert (forall p x, node_is c env p x -> exists n, (p, n) ∈ layW (@ClientRef.vals A [] Wm) /\ root_of x ∈ cv (p, n)) as Hcell.
  { clear -Hr Hc HR. intros p x Hx. destruct (node_cell _ _ _ _ Hr Hc Hx) as (n & Hn & Ha). exists n. split; [|unfold cv; simpl; rewrite Ha; left].
    destruct (re_inv _ _ _ _ HR) as [(D & [HN HE] & HD) _ _ _ _ _ _ _ H7]. pose proof Hn as Hn2. rewrite HE in Hn2. apply elem_of_list_to_map_2 in Hn2.
    rewrite app_nil_r in Hn2. apply elem_of_app in Hn2 as [?|Hd]; [done|]. exfalso.
    rewrite (H7 p n Hn) in Ha; [done| |apply inE_nil]. intros Hin. rewrite app_nil_r, fmap_app, layW_fst in HN. apply NoDup_app in HN as (_ & HN & _).
    apply (HN p Hin). by apply (elem_of_list_fmap_1 fst) in Hd. }
  destruct (Hcell _ _ Hx) as (n & Hn & Ha), (Hcell _ _ Hy) as (n' & Hn' & Ha'). rewrite <-Hxy in Ha'.
  pose proof (NoDup_flat_map _ _ _ _ _ HN Hn Hn' Ha Ha'). by simplify_eq.
Qed.

Lemma never_move os : forall (c c' : cst A) env env' rs p q x y, reachable c -> contents c env -> NoDup (values env) ->
  run c os = Done rs c' -> contents c' env' -> Forall (fun o => creates o = false /\ writes o = false) os ->
  node_is c env p x -> node_is c' env' q y -> root_of x = root_of y -> p = q.
Proof.
  intros c c' env env' rs p q x y Hr Hc HN Hrun Hc' Hos Hx Hy Hxy.
  assert (exists z, node_is c env q z /\ root_of z = root_of y) as (z & Hz & Hzy); [|eapply value_tells; eauto; congruence].
  clear Hx p. clear x Hxy HN. revert c env rs Hr Hc Hrun Hos. induction os as [|o os IH]; intros c env rs Hr Hc Hrun Hos; simpl in Hrun.
  - simplify_eq. rewrite (contents_fun _ _ _ Hc Hc'). eauto.
  - destruct (step c o) as [r c1|] eqn:E1; [|done]. destruct (run c1 os) as [rs1 c2|] eqn:E2; [|done]. simplify_eq.
    inversion Hos as [|? ? [H1 H2] H3]; subst. pose proof (reachable_next _ _ _ _ Hr E1) as Hr1. destruct (reachable_has_contents _ Hr1) as (env1 & Hc1).
    destruct (IH c1 env1 _ Hr1 Hc1 E2 H3) as (z & Hz & Hzy). destruct (stay_put _ _ _ _ _ _ _ _ Hr Hc E1 Hr1 Hc1 H1 Hz) as (w & Hw & Hwz).
    exists w. split; [done|]. by rewrite Hwz.
Qed.
End move.
