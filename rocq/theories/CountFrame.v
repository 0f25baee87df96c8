(** CountFrame.v — additional references to live nodes do not change what the exclusive-ownership code does.
    [adj f g s] is the memory [s] with other reference counts.  Programs that only use the nodes themselves give the same
    result in it ([hp]); all programs do if the additional counts [Hs] belong to nodes that stay alive ([comm]). *)
From stdpp Require Import base gmap list.
From Verif Require Import Spec ClientSpec Machine NodeModel BfsModel ClientModel.

Section frame.
Context {A : Type}.
Implicit Types (s t : mem A) (p q : ptr).

Definition adj (f : ptr -> nat -> nat) (g : nat -> nat) s : mem A :=
  Mem (m_heap s) (map_imap (fun p c => Some (f p c)) (m_cnt s))
      (map_imap (fun b x => Some (x.1, x.2 + g b)) (m_vec s)) (m_fresh s) (m_log s).

Definition occ p (Hs : list ptr) : nat := length (filter (fun q => q = p) Hs).
Definition occb (b : nat) (Hs : list ptr) : nat := length (filter (fun q : ptr => q.1 = b) Hs).
Definition addc (Hs : list ptr) s : mem A := adj (fun p c => c + occ p Hs) (fun b => occb b Hs) s.

Lemma occ_0 p Hs : p ∉ Hs -> occ p Hs = 0.
Proof.
  intros H. unfold occ. destruct (filter _ Hs) as [|q l] eqn:E; [done|]. assert (q ∈ filter (fun q => q = p) Hs) as Hq by (rewrite E; left).
  apply elem_of_list_filter in Hq as [-> ?]. done.
Qed.
Lemma occb_0 b Hs : (forall q, q ∈ Hs -> q.1 <> b) -> occb b Hs = 0.
Proof.
  intros H. unfold occb. destruct (filter _ Hs) as [|q l] eqn:E; [done|]. assert (q ∈ filter (fun q : ptr => q.1 = b) Hs) as Hq by (rewrite E; left).
  apply elem_of_list_filter in Hq as [? ?]. by destruct (H q).
Qed.

Lemma adj_cnt f g s p : m_cnt (adj f g s) !! p = f p <$> m_cnt s !! p.
Proof. simpl. rewrite map_lookup_imap. by destruct (m_cnt s !! p). Qed.
Lemma adj_vec f g s b : m_vec (adj f g s) !! b = (fun x => (x.1, x.2 + g b)) <$> m_vec s !! b.
Proof. simpl. rewrite map_lookup_imap. by destruct (m_vec s !! b). Qed.
Lemma mem_eq s t : m_heap s = m_heap t -> m_cnt s = m_cnt t -> m_vec s = m_vec t -> m_fresh s = m_fresh t -> m_log s = m_log t -> s = t.
Proof. destruct s, t; simpl. by intros -> -> -> -> ->. Qed.
Lemma adj_set_heap f g s h : adj f g (set_heap s h) = set_heap (adj f g s) h.
Proof. done. Qed.

(** * Programs on the nodes only *)
Definition hp {X} (m : M A X) : Prop := forall s s', m_heap s' = m_heap s ->
  match m s with
  | Ok x t => t = set_heap s (m_heap t) /\ (forall p, is_Some (m_heap t !! p) <-> is_Some (m_heap s !! p)) /\ m s' = Ok x (set_heap s' (m_heap t))
  | Err e => m s' = Err e
  end.

Lemma set_heap_same s : set_heap s (m_heap s) = s.
Proof. by destruct s. Qed.
Lemma hp_ret {X} (x : X) : hp (ret x).
Proof. intros s s' H. simpl. rewrite set_heap_same, <-H, set_heap_same. done. Qed.
Lemma hp_fail {X} e : hp (@fail A X e).
Proof. intros s s' H. done. Qed.
Lemma hp_bind {X Y} (m : M A X) (k : X -> M A Y) : hp m -> (forall x, hp (k x)) -> hp (bind m k).
Proof.
  intros Hm Hk s s' H. unfold bind. specialize (Hm s s' H). destruct (m s) as [x t|e]; [|by rewrite Hm].
  destruct Hm as (Ht & Hd & ->). specialize (Hk x t (set_heap s' (m_heap t)) eq_refl).
  destruct (k x t) as [y u|e]; [|done]. destruct Hk as (Hu & Hd' & ->). split_and!; [|intros p; by rewrite Hd', Hd|done].
  rewrite Hu, Ht at 1. done.
Qed.
Lemma hp_get p : hp (get p).
Proof.
  intros s s' H. unfold get. rewrite H. destruct (m_heap s !! p); [|done]. rewrite set_heap_same, <-H, set_heap_same. done.
Qed.
Lemma hp_put p n : hp (put p n).
Proof.
  intros s s' H. unfold put. rewrite H. destruct (m_heap s !! p) as [n0|] eqn:E; [|done]. split_and!; [done| |done].
  intros q. simpl. destruct (decide (p = q)) as [->|Hne]; [|by rewrite lookup_insert_ne]. rewrite lookup_insert, E. split; eauto.
Qed.
Lemma hp_upd p f : hp (upd p f).
Proof. apply hp_bind; [apply hp_get|]. intros n. apply hp_put. Qed.
Lemma hp_fuel : hp fuel.
Proof. intros s s' H. unfold fuel, gets. rewrite set_heap_same, H, <-H, set_heap_same. done. Qed.
Lemma hp_unwrap {X} (o : option X) : hp (unwrap o).
Proof. destruct o; [apply hp_ret|apply hp_fail]. Qed.

Lemma hp_adj {X} (m : M A X) f g s : hp m ->
  match m s with
  | Ok x t => t = set_heap s (m_heap t) /\ m (adj f g s) = Ok x (adj f g t)
  | Err e => m (adj f g s) = Err e
  end.
Proof.
  intros H. specialize (H s (adj f g s) eq_refl). destruct (m s) as [x t|e]; [|done]. destruct H as (Ht & _ & ->).
  split; [done|]. rewrite Ht. done.
Qed.
Lemma hp_ok {X} (m : M A X) f g s x t : hp m -> m s = Ok x t -> m (adj f g s) = Ok x (adj f g t).
Proof. intros H E. pose proof (hp_adj m f g s H) as Ha. rewrite E in Ha. by destruct Ha. Qed.
Lemma hp_err {X} (m : M A X) f g s e : hp m -> m s = Err e -> m (adj f g s) = Err e.
Proof. intros H E. pose proof (hp_adj m f g s H) as Ha. by rewrite E in Ha. Qed.

(** * All programs *)
Definition comm {X} (m : M A X) : Prop := forall s x t, m s = Ok x t ->
  m_fresh s <= m_fresh t /\
  (forall b, b < m_fresh s -> is_Some (m_vec t !! b) -> is_Some (m_vec s !! b)) /\
  (forall p, p.1 < m_fresh s -> is_Some (m_heap t !! p) -> is_Some (m_heap s !! p)) /\
  (forall Hs, Forall (fun p => p.1 < m_fresh s /\ is_Some (m_heap t !! p)) Hs -> m (addc Hs s) = Ok x (addc Hs t)).

Lemma comm_hp {X} (m : M A X) : hp m -> comm m.
Proof.
  intros H s x t E. pose proof (H s s eq_refl) as H'. rewrite E in H'. destruct H' as (Ht & Hd & _). split_and!.
  - rewrite Ht. done.
  - rewrite Ht. done.
  - intros p _. apply Hd.
  - intros Hs _. by apply hp_ok.
Qed.
Lemma comm_ret {X} (x : X) : comm (ret x).
Proof. apply comm_hp, hp_ret. Qed.
Lemma comm_fail {X} e : comm (@fail A X e).
Proof. apply comm_hp, hp_fail. Qed.
Lemma comm_bind {X Y} (m : M A X) (k : X -> M A Y) : comm m -> (forall x, comm (k x)) -> comm (bind m k).
Proof.
  intros Hm Hk s y u E. unfold bind in *. destruct (m s) as [x t|e] eqn:Em; [|done].
  destruct (Hm _ _ _ Em) as (F1 & V1 & P1 & C1). destruct (Hk x _ _ _ E) as (F2 & V2 & P2 & C2). split_and!.
  - lia.
  - intros b Hb Hv. apply V1; [done|]. apply V2; [lia|done].
  - intros p Hp Hv. apply P1; [done|]. apply P2; [lia|done].
  - intros Hs HF. rewrite C1.
    + apply C2. eapply Forall_impl; [exact HF|]. simpl. intros p [??]. split; [lia|done].
    + eapply Forall_impl; [exact HF|]. simpl. intros p [? Hp]. split; [done|]. apply P2; [lia|done].
Qed.

Lemma comm_decr_ref v : comm (decr_ref v).
Proof.
  intros s x t E. unfold decr_ref in *. destruct (m_vec s !! v) as [[cap [|[|rc]]]|] eqn:Ev; try done; injection E as <- <-; simpl; split_and!; try done.
  - intros b _. rewrite lookup_delete_is_Some. tauto.
  - intros p _ [n Hn]. apply map_filter_lookup_Some in Hn as [? _]. eauto.
  - intros Hs HF. assert (Hno : forall q, q ∈ Hs -> q.1 <> v).
    { intros q Hq. rewrite Forall_forall in HF. apply HF in Hq as [_ [n Hn]]. by apply map_filter_lookup_Some in Hn as [_ ?]. }
    pose proof (occb_0 _ _ Hno) as H0.
    rewrite map_lookup_imap, Ev. simpl. rewrite H0. f_equal. apply mem_eq; try done; simpl.
    + apply map_eq. intros p. rewrite map_lookup_imap, !map_filter_lookup, map_lookup_imap.
      destruct (m_cnt s !! p) as [c|]; simpl; [|done]. repeat case_option_guard; done.
    + apply map_eq. intros b. destruct (decide (v = b)) as [<-|Hne].
      * rewrite lookup_delete, map_lookup_imap, lookup_delete. done.
      * rewrite lookup_delete_ne, !map_lookup_imap, lookup_delete_ne by done. done.
  - intros b _ Hb. destruct (decide (v = b)) as [<-|Hne]; [eauto|]. by rewrite lookup_insert_ne in Hb.
  - intros Hs HF. rewrite map_lookup_imap, Ev. simpl. f_equal. apply mem_eq; try done; simpl.
    apply map_eq. intros b. rewrite map_lookup_imap. destruct (decide (v = b)) as [<-|Hne].
    + rewrite !lookup_insert. done.
    + rewrite !lookup_insert_ne, map_lookup_imap by done. done.
Qed.

Lemma comm_log_drop l : comm (log_drop l).
Proof. intros s x t E. unfold log_drop in *. injection E as <- <-. simpl. split_and!; try done. Qed.

Lemma imap_insert_cnt (Hs : list ptr) (m : gmap ptr nat) p c :
  map_imap (fun p c => Some (c + occ p Hs)) (<[p := c]> m) = <[p := c + occ p Hs]> (map_imap (fun p c => Some (c + occ p Hs)) m).
Proof.
  apply map_eq. intros q. rewrite map_lookup_imap. destruct (decide (p = q)) as [<-|Hne].
  - by rewrite !lookup_insert.
  - by rewrite !lookup_insert_ne, map_lookup_imap by done.
Qed.
Lemma imap_delete_cnt (Hs : list ptr) (m : gmap ptr nat) p :
  map_imap (fun p c => Some (c + occ p Hs)) (delete p m) = delete p (map_imap (fun p c => Some (c + occ p Hs)) m).
Proof.
  apply map_eq. intros q. rewrite map_lookup_imap. destruct (decide (p = q)) as [<-|Hne].
  - by rewrite !lookup_delete.
  - by rewrite !lookup_delete_ne, map_lookup_imap by done.
Qed.

Lemma comm_rc_drop p : comm (rc_drop p).
Proof.
  intros s x t E. unfold rc_drop in *. destruct (m_cnt s !! p) as [[|[|c]]|] eqn:Ec, (m_heap s !! p) as [n|] eqn:En; try done;
    injection E as <- <-; simpl; split_and!; try done.
  - intros q _. rewrite lookup_delete_is_Some. tauto.
  - intros Hs HF. assert (p ∉ Hs) as Hno.
    { intros Hq. rewrite Forall_forall in HF. apply HF in Hq as [_ Hq]. rewrite lookup_delete in Hq. by destruct Hq. }
    rewrite map_lookup_imap, Ec. simpl. rewrite En, (occ_0 _ _ Hno). f_equal. apply mem_eq; try done; simpl. by rewrite imap_delete_cnt.
  - intros Hs HF. rewrite map_lookup_imap, Ec. simpl. rewrite En. f_equal. apply mem_eq; try done; simpl. by rewrite imap_insert_cnt.
Qed.

Lemma comm_make_node d : comm (make_node d).
Proof.
  intros s x t E. unfold make_node in *. injection E as <- <-. simpl. split_and!; try done.
  - lia.
  - intros p Hp. rewrite lookup_insert_ne; [done|]. intros <-. simpl in Hp. lia.
  - intros Hs HF. f_equal. apply mem_eq; try done; simpl. rewrite imap_insert_cnt, occ_0; [done|].
    intros Hq. rewrite Forall_forall in HF. apply HF in Hq as [Hq _]. simpl in Hq. lia.
Qed.

Lemma comm_new_vec cap : comm (new_vec cap).
Proof.
  intros s x t E. unfold new_vec in *. injection E as <- <-. simpl.
  assert (Hin : forall p (Y : Type) (y : nat -> Y), is_Some ((list_to_map ((fun i => ((m_fresh s, i), y i)) <$> seq 0 cap) : gmap ptr Y) !! p) -> p.1 = m_fresh s).
  { intros p Y y [z Hz]. apply elem_of_list_to_map_2, elem_of_list_fmap in Hz as (i & [= -> ->] & _). done. }
  split_and!.
  - lia.
  - intros b Hb. rewrite lookup_insert_ne by lia. done.
  - intros p Hp Hs. rewrite lookup_union_r in Hs; [done|]. apply eq_None_not_Some. intros Hx.
    apply (Hin p (node A) (fun _ => node_default)) in Hx. lia.
  - intros Hs HF. f_equal. apply mem_eq; try done; simpl.
    + apply map_eq. intros p. rewrite map_lookup_imap.
      destruct ((list_to_map ((fun i => ((m_fresh s, i), 1)) <$> seq 0 cap) : gmap ptr nat) !! p) as [y|] eqn:Ey.
      * rewrite !(lookup_union_Some_l _ _ _ _ Ey). simpl. rewrite occ_0; [by rewrite Nat.add_0_r|].
        intros Hq. rewrite Forall_forall in HF. apply HF in Hq as [Hq _].
        pose proof (Hin p nat (fun _ => 1)) as Hx. rewrite Hx in Hq; [lia|eauto].
      * rewrite !lookup_union_r by done. by rewrite map_lookup_imap.
    + apply map_eq. intros b. rewrite map_lookup_imap. destruct (decide (m_fresh s = b)) as [<-|Hne].
      * rewrite !lookup_insert. simpl. rewrite occb_0; [by rewrite Nat.add_0_r|].
        intros q Hq. rewrite Forall_forall in HF. apply HF in Hq as [Hq _]. lia.
      * by rewrite !lookup_insert_ne, map_lookup_imap by done.
Qed.

End frame.

Ltac hp_step :=
  match goal with
  | |- hp (match ?x with _ => _ end) => destruct x
  | |- hp (bind _ _) => apply hp_bind; [|intros ?]
  | |- hp (ret _) => apply hp_ret
  | |- hp (fail _) => apply hp_fail
  | |- hp (get _) => apply hp_get
  | |- hp (put _ _) => apply hp_put
  | |- hp (upd _ _) => apply hp_upd
  | |- hp fuel => apply hp_fuel
  | |- hp (unwrap _) => apply hp_unwrap
  | |- hp _ => solve [auto with hp]
  end.
Ltac hp_solve := repeat hp_step.

Section nodes.
Context {A : Type}.
Implicit Types (p q : ptr).
Notation hp := (hp (A:=A)).

Lemma hp_data p : hp (data p).  Proof. unfold data, dat_ref. hp_solve. Qed.
Lemma hp_modify p f : hp (modify_data p f).  Proof. unfold modify_data, dat_map. hp_solve. Qed.
Lemma hp_take p : hp (take_data p).  Proof. unfold take_data. hp_solve. Qed.
Lemma hp_has_no_child p : hp (has_no_child p).  Proof. unfold has_no_child. hp_solve. Qed.
Lemma hp_degree p : hp (degree p).  Proof. unfold degree. hp_solve. Qed.
Lemma hp_node_count p : hp (node_count p).  Proof. unfold node_count. hp_solve. Qed.
Lemma hp_parent_loop f p : hp (parent_loop f p).
Proof. revert p. induction f as [|f IH]; intros p; simpl; hp_solve; try (apply IH). Qed.
Lemma hp_parent p : hp (parent p).  Proof. apply hp_bind; [apply hp_fuel|]. intros f. apply hp_parent_loop. Qed.
Lemma hp_connect_next p q : hp (connect_next p q).  Proof. unfold connect_next. hp_solve. Qed.
Lemma hp_inc_up f o c : hp (inc_up f o c).
Proof. revert o. induction f as [|f IH]; intros [p|]; simpl; hp_solve; try (apply IH). Qed.
Lemma hp_inc_sizes p d c : hp (inc_sizes p d c).  Proof. unfold inc_sizes. hp_solve; try (apply hp_inc_up). Qed.
Lemma hp_sub a b : hp (sub a b).  Proof. unfold sub. hp_solve. Qed.
Lemma hp_dec_up f o c : hp (dec_up f o c).
Proof. revert o. induction f as [|f IH]; intros [p|]; simpl; hp_solve; first [apply hp_sub|apply IH]. Qed.
Lemma hp_dec_sizes p d c : hp (dec_sizes p d c).
Proof. unfold dec_sizes. hp_solve; first [apply hp_sub|apply hp_sub|apply hp_dec_up]. Qed.
Lemma hp_tree_from_node p : hp (tree_from_node p).  Proof. unfold tree_from_node. hp_solve. Qed.
Hint Resolve hp_connect_next hp_inc_sizes hp_dec_sizes hp_node_count hp_tree_from_node : hp.
Lemma hp_insert_prev_sib p q : hp (insert_prev_sib p q).  Proof. unfold insert_prev_sib. hp_solve. Qed.
Lemma hp_insert_next_sib p q : hp (insert_next_sib p q).  Proof. unfold insert_next_sib. hp_solve. Qed.
Lemma hp_detach p : hp (detach p).  Proof. unfold detach. hp_solve. Qed.
Lemma hp_front p : hp (front p).  Proof. unfold front. hp_solve. Qed.
Lemma hp_back p : hp (back p).  Proof. unfold back. hp_solve. Qed.
Lemma hp_push_front p q : hp (push_front p q).  Proof. unfold push_front. hp_solve. Qed.
Lemma hp_push_back p q : hp (push_back p q).  Proof. unfold push_back. hp_solve. Qed.
Lemma hp_pop_front p : hp (pop_front p).  Proof. unfold pop_front. hp_solve. Qed.
Lemma hp_pop_back p : hp (pop_back p).  Proof. unfold pop_back. hp_solve. Qed.
Lemma hp_ci_next it : hp (ci_next it).  Proof. unfold ci_next. hp_solve. Qed.
Lemma hp_iter p : hp (iter p).  Proof. unfold iter. hp_solve. Qed.
Hint Resolve hp_ci_next hp_iter hp_front hp_back hp_data hp_modify : hp.
Lemma hp_ci_collect f it : hp (ci_collect f it).
Proof. revert it. induction f as [|f IH]; intros it; simpl; hp_solve; try (apply IH). Qed.
Lemma hp_children p : hp (children p).  Proof. unfold children. hp_solve; try (apply hp_ci_collect). Qed.
Lemma hp_set_ups f it p : hp (set_ups f it p).
Proof. revert it. induction f as [|f IH]; intros it; simpl; hp_solve; try (apply IH). Qed.
Lemma hp_forest_set_up p q : hp (forest_set_up p q).  Proof. unfold forest_set_up. hp_solve; try (apply hp_set_ups). Qed.
Lemma hp_forest_clear p : hp (forest_clear p).  Proof. unfold forest_clear. hp_solve. Qed.
Hint Resolve hp_forest_set_up hp_forest_clear hp_has_no_child : hp.
Lemma hp_prepend_body p q : hp (prepend_body p q).  Proof. unfold prepend_body. hp_solve. Qed.
Lemma hp_append_body p q : hp (append_body p q).  Proof. unfold append_body. hp_solve. Qed.
Lemma hp_slot v i : hp (slot v i).  Proof. unfold slot. hp_solve. Qed.
Lemma hp_sp_next_node (q : list citer) : hp (sp_next_node q).
Proof. induction q as [|it q IH]; simpl; hp_solve; try (apply IH). Qed.
Lemma hp_sp_next (q : list citer) : hp (sp_next q).
Proof. unfold sp_next. hp_solve; try (apply hp_sp_next_node). Qed.
Lemma hp_bfs p : hp (bfs p).  Proof. unfold bfs. hp_solve. Qed.
Lemma hp_bfs_children p : hp (bfs_children p).  Proof. unfold bfs_children. hp_solve. Qed.
Hint Resolve hp_sp_next hp_sp_next_node hp_bfs hp_bfs_children : hp.
Lemma hp_collect {S X} (next : S -> M A (option X * S)) f it : (forall it, hp (next it)) -> hp (collect next f it).
Proof. intros Hn. revert it. induction f as [|f IH]; intros it; simpl; hp_solve; first [apply Hn|apply IH]. Qed.
Lemma hp_bfs_visits p : hp (bfs_visits p).  Proof. unfold bfs_visits. hp_solve; try (apply hp_collect; apply hp_sp_next). Qed.
Lemma hp_bfs_children_visits p : hp (bfs_children_visits p).
Proof. unfold bfs_children_visits. hp_solve; try (apply hp_collect; apply hp_sp_next). Qed.
Lemma hp_bfs_mut_loop f n g (q : list citer) : hp (bfs_mut_loop f n g q).
Proof. revert n q. induction f as [|f IH]; intros n q; simpl; hp_solve; try (apply IH). Qed.
Lemma hp_bfs_mut p g : hp (bfs_mut p g).  Proof. unfold bfs_mut. hp_solve; try (apply hp_bfs_mut_loop). Qed.
Lemma hp_bfs_children_mut p g : hp (bfs_children_mut p g).  Proof. unfold bfs_children_mut. hp_solve; try (apply hp_bfs_mut_loop). Qed.
Lemma hp_skip_full f v parent child r : hp (skip_full f v parent child r).
Proof. revert parent r. induction f as [|f IH]; intros parent r; destruct r; simpl; hp_solve; try (apply IH). Qed.
Lemma hp_resolve p path : hp (resolve p path).
Proof. revert p. induction path as [|i path IH]; intros p; simpl; hp_solve; first [apply hp_children|apply IH]. Qed.
Lemma hp_datas ps : hp (datas ps).
Proof. induction ps as [|p ps IH]; simpl; hp_solve; try (apply IH). Qed.
Lemma hp_data_opt o : hp (data_opt o).  Proof. unfold data_opt. hp_solve. Qed.

(** * Programs that allocate or release *)
Notation comm := (comm (A:=A)).
End nodes.

Global Hint Resolve hp_data hp_modify hp_take hp_has_no_child hp_degree hp_node_count hp_parent hp_connect_next hp_inc_sizes hp_sub hp_dec_sizes
  hp_tree_from_node hp_insert_prev_sib hp_insert_next_sib hp_detach hp_front hp_back hp_push_front hp_push_back hp_pop_front hp_pop_back
  hp_ci_next hp_iter hp_children hp_forest_set_up hp_forest_clear hp_prepend_body hp_append_body hp_slot hp_sp_next hp_bfs hp_bfs_children
  hp_bfs_visits hp_bfs_children_visits hp_bfs_mut hp_bfs_children_mut hp_skip_full hp_resolve hp_datas hp_data_opt : hp.

Ltac comm_step :=
  match goal with
  | |- comm (match ?x with _ => _ end) => destruct x
  | |- comm (bind _ _) => apply comm_bind; [|intros ?]
  | |- comm (ret _) => apply comm_ret
  | |- comm (fail _) => apply comm_fail
  | |- comm _ => solve [apply comm_hp; hp_step]
  | |- comm _ => solve [auto with comm]
  end.
Ltac comm_solve := repeat comm_step.
Global Hint Resolve comm_decr_ref comm_log_drop comm_rc_drop comm_make_node comm_new_vec : comm.

Section alloc.
Context {A : Type}.
Implicit Types (p q : ptr).
Notation comm := (comm (A:=A)).
Lemma comm_into_inner d : comm (into_inner d).  Proof. unfold into_inner. comm_solve. Qed.
Lemma comm_drop_node p : comm (drop_node p).  Proof. unfold drop_node. comm_solve. Qed.
Lemma comm_drop_loop f p : comm (drop_loop f p).
Proof. revert p. induction f as [|f IH]; intros p; simpl; comm_solve; first [apply IH|apply IH|apply comm_drop_node]. Qed.
Lemma comm_drop_tree p : comm (drop_tree p).  Proof. unfold drop_tree. comm_solve; try (apply comm_drop_loop). Qed.
Hint Resolve comm_drop_tree comm_into_inner : comm.
Lemma comm_prepend p q : comm (prepend p q).  Proof. unfold prepend. comm_solve. Qed.
Lemma comm_append p q : comm (append p q).  Proof. unfold append. comm_solve. Qed.
Lemma comm_tree_new a : comm (tree_new a).  Proof. unfold tree_new. comm_solve. Qed.
Lemma comm_forest_new : comm forest_new.  Proof. unfold forest_new. comm_solve. Qed.
Lemma comm_into_data p : comm (into_data p).  Proof. unfold into_data. comm_solve. Qed.
Lemma comm_abandon p : comm (abandon p).  Proof. unfold abandon. comm_solve. Qed.
Hint Resolve comm_forest_new comm_into_data comm_abandon : comm.
Lemma comm_into_iter_drain f p : comm (into_iter_drain f p).
Proof. induction f as [|f IH]; simpl; unfold into_iter_next; comm_solve; try (apply IH). Qed.
Lemma comm_into_iter_drop p : comm (into_iter_drop p).
Proof. unfold into_iter_drop. comm_solve; try (apply comm_into_iter_drain). Qed.
Lemma comm_tree_into_iter p : comm (tree_into_iter p).  Proof. unfold tree_into_iter. comm_solve. Qed.
Lemma comm_vec_make_node v parent i d dg ds : comm (vec_make_node v parent i d dg ds).
Proof. unfold vec_make_node. comm_solve. Qed.
Lemma comm_append_child v parent child a dg ds : comm (append_child v parent child a dg ds).
Proof. unfold append_child, make_piled_node. comm_solve; try (apply comm_vec_make_node). Qed.
Lemma comm_from_bfs_loop {S} (next : S -> M A (option visit * S)) f v parent child r it :
  (forall it, comm (next it)) -> comm (from_bfs_loop next f v parent child r it).
Proof.
  intros Hn. revert parent child r it. induction f as [|f IH]; intros parent child r it; simpl; comm_solve; first [apply Hn|apply comm_append_child|apply IH].
Qed.
Lemma comm_tree_from_bfs {S} (next : S -> M A (option visit * S)) it : (forall it, comm (next it)) -> comm (tree_from_bfs next it).
Proof.
  intros Hn. unfold tree_from_bfs, make_piled_node. comm_solve; first [apply Hn|apply comm_vec_make_node|by apply comm_from_bfs_loop].
Qed.
Lemma comm_forest_from_bfs {S} (next : S -> M A (option visit * S)) it dg ds : (forall it, comm (next it)) -> comm (forest_from_bfs next it dg ds).
Proof. intros Hn. unfold forest_from_bfs. comm_solve; first [apply comm_vec_make_node|by apply comm_from_bfs_loop]. Qed.
Lemma comm_list_next {X} (l : list X) : comm (list_next l).  Proof. unfold list_next. comm_solve. Qed.
Lemma comm_sp_next (q : list citer) : comm (sp_next q).  Proof. comm_solve. Qed.
Lemma comm_deep_clone p : comm (deep_clone p).
Proof. unfold deep_clone. comm_solve; try (apply comm_tree_from_bfs; apply comm_sp_next). Qed.
Lemma comm_deep_clone_forest p : comm (deep_clone_forest p).
Proof. unfold deep_clone_forest. comm_solve; try (apply comm_forest_from_bfs; apply comm_sp_next). Qed.
Lemma comm_split_tree p : comm (split_tree p).  Proof. unfold split_tree. comm_solve. Qed.
Hint Resolve comm_split_tree comm_into_iter_drop comm_tree_into_iter : comm.
Lemma comm_isp_next (q : list ptr) : comm (isp_next q).
Proof. induction q as [|fr q IH]; simpl; unfold into_iter_next, into_iter_size_hint; comm_solve; try (apply IH). Qed.
Lemma comm_isp_drop (q : list ptr) : comm (isp_drop q).
Proof. induction q as [|fr q IH]; simpl; comm_solve; try (apply IH). Qed.
Lemma comm_tree_into_bfs p : comm (tree_into_bfs p).  Proof. unfold tree_into_bfs. comm_solve. Qed.
Lemma comm_forest_into_bfs p : comm (forest_into_bfs p).  Proof. unfold forest_into_bfs. comm_solve. Qed.
Lemma comm_take_visits n (q : list ptr) : comm (take_visits n q).
Proof. revert q. induction n as [|n IH]; intros q; simpl; comm_solve; first [apply comm_isp_next|apply IH]. Qed.
Lemma comm_into_names fr xs env : comm (into_names fr xs env).
Proof. revert env. induction xs as [|x xs IH]; intros env; simpl; unfold into_iter_next, into_iter_size_hint; comm_solve; try (apply IH). Qed.
Lemma comm_each_act_c h cs a env : comm (each_act_c h cs a env).
Proof. unfold each_act_c. comm_solve. Qed.
Lemma comm_each_acts_c h cs acts env : comm (each_acts_c h cs acts env).
Proof. revert cs env. induction acts as [|a acts IH]; intros cs env; simpl; comm_solve; first [apply comm_each_act_c|apply IH]. Qed.
Lemma comm_each_loop f h it cs acts env : comm (each_loop f h it cs acts env).
Proof. revert it cs acts env. induction f as [|f IH]; intros it cs acts env; simpl; comm_solve; first [apply comm_each_acts_c|apply IH]. Qed.
Hint Resolve comm_prepend comm_append comm_tree_new comm_deep_clone comm_deep_clone_forest comm_isp_drop comm_tree_into_bfs comm_forest_into_bfs
  comm_take_visits comm_into_names comm_each_loop : comm.
Lemma comm_with_node env h path k : (forall hd p, comm (k hd p)) -> comm (with_node env h path k).
Proof. intros Hk. unfold with_node. comm_solve; try (apply Hk). Qed.
Lemma comm_map_next {S} f (next : S -> M A (option visit * S)) it : (forall it, comm (next it)) -> comm (map_next f next it).
Proof. intros Hn. unfold map_next. comm_solve; try (apply Hn). Qed.
Hint Extern 1 (CountFrame.comm (tree_from_bfs _ _)) => apply comm_tree_from_bfs; intros; try apply comm_map_next; intros; first [apply comm_isp_next|apply comm_list_next|apply comm_sp_next] : comm.
Hint Extern 1 (CountFrame.comm (forest_from_bfs _ _ _ _)) => apply comm_forest_from_bfs; intros; try apply comm_map_next; intros; first [apply comm_isp_next|apply comm_list_next|apply comm_sp_next] : comm.
Lemma comm_cstep env o : comm (cstep env o).
Proof.
  destruct o; cbn [cstep]; repeat first [comm_step | apply comm_with_node; intros ? ?].
Qed.
(** the two operations that may panic only use the nodes *)
Lemma hp_cstep_insert env e h path y : hp (cstep (A:=A) env (OInsert e h path y)).
Proof. cbn [cstep]. unfold with_node. hp_solve. Qed.
Lemma hp_cstep_detach env h path x : hp (cstep (A:=A) env (ODetach h path x)).
Proof. cbn [cstep]. unfold with_node. hp_solve. Qed.
End alloc.
Global Hint Resolve comm_drop_tree comm_deep_clone comm_prepend comm_append : comm.
