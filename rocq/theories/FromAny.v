(** FromAny.v — building a tree from arbitrary visits (C37): no access outside the buffer as long as there are not more
    visits than the declared number of nodes. *)
From stdpp Require Import base gmap list.
From Verif Require Import Machine NodeModel BfsModel.

Section any.
Context {A : Type}.
Implicit Types (s : mem A) (v cap : nat).

Definition safe {X} (P : mem A -> Prop) (m : M A X) (Q : X -> mem A -> Prop) : Prop :=
  forall s, P s -> match m s with Ok x s' => Q x s' | Err e => e = EPanic end.
Lemma safe_bind {X Y} (P : mem A -> Prop) (m : M A X) Q (k : X -> M A Y) R : safe P m Q -> (forall x, safe (Q x) (k x) R) -> safe P (bind m k) R.
Proof. intros H1 H2 s Hs. unfold bind. specialize (H1 s Hs). destruct (m s) as [x s'|e]; [by apply H2|done]. Qed.
Lemma safe_ret {X} (P : mem A -> Prop) (x : X) (Q : X -> mem A -> Prop) : (forall s, P s -> Q x s) -> safe P (ret x) Q.
Proof. intros H s Hs. by apply H. Qed.

(** every slot of the buffer [v] exists, and the tail pointers stay in the buffer *)
Definition buf_ok v cap s : Prop :=
  cap <= size (m_heap s) /\
  forall i, i < cap -> exists n, m_heap s !! ((v, i) : ptr) = Some n /\ forall q, n_tail n = Some q -> exists j, j < cap /\ q = (v, j).

Lemma buf_put v cap i n : i < cap -> (forall q, n_tail n = Some q -> exists j, j < cap /\ q = (v, j)) ->
  safe (buf_ok v cap) (put (v, i) n) (fun _ => buf_ok v cap).
Proof.
  intros Hi Hn s [Hs H]. unfold put. destruct (H i Hi) as (n0 & Hn0 & _). rewrite Hn0. split.
  - simpl. by rewrite map_size_insert_Some by eauto.
  - intros j Hj. simpl. destruct (decide (j = i)) as [->|Hne].
    + rewrite lookup_insert. eauto.
    + rewrite lookup_insert_ne by congruence. auto.
Qed.
Lemma buf_get v cap i : i < cap -> safe (buf_ok v cap) (get (v, i)) (fun n s => buf_ok v cap s /\ forall q, n_tail n = Some q -> exists j, j < cap /\ q = (v, j)).
Proof. intros Hi s Hs. unfold get. destruct (proj2 Hs i Hi) as (n & Hn & Ht). rewrite Hn. done. Qed.
Lemma buf_upd v cap i f : i < cap -> (forall n q, (forall q, n_tail n = Some q -> exists j, j < cap /\ q = (v, j)) -> n_tail (f n) = Some q -> exists j, j < cap /\ q = (v, j)) ->
  safe (buf_ok v cap) (upd (v, i) f) (fun _ => buf_ok v cap).
Proof.
  intros Hi Hf. unfold upd. eapply safe_bind; [by apply buf_get|]. intros n s [Hs Ht]. apply buf_put; [done| |done]. intros q Hq. by eapply Hf.
Qed.
Lemma buf_slot v cap i : i < cap -> safe (buf_ok v cap) (slot v i) (fun p s => p = (v, i) /\ buf_ok v cap s).
Proof. intros Hi. unfold slot. eapply safe_bind; [by apply buf_get|]. intros n. apply safe_ret. by intros s [Hs _]. Qed.
Lemma buf_make v cap par i d dg ds : i < cap -> safe (buf_ok v cap) (vec_make_node v par i d dg ds) (fun p s => p = (v, i) /\ buf_ok v cap s).
Proof.
  intros Hi. unfold vec_make_node. eapply safe_bind; [by apply buf_get|]. intros n. 
  eapply (safe_bind _ _ (fun _ s => buf_ok v cap s /\ ∀ q, n_tail n = Some q → ∃ j : nat, j < cap ∧ q = (v, j))).
  { intros s [Hs Ht]. split; [exact Hs|done]. }
  intros ?. eapply (safe_bind _ _ (fun _ => buf_ok v cap)).
  { intros s [Hs Ht]. by apply buf_put. }
  intros ?. by apply safe_ret.
Qed.
Lemma buf_append v cap par i a dg ds : par < cap -> i < cap -> safe (buf_ok v cap) (append_child v par i a dg ds) (fun _ => buf_ok v cap).
Proof.
  intros Hp Hi. unfold append_child. eapply safe_bind; [by apply buf_slot|]. intros pp.
  eapply (safe_bind _ _ (fun c s => c = (v, i) /\ buf_ok v cap s)); [intros s [-> Hs]; by apply (buf_make v cap (Some (v, par)) i (DPiled a v) dg ds Hi s)|]. intros c.
  eapply (safe_bind _ _ (fun n s => c = (v, i) /\ buf_ok v cap s /\ forall q, n_tail n = Some q -> exists j, j < cap /\ q = (v, j))).
  { intros s [-> Hs]. pose proof (buf_get v cap par Hp s Hs) as H. by destruct (get (v, par) s). }
  intros n. eapply (safe_bind _ _ (fun _ s => c = (v, i) /\ buf_ok v cap s)).
  - intros s (-> & Hs & Ht). destruct (n_tail n) as [q|].
    + destruct (Ht q eq_refl) as (j & Hj & ->).
      pose proof (safe_bind (buf_ok v cap) (upd (v, j) (set_next (Some (v, i)))) (fun _ => buf_ok v cap) (fun _ => upd (v, i) (set_prev (Some (v, j)))) (fun _ s => buf_ok v cap s)) as H.
      unfold connect_next. assert (H1 : safe (buf_ok v cap) (upd (v, j) (set_next (Some (v, i)))) (fun _ => buf_ok v cap)) by (apply buf_upd; auto).
      assert (H2 : safe (buf_ok v cap) (upd (v, i) (set_prev (Some (v, j)))) (fun _ => buf_ok v cap)) by (apply buf_upd; auto).
      pose proof (H H1 (fun _ => H2) s Hs) as H'. by destruct (bind _ _ s).
    + pose proof (buf_upd v cap par (set_head (Some (v, i))) Hp ltac:(auto) s Hs) as H'. by destruct (upd _ _ s).
  - intros ? s [-> Hs]. apply buf_upd; [done| |done]. intros n' q _ [= <-]. eauto.
Qed.

Lemma buf_skip v cap child f : forall parent rem, parent < child -> child < cap -> child - parent < f ->
  safe (buf_ok v cap) (skip_full f v parent child rem) (fun r s => r.1 <= child /\ buf_ok v cap s).
Proof.
  induction f as [|f IH]; intros parent rem Hp Hc Hf; [lia|]. destruct rem as [|rem]; cbn [skip_full]; [|apply safe_ret; simpl; auto with lia].
  eapply safe_bind; [apply buf_get; lia|]. intros n. destruct (Nat.eqb_spec (S parent) child) as [He|He].
  - apply safe_ret. intros s [Hs _]. simpl. split; [lia|done].
  - intros s [Hs _]. apply IH; [lia..|done].
Qed.

Lemma buf_loop v cap (l : list visit) : forall f parent child rem, parent < child -> child + length l <= cap -> length l < f ->
  safe (buf_ok v cap) (from_bfs_loop list_next f v parent child rem l) (fun _ => buf_ok v cap).
Proof.
  induction l as [|[[a dg] ds] l IH]; intros f parent child rem Hp Hc Hf; (destruct f as [|f]; [simpl in Hf; lia|]); cbn [from_bfs_loop list_next].
  - intros s Hs. done.
  - simpl in Hc, Hf. intros s Hs. unfold bind at 1. cbn [ret fst snd].
    eapply (safe_bind (buf_ok v cap)); [apply (buf_append v cap); lia| |done]. intros ?.
    eapply (safe_bind (buf_ok v cap) _ (fun _ => buf_ok v cap)).
    { intros s1 Hs1. unfold sub. by destruct (Nat.leb 1 rem). }
    intros r. eapply (safe_bind _ _ (fun g s => buf_ok v cap s /\ cap < g)).
    { intros s1 Hs1. split; [done|]. destruct Hs1 as [Hs1 _]. lia. }
    intros g s1 [Hs1 Hg].
    eapply (safe_bind (buf_ok v cap)); [apply (buf_skip v cap child g); lia| |done]. intros [pa re] s2 [Hpa Hs2]. simpl in Hpa. cbn [fst snd].
    apply IH; [lia..|done].
Qed.

Lemma buf_new cap s : match new_vec cap s with Ok v s' => buf_ok v cap s' | Err _ => False end.
Proof.
  cbn [new_vec]. set (v := m_fresh s). 
  assert (Hl : forall i, i < cap -> (list_to_map (vec_slots v cap) ∪ m_heap s) !! ((v, i) : ptr) = Some (node_default (A:=A))).
  { intros i Hi. apply lookup_union_Some_l. apply elem_of_list_to_map_1.
    - unfold vec_slots. rewrite <-list_fmap_compose. apply NoDup_fmap_2; [|apply NoDup_seq]. intros ?? [=]; done.
    - unfold vec_slots. apply elem_of_list_fmap. exists i. split; [done|]. apply elem_of_seq. lia. }
  split; cbn [m_heap].
  - set (m := _ ∪ _) in *. 
    assert (list_to_set ((fun i => (v, i)) <$> seq 0 cap) ⊆ dom m) as Hsub.
    { intros [w i]. rewrite elem_of_list_to_set, elem_of_list_fmap. intros (j & [= -> ->] & Hj). apply elem_of_seq in Hj.
      apply elem_of_dom. rewrite Hl by lia. eauto. }
    apply subseteq_size in Hsub. rewrite size_dom in Hsub. rewrite size_list_to_set in Hsub.
    + by rewrite fmap_length, seq_length in Hsub.
    + apply NoDup_fmap_2; [|apply NoDup_seq]. intros ?? [=]; done.
  - intros i Hi. rewrite Hl by done. exists node_default. split; [done|]. by intros q [=].
Qed.

Lemma tree_from_any s a dg ds (l : list visit) : length l <= ds ->
  match tree_from_bfs list_next ((a, dg, ds) :: l) s with Ok _ _ => True | Err e => e = EPanic end.
Proof.
  intros Hl. unfold tree_from_bfs. unfold bind at 1. cbn [list_next ret fst snd unwrap]. unfold bind at 1. cbn [ret].
  unfold bind at 1. pose proof (buf_new (ds + 1) s) as Hn. destruct (new_vec (ds + 1) s) as [v s1|]; [|done].
  eapply (safe_bind (buf_ok v (ds + 1))); [apply (buf_make v (ds + 1)); lia| |exact Hn]. intros ? s2 [_ Hs2].
  unfold bind at 1, fuel, gets.
  eapply (safe_bind (buf_ok v (ds + 1)) _ (fun _ => buf_ok v (ds + 1))); [|intros ?|exact Hs2].
  - apply buf_loop; [lia..|]. destruct Hs2 as [Hs2 _]. lia.
  - eapply safe_bind; [apply (buf_slot v (ds + 1)); lia|]. intros p s3 [-> Hs3]. unfold tree_from_node.
    eapply (safe_bind (buf_ok v (ds + 1)) _ (fun _ => buf_ok v (ds + 1))); [apply buf_upd; [lia|auto]| |exact Hs3]. intros ?. by apply safe_ret.
Qed.
Lemma forest_from_any s dg ds (l : list visit) : length l <= ds ->
  match forest_from_bfs list_next l dg ds s with Ok _ _ => True | Err e => e = EPanic end.
Proof.
  intros Hl. unfold forest_from_bfs. unfold bind at 1. pose proof (buf_new (ds + 1) s) as Hn. destruct (new_vec (ds + 1) s) as [v s1|]; [|done].
  eapply (safe_bind (buf_ok v (ds + 1))); [apply (buf_make v (ds + 1)); lia| |exact Hn]. intros ? s2 [_ Hs2].
  unfold bind at 1, fuel, gets.
  eapply (safe_bind (buf_ok v (ds + 1)) _ (fun _ => buf_ok v (ds + 1))); [|intros ?|exact Hs2].
  - apply buf_loop; [lia..|]. destruct Hs2 as [Hs2 _]. lia.
  - intros s3 Hs3. pose proof (buf_slot v (ds + 1) 0 ltac:(lia) s3 Hs3) as H. by destruct (slot v 0 s3).
Qed.
End any.
