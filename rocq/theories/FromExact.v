(** FromExact.v — building a tree from arbitrary visits (C37): exactly when the conversion returns, panics or leaves the buffer.  Proof side only. *)
From stdpp Require Import base gmap list.
From Verif Require Import Spec ClientSpec Machine NodeModel BfsModel Sep Rep Inv ClientModel Abs FromAny ClientRef ClientStep ClientRead.

Section exact.
Context {A : Type}.
Implicit Types (s : mem A) (v cap : nat) (D : list nat).

Lemma bind_ok {X Y} (m : M A X) (k : X -> M A Y) s x s' : m s = Ok x s' -> bind m k s = k x s'.
Proof. intros H. unfold bind. by rewrite H. Qed.
Lemma bind_err {X Y} (m : M A X) (k : X -> M A Y) s e : m s = Err e -> bind m k s = Err e.
Proof. intros H. unfold bind. by rewrite H. Qed.
Definition does {X} (P : mem A -> Prop) (m : M A X) (Q : X -> mem A -> Prop) : Prop := forall s, P s -> exists x s', m s = Ok x s' /\ Q x s'.
Lemma does_bind {X Y} (P : mem A -> Prop) (m : M A X) Q (k : X -> M A Y) R : does P m Q -> (forall x, does (Q x) (k x) R) -> does P (bind m k) R.
Proof. intros H1 H2 s Hs. unfold bind. destruct (H1 s Hs) as (x & s' & -> & Hq). by apply H2. Qed.
Lemma does_ret {X} (P : mem A -> Prop) (x : X) (Q : X -> mem A -> Prop) : (forall s, P s -> Q x s) -> does P (ret x) Q.
Proof. intros H s Hs. exists x, s. split; [done|]. by apply H. Qed.
Lemma does_wk {X} (P P' : mem A -> Prop) (m : M A X) Q : (forall s, P' s -> P s) -> does P m Q -> does P' m Q.
Proof. intros H1 H2 s Hs. by apply H2, H1. Qed.

(** the slots of the buffer [v] are those below [cap], the tail pointers stay in it, and slot [i] has degree [D!i] *)
Definition good v cap D i (n : node A) : Prop :=
  (forall q, n_tail n = Some q -> exists j, j < cap /\ q = (v, j)) /\ forall d, D !! i = Some d -> n_deg n = d.
Definition buf v cap D s : Prop :=
  cap <= size (m_heap s) /\ forall i, match m_heap s !! ((v, i) : ptr) with Some n => i < cap /\ good v cap D i n | None => cap <= i end.

Lemma buf_lt v cap D s i : buf v cap D s -> i < cap -> exists n, m_heap s !! ((v, i) : ptr) = Some n /\ good v cap D i n.
Proof. intros [_ H] Hi. specialize (H i). destruct (m_heap s !! _) as [n|]; [|lia]. exists n. tauto. Qed.
Lemma does_get v cap D i : i < cap -> does (buf v cap D) (get (v, i)) (fun n s => buf v cap D s /\ good v cap D i n).
Proof. intros Hi s Hs. destruct (buf_lt _ _ _ _ _ Hs Hi) as (n & Hn & Hg). unfold get. rewrite Hn. eauto. Qed.
Lemma does_put v cap D D' i n : i < cap -> good v cap D' i n -> (forall j d, j <> i -> D' !! j = Some d -> D !! j = Some d) -> does (buf v cap D) (put (v, i) n) (fun _ => buf v cap D').
Proof.
  intros Hi Hg HD s Hs. destruct (buf_lt _ _ _ _ _ Hs Hi) as (n0 & Hn0 & _). unfold put. rewrite Hn0. eexists _, _. split; [done|]. destruct Hs as [Hs H]. split.
  - cbn. by rewrite map_size_insert_Some by eauto.
  - intros j. cbn. destruct (decide (j = i)) as [->|Hne]; [by rewrite lookup_insert|]. rewrite lookup_insert_ne by congruence. specialize (H j).
    destruct (m_heap s !! ((v, j) : ptr)); [|done]. destruct H as (Hj & Ht & Hd). split; [done|]. split; [done|]. intros d Hdd. apply Hd. by apply HD.
Qed.
Lemma does_upd v cap D i f : i < cap -> (forall n, good v cap D i n -> good v cap D i (f n)) -> does (buf v cap D) (upd (v, i) f) (fun _ => buf v cap D).
Proof. intros Hi Hf. unfold upd. eapply does_bind; [by apply does_get|]. intros n s [Hs Hg]. by eapply (does_put v cap D D i (f n) Hi (Hf n Hg)). Qed.
Lemma does_slot v cap D i : i < cap -> does (buf v cap D) (slot v i) (fun p s => p = (v, i) /\ buf v cap D s).
Proof. intros Hi. unfold slot. eapply does_bind; [by apply does_get|]. intros n. apply does_ret. by intros s [Hs _]. Qed.
(** filling the next slot *)
Lemma does_make v cap D par d dg ds : length D < cap -> does (buf v cap D) (vec_make_node v par (length D) d dg ds) (fun p s => p = (v, length D) /\ buf v cap (D ++ [dg]) s).
Proof.
  intros Hi. unfold vec_make_node. eapply does_bind; [by apply does_get|]. intros n.
  eapply (does_bind _ _ (fun _ s => buf v cap D s /\ good v cap D (length D) n)).
  { intros s [Hs Hg]. eexists _, _. split; [done|]. split; [exact Hs|done]. }
  intros ?. eapply (does_bind _ _ (fun _ => buf v cap (D ++ [dg]))).
  - intros s [Hs [Ht _]]. eapply (does_put v cap D (D ++ [dg]) (length D)); [done| | |done].
    + split; [exact Ht|]. intros d'. rewrite list_lookup_middle by done. by intros [= <-].
    + intros j d' Hj Hd. apply lookup_app_Some in Hd as [Hd|[Hd1 Hd2]]; [done|]. apply list_lookup_singleton_Some in Hd2 as [? _]. lia.
  - intros ?. by apply does_ret.
Qed.
Lemma does_append v cap D par a dg ds : par < cap -> length D < cap -> does (buf v cap D) (append_child v par (length D) a dg ds) (fun _ => buf v cap (D ++ [dg])).
Proof.
  intros Hp Hi. unfold append_child. eapply does_bind; [by apply (does_slot v cap D)|]. intros pp.
  eapply (does_bind _ _ (fun c s => c = (v, length D) /\ buf v cap (D ++ [dg]) s)).
  { intros s [-> Hs]. by apply (does_make v cap D (Some (v, par)) (DPiled a v) dg ds Hi s). }
  intros c. eapply (does_bind _ _ (fun n s => (c = (v, length D) /\ buf v cap (D ++ [dg]) s) /\ good v cap (D ++ [dg]) par n)).
  { intros s [-> Hs]. destruct (does_get v cap _ par Hp s Hs) as (n & s' & -> & H1 & H2). eauto 10. }
  intros n. eapply (does_bind _ _ (fun _ s => c = (v, length D) /\ buf v cap (D ++ [dg]) s)).
  - intros s [[-> Hs] [Ht _]]. assert (forall j p q, good v cap (D ++ [dg]) j p -> good v cap (D ++ [dg]) j (set_next (Some q) p)) as G1 by (intros ??? [??]; done).
    assert (forall j p q, good v cap (D ++ [dg]) j p -> good v cap (D ++ [dg]) j (set_prev (Some q) p)) as G2 by (intros ??? [??]; done).
    assert (forall j p q, good v cap (D ++ [dg]) j p -> good v cap (D ++ [dg]) j (set_head (Some q) p)) as G3 by (intros ??? [??]; done).
    destruct (n_tail n) as [q|].
    + destruct (Ht q eq_refl) as (j & Hj & ->). unfold connect_next.
      destruct (does_upd v cap (D ++ [dg]) j (set_next (Some (v, length D))) Hj ltac:(eauto) s Hs) as ([] & s1 & E1 & Hs1).
      destruct (does_upd v cap (D ++ [dg]) (length D) (set_prev (Some (v, j))) Hi ltac:(eauto) s1 Hs1) as ([] & s2 & E2 & Hs2).
      exists tt, s2. rewrite (bind_ok _ _ _ _ _ E1). done.
    + destruct (does_upd v cap (D ++ [dg]) par (set_head (Some (v, length D))) Hp ltac:(eauto) s Hs) as ([] & s1 & E1 & Hs1). exists tt, s1. done.
  - intros ? s [-> Hs]. eapply (does_upd v cap (D ++ [dg])); [done| |done]. intros p [_ Hd]. split; [|exact Hd]. intros q [= <-]. eauto.
Qed.

Definition sum (l : list nat) : nat := list_sum l.
Lemma sum_app l1 l2 : sum (l1 ++ l2) = sum l1 + sum l2.
Proof. apply list_sum_app. Qed.
(** the position in the loop: [i] visits done, [D] the degrees of the root and of these, [P] the current parent with [R] children missing *)
Definition pos D (P R : nat) : Prop := exists d, D !! P = Some d /\ R <= d /\ S (sum (take P D) + d - R) = length D /\ (R = 0 -> S P = length D).
Lemma pos_total D P R : pos D P R -> (0 < R <-> length D <= sum D).
Proof.
  intros (d & Hd & HR & Hs & H0). pose proof (take_drop_middle _ _ _ Hd) as E. rewrite <-E at 2. rewrite sum_app. change (sum (d :: drop (S P) D)) with (d + sum (drop (S P) D)). split.
  - lia.
  - intros Hl. destruct R; [|lia]. rewrite drop_ge in Hl by lia. cbn in Hl. lia.
Qed.
Lemma does_skip v cap D : length D <= cap -> forall f P R d, length D - P < f -> D !! P = Some d -> R <= d -> S (sum (take P D) + d - R) = length D ->
  S P < length D \/ 0 < R -> does (buf v cap D) (skip_full f v P (length D - 1) R) (fun r s => pos D r.1 r.2 /\ buf v cap D s).
Proof.
  intros Hc. induction f as [|f IH]; intros P R d Hf Hd HR Hs Hlast; [lia|]. destruct R as [|R]; cbn [skip_full].
  - destruct Hlast as [Hlast|]; [|lia]. destruct (lookup_lt_is_Some_2 D (S P) Hlast) as (d' & Hd'). eapply does_bind; [apply (does_get v cap D); lia|].
    intros n. assert (sum (take (S P) D) = sum (take P D) + d) as Hsum.
    { rewrite (take_S_r _ _ _ Hd), sum_app. cbn. lia. }
    destruct (Nat.eqb_spec (S P) (length D - 1)) as [He|He].
    + intros s [Hbs [_ Hg]]. specialize (Hg d' Hd'). exists (S P, n_deg n), s. split; [done|]. cbn [fst snd]. split; [|done]. exists d'. rewrite Hg. split; [done|].
      split; [done|]. split; [rewrite Hsum; lia|]. intros _. lia.
    + intros s [Hbs [_ Hg]]. specialize (Hg d' Hd'). rewrite Hg. eapply (IH (S P) d' d'); [lia|done|lia|rewrite Hsum; lia| |done]. destruct d'; lia.
  - apply does_ret. intros s Hbs. cbn [fst snd]. split; [|done]. exists d. split; [done|]. split; [done|]. split; [lia|]. lia.
Qed.

Definition degs (l : list (A * nat * nat)) : list nat := map (fun x => x.1.2) l.
(** how many of the visits are taken before there is no parent left *)
Definition has_parents D (l : list (A * nat * nat)) (i : nat) : Prop := length D + i <= sum D + sum (take i (degs l)).

Lemma loop_step v cap D P R a dg ds (l : list (A * nat * nat)) f s : pos D P R -> length D < cap -> 0 < R -> buf v cap D s ->
  exists P' R' s', pos (D ++ [dg]) P' R' /\ buf v cap (D ++ [dg]) s' /\
    from_bfs_loop list_next (S f) v P (length D) R ((a, dg, ds) :: l) s = from_bfs_loop list_next f v P' (length (D ++ [dg])) R' l s'.
Proof.
  intros (d & Hd & HR & Hs & H0) Hc HR0 Hb. pose proof (lookup_lt_Some _ _ _ Hd) as HP. cbn [from_bfs_loop list_next]. rewrite (bind_ok (ret _) _ s _ s eq_refl). cbn [fst snd].
  destruct (does_append v cap D P a dg ds ltac:(lia) Hc s Hb) as ([] & s1 & E1 & Hb1). rewrite (bind_ok _ _ _ _ _ E1).
  rewrite (bind_ok (sub R 1) _ s1 (R - 1) s1) by (unfold sub; destruct R; [lia|done]). rewrite (bind_ok fuel _ s1 _ s1 eq_refl).
  destruct (does_skip v cap (D ++ [dg]) ltac:(rewrite app_length; cbn; lia) (S (size (m_heap s1))) P (R - 1) d) with (s := s1) as ([P' R'] & s2 & E2 & Hpos & Hb2).
  - destruct Hb1 as [Hb1 _]. rewrite app_length; cbn; lia.
  - by apply lookup_app_l_Some.
  - lia.
  - rewrite take_app_le, app_length by lia. cbn. lia.
  - rewrite app_length. cbn. lia.
  - done.
  - rewrite app_length in E2. cbn [length] in E2. replace (length D + 1 - 1) with (length D) in E2 by lia. rewrite (bind_ok _ _ _ _ _ E2). cbn [fst snd] in *.
    exists P', R', s2. split; [done|]. split; [done|]. rewrite app_length. cbn [length]. by rewrite Nat.add_1_r.
Qed.
Lemma loop_full v cap D P R a dg ds (l : list (A * nat * nat)) f s : pos D P R -> length D = cap -> buf v cap D s ->
  from_bfs_loop list_next (S f) v P (length D) R ((a, dg, ds) :: l) s = Err EUB.
Proof.
  intros (d & Hd & HR & Hs & H0) Hc Hb. pose proof (lookup_lt_Some _ _ _ Hd) as HP. cbn [from_bfs_loop list_next]. rewrite (bind_ok (ret _) _ s _ s eq_refl). cbn [fst snd].
  apply bind_err. unfold append_child. destruct (does_slot v cap D P ltac:(lia) s Hb) as (p & s1 & E1 & -> & Hb1). rewrite (bind_ok _ _ _ _ _ E1).
  apply bind_err. unfold make_piled_node, vec_make_node. apply bind_err. unfold get. destruct Hb1 as [_ Hb1]. specialize (Hb1 (length D)). destruct (m_heap s1 !! _); [lia|done].
Qed.
Lemma loop_stop v cap D P a dg ds (l : list (A * nat * nat)) f s : pos D P 0 -> length D < cap -> buf v cap D s ->
  from_bfs_loop list_next (S f) v P (length D) 0 ((a, dg, ds) :: l) s = Err EPanic.
Proof.
  intros (d & Hd & HR & Hs & H0) Hc Hb. pose proof (lookup_lt_Some _ _ _ Hd) as HP. cbn [from_bfs_loop list_next]. rewrite (bind_ok (ret _) _ s _ s eq_refl). cbn [fst snd].
  destruct (does_append v cap D P a dg ds ltac:(lia) Hc s Hb) as ([] & s1 & E1 & Hb1). rewrite (bind_ok _ _ _ _ _ E1). by apply bind_err.
Qed.
Lemma has_parents_S D x l i : has_parents D (x :: l) (S i) <-> has_parents (D ++ [x.1.2]) l i.
Proof. unfold has_parents. rewrite app_length, sum_app. change (degs (x :: l)) with (x.1.2 :: degs l). cbn [take length]. change (sum (x.1.2 :: take i (degs l))) with (x.1.2 + sum (take i (degs l))). change (sum [x.1.2]) with (x.1.2 + 0). lia. Qed.
Lemma has_parents_0 D x l P R : pos D P R -> (has_parents D (x :: l) 0 <-> 0 < R).
Proof. intros H. rewrite (pos_total D P R H). unfold has_parents. cbn. lia. Qed.
Lemma loop_exact v cap (l : list (A * nat * nat)) : forall f D P R s, pos D P R -> length D <= cap -> cap - length D < f -> buf v cap D s ->
  (length D + length l <= cap -> (forall i, i < length l -> has_parents D l i) ->
     exists s', from_bfs_loop list_next f v P (length D) R l s = Ok tt s' /\ buf v cap (D ++ degs l) s') /\
  (cap < length D + length l -> (forall i, i < cap - length D -> has_parents D l i) -> from_bfs_loop list_next f v P (length D) R l s = Err EUB) /\
  (forall i, i < length l -> length D + i < cap -> ~ has_parents D l i -> (forall j, j < i -> has_parents D l j) -> from_bfs_loop list_next f v P (length D) R l s = Err EPanic).
Proof.
  induction l as [|[[a dg] ds] l IH]; intros f D P R s Hpos Hc Hf Hb; (destruct f as [|f]; [lia|]).
  - split; [|split]; cbn [length]; [|lia..]. intros _ _. exists s. split; [done|]. cbn. by rewrite app_nil_r.
  - cbn [length] in *. pose proof (has_parents_0 D (a, dg, ds) l P R Hpos) as H0. pose proof (has_parents_S D (a, dg, ds) l) as HS. cbn [fst snd] in HS.
    destruct (decide (length D = cap)) as [He|He].
    { rewrite (loop_full v cap D P R a dg ds l f s Hpos He Hb). split; [lia|]. split; [done|]. lia. }
    destruct R as [|R].
    { rewrite (loop_stop v cap D P a dg ds l f s Hpos ltac:(lia) Hb). split; [|split; [|done]].
      - intros _ H. apply H0 in H; lia.
      - intros _ H. apply H0 in H; lia. }
    destruct (loop_step v cap D P (S R) a dg ds l f s Hpos ltac:(lia) ltac:(lia) Hb) as (P' & R' & s' & Hpos' & Hb' & E). rewrite E.
    destruct (IH f (D ++ [dg]) P' R' s' Hpos') as (I1 & I2 & I3); [rewrite app_length; cbn; lia|rewrite app_length; cbn; lia|done|]. clear E IH. rewrite app_length in I1, I2, I3. cbn [length] in I1, I2, I3.
    rewrite app_length. cbn [length]. split; [|split].
    + intros Hl H. destruct I1 as (s2 & E2 & Hb2); [lia| |].
      * intros i Hi. apply HS, H. lia.
      * exists s2. split; [done|]. change (degs ((a, dg, ds) :: l)) with ([dg] ++ degs l). by rewrite app_assoc.
    + intros Hl H. apply I2; [lia|]. intros i Hi. apply HS, H. lia.
    + intros [|i] Hi Hlt Hn Hj; [destruct Hn; apply H0; lia|]. apply (I3 i); [lia|lia| |].
      * by rewrite <-HS.
      * intros j Hji. apply HS, Hj. lia.
Qed.

Lemma buf_new cap s : (forall k, m_heap s !! ((m_fresh s, k) : ptr) = None) -> exists s', new_vec cap s = Ok (m_fresh s) s' /\ buf (m_fresh s) cap [] s'.
Proof.
  intros Hf. pose proof (FromAny.buf_new cap s) as H. eexists. split; [done|]. cbn [new_vec] in H. destruct H as [Hsz H]. split; [done|]. intros i. destruct (decide (i < cap)) as [Hi|Hi].
  - destruct (H i Hi) as (n & -> & Ht). split; [done|]. split; [done|]. by intros d Hd%elem_of_list_lookup_2%elem_of_nil.
  - cbn [m_heap] in *. destruct ((list_to_map (vec_slots (m_fresh s) cap) ∪ m_heap s) !! ((m_fresh s, i) : ptr)) eqn:E; [|lia]. exfalso.
    apply lookup_union_Some_raw in E as [E|[_ E]]; [|by rewrite Hf in E]. apply elem_of_list_to_map_2 in E. unfold vec_slots in E. apply elem_of_list_fmap in E as (j & [= -> _] & E).
    apply elem_of_seq in E. lia.
Qed.
Lemma pos_start dg : pos [dg] 0 dg.
Proof. exists dg. cbn. repeat split; lia. Qed.

(** * the two conversions *)
Implicit Types (l : list (A * nat * nat)).
Lemma has_parents_1 dg l i : has_parents [dg] l i <-> i < dg + sum (take i (degs l)).
Proof. unfold has_parents. cbn. lia. Qed.

Lemma tree_core s a dg ds l : (forall k, m_heap s !! ((m_fresh s, k) : ptr) = None) ->
  exists s2, buf (m_fresh s) (ds + 1) [dg] s2 /\
  tree_from_bfs list_next ((a, dg, ds) :: l) s = bind (from_bfs_loop list_next (S (size (m_heap s2))) (m_fresh s) 0 1 dg l) (fun _ => let! p := slot (m_fresh s) 0 in tree_from_node p) s2.
Proof.
  intros Hf. unfold tree_from_bfs. rewrite (bind_ok (list_next ((a, dg, ds) :: l)) _ s (Some (a, dg, ds), l) s eq_refl). cbn [fst snd unwrap]. rewrite (bind_ok (ret _) _ s _ s eq_refl).
  destruct (buf_new (ds + 1) s Hf) as (s1 & E1 & Hb1). rewrite (bind_ok _ _ _ _ _ E1).
  destruct (does_make (m_fresh s) (ds + 1) [] None (DPiled a (m_fresh s)) dg ds ltac:(cbn; lia) s1 Hb1) as (p & s2 & E2 & _ & Hb2). cbn [length app] in *.
  unfold make_piled_node. rewrite (bind_ok _ _ _ _ _ E2). rewrite (bind_ok fuel _ s2 _ s2 eq_refl). exists s2. done.
Qed.
Lemma forest_core s dg ds l : (forall k, m_heap s !! ((m_fresh s, k) : ptr) = None) ->
  exists s2, buf (m_fresh s) (ds + 1) [dg] s2 /\
  forest_from_bfs list_next l dg ds s = bind (from_bfs_loop list_next (S (size (m_heap s2))) (m_fresh s) 0 1 dg l) (fun _ => slot (m_fresh s) 0) s2.
Proof.
  intros Hf. unfold forest_from_bfs.
  destruct (buf_new (ds + 1) s Hf) as (s1 & E1 & Hb1). rewrite (bind_ok _ _ _ _ _ E1).
  destruct (does_make (m_fresh s) (ds + 1) [] None (DPiledN (m_fresh s)) dg ds ltac:(cbn; lia) s1 Hb1) as (p & s2 & E2 & _ & Hb2). cbn [length app] in *.
  rewrite (bind_ok _ _ _ _ _ E2). rewrite (bind_ok fuel _ s2 _ s2 eq_refl). exists s2. done.
Qed.

(** the first visit without a parent *)
Lemma first_bad (P : nat -> Prop) : (forall i, Decision (P i)) -> forall n, (forall i, i < n -> P i) \/ exists i, i < n /\ ~ P i /\ forall j, j < i -> P j.
Proof.
  intros dec n. induction n as [|n [IH|(i & Hi & H)]]; [left; lia| |right; exists i; split; [lia|done]]. destruct (dec n) as [H|H].
  - left. intros i Hi. destruct (decide (i = n)) as [->|]; [done|]. apply IH. lia.
  - right. exists n. auto with lia.
Qed.

(** from the three cases of the loop to the outcome *)
Lemma cases {X} (r : res A X) cap (n ds : nat) (P : nat -> Prop) : cap = ds + 1 -> (forall i, Decision (P i)) ->
  (1 + n <= cap -> (forall i, i < n -> P i) -> exists x s, r = Ok x s) ->
  (cap < 1 + n -> (forall i, i < cap - 1 -> P i) -> r = Err EUB) ->
  (forall i, i < n -> 1 + i < cap -> ~ P i -> (forall j, j < i -> P j) -> r = Err EPanic) ->
  ((exists x s, r = Ok x s) <-> n <= ds /\ forall i, i < n -> P i) /\
  (r = Err EUB <-> ds < n /\ forall i, i < ds -> P i) /\
  (r = Err EPanic <-> exists i, i < n /\ i < ds /\ ~ P i).
Proof.
  intros -> dec H1 H2 H3. assert (forall i, i < n -> i < ds -> ~ P i -> r = Err EPanic) as H4.
  { intros i Hi Hd Hn. destruct (first_bad P dec (S i)) as [H|(j & Hj & Hnj & Hlt)]; [destruct Hn; apply H; lia|]. apply (H3 j); [lia|lia|done|done]. }
  destruct (first_bad P dec (n `min` ds)) as [H|(i & Hi & Hn & Hlt)].
  - destruct (decide (n <= ds)) as [Hl|Hl].
    + destruct H1 as (x & s & E); [lia|intros i Hi; apply H; lia|]. rewrite E. split; [|split].
      * split; [|eauto]. intros _. split; [done|]. intros i Hi. apply H. lia.
      * split; [done|lia].
      * split; [done|]. intros (i & Hi & Hd & Hn). destruct Hn. apply H. lia.
    + rewrite H2; [|lia|intros i Hi; apply H; lia]. split; [|split].
      * split; [by intros (? & ? & ?)|lia].
      * split; [|done]. intros _. split; [lia|]. intros i Hi. apply H. lia.
      * split; [done|]. intros (i & Hi & Hd & Hn). destruct Hn. apply H. lia.
  - rewrite (H4 i); [|lia|lia|done]. split; [|split].
    + split; [by intros (? & ? & ?)|]. intros [_ H]. destruct Hn. apply H. lia.
    + split; [done|]. intros [_ H]. destruct Hn. apply H. lia.
    + split; [|done]. intros _. exists i. split; [lia|]. split; [lia|done].
Qed.

Lemma fresh_cells (c : cst A) : reachable c -> forall k, m_heap (c_mem c) !! ((m_fresh (c_mem c), k) : ptr) = None.
Proof.
  intros Hr k. destruct (reachable_CInv c Hr) as (σ & HI). destruct (m_heap (c_mem c) !! _) eqn:E; [|done]. exfalso.
  destruct HI as (Wm & [HI _ _] & _). pose proof (MInv_fresh _ _ _ _ HI (ex_intro _ _ E)) as H. cbn in H. lia.
Qed.
Definition degree_sum l : nat := list_sum (map (fun x => x.1.2) l).
Lemma degree_sum_take i l : degree_sum (take i l) = sum (take i (degs l)).
Proof. unfold degree_sum, sum, degs. by rewrite firstn_map. Qed.

Lemma tree_outcome (c : cst A) a dg ds l : reachable c ->
  let r := tree_from_bfs list_next ((a, dg, ds) :: l) (c_mem c) in
  let parent i := i < dg + degree_sum (take i l) in
  ((exists p s, r = Ok p s) <-> length l <= ds /\ forall i, i < length l -> parent i) /\
  (r = Err EUB <-> ds < length l /\ forall i, i < ds -> parent i) /\
  (r = Err EPanic <-> exists i, i < length l /\ i < ds /\ ~ parent i).
Proof.
  intros Hr r parent. destruct (tree_core (c_mem c) a dg ds l (fresh_cells c Hr)) as (s2 & Hb & E). fold r in E.
  destruct (loop_exact (m_fresh (c_mem c)) (ds + 1) l (S (size (m_heap s2))) [dg] 0 dg s2 (pos_start dg)) as (L1 & L2 & L3); [cbn; lia|destruct Hb; cbn; lia|done|].
  cbn [length] in L1, L2, L3. assert (forall i, has_parents [dg] l i <-> parent i) as HP by (intros i; unfold parent; rewrite degree_sum_take; apply has_parents_1).
  apply (cases r (ds + 1) (length l) ds parent); [done|intros i; unfold parent; apply _| | |].
  - intros Hl Hp. destruct L1 as (s3 & E3 & Hb3); [lia|intros i Hi; by apply HP, Hp|]. rewrite (bind_ok _ _ _ _ _ E3) in E. rewrite E.
    destruct (does_slot (m_fresh (c_mem c)) (ds + 1) _ 0 ltac:(lia) s3 Hb3) as (p & s4 & E4 & -> & Hb4). rewrite (bind_ok _ _ _ _ _ E4). unfold tree_from_node.
    destruct (does_upd (m_fresh (c_mem c)) (ds + 1) _ 0 (set_up None) ltac:(lia) ltac:(intros n [? ?]; done) s4 Hb4) as ([] & s5 & E5 & _). rewrite (bind_ok _ _ _ _ _ E5). eexists _, _. done.
  - intros Hl Hp. rewrite E. apply bind_err, L2; [lia|]. intros i Hi. by apply HP, Hp.
  - intros i Hi Hd Hn Hj. rewrite E. apply bind_err, (L3 i); [done|lia|by rewrite HP|]. intros j Hji. by apply HP, Hj.
Qed.
Lemma forest_outcome (c : cst A) dg ds l : reachable c ->
  let r := forest_from_bfs list_next l dg ds (c_mem c) in
  let parent i := i < dg + degree_sum (take i l) in
  ((exists p s, r = Ok p s) <-> length l <= ds /\ forall i, i < length l -> parent i) /\
  (r = Err EUB <-> ds < length l /\ forall i, i < ds -> parent i) /\
  (r = Err EPanic <-> exists i, i < length l /\ i < ds /\ ~ parent i).
Proof.
  intros Hr r parent. destruct (forest_core (c_mem c) dg ds l (fresh_cells c Hr)) as (s2 & Hb & E). fold r in E.
  destruct (loop_exact (m_fresh (c_mem c)) (ds + 1) l (S (size (m_heap s2))) [dg] 0 dg s2 (pos_start dg)) as (L1 & L2 & L3); [cbn; lia|destruct Hb; cbn; lia|done|].
  cbn [length] in L1, L2, L3. assert (forall i, has_parents [dg] l i <-> parent i) as HP by (intros i; unfold parent; rewrite degree_sum_take; apply has_parents_1).
  apply (cases r (ds + 1) (length l) ds parent); [done|intros i; unfold parent; apply _| | |].
  - intros Hl Hp. destruct L1 as (s3 & E3 & Hb3); [lia|intros i Hi; by apply HP, Hp|]. rewrite (bind_ok _ _ _ _ _ E3) in E. rewrite E.
    destruct (does_slot (m_fresh (c_mem c)) (ds + 1) _ 0 ltac:(lia) s3 Hb3) as (p & s4 & E4 & -> & Hb4). eexists _, _. done.
  - intros Hl Hp. rewrite E. apply bind_err, L2; [lia|]. intros i Hi. by apply HP, Hp.
  - intros i Hi Hd Hn Hj. rewrite E. apply bind_err, (L3 i); [done|lia|by rewrite HP|]. intros j Hji. by apply HP, Hj.
Qed.
End exact.
