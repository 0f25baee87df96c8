(** RcOwnStep.v — the single steps of a drop: take a child away, drop a handle that is not the last reference, drop the last reference to a node without children. *)
From stdpp Require Import base gmap list.
From Verif Require Import Spec ClientSpec RcSpec Machine NodeModel BfsModel ClientModel RcModel RcAllowed RcClient Sep Rep NodeProofs Inv Abs ClientProofs ClientRef ClientProps CountFrame
  RcRelease RcLab RcRef RcStep RcStep2 RcStep3 RcStep4 RcProps RcProps2 CounterSpec CounterProofs RcOwnModel RcOwnSpec RcOwnProofs.

Section step.
Context {A : Type}.
Implicit Types (p q : ptr) (s : mem A) (c : rst A) (σ : rss A) (Z : list ptr).
Local Notation trees Wm := ((map_to_list Wm).*2).

(** the handle [n] is the only reference to its node [i] *)
Definition pinned σ (n i : nat) : Prop := rs_h σ !! n = Some i /\ i ∈ lid <$> rs_sh σ /\ forall m, rs_h σ !! m = Some i -> m = n.

Lemma occ_pos p l : p ∈ l -> 1 <= occ p l.
Proof. intros (l1 & l2 & ->)%elem_of_list_split. rewrite occ_app. unfold occ at 2. rewrite filter_cons, decide_True by done. simpl. lia. Qed.

Lemma count_one c σ n r i : reached c σ -> r_h c !! n = Some r -> rs_h σ !! n = Some i ->
  exists k a u, m_cnt (r_mem c) !! raddr r = Some (S k) /\ (k = 0 <-> pinned σ n i) /\ m_heap (r_mem c) !! raddr r = Some u /\ lval <$> lfind i (rs_sh σ) = Some a /\ dat_vals (n_dat u) = [a].
Proof.
  intros Hr Hn Hi. pose proof Hr as HR%reached_RI. destruct HR as (Wm & SH & Hs & s & ψ & HR). pose proof (RI_minv HR) as HI. pose proof (iv_mem _ _ _ _ _ _ _ HR) as Hm.
  destruct (iv_h _ _ _ _ _ _ _ HR) as [_ Hp]. pose proof (RI_handle HR n) as Hh. rewrite Hi in Hh.
  destruct Hh as (p & pl & a & aks & S1 & S2 & D & L1 & L2 & C & ks & Hc & HSH & Hsh & H1 & H2 & HD & Hψ & Hks & Hf & HI').
  assert (r = rform p pl) as -> by congruence. rewrite raddr_rform. pose proof (lookup_at _ _ _ _ _ _ _ _ HI') as Hu.
  pose proof (mi_cnt _ _ _ HI p (ex_intro _ _ Hu)) as Hct. exists (occ p Hs), a. eexists. rewrite Hm, Hf. cbn [m_heap m_cnt addc adj]. rewrite map_lookup_imap, Hct.
  split_and!; [done| |exact Hu|done|by destruct pl].
  rewrite (trees_delete _ _ _ Hn), fmap_cons, raddr_rform in Hp.
  assert (1 + occ p (raddr <$> trees (delete n (r_h c))) = occ p Hs + occ p (aptr <$> SH)) as Hcount.
  { rewrite <-occ_app, <-(occ_perm _ _ _ Hp). unfold occ at 2. rewrite filter_cons, decide_True by done. done. }
  assert (i ∈ lid <$> rs_sh σ <-> p ∈ aptr <$> SH) as Hroot.
  { pose proof (iv_sh _ _ _ _ _ _ _ HR) as Hlr. clear -Hlr Hψ HR. pose proof (proj1 (iv_id _ _ _ _ _ _ _ HR)) as Hinj. clear HR. induction Hlr as [|av t SH sh Hl Hlr IH]; [split; by intros ?%elem_of_nil|].
    rewrite !fmap_cons, !elem_of_cons, IH. pose proof (lrep_lid _ _ _ Hl) as Ha. split; intros [->|?]; [left|by right|left|by right].
    - by eapply Hinj.
    - congruence. }
  assert (occ p (raddr <$> trees (delete n (r_h c))) = 0 <-> forall m, rs_h σ !! m = Some i -> m = n) as Hsole.
  { split.
    - intros H0 m Hmi. destruct (decide (m = n)) as [|Hne]; [done|]. exfalso. assert (is_Some (r_h c !! m)) as [rm Hrm] by (apply (handle_iff c σ m Hr); eauto).
      assert (raddr rm = p) as Hpm. { rewrite <-(raddr_rform p pl). apply (handles_same c σ m n _ _ Hr Hrm Hn). congruence. }
      assert (p ∈ raddr <$> trees (delete n (r_h c))) as Hin. { rewrite <-Hpm. apply elem_of_list_fmap_1. apply elem_of_list_fmap. exists (m, rm). split; [done|]. apply elem_of_map_to_list. by rewrite lookup_delete_ne. }
      apply occ_pos in Hin. lia.
    - intros Hall. apply occ_0. intros Hin. apply elem_of_list_fmap in Hin as (rm & Hpm & Hin). apply elem_of_list_fmap in Hin as ([m rm'] & Heq & Hin). simpl in Heq. subst rm'.
      apply elem_of_map_to_list, lookup_delete_Some in Hin as [Hne Hrm]. apply Hne. symmetry. apply Hall. rewrite <-Hi. apply (handles_same c σ m n _ _ Hr Hrm Hn). by rewrite raddr_rform. }
  assert (NoDup (aptr <$> SH)) as HN by (apply nodup_roots; exact (RI_nodup_addrs HR)).
  split.
  - intros H0. assert (p ∈ aptr <$> SH) as Hin. { destruct (decide (p ∈ aptr <$> SH)); [done|]. rewrite (occ_0 p (aptr <$> SH)) in Hcount by done. lia. }
    rewrite (occ_nodup _ _ HN Hin) in Hcount. split_and!; [done|by apply Hroot|]. apply Hsole. lia.
  - intros (_ & Hin & Hall). apply Hroot in Hin. rewrite (occ_nodup _ _ HN Hin) in Hcount. apply Hsole in Hall. lia.
Qed.

Lemma no_guard c σ h : reached c σ -> rs_g σ = ∅ -> bool_decide (h ∈ ((map_to_list (r_g c)).*2).*1) = false /\ bool_decide (h ∈ ((map_to_list (rs_g σ)).*2).*1) = false.
Proof. intros HR Hg. rewrite (RI_gs _ _ (reached_RI _ _ HR)), Hg, map_to_list_empty. cbn [fmap list_fmap]. rewrite bool_decide_false by apply not_elem_of_nil. done. Qed.

(** the step [drop(n)] of the client *)
Lemma drop_step c σ n r i : reached c σ -> rs_g σ = ∅ -> r_h c !! n = Some r -> rs_h σ !! n = Some i ->
  exists s', rc_drop_handle (r_b c) r (r_mem c) = Ok tt s' /\ reached (set_rh (set_mem c s') (delete n (r_h c))) (drop_handle σ n i).
Proof.
  intros HR Hg Hr Hi. pose proof (reached_step c σ (SDrop n) HR I) as Hs. destruct (no_guard c σ n HR Hg) as [G1 G2]. unfold rsstep in Hs. rewrite Hi, G2 in Hs. destruct Hs as (c' & E & HR').
  unfold rstep in E. rewrite Hr, G1 in E. unfold call in E. destruct (rc_drop_handle (r_b c) r (r_mem c)) as [[] s'|]; [|done]. injection E as <-. eauto.
Qed.

Lemma pinned_held c σ n i : reached c σ -> rs_h σ !! n = Some i -> ~ pinned σ n i -> drop_handle σ n i = set_h σ (delete n (rs_h σ)).
Proof.
  intros HR Hi Hp. unfold drop_handle. destruct (held (delete n (rs_h σ)) i) eqn:Eh; [done|]. destruct (decide (i ∈ lid <$> rs_sh σ)) as [Hin|]; [|done]. exfalso. apply Hp. split_and!; [done|done|].
  intros m Hm. destruct (decide (m = n)) as [|Hne]; [done|]. exfalso. assert (held (delete n (rs_h σ)) i = true) as H; [|congruence]. apply held_spec. exists m. by rewrite lookup_delete_ne.
Qed.

Lemma drop_fuel B r s : rc_drop_handle B r s = rc_drop_loop (S (S (size (m_heap s) + (size (m_heap s) + 0)))) B r s.
Proof. unfold rc_drop_handle, bind, fuel. f_equal. lia. Qed.
Lemma rc_loop_round f B r : @rc_drop_loop A (S f) B r = match r with
  | RScat p => let! k := cnt_get p in (if Nat.eqb k 1 then rc_pops f B r else ret tt) ;; rc_drop p
  | RPile v i => vec_ref v ;; let! k := cnt_decr (v, i) in (if Nat.eqb k 0 then rc_pops f B r ;; drop_in_place (v, i) else ret tt) ;; decr_ref v
  end.
Proof. done. Qed.
(** a handle that is not the last reference *)
Lemma clean_dec own c σ n r i : reached c σ -> rs_g σ = ∅ -> r_h c !! n = Some r -> rs_h σ !! n = Some i -> ~ pinned σ n i ->
  exists s', reached (set_rh (set_mem c s') (delete n (r_h c))) (set_h σ (delete n (rs_h σ))) /\ m_log s' = m_log (r_mem c) /\
    forall Z l f B H, raddr r ∉ Z -> rd_loop own (S f) B H r (zl Z l (r_mem c)) = Ok H (zl Z l s').
Proof.
  intros HR Hg Hr Hi Hp. destruct (count_one c σ n r i HR Hr Hi) as (k & a & u & Hk & Hk1 & Hu & _ & _). destruct k as [|k]; [by destruct Hp; apply Hk1|].
  destruct (drop_step c σ n r i HR Hg Hr Hi) as (s' & E & HR'). rewrite (pinned_held c σ n i HR Hi Hp) in HR'. exists s'. split; [done|].
  set (s := r_mem c) in *. rewrite drop_fuel in E.
  cbn [rc_drop_loop] in E. destruct r as [p|v j]; cbn [raddr] in *.
  - unfold bind, cnt_get in E. rewrite Hk in E. cbn [Nat.eqb ret] in E. unfold rc_drop in E. rewrite Hk, Hu in E. injection E as <-. split; [done|]. intros Z l f B H HZ. cbn [rd_loop]. unfold bind, cnt_get, rc_drop. cbn [m_cnt m_heap zl].
    rewrite zc_look, Hk. cbn [fmap option_fmap option_map]. rewrite decide_False by done. cbn [Nat.eqb m_cnt m_heap zl]. rewrite zc_look, Hk. cbn [fmap option_fmap option_map]. rewrite decide_False by done. rewrite Hu. unfold zl. cbn [m_cnt m_heap m_vec m_fresh]. rewrite zc_insert by done. done.
  - unfold bind, vec_ref in E. destruct (m_vec s !! v) as [w|] eqn:Ev; [|done]. unfold cnt_decr in E. rewrite Hk in E. cbn [Nat.eqb ret] in E. split; [by apply decr_ref_log in E|]. intros Z l f B H HZ. cbn [rd_loop]. unfold bind, vec_ref, cnt_decr. cbn [m_vec m_cnt zl].
    rewrite Ev. cbn [m_cnt zl]. rewrite zc_look, Hk. cbn [fmap option_fmap option_map]. rewrite decide_False by done. cbn [Nat.eqb]. apply (zl_decr_ref Z l) in E. unfold zl at 1 in E. cbn [m_cnt m_heap m_vec m_fresh] in E. rewrite zc_insert in E by done. cbn [m_heap m_cnt m_vec m_fresh m_log zl]. rewrite E. done.
Qed.

(** the children of a root *)
Lemma pinned_node c σ n i : reached c σ -> pinned σ n i -> exists L1 L2 a ks, rs_sh σ = L1 ++ LN i a ks :: L2 /\ lfind i (rs_sh σ) = Some (LN i a ks).
Proof.
  intros HR (_ & Hin & _). pose proof (RI_ids _ _ (reached_RI _ _ HR)) as HN. apply elem_of_list_fmap in Hin as ([j a ks] & -> & Hin). pose proof (lfind_in _ _ HN (lall_in _ _ Hin)) as Hf.
  apply elem_of_list_split in Hin as (L1 & L2 & Hsh). exists L1, L2, a, ks. done.
Qed.
Lemma writable_all σ i : rs_g σ = ∅ -> writable σ i = true.
Proof. intros Hg. unfold writable, guards_on. rewrite Hg, map_to_list_empty. done. Qed.
Lemma pop_step c σ n r i t : reached c σ -> rs_g σ = ∅ -> r_h c !! n = Some r -> pinned σ n i -> rs_h σ !! t = None ->
  exists L1 L2 a ks, rs_sh σ = L1 ++ LN i a ks :: L2 /\ lfind i (rs_sh σ) = Some (LN i a ks) /\
  match ks with
  | [] => rc_pop Front (r_b c) r (r_mem c) = Ok None (r_mem c)
  | k :: ks' => exists (q : rnode) s', rc_pop Front (r_b c) r (r_mem c) = Ok (Some q) s' /\
      reached (set_rh (set_mem c s') (<[t := q]> (r_h c))) (set_h (set_sh σ (L1 ++ LN i a ks' :: L2 ++ [k])) (<[t := lid k]> (rs_h σ)))
  end.
Proof.
  intros HR Hg Hr Hp Ht. destruct (pinned_node c σ n i HR Hp) as (L1 & L2 & a & ks & Hsh & Hf). exists L1, L2, a, ks. split_and!; [done|done|].
  pose proof (RI_ids _ _ (reached_RI _ _ HR)) as HN.
  pose proof (reached_step c σ (SPop Front n t) HR I) as Hs. cbn [rsstep] in Hs. rewrite Ht in Hs. unfold writing, on_node in Hs. rewrite (proj1 Hp), Hf, (writable_all σ i Hg) in Hs. cbn [lkids] in Hs.
  assert (r_h c !! t = None) as Ht'. { destruct (r_h c !! t) eqn:E; [|done]. assert (is_Some (rs_h σ !! t)) as [? ?]; [|congruence]. apply (handle_iff c σ t HR). eauto. }
  destruct ks as [|k ks]; cbn [head] in Hs; destruct Hs as (c' & E & HR'); cbn [rstep] in E; rewrite Ht', Hr in E; unfold call in E.
  - destruct (rc_pop Front (r_b c) r (r_mem c)) as [[q|] s'|] eqn:Eq; [done| |done]. by rewrite (rc_pop_none _ _ _ _ Eq).
  - destruct (rc_pop Front (r_b c) r (r_mem c)) as [[q|] s'|] eqn:Eq; [|done|done]. cbn [rgive] in E. injection E as <-. exists q, s'. split; [done|].
    replace (L1 ++ LN i a ks :: L2 ++ [k]) with (map (lmap_at i (set_lkids (remove_kid (lid k)))) (rs_sh σ) ++ [k]); [exact HR'|].
    rewrite Hsh in HN |- *. pose proof (loc_map L1 L2 [] (LN i a (k :: ks)) HN (set_lkids (remove_kid (lid k)))) as Hlm. cbn [lplug set_lkids foldl lid] in Hlm. rewrite Hlm. rewrite <-app_assoc. simpl. do 3 f_equal.
    change (k :: ks) with ([] ++ k :: ks). rewrite remove_kid_at; [done|apply not_elem_of_nil|]. assert (NoDup (lid <$> k :: ks)) as HN'. { apply (kids_ids_nodup (L1 ++ LN i a (k :: ks) :: L2) (LN i a (k :: ks)) HN). apply lall_in, elem_of_app. right. left. }
    by apply NoDup_cons in HN' as [? _].
Qed.

(** the last reference to a node without children *)
Lemma clean_leaf c σ n r i L1 L2 a : reached c σ -> rs_g σ = ∅ -> r_h c !! n = Some r -> pinned σ n i -> rs_sh σ = L1 ++ LN i a [] :: L2 ->
  exists s', reached (set_rh (set_mem c s') (delete n (r_h c))) (set_x (set_sh (set_h σ (delete n (rs_h σ))) (L1 ++ L2)) (SSt (env_of σ) (s_log (rs_x σ) ++ [a]))) /\
    forall Z l, match r with
                | RScat p => dealloc p (zl (p :: Z) l (r_mem c)) = Ok tt (zl Z l s')
                | RPile v j => (vacate (v, j) ;; decr_ref v) (zl ((v, j) :: Z) l (r_mem c)) = Ok tt (zl Z l s')
                end.
Proof.
  intros HR Hg Hr Hp Hsh. pose proof (RI_ids _ _ (reached_RI _ _ HR)) as HN. pose proof Hp as (Hi & Hin & Hsole). destruct (count_one c σ n r i HR Hr Hi) as (k & b & u & Hk & Hk1 & Hu & _ & _). apply Hk1 in Hp as Hp0. subst k.
  destruct (drop_step c σ n r i HR Hg Hr Hi) as (s' & E & HR'). exists s'. split.
  { unfold drop_handle in HR'. destruct (held (delete n (rs_h σ)) i) eqn:Eh.
    { apply held_spec in Eh as [m Hm]. apply lookup_delete_Some in Hm as [Hne Hm]. by destruct Hne; rewrite (Hsole m Hm). }
    rewrite decide_True in HR' by done. rewrite Hsh in HN, HR'. rewrite (flat_at (surv _) (fun t => [t]) L1 L2 (LN i a []) HN), (flat_at (lost _) (fun _ => []) L1 L2 (LN i a []) HN), !flat_self, !flat_nil, app_nil_r in HR'. exact HR'. }
  destruct (exist_fresh (dom (rs_h σ) : gset nat)) as [t Ht]. apply not_elem_of_dom in Ht. destruct (pop_step c σ n r i t HR Hg Hr Hp Ht) as (L1' & L2' & a' & ks & Hsh' & Hf & Hpop).
  assert (ks = []) as ->. { assert (LN i a [] ∈ lall (rs_sh σ)) as Hal. { rewrite Hsh. apply lall_in, elem_of_app. right. left. } pose proof (lfind_in (LN i a []) (rs_sh σ) HN Hal) as Hf'. cbn [lid] in Hf'. congruence. }
  set (s := r_mem c) in *. rewrite drop_fuel, rc_loop_round in E. destruct r as [p|v j]; cbn [raddr] in *.
  - unfold bind, cnt_get in E. rewrite Hk in E. cbn [Nat.eqb] in E. rewrite rc_pops_round, Hpop in E. unfold rc_drop in E. rewrite Hk, Hu in E. injection E as <-. intros Z l. unfold dealloc. cbn [m_heap zl]. rewrite Hu. unfold zl. cbn [m_heap m_cnt m_vec m_fresh]. by rewrite zc_delete.
  - unfold bind, vec_ref in E. destruct (m_vec s !! v) as [w|] eqn:Ev; [|done]. unfold cnt_decr in E. rewrite Hk in E. cbn [Nat.eqb] in E. rewrite rc_pops_round in E.
    assert (Hz : forall l, Mem (m_heap s) (<[(v, j) := 0]> (m_cnt s)) (m_vec s) (m_fresh s) l = zl [(v, j)] l s).
    { intros l. unfold zl. f_equal. rewrite zc_zero by eauto. f_equal. apply map_eq. intros q. rewrite zc_look. destruct (m_cnt s !! q); [|done]. cbn [fmap option_fmap option_map]. f_equal. }
    rewrite Hz in E. rewrite (zl_pop _ _ [(v, j)] (m_log s) _ _ _ Hpop) in E. unfold drop_in_place in E. cbn [m_heap zl] in E. rewrite Hu in E. cbn [m_cnt m_vec m_fresh m_log zl] in E.
    intros Z l. unfold bind, vacate. cbn [m_heap zl m_cnt m_vec m_fresh m_log]. rewrite Hu. apply (zl_decr_ref Z l) in E. rewrite <-E. f_equal. unfold zl. cbn [m_heap zl m_cnt m_vec m_fresh m_log]. f_equal.
    apply map_eq. intros q. rewrite !zc_look. destruct (m_cnt s !! q); [|done]. cbn. f_equal. repeat case_decide; set_solver.
Qed.
End step.
