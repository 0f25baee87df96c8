(** RcRelease.v — dropping the last handle of a root: the memory side of [Drop for RcNode]. *)
From stdpp Require Import base gmap list sorting.
From Verif Require Import Spec ClientSpec RcSpec Machine NodeModel BfsModel ClientModel RcModel Sep Rep NodeProofs Inv Abs ClientProofs CountFrame.

Section release.
Context {A : Type}.
Implicit Types (p q : ptr) (ks W : list (atree A)) (t k : atree A) (s : mem A) (Hs Z : list ptr).

Lemma occ_cons p q Hs : occ p (q :: Hs) = (if decide (q = p) then 1 else 0) + occ p Hs.
Proof. unfold occ. rewrite filter_cons. by case_decide. Qed.
Lemma occb_cons b q Hs : occb b (q :: Hs) = (if decide (q.1 = b) then 1 else 0) + occb b Hs.
Proof. unfold occb. rewrite filter_cons. by case_decide. Qed.
Lemma occ_perm p Hs Hs' : Hs ≡ₚ Hs' -> occ p Hs = occ p Hs'.
Proof. intros H. unfold occ. by rewrite H. Qed.
Lemma occb_perm b Hs Hs' : Hs ≡ₚ Hs' -> occb b Hs = occb b Hs'.
Proof. intros H. unfold occb. by rewrite H. Qed.
Lemma adj_ext f g f' g' s : (forall p c, m_cnt s !! p = Some c -> f p c = f' p c) -> (forall b, is_Some (m_vec s !! b) -> g b = g' b) -> adj f g s = adj f' g' s.
Proof.
  intros Hf Hg. apply mem_eq; try done; simpl; apply map_eq; intros k; rewrite !map_lookup_imap.
  - destruct (m_cnt s !! k) as [c|] eqn:E; simpl; [|done]. by rewrite (Hf k c).
  - destruct (m_vec s !! k) as [c|] eqn:E; simpl; [|done]. rewrite (Hg k); eauto.
Qed.
Lemma addc_perm Hs Hs' s : Hs ≡ₚ Hs' -> addc Hs s = addc Hs' s.
Proof. intros H. apply adj_ext; intros; [by rewrite (occ_perm _ _ _ H)|by apply occb_perm]. Qed.

(** [Z]: nodes in buffers that are being dropped, their counter is 0 already *)
Definition memZ Z Hs s : mem A := adj (fun p c => if decide (p ∈ Z) then 0 else c + occ p Hs) (fun b => occb b Hs) s.
Lemma memZ_nil Hs s : memZ [] Hs s = addc Hs s.
Proof. apply adj_ext; [|done]. intros. rewrite decide_False; [done|]. apply not_elem_of_nil. Qed.
Lemma memZ_perm Z Hs Hs' s : Hs ≡ₚ Hs' -> memZ Z Hs s = memZ Z Hs' s.
Proof. intros H. apply adj_ext; intros; [by rewrite (occ_perm _ _ _ H)|by apply occb_perm]. Qed.

Definition rform p (pl : bool) : rnode := if pl then RPile p.1 p.2 else RScat p.
Lemma raddr_rform p pl : raddr (rform p pl) = p.
Proof. by destruct pl, p. Qed.

(** [p] is a node of the live trees [W] *)
Lemma alive_heap s W p pl : MInvX s W [] -> (p, pl) ∈ infoss W -> is_Some (m_heap s !! p).
Proof.
  intros HI Hp. apply (elem_of_list_fmap_1 fst) in Hp. rewrite infoss_fst, <-layW_fst in Hp.
  apply elem_of_list_fmap in Hp as ([q n] & Hq & Hn). simpl in Hq. subst. exists n. by eapply MInv_lookup.
Qed.
Lemma alive_cnt s W p pl : MInvX s W [] -> (p, pl) ∈ infoss W -> m_cnt s !! p = Some 1.
Proof. intros HI Hp. eapply mi_cnt; [exact HI|]. by eapply alive_heap. Qed.
Lemma alive_vec s W p : MInvX s W [] -> (p, true) ∈ infoss W -> exists cap rc, m_vec s !! p.1 = Some (cap, S rc) /\ S rc = live_in p.1 (infoss W).
Proof.
  intros HI Hp. destruct (mi_pile _ _ _ HI p Hp) as [[cap rc] Hv]. destruct (mi_vec _ _ _ HI _ _ _ Hv) as (_ & Hr).
  destruct (Hr (inE_nil _)) as (Hrc & Hpos & _). destruct rc as [|rc]; [lia|]. eauto.
Qed.

(** a further handle *)
Lemma cnt_incr_alive s W p pl Hs : MInvX s W [] -> (p, pl) ∈ infoss W -> m_vec s !! p.1 = None ->
  cnt_incr p (addc Hs s) = Ok tt (addc (p :: Hs) s).
Proof.
  intros HI Hp Hv. pose proof (alive_cnt _ _ _ _ HI Hp) as Hc. unfold cnt_incr. cbn [m_cnt addc adj]. rewrite map_lookup_imap, Hc. simpl.
  f_equal. apply mem_eq; try done; cbn [m_cnt m_vec addc adj]; apply map_eq; intros q.
  - destruct (decide (p = q)) as [<-|Hne].
    + rewrite lookup_insert, map_lookup_imap, Hc. simpl. rewrite occ_cons, decide_True by done. done.
    + rewrite lookup_insert_ne, !map_lookup_imap by done. destruct (m_cnt s !! q); simpl; [|done]. by rewrite occ_cons, decide_False.
  - rewrite !map_lookup_imap. destruct (m_vec s !! q) eqn:E; simpl; [|done]. rewrite occb_cons, decide_False; [done|]. congruence.
Qed.

Lemma rc_alive s C p pl a ks W Hs : MInvX s (plug C (AN p pl (Some a) ks) :: W) [] ->
  rc p (addc Hs s) = Ok (rform p pl) (addc (p :: Hs) s).
Proof.
  intros HI. unfold rc, bind at 1, get at 1. cbn [m_heap addc adj]. rewrite (lookup_at _ _ _ _ _ _ _ _ HI). cbn [mk n_dat].
  assert ((p, pl) ∈ infoss (plug C (AN p pl (Some a) ks) :: W)) as Hin.
  { rewrite infoss_cons. apply elem_of_app. left. rewrite plug_infos. simpl. left. }
  pose proof (alive_cnt _ _ _ _ HI Hin) as Hc. destruct pl; cbn [dat_of].
  - destruct (alive_vec _ _ _ HI Hin) as (cap & rc & Hv & _). unfold bind at 1, vec_incr. cbn [m_vec addc adj].
    rewrite map_lookup_imap, Hv. simpl. unfold bind, cnt_incr. cbn [m_cnt]. rewrite <-surjective_pairing, map_lookup_imap, Hc. simpl.
    unfold ret. f_equal. apply mem_eq; try done; cbn [m_cnt m_vec addc adj]; apply map_eq; intros q.
    + destruct (decide (p = q)) as [<-|Hne].
      * rewrite lookup_insert, map_lookup_imap, Hc. simpl. rewrite occ_cons, decide_True by done. done.
      * rewrite lookup_insert_ne, !map_lookup_imap by done. destruct (m_cnt s !! q); simpl; [|done]. by rewrite occ_cons, decide_False.
    + destruct (decide (p.1 = q)) as [<-|Hne].
      * rewrite lookup_insert, map_lookup_imap, Hv. simpl. rewrite occb_cons, decide_True by done. do 2 f_equal. lia.
      * rewrite lookup_insert_ne, !map_lookup_imap by done. destruct (m_vec s !! q); simpl; [|done]. by rewrite occb_cons, decide_False.
  - unfold bind. rewrite (cnt_incr_alive _ _ _ _ _ HI Hin); [done|]. by apply (mi_scat _ _ _ HI) in Hin as (_&_&?).
Qed.

Lemma into_rc_alive s C p pl a ks W E (f : ptr -> nat -> nat) g : MInvX s (plug C (AN p pl (Some a) ks) :: W) E ->
  rc_from p (adj f g s) = Ok (rform p pl) (adj f g s).
Proof.
  intros HI. unfold rc_from, into_rc, bind, get. cbn [m_heap adj]. rewrite (lookup_at _ _ _ _ _ _ _ _ HI). cbn [mk n_dat]. by destruct pl.
Qed.

(** dropping a handle of a node that has another one, or is not a root *)
Lemma drop_keep f B s W p pl Hs Z : MInvX s W [] -> (p, pl) ∈ infoss W -> p ∉ Z ->
  rc_drop_loop (S f) B (rform p pl) (memZ Z (p :: Hs) s) = Ok tt (memZ Z Hs s).
Proof.
  intros HI Hin HZ. pose proof (alive_cnt _ _ _ _ HI Hin) as Hc. destruct (alive_heap _ _ _ _ HI Hin) as [n Hn]. destruct pl; cbn [rform rc_drop_loop].
  - destruct (alive_vec _ _ _ HI Hin) as (cap & rc & Hv & _). unfold bind at 1, vec_ref. cbn [m_vec memZ adj]. rewrite map_lookup_imap, Hv. simpl.
    unfold bind at 1, cnt_decr. cbn [m_cnt memZ adj]. rewrite <-surjective_pairing, map_lookup_imap, Hc. simpl. rewrite decide_False by done.
    rewrite occ_cons, decide_True by done. simpl. unfold bind, ret, decr_ref. cbn [m_vec]. rewrite map_lookup_imap, Hv. simpl.
    rewrite occb_cons, decide_True by done. simpl. rewrite Nat.add_succ_r. f_equal.
    apply mem_eq; try done; cbn [m_cnt m_vec memZ adj]; apply map_eq; intros q.
    + destruct (decide (p = q)) as [<-|Hne].
      * rewrite lookup_insert, map_lookup_imap, Hc. simpl. by rewrite decide_False.
      * rewrite lookup_insert_ne, !map_lookup_imap by done. destruct (m_cnt s !! q); simpl; [|done]. by rewrite occ_cons, (decide_False (P := p = q)).
    + destruct (decide (p.1 = q)) as [<-|Hne].
      * rewrite lookup_insert, map_lookup_imap, Hv. done.
      * rewrite lookup_insert_ne, !map_lookup_imap by done. destruct (m_vec s !! q); simpl; [|done]. by rewrite occb_cons, decide_False.
  - unfold bind at 1, cnt_get. cbn [m_cnt memZ adj]. rewrite map_lookup_imap, Hc. simpl. rewrite decide_False by done.
    rewrite occ_cons, decide_True by done. simpl. unfold bind, ret, rc_drop. cbn [m_cnt m_heap memZ adj]. rewrite map_lookup_imap, Hc. simpl.
    rewrite decide_False by done. rewrite occ_cons, decide_True by done. simpl. rewrite Hn. f_equal.
    pose proof (mi_scat _ _ _ HI _ Hin) as (_&_&Hv).
    apply mem_eq; try done; cbn [m_cnt m_vec memZ adj]; apply map_eq; intros q.
    + destruct (decide (p = q)) as [<-|Hne].
      * rewrite lookup_insert, map_lookup_imap, Hc. simpl. by rewrite decide_False.
      * rewrite lookup_insert_ne, !map_lookup_imap by done. destruct (m_cnt s !! q); simpl; [|done]. by rewrite occ_cons, (decide_False (P := p = q)).
    + rewrite !map_lookup_imap. destruct (m_vec s !! q) eqn:E; simpl; [|done]. rewrite occb_cons, decide_False; [done|]. congruence.
Qed.

Lemma decr_ref_form v s cap rc : m_vec s !! v = Some (cap, S rc) ->
  decr_ref v s = Ok tt (match rc with
    | 0 => Mem (filter (fun x => x.1.1 <> v) (m_heap s)) (filter (fun x => x.1.1 <> v) (m_cnt s)) (delete v (m_vec s)) (m_fresh s) (m_log s)
    | S _ => Mem (m_heap s) (m_cnt s) (<[v := (cap, rc)]> (m_vec s)) (m_fresh s) (m_log s) end).
Proof. intros H. unfold decr_ref. rewrite H. by destruct rc. Qed.

(** a slot of a live buffer, not part of a live tree, may be forgotten *)
Lemma MInv_forget s W p c : MInvX s W [] -> p ∉ addrss W -> is_Some (m_vec s !! p.1) ->
  MInvX (Mem (delete p (m_heap s)) (<[p := c]> (m_cnt s)) (m_vec s) (m_fresh s) (m_log s)) W [].
Proof.
  intros [(D & [HN HE] & HD) He HeW H2 H3 H4 H5 H6 H7] Hp Hv. rewrite app_nil_r in *. split; simpl; try done.
  - exists (filter (fun x : ptr * node A => x.1 <> p) D). rewrite app_nil_r. split.
    + split.
      * rewrite fmap_app in *. apply NoDup_app in HN as (N1 & N2 & N3). apply NoDup_app. split_and!; [done| |].
        -- intros x Hx Hx'. apply (N2 x Hx). apply elem_of_list_fmap in Hx' as (y & -> & Hy). apply elem_of_list_filter in Hy as [_ Hy]. by apply elem_of_list_fmap_1.
        -- by apply NoDup_fmap_filter.
      * simpl. rewrite HE. apply map_eq. intros q.
        destruct (decide (p = q)) as [<-|Hne].
        -- rewrite lookup_delete. symmetry. apply not_elem_of_list_to_map. rewrite fmap_app, elem_of_app, layW_fst. intros [?|Hx]; [done|].
           apply elem_of_list_fmap in Hx as (y & -> & Hy). by apply elem_of_list_filter in Hy as [? _].
        -- rewrite lookup_delete_ne by done. rewrite !list_to_map_app. rewrite !lookup_union. f_equal.
           clear -Hne. induction D as [|[x n] D IH]; [done|]. rewrite filter_cons. simpl. case_decide; simpl.
           ++ destruct (decide (x = q)) as [->|]; [by rewrite !lookup_insert|by rewrite !lookup_insert_ne].
           ++ assert (x = p) as -> by (destruct (decide (x = p)); tauto). by rewrite lookup_insert_ne.
    + intros x Hx. apply elem_of_list_fmap in Hx as (y & -> & Hy). apply elem_of_list_filter in Hy as [_ Hy]. apply HD. by apply elem_of_list_fmap_1.
  - intros b cap rc Hb. destruct (H4 _ _ _ Hb) as (?&Hr). split; [done|]. intros Hne. destruct (Hr Hne) as (?&?&Hc). split_and!; [done..|].
    intros i Hi. apply Hc. by rewrite lookup_delete_is_Some in Hi; destruct Hi.
  - intros q Hq. apply lookup_delete_is_Some in Hq as [Hne Hq]. rewrite lookup_insert_ne by done. by apply H5.
  - intros q Hq. destruct (decide (p = q)) as [<-|Hne]; [by right|]. rewrite lookup_insert_ne in Hq by done. rewrite lookup_delete_ne by done. by apply H6.
  - intros q n Hq. apply lookup_delete_Some in Hq as [_ Hq]. by apply H7.
Qed.

(** nothing comes to life *)
Definition shrinks s s' : Prop := (forall q, is_Some (m_heap s' !! q) -> is_Some (m_heap s !! q)) /\ (forall b, is_Some (m_vec s' !! b) -> is_Some (m_vec s !! b)).
Lemma shrinks_trans s1 s2 s3 : shrinks s1 s2 -> shrinks s2 s3 -> shrinks s1 s3.
Proof. intros [H1 H2] [H3 H4]. split; eauto. Qed.

Lemma release_scat s W p a Hs Z : MInvX s (AN p false (Some a) [] :: W) [] -> p ∉ Z -> p ∉ Hs ->
  exists s', rc_drop p (memZ Z Hs s) = Ok tt (memZ Z Hs s') /\ MInvX s' W [] /\ m_log s' = m_log s ++ [a] /\ m_fresh s' = m_fresh s /\ shrinks s s' /\ m_heap s' !! p = None.
Proof.
  intros HI HZ HH. destruct (drop_node_spec _ _ _ _ _ _ HI) as (s' & Hd & HI' & Hl & Hf). exists s'.
  assert (m_heap s !! p = Some (mk None None None p false (Some a) [])) as Hh.
  { eapply MInv_lookup; [exact HI|]. simpl. rewrite lay_eq. left. }
  assert (m_cnt s !! p = Some 1) as Hc by (eapply mi_cnt; eauto).
  unfold drop_node, bind, get in Hd. rewrite Hh in Hd. unfold put in Hd. rewrite Hh in Hd. cbn [mk n_dat dat_of] in Hd. unfold rc_drop in Hd. cbn [m_cnt m_heap set_heap] in Hd.
  rewrite Hc, lookup_insert in Hd. unfold log_drop in Hd. cbn [m_heap m_cnt m_vec m_fresh m_log set_dat n_dat dat_vals] in Hd. injection Hd as <-.
  split; [|split_and!; try done].
  2: { split; simpl; [|done]. intros q Hq. apply lookup_delete_is_Some in Hq as [Hne Hq]. by rewrite lookup_insert_ne in Hq. }
  2: { simpl. apply lookup_delete. }
  unfold rc_drop. cbn [memZ adj m_cnt m_heap]. rewrite map_lookup_imap, Hc. simpl. rewrite decide_False by done. rewrite occ_0 by done. simpl. rewrite Hh. simpl.
  f_equal. apply mem_eq; simpl; try done.
  - apply map_eq. intros q. destruct (decide (p = q)) as [<-|Hne]; [by rewrite !lookup_delete|]. by rewrite !lookup_delete_ne, lookup_insert_ne.
  - apply map_eq. intros q. destruct (decide (p = q)) as [<-|Hne]; [by rewrite lookup_delete, map_lookup_imap, lookup_delete|].
    by rewrite lookup_delete_ne, !map_lookup_imap, lookup_delete_ne by done.
Qed.

Lemma release_pile s W p a Hs Z : MInvX s (AN p true (Some a) [] :: W) [] -> p ∉ Z -> p ∉ Hs -> (forall q, q ∈ Hs -> q ∈ addrss W) ->
  exists s', (drop_in_place p ;; decr_ref p.1) (memZ (p :: Z) Hs s) = Ok tt (memZ Z Hs s') /\ MInvX s' W [] /\ m_log s' = m_log s ++ [a] /\ m_fresh s' = m_fresh s /\ shrinks s s' /\ m_heap s' !! p = None.
Proof.
  intros HI HZ HH HW. destruct (drop_node_spec _ _ _ _ _ _ HI) as (s1 & Hd & HI' & Hl & Hf).
  assert (m_heap s !! p = Some (mk None None None p true (Some a) [])) as Hh.
  { eapply MInv_lookup; [exact HI|]. simpl. rewrite lay_eq. left. }
  assert (m_cnt s !! p = Some 1) as Hc by (eapply mi_cnt; eauto).
  assert ((p, true) ∈ infoss (AN p true (Some a) [] :: W)) as Hin by left.
  destruct (alive_vec _ _ _ HI Hin) as (cap & rc & Hv & Hrc).
  assert (p ∉ addrss W) as HpW.
  { pose proof (MInv_nodup _ _ _ HI) as HN. cbn [addrss flat_map] in HN. simpl in HN. by apply NoDup_cons in HN as [? _]. }
  unfold drop_node, bind, get in Hd. rewrite Hh in Hd. unfold put in Hd. rewrite Hh in Hd. cbn [mk n_dat dat_of] in Hd.
  erewrite decr_ref_form in Hd by (simpl; exact Hv). unfold log_drop in Hd. injection Hd as <-.
  unfold bind, drop_in_place. cbn [memZ adj m_heap m_cnt m_vec m_fresh m_log]. rewrite Hh. cbn [mk n_dat dat_of dat_vals].
  erewrite decr_ref_form by (cbn [m_vec]; rewrite map_lookup_imap, Hv; simpl; reflexivity). cbn [m_heap m_cnt m_vec m_fresh m_log].
  destruct rc as [|rc].
  - assert (occb p.1 Hs = 0) as ->.
    { apply occb_0. intros q Hq Hb. apply HW in Hq. rewrite <-infoss_fst in Hq. apply elem_of_list_fmap in Hq as ([q' ql] & Heq & Hq). simpl in Heq. subst q'.
      rewrite infoss_cons, infos_eq in Hrc. simpl in Hrc. rewrite live_in_cons in Hrc. simpl in Hrc. rewrite decide_True in Hrc by done.
      pose proof (live_in_pos _ _ _ _ Hq Hb). lia. }
    simpl. eexists. split; [|split; [exact HI'|split_and!; try done]].
    2: { split; simpl.
         - intros q Hq. destruct (decide (p = q)) as [<-|Hne]; [eauto|]. destruct Hq as [n Hq]. apply map_filter_lookup_Some in Hq as [Hq _].
           rewrite lookup_insert_ne in Hq by done. eauto.
         - intros b. rewrite lookup_delete_is_Some. tauto. }
    2: { simpl. apply map_filter_lookup_None. right. intros n _ Hn. done. }
    f_equal. apply mem_eq; simpl; try done.
    + apply map_eq. intros q. rewrite !map_filter_lookup. destruct (decide (p = q)) as [<-|Hne].
      * rewrite lookup_delete, lookup_insert. simpl. by rewrite option_guard_False by tauto.
      * by rewrite lookup_delete_ne, lookup_insert_ne.
    + apply map_eq. intros q. rewrite map_filter_lookup, !map_lookup_imap, map_filter_lookup. destruct (m_cnt s !! q) as [c|]; simpl; [|done].
      repeat case_option_guard; simpl; try done; [|tauto..]. f_equal. destruct (decide (q ∈ Z)).
      * rewrite decide_True; [done|by right].
      * rewrite decide_False; [done|]. intros [->|?]%elem_of_cons; [simpl in *; tauto|done].
    + apply map_eq. intros b. destruct (decide (p.1 = b)) as [<-|Hne]; [by rewrite lookup_delete, map_lookup_imap, lookup_delete|].
      by rewrite lookup_delete_ne, !map_lookup_imap, lookup_delete_ne by done.
  - cbn [Nat.add].
    set (s1 := Mem _ _ _ _ _) in HI'.
    assert (MInvX (Mem (delete p (m_heap s1)) (<[p := 0]> (m_cnt s1)) (m_vec s1) (m_fresh s1) (m_log s1)) W []) as HI2.
    { apply MInv_forget; [done..|]. simpl. rewrite lookup_insert. eauto. }
    eexists. split; [|split; [exact HI2|split_and!; try done]].
    2: { split; simpl.
         - intros q Hq. destruct (decide (p = q)) as [<-|Hne]; [eauto|]. by rewrite lookup_delete_ne, lookup_insert_ne in Hq.
         - intros b Hb. destruct (decide (p.1 = b)) as [<-|Hne]; [eauto|]. by rewrite lookup_insert_ne in Hb. }
    2: { simpl. apply lookup_delete. }
    f_equal. apply mem_eq; simpl; try done.
    + apply map_eq. intros q. destruct (decide (p = q)) as [<-|Hne]; [by rewrite !lookup_delete|]. by rewrite !lookup_delete_ne, lookup_insert_ne.
    + apply map_eq. intros q. rewrite !map_lookup_imap. destruct (decide (p = q)) as [<-|Hne].
      * rewrite lookup_insert, Hc. simpl. f_equal. rewrite decide_True by left. rewrite decide_False by done. by rewrite occ_0.
      * rewrite lookup_insert_ne by done. destruct (m_cnt s !! q) as [c|]; simpl; [|done]. f_equal. destruct (decide (q ∈ Z)).
        -- rewrite decide_True; [done|by right].
        -- rewrite decide_False; [done|]. intros [->|?]%elem_of_cons; done.
    + apply map_eq. intros b. destruct (decide (p.1 = b)) as [<-|Hne]; [by rewrite lookup_insert, map_lookup_imap, lookup_insert|].
      by rewrite lookup_insert_ne, !map_lookup_imap, lookup_insert_ne by done.
Qed.

(** * Release *)
(** the live subtrees and the values dropped, as [surv] and [lost] of RcSpec *)
Fixpoint asurv (P : ptr -> bool) (t : atree A) : list (atree A) :=
  flat_map (fun k : atree A => if P (aptr k) then [k] else asurv P k) (akids t).
Fixpoint alost (P : ptr -> bool) (t : atree A) : list A :=
  flat_map (fun k : atree A => if P (aptr k) then [] else alost P k) (akids t) ++ match aval t with Some a => [a] | None => [] end.
Definition asurvs (P : ptr -> bool) ks : list (atree A) := flat_map (fun k => if P (aptr k) then [k] else asurv P k) ks.
Definition alosts (P : ptr -> bool) ks : list A := flat_map (fun k => if P (aptr k) then [] else alost P k) ks.
Lemma asurv_eq P p pl v ks : asurv P (AN p pl v ks) = asurvs P ks.
Proof. done. Qed.
Lemma alost_eq P p pl v ks : alost P (AN p pl v ks) = alosts P ks ++ match v with Some a => [a] | None => [] end.
Proof. done. Qed.

(** every node has a value *)
Inductive full : atree A -> Prop := Full p pl a ks : Forall full ks -> full (AN p pl (Some a) ks).
Definition apl t : bool := let 'AN _ pl _ _ := t in pl.

Lemma addrss_cons t W : addrss (t :: W) = addrs t ++ addrss W.
Proof. done. Qed.
Lemma addrs_eq p pl v ks : addrs (AN p pl v ks) = p :: addrss ks.
Proof. done. Qed.
Lemma addrss_app W W' : addrss (W ++ W') = addrss W ++ addrss W'.
Proof. unfold addrss. by rewrite flat_map_app. Qed.
Lemma aptr_addrs t : aptr t ∈ addrs t.
Proof. destruct t. rewrite addrs_eq. left. Qed.

Lemma borrow_mut_ok s W p pl a ks B Hs Z : MInvX s (AN p pl (Some a) ks :: W) [] -> flag B p = 0%Z ->
  node_borrow_mut B (rform p pl) (memZ Z Hs s) = Ok tt (memZ Z Hs s).
Proof.
  intros HI HB. assert (m_heap s !! p = Some (mk None None None p pl (Some a) ks)) as Hh.
  { eapply MInv_lookup; [exact HI|]. simpl. rewrite lay_eq. left. }
  assert (acquire (rform p pl) (memZ Z Hs s) = Ok tt (memZ Z Hs s)) as Ha.
  { destruct pl; [|done]. destruct (alive_vec s _ p HI) as (cap & rc & Hv & _); [left|]. simpl. unfold vec_ref. simpl. by rewrite map_lookup_imap, Hv. }
  unfold node_borrow_mut, bind. rewrite Ha. rewrite raddr_rform. unfold get. cbn [m_heap memZ adj]. rewrite Hh, HB. by destruct pl.
Qed.

Lemma asurvs_cons P k ks : asurvs P (k :: ks) = (if P (aptr k) then [k] else asurv P k) ++ asurvs P ks.
Proof. done. Qed.
Lemma alosts_cons P k ks : alosts P (k :: ks) = (if P (aptr k) then [] else alost P k) ++ alosts P ks.
Proof. done. Qed.

Lemma rc_drop_pile f B v i : rc_drop_loop (A:=A) (S f) B (RPile v i) =
  (vec_ref v ;; let! c := cnt_decr (v, i) in (if Nat.eqb c 0 then rc_pops f B (RPile v i) ;; drop_in_place (v, i) else ret tt) ;; decr_ref v).
Proof. done. Qed.
Lemma rc_drop_scat f B p : rc_drop_loop (A:=A) (S f) B (RScat p) =
  (let! c := cnt_get p in (if Nat.eqb c 1 then rc_pops f B (RScat p) else ret tt) ;; rc_drop p).
Proof. done. Qed.
Lemma rc_pops_S f B r : rc_pops (A:=A) (S f) B r =
  (node_borrow_mut B r ;; let! o := pop_front (raddr r) in
   match o with None => ret tt | Some c => let! k := rc_from c in rc_drop_loop f B k ;; rc_pops f B r end).
Proof. done. Qed.
Lemma asurv_sub P q : forall t, q ∈ addrss (asurv P t) -> q ∈ addrs t.
Proof.
  fix IH 1. intros [p pl v ks]. rewrite asurv_eq, addrs_eq. intros Hq. right. revert Hq. induction ks as [|k ks IHks]; [done|].
  rewrite asurvs_cons, addrss_app, addrss_cons, !elem_of_app. intros [Hq|Hq]; [left|right; by apply IHks].
  destruct (P (aptr k)); [|by apply IH]. rewrite addrss_cons in Hq. by rewrite app_nil_r in Hq.
Qed.
Lemma release B (P : ptr -> bool) f :
  (forall s W t Z Hs, 2 * cntn t <= f -> MInvX s (t :: W) [] -> full t -> P (aptr t) = false -> (forall q, q ∈ addrs t -> q ∉ Z) ->
     (forall q, q ∈ addrs t -> P q = true <-> q ∈ Hs) -> (forall q, q ∈ addrs t -> P q = false -> flag B q = 0%Z) ->
     (forall q, q ∈ Hs -> q ∈ addrss (t :: W)) ->
     exists s' Hs', rc_drop_loop f B (rform (aptr t) (apl t)) (memZ Z Hs s) = Ok tt (memZ Z Hs' s') /\ MInvX s' (asurv P t ++ W) [] /\
       Hs ≡ₚ (aptr <$> asurv P t) ++ Hs' /\ (forall q, q ∈ Hs' -> q ∈ addrss (asurv P t ++ W)) /\
       m_log s' = m_log s ++ alost P t /\ m_fresh s' = m_fresh s /\ shrinks s s' /\
       (forall q, is_Some (m_heap s' !! q) -> q ∈ addrs t -> q ∈ addrss (asurv P t))) /\
  (forall s W p pl a ks Z Hs, 1 + 2 * cnts ks <= f -> MInvX s (AN p pl (Some a) ks :: W) [] -> Forall full ks -> flag B p = 0%Z -> p ∉ Hs ->
     (forall q, q ∈ addrss ks -> q ∉ Z) ->
     (forall q, q ∈ addrss ks -> P q = true <-> q ∈ Hs) -> (forall q, q ∈ addrss ks -> P q = false -> flag B q = 0%Z) ->
     (forall q, q ∈ Hs -> q ∈ addrss (ks ++ W)) ->
     exists s' Hs', rc_pops f B (rform p pl) (memZ Z Hs s) = Ok tt (memZ Z Hs' s') /\ MInvX s' (AN p pl (Some a) [] :: asurvs P ks ++ W) [] /\
       Hs ≡ₚ (aptr <$> asurvs P ks) ++ Hs' /\ (forall q, q ∈ Hs' -> q ∈ addrss (asurvs P ks ++ W)) /\
       m_log s' = m_log s ++ alosts P ks /\ m_fresh s' = m_fresh s /\ shrinks s s' /\
       (forall q, is_Some (m_heap s' !! q) -> q ∈ addrss ks -> q ∈ addrss (asurvs P ks))).
Proof.
  induction f as [|f [IHd IHp]]; (split; [intros s W t Z Hs Hf HI Hfull HPp HZ HP HB HW|intros s W p pl a ks Z Hs Hf HI Hfull HBp HpH HZ HP HB HW]).
  - destruct t. rewrite cntn_eq in Hf. lia.
  - lia.
  - destruct Hfull as [p pl a ks Hks]. simpl in HPp. rewrite cntn_eq in Hf. rewrite addrs_eq in *.
    cbn [aptr apl]. rewrite asurv_eq, alost_eq.
    assert (p ∉ Hs) as HpH. { intros Hin. apply HP in Hin; [congruence|left]. }
    assert (p ∉ Z) as HpZ by (apply HZ; left).
    assert (forall q, q ∈ Hs -> q ∈ addrss (ks ++ W)) as HW'.
    { intros q Hq. pose proof (HW q Hq) as Hq'. rewrite addrss_cons, addrs_eq in Hq'. simpl in Hq'. rewrite addrss_app. apply elem_of_cons in Hq' as [->|?]; done. }
    pose proof (MInv_nodup _ _ _ HI) as HN. rewrite addrss_cons, addrs_eq in HN. simpl in HN. apply NoDup_cons in HN as [HpN HN].
    rewrite elem_of_app in HpN.
    assert ((p, pl) ∈ infoss (AN p pl (Some a) ks :: W)) as Hin by left.
    assert (m_cnt s !! p = Some 1) as Hc by (by eapply alive_cnt).
    assert (flag B p = 0%Z) as HBp by (apply HB; [left|done]).
    destruct pl; cbn [rform].
    + destruct (alive_vec _ _ _ HI Hin) as (cap & rc & Hv & _).
      assert (vec_ref p.1 (memZ Z Hs s) = Ok tt (memZ Z Hs s)) as G1. { unfold vec_ref. simpl. by rewrite map_lookup_imap, Hv. }
      assert (cnt_decr p (memZ Z Hs s) = Ok 0 (memZ (p :: Z) Hs s)) as G2.
      { unfold cnt_decr. cbn [m_cnt memZ adj]. rewrite map_lookup_imap, Hc. simpl. rewrite decide_False by done.
        rewrite occ_0 by done. simpl. f_equal.
        apply mem_eq; simpl; try done. apply map_eq. intros q. rewrite map_lookup_imap. destruct (decide (p = q)) as [<-|Hne].
        - rewrite lookup_insert, Hc. simpl. by rewrite decide_True by left.
        - rewrite lookup_insert_ne, map_lookup_imap by done. destruct (m_cnt s !! q); simpl; [|done]. f_equal.
          destruct (decide (q ∈ Z)); [by rewrite decide_True by (by right)|]. rewrite decide_False; [done|]. intros [->|?]%elem_of_cons; done. }
      rewrite rc_drop_pile. unfold bind at 1. rewrite G1. unfold bind at 1. rewrite <-surjective_pairing, G2. cbn [Nat.eqb].
      destruct (IHp s W p true a ks (p :: Z) Hs) as (s1 & Hs1 & E1 & HI1 & HH1 & HW1 & L1 & F1 & S1 & K1); try done.
      { lia. } { intros q Hq. rewrite elem_of_cons. intros [->|Hz]; [tauto|]. apply (HZ q); [by right|done]. }
      { intros q Hq. apply HP. by right. } { intros q Hq. apply HB. by right. }
      unfold bind at 1. unfold bind at 1. change (RPile p.1 p.2) with (rform p true). rewrite E1.
      assert (p ∉ Hs1) as HpH1. { intros Hx. apply HpH. rewrite HH1. apply elem_of_app. by right. }
      destruct (release_pile s1 (asurvs P ks ++ W) p a Hs1 Z) as (s2 & E2 & HI2 & L2 & F2 & S2 & K2); try done.
      unfold bind in E2. destruct (drop_in_place p (memZ (p :: Z) Hs1 s1)) as [[] s3|] eqn:E3; [|done].
      exists s2, Hs1. split_and!; try done.
      * by rewrite L2, L1, <-app_assoc.
      * by rewrite F2.
      * by eapply shrinks_trans.
      * intros q Hq [->|Hq']%elem_of_cons; [rewrite K2 in Hq; by destruct Hq|]. apply K1; [by apply S2|done].
    + assert (cnt_get p (memZ Z Hs s) = Ok 1 (memZ Z Hs s)) as G1.
      { unfold cnt_get. cbn [m_cnt memZ adj]. rewrite map_lookup_imap, Hc. simpl. rewrite decide_False by done. by rewrite occ_0. }
      rewrite rc_drop_scat. unfold bind at 1. rewrite G1. cbn [Nat.eqb].
      destruct (IHp s W p false a ks Z Hs) as (s1 & Hs1 & E1 & HI1 & HH1 & HW1 & L1 & F1 & S1 & K1); try done.
      { lia. } { intros q Hq. apply (HZ q); by right. }
      { intros q Hq. apply HP. by right. } { intros q Hq. apply HB. by right. }
      unfold bind at 1. change (RScat p) with (rform p false). rewrite E1.
      assert (p ∉ Hs1) as HpH1. { intros Hx. apply HpH. rewrite HH1. apply elem_of_app. by right. }
      destruct (release_scat s1 (asurvs P ks ++ W) p a Hs1 Z) as (s2 & E2 & HI2 & L2 & F2 & S2 & K2); try done.
      exists s2, Hs1. split_and!; try done.
      * by rewrite L2, L1, <-app_assoc.
      * by rewrite F2.
      * by eapply shrinks_trans.
      * intros q Hq [->|Hq']%elem_of_cons; [rewrite K2 in Hq; by destruct Hq|]. apply K1; [by apply S2|done].
  - rewrite rc_pops_S. unfold bind at 1. rewrite (borrow_mut_ok _ _ _ _ _ _ _ _ _ HI HBp). rewrite raddr_rform. destruct ks as [|k ks].
    + unfold bind. pose proof (pop_front_root_none _ _ _ _ _ _ HI) as Hpop. unfold memZ at 1. rewrite (hp_ok _ _ _ _ _ _ (hp_pop_front p) Hpop).
      exists s, Hs. unfold ret. rewrite app_nil_r. split_and!; done.
    + destruct (pop_front_root_some _ _ _ _ _ _ _ _ HI) as (h & Hpop & HI1). set (s1 := set_heap s h) in *.
      unfold bind at 1. unfold memZ at 1. rewrite (hp_ok _ _ _ _ _ _ (hp_pop_front p) Hpop). fold (memZ Z Hs s1).
      assert (shrinks s s1) as S1.
      { split; [|done]. intros q Hq. pose proof (hp_pop_front p s s eq_refl) as Hx. rewrite Hpop in Hx. destruct Hx as (_ & Hx & _). by apply Hx. }
      inversion Hfull as [|? ? Hk Hks]; subst. inversion Hk as [kp kpl ka kks Hkks]; subst k.
      unfold bind at 1. cbn [aptr]. unfold memZ at 1. rewrite (into_rc_alive s1 [] kp kpl ka kks (AN p pl (Some a) ks :: W) []) by done. fold (memZ Z Hs s1).
      rewrite cnts_cons, cntn_eq in Hf. pose proof (MInv_nodup _ _ _ HI1) as HN. rewrite !addrss_cons, !addrs_eq in HN.
      assert (Hdis : forall q, q ∈ addrs (AN kp kpl (Some ka) kks) -> q ∉ p :: addrss ks).
      { intros q Hq Hq'. apply NoDup_app in HN as (_ & HN & _). apply (HN q Hq). simpl. rewrite app_comm_cons. apply elem_of_app. by left. }
      rewrite asurvs_cons, alosts_cons. cbn [aptr]. rewrite addrss_cons in HZ, HP, HB. destruct (P kp) eqn:HPk.
      * (* it has a handle *)
        assert (kp ∈ Hs) as HkH. { apply HP; [|done]. apply elem_of_app. left. apply (aptr_addrs (AN kp kpl (Some ka) kks)). }
        apply elem_of_Permutation in HkH as (Hs1 & HH).
        rewrite (memZ_perm _ _ _ _ HH). unfold bind at 1. destruct f as [|f]; [lia|]. rewrite (drop_keep f B s1 (AN kp kpl (Some ka) kks :: AN p pl (Some a) ks :: W)).
        2: done. 2: by left. 2: { apply HZ. apply elem_of_app. left. apply (aptr_addrs (AN kp kpl (Some ka) kks)). }
        destruct (IHp s1 (AN kp kpl (Some ka) kks :: W) p pl a ks Z Hs1) as (s2 & Hs2 & E2 & HI2 & HH2 & HW2 & L2 & F2 & S2 & K2); try done.
        { lia. } { eapply MInv_perm; [|exact HI1]. apply perm_swap. } { intros Hx. apply HpH. rewrite HH. by right. }
        { intros q Hq. apply HZ. apply elem_of_app. by right. }
        { intros q Hq. rewrite HP by (apply elem_of_app; by right). rewrite HH, elem_of_cons. split; [|tauto]. intros [->|?]; [|done].
          exfalso. apply (Hdis kp); [apply (aptr_addrs (AN kp kpl (Some ka) kks))|by right]. }
        { intros q Hq. apply HB. apply elem_of_app. by right. }
        { intros q Hq. assert (q ∈ Hs) as Hq' by (rewrite HH; by right). apply HW in Hq'. rewrite addrss_app, !addrss_cons in *. clear -Hq'. set_solver. }
        rewrite E2. exists s2, Hs2. split_and!; try done.
        -- eapply MInv_perm; [|exact HI2]. simpl. rewrite <-Permutation_middle. done.
        -- rewrite HH, HH2. done.
        -- intros q Hq. apply HW2 in Hq. rewrite !addrss_app, addrss_cons in *. change (addrss []) with (@nil ptr). clear -Hq. set_solver.
        -- by eapply shrinks_trans.
        -- intros q Hq. rewrite addrss_app, !addrss_cons, !elem_of_app. intros [?|?]; [left; by left|right]. by apply K2.
      * destruct (IHd s1 (AN p pl (Some a) ks :: W) (AN kp kpl (Some ka) kks) Z Hs) as (s2 & Hs2 & E2 & HI2 & HH2 & HW2 & L2 & F2 & S2 & K2); try done.
        { rewrite cntn_eq. lia. } { intros q Hq. apply HZ. apply elem_of_app. by left. } { intros q Hq. apply HP. apply elem_of_app. by left. }
        { intros q Hq. apply HB. apply elem_of_app. by left. }
        { intros q Hq. apply HW in Hq. rewrite !addrss_cons, addrs_eq, addrss_app, addrss_cons, addrs_eq in *. clear -Hq. set_solver. }
        unfold bind at 1. cbn [aptr apl] in E2. rewrite E2.
        assert (forall q, q ∈ addrss (asurv P (AN kp kpl (Some ka) kks)) -> q ∈ addrs (AN kp kpl (Some ka) kks)) as Hsub.
        { intros q. apply asurv_sub. }
        destruct (IHp s2 (asurv P (AN kp kpl (Some ka) kks) ++ W) p pl a ks Z Hs2) as (s3 & Hs3 & E3 & HI3 & HH3 & HW3 & L3 & F3 & S3 & K3); try done.
        { lia. } { eapply MInv_perm; [|exact HI2]. by rewrite <-Permutation_middle. } { intros Hx. apply HpH. rewrite HH2. apply elem_of_app. by right. }
        { intros q Hq. apply HZ. apply elem_of_app. by right. }
        { intros q Hq. rewrite HP by (apply elem_of_app; by right). rewrite HH2, elem_of_app. split; [|tauto]. intros [Hx|?]; [|done].
          exfalso. apply elem_of_list_fmap in Hx as (x & -> & Hx). apply (Hdis (aptr x)); [|by right]. apply Hsub. apply elem_of_list_In, in_flat_map.
          exists x. split; [by apply elem_of_list_In|]. apply elem_of_list_In, aptr_addrs. }
        { intros q Hq. apply HB. apply elem_of_app. by right. }
        { intros q Hq. assert (q <> p) as Hqp. { intros ->. apply HpH. rewrite HH2. apply elem_of_app. by right. }
          apply HW2 in Hq. rewrite !addrss_app, addrss_cons, addrs_eq in *. clear -Hq Hqp. set_solver. }
        rewrite E3. exists s3, Hs3. split_and!; try done.
        -- eapply MInv_perm; [|exact HI3]. f_equiv. rewrite !app_assoc. f_equiv. apply Permutation_app_comm.
        -- rewrite HH2, HH3, fmap_app, <-app_assoc. done.
        -- intros q Hq. apply HW3 in Hq. rewrite !addrss_app in *. clear -Hq. set_solver.
        -- rewrite L3, L2. by rewrite <-app_assoc.
        -- by rewrite F3, F2.
        -- eapply shrinks_trans; [|done]. by eapply shrinks_trans.
        -- intros q Hq. rewrite addrss_app, addrss_cons, !elem_of_app. intros [?|?]; [left; apply K2; [by apply S3|done]|right; by apply K3].
Qed.

(** * [drop] of a handle *)
Lemma drop_handle_keep B s W p pl Hs : MInvX s W [] -> (p, pl) ∈ infoss W ->
  rc_drop_handle B (rform p pl) (addc (p :: Hs) s) = Ok tt (addc Hs s).
Proof.
  intros HI Hin. unfold rc_drop_handle, bind, fuel, gets. cbn [m_heap addc adj]. rewrite <-!memZ_nil.
  change (2 * S (size (m_heap s))) with (S (size (m_heap s) + (S (size (m_heap s) + 0)))). apply (drop_keep _ _ _ W); [done..|]. apply not_elem_of_nil.
Qed.

Lemma drop_handle_release B (P : ptr -> bool) s W t Hs : MInvX s (t :: W) [] -> full t -> P (aptr t) = false ->
  (forall q, q ∈ addrs t -> P q = true <-> q ∈ Hs) -> (forall q, q ∈ addrs t -> P q = false -> flag B q = 0%Z) ->
  (forall q, q ∈ Hs -> q ∈ addrss (t :: W)) ->
  exists s' Hs', rc_drop_handle B (rform (aptr t) (apl t)) (addc Hs s) = Ok tt (addc Hs' s') /\ MInvX s' (asurv P t ++ W) [] /\
    Hs ≡ₚ (aptr <$> asurv P t) ++ Hs' /\ (forall q, q ∈ Hs' -> q ∈ addrss (asurv P t ++ W)) /\
    m_log s' = m_log s ++ alost P t /\ m_fresh s' = m_fresh s /\ shrinks s s' /\
    (forall q, is_Some (m_heap s' !! q) -> q ∈ addrs t -> q ∈ addrss (asurv P t)).
Proof.
  intros HI Hfull HPt HP HB HW. unfold rc_drop_handle, bind, fuel, gets. cbn [m_heap addc adj]. fold (addc Hs s).
  destruct (release B P (2 * S (size (m_heap s)))) as [Hd _].
  destruct (Hd s W t [] Hs) as (s' & Hs' & E & ?); try done.
  - pose proof (MInv_size _ _ _ _ HI). lia.
  - intros q _. apply not_elem_of_nil.
  - exists s', Hs'. rewrite <-!memZ_nil. done.
Qed.
End release.
