(** Inv.v — the memory invariant for a set of live trees, and its preservation by allocation, in-place
    operations and drop. *)
From stdpp Require Import base gmap list.
From Verif Require Import Machine NodeModel Sep Rep NodeProofs.

Section inv.
Context {A : Type}.
Implicit Types (p q : ptr) (ks fs qs L R W : list (atree A)) (C : ctx A) (t : atree A) (s : mem A).

Fixpoint infos t : list (ptr * bool) := let 'AN p pl _ ks := t in (p, pl) :: flat_map infos ks.
Definition infoss W := flat_map infos W.
Definition layW W : list (ptr * node A) := flat_map (lay None None None) W.

Lemma infos_eq p pl v ks : infos (AN p pl v ks) = (p, pl) :: infoss ks.
Proof. done. Qed.
Lemma infoss_cons t W : infoss (t :: W) = infos t ++ infoss W.
Proof. done. Qed.
Lemma infoss_app W W' : infoss (W ++ W') = infoss W ++ infoss W'.
Proof. apply flat_map_app. Qed.
Lemma layW_cons t W : layW (t :: W) = lay None None None t ++ layW W.
Proof. done. Qed.
Lemma layW_app W W' : layW (W ++ W') = layW W ++ layW W'.
Proof. apply flat_map_app. Qed.
Lemma infos_fst t : (infos t).*1 = addrs t.
Proof.
  induction t as [p pl v ks IH] using atree_ind'. csimpl. f_equal.
  induction IH as [|k ks Hk _ IHks]; [done|]. simpl. by rewrite fmap_app, Hk, IHks.
Qed.
Lemma infoss_fst W : (infoss W).*1 = addrss W.
Proof. induction W as [|t W IH]; [done|]. simpl. by rewrite fmap_app, infos_fst, IH. Qed.
Lemma layW_fst W : (layW W).*1 = addrss W.
Proof. induction W as [|t W IH]; [done|]. simpl. by rewrite fmap_app, lay_fst, IH. Qed.

(** number of live slots of buffer [b] *)
Definition live_in (b : nat) (l : list (ptr * bool)) : nat :=
  length (filter (fun x : ptr * bool => x.1.1 = b) l).

(** [E]: cells of buffers under construction, not part of any live tree yet *)
Definition inE (E : list (ptr * node A)) (b : nat) : Prop := exists p, p ∈ E.*1 /\ p.1 = b.

(** such a buffer has as many slots as there are cells, and its counter says so *)
Definition lenE (b : nat) (l : list ptr) : nat := length (filter (fun p : ptr => p.1 = b) l).

Record MInvX s W E : Prop := {
  mi_hp : exists D, HP (layW W ++ D ++ E) s /\ (forall p, p ∈ D.*1 -> is_Some (m_vec s !! p.1) /\ ~ inE E p.1);
  mi_ext : forall b, inE E b -> m_vec s !! b = Some (lenE b E.*1, lenE b E.*1);
  mi_extW : forall p pl, (p, pl) ∈ infoss W -> ~ inE E p.1;
  mi_scat : forall p, (p, false) ∈ infoss W -> p.2 = 0 /\ p.1 < m_fresh s /\ m_vec s !! p.1 = None;
  mi_pile : forall p, (p, true) ∈ infoss W -> is_Some (m_vec s !! p.1);
  mi_vec : forall b cap rc, m_vec s !! b = Some (cap, rc) ->
     b < m_fresh s /\ (~ inE E b -> rc = live_in b (infoss W) /\ 0 < rc /\ forall i, is_Some (m_heap s !! ((b, i) : ptr)) -> i < cap);
  mi_cnt : forall p, is_Some (m_heap s !! p) -> m_cnt s !! p = Some 1;
  mi_cnt2 : forall p, is_Some (m_cnt s !! p) -> is_Some (m_heap s !! p) \/ is_Some (m_vec s !! p.1);
  mi_clean : forall p n, m_heap s !! p = Some n -> p ∉ addrss W -> ~ inE E p.1 -> dat_vals (n_dat n) = []
}.

Notation MInv s W := (MInvX s W []).

Lemma inE_nil b : ~ inE [] b.
Proof. intros (p & Hp & _). by apply elem_of_nil in Hp. Qed.

Lemma live_in_perm b l l' : l ≡ₚ l' -> live_in b l = live_in b l'.
Proof. intros H. unfold live_in. by rewrite H. Qed.
Lemma live_in_cons b x l : live_in b (x :: l) = (if decide (x.1.1 = b) then 1 else 0) + live_in b l.
Proof. unfold live_in. rewrite filter_cons. by case_decide. Qed.
Lemma live_in_app b l l' : live_in b (l ++ l') = live_in b l + live_in b l'.
Proof. unfold live_in. by rewrite filter_app, app_length. Qed.
Lemma live_in_pos b l p pl : (p, pl) ∈ l -> p.1 = b -> 0 < live_in b l.
Proof.
  intros Hin Hb. unfold live_in. assert ((p, pl) ∈ filter (fun x : ptr * bool => x.1.1 = b) l) as H.
  { by apply elem_of_list_filter. }
  destruct (filter _ l); [by apply elem_of_nil in H|]. simpl; lia.
Qed.
Lemma live_in_pos_inv b l : 0 < live_in b l -> exists p pl, (p, pl) ∈ l /\ p.1 = b.
Proof.
  unfold live_in. intros H. destruct (filter (fun x : ptr * bool => x.1.1 = b) l) as [|[p pl] r] eqn:E; [simpl in H; lia|].
  exists p, pl. assert ((p, pl) ∈ filter (fun x : ptr * bool => x.1.1 = b) l) as H' by (rewrite E; left).
  apply elem_of_list_filter in H'. tauto.
Qed.

Lemma layW_perm W W' : W ≡ₚ W' -> layW W ≡ₚ layW W'.
Proof. unfold layW. intros H. by rewrite H. Qed.
Lemma infoss_perm W W' : W ≡ₚ W' -> infoss W ≡ₚ infoss W'.
Proof. unfold infoss. intros H. by rewrite H. Qed.

Implicit Type E : list (ptr * node A).

Lemma MInv_perm s W W' E : W ≡ₚ W' -> MInvX s W E -> MInvX s W' E.
Proof.
  intros HW [(D & HH & HD) He HeW H2 H3 H4 H5 H6 H7]. pose proof (infoss_perm _ _ HW) as Hi. split.
  - exists D. split; [|done]. eapply HP_perm; [|exact HH]. by rewrite (layW_perm _ _ HW).
  - done.
  - intros p pl Hp. apply (HeW p pl). by rewrite Hi.
  - intros p Hp. apply H2. by rewrite Hi.
  - intros p Hp. apply H3. by rewrite Hi.
  - intros b cap rc Hb. rewrite <-(live_in_perm b _ _ Hi). by apply H4.
  - done.
  - done.
  - intros p n Hp Hn. apply (H7 p n Hp). intros Hx. apply Hn. rewrite <-infoss_fst in *. by rewrite <-Hi.
Qed.

Lemma list_to_map_const (l l' : list (ptr * node A)) :
  NoDup l.*1 -> l.*1 ≡ₚ l'.*1 ->
  (fun _ => 1) <$> (list_to_map l : gmap ptr (node A)) = (fun _ => 1) <$> (list_to_map l' : gmap ptr (node A)).
Proof.
  intros HN Hp. rewrite <-!list_to_map_fmap. 
  assert (forall l : list (ptr * node A), prod_map id (fun _ => 1) <$> l = (fun p : ptr => (p, 1)) <$> l.*1) as Hm.
  { intros ll. rewrite <-list_fmap_compose. apply list_fmap_ext. by intros ? [??] ?. }
  apply list_to_map_proper.
  - rewrite Hm. rewrite <-list_fmap_compose. simpl. unfold compose. simpl. by rewrite list_fmap_id.
  - rewrite !Hm. by rewrite Hp.
Qed.

(** in-place operations; the external cells may be changed, too *)
Lemma MInv_tripleE {X} s W W' E E' l l' (F : list (ptr * node A)) (m : M A X) x :
  triple l m x l' -> layW W ++ E ≡ₚ l ++ F -> layW W' ++ E' ≡ₚ l' ++ F -> infoss W ≡ₚ infoss W' -> E.*1 ≡ₚ E'.*1 ->
  MInvX s W E -> exists h', m s = Ok x (set_heap s h') /\ MInvX (set_heap s h') W' E'.
Proof.
  intros Ht HW HW' Hi HEE [(D & HH & HD) He HeW H2 H3 H4 H5 H6 H7].
  destruct (Ht s (F ++ D)) as (h & Em & HP').
  { eapply HP_perm; [|exact HH]. by rewrite (Permutation_app_comm D), !app_assoc, HW. }
  exists h. split; [done|].
  assert (HP (layW W' ++ D ++ E') (set_heap s h)) as HPW.
  { eapply HP_perm; [|exact HP']. by rewrite (Permutation_app_comm D), !app_assoc, HW'. }
  assert (Hdom : (fun _ => 1) <$> m_heap s = (fun _ => 1) <$> h).
  { destruct HH as [N1 E1], HPW as [N2 E2]. simpl in E2. rewrite E1, E2.
    apply list_to_map_const; [done|]. rewrite !fmap_app, !layW_fst. by rewrite <-!infoss_fst, Hi, HEE. }
  assert (Hsome : forall k, is_Some (m_heap s !! k) <-> is_Some (h !! k)).
  { intros k. apply (f_equal (.!! k)) in Hdom. rewrite !lookup_fmap in Hdom.
    destruct (m_heap s !! k), (h !! k); simpl in *; split; intros []; eauto; done. }
  assert (HinE : forall b, inE E' b <-> inE E b).
  { intros b. unfold inE. split; intros (p & Hp & Hb); exists p; split; try done; [by rewrite HEE|by rewrite <-HEE]. }
  split; simpl.
  - exists D. split; [done|]. intros p Hp. rewrite HinE. by apply HD.
  - intros b Hb. unfold lenE. rewrite <-HEE. apply He. by apply HinE.
  - intros p pl Hp. rewrite HinE. apply (HeW p pl). by rewrite Hi.
  - intros p Hp. apply H2. by rewrite Hi.
  - intros p Hp. apply H3. by rewrite Hi.
  - intros b cap rc Hb. rewrite <-(live_in_perm b _ _ Hi). destruct (H4 b cap rc Hb) as (?&Hrest).
    split; [done|]. rewrite HinE. intros Hn. destruct (Hrest Hn) as (?&?&Hc). split_and!; [done..|].
    intros i. rewrite <-Hsome. apply Hc.
  - intros p Hp. apply H5. by apply Hsome.
  - intros p Hp. rewrite <-Hsome. by apply H6.
  - intros p n Hp Hn HnE. destruct HPW as [N2 E2]. simpl in E2. rewrite E2 in Hp. apply elem_of_list_to_map_2 in Hp.
    apply elem_of_app in Hp as [Hp|[Hp|Hp]%elem_of_app].
    + exfalso. apply Hn. rewrite <-layW_fst. by apply (elem_of_list_fmap_1 fst) in Hp.
    + apply (H7 p n).
      * eapply HP_lookup_in; [|exact HH]. rewrite !elem_of_app. auto.
      * intros Hx. apply Hn. rewrite <-infoss_fst in *. by rewrite <-Hi.
      * by rewrite <-HinE.
    + exfalso. apply HnE. exists p. split; [by apply (elem_of_list_fmap_1 fst) in Hp|done].
Qed.

Lemma MInv_triple {X} s W W' E l l' (F : list (ptr * node A)) (m : M A X) x :
  triple l m x l' -> layW W ≡ₚ l ++ F -> layW W' ≡ₚ l' ++ F -> infoss W ≡ₚ infoss W' ->
  MInvX s W E -> exists h', m s = Ok x (set_heap s h') /\ MInvX (set_heap s h') W' E.
Proof.
  intros Ht HW HW' Hi. eapply (MInv_tripleE s W W' E E l l' (F ++ E)); try done.
  - by rewrite HW, app_assoc.
  - by rewrite HW', app_assoc.
Qed.

(** operations that only read *)
Lemma MInv_read {X} s W E l (F : list (ptr * node A)) (m : M A X) x :
  triple l m x l -> layW W ++ E ≡ₚ l ++ F -> MInvX s W E -> m s = Ok x s.
Proof.
  intros Ht HW [(D & HH & HD) He HeW H2 H3 H4 H5 H6].
  destruct (Ht s (F ++ D)) as (h & Em & HP').
  { eapply HP_perm; [|exact HH]. by rewrite (Permutation_app_comm D), !app_assoc, HW. }
  rewrite Em. f_equal. destruct HP' as [N' E']. simpl in E'. rewrite E'. destruct HH as [N EH].
  rewrite <-(set_heap_id s) at 2. rewrite EH. f_equal.
  apply list_to_map_proper; [done|]. by rewrite (Permutation_app_comm D), !app_assoc, HW.
Qed.

Lemma MInv_nodup s W E : MInvX s W E -> NoDup (addrss W).
Proof.
  intros [(D & [HN _] & _) _ _ _ _]. rewrite fmap_app, layW_fst in HN.
  by apply NoDup_app in HN as [? _].
Qed.

Lemma MInv_lookup s W E p n : MInvX s W E -> (p, n) ∈ layW W -> m_heap s !! p = Some n.
Proof.
  intros [(D & HH & _) _ _ _ _] Hi. eapply HP_lookup_in; [|exact HH]. apply elem_of_app; by left.
Qed.

Lemma MInv_empty : MInv mem0 [].
Proof.
  split.
  - exists []. split; [split; [constructor|done]|]. intros p Hp. by apply elem_of_nil in Hp.
  - intros b Hb. by apply inE_nil in Hb.
  - intros p pl Hp. by apply elem_of_nil in Hp.
  - intros p Hp. by apply elem_of_nil in Hp.
  - intros p Hp. by apply elem_of_nil in Hp.
  - intros b cap rc H. simpl in H. by rewrite lookup_empty in H.
  - intros p [? H]. simpl in H. by rewrite lookup_empty in H.
  - intros p [? H]. simpl in H. by rewrite lookup_empty in H.
  - intros p n H. simpl in H. by rewrite lookup_empty in H.
Qed.

Lemma MInv_fresh s W E p : MInvX s W E -> is_Some (m_heap s !! p) -> p.1 < m_fresh s.
Proof.
  intros H Hs. destruct H as [(D & [HN HE] & HD) He HeW H2 H3 H4 H5 H6]. rewrite HE in Hs.
  destruct Hs as [n Hn]. apply elem_of_list_to_map_2 in Hn.
  apply elem_of_list_fmap_1 with (f := fst) in Hn. simpl in Hn.
  rewrite !fmap_app, layW_fst, <-infoss_fst in Hn. apply elem_of_app in Hn as [Hn|[Hn|Hn]%elem_of_app].
  - apply elem_of_list_fmap in Hn as ([q [|]] & -> & Hq).
    + destruct (H3 q Hq) as [[cap rc] Hv]. by destruct (H4 _ _ _ Hv).
    + by destruct (H2 q Hq) as (?&?&?).
  - destruct (HD p Hn) as [[[cap rc] Hv] _]. by destruct (H4 _ _ _ Hv).
  - assert (inE E p.1) as Hx by (by exists p). apply He in Hx. by destruct (H4 _ _ _ Hx).
Qed.

(** allocation of a scattered node *)
Lemma make_node_spec s W E d v :
  MInvX s W E -> own d (m_fresh s, 0) = dat_of (m_fresh s, 0) false v ->
  exists s', make_node d s = Ok (m_fresh s, 0) s' /\ MInvX s' (AN (m_fresh s, 0) false v [] :: W) E /\
    m_log s' = m_log s /\ m_fresh s' = S (m_fresh s).
Proof.
  intros H Hd. unfold make_node. eexists. split; [done|]. split; [|done].
  set (p := (m_fresh s, 0)) in *.
  assert (m_heap s !! p = None) as Hp.
  { destruct (m_heap s !! p) eqn:?; [|done]. exfalso. assert (p.1 < m_fresh s); [|simpl in *; lia].
    eapply MInv_fresh; eauto. }
  assert (m_vec s !! m_fresh s = None) as Hv.
  { destruct (m_vec s !! m_fresh s) as [[cap rc]|] eqn:Ev; [|done]. destruct H as [_ _ _ _ _ H4 _].
    apply H4 in Ev as (?&_). lia. }
  destruct H as [(D & [HN HE] & HD) He HeW H2 H3 H4 H5 H6 H7]. split; simpl.
  - exists D. split; [|done]. rewrite lay_eq. rewrite lays_nil.
    rewrite Hd. split; simpl.
    + constructor; [|done]. intros Hin. rewrite HE in Hp. apply not_elem_of_list_to_map in Hp. done.
    + by rewrite HE.
  - done.
  - intros q pl [Hq|Hq]%elem_of_cons; [inversion Hq; subst; simpl|by apply (HeW q pl)].
    intros HinE. pose proof (He _ HinE) as Hx. congruence.
  - intros q [Hq|Hq]%elem_of_cons; [inversion Hq; subst; simpl; split_and!; [done|lia|done]|].
    destruct (H2 q Hq) as (?&?&?). split_and!; [done|lia|done].
  - intros q [Hq|Hq]%elem_of_cons; [done|]. by apply H3.
  - intros b cap rc Hb. destruct (H4 b cap rc Hb) as (?&Hrest).
    assert (b <> m_fresh s) by lia. split; [lia|]. intros Hn. destruct (Hrest Hn) as (Hrc&?&Hc). split_and!; [ |done|].
    + rewrite Hrc. unfold infoss at 2. simpl. rewrite live_in_cons. rewrite decide_False; [done|]. simpl; congruence.
    + intros i. rewrite lookup_insert_ne; [apply Hc|]. unfold p. congruence.
  - intros q Hq. destruct (decide (q = p)) as [->|Hne]; [by rewrite lookup_insert|].
    rewrite lookup_insert_ne in Hq by done. rewrite lookup_insert_ne by done. by apply H5.
  - intros q Hq. destruct (decide (q = p)) as [->|Hne]; [left; rewrite lookup_insert; eauto|].
    rewrite lookup_insert_ne in Hq by done. rewrite lookup_insert_ne by done. by apply H6.
  - intros q m Hq Hn. destruct (decide (q = p)) as [->|Hne]; [exfalso; apply Hn; left|].
    rewrite lookup_insert_ne in Hq by done. apply (H7 q m Hq). intros Hx. apply Hn. by right.
Qed.

(** values in drop order *)
Fixpoint apost t : list A :=
  let 'AN _ _ v ks := t in flat_map apost ks ++ match v with Some a => [a] | None => [] end.
Definition aposts ks := flat_map apost ks.

Lemma dat_vals_of p pl (v : option A) : dat_vals (dat_of p pl v) = match v with Some a => [a] | None => [] end.
Proof. by destruct pl, v. Qed.

Lemma list_to_map_filter_block b (l : list (ptr * node A)) :
  filter (fun x : ptr * node A => x.1.1 <> b) (list_to_map l : gmap ptr (node A)) =
  list_to_map (filter (fun x : ptr * node A => x.1.1 <> b) l).
Proof.
  induction l as [|[q m] l IH]; [done|]. simpl.
  destruct (decide (q.1 <> b)) as [Hq|Hq].
  - rewrite map_filter_insert_True by done. rewrite filter_cons_True by done. simpl. by rewrite IH.
  - rewrite map_filter_insert_False by (simpl; tauto). rewrite filter_cons_False by (simpl; tauto). rewrite <-IH.
    rewrite map_filter_delete. apply delete_notin. apply map_filter_lookup_None. right. intros ? _. simpl. tauto.
Qed.
Lemma NoDup_fmap_filter (P : ptr * node A -> Prop) `{!forall x, Decision (P x)} (l : list (ptr * node A)) :
  NoDup l.*1 -> NoDup (filter P l).*1.
Proof.
  induction l as [|[q m] l IH]; [constructor|]. rewrite filter_cons. simpl. intros [N3 N4]%NoDup_cons.
  case_decide; [|by apply IH]. simpl. constructor; [|by apply IH].
  intros Hx. apply N3. apply elem_of_list_fmap in Hx as (y & -> & Hy).
  apply elem_of_list_filter in Hy as [_ Hy]. by apply elem_of_list_fmap_1.
Qed.

Lemma drop_node_spec s W E p pl v :
  MInvX s (AN p pl v [] :: W) E ->
  exists s', drop_node p s = Ok tt s' /\ MInvX s' W E /\
    m_log s' = m_log s ++ (match v with Some a => [a] | None => [] end) /\ m_fresh s' = m_fresh s.
Proof.
  intros H. assert (Hget : m_heap s !! p = Some (mk None None None p pl v [])).
  { eapply MInv_lookup; [exact H|]. simpl. rewrite lay_eq. left. }
  unfold drop_node, bind at 1, get. rewrite Hget. unfold bind at 1, put. rewrite Hget.
  cbn [mk n_dat].
  set (n' := set_dat DNone _).
  destruct H as [(D & [HN HE] & HD) He HeW H2 H3 H4 H5 H6 H7].
  assert (H7' : forall q m, <[p:=n']> (m_heap s) !! q = Some m -> q ∉ addrss W -> ~ inE E q.1 -> dat_vals (n_dat m) = []).
  { intros q m Hq Hn. destruct (decide (q = p)) as [->|Hne]; [rewrite lookup_insert in Hq; by simplify_eq|].
    rewrite lookup_insert_ne in Hq by done. apply (H7 q m Hq). intros [Hx|Hx]%elem_of_cons; [done|]. by apply Hn. }
  cbn [layW flat_map] in HE, HN. rewrite lay_eq, lays_nil in HE, HN.
  cbn [app] in HE, HN. fold (layW W) in HE, HN. cbn [list_to_map foldr] in HE. simpl in HE. simpl in HN.
  apply NoDup_cons in HN as [HnotIn HN].
  assert (Hnone : (list_to_map (layW W ++ D ++ E) : gmap ptr (node A)) !! p = None) by by apply not_elem_of_list_to_map.
  destruct pl.
  - (* piled *)
    destruct (H3 p) as [[cap rc] Hv]; [left|].
    assert (HpE : ~ inE E p.1) by (apply (HeW p true); left).
    destruct (H4 _ _ _ Hv) as (Hb & Hrest). destruct (Hrest HpE) as (Hrc & Hpos & Hcap). clear Hrest.
    unfold infoss in Hrc; simpl in Hrc. rewrite live_in_cons in Hrc. rewrite decide_True in Hrc by done.
    assert (Hdec : exists s1, decr_ref p.1 (set_heap s (<[p:=n']> (m_heap s))) = Ok tt s1 /\ MInvX s1 W E /\
              m_log s1 = m_log s /\ m_fresh s1 = m_fresh s).
    { unfold decr_ref. cbn [m_vec set_heap]. rewrite Hv. destruct rc as [|[|rc]]; [lia| |].
      - (* last *)
        eexists; split; [done|]. split; [|done].
        assert (Hno : forall q pl', (q, pl') ∈ infoss W -> q.1 <> p.1).
        { intros q pl' Hq Heq. pose proof (live_in_pos _ _ _ _ Hq Heq). unfold infoss in *. lia. }
        assert (Hfil : filter (fun x : ptr * node A => x.1.1 <> p.1) (<[p:=n']> (m_heap s)) =
                       list_to_map (layW W ++ filter (fun x : ptr * node A => x.1.1 <> p.1) D ++ E)).
        { rewrite HE. rewrite insert_insert. rewrite map_filter_insert_False; [|simpl; tauto].
          rewrite delete_notin by done.
          assert (Hl : filter (fun x : ptr * node A => x.1.1 <> p.1) (layW W) = layW W).
          { assert (Forall (fun x : ptr * node A => x.1.1 <> p.1) (layW W)) as HF.
            { apply Forall_forall. intros x Hx. apply (elem_of_list_fmap_1 fst) in Hx.
              rewrite layW_fst, <-infoss_fst in Hx. apply elem_of_list_fmap in Hx as ([q pl'] & Heq & Hq).
              simpl in Heq. rewrite Heq. by apply (Hno q pl'). }
            clear -HF. induction HF as [|x l Hx _ IH]; [done|]. rewrite filter_cons_True by done. by f_equal. }
          assert (HlE : filter (fun x : ptr * node A => x.1.1 <> p.1) E = E).
          { assert (Forall (fun x : ptr * node A => x.1.1 <> p.1) E) as HF.
            { apply Forall_forall. intros x Hx Heq. apply HpE. exists x.1. split; [by apply elem_of_list_fmap_1|done]. }
            clear -HF. induction HF as [|x l Hx _ IH]; [done|]. rewrite filter_cons_True by done. by f_equal. }
          rewrite list_to_map_filter_block. by rewrite !filter_app, Hl, HlE. }
        split; simpl.
        + exists (filter (fun x : ptr * node A => x.1.1 <> p.1) D). split.
          * split; [|exact Hfil]. rewrite !fmap_app in *. apply NoDup_app in HN as (N1 & N2 & N3).
            apply NoDup_app in N3 as (N3 & N4 & N5).
            assert (Hsub : forall x, x ∈ (filter (fun x : ptr * node A => x.1.1 <> p.1) D).*1 -> x ∈ D.*1).
            { intros x Hx. apply elem_of_list_fmap in Hx as (y & -> & Hy).
              apply elem_of_list_filter in Hy as [_ Hy]. by apply elem_of_list_fmap_1. }
            apply NoDup_app. split_and!; [done| |].
            -- intros x Hx Hx'. apply (N2 x Hx). apply elem_of_app in Hx' as [Hx'|Hx']; apply elem_of_app; auto.
            -- apply NoDup_app. split_and!; [by apply NoDup_fmap_filter| |done]. intros x Hx. apply N4. auto.
          * intros q Hq. apply elem_of_list_fmap in Hq as (y & -> & Hy). apply elem_of_list_filter in Hy as [Hne Hy].
            rewrite lookup_delete_ne by done. apply HD. by apply elem_of_list_fmap_1.
        + intros b Hb'. rewrite lookup_delete_ne; [by apply He|]. intros <-. done.
        + intros q pl Hq. apply (HeW q pl). by right.
        + intros q Hq. destruct (H2 q) as (?&?&?); [by right|]. split_and!; [done..|].
          rewrite lookup_delete_ne; [done|]. by apply not_eq_sym, (Hno q false).
        + intros q Hq. rewrite lookup_delete_ne; [apply H3; by right|]. by apply not_eq_sym, (Hno q true).
        + intros b cap' rc' Hb'. apply lookup_delete_Some in Hb' as [Hne Hb'].
          destruct (H4 _ _ _ Hb') as (?&Hrest). split; [done|]. intros Hn. destruct (Hrest Hn) as (Hrc'&?&Hc). split_and!; [ |done|].
          * unfold infoss in Hrc'. simpl in Hrc'. rewrite live_in_cons, decide_False in Hrc' by done. done.
          * intros i Hm. apply Hc. destruct (decide (((b, i) : ptr) = p)) as [Heq|Hne']; [rewrite <-Heq in Hne; done|].
            destruct Hm as [m Hm]. apply map_filter_lookup_Some in Hm as [Hm _]. rewrite lookup_insert_ne in Hm by done. eauto.
        + intros q [m Hm]. apply map_filter_lookup_Some in Hm as [Hm Hq]. simpl in Hq. apply map_filter_lookup_Some. split; [|done].
          apply H5. rewrite lookup_insert_ne in Hm by congruence. eauto.
        + intros q [m Hm]. apply map_filter_lookup_Some in Hm as [Hm Hq]. simpl in Hq. destruct (H6 q) as [[n Hn]|Hn]; [eauto| |].
          * left. exists n. apply map_filter_lookup_Some. split; [|done]. by rewrite lookup_insert_ne by congruence.
          * right. by rewrite lookup_delete_ne by congruence.
        + intros q m Hq. apply map_filter_lookup_Some in Hq as [Hq _]. by apply H7'.
      - (* some other node of the buffer is alive *)
        eexists; split; [done|]. split; [|done]. split; simpl.
        + exists ((p, n') :: D). split.
          * split.
            -- rewrite fmap_app. simpl. rewrite <-Permutation_middle. rewrite <-fmap_app. by constructor.
            -- rewrite HE, insert_insert.
               change (<[p:=n']> (list_to_map (layW W ++ D ++ E)) : gmap ptr (node A)) with (list_to_map ((p, n') :: layW W ++ D ++ E) : gmap ptr (node A)).
               apply list_to_map_proper; [simpl; by constructor|]. by rewrite Permutation_middle.
          * intros q [->|Hq]%elem_of_cons; [split; [rewrite lookup_insert; eauto|done]|].
            split; [|by apply HD].
            destruct (decide (p.1 = q.1)) as [<-|]; [rewrite lookup_insert; eauto|]. rewrite lookup_insert_ne by done. by apply HD.
        + intros b Hb'. rewrite lookup_insert_ne; [by apply He|]. intros <-. done.
        + intros q pl Hq. apply (HeW q pl). by right.
        + intros q Hq. destruct (H2 q) as (?&?&Hn); [by right|]. split_and!; [done..|].
          rewrite lookup_insert_ne; [done|]. congruence.
        + intros q Hq. destruct (decide (p.1 = q.1)) as [<-|]; [rewrite lookup_insert; eauto|].
          rewrite lookup_insert_ne by done. apply H3. by right.
        + intros b cap' rc' Hb'. apply lookup_insert_Some in Hb' as [[<- Heq]|[Hne Hb']].
          * inversion Heq; subst cap' rc'. split; [done|]. intros _. split_and!; [unfold infoss; lia|lia|].
            intros i Hi. apply Hcap. destruct (decide ((p.1, i) = p)) as [Heqp|].
            -- rewrite Heqp, Hget. eauto.
            -- by rewrite lookup_insert_ne in Hi.
          * destruct (H4 _ _ _ Hb') as (?&Hrest). split; [done|]. intros Hn. destruct (Hrest Hn) as (Hrc'&?&Hc). split_and!; [ |done|].
            -- unfold infoss in Hrc'. simpl in Hrc'. rewrite live_in_cons, decide_False in Hrc' by done. done.
            -- intros i. rewrite lookup_insert_ne; [apply Hc|]. intros ->. done.
        + intros q Hq. apply H5. destruct (decide (q = p)) as [->|]; [rewrite Hget; eauto|]. by rewrite lookup_insert_ne in Hq.
        + intros q Hq. destruct (H6 q Hq) as [Hn|Hn].
          * left. destruct (decide (q = p)) as [->|]; [rewrite lookup_insert; eauto|]. by rewrite lookup_insert_ne.
          * right. destruct (decide (p.1 = q.1)) as [<-|]; [rewrite lookup_insert; eauto|]. by rewrite lookup_insert_ne.
        + exact H7'. }
    destruct Hdec as (s1 & Hs1 & HI & Hl & Hf).
    assert ((match dat_of p true v with DNone => ret tt | DScatN o | DScat _ o => rc_drop o
             | DPiledN o | DPiled _ o => decr_ref o end) = decr_ref p.1) as -> by by destruct v.
    unfold bind. rewrite Hs1. unfold log_drop. eexists; split; [done|]. split; [|by cbn [m_log m_fresh n_dat mk]; rewrite Hl, dat_vals_of].
    destruct HI as [(D' & ? & ?) ? ? ? ? ? ? ? ?]. split; simpl; eauto.
  - (* scattered *)
    destruct (H2 p) as (Hp2 & Hpf & Hpv); [left|].
    assert ((match dat_of p false v with DNone => ret tt | DScatN o | DScat _ o => rc_drop o
             | DPiledN o | DPiled _ o => decr_ref o end) = rc_drop p) as -> by by destruct v.
    unfold bind, rc_drop. cbn [m_cnt m_heap set_heap]. rewrite H5 by (rewrite Hget; eauto). rewrite lookup_insert. simpl.
    unfold log_drop. eexists; split; [done|]. split; [|simpl; rewrite app_nil_r; by destruct v].
    assert (Hd : delete p (<[p:=n']> (m_heap s)) = list_to_map (layW W ++ D ++ E)).
    { rewrite delete_insert_delete. rewrite HE. rewrite delete_insert; done. }
    split; simpl.
    + exists D. split; [|done]. split; done.
    + done.
    + intros q pl Hq. apply (HeW q pl). by right.
    + intros q Hq. apply H2. by right.
    + intros q Hq. apply H3. by right.
    + intros b cap rc Hb. destruct (H4 _ _ _ Hb) as (?&Hrest). split; [done|]. intros Hn. destruct (Hrest Hn) as (Hrc&?&Hc).
      assert (b <> p.1) by congruence. split_and!; [ |done|].
      * unfold infoss in Hrc. simpl in Hrc. rewrite live_in_cons, decide_False in Hrc by done. done.
      * intros i. rewrite delete_insert_delete, lookup_delete_ne; [apply Hc|]. intros ->. done.
    + intros q Hq. rewrite delete_insert_delete in Hq. destruct (decide (p = q)) as [->|Hne]; [rewrite lookup_delete in Hq; by destruct Hq|].
      rewrite lookup_delete_ne in Hq by done. rewrite lookup_delete_ne by done. by apply H5.
    + intros q Hq. rewrite delete_insert_delete. destruct (decide (p = q)) as [->|Hne]; [rewrite lookup_delete in Hq; by destruct Hq|].
      rewrite lookup_delete_ne in Hq by done. rewrite lookup_delete_ne by done. by apply H6.
    + intros q m Hq. apply lookup_delete_Some in Hq as [_ Hq]. by apply H7'.
Qed.

Lemma pop_front_root_none s W E p pl v :
  MInvX s (AN p pl v [] :: W) E -> pop_front p s = Ok None s.
Proof.
  intros H. unfold pop_front, bind, get.
  rewrite (MInv_lookup _ _ _ p (mk None None None p pl v []) H) by (simpl; rewrite lay_eq; left). done.
Qed.

Lemma pop_front_root_some s W E p pl v k ks :
  MInvX s (AN p pl v (k :: ks) :: W) E ->
  exists h, pop_front p s = Ok (Some (aptr k)) (set_heap s h) /\ MInvX (set_heap s h) (k :: AN p pl v ks :: W) E.
Proof.
  intros H. pose proof (pop_front_some [] None None p pl v k ks) as T. cbn [lay_ctx up_of] in T.
  rewrite !app_nil_l, !app_nil_r in T.
  eapply (MInv_triple _ _ _ _ _ _ (layW W)); [exact T| | | |exact H].
  - done.
  - rewrite !layW_cons, <-app_assoc. perm.
  - rewrite !infoss_cons, !infos_eq, infoss_cons. simpl. rewrite <-Permutation_middle. by rewrite app_assoc.
Qed.

Lemma drop_loop_spec f : forall s W E t, cntn t <= f -> MInvX s (t :: W) E ->
  exists s', drop_loop f (aptr t) s = Ok tt s' /\ MInvX s' W E /\ m_log s' = m_log s ++ apost t /\ m_fresh s' = m_fresh s.
Proof.
  induction f as [|f IH]; intros s W E [p pl v ks] Hf H; [rewrite cntn_eq in Hf; lia|].
  cbn [drop_loop aptr]. destruct ks as [|k ks].
  - unfold bind. rewrite (pop_front_root_none _ _ _ _ pl v H). destruct (drop_node_spec _ _ _ _ _ _ H) as (s1 & ? & ? & Hl & ?). exists s1. done.
  - unfold bind at 1. destruct (pop_front_root_some _ _ _ _ _ _ _ _ H) as (h & -> & H1).
    rewrite cntn_eq, cnts_cons, cntn_akids in Hf.
    destruct (IH (set_heap s h) (AN p pl v ks :: W) E k) as (s1 & E1 & HI1 & L1 & F1); [rewrite cntn_akids; lia|done|].
    unfold bind. rewrite E1.
    destruct (IH s1 W E (AN p pl v ks)) as (s2 & E2 & HI2 & L2 & F2); [rewrite cntn_eq; lia|done|].
    simpl in E2. rewrite E2. eexists; split; [done|]. split; [done|]. rewrite L2, L1, F2, F1. simpl.
    by rewrite !app_assoc.
Qed.

Lemma MInv_size s W E t : MInvX s (t :: W) E -> cntn t <= size (m_heap s).
Proof.
  intros [(D & HH & _) _ _ _ _ _ _ _]. rewrite (HP_size _ _ HH). rewrite <-(fmap_length fst), fmap_app, layW_fst.
  simpl. rewrite !app_length, addrs_length. lia.
Qed.

Lemma drop_tree_spec s W E t : MInvX s (t :: W) E ->
  exists s', drop_tree (aptr t) s = Ok tt s' /\ MInvX s' W E /\ m_log s' = m_log s ++ apost t /\ m_fresh s' = m_fresh s.
Proof.
  intros H. unfold drop_tree, bind, fuel, gets. apply drop_loop_spec; [|done].
  pose proof (MInv_size _ _ _ _ H). lia.
Qed.

(** no live tree: no allocation *)
Lemma MInv_nil s : MInv s [] -> m_heap s = ∅ /\ m_cnt s = ∅ /\ m_vec s = ∅.
Proof.
  intros [(D & [HN HE] & HD) He HeW H2 H3 H4 H5 H6].
  assert (m_vec s = ∅) as Hv.
  { apply map_empty. intros b. destruct (m_vec s !! b) as [[cap rc]|] eqn:E; [|done].
    destruct (H4 _ _ _ E) as (_&Hrest). destruct (Hrest (inE_nil b)) as (Hrc&Hp&_). unfold live_in in Hrc. simpl in Hrc. lia. }
  assert (D = []) as ->.
  { destruct D as [|[p n] D]; [done|]. destruct (HD p) as [[x Hx] _]; [left|]. rewrite Hv in Hx. done. }
  simpl in HE. split_and!; [done| |done]. apply map_empty. intros p. destruct (m_cnt s !! p) eqn:Ep; [|done]. exfalso.
  destruct (H6 p) as [[? Hx]|[? Hx]]; [eauto| |]; [rewrite HE in Hx|rewrite Hv in Hx]; done.
Qed.

End inv.
