(** StackRcProofs.v — proofs about StackRcModel. *)
From stdpp Require Import base gmap list sorting.
From Verif Require Import Spec ClientSpec RcSpec Machine NodeModel BfsModel ClientModel RcModel RcAllowed Sep Rep NodeProofs Inv Abs ClientProofs
  BfsIter ClientRef ClientProps ClientStep CountFrame RcRelease RcLab RcRef RcStep RcStep2 RcStep3 RcStep4 RcClient RcProps RcProps2 RcDemo StackModel StackProofs StackRcModel.

Section stack.
Context {A : Type}.
Implicit Types (p : ptr) (t : atree A) (ks W : list (atree A)).

Fixpoint aheight (P : ptr -> bool) t : nat :=
  S (foldr (fun k m => max (if P (aptr k) then 1 else aheight P k) m) 0 (akids t)).
Definition aheights (P : ptr -> bool) ks : nat := foldr (fun k m => max (if P (aptr k) then 1 else aheight P k) m) 0 ks.
Lemma aheight_eq P p pl v ks : aheight P (AN p pl v ks) = S (aheights P ks).
Proof. done. Qed.
Lemma aheights_cons P k ks : aheights P (k :: ks) = max (if P (aptr k) then 1 else aheight P k) (aheights P ks).
Proof. done. Qed.

Lemma rcs_pile f D B v i : rcs_loop (A:=A) (S f) (S D) B (RPile v i) =
  (vec_ref v ;; let! c := cnt_decr (v, i) in (if Nat.eqb c 0 then rcs_pops f D B (RPile v i) ;; drop_in_place (v, i) else ret tt) ;; decr_ref v).
Proof. done. Qed.
Lemma rcs_scat f D B p : rcs_loop (A:=A) (S f) (S D) B (RScat p) =
  (let! c := cnt_get p in (if Nat.eqb c 1 then rcs_pops f D B (RScat p) else ret tt) ;; rc_drop p).
Proof. done. Qed.
Lemma rcs_pops_S f D B r : rcs_pops (A:=A) (S f) D B r =
  (node_borrow_mut B r ;; let! o := pop_front (raddr r) in
   match o with None => ret tt | Some c => let! k := rc_from c in rcs_loop f D B k ;; rcs_pops f D B r end).
Proof. done. Qed.

(** a node with another handle: the drop does not recurse *)
Lemma keep_stack f D B s W p pl Hs Z : MInvX s W [] -> (p, pl) ∈ infoss W -> p ∉ Z ->
  rcs_loop (S f) (S D) B (rform p pl) (memZ Z (p :: Hs) s) = rc_drop_loop (S f) B (rform p pl) (memZ Z (p :: Hs) s).
Proof.
  intros HI Hin HZ. pose proof (alive_cnt _ _ _ _ HI Hin) as Hc. destruct pl; cbn [rform].
  - destruct (alive_vec _ _ _ HI Hin) as (cap & rc & Hv & _).
    assert (vec_ref p.1 (memZ Z (p :: Hs) s) = Ok tt (memZ Z (p :: Hs) s)) as G1. { unfold vec_ref. simpl. by rewrite map_lookup_imap, Hv. }
    assert (exists m s2, cnt_decr (p.1, p.2) (memZ Z (p :: Hs) s) = Ok (S m) s2) as (m & s2 & G2).
    { unfold cnt_decr. cbn [m_cnt memZ adj]. rewrite <-surjective_pairing, map_lookup_imap, Hc. simpl. rewrite decide_False by done. rewrite occ_cons, decide_True by done. simpl. eauto. }
    rewrite rcs_pile, rc_drop_pile. unfold bind. by rewrite G1, G2.
  - assert (exists m, cnt_get p (memZ Z (p :: Hs) s) = Ok (S (S m)) (memZ Z (p :: Hs) s)) as (m & G1).
    { unfold cnt_get. cbn [m_cnt memZ adj]. rewrite map_lookup_imap, Hc. simpl. rewrite decide_False by done. rewrite occ_cons, decide_True by done. simpl. eauto. }
    rewrite rcs_scat, rc_drop_scat. unfold bind. by rewrite G1.
Qed.

Lemma release_stack B (P : ptr -> bool) f :
  (forall s W t Z Hs, 2 * cntn t <= f -> MInvX s (t :: W) [] -> full t -> P (aptr t) = false -> (forall q, q ∈ addrs t -> q ∉ Z) ->
     (forall q, q ∈ addrs t -> P q = true <-> q ∈ Hs) -> (forall q, q ∈ addrs t -> P q = false -> flag B q = 0%Z) ->
     (forall q, q ∈ Hs -> q ∈ addrss (t :: W)) ->
     exists s' Hs', (forall D, rcs_loop f D B (rform (aptr t) (apl t)) (memZ Z Hs s) = if decide (aheight P t <= D) then Ok tt (memZ Z Hs' s') else Err EStack) /\ MInvX s' (asurv P t ++ W) [] /\
       Hs ≡ₚ (aptr <$> asurv P t) ++ Hs' /\ (forall q, q ∈ Hs' -> q ∈ addrss (asurv P t ++ W)) /\
       m_log s' = m_log s ++ alost P t /\ m_fresh s' = m_fresh s /\ shrinks s s' /\
       (forall q, is_Some (m_heap s' !! q) -> q ∈ addrs t -> q ∈ addrss (asurv P t))) /\
  (forall s W p pl a ks Z Hs, 1 + 2 * cnts ks <= f -> MInvX s (AN p pl (Some a) ks :: W) [] -> Forall full ks -> flag B p = 0%Z -> p ∉ Hs ->
     (forall q, q ∈ addrss ks -> q ∉ Z) ->
     (forall q, q ∈ addrss ks -> P q = true <-> q ∈ Hs) -> (forall q, q ∈ addrss ks -> P q = false -> flag B q = 0%Z) ->
     (forall q, q ∈ Hs -> q ∈ addrss (ks ++ W)) ->
     exists s' Hs', (forall D, rcs_pops f D B (rform p pl) (memZ Z Hs s) = if decide (aheights P ks <= D) then Ok tt (memZ Z Hs' s') else Err EStack) /\ MInvX s' (AN p pl (Some a) [] :: asurvs P ks ++ W) [] /\
       Hs ≡ₚ (aptr <$> asurvs P ks) ++ Hs' /\ (forall q, q ∈ Hs' -> q ∈ addrss (asurvs P ks ++ W)) /\
       m_log s' = m_log s ++ alosts P ks /\ m_fresh s' = m_fresh s /\ shrinks s s' /\
       (forall q, is_Some (m_heap s' !! q) -> q ∈ addrss ks -> q ∈ addrss (asurvs P ks))).
Proof.
  induction f as [|f [IHd IHp]]; (split; [intros s W t Z Hs Hf HI Hfull HPp HZ HP HB HW|intros s W p pl a ks Z Hs Hf HI Hfull HBp HpH HZ HP HB HW]).
  - destruct t. rewrite cntn_eq in Hf. lia.
  - lia.
  - destruct Hfull as [p pl a ks Hks]. simpl in HPp. rewrite cntn_eq in Hf. rewrite addrs_eq in *.
    cbn [aptr apl]. rewrite asurv_eq, alost_eq.
    assert (p ∉ Hs) as HpH. { intros Hin. apply HP in Hin; [congruence|left]. }
    assert (p ∉ Z) as HpZ by (apply HZ; left).
    assert (forall q, q ∈ Hs -> q ∈ addrss (ks ++ W)) as HW'.
    { intros q Hq. pose proof (HW q Hq) as Hq'. rewrite addrss_cons, addrs_eq in Hq'. simpl in Hq'. rewrite addrss_app. apply elem_of_cons in Hq' as [->|?]; done. }
    pose proof (MInv_nodup _ _ _ HI) as HN. rewrite addrss_cons, addrs_eq in HN. simpl in HN. apply NoDup_cons in HN as [HpN HN].
    rewrite elem_of_app in HpN.
    assert ((p, pl) ∈ infoss (AN p pl (Some a) ks :: W)) as Hin by left.
    assert (m_cnt s !! p = Some 1) as Hc by (by eapply alive_cnt).
    assert (flag B p = 0%Z) as HBp by (apply HB; [left|done]).
    destruct pl; cbn [rform].
    + destruct (alive_vec _ _ _ HI Hin) as (cap & rc & Hv & _).
      assert (vec_ref p.1 (memZ Z Hs s) = Ok tt (memZ Z Hs s)) as G1. { unfold vec_ref. simpl. by rewrite map_lookup_imap, Hv. }
      assert (cnt_decr p (memZ Z Hs s) = Ok 0 (memZ (p :: Z) Hs s)) as G2.
      { unfold cnt_decr. cbn [m_cnt memZ adj]. rewrite map_lookup_imap, Hc. simpl. rewrite decide_False by done.
        rewrite occ_0 by done. simpl. f_equal.
        apply mem_eq; simpl; try done. apply map_eq. intros q. rewrite map_lookup_imap. destruct (decide (p = q)) as [<-|Hne].
        - rewrite lookup_insert, Hc. simpl. by rewrite decide_True by left.
        - rewrite lookup_insert_ne, map_lookup_imap by done. destruct (m_cnt s !! q); simpl; [|done]. f_equal.
          destruct (decide (q ∈ Z)); [by rewrite decide_True by (by right)|]. rewrite decide_False; [done|]. intros [->|?]%elem_of_cons; done. }
            destruct (IHp s W p true a ks (p :: Z) Hs) as (s1 & Hs1 & E1 & HI1 & HH1 & HW1 & L1 & F1 & S1 & K1); try done.
      { lia. } { intros q Hq. rewrite elem_of_cons. intros [->|Hz]; [tauto|]. apply (HZ q); [by right|done]. }
      { intros q Hq. apply HP. by right. } { intros q Hq. apply HB. by right. }
      assert (p ∉ Hs1) as HpH1. { intros Hx. apply HpH. rewrite HH1. apply elem_of_app. by right. }
      destruct (release_pile s1 (asurvs P ks ++ W) p a Hs1 Z) as (s2 & E2 & HI2 & L2 & F2 & S2 & K2); try done.
      unfold bind in E2. destruct (drop_in_place p (memZ (p :: Z) Hs1 s1)) as [[] s3|] eqn:E3; [|done].
      exists s2, Hs1. split.
      { intros [|D]; [rewrite decide_False by (rewrite aheight_eq; lia); done|].
        rewrite rcs_pile. unfold bind at 1. rewrite G1. unfold bind at 1. rewrite <-surjective_pairing, G2. cbn [Nat.eqb].
        unfold bind at 1. unfold bind at 1. change (RPile p.1 p.2) with (rform p true). rewrite E1.
        destruct (decide (aheights P ks <= D)); [rewrite decide_True by (rewrite aheight_eq; lia)|by rewrite decide_False by (rewrite aheight_eq; lia)].
        rewrite E3. exact E2. }
      split_and!; try done.
      * by rewrite L2, L1, <-app_assoc.
      * by rewrite F2.
      * by eapply shrinks_trans.
      * intros q Hq [->|Hq']%elem_of_cons; [rewrite K2 in Hq; by destruct Hq|]. apply K1; [by apply S2|done].
    + assert (cnt_get p (memZ Z Hs s) = Ok 1 (memZ Z Hs s)) as G1.
      { unfold cnt_get. cbn [m_cnt memZ adj]. rewrite map_lookup_imap, Hc. simpl. rewrite decide_False by done. by rewrite occ_0. }
            destruct (IHp s W p false a ks Z Hs) as (s1 & Hs1 & E1 & HI1 & HH1 & HW1 & L1 & F1 & S1 & K1); try done.
      { lia. } { intros q Hq. apply (HZ q); by right. }
      { intros q Hq. apply HP. by right. } { intros q Hq. apply HB. by right. }
      assert (p ∉ Hs1) as HpH1. { intros Hx. apply HpH. rewrite HH1. apply elem_of_app. by right. }
      destruct (release_scat s1 (asurvs P ks ++ W) p a Hs1 Z) as (s2 & E2 & HI2 & L2 & F2 & S2 & K2); try done.
      exists s2, Hs1. split.
      { intros [|D]; [rewrite decide_False by (rewrite aheight_eq; lia); done|].
        rewrite rcs_scat. unfold bind at 1. rewrite G1. cbn [Nat.eqb].
        unfold bind at 1. change (RScat p) with (rform p false). rewrite E1.
        destruct (decide (aheights P ks <= D)); [by rewrite decide_True by (rewrite aheight_eq; lia)|by rewrite decide_False by (rewrite aheight_eq; lia)]. }
      split_and!; try done.
      * by rewrite L2, L1, <-app_assoc.
      * by rewrite F2.
      * by eapply shrinks_trans.
      * intros q Hq [->|Hq']%elem_of_cons; [rewrite K2 in Hq; by destruct Hq|]. apply K1; [by apply S2|done].
  - destruct ks as [|k ks].
    + pose proof (pop_front_root_none _ _ _ _ _ _ HI) as Hpop. exists s, Hs. split.
      { intros D. rewrite rcs_pops_S. unfold bind at 1. rewrite (borrow_mut_ok _ _ _ _ _ _ _ _ _ HI HBp). rewrite raddr_rform. unfold bind.
        unfold memZ at 1. rewrite (hp_ok _ _ _ _ _ _ (hp_pop_front p) Hpop). rewrite decide_True by (apply Nat.le_0_l). done. }
      rewrite app_nil_r. split_and!; done.
    + destruct (pop_front_root_some _ _ _ _ _ _ _ _ HI) as (h & Hpop & HI1). set (s1 := set_heap s h) in *.
      assert (shrinks s s1) as S1.
      { split; [|done]. intros q Hq. pose proof (hp_pop_front p s s eq_refl) as Hx. rewrite Hpop in Hx. destruct Hx as (_ & Hx & _). by apply Hx. }
      inversion Hfull as [|? ? Hk Hks]; subst. inversion Hk as [kp kpl ka kks Hkks]; subst k.
      assert (Erd : forall D, rcs_pops (S f) D B (rform p pl) (memZ Z Hs s) = (rcs_loop f D B (rform kp kpl) ;; rcs_pops f D B (rform p pl)) (memZ Z Hs s1)).
      { intros D. rewrite rcs_pops_S. unfold bind at 1. rewrite (borrow_mut_ok _ _ _ _ _ _ _ _ _ HI HBp). rewrite raddr_rform.
        unfold bind at 1. unfold memZ at 1. rewrite (hp_ok _ _ _ _ _ _ (hp_pop_front p) Hpop). fold (memZ Z Hs s1).
        unfold bind at 1. cbn [aptr]. unfold memZ at 1. rewrite (into_rc_alive s1 [] kp kpl ka kks (AN p pl (Some a) ks :: W) []) by done. fold (memZ Z Hs s1). done. }
      rewrite cnts_cons, cntn_eq in Hf. pose proof (MInv_nodup _ _ _ HI1) as HN. rewrite !addrss_cons, !addrs_eq in HN.
      assert (Hdis : forall q, q ∈ addrs (AN kp kpl (Some ka) kks) -> q ∉ p :: addrss ks).
      { intros q Hq Hq'. apply NoDup_app in HN as (_ & HN & _). apply (HN q Hq). simpl. rewrite app_comm_cons. apply elem_of_app. by left. }
      rewrite asurvs_cons, alosts_cons. cbn [aptr]. rewrite addrss_cons in HZ, HP, HB. destruct (P kp) eqn:HPk.
      * (* it has a handle *)
        assert (kp ∈ Hs) as HkH. { apply HP; [|done]. apply elem_of_app. left. apply (aptr_addrs (AN kp kpl (Some ka) kks)). }
        apply elem_of_Permutation in HkH as (Hs1 & HH).
        destruct f as [|f]; [lia|].
        assert (Ek : forall D, rcs_loop (S f) (S D) B (rform kp kpl) (memZ Z (kp :: Hs1) s1) = Ok tt (memZ Z Hs1 s1)).
        { intros D. assert (kp ∉ Z) as HkZ by (apply HZ, elem_of_app; left; apply (aptr_addrs (AN kp kpl (Some ka) kks))).
          assert ((kp, kpl) ∈ infoss (AN kp kpl (Some ka) kks :: AN p pl (Some a) ks :: W)) as Hin by left.
          rewrite (keep_stack _ _ _ _ _ _ _ _ _ HI1 Hin HkZ). exact (drop_keep _ _ _ _ _ _ _ _ HI1 Hin HkZ). }
        destruct (IHp s1 (AN kp kpl (Some ka) kks :: W) p pl a ks Z Hs1) as (s2 & Hs2 & E2 & HI2 & HH2 & HW2 & L2 & F2 & S2 & K2); try done.
        { lia. } { eapply MInv_perm; [|exact HI1]. apply perm_swap. } { intros Hx. apply HpH. rewrite HH. by right. }
        { intros q Hq. apply HZ. apply elem_of_app. by right. }
        { intros q Hq. rewrite HP by (apply elem_of_app; by right). rewrite HH, elem_of_cons. split; [|tauto]. intros [->|?]; [|done].
          exfalso. apply (Hdis kp); [apply (aptr_addrs (AN kp kpl (Some ka) kks))|by right]. }
        { intros q Hq. apply HB. apply elem_of_app. by right. }
        { intros q Hq. assert (q ∈ Hs) as Hq' by (rewrite HH; by right). apply HW in Hq'. rewrite addrss_app, !addrss_cons in *. clear -Hq'. set_solver. }
        exists s2, Hs2. split.
        { intros D. rewrite Erd, (memZ_perm _ _ _ _ HH). rewrite aheights_cons. cbn [aptr]. rewrite HPk. destruct D as [|D]; [rewrite decide_False by lia; done|].
          unfold bind at 1. rewrite Ek, E2. destruct (decide (aheights P ks <= S D)); [by rewrite decide_True by lia|by rewrite decide_False by lia]. }
        split_and!; try done.
        -- eapply MInv_perm; [|exact HI2]. simpl. rewrite <-Permutation_middle. done.
        -- rewrite HH, HH2. done.
        -- intros q Hq. apply HW2 in Hq. rewrite !addrss_app, addrss_cons in *. change (addrss []) with (@nil ptr). clear -Hq. set_solver.
        -- by eapply shrinks_trans.
        -- intros q Hq. rewrite addrss_app, !addrss_cons, !elem_of_app. intros [?|?]; [left; by left|right]. by apply K2.
      * destruct (IHd s1 (AN p pl (Some a) ks :: W) (AN kp kpl (Some ka) kks) Z Hs) as (s2 & Hs2 & E2 & HI2 & HH2 & HW2 & L2 & F2 & S2 & K2); try done.
        { rewrite cntn_eq. lia. } { intros q Hq. apply HZ. apply elem_of_app. by left. } { intros q Hq. apply HP. apply elem_of_app. by left. }
        { intros q Hq. apply HB. apply elem_of_app. by left. }
        { intros q Hq. apply HW in Hq. rewrite !addrss_cons, addrs_eq, addrss_app, addrss_cons, addrs_eq in *. clear -Hq. set_solver. }
        cbn [aptr apl] in E2.
        assert (forall q, q ∈ addrss (asurv P (AN kp kpl (Some ka) kks)) -> q ∈ addrs (AN kp kpl (Some ka) kks)) as Hsub.
        { intros q. apply asurv_sub. }
        destruct (IHp s2 (asurv P (AN kp kpl (Some ka) kks) ++ W) p pl a ks Z Hs2) as (s3 & Hs3 & E3 & HI3 & HH3 & HW3 & L3 & F3 & S3 & K3); try done.
        { lia. } { eapply MInv_perm; [|exact HI2]. by rewrite <-Permutation_middle. } { intros Hx. apply HpH. rewrite HH2. apply elem_of_app. by right. }
        { intros q Hq. apply HZ. apply elem_of_app. by right. }
        { intros q Hq. rewrite HP by (apply elem_of_app; by right). rewrite HH2, elem_of_app. split; [|tauto]. intros [Hx|?]; [|done].
          exfalso. apply elem_of_list_fmap in Hx as (x & -> & Hx). apply (Hdis (aptr x)); [|by right]. apply Hsub. apply elem_of_list_In, in_flat_map.
          exists x. split; [by apply elem_of_list_In|]. apply elem_of_list_In, aptr_addrs. }
        { intros q Hq. apply HB. apply elem_of_app. by right. }
        { intros q Hq. assert (q <> p) as Hqp. { intros ->. apply HpH. rewrite HH2. apply elem_of_app. by right. }
          apply HW2 in Hq. rewrite !addrss_app, addrss_cons, addrs_eq in *. clear -Hq Hqp. set_solver. }
        exists s3, Hs3. split.
        { intros D. rewrite Erd. rewrite aheights_cons. cbn [aptr]. rewrite HPk. unfold bind at 1. rewrite E2.
          destruct (decide (aheight P (AN kp kpl (Some ka) kks) <= D)); [|by rewrite decide_False by lia].
          rewrite E3. destruct (decide (aheights P ks <= D)); [by rewrite decide_True by lia|by rewrite decide_False by lia]. }
        split_and!; try done.
        -- eapply MInv_perm; [|exact HI3]. f_equiv. rewrite !app_assoc. f_equiv. apply Permutation_app_comm.
        -- rewrite HH2, HH3, fmap_app, <-app_assoc. done.
        -- intros q Hq. apply HW3 in Hq. rewrite !addrss_app in *. clear -Hq. set_solver.
        -- rewrite L3, L2. by rewrite <-app_assoc.
        -- by rewrite F3, F2.
        -- eapply shrinks_trans; [|done]. by eapply shrinks_trans.
        -- intros q Hq. rewrite addrss_app, addrss_cons, !elem_of_app. intros [?|?]; [left; apply K2; [by apply S3|done]|right; by apply K3].
Qed.



Lemma bind_err_eq {X Y} (m : M A X) (k : X -> M A Y) s e : m s = Err e -> bind m k s = Err e.
Proof. intros E. unfold bind. by rewrite E. Qed.
(** with a bound: the same, or the stack overflows *)
Lemma seq_sim {X Y} (m m' : M A X) (k k' : X -> M A Y) s : (m s = Err EStack \/ m s = m' s) -> (forall x (t : mem A), k x t = Err EStack \/ k x t = k' x t) ->
  bind m k s = Err EStack \/ bind m k s = bind m' k' s.
Proof. intros [E|E] Hk; unfold bind; rewrite E; [by left|]. destruct (m' s) as [x t|e]; [apply Hk|by right]. Qed.
Lemma stack_sim f : (forall D B r s, rcs_loop (A:=A) f D B r s = Err EStack \/ rcs_loop f D B r s = rc_drop_loop f B r s) /\
  (forall D B r s, rcs_pops (A:=A) f D B r s = Err EStack \/ rcs_pops f D B r s = rc_pops f B r s).
Proof.
  induction f as [|f [IHd IHp]]; (split; intros D B r s; try (by right)).
  - destruct D as [|D]; [by left|]. destruct r as [p|v i].
    + rewrite rcs_scat, rc_drop_scat. apply seq_sim; [by right|]. intros c t. apply seq_sim; [|by right]. destruct (Nat.eqb c 1); [apply IHp|by right].
    + rewrite rcs_pile, rc_drop_pile. apply seq_sim; [by right|]. intros _ t. apply seq_sim; [by right|]. intros c u. apply seq_sim; [|by right].
      destruct (Nat.eqb c 0); [|by right]. apply seq_sim; [apply IHp|by right].
  - rewrite rcs_pops_S, rc_pops_S. apply seq_sim; [by right|]. intros _ t. apply seq_sim; [by right|]. intros [q|] u; [|by right].
    apply seq_sim; [by right|]. intros k w. apply seq_sim; [apply IHd|]. intros _ x. apply IHp.
Qed.

Lemma rheight_rep ψ (P : ptr -> bool) (P' : nat -> bool) av (t : ltree A) : (forall p i, ψ !! p = Some i -> P p = P' i) -> lrep ψ av t -> aheight P av = rheight P' t.
Proof.
  intros HP. revert av t. apply (lrep_ind' ψ). intros p pl a aks i ks Hi Hf IH. rewrite aheight_eq. cbn [rheight lkids]. f_equal. unfold aheights. clear Hi i a p.
  induction IH as [|k x aks ks Hk _ IHf]; [done|]. inversion Hf; subst. cbn [foldr]. rewrite IHf by done. rewrite (HP (aptr k) (lid x)) by by apply lrep_lid. by rewrite Hk.
Qed.

Lemma drop_stack_keep D B s W p pl Hs : MInvX s W [] -> (p, pl) ∈ infoss W ->
  rc_drop_stack D B (rform p pl) (addc (p :: Hs) s) = if decide (1 <= D) then rc_drop_handle B (rform p pl) (addc (p :: Hs) s) else Err EStack.
Proof.
  intros HI Hin. unfold rc_drop_stack, rc_drop_handle, bind, fuel, gets. cbn [m_heap addc adj]. fold (addc (p :: Hs) s). rewrite <-memZ_nil.
  change (2 * S (size (m_heap s))) with (S (size (m_heap s) + (S (size (m_heap s) + 0)))). destruct D as [|D]; [done|]. rewrite decide_True by lia.
  eapply keep_stack; [exact HI|exact Hin|apply not_elem_of_nil].
Qed.
Lemma drop_stack_release D B (P : ptr -> bool) s W t Hs : MInvX s (t :: W) [] -> full t -> P (aptr t) = false ->
  (forall q, q ∈ addrs t -> P q = true <-> q ∈ Hs) -> (forall q, q ∈ addrs t -> P q = false -> flag B q = 0%Z) ->
  (forall q, q ∈ Hs -> q ∈ addrss (t :: W)) ->
  rc_drop_stack D B (rform (aptr t) (apl t)) (addc Hs s) = if decide (aheight P t <= D) then rc_drop_handle B (rform (aptr t) (apl t)) (addc Hs s) else Err EStack.
Proof.
  intros HI Hfull HPt HP HB HW. unfold rc_drop_stack, rc_drop_handle, bind, fuel, gets. cbn [m_heap addc adj]. fold (addc Hs s). rewrite <-memZ_nil.
  destruct (release_stack B P (2 * S (size (m_heap s)))) as [Hd _].
  destruct (Hd s W t [] Hs) as (s' & Hs' & E & _); try done.
  - pose proof (MInv_size _ _ _ _ HI). lia.
  - intros q _. apply not_elem_of_nil.
  - pose proof (E D) as ED. destruct (decide (aheight P t <= D)) as [Hle|Hgt]; [|exact ED].
    destruct (proj1 (stack_sim (2 * S (size (m_heap s)))) D B (rform (aptr t) (apl t)) (memZ [] Hs s)) as [E2|E2]; [congruence|exact E2].
Qed.
End stack.

Section client.
Context {A : Type}.
Implicit Types (p q : ptr) (s : mem A) (W SH : list (atree A)) (Hs : list ptr) (ψ : gmap ptr nat) (c : rst A) (σ : rss A) (Wm : gmap nat (atree A)).
Local Notation trees Wm := ((map_to_list Wm).*2).
Ltac hnd HR h := let H := fresh "Hh" in pose proof (RI_handle HR h) as H;
  match type of H with match rs_h ?σ !! h with _ => _ end => let i := fresh "i" in destruct (rs_h σ !! h) as [i|] eqn:?;
    [destruct H as (p & pl & a & aks & S1 & S2 & D & L1 & L2 & C & ks & Hrh & HSH & Hsh & HS1 & HS2 & HD & Hi & Hks & Hfind & HI); rewrite Hrh, ?Hfind
    |rewrite H] end.

Lemma inv_drop_stack c σ Wm SH Hs s ψ h r i0 D0 : RInv c σ Wm SH Hs s ψ -> rs_h σ !! h = Some i0 -> h ∉ ((map_to_list (rs_g σ)).*2).*1 -> r_h c !! h = Some r ->
  rc_drop_stack D0 (r_b c) r (r_mem c) = if decide (drop_height σ h i0 <= D0) then rc_drop_handle (r_b c) r (r_mem c) else Err EStack.
Proof.
  intros HR. hnd HR h; [|discriminate]. intros [= <-] Hg [= <-]. pose proof Hg as Eg. rewrite <-(iv_gs _ _ _ _ _ _ _ HR) in Eg.
  pose proof (iv_h _ _ _ _ _ _ _ HR) as [Hh1 Hh2]. pose proof (held_in _ _ _ _ _ _ _ h p i HR Hi) as Hheld.
  pose proof (handle_perm _ _ _ Hrh) as HT. rewrite raddr_rform in HT. rewrite Hh2 in HT. set (T := raddr <$> trees (delete h (r_h c))) in *.
  pose proof (roots_nodup _ _ _ _ _ _ _ HR) as HNr.
  destruct (decide (p ∈ T \/ p ∉ aptr <$> SH)) as [Hkeep|Hrel].
  - assert (p ∈ Hs) as HpHs.
    { assert (p ∈ Hs ++ (aptr <$> SH)) as Hin by (rewrite HT; left). destruct (decide (p ∈ Hs)) as [?|Hn]; [done|]. apply elem_of_app in Hin as [?|Hin]; [done|]. destruct Hkeep as [Hk|?]; [|done].
      exfalso. apply elem_of_Permutation in Hin as [l Hl]. rewrite Hl in HT, HNr. rewrite <-Permutation_middle in HT. apply Permutation_cons_inv in HT. rewrite <-HT in Hk.
      apply NoDup_cons in HNr as [Hpl _]. apply elem_of_app in Hk as [?|?]; done. }
    apply elem_of_Permutation in HpHs as [Hs' HpHs].
    rewrite (iv_mem _ _ _ _ _ _ _ HR), (addc_perm _ _ _ HpHs).
    assert (drop_height σ h i = 1) as ->.
    { unfold drop_height. destruct (held (delete h (rs_h σ)) i) eqn:Eh; [done|]. destruct (filter (fun t => lid t = i) (rs_sh σ)) as [|u us] eqn:Ef; [done|]. exfalso.
      destruct Hkeep as [Hk|Hk]; [apply Hheld in Hk; congruence|]. apply Hk, (RI_root_iff _ _ _ _ _ _ _ _ _ HR Hi).
      assert (u ∈ filter (fun t => lid t = i) (rs_sh σ)) as Hu by (rewrite Ef; left). apply elem_of_list_filter in Hu as [<- Hu]. apply elem_of_list_fmap. by exists u. }
    eapply drop_stack_keep; [exact HI|]. rewrite infoss_cons, plug_infos. rewrite !elem_of_app. left. left. left.
  - assert (p ∉ T /\ p ∈ aptr <$> SH) as [HpT Hroot]. { destruct (decide (p ∈ T)), (decide (p ∈ aptr <$> SH)); tauto. } clear Hrel.
    assert (D = []) as ->.
    { destruct HD as [|fr fr' D' C' Hf HD']; [done|]. exfalso. apply (RI_root_iff _ _ _ _ _ _ _ _ _ HR Hi) in Hroot. pose proof (RI_nodup HR) as HN.
      revert Hroot. rewrite Hsh in *. destruct fr'. by apply (loc_isroot L1 L2 _ C' (LN i a ks)). }
    inversion HD; subst C. clear HD. cbn [plug lplug foldl] in *. set (t := AN p pl (Some a) aks) in *.
    change (plug [] t) with t in *.
    assert (T ≡ₚ Hs ++ (aptr <$> S1 ++ S2)) as HT2.
    { rewrite HSH, fmap_app, fmap_cons in HT. cbn [aptr] in HT. change (aptr t) with p in HT. apply (Permutation_cons_inv (a:=p)). rewrite <-HT, fmap_app. solve_Permutation. }
    assert (forall q, q ∈ T <-> q ∈ Hs \/ q ∈ aptr <$> S1 ++ S2) as HTin by (intros q; rewrite <-elem_of_app; apply elem_of_Permutation_proper; exact HT2).
    pose proof (RI_nodup_addrs HR) as HNa. set (P := fun q => bool_decide (q ∈ T)).
    assert (forall q, q ∈ addrs t -> q ∉ addrss (S1 ++ S2)) as Hdis.
    { intros q Hq Hx. assert (NoDup (addrss (t :: S1 ++ S2))) as HN2.
      { rewrite <-infoss_fst in HNa |- *. rewrite infoss_cons, infoss_app. rewrite HSH, infoss_app, infoss_cons in HNa. assert (infos t ++ infoss S1 ++ infoss S2 ≡ₚ infoss S1 ++ infos t ++ infoss S2) as HPm by solve_Permutation. by rewrite HPm. }
      rewrite addrss_cons in HN2. apply NoDup_app in HN2 as (_ & HN2 & _). by apply (HN2 q). }
    assert (forall q, q ∈ aptr <$> S1 ++ S2 -> q ∈ addrss (S1 ++ S2)) as Hroots.
    { intros q Hq. apply elem_of_list_fmap in Hq as (u & -> & Hu). apply elem_of_list_In, in_flat_map. exists u. split; [by apply elem_of_list_In|]. apply elem_of_list_In, aptr_addrs. }
    assert (lrep ψ t (LN i a ks)) as Htr by by constructor.
    assert (forall q j, ψ !! q = Some j -> P q = held (delete h (rs_h σ)) j) as HP.
    { intros q j Hj. pose proof (held_in _ _ _ _ _ _ _ h q j HR Hj) as Hx. fold T in Hx. unfold P. destruct (held (delete h (rs_h σ)) j).
      - apply bool_decide_eq_true. by apply Hx. - apply bool_decide_eq_false. intros Hq. apply Hx in Hq. done. }
    assert (drop_height σ h i = aheight P t) as ->.
    { unfold drop_height. rewrite <-(HP p i Hi). assert (P p = false) as -> by (apply bool_decide_eq_false; exact HpT). rewrite (rheight_rep ψ P _ t (LN i a ks) HP Htr).
      rewrite Hsh. pose proof (RI_nodup HR) as HN. rewrite Hsh in HN. rewrite lids_split in HN. apply NoDup_app in HN as (HN & _). rewrite fmap_app in HN. simpl in HN.
      apply NoDup_app in HN as (_ & N2 & _). rewrite filter_app. assert (filter (fun t : ltree A => lid t = i) L1 = []) as ->.
      { apply elem_of_nil_inv. intros u Hu. apply elem_of_list_filter in Hu as [<- Hu]. apply (N2 (lid u)); [apply elem_of_list_fmap; by exists u|left]. }
      rewrite app_nil_l, filter_cons_True by done. done. }
    rewrite (iv_mem _ _ _ _ _ _ _ HR). change (rform p pl) with (rform (aptr t) (apl t)). apply (drop_stack_release D0 (r_b c) P s (trees Wm ++ S1 ++ S2) t Hs).
    + exact HI.
    + by eapply lrep_full.
    + apply bool_decide_eq_false. exact HpT.
    + intros q Hq. unfold P. rewrite bool_decide_eq_true, HTin. split; [|tauto]. intros [?|Hx]; [done|]. exfalso. by apply (Hdis q Hq), Hroots.
    + intros q Hq HPq. apply bool_decide_eq_false in HPq. destruct (iv_g _ _ _ _ _ _ _ HR) as (_ & G2 & _). rewrite G2, (gons_none _ _ h q Eg HPq). done.
    + intros q Hq. apply (RI_Hs HR) in Hq. rewrite HSH in Hq. rewrite !addrss_cons, !addrss_app in *. rewrite addrss_cons in Hq. rewrite !elem_of_app in *. tauto.
Qed.
End client.

Lemma call_rc_drop_stack {A} (c : rst A) (σ : rss A) (h : nat) (r : rnode) (i D : nat) : reached c σ -> rs_h σ !! h = Some i -> h ∉ ((map_to_list (rs_g σ)).*2).*1 -> r_h c !! h = Some r ->
  rc_drop_stack D (r_b c) r (r_mem c) = if decide (drop_height σ h i <= D) then rc_drop_handle (r_b c) r (r_mem c) else Err EStack.
Proof.
  intros HR Hi Hg Hr. apply reached_RI in HR as (Wm & SH & Hs & s & ψ & HR). by eapply inv_drop_stack.
Qed.

(** a tall tree under shared ownership *)
Lemma rsrun_X {A} (os : list (op A)) : forall σ, rsrun σ (map SX os) = match srun (rs_x σ) os with Some (rs, x) => Some (rs, set_x σ x) | None => None end.
Proof.
  induction os as [|o os IH]; intros σ; [by destruct σ|]. cbn [map rsrun srun rsstep]. destruct (sstep (rs_x σ) o) as [[r x]|]; [|done]. rewrite IH. cbn [set_x rs_x].
  by destruct (srun x os) as [[rs y]|].
Qed.
Lemma allowed_X (os : list (op nat)) (o : rop nat) : op_allowedb rst0 rss0 o = true -> (forall c σ, op_allowedb c σ o = true) -> forall c σ, allowedb c σ (map SX os ++ [o]) = true.
Proof.
  intros _ Ho. induction os as [|x os IH]; intros c σ; cbn [map app allowedb].
  - rewrite Ho. cbn. destruct (rstep c o) as [? ?|]; [|done]. by destruct (rsstep σ o) as [[? ?]|].
  - cbn [op_allowedb andb]. destruct (rstep c (SX x)) as [? ?|]; [|done]. by destruct (rsstep σ (SX x)) as [[? ?]|].
Qed.
Lemma tall_rheight n k : rheight (fun _ => false) (label k (tall n)) = S n.
Proof. revert k. induction n as [|n IH]; intros k; [done|]. cbn [tall label]. cbn [rheight lkids foldr]. rewrite IH. lia. Qed.
Lemma rc_stack_overflows D : exists (c : rst nat) (σ : rss nat) (h : nat) (r : rnode) (i : nat), reached c σ /\ rs_h σ !! h = Some i /\ rs_g σ = ∅ /\ r_h c !! h = Some r /\
  rc_drop_stack D (r_b c) r (r_mem c) = Err EStack.
Proof.
  destruct (tall_run D) as [rs E]. set (os := map SX (tall_ops D) ++ [SFrom D 0]).
  assert (exists rs' σ, rsrun rss0 os = Some (rs', σ) /\ rs_h σ = {[0 := 0]} /\ rs_g σ = ∅ /\ rs_sh σ = [label 0 (tall D)]) as (rs' & σ & E2 & Hh & Hg & Hsh).
  { unfold os. clear os. assert (forall os1 os2 (σ : rss nat), rsrun σ (os1 ++ os2) = match rsrun σ os1 with Some (r1, σ1) => match rsrun σ1 os2 with Some (r2, σ2) => Some (r1 ++ r2, σ2) | None => None end | None => None end) as Happ.
    { induction os1 as [|o os1 IH]; intros os2 σ; simpl; [by destruct (rsrun σ os2) as [[? ?]|]|]. destruct (rsstep σ o) as [[? σ1]|]; [|done]. rewrite IH.
      destruct (rsrun σ1 os1) as [[? σ2]|]; [|done]. by destruct (rsrun σ2 os2) as [[? ?]|]. }
    rewrite Happ, rsrun_X. change (rs_x (@rss0 nat)) with (@sst0 nat). rewrite E. cbn [rsrun rsstep set_x rs_h rss0]. rewrite lookup_empty. unfold env_of, set_x. cbn [rs_x s_env]. rewrite lookup_singleton.
    do 2 eexists. split; [reflexivity|]. done. }
  assert (reached (after_c os) (after_s os)) as HR by (apply after_reached; [apply allowed_X; done|rewrite E2; eauto]).
  unfold after_s in HR. rewrite E2 in HR. pose proof HR as (Wm & SH & Hs & s & ψ & HI)%reached_RI. assert (rs_h σ !! 0 = Some 0) as H0 by (by rewrite Hh, lookup_singleton).
  pose proof (RI_handle HI 0) as Hx. rewrite H0 in Hx. destruct Hx as (p & pl & a & aks & S1 & S2 & D' & L1 & L2 & C & ks & Hrh & _).
  exists (after_c os), σ, 0, (rform p pl), 0. split_and!; [done|done|done|done|].
  rewrite (call_rc_drop_stack _ σ 0 _ 0); [|done|done|rewrite Hg, map_to_list_empty; apply not_elem_of_nil|done].
  rewrite decide_False; [done|]. unfold drop_height. rewrite Hh, delete_singleton, Hsh. assert (forall j, held ∅ j = false) as Hheld.
  { intros j. unfold held. rewrite map_to_list_empty. apply bool_decide_eq_false, not_elem_of_nil. }
  rewrite Hheld. assert (lid (label 0 (tall D)) = 0) as Hl by (by destruct D). rewrite filter_cons_True by done.
  assert (forall t : ltree nat, rheight (held ∅) t = rheight (fun _ => false) t) as Hrt.
  { intros t. reflexivity. }
  rewrite Hrt, tall_rheight. lia.
Qed.
