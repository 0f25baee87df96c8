(** RcRef.v — the invariant of the reference-counting client. *)
From stdpp Require Import base gmap list sorting.
From Verif Require Import Spec ClientSpec RcSpec Machine NodeModel BfsModel ClientModel RcModel Sep Rep NodeProofs Inv Abs ClientProofs ClientRef ClientProps CountFrame RcRelease RcLab.

Section ref.
Context {A : Type}.
Implicit Types (p q : ptr) (s : mem A) (W SH : list (atree A)) (Hs : list ptr) (ψ : gmap ptr nat) (c : rst A) (σ : rss A) (Wm : gmap nat (atree A)) (C : ctx A).
Local Notation REnv F := (@ClientRef.REnv A F []).
Local Notation trees Wm := ((map_to_list Wm).*2).

Definition idm s SH ψ (n : nat) : Prop :=
  inj ψ /\ below ψ n /\ forall p i, ψ !! p = Some i -> p.1 < m_fresh s /\ (is_Some (m_heap s !! p) -> p ∈ addrss SH).
Definition hok SH ψ (r : rnode) (i : nat) : Prop := exists p pl, r = rform p pl /\ (p, pl) ∈ infoss SH /\ ψ !! p = Some i.
Definition hrel (H : gmap nat rnode) (S : gmap nat nat) SH Hs ψ : Prop :=
  (forall h, option_Forall2 (hok SH ψ) (H !! h) (S !! h)) /\ raddr <$> trees H ≡ₚ Hs ++ (aptr <$> SH).
Definition wrel (H : gmap nat wnode) (S : gmap nat nat) s ψ : Prop :=
  forall w, option_Forall2 (fun x i => exists p, x = WScat p /\ ψ !! p = Some i /\ m_vec s !! p.1 = None) (H !! w) (S !! w).
(** the guards on a node, by address *)
Definition gons (H : gmap nat rnode) (G : gmap nat (nat * bool)) p : list bool :=
  omap (fun hm : nat * bool => if decide (raddr <$> H !! hm.1 = Some p) then Some hm.2 else None) (map_to_list G).*2.
Definition gflag (l : list bool) : Z := if decide (true ∈ l) then (-1)%Z else Z.of_nat (length l).
Definition grel (H : gmap nat rnode) (G : gmap nat (nat * bool)) (B : borrows) : Prop :=
  (forall g h m, G !! g = Some (h, m) -> is_Some (H !! h)) /\ (forall p, flag B p = gflag (gons H G p)) /\
  (forall p, true ∈ gons H G p -> gons H G p = [true]).
Definition irel (I : gmap nat citer) (S : gmap nat (option nat * nat)) ψ : Prop :=
  forall it, option_Forall2 (fun x y => option_Forall2 (fun p i => ψ !! p = Some i) (ci_curr x) y.1 /\ ci_len x = y.2) (I !! it) (S !! it).

Record RInv c σ Wm SH Hs s ψ : Prop := {
  iv_mem : r_mem c = addc Hs s;
  iv_env : REnv SH s (r_env c) (env_of σ) Wm;
  iv_log : m_log s = s_log (rs_x σ);
  iv_sh : Forall2 (lrep ψ) SH (rs_sh σ);
  iv_id : idm s SH ψ (rs_next σ);
  iv_h : hrel (r_h c) (rs_h σ) SH Hs ψ;
  iv_w : wrel (r_w c) (rs_w σ) s ψ;
  iv_g : grel (r_h c) (r_g c) (r_b c);
  iv_gs : r_g c = rs_g σ;
  iv_it : irel (r_it c) (rs_it σ) ψ
}.
Definition RI c σ : Prop := exists Wm SH Hs s ψ, RInv c σ Wm SH Hs s ψ.

(** * Maps *)
Lemma opt_rel_insert {X Y} (R : X -> Y -> Prop) (m : gmap nat X) (m' : gmap nat Y) k x y :
  (forall h, option_Forall2 R (m !! h) (m' !! h)) -> R x y -> forall h, option_Forall2 R (<[k := x]> m !! h) (<[k := y]> m' !! h).
Proof. intros H Hr h. destruct (decide (k = h)) as [<-|Hne]; [rewrite !lookup_insert; by constructor|]. by rewrite !lookup_insert_ne. Qed.
Lemma opt_rel_delete {X Y} (R : X -> Y -> Prop) (m : gmap nat X) (m' : gmap nat Y) k :
  (forall h, option_Forall2 R (m !! h) (m' !! h)) -> forall h, option_Forall2 R (delete k m !! h) (delete k m' !! h).
Proof. intros H h. destruct (decide (k = h)) as [<-|Hne]; [rewrite !lookup_delete; by constructor|]. by rewrite !lookup_delete_ne. Qed.
Lemma opt_rel_mono {X Y} (R R' : X -> Y -> Prop) (m : gmap nat X) (m' : gmap nat Y) :
  (forall x y, R x y -> R' x y) -> (forall h, option_Forall2 R (m !! h) (m' !! h)) -> forall h, option_Forall2 R' (m !! h) (m' !! h).
Proof. intros HR H h. destruct (H h); constructor; auto. Qed.
Lemma opt_rel_look {X Y} (R : X -> Y -> Prop) (m : gmap nat X) (m' : gmap nat Y) k : (forall h, option_Forall2 R (m !! h) (m' !! h)) ->
  match m' !! k with Some y => exists x, m !! k = Some x /\ R x y | None => m !! k = None end.
Proof. intros H. specialize (H k). inversion H; eauto. Qed.
Lemma trees_insert {X} (m : gmap nat X) k x : m !! k = None -> trees (<[k := x]> m) ≡ₚ x :: trees m.
Proof. intros H. by rewrite (map_to_list_insert _ _ _ H). Qed.
Lemma trees_delete {X} (m : gmap nat X) k x : m !! k = Some x -> trees m ≡ₚ x :: trees (delete k m).
Proof. intros H. by rewrite <-(map_to_list_delete _ _ _ H). Qed.

(** * Monotonicity *)
Definition evolves s s' : Prop := m_fresh s <= m_fresh s' /\
  (forall b, b < m_fresh s -> is_Some (m_vec s' !! b) -> is_Some (m_vec s !! b)) /\
  (forall p, p.1 < m_fresh s -> is_Some (m_heap s' !! p) -> is_Some (m_heap s !! p)).
Lemma evolves_refl s : evolves s s.
Proof. done. Qed.
Lemma comm_evolves {X} (m : M A X) s x s' : comm m -> m s = Ok x s' -> evolves s s'.
Proof. intros Hc E. destruct (Hc _ _ _ E) as (?&?&?&_). done. Qed.
Lemma extends_refl ψ n ps : inj ψ -> below ψ n -> extends ψ ψ n ps 0.
Proof. intros Hi Hb. split_and!; [done|done|by rewrite Nat.add_0_r|]. tauto. Qed.

Lemma idm_grow s s' SH SH' ψ ψ' n m ps : idm s SH ψ n -> evolves s s' -> extends ψ ψ' n ps m ->
  (forall p, p ∈ ps -> p.1 < m_fresh s') -> (forall p, p ∈ addrss SH \/ p ∈ ps -> p ∈ addrss SH') -> idm s' SH' ψ' (n + m).
Proof.
  intros (Hi & Hb & Hd) (F & _ & P) (E1 & E2 & E3 & E4) Hps HSH. split_and!; [done|done|]. intros p i Hp.
  destruct (E4 p i Hp) as [Hp'|Hp']; [|by split; [apply Hps|intros _; apply HSH; right]].
  destruct (Hd p i Hp') as [H1 H2]. split; [lia|]. intros Hh. apply HSH. left. apply H2. by apply P.
Qed.
Lemma idm_same s s' SH SH' ψ n : idm s SH ψ n -> evolves s s' -> (forall p, p ∈ addrss SH -> p ∈ addrss SH') -> idm s' SH' ψ n.
Proof.
  intros Hid He HSH. rewrite <-(Nat.add_0_r n). destruct Hid as (Hi&Hb&Hd) eqn:E. eapply (idm_grow _ _ _ _ _ _ _ _ []); [exact Hid|done|by apply extends_refl| |].
  - intros p Hp. by apply elem_of_nil in Hp.
  - intros p [Hp|Hp]; [auto|by apply elem_of_nil in Hp].
Qed.
Lemma hok_mono SH SH' ψ ψ' r i : (forall x, x ∈ infoss SH -> x ∈ infoss SH') -> ψ ⊆ ψ' -> hok SH ψ r i -> hok SH' ψ' r i.
Proof. intros H1 H2 (p & pl & -> & Hp & Hi). exists p, pl. split_and!; [done|auto|]. by eapply lookup_weaken. Qed.
Lemma hrel_mono H S SH SH' Hs Hs' ψ ψ' : hrel H S SH Hs ψ -> (forall x, x ∈ infoss SH -> x ∈ infoss SH') -> ψ ⊆ ψ' ->
  Hs ++ (aptr <$> SH) ≡ₚ Hs' ++ (aptr <$> SH') -> hrel H S SH' Hs' ψ'.
Proof. intros [H1 H2] Hx Hy Hp. split; [|by rewrite H2]. eapply opt_rel_mono; [|exact H1]. intros ??. by apply hok_mono. Qed.
Lemma hrel_new H S SH SH' Hs Hs' ψ ψ' h p pl i : hrel H S SH Hs ψ -> (forall x, x ∈ infoss SH -> x ∈ infoss SH') -> ψ ⊆ ψ' ->
  p :: Hs ++ (aptr <$> SH) ≡ₚ Hs' ++ (aptr <$> SH') -> H !! h = None -> (p, pl) ∈ infoss SH' -> ψ' !! p = Some i ->
  hrel (<[h := rform p pl]> H) (<[h := i]> S) SH' Hs' ψ'.
Proof.
  intros [H1 H2] Hx Hy Hp Hh Hin Hi. split.
  - apply opt_rel_insert; [|by exists p, pl]. eapply opt_rel_mono; [|exact H1]. intros ??. by apply hok_mono.
  - rewrite trees_insert by done. rewrite fmap_cons, raddr_rform, H2. done.
Qed.
Lemma wrel_mono H S s s' SH ψ ψ' n : wrel H S s ψ -> idm s SH ψ n -> evolves s s' -> ψ ⊆ ψ' -> wrel H S s' ψ'.
Proof.
  intros Hw (_&_&Hd) (F & V & _) Hs. refine (opt_rel_mono _ _ _ _ _ Hw). simpl. intros x i (p & -> & Hp & Hv). exists p. split_and!; [done|by eapply lookup_weaken|].
  destruct (m_vec s' !! p.1) eqn:E; [|done]. destruct (Hd p i Hp) as [Hlt _]. destruct (V p.1 Hlt) as [? ?]; [eauto|congruence].
Qed.
Lemma irel_mono I S ψ ψ' : irel I S ψ -> ψ ⊆ ψ' -> irel I S ψ'.
Proof.
  intros Hi Hs. refine (opt_rel_mono _ _ _ _ _ Hi). simpl. intros x y [H1 H2]. split; [|done]. destruct H1; constructor. by eapply lookup_weaken.
Qed.
Lemma omap_ext_F {X Y} (f g : X -> option Y) (l : list X) : Forall (fun x => f x = g x) l -> omap f l = omap g l.
Proof. induction 1 as [|x l Hx _ IH]; [done|]. cbn. rewrite Hx. destruct (g x); [f_equal|]; exact IH. Qed.
Lemma gons_insert H G p h r : (forall g h' m, G !! g = Some (h', m) -> h' <> h) -> gons (<[h := r]> H) G p = gons H G p.
Proof.
  intros Hg. unfold gons. assert (Forall (fun hm : nat * bool => hm.1 <> h) (map_to_list G).*2) as HF.
  { apply Forall_forall. intros [h' m] Hx. apply elem_of_list_fmap in Hx as ([g [h2 m2]] & Heq & Hx). simpl in Heq. simplify_eq.
    apply elem_of_map_to_list in Hx. simpl. by eapply Hg. }
  apply omap_ext_F. eapply Forall_impl; [exact HF|]. simpl. intros [h' m] Hx. simpl in *. by rewrite lookup_insert_ne by done.
Qed.
Lemma gons_delete H G p h : (forall g h' m, G !! g = Some (h', m) -> h' <> h) -> gons (delete h H) G p = gons H G p.
Proof.
  intros Hg. unfold gons. assert (Forall (fun hm : nat * bool => hm.1 <> h) (map_to_list G).*2) as HF.
  { apply Forall_forall. intros [h' m] Hx. apply elem_of_list_fmap in Hx as ([g [h2 m2]] & Heq & Hx). simpl in Heq. simplify_eq.
    apply elem_of_map_to_list in Hx. simpl. by eapply Hg. }
  apply omap_ext_F. eapply Forall_impl; [exact HF|]. simpl. intros [h' m] Hx. simpl in *. by rewrite lookup_delete_ne by done.
Qed.
Lemma grel_new H G B h r : grel H G B -> H !! h = None -> grel (<[h := r]> H) G B.
Proof.
  intros (G1 & G2 & G3) Hh. assert (forall g h' m, G !! g = Some (h', m) -> h' <> h) as Hne.
  { intros g h' m Hg ->. destruct (G1 _ _ _ Hg). congruence. }
  split_and!.
  - intros g h' m Hg. rewrite lookup_insert_ne; [by eapply G1|]. intros ->. by apply (Hne _ _ _ Hg).
  - intros p. rewrite gons_insert by exact Hne. apply G2.
  - intros p. rewrite gons_insert by exact Hne. apply G3.
Qed.
Lemma grel_del H G B h : grel H G B -> (forall g h' m, G !! g = Some (h', m) -> h' <> h) -> grel (delete h H) G B.
Proof.
  intros (G1 & G2 & G3) Hne. split_and!.
  - intros g h' m Hg. rewrite lookup_delete_ne; [by eapply G1|]. intros ->. by apply (Hne _ _ _ Hg).
  - intros p. rewrite gons_delete by exact Hne. apply G2.
  - intros p. rewrite gons_delete by exact Hne. apply G3.
Qed.

Lemma REnv_F SH SH' s s' env senv Wm : REnv SH s env senv Wm -> MInvX s' (trees Wm ++ SH') [] -> REnv SH' s' env senv Wm.
Proof. intros [_ He Hr] HI. by split. Qed.
Lemma REnv_F_del SH SH' s s' env senv Wm y : REnv SH s env senv Wm -> MInvX s' (trees (delete y Wm) ++ SH') [] ->
  REnv SH' s' (delete y env) (delete y senv) (delete y Wm).
Proof.
  intros [_ He Hr] HI. split; [done|by rewrite He, fmap_delete|]. intros h. destruct (decide (y = h)) as [->|Hne]; [rewrite !lookup_delete; constructor|].
  by rewrite !lookup_delete_ne.
Qed.

(** * Consequences *)
Section inv.
Context {c σ Wm SH Hs s ψ} (HR : RInv c σ Wm SH Hs s ψ).
Lemma RI_minv : MInvX s (trees Wm ++ SH) [].
Proof. exact (re_inv _ _ _ _ (iv_env _ _ _ _ _ _ _ HR)). Qed.
Lemma RI_nodup_addrs : NoDup (addrss SH).
Proof. pose proof (MInv_nodup _ _ _ RI_minv) as H. rewrite addrss_app in H. by apply NoDup_app in H as (_&_&?). Qed.
Lemma RI_nodup : NoDup (lids (rs_sh σ)).
Proof. eapply ids_nodup; [apply (iv_id _ _ _ _ _ _ _ HR)|apply lreps_ids, (iv_sh _ _ _ _ _ _ _ HR)|apply RI_nodup_addrs]. Qed.
Lemma RI_Hs p : p ∈ Hs -> p ∈ addrss SH.
Proof.
  intros Hp. destruct (iv_h _ _ _ _ _ _ _ HR) as [H1 H2]. assert (p ∈ raddr <$> trees (r_h c)) as Hq by (rewrite H2; apply elem_of_app; by left).
  apply elem_of_list_fmap in Hq as (r & -> & Hr). apply elem_of_list_fmap in Hr as ([h r'] & Heq & Hr). simpl in Heq. subst r'. apply elem_of_map_to_list in Hr.
  specialize (H1 h). rewrite Hr in H1. inversion H1 as [? i (q & pl & -> & Hq & _)|]; subst. rewrite raddr_rform. rewrite infoss_addrss. eauto.
Qed.
Lemma RI_alive p : p ∈ addrss SH -> p.1 < m_fresh s /\ is_Some (m_heap s !! p).
Proof.
  intros Hp. assert (is_Some (m_heap s !! p)) as Hh.
  { apply infoss_addrss in Hp as [pl Hp]. eapply (alive_heap _ _ p pl RI_minv). rewrite infoss_app. apply elem_of_app. by right. }
  split; [|done]. eapply MInv_fresh; [apply RI_minv|done].
Qed.
Lemma RI_lift {X} (m : M A X) x s' W' : comm m -> m s = Ok x s' -> MInvX s' W' [] -> (forall p, p ∈ addrss SH -> p ∈ addrss W') ->
  m (r_mem c) = Ok x (addc Hs s').
Proof.
  intros Hc E HI HW. rewrite (iv_mem _ _ _ _ _ _ _ HR). destruct (Hc _ _ _ E) as (_&_&_&H). apply H. apply Forall_forall. intros p Hp.
  apply RI_Hs in Hp. split; [by apply RI_alive|]. apply HW in Hp. apply infoss_addrss in Hp as [pl Hp]. by eapply alive_heap.
Qed.
Lemma gons_guards p i : ψ !! p = Some i -> gons (r_h c) (r_g c) p = guards_on (rs_h σ) (rs_g σ) i.
Proof.
  intros Hp. rewrite (iv_gs _ _ _ _ _ _ _ HR). unfold gons, guards_on. apply omap_ext_F. apply Forall_true. intros [h m]. simpl.
  pose proof (opt_rel_look _ _ _ h (proj1 (iv_h _ _ _ _ _ _ _ HR))) as Hh. destruct (rs_h σ !! h) as [j|] eqn:E.
  - destruct Hh as (r & Hr & q & pl & -> & Hq & Hj). rewrite Hr. simpl. rewrite raddr_rform. destruct (decide (q = p)) as [->|Hne].
    + by rewrite !decide_True by congruence.
    + rewrite !decide_False; [done| |congruence]. intros [= ->]. apply Hne. by eapply (proj1 (iv_id _ _ _ _ _ _ _ HR)).
  - rewrite Hh. repeat (destruct (decide _); try done).
Qed.
Lemma flag_readable p i : ψ !! p = Some i -> bool_decide (flag (r_b c) p < 0)%Z = negb (readable σ i).
Proof.
  intros Hp. destruct (iv_g _ _ _ _ _ _ _ HR) as (_ & H2 & _). rewrite H2, (gons_guards p i Hp). unfold readable, gflag.
  destruct (decide (true ∈ guards_on (rs_h σ) (rs_g σ) i)).
  - rewrite bool_decide_true by lia. rewrite bool_decide_false by tauto. done.
  - rewrite bool_decide_false by lia. rewrite bool_decide_true by done. done.
Qed.
Lemma flag_writable p i : ψ !! p = Some i -> bool_decide (flag (r_b c) p <> 0)%Z = negb (writable σ i).
Proof.
  intros Hp. destruct (iv_g _ _ _ _ _ _ _ HR) as (_ & H2 & _). rewrite H2, (gons_guards p i Hp). unfold writable, gflag.
  destruct (guards_on (rs_h σ) (rs_g σ) i) as [|b l].
  - rewrite decide_False by apply not_elem_of_nil. done.
  - rewrite (bool_decide_false (_ :: _ = [])) by done. rewrite bool_decide_true; [done|]. destruct (decide _); simpl; lia.
Qed.

(** the node of an [RcNode] variable *)
Lemma RI_handle h : match rs_h σ !! h with
  | None => r_h c !! h = None
  | Some i => exists p pl a aks S1 S2 D L1 L2 (C : list lframe) ks, r_h c !! h = Some (rform p pl) /\
     SH = S1 ++ plug D (AN p pl (Some a) aks) :: S2 /\ rs_sh σ = L1 ++ lplug C (LN i a ks) :: L2 /\
     Forall2 (lrep ψ) S1 L1 /\ Forall2 (lrep ψ) S2 L2 /\ Forall2 (frep ψ) D C /\ ψ !! p = Some i /\ Forall2 (lrep ψ) aks ks /\
     lfind i (rs_sh σ) = Some (LN i a ks) /\ MInvX s (plug D (AN p pl (Some a) aks) :: trees Wm ++ S1 ++ S2) []
  end.
Proof.
  pose proof (opt_rel_look _ _ _ h (proj1 (iv_h _ _ _ _ _ _ _ HR))) as Hh. destruct (rs_h σ !! h) as [i|]; [|done].
  destruct Hh as (r & Hr & p & pl & -> & Hp & Hi).
  destruct (locate ψ SH (rs_sh σ) p) as (S1 & S2 & D & av & L1 & L2 & C & t & HSH & Hsh & Ha & HS1 & HS2 & HD & Ht).
  { apply (iv_sh _ _ _ _ _ _ _ HR). } { rewrite infoss_addrss. eauto. }
  destruct Ht as [p' pl' a aks i' ks Hi' Hks]. simpl in Ha. subst p'. assert (i' = i) as -> by congruence.
  assert (pl' = pl) as ->.
  { pose proof RI_nodup_addrs as HN. rewrite <-infoss_fst in HN. assert ((p, pl') ∈ infoss SH) as Hp'.
    { rewrite HSH, infoss_app, infoss_cons, plug_infos. rewrite !elem_of_app. right. left. left. left. }
    apply elem_of_list_lookup in Hp as [x Hx]. apply elem_of_list_lookup in Hp' as [y Hy].
    assert (x = y) as ->. { eapply NoDup_lookup; [exact HN| |]; rewrite list_lookup_fmap, ?Hx, ?Hy; done. } congruence. }
  exists p, pl, a, aks, S1, S2, D, L1, L2, C, ks. split_and!; try done.
  - pose proof RI_nodup as HN. rewrite Hsh in *. by apply (loc_find L1 L2 C (LN i a ks)).
  - eapply MInv_perm; [|apply RI_minv]. rewrite HSH. solve_Permutation.
Qed.
End inv.

(** * Borrows *)
Lemma acquire_ok s C p pl a ks W (f : ptr -> nat -> nat) g : MInvX s (plug C (AN p pl (Some a) ks) :: W) [] -> acquire (rform p pl) (adj f g s) = Ok tt (adj f g s).
Proof.
  intros HI. destruct pl; [|done]. destruct (alive_vec s _ p HI) as (cap & rc & Hv & _).
  { rewrite infoss_cons, plug_infos. rewrite !elem_of_app. left. left. left. }
  simpl. unfold vec_ref. simpl. by rewrite map_lookup_imap, Hv.
Qed.
Lemma borrow_eq B s C p pl a ks W (f : ptr -> nat -> nat) g : MInvX s (plug C (AN p pl (Some a) ks) :: W) [] ->
  node_borrow B (rform p pl) (adj f g s) = if bool_decide (flag B p < 0)%Z then Err EPanic else Ok tt (adj f g s).
Proof.
  intros HI. unfold node_borrow, bind. rewrite (acquire_ok _ _ _ _ _ _ _ _ _ HI). rewrite raddr_rform. unfold get. cbn [m_heap adj].
  rewrite (lookup_at _ _ _ _ _ _ _ _ HI). by destruct (bool_decide _), pl.
Qed.
Lemma borrow_mut_eq B s C p pl a ks W (f : ptr -> nat -> nat) g : MInvX s (plug C (AN p pl (Some a) ks) :: W) [] ->
  node_borrow_mut B (rform p pl) (adj f g s) = if bool_decide (flag B p <> 0)%Z then Err EPanic else Ok tt (adj f g s).
Proof.
  intros HI. unfold node_borrow_mut, bind. rewrite (acquire_ok _ _ _ _ _ _ _ _ _ HI). rewrite raddr_rform. unfold get. cbn [m_heap adj].
  rewrite (lookup_at _ _ _ _ _ _ _ _ HI). by destruct (bool_decide _), pl.
Qed.
End ref.
