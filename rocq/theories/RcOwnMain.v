(** RcOwnMain.v — a drop whose values drop further handles does what a run of ordinary operations does. *)
From stdpp Require Import base gmap list.
From Verif Require Import Spec ClientSpec RcSpec Machine NodeModel BfsModel ClientModel RcModel RcAllowed RcClient Sep Rep NodeProofs Inv Abs ClientProofs ClientRef ClientProps CountFrame
  RcRelease RcLab RcRef RcStep RcStep2 RcStep3 RcStep4 RcProps RcProps2 CounterSpec CounterProofs RcOwnModel RcOwnSpec RcOwnProofs RcOwnStep.

Section main.
Context {A : Type} (own : A -> list nat).
Implicit Types (p : ptr) (s : mem A) (c : rst A) (σ : rss A) (Z : list ptr) (N Q E Dn : list nat) (P D PX : list (nat * A)) (H : gmap nat rnode) (ts : list (ltree A)).

Definition pairs ts : list (nat * A) := (fun t => (lid t, lval t)) <$> lall ts.
Lemma pairs_app ts ts' : pairs (ts ++ ts') = pairs ts ++ pairs ts'.
Proof. unfold pairs. by rewrite lall_app, fmap_app. Qed.
Lemma pairs_cons i a ks ts : pairs (LN i a ks :: ts) = (i, a) :: pairs ks ++ pairs ts.
Proof. unfold pairs. by rewrite lall_cons, lsubs_eq, fmap_app. Qed.
Lemma pairs_ids ts : (pairs ts).*1 = lids ts.
Proof. unfold pairs, lids. rewrite <-list_fmap_compose. done. Qed.
Lemma pairs_vals ts : (pairs ts).*2 = lval <$> lall ts.
Proof. unfold pairs. rewrite <-list_fmap_compose. done. Qed.
Definition nr ts : nat := length (lall (flat_map lkids ts)).
Lemma nr_app ts ts' : nr (ts ++ ts') = nr ts + nr ts'.
Proof. unfold nr. by rewrite flat_map_app, lall_app, app_length. Qed.
Lemma nr_cons i a ks ts : nr (LN i a ks :: ts) = length (lall ks) + nr ts.
Proof. unfold nr. simpl. by rewrite lall_app, app_length. Qed.

Definition ow D : list nat := flat_map own D.*2.
Lemma ow_app D D' : ow (D ++ D') = ow D ++ ow D'.
Proof. unfold ow. by rewrite fmap_app, flat_map_app. Qed.
Lemma ow_cons x D : ow (x :: D) = own x.2 ++ ow D.
Proof. done. Qed.
Lemma flat_map_perm {X Y} (f : X -> list Y) l l' : l ≡ₚ l' -> flat_map f l ≡ₚ flat_map f l'.
Proof. induction 1; simpl; [done|by f_equiv|solve_Permutation|by etrans]. Qed.
Lemma ow_perm D D' : D ≡ₚ D' -> ow D ≡ₚ ow D'.
Proof. intros Hp. unfold ow. apply flat_map_perm. by rewrite Hp. Qed.

Record St c σ N Z PX P Q : Prop := {
  st_r : reached c σ; st_g : rs_g σ = ∅;
  st_pin : forall m, m ∈ N -> exists i, pinned σ m i;
  st_z : forall z, z ∈ Z -> exists m r, m ∈ N /\ r_h c !! m = Some r /\ raddr r = z;
  st_px : forall x, x ∈ PX -> exists m, m ∈ N /\ rs_h σ !! m = Some x.1;
  st_p : pairs (rs_sh σ) ≡ₚ PX ++ P;
  st_nd : NoDup (ow P ++ Q);
  st_in : forall g, g ∈ ow P ++ Q -> g ∉ N /\ is_Some (rs_h σ !! g)
}.
Record Rel E Dn D c σ c' σ' : Prop := {
  rl_c : c' = set_rh (set_mem c (r_mem c')) (r_h c');
  rl_x : env_of σ' = env_of σ; rl_g : rs_g σ' = rs_g σ;
  rl_h : forall g, rs_h σ' !! g = if decide (g ∈ Dn) then None else rs_h σ !! g;
  rl_rh : forall g, r_h c' !! g = if decide (g ∈ Dn) then None else r_h c !! g;
  rl_log : s_log (rs_x σ') ≡ₚ s_log (rs_x σ) ++ D.*2;
  rl_nr : nr (rs_sh σ') <= nr (rs_sh σ);
  rl_sub : forall i, i ∈ lids (rs_sh σ') -> i ∈ lids (rs_sh σ);
  rl_root : forall i, i ∈ lid <$> rs_sh σ -> i ∈ lids (rs_sh σ') -> i ∈ lid <$> rs_sh σ';
  rl_find : forall g i, g ∉ E -> rs_h σ' !! g = Some i -> lfind i (rs_sh σ') = lfind i (rs_sh σ)
}.
Definition tab N c H : Prop := forall g, H !! g = if decide (g ∈ N) then None else r_h c !! g.

(** when a value is dropped, every handle at or above its node has been dropped: it is one of [G] or of a value dropped before *)
Definition Just σ (G : list nat) D : Prop := forall D1 x D2, D = D1 ++ x :: D2 -> forall g j t, rs_h σ !! g = Some j -> lfind j (rs_sh σ) = Some t -> x.1 ∈ lid <$> lsubs t -> g ∈ G ++ ow D1.
Lemma Just_nil σ G : Just σ G [].
Proof. intros [|??] x D2; done. Qed.
Lemma Just_mono σ G G' D : Just σ G D -> (forall g, g ∈ G -> g ∈ G') -> Just σ G' D.
Proof. intros HJ HG D1 x D2 HD g j t Hg Ht Hx. pose proof (HJ D1 x D2 HD g j t Hg Ht Hx) as Hin. apply elem_of_app in Hin. apply elem_of_app. naive_solver. Qed.
Lemma Just_app σ G D1 D2 : Just σ G D1 -> Just σ (G ++ ow D1) D2 -> Just σ G (D1 ++ D2).
Proof.
  intros H1 H2 L x R HD g j t Hg Ht Hx. apply app_eq_inv in HD as [(k & -> & HD)|(k & -> & HD)].
  - destruct k as [|y k]; simpl in HD.
    + pose proof (H2 [] x R ltac:(done) g j t Hg Ht Hx) as Hin. rewrite app_nil_r in Hin. rewrite app_nil_r in Hin. done.
    + injection HD as <- ->. by apply (H1 L x k eq_refl g j t).
  - pose proof (H2 k x R HD g j t Hg Ht Hx) as Hin. rewrite ow_app. by rewrite app_assoc.
Qed.
Lemma Just_one σ G x : (forall g j t, rs_h σ !! g = Some j -> lfind j (rs_sh σ) = Some t -> x.1 ∈ lid <$> lsubs t -> g ∈ G) -> Just σ G [x].
Proof. intros HJ [|? [|??]] y D2 HD g j t Hg Ht Hx; try done. simplify_eq/=. rewrite app_nil_r. by eapply HJ. Qed.
Lemma Rel_refl E c σ : Rel E [] [] c σ c σ.
Proof.
  split; [by destruct c|done|done| | | |done|done|done|done].
  - intros g. by rewrite decide_False by apply not_elem_of_nil.
  - intros g. by rewrite decide_False by apply not_elem_of_nil.
  - cbn [fmap list_fmap]. by rewrite app_nil_r.
Qed.
Lemma rl_back E Dn D c σ c' σ' g i : Rel E Dn D c σ c' σ' -> rs_h σ' !! g = Some i -> g ∉ Dn /\ rs_h σ !! g = Some i.
Proof. intros HR Hg. rewrite (rl_h _ _ _ _ _ _ _ HR) in Hg. by case_decide. Qed.
Lemma Rel_trans E Dn1 Dn2 D1 D2 c σ c1 σ1 c2 σ2 : Rel E Dn1 D1 c σ c1 σ1 -> Rel E Dn2 D2 c1 σ1 c2 σ2 -> Rel E (Dn1 ++ Dn2) (D1 ++ D2) c σ c2 σ2.
Proof.
  intros R1 R2. split.
  - rewrite (rl_c _ _ _ _ _ _ _ R2), (rl_c _ _ _ _ _ _ _ R1). done.
  - by rewrite (rl_x _ _ _ _ _ _ _ R2), (rl_x _ _ _ _ _ _ _ R1).
  - by rewrite (rl_g _ _ _ _ _ _ _ R2), (rl_g _ _ _ _ _ _ _ R1).
  - intros g. rewrite (rl_h _ _ _ _ _ _ _ R2), (rl_h _ _ _ _ _ _ _ R1). repeat case_decide; set_solver.
  - intros g. rewrite (rl_rh _ _ _ _ _ _ _ R2), (rl_rh _ _ _ _ _ _ _ R1). repeat case_decide; set_solver.
  - rewrite (rl_log _ _ _ _ _ _ _ R2), (rl_log _ _ _ _ _ _ _ R1), fmap_app. by rewrite app_assoc.
  - etrans; [apply (rl_nr _ _ _ _ _ _ _ R2)|apply (rl_nr _ _ _ _ _ _ _ R1)].
  - intros i Hi. apply (rl_sub _ _ _ _ _ _ _ R1), (rl_sub _ _ _ _ _ _ _ R2), Hi.
  - intros i Hi Ha. apply (rl_root _ _ _ _ _ _ _ R2); [|done]. apply (rl_root _ _ _ _ _ _ _ R1); [done|]. by apply (rl_sub _ _ _ _ _ _ _ R2).
  - intros g i Hg Hi. destruct (rl_back _ _ _ _ _ _ _ _ _ R2 Hi) as [_ Hi1]. rewrite (rl_find _ _ _ _ _ _ _ R2 g i Hg Hi). by apply (rl_find _ _ _ _ _ _ _ R1 g).
Qed.
Lemma Rel_perm E E' Dn Dn' D D' c σ c' σ' : Rel E Dn D c σ c' σ' -> D ≡ₚ D' -> (forall g, g ∈ Dn <-> g ∈ Dn') -> (forall g, g ∈ E -> g ∈ E' \/ g ∈ Dn) -> Rel E' Dn' D' c σ c' σ'.
Proof.
  intros R HD Hn HE. split; try apply R.
  - intros g. rewrite (rl_h _ _ _ _ _ _ _ R). repeat case_decide; naive_solver.
  - intros g. rewrite (rl_rh _ _ _ _ _ _ _ R). repeat case_decide; naive_solver.
  - rewrite (rl_log _ _ _ _ _ _ _ R). by rewrite HD.
  - intros g i Hg Hi. apply (rl_find _ _ _ _ _ _ _ R g i); [|done]. intros HgE. destruct (HE g HgE) as [|HgD]; [done|]. by apply (rl_back _ _ _ _ _ _ _ _ _ R) in Hi as [? _].
Qed.

Lemma Just_trans E Dn D c σ c1 σ1 G D2 : Rel E Dn D c σ c1 σ1 -> Just σ1 G D2 -> Just σ (E ++ Dn ++ G) D2.
Proof.
  intros R HJ L x K HD g j t Hg Ht Hx. rewrite !elem_of_app. destruct (decide (g ∈ E)) as [|HE]; [tauto|]. destruct (decide (g ∈ Dn)) as [|Hn]; [tauto|].
  assert (rs_h σ1 !! g = Some j) as Hg1. { rewrite (rl_h _ _ _ _ _ _ _ R). by rewrite decide_False. } rewrite <-(rl_find _ _ _ _ _ _ _ R g j HE Hg1) in Ht.
  pose proof (HJ L x K HD g j t Hg1 Ht Hx) as Hin. apply elem_of_app in Hin. tauto.
Qed.

Lemma St_keep E c σ N Z PX P Q Qd Dn D c' σ' P' : St c σ N Z PX P (Qd ++ Q) -> Rel E Dn D c σ c' σ' -> reached c' σ' -> P ≡ₚ D ++ P' -> pairs (rs_sh σ') ≡ₚ PX ++ P' ->
  (forall g, g ∈ Dn -> g ∈ Qd ++ ow D) -> St c' σ' N Z PX P' Q.
Proof.
  intros HS HR Hr HP Hsh HD. pose proof (ow_perm _ _ HP) as How. rewrite ow_app in How. pose proof (st_nd _ _ _ _ _ _ _ HS) as Hnd. rewrite How in Hnd.
  assert (forall g, g ∈ (ow D ++ ow P') ++ Qd ++ Q -> g ∉ N /\ is_Some (rs_h σ !! g)) as Hin. { intros g Hg. apply (st_in _ _ _ _ _ _ _ HS). by rewrite How. }
  assert (forall m, m ∈ N -> m ∉ Dn) as HND. { intros m Hm Hm'. apply HD in Hm'. destruct (Hin m) as [? _]; [set_solver|done]. }
  split; [done|by rewrite (rl_g _ _ _ _ _ _ _ HR); apply HS| | | |done| |].
  - intros m Hm. destruct (st_pin _ _ _ _ _ _ _ HS m Hm) as (i & Hi & Hroot & Hsole). exists i. assert (rs_h σ' !! m = Some i) as Hi'. { rewrite (rl_h _ _ _ _ _ _ _ HR). by rewrite decide_False by auto. }
    split_and!; [done| |].
    + apply (rl_root _ _ _ _ _ _ _ HR); [done|]. by eapply RI_alive_h; [apply reached_RI|].
    + intros m' Hm'. apply (rl_back _ _ _ _ _ _ _ _ _ HR) in Hm' as [_ Hm']. by apply Hsole.
  - intros z Hz. destruct (st_z _ _ _ _ _ _ _ HS z Hz) as (m & r & Hm & Hr' & Ha). exists m, r. split_and!; [done| |done]. rewrite (rl_rh _ _ _ _ _ _ _ HR). by rewrite decide_False by auto.
  - intros x Hx. destruct (st_px _ _ _ _ _ _ _ HS x Hx) as (m & Hm & Hi). exists m. split; [done|]. rewrite (rl_h _ _ _ _ _ _ _ HR). by rewrite decide_False by auto.
  - assert ((ow D ++ ow P') ++ Qd ++ Q ≡ₚ (ow D ++ Qd) ++ (ow P' ++ Q)) as Hpp by solve_Permutation. rewrite Hpp in Hnd. by apply NoDup_app in Hnd as (_ & _ & ?).
  - intros g Hg. destruct (Hin g) as [H1 H2]; [set_solver|]. split; [done|]. rewrite (rl_h _ _ _ _ _ _ _ HR), decide_False; [done|]. intros Hg'. apply HD in Hg'.
    apply NoDup_app in Hnd as (Ha & Hb & Hc). apply NoDup_app in Ha as (_ & Ha & _). apply NoDup_app in Hc as (_ & Hc & _).
    apply elem_of_app in Hg' as [Hg'|Hg'], Hg as [Hg|Hg].
    + apply (Hb g); set_solver.
    + by apply (Hc g).
    + by apply (Ha g).
    + apply (Hb g); set_solver.
Qed.

Lemma tab_size E N c σ c' σ' Dn D H H' n : tab (n :: N) c H -> tab N c' H' -> Rel E Dn D c σ c' σ' -> n ∈ Dn -> size H' <= size H.
Proof.
  intros T T' R Hn. rewrite <-!size_dom. apply subseteq_size. intros g [r Hg]%elem_of_dom. apply elem_of_dom. rewrite T'  in Hg. rewrite T. case_decide as Hm; [done|].
  rewrite (rl_rh _ _ _ _ _ _ _ R) in Hg. case_decide as Hd; [done|]. rewrite decide_False; [eauto|]. set_solver.
Qed.
Lemma tab_size' E N c σ c' σ' Dn D H H' : tab N c H -> tab N c' H' -> Rel E Dn D c σ c' σ' -> size H' <= size H.
Proof.
  intros T T' R. rewrite <-!size_dom. apply subseteq_size. intros g [r Hg]%elem_of_dom. apply elem_of_dom. rewrite T' in Hg. rewrite T. case_decide as Hm; [done|].
  rewrite (rl_rh _ _ _ _ _ _ _ R) in Hg. case_decide as Hd; [done|]. eauto.
Qed.

(** * A child is taken away *)
Lemma pop_pairs L1 L2 i a k (ks : list (ltree A)) : pairs (L1 ++ LN i a ks :: L2 ++ [k]) ≡ₚ pairs (L1 ++ LN i a (k :: ks) :: L2).
Proof. rewrite !pairs_app, !pairs_cons, pairs_app. change (k :: ks) with ([k] ++ ks). rewrite (pairs_app [k] ks). solve_Permutation. Qed.
Lemma pop_nr L1 L2 i a k (ks : list (ltree A)) : S (nr (L1 ++ LN i a ks :: L2 ++ [k])) = nr (L1 ++ LN i a (k :: ks) :: L2).
Proof. rewrite !nr_app, !nr_cons, nr_app. destruct k as [j b kk]. rewrite nr_cons, lall_cons, lsubs_eq. simpl. rewrite app_length. unfold nr. simpl. lia. Qed.
Lemma pairs_lids ts ts' : pairs ts ≡ₚ pairs ts' -> lids ts ≡ₚ lids ts'.
Proof. intros Hp. by rewrite <-!pairs_ids, Hp. Qed.

Lemma pop_St c σ N Z PX P Q n i t L1 L2 a k ks q s' : St c σ (n :: N) Z PX P Q -> pinned σ n i -> rs_h σ !! t = None -> rs_sh σ = L1 ++ LN i a (k :: ks) :: L2 ->
  let σ1 := set_h (set_sh σ (L1 ++ LN i a ks :: L2 ++ [k])) (<[t := lid k]> (rs_h σ)) in let c1 := set_rh (set_mem c s') (<[t := q]> (r_h c)) in
  reached c1 σ1 -> St c1 σ1 (n :: N) Z PX P (t :: Q).
Proof.
  intros HS Hpin Ht Hsh σ1 c1 HR1. pose proof (st_r _ _ _ _ _ _ _ HS) as HR. pose proof (RI_ids _ _ (reached_RI _ _ HR)) as HN.
  assert (forall g, g ∈ n :: N -> g <> t) as Hnt. { intros g Hg ->. destruct (st_pin _ _ _ _ _ _ _ HS t Hg) as (j & Hj & _). congruence. }
  assert (lid k ∉ lid <$> rs_sh σ) as Hk. { rewrite lids_split in HN. apply NoDup_app in HN as (_ & HN & _). intros Hin. apply (HN _ Hin). apply elem_of_list_In, in_flat_map. exists (LN i a (k :: ks)). split; apply elem_of_list_In; [|left].
    rewrite Hsh. apply lall_in, elem_of_app. right. left. }
  split; [done|exact (st_g _ _ _ _ _ _ _ HS)| | | | | |].
  - intros m Hm. destruct (st_pin _ _ _ _ _ _ _ HS m Hm) as (j & Hj & Hroot & Hsole). exists j. split_and!.
    + cbn. rewrite lookup_insert_ne; [done|]. intros ->. by apply (Hnt m).
    + cbn [σ1 rs_sh set_h set_sh]. rewrite Hsh in Hroot. rewrite !fmap_app, fmap_cons, fmap_app in *. cbn [lid] in *. set_solver.
    + intros m'. cbn. destruct (decide (t = m')) as [->|Hne]; [rewrite lookup_insert|rewrite lookup_insert_ne by done; apply Hsole]. intros [= <-]. done.
  - intros z Hz. destruct (st_z _ _ _ _ _ _ _ HS z Hz) as (m & r & Hm & Hr & Ha). exists m, r. split_and!; [done| |done]. cbn. rewrite lookup_insert_ne; [done|]. intros ->. by apply (Hnt m).
  - intros x Hx. destruct (st_px _ _ _ _ _ _ _ HS x Hx) as (m & Hm & Hi). exists m. split; [done|]. cbn. rewrite lookup_insert_ne; [done|]. intros ->. by apply (Hnt m).
  - cbn [σ1 rs_sh set_h set_sh]. rewrite pop_pairs, <-Hsh. apply HS.
  - assert (ow P ++ t :: Q ≡ₚ t :: ow P ++ Q) as -> by solve_Permutation. constructor; [|apply HS]. intros Hin. destruct (st_in _ _ _ _ _ _ _ HS t Hin) as [_ [? ?]]. congruence.
  - intros g Hg. assert (g = t \/ g ∈ ow P ++ Q) as [->|Hg'] by set_solver.
    + split; [|cbn; rewrite lookup_insert; eauto]. intros Hg'. by apply (Hnt t).
    + destruct (st_in _ _ _ _ _ _ _ HS g Hg') as [? ?]. split; [done|]. cbn. destruct (decide (t = g)) as [->|Hne]; [rewrite lookup_insert; eauto|by rewrite lookup_insert_ne].
Qed.
Lemma pop_find c σ n i t L1 L2 a k ks q s' : reached c σ -> pinned σ n i -> rs_sh σ = L1 ++ LN i a (k :: ks) :: L2 ->
  let σ1 := set_h (set_sh σ (L1 ++ LN i a ks :: L2 ++ [k])) (<[t := lid k]> (rs_h σ)) in let c1 := set_rh (set_mem c s') (<[t := q]> (r_h c)) in
  reached c1 σ1 -> forall g j, g <> n -> rs_h σ !! g = Some j -> lfind j (rs_sh σ1) = lfind j (rs_sh σ).
Proof.
  intros HR Hpin Hsh σ1 c1 HR1 g j Hg Hj1. pose proof (RI_ids _ _ (reached_RI _ _ HR)) as HN. pose proof (RI_ids _ _ (reached_RI _ _ HR1)) as HN1. cbn [σ1 rs_sh set_h set_sh] in HN1.
  assert (j <> i) as Hji. { intros ->. apply Hg. by apply (proj2 (proj2 Hpin) g). }
  pose proof (RI_alive_h _ _ _ _ (reached_RI _ _ HR) Hj1) as Hal. apply elem_of_list_fmap in Hal as (u & -> & Hu). rewrite (lfind_in u _ HN Hu). cbn [σ1 rs_sh set_h set_sh]. apply lfind_in; [done|].
  rewrite Hsh in Hu. rewrite !lall_app, !lall_cons, !lsubs_eq, lall_app, lall_cons, ?elem_of_app, ?elem_of_cons, ?elem_of_app in *.
  destruct Hu as [Hu|[[Hu|[Hu|Hu]]|Hu]]; [tauto| | | |tauto].
  - subst u. done.
  - rewrite ?elem_of_app. tauto.
  - tauto.
Qed.
Lemma pop_Rel c σ n i t L1 L2 a k ks q s' Dn D c2 σ2 : reached c σ -> pinned σ n i -> rs_h σ !! t = None -> r_h c !! t = None -> rs_sh σ = L1 ++ LN i a (k :: ks) :: L2 ->
  let σ1 := set_h (set_sh σ (L1 ++ LN i a ks :: L2 ++ [k])) (<[t := lid k]> (rs_h σ)) in let c1 := set_rh (set_mem c s') (<[t := q]> (r_h c)) in
  reached c1 σ1 -> Rel [] (t :: Dn) D c1 σ1 c2 σ2 -> Rel [n] Dn D c σ c2 σ2 /\ S (nr (rs_sh σ1)) = nr (rs_sh σ).
Proof.
  intros HR Hpin Ht Ht' Hsh σ1 c1 HR1 R. pose proof (RI_ids _ _ (reached_RI _ _ HR)) as HN. pose proof (RI_ids _ _ (reached_RI _ _ HR1)) as HN1. cbn [σ1 rs_sh set_h set_sh] in HN1.
  assert (S (nr (rs_sh σ1)) = nr (rs_sh σ)) as Hnr by (cbn [σ1 rs_sh set_h set_sh]; by rewrite Hsh, pop_nr).
  assert (lids (rs_sh σ1) ≡ₚ lids (rs_sh σ)) as Hl by (cbn [σ1 rs_sh set_h set_sh]; rewrite Hsh; apply pairs_lids, pop_pairs).
  split; [|done]. split.
  - rewrite (rl_c _ _ _ _ _ _ _ R). done.
  - apply (rl_x _ _ _ _ _ _ _ R).
  - apply (rl_g _ _ _ _ _ _ _ R).
  - intros g. rewrite (rl_h _ _ _ _ _ _ _ R). cbn [σ1 rs_h set_h set_sh]. destruct (decide (t = g)) as [->|Hne]; [rewrite decide_True by left; rewrite Ht; by case_decide|].
    rewrite lookup_insert_ne by done. repeat case_decide; set_solver.
  - intros g. rewrite (rl_rh _ _ _ _ _ _ _ R). cbn [c1 r_h set_rh set_mem]. destruct (decide (t = g)) as [->|Hne]; [rewrite decide_True by left; rewrite Ht'; by case_decide|].
    rewrite lookup_insert_ne by done. repeat case_decide; set_solver.
  - apply (rl_log _ _ _ _ _ _ _ R).
  - pose proof (rl_nr _ _ _ _ _ _ _ R). lia.
  - intros j Hj. rewrite <-Hl. by apply (rl_sub _ _ _ _ _ _ _ R).
  - intros j Hj Ha. apply (rl_root _ _ _ _ _ _ _ R); [|done]. cbn [σ1 rs_sh set_h set_sh]. rewrite Hsh in Hj. rewrite !fmap_app, fmap_cons, fmap_app in *. cbn [lid] in *. set_solver.
  - intros g j Hg Hj. destruct (rl_back _ _ _ _ _ _ _ _ _ R Hj) as [Hgd Hj1]. rewrite (rl_find _ _ _ _ _ _ _ R g j (not_elem_of_nil g) Hj). cbn [σ1 rs_h set_h set_sh] in Hj1. rewrite lookup_insert_ne in Hj1 by set_solver.
    apply (pop_find c σ n i t L1 L2 a k ks q s' HR Hpin Hsh HR1 g j); [set_solver|done].
Qed.

(** * A handle is dropped *)
Lemma dec_Rel c σ n s' : m_log s' = m_log (r_mem c) -> Rel [] [n] [] c σ (set_rh (set_mem c s') (delete n (r_h c))) (set_h σ (delete n (rs_h σ))).
Proof.
  intros Hl. split; [done|done|done| | | |done|done|done|done].
  - intros g. cbn. destruct (decide (n = g)) as [->|Hne]; [by rewrite lookup_delete, decide_True by left|]. rewrite lookup_delete_ne by done. rewrite decide_False by set_solver. done.
  - intros g. cbn. destruct (decide (n = g)) as [->|Hne]; [by rewrite lookup_delete, decide_True by left|]. rewrite lookup_delete_ne by done. rewrite decide_False by set_solver. done.
  - cbn. by rewrite app_nil_r.
Qed.
Lemma leaf_Rel c σ n i a L1 L2 s' : reached c σ -> pinned σ n i -> rs_sh σ = L1 ++ LN i a [] :: L2 ->
  let σ' := set_x (set_sh (set_h σ (delete n (rs_h σ))) (L1 ++ L2)) (SSt (env_of σ) (s_log (rs_x σ) ++ [a])) in
  let c' := set_rh (set_mem c s') (delete n (r_h c)) in reached c' σ' -> Rel [] [n] [(i, a)] c σ c' σ'.
Proof.
  intros HR Hpin Hsh σ' c' HR'. pose proof (RI_ids _ _ (reached_RI _ _ HR)) as HN. pose proof (RI_ids _ _ (reached_RI _ _ HR')) as HN'. cbn [σ' rs_sh set_h set_sh set_x] in HN'. split; [done|done|done| | |done| | | |].
  - intros g. cbn. destruct (decide (n = g)) as [->|Hne]; [by rewrite lookup_delete, decide_True by left|]. rewrite lookup_delete_ne by done. rewrite decide_False by set_solver. done.
  - intros g. cbn. destruct (decide (n = g)) as [->|Hne]; [by rewrite lookup_delete, decide_True by left|]. rewrite lookup_delete_ne by done. rewrite decide_False by set_solver. done.
  - cbn [σ' rs_sh set_h set_sh set_x]. rewrite Hsh, !nr_app, nr_cons. simpl. lia.
  - cbn [σ' rs_sh set_h set_sh set_x]. intros j. rewrite Hsh, !lids_app, lids_cons, !elem_of_app. tauto.
  - cbn [σ' rs_sh set_h set_sh set_x]. intros j. rewrite Hsh, !fmap_app, fmap_cons, !elem_of_app, elem_of_cons. cbn [lid]. intros [?|[->|?]] Hal; [tauto| |tauto]. exfalso.
    rewrite Hsh, lids_app, lids_cons, lids_node in HN. rewrite lids_app, elem_of_app in Hal. apply NoDup_app in HN as (_ & HN1 & HN2). simpl in *. apply NoDup_cons in HN2 as [HN2 _]. destruct Hal as [Hal|Hal]; [|done]. apply (HN1 _ Hal). left.
  - intros g j _ Hj. pose proof (RI_alive_h _ _ _ _ (reached_RI _ _ HR') Hj) as Hal. apply elem_of_list_fmap in Hal as (u & -> & Hu). cbn [σ' rs_sh set_h set_sh set_x] in *. rewrite (lfind_in u _ HN' Hu). symmetry. apply lfind_in; [done|].
     rewrite Hsh, lall_app, lall_cons, !elem_of_app. rewrite lall_app, elem_of_app in Hu. tauto.
Qed.

(** * The counters *)
Lemma zl_cnt_get Z l s p k : p ∉ Z -> m_cnt s !! p = Some k -> cnt_get p (zl Z l s) = Ok k (zl Z l s).
Proof. intros HZ Hk. unfold cnt_get. cbn [m_cnt zl]. rewrite zc_look, Hk. cbn [fmap option_fmap option_map]. by rewrite decide_False. Qed.
Lemma zl_cnt_decr Z l s p : p ∉ Z -> m_cnt s !! p = Some 1 -> cnt_decr p (zl Z l s) = Ok 0 (zl (p :: Z) l s).
Proof.
  intros HZ Hk. unfold cnt_decr. cbn [m_cnt zl]. rewrite zc_look, Hk. cbn [fmap option_fmap option_map]. rewrite decide_False by done. unfold zl. cbn [m_heap m_cnt m_vec m_fresh m_log]. rewrite zc_zero by eauto. done.
Qed.
Lemma zl_get Z l s p u : m_heap s !! p = Some u -> get p (zl Z l s) = Ok u (zl Z l s).
Proof. intros Hu. unfold get. cbn [m_heap zl]. by rewrite Hu. Qed.
Lemma rd_loop_round f B H r : rd_loop own (S f) B H r = match r with
  | RScat p =>
    let! c := cnt_get p in
    if Nat.eqb c 1 then
      let! H1 := rd_pops own f B H r in
      cnt_decr p ;; let! n := get p in log_vals (dat_vals (n_dat n)) ;;
      let! H2 := rd_all own f B H1 (flat_map own (dat_vals (n_dat n))) in dealloc p ;; ret H2
    else rc_drop p ;; ret H
  | RPile v i =>
    vec_ref v ;; let! c := cnt_decr (v, i) in
    if Nat.eqb c 0 then
      let! H1 := rd_pops own f B H r in
      let! n := get (v, i) in log_vals (dat_vals (n_dat n)) ;;
      let! H2 := rd_all own f B H1 (flat_map own (dat_vals (n_dat n))) in vacate (v, i) ;; decr_ref v ;; ret H2
    else decr_ref v ;; ret H
  end.
Proof. done. Qed.
Lemma rd_all_round f B H gs : rd_all own (S f) B H gs = match gs with
  | [] => ret H
  | g :: gs' => match H !! g with Some r => let! H1 := rd_loop own f B (delete g H) r in rd_all own f B H1 gs' | None => fail EUB end
  end.
Proof. done. Qed.

Definition LOOP f : Prop := forall c σ N Z PX P Q n r l H, St c σ N Z PX P (n :: Q) -> r_h c !! n = Some r -> tab (n :: N) c H -> 2 * (2 * nr (rs_sh σ) + size H + 1) <= f ->
  exists c' σ' D P' H', rd_loop own f (r_b c) H r (zl Z l (r_mem c)) = Ok H' (zl Z (l ++ D.*2) (r_mem c')) /\
    St c' σ' N Z PX P' Q /\ Rel [] (n :: ow D) D c σ c' σ' /\ P ≡ₚ D ++ P' /\ tab N c' H' /\ Just σ [n] D.
Definition POPS f : Prop := forall c σ N Z PX P Q n r l H, St c σ (n :: N) Z PX P Q -> r_h c !! n = Some r -> tab (n :: N) c H -> 2 * (2 * nr (rs_sh σ) + size H) + 1 <= f ->
  exists c' σ' D P' H', rd_pops own f (r_b c) H r (zl Z l (r_mem c)) = Ok H' (zl Z (l ++ D.*2) (r_mem c')) /\
    St c' σ' (n :: N) Z PX P' Q /\ Rel [n] (ow D) D c σ c' σ' /\ P ≡ₚ D ++ P' /\ tab (n :: N) c' H' /\ Just σ [n] D /\ exists i a, rs_h σ' !! n = Some i /\ lfind i (rs_sh σ') = Some (LN i a []).
Definition ALL f : Prop := forall c σ N Z PX P Q gs l H, St c σ N Z PX P (gs ++ Q) -> tab N c H -> 2 * (2 * nr (rs_sh σ) + size H) + 1 <= f ->
  exists c' σ' D P' H', rd_all own f (r_b c) H gs (zl Z l (r_mem c)) = Ok H' (zl Z (l ++ D.*2) (r_mem c')) /\
    St c' σ' N Z PX P' Q /\ Rel [] (gs ++ ow D) D c σ c' σ' /\ P ≡ₚ D ++ P' /\ tab N c' H' /\ Just σ gs D.

Lemma rl_b E Dn D c σ c' σ' : Rel E Dn D c σ c' σ' -> r_b c' = r_b c.
Proof. intros R. by rewrite (rl_c _ _ _ _ _ _ _ R). Qed.
Lemma rh_none c σ g : reached c σ -> rs_h σ !! g = None -> r_h c !! g = None.
Proof. intros HR Hg. destruct (r_h c !! g) eqn:E; [|done]. assert (is_Some (rs_h σ !! g)) as [? ?]; [|congruence]. apply (handle_iff c σ g HR). eauto. Qed.
Lemma rh_some c σ g i : reached c σ -> rs_h σ !! g = Some i -> exists r, r_h c !! g = Some r.
Proof. intros HR Hg. assert (is_Some (r_h c !! g)) as [r Hr]; [|eauto]. apply (handle_iff c σ g HR). eauto. Qed.

Lemma ALL_ok f : LOOP f -> ALL f -> ALL (S f).
Proof.
  intros HL HA c σ N Z PX P Q gs l H HS HT Hf. rewrite rd_all_round. destruct gs as [|g gs].
  { exists c, σ, [], P, H. split; [cbn; by rewrite app_nil_r|]. split_and!; [done|apply Rel_refl|done|done|apply Just_nil]. }
  pose proof (st_r _ _ _ _ _ _ _ HS) as HR. destruct (st_in _ _ _ _ _ _ _ HS g) as [HgN [i Hi]]; [set_solver|]. destruct (rh_some c σ g i HR Hi) as [r Hr].
  assert (H !! g = Some r) as Hg by (by rewrite HT, decide_False). rewrite Hg.
  assert (tab (g :: N) c (delete g H)) as HT1. { intros g'. destruct (decide (g = g')) as [->|Hne]; [by rewrite lookup_delete, decide_True by left|]. rewrite lookup_delete_ne, HT by done. repeat case_decide; set_solver. }
  assert (S (size (delete g H)) = size H) as Hsz. { rewrite map_size_delete, Hg. assert (size H <> 0); [|lia]. intros H0%map_size_empty_inv. rewrite H0 in Hg. done. }
  destruct (HL c σ N Z PX P (gs ++ Q) g r l (delete g H) HS Hr HT1) as (c1 & σ1 & D1 & P1 & H1 & E1 & S1 & R1 & HP1 & T1 & J1); [lia|]. rewrite (bind_ok _ _ _ _ _ E1), <-(rl_b _ _ _ _ _ _ _ R1).
  assert (size H1 <= size (delete g H)) as Hs1 by (eapply (tab_size [] N c σ c1 σ1); [exact HT1|exact T1|exact R1|left]). pose proof (rl_nr _ _ _ _ _ _ _ R1).
  destruct (HA c1 σ1 N Z PX P1 Q gs (l ++ D1.*2) H1 S1 T1) as (c2 & σ2 & D2 & P2 & H2 & E2 & S2 & R2 & HP2 & T2 & J2); [lia|]. exists c2, σ2, (D1 ++ D2), P2, H2. split_and!; [|done| | |done|].
  - rewrite E2. by rewrite fmap_app, app_assoc.
  - eapply Rel_perm; [exact (Rel_trans _ _ _ _ _ _ _ _ _ _ _ R1 R2)|done| |by left]. intros g'. rewrite ow_app. set_solver.
  - rewrite HP1, HP2. by rewrite app_assoc.
  - apply Just_app; [eapply Just_mono; [exact J1|set_solver]|]. eapply Just_mono; [exact (Just_trans _ _ _ _ _ _ _ _ _ R1 J2)|]. intros g'. rewrite !elem_of_app, !elem_of_cons, elem_of_nil. tauto.
Qed.

Lemma POPS_ok f : LOOP f -> POPS f -> POPS (S f).
Proof.
  intros HL HA c σ N Z PX P Q n r l H HS Hr HT Hf. rewrite rd_pops_round. pose proof (st_r _ _ _ _ _ _ _ HS) as HR. pose proof (st_g _ _ _ _ _ _ _ HS) as Hg.
  destruct (st_pin _ _ _ _ _ _ _ HS n) as (i & Hp); [left|]. destruct (exist_fresh (dom (rs_h σ) : gset nat)) as [t Ht]. apply not_elem_of_dom in Ht. pose proof (rh_none c σ t HR Ht) as Ht'.
  destruct (pop_step c σ n r i t HR Hg Hr Hp Ht) as (L1 & L2 & a & ks & Hsh & Hfd & Hpop). destruct ks as [|k ks].
  { rewrite (zl_pop _ _ Z l _ _ _ Hpop). exists c, σ, [], P, H. split; [cbn; by rewrite app_nil_r|]. split_and!; [done|apply Rel_refl|done|done|apply Just_nil|]. exists i, a. split; [apply Hp|done]. }
  destruct Hpop as (q & s' & Hpop & HR1). rewrite (zl_pop _ _ Z l _ _ _ Hpop). set (c1 := set_rh (set_mem c s') (<[t := q]> (r_h c))) in *. set (σ1 := set_h (set_sh σ (L1 ++ LN i a ks :: L2 ++ [k])) (<[t := lid k]> (rs_h σ))) in *.
  pose proof (pop_St c σ N Z PX P Q n i t L1 L2 a k ks q s' HS Hp Ht Hsh HR1) as HS1. fold c1 σ1 in HS1.
  assert (r_h c1 !! t = Some q) as Hq by apply lookup_insert.
  assert (tab (t :: n :: N) c1 H) as HT1. { intros g. rewrite HT. cbn [c1 r_h set_rh set_mem]. destruct (decide (t = g)) as [->|Hne]; [rewrite (decide_True (P := g ∈ g :: _)) by left; rewrite Ht'; by case_decide|].
    rewrite lookup_insert_ne by done. repeat case_decide; set_solver. }
  assert (S (nr (rs_sh σ1)) = nr (rs_sh σ)) as Hnr1 by (cbn [σ1 rs_sh set_h set_sh]; by rewrite Hsh, pop_nr).
  destruct (HL c1 σ1 (n :: N) Z PX P Q t q l H HS1 Hq HT1) as (c2 & σ2 & D1 & P1 & H1 & E1 & S2 & R2 & HP1 & T1 & J1); [lia|].
  destruct (pop_Rel c σ n i t L1 L2 a k ks q s' (ow D1) D1 c2 σ2 HR Hp Ht Ht' Hsh HR1 R2) as [R _].
  change (r_b c1) with (r_b c) in E1. change (r_mem c1) with s' in E1. rewrite (bind_ok _ _ _ _ _ E1), <-(rl_b _ _ _ _ _ _ _ R).
  assert (size H1 <= size H) as Hs1 by (eapply (tab_size' [n] (n :: N) c σ c2 σ2); [exact HT|exact T1|exact R]). pose proof (rl_nr _ _ _ _ _ _ _ R2).
  assert (r_h c2 !! n = Some r) as Hr2. { rewrite (rl_rh _ _ _ _ _ _ _ R). rewrite decide_False; [done|]. intros Hn. destruct (st_in _ _ _ _ _ _ _ HS n) as [Hn' _]; [|apply Hn'; left].
    rewrite (ow_perm _ _ HP1), ow_app. set_solver. }
  destruct (HA c2 σ2 N Z PX P1 Q n r (l ++ D1.*2) H1 S2 Hr2 T1) as (c3 & σ3 & D2 & P2 & H2 & E2 & S3 & R3 & HP2 & T2 & J2 & Hlf); [lia|]. exists c3, σ3, (D1 ++ D2), P2, H2. split_and!; [|done| | |done| |done].
  - rewrite E2. by rewrite fmap_app, app_assoc.
  - rewrite ow_app. exact (Rel_trans _ _ _ _ _ _ _ _ _ _ _ R R3).
  - rewrite HP1, HP2. by rewrite app_assoc.
  - apply Just_app.
    + intros L x K HD g j tt Hg' Htt Hx. destruct (decide (g = n)) as [->|Hgn]; [apply elem_of_app; left; left|]. assert (g <> t) as Hgt by (intros ->; congruence).
      assert (rs_h σ1 !! g = Some j) as Hg1. { cbn [σ1 rs_h set_h set_sh]. by rewrite lookup_insert_ne. }
      assert (lfind j (rs_sh σ1) = Some tt) as Htt1. { rewrite <-Htt. by apply (pop_find c σ n i t L1 L2 a k ks q s' HR Hp Hsh HR1 g j). }
      pose proof (J1 L x K HD g j tt Hg1 Htt1 Hx) as Hin. apply elem_of_app in Hin as [Hin|Hin]; [by apply elem_of_list_singleton in Hin|]. apply elem_of_app. by right.
    + eapply Just_mono; [exact (Just_trans _ _ _ _ _ _ _ _ _ R J2)|]. intros g. rewrite !elem_of_app. tauto.
Qed.

Lemma st_n c σ N Z PX P Q n : St c σ N Z PX P (n :: Q) -> n ∉ N /\ n ∉ ow P ++ Q /\ exists i, rs_h σ !! n = Some i.
Proof.
  intros HS. destruct (st_in _ _ _ _ _ _ _ HS n) as [H1 [i H2]]; [set_solver|]. split_and!; [done| |eauto]. pose proof (st_nd _ _ _ _ _ _ _ HS) as Hnd.
  assert (ow P ++ n :: Q ≡ₚ n :: ow P ++ Q) as Hp by solve_Permutation. rewrite Hp in Hnd. by apply NoDup_cons in Hnd as [? _].
Qed.
(** [n] is being dropped; [Z']: the counts set to zero *)
Lemma St_push c σ N Z PX P Q n i r Z' : St c σ N Z PX P (n :: Q) -> pinned σ n i -> r_h c !! n = Some r -> (forall z, z ∈ Z' -> z = raddr r \/ z ∈ Z) -> St c σ (n :: N) Z' PX P Q.
Proof.
  intros HS Hp Hr HZ. destruct (st_n _ _ _ _ _ _ _ _ HS) as (HnN & Hn & _). split; [apply HS|apply HS| | | |apply HS| |].
  - intros m [->|Hm]%elem_of_cons; [eauto|by apply (st_pin _ _ _ _ _ _ _ HS)].
  - intros z Hz. destruct (HZ z Hz) as [->|Hz']; [exists n, r; split_and!; [left|done|done]|]. destruct (st_z _ _ _ _ _ _ _ HS z Hz') as (m & r' & ? & ? & ?). exists m, r'. split_and!; [by right|done|done].
  - intros x Hx. destruct (st_px _ _ _ _ _ _ _ HS x Hx) as (m & ? & ?). exists m. split; [by right|done].
  - pose proof (st_nd _ _ _ _ _ _ _ HS) as Hnd. assert (ow P ++ n :: Q ≡ₚ n :: ow P ++ Q) as Hpp by solve_Permutation. rewrite Hpp in Hnd. by apply NoDup_cons in Hnd as [_ ?].
  - intros g Hg. destruct (st_in _ _ _ _ _ _ _ HS g) as [? ?]; [set_solver|]. split; [|done]. intros [->|?]%elem_of_cons; done.
Qed.
Lemma not_zero c σ N Z PX P Q n r : St c σ N Z PX P (n :: Q) -> r_h c !! n = Some r -> raddr r ∉ Z.
Proof.
  intros HS Hr Hz. destruct (st_z _ _ _ _ _ _ _ HS _ Hz) as (m & r' & Hm & Hr' & Ha). destruct (st_n _ _ _ _ _ _ _ _ HS) as (HnN & _ & i & Hi). destruct (st_pin _ _ _ _ _ _ _ HS m Hm) as (j & Hj & _ & Hsole).
  apply (handles_same c σ m n r' r (st_r _ _ _ _ _ _ _ HS) Hr' Hr) in Ha. rewrite Hi, Hj in Ha. injection Ha as ->. apply HnN. by rewrite (Hsole n Hi).
Qed.

Lemma pinned_just c σ n i a : reached c σ -> pinned σ n i -> Just σ [n] [(i, a)].
Proof.
  intros HR (Hi & Hroot & Hsole). apply Just_one. intros g j t Hg Ht Hx. cbn [fst] in Hx. apply lfind_some in Ht as [Ht <-]. apply elem_of_list_singleton. apply Hsole. rewrite Hg. f_equal.
  pose proof (RI_ids _ _ (reached_RI _ _ HR)) as HN. pose proof HN as HN'. rewrite lids_split in HN'. apply NoDup_app in HN' as (_ & HN' & _). destruct t as [j b ks]. rewrite lids_node in Hx. apply elem_of_cons in Hx as [->|Hx]; [done|]. exfalso.
  apply (HN' _ Hroot). rewrite lids_split in Hx. apply elem_of_app in Hx as [Hx|Hx]; apply elem_of_list_In, in_flat_map.
  - exists (LN j b ks). split; by apply elem_of_list_In.
  - apply elem_of_list_In, in_flat_map in Hx as (v & Hv & Hx). apply elem_of_list_In in Hv. exists v. split; [|done]. apply elem_of_list_In. eapply lall_trans; [exact Ht|]. rewrite lsubs_eq. by right.
Qed.
Lemma FIN f c σ N Z PX P Q n i a r l H : ALL f -> St c σ N Z PX P (n :: Q) -> pinned σ n i -> r_h c !! n = Some r -> tab (n :: N) c H -> lfind i (rs_sh σ) = Some (LN i a []) ->
  2 * (2 * nr (rs_sh σ) + size H) + 1 <= f ->
  exists c' σ' D P' H' c3 u, m_heap (r_mem c) !! raddr r = Some u /\ dat_vals (n_dat u) = [a] /\
    rd_all own f (r_b c) H (own a) (zl (raddr r :: Z) (l ++ [a]) (r_mem c)) = Ok H' (zl (raddr r :: Z) ((l ++ [a]) ++ D.*2) (r_mem c3)) /\
    (forall l', match r with
                | RScat p => dealloc p (zl (p :: Z) l' (r_mem c3)) = Ok tt (zl Z l' (r_mem c'))
                | RPile v j => (vacate (v, j) ;; decr_ref v) (zl ((v, j) :: Z) l' (r_mem c3)) = Ok tt (zl Z l' (r_mem c'))
                end) /\
    reached c' σ' /\ pairs (rs_sh σ') ≡ₚ PX ++ P' /\ Rel [] (n :: ow ((i, a) :: D)) ((i, a) :: D) c σ c' σ' /\ P ≡ₚ ((i, a) :: D) ++ P' /\ tab N c' H' /\ Just σ [n] ((i, a) :: D).
Proof.
  intros HA HS Hp Hr HT Hlf Hf. pose proof (st_r _ _ _ _ _ _ _ HS) as HR. destruct (st_n _ _ _ _ _ _ _ _ HS) as (HnN & HnP & _). pose proof Hp as (Hi & _ & Hsole).
  destruct (count_one c σ n r i HR Hr Hi) as (k & a' & u & _ & _ & Hu & Ha & Hd). rewrite Hlf in Ha. injection Ha as <-.
  assert ((i, a) ∈ P) as HP.
  { assert ((i, a) ∈ PX ++ P) as Hin. { rewrite <-(st_p _ _ _ _ _ _ _ HS). apply lfind_some in Hlf as [Hlf _]. apply elem_of_list_fmap. by exists (LN i a []). }
    apply elem_of_app in Hin as [Hin|Hin]; [|done]. exfalso. destruct (st_px _ _ _ _ _ _ _ HS _ Hin) as (m & Hm & Hmi). apply HnN. by rewrite <-(Hsole m Hmi). }
  apply elem_of_Permutation in HP as [P0 HP]. pose proof (ow_perm _ _ HP) as How. rewrite ow_cons in How. cbn [snd] in How.
  pose proof (St_push c σ N Z PX P Q n i r (raddr r :: Z) HS Hp Hr) as HS'. assert (St c σ (n :: N) (raddr r :: Z) PX P Q) as HSp by (apply HS'; set_solver). clear HS'.
  assert (St c σ (n :: N) (raddr r :: Z) ((i, a) :: PX) P0 (own a ++ Q)) as HSa.
  { split; try apply HSp.
    - intros x [->|Hx]%elem_of_cons; [exists n; split; [left|done]|]. by apply (st_px _ _ _ _ _ _ _ HSp).
    - rewrite (st_p _ _ _ _ _ _ _ HSp), HP. simpl. solve_Permutation.
    - pose proof (st_nd _ _ _ _ _ _ _ HSp) as Hnd. rewrite How in Hnd. assert (ow P0 ++ own a ++ Q ≡ₚ (own a ++ ow P0) ++ Q) as -> by solve_Permutation. done.
    - intros g Hg. apply (st_in _ _ _ _ _ _ _ HSp). rewrite How. set_solver. }
  destruct (HA c σ (n :: N) (raddr r :: Z) ((i, a) :: PX) P0 Q (own a) (l ++ [a]) H HSa HT Hf) as (c3 & σ3 & D & P3 & H3 & E3 & S3 & R3 & HP3 & T3 & J3).
  assert (n ∉ own a ++ ow D) as Hn3. { pose proof (ow_perm _ _ HP3) as How3. rewrite ow_app in How3. rewrite How, How3 in HnP. set_solver. }
  assert (rs_h σ3 !! n = Some i) as Hi3. { rewrite (rl_h _ _ _ _ _ _ _ R3). by rewrite decide_False. }
  assert (r_h c3 !! n = Some r) as Hr3. { rewrite (rl_rh _ _ _ _ _ _ _ R3). by rewrite decide_False. }
  destruct (st_pin _ _ _ _ _ _ _ S3 n) as (i3 & Hp3); [left|]. assert (i3 = i) as -> by (destruct Hp3 as [? _]; congruence).
  assert (lfind i (rs_sh σ3) = Some (LN i a [])) as Hlf3. { rewrite (rl_find _ _ _ _ _ _ _ R3 n i); [done|apply not_elem_of_nil|done]. }
  pose proof (st_r _ _ _ _ _ _ _ S3) as HR3. destruct (pinned_node c3 σ3 n i HR3 Hp3) as (L1 & L2 & b & ks & Hsh & Hf'). rewrite Hlf3 in Hf'. injection Hf' as <- <-.
  destruct (clean_leaf c3 σ3 n r i L1 L2 a HR3 (st_g _ _ _ _ _ _ _ S3) Hr3 Hp3 Hsh) as (s' & HR4 & Hrun).
  pose proof (leaf_Rel c3 σ3 n i a L1 L2 s' HR3 Hp3 Hsh HR4) as R4.
  eexists (set_rh (set_mem c3 s') (delete n (r_h c3))), _, D, P3, H3, c3, u. split_and!; [done|done|exact E3|intros l'; exact (Hrun Z l')|exact HR4| | | | |].
  - cbn [rs_sh set_x set_sh set_h]. pose proof (st_p _ _ _ _ _ _ _ S3) as Hp'. rewrite Hsh in Hp'. rewrite pairs_app, pairs_cons in Hp'. change (pairs []) with (@nil (nat * A)) in Hp'. rewrite pairs_app. apply (Permutation_cons_inv (a := (i, a))). etrans; [|exact Hp']. simpl. solve_Permutation.
  - eapply Rel_perm; [exact (Rel_trans _ _ _ _ _ _ _ _ _ _ _ R3 R4)|solve_Permutation| |by left]. intros g. rewrite ow_cons. set_solver.
  - rewrite HP, HP3. done.
  - intros g. rewrite T3. cbn [r_h set_rh set_mem]. destruct (decide (n = g)) as [->|Hne]; [rewrite (decide_True (P := g ∈ g :: _)) by left; rewrite lookup_delete; by case_decide|]. rewrite lookup_delete_ne by done. repeat case_decide; set_solver.
  - change ((i, a) :: D) with ([(i, a)] ++ D). apply Just_app; [by apply (pinned_just c σ n i)|]. eapply Just_mono; [exact J3|]. intros g. rewrite ow_cons. change (ow []) with (@nil nat). rewrite !elem_of_app. cbn [snd]. tauto.
Qed.

Lemma LOOP_ok f : POPS f -> ALL f -> LOOP (S f).
Proof.
  intros HPo HA c σ N Z PX P Q n r l H HS Hr HT Hf. pose proof (st_r _ _ _ _ _ _ _ HS) as HR. pose proof (st_g _ _ _ _ _ _ _ HS) as Hg. destruct (st_n _ _ _ _ _ _ _ _ HS) as (HnN & HnP & i & Hi).
  pose proof (not_zero _ _ _ _ _ _ _ _ _ HS Hr) as HZ. destruct (count_one c σ n r i HR Hr Hi) as (k & a0 & u0 & Hk & Hk1 & _). destruct (decide (k = 0)) as [->|Hk0].
  2: { assert (~ pinned σ n i) as Hp by (by rewrite <-Hk1). destruct (clean_dec own c σ n r i HR Hg Hr Hi Hp) as (s' & HR' & Hlog & Hrun). pose proof (dec_Rel c σ n s' Hlog) as R.
    exists (set_rh (set_mem c s') (delete n (r_h c))). eexists. exists [], P, H. split; [cbn [fmap list_fmap]; rewrite app_nil_r; exact (Hrun Z l f (r_b c) H HZ)|]. split_and!; [|exact R|done| |apply Just_nil].
    - eapply (St_keep [] c σ N Z PX P Q [n]); [exact HS|exact R|exact HR'|done|apply HS|]. intros g. set_solver.
    - intros g. rewrite HT. cbn [r_h set_rh set_mem]. destruct (decide (n = g)) as [->|Hne]; [rewrite (decide_True (P := g ∈ g :: _)) by left; rewrite lookup_delete; by case_decide|]. rewrite lookup_delete_ne by done. repeat case_decide; set_solver. }
  assert (pinned σ n i) as Hp by (by apply Hk1). rewrite rd_loop_round.
  assert (Hmain : forall Z', (Z' = Z \/ Z' = raddr r :: Z) -> exists c2 σ2 D1 H1 c' σ' D P' H' c3 u a, rd_pops own f (r_b c) H r (zl Z' l (r_mem c)) = Ok H1 (zl Z' (l ++ D1.*2) (r_mem c2)) /\
    m_cnt (r_mem c2) !! raddr r = Some 1 /\ m_heap (r_mem c2) !! raddr r = Some u /\ dat_vals (n_dat u) = [a] /\
    rd_all own f (r_b c) H1 (own a) (zl (raddr r :: Z) ((l ++ D1.*2) ++ [a]) (r_mem c2)) = Ok H' (zl (raddr r :: Z) (((l ++ D1.*2) ++ [a]) ++ D.*2) (r_mem c3)) /\
    (forall l', match r with
                | RScat p => dealloc p (zl (p :: Z) l' (r_mem c3)) = Ok tt (zl Z l' (r_mem c'))
                | RPile v j => (vacate (v, j) ;; decr_ref v) (zl ((v, j) :: Z) l' (r_mem c3)) = Ok tt (zl Z l' (r_mem c'))
                end) /\
    St c' σ' N Z PX P' Q /\ Rel [] (n :: ow (D1 ++ (i, a) :: D)) (D1 ++ (i, a) :: D) c σ c' σ' /\ P ≡ₚ (D1 ++ (i, a) :: D) ++ P' /\ tab N c' H' /\ Just σ [n] (D1 ++ (i, a) :: D)).
  { intros Z' HZ'. assert (St c σ (n :: N) Z' PX P Q) as HSp by (eapply St_push; [exact HS|exact Hp|exact Hr|]; destruct HZ' as [->| ->]; set_solver).
    destruct (HPo c σ N Z' PX P Q n r l H HSp Hr HT) as (c2 & σ2 & D1 & P1 & H1 & E1 & S2 & R1 & HP1 & T1 & J1 & i2 & a & Hi2 & Hlf); [lia|].
    destruct (rl_back _ _ _ _ _ _ _ _ _ R1 Hi2) as [HnD Hi2']. assert (i2 = i) as -> by congruence.
    assert (St c2 σ2 N Z PX P1 (n :: Q)) as HS2. { eapply (St_keep [n] c σ N Z PX P (n :: Q) []); [exact HS|exact R1|apply S2|done|apply S2|]. intros g. set_solver. }
    destruct (st_pin _ _ _ _ _ _ _ S2 n) as (i3 & Hp2); [left|]. assert (i3 = i) as -> by (destruct Hp2 as [? _]; congruence).
    assert (r_h c2 !! n = Some r) as Hr2. { rewrite (rl_rh _ _ _ _ _ _ _ R1). by rewrite decide_False. }
    assert (size H1 <= size H) as Hs1 by (eapply (tab_size' [n] (n :: N) c σ c2 σ2); [exact HT|exact T1|exact R1]). pose proof (rl_nr _ _ _ _ _ _ _ R1).
    destruct (FIN f c2 σ2 N Z PX P1 Q n i a r (l ++ D1.*2) H1 HA HS2 Hp2 Hr2 T1 Hlf) as (c' & σ' & D & P' & H' & c3 & u & Hu & Hd & E3 & Hend & HR' & Hpr & R2 & HP2 & T2 & J2); [lia|].
    assert (Rel [] (n :: ow (D1 ++ (i, a) :: D)) (D1 ++ (i, a) :: D) c σ c' σ') as RR.
    { assert (Rel [n] (n :: ow ((i, a) :: D)) ((i, a) :: D) c2 σ2 c' σ') as R2' by (eapply Rel_perm; [exact R2|done|done|set_solver]).
      eapply Rel_perm; [exact (Rel_trans _ _ _ _ _ _ _ _ _ _ _ R1 R2')|done| |]; intros g.
      - rewrite ow_app, elem_of_app, !elem_of_cons, elem_of_app. tauto.
      - intros ->%elem_of_list_singleton. right. apply elem_of_app. right. left. }
    assert (P ≡ₚ (D1 ++ (i, a) :: D) ++ P') as HPP. { rewrite HP1, HP2. by rewrite app_assoc. }
    exists c2, σ2, D1, H1, c', σ', D, P', H', c3, u, a. split_and!; try done.
    - destruct (count_one c2 σ2 n r i (st_r _ _ _ _ _ _ _ S2) Hr2 Hi2) as (k2 & ? & ? & Hk2 & Hk2' & _). apply Hk2' in Hp2. by subst k2.
    - by rewrite <-(rl_b _ _ _ _ _ _ _ R1).
    - eapply (St_keep [] c σ N Z PX P Q [n]); [exact HS|exact RR|done|done|done|]. intros g. set_solver.
    - apply Just_app; [done|]. eapply Just_mono; [exact (Just_trans _ _ _ _ _ _ _ _ _ R1 J2)|]. intros g. rewrite !elem_of_app. tauto. }
  destruct r as [p|v j]; cbn [raddr] in *.
  - rewrite (bind_ok _ _ _ _ _ (zl_cnt_get Z l _ p 1 HZ Hk)). cbn [Nat.eqb].
    destruct (Hmain Z (or_introl eq_refl)) as (c2 & σ2 & D1 & H1 & c' & σ' & D & P' & H' & c3 & u & a & E1 & Hk2 & Hu & Hd & E3 & Hend & HS' & R & HP & T & J). clear Hmain.
    exists c', σ', (D1 ++ (i, a) :: D), P', H'. split_and!; try done.
    rewrite (bind_ok _ _ _ _ _ E1), (bind_ok _ _ _ _ _ (zl_cnt_decr Z _ _ p HZ Hk2)), (bind_ok _ _ _ _ _ (zl_get _ _ _ p u Hu)). rewrite Hd. cbn [flat_map]. rewrite app_nil_r.
    rewrite (bind_ok (log_vals [a]) _ (zl (p :: Z) (l ++ D1.*2) (r_mem c2)) tt (zl (p :: Z) ((l ++ D1.*2) ++ [a]) (r_mem c2)) eq_refl), (bind_ok _ _ _ _ _ E3), (bind_ok _ _ _ _ _ (Hend _)). unfold ret. do 2 f_equal. rewrite fmap_app, fmap_cons. cbn [snd]. by rewrite <-!app_assoc.
  - assert (vec_ref v (zl Z l (r_mem c)) = Ok tt (zl Z l (r_mem c))) as Ev. { destruct (handle_node c σ n _ HR Hr) as [[_ [w Hw]] _]. unfold vec_ref. cbn [m_vec zl]. by rewrite Hw. }
    rewrite (bind_ok _ _ _ _ _ Ev), (bind_ok _ _ _ _ _ (zl_cnt_decr Z _ _ _ HZ Hk)). cbn [Nat.eqb].
    destruct (Hmain ((v, j) :: Z) (or_intror eq_refl)) as (c2 & σ2 & D1 & H1 & c' & σ' & D & P' & H' & c3 & u & a & E1 & Hk2 & Hu & Hd & E3 & Hend & HS' & R & HP & T & J). clear Hmain.
    exists c', σ', (D1 ++ (i, a) :: D), P', H'. split_and!; try done.
    rewrite (bind_ok _ _ _ _ _ E1), (bind_ok _ _ _ _ _ (zl_get _ _ _ _ u Hu)). rewrite Hd. cbn [flat_map]. rewrite app_nil_r.
    rewrite (bind_ok (log_vals [a]) _ (zl ((v, j) :: Z) (l ++ D1.*2) (r_mem c2)) tt (zl ((v, j) :: Z) ((l ++ D1.*2) ++ [a]) (r_mem c2)) eq_refl), (bind_ok _ _ _ _ _ E3).
    specialize (Hend (((l ++ D1.*2) ++ [a]) ++ D.*2)). unfold bind in Hend |- *. destruct (vacate (v, j) _) as [[] w|]; [|done]. rewrite Hend. unfold ret. do 2 f_equal. rewrite fmap_app, fmap_cons. cbn [snd]. by rewrite <-!app_assoc.
Qed.

Lemma loops f : LOOP f /\ POPS f /\ ALL f.
Proof.
  induction f as [|f (HL & HP & HA)].
  - split_and!; intros c σ **; lia.
  - split_and!; [by apply LOOP_ok|by apply POPS_ok|by apply ALL_ok].
Qed.
End main.
