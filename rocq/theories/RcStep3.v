(** RcStep3.v — the other operations of the reference-counting client: releasing, detaching, cloning, weak references, guards,
    iterators, and the exclusively owned trees. *)
From stdpp Require Import base gmap list sorting.
From Verif Require Import Spec ClientSpec RcSpec Machine NodeModel BfsModel ClientModel RcModel RcAllowed Sep Rep NodeProofs Inv Abs ClientProofs
  BfsIter ClientRef ClientProps ClientStep CountFrame RcRelease RcLab RcRef RcStep RcStep2.

Section step.
Context {A : Type}.
Implicit Types (p q : ptr) (s : mem A) (W SH : list (atree A)) (Hs : list ptr) (ψ : gmap ptr nat) (c : rst A) (σ : rss A) (Wm : gmap nat (atree A)).
Local Notation REnv F := (@ClientRef.REnv A F []).
Local Notation trees Wm := ((map_to_list Wm).*2).

Ltac hnd HR h := let H := fresh "Hh" in pose proof (RI_handle HR h) as H;
  match type of H with match rs_h ?σ !! h with _ => _ end => let i := fresh "i" in destruct (rs_h σ !! h) as [i|] eqn:?;
    [destruct H as (p & pl & a & aks & S1 & S2 & D & L1 & L2 & C & ks & Hrh & HSH & Hsh & HS1 & HS2 & HD & Hi & Hks & Hfind & HI); rewrite Hrh, ?Hfind
    |rewrite H] end.
Ltac bad := eexists; split; [reflexivity|by eexists _, _, _, _, _].
Ltac start := intros c σ (Wm & SH & Hs & s & ψ & HR) Hok; cbn [rstep rsstep]; unfold reading, writing, on_node.
Ltac reads HR HI Hi i := rewrite (read_call _ _ _ _ _ _ _ _ _ i _ _ _ _ _ _ HR HI Hi); match goal with |- context [readable ?σ i] => destruct (readable σ i); [|done] end.
Ltac writes HR HI Hi i := rewrite (write_call _ _ _ _ _ _ _ _ _ i _ _ _ _ _ _ HR HI Hi); match goal with |- context [writable ?σ i] => destruct (writable σ i); [|done] end.
Ltac free HR h := let H := fresh "Hfree" in pose proof (free_handle _ _ _ _ _ _ _ h HR) as H;
  match type of H with match rs_h ?σ !! h with _ => _ end => destruct (rs_h σ !! h) eqn:?; [destruct H as [? ->]; bad|rewrite H] end.


(** ** weak references *)
Lemma RI_scat c σ Wm SH Hs s ψ p pl : RInv c σ Wm SH Hs s ψ -> (p, pl) ∈ infoss SH -> m_vec s !! p.1 = None <-> pl = false.
Proof.
  intros HR Hp. assert ((p, pl) ∈ infoss (trees Wm ++ SH)) as Hin by (rewrite infoss_app; apply elem_of_app; by right). destruct pl.
  - destruct (mi_pile _ _ _ (RI_minv HR) p Hin) as [x Hx]. rewrite Hx. done.
  - split; [done|]. intros _. eapply mi_scat; [exact (RI_minv HR)|exact Hin].
Qed.
Lemma step_down h w : rstep_good (A:=A) (SDown h w).
Proof.
  start. pose proof (opt_rel_look _ _ _ w (iv_w _ _ _ _ _ _ _ HR)) as Hw. destruct (rs_w σ !! w) as [j|]; [destruct Hw as (? & -> & _); bad|]. rewrite Hw.
  simpl in Hok. hnd HR h; [|bad]. rewrite Hrh in Hok. destruct pl; [done|]. cbn [rform rc_downgrade]. eexists; split; [reflexivity|].
  assert (m_vec s !! p.1 = None) as Hv. { apply (RI_scat _ _ _ _ _ _ _ p false HR); [|done]. rewrite HSH. apply in_infoss. }
  exists Wm, SH, Hs, s, ψ. destruct HR as [R1 R2 R3 R4 R5 R6 R7 R8 R9 R10]. split; simpl; try done. refine (opt_rel_insert _ _ _ _ _ _ R7 _).
  by exists p.
Qed.
Lemma RI_alive_iff c σ Wm SH Hs s ψ p i : RInv c σ Wm SH Hs s ψ -> ψ !! p = Some i -> p ∈ addrss SH <-> i ∈ lids (rs_sh σ).
Proof. intros HR Hi. eapply ids_iff; [apply (iv_id _ _ _ _ _ _ _ HR)|apply lreps_ids, HR|done]. Qed.
Lemma step_up w h : rstep_good (A:=A) (SUp w h).
Proof.
  start. free HR h. pose proof (opt_rel_look _ _ _ w (iv_w _ _ _ _ _ _ _ HR)) as Hw. destruct (rs_w σ !! w) as [i|]; [|rewrite Hw; bad].
  destruct Hw as (x & -> & p & -> & Hi & Hv). pose proof (RI_alive_iff _ _ _ _ _ _ _ _ _ HR Hi) as Hiff. cbn [weak_upgrade].
  destruct (decide (i ∈ lids (rs_sh σ))) as [Hin|Hin].
  - apply Hiff in Hin. apply infoss_addrss in Hin as [pl Hp]. apply (RI_scat _ _ _ _ _ _ _ p pl HR Hp) in Hv as Hpl. subst pl.
    assert ((p, false) ∈ infoss (trees Wm ++ SH)) as Hp2 by (rewrite infoss_app; apply elem_of_app; by right).
    unfold call. rewrite (iv_mem _ _ _ _ _ _ _ HR). cbn [m_cnt addc adj]. rewrite map_lookup_imap, (alive_cnt _ _ _ _ (RI_minv HR) Hp2). cbn [option_map fmap option_fmap option_bind mbind].
    unfold bind. fold (addc Hs s). rewrite (cnt_incr_alive _ _ _ _ _ (RI_minv HR) Hp2 Hv). cbn [ret rgive give]. eexists; split; [reflexivity|].
    exact (RI_give c σ Wm SH Hs s ψ h p false i HR Hfree Hp Hi).
  - assert (m_cnt s !! p = None) as Hc.
    { destruct (m_cnt s !! p) as [n|] eqn:E; [|done]. exfalso. destruct (mi_cnt2 _ _ _ (RI_minv HR) p ltac:(eauto)) as [Hh|[x Hx]]; [|congruence].
      apply Hin, Hiff. destruct (iv_id _ _ _ _ _ _ _ HR) as (_ & _ & Hd). by apply (Hd p i Hi). }
    unfold call. rewrite (iv_mem _ _ _ _ _ _ _ HR). cbn [m_cnt addc adj]. rewrite map_lookup_imap, Hc. cbn [option_map fmap option_fmap option_bind mbind give rgive].
    eexists; split; [reflexivity|]. by eapply RI_same.
Qed.
Lemma step_dropweak w : rstep_good (A:=A) (SDropWeak w).
Proof.
  start. pose proof (opt_rel_look _ _ _ w (iv_w _ _ _ _ _ _ _ HR)) as Hw. destruct (rs_w σ !! w) as [i|]; [|rewrite Hw; bad].
  destruct Hw as (x & -> & p & -> & Hi & Hv). cbn [weak_drop]. unfold call, ret. eexists; split; [reflexivity|].
  exists Wm, SH, Hs, s, ψ. destruct HR as [R1 R2 R3 R4 R5 R6 R7 R8 R9 R10]. split; simpl; try done. refine (opt_rel_delete _ _ _ _ R7).
Qed.

(** ** guards *)
Lemma gons_new (H : gmap nat rnode) (G : gmap nat (nat * bool)) g h m p q r : G !! g = None -> H !! h = Some r -> raddr r = p ->
  gons H (<[g := (h, m)]> G) q ≡ₚ (if decide (p = q) then [m] else []) ++ gons H G q.
Proof.
  intros Hg Hh Hr. unfold gons. rewrite (map_to_list_insert _ _ _ Hg). cbn. rewrite Hh. cbn. rewrite Hr.
  destruct (decide (p = q)) as [->|Hne]; [by rewrite decide_True|]. by rewrite decide_False by congruence.
Qed.
Lemma gflag_perm l l' : l ≡ₚ l' -> gflag l = gflag l'.
Proof.
  intros Hp. unfold gflag. rewrite (Permutation_length Hp). destruct (decide (true ∈ l)) as [Hl|Hl].
  - rewrite decide_True; [done|]. by rewrite <-Hp.
  - rewrite decide_False; [done|]. by rewrite <-Hp.
Qed.
Lemma flag_insert (B : gmap ptr Z) p q z : flag (<[p := z]> B) q = if decide (p = q) then z else flag B q.
Proof. unfold flag. destruct (decide (p = q)) as [->|Hne]; [by setoid_rewrite lookup_insert|by setoid_rewrite (lookup_insert_ne B p q z Hne)]. Qed.
Lemma grel_guard H G B g h m r p z : grel H G B -> G !! g = None -> H !! h = Some r -> raddr r = p ->
  (m = true -> gons H G p = [] /\ z = (-1)%Z) -> (m = false -> true ∉ gons H G p /\ z = (flag B p + 1)%Z) -> grel H (<[g := (h, m)]> G) (<[p := z]> B).
Proof.
  intros (G1 & G2 & G3) Hg Hh Hr Ht Hf. split_and!.
  - intros g' h' m'. destruct (decide (g = g')) as [<-|]; [rewrite lookup_insert; intros [= <- _]; eauto|]. rewrite lookup_insert_ne by done. apply G1.
  - intros q. rewrite (gflag_perm _ _ (gons_new H G g h m p q r Hg Hh Hr)), flag_insert. destruct (decide (p = q)) as [<-|]; [|apply G2]. destruct m.
    + destruct (Ht eq_refl) as [-> ->]. simpl. unfold gflag. by rewrite decide_True by left.
    + destruct (Hf eq_refl) as [Hn ->]. rewrite G2. unfold gflag. rewrite (decide_False _ _ Hn), decide_False by (simpl; rewrite elem_of_cons; intros [?|?]; done). simpl. lia.
  - intros q. pose proof (gons_new H G g h m p q r Hg Hh Hr) as Hp. intros Hin. rewrite Hp in Hin. revert Hin. destruct (decide (p = q)) as [<-|].
    2: { simpl in *. intros Hq. apply Permutation_singleton_r. rewrite Hp. by rewrite (G3 _ Hq). }
    destruct m.
    + destruct (Ht eq_refl) as [E ->]. intros _. apply Permutation_singleton_r. by rewrite Hp, E.
    + destruct (Hf eq_refl) as [Hn ->]. simpl. rewrite elem_of_cons. intros [?|?]; done.
Qed.
Lemma grel_unguard H G B g h (m : bool) r p : grel H G B -> G !! g = Some (h, m) -> H !! h = Some r -> raddr r = p ->
  grel H (delete g G) (<[p := (if m then flag B p + 1 else flag B p - 1)%Z]> B).
Proof.
  intros (G1 & G2 & G3) Hg Hh Hr.
  assert (forall q, gons H G q ≡ₚ (if decide (p = q) then [m] else []) ++ gons H (delete g G) q) as Hp.
  { intros q. rewrite <-(insert_delete G g (h, m) Hg) at 1. eapply gons_new; [apply lookup_delete|done|done]. }
  assert (forall q, true ∈ gons H (delete g G) q -> gons H G q = [true]) as H3.
  { intros q Hq. apply G3. rewrite Hp. apply elem_of_app. by right. }
  split_and!.
  - intros g' h' m' [_ Hl]%lookup_delete_Some. by eapply G1.
  - intros q. rewrite flag_insert. specialize (Hp q). rewrite !G2. destruct (decide (p = q)) as [<-|]; [|by apply gflag_perm]. simpl in Hp.
    rewrite (gflag_perm _ _ Hp). destruct m.
    + assert (gons H G p = [true]) as E by (apply G3; rewrite Hp; left). rewrite E in Hp. apply Permutation_cons_inv, Permutation_nil_l in Hp. rewrite <-Hp. done.
    + destruct (decide (true ∈ gons H (delete g G) p)) as [Hx|Hx].
      * exfalso. pose proof (H3 _ Hx) as E. rewrite E in Hp. apply Permutation_singleton_l in Hp. done.
      * unfold gflag. rewrite (decide_False _ _ Hx), decide_False by (rewrite elem_of_cons; intros [?|?]; done). simpl. lia.
  - intros q Hq. specialize (Hp q). pose proof (H3 q Hq) as E. rewrite E in Hp. destruct (decide (p = q)); [|simpl in Hp; symmetry in Hp; by apply Permutation_singleton_r].
    exfalso. apply Permutation_length in Hp. simpl in Hp. destruct (gons H (delete g G) q); [by apply elem_of_nil in Hq|]. simpl in Hp. lia.
Qed.
Lemma RI_guards c σ Wm SH Hs s ψ G B : RInv c σ Wm SH Hs s ψ -> grel (r_h c) G B -> RI (set_rg (set_mem c (addc Hs s)) G B) (set_g σ G).
Proof. intros [R1 R2 R3 R4 R5 R6 R7 R8 R9 R10] HG. exists Wm, SH, Hs, s, ψ. by split. Qed.
Lemma borrow_call c σ Wm SH Hs s ψ p pl i D a aks W k : RInv c σ Wm SH Hs s ψ -> MInvX s (plug D (AN p pl (Some a) aks) :: W) [] -> ψ !! p = Some i ->
  call c (node_borrow (r_b c) (rform p pl)) k = if readable σ i then k tt (addc Hs s) else RFails EPanic.
Proof.
  intros HR HI Hi. unfold call. rewrite (iv_mem _ _ _ _ _ _ _ HR). unfold addc. rewrite (borrow_eq _ _ _ _ _ _ _ _ _ _ HI), (flag_readable HR p i Hi).
  by destruct (readable σ i).
Qed.
Lemma borrow_mut_call c σ Wm SH Hs s ψ p pl i D a aks W k : RInv c σ Wm SH Hs s ψ -> MInvX s (plug D (AN p pl (Some a) aks) :: W) [] -> ψ !! p = Some i ->
  call c (node_borrow_mut (r_b c) (rform p pl)) k = if writable σ i then k tt (addc Hs s) else RFails EPanic.
Proof.
  intros HR HI Hi. unfold call. rewrite (iv_mem _ _ _ _ _ _ _ HR). unfold addc. rewrite (borrow_mut_eq _ _ _ _ _ _ _ _ _ _ HI), (flag_writable HR p i Hi).
  by destruct (writable σ i).
Qed.
Lemma step_guard m h g : rstep_good (A:=A) (SGuard m h g).
Proof.
  start. pose proof (iv_gs _ _ _ _ _ _ _ HR) as Hgs. rewrite <-Hgs. destruct (r_g c !! g) as [x|] eqn:Eg; [destruct m; bad|].
  hnd HR h; [|destruct m; bad]. pose proof (gons_guards HR p i Hi) as Hgo. destruct m.
  - rewrite (borrow_mut_call _ _ _ _ _ _ _ _ _ i _ _ _ _ _ HR HI Hi). destruct (writable σ i) eqn:Ew; [|done]. eexists; split; [reflexivity|].
    apply (RI_guards _ _ _ _ _ _ _ _ _ HR). eapply (grel_guard _ _ _ _ _ _ (rform p pl)); [apply HR|done|done|done| |done]. intros _. split; [|done].
    rewrite raddr_rform, Hgo. unfold writable in Ew. by apply bool_decide_eq_true in Ew.
  - rewrite (borrow_call _ _ _ _ _ _ _ _ _ i _ _ _ _ _ HR HI Hi). destruct (readable σ i) eqn:Ew; [|done]. eexists; split; [reflexivity|].
    apply (RI_guards _ _ _ _ _ _ _ _ _ HR). eapply (grel_guard _ _ _ _ _ _ (rform p pl)); [apply HR|done|done|done|done|]. intros _. split; [|done].
    rewrite raddr_rform, Hgo. unfold readable in Ew. by apply bool_decide_eq_true in Ew.
Qed.
Lemma step_unguard g : rstep_good (A:=A) (SUnguard g).
Proof.
  start. pose proof (iv_gs _ _ _ _ _ _ _ HR) as Hgs. rewrite <-Hgs. destruct (r_g c !! g) as [[h m]|] eqn:Eg; [|bad].
  destruct (guard_handle _ _ _ _ _ _ _ _ _ _ HR Eg) as [r Hr]. rewrite Hr. eexists; split; [reflexivity|].
  assert (c = set_mem c (addc Hs s)) as Hc by (rewrite <-(iv_mem _ _ _ _ _ _ _ HR); by destruct c). rewrite Hc at 1. cbn [r_g set_mem r_b].
  apply (RI_guards _ _ _ _ _ _ _ _ _ HR). eapply grel_unguard; [apply HR|done|done|done].
Qed.

(** ** iterators *)
Lemma RI_iter c σ Wm SH Hs s ψ it x y : RInv c σ Wm SH Hs s ψ -> option_Forall2 (fun p i => ψ !! p = Some i) (ci_curr x) y.1 -> ci_len x = y.2 ->
  RInv (set_rit (set_mem c (addc Hs s)) (<[it := x]> (r_it c))) (set_it σ (<[it := y]> (rs_it σ))) Wm SH Hs s ψ.
Proof. intros [R1 R2 R3 R4 R5 R6 R7 R8 R9 R10] H1 H2. split; simpl; try done. refine (opt_rel_insert _ _ _ _ _ _ R10 _). done. Qed.
Lemma step_iter h it : rstep_good (A:=A) (SIter h it).
Proof.
  start. pose proof (opt_rel_look _ _ _ it (iv_it _ _ _ _ _ _ _ HR)) as Hit. destruct (rs_it σ !! it) as [y|]; [destruct Hit as (? & -> & _); bad|]. rewrite Hit.
  hnd HR h; [|bad]. unfold rc_iter. reads HR HI Hi i. rewrite raddr_rform. cbn [lkids].
  assert (iter p s = Ok (match hdp aks None with Some c => CIter (Some c) (length aks) | None => CIter None 0 end) s) as Hiter.
  { unfold iter, bind, get. rewrite (lookup_at _ _ _ _ _ _ _ _ HI). done. }
  rewrite (call_ok _ _ _ _ _ _ _ _ _ _ _ HR (hp_iter p) Hiter). eexists; split; [reflexivity|]. exists Wm, SH, Hs, s, ψ. apply (RI_iter _ _ _ _ _ _ _ _ _ _ HR).
  - destruct Hks as [|k x ? ? Hk _]; simpl; constructor. by apply lrep_lid.
  - rewrite <-(Forall2_length _ _ _ Hks). by destruct aks.
Qed.
Lemma hdp_F2 ψ R AR : Forall2 (lrep ψ) AR R -> option_Forall2 (fun p i => ψ !! p = Some i) (hdp AR None) (lid <$> head (A:=ltree A) R).
Proof. intros [|k x ? ? Hk _]; simpl; constructor. by apply lrep_lid. Qed.
Lemma step_next it h' : rstep_good (A:=A) (SNext it h').
Proof.
  start. free HR h'. pose proof (opt_rel_look _ _ _ it (iv_it _ _ _ _ _ _ _ HR)) as Hit. simpl in Hok. destruct (rs_it σ !! it) as [[cur n]|] eqn:Eit; [|rewrite Hit; bad].
  destruct Hit as (x & Hx & Hcur & Hn). rewrite Hx. cbn [fst snd] in Hcur, Hn. destruct x as [cx nx]. cbn [ci_curr ci_len] in Hcur, Hn. subst nx. unfold rc_iter_next.
  destruct n as [|n]; [|destruct Hcur as [q j Hj|]].
  - eexists; split; [reflexivity|]. exists Wm, SH, Hs, s, ψ. cbn [snd]. rewrite (insert_id (r_it c)) by done.
    destruct HR as [R1 R2 R3 R4 R5 R6 R7 R8 R9 R10]. by split.
  - apply (RI_alive_iff _ _ _ _ _ _ _ _ _ HR Hj) in Hok as Hq. destruct (locate ψ SH (rs_sh σ) q) as (S1 & S2 & D & av & L1 & L2 & C & t & HSH & Hsh & Ha & HS1 & HS2 & HD & Ht); [apply HR|done|].
    destruct Ht as [q' ql a aks j' ks Hj' Hks]. cbn [aptr] in Ha. subst q'. assert (j' = j) as -> by congruence.
    assert (MInvX s (plug D (AN q ql (Some a) aks) :: trees Wm ++ S1 ++ S2) []) as HI.
    { eapply MInv_perm; [|exact (RI_minv HR)]. rewrite HSH. solve_Permutation. }
    assert (ci_next (CIter (Some q) (S n)) s = Ok (Some q, CIter (next_of D) n) s) as Hnext.
    { unfold ci_next, bind, get. cbn [ci_len ci_curr]. rewrite (lookup_at _ _ _ _ _ _ _ _ HI). done. }
    rewrite (call_bind _ _ _ _ _ _ (mem_ok _ _ _ _ _ _ _ _ _ _ HR (hp_ci_next _) Hnext)). cbn [fst snd option_rc].
    assert (rc q (r_mem (set_mem c (addc Hs s))) = Ok (rform q ql) (addc (q :: Hs) s)) as Hrc.
    { cbn [r_mem set_mem]. rewrite <-(iv_mem _ _ _ _ _ _ _ HR). by eapply rc_of. }
    assert ((let! r := rc q in ret (Some r)) (r_mem (set_mem c (addc Hs s))) = Ok (Some (rform q ql)) (addc (q :: Hs) s)) as Hrc2.
    { unfold bind. rewrite Hrc. done. }
    rewrite (call_bind _ _ _ _ _ _ Hrc2). unfold call, ret. cbn [r_mem set_mem fst snd rgive give]. eexists; split; [reflexivity|].
    assert (option_Forall2 (fun p i => ψ !! p = Some i) (next_of D) (lnext j (rs_sh σ))) as Hnx.
    { unfold lnext. destruct HD as [|fr fr' D' C' Hf HD'].
      - rewrite (up_root _ _ _ _ _ _ _ _ _ _ _ _ HR Hsh). constructor.
      - destruct Hf as [u ul b AL AR k L R Hk HL HRR]. rewrite lplug_cons in Hsh. cbn [lplug1] in Hsh. destruct (up_some _ _ _ _ _ _ _ _ _ _ _ _ _ _ _ _ _ HR Hsh) as (-> & HnL & HnR).
        cbn [lkids next_of]. assert (follower j (L ++ LN j a ks :: R) = lid <$> head R) as -> by exact (follower_at (LN j a ks) L R HnL). by apply hdp_F2. }
    pose proof (RI_iter c σ Wm SH Hs s ψ it (CIter (next_of D) n) (lnext j (rs_sh σ), n) HR Hnx eq_refl) as HR'.
    refine (RI_give _ _ Wm SH Hs s ψ h' q ql j HR' Hfree _ Hj). rewrite HSH. apply in_infoss.
  - unfold ci_next. cbn [ci_len ci_curr]. eexists; split; [reflexivity|]. exists Wm, SH, Hs, s, ψ.
    cbn [snd]. assert (set_mem c (r_mem c) = set_mem c (addc Hs s)) as -> by by rewrite (iv_mem _ _ _ _ _ _ _ HR).
    apply (RI_iter c σ Wm SH Hs s ψ it (CIter None n) (None, n) HR); [constructor|done].
Qed.

(** ** [deep_clone] *)
Lemma step_deepclone h x : rstep_good (A:=A) (SDeepClone h x).
Proof.
  start. pose proof (RI_var _ _ _ _ _ _ _ x HR) as Hv. destruct (env_of σ !! x) as [[xt|xs]|] eqn:Ey.
  1: { destruct Hv as (k & _ & _ & ->). bad. }
  1: { destruct Hv as (k & _ & _ & ->). bad. }
  destruct Hv as [Hx ->]. hnd HR h; [|bad]. unfold rc_deep_clone. reads HR HI Hi i. rewrite raddr_rform.
  assert (lrep ψ (AN p pl (Some a) aks) (LN i a ks)) as Hrep by by constructor.
  destruct (deep_clone_spec (EL := []) s (trees Wm ++ SH) D (AN p pl (Some a) aks) (erase (LN i a ks))) as (t' & s' & E & HI' & Hr & _ & Hlog).
  { exists (trees Wm ++ S1 ++ S2). rewrite HSH. solve_Permutation. } { by eapply lrep_erase. } { exact (RI_minv HR). }
  cbn [aptr] in E.
  assert (deep_clone p (r_mem c) = Ok (aptr t') (addc Hs s')) as Hrun.
  { eapply (RI_lift HR); [apply comm_deep_clone|exact E|exact HI'|]. intros z Hz. rewrite addrss_cons, addrss_app, !elem_of_app. auto. }
  rewrite (call_run _ _ _ _ _ Hrun). eexists; split; [reflexivity|].
  refine (RI_gen0 c σ Wm SH Hs s ψ (<[x := t']> Wm) SH Hs s' (r_h c) (rs_h σ) (<[x := HT (aptr t')]> (r_env c)) (rs_sh σ) (SSt (<[x := ITree (erase (LN i a ks))]> (env_of σ)) (s_log (rs_x σ))) HR _ _ _ _ _ _ _).
  - eapply comm_evolves; [|exact E]. apply comm_deep_clone.
  - done.
  - rewrite <-(hof_T _ _ Hr). refine (RE_new _ _ _ _ _ _ (ITree (erase (LN i a ks))) _ (iv_env _ _ _ _ _ _ _ HR) Hx HI' Hr).
  - simpl. rewrite Hlog. apply HR.
  - apply HR.
  - apply HR.
  - apply HR.
Qed.

(** ** exclusively owned trees *)
Lemma sstep_none (σ : sst A) o : sstep σ o = None -> (exists e h path y, o = OInsert e h path y) \/ (exists h path x, o = ODetach h path x).
Proof.
  destruct σ as [env log]. destruct o; try (intros _; left; eauto; fail); try (intros _; right; eauto; fail); intros H; exfalso; revert H; cbn [sstep s_env s_log];
    repeat (case_match; try done).
Qed.
Lemma step_x o : rstep_good (A:=A) (SX o).
Proof.
  start. pose proof (ClientStep.step_ok (F:=SH) (EL:=[]) o (CSt (r_env c) s) (rs_x σ)) as Hs'. 
  assert (@ClientRef.CInv A SH [] (CSt (r_env c) s) (rs_x σ)) as HC. { exists Wm. split; [apply HR|apply HR]. }
  specialize (Hs' HC). unfold step in Hs'. cbn [c_env c_mem] in Hs'. destruct (sstep (rs_x σ) o) as [[r x']|] eqn:Es.
  - destruct Hs' as (c' & Hc' & Wm' & HR' & Hl'). destruct (cstep (r_env c) o s) as [[r' env'] s'|] eqn:E; [|done]. inversion Hc'; subst r' c'. clear Hc'. cbn [c_env c_mem] in *.
    assert (cstep (r_env c) o (r_mem c) = Ok (r, env') (addc Hs s')) as Hrun.
    { eapply (RI_lift HR); [apply comm_cstep|exact E|exact (re_inv _ _ _ _ HR')|]. intros z Hz. unfold ClientRef.vals. rewrite addrss_app, elem_of_app. auto. }
    rewrite (call_run _ _ _ _ _ Hrun). eexists; split; [reflexivity|]. cbn [fst snd].
    refine (RI_gen0 c σ Wm SH Hs s ψ Wm' SH Hs s' (r_h c) (rs_h σ) env' (rs_sh σ) x' HR _ _ HR' Hl' _ _ _).
    + eapply comm_evolves; [|exact E]. apply comm_cstep.
    + done.
    + apply HR.
    + apply HR.
    + apply HR.
  - destruct (cstep (r_env c) o s) as [[r' env'] s'|e] eqn:E; [done|]. inversion Hs'; subst e.
    apply sstep_none in Es as [(e & h & path & y & ->)|(h & path & x & ->)].
    + apply (call_err _ _ _ _ _ _ _ _ _ _ HR (hp_cstep_insert _ _ _ _ _) E).
    + apply (call_err _ _ _ _ _ _ _ _ _ _ HR (hp_cstep_detach _ _ _ _) E).
Qed.
End step.
