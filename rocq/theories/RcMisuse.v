(** RcMisuse.v — what happens in the histories outside [allowed]. *)
From stdpp Require Import base gmap list.
From Verif Require Import Spec ClientSpec RcSpec Machine NodeModel BfsModel ClientModel RcModel RcAllowed RcClient RcMisuseSpec Sep Rep NodeProofs Inv Abs ClientProofs ClientRef ClientProps CountFrame RcRelease RcLab RcRef RcStep RcStep4 RcBorrow RcProps RcProps2.

Section misuse.
Context {A : Type}.
Implicit Types (c : rst A) (σ : rss A) (o : rop A) (s : mem A).

Lemma piled_facts c σ h v i : reached c σ -> r_h c !! h = Some (RPile v i) ->
  is_Some (m_heap (r_mem c) !! ((v, i) : ptr)) /\ (exists cap k, m_vec (r_mem c) !! v = Some (cap, S k)) /\ exists n, m_cnt (r_mem c) !! ((v, i) : ptr) = Some (S n).
Proof.
  intros HR Hr. pose proof (RI_node_alive _ _ _ _ (reached_RI _ _ HR) Hr) as Ha. apply reached_RI in HR. destruct HR as (Wm & SH & Hs & s & ψ & HR).
  pose proof (RI_handle HR h) as H. destruct (rs_h σ !! h) as [j|]; [|congruence].
  destruct H as (p & pl & a & aks & S1 & S2 & D & L1 & L2 & C & ks & Hrh & _ & _ & _ & _ & _ & _ & _ & Hf & HI). rewrite Hrh in Hr. destruct pl; [|done]. cbn in Hr. injection Hr as <- <-.
  assert ((p, true) ∈ infoss (plug D (AN p true (Some a) aks) :: (map_to_list Wm).*2 ++ S1 ++ S2)) as Hin. { rewrite infoss_cons, plug_infos. rewrite !elem_of_app. left. left. left. }
  split; [by destruct p|]. destruct (alive_vec s _ p HI Hin) as (cap & rc & Hv & _). pose proof (alive_cnt _ _ _ _ HI Hin) as Hc. rewrite (iv_mem _ _ _ _ _ _ _ HR).
  cbn [m_vec m_cnt addc adj]. rewrite !map_lookup_imap, Hv. split; [cbn; eauto|]. destruct p as [p1 p2]. cbn [fst snd] in *. rewrite Hc. cbn. eauto.
Qed.

(** the state with one reference less for the buffer *)
Definition less c v k cap : rst A :=
  let s := r_mem c in
  set_mem c match k with
            | 0 => Mem (filter (fun x => x.1.1 <> v) (m_heap s)) (filter (fun x => x.1.1 <> v) (m_cnt s)) (delete v (m_vec s)) (m_fresh s) (m_log s)
            | S _ => Mem (m_heap s) (m_cnt s) (<[v := (cap, k)]> (m_vec s)) (m_fresh s) (m_log s)
            end.

Definition ready c h v i cap k : Prop := grel (r_h c) (r_g c) (r_b c) /\ r_h c !! h = Some (RPile v i) /\ is_Some (m_heap (r_mem c) !! ((v, i) : ptr)) /\
  m_vec (r_mem c) !! v = Some (cap, k) /\ exists n, m_cnt (r_mem c) !! ((v, i) : ptr) = Some (S n).
Lemma ready_less c h v i cap k k' : ready c h v i cap k -> ready (less c v (S k') cap) h v i cap (S k').
Proof. intros (HG & Hh & Hp & Hv & Hn). unfold ready, less. cbn. rewrite lookup_insert. eauto 10. Qed.

Lemma not_guarded c h' : grel (r_h c) (r_g c) (r_b c) -> r_h c !! h' = None -> h' ∉ ((map_to_list (r_g c)).*2).*1.
Proof.
  intros HG Hh' Hin. apply elem_of_list_fmap in Hin as ([h0 m0] & -> & Hin). apply elem_of_list_fmap in Hin as ([g hm] & Heq & Hin). cbn in Heq. subst hm.
  apply elem_of_map_to_list in Hin. destruct HG as (H1 & _). destruct (H1 _ _ _ Hin) as [? ?]. cbn in *. congruence.
Qed.

Lemma drop_extra c1 h' v i cap k n : r_h c1 !! h' = Some (RPile v i) -> h' ∉ ((map_to_list (r_g c1)).*2).*1 -> is_Some (m_heap (r_mem c1) !! ((v, i) : ptr)) ->
  m_vec (r_mem c1) !! v = Some (cap, S k) -> m_cnt (r_mem c1) !! ((v, i) : ptr) = Some (S (S n)) ->
  rstep c1 (SDrop h') = RDone RUnit (less (set_rh (set_mem c1 (Mem (m_heap (r_mem c1)) (<[(v, i) : ptr := S n]> (m_cnt (r_mem c1))) (m_vec (r_mem c1)) (m_fresh (r_mem c1)) (m_log (r_mem c1)))) (delete h' (r_h c1))) v k cap).
Proof.
  intros Hh Hg [nd Hnd] Hv Hn. cbn [rstep]. rewrite Hh. rewrite bool_decide_false by exact Hg. unfold call, rc_drop_handle, fuel, gets, bind. rewrite Nat.mul_succ_r, Nat.add_comm. cbn [Nat.add rc_drop_loop].
  unfold bind, vec_ref, cnt_decr. rewrite Hv, Hn. cbn [Nat.eqb]. unfold ret, decr_ref. cbn [m_vec m_heap m_cnt m_fresh m_log]. rewrite Hv. destruct k as [|k]; done.
Qed.

Lemma run2 c o1 o2 x y c1 c2 : rstep c o1 = RDone x c1 -> rstep c1 o2 = RDone y c2 -> rrun c [o1; o2] = RDone [x; y] c2.
Proof. intros E1 E2. cbn [rrun]. by rewrite E1, E2. Qed.
Lemma clone_drop_round c h h' v i cap k : ready c h v i cap (S k) -> r_h c !! h' = None ->
  rrun c [SClone h h'; SDrop h'] = RDone [RUnit; RUnit] (less c v k cap).
Proof.
  intros (HG & Hh & Hnd & Hv & [n Hn]) Hh'. eapply run2; [cbn [rstep]; rewrite Hh', Hh; unfold call, rc_clone, bind, vec_ref, cnt_incr; rewrite Hv, Hn; unfold ret; reflexivity|].
  erewrite (drop_extra _ h' v i cap k n); cbn [r_h r_g r_mem m_heap m_vec m_cnt set_mem set_rh m_fresh m_log]; [|by rewrite lookup_insert|by apply not_guarded|done|done|by rewrite lookup_insert].
  rewrite delete_insert by done. rewrite insert_insert. unfold less, set_mem, set_rh. cbn. rewrite (insert_id (m_cnt (r_mem c)) _ _ Hn). done.
Qed.
Lemma down_drop_round c h w v i cap k : ready c h v i cap (S k) -> r_w c !! w = None ->
  rrun c [SDown h w; SDropWeak w] = RDone [RUnit; RUnit] (less c v k cap).
Proof.
  intros (HG & Hh & Hnd & Hv & [n Hn]) Hw. eapply run2; [cbn [rstep]; rewrite Hw, Hh; reflexivity|]. cbn [rstep rc_downgrade set_rw r_w]. rewrite lookup_insert. unfold call, weak_drop, decr_ref, set_rw. cbn [r_mem]. rewrite Hv.
  unfold less. destruct k; cbn; rewrite delete_insert by done; done.
Qed.
Lemma up_drop_round c h h' w v i cap k : ready c h v i cap (S k) -> r_w c !! w = Some (WPile v i) -> r_h c !! h' = None ->
  rrun c [SUp w h'; SDrop h'] = RDone [RBool true; RUnit] (less c v k cap).
Proof.
  intros (HG & Hh & Hnd & Hv & [n Hn]) Hw Hh'. eapply run2; [cbn [rstep]; rewrite Hh', Hw; unfold call, weak_upgrade, bind, vec_ref, cnt_get, cnt_incr; rewrite Hv, Hn; cbn; rewrite Hn; cbn; reflexivity|].
  erewrite (drop_extra _ h' v i cap k n); cbn [r_h r_g r_mem m_heap m_vec m_cnt set_mem set_rh m_fresh m_log]; [|by rewrite lookup_insert|by apply not_guarded|done|done|by rewrite lookup_insert].
  rewrite delete_insert by done. rewrite insert_insert. unfold less, set_mem, set_rh. cbn. rewrite (insert_id (m_cnt (r_mem c)) _ _ Hn). done.
Qed.

Lemma times_S {X} n (l : list X) : times (S n) l = l ++ times n l.
Proof. done. Qed.

(** after as many rounds as there are references, the buffer is gone and nothing else has changed *)
Lemma rounds (os : list (rop A)) (P : rst A -> Prop) h v i cap : (forall c k, P c -> P (less c v k cap)) ->
  (forall c k, P c -> ready c h v i cap (S k) -> exists rs, rrun c os = RDone rs (less c v k cap)) ->
  forall k c, P c -> ready c h v i cap (S k) -> exists rs c', rrun c (times (S k) os) = RDone rs c' /\
    r_h c' = r_h c /\ r_env c' = r_env c /\ r_w c' = r_w c /\ r_g c' = r_g c /\ r_it c' = r_it c /\ m_vec (r_mem c') !! v = None.
Proof.
  intros HP Hround. induction k as [|k IH]; intros c Hc HR.
  - destruct (Hround c 0 Hc HR) as (rs & E). rewrite times_S. pose proof (rrun_app os (times 0 os) c rs _ E) as E2. rewrite E2. cbn.
    exists (rs ++ []), (less c v 0 cap). cbn. rewrite lookup_delete. auto 10.
  - destruct (Hround c (S k) Hc HR) as (rs & E). rewrite times_S. pose proof (rrun_app os (times (S k) os) c rs _ E) as E2. rewrite E2.
    destruct (IH (less c v (S k) cap) (HP _ _ Hc) (ready_less _ _ _ _ _ _ _ HR)) as (rs2 & c' & E3 & H). rewrite E3. cbn in *. eauto 10.
Qed.

(** every use of a handle whose buffer is gone *)
Lemma gone_ub c o h v i : uses o = Some h -> well_typed c o -> r_h c !! h = Some (RPile v i) -> m_vec (r_mem c) !! v = None -> rstep c o = RFails EUB.
Proof.
  intros Hu' [Ht Hc] Hh Hv.
  assert (vec_ref v (r_mem c) = Err EUB) as Hve by (unfold vec_ref; by rewrite Hv).
  assert (forall B, node_borrow B (RPile v i) (r_mem c) = Err EUB) as H1. { intros B. unfold node_borrow, bind at 1, acquire. by rewrite Hve. }
  assert (forall B, node_borrow_mut B (RPile v i) (r_mem c) = Err EUB) as H2. { intros B. unfold node_borrow_mut, bind at 1, acquire. by rewrite Hve. }
  assert (forall (X : Type) (m : M A X) B, (node_borrow B (RPile v i) ;; m) (r_mem c) = Err EUB) as G1. { intros X m B. unfold bind. by rewrite H1. }
  assert (forall (X : Type) (m : M A X) B, (node_borrow_mut B (RPile v i) ;; m) (r_mem c) = Err EUB) as G2. { intros X m B. unfold bind. by rewrite H2. }
  destruct o; cbn in Hu'; try discriminate; try (injection Hu' as ->); try (destruct m; cbn in Hu'; try discriminate; injection Hu' as ->); cbn [typed] in Ht; cbn [rstep];
    repeat match goal with H : exists _, _ |- _ => destruct H as [? H] end.
  all: try rewrite Ht. all: rewrite ?Hh. all: unfold call.
  all: try (unfold rc_end, rc_parent, rc_data, rc_modify, rc_has_no_child, rc_degree, rc_node_count, rc_push, rc_pop, rc_concat, rc_insert, rc_detach, rc_deep_clone, rc_iter, rc_is_root; first [by rewrite G1|by rewrite G2]).
  - rewrite Hc. unfold rc_clone, bind. by rewrite Hve.
  - rewrite bool_decide_false by exact Hc. unfold rc_drop_handle, fuel, gets, bind. cbn [Nat.mul]. rewrite Nat.add_0_r, Nat.add_succ_l. cbn [rc_drop_loop]. unfold bind. by rewrite Hve.
  - by rewrite H2.
  - by rewrite H1.
Qed.

(** * The specification: nothing happens *)
Lemma srun2 σ o1 o2 x y σ1 σ2 : rsstep σ o1 = Some (x, σ1) -> rsstep σ1 o2 = Some (y, σ2) -> rsrun σ [o1; o2] = Some ([x; y], σ2).
Proof. intros E1 E2. cbn [rsrun]. by rewrite E1, E2. Qed.
Lemma set_h_id σ : set_h σ (rs_h σ) = σ.
Proof. by destruct σ. Qed.
Lemma spec_drop_extra σ h h' j : rs_h σ !! h = Some j -> rs_h σ !! h' = None -> h' ∉ ((map_to_list (rs_g σ)).*2).*1 ->
  rsstep (set_h σ (<[h' := j]> (rs_h σ))) (SDrop h') = Some (RUnit, σ).
Proof.
  intros Hh Hh' Hg. cbn [rsstep rs_h set_h rs_g]. rewrite lookup_insert, bool_decide_false by exact Hg. unfold drop_handle. cbn [rs_h set_h]. rewrite delete_insert by done.
  assert (held (rs_h σ) j = true) as ->. { unfold held. apply bool_decide_eq_true. apply elem_of_list_fmap. exists (h, j). split; [done|]. by apply elem_of_map_to_list. }
  unfold set_h. cbn. by destruct σ.
Qed.
Lemma spec_clone_drop σ h h' j t : rs_h σ !! h = Some j -> lfind j (rs_sh σ) = Some t -> rs_h σ !! h' = None -> h' ∉ ((map_to_list (rs_g σ)).*2).*1 ->
  rsrun σ [SClone h h'; SDrop h'] = Some ([RUnit; RUnit], σ).
Proof.
  intros Hh Hf Hh' Hg. eapply srun2; [cbn [rsstep]; unfold on_node; rewrite Hh', Hh, Hf; reflexivity|]. by eapply spec_drop_extra.
Qed.
Lemma spec_down_drop σ h w j t : rs_h σ !! h = Some j -> lfind j (rs_sh σ) = Some t -> rs_w σ !! w = None ->
  rsrun σ [SDown h w; SDropWeak w] = Some ([RUnit; RUnit], σ).
Proof.
  intros Hh Hf Hw. eapply srun2; [cbn [rsstep]; unfold on_node; rewrite Hw, Hh, Hf; reflexivity|]. cbn [rsstep rs_w set_w]. rewrite lookup_insert.
  unfold set_w. cbn. rewrite delete_insert by done. by destruct σ.
Qed.
Lemma spec_up_drop σ h h' w j : rs_h σ !! h = Some j -> j ∈ lids (rs_sh σ) -> rs_w σ !! w = Some j -> rs_h σ !! h' = None -> h' ∉ ((map_to_list (rs_g σ)).*2).*1 ->
  rsrun σ [SUp w h'; SDrop h'] = Some ([RBool true; RUnit], σ).
Proof.
  intros Hh Hf Hw Hh' Hg. eapply srun2; [cbn [rsstep]; rewrite Hh', Hw, decide_True by done; cbn [give]; reflexivity|]. by eapply spec_drop_extra.
Qed.
Lemma spec_times os rs σ n : rsrun σ os = Some (rs, σ) -> exists rs', rsrun (A:=A) σ (times n os) = Some (rs', σ).
Proof. intros E. induction n as [|n [rs' IH]]; [by exists []|]. rewrite times_S. pose proof (rsrun_app os (times n os) σ rs σ E) as E2. rewrite E2, IH. eauto. Qed.

(** * Clones, weak references and upgraded handles of a node in a buffer *)
Lemma well_typed_same c c' o : r_h c' = r_h c -> r_env c' = r_env c -> r_g c' = r_g c -> r_it c' = r_it c -> well_typed c o -> well_typed c' o.
Proof. intros E1 E2 E3 E4. unfold well_typed, typed. rewrite E1, E2, E3, E4. done. Qed.

Lemma reached_guard c σ h' : reached c σ -> rs_h σ !! h' = None -> r_h c !! h' = None /\ h' ∉ ((map_to_list (rs_g σ)).*2).*1.
Proof.
  intros HR Hh'. assert (r_h c !! h' = None) as Hc. { pose proof (handle_iff c σ h' HR) as H. rewrite Hh' in H. destruct (r_h c !! h'); [|done]. destruct (proj1 H) as [? [=]]. eauto. }
  split; [done|]. rewrite <-(RI_gs _ _ (reached_RI _ _ HR)). by apply not_guarded; [apply reachable_grel, (reached_reachable _ _ HR)|].
Qed.
Lemma reached_weak c σ w : reached c σ -> rs_w σ !! w = None -> r_w c !! w = None.
Proof. intros (Wm & SH & Hs & s & ψ & HR)%reached_RI Hw. pose proof (iv_w _ _ _ _ _ _ _ HR w) as H. rewrite Hw in H. by inversion H. Qed.
Lemma clone_wears_out c σ h h' v i : reached c σ -> r_h c !! h = Some (RPile v i) -> rs_h σ !! h' = None -> wears_out c σ h [SClone h h'; SDrop h'].
Proof.
  intros HR Hh Hh'. destruct (reached_guard _ _ _ HR Hh') as [Hc Hg]. destruct (handle_node _ _ _ _ HR Hh) as (_ & j & t & Hj & Ht & _).
  destruct (piled_facts _ _ _ _ _ HR Hh) as (Hnd & (cap & k & Hv) & Hn). split; [intros n; eapply spec_times; by eapply spec_clone_drop|].
  destruct (rounds [SClone h h'; SDrop h'] (fun c => r_h c !! h' = None) h v i cap) with (k := k) (c := c) as (rs & c' & E & E1 & E2 & E3 & E4 & E5 & E6).
  - done.
  - intros c0 k0 H0 H1. eexists. by eapply clone_drop_round.
  - done.
  - split; [apply reachable_grel, (reached_reachable _ _ HR)|]. auto.
  - exists (S k), rs, c'. split_and!; try done; [lia|]. intros o Ho Hw. eapply gone_ub; [done|by eapply well_typed_same|by rewrite E1|done].
Qed.
Lemma weak_wears_out c σ h w v i : reached c σ -> r_h c !! h = Some (RPile v i) -> rs_w σ !! w = None -> wears_out c σ h [SDown h w; SDropWeak w].
Proof.
  intros HR Hh Hw. pose proof (reached_weak _ _ _ HR Hw) as Hc. destruct (handle_node _ _ _ _ HR Hh) as (_ & j & t & Hj & Ht & _).
  destruct (piled_facts _ _ _ _ _ HR Hh) as (Hnd & (cap & k & Hv) & Hn). split; [intros n; eapply spec_times; by eapply spec_down_drop|].
  destruct (rounds [SDown h w; SDropWeak w] (fun c => r_w c !! w = None) h v i cap) with (k := k) (c := c) as (rs & c' & E & E1 & E2 & E3 & E4 & E5 & E6).
  - done.
  - intros c0 k0 H0 H1. eexists. by eapply down_drop_round.
  - done.
  - split; [apply reachable_grel, (reached_reachable _ _ HR)|]. auto.
  - exists (S k), rs, c'. split_and!; try done; [lia|]. intros o Ho Ht'. eapply gone_ub; [done|by eapply well_typed_same|by rewrite E1|done].
Qed.
(** with one weak reference, made first *)
Lemma up_wears_out c σ h h' w v i j : reached c σ -> r_h c !! h = Some (RPile v i) -> rs_h σ !! h = Some j -> rs_w σ !! w = None -> rs_h σ !! h' = None ->
  exists c1, rstep c (SDown h w) = RDone RUnit c1 /\ rsstep σ (SDown h w) = Some (RUnit, set_w σ (<[w := j]> (rs_w σ))) /\
    wears_out c1 (set_w σ (<[w := j]> (rs_w σ))) h [SUp w h'; SDrop h'].
Proof.
  intros HR Hh Hj Hw Hh'. pose proof (reached_weak _ _ _ HR Hw) as Hc. destruct (reached_guard _ _ _ HR Hh') as [Hc' Hg]. destruct (handle_node _ _ _ _ HR Hh) as (_ & j' & t & Hj' & Ht & Hl). assert (j' = j) as -> by congruence.
  destruct (piled_facts _ _ _ _ _ HR Hh) as (Hnd & (cap & k & Hv) & Hn).
  exists (set_rw c (<[w := WPile v i]> (r_w c))). split; [cbn [rstep]; by rewrite Hc, Hh|]. split; [cbn [rsstep]; unfold on_node; by rewrite Hw, Hj, Ht|].
  assert (j ∈ lids (rs_sh σ)) as Hin. { exact (RI_alive_h _ _ _ _ (reached_RI _ _ HR) Hj). }
  split. { intros n. eapply spec_times. eapply (spec_up_drop _ h h' w j); cbn [rs_h set_w rs_sh rs_w rs_g]; try done. by rewrite lookup_insert. }
  destruct (rounds [SUp w h'; SDrop h'] (fun c => r_w c !! w = Some (WPile v i) /\ r_h c !! h' = None) h v i cap) with (k := k) (c := set_rw c (<[w := WPile v i]> (r_w c))) as (rs & c' & E & E1 & E2 & E3 & E4 & E5 & E6).
  - done.
  - intros c0 k0 [H0 H0'] H1. eexists. by eapply up_drop_round.
  - cbn [r_w set_rw r_h]. rewrite lookup_insert. done.
  - unfold ready, set_rw. cbn [r_h r_mem r_g r_b]. split; [apply reachable_grel, (reached_reachable _ _ HR)|]. auto.
  - exists (S k), rs, c'. split_and!; try done; [lia|]. intros o Ho Ht'. eapply gone_ub; [done|by eapply well_typed_same|by rewrite E1|done].
Qed.

Lemma up_wears_out' c σ h h' w v i j : reached c σ -> r_h c !! h = Some (RPile v i) -> rs_h σ !! h = Some j -> rs_w σ !! w = None -> rs_h σ !! h' = None ->
  exists c1 σ1, rstep c (SDown h w) = RDone RUnit c1 /\ rsstep σ (SDown h w) = Some (RUnit, σ1) /\ wears_out c1 σ1 h [SUp w h'; SDrop h'].
Proof. intros HR Hh Hj Hw Hh'. destruct (up_wears_out c σ h h' w v i j HR Hh Hj Hw Hh') as (c1 & E1 & E2 & E3). eauto. Qed.

(** * [IterRc::next] *)
Lemma next_exact c σ it h' j n : reached c σ -> rs_it σ !! it = Some (Some j, S n) -> rs_h σ !! h' = None ->
  (j ∈ lids (rs_sh σ) -> exists c', rstep c (SNext it h') = RDone (RBool true) c') /\ (j ∉ lids (rs_sh σ) -> rstep c (SNext it h') = RFails EUB).
Proof.
  intros HR Hit Hh'. split.
  - intros Hj. pose proof (reached_step c σ (SNext it h') HR) as S. cbn [op_allowed rsstep] in S. rewrite Hit, Hh' in S. specialize (S Hj). cbn [give] in S. destruct S as (c' & E & _). eauto.
  - intros Hj. destruct (reached_guard _ _ _ HR Hh') as [Hc _]. apply reached_RI in HR. destruct HR as (Wm & SH & Hs & s & ψ & HR).
    pose proof (iv_it _ _ _ _ _ _ _ HR it) as Hi. rewrite Hit in Hi. inversion Hi as [x y [H1 H2] Hx Hy|]; subst. cbn [fst snd] in *. inversion H1 as [p q Hp Hx' Hq|]; subst.
    cbn [rstep]. rewrite Hc, <-Hx. unfold call, rc_iter_next, bind at 1, ci_next. rewrite H2, <-Hx'. unfold bind at 1, get.
    rewrite (iv_mem _ _ _ _ _ _ _ HR). cbn [m_heap addc adj]. destruct (m_heap s !! p) as [nd|] eqn:Hnd; [|done]. exfalso. apply Hj.
    destruct (iv_id _ _ _ _ _ _ _ HR) as (_ & _ & Hid). destruct (Hid _ _ Hp) as [_ Hal]. assert (p ∈ addrss SH) as Hin by (apply Hal; rewrite Hnd; eauto).
    pose proof (lreps_ids _ _ _ (iv_sh _ _ _ _ _ _ _ HR)) as HF. apply elem_of_list_lookup in Hin as [m Hm]. destruct (Forall2_lookup_l _ _ _ _ _ HF Hm) as (j' & Hj' & Hp').
    assert (j' = j) as -> by congruence. by eapply elem_of_list_lookup_2.
Qed.
End misuse.
