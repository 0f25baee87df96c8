(** RcStep.v — every operation of the reference-counting client does what RcSpec says. *)
From stdpp Require Import base gmap list sorting.
From Verif Require Import Spec ClientSpec RcSpec Machine NodeModel BfsModel ClientModel RcModel RcAllowed Sep Rep NodeProofs Inv Abs ClientProofs
  BfsIter ClientRef ClientProps ClientStep CountFrame RcRelease RcLab RcRef.

Section step.
Context {A : Type}.
Implicit Types (p q : ptr) (s : mem A) (W SH : list (atree A)) (Hs : list ptr) (ψ : gmap ptr nat) (c : rst A) (σ : rss A) (Wm : gmap nat (atree A)) (C : ctx A).
Local Notation REnv F := (@ClientRef.REnv A F []).
Local Notation trees Wm := ((map_to_list Wm).*2).

Definition rstep_good (o : rop A) : Prop := forall c σ, RI c σ -> op_allowed c σ o ->
  match rsstep σ o with
  | Some (r, σ') => exists c', rstep c o = RDone r c' /\ RI c' σ'
  | None => rstep c o = RFails EPanic
  end.

Lemma RI_gen c σ Wm SH Hs s ψ Wm' SH' Hs' s' ψ' ps m H' S' env' sh' x' :
  RInv c σ Wm SH Hs s ψ -> evolves s s' -> extends ψ ψ' (rs_next σ) ps m -> (forall p, p ∈ ps -> p.1 < m_fresh s') ->
  (forall p, p ∈ addrss SH \/ p ∈ ps -> p ∈ addrss SH') -> REnv SH' s' env' (s_env x') Wm' -> m_log s' = s_log x' -> Forall2 (lrep ψ') SH' sh' ->
  hrel H' S' SH' Hs' ψ' -> grel H' (r_g c) (r_b c) ->
  RI (RSt env' H' (r_w c) (r_g c) (r_b c) (r_it c) (addc Hs' s')) (RSS x' sh' S' (rs_w σ) (rs_g σ) (rs_it σ) (rs_next σ + m)).
Proof.
  intros HR Hev Hex Hps HSH He Hl Hsh Hh Hg. exists Wm', SH', Hs', s', ψ'. destruct HR. split; simpl; try done.
  - by eapply idm_grow.
  - eapply wrel_mono; [done|done|done|apply Hex].
  - eapply irel_mono; [done|apply Hex].
Qed.
Lemma RI_gen0 c σ Wm SH Hs s ψ Wm' SH' Hs' s' H' S' env' sh' x' :
  RInv c σ Wm SH Hs s ψ -> evolves s s' ->
  (forall p, p ∈ addrss SH -> p ∈ addrss SH') -> REnv SH' s' env' (s_env x') Wm' -> m_log s' = s_log x' -> Forall2 (lrep ψ) SH' sh' ->
  hrel H' S' SH' Hs' ψ -> grel H' (r_g c) (r_b c) ->
  RI (RSt env' H' (r_w c) (r_g c) (r_b c) (r_it c) (addc Hs' s')) (RSS x' sh' S' (rs_w σ) (rs_g σ) (rs_it σ) (rs_next σ)).
Proof.
  intros HR Hev HSH He Hl Hsh Hh Hg. rewrite <-(Nat.add_0_r (rs_next σ)). pose proof (iv_id _ _ _ _ _ _ _ HR) as (Hi & Hb & _).
  eapply RI_gen; [done|done|by apply (extends_refl _ _ [])| | |done..].
  - intros p Hp. by apply elem_of_nil in Hp.
  - intros p [Hp|Hp]; [auto|by apply elem_of_nil in Hp].
Qed.
Lemma RI_same c σ Wm SH Hs s ψ : RInv c σ Wm SH Hs s ψ -> RI (set_mem c (addc Hs s)) σ.
Proof. intros HR. exists Wm, SH, Hs, s, ψ. destruct HR. by split. Qed.
Lemma RI_set_mem c σ : RI c σ -> RI (set_mem c (r_mem c)) σ.
Proof. by destruct c. Qed.

(** borrows, and calls *)
Lemma read_call {X} c σ Wm SH Hs s ψ p pl i D a aks W (m : M A X) k : RInv c σ Wm SH Hs s ψ ->
  MInvX s (plug D (AN p pl (Some a) aks) :: W) [] -> ψ !! p = Some i ->
  call c (node_borrow (r_b c) (rform p pl) ;; m) k = if readable σ i then call c m k else RFails EPanic.
Proof.
  intros HR HI Hi. unfold call, bind. rewrite (iv_mem _ _ _ _ _ _ _ HR). unfold addc. rewrite (borrow_eq _ _ _ _ _ _ _ _ _ _ HI), (flag_readable HR p i Hi).
  by destruct (readable σ i).
Qed.
Lemma write_call {X} c σ Wm SH Hs s ψ p pl i D a aks W (m : M A X) k : RInv c σ Wm SH Hs s ψ ->
  MInvX s (plug D (AN p pl (Some a) aks) :: W) [] -> ψ !! p = Some i ->
  call c (node_borrow_mut (r_b c) (rform p pl) ;; m) k = if writable σ i then call c m k else RFails EPanic.
Proof.
  intros HR HI Hi. unfold call, bind. rewrite (iv_mem _ _ _ _ _ _ _ HR). unfold addc. rewrite (borrow_mut_eq _ _ _ _ _ _ _ _ _ _ HI), (flag_writable HR p i Hi).
  by destruct (writable σ i).
Qed.
Lemma call_ok {X} c σ Wm SH Hs s ψ (m : M A X) x s' k : RInv c σ Wm SH Hs s ψ -> hp m -> m s = Ok x s' -> call c m k = k x (addc Hs s').
Proof. intros HR Hm E. unfold call. rewrite (iv_mem _ _ _ _ _ _ _ HR). unfold addc. by rewrite (hp_ok _ _ _ _ _ _ Hm E). Qed.
Lemma call_err {X} c σ Wm SH Hs s ψ (m : M A X) e k : RInv c σ Wm SH Hs s ψ -> hp m -> m s = Err e -> call c m k = RFails e.
Proof. intros HR Hm E. unfold call. rewrite (iv_mem _ _ _ _ _ _ _ HR). unfold addc. by rewrite (hp_err _ _ _ _ _ Hm E). Qed.
Lemma call_bind {X Y} c (m : M A X) (m' : X -> M A Y) x s' k : m (r_mem c) = Ok x s' -> call c (bind m m') k = call (set_mem c s') (m' x) k.
Proof. intros E. unfold call, bind. by rewrite E. Qed.

Lemma mem_ok {X} c σ Wm SH Hs s ψ (m : M A X) x s' : RInv c σ Wm SH Hs s ψ -> hp m -> m s = Ok x s' -> m (r_mem c) = Ok x (addc Hs s').
Proof. intros HR Hm E. rewrite (iv_mem _ _ _ _ _ _ _ HR). by apply hp_ok. Qed.

(** the handle of a variable; what is not the node of a variable is a wrong program *)
Ltac hnd HR h := let H := fresh "Hh" in pose proof (RI_handle HR h) as H;
  match type of H with match rs_h ?σ !! h with _ => _ end => let i := fresh "i" in destruct (rs_h σ !! h) as [i|] eqn:?;
    [destruct H as (p & pl & a & aks & S1 & S2 & D & L1 & L2 & C & ks & Hrh & HSH & Hsh & HS1 & HS2 & HD & Hi & Hks & Hfind & HI); rewrite Hrh, ?Hfind
    |rewrite H] end.
Ltac bad := eexists; split; [reflexivity|by eexists _, _, _, _, _].
Ltac start := intros c σ (Wm & SH & Hs & s & ψ & HR) Hok; cbn [rstep rsstep]; unfold reading, writing, on_node.
Ltac reads HR HI Hi i := rewrite (read_call _ _ _ _ _ _ _ _ _ i _ _ _ _ _ _ HR HI Hi); match goal with |- context [readable ?σ i] => destruct (readable σ i); [|done] end.
Ltac writes HR HI Hi i := rewrite (write_call _ _ _ _ _ _ _ _ _ i _ _ _ _ _ _ HR HI Hi); match goal with |- context [writable ?σ i] => destruct (writable σ i); [|done] end.

Lemma step_data h : rstep_good (SData h).
Proof.
  start. hnd HR h; [|bad]. unfold rc_data. reads HR HI Hi i. rewrite raddr_rform.
  rewrite (call_ok _ _ _ _ _ _ _ _ _ _ _ HR (hp_data p) (data_at _ _ _ _ _ _ _ _ HI)). eexists; split; [reflexivity|]. by eapply RI_same.
Qed.
Lemma step_degree h : rstep_good (SDegree h).
Proof.
  start. hnd HR h; [|bad]. unfold rc_degree. reads HR HI Hi i. rewrite raddr_rform.
  rewrite (call_ok _ _ _ _ _ _ _ _ _ _ _ HR (hp_degree p) (degree_at _ _ _ _ _ _ _ _ HI)). simpl. rewrite (Forall2_length _ _ _ Hks).
  eexists; split; [reflexivity|]. by eapply RI_same.
Qed.
Lemma cnts_lrep ψ aks ks : Forall2 (lrep ψ) aks ks -> cnts aks = length (lall (A:=A) ks).
Proof.
  induction 1 as [|k x aks ks Hk _ IH]; [done|]. rewrite cnts_cons, lall_cons, app_length, IH. by rewrite (lrep_count _ _ _ Hk).
Qed.
Lemma step_count h : rstep_good (SCount h).
Proof.
  start. hnd HR h; [|bad]. unfold rc_node_count. reads HR HI Hi i. rewrite raddr_rform.
  rewrite (call_ok _ _ _ _ _ _ _ _ _ _ _ HR (hp_node_count p) (node_count_at _ _ _ _ _ _ _ _ HI)). rewrite (cnts_lrep _ _ _ Hks).
  eexists; split; [reflexivity|]. by eapply RI_same.
Qed.
Lemma step_nochild h : rstep_good (SNoChild h).
Proof.
  start. hnd HR h; [|bad]. unfold rc_has_no_child. reads HR HI Hi i. rewrite raddr_rform.
  rewrite (call_ok _ _ _ _ _ _ _ _ _ _ _ HR (hp_has_no_child p) (has_no_child_at _ _ _ _ _ _ _ _ HI)).
  destruct Hks; (eexists; split; [reflexivity|]; by eapply RI_same).
Qed.
Lemma frep_none ψ D (C : list lframe) u ul uv L R D1 : Forall2 (frep (A:=A) ψ) D C -> D = Fr u ul uv L R :: D1 -> uv = None -> D1 = [].
Proof. intros H -> ->. inversion H as [|? ? ? ? Hf]; subst. inversion Hf. Qed.
Lemma step_isroot h : rstep_good (SIsRoot h).
Proof.
  start. hnd HR h; [|bad]. unfold rc_is_root. reads HR HI Hi i. rewrite raddr_rform.
  assert (parent p s = Ok (up_of D) s) as Hp.
  { rewrite (parent_at _ _ _ _ _ _ _ _ HI); [|intros; by eapply frep_none]. destruct HD as [|fr ? D' ? Hf]; [done|]. by destruct Hf. }
  rewrite (call_bind _ _ _ (up_of D) (addc Hs s)).
  2: { rewrite (iv_mem _ _ _ _ _ _ _ HR). by apply hp_ok; [apply hp_parent|]. }
  unfold call, ret. cbn [r_mem set_mem].
  assert (bool_decide (i ∈ lid <$> rs_sh σ) = match up_of D with None => true | Some _ => false end) as ->.
  { pose proof (RI_nodup HR) as HN. destruct HD as [|fr fr' D' C' Hf HD'].
    - apply bool_decide_true. rewrite Hsh, fmap_app. simpl. apply elem_of_app. right. left.
    - destruct Hf. simpl. apply bool_decide_false. rewrite Hsh in *. by apply (loc_isroot _ _ _ C' (LN i a ks)). }
  eexists; split; [reflexivity|]. by eapply RI_same.
Qed.
Lemma step_hint it : rstep_good (SHint it).
Proof.
  start. pose proof (opt_rel_look _ _ _ it (iv_it _ _ _ _ _ _ _ HR)) as Hit. destruct (rs_it σ !! it) as [[cur n]|].
  - destruct Hit as (x & -> & _ & Hn). simpl in Hn. unfold ci_size_hint. rewrite Hn. bad.
  - rewrite Hit. bad.
Qed.

(** ** handles *)
Lemma RI_give c σ Wm SH Hs s ψ h' p pl i : RInv c σ Wm SH Hs s ψ -> r_h c !! h' = None -> (p, pl) ∈ infoss SH -> ψ !! p = Some i ->
  RI (set_rh (set_mem c (addc (p :: Hs) s)) (<[h' := rform p pl]> (r_h c))) (set_h σ (<[h' := i]> (rs_h σ))).
Proof.
  intros HR Hh Hp Hi. refine (RI_gen0 c σ Wm SH Hs s ψ Wm SH (p :: Hs) s _ _ _ _ (rs_x σ) HR _ _ _ _ _ _ _); [done|done|apply HR|apply HR|apply HR| |].
  - eapply hrel_new; [apply HR|done|done|done|done|done|done].
  - apply grel_new; [apply HR|done].
Qed.
Lemma free_handle c σ Wm SH Hs s ψ h : RInv c σ Wm SH Hs s ψ -> match rs_h σ !! h with None => r_h c !! h = None | Some _ => is_Some (r_h c !! h) end.
Proof.
  intros HR. pose proof (opt_rel_look _ _ _ h (proj1 (iv_h _ _ _ _ _ _ _ HR))) as Hh. destruct (rs_h σ !! h); [|done]. destruct Hh as (?&->&_). eauto.
Qed.
Ltac free HR h := let H := fresh "Hfree" in pose proof (free_handle _ _ _ _ _ _ _ h HR) as H;
  match type of H with match rs_h ?σ !! h with _ => _ end => destruct (rs_h σ !! h) eqn:?; [destruct H as [? ->]; bad|rewrite H] end.
Lemma in_infoss S1 S2 D p pl v (ks : list (atree A)) : (p, pl) ∈ infoss (S1 ++ plug D (AN p pl v ks) :: S2).
Proof. rewrite infoss_app, infoss_cons, plug_infos. rewrite !elem_of_app. right. left. left. left. Qed.

Lemma step_clone_h h h' : rstep_good (SClone h h').
Proof.
  start. free HR h'. simpl in Hok. hnd HR h; [|bad]. rewrite Hrh in Hok. destruct pl; [done|]. cbn [rform rc_clone].
  assert ((p, false) ∈ infoss (plug D (AN p false (Some a) aks) :: (trees Wm ++ S1 ++ S2))) as Hin.
  { rewrite infoss_cons, plug_infos. rewrite !elem_of_app. left. left. left. }
  assert (cnt_incr p (r_mem c) = Ok tt (addc (p :: Hs) s)) as Hc.
  { rewrite (iv_mem _ _ _ _ _ _ _ HR). eapply cnt_incr_alive; [exact HI|exact Hin|]. eapply mi_scat; [exact HI|exact Hin]. }
  rewrite (call_bind _ _ _ _ _ _ Hc). unfold call, ret. cbn [r_mem set_mem]. eexists; split; [reflexivity|].
  eapply (RI_give _ _ _ _ _ _ _ h' p false i HR); [done| |done]. rewrite HSH. apply in_infoss.
Qed.

(** [rc] of a node reached from another one *)
Lemma rc_of c σ Wm SH Hs s ψ D p pl a aks W : RInv c σ Wm SH Hs s ψ -> MInvX s (plug D (AN p pl (Some a) aks) :: W) [] ->
  rc p (r_mem c) = Ok (rform p pl) (addc (p :: Hs) s).
Proof. intros HR HI. rewrite (iv_mem _ _ _ _ _ _ _ HR). by eapply rc_alive. Qed.
Lemma Forall2_head {X Y} (R : X -> Y -> Prop) l l' : Forall2 R l l' -> option_Forall2 R (head l) (head l').
Proof. intros []; by constructor. Qed.
Lemma Forall2_last {X Y} (R : X -> Y -> Prop) l l' : Forall2 R l l' -> option_Forall2 R (last l) (last l').
Proof. induction 1 as [|x y l l' Hx H IH]; [constructor|]. rewrite !last_cons. inversion IH; constructor; done. Qed.
Definition endk {X} (e : side) (l : list X) : option X := match e with Front => head l | Back => last l end.
Lemma endk_in {X} e (l : list X) x : endk e l = Some x -> x ∈ l.
Proof.
  destruct e; simpl; [destruct l; [done|]; intros [= ->]; left|]. intros H. apply last_Some in H as (l' & ->). apply elem_of_app. right. left.
Qed.

Lemma step_end e h h' : rstep_good (SEnd e h h').
Proof.
  start. free HR h'. hnd HR h; [|bad]. unfold rc_end. reads HR HI Hi i. rewrite raddr_rform.
  pose proof (end_at e _ _ _ _ _ _ _ _ HI) as He.
  assert (hp (match e with Front => front (A:=A) p | Back => back p end)) as Hhp by (destruct e; [apply hp_front|apply hp_back]).
  rewrite (call_bind _ _ _ _ _ _ (mem_ok _ _ _ _ _ _ _ _ _ _ HR Hhp He)).
  assert (option_Forall2 (lrep ψ) (match e with Front => head aks | Back => last aks end) (match e with Front => head ks | Back => last ks end)) as Hk.
  { destruct e; [by apply Forall2_head|by apply Forall2_last]. }
  cbn [lkids]. destruct (match e with Front => head aks | Back => last aks end) as [k|] eqn:Ek, (match e with Front => head ks | Back => last ks end) as [x|] eqn:Ex;
    [|by inversion Hk|by inversion Hk|]; cbn [fmap option_fmap option_map option_rc give].
  - assert (k ∈ aks) as Hin. { apply (endk_in e). by destruct e. }
    assert (lrep ψ k x) as Hx by by inversion Hk. destruct Hx as [q ql b qs j xs Hj Hxs]. apply elem_of_list_lookup in Hin as [n Hn].
    pose proof HI as HI2. rewrite (kid_in _ _ _ _ _ _ _ Hn) in HI2. cbn [aptr].
    rewrite (call_bind _ _ _ (rform q ql) (addc (q :: Hs) s)).
    2: { cbn [r_mem set_mem]. rewrite <-(iv_mem _ _ _ _ _ _ _ HR). by eapply rc_of. }
    unfold call, ret. cbn [r_mem set_mem rgive]. eexists; split; [reflexivity|]. eapply (RI_give _ _ _ _ _ _ _ h' q ql j HR); [done| |done].
    rewrite HSH, (kid_in _ _ _ _ _ _ _ Hn). apply in_infoss.
  - unfold call, ret. cbn [r_mem set_mem rgive]. eexists; split; [reflexivity|]. by eapply RI_same.
Qed.

Lemma step_parent_h h h' : rstep_good (SParent h h').
Proof.
  start. free HR h'. hnd HR h; [|bad]. unfold rc_parent. reads HR HI Hi i. rewrite raddr_rform.
  assert (parent p s = Ok (up_of D) s) as Hp.
  { rewrite (parent_at _ _ _ _ _ _ _ _ HI); [|intros; by eapply frep_none]. destruct HD as [|fr ? D' ? Hf]; [done|]. by destruct Hf. }
  rewrite (call_bind _ _ _ (up_of D) (addc Hs s)).
  2: { rewrite (iv_mem _ _ _ _ _ _ _ HR). by apply hp_ok; [apply hp_parent|]. }
  pose proof (RI_nodup HR) as HN. rewrite Hsh in HN. destruct HD as [|fr fr' D' C' Hf HD'].
  - cbn [up_of option_rc]. assert (lparent i (rs_sh σ) = None) as -> by (rewrite Hsh; exact (loc_root L1 L2 (LN i a ks) HN)). cbn [fmap option_fmap option_map give].
    unfold call, ret. cbn [r_mem set_mem rgive]. eexists; split; [reflexivity|]. by eapply RI_same.
  - destruct Hf as [u ul b AL AR j L R Hj HL HRR]. cbn [up_of option_rc]. 
    assert (lparent i (rs_sh σ) = Some (LN j b (L ++ LN i a ks :: R))) as -> by (rewrite Hsh; exact (loc_parent L1 L2 j b L R C' (LN i a ks) HN)).
    cbn [fmap option_fmap option_map give lid]. rewrite plug_cons in HI. cbn [plug1] in HI.
    rewrite (call_bind _ _ _ (rform u ul) (addc (u :: Hs) s)).
    2: { cbn [r_mem set_mem]. rewrite <-(iv_mem _ _ _ _ _ _ _ HR). by eapply rc_of. }
    unfold call, ret. cbn [r_mem set_mem rgive]. eexists; split; [reflexivity|]. eapply (RI_give _ _ _ _ _ _ _ h' u ul j HR); [done| |done].
    rewrite HSH, plug_cons. apply in_infoss.
Qed.
End step.
