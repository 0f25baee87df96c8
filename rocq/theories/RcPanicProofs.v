(** RcPanicProofs.v — calls of [RcNode] that panic leave everything as it was but what was moved into them. *)
From stdpp Require Import base gmap list sorting.
From Verif Require Import Spec ClientSpec RcSpec PanicSpec RcPanicSpec Machine NodeModel BfsModel ClientModel PanicModel RcModel RcAllowed RcClient RcPanicModel
  Sep Rep NodeProofs Inv Abs ClientProofs BfsIter ClientRef ClientProps ClientStep CountFrame PanicStep RcRelease RcLab RcRef RcStep RcStep2 RcStep3 RcStep4 RcProps RcProps2.

Section proofs.
Context {A : Type}.
Implicit Types (p q : ptr) (s : mem A) (W SH : list (atree A)) (Hs : list ptr) (ψ : gmap ptr nat) (c : rst A) (σ : rss A) (Wm : gmap nat (atree A)) (r : rnode) (o : rop A).

(** * The checks *)
Lemma flag_neg B p : bool_decide (0 <= flag B p)%Z = negb (bool_decide (flag B p < 0)%Z).
Proof. destruct (decide (flag B p < 0)%Z) as [H|H]; [rewrite (bool_decide_eq_true_2 _ H), bool_decide_eq_false_2 by lia|rewrite (bool_decide_eq_false_2 _ H), bool_decide_eq_true_2 by lia]; done. Qed.
Lemma flag_zero B p : bool_decide (flag B p = 0)%Z = negb (bool_decide (flag B p <> 0)%Z).
Proof. destruct (decide (flag B p = 0)%Z) as [H|H]; [rewrite (bool_decide_eq_true_2 _ H), bool_decide_eq_false_2 by tauto|rewrite (bool_decide_eq_false_2 _ H), bool_decide_eq_true_2 by tauto]; done. Qed.
Lemma borrow_checked B r s : node_borrow B r s = match may_borrow B r s with Ok true _ => Ok tt s | Ok false _ => Err EPanic | Err e => Err e end.
Proof.
  unfold node_borrow, may_borrow, acquire, vec_ref, bind, get, ret, fail. rewrite flag_neg. destruct r as [p|v i]; cbn [raddr].
  - destruct (m_heap s !! p) as [n|]; [|done]. by destruct (bool_decide _), (is_none_dat _).
  - destruct (m_vec s !! v); [|done]. destruct (m_heap s !! ((v, i) : ptr)) as [n|]; [|done]. by destruct (bool_decide _), (is_none_dat _).
Qed.
Lemma borrow_mut_checked B r s : node_borrow_mut B r s = match may_borrow_mut B r s with Ok true _ => Ok tt s | Ok false _ => Err EPanic | Err e => Err e end.
Proof.
  unfold node_borrow_mut, may_borrow_mut, acquire, vec_ref, bind, get, ret, fail. rewrite flag_zero. destruct r as [p|v i]; cbn [raddr].
  - destruct (m_heap s !! p) as [n|]; [|done]. by destruct (bool_decide _), (is_none_dat _).
  - destruct (m_vec s !! v); [|done]. destruct (m_heap s !! ((v, i) : ptr)) as [n|]; [|done]. by destruct (bool_decide _), (is_none_dat _).
Qed.
Lemma may_borrow_mem B r s b s' : may_borrow B r s = Ok b s' -> s' = s /\ forall e, may_borrow B r s <> Err e.
Proof.
  unfold may_borrow, acquire, vec_ref, bind, get, ret. destruct r as [p|v i]; cbn [raddr].
  - destruct (m_heap s !! p); [|done]. by intros [= _ <-].
  - destruct (m_vec s !! v); [|done]. destruct (m_heap s !! ((v, i) : ptr)); [|done]. by intros [= _ <-].
Qed.
Lemma may_borrow_mut_mem B r s b s' : may_borrow_mut B r s = Ok b s' -> s' = s.
Proof.
  unfold may_borrow_mut, acquire, vec_ref, bind, get, ret. destruct r as [p|v i]; cbn [raddr].
  - destruct (m_heap s !! p); [|done]. by intros [= _ <-].
  - destruct (m_vec s !! v); [|done]. destruct (m_heap s !! ((v, i) : ptr)); [|done]. by intros [= _ <-].
Qed.
Lemma may_borrow_err B r s e : may_borrow B r s = Err e -> e = EUB.
Proof.
  unfold may_borrow, acquire, vec_ref, bind, get, ret. destruct r as [p|v i]; cbn [raddr].
  - destruct (m_heap s !! p); [done|]. by intros [= <-].
  - destruct (m_vec s !! v); [|by intros [= <-]]. destruct (m_heap s !! ((v, i) : ptr)); [done|]. by intros [= <-].
Qed.
Lemma may_borrow_mut_err B r s e : may_borrow_mut B r s = Err e -> e = EUB.
Proof.
  unfold may_borrow_mut, acquire, vec_ref, bind, get, ret. destruct r as [p|v i]; cbn [raddr].
  - destruct (m_heap s !! p); [done|]. by intros [= <-].
  - destruct (m_vec s !! v); [|by intros [= <-]]. destruct (m_heap s !! ((v, i) : ptr)); [done|]. by intros [= <-].
Qed.
Lemma borrow_panic B r s : node_borrow B r s = Err EPanic -> may_borrow B r s = Ok false s.
Proof.
  rewrite borrow_checked. destruct (may_borrow B r s) as [b s'|e] eqn:E.
  - apply may_borrow_mem in E as [-> _]. by destruct b.
  - apply may_borrow_err in E as ->. done.
Qed.
Lemma borrow_mut_panic B r s : node_borrow_mut B r s = Err EPanic -> may_borrow_mut B r s = Ok false s.
Proof.
  rewrite borrow_mut_checked. destruct (may_borrow_mut B r s) as [b s'|e] eqn:E.
  - apply may_borrow_mut_mem in E as ->. by destruct b.
  - apply may_borrow_mut_err in E as ->. done.
Qed.
Lemma borrow_ok B r s s' : node_borrow B r s = Ok tt s' -> s' = s /\ may_borrow B r s = Ok true s.
Proof.
  rewrite borrow_checked. destruct (may_borrow B r s) as [b s1|e] eqn:E; [|done]. apply may_borrow_mem in E as [-> _]. destruct b; [|done]. by intros [= <-].
Qed.
Lemma borrow_mut_ok B r s s' : node_borrow_mut B r s = Ok tt s' -> s' = s /\ may_borrow_mut B r s = Ok true s.
Proof.
  rewrite borrow_mut_checked. destruct (may_borrow_mut B r s) as [b s1|e] eqn:E; [|done]. apply may_borrow_mut_mem in E as ->. destruct b; [|done]. by intros [= <-].
Qed.

(** * A call that does not panic is as in RcModel.v *)
Lemma bind_inv {X Y} (m : M A X) (k : X -> M A Y) s y s' : bind m k s = Ok y s' -> exists x s1, m s = Ok x s1 /\ k x s1 = Ok y s'.
Proof. unfold bind. destruct (m s) as [x s1|]; [|done]. eauto. Qed.
Lemma call_inv {X} c (m : M A X) k x c' : call c m k = RDone x c' -> exists y s, m (r_mem c) = Ok y s.
Proof. unfold call. destruct (m (r_mem c)) as [y s|]; [|done]. eauto. Qed.
Lemma may_move_ins e B r t s s' : rc_insert e B r t s = Ok tt s' -> may_move B r s = Ok true s.
Proof.
  intros H. apply bind_inv in H as ([] & s1 & H1 & H2). apply borrow_mut_ok in H1 as [-> H1]. unfold may_move, bind. rewrite H1. by apply (has_parent_ins _ _ _ _ _ H2).
Qed.
Lemma may_move_det B r s s' : rc_detach B r s = Ok tt s' -> may_move B r s = Ok true s.
Proof.
  intros H. apply bind_inv in H as ([] & s1 & H1 & H2). apply bind_inv in H2 as (t & s2 & H2 & _). apply borrow_mut_ok in H1 as [-> H1]. unfold may_move, bind. rewrite H1.
  by apply (has_parent_det _ _ _ _ H2).
Qed.
Lemma may_into B r s p s' : rc_into_tree B r s = Ok p s' -> exists s1, may_into_tree B r s = Ok true s1.
Proof.
  intros H. apply bind_inv in H as (b & s1 & H1 & H2). apply bind_inv in H1 as ([] & s2 & H1 & H3). apply borrow_ok in H1 as [-> H1].
  apply bind_inv in H3 as (o & s3 & H3 & H4). unfold may_into_tree, bind. rewrite H1, H3. unfold ret in *. injection H4 as <- <-.
  destruct o as [q|]; [done|]. destruct r as [q|v i]; [|by eexists]. destruct (decide (flag B q = 0)%Z) as [Hz|Hz]; [|by rewrite (bool_decide_eq_true_2 (_ <> _)) in H2].
  rewrite (bool_decide_eq_true_2 _ Hz). by eexists.
Qed.

Ltac chk_mut H r := let H1 := fresh in
  apply call_inv in H as (? & ? & H); apply bind_inv in H as ([] & ? & H1 & _); apply borrow_mut_ok in H1 as [_ ->].
Ltac chk_rd H r := let H1 := fresh in
  apply call_inv in H as (? & ? & H); apply bind_inv in H as ([] & ? & H1 & _); apply borrow_ok in H1 as [_ ->].

Lemma checked_done c o h chk unw x c' : rstep c o = RDone x c' -> (forall r, r_h c !! h = Some r -> exists s, chk r (r_mem c) = Ok true s) -> checked c o h chk unw = RDone (PRet x) c'.
Proof.
  intros H Hc. unfold checked, plain. rewrite H. destruct (r_h c !! h) as [r|]; [|done]. by destruct (Hc r eq_refl) as [s ->].
Qed.
Lemma agree_done c o x c' : rstep c o = RDone x c' -> rpstep c o = RDone (PRet x) c'.
Proof.
  intros H. unfold rpstep. destruct (has_type c o) eqn:Ht; cbn [negb]; [|unfold plain; by rewrite H].
  destruct o; try (unfold plain; by rewrite H).
  1: { cbn [rstep] in H. unfold call in H. destruct (cstep (r_env c) o (r_mem c)) as [[y env'] s|] eqn:E; [|done]. rewrite (pcstep_plain _ _ _ _ _ _ E). by injection H as <- <-. }
  all: try destruct m.
  all: apply (checked_done _ _ _ _ _ _ _ H); intros r Hr; cbn [rstep has_type] in H, Ht; rewrite Hr in H; revert Ht;
    repeat match type of H with context [match ?m !! ?k with _ => _ end] => destruct (m !! k) as [?|] eqn:?; try done end;
    try match type of H with context [match ?hd with HT _ => _ | HF _ => _ end] => destruct hd; try done end; intros Ht.
  all: try (chk_rd H r; by eexists). all: try (chk_mut H r; by eexists).
  - apply call_inv in H as ([] & s' & H). eexists. by apply (may_move_ins _ _ _ _ _ _ H).
  - apply call_inv in H as ([] & s' & H). eexists. by apply (may_move_det _ _ _ _ H).
  - apply call_inv in H as ([] & s' & H). apply borrow_mut_ok in H as [_ ->]. by eexists.
  - apply call_inv in H as ([] & s' & H). apply borrow_ok in H as [_ ->]. by eexists.
  - destruct (bool_decide _); [done|]. apply call_inv in H as (p & s' & H). by apply (may_into _ _ _ _ _ H).
Qed.
Lemma plain_inv c o x c' : plain c o = RDone (PRet x) c' -> rstep c o = RDone x c'.
Proof. unfold plain. destruct (rstep c o); [|done]. by intros [= <- <-]. Qed.
Lemma checked_inv c o h chk unw x c' : checked c o h chk unw = RDone (PRet x) c' -> rstep c o = RDone x c'.
Proof.
  unfold checked. destruct (r_h c !! h) as [r|]; [|apply plain_inv]. destruct (chk r (r_mem c)) as [[] s|]; [apply plain_inv| |done].
  by destruct (unw r s).
Qed.
Lemma pcstep_ret (env : gmap nat handle) (o : op A) s (r : out A) env' s' : pcstep env (POp o) s = Ok (PRet r, env') s' -> cstep env o s = Ok (r, env') s'.
Proof.
  destruct o; cbn [pcstep]; try (unfold bind, ret; match goal with |- context [cstep ?e ?o ?s] => destruct (cstep e o s) as [[? ?] ?|]; [|done] end; by intros [= <- <- <-]).
  - cbn [cstep].
    destruct (env !! y) as [[q|q]|]; try (unfold ret; by intros [= <- <- <-]).
    destruct (delete y env !! h) as [hd|]; try (unfold ret; by intros [= <- <- <-]).
    destruct (is_forest_root hd path); try (unfold ret; by intros [= <- <- <-]).
    unfold bind. destruct (resolve (addr hd) path s) as [[p|] s1|]; try (unfold ret; by intros [= <- <- <-]).
    destruct (has_parent p s1) as [b s2|] eqn:Hp; [|done]. assert (s2 = s1) as ->.
    { unfold has_parent, bind, get, ret in Hp. destruct (m_heap s1 !! p); [|done]. by injection Hp. }
    destruct b; [|destruct (drop_tree q s1); done].
    destruct ((match e with Front => insert_prev_sib p q | Back => insert_next_sib p q end) s1) as [[] s2|] eqn:Hi; [|done]. unfold ret. by intros [= <- <- <-].
  - cbn [cstep].
    destruct (env !! h) as [hd|]; try (unfold ret; by intros [= <- <- <-]).
    destruct (env !! x) as [?|]; try (unfold ret; by intros [= <- <- <-]).
    destruct (is_forest_root hd path); try (unfold ret; by intros [= <- <- <-]).
    unfold bind. destruct (resolve (addr hd) path s) as [[p|] s1|]; try (unfold ret; by intros [= <- <- <-]).
    destruct (has_parent p s1) as [b s2|] eqn:Hp; [|done]. assert (s2 = s1) as ->.
    { unfold has_parent, bind, get, ret in Hp. destruct (m_heap s1 !! p); [|done]. by injection Hp. }
    destruct b; [|done].
    destruct (detach p s1) as [q s2|] eqn:Hi; [|done]. unfold ret. by intros [= <- <- <-].
Qed.
Lemma agree_inv c o x c' : rpstep c o = RDone (PRet x) c' -> rstep c o = RDone x c'.
Proof.
  unfold rpstep. destruct (has_type c o); cbn [negb]; [|apply plain_inv]. destruct o; try apply plain_inv; try (destruct m); try apply checked_inv.
  cbn [rstep]. unfold call. destruct (pcstep (r_env c) (POp o) (r_mem c)) as [[[y|] env'] s|] eqn:E; [|done|done]. rewrite (pcstep_ret _ _ _ _ _ _ E). by intros [= <- <-].
Qed.
Lemma agree c o x c' : rpstep c o = RDone (PRet x) c' <-> rstep c o = RDone x c'.
Proof. split; [apply agree_inv|apply agree_done]. Qed.

(** * A call that panics *)
Lemma drop_arg c σ y hd : reached c σ -> r_env c !! y = Some hd ->
  exists s', drop_tree (addr hd) (r_mem c) = Ok tt s' /\ reached (set_renv (set_mem c s') (delete y (r_env c))) (drop_var σ y).
Proof.
  intros HR Hy. pose proof (reached_step c σ (SX (ODrop y)) HR I) as H. cbn [rsstep sstep] in H. unfold drop_var.
  assert (exists it, env_of σ !! y = Some it) as [it Hit].
  { destruct (reached_RI _ _ HR) as (Wm & SH & Hs & s & ψ & HRI). pose proof (RI_var _ _ _ _ _ _ _ y HRI) as Hv. destruct (env_of σ !! y) as [it|]; [eauto|]. destruct Hv as [_ Hv]. congruence. }
  rewrite Hit. unfold env_of in Hit. rewrite Hit in H. destruct H as (c' & E & HR'). cbn [rstep] in E. unfold call in E. cbn [cstep] in E. rewrite Hy in E. unfold bind in E.
  destruct (drop_tree (addr hd) (r_mem c)) as [[] s'|] eqn:Ed; [|done]. exists s'. split; [done|]. unfold ret in E. injection E as <-. exact HR'.
Qed.
Lemma same_state c : set_rh (set_renv (set_mem c (r_mem c)) (r_env c)) (r_h c) = c.
Proof. by destruct c. Qed.
Lemma panic_none c o h r chk : r_h c !! h = Some r -> chk r (r_mem c) = Ok false (r_mem c) -> checked c o h chk (unw_none c) = RDone PPanic c.
Proof. intros Hr Hc. unfold checked. rewrite Hr, Hc. unfold unw_none, ret. cbn [fst snd]. by rewrite same_state. Qed.
Lemma panic_var c σ o h r chk y hd : reached c σ -> r_h c !! h = Some r -> chk r (r_mem c) = Ok false (r_mem c) -> r_env c !! y = Some hd ->
  exists c', checked c o h chk (unw_var c y) = RDone PPanic c' /\ reached c' (drop_var σ y).
Proof.
  intros HR Hr Hc Hy. destruct (drop_arg c σ y hd HR Hy) as (s' & Ed & HR'). eexists. split; [|exact HR']. unfold checked. rewrite Hr, Hc. unfold unw_var. rewrite Hy. unfold bind. rewrite Ed.
  unfold ret. cbn [fst snd]. by destruct c.
Qed.
Lemma panic_self c σ o h r i chk : reached c σ -> r_h c !! h = Some r -> rs_h σ !! h = Some i -> chk r (r_mem c) = Ok false (r_mem c) ->
  h ∉ ((map_to_list (r_g c)).*2).*1 -> (i ∉ lid <$> rs_sh σ \/ held (delete h (rs_h σ)) i = true) ->
  exists c', checked c o h chk (unw_self c h) = RDone PPanic c' /\ reached c' (set_h σ (delete h (rs_h σ))).
Proof.
  intros HR Hr Hi Hc Hg Hor. pose proof (reached_step c σ (SDrop h) HR I) as H. cbn [rsstep] in H. rewrite Hi in H.
  assert (r_g c = rs_g σ) as Hgs. { destruct (reached_RI _ _ HR) as (Wm & SH & Hs & s & ψ & HRI). apply HRI. }
  rewrite <-Hgs in H. rewrite (bool_decide_eq_false_2 _ Hg) in H. destruct H as (c' & E & HR'). cbn [rstep] in E. rewrite Hr in E. rewrite (bool_decide_eq_false_2 _ Hg) in E.
  unfold call in E. destruct (rc_drop_handle (r_b c) r (r_mem c)) as [[] s'|] eqn:Ed; [|done]. injection E as <-.
  assert (drop_handle σ h i = set_h σ (delete h (rs_h σ))) as Hd.
  { unfold drop_handle. destruct Hor as [Hn|Hh]; [|by rewrite Hh]. destruct (held _ i); [done|]. by rewrite decide_False. }
  rewrite Hd in HR'. eexists. split; [|exact HR']. unfold checked. rewrite Hr, Hc. unfold unw_self, bind. rewrite Ed. unfold ret. cbn [fst snd]. by destruct c.
Qed.

(** what is known of the node of [h] *)
Lemma node_checks c σ h i : reached c σ -> rs_h σ !! h = Some i ->
  exists r (t : ltree A), r_h c !! h = Some r /\ lfind i (rs_sh σ) = Some t /\
    may_borrow_mut (r_b c) r (r_mem c) = Ok (writable σ i) (r_mem c) /\ may_borrow (r_b c) r (r_mem c) = Ok (readable σ i) (r_mem c) /\
    (exists u : option ptr, parent (raddr r) (r_mem c) = Ok u (r_mem c) /\ (u = None <-> i ∈ lid <$> rs_sh σ)) /\
    (has_parent (raddr r) (r_mem c) = Ok (match lparent i (rs_sh σ) with Some _ => true | None => false end) (r_mem c)).
Proof.
  intros HRe Hih. destruct (reached_RI _ _ HRe) as (Wm & SH & Hs & s & ψ & HR). pose proof (RI_handle HR h) as H. rewrite Hih in H.
  destruct H as (p & pl & a & aks & S1 & S2 & D & L1 & L2 & C & ks & Hrh & HSH & Hsh & HS1 & HS2 & HD & Hi & Hks & Hfind & HI).
  exists (rform p pl), (LN i a ks). rewrite raddr_rform. split; [done|]. split; [done|].
  pose proof (borrow_mut_eq (r_b c) _ _ _ _ _ _ _ (fun q x => x + occ q Hs) (fun b => occb b Hs) HI) as Hm. rewrite (flag_writable HR p i Hi) in Hm.
  pose proof (borrow_eq (r_b c) _ _ _ _ _ _ _ (fun q x => x + occ q Hs) (fun b => occb b Hs) HI) as Hr. rewrite (flag_readable HR p i Hi) in Hr.
  change (adj (fun q x => x + occ q Hs) (fun b => occb b Hs) s) with (addc Hs s) in Hm, Hr. rewrite <-(iv_mem _ _ _ _ _ _ _ HR) in Hm, Hr.
  split_and!.
  - destruct (writable σ i); cbn [negb] in Hm; [apply borrow_mut_ok in Hm|apply borrow_mut_panic in Hm]; tauto.
  - destruct (readable σ i); cbn [negb] in Hr; [apply borrow_ok in Hr|apply borrow_panic in Hr]; tauto.
  - exists (up_of D). assert (parent p s = Ok (up_of D) s) as Hp.
    { rewrite (parent_at _ _ _ _ _ _ _ _ HI); [|intros; by eapply frep_none]. destruct HD as [|fr ? D' ? Hf]; [done|]. by destruct Hf. }
    split; [rewrite (iv_mem _ _ _ _ _ _ _ HR); by apply hp_ok; [apply hp_parent|]|].
    pose proof (RI_nodup HR) as HN. destruct HD as [|fr fr' D' C' Hf HD'].
    + split; [|done]. intros _. rewrite Hsh, fmap_app. simpl. apply elem_of_app. right. left.
    + destruct Hf. split; [done|]. intros Hin. exfalso. revert Hin. rewrite Hsh in *. by apply (loc_isroot _ _ _ C' (LN i a ks)).
  - pose proof (lookup_at _ _ _ _ _ _ _ _ HI) as Hl. unfold has_parent, bind, get, ret. rewrite (iv_mem _ _ _ _ _ _ _ HR). cbn [addc adj m_heap]. rewrite Hl. cbn [n_up].
    destruct HD as [|fr fr' D' C' Hf HD'].
    + rewrite (up_root _ _ _ _ _ _ _ _ _ _ _ _ HR Hsh). done.
    + destruct Hf as [u ul b AL AR j L R Hj HL HRR]. rewrite lplug_cons in Hsh. cbn [lplug1] in Hsh.
      destruct (up_some _ _ _ _ _ _ _ _ _ _ _ _ _ _ _ _ _ HR Hsh) as (-> & _). done.
Qed.

Lemma var_type c σ y : reached c σ -> match env_of σ !! y with
  | Some (ITree _) => exists p, r_env c !! y = Some (HT p)
  | Some (IForest _) => exists p, r_env c !! y = Some (HF p)
  | None => r_env c !! y = None end.
Proof.
  intros HRe. destruct (reached_RI _ _ HRe) as (Wm & SH & Hs & s & ψ & HR). pose proof (RI_var _ _ _ _ _ _ _ y HR) as H.
  destruct (env_of σ !! y) as [[|]|]; [destruct H as (k & _ & _ & H); eauto|destruct H as (k & _ & _ & H); eauto|tauto].
Qed.
Lemma free_h c σ h : reached c σ -> rs_h σ !! h = None -> r_h c !! h = None.
Proof. intros HR Hn. destruct (r_h c !! h) eqn:E; [|done]. assert (is_Some (rs_h σ !! h)) as [? ?] by (apply (handle_iff c σ h HR); by rewrite E). congruence. Qed.
Lemma free_it c σ it : reached c σ -> rs_it σ !! it = None -> r_it c !! it = None.
Proof. intros HRe Hn. destruct (reached_RI _ _ HRe) as (Wm & SH & Hs & s & ψ & HR). pose proof (iv_it _ _ _ _ _ _ _ HR it) as H. rewrite Hn in H. by inversion H. Qed.
Lemma same_g c σ : reached c σ -> r_g c = rs_g σ.
Proof. intros HRe. destruct (reached_RI _ _ HRe) as (Wm & SH & Hs & s & ψ & HR). apply HR. Qed.

Definition good_panic c σ o : Prop := exists c', rpstep c o = RDone PPanic c' /\ reached c' (unwound σ o).

Lemma panic_x c σ (o : op A) : reached c σ -> rsstep σ (SX o) = None -> good_panic c σ (SX o).
Proof.
  intros HRe Hn. cbn [rsstep] in Hn. destruct (sstep (rs_x σ) o) as [[]|] eqn:Es; [done|]. clear Hn. unfold good_panic, rpstep. cbn [has_type negb].
  destruct (reached_RI _ _ HRe) as (Wm & SH & Hs & s & ψ & HR).
  pose proof (iv_env _ _ _ _ _ _ _ HR) as HE. pose proof (iv_mem _ _ _ _ _ _ _ HR) as Hmem. fold (env_of σ) in HE.
  destruct (sstep_total _ _ Es) as [(e & h & path & y & ->)|(h & path & x & ->)]; cbn [sstep pcstep] in *; fold (env_of σ) in Es.
  - pose proof (RE_lookup _ _ _ _ y HE) as Hy. destruct (env_of σ !! y) as [[ty|fy]|] eqn:Ey; [|done|done]. destruct Hy as (k & Hk & _ & Hek & Hhk). rewrite Hhk in Hek. 
    pose proof (RE_del_lookup _ _ _ _ y h HE) as Hd. destruct (delete y (env_of σ) !! h) as [it|]; [|done].
    destruct Hd as (u & Hne & Hu & Hud & Hri & Heu & Hhu).
    destruct (split_last path) as [[path' i]|] eqn:Hsl; [destruct (kids_at it path'); [destruct (decide _)|]; done|].
    apply split_last_none in Hsl as ->. destruct it as [x|xs]; [|done]. rewrite Hek, Heu, Hhu. cbn [is_forest_root resolve addr].
    unfold bind at 1, ret at 1. destruct u as [p pl v ks]. cbn [aptr]. unfold bind at 1.
    assert (has_parent p (r_mem c) = Ok false (r_mem c)) as ->.
    { rewrite Hmem. pose proof (has_parent_root _ _ _ _ _ _ _ (RE_inv _ _ _ _ _ _ HE Hu)) as Hp. unfold has_parent, bind, get, ret in *. cbn [addc adj m_heap]. destruct (m_heap s !! p); [|done]. by injection Hp as ->. }
    destruct (drop_arg c σ y (HT (aptr k)) HRe Hek) as (s' & Ed & HR'). cbn [addr] in Ed. unfold bind. rewrite Ed. unfold ret. eexists. split; [reflexivity|]. exact HR'.
  - pose proof (RE_lookup _ _ _ _ h HE) as Hy. destruct (env_of σ !! h) as [it|] eqn:Eh; [|done]. destruct Hy as (k & Hk & Hrk & Hek & Hhk).
    pose proof (RE_lookup _ _ _ _ x HE) as Hx. destruct (env_of σ !! x) as [?|] eqn:Ex; [done|]. destruct Hx as [_ Hx].
    destruct (split_last path) as [[path' i]|] eqn:Hsl; [destruct (kids_at it path') as [ts|]; [destruct (ts !! i)|]; done|].
    apply split_last_none in Hsl as ->. destruct it as [y|ys]; [|done]. rewrite Hek, Hhk, Hx. cbn [is_forest_root resolve addr].
    unfold bind at 1, ret at 1. destruct k as [p pl v ks]. cbn [aptr]. unfold bind at 1.
    assert (has_parent p (r_mem c) = Ok false (r_mem c)) as ->.
    { rewrite Hmem. pose proof (has_parent_root _ _ _ _ _ _ _ (RE_inv _ _ _ _ _ _ HE Hk)) as Hp. unfold has_parent, bind, get, ret in *. cbn [addc adj m_heap]. destruct (m_heap s !! p); [|done]. by injection Hp as ->. }
    unfold ret. eexists. split; [reflexivity|]. cbn [unwound fst snd]. by destruct c.
Qed.

(** the method reads resp. writes the node of [h] and does not take anything *)
Lemma panic_read c σ o h (k : nat -> ltree A -> option (out A * rss A)) : reached c σ -> reading σ h k = None -> (forall i t, k i t <> None) ->
  checked c o h (may_borrow (r_b c)) (unw_none c) = RDone PPanic c.
Proof.
  intros HR Hn Hk. unfold reading, on_node in Hn. destruct (rs_h σ !! h) as [i|] eqn:Ei; [|done].
  destruct (node_checks c σ h i HR Ei) as (r & t & Hr & Hf & _ & Hb & _). rewrite Hf in Hn. destruct (readable σ i) eqn:Er; [by apply Hk in Hn|].
  by apply (panic_none _ _ _ r).
Qed.
Lemma panic_write c σ o h (k : nat -> ltree A -> option (out A * rss A)) : reached c σ -> writing σ h k = None -> (forall i t, k i t <> None) ->
  checked c o h (may_borrow_mut (r_b c)) (unw_none c) = RDone PPanic c.
Proof.
  intros HR Hn Hk. unfold writing, on_node in Hn. destruct (rs_h σ !! h) as [i|] eqn:Ei; [|done].
  destruct (node_checks c σ h i HR Ei) as (r & t & Hr & Hf & Hb & _). rewrite Hf in Hn. destruct (writable σ i) eqn:Er; [by apply Hk in Hn|].
  by apply (panic_none _ _ _ r).
Qed.
Lemma panic_write_var c σ o h y hd (k : nat -> ltree A -> option (out A * rss A)) : reached c σ -> writing σ h k = None -> (forall i t, k i t <> None) -> r_env c !! y = Some hd ->
  exists c', checked c o h (may_borrow_mut (r_b c)) (unw_var c y) = RDone PPanic c' /\ reached c' (drop_var σ y).
Proof.
  intros HR Hn Hk Hy. unfold writing, on_node in Hn. destruct (rs_h σ !! h) as [i|] eqn:Ei; [|done].
  destruct (node_checks c σ h i HR Ei) as (r & t & Hr & Hf & Hb & _). rewrite Hf in Hn. destruct (writable σ i) eqn:Er; [by apply Hk in Hn|].
  by apply (panic_var _ _ _ _ r _ _ hd).
Qed.
(** the method needs a parent *)
Lemma move_check c σ h (k : nat -> ltree A -> option (out A * rss A)) : reached c σ -> writing σ h k = None ->
  (forall i t, lparent i (rs_sh σ) <> None -> k i t <> None) -> exists r, r_h c !! h = Some r /\ may_move (r_b c) r (r_mem c) = Ok false (r_mem c).
Proof.
  intros HR Hn Hk. unfold writing, on_node in Hn. destruct (rs_h σ !! h) as [i|] eqn:Ei; [|done].
  destruct (node_checks c σ h i HR Ei) as (r & t & Hr & Hf & Hb & _ & _ & Hp). rewrite Hf in Hn. exists r. split; [done|]. unfold may_move, bind. rewrite Hb.
  destruct (writable σ i); [|done]. rewrite Hp. destruct (lparent i (rs_sh σ)) eqn:El; [|done]. exfalso. by apply (Hk i t) in Hn; [|rewrite El].
Qed.

Lemma panic_ok c σ o : reached c σ -> rsstep σ o = None -> good_panic c σ o.
Proof.
  intros HR Hn. destruct o; try (by apply panic_x); unfold good_panic, rpstep; try (exfalso; revert Hn; cbn [rsstep]; unfold on_node, give; by repeat (case_match; try discriminate)).
  - (* SEnd *) cbn [rsstep unwound has_type] in *. destruct (rs_h σ !! h') eqn:E'; [done|]. rewrite (free_h _ _ _ HR E'). cbn [negb]. exists c. split; [|done].
    apply (panic_read _ _ _ _ _ HR Hn). intros i t. unfold give. by destruct e; repeat case_match.
  - cbn [rsstep unwound has_type] in *. destruct (rs_h σ !! h') eqn:E'; [done|]. rewrite (free_h _ _ _ HR E'). cbn [negb]. exists c. split; [|done].
    apply (panic_read _ _ _ _ _ HR Hn). intros i t. unfold give. by case_match.
  - cbn [rsstep unwound has_type] in *. destruct (rs_h σ !! h') eqn:E'; [done|]. rewrite (free_h _ _ _ HR E'). cbn [negb]. exists c. split; [|done].
    apply (panic_write _ _ _ _ _ HR Hn). intros i t. by repeat case_match.
  - (* SPush *) cbn [rsstep unwound has_type] in *. pose proof (var_type c σ y HR) as Hv. destruct (env_of σ !! y) as [[ty|fy]|] eqn:Ey; [|done|done].
    destruct Hv as [p Hp]. rewrite Hp. cbn [negb]. by eapply (panic_write_var _ _ _ _ _ _ _ HR Hn).
  - cbn [rsstep unwound has_type] in *. pose proof (var_type c σ y HR) as Hv. destruct (env_of σ !! y) as [[ty|fy]|] eqn:Ey; [done| |done].
    destruct Hv as [p Hp]. rewrite Hp. cbn [negb]. by eapply (panic_write_var _ _ _ _ _ _ _ HR Hn).
  - (* SInsert *) cbn [rsstep unwound has_type] in *. pose proof (var_type c σ y HR) as Hv. destruct (env_of σ !! y) as [[ty|fy]|] eqn:Ey; [|done|done].
    destruct Hv as [p Hp]. rewrite Hp. cbn [negb]. destruct (move_check c σ h _ HR Hn) as (r & Hr & Hc); [intros i t Hl; by destruct (lparent i (rs_sh σ))|].
    by apply (panic_var _ _ _ _ r _ _ (HT p)).
  - (* SDetach *) cbn [rsstep unwound has_type negb] in *. destruct (move_check c σ h _ HR Hn) as (r & Hr & Hc); [intros i t Hl; by destruct (lparent i (rs_sh σ))|].
    exists c. split; [|done]. by apply (panic_none _ _ _ r).
  - cbn [rsstep unwound has_type negb] in *. exists c. split; [|done]. by apply (panic_read _ _ _ _ _ HR Hn).
  - cbn [rsstep unwound has_type negb] in *. exists c. split; [|done]. by apply (panic_write _ _ _ _ _ HR Hn).
  - cbn [rsstep unwound has_type negb] in *. exists c. split; [|done]. by apply (panic_read _ _ _ _ _ HR Hn).
  - cbn [rsstep unwound has_type negb] in *. exists c. split; [|done]. by apply (panic_read _ _ _ _ _ HR Hn).
  - cbn [rsstep unwound has_type negb] in *. exists c. split; [|done]. by apply (panic_read _ _ _ _ _ HR Hn).
  - cbn [rsstep unwound has_type negb] in *. exists c. split; [|done]. by apply (panic_read _ _ _ _ _ HR Hn).
  - (* SDeepClone *) cbn [rsstep unwound has_type] in *. pose proof (var_type c σ x HR) as Hv. destruct (env_of σ !! x) as [[ty|fy]|] eqn:Ey; [done|done|].
    rewrite Hv. cbn [negb]. exists c. split; [|done]. by apply (panic_read _ _ _ _ _ HR Hn).
  - (* SGuard *) cbn [rsstep unwound has_type] in *. rewrite (same_g _ _ HR). destruct (rs_g σ !! g) eqn:Eg; [done|]. cbn [negb]. exists c. split; [|done].
    destruct m; [by apply (panic_write _ _ _ _ _ HR Hn)|by apply (panic_read _ _ _ _ _ HR Hn)].
  - (* SIter *) cbn [rsstep unwound has_type] in *. destruct (rs_it σ !! it) eqn:Eg; [done|]. rewrite (free_it _ _ _ HR Eg). cbn [negb]. exists c. split; [|done].
    by apply (panic_read _ _ _ _ _ HR Hn).
  - (* SIntoTree *) cbn [rsstep unwound has_type] in *. pose proof (var_type c σ x HR) as Hv. destruct (env_of σ !! x) as [[ty|fy]|] eqn:Ey; [done|done|].
    rewrite Hv. destruct (bool_decide (h ∈ ((map_to_list (rs_g σ)).*2).*1)) eqn:Eg; [done|]. rewrite (same_g _ _ HR), Eg. cbn [negb].
    apply bool_decide_eq_false in Eg. unfold reading, on_node in Hn. destruct (rs_h σ !! h) as [i|] eqn:Ei; [|done].
    destruct (node_checks c σ h i HR Ei) as (r & t & Hr & Hf & _ & Hb & (u & Hu & Hroot) & _). rewrite Hf in Hn.
    apply (panic_self c σ _ h r i _ HR Hr Ei); [|by rewrite (same_g _ _ HR)|].
    + unfold may_into_tree, bind. rewrite Hb. destruct (readable σ i) eqn:Er; [|done]. rewrite Hu. unfold ret. destruct u; [done|].
      rewrite decide_True in Hn; [done|]. by apply Hroot.
    + destruct (readable σ i) eqn:Er.
      * left. intros Hin. by rewrite decide_True in Hn.
      * right. apply readable_spec, guards_spec in Er as (g & h2 & Hg & Hh2). unfold held. apply bool_decide_eq_true. apply elem_of_list_fmap. exists (h2, i). split; [done|].
        apply elem_of_map_to_list. rewrite lookup_delete_ne; [done|]. intros <-. apply Eg. apply elem_of_list_fmap. exists (h, true). split; [done|].
        apply elem_of_list_fmap. exists (g, (h, true)). split; [done|]. by apply elem_of_map_to_list.
Qed.

(** * Histories with caught panics *)
Lemma rpstep_ok c σ o : reached c σ -> op_allowed c σ o \/ rsstep σ o = None -> exists c', rpstep c o = RDone (rpsstep σ o).1 c' /\ reached c' (rpsstep σ o).2.
Proof.
  intros HR Ho. unfold rpsstep. destruct (rsstep σ o) as [[x σ']|] eqn:E; [|by apply panic_ok]. destruct Ho as [Ho|]; [|done].
  pose proof (reached_step c σ o HR Ho) as H. rewrite E in H. destruct H as (c' & Hc & HR'). exists c'. split; [by apply agree_done|done].
Qed.
Lemma rprun_ok os : forall c σ, reached c σ -> pallowed (A:=A) c σ os -> exists c', rprun c os = RDone (rpsrun σ os).1 c' /\ reached c' (rpsrun σ os).2.
Proof.
  induction os as [|o os IH]; intros c σ HR Hal; cbn [rprun rpsrun]; [eauto|]. destruct Hal as [Ho Hal]. destruct (rpstep_ok c σ o HR Ho) as (c1 & E & HR1).
  rewrite E in *. destruct (rpsstep σ o) as [x σ1]. cbn [fst snd] in *. destruct (IH c1 σ1 HR1 Hal) as (c2 & -> & HR2). destruct (rpsrun σ1 os) as [xs σ2]. eauto.
Qed.
Lemma reached0 : reached (A:=A) rst0 rss0.
Proof. by exists [], []. Qed.
Lemma panic_same c o c' : rpstep c o = RDone PPanic c' -> (forall o' : op A, o <> SX o') -> (forall e h y, o <> SPush e h y /\ o <> SConcat e h y /\ o <> SInsert e h y) -> (forall h x, o <> SIntoTree h x) -> c' = c.
Proof.
  assert (forall h chk, (forall r s b s', chk r s = Ok b s' -> s' = s) -> checked c o h chk (unw_none c) = RDone PPanic c' -> c' = c) as Hck.
  { intros h chk Hm. unfold checked, plain. destruct (r_h c !! h) as [r|]; [|by destruct (rstep c o)]. destruct (chk r (r_mem c)) as [[] s|] eqn:E; [by destruct (rstep c o)| |done].
    apply Hm in E as ->. unfold unw_none, ret. cbn [fst snd]. rewrite same_state. by intros [= <-]. }
  assert (plain c o = RDone PPanic c' -> c' = c) as Hpl by (unfold plain; by destruct (rstep c o)).
  assert (forall r s b s', may_borrow (r_b c) r s = Ok b s' -> s' = s) as M1 by (intros r s b s' H; by apply may_borrow_mem in H as [-> _]).
  assert (forall r s b s', may_borrow_mut (r_b c) r s = Ok b s' -> s' = s) as M2 by (intros r s b s' H; by apply may_borrow_mut_mem in H).
  assert (forall r s b s', may_move (r_b c) r s = Ok b s' -> s' = s) as M3.
  { intros r s b s' H. apply bind_inv in H as (b1 & s1 & H1 & H2). apply M2 in H1 as ->. destruct b1; [|unfold ret in H2; by injection H2].
    unfold has_parent, bind, get, ret in H2. destruct (m_heap s !! raddr r); [|done]. by injection H2. }
  intros H N1 N2 N3. unfold rpstep in H. destruct (has_type c o); cbn [negb] in H; [|by apply Hpl].
  destruct o; try (by apply Hpl); try (by apply (Hck _ _ M1 H)); try (by apply (Hck _ _ M2 H)); try (by apply (Hck _ _ M3 H)).
  - by destruct (N1 o). - by destruct (N2 e h y) as (? & _). - by destruct (N2 e h y) as (_ & ? & _). - by destruct (N2 e h y) as (_ & _ & ?).
  - destruct m; [by apply (Hck _ _ M2 H)|by apply (Hck _ _ M1 H)].
  - by destruct (N3 h x).
Qed.
End proofs.
