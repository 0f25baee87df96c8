(** RcPlain.v — programs without copies of handles, or without buffers, are allowed. *)
From stdpp Require Import base gmap list.
From Verif Require Import Spec ClientSpec RcSpec RcPlainSpec Machine NodeModel BfsModel ClientModel RcModel RcAllowed RcClient Sep Rep NodeProofs Inv Abs ClientProofs
  BfsIter ClientRef ClientProps ClientStep CountFrame RcRelease RcLab RcRef RcStep RcStep2 RcStep3 RcStep4 RcBorrow RcProps RcProps2.

Definition nv {A X} (m : M A X) : Prop := forall s x t, m s = Ok x t -> m_vec s = ∅ -> m_vec t = ∅.
Section nv.
Context {A : Type}.
Implicit Types (s t : mem A) (p q : ptr).
Lemma nv_ret {X} (x : X) : nv (A:=A) (ret x).
Proof. by intros s y t [= <- <-]. Qed.
Lemma nv_fail {X} e : nv (@fail A X e).
Proof. done. Qed.
Lemma nv_bind {X Y} (m : M A X) (k : X -> M A Y) : nv m -> (forall x, nv (k x)) -> nv (bind m k).
Proof. intros Hm Hk s y u E H. unfold bind in E. destruct (m s) as [x t|e] eqn:Em; [|done]. eapply Hk; [exact E|]. by eapply Hm. Qed.
Lemma nv_hp {X} (m : M A X) : hp m -> nv m.
Proof. intros H s x t E Hs. pose proof (H s s eq_refl) as H'. rewrite E in H'. destruct H' as (-> & _ & _). done. Qed.
Lemma nv_decr_ref v : nv (A:=A) (decr_ref v).
Proof. intros s x t E H. unfold decr_ref in E. by rewrite H, lookup_empty in E. Qed.
Lemma nv_vec_incr v : nv (A:=A) (vec_incr v).
Proof. intros s x t E H. unfold vec_incr in E. by rewrite H, lookup_empty in E. Qed.
Lemma nv_vec_ref v : nv (A:=A) (vec_ref v).
Proof. intros s x t E H. unfold vec_ref in E. by rewrite H, lookup_empty in E. Qed.
Lemma nv_cnt_incr p : nv (A:=A) (cnt_incr p).
Proof. intros s x t E H. unfold cnt_incr in E. destruct (m_cnt s !! p) as [[]|]; try done. by injection E as _ <-. Qed.
Lemma nv_cnt_decr p : nv (A:=A) (cnt_decr p).
Proof. intros s x t E H. unfold cnt_decr in E. destruct (m_cnt s !! p) as [[]|]; try done. by injection E as _ <-. Qed.
Lemma nv_cnt_get p : nv (A:=A) (cnt_get p).
Proof. intros s x t E H. unfold cnt_get in E. destruct (m_cnt s !! p); try done. by injection E as _ <-. Qed.
Lemma nv_log_drop l : nv (A:=A) (log_drop l).
Proof. intros s x t E H. by injection E as _ <-. Qed.
Lemma nv_rc_drop p : nv (A:=A) (rc_drop p).
Proof. intros s x t E H. unfold rc_drop in E. destruct (m_cnt s !! p) as [[|[|]]|], (m_heap s !! p); try done; by injection E as _ <-. Qed.
Lemma nv_make_node d : nv (A:=A) (make_node d).
Proof. intros s x t E H. by injection E as _ <-. Qed.
Lemma nv_drop_in_place p : nv (A:=A) (drop_in_place p).
Proof. intros s x t E H. unfold drop_in_place in E. destruct (m_heap s !! p); try done. by injection E as _ <-. Qed.
End nv.
Ltac nv_step :=
  match goal with
  | |- nv (match ?x with _ => _ end) => destruct x
  | |- nv (bind _ _) => apply nv_bind; [|intros ?]
  | |- nv (ret _) => apply nv_ret
  | |- nv (fail _) => apply nv_fail
  | |- nv _ => solve [apply nv_hp; hp_step]
  | |- nv _ => solve [auto with nv]
  end.
Ltac nv_solve := repeat nv_step.
Global Hint Resolve nv_decr_ref nv_vec_incr nv_vec_ref nv_cnt_incr nv_cnt_decr nv_cnt_get nv_log_drop nv_rc_drop nv_make_node nv_drop_in_place : nv.
Section alloc.
Context {A : Type}.
Implicit Types (p q : ptr).
Notation nv := (nv (A:=A)).
Lemma nv_into_inner d : nv (into_inner d).  Proof. unfold into_inner. nv_solve. Qed.
Lemma nv_drop_node p : nv (drop_node p).  Proof. unfold drop_node. nv_solve. Qed.
Lemma nv_drop_loop f p : nv (drop_loop f p).
Proof. revert p. induction f as [|f IH]; intros p; simpl; nv_solve; first [apply IH|apply IH|apply nv_drop_node]. Qed.
Lemma nv_drop_tree p : nv (drop_tree p).  Proof. unfold drop_tree. nv_solve; try (apply nv_drop_loop). Qed.
Hint Resolve nv_drop_tree nv_into_inner : nv.
Lemma nv_prepend p q : nv (prepend p q).  Proof. unfold prepend. nv_solve. Qed.
Lemma nv_append p q : nv (append p q).  Proof. unfold append. nv_solve. Qed.
Lemma nv_tree_new a : nv (tree_new a).  Proof. unfold tree_new. nv_solve. Qed.
Lemma nv_forest_new : nv forest_new.  Proof. unfold forest_new. nv_solve. Qed.
Lemma nv_into_data p : nv (into_data p).  Proof. unfold into_data. nv_solve. Qed.
Lemma nv_abandon p : nv (abandon p).  Proof. unfold abandon. nv_solve. Qed.
Hint Resolve nv_forest_new nv_into_data nv_abandon : nv.
Lemma nv_into_iter_drain f p : nv (into_iter_drain f p).
Proof. induction f as [|f IH]; simpl; unfold into_iter_next; nv_solve; try (apply IH). Qed.
Lemma nv_into_iter_drop p : nv (into_iter_drop p).
Proof. unfold into_iter_drop. nv_solve; try (apply nv_into_iter_drain). Qed.
Lemma nv_tree_into_iter p : nv (tree_into_iter p).  Proof. unfold tree_into_iter. nv_solve. Qed.
Lemma nv_split_tree p : nv (split_tree p).  Proof. unfold split_tree. nv_solve. Qed.
Hint Resolve nv_split_tree nv_into_iter_drop nv_tree_into_iter : nv.
Lemma nv_isp_next (q : list ptr) : nv (isp_next q).
Proof. induction q as [|fr q IH]; simpl; unfold into_iter_next, into_iter_size_hint; nv_solve; try (apply IH). Qed.
Lemma nv_isp_drop (q : list ptr) : nv (isp_drop q).
Proof. induction q as [|fr q IH]; simpl; nv_solve; try (apply IH). Qed.
Lemma nv_tree_into_bfs p : nv (tree_into_bfs p).  Proof. unfold tree_into_bfs. nv_solve. Qed.
Lemma nv_forest_into_bfs p : nv (forest_into_bfs p).  Proof. unfold forest_into_bfs. nv_solve. Qed.
Lemma nv_take_visits n (q : list ptr) : nv (take_visits n q).
Proof. revert q. induction n as [|n IH]; intros q; simpl; nv_solve; first [apply nv_isp_next|apply IH]. Qed.
Lemma nv_into_names fr xs env : nv (into_names fr xs env).
Proof. revert env. induction xs as [|x xs IH]; intros env; simpl; unfold into_iter_next, into_iter_size_hint; nv_solve; try (apply IH). Qed.
Lemma nv_each_act_c h cs a env : nv (each_act_c h cs a env).
Proof. unfold each_act_c. nv_solve. Qed.
Lemma nv_each_acts_c h cs acts env : nv (each_acts_c h cs acts env).
Proof. revert cs env. induction acts as [|a acts IH]; intros cs env; simpl; nv_solve; first [apply nv_each_act_c|apply IH]. Qed.
Lemma nv_each_loop f h it cs acts env : nv (each_loop f h it cs acts env).
Proof. revert it cs acts env. induction f as [|f IH]; intros it cs acts env; simpl; nv_solve; first [apply nv_each_acts_c|apply IH]. Qed.
Hint Resolve nv_prepend nv_append nv_tree_new nv_isp_drop nv_tree_into_bfs nv_forest_into_bfs nv_take_visits nv_into_names nv_each_loop : nv.
Lemma nv_with_node env h path k : (forall hd p, nv (k hd p)) -> nv (with_node env h path k).
Proof. intros Hk. unfold with_node. nv_solve; try (apply Hk). Qed.
Lemma nv_cstep env (o : op A) : buffer_free (SX o) -> nv (cstep env o).
Proof. destruct o; intros []; cbn [cstep]; repeat first [nv_step | apply nv_with_node; intros ? ?]. Qed.

(** ** rc.rs *)
Lemma nv_borrow B r : nv (node_borrow B r).  Proof. unfold node_borrow, acquire. nv_solve. Qed.
Lemma nv_borrow_mut B r : nv (node_borrow_mut B r).  Proof. unfold node_borrow_mut, acquire. nv_solve. Qed.
Hint Resolve nv_borrow nv_borrow_mut : nv.
Lemma nv_rc p : nv (rc p).  Proof. unfold rc. nv_solve. Qed.
Lemma nv_rc_from p : nv (rc_from p).  Proof. unfold rc_from, into_rc. nv_solve. Qed.
Lemma nv_rc_clone r : nv (rc_clone r).  Proof. unfold rc_clone. nv_solve. Qed.
Hint Resolve nv_rc nv_rc_from nv_rc_clone : nv.
Lemma nv_option_rc o : nv (option_rc o).  Proof. unfold option_rc. nv_solve. Qed.
Hint Resolve nv_option_rc : nv.
Lemma nv_drop_pops f : forall B r, nv (rc_drop_loop f B r) /\ nv (rc_pops f B r).
Proof.
  induction f as [|f IH]; intros B r; [split; apply nv_fail|]. split; cbn [rc_drop_loop rc_pops]; nv_solve; try apply IH.
Qed.
Lemma nv_drop_handle B r : nv (rc_drop_handle B r).
Proof. unfold rc_drop_handle. nv_solve. apply nv_drop_pops. Qed.
Hint Resolve nv_drop_handle : nv.
Lemma nv_upgrade w : nv (weak_upgrade w).
Proof.
  destruct w as [p|v i]; cbn [weak_upgrade].
  - intros s x t E H. destruct (m_cnt s !! p) as [n|] eqn:Ec; [|by injection E as _ <-]. revert E H. apply (nv_bind (cnt_incr p)); intros; nv_solve.
  - nv_solve.
Qed.
Lemma nv_weak_drop w : nv (weak_drop w).  Proof. unfold weak_drop. nv_solve. Qed.
Hint Resolve nv_upgrade nv_weak_drop : nv.

Lemma call_nv {X} c (m : M A X) k r c' : nv m -> m_vec (r_mem c) = ∅ -> call c m k = RDone r c' -> exists x s, k x s = RDone r c' /\ m_vec s = ∅.
Proof. intros Hm Hc E. unfold call in E. destruct (m (r_mem c)) as [x s|] eqn:Em; [|done]. exists x, s. split; [done|]. by eapply Hm. Qed.
Ltac fin := match goal with
  | H : RDone _ _ = RDone _ _ |- _ => by injection H as _ <-
  | H : rgive _ _ ?o = RDone _ _ |- _ => unfold rgive in H; destruct o; by injection H as _ <-
  end.
Lemma rstep_nv c o r c' : buffer_free o -> m_vec (r_mem c) = ∅ -> rstep (A:=A) c o = RDone r c' -> m_vec (r_mem c') = ∅.
Proof.
  intros Hb Hc E. destruct o; cbn [rstep] in E; try done.
  all: repeat match type of E with
       | call _ _ _ = _ => apply call_nv in E as (? & ? & E & ?); [|try apply nv_cstep; try done; unfold rc_end, rc_parent, rc_pop, rc_push, rc_concat, rc_insert, rc_detach, rc_data, rc_modify, rc_degree,
           rc_node_count, rc_has_no_child, rc_is_root, rc_iter; nv_solve|done]
       | match ?x with _ => _ end = _ => destruct x eqn:?
       end; try fin; try done.
Qed.
Lemma no_pile c σ h v i : RI c σ -> m_vec (r_mem c) = ∅ -> r_h (A:=A) c !! h = Some (RPile v i) -> False.
Proof.
  intros (Wm & SH & Hs & s & ψ & HR) Hv Hh. pose proof (RI_handle HR h) as Hx. destruct (rs_h σ !! h) as [j|] eqn:E; [|congruence].
  destruct Hx as (p & pl & a & aks & S1 & S2 & D & L1 & L2 & C & ks & H1 & H2 & H3 & H4 & H5 & H6 & H7 & H8 & H9 & H10).
  rewrite H1 in Hh. destruct pl; [|done]. injection Hh as <- <-. pose proof (RI_minv HR) as HI.
  destruct (alive_vec s _ p HI) as (cap & rc & Hvec & _).
  { rewrite H2. rewrite infoss_app, !infoss_app, infoss_cons, plug_infos. rewrite !elem_of_app. right. right. left. left. left. }
  rewrite (iv_mem _ _ _ _ _ _ _ HR) in Hv. cbn [m_vec addc adj] in Hv. apply (f_equal (lookup p.1)) in Hv. by rewrite map_lookup_imap, Hvec in Hv.
Qed.
Lemma buffer_free_allowed os : forall c σ, RI c σ -> m_vec (r_mem c) = ∅ -> Forall buffer_free os -> allowed (A:=A) c σ os.
Proof.
  induction os as [|o os IH]; intros c σ HR Hv HF; [done|]. inversion HF as [|? ? Ho HF']; subst. assert (op_allowed c σ o) as Hal.
  { destruct o; cbn; try done; destruct (r_h c !! h) as [[]|] eqn:E; try done; by eapply no_pile. }
  split; [done|]. pose proof (rstep_ok _ _ _ HR Hal) as Hst. destruct (rstep c o) as [r c'|e] eqn:E; [|done]. destruct (rsstep σ o) as [[r' σ']|]; [|done].
  destruct Hst as (c2 & E2 & HR'). injection E2 as -> <-. apply IH; [done| |done]. by eapply rstep_nv.
Qed.
Lemma copy_free_allowed os : forall c σ, Forall copy_free os -> allowed (A:=A) c σ os.
Proof.
  induction os as [|o os IH]; intros c σ HF; [done|]. inversion HF as [|? ? Ho HF']; subst. split; [by destruct o|].
  destruct (rstep c o) as [r c'|e]; [|done]. destruct (rsstep σ o) as [[r' σ']|]; [|done]. by apply IH.
Qed.
Lemma copy_free_safety os : Forall copy_free os ->
  match rsrun (A:=A) rss0 os with
  | Some (rs, σ) => exists c, rrun rst0 os = RDone rs c /\ m_log (r_mem c) = s_log (rs_x σ)
  | None => rrun rst0 os = RFails EPanic
  end.
Proof. intros H. apply safety. by apply copy_free_allowed. Qed.
Lemma buffer_free_safety os : Forall buffer_free os ->
  match rsrun (A:=A) rss0 os with
  | Some (rs, σ) => exists c, rrun rst0 os = RDone rs c /\ m_log (r_mem c) = s_log (rs_x σ)
  | None => rrun rst0 os = RFails EPanic
  end.
Proof. intros H. apply safety. apply buffer_free_allowed; [apply RI_init|done|done]. Qed.
End alloc.
