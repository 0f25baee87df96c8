(** RcExtItProofs.v — extending with any iterator is the run of its operations and of one push for each tree. *)
From stdpp Require Import base gmap list.
From Verif Require Import Spec ClientSpec RcSpec Machine NodeModel ClientModel RcModel RcAllowed RcClient Rep Inv RcLab RcRef RcStep2 RcStep4 RcBorrow RcProps RcProps2 RcExtItModel.

Section ext.
Context {A : Type}.
Implicit Types (c : rst A) (σ : rss A).

Lemma rstep_frame c o x c' h : h ∉ rop_handles o -> rstep c o = RDone x c' -> r_h c' !! h = r_h c !! h.
Proof.
  intros Hn H. destruct o; cbn [rop_handles] in Hn; rewrite ?not_elem_of_cons in Hn; unfold rstep, call, rgive in H; repeat case_match; simplify_eq; cbn;
    rewrite ?lookup_insert_ne, ?lookup_delete_ne by (intros ->; tauto); done.
Qed.
Lemma rsstep_frame σ o x σ' h : h ∉ rop_handles o -> rsstep σ o = Some (x, σ') -> rs_h σ' !! h = rs_h σ !! h.
Proof.
  intros Hn H. destruct o; cbn [rop_handles] in Hn; rewrite ?not_elem_of_cons in Hn; unfold rsstep, reading, writing, on_node, give, drop_handle in H; repeat case_match; simplify_eq; cbn;
    rewrite ?lookup_insert_ne, ?lookup_delete_ne by (intros ->; tauto); done.
Qed.

Lemma handle_alive c σ h i : reached c σ -> rs_h σ !! h = Some i -> exists u, lfind i (rs_sh σ) = Some u.
Proof.
  intros HR Hi. pose proof (RI_alive_h _ _ _ _ (reached_RI _ _ HR) Hi) as Ha. unfold lids in Ha. apply elem_of_list_fmap in Ha as (v & -> & Hv).
  rewrite (lfind_in _ _ (RI_ids _ _ (reached_RI _ _ HR)) Hv). eauto.
Qed.
Lemma extend_it_ok h r i p : forall c σ, reached c σ -> r_h c !! h = Some r -> rs_h σ !! h = Some i -> iprog_allowed op_allowed h p c σ ->
  match extend_it_spec i p σ with
  | Some (x, σ') => exists c', extend_it r p c = RDone x c' /\ reached c' σ' /\ r_h c' !! h = Some r /\ rs_h σ' !! h = Some i
  | None => extend_it r p c = RFails EPanic
  end.
Proof.
  induction p as [o k IH|y rest IH| |]; intros c σ HR Hh Hi Ha; cbn [extend_it_spec extend_it]; [| |by eauto|by eauto].
  - destruct Ha as (Hn & Hok & Ha). pose proof (reached_step c σ o HR Hok) as Hs. destruct (rsstep σ o) as [[x σ1]|] eqn:Eo; [|by rewrite Hs].
    destruct Hs as (c1 & E & HR1). rewrite E in *. apply IH; [done| | |done].
    + by rewrite (rstep_frame _ _ _ _ _ Hn E).
    + by rewrite (rsstep_frame _ _ _ _ _ Hn Eo).
  - pose proof (reached_RI _ _ HR) as (Wm & SH & Hs & s & ψ & HI). pose proof (RI_var _ _ _ _ _ _ _ y HI) as Hv.
    pose proof (reached_step c σ (SPush Back h y) HR I) as Hs1. cbn [iprog_allowed] in Ha. cbn [rsstep rstep] in Hs1, Ha.
    destruct (handle_alive _ _ _ _ HR Hi) as [u Hu]. unfold writing, on_node in Hs1, Ha. rewrite Hi, Hu, Hh in *.
    destruct (env_of σ !! y) as [[t|ts]|] eqn:Hy.
    + destruct Hv as (v & _ & _ & Hyc). rewrite Hyc in *. destruct (writable σ i).
      * destruct Hs1 as (c1 & E & HR1). unfold call in E, Ha. destruct (rc_push Back (r_b c) r (aptr v) (r_mem c)) as [[] s1|]; [|done]. injection E as <-.
        apply IH; [exact HR1|done|done|exact Ha].
      * unfold call in Hs1. destruct (rc_push Back (r_b c) r (aptr v) (r_mem c)) as [[] s1|]; [done|]. by injection Hs1 as ->.
    + destruct Hv as (v & _ & _ & Hyc). rewrite Hyc. eauto 10.
    + assert (r_env c !! y = None) as -> by tauto. eauto 10.
Qed.
Lemma rextend_it_ok h r i p c σ : reached c σ -> r_h c !! h = Some r -> rs_h σ !! h = Some i -> iprog_allowed op_allowed h p c σ ->
  match extend_it_spec i p σ with
  | Some (x, σ') => exists c', rextend_it c h p = RDone x c' /\ reached c' σ' /\ r_h c' !! h = Some r /\ rs_h σ' !! h = Some i
  | None => rextend_it c h p = RFails EPanic
  end.
Proof. intros HR Hh. unfold rextend_it. rewrite Hh. by apply extend_it_ok. Qed.
End ext.
