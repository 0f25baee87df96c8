(** RcDropPanic.v — C59 for the client. *)
From stdpp Require Import base gmap list.
From Verif Require Import Spec ClientSpec RcSpec PanicSpec Machine NodeModel BfsModel ClientModel CountFrame RcModel RcAllowed RcClient RcRef RcProps RcProps2 RcDropPanicModel RcDropPanicProofs.

Section client.
Context {A : Type}.
Implicit Types (c : rst A) (σ : rss A).

Lemma data_below B r (s s2 : mem A) a s' : rc_data B r s = Ok a s' -> below s s2 -> rc_data B r s2 = Ok a s2.
Proof.
  intros E (Hh & _ & Hv). unfold rc_data, node_borrow in E. apply bind_Ok in E as ([] & s1 & E1 & E). apply bind_Ok in E1 as ([] & s3 & E0 & E1).
  assert (s3 = s /\ acquire r s2 = Ok tt s2) as [-> E0'].
  { destruct r as [p|v i]; simpl in *; [by inversion E0|]. unfold vec_ref in *. destruct (m_vec s !! v) eqn:Ev; [|done]. inversion E0. split; [done|]. by destruct (Hv v) as [? ->]; [eauto|]. }
  apply bind_Ok in E1 as (n & s4 & E1 & E2). unfold get in E1. destruct (m_heap s !! raddr r) as [n0|] eqn:En; [|done]. inversion E1; subst n0 s4. destruct (Hh _ _ En) as (n2 & En2 & Hd).
  unfold rc_data, node_borrow, bind. rewrite E0'. unfold get. rewrite En2, Hd. destruct (bool_decide _); [done|]. destruct (is_none_dat _); [done|]. inversion E2; subst s1. unfold ret, data, bind, get.
  rewrite En2, Hd. unfold data, bind, get in E. rewrite En in E. unfold dat_ref in *. by destruct (n_dat n); inversion E.
Qed.

Lemma drop_panics c σ h σ' k : reached c σ -> rsstep σ (SDrop h) = Some (RUnit, σ') ->
  exists L, s_log (rs_x σ') = s_log (rs_x σ) ++ L /\
    (length L <= k -> exists c', rdrop_panics c h k = RDone (PRet RUnit) c' /\ reached c' σ') /\
    (k < length L -> exists c' l, rdrop_panics c h k = RDone PPanic c' /\ m_log (r_mem c') = s_log (rs_x σ) ++ take (S k) L ++ l /\ l `sublist_of` drop (S k) L /\
       forall h' a, rsstep σ' (SData h') = Some (RVal a, σ') -> rstep c' (SData h') = RDone (RVal a) c').
Proof.
  intros HR Hs. pose proof (reached_step c σ (SDrop h) HR I) as H. rewrite Hs in H. destruct H as (c1 & Hc1 & HR1).
  pose proof (RI_log _ _ (reached_RI _ _ HR)) as Hlog. pose proof (RI_log _ _ (reached_RI _ _ HR1)) as Hlog1.
  unfold rdrop_panics. cbn [rstep] in Hc1. destruct (r_h c !! h) as [r|] eqn:Er; [|done]. destruct (bool_decide _) eqn:Eg; [by inversion Hc1|].
  unfold call in Hc1. destruct (rc_drop_handle (r_b c) r (r_mem c)) as [[] s1|] eqn:Ed; [|done]. simplify_eq. cbn [r_mem set_rh set_mem] in Hlog1.
  destruct (sim_handle _ _ _ _ Ed) as (_ & L & HL & HK). exists L. split; [congruence|]. destruct (HK k) as [K1 K2]. split.
  - intros Hk. rewrite K1 by done. eauto.
  - intros Hk. destruct (K2 Hk) as (s2 & l & -> & Hb & _ & Hl & Hsub). eexists _, l. split; [done|]. cbn [r_mem set_rh set_mem]. split; [congruence|]. split; [done|].
    intros h' a Ha. pose proof (reached_step _ σ' (SData h') HR1 I) as H. rewrite Ha in H. destruct H as (c2 & Hc2 & _). cbn [rstep r_h r_b set_rh set_mem r_mem] in Hc2 |- *.
    destruct (delete h (r_h c) !! h') as [r'|]; [|done]. unfold call in Hc2 |- *. cbn [r_h r_b set_rh set_mem r_mem] in Hc2 |- *. destruct (rc_data (r_b c) r' s1) as [x s3|] eqn:Ex; [|done].
    rewrite (data_below _ _ _ _ _ _ Ex Hb). by inversion Hc2.
Qed.
End client.
