(** RcCmpProps.v — comparison, hashing and printing of [RcNode] in terms of CmpSpec. *)
From Coq Require Import Ascii String.
From stdpp Require Import base gmap list.
From Verif Require Import Spec ClientSpec RcSpec Machine NodeModel BfsModel ClientModel RcModel RcCmpModel CmpSpec RcAllowed RcClient RcCmpClient Sep Rep NodeProofs Inv Abs ClientProofs
  BfsBuild BfsIter ClientRef ClientProps ClientStep CmpProofs CmpLaws CountFrame RcRelease RcLab RcRef RcStep RcStep2 RcStep3 RcStep4 RcBorrow RcProps RcProps2 RcCmpProofs.

Section props.
Context {A : Type}.
Implicit Types (t u : ltree A) (ts us : list (ltree A)) (rd : nat -> bool).

Lemma ltree_ind' (P : ltree A -> Prop) : (forall i a ks, Forall P ks -> P (LN i a ks)) -> forall t, P t.
Proof. intros H. fix IH 1. intros [i a ks]. apply H. induction ks as [|k ks IHk]; constructor; [apply IH|exact IHk]. Qed.
Definition clear rd ts : Prop := forall j, j ∈ lids ts -> rd j = true.
Lemma clear_node rd i a ks : clear rd [LN i a ks] <-> rd i = true /\ clear rd ks.
Proof.
  unfold clear. rewrite lids_cons, lids_node. setoid_rewrite elem_of_app. setoid_rewrite elem_of_cons. split.
  - intros H. split; [apply H; auto|]. intros j Hj. apply H. auto.
  - intros [H1 H2] j [[->|Hj]|Hj]; [done|auto|by apply elem_of_nil in Hj].
Qed.
Lemma clear_cons rd t ts : clear rd (t :: ts) <-> clear rd [t] /\ clear rd ts.
Proof.
  unfold clear. rewrite !lids_cons. setoid_rewrite elem_of_app. split.
  - intros H. split; intros j Hj; apply H; [|auto]. destruct Hj as [?|Hj]; [auto|by apply elem_of_nil in Hj].
  - intros [H1 H2] j [Hj|Hj]; auto.
Qed.
Lemma clear_true ts : clear (fun _ => true) ts.
Proof. done. Qed.
Lemma clear_dec rd ts : clear rd ts \/ exists j, j ∈ lids ts /\ rd j = false.
Proof.
  unfold clear. generalize (lids ts). intros l. induction l as [|x l IH]; [left; intros j Hj; by apply elem_of_nil in Hj|].
  destruct (rd x) eqn:E; [|right; exists x; split; [left|done]]. destruct IH as [IH|(j & Hj & Hn)]; [left|right; exists j; split; [by right|done]].
  intros j Hj. apply elem_of_cons in Hj as [->|Hj]; auto.
Qed.

(** ** the value does not depend on the borrows *)
Lemma lcompare_mono {O} (e e' : ltree A -> ltree A -> option (option O)) ts : Forall (fun t => forall u o, e t u = Some o -> e' t u = Some o) ts ->
  forall us r, lcompare e ts us = Some r -> lcompare e' ts us = Some r.
Proof.
  intros H. induction H as [|t ts Ht H IH]; intros [|u us] r Hr; cbn in *; try done. destruct (e t u) as [o|] eqn:E; [|done].
  rewrite (Ht _ _ E). destruct o; [done|]. by apply IH.
Qed.
Lemma leq_mono rd eqA t : forall u b, leq rd eqA t u = Some b -> leq (fun _ => true) eqA t u = Some b.
Proof.
  induction t as [i a ks IH] using ltree_ind'. intros [j b us] r. cbn [leq andb]. destruct (rd i && rd j); [|done]. destruct (eqA a b); [|done]. intros Hr.
  apply fmap_Some in Hr as (x & Hx & ->). apply fmap_Some. exists x. split; [|done]. eapply lcompare_mono; [|exact Hx].
  eapply Forall_impl; [exact IH|]. cbn. intros t Ht u o Ho. apply fmap_Some in Ho as (y & Hy & ->). by rewrite (Ht _ _ Hy).
Qed.
Lemma lpcmp_mono rd pc t : forall u b, lpcmp rd pc t u = Some b -> lpcmp (fun _ => true) pc t u = Some b.
Proof.
  induction t as [i a ks IH] using ltree_ind'. intros [j b us] r. cbn [lpcmp andb]. destruct (rd i && rd j); [|done]. destruct (pc a b) as [[]|]; try done. intros Hr.
  apply fmap_Some in Hr as (x & Hx & ->). apply fmap_Some. exists x. split; [|done]. eapply lcompare_mono; [|exact Hx].
  eapply Forall_impl; [exact IH|]. cbn. intros t Ht u o Ho. apply fmap_Some in Ho as (y & Hy & ->). by rewrite (Ht _ _ Hy).
Qed.
Lemma lcmp_mono rd pc t : forall u b, lcmp rd pc t u = Some b -> lcmp (fun _ => true) pc t u = Some b.
Proof.
  induction t as [i a ks IH] using ltree_ind'. intros [j b us] r. cbn [lcmp andb]. destruct (rd i && rd j); [|done]. destruct (pc a b); try done. intros Hr.
  apply fmap_Some in Hr as (x & Hx & ->). apply fmap_Some. exists x. split; [|done]. eapply lcompare_mono; [|exact Hx].
  eapply Forall_impl; [exact IH|]. cbn. intros t Ht u o Ho. apply fmap_Some in Ho as (y & Hy & ->). by rewrite (Ht _ _ Hy).
Qed.

(** ** without RefMuts, the functions of CmpSpec *)
Lemma lcompare_eq rd (e : ltree A -> ltree A -> option bool) (eq' : tree A -> tree A -> bool) ts : Forall (fun t => forall u, clear rd [t] -> clear rd [u] -> e t u = Some (eq' (erase t) (erase u))) ts ->
  forall us, clear rd ts -> clear rd us ->
  (fun c : unit + comparison => match c with inr Eq => true | _ => false end) <$> lcompare (fun x y => (fun e : bool => if e then None else Some tt) <$> e x y) ts us =
  Some (list_eqb eq' (map erase ts) (map erase us)).
Proof.
  intros H. induction H as [|t ts Ht H IH]; intros [|u us] Hc Hu; cbn; try done. apply clear_cons in Hc as [Hc1 Hc2]. apply clear_cons in Hu as [Hu1 Hu2].
  rewrite (Ht u) by done. cbn. destruct (eq' (erase t) (erase u)); [|done]. cbn. by apply IH.
Qed.
Lemma leq_clear rd eqA t : forall u, clear rd [t] -> clear rd [u] -> leq rd eqA t u = Some (tree_eqb eqA (erase t) (erase u)).
Proof.
  induction t as [i a ks IH] using ltree_ind'. intros [j b us] Ht Hu. apply clear_node in Ht as [Hi Ht]. apply clear_node in Hu as [Hj Hu].
  cbn [leq erase tree_eqb]. rewrite Hi, Hj. cbn [andb]. destruct (eqA a b); [|done]. by apply (lcompare_eq rd).
Qed.
Lemma lcompare_pcmp rd (e : ltree A -> ltree A -> option (option comparison)) c ts : Forall (fun t => forall u, clear rd [t] -> clear rd [u] -> e t u = Some (c (erase t) (erase u))) ts ->
  forall us, clear rd ts -> clear rd us ->
  (fun c : option comparison + comparison => match c with inr o => Some o | inl o => o end) <$>
    lcompare (fun x y => (fun o : option comparison => match o with Some Eq => None | _ => Some o end) <$> e x y) ts us =
  Some (plex c (map erase ts) (map erase us)).
Proof.
  intros H. induction H as [|t ts Ht H IH]; intros [|u us] Hc Hu; cbn; try done. apply clear_cons in Hc as [Hc1 Hc2]. apply clear_cons in Hu as [Hu1 Hu2].
  rewrite (Ht u) by done. cbn. destruct (c (erase t) (erase u)) as [[]|]; try done. by apply IH.
Qed.
Lemma lpcmp_clear rd pc t : forall u, clear rd [t] -> clear rd [u] -> lpcmp rd pc t u = Some (tree_pcmp pc (erase t) (erase u)).
Proof.
  induction t as [i a ks IH] using ltree_ind'. intros [j b us] Ht Hu. apply clear_node in Ht as [Hi Ht]. apply clear_node in Hu as [Hj Hu].
  cbn [lpcmp erase tree_pcmp]. rewrite Hi, Hj. cbn [andb]. destruct (pc a b) as [[]|]; try done. by apply (lcompare_pcmp rd).
Qed.
Lemma lcompare_cmp rd (e : ltree A -> ltree A -> option comparison) c ts : Forall (fun t => forall u, clear rd [t] -> clear rd [u] -> e t u = Some (c (erase t) (erase u))) ts ->
  forall us, clear rd ts -> clear rd us ->
  (fun c : comparison + comparison => match c with inr o => o | inl o => o end) <$>
    lcompare (fun x y => (fun o : comparison => match o with Eq => None | _ => Some o end) <$> e x y) ts us =
  Some (lex c (map erase ts) (map erase us)).
Proof.
  intros H. induction H as [|t ts Ht H IH]; intros [|u us] Hc Hu; cbn; try done. apply clear_cons in Hc as [Hc1 Hc2]. apply clear_cons in Hu as [Hu1 Hu2].
  rewrite (Ht u) by done. cbn. destruct (c (erase t) (erase u)); try done. by apply IH.
Qed.
Lemma lcmp_clear rd pc t : forall u, clear rd [t] -> clear rd [u] -> lcmp rd pc t u = Some (tree_cmp pc (erase t) (erase u)).
Proof.
  induction t as [i a ks IH] using ltree_ind'. intros [j b us] Ht Hu. apply clear_node in Ht as [Hi Ht]. apply clear_node in Hu as [Hj Hu].
  cbn [lcmp erase tree_cmp]. rewrite Hi, Hj. cbn [andb]. destruct (pc a b); try done. by apply (lcompare_cmp rd).
Qed.
(** equal trees are visited completely *)
Lemma leq_all rd eqA t : forall u, leq rd eqA t u = Some true -> clear rd [t] /\ clear rd [u].
Proof.
  induction t as [i a ks IH] using ltree_ind'. intros [j b us]. cbn [leq]. rewrite !clear_node. destruct (rd i), (rd j); try done. cbn [andb]. destruct (eqA a b); [|done].
  intros H. assert (clear rd ks /\ clear rd us); [|tauto]. revert us H. induction IH as [|t ts Ht _ IH]; intros [|u us] H; cbn in H; try done.
  { split; intros x Hx; by apply elem_of_nil in Hx. }
  destruct (leq rd eqA t u) as [[]|] eqn:E; cbn in H; try done. destruct (Ht _ E) as [? ?]. destruct (IH _ H) as [? ?].
  rewrite (clear_cons rd t), (clear_cons rd u). done.
Qed.

(** ** one tree *)
Lemma lfor_clear {X} rd (e : ltree A -> option X) v ts : Forall (fun t => clear rd [t] -> e t = Some (v (erase t))) ts -> clear rd ts -> lfor e ts = Some (map v (map erase ts)).
Proof. intros H. induction H as [|t ts Ht H IH]; intros Hc; [done|]. apply clear_cons in Hc as [? ?]. cbn. rewrite Ht, IH; done. Qed.
Lemma lfor_block {X} rd (e : ltree A -> option X) ts : Forall (fun t => ~ clear rd [t] -> e t = None) ts -> ~ clear rd ts -> lfor e ts = None.
Proof.
  intros H. induction H as [|t ts Ht H IH]; intros Hc; [destruct Hc; by intros j Hj; apply elem_of_nil in Hj|]. rewrite clear_cons in Hc. cbn.
  destruct (clear_dec rd [t]) as [Hd|(j & Hj & Hn)].
  - destruct (e t); [|done]. rewrite IH; [done|tauto].
  - rewrite Ht; [done|]. intros Hx. specialize (Hx j Hj). congruence.
Qed.
Lemma lhash_clear {H} rd (h : A -> list H) t : clear rd [t] -> lhash rd h t = Some (flat_map h (preorder (erase t))).
Proof.
  induction t as [i a ks IH] using ltree_ind'. rewrite clear_node. intros [Hi Hc]. cbn [lhash]. rewrite Hi, (lfor_clear rd _ (fun x => flat_map h (preorder x)) _ IH Hc). cbn. do 2 f_equal.
  clear. induction ks as [|k ks IH]; [done|]. cbn. by rewrite flat_map_app, IH.
Qed.
Lemma lhash_block {H} rd (h : A -> list H) t : ~ clear rd [t] -> lhash rd h t = None.
Proof.
  induction t as [i a ks IH] using ltree_ind'. rewrite clear_node. intros Hc. cbn [lhash]. destruct (rd i); [|done]. rewrite (lfor_block rd _ _ IH); [done|tauto].
Qed.
Lemma lfmt_clear rd show t : clear rd [t] -> lfmt rd show t = Some (display show (erase t)).
Proof.
  induction t as [i a ks IH] using ltree_ind'. rewrite clear_node. intros [Hi Hc]. cbn [lfmt]. rewrite Hi. destruct ks as [|k ks]; [done|].
  rewrite (lfor_clear rd _ (display show) _ IH Hc). cbn [fmap option_fmap option_map]. f_equal. cbn [erase display map]. do 3 f_equal.
  generalize (map erase ks). intros l. clear. generalize (erase k). intros x. cbn [map fold_right]. f_equal. f_equal. induction l as [|y l IH]; [done|]. cbn [map fold_right]. by rewrite IH.
Qed.
Lemma lfmt_block rd show t : ~ clear rd [t] -> lfmt rd show t = None.
Proof.
  induction t as [i a ks IH] using ltree_ind'. rewrite clear_node. intros Hc. cbn [lfmt]. destruct (rd i); [|done].
  assert (~ clear rd ks) as Hk by tauto. destruct ks as [|k ks]; [destruct Hk; by intros j Hj; apply elem_of_nil in Hj|]. by rewrite (lfor_block rd _ _ IH).
Qed.

(** * In a reached state *)
Section reached.
Context (c : rst A) (σ : rss A) (HRc : reached c σ).
Implicit Types (r : rnode).

Lemma not_clear t : ~ clear (readable σ) [t] <-> locked σ t.
Proof.
  unfold locked. assert (lids [t] = lid <$> lsubs t) as Hl. { rewrite lids_cons. change (lids []) with (@nil nat). by rewrite app_nil_r. } split.
  - intros Hn. destruct (clear_dec (readable σ) [t]) as [?|(j & Hj & Hf)]; [done|]. exists j. by rewrite <-Hl.
  - intros (j & Hj & Hf) Hc. rewrite <-Hl in Hj. specialize (Hc j Hj). congruence.
Qed.
Lemma world : exists s W ψ Hs, r_mem c = addc Hs s /\ MInvX s W [] /\ (forall p i, ψ !! p = Some i -> bool_decide (flag (r_b c) p < 0)%Z = negb (readable σ i)) /\
  (forall r t, handle_for c σ r t -> exists k C, r = rform (aptr k) (apl k) /\ lrep ψ k t /\ located W C k).
Proof.
  destruct (reached_RI _ _ HRc) as (Wm & SH & Hs & s & ψ & HR). exists s, ((map_to_list Wm).*2 ++ SH), ψ, Hs. split_and!.
  - apply HR. - apply (RI_minv HR). - intros p i Hi. by apply (flag_readable HR).
  - intros r t (h & i & Hr & Hi & Hf). pose proof (RI_handle HR h) as Hh. rewrite Hi in Hh.
    destruct Hh as (p & pl & a & aks & S1 & S2 & D & L1 & L2 & C & ks & H1 & H2 & H3 & H4 & H5 & H6 & H7 & H8 & H9 & H10). rewrite H9 in Hf. injection Hf as <-. rewrite H1 in Hr. injection Hr as <-.
    exists (AN p pl (Some a) aks), D. split_and!; [done|by constructor|]. exists ((map_to_list Wm).*2 ++ S1 ++ S2). rewrite H2. solve_Permutation.
Qed.
Ltac ent Hk Hu := destruct world as (s & W & ψ & Hs & Hm & HI & Hrd & Hw); destruct (Hw _ _ Hk) as (k & C & -> & Hkt & Hl); destruct (Hw _ _ Hu) as (v & C' & -> & Hvu & Hl').
Lemma exec_eq eqA r r' t u : handle_for c σ r t -> handle_for c σ r' u -> rc_eq eqA (r_b c) r r' (r_mem c) = ores (leq (readable σ) eqA t u) (r_mem c).
Proof.
  intros Hk Hu. ent Hk Hu. rewrite Hm. unfold rc_eq, bind, fuel, gets. cbn [m_heap addc adj]. fold (addc Hs s). eapply (eq_run s W ψ); try done.
  pose proof (located_size _ _ _ _ _ Hl HI). lia.
Qed.
Lemma exec_pcmp pc r r' t u : handle_for c σ r t -> handle_for c σ r' u -> rc_pcmp pc (r_b c) r r' (r_mem c) = ores (lpcmp (readable σ) pc t u) (r_mem c).
Proof.
  intros Hk Hu. ent Hk Hu. rewrite Hm. unfold rc_pcmp, bind, fuel, gets. cbn [m_heap addc adj]. fold (addc Hs s). eapply (pcmp_run s W ψ); try done.
  pose proof (located_size _ _ _ _ _ Hl HI). lia.
Qed.
Lemma exec_cmp pc r r' t u : handle_for c σ r t -> handle_for c σ r' u -> rc_cmp pc (r_b c) r r' (r_mem c) = ores (lcmp (readable σ) pc t u) (r_mem c).
Proof.
  intros Hk Hu. ent Hk Hu. rewrite Hm. unfold rc_cmp, bind, fuel, gets. cbn [m_heap addc adj]. fold (addc Hs s). eapply (cmp_run s W ψ); try done.
  pose proof (located_size _ _ _ _ _ Hl HI). lia.
Qed.
Lemma exec_ne eqA neA r r' t u : (forall a b, neA a b = negb (eqA a b)) -> handle_for c σ r t -> handle_for c σ r' u ->
  rc_ne eqA neA (r_b c) r r' (r_mem c) = ores (negb <$> leq (readable σ) eqA t u) (r_mem c).
Proof.
  intros Hne Hk Hu. ent Hk Hu. rewrite Hm. rewrite (ne_run s W ψ (r_b c) (readable σ) HI Hrd eqA neA k t C u v C'); try done. f_equal.
  destruct t as [i a ks], u as [j b us]. cbn [lid lval lkids leq]. rewrite Hne. destruct (_ && _); [|done]. destruct (eqA a b); [|done]. cbn [negb].
  destruct (lcompare _ _ _) as [[|[]]|]; done.
Qed.
Lemma exec_hash {H} (h : A -> list H) r t : handle_for c σ r t -> rc_hash h (r_b c) r (r_mem c) = ores (lhash (readable σ) h t) (r_mem c).
Proof.
  intros Hk. destruct world as (s & W & ψ & Hs & Hm & HI & Hrd & Hw); destruct (Hw _ _ Hk) as (k & C & -> & Hkt & Hl). rewrite Hm. unfold rc_hash, bind, fuel, gets. cbn [m_heap addc adj]. fold (addc Hs s). eapply (hash_run s W ψ); try done.
  pose proof (located_size _ _ _ _ _ Hl HI). lia.
Qed.
Lemma exec_fmt show r t : handle_for c σ r t -> rc_fmt show (r_b c) r (r_mem c) = ores (lfmt (readable σ) show t) (r_mem c).
Proof.
  intros Hk. destruct world as (s & W & ψ & Hs & Hm & HI & Hrd & Hw); destruct (Hw _ _ Hk) as (k & C & -> & Hkt & Hl). rewrite Hm. unfold rc_fmt, bind, fuel, gets. cbn [m_heap addc adj]. fold (addc Hs s). eapply (fmt_run s W ψ); try done.
  pose proof (located_size _ _ _ _ _ Hl HI). lia.
Qed.

Lemma gen2 {X} (m : M A X) (o o' : option X) x t u : m (r_mem c) = ores o (r_mem c) -> o' = Some x -> (forall b, o = Some b -> o' = Some b) ->
  (clear (readable σ) [t] -> clear (readable σ) [u] -> o = Some x) -> evals c m x \/ (panics c m /\ (locked σ t \/ locked σ u)).
Proof.
  intros Hm Ho' Hmono Hc. unfold evals, panics. rewrite Hm. destruct o as [b|]; [left|right].
  - specialize (Hmono b eq_refl). by simplify_eq.
  - split; [done|]. rewrite <-!not_clear. destruct (clear_dec (readable σ) [t]) as [H1|(j & Hj & Hf)]; [|left; intros Hx; specialize (Hx j Hj); congruence].
    right. intros H2. by specialize (Hc H1 H2).
Qed.
Lemma rc_eq_prop eqA r r' t u : handle_for c σ r t -> handle_for c σ r' u ->
  exists b, (evals c (rc_eq eqA (r_b c) r r') b \/ (panics c (rc_eq eqA (r_b c) r r') /\ (locked σ t \/ locked σ u))) /\ (b = true <-> tree_rel (fun a b => eqA a b = true) (erase t) (erase u)).
Proof.
  intros Hk Hu. exists (tree_eqb eqA (erase t) (erase u)). split; [|apply tree_eqb_spec].
  apply (gen2 _ _ _ _ _ _ (exec_eq eqA r r' t u Hk Hu) (leq_clear (fun _ => true) eqA t u (clear_true _) (clear_true _))); [apply leq_mono|apply leq_clear].
Qed.
Lemma rc_ne_prop eqA neA r r' t u : (forall a b, neA a b = negb (eqA a b)) -> handle_for c σ r t -> handle_for c σ r' u ->
  exists b, (evals c (rc_ne eqA neA (r_b c) r r') b \/ (panics c (rc_ne eqA neA (r_b c) r r') /\ (locked σ t \/ locked σ u))) /\ (b = false <-> tree_rel (fun a b => eqA a b = true) (erase t) (erase u)).
Proof.
  intros Hne Hk Hu. exists (negb (tree_eqb eqA (erase t) (erase u))). split; [|rewrite negb_false_iff; apply tree_eqb_spec].
  apply (gen2 _ _ (negb <$> leq (fun _ => true) eqA t u) _ t u (exec_ne eqA neA r r' t u Hne Hk Hu)).
  - by rewrite (leq_clear (fun _ => true) eqA t u (clear_true _) (clear_true _)).
  - intros b Hb. apply fmap_Some in Hb as (x & Hx & ->). by rewrite (leq_mono _ _ _ _ _ Hx).
  - intros. by rewrite leq_clear.
Qed.
Lemma rc_cmp_prop cm r r' t u : handle_for c σ r t -> handle_for c σ r' u ->
  evals c (rc_cmp cm (r_b c) r r') (tree_cmp cm (erase t) (erase u)) \/ (panics c (rc_cmp cm (r_b c) r r') /\ (locked σ t \/ locked σ u)).
Proof.
  intros Hk Hu. apply (gen2 _ _ _ _ _ _ (exec_cmp cm r r' t u Hk Hu) (lcmp_clear (fun _ => true) cm t u (clear_true _) (clear_true _))); [apply lcmp_mono|apply lcmp_clear].
Qed.
Lemma rc_pcmp_prop cm r r' t u : handle_for c σ r t -> handle_for c σ r' u ->
  evals c (rc_pcmp cm (r_b c) r r') (tree_pcmp cm (erase t) (erase u)) \/ (panics c (rc_pcmp cm (r_b c) r r') /\ (locked σ t \/ locked σ u)).
Proof.
  intros Hk Hu. apply (gen2 _ _ _ _ _ _ (exec_pcmp cm r r' t u Hk Hu) (lpcmp_clear (fun _ => true) cm t u (clear_true _) (clear_true _))); [apply lpcmp_mono|apply lpcmp_clear].
Qed.
Lemma rc_hash_prop {H} (h : A -> list H) r t : handle_for c σ r t ->
  (~ locked σ t -> evals c (rc_hash h (r_b c) r) (flat_map h (preorder (erase t)))) /\ (locked σ t -> panics c (rc_hash h (r_b c) r)).
Proof.
  intros Hk. unfold evals, panics. rewrite (exec_hash h r t Hk). split; intros Hc.
  - rewrite lhash_clear; [done|]. destruct (clear_dec (readable σ) [t]) as [?|(j & Hj & Hf)]; [done|]. destruct Hc. apply not_clear. intros Hx. specialize (Hx j Hj). congruence.
  - apply not_clear in Hc. by rewrite lhash_block.
Qed.
Lemma rc_fmt_prop show r t : handle_for c σ r t ->
  (~ locked σ t -> evals c (rc_fmt show (r_b c) r) (display show (erase t))) /\ (locked σ t -> panics c (rc_fmt show (r_b c) r)).
Proof.
  intros Hk. unfold evals, panics. rewrite (exec_fmt show r t Hk). split; intros Hc.
  - rewrite lfmt_clear; [done|]. destruct (clear_dec (readable σ) [t]) as [?|(j & Hj & Hf)]; [done|]. destruct Hc. apply not_clear. intros Hx. specialize (Hx j Hj). congruence.
  - apply not_clear in Hc. by rewrite lfmt_block.
Qed.
Lemma rc_root_locked eqA neA pc cm r r' t u : handle_for c σ r t -> handle_for c σ r' u -> (forall a b, neA a b = negb (eqA a b)) -> readable σ (lid t) && readable σ (lid u) = false ->
  panics c (rc_eq eqA (r_b c) r r') /\ panics c (rc_ne eqA neA (r_b c) r r') /\ panics c (rc_pcmp pc (r_b c) r r') /\ panics c (rc_cmp cm (r_b c) r r').
Proof.
  intros Hk Hu Hne Hl. unfold panics. rewrite (exec_eq _ _ _ _ _ Hk Hu), (exec_ne _ _ _ _ _ _ Hne Hk Hu), (exec_pcmp _ _ _ _ _ Hk Hu), (exec_cmp _ _ _ _ _ Hk Hu).
  destruct t, u. cbn [lid] in Hl. cbn [leq lpcmp lcmp]. rewrite Hl. done.
Qed.
Lemma rc_equal_locked eqA r r' t u : handle_for c σ r t -> handle_for c σ r' u -> tree_rel (fun a b => eqA a b = true) (erase t) (erase u) -> locked σ t \/ locked σ u ->
  panics c (rc_eq eqA (r_b c) r r').
Proof.
  intros Hk Hu Hr Hl. unfold panics. rewrite (exec_eq _ _ _ _ _ Hk Hu). destruct (leq _ _ _ _) as [b|] eqn:E; [|done]. exfalso.
  pose proof (leq_mono _ _ _ _ _ E) as E'. rewrite leq_clear in E' by done. apply tree_eqb_spec in Hr. rewrite Hr in E'. injection E' as <-.
  apply leq_all in E as [E1 E2]. rewrite <-!not_clear in Hl. tauto.
Qed.
End reached.
End props.
