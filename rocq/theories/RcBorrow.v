(** RcBorrow.v — dynamic borrow checking, for all histories (allowed or not). *)
From stdpp Require Import base gmap list sorting.
From Verif Require Import Spec ClientSpec RcSpec Machine NodeModel BfsModel ClientModel RcModel RcAllowed RcClient RcRef RcStep3 RcStep4.

Section borrow.
Context {A : Type}.
Implicit Types (p q : ptr) (s : mem A) (c : rst A) (o : rop A).

Ltac inv H := inversion H; subst; clear H.
Ltac crush := repeat match goal with
  | H : context [match ?x with _ => _ end] |- _ => destruct x eqn:?; try done
  | H : RDone _ _ = RDone _ _ |- _ => inv H
  | H : RDone _ _ = RFails _ |- _ => done
  end.

Lemma rgive_grel c h' (x : option rnode) r c' : rgive c h' x = RDone r c' -> r_h c !! h' = None -> grel (r_h c) (r_g c) (r_b c) ->
  grel (r_h c') (r_g c') (r_b c').
Proof. destruct x; cbn; intros E Hh HG; inv E; cbn; [by apply grel_new|done]. Qed.
Lemma borrow_ok_inv B (r : rnode) s s' : node_borrow (A:=A) B r s = Ok tt s' -> (0 <= flag B (raddr r))%Z.
Proof.
  unfold node_borrow, bind. destruct (acquire r s) as [[] s1|]; [|done]. unfold get. destruct (m_heap s1 !! raddr r) as [n|]; [|done].
  destruct (bool_decide (flag B (raddr r) < 0)%Z) eqn:E; [done|]. apply bool_decide_eq_false in E. intros _. lia.
Qed.
Lemma borrow_mut_ok_inv B (r : rnode) s s' : node_borrow_mut (A:=A) B r s = Ok tt s' -> flag B (raddr r) = 0%Z.
Proof.
  unfold node_borrow_mut, bind. destruct (acquire r s) as [[] s1|]; [|done]. unfold get. destruct (m_heap s1 !! raddr r) as [n|]; [|done].
  destruct (bool_decide (flag B (raddr r) <> 0)%Z) eqn:E; [done|]. apply bool_decide_eq_false in E. intros _. lia.
Qed.
Lemma gflag_zero l : gflag l = 0%Z -> l = [].
Proof. unfold gflag. destruct (decide _); [done|]. destruct l; [done|]. simpl. lia. Qed.
Lemma gflag_nonneg l : (0 <= gflag l)%Z -> true ∉ l.
Proof. unfold gflag. destruct (decide _); [lia|done]. Qed.

Lemma step_grel c o r c' : grel (r_h c) (r_g c) (r_b c) -> rstep c o = RDone r c' -> grel (r_h c') (r_g c') (r_b c').
Proof.
  intros HG E. destruct o; cbn [rstep] in E; unfold call in E;
    try (crush; cbn; exact HG);
    try (crush; cbn; first [exact HG | by apply grel_new | by eapply rgive_grel; [eassumption|cbn; done|cbn; done]]).
  - crush; cbn; try exact HG. apply grel_del; [exact HG|]. apply guards_ne. by eapply bool_decide_eq_false.
  - crush; cbn; try exact HG.
    + eapply grel_guard; [exact HG|done|done|done| |done]. intros _. split; [|done]. apply gflag_zero. rewrite <-(proj1 (proj2 HG)). by destruct x; eapply borrow_mut_ok_inv.
    + eapply grel_guard; [exact HG|done|done|done|done|]. intros _. split; [|done]. apply gflag_nonneg. rewrite <-(proj1 (proj2 HG)). by destruct x; eapply borrow_ok_inv.
  - destruct (r_g c !! g) as [[h m]|] eqn:Eg; [|by inv E]. destruct (r_h c !! h) as [r1|] eqn:Eh; [|by inv E]. inv E. cbn. by eapply grel_unguard.
  - crush; cbn; try exact HG. apply grel_del; [exact HG|]. apply guards_ne. by eapply bool_decide_eq_false.
Qed.
Lemma run_grel os : forall c rs c', grel (r_h c) (r_g c) (r_b c) -> rrun c os = RDone rs c' -> grel (r_h c') (r_g c') (r_b c').
Proof.
  induction os as [|o os IH]; intros c rs c' HG E; cbn in E; [by inv E|].
  destruct (rstep c o) as [r c1|] eqn:E1; [|done]. destruct (rrun c1 os) as [rs1 c2|] eqn:E2; [|done]. inv E. eapply IH; [|exact E2]. by eapply step_grel.
Qed.
Lemma reachable_grel c : rreachable c -> grel (r_h c) (r_g c) (r_b c).
Proof.
  intros (os & rs & E). eapply run_grel; [|exact E]. cbn. split_and!.
  - intros g h m. by rewrite lookup_empty.
  - intros p. unfold gons, flag. by rewrite map_to_list_empty.
  - intros p. unfold gons. rewrite map_to_list_empty. cbn. intros H. by apply elem_of_nil in H.
Qed.

Lemma guarded_gons c p m : guarded c p m -> m ∈ gons (r_h c) (r_g c) p.
Proof.
  intros (g & h & r & Hg & Hh & Hr). unfold gons. apply elem_of_list_omap. exists (h, m). split.
  - apply elem_of_list_fmap. exists (g, (h, m)). split; [done|]. by apply elem_of_map_to_list.
  - simpl. rewrite Hh. simpl. by rewrite decide_True by congruence.
Qed.
Lemma guarded_flag c p m : rreachable c -> guarded c p m -> flag (r_b c) p <> 0%Z /\ (m = true -> (flag (r_b c) p < 0)%Z).
Proof.
  intros HR HG%guarded_gons. destruct (reachable_grel _ HR) as (_ & H2 & _). rewrite H2. unfold gflag. split.
  - destruct (decide _); [done|]. destruct (gons _ _ _); [by apply elem_of_nil in HG|]. simpl. lia.
  - intros ->. rewrite decide_True by done. lia.
Qed.

Lemma acquire_cases (r : rnode) s : acquire (A:=A) r s = Ok tt s \/
  acquire (A:=A) r s = Err EUB /\ ~ match r with RPile v _ => is_Some (m_vec s !! v) | RScat _ => True end.
Proof.
  destruct r as [p|v i]; [by left|]. cbn. unfold vec_ref. destruct (m_vec s !! v); [by left|right]. split; [done|]. by intros [? [=]].
Qed.
Lemma borrow_mut_blocked B (r : rnode) s : flag B (raddr r) <> 0%Z ->
  exists e, node_borrow_mut (A:=A) B r s = Err e /\ (is_Some (m_heap s !! raddr r) -> match r with RPile v _ => is_Some (m_vec s !! v) | RScat _ => True end -> e = EPanic).
Proof.
  intros Hf. unfold node_borrow_mut, bind, get. destruct (acquire_cases r s) as [->|[-> Hn]]; [|exists EUB; split; [done|]; tauto].
  destruct (m_heap s !! raddr r) as [n|]; [|exists EUB; split; [done|]; by intros [? [=]]]. rewrite bool_decide_true by done. by exists EPanic.
Qed.
Lemma borrow_blocked B (r : rnode) s : (flag B (raddr r) < 0)%Z ->
  exists e, node_borrow (A:=A) B r s = Err e /\ (is_Some (m_heap s !! raddr r) -> match r with RPile v _ => is_Some (m_vec s !! v) | RScat _ => True end -> e = EPanic).
Proof.
  intros Hf. unfold node_borrow, bind, get. destruct (acquire_cases r s) as [->|[-> Hn]]; [|exists EUB; split; [done|]; tauto].
  destruct (m_heap s !! raddr r) as [n|]; [|exists EUB; split; [done|]; by intros [? [=]]]. rewrite bool_decide_true by done. by exists EPanic.
Qed.
Lemma call_blocked {X Y} c (m : M A Y) (f : Y -> M A X) k e : m (r_mem c) = Err e -> call c (bind m f) k = RFails e.
Proof. intros E. unfold call, bind. by rewrite E. Qed.

Lemma change_blocked c o h r : changes_via o = Some h -> typed c o -> r_h c !! h = Some r -> flag (r_b c) (raddr r) <> 0%Z ->
  exists e, rstep c o = RFails e /\ (allocated c r -> e = EPanic).
Proof.
  intros Hv Ht Hh Hf. destruct (borrow_mut_blocked (r_b c) r (r_mem c) Hf) as (e & He & Hp).
  exists e. split; [|intros [? ?]; by apply Hp].
  destruct o; cbn in Hv; try done; repeat match type of Hv with context [match ?x with _ => _ end] => destruct x; try done end; inv Hv; cbn in Ht |- *;
    try match type of Ht with ex _ => destruct Ht as [? Ht] end; rewrite ?Ht, ?Hh;
    solve [by apply call_blocked | unfold call; by rewrite He].
Qed.
Lemma look_blocked c o h r : looks_via o = Some h -> typed c o -> r_h c !! h = Some r -> (flag (r_b c) (raddr r) < 0)%Z ->
  exists e, rstep c o = RFails e /\ (allocated c r -> e = EPanic).
Proof.
  intros Hv Ht Hh Hf. destruct (borrow_blocked (r_b c) r (r_mem c) Hf) as (e & He & Hp).
  exists e. split; [|intros [? ?]; by apply Hp].
  destruct o; cbn in Hv; try done; repeat match type of Hv with context [match ?x with _ => _ end] => destruct x; try done end; inv Hv; cbn in Ht |- *;
    try match type of Ht with ex _ => destruct Ht as [? Ht] end; rewrite ?Ht, ?Hh;
    solve [by apply call_blocked | unfold call; by rewrite He].
Qed.

(** * Guards on other nodes *)
Lemma borrow_flag B B' (r : rnode) : flag B' (raddr r) = flag B (raddr r) -> node_borrow (A:=A) B' r = node_borrow B r.
Proof. intros E. unfold node_borrow. by rewrite E. Qed.
Lemma borrow_mut_flag B B' (r : rnode) : flag B' (raddr r) = flag B (raddr r) -> node_borrow_mut (A:=A) B' r = node_borrow_mut B r.
Proof. intros E. unfold node_borrow_mut. by rewrite E. Qed.
Lemma other_guards c o h r G B : changes_via o = Some h \/ looks_via o = Some h -> (forall m g, o <> SGuard m h g) -> o <> SDetach h ->
  r_h c !! h = Some r -> flag B (raddr r) = flag (r_b c) (raddr r) ->
  rstep (set_rg c G B) o = match rstep c o with RDone x c' => RDone x (set_rg c' G B) | RFails e => RFails e end.
Proof.
  intros Hv Hg Hd Hh Hf. pose proof (borrow_flag _ _ r Hf) as E1. pose proof (borrow_mut_flag _ _ r Hf) as E2.
  destruct o; cbn in Hv; try (by destruct Hv);
    repeat match type of Hv with context [match ?x with _ => _ end] => destruct x end;
    (destruct Hv as [Hv|Hv]; try done); inv Hv; try (by destruct (Hg _ _ eq_refl)); try (by destruct (Hd eq_refl));
    cbn; rewrite ?Hh;
    unfold rc_pop, rc_push, rc_concat, rc_insert, rc_modify, rc_end, rc_parent, rc_data, rc_degree, rc_node_count, rc_has_no_child, rc_is_root, rc_deep_clone, rc_iter;
    rewrite ?E1, ?E2; unfold call; cbn;
    repeat match goal with |- context [match ?x with _ => _ end] => destruct x eqn:?; try done end.
  all: match goal with H : rgive _ _ ?x = _ |- _ => destruct x; cbn in H |- *; by inv H end.
Qed.
End borrow.
