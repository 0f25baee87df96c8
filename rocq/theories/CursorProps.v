(** CursorProps.v — iterators and walks held by the client: the statements for PropCursor.v. *)
From stdpp Require Import base gmap list.
From Verif Require Import Spec ClientSpec Machine NodeModel BfsModel ClientModel WalkModel WalkSpec CallSpec CallModel CursorSpec CursorModel Sep Rep NodeProofs Inv SpecProofs Abs ClientProofs
  FromBfs BfsBuild BfsIter BfsMut BfsMap ClientRef ClientStep ClientRead ClientProps BfsProps PanicProps WalkProofs CallBuild CallProofs CallStep CursorProofs CursorStep.

Section top.
Context {A H : Type}.
Implicit Types (os : list (kop A H)).

Lemma KInv0 : KInv kenv0 (c_mem cst0) (kss0 (A := A)).
Proof.
  destruct (@CInv0 A) as (Wm & HR & Hlog). destruct HR as [HI He Hri].
  assert (Wm = ∅) as ->. { apply map_empty. intros h. specialize (Hri h). cbn in Hri. rewrite lookup_empty in Hri. by inversion Hri. }
  exists ∅, ∅, ∅. split.
  - split; cbn.
    + by rewrite fmap_empty.
    + intros h. rewrite !lookup_empty. constructor.
    + by rewrite fmap_empty.
    + intros h. rewrite !lookup_empty. constructor.
    + exists []. unfold FK. by rewrite !map_to_list_empty.
    + intros x Hx. by apply elem_of_nil in Hx.
    + done.
  - eapply MInv_perm; [|exact HI]. unfold ClientRef.vals, FK. by rewrite !map_to_list_empty.
  - exact Hlog.
  - intros i. cbn. by rewrite !lookup_empty.
  - intros h [? Hh]. cbn in Hh. by rewrite lookup_empty in Hh.
Qed.

Theorem cursors_refine os :
  match ksrun kss0 os with
  | Some (rs, σ) => exists e s, krun kenv0 os (c_mem cst0) = Ok (rs, e) s /\ contents (CSt (ke_env e ∪ ke_benv e) s) (ks_env σ ∪ ks_benv σ) /\ m_log s = ks_log σ
  | None => krun kenv0 os (c_mem cst0) = Err EPanic
  end.
Proof.
  pose proof (krun_ok os _ _ _ KInv0) as HG. destruct (ksrun kss0 os) as [[rs σ]|]; [|done]. destruct HG as (e & s & Hr & Wm & Bm & K & HK). exists e, s.
  split_and!; [done| |apply HK]. destruct (union_RE _ _ _ _ _ _ _ _ _ _ (ki_env _ _ _ _ _ _ HK) (ki_inv _ _ _ _ _ _ HK)) as (F2 & _ & HU).
  refine (CInvF_contents (F := F2) (EL := []) (CSt (ke_env e ∪ ke_benv e) s) (SSt (ks_env σ ∪ ks_benv σ) (ks_log σ)) _). exists (Wm ∪ Bm). split; [done|]. apply HK.
Qed.

Theorem cursors_closed os rs e s : krun kenv0 os (c_mem cst0) = Ok (rs, e) s -> ke_cur e = ∅ ->
  let c := CSt (ke_env e) s in
  ke_benv e = ∅ /\
  (forall q, live c q -> is_Some (m_heap s !! q)) /\
  (forall q, is_Some (m_heap s !! q) -> live c q \/ exists cap rc q', m_vec s !! q.1 = Some (cap, rc) /\ q.2 < cap /\ live c q' /\ q'.1 = q.1) /\
  (forall v, is_Some (m_vec s !! v) -> exists q, live c q /\ q.1 = v) /\
  (ke_env e = ∅ -> m_heap s = ∅ /\ m_cnt s = ∅ /\ m_vec s = ∅).
Proof.
  intros Hr Hc c. pose proof (krun_ok os _ _ _ KInv0) as HG. destruct (ksrun kss0 os) as [[rs' σ]|]; [|congruence].
  destruct HG as (e' & s' & Hr' & Wm & Bm & K & HK). assert (rs' = rs /\ e' = e /\ s' = s) as (-> & -> & ->) by (split_and!; congruence). clear Hr'.
  assert (Hscu : forall i, ks_cur σ !! i = None /\ K !! i = None).
  { intros i. pose proof (ki_cur _ _ _ _ _ _ HK i) as Hi. rewrite Hc, lookup_empty in Hi. unfold currel in Hi. destruct (ks_cur σ !! i), (K !! i); done. }
  assert (Hsb : ks_benv σ = ∅).
  { apply map_empty. intros h. destruct (ks_benv σ !! h) as [it|] eqn:E; [|done]. destruct (ki_bor _ _ _ _ _ _ HK h) as (i & d & Hi & _); [eauto|].
    destruct (Hscu i). congruence. }
  assert (HBm : Bm = ∅). { apply map_empty. intros h. apply (SEnv_dom _ _ _ _ _ _ _ _ h (ki_env _ _ _ _ _ _ HK)). by rewrite Hsb, lookup_empty. }
  assert (HKe : K = ∅). { apply map_empty. intros i. apply Hscu. }
  assert (HC : @ClientRef.CInv A [] [] c (SSt (ks_env σ) (ks_log σ))).
  { exists Wm. split; [|apply HK]. destruct HK as [[He Hri ? ? ? ? ?] HI ? ? ?]. split; [|done|done]. eapply MInv_perm; [|exact HI]. subst Bm K. unfold ClientRef.vals, FK.
    by rewrite !map_to_list_empty. }
  destruct (memory_exact_inv c _ HC) as (H1 & H2 & H3 & _). split_and!; [|exact H1|exact H2|exact H3|].
  - rewrite (se_benv _ _ _ _ _ _ _ _ (ki_env _ _ _ _ _ _ HK)), HBm. by rewrite fmap_empty.
  - intros He. apply (CInv_nothing c _ HC). cbn [s_env]. apply map_empty. intros h.
    destruct (SEnv_dom _ _ _ _ _ _ _ _ h (ki_env _ _ _ _ _ _ HK)) as [Hq _]. apply Hq. by rewrite He, lookup_empty.
Qed.

(** ** an iterator among other calls *)
Lemma served_cons n (y : A * nat * nat) l : served (S n) (y :: l) = KVisit (Some y) :: served n l.
Proof. done. Qed.
Lemma served_nil n : served (A := A) (S n) [] = KVisit None :: served n [].
Proof. unfold served. rewrite fmap_nil, !take_nil. cbn [length]. by rewrite !Nat.sub_0_r. Qed.
Definition stream (c : scur A) : Prop := match c with SIter _ _ | SBfs _ _ | SIntoBfs _ _ => True | _ => False end.
Lemma drop_lookup_cons {X} (l : list X) n y : l !! n = Some y -> drop n l = y :: drop (S n) l.
Proof. intros Hl. by rewrite (drop_S _ _ _ Hl). Qed.

Lemma other_step σ (o : kop A H) r σ' i c : ksstep σ o = Some (r, σ') -> ks_cur σ !! i = Some c -> stream c -> o <> KClose i ->
  (is_next i o = false -> ks_cur σ' !! i = Some c) /\
  (is_next i o = true -> exists c', ks_cur σ' !! i = Some c' /\ stream c' /\ origin c' = origin c /\
     match rest c with [] => r = KVisit None /\ rest c' = [] | y :: l => r = KVisit (Some y) /\ rest c' = l end).
Proof.
  intros Hs Hi Hc Hne. split.
  - destruct o as [p|j h path|j h path|j h path|j h|j h|j h|j h path|j h path|j h path|j n f|j|j n o|j|j x|j|j o|j x|j]; cbn [ksstep is_next] in *; intros Hn.
    1: { destruct (sprog _ _ _ _) as [[? ?]|]; [|done]. by injection Hs as <- <-. }
    all: destruct (decide (j = i)) as [->|Hji]; [try rewrite Hi in Hs|].
    all: repeat case_match; try done; simplify_eq; unfold borrow, release; cbn [ks_cur]; try done.
    all: try (repeat case_match; cbn [ks_cur]).
    all: try (by rewrite lookup_insert_ne). all: try (by rewrite lookup_delete_ne). all: try congruence.
    all: by rewrite bool_decide_eq_false in Hn.
  - destruct o as [| | | | | | | | | | | | |j| | | | |]; try done. cbn [ksstep is_next] in *. rewrite bool_decide_eq_true. intros <-. rewrite Hi in Hs.
    destruct c as [h ts|h ys|ts|it n|it cu|it path gs ts|it path top g n]; try done.
    + destruct ts as [|t ts]; injection Hs as <- <-; [eexists; done|]. cbn [ks_cur]. eexists. by rewrite lookup_insert.
    + destruct ys as [|t ts]; injection Hs as <- <-; [eexists; done|]. cbn [ks_cur]. eexists. by rewrite lookup_insert.
    + cbn [rest]. destruct ((visit_of <$> item_level_order it) !! n) as [y|] eqn:E; injection Hs as <- <-.
      * rewrite (drop_lookup_cons _ _ _ E). cbn [ks_cur]. eexists. by rewrite lookup_insert.
      * apply lookup_ge_None in E. rewrite (drop_ge _ _ E). eexists. split; [done|]. cbn. split_and!; try done. by apply drop_ge.
Qed.
Lemma run_nexts os : forall σ rs σ' i c, ksrun σ os = Some (rs, σ') -> ks_cur σ !! i = Some c -> stream c -> KClose i ∉ os ->
  nexts i os rs = served (asked i os) (rest c).
Proof.
  induction os as [|o os IH]; intros σ rs σ' i c Hr Hi Hc Hno; cbn [ksrun] in Hr; [by injection Hr as <- <-|].
  apply not_elem_of_cons in Hno as [Hno Hnos]. destruct (ksstep σ o) as [[r σ1]|] eqn:Hs; [|done]. destruct (ksrun σ1 os) as [[rs1 σ2]|] eqn:Hr1; [|done]. injection Hr as <- <-.
  destruct (other_step _ _ _ _ _ _ Hs Hi Hc) as [H1 H2]; [by intros ->|]. cbn [nexts asked]. destruct (is_next i o) eqn:En.
  - destruct (H2 eq_refl) as (c' & Hi' & Hc' & _ & Hy). rewrite (IH _ _ _ _ _ Hr1 Hi' Hc' Hnos).
    destruct (rest c) as [|y l]; destruct Hy as [-> ->]; [by rewrite served_nil|by rewrite served_cons].
  - exact (IH _ _ _ _ _ Hr1 (H1 eq_refl) Hc Hnos).
Qed.
Lemma ksrun_app os1 os2 : forall (σ : kss A), ksrun σ (os1 ++ os2) = match ksrun σ os1 with
  | Some (rs1, σ1) => match ksrun σ1 os2 with Some (rs2, σ2) => Some (rs1 ++ rs2, σ2) | None => None end | None => None end.
Proof.
  induction os1 as [|o os1 IH]; intros σ; cbn [ksrun app]; [by destruct (ksrun σ os2) as [[? ?]|]|].
  destruct (ksstep σ o) as [[r σ']|]; [|done]. rewrite IH. destruct (ksrun σ' os1) as [[rs1 σ1]|]; [|done]. by destruct (ksrun σ1 os2) as [[? ?]|].
Qed.
Lemma ksrun_length os : forall (σ : kss A) rs σ', ksrun σ os = Some (rs, σ') -> length rs = length os.
Proof.
  induction os as [|o os IH]; intros σ rs σ' Hr; cbn [ksrun] in Hr; [by injection Hr as <- <-|]. destruct (ksstep σ o) as [[r σ1]|]; [|done].
  destruct (ksrun σ1 os) as [[rs1 σ2]|] eqn:E; [|done]. injection Hr as <- <-. cbn. by rewrite (IH _ _ _ E).
Qed.

Theorem interleaved os1 o os2 i h hd it l rs1 e1 s1 rs e s :
  krun kenv0 os1 (c_mem cst0) = Ok (rs1, e1) s1 -> (ke_env e1 ∪ ke_benv e1) !! h = Some hd -> read_item hd s1 = Ok it s1 ->
  opens o i h it l -> krun kenv0 (os1 ++ o :: os2) (c_mem cst0) = Ok (rs, e) s -> rs !! length os1 = Some KUnit -> KClose i ∉ os2 ->
  nexts i os2 (drop (S (length os1)) rs) = served (asked i os2) l.
Proof.
  intros Hr1 Hhd Hrd Ho Hr Hu Hno.
  pose proof (cursors_refine os1) as G1. pose proof (cursors_refine (os1 ++ o :: os2)) as G2. rewrite ksrun_app in G2.
  destruct (ksrun kss0 os1) as [[rs1' σ1]|] eqn:E1; [|congruence]. destruct G1 as (e1' & s1' & Hr1' & Hco1 & _).
  assert (rs1' = rs1 /\ e1' = e1 /\ s1' = s1) as (-> & -> & ->) by (split_and!; congruence).
  assert (Hh : (ks_env σ1 ∪ ks_benv σ1) !! h = Some it) by (specialize (Hco1 h); cbn [c_env c_mem] in Hco1; rewrite Hhd in Hco1; destruct Hco1 as (it' & Hrd' & Hl); congruence). pose proof (ksrun_length _ _ _ _ E1) as Hlen.
  cbn [ksrun] in G2. destruct (ksstep σ1 o) as [[r σ2]|] eqn:Eo; [|congruence]. destruct (ksrun σ2 os2) as [[rs2 σ3]|] eqn:E2; [|congruence].
  destruct G2 as (e' & s' & Hr' & _). assert (rs = rs1 ++ r :: rs2) as -> by congruence. rewrite <-Hlen in *.
  rewrite lookup_app_r, Nat.sub_diag in Hu by done. injection Hu as ->. rewrite drop_app_ge by lia. replace (S (length rs1) - length rs1) with 1 by lia. cbn [drop].
  assert (exists c, ks_cur σ2 !! i = Some c /\ stream c /\ rest c = l) as (c & Hc & Hst & <-).
  { destruct o as [p|j h' path|j h' path|j h' path|j h'|j h'|j h'|j h' path|j h' path|j h' path|j n f|j|j n o|j|j x|j|j o|j x|j]; try done; cbn [opens ksstep] in *.
    - destruct Ho as (-> & -> & ts & Hk & ->). rewrite Hh, Hk in Eo. destruct (ks_cur σ1 !! i); [done|]. injection Eo as <-. unfold borrow. cbn [ks_cur]. eexists. by rewrite lookup_insert.
    - destruct Ho as (-> & -> & ts & Hk & ->). rewrite Hh, Hk in Eo. destruct (ks_cur σ1 !! i); [done|]. injection Eo as <-. unfold borrow. cbn [ks_cur]. eexists. by rewrite lookup_insert.
    - destruct Ho as (-> & -> & ts & Hk & ->). rewrite Hh, Hk in Eo. destruct (ks_cur σ1 !! i); [done|]. injection Eo as <-. unfold borrow. cbn [ks_cur]. eexists. by rewrite lookup_insert.
    - destruct Ho as (-> & -> & ->). destruct (ks_cur σ1 !! i); [done|]. destruct (ks_env σ1 !! h) as [it'|] eqn:E; [|done]. injection Eo as <-.
      rewrite (lookup_union_Some_l _ _ _ _ E) in Hh. injection Hh as ->. cbn [ks_cur]. exists (SIntoBfs it 0). by rewrite lookup_insert. }
  exact (run_nexts _ _ _ _ _ _ E2 Hc Hst Hno).
Qed.

(** ** a walk among other calls *)
Lemma walk_step σ (o : kop A H) r σ' i it cu : ksstep σ o = Some (r, σ') -> ks_cur σ !! i = Some (SWalk it cu) -> ends i o = false ->
  match walk_op i o with
  | None => ks_cur σ' !! i = Some (SWalk it cu)
  | Some w => exists r' cu', c_step (tops it) cu w = Some (r', cu') /\ r = KWalked (show_walk r') /\ ks_cur σ' !! i = Some (SWalk it cu')
  end.
Proof.
  intros Hs Hi Hne. destruct o as [p|j h path|j h path|j h path|j h|j h|j h|j h path|j h path|j h path|j n f|j|j n o|j|j x|j|j o|j x|j]; cbn [ksstep walk_op ends] in *.
  1: { destruct (sprog _ _ _ _) as [[? ?]|]; [|done]. by injection Hs as <- <-. }
  16: { destruct (decide (i = j)) as [<-|Hji].
    - rewrite bool_decide_eq_true_2 by done. rewrite Hi in Hs. destruct (c_step (tops it) cu o) as [[r' cu']|]; [|done]. injection Hs as <- <-. eexists _, _. cbn [ks_cur].
      by rewrite lookup_insert.
    - rewrite bool_decide_eq_false_2 by done. repeat case_match; simplify_eq; cbn [ks_cur]; try done. by rewrite lookup_insert_ne. }
  all: destruct (decide (j = i)) as [->|Hji]; [try rewrite Hi in Hs; try rewrite bool_decide_eq_true_2 in Hne by done|].
  all: repeat case_match; try done; simplify_eq; unfold borrow, release; cbn [ks_cur]; try done.
  all: try (repeat case_match; cbn [ks_cur]).
  all: try (by rewrite lookup_insert_ne). all: try (by rewrite lookup_delete_ne). all: congruence.
Qed.
Lemma run_walks os : forall σ rs σ' i it cu, ksrun σ os = Some (rs, σ') -> ks_cur σ !! i = Some (SWalk it cu) -> forallb (fun o => negb (ends i o)) os = true ->
  exists outs cu', c_run (tops it) cu (walk_ops i os) = Some (outs, cu') /\ walked i os rs = (fun r => KWalked (show_walk r)) <$> outs.
Proof.
  induction os as [|o os IH]; intros σ rs σ' i it cu Hr Hi Hno; cbn [ksrun] in Hr; [by injection Hr as <- <-; exists [], cu|].
  cbn [forallb] in Hno. apply andb_prop in Hno as [Hno Hnos]. apply negb_true_iff in Hno.
  destruct (ksstep σ o) as [[r σ1]|] eqn:Hs; [|done]. destruct (ksrun σ1 os) as [[rs1 σ2]|] eqn:Hr1; [|done]. injection Hr as <- <-.
  pose proof (walk_step _ _ _ _ _ _ _ Hs Hi Hno) as Hw. cbn [walk_ops walked]. destruct (walk_op i o) as [w|].
  - destruct Hw as (r' & cu' & Hc & -> & Hi'). destruct (IH _ _ _ _ _ _ Hr1 Hi' Hnos) as (outs & cu2 & Ho & Hwk). cbn [c_run]. rewrite Hc, Ho.
    eexists _, _. split; [done|]. by rewrite Hwk.
  - exact (IH _ _ _ _ _ _ Hr1 Hw Hnos).
Qed.
Theorem interleaved_walk os1 os2 i h hd it rs1 e1 s1 rs e s :
  krun kenv0 os1 (c_mem cst0) = Ok (rs1, e1) s1 -> (ke_env e1 ∪ ke_benv e1) !! h = Some hd -> read_item hd s1 = Ok it s1 ->
  krun kenv0 (os1 ++ KWalk i h :: os2) (c_mem cst0) = Ok (rs, e) s -> rs !! length os1 = Some KUnit -> forallb (fun o => negb (ends i o)) os2 = true ->
  exists outs cu, c_run (tops it) (c_start (tops it)) (walk_ops i os2) = Some (outs, cu) /\
    walked i os2 (drop (S (length os1)) rs) = (fun r => KWalked (show_walk r)) <$> outs.
Proof.
  intros Hr1 Hhd Hrd Hr Hu Hno.
  pose proof (cursors_refine os1) as G1. pose proof (cursors_refine (os1 ++ KWalk i h :: os2)) as G2. rewrite ksrun_app in G2.
  destruct (ksrun kss0 os1) as [[rs1' σ1]|] eqn:E1; [|congruence]. destruct G1 as (e1' & s1' & Hr1' & Hco1 & _).
  assert (rs1' = rs1 /\ e1' = e1 /\ s1' = s1) as (-> & -> & ->) by (split_and!; congruence).
  assert (Hh : (ks_env σ1 ∪ ks_benv σ1) !! h = Some it) by (specialize (Hco1 h); cbn [c_env c_mem] in Hco1; rewrite Hhd in Hco1; destruct Hco1 as (it' & Hrd' & Hl); congruence). pose proof (ksrun_length _ _ _ _ E1) as Hlen.
  cbn [ksrun] in G2. destruct (ksstep σ1 (KWalk i h)) as [[r σ2]|] eqn:Eo; [|congruence]. destruct (ksrun σ2 os2) as [[rs2 σ3]|] eqn:E2; [|congruence].
  destruct G2 as (e' & s' & Hr' & _). assert (rs = rs1 ++ r :: rs2) as -> by congruence. rewrite <-Hlen in *.
  rewrite lookup_app_r, Nat.sub_diag in Hu by done. injection Hu as ->. rewrite drop_app_ge by lia. replace (S (length rs1) - length rs1) with 1 by lia. cbn [drop].
  assert (Hc : ks_cur σ2 !! i = Some (SWalk it (c_start (tops it)))).
  { cbn [ksstep] in Eo. destruct (ks_cur σ1 !! i); [done|]. destruct (ks_env σ1 !! h) as [it'|] eqn:E; [|done]. injection Eo as <-.
    rewrite (lookup_union_Some_l _ _ _ _ E) in Hh. injection Hh as ->. cbn [ks_cur]. by rewrite lookup_insert. }
  exact (run_walks _ _ _ _ _ _ _ E2 Hc Hno).
Qed.
(** ** an [iter_mut] among other calls *)
Lemma mut_step σ (o : kop A H) r σ' i it path gs ts : ksstep σ o = Some (r, σ') -> ks_cur σ !! i = Some (SMut it path gs ts) -> ends i o = false ->
  exists gs' ts', ks_cur σ' !! i = Some (SMut it path gs' ts') /\
    if is_yield i o then match ts with [] => r = KGot false /\ ts' = [] /\ gs' = gs | t :: l => r = KGot true /\ ts' = l /\ gs' = gs ++ [([], Some t, [])] end
    else ts' = ts /\ (is_ref i o = false -> gs' = gs).
Proof.
  intros Hs Hi Hne. destruct o as [p|j h path'|j h path'|j h path'|j h|j h|j h|j h path'|j h path'|j h path'|j n f|j|j n o|j|j x|j|j o|j x|j]; cbn [ksstep is_yield is_ref ends] in *.
  1: { destruct (sprog _ _ _ _) as [[? ?]|]; [|done]. injection Hs as <- <-. eexists _, _. done. }
  11: { destruct (decide (i = j)) as [<-|Hji].
    - rewrite bool_decide_eq_true_2 by done. rewrite Hi in Hs. destruct ts as [|t ts]; injection Hs as <- <-; eexists _, _; [done|]. cbn [ks_cur]. by rewrite lookup_insert.
    - rewrite bool_decide_eq_false_2 by done. exists gs, ts. repeat case_match; simplify_eq; cbn [ks_cur]; try done. by rewrite lookup_insert_ne. }
  11: { destruct (decide (i = j)) as [<-|Hji].
    - rewrite bool_decide_eq_true_2 by done. rewrite Hi in Hs. destruct (ref_step _ _ _ _ _ _ _ _) as [[[? ?] gs']|]; injection Hs as <- <-; [|eexists _, _; done].
      cbn [ks_cur]. exists gs', ts. by rewrite lookup_insert.
    - exists gs, ts. repeat case_match; simplify_eq; cbn [ks_cur]; try done. by rewrite lookup_insert_ne. }
  all: exists gs, ts; destruct (decide (j = i)) as [->|Hji]; [try rewrite Hi in Hs; try rewrite bool_decide_eq_true_2 in Hne by done|].
  all: repeat case_match; try done; simplify_eq; unfold borrow, release; cbn [ks_cur]; try done.
  all: try (repeat case_match; cbn [ks_cur]).
  all: try (by rewrite lookup_insert_ne). all: try (by rewrite lookup_delete_ne). all: congruence.
Qed.
Lemma run_muts os : forall σ rs σ' i it path gs ts, ksrun σ os = Some (rs, σ') -> ks_cur σ !! i = Some (SMut it path gs ts) -> forallb (fun o => negb (ends i o)) os = true ->
  let n := length (yielded i os rs) in
  yielded i os rs = replicate (n `min` length ts) (KGot true) ++ replicate (n - length ts) (KGot false) /\
  exists gs', ks_cur σ' !! i = Some (SMut it path gs' (drop n ts)) /\
    (forallb (fun o => negb (is_ref i o)) os = true -> flat_map seg_trees gs' ++ drop n ts = flat_map seg_trees gs ++ ts).
Proof.
  induction os as [|o os IH]; intros σ rs σ' i it path gs ts Hr Hi Hno; cbn [ksrun] in Hr; [injection Hr as <- <-; cbn; split; [done|]; exists gs; by rewrite drop_0|].
  cbn [forallb] in Hno. apply andb_prop in Hno as [Hno Hnos]. apply negb_true_iff in Hno.
  destruct (ksstep σ o) as [[r σ1]|] eqn:Hs; [|done]. destruct (ksrun σ1 os) as [[rs1 σ2]|] eqn:Hr1; [|done]. injection Hr as <- <-.
  destruct (mut_step _ _ _ _ _ _ _ _ _ Hs Hi Hno) as (gs1 & ts1 & Hi1 & Hw). cbn [yielded forallb]. destruct (IH _ _ _ _ _ _ _ _ Hr1 Hi1 Hnos) as (Hy & gs2 & Hi2 & Hg).
  set (n := length (yielded i os rs1)) in *. destruct (is_yield i o) eqn:Ey.
  - assert (is_ref i o = false) as Hrf by (by destruct o). cbn [length]. fold n. destruct ts as [|t ts].
    + destruct Hw as (-> & -> & ->). cbn [length] in *. rewrite Nat.min_0_r, Nat.sub_0_r in *. cbn [Nat.sub]. split; [by rewrite Hy|].
      exists gs2. rewrite drop_nil in *. split; [done|]. intros [_ Hrs]%andb_prop. exact (Hg Hrs).
    + destruct Hw as (-> & -> & ->). cbn [length Nat.sub Nat.min drop replicate app]. split; [by rewrite Hy|]. exists gs2. split; [done|]. intros [_ Hrs]%andb_prop.
      rewrite (Hg Hrs), flat_map_app. cbn [flat_map seg_trees fst snd option_list]. by rewrite <-app_assoc.
  - fold n. destruct Hw as (-> & Hg1). split; [done|]. exists gs2. split; [done|]. intros [Ho Hrs]%andb_prop. apply negb_true_iff in Ho. by rewrite (Hg Hrs), (Hg1 Ho).
Qed.
Theorem interleaved_mut os1 os2 i h x path hd it ts rs1 e1 s1 rs e s :
  krun kenv0 os1 (c_mem cst0) = Ok (rs1, e1) s1 -> (ke_env e1 ∪ ke_benv e1) !! h = Some hd -> read_item hd s1 = Ok it s1 -> kids_at it path = Some ts ->
  krun kenv0 (os1 ++ KIterMut i h path :: os2 ++ [KBack i x]) (c_mem cst0) = Ok (rs, e) s -> rs !! length os1 = Some KUnit -> last rs = Some KUnit ->
  forallb (fun o => negb (ends i o)) os2 = true ->
  let n := length (yielded i os2 (drop (S (length os1)) rs)) in
  yielded i os2 (drop (S (length os1)) rs) = replicate (n `min` length ts) (KGot true) ++ replicate (n - length ts) (KGot false) /\
  exists hd' it' front, (ke_env e ∪ ke_benv e) !! x = Some hd' /\ read_item hd' s = Ok it' s /\ kids_at it' path = Some (front ++ drop n ts) /\
    set_kids it' path ts = it /\ (forallb (fun o => negb (is_ref i o)) os2 = true -> it' = it).
Proof.
  intros Hr1 Hhd Hrd Hk Hr Hu Hlast Hno.
  pose proof (cursors_refine os1) as G1. pose proof (cursors_refine (os1 ++ KIterMut i h path :: os2 ++ [KBack i x])) as G2. rewrite ksrun_app in G2.
  destruct (ksrun kss0 os1) as [[rs1' σ1]|] eqn:E1; [|congruence]. destruct G1 as (e1' & s1' & Hr1' & Hco1 & _).
  assert (rs1' = rs1 /\ e1' = e1 /\ s1' = s1) as (-> & -> & ->) by (split_and!; congruence).
  assert (Hh : (ks_env σ1 ∪ ks_benv σ1) !! h = Some it) by (specialize (Hco1 h); cbn [c_env c_mem] in Hco1; rewrite Hhd in Hco1; destruct Hco1 as (it' & Hrd' & Hl); congruence). pose proof (ksrun_length _ _ _ _ E1) as Hlen.
  cbn [ksrun] in G2. destruct (ksstep σ1 (KIterMut i h path)) as [[r σ2]|] eqn:Eo; [|congruence]. rewrite ksrun_app in G2. destruct (ksrun σ2 os2) as [[rs2 σ3]|] eqn:E2; [|congruence].
  pose proof (ksrun_length _ _ _ _ E2) as Hlen2.
  cbn [ksrun] in G2. destruct (ksstep σ3 (KBack i x)) as [[rb σ4]|] eqn:Eb; [|congruence].
  destruct G2 as (e' & s' & Hr' & Hco & _). assert (rs = rs1 ++ r :: rs2 ++ [rb] /\ e' = e /\ s' = s) as (-> & -> & ->) by (split_and!; congruence). rewrite <-Hlen in *.
  rewrite lookup_app_r, Nat.sub_diag in Hu by done. injection Hu as ->. rewrite drop_app_ge by lia. replace (S (length rs1) - length rs1) with 1 by lia. cbn [drop].
  assert (rb = KUnit) as ->. { rewrite app_comm_cons, app_assoc, last_snoc in Hlast. congruence. }
  assert (Hyl : yielded i os2 (rs2 ++ [KUnit]) = yielded i os2 rs2). { clear -Hlen2. revert rs2 Hlen2. induction os2 as [|o os2 IH]; intros [|r rs2] Hl; try done; cbn [yielded app]; [by injection Hl as Hl; rewrite (IH _ Hl)]. }
  rewrite drop_0, Hyl.
  assert (Hc : ks_cur σ2 !! i = Some (SMut it path [] ts)).
  { cbn [ksstep] in Eo. destruct (ks_cur σ1 !! i); [done|]. destruct (ks_env σ1 !! h) as [it'|] eqn:E; [|done].
    rewrite (lookup_union_Some_l _ _ _ _ E) in Hh. injection Hh as ->. rewrite Hk in Eo. injection Eo as <-. cbn [ks_cur]. by rewrite lookup_insert. }
  destruct (run_muts _ _ _ _ _ _ _ _ _ E2 Hc Hno) as (Hy & gs & Hi3 & Hg). split; [exact Hy|]. set (n := length (yielded i os2 rs2)) in *.
  cbn [ksstep] in Eb. destruct (decide _) as [Hx|]; [|done]. rewrite Hi3 in Eb. injection Eb as <-. cbn [ks_env ks_benv] in Hco.
  specialize (Hco x). cbn [c_env c_mem] in Hco. rewrite (lookup_union_Some_l _ _ x (mut_item it path gs (drop n ts))) in Hco by apply lookup_insert.
  destruct ((ke_env e ∪ ke_benv e) !! x) as [hd'|]; [|done]. destruct Hco as (it' & Hrd' & [= <-]). exists hd', (mut_item it path gs (drop n ts)), (flat_map seg_trees gs).
  unfold mut_item. split_and!; [done|done|by eapply kids_set_kids| |].
  - rewrite set_kids_set_kids. by apply set_kids_id.
  - intros Hrf. rewrite (Hg Hrf). cbn [flat_map app]. by apply set_kids_id.
Qed.

(** ** a [bfs_mut] among other calls *)
Lemma bm_step σ (o : kop A H) r σ' i it path top g n : ksstep σ o = Some (r, σ') -> ks_cur σ !! i = Some (SBfsMut it path top g n) -> ends i o = false ->
  exists g' n', ks_cur σ' !! i = Some (SBfsMut it path top g' n') /\
    (if is_next i o then match (visit_of <$> bfs_mut_order it path top) !! n with Some y => r = KVisit (Some y) /\ n' = S n | None => r = KVisit None /\ n' = n end else n' = n) /\
    (forall m a, g' m a = match data_op i m o r with Some f => f (g m a) | None => g m a end).
Proof.
  intros Hs Hi Hne. destruct o as [p|j h path'|j h path'|j h path'|j h|j h|j h|j h path'|j h path'|j h path'|j k f|j|j k o|j|j x|j|j o|j x|j]; cbn [ksstep is_next data_op ends] in *.
  1: { destruct (sprog _ _ _ _) as [[? ?]|]; [|done]. injection Hs as <- <-. eexists _, _. done. }
  10: { destruct (decide (i = j)) as [<-|Hji].
    - rewrite Hi in Hs. destruct (take n (bfs_mut_order it path top) !! k) as [u|]; injection Hs as <- <-; [|eexists _, _; done].
      cbn [ks_cur]. exists (done_to k f g), n. rewrite lookup_insert. split_and!; [done|done|]. intros m a. unfold done_to.
      destruct (Nat.eqb_spec m k) as [->|Hmk]; [by rewrite bool_decide_eq_true_2|]. by rewrite bool_decide_eq_false_2 by tauto.
    - exists g, n. split_and!; [|done|].
      + repeat case_match; simplify_eq; cbn [ks_cur]; try done. by rewrite lookup_insert_ne.
      + intros m a. destruct r; try done. by rewrite bool_decide_eq_false_2 by tauto. }
  12: { destruct (decide (i = j)) as [<-|Hji].
    - rewrite bool_decide_eq_true_2 by done. rewrite Hi in Hs. destruct ((visit_of <$> bfs_mut_order it path top) !! n) as [y|]; injection Hs as <- <-; eexists _, _; [|done].
      cbn [ks_cur]. by rewrite lookup_insert.
    - rewrite bool_decide_eq_false_2 by done. exists g, n. repeat case_match; simplify_eq; cbn [ks_cur]; try done. all: by rewrite lookup_insert_ne. }
  all: exists g, n; split_and!; [|done|done]; destruct (decide (j = i)) as [->|Hji]; [try rewrite Hi in Hs; try rewrite bool_decide_eq_true_2 in Hne by done|].
  all: repeat case_match; try done; simplify_eq; unfold borrow, release; cbn [ks_cur]; try done.
  all: try (repeat case_match; cbn [ks_cur]).
  all: try (by rewrite lookup_insert_ne). all: try (by rewrite lookup_delete_ne). all: congruence.
Qed.
Lemma run_bms os : forall σ rs σ' i it path top g n, ksrun σ os = Some (rs, σ') -> ks_cur σ !! i = Some (SBfsMut it path top g n) -> forallb (fun o => negb (ends i o)) os = true ->
  nexts i os rs = served (asked i os) (drop n (visit_of <$> bfs_mut_order it path top)) /\
  exists g' n', ks_cur σ' !! i = Some (SBfsMut it path top g' n') /\ forall m a, g' m a = foldl (fun a f => f a) (g m a) (changes i m os rs).
Proof.
  induction os as [|o os IH]; intros σ rs σ' i it path top g n Hr Hi Hno; cbn [ksrun] in Hr; [injection Hr as <- <-; split; [done|]; by exists g, n|].
  cbn [forallb] in Hno. apply andb_prop in Hno as [Hno Hnos]. apply negb_true_iff in Hno.
  destruct (ksstep σ o) as [[r σ1]|] eqn:Hs; [|done]. destruct (ksrun σ1 os) as [[rs1 σ2]|] eqn:Hr1; [|done]. injection Hr as <- <-.
  destruct (bm_step _ _ _ _ _ _ _ _ _ _ Hs Hi Hno) as (g1 & n1 & Hi1 & Hw & Hg1). destruct (IH _ _ _ _ _ _ _ _ _ Hr1 Hi1 Hnos) as (Hy & g2 & n2 & Hi2 & Hg2).
  cbn [nexts asked changes]. split.
  - rewrite Hy. destruct (is_next i o); [|by subst]. destruct ((visit_of <$> bfs_mut_order it path top) !! n) as [y|] eqn:E; destruct Hw as [-> ->].
    + by rewrite (drop_lookup_cons _ _ _ E), served_cons.
    + apply lookup_ge_None in E. by rewrite (drop_ge _ _ E), served_nil.
  - exists g2, n2. split; [done|]. intros m a. rewrite Hg2, Hg1. by destruct (data_op i m o r).
Qed.
Lemma pmap_ext (t : tree A) : forall f f', (forall path a, f path a = f' path a) -> pmap f t = pmap f' t.
Proof.
  induction t as [a ts IH] using tree_ind'. intros f f' Hf. rewrite !pmap_eq, Hf. f_equal. unfold pmap_f. apply imap_ext. intros i k Hk. rewrite Forall_forall in IH.
  apply IH; [by eapply elem_of_list_lookup_2|]. intros ? ?. apply Hf.
Qed.
Lemma bfs_mut_item_ext (it : item A) path top g g' : (forall m a, g m a = g' m a) -> bfs_mut_item it path top g = bfs_mut_item it path top g'.
Proof.
  intros Hg. unfold bfs_mut_item. destruct top; case_match; try done.
  - unfold bfs_map. by rewrite (pmap_ext _ _ (fun path a => g' (pos path (bfs_paths t)) a)).
  - unfold bfs_map_f, pmap_f. f_equal. apply imap_ext. intros i k Hk. apply pmap_ext. intros ? ?. apply Hg.
Qed.
Theorem interleaved_bfs_mut os1 o os2 i h x path top hd it rs1 e1 s1 rs e s :
  krun kenv0 os1 (c_mem cst0) = Ok (rs1, e1) s1 -> (ke_env e1 ∪ ke_benv e1) !! h = Some hd -> read_item hd s1 = Ok it s1 -> opens_mut o i h path top ->
  krun kenv0 (os1 ++ o :: os2 ++ [KBack i x]) (c_mem cst0) = Ok (rs, e) s -> rs !! length os1 = Some KUnit -> last rs = Some KUnit ->
  forallb (fun o => negb (ends i o)) os2 = true ->
  let rs2 := drop (S (length os1)) rs in
  nexts i os2 rs2 = served (asked i os2) (visit_of <$> bfs_mut_order it path top) /\
  exists hd', (ke_env e ∪ ke_benv e) !! x = Some hd' /\
    read_item hd' s = Ok (bfs_mut_item it path top (fun m a => foldl (fun a f => f a) a (changes i m os2 rs2))) s.
Proof.
  intros Hr1 Hhd Hrd Ho Hr Hu Hlast Hno.
  pose proof (cursors_refine os1) as G1. pose proof (cursors_refine (os1 ++ o :: os2 ++ [KBack i x])) as G2. rewrite ksrun_app in G2.
  destruct (ksrun kss0 os1) as [[rs1' σ1]|] eqn:E1; [|congruence]. destruct G1 as (e1' & s1' & Hr1' & Hco1 & _).
  assert (rs1' = rs1 /\ e1' = e1 /\ s1' = s1) as (-> & -> & ->) by (split_and!; congruence).
  assert (Hh : (ks_env σ1 ∪ ks_benv σ1) !! h = Some it) by (specialize (Hco1 h); cbn [c_env c_mem] in Hco1; rewrite Hhd in Hco1; destruct Hco1 as (it' & Hrd' & Hl); congruence). pose proof (ksrun_length _ _ _ _ E1) as Hlen.
  cbn [ksrun] in G2. destruct (ksstep σ1 o) as [[r σ2]|] eqn:Eo; [|congruence]. rewrite ksrun_app in G2. destruct (ksrun σ2 os2) as [[rs2 σ3]|] eqn:E2; [|congruence].
  pose proof (ksrun_length _ _ _ _ E2) as Hlen2.
  cbn [ksrun] in G2. destruct (ksstep σ3 (KBack i x)) as [[rb σ4]|] eqn:Eb; [|congruence].
  destruct G2 as (e' & s' & Hr' & Hco & _). assert (rs = rs1 ++ r :: rs2 ++ [rb] /\ e' = e /\ s' = s) as (-> & -> & ->) by (split_and!; congruence). rewrite <-Hlen in *.
  rewrite lookup_app_r, Nat.sub_diag in Hu by done. injection Hu as ->. rewrite drop_app_ge by lia. replace (S (length rs1) - length rs1) with 1 by lia. cbn [drop].
  assert (rb = KUnit) as ->. { rewrite app_comm_cons, app_assoc, last_snoc in Hlast. congruence. }
  assert (Hyl : nexts i os2 (rs2 ++ [KUnit]) = nexts i os2 rs2).
  { clear -Hlen2. revert rs2 Hlen2. induction os2 as [|o' os2 IH]; intros [|r rs2] Hl; try done; cbn [nexts app]; [by injection Hl as Hl; rewrite (IH _ Hl)]. }
  assert (Hch : forall m, changes i m os2 (rs2 ++ [KUnit]) = changes i m os2 rs2).
  { intros m. clear -Hlen2. revert rs2 Hlen2. induction os2 as [|o' os2 IH]; intros [|r rs2] Hl; try done; cbn [changes app]; [by injection Hl as Hl; rewrite (IH _ Hl)]. }
  rewrite drop_0, Hyl.
  assert (Hc : ks_cur σ2 !! i = Some (SBfsMut it path top (fun _ a => a) 0)).
  { unfold opens_mut in Ho. subst o. destruct top; cbn [ksstep] in Eo; (destruct (ks_cur σ1 !! i); [done|]); (destruct (ks_env σ1 !! h) as [it'|] eqn:E; [|done]);
    rewrite (lookup_union_Some_l _ _ _ _ E) in Hh; injection Hh as ->; [destruct (node_at it path); [|done]|destruct (kids_at it path); [|done]]; injection Eo as <-; cbn [ks_cur]; by rewrite lookup_insert. }
  destruct (run_bms _ _ _ _ _ _ _ _ _ _ E2 Hc Hno) as (Hy & g & n & Hi3 & Hg). split; [exact Hy|].
  cbn [ksstep] in Eb. destruct (decide _) as [Hx|]; [|done]. rewrite Hi3 in Eb. injection Eb as <-. cbn [ks_env ks_benv] in Hco.
  specialize (Hco x). cbn [c_env c_mem] in Hco. rewrite (lookup_union_Some_l _ _ x (bfs_mut_item it path top g)) in Hco by apply lookup_insert.
  destruct ((ke_env e ∪ ke_benv e) !! x) as [hd'|]; [|done]. destruct Hco as (it' & Hrd' & [= <-]). exists hd'. split; [done|]. rewrite Hrd'. f_equal.
  apply bfs_mut_item_ext. intros m a. by rewrite Hg, Hch.
Qed.
End top.
