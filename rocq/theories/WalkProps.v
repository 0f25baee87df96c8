(** WalkProps.v — the lemmas behind PropWalk.v. *)
From stdpp Require Import base gmap list.
From Verif Require Import Spec ClientSpec Machine NodeModel BfsModel ClientModel Reach WalkModel WalkSpec Sep Rep NodeProofs Inv Abs ClientProofs BfsBuild BfsIter ClientRef ClientStep ClientRead CmpProofs WalkProofs.

Section props.
Context {A : Type}.
Implicit Types (t u k : atree A) (ks : list (atree A)) (x y : tree A) (p : list nat).

Lemma stk_afind ks p st ks' i k : stk ks p st ks' -> ks' !! i = Some k -> forall q pl v, exists C, afind (AN q pl v ks) (p ++ [i]) = Some (C, k).
Proof.
  intros H Hk. induction H as [ks|ks j k' p st ks' Hj H IH]; intros q pl v.
  - simpl. rewrite Hk. eauto.
  - cbn [app afind]. rewrite Hj. destruct k' as [q' pl' v' kk]. destruct (IH Hk q' pl' v') as [C HC]. cbn [akids] in HC. rewrite HC. eauto.
Qed.
Lemma afind_node t it path C k x : ri t it -> afind t path = Some (C, k) -> rt k x -> node_at it path = Some x.
Proof.
  intros Hri Hf Hk. pose proof (locate_kids t it path Hri) as H. destruct (kids_at it path) as [xs|].
  - destruct H as (C' & q & pl & v & ks & Hf' & Hks & _ & Hn & _). rewrite Hf in Hf'. simplify_eq. rewrite Hn.
    inversion Hk; subst. f_equal. eapply rt_fun; [|done]. by constructor.
  - destruct H as [H _]. congruence.
Qed.

Section client.
Context (c : cst A) (env : gmap nat (item A)) (Hr : reachable c) (Hc : contents c env).
Context (h : nat) (hd : handle) (it : item A) (Hh : env !! h = Some it) (Hhd : c_env c !! h = Some hd).

Lemma world : exists Wm t, REnv (c_mem c) (c_env c) env Wm /\ Wm !! h = Some t /\ ri t it /\ hd = hof t /\ t ∈ vals Wm /\ MInvX (c_mem c) (vals Wm) [] /\
  MInvX (c_mem c) (t :: vals (delete h Wm)) [].
Proof.
  destruct (reachable_contents _ _ Hr Hc) as (Wm & HR & _). pose proof (RE_lookup _ _ _ _ h HR) as H. cbn [s_env] in H. rewrite Hh in H.
  destruct H as (t & Ht & Hri & Henv & _). rewrite Hhd in Henv. injection Henv as ->. exists Wm, t. split_and!; try done.
  - unfold ClientRef.vals. rewrite app_nil_r. apply elem_of_list_fmap. exists (h, t). split; [done|]. by apply elem_of_map_to_list.
  - apply HR.
  - by eapply RE_inv.
Qed.

Lemma node_rel ks0 t (p : list nat) i st ks k (x : tree A) : ri t it -> hd = hof t -> (ks0 = match it with ITree _ => [t] | IForest _ => akids t end) ->
  MInvX (c_mem c) (t :: vals (delete h (∅ : gmap nat (atree A)))) [] \/ (exists W, MInvX (c_mem c) (t :: W) []) ->
  stk ks0 p st ks -> ks !! i = Some k -> rt k x -> is_node c hd it (aptr k) (p ++ [i], x).
Proof.
  intros Hri -> -> HI Hst Hk Hkx. assert (exists W, MInvX (c_mem c) (t :: W) []) as [W HW] by (destruct HI; eauto). clear HI.
  assert (Hf : exists C, afind t (path_in it (p ++ [i])) = Some (C, k)).
  { destruct it as [y|ys]; cbn [path_in].
    - destruct p as [|j p].
      + apply stk_nil_inv in Hst as [-> ->]. destruct i; simpl in Hk; [|done]. simplify_eq. simpl. eauto.
      + inversion Hst as [|? ? k' ? ? ? Hj Hst']; subst. destruct j; simpl in Hj; [|done]. simplify_eq. cbn [tail app].
        destruct k' as [q pl v kk]. by eapply stk_afind.
    - destruct t as [q pl v kk]. by eapply stk_afind. }
  destruct Hf as [C Hf]. split; cbn [fst snd].
  - replace (addr (hof t)) with (aptr t) by (unfold hof; by destruct (aval t)). rewrite (resolve_at _ _ _ _ _ HW), Hf. done.
  - by eapply afind_node.
Qed.

Lemma walk_refines os :
  match c_run (tops it) (c_start (tops it)) os with
  | Some (rs', _) => exists rs, walk_run hd os (c_mem c) = Ok rs (c_mem c) /\ Forall2 (same_out c hd it) rs rs'
  | None => walk_run hd os (c_mem c) = Err EPanic
  end.
Proof.
  destruct world as (Wm & t & HR & Ht & Hri & Hhof & Hel & HI & HI').
  set (ks0 := match it with ITree _ => [t] | IForest _ => akids t end).
  assert (Hfs : Forall2 rt ks0 (tops it)).
  { unfold ks0. destruct it as [y|ys]; simpl in *; [by repeat constructor|]. by destruct t, Hri. }
  assert (Hg : good (vals Wm) ks0).
  { unfold ks0. destruct it as [y|ys]; [by apply good_root|]. eapply good_kids. by apply located_elem. }
  assert (Hstart : exists w, walk_from hd (c_mem c) = Ok w (c_mem c) /\ wrel ks0 w (c_start (tops it))).
  { unfold ks0. rewrite Hhof. destruct it as [y|ys]; simpl in Hri.
    - unfold hof. rewrite (rt_val _ _ Hri). apply (from_tree _ _ _ _ HI Hel).
    - destruct t as [q pl v kk]. destruct Hri as [Hv Hkk]. simpl in Hv, Hkk. subst v. cbn [hof aval aptr akids].
      destruct (from_forest _ _ _ _ _ _ HI Hel) as (w & Hw & Hrel). exists w. split; [done|]. cbn [tops]. by destruct Hkk. }
  destruct Hstart as (w & Hw & Hrel). unfold walk_run, bind. rewrite Hw.
  pose proof (run_run (c_mem c) (vals Wm) [] HI ks0 (tops it) Hg Hfs os w _ Hrel) as H.
  destruct (c_run (tops it) (c_start (tops it)) os) as [[rs' c']|].
  - destruct H as (rs & w' & -> & Hrs & _). exists rs. split; [done|]. eapply Forall2_impl; [done|].
    assert (Hn : forall p i st ks k x, stk ks0 p st ks -> ks !! i = Some k -> rt k x -> is_node c hd it (aptr k) (p ++ [i], x)).
    { intros. eapply (node_rel ks0 t); try done. eauto. }
    assert (Hvr : forall v v', vrel ks0 v v' -> same_visit c hd it v v').
    { intros v [[kd p'] x] (p & i & st & ks & k & Hp & Hst & Hk & Hkx & ->). cbn [fst snd] in *. subst p'. split; [done|]. by eapply Hn. }
    assert (Hnr : forall q n, nrel ks0 q n -> is_node c hd it q n).
    { intros q [p' x] (p & i & st & ks & k & Hp & Hst & Hk & Hkx & ->). cbn [fst snd] in *. subst p'. by eapply Hn. }
    intros [[v|]|[q|]|] [[v'|]|[n|]|]; simpl; auto.
  - by rewrite H.
Qed.
End client.

(** * The specification itself *)
Implicit Types (fs ts : list (tree A)) (cu : cursor).

Lemma c_run_app fs cu os os' : c_run fs cu (os ++ os') =
  match c_run fs cu os with
  | Some (rs, cu') => match c_run fs cu' os' with Some (rs', cu'') => Some (rs ++ rs', cu'') | None => None end
  | None => None
  end.
Proof.
  revert cu. induction os as [|o os IH]; intros cu; simpl; [by destruct (c_run fs cu os') as [[? ?]|]|].
  destruct (c_step fs cu o) as [[r cu']|]; [|done]. rewrite IH. destruct (c_run fs cu' os) as [[rs cu'']|]; [|done].
  by destruct (c_run fs cu'' os') as [[? ?]|].
Qed.

(** from [cu] (inclusive) to [cu'] (exclusive) the visits are [vs] *)
Inductive trav fs : cursor -> list svisit -> cursor -> Prop :=
  | trav_nil cu : trav fs cu [] cu
  | trav_cons cu v vs cu' : c_show fs cu = Some v -> trav fs (c_forward fs cu) vs cu' -> trav fs cu (v :: vs) cu'.
Lemma trav_app fs cu vs cu' vs' cu'' : trav fs cu vs cu' -> trav fs cu' vs' cu'' -> trav fs cu (vs ++ vs') cu''.
Proof. intros H H'. induction H; [done|]. simpl. econstructor; eauto. Qed.

Lemma trav_nil_inv fs cu cu' : trav fs cu [] cu' -> cu = cu'.
Proof. intros H. by inversion H. Qed.
Lemma dfs_leaf p (a : A) : dfs p (Tr a []) = [(VLeaf, p, Tr a [])].
Proof. done. Qed.
Lemma dfs_branch p (a : A) x ts : dfs p (Tr a (x :: ts)) = (VBegin, p, Tr a (x :: ts)) :: dfss p 0 (x :: ts) ++ [(VEnd, p, Tr a (x :: ts))].
Proof. done. Qed.
Lemma dfss_cons p i x ts : dfss p i (x :: ts) = dfs (p ++ [i]) x ++ dfss p (S i) ts.
Proof. done. Qed.
Lemma dfss_app p i ts us : dfss p i (ts ++ us) = dfss p i ts ++ dfss p (i + length ts) us.
Proof.
  revert i. induction ts as [|x ts IH]; intros i; cbn [app length].
  - by rewrite Nat.add_0_r.
  - rewrite !dfss_cons, IH, <- app_assoc. do 3 f_equal. lia.
Qed.

Lemma c_up_snoc p i : c_up (p ++ [i]) = At p i false.
Proof. unfold c_up. by rewrite split_last_snoc. Qed.

(** one node *)
Lemma trav_node fs x : forall p i ts, sibs fs p = Some ts -> ts !! i = Some x -> trav fs (At p i true) (dfs (p ++ [i]) x) (c_right fs p i).
Proof.
  induction x as [a us IH] using tree_ind'. intros p i ts Hs Hx.
  assert (Hsk : sibs fs (p ++ [i]) = Some us) by (by rewrite sibs_snoc, Hs, Hx).
  destruct us as [|u us].
  - rewrite dfs_leaf. econstructor; [cbn [c_show]; by rewrite Hs, Hx|]. cbn [c_forward]. rewrite Hsk. constructor.
  - rewrite dfs_branch. econstructor; [cbn [c_show]; by rewrite Hs, Hx|]. cbn [c_forward]. rewrite Hsk.
    assert (Hall : forall j, j < length (u :: us) -> trav fs (At (p ++ [i]) j true) (dfss (p ++ [i]) j (drop j (u :: us))) (At p i false)).
    { intros j. remember (length (u :: us) - j) as m eqn:Hm. revert j Hm. induction m as [|m IHm]; intros j Hm Hj; [lia|].
      destruct ((u :: us) !! j) as [w|] eqn:Hw; [|apply lookup_ge_None in Hw; lia]. rewrite (drop_S _ _ _ Hw), dfss_cons.
      eapply trav_app.
      - rewrite Forall_forall in IH. eapply (IH w); [by eapply elem_of_list_lookup_2|done|done].
      - unfold c_right. rewrite Hsk. destruct (decide (S j < length (u :: us))) as [Hlt|Hge].
        + apply IHm; lia.
        + rewrite drop_ge by lia. rewrite c_up_snoc. constructor. }
    eapply trav_app; [apply (Hall 0); simpl; lia|]. econstructor; [cbn [c_show]; by rewrite Hs, Hx|]. constructor.
Qed.
(** the siblings from index [i] on, when the parent is [p] *)
Lemma trav_sibs fs p ts : sibs fs p = Some ts -> forall i, i < length ts -> trav fs (At p i true) (dfss p i (drop i ts)) (c_up p).
Proof.
  intros Hs i. remember (length ts - i) as m eqn:Hm. revert i Hm. induction m as [|m IHm]; intros i Hm Hi; [lia|].
  destruct (ts !! i) as [w|] eqn:Hw; [|apply lookup_ge_None in Hw; lia]. rewrite (drop_S _ _ _ Hw), dfss_cons.
  eapply trav_app; [by eapply trav_node|]. unfold c_right. rewrite Hs. destruct (decide (S i < length ts)).
  - apply IHm; lia.
  - rewrite drop_ge by lia. constructor.
Qed.
Lemma trav_all fs : trav fs (c_start fs) (dfss [] 0 fs) Over.
Proof. destruct fs as [|x fs]; [constructor|]. apply (trav_sibs (x :: fs) [] (x :: fs) eq_refl 0). simpl. lia. Qed.

(** where a node lies in the whole traversal *)
Lemma trav_split fs p : forall i ts x, sibs fs p = Some ts -> ts !! i = Some x ->
  exists pre post, dfss [] 0 fs = pre ++ dfs (p ++ [i]) x ++ post /\ trav fs (c_right fs p i) post Over.
Proof.
  induction p as [|j p IH] using rev_ind; intros i ts x Hs Hx.
  - simpl in Hs. simplify_eq. exists (dfss [] 0 (take i ts)), (dfss [] (S i) (drop (S i) ts)). split.
    + rewrite <- (take_drop_middle _ _ _ Hx) at 1. rewrite dfss_app, dfss_cons. f_equal.
      rewrite take_length_le; [done|]. apply lookup_lt_Some in Hx. lia.
    + unfold c_right. simpl. destruct (decide (S i < length ts)) as [Hlt|Hge].
      * by apply (trav_sibs ts [] ts eq_refl (S i)).
      * rewrite drop_ge by lia. constructor.
  - pose proof Hs as Hs'. rewrite sibs_snoc in Hs. destruct (sibs fs p) as [ts'|] eqn:Hs0; [|done]. destruct (ts' !! j) as [x'|] eqn:Hx'; [|done]. simplify_eq.
    destruct (IH j ts' x' eq_refl Hx') as (pre & post & Heq & Hpost). destruct x' as [a us]. cbn [kids] in *.
    destruct us as [|u us]; [done|]. set (us' := u :: us) in *.
    exists (pre ++ (VBegin, p ++ [j], Tr a us') :: dfss (p ++ [j]) 0 (take i us')), (dfss (p ++ [j]) (S i) (drop (S i) us') ++ (VEnd, p ++ [j], Tr a us') :: post).
    split.
    + rewrite Heq. unfold us'. rewrite dfs_branch. fold us'. rewrite <- (take_drop_middle _ _ _ Hx) at 2. rewrite dfss_app, dfss_cons.
      rewrite take_length_le by (apply lookup_lt_Some in Hx; lia). cbn [Nat.add]. rewrite <- !app_assoc. cbn [app]. rewrite <- !app_assoc. done.
    + assert (HE : trav fs (At p j false) ((VEnd, p ++ [j], Tr a us') :: post) Over).
      { econstructor; [cbn [c_show]; by rewrite Hs0, Hx'|]. done. }
      unfold c_right. rewrite Hs'. destruct (decide (S i < length us')) as [Hlt|Hge].
      * eapply trav_app; [by apply (trav_sibs fs (p ++ [j]) us' Hs' (S i))|]. by rewrite c_up_snoc.
      * rewrite drop_ge by lia. by rewrite c_up_snoc.
Qed.
(** the rest of the traversal from any cursor on a node *)
Lemma trav_rest fs p i b v : c_show fs (At p i b) = Some v -> (b = false -> forall t : snode, c_node fs (At p i b) = Some t -> kids t.2 <> []) ->
  exists pre post, dfss [] 0 fs = pre ++ v :: post /\ trav fs (c_forward fs (At p i b)) post Over.
Proof.
  intros Hv Hb. cbn [c_show] in Hv. destruct (sibs fs p) as [ts|] eqn:Hs; [|done]. destruct (ts !! i) as [x|] eqn:Hx; [|done]. injection Hv as <-.
  destruct (trav_split fs p i ts x Hs Hx) as (pre & post & Heq & Hpost).
  pose proof (trav_node fs x p i ts Hs Hx) as Hn. destruct x as [a us]. destruct b; cbn [kind_of kids].
  - destruct us as [|u us].
    + rewrite dfs_leaf in *. exists pre, post. split; [done|]. inversion Hn as [|? ? ? ? _ Hn']; subst. apply trav_nil_inv in Hn'. by rewrite Hn'.
    + rewrite dfs_branch in *. eexists pre, (_ ++ post). split; [rewrite Heq; cbn [app]; reflexivity|].
      inversion Hn as [|? ? ? ? _ Hn']; subst. by eapply trav_app.
  - destruct us as [|u us].
    { exfalso. apply (Hb eq_refl (p ++ [i], Tr a [])); [|done]. unfold c_node. cbn [c_show]. by rewrite Hs, Hx. }
    rewrite dfs_branch in Heq. exists (pre ++ (VBegin, p ++ [i], Tr a (u :: us)) :: dfss (p ++ [i]) 0 (u :: us)), post. split.
    + rewrite Heq. cbn [app]. by rewrite <- !app_assoc.
    + done.
Qed.

(** cursors that occur *)
Definition valid fs cu : Prop :=
  match cu with
  | At p i b => exists ts x, sibs fs p = Some ts /\ ts !! i = Some x /\ (b = false -> kids x <> [])
  | Off p => exists ts, sibs fs p = Some ts /\ ts <> []
  | Over => True
  end.
Lemma valid_start fs : valid fs (c_start fs).
Proof. destruct fs as [|x fs]; [done|]. simpl. eexists _, _. split; [done|]. split; [done|done]. Qed.
Lemma valid_up fs p ts : sibs fs p = Some ts -> ts <> [] -> valid fs (c_up p).
Proof.
  destruct (decide (p = [])) as [->|Hp]; [done|]. destruct (exists_last Hp) as (p' & j & ->). rewrite sibs_snoc, c_up_snoc.
  destruct (sibs fs p') as [us|] eqn:Hs; [|done]. destruct (us !! j) as [x|] eqn:Hx; [|done]. intros [= <-] Hne. exists us, x. done.
Qed.
Lemma valid_right fs p i ts x : sibs fs p = Some ts -> ts !! i = Some x -> valid fs (c_right fs p i).
Proof.
  intros Hs Hx. unfold c_right. rewrite Hs. destruct (decide (S i < length ts)) as [Hlt|_].
  - apply lookup_lt_is_Some in Hlt as [y Hy]. exists ts, y. done.
  - eapply valid_up; [done|]. by intros ->.
Qed.
Lemma valid_forward fs cu : valid fs cu -> valid fs (c_forward fs cu).
Proof.
  destruct cu as [p i b|p|]; [| |done].
  - intros (ts & x & Hs & Hx & Hb). cbn [c_forward]. destruct b; [|by eapply valid_right]. rewrite sibs_snoc, Hs, Hx.
    destruct (kids x) as [|y ys] eqn:Hk; [by eapply valid_right|]. exists (y :: ys), y. split_and!; [|done|done]. rewrite sibs_snoc, Hs, Hx. by rewrite Hk.
  - intros (ts & Hs & Hne). by eapply valid_up.
Qed.
Lemma valid_parent fs cu : valid fs cu -> valid fs (c_parent cu).
Proof.
  destruct cu as [p i b|p|]; [| |done].
  - intros (ts & x & Hs & Hx & Hb). eapply valid_up; [done|]. by intros ->.
  - intros (ts & Hs & Hne). by eapply valid_up.
Qed.
Lemma valid_goto fs p n ts : sibs fs p = Some ts -> ts <> [] -> valid fs (c_goto fs p n).
Proof.
  intros Hs Hne. unfold c_goto. rewrite Hs. destruct (decide (n < length ts)) as [Hlt|_].
  - apply lookup_lt_is_Some in Hlt as [y Hy]. exists ts, y. done.
  - exists ts. done.
Qed.
Lemma valid_step fs cu o r cu' : valid fs cu -> c_step fs cu o = Some (r, cu') -> valid fs cu'.
Proof.
  intros Hv. destruct o as [| | | | |n|n|]; cbn [c_step].
  - destruct cu; intros; by simplify_eq.
  - intros; simplify_eq. by apply valid_forward.
  - intros; simplify_eq. by apply valid_forward.
  - intros; simplify_eq. by apply valid_parent.
  - intros; simplify_eq. done.
  - destruct cu as [p i b|p|]; [|done|intros; by simplify_eq]. destruct Hv as (ts & x & Hs & Hx & Hb). rewrite sibs_snoc, Hs, Hx.
    destruct (kids x) as [|y ys] eqn:Hk; intros Hstep; injection Hstep as <- <-; [exists ts, x; by rewrite Hk|]. eapply valid_goto; [by rewrite sibs_snoc, Hs, Hx|by rewrite Hk].
  - destruct cu as [p i b|p|]; [|done|intros; by simplify_eq]. destruct Hv as (ts & x & Hs & Hx & Hb). intros; simplify_eq. eapply valid_goto; [done|]. by intros ->.
  - destruct cu as [p i b|p|]; [|done|]; intros; simplify_eq.
    + destruct Hv as (ts & x & Hs & Hx & Hb). exists ts, x. done.
    + destruct fs as [|x fs]; [done|]. exists (x :: fs), x. done.
Qed.
Lemma valid_run fs os : forall cu rs cu', valid fs cu -> c_run fs cu os = Some (rs, cu') -> valid fs cu'.
Proof.
  induction os as [|o os IH]; intros cu rs cu' Hv; cbn [c_run]; [intros; by simplify_eq|].
  destruct (c_step fs cu o) as [[r c1]|] eqn:Es; [|done]. destruct (c_run fs c1 os) as [[rs1 c2]|] eqn:Er; [|done]. intros; simplify_eq.
  eapply IH; [|done]. by eapply valid_step.
Qed.
Lemma valid_show fs p i b : valid fs (At p i b) -> exists x, c_show fs (At p i b) = Some (kind_of x b, p ++ [i], x) /\ c_node fs (At p i b) = Some (p ++ [i], x) /\ (b = false -> kids x <> []).
Proof. intros (ts & x & Hs & Hx & Hb). exists x. unfold c_node. cbn [c_show]. rewrite Hs, Hx. done. Qed.

(** stepping forward along a traversal *)
Lemma trav_next fs cu vs cu' : trav fs cu vs cu' -> forall n, n < length vs ->
  c_run fs cu (replicate n WForward ++ [WGet]) = Some (replicate n WUnit ++ [WVisit (vs !! n)], Nat.iter n (c_forward fs) cu).
Proof.
  intros H. induction H as [|cu v vs cu' Hv H IH]; intros n Hn; simpl in Hn; [lia|].
  destruct n as [|n].
  - simpl. destruct cu; simpl in Hv; try done. simpl. by rewrite Hv.
  - cbn [replicate app c_run c_step]. rewrite IH by lia. cbn [lookup list_lookup]. do 2 f_equal. by rewrite Nat.iter_succ_r.
Qed.
Lemma trav_iter fs cu vs cu' : trav fs cu vs cu' -> Nat.iter (length vs) (c_forward fs) cu = cu'.
Proof. intros H. induction H; [done|]. cbn [length]. by rewrite Nat.iter_succ_r. Qed.
Lemma over_iter fs n : Nat.iter n (c_forward fs) Over = Over.
Proof. induction n as [|n IH]; [done|]. simpl. by rewrite IH. Qed.
(** [next()] called [n] times *)
Lemma trav_nexts fs cu post : trav fs (c_forward fs cu) post Over -> forall n,
  exists cu', c_run fs cu (replicate n WNext) = Some ((fun i => WVisit (post !! i)) <$> seq 0 n, cu').
Proof.
  intros H n. assert (Hgen : forall m, m <= n -> exists cu', cu' = Nat.iter m (c_forward fs) cu /\ c_run fs cu (replicate m WNext) = Some ((fun i => WVisit (post !! i)) <$> seq 0 m, cu')).
  { induction m as [|m IHm]; intros Hm; [by exists cu|]. destruct (IHm ltac:(lia)) as (c1 & Hc1 & Hrun).
    exists (c_forward fs c1). split; [by rewrite Hc1|]. rewrite replicate_S_end, c_run_app, Hrun. cbn [c_run c_step].
    rewrite seq_S, fmap_app. cbn [fmap list_fmap Nat.add]. do 4 f_equal. rewrite Hc1. clear -H.
    change (c_forward fs (Nat.iter m (c_forward fs) cu)) with (Nat.iter (S m) (c_forward fs) cu). rewrite Nat.iter_succ_r.
    revert m. generalize (c_forward fs cu) H. clear H cu. intros cu H. remember Over as e eqn:He. induction H as [cu|cu v vs cu' Hv H IH]; intros m; subst.
    - rewrite over_iter. done.
    - destruct m as [|m]; [simpl; by rewrite Hv|]. rewrite Nat.iter_succ_r. rewrite IH by done. done. }
  destruct (Hgen n ltac:(lia)) as (cu' & _ & Hr). eauto.
Qed.
End props.
