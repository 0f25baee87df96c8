(** WalkClient.v — properties of walks on client states. *)
From stdpp Require Import base gmap list.
From Verif Require Import Spec ClientSpec Machine NodeModel ClientModel Reach WalkModel WalkSpec ClientRead ClientProps WalkProofs WalkProps.

Section spec.
Context {A : Type}.
Implicit Types (fs ts : list (tree A)) (cu : cursor) (x y : tree A) (p : list nat).

Lemma get_nth fs n : c_run fs (c_start fs) (replicate n WForward ++ [WGet]) = Some (replicate n WUnit ++ [WVisit (dfss [] 0 fs !! n)], Nat.iter n (c_forward fs) (c_start fs)).
Proof.
  pose proof (trav_all fs) as H. destruct (decide (n < length (dfss [] 0 fs))) as [Hlt|Hge]; [by eapply trav_next|].
  assert (Hov : Nat.iter n (c_forward fs) (c_start fs) = Over).
  { replace n with ((n - length (dfss [] 0 fs)) + length (dfss [] 0 fs)) by lia. rewrite Nat.iter_add, (trav_iter _ _ _ _ H). apply over_iter. }
  rewrite lookup_ge_None_2 by lia. rewrite c_run_app.
  assert (Hf : forall m cu, c_run fs cu (replicate m WForward) = Some (replicate m WUnit, Nat.iter m (c_forward fs) cu)).
  { clear. induction m as [|m IH]; intros cu; [done|]. cbn [replicate c_run c_step]. rewrite IH. by rewrite Nat.iter_succ_r. }
  rewrite Hf, Hov. done.
Qed.

(** the traversal contains every node, leaves once, branches twice, and nothing else *)
Lemma dfs_elem x : forall p k p' y, (k, p', y) ∈ dfs p x <-> exists q, subtree x q = Some y /\ p' = p ++ q /\ kind_ok y k.
Proof.
  induction x as [a ts IH] using tree_ind'. intros p k p' y.
  assert (Hs : forall i, (k, p', y) ∈ dfss p i ts <-> exists j q z, ts !! j = Some z /\ subtree z q = Some y /\ p' = p ++ (i + j) :: q /\ kind_ok y k).
  { clear -IH. induction IH as [|t ts Ht IH IHl]; intros i.
    - split; [intros H; by apply elem_of_nil in H|intros (j & q & z & Hj & _); done].
    - rewrite dfss_cons, elem_of_app, Ht, IHl. split.
      + intros [(q & H1 & -> & H3)|(j & q & z & H1 & H2 & -> & H4)].
        * exists 0, q, t. rewrite Nat.add_0_r, <- app_assoc. done.
        * exists (S j), q, z. split; [done|]. split; [done|]. split; [|done]. do 2 f_equal. lia.
      + intros ([|j] & q & z & H1 & H2 & -> & H4).
        * left. simpl in H1. simplify_eq. exists q. rewrite <- app_assoc, Nat.add_0_r. done.
        * right. exists j, q, z. split; [done|]. split; [done|]. split; [|done]. do 2 f_equal. lia. }
  destruct ts as [|t ts].
  - rewrite dfs_leaf, elem_of_list_singleton. split.
    + intros [= -> -> ->]. exists []. rewrite app_nil_r. done.
    + intros ([|i q] & H1 & -> & H4); simpl in H1; [|done]. simplify_eq. rewrite app_nil_r. unfold kind_ok in H4. simpl in H4. by rewrite H4.
  - rewrite dfs_branch. rewrite elem_of_cons, elem_of_app, elem_of_list_singleton, Hs. split.
    + intros [[= -> -> ->]|[(j & q & z & H1 & H2 & H3 & H4)|[= -> -> ->]]].
      * exists []. rewrite app_nil_r. done.
      * exists (j :: q). split; [|done]. cbn [subtree kids]. by rewrite H1.
      * exists []. rewrite app_nil_r. done.
    + intros ([|j q] & H1 & -> & H4); cbn [subtree] in H1.
      * simplify_eq. rewrite app_nil_r. unfold kind_ok in H4. cbn [kids] in H4. destruct k; [auto|auto|done].
      * right. left. cbn [kids] in H1. destruct ((t :: ts) !! j) as [z|] eqn:Hz; [|done]. exists j, q, z. done.
Qed.
Lemma dfss_elem ts p i k p' y : (k, p', y) ∈ dfss p i ts <-> exists j q z, ts !! j = Some z /\ subtree z q = Some y /\ p' = p ++ (i + j) :: q /\ kind_ok y k.
Proof.
  revert i. induction ts as [|t ts IHl]; intros i.
  - split; [intros H; by apply elem_of_nil in H|intros (j & q & z & Hj & _); done].
  - rewrite dfss_cons, elem_of_app, dfs_elem, IHl. split.
    + intros [(q & H1 & -> & H3)|(j & q & z & H1 & H2 & -> & H4)].
      * exists 0, q, t. rewrite Nat.add_0_r, <- app_assoc. done.
      * exists (S j), q, z. split; [done|]. split; [done|]. split; [|done]. do 2 f_equal. lia.
    + intros ([|j] & q & z & H1 & H2 & -> & H4).
      * left. simpl in H1. simplify_eq. exists q. rewrite <- app_assoc, Nat.add_0_r. done.
      * right. exists j, q, z. split; [done|]. split; [done|]. split; [|done]. do 2 f_equal. lia.
Qed.
Lemma dfs_nodup x : forall p, NoDup (dfs p x).*1.
Proof.
  induction x as [a ts IH] using tree_ind'. intros p.
  assert (Hpre : forall i (k : vkind) q, (k, q) ∈ (dfss p i ts).*1 -> exists j r, i <= j /\ q = p ++ j :: r).
  { intros i k q Hin. apply elem_of_list_fmap in Hin as ([[k' q'] y] & [= -> ->] & Hin). apply dfss_elem in Hin as (j & r & z & _ & _ & -> & _). exists (i + j), r. split; [lia|done]. }
  assert (Hs : forall i, NoDup (dfss p i ts).*1).
  { clear Hpre. induction IH as [|t ts Ht IH IHl]; intros i; [constructor|]. rewrite dfss_cons, fmap_app. apply NoDup_app. split; [done|]. split; [|done].
    intros [k q] H1 H2. apply elem_of_list_fmap in H1 as ([[k1 q1] y1] & [= -> ->] & H1). apply elem_of_list_fmap in H2 as ([[k2 q2] y2] & [= -> ->] & H2).
    apply dfs_elem in H1 as (r & _ & -> & _). apply dfss_elem in H2 as (j & r' & z & _ & _ & He & _). rewrite <- app_assoc in He. apply app_inv_head in He. simpl in He. injection He. lia. }
  destruct ts as [|t ts]; [rewrite dfs_leaf; repeat constructor; by intros ?%elem_of_nil|].
  assert (Hno : forall k, (k, p) ∉ (dfss p 0 (t :: ts)).*1).
  { intros k Hin. apply Hpre in Hin as (j & r & _ & He). apply (f_equal length) in He. rewrite app_length in He. simpl in He. lia. }
  rewrite dfs_branch. cbn [fmap list_fmap]. rewrite fmap_app. constructor.
  - rewrite elem_of_app. intros [H|H]; [by apply Hno in H|]. cbn in H. apply elem_of_list_singleton in H. done.
  - apply NoDup_app. split; [apply Hs|]. split; [|repeat constructor; by intros ?%elem_of_nil].
    intros [k q] H1 H2. cbn in H2. apply elem_of_list_singleton in H2 as [= -> ->]. by apply Hno in H1.
Qed.
Lemma dfss_nodup ts p i : NoDup (dfss p i ts).*1.
Proof.
  revert i. induction ts as [|t ts IH]; intros i; [constructor|]. rewrite dfss_cons, fmap_app. apply NoDup_app. split; [apply dfs_nodup|]. split; [|done].
  intros [k q] H1 H2. apply elem_of_list_fmap in H1 as ([[k1 q1] y1] & [= -> ->] & H1). apply elem_of_list_fmap in H2 as ([[k2 q2] y2] & [= -> ->] & H2).
  apply dfs_elem in H1 as (r & _ & -> & _). apply dfss_elem in H2 as (j & r' & z & _ & _ & He & _). rewrite <- app_assoc in He. apply app_inv_head in He. simpl in He. injection He. lia.
Qed.
Lemma traversal_nodes (it : item A) k p y :
  (k, p, y) ∈ dfss [] 0 (tops it) <->
  exists j q x, tops it !! j = Some x /\ subtree x q = Some y /\ p = j :: q /\ match kids y with [] => k = VLeaf | _ => k = VBegin \/ k = VEnd end.
Proof.
  assert (Hk : kind_ok y k <-> match kids y with [] => k = VLeaf | _ => k = VBegin \/ k = VEnd end).
  { unfold kind_ok. destruct (kids y); [done|]. destruct k; split; auto; intuition congruence. }
  rewrite dfss_elem. split; intros (j & q & x & H1 & H2 & H3 & H4); exists j, q, x; rewrite Hk in *; done.
Qed.
Lemma dfs_order p (a : A) ts : ts <> [] -> dfs p (Tr a ts) = (VBegin, p, Tr a ts) :: concat (imap (fun i t => dfs (p ++ [i]) t) ts) ++ [(VEnd, p, Tr a ts)].
Proof.
  destruct ts as [|t ts]; [done|]. intros _. rewrite dfs_branch. f_equal. f_equal. generalize (t :: ts). clear.
  assert (H : forall ts i, dfss p i ts = concat (imap (fun j t => dfs (p ++ [i + j]) t) ts)).
  { induction ts as [|t ts IH]; intros i; [done|]. rewrite dfss_cons, imap_cons. cbn [concat]. rewrite Nat.add_0_r, IH. f_equal. f_equal. apply imap_ext.
    intros j x _. simpl. do 2 f_equal. f_equal. lia. }
  intros ts. apply H.
Qed.
End spec.

Section client.
Context {A : Type} (c : cst A) (env : gmap nat (item A)) (Hr : reachable c) (Hc : contents c env).
Context (h : nat) (hd : handle) (it : item A) (Hh : env !! h = Some it) (Hhd : c_env c !! h = Some hd).
Notation fs := (tops it).
Notation outs := (list (wout (vkind * ptr) ptr)).
Notation R := (same_out c hd it).

Lemma is_node_fun q q' n : is_node c hd it q n -> is_node c hd it q' n -> q = q'.
Proof. intros [H _] [H' _]. rewrite H in H'. by injection H'. Qed.
Lemma same_out_fun o o' s : R o s -> R o' s -> o = o'.
Proof.
  destruct s as [[[[k p] x]|]|[[p x]|]|]; destruct o as [[[k1 q1]|]|[q1|]|]; try done; destruct o' as [[[k2 q2]|]|[q2|]|]; try done.
  - intros [H1 H2] [H3 H4]. simpl in *. subst. by rewrite (is_node_fun _ _ _ H2 H4).
  - intros H1 H2. simpl in *. by rewrite (is_node_fun _ _ _ H1 H2).
Qed.
Lemma same_outs_fun os os' ss : Forall2 R os ss -> Forall2 R os' ss -> os = os'.
Proof.
  intros H. revert os'. induction H as [|o s os ss Ho H IH]; intros os' H'; inversion H' as [|o' s' os1 ss1 Ho' H1]; subst; [done|].
  f_equal; [by eapply same_out_fun|by apply IH].
Qed.
(** visits at a path are unique *)
Lemma is_node_tree q p x x' : is_node c hd it q (p, x) -> is_node c hd it q (p, x') -> x = x'.
Proof. intros [_ H] [_ H']. simpl in *. congruence. Qed.

Lemma walk_iff os (rs : outs) : returns c (walk_run hd os) rs <-> exists srs cu, c_run fs (c_start fs) os = Some (srs, cu) /\ Forall2 R rs srs.
Proof.
  pose proof (walk_refines c env Hr Hc h hd it Hh Hhd os) as H. unfold returns. destruct (c_run fs (c_start fs) os) as [[srs cu]|].
  - destruct H as (rs' & -> & HF). split.
    + intros [= ->]. eauto.
    + intros (? & ? & [= <- <-] & HF'). by rewrite (same_outs_fun _ _ _ HF HF').
  - rewrite H. split; [done|]. by intros (? & ? & ? & ?).
Qed.
Lemma walk_panic os : walk_run hd os (c_mem c) = Err EPanic <-> c_run fs (c_start fs) os = None.
Proof.
  pose proof (walk_refines c env Hr Hc h hd it Hh Hhd os) as H. destruct (c_run fs (c_start fs) os) as [[srs cu]|].
  - destruct H as (rs' & -> & HF). done.
  - by rewrite H.
Qed.
(** whatever the cursor says next is said by the walk *)
Lemma walk_more os os' rs srs cu srs' cu' : c_run fs (c_start fs) os = Some (srs, cu) -> Forall2 R rs srs -> c_run fs cu os' = Some (srs', cu') ->
  exists rs', Forall2 R rs' srs' /\ returns c (walk_run hd (os ++ os')) (rs ++ rs').
Proof.
  intros H HF H'. pose proof (walk_refines c env Hr Hc h hd it Hh Hhd (os ++ os')) as Hw. rewrite c_run_app, H, H' in Hw.
  destruct Hw as (rs'' & Hw & HF''). apply Forall2_app_inv_r in HF'' as (r1 & r2 & H1 & H2 & ->). exists r2. split; [done|].
  unfold returns. rewrite Hw. do 2 f_equal. by eapply same_outs_fun.
Qed.
Lemma walk_more_iff os os' (rs rs' : outs) srs cu : c_run fs (c_start fs) os = Some (srs, cu) -> Forall2 R rs srs ->
  returns c (walk_run hd (os ++ os')) (rs ++ rs') <-> exists srs' cu', c_run fs cu os' = Some (srs', cu') /\ Forall2 R rs' srs'.
Proof.
  intros H HF. rewrite walk_iff, c_run_app, H. split.
  - intros (s & cu' & E & HF'). destruct (c_run fs cu os') as [[srs' cu'']|]; [|done]. injection E as <- <-. exists srs', cu''. split; [done|].
    apply Forall2_app_inv in HF' as [_ ?]; [done|]. by apply Forall2_length in HF.
  - intros (s & cu' & -> & HF'). eexists _, _. split; [done|]. by apply Forall2_app.
Qed.
Lemma walk_more_panic os os' srs cu : c_run fs (c_start fs) os = Some (srs, cu) ->
  walk_run hd (os ++ os') (c_mem c) = Err EPanic <-> c_run fs cu os' = None.
Proof. intros H. rewrite walk_panic, c_run_app, H. by destruct (c_run fs cu os') as [[? ?]|]. Qed.

(** the cursor behind a current visit *)
Lemma at_visit os (rs : outs) k q : returns c (walk_run hd (os ++ [WGet])) (rs ++ [WVisit (Some (k, q))]) ->
  exists srs p i b x, c_run fs (c_start fs) os = Some (srs, At p i b) /\ Forall2 R rs srs /\ valid fs (At p i b) /\
    c_show fs (At p i b) = Some (k, p ++ [i], x) /\ is_node c hd it q (p ++ [i], x) /\ k = kind_of x b.
Proof.
  intros H. apply walk_iff in H as (s & cu & E & HF). rewrite c_run_app in E. destruct (c_run fs (c_start fs) os) as [[srs cu1]|] eqn:E1; [|done].
  destruct (c_run fs cu1 [WGet]) as [[s' cu2]|] eqn:E2; [|done]. injection E as <- <-.
  assert (valid fs cu1) as Hv by (eapply valid_run; [apply valid_start|done]).
  cbn [c_run c_step] in E2. destruct cu1 as [p i b|p|]; [|done|].
  - injection E2 as <- <-. apply Forall2_app_inv_l in HF as (l1 & l2 & H1 & H2 & He). inversion H2 as [|? ? ? ? Hv2 Hn]; subst. inversion Hn; subst.
    apply app_inj_tail in He as [-> He]. subst. destruct (valid_show _ _ _ _ Hv) as (x & Hx & _ & _).
    pose proof Hx as Hx'. cbn [c_show] in Hx'. rewrite Hx' in Hv2. destruct Hv2 as [Hk Hn2]. simpl in Hk, Hn2. subst k. exists l1, p, i, b, x. split_and!; try done.
  - injection E2 as <- <-. apply Forall2_app_inv_l in HF as (l1 & l2 & H1 & H2 & He). inversion H2 as [|? ? ? ? Hv2 Hn]; subst. inversion Hn; subst.
    apply app_inj_tail in He as [-> <-]. done.
Qed.
Lemma at_end os (rs : outs) : returns c (walk_run hd (os ++ [WGet])) (rs ++ [WVisit None]) ->
  exists srs, c_run fs (c_start fs) os = Some (srs, Over) /\ Forall2 R rs srs.
Proof.
  intros H. apply walk_iff in H as (s & cu & E & HF). rewrite c_run_app in E. destruct (c_run fs (c_start fs) os) as [[srs cu1]|] eqn:E1; [|done].
  destruct (c_run fs cu1 [WGet]) as [[s' cu2]|] eqn:E2; [|done]. injection E as <- <-.
  assert (valid fs cu1) as Hv by (eapply valid_run; [apply valid_start|done]).
  cbn [c_run c_step] in E2. destruct cu1 as [p i b|p|]; [|done|].
  - injection E2 as <- <-. apply Forall2_app_inv_l in HF as (l1 & l2 & H1 & H2 & He). inversion H2 as [|? ? ? ? Hv2 Hn]; subst. inversion Hn; subst.
    apply app_inj_tail in He as [-> He]. subst. destruct (valid_show _ _ _ _ Hv) as (x & Hx & _ & _). cbn [c_show] in Hx. by rewrite Hx in Hv2.
  - injection E2 as <- <-. apply Forall2_app_inv_l in HF as (l1 & l2 & H1 & H2 & He). inversion H2 as [|? ? ? ? Hv2 Hn]; subst. inversion Hn; subst.
    apply app_inj_tail in He as [-> <-]. exists l1. done.
Qed.
(** from a cursor on a node, [next] goes on with the rest of the traversal *)
Lemma go_on os rs srs p i b k x : c_run fs (c_start fs) os = Some (srs, At p i b) -> Forall2 R rs srs -> c_show fs (At p i b) = Some (k, p ++ [i], x) ->
  continues c hd it os rs (k, p ++ [i], x).
Proof.
  intros E HF Hs. assert (valid fs (At p i b)) as Hv by (eapply valid_run; [apply valid_start|done]).
  destruct (valid_show _ _ _ _ Hv) as (x' & Hs' & Hn & Hb). rewrite Hs in Hs'. injection Hs' as -> <-.
  destruct (trav_rest fs p i b _ Hs) as (pre & post & Hd & Ht).
  { intros Hb' t Ht. rewrite Hn in Ht. injection Ht as <-. by apply Hb. }
  exists pre, post. split; [done|]. intros n. destruct (trav_nexts fs _ _ Ht n) as (cu' & Hrun).
  destruct (walk_more _ _ _ _ _ _ _ E HF Hrun) as (rs' & HF' & Hw). exists rs'. done.
Qed.
(** one more operation that ends on a node *)
Lemma one_more os rs srs cu o p i b k x : c_run fs (c_start fs) os = Some (srs, cu) -> Forall2 R rs srs ->
  c_step fs cu o = Some (WVisit (Some (k, p ++ [i], x)), At p i b) -> c_show fs (At p i b) = Some (k, p ++ [i], x) ->
  exists q, is_node c hd it q (p ++ [i], x) /\ returns c (walk_run hd (os ++ [o])) (rs ++ [WVisit (Some (k, q))]) /\
    continues c hd it (os ++ [o]) (rs ++ [WVisit (Some (k, q))]) (k, p ++ [i], x).
Proof.
  intros E HF Hst Hs. assert (Hrun : c_run fs cu [o] = Some ([WVisit (Some (k, p ++ [i], x))], At p i b)) by (cbn [c_run]; by rewrite Hst).
  destruct (walk_more _ _ _ _ _ _ _ E HF Hrun) as (rs' & HF' & Hw). inversion HF' as [|r ? l ? Hr1 Hnil]; subst. inversion Hnil; subst.
  destruct r as [[[k' q]|]|[]|]; try done. destruct Hr1 as [Hk Hn]. simpl in Hk, Hn. subst k'.
  exists q. split; [done|]. split; [done|]. eapply go_on; [|by apply Forall2_app|done]. by rewrite c_run_app, E, Hrun.
Qed.
Lemma one_none os rs srs cu cu' o : c_run fs (c_start fs) os = Some (srs, cu) -> Forall2 R rs srs ->
  c_step fs cu o = Some (WVisit None, cu') -> returns c (walk_run hd (os ++ [o])) (rs ++ [WVisit None]).
Proof.
  intros E HF Hst. eapply walk_more_iff; [done|done|]. exists [WVisit None], cu'. cbn [c_run]. rewrite Hst. split; [done|]. repeat constructor.
Qed.

(** * The properties *)
Lemma visits_prop n : exists o, returns c (walk_run hd (replicate n WForward ++ [WGet])) (replicate n WUnit ++ [WVisit o]) /\
  same_opt (same_visit c hd it) o (dfss [] 0 fs !! n).
Proof.
  pose proof (get_nth fs n) as H. pose proof (walk_refines c env Hr Hc h hd it Hh Hhd (replicate n WForward ++ [WGet])) as Hw.
  rewrite H in Hw. destruct Hw as (rs & Hw & HF). apply Forall2_app_inv_r in HF as (l1 & l2 & H1 & H2 & ->).
  assert (l1 = replicate n WUnit) as ->.
  { clear -H1. remember (replicate n WUnit) as l eqn:He. revert n He. induction H1 as [|a b l l' Ha H IH]; intros [|n] He; try done. simpl in He. injection He as -> ->.
    destruct a as [[]|[]|]; try done. simpl. by rewrite (IH n eq_refl). }
  inversion H2 as [|a ? l ? Ha Hn]; subst. inversion Hn; subst. destruct a as [o|[]|]; try done. exists o. done.
Qed.
Lemma nexts_prop n : exists o rs, returns c (walk_run hd (WGet :: replicate n WNext)) (WVisit o :: rs) /\
  Forall2 R (WVisit o :: rs) ((fun i => WVisit (dfss [] 0 fs !! i)) <$> seq 0 (S n)).
Proof.
  pose proof (trav_all fs) as HT. destruct (dfss [] 0 fs) as [|v vs].
  1: apply trav_nil_inv in HT as Ho.
  2: inversion HT as [|cu ? ? cu' Hv Ht]; subst.
  - assert (Ho' : c_run fs (c_start fs) [WGet] = Some ([WVisit None], Over)) by (rewrite Ho; done).
    destruct (trav_nexts fs Over [] ltac:(constructor) n) as (cu' & Hrun).
    destruct (walk_more [WGet] (replicate n WNext) [WVisit None] _ _ _ _ Ho' ltac:(repeat constructor) Hrun) as (rs' & HF' & Hw).
    exists None, rs'. split; [exact Hw|]. cbn [seq fmap list_fmap]. constructor; [done|]. rewrite <- fmap_S_seq, <- list_fmap_compose. done.
  - assert (Ho' : c_run fs (c_start fs) [WGet] = Some ([WVisit (Some v)], c_start fs)).
    { cbn [c_run c_step]. destruct (c_start fs); try done. by rewrite Hv. }
    destruct (trav_nexts fs _ _ Ht n) as (cu' & Hrun).
    pose proof (walk_refines c env Hr Hc h hd it Hh Hhd [WGet]) as Hw0. rewrite Ho' in Hw0. destruct Hw0 as (r0 & Hw0 & HF0).
    inversion HF0 as [|r ? l ? Hr1 Hnil]; subst. inversion Hnil; subst. destruct r as [o|[]|]; try done.
    destruct (walk_more [WGet] (replicate n WNext) _ _ _ _ _ Ho' HF0 Hrun) as (rs' & HF' & Hw).
    exists o, rs'. split; [exact Hw|]. cbn [seq fmap list_fmap]. constructor; [done|]. rewrite <- fmap_S_seq, <- list_fmap_compose. done.
Qed.

Lemma total_prop os : (exists rs, returns c (walk_run hd os) rs) \/ walk_run hd os (c_mem c) = Err EPanic.
Proof.
  destruct (c_run fs (c_start fs) os) as [[srs cu]|] eqn:E.
  - left. pose proof (walk_refines c env Hr Hc h hd it Hh Hhd os) as Hw. rewrite E in Hw. destruct Hw as (rs & Hw & _). by exists rs.
  - right. by apply walk_panic.
Qed.
Lemma forward_prop os (rs : outs) o : returns c (walk_run hd os) rs -> o = WForward \/ o = WNext \/ o = WToParent \/ o = WGetParent ->
  exists r, returns c (walk_run hd (os ++ [o])) (rs ++ [r]).
Proof.
  intros H Ho. apply walk_iff in H as (srs & cu & E & HF).
  assert (exists r cu', c_step fs cu o = Some (r, cu')) as (r & cu' & Hst) by (destruct Ho as [->|[->|[->| ->]]]; cbn [c_step]; eauto).
  assert (Hrun : c_run fs cu [o] = Some ([r], cu')) by (cbn [c_run]; by rewrite Hst).
  destruct (walk_more _ _ _ _ _ _ _ E HF Hrun) as (rs' & HF' & Hw). inversion HF' as [|r' ? l ? Hr1 Hnil]; subst. inversion Hnil; subst. by exists r'.
Qed.
Lemma ended_prop os (rs : outs) os' : returns c (walk_run hd (os ++ [WGet])) (rs ++ [WVisit None]) -> Forall (fun o => o = WForward \/ o = WNext) os' ->
  returns c (walk_run hd (os ++ os' ++ [WGet])) (rs ++ ((fun o => match o with WNext => WVisit None | _ => WUnit end) <$> os') ++ [WVisit None]).
Proof.
  intros H Ho. apply at_end in H as (srs & E & HF). eapply walk_more_iff; [done|done|]. clear E HF.
  exists (((fun o => match o with WNext => WVisit None | _ => WUnit end) <$> os') ++ [WVisit None]), Over.
  induction Ho as [|o os' Ho _ IH]; [split; [done|repeat constructor]|]. destruct IH as [IH1 IH2].
  destruct Ho as [-> | ->]; cbn [app c_run c_step c_forward c_show fmap list_fmap]; rewrite IH1; (split; [done|]); by constructor.
Qed.

Lemma parent_prop os (rs : outs) k q : returns c (walk_run hd (os ++ [WGet])) (rs ++ [WVisit (Some (k, q))]) ->
  exists p i x, is_node c hd it q (p ++ [i], x) /\
  ((p = [] /\ returns c (walk_run hd (os ++ [WGetParent])) (rs ++ [WNode None]) /\
    returns c (walk_run hd (os ++ [WToParent; WGet])) (rs ++ [WVisit None; WVisit None])) \/
   (p <> [] /\ exists q' y, is_node c hd it q' (p, y) /\ kids y !! i = Some x /\
    returns c (walk_run hd (os ++ [WGetParent])) (rs ++ [WNode (Some q')]) /\
    returns c (walk_run hd (os ++ [WToParent])) (rs ++ [WVisit (Some (VEnd, q'))]) /\
    continues c hd it (os ++ [WToParent]) (rs ++ [WVisit (Some (VEnd, q'))]) (VEnd, p, y))).
Proof.
  intros H. apply at_visit in H as (srs & p & i & b & x & E & HF & Hv & Hs & Hn & Hk). exists p, i, x. split; [done|].
  destruct (decide (p = [])) as [->|Hp].
  - left. split; [done|]. split.
    + eapply walk_more_iff; [done|done|]. eexists _, _. split; [done|]. repeat constructor.
    + eapply walk_more_iff; [done|done|]. eexists _, _. split; [done|]. repeat constructor.
  - right. split; [done|]. destruct (exists_last Hp) as (p' & j & ->).
    pose proof (valid_parent _ _ Hv) as Hvp. cbn [c_parent] in Hvp. rewrite c_up_snoc in Hvp. destruct (valid_show _ _ _ _ Hvp) as (y & Hys & Hyn & _).
    assert (Hst : c_step fs (At (p' ++ [j]) i b) WToParent = Some (WVisit (Some (VEnd, p' ++ [j], y)), At p' j false)).
    { cbn [c_step c_parent]. rewrite c_up_snoc, Hys. done. }
    destruct (one_more os rs srs _ WToParent p' j false VEnd y E HF Hst Hys) as (q' & Hq' & Hret & Hcont).
    exists q', y. split; [done|]. split.
    { destruct Hv as (ts & x' & H1 & H2 & _). destruct Hvp as (us & y' & H3 & H4 & _). cbn [c_show] in Hs, Hys. rewrite H1, H2 in Hs. rewrite H3, H4 in Hys.
      injection Hs as _ ->. injection Hys as ->. rewrite sibs_snoc, H3, H4 in H1. by injection H1 as ->. }
    split; [|done]. eapply walk_more_iff; [done|done|]. exists [WNode (Some (p' ++ [j], y))], (At (p' ++ [j]) i b). split.
    + cbn [c_run c_step c_parent]. rewrite c_up_snoc, Hyn. done.
    + constructor; [exact Hq'|constructor].
Qed.

Lemma goto_show p i ts x : sibs fs p = Some ts -> ts !! i = Some x -> c_goto fs p i = At p i true /\ c_show fs (At p i true) = Some (kind_of x true, p ++ [i], x).
Proof.
  intros Hs Hx. unfold c_goto. cbn [c_show]. rewrite Hs, Hx. split; [|done]. rewrite decide_True; [done|]. by eapply lookup_lt_Some.
Qed.
Lemma goto_none p i ts : sibs fs p = Some ts -> ts !! i = None -> c_goto fs p i = Off p.
Proof. intros Hs Hx. unfold c_goto. rewrite Hs. rewrite decide_False; [done|]. apply lookup_ge_None in Hx. lia. Qed.
Lemma child_prop os (rs : outs) k q n : returns c (walk_run hd (os ++ [WGet])) (rs ++ [WVisit (Some (k, q))]) ->
  exists p x, is_node c hd it q (p, x) /\
  match kids x !! n with
  | Some y => exists q', is_node c hd it q' (p ++ [n], y) /\
      returns c (walk_run hd (os ++ [WToChild n])) (rs ++ [WVisit (Some (first_visit y, q'))]) /\
      continues c hd it (os ++ [WToChild n]) (rs ++ [WVisit (Some (first_visit y, q'))]) (first_visit y, p ++ [n], y)
  | None => returns c (walk_run hd (os ++ [WToChild n])) (rs ++ [WVisit None])
  end.
Proof.
  intros H. apply at_visit in H as (srs & p & i & b & x & E & HF & Hv & Hs & Hn & Hk). exists (p ++ [i]), x. split; [done|].
  destruct Hv as (ts & x' & H1 & H2 & H3). assert (x' = x) as -> by (cbn [c_show] in Hs; rewrite H1, H2 in Hs; by injection Hs).
  assert (Hk' : sibs fs (p ++ [i]) = Some (kids x)) by (by rewrite sibs_snoc, H1, H2).
  destruct (kids x !! n) as [y|] eqn:Hy.
  - destruct (goto_show _ _ _ _ Hk' Hy) as [Hg Hsh].
    eapply one_more; [done|done| |exact Hsh]. cbn [c_step]. rewrite Hk'. destruct (kids x) as [|z zs] eqn:Hkx; [done|].
    rewrite Hg, Hsh. done.
  - destruct (kids x) as [|z zs] eqn:Hkx.
    + eapply one_none; [done|done|]. cbn [c_step]. rewrite Hk'. done.
    + eapply one_none; [done|done|]. cbn [c_step]. rewrite Hk'. rewrite (goto_none _ _ _ Hk' Hy). done.
Qed.
Lemma sib_prop os (rs : outs) k q n : returns c (walk_run hd (os ++ [WGet])) (rs ++ [WVisit (Some (k, q))]) ->
  exists p i x ts, is_node c hd it q (p ++ [i], x) /\ sibs fs p = Some ts /\ ts !! i = Some x /\
  match ts !! (i + n) with
  | Some y => exists q', is_node c hd it q' (p ++ [i + n], y) /\
      returns c (walk_run hd (os ++ [WToSib n])) (rs ++ [WVisit (Some (first_visit y, q'))]) /\
      continues c hd it (os ++ [WToSib n]) (rs ++ [WVisit (Some (first_visit y, q'))]) (first_visit y, p ++ [i + n], y)
  | None => returns c (walk_run hd (os ++ [WToSib n])) (rs ++ [WVisit None])
  end.
Proof.
  intros H. apply at_visit in H as (srs & p & i & b & x & E & HF & Hv & Hs & Hn & Hk). 
  destruct Hv as (ts & x' & H1 & H2 & H3). assert (x' = x) as -> by (cbn [c_show] in Hs; rewrite H1, H2 in Hs; by injection Hs).
  exists p, i, x, ts. split; [done|]. split; [done|]. split; [done|].
  destruct (ts !! (i + n)) as [y|] eqn:Hy.
  - destruct (goto_show _ _ _ _ H1 Hy) as [Hg Hsh].
    eapply one_more; [done|done| |exact Hsh]. cbn [c_step]. rewrite Hg, Hsh. done.
  - eapply one_none; [done|done|]. cbn [c_step]. rewrite (goto_none _ _ _ H1 Hy). done.
Qed.

Lemma cons_iff o cu os' : c_step fs cu WRevisit = Some (WUnit, o) ->
  forall rs', (exists s cu', c_run fs cu (WRevisit :: os') = Some (s, cu') /\ Forall2 R (WUnit :: rs') s) <-> (exists s cu', c_run fs o os' = Some (s, cu') /\ Forall2 R rs' s).
Proof.
  intros Hst rs'. cbn [c_run]. rewrite Hst. split.
  - intros (s & cu' & E & HF). destruct (c_run fs o os') as [[s' cu2]|]; [|done]. injection E as <- <-. inversion HF; subst. eauto.
  - intros (s & cu' & -> & HF). eexists _, _. split; [done|]. by constructor.
Qed.
Lemma revisit_same_prop os (rs : outs) k q : returns c (walk_run hd (os ++ [WGet])) (rs ++ [WVisit (Some (k, q))]) -> k <> VEnd ->
  forall os', (forall rs', returns c (walk_run hd (os ++ WRevisit :: os')) (rs ++ WUnit :: rs') <-> returns c (walk_run hd (os ++ os')) (rs ++ rs')) /\
    (walk_run hd (os ++ WRevisit :: os') (c_mem c) = Err EPanic <-> walk_run hd (os ++ os') (c_mem c) = Err EPanic).
Proof.
  intros H Hne os'. apply at_visit in H as (srs & p & i & b & x & E & HF & Hv & Hs & Hn & Hk). destruct b; [|by rewrite Hk in Hne]. split.
  - intros rs'. rewrite (walk_more_iff _ _ _ _ _ _ E HF), (walk_more_iff _ _ _ _ _ _ E HF). by apply cons_iff.
  - rewrite !(walk_more_panic _ _ _ _ E). cbn [c_run c_step]. by destruct (c_run fs _ os') as [[? ?]|].
Qed.
Lemma revisit_end_prop os (rs : outs) q : returns c (walk_run hd (os ++ [WGet])) (rs ++ [WVisit (Some (VEnd, q))]) ->
  returns c (walk_run hd (os ++ [WRevisit; WGet])) (rs ++ [WUnit; WVisit (Some (VBegin, q))]) /\
  exists p x, is_node c hd it q (p, x) /\ continues c hd it (os ++ [WRevisit]) (rs ++ [WUnit]) (VBegin, p, x).
Proof.
  intros H. apply at_visit in H as (srs & p & i & b & x & E & HF & Hv & Hs & Hn & Hk).
  assert (b = false) as -> by (destruct b; [|done]; unfold kind_of in Hk; by destruct (kids x)).
  destruct (valid_show _ _ _ _ Hv) as (x' & Hs' & _ & Hkx). rewrite Hs in Hs'. injection Hs' as <-. specialize (Hkx eq_refl).
  assert (Hsh : c_show fs (At p i true) = Some (VBegin, p ++ [i], x)).
  { cbn [c_show] in *. destruct (sibs fs p) as [ts|]; [|done]. destruct (ts !! i) as [z|]; [|done]. injection Hs as ->. unfold kind_of. by destruct (kids x). }
  split.
  - eapply walk_more_iff; [done|done|]. exists [WUnit; WVisit (Some (VBegin, p ++ [i], x))], (At p i true). cbn [c_run c_step]. rewrite Hsh. split; [done|]. constructor; [done|]. constructor; [split; [done|exact Hn]|constructor].
  - exists (p ++ [i]), x. split; [done|]. apply (go_on _ _ (srs ++ [WUnit]) _ _ true); [by rewrite c_run_app, E|apply Forall2_app; [done|by repeat constructor]|exact Hsh].
Qed.
Lemma revisit_over_prop os (rs : outs) : returns c (walk_run hd (os ++ [WGet])) (rs ++ [WVisit None]) ->
  forall os', (forall rs', returns c (walk_run hd (os ++ WRevisit :: os')) (rs ++ WUnit :: rs') <-> returns c (walk_run hd os') rs') /\
    (walk_run hd (os ++ WRevisit :: os') (c_mem c) = Err EPanic <-> walk_run hd os' (c_mem c) = Err EPanic).
Proof.
  intros H os'. apply at_end in H as (srs & E & HF). split.
  - intros rs'. rewrite (walk_more_iff _ _ _ _ _ _ E HF), walk_iff. by apply cons_iff.
  - rewrite (walk_more_panic _ _ _ _ E), walk_panic. cbn [c_run c_step]. fold (c_start fs). by destruct (c_run fs _ os') as [[? ?]|].
Qed.

Lemma stray_run os : forall cu srs cu' b (rs : outs), c_run fs cu os = Some (srs, cu') -> Forall2 R rs srs -> (b = false -> match cu with Off _ => False | _ => True end) ->
  astray b os rs = false -> match cu' with Off _ => False | _ => True end.
Proof.
  induction os as [|o os IH]; intros cu srs cu' b rs E HF Hb Ha.
  - injection E as <- <-. inversion HF; subst. by apply Hb.
  - cbn [c_run] in E. destruct (c_step fs cu o) as [[r cu1]|] eqn:Es; [|done]. destruct (c_run fs cu1 os) as [[srs1 cu2]|] eqn:Er; [|done].
    injection E as <- <-. inversion HF as [|a ? l ? Ha1 Hl]; subst. cbn [astray] in Ha. eapply IH; [exact Er|exact Hl| |exact Ha].
    assert (Hup : forall p, match c_up p with Off _ => False | _ => True end) by (intros p; unfold c_up; by destruct (split_last p) as [[? ?]|]).
    assert (Hrt : forall p i, match c_right fs p i with Off _ => False | _ => True end).
    { intros p i. unfold c_right. destruct (sibs fs p) as [ts|]; [|done]. destruct (decide _); [done|apply Hup]. }
    assert (Hfw : match c_forward fs cu with Off _ => False | _ => True end).
    { destruct cu as [p i []|p|]; cbn [c_forward]; first [apply Hrt|apply Hup|done|idtac]. destruct (sibs fs (p ++ [i])) as [[|? ?]|]; first [apply Hrt|done]. }
    assert (Hpa : match c_parent cu with Off _ => False | _ => True end) by (destruct cu as [p i bb|p|]; cbn [c_parent]; first [apply Hup|done]).
    assert (Hgo : forall p n v, WVisit (c_show fs (c_goto fs p n)) = v -> same_out c hd it a v -> (match a with WVisit None => true | _ => false end) = false ->
              match c_goto fs p n with Off _ => False | _ => True end).
    { intros p n v <- Hav Hano. destruct (c_goto fs p n) as [p' i' b'|p'|]; [done| |done]. cbn [c_show] in Hav. destruct a as [[]|[]|]; done. }
    destruct o; cbn [c_step] in Es; intros Hbf.
    + destruct cu; try done; by simplify_eq.
    + by simplify_eq.
    + by simplify_eq.
    + by simplify_eq.
    + simplify_eq. by apply Hb.
    + destruct cu as [p i bb|p|]; [|done|by simplify_eq]. destruct (sibs fs (p ++ [i])) as [[|? ?]|]; injection Es as <- <-; try done. by eapply Hgo.
    + destruct cu as [p i bb|p|]; [|done|by simplify_eq]. injection Es as <- <-. by eapply Hgo.
    + destruct cu as [p i bb|p|]; [|done|]; injection Es as <- <-; [done|]. by destruct fs.
Qed.
Lemma get_prop os (rs : outs) : returns c (walk_run hd os) rs -> astray false os rs = false ->
  exists o, returns c (walk_run hd (os ++ [WGet])) (rs ++ [WVisit o]).
Proof.
  intros H Ha. apply walk_iff in H as (srs & cu & E & HF).
  assert (Hn : match cu with Off _ => False | _ => True end).
  { eapply stray_run; [exact E|exact HF| |exact Ha]. by destruct fs. }
  assert (Hst : c_step fs cu WGet = Some (WVisit (c_show fs cu), cu)) by (by destruct cu).
  assert (Hrun : c_run fs cu [WGet] = Some ([WVisit (c_show fs cu)], cu)) by (cbn [c_run]; by rewrite Hst).
  destruct (walk_more _ _ _ _ _ _ _ E HF Hrun) as (rs' & HF' & Hw). inversion HF' as [|r' ? l ? Hr1 Hnil]; subst. inversion Hnil; subst.
  destruct r' as [o|[]|]; try done. by exists o.
Qed.
Lemma session_prop os (rs : outs) : returns c (walk_run hd os) rs <-> returns c (walk_session hd os) (rs, hd).
Proof.
  unfold returns, walk_run, walk_session, twalk_from, twalk_into, bind. destruct (walk_from hd (c_mem c)) as [w m|]; [|split; congruence]. cbn [ret tw_walk tw_tree].
  unfold ret. destruct (w_run w os m) as [[r w'] m'|]; [|split; congruence]. cbn [fst snd]. split; intros [= -> ->]; done.
Qed.
Lemma session_back os (rs : outs) : (exists m', walk_run hd os (c_mem c) = Ok rs m') -> walk_session hd os (c_mem c) = Ok (rs, hd) (c_mem c).
Proof.
  intros [m' H]. pose proof (walk_refines c env Hr Hc h hd it Hh Hhd os) as Hw. rewrite H in Hw.
  destruct (c_run fs (c_start fs) os) as [[srs cu]|]; [|done]. destruct Hw as (rs' & [= -> ->] & _). by apply session_prop.
Qed.
Lemma off_panics os : (exists srs cu, c_run fs (c_start fs) os = Some (srs, cu)) -> c_run fs (c_start fs) (os ++ [WGet]) = None ->
  exists (c : cst A) (env : gmap nat (item A)) (h : nat) (hd : handle) (it : item A) (os : list wop),
  reachable c /\ contents c env /\ env !! h = Some it /\ c_env c !! h = Some hd /\
  (exists rs, returns c (walk_run hd os) rs) /\ walk_run hd (os ++ [WGet]) (c_mem c) = Err EPanic.
Proof.
  intros (srs & cu & E) Hp. exists c, env, h, hd, it, os. split; [done|]. split; [done|]. split; [done|]. split; [done|]. split.
  - pose proof (walk_refines c env Hr Hc h hd it Hh Hhd os) as Hw. rewrite E in Hw. destruct Hw as (rs & Hw & _). by exists rs.
  - by apply walk_panic.
Qed.

(** * Exactly when the walk panics *)
Lemma c_up_not_off p p' : c_up p <> Off p'.
Proof. unfold c_up. by destruct (split_last p) as [[? ?]|]. Qed.
Lemma c_forward_not_off cu p' : c_forward fs cu <> Off p'.
Proof.
  assert (Hrt : forall p i, c_right fs p i <> Off p').
  { intros p i. unfold c_right. destruct (sibs fs p); [|done]. destruct (decide _); [done|apply c_up_not_off]. }
  destruct cu as [p i []|p|]; cbn [c_forward]; [|apply Hrt|apply c_up_not_off|done]. destruct (sibs fs (p ++ [i])) as [[|? ?]|]; [apply Hrt|done|apply Hrt].
Qed.
Lemma c_parent_not_off cu p' : c_parent cu <> Off p'.
Proof. destruct cu; cbn [c_parent]; [apply c_up_not_off|apply c_up_not_off|done]. Qed.
(** a step from elsewhere that ends off the siblings *)
Lemma goes_off cu o r p' : valid fs cu -> c_step fs cu o = Some (r, Off p') ->
  (exists p, cu = Off p /\ o = WGetParent /\ p = p') \/
  (exists p i b x, cu = At p i b /\ c_show fs cu = Some (kind_of x b, p ++ [i], x) /\ r = WVisit None /\ exists n, o = WToSib n \/ o = WToChild n /\ kind_of x b <> VLeaf).
Proof.
  intros Hv Hs. destruct o as [| | | | |n|n|]; cbn [c_step] in Hs.
  - by destruct cu.
  - injection Hs as _ Hs. by apply c_forward_not_off in Hs.
  - injection Hs as _ Hs. by apply c_forward_not_off in Hs.
  - injection Hs as _ Hs. by apply c_parent_not_off in Hs.
  - injection Hs as _ ->. left. eauto.
  - destruct cu as [p i b|p|]; [|done|done]. right. destruct (valid_show _ _ _ _ Hv) as (x & Hsh & _ & Hb). destruct Hv as (ts & y & H1 & H2 & _).
    cbn [c_show] in Hsh. rewrite H1, H2 in Hsh. injection Hsh as _ ->. rewrite sibs_snoc, H1, H2 in Hs. destruct (kids x) as [|z zs] eqn:Hk; [done|]. injection Hs as <- Hg.
    exists p, i, b, x. split; [done|]. split; [cbn [c_show]; by rewrite H1, H2|]. split; [by rewrite Hg|]. exists n. right. split; [done|]. unfold kind_of. rewrite Hk. by destruct b.
  - destruct cu as [p i b|p|]; [|done|done]. right. destruct (valid_show _ _ _ _ Hv) as (x & Hsh & _ & Hb). injection Hs as <- Hg. exists p, i, b, x. split; [done|]. split; [done|].
    split; [by rewrite Hg|]. exists n. by left.
  - destruct cu as [p i b|p|]; [done|done|]. injection Hs as _ Hs. by destruct fs.
Qed.
(** the converse *)
Lemma step_off p i b x o cu' n : valid fs (At p i b) -> c_show fs (At p i b) = Some (kind_of x b, p ++ [i], x) -> c_step fs (At p i b) o = Some (WVisit None, cu') ->
  o = WToSib n \/ o = WToChild n /\ kind_of x b <> VLeaf -> exists p', cu' = Off p'.
Proof.
  intros (ts & y & H1 & H2 & Hb) Hsh Hs Ho. cbn [c_show] in Hsh. rewrite H1, H2 in Hsh. injection Hsh as _ ->.
  assert (Hg : forall p n ts, sibs fs p = Some ts -> c_show fs (c_goto fs p n) = None -> exists p', c_goto fs p n = Off p').
  { clear. intros p n ts H1 H2. unfold c_goto in *. rewrite H1 in *. destruct (decide (n < length ts)) as [Hlt|]; [|eauto]. apply lookup_lt_is_Some in Hlt as [z Hz]. cbn [c_show] in H2. by rewrite H1, Hz in H2. }
  destruct Ho as [->|[-> Hk]]; cbn [c_step] in Hs.
  - injection Hs as Hs <-. by eapply Hg.
  - rewrite sibs_snoc, H1, H2 in Hs. destruct (kids x) as [|z zs] eqn:Hkx.
    + exfalso. unfold kind_of in Hk. rewrite Hkx in Hk. destruct b; [done|]. by apply Hb.
    + injection Hs as Hs <-. eapply Hg; [|done]. by rewrite sibs_snoc, H1, H2.
Qed.
Lemma c_run_length os : forall cu srs cu', c_run fs cu os = Some (srs, cu') -> length srs = length os.
Proof.
  induction os as [|o os IH]; intros cu srs cu' E; cbn [c_run] in E; [by injection E as <- _|]. destruct (c_step fs cu o) as [[r c1]|]; [|done].
  destruct (c_run fs c1 os) as [[s1 c2]|] eqn:E1; [|done]. injection E as <- _. cbn. f_equal. by eapply IH.
Qed.
Lemma off_iff os (rs : outs) srs cu : c_run fs (c_start fs) os = Some (srs, cu) -> Forall2 R rs srs -> (exists p, cu = Off p) <-> led_off c hd os rs.
Proof.
  intros E HF. split.
  - intros [p ->]. revert rs srs p E HF. induction os as [|o os IH] using rev_ind; intros rs srs p E HF.
    { cbn in E. injection E as _ E. by destruct fs. }
    rewrite c_run_app in E. destruct (c_run fs (c_start fs) os) as [[srs1 cu1]|] eqn:E1; [|done]. cbn [c_run] in E. destruct (c_step fs cu1 o) as [[r cu2]|] eqn:Es; [|done].
    injection E as <- ->. apply Forall2_app_inv_r in HF as (rs1 & rs2 & HF1 & HF2 & ->). inversion HF2 as [|r' ? l ? Hr' Hnil]; subst. inversion Hnil; subst.
    assert (length rs1 = length os) as Hlen. { apply Forall2_length in HF1. rewrite HF1. eapply c_run_length; eauto. }
    destruct (goes_off _ _ _ _ (valid_run _ _ _ _ _ (valid_start _) E1) Es) as [(p1 & -> & -> & ->)|(p1 & i & b & x & -> & Hsh & -> & n & Ho)].
    + destruct (IH _ _ _ eq_refl HF1) as (os1 & o & m & rs0 & k & q & -> & H1 & H2 & H3). exists os1, o, (S m), rs0, k, q. split_and!; [|done|done|].
      * rewrite <- app_assoc. cbn. by rewrite <- replicate_cons_app.
      * rewrite lookup_app_l; [done|]. apply lookup_lt_is_Some. eauto.
    + assert (Hg : c_run fs (At p1 i b) [WGet] = Some ([WVisit (c_show fs (At p1 i b))], At p1 i b)) by done.
      destruct (walk_more _ _ _ _ _ _ _ E1 HF1 Hg) as (rs' & HF' & Hw). inversion HF' as [|r1 ? l ? Hr1 Hnil1]; subst. inversion Hnil1; subst. change (R r1 (WVisit (c_show fs (At p1 i b)))) in Hr1. rewrite Hsh in Hr1.
      destruct r1 as [[[k q]|]|?|]; try done. destruct Hr1 as [Hk _]. cbn in Hk. subst k. destruct r' as [[v|]|?|]; try done.
      exists os, o, 0, rs1, (kind_of x b), q. split_and!; [done|done|by exists n|]. rewrite lookup_app_r by lia. by rewrite Hlen, Nat.sub_diag.
  - intros (os1 & o & m & rs1 & k & q & -> & Hw & [n Ho] & Hl). destruct (at_visit _ _ _ _ Hw) as (srs1 & p & i & b & x & E1 & HF1 & Hv & Hsh & _ & ->).
    rewrite c_run_app, E1 in E. cbn [c_run] in E. destruct (c_step fs (At p i b) o) as [[r cu1]|] eqn:Es; [|done].
    destruct (c_run fs cu1 (replicate m WGetParent)) as [[srs2 cu2]|] eqn:E2; [|done]. injection E as <- <-.
    assert (length srs1 = length os1) as Hlen by (eapply c_run_length; eauto).
    assert (r = WVisit None) as ->. { eapply Forall2_lookup_l in HF as (r0 & Hr0 & HR0); [|exact Hl]. rewrite lookup_app_r in Hr0 by lia. rewrite Hlen, Nat.sub_diag in Hr0. injection Hr0 as <-. by destruct r as [[|]|?|]. }
    destruct (step_off _ _ _ _ _ _ _ Hv Hsh Es Ho) as [p' ->]. exists p'. clear -E2. revert srs2 E2. induction m as [|m IH]; intros srs2 E2; cbn in E2; [by injection E2|].
    destruct (c_run fs (Off p') (replicate m WGetParent)) as [[s2 c2]|]; [|done]. injection E2 as _ <-. by eapply IH.
Qed.
Lemma panics_iff os (rs : outs) o : returns c (walk_run hd os) rs ->
  (walk_run hd (os ++ [o]) (c_mem c) = Err EPanic <-> looks_at_node o = true /\ led_off c hd os rs) /\
  (walk_run hd (os ++ [o]) (c_mem c) = Err EPanic \/ exists r, returns c (walk_run hd (os ++ [o])) (rs ++ [r])).
Proof.
  intros H. apply walk_iff in H as (srs & cu & E & HF). rewrite <- (off_iff _ _ _ _ E HF). rewrite (walk_more_panic _ _ _ _ E). split.
  - cbn [c_run]. assert (c_step fs cu o = None <-> looks_at_node o = true /\ exists p, cu = Off p) as <-.
    { destruct o, cu; cbn; split; try done; try (by intros [? [? ?]]); try (by eauto). all: destruct (sibs _ _) as [[|? ?]|]; done. }
    destruct (c_step fs cu o) as [[? ?]|]; done.
  - destruct (c_run fs cu [o]) as [[srs' cu']|] eqn:E2; [|by left]. right. destruct (walk_more _ _ _ _ _ _ _ E HF E2) as (rs' & HF' & Hw).
    cbn [c_run] in E2. destruct (c_step fs cu o) as [[r c2]|]; [|done]. injection E2 as <- <-. inversion HF' as [|r' ? l ? Hr1 Hnil]; subst. inversion Hnil; subst. by exists r'.
Qed.
End client.
