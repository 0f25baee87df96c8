(** ApiProofs.v — [Tree]'s and [Forest]'s own methods refine the specification: each is one operation of the client. *)
From stdpp Require Import base gmap list.
From Verif Require Import Spec ClientSpec Machine NodeModel Sep Rep NodeProofs Inv BfsModel ClientModel Abs ClientProofs ClientRef ClientStep ClientRead ClientProps Reach ApiSpec ApiModel.
From Coq Require Import Lia.

Section proofs.
Context {A : Type}.
Implicit Types (c : cst A) (env : gmap nat (item A)) (it : item A) (ts : list (tree A)).

Definition fits (hd : handle) it : Prop := match hd, it with HT _, ITree _ | HF _, IForest _ => True | _, _ => False end.
Lemma contents_some c env h it : contents c env -> env !! h = Some it -> exists hd, c_env c !! h = Some hd /\ fits hd it.
Proof.
  intros H Hh. specialize (H h). destruct (c_env c !! h) as [hd|]; [|congruence]. exists hd. split; [done|].
  destruct H as (it' & Hr & He). rewrite Hh in He. injection He as <-.
  destruct hd as [p|p], it as [t|ts]; try done; exfalso; unfold read_item, bind, fuel, ret in Hr.
  - cbn [gets] in Hr. repeat case_match; simplify_eq.
  - cbn [gets] in Hr. repeat case_match; simplify_eq.
Qed.
Lemma contents_none c env h : contents c env -> env !! h = None -> c_env c !! h = None.
Proof. intros H Hh. specialize (H h). destruct (c_env c !! h); [|done]. destruct H as (? & _ & ?). congruence. Qed.

(** the operation on paths that the method is, in a state with memory size [n] *)
Definition op_of (n : nat) it (h : nat) (m : method A) : op A :=
  match m with
  | MPush e y => OPush e h [] y
  | MPop e x => OPop e h [] x
  | MConcat e y => OConcat e h [] y
  | MNoChild => ONoChild h []
  | MDegree => ODegree h []
  | MCount => OCount h []
  | MIter => OIter h []
  | MEnd e => OEnd e h []
  | MEndMut Front f => OModify h [0] f
  | MEndMut Back f => OModify h [length (tops it) - 1] f
  | MIterMut g => OEach h [] ((fun i => [AMod i (g i)]) <$> seq 0 n)
  | MRoot => OData h []
  | MRootMut f => OModify h [] f
  | MAbandon x => OAbandon h x
  | MClone x => match it with ITree _ => OClone h [] x | IForest _ => OCloneForest h [] x end
  | MBfs => match it with ITree _ => OBfs h [] | IForest _ => OBfsChildren h [] end
  | MBfsMut g => match it with ITree _ => OBfsMut h [] g | IForest _ => OBfsChildrenMut h [] g end
  | MBfsChildren => OBfsChildren h []
  | MBfsChildrenMut g => OBfsChildrenMut h [] g
  end.

(** the loop over [iter_mut()] *)
Lemma write_loop_each (g : nat -> A -> A) (h : nat) (env : gmap nat handle) : forall m f n (ci : citer) (cs : list (option ptr)) (s : mem A), f <= m -> length cs = n ->
  write_loop f n ci g s = match each_loop f h ci cs ((fun i => [AMod i (g i)]) <$> seq n m) env s with Ok r s' => Ok r.1 s' | Err e => Err e end /\
  forall r s', each_loop f h ci cs ((fun i => [AMod i (g i)]) <$> seq n m) env s = Ok r s' -> r.2 = env.
Proof.
  induction m as [|m IH]; intros f n ci cs s Hf Hn; (destruct f as [|f]; [done|]); [lia|].
  cbn [write_loop each_loop seq fmap list_fmap tail head]. unfold bind. destruct (ci_next ci s) as [r s1|e]; [|done].
  destruct (r.1) as [p|].
  2:{ unfold bind, ret. destruct (ci_next r.2 s1); [|done]. split; [done|]. intros ? ? [=<- <-]. done. }
  unfold bind. destruct (data p s1) as [a s2|e]; [|done].
  assert (each_acts_c h (cs ++ [Some p]) [AMod n (g n)] env s2 = match modify_data p (g n) s2 with Ok _ s3 => Ok (env, cs ++ [Some p]) s3 | Err e => Err e end) as EA.
  { cbn [each_acts_c each_act_c]. unfold bind.
    replace ((cs ++ [Some p]) !! n) with (Some (Some p)) by (subst n; by rewrite lookup_app_r, Nat.sub_diag by lia).
    destruct (modify_data p (g n) s2); done. }
  cbn [default from_option id]. rewrite EA.
  destruct (modify_data p (g n) s2) as [[] s3|e]; [|done]. cbn [fst snd].
  destruct (IH f (S n) r.2 (cs ++ [Some p]) s3) as [E1 E2]; [lia|rewrite app_length; simpl; lia|].
  rewrite E1. cbn [fst snd].
  destruct (each_loop f h r.2 (cs ++ [Some p]) _ env s3) as [r3 s4|e] eqn:E; [|done].
  unfold ret. split; [done|]. intros ? ? [=<- <-]. exact (E2 _ _ eq_refl).
Qed.

Lemma each_child_mod (g : nat -> A -> A) (h : nat) env : forall m ts n gs, length ts <= m -> length gs = n ->
  each_child h ((fun i => [AMod i (g i)]) <$> seq n m) ts (env, gs) = (env, gs ++ imap (fun i t => ([], Some (retop (g (n + i)) t), [])) ts).
Proof.
  intros m ts; revert m. induction ts as [|t ts IH]; intros m n gs Hm Hn; [cbn; by rewrite app_nil_r|].
  destruct m as [|m]; [cbn in Hm; lia|]. cbn [each_child seq fmap list_fmap tail head default from_option id each_acts each_act fst snd].
  replace ((gs ++ [([], Some t, [])]) !! n) with (Some (([], Some t, []) : list (tree A) * option (tree A) * list (tree A)))
    by (subst n; by rewrite lookup_app_r, Nat.sub_diag by lia).
  replace (<[n := ([], Some (Tr (g n (root_of t)) (kids t)), [])]> (gs ++ [([], Some t, [])]))
    with (gs ++ [([], Some (Tr (g n (root_of t)) (kids t)), [])]).
  2:{ subst n. rewrite insert_app_r_alt, Nat.sub_diag by lia. done. }
  etransitivity; [eapply (IH m (S n)); [cbn in Hm; lia|rewrite app_length; simpl; lia]|].
  rewrite imap_cons, <-app_assoc. cbn [app]. f_equal. f_equal. f_equal.
  - rewrite Nat.add_0_r. by destruct t.
  - apply imap_ext. intros i u _. cbn. by rewrite Nat.add_succ_r.
Qed.
Lemma flat_seg (f : nat -> tree A -> tree A) ts : flat_map seg_trees (imap (fun i t => ([], Some (f i t), [])) ts) = imap f ts.
Proof. revert f. induction ts as [|t ts IH]; intros f; [done|]. rewrite !imap_cons. cbn. f_equal. exact (IH (f ∘ S)). Qed.

Lemma kids_tops it : kids_at it [] = Some (tops it).
Proof. by destruct it as [[]|]. Qed.
Lemma set_kids_tops it ts : set_kids it [] ts = with_tops it ts.
Proof. by destruct it as [[]|]. Qed.

Lemma with_tops_same it : with_tops it (tops it) = it.
Proof. by destruct it as [[]|]. Qed.

Definition plain (m : method A) : Prop := match m with MEndMut _ _ => False | _ => True end.
Lemma sstep_op env h it m r env' n log : env !! h = Some it -> api_spec env h m = Some (r, env') -> plain m -> length (tops it) <= n ->
  sstep (SSt env log) (op_of n it h m) = Some (r, SSt env' log).
Proof.
  intros Hh H Hp Hn. unfold api_spec in H. rewrite Hh in H. destruct m; try done; cbn [op_of].
  - destruct (env !! y) as [[t|]|] eqn:Hy; try done. case_decide as Hyh; [done|]. injection H as <- <-.
    cbn [sstep s_env s_log]. rewrite Hy, lookup_delete_ne, Hh, kids_tops by done. unfold put_kids. rewrite set_kids_tops. by destruct e.
  - destruct (env !! x) eqn:Hx; [done|]. cbn [sstep s_env s_log]. rewrite Hh, Hx, kids_tops. unfold put_kids, end_of, without in *. rewrite set_kids_tops.
    destruct e; [destruct (head (tops it))|destruct (last (tops it))]; injection H as <- <-; done.
  - destruct (env !! y) as [[|fs]|] eqn:Hy; try done. case_decide as Hyh; [done|]. injection H as <- <-.
    cbn [sstep s_env s_log]. rewrite Hy, lookup_delete_ne, Hh, kids_tops by done. unfold put_kids. rewrite set_kids_tops. by destruct e.
  - injection H as <- <-. cbn [sstep s_env s_log]. rewrite Hh, kids_tops. by destruct (tops it).
  - injection H as <- <-. cbn [sstep s_env s_log]. by rewrite Hh, kids_tops.
  - injection H as <- <-. cbn [sstep s_env s_log]. rewrite Hh, kids_tops. by destruct it as [[]|].
  - injection H as <- <-. cbn [sstep s_env s_log]. by rewrite Hh, kids_tops.
  - injection H as <- <-. cbn [sstep s_env s_log]. rewrite Hh, kids_tops. by destruct e.
  - injection H as <- <-. cbn [sstep s_env s_log]. rewrite Hh, kids_tops, each_child_mod by done. cbn [app]. unfold put_kids.
    rewrite (flat_seg (fun i => retop (g (0 + i)))), set_kids_tops. done.
  - destruct it as [[a ts]|]; [|done]. injection H as <- <-. cbn [sstep s_env s_log]. by rewrite Hh.
  - destruct it as [[a ts]|]; [|done]. injection H as <- <-. cbn [sstep s_env s_log]. by rewrite Hh.
  - destruct it as [[a ts]|]; [|done]. destruct (env !! x) eqn:Hx; [done|]. injection H as <- <-. cbn [sstep s_env s_log]. by rewrite Hh, Hx.
  - destruct (env !! x) eqn:Hx; [done|]. injection H as <- <-. destruct it as [[a ts]|ts]; cbn [sstep s_env s_log]; by rewrite Hh, Hx.
  - injection H as <- <-. destruct it as [[a ts]|ts]; cbn [sstep s_env s_log]; by rewrite Hh.
  - injection H as <- <-. destruct it as [t|ts]; cbn [sstep s_env s_log]; rewrite Hh; [|done]. cbn [node_at subtree]. 
    cbn [set_kids set_data]. unfold set_kids_tree, set_data_tree. cbn [update_at]. destruct t; by destruct (bfs_map g _).
  - destruct it as [[a ts]|]; [|done]. injection H as <- <-. cbn [sstep s_env s_log]. by rewrite Hh.
  - destruct it as [[a ts]|]; [|done]. injection H as <- <-. cbn [sstep s_env s_log]. by rewrite Hh.
Qed.

Lemma step_op c env h it hd m n : contents c env -> env !! h = Some it -> c_env c !! h = Some hd -> fits hd it -> plain m -> is_Some (api_spec env h m) ->
  S (size (m_heap (c_mem c))) <= n -> api_step c h m = step c (op_of n it h m).
Proof.
  intros Hc Hh Hd Hf Hp [[r env'] H] Hn. unfold api_spec in H. rewrite Hh in H. unfold api_step, step. f_equal.
  unfold api_call. rewrite Hd. destruct m; try done; cbn [op_of].
  - destruct (env !! y) as [[t|]|] eqn:Hy; try done. case_decide as Hyh; [done|].
    destruct (contents_some _ _ _ _ Hc Hy) as (hy & Hy' & Hfy). destruct hy as [q|q]; [|done]. cbn [cstep].
    rewrite Hy', lookup_delete_ne, Hd by done. by destruct e, hd.
  - destruct (env !! x) eqn:Hx; [done|]. cbn [cstep]. rewrite Hd, (contents_none _ _ _ Hc Hx). by destruct e, hd.
  - destruct (env !! y) as [[|fs]|] eqn:Hy; try done. case_decide as Hyh; [done|].
    destruct (contents_some _ _ _ _ Hc Hy) as (hy & Hy' & Hfy). destruct hy as [q|q]; [done|]. cbn [cstep].
    rewrite Hy', lookup_delete_ne, Hd by done. by destruct e, hd.
  - cbn [cstep]. unfold with_node. rewrite Hd. by destruct hd.
  - cbn [cstep]. unfold with_node. rewrite Hd. by destruct hd.
  - cbn [cstep]. unfold with_node. rewrite Hd. by destruct hd.
  - cbn [cstep]. unfold with_node. rewrite Hd. 
    destruct hd; cbn [addr resolve]; unfold children, forest_iter, tree_root, forest_root, bind, fuel, ret, gets; destruct (iter p (c_mem c)); try done.
  - cbn [cstep]. unfold with_node. rewrite Hd. by destruct e, hd.
  - cbn [cstep]. unfold with_node. rewrite Hd. 
    assert (forall p, (let! it := iter_mut p in let! f := fuel in let! l := write_loop f 0 it g in ret (REach l.1 l.2.1 l.2.2, c_env c)) (c_mem c) =
       (let! it := iter p in let! f := fuel in
        let! r := each_loop f h it [] ((fun i => [AMod i (g i)]) <$> seq 0 n) (c_env c) in ret (REach r.1.1 r.1.2.1 r.1.2.2, r.2)) (c_mem c)) as E.
    { intros p. unfold bind at 1. change (iter_mut (A:=A) p) with (iter (A:=A) p). unfold bind at 3. destruct (iter (A:=A) p (c_mem c)) as [ci s|e] eqn:Ei; [|done].
      assert (s = c_mem c) as -> by (revert Ei; unfold iter, bind, get; repeat case_match; simplify_eq; unfold ret; congruence).
      unfold fuel, gets, bind. 
      destruct (write_loop_each g h (c_env c) n (S (size (m_heap (c_mem c)))) 0 ci [] (c_mem c) Hn eq_refl) as [-> E2].
      destruct (each_loop _ _ _ _ _ _ _) as [r3 s3|]; [|done]. unfold ret. by rewrite (E2 _ _ eq_refl). }
    destruct hd as [p|p]; unfold tree_iter_mut, forest_iter_mut, tree_root, forest_root; rewrite E; done.
  - destruct it as [[a ts]|]; [|done]. destruct hd; [|done]. cbn [cstep]. unfold with_node. by rewrite Hd.
  - destruct it as [[a ts]|]; [|done]. destruct hd; [|done]. cbn [cstep]. unfold with_node. by rewrite Hd.
  - destruct it as [[a ts]|]; [|done]. destruct hd; [|done]. destruct (env !! x) eqn:Hx; [done|]. cbn [cstep]. by rewrite Hd, (contents_none _ _ _ Hc Hx).
  - destruct (env !! x) eqn:Hx; [done|]. destruct it, hd; try done; cbn [cstep]; rewrite (contents_none _ _ _ Hc Hx); unfold with_node; by rewrite Hd.
  - destruct it, hd; try done; cbn [cstep]; unfold with_node; by rewrite Hd.
  - destruct it, hd; try done; cbn [cstep]; unfold with_node; by rewrite Hd.
  - destruct it as [[a ts]|]; [|done]. destruct hd; [|done]. cbn [cstep]. unfold with_node. by rewrite Hd.
  - destruct it as [[a ts]|]; [|done]. destruct hd; [|done]. cbn [cstep]. unfold with_node. by rewrite Hd.
Qed.

Lemma ends_of c env h it hd : reachable c -> contents c env -> env !! h = Some it -> c_env c !! h = Some hd -> exists cs,
  children (addr hd) (c_mem c) = Ok cs (c_mem c) /\ front (addr hd) (c_mem c) = Ok (head cs) (c_mem c) /\ back (addr hd) (c_mem c) = Ok (last cs) (c_mem c) /\
  length cs = length (tops it).
Proof.
  intros Hr Hc Hh Hd. destruct (reachable_contents _ _ Hr Hc) as (Wm & HR & _). cbn [s_env] in HR.
  pose proof (RE_lookup _ _ _ _ h HR) as H. rewrite Hh in H. destruct H as (t & Ht & Hri & He & Hho). rewrite Hd in He. injection He as ->.
  pose proof (RE_inv _ _ _ _ _ _ HR Ht) as HI. rewrite addr_hof.
  assert (exists p pl v ks, t = AN p pl v ks /\ length ks = length (tops it)) as (p & pl & v & ks & -> & Hl).
  { destruct t as [p pl v ks]. exists p, pl, v, ks. split; [done|]. destruct it as [x|xs].
    - apply RE_hT in Hri as (? & ? & ? & [= -> -> -> ->] & HF). destruct x. exact (Forall2_length _ _ _ HF).
    - apply RE_hF in Hri as (? & ? & ? & [= -> -> -> ->] & HF). exact (Forall2_length _ _ _ HF). }
  exists (aptr <$> ks). change (AN p pl v ks) with (plug [] (AN p pl v ks)) in HI. split_and!.
  - exact (children_at _ _ _ _ _ _ _ _ HI).
  - pose proof (end_at Front _ _ _ _ _ _ _ _ HI) as H. cbn in H. cbn [aptr]. rewrite H. by destruct ks.
  - pose proof (end_at Back _ _ _ _ _ _ _ _ HI) as H. cbn beta iota in H. cbn [aptr]. rewrite H. by rewrite fmap_last.
  - by rewrite fmap_length.
Qed.

Lemma end_index {X} (e : side) (l : list X) : end_of e l = l !! match e with Front => 0 | Back => length l - 1 end.
Proof. destruct e; [by destruct l|]. cbn. rewrite last_lookup. by destruct l; cbn; rewrite ?Nat.sub_0_r. Qed.
Lemma on_end_alter {X} (e : side) (f : X -> X) (l : list X) : on_end e f l = alter f (match e with Front => 0 | Back => length l - 1 end) l.
Proof.
  destruct e; [by destruct l|]. unfold on_end. destruct l as [|x l _] using rev_ind; [done|]. rewrite reverse_snoc, app_length, reverse_cons, reverse_involutive. cbn [length].
  replace (length l + 1 - 1) with (length l + 0) by lia. by rewrite alter_app_r.
Qed.
Lemma set_data_top it i (f : A -> A) t : tops it !! i = Some t -> set_data it [i] (f (root_of t)) = with_tops it (alter (retop f) i (tops it)) /\ node_at it [i] = Some t.
Proof.
  intros H. split.
  - destruct it as [[a ts]|ts]; cbn in *; unfold set_data_tree; cbn; f_equal; [f_equal|]; apply list_eq; intros j;
      (destruct (decide (i = j)) as [<-|Hne]; [rewrite !list_lookup_alter, H; cbn; by destruct t|by rewrite !list_lookup_alter_ne]).
  - destruct it as [[a ts]|ts]; cbn in *; by rewrite H.
Qed.

Lemma end_mut_ok c env h it e f : reachable c -> contents c env -> env !! h = Some it ->
  exists c', api_step c h (MEndMut e f) = Done (RBool (negb (bool_decide (tops it = [])))) c' /\
    contents c' (<[h := with_tops it (on_end e (retop f) (tops it))]> env) /\ m_log (c_mem c') = m_log (c_mem c) /\ reachable c'.
Proof.
  intros Hr Hc Hh. destruct (contents_some _ _ _ _ Hc Hh) as (hd & Hd & Hf). destruct (ends_of _ _ _ _ _ Hr Hc Hh Hd) as (cs & Hcs & Hfr & Hbk & Hl).
  set (i := match e with Front => 0 | Back => length (tops it) - 1 end). rewrite on_end_alter. fold i.
  unfold api_step, api_call. rewrite Hd.
  assert ((match hd with HT p => tree_end_mut e p | HF p => forest_end_mut e p end) (c_mem c) = Ok (cs !! i) (c_mem c)) as Hq.
  { transitivity (match e with Front => front (addr hd) | Back => back (addr hd) end (c_mem c)); [by destruct hd, e|].
    assert (cs !! i = end_of e cs) as -> by (rewrite end_index; unfold i; by rewrite Hl). by destruct e. }
  unfold bind at 1. rewrite Hq. destruct (tops it !! i) as [t|] eqn:Et.
  - destruct (cs !! i) as [q|] eqn:Eq.
    2: { apply lookup_ge_None in Eq. apply lookup_lt_Some in Et. lia. }
    destruct (set_data_top it i f t Et) as [Hs Hn].
    pose proof (step_from c env (OModify h [i] f) Hr Hc) as H. cbn [sstep s_env s_log] in H. rewrite Hh, Hn in H.
    destruct H as (c' & Hstep & Hc' & Hlog & Hr'). rewrite Hs in Hc'. exists c'. split; [|by split_and!].
    rewrite bool_decide_eq_false_2 by (intros E; by rewrite E in Et). cbn [negb].
    revert Hstep. unfold step, cstep, with_node. rewrite Hd. unfold bind. cbn [resolve]. unfold bind. rewrite Hcs, Eq. cbn [resolve ret].
    replace (is_forest_root hd [i]) with false by by destruct hd.
    destruct (modify_data q f (c_mem c)) as [[] s'|]; [|done]. unfold ret. by intros [= <-].
  - assert (tops it = []) as E.
    { apply lookup_ge_None in Et. destruct (tops it); [done|]. unfold i in Et. destruct e; cbn in Et; lia. }
    assert (cs = []) as -> by (rewrite E in Hl; destruct cs; done). cbn [lookup list_lookup]. rewrite E. unfold ret. exists (CSt (c_env c) (c_mem c)).
    rewrite bool_decide_eq_true_2 by done. cbn [negb]. replace (alter (retop f) i []) with (@nil (tree A)) by (by destruct i). split; [done|]. destruct c as [ce cm]. cbn [c_env c_mem].
    split; [|done]. rewrite <-E, with_tops_same. by rewrite insert_id.
Qed.

Theorem api_ok c env h m r env' : reachable c -> contents c env -> api_spec env h m = Some (r, env') ->
  exists c', api_step c h m = Done r c' /\ contents c' env' /\ m_log (c_mem c') = m_log (c_mem c) /\ reachable c'.
Proof.
  intros Hr Hc H. destruct (env !! h) as [it|] eqn:Hh; [|by unfold api_spec in H; rewrite Hh in H].
  assert ((exists e f, m = MEndMut e f) \/ plain m) as [(e & f & ->)|Hp] by (destruct m; cbn; eauto).
  - unfold api_spec in H. rewrite Hh in H. injection H as <- <-. by apply end_mut_ok.
  - destruct (contents_some _ _ _ _ Hc Hh) as (hd & Hd & Hf).
    set (n := S (size (m_heap (c_mem c))) + length (tops it)).
    rewrite (step_op c env h it hd m n) by (done || eauto || (unfold n; lia)).
    pose proof (step_from c env (op_of n it h m) Hr Hc) as Hs.
    rewrite (sstep_op _ _ _ _ _ _ n _ Hh H Hp) in Hs by (unfold n; lia). exact Hs.
Qed.
Theorem api_run_ok ms : forall c env rs env', reachable c -> contents c env -> api_spec_run env ms = Some (rs, env') ->
  exists c', api_run c ms = Done rs c' /\ contents c' env' /\ m_log (c_mem c') = m_log (c_mem c) /\ reachable c'.
Proof.
  induction ms as [|[h m] ms IH]; intros c env rs env' Hr Hc H; cbn [api_spec_run] in H.
  - injection H as <- <-. by exists c.
  - destruct (api_spec env h m) as [[r env1]|] eqn:E; [|done]. destruct (api_spec_run env1 ms) as [[rs1 env2]|] eqn:E2; [|done]. injection H as <- <-.
    destruct (api_ok _ _ _ _ _ _ Hr Hc E) as (c1 & Hs & Hc1 & Hl1 & Hr1). destruct (IH _ _ _ _ Hr1 Hc1 E2) as (c2 & Hs2 & Hc2 & Hl2 & Hr2).
    exists c2. cbn [api_run]. rewrite Hs, Hs2. split_and!; [done..|congruence|done].
Qed.
End proofs.
