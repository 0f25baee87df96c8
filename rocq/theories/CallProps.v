(** CallProps.v — programs with closures that use the library: the statements for PropCall.v. *)
From stdpp Require Import base gmap list.
From Verif Require Import Spec ClientSpec Machine NodeModel BfsModel ClientModel CallSpec CallModel Sep Rep NodeProofs Inv SpecProofs Abs ClientProofs FromBfs BfsBuild BfsIter BfsMut BfsMap
  ClientRef ClientStep ClientRead ClientProps BfsProps PanicProps CallBuild CallProofs CallStep.

Section top.
Context {A H : Type}.

Lemma run_prog_ok {X} (p : prog A H X) :
  match sprog [] ∅ sst0 p with
  | Some (x, σ) => exists c, run_prog p = Done x c /\ @ClientRef.CInv A [] [] c σ
  | None => run_prog p = Fails EPanic
  end.
Proof.
  destruct (@CInv0 A) as (Wm & HR & Hlog). destruct HR as [HI He Hri].
  assert (HS : SEnv [] [] ∅ ∅ (s_env (A:=A) sst0) ∅ Wm ∅).
  { split.
    - exact He.
    - exact Hri.
    - by rewrite fmap_empty.
    - intros h. rewrite !lookup_empty. constructor.
    - exists []. by rewrite map_to_list_empty.
    - intros x Hx. by apply elem_of_nil in Hx.
    - intros h [? Hh]. by rewrite lookup_empty in Hh. }
  pose proof (prog_ok p [] [] [] (c_mem cst0) ∅ ∅ (s_env sst0) ∅ Wm ∅ HS HI) as HG.
  rewrite Hlog in HG. change (SSt (s_env sst0) (s_log sst0)) with (@sst0 A) in HG. unfold run_prog.
  destruct (sprog [] ∅ sst0 p) as [[x σ]|].
  - destruct HG as (env' & s' & Wm' & -> & HS' & HI' & Hl). exists (CSt env' s'). split; [done|]. exists Wm'. split; [|done].
    exact (SEnv_REnv _ _ _ _ _ _ _ _ _ _ HS' HI').
  - by rewrite HG.
Qed.

Theorem prog_refines {X} (p : prog A H X) :
  match sprog [] ∅ sst0 p with
  | Some (x, σ) => exists c, run_prog p = Done x c /\ contents c (s_env σ) /\ m_log (c_mem c) = s_log σ
  | None => run_prog p = Fails EPanic
  end.
Proof.
  pose proof (run_prog_ok p) as HG. destruct (sprog [] ∅ sst0 p) as [[x σ]|]; [|done]. destruct HG as (c & Hc & HC). exists c. split; [done|].
  split; [exact (CInv_contents c σ HC)|]. by destruct HC as (Wm & _ & Hl).
Qed.

Theorem prog_memory {X} (p : prog A H X) x c : run_prog p = Done x c ->
  (forall q, live c q -> is_Some (m_heap (c_mem c) !! q)) /\
  (forall q, is_Some (m_heap (c_mem c) !! q) ->
     live c q \/ exists cap rc q', m_vec (c_mem c) !! q.1 = Some (cap, rc) /\ q.2 < cap /\ live c q' /\ q'.1 = q.1) /\
  (forall v, is_Some (m_vec (c_mem c) !! v) -> exists q, live c q /\ q.1 = v) /\
  (c_env c = ∅ -> m_heap (c_mem c) = ∅ /\ m_cnt (c_mem c) = ∅ /\ m_vec (c_mem c) = ∅).
Proof.
  intros Hr. pose proof (run_prog_ok p) as HG. destruct (sprog [] ∅ sst0 p) as [[x' σ]|]; [|congruence].
  destruct HG as (c' & Hc & HC). assert (c' = c) as -> by congruence.
  destruct (memory_exact_inv c σ HC) as (H1 & H2 & H3 & _). split_and!; [exact H1|exact H2|exact H3|].
  intros He. apply (CInv_nothing c σ HC). pose proof (CInv_contents c σ HC) as Hco. apply map_empty. intros h. specialize (Hco h).
  by rewrite He, lookup_empty in Hco.
Qed.

(** the tree that is built: the shape of the source, the data the values returned, in order *)
Lemma relabel_law l (it : item A) : length l = length (item_level_order it) ->
  root_of <$> item_level_order (relabel l it) = l /\
  (fun t => (length (kids t), nodes_f (kids t))) <$> item_level_order (relabel l it) = (fun t => (length (kids t), nodes_f (kids t))) <$> item_level_order it.
Proof.
  destruct it as [t|ts]; cbn [item_level_order relabel]; intros Hl; split.
  - by rewrite bfs_map_values, imap_default by (by rewrite fmap_length).
  - apply ss_sizes, ss_level_order, pmap_ss.
  - by rewrite bfs_map_f_values, imap_default by (by rewrite fmap_length).
  - apply ss_sizes, ss_level_order_f, pmap_f_ss.
Qed.
Lemma calls_length (call : H -> A -> sst A -> option (A * H * sst A)) l : forall st σ bs st' σ', calls call st l σ = Some (bs, st', σ') -> length bs = length l.
Proof. intros st σ bs st' σ' Hc. rewrite <-(fdata_calls call l st σ bs st' σ' Hc). apply fdata_length. Qed.
End top.

(** closures that do not use the library, with the values before as their memory: the operations of ClientSpec.v *)
Section pure.
Context {A : Type}.
Lemma calls_pure (f : list A -> A -> A) l : forall hist (σ : sst A),
  calls (fun st a σ => sprog (H := list A) [] ∅ σ (PRet (f st a, st ++ [a]))) hist l σ = Some (map_hist f hist l, hist ++ l, σ).
Proof.
  induction l as [|a l IH]; intros hist σ; cbn [calls map_hist sprog]; [by rewrite app_nil_r|]. cbn [sprog] in IH. rewrite IH.
  do 3 f_equal. by rewrite <-app_assoc.
Qed.
Lemma calls_pureR (f : list A -> A -> A) l (σ : sst A) : calls (fun st a σ => Some (f st a, st ++ [a], σ)) [] l σ = Some (map_hist f [] l, l, σ).
Proof. exact (calls_pure f l [] σ). Qed.
Definition map_op (src : source) (x : nat) (f : list A -> A -> A) : op A :=
  match src with SNode h path => OMapBfs h path x f | SKids h path => OMapBfsChildren h path x f | SInto h => OMapInto h x f end.
Lemma pure_closures src x f (σ : sst A) :
  sprog [] ∅ σ (PMap src x [] (fun hist a => PRet (f hist a, hist ++ [a])) (fun _ => PRet tt)) =
  match sstep σ (map_op src x f) with Some (_, σ') => Some (tt, σ') | None => None end.
Proof.
  destruct σ as [env log]. cbn [sprog s_env s_log]. 
  destruct (decide _) as [[_ Hx]|Hx].
  - destruct src as [h path|h path|h]; cbn [open_source map_op sstep s_env s_log]; rewrite ?(right_id_L ∅ (∪)); rewrite Hx; destruct (env !! h) as [it|] eqn:Eh; try done.
    + destruct (node_at it path) as [t|]; [|done]. rewrite calls_pureR. cbn [close_source s_env s_log relabel item_level_order]. rewrite Eh, insert_delete by done. done.
    + destruct (kids_at it path) as [ts|]; [|done]. rewrite calls_pureR. cbn [close_source s_env s_log relabel item_level_order]. rewrite Eh, insert_delete by done. done.
    + rewrite calls_pureR. cbn [close_source s_env s_log]. by destruct it.
  - assert (Hx' : exists y, env !! x = Some y).
    { destruct (env !! x); [eauto|]. destruct Hx. split; [split; [apply not_elem_of_nil|apply lookup_empty]|done]. }
    destruct Hx' as [y Hy]. destruct src as [h path|h path|h]; cbn [map_op sstep s_env s_log]; rewrite Hy; by destruct (env !! h).
Qed.
End pure.
