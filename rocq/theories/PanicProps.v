(** PanicProps.v — consequences, stated on client states. *)
From stdpp Require Import base gmap list.
From Verif Require Import Spec ClientSpec Machine NodeModel BfsModel ClientModel PanicSpec PanicModel Sep Rep NodeProofs Inv SpecProofs Abs ClientProofs FromBfs BfsBuild BfsIter BfsMut BfsMap ClientRef ClientStep ClientRead ClientProps BfsProps PanicProofs PanicStep.

Section props.
Context {A : Type}.
Implicit Types (s : mem A) (t : atree A) (c : cst A) (σ : sst A) (Wm : gmap nat (atree A)) (it : item A).

Lemma PInv_contents c σ : PInv c σ -> contents c (s_env σ).
Proof. intros (F & EL & H). by eapply CInvF_contents. Qed.
Lemma PInv_log c σ : PInv c σ -> m_log (c_mem c) = s_log σ.
Proof. by intros (F & EL & Wm & _ & H). Qed.

Theorem prefinement (os : list (pop A)) : exists c, prun cst0 os = Done (psrun sst0 os).1 c /\ contents c (s_env (psrun sst0 os).2) /\ m_log (c_mem c) = s_log (psrun sst0 os).2.
Proof.
  destruct (prun_ok os cst0 sst0 PInv0) as (c & Hc & HP). exists c. split_and!; [done|by apply PInv_contents|by apply PInv_log].
Qed.

Lemma preachable_PInv c : preachable c -> exists σ, PInv c σ.
Proof.
  intros (os & rs & H). destruct (prun_ok os cst0 sst0 PInv0) as (c' & Hc & HP). rewrite H in Hc. injection Hc as _ ->. eauto.
Qed.
Lemma preachable_contents c env : preachable c -> contents c env -> PInv c (SSt env (m_log (c_mem c))).
Proof.
  intros Hr Hc. destruct (preachable_PInv c Hr) as (σ & HI). pose proof (PInv_contents _ _ HI) as Hc'. pose proof (PInv_log _ _ HI) as Hl.
  rewrite (contents_fun _ _ _ Hc Hc'), Hl. by destruct σ.
Qed.
Lemma prun_snoc (os : list (pop A)) o : forall c0 rs c r c', prun c0 os = Done rs c -> pstep c o = Done r c' -> prun c0 (os ++ [o]) = Done (rs ++ [r]) c'.
Proof.
  induction os as [|o' os IH]; intros c0 rs c r c' H1 H2; simpl in *; [simplify_eq; by rewrite H2|].
  destruct (pstep c0 o') as [r1 c1|]; [|done]. destruct (prun c1 os) as [rs1 c2|] eqn:E; [|done]. injection H1 as <- <-. by rewrite (IH _ _ _ _ _ E H2).
Qed.
Lemma preachable_step c o r c' : preachable c -> pstep c o = Done r c' -> preachable c'.
Proof. intros (os & rs & H) Hs. exists (os ++ [o]), (rs ++ [r]). by eapply prun_snoc. Qed.

Lemma pstep_from c env (o : pop A) : preachable c -> contents c env ->
  exists c', pstep c o = Done (psstep (SSt env (m_log (c_mem c))) o).1 c' /\ preachable c' /\
    contents c' (s_env (psstep (SSt env (m_log (c_mem c))) o).2) /\ m_log (c_mem c') = s_log (psstep (SSt env (m_log (c_mem c))) o).2.
Proof.
  intros Hr Hc. destruct (pstep_inv o c _ (preachable_contents _ _ Hr Hc)) as (c' & Hs & HP). exists c'.
  split_and!; [done|by eapply preachable_step|by apply PInv_contents|by apply PInv_log].
Qed.

(** every call that does not panic behaves as in a history without panics *)
Lemma pstep_usable c env (o : op A) : preachable c -> contents c env ->
  match sstep (SSt env (m_log (c_mem c))) o with
  | Some (r, σ') => exists c', step c o = Done r c' /\ pstep c (POp o) = Done (PRet r) c' /\ contents c' (s_env σ') /\ m_log (c_mem c') = s_log σ' /\ preachable c'
  | None => step c o = Fails EPanic
  end.
Proof.
  intros Hr Hc. destruct (preachable_contents _ _ Hr Hc) as (F & EL & HC). pose proof (step_ok o c _ HC) as H.
  destruct (sstep (SSt env (m_log (c_mem c))) o) as [[r σ']|] eqn:Hss; [|done]. destruct H as (c' & Hs & HC').
  assert (Hp : pstep c (POp o) = Done (PRet r) c').
  { unfold step in Hs. destruct (cstep (c_env c) o (c_mem c)) as [[r' env'] s'|] eqn:Hcs; [|done]. injection Hs as -> <-. unfold pstep. by rewrite (pcstep_plain _ _ _ _ _ _ Hcs). }
  exists c'. split_and!; [done|done| | |by eapply preachable_step].
  - by eapply CInvF_contents.
  - by destruct HC' as (?&_&?).
Qed.

(** ** a panic that leaves every variable as it was *)
Definition PInvW Wm c σ : Prop := exists F EL, @ClientRef.REnv A F EL (c_mem c) (c_env c) (s_env σ) Wm /\ m_log (c_mem c) = s_log σ.

Lemma same_nodes c c' σ Wm : PInvW Wm c σ -> PInvW Wm c' σ -> c_env c' = c_env c /\ m_log (c_mem c') = m_log (c_mem c) /\
  forall h hd path, c_env c !! h = Some hd -> exists o, resolve (addr hd) path (c_mem c) = Ok o (c_mem c) /\ resolve (addr hd) path (c_mem c') = Ok o (c_mem c') /\
    forall p, o = Some p -> m_heap (c_mem c') !! p = m_heap (c_mem c) !! p.
Proof.
  intros (F & EL & HR & Hl) (F' & EL' & HR' & Hl'). split; [|split; [congruence|]].
  { by rewrite (re_env _ _ _ _ HR), (re_env _ _ _ _ HR'). }
  intros h hd path Hh. rewrite (re_env _ _ _ _ HR), lookup_fmap in Hh. destruct (Wm !! h) as [t|] eqn:Ht; [|done]. injection Hh as <-.
  pose proof (RE_inv _ _ _ _ _ _ HR Ht) as HI. pose proof (RE_inv _ _ _ _ _ _ HR' Ht) as HI'. rewrite addr_hof.
  exists (aptr ∘ snd <$> afind t path). rewrite (resolve_at _ _ _ _ _ HI), (resolve_at _ _ _ _ _ HI'). split_and!; [done|done|].
  intros p Hp. destruct (afind t path) as [[C [p' pl v ks]]|] eqn:Hf; [|done]. injection Hp as <-. apply afind_plug in Hf. rewrite <-Hf in HI, HI'.
  cbn [aptr snd compose]. by rewrite (lookup_at _ _ _ _ _ _ _ _ HI), (lookup_at _ _ _ _ _ _ _ _ HI').
Qed.

Ltac lk HR h := let H := fresh "Hlk" in pose proof (RE_lookup _ _ _ _ h HR) as H;
  match type of H with match ?e with _ => _ end => 
    let it := fresh "it" in destruct e as [it|] eqn:?;
    [let t := fresh "t" in destruct H as (t & ? & ? & -> & ?) | destruct H as [? ->]] end.

(** the calls that borrow: [map] over the visits of a borrowed node (so [clone]), and [detach] *)
Definition borrows (o : pop A) : Prop :=
  match o with PMapBfs _ _ _ _ | PMapBfsChildren _ _ _ _ | POp (ODetach _ _ _) => True | _ => False end.

Lemma REnv_same F EL s env senv Wm s' EL' : @ClientRef.REnv A F EL s env senv Wm -> MInvX s' (@ClientRef.vals A F Wm) EL' -> @ClientRef.REnv A F EL' s' env senv Wm.
Proof. intros [HI He Hr] HI'. by split. Qed.

Lemma borrow_panic o : borrows o -> forall c σ Wm, PInvW Wm c σ -> (psstep σ o).1 = PPanic -> exists c', pstep c o = Done PPanic c' /\ PInvW Wm c' σ.
Proof.
  destruct o as [[]| | |h path x f|h path x f| |]; try done; intros _ c σ Wm (F & EL & HR & Hlog); destruct c as [env s], σ as [senv log]; unfold pstep; cbn [psstep pcstep sstep c_env c_mem s_env s_log] in *.
  - lk HR h; [|done]. lk HR x; [done|]. cbn [s_env].
    destruct (split_last path) as [[path' i]|] eqn:Hsl; [destruct (kids_at it path') as [ts|]; [destruct (ts !! i)|]; done|].
    apply split_last_none in Hsl as ->. destruct it as [y|ys]; [|done]. rewrite H1. cbn [is_forest_root resolve addr]. intros _.
    unfold bind at 1, ret at 1. destruct t as [p pl v ks]. cbn [aptr].
    unfold bind. rewrite (has_parent_root _ _ _ _ _ _ _ (RE_inv _ _ _ _ _ _ HR H)). eexists. split; [done|]. by exists F, EL.
  - lk HR h; [|done]. lk HR x; [done|].
    pose proof (RE_locate _ _ _ _ _ _ _ path HR H H0) as HL. destruct (kids_at it path) as [xs|]; [|by destruct HL as [_ ->]].
    destruct HL as (C & p & pl & v & ks & -> & Haf & Hres & HI & Hks & Hset & Hn & _ & Hroot). rewrite Hn, Hroot. destruct v as [a|]; [|done].
    set (u := Tr a xs) in *.
    assert (Hloc : located (@ClientRef.vals A F Wm) C (AN p pl (Some a) ks)) by (eexists; symmetry; by apply vals_delete).
    assert (Hr : rt (AN p pl (Some a) ks) u) by (by constructor).
    unfold bind at 1. rewrite Hres. unfold bfs. unfold bind at 1. unfold bind at 1. unfold get. rewrite (located_get _ _ _ _ _ _ _ _ Hloc (re_inv _ _ _ _ HR)). cbn [ret fst snd].
    pose proof (Rsp_tree _ _ _ _ Hloc Hr) as HRsp. cbn [aptr] in HRsp. unfold bind.
    pose proof (ptree_map (fun _ => ret tt) (fun _ => []) f _ _ _ _ _ s EL u own_ref (sp_yields (@ClientRef.vals A F Wm)) HRsp (re_inv _ _ _ _ HR)) as HM.
    destruct (panics_at f [] (root_of <$> level_order u)) as [k|]; [|done]. intros _.
    destruct HM as (it' & s' & W' & EL' & y & Hc & HI' & HR' & _ & Hl). unfold ret in Hc |- *. rewrite Hc. eexists. split; [done|].
    apply Rsp_W in HR' as ->. exists F, EL'. split; [by eapply REnv_same|]. cbn. by rewrite Hl, app_nil_r.
  - lk HR h; [|done]. lk HR x; [done|].
    pose proof (RE_locate _ _ _ _ _ _ _ path HR H H0) as HL. destruct (kids_at it path) as [xs|]; [|done].
    destruct HL as (C & p & pl & v & ks & -> & Haf & Hres & HI & Hks & Hset & Hn & _ & Hroot).
    assert (Hloc : located (@ClientRef.vals A F Wm) C (AN p pl v ks)) by (eexists; symmetry; by apply vals_delete).
    unfold bind at 1. rewrite Hres. unfold bfs_children.
    destruct (crel_iter _ _ _ _ _ _ _ _ Hloc (re_inv _ _ _ _ HR)) as (ci & Hit & Hcr).
    unfold bind, get. rewrite Hit, (located_get _ _ _ _ _ _ _ _ Hloc (re_inv _ _ _ _ HR)). cbn [ret fst snd mk n_deg n_desc].
    rewrite (Forall2_length _ _ _ Hks), (rts_cnts _ _ Hks).
    pose proof (Rsp_kids _ _ _ _ Hcr Hks) as HRsp.
    pose proof (pforest_map (fun _ => ret tt) (fun _ => []) f _ _ _ _ _ s EL xs own_ref (sp_yields (@ClientRef.vals A F Wm)) HRsp (re_inv _ _ _ _ HR)) as HM.
    destruct (panics_at f [] (root_of <$> level_order_f xs)) as [k|]; [|done]. intros _.
    destruct HM as (it' & s' & W' & EL' & y & Hc & HI' & HR' & _ & Hl). unfold ret in Hc |- *. cbn [fst snd]. rewrite Hc. eexists. split; [done|].
    apply Rsp_W in HR' as ->. exists F, EL'. split; [by eapply REnv_same|]. cbn. by rewrite Hl, app_nil_r.
Qed.

Theorem borrow_panic_prop c (o : pop A) c' : preachable c -> borrows o -> pstep c o = Done PPanic c' ->
  c_env c' = c_env c /\ (forall env, contents c env -> contents c' env) /\ m_log (c_mem c') = m_log (c_mem c) /\
  forall h hd path, c_env c !! h = Some hd -> exists q, resolve (addr hd) path (c_mem c) = Ok q (c_mem c) /\ resolve (addr hd) path (c_mem c') = Ok q (c_mem c') /\
    forall p, q = Some p -> m_heap (c_mem c') !! p = m_heap (c_mem c) !! p.
Proof.
  intros Hr Hb Hs. destruct (preachable_PInv c Hr) as (σ & F & EL & Wm & HR & Hl).
  assert (HW : PInvW Wm c σ) by (by exists F, EL).
  assert (HP : PInv c σ) by (by exists F, EL, Wm).
  destruct (pstep_inv o c σ HP) as (c1 & Hs1 & _). rewrite Hs in Hs1. injection Hs1 as Hpp <-.
  destruct (borrow_panic o Hb c σ Wm HW (eq_sym Hpp)) as (c2 & Hs2 & HW2). rewrite Hs in Hs2. injection Hs2 as <-.
  destruct (same_nodes _ _ _ _ HW HW2) as (He & Hlg & Hn). split_and!; [done| |done|done].
  intros env Hc. rewrite (contents_fun _ _ _ Hc (PInv_contents _ _ HP)). apply PInv_contents. destruct HW2 as (F2 & EL2 & HR2 & Hl2). by exists F2, EL2, Wm.
Qed.

(** ** owned values *)
Lemma vs_split it k y : item_level_order it !! k = Some y ->
  (root_of <$> take k (item_level_order it)) ++ root_of y :: postorder_f (bfs_rest (S k) (trees_of it)) ≡ₚ item_post it.
Proof.
  intros Hy. transitivity (postorder_f (trees_of it)).
  - rewrite <-(qo_rest (S k) _ _ (item_qo it)). rewrite (take_S_r _ _ _ Hy), fmap_app, <-app_assoc. done.
  - destruct it; simpl; [|done]. unfold postorder_f. simpl. by rewrite app_nil_r.
Qed.

(** [map] with a closure that panics, over the visits of an owned tree or forest *)
Theorem map_into_panic_prop c env (h x : nat) (f : list A -> A -> option A) it k :
  preachable c -> contents c env -> env !! h = Some it -> env !! x = None -> panics_at f [] (root_of <$> item_level_order it) = Some k ->
  exists c' gone, pstep c (PMapInto h x f) = Done PPanic c' /\ preachable c' /\ contents c' (delete h env) /\
    m_log (c_mem c') = m_log (c_mem c) ++ gone /\ take k (root_of <$> item_level_order it) ++ gone ≡ₚ item_post it.
Proof.
  intros Hr Hc Hh Hx Hk. destruct (pstep_from c env (PMapInto h x f) Hr Hc) as (c' & H1 & H2 & H3 & H4).
  cbn [psstep s_env s_log] in *. rewrite Hh, Hx, Hk in H1, H3, H4. cbn [fst snd s_env s_log] in *. eexists c', _. split_and!; [done..|].
  pose proof (panics_at_lt _ _ _ _ Hk) as Hlt. rewrite fmap_length in Hlt. destruct (lookup_lt_is_Some_2 _ _ Hlt) as [y Hy].
  rewrite (take1_drop _ _ (root_of y)) by (by rewrite list_lookup_fmap, Hy). rewrite <-fmap_take. by apply vs_split.
Qed.

(** [T::drop] that panics while a tree or forest is dropped *)
Theorem drop_panic_prop c env (h k : nat) it :
  preachable c -> contents c env -> env !! h = Some it -> k < length (item_post it) ->
  exists c', pstep c (PDrop h k) = Done PPanic c' /\ preachable c' /\ contents c' (delete h env) /\
    m_log (c_mem c') = m_log (c_mem c) ++ take (S k) (item_post it).
Proof.
  intros Hr Hc Hh Hk. destruct (pstep_from c env (PDrop h k) Hr Hc) as (c' & H1 & H2 & H3 & H4).
  cbn [psstep s_env s_log] in *. rewrite Hh in H1, H3, H4. cbn [fst snd s_env s_log] in *. destruct (decide _); [|done]. eauto 10.
Qed.

Lemma each_dropped_at (ts1 ts2 : list (tree A)) (t : tree A) j : j < length (postorder t) ->
  each_dropped (length (postorder_f ts1) + j) (ts1 ++ t :: ts2) = postorder_f ts1 ++ take (S j) (postorder t) ++ postorder_f ts2.
Proof.
  intros Hj. induction ts1 as [|u ts1 IH]; simpl.
  - by rewrite decide_True.
  - change (postorder_f (u :: ts1)) with (postorder u ++ postorder_f ts1). rewrite app_length. rewrite decide_False by lia. rewrite <-app_assoc. f_equal. rewrite <-IH. f_equal. lia.
Qed.
Lemma drop_iter_panic_prop c env (h j : nat) it (ts1 ts2 : list (tree A)) (t : tree A) : preachable c -> contents c env -> env !! h = Some it -> trees_of it = ts1 ++ t :: ts2 -> j < length (postorder t) ->
  exists c', pstep c (PDropIter h (length (postorder_f ts1) + j)) = Done PPanic c' /\ preachable c' /\ contents c' (delete h env) /\
    m_log (c_mem c') = m_log (c_mem c) ++ postorder_f ts1 ++ take (S j) (postorder t) ++ postorder_f ts2.
Proof.
  intros Hr Hc Hh Hts Hj. destruct (pstep_from c env (PDropIter h (length (postorder_f ts1) + j)) Hr Hc) as (c' & H1 & H2 & H3 & H4). cbn [psstep s_env] in H1, H3, H4. rewrite Hh in H1, H3, H4.
  cbn [fst snd s_env s_log] in *. exists c'. split_and!; [|done|done|by rewrite H4, Hts, each_dropped_at].
  assert (item_post it = postorder_f (trees_of it)) as Hp by (destruct it; simpl; by rewrite ?app_nil_r). rewrite H1, Hp, Hts. rewrite decide_True; [done|].
  unfold postorder_f. rewrite flat_map_app, app_length. cbn [flat_map]. rewrite app_length. lia.
Qed.

(** [insert_prev_sib]/[insert_next_sib] on a root *)
Theorem insert_root_prop c env e (h y : nat) (t u : tree A) :
  preachable c -> contents c env -> h <> y -> env !! h = Some (ITree t) -> env !! y = Some (ITree u) ->
  exists c', pstep c (POp (OInsert e h [] y)) = Done PPanic c' /\ preachable c' /\ contents c' (delete y env) /\
    m_log (c_mem c') = m_log (c_mem c) ++ postorder u.
Proof.
  intros Hr Hc Hne Hh Hy. destruct (pstep_from c env (POp (OInsert e h [] y)) Hr Hc) as (c' & H1 & H2 & H3 & H4).
  cbn [psstep sstep s_env s_log split_last] in *. rewrite lookup_delete_ne in H1, H3, H4 by done. rewrite Hh, Hy in H1, H3, H4. cbn in H1, H3, H4. eauto 10.
Qed.

(** ** leaks: only foreign code can cause them *)
Lemma CInv_nothing c σ : CInv c σ -> s_env σ = ∅ -> m_heap (c_mem c) = ∅ /\ m_cnt (c_mem c) = ∅ /\ m_vec (c_mem c) = ∅.
Proof.
  intros (Wm & HR & _) He. apply MInv_nil. destruct HR as [HI _ Hr]. rewrite He in Hr.
  assert (Wm = ∅) as ->. { apply map_empty. intros h. specialize (Hr h). rewrite lookup_empty in Hr. by inversion Hr. }
  unfold ClientRef.vals in HI. by rewrite map_to_list_empty in HI.
Qed.
Theorem quiet_no_leak (os : list (pop A)) : quiets sst0 os -> s_env (psrun sst0 os).2 = ∅ ->
  exists c, prun cst0 os = Done (psrun sst0 os).1 c /\ m_heap (c_mem c) = ∅ /\ m_cnt (c_mem c) = ∅ /\ m_vec (c_mem c) = ∅.
Proof.
  intros HF He. destruct (prun_quiet os [] [] cst0 sst0 HF CInv0) as (c & Hc & HC). exists c. split; [done|]. by eapply CInv_nothing.
Qed.
End props.

Section iff.
Context {A : Type}.
Lemma map_panics_iff (c : cst A) (env : gmap nat (item A)) (h : nat) (path : list nat) (x : nat) (f : list A -> A -> option A) (it : item A) (t : tree A) :
  preachable c -> contents c env -> env !! h = Some it -> node_at it path = Some t -> env !! x = None ->
  match panics_at f [] (root_of <$> level_order t) with
  | Some _ => exists c', pstep c (PMapBfs h path x f) = Done PPanic c' /\ contents c' env /\ m_log (c_mem c') = m_log (c_mem c)
  | None => exists c', pstep c (PMapBfs h path x f) = Done (PRet RUnit) c' /\ contents c' (<[x := ITree (bfs_fmap (calm f) t)]> env) /\ m_log (c_mem c') = m_log (c_mem c)
  end.
Proof.
  intros Hr Hc Hh Hn Hx. destruct (pstep_from c env (PMapBfs h path x f) Hr Hc) as (c' & H1 & H2 & H3 & H4).
  cbn [psstep sstep s_env s_log] in *. rewrite Hh, Hx, Hn in H1, H3, H4. destruct (panics_at f [] _); cbn in H1, H3, H4; eauto.
Qed.
End iff.
