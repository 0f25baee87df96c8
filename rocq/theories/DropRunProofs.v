(** DropRunProofs.v — every program with a [T::drop] that uses the library does what its specification says. *)
From stdpp Require Import base gmap list.
From Verif Require Import Spec ClientSpec Machine NodeModel ClientModel DropRunSpec DropRunModel Sep Rep NodeProofs Inv SpecProofs Abs ClientProofs
  ClientRef ClientStep ClientRead ClientProps BfsProps PanicProps.

Section proofs.
Context {A H : Type}.
Implicit Types (F : list (atree A)) (s : mem A) (Wm : gmap nat (atree A)) (senv : gmap nat (item A)) (env : gmap nat handle) (R : list nat) (st : H).
Local Notation scall := (list nat -> A -> H -> sst A -> dres (A:=A) (H:=H) unit).
Local Notation mcall := (list nat -> A -> H -> gmap nat handle -> M A (unit * H * gmap nat handle)).
Local Notation REnv F := (@ClientRef.REnv A F []).
Local Notation vals F := (@ClientRef.vals A F).

Definition agrees {X} R F (r : dres (A:=A) (H:=H) X) (m : res A (X * H * gmap nat handle)) : Prop :=
  match r with
  | DDone x st σ => exists env s Wm, m = Ok (x, st, env) s /\ REnv F s env (s_env σ) Wm /\ m_log s = s_log σ /\ forall x, x ∈ R -> s_env σ !! x = None
  | DPanics => m = Err EPanic
  | DDeep => m = Err EStack
  end.
Definition free R senv : Prop := forall x, x ∈ R -> senv !! x = None.
Definition call_good (cs : scall) (cm : mcall) : Prop := forall R a F s env senv Wm st, REnv F s env senv Wm -> free R senv ->
  agrees R F (cs R a st (SSt senv (m_log s))) (cm R a st env s).

Lemma REnv_F F F' s s' env senv Wm : REnv F s env senv Wm -> MInvX s' (vals F' Wm) [] -> REnv F' s' env senv Wm.
Proof. intros [_ He Hri] HI. by split. Qed.
Lemma vals_cons t F Wm : vals (t :: F) Wm ≡ₚ t :: vals F Wm.
Proof. unfold ClientRef.vals. by rewrite Permutation_middle. Qed.
Lemma REnv_focus t F s env senv Wm : REnv (t :: F) s env senv Wm -> MInvX s (t :: vals F Wm) [].
Proof. intros HR. eapply MInv_perm; [|exact (re_inv _ _ _ _ HR)]. by rewrite vals_cons. Qed.

Lemma scalls_app (cs : scall) R l1 l2 st σ : scalls cs R (l1 ++ l2) st σ =
  match scalls cs R l1 st σ with DDone _ st' σ' => scalls cs R l2 st' σ' | DPanics => DPanics | DDeep => DDeep end.
Proof. revert st σ. induction l1 as [|a l1 IH]; intros st σ; [done|]. cbn [scalls app]. destruct (cs R a st _); [apply IH|done|done]. Qed.

Section body.
Context (cs : scall) (cm : mcall).
Hypothesis Hcall : call_good cs cm.

(** the values of one node *)
Lemma one_good R F a s env senv Wm st : REnv F s env senv Wm -> free R senv ->
  agrees R F (match cs R a st (SSt senv (m_log s)) with DDone _ st' σ' => DDone tt st' σ' | DPanics => DPanics | DDeep => DDeep end) (run_calls cm R [a] st env s).
Proof.
  intros HR Hf. pose proof (Hcall R a F s env senv Wm st HR Hf) as HC. cbn [run_calls]. unfold bind.
  destruct (cs R a st _) as [u st' σ'| |]; cbn [agrees] in *; [|by rewrite HC|by rewrite HC].
  destruct HC as (env' & s' & Wm' & -> & HC). exists env', s', Wm'. by destruct u.
Qed.

Lemma drop_loop_h_good f : forall t R F s env senv Wm st, cntn t <= f -> REnv (t :: F) s env senv Wm -> free R senv ->
  agrees R F (scalls cs R (apost t) st (SSt senv (m_log s))) (drop_loop_h cm R f (aptr t) st env s).
Proof.
  induction f as [|f IH]; intros [p pl v ks] R F s env senv Wm st Hfu HR Hf; [rewrite cntn_eq in Hfu; lia|].
  pose proof (REnv_focus _ _ _ _ _ _ HR) as HI. cbn [drop_loop_h aptr]. destruct ks as [|k ks].
  - unfold bind at 1. rewrite (pop_front_root_none _ _ _ _ pl v HI). unfold bind at 1, get.
    rewrite (MInv_lookup _ _ _ p (mk None None None p pl v []) HI) by (simpl; rewrite lay_eq; left).
    destruct (drop_node_spec _ _ _ _ _ _ HI) as (s1 & Hd & HI1 & Hl & _). unfold bind at 1. rewrite Hd.
    pose proof (REnv_F _ F _ s1 _ _ _ HR HI1) as HR1. cbn [apost flat_map app].
    assert (dat_vals (n_dat (mk None None None p pl v [])) = match v with Some a => [a] | None => [] end) as -> by (destruct pl, v; done).
    destruct v as [a|].
    + pose proof (one_good R F a s1 env senv Wm st HR1 Hf) as HC. cbn [scalls s_env s_log]. rewrite <-Hl. exact HC.
    + cbn [scalls run_calls ret agrees]. exists env, s1, Wm. cbn [s_env s_log]. rewrite Hl, app_nil_r. done.
  - unfold bind at 1. destruct (pop_front_root_some _ _ _ _ _ _ _ _ HI) as (h & -> & HI1).
    rewrite cntn_eq, cnts_cons, cntn_akids in Hfu.
    assert (HR1 : REnv (k :: AN p pl v ks :: F) (set_heap s h) env senv Wm).
    { eapply REnv_F; [exact HR|]. eapply MInv_perm; [|exact HI1]. by rewrite !vals_cons. }
    pose proof (IH k R _ _ _ _ _ st ltac:(rewrite cntn_akids; lia) HR1 Hf) as H1. change (m_log (set_heap s h)) with (m_log s) in H1.
    assert (apost (AN p pl v (k :: ks)) = apost k ++ apost (AN p pl v ks)) as -> by (cbn [apost flat_map]; by rewrite app_assoc).
    rewrite scalls_app. unfold bind at 1.
    destruct (scalls cs R (apost k) st _) as [u st' σ'| |]; cbn [agrees] in H1; [|by rewrite H1|by rewrite H1].
    destruct H1 as (env' & s' & Wm' & -> & HR' & Hl' & Hf'). cbn [fst snd].
    pose proof (IH (AN p pl v ks) R F s' env' (s_env σ') Wm' st' ltac:(rewrite cntn_eq; lia) HR' Hf') as H2.
    rewrite Hl' in H2. destruct σ' as [senv' lg']. exact H2.
Qed.

Lemma free_cons R senv h : free R senv -> free (h :: R) (delete h senv).
Proof. intros Hf x Hx. destruct (decide (x = h)) as [->|Hne]; [apply lookup_delete|]. rewrite lookup_delete_ne by done. apply Hf. set_solver. Qed.
Lemma free_delete R senv h : free R senv -> free R (delete h senv).
Proof. intros Hf x Hx. apply lookup_delete_None. right. by apply Hf. Qed.

Lemma agrees_match {X} R R' F F' (r : dres (A:=A) (H:=H) unit) m (kr : H -> sst A -> dres X) (km : unit * H * gmap nat handle -> M A (X * H * gmap nat handle)) :
  agrees R' F' r m ->
  (forall st' σ' env' s' Wm', r = DDone tt st' σ' -> REnv F' s' env' (s_env σ') Wm' -> m_log s' = s_log σ' -> free R' (s_env σ') ->
     agrees R F (kr st' σ') (km (tt, st', env') s')) ->
  agrees R F (match r with DDone _ st' σ' => kr st' σ' | DPanics => DPanics | DDeep => DDeep end)
    (match m with Ok a s' => km a s' | Err e => Err e end).
Proof.
  intros H1 H2. destruct r as [[] st' σ'| |]; cbn [agrees] in H1; [|by subst m|by subst m].
  destruct H1 as (env' & s' & Wm' & -> & HR & Hl & Hf). by apply (H2 _ _ _ _ Wm').
Qed.

Lemma body_good {X} (p : dprog (A:=A) (H:=H) X) : forall R F s env senv Wm st, REnv F s env senv Wm -> free R senv ->
  agrees R F (sbody cs R p st (SSt senv (m_log s))) (mbody cm R p st env s).
Proof.
  induction p as [a|g k IH|o k IH|h k IH|h path v k IH]; intros R F s env senv Wm st HR Hf; cbn [sbody mbody].
  - cbn [agrees]. by exists env, s, Wm.
  - by eapply IH.
  - destruct (decide _) as [[Hs Ho]|Hno]; [|by eapply IH].
    pose proof (step_ok (F:=F) (EL:=[]) o (CSt env s) (SSt senv (m_log s))) as Hst.
    specialize (Hst ltac:(by exists Wm)). unfold step in Hst. cbn [c_env c_mem] in Hst.
    destruct (sstep _ o) as [[r σ']|] eqn:Es.
    + destruct Hst as (c' & Hc & (Wm' & HR' & Hl')). destruct (cstep env o s) as [[r' env'] s'|] eqn:Ec; [|done]. injection Hc as -> <-.
      cbn [c_env c_mem] in *. unfold bind. rewrite Ec. cbn [fst snd]. destruct σ' as [senv' lg']. cbn [s_env s_log] in *. subst lg'. eapply IH; [exact HR'|].
      intros x Hx. pose proof (BfsProps.sstep_frame _ _ _ _ x Es) as Hfr. cbn [s_env] in Hfr. rewrite Hfr; [by apply Hf|].
      intros Hxo. eapply Forall_forall in Ho; [|exact Hxo]. by apply Ho.
    + destruct (cstep env o s) as [[r' env'] s'|e] eqn:Ec; [done|]. injection Hst as ->. unfold bind. by rewrite Ec.
  - cbn [s_env s_log]. pose proof (RE_lookup _ _ _ _ h HR) as Hlk. destruct (senv !! h) as [it|] eqn:Eh.
    + destruct Hlk as (t & Ht & Hri & -> & _). pose proof (RE_inv _ _ _ _ _ _ HR Ht) as HI.
      assert (HR1 : REnv (t :: F) s (delete h env) (delete h senv) (delete h Wm)).
      { destruct HR as [_ He Hr]. split.
        - eapply MInv_perm; [|exact HI]. by rewrite vals_cons.
        - by rewrite He, fmap_delete.
        - intros h'. destruct (decide (h = h')) as [->|]; [rewrite !lookup_delete; constructor|by rewrite !lookup_delete_ne]. }
      unfold bind at 1, fuel, gets. unfold bind. rewrite <-(ri_post _ _ Hri), addr_hof.
      eapply agrees_match; [eapply drop_loop_h_good; [|exact HR1|by apply free_delete]; pose proof (MInv_size _ _ _ _ HI); lia|].
      intros st' σ' env' s' Wm' _ HR' Hl' Hf'. cbn [fst snd]. destruct σ' as [senv' lg']. cbn [s_env s_log] in *. subst lg'. by eapply IH.
    + destruct Hlk as [_ ->]. by eapply IH.
  - cbn [s_env s_log]. pose proof (RE_lookup _ _ _ _ h HR) as Hlk. destruct (senv !! h) as [it|] eqn:Eh; [|destruct Hlk as [_ ->]; by eapply IH].
    destruct Hlk as (t & Ht & Hri & -> & _). pose proof (RE_locate _ _ _ _ _ _ _ path HR Ht Hri) as HL. 
    destruct (kids_at it path) as [xs|].
    + destruct HL as (C & p & pl & w & ks & -> & _ & Hres & HI & Hks & _ & Hn & Hset & Hroot). unfold bind at 1. rewrite Hres.
      rewrite Hn, Hroot. destruct w as [a|]; [|by eapply IH]. cbn [root_of].
      set (t := plug C (AN p pl (Some a) ks)) in *.
      pose proof (data_at _ _ _ _ _ _ _ _ HI) as Hd.
      unfold bind at 1. rewrite Hd. unfold bind at 1. unfold log_drop at 1.
      set (s1 := Mem _ _ _ _ _).
      assert (HI1 : MInvX s1 (t :: vals F (delete h Wm)) []) by (by apply PanicProofs.MInv_log).
      assert (HR1 : REnv (t :: F) s1 (delete h env) (delete h senv) (delete h Wm)).
      { destruct HR as [_ He Hr]. split.
        - eapply MInv_perm; [|exact HI1]. by rewrite vals_cons.
        - by rewrite He, fmap_delete.
        - intros h'. destruct (decide (h = h')) as [->|]; [rewrite !lookup_delete; constructor|by rewrite !lookup_delete_ne]. }
      unfold bind at 1. pose proof (one_good (h :: R) (t :: F) a s1 (delete h env) (delete h senv) (delete h Wm) st HR1 (free_cons _ _ _ Hf)) as HC.
      eapply agrees_match; [exact HC|].
      intros st' σ' env' s' Wm' _ HR' Hl' Hf'. cbn [fst snd]. destruct σ' as [senv' lg']. cbn [s_env s_log] in *. subst lg'.
      pose proof (REnv_focus _ _ _ _ _ _ HR') as HI'.
      destruct (modify_at _ _ _ _ _ _ (fun _ => v) _ _ HI') as (hp & Hp & HI2). unfold bind at 1. rewrite Hp.
      change (m_log s') with (m_log (set_heap s' hp)).
      assert (senv' !! h = None) as Hh by (apply Hf'; left).
      pose proof (RE_lookup _ _ _ _ h HR') as Hlk. rewrite Hh in Hlk. destruct Hlk as [HWh _].
      refine (IH true R F (set_heap s' hp) _ _ (<[h := plug C (AN p pl (Some v) ks)]> Wm') _ _ _).
      * assert (hof t = hof (plug C (AN p pl (Some v) ks))) as -> by apply (hof_plug_val C p pl a v ks).
        pose proof (re_env _ _ _ _ HR') as He'. pose proof (re_ri _ _ _ _ HR') as Hr'. split.
        -- eapply MInv_perm; [|exact HI2]. by rewrite (@vals_insert A F Wm' h _ HWh).
        -- by rewrite He', fmap_insert.
        -- intros h'. destruct (decide (h = h')) as [<-|Hne]; [rewrite !lookup_insert; constructor; apply Hset; eauto|by rewrite !lookup_insert_ne].
      * intros x Hx. rewrite lookup_insert_ne; [apply Hf'; by right|]. intros <-. by rewrite (Hf h Hx) in Eh.
    + destruct HL as [Hres ->]. unfold bind at 1. rewrite Hres. by eapply IH.
Qed.
End body.

Lemma handle_good (handler : A -> dprog unit) n : call_good (shandle handler n) (mhandle handler n).
Proof.
  induction n as [|n IH]; intros R a F s env senv Wm st HR Hf; cbn [shandle mhandle].
  - done.
  - by eapply body_good.
Qed.

Lemma mdrun_ok (handler : A -> dprog unit) n {X} (p : dprog X) (st : H) :
  match sdrun handler n p st with
  | DDone x st' σ => exists c, mdrun handler n p st = MDone x st' c /\ @ClientRef.CInv A [] [] c σ
  | DPanics => mdrun handler n p st = MFails EPanic
  | DDeep => mdrun handler n p st = MFails EStack
  end.
Proof.
  destruct (@CInv0 A) as (Wm & HR & Hlog).
  pose proof (body_good _ _ (handle_good handler n) p [] [] (c_mem cst0) ∅ (s_env sst0) Wm st HR) as HG.
  specialize (HG ltac:(intros x Hx; by apply elem_of_nil in Hx)). rewrite Hlog in HG. change (SSt (s_env sst0) (s_log sst0)) with (@sst0 A) in HG. change (c_env (@cst0 A)) with (∅ : gmap nat handle) in HG.
  assert (Hm : forall r, mbody (mhandle handler n) [] p st ∅ (c_mem cst0) = r ->
    mdrun handler n p st = match r with Ok (x, st', env) s => MDone x st' (CSt env s) | Err e => MFails e end) by (by intros r <-).
  unfold sdrun. destruct (sbody (shandle handler n) [] p st sst0) as [x st' σ| |]; cbn [agrees] in HG.
  - destruct HG as (env & s & Wm' & HG & HR' & Hl & _). rewrite (Hm _ HG). exists (CSt env s). split; [done|]. exists Wm'. split; done.
  - exact (Hm _ HG).
  - exact (Hm _ HG).
Qed.

Theorem drun_refines (handler : A -> dprog unit) n {X} (p : dprog X) (st : H) :
  match sdrun handler n p st with
  | DDone x st' σ => exists c, mdrun handler n p st = MDone x st' c /\ contents c (s_env σ) /\ m_log (c_mem c) = s_log σ
  | DPanics => mdrun handler n p st = MFails EPanic
  | DDeep => mdrun handler n p st = MFails EStack
  end.
Proof.
  pose proof (mdrun_ok handler n p st) as HG. destruct (sdrun handler n p st) as [x st' σ| |]; [|done|done].
  destruct HG as (c & Hc & HC). exists c. split; [done|]. split; [exact (CInv_contents c σ HC)|]. by destruct HC as (Wm & _ & Hl).
Qed.

Theorem drun_memory (handler : A -> dprog unit) n {X} (p : dprog X) (st st' : H) x c : mdrun handler n p st = MDone x st' c ->
  (forall q, live c q -> is_Some (m_heap (c_mem c) !! q)) /\
  (forall q, is_Some (m_heap (c_mem c) !! q) ->
     live c q \/ exists cap rc q', m_vec (c_mem c) !! q.1 = Some (cap, rc) /\ q.2 < cap /\ live c q' /\ q'.1 = q.1) /\
  (forall v, is_Some (m_vec (c_mem c) !! v) -> exists q, live c q /\ q.1 = v) /\
  (c_env c = ∅ -> m_heap (c_mem c) = ∅ /\ m_cnt (c_mem c) = ∅ /\ m_vec (c_mem c) = ∅).
Proof.
  intros Hr. pose proof (mdrun_ok handler n p st) as HG. destruct (sdrun handler n p st) as [x' st2 σ| |]; [|congruence|congruence].
  destruct HG as (c' & Hc & HC). assert (c' = c) as -> by congruence.
  destruct (memory_exact_inv c σ HC) as (H1 & H2 & H3 & _). split_and!; [exact H1|exact H2|exact H3|].
  intros He. apply (CInv_nothing c σ HC). pose proof (CInv_contents c σ HC) as Hco. apply map_empty. intros h. specialize (Hco h).
  by rewrite He, lookup_empty in Hco.
Qed.

(** a bigger stack: the same result *)
Definition below (cs1 cs2 : scall) : Prop := forall R a st σ, cs1 R a st σ = DDeep \/ cs1 R a st σ = cs2 R a st σ.
Lemma scalls_below (cs1 cs2 : scall) R l : below cs1 cs2 -> forall st σ, scalls cs1 R l st σ = DDeep \/ scalls cs1 R l st σ = scalls cs2 R l st σ.
Proof.
  intros Hb. induction l as [|a l IH]; intros st σ; [by right|]. cbn [scalls]. destruct (Hb R a st (SSt (s_env σ) (s_log σ ++ [a]))) as [->| ->]; [by left|].
  destruct (cs2 R a st _) as [u st' σ'| |]; [apply IH|by right|by right].
Qed.
Lemma sbody_below (cs1 cs2 : scall) {X} (p : dprog X) : below cs1 cs2 ->
  forall R st σ, sbody cs1 R p st σ = DDeep \/ sbody cs1 R p st σ = sbody cs2 R p st σ.
Proof.
  intros Hb. induction p as [a|g k IH|o k IH|h k IH|h path v k IH]; intros R st σ; cbn [sbody].
  - by right.
  - apply IH.
  - destruct (decide _); [|apply IH]. destruct (sstep σ o) as [[r σ']|]; [apply IH|by right].
  - destruct (s_env σ !! h) as [it|]; [|apply IH].
    destruct (scalls_below cs1 cs2 R (item_post it) Hb st (SSt (delete h (s_env σ)) (s_log σ))) as [->| ->]; [by left|].
    destruct (scalls cs2 _ _ _ _) as [u st' σ'| |]; [apply IH|by right|by right].
  - destruct (s_env σ !! h) as [it|]; [|apply IH]. destruct (node_at it path) as [t|]; [|apply IH].
    destruct (scalls_below cs1 cs2 (h :: R) [root_of t] Hb st (SSt (delete h (s_env σ)) (s_log σ))) as [->| ->]; [by left|].
    destruct (scalls cs2 _ _ _ _) as [u st' σ'| |]; [apply IH|by right|by right].
Qed.
Lemma shandle_below handler n m : n <= m -> below (shandle (A:=A) (H:=H) handler n) (shandle handler m).
Proof.
  revert m. induction n as [|n IH]; intros m Hm R a st σ; [by left|]. destruct m as [|m]; [lia|]. cbn [shandle]. apply sbody_below. apply IH. lia.
Qed.
Theorem sdrun_mono (handler : A -> dprog unit) n m {X} (p : dprog X) (st : H) : n <= m ->
  sdrun handler n p st <> DDeep -> sdrun handler m p st = sdrun handler n p st.
Proof.
  intros Hm Hn. unfold sdrun in *. destruct (sbody_below _ _ p (shandle_below handler n m Hm) [] st sst0) as [E|E]; [by rewrite E in Hn|done].
Qed.
Theorem mdrun_mono (handler : A -> dprog unit) n m {X} (p : dprog X) (st : H) : n <= m ->
  mdrun handler n p st <> MFails EStack ->
  match mdrun handler n p st, mdrun handler m p st with
  | MDone x st1 c, MDone x' st2 c' => x = x' /\ st1 = st2 /\ m_log (c_mem c) = m_log (c_mem c') /\ exists e, contents c e /\ contents c' e
  | MFails e, MFails e' => e = e'
  | _, _ => False
  end.
Proof.
  intros Hm Hn. pose proof (drun_refines handler n p st) as H1. pose proof (drun_refines handler m p st) as H2.
  destruct (sdrun handler n p st) as [x st1 σ| |] eqn:E1.
  - rewrite (sdrun_mono handler n m p st Hm), E1 in H2 by (by rewrite E1).
    destruct H1 as (c & -> & Hc & Hl). destruct H2 as (c' & -> & Hc' & Hl'). split_and!; [done|done|by rewrite Hl, Hl'|by exists (s_env σ)].
  - rewrite (sdrun_mono handler n m p st Hm), E1 in H2 by (by rewrite E1). by rewrite H1, H2.
  - done.
Qed.

(** a [T::drop] that does nothing *)
Definition idle : A -> dprog (A:=A) (H:=H) unit := fun _ => DRet tt.
Lemma scalls_idle n R l : forall st σ, scalls (shandle idle (S n)) R l st σ = DDone tt st (SSt (s_env σ) (s_log σ ++ l)).
Proof.
  induction l as [|a l IH]; intros st σ; cbn [scalls]; [rewrite app_nil_r; by destruct σ|]. cbn [shandle idle sbody]. cbn [shandle] in IH.
  rewrite IH. cbn [s_env s_log]. by rewrite <-app_assoc.
Qed.
Theorem drop_idle n R h {X} (k : bool -> dprog X) (st : H) (σ : sst A) :
  sbody (shandle idle (S n)) R (DDrop h k) st σ =
  match sstep σ (ODrop h) with
  | Some (RUnit, σ') => sbody (shandle idle (S n)) R (k true) st σ'
  | _ => sbody (shandle idle (S n)) R (k false) st σ
  end.
Proof.
  destruct σ as [env lg]. cbn [sbody sstep s_env s_log]. destruct (env !! h) as [it|]; [|done]. rewrite scalls_idle. done.
Qed.
Theorem set_idle n R h path v {X} (k : bool -> dprog X) (st : H) (σ : sst A) :
  sbody (shandle idle (S n)) R (DSet h path v k) st σ =
  match sstep σ (OData h path), sstep σ (OModify h path (fun _ => v)) with
  | Some (RVal a, _), Some (RUnit, σ') => sbody (shandle idle (S n)) R (k true) st (SSt (s_env σ') (s_log σ' ++ [a]))
  | _, _ => sbody (shandle idle (S n)) R (k false) st σ
  end.
Proof.
  destruct σ as [env lg]. cbn [sbody sstep s_env s_log]. destruct (env !! h) as [it|]; [|done]. destruct (node_at it path) as [t|]; [|done].
  rewrite scalls_idle. cbn [s_env s_log]. by rewrite insert_delete_insert.
Qed.
End proofs.
