(** IterProofs.v — proofs about iterators stepped by hand. *)
From stdpp Require Import base gmap list.
From Verif Require Import Spec ClientSpec Machine NodeModel Sep Rep NodeProofs Inv ClientModel Abs ClientProofs BfsIter BfsMut ClientRef ClientStep ClientRead ClientProps BfsProps Reach CmpProofs IterModel.

Section proofs.
Context {A : Type}.

Lemma trace_run W E (s : mem A) n : forall it (ks : list (atree A)), crel W it ks -> MInvX s W E ->
  iter_trace n it s = Ok ((fun i => (length ks - i, (aptr <$> ks) !! i)) <$> seq 0 n) s.
Proof.
  induction n as [|n IH]; intros it ks Hr HI; [done|]. cbn [iter_trace]. unfold bind at 1. cbn [seq fmap list_fmap].
  rewrite <- fmap_S_seq, <- list_fmap_compose. destruct ks as [|k ks].
  - rewrite (crel_nil _ _ _ Hr). cbn [fst snd]. unfold bind at 1. rewrite (IH _ _ Hr HI). unfold ret, ci_size_hint. rewrite (cr_len _ _ _ Hr). cbn [length].
    do 2 f_equal.
  - destruct (crel_cons _ _ _ _ _ _ Hr HI) as (it' & -> & Hr'). cbn [fst snd]. unfold bind at 1. rewrite (IH _ _ Hr' HI). unfold ret, ci_size_hint. rewrite (cr_len _ _ _ Hr).
    do 2 f_equal.
Qed.

Lemma iter_prop (c : cst A) h hd path p : reachable c -> c_env c !! h = Some hd -> resolve (addr hd) path (c_mem c) = Ok (Some p) (c_mem c) ->
  exists cs, returns c (degree p) (length cs) /\ (forall i, returns c (resolve (addr hd) (path ++ [i])) (cs !! i)) /\
    forall n, returns c (iter_run n p) ((fun i => (length cs - i, cs !! i)) <$> seq 0 n).
Proof.
  intros Hr Hh Hres. destruct (reachable_CInv c Hr) as (σ & Wm & HR & _).
  pose proof (RE_lookup _ _ _ _ h HR) as H. destruct (s_env σ !! h) as [it|]; [|destruct H; congruence].
  destruct H as (t & Ht & Hri & Henv & _). rewrite Hh in Henv. simplify_eq.
  pose proof (RE_locate _ _ _ _ _ _ _ path HR Ht Hri) as HL. destruct (kids_at it path) as [xs|]; [|destruct HL; congruence].
  destruct HL as (C & p' & pl & v & ks & Heq & Haf & Hres' & HI & Hks & _ & Hn & _ & Hroot).
  rewrite Hres in Hres'. simplify_eq. exists (aptr <$> ks). split_and!.
  - rewrite fmap_length. by eapply degree_at.
  - intros i. unfold returns. rewrite addr_hof, (resolve_at _ _ _ _ _ HI), afind_app, Haf. simpl. rewrite list_lookup_fmap. by destruct (ks !! i).
  - intros n. unfold returns, iter_run, bind. pose proof (plug_located C (AN p' pl v ks) (vals (delete h Wm))) as Hl.
    destruct (crel_iter _ _ _ _ _ _ _ _ Hl HI) as (it' & -> & Hcr). rewrite (trace_run _ _ _ n _ _ Hcr HI). by rewrite fmap_length.
Qed.
Lemma once_prop (c : cst A) h hd path p n : reachable c -> c_env c !! h = Some hd -> resolve (addr hd) path (c_mem c) = Ok (Some p) (c_mem c) ->
  returns c (once_run n p) ((fun i => match i with 0 => (1, Some p) | _ => (0, None) end) <$> seq 0 n).
Proof.
  intros Hr Hh Hres. destruct (reachable_CInv c Hr) as (σ & Wm & HR & _).
  pose proof (RE_lookup _ _ _ _ h HR) as H. destruct (s_env σ !! h) as [it|]; [|destruct H; congruence].
  destruct H as (t & Ht & Hri & Henv & _). rewrite Hh in Henv. simplify_eq.
  pose proof (RE_locate _ _ _ _ _ _ _ path HR Ht Hri) as HL. destruct (kids_at it path) as [xs|]; [|destruct HL; congruence].
  destruct HL as (C & p' & pl & v & ks & Heq & Haf & Hres' & HI & Hks & _ & Hn & _ & Hroot).
  rewrite Hres in Hres'. simplify_eq. pose proof (plug_located C (AN p' pl v ks) (vals (delete h Wm))) as Hl.
  assert (Hcr : crel (plug C (AN p' pl v ks) :: vals (delete h Wm)) (ci_once p') [AN p' pl v ks]) by (split; [done|done|by eapply chain_once]).
  unfold returns, once_run. rewrite (trace_run _ _ _ n _ _ Hcr HI). f_equal. apply list_fmap_ext. intros j i Hi. by destruct i.
Qed.
End proofs.

Lemma each_hints {A : Type} (c : cst A) (env : gmap nat (item A)) h path acts it ts :
  reachable c -> contents c env -> env !! h = Some it -> kids_at it path = Some ts ->
  exists c', step c (OEach h path acts) = Done (REach (imap (fun i (t : tree A) => (length ts - i, root_of t)) ts) 0 false) c'.
Proof. intros H1 H2 H3 H4. destruct (each_prop c env h path acts it ts H1 H2 H3 H4) as (c' & H & _). eauto. Qed.
Lemma bind_trees_None {A : Type} (xs : list nat) : forall (ts : list (tree A)) env i x, NoDup xs -> Forall (fun x => env !! x = None) xs -> xs !! i = Some x ->
  bind_trees xs ts env !! x = None <-> length ts <= i.
Proof.
  assert (Hout : forall (xs : list nat) (ts : list (tree A)) env x, x ∉ xs -> bind_trees xs ts env !! x = env !! x).
  { clear. induction xs as [|y xs IH]; intros ts env x Hx; [by destruct ts|]. apply not_elem_of_cons in Hx as [Hne Hx]. destruct ts as [|t ts]; [done|].
    cbn [bind_trees]. rewrite IH by done. by rewrite lookup_insert_ne. }
  induction xs as [|y xs IH]; intros ts env i x Hnd Hf Hi; [done|]. apply NoDup_cons in Hnd as [Hy Hnd]. apply Forall_cons in Hf as [Hy0 Hf].
  destruct ts as [|t ts].
  - cbn [bind_trees length]. split; [lia|]. intros _. destruct i as [|i]; [simpl in Hi; congruence|]. rewrite Forall_forall in Hf. apply Hf. by eapply elem_of_list_lookup_2.
  - cbn [bind_trees length]. destruct i as [|i].
    + simpl in Hi. simplify_eq. rewrite Hout by done. rewrite lookup_insert. split; [done|lia].
    + simpl in Hi. rewrite (IH ts (<[y:=ITree t]> env) i x Hnd); [lia| |done]. apply Forall_forall. intros z Hz. rewrite lookup_insert_ne by (intros ->; done). rewrite Forall_forall in Hf. by apply Hf.
Qed.
Lemma into_hints {A : Type} (c : cst A) (env : gmap nat (item A)) h xs it :
  reachable c -> contents c env -> env !! h = Some it -> NoDup xs -> Forall (fun x => env !! x = None) xs ->
  exists c', step c (OIntoIter h xs) = Done (RNats (imap (fun i _ => length (trees_of it) - i) xs)) c' /\
    contents c' (bind_trees xs (trees_of it) (delete h env)) /\
    forall i x, xs !! i = Some x -> c_env c' !! x = None <-> length (trees_of it) <= i.
Proof.
  intros Hr Hc Hh Hnd Hf. destruct (into_iter_prop c env h xs it Hr Hc Hh Hnd Hf) as (c' & H & Hr' & Hc' & _). exists c'. split; [done|]. split; [done|].
  intros i x Hx. rewrite <- (bind_trees_None xs (trees_of it) (delete h env) i x Hnd); [|apply Forall_forall; intros z Hz; rewrite Forall_forall in Hf; rewrite lookup_delete_None; auto|done].
  destruct (reachable_contents _ _ Hr' Hc') as (Wm & HR & _). pose proof (RE_lookup _ _ _ _ x HR) as H'.
  cbn [s_env] in H'. destruct (bind_trees xs (trees_of it) (delete h env) !! x) as [?|].
  - destruct H' as (t & _ & _ & He & _). rewrite He. done.
  - destruct H' as [_ He]. rewrite He. done.
Qed.
