(** RcDebugProofs.v — [Debug] of [RcNode]. *)
From Coq Require Import Ascii String.
From stdpp Require Import base gmap list.
From Verif Require Import Spec ClientSpec RcSpec Machine NodeModel BfsModel ClientModel RcModel RcCmpModel CmpSpec RcAllowed RcClient RcCmpClient Sep Rep NodeProofs Inv Abs ClientProofs
  BfsBuild BfsIter ClientRef ClientProps ClientStep CmpProofs CmpLaws CountFrame RcRelease RcLab RcRef RcStep RcStep2 RcStep3 RcStep4 RcBorrow RcProps RcProps2 RcCmpProofs RcCmpProps DebugProofs RcDebugModel.

Section dbg.
Context {A : Type} (show : A -> string) (slot : list nat -> string).
Implicit Types (t : ltree A) (ts : list (ltree A)) (rd : nat -> bool) (s : mem A).

Definition lfori {X} (e : nat -> ltree A -> option X) : nat -> list (ltree A) -> option (list X) :=
  fix go n l := match l with [] => Some [] | x :: l => match e n x with None => None | Some w => (fun ws => w :: ws) <$> go (S n) l end end.
Fixpoint ldbg rd (path : list nat) t : option string :=
  let 'LN i a ks := t in
  if rd i then
    match ks with
    | [] => Some (show a ++ "@" ++ slot path ++ " ")%string
    | _ => (fun l => ((show a ++ "@" ++ slot path ++ " ") ++ "( " ++ fold_right String.append "" l ++ ")")%string) <$> lfori (fun n => ldbg rd (path ++ [n])) 0 ks
    end
  else None.
Definition dbg_kids (path : list nat) : nat -> list (tree A) -> string :=
  fix go n (ts : list (tree A)) := match ts with [] => ""%string | k :: ts => (debug_at show slot (path ++ [n]) k ++ go (S n) ts)%string end.
Lemma debug_at_eq path (a : A) (ts : list (tree A)) : debug_at show slot path (Tr (A:=A) a ts) = (show a ++ "@" ++ slot path ++ " " ++ match ts with [] => "" | _ => "( " ++ dbg_kids path 0 ts ++ ")" end)%string.
Proof. done. Qed.
Lemma app_nil_s (w : string) : (w ++ "")%string = w.
Proof. induction w as [|x w IH]; [done|]. exact (f_equal (String x) IH). Qed.

Lemma ldbg_clear rd t : forall path, clear rd [t] -> ldbg rd path t = Some (debug_at show slot path (erase t)).
Proof.
  induction t as [i a ks IH] using ltree_ind'. intros path [Hi Hc]%clear_node. cbn [ldbg erase]. rewrite Hi, debug_at_eq.
  assert (forall n, exists l, lfori (fun n => ldbg rd (path ++ [n])) n ks = Some l /\ fold_right String.append ""%string l = dbg_kids path n (map erase ks)) as HK.
  { clear Hi. induction IH as [|k ks Hk _ IHl]; intros n; [by exists []|]. apply clear_cons in Hc as [Hc1 Hc2]. destruct (IHl Hc2 (S n)) as (l & El & Hl).
    cbn [lfori]. rewrite (Hk _ Hc1), El. eexists. split; [done|]. cbn [map dbg_kids fold_right]. by rewrite Hl. }
  destruct ks as [|k ks]; [done|]. destruct (HK 0) as (l & -> & Hl). cbn [fmap option_fmap option_map]. rewrite Hl, !sapp_assoc. done.
Qed.
Lemma ldbg_block rd t : forall path, ~ clear rd [t] -> ldbg rd path t = None.
Proof.
  induction t as [i a ks IH] using ltree_ind'. intros path. rewrite clear_node. intros Hc. cbn [ldbg]. destruct (rd i); [|done].
  assert (~ clear rd ks) as Hk by tauto. destruct ks as [|k ks]; [destruct Hk; by intros j Hj; apply elem_of_nil in Hj|].
  assert (forall n, lfori (fun n => ldbg rd (path ++ [n])) n (k :: ks) = None) as ->; [|done]. clear Hc. revert Hk IH. generalize (k :: ks). intros l Hk IH.
  induction IH as [|x l Hx _ IHl]; intros n; [destruct Hk; by intros j Hj; apply elem_of_nil in Hj|]. cbn [lfori].
  destruct (clear_dec rd [x]) as [Hcx|(j & Hj & Hf)].
  - destruct (ldbg rd (path ++ [n]) x); [|done]. rewrite IHl; [done|]. intros Hl. apply Hk. apply clear_cons. done.
  - rewrite Hx; [done|]. intros H. specialize (H j Hj). congruence.
Qed.

Section run.
Context (s : mem A) (W : list (atree A)) (ψ : gmap ptr nat) (B : borrows) (rd : nat -> bool)
  (HI : MInvX s W []) (Hrd : forall p i, ψ !! p = Some i -> bool_decide (flag B p < 0)%Z = negb (rd i)).
Implicit Types (k : atree A) (aks : list (atree A)) (C : ctx A).
Local Notation G := (S (size (m_heap s))).
Local Notation rf k := (rform (aptr k) (apl k)).
Lemma fori_run {X} (fn : nat -> rnode -> M A X) e g : forall aks ts a n Hs,
  (forall n k t Hs, k ∈ aks -> lrep ψ k t -> fn n (rf k) (addc Hs s) = ores (e n t) (addc Hs s)) -> crel W a aks ->
  Forall2 (lrep ψ) aks ts -> length aks < g -> rc_for_i B fn g n a (addc Hs s) = ores (lfori e n ts) (addc Hs s).
Proof.
  induction g as [|g IH]; intros aks ts a n Hs He Ha Ht Hg; [lia|]. cbn [rc_for_i]. destruct Ht as [|k t aks ts Hk Ht].
  - unfold bind at 1. rewrite (next_nil s W ψ HI _ _ Ha) || rewrite (next_nil _ _ _ _ Ha). done.
  - destruct (next_cons s W ψ HI _ _ _ _ Ha Hk) as (a' & Ha' & Hn). destruct (kid_located W _ k _ Ha ltac:(left)) as [C Hl].
    unfold bind at 1. rewrite Hn. cbn [fst snd]. unfold bind at 1. rewrite (He n k t _ ltac:(left) Hk). cbn [lfori]. destruct (e n t) as [w|]; [|done]. cbn [ores].
    unfold bind at 1. rewrite (drop_run s W B HI _ _ _ Hl). unfold bind. rewrite (IH aks ts); try done; [|intros ???? H0; apply He; by right|simpl in Hg; lia]. by destruct (lfori e (S n) ts).
Qed.
Lemma dbg_run f : forall k t C path Hs, cntn k <= f -> lrep ψ k t -> located W C k ->
  rc_dbg_ show slot B G f path (rf k) (addc Hs s) = ores (ldbg rd path t) (addc Hs s).
Proof.
  induction f as [|f IH]; intros k t C path Hs Hf Ht Hl; [rewrite cntn_akids in Hf; lia|]. cbn [rc_dbg_].
  destruct Ht as [p pl a aks i ks Hi Hks]; cbn [aptr apl ldbg]. unfold bind at 1. rewrite (hnc_run s W ψ B rd HI Hrd _ _ _ _ _ _ _ Hl Hi). destruct (rd i) eqn:Ei; [|done].
  unfold bind at 1. rewrite (data_run s W ψ B rd HI Hrd _ _ _ _ _ _ _ Hl Hi), Ei. destruct Hks as [|k t aks ks Hk Hks]; [done|].
  destruct (iter_run s W ψ B rd HI Hrd _ _ _ _ _ _ Hl Hi) as (a' & Hra & Ha). unfold bind at 1. rewrite Ha, Ei. unfold bind at 1.
  rewrite (fori_run _ (fun n => ldbg rd (path ++ [n])) _ (k :: aks) (t :: ks)); [| |done|by constructor|by eapply lkid_bound].
  - by destruct (lfori _ _ _).
  - intros n k' t' Hs' Hk' Hkt. destruct (kid_located W _ k' _ Hra Hk') as [Ck Hlk]. eapply IH; try done. rewrite cntn_eq in Hf. pose proof (elem_cnt _ _ Hk'). lia.
Qed.
End run.

Section reached.
Context (c : rst A) (σ : rss A) (HRc : reached c σ).
Lemma rc_dbg_prop r t : handle_for c σ r t ->
  (~ locked σ t -> evals c (rc_dbg show slot (r_b c) r) (debug_at show slot [] (erase t))) /\ (locked σ t -> panics c (rc_dbg show slot (r_b c) r)).
Proof.
  intros Hk. destruct (world c σ HRc) as (s & W & ψ & Hs & Hm & HI & Hrd & Hw). destruct (Hw _ _ Hk) as (k & C & -> & Hkt & Hl).
  assert (rc_dbg show slot (r_b c) (rform (aptr k) (apl k)) (r_mem c) = ores (ldbg (readable σ) [] t) (r_mem c)) as E.
  { rewrite Hm. unfold rc_dbg, bind, fuel, gets. cbn [m_heap addc adj]. fold (addc Hs s). eapply (dbg_run s W ψ); try done. pose proof (located_size _ _ _ _ _ Hl HI). lia. }
  unfold evals, panics. rewrite E, <-(not_clear σ). split; intros H.
  - destruct (clear_dec (readable σ) [t]) as [Hc|(j & Hj & Hf)]; [by rewrite ldbg_clear|]. exfalso. apply H. intros Hc. specialize (Hc j Hj). congruence.
  - by rewrite ldbg_block.
Qed.
End reached.
End dbg.
