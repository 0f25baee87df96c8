(** RcCmpProofs.v — comparison, hashing and printing of [RcNode]: what the code computes, when it panics. *)
From Coq Require Import Ascii String.
From stdpp Require Import base gmap list.
From Verif Require Import Spec ClientSpec RcSpec Machine NodeModel BfsModel ClientModel RcModel RcCmpModel CmpSpec RcAllowed RcClient Sep Rep NodeProofs Inv Abs ClientProofs
  BfsBuild BfsIter ClientRef ClientProps ClientStep CmpProofs CmpLaws CountFrame RcRelease RcLab RcRef RcStep RcStep2 RcStep3 RcStep4 RcBorrow RcProps RcProps2.

Section cmp.
Context {A : Type}.
Implicit Types (p q : ptr) (s : mem A) (t u : ltree A) (ts us : list (ltree A)).

(** * The comparison with [rd i]: node [i] can be borrowed; [None]: panic *)
Section spec.
Context (rd : nat -> bool).
Definition lcompare {O} (e : ltree A -> ltree A -> option (option O)) : list (ltree A) -> list (ltree A) -> option (O + comparison) :=
  fix go l l' :=
  match l, l' with
  | [], [] => Some (inr Eq)
  | [], _ :: _ => Some (inr Lt)
  | _ :: _, [] => Some (inr Gt)
  | x :: l, y :: l' => match e x y with None => None | Some None => go l l' | Some (Some w) => Some (inl w) end
  end.
Fixpoint leq (eqA : A -> A -> bool) t u : option bool :=
  let 'LN i a ks := t in let 'LN j b us := u in
  if rd i && rd j then
    if eqA a b then
      (fun c : unit + comparison => match c with inr Eq => true | _ => false end) <$>
        lcompare (fun x y => (fun e : bool => if e then None else Some tt) <$> leq eqA x y) ks us
    else Some false
  else None.
Fixpoint lpcmp (pc : A -> A -> option comparison) t u : option (option comparison) :=
  let 'LN i a ks := t in let 'LN j b us := u in
  if rd i && rd j then
    match pc a b with
    | Some Eq =>
      (fun c : option comparison + comparison => match c with inr o => Some o | inl o => o end) <$>
        lcompare (fun x y => (fun o : option comparison => match o with Some Eq => None | _ => Some o end) <$> lpcmp pc x y) ks us
    | o => Some o
    end
  else None.
Fixpoint lcmp (pc : A -> A -> comparison) t u : option comparison :=
  let 'LN i a ks := t in let 'LN j b us := u in
  if rd i && rd j then
    match pc a b with
    | Eq =>
      (fun c : comparison + comparison => match c with inr o => o | inl o => o end) <$>
        lcompare (fun x y => (fun o : comparison => match o with Eq => None | _ => Some o end) <$> lcmp pc x y) ks us
    | o => Some o
    end
  else None.
Definition lfor {X} (e : ltree A -> option X) : list (ltree A) -> option (list X) :=
  fix go l := match l with [] => Some [] | x :: l => match e x with None => None | Some w => (fun ws => w :: ws) <$> go l end end.
Fixpoint lhash {H} (h : A -> list H) t : option (list H) :=
  let 'LN i a ks := t in if rd i then (fun l => h a ++ concat l) <$> lfor (lhash h) ks else None.
Fixpoint lfmt (show : A -> string) t : option string :=
  let 'LN i a ks := t in
  if rd i then
    match ks with
    | [] => Some (show a)
    | _ => (fun l => (show a ++ "( " ++ fold_right (fun w w' => w ++ " " ++ w') "" l ++ ")")%string) <$> lfor (lfmt show) ks
    end
  else None.
End spec.

(** * Runs *)
Definition ores {X} (o : option X) s : Machine.res A X := match o with Some x => Ok x s | None => Err EPanic end.
Section run.
Context (s : mem A) (W : list (atree A)) (ψ : gmap ptr nat) (B : borrows) (rd : nat -> bool)
  (HI : MInvX s W []) (Hrd : forall p i, ψ !! p = Some i -> bool_decide (flag B p < 0)%Z = negb (rd i)).
Implicit Types (k : atree A) (aks : list (atree A)) (C : ctx A).
Local Notation G := (S (size (m_heap s))).
Local Notation rf k := (rform (aptr k) (apl k)).

Lemma borrow_run C p pl a aks i Hs : located W C (AN p pl (Some a) aks) -> ψ !! p = Some i ->
  node_borrow B (rform p pl) (addc Hs s) = if rd i then Ok tt (addc Hs s) else Err EPanic.
Proof.
  intros [W' HW] Hi. unfold addc. rewrite (borrow_eq B s C p pl a aks W'); [|by eapply MInv_perm]. rewrite (Hrd _ _ Hi). by destruct (rd i).
Qed.
Lemma data_run C p pl a aks i Hs : located W C (AN p pl (Some a) aks) -> ψ !! p = Some i ->
  rc_data B (rform p pl) (addc Hs s) = if rd i then Ok a (addc Hs s) else Err EPanic.
Proof.
  intros Hl Hi. unfold rc_data, bind. rewrite (borrow_run _ _ _ _ _ _ _ Hl Hi). destruct (rd i); [|done]. rewrite raddr_rform.
  apply (hp_ok _ _ _ _ _ _ (hp_data p)). by eapply located_data.
Qed.
Lemma hnc_run C p pl a aks i Hs : located W C (AN p pl (Some a) aks) -> ψ !! p = Some i ->
  rc_has_no_child B (rform p pl) (addc Hs s) = if rd i then Ok (match aks with [] => true | _ => false end) (addc Hs s) else Err EPanic.
Proof.
  intros Hl Hi. unfold rc_has_no_child, bind. rewrite (borrow_run _ _ _ _ _ _ _ Hl Hi). destruct (rd i); [|done]. rewrite raddr_rform.
  apply (hp_ok _ _ _ _ _ _ (hp_has_no_child p)). unfold has_no_child, bind, get. rewrite (located_get _ _ _ _ _ _ _ _ Hl HI). by destruct aks.
Qed.
Lemma iter_run C p pl a aks i : located W C (AN p pl (Some a) aks) -> ψ !! p = Some i ->
  exists it, crel W it aks /\ forall Hs, rc_iter B (rform p pl) (addc Hs s) = if rd i then Ok it (addc Hs s) else Err EPanic.
Proof.
  intros Hl Hi. destruct (crel_iter _ _ _ _ _ _ _ _ Hl HI) as (it & Hit & Hc). exists it. split; [done|]. intros Hs. unfold rc_iter, bind.
  rewrite (borrow_run _ _ _ _ _ _ _ Hl Hi). destruct (rd i); [|done]. rewrite raddr_rform. exact (hp_ok _ _ _ _ _ _ (hp_iter p) Hit).
Qed.
Lemma next_nil it Hs : crel W it [] -> rc_iter_next it (addc Hs s) = Ok (None, it) (addc Hs s).
Proof. intros Hc. unfold rc_iter_next, bind. unfold addc. rewrite (hp_ok _ _ _ _ _ _ (hp_ci_next it) (crel_nil _ _ s Hc)). done. Qed.
Lemma next_cons it k aks t : crel W it (k :: aks) -> lrep ψ k t ->
  exists it', crel W it' aks /\ forall Hs, rc_iter_next it (addc Hs s) = Ok (Some (rf k), it') (addc (aptr k :: Hs) s).
Proof.
  intros Hc Hk. destruct (crel_cons _ _ _ _ _ _ Hc HI) as (it' & Hn & Hc'). exists it'. split; [done|]. intros Hs. unfold rc_iter_next, bind.
  unfold addc at 1. rewrite (hp_ok _ _ _ _ _ _ (hp_ci_next it) Hn). cbn [fst snd option_rc]. unfold bind.
  destruct (chain_located W (k :: aks) k) as [C [W' HW]]; [apply Hc|left|]. destruct Hk as [p pl a kks i ks Hi Hks]. cbn [aptr apl].
  fold (addc Hs s). rewrite (rc_alive s C p pl a kks W'); [done|]. by eapply MInv_perm.
Qed.
Lemma drop_run C k Hs : located W C k -> rc_drop_handle B (rf k) (addc (aptr k :: Hs) s) = Ok tt (addc Hs s).
Proof.
  intros [W' HW]. eapply drop_handle_keep; [eapply MInv_perm; [exact HW|exact HI]|]. rewrite infoss_cons, plug_infos, !elem_of_app. left. left. destruct k. left.
Qed.
Lemma kid_located aks k it : crel W it aks -> k ∈ aks -> exists C, located W C k.
Proof. intros Hc Hk. eapply chain_located; [apply Hc|done]. Qed.

Definition ok2 {X} (fn : rnode -> rnode -> M A X) (e : ltree A -> ltree A -> option X) aks : Prop :=
  forall k t v u C' Hs, k ∈ aks -> lrep ψ k t -> lrep ψ v u -> located W C' v -> fn (rf k) (rf v) (addc Hs s) = ores (e t u) (addc Hs s).
Lemma compare_run {O} (fn : rnode -> rnode -> M A (option O)) e g : forall aks avs ts us a b Hs, ok2 fn e aks -> crel W a aks -> crel W b avs ->
  Forall2 (lrep ψ) aks ts -> Forall2 (lrep ψ) avs us -> length aks < g -> iter_compare B fn g a b (addc Hs s) = ores (lcompare e ts us) (addc Hs s).
Proof.
  induction g as [|g IH]; intros aks avs ts us a b Hs He Ha Hb Ht Hu Hg; [lia|]. cbn [iter_compare].
  destruct Ht as [|k t aks ts Hk Ht]; destruct Hu as [|v u avs us Hv Hu].
  - unfold bind at 1. rewrite (next_nil _ _ Ha). unfold bind at 1. rewrite (next_nil _ _ Hb). done.
  - unfold bind at 1. rewrite (next_nil _ _ Ha). destruct (next_cons _ _ _ _ Hb Hv) as (b' & _ & Hn). unfold bind at 1. rewrite Hn. cbn [fst snd].
    destruct (kid_located _ v _ Hb ltac:(left)) as [C Hl]. unfold bind. rewrite (drop_run _ _ _ Hl). done.
  - destruct (next_cons _ _ _ _ Ha Hk) as (a' & _ & Hn). unfold bind at 1. rewrite Hn. unfold bind at 1. rewrite (next_nil _ _ Hb). cbn [fst snd].
    destruct (kid_located _ k _ Ha ltac:(left)) as [C Hl]. unfold bind. rewrite (drop_run _ _ _ Hl). done.
  - destruct (next_cons _ _ _ _ Ha Hk) as (a' & Ha' & Hn). destruct (next_cons _ _ _ _ Hb Hv) as (b' & Hb' & Hn').
    destruct (kid_located _ k _ Ha ltac:(left)) as [C Hl]. destruct (kid_located _ v _ Hb ltac:(left)) as [C' Hl'].
    unfold bind at 1. rewrite Hn. unfold bind at 1. rewrite Hn'. cbn [fst snd]. unfold bind at 1.
    rewrite (He k t v u C' _ ltac:(left) Hk Hv Hl'). cbn [lcompare]. destruct (e t u) as [o|]; [|done]. cbn [ores].
    unfold bind at 1. rewrite (drop_run _ _ _ Hl'). unfold bind at 1. rewrite (drop_run _ _ _ Hl). destruct o as [w|]; [done|].
    apply (IH aks avs); try done; [|simpl in Hg; lia]. intros ?????? H0. apply He. by right.
Qed.
Lemma lkid_bound C p pl v aks : located W C (AN p pl v aks) -> length aks < G.
Proof. intros Hl. pose proof (located_size _ _ _ _ _ Hl HI) as H. rewrite cntn_eq in H. pose proof (length_cnts aks). lia. Qed.
Lemma ok2_rec {X} (fn : rnode -> rnode -> M A X) e C p pl v aks f : located W C (AN p pl v aks) -> cntn (AN p pl v aks) <= S f ->
  (forall k t C u w C' Hs, cntn k <= f -> lrep ψ k t -> located W C k -> lrep ψ w u -> located W C' w -> fn (rf k) (rf w) (addc Hs s) = ores (e t u) (addc Hs s)) -> ok2 fn e aks.
Proof.
  intros Hl Hf IH k t v' u C' Hs Hk Hkt Hvu Hl'. destruct (chain_located W aks k) as [Ck Hlk]; [by eapply chain_kids|done|].
  eapply IH; try done. rewrite cntn_eq in Hf. pose proof (elem_cnt _ _ Hk). lia.
Qed.
Ltac two := intros k t C u v C' Hs Hf Ht Hl Hu Hl'; [rewrite cntn_akids in Hf; lia|].
Ltac pre Ht Hu Hl Hl' := destruct Ht as [p pl a aks i ks Hi Hks]; destruct Hu as [q ql b avs j us Hj Hus]; cbn [aptr apl]; unfold bind at 1;
  rewrite (data_run _ _ _ _ _ _ _ Hl Hi).
Ltac iters Hl Hi Hl' Hj a' b' Hra Hrb Hb := destruct (iter_run _ _ _ _ _ _ Hl Hi) as (a' & Hra & Ha); destruct (iter_run _ _ _ _ _ _ Hl' Hj) as (b' & Hrb & Hb).

Lemma eq_run eqA f : forall k t C u v C' Hs, cntn k <= f -> lrep ψ k t -> located W C k -> lrep ψ v u -> located W C' v ->
  rc_eq_ eqA B G f (rf k) (rf v) (addc Hs s) = ores (leq rd eqA t u) (addc Hs s).
Proof.
  induction f as [|f IH]; intros k t C u v C' Hs Hf Ht Hl Hu Hl'; [rewrite cntn_akids in Hf; lia|]. cbn [rc_eq_].
  pre Ht Hu Hl Hl'. cbn [leq]. destruct (rd i) eqn:Ei; [|done]. cbn [andb]. unfold bind at 1. rewrite (data_run _ _ _ _ _ _ _ Hl' Hj). destruct (rd j) eqn:Ej; [|done].
  destruct (eqA a b); [|done]. iters Hl Hi Hl' Hj a' b' Hra Hrb Hb. unfold bind at 1. rewrite Ha, Ei. unfold bind at 1. rewrite Hb, Ej. unfold bind at 1.
  rewrite (compare_run _ (fun x y => (fun e : bool => if e then None else Some tt) <$> leq rd eqA x y) _ aks avs ks us); try done; [| |by eapply lkid_bound].
  - by destruct (lcompare _ _ _).
  - eapply ok2_rec; [exact Hl|exact Hf|]. intros. unfold bind. rewrite (IH k t C0 u w C'0); try done. by destruct (leq rd eqA t u).
Qed.
Lemma ne_run eqA neA k t C u v C' Hs : lrep ψ k t -> located W C k -> lrep ψ v u -> located W C' v ->
  rc_ne eqA neA B (rf k) (rf v) (addc Hs s) =
    ores (if rd (lid t) && rd (lid u) then if neA (lval t) (lval u) then Some true else
       (fun c : unit + comparison => match c with inr Eq => false | _ => true end) <$>
         lcompare (fun x y => (fun e : bool => if e then None else Some tt) <$> leq rd eqA x y) (lkids t) (lkids u) else None) (addc Hs s).
Proof.
  intros Ht Hl Hu Hl'. pose proof (located_size _ _ _ _ _ Hl HI) as Hsz. unfold rc_ne.
  pre Ht Hu Hl Hl'. cbn [lid lval lkids]. destruct (rd i) eqn:Ei; [|done]. cbn [andb]. unfold bind at 1. rewrite (data_run _ _ _ _ _ _ _ Hl' Hj). destruct (rd j) eqn:Ej; [|done].
  destruct (neA a b); [done|]. iters Hl Hi Hl' Hj a' b' Hra Hrb Hb. unfold bind at 1, fuel, gets. cbn [m_heap addc adj]. fold (addc Hs s).
  unfold bind at 1. rewrite Ha, Ei. unfold bind at 1. rewrite Hb, Ej. unfold bind at 1.
  rewrite (compare_run _ (fun x y => (fun e : bool => if e then None else Some tt) <$> leq rd eqA x y) _ aks avs ks us); try done; [| |by eapply lkid_bound].
  - by destruct (lcompare _ _ _).
  - eapply (ok2_rec _ _ _ _ _ _ _ G); [exact Hl|lia|]. intros. unfold bind. rewrite (eq_run eqA G k t C0 u w C'0); try done. by destruct (leq rd eqA t u).
Qed.
Lemma pcmp_run pc f : forall k t C u v C' Hs, cntn k <= f -> lrep ψ k t -> located W C k -> lrep ψ v u -> located W C' v ->
  rc_pcmp_ pc B G f (rf k) (rf v) (addc Hs s) = ores (lpcmp rd pc t u) (addc Hs s).
Proof.
  induction f as [|f IH]; intros k t C u v C' Hs Hf Ht Hl Hu Hl'; [rewrite cntn_akids in Hf; lia|]. cbn [rc_pcmp_].
  pre Ht Hu Hl Hl'. cbn [lpcmp]. destruct (rd i) eqn:Ei; [|done]. cbn [andb]. unfold bind at 1. rewrite (data_run _ _ _ _ _ _ _ Hl' Hj). destruct (rd j) eqn:Ej; [|done].
  destruct (pc a b) as [[]|]; try done. iters Hl Hi Hl' Hj a' b' Hra Hrb Hb. unfold bind at 1. rewrite Ha, Ei. unfold bind at 1. rewrite Hb, Ej. unfold bind at 1.
  rewrite (compare_run _ (fun x y => (fun o : option comparison => match o with Some Eq => None | _ => Some o end) <$> lpcmp rd pc x y) _ aks avs ks us); try done; [| |by eapply lkid_bound].
  - by destruct (lcompare _ _ _).
  - eapply ok2_rec; [exact Hl|exact Hf|]. intros. unfold bind. rewrite (IH k t C0 u w C'0); try done. by destruct (lpcmp rd pc t u).
Qed.
Lemma cmp_run pc f : forall k t C u v C' Hs, cntn k <= f -> lrep ψ k t -> located W C k -> lrep ψ v u -> located W C' v ->
  rc_cmp_ pc B G f (rf k) (rf v) (addc Hs s) = ores (lcmp rd pc t u) (addc Hs s).
Proof.
  induction f as [|f IH]; intros k t C u v C' Hs Hf Ht Hl Hu Hl'; [rewrite cntn_akids in Hf; lia|]. cbn [rc_cmp_].
  pre Ht Hu Hl Hl'. cbn [lcmp]. destruct (rd i) eqn:Ei; [|done]. cbn [andb]. unfold bind at 1. rewrite (data_run _ _ _ _ _ _ _ Hl' Hj). destruct (rd j) eqn:Ej; [|done].
  destruct (pc a b); try done. iters Hl Hi Hl' Hj a' b' Hra Hrb Hb. unfold bind at 1. rewrite Ha, Ei. unfold bind at 1. rewrite Hb, Ej. unfold bind at 1.
  rewrite (compare_run _ (fun x y => (fun o : comparison => match o with Eq => None | _ => Some o end) <$> lcmp rd pc x y) _ aks avs ks us); try done; [| |by eapply lkid_bound].
  - by destruct (lcompare _ _ _).
  - eapply ok2_rec; [exact Hl|exact Hf|]. intros. unfold bind. rewrite (IH k t C0 u w C'0); try done. by destruct (lcmp rd pc t u).
Qed.

Lemma for_run {X} (fn : rnode -> M A X) e g : forall aks ts a Hs,
  (forall k t Hs, k ∈ aks -> lrep ψ k t -> fn (rf k) (addc Hs s) = ores (e t) (addc Hs s)) -> crel W a aks ->
  Forall2 (lrep ψ) aks ts -> length aks < g -> rc_for B fn g a (addc Hs s) = ores (lfor e ts) (addc Hs s).
Proof.
  induction g as [|g IH]; intros aks ts a Hs He Ha Ht Hg; [lia|]. cbn [rc_for]. destruct Ht as [|k t aks ts Hk Ht].
  - unfold bind at 1. rewrite (next_nil _ _ Ha). done.
  - destruct (next_cons _ _ _ _ Ha Hk) as (a' & Ha' & Hn). destruct (kid_located _ k _ Ha ltac:(left)) as [C Hl].
    unfold bind at 1. rewrite Hn. cbn [fst snd]. unfold bind at 1. rewrite (He k t _ ltac:(left) Hk). cbn [lfor]. destruct (e t) as [w|]; [|done]. cbn [ores].
    unfold bind at 1. rewrite (drop_run _ _ _ Hl). unfold bind. rewrite (IH aks ts); try done; [|intros ??? H0; apply He; by right|simpl in Hg; lia]. by destruct (lfor e ts).
Qed.
Lemma hash_run {H} (h : A -> list H) f : forall k t C Hs, cntn k <= f -> lrep ψ k t -> located W C k ->
  rc_hash_ h B G f (rf k) (addc Hs s) = ores (lhash rd h t) (addc Hs s).
Proof.
  induction f as [|f IH]; intros k t C Hs Hf Ht Hl; [rewrite cntn_akids in Hf; lia|]. cbn [rc_hash_].
  destruct Ht as [p pl a aks i ks Hi Hks]; cbn [aptr apl lhash]. unfold bind at 1. rewrite (data_run _ _ _ _ _ _ _ Hl Hi). destruct (rd i) eqn:Ei; [|done].
  destruct (iter_run _ _ _ _ _ _ Hl Hi) as (a' & Hra & Ha). unfold bind at 1. rewrite Ha, Ei. unfold bind at 1.
  rewrite (for_run _ (lhash rd h) _ aks ks); try done; [| |by eapply lkid_bound].
  - by destruct (lfor _ _).
  - intros k t Hs' Hk Hkt. destruct (kid_located _ k _ Hra Hk) as [Ck Hlk]. eapply IH; try done. rewrite cntn_eq in Hf. pose proof (elem_cnt _ _ Hk). lia.
Qed.
Lemma fmt_run show f : forall k t C Hs, cntn k <= f -> lrep ψ k t -> located W C k ->
  rc_fmt_ show B G f (rf k) (addc Hs s) = ores (lfmt rd show t) (addc Hs s).
Proof.
  induction f as [|f IH]; intros k t C Hs Hf Ht Hl; [rewrite cntn_akids in Hf; lia|]. cbn [rc_fmt_].
  destruct Ht as [p pl a aks i ks Hi Hks]; cbn [aptr apl lfmt]. unfold bind at 1. rewrite (hnc_run _ _ _ _ _ _ _ Hl Hi). destruct (rd i) eqn:Ei; [|done].
  assert ((match aks with [] => true | _ => false end) = (match ks with [] => true | _ => false end)) as -> by by destruct Hks.
  destruct ks as [|k0 ks0] eqn:Eks.
  - unfold bind. rewrite (data_run _ _ _ _ _ _ _ Hl Hi), Ei. done.
  - rewrite <-Eks in *. unfold bind at 1. rewrite (data_run _ _ _ _ _ _ _ Hl Hi), Ei.
    destruct (iter_run _ _ _ _ _ _ Hl Hi) as (a' & Hra & Ha). unfold bind at 1. rewrite Ha, Ei. unfold bind at 1.
    rewrite (for_run _ (lfmt rd show) _ aks ks); try done; [| |by eapply lkid_bound].
    + by destruct (lfor _ _).
    + intros k t Hs' Hk Hkt. destruct (kid_located _ k _ Hra Hk) as [Ck Hlk]. eapply IH; try done. rewrite cntn_eq in Hf. pose proof (elem_cnt _ _ Hk). lia.
Qed.
End run.
End cmp.
