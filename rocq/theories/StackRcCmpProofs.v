(** StackRcCmpProofs.v — proofs about StackRcCmpModel. *)
From Coq Require Import Ascii String.
From stdpp Require Import base gmap list.
From Verif Require Import Spec ClientSpec RcSpec Machine NodeModel BfsModel ClientModel Reach RcModel CmpModel RcCmpModel CmpSpec RcAllowed RcClient RcCmpClient Sep Rep NodeProofs Inv Abs ClientProofs
  BfsBuild BfsIter ClientRef ClientRead ClientProps ClientStep CmpProofs CmpLaws CountFrame RcRelease RcLab RcRef RcStep RcStep2 RcStep3 RcStep4 RcBorrow RcProps RcProps2 RcCmpProofs RcCmpProps
  DebugModel DebugSpec DebugProofs RcDebugModel RcDebugProofs StackModel StackProofs StackCmpModel StackCmpProofs StackRcCmpModel.

Section gen.
Context {A R : Type} (cont : R -> bool) (ee el eg : R).
Implicit Types (s : mem A) (t u : ltree A) (x y : tree A) (xs ys : list (tree A)).
Definition rfin (c : R + comparison) : R := match c with inl o => o | inr Eq => ee | inr Lt => el | inr Gt => eg end.
Definition keep (o : R) : option R := if cont o then None else Some o.
Fixpoint rc_gen_stack (dec : A -> A -> R) B D r r' : M A R :=
  match D with
  | 0 => fail EStack
  | S D' =>
    let! v := rc_data B r in
    let! w := rc_data B r' in
    if cont (dec v w) then
      let! a := rc_iter B r in
      let! b := rc_iter B r' in
      let! g := fuel in
      let! c := iter_compare B (fun r1 r2 => let! o := rc_gen_stack dec B D' r1 r2 in ret (keep o)) g a b in
      ret (rfin c)
    else ret (dec v w)
  end.
Definition gl (e : tree A -> tree A -> R) : list (tree A) -> list (tree A) -> R + comparison :=
  fix go xs ys := match xs, ys with
  | [], [] => inr Eq | [], _ :: _ => inr Lt | _ :: _, [] => inr Gt
  | x :: xs, y :: ys => if cont (e x y) then go xs ys else inl (e x y) end.
Lemma gl_glist e xs : forall ys, rfin (gl e xs ys) = glist cont ee el eg e xs ys.
Proof. induction xs as [|x xs IH]; intros [|y ys]; try done. cbn [gl glist]. destruct (cont (e x y)); [apply IH|done]. Qed.

Context (Hee : cont ee = true) (Hel : cont el = false) (Heg : cont eg = false).
Section run.
Context (s : mem A) (W : list (atree A)) (ψ : gmap ptr nat) (B : borrows) (rd : nat -> bool)
  (HI : MInvX s W []) (Hrd : forall p i, ψ !! p = Some i -> bool_decide (flag B p < 0)%Z = negb (rd i)).
Implicit Types (k : atree A) (aks : list (atree A)) (C : ctx A).
Local Notation G := (S (size (m_heap s))).
Local Notation rf k := (rform (aptr k) (apl k)).
Lemma compare_lim D (fn : rnode -> rnode -> M A R) e sm nd g : (forall x y, cont (e x y) = sm x y) -> forall aks avs ts us a b Hs,
  (forall k t v u C' Hs, k ∈ aks -> lrep ψ k t -> lrep ψ v u -> clear rd [t] -> clear rd [u] -> located W C' v ->
     fn (rf k) (rf v) (addc Hs s) = if decide (nd (erase t) (erase u) <= D) then Ok (e (erase t) (erase u)) (addc Hs s) else Err EStack) ->
  crel W a aks -> crel W b avs -> Forall2 (lrep ψ) aks ts -> Forall2 (lrep ψ) avs us -> clear rd ts -> clear rd us -> length aks < g ->
  iter_compare B (fun r1 r2 => let! o := fn r1 r2 in ret (keep o)) g a b (addc Hs s) =
    if decide (gneed sm nd (map erase ts) (map erase us) <= D) then Ok (gl e (map erase ts) (map erase us)) (addc Hs s) else Err EStack.
Proof.
  intros Hsm. induction g as [|g IH]; intros aks avs ts us a b Hs He Ha Hb Ht Hu Hct Hcu Hg; [lia|]. cbn [iter_compare].
  destruct Ht as [|k t aks ts Hk Ht]; destruct Hu as [|v u avs us Hv Hu]; cbn [map gneed gl].
  - unfold bind at 1. rewrite (next_nil s W _ _ Ha). unfold bind at 1. rewrite (next_nil s W _ _ Hb). rewrite decide_True by lia. done.
  - unfold bind at 1. rewrite (next_nil s W _ _ Ha). destruct (next_cons s W ψ HI _ _ _ _ Hb Hv) as (b' & _ & Hn). unfold bind at 1. rewrite Hn. cbn [fst snd].
    destruct (kid_located W _ v _ Hb ltac:(left)) as [C Hl]. unfold bind. rewrite (drop_run s W B HI _ _ _ Hl). rewrite decide_True by lia. done.
  - destruct (next_cons s W ψ HI _ _ _ _ Ha Hk) as (a' & _ & Hn). unfold bind at 1. rewrite Hn. unfold bind at 1. rewrite (next_nil s W _ _ Hb). cbn [fst snd].
    destruct (kid_located W _ k _ Ha ltac:(left)) as [C Hl]. unfold bind. rewrite (drop_run s W B HI _ _ _ Hl). rewrite decide_True by lia. done.
  - apply clear_cons in Hct as [Hct1 Hct2]. apply clear_cons in Hcu as [Hcu1 Hcu2].
    destruct (next_cons s W ψ HI _ _ _ _ Ha Hk) as (a' & Ha' & Hn). destruct (next_cons s W ψ HI _ _ _ _ Hb Hv) as (b' & Hb' & Hn').
    destruct (kid_located W _ k _ Ha ltac:(left)) as [C Hl]. destruct (kid_located W _ v _ Hb ltac:(left)) as [C' Hl'].
    unfold bind at 1. rewrite Hn. unfold bind at 1. rewrite Hn'. cbn [fst snd]. unfold bind at 1. unfold bind at 1.
    rewrite (He k t v u C' _ ltac:(left) Hk Hv Hct1 Hcu1 Hl'). rewrite <-Hsm. destruct (decide (nd (erase t) (erase u) <= D)) as [Hd|Hd]; [|by rewrite decide_False by lia].
    unfold ret at 1. unfold bind at 1. rewrite (drop_run s W B HI _ _ _ Hl'). unfold bind at 1. rewrite (drop_run s W B HI _ _ _ Hl). unfold keep at 1.
    destruct (cont (e (erase t) (erase u))); [|by rewrite decide_True by lia].
    rewrite (IH aks avs ts us); try done; [|intros ?????? H0; apply He; by right|simpl in Hg; lia].
    destruct (decide (gneed sm nd (map erase ts) (map erase us) <= D)); [by rewrite decide_True by lia|by rewrite decide_False by lia].
Qed.
Lemma rc_gen_run dec D : forall k t C u v C' Hs, lrep ψ k t -> located W C k -> lrep ψ v u -> located W C' v -> clear rd [t] -> clear rd [u] ->
  rc_gen_stack dec B D (rf k) (rf v) (addc Hs s) =
    if decide (depth_needed (fun a b => cont (dec a b)) (erase t) (erase u) <= D) then Ok (gtree cont ee el eg dec (erase t) (erase u)) (addc Hs s) else Err EStack.
Proof.
  induction D as [|D IH]; intros k t C u v C' Hs Ht Hl Hu Hl' Hct Hcu; destruct Ht as [p pl a aks i ks Hi Hks]; destruct Hu as [q ql b avs j us Hj Hus]; cbn [erase]; rewrite depth_needed_eq; cbn [aptr apl rc_gen_stack].
  - rewrite decide_False by lia. done.
  - apply clear_node in Hct as [Ei Hct]. apply clear_node in Hcu as [Ej Hcu].
    unfold bind at 1. rewrite (data_run s W ψ B rd HI Hrd _ _ _ _ _ _ _ Hl Hi), Ei. unfold bind at 1. rewrite (data_run s W ψ B rd HI Hrd _ _ _ _ _ _ _ Hl' Hj), Ej. cbn [gtree].
    destruct (cont (dec a b)); [|by rewrite decide_True by lia].
    destruct (iter_run s W ψ B rd HI Hrd _ _ _ _ _ _ Hl Hi) as (a' & Hra & Ha). destruct (iter_run s W ψ B rd HI Hrd _ _ _ _ _ _ Hl' Hj) as (b' & Hrb & Hb).
    unfold bind at 1. rewrite Ha, Ei. unfold bind at 1. rewrite Hb, Ej. unfold bind at 1, fuel, gets. cbn [m_heap addc adj]. fold (addc Hs s). unfold bind at 1.
    rewrite (compare_lim D _ (gtree cont ee el eg dec) (tree_same (fun a b => cont (dec a b))) (depth_needed (fun a b => cont (dec a b))) _ (fun x y => cont_same cont ee el eg Hee Hel Heg dec x y) aks avs ks us);
      [| |done..|by eapply lkid_bound].
    + rewrite <-gl_glist. destruct (decide (gneed (tree_same (fun a0 b0 => cont (dec a0 b0))) (depth_needed (fun a0 b0 => cont (dec a0 b0))) (map erase ks) (map erase us) <= D)); [by rewrite decide_True by lia|by rewrite decide_False by lia].
    + intros k t v u C0 Hs' Hk Hkt Hvu Hc1 Hc2 Hl0. destruct (kid_located W _ k _ Hra Hk) as [Ck Hlk]. by eapply IH.
Qed.
End run.
End gen.

(** * The functions of the code are instances *)
Section inst.
Context {A : Type}.
Implicit Types (s : mem A) (r : rnode) (B : borrows).
Lemma compare_ext {O O'} B (h : O -> O') (fn : rnode -> rnode -> M A (option O)) (fn' : rnode -> rnode -> M A (option O')) g :
  (forall x y s, fn' x y s = (let! o := fn x y in ret (option_map h o)) s) -> forall a b s,
  iter_compare B fn' g a b s = (let! c := iter_compare B fn g a b in ret (match c with inl o => inl (h o) | inr o => inr o end)) s.
Proof.
  intros He. induction g as [|g IH]; intros a b s; [done|]. cbn [iter_compare]. unfold bind. destruct (rc_iter_next a s) as [u s1|]; [|done]. destruct (rc_iter_next b s1) as [v s2|]; [|done].
  destruct (u.1) as [x|], (v.1) as [y|]; cbv beta iota.
  - rewrite He. unfold bind. destruct (fn x y s2) as [o s3|]; [|done]. unfold ret at 1. destruct (rc_drop_handle B y s3) as [? s4|]; [|done]. destruct (rc_drop_handle B x s4) as [? s5|]; [|done].
    destruct o; [done|]. cbn [option_map]. rewrite IH. done.
  - by destruct (rc_drop_handle B x s2).
  - by destruct (rc_drop_handle B y s2).
  - done.
Qed.
Lemma rc_eq_gen eqA B D : forall r r' s, rc_eq_stack (A:=A) eqA B D r r' s = rc_gen_stack (fun e => e) true false false eqA B D r r' s.
Proof.
  induction D as [|D IH]; intros r r' s; [done|]. cbn [rc_eq_stack rc_gen_stack]. apply bind_cong. intros x s1. apply bind_cong. intros y s2. destruct (eqA x y); [|done].
  apply bind_cong. intros a s3. apply bind_cong. intros b s4. apply bind_cong. intros g s5. unfold bind at 1.
  rewrite (compare_ext B (fun _ : bool => tt) (fun x y => let! o := rc_gen_stack (fun e => e) true false false eqA B D x y in ret (keep (fun e => e) o))).
  - unfold bind. match goal with |- context [iter_compare ?b ?f ?g ?x ?y ?s] => destruct (iter_compare b f g x y s) as [[|[]] s6|] eqn:E end; try done.
    (* the comparison stops with a pair that differs only *)
    assert (forall g a b s c s', iter_compare B (fun x y => let! o := rc_gen_stack (fun e => e) true false false eqA B D x y in ret (keep (fun e => e) o)) g a b s = Ok (inl c) s' -> c = false) as H.
    { clear. induction g as [|g IH]; intros a b s c s'; [done|]. cbn [iter_compare]. unfold bind. destruct (rc_iter_next a s) as [u s1|]; [|done]. destruct (rc_iter_next b s1) as [v s2|]; [|done].
      destruct (u.1) as [x|], (v.1) as [y|]; cbv beta iota; [|destruct (rc_drop_handle B x s2); done|destruct (rc_drop_handle B y s2); done|done].
      destruct (rc_gen_stack _ _ _ _ eqA B D x y s2) as [o s3|]; [|done]. unfold ret at 1. destruct (rc_drop_handle B y s3) as [? s4|]; [|done]. destruct (rc_drop_handle B x s4) as [? s5|]; [|done].
      unfold keep. destruct o; [apply IH|]. intros [= <- _]. done. }
    rewrite (H _ _ _ _ _ _ E). done.
  - intros x' y' s'. unfold bind. rewrite IH. destruct (rc_gen_stack _ _ _ _ eqA B D x' y' s') as [o s6|]; [|done]. by destruct o.
Qed.
Lemma rc_pcmp_gen pc B D : forall r r' s, rc_pcmp_stack (A:=A) pc B D r r' s = rc_gen_stack is_some_same (Some Eq) (Some Lt) (Some Gt) pc B D r r' s.
Proof.
  induction D as [|D IH]; intros r r' s; [done|]. cbn [rc_pcmp_stack rc_gen_stack]. apply bind_cong. intros x s1. apply bind_cong. intros y s2. destruct (pc x y) as [[]|] eqn:E; cbn [is_some_same]; try done.
  apply bind_cong. intros a s3. apply bind_cong. intros b s4. apply bind_cong. intros g s5. unfold bind at 1.
  rewrite (compare_ext B (fun o : option comparison => o) (fun x y => let! o := rc_gen_stack is_some_same (Some Eq) (Some Lt) (Some Gt) pc B D x y in ret (keep is_some_same o))).
  - unfold bind. match goal with |- context [iter_compare ?b ?f ?g ?x ?y ?s] => destruct (iter_compare b f g x y s) as [[|[]] s6|] eqn:E' end; done.
  - intros x' y' s'. unfold bind. rewrite IH. destruct (rc_gen_stack _ _ _ _ pc B D x' y' s') as [o s6|]; [|done]. by destruct o as [[]|].
Qed.
Lemma rc_cmp_gen cm B D : forall r r' s, rc_cmp_stack (A:=A) cm B D r r' s = rc_gen_stack is_same Eq Lt Gt cm B D r r' s.
Proof.
  induction D as [|D IH]; intros r r' s; [done|]. cbn [rc_cmp_stack rc_gen_stack]. apply bind_cong. intros x s1. apply bind_cong. intros y s2. destruct (cm x y) eqn:E; cbn [is_same]; try done.
  apply bind_cong. intros a s3. apply bind_cong. intros b s4. apply bind_cong. intros g s5. unfold bind at 1.
  rewrite (compare_ext B (fun o : comparison => o) (fun x y => let! o := rc_gen_stack is_same Eq Lt Gt cm B D x y in ret (keep is_same o))).
  - unfold bind. match goal with |- context [iter_compare ?b ?f ?g ?x ?y ?s] => destruct (iter_compare b f g x y s) as [[|[]] s6|] eqn:E' end; done.
  - intros x' y' s'. unfold bind. rewrite IH. destruct (rc_gen_stack _ _ _ _ cm B D x' y' s') as [o s6|]; [|done]. by destruct o.
Qed.
Lemma rc_ne_eq eqA neA B D r r' s : (forall a b, neA a b = negb (eqA a b)) -> rc_ne_stack (A:=A) eqA neA B D r r' s = (let! e := rc_eq_stack eqA B D r r' in ret (negb e)) s.
Proof.
  intros Hn. destruct D as [|D]; [done|]. cbn [rc_ne_stack rc_eq_stack]. unfold bind. destruct (rc_data B r s) as [x s1|]; [|done]. destruct (rc_data B r' s1) as [y s2|]; [|done].
  rewrite Hn. destruct (eqA x y); [|done]. cbn [negb]. destruct (rc_iter B r s2) as [a s3|]; [|done]. destruct (rc_iter B r' s3) as [b s4|]; [|done]. unfold fuel, gets.
  match goal with |- context [iter_compare ?b ?f ?g ?x ?y ?s] => destruct (iter_compare b f g x y s) as [[|[]] s6|] end; done.
Qed.
Lemma for_i_const {X} B (fn : rnode -> M A X) g : forall n a s, rc_for B fn g a s = rc_for_i B (fun _ => fn) g n a s.
Proof.
  induction g as [|g IH]; intros n a s; [done|]. cbn [rc_for rc_for_i]. unfold bind. destruct (rc_iter_next a s) as [u s1|]; [|done]. destruct (u.1) as [x|]; [|done].
  destruct (fn x s1) as [w s2|]; [|done]. destruct (rc_drop_handle B x s2) as [? s3|]; [|done]. by rewrite (IH (S n)).
Qed.
End inst.

(** * Hashing and printing *)
Section fors.
Context {A : Type}.
Implicit Types (t u : ltree A) (x : tree A).
Definition fori {X} (e : nat -> tree A -> X) : nat -> list (tree A) -> list X := fix go n xs := match xs with [] => [] | x :: xs => e n x :: go (S n) xs end.
Lemma fori_const {X} (e : tree A -> X) xs : forall n, fori (fun _ => e) n xs = map e xs.
Proof. induction xs as [|x xs IH]; intros n; [done|]. cbn [fori map]. by rewrite IH. Qed.
Section run.
Context (s : mem A) (W : list (atree A)) (ψ : gmap ptr nat) (B : borrows) (rd : nat -> bool)
  (HI : MInvX s W []) (Hrd : forall p i, ψ !! p = Some i -> bool_decide (flag B p < 0)%Z = negb (rd i)).
Implicit Types (k : atree A) (aks : list (atree A)) (C : ctx A).
Local Notation G := (S (size (m_heap s))).
Local Notation rf k := (rform (aptr k) (apl k)).
Lemma for_lim {X} D (fn : nat -> rnode -> M A X) e g : forall aks ts a n Hs,
  (forall n k t Hs, k ∈ aks -> lrep ψ k t -> clear rd [t] -> fn n (rf k) (addc Hs s) = if decide (height (erase t) <= D) then Ok (e n (erase t)) (addc Hs s) else Err EStack) ->
  crel W a aks -> Forall2 (lrep ψ) aks ts -> clear rd ts -> length aks < g ->
  rc_for_i B fn g n a (addc Hs s) = if decide (list_max (map height (map erase ts)) <= D) then Ok (fori e n (map erase ts)) (addc Hs s) else Err EStack.
Proof.
  induction g as [|g IH]; intros aks ts a n Hs He Ha Ht Hc Hg; [lia|]. cbn [rc_for_i]. destruct Ht as [|k t aks ts Hk Ht].
  - unfold bind at 1. rewrite (next_nil s W _ _ Ha). cbn [map]. rewrite decide_True by (cbn; lia). done.
  - apply clear_cons in Hc as [Hc1 Hc2]. destruct (next_cons s W ψ HI _ _ _ _ Ha Hk) as (a' & Ha' & Hn). destruct (kid_located W _ k _ Ha ltac:(left)) as [C Hl].
    unfold bind at 1. rewrite Hn. cbn [fst snd]. unfold bind at 1. rewrite (He n k t _ ltac:(left) Hk Hc1). cbn [map]. destruct (decide (height (erase t) <= D)) as [Hh|Hh].
    + unfold bind at 1. rewrite (drop_run s W B HI _ _ _ Hl). unfold bind. rewrite (IH aks ts); try done; [|intros ???? H0; apply He; by right|simpl in Hg; lia].
      destruct (decide (list_max (map height (map erase ts)) <= D)); [rewrite decide_True by (by apply list_max_cons_le)|rewrite decide_False by (rewrite list_max_cons_le; tauto)]; done.
    + rewrite decide_False by (rewrite list_max_cons_le; tauto). done.
Qed.
Ltac fin D H := destruct (decide (H <= D)); [rewrite decide_True by lia|rewrite decide_False by lia].
Lemma rc_hash_lim {H} (h : A -> list H) D : forall k t C Hs, lrep ψ k t -> located W C k -> clear rd [t] ->
  rc_hash_stack h B D (rf k) (addc Hs s) = if decide (height (erase t) <= D) then Ok (flat_map h (preorder (erase t))) (addc Hs s) else Err EStack.
Proof.
  induction D as [|D IH]; intros k t C Hs Ht Hl Hc; destruct Ht as [p pl a aks i ks Hi Hks]; cbn [aptr apl rc_hash_stack erase height].
  - rewrite decide_False by lia. done.
  - apply clear_node in Hc as [Ei Hc]. unfold bind at 1. rewrite (data_run s W ψ B rd HI Hrd _ _ _ _ _ _ _ Hl Hi), Ei.
    destruct (iter_run s W ψ B rd HI Hrd _ _ _ _ _ _ Hl Hi) as (a' & Hra & Ha). unfold bind at 1. rewrite Ha, Ei. unfold bind at 1, fuel, gets. cbn [m_heap addc adj]. fold (addc Hs s). unfold bind.
    rewrite (for_i_const _ _ _ 0), (for_lim D _ (fun _ x => flat_map h (preorder x)) _ aks ks); [| |done..|by eapply lkid_bound].
    + fin D (list_max (map height (map erase ks))); [|done]. rewrite fori_const. cbn [preorder flat_map]. unfold ret. do 2 f_equal. generalize (map (@erase A) ks). intros xs. clear. induction xs as [|x xs IH]; [done|].
      cbn [map concat flat_map]. by rewrite flat_map_app, IH.
    + intros _ k t Hs' Hk Hkt Hct. destruct (kid_located W _ k _ Hra Hk) as [Ck Hlk]. by eapply IH.
Qed.
Lemma rc_fmt_lim show D : forall k t C Hs, lrep ψ k t -> located W C k -> clear rd [t] ->
  rc_fmt_stack show B D (rf k) (addc Hs s) = if decide (height (erase t) <= D) then Ok (display show (erase t)) (addc Hs s) else Err EStack.
Proof.
  induction D as [|D IH]; intros k t C Hs Ht Hl Hc; destruct Ht as [p pl a aks i ks Hi Hks]; cbn [aptr apl rc_fmt_stack erase height].
  - rewrite decide_False by lia. done.
  - apply clear_node in Hc as [Ei Hc]. unfold bind at 1. rewrite (hnc_run s W ψ B rd HI Hrd _ _ _ _ _ _ _ Hl Hi), Ei. destruct Hks as [|k t aks ks Hk Hks].
    + unfold bind. rewrite (data_run s W ψ B rd HI Hrd _ _ _ _ _ _ _ Hl Hi), Ei. rewrite decide_True by (cbn; lia). done.
    + unfold bind at 1. rewrite (data_run s W ψ B rd HI Hrd _ _ _ _ _ _ _ Hl Hi), Ei. destruct (iter_run s W ψ B rd HI Hrd _ _ _ _ _ _ Hl Hi) as (a' & Hra & Ha).
      unfold bind at 1. rewrite Ha, Ei. unfold bind at 1, fuel, gets. cbn [m_heap addc adj]. fold (addc Hs s). unfold bind.
      rewrite (for_i_const _ _ _ 0), (for_lim D _ (fun _ => display show) _ (k :: aks) (t :: ks)); [| |exact Hra|by constructor|exact Hc|by eapply lkid_bound].
      * fin D (list_max (map height (map erase (t :: ks)))); [|done]. rewrite fori_const. unfold ret. do 2 f_equal. cbn [display map]. do 2 f_equal. f_equal.
        change (erase t :: map erase ks) with (map erase (t :: ks)). change (display show (erase t) :: map (display show) (map erase ks)) with (map (display show) (map erase (t :: ks))). generalize (map (@erase A) (t :: ks)). intros xs. clear. induction xs as [|x xs IH]; [reflexivity|]. cbn [map fold_right]. by rewrite IH.
      * intros _ k0 t0 Hs' Hk0 Hkt Hct. destruct (kid_located W _ k0 _ Hra Hk0) as [Ck Hlk]. by eapply IH.
Qed.
Lemma rc_dbg_lim show slot D : forall k t C path Hs, lrep ψ k t -> located W C k -> clear rd [t] ->
  rc_dbg_stack show slot B D path (rf k) (addc Hs s) = if decide (height (erase t) <= D) then Ok (debug_at show slot path (erase t)) (addc Hs s) else Err EStack.
Proof.
  induction D as [|D IH]; intros k t C path Hs Ht Hl Hc; destruct Ht as [p pl a aks i ks Hi Hks]; cbn [aptr apl rc_dbg_stack erase height]; rewrite debug_at_eq.
  - rewrite decide_False by lia. done.
  - apply clear_node in Hc as [Ei Hc]. unfold bind at 1. rewrite (hnc_run s W ψ B rd HI Hrd _ _ _ _ _ _ _ Hl Hi), Ei. unfold bind at 1. rewrite (data_run s W ψ B rd HI Hrd _ _ _ _ _ _ _ Hl Hi), Ei.
    destruct Hks as [|k t aks ks Hk Hks]; [rewrite decide_True by (cbn; lia); done|].
    destruct (iter_run s W ψ B rd HI Hrd _ _ _ _ _ _ Hl Hi) as (a' & Hra & Ha). unfold bind at 1. rewrite Ha, Ei. unfold bind at 1, fuel, gets. cbn [m_heap addc adj]. fold (addc Hs s). unfold bind.
    rewrite (for_lim D _ (fun n => debug_at show slot (path ++ [n])) _ (k :: aks) (t :: ks)); [| |exact Hra|by constructor|exact Hc|by eapply lkid_bound].
    + fin D (list_max (map height (map erase (t :: ks)))); [|done]. assert (forall xs n, fold_right String.append ""%string (fori (fun n => debug_at show slot (path ++ [n])) n xs) = dbg_kids show slot path n xs) as HK.
      { clear. induction xs as [|x xs IH]; intros n; [done|]. cbn [fori fold_right dbg_kids]. by rewrite IH. }
      rewrite HK. unfold ret. rewrite !sapp_assoc. done.
    + intros n k0 t0 Hs' Hk0 Hkt Hct. destruct (kid_located W _ k0 _ Hra Hk0) as [Ck Hlk]. by eapply IH.
Qed.
End run.
End fors.

(** * [Debug] of nodes *)
Section node.
Context {A : Type} (show : A -> string) (showp : ptr -> string).
Implicit Types (y : tree (A * ptr)).
Lemma ry_height (t : atree A) : forall y, ry t y -> forall x, rt t x -> height y = height x.
Proof.
  induction t as [p pl v ks IH] using atree_ind'. intros y Hy x Hx. inversion Hy as [p1 pl1 a1 ks1 ys Hys]; subst. inversion Hx as [p2 pl2 a2 ks2 xs Hxs]; subst. cbn [height]. do 2 f_equal.
  clear Hy Hx. revert xs Hxs. induction Hys as [|k y ks ys Hk _ IHl]; intros xs Hxs; inversion Hxs as [|? x ? xs' Hkx Hxs']; subst; [done|]. inversion IH as [|? ? Ik Iks]; subst.
  cbn [map]. f_equal; [by apply Ik|by apply IHl].
Qed.
Section run.
Context (s : mem A) (W : list (atree A)) (E : list (ptr * node A)) (HI : MInvX s W E).
Lemma iter_dbg_lim D sep hn g : forall ks ys a, (forall k y, k ∈ ks -> ry k y -> hn (aptr k) s = if decide (height y <= D) then Ok (debug show showp y) s else Err EStack) -> crel W a ks -> Forall2 ry ks ys -> length ks < g ->
  iter_dbg (A:=A) sep hn g a s = if decide (list_max (map height ys) <= D) then Ok (fold_right (fun k w => debug show showp k ++ sep ++ w)%string ""%string ys) s else Err EStack.
Proof.
  induction g as [|g IH]; intros ks ys a He Ha Hx Hg; [lia|]. cbn [iter_dbg]. destruct Hx as [|k x ks xs Hk Hx].
  - unfold bind at 1. rewrite (crel_nil _ _ s Ha). cbn [map]. rewrite decide_True by (cbn; lia). done.
  - destruct (crel_cons _ _ _ _ _ _ Ha HI) as (a' & Hn & Ha'). unfold bind at 1. rewrite Hn. cbn [fst snd].
    unfold bind at 1. rewrite (He k x ltac:(left) Hk). cbn [map]. destruct (decide (height x <= D)) as [Hh|Hh].
    + unfold bind. rewrite (IH ks xs); [|intros k0 x0 H0; apply He; by right|done..|simpl in Hg; lia].
      destruct (decide (list_max (map height xs) <= D)); [rewrite decide_True by (by apply list_max_cons_le)|rewrite decide_False by (rewrite list_max_cons_le; tauto)]; done.
    + rewrite decide_False by (rewrite list_max_cons_le; tauto). done.
Qed.
Lemma node_dbg_lim D : forall t y C, ry t y -> located W C t -> node_dbg_stack show showp D (aptr t) s = if decide (height y <= D) then Ok (debug show showp y) s else Err EStack.
Proof.
  induction D as [|D IH]; intros t y C Ht Hl; (inversion Ht as [p pl v ks xs Hks]; subst); cbn [aptr node_dbg_stack height].
  - rewrite decide_False by lia. done.
  - unfold bind at 1. rewrite (CmpProofs.hnc_run _ _ _ HI _ _ _ _ _ Hl). unfold bind at 1. rewrite (located_data _ _ _ _ _ _ _ _ Hl HI). destruct Hks as [|k x ks xs Hk Hks].
    + rewrite decide_True by (cbn; lia). done.
    + destruct (crel_iter _ _ _ _ _ _ _ _ Hl HI) as (a & Ha & Hra). unfold bind at 1. rewrite Ha. unfold bind at 1, fuel, gets.
      unfold bind. rewrite (iter_dbg_lim D _ _ _ (k :: ks) (x :: xs)); [|..|exact Hra|by constructor|by eapply kid_bound].
      * destruct (decide (list_max (map height (x :: xs)) <= D)); [rewrite decide_True by lia|rewrite decide_False by lia; done]. unfold ret. cbn [debug]. rewrite !sapp_assoc. done.
      * intros k0 x0 Hk0 Hkx. destruct (chain_located W (k :: ks) k0) as [Ck Hlk]; [by eapply chain_kids|done|]. by eapply IH.
Qed.
End run.
Lemma call_dbg_stack (c : cst A) (env : gmap nat (item A)) D p x : reachable c -> contents c env -> node_is c env p x ->
  node_dbg_stack show showp D p (c_mem c) = if decide (height x <= D) then node_dbg show showp p (c_mem c) else Err EStack.
Proof.
  intros Hr Hc Hp. destruct (at_world c env Hr Hc) as (W & HI & Hnode & _). destruct (Hnode _ _ Hp) as (C & t & Hl & Ht & <-). destruct (rt_ry _ _ Ht) as (y & Hy & Hyx).
  rewrite (node_dbg_lim _ _ _ HI D _ _ _ Hy Hl), (ry_height _ _ Hy _ Ht). destruct (decide (height x <= D)); [|done]. symmetry.
  unfold node_dbg. unfold bind at 1; unfold fuel at 1, gets at 1; cbv beta iota. eapply (node_dbg_run _ _ _ _ _ HI); try done. by eapply located_bound.
Qed.
End node.

(** * In a reached state *)
Section calls.
Context {A : Type} (c : rst A) (σ : rss A) (HRc : reached c σ).
Implicit Types (t u : ltree A) (r : rnode).
Lemma unlocked_clear t : ~ locked σ t -> clear (readable σ) [t].
Proof. intros H. rewrite <-(not_clear σ) in H. destruct (clear_dec (readable σ) [t]) as [Hc|(j & Hj & Hf)]; [done|]. exfalso. apply H. intros Hc. specialize (Hc j Hj). congruence. Qed.
Lemma call_rc_gen {R} cont (ee el eg : R) dec D r r' t u : cont ee = true -> cont el = false -> cont eg = false -> handle_for c σ r t -> handle_for c σ r' u -> ~ locked σ t -> ~ locked σ u ->
  rc_gen_stack cont ee el eg dec (r_b c) D r r' (r_mem c) =
    if decide (depth_needed (fun a b => cont (dec a b)) (erase t) (erase u) <= D) then Ok (gtree cont ee el eg dec (erase t) (erase u)) (r_mem c) else Err EStack.
Proof.
  intros H1 H2 H3 Hk Hu Ht%unlocked_clear Hv%unlocked_clear. destruct (world c σ HRc) as (s & W & ψ & Hs & Hm & HI & Hrd & Hw). destruct (Hw _ _ Hk) as (k & C & -> & Hkt & Hl). destruct (Hw _ _ Hu) as (v & C' & -> & Hvu & Hl').
  rewrite Hm. by eapply (rc_gen_run cont ee el eg H1 H2 H3 s W ψ (r_b c) (readable σ) HI Hrd).
Qed.
Lemma call_rc_eq_lim eqA D r r' t u : handle_for c σ r t -> handle_for c σ r' u -> ~ locked σ t -> ~ locked σ u ->
  exists b, (b = true <-> tree_rel (fun a b => eqA a b = true) (erase t) (erase u)) /\
    rc_eq_stack eqA (r_b c) D r r' (r_mem c) = if decide (depth_needed eqA (erase t) (erase u) <= D) then Ok b (r_mem c) else Err EStack.
Proof.
  intros. exists (tree_same eqA (erase t) (erase u)). split; [apply tree_same_spec|]. rewrite rc_eq_gen, (call_rc_gen (fun e => e) true false false eqA D r r' t u), gtree_eq; done.
Qed.
Lemma call_rc_ne_lim eqA neA D r r' t u : (forall a b, neA a b = negb (eqA a b)) -> handle_for c σ r t -> handle_for c σ r' u -> ~ locked σ t -> ~ locked σ u ->
  exists b, (b = true <-> ~ tree_rel (fun a b => eqA a b = true) (erase t) (erase u)) /\
    rc_ne_stack eqA neA (r_b c) D r r' (r_mem c) = if decide (depth_needed eqA (erase t) (erase u) <= D) then Ok b (r_mem c) else Err EStack.
Proof.
  intros Hn Hk Hu Ht Hv. destruct (call_rc_eq_lim eqA D r r' t u Hk Hu Ht Hv) as (b & Hb & E). exists (negb b). split.
  - rewrite <-Hb. by destruct b.
  - rewrite rc_ne_eq by done. unfold bind. rewrite E. by destruct (decide _).
Qed.
Lemma call_rc_pcmp_lim pc D r r' t u : handle_for c σ r t -> handle_for c σ r' u -> ~ locked σ t -> ~ locked σ u ->
  rc_pcmp_stack pc (r_b c) D r r' (r_mem c) =
    if decide (depth_needed (fun a b => match pc a b with Some Eq => true | _ => false end) (erase t) (erase u) <= D) then Ok (tree_pcmp pc (erase t) (erase u)) (r_mem c) else Err EStack.
Proof. intros. rewrite rc_pcmp_gen, (call_rc_gen is_some_same (Some Eq) (Some Lt) (Some Gt) pc D r r' t u), gtree_pcmp; done. Qed.
Lemma call_rc_cmp_lim cm D r r' t u : handle_for c σ r t -> handle_for c σ r' u -> ~ locked σ t -> ~ locked σ u ->
  rc_cmp_stack cm (r_b c) D r r' (r_mem c) =
    if decide (depth_needed (fun a b => match cm a b with Eq => true | _ => false end) (erase t) (erase u) <= D) then Ok (tree_cmp cm (erase t) (erase u)) (r_mem c) else Err EStack.
Proof. intros. rewrite rc_cmp_gen, (call_rc_gen is_same Eq Lt Gt cm D r r' t u), gtree_cmp; done. Qed.
Lemma call_rc_read_lim D r t : handle_for c σ r t -> ~ locked σ t ->
  (forall H (h : A -> list H), rc_hash_stack h (r_b c) D r (r_mem c) = if decide (height (erase t) <= D) then Ok (flat_map h (preorder (erase t))) (r_mem c) else Err EStack) /\
  (forall show, rc_fmt_stack show (r_b c) D r (r_mem c) = if decide (height (erase t) <= D) then Ok (display show (erase t)) (r_mem c) else Err EStack) /\
  (forall show slot, rc_dbg_stack show slot (r_b c) D [] r (r_mem c) = if decide (height (erase t) <= D) then Ok (debug_at show slot [] (erase t)) (r_mem c) else Err EStack).
Proof.
  intros Hk Ht%unlocked_clear. destruct (world c σ HRc) as (s & W & ψ & Hs & Hm & HI & Hrd & Hw). destruct (Hw _ _ Hk) as (k & C & -> & Hkt & Hl). rewrite Hm. split_and!; intros.
  - by eapply (rc_hash_lim s W ψ (r_b c) (readable σ) HI Hrd).
  - by eapply (rc_fmt_lim s W ψ (r_b c) (readable σ) HI Hrd).
  - by eapply (rc_dbg_lim s W ψ (r_b c) (readable σ) HI Hrd).
Qed.
End calls.
