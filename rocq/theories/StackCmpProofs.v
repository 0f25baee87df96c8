(** StackCmpProofs.v — proofs about StackCmpModel. *)
From stdpp Require Import base gmap list.
From Verif Require Import Spec ClientSpec Machine NodeModel BfsModel CmpModel CmpSpec ClientModel Reach Sep Rep NodeProofs Inv Abs ClientProofs BfsBuild BfsIter ClientRef ClientStep ClientRead ClientProps CmpProofs
  StackModel StackProofs StackCmpModel.

Section gen.
Context {A R : Type} (cont : R -> bool) (ee el eg : R).
Implicit Types (W : list (atree A)) (s : mem A) (t u k : atree A) (ks : list (atree A)) (x y : tree A) (xs ys : list (tree A)).

(** the three iterator comparisons in one *)
Fixpoint iter_gen (cmpn : ptr -> ptr -> M A R) g a b : M A R :=
  match g with
  | 0 => fail EFuel
  | S g' =>
    let! r := ci_next a in
    let! r' := ci_next b in
    match r.1, r'.1 with
    | None, None => ret ee
    | None, Some _ => ret el
    | Some _, None => ret eg
    | Some x, Some y => let! o := cmpn x y in if cont o then iter_gen cmpn g' r.2 r'.2 else ret o
    end
  end.
Fixpoint gen_stack (dec : A -> A -> R) (D : nat) p q : M A R :=
  match D with
  | 0 => fail EStack
  | S D' =>
    let! x := data p in
    let! y := data q in
    if cont (dec x y) then let! a := iter p in let! b := iter q in let! g := fuel in iter_gen (gen_stack dec D') g a b else ret (dec x y)
  end.
Definition glist (e : tree A -> tree A -> R) : list (tree A) -> list (tree A) -> R :=
  fix go xs ys := match xs, ys with
  | [], [] => ee | [], _ :: _ => el | _ :: _, [] => eg
  | x :: xs, y :: ys => if cont (e x y) then go xs ys else e x y end.
Fixpoint gtree (dec : A -> A -> R) x y : R :=
  match x, y with Tr a xs, Tr b ys => if cont (dec a b) then glist (gtree dec) xs ys else dec a b end.
Definition gsame (f : tree A -> tree A -> bool) : list (tree A) -> list (tree A) -> bool :=
  fix go xs ys := match xs, ys with [], [] => true | x :: xs, y :: ys => f x y && go xs ys | _, _ => false end.
Definition gneed (sm : tree A -> tree A -> bool) (nd : tree A -> tree A -> nat) : list (tree A) -> list (tree A) -> nat :=
  fix go xs ys := match xs, ys with x :: xs, y :: ys => max (nd x y) (if sm x y then go xs ys else 0) | _, _ => 0 end.
Lemma tree_same_eq sa a b xs ys : tree_same (A:=A) sa (Tr a xs) (Tr b ys) = sa a b && gsame (tree_same sa) xs ys.
Proof. done. Qed.
Lemma depth_needed_eq sa a b xs ys : depth_needed (A:=A) sa (Tr a xs) (Tr b ys) = S (if sa a b then gneed (tree_same sa) (depth_needed sa) xs ys else 0).
Proof. done. Qed.

Context (Hee : cont ee = true) (Hel : cont el = false) (Heg : cont eg = false).
Lemma cont_same dec x : forall y, cont (gtree dec x y) = tree_same (fun a b => cont (dec a b)) x y.
Proof.
  induction x as [a xs IH] using tree_ind'. intros [b ys]. rewrite tree_same_eq. cbn [gtree]. destruct (cont (dec a b)) eqn:E; [|exact E]. cbn [andb].
  revert ys. induction IH as [|x xs Hx _ IHxs]; intros [|y ys]; [done..|]. cbn [glist gsame]. rewrite <-Hx. destruct (cont (gtree dec x y)) eqn:E2; [apply IHxs|exact E2].
Qed.

Section run.
Context (s : mem A) (W : list (atree A)) (E : list (ptr * node A)) (HI : MInvX s W E).
Lemma iter_gen_run D fn (e : tree A -> tree A -> R) (sm : tree A -> tree A -> bool) (nd : tree A -> tree A -> nat) g : (forall x y, cont (e x y) = sm x y) -> forall ks ks' xs ys a b,
  (forall k x u y C', k ∈ ks -> rt k x -> rt u y -> located W C' u -> fn (aptr k) (aptr u) s = if decide (nd x y <= D) then Ok (e x y) s else Err EStack) ->
  crel W a ks -> crel W b ks' -> Forall2 rt ks xs -> Forall2 rt ks' ys -> length ks < g ->
  iter_gen fn g a b s = if decide (gneed sm nd xs ys <= D) then Ok (glist e xs ys) s else Err EStack.
Proof.
  intros Hsm. induction g as [|g IH]; intros ks ks' xs ys a b He Ha Hb Hx Hy Hg; [lia|]. cbn [iter_gen].
  destruct Hx as [|k x ks xs Hk Hx]; destruct Hy as [|k' y ks' ys Hk' Hy].
  - unfold bind at 1. rewrite (crel_nil _ _ s Ha). unfold bind at 1. rewrite (crel_nil _ _ s Hb). cbn [fst snd gneed glist]. rewrite decide_True by lia. done.
  - unfold bind at 1. rewrite (crel_nil _ _ s Ha). destruct (crel_cons _ _ _ _ _ _ Hb HI) as (b' & Hn & _). unfold bind at 1. rewrite Hn. cbn [fst snd gneed glist]. rewrite decide_True by lia. done.
  - destruct (crel_cons _ _ _ _ _ _ Ha HI) as (a' & Hn & _). unfold bind at 1. rewrite Hn. unfold bind at 1. rewrite (crel_nil _ _ s Hb). cbn [fst snd gneed glist]. rewrite decide_True by lia. done.
  - destruct (crel_cons _ _ _ _ _ _ Ha HI) as (a' & Hn & Ha'). destruct (crel_cons _ _ _ _ _ _ Hb HI) as (b' & Hn' & Hb').
    unfold bind. rewrite Hn, Hn'. cbn [fst snd].
    destruct (chain_located W (k' :: ks') k') as [C' Hl']; [apply Hb|left|].
    rewrite (He k x k' y C' ltac:(left) Hk Hk' Hl'). cbn [gneed glist]. rewrite <-Hsm. destruct (decide (nd x y <= D)) as [Hd|Hd]; [|by rewrite decide_False by lia].
    destruct (cont (e x y)); [|by rewrite decide_True by lia].
    rewrite (IH ks ks' xs ys); [|intros k0 x0 u0 y0 C0 H0; apply He; by right|done..|simpl in Hg; lia].
    destruct (decide (gneed sm nd xs ys <= D)); [by rewrite decide_True by lia|by rewrite decide_False by lia].
Qed.
Lemma gen_stack_run dec D : forall t x C u y C', rt t x -> located W C t -> rt u y -> located W C' u ->
  gen_stack dec D (aptr t) (aptr u) s = if decide (depth_needed (fun a b => cont (dec a b)) x y <= D) then Ok (gtree dec x y) s else Err EStack.
Proof.
  induction D as [|D IH]; intros t x C u y C' Ht Hl Hu Hl'; (inversion Ht as [p pl v ks xs Hks]; subst); (inversion Hu as [q ql w us ys Hus]; subst); rewrite depth_needed_eq; cbn [aptr gen_stack].
  - rewrite decide_False by lia. done.
  - unfold bind at 1. rewrite (located_data _ _ _ _ _ _ _ _ Hl HI). unfold bind at 1. rewrite (located_data _ _ _ _ _ _ _ _ Hl' HI). cbn [gtree].
    destruct (cont (dec v w)); [|by rewrite decide_True by lia].
    destruct (crel_iter _ _ _ _ _ _ _ _ Hl HI) as (a & Ha & Hra). destruct (crel_iter _ _ _ _ _ _ _ _ Hl' HI) as (b & Hb & Hrb).
    unfold bind at 1. rewrite Ha. unfold bind at 1. rewrite Hb. unfold bind at 1, fuel, gets.
    rewrite (iter_gen_run D _ (gtree dec) (tree_same (fun a b => cont (dec a b))) (depth_needed (fun a b => cont (dec a b))) _ (fun x y => cont_same dec x y) ks us xs ys); [| |done..|by eapply kid_bound].
    + destruct (decide (gneed (tree_same (fun a0 b0 => cont (dec a0 b0))) (depth_needed (fun a0 b0 => cont (dec a0 b0))) xs ys <= D)); [by rewrite decide_True by lia|by rewrite decide_False by lia].
    + intros k x' u' y' C0 Hk Hkx Hu' Hl0. destruct (chain_located W ks k) as [Ck Hlk]; [by eapply chain_kids|done|]. by eapply IH.
Qed.
End run.
End gen.

Section inst.
Context {A : Type}.
Implicit Types (x y : tree A) (p q : ptr) (s : mem A).
Definition is_same (o : comparison) : bool := match o with Eq => true | _ => false end.
Definition is_some_same (o : option comparison) : bool := match o with Some Eq => true | _ => false end.

Lemma bind_cong {X Y} (m : M A X) (f g : X -> M A Y) s : (forall (z : X) (s1 : mem A), f z s1 = g z s1) -> bind m f s = bind m g s.
Proof. intros H. unfold bind. destruct (m s); [apply H|done]. Qed.
Lemma iter_gen_ext {R} cont (ee el eg : R) (f f' : ptr -> ptr -> M A R) g : (forall p q s, f p q s = f' p q s) -> forall a b s, iter_gen cont ee el eg f g a b s = iter_gen cont ee el eg f' g a b s.
Proof.
  intros He. induction g as [|g IH]; intros a b s; [done|]. cbn [iter_gen]. apply bind_cong. intros r s1. apply bind_cong. intros r' s2. destruct (r.1), (r'.1); try done.
  unfold bind. rewrite He. destruct (f' _ _ _) as [o s3|]; [|done]. destruct (cont o); [apply IH|done].
Qed.
Lemma iter_eq_gen f g : forall a b s, iter_eq (A:=A) f g a b s = iter_gen (fun e => e) true false false f g a b s.
Proof.
  induction g as [|g IH]; intros a b s; [done|]. cbn [iter_eq iter_gen]. apply bind_cong. intros r s1. apply bind_cong. intros r' s2. destruct (r.1), (r'.1); try done.
  apply bind_cong. intros [] s3; [apply IH|done].
Qed.
Lemma iter_pcmp_gen f g : forall a b s, iter_pcmp (A:=A) f g a b s = iter_gen is_some_same (Some Eq) (Some Lt) (Some Gt) f g a b s.
Proof.
  induction g as [|g IH]; intros a b s; [done|]. cbn [iter_pcmp iter_gen]. apply bind_cong. intros r s1. apply bind_cong. intros r' s2. destruct (r.1), (r'.1); try done.
  apply bind_cong. intros [[]|] s3; [apply IH|done..].
Qed.
Lemma iter_cmp_gen f g : forall a b s, iter_cmp (A:=A) f g a b s = iter_gen is_same Eq Lt Gt f g a b s.
Proof.
  induction g as [|g IH]; intros a b s; [done|]. cbn [iter_cmp iter_gen]. apply bind_cong. intros r s1. apply bind_cong. intros r' s2. destruct (r.1), (r'.1); try done.
  apply bind_cong. intros [] s3; [apply IH|done..].
Qed.
Lemma eq_gen eqA D : forall p q s, eq_stack (A:=A) eqA D p q s = gen_stack (fun e => e) true false false eqA D p q s.
Proof.
  induction D as [|D IH]; intros p q s; [done|]. cbn [eq_stack gen_stack]. apply bind_cong. intros x s1. apply bind_cong. intros y s2. destruct (eqA x y); [|done].
  apply bind_cong. intros a s3. apply bind_cong. intros b s4. apply bind_cong. intros g s5. rewrite iter_eq_gen. apply iter_gen_ext, IH.
Qed.
Lemma ne_eq eqA neA D p q s : (forall a b, neA a b = negb (eqA a b)) -> ne_stack (A:=A) eqA neA D p q s = (let! e := eq_stack eqA D p q in ret (negb e)) s.
Proof.
  intros Hn. destruct D as [|D]; [done|]. cbn [ne_stack eq_stack]. unfold bind. destruct (data p s) as [x s1|]; [|done]. destruct (data q s1) as [y s2|]; [|done].
  rewrite Hn. destruct (eqA x y); [|done]. cbn [negb]. destruct (iter p s2) as [a s3|]; [|done]. destruct (iter q s3) as [b s4|]; [|done]. unfold fuel, gets. done.
Qed.
Lemma pcmp_gen pc D : forall p q s, pcmp_stack (A:=A) pc D p q s = gen_stack is_some_same (Some Eq) (Some Lt) (Some Gt) pc D p q s.
Proof.
  induction D as [|D IH]; intros p q s; [done|]. cbn [pcmp_stack gen_stack]. apply bind_cong. intros x s1. apply bind_cong. intros y s2. destruct (pc x y) as [[]|]; [|done..].
  cbn [is_some_same]. apply bind_cong. intros a s3. apply bind_cong. intros b s4. apply bind_cong. intros g s5. rewrite iter_pcmp_gen. apply iter_gen_ext, IH.
Qed.
Lemma cmp_gen cm D : forall p q s, cmp_stack (A:=A) cm D p q s = gen_stack is_same Eq Lt Gt cm D p q s.
Proof.
  induction D as [|D IH]; intros p q s; [done|]. cbn [cmp_stack gen_stack]. apply bind_cong. intros x s1. apply bind_cong. intros y s2. destruct (cm x y); [|done..].
  cbn [is_same]. apply bind_cong. intros a s3. apply bind_cong. intros b s4. apply bind_cong. intros g s5. rewrite iter_cmp_gen. apply iter_gen_ext, IH.
Qed.
Lemma gtree_pcmp pc x : forall y, gtree is_some_same (Some Eq) (Some Lt) (Some Gt) pc x y = tree_pcmp pc x y.
Proof.
  induction x as [a xs IH] using tree_ind'. intros [b ys]. cbn [gtree tree_pcmp]. destruct (pc a b) as [[]|]; [|done..]. cbn [is_some_same].
  revert ys. induction IH as [|x xs Hx _ IHxs]; intros [|y ys]; [done..|]. cbn [glist plex]. rewrite Hx. destruct (tree_pcmp pc x y) as [[]|]; [apply IHxs|done..].
Qed.
Lemma gtree_cmp cm x : forall y, gtree is_same Eq Lt Gt cm x y = tree_cmp cm x y.
Proof.
  induction x as [a xs IH] using tree_ind'. intros [b ys]. cbn [gtree tree_cmp]. destruct (cm a b); [|done..]. cbn [is_same].
  revert ys. induction IH as [|x xs Hx _ IHxs]; intros [|y ys]; [done..|]. cbn [glist lex]. rewrite Hx. destruct (tree_cmp cm x y); [apply IHxs|done..].
Qed.
Lemma tree_same_spec e x y : tree_same (A:=A) e x y = true <-> tree_rel (fun a b => e a b = true) x y.
Proof.
  revert y. induction x as [a xs IH] using tree_ind'. intros [b ys]. rewrite tree_same_eq, andb_true_iff. split.
  - intros [Ha Hs]. constructor; [done|]. revert ys Hs. induction IH as [|x xs Hx _ IHxs]; intros [|y ys] Hs; [constructor|done..|]. cbn [gsame] in Hs. apply andb_true_iff in Hs as [H1 H2].
    constructor; [by apply Hx|by apply IHxs].
  - intros H. inversion H as [? ? ? ? Ha Hs]; subst. split; [done|]. clear H Ha. revert ys Hs. induction IH as [|x xs Hx _ IHxs]; intros ys Hs; inversion Hs; subst; [done|]. cbn [gsame].
    apply andb_true_iff. split; [by apply Hx|by apply IHxs].
Qed.
Lemma gtree_eq eqA x y : gtree (fun e => e) true false false eqA x y = tree_same eqA x y.
Proof. apply (cont_same (fun e => e)); done. Qed.
End inst.

Section calls.
Context {A : Type} (c : cst A) (env : gmap nat (item A)) (Hr : reachable c) (Hc : contents c env).
Lemma call_gen {R} cont (ee el eg : R) dec D p q (x y : tree A) : cont ee = true -> cont el = false -> cont eg = false -> node_is c env p x -> node_is c env q y ->
  gen_stack cont ee el eg dec D p q (c_mem c) = if decide (depth_needed (fun a b => cont (dec a b)) x y <= D) then Ok (gtree cont ee el eg dec x y) (c_mem c) else Err EStack.
Proof.
  intros H1 H2 H3 Hp Hq. destruct (at_world c env Hr Hc) as (W & HI & Hnode & _). destruct (Hnode _ _ Hp) as (C & t & Hl & Ht & <-). destruct (Hnode _ _ Hq) as (C' & u & Hl' & Hu & <-).
  by eapply (gen_stack_run cont ee el eg H1 H2 H3 _ _ _ HI).
Qed.
Lemma call_eq_exact eqA D p q x y : node_is c env p x -> node_is c env q y ->
  exists b, (b = true <-> tree_rel (fun a b => eqA a b = true) x y) /\ eq_stack eqA D p q (c_mem c) = if decide (depth_needed eqA x y <= D) then Ok b (c_mem c) else Err EStack.
Proof.
  intros Hp Hq. exists (tree_same eqA x y). split; [apply tree_same_spec|]. rewrite eq_gen, (call_gen _ _ _ _ _ _ _ _ x y) by done. by rewrite gtree_eq.
Qed.
Lemma call_ne_exact eqA neA D p q x y : (forall a b, neA a b = negb (eqA a b)) -> node_is c env p x -> node_is c env q y ->
  exists b, (b = true <-> ~ tree_rel (fun a b => eqA a b = true) x y) /\ ne_stack eqA neA D p q (c_mem c) = if decide (depth_needed eqA x y <= D) then Ok b (c_mem c) else Err EStack.
Proof.
  intros Hn Hp Hq. destruct (call_eq_exact eqA D p q x y Hp Hq) as (b & Hb & E). exists (negb b). split.
  - rewrite <-Hb. destruct b; cbn; intuition congruence.
  - rewrite ne_eq by done. unfold bind. rewrite E. by destruct (decide _).
Qed.
Lemma call_pcmp_exact pc D p q x y : node_is c env p x -> node_is c env q y ->
  pcmp_stack pc D p q (c_mem c) = if decide (depth_needed (fun a b => match pc a b with Some Eq => true | _ => false end) x y <= D) then Ok (tree_pcmp pc x y) (c_mem c) else Err EStack.
Proof. intros Hp Hq. rewrite pcmp_gen, (call_gen _ _ _ _ _ _ _ _ x y) by done. by rewrite gtree_pcmp. Qed.
Lemma call_cmp_exact cm D p q x y : node_is c env p x -> node_is c env q y ->
  cmp_stack cm D p q (c_mem c) = if decide (depth_needed (fun a b => match cm a b with Eq => true | _ => false end) x y <= D) then Ok (tree_cmp cm x y) (c_mem c) else Err EStack.
Proof. intros Hp Hq. rewrite cmp_gen, (call_gen _ _ _ _ _ _ _ _ x y) by done. by rewrite gtree_cmp. Qed.
End calls.
