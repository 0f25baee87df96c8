(** TupleExact.v — the shapes that are not supported by from_tuple: two nodes get the same slot, so one value is dropped.  Proof side only. *)
From stdpp Require Import base gmap list.
From Verif Require Import Spec ClientSpec Machine NodeModel BfsModel Sep Rep NodeProofs Inv ClientModel Abs FromBfs BfsBuild TupleModel TupleSpec TupleProofs
  ClientProofs ClientRef ClientStep ClientRead BfsProps TupleProps.

(** * the slots, without memory *)
Section slots.
Context {A : Type}.
Notation pst := (bool * nat * list nat)%type.
Implicit Types (x : tree A) (xs : list (tree A)) (l : list (tvisit A)) (w : list (nat * A)) (q : pst).

Definition pstep q (x : tvisit A) : option (list (nat * A) * pst) :=
  let '(lf, d, off) := q in
  match x with
  | Branch a => o ← off !! d; Some ([(o, a)], (lf, S d, off))
  | Leaf a => o ← off !! d; Some ([(o, a)], (true, d, <[d := S o]> off))
  | Frame => match d with
             | 0 => None
             | S d' => if (lf : bool) then o ← off !! d'; Some ([], (false, d', <[d' := S o]> off)) else Some ([], (false, d', off))
             end
  end.
Fixpoint prun l q : option (list (nat * A) * pst) :=
  match l with
  | [] => Some ([], q)
  | x :: l' => '(w1, q1) ← pstep q x; '(w2, q2) ← prun l' q1; Some (w1 ++ w2, q2)
  end.
Lemma prun_app l1 : forall l2 q w q', prun (l1 ++ l2) q = Some (w, q') ->
  exists w1 w2 q1, prun l1 q = Some (w1, q1) /\ prun l2 q1 = Some (w2, q') /\ w = w1 ++ w2.
Proof.
  induction l1 as [|x l1 IH]; intros l2 q w q' H; [by exists [], w, q|].
  change ((x :: l1) ++ l2) with (x :: (l1 ++ l2)) in H. cbn [prun] in *. destruct (pstep q x) as [[wx qx]|]; [|done]. cbn [mbind option_bind] in *.
  destruct (prun (l1 ++ l2) qx) as [[wr qr]|] eqn:E; [|done]. cbn in H. injection H as <- <-.
  apply IH in E as (w1 & w2 & q1 & E1 & E2 & ->). exists (wx ++ w1), w2, q1. rewrite E1. cbn. by rewrite app_assoc.
Qed.
Definition vals_of (x : tvisit A) : list A := match x with Branch a | Leaf a => [a] | Frame => [] end.
Lemma prun_vals l : forall q w q', prun l q = Some (w, q') -> map snd w = flat_map vals_of l.
Proof.
  induction l as [|x l IH]; intros q w q' H; cbn [prun] in H; [by injection H as <- <-|].
  destruct (pstep q x) as [[wx qx]|] eqn:Ex; [|done]. cbn in H. destruct (prun l qx) as [[wr qr]|] eqn:E; [|done]. cbn in H. injection H as <- <-.
  cbn [flat_map]. rewrite map_app. f_equal; [|by eapply IH]. destruct q as [[lf d] off].
  destruct x; cbn in Ex; [destruct (off !! d); [|done]; by injection Ex as <- <-..|].
  destruct d; [done|]. destruct lf; [destruct (off !! d); [|done]|]; by injection Ex as <- <-.
Qed.

Definition lfb x : bool := match kids x with [] => true | _ => false end.
Definition deep x : Prop := exists k, last (kids x) = Some k /\ kids k <> [].
Definition dup w : Prop := exists w1 w2 w3 o a b, w = w1 ++ (o, a) :: w2 ++ (o, b) :: w3.
Lemma dup_app w1 w w2 : dup w -> dup (w1 ++ w ++ w2).
Proof. intros (u1 & u2 & u3 & o & a & b & ->). exists (w1 ++ u1), u2, (u3 ++ w2), o, a, b. rewrite <-!app_assoc. cbn. by rewrite <-app_assoc. Qed.
Lemma dup_l w w2 : dup w -> dup (w ++ w2).
Proof. apply (dup_app []). Qed.
Lemma dup_r w1 w : dup w -> dup (w1 ++ w).
Proof. intros H. apply (dup_app w1 w []) in H. by rewrite app_nil_r in H. Qed.

(** what the visits of one tree do to the variables *)
Definition one_ok x : Prop := forall lf d off w q', prun (visits_pre x) (lf, d, off) = Some (w, q') ->
  exists lf' off' o w', q' = (lf', d, off') /\ (forall j, j < d -> off' !! j = off !! j) /\ off !! d = Some o /\ w = (o, root_of x) :: w' /\
    lf' = lfb x /\ (deep x -> off' !! d = Some o).
Definition seq_ok xs : Prop := forall lf d off w q', prun (flat_map visits_pre xs) (lf, d, off) = Some (w, q') ->
  exists lf' off', q' = (lf', d, off') /\ (forall j, j < d -> off' !! j = off !! j) /\
    lf' = match last xs with Some k => lfb k | None => lf end.
Lemma seq_ok_all xs : Forall one_ok xs -> seq_ok xs.
Proof.
  induction 1 as [|x xs Hx _ IH]; intros lf d off w q' H; cbn [flat_map] in H.
  - injection H as <- <-. eauto.
  - apply prun_app in H as (w1 & w2 & q1 & H1 & H2 & ->). apply Hx in H1 as (lf1 & off1 & o & w' & -> & H1 & _ & _ & Hlf & _).
    apply IH in H2 as (lf2 & off2 & -> & H2 & Hlf2). exists lf2, off2. split; [done|]. split; [intros j Hj; by rewrite H2, H1|].
    rewrite Hlf2. destruct xs as [|y xs]; [done|]. change (last (x :: y :: xs)) with (last (y :: xs)).
    destruct (last (y :: xs)) eqn:El; [done|]. by apply last_None in El.
Qed.
Lemma one_ok_all x : one_ok x.
Proof.
  induction x as [a ts IH] using tree_ind'. apply seq_ok_all in IH. intros lf d off w q' H. destruct ts as [|t ts]; cbn [visits_pre kids root_of].
  - cbn in H. destruct (off !! d) as [o|] eqn:Eo; [|done]. cbn in H. injection H as <- <-. exists true, (<[d:=S o]> off), o, []. split; [done|].
    split; [intros j Hj; apply list_lookup_insert_ne; lia|]. do 3 (split; [done|]). intros (k & Hk & _). done.
  - remember (t :: ts) as us eqn:Hu. assert (visits_pre (Tr a us) = Branch a :: flat_map visits_pre us ++ [Frame]) as Ev by (by subst us).
    rewrite Ev in H. cbn [prun pstep] in H. destruct (off !! d) as [o|] eqn:Eo; [|done]. cbn [mbind option_bind] in H.
    destruct (prun (flat_map visits_pre us ++ [Frame]) (lf, S d, off)) as [[w2 q2]|] eqn:E2; [|done]. cbn in H. injection H as <- <-.
    apply prun_app in E2 as (w3 & w4 & q3 & E3 & E4 & ->). apply IH in E3 as (lf3 & off3 & -> & E3 & Hlf3). cbn [prun pstep] in E4.
    pose proof (E3 d ltac:(lia)) as Ed. rewrite Eo in Ed. 
    destruct (last us) as [k|] eqn:Ek; [|by subst us; apply last_None in Ek].
    assert (exists off4, q2 = (false, d, off4) /\ w4 = [] /\ (forall j, j < d -> off4 !! j = off3 !! j) /\ (lf3 = false -> off4 = off3)) as (off4 & -> & -> & E5 & E6).
    { destruct lf3; [rewrite Ed in E4|]; cbn in E4; injection E4 as <- <-; eexists; (split; [done|]); (split; [done|]); (split; [|done]); [|done].
      intros j Hj. apply list_lookup_insert_ne. lia. }
    exists false, off4, o, w3. rewrite app_nil_r. split; [done|]. split; [intros j Hj; rewrite E5, E3 by lia; done|]. do 2 (split; [done|]).
    split; [by subst us|]. intros (k' & Hk & Hd). cbn [kids] in Hk. rewrite Ek in Hk. injection Hk as <-. rewrite E6; [done|].
    rewrite Hlf3. unfold lfb. by destruct (kids k).
Qed.

(** two slots coincide, unless the tree is [flat_end] or at least ends with a branch *)
Definition clash l : Prop := forall q w q', prun l q = Some (w, q') -> dup w.
Lemma clash_app l1 l l2 : clash l -> clash (l1 ++ l ++ l2).
Proof.
  intros H q w q' Hr. apply prun_app in Hr as (w1 & w2 & q1 & _ & Hr & ->). apply prun_app in Hr as (w3 & w4 & q2 & Hr & _ & ->).
  apply dup_app. by eapply H.
Qed.
Lemma clash_r l1 l : clash l -> clash (l1 ++ l).
Proof. intros H. rewrite <-(app_nil_r l). by apply clash_app. Qed.
Lemma clash_deep x y l : deep x -> clash (visits_pre x ++ visits_pre y ++ l).
Proof.
  intros Hd [[lf d] off] w q' H. apply prun_app in H as (w1 & w2 & q1 & H1 & H2 & ->). apply prun_app in H2 as (w3 & w4 & q2 & H2 & _ & ->).
  apply one_ok_all in H1 as (lf1 & off1 & o & w1' & -> & _ & _ & -> & _ & H1). apply H1 in Hd.
  apply one_ok_all in H2 as (lf2 & off2 & o2 & w2' & -> & _ & Ho & -> & _ & _). rewrite Hd in Ho. injection Ho as <-.
  exists [], w1', (w2' ++ w4), o, (root_of x), (root_of y). cbn. done.
Qed.
(** each of the trees but the last is flat-ended, or there is a clash *)
Lemma before_last (xs : list (tree A)) k : Forall (fun x => flat_end x \/ deep x \/ clash (visits_pre x)) xs ->
  Forall flat_end xs \/ clash (flat_map visits_pre (xs ++ [k])).
Proof.
  induction 1 as [|x xs Hx _ IH]; [by left|]. destruct IH as [IH|IH].
  - destruct Hx as [Hx|[Hx|Hx]]; [left; by constructor| |].
    + right. destruct xs as [|y xs]; cbn [app flat_map]; by apply clash_deep.
    + right. cbn [app flat_map]. by apply (clash_app []).
  - right. cbn [app flat_map]. by apply clash_r.
Qed.
Lemma flat_or_clash x : flat_end x \/ deep x \/ clash (visits_pre x).
Proof.
  induction x as [a ts IH] using tree_ind'. destruct ts as [|k ts _] using rev_ind.
  - left. constructor; [constructor|done].
  - apply Forall_app in IH as [IH Hk]. apply Forall_cons_1 in Hk as [Hk _].
    assert (forall l, clash l -> clash (Branch a :: l ++ [Frame])) as Hc by (intros l Hl; apply (clash_app [Branch a] l [Frame] Hl)).
    assert (visits_pre (Tr a (ts ++ [k])) = Branch a :: flat_map visits_pre (ts ++ [k]) ++ [Frame]) as Ev by (by destruct ts).
    destruct (kids k) as [|k1 ks] eqn:Ekk; [|right; left; exists k; cbn [kids]; rewrite last_snoc, Ekk; done].
    destruct (before_last ts k IH) as [Hts|Hts]; [|right; right; rewrite Ev; by apply Hc].
    left. constructor; [|intros k' Hk'; rewrite last_snoc in Hk'; by injection Hk' as <-].
    apply Forall_app. split; [done|]. constructor; [|done]. destruct k as [b ks']. cbn [kids] in Ekk. subst ks'. constructor; [constructor|done].
Qed.
Lemma supported_f_or (xs : list (tree A)) : Forall (fun x => supported x \/ clash (visits_pre x)) xs -> supported_f xs \/ clash (flat_map visits_pre xs).
Proof.
  destruct xs as [|k ts _] using rev_ind; [left; constructor|]. intros H. apply Forall_app in H as [_ Hk]. apply Forall_cons_1 in Hk as [Hk _].
  destruct (before_last ts k) as [Hts|Hts]; [|destruct Hk as [Hk|Hk]|].
  - apply Forall_forall. intros x _. apply flat_or_clash.
  - left. by constructor.
  - right. rewrite flat_map_app. cbn [flat_map]. rewrite app_nil_r. by apply clash_r.
  - by right.
Qed.
Lemma supported_of_f (a : A) (ts : list (tree A)) : supported_f ts -> supported (Tr a ts).
Proof. intros [|ts' k]; by constructor. Qed.
Lemma supported_or x : supported x \/ clash (visits_pre x).
Proof.
  induction x as [a ts IH] using tree_ind'. apply supported_f_or in IH as [IH|IH]; [left; by apply supported_of_f|]. destruct ts as [|t ts]; [left; constructor|].
  right. apply (clash_app [Branch a] _ [Frame] IH).
Qed.
Lemma supported_f_all xs : supported_f xs \/ clash (flat_map visits_pre xs).
Proof. apply supported_f_or, Forall_forall. intros x _. apply supported_or. Qed.
End slots.

(** * the memory *)
Section mem.
Context {A : Type}.
Implicit Types (w : list (nat * A)) (s : mem A) (n : node A).

(** what the last write left in slot [k]; [w] has the last write first *)
Fixpoint assoc w (k : nat) : option A := match w with [] => None | (o, a) :: w' => if Nat.eqb o k then Some a else assoc w' k end.
(** the values dropped by overwriting *)
Fixpoint lost w : list A := match w with [] => [] | (o, _) :: w' => lost w' ++ option_list (assoc w' o) end.

Definition inv (v : nat) (o : option ptr) : Prop := match o with Some p => p.1 = v | None => True end.
Definition links (v : nat) n : Prop := inv v (n_prev n) /\ inv v (n_next n) /\ inv v (n_head n) /\ inv v (n_tail n).
Definition Slots (v : nat) w s : Prop := forall k n, m_heap s !! ((v, k) : ptr) = Some n -> links v n /\ dat_vals (n_dat n) = option_list (assoc w k).

Lemma bind_inv {X Y} (m : M A X) (k : X -> M A Y) s y s' : bind m k s = Ok y s' -> exists x s1, m s = Ok x s1 /\ k x s1 = Ok y s'.
Proof. unfold bind. destruct (m s); [eauto|done]. Qed.
Lemma get_inv p s n s' : get p s = Ok n s' -> s' = s /\ m_heap s !! p = Some n.
Proof. unfold get. destruct (m_heap s !! p); [|done]. by intros [= -> ->]. Qed.
Lemma upd_inv p f s u s' : upd p f s = Ok u s' -> exists n, m_heap s !! p = Some n /\ m_heap s' = <[p := f n]> (m_heap s) /\ m_log s' = m_log s.
Proof.
  unfold upd. intros H. apply bind_inv in H as (n & s1 & H1 & H). apply get_inv in H1 as [-> H1]. exists n. split; [done|]. unfold put in H.
  rewrite H1 in H. by injection H as <- <-.
Qed.
Lemma Slots_upd v w p f s u s' : upd p f s = Ok u s' -> (forall n, links v n -> links v (f n) /\ dat_vals (n_dat (f n)) = dat_vals (n_dat n)) ->
  Slots v w s -> Slots v w s' /\ m_log s' = m_log s.
Proof.
  intros H Hf HS. apply upd_inv in H as (n & Hn & Hh & Hl). split; [|done]. intros k n'. rewrite Hh, lookup_insert_Some. intros [[-> <-]|[_ H]]; [|by apply HS].
  destruct (HS k n Hn) as [HL HD]. destruct (Hf n HL) as [HL' HD']. split; [done|]. congruence.
Qed.

Lemma vec_make_node_inv v up i d dg ds w s p s' : vec_make_node v up i d dg ds s = Ok p s' -> Slots v w s -> p = (v, i) /\
  (forall w', (forall k, k <> i -> assoc w' k = assoc w k) -> dat_vals d = option_list (assoc w' i) -> Slots v w' s') /\ m_log s' = m_log s ++ option_list (assoc w i).
Proof.
  unfold vec_make_node. intros H HS. apply bind_inv in H as (n & s1 & H1 & H). apply get_inv in H1 as [-> H1]. apply bind_inv in H as ([] & s2 & H2 & H).
  injection H2 as <-. apply bind_inv in H as ([] & s3 & H3 & H). injection H as <- <-. unfold put in H3. cbn [m_heap] in H3. rewrite H1 in H3. injection H3 as <-.
  destruct (HS i n H1) as [HL HD]. split; [done|]. split; [|cbn; by rewrite HD].
  intros w' Hw Hd k n' Hk. cbn [m_heap set_heap] in Hk. apply lookup_insert_Some in Hk as [[E <-]|[E Hk]].
  - injection E as <-. split; [apply HL|]. cbn. done.
  - assert (k <> i) by congruence. rewrite Hw by done. by apply HS.
Qed.
Lemma append_child_inv v P o a dg ds w s u s' : append_child v P o a dg ds s = Ok u s' -> Slots v w s ->
  Slots v ((o, a) :: w) s' /\ m_log s' = m_log s ++ option_list (assoc w o).
Proof.
  unfold append_child, slot, make_piled_node. intros H HS. apply bind_inv in H as (pp & s1 & H1 & H). apply bind_inv in H1 as (n & s2 & H1 & H2).
  injection H2 as <- <-. apply get_inv in H1 as [-> _]. apply bind_inv in H as (c & s1 & H1 & H). apply (vec_make_node_inv _ _ _ _ _ _ w) in H1 as (-> & HS1 & HL1); [|done].
  specialize (HS1 ((o, a) :: w)). cbn [assoc] in HS1. rewrite Nat.eqb_refl in HS1. 
  assert (Slots v ((o, a) :: w) s1) as HS2.
  { apply HS1; [|done]. intros k Hk. destruct (Nat.eqb_spec o k); [by subst|done]. }
  rewrite <-HL1. clear HS1 HL1 HS s. apply bind_inv in H as (pn & s2 & H1 & H). apply get_inv in H1 as [-> H1]. apply bind_inv in H as ([] & s3 & H2 & H).
  assert (Slots v ((o, a) :: w) s3 /\ m_log s3 = m_log s1) as [HS3 HL3].
  { destruct (n_tail pn) as [t|] eqn:Et.
    - unfold connect_next in H2. apply bind_inv in H2 as ([] & s4 & H2 & H3). destruct (HS2 P pn H1) as [(_ & _ & _ & Ht) _]. rewrite Et in Ht.
      eapply Slots_upd in H2 as [HS4 HL4]; [| |exact HS2]; [|intros n' (L1 & L2 & L3 & L4); done].
      eapply Slots_upd in H3 as [HS5 HL5]; [| |exact HS4]; [|intros n' (L1 & L2 & L3 & L4); done]. split; [done|congruence].
    - eapply Slots_upd in H2 as [HS4 HL4]; [done| |exact HS2]. intros n' (L1 & L2 & L3 & L4). done. }
  eapply Slots_upd in H as [HS4 HL4]; [| |exact HS3]; [split; [done|congruence]|]. intros n' (L1 & L2 & L3 & L4). done.
Qed.

Definition abs (st : bst) : bool * nat * list nat := (b_leaf st, b_depth st, b_off st).
Lemma idx_inv l i s o s' : idx (A := A) l i s = Ok o s' -> s' = s /\ l !! i = Some o.
Proof. unfold idx, unwrap. destruct (l !! i); [|done]. by intros [= -> ->]. Qed.
Lemma sub_inv a b s d s' : sub (A := A) a b s = Ok d s' -> s' = s /\ b <= a /\ d = a - b.
Proof. unfold sub. destruct (Nat.leb_spec b a); [|done]. by intros [= -> ->]. Qed.

Definition visit_ok (v : nat) (f : bst -> tvisit A * (nat * nat) -> M A bst) : Prop := forall L st x s st' s' w, b_root st = false ->
  f st x s = Ok st' s' -> Slots v w s -> m_log s = L ++ lost w -> exists w', pstep (abs st) x.1 = Some (w', abs st') /\ b_root st' = false /\
    Slots v (reverse w' ++ w) s' /\ m_log s' = L ++ lost (reverse w' ++ w).
Lemma on_branch_ok v L st a sz s st' s' w : b_root st = false -> on_branch v st a sz s = Ok st' s' -> Slots v w s -> m_log s = L ++ lost w ->
  exists w', pstep (abs st) (Branch a) = Some (w', abs st') /\ b_root st' = false /\ Slots v (reverse w' ++ w) s' /\ m_log s' = L ++ lost (reverse w' ++ w).
Proof.
  unfold on_branch. intros Hr H HS HL. apply bind_inv in H as (o & s1 & H1 & H). apply idx_inv in H1 as [-> H1]. apply bind_inv in H as ([] & s2 & H2 & H).
  injection H as <- <-. apply (append_child_inv _ _ _ _ _ _ w) in H2 as [HS2 HL2]; [|done]. exists [(o, a)]. cbn [pstep abs]. unfold abs. cbn. rewrite H1. cbn.
  split; [done|]. split; [done|]. split; [done|]. rewrite HL2, HL. by rewrite app_assoc.
Qed.
Lemma on_leaf_ok v L st a sz s st' s' w : b_root st = false -> on_leaf v st a sz s = Ok st' s' -> Slots v w s -> m_log s = L ++ lost w ->
  exists w', pstep (abs st) (Leaf a) = Some (w', abs st') /\ b_root st' = false /\ Slots v (reverse w' ++ w) s' /\ m_log s' = L ++ lost (reverse w' ++ w).
Proof.
  unfold on_leaf. intros Hr H HS HL. apply bind_inv in H as (o & s1 & H1 & H). apply idx_inv in H1 as [-> H1]. apply bind_inv in H as ([] & s2 & H2 & H).
  injection H as <- <-. apply (append_child_inv _ _ _ _ _ _ w) in H2 as [HS2 HL2]; [|done]. exists [(o, a)]. unfold abs. cbn. rewrite H1. cbn.
  split; [done|]. split; [done|]. split; [done|]. rewrite HL2, HL. by rewrite app_assoc.
Qed.
Lemma tree_visit_ok v : visit_ok v (tree_visit v).
Proof.
  intros L st [x sz] s st' s' w Hr H HS HL. unfold tree_visit in H. rewrite Hr in H. cbn [fst snd] in *. destruct x as [a|a|].
  - by apply (on_branch_ok _ L _ _ _ _ _ _ w) in H.
  - by apply (on_leaf_ok _ L _ _ _ _ _ _ w) in H.
  - apply bind_inv in H as (d & s1 & H1 & H). apply sub_inv in H1 as (-> & Hd & ->). exists []. cbn [reverse]. destruct st as [br lf par d off]. unfold abs. cbn in *.
    destruct d as [|d]; [lia|]. cbn in H. rewrite Nat.sub_0_r in H. destruct lf.
    + apply bind_inv in H as (o & s1 & H1 & H). apply idx_inv in H1 as [-> H1]. rewrite H1. cbn. destruct (match d with 0 => false | S _ => true end).
      * apply bind_inv in H as (p & s1 & H2 & H). apply idx_inv in H2 as [-> _]. by injection H as <- <-.
      * by injection H as <- <-.
    + by injection H as <- <-.
Qed.
Lemma forest_visit_ok v : visit_ok v (forest_visit v).
Proof.
  intros L st [x sz] s st' s' w Hr H HS HL. unfold forest_visit in H. cbn [fst snd] in *. destruct x as [a|a|].
  - by apply (on_branch_ok _ L _ _ _ _ _ _ w) in H.
  - by apply (on_leaf_ok _ L _ _ _ _ _ _ w) in H.
  - apply bind_inv in H as (d & s1 & H1 & H). apply sub_inv in H1 as (-> & Hd & ->). exists []. cbn [reverse]. destruct st as [br lf par d off]. unfold abs. cbn in *.
    destruct d as [|d]; [lia|]. cbn in H. rewrite Nat.sub_0_r in H. destruct lf.
    + apply bind_inv in H as (o & s1 & H1 & H). apply idx_inv in H1 as [-> H1]. rewrite H1. cbn. apply bind_inv in H as (d1 & s1 & H2 & H).
      apply sub_inv in H2 as (-> & _). apply bind_inv in H as (p & s1 & H2 & H). apply idx_inv in H2 as [-> _]. by injection H as <- <-.
    + by injection H as <- <-.
Qed.
Lemma visit_all_ok v f : visit_ok v f -> forall L l st s st' s' w, b_root st = false -> visit_all f st l s = Ok st' s' -> Slots v w s -> m_log s = L ++ lost w ->
  exists w', prun (map fst l) (abs st) = Some (w', abs st') /\ Slots v (reverse w' ++ w) s' /\ m_log s' = L ++ lost (reverse w' ++ w).
Proof.
  intros Hf L. induction l as [|x l IH]; intros st s st' s' w Hr H HS HL; cbn [visit_all] in H.
  - injection H as <- <-. exists []. done.
  - apply bind_inv in H as (st1 & s1 & H1 & H). apply (Hf L _ _ _ _ _ w) in H1 as (w1 & P1 & Hr1 & HS1 & HL1); [|done..].
    apply (IH _ _ _ _ (reverse w1 ++ w)) in H as (w2 & P2 & HS2 & HL2); [|done..]. exists (w1 ++ w2). cbn [map prun]. rewrite P1. cbn. rewrite P2. cbn.
    rewrite reverse_app, <-app_assoc. done.
Qed.

(** a repeated slot: something was dropped, and with distinct data it is found nowhere *)
Lemma lost_app w1 : forall w2, exists l, lost (w1 ++ w2) = lost w2 ++ l.
Proof. induction w1 as [|[o a] w1 IH]; intros w2; [exists []; by rewrite app_nil_r|]. destruct (IH w2) as (l & H). cbn [lost app]. rewrite H. exists (l ++ option_list (assoc (w1 ++ w2) o)). by rewrite app_assoc. Qed.
Lemma assoc_in w k a : assoc w k = Some a -> (k, a) ∈ w.
Proof. induction w as [|[o b] w IH]; [done|]. cbn [assoc]. destruct (Nat.eqb_spec o k) as [->|]; [intros [= ->]; left|intros H; right; by apply IH]. Qed.
Lemma in_assoc w k a : (k, a) ∈ w -> exists b, assoc w k = Some b /\ b ∈ map snd w.
Proof.
  induction w as [|[o c] w IH]; [by intros ?%elem_of_nil|]. cbn [assoc map]. intros [[= -> ->]|H]%elem_of_cons.
  - rewrite Nat.eqb_refl. exists c. split; [done|left].
  - destruct (Nat.eqb_spec o k) as [->|]; [exists c; split; [done|left]|]. apply IH in H as (b & H1 & H2). exists b. split; [done|by right].
Qed.
Lemma assoc_app w1 w2 k : assoc (w1 ++ w2) k = match assoc w1 k with Some a => Some a | None => assoc w2 k end.
Proof. induction w1 as [|[o a] w1 IH]; [done|]. cbn [assoc app]. by destruct (Nat.eqb o k). Qed.
Lemma dup_lost w w0 : dup w -> lost (reverse w ++ w0) <> [].
Proof.
  intros (w1 & w2 & w3 & o & a & b & ->). rewrite reverse_app, reverse_cons, reverse_app, reverse_cons, <-!app_assoc. 
  destruct (lost_app (reverse w3) ([(o, b)] ++ reverse w2 ++ [(o, a)] ++ reverse w1 ++ w0)) as (l & ->). cbn [app lost].
  destruct (in_assoc (reverse w2 ++ (o, a) :: reverse w1 ++ w0) o a) as (c & -> & _); [apply elem_of_app; right; left|]. 
  cbn. intros H. apply app_eq_nil in H as [H _]. by apply app_eq_nil in H as [_ H].
Qed.
Lemma dup_gone w w0 : dup w -> NoDup (map snd (w0 ++ w)) -> exists a, a ∈ map snd w /\ forall k, assoc (reverse w ++ reverse w0) k <> Some a.
Proof.
  intros (w1 & w2 & w3 & o & a & b & ->) HN. exists a. split.
  { rewrite map_app. apply elem_of_app. right. left. }
  intros k H. rewrite <-reverse_app in H.
  replace (w0 ++ w1 ++ (o, a) :: w2 ++ (o, b) :: w3) with ((w0 ++ w1) ++ (o, a) :: (w2 ++ (o, b) :: w3)) in * by (by rewrite <-app_assoc).
  remember (w0 ++ w1) as u1. remember (w2 ++ (o, b) :: w3) as u2. rewrite map_app in HN. apply NoDup_app in HN as (_ & HN1 & HN2). cbn [map] in HN2.
  apply NoDup_cons in HN2 as [HN2 _].
  rewrite reverse_app, reverse_cons, assoc_app, assoc_app in H. destruct (assoc (reverse u2) k) as [c|] eqn:E.
  - injection H as ->. apply HN2. apply assoc_in in E. rewrite elem_of_reverse in E. apply elem_of_list_In in E. apply elem_of_list_In. apply (in_map snd) in E. exact E.
  - cbn [assoc] in H. destruct (Nat.eqb_spec o k) as [->|Hk].
    + destruct (in_assoc (reverse u2) k b) as (c & Hc & _); [|congruence]. apply elem_of_reverse. subst u2. apply elem_of_app. right. left.
    + apply assoc_in in H. rewrite elem_of_reverse in H. apply (HN1 a); [|left]. apply elem_of_list_In in H. apply elem_of_list_In. apply (in_map snd) in H. exact H.
Qed.

(** reading stays in the buffer *)
Lemma collect_in v w f : forall it s cs s', Slots v w s -> inv v (ci_curr it) -> ci_collect f it s = Ok cs s' -> s' = s /\ Forall (fun p => p.1 = v) cs.
Proof.
  induction f as [|f IH]; intros it s cs s' HS Hi H; [done|]. cbn [ci_collect] in H. apply bind_inv in H as ([o it'] & s1 & H1 & H). unfold ci_next in H1.
  destruct (ci_len it) as [|l]; [injection H1 as <- <- <-; injection H as <- <-; done|]. destruct (ci_curr it) as [c|] eqn:Ec; [|injection H1 as <- <- <-; injection H as <- <-; split; [done|constructor]].
  apply bind_inv in H1 as (n & s2 & H1 & H2). apply get_inv in H1 as [-> H1]. injection H2 as <- <- <-. cbn [fst snd] in H. apply bind_inv in H as (l' & s1 & H2 & H).
  injection H as <- <-. destruct c as [b k]. cbn in Hi. subst b. destruct (HS k n H1) as [(_ & Hn & _ & _) _]. apply IH in H2 as [-> H2]; [|done|done]. split; [done|]. by constructor.
Qed.
Lemma children_in v w p s cs s' : Slots v w s -> p.1 = v -> children p s = Ok cs s' -> s' = s /\ Forall (fun p => p.1 = v) cs.
Proof.
  intros HS Hp H. unfold children, iter in H. apply bind_inv in H as (it & s1 & H1 & H). apply bind_inv in H1 as (n & s2 & H1 & H2). apply get_inv in H1 as [-> H1].
  injection H2 as <- <-. apply bind_inv in H as (f & s1 & H2 & H). injection H2 as <- <-. destruct p as [b k]. cbn in Hp. subst b.
  destruct (HS k n H1) as [(_ & _ & Hh & _) _]. eapply collect_in in H; [exact H|exact HS|]. by destruct (n_head n).
Qed.
Definition found w (a : A) : Prop := exists k, assoc w k = Some a.
Lemma read_tree_in v w f : forall p s t s', Slots v w s -> p.1 = v -> read_tree f p s = Ok t s' -> s' = s /\ Forall (found w) (preorder t).
Proof.
  induction f as [|f IH]; intros p s t s' HS Hp H; [done|]. cbn [read_tree] in H. apply bind_inv in H as (a & s1 & H1 & H). unfold data in H1.
  apply bind_inv in H1 as (n & s2 & H1 & H2). apply get_inv in H1 as [-> H1]. destruct p as [b k]. cbn in Hp. subst b. destruct (HS k n H1) as [_ HD].
  assert (s1 = s /\ assoc w k = Some a) as [-> Ha].
  { unfold dat_ref in H2. destruct (n_dat n); try done; cbn in HD; injection H2 as <- <-; (split; [done|]); by destruct (assoc w k); [injection HD as <-|]. }
  apply bind_inv in H as (cs & s1 & H3 & H). eapply children_in in H3 as [-> H3]; [|exact HS|done]. apply bind_inv in H as (ts & s1 & H4 & H). injection H as <- <-.
  cbn [preorder]. assert (s1 = s /\ Forall (found w) (flat_map preorder ts)) as [-> H5]; [|split; [done|]; constructor; [by exists k|done]].
  clear -IH H3 H4 HS. revert ts s1 H4. induction H3 as [|c cs Hc _ IHc]; intros ts s1 H.
  - injection H as <- <-. split; [done|constructor].
  - apply bind_inv in H as (t & s2 & H1 & H). apply IH in H1 as [-> H1]; [|done..]. apply bind_inv in H as (us & s2 & H2 & H). injection H as <- <-.
    apply IHc in H2 as [-> H2]. split; [done|]. cbn [flat_map]. apply Forall_app. done.
Qed.
Lemma read_trees_in v w f cs : forall s ts s', Slots v w s -> Forall (fun p => p.1 = v) cs -> read_trees f cs s = Ok ts s' -> Forall (found w) (flat_map preorder ts).
Proof.
  intros s ts s' HS HF. revert ts s'. induction HF as [|c cs Hc _ IH]; intros ts s' H; cbn in H.
  - injection H as <- <-. constructor.
  - apply bind_inv in H as (t & s2 & H1 & H). eapply read_tree_in in H1 as [-> H1]; [|exact HS|done]. apply bind_inv in H as (us & s2 & H2 & H). injection H as <- <-.
    apply IH in H2. cbn [flat_map]. apply Forall_app. done.
Qed.

Lemma Slots_new s cap v s' : (forall k, m_heap s !! ((m_fresh s, k) : ptr) = None) -> new_vec cap s = Ok v s' -> Slots v [] s' /\ m_log s' = m_log s ++ lost [].
Proof.
  intros Hf H. injection H as <- <-. cbn [m_log lost]. rewrite app_nil_r. split; [|done]. intros k n. cbn [m_heap]. rewrite lookup_union_Some_raw.
  intros [H|[_ H]]; [|by rewrite Hf in H]. apply elem_of_list_to_map_2 in H. unfold vec_slots in H. apply elem_of_list_fmap in H as (i & [= -> ->] & _). done.
Qed.
End mem.

Section exact.
Context {A : Type}.
Implicit Types (t : tuple A) (ts : list (tuple A)).

Lemma visits_unsized (x : tree A) : map fst (visits_pre_sized x) = visits_pre x.
Proof.
  induction x as [a ks IH] using tree_ind'. destruct ks as [|k ks]; [done|]. remember (k :: ks) as us. 
  replace (visits_pre_sized (Tr a us)) with ((Branch a, (length us, nodes_f us)) :: flat_map visits_pre_sized us ++ [(Frame, (length us, nodes_f us))]) by (by subst us).
  replace (visits_pre (Tr a us)) with (Branch a :: flat_map visits_pre us ++ [Frame]) by (by subst us). cbn [map fst]. rewrite map_app. cbn [map fst]. f_equal. f_equal.
  clear Hequs. induction IH as [|x us Hx _ IH]; [done|]. cbn [flat_map]. by rewrite map_app, Hx, IH.
Qed.
Lemma visits_unsized_f (xs : list (tree A)) : map fst (flat_map visits_pre_sized xs) = flat_map visits_pre xs.
Proof. induction xs as [|x xs IH]; [done|]. cbn [flat_map]. by rewrite map_app, visits_unsized, IH. Qed.
Lemma vals_visits (x : tree A) : flat_map vals_of (visits_pre x) = preorder x.
Proof.
  induction x as [a ks IH] using tree_ind'. destruct ks as [|k ks]; [done|]. remember (k :: ks) as us. 
  replace (visits_pre (Tr a us)) with (Branch a :: flat_map visits_pre us ++ [Frame]) by (by subst us). cbn [flat_map vals_of preorder]. rewrite flat_map_app. cbn [flat_map vals_of app].
  rewrite app_nil_r. cbn. f_equal. clear Hequs. induction IH as [|x us Hx _ IH]; [done|]. cbn [flat_map]. by rewrite flat_map_app, Hx, IH.
Qed.
Lemma vals_visits_f (xs : list (tree A)) : flat_map vals_of (flat_map visits_pre xs) = flat_map preorder xs.
Proof. induction xs as [|x xs IH]; [done|]. cbn [flat_map]. by rewrite flat_map_app, vals_visits, IH. Qed.

Lemma fresh_cells (c : cst A) : reachable c -> forall k, m_heap (c_mem c) !! ((m_fresh (c_mem c), k) : ptr) = None.
Proof.
  intros Hr k. destruct (reachable_CInv c Hr) as (σ & HI). destruct (m_heap (c_mem c) !! _) eqn:E; [|done]. exfalso.
  destruct HI as (Wm & [HI _ _] & _). pose proof (MInv_fresh _ _ _ _ HI (ex_intro _ _ E)) as H. cbn in H. lia.
Qed.

(** a tree whose children are not supported loses a value *)
Lemma tree_lost (c : cst A) t : reachable c -> supported (denote t) \/ forall p s, tree_from_tuple t (c_mem c) = Ok p s ->
  (exists l, l <> [] /\ m_log s = m_log (c_mem c) ++ l) /\
  (NoDup (preorder (denote t)) -> exists a, a ∈ preorder (denote t) /\ forall x, read_item (HT p) s = Ok (ITree x) s -> a ∉ preorder x).
Proof.
  intros Hr. destruct (denote t) as [a xs] eqn:Et. destruct xs as [|x0 xs0]; [left; constructor|]. remember (x0 :: xs0) as xs.
  destruct (supported_f_all xs) as [H|Hcl]; [left; by apply supported_of_f|]. right. intros p s H.
  destruct (tree_meta t) as (_ & _ & _ & _ & Hv). rewrite Et in Hv.
  replace (visits_pre_sized (Tr a xs)) with ((Branch a, (length xs, nodes_f xs)) :: flat_map visits_pre_sized xs ++ [(Frame, (length xs, nodes_f xs))]) in Hv by (by subst xs).
  unfold tree_from_tuple in H. apply bind_inv in H as (v & s1 & H1 & H). apply Slots_new in H1 as [HS1 HL1]; [|by apply fresh_cells].
  apply bind_inv in H as ([] & s2 & H2 & H). unfold construct_tree in H2. apply bind_inv in H2 as (st2 & s2' & H2 & H2'). injection H2' as ->.
  rewrite Hv in H2. cbn [visit_all] in H2. apply bind_inv in H2 as (st1 & s3 & H3 & H2). cbn in H3. apply bind_inv in H3 as (q & s4 & H3 & H4). injection H4 as <- <-.
  unfold make_piled_node in H3. apply (vec_make_node_inv _ _ _ _ _ _ []) in H3 as (-> & HS3 & HL3); [|done]. specialize (HS3 [(0, a)]).
  assert (Slots v [(0, a)] s4) as HS4.
  { apply HS3; [|done]. intros k Hk. cbn. destruct k; [done|done]. }
  assert (m_log s4 = m_log (c_mem c) ++ lost [(0, a)]) as HL4 by (rewrite HL3, HL1; cbn; by rewrite !app_nil_r).
  eapply (visit_all_ok v _ (tree_visit_ok v) (m_log (c_mem c))) in H2 as (w & Hw & HS2 & HL2); [|done|exact HS4|exact HL4].
  rewrite map_app, visits_unsized_f in Hw. pose proof (prun_vals _ _ _ _ Hw) as Hvals. rewrite flat_map_app, vals_visits_f in Hvals. cbn in Hvals. rewrite app_nil_r in Hvals.
  apply prun_app in Hw as (w1 & w2 & q1 & Hw & _ & ->). apply Hcl in Hw. apply (dup_l _ w2) in Hw.
  apply bind_inv in H as (p1 & s5 & H & H5). unfold slot in H. apply bind_inv in H as (n1 & s6 & H & H6). apply get_inv in H as [-> _]. injection H6 as <- <-.
  unfold tree_from_node in H5. apply bind_inv in H5 as ([] & s5 & H & H5). injection H5 as <- <-.
  eapply Slots_upd in H as [HS5 HL5]; [| |exact HS2]; [|intros n (L1 & L2 & L3 & L4); done]. split.
  - exists (lost (reverse (w1 ++ w2) ++ [(0, a)])). split; [by apply dup_lost|congruence].
  - intros HN. cbn [preorder] in HN. destruct (dup_gone (w1 ++ w2) [(0, a)] Hw) as (b & Hb & Hg).
    { cbn [app map snd]. by rewrite Hvals. }
    exists b. split; [cbn [preorder]; rewrite <-Hvals; by right|]. intros x Hx Hbx. unfold read_item in Hx. apply bind_inv in Hx as (f & s6 & Hf & Hx). injection Hf as <- <-.
    apply bind_inv in Hx as (x' & s7 & Hx & Hx'). injection Hx' as -> ->. eapply read_tree_in in Hx as [_ Hx]; [|exact HS5|done].
    rewrite Forall_forall in Hx. destruct (Hx b Hbx) as (k & Hk). by apply (Hg k).
Qed.
Lemma forest_lost (c : cst A) ts : reachable c -> supported_f (map denote ts) \/ forall p s, forest_from_tuple ts (c_mem c) = Ok p s ->
  (exists l, l <> [] /\ m_log s = m_log (c_mem c) ++ l) /\
  (NoDup (flat_map preorder (map denote ts)) -> exists a, a ∈ flat_map preorder (map denote ts) /\ forall xs, read_item (HF p) s = Ok (IForest xs) s -> a ∉ flat_map preorder xs).
Proof.
  intros Hr. destruct (supported_f_all (map denote ts)) as [H|Hcl]; [by left|]. right. intros p s H.
  destruct (forest_meta ts) as (_ & _ & _ & _ & Hv).
  unfold forest_from_tuple in H. apply bind_inv in H as (v & s1 & H1 & H). apply Slots_new in H1 as [HS1 HL1]; [|by apply fresh_cells].
  apply bind_inv in H as ([] & s2 & H2 & H). unfold construct_forest in H2. apply bind_inv in H2 as (q & s4 & H3 & H2).
  apply bind_inv in H2 as (st2 & s2' & H2 & H2'). injection H2' as ->. rewrite Hv in H2.
  apply (vec_make_node_inv _ _ _ _ _ _ []) in H3 as (-> & HS3 & HL3); [|done]. specialize (HS3 []).
  assert (Slots v [] s4) as HS4 by (by apply HS3).
  assert (m_log s4 = m_log (c_mem c) ++ lost []) as HL4 by (rewrite HL3, HL1; by rewrite app_nil_r).
  eapply (visit_all_ok v _ (forest_visit_ok v) (m_log (c_mem c))) in H2 as (w & Hw & HS2 & HL2); [|done|exact HS4|exact HL4].
  rewrite visits_unsized_f in Hw. pose proof (prun_vals _ _ _ _ Hw) as Hvals. rewrite vals_visits_f in Hvals. apply Hcl in Hw.
  unfold slot in H. apply bind_inv in H as (n1 & s6 & H & H6). apply get_inv in H as [-> _]. injection H6 as <- <-. split.
  - exists (lost (reverse w ++ [])). split; [by apply dup_lost|congruence].
  - intros HN. destruct (dup_gone w [] Hw) as (b & Hb & Hg); [cbn [app]; by rewrite Hvals|].
    exists b. split; [by rewrite <-Hvals|]. intros xs Hx Hbx. unfold read_item in Hx. apply bind_inv in Hx as (f & s6 & Hf & Hx). injection Hf as <- <-.
    apply bind_inv in Hx as (cs & s7 & Hc & Hx). eapply children_in in Hc as [-> Hc]; [|exact HS2|done]. apply bind_inv in Hx as (x' & s8 & Hx & Hx').
    injection Hx' as -> ->. eapply read_trees_in in Hx; [|exact HS2|done]. rewrite Forall_forall in Hx. destruct (Hx b Hbx) as (k & Hk). by apply (Hg k).
Qed.

Lemma unsupported_tree (c : cst A) t p s : reachable c -> ~ supported (denote t) -> tree_from_tuple t (c_mem c) = Ok p s ->
  (exists l, l <> [] /\ m_log s = m_log (c_mem c) ++ l) /\
  (NoDup (preorder (denote t)) -> exists a, a ∈ preorder (denote t) /\ forall x, read_item (HT p) s = Ok (ITree x) s -> a ∉ preorder x).
Proof. intros Hr Hn H. destruct (tree_lost c t Hr) as [?|Hl]; [done|]. by apply Hl. Qed.
Lemma unsupported_forest (c : cst A) ts p s : reachable c -> ~ supported_f (map denote ts) -> forest_from_tuple ts (c_mem c) = Ok p s ->
  (exists l, l <> [] /\ m_log s = m_log (c_mem c) ++ l) /\
  (NoDup (flat_map preorder (map denote ts)) -> exists a, a ∈ flat_map preorder (map denote ts) /\
    forall xs, read_item (HF p) s = Ok (IForest xs) s -> a ∉ flat_map preorder xs).
Proof. intros Hr Hn H. destruct (forest_lost c ts Hr) as [?|Hl]; [done|]. by apply Hl. Qed.

Lemma fresh_var (c : cst A) : exists x, c_env c !! x = None.
Proof. exists (fresh (dom (c_env c))). apply not_elem_of_dom, is_fresh. Qed.
Lemma exactly_tree (c : cst A) t : reachable c -> NoDup (preorder (denote t)) ->
  (exists p s, tree_from_tuple t (c_mem c) = Ok p s /\ read_item (HT p) s = Ok (ITree (denote t)) s) <-> supported (denote t).
Proof.
  intros Hr HN. split.
  - intros (p & s & H & Hx). destruct (tree_lost c t Hr) as [?|Hl]; [done|]. destruct (Hl p s H) as [_ H']. destruct (H' HN) as (a & Ha & Hg). by destruct (Hg _ Hx).
  - intros Hs. destruct (fresh_var c) as (x & Ex). destruct (reachable_has_contents c Hr) as (env & Hc). pose proof (Hc x) as Hcx. rewrite Ex in Hcx.
    destruct (from_tuple_tree c env x t Hr Hc Hcx Hs) as (p & s & v & H & _ & _ & Hc' & _). exists p, s. split; [done|]. specialize (Hc' x). cbn in Hc'.
    rewrite lookup_insert in Hc'. destruct Hc' as (it & Hi & Hit). rewrite lookup_insert in Hit. by injection Hit as <-.
Qed.
Lemma exactly_forest (c : cst A) ts : reachable c -> NoDup (flat_map preorder (map denote ts)) ->
  (exists p s, forest_from_tuple ts (c_mem c) = Ok p s /\ read_item (HF p) s = Ok (IForest (map denote ts)) s) <-> supported_f (map denote ts).
Proof.
  intros Hr HN. split.
  - intros (p & s & H & Hx). destruct (forest_lost c ts Hr) as [?|Hl]; [done|]. destruct (Hl p s H) as [_ H']. destruct (H' HN) as (a & Ha & Hg). by destruct (Hg _ Hx).
  - intros Hs. destruct (fresh_var c) as (x & Ex). destruct (reachable_has_contents c Hr) as (env & Hc). pose proof (Hc x) as Hcx. rewrite Ex in Hcx.
    destruct (from_tuple_forest c env x ts Hr Hc Hcx Hs) as (p & s & v & H & _ & _ & Hc' & _). exists p, s. split; [done|]. specialize (Hc' x). cbn in Hc'.
    rewrite lookup_insert in Hc'. destruct Hc' as (it & Hi & Hit). rewrite lookup_insert in Hit. by injection Hit as <-.
Qed.
End exact.

(** ( 0, ( 1, ( 2, 3 ) ), 4 ) is not supported *)
Lemma unsupported_example : ~ supported (denote (Tup 0 [Tup 1 [Tup 2 [Val 3]]; Val 4])).
Proof.
  intros H. cbn in H. remember [Tr 1 [Tr 2 [Tr 3 []]]; Tr 4 []] as us eqn:E. inversion H as [|a ts k Hf Hs]; subst; [done|]. destruct ts as [|x ts]; [done|]. match goal with E : _ = _ |- _ => injection E as -> E end. apply Forall_cons in Hf as [Hf _].
  inversion Hf as [? ? _ Hl]; subst. by specialize (Hl _ eq_refl).
Qed.
