(** TupleProofs.v — from_tuple: filling a buffer in depth-first order.  Proof side only. *)
From stdpp Require Import base gmap list.
From Verif Require Import Spec ClientSpec Machine NodeModel BfsModel Sep Rep NodeProofs Inv ClientModel Abs FromBfs BfsBuild TupleModel TupleSpec.

Lemma tuple_ind' {A} (P : tuple A -> Prop) (HV : forall a, P (Val a)) (HT : forall a ts, Forall P ts -> P (Tup a ts)) : forall t, P t.
Proof.
  fix IH 1. intros [a|a ts]; [apply HV|]. apply HT. induction ts as [|t ts IHts]; constructor; [apply IH|apply IHts].
Qed.

Lemma tt_desc_nodes {A} (t : tuple A) : tt_desc t = nodes_f (kids (denote t)).
Proof.
  induction t as [a|a ts IH] using tuple_ind'; [done|]. cbn [tt_desc denote kids]. unfold nodes_f. 
  induction IH as [|t ts Ht _ IHts]; [done|].
  assert (nodes (denote t) = tt_desc t + 1) as Hn by (rewrite Ht; destruct (denote t); unfold nodes_f; simpl; lia).
  cbn [map]. change (tt_desc t + 1 + list_sum (map (fun k => tt_desc k + 1) ts) = nodes (denote t) + list_sum (map nodes (map denote ts))).
  rewrite IHts, Hn. done.
Qed.

Section fill.
Context {A : Type}.
Notation vis := (option A * nat * nat)%type.
Context (v : nat) (vs : list vis).
Notation N := (length vs).
Notation fc := (fc vs). Notation dgn := (dgn vs). Notation dsn := (dsn vs). Notation van := (van vs).
Notation par := (par vs). Notation bwf := (bwf vs).

(** [m k]: how many children of slot [k] have been appended *)
Definition mfilled (m : nat -> nat) (k : nat) : bool := Nat.eqb k 0 || Nat.ltb (k - fc (par k)) (m (par k)).
Definition mcell (m : nat -> nat) (k : nat) : node A :=
  if mfilled m k then
  Node (if Nat.eqb k 0 then None else if Nat.eqb k (fc (par k)) then None else Some (v, k - 1))
       (if Nat.eqb k 0 then None else if Nat.ltb (S k) (fc (S (par k))) && Nat.ltb (S k - fc (par k)) (m (par k)) then Some (v, S k) else None)
       (if Nat.ltb 0 (m k) then Some (v, fc k) else None)
       (if Nat.ltb 0 (m k) then Some (v, fc k + m k - 1) else None)
       (if Nat.eqb k 0 then None else Some (v, par k))
       (dgn k) (dsn k) (dat_of (v, k) true (van k))
  else node_default.

Definition mup (m : nat -> nat) (P : nat) : nat -> nat := fun k => if Nat.eqb k P then S (m k) else m k.

Lemma mappend m P a d ds : bwf -> P < N -> mfilled m P = true -> m P < dgn P -> m (fc P + m P) = 0 ->
  vs !! (fc P + m P) = Some (Some a, d, ds) ->
  triple (cellsf v N (mcell m)) (append_child v P (fc P + m P) a d ds) tt (cellsf v N (mcell (mup m P))).
Proof.
  intros Hw HPN HfP HmP Hm0 Hv. set (c := fc P + m P) in *.
  pose proof (lookup_lt_Some _ _ _ Hv) as HN.
  assert (HP1 : P < fc P) by (apply Hw; lia).
  assert (Hp : par c = P) by (apply par_uniq; [done|lia|lia|simpl; lia]).
  assert (dgn c = d /\ dsn c = ds /\ van c = Some a) as (Hd & Hds & Ha) by (unfold FromBfs.dgn, FromBfs.dsn, FromBfs.van; by rewrite Hv).
  assert (Hfc : mfilled m c = false).
  { unfold mfilled. rewrite Hp. destruct (Nat.eqb_spec c 0); [lia|]. cbn [orb]. destruct (Nat.ltb_spec (c - fc P) (m P)); [lia|done]. }
  assert (Hgc : mcell m c = node_default) by (unfold mcell; by rewrite Hfc).
  assert (Hfil : forall k, k < N -> k <> c -> mfilled (mup m P) k = mfilled m k).
  { intros k Hk Hkc. unfold mfilled, mup. destruct (Nat.eqb_spec k 0); [done|]. cbn [orb]. destruct (Nat.eqb_spec (par k) P) as [Heq|]; [|done].
    pose proof (par_spec vs k Hw ltac:(lia) Hk) as Hpk. rewrite Heq in *. 
    destruct (Nat.ltb_spec (k - fc P) (m P)), (Nat.ltb_spec (k - fc P) (S (m P))); try done; lia. }
  assert (Hfilc : mfilled (mup m P) c = true).
  { unfold mfilled, mup. rewrite Hp, Nat.eqb_refl. destruct (Nat.eqb_spec c 0); [done|]. cbn [orb]. destruct (Nat.ltb_spec (c - fc P) (S (m P))); [done|lia]. }
  assert (Hothers : forall k, k < N -> k <> c -> k <> P -> (k <> c - 1 \/ m P = 0) -> mcell m k = mcell (mup m P) k).
  { intros k Hk Hk1 Hk2 Hk3. unfold mcell. rewrite (Hfil k Hk Hk1). destruct (mfilled m k) eqn:Hf; [|done].
    assert (mup m P k = m k) as -> by (unfold mup; destruct (Nat.eqb_spec k P); [lia|done]). f_equal.
    destruct (Nat.eqb_spec k 0); [done|].
    destruct (Nat.ltb_spec (S k) (fc (S (par k)))) as [H3|H3]; [|done]. cbn [andb]. unfold mup. destruct (Nat.eqb_spec (par k) P) as [Heq|]; [|done].
    rewrite Heq in *. pose proof (par_spec vs k Hw ltac:(lia) Hk) as Hpk. rewrite Heq in *.
    destruct (Nat.ltb_spec (S k - fc P) (m P)), (Nat.ltb_spec (S k - fc P) (S (m P))); try done; lia. }
  assert (HnextP : forall k, k < N -> k <> c - 1 \/ par k <> P -> n_next (mcell m k) = n_next (mcell (mup m P) k) \/ k = c).
  { intros k Hk Hk3. destruct (decide (k = c)) as [|Hk1]; [by right|left]. unfold mcell. rewrite (Hfil k Hk Hk1). destruct (mfilled m k) eqn:Hf; [|done]. cbn [n_next].
    destruct (Nat.eqb_spec k 0); [done|].
    destruct (Nat.ltb_spec (S k) (fc (S (par k)))) as [H3|H3]; [|done]. cbn [andb]. unfold mup. destruct (Nat.eqb_spec (par k) P) as [Heq|]; [|done].
    rewrite Heq in *. pose proof (par_spec vs k Hw ltac:(lia) Hk) as Hpk. rewrite Heq in *.
    destruct (Nat.ltb_spec (S k - fc P) (m P)), (Nat.ltb_spec (S k - fc P) (S (m P))); try done; lia. }
  assert (HparP : P <> 0 -> par P <> P).
  { intros H0 Heq. pose proof (par_lt vs P Hw ltac:(lia) HPN). lia. }
  assert (HP' : mcell (mup m P) P = set_tail (Some (v, c)) (set_head (Some (v, fc P)) (mcell m P))).
  { assert (Hn : n_next (mcell m P) = n_next (mcell (mup m P) P)).
    { destruct (decide (P = 0)) as [HP0|HP0].
      - unfold mcell. rewrite (Hfil P HPN) by lia. rewrite HfP. cbn [n_next]. by destruct (Nat.eqb_spec P 0).
      - destruct (HnextP P HPN (or_intror (HparP HP0))) as [Hn|]; [exact Hn|exfalso; lia]. }
    unfold mcell in Hn |- *. rewrite (Hfil P) in Hn |- * by lia. rewrite HfP in Hn |- *. unfold set_tail, set_head. cbn [n_prev n_next n_head n_tail n_up n_deg n_desc n_dat] in Hn |- *.
    rewrite Hn. unfold mup. rewrite !Nat.eqb_refl. destruct (Nat.ltb_spec 0 (S (m P))); [|lia]. f_equal.
    do 2 f_equal. lia. }
  assert (HcP : c <> P) by lia.
  unfold append_child, slot. apply t_bind_assoc. apply f_get; [lia|]. step1.
  unfold make_piled_node, vec_make_node. apply t_bind_assoc. apply f_get; [lia|]. rewrite Hgc.
  apply t_bind_assoc. cbn [node_default n_dat dat_vals]. apply t_log_nil. apply t_bind_assoc. apply f_put; [lia|]. step1.
  apply f_get; [lia|]. unfold fupd at 2. destruct (Nat.eqb_spec P c); [lia|]. 
  assert (Hmc : mup m P c = 0) by (unfold mup; destruct (Nat.eqb_spec c P); [lia|done]).
  assert (HupP : mup m P P = S (m P)) by (unfold mup; by rewrite Nat.eqb_refl).
  destruct (decide (m P = 0)) as [HcP0|HcP0].
  - assert (n_tail (mcell m P) = None) as ->.
    { unfold mcell. rewrite HfP. cbn [n_tail]. destruct (Nat.ltb_spec 0 (m P)); [lia|done]. }
    apply f_upd; [lia|]. eapply triple_post; [|apply f_upd1; lia]. apply reflexive_eq, cellsf_ext. intros k Hk.
    unfold fupd. rewrite !Nat.eqb_refl. destruct (Nat.eqb_spec P c); [lia|].
    destruct (Nat.eqb_spec k P) as [->|].
    + rewrite HP'. do 3 f_equal. unfold c. f_equal. lia.
    + destruct (Nat.eqb_spec k c) as [->|]; [|apply Hothers; auto].
      unfold mcell. rewrite Hfilc. rewrite Hp, Hd, Hds, Ha, Hmc, HupP.
      destruct (Nat.eqb_spec c 0); [lia|]. destruct (Nat.eqb_spec c (fc P)); [|lia].
      destruct (Nat.ltb_spec (S c - fc P) (S (m P))); [lia|]. rewrite andb_false_r. cbn [Nat.ltb Nat.leb].
      done.
  - assert (n_tail (mcell m P) = Some (v, c - 1)) as ->.
    { unfold mcell. rewrite HfP. cbn [n_tail]. destruct (Nat.ltb_spec 0 (m P)); [done|lia]. }
    assert (Hc1 : c - 1 <> P) by lia.
    assert (Hp1 : par (c - 1) = P) by (apply par_uniq; [done|simpl; lia..]).
    unfold connect_next. apply t_bind_assoc. apply f_upd; [lia|]. apply f_upd; [lia|]. eapply triple_post; [|apply f_upd1; lia].
    apply reflexive_eq, cellsf_ext. intros k Hk.
    unfold fupd. rewrite !Nat.eqb_refl. destruct (Nat.eqb_spec P c); [lia|]. destruct (Nat.eqb_spec P (c - 1)); [lia|].
    destruct (Nat.eqb_spec c (c - 1)); [lia|]. destruct (Nat.eqb_spec (c - 1) c); [lia|].
    destruct (Nat.eqb_spec k P) as [->|].
    + rewrite HP'. unfold mcell. rewrite HfP. unfold set_tail, set_head. cbn [n_prev n_next n_head n_tail n_up n_deg n_desc n_dat].
      destruct (Nat.ltb_spec 0 (m P)); [done|lia].
    + destruct (Nat.eqb_spec k c) as [->|].
      * unfold mcell. rewrite Hfilc. rewrite Hp, Hd, Hds, Ha, Hmc, HupP.
        destruct (Nat.eqb_spec c 0); [lia|]. destruct (Nat.eqb_spec c (fc P)); [lia|].
        destruct (Nat.ltb_spec (S c - fc P) (S (m P))); [lia|]. rewrite andb_false_r. cbn [Nat.ltb Nat.leb].
        done.
      * destruct (Nat.eqb_spec k (c - 1)) as [->|]; [|apply Hothers; auto].
        unfold mcell. rewrite (Hfil (c - 1)) by lia.
        assert (mfilled m (c - 1) = true) as ->.
        { unfold mfilled. rewrite Hp1. destruct (Nat.ltb_spec (c - 1 - fc P) (m P)); [by rewrite orb_true_r|lia]. }
        unfold set_next; cbn [n_prev n_next n_head n_tail n_up n_deg n_desc n_dat]. rewrite Hp1, HupP.
        assert (mup m P (c - 1) = m (c - 1)) as -> by (unfold mup; destruct (Nat.eqb_spec (c - 1) P); [lia|done]).
        destruct (Nat.eqb_spec (c - 1) 0); [lia|]. replace (S (c - 1)) with c by lia.
        destruct (Nat.ltb_spec c (fc (S P))); [|simpl in *; lia]. destruct (Nat.ltb_spec (c - fc P) (S (m P))); [|lia]. done.
Qed.

(** everything appended = everything filled *)
Lemma mcell_done m : bwf -> (forall k, k < N -> m k = dgn k) -> cellsf v N (mcell m) = cellsf v N (gcell v vs N).
Proof.
  intros Hw Hm. apply cellsf_ext. intros k Hk. unfold gcell. destruct (Nat.ltb_spec k N); [|lia].
  pose proof (fc_le vs (S k) Hw ltac:(lia)) as HfN. simpl in HfN.
  destruct (decide (k = 0)) as [->|Hk0].
  - unfold mcell, mfilled, cell. cbn [Nat.eqb orb]. rewrite Hm by done. f_equal.
    + destruct (Nat.ltb_spec 0 (dgn 0)), (Nat.ltb_spec (fc 0) (min N (fc 1))); try done; simpl in *; lia.
    + destruct (Nat.ltb_spec 0 (dgn 0)), (Nat.ltb_spec (fc 0) (min N (fc 1))); try done; try (simpl in *; lia).
      do 2 f_equal. simpl in *. lia.
  - pose proof (par_spec vs k Hw ltac:(lia) Hk) as Hp. pose proof (par_lt vs k Hw ltac:(lia) Hk) as Hl. simpl in Hp.
    assert (HfP : fc (S (par k)) <= N) by (apply fc_le; [done|lia]). simpl in HfP.
    unfold mcell, mfilled, cell. rewrite !Hm by lia. destruct (Nat.eqb_spec k 0); [lia|]. cbn [orb].
    destruct (Nat.ltb_spec (k - fc (par k)) (dgn (par k))); [|lia]. simpl fc. f_equal.
    + destruct (Nat.ltb_spec (S k) (fc (par k) + dgn (par k))), (Nat.ltb_spec (S k - fc (par k)) (dgn (par k))), (Nat.ltb_spec (S k) N);
        try done; try lia.
    + destruct (Nat.ltb_spec 0 (dgn k)), (Nat.ltb_spec (fc k) (min N (fc k + dgn k))); try done; lia.
    + destruct (Nat.ltb_spec 0 (dgn k)), (Nat.ltb_spec (fc k) (min N (fc k + dgn k))); try done; try lia.
      do 2 f_equal. lia.
Qed.
Lemma mcell_start : bwf -> cellsf v N (mcell (fun _ => 0)) = cellsf v N (gcell v vs 1).
Proof.
  intros Hw. apply cellsf_ext. intros k Hk. unfold gcell, mcell, mfilled, cell.
  destruct (Nat.eqb_spec k 0) as [->|].
  - cbn [orb Nat.ltb Nat.leb]. destruct (Nat.ltb_spec (fc 0) (min 1 (fc 1))); [simpl in *; lia|]. done.
  - cbn [orb]. destruct (Nat.ltb_spec (k - fc (par k)) 0); [lia|]. destruct (Nat.ltb_spec k 1); [lia|done].
Qed.

(** * levels *)
Definition fci (j a : nat) : nat := Nat.iter j fc a.
Lemma fci_S j a : fci (S j) a = fci j (fc a).
Proof. induction j as [|j IH]; [done|]. unfold fci in *. simpl in *. by rewrite IH. Qed.
Lemma fci_mono j a b : a <= b -> fci j a <= fci j b.
Proof. revert a b. induction j as [|j IH]; intros a b H; [done|]. rewrite !fci_S. apply IH, fc_mono, H. Qed.
Lemma fci_add i j a : fci (i + j) a = fci j (fci i a).
Proof. revert a. induction i as [|i IH]; intros a; [done|]. change (S i + j) with (S (i + j)). rewrite !fci_S. apply IH. Qed.
Lemma fci_N j : bwf -> fci j N = N.
Proof. intros [_ H]. induction j as [|j IH]; [done|]. by rewrite fci_S, H. Qed.
Lemma fc_ge a : bwf -> a <= N -> a <= fc a.
Proof. intros [H H2] Ha. destruct (decide (a = N)) as [->|]; [lia|]. specialize (H a ltac:(lia)). lia. Qed.
Lemma fci_le j a : bwf -> a <= N -> fci j a <= N.
Proof. intros Hw Ha. rewrite <-(fci_N j Hw). by apply fci_mono. Qed.
Lemma fci_ge j a : bwf -> a <= N -> a <= fci j a.
Proof.
  intros Hw. revert a. induction j as [|j IH]; intros a Ha; [done|]. rewrite fci_S.
  pose proof (fc_ge a Hw Ha). pose proof (fci_le 1 a Hw Ha) as H1. unfold fci in H1; simpl in H1. specialize (IH (fc a) H1). lia.
Qed.
Lemma fci_mono_j i j a : bwf -> a <= N -> i <= j -> fci i a <= fci j a.
Proof.
  intros Hw Ha Hij. replace j with (i + (j - i)) by lia. rewrite fci_add. apply fci_ge; [done|]. by apply fci_le.
Qed.

(** the slots below the roots [a .. b-1] *)
Definition subr (a b k : nat) : Prop := exists j, fci j a <= k < fci j b.

Lemma subr_split a c b k : a <= c -> c <= b -> subr a b k <-> subr a c k \/ subr c b k.
Proof.
  intros H1 H2. split.
  - intros (j & Hj). destruct (decide (k < fci j c)); [left|right]; exists j; lia.
  - intros [(j & Hj)|(j & Hj)]; exists j; [pose proof (fci_mono j c b)|pose proof (fci_mono j a c)]; lia.
Qed.
Lemma subr_nil a k : ~ subr a a k.
Proof. intros (j & Hj). lia. Qed.
Lemma subr_one i k : subr i (S i) k <-> k = i \/ subr (fc i) (fc (S i)) k.
Proof.
  split.
  - intros ([|j] & Hj); [left; unfold fci in Hj; simpl in Hj; lia|]. right. exists j. by rewrite <-!fci_S.
  - intros [->|(j & Hj)]; [exists 0; unfold fci; simpl; lia|]. exists (S j). by rewrite !fci_S.
Qed.
Lemma subr_ge a b k : bwf -> a <= N -> subr a b k -> a <= k.
Proof. intros Hw Ha (j & Hj). pose proof (fci_ge j a Hw Ha). lia. Qed.
Lemma subr_lt a b k : bwf -> b <= N -> subr a b k -> k < N.
Proof. intros Hw Hb (j & Hj). pose proof (fci_le j b Hw Hb). lia. Qed.

(** ranges of one level are disjoint *)
Lemma subr_disj d a b c e k : bwf -> fci d 0 <= a -> b <= c -> e <= fci (S d) 0 -> 0 < N ->
  subr a b k -> subr c e k -> False.
Proof.
  intros Hw H1 Hbc H2 HN (j & Hj) (j' & Hj').
  pose proof (fci_mono j _ _ H1) as L1. rewrite <-fci_add in L1.
  assert (b <= fci (S d) 0 \/ e <= c) as [Hb|] by lia.
  2:{ pose proof (fci_mono j' e c). lia. }
  pose proof (fci_mono j _ _ Hb) as L2. rewrite <-fci_add in L2.
  pose proof (fci_mono j' _ _ H2) as L4. rewrite <-fci_add in L4.
  assert (a <= c \/ b <= a) as [Hac|] by lia.
  2:{ pose proof (fci_mono j b a). lia. }
  pose proof (fci_mono j' a c Hac) as L5. pose proof (fci_mono j' _ _ H1) as L3. rewrite <-fci_add in L3.
  destruct (lt_eq_lt_dec j j') as [[Hlt|Heq]|Hlt].
  - pose proof (fci_mono_j (S d + j) (d + j') 0 Hw ltac:(lia) ltac:(lia)). lia.
  - subst j'. pose proof (fci_mono j b c Hbc). lia.
  - pose proof (fci_mono_j (S d + j') (d + j) 0 Hw ltac:(lia) ltac:(lia)). lia.
Qed.

(** * which tree sits at which slot *)
Inductive lat : nat -> tree A -> Prop :=
  | Lat i x : vs !! i = Some (ovis (visit_of x)) -> (forall k y, kids x !! k = Some y -> lat (fc i + k) y) -> lat i x.
Definition lats (a : nat) (xs : list (tree A)) : Prop := forall k y, xs !! k = Some y -> lat (a + k) y.

Lemma lat_dgn i x : lat i x -> dgn i = length (kids x).
Proof. intros [? ? H _]. unfold FromBfs.dgn. by rewrite H. Qed.
Lemma lat_kids i x : lat i x -> lats (fc i) (kids x).
Proof. intros [? ? _ H]. exact H. Qed.
Lemma lats_cons a x xs : lats a (x :: xs) -> lat a x /\ lats (S a) xs.
Proof.
  intros H. split.
  - specialize (H 0 x eq_refl). by rewrite Nat.add_0_r in H.
  - intros k y Hy. specialize (H (S k) y Hy). by rewrite Nat.add_succ_r in H.
Qed.

Lemma fci_level j : forall xs a, lats a xs -> fci j (a + length xs) = fci j a + list_sum (map (fun x => length (level j x)) xs).
Proof.
  induction j as [|j IH]; intros xs.
  - intros a _. change (a + length xs = a + list_sum (map (fun _ => 1) xs)). f_equal. induction xs as [|x xs IHxs]; [done|]. cbn [length map]. rewrite IHxs. done.
  - induction xs as [|x xs IHxs]; intros a H; [simpl; rewrite !Nat.add_0_r; done|].
    apply lats_cons in H as [Hx Hxs]. cbn [length map list_sum foldr]. replace (a + S (length xs)) with (S a + length xs) by lia.
    rewrite (IHxs _ Hxs). rewrite !fci_S. change (fc (S a)) with (fc a + dgn a). rewrite (lat_dgn _ _ Hx).
    rewrite (IH _ _ (lat_kids _ _ Hx)). simpl level.
    assert (length (flat_map (level j) (kids x)) = list_sum (map (fun y => length (level j y)) (kids x))) as ->; [|unfold list_sum; lia].
    clear. induction (kids x) as [|y l IHl]; [done|]. simpl. rewrite app_length. unfold list_sum in *. simpl. lia.
Qed.

Lemma qo_lat : forall q r, qo q r -> forall i, drop i vs = (ovis ∘ visit_of) <$> r -> i <= N -> fc i = i + length q -> lats i q.
Proof.
  intros q r H. induction H as [|t q r H IH]; intros i Hd Hi Hf; [intros k y Hy; done|].
  rewrite fmap_cons in Hd. apply drop_lookup in Hd as [Hl Hd]. pose proof (lookup_lt_Some _ _ _ Hl) as Hlt. simpl in Hf.
  assert (dgn i = length (kids t)) as Hdg by (unfold FromBfs.dgn; by rewrite Hl).
  assert (HI : lats (S i) (q ++ kids t)).
  { apply IH; [done|lia|]. simpl. rewrite Hdg, Hf, app_length. lia. }
  intros [|k] y Hy; simpl in Hy.
  - simplify_eq. rewrite Nat.add_0_r. constructor; [done|]. intros k y' Hk.
    replace (fc i + k) with (S i + (length q + k)) by lia. apply HI. rewrite lookup_app_r by lia. by replace (length q + k - length q) with k by lia.
  - replace (i + S k) with (S i + k) by lia. apply HI. by apply lookup_app_l_Some.
Qed.

Lemma mfilled_mono m m' k : (forall k, m k <= m' k) -> mfilled m k = true -> mfilled m' k = true.
Proof.
  intros Hm. unfold mfilled. destruct (Nat.eqb k 0); [done|]. cbn [orb]. specialize (Hm (par k)).
  destruct (Nat.ltb_spec (k - fc (par k)) (m (par k))), (Nat.ltb_spec (k - fc (par k)) (m' (par k))); try done; lia.
Qed.

(** * the driver *)
Context (f : bst -> tvisit A * (nat * nat) -> M A bst).
Context (HfB : forall l p d o a sz, f (Bst false l p d o) (Branch a, sz) = on_branch v (Bst false l p d o) a sz)
        (HfL : forall l p d o a sz, f (Bst false l p d o) (Leaf a, sz) = on_leaf v (Bst false l p d o) a sz)
        (HfF1 : forall p d o sz i P s, 1 <= d -> o !! d = Some i -> o !! (d - 1) = Some P ->
           f (Bst false true p (S d) o) (Frame, sz) s = Ok (Bst false false P d (<[d := S i]> o)) s)
        (HfF0 : forall p d o sz s, f (Bst false false p (S d) o) (Frame, sz) s = Ok (Bst false false p d o) s).

Notation cells m := (cellsf v N (mcell m)).
Definition isleaf (x : tree A) : bool := match kids x with [] => true | _ => false end.
Definition req (b : bool) (x : tree A) : Prop := if b then flat_end x else supported x.

Definition pre (st : bst) (a w n P d : nat) (m : nat -> nat) (h : nat) : Prop :=
  b_root st = false /\ b_par st = P /\ b_depth st = d /\ 1 <= d /\ b_off st !! (d - 1) = Some P /\
  a = fc P + m P /\ P < N /\ mfilled m P = true /\ m P + w <= dgn P /\ fci d 0 <= a /\ a + w <= fci (S d) 0 /\
  (forall j, d + j < length (b_off st) -> b_off st !! (d + j) = Some (fci j a)) /\ d + h <= length (b_off st) /\
  (forall k, subr a (a + w) k -> m k = 0) /\ n = w.
Definition post (b : bool) (st st' : bst) (a w P d : nat) (m m' : nat -> nat) : Prop :=
  b_root st' = false /\ b_depth st' = d /\ length (b_off st') = length (b_off st) /\
  (forall k, subr a (a + w) k -> m' k = dgn k) /\ m' P = m P + w /\ (forall k, ~ subr a (a + w) k -> k <> P -> m' k = m k) /\
  (forall k, m k <= m' k) /\ (forall e, e < d -> b_off st' !! e = b_off st !! e) /\
  (b = true -> b_par st' = P /\ (forall j, d + j < length (b_off st) -> b_off st' !! (d + j) = Some (fci j (a + w)))).

Definition tree_ok (t : tuple A) : Prop := forall b st i P d m,
  req b (denote t) -> lat i (denote t) -> pre st i 1 1 P d m (height (denote t)) ->
  exists st' m', triple (cells m) (visit_all f st (tt_preorder_hint t)) st' (cells m') /\ post b st st' i 1 P d m m' /\
    b_leaf st' = isleaf (denote t).

Lemma visit_all_app st l1 : forall l2 s, visit_all f st (l1 ++ l2) s = bind (visit_all f st l1) (fun st' => visit_all f st' l2) s.
Proof.
  revert st. induction l1 as [|x l1 IH]; intros st l2 s; [done|]. simpl. unfold bind. destruct (f st x s) as [st1 s1|]; [|done].
  rewrite IH. done.
Qed.
Lemma triple_ext {X} l (m m' : M A X) x l' : (forall s, m s = m' s) -> triple l m' x l' -> triple l m x l'.
Proof. intros He H s F HH. rewrite He. by apply H. Qed.

Lemma trees_ok ts : bwf -> 0 < N -> Forall tree_ok ts -> forall (b : bool) st a P d m,
  (if b then Forall flat_end (map denote ts) else supported_f (map denote ts)) -> lats a (map denote ts) ->
  pre st a (length ts) (length ts) P d m (height_f (map denote ts)) ->
  exists st' m', triple (cells m) (visit_all f st (flat_map tt_preorder_hint ts)) st' (cells m') /\ post b st st' a (length ts) P d m m' /\
    (forall x, last (map denote ts) = Some x -> b_leaf st' = isleaf x).
Proof.
  intros Hw HN. induction 1 as [|t ts Ht _ IH]; intros b st a P d m Hreq Hlat Hpre.
  - destruct Hpre as (H1&H2&H3&H4&H5&H6&H7&H8&H9&H10&H11&H12&H13&H14&_). exists st, m. split; [apply triple_ret|]. split; [|done]. unfold post. simpl. rewrite !Nat.add_0_r.
    split_and!; try done. intros k Hk. by apply subr_nil in Hk.
  - cbn [map] in *. apply lats_cons in Hlat as [Hl1 Hl2].
    destruct Hpre as (H1&H2&H3&H4&H5&H6&H7&H8&H9&H10&H11&H12&H13&H14&_). cbn [length] in *.
    assert (HaN : a + S (length ts) <= N).
    { pose proof (fci_le (S d) 0 Hw ltac:(lia)). lia. }
    assert (HPa : P < fc P) by (by apply Hw).
    (* the first tree *)
    set (b1 := match ts with [] => b | _ => true end).
    assert (Hr1 : req b1 (denote t) /\ (if b then Forall flat_end (map denote ts) else supported_f (map denote ts))).
    { destruct b; [apply Forall_cons in Hreq as [? ?]; unfold b1; by destruct ts|].
      inversion Hreq as [|xs k Hxs Hk Heq]. destruct ts as [|t2 ts].
      - destruct xs as [|x0 xs]; [|by destruct xs]. simpl in Heq. simplify_eq. split; [done|constructor].
      - destruct xs as [|x0 xs]; [done|]. simpl in Heq. injection Heq as -> Heq. apply Forall_cons in Hxs as [? ?].
        split; [done|]. cbn [map]. rewrite <-Heq. by constructor. }
    destruct Hr1 as [Hr1 Hr2].
    destruct (Ht b1 st a P d m Hr1 Hl1) as (st1 & m1 & HT1 & HP1 & Hlf1).
    { unfold pre. split_and!; try done; try lia.
      - etransitivity; [|exact H13]. apply Nat.add_le_mono_l. unfold height_f. cbn [map list_max foldr]. lia.
      - intros k Hk. apply H14. apply (subr_split a (a + 1)); [lia..|]. by left. }
    destruct HP1 as (P1&P2&P3&P4&P5&P6&P7&P8&P9).
    destruct ts as [|t2 ts].
    { exists st1, m1. split; [cbn [flat_map]; rewrite app_nil_r; exact HT1|]. split; [done|].
      intros x Hx. simpl in Hx. by simplify_eq. }
    destruct (P9 eq_refl) as (Q1 & Q2).
    destruct (IH b st1 (a + 1) P d m1) as (st2 & m2 & HT2 & HP2 & Hlf2); [done| | |].
    { by replace (a + 1) with (S a) by lia. }
    { unfold pre. split_and!; try done; try lia.
      - rewrite P8 by lia. done.
      - by eapply mfilled_mono.
      - rewrite P3. apply Q2.
      - rewrite P3. etransitivity; [|exact H13]. apply Nat.add_le_mono_l. unfold height_f. cbn [map list_max foldr]. lia.
      - intros k Hk. rewrite P6.
        + apply H14. apply (subr_split a (a + 1)); [lia..|]. right. by replace (a + S (length (t2 :: ts))) with (a + 1 + length (t2 :: ts)) by (simpl; lia).
        + intros Hk2. eapply (subr_disj d a (a + 1) (a + 1)); [done|done|done| |done|exact Hk2|exact Hk]. simpl in *; lia.
        + apply subr_ge in Hk; [lia|done|lia]. }
    destruct HP2 as (R1&R2&R3&R4&R5&R6&R7&R8&R9).
    exists st2, m2. split.
    { change (flat_map tt_preorder_hint (t :: t2 :: ts)) with (tt_preorder_hint t ++ flat_map tt_preorder_hint (t2 :: ts)).
      eapply triple_ext; [intros s; apply visit_all_app|]. eapply triple_bind; [exact HT1|exact HT2]. }
    split; [|done]. replace (a + S (length (t2 :: ts))) with (a + 1 + length (t2 :: ts)) by (simpl; lia).
    assert (HnP : forall k, subr (a + 1) (a + 1 + length (t2 :: ts)) k -> k <> P).
    { intros k Hk. apply subr_ge in Hk; [lia|done|simpl in *; lia]. }
    unfold post. split_and!; try done.
    + congruence.
    + intros k Hk. replace (a + S (length (t2 :: ts))) with (a + 1 + length (t2 :: ts)) in Hk by (simpl; lia).
      destruct (decide (k = P)) as [->|HkP].
      { exfalso. apply subr_ge in Hk; [lia|done|lia]. }
      apply (subr_split a (a + 1)) in Hk as [Hk|Hk]; [|by apply R4|lia|simpl; lia].
      rewrite R6; [by apply P4| |done]. intros Hk2.
      eapply (subr_disj d a (a + 1) (a + 1)); [done|done|done| |done|exact Hk|exact Hk2]. simpl in *; lia.
    + rewrite R5, P5. simpl. lia.
    + intros k Hk HkP. replace (a + S (length (t2 :: ts))) with (a + 1 + length (t2 :: ts)) in Hk by (simpl; lia). rewrite R6; [apply P6| |done]; [|done|].
      * intros Hk2. apply Hk. apply (subr_split a (a + 1)); [lia|simpl; lia|by left].
      * intros Hk2. apply Hk. apply (subr_split a (a + 1)); [lia|simpl; lia|by right].
    + intros k. etransitivity; [apply P7|apply R7].
    + intros e He. rewrite R8, P8 by done. done.
    + intros ->. destruct (R9 eq_refl) as (S1 & S2). split; [done|]. intros j Hj. rewrite S2 by lia. do 2 f_equal. simpl; lia.
Qed.

Lemma leaf_ok b st i P d m a : bwf -> 0 < N -> lat i (Tr a []) -> pre st i 1 1 P d m 1 ->
  exists st' m', triple (cells m) (visit_all f st [(Leaf a, (0, 0))]) st' (cells m') /\ post b st st' i 1 P d m m' /\ b_leaf st' = true.
Proof.
  intros Hw HN Hlat Hpre.
  destruct Hpre as (H1&H2&H3&H4&H5&H6&H7&H8&H9&H10&H11&H12&H13&H14&_).
  assert (HPa : P < fc P) by (by apply Hw).
  assert (HiN : i + 1 <= N) by (pose proof (fci_le (S d) 0 Hw ltac:(lia)); lia).
  inversion Hlat as [? ? Hv Hk]; subst i0 x. destruct st as [rt lf pr dp off]. cbn [b_root b_leaf b_par b_depth b_off] in *. subst rt pr dp.
  assert (Hmi : m i = 0).
  { apply H14. exists 0. unfold fci; simpl. lia. }
  assert (Hdi : dgn i = 0) by (unfold FromBfs.dgn; by rewrite Hv).
  assert (Hoff : off !! d = Some i).
  { specialize (H12 0). rewrite Nat.add_0_r in H12. apply H12. lia. }
  exists (Bst false true P d (<[d := S i]> off)), (mup m P). split.
  - cbn [visit_all]. rewrite HfL. unfold on_leaf, idx. cbn [b_off b_depth b_par b_root]. rewrite Hoff. apply t_bind_assoc. cbn [unwrap]. step1. cbn [fst snd].
    apply t_bind_assoc. subst i. eapply triple_bind; [apply (mappend m P a 0 0); [done..|lia|done|done]|]. step1. apply triple_ret.
  - split; [|done]. unfold post. cbn [b_root b_depth b_off b_par]. split_and!; try done.
    + by rewrite insert_length.
    + intros k Hk1. rewrite Nat.add_1_r in Hk1. apply subr_one in Hk1 as [->|Hk1].
      * unfold mup. destruct (Nat.eqb_spec i P); [lia|]. congruence.
      * cbn [FromBfs.fc] in Hk1. rewrite Hdi, Nat.add_0_r in Hk1. by apply subr_nil in Hk1.
    + unfold mup. rewrite Nat.eqb_refl. lia.
    + intros k _ HkP. unfold mup. by destruct (Nat.eqb_spec k P).
    + intros k. unfold mup. destruct (Nat.eqb_spec k P); lia.
    + intros e He. by rewrite list_lookup_insert_ne by lia.
    + intros _. split; [done|]. intros j Hj. destruct j as [|j].
      * rewrite Nat.add_0_r, list_lookup_insert by lia. f_equal. unfold fci; simpl; lia.
      * rewrite list_lookup_insert_ne by lia. rewrite H12 by done. f_equal. rewrite !fci_S, Nat.add_1_r. f_equal. simpl. lia.
Qed.

Lemma branch_ok a ts : bwf -> 0 < N -> ts <> [] -> Forall tree_ok ts -> tree_ok (Tup a ts).
Proof.
  intros Hw HN Hne HF b st i P d m Hreq Hlat Hpre.
  assert (Hvis : tt_preorder_hint (Tup a ts) = [(Branch a, tt_size (Tup a ts))] ++ flat_map tt_preorder_hint ts ++ [(Frame, tt_size (Tup a ts))]).
  { cbn [tt_preorder_hint]. cbn [tt_size fst]. destruct (Nat.eqb_spec (length ts) 0) as [Hl|]; [|done]. by apply nil_length_inv in Hl. }
  rewrite Hvis. set (sz := tt_size (Tup a ts)) in *.
  assert (Hsz : sz = (length ts, nodes_f (map denote ts))).
  { unfold sz. cbn [tt_size]. by rewrite tt_desc_nodes. }
  destruct Hpre as (H1&H2&H3&H4&H5&H6&H7&H8&H9&H10&H11&H12&H13&H14&_).
  assert (HPa : P < fc P) by (by apply Hw).
  assert (HiN : i + 1 <= N) by (pose proof (fci_le (S d) 0 Hw ltac:(lia)); lia).
  pose proof (lat_kids _ _ Hlat) as Hlk. pose proof (lat_dgn _ _ Hlat) as Hdi. cbn [denote kids] in Hlk, Hdi. rewrite map_length in Hdi.
  inversion Hlat as [? ? Hv Hk]; subst i0 x. destruct st as [rt lf pr dp off]. cbn [b_root b_leaf b_par b_depth b_off] in *. subst rt pr dp.
  cbn [denote height] in H13.
  assert (Hmi : m i = 0).
  { apply H14. exists 0. unfold fci; simpl. lia. }
  assert (Hoff : off !! d = Some i).
  { specialize (H12 0). rewrite Nat.add_0_r in H12. apply H12. lia. }
  assert (Hfi : i < fc i) by (apply Hw; lia).
  set (m1 := mup m P).
  assert (Hm1 : forall k, m k <= m1 k) by (intros k; unfold m1, mup; destruct (Nat.eqb_spec k P); lia).
  assert (Hm1i : m1 i = 0) by (unfold m1, mup; destruct (Nat.eqb_spec i P); [lia|done]).
  assert (Hfil : mfilled m1 i = true).
  { unfold mfilled. assert (par i = P) as -> by (apply par_uniq; [done|simpl; lia..]). unfold m1, mup. rewrite Nat.eqb_refl.
    destruct (Nat.ltb_spec (i - fc P) (S (m P))); [by rewrite orb_true_r|lia]. }
  assert (HfS : fc i + length ts = fc (S i)) by (simpl; lia).
  assert (HfSN : fc i + length ts <= fci (S (S d)) 0).
  { rewrite HfS. change (fci (S (S d)) 0) with (fc (fci (S d) 0)). apply fc_mono. lia. }
  assert (Hsub : forall k, subr (fc i) (fc i + length ts) k -> subr i (i + 1) k).
  { intros k Hk1. rewrite Nat.add_1_r. apply subr_one. right. by rewrite <-HfS. }
  assert (HfN : fc i + length ts <= N) by (pose proof (fci_le (S (S d)) 0 Hw ltac:(lia)); lia).
  destruct (trees_ok ts Hw HN HF b (Bst false lf i (S d) off) (fc i) i (S d) m1) as (st2 & m2 & HT2 & HP2 & Hlf).
  { destruct b; cbn [req denote] in Hreq.
    - by inversion Hreq.
    - remember (Tr a (map denote ts)) as x0 eqn:Hx0. destruct Hreq as [a0|a0 ts0 k0 Hts0 Hk0]; injection Hx0 as Ha0 Heq; [|rewrite <-Heq].
      + symmetry in Heq. by apply map_eq_nil in Heq.
      + by constructor. }
  { done. }
  { unfold pre. cbn [b_root b_par b_depth b_off]. split_and!; try done; try lia.
    - by rewrite Nat.sub_succ, Nat.sub_0_r.
    - change (fci (S d) 0) with (fc (fci d 0)). by apply fc_mono.
    - intros j Hj. replace (S d + j) with (d + S j) by lia. rewrite H12 by lia. by rewrite fci_S.
    - unfold height_f. lia.
    - intros k Hk1. unfold m1, mup. destruct (Nat.eqb_spec k P) as [->|].
      + apply subr_ge in Hk1; [lia|done|lia].
      + apply H14. by apply Hsub. }
  destruct HP2 as (R1&R2&R3&R4&R5&R6&R7&R8&R9). cbn [b_off b_root b_depth b_par] in *.
  destruct (last (map denote ts)) as [kl|] eqn:Hlast.
  2:{ exfalso. apply last_None in Hlast. by apply map_eq_nil in Hlast. }
  specialize (Hlf kl eq_refl). destruct st2 as [rt2 lf2 pr2 dp2 off2]. cbn [b_off b_root b_depth b_par b_leaf] in *. subst rt2 dp2 lf2.
  assert (Hoff2 : off2 !! d = Some i) by (rewrite R8 by lia; done).
  assert (Hoff21 : off2 !! (d - 1) = Some P) by (rewrite R8 by lia; done).
  assert (Hpost : forall par' off', (b = true -> par' = P /\ (forall j, d + j < length off -> off' !! (d + j) = Some (fci j (i + 1)))) ->
    length off' = length off -> (forall e, e < d -> off' !! e = off !! e) ->
    post b (Bst false lf P d off) (Bst false false par' d off') i 1 P d m m2).
  { intros par' off' Hb Hlen He. unfold post. cbn [b_off b_root b_depth b_par b_leaf]. split_and!; try done.
    - intros k Hk1. rewrite Nat.add_1_r in Hk1. apply subr_one in Hk1 as [->|Hk1].
      + rewrite R5, Hm1i. lia.
      + apply R4. by rewrite HfS.
    - rewrite R6.
      + unfold m1, mup. rewrite Nat.eqb_refl. lia.
      + intros Hk1. apply subr_ge in Hk1; [lia|done|lia].
      + lia.
    - intros k Hk1 HkP. rewrite R6.
      + unfold m1, mup. by destruct (Nat.eqb_spec k P).
      + intros Hk2. by apply Hk1, Hsub.
      + intros ->. apply Hk1. rewrite Nat.add_1_r. apply subr_one. by left.
    - intros k. etransitivity; [apply Hm1|apply R7]. }
  assert (HT1 : triple (cells m) (visit_all f (Bst false lf P d off) [(Branch a, sz)]) (Bst false lf i (S d) off) (cells m1)).
  { cbn [visit_all]. rewrite HfB. unfold on_branch, idx. cbn [b_off b_depth b_par b_root]. rewrite Hoff. apply t_bind_assoc. cbn [unwrap]. step1. rewrite Hsz. cbn [fst snd].
    apply t_bind_assoc. subst i. eapply triple_bind; [apply (mappend m P a); [done..|lia|done|]|].
    { rewrite Hv. unfold ovis, visit_of. cbn [fst snd denote root_of kids]. by rewrite map_length. }
    step1. apply triple_ret. }
  assert (HTs : forall st3, (forall s, f (Bst false (isleaf kl) pr2 (S d) off2) (Frame, sz) s = Ok st3 s) ->
    triple (cells m) (visit_all f (Bst false lf P d off) ([(Branch a, sz)] ++ flat_map tt_preorder_hint ts ++ [(Frame, sz)])) st3 (cells m2)).
  { intros st3 Hst3. eapply triple_ext; [intros s; apply visit_all_app|]. eapply triple_bind; [exact HT1|].
    eapply triple_ext; [intros s; apply visit_all_app|]. eapply triple_bind; [exact HT2|].
    cbn [visit_all]. eapply triple_bind; [|apply triple_ret]. eapply triple_ext; [exact Hst3|]. apply triple_ret. }
  assert (Hisl : isleaf (denote (Tup a ts)) = false).
  { unfold isleaf. cbn [denote kids]. by destruct ts. }
  rewrite Hisl. destruct (isleaf kl) eqn:Hkl.
  - exists (Bst false false P d (<[d := S i]> off2)), m2. split; [apply HTs; intros s; by apply HfF1|]. split; [|done].
    apply Hpost.
    + intros ->. destruct (R9 eq_refl) as (Hp2 & Ho2). split; [done|]. intros [|j] Hj.
      * rewrite Nat.add_0_r, list_lookup_insert by (rewrite R3; lia). f_equal. unfold fci. simpl. lia.
      * rewrite list_lookup_insert_ne by lia. replace (d + S j) with (S d + j) by lia. rewrite Ho2 by lia. rewrite fci_S, HfS, Nat.add_1_r. done.
    + by rewrite insert_length.
    + intros e He. rewrite list_lookup_insert_ne by lia. apply R8. lia.
  - exists (Bst false false pr2 d off2), m2. split; [apply HTs; intros s; by apply HfF0|]. split; [|done].
    apply Hpost.
    + intros ->. exfalso. cbn [req denote] in Hreq. inversion Hreq as [? ? _ Hl]; subst. specialize (Hl kl Hlast). unfold isleaf in Hkl. by rewrite Hl in Hkl.
    + done.
    + intros e He. apply R8. lia.
Qed.

Lemma all_tree_ok : bwf -> 0 < N -> forall t, tree_ok t.
Proof.
  intros Hw HN. induction t as [a|a ts IH] using tuple_ind'.
  - intros b st i P d m Hreq Hlat Hpre. cbn [denote height map list_max foldr] in *. by apply leaf_ok.
  - destruct ts as [|t ts]; [|by apply branch_ok]. intros b st i P d m Hreq Hlat Hpre. by apply leaf_ok.
Qed.

End fill.

