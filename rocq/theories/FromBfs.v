(** FromBfs.v — From<BfsTree>/From<BfsForest> builds, in a fresh buffer, the tree whose breadth-first visits it gets. *)
From stdpp Require Import base gmap list.
From Verif Require Import Spec ClientSpec Machine NodeModel BfsModel Sep Rep NodeProofs Inv ClientModel Abs.

(** * functions on slots *)
Section cells.
Context {A : Type}.
Context (v N : nat).
Implicit Types (g : nat -> node A) (k : nat).

Definition cellsf g : list (ptr * node A) := (fun k => ((v, k), g k)) <$> seq 0 N.
Definition fupd g k (n : node A) : nat -> node A := fun j => if Nat.eqb j k then n else g j.

Lemma cellsf_fst g : (cellsf g).*1 = (fun k => (v, k)) <$> seq 0 N.
Proof. unfold cellsf. by rewrite <-list_fmap_compose. Qed.

Lemma cellsf_extract g k : k < N -> exists rest, forall n, cellsf (fupd g k n) ≡ₚ ((v, k), n) :: rest.
Proof.
  intros Hk. exists (((fun k => ((v, k), g k)) <$> seq 0 k) ++ ((fun k => ((v, k), g k)) <$> seq (S k) (N - S k))).
  intros n. unfold cellsf. replace N with (k + S (N - S k)) at 1 by lia. rewrite seq_app, fmap_app. simpl.
  rewrite <-Permutation_middle. replace (fupd g k n k) with n by (unfold fupd; by rewrite Nat.eqb_refl). constructor. apply reflexive_eq. f_equal.
  - apply list_fmap_ext. intros i x Hx. apply lookup_seq in Hx as [-> ?]. unfold fupd. destruct (Nat.eqb_spec (0 + i) k); [lia|done].
  - apply list_fmap_ext. intros i x Hx. apply lookup_seq in Hx as [-> ?]. unfold fupd. destruct (Nat.eqb_spec (S k + i) k); [lia|done].
Qed.
Lemma cellsf_ext g g' : (forall k, k < N -> g k = g' k) -> cellsf g = cellsf g'.
Proof. intros H. apply list_fmap_ext. intros i x Hx. apply lookup_seq in Hx as [-> ?]. by rewrite H by lia. Qed.
Lemma fupd_id g k : forall j, fupd g k (g k) j = g j.
Proof. intros j. unfold fupd. by destruct (Nat.eqb_spec j k) as [->|]. Qed.

Lemma f_get {X} g k (K : node A -> M A X) x l' : k < N ->
  triple (cellsf g) (K (g k)) x l' -> triple (cellsf g) (bind (get (v, k)) K) x l'.
Proof.
  intros Hk H. destruct (cellsf_extract g k Hk) as [rest Hr]. specialize (Hr (g k)).
  rewrite (cellsf_ext _ g) in Hr by (intros; apply fupd_id).
  eapply triple_pre; [exact Hr|]. eapply triple_bind; [apply triple_get|]. eapply triple_pre; [symmetry; exact Hr|]. done.
Qed.
Lemma f_put {X} g k n (K : unit -> M A X) x l' : k < N ->
  triple (cellsf (fupd g k n)) (K tt) x l' -> triple (cellsf g) (bind (put (v, k) n) K) x l'.
Proof.
  intros Hk H. destruct (cellsf_extract g k Hk) as [rest Hr]. pose proof (Hr (g k)) as Hr0.
  rewrite (cellsf_ext _ g) in Hr0 by (intros; apply fupd_id).
  eapply triple_pre; [exact Hr0|]. eapply triple_bind; [apply triple_put|]. eapply triple_pre; [symmetry; exact (Hr n)|]. done.
Qed.
Lemma f_put1 g k n : k < N -> triple (cellsf g) (put (v, k) n) tt (cellsf (fupd g k n)).
Proof.
  intros Hk. destruct (cellsf_extract g k Hk) as [rest Hr]. pose proof (Hr (g k)) as Hr0.
  rewrite (cellsf_ext _ g) in Hr0 by (intros; apply fupd_id).
  eapply triple_perm; [symmetry; exact Hr0|symmetry; exact (Hr n)|]. apply triple_put.
Qed.
Lemma f_upd {X} g k f (K : unit -> M A X) x l' : k < N ->
  triple (cellsf (fupd g k (f (g k)))) (K tt) x l' -> triple (cellsf g) (bind (upd (v, k) f) K) x l'.
Proof. intros Hk H. apply t_bind_assoc. apply f_get; [done|]. by apply f_put. Qed.
Lemma f_upd1 g k f : k < N -> triple (cellsf g) (upd (v, k) f) tt (cellsf (fupd g k (f (g k)))).
Proof. intros Hk. unfold upd. apply f_get; [done|]. by apply f_put1. Qed.
Lemma t_log_nil {X} l (K : unit -> M A X) x l' : triple l (K tt) x l' -> triple l (bind (log_drop []) K) x l'.
Proof.
  intros H s F HH. unfold bind, log_drop. rewrite app_nil_r. replace (Mem _ _ _ _ _) with s by by destruct s. by apply H.
Qed.
End cells.

Section build.
Context {A : Type}.
(** the visits, the root first ([None]: the root of a forest) *)
Notation vis := (option A * nat * nat)%type.
Context (v : nat) (vs : list vis).
Notation N := (length vs).

Definition dgn (i : nat) : nat := match vs !! i with Some (_, d, _) => d | None => 0 end.
Definition dsn (i : nat) : nat := match vs !! i with Some (_, _, d) => d | None => 0 end.
Definition van (i : nat) : option A := match vs !! i with Some (a, _, _) => a | None => None end.
(** index of the first child *)
Fixpoint fc (i : nat) : nat := match i with 0 => 1 | S j => fc j + dgn j end.

Definition bwf : Prop := (forall i, i < N -> i < fc i) /\ fc N = N.

Lemma fc_mono i j : i <= j -> fc i <= fc j.
Proof. intros H. induction H; simpl; lia. Qed.

Fixpoint pfind (n k : nat) : nat := match n with 0 => 0 | S n' => if Nat.leb (fc n') k then n' else pfind n' k end.
Definition par (k : nat) : nat := pfind N k.

Lemma pfind_spec n k : 1 <= k -> k < fc n -> fc (pfind n k) <= k < fc (S (pfind n k)) /\ pfind n k < n.
Proof.
  intros Hk. induction n as [|n IH]; simpl; intros Hn; [lia|].
  destruct (Nat.leb_spec (fc n) k) as [H|H]; [split; [simpl; lia|lia]|]. destruct IH; [lia|]. split; [done|lia].
Qed.
Lemma par_spec k : bwf -> 1 <= k -> k < N -> fc (par k) <= k < fc (S (par k)).
Proof. intros [H1 H2] Hk HN. apply (pfind_spec N k); lia. Qed.
Lemma par_lt k : bwf -> 1 <= k -> k < N -> par k < k.
Proof. intros H Hk HN. pose proof (par_spec k H Hk HN). destruct (pfind_spec N k Hk) as [_ Hp]; [destruct H; lia|].
  fold (par k) in Hp. destruct H as [H _]. specialize (H (par k) Hp). lia. Qed.
Lemma par_uniq i k : bwf -> 1 <= k -> k < N -> fc i <= k < fc (S i) -> par k = i.
Proof.
  intros H Hk HN Hi. pose proof (par_spec k H Hk HN) as Hp.
  destruct (lt_eq_lt_dec (par k) i) as [[Hl|?]|Hl]; [|done|].
  - pose proof (fc_mono (S (par k)) i). lia.
  - pose proof (fc_mono (S i) (par k)). lia.
Qed.
Lemma fc_le i : bwf -> i <= N -> fc i <= N.
Proof. intros [_ H] Hi. pose proof (fc_mono i N Hi). lia. Qed.

(** slot [k] when the slots below [c] have been filled *)
Definition cell (c k : nat) : node A :=
  Node (if Nat.eqb k 0 then None else if Nat.eqb k (fc (par k)) then None else Some (v, k - 1))
       (if Nat.eqb k 0 then None else if Nat.ltb (S k) c && Nat.ltb (S k) (fc (S (par k))) then Some (v, S k) else None)
       (if Nat.ltb (fc k) (min c (fc (S k))) then Some (v, fc k) else None)
       (if Nat.ltb (fc k) (min c (fc (S k))) then Some (v, min c (fc (S k)) - 1) else None)
       (if Nat.eqb k 0 then None else Some (v, par k))
       (dgn k) (dsn k) (dat_of (v, k) true (van k)).
Definition gcell (c k : nat) : node A := if Nat.ltb k c then cell c k else node_default.

Lemma append_child_spec c a d ds : bwf -> 1 <= c -> c < N -> vs !! c = Some (Some a, d, ds) ->
  triple (cellsf v N (gcell c)) (append_child v (par c) c a d ds) tt (cellsf v N (gcell (S c))).
Proof.
  intros Hw Hc HN Hv. pose proof (par_spec c Hw Hc HN) as Hp. pose proof (par_lt c Hw Hc HN) as Hlt.
  set (P := par c) in *.
  assert (dgn c = d /\ dsn c = ds /\ van c = Some a) as (Hd & Hds & Ha) by (unfold dgn, dsn, van; by rewrite Hv).
  assert (HPN : P < N) by lia.
  assert (HgP : gcell c P = cell c P) by (unfold gcell; destruct (Nat.ltb_spec P c); [done|lia]).
  assert (Hgc : gcell c c = node_default) by (unfold gcell; destruct (Nat.ltb_spec c c); [lia|done]).
  assert (Hfc : c < fc c) by (apply Hw; done).
  assert (Hmin : min c (fc (S P)) = c) by lia.
  (* the pointwise final statement *)
  assert (HP1 : P < fc P) by (apply Hw; lia).
  assert (Hothers : forall k, k < N -> k <> c -> k <> P -> (k <> c - 1 \/ c = fc P) -> gcell c k = gcell (S c) k).
  { intros k Hk Hk1 Hk2 Hk3. unfold gcell. destruct (Nat.ltb_spec k c) as [Hkc|Hkc].
    2:{ destruct (Nat.ltb_spec k (S c)); [lia|done]. }
    destruct (Nat.ltb_spec k (S c)); [|lia].
    assert (Hn1 : n_next (cell c k) = n_next (cell (S c) k)).
    { unfold cell; cbn [n_prev n_next n_head n_tail n_up]. destruct (Nat.eqb_spec k 0); [done|]. destruct (Nat.ltb_spec (S k) c) as [H1|H1], (Nat.ltb_spec (S k) (S c)) as [H2|H2]; try done; try lia.
      cbn [andb]. destruct (Nat.ltb_spec (S k) (fc (S (par k)))) as [H3|H3]; [|done]. exfalso.
      assert (S k = c) as Hkc' by lia.
      pose proof (par_spec k Hw ltac:(lia) ltac:(lia)) as Hpk. assert (P = par k) as HPk by (apply par_uniq; [done|lia..]). rewrite HPk in *. lia. }
    assert (Nat.ltb (fc k) (min c (fc (S k))) = Nat.ltb (fc k) (min (S c) (fc (S k))) /\
            (fc k < min c (fc (S k)) -> min c (fc (S k)) = min (S c) (fc (S k)))) as [H1 H2].
    { assert (~ (fc k <= c < fc (S k))) as Hn by (intros Hx; apply Hk2; symmetry; by apply par_uniq).
      split; [|lia]. destruct (Nat.ltb_spec (fc k) (min c (fc (S k)))), (Nat.ltb_spec (fc k) (min (S c) (fc (S k)))); try done; lia. }
    unfold cell in Hn1 |- *. cbn [n_next] in Hn1. rewrite Hn1, <-H1. destruct (Nat.ltb_spec (fc k) (min c (fc (S k)))) as [H3|H3]; [|done].
    by rewrite <-H2. }
  assert (HnextP : n_next (cell c P) = n_next (cell (S c) P)).
  { unfold cell; cbn [n_prev n_next n_head n_tail n_up]. destruct (Nat.eqb_spec P 0); [done|]. destruct (Nat.ltb_spec (S P) c), (Nat.ltb_spec (S P) (S c)); try done; try lia.
    cbn [andb]. destruct (Nat.ltb_spec (S P) (fc (S (par P)))) as [H3|H3]; [|done]. exfalso.
    pose proof (par_spec P Hw ltac:(lia) ltac:(lia)) as Hpk. assert (par c = par P) as HH by (apply par_uniq; [done|lia..]). 
    pose proof (par_lt P Hw ltac:(lia) ltac:(lia)). fold P in HH. lia. }
  unfold append_child, slot. apply t_bind_assoc. apply f_get; [lia|]. step1.
  unfold make_piled_node, vec_make_node. apply t_bind_assoc. apply f_get; [lia|]. rewrite Hgc.
  apply t_bind_assoc. cbn [node_default n_dat dat_vals]. apply t_log_nil. apply t_bind_assoc. apply f_put; [lia|]. step1.
  apply f_get; [lia|]. unfold fupd at 2. destruct (Nat.eqb_spec P c); [lia|]. rewrite HgP. 
  destruct (decide (c = fc P)) as [HcP|HcP].
  - assert (n_tail (cell c P) = None) as ->.
    { unfold cell; cbn [n_prev n_next n_head n_tail n_up]. rewrite Hmin. destruct (Nat.ltb_spec (fc P) c); [lia|done]. }
    apply f_upd; [lia|]. eapply triple_post; [|apply f_upd1; lia]. apply reflexive_eq, cellsf_ext. intros k Hk.
    unfold fupd. rewrite !Nat.eqb_refl. destruct (Nat.eqb_spec P c); [lia|].
    destruct (Nat.eqb_spec k P) as [->|].
    + rewrite HgP. unfold gcell. destruct (Nat.ltb_spec P (S c)); [|lia].
      unfold set_tail, set_head. cbn [n_prev n_next n_head n_tail n_up n_deg n_desc n_dat]. rewrite HnextP. unfold cell. cbn [n_prev n_next n_head n_tail n_up n_deg n_desc n_dat].
      destruct (Nat.ltb_spec (fc P) (min (S c) (fc (S P)))); [|lia]. f_equal; [by rewrite <-HcP|].
      do 2 f_equal. lia.
    + destruct (Nat.eqb_spec k c) as [->|]; [|apply Hothers; auto].
      unfold gcell. destruct (Nat.ltb_spec c (S c)); [|lia]. unfold cell. fold P. rewrite Hd, Hds, Ha.
      destruct (Nat.eqb_spec c 0); [lia|]. destruct (Nat.eqb_spec c (fc P)); [|lia].
      destruct (Nat.ltb_spec (S c) (S c)); [lia|]. cbn [andb].
      destruct (Nat.ltb_spec (fc c) (min (S c) (fc (S c)))); [lia|]. done.
  - assert (n_tail (cell c P) = Some (v, c - 1)) as ->.
    { unfold cell; cbn [n_prev n_next n_head n_tail n_up]. rewrite Hmin. destruct (Nat.ltb_spec (fc P) c); [done|lia]. }
    assert (Hc1 : c - 1 <> P) by lia.
    assert (Hp1 : par (c - 1) = P) by (apply par_uniq; [done|lia..]).
    unfold connect_next. apply t_bind_assoc. apply f_upd; [lia|]. apply f_upd; [lia|]. eapply triple_post; [|apply f_upd1; lia].
    apply reflexive_eq, cellsf_ext. intros k Hk.
    unfold fupd. rewrite !Nat.eqb_refl. destruct (Nat.eqb_spec P c); [lia|]. destruct (Nat.eqb_spec P (c - 1)); [lia|].
    destruct (Nat.eqb_spec c (c - 1)); [lia|]. destruct (Nat.eqb_spec (c - 1) c); [lia|].
    destruct (Nat.eqb_spec k P) as [->|].
    + rewrite HgP. unfold gcell. destruct (Nat.ltb_spec P (S c)); [|lia].
      unfold set_tail, set_head. cbn [n_prev n_next n_head n_tail n_up n_deg n_desc n_dat]. rewrite HnextP. unfold cell. cbn [n_prev n_next n_head n_tail n_up n_deg n_desc n_dat].
      destruct (Nat.ltb_spec (fc P) (min (S c) (fc (S P)))); [|lia]. destruct (Nat.ltb_spec (fc P) (min c (fc (S P)))); [|lia]. f_equal.
      do 2 f_equal. lia.
    + destruct (Nat.eqb_spec k c) as [->|].
      * unfold gcell. destruct (Nat.ltb_spec c (S c)); [|lia]. unfold cell. fold P. rewrite Hd, Hds, Ha.
        destruct (Nat.eqb_spec c 0); [lia|]. destruct (Nat.eqb_spec c (fc P)); [lia|].
        destruct (Nat.ltb_spec (S c) (S c)); [lia|]. cbn [andb].
        destruct (Nat.ltb_spec (fc c) (min (S c) (fc (S c)))); [lia|]. done.
      * destruct (Nat.eqb_spec k (c - 1)) as [->|]; [|apply Hothers; auto].
        unfold gcell. destruct (Nat.ltb_spec (c - 1) c); [|lia]. destruct (Nat.ltb_spec (c - 1) (S c)); [|lia].
        unfold cell, set_next; cbn [n_prev n_next n_head n_tail n_up n_deg n_desc n_dat]. rewrite Hp1.
        destruct (Nat.eqb_spec (c - 1) 0); [lia|]. replace (S (c - 1)) with c by lia.
        destruct (Nat.ltb_spec c (S c)); [|lia]. destruct (Nat.ltb_spec c (fc (S P))); [|lia]. cbn [andb].
        assert (c <= fc (c - 1)) by (assert (c - 1 < fc (c - 1)) by (apply Hw; lia); lia).
        assert (~ (fc (c - 1) <= c < fc c)) as Hn.
        { intros Hx. apply Hc1. symmetry. apply par_uniq; [done|lia|lia|]. replace (S (c - 1)) with c by lia. done. }
        destruct (Nat.ltb_spec (fc (c - 1)) (min c (fc c))), (Nat.ltb_spec (fc (c - 1)) (min (S c) (fc c))); try done; lia.
Qed.

Lemma skip_full_spec c f : forall P r, bwf -> c < N -> P < c -> c - P < f -> fc P <= S c <= fc (S P) -> r = fc (S P) - S c ->
  exists P' r', triple (cellsf v N (gcell (S c))) (skip_full f v P c r) (P', r') (cellsf v N (gcell (S c))) /\
    fc P' <= S c <= fc (S P') /\ r' = fc (S P') - S c /\ P' <= c /\ (0 < r' \/ P' = c).
Proof.
  induction f as [|f IH]; intros P r Hw HN HP Hf Hfc Hr; [lia|].
  destruct r as [|r].
  - cbn [skip_full]. assert (Hdeg : n_deg (gcell (S c) (S P)) = dgn (S P)).
    { unfold gcell. destruct (Nat.ltb_spec (S P) (S c)); [done|lia]. }
    destruct (Nat.eqb_spec (S P) c) as [Heq|Hne].
    + exists (S P), (dgn (S P)). split.
      * apply f_get; [lia|]. rewrite Hdeg. apply triple_ret.
      * simpl in *. split_and!; lia.
    + destruct (IH (S P) (dgn (S P)) Hw HN) as (P' & r' & HT & ?); [lia|lia|simpl in *; lia|simpl in *; lia|].
      exists P', r'. split; [|done]. apply f_get; [lia|]. by rewrite Hdeg.
  - exists P, (S r). split; [apply triple_ret|]. split_and!; [lia..|]. left; lia.
Qed.

(** * the final tree *)
Fixpoint bt (f i : nat) : atree A :=
  match f with
  | 0 => AN (v, i) true (van i) []
  | S f' => AN (v, i) true (van i) (bt f' <$> seq (fc i) (dgn i))
  end.

Lemma bt_fuel f f' i : bwf -> i < N -> N - i <= f -> N - i <= f' -> bt f i = bt f' i.
Proof.
  intros Hw. revert f' i. induction f as [|f IH]; intros f' i Hi Hf Hf'; [lia|]. destruct f' as [|f']; [lia|]. simpl. f_equal.
  apply list_fmap_ext. intros j x Hx. apply lookup_seq in Hx as [-> Hj].
  pose proof (fc_le (S i) Hw ltac:(lia)). simpl in *. assert (i < fc i) by (by apply Hw). apply IH; lia.
Qed.
Definition T (i : nat) : atree A := bt N i.
Lemma T_eq i : bwf -> i < N -> T i = AN (v, i) true (van i) (T <$> seq (fc i) (dgn i)).
Proof.
  intros Hw Hi. unfold T at 1. destruct N eqn:E; [lia|]. simpl. f_equal.
  apply list_fmap_ext. intros j x Hx. apply lookup_seq in Hx as [-> Hj]. unfold T.
  pose proof (fc_le (S i) Hw ltac:(lia)). simpl in *. assert (i < fc i) by (apply Hw; lia). apply bt_fuel; [done|lia..].
Qed.
Lemma aptr_T i : aptr (T i) = (v, i).
Proof. unfold T. by destruct N. Qed.

Lemma hdp_T a m : hdp (T <$> seq a m) None = (if Nat.eqb m 0 then None else Some (v, a)).
Proof. destruct m; simpl; [done|]. by rewrite aptr_T. Qed.
Lemma lastp_T a m pv : lastp pv (T <$> seq a m) = (if Nat.eqb m 0 then pv else Some (v, a + m - 1)).
Proof.
  revert a pv. induction m as [|m IH]; intros a pv; [done|]. simpl. rewrite IH. destruct m; simpl; [rewrite aptr_T; do 2 f_equal; lia|].
  do 2 f_equal. lia.
Qed.

Definition good (x : ptr * node A) : Prop := exists j, j < N /\ x = ((v, j), cell N j).

Lemma lay_T : bwf -> (forall i, i < N -> dsn i = cnts (T <$> seq (fc i) (dgn i))) ->
  forall m i, i < N -> N - i <= m ->
  Forall good (lay (n_up (cell N i)) (n_prev (cell N i)) (n_next (cell N i)) (T i)).
Proof.
  intros Hw Hds. induction m as [|m IH]; intros i Hi Hm; [lia|].
  rewrite (T_eq i Hw Hi), lay_eq. pose proof (fc_le (S i) Hw ltac:(lia)) as HfN. simpl in HfN.
  assert (Hfi : i < fc i) by (by apply Hw).
  constructor.
  - exists i. split; [done|]. f_equal. unfold mk. rewrite hdp_T, lastp_T, fmap_length, seq_length, <-(Hds i Hi). unfold cell. simpl fc. simpl n_up. simpl n_prev. simpl n_next.
    rewrite Nat.min_r by lia. f_equal.
    + destruct (Nat.eqb_spec (dgn i) 0), (Nat.ltb_spec (fc i) (fc i + dgn i)); try done; lia.
    + destruct (Nat.eqb_spec (dgn i) 0), (Nat.ltb_spec (fc i) (fc i + dgn i)); try done; lia.
  - assert (Hgen : forall n a pv, a + n = fc i + dgn i -> fc i <= a -> pv = (if Nat.eqb a (fc i) then None else Some (v, a - 1)) ->
      Forall good (lays (Some (v, i)) pv (T <$> seq a n) None)).
    { induction n as [|n IHn]; intros a pv Ha Hfa ->; [constructor|]. simpl seq. rewrite fmap_cons, lays_cons, aptr_T.
      apply Forall_app. assert (HaN : a < N) by lia. assert (par a = i) as Hpa by (apply par_uniq; [done|simpl; lia..]).
      split.
      - specialize (IH a HaN ltac:(lia)). rewrite hdp_T.
        assert (n_up (cell N a) = Some (v, i)) as Hu by (unfold cell; cbn [n_prev n_next n_head n_tail n_up]; destruct (Nat.eqb_spec a 0); [lia|by rewrite Hpa]).
        assert (n_prev (cell N a) = (if Nat.eqb a (fc i) then None else Some (v, a - 1))) as Hpv.
        { unfold cell; cbn [n_prev n_next n_head n_tail n_up]. destruct (Nat.eqb_spec a 0); [lia|by rewrite Hpa]. }
        assert (n_next (cell N a) = (if Nat.eqb n 0 then None else Some (v, S a))) as Hnx.
        { unfold cell; cbn [n_prev n_next n_head n_tail n_up]. destruct (Nat.eqb_spec a 0); [lia|]. rewrite Hpa. simpl fc.
          destruct (Nat.eqb_spec n 0), (Nat.ltb_spec (S a) N), (Nat.ltb_spec (S a) (fc i + dgn i)); simpl; try done; lia. }
        by rewrite Hu, Hpv, Hnx in IH.
      - apply IHn; [lia|lia|]. destruct (Nat.eqb_spec (S a) (fc i)); [lia|]. do 2 f_equal. lia. }
    apply Hgen; [done|lia|]. by rewrite Nat.eqb_refl.
Qed.

Lemma T_all : bwf -> 0 < N -> forall j, j < N -> (v, j) ∈ addrs (T 0).
Proof.
  intros Hw HN j. assert (Htr : forall i k, i < N -> fc i <= k < fc (S i) -> (v, i) ∈ addrs (T 0) -> (v, k) ∈ addrs (T 0)).
  { (* the children of every T i inside T 0 are inside T 0 *)
    assert (Hg : forall m r, r < N -> N - r <= m -> forall i k, i < N -> fc i <= k < fc (S i) -> (v, i) ∈ addrs (T r) -> (v, k) ∈ addrs (T r)).
    { induction m as [|m IH]; intros r Hr Hm i k Hi Hk Hin; [lia|]. rewrite (T_eq r Hw Hr), addrs_eq in Hin |- *.
      assert (Hfr : r < fc r) by (by apply Hw). pose proof (fc_le (S r) Hw ltac:(lia)) as HfN. simpl in HfN.
      right. unfold addrss in *. apply elem_of_list_In, in_flat_map.
      apply elem_of_cons in Hin as [Heq|Hin].
      - injection Heq as ->. exists (T k). split.
        + apply elem_of_list_In, elem_of_list_fmap_1. apply elem_of_seq. simpl in Hk. lia.
        + apply elem_of_list_In. assert (HkN : k < N) by (simpl in Hk; lia). rewrite (T_eq k Hw HkN), addrs_eq. left.
      - apply elem_of_list_In, in_flat_map in Hin as (t & Ht & Hin). apply elem_of_list_In in Ht, Hin.
        exists t. split; [by apply elem_of_list_In|]. apply elem_of_list_In.
        apply elem_of_list_fmap in Ht as (x & -> & Hx). apply elem_of_seq in Hx. apply (IH x ltac:(lia) ltac:(lia) i k); done. }
    intros i k Hi Hk. apply (Hg N 0 HN ltac:(lia) i k Hi Hk). }
  induction (lt_wf j) as [j _ IH]. intros Hj. destruct (decide (j = 0)) as [->|Hj0].
  - rewrite (T_eq 0 Hw HN), addrs_eq. left.
  - pose proof (par_lt j Hw ltac:(lia) Hj). apply (Htr (par j) j); [lia|by apply par_spec; [done|lia|]|]. apply IH; lia.
Qed.

Lemma T_layout : bwf -> 0 < N -> (forall i, i < N -> dsn i = cnts (T <$> seq (fc i) (dgn i))) -> cntn (T 0) = N ->
  lay None None None (T 0) ≡ₚ cellsf v N (gcell N).
Proof.
  intros Hw HN Hds Hcnt. pose proof (lay_T Hw Hds N 0 HN ltac:(lia)) as HF. 
  change (lay None None None (T 0)) with (lay (n_up (cell N 0)) (n_prev (cell N 0)) (n_next (cell N 0)) (T 0)).
  set (L := lay _ _ _ _) in *. assert (HL1 : L.*1 = addrs (T 0)) by apply lay_fst.
  assert (Hslots : (fun k => (v, k)) <$> seq 0 N ≡ₚ addrs (T 0)).
  { apply submseteq_Permutation_length_le.
    2:{ apply NoDup_submseteq.
      + apply NoDup_fmap; [by intros x y [= ->]|apply NoDup_seq].
      + intros x Hx. apply elem_of_list_fmap in Hx as (k & -> & Hk). apply elem_of_seq in Hk. apply T_all; [done..|lia]. }
    rewrite fmap_length, seq_length, addrs_length. lia. }
  assert (HLeq : L = (fun p => (p, gcell N p.2)) <$> L.*1).
  { clear -HF. induction HF as [|x L Hx _ IH]; [done|]. destruct Hx as (j & Hj & ->). rewrite !fmap_cons. simpl. rewrite <-IH.
    unfold gcell. by destruct (Nat.ltb_spec j N); [|lia]. }
  rewrite HLeq, HL1, <-Hslots. rewrite <-list_fmap_compose. done.
Qed.

Lemma infos_T : bwf -> forall m i, i < N -> N - i <= m -> infos (T i) = (fun p => (p, true)) <$> addrs (T i) /\ Forall (fun p : ptr => p.1 = v) (addrs (T i)).
Proof.
  intros Hw. induction m as [|m IH]; intros i Hi Hm; [lia|]. rewrite (T_eq i Hw Hi), infos_eq, addrs_eq.
  assert (Hfr : i < fc i) by (by apply Hw). pose proof (fc_le (S i) Hw ltac:(lia)) as HfN. simpl in HfN.
  assert (Hg : forall n a, i < a -> a + n <= N -> infoss (T <$> seq a n) = (fun p => (p, true)) <$> addrss (T <$> seq a n) /\ Forall (fun p : ptr => p.1 = v) (addrss (T <$> seq a n))).
  { induction n as [|n IHn]; intros a Ha HaN; [split; [done|constructor]|]. simpl seq. rewrite fmap_cons, infoss_cons. unfold addrss; simpl.
    destruct (IHn (S a)) as [H1 H2]; [lia..|]. destruct (IH a) as [H3 H4]; [lia..|]. rewrite fmap_app. unfold addrss in *. rewrite H1, H3.
    split; [done|]. by apply Forall_app. }
  destruct (Hg (dgn i) (fc i)) as [H1 H2]; [lia..|]. rewrite fmap_cons. split; [by rewrite H1|by constructor].
Qed.

End build.
