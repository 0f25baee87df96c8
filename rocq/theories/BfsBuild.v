(** BfsBuild.v — queue order = level order; the conversion from breadth-first visits, for any iterator. *)
From stdpp Require Import base gmap list.
From Verif Require Import Spec ClientSpec Machine NodeModel BfsModel Sep Rep NodeProofs Inv ClientModel Abs FromBfs.

Section qo.
Context {A : Type}.
Implicit Types (t : tree A) (q r ts : list (tree A)).

(** [qo q r]: starting with the queue [q], the nodes leave the queue in the order [r] *)
Inductive qo : list (tree A) -> list (tree A) -> Prop :=
  | qo_nil : qo [] []
  | qo_cons t q r : qo (q ++ kids t) r -> qo (t :: q) (t :: r).

Lemma qo_app l : forall m out, qo (m ++ flat_map kids l) out -> qo (l ++ m) (l ++ out).
Proof.
  induction l as [|t l IH]; intros m out H; [by rewrite app_nil_r in H|]. simpl. constructor.
  rewrite <-app_assoc. apply IH. by rewrite <-app_assoc.
Qed.
Lemma qo_level ts out : qo (flat_map kids ts) out -> qo ts (ts ++ out).
Proof. intros H. pose proof (qo_app ts [] out H) as H'. by rewrite app_nil_r in H'. Qed.

Lemma flat_map_level0 ts : flat_map (level 0) ts = ts.
Proof. induction ts as [|t ts IH]; simpl; [done|]. simpl in IH. by rewrite IH. Qed.
Lemma flat_map_levelS n ts : flat_map (level (S n)) ts = flat_map (level n) (flat_map kids ts).
Proof. induction ts as [|t ts IH]; simpl; [done|]. rewrite flat_map_app. by f_equal. Qed.

Lemma qo_levels n : forall ts, height_f ts <= n -> qo ts (flat_map (fun k => flat_map (level k) ts) (seq 0 n)).
Proof.
  induction n as [|n IH]; intros ts Hh.
  - assert (ts = []) as ->; [|constructor]. destruct ts as [|[a ks] ts]; [done|]. unfold height_f in Hh. simpl in Hh. lia.
  - simpl. rewrite flat_map_level0. apply qo_level. rewrite <-seq_shift.
    assert (flat_map (fun k => flat_map (level k) ts) (map S (seq 0 n)) = flat_map (fun k => flat_map (level k) (flat_map kids ts)) (seq 0 n)) as ->.
    { generalize (seq 0 n) as l. induction l as [|k l IHl]; [done|]. cbn [map flat_map]. by rewrite flat_map_levelS, IHl. }
    apply IH. unfold height_f in *. apply list_max_le. apply list_max_le in Hh. clear IH.
    induction ts as [|[a ks] ts IHts]; [constructor|]. cbn [map] in Hh. apply Forall_cons in Hh as [H1 H2]. cbn [flat_map kids].
    rewrite map_app. apply Forall_app. split; [|by apply IHts]. simpl in H1. apply list_max_le. lia.
Qed.

Lemma qo_level_order_f ts : qo ts (level_order_f ts).
Proof. apply qo_levels. done. Qed.
Lemma qo_level_order t : qo [t] (level_order t).
Proof.
  pose proof (qo_levels (height t) [t]) as H. unfold height_f in H. simpl in H. specialize (H ltac:(lia)).
  unfold level_order. replace (flat_map (fun n => level n t) (seq 0 (height t))) with
    (flat_map (fun k => level k t ++ []) (seq 0 (height t))); [done|].
  generalize (seq 0 (height t)) as l. induction l as [|k l IHl]; [done|]. simpl. by rewrite app_nil_r, IHl.
Qed.
Lemma qo_fun q r r' : qo q r -> qo q r' -> r = r'.
Proof. intros H. revert r'. induction H as [|t q r H IH]; intros r' H'; inversion H'; subst; [done|]. f_equal. by apply IH. Qed.
Lemma qo_length q r : qo q r -> length r = nodes_f q.
Proof.
  intros H. induction H as [|t q r H IH]; [done|]. simpl. rewrite IH. unfold nodes_f. rewrite map_app, list_sum_app. destruct t as [a ks]. simpl. lia.
Qed.
End qo.

Section fromq.
Context {A : Type}.
Notation vis := (option A * nat * nat)%type.
Definition ovis (x : A * nat * nat) : vis := (Some x.1.1, x.1.2, x.2).
Implicit Types (q r ts : list (tree A)) (vs : list vis).

Lemma drop_lookup {X} (l : list X) i x l' : drop i l = x :: l' -> l !! i = Some x /\ drop (S i) l = l'.
Proof.
  revert i. induction l as [|y l IH]; intros [|i] H; simpl in *; try done; [by simplify_eq|]. by apply IH.
Qed.

Lemma qo_props vs : forall q r, qo q r -> forall i, drop i vs = (ovis ∘ visit_of) <$> r -> i <= length vs -> fc vs i = i + length q ->
  (forall j, i <= j -> j < length vs -> j < fc vs j) /\ fc vs (length vs) = length vs.
Proof.
  intros q r H. induction H as [|t q r H IH]; intros i Hd Hi Hf.
  - assert (length vs = i). { apply (f_equal length) in Hd. rewrite drop_length in Hd. simpl in Hd. lia. }
    subst i. split; [lia|]. simpl in Hf. lia.
  - rewrite fmap_cons in Hd. apply drop_lookup in Hd as [Hl Hd]. pose proof (lookup_lt_Some _ _ _ Hl) as Hlt.
    destruct (IH (S i) Hd) as [H1 H2]; [lia| |].
    { simpl. unfold dgn. rewrite Hl. simpl. rewrite Hf. rewrite app_length. simpl. lia. }
    split; [|done]. intros j Hj HjN. destruct (decide (j = i)) as [->|]; [simpl in Hf; lia|]. apply H1; lia.
Qed.

Lemma qo_rt v vs : bwf vs -> forall q r, qo q r -> forall i, drop i vs = (ovis ∘ visit_of) <$> r -> i <= length vs -> fc vs i = i + length q ->
  (forall k x, q !! k = Some x -> rt (T v vs (i + k)) x) /\
  (forall j, i <= j -> j < length vs -> dsn vs j = cnts (T v vs <$> seq (fc vs j) (dgn vs j))).
Proof.
  intros Hw q r H. induction H as [|t q r H IH]; intros i Hd Hi Hf.
  - split; [done|]. apply (f_equal length) in Hd. rewrite drop_length in Hd. simpl in Hd. lia.
  - rewrite fmap_cons in Hd. apply drop_lookup in Hd as [Hl Hd]. pose proof (lookup_lt_Some _ _ _ Hl) as Hlt. simpl in Hf.
    destruct (IH (S i) Hd) as [H1 H2]; [lia| |].
    { simpl. unfold dgn. rewrite Hl. simpl. rewrite Hf. rewrite app_length. simpl. lia. }
    assert (dgn vs i = length (kids t)) as Hdg by (unfold dgn; by rewrite Hl).
    assert (Hks : Forall2 rt (T v vs <$> seq (fc vs i) (dgn vs i)) (kids t)).
    { apply Forall2_same_length_lookup. split; [by rewrite fmap_length, seq_length|]. intros k a b Ha Hb.
      rewrite list_lookup_fmap in Ha. destruct (seq (fc vs i) (dgn vs i) !! k) as [j|] eqn:Hj; [|done]. simpl in Ha. simplify_eq.
      apply lookup_seq in Hj as [-> Hk]. replace (fc vs i + k) with (S i + (length q + k)) by lia. apply H1.
      rewrite lookup_app_r by lia. by replace (length q + k - length q) with k by lia. }
    assert (HT : rt (T v vs i) t).
    { rewrite (T_eq _ _ _ Hw Hlt). unfold van. rewrite Hl. destruct t as [a ks]. simpl. by constructor. }
    split.
    + intros [|k] x Hx; simpl in Hx; [simplify_eq; by rewrite Nat.add_0_r|].
      replace (i + S k) with (S i + k) by lia. apply H1. by apply lookup_app_l_Some.
    + intros j Hj HjN. destruct (decide (j = i)) as [->|]; [|apply H2; lia].
      rewrite (rts_cnts _ _ Hks). unfold dsn. by rewrite Hl.
Qed.
End fromq.

Section from.
Context {A : Type}.
Implicit Types (W : list (atree A)) (s : mem A) (E EL : list (ptr * node A)).
Context {S : Type} (next : S -> M A (option (visit (A:=A)) * S)).
(** [R it ys W]: with the live trees [W], the iterator still gives [ys]; [Rend W]: the live trees after its end *)
Context (R : S -> list (visit (A:=A)) -> list (atree A) -> Prop) (Rend : list (atree A) -> Prop).

Definition yields : Prop := forall it ys W E s, R it ys W -> MInvX s W E ->
  match ys with
  | [] => exists it' s' W', next it s = Ok (None, it') s' /\ MInvX s' W' E /\ Rend W' /\ m_log s' = m_log s
  | y :: ys' => exists it' s' W', next it s = Ok (Some y, it') s' /\ MInvX s' W' E /\ R it' ys' W' /\ m_log s' = m_log s
  end.

Lemma MInv_E {X} s W E E' EL (m : M A X) x : triple E m x E' -> E.*1 = E'.*1 -> MInvX s W (E ++ EL) ->
  exists s', m s = Ok x s' /\ MInvX s' W (E' ++ EL) /\ m_log s' = m_log s.
Proof.
  intros HT HE H. destruct (MInv_tripleE s W W (E ++ EL) (E' ++ EL) E E' (EL ++ layW W) m x HT) as (h & Hm & HI); [..|done|].
  - by rewrite Permutation_app_comm, app_assoc.
  - by rewrite Permutation_app_comm, app_assoc.
  - done.
  - by rewrite !fmap_app, HE.
  - eauto 10.
Qed.

Lemma MInv_sizeE s W E : MInvX s W E -> length E <= size (m_heap s).
Proof. intros [(D & HH & _) _ _ _ _ _ _]. rewrite (HP_size _ _ HH), !app_length. lia. Qed.

Hypothesis Hy : yields.

Lemma from_bfs_loop_spec EL v vs : bwf vs -> forall ys c P r it W s f,
  drop c vs = ovis <$> ys -> 1 <= c -> c <= length vs -> (ys = [] \/ (P = par vs c /\ r = fc vs (Datatypes.S P) - c)) -> length ys < f ->
  R it ys W -> MInvX s W (cellsf v (length vs) (gcell v vs c) ++ EL) ->
  exists s' W', from_bfs_loop next f v P c r it s = Ok tt s' /\ MInvX s' W' (cellsf v (length vs) (gcell v vs (length vs)) ++ EL) /\ Rend W' /\ m_log s' = m_log s.
Proof.
  intros Hw. induction ys as [|[[a d] ds] ys IH]; intros c P r it W s f Hd Hc HcN HP Hf HR HI; (destruct f as [|f]; [simpl in Hf; lia|]).
  - cbn [from_bfs_loop]. unfold bind. destruct (Hy _ _ _ _ _ HR HI) as (it' & s' & W' & -> & HI' & He & Hlog). cbn [fst].
    assert (c = length vs) as ->. { apply (f_equal length) in Hd. rewrite drop_length in Hd. simpl in Hd. lia. }
    exists s', W'. done.
  - cbn [from_bfs_loop]. unfold bind at 1. destruct (Hy _ _ _ _ _ HR HI) as (it' & s1 & W1 & -> & HI1 & HR1 & Hl1). cbn [fst snd].
    rewrite fmap_cons in Hd. apply drop_lookup in Hd as [Hl Hd]. pose proof (lookup_lt_Some _ _ _ Hl) as Hlt.
    destruct HP as [?|[-> ->]]; [done|]. pose proof (par_spec vs c Hw Hc Hlt) as Hps. pose proof (par_lt vs c Hw Hc Hlt) as Hpl.
    unfold bind at 1. edestruct (MInv_E s1 W1 _ _ EL _ _ (append_child_spec v vs c a d ds Hw Hc Hlt Hl)) as (s2 & -> & HI2 & Hl2);
      [by rewrite !cellsf_fst|exact HI1|].
    unfold bind at 1, sub. destruct (Nat.leb_spec 1 (fc vs (Datatypes.S (par vs c)) - c)) as [_|]; [|lia]. cbn [ret].
    unfold bind at 1, fuel, gets.
    destruct (skip_full_spec v vs c (Datatypes.S (size (m_heap s2))) (par vs c) (fc vs (Datatypes.S (par vs c)) - c - 1)) as (P' & r' & HT & Hfc & Hr' & HPc & Hor); [done..| |lia|lia|].
    { pose proof (MInv_sizeE _ _ _ HI2) as Hs. unfold cellsf in Hs. rewrite app_length, fmap_length, seq_length in Hs. lia. }
    unfold bind. edestruct (MInv_E s2 W1 _ _ EL _ _ HT) as (s3 & -> & HI3 & Hl3); [done|exact HI2|]. cbn [fst snd].
    destruct (IH (Datatypes.S c) P' r' it' W1 s3 f) as (s4 & W4 & H4 & HI4 & He4 & Hl4); [done|lia|lia| |simpl in Hf; lia|done|done|].
    { destruct ys as [|y ys]; [by left|]. right.
      assert (Hn : Datatypes.S c < length vs). { apply (f_equal length) in Hd. rewrite drop_length in Hd. simpl in Hd. lia. }
      split; [|done]. symmetry. apply par_uniq; [done|lia|done|]. split; [lia|].
      destruct Hor as [?| ->]; [lia|]. apply Hw in Hn. simpl in Hn |- *. lia. }
    exists s4, W4. split_and!; [done..|congruence].
Qed.

Lemma lenE_slots v (l : list nat) : lenE v ((fun k => (v, k)) <$> l) = length l.
Proof. unfold lenE. induction l as [|k l IHl]; [done|]. rewrite fmap_cons, filter_cons_True by done. simpl. by f_equal. Qed.

Lemma inE_app (E EL : list (ptr * node A)) b : inE (E ++ EL) b <-> inE E b \/ inE EL b.
Proof.
  unfold inE. rewrite fmap_app. split.
  - intros (p & [Hp|Hp]%elem_of_app & Hb); [left|right]; eauto.
  - intros [(p & Hp & Hb)|(p & Hp & Hb)]; exists p; (split; [|done]); apply elem_of_app; [by left|by right].
Qed.
Lemma lenE_app b (l l' : list ptr) : lenE b (l ++ l') = lenE b l + lenE b l'.
Proof. unfold lenE. by rewrite filter_app, app_length. Qed.
Lemma lenE_0 b (EL : list (ptr * node A)) : ~ inE EL b -> lenE b EL.*1 = 0.
Proof.
  intros H. unfold lenE. destruct (filter (fun p : ptr => p.1 = b) EL.*1) as [|p l] eqn:Ef; [done|]. exfalso. apply H.
  assert (p ∈ filter (fun p : ptr => p.1 = b) EL.*1) as Hp by (rewrite Ef; left). apply elem_of_list_filter in Hp as [? ?]. by exists p.
Qed.

(** [EL]: buffers that were abandoned (see PanicModel.v) *)
Lemma new_vec_spec s W EL N : MInvX s W EL -> 0 < N ->
  exists s', new_vec N s = Ok (m_fresh s) s' /\ MInvX s' W (cellsf (m_fresh s) N (fun _ => node_default) ++ EL) /\ m_log s' = m_log s /\ ~ inE EL (m_fresh s).
Proof.
  intros H HN. unfold new_vec. set (v := m_fresh s). eexists. split; [done|].
  assert (Hfr : forall p, is_Some (m_heap s !! p) -> p.1 < v) by (intros p; by eapply MInv_fresh).
  destruct H as [(D & [HN1 HE] & HD) He HeW H2 H3 H4 H5 H6 H7]. set (E := cellsf v N (fun _ => node_default)).
  assert (HELv : forall b, inE EL b -> b < v). { intros b Hb. apply He in Hb. by apply H4 in Hb as [? _]. }
  assert (HELn : ~ inE EL v). { intros Hb. apply HELv in Hb. lia. }
  split; [|done].
  assert (HEv : vec_slots v N = E) by done. rewrite HEv.
  assert (HE1 : E.*1 = (fun k => (v, k)) <$> seq 0 N) by apply cellsf_fst.
  assert (HEin : forall p, p ∈ E.*1 <-> p.1 = v /\ p.2 < N).
  { intros [b i]. rewrite HE1, elem_of_list_fmap. split.
    - intros (k & [= -> ->] & Hk). apply elem_of_seq in Hk. simpl; lia.
    - intros [? ?]; simpl in *; subst. exists i. split; [done|]. apply elem_of_seq. lia. }
  assert (HinE : forall b, inE E b <-> b = v).
  { intros b. split.
    - intros (p & Hp & <-). by apply HEin in Hp as [? _].
    - intros ->. exists (v, 0). split; [|done]. apply HEin. done. }
  assert (Hold : forall p, p ∈ (layW W ++ D ++ EL).*1 -> p.1 < v).
  { intros p Hp. apply Hfr. rewrite HE.
    destruct ((list_to_map (layW W ++ D ++ EL) : gmap ptr (node A)) !! p) eqn:Ex; [eauto|]. apply not_elem_of_list_to_map in Ex. done. }
  assert (Hnv : m_vec s !! v = None).
  { destruct (m_vec s !! v) as [[cap rc]|] eqn:Ex; [|done]. apply H4 in Ex as [? _]. lia. }
  split; simpl.
  - exists D. split.
    + apply (HP_perm (E ++ layW W ++ D ++ EL)).
      { rewrite (Permutation_app_comm E), <-!app_assoc. by rewrite (Permutation_app_comm EL E). }
      split; simpl.
      * rewrite fmap_app. apply NoDup_app. split_and!.
        -- rewrite HE1. apply NoDup_fmap; [by intros ?? [= ->]|apply NoDup_seq].
        -- intros p Hp Hp'. apply HEin in Hp as [Hp _]. apply Hold in Hp'. lia.
        -- done.
      * rewrite list_to_map_app. by rewrite HE.
    + intros p Hp. destruct (HD p Hp) as [Hs HnE]. assert (p.1 <> v).
      { assert (p.1 < v); [|lia]. apply Hold. rewrite !fmap_app. apply elem_of_app. right. apply elem_of_app. by left. }
      rewrite lookup_insert_ne by done. split; [done|]. rewrite inE_app, HinE. tauto.
  - intros b Hb. rewrite fmap_app, lenE_app. destruct (decide (b = v)) as [->|Hne].
    + rewrite lookup_insert. rewrite (lenE_0 v EL HELn). by rewrite HE1, lenE_slots, seq_length, Nat.add_0_r.
    + apply inE_app in Hb as [Hb|Hb]; [by apply HinE in Hb|]. rewrite lookup_insert_ne by done. rewrite (lenE_0 b E); [by apply He|]. by rewrite HinE.
  - intros p pl Hp. rewrite inE_app, HinE. intros [Heq|Heq]; [|by eapply HeW]. assert (p.1 < v); [|lia]. apply Hold. rewrite fmap_app, layW_fst, <-infoss_fst.
    apply elem_of_app. left. apply elem_of_list_fmap. exists (p, pl). done.
  - intros p Hp. destruct (H2 p Hp) as (?&?&?). split_and!; [done|unfold v; lia|]. rewrite lookup_insert_ne; [done|]. unfold v; lia.
  - intros p Hp. destruct (H3 p Hp) as [x Hx]. rewrite lookup_insert_ne; [eauto|]. intros Heq. congruence.
  - intros b cap rc Hb. apply lookup_insert_Some in Hb as [[<- Heq]|[Hne Hb]].
    + split; [lia|]. intros Hn. exfalso. apply Hn. apply inE_app. left. by apply HinE.
    + destruct (H4 _ _ _ Hb) as [? Hrest]. split; [unfold v; lia|]. intros HnE. rewrite inE_app in HnE.
      destruct Hrest as (?&?&Hc); [tauto|]. split_and!; [done..|]. intros i.
      rewrite lookup_union_r; [apply Hc|]. apply not_elem_of_list_to_map. intros Hx. apply HEin in Hx as [? _]. simpl in *. congruence.
  - intros p Hp. set (E1 := (fun i => ((v, i), 1)) <$> seq 0 N : list (ptr * nat)).
    assert (HE1n : NoDup E1.*1). { unfold E1. rewrite <-list_fmap_compose. apply NoDup_fmap; [by intros ?? [= ->]|apply NoDup_seq]. }
    destruct (decide (p ∈ E.*1)) as [Hin|Hin].
    + apply lookup_union_Some_l. apply elem_of_list_to_map; [done|]. unfold E1. apply HEin in Hin as [Hp1 Hp2]. destruct p as [b i]. simpl in *. subst b.
      apply elem_of_list_fmap. exists i. split; [done|]. apply elem_of_seq. lia.
    + rewrite lookup_union_r in Hp by by apply not_elem_of_list_to_map. rewrite lookup_union_r; [by apply H5|].
      apply not_elem_of_list_to_map. intros Hx. apply Hin. rewrite HE1. unfold E1 in Hx. by rewrite <-list_fmap_compose in Hx.
  - intros p Hp. destruct (decide (p.1 = v)) as [->|Hne]; [right; rewrite lookup_insert; eauto|].
    rewrite lookup_insert_ne by done. rewrite lookup_union_r in Hp.
    2:{ apply not_elem_of_list_to_map. rewrite <-list_fmap_compose. intros Hx. apply elem_of_list_fmap in Hx as (i & -> & _). done. }
    destruct (H6 p Hp) as [Hh|Hh]; [|by right]. left. rewrite lookup_union_r; [done|]. apply not_elem_of_list_to_map. intros Hx. by apply HEin in Hx as [? _].
  - intros p n Hp Hn HnE. rewrite inE_app, HinE in HnE. apply (H7 p n); [|done|tauto].
    rewrite lookup_union_r in Hp; [done|]. apply not_elem_of_list_to_map. intros Hx. apply HEin in Hx as [? _]. tauto.
Qed.

(** the finished buffer becomes a tree *)
Lemma MInv_adopt s W v N E EL (t : atree A) : MInvX s W (E ++ EL) -> ~ inE EL v -> 0 < N -> E.*1 = (fun k => (v, k)) <$> seq 0 N ->
  lay None None None t ≡ₚ E -> infos t = (fun p => (p, true)) <$> addrs t -> MInvX s (t :: W) EL.
Proof.
  intros [(D & HH & HD) He HeW H2 H3 H4 H5 H6 H7] HEL HN HE1 HL Hin.
  assert (Haddr : addrs t ≡ₚ (fun k => (v, k)) <$> seq 0 N) by (rewrite <-HE1, <-HL, lay_fst; done).
  assert (HEin : forall p, p ∈ E.*1 <-> p.1 = v /\ p.2 < N).
  { intros [b i]. rewrite HE1, elem_of_list_fmap. split.
    - intros (k & [= -> ->] & Hk). apply elem_of_seq in Hk. simpl; lia.
    - intros [? ?]; simpl in *; subst. exists i. split; [done|]. apply elem_of_seq. lia. }
  assert (HinE : forall b, inE E b <-> b = v).
  { intros b. split.
    - intros (p & Hp & <-). by apply HEin in Hp as [? _].
    - intros ->. exists (v, 0). split; [|done]. apply HEin. done. }
  assert (Hint : forall p pl, (p, pl) ∈ infos t -> pl = true /\ p.1 = v).
  { intros p pl Hp. rewrite Hin in Hp. apply elem_of_list_fmap in Hp as (p' & [= -> ->] & Hp). split; [done|].
    rewrite Haddr, <-HE1 in Hp. by apply HEin in Hp as [? _]. }
  assert (Hlen : lenE v (E ++ EL).*1 = N).
  { by rewrite fmap_app, lenE_app, (lenE_0 v EL HEL), HE1, lenE_slots, seq_length, Nat.add_0_r. }
  assert (Hv : m_vec s !! v = Some (N, N)). { rewrite <-Hlen at 1 2. apply He. apply inE_app. left. by apply HinE. }
  assert (Hlt : live_in v (infos t) = N).
  { rewrite Hin. transitivity (lenE v (addrs t)).
    - unfold live_in, lenE. clear. induction (addrs t) as [|p l IH]; [done|]. rewrite fmap_cons, !filter_cons. simpl. destruct (decide (p.1 = v)); simpl; by rewrite IH.
    - transitivity (lenE v E.*1); [unfold lenE; by rewrite Haddr, HE1|]. by rewrite HE1, lenE_slots, seq_length. }
  assert (HlW : live_in v (infoss W) = 0).
  { destruct (decide (live_in v (infoss W) = 0)) as [|Hne]; [done|]. destruct (live_in_pos_inv v (infoss W)) as (p & pl & Hp & Hp1); [lia|].
    exfalso. apply (HeW _ _ Hp). apply inE_app. left. by apply HinE. }
  assert (Hlo : forall b, b <> v -> live_in b (infos t) = 0).
  { intros b Hb. destruct (decide (live_in b (infos t) = 0)) as [|Hne]; [done|]. destruct (live_in_pos_inv b (infos t)) as (p & pl & Hp & Hp1); [lia|].
    destruct (Hint p pl Hp). congruence. }
  split.
  - exists D. split.
    + rewrite layW_cons. eapply HP_perm; [|exact HH]. rewrite HL.
      rewrite (Permutation_app_comm E EL), !app_assoc. by rewrite Permutation_app_comm, !app_assoc.
    + intros p Hp. split; [apply HD, Hp|]. intros Hb. apply HD in Hp as [_ Hx]. apply Hx, inE_app. by right.
  - intros b Hb. assert (b <> v) by congruence. rewrite He by (apply inE_app; by right). rewrite fmap_app, lenE_app, (lenE_0 b E); [done|]. by rewrite HinE.
  - intros p pl Hp Hb. rewrite infoss_cons in Hp. apply elem_of_app in Hp as [Hp|Hp]; [destruct (Hint _ _ Hp); congruence|]. apply (HeW _ _ Hp), inE_app. by right.
  - intros p Hp. rewrite infoss_cons in Hp. apply elem_of_app in Hp as [Hp|Hp]; [by destruct (Hint _ _ Hp)|by apply H2].
  - intros p Hp. rewrite infoss_cons in Hp. apply elem_of_app in Hp as [Hp|Hp]; [|by apply H3]. destruct (Hint _ _ Hp) as [_ ->]. eauto.
  - intros b cap rc Hb. destruct (H4 _ _ _ Hb) as [? Hrest]. split; [done|]. intros HnE. rewrite infoss_cons, live_in_app.
    destruct (decide (b = v)) as [->|Hne].
    + rewrite Hv in Hb. simplify_eq. split_and!; [lia|lia|]. intros i. destruct HH as [HN1 HE]. rewrite HE.
      intros [n Hn]. apply elem_of_list_to_map_2, (elem_of_list_fmap_1 fst) in Hn. simpl in Hn.
      rewrite !fmap_app, layW_fst in Hn. apply elem_of_app in Hn as [Hn|[Hn|[Hn|Hn]%elem_of_app]%elem_of_app].
      * rewrite <-infoss_fst in Hn. apply elem_of_list_fmap in Hn as ([q pl] & Heq & Hq). simpl in Heq. subst q.
        exfalso. apply (HeW _ _ Hq). apply inE_app. left. by apply HinE.
      * exfalso. destruct (HD _ Hn) as [_ Hx]. apply Hx. apply inE_app. left. by apply HinE.
      * by apply HEin in Hn as [_ ?].
      * exfalso. apply HEL. by exists (v, i).
    + rewrite (Hlo b Hne). simpl. apply Hrest. rewrite inE_app, HinE. tauto.
  - done.
  - done.
  - intros p n Hp Hn HnE. destruct (decide (p.1 = v)) as [Hpv|Hpv].
    + exfalso. destruct HH as [HN1 HE]. rewrite HE in Hp. apply elem_of_list_to_map_2, (elem_of_list_fmap_1 fst) in Hp. simpl in Hp.
      rewrite !fmap_app, layW_fst in Hp. apply elem_of_app in Hp as [Hx|[Hx|[Hx|Hx]%elem_of_app]%elem_of_app].
      * apply Hn. unfold addrss. simpl. apply elem_of_app. by right.
      * destruct (HD _ Hx) as [_ Hyy]. apply Hyy. apply inE_app. left. by apply HinE.
      * apply Hn. unfold addrss. simpl. apply elem_of_app. left. rewrite Haddr, <-HE1. done.
      * apply HnE. by exists p.
    + apply (H7 p n Hp).
      * intros Hx. apply Hn. unfold addrss. simpl. apply elem_of_app. by right.
      * rewrite inE_app, HinE. tauto.
Qed.

(** all nodes in one buffer of exactly the right size *)
Definition contiguous (t : atree A) : Prop := exists v, addrs t ≡ₚ (fun k => (v, k)) <$> seq 0 (cntn t).

Lemma tree_from_bfs_spec EL it W s (x : tree A) (r : list (tree A)) :
  qo [x] r -> R it (visit_of <$> r) W -> MInvX s W EL ->
  exists t s' W', tree_from_bfs next it s = Ok (aptr t) s' /\ MInvX s' (t :: W') EL /\ rt t x /\ contiguous t /\ Rend W' /\ m_log s' = m_log s.
Proof.
  intros Hq HR HI. inversion Hq as [|? ? r' Hq']; subst. set (vs := (ovis ∘ visit_of) <$> (x :: r')).
  assert (HN : length vs = nodes x).
  { unfold vs. rewrite fmap_length. pose proof (qo_length _ _ Hq) as Hl. unfold nodes_f in Hl. simpl in Hl |- *. lia. }
  assert (Hw : bwf vs).
  { destruct (qo_props vs _ _ Hq 0) as [H1 H2]; [done|lia|done|]. split; [|done]. intros i Hi. apply H1; [lia|done]. }
  unfold tree_from_bfs. unfold bind at 1. destruct (Hy _ _ _ _ _ HR HI) as (it1 & s1 & W1 & -> & HI1 & HR1 & Hl1). cbn [fst snd unwrap].
  unfold bind at 1, ret at 1, visit_of at 1.
  assert (nodes_f (kids x) + 1 = length vs) as HNN by (rewrite HN; destruct x; simpl; unfold nodes_f; lia). rewrite HNN.
  unfold bind at 1. destruct (new_vec_spec s1 W1 EL (length vs) HI1) as (s2 & -> & HI2 & Hl2 & HnE); [lia|]. set (v := m_fresh s1) in *.
  assert (HT1 : triple (cellsf v (length vs) (fun _ => node_default)) (make_piled_node v None 0 (root_of x) (length (kids x)) (nodes_f (kids x))) (v, 0)
            (cellsf v (length vs) (gcell v vs 1))).
  { unfold make_piled_node, vec_make_node. apply f_get; [lia|]. cbn [node_default n_dat dat_vals]. apply t_log_nil. apply f_put; [lia|].
    apply t_retl. apply reflexive_eq, cellsf_ext. intros k Hk. unfold fupd, gcell. destruct (Nat.eqb_spec k 0) as [->|]; [|destruct (Nat.ltb_spec k 1); [lia|done]].
    simpl. unfold cell. cbn [Nat.eqb]. destruct (Nat.ltb_spec (fc vs 0) (min 1 (fc vs 1))); [simpl in *; lia|]. done. }
  unfold bind at 1. edestruct (MInv_E s2 W1 _ _ EL _ _ HT1) as (s3 & -> & HI3 & Hl3); [by rewrite !cellsf_fst|exact HI2|].
  unfold bind at 1, fuel, gets.
  destruct (from_bfs_loop_spec EL v vs Hw (visit_of <$> r') 1 0 (length (kids x)) it1 W1 s3 (Datatypes.S (size (m_heap s3)))) as (s4 & W4 & H4 & HI4 & He4 & Hl4); [..|done|done|].
  { unfold vs. rewrite fmap_cons. simpl. by rewrite drop_0, list_fmap_compose. }
  { lia. } { lia. }
  { destruct r' as [|y r']; [by left|]. right. assert (dgn vs 0 = length (kids x)) as Hd0 by done. 
    assert (0 = par vs 1) as <-.
    { symmetry. apply par_uniq; [done|lia|unfold vs; simpl; lia|]. simpl. rewrite Hd0.
      assert (kids x <> []); [|destruct (kids x); [done|simpl; lia]]. intros Hk. rewrite Hk in Hq'. simpl in Hq'. inversion Hq'. }
    split; [done|]. simpl. rewrite Hd0. lia. }
  { rewrite fmap_length. pose proof (MInv_sizeE _ _ _ HI3) as Hs. unfold cellsf in Hs. rewrite app_length, fmap_length, seq_length in Hs.
    unfold vs in Hs. rewrite fmap_length in Hs. simpl in Hs. lia. }
  unfold bind at 1. rewrite H4.
  destruct (qo_rt v vs Hw _ _ Hq 0) as [Hrt Hds]; [done|lia|done|]. specialize (Hrt 0 x eq_refl). simpl in Hrt.
  assert (Hcn : cntn (T v vs 0) = length vs) by (rewrite (rt_cntn _ _ Hrt); done).
  pose proof (T_layout v vs Hw ltac:(lia) (fun i Hi => Hds i ltac:(lia) Hi) Hcn) as HL.
  assert (HI5 : MInvX s4 (T v vs 0 :: W4) EL).
  { eapply (MInv_adopt _ _ v (length vs)); [exact HI4|exact HnE|lia|by rewrite cellsf_fst|exact HL|]. apply (infos_T v vs Hw (length vs) 0); lia. }
  exists (T v vs 0).
  assert (HT2 : triple (lay None None None (T v vs 0)) (bind (slot v 0) (fun p => tree_from_node p)) (v, 0) (lay None None None (T v vs 0))).
  { rewrite (T_eq v vs 0 Hw) by lia. rewrite lay_eq. unfold slot, tree_from_node. repeat step1. apply t_retl. perm; done. }
  edestruct (MInv_triple s4 (T v vs 0 :: W4) (T v vs 0 :: W4) EL _ _ (layW W4) _ _ HT2) as (h & Hr & HI6); [done|done|done|exact HI5|].
  rewrite Hr. exists (set_heap s4 h), W4. split_and!; [by rewrite aptr_T|done|done| |done|simpl; congruence].
  exists v. rewrite Hcn, <-(cellsf_fst v (length vs) (gcell v vs (length vs))). rewrite <-HL. by rewrite lay_fst.
Qed.

Lemma forest_from_bfs_spec EL it W s (ts : list (tree A)) (r : list (tree A)) :
  qo ts r -> R it (visit_of <$> r) W -> MInvX s W EL ->
  exists t s' W', forest_from_bfs next it (length ts) (nodes_f ts) s = Ok (aptr t) s' /\ MInvX s' (t :: W') EL /\ ri t (IForest ts) /\ contiguous t /\ Rend W' /\ m_log s' = m_log s.
Proof.
  intros Hq HR HI1. set (vs := ((None, length ts, nodes_f ts) : option A * nat * nat) :: ((ovis ∘ visit_of) <$> r)).
  assert (HN : length vs = Datatypes.S (nodes_f ts)).
  { unfold vs. simpl. rewrite fmap_length. by rewrite (qo_length _ _ Hq). }
  assert (Hd1 : drop 1 vs = (ovis ∘ visit_of) <$> r) by (unfold vs; simpl; by rewrite drop_0).
  assert (Hw : bwf vs).
  { destruct (qo_props vs _ _ Hq 1) as [H1 H2]; [done|lia|done|]. split; [|done]. intros [|i] Hi; [simpl; lia|]. apply H1; [lia|done]. }
  unfold forest_from_bfs. 
  assert (nodes_f ts + 1 = length vs) as HNN by lia. rewrite HNN.
  unfold bind at 1. destruct (new_vec_spec s W EL (length vs) HI1) as (s2 & -> & HI2 & Hl2 & HnE); [lia|]. set (v := m_fresh s) in *.
  assert (HT1 : triple (cellsf v (length vs) (fun _ => node_default)) (vec_make_node v None 0 (DPiledN v) (length ts) (nodes_f ts)) (v, 0)
            (cellsf v (length vs) (gcell v vs 1))).
  { unfold vec_make_node. apply f_get; [lia|]. cbn [node_default n_dat dat_vals]. apply t_log_nil. apply f_put; [lia|].
    apply t_retl. apply reflexive_eq, cellsf_ext. intros k Hk. unfold fupd, gcell. destruct (Nat.eqb_spec k 0) as [->|]; [|destruct (Nat.ltb_spec k 1); [lia|done]].
    simpl. unfold cell. cbn [Nat.eqb]. destruct (Nat.ltb_spec (fc vs 0) (min 1 (fc vs 1))); [simpl in *; lia|]. done. }
  unfold bind at 1. edestruct (MInv_E s2 W _ _ EL _ _ HT1) as (s3 & -> & HI3 & Hl3); [by rewrite !cellsf_fst|exact HI2|].
  unfold bind at 1, fuel, gets.
  destruct (from_bfs_loop_spec EL v vs Hw (visit_of <$> r) 1 0 (length ts) it W s3 (Datatypes.S (size (m_heap s3)))) as (s4 & W4 & H4 & HI4 & He4 & Hl4); [..|done|done|].
  { by rewrite Hd1, list_fmap_compose. }
  { lia. } { lia. }
  { destruct r as [|y r']; [by left|]. right. assert (dgn vs 0 = length ts) as Hd0 by done. 
    assert (0 = par vs 1) as <-.
    { symmetry. apply par_uniq; [done|lia|unfold vs; simpl; lia|]. simpl. rewrite Hd0.
      assert (ts <> []); [|destruct ts; [done|simpl; lia]]. intros ->. inversion Hq. }
    split; [done|]. simpl. rewrite Hd0. lia. }
  { rewrite fmap_length. pose proof (MInv_sizeE _ _ _ HI3) as Hs. unfold cellsf in Hs. rewrite app_length, fmap_length, seq_length in Hs.
    unfold vs in Hs. simpl in Hs. rewrite fmap_length in Hs. lia. }
  unfold bind at 1. rewrite H4.
  destruct (qo_rt v vs Hw _ _ Hq 1) as [Hrt Hds]; [done|lia|done|].
  assert (Hks : Forall2 rt (T v vs <$> seq 1 (length ts)) ts).
  { apply Forall2_same_length_lookup. split; [by rewrite fmap_length, seq_length|]. intros k a b Ha Hb.
    rewrite list_lookup_fmap in Ha. destruct (seq 1 (length ts) !! k) as [j|] eqn:Hj; [|done]. simpl in Ha. simplify_eq.
    apply lookup_seq in Hj as [-> Hk]. by apply Hrt. }
  assert (HT0 : T v vs 0 = AN (v, 0) true None (T v vs <$> seq 1 (length ts))) by (by rewrite (T_eq v vs 0 Hw) by lia).
  assert (Hcn : cntn (T v vs 0) = length vs) by (rewrite HT0, cntn_eq, (rts_cnts _ _ Hks); lia).
  assert (HL : lay None None None (T v vs 0) ≡ₚ cellsf v (length vs) (gcell v vs (length vs))).
  { apply T_layout; [done|lia| |done]. intros [|i] Hi; [|apply Hds; lia]. change (dsn vs 0) with (nodes_f ts). by rewrite <-(rts_cnts _ _ Hks). }
  assert (HI5 : MInvX s4 (T v vs 0 :: W4) EL).
  { eapply (MInv_adopt _ _ v (length vs)); [exact HI4|exact HnE|lia|by rewrite cellsf_fst|exact HL|]. apply (infos_T v vs Hw (length vs) 0); lia. }
  exists (T v vs 0).
  assert (HT2 : triple (lay None None None (T v vs 0)) (slot v 0) (v, 0) (lay None None None (T v vs 0))).
  { rewrite HT0. rewrite lay_eq. unfold slot. repeat step1. apply t_retl. perm; done. }
  edestruct (MInv_triple s4 (T v vs 0 :: W4) (T v vs 0 :: W4) EL _ _ (layW W4) _ _ HT2) as (h & Hr & HI6); [done|done|done|exact HI5|].
  rewrite Hr. exists (set_heap s4 h), W4. split_and!; [by rewrite aptr_T|done|by rewrite HT0| |done|simpl; congruence].
  exists v. rewrite Hcn, <-(cellsf_fst v (length vs) (gcell v vs (length vs))). rewrite <-HL. by rewrite lay_fst.
Qed.

End from.
