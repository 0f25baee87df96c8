(** WalkProofs.v — the modelled cursor refines the cursor of WalkSpec.v. *)
From stdpp Require Import base gmap list.
From Verif Require Import Spec ClientSpec Machine NodeModel BfsModel ClientModel Reach WalkModel WalkSpec Sep Rep NodeProofs Inv Abs ClientProofs BfsBuild BfsIter ClientRef ClientStep ClientRead CmpProofs.

Section walk.
Context {A : Type}.
Implicit Types (W : list (atree A)) (s : mem A) (E : list (ptr * node A)) (t u k : atree A) (ks : list (atree A)) (C : ctx A)
  (x y : tree A) (xs ys : list (tree A)) (p : list nat) (st : list wnodes).

Lemma split_last_snoc p i : split_last (p ++ [i]) = Some (p, i).
Proof. unfold split_last. by rewrite reverse_snoc, reverse_involutive. Qed.
Lemma split_last_nil : split_last [] = None.
Proof. done. Qed.
Lemma sibs_app fs p q : sibs (A:=A) fs (p ++ q) = match sibs fs p with Some ts => sibs ts q | None => None end.
Proof. revert fs. induction p as [|i p IH]; intros fs; [done|]. simpl. destruct (fs !! i); [apply IH|done]. Qed.
Lemma sibs_snoc fs p i : sibs (A:=A) fs (p ++ [i]) = match sibs fs p with Some ts => match ts !! i with Some t => Some (kids t) | None => None end | None => None end.
Proof. rewrite sibs_app. done. Qed.

(** following [p] from the siblings [ks] along the stack [st] leads to the siblings [ks'] *)
Inductive stk : list (atree A) -> list nat -> list wnodes -> list (atree A) -> Prop :=
  | stk_nil ks : stk ks [] [] ks
  | stk_cons ks i k p st ks' : ks !! i = Some k -> stk (akids k) p st ks' -> stk ks (i :: p) (WN (Some (aptr k)) None :: st) ks'.
Lemma stk_snoc ks p st ks' i k : stk ks p st ks' -> ks' !! i = Some k -> stk ks (p ++ [i]) (st ++ [WN (Some (aptr k)) None]) (akids k).
Proof. intros H Hk. induction H; simpl; econstructor; eauto. constructor. Qed.
Lemma stk_snoc_inv ks p j st ks' : stk ks (p ++ [j]) st ks' ->
  exists st' ks'' k, st = st' ++ [WN (Some (aptr k)) None] /\ stk ks p st' ks'' /\ ks'' !! j = Some k /\ ks' = akids k.
Proof.
  revert ks st. induction p as [|i p IH]; intros ks st H; simpl in H.
  - inversion H as [|? ? k ? st' ? Hk H']; subst. inversion H'; subst. exists [], ks, k. split_and!; [done|constructor|done|done].
  - inversion H as [|? ? k ? st' ? Hk H']; subst. destruct (IH _ _ H') as (st'' & ks'' & k' & -> & Hs & Hj & ->).
    exists (WN (Some (aptr k)) None :: st''), ks'', k'. split_and!; [done|by econstructor|done|done].
Qed.
Lemma stk_nil_inv ks st ks' : stk ks [] st ks' -> st = [] /\ ks' = ks.
Proof. intros H. by inversion H. Qed.
Lemma stk_sibs ks p st ks' fs : stk ks p st ks' -> Forall2 rt ks fs -> exists ts, sibs fs p = Some ts /\ Forall2 rt ks' ts.
Proof.
  intros H. revert fs. induction H as [|ks i k p st ks' Hk H IH]; intros fs Hf; [eauto|].
  destruct (Forall2_lookup_l _ _ _ _ _ Hf Hk) as (x & Hx & Hkx). simpl. rewrite Hx. apply IH. by apply rt_kids.
Qed.

(** consecutive siblings with nothing after them *)
Definition good W ks : Prop := forall i k, ks !! i = Some k -> exists C, located W C k /\ next_of C = hdp (drop (S i) ks) None.
Lemma good_kids W C t : located W C t -> good W (akids t).
Proof. destruct t as [p pl v ks]. intros H i k Hk. eexists. split; [by eapply located_kid|done]. Qed.
Lemma good_stk W ks p st ks' : good W ks -> stk ks p st ks' -> good W ks'.
Proof. intros Hg H. induction H as [|ks i k p st ks' Hk H IH]; [done|]. apply IH. destruct (Hg _ _ Hk) as (C & Hl & _). by eapply good_kids. Qed.
Lemma good_root W t : t ∈ W -> good W [t].
Proof. intros Ht i k Hk. destruct i; simpl in Hk; [|done]. simplify_eq. exists []. split; [by apply located_elem|done]. Qed.

Section run.
Context (s : mem A) (W : list (atree A)) (E : list (ptr * node A)) (HI : MInvX s W E).
Context (ks0 : list (atree A)) (fs : list (tree A)) (Hg0 : good W ks0) (Hfs : Forall2 rt ks0 fs).

Definition empty ks : bool := match ks with [] => true | _ => false end.
Lemma good_next ks i k : good W ks -> ks !! i = Some k -> exists n, m_heap s !! aptr k = Some n /\ n_next n = hdp (drop (S i) ks) None /\ n_head n = hdp (akids k) None.
Proof.
  intros Hg Hk. destruct (Hg _ _ Hk) as (C & Hl & Hn). destruct k as [q pl v kk]. eexists. split; [by eapply located_get|].
  cbn [mk n_next n_head akids]. by rewrite Hn.
Qed.
Lemma good_hnc ks i k : good W ks -> ks !! i = Some k -> has_no_child (aptr k) s = Ok (empty (akids k)) s.
Proof. intros Hg Hk. destruct (Hg _ _ Hk) as (C & Hl & Hn). destruct k as [q pl v kk]. by eapply (hnc_run _ _ _ HI). Qed.
Lemma enter_kind_run ks i k : good W ks -> ks !! i = Some k -> enter_kind (Some (aptr k)) s = Ok (if empty (akids k) then VLeaf else VBegin) s.
Proof. intros Hg Hk. unfold enter_kind, bind, unwrap, ret. by rewrite (good_hnc _ _ _ Hg Hk). Qed.
Lemma hdp_drop ks i : hdp (drop i ks) None = aptr <$> ks !! i.
Proof. revert i. induction ks as [|k ks IH]; intros [|i]; simpl; [done..|]. apply IH. Qed.

(** the relation between the cursor of the code and the cursor of the specification *)
Definition wrel (w : walk) (c : cursor) : Prop :=
  w_origin w = hdp ks0 None /\
  match c with
  | At p i b => exists st ks k, stk ks0 p st ks /\ ks !! i = Some k /\ w_path w = st ++ [WN (Some (aptr k)) None] /\
      match b with
      | true => if empty (akids k) then w_vt w = Some VLeaf /\ w_dir w <> DUp else w_vt w = Some VBegin /\ w_dir w = DDown
      | false => empty (akids k) = false /\ w_vt w = Some VEnd /\ w_dir w = DRight
      end
  | Off p => exists st ks, stk ks0 p st ks /\ ks <> [] /\ w_path w = st ++ [WN None None] /\ w_dir w = DUp /\ is_Some (w_vt w)
  | Over => w_path w = [] /\ w_dir w = DDown /\ w_vt w = None
  end.

(** visits and nodes told by address or by path *)
Definition vrel (v : vkind * ptr) (v' : svisit (A:=A)) : Prop :=
  exists p i st ks k, v'.1.2 = p ++ [i] /\ stk ks0 p st ks /\ ks !! i = Some k /\ rt k v'.2 /\ v = (v'.1.1, aptr k).
Definition nrel (q : ptr) (n : snode (A:=A)) : Prop :=
  exists p i st ks k, n.1 = p ++ [i] /\ stk ks0 p st ks /\ ks !! i = Some k /\ rt k n.2 /\ q = aptr k.
Definition orel {X Y} (R : X -> Y -> Prop) (o : option X) (o' : option Y) : Prop :=
  match o, o' with Some a, Some b => R a b | None, None => True | _, _ => False end.
Definition outrel (o : wout (vkind * ptr) ptr) (o' : wout svisit snode) : Prop :=
  match o, o' with
  | WVisit a, WVisit b => orel vrel a b
  | WNode a, WNode b => orel nrel a b
  | WUnit, WUnit => True
  | _, _ => False
  end.

(** reading the specification off the stack *)
Lemma stk_lookup p st ks i k : stk ks0 p st ks -> ks !! i = Some k -> exists ts (t : tree A), sibs fs p = Some ts /\ length ts = length ks /\ ts !! i = Some t /\ rt k t.
Proof.
  intros H Hk. destruct (stk_sibs _ _ _ _ _ H Hfs) as (ts & Hs & Hts). destruct (Forall2_lookup_l _ _ _ _ _ Hts Hk) as (x & Hx & Hkx).
  exists ts, x. split_and!; [done|by rewrite (Forall2_length _ _ _ Hts)|done|done].
Qed.
Lemma rt_empty k x : rt k x -> match kids x with [] => true | _ => false end = empty (akids k).
Proof. intros H. apply rt_kids in H. by inversion H. Qed.

Lemma last_snoc' st ns : last (st ++ [ns]) = Some ns.
Proof. apply last_snoc. Qed.

(** [get] *)
Lemma get_run w c : wrel w c -> match c with Off _ => w_get w s = Err EPanic | _ => exists v, w_get w s = Ok v s /\ orel vrel v (c_show fs c) end.
Proof.
  intros [Ho H]. unfold w_get. destruct c as [p i b|p|].
  - destruct H as (st & ks & k & Hst & Hk & Hp & Hb). rewrite Hp, last_snoc. destruct (stk_lookup _ _ _ _ _ Hst Hk) as (ts & t & Hs & Hlen & Ht & Hr).
    assert (Hvt : w_vt w = Some (kind_of t b)).
    { unfold kind_of. pose proof (rt_empty _ _ Hr) as He. destruct b.
      - destruct (kids t), (empty (akids k)); try done; apply Hb.
      - apply Hb. }
    rewrite Hvt. eexists. split; [done|]. cbn [c_show]. rewrite Hs, Ht. cbn [orel]. exists p, i, st, ks, k. split_and!; done.
  - destruct H as (st & ks & Hst & Hne & Hp & Hd & [vt Hvt]). rewrite Hp, last_snoc, Hvt. done.
  - destruct H as (Hp & Hd & Hv). rewrite Hp. simpl. eexists. split; [done|done].
Qed.

(** the cursor on the [i]-th of the siblings reached by [st] *)
Lemma wrel_at p st ks i k o d : stk ks0 p st ks -> ks !! i = Some k -> o = hdp ks0 None -> d <> DUp -> (empty (akids k) = false -> d = DDown) ->
  wrel (Walk (st ++ [WN (Some (aptr k)) None]) d (Some (if empty (akids k) then VLeaf else VBegin)) o) (At p i true).
Proof.
  intros Hst Hk -> Hd Hd'. split; [done|]. exists st, ks, k. split_and!; [done..|]. destruct (empty (akids k)); cbn [w_vt w_dir]; auto.
Qed.
(** back at the parent *)
Lemma wrel_up p st ks o : stk ks0 p st ks -> ks <> [] -> o = hdp ks0 None ->
  wrel (match last st with Some _ => Walk st DRight (Some VEnd) o | None => Walk st DDown None o end) (c_up p).
Proof.
  intros Hst Hne ->. destruct (decide (p = [])) as [->|Hp].
  - apply stk_nil_inv in Hst as [-> ->]. split; [done|]. done.
  - destruct (exists_last Hp) as (p' & j & ->). apply stk_snoc_inv in Hst as (st' & ks'' & k & -> & Hst & Hk & ->).
    rewrite last_snoc. unfold c_up. rewrite split_last_snoc. split; [done|]. exists st', ks'', k. split_and!; try done. by destruct (akids k).
Qed.

Lemma right_run w p i st ks k f : stk ks0 p st ks -> ks !! i = Some k -> w_origin w = hdp ks0 None ->
  w_path w = st ++ [WN (Some (aptr k)) None] -> w_dir w = DRight -> exists w', w_forward_loop (S (S f)) w s = Ok w' s /\ wrel w' (c_right fs p i).
Proof.
  intros Hst Hk Ho Hp Hd. pose proof (good_stk _ _ _ _ _ Hg0 Hst) as Hg. destruct (good_next _ _ _ Hg Hk) as (n & Hn & Hnx & Hnh).
  destruct (stk_lookup _ _ _ _ _ Hst Hk) as (ts & t & Hs & Hlen & Ht & Hr). unfold c_right. rewrite Hs.
  remember (S f) as f1. cbn [w_forward_loop]. rewrite Hd, Hp, last_snoc. unfold unwrap. cbn [wn_node wn_sentinel]. unfold bind at 1, ret at 1. unfold bind at 1, get. rewrite Hn, Hnx, hdp_drop.
  unfold set_last. rewrite removelast_last.
  destruct (ks !! S i) as [k'|] eqn:Hk'.
  - rewrite decide_False by done. unfold bind. cbn [fmap option_fmap option_map]. rewrite (enter_kind_run _ _ _ Hg Hk').
    eexists. split; [done|]. rewrite decide_True by (rewrite Hlen; by eapply lookup_lt_Some).
    apply (wrel_at p st ks); [done|done|done|by destruct (empty (akids k'))|by destruct (empty (akids k'))].
  - rewrite decide_True by done. rewrite decide_False by (rewrite Hlen; by apply lookup_ge_None in Hk'; lia).
    subst f1. cbn [w_forward_loop w_dir w_path w_origin]. rewrite removelast_last.
    assert (Hne : ks <> []) by (by intros ->). pose proof (wrel_up p st ks _ Hst Hne Ho) as H. destruct (last st); eexists; (split; [done|exact H]).
Qed.
Lemma forward_run w c : wrel w c -> exists w', w_forward w s = Ok w' s /\ wrel w' (c_forward fs c).
Proof.
  intros Hw. pose proof Hw as [Ho H]. unfold w_forward. destruct c as [p i b|p|].
  - destruct H as (st & ks & k & Hst & Hk & Hp & Hb). destruct (stk_lookup _ _ _ _ _ Hst Hk) as (ts & t & Hs & Hlen & Ht & Hr).
    pose proof (good_stk _ _ _ _ _ Hg0 Hst) as Hg. destruct b; cbn [c_forward].
    2: { eapply right_run; try done. apply Hb. }
    rewrite sibs_snoc, Hs, Ht. pose proof (rt_empty _ _ Hr) as He.
    destruct (w_dir w) eqn:Hd.
    + destruct (empty (akids k)); by destruct Hb.
    + destruct (good_next _ _ _ Hg Hk) as (n & Hn & Hnx & Hnh).
      remember 2 as f1. cbn [w_forward_loop]. rewrite Hd, Hp, last_snoc. cbn [wn_node]. unfold unwrap. unfold bind at 1, ret at 1. unfold bind at 1, get. rewrite Hn.
      unfold bind at 1. rewrite (good_hnc _ _ _ Hg Hk). destruct (akids k) as [|k' kk] eqn:Hkk; cbn [empty] in *.
      * destruct (kids t); [|done]. subst f1. eapply right_run; done.
      * destruct (kids t) as [|t' tt]; [done|]. rewrite Hnh. cbn [hdp]. unfold bind.
        assert (Hst' : stk ks0 (p ++ [i]) (st ++ [WN (Some (aptr k)) None]) (k' :: kk)) by (rewrite <- Hkk; by eapply stk_snoc).
        pose proof (good_stk _ _ _ _ _ Hg0 Hst') as Hg'. rewrite (enter_kind_run (k' :: kk) 0 k' Hg') by done.
        eexists. split; [done|]. eapply wrel_at; done.
    + destruct (empty (akids k)) eqn:Hek; [|by destruct Hb]. destruct (kids t); [|done]. eapply right_run; done.
  - destruct H as (st & ks & Hst & Hne & Hp & Hd & Hvt). cbn [w_forward_loop c_forward]. rewrite Hd, Hp, removelast_last.
    pose proof (wrel_up p st ks _ Hst Hne Ho) as H. destruct (last st); eexists; (split; [done|exact H]).
  - destruct H as (Hp & Hd & Hv). cbn [w_forward_loop c_forward]. rewrite Hd, Hp. simpl. eexists. split; [done|done].
Qed.

Lemma to_parent_run w c : wrel w c -> exists v w', w_to_parent w s = Ok (v, w') s /\ orel vrel v (c_show fs (c_parent c)) /\ wrel w' (c_parent c).
Proof.
  intros Hw. pose proof Hw as [Ho H]. unfold w_to_parent.
  assert (Hup : forall p st ks ns, stk ks0 p st ks -> ks <> [] -> w_path w = st ++ [ns] ->
    exists v w', match last (w_path w) with
      | Some _ => let path := removelast (w_path w) in
        match last path with
        | Some _ => let w' := Walk path DRight (Some VEnd) (w_origin w) in let! v := w_get w' in ret (v, w')
        | None => ret (None, Walk path DDown None (w_origin w))
        end
      | None => ret (None, Walk (w_path w) DDown None (w_origin w))
      end s = Ok (v, w') s /\ orel vrel v (c_show fs (c_up p)) /\ wrel w' (c_up p)).
  { intros p st ks ns Hst Hne Hp. rewrite Hp, last_snoc, removelast_last. cbv zeta. pose proof (wrel_up p st ks _ Hst Hne Ho) as Hu.
    destruct (last st).
    - pose proof (get_run _ _ Hu) as Hget. assert (Hno : forall q, c_up p <> Off q) by (intros q; unfold c_up; destruct (split_last p) as [[? ?]|]; done).
      destruct (c_up p) as [p1 i1 b1|q|] eqn:Ec; [|by destruct (Hno q)|]; destruct Hget as (v & Hv & Hvr); unfold bind; rewrite Hv; eexists _, _; (split; [done|]); done.
    - eexists _, _. split; [done|]. split; [|done]. unfold c_up in *. destruct (split_last p) as [[p' j]|]; [|done].
      destruct Hu as (_ & st' & ks' & k' & _ & _ & Hpath & _ & Hvt & _). done. }
  destruct c as [p i b|p|]; cbn [c_parent].
  - destruct H as (st & ks & k & Hst & Hk & Hp & Hb). eapply Hup; [done| |done]. by intros ->.
  - destruct H as (st & ks & Hst & Hne & Hp & Hd & Hvt). by eapply Hup.
  - destruct H as (Hp & Hd & Hv). rewrite Hp. simpl. eexists _, _. split; [done|]. done.
Qed.

Lemma get_parent_run w c : wrel w c -> exists o, w_get_parent w s = Ok o s /\ orel nrel o (c_node fs (c_parent c)).
Proof.
  intros Hw. pose proof Hw as [Ho H]. unfold w_get_parent, c_node.
  assert (Hup : forall p st ks ns, stk ks0 p st ks -> w_path w = st ++ [ns] ->
    exists o, (if decide (2 <= length (w_path w)) then
      match w_path w !! (length (w_path w) - 2) with
      | Some ns => let! p := unwrap (wn_node ns) in ret (Some p)
      | None => ret None
      end else ret None) s = Ok o s /\ orel nrel o (match c_show fs (c_up p) with Some (_, p, t) => Some (p, t) | None => None end)).
  { intros p st ks ns Hst Hp. rewrite Hp, app_length. cbn [length]. destruct (decide (p = [])) as [->|Hne].
    - apply stk_nil_inv in Hst as [-> ->]. simpl. by exists None.
    - destruct (exists_last Hne) as (p' & j & ->). apply stk_snoc_inv in Hst as (st' & ks'' & k & -> & Hst & Hk & ->).
      rewrite app_length. cbn [length]. rewrite decide_True by lia.
      rewrite lookup_app_l by (rewrite app_length; simpl; lia). rewrite lookup_app_r by lia.
      replace (length st' + 1 + 1 - 2 - length st') with 0 by lia. simpl. eexists. split; [done|].
      unfold c_up. rewrite split_last_snoc. cbn [c_show]. destruct (stk_lookup _ _ _ _ _ Hst Hk) as (ts & t & Hs & Hlen & Ht & Hr).
      rewrite Hs, Ht. exists p', j, st', ks'', k. split_and!; done. }
  destruct c as [p i b|p|]; cbn [c_parent].
  - destruct H as (st & ks & k & Hst & Hk & Hp & Hb). by eapply Hup.
  - destruct H as (st & ks & Hst & Hne & Hp & Hd & Hvt). by eapply Hup.
  - destruct H as (Hp & Hd & Hv). rewrite Hp. simpl. by exists None.
Qed.

Lemma sib_loop_run ks n : good W ks -> forall i k, ks !! i = Some k ->
  sib_loop n (WN (Some (aptr k)) None) s = Ok (match ks !! (i + n) with Some k' => (true, WN (Some (aptr k')) None) | None => (false, WN None None) end) s.
Proof.
  intros Hg. induction n as [|n IH]; intros i k Hk.
  - by rewrite Nat.add_0_r, Hk.
  - cbn [sib_loop wn_node]. unfold unwrap. unfold bind at 1, ret at 1. destruct (good_next _ _ _ Hg Hk) as (nd & Hn & Hnx & _).
    unfold bind, get. rewrite Hn, Hnx, hdp_drop. cbn [wn_sentinel]. destruct (ks !! S i) as [k'|] eqn:Hk'.
    + rewrite decide_False by done. replace (i + S n) with (S i + n) by lia. by apply IH.
    + rewrite decide_True by done. replace (ks !! (i + S n)) with (@None (atree A)); [done|]. symmetry.
      apply lookup_ge_None in Hk'. apply lookup_ge_None. lia.
Qed.
(** [to_sib] from any position on a node *)
Lemma to_sib_at w p st ks i k n : stk ks0 p st ks -> ks !! i = Some k -> w_origin w = hdp ks0 None ->
  w_path w = st ++ [WN (Some (aptr k)) None] -> w_dir w <> DUp -> is_Some (w_vt w) ->
  exists v w', w_to_sib n w s = Ok (v, w') s /\ orel vrel v (c_show fs (c_goto fs p (i + n))) /\ wrel w' (c_goto fs p (i + n)).
Proof.
  intros Hst Hk Ho Hp Hd Hvt. pose proof (good_stk _ _ _ _ _ Hg0 Hst) as Hg. unfold w_to_sib. rewrite Hp, last_snoc.
  unfold bind at 1. rewrite (sib_loop_run _ n Hg _ _ Hk). destruct (stk_lookup _ _ _ _ _ Hst Hk) as (ts & t & Hs & Hlen & Ht & Hr).
  unfold c_goto. rewrite Hs. unfold set_last. rewrite removelast_last. destruct (ks !! (i + n)) as [k'|] eqn:Hk'; cbn [fst snd wn_node].
  - rewrite decide_True by (rewrite Hlen; by eapply lookup_lt_Some). unfold bind at 1. rewrite (enter_kind_run _ _ _ Hg Hk').
    set (w' := Walk _ _ _ _). assert (Hw' : wrel w' (At p (i + n) true)).
    { eapply wrel_at; [done|done|done|by destruct (empty (akids k'))|by destruct (empty (akids k'))]. }
    destruct (get_run _ _ Hw') as (v & Hv & Hvr). unfold bind. rewrite Hv. eexists _, _. split; [done|]. done.
  - rewrite decide_False by (rewrite Hlen; apply lookup_ge_None in Hk'; lia). eexists _, _. split; [done|]. split; [done|].
    split; [done|]. exists st, ks. split_and!; [done| |done|done|done]. by intros ->.
Qed.
Lemma at_dir w p i b : wrel w (At p i b) -> w_dir w <> DUp /\ is_Some (w_vt w).
Proof.
  intros (_ & st & ks & k & _ & _ & _ & H). destruct b.
  - destruct (empty (akids k)); destruct H as [-> H]; (split; [|by eexists]); [done|by rewrite H].
  - destruct H as (_ & -> & ->). split; [done|by eexists].
Qed.
Lemma to_sib_run w c n : wrel w c -> match c_step fs c (WToSib n) with
  | Some (o', c') => exists v w', w_to_sib n w s = Ok (v, w') s /\ outrel (WVisit v) o' /\ wrel w' c'
  | None => w_to_sib n w s = Err EPanic end.
Proof.
  intros Hw. pose proof Hw as [Ho H]. destruct c as [p i b|p|]; cbn [c_step].
  - destruct H as (st & ks & k & Hst & Hk & Hp & Hb). destruct (at_dir _ _ _ _ Hw). by eapply to_sib_at.
  - destruct H as (st & ks & Hst & Hne & Hp & Hd & Hvt). unfold w_to_sib. rewrite Hp, last_snoc. by destruct n.
  - destruct H as (Hp & Hd & Hv). unfold w_to_sib. rewrite Hp. simpl. eexists _, _. split; [done|]. split; [done|]. split; [done|]. by rewrite Hp.
Qed.
Lemma to_child_run w c n : wrel w c -> match c_step fs c (WToChild n) with
  | Some (o', c') => exists v w', w_to_child n w s = Ok (v, w') s /\ outrel (WVisit v) o' /\ wrel w' c'
  | None => w_to_child n w s = Err EPanic end.
Proof.
  intros Hw. pose proof Hw as [Ho H]. unfold w_to_child. destruct c as [p i b|p|]; cbn [c_step].
  - destruct (at_dir _ _ _ _ Hw) as [Hdir Hvt]. destruct H as (st & ks & k & Hst & Hk & Hp & Hb). rewrite Hp, last_snoc. cbn [wn_node]. unfold unwrap. unfold bind at 1, ret at 1.
    pose proof (good_stk _ _ _ _ _ Hg0 Hst) as Hg. unfold bind at 1. rewrite (good_hnc _ _ _ Hg Hk).
    destruct (stk_lookup _ _ _ _ _ Hst Hk) as (ts & t & Hs & Hlen & Ht & Hr). rewrite sibs_snoc, Hs, Ht. pose proof (rt_empty _ _ Hr) as He.
    destruct (akids k) as [|k' kk] eqn:Hkk; cbn [empty] in *.
    + destruct (kids t); [|done]. eexists _, _. split; [done|]. split; [done|]. split; [done|]. exists st, ks, k. split_and!; [done|done|done|].
      destruct b; [|by destruct Hb]. rewrite Hkk. cbn [empty]. by destruct Hb.
    + destruct (kids t) as [|t' tt] eqn:Hkt; [done|]. destruct (good_next _ _ _ Hg Hk) as (nd & Hn & _ & Hnh). unfold bind at 1, get. rewrite Hn, Hnh, Hkk. cbn [hdp].
      assert (Hst' : stk ks0 (p ++ [i]) (st ++ [WN (Some (aptr k)) None]) (k' :: kk)) by (rewrite <- Hkk; by eapply stk_snoc).
      pose proof (good_stk _ _ _ _ _ Hg0 Hst') as Hg'. unfold bind. rewrite (enter_kind_run (k' :: kk) 0 k' Hg') by done.
      apply (to_sib_at _ (p ++ [i]) (st ++ [WN (Some (aptr k)) None]) (k' :: kk) 0 k'); done.
  - destruct H as (st & ks & Hst & Hne & Hp & Hd & Hvt). rewrite Hp, last_snoc. done.
  - destruct H as (Hp & Hd & Hv). rewrite Hp. simpl. eexists _, _. split; [done|]. split; [done|]. split; [done|]. done.
Qed.
Lemma revisit_run w c : wrel w c -> match c_step fs c WRevisit with
  | Some (o', c') => exists w', w_revisit w s = Ok w' s /\ outrel WUnit o' /\ wrel w' c'
  | None => w_revisit w s = Err EPanic end.
Proof.
  intros Hw. pose proof Hw as [Ho H]. unfold w_revisit. destruct c as [p i b|p|]; cbn [c_step].
  - destruct (at_dir _ _ _ _ Hw) as [_ [vt Hvt]]. destruct H as (st & ks & k & Hst & Hk & Hp & Hb).
    assert (Hks0 : exists k0 ks0', ks0 = k0 :: ks0').
    { destruct ks0; [|eauto]. destruct p; [apply stk_nil_inv in Hst as [-> ->]; done|]. inversion Hst. done. }
    destruct Hks0 as (k0 & ks0' & E0). rewrite Ho, E0. cbn [hdp]. rewrite Hvt. unfold w_init_visit. cbn [w_path]. rewrite Hp, last_snoc.
    unfold bind. cbn [wn_node]. rewrite (enter_kind_run ks i k (good_stk _ _ _ _ _ Hg0 Hst) Hk). eexists. split; [done|]. split; [done|]. cbn [w_origin w_dir].
    eapply wrel_at; try done. by rewrite E0.
  - destruct H as (st & ks & Hst & Hne & Hp & Hd & [vt Hvt]).
    assert (Hks0 : exists k0 ks0', ks0 = k0 :: ks0').
    { destruct ks0; [|eauto]. destruct p; [apply stk_nil_inv in Hst as [-> ->]; done|]. inversion Hst. done. }
    destruct Hks0 as (k0 & ks0' & E0). rewrite Ho, E0. cbn [hdp]. rewrite Hvt. unfold w_init_visit. cbn [w_path]. rewrite Hp, last_snoc. done.
  - destruct H as (Hp & Hd & Hv). rewrite Ho.
    assert (Hcase : (ks0 = [] /\ fs = []) \/ exists k0 ks0' x0 fs', ks0 = k0 :: ks0' /\ fs = x0 :: fs') by (clear -Hfs; destruct Hfs; eauto 10).
    destruct Hcase as [[E0 E1]|(k0 & ks0' & x0 & fs' & E0 & E1)].
    + assert (Hh : hdp ks0 None = None) by (by rewrite E0). rewrite E1, Hh. eexists. split; [done|]. split; [done|]. done.
    + assert (Hh : hdp ks0 None = Some (aptr k0)) by (by rewrite E0). rewrite E1, Hh. cbn [hdp]. rewrite Hv, Hp. cbn [app]. unfold w_init_visit. cbn [w_path]. unfold nodes_sibs. cbn [last]. unfold bind. cbn [wn_node].
      assert (Hk0 : ks0 !! 0 = Some k0) by (by rewrite E0). rewrite (enter_kind_run ks0 0 k0 Hg0) by done. eexists. split; [done|]. split; [done|].
      cbn [w_origin w_dir w_path]. apply (wrel_at [] [] ks0 0 k0); try done. constructor.
Qed.

Lemma step_run w c o : wrel w c -> match c_step fs c o with
  | Some (o', c') => exists r w', w_step w o s = Ok (r, w') s /\ outrel r o' /\ wrel w' c'
  | None => w_step w o s = Err EPanic end.
Proof.
  intros Hw. destruct o as [| | | | |n|n|]; cbn [w_step].
  - pose proof (get_run _ _ Hw) as H. cbn [c_step]. destruct c; [| |]; unfold bind.
    + destruct H as (v & -> & Hv). eexists _, _. split; [done|]. done.
    + by rewrite H.
    + destruct H as (v & -> & Hv). eexists _, _. split; [done|]. done.
  - destruct (forward_run _ _ Hw) as (w' & H & Hw'). cbn [c_step]. unfold bind. rewrite H. eexists _, _. split; [done|]. done.
  - destruct (forward_run _ _ Hw) as (w' & H & Hw'). cbn [c_step]. unfold w_next. unfold bind at 1. unfold bind at 1. rewrite H.
    pose proof (get_run _ _ Hw') as Hg. assert (Hno : forall q, c_forward fs c <> Off q).
    { intros q. unfold c_forward, c_right, c_up. destruct c as [p i []|p|]; repeat case_match; done. }
    destruct (c_forward fs c) as [p i b|q|] eqn:Ec; [|by destruct (Hno q)|].
    + destruct Hg as (v & Hv & Hvr). unfold bind. rewrite Hv. eexists _, _. split; [done|]. done.
    + destruct Hg as (v & Hv & Hvr). unfold bind. rewrite Hv. eexists _, _. split; [done|]. done.
  - destruct (to_parent_run _ _ Hw) as (v & w' & H & Hv & Hw'). cbn [c_step]. unfold bind. rewrite H. eexists _, _. split; [done|]. done.
  - destruct (get_parent_run _ _ Hw) as (v & H & Hv). cbn [c_step]. unfold bind. rewrite H. eexists _, _. split; [done|]. done.
  - pose proof (to_child_run _ _ n Hw) as H. destruct (c_step fs c (WToChild n)) as [[o' c']|]; unfold bind.
    + destruct H as (v & w' & -> & Hv & Hw'). eexists _, _. split; [done|]. done.
    + by rewrite H.
  - pose proof (to_sib_run _ _ n Hw) as H. destruct (c_step fs c (WToSib n)) as [[o' c']|]; unfold bind.
    + destruct H as (v & w' & -> & Hv & Hw'). eexists _, _. split; [done|]. done.
    + by rewrite H.
  - pose proof (revisit_run _ _ Hw) as H. destruct (c_step fs c WRevisit) as [[o' c']|]; unfold bind.
    + destruct H as (w' & -> & Hv & Hw'). eexists _, _. split; [done|]. done.
    + by rewrite H.
Qed.
Lemma run_run os : forall w c, wrel w c -> match c_run fs c os with
  | Some (rs', c') => exists rs w', w_run w os s = Ok (rs, w') s /\ Forall2 outrel rs rs' /\ wrel w' c'
  | None => w_run w os s = Err EPanic end.
Proof.
  induction os as [|o os IH]; intros w c Hw; cbn [c_run w_run].
  - eexists _, _. split; [done|]. split; [constructor|done].
  - pose proof (step_run w c o Hw) as H. destruct (c_step fs c o) as [[o' c']|]; unfold bind.
    + destruct H as (r & w' & -> & Hr & Hw'). specialize (IH w' c' Hw'). cbn [snd]. destruct (c_run fs c' os) as [[rs' c'']|].
      * destruct IH as (rs & w'' & -> & Hrs & Hw''). eexists _, _. split; [done|]. split; [by constructor|done].
      * by rewrite IH.
    + by rewrite H.
Qed.
End run.

(** starting *)
Lemma from_tree s W E t : MInvX s W E -> t ∈ W -> exists w, walk_from (HT (aptr t)) s = Ok w s /\ wrel [t] w (At [] 0 true).
Proof.
  intros HI Ht. pose proof (good_root _ _ Ht) as Hg. destruct (good_next s W E HI [t] 0 t Hg) as (n & Hn & Hnx & Hnh); [done|].
  unfold walk_from, w_on_node. cbn [nodes_this]. unfold bind at 1. unfold bind at 1, get. rewrite Hn. rewrite Hnx. cbn [w_reset walk_default w_path w_dir w_vt w_origin drop hdp app]. unfold ret at 1.
  unfold w_init_visit. cbn [w_path]. cbn [last]. unfold bind at 1. unfold bind at 1. cbn [wn_node].
  rewrite (enter_kind_run s W E HI [t] 0 t Hg) by done. eexists. split; [done|]. cbn [w_path w_dir w_vt].
  apply (wrel_at [t] [] [] [t] 0 t); try done. constructor.
Qed.
Lemma from_forest s W E (p : ptr) pl ks : MInvX s W E -> AN p pl None ks ∈ W -> exists w, walk_from (HF p) s = Ok w s /\
  wrel ks w (match ks with [] => Over | _ => At [] 0 true end).
Proof.
  intros HI Ht. pose proof (located_elem _ _ Ht) as Hl. pose proof (good_kids _ _ _ Hl) as Hg. cbn [akids] in Hg.
  unfold walk_from. unfold bind at 1. rewrite (hnc_run s W E HI _ _ _ _ _ Hl). destruct ks as [|k ks].
  - eexists. split; [done|]. done.
  - unfold bind at 1, front. unfold bind at 1, get. rewrite (located_get _ _ _ _ _ _ _ _ Hl HI). cbn [mk n_head hdp]. unfold ret at 1.
    unfold w_on_forest. cbn [w_reset walk_default w_path w_dir w_vt w_origin drop hdp app]. 
    unfold w_init_visit. cbn [w_path]. unfold nodes_sibs. cbn [last]. unfold bind at 1. unfold bind at 1. cbn [wn_node].
    rewrite (enter_kind_run s W E HI (k :: ks) 0 k Hg) by done. eexists. split; [done|]. cbn [w_path w_dir w_vt].
    apply (wrel_at (k :: ks) [] [] (k :: ks) 0 k); try done. constructor.
Qed.
End walk.
