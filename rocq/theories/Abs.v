(** Abs.v — proof side: which rose tree an address-annotated tree stands for; locating a node by a path;
    the reading operations; the structural operations on located nodes. *)
From stdpp Require Import base gmap list.
From Verif Require Import Spec ClientSpec Machine NodeModel ClientModel Sep Rep NodeProofs Inv.

Section abs.
Context {A : Type}.
Implicit Types (p q : ptr) (ks fs qs L R W : list (atree A)) (C : ctx A) (t k : atree A) (s : mem A)
  (x y : tree A) (xs ys : list (tree A)).

Inductive rt : atree A -> tree A -> Prop :=
  | RT p pl a ks xs : Forall2 rt ks xs -> rt (AN p pl (Some a) ks) (Tr a xs).

Definition ri (t : atree A) (it : item A) : Prop :=
  match it with
  | ITree x => rt t x
  | IForest xs => aval t = None /\ Forall2 rt (akids t) xs
  end.

Lemma rt_inv t x : rt t x -> exists p pl ks, t = AN p pl (Some (root_of x)) ks /\ Forall2 rt ks (kids x).
Proof. intros H. inversion H; subst. eauto 6. Qed.
Lemma rt_kids t x : rt t x -> Forall2 rt (akids t) (kids x).
Proof. intros H. by inversion H. Qed.
Lemma rt_val t x : rt t x -> aval t = Some (root_of x).
Proof. intros H. by inversion H. Qed.

Lemma rt_ind' (P : atree A -> tree A -> Prop)
  (H : forall p pl a ks xs, Forall2 rt ks xs -> Forall2 P ks xs -> P (AN p pl (Some a) ks) (Tr a xs)) :
  forall t x, rt t x -> P t x.
Proof.
  fix IH 3. intros t x Hr. destruct Hr as [p pl a ks xs Hf]. apply H; [exact Hf|].
  induction Hf as [|k y ks xs Hk _ IHf]; constructor; [by apply IH|exact IHf].
Qed.

Lemma rt_fun t x y : rt t x -> rt t y -> x = y.
Proof.
  intros H. revert y. induction H as [p pl a ks xs Hf IH] using rt_ind'. intros y Hy. inversion Hy as [? ? ? ? ys Hys]; subst.
  f_equal. clear Hf Hy. revert ys Hys. induction IH as [|k x ks xs Hk _ IHf]; intros ys Hys; inversion Hys; subst; [done|].
  f_equal; [by apply Hk|by apply IHf].
Qed.

Lemma rt_cntn t x : rt t x -> cntn t = nodes x.
Proof.
  intros H. induction H as [p pl a ks xs Hf IH] using rt_ind'. rewrite cntn_eq. simpl. f_equal. clear Hf.
  induction IH as [|k x ks xs Hk _ IHf]; [done|]. rewrite cnts_cons. simpl. by rewrite Hk, IHf.
Qed.
Lemma rts_cnts ks xs : Forall2 rt ks xs -> cnts ks = nodes_f xs.
Proof.
  intros H. induction H as [|k x ks xs Hk _ IHf]; [done|]. rewrite cnts_cons, (rt_cntn _ _ Hk), IHf. done.
Qed.
Lemma rt_post t x : rt t x -> apost t = postorder x.
Proof.
  intros H. induction H as [p pl a ks xs Hf IH] using rt_ind'. simpl. f_equal. clear Hf.
  induction IH as [|k x ks xs Hk _ IHf]; [done|]. simpl. by rewrite Hk, IHf.
Qed.
Lemma rts_post ks xs : Forall2 rt ks xs -> aposts ks = postorder_f xs.
Proof.
  intros H. induction H as [|k x ks xs Hk _ IHf]; [done|]. simpl. by rewrite (rt_post _ _ Hk), IHf.
Qed.
Lemma ri_post t it : ri t it -> apost t = item_post it.
Proof.
  destruct it as [x|xs]; simpl; [apply rt_post|]. destruct t as [p pl v ks]. simpl. intros [-> H].
  rewrite app_nil_r. by apply rts_post.
Qed.

(** addresses by path *)
Fixpoint afind (t : atree A) (path : list nat) : option (ctx A * atree A) :=
  match path with
  | [] => Some ([], t)
  | i :: path' =>
    match t with AN p pl v ks =>
    match ks !! i with
    | Some k => match afind k path' with
                | Some (C, t') => Some (C ++ [Fr p pl v (take i ks) (drop (S i) ks)], t')
                | None => None
                end
    | None => None
    end end
  end.

Lemma afind_plug t path C t' : afind t path = Some (C, t') -> plug C t' = t.
Proof.
  revert t C t'. induction path as [|i path IH]; intros [p pl v ks] C t'; simpl.
  - by intros [= <- <-].
  - destruct (ks !! i) as [k|] eqn:Hk; [|done]. destruct (afind k path) as [[C' t'']|] eqn:Hf; [|done].
    intros [= <- <-]. rewrite plug_app, (IH _ _ _ Hf). simpl. by rewrite take_drop_middle.
Qed.

(** ** reading *)
Ltac un := cbn [n_prev n_next n_head n_tail n_up n_deg n_desc n_dat
  set_prev set_next set_head set_tail set_up set_size set_dat mk mkh hdp lastp aptr length app
  dat_of is_forest_dat].

Lemma ci_collect_spec u pv ks nx f :
  length ks < f ->
  triple (lays u pv ks nx) (ci_collect f (CIter (hdp ks nx) (length ks))) (aptr <$> ks) (lays u pv ks nx).
Proof.
  revert pv f. induction ks as [|[k kl kv kks] ks IH]; intros pv f Hf; (destruct f as [|f]; [simpl in Hf; lia|]).
  - apply triple_ret.
  - cbn [ci_collect length]. unfold ci_next; cbn [ci_len ci_curr hdp aptr]. rewrite lays_cons, lay_eq.
    repeat step1. un. cbn [fst snd]. rewrite fmap_cons. un.
    eapply t_call; [apply (IH (Some k) f); simpl in Hf; lia|apply _|].
    apply t_retl. perm; done.
Qed.

Lemma length_cnts ks : length ks <= cnts ks.
Proof. induction ks as [|k ks IH]; [done|]. rewrite cnts_cons, cntn_akids. simpl. lia. Qed.

Lemma children_spec u pv nx p pl v ks :
  triple (lay u pv nx (AN p pl v ks)) (children p) (aptr <$> ks) (lay u pv nx (AN p pl v ks)).
Proof.
  unfold children, iter. rewrite lay_eq. repeat step1. un.
  apply triple_fuel. intros f Hf. cbn [length] in Hf.
  rewrite <-(fmap_length fst), lays_fst, addrss_length in Hf. pose proof (length_cnts ks) as Hl.
  destruct ks as [|k ks]; [un; destruct f; [lia|apply triple_ret]|].
  un. eapply t_last; [apply (ci_collect_spec (Some p) None (k :: ks) None f); simpl in *; lia|apply _|].
  perm; done.
Qed.

Lemma lay_plug_perm C t W E : layW (plug C t :: W) ++ E ≡ₚ
  lay (up_of C) (prev_of C) (next_of C) t ++ (lay_ctx C (aptr t) (cntn t) ++ layW W ++ E).
Proof. rewrite layW_cons, <-lay_ctx_perm. by rewrite <-!app_assoc. Qed.

Lemma children_at s C p pl v ks W E :
  MInvX s (plug C (AN p pl v ks) :: W) E -> children p s = Ok (aptr <$> ks) s.
Proof. eapply MInv_read; [apply children_spec|apply lay_plug_perm]. Qed.

Lemma lookup_at s C p pl v ks W E :
  MInvX s (plug C (AN p pl v ks) :: W) E -> m_heap s !! p = Some (mk (up_of C) (prev_of C) (next_of C) p pl v ks).
Proof.
  intros H. eapply MInv_lookup; [exact H|]. 
  rewrite layW_cons. apply elem_of_app. left. 
  rewrite <-lay_ctx_perm. apply elem_of_app. left. rewrite lay_eq. left.
Qed.

Lemma resolve_plug s W E path : forall t C,
  MInvX s (plug C t :: W) E ->
  resolve (aptr t) path s = Ok (aptr ∘ snd <$> afind t path) s.
Proof.
  induction path as [|i path IH]; intros [p pl v ks] C H; [done|].
  cbn [resolve aptr]. unfold bind. rewrite (children_at _ _ _ _ _ _ _ _ H). rewrite list_lookup_fmap.
  cbn [afind]. destruct (ks !! i) as [k|] eqn:Hk; [|done]. cbn [fmap option_fmap option_map].
  rewrite (IH k (Fr p pl v (take i ks) (drop (S i) ks) :: C)).
  - f_equal. by destruct (afind k path) as [[? ?]|].
  - rewrite plug_cons. cbn [plug1]. by rewrite take_drop_middle.
Qed.

Lemma resolve_at s W E t path :
  MInvX s (t :: W) E -> resolve (aptr t) path s = Ok (aptr ∘ snd <$> afind t path) s.
Proof. apply (resolve_plug s W E path t []). Qed.

(** ** locating *)
Lemma alter_middle {X} (f : X -> X) (l : list X) i (x : X) :
  l !! i = Some x -> alter f i l = take i l ++ f x :: drop (S i) l.
Proof.
  intros H. pose proof (lookup_lt_Some _ _ _ H). rewrite <-(take_drop_middle l i x H) at 1.
  assert (length (take i l) = i) as Hl by (rewrite take_length; lia).
  replace i with (length (take i l) + 0) at 1 by lia. by rewrite alter_app_r.
Qed.

Lemma locate_tree path : forall t x, rt t x ->
  match subtree x path with
  | Some y => exists C t', afind t path = Some (C, t') /\ rt t' y /\
      (forall f t'' y'', rt t'' y'' -> f y = y'' -> rt (plug C t'') (update_at path f x))
  | None => afind t path = None
  end.
Proof.
  induction path as [|i path IH]; intros t x Hr; simpl.
  - exists [], t. split_and!; [done|done|]. by intros f t'' y'' ? ->.
  - inversion Hr as [p pl a ks xs Hf]; subst. simpl. destruct (xs !! i) as [x'|] eqn:Hx.
    + destruct (Forall2_lookup_r _ _ _ _ _ Hf Hx) as (k & Hk & Hkx). rewrite Hk. specialize (IH k x' Hkx).
      destruct (subtree x' path) as [y|] eqn:Hs.
      * destruct IH as (C & t' & -> & Hrt & Hup). eexists _, t'. split_and!; [done|done|].
        intros f t'' y'' Hr'' Hfy. rewrite plug_app. simpl. constructor. rewrite (alter_middle _ _ _ _ Hx).
        apply Forall2_app; [by apply Forall2_take|]. constructor; [|by apply Forall2_drop].
        by eapply Hup.
      * by rewrite IH.
    + destruct (ks !! i) eqn:Hk; [|done]. destruct (Forall2_lookup_l _ _ _ _ _ Hf Hk) as (?&?&?). congruence.
Qed.

Lemma locate_kids t it path : ri t it ->
  match kids_at it path with
  | Some xs => exists C p pl v ks, afind t path = Some (C, AN p pl v ks) /\ Forall2 rt ks xs /\
      (forall ks' xs', Forall2 rt ks' xs' -> ri (plug C (AN p pl v ks')) (set_kids it path xs')) /\
      node_at it path = match v with Some a => Some (Tr a xs) | None => None end /\
      (forall a', is_Some v -> ri (plug C (AN p pl (Some a') ks)) (set_data it path a')) /\
      (v = None <-> (exists ys, it = IForest ys) /\ path = [])
  | None => afind t path = None /\ node_at it path = None
  end.
Proof.
  intros Hr. destruct it as [x|xs0]; simpl in Hr.
  - simpl. pose proof (locate_tree path t x Hr) as H. destruct (subtree x path) as [y|] eqn:Hs; simpl.
    + destruct H as (C & t' & Hf & Hrt & Hup). inversion Hrt as [p pl a ks xs Hks]; subst. simpl.
      exists C, p, pl, (Some a), ks. split_and!; [done|done| |done| |split; [done|by intros [[? ?] _]]].
      * intros ks' xs' H'. eapply Hup; [|done]. by constructor.
      * intros a' _. eapply Hup; [|done]. by constructor.
    + done.
  - destruct Hr as [Hv Hks]. destruct t as [p pl v ks]. simpl in *. subst v. destruct path as [|i path].
    + simpl. exists [], p, pl, None, ks. split_and!; [done|done|done|done| |split; eauto]. by intros ? [? ?].
    + simpl. destruct (xs0 !! i) as [x'|] eqn:Hx.
      * destruct (Forall2_lookup_r _ _ _ _ _ Hks Hx) as (k & Hk & Hkx). rewrite Hk.
        pose proof (locate_tree path k x' Hkx) as H. destruct (subtree x' path) as [y|] eqn:Hs; simpl.
        -- destruct H as (C & t' & -> & Hrt & Hup). inversion Hrt as [p' pl' a ks' xs Hks']; subst.
           eexists _, p', pl', (Some a), ks'. split_and!; [done|done| |done| |split; [done|by intros [_ ?]]].
           ++ intros ks'' xs' H'. rewrite plug_app. split; [done|]. simpl. rewrite (alter_middle _ _ _ _ Hx).
              apply Forall2_app; [by apply Forall2_take|]. constructor; [|by apply Forall2_drop].
              eapply Hup; [|done]. by constructor.
           ++ intros a' _. rewrite plug_app. split; [done|]. simpl. rewrite (alter_middle _ _ _ _ Hx).
              apply Forall2_app; [by apply Forall2_take|]. constructor; [|by apply Forall2_drop].
              eapply Hup; [|done]. by constructor.
        -- by rewrite H.
      * destruct (ks !! i) eqn:Hk; [|done]. destruct (Forall2_lookup_l _ _ _ _ _ Hks Hk) as (?&?&?). congruence.
Qed.

(** ** infos of contexts *)
Definition infos_ctx (C : ctx A) : list (ptr * bool) :=
  flat_map (fun fr => let 'Fr p pl _ L R := fr in (p, pl) :: infoss L ++ infoss R) C.
Lemma plug_infos C t : infos (plug C t) ≡ₚ infos t ++ infos_ctx C.
Proof.
  revert t. induction C as [|[p pl v L R] C IH]; intros t; [by rewrite app_nil_r|].
  rewrite plug_cons, IH. cbn [plug1]. rewrite infos_eq, infoss_app. simpl.
  rewrite <-Permutation_middle. constructor. rewrite !app_assoc.
  do 2 apply Permutation_app_tail. apply Permutation_app_comm.
Qed.

End abs.
