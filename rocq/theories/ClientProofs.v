(** ClientProofs.v — every client history refines rose trees. *)
From stdpp Require Import base gmap list.
From Verif Require Import Spec ClientSpec Machine NodeModel ClientModel Sep Rep NodeProofs Inv Abs.

Section located.
Context {A : Type}.
Implicit Types (p q : ptr) (ks fs qs L R W : list (atree A)) (C : ctx A) (t k : atree A) (s : mem A)
  (x y : tree A) (xs ys : list (tree A)) (E : list (ptr * node A)).

Lemma layW_plug C t W : layW (plug C t :: W) ≡ₚ
  lay (up_of C) (prev_of C) (next_of C) t ++ lay_ctx C (aptr t) (cntn t) ++ layW W.
Proof. rewrite layW_cons, <-lay_ctx_perm. by rewrite <-!app_assoc. Qed.
Lemma infoss_plug C t W : infoss (plug C t :: W) ≡ₚ infos t ++ infos_ctx C ++ infoss W.
Proof. rewrite infoss_cons, plug_infos. by rewrite <-!app_assoc. Qed.

Lemma layW_plug2 C t u W : layW (u :: plug C t :: W) ≡ₚ
  lay None None None u ++ lay (up_of C) (prev_of C) (next_of C) t ++ lay_ctx C (aptr t) (cntn t) ++ layW W.
Proof. by rewrite layW_cons, layW_plug. Qed.

Lemma infos_ctx_cons p pl (v : option A) L R C :
  infos_ctx (Fr p pl v L R :: C) = (p, pl) :: (infoss L ++ infoss R) ++ infos_ctx C.
Proof. done. Qed.
Lemma infoss_nil : infoss (A:=A) [] = [].
Proof. done. Qed.

Ltac isolve := rewrite ?infoss_cons, ?plug_infos, ?infos_eq, ?infoss_app, ?infoss_cons, ?infos_eq; simpl; solve_Permutation.
Ltac lsolve := first [rewrite layW_plug2 | rewrite layW_plug]; cbn [aptr]; rewrite ?cntn_eq; solve_Permutation.

Lemma push_at e s C p pl v ks q ql a qs W E :
  MInvX s (AN q ql (Some a) qs :: plug C (AN p pl v ks) :: W) E ->
  exists h, match e with Front => push_front p q | Back => push_back p q end s = Ok tt (set_heap s h) /\
    MInvX (set_heap s h) (plug C (AN p pl v (match e with Front => AN q ql (Some a) qs :: ks
                                                     | Back => ks ++ [AN q ql (Some a) qs] end)) :: W) E.
Proof.
  intros H. destruct e.
  - eapply (MInv_triple _ _ _ _ _ _ (layW W)); [apply (push_front_spec C (prev_of C) (next_of C) p pl v ks q ql a qs)| | | |exact H];
      [lsolve|lsolve|isolve].
  - eapply (MInv_triple _ _ _ _ _ _ (layW W)); [apply (push_back_spec C (prev_of C) (next_of C) p pl v ks q ql a qs)| | | |exact H];
      [lsolve|lsolve|isolve].
Qed.

Lemma pop_at_none e s C p pl v W E :
  MInvX s (plug C (AN p pl v []) :: W) E ->
  match e with Front => pop_front p | Back => pop_back p end s = Ok None s.
Proof.
  intros H. pose proof (lookup_at _ _ _ _ _ _ _ _ H) as Hl.
  destruct e; unfold pop_front, pop_back, bind, get; by rewrite Hl.
Qed.

Lemma pop_at_some e s C p pl v k ks W E :
  MInvX s (plug C (AN p pl v (match e with Front => k :: ks | Back => ks ++ [k] end)) :: W) E ->
  exists h, match e with Front => pop_front p | Back => pop_back p end s = Ok (Some (aptr k)) (set_heap s h) /\
    MInvX (set_heap s h) (k :: plug C (AN p pl v ks) :: W) E.
Proof.
  intros H. destruct e.
  - eapply (MInv_triple _ _ _ _ _ _ (layW W)); [apply (pop_front_some C (prev_of C) (next_of C) p pl v k ks)| | | |exact H];
      [lsolve|lsolve|isolve].
  - eapply (MInv_triple _ _ _ _ _ _ (layW W)); [apply (pop_back_some C (prev_of C) (next_of C) p pl v k ks)| | | |exact H];
      [lsolve|lsolve|isolve].
Qed.

Lemma concat_body_at e s C p pl v ks q ql qs W E :
  MInvX s (AN q ql None qs :: plug C (AN p pl v ks) :: W) E ->
  exists h, match e with Front => prepend_body p q | Back => append_body p q end s = Ok tt (set_heap s h) /\
    MInvX (set_heap s h) (AN q ql None [] :: plug C (AN p pl v (match e with Front => qs ++ ks | Back => ks ++ qs end)) :: W) E.
Proof.
  intros H. destruct (decide (qs = [])) as [->|Hne].
  - exists (m_heap s). rewrite set_heap_id. destruct e; rewrite ?app_nil_r; split; try done.
    + eapply MInv_read; [apply (prepend_body_nil q ql p)| |exact H].
      rewrite layW_cons, <-app_assoc. done.
    + eapply MInv_read; [apply (append_body_nil q ql p)| |exact H].
      rewrite layW_cons, <-app_assoc. done.
  - destruct e.
    + eapply (MInv_triple _ _ _ _ _ _ (layW W)); [apply (prepend_body_spec C (prev_of C) (next_of C) p pl v ks q ql qs Hne)| | | |exact H];
      [lsolve|lsolve|isolve].
    + eapply (MInv_triple _ _ _ _ _ _ (layW W)); [apply (append_body_spec C (prev_of C) (next_of C) p pl v ks q ql qs Hne)| | | |exact H];
      [lsolve|lsolve|isolve].
Qed.

Lemma concat_at e s C p pl v ks q ql qs W E :
  MInvX s (AN q ql None qs :: plug C (AN p pl v ks) :: W) E ->
  exists s', match e with Front => prepend p q | Back => append p q end s = Ok tt s' /\
    MInvX s' (plug C (AN p pl v (match e with Front => qs ++ ks | Back => ks ++ qs end)) :: W) E /\
    m_log s' = m_log s.
Proof.
  intros H. destruct (concat_body_at e _ _ _ _ _ _ _ _ _ _ _ H) as (h & Hb & H1).
  destruct (drop_tree_spec _ _ _ _ H1) as (s' & Hd & HI & Hl & _). cbn [apost aptr flat_map app] in Hl, Hd. rewrite app_nil_r in Hl.
  exists s'. split; [|by split]. destruct e; unfold prepend, append, bind; by rewrite Hb.
Qed.

Lemma insert_at e s C u ul uv L R p pl v ks q ql a qs W E :
  MInvX s (AN q ql (Some a) qs :: plug C (AN u ul uv (L ++ AN p pl v ks :: R)) :: W) E ->
  exists h, match e with Front => insert_prev_sib p q | Back => insert_next_sib p q end s = Ok tt (set_heap s h) /\
    MInvX (set_heap s h) (plug C (AN u ul uv (match e with Front => L ++ AN q ql (Some a) qs :: AN p pl v ks :: R
                                   | Back => L ++ AN p pl v ks :: AN q ql (Some a) qs :: R end)) :: W) E.
Proof.
  intros H.
  change (plug C (AN u ul uv (L ++ AN p pl v ks :: R))) with (plug (Fr u ul uv L R :: C) (AN p pl v ks)) in H.
  destruct e.
  - replace (plug C _) with (plug (Fr u ul uv (L ++ [AN q ql (Some a) qs]) R :: C) (AN p pl v ks))
      by (rewrite plug_cons; simpl; by rewrite <-app_assoc).
    eapply (MInv_triple _ _ _ _ _ _ (layW W)); [apply (insert_prev_sib_spec C u ul uv L R p pl v ks q ql a qs)| | | |exact H].
    + lsolve.
    + rewrite layW_plug. cbn [up_of prev_of next_of aptr]. rewrite lastp_app. cbn [lastp aptr]. solve_Permutation.
    + rewrite !infoss_cons, !plug_infos, !infos_ctx_cons, infoss_app, infoss_cons, infoss_nil. solve_Permutation.
  - change (plug C (AN u ul uv (L ++ AN p pl v ks :: AN q ql (Some a) qs :: R))) with (plug (Fr u ul uv L (AN q ql (Some a) qs :: R) :: C) (AN p pl v ks)).
    eapply (MInv_triple _ _ _ _ _ _ (layW W)); [apply (insert_next_sib_spec C u ul uv L R p pl v ks q ql a qs)| | | |exact H].
    + lsolve.
    + rewrite layW_plug. cbn [up_of prev_of next_of aptr]. cbn [hdp aptr]. solve_Permutation.
    + rewrite !infoss_cons, !plug_infos, !infos_ctx_cons, infoss_cons. solve_Permutation.
Qed.

Lemma insert_root e s p pl v ks q W E :
  MInvX s (AN p pl v ks :: W) E ->
  match e with Front => insert_prev_sib p q | Back => insert_next_sib p q end s = Err EPanic.
Proof.
  intros H. pose proof (lookup_at s [] p pl v ks W E H) as Hl.
  destruct e; unfold insert_prev_sib, insert_next_sib, bind, get; by rewrite Hl.
Qed.
Lemma detach_root s p pl v ks W E :
  MInvX s (AN p pl v ks :: W) E -> detach p s = Err EPanic.
Proof.
  intros H. pose proof (lookup_at s [] p pl v ks W E H) as Hl. unfold detach, bind, get; by rewrite Hl.
Qed.

Lemma detach_at s C u ul uv L R p pl a ks W E :
  MInvX s (plug C (AN u ul uv (L ++ AN p pl (Some a) ks :: R)) :: W) E ->
  exists h, detach p s = Ok p (set_heap s h) /\
    MInvX (set_heap s h) (AN p pl (Some a) ks :: plug C (AN u ul uv (L ++ R)) :: W) E.
Proof.
  intros H.
  change (plug C (AN u ul uv (L ++ AN p pl (Some a) ks :: R))) with (plug (Fr u ul uv L R :: C) (AN p pl (Some a) ks)) in H.
  eapply (MInv_triple _ _ _ _ _ _ (layW W)); [apply (detach_spec C u ul uv L R p pl a ks)| | | |exact H].
  - lsolve.
  - lsolve.
  - rewrite !infoss_cons, !plug_infos, !infos_ctx_cons, !infos_eq, !infoss_app. solve_Permutation.
Qed.

(** changing the data of a node *)
Lemma set_dat_mk u pv nx p pl (v v' : option A) ks :
  set_dat (dat_of p pl v') (mk u pv nx p pl v ks) = mk u pv nx p pl v' ks.
Proof. done. Qed.

Lemma modify_at s C p pl a ks f W E :
  MInvX s (plug C (AN p pl (Some a) ks) :: W) E ->
  exists h, modify_data p f s = Ok tt (set_heap s h) /\
    MInvX (set_heap s h) (plug C (AN p pl (Some (f a)) ks) :: W) E.
Proof.
  intros H.
  eapply (MInv_triple _ _ _ _ (lay (up_of C) (prev_of C) (next_of C) (AN p pl (Some a) ks))
     (lay (up_of C) (prev_of C) (next_of C) (AN p pl (Some (f a)) ks)) (lay_ctx C p (S (cnts ks)) ++ layW W)); [| | | |exact H].
  - unfold modify_data. rewrite !lay_eq. step1. cbn [n_dat mk].
    eapply (triple_bind _ _ (dat_of p pl (Some (f a)))); [destruct pl; apply triple_ret|].
    eapply triple_post; [|apply triple_put]. by rewrite set_dat_mk.
  - by rewrite layW_plug.
  - by rewrite layW_plug.
  - by rewrite !infoss_plug, !infos_eq.
Qed.

Lemma take_data_at s C p pl a ks W E :
  MInvX s (plug C (AN p pl (Some a) ks) :: W) E ->
  exists h, take_data p s = Ok a (set_heap s h) /\
    MInvX (set_heap s h) (plug C (AN p pl None ks) :: W) E.
Proof.
  intros H.
  eapply (MInv_triple _ _ _ _ (lay (up_of C) (prev_of C) (next_of C) (AN p pl (Some a) ks))
     (lay (up_of C) (prev_of C) (next_of C) (AN p pl None ks)) (lay_ctx C p (S (cnts ks)) ++ layW W)); [| | | |exact H].
  - unfold take_data. rewrite !lay_eq. step1. cbn [n_dat mk].
    destruct pl; cbn [dat_of]; step1; apply triple_ret.
  - by rewrite layW_plug.
  - by rewrite layW_plug.
  - by rewrite !infoss_plug, !infos_eq.
Qed.

Lemma abandon_at s p pl a ks W E :
  MInvX s (AN p pl (Some a) ks :: W) E ->
  exists s' np, abandon p s = Ok (p, np) s' /\ MInvX s' (AN np false (Some a) [] :: AN p pl None ks :: W) E /\
    m_log s' = m_log s.
Proof.
  intros H. destruct (take_data_at s [] p pl a ks W E H) as (h & Ht & H1). cbn [plug foldl] in H1.
  destruct (make_node_spec _ _ _ (DScat a (0,0)) (Some a) H1) as (s2 & Hm & H2 & Hl & _); [done|].
  eexists s2, _. split; [|split; [exact H2|done]]. unfold abandon, bind. rewrite Ht, Hm. done.
Qed.

Lemma data_at s C p pl a ks W E :
  MInvX s (plug C (AN p pl (Some a) ks) :: W) E -> data p s = Ok a s.
Proof.
  intros H. unfold data, bind, get. rewrite (lookup_at _ _ _ _ _ _ _ _ H). by destruct pl.
Qed.
Lemma degree_at s C p pl v ks W E :
  MInvX s (plug C (AN p pl v ks) :: W) E -> degree p s = Ok (length ks) s.
Proof. intros H. unfold degree, bind, get. by rewrite (lookup_at _ _ _ _ _ _ _ _ H). Qed.
Lemma node_count_at s C p pl v ks W E :
  MInvX s (plug C (AN p pl v ks) :: W) E ->
  node_count p s = Ok (match v with Some _ => S (cnts ks) | None => cnts ks end) s.
Proof.
  intros H. unfold node_count, bind, get. rewrite (lookup_at _ _ _ _ _ _ _ _ H). cbn [n_dat mk n_desc].
  rewrite is_forest_dat_of. destruct v; [|done]. by rewrite Nat.add_1_r.
Qed.
Lemma has_no_child_at s C p pl v ks W E :
  MInvX s (plug C (AN p pl v ks) :: W) E ->
  has_no_child p s = Ok (match ks with [] => true | _ => false end) s.
Proof. intros H. unfold has_no_child, bind, get. rewrite (lookup_at _ _ _ _ _ _ _ _ H). by destruct ks. Qed.
Lemma lastp_last ks pv : lastp pv ks = match last ks with Some k => Some (aptr k) | None => pv end.
Proof.
  revert pv. induction ks as [|k ks IH]; intros pv; [done|]. cbn [lastp]. rewrite IH, last_cons.
  by destruct (last ks).
Qed.
Lemma end_at e s C p pl v ks W E :
  MInvX s (plug C (AN p pl v ks) :: W) E ->
  match e with Front => front p | Back => back p end s =
  Ok (aptr <$> match e with Front => head ks | Back => last ks end) s.
Proof.
  intros H. destruct e; unfold front, back, bind, get; rewrite (lookup_at _ _ _ _ _ _ _ _ H); cbn [mk n_head n_tail ret].
  - by destruct ks.
  - unfold ret. f_equal. rewrite lastp_last. by destruct (last ks).
Qed.

(** the kids of a located node are located *)
Lemma kid_in C p pl v ks i k : ks !! i = Some k ->
  plug C (AN p pl v ks) = plug (Fr p pl v (take i ks) (drop (S i) ks) :: C) k.
Proof. intros H. rewrite plug_cons. simpl. by rewrite take_drop_middle. Qed.

Lemma parent_at s C p pl v ks W E :
  MInvX s (plug C (AN p pl v ks) :: W) E ->
  (forall u ul uv L R C1, C = Fr u ul uv L R :: C1 -> uv = None -> C1 = []) ->
  parent p s = Ok (match C with Fr u _ (Some _) _ _ :: _ => Some u | _ => None end) s.
Proof.
  intros H Hnone. pose proof (MInv_size _ _ _ _ H) as Hs. unfold parent, bind, fuel, gets.
  pose proof (lookup_at _ _ _ _ _ _ _ _ H) as Hl. destruct C as [|[u ul uv L R] C]; cbn [up_of] in Hl.
  - cbn [parent_loop]. unfold bind, get. by rewrite Hl.
  - cbn [parent_loop]. unfold bind, get. rewrite Hl. cbn [mk n_up].
    rewrite plug_cons in H, Hs. cbn [plug1] in H, Hs. pose proof (lookup_at _ _ _ _ _ _ _ _ H) as Hl'. rewrite Hl'.
    cbn [mk n_dat]. rewrite is_forest_dat_of. destruct uv as [b|]; [done|].
    rewrite (Hnone _ _ _ _ _ _ eq_refl eq_refl) in *. cbn [plug foldl] in Hs. rewrite cntn_eq in Hs. destruct (size (m_heap s)); [lia|].
    cbn [parent_loop]. unfold bind, get. rewrite Hl'. done.
Qed.
End located.
