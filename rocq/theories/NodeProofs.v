(** NodeProofs.v — effect of each structural operation of node.rs on layouts. *)
From stdpp Require Import base gmap list.
From Verif Require Import Machine NodeModel Sep Rep.

Section ops.
Context {A : Type}.
Implicit Types (p q : ptr) (ks fs qs L R : list (atree A)) (C : ctx A) (t : atree A).

Lemma is_forest_dat_of p pl (v : option A) : is_forest_dat (dat_of p pl v) = match v with None => true | _ => false end.
Proof. by destruct pl, v. Qed.

Ltac un := cbn [n_prev n_next n_head n_tail n_up n_deg n_desc n_dat
  set_prev set_next set_head set_tail set_up set_size set_dat mk mkh hdp lastp aptr length app
  dat_of is_forest_dat].
Ltac cell := first [done | unfold set_prev, set_next, set_head, set_tail, set_up, set_size, mk, mkh; un;
  rewrite ?hdp_app, ?lastp_app, ?app_length, ?cnts_app, ?cnts_cons, ?cntn_eq, ?cnts_nil; un; f_equal; try done; rewrite ?app_length, ?cnts_app, ?cnts_cons, ?cntn_eq, ?cnts_nil; cbn [length]; try lia].
Ltac norm := repeat first [rewrite lay_eq | rewrite lays_app | rewrite lays_cons | rewrite lays_nil | rewrite lastp_app | rewrite hdp_app | progress cbn [hdp lastp aptr app]].
Ltac ctxeq := match goal with |- context [lay_ctx ?C ?p ?n] =>
  match goal with |- context [lay_ctx C p ?m] => assert_fails (constr_eq m n);
    replace n with m by (rewrite ?cnts_app, ?cnts_cons, ?cntn_eq, ?cnts_nil; lia) end end.

Ltac run := repeat first [step1 | progress un | progress unfold connect_next, node_count | rewrite is_forest_dat_of].

Lemma node_count_spec p u pv nx pl a ks l :
  triple ((p, mk u pv nx p pl (Some a) ks) :: l) (node_count p) (S (cnts ks)) ((p, mk u pv nx p pl (Some a) ks) :: l).
Proof.
  unfold node_count. step1. un. replace (is_forest_dat _) with false by by destruct pl.
  rewrite Nat.add_comm. apply triple_ret.
Qed.

Lemma push_front_spec C pv nx p pl v ks q ql a qs :
  triple (lay (up_of C) pv nx (AN p pl v ks) ++ lay_ctx C p (S (cnts ks)) ++ lay None None None (AN q ql (Some a) qs))
    (push_front p q) tt
    (lay (up_of C) pv nx (AN p pl v (AN q ql (Some a) qs :: ks)) ++ lay_ctx C p (S (cnts (AN q ql (Some a) qs :: ks)))).
Proof.
  unfold push_front. destruct ks as [|[k kl kv kks] ks]; norm.
  - run. 
    eapply t_last; [eapply (inc_sizes_spec C)|apply _|]; [done|].
    ctxeq. perm; cell.
  - run. 
    eapply t_last; [eapply (inc_sizes_spec C)|apply _|]; [done|].
    ctxeq. perm; cell.
Qed.

Lemma hdp_some L q : exists h, hdp L (Some q) = Some h.
Proof. destruct L; simpl; eauto. Qed.
Lemma lastp_some R q : exists h, lastp (Some q) R = Some h.
Proof. revert q. induction R; simpl; eauto. Qed.

Lemma push_back_spec C pv nx p pl v ks q ql a qs :
  triple (lay (up_of C) pv nx (AN p pl v ks) ++ lay_ctx C p (S (cnts ks)) ++ lay None None None (AN q ql (Some a) qs))
    (push_back p q) tt
    (lay (up_of C) pv nx (AN p pl v (ks ++ [AN q ql (Some a) qs])) ++ lay_ctx C p (S (cnts (ks ++ [AN q ql (Some a) qs])))).
Proof.
  unfold push_back. destruct ks as [|[k kl kv kks] ks _] using rev_ind; norm.
  - run. eapply t_last; [eapply (inc_sizes_spec C)|apply _|]; [done|].
    ctxeq. perm; cell.
  - run. rewrite hdp_app, lastp_app. un.
    destruct (hdp_some ks k) as [h Hh]. rewrite Hh. run.
    eapply t_last; [eapply (inc_sizes_spec C)|apply _|]; [done|].
    ctxeq. perm; cell.
Qed.

Lemma pop_front_none C pv nx p pl v n :
  triple (lay (up_of C) pv nx (AN p pl v []) ++ lay_ctx C p n) (pop_front p) None
    (lay (up_of C) pv nx (AN p pl v []) ++ lay_ctx C p n).
Proof. unfold pop_front. norm. run. by apply t_retl. Qed.
Lemma pop_back_none C pv nx p pl v n :
  triple (lay (up_of C) pv nx (AN p pl v []) ++ lay_ctx C p n) (pop_back p) None
    (lay (up_of C) pv nx (AN p pl v []) ++ lay_ctx C p n).
Proof. unfold pop_back. norm. run. by apply t_retl. Qed.

Ltac lc := un; rewrite ?cnts_app, ?cnts_cons, ?cntn_eq, ?cnts_nil; lia.

Lemma pop_front_some C pv nx p pl v k ks :
  triple (lay (up_of C) pv nx (AN p pl v (k :: ks)) ++ lay_ctx C p (S (cnts (k :: ks))))
    (pop_front p) (Some (aptr k))
    (lay (up_of C) pv nx (AN p pl v ks) ++ lay_ctx C p (S (cnts ks)) ++ lay None None None k).
Proof.
  destruct k as [k kl kv kks].
  unfold pop_front, tree_from_node. destruct ks as [|[h hl hv hks] ks]; norm.
  - run. eapply t_call; [eapply (dec_sizes_spec C)|apply _|]; [done|lc..|].
    run. apply t_retl. ctxeq. perm; cell.
  - run. eapply t_call; [eapply (dec_sizes_spec C)|apply _|]; [done|lc..|].
    run. apply t_retl. ctxeq. perm; cell.
Qed.

Lemma pop_back_some C pv nx p pl v k ks :
  triple (lay (up_of C) pv nx (AN p pl v (ks ++ [k])) ++ lay_ctx C p (S (cnts (ks ++ [k]))))
    (pop_back p) (Some (aptr k))
    (lay (up_of C) pv nx (AN p pl v ks) ++ lay_ctx C p (S (cnts ks)) ++ lay None None None k).
Proof.
  destruct k as [k kl kv kks].
  unfold pop_back, tree_from_node. destruct ks as [|[h hl hv hks] ks _] using rev_ind; norm.
  - run. eapply t_call; [eapply (dec_sizes_spec C)|apply _|]; [done|lc..|].
    run. apply t_retl. ctxeq. perm; cell.
  - run. replace (length _) with (S (S (length ks))) by (rewrite !app_length; simpl; lia). 
    rewrite ?lastp_app. un. run.
    eapply t_call; [eapply (dec_sizes_spec C)|apply _|]; [done| |lc..|].
    { un. rewrite !app_length. simpl. lia. }
    run. apply t_retl. ctxeq. perm; cell.
Qed.

Lemma insert_prev_sib_spec C u ul uv L R p pl v ks q ql a qs :
  triple (lay (Some u) (lastp None L) (hdp R None) (AN p pl v ks) ++
          lay_ctx (Fr u ul uv L R :: C) p (cntn (AN p pl v ks)) ++ lay None None None (AN q ql (Some a) qs))
    (insert_prev_sib p q) tt
    (lay (Some u) (Some q) (hdp R None) (AN p pl v ks) ++
     lay_ctx (Fr u ul uv (L ++ [AN q ql (Some a) qs]) R :: C) p (cntn (AN p pl v ks))).
Proof.
  unfold insert_prev_sib. destruct L as [|[h hl hv hks] L _] using rev_ind; cbn [lay_ctx]; norm.
  - run. eapply t_last; [eapply (inc_sizes_spec C)|apply _|]; [done|].
    ctxeq. perm; cell.
  - run. rewrite ?lastp_app. un. run.
    eapply t_last; [eapply (inc_sizes_spec C)|apply _|]; [done|].
    ctxeq. perm; cell.
Qed.

Lemma insert_next_sib_spec C u ul uv L R p pl v ks q ql a qs :
  triple (lay (Some u) (lastp None L) (hdp R None) (AN p pl v ks) ++
          lay_ctx (Fr u ul uv L R :: C) p (cntn (AN p pl v ks)) ++ lay None None None (AN q ql (Some a) qs))
    (insert_next_sib p q) tt
    (lay (Some u) (lastp None L) (Some q) (AN p pl v ks) ++
     lay_ctx (Fr u ul uv L (AN q ql (Some a) qs :: R) :: C) p (cntn (AN p pl v ks))).
Proof.
  unfold insert_next_sib. destruct R as [|[h hl hv hks] R]; cbn [lay_ctx]; norm.
  - run. eapply t_last; [eapply (inc_sizes_spec C)|apply _|]; [done|].
    ctxeq. perm; cell.
  - run.
    eapply t_last; [eapply (inc_sizes_spec C)|apply _|]; [done|].
    ctxeq. perm; cell.
Qed.

Lemma detach_spec C u ul uv L R p pl a ks :
  triple (lay (Some u) (lastp None L) (hdp R None) (AN p pl (Some a) ks) ++
          lay_ctx (Fr u ul uv L R :: C) p (cntn (AN p pl (Some a) ks)))
    (detach p) p
    (lay None None None (AN p pl (Some a) ks) ++
     lay (up_of C) (prev_of C) (next_of C) (AN u ul uv (L ++ R)) ++ lay_ctx C u (S (cnts (L ++ R)))).
Proof.
  unfold detach. destruct L as [|[h hl hv hks] L _] using rev_ind; [destruct R as [|[h hl hv hks] R]
    | destruct R as [|[i il iv iks] R]]; cbn [lay_ctx]; norm.
  - run. cbn [Nat.add]. run. eapply t_call; [eapply (dec_sizes_spec C)|apply _|]; [done|lc..|].
    run. apply t_retl. ctxeq. perm; cell.
  - run. cbn [Nat.add]. run. eapply t_call; [eapply (dec_sizes_spec C)|apply _|]; [done|lc..|].
    run. apply t_retl. ctxeq. perm; cell.
  - run. replace (length _ + 1) with (S (S (length L))) by (rewrite !app_length; simpl; lia). 
    rewrite ?lastp_app. un. run.
    eapply t_call; [eapply (dec_sizes_spec C)|apply _|]; [done| |lc..|].
    { un. rewrite !app_length. simpl. lia. }
    run. apply t_retl. rewrite !app_nil_r. norm. ctxeq. perm; cell.
  - run. replace (length _ + _) with (S (S (length L + S (length R)))) by (rewrite !app_length; simpl; lia). 
    rewrite ?lastp_app. un. run.
    eapply t_call; [eapply (dec_sizes_spec C)|apply _|]; [done| |lc..|].
    { un. rewrite !app_length. simpl. lia. }
    run. apply t_retl. ctxeq. perm; cell.
Qed.

Lemma set_ups_spec u pv ks p f :
  length ks < f ->
  triple (lays u pv ks None) (set_ups f (CIter (hdp ks None) (length ks)) p) tt (lays (Some p) pv ks None).
Proof.
  revert pv f. induction ks as [|[k kl kv kks] ks IH]; intros pv f Hf; (destruct f as [|f]; [simpl in Hf; lia|]).
  - apply triple_ret.
  - cbn [set_ups ci_next ci_len ci_curr hdp length]. unfold ci_next; cbn [ci_len ci_curr aptr]. norm.
    run. cbn [fst snd]. run. eapply t_last; [apply (IH (Some k) f); simpl in Hf; lia|apply _|].
    perm; cell.
Qed.

Lemma forest_set_up_spec u pv nx fp fl fs p :
  triple ((fp, mk u pv nx fp fl None fs) :: lays (Some fp) None fs None) (forest_set_up fp p) tt
    ((fp, mk u pv nx fp fl None fs) :: lays (Some p) None fs None).
Proof.
  unfold forest_set_up, iter. norm. run. 
  apply triple_fuel. intros f Hf. cbn [length] in Hf. 
  destruct fs as [|[k kl kv kks] fs]; [un; destruct f; [lia|apply triple_ret]|].
  un. eapply t_last; [apply (set_ups_spec (Some fp) None (AN k kl kv kks :: fs) p f)|apply _|].
  - rewrite <-(fmap_length fst), lays_fst, addrss_length in Hf.
    assert (length (AN k kl kv kks :: fs) <= cnts (AN k kl kv kks :: fs)); [|lia].
    clear. induction (AN k kl kv kks :: fs) as [|x l IH]; [simpl; lia|].
    rewrite cnts_cons, cntn_akids. cbn [length]. lia.
  - perm; cell.
Qed.

Lemma forest_clear_spec fp (n : node A) :
  triple [(fp, n)] (forest_clear fp) tt [(fp, set_size 0 0 (set_tail None (set_head None n)))].
Proof. unfold forest_clear. run. eapply t_upd'. apply _. Qed.

Lemma prepend_body_spec C pv nx p pl v ks fp fl fs : fs <> [] ->
  triple (lay (up_of C) pv nx (AN p pl v ks) ++ lay_ctx C p (S (cnts ks)) ++ lay None None None (AN fp fl None fs))
    (prepend_body p fp) tt
    (lay (up_of C) pv nx (AN p pl v (fs ++ ks)) ++ lay_ctx C p (S (cnts (fs ++ ks))) ++
     lay None None None (AN fp fl None [])).
Proof.
  intros Hfs.
  unfold prepend_body, has_no_child. rewrite !lay_eq.
  step1. step1. un. destruct fs as [|[f ffl fv ffs] fs _] using rev_ind; [done|]. clear Hfs.
  rewrite ?hdp_app. cbn [hdp aptr]. destruct (hdp_some fs f) as [h Hh]. rewrite Hh. run.
  eapply t_call; [apply forest_set_up_spec|apply _|].
  destruct ks as [|[k kl kv kks] ks].
  - rewrite app_nil_r. norm. unfold front, back. run. rewrite ?lastp_app. un. run.
    rewrite ?hdp_app. un. rewrite Hh. run.
    eapply t_call; [eapply (inc_sizes_spec C)|apply _|]; [done|].
    eapply t_last; [apply forest_clear_spec|apply _|].
    ctxeq. perm; cell.
  - norm. unfold front, back. run. rewrite ?lastp_app. un. run.
    rewrite ?hdp_app. un. rewrite Hh. run.
    eapply t_call; [eapply (inc_sizes_spec C)|apply _|]; [done|].
    eapply t_last; [apply forest_clear_spec|apply _|].
    ctxeq. perm; cell.
Qed.

Lemma append_body_spec C pv nx p pl v ks fp fl fs : fs <> [] ->
  triple (lay (up_of C) pv nx (AN p pl v ks) ++ lay_ctx C p (S (cnts ks)) ++ lay None None None (AN fp fl None fs))
    (append_body p fp) tt
    (lay (up_of C) pv nx (AN p pl v (ks ++ fs)) ++ lay_ctx C p (S (cnts (ks ++ fs))) ++
     lay None None None (AN fp fl None [])).
Proof.
  intros Hfs.
  unfold append_body, has_no_child. rewrite !lay_eq.
  step1. step1. un. destruct fs as [|[f ffl fv ffs] fs]; [done|]. clear Hfs. run.
  eapply t_call; [apply forest_set_up_spec|apply _|].
  destruct (lastp_some fs f) as [tl Htl].
  destruct ks as [|[k kl kv kks] ks _] using rev_ind.
  - norm. unfold front, back. run. rewrite Htl. run.
    eapply t_call; [eapply (inc_sizes_spec C)|apply _|]; [done|].
    eapply t_last; [apply forest_clear_spec|apply _|].
    ctxeq. perm; cell.
  - norm. unfold front, back. run. rewrite ?hdp_app, ?lastp_app. un.
    destruct (hdp_some ks k) as [h Hh]. rewrite Hh. run. rewrite Htl. run.
    eapply t_call; [eapply (inc_sizes_spec C)|apply _|]; [done|].
    eapply t_last; [apply forest_clear_spec|apply _|].
    ctxeq. perm; cell.
Qed.
Lemma prepend_body_nil fp fl p :
  triple (A:=A) (lay None None None (AN fp fl None [])) (prepend_body p fp) tt (lay None None None (AN fp fl None [])).
Proof. unfold prepend_body, has_no_child. norm. run. apply triple_ret. Qed.
Lemma append_body_nil fp fl p :
  triple (A:=A) (lay None None None (AN fp fl None [])) (append_body p fp) tt (lay None None None (AN fp fl None [])).
Proof. unfold append_body, has_no_child. norm. run. apply triple_ret. Qed.
End ops.
