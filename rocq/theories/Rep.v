(** Rep.v — proof side: address-annotated trees, the node records they determine, contexts. *)
From stdpp Require Import base gmap list.
From Verif Require Import Machine NodeModel Sep.

Section rep.
Context {A : Type}.

(** a node: its address, whether it lives in a buffer, its data ([None]: root of a forest), its children *)
Inductive atree : Type := AN (p : ptr) (pl : bool) (v : option A) (ks : list atree).

Lemma atree_ind' (P : atree -> Prop)
  (H : forall p pl v ks, Forall P ks -> P (AN p pl v ks)) : forall t, P t.
Proof.
  fix IH 1. intros [p pl v ks]. apply H.
  induction ks as [|t ts IHts]; constructor; [apply IH | apply IHts].
Qed.

Definition aptr (t : atree) : ptr := let 'AN p _ _ _ := t in p.
Definition akids (t : atree) : list atree := let 'AN _ _ _ ks := t in ks.
Definition aval (t : atree) : option A := let 'AN _ _ v _ := t in v.
Definition apiled (t : atree) : bool := let 'AN _ pl _ _ := t in pl.
Fixpoint cntn (t : atree) : nat := let 'AN _ _ _ ks := t in S (list_sum (map cntn ks)).
Definition cnts (ks : list atree) : nat := list_sum (map cntn ks).
Fixpoint addrs (t : atree) : list ptr := let 'AN p _ _ ks := t in p :: flat_map addrs ks.
Local Arguments cnts : simpl never.
Local Arguments cntn : simpl never.
Definition addrss (ks : list atree) := flat_map addrs ks.

Definition hdp (ks : list atree) (nx : option ptr) : option ptr :=
  match ks with [] => nx | k :: _ => Some (aptr k) end.
Fixpoint lastp (pv : option ptr) (ks : list atree) : option ptr :=
  match ks with [] => pv | k :: ks' => lastp (Some (aptr k)) ks' end.

Definition dat_of (p : ptr) (pl : bool) (v : option A) : dat A :=
  match pl, v with
  | false, None => DScatN p
  | false, Some a => DScat a p
  | true, None => DPiledN p.1
  | true, Some a => DPiled a p.1
  end.

Definition mk (u pv nx : option ptr) (p : ptr) (pl : bool) (v : option A) (ks : list atree) : node A :=
  Node pv nx (hdp ks None) (lastp None ks) u (length ks) (cnts ks) (dat_of p pl v).

Fixpoint lay (u pv nx : option ptr) (t : atree) : list (ptr * node A) :=
  let 'AN p pl v ks := t in
  (p, mk u pv nx p pl v ks) ::
  (fix go (pv : option ptr) (ks : list atree) : list (ptr * node A) :=
     match ks with
     | [] => []
     | k :: ks' => lay (Some p) pv (hdp ks' None) k ++ go (Some (aptr k)) ks'
     end) None ks.

Fixpoint lays (u pv : option ptr) (ks : list atree) (nx : option ptr) : list (ptr * node A) :=
  match ks with
  | [] => []
  | k :: ks' => lay u pv (hdp ks' nx) k ++ lays u (Some (aptr k)) ks' nx
  end.

Lemma lay_eq u pv nx p pl v ks :
  lay u pv nx (AN p pl v ks) = (p, mk u pv nx p pl v ks) :: lays (Some p) None ks None.
Proof.
  simpl. f_equal. generalize (@None ptr) at 2 3 as pv'. induction ks as [|k ks IH]; intros pv'; [done|].
  simpl. f_equal. apply IH.
Qed.

Lemma lays_nil u pv nx : lays u pv [] nx = [].
Proof. done. Qed.
Lemma lays_cons u pv k ks nx : lays u pv (k :: ks) nx = lay u pv (hdp ks nx) k ++ lays u (Some (aptr k)) ks nx.
Proof. done. Qed.
Lemma lays_app u pv L R nx :
  lays u pv (L ++ R) nx = lays u pv L (hdp R nx) ++ lays u (lastp pv L) R nx.
Proof.
  revert pv. induction L as [|k L IH]; intros pv; [done|]. simpl. rewrite IH, app_assoc.
  do 3 f_equal. by destruct L.
Qed.
Lemma hdp_app L R nx : hdp (L ++ R) nx = hdp L (hdp R nx).
Proof. by destruct L. Qed.
Lemma lastp_app pv L R : lastp pv (L ++ R) = lastp (lastp pv L) R.
Proof. revert pv. induction L; simpl; auto. Qed.
Lemma lastp_cons_irrel pv pv' k L : lastp pv (k :: L) = lastp pv' (k :: L).
Proof. done. Qed.
Lemma cnts_app L R : cnts (L ++ R) = cnts L + cnts R.
Proof. unfold cnts. by rewrite map_app, list_sum_app. Qed.
Lemma cnts_nil : cnts [] = 0.
Proof. done. Qed.
Lemma cnts_cons k R : cnts (k :: R) = cntn k + cnts R.
Proof. done. Qed.
Lemma cntn_eq p pl v ks : cntn (AN p pl v ks) = S (cnts ks).
Proof. done. Qed.
Lemma cntn_akids t : cntn t = S (cnts (akids t)).
Proof. by destruct t. Qed.
Lemma addrs_eq p pl v ks : addrs (AN p pl v ks) = p :: addrss ks.
Proof. done. Qed.
Lemma addrss_app L R : addrss (L ++ R) = addrss L ++ addrss R.
Proof. apply flat_map_app. Qed.

(** addresses of a layout *)
Lemma lay_fst u pv nx t : (lay u pv nx t).*1 = addrs t.
Proof.
  revert u pv nx. induction t as [p pl v ks IH] using atree_ind'; intros.
  rewrite lay_eq. csimpl. f_equal. generalize (@None ptr) at 1 as pv'.
  induction IH as [|k ks Hk _ IHks]; intros pv'; [done|].
  simpl. by rewrite fmap_app, Hk, IHks.
Qed.
Lemma lays_fst u pv ks nx : (lays u pv ks nx).*1 = addrss ks.
Proof.
  revert pv. induction ks as [|k ks IH]; intros; [done|]. simpl. by rewrite fmap_app, lay_fst, IH.
Qed.
Lemma addrs_length t : length (addrs t) = cntn t.
Proof.
  induction t as [p pl v ks IH] using atree_ind'. rewrite addrs_eq, cntn_eq. simpl. f_equal.
  induction IH as [|k ks Hk _ IHks]; [done|]. simpl. rewrite app_length, Hk, cnts_cons. unfold addrss in *. lia.
Qed.
Lemma addrss_length ks : length (addrss ks) = cnts ks.
Proof.
  induction ks as [|k ks IH]; [done|]. simpl. by rewrite app_length, addrs_length, cnts_cons, IH.
Qed.

(** * Contexts: a tree with a hole, innermost frame first *)
Inductive frame : Type := Fr (p : ptr) (pl : bool) (v : option A) (L R : list atree).
Notation ctx := (list frame).

Definition plug1 (fr : frame) (t : atree) : atree := let 'Fr p pl v L R := fr in AN p pl v (L ++ t :: R).
Definition plug (C : ctx) (t : atree) : atree := foldl (fun t fr => plug1 fr t) t C.

Definition up_of (C : ctx) : option ptr := match C with [] => None | Fr p _ _ _ _ :: _ => Some p end.
Definition prev_of (C : ctx) : option ptr := match C with [] => None | Fr _ _ _ L _ :: _ => lastp None L end.
Definition next_of (C : ctx) : option ptr := match C with [] => None | Fr _ _ _ _ R :: _ => hdp R None end.

(** the record of a node whose child list has a hole with address [q] and [n] nodes *)
Definition mkh (u pv nx : option ptr) p pl v (L : list atree) (q : ptr) (n : nat) (R : list atree) : node A :=
  Node pv nx (hdp L (Some q)) (lastp (Some q) R) u (length L + S (length R)) (cnts L + n + cnts R) (dat_of p pl v).

Fixpoint lay_ctx (C : ctx) (q : ptr) (n : nat) : list (ptr * node A) :=
  match C with
  | [] => []
  | Fr p pl v L R :: C' =>
    (p, mkh (up_of C') (prev_of C') (next_of C') p pl v L q n R) ::
    lays (Some p) None L (Some q) ++ lays (Some p) (Some q) R None ++
    lay_ctx C' p (S (cnts L + n + cnts R))
  end.

Lemma mkh_mk u pv nx p pl v L t R :
  mkh u pv nx p pl v L (aptr t) (cntn t) R = mk u pv nx p pl v (L ++ t :: R).
Proof.
  unfold mkh, mk. rewrite hdp_app, lastp_app, app_length, cnts_app, cnts_cons. simpl. f_equal. lia.
Qed.

Lemma plug_app C D t : plug (C ++ D) t = plug D (plug C t).
Proof. apply foldl_app. Qed.
Lemma plug_cons fr C t : plug (fr :: C) t = plug C (plug1 fr t).
Proof. done. Qed.

Lemma lay_ctx_perm C t :
  lay (up_of C) (prev_of C) (next_of C) t ++ lay_ctx C (aptr t) (cntn t) ≡ₚ lay None None None (plug C t).
Proof.
  revert t. induction C as [|[p pl v L R] C IH]; intros t; [simpl; by rewrite app_nil_r|].
  rewrite plug_cons, <-IH. cbn [plug1 lay_ctx aptr]. rewrite lay_eq, mkh_mk, lays_app.
  cbn [lays hdp up_of prev_of next_of]. rewrite cntn_eq, cnts_app, cnts_cons.
  replace (cnts L + cntn t + cnts R) with (cnts L + (cntn t + cnts R)) by lia. perm; done.
Qed.

Definition addrs_ctx (C : ctx) : list ptr :=
  flat_map (fun fr => let 'Fr p _ _ L R := fr in p :: addrss L ++ addrss R) C.
Lemma lay_ctx_fst C q n : (lay_ctx C q n).*1 = addrs_ctx C.
Proof.
  revert q n. induction C as [|[p pl v L R] C IH]; intros; [done|].
  cbn [lay_ctx fmap list_fmap]. rewrite !fmap_app, !lays_fst, IH. simpl. by rewrite app_assoc.
Qed.
Lemma plug_addrs C t : addrs (plug C t) ≡ₚ addrs t ++ addrs_ctx C.
Proof.
  revert t. induction C as [|[p pl v L R] C IH]; intros t; [by rewrite app_nil_r|].
  rewrite plug_cons, IH. cbn [plug1]. rewrite addrs_eq, addrss_app. simpl.
  rewrite <-Permutation_middle. constructor. rewrite !app_assoc.
  do 2 apply Permutation_app_tail. apply Permutation_app_comm.
Qed.
Lemma lay_ctx_length C q n : length C <= length (lay_ctx C q n).
Proof.
  revert q n. induction C as [|[p pl v L R] C IH]; intros; [simpl; lia|].
  simpl. rewrite !app_length. specialize (IH p (S (cnts L + n + cnts R))). lia.
Qed.

(** * inc_sizes / dec_sizes along a context *)
Lemma inc_up_spec C q n f c :
  length C <= f -> triple (lay_ctx C q n) (inc_up f (up_of C) c) tt (lay_ctx C q (n + c)).
Proof.
  revert q n f. induction C as [|[p pl v L R] C IH]; intros q n f Hf.
  { destruct f; apply triple_ret. }
  destruct f as [|f]; [simpl in Hf; lia|].
  simpl up_of. cbn [inc_up]. cbn [lay_ctx]. step1. step1.
  eapply t_last; [apply (IH p (S (cnts L + n + cnts R)) f); simpl in Hf; lia|apply _|].
  replace (S (cnts L + n + cnts R) + c) with (S (cnts L + (n + c) + cnts R)) by lia.
  perm; try done.
  unfold set_size, mkh; simpl. f_equal. lia.
Qed.

Lemma dec_up_spec C q n f c :
  length C <= f -> c <= n -> triple (lay_ctx C q n) (dec_up f (up_of C) c) tt (lay_ctx C q (n - c)).
Proof.
  intros Hf Hc. revert q n f Hf Hc. induction C as [|[p pl v L R] C IH]; intros q n f Hf Hc.
  { destruct f; apply triple_ret. }
  destruct f as [|f]; [simpl in Hf; lia|].
  simpl up_of. cbn [dec_up]. cbn [lay_ctx]. step1.
  apply t_sub; [simpl; lia|]. step1.
  eapply t_last; [apply (IH p (S (cnts L + n + cnts R)) f); simpl in Hf; lia|apply _|].
  replace (S (cnts L + n + cnts R) - c) with (S (cnts L + (n - c) + cnts R)) by lia.
  perm; try done.
  unfold set_size, mkh; simpl. f_equal. lia.
Qed.

Lemma inc_sizes_spec C p nd n dg c :
  n_up nd = up_of C ->
  triple ((p, nd) :: lay_ctx C p n) (inc_sizes p dg c) tt
         ((p, set_size (n_deg nd + dg) (n_desc nd + c) nd) :: lay_ctx C p (n + c)).
Proof.
  intros Hu. unfold inc_sizes. step1. step1. apply triple_fuel. intros f Hf.
  rewrite Hu. eapply t_last; [apply (inc_up_spec C p n)|apply _|].
  { simpl in Hf. pose proof (lay_ctx_length C p n). lia. }
  by rewrite Permutation_app_comm.
Qed.
Lemma dec_sizes_spec C p nd n dg c :
  n_up nd = up_of C -> dg <= n_deg nd -> c <= n_desc nd -> c <= n ->
  triple ((p, nd) :: lay_ctx C p n) (dec_sizes p dg c) tt
         ((p, set_size (n_deg nd - dg) (n_desc nd - c) nd) :: lay_ctx C p (n - c)).
Proof.
  intros Hu Hg Hd Hn. unfold dec_sizes. step1. apply t_sub; [done|]. apply t_sub; [done|].
  step1. apply triple_fuel. intros f Hf.
  rewrite Hu. eapply t_last; [apply (dec_up_spec C p n); [|done..]|apply _|].
  { simpl in Hf. pose proof (lay_ctx_length C p n). lia. }
  by rewrite Permutation_app_comm.
Qed.

End rep.
Arguments atree : clear implicits.
Arguments frame : clear implicits.
Notation ctx A := (list (frame A)).
Arguments cnts {A} ks : simpl never.
Arguments cntn {A} t : simpl never.
Global Typeclasses Opaque lay lays lay_ctx.
Global Opaque lay lays.
