(** CmpProofs.v — comparison, hashing and printing of the modelled code compute the functions of CmpSpec.v. *)
From Coq Require Import Ascii String.
From stdpp Require Import base gmap list.
From Verif Require Import Spec ClientSpec Machine NodeModel BfsModel CmpModel CmpSpec ClientModel Reach Sep Rep NodeProofs Inv Abs ClientProofs BfsBuild BfsIter ClientRef ClientStep ClientRead ClientProps.

Section cmp.
Context {A : Type}.
Implicit Types (W : list (atree A)) (s : mem A) (E : list (ptr * node A)) (t u k : atree A) (ks : list (atree A)) (C : ctx A)
  (x y : tree A) (xs ys : list (tree A)).

(** boolean structural equality, used only in the proofs *)
Definition list_eqb {X} (e : X -> X -> bool) : list X -> list X -> bool :=
  fix go l l' := match l, l' with [], [] => true | x :: l, y :: l' => e x y && go l l' | _, _ => false end.
Fixpoint tree_eqb (e : A -> A -> bool) x y : bool :=
  match x, y with Tr a ts, Tr b us => e a b && list_eqb (tree_eqb e) ts us end.

Lemma list_eqb_spec {X} (e : X -> X -> bool) (R : X -> X -> Prop) (l : list X) : Forall (fun x : X => forall y : X, e x y = true <-> R x y) l ->
  forall l' : list X, list_eqb e l l' = true <-> Forall2 R l l'.
Proof.
  intros H. induction H as [|x l Hx H IH]; intros [|y l']; simpl.
  - split; [constructor|done].
  - split; [done|intros H'; inversion H'].
  - split; [done|intros H'; inversion H'].
  - rewrite andb_true_iff, Hx, IH. split; [intros []; by constructor|intros H'; inversion H'; by subst].
Qed.
Lemma tree_eqb_spec e x : forall y, tree_eqb e x y = true <-> tree_rel (fun a b => e a b = true) x y.
Proof.
  induction x as [a ts IH] using tree_ind'. intros [b us]. cbn [tree_eqb]. rewrite andb_true_iff, (list_eqb_spec _ _ _ IH).
  split; [intros []; by constructor|intros H; inversion H; by subst].
Qed.

Section run.
Context (s : mem A) (W : list (atree A)) (E : list (ptr * node A)) (HI : MInvX s W E).
Local Notation G := (S (size (m_heap s))).

Lemma kid_bound C p pl v ks : located W C (AN p pl v ks) -> length ks < G.
Proof. intros Hl. pose proof (located_size _ _ _ _ _ Hl HI) as H. rewrite cntn_eq in H. pose proof (length_cnts ks). lia. Qed.
Lemma elem_cnt k ks : k ∈ ks -> cntn k <= cnts ks.
Proof. intros Hk. apply elem_of_list_split in Hk as (l1 & l2 & ->). rewrite cnts_app, cnts_cons. lia. Qed.

(** what the elements of two sibling lists must satisfy *)
Definition ok2 {X} (fn : ptr -> ptr -> M A X) (sp : tree A -> tree A -> X) ks : Prop :=
  forall k x u y C', k ∈ ks -> rt k x -> rt u y -> located W C' u -> fn (aptr k) (aptr u) s = Ok (sp x y) s.

Lemma iter_eq_run eqn e g : forall ks ks' xs ys a b, ok2 eqn e ks -> crel W a ks -> crel W b ks' -> Forall2 rt ks xs -> Forall2 rt ks' ys -> length ks < g ->
  iter_eq eqn g a b s = Ok (list_eqb e xs ys) s.
Proof.
  induction g as [|g IH]; intros ks ks' xs ys a b He Ha Hb Hx Hy Hg; [lia|]. cbn [iter_eq].
  destruct Hx as [|k x ks xs Hk Hx]; destruct Hy as [|k' y ks' ys Hk' Hy].
  - unfold bind at 1. rewrite (crel_nil _ _ s Ha). unfold bind at 1. rewrite (crel_nil _ _ s Hb). done.
  - unfold bind at 1. rewrite (crel_nil _ _ s Ha). destruct (crel_cons _ _ _ _ _ _ Hb HI) as (b' & Hn & _). unfold bind at 1. rewrite Hn. done.
  - destruct (crel_cons _ _ _ _ _ _ Ha HI) as (a' & Hn & _). unfold bind at 1. rewrite Hn. unfold bind at 1. rewrite (crel_nil _ _ s Hb). done.
  - destruct (crel_cons _ _ _ _ _ _ Ha HI) as (a' & Hn & Ha'). destruct (crel_cons _ _ _ _ _ _ Hb HI) as (b' & Hn' & Hb').
    unfold bind at 1. rewrite Hn. unfold bind at 1. rewrite Hn'. cbn [fst snd].
    destruct (chain_located W (k' :: ks') k') as [C' Hl']; [apply Hb|left|].
    unfold bind. rewrite (He k x k' y C' ltac:(left) Hk Hk' Hl'). simpl list_eqb. destruct (e x y); [|done]. simpl.
    apply (IH ks ks'); try done; [|simpl in Hg; lia]. intros k0 x0 u0 y0 C0 H0. apply He. by right.
Qed.
Lemma iter_pcmp_run cn e g : forall ks ks' xs ys a b, ok2 cn e ks -> crel W a ks -> crel W b ks' -> Forall2 rt ks xs -> Forall2 rt ks' ys -> length ks < g ->
  iter_pcmp cn g a b s = Ok (plex e xs ys) s.
Proof.
  induction g as [|g IH]; intros ks ks' xs ys a b He Ha Hb Hx Hy Hg; [lia|]. cbn [iter_pcmp].
  destruct Hx as [|k x ks xs Hk Hx]; destruct Hy as [|k' y ks' ys Hk' Hy].
  - unfold bind at 1. rewrite (crel_nil _ _ s Ha). unfold bind at 1. rewrite (crel_nil _ _ s Hb). done.
  - unfold bind at 1. rewrite (crel_nil _ _ s Ha). destruct (crel_cons _ _ _ _ _ _ Hb HI) as (b' & Hn & _). unfold bind at 1. rewrite Hn. done.
  - destruct (crel_cons _ _ _ _ _ _ Ha HI) as (a' & Hn & _). unfold bind at 1. rewrite Hn. unfold bind at 1. rewrite (crel_nil _ _ s Hb). done.
  - destruct (crel_cons _ _ _ _ _ _ Ha HI) as (a' & Hn & Ha'). destruct (crel_cons _ _ _ _ _ _ Hb HI) as (b' & Hn' & Hb').
    unfold bind at 1. rewrite Hn. unfold bind at 1. rewrite Hn'. cbn [fst snd].
    destruct (chain_located W (k' :: ks') k') as [C' Hl']; [apply Hb|left|].
    unfold bind. rewrite (He k x k' y C' ltac:(left) Hk Hk' Hl'). simpl plex. destruct (e x y) as [[]|]; try done. 
    apply (IH ks ks'); try done; [|simpl in Hg; lia]. intros k0 x0 u0 y0 C0 H0. apply He. by right.
Qed.
Lemma iter_cmp_run cn e g : forall ks ks' xs ys a b, ok2 cn e ks -> crel W a ks -> crel W b ks' -> Forall2 rt ks xs -> Forall2 rt ks' ys -> length ks < g ->
  iter_cmp cn g a b s = Ok (lex e xs ys) s.
Proof.
  induction g as [|g IH]; intros ks ks' xs ys a b He Ha Hb Hx Hy Hg; [lia|]. cbn [iter_cmp].
  destruct Hx as [|k x ks xs Hk Hx]; destruct Hy as [|k' y ks' ys Hk' Hy].
  - unfold bind at 1. rewrite (crel_nil _ _ s Ha). unfold bind at 1. rewrite (crel_nil _ _ s Hb). done.
  - unfold bind at 1. rewrite (crel_nil _ _ s Ha). destruct (crel_cons _ _ _ _ _ _ Hb HI) as (b' & Hn & _). unfold bind at 1. rewrite Hn. done.
  - destruct (crel_cons _ _ _ _ _ _ Ha HI) as (a' & Hn & _). unfold bind at 1. rewrite Hn. unfold bind at 1. rewrite (crel_nil _ _ s Hb). done.
  - destruct (crel_cons _ _ _ _ _ _ Ha HI) as (a' & Hn & Ha'). destruct (crel_cons _ _ _ _ _ _ Hb HI) as (b' & Hn' & Hb').
    unfold bind at 1. rewrite Hn. unfold bind at 1. rewrite Hn'. cbn [fst snd].
    destruct (chain_located W (k' :: ks') k') as [C' Hl']; [apply Hb|left|].
    unfold bind. rewrite (He k x k' y C' ltac:(left) Hk Hk' Hl'). simpl lex. destruct (e x y); try done. 
    apply (IH ks ks'); try done; [|simpl in Hg; lia]. intros k0 x0 u0 y0 C0 H0. apply He. by right.
Qed.

Lemma node_eq_run eqA f : forall t x C u y C', cntn t <= f -> rt t x -> located W C t -> rt u y -> located W C' u ->
  node_eq_ eqA G f (aptr t) (aptr u) s = Ok (tree_eqb eqA x y) s.
Proof.
  induction f as [|f IH]; intros t x C u y C' Hf Ht Hl Hu Hl'; [rewrite cntn_akids in Hf; lia|]. cbn [node_eq_].
  inversion Ht as [p pl v ks xs Hks]; inversion Hu as [q ql w us ys Hus]; subst. cbn [aptr].
  unfold bind at 1. rewrite (located_data _ _ _ _ _ _ _ _ Hl HI). unfold bind at 1. rewrite (located_data _ _ _ _ _ _ _ _ Hl' HI).
  cbn [tree_eqb]. destruct (eqA v w); [|done]. 
  destruct (crel_iter _ _ _ _ _ _ _ _ Hl HI) as (a & Ha & Hra). destruct (crel_iter _ _ _ _ _ _ _ _ Hl' HI) as (b & Hb & Hrb).
  unfold bind at 1. rewrite Ha. unfold bind at 1. rewrite Hb. cbn [andb].
  apply (iter_eq_run _ _ _ ks us); try done; [|by eapply kid_bound].
  intros k x u y C0 Hk Hkx Huy Hl0. destruct (chain_located W ks k) as [Ck Hlk]; [by eapply chain_kids|done|].
  eapply IH; [|done..]. rewrite cntn_eq in Hf. pose proof (elem_cnt _ _ Hk). lia.
Qed.
Lemma node_pcmp_run pc f : forall t x C u y C', cntn t <= f -> rt t x -> located W C t -> rt u y -> located W C' u ->
  node_pcmp_ pc G f (aptr t) (aptr u) s = Ok (tree_pcmp pc x y) s.
Proof.
  induction f as [|f IH]; intros t x C u y C' Hf Ht Hl Hu Hl'; [rewrite cntn_akids in Hf; lia|]. cbn [node_pcmp_].
  inversion Ht as [p pl v ks xs Hks]; inversion Hu as [q ql w us ys Hus]; subst. cbn [aptr].
  unfold bind at 1. rewrite (located_data _ _ _ _ _ _ _ _ Hl HI). unfold bind at 1. rewrite (located_data _ _ _ _ _ _ _ _ Hl' HI).
  cbn [tree_pcmp]. destruct (pc v w) as [[]|]; try done.
  destruct (crel_iter _ _ _ _ _ _ _ _ Hl HI) as (a & Ha & Hra). destruct (crel_iter _ _ _ _ _ _ _ _ Hl' HI) as (b & Hb & Hrb).
  unfold bind at 1. rewrite Ha. unfold bind at 1. rewrite Hb.
  apply (iter_pcmp_run _ _ _ ks us); try done; [|by eapply kid_bound].
  intros k x u y C0 Hk Hkx Huy Hl0. destruct (chain_located W ks k) as [Ck Hlk]; [by eapply chain_kids|done|].
  eapply IH; [|done..]. rewrite cntn_eq in Hf. pose proof (elem_cnt _ _ Hk). lia.
Qed.
Lemma node_cmp_run pc f : forall t x C u y C', cntn t <= f -> rt t x -> located W C t -> rt u y -> located W C' u ->
  node_cmp_ pc G f (aptr t) (aptr u) s = Ok (tree_cmp pc x y) s.
Proof.
  induction f as [|f IH]; intros t x C u y C' Hf Ht Hl Hu Hl'; [rewrite cntn_akids in Hf; lia|]. cbn [node_cmp_].
  inversion Ht as [p pl v ks xs Hks]; inversion Hu as [q ql w us ys Hus]; subst. cbn [aptr].
  unfold bind at 1. rewrite (located_data _ _ _ _ _ _ _ _ Hl HI). unfold bind at 1. rewrite (located_data _ _ _ _ _ _ _ _ Hl' HI).
  cbn [tree_cmp]. destruct (pc v w); try done.
  destruct (crel_iter _ _ _ _ _ _ _ _ Hl HI) as (a & Ha & Hra). destruct (crel_iter _ _ _ _ _ _ _ _ Hl' HI) as (b & Hb & Hrb).
  unfold bind at 1. rewrite Ha. unfold bind at 1. rewrite Hb.
  apply (iter_cmp_run _ _ _ ks us); try done; [|by eapply kid_bound].
  intros k x u y C0 Hk Hkx Huy Hl0. destruct (chain_located W ks k) as [Ck Hlk]; [by eapply chain_kids|done|].
  eapply IH; [|done..]. rewrite cntn_eq in Hf. pose proof (elem_cnt _ _ Hk). lia.
Qed.

(** one sibling list *)
Definition ok1 {X} (fn : ptr -> M A X) (sp : tree A -> X) ks : Prop :=
  forall k x, k ∈ ks -> rt k x -> fn (aptr k) s = Ok (sp x) s.
Lemma iter_hash_run {B} (hn : ptr -> M A (list B)) e g : forall ks xs a, ok1 hn e ks -> crel W a ks -> Forall2 rt ks xs -> length ks < g ->
  iter_hash hn g a s = Ok (flat_map e xs) s.
Proof.
  induction g as [|g IH]; intros ks xs a He Ha Hx Hg; [lia|]. cbn [iter_hash]. destruct Hx as [|k x ks xs Hk Hx].
  - unfold bind at 1. rewrite (crel_nil _ _ s Ha). done.
  - destruct (crel_cons _ _ _ _ _ _ Ha HI) as (a' & Hn & Ha'). unfold bind at 1. rewrite Hn. cbn [fst snd].
    unfold bind at 1. rewrite (He k x ltac:(left) Hk). unfold bind. rewrite (IH ks xs); [done| |done..|simpl in Hg; lia].
    intros k0 x0 H0. apply He. by right.
Qed.
Lemma iter_fmt_run (hn : ptr -> M A string) e g : forall ks xs a, ok1 hn e ks -> crel W a ks -> Forall2 rt ks xs -> length ks < g ->
  iter_fmt hn g a s = Ok (fold_right (fun (k : tree A) w => e k ++ " " ++ w)%string ""%string xs) s.
Proof.
  induction g as [|g IH]; intros ks xs a He Ha Hx Hg; [lia|]. cbn [iter_fmt]. destruct Hx as [|k x ks xs Hk Hx].
  - unfold bind at 1. rewrite (crel_nil _ _ s Ha). done.
  - destruct (crel_cons _ _ _ _ _ _ Ha HI) as (a' & Hn & Ha'). unfold bind at 1. rewrite Hn. cbn [fst snd].
    unfold bind at 1. rewrite (He k x ltac:(left) Hk). unfold bind. rewrite (IH ks xs); [done| |done..|simpl in Hg; lia].
    intros k0 x0 H0. apply He. by right.
Qed.
Lemma node_hash_run {B} (h : A -> list B) f : forall t x C, cntn t <= f -> rt t x -> located W C t ->
  node_hash_ h G f (aptr t) s = Ok (flat_map h (preorder x)) s.
Proof.
  induction f as [|f IH]; intros t x C Hf Ht Hl; [rewrite cntn_akids in Hf; lia|]. cbn [node_hash_].
  inversion Ht as [p pl v ks xs Hks]; subst. cbn [aptr].
  unfold bind at 1. rewrite (located_data _ _ _ _ _ _ _ _ Hl HI). destruct (crel_iter _ _ _ _ _ _ _ _ Hl HI) as (a & Ha & Hra).
  unfold bind at 1. rewrite Ha. unfold bind. rewrite (iter_hash_run _ (fun x => flat_map h (preorder x)) _ ks xs); [|..|done|done|by eapply kid_bound].
  - cbn [preorder flat_map]. unfold ret. do 2 f_equal. clear. induction xs as [|x xs IH]; [done|]. cbn [flat_map]. by rewrite flat_map_app, IH.
  - intros k x Hk Hkx. destruct (chain_located W ks k) as [Ck Hlk]; [by eapply chain_kids|done|].
    eapply IH; [|done..]. rewrite cntn_eq in Hf. pose proof (elem_cnt _ _ Hk). lia.
Qed.
Lemma hnc_run C p pl v ks : located W C (AN p pl v ks) -> has_no_child p s = Ok (match ks with [] => true | _ => false end) s.
Proof. intros Hl. destruct (located_inv _ _ _ _ _ Hl HI) as [W' H']. by apply (has_no_child_at s C p pl v ks W' E). Qed.
Lemma node_fmt_run show f : forall t x C, cntn t <= f -> rt t x -> located W C t ->
  node_fmt_ show G f (aptr t) s = Ok (display show x) s.
Proof.
  induction f as [|f IH]; intros t x C Hf Ht Hl; [rewrite cntn_akids in Hf; lia|]. cbn [node_fmt_].
  inversion Ht as [p pl v ks xs Hks]; subst. cbn [aptr]. unfold bind at 1. rewrite (hnc_run _ _ _ _ _ Hl).
  destruct Hks as [|k x ks xs Hk Hks].
  - unfold bind. rewrite (located_data _ _ _ _ _ _ _ _ Hl HI). done.
  - unfold bind at 1. rewrite (located_data _ _ _ _ _ _ _ _ Hl HI). destruct (crel_iter _ _ _ _ _ _ _ _ Hl HI) as (a & Ha & Hra).
    unfold bind at 1. rewrite Ha. unfold bind. rewrite (iter_fmt_run _ (display show) _ (k :: ks) (x :: xs)); [done|..|done|by constructor|by eapply kid_bound].
    intros k0 x0 Hk0 Hkx. destruct (chain_located W (k :: ks) k0) as [Ck Hlk]; [by eapply chain_kids|done|].
    eapply IH; [|done..]. rewrite cntn_eq in Hf. pose proof (elem_cnt _ _ Hk0). lia.
Qed.
End run.

(** ** on client states *)
Lemma node_kids it path x : node_at it path = Some x -> kids_at it path = Some (kids x).
Proof.
  destruct it as [u|us]; simpl; [by intros ->|]. destruct path as [|i path]; [done|]. destruct (us !! i); [|done]. by intros ->.
Qed.
(** one world for all the nodes *)
Lemma at_world c env : reachable c -> contents c env -> exists W, MInvX (c_mem c) W [] /\
  (forall p x, node_is c env p x -> exists C t, located W C t /\ rt t x /\ aptr t = p) /\
  (forall p xs, forest_is c env p xs -> exists C pl ks, located W C (AN p pl None ks) /\ Forall2 rt ks xs).
Proof.
  intros Hr Hc. destruct (reachable_contents _ _ Hr Hc) as (Wm & HR & _). exists (vals Wm). split; [apply HR|].
  assert (Hgen : forall h hd path p it xs, env !! h = Some it -> c_env c !! h = Some hd -> resolve (addr hd) path (c_mem c) = Ok (Some p) (c_mem c) ->
    kids_at it path = Some xs -> exists C pl v ks, located (vals Wm) C (AN p pl v ks) /\ Forall2 rt ks xs /\
      node_at it path = (match v with Some a => Some (Tr a xs) | None => None end)).
  { intros h hd path p it xs Hh Hhd Hres Hk.
    pose proof (RE_lookup _ _ _ _ h HR) as H. cbn [s_env] in H. rewrite Hh in H.
    destruct H as (t & Ht & Hri & Henv & _). rewrite Hhd in Henv. simplify_eq.
    pose proof (RE_locate _ _ _ _ _ _ _ path HR Ht Hri) as HL. rewrite Hk in HL.
    destruct HL as (C & p' & pl & v & ks & Heq & Haf & Hres' & HI & Hks & _ & Hn & _ & Hroot).
    rewrite Hres in Hres'. simplify_eq. exists C, pl, v, ks. split_and!; [|done..].
    eexists. symmetry. by apply vals_delete. }
  split.
  - intros p x (h & hd & it & path & Hh & Hhd & Hres & Hn).
    destruct (Hgen _ _ _ _ _ _ Hh Hhd Hres (node_kids _ _ _ Hn)) as (C & pl & v & ks & Hl & Hks & Hn').
    rewrite Hn in Hn'. destruct v as [a|]; [|done]. simplify_eq.
    exists C, (AN p pl (Some a) ks). split_and!; [done| |done]. rewrite Hn'. by constructor.
  - intros p xs (h & Hh & Hhd). destruct (Hgen h (HF p) [] p (IForest xs) xs Hh Hhd) as (C & pl & v & ks & Hl & Hks & Hn'); [done..|].
    destruct v; [done|]. eauto.
Qed.

Section calls.
Context (c : cst A) (env : gmap nat (item A)) (Hr : reachable c) (Hc : contents c env).

Ltac world := destruct (at_world c env Hr Hc) as (W & HI & Hnode & Hforest).
Ltac two Hnode Hp Hq := destruct (Hnode _ _ Hp) as (C & t & Hl & Ht & <-); destruct (Hnode _ _ Hq) as (C' & u & Hl' & Hu & <-);
  unfold returns, node_eq, node_pcmp, node_cmp; unfold bind at 1; unfold fuel at 1, gets at 1; cbv beta iota.

Lemma located_bound W C t : located W C t -> MInvX (c_mem c) W [] -> cntn t <= S (size (m_heap (c_mem c))).
Proof. intros Hl HI. pose proof (located_size _ _ _ _ _ Hl HI). lia. Qed.

Lemma call_node_eq eqA p q x y : node_is c env p x -> node_is c env q y -> returns c (node_eq eqA p q) (tree_eqb eqA x y).
Proof.
  world. intros Hp Hq. two Hnode Hp Hq. eapply (node_eq_run _ _ _ HI); try done. by eapply located_bound.
Qed.
Lemma call_node_pcmp cm p q x y : node_is c env p x -> node_is c env q y -> returns c (node_pcmp cm p q) (tree_pcmp cm x y).
Proof.
  world. intros Hp Hq. two Hnode Hp Hq. eapply (node_pcmp_run _ _ _ HI); try done. by eapply located_bound.
Qed.
Lemma call_node_cmp cm p q x y : node_is c env p x -> node_is c env q y -> returns c (node_cmp cm p q) (tree_cmp cm x y).
Proof.
  world. intros Hp Hq. two Hnode Hp Hq. eapply (node_cmp_run _ _ _ HI); try done. by eapply located_bound.
Qed.
Lemma call_node_hash {B} (h : A -> list B) p x : node_is c env p x -> returns c (node_hash h p) (flat_map h (preorder x)).
Proof.
  world. intros Hp. destruct (Hnode _ _ Hp) as (C & t & Hl & Ht & <-). unfold returns, node_hash. unfold bind at 1; unfold fuel at 1, gets at 1; cbv beta iota.
  eapply (node_hash_run _ _ _ HI); try done. by eapply located_bound.
Qed.
Lemma call_node_fmt show p x : node_is c env p x -> returns c (node_fmt show p) (display show x).
Proof.
  world. intros Hp. destruct (Hnode _ _ Hp) as (C & t & Hl & Ht & <-). unfold returns, node_fmt. unfold bind at 1; unfold fuel at 1, gets at 1; cbv beta iota.
  eapply (node_fmt_run _ _ _ HI); try done. by eapply located_bound.
Qed.

Lemma ok2_kids {X} (fn : ptr -> ptr -> M A X) (sp : tree A -> tree A -> X) W C p pl v ks : MInvX (c_mem c) W [] -> located W C (AN p pl v ks) ->
  (forall t x C u y C', cntn t <= S (size (m_heap (c_mem c))) -> rt t x -> located W C t -> rt u y -> located W C' u -> fn (aptr t) (aptr u) (c_mem c) = Ok (sp x y) (c_mem c)) ->
  ok2 (c_mem c) W fn sp ks.
Proof.
  intros HI Hl H k x u y C' Hk Hkx Huy Hlu. destruct (chain_located W ks k) as [Ck Hlk]; [by eapply chain_kids|done|].
  eapply H; try done. by eapply located_bound.
Qed.
Lemma ok1_kids {X} (fn : ptr -> M A X) (sp : tree A -> X) W C p pl v ks : MInvX (c_mem c) W [] -> located W C (AN p pl v ks) ->
  (forall t x C, cntn t <= S (size (m_heap (c_mem c))) -> rt t x -> located W C t -> fn (aptr t) (c_mem c) = Ok (sp x) (c_mem c)) ->
  ok1 (c_mem c) fn sp ks.
Proof.
  intros HI Hl H k x Hk Hkx. destruct (chain_located W ks k) as [Ck Hlk]; [by eapply chain_kids|done|].
  eapply H; try done. by eapply located_bound.
Qed.
Ltac two_iters HI Hl Hl' := 
  destruct (crel_iter _ _ _ _ _ _ _ _ Hl HI) as (a & Ha & Hra); destruct (crel_iter _ _ _ _ _ _ _ _ Hl' HI) as (b & Hb & Hrb);
  unfold bind at 1; rewrite Ha; unfold bind at 1; rewrite Hb.

(** the children of two nodes *)
Lemma kids_eq eqA W C p pl v ks C' q ql w us xs ys : MInvX (c_mem c) W [] ->
  located W C (AN p pl v ks) -> located W C' (AN q ql w us) -> Forall2 rt ks xs -> Forall2 rt us ys ->
  forest_eq eqA p q (c_mem c) = Ok (list_eqb (tree_eqb eqA) xs ys) (c_mem c).
Proof.
  intros HI Hl Hl' Hx Hy. unfold forest_eq. unfold bind at 1; unfold fuel at 1, gets at 1; cbv beta iota. two_iters HI Hl Hl'.
  apply (iter_eq_run _ _ _ HI _ _ _ ks us); try done; [|by eapply kid_bound].
  eapply ok2_kids; [done..|]. intros. by eapply (node_eq_run _ _ _ HI).
Qed.
Lemma call_forest_eq eqA p q xs ys : forest_is c env p xs -> forest_is c env q ys -> returns c (forest_eq eqA p q) (list_eqb (tree_eqb eqA) xs ys).
Proof.
  world. intros Hp Hq. destruct (Hforest _ _ Hp) as (C & pl & ks & Hl & Hx). destruct (Hforest _ _ Hq) as (C' & ql & us & Hl' & Hy).
  by eapply kids_eq.
Qed.
Lemma call_forest_ne eqA p q xs ys : forest_is c env p xs -> forest_is c env q ys -> returns c (forest_ne eqA p q) (negb (list_eqb (tree_eqb eqA) xs ys)).
Proof. intros Hp Hq. unfold returns, forest_ne, bind. by rewrite (call_forest_eq _ _ _ _ _ Hp Hq). Qed.
Lemma call_node_ne eqA neA p q x y : node_is c env p x -> node_is c env q y ->
  returns c (node_ne eqA neA p q) (neA (root_of x) (root_of y) || negb (list_eqb (tree_eqb eqA) (kids x) (kids y))).
Proof.
  world. intros Hp Hq. destruct (Hnode _ _ Hp) as (C & t & Hl & Ht & <-); destruct (Hnode _ _ Hq) as (C' & u & Hl' & Hu & <-).
  inversion Ht as [p pl v ks xs Hks]; inversion Hu as [q ql w us ys Hus]; subst. cbn [aptr] in *.
  unfold returns, node_ne. unfold bind at 1. rewrite (located_data _ _ _ _ _ _ _ _ Hl HI). unfold bind at 1. rewrite (located_data _ _ _ _ _ _ _ _ Hl' HI).
  cbn [root_of kids]. destruct (neA v w); [done|]. cbn [orb].
  pose proof (kids_eq eqA W C p pl _ ks C' q ql _ us xs ys HI Hl Hl' Hks Hus) as H. unfold forest_eq in H.
  unfold bind in *. unfold fuel, gets in *.
  destruct (iter p (c_mem c)) as [a s1|] eqn:Ha; [|done]. destruct (iter q s1) as [b s2|] eqn:Hb; [|done]. by rewrite H.
Qed.
Lemma call_forest_pcmp cm p q xs ys : forest_is c env p xs -> forest_is c env q ys -> returns c (forest_pcmp cm p q) (plex (tree_pcmp cm) xs ys).
Proof.
  world. intros Hp Hq. destruct (Hforest _ _ Hp) as (C & pl & ks & Hl & Hx). destruct (Hforest _ _ Hq) as (C' & ql & us & Hl' & Hy).
  unfold returns, forest_pcmp. unfold bind at 1; unfold fuel at 1, gets at 1; cbv beta iota. two_iters HI Hl Hl'.
  apply (iter_pcmp_run _ _ _ HI _ _ _ ks us); try done; [|by eapply kid_bound].
  eapply ok2_kids; [done..|]. intros. by eapply (node_pcmp_run _ _ _ HI).
Qed.
Lemma call_forest_cmp cm p q xs ys : forest_is c env p xs -> forest_is c env q ys -> returns c (forest_cmp cm p q) (lex (tree_cmp cm) xs ys).
Proof.
  world. intros Hp Hq. destruct (Hforest _ _ Hp) as (C & pl & ks & Hl & Hx). destruct (Hforest _ _ Hq) as (C' & ql & us & Hl' & Hy).
  unfold returns, forest_cmp. unfold bind at 1; unfold fuel at 1, gets at 1; cbv beta iota. two_iters HI Hl Hl'.
  apply (iter_cmp_run _ _ _ HI _ _ _ ks us); try done; [|by eapply kid_bound].
  eapply ok2_kids; [done..|]. intros. by eapply (node_cmp_run _ _ _ HI).
Qed.
Lemma call_forest_hash {B} (h : A -> list B) p xs : forest_is c env p xs -> returns c (forest_hash h p) (flat_map h (flat_map preorder xs)).
Proof.
  world. intros Hp. destruct (Hforest _ _ Hp) as (C & pl & ks & Hl & Hx).
  unfold returns, forest_hash. unfold bind at 1; unfold fuel at 1, gets at 1; cbv beta iota. destruct (crel_iter _ _ _ _ _ _ _ _ Hl HI) as (a & Ha & Hra).
  unfold bind at 1; rewrite Ha. rewrite (iter_hash_run _ _ _ HI _ (fun x => flat_map h (preorder x)) _ ks xs); [|..|done|done|by eapply kid_bound].
  - do 2 f_equal. clear. induction xs as [|x xs IH]; [done|]. cbn [flat_map]. by rewrite flat_map_app, IH.
  - eapply ok1_kids; [done..|]. intros. by eapply (node_hash_run _ _ _ HI).
Qed.
Lemma call_forest_fmt show p xs : forest_is c env p xs -> returns c (forest_fmt show p) (display_f show xs).
Proof.
  world. intros Hp. destruct (Hforest _ _ Hp) as (C & pl & ks & Hl & Hx).
  unfold returns, forest_fmt. unfold bind at 1. rewrite (hnc_run _ _ _ HI _ _ _ _ _ Hl). destruct Hx as [|k x ks xs Hk Hks]; [done|].
  unfold bind at 1; unfold fuel at 1, gets at 1; cbv beta iota. destruct (crel_iter _ _ _ _ _ _ _ _ Hl HI) as (a & Ha & Hra).
  unfold bind at 1; rewrite Ha. unfold bind. rewrite (iter_fmt_run _ _ _ HI _ (display show) _ (k :: ks) (x :: xs)); [done|..|done|by constructor|by eapply kid_bound].
  eapply ok1_kids; [done..|]. intros. by eapply (node_fmt_run _ _ _ HI).
Qed.
End calls.
End cmp.
