(** StackProofs.v — the depth of the call stack. *)
From Coq Require Import Ascii String.
From stdpp Require Import base gmap list.
From Verif Require Import Spec ClientSpec Machine NodeModel BfsModel CmpModel CmpSpec ClientModel Reach Sep Rep NodeProofs Inv Abs ClientProofs BfsBuild BfsIter ClientRef ClientStep ClientRead ClientProps CmpProofs StackModel.

Section stack.
Context {A : Type}.
Implicit Types (W : list (atree A)) (s : mem A) (E : list (ptr * node A)) (t u k : atree A) (ks : list (atree A)) (C : ctx A)
  (x y : tree A) (xs ys : list (tree A)).

(** the height of a tree in memory, the root of a forest counts as a node *)
Fixpoint aheight t : nat := let 'AN _ _ _ ks := t in S (list_max (map aheight ks)).
Lemma aheight_eq p pl v ks : aheight (AN p pl v ks) = S (list_max (map aheight ks)).
Proof. done. Qed.
Lemma rt_height t : forall x, rt t x -> aheight t = height x.
Proof.
  induction t as [p pl v ks IH] using atree_ind'. intros x Hx. inversion Hx as [p' pl' a ks' xs Hks]; subst. rewrite aheight_eq. cbn [height]. f_equal. f_equal.
  clear Hx. induction Hks as [|k y ks ys Hk _ IHl]; [done|]. inversion IH; subst. cbn. f_equal; auto.
Qed.

Lemma drop_kids_ok D ks : (forall s W E t, aheight t <= D -> MInvX s (t :: W) E -> forall f, cntn t <= f -> exists s', drop_loop f (aptr t) s = Ok tt s' /\ drop_stack D (aptr t) s = Ok tt s' /\ MInvX s' W E) ->
  forall s W E p pl v f g, list_max (map aheight ks) <= D -> MInvX s (AN p pl v ks :: W) E -> cntn (AN p pl v ks) <= f -> length ks < g ->
  exists s1 s', drop_loop f p s = Ok tt s' /\ drop_kids (drop_stack D) g p s = Ok tt s1 /\ drop_node p s1 = Ok tt s' /\ MInvX s' W E.
Proof.
  intros Hd. induction ks as [|k ks IH]; intros s W E p pl v f g Hh H Hf Hg; (destruct f as [|f]; [rewrite cntn_eq in Hf; lia|]); (destruct g as [|g]; [simpl in Hg; lia|]); cbn [drop_loop drop_kids]; unfold bind.
  - rewrite (pop_front_root_none _ _ _ _ pl v H). destruct (drop_node_spec _ _ _ _ _ _ H) as (s1 & E1 & HI1 & _). exists s, s1. done.
  - destruct (pop_front_root_some _ _ _ _ _ _ _ _ H) as (h & -> & H1). rewrite cntn_eq, cnts_cons in Hf. cbn [map list_max] in Hh. change (list_max (aheight k :: map aheight ks)) with (Nat.max (aheight k) (list_max (map aheight ks))) in Hh.
    destruct (Hd _ _ _ k ltac:(lia) H1 f ltac:(lia)) as (s1 & E1 & E2 & HI1). rewrite E1, E2.
    apply (IH s1 W E p pl v f g); [lia|done|rewrite cntn_eq; rewrite ?cntn_akids in Hf; lia|simpl in Hg; lia].
Qed.
Lemma drop_stack_ok D : forall s W E t, aheight t <= D -> MInvX s (t :: W) E -> forall f, cntn t <= f -> exists s', drop_loop f (aptr t) s = Ok tt s' /\ drop_stack D (aptr t) s = Ok tt s' /\ MInvX s' W E.
Proof.
  induction D as [|D IH]; intros s W E [p pl v ks] Hh H f Hf; rewrite aheight_eq in Hh; [lia|].
  destruct (drop_kids_ok D ks IH s W E p pl v f (S (size (m_heap s))) ltac:(lia) H Hf) as (s1 & s' & E1 & E2 & E3 & HI).
  { pose proof (MInv_size _ _ _ _ H) as Hs. rewrite cntn_eq in Hs. pose proof (length_cnts ks). lia. }
  exists s'. split; [done|]. split; [|done]. cbn [drop_stack aptr]. unfold bind, fuel, gets. by rewrite E2.
Qed.
Lemma drop_kids_over D ks : (forall s W E t, D < aheight t -> MInvX s (t :: W) E -> drop_stack D (aptr t) s = Err EStack) ->
  forall s W E p pl v g, D < list_max (map aheight ks) -> MInvX s (AN p pl v ks :: W) E -> length ks < g -> drop_kids (drop_stack D) g p s = Err EStack.
Proof.
  intros Hd. induction ks as [|k ks IH]; intros s W E p pl v g Hh H Hg; [cbn in Hh; lia|]. destruct g as [|g]; [simpl in Hg; lia|]. cbn [drop_kids]; unfold bind.
  destruct (pop_front_root_some _ _ _ _ _ _ _ _ H) as (h & -> & H1). change (list_max (map aheight (k :: ks))) with (Nat.max (aheight k) (list_max (map aheight ks))) in Hh.
  destruct (decide (aheight k <= D)) as [Hk|Hk].
  - destruct (drop_stack_ok D _ _ _ k Hk H1 (cntn k) ltac:(done)) as (s1 & _ & E2 & HI1). rewrite E2. apply (IH s1 W E p pl v g); [lia|done|simpl in Hg; lia].
  - by rewrite (Hd _ _ _ k ltac:(lia) H1).
Qed.
Lemma drop_stack_over D : forall s W E t, D < aheight t -> MInvX s (t :: W) E -> drop_stack D (aptr t) s = Err EStack.
Proof.
  induction D as [|D IH]; intros s W E [p pl v ks] Hh H; rewrite aheight_eq in Hh; [done|]. cbn [drop_stack aptr]. unfold bind, fuel, gets.
  rewrite (drop_kids_over D ks IH s W E p pl v (S (size (m_heap s)))); [done|lia|done|]. pose proof (MInv_size _ _ _ _ H) as Hs. rewrite cntn_eq in Hs. pose proof (length_cnts ks). lia.
Qed.
Lemma drop_stack_spec D s W E t : MInvX s (t :: W) E -> drop_stack D (aptr t) s = if decide (aheight t <= D) then drop_tree (aptr t) s else Err EStack.
Proof.
  intros H. destruct (decide _) as [Hh|Hh]; [|apply (drop_stack_over D s W E t); [lia|done]].
  destruct (drop_stack_ok D s W E t Hh H (S (size (m_heap s)))) as (s' & E1 & E2 & _); [|unfold drop_tree, bind, fuel, gets; by rewrite E1, E2].
  pose proof (MInv_size _ _ _ _ H). lia.
Qed.

Lemma list_max_cons_le n l D : list_max (n :: l) <= D <-> n <= D /\ list_max l <= D.
Proof. change (list_max (n :: l)) with (Nat.max n (list_max l)). lia. Qed.

(** * Functions that only read *)
Section run.
Context (s : mem A) (W : list (atree A)) (E : list (ptr * node A)) (HI : MInvX s W E).
Local Notation G := (S (size (m_heap s))).
Definition lim1 {X} D (fn : ptr -> M A X) (sp : tree A -> X) ks : Prop :=
  forall k x, k ∈ ks -> rt k x -> fn (aptr k) s = if decide (height x <= D) then Ok (sp x) s else Err EStack.

Lemma iter_hash_lim {B} D (hn : ptr -> M A (list B)) e g : forall ks xs a, lim1 D hn e ks -> crel W a ks -> Forall2 rt ks xs -> length ks < g ->
  iter_hash hn g a s = if decide (list_max (map height xs) <= D) then Ok (flat_map e xs) s else Err EStack.
Proof.
  induction g as [|g IH]; intros ks xs a He Ha Hx Hg; [lia|]. cbn [iter_hash]. destruct Hx as [|k x ks xs Hk Hx].
  - unfold bind at 1. rewrite (crel_nil _ _ s Ha). cbn. rewrite decide_True by lia. done.
  - destruct (crel_cons _ _ _ _ _ _ Ha HI) as (a' & Hn & Ha'). unfold bind at 1. rewrite Hn. cbn [fst snd].
    unfold bind at 1. rewrite (He k x ltac:(left) Hk). cbn [map]. destruct (decide (height x <= D)) as [Hh|Hh].
    + unfold bind. rewrite (IH ks xs); [|intros k0 x0 H0; apply He; by right|done..|simpl in Hg; lia].
      destruct (decide (list_max (map height xs) <= D)); [rewrite decide_True by (by apply list_max_cons_le)|rewrite decide_False by (rewrite list_max_cons_le; tauto)]; done.
    + rewrite decide_False by (rewrite list_max_cons_le; tauto). done.
Qed.
Lemma iter_fmt_lim D (hn : ptr -> M A string) e g : forall ks xs a, lim1 D hn e ks -> crel W a ks -> Forall2 rt ks xs -> length ks < g ->
  iter_fmt hn g a s = if decide (list_max (map height xs) <= D) then Ok (fold_right (fun (k : tree A) w => e k ++ " " ++ w)%string ""%string xs) s else Err EStack.
Proof.
  induction g as [|g IH]; intros ks xs a He Ha Hx Hg; [lia|]. cbn [iter_fmt]. destruct Hx as [|k x ks xs Hk Hx].
  - unfold bind at 1. rewrite (crel_nil _ _ s Ha). cbn. rewrite decide_True by lia. done.
  - destruct (crel_cons _ _ _ _ _ _ Ha HI) as (a' & Hn & Ha'). unfold bind at 1. rewrite Hn. cbn [fst snd].
    unfold bind at 1. rewrite (He k x ltac:(left) Hk). cbn [map]. destruct (decide (height x <= D)) as [Hh|Hh].
    + unfold bind. rewrite (IH ks xs); [|intros k0 x0 H0; apply He; by right|done..|simpl in Hg; lia].
      destruct (decide (list_max (map height xs) <= D)); [rewrite decide_True by (by apply list_max_cons_le)|rewrite decide_False by (rewrite list_max_cons_le; tauto)]; done.
    + rewrite decide_False by (rewrite list_max_cons_le; tauto). done.
Qed.
Lemma hash_stack_run {B} (h : A -> list B) D : forall t x C, rt t x -> located W C t ->
  hash_stack h D (aptr t) s = if decide (height x <= D) then Ok (flat_map h (preorder x)) s else Err EStack.
Proof.
  induction D as [|D IH]; intros t x C Ht Hl; (inversion Ht as [p pl v ks xs Hks]; subst); cbn [aptr hash_stack height].
  - rewrite decide_False by lia. done.
  - unfold bind at 1. rewrite (located_data _ _ _ _ _ _ _ _ Hl HI). destruct (crel_iter _ _ _ _ _ _ _ _ Hl HI) as (a & Ha & Hra).
    unfold bind at 1. rewrite Ha. unfold bind at 1, fuel, gets. unfold bind. rewrite (iter_hash_lim D _ (fun x => flat_map h (preorder x)) _ ks xs); [|..|done|done|by eapply kid_bound].
    + destruct (decide (list_max (map height xs) <= D)); [rewrite decide_True by lia|rewrite decide_False by lia; done].
      cbn [preorder flat_map]. unfold ret. do 2 f_equal. clear. induction xs as [|x xs IH]; [done|]. cbn [flat_map]. by rewrite flat_map_app, IH.
    + intros k x Hk Hkx. destruct (chain_located W ks k) as [Ck Hlk]; [by eapply chain_kids|done|]. by eapply IH.
Qed.
Lemma fmt_stack_run show D : forall t x C, rt t x -> located W C t ->
  fmt_stack show D (aptr t) s = if decide (height x <= D) then Ok (display show x) s else Err EStack.
Proof.
  induction D as [|D IH]; intros t x C Ht Hl; (inversion Ht as [p pl v ks xs Hks]; subst); cbn [aptr fmt_stack height].
  - rewrite decide_False by lia. done.
  - unfold bind at 1. rewrite (hnc_run _ _ _ HI _ _ _ _ _ Hl). destruct Hks as [|k x ks xs Hk Hks].
    + unfold bind. rewrite (located_data _ _ _ _ _ _ _ _ Hl HI). cbn. rewrite decide_True by lia. done.
    + unfold bind at 1. rewrite (located_data _ _ _ _ _ _ _ _ Hl HI). destruct (crel_iter _ _ _ _ _ _ _ _ Hl HI) as (a & Ha & Hra).
      unfold bind at 1. rewrite Ha. unfold bind at 1, fuel, gets. unfold bind. rewrite (iter_fmt_lim D _ (display show) _ (k :: ks) (x :: xs)); [|..|done|by constructor|by eapply kid_bound].
      * destruct (decide (list_max (map height (x :: xs)) <= D)); [rewrite decide_True by lia|rewrite decide_False by lia]; done.
      * intros k0 x0 Hk0 Hkx. destruct (chain_located W (k :: ks) k0) as [Ck Hlk]; [by eapply chain_kids|done|]. by eapply IH.
Qed.

(** equality, of trees that are equal *)
Definition lim2 D (fn : ptr -> ptr -> M A bool) (R : tree A -> tree A -> Prop) ks : Prop :=
  forall k x u y C', k ∈ ks -> rt k x -> rt u y -> located W C' u -> R x y -> fn (aptr k) (aptr u) s = if decide (height x <= D) then Ok true s else Err EStack.
Lemma iter_eq_lim D eqn R g : forall ks ks' xs ys a b, lim2 D eqn R ks -> crel W a ks -> crel W b ks' -> Forall2 rt ks xs -> Forall2 rt ks' ys -> Forall2 R xs ys -> length ks < g ->
  iter_eq eqn g a b s = if decide (list_max (map height xs) <= D) then Ok true s else Err EStack.
Proof.
  induction g as [|g IH]; intros ks ks' xs ys a b He Ha Hb Hx Hy HR Hg; [lia|]. cbn [iter_eq].
  destruct Hx as [|k x ks xs Hk Hx]; inversion HR as [|? y ? ys' Hxy HR']; subst; inversion Hy as [|k' ? ks'' ? Hk' Hy']; subst.
  - unfold bind at 1. rewrite (crel_nil _ _ s Ha). unfold bind at 1. rewrite (crel_nil _ _ s Hb). cbn. rewrite decide_True by lia. done.
  - destruct (crel_cons _ _ _ _ _ _ Ha HI) as (a' & Hn & Ha'). destruct (crel_cons _ _ _ _ _ _ Hb HI) as (b' & Hn' & Hb').
    unfold bind at 1. rewrite Hn. unfold bind at 1. rewrite Hn'. cbn [fst snd].
    destruct (chain_located W (k' :: ks'') k') as [C' Hl']; [apply Hb|left|].
    unfold bind. rewrite (He k x k' y C' ltac:(left) Hk Hk' Hl' Hxy). cbn [map]. destruct (decide (height x <= D)) as [Hh|Hh].
    + rewrite (IH ks ks'' xs ys'); [|intros k0 x0 u0 y0 C0 H0; apply He; by right|done..|simpl in Hg; lia].
      destruct (decide (list_max (map height xs) <= D)); [rewrite decide_True by (by apply list_max_cons_le)|rewrite decide_False by (rewrite list_max_cons_le; tauto)]; done.
    + rewrite decide_False by (rewrite list_max_cons_le; tauto). done.
Qed.
Lemma eq_stack_run eqA D : forall t x C u y C', rt t x -> located W C t -> rt u y -> located W C' u -> tree_rel (fun a b => eqA a b = true) x y ->
  eq_stack eqA D (aptr t) (aptr u) s = if decide (height x <= D) then Ok true s else Err EStack.
Proof.
  induction D as [|D IH]; intros t x C u y C' Ht Hl Hu Hl' HR; (inversion Ht as [p pl v ks xs Hks]; subst); (inversion Hu as [q ql w us ys Hus]; subst); (inversion HR as [? ? ? ? Hvw HRs]; subst); cbn [aptr eq_stack height].
  - rewrite decide_False by lia. done.
  - unfold bind at 1. rewrite (located_data _ _ _ _ _ _ _ _ Hl HI). unfold bind at 1. rewrite (located_data _ _ _ _ _ _ _ _ Hl' HI). rewrite Hvw.
    destruct (crel_iter _ _ _ _ _ _ _ _ Hl HI) as (a & Ha & Hra). destruct (crel_iter _ _ _ _ _ _ _ _ Hl' HI) as (b & Hb & Hrb).
    unfold bind at 1. rewrite Ha. unfold bind at 1. rewrite Hb. unfold bind at 1, fuel, gets.
    rewrite (iter_eq_lim D _ (tree_rel (fun a b => eqA a b = true)) _ ks us xs ys); [| |done..|by eapply kid_bound].
    + destruct (decide (list_max (map height xs) <= D)); [rewrite decide_True by lia|rewrite decide_False by lia]; done.
    + intros k x' u' y' C0 Hk Hkx Hu' Hl0 HR'. destruct (chain_located W ks k) as [Ck Hlk]; [by eapply chain_kids|done|]. by eapply IH.
Qed.

(** equality, of any trees: the right result, or the stack overflows, which takes more levels in both trees than there is room for *)
Definition lim3 D (fn : ptr -> ptr -> M A bool) (e : tree A -> tree A -> bool) ks : Prop :=
  forall k x u y C', k ∈ ks -> rt k x -> rt u y -> located W C' u -> fn (aptr k) (aptr u) s = Ok (e x y) s \/ (D < height x /\ D < height y /\ fn (aptr k) (aptr u) s = Err EStack).
Lemma iter_eq_any D eqn e g : forall ks ks' xs ys a b, lim3 D eqn e ks -> crel W a ks -> crel W b ks' -> Forall2 rt ks xs -> Forall2 rt ks' ys -> length ks < g ->
  iter_eq eqn g a b s = Ok (list_eqb e xs ys) s \/ (D < list_max (map height xs) /\ D < list_max (map height ys) /\ iter_eq eqn g a b s = Err EStack).
Proof.
  induction g as [|g IH]; intros ks ks' xs ys a b He Ha Hb Hx Hy Hg; [lia|]. cbn [iter_eq].
  destruct Hx as [|k x ks xs Hk Hx]; destruct Hy as [|k' y ks' ys Hk' Hy].
  - left. unfold bind at 1. rewrite (crel_nil _ _ s Ha). unfold bind at 1. rewrite (crel_nil _ _ s Hb). done.
  - left. unfold bind at 1. rewrite (crel_nil _ _ s Ha). destruct (crel_cons _ _ _ _ _ _ Hb HI) as (b' & Hn & _). unfold bind at 1. rewrite Hn. done.
  - left. destruct (crel_cons _ _ _ _ _ _ Ha HI) as (a' & Hn & _). unfold bind at 1. rewrite Hn. unfold bind at 1. rewrite (crel_nil _ _ s Hb). done.
  - destruct (crel_cons _ _ _ _ _ _ Ha HI) as (a' & Hn & Ha'). destruct (crel_cons _ _ _ _ _ _ Hb HI) as (b' & Hn' & Hb').
    unfold bind. rewrite Hn, Hn'. cbn [fst snd].
    destruct (chain_located W (k' :: ks') k') as [C' Hl']; [apply Hb|left|].
    cbn [map].
    assert (forall (z : tree A) (zs : list (tree A)), list_max (height z :: map height zs) = Nat.max (height z) (list_max (map height zs))) as Hmax by done. rewrite !Hmax.
    destruct (He k x k' y C' ltac:(left) Hk Hk' Hl') as [->|(H1 & H2 & ->)]; [|right; split_and!; [lia|lia|done]].
    simpl list_eqb. destruct (e x y); [|by left]. simpl.
    destruct (IH ks ks' xs ys a' b') as [->|(H1 & H2 & ->)]; try done; [|simpl in Hg; lia|by left|right; split_and!; [lia|lia|done]].
    intros k0 x0 u0 y0 C0 H0. apply He. by right.
Qed.
Lemma eq_stack_any eqA D : forall t x C u y C', rt t x -> located W C t -> rt u y -> located W C' u ->
  eq_stack eqA D (aptr t) (aptr u) s = Ok (tree_eqb eqA x y) s \/ (D < height x /\ D < height y /\ eq_stack eqA D (aptr t) (aptr u) s = Err EStack).
Proof.
  induction D as [|D IH]; intros t x C u y C' Ht Hl Hu Hl'; (inversion Ht as [p pl v ks xs Hks]; subst); (inversion Hu as [q ql w us ys Hus]; subst); cbn [aptr eq_stack height].
  - right. split_and!; [lia|lia|done].
  - unfold bind. rewrite (located_data _ _ _ _ _ _ _ _ Hl HI), (located_data _ _ _ _ _ _ _ _ Hl' HI). cbn [tree_eqb]. destruct (eqA v w); [|by left].
    destruct (crel_iter _ _ _ _ _ _ _ _ Hl HI) as (a & Ha & Hra). destruct (crel_iter _ _ _ _ _ _ _ _ Hl' HI) as (b & Hb & Hrb). cbn [andb].
    rewrite Ha, Hb. unfold fuel, gets.
    destruct (iter_eq_any D (eq_stack eqA D) (tree_eqb eqA) (S (size (m_heap s))) ks us xs ys a b) as [->|(H1 & H2 & ->)]; try done; [|by eapply kid_bound|by left|right; split_and!; [lia|lia|done]].
    intros k x' u' y' C0 Hk Hkx Hu' Hl0. destruct (chain_located W ks k) as [Ck Hlk]; [by eapply chain_kids|done|]. by eapply IH.
Qed.
End run.

(** * Client states *)
Section calls.
Context (c : cst A) (env : gmap nat (item A)) (Hr : reachable c) (Hc : contents c env).
Lemma call_drop_stack D h hd it : env !! h = Some it -> c_env c !! h = Some hd ->
  drop_stack D (addr hd) (c_mem c) = if decide (item_height it <= D) then drop_tree (addr hd) (c_mem c) else Err EStack.
Proof.
  intros Hh Hhd. destruct (reachable_contents _ _ Hr Hc) as (Wm & HR & _). pose proof (RE_lookup _ _ _ _ h HR) as H. cbn [s_env] in H. rewrite Hh in H.
  destruct H as (t & Ht & Hri & Henv & Hrest). rewrite Hhd in Henv. injection Henv as ->. 
  pose proof (RE_inv _ _ _ _ _ _ HR Ht) as HI.
  assert (addr (hof t) = aptr t) as -> by (unfold hof; by destruct (aval t)).
  rewrite (drop_stack_spec D _ _ _ t HI). replace (aheight t) with (item_height it); [done|]. destruct it as [x|xs]; cbn in Hri |- *.
  - symmetry. by apply rt_height.
  - destruct t as [q pl v kk]. destruct Hri as [Hv Hkk]. cbn in Hkk. rewrite aheight_eq. f_equal. unfold height_f. f_equal. clear -Hkk.
    induction Hkk as [|k x ks xs Hk _ IH]; [done|]. cbn. f_equal; [symmetry; by apply rt_height|done].
Qed.
Lemma call_hash_stack {B} (h : A -> list B) D p x : node_is c env p x -> hash_stack h D p (c_mem c) = if decide (height x <= D) then Ok (flat_map h (preorder x)) (c_mem c) else Err EStack.
Proof. intros Hp. destruct (at_world c env Hr Hc) as (W & HI & Hnode & _). destruct (Hnode _ _ Hp) as (C & t & Hl & Ht & <-). by eapply (hash_stack_run _ _ _ HI). Qed.
Lemma call_fmt_stack show D p x : node_is c env p x -> fmt_stack show D p (c_mem c) = if decide (height x <= D) then Ok (display show x) (c_mem c) else Err EStack.
Proof. intros Hp. destruct (at_world c env Hr Hc) as (W & HI & Hnode & _). destruct (Hnode _ _ Hp) as (C & t & Hl & Ht & <-). by eapply (fmt_stack_run _ _ _ HI). Qed.
Lemma call_eq_stack eqA D p q x y : node_is c env p x -> node_is c env q y -> tree_rel (fun a b => eqA a b = true) x y ->
  eq_stack eqA D p q (c_mem c) = if decide (height x <= D) then Ok true (c_mem c) else Err EStack.
Proof.
  intros Hp Hq HR. destruct (at_world c env Hr Hc) as (W & HI & Hnode & _). destruct (Hnode _ _ Hp) as (C & t & Hl & Ht & <-). destruct (Hnode _ _ Hq) as (C' & u & Hl' & Hu & <-).
  by eapply (eq_stack_run _ _ _ HI).
Qed.
Lemma call_eq_stack_any eqA D p q x y : node_is c env p x -> node_is c env q y ->
  (exists b, eq_stack eqA D p q (c_mem c) = Ok b (c_mem c) /\ (b = true <-> tree_rel (fun a b => eqA a b = true) x y)) \/
  (D < height x /\ D < height y /\ eq_stack eqA D p q (c_mem c) = Err EStack).
Proof.
  intros Hp Hq. destruct (at_world c env Hr Hc) as (W & HI & Hnode & _). destruct (Hnode _ _ Hp) as (C & t & Hl & Ht & <-). destruct (Hnode _ _ Hq) as (C' & u & Hl' & Hu & <-).
  destruct (eq_stack_any _ _ _ HI eqA D t x C u y C') as [E|E]; try done; [left|by right]. exists (tree_eqb eqA x y). split; [done|apply tree_eqb_spec].
Qed.
End calls.
End stack.

(** * A tall tree: n+1 nodes, one below the other *)
Fixpoint tall (n : nat) : tree nat := match n with 0 => Tr 0 [] | S n' => Tr 0 [tall n'] end.
Fixpoint tall_ops (n : nat) : list (op nat) :=
  match n with 0 => [ONewTree 0 0] | S n' => tall_ops n' ++ [ONewTree (S n') 0; OPush Back (S n') [] n'] end.
Lemma tall_height n : height (tall n) = S n.
Proof. induction n as [|n IH]; [done|]. cbn [tall height map]. rewrite IH. cbn. lia. Qed.
Lemma srun_app' (os os' : list (op nat)) : forall σ, srun σ (os ++ os') =
  match srun σ os with Some (rs, σ1) => match srun σ1 os' with Some (rs', σ2) => Some (rs ++ rs', σ2) | None => None end | None => None end.
Proof.
  induction os as [|o os IH]; intros σ; simpl; [by destruct (srun σ os') as [[? ?]|]|]. destruct (sstep σ o) as [[r σ1]|]; [|done].
  rewrite IH. destruct (srun σ1 os) as [[rs σ2]|]; [|done]. by destruct (srun σ2 os') as [[? ?]|].
Qed.
Lemma tall_run n : exists rs, srun sst0 (tall_ops n) = Some (rs, SSt {[n := ITree (tall n)]} []).
Proof.
  induction n as [|n [rs IH]]; [eexists; cbn; rewrite lookup_empty; reflexivity|]. cbn [tall_ops]. rewrite srun_app', IH. eexists.
  cbn [srun sstep s_env s_log]. rewrite lookup_singleton_ne by lia. cbn [s_env s_log].
  rewrite lookup_insert_ne by lia. rewrite lookup_singleton. rewrite lookup_delete_ne by lia. rewrite lookup_insert.
  cbn [kids_at subtree fmap option_fmap option_map kids]. unfold put_kids. cbn [set_kids]. do 3 f_equal.
  apply map_eq. intros i. destruct (decide (i = S n)) as [->|]; [rewrite lookup_insert, lookup_singleton; reflexivity|]. rewrite lookup_insert_ne by done.
  rewrite lookup_singleton_ne by done. destruct (decide (i = n)) as [->|]; [apply lookup_delete|]. rewrite lookup_delete_ne, lookup_insert_ne, lookup_singleton_ne by done. done.
Qed.
Lemma tall_state n : exists c hd, reachable c /\ contents c {[n := ITree (tall n)]} /\ c_env c !! n = Some hd.
Proof.
  destruct (tall_run n) as [rs E]. pose proof (refinement (tall_ops n)) as H. rewrite E in H. destruct H as (c & Hc & Hcont & _).
  assert (reachable c) as Hr by (by exists (tall_ops n), rs). destruct (reachable_contents _ _ Hr Hcont) as (Wm & HR & _). pose proof (RE_lookup _ _ _ _ n HR) as H.
  cbn [s_env] in H. rewrite lookup_singleton in H. destruct H as (t & _ & _ & Henv & _). eauto.
Qed.
Lemma stack_overflows D : exists (c : cst nat) (env : gmap nat (item nat)) (h : nat) (hd : handle) (it : item nat),
  reachable c /\ contents c env /\ env !! h = Some it /\ c_env c !! h = Some hd /\ drop_stack D (addr hd) (c_mem c) = Err EStack.
Proof.
  destruct (tall_state D) as (c & hd & Hr & Hc & Hhd). exists c, {[D := ITree (tall D)]}, D, hd, (ITree (tall D)). split_and!; [done|done|by rewrite lookup_singleton|done|].
  rewrite (call_drop_stack c _ Hr Hc D D hd (ITree (tall D))); [|by rewrite lookup_singleton|done]. cbn [item_height]. rewrite tall_height, decide_False by lia. done.
Qed.
