(** CmpProps.v — the lemmas behind PropCmp.v. *)
From Coq Require Import Ascii String.
From stdpp Require Import base gmap list.
From Verif Require Import Spec ClientSpec Machine NodeModel CmpModel CmpSpec ClientModel Reach ClientRead CmpProofs CmpLaws.

Section props.
Context {A : Type} (c : cst A) (env : gmap nat (item A)) (Hr : reachable c) (Hc : contents c env).
Implicit Types (x y z : tree A) (xs ys : list (tree A)) (p q r : ptr).

Lemma trees_eqb_spec (e : A -> A -> bool) xs ys : list_eqb (tree_eqb e) xs ys = true <-> Forall2 (tree_rel (fun a b => e a b = true)) xs ys.
Proof. apply list_eqb_spec, Forall_forall. intros x _. apply tree_eqb_spec. Qed.

Lemma eq_prop (eqA : A -> A -> bool) p q x y : node_is c env p x -> node_is c env q y ->
  exists b, returns c (node_eq eqA p q) b /\ (b = true <-> tree_rel (fun a a' => eqA a a' = true) x y).
Proof. intros Hp Hq. eexists. split; [by apply (call_node_eq c env Hr Hc)|apply tree_eqb_spec]. Qed.
Lemma ne_prop (eqA neA : A -> A -> bool) p q x y : (forall a a', neA a a' = negb (eqA a a')) -> node_is c env p x -> node_is c env q y ->
  exists b, returns c (node_ne eqA neA p q) b /\ (b = false <-> tree_rel (fun a a' => eqA a a' = true) x y).
Proof.
  intros Hne Hp Hq. eexists. split; [by apply (call_node_ne c env Hr Hc)|]. destruct x as [a ts], y as [a' us]. cbn [root_of kids].
  rewrite orb_false_iff, Hne, !negb_false_iff, trees_eqb_spec. split; [intros []; by constructor|]. intros H. by inversion H.
Qed.
Lemma forest_eq_prop (eqA : A -> A -> bool) p q xs ys : forest_is c env p xs -> forest_is c env q ys ->
  exists b, returns c (forest_eq eqA p q) b /\ returns c (forest_ne eqA p q) (negb b) /\
    (b = true <-> Forall2 (tree_rel (fun a a' => eqA a a' = true)) xs ys).
Proof.
  intros Hp Hq. eexists. split; [by apply (call_forest_eq c env Hr Hc)|]. split; [by apply (call_forest_ne c env Hr Hc)|apply trees_eqb_spec].
Qed.
Lemma eq_equiv_prop (eqA : A -> A -> bool) p q r x y z :
  (forall a, eqA a a = true) -> (forall a b, eqA a b = eqA b a) -> (forall a b d, eqA a b = true -> eqA b d = true -> eqA a d = true) ->
  node_is c env p x -> node_is c env q y -> node_is c env r z ->
  returns c (node_eq eqA p p) true /\
  (returns c (node_eq eqA p q) true -> returns c (node_eq eqA q p) true) /\
  (returns c (node_eq eqA p q) true -> returns c (node_eq eqA q r) true -> returns c (node_eq eqA p r) true).
Proof.
  intros H1 H2 H3 Hp Hq Hz.
  assert (Hret : forall p q x y, node_is c env p x -> node_is c env q y -> returns c (node_eq eqA p q) true <-> tree_rel (fun a a' => eqA a a' = true) x y).
  { clear -Hr Hc. intros p q x y Hp Hq. destruct (eq_prop eqA p q x y Hp Hq) as (b & Hb & Hbt). rewrite <- Hbt. unfold returns in *. rewrite Hb.
    split; [by intros [= ->]|by intros ->]. }
  split_and!.
  - rewrite Hret by done. by apply tree_rel_refl.
  - rewrite !Hret by done. apply tree_rel_sym. intros a b. by rewrite H2.
  - rewrite !Hret by done. apply tree_rel_trans. apply H3.
Qed.
Lemma eq_leibniz_prop (eqA : A -> A -> bool) p q x y : (forall a b, eqA a b = true <-> a = b) -> node_is c env p x -> node_is c env q y ->
  (returns c (node_eq eqA p q) true <-> x = y) /\ (x <> y -> returns c (node_eq eqA p q) false).
Proof.
  intros HA Hp Hq. destruct (eq_prop eqA p q x y Hp Hq) as (b & Hb & Hbt).
  assert (Hrel : tree_rel (fun a a' => eqA a a' = true) x y <-> x = y).
  { rewrite <- (tree_rel_eq x y). clear -HA. revert y. induction x as [a ts IH] using tree_ind'. intros [b us].
    split; intros H; inversion H as [? ? ? ? Hab Hts]; subst; (constructor; [by apply HA|]); clear H; revert us Hts; induction IH as [|t ts Ht IH IHl]; intros us Hts; inversion Hts; subst; constructor; try apply Ht; auto. }
  unfold returns in *. rewrite Hb. rewrite Hrel in Hbt. split.
  - rewrite <- Hbt. split; [by intros [= ->]|by intros ->].
  - intros Hne. destruct b; [|done]. by destruct Hne; apply Hbt.
Qed.

Lemma pcmp_prop (pc : A -> A -> option comparison) p q x y : node_is c env p x -> node_is c env q y -> returns c (node_pcmp pc p q) (tree_pcmp pc x y).
Proof. apply (call_node_pcmp c env Hr Hc). Qed.
Lemma cmp_prop (cmp : A -> A -> comparison) p q x y : node_is c env p x -> node_is c env q y -> returns c (node_cmp cmp p q) (tree_cmp cmp x y).
Proof. apply (call_node_cmp c env Hr Hc). Qed.
Lemma forest_cmp_prop (cmp : A -> A -> comparison) (pc : A -> A -> option comparison) p q xs ys : forest_is c env p xs -> forest_is c env q ys ->
  returns c (forest_cmp cmp p q) (lex (tree_cmp cmp) xs ys) /\ returns c (forest_pcmp pc p q) (plex (tree_pcmp pc) xs ys).
Proof. intros Hp Hq. split; [by apply (call_forest_cmp c env Hr Hc)|by apply (call_forest_pcmp c env Hr Hc)]. Qed.
(** the three comparisons agree *)
Lemma cmp_agree_prop (eqA : A -> A -> bool) (pc : A -> A -> option comparison) (cmp : A -> A -> comparison) p q x y :
  (forall a b, eqA a b = true <-> cmp a b = Eq) -> (forall a b, pc a b = Some (cmp a b)) ->
  node_is c env p x -> node_is c env q y ->
  exists o, returns c (node_cmp cmp p q) o /\ returns c (node_pcmp pc p q) (Some o) /\
    returns c (node_eq eqA p q) (match o with Eq => true | _ => false end).
Proof.
  intros He Hpc Hp Hq. eexists. split; [by apply cmp_prop|]. split.
  - rewrite <- (tree_pcmp_total cmp pc Hpc). by apply pcmp_prop.
  - destruct (eq_prop eqA p q x y Hp Hq) as (b & Hb & Hbt). unfold returns in *. rewrite Hb. f_equal.
    rewrite <- (tree_cmp_eq cmp (fun a b => eqA a b = true)) in Hbt by (intros; symmetry; apply He).
    destruct (tree_cmp cmp x y), b; try done; [by destruct Hbt as [_ ->]|by destruct Hbt as [Hbt _]; specialize (Hbt eq_refl)..].
Qed.
(** antisymmetry and transitivity on nodes *)
Lemma cmp_total_prop (cmp : A -> A -> comparison) p q r x y z : total_order cmp ->
  node_is c env p x -> node_is c env q y -> node_is c env r z ->
  returns c (node_cmp cmp p p) Eq /\
  (forall o, returns c (node_cmp cmp p q) o -> returns c (node_cmp cmp q p) (CompOpp o)) /\
  (forall o, returns c (node_cmp cmp p q) o -> returns c (node_cmp cmp q r) o -> returns c (node_cmp cmp p r) o).
Proof.
  intros HT Hp Hq Hz. pose proof (total_tree cmp HT) as [T1 T2 T3 T4].
  assert (Hret : forall p q x y o, node_is c env p x -> node_is c env q y -> returns c (node_cmp cmp p q) o <-> tree_cmp cmp x y = o).
  { clear -Hr Hc. intros p q x y o Hp Hq. pose proof (cmp_prop cmp p q x y Hp Hq) as H. unfold returns in *. rewrite H. split; [by intros [= ->]|by intros ->]. }
  split_and!.
  - by rewrite Hret.
  - intros o. rewrite !Hret by done. intros <-. apply T2.
  - intros o. rewrite !Hret by done. apply T3.
Qed.

Lemma hash_prop {B : Type} (h : A -> list B) p x : node_is c env p x -> returns c (node_hash h p) (flat_map h (preorder x)).
Proof. apply (call_node_hash c env Hr Hc). Qed.
Lemma hash_eq_prop {B : Type} (h : A -> list B) (eqA : A -> A -> bool) p q x y : (forall a b, eqA a b = true -> h a = h b) ->
  node_is c env p x -> node_is c env q y -> returns c (node_eq eqA p q) true ->
  exists l, returns c (node_hash h p) l /\ returns c (node_hash h q) l.
Proof.
  intros HA Hp Hq He. eexists. split; [by apply hash_prop|]. rewrite (hash_rel h (fun a b => eqA a b = true) HA x y); [by apply hash_prop|].
  destruct (eq_prop eqA p q x y Hp Hq) as (b & Hb & Hbt). apply Hbt. unfold returns in *. rewrite Hb in He. congruence.
Qed.
Lemma hash_inj_list {B : Type} (h : A -> list B) : (forall a, h a <> []) -> (forall a b l l', h a ++ l = h b ++ l' -> a = b) ->
  forall l l', flat_map h l = flat_map h l' -> l = l'.
Proof.
  intros Hn Hp. induction l as [|a l IH]; intros [|b l'] H; cbn [flat_map] in H; [done| | |].
  - destruct (h b) eqn:E; [by destruct (Hn b)|done].
  - destruct (h a) eqn:E; [by destruct (Hn a)|done].
  - assert (a = b) as -> by (eapply Hp; exact H). f_equal. apply IH. by apply app_inv_head in H.
Qed.
Lemma hash_exact_prop {B : Type} (h : A -> list B) p q x y : (forall a, h a <> []) -> (forall a b l l', h a ++ l = h b ++ l' -> a = b) ->
  node_is c env p x -> node_is c env q y ->
  (exists l, returns c (node_hash h p) l /\ returns c (node_hash h q) l) <-> preorder x = preorder y.
Proof.
  intros Hn Hp Hx Hy. pose proof (hash_prop h p x Hx) as H1. pose proof (hash_prop h q y Hy) as H2. split.
  - intros (l & H3 & H4). apply (hash_inj_list h Hn Hp). unfold returns in *. rewrite H1 in H3. rewrite H2 in H4. congruence.
  - intros E. exists (flat_map h (preorder x)). split; [done|]. by rewrite E.
Qed.
Lemma forest_hash_prop {B : Type} (h : A -> list B) (eqA : A -> A -> bool) p q xs ys : (forall a b, eqA a b = true -> h a = h b) ->
  forest_is c env p xs -> forest_is c env q ys -> returns c (forest_eq eqA p q) true ->
  exists l, returns c (forest_hash h p) l /\ returns c (forest_hash h q) l.
Proof.
  intros HA Hp Hq He. eexists. split; [by apply (call_forest_hash c env Hr Hc)|].
  assert (H : Forall2 (tree_rel (fun a a' => eqA a a' = true)) xs ys).
  { destruct (forest_eq_prop eqA p q xs ys Hp Hq) as (b & Hb & _ & Hbt). apply Hbt. unfold returns in *. rewrite Hb in He. congruence. }
  replace (flat_map h (flat_map preorder xs)) with (flat_map h (flat_map preorder ys)); [by apply (call_forest_hash c env Hr Hc)|].
  clear -H HA. induction H as [|x y xs ys Hxy H IH]; [done|]. cbn [flat_map]. rewrite !flat_map_app, IH. f_equal. symmetry. by apply (hash_rel h (fun a a' => eqA a a' = true) HA).
Qed.

Lemma fmt_prop (show : A -> string) p x : node_is c env p x -> returns c (node_fmt show p) (display show x).
Proof. apply (call_node_fmt c env Hr Hc). Qed.
Lemma forest_fmt_prop (show : A -> string) p xs : forest_is c env p xs -> returns c (forest_fmt show p) (display_f show xs).
Proof. apply (call_forest_fmt c env Hr Hc). Qed.
Lemma fmt_inj_prop (show : A -> string) p q x y w : (forall a b, show a = show b -> a = b) -> (forall a, word (show a)) ->
  node_is c env p x -> node_is c env q y -> returns c (node_fmt show p) w -> returns c (node_fmt show q) w -> x = y.
Proof.
  intros H1 H2 Hp Hq Hw Hw'. pose proof (fmt_prop show p x Hp) as H. pose proof (fmt_prop show q y Hq) as H'. unfold returns in *.
  rewrite Hw in H. rewrite Hw' in H'. simplify_eq. apply (display_inj show H1 H2). congruence.
Qed.
Lemma forest_fmt_inj_prop (show : A -> string) p q xs ys w : (forall a b, show a = show b -> a = b) -> (forall a, word (show a)) ->
  forest_is c env p xs -> forest_is c env q ys -> returns c (forest_fmt show p) w -> returns c (forest_fmt show q) w -> xs = ys.
Proof.
  intros H1 H2 Hp Hq Hw Hw'. pose proof (forest_fmt_prop show p xs Hp) as H. pose proof (forest_fmt_prop show q ys Hq) as H'. unfold returns in *.
  rewrite Hw in H. rewrite Hw' in H'. simplify_eq. apply (display_f_inj show H1 H2). congruence.
Qed.
End props.

(** an injective printing function by words, for the examples *)
Fixpoint tally (n : nat) : string := match n with 0 => "1"%string | S n' => String "1"%char (tally n') end.
Lemma tally_inj a b : tally a = tally b -> a = b.
Proof. revert b. induction a as [|a IH]; intros [|b]; simpl; [done|destruct b; by intros [=]|destruct a; by intros [=]|]. intros [= H]. f_equal. auto. Qed.
Lemma tally_word a : word (tally a).
Proof.
  split; [by destruct a|]. induction a as [|a IH]; simpl; intros c Hc.
  - apply elem_of_list_singleton in Hc as ->. done.
  - apply elem_of_cons in Hc as [->|Hc]; [done|auto].
Qed.

(** two trees of different shape with the same hash stream *)
Lemma hash_shapes (os : list (op nat)) : is_Some (srun sst0 os) ->
  match srun sst0 os with Some (_, σ) => s_env σ !! 0 = Some (ITree (Tr 0 [Tr 1 []; Tr 2 []])) | None => False end ->
  match srun sst0 os with Some (_, σ) => s_env σ !! 3 = Some (ITree (Tr 0 [Tr 1 [Tr 2 []]])) | None => False end ->
  exists (c : cst nat) (env : gmap nat (item nat)) (p q : ptr) (x y : tree nat),
  reachable c /\ contents c env /\ node_is c env p x /\ node_is c env q y /\ ~ same_shape x y /\
  forall (B : Type) (h : nat -> list B), exists l, returns c (node_hash h p) l /\ returns c (node_hash h q) l.
Proof.
  intros [[rs σ] E] H0 H3. pose proof (refinement os) as H. rewrite E in *. destruct H as (c & Hc & Hcont & _).
  assert (Hr : reachable c) by (exists os, rs; exact Hc).
  pose proof (Hcont 0) as C0. pose proof (Hcont 3) as C3.
  destruct (c_env c !! 0) as [hd|] eqn:E0; [|congruence]. destruct (c_env c !! 3) as [hd'|] eqn:E3; [|congruence].
  assert (Hp : node_is c (s_env σ) (addr hd) (Tr 0 [Tr 1 []; Tr 2 []])) by (exists 0, hd, (ITree (Tr 0 [Tr 1 []; Tr 2 []])), []; done).
  assert (Hq : node_is c (s_env σ) (addr hd') (Tr 0 [Tr 1 [Tr 2 []]])) by (exists 3, hd', (ITree (Tr 0 [Tr 1 [Tr 2 []]])), []; done).
  exists c, (s_env σ), (addr hd), (addr hd'), (Tr 0 [Tr 1 []; Tr 2 []]), (Tr 0 [Tr 1 [Tr 2 []]]). split_and!; try done.
  - intros Hs. inversion Hs as [? ? ? ? H']. inversion H' as [|? ? ? ? ? H'']. inversion H''.
  - intros B h. eexists. split; [by apply (hash_prop c (s_env σ) Hr Hcont)|]. pose proof (hash_prop c (s_env σ) Hr Hcont h _ _ Hq) as HH.
    cbn [preorder flat_map app] in *. exact HH.
Qed.
