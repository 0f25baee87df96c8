(** PropCmp.v — property theorems about ==, !=, <, hashing and printing of nodes, trees and forests (C15-C18, C46).
    [node_is c env p x]: in the client state [c] the node at address [p] is reachable from a variable and reads back as the tree [x];
    [forest_is c env p xs]: the same for a variable of type Forest;
    [returns c m r]: running [m] on the client's memory returns [r] and leaves the memory unchanged (Reach.v).
    [eqA], [neA], [pc], [cmp], [h], [show] are the data type's own ==, !=, partial_cmp, cmp, hash and Display. *)
From Coq Require Import Ascii String.
From stdpp Require Import base gmap list.
From Verif Require Import Spec ClientSpec Machine NodeModel CmpModel CmpSpec ClientModel Reach CmpLaws CmpProps Demo.

Theorem C15_eq {A : Type} (c : cst A) (env : gmap nat (item A)) (eqA : A -> A -> bool) (p q : ptr) (x y : tree A) :
  reachable c -> contents c env -> node_is c env p x -> node_is c env q y ->
  exists b, returns c (node_eq eqA p q) b /\ (b = true <-> tree_rel (fun a a' => eqA a a' = true) x y).
Proof. exact (fun Hr Hc => eq_prop c env Hr Hc eqA p q x y). Qed.
Print Assumptions C15_eq.

Theorem C15_ne {A : Type} (c : cst A) (env : gmap nat (item A)) (eqA neA : A -> A -> bool) (p q : ptr) (x y : tree A) :
  reachable c -> contents c env -> (forall a a', neA a a' = negb (eqA a a')) -> node_is c env p x -> node_is c env q y ->
  exists b, returns c (node_ne eqA neA p q) b /\ (b = false <-> tree_rel (fun a a' => eqA a a' = true) x y).
Proof. exact (fun Hr Hc => ne_prop c env Hr Hc eqA neA p q x y). Qed.
Print Assumptions C15_ne.

Theorem C15_forest_eq_ne {A : Type} (c : cst A) (env : gmap nat (item A)) (eqA : A -> A -> bool) (p q : ptr) (xs ys : list (tree A)) :
  reachable c -> contents c env -> forest_is c env p xs -> forest_is c env q ys ->
  exists b, returns c (forest_eq eqA p q) b /\ returns c (forest_ne eqA p q) (negb b) /\
    (b = true <-> Forall2 (tree_rel (fun a a' => eqA a a' = true)) xs ys).
Proof. exact (fun Hr Hc => forest_eq_prop c env Hr Hc eqA p q xs ys). Qed.
Print Assumptions C15_forest_eq_ne.

Theorem C15_equivalence {A : Type} (c : cst A) (env : gmap nat (item A)) (eqA : A -> A -> bool) (p q r : ptr) (x y z : tree A) :
  reachable c -> contents c env ->
  (forall a, eqA a a = true) -> (forall a b, eqA a b = eqA b a) -> (forall a b d, eqA a b = true -> eqA b d = true -> eqA a d = true) ->
  node_is c env p x -> node_is c env q y -> node_is c env r z ->
  returns c (node_eq eqA p p) true /\
  (returns c (node_eq eqA p q) true -> returns c (node_eq eqA q p) true) /\
  (returns c (node_eq eqA p q) true -> returns c (node_eq eqA q r) true -> returns c (node_eq eqA p r) true).
Proof. exact (fun Hr Hc => eq_equiv_prop c env Hr Hc eqA p q r x y z). Qed.
Print Assumptions C15_equivalence.

Theorem C15_eq_decides {A : Type} (c : cst A) (env : gmap nat (item A)) (eqA : A -> A -> bool) (p q : ptr) (x y : tree A) :
  reachable c -> contents c env -> (forall a b, eqA a b = true <-> a = b) -> node_is c env p x -> node_is c env q y ->
  (returns c (node_eq eqA p q) true <-> x = y) /\ (x <> y -> returns c (node_eq eqA p q) false).
Proof. exact (fun Hr Hc => eq_leibniz_prop c env Hr Hc eqA p q x y). Qed.
Print Assumptions C15_eq_decides.

(** two copies of one tree, in different memory, and two different trees *)
Definition cmp_ops : list (op nat) := demo_ops ++ [OClone 0 [] 7; OCloneForest 2 [] 8].
Definition cmp_c : cst nat := match run cst0 cmp_ops with Done _ c => c | Fails _ => cst0 end.
Definition root_at (h : nat) : ptr := match c_env cmp_c !! h with Some hd => addr hd | None => (0, 0) end.
Example C15_ex : c_env cmp_c !! 0 <> c_env cmp_c !! 7 /\
  (forall a b, Nat.eqb a b = true <-> a = b) /\
  result cmp_c (node_eq Nat.eqb (root_at 0) (root_at 7)) = Some (true) /\
  result cmp_c (node_eq Nat.eqb (root_at 0) (root_at 5)) = Some (false) /\
  result cmp_c (node_ne Nat.eqb (fun a b => negb (Nat.eqb a b)) (root_at 0) (root_at 5)) = Some (true) /\
  result cmp_c (forest_eq Nat.eqb (root_at 2) (root_at 8)) = Some (true).
Proof. split; [by vm_compute|]. split; [exact Nat.eqb_eq|]. vm_compute. auto. Qed.
Example C15_hyp_ex : reachable demo_c /\ contents demo_c demo_env /\
  match c_env demo_c !! 0 with Some hd => node_is demo_c demo_env (addr hd) demo_tree | None => False end /\
  match c_env demo_c !! 2 with Some hd => forest_is demo_c demo_env (addr hd) demo_forest | None => False end.
Proof.
  split; [exact (proj1 demo_ok)|]. split; [exact (proj2 demo_ok)|]. split.
  - destruct (c_env demo_c !! 0) as [hd|] eqn:E; [|by vm_compute in E]. exists 0, hd, (ITree demo_tree), [].
    split; [exact (proj1 demo_lookups)|]. split; [exact E|]. split; reflexivity.
  - destruct (c_env demo_c !! 2) as [hd|] eqn:E; [|by vm_compute in E]. exists 2.
    split; [exact (proj1 (proj2 (proj2 demo_lookups)))|]. rewrite E. vm_compute in E. injection E as <-. reflexivity.
Qed.

Theorem C16_cmp {A : Type} (c : cst A) (env : gmap nat (item A)) (cmp : A -> A -> comparison) (p q : ptr) (x y : tree A) :
  reachable c -> contents c env -> node_is c env p x -> node_is c env q y -> returns c (node_cmp cmp p q) (tree_cmp cmp x y).
Proof. exact (fun Hr Hc => cmp_prop c env Hr Hc cmp p q x y). Qed.
Print Assumptions C16_cmp.

Theorem C16_partial_cmp {A : Type} (c : cst A) (env : gmap nat (item A)) (pc : A -> A -> option comparison) (p q : ptr) (x y : tree A) :
  reachable c -> contents c env -> node_is c env p x -> node_is c env q y -> returns c (node_pcmp pc p q) (tree_pcmp pc x y).
Proof. exact (fun Hr Hc => pcmp_prop c env Hr Hc pc p q x y). Qed.
Print Assumptions C16_partial_cmp.

Theorem C16_forest_cmp {A : Type} (c : cst A) (env : gmap nat (item A)) (cmp : A -> A -> comparison) (pc : A -> A -> option comparison) (p q : ptr) (xs ys : list (tree A)) :
  reachable c -> contents c env -> forest_is c env p xs -> forest_is c env q ys ->
  returns c (forest_cmp cmp p q) (lex (tree_cmp cmp) xs ys) /\ returns c (forest_pcmp pc p q) (plex (tree_pcmp pc) xs ys).
Proof. exact (fun Hr Hc => forest_cmp_prop c env Hr Hc cmp pc p q xs ys). Qed.
Print Assumptions C16_forest_cmp.

Theorem C16_total_order {A : Type} (c : cst A) (env : gmap nat (item A)) (cmp : A -> A -> comparison) (p q r : ptr) (x y z : tree A) :
  reachable c -> contents c env -> total_order cmp -> node_is c env p x -> node_is c env q y -> node_is c env r z ->
  returns c (node_cmp cmp p p) Eq /\
  (forall o, returns c (node_cmp cmp p q) o -> returns c (node_cmp cmp q p) (CompOpp o)) /\
  (forall o, returns c (node_cmp cmp p q) o -> returns c (node_cmp cmp q r) o -> returns c (node_cmp cmp p r) o).
Proof. exact (fun Hr Hc => cmp_total_prop c env Hr Hc cmp p q r x y z). Qed.
Print Assumptions C16_total_order.

Theorem C16_total_order_laws {A : Type} (cmp : A -> A -> comparison) : total_order cmp -> total_order (tree_cmp cmp) /\ total_order (lex (tree_cmp cmp)).
Proof. exact (fun H => conj (total_tree cmp H) (total_forest cmp H)). Qed.
Print Assumptions C16_total_order_laws.

Theorem C16_comparisons_agree {A : Type} (c : cst A) (env : gmap nat (item A)) (eqA : A -> A -> bool) (pc : A -> A -> option comparison) (cmp : A -> A -> comparison) (p q : ptr) (x y : tree A) :
  reachable c -> contents c env ->
  (forall a b, eqA a b = true <-> cmp a b = Eq) -> (forall a b, pc a b = Some (cmp a b)) ->
  node_is c env p x -> node_is c env q y ->
  exists o, returns c (node_cmp cmp p q) o /\ returns c (node_pcmp pc p q) (Some o) /\
    returns c (node_eq eqA p q) (match o with Eq => true | _ => false end).
Proof. exact (fun Hr Hc => cmp_agree_prop c env Hr Hc eqA pc cmp p q x y). Qed.
Print Assumptions C16_comparisons_agree.

Theorem C16_partial_cmp_dual {A : Type} (pc : A -> A -> option comparison) : (forall a b, pc b a = CompOpp <$> pc a b) ->
  forall t u : tree A, tree_pcmp pc u t = CompOpp <$> tree_pcmp pc t u.
Proof. exact (tree_pcmp_dual pc). Qed.
Print Assumptions C16_partial_cmp_dual.

Lemma nat_total : total_order Nat.compare.
Proof.
  split.
  - exact Nat.compare_refl.
  - intros x y. apply Nat.compare_antisym.
  - intros x y z [] H H'.
    + apply Nat.compare_eq_iff in H, H'. apply Nat.compare_eq_iff. congruence.
    + apply Nat.compare_lt_iff in H, H'. apply Nat.compare_lt_iff. lia.
    + apply Nat.compare_gt_iff in H, H'. apply Nat.compare_gt_iff. lia.
  - intros x y z H. apply Nat.compare_eq_iff in H. by subst.
Qed.
Example C16_ex : total_order Nat.compare /\
  result cmp_c (node_cmp Nat.compare (root_at 0) (root_at 7)) = Some (Eq) /\
  result cmp_c (node_cmp Nat.compare (root_at 0) (root_at 5)) = Some (Lt) /\
  result cmp_c (node_cmp Nat.compare (root_at 1) (root_at 0)) = Some (Gt) /\
  result cmp_c (node_pcmp (fun a b => if Nat.eqb a 9 then None else Some (Nat.compare a b)) (root_at 1) (root_at 0)) = Some (None) /\
  result cmp_c (forest_cmp Nat.compare (root_at 2) (root_at 8)) = Some (Eq).
Proof. split; [exact nat_total|]. vm_compute. auto 10. Qed.

Theorem C17_hash_stream {A B : Type} (c : cst A) (env : gmap nat (item A)) (h : A -> list B) (p : ptr) (x : tree A) :
  reachable c -> contents c env -> node_is c env p x -> returns c (node_hash h p) (flat_map h (preorder x)).
Proof. exact (fun Hr Hc => hash_prop c env Hr Hc h p x). Qed.
Print Assumptions C17_hash_stream.

Theorem C17_equal_nodes_hash_alike {A B : Type} (c : cst A) (env : gmap nat (item A)) (h : A -> list B) (eqA : A -> A -> bool) (p q : ptr) (x y : tree A) :
  reachable c -> contents c env -> (forall a b, eqA a b = true -> h a = h b) ->
  node_is c env p x -> node_is c env q y -> returns c (node_eq eqA p q) true ->
  exists l, returns c (node_hash h p) l /\ returns c (node_hash h q) l.
Proof. exact (fun Hr Hc => hash_eq_prop c env Hr Hc h eqA p q x y). Qed.
Print Assumptions C17_equal_nodes_hash_alike.

Theorem C17_equal_forests_hash_alike {A B : Type} (c : cst A) (env : gmap nat (item A)) (h : A -> list B) (eqA : A -> A -> bool) (p q : ptr) (xs ys : list (tree A)) :
  reachable c -> contents c env -> (forall a b, eqA a b = true -> h a = h b) ->
  forest_is c env p xs -> forest_is c env q ys -> returns c (forest_eq eqA p q) true ->
  exists l, returns c (forest_hash h p) l /\ returns c (forest_hash h q) l.
Proof. exact (fun Hr Hc => forest_hash_prop c env Hr Hc h eqA p q xs ys). Qed.
Print Assumptions C17_equal_forests_hash_alike.
Example C17_ex : result cmp_c (node_hash (fun a : nat => [a]) (root_at 0)) = Some ([0; 1; 2; 3; 4]) /\
  result cmp_c (node_hash (fun a : nat => [a]) (root_at 7)) = Some ([0; 1; 2; 3; 4]) /\
  result cmp_c (node_eq Nat.eqb (root_at 0) (root_at 7)) = Some (true).
Proof. vm_compute. auto. Qed.

(** C46 is false: 0( 1 2 ) and 0( 1( 2 ) ) are different and write the same hash stream *)
Definition shape_ops : list (op nat) :=
  [ONewTree 0 0; ONewTree 1 1; ONewTree 2 2; OPush Back 0 [] 1; OPush Back 0 [] 2;
   ONewTree 3 0; ONewTree 4 1; ONewTree 5 2; OPush Back 4 [] 5; OPush Back 3 [] 4].
Theorem C46_hash_separates_shapes_refuted : exists (c : cst nat) (env : gmap nat (item nat)) (p q : ptr) (x y : tree nat),
  reachable c /\ contents c env /\ node_is c env p x /\ node_is c env q y /\ ~ same_shape x y /\
  forall (B : Type) (h : nat -> list B), exists l, returns c (node_hash h p) l /\ returns c (node_hash h q) l.
Proof. exact (hash_shapes shape_ops ltac:(vm_compute; eauto) ltac:(vm_compute; auto) ltac:(vm_compute; auto)). Qed.
Print Assumptions C46_hash_separates_shapes_refuted.

(** what C46 leaves: with a data type whose hash is prefix-free (the standard library asks for this), two nodes write the same
    to the hasher exactly if they have the same data in the same depth-first order.  Missing: the shape. *)
Theorem C46_same_hash_exactly_partial {A B : Type} (c : cst A) (env : gmap nat (item A)) (h : A -> list B) (p q : ptr) (x y : tree A) :
  reachable c -> contents c env -> (forall a, h a <> []) -> (forall a b l l', h a ++ l = h b ++ l' -> a = b)%list ->
  node_is c env p x -> node_is c env q y ->
  (exists l, returns c (node_hash h p) l /\ returns c (node_hash h q) l) <-> preorder x = preorder y.
Proof. exact (fun Hr Hc => hash_exact_prop c env Hr Hc h p q x y). Qed.
Print Assumptions C46_same_hash_exactly_partial.
Example C46_ex : (forall a : nat, [a] <> []) /\ (forall a b (l l' : list nat), [a] ++ l = [b] ++ l' -> a = b)%list /\
  result cmp_c (node_hash (fun a : nat => [a]) (root_at 0)) = result cmp_c (node_hash (fun a : nat => [a]) (root_at 7)).
Proof. split; [done|]. split; [by intros a b l l' [= ->]|]. vm_compute. auto. Qed.

Theorem C18_display {A : Type} (c : cst A) (env : gmap nat (item A)) (show : A -> string) (p : ptr) (x : tree A) :
  reachable c -> contents c env -> node_is c env p x -> returns c (node_fmt show p) (display show x).
Proof. exact (fun Hr Hc => fmt_prop c env Hr Hc show p x). Qed.
Print Assumptions C18_display.

Theorem C18_display_forest {A : Type} (c : cst A) (env : gmap nat (item A)) (show : A -> string) (p : ptr) (xs : list (tree A)) :
  reachable c -> contents c env -> forest_is c env p xs -> returns c (forest_fmt show p) (display_f show xs).
Proof. exact (fun Hr Hc => forest_fmt_prop c env Hr Hc show p xs). Qed.
Print Assumptions C18_display_forest.

Theorem C18_display_injective {A : Type} (c : cst A) (env : gmap nat (item A)) (show : A -> string) (p q : ptr) (x y : tree A) (w : string) :
  reachable c -> contents c env -> (forall a b, show a = show b -> a = b) -> (forall a, word (show a)) ->
  node_is c env p x -> node_is c env q y -> returns c (node_fmt show p) w -> returns c (node_fmt show q) w -> x = y.
Proof. exact (fun Hr Hc => fmt_inj_prop c env Hr Hc show p q x y w). Qed.
Print Assumptions C18_display_injective.

Theorem C18_display_forest_injective {A : Type} (c : cst A) (env : gmap nat (item A)) (show : A -> string) (p q : ptr) (xs ys : list (tree A)) (w : string) :
  reachable c -> contents c env -> (forall a b, show a = show b -> a = b) -> (forall a, word (show a)) ->
  forest_is c env p xs -> forest_is c env q ys -> returns c (forest_fmt show p) w -> returns c (forest_fmt show q) w -> xs = ys.
Proof. exact (fun Hr Hc => forest_fmt_inj_prop c env Hr Hc show p q xs ys w). Qed.
Print Assumptions C18_display_forest_injective.
Example C18_ex : (forall a b, tally a = tally b -> a = b) /\ (forall a, word (tally a)) /\
  result cmp_c (node_fmt tally (root_at 0)) = Some ("1( 11( 111 1111 ) 11111 )"%string) /\
  result cmp_c (forest_fmt tally (root_at 2)) = Some ("( 11111111( 111111111 ) 1111111 )"%string).
Proof. split; [exact tally_inj|]. split; [exact tally_word|]. vm_compute. auto. Qed.
