(** SpecProofs.v — sanity lemmas about the specification functions (no model involved). *)
From stdpp Require Import base gmap list.
From Verif Require Import Spec ClientSpec.

Section sp.
Context {A : Type}.
Implicit Types (t u : tree A) (ts l : list (tree A)) (it : item A) (path : list nat).

Lemma alter_Some_eq (ts : list (tree A)) (f : tree A -> tree A) (i : nat) (t : tree A) :
  ts !! i = Some t -> alter f i ts !! i = Some (f t).
Proof. intros H. by rewrite list_lookup_alter, H. Qed.

Lemma subtree_update f path : forall t u, subtree t path = Some u -> subtree (update_at path f t) path = Some (f u).
Proof.
  induction path as [|i path IH]; intros t u H; simpl in *; [by simplify_eq|].
  destruct t as [a ts]; simpl in *. destruct (ts !! i) as [k|] eqn:Hk; [|done].
  rewrite (alter_Some_eq _ _ _ _ Hk). by apply IH.
Qed.

Lemma update_update f g path : forall t, update_at path f (update_at path g t) = update_at path (fun x => f (g x)) t.
Proof.
  induction path as [|i path IH]; intros t; simpl; [done|]. destruct t as [a ts]. f_equal.
  rewrite <-list_alter_compose. apply list_alter_ext; [|done]. intros x _. simpl. apply IH.
Qed.

Lemma update_id f path : forall t u, subtree t path = Some u -> f u = u -> update_at path f t = t.
Proof.
  induction path as [|i path IH]; intros t u H Hf; simpl in *; [by simplify_eq|]. destruct t as [a ts]. simpl in H.
  destruct (ts !! i) as [k|] eqn:Hk; [|done]. f_equal.
  apply list_eq. intros j. destruct (decide (i = j)) as [<-|Hne].
  - rewrite (alter_Some_eq _ _ _ _ Hk), Hk. f_equal. by eapply IH.
  - by rewrite list_lookup_alter_ne.
Qed.

Lemma update_ext f g path : (forall x, f x = g x) -> forall t, update_at path f t = update_at path g t.
Proof.
  intros H. induction path as [|i path IH]; intros t; simpl; [done|]. destruct t. f_equal.
  apply list_alter_ext; [|done]. intros; apply IH.
Qed.

Lemma kids_set_kids it path ts l : kids_at it path = Some ts -> kids_at (set_kids it path l) path = Some l.
Proof.
  destruct it as [t|fs]; simpl.
  - intros H. destruct (subtree t path) as [u|] eqn:Hu; [|done]. unfold set_kids_tree.
    by rewrite (subtree_update _ _ _ _ Hu).
  - destruct path as [|i path]; simpl; [done|]. intros H. destruct (fs !! i) as [t|] eqn:Ht; [|done].
    rewrite (alter_Some_eq _ _ _ _ Ht). unfold set_kids_tree. destruct (subtree t path) as [u|] eqn:Hu; [|done].
    by rewrite (subtree_update _ _ _ _ Hu).
Qed.

Lemma set_kids_set_kids it path l l' : set_kids (set_kids it path l) path l' = set_kids it path l'.
Proof.
  destruct it as [t|fs]; simpl; [|destruct path as [|i path]; simpl; [done|]].
  - unfold set_kids_tree. by rewrite update_update.
  - unfold set_kids_tree. rewrite <-list_alter_compose. f_equal. apply list_alter_ext; [|done].
    intros x _. simpl. by rewrite update_update.
Qed.

Lemma set_kids_id it path ts : kids_at it path = Some ts -> set_kids it path ts = it.
Proof.
  destruct it as [t|fs]; simpl.
  - destruct (subtree t path) as [u|] eqn:Hu; [|done]. simpl. intros [= <-]. f_equal. eapply update_id; [done|]. by destruct u.
  - destruct path as [|i path]; simpl; [by intros [= ->]|]. destruct (fs !! i) as [t|] eqn:Ht; [|done].
    destruct (subtree t path) as [u|] eqn:Hu; [|done]. simpl. intros [= <-]. f_equal.
    apply list_eq. intros j. destruct (decide (i = j)) as [<-|Hne].
    + rewrite (alter_Some_eq _ _ _ _ Ht), Ht. f_equal. eapply update_id; [done|]. by destruct u.
    + by rewrite list_lookup_alter_ne.
Qed.

(** the number of nodes at the node at [path] *)
Definition count_at (it : item A) (path : list nat) : option nat :=
  match kids_at it path with
  | Some ts => Some (match node_at it path with Some t => nodes t | None => nodes_f ts end)
  | None => None
  end.

Lemma list_sum_alter (ts : list (tree A)) (f : tree A -> tree A) i k :
  ts !! i = Some k -> list_sum (map nodes (alter f i ts)) + nodes k = list_sum (map nodes ts) + nodes (f k).
Proof.
  revert i. induction ts as [|t ts IH]; intros [|i]; simpl; intros H; simplify_eq; [lia|].
  specialize (IH i H). unfold alter in IH. lia.
Qed.

Lemma nodes_update f path : forall t u, subtree t path = Some u ->
  nodes (update_at path f t) + nodes u = nodes t + nodes (f u).
Proof.
  induction path as [|i path IH]; intros t u H; simpl in *; [simplify_eq; lia|].
  destruct t as [a ts]; simpl in *. destruct (ts !! i) as [k|] eqn:Hk; [|done].
  pose proof (list_sum_alter ts (update_at path f) i k Hk). specialize (IH k u H). lia.
Qed.

Lemma subtree_app path path' : forall t, subtree t (path ++ path') =
  match subtree t path with Some u => subtree u path' | None => None end.
Proof. induction path as [|i path IH]; intros t; simpl; [done|]. destruct (kids t !! i); [apply IH|done]. Qed.

Lemma update_app f path path' : forall t, update_at (path ++ path') f t = update_at path (update_at path' f) t.
Proof. induction path as [|i path IH]; intros t; simpl; [done|]. destruct t. f_equal. apply list_alter_ext; [|done]. intros; apply IH. Qed.

(** replacing the children at [path ++ path'] changes the number of nodes at every ancestor [path] by the difference *)
Lemma count_set_kids it path path' ts l n :
  kids_at it (path ++ path') = Some ts -> count_at it path = Some n ->
  exists n', count_at (set_kids it (path ++ path') l) path = Some n' /\ n' + nodes_f ts = n + nodes_f l.
Proof.
  assert (Ht : forall t u p p', subtree t p = Some u -> forall ts, kids <$> subtree t (p ++ p') = Some ts ->
     exists u', subtree (set_kids_tree (p ++ p') l t) p = Some u' /\ nodes u' + nodes_f ts = nodes u + nodes_f l).
  { intros t u p p' Hu ts0 Hk. rewrite subtree_app, Hu in Hk. destruct (subtree u p') as [w|] eqn:Hw; [|done]. simpl in Hk. simplify_eq.
    unfold set_kids_tree. rewrite update_app. eexists. split; [by apply subtree_update|].
    pose proof (nodes_update (fun t => Tr (root_of t) l) p' u w Hw) as H. destruct w as [b ws]. simpl in *. unfold nodes_f. lia. }
  unfold count_at. destruct it as [t|fs]; simpl.
  - intros Hk Hn. destruct (subtree t path) as [u|] eqn:Hu; [|done]. simpl in Hn. simplify_eq.
    destruct (Ht t u path path' Hu ts Hk) as (u' & -> & H). simpl. eauto.
  - destruct path as [|i path]; simpl.
    + intros Hk [= <-]. destruct path' as [|i path']; simpl.
      * simplify_eq. exists (nodes_f l). split; [done|lia].
      * destruct (fs !! i) as [t|] eqn:Hti; [|done]. eexists. split; [done|].
        pose proof (list_sum_alter fs (set_kids_tree path' l) i t Hti) as Hs.
        destruct (Ht t t [] path' eq_refl ts Hk) as (u' & [= <-] & H). unfold nodes_f in *. simpl in *. lia.
    + destruct (fs !! i) as [t|] eqn:Hti; [|done]. intros Hk Hn. rewrite (alter_Some_eq _ _ _ _ Hti).
      destruct (subtree t path) as [u|] eqn:Hu; [|done]. simpl in Hn. simplify_eq.
      destruct (Ht t u path path' Hu ts Hk) as (u' & -> & H). simpl. eauto.
Qed.

Lemma nodes_f_app ts l : nodes_f (ts ++ l) = nodes_f ts + nodes_f l.
Proof. unfold nodes_f. by rewrite map_app, list_sum_app. Qed.

End sp.
