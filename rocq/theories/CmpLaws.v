(** CmpLaws.v — laws of the functions of CmpSpec.v. *)
From Coq Require Import Ascii String.
From stdpp Require Import base list.
From Verif Require Import Spec CmpSpec CmpProofs.

Section laws.
Context {A : Type}.

(** ** structural equality *)
Lemma tree_rel_refl (R : A -> A -> Prop) : (forall a, R a a) -> forall t : tree A, tree_rel R t t.
Proof. intros HR t. induction t as [a ts IH] using tree_ind'. constructor; [done|]. induction IH; by constructor. Qed.
Lemma tree_rel_sym (R : A -> A -> Prop) : (forall a b, R a b -> R b a) -> forall t u : tree A, tree_rel R t u -> tree_rel R u t.
Proof.
  intros HR t. induction t as [a ts IH] using tree_ind'. intros [b us] H. inversion H as [? ? ? ? Hab Hts]; subst.
  constructor; [by apply HR|]. clear H. revert us Hts. induction IH; intros us Hts; inversion Hts; subst; constructor; auto.
Qed.
Lemma tree_rel_trans (R : A -> A -> Prop) : (forall a b c, R a b -> R b c -> R a c) -> forall t u v : tree A, tree_rel R t u -> tree_rel R u v -> tree_rel R t v.
Proof.
  intros HR t. induction t as [a ts IH] using tree_ind'. intros [b us] [c vs] H H'.
  inversion H as [? ? ? ? Hab Hts]; inversion H' as [? ? ? ? Hbc Hus]; subst.
  constructor; [by eapply HR|]. clear H H'. revert us vs Hts Hus. induction IH as [|t ts Ht IH IHl]; intros us vs Hts Hus; inversion Hts; subst; inversion Hus; subst; constructor; eauto.
Qed.
Lemma tree_rel_eq (t u : tree A) : tree_rel eq t u <-> t = u.
Proof.
  split; [|intros ->; by apply tree_rel_refl]. revert u. induction t as [a ts IH] using tree_ind'. intros [b us] H.
  inversion H as [? ? ? ? Hab Hts]; subst. f_equal. clear H. revert us Hts.
  induction IH; intros us Hts; inversion Hts; subst; f_equal; auto.
Qed.
Lemma tree_rel_shape (R : A -> A -> Prop) (t u : tree A) : tree_rel R t u -> same_shape t u.
Proof.
  revert u. induction t as [a ts IH] using tree_ind'. intros [b us] H. inversion H as [? ? ? ? Hab Hts]; subst. constructor.
  clear H. revert us Hts. induction IH; intros us Hts; inversion Hts; subst; constructor; auto.
Qed.

(** ** total orders *)
Definition law {X : Type} (cmp : X -> X -> comparison) (x : X) : Prop :=
  cmp x x = Eq /\ (forall y, cmp y x = CompOpp (cmp x y)) /\
  (forall y z o, cmp x y = o -> cmp y z = o -> cmp x z = o) /\
  (forall y z, cmp x y = Eq -> cmp x z = cmp y z) /\
  (forall y z, cmp y z = Eq -> cmp x z = cmp x y).
Lemma law_total {X : Type} (cmp : X -> X -> comparison) : (forall x, law cmp x) <-> total_order cmp.
Proof.
  split.
  - intros H. split.
    + intros x. apply H.
    + intros x y. apply H.
    + intros x. apply (H x).
    + intros x. apply (H x).
  - intros [Hr Hs Ht Hl] x. split_and!; [done..|apply Ht|apply Hl|].
    intros y z E. rewrite (Hs z x), (Hs y x). f_equal. symmetry. by apply Hl.
Qed.
Lemma law_lex {X : Type} (cmp : X -> X -> comparison) (l : list X) : Forall (law cmp) l -> law (lex cmp) l.
Proof.
  intros H. induction H as [|x l Hx H IH].
  - split_and!; try done.
    + by intros [|].
    + by intros [|] [|] [].
    + by intros [|] [|].
    + by intros [|] [|].
  - destruct Hx as (H1 & H2 & H3 & H4 & H5), IH as (I1 & I2 & I3 & I4 & I5). split_and!.
    + simpl. by rewrite H1.
    + intros [|y l']; [done|]. simpl. rewrite H2. destruct (cmp x y); simpl; [apply I2|done|done].
    + intros [|y l'] [|z l''] o; simpl; try (by intros <-).
      destruct (cmp x y) eqn:E1; intros Ho; destruct (cmp y z) eqn:E2; intros Ho'; subst; try done.
      * rewrite (H3 _ _ _ E1 E2). by eapply I3.
      * rewrite (H4 _ _ E1), E2. done.
      * rewrite (H4 _ _ E1), E2. done.
      * rewrite (H5 _ _ E2), E1. done.
      * by rewrite (H3 _ _ _ E1 E2).
      * rewrite (H5 _ _ E2), E1. done.
      * by rewrite (H3 _ _ _ E1 E2).
    + intros [|y l'] [|z l'']; simpl; try done. destruct (cmp x y) eqn:E1; [|done..]. intros E. rewrite (H4 _ _ E1).
      destruct (cmp y z); [|done..]. by apply I4.
    + intros [|y l'] [|z l'']; simpl; try done. destruct (cmp y z) eqn:E1; [|done..]. intros E. rewrite (H5 _ _ E1).
      destruct (cmp x y); [|done..]. by apply I5.
Qed.
Lemma law_tree (cmp : A -> A -> comparison) : (forall a, law cmp a) -> forall t : tree A, law (tree_cmp cmp) t.
Proof.
  intros HA t. induction t as [a ts IH] using tree_ind'. apply law_lex in IH as (I1 & I2 & I3 & I4 & I5).
  destruct (HA a) as (H1 & H2 & H3 & H4 & H5). split_and!.
  - cbn [tree_cmp]. by rewrite H1.
  - intros [b us]. cbn [tree_cmp]. rewrite H2. destruct (cmp a b); simpl; [apply I2|done|done].
  - intros [b us] [c vs] o. cbn [tree_cmp]. destruct (cmp a b) eqn:E1; intros Ho; destruct (cmp b c) eqn:E2; intros Ho'; subst; try done.
    + rewrite (H3 _ _ _ E1 E2). by eapply I3.
    + rewrite (H4 _ _ E1), E2. done.
    + rewrite (H4 _ _ E1), E2. done.
    + rewrite (H5 _ _ E2), E1. done.
    + by rewrite (H3 _ _ _ E1 E2).
    + rewrite (H5 _ _ E2), E1. done.
    + by rewrite (H3 _ _ _ E1 E2).
  - intros [b us] [c vs]. cbn [tree_cmp]. destruct (cmp a b) eqn:E1; [|done..]. intros E. rewrite (H4 _ _ E1).
    destruct (cmp b c); [|done..]. by apply I4.
  - intros [b us] [c vs]. cbn [tree_cmp]. destruct (cmp b c) eqn:E1; [|done..]. intros E. rewrite (H5 _ _ E1).
    destruct (cmp a b); [|done..]. by apply I5.
Qed.
Lemma total_tree (cmp : A -> A -> comparison) : total_order cmp -> total_order (tree_cmp cmp).
Proof. intros H. apply law_total. intros t. apply law_tree. by apply law_total. Qed.
Lemma total_forest (cmp : A -> A -> comparison) : total_order cmp -> total_order (lex (tree_cmp cmp)).
Proof. intros H. apply law_total. intros l. apply law_lex, Forall_forall. intros t _. apply law_tree. by apply law_total. Qed.

(** [cmp] is [Eq] exactly on structurally equal trees *)
Lemma lex_eq {X : Type} (cmp : X -> X -> comparison) (R : X -> X -> Prop) (l : list X) : Forall (fun x => forall y, cmp x y = Eq <-> R x y) l ->
  forall l', lex cmp l l' = Eq <-> Forall2 R l l'.
Proof.
  intros H. induction H as [|x l Hx H IH]; intros [|y l']; simpl.
  - split; [constructor|done].
  - split; [done|intros H'; inversion H'].
  - split; [done|intros H'; inversion H'].
  - specialize (Hx y). destruct (cmp x y).
    + rewrite IH. split; [constructor; [by apply Hx|done]|intros H'; by inversion H'].
    + split; [done|]. intros H'. inversion H'; subst. by apply Hx.
    + split; [done|]. intros H'. inversion H'; subst. by apply Hx.
Qed.
Lemma tree_cmp_eq (cmp : A -> A -> comparison) (R : A -> A -> Prop) : (forall a b, cmp a b = Eq <-> R a b) ->
  forall t u : tree A, tree_cmp cmp t u = Eq <-> tree_rel R t u.
Proof.
  intros HA t. induction t as [a ts IH] using tree_ind'. intros [b us]. cbn [tree_cmp]. specialize (HA a b).
  pose proof (lex_eq _ _ _ IH us) as HL. destruct (cmp a b).
  - rewrite HL. split; [constructor; [by apply HA|done]|intros H'; by inversion H'].
  - split; [done|]. intros H'. inversion H'; subst. by apply HA.
  - split; [done|]. intros H'. inversion H'; subst. by apply HA.
Qed.
Lemma plex_eq {X : Type} (cmp : X -> X -> option comparison) (R : X -> X -> Prop) (l : list X) : Forall (fun x => forall y, cmp x y = Some Eq <-> R x y) l ->
  forall l', plex cmp l l' = Some Eq <-> Forall2 R l l'.
Proof.
  intros H. induction H as [|x l Hx H IH]; intros [|y l']; simpl.
  - split; [constructor|done].
  - split; [done|intros H'; inversion H'].
  - split; [done|intros H'; inversion H'].
  - specialize (Hx y). destruct (cmp x y) as [[]|].
    + rewrite IH. split; [constructor; [by apply Hx|done]|intros H'; by inversion H'].
    + split; [done|]. intros H'. inversion H'; subst. by apply Hx.
    + split; [done|]. intros H'. inversion H'; subst. by apply Hx.
    + split; [done|]. intros H'. inversion H'; subst. by apply Hx.
Qed.
Lemma tree_pcmp_eq (cmp : A -> A -> option comparison) (R : A -> A -> Prop) : (forall a b, cmp a b = Some Eq <-> R a b) ->
  forall t u : tree A, tree_pcmp cmp t u = Some Eq <-> tree_rel R t u.
Proof.
  intros HA t. induction t as [a ts IH] using tree_ind'. intros [b us]. cbn [tree_pcmp]. specialize (HA a b).
  pose proof (plex_eq _ _ _ IH us) as HL. destruct (cmp a b) as [[]|].
  - rewrite HL. split; [constructor; [by apply HA|done]|intros H'; by inversion H'].
  - split; [done|]. intros H'. inversion H'; subst. by apply HA.
  - split; [done|]. intros H'. inversion H'; subst. by apply HA.
  - split; [done|]. intros H'. inversion H'; subst. by apply HA.
Qed.
(** duality of the partial order, without totality *)
Lemma plex_dual {X : Type} (cmp : X -> X -> option comparison) (l : list X) : Forall (fun x => forall y, cmp y x = CompOpp <$> cmp x y) l ->
  forall l', plex cmp l' l = CompOpp <$> plex cmp l l'.
Proof.
  intros H. induction H as [|x l Hx H IH]; intros [|y l']; [done..|]. simpl. rewrite Hx. destruct (cmp x y) as [[]|]; simpl; auto.
Qed.
Lemma tree_pcmp_dual (cmp : A -> A -> option comparison) : (forall a b, cmp b a = CompOpp <$> cmp a b) ->
  forall t u : tree A, tree_pcmp cmp u t = CompOpp <$> tree_pcmp cmp t u.
Proof.
  intros HA t. induction t as [a ts IH] using tree_ind'. intros [b us]. cbn [tree_pcmp]. rewrite HA.
  destruct (cmp a b) as [[]|]; simpl; try done. by apply plex_dual.
Qed.
(** [partial_cmp] agrees with [cmp] if it does on the data *)
Lemma plex_total {X : Type} (cmp : X -> X -> comparison) (pc : X -> X -> option comparison) (l : list X) : Forall (fun x => forall y, pc x y = Some (cmp x y)) l ->
  forall l', plex pc l l' = Some (lex cmp l l').
Proof.
  intros H. induction H as [|x l Hx H IH]; intros [|y l']; [done..|]. simpl. rewrite Hx. destruct (cmp x y); auto.
Qed.
Lemma tree_pcmp_total (cmp : A -> A -> comparison) (pc : A -> A -> option comparison) : (forall a b, pc a b = Some (cmp a b)) ->
  forall t u : tree A, tree_pcmp pc t u = Some (tree_cmp cmp t u).
Proof.
  intros HA t. induction t as [a ts IH] using tree_ind'. intros [b us]. cbn [tree_pcmp tree_cmp]. rewrite HA.
  destruct (cmp a b); try done. by apply plex_total.
Qed.

(** ** hashing *)
Lemma hash_rel {B : Type} (h : A -> list B) (R : A -> A -> Prop) : (forall a b, R a b -> h a = h b) ->
  forall t u : tree A, tree_rel R t u -> flat_map h (preorder t) = flat_map h (preorder u).
Proof.
  intros HA t. induction t as [a ts IH] using tree_ind'. intros [b us] H. inversion H as [? ? ? ? Hab Hts]; subst.
  cbn [preorder flat_map]. f_equal; [by apply HA|]. clear H. revert us Hts.
  induction IH as [|t ts Ht IH IHl]; intros us Hts; inversion Hts; subst; [done|]. cbn [flat_map]. rewrite !flat_map_app. f_equal; auto.
Qed.

(** ** printing *)
Local Open Scope string_scope.
Lemma chars_app (v w : string) : chars (v ++ w) = (chars v ++ chars w)%list.
Proof. induction v as [|c v IH]; [done|]. simpl. by f_equal. Qed.
Lemma chars_inj (v w : string) : chars v = chars w -> v = w.
Proof. revert w. induction v as [|c v IH]; intros [|d w]; simpl; try done. intros [= -> H]. f_equal. auto. Qed.

Definition wchar (c : ascii) : Prop := c <> " "%char /\ c <> "("%char /\ c <> ")"%char.
Definition stops (l : list ascii) : Prop := match l with [] => True | c :: _ => ~ wchar c end.
Lemma word_split (u v r r' : list ascii) : (forall c, c ∈ u -> wchar c) -> (forall c, c ∈ v -> wchar c) -> stops r -> stops r' ->
  (u ++ r = v ++ r')%list -> u = v /\ r = r'.
Proof.
  revert v. induction u as [|c u IH]; intros [|d v] Hu Hv Hr Hr' H; simpl in *; try done.
  - subst r. simpl in Hr. exfalso. apply Hr, Hv. left.
  - subst r'. simpl in Hr'. exfalso. apply Hr', Hu. left.
  - injection H as -> H. destruct (IH v) as [-> ->]; try done.
    + intros c Hc. apply Hu. by right.
    + intros c Hc. apply Hv. by right.
Qed.
(** what may follow a printed tree *)
Definition follows (l : list ascii) : Prop := match l with [] => True | c :: _ => c = " "%char end.
Lemma follows_stops l : follows l -> stops l.
Proof. destruct l; simpl; [done|]. intros -> []. congruence. Qed.

Section show.
Context (show : A -> string) (Hinj : forall a b, show a = show b -> a = b) (Hword : forall a, word (show a)).
Local Notation fold ts := (fold_right (fun k w => display show k ++ " " ++ w) "" ts).
Lemma display_chars (a : A) (ts : list (tree A)) :
  chars (display show (Tr a ts)) = (chars (show a) ++ match ts with [] => [] | _ => "("%char :: " "%char :: chars (fold ts) ++ [")"%char] end)%list.
Proof.
  destruct ts as [|t ts]; [simpl; by rewrite app_nil_r|]. change (display show (Tr a (t :: ts))) with (show a ++ "( " ++ fold (t :: ts) ++ ")").
  generalize (fold (t :: ts)). intros w. rewrite !chars_app. done.
Qed.
Lemma display_head (t : tree A) : exists c l, chars (display show t) = c :: l /\ wchar c.
Proof.
  destruct t as [a ts]. rewrite display_chars. destruct (Hword a) as [Hne Hw]. destruct (show a) as [|c w]; [done|].
  simpl. eexists _, _. split; [done|]. apply Hw. left.
Qed.
Lemma fold_chars (k : tree A) (ts : list (tree A)) : chars (fold (k :: ts)) = (chars (display show k) ++ " "%char :: chars (fold ts))%list.
Proof. cbn [fold_right]. by rewrite chars_app. Qed.

Lemma display_split (t : tree A) : forall (u : tree A) r r', follows r -> follows r' ->
  (chars (display show t) ++ r = chars (display show u) ++ r')%list -> t = u /\ r = r'.
Proof.
  induction t as [a ts IH] using tree_ind'. intros [b us] r r' Hr Hr' H. rewrite !display_chars in H. rewrite <- !app_assoc in H.
  apply word_split in H as [Hab H]; [|by apply Hword|by apply Hword|..].
  2: { destruct ts; [by apply follows_stops|]. simpl. intros [? [? ?]]. congruence. }
  2: { destruct us; [by apply follows_stops|]. simpl. intros [? [? ?]]. congruence. }
  apply chars_inj, Hinj in Hab as ->.
  assert (Hk : forall us : list (tree A), forall r r', (chars (fold ts) ++ ")"%char :: r = chars (fold us) ++ ")"%char :: r')%list -> ts = us /\ r = r').
  { clear us H Hr Hr' r r'. induction IH as [|t ts Ht IH IHl]; intros [|u us] r r' H.
    - simpl in H. by injection H as ->.
    - rewrite fold_chars in H. destruct (display_head u) as (c & l & Hc & Hwc). rewrite Hc in H. simpl in H. injection H as <- _. exfalso. by apply Hwc.
    - rewrite fold_chars in H. destruct (display_head t) as (c & l & Hc & Hwc). rewrite Hc in H. simpl in H. injection H as -> _. exfalso. by apply Hwc.
    - rewrite !fold_chars in H. rewrite <- !app_assoc in H. apply Ht in H as [-> H]; [|done|done].
      simpl in H. injection H as H. apply IHl in H as [-> ->]. done. }
  destruct ts as [|t ts], us as [|u us]; simpl in H.
  - by subst.
  - subst r. simpl in Hr. congruence.
  - subst r'. simpl in Hr'. congruence.
  - injection H as H. rewrite <- !app_assoc in H. apply (Hk (u :: us)) in H as [-> ->]. done.
Qed.
Lemma display_inj (t u : tree A) : display show t = display show u -> t = u.
Proof. intros H. apply (display_split t u [] []); [done..|]. by rewrite H. Qed.
Lemma fold_split (ts us : list (tree A)) : (chars (fold ts) ++ [")"%char] = chars (fold us) ++ [")"%char])%list -> ts = us.
Proof.
  revert us. induction ts as [|t ts IH]; intros [|u us] H; [done|..].
  - rewrite fold_chars in H. destruct (display_head u) as (c & l & Hc & Hwc). rewrite Hc in H. simpl in H. injection H as <- _. exfalso. by apply Hwc.
  - rewrite fold_chars in H. destruct (display_head t) as (c & l & Hc & Hwc). rewrite Hc in H. simpl in H. injection H as -> _. exfalso. by apply Hwc.
  - rewrite !fold_chars in H. rewrite <- !app_assoc in H. apply display_split in H as [-> H]; [|done|done].
    simpl in H. injection H as H. f_equal. auto.
Qed.
Lemma display_f_chars (t : tree A) (ts : list (tree A)) :
  chars (display_f show (t :: ts)) = ("("%char :: " "%char :: chars (fold (t :: ts)) ++ [")"%char])%list.
Proof.
  change (display_f show (t :: ts)) with ("( " ++ fold (t :: ts) ++ ")").
  generalize (fold (t :: ts)). intros w. rewrite !chars_app. done.
Qed.
Lemma display_f_inj (ts us : list (tree A)) : display_f show ts = display_f show us -> ts = us.
Proof.
  intros H. apply (f_equal chars) in H. destruct ts as [|t ts], us as [|u us]; [done|..].
  - rewrite display_f_chars in H. by injection H.
  - rewrite display_f_chars in H. by injection H.
  - rewrite !display_f_chars in H. injection H as H. by apply (fold_split (t :: ts) (u :: us)).
Qed.
End show.
End laws.
