(** NotationProofs.v — expressions built with the operators mean what NotationSpec.v says. *)
From stdpp Require Import base gmap list.
From Verif Require Import Spec ClientSpec Machine NodeModel BfsModel ClientModel ClientRead NotationSpec NotationModel.

Section nproofs.
Context {A : Type}.
Implicit Types (c : cst A) (cenv : gmap nat handle) (env : gmap nat (item A)) (s : mem A) (L : list A) (x y z l r : nat) (p q : ptr) (hd : handle).

Definition G c env L : Prop := reachable c /\ contents c env /\ m_log (c_mem c) = L.

Lemma G_eq cenv cenv' s env env' L : G (CSt cenv s) env L -> cenv = cenv' -> env = env' -> G (CSt cenv' s) env' L.
Proof. by intros ? <- <-. Qed.

Lemma G_none c env L x : G c env L -> env !! x = None -> c_env c !! x = None.
Proof.
  intros (_ & Hc & _) H. specialize (Hc x). destruct (c_env c !! x); [|done]. destruct Hc as (? & _ & ?). congruence.
Qed.
Lemma G_some c env L x it : G c env L -> env !! x = Some it ->
  exists p, c_env c !! x = Some (match it with ITree _ => HT p | IForest _ => HF p end).
Proof.
  intros (_ & Hc & _) H. specialize (Hc x). destruct (c_env c !! x) as [hd|]; [|congruence]. destruct Hc as (it' & Hr & H').
  assert (it' = it) as -> by congruence. exists (addr hd). f_equal. unfold read_item, bind, fuel, gets in Hr. destruct hd as [p|p], it; try done.
  - by destruct (read_tree _ _ _).
  - destruct (children _ _); [|done]. by destruct (read_trees _ _ _).
Qed.

Ltac ops o H := let HG := fresh in intros HG;
  pose proof (step_from _ _ o (proj1 HG) (proj1 (proj2 HG))) as H; cbn [sstep s_env s_log] in H.

Lemma G_tree c env L x a : G c env L -> env !! x = None ->
  exists p s', tree_new a (c_mem c) = Ok p s' /\ G (CSt (<[x := HT p]> (c_env c)) s') (<[x := ITree (Tr a [])]> env) L.
Proof.
  intros HG Hx. pose proof (step_from c env (ONewTree x a) (proj1 HG) (proj1 (proj2 HG))) as H. cbn [sstep s_env s_log] in H. rewrite Hx in H.
  destruct H as (c' & Hs & Hc & Hl & Hr). unfold step, cstep in Hs. rewrite (G_none _ _ _ _ HG Hx) in Hs. unfold bind in Hs.
  destruct (tree_new a (c_mem c)) as [p s'|]; [|done]. injection Hs as <-. eexists _, _. split; [done|]. split_and!; [done|done|]. etrans; [exact Hl|]. apply HG.
Qed.
Lemma G_forest c env L x : G c env L -> env !! x = None ->
  exists p s', forest_new (c_mem c) = Ok p s' /\ G (CSt (<[x := HF p]> (c_env c)) s') (<[x := IForest []]> env) L.
Proof.
  intros HG Hx. pose proof (step_from c env (ONewForest x) (proj1 HG) (proj1 (proj2 HG))) as H. cbn [sstep s_env s_log] in H. rewrite Hx in H.
  destruct H as (c' & Hs & Hc & Hl & Hr). unfold step, cstep in Hs. rewrite (G_none _ _ _ _ HG Hx) in Hs. unfold bind in Hs.
  destruct (forest_new (c_mem c)) as [p s'|]; [|done]. injection Hs as <-. eexists _, _. split; [done|]. split_and!; [done|done|]. etrans; [exact Hl|]. apply HG.
Qed.
Lemma G_clone c env L x y t p : G c env L -> env !! y = Some (ITree t) -> c_env c !! y = Some (HT p) -> env !! x = None ->
  exists q s', deep_clone p (c_mem c) = Ok q s' /\ G (CSt (<[x := HT q]> (c_env c)) s') (<[x := ITree t]> env) L.
Proof.
  intros HG Hy Hp Hx. pose proof (step_from c env (OClone y [] x) (proj1 HG) (proj1 (proj2 HG))) as H. cbn [sstep s_env s_log] in H.
  rewrite Hx, Hy in H. cbn in H.
  destruct H as (c' & Hs & Hc & Hl & Hr). unfold step, cstep, with_node in Hs. rewrite (G_none _ _ _ _ HG Hx), Hp in Hs. unfold bind in Hs.
  cbn [resolve ret addr is_forest_root] in Hs.
  destruct (deep_clone p (c_mem c)) as [q s'|]; [|done]. injection Hs as <-. eexists _, _. split; [done|]. split_and!; [done|done|]. etrans; [exact Hl|]. apply HG.
Qed.
Lemma G_clone_f c env L x y ts p : G c env L -> env !! y = Some (IForest ts) -> c_env c !! y = Some (HF p) -> env !! x = None ->
  exists q s', deep_clone_forest p (c_mem c) = Ok q s' /\ G (CSt (<[x := HF q]> (c_env c)) s') (<[x := IForest ts]> env) L.
Proof.
  intros HG Hy Hp Hx. pose proof (step_from c env (OCloneForest y [] x) (proj1 HG) (proj1 (proj2 HG))) as H. cbn [sstep s_env s_log] in H.
  rewrite Hx, Hy in H. cbn in H.
  destruct H as (c' & Hs & Hc & Hl & Hr). unfold step, cstep, with_node in Hs. rewrite (G_none _ _ _ _ HG Hx), Hp in Hs. unfold bind in Hs.
  cbn [resolve ret addr is_forest_root] in Hs.
  destruct (deep_clone_forest p (c_mem c)) as [q s'|]; [|done]. injection Hs as <-. eexists _, _. split; [done|]. split_and!; [done|done|]. etrans; [exact Hl|]. apply HG.
Qed.
(** the trees of an item followed by [us] *)
Definition extend_back (it : item A) (us : list (tree A)) : item A :=
  match it with ITree (Tr a ts) => ITree (Tr a (ts ++ us)) | IForest ts => IForest (ts ++ us) end.

Lemma G_push c env L x y it t p q : G c env L -> env !! x = Some it -> addr <$> c_env c !! x = Some p ->
  env !! y = Some (ITree t) -> c_env c !! y = Some (HT q) -> x <> y ->
  exists s', push_back p q (c_mem c) = Ok tt s' /\ G (CSt (delete y (c_env c)) s') (<[x := extend_back it [t]]> (delete y env)) L.
Proof.
  intros HG Hx Hp Hy Hq Hne. pose proof (step_from c env (OPush Back x [] y) (proj1 HG) (proj1 (proj2 HG))) as H. cbn [sstep s_env s_log] in H.
  rewrite Hy in H. rewrite lookup_delete_ne, Hx in H by done.
  assert (kids_at it [] = Some (match it with ITree t => kids t | IForest ts => ts end)) as Hk by by destruct it as [[]|]. rewrite Hk in H.
  destruct H as (c' & Hs & Hc & Hl & Hr). unfold step, cstep in Hs. rewrite Hq in Hs. rewrite lookup_delete_ne in Hs by done.
  destruct (c_env c !! x) as [hd|]; [|done]. injection Hp as Hp. cbn [resolve] in Hs. unfold bind, ret in Hs. rewrite Hp in Hs.
  destruct (push_back p q (c_mem c)) as [[] s'|]; [|done]. injection Hs as <-. eexists _. split; [done|]. split_and!; [done| |etrans; [exact Hl|]; apply HG].
  cbn [s_env put_kids] in Hc. unfold put_kids in Hc. by destruct it as [[]|].
Qed.
Lemma G_append c env L x y it us p q : G c env L -> env !! x = Some it -> addr <$> c_env c !! x = Some p ->
  env !! y = Some (IForest us) -> c_env c !! y = Some (HF q) -> x <> y ->
  exists s', append p q (c_mem c) = Ok tt s' /\ G (CSt (delete y (c_env c)) s') (<[x := extend_back it us]> (delete y env)) L.
Proof.
  intros HG Hx Hp Hy Hq Hne. pose proof (step_from c env (OConcat Back x [] y) (proj1 HG) (proj1 (proj2 HG))) as H. cbn [sstep s_env s_log] in H.
  rewrite Hy in H. rewrite lookup_delete_ne, Hx in H by done.
  assert (kids_at it [] = Some (match it with ITree t => kids t | IForest ts => ts end)) as Hk by by destruct it as [[]|]. rewrite Hk in H.
  destruct H as (c' & Hs & Hc & Hl & Hr). unfold step, cstep in Hs. rewrite Hq in Hs. rewrite lookup_delete_ne in Hs by done.
  destruct (c_env c !! x) as [hd|]; [|done]. injection Hp as Hp. cbn [resolve] in Hs. unfold bind, ret in Hs. rewrite Hp in Hs.
  destruct (append p q (c_mem c)) as [[] s'|]; [|done]. injection Hs as <-. eexists _. split; [done|]. split_and!; [done| |etrans; [exact Hl|]; apply HG].
  cbn [s_env] in Hc. unfold put_kids in Hc. by destruct it as [[]|].
Qed.
Lemma G_prepend c env L x y ts us p q : G c env L -> env !! x = Some (IForest ts) -> addr <$> c_env c !! x = Some p ->
  env !! y = Some (IForest us) -> c_env c !! y = Some (HF q) -> x <> y ->
  exists s', prepend p q (c_mem c) = Ok tt s' /\ G (CSt (delete y (c_env c)) s') (<[x := IForest (us ++ ts)]> (delete y env)) L.
Proof.
  intros HG Hx Hp Hy Hq Hne. pose proof (step_from c env (OConcat Front x [] y) (proj1 HG) (proj1 (proj2 HG))) as H. cbn [sstep s_env s_log] in H.
  rewrite Hy in H. rewrite lookup_delete_ne, Hx in H by done. cbn [kids_at] in H.
  destruct H as (c' & Hs & Hc & Hl & Hr). unfold step, cstep in Hs. rewrite Hq in Hs. rewrite lookup_delete_ne in Hs by done.
  destruct (c_env c !! x) as [hd|]; [|done]. injection Hp as Hp. cbn [resolve] in Hs. unfold bind, ret in Hs. rewrite Hp in Hs.
  destruct (prepend p q (c_mem c)) as [[] s'|]; [|done]. injection Hs as <-. eexists _. split; [done|]. split_and!; [done|done|etrans; [exact Hl|]; apply HG].
Qed.
Lemma G_move c env L x y it hd : G c env L -> env !! y = Some it -> c_env c !! y = Some hd -> env !! x = None ->
  G (CSt (<[x := hd]> (delete y (c_env c))) (c_mem c)) (<[x := it]> (delete y env)) L.
Proof.
  intros HG Hy Hp Hx. pose proof (step_from c env (OMove y x) (proj1 HG) (proj1 (proj2 HG))) as H. cbn [sstep s_env s_log] in H.
  rewrite Hx, Hy in H. destruct H as (c' & Hs & Hc & Hl & Hr). unfold step, cstep in Hs. rewrite Hp, (G_none _ _ _ _ HG Hx) in Hs. injection Hs as <-.
  split_and!; [done|done|etrans; [exact Hl|]; apply HG].
Qed.

(** ** operators on named operands *)
Definition del {X} (o : bool * nat) (m : gmap nat X) : gmap nat X := if o.1 then m else delete o.2 m.

Definition acq_t (b : bool) p : M A ptr := if b then deep_clone p else ret p.
Definition acq_f (b : bool) p : M A ptr := if b then deep_clone_forest p else ret p.

Lemma del_ne {X} (o : bool * nat) (m : gmap nat X) x : (o.1 = false -> o.2 <> x) -> del o m !! x = m !! x.
Proof. destruct o as [[] y]; intros H; [done|]. unfold del. simpl in *. rewrite lookup_delete_ne; [done|auto]. Qed.
Lemma del_none {X} (o : bool * nat) (m : gmap nat X) x : m !! x = None -> del o m !! x = None.
Proof. destruct o as [[] y]; intros H; [done|]. unfold del. simpl in *. by rewrite lookup_delete_None; right. Qed.

Lemma G_acq_t c env L z (b : bool) y t p : G c env L -> env !! y = Some (ITree t) -> c_env c !! y = Some (HT p) -> env !! z = None ->
  exists q s', acq_t b p (c_mem c) = Ok q s' /\ G (CSt (<[z := HT q]> (del (b, y) (c_env c))) s') (<[z := ITree t]> (del (b, y) env)) L.
Proof.
  intros HG Hy Hp Hz. destruct b; [by eapply G_clone|]. exists p, (c_mem c). split; [done|]. by apply G_move.
Qed.
Lemma G_acq_f c env L z (b : bool) y ts p : G c env L -> env !! y = Some (IForest ts) -> c_env c !! y = Some (HF p) -> env !! z = None ->
  exists q s', acq_f b p (c_mem c) = Ok q s' /\ G (CSt (<[z := HF q]> (del (b, y) (c_env c))) s') (<[z := IForest ts]> (del (b, y) env)) L.
Proof.
  intros HG Hy Hp Hz. destruct b; [by eapply G_clone_f|]. exists p, (c_mem c). split; [done|]. by apply G_move.
Qed.

(** the generic operators *)
Definition g_sub_tt (b b' : bool) t u : M A ptr :=
  let! f := n_fr in let! c := acq_t b t in push_back f c ;; let! d := acq_t b' u in push_back f d ;; ret f.
Definition g_sub_ft (b b' : bool) f u : M A ptr := let! c := acq_f b f in let! d := acq_t b' u in push_back c d ;; ret c.
Definition g_sub_ff (b b' : bool) f g : M A ptr := let! c := acq_f b f in let! d := acq_f b' g in append c d ;; ret c.
Definition g_div_tt (b b' : bool) t u : M A ptr := let! c := acq_t b t in let! d := acq_t b' u in push_back c d ;; ret c.
Definition g_div_tf (b b' : bool) t g : M A ptr := let! c := acq_t b t in let! d := acq_f b' g in append c d ;; ret c.

Definition post2 c env L (l r : bool * nat) (v : item A) x (m : M A handle) : Prop :=
  exists hd s', m (c_mem c) = Ok hd s' /\ G (CSt (<[x := hd]> (del r (del l (c_env c)))) s') (<[x := v]> (del r (del l env))) L.

Ltac meq := apply map_eq; let k := fresh "k" in intros k; unfold del; cbn [fst snd];
  repeat match goal with |- context [if ?b then _ else _] => destruct b end;
  repeat match goal with
  | |- context [<[?a := _]> _ !! ?a] => rewrite lookup_insert
  | |- context [delete ?a _ !! ?a] => rewrite lookup_delete
  | |- context [<[?a := _]> _ !! ?b] => first [rewrite (lookup_insert_ne _ a b) by congruence | destruct (decide (a = b)) as [->|]]
  | |- context [delete ?a _ !! ?b] => first [rewrite (lookup_delete_ne _ a b) by congruence | destruct (decide (a = b)) as [->|]]
  end; try done; try congruence.

Lemma fresh3 env (x l r : nat) : exists z, env !! z = None /\ z <> x /\ z <> l /\ z <> r.
Proof.
  pose proof (is_fresh (dom env ∪ {[x; l; r]})) as H. exists (fresh (dom env ∪ {[x; l; r]})).
  rewrite !not_elem_of_union, !not_elem_of_singleton, not_elem_of_dom in H. tauto.
Qed.


Ltac lks := cbn [c_env c_mem] in *; repeat first
  [ rewrite lookup_insert | rewrite lookup_insert_ne by congruence | rewrite lookup_delete_ne by congruence
  | rewrite del_ne by (cbn [fst snd]; first [congruence | solve [auto]]) ]; try done; try (by apply del_none);
  try match goal with H : ?m !! ?k = Some _ |- context [?m !! ?k] => by rewrite H end.
Ltac prep HG Hz Hx := pose proof (G_none _ _ _ _ HG Hz) as Hcz; pose proof (G_none _ _ _ _ HG Hx) as Hcx.

Lemma p_div_tt c env L (b b' : bool) l r i j p q x : G c env L ->
  env !! l = Some (ITree i) -> env !! r = Some (ITree j) -> c_env c !! l = Some (HT p) -> c_env c !! r = Some (HT q) ->
  (b = false -> l <> r) -> env !! x = None ->
  post2 c env L (b, l) (b', r) (extend_back (ITree i) [j]) x (let! o := g_div_tt b b' p q in ret (HT o)).
Proof.
  intros HG Hl Hr Hp Hq Hne Hx. unfold post2, g_div_tt. destruct (fresh3 env x l r) as (z & Hz & Hzx & Hzl & Hzr). prep HG Hz Hx.
  assert (x <> r /\ x <> l) as [? ?] by (split; congruence).
  destruct (G_acq_t _ _ _ x b l _ _ HG Hl Hp Hx) as (c1 & s1 & E1 & G1).
  destruct (G_acq_t _ _ _ z b' r j q G1) as (c2 & s2 & E2 & G2); [lks..|].
  destruct (G_push _ _ _ x z (ITree i) j c1 c2 G2) as (s3 & E3 & G3); [lks..|].
  exists (HT c1), s3. split; [lks; by unfold bind; rewrite E1, E2, E3|]. eapply G_eq; [exact G3|cbn [c_env]; meq|meq].
Qed.

Lemma p_div_tf c env L (b b' : bool) l r i j p q x : G c env L ->
  env !! l = Some (ITree i) -> env !! r = Some (IForest j) -> c_env c !! l = Some (HT p) -> c_env c !! r = Some (HF q) ->
  (b = false -> l <> r) -> env !! x = None ->
  post2 c env L (b, l) (b', r) (extend_back (ITree i) j) x (let! o := g_div_tf b b' p q in ret (HT o)).
Proof.
  intros HG Hl Hr Hp Hq Hne Hx. unfold post2, g_div_tf. destruct (fresh3 env x l r) as (z & Hz & Hzx & Hzl & Hzr). prep HG Hz Hx.
  assert (x <> r /\ x <> l) as [? ?] by (split; congruence).
  destruct (G_acq_t _ _ _ x b l _ _ HG Hl Hp Hx) as (c1 & s1 & E1 & G1).
  destruct (G_acq_f _ _ _ z b' r j q G1) as (c2 & s2 & E2 & G2); [lks..|].
  destruct (G_append _ _ _ x z (ITree i) j c1 c2 G2) as (s3 & E3 & G3); [lks..|].
  exists (HT c1), s3. split; [lks; by unfold bind; rewrite E1, E2, E3|]. eapply G_eq; [exact G3|cbn [c_env]; meq|meq].
Qed.

Lemma p_sub_ft c env L (b b' : bool) l r i j p q x : G c env L ->
  env !! l = Some (IForest i) -> env !! r = Some (ITree j) -> c_env c !! l = Some (HF p) -> c_env c !! r = Some (HT q) ->
  (b = false -> l <> r) -> env !! x = None ->
  post2 c env L (b, l) (b', r) (extend_back (IForest i) [j]) x (let! o := g_sub_ft b b' p q in ret (HF o)).
Proof.
  intros HG Hl Hr Hp Hq Hne Hx. unfold post2, g_sub_ft. destruct (fresh3 env x l r) as (z & Hz & Hzx & Hzl & Hzr). prep HG Hz Hx.
  assert (x <> r /\ x <> l) as [? ?] by (split; congruence).
  destruct (G_acq_f _ _ _ x b l _ _ HG Hl Hp Hx) as (c1 & s1 & E1 & G1).
  destruct (G_acq_t _ _ _ z b' r j q G1) as (c2 & s2 & E2 & G2); [lks..|].
  destruct (G_push _ _ _ x z (IForest i) j c1 c2 G2) as (s3 & E3 & G3); [lks..|].
  exists (HF c1), s3. split; [lks; by unfold bind; rewrite E1, E2, E3|]. eapply G_eq; [exact G3|cbn [c_env]; meq|meq].
Qed.

Lemma p_sub_ff c env L (b b' : bool) l r i j p q x : G c env L ->
  env !! l = Some (IForest i) -> env !! r = Some (IForest j) -> c_env c !! l = Some (HF p) -> c_env c !! r = Some (HF q) ->
  (b = false -> l <> r) -> env !! x = None ->
  post2 c env L (b, l) (b', r) (extend_back (IForest i) j) x (let! o := g_sub_ff b b' p q in ret (HF o)).
Proof.
  intros HG Hl Hr Hp Hq Hne Hx. unfold post2, g_sub_ff. destruct (fresh3 env x l r) as (z & Hz & Hzx & Hzl & Hzr). prep HG Hz Hx.
  assert (x <> r /\ x <> l) as [? ?] by (split; congruence).
  destruct (G_acq_f _ _ _ x b l _ _ HG Hl Hp Hx) as (c1 & s1 & E1 & G1).
  destruct (G_acq_f _ _ _ z b' r j q G1) as (c2 & s2 & E2 & G2); [lks..|].
  destruct (G_append _ _ _ x z (IForest i) j c1 c2 G2) as (s3 & E3 & G3); [lks..|].
  exists (HF c1), s3. split; [lks; by unfold bind; rewrite E1, E2, E3|]. eapply G_eq; [exact G3|cbn [c_env]; meq|meq].
Qed.

Lemma p_sub_rf_f c env L l r i j p q x : G c env L ->
  env !! l = Some (IForest i) -> env !! r = Some (IForest j) -> c_env c !! l = Some (HF p) -> c_env c !! r = Some (HF q) ->
  env !! x = None ->
  post2 c env L (true, l) (false, r) (IForest (i ++ j)) x (let! o := sub_rf_f p q in ret (HF o)).
Proof.
  intros HG Hl Hr Hp Hq Hx. unfold post2, sub_rf_f. destruct (fresh3 env x l r) as (z & Hz & Hzx & Hzl & Hzr). prep HG Hz Hx.
  assert (x <> r /\ x <> l) as [? ?] by (split; congruence).
  destruct (G_clone_f _ _ _ z l _ _ HG Hl Hp Hz) as (c1 & s1 & E1 & G1).
  destruct (G_prepend _ _ _ r z j i q c1 G1) as (s2 & E2 & G2); [lks..|].
  pose proof (G_move _ _ _ x r (IForest (i ++ j)) (HF q) G2 ltac:(lks) ltac:(lks) ltac:(lks)) as G3.
  exists (HF q), s2. split; [lks; by unfold bind; rewrite E1, E2|]. eapply G_eq; [exact G3|cbn [c_env]; meq|meq].
Qed.
Lemma p_sub_tt c env L (b b' : bool) l r i j p q x : G c env L ->
  env !! l = Some (ITree i) -> env !! r = Some (ITree j) -> c_env c !! l = Some (HT p) -> c_env c !! r = Some (HT q) ->
  (b = false -> l <> r) -> env !! x = None ->
  post2 c env L (b, l) (b', r) (IForest [i; j]) x (let! o := g_sub_tt b b' p q in ret (HF o)).
Proof.
  intros HG Hl Hr Hp Hq Hne Hx. unfold post2, g_sub_tt. destruct (fresh3 env x l r) as (z & Hz & Hzx & Hzl & Hzr). prep HG Hz Hx.
  assert (x <> r /\ x <> l) as [? ?] by (split; congruence).
  destruct (G_forest _ _ _ x HG Hx) as (f & s0 & E0 & G0).
  destruct (G_acq_t _ _ _ z b l i p G0) as (c1 & s1 & E1 & G1); [lks..|].
  destruct (G_push _ _ _ x z (IForest []) i f c1 G1) as (s2 & E2 & G2); [lks..|].
  destruct (G_acq_t _ _ _ z b' r j q G2) as (c2 & s3 & E3 & G3); [lks..|].
  { rewrite lookup_delete. done. }
  destruct (G_push _ _ _ x z (IForest [i]) j f c2 G3) as (s4 & E4 & G4); [lks..|].
  exists (HF f), s4. split; [lks; by unfold bind, n_fr; rewrite E0, E1, E2, E3, E4|]. eapply G_eq; [exact G4|cbn [c_env]; meq|meq].
Qed.

Definition post1 c env L (o : bool * nat) (v : item A) x (m : M A handle) : Prop :=
  exists hd s', m (c_mem c) = Ok hd s' /\ G (CSt (<[x := hd]> (del o (c_env c))) s') (<[x := v]> (del o env)) L.

Lemma p_neg c env L (b : bool) l i p x : G c env L ->
  env !! l = Some (ITree i) -> c_env c !! l = Some (HT p) -> env !! x = None ->
  post1 c env L (b, l) (IForest [i]) x (let! o := (let! f := n_fr in let! c := acq_t b p in push_back f c ;; ret f) in ret (HF o)).
Proof.
  intros HG Hl Hp Hx. unfold post1. destruct (fresh3 env x l l) as (z & Hz & Hzx & Hzl & Hzr). prep HG Hz Hx.
  assert (x <> l) as ? by congruence.
  destruct (G_forest _ _ _ x HG Hx) as (f & s0 & E0 & G0).
  destruct (G_acq_t _ _ _ z b l i p G0) as (c1 & s1 & E1 & G1); [lks..|].
  destruct (G_push _ _ _ x z (IForest []) i f c1 G1) as (s2 & E2 & G2); [lks..|].
  exists (HF f), s2. split; [lks; by unfold bind, n_fr; rewrite E0, E1, E2|]. eapply G_eq; [exact G2|cbn [c_env]; meq|meq].
Qed.
Lemma p_unit c env L (b : bool) l i p x : G c env L ->
  env !! l = Some (ITree i) -> c_env c !! l = Some (HT p) -> env !! x = None ->
  post1 c env L (b, l) (ITree i) x (let! o := acq_t b p in ret (HT o)).
Proof.
  intros HG Hl Hp Hx. destruct (G_acq_t _ _ _ x b l i p HG Hl Hp Hx) as (c1 & s1 & E1 & G1).
  exists (HT c1), s1. split; [lks; by unfold bind; rewrite E1|done].
Qed.

(** ** dispatch *)
Lemma do1_ok d f : (d = do_neg (A:=A) /\ f = neg_val (A:=A) \/ d = do_unit (A:=A) /\ f = unit_val (A:=A)) ->
  forall c env L (b : bool) l i v x, G c env L -> env !! l = Some i -> f i = Some v -> env !! x = None ->
  exists hl m, c_env c !! l = Some hl /\ d (b, hl) = Some m /\ post1 c env L (b, l) v x m.
Proof.
  intros Hd c env L b l i v x HG Hl Hf Hx. destruct (G_some _ _ _ _ _ HG Hl) as (p & Hp).
  destruct Hd as [[-> ->]|[-> ->]]; (destruct i as [t|ts]; [|done]); injection Hf as <-;
    (exists (HT p)); destruct b; eexists; (split; [exact Hp|]); (split; [reflexivity|]).
  - apply (p_neg c env L true l t p x HG Hl Hp Hx).
  - apply (p_neg c env L false l t p x HG Hl Hp Hx).
  - apply (p_unit c env L true l t p x HG Hl Hp Hx).
  - apply (p_unit c env L false l t p x HG Hl Hp Hx).
Qed.
Lemma do2_ok d f : (d = do_sub (A:=A) /\ f = sub_val (A:=A) \/ d = do_div (A:=A) /\ f = div_val (A:=A)) ->
  forall c env L (b b' : bool) l r i j v x, G c env L -> env !! l = Some i -> env !! r = Some j -> (b = false -> l <> r) ->
  f i j = Some v -> env !! x = None ->
  exists hl hr m, c_env c !! l = Some hl /\ c_env c !! r = Some hr /\ d (b, hl) (b', hr) = Some m /\ post2 c env L (b, l) (b', r) v x m.
Proof.
  intros Hd c env L b b' l r i j v x HG Hl Hr Hne Hf Hx. destruct (G_some _ _ _ _ _ HG Hl) as (p & Hp). destruct (G_some _ _ _ _ _ HG Hr) as (q & Hq).
  destruct Hd as [[-> ->]|[-> ->]].
  - destruct i as [t|ts], j as [u|us]; try done; injection Hf as <-;
      [pose proof (p_sub_tt c env L b b' l r _ _ _ _ x HG Hl Hr Hp Hq Hne Hx) as H
      |pose proof (p_sub_ft c env L b b' l r _ _ _ _ x HG Hl Hr Hp Hq Hne Hx) as H
      |pose proof (p_sub_ff c env L b b' l r _ _ _ _ x HG Hl Hr Hp Hq Hne Hx) as H]; destruct b, b';
      try (eexists _, _, _; split; [exact Hp|]; split; [exact Hq|]; split; [done|]; exact H).
    eexists _, _, _; split; [exact Hp|]; split; [exact Hq|]; split; [done|]. apply (p_sub_rf_f c env L l r _ _ _ _ x HG Hl Hr Hp Hq Hx).
  - destruct i as [[a ts]|ts]; [|done]. destruct j as [u|us]; injection Hf as <-;
      [pose proof (p_div_tt c env L b b' l r _ _ _ _ x HG Hl Hr Hp Hq Hne Hx) as H
      |pose proof (p_div_tf c env L b b' l r _ _ _ _ x HG Hl Hr Hp Hq Hne Hx) as H]; destruct b, b';
      (eexists _, _, _; split; [exact Hp|]; split; [exact Hq|]; split; [done|]; exact H).
Qed.

(** ** expressions *)
(** the variables an expression mentions *)
Fixpoint nnames (e : nexpr A) : list nat :=
  match e with
  | NTr _ | NFr => []
  | NVar x => [x]
  | NNeg o | NUnit o => onames o
  | NSub l r | NDiv l r => onames l ++ onames r
  end
with onames (o : nopnd A) : list nat := match o with NOwn e => nnames e | NRef x => [x] end.

Scheme nexpr_mind := Induction for nexpr Sort Prop with nopnd_mind := Induction for nopnd Sort Prop.
Combined Scheme nexpr_nopnd_ind from nexpr_mind, nopnd_mind.

Lemma worth_names o env w env1 : oval o env = Some (w, env1) -> match w with inl _ => True | inr y => y ∈ onames o end.
Proof.
  destruct o as [e|y]; simpl.
  - destruct (nval e env) as [[]|]; [|done]. by intros [= <- <-].
  - destruct (env !! y); [|done]. intros [= <- <-]. apply elem_of_list_here.
Qed.
Lemma oeval_names o cenv s w cenv1 s1 : oeval o cenv s = Ok (Some (w, cenv1)) s1 -> match w with inl _ => True | inr y => y ∈ onames o end.
Proof.
  destruct o as [e|y]; simpl; unfold bind, ret.
  - destruct (neval e cenv s) as [[[]|]|]; [|done..]. by intros [= <- <-].
  - destruct (cenv !! y); [|done]. intros [= <- <-]. apply elem_of_list_here.
Qed.

(** a variable which the expression does not mention plays no role *)
Lemma nval_frame z (i : item A) :
  (forall e env, z ∉ nnames e -> nval e (<[z := i]> env) = prod_map id (insert z i) <$> nval e env) /\
  (forall o env, z ∉ onames o -> oval o (<[z := i]> env) = prod_map id (insert z i) <$> oval o env).
Proof.
  assert (H1 : forall f w env, (match w with inl _ => True | inr y => z <> y end) -> val1 f w (<[z := i]> env) = prod_map id (insert z i) <$> val1 (A:=A) f w env).
  { intros f w env Hw. unfold val1. assert (worth w (<[z := i]> env) = worth w env) as -> by (destruct w; [done|]; simpl; by rewrite lookup_insert_ne).
    destruct (worth w env) as [j|]; [|done]. by destruct (f j). }
  assert (H2 : forall f w u env, (match w with inl _ => True | inr y => z <> y end) -> (match u with inl _ => True | inr y => z <> y end) ->
            val2 f w u (<[z := i]> env) = prod_map id (insert z i) <$> val2 (A:=A) f w u env).
  { intros f w u env Hw Hu. unfold val2. assert (worth w (<[z := i]> env) = worth w env) as -> by (destruct w; [done|]; simpl; by rewrite lookup_insert_ne).
    assert (worth u (<[z := i]> env) = worth u env) as -> by (destruct u; [done|]; simpl; by rewrite lookup_insert_ne).
    destruct (worth w env) as [j|], (worth u env) as [k|]; try done. by destruct (f j k). }
  apply (nexpr_nopnd_ind A (fun e => forall env, z ∉ nnames e -> nval e (<[z := i]> env) = prod_map id (insert z i) <$> nval e env)
    (fun o => forall env, z ∉ onames o -> oval o (<[z := i]> env) = prod_map id (insert z i) <$> oval o env)).
  - done.
  - done.
  - intros x env Hz. simpl in *. apply not_elem_of_cons in Hz as [Hz _]. rewrite lookup_insert_ne by done. destruct (env !! x) as [j|]; [|done].
    simpl. by rewrite delete_insert_ne.
  - intros o IH env Hz. simpl in *. rewrite IH by done. destruct (oval o env) as [[w env1]|] eqn:E; [|done]. simpl. apply H1.
    pose proof (worth_names _ _ _ _ E). destruct w; [done|]. intros ->. done.
  - intros l IHl r IHr env Hz. simpl in *. apply not_elem_of_app in Hz as [Hz1 Hz2]. rewrite IHl by done. destruct (oval l env) as [[w env1]|] eqn:E; [|done]. simpl.
    rewrite IHr by done. destruct (oval r env1) as [[u env2]|] eqn:E'; [|done]. simpl. apply H2.
    + pose proof (worth_names _ _ _ _ E). destruct w; [done|]. intros ->. done.
    + pose proof (worth_names _ _ _ _ E'). destruct u; [done|]. intros ->. done.
  - intros l IHl r IHr env Hz. simpl in *. apply not_elem_of_app in Hz as [Hz1 Hz2]. rewrite IHl by done. destruct (oval l env) as [[w env1]|] eqn:E; [|done]. simpl.
    rewrite IHr by done. destruct (oval r env1) as [[u env2]|] eqn:E'; [|done]. simpl. apply H2.
    + pose proof (worth_names _ _ _ _ E). destruct w; [done|]. intros ->. done.
    + pose proof (worth_names _ _ _ _ E'). destruct u; [done|]. intros ->. done.
  - intros o IH env Hz. simpl in *. rewrite IH by done. destruct (oval o env) as [[w env1]|] eqn:E; [|done]. simpl. apply H1.
    pose proof (worth_names _ _ _ _ E). destruct w; [done|]. intros ->. done.
  - intros e IH env Hz. simpl in *. rewrite IH by done. by destruct (nval e env) as [[]|].
  - intros x env Hz. simpl in *. apply not_elem_of_cons in Hz as [Hz _]. rewrite lookup_insert_ne by done. by destruct (env !! x) as [j|].
Qed.

Definition fr_res {X} z (hd : handle) (rr : res A (option (X * gmap nat handle))) : res A (option (X * gmap nat handle)) :=
  match rr with Ok (Some (v, cenv)) s => Ok (Some (v, <[z := hd]> cenv)) s | _ => rr end.

Lemma neval_frame z hd :
  (forall e cenv s, z ∉ nnames e -> neval e (<[z := hd]> cenv) s = fr_res z hd (neval (A:=A) e cenv s)) /\
  (forall o cenv s, z ∉ onames o -> oeval o (<[z := hd]> cenv) s = fr_res z hd (oeval (A:=A) o cenv s)).
Proof.
  assert (Hp : forall (w : handle + nat) cenv, (match w with inl _ => True | inr y => z <> y end) -> pick (<[z := hd]> cenv) w = pick cenv w).
  { intros [h|y] cenv H; [done|]. simpl. by rewrite lookup_insert_ne. }
  assert (H1 : forall d w cenv s, (match w with inl _ => True | inr y => z <> y end) -> apply1 d w (<[z := hd]> cenv) s = fr_res z hd (apply1 (A:=A) d w cenv s)).
  { intros d w cenv s Hw. unfold apply1. rewrite Hp by done. destruct (pick cenv w ≫= d) as [m|]; [|done]. unfold bind, ret. by destruct (m s). }
  assert (H2 : forall d w u cenv s, (match w with inl _ => True | inr y => z <> y end) -> (match u with inl _ => True | inr y => z <> y end) ->
     apply2 d w u (<[z := hd]> cenv) s = fr_res z hd (apply2 (A:=A) d w u cenv s)).
  { intros d w u cenv s Hw Hu. unfold apply2. rewrite !Hp by done. destruct (pick cenv w ≫= _) as [m|]; [|done]. unfold bind, ret. by destruct (m s). }
  apply (nexpr_nopnd_ind A (fun e => forall cenv s, z ∉ nnames e -> neval e (<[z := hd]> cenv) s = fr_res z hd (neval e cenv s))
    (fun o => forall cenv s, z ∉ onames o -> oeval o (<[z := hd]> cenv) s = fr_res z hd (oeval o cenv s))).
  - intros a cenv s _. reflexivity.
  - intros cenv s _. reflexivity.
  - intros x cenv s Hz. simpl in *. apply not_elem_of_cons in Hz as [Hz _]. rewrite lookup_insert_ne by done. unfold ret. destruct (cenv !! x) as [j|]; [|done].
    simpl. by rewrite delete_insert_ne.
  - intros o IH env s Hz. simpl in *. unfold bind. rewrite IH by done. destruct (oeval o env s) as [[[w env1]|] s1|] eqn:E; [|done..]. simpl. apply H1.
    pose proof (oeval_names _ _ _ _ _ _ E). destruct w; [done|]. intros ->. done.
  - intros l IHl r IHr env s Hz. simpl in *. unfold bind. apply not_elem_of_app in Hz as [Hz1 Hz2]. rewrite IHl by done. destruct (oeval l env s) as [[[w env1]|] s1|] eqn:E; [|done..]. simpl.
    rewrite IHr by done. destruct (oeval r env1 s1) as [[[u env2]|] s2|] eqn:E'; [|done..]. simpl. apply H2.
    + pose proof (oeval_names _ _ _ _ _ _ E). destruct w; [done|]. intros ->. done.
    + pose proof (oeval_names _ _ _ _ _ _ E'). destruct u; [done|]. intros ->. done.
  - intros l IHl r IHr env s Hz. simpl in *. unfold bind. apply not_elem_of_app in Hz as [Hz1 Hz2]. rewrite IHl by done. destruct (oeval l env s) as [[[w env1]|] s1|] eqn:E; [|done..]. simpl.
    rewrite IHr by done. destruct (oeval r env1 s1) as [[[u env2]|] s2|] eqn:E'; [|done..]. simpl. apply H2.
    + pose proof (oeval_names _ _ _ _ _ _ E). destruct w; [done|]. intros ->. done.
    + pose proof (oeval_names _ _ _ _ _ _ E'). destruct u; [done|]. intros ->. done.
  - intros o IH env s Hz. simpl in *. unfold bind. rewrite IH by done. destruct (oeval o env s) as [[[w env1]|] s1|] eqn:E; [|done..]. simpl. apply H1.
    pose proof (oeval_names _ _ _ _ _ _ E). destruct w; [done|]. intros ->. done.
  - intros e IH env s Hz. simpl in *. unfold bind. rewrite IH by done. by destruct (neval e env s) as [[[]|]|].
  - intros x env s Hz. simpl in *. apply not_elem_of_cons in Hz as [Hz _]. rewrite lookup_insert_ne by done. by destruct (env !! x) as [j|].
Qed.

Lemma nval_sub z :
  (forall e env v env', nval (A:=A) e env = Some (v, env') -> env !! z = None -> env' !! z = None) /\
  (forall o env w env', oval (A:=A) o env = Some (w, env') -> env !! z = None -> env' !! z = None).
Proof.
  assert (H1 : forall f w env v env', val1 (A:=A) f w env = Some (v, env') -> env' = env).
  { intros f w env v env'. unfold val1. destruct (worth w env) as [j|]; [|done]. destruct (f j); [|done]. congruence. }
  assert (H2 : forall f w u env v env', val2 (A:=A) f w u env = Some (v, env') -> env' = env).
  { intros f w u env v env'. unfold val2. destruct (worth w env) as [j|], (worth u env) as [k|]; try done. destruct (f j k); [|done]. congruence. }
  apply (nexpr_nopnd_ind A (fun e => forall env v env', nval e env = Some (v, env') -> env !! z = None -> env' !! z = None)
    (fun o => forall env w env', oval o env = Some (w, env') -> env !! z = None -> env' !! z = None)); simpl.
  - congruence.
  - congruence.
  - intros x env v env'. destruct (env !! x); [|done]. intros [= <- <-]. rewrite lookup_delete_None. auto.
  - intros o IH env v env'. destruct (oval o env) as [[w env1]|] eqn:E; [|done]. intros ->%H1 ?. eauto.
  - intros l IHl r IHr env v env'. destruct (oval l env) as [[w env1]|] eqn:E; [|done]. destruct (oval r env1) as [[u env2]|] eqn:E'; [|done]. intros ->%H2 ?. eauto.
  - intros l IHl r IHr env v env'. destruct (oval l env) as [[w env1]|] eqn:E; [|done]. destruct (oval r env1) as [[u env2]|] eqn:E'; [|done]. intros ->%H2 ?. eauto.
  - intros o IH env v env'. destruct (oval o env) as [[w env1]|] eqn:E; [|done]. intros ->%H1 ?. eauto.
  - intros e IH env w env'. destruct (nval e env) as [[]|] eqn:E; [|done]. intros [= <- <-]. eauto.
  - intros x env w env'. destruct (env !! x); [|done]. congruence.
Qed.

Lemma neval_sub z :
  (forall e cenv s v cenv' s', neval (A:=A) e cenv s = Ok (Some (v, cenv')) s' -> cenv !! z = None -> cenv' !! z = None) /\
  (forall o cenv s v cenv' s', oeval (A:=A) o cenv s = Ok (Some (v, cenv')) s' -> cenv !! z = None -> cenv' !! z = None).
Proof.
  assert (H1 : forall d w cenv s v cenv' s', apply1 (A:=A) d w cenv s = Ok (Some (v, cenv')) s' -> cenv' = cenv).
  { intros d w cenv s v cenv' s'. unfold apply1, bind, ret. destruct (pick cenv w ≫= d) as [m|]; [|done]. destruct (m s); [|done]. congruence. }
  assert (H2 : forall d w u cenv s v cenv' s', apply2 (A:=A) d w u cenv s = Ok (Some (v, cenv')) s' -> cenv' = cenv).
  { intros d w u cenv s v cenv' s'. unfold apply2, bind, ret. destruct (pick cenv w ≫= _) as [m|]; [|done]. destruct (m s); [|done]. congruence. }
  apply (nexpr_nopnd_ind A (fun e => forall cenv s v cenv' s', neval e cenv s = Ok (Some (v, cenv')) s' -> cenv !! z = None -> cenv' !! z = None)
    (fun o => forall cenv s v cenv' s', oeval o cenv s = Ok (Some (v, cenv')) s' -> cenv !! z = None -> cenv' !! z = None)).
  - intros a cenv s v cenv' s'. intros [= _ <- _]. done.
  - intros cenv s v cenv' s'. intros [= _ <- _]. done.
  - intros x cenv s v cenv' s'. simpl. unfold bind, ret. destruct (cenv !! x); [|done]. intros [= <- <- <-]. rewrite lookup_delete_None. auto.
  - intros o IH cenv s v cenv' s'. simpl. unfold bind, ret. destruct (oeval o cenv s) as [[[w cenv1]|] s1|] eqn:E; [|done..]. intros ->%H1 ?. eauto.
  - intros l IHl r IHr cenv s v cenv' s'. simpl. unfold bind, ret. destruct (oeval l cenv s) as [[[w cenv1]|] s1|] eqn:E; [|done..]. destruct (oeval r cenv1 s1) as [[[u cenv2]|] s2|] eqn:E'; [|done..].
    intros ->%H2 ?. eauto.
  - intros l IHl r IHr cenv s v cenv' s'. simpl. unfold bind, ret. destruct (oeval l cenv s) as [[[w cenv1]|] s1|] eqn:E; [|done..]. destruct (oeval r cenv1 s1) as [[[u cenv2]|] s2|] eqn:E'; [|done..].
    intros ->%H2 ?. eauto.
  - intros o IH cenv s v cenv' s'. simpl. unfold bind, ret. destruct (oeval o cenv s) as [[[w cenv1]|] s1|] eqn:E; [|done..]. intros ->%H1 ?. eauto.
  - intros e IH cenv s w cenv' s'. simpl. unfold bind, ret. destruct (neval e cenv s) as [[[]|]|] eqn:E; [|done..]. intros [= <- <- <-]. eauto.
  - intros x cenv s w cenv' s'. simpl. unfold bind, ret. destruct (cenv !! x); [|done]. congruence.
Qed.

(** an evaluated operand: an owned value is held under the name [x] *)
Definition hold cenv s env L x (w : item A + nat) (v : handle + nat) : Prop :=
  match w, v with
  | inl i, inl hd => cenv !! x = None /\ G (CSt (<[x := hd]> cenv) s) (<[x := i]> env) L
  | inr y, inr y' => y' = y /\ G (CSt cenv s) env L
  | _, _ => False
  end.
Definition pe (e : nexpr A) : Prop := forall c env L v env' x, G c env L -> nval e env = Some (v, env') -> env !! x = None -> x ∉ nnames e ->
  exists hd cenv' s', neval e (c_env c) (c_mem c) = Ok (Some (hd, cenv')) s' /\ cenv' !! x = None /\ G (CSt (<[x := hd]> cenv') s') (<[x := v]> env') L.
Definition po (o : nopnd A) : Prop := forall c env L w env' x, G c env L -> oval o env = Some (w, env') -> env !! x = None -> x ∉ onames o ->
  exists v cenv' s', oeval o (c_env c) (c_mem c) = Ok (Some (v, cenv')) s' /\ hold cenv' s' env' L x w v.

Lemma freshn env (l : list nat) : exists z, env !! z = None /\ z ∉ l.
Proof.
  pose proof (is_fresh (dom env ∪ list_to_set l)) as H. exists (fresh (dom env ∪ list_to_set l)).
  rewrite not_elem_of_union, not_elem_of_dom, elem_of_list_to_set in H. tauto.
Qed.

Lemma one_ok d f o : (d = do_neg (A:=A) /\ f = neg_val (A:=A) \/ d = do_unit (A:=A) /\ f = unit_val (A:=A)) -> po o ->
  forall c env L v env' x, G c env L -> match oval o env with Some (w, env1) => val1 f w env1 | None => None end = Some (v, env') ->
    env !! x = None -> x ∉ onames o ->
  exists hd cenv' s', (let! v := oeval o (c_env c) in match v with Some (v, env1) => apply1 d v env1 | None => ret None end) (c_mem c) =
    Ok (Some (hd, cenv')) s' /\ cenv' !! x = None /\ G (CSt (<[x := hd]> cenv') s') (<[x := v]> env') L.
Proof.
  intros Hd Ho c env L v env' x HG Hv Hx Hxo. destruct (oval o env) as [[w env1]|] eqn:E; [|done].
  destruct (freshn env (x :: onames o)) as (z & Hz & Hzn). apply not_elem_of_cons in Hzn as [Hzx Hzo].
  destruct (Ho _ _ _ _ _ z HG E Hz Hzo) as (ov & cenv1 & s1 & Ho1 & Hh). unfold bind at 1. rewrite Ho1.
  pose proof (proj2 (nval_sub x) _ _ _ _ E Hx) as Hx1. pose proof (proj2 (nval_sub z) _ _ _ _ E Hz) as Hz1.
  unfold val1 in Hv. destruct (worth w env1) as [i|] eqn:Ew; [|done]. destruct (f i) as [v'|] eqn:Ef; [|done]. injection Hv as -> <-.
  destruct w as [i'|y], ov as [hd1|y']; simpl in Hh; try done; simpl in Ew.
  - injection Ew as ->. destruct Hh as [Hcz HG1].
    destruct (do1_ok d f Hd _ _ _ false z i v x HG1) as (hl & m & Hhl & Hm & hd & s' & E1 & HG2); [by rewrite lookup_insert|done|by rewrite lookup_insert_ne|].
    cbn [c_env c_mem] in *. rewrite lookup_insert in Hhl. injection Hhl as <-. pose proof (G_none _ _ _ x HG1) as Hcx. cbn [c_env] in Hcx. rewrite !lookup_insert_ne in Hcx by done.
    exists hd, cenv1, s'. unfold apply1, pick. simpl. rewrite Hm. unfold bind. rewrite E1. split; [done|]. split; [auto|].
    eapply G_eq; [exact HG2|meq|meq].
  - destruct Hh as [-> HG1]. destruct (do1_ok d f Hd _ _ _ true y i v x HG1) as (hl & m & Hhl & Hm & hd & s' & E1 & HG2); [done..|].
    cbn [c_env c_mem] in *. exists hd, cenv1, s'. unfold apply1, pick. rewrite Hhl. simpl. rewrite Hm. unfold bind. rewrite E1. split; [done|].
    split; [by eapply (G_none _ _ _ x HG1)|done].
Qed.

Lemma two_ok d f (l r : nopnd A) : (d = do_sub (A:=A) /\ f = sub_val (A:=A) \/ d = do_div (A:=A) /\ f = div_val (A:=A)) -> po l -> po r ->
  forall c env L v env' x, G c env L -> 
    match oval l env with
    | Some (w, env1) => match oval r env1 with Some (u, env2) => val2 f w u env2 | None => None end
    | None => None
    end = Some (v, env') ->
    env !! x = None -> x ∉ onames l ++ onames r ->
  exists hd cenv' s', (let! v := oeval l (c_env c) in
    match v with
    | Some (v, env1) => let! w := oeval r env1 in
                        match w with Some (w, env2) => apply2 d v w env2 | None => ret None end
    | None => ret None
    end) (c_mem c) = Ok (Some (hd, cenv')) s' /\ cenv' !! x = None /\ G (CSt (<[x := hd]> cenv') s') (<[x := v]> env') L.
Proof.
  intros Hd Hol Hor c env L v env' x HG Hv Hx Hxo. apply not_elem_of_app in Hxo as [Hxl Hxr].
  destruct (oval l env) as [[w env1]|] eqn:E; [|done]. destruct (oval r env1) as [[u env2]|] eqn:E'; [|done].
  destruct (freshn env (x :: onames l ++ onames r)) as (z & Hz & Hzn). apply not_elem_of_cons in Hzn as [Hzx [Hzl Hzr]%not_elem_of_app].
  destruct (freshn env (x :: z :: onames l ++ onames r)) as (z2 & Hz2 & Hzn). apply not_elem_of_cons in Hzn as [Hz2x [Hz2z [Hz2l Hz2r]%not_elem_of_app]%not_elem_of_cons].
  destruct (Hol _ _ _ _ _ z HG E Hz Hzl) as (ov & cenv1 & s1 & Ho1 & Hh). unfold bind at 1. rewrite Ho1.
  pose proof (proj2 (nval_sub x) _ _ _ _ E Hx) as Hx1. pose proof (proj2 (nval_sub z) _ _ _ _ E Hz) as Hz1. pose proof (proj2 (nval_sub z2) _ _ _ _ E Hz2) as Hz21.
  pose proof (proj2 (nval_sub x) _ _ _ _ E' Hx1) as Hx2. pose proof (proj2 (nval_sub z) _ _ _ _ E' Hz1) as Hz12. pose proof (proj2 (nval_sub z2) _ _ _ _ E' Hz21) as Hz22.
  unfold val2 in Hv. destruct (worth w env2) as [i|] eqn:Ew; [|done]. destruct (worth u env2) as [j|] eqn:Eu; [|done]. destruct (f i j) as [v'|] eqn:Ef; [|done]. injection Hv as -> <-.
  destruct w as [i'|y], ov as [hd1|y']; simpl in Hh; try done; simpl in Ew.
  - injection Ew as ->. destruct Hh as [Hcz HG1].
    assert (oval r (<[z := i]> env1) = Some (u, <[z := i]> env2)) as E1' by (rewrite (proj2 (nval_frame z i)), E'; done).
    destruct (Hor _ _ _ _ _ z2 HG1 E1') as (ov2 & cenv2 & s2 & Ho2 & Hh2); [by rewrite lookup_insert_ne|done|]. cbn [c_env c_mem] in *.
    rewrite (proj2 (neval_frame z hd1)) in Ho2 by done. destruct (oeval r cenv1 s1) as [[[ov2' cenv2']|] s2'|] eqn:Eo; simpl in Ho2; [|done..]. injection Ho2 as -> <- ->.
    unfold bind at 1. rewrite Eo.
    destruct u as [j'|y2], ov2 as [hd2|y2']; simpl in Hh2; try done; simpl in Eu.
    + injection Eu as ->. destruct Hh2 as [Hcz2 HG2].
      destruct (do2_ok d f Hd _ _ _ false false z z2 i j v x HG2) as (hl & hr & m & Hhl & Hhr & Hm & hd & s' & Em & HG3); [lks..|].
      cbn [c_env c_mem] in *. rewrite lookup_insert_ne, lookup_insert in Hhl by done. rewrite lookup_insert in Hhr. injection Hhl as <-. injection Hhr as <-.
      pose proof (G_none _ _ _ x HG2) as Hcx. cbn [c_env] in Hcx. rewrite !lookup_insert_ne in Hcx by done.
      exists hd, cenv2', s'. unfold apply2, pick. simpl. rewrite Hm. unfold bind. rewrite Em. split; [done|]. split; [auto|].
      rewrite lookup_insert_ne in Hcz2 by done. pose proof (proj2 (neval_sub z) _ _ _ _ _ _ Eo Hcz) as Hcz'.
      eapply G_eq; [exact HG3|meq|meq].
    + destruct Hh2 as [-> HG2]. assert (z <> y2) as Hzy by (intros ->; by pose proof (worth_names _ _ _ _ E')).
      destruct (do2_ok d f Hd _ _ _ false true z y2 i j v x HG2) as (hl & hr & m & Hhl & Hhr & Hm & hd & s' & Em & HG3); [lks..|].
      cbn [c_env c_mem] in *. rewrite lookup_insert in Hhl. rewrite lookup_insert_ne in Hhr by done. injection Hhl as <-.
      pose proof (G_none _ _ _ x HG2) as Hcx. cbn [c_env] in Hcx. rewrite !lookup_insert_ne in Hcx by done.
      exists hd, cenv2', s'. unfold apply2, pick. rewrite Hhr. simpl. rewrite Hm. unfold bind. rewrite Em. split; [done|]. split; [auto|].
      pose proof (proj2 (neval_sub z) _ _ _ _ _ _ Eo Hcz) as Hcz'.
      eapply G_eq; [exact HG3|meq|meq].
  - destruct Hh as [-> HG1].
    destruct (Hor _ _ _ _ _ z2 HG1 E') as (ov2 & cenv2 & s2 & Ho2 & Hh2); [done|done|]. cbn [c_env c_mem] in *.
    unfold bind at 1. rewrite Ho2.
    destruct u as [j'|y2], ov2 as [hd2|y2']; simpl in Hh2; try done; simpl in Eu.
    + injection Eu as ->. destruct Hh2 as [Hcz2 HG2].
      assert (z2 <> y) as Hzy by (intros ->; by pose proof (worth_names _ _ _ _ E)).
      destruct (do2_ok d f Hd _ _ _ true false y z2 i j v x HG2) as (hl & hr & m & Hhl & Hhr & Hm & hd & s' & Em & HG3); [lks..|].
      cbn [c_env c_mem] in *. rewrite lookup_insert_ne in Hhl by done. rewrite lookup_insert in Hhr. injection Hhr as <-.
      pose proof (G_none _ _ _ x HG2) as Hcx. cbn [c_env] in Hcx. rewrite !lookup_insert_ne in Hcx by done.
      exists hd, cenv2, s'. unfold apply2, pick. rewrite Hhl. simpl. rewrite Hm. unfold bind. rewrite Em. split; [done|]. split; [auto|].
      eapply G_eq; [exact HG3|meq|meq].
    + destruct Hh2 as [-> HG2].
      destruct (do2_ok d f Hd _ _ _ true true y y2 i j v x HG2) as (hl & hr & m & Hhl & Hhr & Hm & hd & s' & Em & HG3); [lks..|].
      cbn [c_env c_mem] in *. exists hd, cenv2, s'. unfold apply2, pick. rewrite Hhl, Hhr. simpl. rewrite Hm. unfold bind. rewrite Em. split; [done|].
      split; [by apply (G_none _ _ _ x HG2)|done].
Qed.

Lemma expr_ok : (forall e, pe e) /\ (forall o, po o).
Proof.
  apply (nexpr_nopnd_ind A pe po).
  - intros a c env L v env' x HG [= <- <-] Hx _. destruct (G_tree _ _ _ x a HG Hx) as (p & s' & E & HG').
    exists (HT p), (c_env c), s'. cbn [neval]. unfold bind, n_tr. rewrite E. split; [done|]. split; [by eapply G_none|done].
  - intros c env L v env' x HG [= <- <-] Hx _. destruct (G_forest _ _ _ x HG Hx) as (p & s' & E & HG').
    exists (HF p), (c_env c), s'. cbn [neval]. unfold bind, n_fr. rewrite E. split; [done|]. split; [by eapply G_none|done].
  - intros y c env L v env' x HG Hv Hx Hxy. simpl in *. apply not_elem_of_cons in Hxy as [Hxy _]. destruct (env !! y) as [i|] eqn:Hy; [|done]. injection Hv as <- <-.
    destruct (G_some _ _ _ _ _ HG Hy) as (p & Hp). rewrite Hp. eexists _, _, _. split; [done|].
    split; [rewrite lookup_delete_None; right; by eapply G_none|]. by apply G_move.
  - intros o Ho c env L v env' x. apply one_ok; [by left|done].
  - intros l Hl r Hr c env L v env' x. apply two_ok; [by left|done|done].
  - intros l Hl r Hr c env L v env' x. apply two_ok; [by right|done|done].
  - intros o Ho c env L v env' x. apply one_ok; [by right|done].
  - intros e He c env L w env' x HG Hv Hx Hxn. simpl in *. destruct (nval e env) as [[v env1]|] eqn:E; [|done]. injection Hv as <- <-.
    destruct (He _ _ _ _ _ x HG E Hx Hxn) as (hd & cenv' & s' & E1 & Hc & HG'). exists (inl hd), cenv', s'. unfold bind. rewrite E1. done.
  - intros y c env L w env' x HG Hv Hx Hxn. simpl in *. destruct (env !! y) as [i|] eqn:Hy; [|done]. injection Hv as <- <-.
    destruct (G_some _ _ _ _ _ HG Hy) as (p & Hp). rewrite Hp. eexists (inr y), _, _. split; [done|]. split; [done|]. by destruct c.
Qed.

(** [let x = e;] *)
Theorem nlet_ok c env x e v env' : reachable c -> contents c env -> nval e env = Some (v, env') -> env' !! x = None ->
  exists c', nlet c x e = Done RUnit c' /\ reachable c' /\ contents c' (<[x := v]> env') /\ m_log (c_mem c') = m_log (c_mem c).
Proof.
  intros Hr Hc Hv Hx. destruct (freshn env (x :: nnames e)) as (z & Hz & Hzn). apply not_elem_of_cons in Hzn as [Hzx Hzn].
  assert (HG : G c env (m_log (c_mem c))) by done.
  destruct (proj1 expr_ok e _ _ _ _ _ z HG Hv Hz Hzn) as (hd & cenv' & s' & E & Hcz & HG').
  pose proof (proj1 (nval_sub z) _ _ _ _ Hv Hz) as Hz'.
  pose proof (G_move _ _ _ x z v hd HG' ltac:(lks) ltac:(lks) ltac:(lks)) as HG2. cbn [c_env c_mem] in HG2.
  unfold nlet. rewrite E. eexists. split; [done|].
  assert (G (CSt (<[x:=hd]> cenv') s') (<[x:=v]> env') (m_log (c_mem c))) as (? & ? & ?); [|done].
  eapply G_eq; [exact HG2|meq|meq].
Qed.

Lemma operators_val env (l r : nat) (bl br : bool) (i j : item A) :
  l <> r -> env !! l = Some i -> env !! r = Some j ->
  let o (b : bool) (x : nat) : nopnd A := if b then NRef x else NOwn (NVar x) in
  let left := (if br then id else delete r) ((if bl then id else delete l) env) in
  nval (NNeg (o bl l)) env = match i with ITree t => Some (IForest [t], (if bl then id else delete l) env) | IForest _ => None end /\
  nval (NUnit (o bl l)) env = match i with ITree t => Some (ITree t, (if bl then id else delete l) env) | IForest _ => None end /\
  nval (NSub (o bl l) (o br r)) env =
    match i, j with
    | ITree t, ITree u => Some (IForest [t; u], left)
    | IForest ts, ITree u => Some (IForest (ts ++ [u]), left)
    | IForest ts, IForest us => Some (IForest (ts ++ us), left)
    | ITree _, IForest _ => None
    end /\
  nval (NDiv (o bl l) (o br r)) env =
    match i, j with
    | ITree (Tr a ts), ITree u => Some (ITree (Tr a (ts ++ [u])), left)
    | ITree (Tr a ts), IForest us => Some (ITree (Tr a (ts ++ us)), left)
    | IForest _, _ => None
    end.
Proof.
  intros Hne Hl Hr o left. destruct bl, br; simpl; rewrite ?Hl; cbn; rewrite ?(lookup_delete_ne _ l r), ?Hr by done; cbn;
    unfold val1, val2, worth; rewrite ?(lookup_delete_ne _ r l), ?(lookup_delete_ne _ l r), ?Hl, ?Hr by done;
    destruct i as [[]|], j as [[]|]; split_and!; reflexivity.
Qed.
End nproofs.
