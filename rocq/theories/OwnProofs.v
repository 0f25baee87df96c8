(** OwnProofs.v — a drop whose values drop further trees does what a run of ordinary operations does. *)
From stdpp Require Import base gmap list.
From Verif Require Import Spec ClientSpec MoveSpec Machine NodeModel ClientModel Sep Rep NodeProofs Inv Abs ClientProofs ClientRef ClientStep ClientRead ClientProps MoveProofs CounterProofs RcOwnProofs OwnModel OwnSpec.

Section own.
Context {A : Type} (own : A -> list nat).
Implicit Types (p : ptr) (s : mem A) (c : cst A) (env E : gmap nat (item A)) (H : gmap nat handle) (it : item A) (l : list A).

Lemma fm_perm {X Y} (f : X -> list Y) (u u' : list X) : u ≡ₚ u' -> flat_map f u ≡ₚ flat_map f u'.
Proof. induction 1; simpl; [done|by f_equiv|solve_Permutation|by etrans]. Qed.
Definition all {X} (f : item A -> list X) env : list X := flat_map (fun x => f x.2) (map_to_list env).
Lemma all_insert {X} (f : item A -> list X) env h it : env !! h = None -> all f (<[h := it]> env) ≡ₚ f it ++ all f env.
Proof. intros Hh. unfold all. rewrite (fm_perm _ _ _ (map_to_list_insert env h it Hh)). done. Qed.
Lemma all_delete {X} (f : item A -> list X) env h it : env !! h = Some it -> all f env ≡ₚ f it ++ all f (delete h env).
Proof. intros Hh. rewrite <-(insert_id env h it Hh) at 1. rewrite <-insert_delete_insert. rewrite all_insert by apply lookup_delete. done. Qed.
Lemma all_update {X} (f : item A -> list X) env h it it' : env !! h = Some it -> f it ++ all f (<[h := it']> env) ≡ₚ f it' ++ all f env.
Proof.
  intros Hh. rewrite (all_delete f env h it Hh). rewrite (all_delete f (<[h := it']> env) h it') by apply lookup_insert. rewrite delete_insert_delete. solve_Permutation.
Qed.
Lemma values_all env : values env = all item_post env.
Proof. done. Qed.

(** the values that are not at the root of a variable *)
Definition below it : list A := match it with ITree t => postorder_f (kids t) | IForest ts => postorder_f ts end.
Definition nr env : nat := length (all below env).
Lemma nr_values env : nr env <= length (values env).
Proof.
  unfold nr, values, all. induction (map_to_list env) as [|[h it] l IH]; [done|]. simpl. rewrite !app_length. destruct it as [[a ts]|ts]; simpl; [|lia]. rewrite app_length. unfold postorder_f. lia.
Qed.

Definition ow l : list nat := flat_map own l.
Lemma ow_app l l' : ow (l ++ l') = ow l ++ ow l'.
Proof. apply flat_map_app. Qed.
Definition owns env : list nat := ow (values env).

Definition pop1 it : option (tree A * item A) :=
  match it with
  | ITree (Tr a (t :: ts)) => Some (t, ITree (Tr a ts)) | IForest (t :: ts) => Some (t, IForest ts) | _ => None
  end.
Lemma pop1_post it t it' : pop1 it = Some (t, it') -> item_post it = postorder t ++ item_post it' /\ length (below it) = S (length (below (ITree t)) + length (below it')).
Proof.
  destruct it as [[a [|u ts]]|[|u ts]]; try done; intros [= <- <-]; cbn [item_post postorder flat_map postorder_f below kids]; rewrite <-?app_assoc; (split; [done|]).
  - rewrite app_length. destruct u as [b us]. cbn [postorder kids]. rewrite app_length. unfold postorder_f. simpl. lia.
  - rewrite app_length. destruct u as [b us]. cbn [postorder kids]. rewrite app_length. unfold postorder_f. simpl. lia.
Qed.
Definition roots it : list A := match it with ITree t => [root_of t] | IForest _ => [] end.
Lemma pop1_none it : pop1 it = None -> item_post it = roots it /\ below it = [].
Proof. by destruct it as [[a [|u ts]]|[|u ts]]. Qed.

(** the two ordinary steps *)
Lemma pop_step c env n hd it t : reachable c -> contents c env -> c_env c !! n = Some hd -> env !! n = Some it -> env !! t = None ->
  match pop1 it with
  | Some (x, it') => exists q s', pop_front (addr hd) (c_mem c) = Ok (Some q) s' /\ let c' := CSt (<[t := HT q]> (c_env c)) s' in
      reachable c' /\ contents c' (<[t := ITree x]> (<[n := it']> env)) /\ m_log s' = m_log (c_mem c)
  | None => pop_front (addr hd) (c_mem c) = Ok None (c_mem c)
  end.
Proof.
  intros Hr Hc Hn Hit Ht. pose proof (step_from c env (OPop Front n [] t) Hr Hc) as Hs. cbn [sstep s_env s_log] in Hs. rewrite Hit, Ht in Hs.
  assert (c_env c !! t = None) as Ht'. { specialize (Hc t). destruct (c_env c !! t); [|done]. destruct Hc as (x & _ & ?). congruence. }
  assert (step c (OPop Front n [] t) = match pop_front (addr hd) (c_mem c) with
    | Ok (Some q) s' => Done (RBool true) (CSt (<[t := HT q]> (c_env c)) s') | Ok None s' => Done (RBool false) (CSt (c_env c) s') | Err e => Fails e end) as Es.
  { unfold step. cbn [cstep]. rewrite Hn, Ht'. unfold bind. cbn [resolve ret]. destruct (pop_front _ _) as [[q|] s'|e]; done. }
  rewrite Es in Hs. destruct (pop1 it) as [[x it']|] eqn:Ep.
  - destruct it as [[a [|u ts]]|[|u ts]]; try done; injection Ep as -> <-; destruct Hs as (c' & E & Hc' & Hl & Hr'); destruct (pop_front (addr hd) (c_mem c)) as [[q|] s'|]; try done;
      injection E as <-; exists q, s'; done.
  - destruct it as [[a [|u ts]]|[|u ts]]; try done; destruct Hs as (c' & E & Hc' & Hl & Hr'); destruct (pop_front (addr hd) (c_mem c)) as [[q|] s'|] eqn:Epf; try done;
      by rewrite (pop_none _ _ _ Epf).
Qed.

Lemma leaf_step c env n hd it : reachable c -> contents c env -> c_env c !! n = Some hd -> env !! n = Some it -> pop1 it = None ->
  exists u s', m_heap (c_mem c) !! addr hd = Some u /\ dat_vals (n_dat u) = roots it /\ drop_node (addr hd) (c_mem c) = Ok tt s' /\ let c' := CSt (delete n (c_env c)) s' in
    reachable c' /\ contents c' (delete n env) /\ m_log s' = m_log (c_mem c) ++ roots it.
Proof.
  intros Hr Hc Hn Hit Hp. destruct (exist_fresh (dom env : gset nat)) as [t Ht]. apply not_elem_of_dom in Ht. pose proof (pop_step c env n hd it t Hr Hc Hn Hit Ht) as Hpop. rewrite Hp in Hpop.
  pose proof (step_from c env (ODrop n) Hr Hc) as Hs. cbn [sstep s_env s_log] in Hs. rewrite Hit in Hs. destruct Hs as (c' & E & Hc' & Hl & Hr'). rewrite (proj1 (pop1_none it Hp)) in Hl. cbn [s_env s_log] in Hc', Hl.
  unfold step in E. cbn [cstep] in E. rewrite Hn in E. unfold drop_tree, bind, fuel, gets in E. cbn [drop_loop] in E. unfold bind at 1 in E. rewrite Hpop in E.
  destruct (drop_node (addr hd) (c_mem c)) as [[] s'|] eqn:Ed; [|done]. cbn [ret] in E. injection E as <-. cbn [c_mem] in Hl. unfold drop_node in Ed. unfold bind at 1 in Ed. unfold get in Ed. destruct (m_heap (c_mem c) !! addr hd) as [u|] eqn:Eu; [|done].
  exists u, s'. split; [done|]. split; [|done].
  destruct (reachable_contents c env Hr Hc) as (Wm & HR & _). pose proof (RE_lookup _ _ _ _ n HR) as HL. cbn [s_env] in HL. rewrite Hit in HL. destruct HL as (x & Hx & Hri & Hhd & _).
  assert (hd = hof x) as -> by congruence. assert (@ClientRef.vals A [] Wm ≡ₚ x :: (map_to_list (delete n Wm)).*2) as Hv.
  { unfold ClientRef.vals. rewrite app_nil_r. rewrite <-(insert_id Wm n x Hx) at 1. rewrite <-insert_delete_insert, map_to_list_insert by apply lookup_delete. done. }
  pose proof (re_inv _ _ _ _ HR) as HI. apply (MInv_perm _ _ _ _ Hv) in HI. destruct x as [q pl v ks]. pose proof (lookup_at _ [] _ _ _ _ _ _ HI) as Hu. pose proof (addr_hof (AN q pl v ks)) as Ha. cbn [aptr] in Ha. rewrite Ha in Eu. rewrite Hu in Eu. injection Eu as <-.
  cbn [mk n_dat]. rewrite dat_vals_of. destruct it as [t'|ts].
  - inversion Hri; subst. done.
  - destruct Hri as [Hv0 _]. simpl in Hv0. by subst v.
Qed.

(** the relation between the variables before and after: [ds] are gone *)
Definition gone {X} (ds : list nat) (m m' : gmap nat X) : Prop := forall g, m' !! g = if decide (g ∈ ds) then None else m !! g.
Lemma gone_trans {X} ds ds' (m m' m'' : gmap nat X) : gone ds m m' -> gone ds' m' m'' -> gone (ds ++ ds') m m''.
Proof. intros H1 H2 g. rewrite (H2 g), (H1 g). repeat case_decide; rewrite elem_of_app in *; naive_solver. Qed.
Lemma gone_nil {X} (m : gmap nat X) : gone [] m m.
Proof. intros g. by rewrite decide_False by apply not_elem_of_nil. Qed.
Lemma gone_ext {X} ds ds' (m m' : gmap nat X) : gone ds m m' -> (forall g, g ∈ ds <-> g ∈ ds') -> gone ds' m m'.
Proof. intros H1 H2 g. rewrite (H1 g). repeat case_decide; naive_solver. Qed.
Lemma gone_delete {X} n (m : gmap nat X) : gone [n] m (delete n m).
Proof. intros g. destruct (decide (g = n)) as [->|Hne]; [rewrite lookup_delete, decide_True by left; done|]. rewrite lookup_delete_ne by done. rewrite decide_False; [done|]. by intros ->%elem_of_list_singleton. Qed.
Lemma gone_size {X} ds (m m' : gmap nat X) : gone ds m m' -> size m' <= size m.
Proof. intros Hg. rewrite <-!size_dom. apply subseteq_size. intros g [r Hr]%elem_of_dom. rewrite Hg in Hr. case_decide; [done|]. apply elem_of_dom. eauto. Qed.

Record Res c env H (Q : (gmap nat (item A) -> Prop) -> list A -> Prop) ds l c' env' : Prop := {
  rs_reach : reachable c'; rs_cont : contents c' env'; rs_log : m_log (c_mem c') = m_log (c_mem c) ++ l;
  rs_cenv : gone (ds ++ ow l) (c_env c) (c_env c'); rs_env : gone (ds ++ ow l) env env'; rs_vals : values env ≡ₚ l ++ values env';
  rs_nr : nr env' <= nr env;
  rs_sub : Q (fun E => forall g, is_Some (H !! g) -> E !! g = env !! g) l
}.
Definition pre c env H : Prop := reachable c /\ contents c env /\ (forall g x, H !! g = Some x -> c_env c !! g = Some x) /\ NoDup (owns env) /\ forall g, g ∈ owns env -> is_Some (H !! g).

Definition LOOP f : Prop := forall c env H n hd it, pre c env H -> c_env c !! n = Some hd -> env !! n = Some it -> H !! n = None -> 2 * nr env + 2 * size H + 2 <= f ->
  exists c' env' H' l, od_loop own f H (addr hd) (c_mem c) = Ok H' (c_mem c') /\ gone (ow l) H H' /\
    Res c env H (fun P l => forall E, P E -> drops_trees own E (trees_of it) l) [n] l c' env'.
Definition ALL f : Prop := forall c env H gs, pre c env H -> NoDup (gs ++ owns env) -> (forall g, g ∈ gs -> is_Some (H !! g)) -> 2 * nr env + 2 * size H + 1 <= f ->
  exists c' env' H' l, od_all own f H gs (c_mem c) = Ok H' (c_mem c') /\ gone (gs ++ ow l) H H' /\
    Res c env H (fun P l => forall E, P E -> drops_vars own E gs l) gs l c' env'.

Lemma owns_perm env l env' : values env ≡ₚ l ++ values env' -> owns env ≡ₚ ow l ++ owns env'.
Proof. intros Hv. unfold owns. rewrite <-ow_app. by apply fm_perm. Qed.
Lemma env_some c env g x : contents c env -> c_env c !! g = Some x -> exists it, env !! g = Some it.
Proof. intros Hc Hg. specialize (Hc g). rewrite Hg in Hc. destruct Hc as (it & _ & ?). eauto. Qed.

(** what is left after a nested drop *)
Lemma pre_next c env H ds l c' env' H' P : pre c env H -> Res c env H P ds l c' env' -> gone (ow l ++ ds) H H' -> (forall g, g ∈ ds -> g ∉ owns env) -> pre c' env' H'.
Proof.
  intros (Hr & Hc & Hsub & Hnd & Hin) R HG Hds. pose proof (owns_perm _ _ _ (rs_vals _ _ _ _ _ _ _ _ R)) as Ho. rewrite Ho in Hnd. apply NoDup_app in Hnd as (_ & Hdis & Hnd).
  split_and!; [apply R|apply R| |done|].
  - intros g x Hg. rewrite HG in Hg. case_decide as Hd; [done|]. rewrite (rs_cenv _ _ _ _ _ _ _ _ R g). rewrite decide_False; [by apply Hsub|]. rewrite elem_of_app in *. tauto.
  - intros g Hg. assert (g ∈ owns env) as Hg' by (rewrite Ho, elem_of_app; tauto). rewrite HG, decide_False; [by apply Hin|]. rewrite elem_of_app. intros [Hd|Hd]; [by apply (Hdis g)|]. by apply (Hds g).
Qed.

Lemma gone_keep {X} ds (m m' : gmap nat X) g : gone ds m m' -> g ∉ ds -> m' !! g = m !! g.
Proof. intros Hg Hn. by rewrite (Hg g), decide_False. Qed.
Lemma gone_left {X} ds (m m' : gmap nat X) g : gone ds m m' -> is_Some (m' !! g) -> g ∉ ds /\ is_Some (m !! g).
Proof. intros Hg Hs. rewrite (Hg g) in Hs. case_decide; [by destruct Hs|]. done. Qed.

Lemma od_loop_round f H p : od_loop own (S f) H p = (let! o := pop_front p in
    match o with
    | Some q => let! H1 := od_loop own f H q in od_loop own f H1 p
    | None => let! n := get p in drop_node p ;; od_all own f H (flat_map own (dat_vals (n_dat n)))
    end).
Proof. done. Qed.
Lemma od_all_round f H gs : od_all own (S f) H gs = match gs with
  | [] => ret H
  | g :: gs' => match H !! g with Some hd => let! H1 := od_loop own f (delete g H) (addr hd) in od_all own f H1 gs' | None => fail EUB end
  end.
Proof. done. Qed.

Lemma ALL_ok f : LOOP f -> ALL f -> ALL (S f).
Proof.
  intros HL HA c env H gs Hpre Hnd Hgs Hf. destruct gs as [|g gs].
  { exists c, env, H, []. split; [done|]. split; [apply gone_nil|]. destruct Hpre as (Hr & Hc & _). split; [done|done|by rewrite app_nil_r|apply gone_nil|apply gone_nil|done|done|]. intros E _. constructor. }
  destruct (Hgs g) as [hd Hg]; [left|]. pose proof Hpre as (Hr & Hc & Hsub & Hnd0 & Hin). pose proof (Hsub _ _ Hg) as Hg'. destruct (env_some _ _ _ _ Hc Hg') as [it Hit].
  cbn [app] in Hnd. apply NoDup_cons in Hnd as [Hgn Hnd]. rewrite elem_of_app in Hgn.
  assert (pre c env (delete g H)) as Hpre1.
  { split_and!; [done|done| |done|].
    - intros g' x [_ Hx]%lookup_delete_Some. by apply Hsub.
    - intros g' Hg1. rewrite lookup_delete_ne; [by apply Hin|]. intros <-. tauto. }
  pose proof (map_size_delete g H) as Hsz. rewrite Hg in Hsz. assert (0 < size H) as Hpos. { destruct (decide (size H = 0)) as [E|]; [|lia]. apply map_size_empty_inv in E. subst H. done. }
  destruct (HL c env (delete g H) g hd it Hpre1 Hg' Hit (lookup_delete _ _)) as (c1 & env1 & H1 & l1 & E1 & G1 & R1). { rewrite Hsz. simpl in *. lia. }
  assert (pre c1 env1 H1) as Hpre2.
  { apply (pre_next c env (delete g H) [g] l1 c1 env1 H1 _ Hpre1 R1).
    - intros g'. rewrite (G1 g'). repeat case_decide; rewrite ?elem_of_app in *; try tauto. assert (g' = g) as -> by (rewrite elem_of_list_singleton in *; tauto). by rewrite lookup_delete.
    - intros g' ->%elem_of_list_singleton. tauto. }
  pose proof (owns_perm _ _ _ (rs_vals _ _ _ _ _ _ _ _ R1)) as Ho. rewrite Ho in Hnd, Hgn. pose proof Hnd as Hnd'. rewrite (Permutation_app_comm (ow l1)), app_assoc in Hnd. apply NoDup_app in Hnd as (Hnd & Hd1 & _).
  pose proof (gone_size _ _ _ G1) as Hs1. pose proof (rs_nr _ _ _ _ _ _ _ _ R1) as Hn1.
  destruct (HA c1 env1 H1 gs Hpre2 Hnd) as (c2 & env2 & H2 & l2 & E2 & G2 & R2).
  { intros g' Hg1. rewrite (gone_keep _ _ _ g' G1), lookup_delete_ne; [apply Hgs; by right| |].
    - intros ->. tauto.
    - apply Hd1. rewrite elem_of_app. tauto. }
  { simpl in *. lia. }
  exists c2, env2, H2, (l1 ++ l2). split; [|split].
  - rewrite od_all_round, Hg. unfold bind. rewrite E1. exact E2.
  - eapply gone_ext; [exact (gone_trans _ _ _ _ _ (gone_trans _ _ _ _ _ (gone_delete g H) G1) G2)|]. intros g'. rewrite ow_app. cbn [app]. rewrite ?elem_of_app, ?elem_of_cons, ?elem_of_app. pose proof (not_elem_of_nil g'). tauto.
  - split; [apply R2|apply R2| | | | | |].
    + by rewrite (rs_log _ _ _ _ _ _ _ _ R2), (rs_log _ _ _ _ _ _ _ _ R1), app_assoc.
    + eapply gone_ext; [exact (gone_trans _ _ _ _ _ (rs_cenv _ _ _ _ _ _ _ _ R1) (rs_cenv _ _ _ _ _ _ _ _ R2))|]. intros g'. rewrite ow_app. cbn [app]. rewrite ?elem_of_app, ?elem_of_cons, ?elem_of_app. tauto.
    + eapply gone_ext; [exact (gone_trans _ _ _ _ _ (rs_env _ _ _ _ _ _ _ _ R1) (rs_env _ _ _ _ _ _ _ _ R2))|]. intros g'. rewrite ow_app. cbn [app]. rewrite ?elem_of_app, ?elem_of_cons, ?elem_of_app. tauto.
    + by rewrite (rs_vals _ _ _ _ _ _ _ _ R1), (rs_vals _ _ _ _ _ _ _ _ R2), app_assoc.
    + pose proof (rs_nr _ _ _ _ _ _ _ _ R2). lia.
    + intros E HE. apply (drops_next_var own E g gs it l1 l2).
      * rewrite HE; [done|]. rewrite Hg. eauto.
      * apply (rs_sub _ _ _ _ _ _ _ _ R1). intros g' [x Hx]. apply lookup_delete_Some in Hx as [_ Hx]. apply HE. eauto.
      * apply (rs_sub _ _ _ _ _ _ _ _ R2). intros g' Hx. apply (gone_left _ _ _ _ G1) in Hx as [Hx1 [x Hx2]]. apply lookup_delete_Some in Hx2 as [Hne Hx2].
        rewrite HE by eauto. symmetry. apply (gone_keep _ _ _ _ (rs_env _ _ _ _ _ _ _ _ R1)). rewrite elem_of_app, elem_of_list_singleton. intros [->|?]; done.
Qed.

Lemma drops_pop E it x it' l1 l2 : pop1 it = Some (x, it') -> drops_trees own E [x] l1 -> drops_trees own E (trees_of it') l2 -> drops_trees own E (trees_of it) (l1 ++ l2).
Proof.
  intros Hp H1 H2. inversion H1 as [|x0 ts0 u u0 Hx Hn]; subst. inversion Hn; subst. rewrite app_nil_r. destruct it as [[a [|y ts]]|[|y ts]]; try done; injection Hp as -> <-; cbn [trees_of] in *.
  - inversion H2 as [|x1 ts1 v v0 Hx1 Hn1]; subst. inversion Hn1; subst. inversion Hx1 as [a2 ts2 w w' Hts Hvs]; subst. rewrite app_nil_r, app_assoc, <-(app_nil_r ((u ++ w) ++ a :: w')).
    constructor; [|constructor]. constructor; [by constructor|done].
  - by constructor.
Qed.
Lemma drops_leaf E it l : pop1 it = None -> drops_vars own E (ow (roots it)) l -> drops_trees own E (trees_of it) (roots it ++ l).
Proof.
  intros Hp Hv. destruct it as [[a [|y ts]]|[|y ts]]; try done; cbn [trees_of roots root_of] in *.
  - unfold ow in Hv. cbn [flat_map] in Hv. rewrite app_nil_r in Hv. rewrite <-(app_nil_r ([a] ++ l)). constructor; [|constructor]. exact (drops_node own E a [] [] l (drops_no_tree own E) Hv).
  - unfold ow in Hv. cbn [flat_map] in Hv. inversion Hv; subst. constructor.
Qed.

Lemma LOOP_ok f : LOOP f -> ALL f -> LOOP (S f).
Proof.
  intros HL HA c env H n hd it Hpre Hn Hit HHn Hf. pose proof Hpre as (Hr & Hc & Hsub & Hnd0 & Hin). assert (n ∉ owns env) as Hno. { intros [x Hx]%Hin. congruence. }
  destruct (exist_fresh (dom env : gset nat)) as [t Ht]. apply not_elem_of_dom in Ht.
  assert (c_env c !! t = None) as Ht'. { specialize (Hc t). destruct (c_env c !! t); [|done]. destruct Hc as (x & _ & ?). congruence. }
  assert (H !! t = None) as HHt. { destruct (H !! t) eqn:Eq; [|done]. apply Hsub in Eq. congruence. }
  assert (t ∉ owns env) as Hto. { intros [x Hx]%Hin. congruence. } assert (n <> t) as Hnt by congruence.
  pose proof (pop_step c env n hd it t Hr Hc Hn Hit Ht) as Hpop. destruct (pop1 it) as [[x it']|] eqn:Ep.
  - destruct Hpop as (q & s' & Epop & Hr1 & Hc1 & Hl1). set (c1 := CSt (<[t := HT q]> (c_env c)) s') in *. set (env1 := <[t := ITree x]> (<[n := it']> env)) in *.
    destruct (pop1_post _ _ _ Ep) as [Hpost Hbel].
    assert (values env1 ≡ₚ values env) as Hv1.
    { rewrite !values_all. unfold env1. rewrite all_insert by (by rewrite lookup_insert_ne). pose proof (all_update item_post env n it it' Hit) as Hu. rewrite Hpost in Hu. cbn [item_post].
      apply (Permutation_app_inv_l (item_post it')). rewrite <-Hu. solve_Permutation. }
    assert (S (nr env1) = nr env) as Hnr1.
    { unfold nr, env1. rewrite all_insert by (by rewrite lookup_insert_ne). pose proof (Permutation_length (all_update below env n it it' Hit)) as Hu. rewrite !app_length in *. lia. }
    assert (owns env1 ≡ₚ owns env) as Ho1 by (by apply fm_perm).
    assert (pre c1 env1 H) as Hpre1.
    { split_and!; [done|done| | |].
      - intros g y Hg. cbn [c1 c_env]. rewrite lookup_insert_ne; [by apply Hsub|]. intros <-. congruence.
      - by rewrite Ho1.
      - intros g. rewrite Ho1. apply Hin. }
    destruct (HL c1 env1 H t (HT q) (ITree x) Hpre1 (lookup_insert _ _ _) (lookup_insert _ _ _) HHt) as (c2 & env2 & H2 & l1 & E1 & G1 & R1); [lia|].
    pose proof (owns_perm _ _ _ (rs_vals _ _ _ _ _ _ _ _ R1)) as Ho2.
    assert (forall g, g ∈ ow l1 -> g ∈ owns env) as Hl1o. { intros g Hg. rewrite <-Ho1, Ho2, elem_of_app. tauto. }
    assert (pre c2 env2 H2) as Hpre2.
    { apply (pre_next c1 env1 H [t] l1 c2 env2 H2 _ Hpre1 R1).
      - intros g. rewrite (G1 g). repeat case_decide; rewrite ?elem_of_app in *; try tauto. assert (g = t) as -> by (rewrite elem_of_list_singleton in *; tauto). done.
      - intros g ->%elem_of_list_singleton. by rewrite Ho1. }
    assert (n ∉ [t] ++ ow l1) as Hnl. { rewrite elem_of_app, elem_of_list_singleton. intros [?|?%Hl1o]; done. }
    pose proof (gone_size _ _ _ G1) as Hs1. pose proof (rs_nr _ _ _ _ _ _ _ _ R1) as Hn1.
    destruct (HL c2 env2 H2 n hd it' Hpre2) as (c3 & env3 & H3 & l2 & E2 & G2 & R2).
    { rewrite (gone_keep _ _ _ _ (rs_cenv _ _ _ _ _ _ _ _ R1) Hnl). cbn [c1 c_env]. by rewrite lookup_insert_ne. }
    { rewrite (gone_keep _ _ _ _ (rs_env _ _ _ _ _ _ _ _ R1) Hnl). unfold env1. rewrite lookup_insert_ne by done. apply lookup_insert. }
    { rewrite (G1 n). by case_decide. }
    { lia. }
    exists c3, env3, H3, (l1 ++ l2). split; [|split].
    + rewrite od_loop_round. unfold bind at 1. rewrite Epop. unfold bind. cbn [addr c1 c_mem] in E1. rewrite E1. exact E2.
    + rewrite ow_app. exact (gone_trans _ _ _ _ _ G1 G2).
    + split; [apply R2|apply R2| | | | | |].
      * rewrite (rs_log _ _ _ _ _ _ _ _ R2), (rs_log _ _ _ _ _ _ _ _ R1). cbn [c1 c_mem]. by rewrite Hl1, app_assoc.
      * intros g. rewrite (rs_cenv _ _ _ _ _ _ _ _ R2 g), (rs_cenv _ _ _ _ _ _ _ _ R1 g). cbn [c1 c_env]. rewrite ow_app. destruct (decide (g = t)) as [->|Hgt].
        { rewrite Ht'. assert (t ∈ [t] ++ ow l1) by (rewrite elem_of_app, elem_of_list_singleton; tauto). repeat case_decide; done. }
        rewrite lookup_insert_ne by done. repeat case_decide; rewrite ?elem_of_app, ?elem_of_list_singleton in *; tauto.
      * intros g. rewrite (rs_env _ _ _ _ _ _ _ _ R2 g), (rs_env _ _ _ _ _ _ _ _ R1 g). unfold env1. rewrite ow_app. destruct (decide (g = t)) as [->|Hgt].
        { rewrite Ht. assert (t ∈ [t] ++ ow l1) by (rewrite elem_of_app, elem_of_list_singleton; tauto). repeat case_decide; done. }
        rewrite lookup_insert_ne by done. destruct (decide (g = n)) as [->|Hgn].
        { rewrite decide_True by (rewrite elem_of_app, elem_of_list_singleton; tauto). by rewrite decide_True by (rewrite elem_of_app, elem_of_list_singleton; tauto). }
        rewrite lookup_insert_ne by done. repeat case_decide; rewrite ?elem_of_app, ?elem_of_list_singleton in *; tauto.
      * by rewrite <-Hv1, (rs_vals _ _ _ _ _ _ _ _ R1), (rs_vals _ _ _ _ _ _ _ _ R2), app_assoc.
      * pose proof (rs_nr _ _ _ _ _ _ _ _ R2). lia.
      * intros E HE. apply (drops_pop E it x it' l1 l2 Ep).
        -- apply (rs_sub _ _ _ _ _ _ _ _ R1). intros g Hg. rewrite HE by done. unfold env1. rewrite !lookup_insert_ne; [done| |]; intros <-; rewrite ?HHn, ?HHt in Hg; by destruct Hg.
        -- apply (rs_sub _ _ _ _ _ _ _ _ R2). intros g Hg. apply (gone_left _ _ _ _ G1) in Hg as [Hg1 Hg2]. assert (g <> n /\ g <> t) as [Hgn Hgt]. { split; intros ->; rewrite ?HHn, ?HHt in Hg2; by destruct Hg2. }
           rewrite HE by done. rewrite (gone_keep _ _ _ _ (rs_env _ _ _ _ _ _ _ _ R1)); [unfold env1; by rewrite !lookup_insert_ne|]. rewrite elem_of_app, elem_of_list_singleton. tauto.
  - destruct (leaf_step c env n hd it Hr Hc Hn Hit Ep) as (u & s' & Hu & Hdv & Ed & Hr1 & Hc1 & Hl1). set (c1 := CSt (delete n (c_env c)) s') in *.
    destruct (pop1_none it Ep) as [Hpost Hbel]. pose proof (all_delete item_post env n it Hit) as Hv1. rewrite Hpost in Hv1. rewrite <-!values_all in Hv1. pose proof (owns_perm _ _ _ Hv1) as Ho1.
    pose proof (Permutation_length (all_delete below env n it Hit)) as Hn1. rewrite Hbel in Hn1. cbn [app] in Hn1. change (nr env = nr (delete n env)) in Hn1.
    assert (pre c1 (delete n env) H) as Hpre1.
    { rewrite Ho1 in Hnd0. apply NoDup_app in Hnd0 as (_ & _ & Hnd0). split_and!; [done|done| |done|].
      - intros g y Hg. cbn [c1 c_env]. rewrite lookup_delete_ne; [by apply Hsub|]. intros <-. congruence.
      - intros g Hg. apply Hin. rewrite Ho1, elem_of_app. tauto. }
    destruct (HA c1 (delete n env) H (ow (roots it)) Hpre1) as (c2 & env2 & H2 & l2 & E2 & G2 & R2).
    { by rewrite <-Ho1. } { intros g Hg. apply Hin. rewrite Ho1, elem_of_app. tauto. } { lia. }
    exists c2, env2, H2, (roots it ++ l2). split; [|split].
    + rewrite od_loop_round. unfold bind at 1. rewrite Hpop. unfold bind, get. rewrite Hu, Ed, Hdv. exact E2.
    + by rewrite ow_app.
    + split; [apply R2|apply R2| | | | | |].
      * rewrite (rs_log _ _ _ _ _ _ _ _ R2). cbn [c1 c_mem]. by rewrite Hl1, app_assoc.
      * rewrite ow_app. exact (gone_trans _ _ _ _ _ (gone_delete n (c_env c)) (rs_cenv _ _ _ _ _ _ _ _ R2)).
      * rewrite ow_app. exact (gone_trans _ _ _ _ _ (gone_delete n env) (rs_env _ _ _ _ _ _ _ _ R2)).
      * by rewrite Hv1, (rs_vals _ _ _ _ _ _ _ _ R2), app_assoc.
      * pose proof (rs_nr _ _ _ _ _ _ _ _ R2). lia.
      * intros E HE. apply drops_leaf; [done|]. apply (rs_sub _ _ _ _ _ _ _ _ R2). intros g Hg. rewrite HE by done. rewrite lookup_delete_ne; [done|]. intros <-. rewrite HHn in Hg. by destruct Hg.
Qed.

Lemma loops f : LOOP f /\ ALL f.
Proof. induction f as [|f [HL HA]]; [split; intros c env H **; lia|]. split; [by apply LOOP_ok|by apply ALL_ok]. Qed.

Lemma values_heap c env : reachable c -> contents c env -> length (values env) <= size (m_heap (c_mem c)).
Proof.
  intros Hr Hc. destruct (reachable_contents c env Hr Hc) as (Wm & HR & _). pose proof (cells _ _ _ (re_inv _ _ _ _ HR)) as Hl. pose proof (world_values _ _ _ _ HR) as Hv. cbn [s_env] in Hv. rewrite <-Hv.
  etrans; [|exact Hl]. generalize (@ClientRef.vals A [] Wm) as W. intros W. assert (forall t : atree A, length (apost t) <= length (addrs t)) as Ht.
  { fix IH 1. intros [p pl v ks]. cbn [apost addrs]. rewrite app_length. cbn [length]. assert (length (flat_map apost ks) <= length (flat_map addrs ks)).
    { induction ks as [|k ks IHk]; [done|]. cbn [flat_map]. rewrite !app_length. pose proof (IH k). lia. } destruct v; simpl; lia. }
  induction W as [|t W IHW]; [done|]. cbn [aposts addrss flat_map]. rewrite !app_length. pose proof (Ht t). unfold aposts, addrss in IHW. lia.
Qed.

Theorem drop_owning_ok c env h it : reachable c -> contents c env -> env !! h = Some it -> sole_owner own env h ->
  exists c' env' l, drop_owning own c h = Done RUnit c' /\ reachable c' /\ contents c' env' /\ m_log (c_mem c') = m_log (c_mem c) ++ l /\ drops_trees own env (trees_of it) l /\
    (forall g, env' !! g = if decide (g ∈ h :: flat_map own l) then None else env !! g) /\ values env ≡ₚ l ++ values env' /\
    (forall h', h' ∉ flat_map own (values env) -> sole_owner own env' h').
Proof.
  intros Hr Hc Hit [Hnd Hin]. apply NoDup_cons in Hnd as [Hh Hnd]. pose proof (Hc h) as Hhd. destruct (c_env c !! h) as [hd|] eqn:Eh; [|congruence]. unfold drop_owning. rewrite Eh.
  assert (pre c env (delete h (c_env c))) as Hpre.
  { split_and!; [done|done| |done|].
    - by intros g x [_ Hx]%lookup_delete_Some.
    - intros g Hg. rewrite lookup_delete_ne by (by intros <-). destruct (Hin g Hg) as [x Hx]. specialize (Hc g). destruct (c_env c !! g); [eauto|congruence]. }
  destruct (loops (2 * size (m_heap (c_mem c)) + 2 * size (delete h (c_env c)) + 2)) as [HL _].
  destruct (HL c env (delete h (c_env c)) h hd it Hpre Eh Hit (lookup_delete _ _)) as (c' & env' & H' & l & E & G & R). { pose proof (values_heap c env Hr Hc). pose proof (nr_values env). lia. }
  exists c', env', l. unfold od_tree. rewrite E. assert (H' = c_env c') as ->.
  { apply map_eq. intros g. rewrite (G g), (rs_cenv _ _ _ _ _ _ _ _ R g). destruct (decide (g = h)) as [->|Hne].
    - rewrite lookup_delete. rewrite (decide_True (P := h ∈ [h] ++ ow l)) by (rewrite elem_of_app, elem_of_list_singleton; tauto). by case_decide.
    - rewrite lookup_delete_ne by done. repeat case_decide; rewrite ?elem_of_app, ?elem_of_list_singleton in *; tauto. }
  split; [by destruct c'|]. split; [apply R|]. split; [apply R|]. split; [apply R|]. split; [|split; [|split; [apply R|]]].
  - apply (rs_sub _ _ _ _ _ _ _ _ R). done.
  - exact (rs_env _ _ _ _ _ _ _ _ R).
  - intros h' Hh'. pose proof (owns_perm _ _ _ (rs_vals _ _ _ _ _ _ _ _ R)) as Ho. fold (owns env) in *. unfold ow in *. rewrite Ho in Hnd. apply NoDup_app in Hnd as (_ & Hd & Hnd). split.
    + apply NoDup_cons. split; [|done]. intros Hx. apply Hh'. change (flat_map own (values env)) with (owns env). rewrite Ho, elem_of_app. tauto.
    + intros g Hg. change (g ∈ owns env') in Hg. assert (g ∈ owns env) as Hg' by (rewrite Ho, elem_of_app; tauto). rewrite (rs_env _ _ _ _ _ _ _ _ R g). rewrite decide_False; [by apply Hin|].
      rewrite elem_of_app, elem_of_list_singleton. intros [->|Hx]; [done|]. by apply (Hd g Hx).
Qed.

Scheme dt_ind := Induction for drops_tree Sort Prop with dts_ind := Induction for drops_trees Sort Prop with dv_ind := Induction for drops_vars Sort Prop.
(** the order is determined *)
Lemma drops_fun E ts l l' : drops_trees own E ts l -> drops_trees own E ts l' -> l = l'.
Proof.
  intros Hl. revert l'. apply (dts_ind A own E (fun t l _ => forall l', drops_tree own E t l' -> l = l') (fun ts l _ => forall l', drops_trees own E ts l' -> l = l') (fun gs l _ => forall l', drops_vars own E gs l' -> l = l')); [..|exact Hl].
  - intros a ts0 l0 l1 _ IH1 _ IH2 l' Hd. inversion Hd; subst. f_equal; [by apply IH1|]. f_equal. by apply IH2.
  - intros l' Hd. by inversion Hd.
  - intros t ts0 l0 l1 _ IH1 _ IH2 l' Hd. inversion Hd; subst. f_equal; [by apply IH1|by apply IH2].
  - intros l' Hd. by inversion Hd.
  - intros g gs it l0 l1 Hg _ IH1 _ IH2 l' Hd. inversion Hd; subst. f_equal; [|by apply IH2]. apply IH1. by simplify_eq.
Qed.
End own.
