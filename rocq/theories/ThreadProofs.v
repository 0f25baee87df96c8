(** ThreadProofs.v — no lost slot is ever used; separate buffers are released exactly. *)
From stdpp Require Import base gmap list.
From Verif Require Import ThreadModel ThreadSpec.

(** slots of [v] thread [th] still has to give up *)
Definition owes (v : nat) (th : thread) : nat :=
  (match pending th with Some (w, _) => if decide (w = v) then 1 else 0 | None => 0 end) + gives v (prog th).
Definition owed (v : nat) (ths : list thread) : nat := sum_list (map (owes v) ths).

Lemma owed_insert v ths k th th' : ths !! k = Some th ->
  owed v (<[k := th']> ths) + owes v th = owed v ths + owes v th'.
Proof.
  revert k. induction ths as [|t ths IH]; intros [|k] H; simplify_eq/=; [unfold owed; simpl; lia|].
  apply IH in H. unfold owed in *. simpl. lia.
Qed.
Lemma owed_lookup v ths k th : ths !! k = Some th -> owes v th <= owed v ths.
Proof. intros H. pose proof (owed_insert v ths k th (Th None []) H). unfold owes in H0 at 2. simpl in *. lia. Qed.
Lemma owed_start v progs : owed v (map (Th None) progs) = gives_all v progs.
Proof. unfold owed, gives_all. f_equal. rewrite map_map. by apply map_ext. Qed.

Lemma owns_tail keep e l : owns keep (e :: l) -> owns keep l.
Proof. intros H l1 v l2 ->. by apply (H (e :: l1) v l2). Qed.

Record TInv (keep : nat -> nat) (st : tst) : Prop := {
  ti_ge : forall v c, t_vec st !! v = Some c -> owed v (t_th st) + keep v <= c;
  ti_some : forall v, 0 < owed v (t_th st) + keep v -> is_Some (t_vec st !! v);
  ti_pend : forall k v c l, t_th st !! k = Some (Th (Some (v, c)) l) -> owed v (t_th st) + keep v <= c;
  ti_own : forall k o l, t_th st !! k = Some (Th o l) -> owns keep l
}.

Lemma tinv_step keep st k : TInv keep st -> exists st', tstep st k = TOk st' /\ TInv keep st'.
Proof.
  intros [Hge Hsome Hp Hown]. unfold tstep. destruct (t_th st !! k) as [[o l]|] eqn:Ek; [|eexists; split; [done|by split]].
  pose proof (fun v => owed_lookup v _ _ _ Ek) as Hle.
  assert (Hnew : forall (vec' : gmap nat nat) o' l' th',
     th' = Th o' l' ->
     (forall v, owes v th' <= owes v (Th o l)) ->
     (forall v c, vec' !! v = Some c -> owed v (<[k := th']> (t_th st)) + keep v <= c) ->
     (forall v, 0 < owed v (<[k := th']> (t_th st)) + keep v -> is_Some (vec' !! v)) ->
     (forall v c, o' = Some (v, c) -> owed v (<[k := th']> (t_th st)) + keep v <= c) ->
     owns keep l' ->
     TInv keep (TSt vec' (<[k := th']> (t_th st)))).
  { intros vec' o' l' th' -> Hless H1 H2 H3 H4. split; simpl; try done.
    - intros j v c lj Hj. destruct (decide (j = k)) as [->|Hjk].
      + rewrite list_lookup_insert in Hj by (by eapply lookup_lt_Some). simplify_eq. by apply H3.
      + rewrite list_lookup_insert_ne in Hj by done. specialize (Hp _ _ _ _ Hj).
        pose proof (owed_insert v _ _ _ (Th o' l') Ek). specialize (Hless v). lia.
    - intros j oj lj Hj. destruct (decide (j = k)) as [->|Hjk].
      + rewrite list_lookup_insert in Hj by (by eapply lookup_lt_Some). by simplify_eq.
      + rewrite list_lookup_insert_ne in Hj by done. by eapply Hown. }
  destruct o as [[v c]|].
  - pose proof (Hp _ _ _ _ Ek) as Hc. pose proof (Hle v) as Hv. unfold owes in Hv. simpl in Hv. rewrite decide_True in Hv by done.
    destruct (Hsome v) as [x Hx]; [lia|]. rewrite Hx.
    assert (Hless : forall w, owed w (<[k := Th None l]> (t_th st)) + (if decide (v = w) then 1 else 0) = owed w (t_th st)).
    { intros w. pose proof (owed_insert w _ _ _ (Th None l) Ek) as H. unfold owes in H. simpl in H. lia. }
    destruct c as [|[|c]]; [lia| |].
    + eexists. split; [done|]. eapply Hnew; [done|..].
      * intros w. unfold owes; simpl. case_decide; lia.
      * intros w cw Hw. apply lookup_delete_Some in Hw as [Hne Hw]. specialize (Hless w). rewrite decide_False in Hless by done.
        apply Hge in Hw. lia.
      * intros w Hw. specialize (Hless w). destruct (decide (v = w)) as [->|Hne]; [lia|].
        rewrite lookup_delete_ne by done. apply Hsome. lia.
      * done.
      * by eapply Hown.
    + eexists. split; [done|]. eapply Hnew; [done|..].
      * intros w. unfold owes; simpl. case_decide; lia.
      * intros w cw Hw. specialize (Hless w). apply lookup_insert_Some in Hw as [[-> <-]|[Hne Hw]].
        -- rewrite decide_True in Hless by done. lia.
        -- rewrite decide_False in Hless by done. apply Hge in Hw. lia.
      * intros w Hw. specialize (Hless w). destruct (decide (v = w)) as [->|Hne]; [by rewrite lookup_insert|].
        rewrite lookup_insert_ne by done. apply Hsome. lia.
      * done.
      * by eapply Hown.
  - destruct l as [|[v|v] l]; [eexists; split; [done|by split]|..].
    + destruct (Hsome v) as [x Hx].
      { pose proof (Hown _ _ _ Ek [] v l eq_refl). specialize (Hle v). unfold owes in Hle. simpl in Hle. lia. }
      rewrite Hx. eexists. split; [done|].
      assert (Hless : forall w, owed w (<[k := Th None l]> (t_th st)) = owed w (t_th st)).
      { intros w. pose proof (owed_insert w _ _ _ (Th None l) Ek) as H. unfold owes in H. simpl in H. lia. }
      eapply Hnew; [done|..].
      * intros w. unfold owes; simpl. lia.
      * intros w cw Hw. rewrite Hless. by apply Hge.
      * intros w. rewrite Hless. apply Hsome.
      * done.
      * eapply owns_tail, Hown, Ek.
    + destruct (Hsome v) as [x Hx].
      { specialize (Hle v). unfold owes in Hle. simpl in Hle. rewrite decide_True in Hle by done. lia. }
      rewrite Hx. eexists. split; [done|].
      assert (Hless : forall w, owed w (<[k := Th (Some (v, x)) l]> (t_th st)) = owed w (t_th st)).
      { intros w. pose proof (owed_insert w _ _ _ (Th (Some (v, x)) l) Ek) as H. unfold owes in H. simpl in H. lia. }
      eapply Hnew; [done|..].
      * intros w. unfold owes; simpl. lia.
      * intros w cw Hw. rewrite Hless. by apply Hge.
      * intros w. rewrite Hless. apply Hsome.
      * intros w cw [= <- <-]. rewrite Hless. by apply Hge.
      * eapply owns_tail, Hown, Ek.
Qed.

Lemma tinv_run keep sched st : TInv keep st -> exists st', trun st sched = TOk st' /\ TInv keep st'.
Proof.
  revert st. induction sched as [|k sched IH]; intros st H; simpl; [eauto|].
  destruct (tinv_step keep st k H) as (st1 & -> & H1). by apply IH.
Qed.

Lemma tinv_start keep vec progs : counted keep vec progs -> Forall (owns keep) progs -> TInv keep (start vec progs).
Proof.
  intros Hc Ho. split; simpl.
  - intros v c Hv. rewrite owed_start. rewrite Hc in Hv. destruct (gives_all v progs + keep v); simplify_eq; lia.
  - intros v Hv. rewrite owed_start in Hv. rewrite Hc. destruct (gives_all v progs + keep v); [lia|eauto].
  - intros k v c l Hk. apply list_lookup_fmap_Some in Hk as (? & ? & ?); simplify_eq.
  - intros k o l Hk. apply list_lookup_fmap_Some in Hk as (? & Hl & Hk); simplify_eq. rewrite Forall_forall in Ho.
    apply Ho. by eapply elem_of_list_lookup_2.
Qed.

(** every schedule: no bad access; a buffer of which somebody still owns a slot is allocated *)
Lemma never_early keep vec progs sched : counted keep vec progs -> Forall (owns keep) progs ->
  exists st, trun (start vec progs) sched = TOk st /\
    forall v, 0 < owed v (t_th st) + keep v -> is_Some (t_vec st !! v).
Proof.
  intros Hc Ho. destruct (tinv_run keep sched _ (tinv_start _ _ _ Hc Ho)) as (st & E & HI). exists st. split; [done|]. apply HI.
Qed.

(** * Separate buffers *)
Record TEx (keep : nat -> nat) (st : tst) : Prop := {
  te_vec : forall v, t_vec st !! v = match owed v (t_th st) + keep v with 0 => None | n => Some n end;
  te_pend : forall k v c l, t_th st !! k = Some (Th (Some (v, c)) l) -> c = owed v (t_th st) + keep v;
  te_sep : forall i j t t' v, t_th st !! i = Some t -> t_th st !! j = Some t' -> 0 < owes v t -> 0 < owes v t' -> i = j;
  te_own : forall k o l, t_th st !! k = Some (Th o l) -> owns keep l
}.

Lemma tex_step keep st k : TEx keep st -> exists st', tstep st k = TOk st' /\ TEx keep st'.
Proof.
  intros [Hv Hp Hs Hown]. unfold tstep. destruct (t_th st !! k) as [[o l]|] eqn:Ek; [|eexists; split; [done|by split]].
  pose proof (fun v => owed_lookup v _ _ _ Ek) as Hle.
  assert (Hnew : forall (vec' : gmap nat nat) o' l',
     (forall v, owes v (Th o' l') <= owes v (Th o l)) ->
     (forall v, vec' !! v = match owed v (<[k := Th o' l']> (t_th st)) + keep v with 0 => None | n => Some n end) ->
     (forall v c, o' = Some (v, c) -> c = owed v (<[k := Th o' l']> (t_th st)) + keep v) ->
     (forall j v c lj, j <> k -> t_th st !! j = Some (Th (Some (v, c)) lj) -> owed v (<[k := Th o' l']> (t_th st)) = owed v (t_th st)) ->
     owns keep l' ->
     TEx keep (TSt vec' (<[k := Th o' l']> (t_th st)))).
  { intros vec' o' l' Hless H1 H2 H3 H4. split; simpl; try done.
    - intros j v c lj Hj. destruct (decide (j = k)) as [->|Hjk].
      + rewrite list_lookup_insert in Hj by (by eapply lookup_lt_Some). simplify_eq. by apply H2.
      + rewrite list_lookup_insert_ne in Hj by done. rewrite (H3 _ _ _ _ Hjk Hj). by eapply Hp.
    - intros i j t t' v Hi Hj Hvi Hvj.
      assert (Hx : forall i t, <[k:=Th o' l']> (t_th st) !! i = Some t -> 0 < owes v t -> exists t0, t_th st !! i = Some t0 /\ 0 < owes v t0).
      { intros i0 t0 Hi0 Ht0. destruct (decide (i0 = k)) as [->|Hne].
        - rewrite list_lookup_insert in Hi0 by (by eapply lookup_lt_Some). simplify_eq. exists (Th o l). split; [done|].
          specialize (Hless v). lia.
        - rewrite list_lookup_insert_ne in Hi0 by done. eauto. }
      destruct (Hx _ _ Hi Hvi) as (?&?&?), (Hx _ _ Hj Hvj) as (?&?&?). by eapply Hs.
    - intros j oj lj Hj. destruct (decide (j = k)) as [->|Hjk].
      + rewrite list_lookup_insert in Hj by (by eapply lookup_lt_Some). by simplify_eq.
      + rewrite list_lookup_insert_ne in Hj by done. by eapply Hown. }
  assert (Hsome : forall v, 0 < owed v (t_th st) + keep v -> t_vec st !! v = Some (owed v (t_th st) + keep v)).
  { intros v H. rewrite Hv. destruct (owed v (t_th st) + keep v); [lia|done]. }
  destruct o as [[v c]|].
  - pose proof (Hp _ _ _ _ Ek) as Hc. pose proof (Hle v) as Hlev. unfold owes in Hlev. simpl in Hlev. rewrite decide_True in Hlev by done.
    rewrite Hsome by lia.
    assert (Hless : forall w, owed w (<[k := Th None l]> (t_th st)) + (if decide (v = w) then 1 else 0) = owed w (t_th st)).
    { intros w. pose proof (owed_insert w _ _ _ (Th None l) Ek) as H. unfold owes in H. simpl in H. lia. }
    assert (Hother : forall j w cw lj, j <> k -> t_th st !! j = Some (Th (Some (w, cw)) lj) ->
              owed w (<[k := Th None l]> (t_th st)) = owed w (t_th st)).
    { intros j w cw lj Hjk Hj. pose proof (Hless w) as Hlw. case_decide as Hvw; [|lia]. subst w. exfalso. apply Hjk.
      eapply (Hs j k _ _ v); [exact Hj|exact Ek|..]; unfold owes; simpl; rewrite decide_True by done; lia. }
    destruct c as [|[|c]]; [lia| |].
    + eexists. split; [done|]. apply Hnew.
      * intros w. unfold owes; simpl. case_decide; lia.
      * intros w. specialize (Hless w). destruct (decide (v = w)) as [<-|Hne].
        -- rewrite lookup_delete. replace (owed v _ + keep v) with 0 by lia. done.
        -- rewrite lookup_delete_ne by done. rewrite Hv. f_equal. replace (owed w (<[k:=Th None l]> (t_th st))) with (owed w (t_th st)) by lia. done.
      * done.
      * done.
      * by eapply Hown.
    + eexists. split; [done|]. apply Hnew.
      * intros w. unfold owes; simpl. case_decide; lia.
      * intros w. specialize (Hless w). destruct (decide (v = w)) as [<-|Hne].
        -- rewrite lookup_insert. replace (owed v _ + keep v) with (S c) by lia. done.
        -- rewrite lookup_insert_ne by done. rewrite Hv. replace (owed w (<[k:=Th None l]> (t_th st))) with (owed w (t_th st)) by lia. done.
      * done.
      * done.
      * by eapply Hown.
  - destruct l as [|[v|v] l]; [eexists; split; [done|by split]|..].
    + rewrite Hsome.
      2:{ pose proof (Hown _ _ _ Ek [] v l eq_refl). specialize (Hle v). unfold owes in Hle. simpl in Hle. lia. }
      eexists. split; [done|].
      assert (Hless : forall w, owed w (<[k := Th None l]> (t_th st)) = owed w (t_th st)).
      { intros w. pose proof (owed_insert w _ _ _ (Th None l) Ek) as H. unfold owes in H. simpl in H. lia. }
      apply Hnew; [|intros w; by rewrite Hless|done|by intros; apply Hless|eapply owns_tail, Hown, Ek].
      intros w. unfold owes; simpl. lia.
    + rewrite Hsome.
      2:{ specialize (Hle v). unfold owes in Hle. simpl in Hle. rewrite decide_True in Hle by done. lia. }
      eexists. split; [done|].
      assert (Hless : forall x w, owed w (<[k := Th (Some (v, x)) l]> (t_th st)) = owed w (t_th st)).
      { intros x w. pose proof (owed_insert w _ _ _ (Th (Some (v, x)) l) Ek) as H. unfold owes in H. simpl in H. lia. }
      apply Hnew; [|intros w; by rewrite Hless| |by intros; apply Hless|eapply owns_tail, Hown, Ek].
      * intros w. unfold owes; simpl. lia.
      * intros w cw [= <- <-]. by rewrite Hless.
Qed.

Lemma tex_run keep sched st : TEx keep st -> exists st', trun st sched = TOk st' /\ TEx keep st'.
Proof.
  revert st. induction sched as [|k sched IH]; intros st H; simpl; [eauto|].
  destruct (tex_step keep st k H) as (st1 & -> & H1). by apply IH.
Qed.

Lemma separate_exact keep vec progs sched : counted keep vec progs -> Forall (owns keep) progs -> separate progs ->
  exists st, trun (start vec progs) sched = TOk st /\
    (forall v, t_vec st !! v = match owed v (t_th st) + keep v with 0 => None | n => Some n end).
Proof.
  intros Hc Ho Hs. assert (TEx keep (start vec progs)) as HI.
  { split; simpl.
    - intros v. rewrite owed_start. apply Hc.
    - intros k v c l Hk. apply list_lookup_fmap_Some in Hk as (? & ? & ?); simplify_eq.
    - intros i j t t' v Hi Hj. apply list_lookup_fmap_Some in Hi as (li & ? & ?), Hj as (lj & ? & ?); simplify_eq.
      unfold owes. simpl. intros ??. by eapply Hs.
    - intros k o l Hk. apply list_lookup_fmap_Some in Hk as (? & Hl & Hk); simplify_eq. rewrite Forall_forall in Ho.
      apply Ho. by eapply elem_of_list_lookup_2. }
  destruct (tex_run keep sched _ HI) as (st & E & HI'). exists st. split; [done|]. apply HI'.
Qed.

Lemma owed_finished v st : finished st -> owed v (t_th st) = 0.
Proof.
  unfold finished, owed. generalize (t_th st). intros ths. induction ths as [|t ths IH]; intros H; [done|]. simpl.
  rewrite IH by (intros; apply H; by right). rewrite (H t) by left. done.
Qed.
Lemma separate_end keep vec progs sched st : counted keep vec progs -> Forall (owns keep) progs -> separate progs ->
  trun (start vec progs) sched = TOk st -> finished st ->
  forall v, t_vec st !! v = match keep v with 0 => None | n => Some n end.
Proof.
  intros Hc Ho Hs E Hf v. destruct (separate_exact keep vec progs sched Hc Ho Hs) as (st' & E' & H). rewrite E in E'. injection E' as <-.
  rewrite H, owed_finished by done. done.
Qed.
