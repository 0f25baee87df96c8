(** RcReentProofs.v — a T::drop that uses the library: the code does what the specification says as long as the last handle of a node in a buffer is not dropped. *)
From stdpp Require Import base gmap list.
From Verif Require Import Spec ClientSpec RcSpec Machine NodeModel BfsModel ClientModel RcModel RcAllowed RcClient Sep Rep NodeProofs Inv Abs ClientProofs ClientRef ClientProps CountFrame
  RcRelease RcLab RcRef RcStep RcStep2 RcStep3 RcStep4 RcProps RcProps2 RcMisuse RcPlainSpec RcPlain CounterSpec CounterProofs RcOwnModel RcOwnSpec RcOwnProofs RcOwnStep DropRunSpec RcReentSpec RcReentModel.

Section proofs.
Context {A H : Type}.
Implicit Types (c : rst A) (σ : rss A) (st : H) (R : list nat).
(** the program makes no trees in a buffer *)
Context (B : Prop).
Definition nobuf c : Prop := B -> m_vec (r_mem c) = ∅.

(** no Ref or RefMut borrows from [x] *)
Definition ung σ (x : nat) : Prop := forall g m, rs_g σ !! g <> Some (x, m).
Lemma ung_spec σ x : ung σ x <-> x ∉ ((map_to_list (rs_g σ)).*2).*1.
Proof.
  unfold ung. split.
  - intros Hu Hx. apply elem_of_list_fmap in Hx as ([y m] & -> & Hx). apply elem_of_list_fmap in Hx as ([g ?] & Heq & Hx). simpl in Heq. subst. apply elem_of_map_to_list in Hx. by eapply Hu.
  - intros Hx g m Hg. apply Hx. apply elem_of_list_fmap. exists (x, m). split; [done|]. apply elem_of_list_fmap. exists (g, (x, m)). split; [done|]. by apply elem_of_map_to_list.
Qed.
Definition kept R σ c σ' c' : Prop := (nobuf c -> nobuf c') /\ forall x, x ∈ R -> rs_h σ' !! x = rs_h σ !! x /\ r_h c' !! x = r_h c !! x /\ (ung σ x -> ung σ' x).
Lemma kept_refl R σ c : kept R σ c σ c.
Proof. split; [done|]. intros x _. done. Qed.
Lemma kept_trans R σ c σ1 c1 σ2 c2 : kept R σ c σ1 c1 -> kept R σ1 c1 σ2 c2 -> kept R σ c σ2 c2.
Proof. intros [N1 H1] [N2 H2]. split; [auto|]. intros x Hx. destruct (H1 x Hx) as (E1 & F1 & G1), (H2 x Hx) as (E2 & F2 & G2). split_and!; [congruence|congruence|auto]. Qed.
Lemma kept_mono R R' σ c σ' c' : (forall x, x ∈ R -> x ∈ R') -> kept R' σ c σ' c' -> kept R σ c σ' c'.
Proof. intros Hs [? Hk]. split; [done|]. intros x Hx. apply Hk. auto. Qed.

(** an operation leaves the other variables alone *)
Ltac cases E := repeat match type of E with context [match ?d with _ => _ end] => destruct d eqn:?; try discriminate E end.
Lemma spec_frame σ o r σ' x : rsstep σ o = Some (r, σ') -> qsilent o = true -> x ∉ rnames o -> rs_h σ' !! x = rs_h σ !! x /\ (ung σ x -> ung σ' x).
Proof.
  intros E Hq Hx. destruct o; try discriminate Hq; cbn [rsstep rnames] in E, Hx; unfold reading, writing, on_node, give in E;
    cases E; injection E as <- <-;
    unfold set_nx, set_sh, set_env, set_x, set_h, set_w, set_g, set_it; cbn [rs_h rs_g]; try (split; [done|done]);
    try (split; [rewrite lookup_insert_ne; [done|intros ->; apply Hx; set_solver]|done]);
    (split; [done|]; intros Hu g' m' Hg').
  all: cbn [rs_g] in Hg'; rewrite ?lookup_insert_Some, ?lookup_delete_Some in Hg'.
  - destruct Hg' as [[_ Heq]|[_ Hg']]; [injection Heq as -> _; apply Hx; set_solver|]. by eapply Hu.
  - destruct Hg' as [[_ Heq]|[_ Hg']]; [injection Heq as -> _; apply Hx; set_solver|]. by eapply Hu.
  - destruct Hg' as [_ Hg']. by eapply Hu.
Qed.
Lemma code_frame c o r c' x : rstep c o = RDone r c' -> qsilent o = true -> x ∉ rnames o -> r_h c' !! x = r_h c !! x.
Proof.
  intros E Hq Hx. destruct o; try discriminate Hq; cbn [rstep rnames] in E, Hx; unfold call, rgive in E;
    cases E; injection E as <- <-; try done;
    (unfold set_rh; cbn [r_h]; rewrite lookup_insert_ne; [done|intros ->; apply Hx; set_solver]).
Qed.
Lemma frame R σ c o r σ' c' : (B -> buffer_free o) -> rsstep σ o = Some (r, σ') -> rstep c o = RDone r c' -> qsilent o = true -> (forall x, x ∈ R -> x ∉ rnames o) -> kept R σ c σ' c'.
Proof. intros Hb E1 E2 Hq Hx. split. { intros Hn HB. eapply rstep_nv; [by apply Hb|by apply Hn|done]. } intros x HR. specialize (Hx x HR). destruct (spec_frame _ _ _ _ _ E1 Hq Hx). split_and!; [done|by eapply code_frame|done]. Qed.
Lemma newname_spec (D : gset nat) R : newname D R ∉ D /\ newname D R ∉ R.
Proof.
  assert (newname D R ∉ elements D ++ R) as Hm.
  { unfold newname. intros Hx. apply max_list_elem_of_le in Hx. lia. }
  split; intros Hx; apply Hm, elem_of_app; [left; by apply elem_of_elements|by right].
Qed.
Lemma reached_dom c σ : reached c σ -> (dom (r_h c) : gset nat) = dom (rs_h σ).
Proof. intros HR. apply set_eq. intros x. rewrite !elem_of_dom. by apply handle_iff. Qed.

Definition agrees {X} (P : rss A -> rst A -> Prop) (r : sres (A:=A) (H:=H) X) (q : qres (A:=A) (H:=H) X) : Prop :=
  match q with
  | QOut => ~ B
  | _ => match r with SDone x st σ => exists c, q = QDone x st c /\ reached c σ /\ P σ c | SPanics => q = QFails EPanic | SDeep => q = QFails EStack end
  end.
Lemma agrees_mono {X} (P Q : rss A -> rst A -> Prop) (r : sres X) (q : qres X) : (forall σ c, P σ c -> Q σ c) -> agrees P r q -> agrees Q r q.
Proof. unfold agrees. intros HPQ. destruct q, r; try done; intros (c' & E & HR & HP); eauto. Qed.

Lemma lasth_pinned σ h i : rs_h σ !! h = Some i -> lasth σ h i = true <-> pinned σ h i.
Proof.
  intros Hi. unfold lasth, pinned. rewrite andb_true_iff, negb_true_iff, bool_decide_eq_true. split.
  - intros [Hh Hr]. split_and!; [done|done|]. intros m Hm. destruct (decide (m = h)) as [|Hne]; [done|]. exfalso. assert (held (delete h (rs_h σ)) i = true); [|congruence]. apply held_spec. exists m. by rewrite lookup_delete_ne.
  - intros (_ & Hr & Hall). split; [|done]. destruct (held (delete h (rs_h σ)) i) eqn:E; [|done]. apply held_spec in E as [m Hm]. apply lookup_delete_Some in Hm as [Hne Hm]. by destruct Hne; rewrite (Hall m Hm).
Qed.
Lemma drop_any c σ h r i : reached c σ -> ung σ h -> r_h c !! h = Some r -> rs_h σ !! h = Some i ->
  exists s', rc_drop_handle (r_b c) r (r_mem c) = Ok tt s' /\ reached (set_rh (set_mem c s') (delete h (r_h c))) (drop_handle σ h i).
Proof.
  intros HR Hg Hr Hi. pose proof (reached_step c σ (SDrop h) HR I) as Hs. apply ung_spec in Hg. unfold rsstep in Hs. rewrite Hi, bool_decide_false in Hs by done. destruct Hs as (c' & E & HR').
  unfold rstep in E. rewrite Hr, (RI_gs _ _ (reached_RI _ _ HR)), bool_decide_false in E by done. unfold call in E. destruct (rc_drop_handle (r_b c) r (r_mem c)) as [[] s'|]; [|done]. injection E as <-. eauto.
Qed.
Lemma nv_drop c h r s' : nobuf c -> rc_drop_handle (r_b c) r (r_mem c) = Ok tt s' -> nobuf (set_rh (set_mem c s') (delete h (r_h c))).
Proof. intros Hn E HB. cbn. eapply nv_drop_handle; [exact E|by apply Hn]. Qed.
Lemma cnt_lasth c σ h r i : reached c σ -> r_h c !! h = Some r -> rs_h σ !! h = Some i ->
  exists k t u, m_cnt (r_mem c) !! raddr r = Some (S k) /\ (Nat.eqb (S k) 1 = lasth σ h i) /\ m_heap (r_mem c) !! raddr r = Some u /\ lfind i (rs_sh σ) = Some t /\ dat_vals (n_dat u) = [lval t].
Proof.
  intros HR Hr Hi. destruct (count_one c σ h r i HR Hr Hi) as (k & a & u & H1 & H2 & H3 & H4 & H5). destruct (lfind i (rs_sh σ)) as [t|]; [|done]. injection H4 as <-.
  exists k, t, u. split_and!; try done. rewrite <-(lasth_pinned _ _ _ Hi) in H2. destruct k as [|k]; cbn; [symmetry; by apply H2|]. destruct (lasth σ h i); [|done]. by pose proof (proj2 H2 eq_refl).
Qed.
(** the end of a drop of a scattered node: its children are gone or it is not the last handle *)
Lemma final_scat c σ h p i : reached c σ -> ung σ h -> r_h c !! h = Some (RScat p) -> rs_h σ !! h = Some i ->
  (lasth σ h i = true -> rc_pop Front (r_b c) (RScat p) (r_mem c) = Ok None (r_mem c)) ->
  exists s', (let! m := cnt_get p in let! nd := get p in rc_drop p ;; ret (if Nat.eqb m 1 then dat_vals (n_dat nd) else [])) (r_mem c)
      = Ok (if lasth σ h i then match lfind i (rs_sh σ) with Some t => [lval t] | None => [] end else []) s' /\
    reached (set_rh (set_mem c s') (delete h (r_h c))) (drop_handle σ h i) /\ (nobuf c -> nobuf (set_rh (set_mem c s') (delete h (r_h c)))).
Proof.
  intros HR Hg Hr Hi Hp. destruct (drop_any c σ h _ i HR Hg Hr Hi) as (s' & E & HR'). exists s'. split; [|split; [done|intros Hn; by eapply nv_drop]].
  destruct (cnt_lasth c σ h _ i HR Hr Hi) as (k & t & u & H1 & H2 & H3 & H4 & H5). cbn [raddr] in *. rewrite <-H2 in Hp |- *. rewrite H4. rewrite drop_fuel, rc_loop_round in E. unfold bind, cnt_get, get, ret in *. rewrite H1 in *. rewrite H3.
  destruct (Nat.eqb (S k) 1) eqn:Ek.
  - rewrite rc_pops_round, Hp in E by done. rewrite E. by rewrite H5.
  - by rewrite E.
Qed.
Lemma final_pile c σ h v j i : reached c σ -> ung σ h -> r_h c !! h = Some (RPile v j) -> rs_h σ !! h = Some i ->
  exists k s, (vec_ref v ;; cnt_decr (v, j)) (r_mem c) = Ok k s /\ Nat.eqb k 0 = lasth σ h i /\
    (k <> 0 -> exists s', decr_ref v s = Ok tt s' /\ reached (set_rh (set_mem c s') (delete h (r_h c))) (drop_handle σ h i) /\ (nobuf c -> nobuf (set_rh (set_mem c s') (delete h (r_h c))))).
Proof.
  intros HR Hg Hr Hi. destruct (drop_any c σ h _ i HR Hg Hr Hi) as (s' & E & HR'). assert (nobuf c -> nobuf (set_rh (set_mem c s') (delete h (r_h c)))) as Hnb by (intros Hn; by eapply nv_drop).
  destruct (cnt_lasth c σ h _ i HR Hr Hi) as (k & t & u & H1 & H2 & H3 & H4 & H5). cbn [raddr] in *. rewrite drop_fuel, rc_loop_round in E. unfold bind in *.
  destruct (vec_ref v (r_mem c)) as [[] s0|] eqn:Ev; [|done]. assert (s0 = r_mem c) as ->. { unfold vec_ref in Ev. destruct (m_vec (r_mem c) !! v); [|done]. by injection Ev. }
  destruct (cnt_decr (v, j) (r_mem c)) as [k' s|] eqn:Ed; [|done]. assert (k' = k) as ->. { unfold cnt_decr in Ed. rewrite H1 in Ed. by injection Ed. }
  exists k, s. split_and!; [done|exact H2|]. intros Hk. destruct (Nat.eqb_spec k 0) as [|_]; [done|]. unfold ret in E. exists s'. done.
Qed.

Section body.
Context (call : list nat -> A -> H -> rss A -> sres (A:=A) (H:=H) unit) (qc : list nat -> A -> H -> rst A -> qres (A:=A) (H:=H) unit).
Lemma sdrop_q_S f' R h st σ : sdrop_q call (S f') R h st σ =

    match rs_h σ !! h with
    | Some i =>
      match (if lasth σ h i then spops_q call f' R h st σ else SDone tt st σ) with
      | SDone _ st' σ' =>
        if lasth σ' h i then
          match lfind i (rs_sh σ') with
          | Some t => call R (lval t) st' (drop_handle σ' h i)
          | None => SDone tt st' σ'
          end
        else SDone tt st' (drop_handle σ' h i)
      | SPanics => SPanics
      | SDeep => SDeep
      end
    | None => SDone tt st σ
    end.
Proof using Type. reflexivity. Qed.
Lemma spops_q_S f' R h st σ : spops_q call (S f') R h st σ =

    let x := newname (dom (rs_h σ)) R in
    match rsstep σ (SPop Front h x) with
    | Some (RBool true, σ') =>
      match sdrop_q call f' (x :: R) x st σ' with
      | SDone _ st' σ'' => spops_q call f' R h st' σ''
      | SPanics => SPanics
      | SDeep => SDeep
      end
    | Some (_, σ') => SDone tt st σ'
    | None => SPanics
    end.
Proof using Type. reflexivity. Qed.
Lemma drop_q_S strict f' R h st c : drop_q strict qc (S f') R h st c =

    match r_h c !! h with
    | Some (RScat p) =>
      match cnt_get p (r_mem c) with
      | Ok n _ =>
        match (if Nat.eqb n 1 then pops_q strict qc f' R h st c else QDone tt st c) with
        | QDone _ st' c' =>
          match (let! m := cnt_get p in let! nd := get p in rc_drop p ;; ret (if Nat.eqb m 1 then dat_vals (n_dat nd) else [])) (r_mem c') with
          | Ok l s => qcall qc R l st' (set_rh (set_mem c' s) (delete h (r_h c')))
          | Err e => QFails e
          end
        | QFails e => QFails e
        | QOut => QOut
        end
      | Err e => QFails e
      end
    | Some (RPile v i) =>
      match (vec_ref v ;; cnt_decr (v, i)) (r_mem c) with
      | Ok 0 s =>
        if strict then QOut else
        match pops_q strict qc f' R h st (set_mem c s) with
        | QDone _ st' c' =>
          match (let! nd := get (v, i) in drop_in_place (v, i) ;; ret (dat_vals (n_dat nd))) (r_mem c') with
          | Ok l s1 =>
            match qcall qc R l st' (set_rh (set_mem c' s1) (delete h (r_h c'))) with
            | QDone _ st2 c2 => match decr_ref v (r_mem c2) with Ok _ s2 => QDone tt st2 (set_mem c2 s2) | Err e => QFails e end
            | QFails e => QFails e
            | QOut => QOut
            end
          | Err e => QFails e
          end
        | QFails e => QFails e
        | QOut => QOut
        end
      | Ok (S _) s => match decr_ref v s with Ok _ s2 => QDone tt st (set_rh (set_mem c s2) (delete h (r_h c))) | Err e => QFails e end
      | Err e => QFails e
      end
    | None => QDone tt st c
    end.
Proof using Type. reflexivity. Qed.
Lemma pops_q_S strict f' R h st c : pops_q strict qc (S f') R h st c =

    let x := newname (dom (r_h c)) R in
    match rstep c (SPop Front h x) with
    | RDone (RBool true) c' =>
      match drop_q strict qc f' (x :: R) x st c' with
      | QDone _ st' c'' => pops_q strict qc f' R h st' c''
      | QFails e => QFails e
      | QOut => QOut
      end
    | RDone _ c' => QDone tt st c'
    | RFails e => QFails e
    end.
Proof using Type. reflexivity. Qed.

Context (Hcall : forall R a st c σ, reached c σ -> nobuf c -> (forall x, x ∈ R -> ung σ x) -> agrees (kept R σ c) (call R a st σ) (qc R a st c)).

Lemma drop_pops f :
  (forall R h st c σ, reached c σ -> nobuf c -> h ∉ R -> (forall x, x ∈ h :: R -> ung σ x) -> agrees (kept R σ c) (sdrop_q call f (h :: R) h st σ) (drop_q true qc f (h :: R) h st c)) /\
  (forall R h r st c σ, reached c σ -> nobuf c -> h ∈ R -> r_h c !! h = Some r -> (forall x, x ∈ R -> ung σ x) ->
     agrees (fun σ' c' => kept R σ c σ' c' /\ rc_pop Front (r_b c') r (r_mem c') = Ok None (r_mem c')) (spops_q call f R h st σ) (pops_q true qc f R h st c)).
Proof.
  induction f as [|f [IHd IHp]]; [done|]. split.
  - intros R h st c σ HR HN HhR Hg. rewrite sdrop_q_S, drop_q_S. pose proof (handle_iff c σ h HR) as Hh.
    destruct (r_h c !! h) as [r|] eqn:Hr.
    2:{ destruct (rs_h σ !! h); [destruct (proj2 Hh); [eauto|done]|]. exists c. split_and!; [done|done|apply kept_refl]. }
    destruct (proj1 Hh) as [i Hi]; [eauto|]. rewrite Hi. destruct r as [p|v j].
    + destruct (cnt_lasth c σ h _ i HR Hr Hi) as (k & t & u & H1 & H2 & _). cbn [raddr] in H1. unfold cnt_get at 1. rewrite H1, H2.
      assert (agrees (fun σ' c' => kept (h :: R) σ c σ' c' /\ (lasth σ' h i = true -> rc_pop Front (r_b c') (RScat p) (r_mem c') = Ok None (r_mem c')))
        (if lasth σ h i then spops_q call f (h :: R) h st σ else SDone tt st σ) (if lasth σ h i then pops_q true qc f (h :: R) h st c else QDone tt st c)) as Hmid.
      { destruct (lasth σ h i) eqn:El.
        - eapply agrees_mono; [|apply (IHp (h :: R) h (RScat p) st c σ HR HN); [left|done|done]]. intros σ' c' [? ?]. split; [done|]. intros _. done.
        - exists c. split_and!; [done|done|apply kept_refl|]. intros ?; congruence. }
      destruct (if lasth σ h i then pops_q true qc f (h :: R) h st c else QDone tt st c) as [[] stq cq|e|]; [| |exact Hmid].
      2:{ unfold agrees in Hmid. destruct (if lasth σ h i then spops_q call f (h :: R) h st σ else SDone tt st σ) as [[] st' σ'| |]; [by destruct Hmid as (? & [=] & _)|exact Hmid|exact Hmid]. }
      unfold agrees in Hmid. destruct (if lasth σ h i then spops_q call f (h :: R) h st σ else SDone tt st σ) as [[] st' σ'| |]; [|done|done].
      destruct Hmid as (c' & [= -> ->] & HR1 & Hk & Hp). destruct (proj2 Hk h) as (E1 & E2 & E3); [left|]. assert (nobuf c') as HN1 by (by apply Hk). rewrite Hi in E1. rewrite Hr in E2.
      assert (ung σ' h) as Hg' by (apply E3, Hg; left).
      destruct (final_scat c' σ' h p i HR1 Hg' E2 E1 Hp) as (s' & Ef & HR2 & HN2). rewrite Ef.
      assert (kept R σ' c' (drop_handle σ' h i) (set_rh (set_mem c' s') (delete h (r_h c')))) as Hk2.
      { split; [done|]. intros x Hx. assert (x <> h) by (by intros ->). split_and!.
        - transitivity (delete h (rs_h σ') !! x); [|by rewrite lookup_delete_ne]. f_equal. unfold drop_handle. repeat case_match; done.
        - unfold set_rh. cbn [r_h]. by rewrite lookup_delete_ne.
        - unfold ung. intros Hu g m. specialize (Hu g m). assert (rs_g (drop_handle σ' h i) = rs_g σ') as ->; [|done]. unfold drop_handle. repeat case_match; done. }
      assert (kept R σ c σ' c') as Hk1 by (eapply kept_mono; [|exact Hk]; intros; by right).
      destruct (lasth σ' h i) eqn:El.
      * destruct (cnt_lasth c' σ' h _ i HR1 E2 E1) as (k' & t' & u' & _ & _ & _ & Hf & _). rewrite Hf. unfold qcall.
        eapply agrees_mono; [|apply Hcall; [exact HR2|by apply HN2|]].
        -- intros σ2 c2 Hk3. eapply kept_trans; [exact Hk1|]. eapply kept_trans; [exact Hk2|]. eapply kept_mono; [|exact Hk3]. intros; by right.
        -- intros x [->|Hx]%elem_of_cons.
           ++ unfold ung. intros g m. specialize (Hg' g m). assert (rs_g (drop_handle σ' h i) = rs_g σ') as ->; [|done]. unfold drop_handle. repeat case_match; done.
           ++ apply (proj2 Hk2 x Hx). apply (proj2 Hk1 x Hx). apply Hg. by right.
      * exists (set_rh (set_mem c' s') (delete h (r_h c'))). split_and!; [done|done|]. eapply kept_trans; [exact Hk1|exact Hk2].
    + destruct (final_pile c σ h v j i HR (Hg h ltac:(left)) Hr Hi) as (k & s & E & Hk & Hfin). rewrite E. destruct k as [|k]; [intros HB; eapply no_pile; [by apply reached_RI|by apply HN|exact Hr]|]. destruct Hfin as (s' & E2 & HR2 & HN2); [done|]. rewrite E2. rewrite <-Hk. cbn [Nat.eqb]. cbv iota beta. rewrite <-Hk. cbn [Nat.eqb].
      eexists. split_and!; [reflexivity|exact HR2|].
      split; [done|]. intros x Hx. assert (x <> h) by (by intros ->). split_and!.
      * transitivity (delete h (rs_h σ) !! x); [|by rewrite lookup_delete_ne]. f_equal. unfold drop_handle. repeat case_match; done.
      * unfold set_rh. cbn [r_h]. by rewrite lookup_delete_ne.
      * unfold ung. intros Hu g m. specialize (Hu g m). assert (rs_g (drop_handle σ h i) = rs_g σ) as ->; [|done]. unfold drop_handle. repeat case_match; done.
  - intros R h r st c σ HR HN HhR Hr Hg. rewrite spops_q_S, pops_q_S. rewrite (reached_dom c σ HR). cbv zeta. set (x := newname (dom (rs_h σ)) R).
    destruct (newname_spec (dom (rs_h σ)) R) as [HxD HxR]. fold x in HxD, HxR. apply not_elem_of_dom in HxD. destruct (reached_guard c σ x HR HxD) as [HxC HxG]. apply ung_spec in HxG.
    pose proof (reached_step c σ (SPop Front h x) HR I) as Hs.
    destruct (rsstep σ (SPop Front h x)) as [[o σ']|] eqn:Es; [|by rewrite Hs].
    destruct Hs as (c' & E & HR').
    assert (kept R σ c σ' c') as Hk0.
    { split. { intros Hn HB. eapply rstep_nv; [|by apply Hn|exact E]. exact I. } intros y Hy. assert (y <> x /\ y <> h \/ y <> x) as Hyx by (right; by intros ->). clear Hyx. assert (y <> x) as Hyx by (by intros ->).
      cbn [rsstep] in Es. rewrite HxD in Es. unfold writing, on_node, give in Es. cbn [rstep] in E. rewrite HxC, Hr in E. unfold RcModel.call, rgive in E. split_and!.
      - cases Es; injection Es as <- <-; try done. unfold set_h. cbn [rs_h]. by rewrite lookup_insert_ne.
      - cases E; injection E as <- <-; try done. unfold set_rh. cbn [r_h]. by rewrite lookup_insert_ne.
      - cases Es; injection Es as <- <-; done. }
    assert (match o with RBool true => exists r', r_h c' !! x = Some r' /\ ung σ' x | RBool false => rc_pop Front (r_b c) r (r_mem c) = Ok None (r_mem c) | _ => False end) as Ho.
    { cbn [rsstep] in Es. rewrite HxD in Es. unfold writing, on_node in Es. cbn [rstep] in E. rewrite HxC, Hr in E. unfold RcModel.call, rgive in E.
      destruct (handle_node _ _ _ _ HR Hr) as (_ & i & t & Hi & Hf & _). rewrite Hi, Hf in Es. destruct (rc_pop Front (r_b c) r (r_mem c)) as [[q|] s'|] eqn:Eq; [| |done]; injection E as <- <-.
      - exists q. split; [apply lookup_insert|]. cases Es; injection Es as <-. exact HxG.
      - by rewrite (rc_pop_none _ _ _ _ Eq). }
    rewrite E. destruct o as [|[]| | | | | | | |]; try done.
    + destruct Ho as (r' & Hr' & Hg'). assert (forall y, y ∈ x :: R -> ung σ' y) as HgR. { intros y [->|Hy]%elem_of_cons; [done|]. apply (proj2 Hk0 y Hy). by apply Hg. } assert (nobuf c') as HN' by (by apply Hk0).
      pose proof (IHd R x st c' σ' HR' HN' HxR HgR) as Hd. destruct (drop_q true qc f (x :: R) x st c') as [[] stq cq|e|]; [| |exact Hd].
      2:{ unfold agrees in Hd. destruct (sdrop_q call f (x :: R) x st σ') as [[] st' σ1| |]; [by destruct Hd as (? & [=] & _)|exact Hd|exact Hd]. }
      unfold agrees in Hd. destruct (sdrop_q call f (x :: R) x st σ') as [[] st' σ1| |]; [|done|done]. destruct Hd as (c1 & [= -> ->] & HR1 & Hk1).
      assert (kept R σ c σ1 c1) as Hk2 by (eapply kept_trans; [exact Hk0|exact Hk1]).
      eapply agrees_mono; [|apply (IHp R h r st' c1 σ1 HR1 (proj1 Hk2 HN) HhR)].
      * intros σ2 c2 [Hk3 Hp]. split; [|done]. eapply kept_trans; [exact Hk2|exact Hk3].
      * rewrite <-Hr. apply (proj2 Hk2). done.
      * intros y Hy. apply (proj2 Hk2 y Hy). by apply Hg.
    + assert (c' = c) as ->.
      { cbn [rstep] in E. rewrite HxC, Hr in E. unfold RcModel.call, rgive in E. rewrite Ho in E. injection E as <-. by destruct c. }
      exists c. split_and!; [done|done|exact Hk0|done].
Qed.

Lemma body_ok {X} n (p : qprog X) : (B -> q_buffer_free p) -> forall R st c σ, reached c σ -> nobuf c -> (forall x, x ∈ R -> ung σ x) ->
  agrees (kept R σ c) (sqbody call n R p st σ) (qbody true qc n R p st c).
Proof.
  induction p as [a|g k IH|o k IH|h k IH]; intros Hbf R st c σ HR HN Hg; cbn [sqbody qbody].
  - exists c. split_and!; [done|done|apply kept_refl].
  - apply IH; [|done..]. intros HB. by apply (Hbf HB).
  - assert (forall r, B -> q_buffer_free (k r)) as Hk' by (intros r HB; by apply (Hbf HB)). destruct (decide _) as [[Hq Hn]|]; [|by apply IH; [apply Hk'|..]].
    destruct (true && watched c o) eqn:Hw.
    { intros HB. destruct o; try done; cbn [andb watched] in Hw; destruct (r_h c !! h) as [[|v j]|] eqn:Hh; try done; (eapply no_pile; [by apply reached_RI|by apply HN|exact Hh]). }
    assert (op_allowed c σ o) as Ha. { destruct o; try done; cbn [andb watched op_allowed] in *; destruct (r_h c !! h) as [[]|]; done. }
    pose proof (reached_step c σ o HR Ha) as Hs. destruct (rsstep σ o) as [[r σ']|] eqn:Es; [|by rewrite Hs].
    destruct Hs as (c' & E & HR'). rewrite E. assert (kept R σ c σ' c') as Hk.
    { eapply frame; [intros HB; by apply (Hbf HB)|exact Es|exact E|done|]. intros x Hx Hxn. rewrite Forall_forall in Hn. by apply (Hn x Hxn). }
    eapply agrees_mono; [|apply IH; [apply Hk'|done|by apply Hk|]].
    + intros σ2 c2 Hk2. eapply kept_trans; [exact Hk|exact Hk2].
    + intros x Hx. apply (proj2 Hk x Hx). by apply Hg.
  - assert (forall r, B -> q_buffer_free (k r)) as Hk' by (intros r HB; by apply (Hbf HB)). assert ((h ∉ R /\ is_Some (rs_h σ !! h) /\ h ∉ ((map_to_list (rs_g σ)).*2).*1) <-> (h ∉ R /\ is_Some (r_h c !! h) /\ h ∉ ((map_to_list (r_g c)).*2).*1)) as Hiff.
    { rewrite (RI_gs _ _ (reached_RI _ _ HR)), (handle_iff c σ h HR). done. }
    destruct (decide (h ∉ R /\ is_Some (rs_h σ !! h) /\ _)) as [Hd|Hd].
    2:{ rewrite decide_False by (by rewrite <-Hiff). by apply IH; [apply Hk'|..]. }
    rewrite decide_True by (by rewrite <-Hiff). destruct Hd as (HhR & _ & Hu%ung_spec).
    assert (forall x, x ∈ h :: R -> ung σ x) as HgR by (intros x [->|Hx]%elem_of_cons; auto). pose proof (proj1 (drop_pops n) R h st c σ HR HN HhR HgR) as Hd. destruct (drop_q true qc n (h :: R) h st c) as [[] stq cq|e|]; [| |exact Hd].
    2:{ unfold agrees in Hd. destruct (sdrop_q call n (h :: R) h st σ) as [[] st' σ1| |]; [by destruct Hd as (? & [=] & _)|injection Hd as ->; reflexivity|injection Hd as ->; reflexivity]. }
    unfold agrees in Hd. destruct (sdrop_q call n (h :: R) h st σ) as [[] st' σ1| |]; [|done|done]. destruct Hd as (c1 & [= -> ->] & HR1 & Hk1).
    eapply agrees_mono; [|apply IH; [apply Hk'|done|by apply Hk1|]].
    + intros σ2 c2 Hk2. eapply kept_trans; [exact Hk1|exact Hk2].
    + intros x Hx. apply (proj2 Hk1 x Hx). by apply Hg.
Qed.
End body.

Lemma handle_ok handler n : (B -> forall R a, q_buffer_free (handler R a)) -> forall R a st c σ, reached c σ -> nobuf c -> (forall x, x ∈ R -> ung σ x) -> agrees (kept R σ c) (sqhandle handler n R a st σ) (qhandle true handler n R a st c).
Proof. intros Hb. induction n as [|n IH]; intros R a st c σ HR HN Hg; [done|]. cbn [sqhandle qhandle]. apply body_ok; try done. intros HB. by apply Hb. Qed.
Lemma reached_init : reached (A:=A) rst0 rss0.
Proof. by exists [], []. Qed.
Lemma run_ok {X} handler n (p : qprog X) st : (B -> forall R a, q_buffer_free (handler R a)) -> (B -> q_buffer_free p) -> agrees (fun _ _ => True) (sqrun handler n p st) (qrun true handler n p st).
Proof.
  intros Hb Hp. eapply agrees_mono; [|apply (body_ok _ _ (handle_ok handler n Hb) n p Hp [] st rst0 rss0 reached_init)]; [done|done|]. intros x []%elem_of_nil.
Qed.
End proofs.

Section proofs2.
Context {A H : Type}.
Implicit Types (c : rst A) (σ : rss A) (st : H) (R : list nat).

(** * The observer changes nothing *)
Section obs.
Context (q1 q2 : list nat -> A -> H -> rst A -> qres (A:=A) (H:=H) unit).
Context (Hq : forall R a st c, q1 R a st c <> QOut -> q2 R a st c = q1 R a st c).
Lemma obs_qcall R l st c : qcall q1 R l st c <> QOut -> qcall q2 R l st c = qcall q1 R l st c.
Proof. destruct l as [|a l]; cbn [qcall]; auto. Qed.
Lemma obs_drop f :
  (forall R h st c, drop_q true q1 f R h st c <> QOut -> drop_q false q2 f R h st c = drop_q true q1 f R h st c) /\
  (forall R h st c, pops_q true q1 f R h st c <> QOut -> pops_q false q2 f R h st c = pops_q true q1 f R h st c).
Proof.
  induction f as [|f [IHd IHp]]; [done|]. split; intros R h st c; rewrite ?drop_q_S, ?pops_q_S.
  - destruct (r_h c !! h) as [[p|v i]|]; [| |done].
    + destruct (cnt_get p (r_mem c)) as [n s|e]; [|done]. intros Hne.
      assert ((if Nat.eqb n 1 then pops_q false q2 f R h st c else QDone tt st c) = (if Nat.eqb n 1 then pops_q true q1 f R h st c else QDone tt st c)) as Heq.
      { destruct (Nat.eqb n 1); [|done]. apply IHp. intros E. apply Hne. by rewrite E. }
      rewrite Heq. destruct (if Nat.eqb n 1 then pops_q true q1 f R h st c else QDone tt st c) as [[] st' c'|e|]; [|done|done].
      match goal with |- match ?d with _ => _ end = _ => destruct d as [l s1|e] end; [|done]. by apply obs_qcall.
    + destruct ((vec_ref v ;; cnt_decr (v, i)) (r_mem c)) as [[|k] s|e]; done.
  - cbv zeta. destruct (rstep c _) as [[|[]| | | | | | | |] c'|e]; try done. intros Hne.
    assert (drop_q false q2 f (newname (dom (r_h c)) R :: R) (newname (dom (r_h c)) R) st c' = drop_q true q1 f (newname (dom (r_h c)) R :: R) (newname (dom (r_h c)) R) st c') as Heq.
    { apply IHd. intros E. apply Hne. by rewrite E. }
    rewrite Heq. destruct (drop_q true q1 f _ _ st c') as [[] st' c1|e|]; [|done|done]. by apply IHp.
Qed.
Lemma obs_body {X} n (p : qprog X) : forall R st c, qbody true q1 n R p st c <> QOut -> qbody false q2 n R p st c = qbody true q1 n R p st c.
Proof.
  induction p as [a|g k IH|o k IH|h k IH]; intros R st c; cbn [qbody]; [done|by apply IH| |].
  - destruct (decide _); [|by apply IH]. destruct (true && watched c o); [done|]. cbn [andb]. destruct (rstep c o) as [r c'|e]; [by apply IH|done].
  - destruct (decide _); [|by apply IH]. intros Hne. assert (drop_q false q2 n (h :: R) h st c = drop_q true q1 n (h :: R) h st c) as Heq.
    { apply obs_drop. intros E. apply Hne. by rewrite E. }
    rewrite Heq. destruct (drop_q true q1 n (h :: R) h st c) as [[] st' c1|e|]; [by apply IH|done|done].
Qed.
End obs.
Lemma obs_handle handler n : forall R a st c, qhandle (A:=A) (H:=H) true handler n R a st c <> QOut -> qhandle false handler n R a st c = qhandle true handler n R a st c.
Proof. induction n as [|n IH]; intros R a st c; [done|]. cbn [qhandle]. by apply obs_body. Qed.

(** * More stack, same end *)
Section mono.
Context (strict : bool) (q1 q2 : list nat -> A -> H -> rst A -> qres (A:=A) (H:=H) unit).
Context (Hq : forall R a st c, q1 R a st c <> QFails EStack -> q2 R a st c = q1 R a st c).
Lemma mono_qcall R l st c : qcall q1 R l st c <> QFails EStack -> qcall q2 R l st c = qcall q1 R l st c.
Proof. destruct l as [|a l]; cbn [qcall]; auto. Qed.
Lemma mono_drop f :
  (forall R h st c, drop_q strict q1 f R h st c <> QFails EStack -> drop_q strict q2 (S f) R h st c = drop_q strict q1 f R h st c) /\
  (forall R h st c, pops_q strict q1 f R h st c <> QFails EStack -> pops_q strict q2 (S f) R h st c = pops_q strict q1 f R h st c).
Proof.
  induction f as [|f [IHd IHp]]; [done|]. split; intros R h st c.
  - rewrite (drop_q_S q1 strict f), (drop_q_S q2 strict (S f)). destruct (r_h c !! h) as [[p|v i]|]; [| |done].
    + destruct (cnt_get p (r_mem c)) as [n s|e]; [|done]. intros Hne.
      assert ((if Nat.eqb n 1 then pops_q strict q2 (S f) R h st c else QDone tt st c) = (if Nat.eqb n 1 then pops_q strict q1 f R h st c else QDone tt st c)) as Heq.
      { destruct (Nat.eqb n 1); [|done]. apply IHp. intros E. apply Hne. by rewrite E. }
      rewrite Heq. destruct (if Nat.eqb n 1 then pops_q strict q1 f R h st c else QDone tt st c) as [[] st' c'|e|]; [|done|done].
      match goal with |- match ?d with _ => _ end = _ => destruct d as [l s1|e] end; [|done]. by apply mono_qcall.
    + destruct ((vec_ref v ;; cnt_decr (v, i)) (r_mem c)) as [[|k] s|e]; [|done|done]. destruct strict; [done|]. intros Hne.
      assert (pops_q false q2 (S f) R h st (set_mem c s) = pops_q false q1 f R h st (set_mem c s)) as Heq. { apply IHp. intros E. apply Hne. by rewrite E. }
      rewrite Heq. destruct (pops_q false q1 f R h st (set_mem c s)) as [[] st' c'|e|]; [|done|done].
      match goal with |- match ?d with _ => _ end = _ => destruct d as [l s1|e] end; [|done].
      rewrite (mono_qcall R l st'); [done|]. intros E. apply Hne. by rewrite E.
  - rewrite (pops_q_S q1 strict f), (pops_q_S q2 strict (S f)). cbv zeta. destruct (rstep c _) as [[|[]| | | | | | | |] c'|e]; try done. intros Hne.
    assert (drop_q strict q2 (S f) (newname (dom (r_h c)) R :: R) (newname (dom (r_h c)) R) st c' = drop_q strict q1 f (newname (dom (r_h c)) R :: R) (newname (dom (r_h c)) R) st c') as Heq.
    { apply IHd. intros E. apply Hne. by rewrite E. }
    rewrite Heq. destruct (drop_q strict q1 f _ _ st c') as [[] st' c1|e|]; [|done|done]. by apply IHp.
Qed.
Lemma mono_body {X} n (p : qprog X) : forall R st c, qbody strict q1 n R p st c <> QFails EStack -> qbody strict q2 (S n) R p st c = qbody strict q1 n R p st c.
Proof.
  induction p as [a|g k IH|o k IH|h k IH]; intros R st c; cbn [qbody]; [done|by apply IH| |].
  - destruct (decide _); [|by apply IH]. destruct (strict && watched c o); [done|]. destruct (rstep c o) as [r c'|e]; [by apply IH|done].
  - destruct (decide _); [|by apply IH]. intros Hne. assert (drop_q strict q2 (S n) (h :: R) h st c = drop_q strict q1 n (h :: R) h st c) as Heq.
    { apply mono_drop. intros E. apply Hne. by rewrite E. }
    rewrite Heq. destruct (drop_q strict q1 n (h :: R) h st c) as [[] st' c1|e|]; [by apply IH|done|done].
Qed.
End mono.
Lemma mono_handle strict handler n : forall R a st c, qhandle (A:=A) (H:=H) strict handler n R a st c <> QFails EStack -> qhandle strict handler (S n) R a st c = qhandle strict handler n R a st c.
Proof. induction n as [|n IH]; intros R a st c; [done|]. intros Hne. change (qhandle strict handler (S (S n)) R a st c) with (qbody strict (qhandle strict handler (S n)) (S n) R (handler R a) st c). by apply mono_body. Qed.
Lemma mono_run {X} strict handler n m (p : qprog (A:=A) (H:=H) X) st : n <= m -> qrun strict handler n p st <> QFails EStack -> qrun strict handler m p st = qrun strict handler n p st.
Proof.
  intros Hle Hne. induction Hle as [|m Hle IH]; [done|]. rewrite <-IH. apply mono_body; [apply mono_handle|]. unfold qrun in IH, Hne. by rewrite IH.
Qed.
Lemma obs_run {X} handler n (p : qprog (A:=A) (H:=H) X) st : qrun true handler n p st <> QOut -> qrun false handler n p st = qrun true handler n p st.
Proof. apply obs_body, obs_handle. Qed.

Lemma reent_run {X} handler n (p : qprog (A:=A) (H:=H) X) st : qrun true handler n p st <> QOut ->
  match sqrun handler n p st with
  | SDone x st' σ => exists c, qrun false handler n p st = QDone x st' c /\ reached c σ /\ m_log (r_mem c) = s_log (rs_x σ)
  | SPanics => qrun false handler n p st = QFails EPanic
  | SDeep => qrun false handler n p st = QFails EStack
  end.
Proof.
  intros Hne. rewrite (obs_run _ _ _ _ Hne). pose proof (run_ok False handler n p st ltac:(done) ltac:(done)) as Ha. unfold agrees in Ha.
  destruct (qrun true handler n p st), (sqrun handler n p st); try done; destruct Ha as (c' & E & HR & _); exists c'; (split_and!; [done|done|by apply RI_log, reached_RI]).
Qed.

Lemma buffer_free_run {X} handler n (p : qprog (A:=A) (H:=H) X) st : (forall R a, q_buffer_free (handler R a)) -> q_buffer_free p -> qrun true handler n p st <> QOut.
Proof. intros Hb Hp E. pose proof (run_ok True handler n p st (fun _ => Hb) (fun _ => Hp)) as Ha. rewrite E in Ha. by apply Ha. Qed.

Lemma reent_buffer_free {X} handler n (p : qprog (A:=A) (H:=H) X) st : (forall R a, q_buffer_free (handler R a)) -> q_buffer_free p ->
  match sqrun handler n p st with
  | SDone x st' σ => exists c, qrun false handler n p st = QDone x st' c /\ reached c σ /\ m_log (r_mem c) = s_log (rs_x σ)
  | SPanics => qrun false handler n p st = QFails EPanic
  | SDeep => qrun false handler n p st = QFails EStack
  end.
Proof. intros Hb Hp. apply reent_run. by apply buffer_free_run. Qed.

Lemma reent_memory {X} handler n (p : qprog (A:=A) (H:=H) X) st x st' c : qrun true handler n p st <> QOut -> qrun false handler n p st = QDone x st' c ->
  (forall h r, r_h c !! h = Some r -> is_Some (m_heap (r_mem c) !! raddr r)) /\
  (r_env c = ∅ -> r_h c = ∅ -> m_heap (r_mem c) = ∅ /\ m_cnt (r_mem c) = ∅ /\ m_vec (r_mem c) = ∅).
Proof.
  intros Hne E. pose proof (reent_run handler n p st Hne) as Hr. rewrite E in Hr. destruct (sqrun handler n p st) as [x1 st1 σ| |]; [|done|done].
  destruct Hr as (c' & [= -> -> ->] & HR & _). apply reached_RI in HR. split; [intros h r; by apply RI_node_alive with (1 := HR)|]. by apply RI_empty with (1 := HR).
Qed.

(** * A T::drop that does nothing *)
Section idle.
Context (qc : list nat -> A -> H -> rst A -> qres (A:=A) (H:=H) unit) (Hqc : forall R a st c, qc R a st c = QDone tt st c).
Lemma qcall_idle R l st c : qcall qc R l st c = QDone tt st c.
Proof. destruct l; [done|apply Hqc]. Qed.
Lemma idle_drop f :
  (forall R h r st c s', r_h c !! h = Some r -> h ∈ R -> rc_drop_loop f (r_b c) r (r_mem c) = Ok tt s' ->
     drop_q false qc f R h st c = QDone tt st (set_rh (set_mem c s') (delete h (r_h c)))) /\
  (forall R h r st c s', r_h c !! h = Some r -> h ∈ R -> rc_pops f (r_b c) r (r_mem c) = Ok tt s' -> pops_q false qc f R h st c = QDone tt st (set_mem c s')).
Proof.
  induction f as [|f [IHd IHp]]; [done|]. split; intros R h r st c s' Hr HR E.
  - rewrite drop_q_S, Hr. rewrite rc_loop_round in E. destruct r as [p|v i].
    + unfold bind at 1 in E. destruct (cnt_get p (r_mem c)) as [n s|e] eqn:Ec; [|done]. assert (s = r_mem c) as ->. { unfold cnt_get in Ec. destruct (m_cnt (r_mem c) !! p); [|done]. by injection Ec. }
      unfold bind at 1 in E.
      assert (exists s1, (if Nat.eqb n 1 then pops_q false qc f R h st c else QDone tt st c) = QDone tt st (set_mem c s1) /\ rc_drop p s1 = Ok tt s') as (s1 & Eq & Ed).
      { destruct (Nat.eqb n 1).
        - destruct (rc_pops f (r_b c) (RScat p) (r_mem c)) as [[] s1|e] eqn:Ep; [|done]. exists s1. split; [by apply IHp with (r := RScat p)|done].
        - exists (r_mem c). split; [by destruct c|done]. }
      rewrite Eq. cbn [r_mem set_mem r_h]. unfold bind, cnt_get, get, ret. unfold rc_drop in *. destruct (m_cnt s1 !! p) as [[|m]|] eqn:F1; [done| |done]. destruct (m_heap s1 !! p) as [nd|] eqn:F2; [|done]. rewrite F1, F2.
      destruct m; injection Ed as <-; cbv iota beta; rewrite qcall_idle; done.
    + unfold bind in E |- *. destruct (vec_ref v (r_mem c)) as [[] s0|e]; [|done]. destruct (cnt_decr (v, i) s0) as [[|k] s|e]; [| |done]; cbn [Nat.eqb] in E.
      * destruct (rc_pops f (r_b c) (RPile v i) s) as [[] s1|e] eqn:Ep; [|done]. rewrite (IHp R h (RPile v i) st (set_mem c s) s1 Hr HR Ep). cbn [r_mem set_mem r_h].
        unfold drop_in_place, get in *. cbv beta in *. destruct (m_heap s1 !! ((v, i) : ptr)) as [nd|] eqn:En; [|done]. unfold ret. rewrite En, qcall_idle. cbn [r_mem set_mem set_rh]. rewrite E. done.
      * unfold ret in E. by rewrite E.
  - rewrite pops_q_S. cbv zeta. set (x := newname (dom (r_h c)) R). destruct (newname_spec (dom (r_h c)) R) as [HxD HxR]. fold x in HxD, HxR. apply not_elem_of_dom in HxD.
    rewrite rc_pops_round in E. cbn [rstep]. rewrite HxD, Hr. unfold RcModel.call, rgive. destruct (rc_pop Front (r_b c) r (r_mem c)) as [[k|] s1|e] eqn:Ep; [| |done].
    + unfold bind in E. destruct (rc_drop_loop f (r_b c) k s1) as [[] s2|e] eqn:Ed; [|done].
      set (c1 := set_rh (set_mem c s1) (<[x:=k]> (r_h (set_mem c s1)))).
      rewrite (IHd (x :: R) x k st c1 s2); [|apply lookup_insert|left|exact Ed].
      assert (set_rh (set_mem c1 s2) (delete x (r_h c1)) = set_mem c s2) as ->. { unfold c1, set_rh, set_mem. cbn. rewrite delete_insert by done. by destruct c. }
      by apply (IHp R h r st (set_mem c s2) s').
    + injection E as <-. done.
Qed.
Lemma loop_mono (f : nat) : forall (B : borrows) (r : rnode) (s s' : mem A), (rc_drop_loop f B r s = Ok tt s' -> rc_drop_loop (S f) B r s = Ok tt s') /\ (rc_pops f B r s = Ok tt s' -> rc_pops (S f) B r s = Ok tt s').
Proof.
  induction f as [|f IH]; intros B r s s'; [done|]. split; intros E.
  - rewrite rc_loop_round in E. rewrite rc_loop_round. destruct r as [p|v i].
    + unfold bind in *. destruct (cnt_get p s) as [n s0|e]; [|done]. destruct (Nat.eqb n 1); [|done]. destruct (rc_pops f B (RScat p) s0) as [[] s1|e] eqn:Ep; [|done]. apply IH in Ep. by rewrite Ep.
    + unfold bind in *. destruct (vec_ref v s) as [[] s0|e]; [|done]. destruct (cnt_decr (v, i) s0) as [k s1|e]; [|done]. destruct (Nat.eqb k 0); [|done].
      destruct (rc_pops f B (RPile v i) s1) as [[] s2|e] eqn:Ep; [|done]. apply IH in Ep. by rewrite Ep.
  - rewrite rc_pops_round in E. rewrite rc_pops_round. destruct (rc_pop Front B r s) as [[k|] s1|e]; [|done|done]. unfold bind in *. destruct (rc_drop_loop f B k s1) as [[] s2|e] eqn:Ed; [|done]. apply IH in Ed, E. by rewrite Ed.
Qed.
Lemma loop_le f f' B r s s' : f <= f' -> rc_drop_loop f B r s = Ok tt s' -> rc_drop_loop (A:=A) f' B r s = Ok tt s'.
Proof. intros Hle E. induction Hle; [done|]. by apply loop_mono. Qed.
End idle.
(** [drop] with a [T::drop] that does nothing is [drop] *)
Lemma drop_is_drop {X} n m R h (k : bool -> qprog (A:=A) (H:=H) X) st c σ σ' : reached c σ -> h ∉ R -> rsstep σ (SDrop h) = Some (RUnit, σ') -> 2 * S (size (m_heap (r_mem c))) <= m ->
  exists c', rstep c (SDrop h) = RDone RUnit c' /\ reached c' σ' /\
    qbody false (qhandle false (fun _ _ => QRet tt) (S n)) m R (QDrop h k) st c = qbody false (qhandle false (fun _ _ => QRet tt) (S n)) m R (k true) st c'.
Proof.
  intros HR HhR Es Hm. pose proof (reached_step c σ (SDrop h) HR I) as Hs. rewrite Es in Hs. destruct Hs as (c' & E & HR'). exists c'. split_and!; [done|done|].
  cbn [rsstep] in Es. destruct (rs_h σ !! h) as [i|] eqn:Hi; [|done]. destruct (bool_decide (h ∈ ((map_to_list (rs_g σ)).*2).*1)) eqn:Hg; [done|]. apply bool_decide_eq_false in Hg.
  pose proof (handle_iff c σ h HR) as Hh. rewrite Hi in Hh. destruct (proj2 Hh) as [r Hr]; [eauto|]. cbn [rstep] in E. pose proof (RI_gs _ _ (reached_RI _ _ HR)) as Hgs.
  rewrite Hr in E. rewrite bool_decide_false in E by (by rewrite Hgs). unfold RcModel.call in E. destruct (rc_drop_handle (r_b c) r (r_mem c)) as [[] s'|e] eqn:Ed; [|done]. injection E as <-.
  cbn [qbody]. rewrite decide_True by (split_and!; [done|by rewrite Hr|by rewrite Hgs]). rewrite drop_fuel in Ed. apply (loop_le _ m) in Ed; [|lia].
  by rewrite (proj1 (idle_drop (qhandle false (fun _ _ => QRet tt) (S n)) (fun _ _ _ _ => eq_refl) m) (h :: R) h r st c s' Hr ltac:(left) Ed).
Qed.
End proofs2.
