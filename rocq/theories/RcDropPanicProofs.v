(** RcDropPanicProofs.v — a panic of [T::drop] while a handle is dropped: the call does what it does without the panic until then, and unwinding frees no more than it
    would have freed. *)
From stdpp Require Import base gmap list.
From Verif Require Import Spec ClientSpec RcSpec PanicSpec Machine NodeModel BfsModel ClientModel CountFrame RcModel RcDropPanicModel.

Section sim.
Context {A : Type}.
Implicit Types (s : mem A) (p : ptr).

(** [s'] has no more than [s], with the same data *)
Definition below s' s : Prop :=
  (forall p n', m_heap s' !! p = Some n' -> exists n, m_heap s !! p = Some n /\ n_dat n = n_dat n') /\
  (forall p c', m_cnt s' !! p = Some c' -> exists c, m_cnt s !! p = Some c /\ c' <= c) /\
  (forall b, is_Some (m_vec s' !! b) -> is_Some (m_vec s !! b)).
Lemma below_refl s : below s s.
Proof. split_and!; eauto. Qed.
Lemma below_trans s1 s2 s3 : below s1 s2 -> below s2 s3 -> below s1 s3.
Proof.
  intros (H1 & C1 & V1) (H2 & C2 & V2). split_and!.
  - intros p n Hp. destruct (H1 _ _ Hp) as (n2 & Hp2 & E2). destruct (H2 _ _ Hp2) as (n3 & Hp3 & E3). exists n3. split; congruence.
  - intros p c Hp. destruct (C1 _ _ Hp) as (c2 & Hp2 & E2). destruct (C2 _ _ Hp2) as (c3 & Hp3 & E3). exists c3. split; [done|lia].
  - auto.
Qed.

(** ** programs that change links only *)
Definition dk {X} (m : M A X) : Prop := forall s x s', m s = Ok x s' -> forall p, n_dat <$> m_heap s' !! p = n_dat <$> m_heap s !! p.
Lemma dk_ret {X} (x : X) : dk (ret x).
Proof. intros s y s' E p. by inversion E. Qed.
Lemma dk_fail {X} e : dk (@fail A X e).
Proof. intros s y s' E. done. Qed.
Lemma dk_bind {X Y} (m : M A X) (k : X -> M A Y) : dk m -> (forall x, dk (k x)) -> dk (bind m k).
Proof. intros H1 H2 s y s' E p. unfold bind in E. destruct (m s) as [x s1|] eqn:E1; [|done]. rewrite (H2 _ _ _ _ E). by eapply H1. Qed.
Lemma dk_get p : dk (get p).
Proof. intros s n s' E q. unfold get in E. destruct (m_heap s !! p); by inversion E. Qed.
Lemma dk_getk p {Y} (k : node A -> M A Y) : (forall n s x s', m_heap s !! p = Some n -> k n s = Ok x s' -> forall q, n_dat <$> m_heap s' !! q = n_dat <$> m_heap s !! q) -> dk (bind (get p) k).
Proof. intros H s x s' E q. unfold bind, get in E. destruct (m_heap s !! p) as [n|] eqn:Ep; [|done]. by eapply H. Qed.
Lemma put_dk p n n0 s x s' : m_heap s !! p = Some n0 -> n_dat n = n_dat n0 -> put p n s = Ok x s' -> forall q, n_dat <$> m_heap s' !! q = n_dat <$> m_heap s !! q.
Proof.
  intros Hp Hd E q. unfold put in E. rewrite Hp in E. inversion E; subst. simpl. destruct (decide (q = p)) as [->|Hne]; [rewrite lookup_insert, Hp; simpl; congruence|by rewrite lookup_insert_ne].
Qed.
Lemma dk_upd p f : (forall n, n_dat (f n) = n_dat n) -> dk (upd p f).
Proof. intros Hf. apply dk_getk. intros n s x s' Hp E. eapply put_dk; [exact Hp|apply Hf|exact E]. Qed.
Lemma dk_unwrap {X} (o : option X) : dk (unwrap o).
Proof. destruct o; [apply dk_ret|apply dk_fail]. Qed.
Lemma dk_sub a b : dk (sub (A:=A) a b).
Proof. unfold sub. destruct (Nat.leb b a); [apply dk_ret|apply dk_fail]. Qed.
Lemma dk_fuel : dk (fuel (A:=A)).
Proof. intros s x s' E p. by inversion E. Qed.
Lemma sub_mem a b s x s' : sub (A:=A) a b s = Ok x s' -> s' = s.
Proof. unfold sub. destruct (Nat.leb b a); by inversion 1. Qed.
Lemma dk_dec_up f : forall o c, dk (dec_up (A:=A) f o c).
Proof.
  induction f as [|f IH]; intros [p|] c; cbn [dec_up]; try apply dk_ret; try apply dk_fail.
  apply dk_getk. intros n s x s' Hp E q. unfold bind at 1 in E. destruct (sub (n_desc n) c s) as [d s1|] eqn:E1; [|done]. apply sub_mem in E1 as ->.
  unfold bind in E. destruct (put p _ s) as [[] s2|] eqn:E2; [|done]. rewrite (IH _ _ _ _ _ E). eapply put_dk; [exact Hp| |exact E2]. done.
Qed.
Lemma dk_dec_sizes p dg c : dk (dec_sizes (A:=A) p dg c).
Proof.
  apply dk_getk. intros n s x s' Hp E q. unfold bind at 1 in E. destruct (sub (n_deg n) dg s) as [g s1|] eqn:E1; [|done]. apply sub_mem in E1 as ->.
  unfold bind at 1 in E. destruct (sub (n_desc n) c s) as [d s1|] eqn:E1; [|done]. apply sub_mem in E1 as ->.
  unfold bind at 1 in E. destruct (put p _ s) as [[] s2|] eqn:E2; [|done].
  etransitivity; [|eapply put_dk; [exact Hp| |exact E2]; done]. revert E q. apply (dk_bind fuel); [apply dk_fuel|]. intros f. apply dk_dec_up.
Qed.
Lemma dk_pop_front p : dk (pop_front (A:=A) p).
Proof.
  unfold pop_front, tree_from_node. apply dk_bind; [apply dk_get|]. intros n. destruct (n_deg n) as [|[|d]]; [apply dk_ret| |];
    repeat first [ apply dk_bind; [first [apply dk_unwrap|apply dk_get|apply dk_dec_sizes|apply dk_upd; done]|intros ?] | apply dk_ret ];
    apply dk_bind; [apply dk_bind; [by apply dk_upd|intros; apply dk_ret]|intros; apply dk_ret|apply dk_bind; [by apply dk_upd|intros; apply dk_ret]|intros; apply dk_ret].
Qed.
Lemma pop_front_below p s x s' : pop_front p s = Ok x s' -> below s' s /\ m_log s' = m_log s.
Proof.
  intros E. pose proof (hp_pop_front p s s eq_refl) as H. rewrite E in H. destruct H as (H & Hd & _). pose proof (dk_pop_front p _ _ _ E) as Hk. rewrite H. split; [|done]. split_and!; simpl; eauto.
  intros q n Hq. specialize (Hk q). rewrite Hq in Hk. destruct (m_heap s !! q) as [m|]; [|done]. exists m. split; [done|]. simpl in Hk. congruence.
Qed.

(** ** the primitives *)
Lemma bind_Ok {X Y} (m : M A X) (k : X -> M A Y) s y s' : bind m k s = Ok y s' -> exists x s1, m s = Ok x s1 /\ k x s1 = Ok y s'.
Proof. unfold bind. destruct (m s) as [x s1|]; [eauto|done]. Qed.
Lemma vec_ref_mem v s x s' : vec_ref v s = Ok x s' -> s' = s.
Proof. unfold vec_ref. destruct (m_vec s !! v); by inversion 1. Qed.
Lemma borrow_mut_mem B r s x s' : node_borrow_mut B r s = Ok x s' -> s' = s.
Proof.
  unfold node_borrow_mut. intros (x1 & s1 & E1 & E)%bind_Ok. assert (s1 = s) as ->. { destruct r; [by inversion E1|by apply vec_ref_mem in E1]. }
  apply bind_Ok in E as (n & s2 & E2 & E). unfold get in E2. destruct (m_heap s !! raddr r); [|done]. inversion E2; subst.
  destruct (bool_decide _); [done|]. destruct (is_none_dat _); [done|]. by inversion E.
Qed.
Lemma rc_from_mem p s r s' : rc_from p s = Ok r s' -> s' = s.
Proof.
  unfold rc_from, into_rc. intros (n & s1 & E1 & E)%bind_Ok. unfold get in E1. destruct (m_heap s !! p); [|done]. inversion E1; subst. destruct (n_dat n); by inversion E.
Qed.
Lemma cnt_decr_below p s c s' : cnt_decr p s = Ok c s' -> below s' s /\ m_log s' = m_log s.
Proof.
  unfold cnt_decr. destruct (m_cnt s !! p) as [[|c0]|] eqn:Ec; try done. intros E. inversion E; subst. split; [|done]. split_and!; simpl; eauto.
  intros q c' Hq. destruct (decide (q = p)) as [->|Hne]; [rewrite lookup_insert in Hq; simplify_eq; exists (S c'); split; [done|lia]|rewrite lookup_insert_ne in Hq by done; eauto].
Qed.
Lemma decr_ref_below v s x s' : decr_ref v s = Ok x s' -> below s' s /\ m_log s' = m_log s.
Proof.
  unfold decr_ref. destruct (m_vec s !! v) as [[cap [|[|rc]]]|] eqn:Ev; try done; intros E; inversion E; subst; (split; [|done]); split_and!; simpl; eauto.
  - intros p n Hp. apply map_filter_lookup_Some in Hp as [Hp _]. eauto.
  - intros p c Hp. apply map_filter_lookup_Some in Hp as [Hp _]. eauto.
  - intros b [y Hb]. apply lookup_delete_Some in Hb as [_ Hb]. eauto.
  - intros b [y Hb]. destruct (decide (b = v)) as [->|Hne]; [eauto|]. rewrite lookup_insert_ne in Hb by done. eauto.
Qed.
Lemma drop_in_place_below p s x s' : drop_in_place p s = Ok x s' -> exists n, m_heap s !! p = Some n /\ below s' s /\ m_log s' = m_log s ++ dat_vals (n_dat n).
Proof.
  unfold drop_in_place. destruct (m_heap s !! p) as [n|] eqn:Ep; [|done]. intros E. inversion E; subst. exists n. split; [done|]. split; [|done]. split_and!; simpl; eauto.
  intros q m Hq. apply lookup_delete_Some in Hq as [_ Hq]. eauto.
Qed.
Lemma rc_drop_below p s x s' : rc_drop p s = Ok x s' -> below s' s.
Proof.
  unfold rc_drop. destruct (m_cnt s !! p) as [[|[|c]]|] eqn:Ec; try done; destruct (m_heap s !! p) as [n|] eqn:Ep; try done; intros E; inversion E; subst; split_and!; simpl; eauto.
  - intros q m Hq. apply lookup_delete_Some in Hq as [_ Hq]. eauto.
  - intros q c Hq. apply lookup_delete_Some in Hq as [_ Hq]. eauto.
  - intros q c' Hq. destruct (decide (q = p)) as [->|Hne]; [rewrite lookup_insert in Hq; simplify_eq; exists (S (S c)); split; [done|lia]|rewrite lookup_insert_ne in Hq by done; eauto].
Qed.
Lemma rc_drop_last p s x s' : m_cnt s !! p = Some 1 -> rc_drop p s = Ok x s' ->
  exists n, m_heap s !! p = Some n /\ s' = Mem (delete p (m_heap s)) (delete p (m_cnt s)) (m_vec s) (m_fresh s) (m_log s ++ dat_vals (n_dat n)).
Proof. intros Hc E. unfold rc_drop in E. rewrite Hc in E. destruct (m_heap s !! p) as [n|]; [|done]. inversion E. eauto. Qed.
Lemma rc_drop_keep p s x s' : m_cnt s !! p <> Some 1 -> rc_drop p s = Ok x s' -> m_log s' = m_log s.
Proof. intros Hc E. unfold rc_drop in E. destruct (m_cnt s !! p) as [[|[|c]]|]; try done; destruct (m_heap s !! p) as [n|]; try done. by inversion E. Qed.
Lemma below_delete p s' s l l' : below s' s ->
  below (Mem (delete p (m_heap s')) (delete p (m_cnt s')) (m_vec s') (m_fresh s') l') (Mem (delete p (m_heap s)) (delete p (m_cnt s)) (m_vec s) (m_fresh s) l).
Proof.
  intros (H1 & H2 & H3). split_and!; simpl; [| |done].
  - intros q n [Hne Hq]%lookup_delete_Some. destruct (H1 _ _ Hq) as (n2 & ? & ?). exists n2. by rewrite lookup_delete_ne.
  - intros q n [Hne Hq]%lookup_delete_Some. destruct (H2 _ _ Hq) as (n2 & ? & ?). exists n2. by rewrite lookup_delete_ne.
Qed.
Lemma dat_one (n : node A) : dat_vals (n_dat n) = [] \/ exists a, dat_vals (n_dat n) = [a].
Proof. destruct (n_dat n); simpl; eauto. Qed.

(** ** the simulation *)
Definition sim (run : M A unit) (prun : nat -> M A (option nat)) s : Prop := forall s', run s = Ok tt s' ->
  below s' s /\ exists L, m_log s' = m_log s ++ L /\ forall k,
    (length L <= k -> prun k s = Ok (Some (k - length L)) s') /\
    (k < length L -> exists s'' l, prun k s = Ok None s'' /\ below s' s'' /\ below s'' s /\ m_log s'' = m_log s ++ take (S k) L ++ l /\ l `sublist_of` drop (S k) L).

Lemma sim_none m (s : mem A) : (forall s', m s = Ok tt s' -> below s' s /\ m_log s' = m_log s) -> sim m (fun k => m ;; ret (Some k)) s.
Proof.
  intros H s' E. destruct (H _ E) as [Hb Hl]. split; [done|]. exists []. rewrite app_nil_r. split; [done|]. intros k. split; [|simpl; lia].
  intros _. unfold bind. rewrite E. unfold ret. simpl. by rewrite Nat.sub_0_r.
Qed.
Lemma sim_pre {X} (m : M A X) run prun (s : mem A) x s1 : m s = Ok x s1 -> below s1 s -> m_log s1 = m_log s -> sim (run x) (prun x) s1 -> sim (bind m run) (fun k => bind m (fun x => prun x k)) s.
Proof.
  intros E1 Hb Hl Hs s' E. unfold bind in E. rewrite E1 in E. destruct (Hs _ E) as (Hb2 & L & HL & Hk). split; [by eapply below_trans|]. exists L. rewrite <-Hl. split; [done|].
  intros k. destruct (Hk k) as [Hk1 Hk2]. unfold bind. rewrite E1. split; [done|]. intros Hlt. destruct (Hk2 Hlt) as (s'' & l & ? & ? & ? & ? & ?). exists s'', l. split_and!; try done. by eapply below_trans.
Qed.
Lemma sim_ext run run' prun prun' (s : mem A) : (run s = run' s) -> (forall k, prun k s = prun' k s) -> sim run prun s -> sim run' prun' s.
Proof. intros E1 E2 H s' E. rewrite <-E1 in E. destruct (H _ E) as (Hb & L & HL & Hk). split; [done|]. exists L. split; [done|]. intros k. rewrite <-E2. apply Hk. Qed.
(** one after the other *)
Lemma sim_seq (r1 r2 : M A unit) (g1 g2 : nat -> M A (option nat)) (s : mem A) : sim r1 g1 s -> (forall s', sim r2 g2 s') ->
  sim (r1 ;; r2) (fun k => let! o := g1 k in match o with Some k' => g2 k' | None => ret None end) s.
Proof.
  intros H1 H2 s' E. apply bind_Ok in E as ([] & s1 & E1 & E2). destruct (H1 _ E1) as (B1 & L1 & HL1 & K1). destruct (H2 _ _ E2) as (B2 & L2 & HL2 & K2).
  split; [by eapply below_trans|]. exists (L1 ++ L2). rewrite app_length. split; [by rewrite HL2, HL1, app_assoc|]. intros k. unfold bind. destruct (decide (length L1 <= k)) as [Hge|Hlt].
  - rewrite (proj1 (K1 k) Hge). destruct (K2 (k - length L1)) as [K3 K4]. split.
    + intros Hk. rewrite K3 by lia. do 2 f_equal. lia.
    + intros Hk. destruct K4 as (s'' & l & E & Ba & Bb & Hl & Hsub); [lia|]. exists s'', l. split_and!; [done|done|by eapply below_trans| |].
      * rewrite Hl, HL1, <-!app_assoc. f_equal. rewrite take_app_ge by lia. rewrite <-app_assoc. do 3 f_equal. lia.
      * rewrite drop_app_ge by lia. replace (S k - length L1) with (S (k - length L1)) by lia. done.
  - destruct (proj2 (K1 k)) as (s'' & l & -> & Ba & Bb & Hl & Hsub); [lia|]. split; [lia|]. intros _. exists s'', l. split_and!; [done|by eapply below_trans|done| |].
    + rewrite Hl. by rewrite take_app_le by lia.
    + rewrite drop_app_le by lia. rewrite <-(app_nil_r l). apply sublist_app; [done|]. apply sublist_nil_l.
Qed.

Lemma sim_drop B f : (forall r s, sim (rc_drop_loop f B r) (fun k => pd_loop f B k r) s) /\ (forall r s, sim (rc_pops f B r) (fun k => pd_pops f B k r) s).
Proof.
  induction f as [|f [IHd IHp]]; [split; intros r s s' E; done|]. split; intros r s.
  - destruct r as [p|v i]; cbn [rc_drop_loop pd_loop].
    + destruct (cnt_get p s) as [c s1|] eqn:Ec. 2: { intros s' E. unfold bind at 1 in E. by rewrite Ec in E. }
      assert (s1 = s /\ m_cnt s !! p = Some c) as [-> Hc]. { unfold cnt_get in Ec. destruct (m_cnt s !! p); by inversion Ec. }
      refine (sim_pre (cnt_get p) (fun c => (if Nat.eqb c 1 then rc_pops f B (RScat p) else ret tt) ;; rc_drop p)
        (fun c k => if Nat.eqb c 1 then let! o := pd_pops f B k (RScat p) in let! n := get p in rc_drop p ;; ret (match o with Some k' => tick k' n | None => None end) else rc_drop p ;; ret (Some k)) s c s Ec _ _ _);
        [apply below_refl|done|]. destruct (Nat.eqb_spec c 1) as [->|Hne].
      * intros s' E. apply bind_Ok in E as ([] & s1 & E1 & E2). destruct (IHp (RScat p) s _ E1) as (B1 & L & HL & K).
        assert (forall s2, below s1 s2 -> below s2 s -> m_cnt s2 !! p = Some 1 /\ exists n n1, m_heap s2 !! p = Some n /\ m_heap s1 !! p = Some n1 /\ n_dat n = n_dat n1) as Hmid.
        { intros s2 (Ha1 & Ha2 & _) (_ & Hb2 & _). unfold rc_drop in E2. destruct (m_cnt s1 !! p) as [[|c1]|] eqn:Ec1; try done.
          - destruct (Ha2 _ _ Ec1) as (c2 & Ec2 & Hle). destruct (Hb2 _ _ Ec2) as (c3 & Ec3 & Hle2). rewrite Hc in Ec3. simplify_eq. split; [by replace c2 with 1 in Ec2 by lia|].
            destruct (m_heap s1 !! p) as [n1|] eqn:En1; [|done]. destruct (Ha1 _ _ En1) as (n2 & ? & ?). eauto 10. }
        destruct (Hmid s1 (below_refl _) B1) as (Hc1 & n & _ & Hn & _ & _). destruct (rc_drop_last _ _ _ _ Hc1 E2) as (n' & Hn' & Hs'). rewrite Hn in Hn'. simplify_eq.
        split; [eapply below_trans; [by eapply rc_drop_below|done]|]. exists (L ++ dat_vals (n_dat n')). simpl. split; [by rewrite HL, app_assoc|].
        rewrite app_length. intros k. destruct (K k) as [K1 K2]. destruct (decide (length L <= k)) as [Hge|Hlt].
        -- unfold bind at 1 4. rewrite K1 by done. unfold bind, get. rewrite Hn. rewrite E2. unfold ret, tick. destruct (dat_one n') as [Hd|[a Hd]]; rewrite Hd; simpl.
           ++ split; [intros _; by rewrite Nat.add_0_r|lia].
           ++ split.
              ** intros Hk. destruct (k - length L) as [|k'] eqn:Ek; [lia|]. do 2 f_equal. lia.
              ** intros Hk. replace (k - length L) with 0 by lia. eexists _, []. split_and!; [reflexivity|apply below_refl|exact (below_trans _ _ _ (rc_drop_below _ _ _ _ E2) B1)| |apply sublist_nil_l].
                 simpl. rewrite HL, app_nil_r, <-app_assoc. f_equal. rewrite take_ge; [done|]. rewrite app_length. simpl. lia.
        -- split; [lia|]. intros _. destruct K2 as (s2 & l & E3 & Ba & Bb & Hl & Hsub); [lia|]. destruct (Hmid s2 Ba Bb) as (Hc2 & n2 & n1 & Hn2 & Hn1 & Hd). rewrite Hn in Hn1. simplify_eq.
           unfold bind at 1. rewrite E3. unfold bind, get. rewrite Hn2. unfold rc_drop at 1. rewrite Hc2, Hn2. unfold ret. eexists _, (l ++ dat_vals (n_dat n1)). split_and!; [reflexivity| | | |].
           ++ by apply below_delete.
           ++ eapply below_trans; [|exact Bb]. eapply (rc_drop_below p s2 tt). unfold rc_drop. by rewrite Hc2, Hn2.
           ++ simpl. rewrite Hl, Hd, <-!app_assoc. by rewrite take_app_le by lia.
           ++ rewrite drop_app_le by lia. by apply sublist_app.
      * refine (sim_ext _ _ _ _ _ _ _ (sim_none (rc_drop p) s _)); [done|done|]. intros s' E. split; [by eapply rc_drop_below|]. eapply rc_drop_keep; [|exact E]. congruence.
    + destruct (vec_ref v s) as [[] s1|] eqn:Ev. 2: { intros s' E. unfold bind at 1 in E. by rewrite Ev in E. } pose proof (vec_ref_mem _ _ _ _ Ev) as ->.
      refine (sim_pre (vec_ref v) (fun _ => let! c := cnt_decr (v, i) in (if Nat.eqb c 0 then rc_pops f B (RPile v i) ;; drop_in_place (v, i) else ret tt) ;; decr_ref v)
        (fun _ k => let! c := cnt_decr (v, i) in if Nat.eqb c 0 then let! o := pd_pops f B k (RPile v i) in match o with
          | Some k' => let! n := get (v, i) in drop_in_place (v, i) ;; match tick k' n with Some k'' => decr_ref v ;; ret (Some k'') | None => ret None end | None => ret None end
          else decr_ref v ;; ret (Some k)) s tt s Ev (below_refl s) eq_refl _).
      destruct (cnt_decr (v, i) s) as [c s1|] eqn:Ec. 2: { intros s' E. unfold bind at 1 in E. by rewrite Ec in E. } destruct (cnt_decr_below _ _ _ _ Ec) as [Bc Lc].
      refine (sim_pre (cnt_decr (v, i)) (fun c => (if Nat.eqb c 0 then rc_pops f B (RPile v i) ;; drop_in_place (v, i) else ret tt) ;; decr_ref v)
        (fun c k => if Nat.eqb c 0 then let! o := pd_pops f B k (RPile v i) in match o with
          | Some k' => let! n := get (v, i) in drop_in_place (v, i) ;; match tick k' n with Some k'' => decr_ref v ;; ret (Some k'') | None => ret None end | None => ret None end
          else decr_ref v ;; ret (Some k)) s c s1 Ec Bc Lc _).
      destruct (Nat.eqb c 0).
      * refine (sim_ext (rc_pops f B (RPile v i) ;; (drop_in_place (v, i) ;; decr_ref v)) _ _ _ _ _ _ (sim_seq _ (drop_in_place (v, i) ;; decr_ref v) _ (fun k' => let! n := get (v, i) in drop_in_place (v, i) ;; match tick k' n with Some k'' => decr_ref v ;; ret (Some k'') | None => ret None end) s1 (IHp (RPile v i) s1) _)).
        -- unfold bind. destruct (rc_pops f B (RPile v i) s1); done.
        -- done.
        -- intros s2 s' E. apply bind_Ok in E as ([] & s3 & E1 & E2). destruct (drop_in_place_below _ _ _ _ E1) as (n & Hn & B1 & L1). destruct (decr_ref_below _ _ _ _ E2) as [B2 L2].
           split; [by eapply below_trans|]. exists (dat_vals (n_dat n)). split; [congruence|]. intros k. unfold bind at 1, get. rewrite Hn. unfold bind at 1. rewrite E1. unfold tick.
           destruct (dat_one n) as [Hd|[a Hd]]; rewrite Hd; simpl.
           ++ split; [|lia]. intros _. unfold bind. rewrite E2. unfold ret. by rewrite Nat.sub_0_r.
           ++ destruct k as [|k]; (split; [|try lia]; try lia).
              ** intros _. unfold bind at 1 2. rewrite Hn, E1, Hd. eexists _, []. split_and!; [reflexivity|done|done|by rewrite L1, Hd|apply sublist_nil_l].
              ** intros _. unfold bind. rewrite E2. unfold ret. do 2 f_equal. lia.
      * refine (sim_ext _ _ _ _ _ _ _ (sim_none (decr_ref v) s1 _)); [done|done|]. intros s' E. by eapply decr_ref_below.
  - cbn [rc_pops pd_pops].
    destruct (node_borrow_mut B r s) as [[] s1|] eqn:Eb. 2: { intros s' E. unfold bind at 1 in E. by rewrite Eb in E. } pose proof (borrow_mut_mem _ _ _ _ _ Eb) as ->.
    refine (sim_pre (node_borrow_mut B r) (fun _ => let! o := pop_front (raddr r) in match o with None => ret tt | Some c => let! q := rc_from c in rc_drop_loop f B q ;; rc_pops f B r end)
      (fun _ k => let! o := pop_front (raddr r) in match o with None => ret (Some k) | Some c => let! q := rc_from c in let! o' := pd_loop f B k q in match o' with Some k' => pd_pops f B k' r | None => ret None end end)
      s tt s Eb (below_refl s) eq_refl _).
    destruct (pop_front (raddr r) s) as [o s1|] eqn:Ep. 2: { intros s' E. unfold bind at 1 in E. by rewrite Ep in E. } destruct (pop_front_below _ _ _ _ Ep) as [Bp Lp].
    refine (sim_pre (pop_front (raddr r)) (fun o => match o with None => ret tt | Some c => let! q := rc_from c in rc_drop_loop f B q ;; rc_pops f B r end)
      (fun o k => match o with None => ret (Some k) | Some c => let! q := rc_from c in let! o' := pd_loop f B k q in match o' with Some k' => pd_pops f B k' r | None => ret None end end)
      s o s1 Ep Bp Lp _).
    destruct o as [c|]. 2: { refine (sim_ext _ _ _ _ _ _ _ (sim_none (ret tt) s1 _)); [done|done|]. intros s' E. inversion E. split; [apply below_refl|done]. }
    destruct (rc_from c s1) as [q s2|] eqn:Er. 2: { intros s' E. unfold bind at 1 in E. by rewrite Er in E. } pose proof (rc_from_mem _ _ _ _ Er) as ->.
    refine (sim_pre (rc_from c) (fun q => rc_drop_loop f B q ;; rc_pops f B r) (fun q k => let! o' := pd_loop f B k q in match o' with Some k' => pd_pops f B k' r | None => ret None end) s1 q s1 Er (below_refl s1) eq_refl _).
    apply sim_seq; [apply IHd|apply IHp].
Qed.
Lemma sim_handle B r (s : mem A) : sim (rc_drop_handle B r) (fun k => pd_handle B k r) s.
Proof.
  refine (sim_pre fuel (fun f => rc_drop_loop (2 * f) B r) (fun f k => pd_loop (2 * f) B k r) s (S (size (m_heap s))) s eq_refl (below_refl s) eq_refl _). apply sim_drop.
Qed.
End sim.
