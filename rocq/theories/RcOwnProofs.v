(** RcOwnProofs.v — a drop whose values drop further handles, step by step next to a run of ordinary operations. *)
From stdpp Require Import base gmap list.
From Verif Require Import Spec ClientSpec RcSpec Machine NodeModel BfsModel ClientModel RcModel RcAllowed RcClient Sep Rep NodeProofs Inv Abs ClientProofs ClientRef ClientProps CountFrame
  RcRelease RcLab RcRef RcStep RcStep2 RcStep3 RcStep4 RcProps RcProps2 CounterSpec CounterProofs RcOwnModel RcOwnSpec.

Section own.
Context {A : Type}.
Implicit Types (p q : ptr) (s : mem A) (c : rst A) (σ : rss A) (Z : list ptr).

(** * Counts set to zero *)
Definition zc Z (m : gmap ptr nat) : gmap ptr nat := map_imap (fun p k => Some (if decide (p ∈ Z) then 0 else k)) m.
Definition zl Z (l : list A) s : mem A := Mem (m_heap s) (zc Z (m_cnt s)) (m_vec s) (m_fresh s) l.
Lemma zc_look Z m p : zc Z m !! p = (fun k => if decide (p ∈ Z) then 0 else k) <$> m !! p.
Proof. unfold zc. rewrite map_lookup_imap. by destruct (m !! p). Qed.
Lemma zc_insert Z m p k : p ∉ Z -> zc Z (<[p := k]> m) = <[p := k]> (zc Z m).
Proof.
  intros Hp. apply map_eq. intros q. rewrite zc_look. destruct (decide (p = q)) as [<-|Hne].
  - rewrite !lookup_insert. simpl. by rewrite decide_False.
  - by rewrite !lookup_insert_ne, zc_look by done.
Qed.
Lemma zc_delete Z m p : zc Z (delete p m) = delete p (zc (p :: Z) m).
Proof.
  apply map_eq. intros q. rewrite zc_look. destruct (decide (p = q)) as [<-|Hne]; [by rewrite !lookup_delete|]. rewrite !lookup_delete_ne, zc_look by done.
  destruct (m !! q); [|done]. simpl. f_equal. repeat case_decide; set_solver.
Qed.
Lemma zc_zero Z m p : is_Some (m !! p) -> zc (p :: Z) m = <[p := 0]> (zc Z m).
Proof.
  intros [k Hk]. apply map_eq. intros q. rewrite zc_look. destruct (decide (p = q)) as [<-|Hne].
  - rewrite lookup_insert, Hk. simpl. rewrite decide_True by left. done.
  - rewrite lookup_insert_ne, zc_look by done. destruct (m !! q); [|done]. simpl. f_equal. repeat case_decide; set_solver.
Qed.
Lemma zc_zero' Z m p : is_Some (m !! p) -> zc (p :: Z) m = zc Z (<[p := 0]> m).
Proof.
  intros H. rewrite zc_zero by done. apply map_eq. intros q. rewrite zc_look. destruct (decide (p = q)) as [<-|Hne].
  - rewrite !lookup_insert. simpl. by case_decide.
  - rewrite !lookup_insert_ne by done. by rewrite zc_look.
Qed.
Lemma zl_set Z l s h : set_heap (zl Z l s) h = zl Z l (set_heap s h).
Proof. done. Qed.
Lemma zl_hp {X} (m : M A X) Z l s x t : hp m -> m s = Ok x t -> m (zl Z l s) = Ok x (zl Z l t).
Proof. intros Hm E. pose proof (Hm s (zl Z l s) eq_refl) as H. rewrite E in H. destruct H as (Ht & _ & ->). rewrite zl_set. f_equal. by rewrite <-Ht. Qed.
Lemma zl_decr_ref Z l s v t : decr_ref v s = Ok tt t -> decr_ref v (zl Z l s) = Ok tt (zl Z l t).
Proof.
  unfold decr_ref. cbn [m_vec zl]. destruct (m_vec s !! v) as [[cap [|[|rc]]]|]; try done; intros [= <-]; unfold zl; cbn [m_heap m_cnt m_vec m_fresh]; [|done].
  do 2 f_equal. apply map_eq. intros q. rewrite zc_look, !map_filter_lookup, zc_look. destruct (m_cnt s !! q); [|done]. simpl. repeat case_option_guard; done.
Qed.
Lemma decr_ref_log s v x t : decr_ref v s = Ok x t -> m_log t = m_log s.
Proof. unfold decr_ref. destruct (m_vec s !! v) as [[cap [|[|rc]]]|]; try done; by intros [= <- <-]. Qed.
Lemma bind_ok {X Y} (m : M A X) (k : X -> M A Y) s x t : m s = Ok x t -> bind m k s = k x t.
Proof. unfold bind. by intros ->. Qed.
Lemma zl_borrow B r Z l s x t : node_borrow_mut B r s = Ok x t -> t = s /\ node_borrow_mut B r (zl Z l s) = Ok x (zl Z l s).
Proof.
  unfold node_borrow_mut. intros E. assert (t = s /\ acquire r s = Ok tt s) as [-> Ha].
  { destruct r as [p|v i]; unfold bind, acquire, vec_ref, get, ret in *.
    - destruct (m_heap s !! _); [|done]. destruct (bool_decide _); [done|]. destruct (is_none_dat _); [done|]. by simplify_eq.
    - destruct (m_vec s !! v); [|done]. destruct (m_heap s !! _); [|done]. destruct (bool_decide _); [done|]. destruct (is_none_dat _); [done|]. by simplify_eq. }
  split; [done|]. rewrite (bind_ok _ _ _ _ _ Ha) in E.
  assert (acquire r (zl Z l s) = Ok tt (zl Z l s)) as Hz. { destruct r as [p|v i]; [done|]. unfold acquire, vec_ref in *. cbn [m_vec zl]. by destruct (m_vec s !! v). }
  rewrite (bind_ok _ _ _ _ _ Hz). refine (zl_hp _ Z l s x s _ E). apply hp_bind; [apply hp_get|]. intros n. destruct (bool_decide _); [apply hp_fail|]. destruct (is_none_dat _); [apply hp_fail|apply hp_ret].
Qed.
Lemma hp_rc_from p : hp (@rc_from A p).
Proof. unfold rc_from, into_rc. apply hp_bind; [apply hp_get|]. intros n. destruct (n_dat n); try apply hp_fail; apply hp_ret. Qed.
Lemma zl_pop B r Z l s o t : rc_pop Front B r s = Ok o t -> rc_pop Front B r (zl Z l s) = Ok o (zl Z l t).
Proof.
  unfold rc_pop. intros E. unfold bind at 1 in E. destruct (node_borrow_mut B r s) as [x u|] eqn:E1; [|done]. destruct (zl_borrow _ _ Z l _ _ _ E1) as [-> E2].
  rewrite (bind_ok _ _ _ _ _ E2). refine (zl_hp _ Z l _ _ _ _ E). apply hp_bind; [apply hp_pop_front|]. intros [q|]; [|apply hp_ret]. apply hp_bind; [apply hp_rc_from|]. intros k. apply hp_ret.
Qed.
Definition some_only {X} (m : M A (option X)) : Prop := forall s t, m s <> Ok None t.
Lemma so_bind {X Y} (m : M A X) (k : X -> M A (option Y)) : (forall x, some_only (k x)) -> some_only (bind m k).
Proof. intros Hk s t. unfold bind. destruct (m s) as [x u|]; [apply Hk|done]. Qed.
Lemma so_ret {X} (x : X) : some_only (ret (Some x)).
Proof. intros s t. done. Qed.
Lemma pop_none p s t : pop_front p s = Ok None t -> t = s.
Proof.
  unfold pop_front. unfold bind at 1. unfold get at 1. destruct (m_heap s !! p) as [n|]; [|done]. destruct (n_deg n) as [|[|d]].
  - by intros [= <-].
  - intros E. exfalso. revert E. match goal with |- ?m s = _ -> _ => assert (some_only m) as Hm end; [|by intros ?%Hm].
    repeat (apply so_bind; intros ?). apply so_ret.
  - intros E. exfalso. revert E. match goal with |- ?m s = _ -> _ => assert (some_only m) as Hm end; [|by intros ?%Hm].
    repeat (apply so_bind; intros ?). apply so_ret.
Qed.
Lemma rc_pop_none B r s t : rc_pop Front B r s = Ok None t -> t = s.
Proof.
  unfold rc_pop. intros E. unfold bind at 1 in E. destruct (node_borrow_mut B r s) as [x u|] eqn:E1; [|done]. destruct (zl_borrow _ _ [] [] _ _ _ E1) as [-> _].
  unfold bind at 1 in E. destruct (pop_front (raddr r) s) as [[q|] u|] eqn:E2.
  - exfalso. unfold bind in E. destruct (rc_from q u); done.
  - injection E as <-. by apply pop_none in E2.
  - done.
Qed.
Lemma rc_pop_log e B r s o t : rc_pop e B r s = Ok o t -> m_log t = m_log s /\ m_cnt t = m_cnt s.
Proof.
  unfold rc_pop. intros E. unfold bind at 1 in E. destruct (node_borrow_mut B r s) as [x u|] eqn:E1; [|done]. destruct (zl_borrow _ _ [] [] _ _ _ E1) as [-> _].
  match type of E with ?m s = _ => assert (hp m) as Hm end.
  { apply hp_bind; [destruct e; [apply hp_pop_front|apply hp_pop_back]|]. intros [q|]; [|apply hp_ret]. apply hp_bind; [apply hp_rc_from|]. intros k. apply hp_ret. }
  pose proof (Hm s s eq_refl) as H. rewrite E in H. destruct H as (-> & _). done.
Qed.

(** * The two recursions, one round *)
Lemma rc_pops_round f B r s : rc_pops (S f) B r s = match rc_pop Front B r s with
  | Ok None t => Ok tt t | Ok (Some k) t => (rc_drop_loop f B k ;; rc_pops f B r) t | Err e => Err e end.
Proof.
  cbn [rc_pops]. unfold rc_pop, bind. destruct (node_borrow_mut B r s) as [x u|e]; [|done]. destruct (pop_front (raddr r) u) as [[q|] v|e]; [|done|done].
  destruct (rc_from q v) as [k w|e]; done.
Qed.
Context (own : A -> list nat).
Lemma rd_pops_round f B H r s : rd_pops own (S f) B H r s = match rc_pop Front B r s with
  | Ok None t => Ok H t | Ok (Some k) t => (let! H1 := rd_loop own f B H k in rd_pops own f B H1 r) t | Err e => Err e end.
Proof.
  cbn [rd_pops]. unfold rc_pop, bind. destruct (node_borrow_mut B r s) as [x u|e]; [|done]. destruct (pop_front (raddr r) u) as [[q|] v|e]; [|done|done].
  destruct (rc_from q v) as [k w|e]; done.
Qed.
End own.
