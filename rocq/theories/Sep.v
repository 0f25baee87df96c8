(** Sep.v — a small separation-logic style calculus over the memory: proof side only. *)
From stdpp Require Import base gmap list.
From Verif Require Import Machine NodeModel.

Section sep.
Context {A : Type}.
Notation cells := (list (ptr * node A)).
Implicit Types (l F : list (ptr * node A)).

Definition HP l (s : mem A) : Prop := NoDup l.*1 /\ m_heap s = list_to_map l.

Definition triple {X} l (m : M A X) (x : X) l' : Prop :=
  forall s F, HP (l ++ F) s -> exists h', m s = Ok x (set_heap s h') /\ HP (l' ++ F) (set_heap s h').

Lemma set_heap_id (s : mem A) : set_heap s (m_heap s) = s.
Proof. by destruct s. Qed.
Lemma set_heap_heap (s : mem A) h : m_heap (set_heap s h) = h.
Proof. done. Qed.
Lemma set_heap_twice (s : mem A) h h' : set_heap (set_heap s h) h' = set_heap s h'.
Proof. done. Qed.

Lemma HP_perm l l' s : l ≡ₚ l' -> HP l s -> HP l' s.
Proof.
  intros Hp [Hn Hh]. split; [by rewrite <-Hp|].
  rewrite Hh. by apply list_to_map_proper.
Qed.

Lemma HP_size l s : HP l s -> size (m_heap s) = length l.
Proof.
  intros [Hn Hh]. rewrite Hh. unfold size, map_size.
  by rewrite map_to_list_to_map.
Qed.

Lemma triple_ret {X} l (x : X) : triple l (ret x) x l.
Proof. intros s F H. exists (m_heap s). rewrite set_heap_id. done. Qed.

Lemma triple_bind {X Y} l (m : M A X) x l1 (k : X -> M A Y) y l2 :
  triple l m x l1 -> triple l1 (k x) y l2 -> triple l (bind m k) y l2.
Proof.
  intros H1 H2 s F H. destruct (H1 s F H) as (h1 & E1 & P1).
  destruct (H2 _ F P1) as (h2 & E2 & P2). exists h2.
  unfold bind. rewrite E1. rewrite E2. by rewrite set_heap_twice in *.
Qed.

Lemma triple_perm {X} l1 l1' (m : M A X) x l2 l2' :
  l1 ≡ₚ l1' -> l2 ≡ₚ l2' -> triple l1 m x l2 -> triple l1' m x l2'.
Proof.
  intros P1 P2 H s F HH.
  destruct (H s F) as (h & E & HP'). { eapply HP_perm; [|exact HH]. by rewrite P1. }
  exists h. split; [done|]. eapply HP_perm; [|exact HP']. by rewrite P2.
Qed.

Lemma triple_pre {X} l1 l1' (m : M A X) x l2 :
  l1' ≡ₚ l1 -> triple l1 m x l2 -> triple l1' m x l2.
Proof. intros P. apply triple_perm; [by symmetry|done]. Qed.
Lemma triple_post {X} l1 (m : M A X) x l2 l2' :
  l2 ≡ₚ l2' -> triple l1 m x l2 -> triple l1 m x l2'.
Proof. intros P. by apply triple_perm. Qed.

Lemma triple_frame {X} F l (m : M A X) x l' : triple l m x l' -> triple (l ++ F) m x (l' ++ F).
Proof.
  intros H s G HH. rewrite <-app_assoc in HH. destruct (H s _ HH) as (h & E & P).
  exists h. by rewrite <-app_assoc.
Qed.

Lemma HP_lookup p n l s : HP ((p, n) :: l) s -> m_heap s !! p = Some n.
Proof. intros [_ ->]. simpl. by rewrite lookup_insert. Qed.

Lemma HP_lookup_in p n l s : (p, n) ∈ l -> HP l s -> m_heap s !! p = Some n.
Proof. intros Hi [Hn ->]. by apply elem_of_list_to_map. Qed.

Lemma triple_get p n l : triple ((p, n) :: l) (get p) n ((p, n) :: l).
Proof.
  intros s F H. exists (m_heap s). rewrite set_heap_id. split; [|done].
  unfold get. by rewrite (HP_lookup p n (l ++ F)).
Qed.

Lemma triple_put p n n' l : triple ((p, n) :: l) (put p n') tt ((p, n') :: l).
Proof.
  intros s F H. exists (<[p:=n']> (m_heap s)). unfold put.
  rewrite (HP_lookup p n (l ++ F)) by done. split; [done|].
  destruct H as [Hn Hh]. split; [done|]. simpl in *. rewrite Hh. by rewrite insert_insert.
Qed.

Lemma triple_upd p n f l : triple ((p, n) :: l) (upd p f) tt ((p, f n) :: l).
Proof. eapply triple_bind; [apply triple_get|]. apply triple_put. Qed.

Lemma triple_unwrap {X} l (x : X) : triple l (unwrap (Some x)) x l.
Proof. apply triple_ret. Qed.

Lemma triple_sub l a b : b <= a -> triple l (sub a b) (a - b) l.
Proof. intros H. unfold sub. apply Nat.leb_le in H. rewrite H. apply triple_ret. Qed.

Lemma triple_fuel {X} l (k : nat -> M A X) x l' :
  (forall f, length l < f -> triple l (k f) x l') -> triple l (bind fuel k) x l'.
Proof.
  intros H s F HH. unfold bind, fuel, gets.
  apply (H (S (size (m_heap s)))); [|done].
  rewrite (HP_size _ _ HH), app_length. lia.
Qed.

(** Extracting the cell of an address *)
Class Extract (p : ptr) (n : node A) (l r : list (ptr * node A)) : Prop := extract : l ≡ₚ (p, n) :: r.
Global Instance extract_here p n l : Extract p n ((p, n) :: l) l | 0.
Proof. by unfold Extract. Qed.
Global Instance extract_cons p n x l r : Extract p n l r -> Extract p n (x :: l) (x :: r) | 1.
Proof. unfold Extract. intros ->. apply Permutation_swap. Qed.
Global Instance extract_app_l p n l1 l2 r : Extract p n l1 r -> Extract p n (l1 ++ l2) (r ++ l2) | 2.
Proof. unfold Extract. by intros ->. Qed.
Global Instance extract_app_r p n l1 l2 r : Extract p n l2 r -> Extract p n (l1 ++ l2) (l1 ++ r) | 3.
Proof. unfold Extract. intros ->. by rewrite Permutation_middle. Qed.

(** the same for whole blocks *)
Class Block (b l r : list (ptr * node A)) : Prop := block : l ≡ₚ b ++ r.
Global Instance block_here b : Block b b [] | 0.
Proof. unfold Block. by rewrite app_nil_r. Qed.
Global Instance block_nil l : Block [] l l | 0.
Proof. by unfold Block. Qed.
Global Instance block_split_cons p n b l l1 r : Extract p n l l1 -> Block b l1 r -> Block ((p, n) :: b) l r | 0.
Proof. unfold Extract, Block. intros -> ->. done. Qed.
Global Instance block_split_app b1 b2 l l1 r : Block b1 l l1 -> Block b2 l1 r -> Block (b1 ++ b2) l r | 5.
Proof. unfold Block. intros -> ->. by rewrite app_assoc. Qed.
Global Instance block_cons b x l r : Block b l r -> Block b (x :: l) (x :: r) | 1.
Proof. unfold Block. intros ->. by rewrite Permutation_middle. Qed.
Global Instance block_app_l b l1 l2 r : Block b l1 r -> Block b (l1 ++ l2) (r ++ l2) | 2.
Proof. unfold Block. intros ->. by rewrite app_assoc. Qed.
Global Instance block_app_r b l1 l2 r : Block b l2 r -> Block b (l1 ++ l2) (l1 ++ r) | 3.
Proof. unfold Block. intros ->. by rewrite !app_assoc, (Permutation_app_comm l1). Qed.

Lemma t_get {X} p n l r (k : node A -> M A X) x l' :
  Extract p n l r -> triple ((p, n) :: r) (k n) x l' -> triple l (bind (get p) k) x l'.
Proof. intros E H. eapply triple_pre; [exact E|]. eapply triple_bind; [apply triple_get|done]. Qed.
Lemma t_put {X} p n n' l r (k : unit -> M A X) x l' :
  Extract p n l r -> triple ((p, n') :: r) (k tt) x l' -> triple l (bind (put p n') k) x l'.
Proof. intros E H. eapply triple_pre; [exact E|]. eapply triple_bind; [apply triple_put|done]. Qed.
Lemma t_upd {X} p n f l r (k : unit -> M A X) x l' :
  Extract p n l r -> triple ((p, f n) :: r) (k tt) x l' -> triple l (bind (upd p f) k) x l'.
Proof. intros E H. eapply triple_pre; [exact E|]. eapply triple_bind; [apply triple_upd|done]. Qed.
Lemma t_upd' p n f l r :
  Extract p n l r -> triple l (upd p f) tt ((p, f n) :: r).
Proof. intros E. eapply triple_pre; [exact E|]. apply triple_upd. Qed.
Lemma t_bind_assoc {X Y Z} l (m : M A X) (k : X -> M A Y) (k' : Y -> M A Z) x l' :
  triple l (bind m (fun y => bind (k y) k')) x l' -> triple l (bind (bind m k) k') x l'.
Proof.
  intros H s F HH. destruct (H s F HH) as (h & E & P). exists h. split; [|done].
  unfold bind in *. destruct (m s); done.
Qed.
Lemma t_ret {X Y} l (y : Y) (k : Y -> M A X) x l' : triple l (k y) x l' -> triple l (bind (ret y) k) x l'.
Proof. intros H. eapply triple_bind; [apply triple_ret|done]. Qed.
Lemma t_unwrap {X Y} l (y : Y) (k : Y -> M A X) x l' : triple l (k y) x l' -> triple l (bind (unwrap (Some y)) k) x l'.
Proof. apply t_ret. Qed.
Lemma t_sub {X} l a b (k : nat -> M A X) x l' :
  b <= a -> triple l (k (a - b)) x l' -> triple l (bind (sub a b) k) x l'.
Proof. intros H H'. eapply triple_bind; [by apply triple_sub|done]. Qed.

(** using a triple for a block of cells, framing the rest *)
Lemma t_call {X Y} b b' l r (m : M A Y) y (k : Y -> M A X) x l' :
  triple b m y b' -> Block b l r -> triple (b' ++ r) (k y) x l' -> triple l (bind m k) x l'.
Proof.
  intros H B K. eapply triple_pre; [exact B|]. eapply triple_bind; [|exact K].
  by apply triple_frame.
Qed.

Lemma t_last {X} b b' l r (m : M A X) x l' :
  triple b m x b' -> Block b l r -> b' ++ r ≡ₚ l' -> triple l m x l'.
Proof.
  intros H B K. eapply triple_perm; [symmetry; exact B|exact K|]. by apply triple_frame.
Qed.
Lemma t_retl {X} l (x : X) l' : l ≡ₚ l' -> triple l (ret x) x l'.
Proof. intros H. eapply triple_post; [exact H|]. apply triple_ret. Qed.

Lemma perm_extract p n n' l r r' :
  Extract p n' r r' -> n = n' -> l ≡ₚ r' -> (p, n) :: l ≡ₚ r.
Proof. unfold Extract. intros -> -> ->. done. Qed.
Lemma perm_block b l r r' : Block b r r' -> l ≡ₚ r' -> b ++ l ≡ₚ r.
Proof. unfold Block. intros -> ->. done. Qed.
Lemma perm_block0 b r r' : Block b r r' -> [] ≡ₚ r' -> b ≡ₚ r.
Proof. unfold Block. intros -> <-. by rewrite app_nil_r. Qed.
End sep.

Ltac step1 :=
  lazymatch goal with
  | |- triple _ (bind (bind _ _) _) _ _ => apply t_bind_assoc
  | |- triple _ (bind (get _) _) _ _ => eapply t_get; [apply _|]
  | |- triple _ (bind (put _ _) _) _ _ => eapply t_put; [apply _|]
  | |- triple _ (bind (upd _ _) _) _ _ => eapply t_upd; [apply _|]
  | |- triple _ (bind (ret _) _) _ _ => apply t_ret
  | |- triple _ (bind (unwrap (Some _)) _) _ _ => apply t_unwrap
  end.
Ltac perm_norm := repeat first [rewrite <-app_assoc | rewrite <-app_comm_cons | rewrite app_nil_r | rewrite app_nil_l ].
Ltac perm_step :=
  lazymatch goal with
  | |- [] ≡ₚ [] => apply Permutation_refl
  | |- (_, _) :: _ ≡ₚ _ => eapply perm_extract; [apply _| |]
  | |- _ ++ _ ≡ₚ _ => eapply perm_block; [apply _|]
  | |- _ ≡ₚ _ => eapply perm_block0; [apply _|]
  end.
Ltac perm := perm_norm; repeat perm_step.
