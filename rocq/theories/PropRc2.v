(** PropRc2.v — C47, C48: [into_tree], comparison, hashing and printing of [RcNode].  [reached] (RcClient) and [allowed] (RcAllowed) say which states: those of all
    histories without the operations that break the library, C32, C33 and C35. *)
From Coq Require Import Ascii String.
From stdpp Require Import base gmap list.
From Verif Require Import Spec ClientSpec RcSpec Machine NodeModel ClientModel RcModel RcCmpModel CmpSpec RcAllowed RcClient RcCmpClient RcStep4 RcProps2 RcDemo RcProps3 RcCmpProps RcPlainSpec RcPlain.

(** * C31 for two classes of programs, by the operations they use *)
(** Programs that never copy a handle ([clone], [downgrade]), never advance an [IterRc] and do not use [into_tree]: whatever the storage of the trees. *)
Theorem C31_copy_free_partial {A : Type} (os : list (rop A)) : Forall copy_free os ->
  match rsrun rss0 os with
  | Some (rs, σ) => exists c, rrun rst0 os = RDone rs c /\ m_log (r_mem c) = s_log (rs_x σ)
  | None => rrun rst0 os = RFails EPanic
  end.
Proof. exact (copy_free_safety os). Qed.
Print Assumptions C31_copy_free_partial.
(** Programs that never make a tree in a buffer (no [clone] or [deep_clone] of trees, no trees from visits): handles may be copied and downgraded at will. *)
Theorem C31_buffer_free_partial {A : Type} (os : list (rop A)) : Forall buffer_free os ->
  match rsrun rss0 os with
  | Some (rs, σ) => exists c, rrun rst0 os = RDone rs c /\ m_log (r_mem c) = s_log (rs_x σ)
  | None => rrun rst0 os = RFails EPanic
  end.
Proof. exact (buffer_free_safety os). Qed.
Print Assumptions C31_buffer_free_partial.
Example C31_classes_ex : Forall copy_free (piled_tree ++ [SX (ONewTree 2 5); SPush Front 0 2; SEnd Front 0 1; SEnd Back 0 2; SPop Front 0 3; SDrop 0; SData 2]) /\
  match rsrun rss0 (piled_tree ++ [SX (ONewTree 2 5); SPush Front 0 2; SEnd Front 0 1; SEnd Back 0 2; SPop Front 0 3; SDrop 0; SData 2]) with
  | Some (rs, σ) => last rs = Some (RVal 5) /\ s_log (rs_x σ) = [0] | None => False end /\
  Forall buffer_free (shared_ops ++ [SDrop 0; SUp 0 9; SDrop 2; SData 1]) /\
  match rsrun rss0 (shared_ops ++ [SDrop 0; SUp 0 9; SDrop 2; SData 1]) with
  | Some (rs, σ) => drop 15 rs = [RUnit; RBool false; RUnit; RVal 1] /\ s_log (rs_x σ) = [4; 0] | None => False end.
Proof. split; [repeat constructor|]. split; [vm_compute; auto|]. split; [repeat constructor|]. vm_compute. auto. Qed.

(** * C47.  [into_tree] *)
(** [h.into_tree()] for a root gives the tree of that node back, exclusively owned, and changes no memory; the other trees stay as they are.  Of a node with a
    parent it panics.  Nobody else has a handle or a weak handle of a node of the tree, and no iterator points there ([op_allowed]). *)
Theorem C47_into_tree {A : Type} (c : rst A) (σ : rss A) (h i : nat) (t : ltree A) (x : nat) :
  reached c σ -> rs_h σ !! h = Some i -> lfind i (rs_sh σ) = Some t -> op_allowed c σ (SIntoTree h x) ->
  env_of σ !! x = None -> (forall g m, rs_g σ !! g <> Some (h, m)) ->
  (i ∈ lid <$> rs_sh σ -> exists c' σ', rstep c (SIntoTree h x) = RDone RUnit c' /\ reached c' σ' /\ r_mem c' = r_mem c /\
     env_of σ' = <[x := ITree (erase t)]> (env_of σ) /\ rs_h σ' = delete h (rs_h σ) /\ lids (rs_sh σ') ⊆ lids (rs_sh σ) /\
     (forall j, j ∈ lids (rs_sh σ) -> j ∈ lids (rs_sh σ') <-> j ∉ lid <$> lsubs t)) /\
  (i ∉ lid <$> rs_sh σ -> rstep c (SIntoTree h x) = RFails EPanic).
Proof. exact (into_tree_prop c σ h i t x). Qed.
Print Assumptions C47_into_tree.
(** the whole tree, and a tree in a buffer whose node is not the root *)
Definition into_ops : list (rop nat) := scattered_tree ++ [SEnd Front 0 1; SDeepClone 1 9; SFrom 9 4; SEnd Front 4 5; SDrop 1].
Definition into_c : rst nat := match rrun rst0 into_ops with RDone _ c => c | RFails _ => rst0 end.
Definition into_s : rss nat := match rsrun rss0 into_ops with Some (_, σ) => σ | None => rss0 end.
Example C47_ex : allowed rst0 rss0 (into_ops ++ [SIntoTree 0 7]) /\ rs_h into_s !! 0 = Some 0 /\ lid <$> rs_sh into_s = [0; 5] /\ rs_h into_s !! 5 = Some 6 /\
  match lfind 0 (rs_sh into_s) with Some t => erase t = Tr 0 [Tr 1 [Tr 2 []; Tr 3 []]; Tr 4 []] | None => False end /\
  match rsstep into_s (SIntoTree 0 7) with Some (r, σ') => r = RUnit /\ env_of σ' !! 7 = Some (ITree (Tr 0 [Tr 1 [Tr 2 []; Tr 3 []]; Tr 4 []])) | None => False end /\
  match rstep into_c (SIntoTree 0 7) with RDone r c' => r = RUnit | RFails _ => False end /\ rstep into_c (SIntoTree 5 7) = RFails EPanic /\ is_Some (lfind 6 (rs_sh into_s)) /\ op_allowedb into_c into_s (SIntoTree 5 7) = true.
Proof. split; [apply allowedb_ok; vm_compute; reflexivity|]. vm_compute. repeat (split; [reflexivity|]). split; [auto|]. repeat (split; [reflexivity|]). split; [eauto|reflexivity]. Qed.

(** [RcNode::from(tree).into_tree()] is the same tree: the state of the program is the same as before. *)
Theorem C47_round_trip {A : Type} (c : rst A) (σ : rss A) (x h : nat) (t : tree A) : reached c σ -> env_of σ !! x = Some (ITree t) -> rs_h σ !! h = None ->
  rrun c [SFrom x h; SIntoTree h x] = RDone [RUnit; RUnit] c.
Proof. exact (from_into_tree c σ x h t). Qed.
Print Assumptions C47_round_trip.
Example C47_round_ex : allowed rst0 rss0 (removelast into_ops ++ [SDeepClone 1 9]) /\
  match rsrun rss0 (removelast into_ops ++ [SDeepClone 1 9]) with Some (_, σ) => env_of σ !! 9 = Some (ITree (Tr 1 [Tr 2 []; Tr 3 []])) /\ rs_h σ !! 7 = None | None => False end.
Proof. split; [apply allowedb_ok; vm_compute; reflexivity|]. vm_compute. auto. Qed.

(** * C48.  Comparing, hashing and printing shared nodes *)
Section C48.
Context {A : Type} (c : rst A) (σ : rss A) (r r' : rnode) (t u : ltree A).

(** [a == b] says whether the trees have the same shape and equal data in the same places, or it panics, which needs a [RefMut] on some node of the trees. *)
Theorem C48_eq (eqA : A -> A -> bool) : reached c σ -> handle_for c σ r t -> handle_for c σ r' u ->
  exists b, (evals c (rc_eq eqA (r_b c) r r') b \/ (panics c (rc_eq eqA (r_b c) r r') /\ (locked σ t \/ locked σ u))) /\
    (b = true <-> tree_rel (fun a b => eqA a b = true) (erase t) (erase u)).
Proof. exact (fun HR => rc_eq_prop c σ HR eqA r r' t u). Qed.
(** [a != b] is its negation *)
Theorem C48_ne (eqA neA : A -> A -> bool) : (forall a b, neA a b = negb (eqA a b)) -> reached c σ -> handle_for c σ r t -> handle_for c σ r' u ->
  exists b, (evals c (rc_ne eqA neA (r_b c) r r') b \/ (panics c (rc_ne eqA neA (r_b c) r r') /\ (locked σ t \/ locked σ u))) /\
    (b = false <-> tree_rel (fun a b => eqA a b = true) (erase t) (erase u)).
Proof. exact (fun Hne HR => rc_ne_prop c σ HR eqA neA r r' t u Hne). Qed.
(** [a.cmp(&b)] and [a.partial_cmp(&b)] are the orders of CmpSpec: the data first, then the children lexicographically (C16, C17) *)
Theorem C48_cmp (cm : A -> A -> comparison) : reached c σ -> handle_for c σ r t -> handle_for c σ r' u ->
  evals c (rc_cmp cm (r_b c) r r') (tree_cmp cm (erase t) (erase u)) \/ (panics c (rc_cmp cm (r_b c) r r') /\ (locked σ t \/ locked σ u)).
Proof. exact (fun HR => rc_cmp_prop c σ HR cm r r' t u). Qed.
Theorem C48_partial_cmp (pc : A -> A -> option comparison) : reached c σ -> handle_for c σ r t -> handle_for c σ r' u ->
  evals c (rc_pcmp pc (r_b c) r r') (tree_pcmp pc (erase t) (erase u)) \/ (panics c (rc_pcmp pc (r_b c) r r') /\ (locked σ t \/ locked σ u)).
Proof. exact (fun HR => rc_pcmp_prop c σ HR pc r r' t u). Qed.
(** [hash] and [to_string] are those of the tree; they panic exactly when a [RefMut] is alive on some node of the tree *)
Theorem C48_hash {H : Type} (h : A -> list H) : reached c σ -> handle_for c σ r t ->
  (~ locked σ t -> evals c (rc_hash h (r_b c) r) (flat_map h (preorder (erase t)))) /\ (locked σ t -> panics c (rc_hash h (r_b c) r)).
Proof. exact (fun HR => rc_hash_prop c σ HR h r t). Qed.
Theorem C48_display (show : A -> string) : reached c σ -> handle_for c σ r t ->
  (~ locked σ t -> evals c (rc_fmt show (r_b c) r) (display show (erase t))) /\ (locked σ t -> panics c (rc_fmt show (r_b c) r)).
Proof. exact (fun HR => rc_fmt_prop c σ HR show r t). Qed.
(** With a [RefMut] on one of the two nodes themselves every comparison panics; with one anywhere in two equal trees [==] does. *)
Theorem C48_root_locked_panics (eqA neA : A -> A -> bool) (pc : A -> A -> option comparison) (cm : A -> A -> comparison) :
  (forall a b, neA a b = negb (eqA a b)) -> reached c σ -> handle_for c σ r t -> handle_for c σ r' u -> readable σ (lid t) && readable σ (lid u) = false ->
  panics c (rc_eq eqA (r_b c) r r') /\ panics c (rc_ne eqA neA (r_b c) r r') /\ panics c (rc_pcmp pc (r_b c) r r') /\ panics c (rc_cmp cm (r_b c) r r').
Proof. exact (fun Hne HR Ht Hu => rc_root_locked c σ HR eqA neA pc cm r r' t u Ht Hu Hne). Qed.
Theorem C48_equal_locked_panics (eqA : A -> A -> bool) : reached c σ -> handle_for c σ r t -> handle_for c σ r' u ->
  tree_rel (fun a b => eqA a b = true) (erase t) (erase u) -> locked σ t \/ locked σ u -> panics c (rc_eq eqA (r_b c) r r').
Proof. exact (fun HR => rc_equal_locked c σ HR eqA r r' t u). Qed.
End C48.
Print Assumptions C48_eq.
Print Assumptions C48_ne.
Print Assumptions C48_cmp.
Print Assumptions C48_partial_cmp.
Print Assumptions C48_hash.
Print Assumptions C48_display.
Print Assumptions C48_root_locked_panics.
Print Assumptions C48_equal_locked_panics.

(** the node 1( 2 3 ) (variable 1) and its deep clone (variable 4): they are equal; and with a [RefMut] on the node 3 (variable 3), a state in which
    comparing panics but other nodes can still be compared *)
Definition cmp_ops : list (rop nat) := shared_ops ++ [SDeepClone 1 9; SFrom 9 4].
Definition cmp_c : rst nat := match rrun rst0 cmp_ops with RDone _ c => c | RFails _ => rst0 end.
Definition cmp_s : rss nat := match rsrun rss0 cmp_ops with Some (_, σ) => σ | None => rss0 end.
Definition lock_ops : list (rop nat) := cmp_ops ++ [SGuard true 3 0].
Definition lock_c : rst nat := match rrun rst0 lock_ops with RDone _ c => c | RFails _ => rst0 end.
Definition lock_s : rss nat := match rsrun rss0 lock_ops with Some (_, σ) => σ | None => rss0 end.
Example C48_ex : allowed rst0 rss0 lock_ops /\ r_h cmp_c !! 1 = Some (RScat (1, 0)) /\ r_h cmp_c !! 4 = Some (RPile 5 0) /\
  handle_for cmp_c cmp_s (RScat (1, 0)) (LN 1 1 [LN 2 2 []; LN 3 3 []]) /\ handle_for cmp_c cmp_s (RPile 5 0) (LN 5 1 [LN 6 2 []; LN 7 3 []]) /\
  match rc_eq Nat.eqb (r_b cmp_c) (RScat (1, 0)) (RPile 5 0) (r_mem cmp_c) with Ok b _ => b = true | Err _ => False end /\
  match rc_cmp Nat.compare (r_b cmp_c) (RScat (1, 0)) (RScat (0, 0)) (r_mem cmp_c) with Ok b _ => b = Gt | Err _ => False end /\
  match rc_hash (fun n => [n]) (r_b cmp_c) (RScat (0, 0)) (r_mem cmp_c) with Ok b _ => b = [0; 1; 2; 3; 4] | Err _ => False end.
Proof.
  split; [apply allowedb_ok; vm_compute; reflexivity|]. split; [vm_compute; reflexivity|]. split; [vm_compute; reflexivity|].
  split; [exists 1, 1; vm_compute; auto|]. split; [exists 4, 5; vm_compute; auto|]. vm_compute. auto.
Qed.
Example C48_locked_ex : locked lock_s (LN 1 1 [LN 2 2 []; LN 3 3 []]) /\ handle_for lock_c lock_s (RScat (1, 0)) (LN 1 1 [LN 2 2 []; LN 3 3 []]) /\
  readable lock_s 1 = true /\ readable lock_s 3 = false /\
  panics lock_c (rc_eq Nat.eqb (r_b lock_c) (RScat (1, 0)) (RPile 5 0)) /\
  match rc_cmp Nat.compare (r_b lock_c) (RScat (1, 0)) (RScat (0, 0)) (r_mem lock_c) with Ok b _ => b = Gt | Err _ => False end /\
  panics lock_c (rc_hash (fun n => [n]) (r_b lock_c) (RScat (0, 0))).
Proof.
  split; [exists 3; vm_compute; split; [repeat constructor|reflexivity]|]. split; [exists 1, 1; vm_compute; auto|]. vm_compute. auto.
Qed.
