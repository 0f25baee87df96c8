(** RcClient.v — notions used in the statements of PropRc.  No proofs. *)
From stdpp Require Import base gmap list.
From Verif Require Import Spec ClientSpec RcSpec Machine NodeModel ClientModel RcModel RcAllowed.

Section client.
Context {A : Type}.
Implicit Types (c : rst A) (σ : rss A) (o : rop A).

(** an allowed history leads to the state [c] of the code and [σ] of the specification *)
Definition reached c σ : Prop := exists os rs, allowed rst0 rss0 os /\ rrun rst0 os = RDone rs c /\ rsrun rss0 os = Some (rs, σ).
(** any history leads to the state [c] of the code *)
Definition rreachable c : Prop := exists os rs, rrun rst0 os = RDone rs c.

(** the [RcNode] variable through which an operation changes a node: links, counts or data *)
Definition changes_via o : option nat :=
  match o with
  | SPop _ h _ | SPush _ h _ | SConcat _ h _ | SInsert _ h _ | SDetach h | SModify h _ | SGuard true h _ => Some h
  | _ => None
  end.
(** ... through which it looks at a node *)
Definition looks_via o : option nat :=
  match o with
  | SEnd _ h _ | SParent h _ | SData h | SDegree h | SCount h | SNoChild h | SIsRoot h | SDeepClone h _ | SGuard false h _ | SIter h _ => Some h
  | _ => None
  end.
(** the operations that need a parent *)
Definition needs_parent o : bool := match o with SInsert _ _ _ | SDetach _ => true | _ => false end.
(** the program type-checks: the arguments exist and have the right type, the results go to new variables *)
Definition typed c o : Prop :=
  match o with
  | SPop _ _ h' | SEnd _ _ h' | SParent _ h' => r_h c !! h' = None
  | SPush _ _ y | SInsert _ _ y => exists p, r_env c !! y = Some (HT p)
  | SConcat _ _ y => exists p, r_env c !! y = Some (HF p)
  | SDeepClone _ x => r_env c !! x = None
  | SGuard _ _ g => r_g c !! g = None
  | SIter _ it => r_it c !! it = None
  | _ => True
  end.
(** the memory of the node of a handle is allocated *)
Definition allocated c (r : rnode) : Prop :=
  is_Some (m_heap (r_mem c) !! raddr r) /\ match r with RPile v _ => is_Some (m_vec (r_mem c) !! v) | RScat _ => True end.
(** some guard ([m]: a [RefMut]) from a variable for the node at [p] is alive *)
Definition guarded c (p : ptr) (m : bool) : Prop :=
  exists g h r, r_g c !! g = Some (h, m) /\ r_h c !! h = Some r /\ raddr r = p.

(** node [i] is on or below a node with a handle *)
Definition kept (H : gmap nat nat) (ts : list (ltree A)) (i : nat) : Prop :=
  exists t, t ∈ lall ts /\ (exists h, H !! h = Some (lid t)) /\ i ∈ lid <$> lsubs t.

(** the addresses of the nodes the client can get at: down from a variable *)
Definition rlive c (p : ptr) : Prop :=
  exists q path, ((exists x hd, r_env c !! x = Some hd /\ q = addr hd) \/ (exists h r, r_h c !! h = Some r /\ q = raddr r)) /\
    resolve q path (r_mem c) = Ok (Some p) (r_mem c).

(** the iterator [it] still has to yield the nodes [l], which are the last children of some node *)
Definition to_yield σ (it : nat) (l : list nat) : Prop :=
  rs_it σ !! it = Some (head l, length l) /\ (l = [] \/ exists u L, u ∈ lall (rs_sh σ) /\ lid <$> lkids u = L ++ l).

End client.
