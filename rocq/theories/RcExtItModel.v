(** RcExtItModel.v — [Extend<Tree<T>>] for [RcNode] with an iterator that is code of the client: each call of [next] may use the library.  No proofs. *)
From stdpp Require Import base gmap list.
From Verif Require Import Spec ClientSpec RcSpec Machine NodeModel ClientModel RcModel.

Section ext.
Context {A : Type}.

(** what [next] of the iterator does, one call after the other: operations of the library, each may depend on the results of the ones before; then it gives the tree
    in the variable [y], or [None], or it panics *)
Inductive iprog : Type :=
  | IOp (o : rop A) (k : out A -> iprog)
  | IItem (y : nat) (rest : iprog)
  | IEnd
  | IPanic.

(** specification: the operations take effect in order, and each tree becomes the last child of the node of [h] at the moment it is given; [RBool true]: [extend] has
    returned, [RBool false]: it has passed the iterator's panic on, [None]: it has panicked itself *)
Definition attach_last (σ : rss A) (i y : nat) (t : tree A) : rss A :=
  RSS (SSt (delete y (env_of σ)) (s_log (rs_x σ))) (map (lmap_at i (set_lkids (fun ks => ks ++ [label (rs_next σ) t]))) (rs_sh σ))
      (rs_h σ) (rs_w σ) (rs_g σ) (rs_it σ) (rs_next σ + nodes t).
Fixpoint extend_it_spec (i : nat) (p : iprog) (σ : rss A) : option (out A * rss A) :=
  match p with
  | IEnd => Some (RBool true, σ)
  | IPanic => Some (RBool false, σ)
  | IOp o k => match rsstep σ o with Some (x, σ') => extend_it_spec i (k x) σ' | None => None end
  | IItem y rest =>
    match env_of σ !! y with
    | Some (ITree t) => if writable σ i then extend_it_spec i rest (attach_last σ i y t) else None
    | _ => Some (RBad, σ)
    end
  end.

(** rc.rs:511-517 [Extend::extend]: call [next]; for each tree borrow the node mutably, push the tree back, release the borrow.  [r]: the handle *)
Fixpoint extend_it (r : rnode) (p : iprog) (c : rst A) : rres (out A) :=
  match p with
  | IEnd => RDone (RBool true) c
  | IPanic => RDone (RBool false) c
  | IOp o k => match rstep c o with RDone x c' => extend_it r (k x) c' | RFails e => RFails e end
  | IItem y rest =>
    match r_env c !! y with
    | Some (HT p) =>
      match rc_push Back (r_b c) r p (r_mem c) with
      | Ok _ s => extend_it r rest (set_renv (set_mem c s) (delete y (r_env c)))
      | Err e => RFails e
      end
    | _ => RDone RBad c
    end
  end.
(** the call [h.extend(it)] *)
Definition rextend_it (c : rst A) (h : nat) (p : iprog) : rres (out A) :=
  match r_h c !! h with Some r => extend_it r p c | None => RDone RBad c end.

(** the [RcNode] variables an operation names; [extend] borrows [h] mutably, so the iterator cannot name it *)
Definition rop_handles (o : rop A) : list nat :=
  match o with
  | SFrom _ h | SDrop h | SPush _ h _ | SConcat _ h _ | SInsert _ h _ | SDetach h | SData h | SModify h _ | SDegree h | SCount h | SNoChild h | SIsRoot h
  | SDeepClone h _ | SDown h _ | SUp _ h | SGuard _ h _ | SIter h _ | SNext _ h | SIntoTree h _ => [h]
  | SClone h h' | SEnd _ h h' | SParent h h' | SPop _ h h' => [h; h']
  | SX _ | SDropWeak _ | SRead _ | SWrite _ _ | SUnguard _ | SHint _ | SIterClone _ _ => []
  end.
(** the operations do not name [h] and are allowed (RcAllowed) when they are run *)
Fixpoint iprog_allowed (ok : rst A -> rss A -> rop A -> Prop) (h : nat) (p : iprog) (c : rst A) (σ : rss A) : Prop :=
  match p with
  | IEnd | IPanic => True
  | IOp o k => h ∉ rop_handles o /\ ok c σ o /\
      match rstep c o, rsstep σ o with RDone x c', Some (_, σ') => iprog_allowed ok h (k x) c' σ' | _, _ => True end
  | IItem y rest =>
      match rstep c (SPush Back h y), rsstep σ (SPush Back h y) with RDone _ c', Some (_, σ') => iprog_allowed ok h rest c' σ' | _, _ => True end
  end.
End ext.
Arguments iprog : clear implicits.
