(** RcPanicModel.v — the methods of [RcNode] when they panic, with the unwinding of the stack, on the modelled memory.  No proofs.

    In RcModel.v a panic ends the execution.  Here the checks that a call begins with return a boolean; if it is [false] the call panics, and the values that
    were moved into it are dropped by unwinding.  Otherwise the call goes on as in RcModel.v. *)
From stdpp Require Import base gmap list.
From Verif Require Import Spec ClientSpec RcSpec PanicSpec RcPanicSpec Machine NodeModel ClientModel PanicModel RcModel RcAllowed.

Section model.
Context {A : Type}.
Implicit Types (c : rst A) (o : rop A).

(** rc.rs:181-194 [node_borrow], 196-209 [node_borrow_mut]: does it succeed?  The assertion comes after the borrow; when it fails unwinding drops the borrow. *)
Definition may_borrow (B : borrows) (r : rnode) : M A bool :=
  acquire r ;; let! n := get (raddr r) in ret (bool_decide (0 <= flag B (raddr r))%Z && negb (is_none_dat (n_dat n))).
Definition may_borrow_mut (B : borrows) (r : rnode) : M A bool :=
  acquire r ;; let! n := get (raddr r) in ret (bool_decide (flag B (raddr r) = 0)%Z && negb (is_none_dat (n_dat n))).
(** rc.rs:395-397, 411-413, 425-427 with node.rs:205, 235, 265: the node is borrowed, then [self.up.unwrap()] *)
Definition may_move (B : borrows) (r : rnode) : M A bool :=
  let! b := may_borrow_mut B r in if b : bool then has_parent (raddr r) else ret false.
(** rc.rs:481-487: [assert!( self.is_root() )], then for a scattered node [borrow_mut] *)
Definition may_into_tree (B : borrows) (r : rnode) : M A bool :=
  let! b := may_borrow B r in
  if b : bool then
    let! o := parent (raddr r) in
    ret (match o with Some _ => false | None => match r with RScat p => bool_decide (flag B p = 0)%Z | RPile _ _ => true end end)
  else ret false.

Definition plain c o : rres (pout A) := match rstep c o with RDone x c' => RDone (PRet x) c' | RFails e => RFails e end.
(** [chk] says whether the method [o] of [h] goes on; if not, [unw] is done while unwinding *)
Definition checked c o (h : nat) (chk : rnode -> M A bool) (unw : rnode -> M A (gmap nat handle * gmap nat rnode)) : rres (pout A) :=
  match r_h c !! h with
  | Some r =>
    match chk r (r_mem c) with
    | Ok true _ => plain c o
    | Ok false s =>
      match unw r s with
      | Ok x s' => RDone PPanic (set_rh (set_renv (set_mem c s') x.1) x.2)
      | Err e => RFails e
      end
    | Err e => RFails e
    end
  | None => plain c o
  end.
(** nothing was moved into the call *)
Definition unw_none c (r : rnode) : M A (gmap nat handle * gmap nat rnode) := ret (r_env c, r_h c).
(** the tree or forest [y] was moved into the call (tree.rs:244-249, forest.rs:277-282 [Drop]) *)
Definition unw_var c (y : nat) (r : rnode) : M A (gmap nat handle * gmap nat rnode) :=
  match r_env c !! y with Some hd => drop_tree (addr hd) ;; ret (delete y (r_env c), r_h c) | None => ret (r_env c, r_h c) end.
(** [into_tree] takes [self] (rc.rs:125-153 [Drop for RcNode]) *)
Definition unw_self c (h : nat) (r : rnode) : M A (gmap nat handle * gmap nat rnode) :=
  rc_drop_handle (r_b c) r ;; ret (r_env c, delete h (r_h c)).

(** the arguments exist and have the right types, and results go to new variables; otherwise the call does nothing in [rstep] *)
Definition has_type c o : bool :=
  match o with
  | SPop _ _ h' | SEnd _ _ h' | SParent _ h' => match r_h c !! h' with None => true | Some _ => false end
  | SPush _ _ y | SInsert _ _ y => match r_env c !! y with Some (HT _) => true | _ => false end
  | SConcat _ _ y => match r_env c !! y with Some (HF _) => true | _ => false end
  | SDeepClone _ x => match r_env c !! x with None => true | Some _ => false end
  | SGuard _ _ g => match r_g c !! g with None => true | Some _ => false end
  | SIter _ it => match r_it c !! it with None => true | Some _ => false end
  | SIntoTree h x => match r_env c !! x with None => negb (bool_decide (h ∈ ((map_to_list (r_g c)).*2).*1)) | Some _ => false end
  | _ => true
  end.

(** a call of the client; the lines are those of RcModel.v *)
Definition rpstep c o : rres (pout A) :=
  let B := r_b c in
  if negb (has_type c o) then plain c o else
  match o with
  | SX o => match pcstep (r_env c) (POp o) (r_mem c) with Ok x s => RDone x.1 (set_renv (set_mem c s) x.2) | Err e => RFails e end
  | SPop _ h _ | SModify h _ | SGuard true h _ => checked c o h (may_borrow_mut B) (unw_none c)
  | SPush _ h y | SConcat _ h y => checked c o h (may_borrow_mut B) (unw_var c y)
  | SInsert _ h y => checked c o h (may_move B) (unw_var c y)
  | SDetach h => checked c o h (may_move B) (unw_none c)
  | SEnd _ h _ | SParent h _ | SData h | SDegree h | SCount h | SNoChild h | SIsRoot h | SDeepClone h _ | SGuard false h _ | SIter h _ =>
    checked c o h (may_borrow B) (unw_none c)
  | SIntoTree h _ => checked c o h (may_into_tree B) (unw_self c h)
  | SFrom _ _ | SClone _ _ | SDrop _ | SDown _ _ | SUp _ _ | SDropWeak _ | SRead _ | SWrite _ _ | SUnguard _ | SNext _ _ | SHint _ | SIterClone _ _ => plain c o
  end.

Fixpoint rprun c (os : list (rop A)) : rres (list (pout A)) :=
  match os with
  | [] => RDone [] c
  | o :: os' =>
    match rpstep c o with
    | RDone r c' => match rprun c' os' with RDone rs c'' => RDone (r :: rs) c'' | RFails e => RFails e end
    | RFails e => RFails e
    end
  end.
(** calls that are allowed (RcAllowed.v), or panic: [into_tree] of a node with a parent may be called whatever other handles there are *)
Fixpoint pallowed c (σ : rss A) (os : list (rop A)) : Prop :=
  match os with
  | [] => True
  | o :: os' => (op_allowed c σ o \/ rsstep σ o = None) /\
    match rpstep c o with RDone _ c' => pallowed c' (rpsstep σ o).2 os' | RFails _ => True end
  end.
End model.
