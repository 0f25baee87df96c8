(** StackRcCmpModel.v — comparing, hashing and printing shared nodes with a bound on the depth of the call stack; [Debug] of nodes.  No proofs.
    [D]: how many nested calls of the function fit on the stack; [EStack]: it overflows and the process is aborted. *)
From Coq Require Import Ascii String.
From stdpp Require Import base gmap list.
From Verif Require Import Spec ClientSpec Machine NodeModel ClientModel CmpModel RcModel RcCmpModel DebugModel RcDebugModel.

Section model.
Context {A : Type}.
Implicit Types (r : rnode) (B : borrows) (D : nat).

(** macros.rs:134 [RcNode::eq] (rc.rs:520) *)
Fixpoint rc_eq_stack (eqA : A -> A -> bool) B D r r' : M A bool :=
  match D with
  | 0 => fail EStack
  | S D' =>
    let! x := rc_data B r in
    let! y := rc_data B r' in
    if eqA x y then
      let! a := rc_iter B r in
      let! b := rc_iter B r' in
      let! g := fuel in
      let! c := iter_compare B (fun x y => let! e := rc_eq_stack eqA B D' x y in ret (if e : bool then None else Some tt)) g a b in
      ret (match c with inr Eq => true | _ => false end)
    else ret false
  end.
(** macros.rs:135 [RcNode::ne]: [Iterator::ne] compares the children with [==] *)
Definition rc_ne_stack (eqA neA : A -> A -> bool) B D r r' : M A bool :=
  match D with
  | 0 => fail EStack
  | S D' =>
    let! x := rc_data B r in
    let! y := rc_data B r' in
    if neA x y then ret true
    else
      let! a := rc_iter B r in
      let! b := rc_iter B r' in
      let! g := fuel in
      let! c := iter_compare B (fun x y => let! e := rc_eq_stack eqA B D' x y in ret (if e : bool then None else Some tt)) g a b in
      ret (match c with inr Eq => false | _ => true end)
  end.
(** macros.rs:141-150 [RcNode::partial_cmp] *)
Fixpoint rc_pcmp_stack (pcmpA : A -> A -> option comparison) B D r r' : M A (option comparison) :=
  match D with
  | 0 => fail EStack
  | S D' =>
    let! x := rc_data B r in
    let! y := rc_data B r' in
    match pcmpA x y with
    | None => ret None
    | Some Lt => ret (Some Lt)
    | Some Gt => ret (Some Gt)
    | Some Eq =>
      let! a := rc_iter B r in
      let! b := rc_iter B r' in
      let! g := fuel in
      let! c := iter_compare B (fun x y => let! o := rc_pcmp_stack pcmpA B D' x y in ret (match o with Some Eq => None | _ => Some o end)) g a b in
      ret (match c with inr o => Some o | inl o => o end)
    end
  end.
(** macros.rs:154-160 [RcNode::cmp] *)
Fixpoint rc_cmp_stack (cmpA : A -> A -> comparison) B D r r' : M A comparison :=
  match D with
  | 0 => fail EStack
  | S D' =>
    let! x := rc_data B r in
    let! y := rc_data B r' in
    match cmpA x y with
    | Lt => ret Lt
    | Gt => ret Gt
    | Eq =>
      let! a := rc_iter B r in
      let! b := rc_iter B r' in
      let! g := fuel in
      let! c := iter_compare B (fun x y => let! o := rc_cmp_stack cmpA B D' x y in ret (match o with Eq => None | _ => Some o end)) g a b in
      ret (match c with inr o => o | inl o => o end)
    end
  end.
(** macros.rs:168-173 [RcNode::hash] (rc.rs:521) *)
Fixpoint rc_hash_stack {H} (hashA : A -> list H) B D r : M A (list H) :=
  match D with
  | 0 => fail EStack
  | S D' =>
    let! x := rc_data B r in
    let! a := rc_iter B r in
    let! g := fuel in
    let! l := rc_for B (rc_hash_stack hashA B D') g a in
    ret (hashA x ++ concat l)%list
  end.
(** macros.rs:115-126 [Display for RcNode] (rc.rs:519) *)
Local Open Scope string_scope.
Fixpoint rc_fmt_stack (show : A -> string) B D r : M A string :=
  match D with
  | 0 => fail EStack
  | S D' =>
    let! e := rc_has_no_child B r in
    if e : bool then let! x := rc_data B r in ret (show x)
    else
      let! x := rc_data B r in
      let! a := rc_iter B r in
      let! g := fuel in
      let! l := rc_for B (rc_fmt_stack show B D') g a in
      ret (show x ++ "( " ++ fold_right (fun w w' => w ++ " " ++ w') "" l ++ ")")
  end.
(** macros.rs:97-112 [Debug for RcNode] (rc.rs:519) *)
Fixpoint rc_dbg_stack (show : A -> string) (slot : list nat -> string) B D (path : list nat) r : M A string :=
  match D with
  | 0 => fail EStack
  | S D' =>
    let! e := rc_has_no_child B r in
    let! x := rc_data B r in
    let w0 := show x ++ "@" ++ slot path ++ " " in
    if e : bool then ret w0
    else
      let! a := rc_iter B r in
      let! g := fuel in
      let! l := rc_for_i B (fun n => rc_dbg_stack show slot B D' (path ++ [n])%list) g 0 a in
      ret (w0 ++ "( " ++ fold_right String.append "" l ++ ")")
  end.
(** macros.rs:97-112 [Debug for Node] (node.rs:600) *)
Fixpoint node_dbg_stack (show : A -> string) (showp : ptr -> string) D (p : ptr) : M A string :=
  match D with
  | 0 => fail EStack
  | S D' =>
    let! e := has_no_child p in
    let! x := data p in
    let w0 := show x ++ "@" ++ showp p ++ " " in
    if e : bool then ret w0 else let! a := iter p in let! g := fuel in let! w := iter_dbg "" (node_dbg_stack show showp D') g a in ret (w0 ++ "( " ++ w ++ ")")
  end.
End model.
