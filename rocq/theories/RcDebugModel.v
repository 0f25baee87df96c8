(** RcDebugModel.v — [Debug] of [RcNode].  No proofs. *)
From Coq Require Import Ascii String.
From stdpp Require Import base gmap list.
From Verif Require Import Spec ClientSpec Machine NodeModel RcModel RcCmpModel.

(** what is printed: the value of each node, [@] and the text [slot path] for the node reached by [path] (child numbers), then the children in parentheses *)
Fixpoint debug_at {A} (show : A -> string) (slot : list nat -> string) (path : list nat) (t : tree A) : string :=
  match t with Tr a ts =>
    (show a ++ "@" ++ slot path ++ " " ++
      match ts with
      | [] => ""
      | _ => "( " ++ (fix go n ts := match ts with [] => "" | k :: ts => debug_at show slot (path ++ [n]) k ++ go (S n) ts end) 0 ts ++ ")"
      end)%string
  end.

Section model.
Context {A : Type}.
(** [slot path]: the address, as printed by [{:?}], of the [RcNode] variable that is printed: of the client's variable for the empty path, of the loop's variable
    [child] on the stack in the calls for the children.  It is the address of a handle, not of the node; nothing is assumed about it. *)
Context (show : A -> string) (slot : list nat -> string).
Local Open Scope string_scope.

(** [for child in self.iter_rc() { child.fmt(f)?; }], the rounds counted from [n] *)
Fixpoint rc_for_i {X} B (fn : nat -> rnode -> M A X) g n a : M A (list X) :=
  match g with
  | 0 => fail EFuel
  | S g' =>
    let! u := rc_iter_next a in
    match u.1 with
    | None => ret []
    | Some x => let! w := fn n x in rc_drop_handle B x ;; let! l := rc_for_i B fn g' (S n) u.2 in ret (w :: l)
    end
  end.
(** macros.rs:97-112 [Debug for RcNode] (rc.rs:519) *)
Fixpoint rc_dbg_ B g f (path : list nat) (r : rnode) : M A string :=
  match f with
  | 0 => fail EFuel
  | S f' =>
    let! e := rc_has_no_child B r in
    let! x := rc_data B r in
    let w0 := show x ++ "@" ++ slot path ++ " " in
    if e : bool then ret w0
    else
      let! a := rc_iter B r in
      let! l := rc_for_i B (fun n => rc_dbg_ B g f' (path ++ [n])%list) g 0 a in
      ret (w0 ++ "( " ++ fold_right String.append "" l ++ ")")
  end.
Definition rc_dbg B r : M A string := let! f := fuel in rc_dbg_ B f f [] r.
End model.
