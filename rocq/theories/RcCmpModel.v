(** RcCmpModel.v — ==, !=, <, hashing and printing of [RcNode] (rc.rs:519-521, the macros of macros.rs:93-176 with [iter_rc] and
    [data().deref()]).  No proofs.
    The operations of the data type are parameters.  The [Ref]s of the nodes being compared live until the comparison is done; since only
    shared borrows are taken meanwhile they make no difference and are not counted.  The handles [IterRc] yields are dropped after use. *)
From Coq Require Import Ascii String.
From stdpp Require Import base gmap list.
From Verif Require Import Machine NodeModel RcModel.

Section model.
Context {A : Type}.
Implicit Types (r : rnode) (a b : citer) (f g : nat) (B : borrows).

(** [core::iter::traits::iterator::iter_compare], with which [Iterator::eq], [partial_cmp] and [cmp] are defined: [fn x y] is [None] to go on
    and [Some] to stop.  [x] and [y] are passed by value. *)
Fixpoint iter_compare {O} B (fn : rnode -> rnode -> M A (option O)) g a b : M A (O + comparison) :=
  match g with
  | 0 => fail EFuel
  | S g' =>
    let! u := rc_iter_next a in
    let! v := rc_iter_next b in
    match u.1, v.1 with
    | None, None => ret (inr Eq)
    | None, Some y => rc_drop_handle B y ;; ret (inr Lt)
    | Some x, None => rc_drop_handle B x ;; ret (inr Gt)
    | Some x, Some y =>
      let! o := fn x y in
      rc_drop_handle B y ;; rc_drop_handle B x ;;
      match o with None => iter_compare B fn g' u.2 v.2 | Some w => ret (inl w) end
    end
  end.

(** macros.rs:134 [eq]; [g] bounds the length, [f] the depth of the recursion *)
Fixpoint rc_eq_ (eqA : A -> A -> bool) B g f r r' : M A bool :=
  match f with
  | 0 => fail EFuel
  | S f' =>
    let! x := rc_data B r in
    let! y := rc_data B r' in
    if eqA x y then
      let! a := rc_iter B r in
      let! b := rc_iter B r' in
      let! c := iter_compare B (fun x y => let! e := rc_eq_ eqA B g f' x y in ret (if e : bool then None else Some tt)) g a b in
      ret (match c with inr Eq => true | _ => false end)
    else ret false
  end.
Definition rc_eq eqA B r r' : M A bool := let! f := fuel in rc_eq_ eqA B f f r r'.
(** macros.rs:135 [ne]; [Iterator::ne] is the negation of [Iterator::eq] *)
Definition rc_ne (eqA neA : A -> A -> bool) B r r' : M A bool :=
  let! x := rc_data B r in
  let! y := rc_data B r' in
  if neA x y then ret true
  else
    let! f := fuel in
    let! a := rc_iter B r in
    let! b := rc_iter B r' in
    let! c := iter_compare B (fun x y => let! e := rc_eq_ eqA B f f x y in ret (if e : bool then None else Some tt)) f a b in
    ret (match c with inr Eq => false | _ => true end).

(** macros.rs:141-150 [partial_cmp] *)
Fixpoint rc_pcmp_ (pcmpA : A -> A -> option comparison) B g f r r' : M A (option comparison) :=
  match f with
  | 0 => fail EFuel
  | S f' =>
    let! x := rc_data B r in
    let! y := rc_data B r' in
    match pcmpA x y with
    | None => ret None
    | Some Lt => ret (Some Lt)
    | Some Gt => ret (Some Gt)
    | Some Eq =>
      let! a := rc_iter B r in
      let! b := rc_iter B r' in
      let! c := iter_compare B (fun x y => let! o := rc_pcmp_ pcmpA B g f' x y in ret (match o with Some Eq => None | _ => Some o end)) g a b in
      ret (match c with inr o => Some o | inl o => o end)
    end
  end.
Definition rc_pcmp pcmpA B r r' : M A (option comparison) := let! f := fuel in rc_pcmp_ pcmpA B f f r r'.

(** macros.rs:154-160 [cmp] *)
Fixpoint rc_cmp_ (cmpA : A -> A -> comparison) B g f r r' : M A comparison :=
  match f with
  | 0 => fail EFuel
  | S f' =>
    let! x := rc_data B r in
    let! y := rc_data B r' in
    match cmpA x y with
    | Lt => ret Lt
    | Gt => ret Gt
    | Eq =>
      let! a := rc_iter B r in
      let! b := rc_iter B r' in
      let! c := iter_compare B (fun x y => let! o := rc_cmp_ cmpA B g f' x y in ret (match o with Eq => None | _ => Some o end)) g a b in
      ret (match c with inr o => o | inl o => o end)
    end
  end.
Definition rc_cmp cmpA B r r' : M A comparison := let! f := fuel in rc_cmp_ cmpA B f f r r'.

(** [for child in self.iter_rc() { .. }]: the handle is dropped at the end of the round *)
Fixpoint rc_for {X} B (fn : rnode -> M A X) g a : M A (list X) :=
  match g with
  | 0 => fail EFuel
  | S g' =>
    let! u := rc_iter_next a in
    match u.1 with
    | None => ret []
    | Some x => let! w := fn x in rc_drop_handle B x ;; let! l := rc_for B fn g' u.2 in ret (w :: l)
    end
  end.

(** macros.rs:168-173 [hash]: what is written to the [Hasher], given what [T::hash] writes *)
Fixpoint rc_hash_ {H} (hashA : A -> list H) B g f r : M A (list H) :=
  match f with
  | 0 => fail EFuel
  | S f' =>
    let! x := rc_data B r in
    let! a := rc_iter B r in
    let! l := rc_for B (rc_hash_ hashA B g f') g a in
    ret (hashA x ++ concat l)%list
  end.
Definition rc_hash {H} (hashA : A -> list H) B r : M A (list H) := let! f := fuel in rc_hash_ hashA B f f r.

(** macros.rs:115-126 [Display]: the characters written, given what [T]'s [Display] writes *)
Local Open Scope string_scope.
Fixpoint rc_fmt_ (show : A -> string) B g f r : M A string :=
  match f with
  | 0 => fail EFuel
  | S f' =>
    let! e := rc_has_no_child B r in
    if e : bool then let! x := rc_data B r in ret (show x)
    else
      let! x := rc_data B r in
      let! a := rc_iter B r in
      let! l := rc_for B (rc_fmt_ show B g f') g a in
      ret (show x ++ "( " ++ fold_right (fun w w' => w ++ " " ++ w') "" l ++ ")")
  end.
Definition rc_fmt show B r : M A string := let! f := fuel in rc_fmt_ show B f f r.

End model.
