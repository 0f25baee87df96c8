(** CmpSpec.v — equality, order, hash stream and printed form of rose trees. *)
From Coq Require Import Ascii String.
From stdpp Require Import base list.
From Verif Require Import Spec.

Section spec.
Context {A : Type}.

(** same shape and pairwise related data *)
Inductive tree_rel (R : A -> A -> Prop) : tree A -> tree A -> Prop :=
  | tree_rel_intro a b ts us : R a b -> Forall2 (tree_rel R) ts us -> tree_rel R (Tr a ts) (Tr b us).

(** lexicographic comparison of lists *)
Definition lex {X : Type} (cmp : X -> X -> comparison) : list X -> list X -> comparison :=
  fix lex (l l' : list X) : comparison :=
  match l, l' with
  | [], [] => Eq
  | [], _ :: _ => Lt
  | _ :: _, [] => Gt
  | x :: l, y :: l' => match cmp x y with Eq => lex l l' | o => o end
  end.
(** data first, then the children lexicographically *)
Fixpoint tree_cmp (cmp : A -> A -> comparison) (t u : tree A) : comparison :=
  match t, u with
  | Tr a ts, Tr b us => match cmp a b with Eq => lex (tree_cmp cmp) ts us | o => o end
  end.

(** the same for partial orders: [None] is "incomparable" *)
Definition plex {X : Type} (cmp : X -> X -> option comparison) : list X -> list X -> option comparison :=
  fix plex (l l' : list X) : option comparison :=
  match l, l' with
  | [], [] => Some Eq
  | [], _ :: _ => Some Lt
  | _ :: _, [] => Some Gt
  | x :: l, y :: l' => match cmp x y with Some Eq => plex l l' | o => o end
  end.
Fixpoint tree_pcmp (cmp : A -> A -> option comparison) (t u : tree A) : option comparison :=
  match t, u with
  | Tr a ts, Tr b us => match cmp a b with Some Eq => plex (tree_pcmp cmp) ts us | o => o end
  end.

(** laws *)
Record total_order {X} (cmp : X -> X -> comparison) : Prop := {
  to_refl : forall x, cmp x x = Eq;
  to_sym : forall x y, cmp y x = CompOpp (cmp x y);
  to_trans : forall x y z o, cmp x y = o -> cmp y z = o -> cmp x z = o;
  to_eq_l : forall x y z, cmp x y = Eq -> cmp x z = cmp y z }.

Local Open Scope string_scope.
(** a( b c( d ) ) : the data, and if there are children, "( ", every child followed by a blank, and ")" *)
Fixpoint display (show : A -> string) (t : tree A) : string :=
  match t with
  | Tr a [] => show a
  | Tr a ts => show a ++ "( " ++ fold_right (fun k w => display show k ++ " " ++ w) "" ts ++ ")"
  end.
Definition display_f (show : A -> string) (ts : list (tree A)) : string :=
  match ts with
  | [] => "()"
  | _ => "( " ++ fold_right (fun k w => display show k ++ " " ++ w) "" ts ++ ")"
  end.
(** words: not empty, no blank, no parenthesis *)
Fixpoint chars (w : string) : list ascii := match w with EmptyString => [] | String c w' => c :: chars w' end.
Definition word (w : string) : Prop := w <> "" /\ forall c, c ∈ chars w -> c <> " "%char /\ c <> "("%char /\ c <> ")"%char.

End spec.
