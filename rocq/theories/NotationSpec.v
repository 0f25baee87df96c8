(** NotationSpec.v — what expressions built with the operators [-] and [/] mean, on immutable rose trees.
    An operand is an expression or a borrowed variable [&x].  A bare variable in an expression is moved. *)
From stdpp Require Import base gmap list.
From Verif Require Import Spec ClientSpec.

Section nspec.
Context {A : Type}.

Inductive nexpr : Type :=
  | NTr (a : A)                      (* tr(a) *)
  | NFr                              (* fr() *)
  | NVar (x : nat)                   (* x, moved *)
  | NNeg (o : nopnd)                 (* - o *)
  | NSub (l r : nopnd)               (* l - r *)
  | NDiv (l r : nopnd)               (* l / r *)
  | NUnit (o : nopnd)                (* o / () *)
with nopnd : Type :=
  | NOwn (e : nexpr)                 (* an expression, consumed by the operator *)
  | NRef (x : nat).                  (* &x *)

(** [- t] is the forest of the one tree [t]; [l - r] is the sequence of the trees of [l] followed by those of [r];
    [t / r] is the tree [t] with the trees of [r] added behind its children; [t / ()] is [t] *)
Definition neg_val (i : item A) : option (item A) := match i with ITree t => Some (IForest [t]) | IForest _ => None end.
Definition sub_val (i j : item A) : option (item A) :=
  match i, j with
  | ITree _, IForest _ => None                     (* there is no [Tree - Forest] *)
  | _, _ => Some (IForest (trees_of i ++ trees_of j))
  end.
Definition div_val (i j : item A) : option (item A) :=
  match i with ITree (Tr a ts) => Some (ITree (Tr a (ts ++ trees_of j))) | IForest _ => None end.
Definition unit_val (i : item A) : option (item A) := match i with ITree t => Some i | IForest _ => None end.

(** an operand that has been evaluated: a value, or a variable that is borrowed; a borrowed variable must still be there
    when the operator is applied *)
Definition worth (w : item A + nat) (env : gmap nat (item A)) : option (item A) :=
  match w with inl i => Some i | inr x => env !! x end.
Definition val1 (f : item A -> option (item A)) (w : item A + nat) (env : gmap nat (item A)) : option (item A * gmap nat (item A)) :=
  match worth w env with
  | Some i => match f i with Some v => Some (v, env) | None => None end
  | None => None
  end.
Definition val2 (f : item A -> item A -> option (item A)) (w u : item A + nat) (env : gmap nat (item A)) : option (item A * gmap nat (item A)) :=
  match worth w env, worth u env with
  | Some i, Some j => match f i j with Some v => Some (v, env) | None => None end
  | _, _ => None
  end.

(** the value of an expression and the variables that are left: variables named bare are used up, borrowed ones stay.
    [None]: not a program. *)
Fixpoint nval (e : nexpr) (env : gmap nat (item A)) : option (item A * gmap nat (item A)) :=
  match e with
  | NTr a => Some (ITree (Tr a []), env)
  | NFr => Some (IForest [], env)
  | NVar x => match env !! x with Some i => Some (i, delete x env) | None => None end
  | NNeg o => match oval o env with Some (w, env1) => val1 neg_val w env1 | None => None end
  | NUnit o => match oval o env with Some (w, env1) => val1 unit_val w env1 | None => None end
  | NSub l r =>
    match oval l env with
    | Some (w, env1) => match oval r env1 with Some (u, env2) => val2 sub_val w u env2 | None => None end
    | None => None
    end
  | NDiv l r =>
    match oval l env with
    | Some (w, env1) => match oval r env1 with Some (u, env2) => val2 div_val w u env2 | None => None end
    | None => None
    end
  end
with oval (o : nopnd) (env : gmap nat (item A)) : option ((item A + nat) * gmap nat (item A)) :=
  match o with
  | NOwn e => match nval e env with Some (i, env') => Some (inl i, env') | None => None end
  | NRef x => match env !! x with Some _ => Some (inr x, env) | None => None end
  end.
End nspec.
Arguments nexpr : clear implicits.
Arguments nopnd : clear implicits.
