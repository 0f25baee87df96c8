(** PropNotation.v — property theorem about the operator notation.
    [nlet c x e] runs the statement [let x = e;] of the modelled code; [nval e env] is the value of the expression on rose
    trees together with the variables that remain (NotationSpec.v): bare variables are used up, borrowed ones stay. *)
From stdpp Require Import base gmap list.
From Verif Require Import Spec ClientSpec Machine NodeModel ClientModel ClientRead NotationSpec NotationModel NotationProofs Reach Demo.

Theorem C34_notation {A : Type} (c : cst A) (env : gmap nat (item A)) (x : nat) (e : nexpr A) (v : item A) (env' : gmap nat (item A)) :
  reachable c -> contents c env -> nval e env = Some (v, env') -> env' !! x = None ->
  exists c', nlet c x e = Done RUnit c' /\ reachable c' /\ contents c' (<[x := v]> env') /\ m_log (c_mem c') = m_log (c_mem c).
Proof. exact (nlet_ok c env x e v env'). Qed.
Print Assumptions C34_notation.

(** the single operators on variables: [&l - &r], [l / &r], ...: the borrowed flags only decide what is left *)
Theorem C34_operators {A : Type} (env : gmap nat (item A)) (l r : nat) (bl br : bool) (i j : item A) :
  l <> r -> env !! l = Some i -> env !! r = Some j ->
  let o (b : bool) (x : nat) : nopnd A := if b then NRef x else NOwn (NVar x) in
  let left := (if br then id else delete r) ((if bl then id else delete l) env) in
  nval (NNeg (o bl l)) env = match i with ITree t => Some (IForest [t], (if bl then id else delete l) env) | IForest _ => None end /\
  nval (NUnit (o bl l)) env = match i with ITree t => Some (ITree t, (if bl then id else delete l) env) | IForest _ => None end /\
  nval (NSub (o bl l) (o br r)) env =
    match i, j with
    | ITree t, ITree u => Some (IForest [t; u], left)
    | IForest ts, ITree u => Some (IForest (ts ++ [u]), left)
    | IForest ts, IForest us => Some (IForest (ts ++ us), left)
    | ITree _, IForest _ => None
    end /\
  nval (NDiv (o bl l) (o br r)) env =
    match i, j with
    | ITree (Tr a ts), ITree u => Some (ITree (Tr a (ts ++ [u])), left)
    | ITree (Tr a ts), IForest us => Some (ITree (Tr a (ts ++ us)), left)
    | IForest _, _ => None
    end.
Proof. exact (operators_val env l r bl br i j). Qed.
Print Assumptions C34_operators.

(** let x3 = &x0 / ( tr(10) / ( &x2 - x1 ) ) *)
Definition demo_expr : nexpr nat := NDiv (NRef 0) (NOwn (NDiv (NOwn (NTr 10)) (NOwn (NSub (NRef 2) (NOwn (NVar 1)))))).
Definition demo_expr_val : tree nat := Tr 0 [Tr 1 [Tr 2 []; Tr 3 []]; Tr 4 []; Tr 10 [Tr 7 [Tr 8 []]; Tr 6 []; Tr 9 []]].
Example C34_ex : reachable demo_c /\ contents demo_c demo_env /\
  match nval demo_expr demo_env with
  | Some (v, env') => v = ITree demo_expr_val /\ env' !! 3 = None /\ env' !! 1 = None /\ env' !! 0 = Some (ITree demo_tree) | None => False end /\
  match nlet demo_c 3 demo_expr with
  | Done _ c => result c (read_item (default (HT (0,0)) (c_env c !! 3))) = Some (ITree demo_expr_val) /\
                result c (read_item (default (HT (0,0)) (c_env c !! 2))) = Some (IForest demo_forest)
  | Fails _ => False end.
Proof. split; [exact (proj1 demo_ok)|]. split; [exact (proj2 demo_ok)|]. vm_compute. auto. Qed.
