(** WalkSpec.v — the depth-first cursor on a list of rose trees. *)
From stdpp Require Import base gmap list.
From Verif Require Import Spec ClientSpec Machine NodeModel ClientModel Reach WalkModel.

Section spec.
Context {A : Type}.
Implicit Types (fs ts : list (tree A)) (t : tree A) (p : list nat).

(** a visit: what kind, the path of the node, the node with all below it *)
Definition svisit : Type := vkind * list nat * tree A.

(** the children of the node at [p] ([]: the top level) *)
Fixpoint sibs fs p : option (list (tree A)) :=
  match p with
  | [] => Some fs
  | i :: p' => match fs !! i with Some t => sibs (kids t) p' | None => None end
  end.

(** the depth-first traversal: a leaf is visited once, a branch before and after its children *)
Fixpoint dfs p t : list svisit :=
  match t with
  | Tr a [] => [(VLeaf, p, t)]
  | Tr a ts =>
    (VBegin, p, t) ::
    (fix go (i : nat) (ts : list (tree A)) : list svisit :=
       match ts with [] => [] | k :: ts' => dfs (p ++ [i]) k ++ go (S i) ts' end) 0 ts ++
    [(VEnd, p, t)]
  end.
(** of consecutive siblings below [p], starting at index [i] *)
Definition dfss p : nat -> list (tree A) -> list svisit :=
  fix go (i : nat) (ts : list (tree A)) : list svisit :=
    match ts with [] => [] | k :: ts' => dfs (p ++ [i]) k ++ go (S i) ts' end.

(** the kinds of visits a node gets: a leaf one Leaf visit, a branch Begin and End *)
Definition kind_ok (y : tree A) (k : vkind) : Prop := match kids y with [] => k = VLeaf | _ => k <> VLeaf end.
(** the first visit of a node *)
Definition first_visit (y : tree A) : vkind := match kids y with [] => VLeaf | _ => VBegin end.

(** where the cursor is.  [At p i b]: on the [i]-th child of [p], before ([true]) or after ([false]) its children;
    [Off p]: beyond the last child of [p], after [to_sib]/[to_child] with a number too big; [Over]: the traversal is completed *)
Inductive cursor : Type := At (p : list nat) (i : nat) (b : bool) | Off (p : list nat) | Over.

Definition kind_of t (b : bool) : vkind := if b then match kids t with [] => VLeaf | _ => VBegin end else VEnd.
Definition c_show fs (c : cursor) : option svisit :=
  match c with
  | At p i b => match sibs fs p with
                | Some ts => match ts !! i with Some t => Some (kind_of t b, p ++ [i], t) | None => None end
                | None => None
                end
  | _ => None
  end.
(** up to the node at [p]: its End visit *)
Definition c_up p : cursor := match split_last p with Some (p', j) => At p' j false | None => Over end.
Definition c_right fs p (i : nat) : cursor :=
  match sibs fs p with Some ts => if decide (S i < length ts) then At p (S i) true else c_up p | None => Over end.
Definition c_forward fs (c : cursor) : cursor :=
  match c with
  | At p i true => match sibs fs (p ++ [i]) with Some (_ :: _) => At (p ++ [i]) 0 true | _ => c_right fs p i end
  | At p i false => c_right fs p i
  | Off p => c_up p
  | Over => Over
  end.
Definition c_parent (c : cursor) : cursor := match c with At p _ _ | Off p => c_up p | Over => Over end.
(** the [i]-th child of [p], if there is one *)
Definition c_goto fs p (i : nat) : cursor :=
  match sibs fs p with Some ts => if decide (i < length ts) then At p i true else Off p | None => Over end.

Definition snode : Type := list nat * tree A.
Definition c_node fs (c : cursor) : option snode := match c_show fs c with Some (_, p, t) => Some (p, t) | None => None end.

(** one operation; [None]: it panics *)
Definition c_step fs (c : cursor) (o : wop) : option (wout svisit snode * cursor) :=
  match o with
  | WGet => match c with Off _ => None | _ => Some (WVisit (c_show fs c), c) end
  | WForward => Some (WUnit, c_forward fs c)
  | WNext => Some (WVisit (c_show fs (c_forward fs c)), c_forward fs c)
  | WToParent => Some (WVisit (c_show fs (c_parent c)), c_parent c)
  | WGetParent => Some (WNode (c_node fs (c_parent c)), c)
  | WToChild n =>
    match c with
    | At p i b =>
      match sibs fs (p ++ [i]) with
      | Some (_ :: _) => Some (WVisit (c_show fs (c_goto fs (p ++ [i]) n)), c_goto fs (p ++ [i]) n)
      | _ => Some (WVisit None, c)
      end
    | Off _ => None
    | Over => Some (WVisit None, Over)
    end
  | WToSib n =>
    match c with
    | At p i b => Some (WVisit (c_show fs (c_goto fs p (i + n))), c_goto fs p (i + n))
    | Off _ => None
    | Over => Some (WVisit None, Over)
    end
  | WRevisit =>
    match c with
    | At p i b => Some (WUnit, At p i true)
    | Off _ => None
    | Over => Some (WUnit, match fs with [] => Over | _ => At [] 0 true end)
    end
  end.
Fixpoint c_run fs (c : cursor) (os : list wop) : option (list (wout svisit snode) * cursor) :=
  match os with
  | [] => Some ([], c)
  | o :: os' =>
    match c_step fs c o with
    | Some (r, c') => match c_run fs c' os' with Some (rs, c'') => Some (r :: rs, c'') | None => None end
    | None => None
    end
  end.
Definition c_start fs : cursor := match fs with [] => Over | _ => At [] 0 true end.

(** the trees a walk goes over *)
Definition tops (it : item A) : list (tree A) := match it with ITree t => [t] | IForest ts => ts end.

(** paths as in ClientSpec.v: from the root of a tree, from the top level of a forest *)
Definition path_in (it : item A) p : list nat := match it with ITree _ => tail p | IForest _ => p end.
(** the address [q] is that of the node told by path and contents in the specification *)
Definition is_node (c : cst A) (hd : handle) (it : item A) (q : ptr) (n : snode) : Prop :=
  resolve (addr hd) (path_in it n.1) (c_mem c) = Ok (Some q) (c_mem c) /\ node_at it (path_in it n.1) = Some n.2.
Definition same_visit (c : cst A) (hd : handle) (it : item A) (v : vkind * ptr) (v' : svisit) : Prop :=
  v.1 = v'.1.1 /\ is_node c hd it v.2 (v'.1.2, v'.2).
Definition same_opt {X Y : Type} (R : X -> Y -> Prop) (o : option X) (o' : option Y) : Prop :=
  match o, o' with Some a, Some b => R a b | None, None => True | _, _ => False end.
Definition same_out (c : cst A) (hd : handle) (it : item A) (o : wout (vkind * ptr) ptr) (o' : wout svisit snode) : Prop :=
  match o, o' with
  | WVisit a, WVisit b => same_opt (same_visit c hd it) a b
  | WNode a, WNode b => same_opt (is_node c hd it) a b
  | WUnit, WUnit => True
  | _, _ => False
  end.
(** After the operations [os] with the results [rs] the walk stands at the visit [v] of the depth-first traversal:
    calls of [next] give what comes behind [v] in it, then None. *)
Definition continues (c : cst A) (hd : handle) (it : item A) (os : list wop) (rs : list (wout (vkind * ptr) ptr)) (v : svisit) : Prop :=
  exists pre post, dfss [] 0 (tops it) = pre ++ v :: post /\
    forall n, exists rs', Forall2 (same_out c hd it) rs' ((fun i => WVisit (post !! i)) <$> seq 0 n) /\
      returns c (walk_run hd (os ++ replicate n WNext)) (rs ++ rs').
(** the last of the calls of [to_child]/[to_sib] returned None and no [forward], [next], [to_parent] came behind it *)
Fixpoint astray (b : bool) (os : list wop) (rs : list (wout (vkind * ptr) ptr)) : bool :=
  match os, rs with
  | o :: os', r :: rs' =>
    astray (match o with
            | WToChild _ | WToSib _ => match r with WVisit None => true | _ => false end
            | WForward | WNext | WToParent => false
            | _ => b
            end) os' rs'
  | _, _ => b
  end.
(** the calls that look at the node the walk stands at *)
Definition looks_at_node (o : wop) : bool := match o with WGet | WToChild _ | WToSib _ | WRevisit => true | _ => false end.
(** the walk was led off the siblings: at a visit ([get] gave one) [to_sib] returned None, or at a visit of a branch [to_child] did; behind it only [get_parent] *)
Definition led_off (c : cst A) (hd : handle) (os : list wop) (rs : list (wout (vkind * ptr) ptr)) : Prop :=
  exists os1 o m rs1 k q, os = os1 ++ o :: replicate m WGetParent /\
    returns c (walk_run hd (os1 ++ [WGet])) (rs1 ++ [WVisit (Some (k, q))]) /\
    (exists n, o = WToSib n \/ o = WToChild n /\ k <> VLeaf) /\ rs !! length os1 = Some (WVisit None).
End spec.
