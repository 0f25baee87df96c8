(** WalkModel.v — walk.rs: the depth-first cursors [TreeWalk] and [ForestWalk].  No proofs. *)
From stdpp Require Import base gmap list.
From Verif Require Import Machine NodeModel ClientModel.

(** walk.rs:9-13 [Visit], walk.rs:28 [VisitType] without [None] *)
Inductive vkind : Type := VBegin | VEnd | VLeaf.
(** walk.rs:44-48 *)
Inductive direction : Type := DUp | DDown | DRight.

(** walk.rs:31-34 [Nodes] *)
Record wnodes : Type := WN { wn_node : option ptr; wn_sentinel : option ptr }.

(** walk.rs:51-56 [Walk]; [w_path] is the [Vec], its last element is the top of the stack; [w_vt = None] is [VisitType::None] *)
Record walk : Type := Walk { w_path : list wnodes; w_dir : direction; w_vt : option vkind; w_origin : option ptr }.

Section model.
Context {A : Type}.
Implicit Types (w : walk).

(** walk.rs:38 [Nodes::this] *)
Definition nodes_this (o : option ptr) : M A wnodes :=
  match o with
  | Some p => let! n := get p in ret (WN (Some p) (n_next n))
  | None => ret (WN None None)
  end.
(** walk.rs:41 [Nodes::sibs] *)
Definition nodes_sibs (o : option ptr) : wnodes := WN o None.

(** walk.rs:252-256 [Walk::default] *)
Definition walk_default : walk := Walk [] DDown None None.
(** walk.rs:59-63 [reset] *)
Definition w_reset w : walk := Walk [] DDown None (w_origin w).
(** Leaf or Begin, as in walk.rs:69-73, 148, 158-163, 221-226, 243 *)
Definition enter_kind (o : option ptr) : M A vkind :=
  let! p := unwrap o in
  let! b := has_no_child p in
  ret (if b then VLeaf else VBegin).
(** walk.rs:65-78 [init_visit] *)
Definition w_init_visit w : M A walk :=
  match last (w_path w) with
  | Some ns => let! k := enter_kind (wn_node ns) in ret (Walk (w_path w) (w_dir w) (Some k) (w_origin w))
  | None => ret (Walk (w_path w) (w_dir w) None (w_origin w))
  end.
(** walk.rs:80-85 [on_node] *)
Definition w_on_node (o : option ptr) w : M A walk :=
  let w1 := w_reset w in
  let! ns := nodes_this o in
  let! w2 := w_init_visit (Walk (w_path w1 ++ [ns]) (w_dir w1) (w_vt w1) (w_origin w1)) in
  ret (Walk (w_path w2) (w_dir w2) (w_vt w2) o).
(** walk.rs:87-92 [on_forest] *)
Definition w_on_forest (o : option ptr) w : M A walk :=
  let w1 := w_reset w in
  let! w2 := w_init_visit (Walk (w_path w1 ++ [nodes_sibs o]) (w_dir w1) (w_vt w1) (w_origin w1)) in
  ret (Walk (w_path w2) (w_dir w2) (w_vt w2) o).

(** walk.rs:94-103 [revisit] *)
Definition w_revisit w : M A walk :=
  match w_origin w with
  | Some _ =>
    let path := match w_vt w with None => w_path w ++ [nodes_sibs (w_origin w)] | Some _ => w_path w end in
    w_init_visit (Walk path DDown (w_vt w) (w_origin w))
  | None => ret w
  end.

(** walk.rs:106-117 [get] *)
Definition w_get w : M A (option (vkind * ptr)) :=
  match last (w_path w) with
  | Some ns =>
    match w_vt w with
    | Some k => let! p := unwrap (wn_node ns) in ret (Some (k, p))
    | None => ret None
    end
  | None => ret None
  end.

(** the last element of the stack replaced *)
Definition set_last (ns : wnodes) (l : list wnodes) : list wnodes := removelast l ++ [ns].

(** walk.rs:120-171 [forward]: the loop, [f] bounds the number of iterations *)
Fixpoint w_forward_loop (f : nat) w : M A walk :=
  match f with
  | 0 => fail EFuel
  | S f' =>
    match w_dir w with
    | DUp =>
      let path := removelast (w_path w) in
      match last path with
      | Some _ => ret (Walk path DRight (Some VEnd) (w_origin w))
      | None => ret (Walk path DDown None (w_origin w))
      end
    | DDown =>
      match last (w_path w) with
      | Some ns =>
        let! p := unwrap (wn_node ns) in
        let! n := get p in
        let! b := has_no_child p in
        if b then w_forward_loop f' (Walk (w_path w) DRight (w_vt w) (w_origin w))
        else
          let! k := enter_kind (n_head n) in
          ret (Walk (w_path w ++ [nodes_sibs (n_head n)]) DDown (Some k) (w_origin w))
      | None => ret w
      end
    | DRight =>
      match last (w_path w) with
      | Some ns =>
        let! p := unwrap (wn_node ns) in
        let! n := get p in
        let path := set_last (WN (n_next n) (wn_sentinel ns)) (w_path w) in
        if decide (n_next n = wn_sentinel ns) then w_forward_loop f' (Walk path DUp (w_vt w) (w_origin w))
        else
          let! k := enter_kind (n_next n) in
          ret (Walk path (match k with VLeaf => DRight | _ => DDown end) (Some k) (w_origin w))
      | None => w_forward_loop f' w
      end
    end
  end.
(** The model allows three iterations: going on longer counts as failure, so the theorems show that three are enough. *)
Definition w_forward w : M A walk := w_forward_loop 3 w.

(** walk.rs:176-179 [next] *)
Definition w_next w : M A (option (vkind * ptr) * walk) :=
  let! w' := w_forward w in let! v := w_get w' in ret (v, w').

(** walk.rs:182-194 [to_parent] *)
Definition w_to_parent w : M A (option (vkind * ptr) * walk) :=
  match last (w_path w) with
  | Some _ =>
    let path := removelast (w_path w) in
    match last path with
    | Some _ => let w' := Walk path DRight (Some VEnd) (w_origin w) in let! v := w_get w' in ret (v, w')
    | None => ret (None, Walk path DDown None (w_origin w))
    end
  | None => ret (None, Walk (w_path w) DDown None (w_origin w))
  end.

(** walk.rs:197-203 [get_parent] *)
Definition w_get_parent w : M A (option ptr) :=
  if decide (2 <= length (w_path w)) then
    match w_path w !! (length (w_path w) - 2) with
    | Some ns => let! p := unwrap (wn_node ns) in ret (Some p)
    | None => ret None
    end
  else ret None.

(** walk.rs:209-215: the [for _ in 0..n] loop of [to_sib] on the top of the stack; [false]: the sentinel was reached *)
Fixpoint sib_loop (n : nat) (ns : wnodes) : M A (bool * wnodes) :=
  match n with
  | 0 => ret (true, ns)
  | S n' =>
    let! p := unwrap (wn_node ns) in
    let! nd := get p in
    let ns' := WN (n_next nd) (wn_sentinel ns) in
    if decide (n_next nd = wn_sentinel ns) then ret (false, ns') else sib_loop n' ns'
  end.
(** walk.rs:207-226 [to_sib] *)
Definition w_to_sib (n : nat) w : M A (option (vkind * ptr) * walk) :=
  match last (w_path w) with
  | Some ns =>
    let! r := sib_loop n ns in
    let path := set_last r.2 (w_path w) in
    if r.1 then
      let! k := enter_kind (wn_node r.2) in
      let w' := Walk path (match k with VLeaf => w_dir w | _ => DDown end) (Some k) (w_origin w) in
      let! v := w_get w' in ret (v, w')
    else ret (None, Walk path DUp (w_vt w) (w_origin w))
  | None => ret (None, w)
  end.
(** walk.rs:230-250 [to_child] *)
Definition w_to_child (n : nat) w : M A (option (vkind * ptr) * walk) :=
  match last (w_path w) with
  | Some ns =>
    let! p := unwrap (wn_node ns) in
    let! b := has_no_child p in
    if b then ret (None, Walk (w_path w) DRight (w_vt w) (w_origin w))
    else
      let! nd := get p in
      let! k := enter_kind (n_head nd) in
      w_to_sib n (Walk (w_path w ++ [nodes_sibs (n_head nd)]) (w_dir w) (Some k) (w_origin w))
  | None => ret (None, w)
  end.

(** walk.rs:439-445 [From<Tree> for TreeWalk], walk.rs:625-633 [From<Forest> for ForestWalk]; the cursor *)
Definition walk_from (hd : handle) : M A walk :=
  match hd with
  | HT p => w_on_node (Some p) walk_default
  | HF p =>
    let! b := has_no_child p in
    if b then ret walk_default else let! o := front p in w_on_forest o walk_default
  end.

(** the operations of [TreeWalk]/[ForestWalk] (walk.rs:265-436, 464-622) *)
Inductive wop : Type := WGet | WForward | WNext | WToParent | WGetParent | WToChild (n : nat) | WToSib (n : nat) | WRevisit.
(** what a call returns; [V], [N]: how a visit, a node are told *)
Inductive wout (V N : Type) : Type := WVisit (o : option V) | WNode (o : option N) | WUnit.
Global Arguments WVisit {V N} o.
Global Arguments WNode {V N} o.
Global Arguments WUnit {V N}.

(** each method hands the call on to the [Walk]: walk.rs:275 [TreeWalk::get], 310 [forward], 329 [next], 344 [to_parent], 360 [get_parent], 375 [to_child],
    390 [to_sib], 436 [revisit], and walk.rs:474 [ForestWalk::get], 506 [forward], 523 [next], 538 [to_parent], 554 [get_parent], 569 [to_child], 584 [to_sib],
    622 [revisit] *)
Definition w_step w (o : wop) : M A (wout (vkind * ptr) ptr * walk) :=
  match o with
  | WGet => let! v := w_get w in ret (WVisit v, w)
  | WForward => let! w' := w_forward w in ret (WUnit, w')
  | WNext => let! r := w_next w in ret (WVisit r.1, r.2)
  | WToParent => let! r := w_to_parent w in ret (WVisit r.1, r.2)
  | WGetParent => let! r := w_get_parent w in ret (WNode r, w)
  | WToChild n => let! r := w_to_child n w in ret (WVisit r.1, r.2)
  | WToSib n => let! r := w_to_sib n w in ret (WVisit r.1, r.2)
  | WRevisit => let! w' := w_revisit w in ret (WUnit, w')
  end.
Fixpoint w_run w (os : list wop) : M A (list (wout (vkind * ptr) ptr) * walk) :=
  match os with
  | [] => ret ([], w)
  | o :: os' => let! r := w_step w o in let! r' := w_run r.2 os' in ret (r.1 :: r'.1, r'.2)
  end.
(** walk.rs:258-262 [TreeWalk], walk.rs:454-458 [ForestWalk] *)
Record twalk : Type := TWalk { tw_tree : handle; tw_walk : walk }.
Definition twalk_from (hd : handle) : M A twalk := let! w := walk_from hd in ret (TWalk hd w).
(** walk.rs:447-451, 635-639 *)
Definition twalk_into (tw : twalk) : handle := tw_tree tw.
(** a tree or forest turned into a walk, used, and turned back *)
Definition walk_session (hd : handle) (os : list wop) : M A (list (wout (vkind * ptr) ptr) * handle) :=
  let! tw := twalk_from hd in
  let! r := w_run (tw_walk tw) os in
  ret (r.1, twalk_into (TWalk (tw_tree tw) r.2)).
(** a walk from its beginning *)
Definition walk_run (hd : handle) (os : list wop) : M A (list (wout (vkind * ptr) ptr)) :=
  let! w := walk_from hd in let! r := w_run w os in ret r.1.
End model.
