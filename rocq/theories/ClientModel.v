(** ClientModel.v — the client of the API running on the modelled code.  No proofs.
    A variable of type [Tree]/[Forest] holds the address of its root node (tree.rs:16-19, forest.rs:20-23). *)
From stdpp Require Import base gmap list.
From Verif Require Import Spec ClientSpec Machine NodeModel BfsModel.

Section client.
Context {A : Type}.

Inductive handle : Type := HT (p : ptr) | HF (p : ptr).
Definition addr (hd : handle) : ptr := match hd with HT p | HF p => p end.

Record cst : Type := CSt { c_env : gmap nat handle; c_mem : mem A }.
Definition cst0 : cst := CSt ∅ mem0.

(** reaching a node: [node.iter().nth(i)] / [iter_mut().nth(i)] for each index of the path *)
Fixpoint resolve (p : ptr) (path : list nat) : M A (option ptr) :=
  match path with
  | [] => ret (Some p)
  | i :: path' =>
    let! cs := children p in
    match cs !! i with Some c => resolve c path' | None => ret None end
  end.

Definition is_forest_root (hd : handle) (path : list nat) : bool :=
  match hd, path with HF _, [] => true | _, _ => false end.

(** [node.iter().map(|c| c.data()).collect()] *)
Fixpoint datas (ps : list ptr) : M A (list A) :=
  match ps with [] => ret [] | p :: ps' => let! a := data p in let! l := datas ps' in ret (a :: l) end.

Definition data_opt (o : option ptr) : M A (option A) :=
  match o with None => ret None | Some p => let! a := data p in ret (Some a) end.

(** run [k] on the node at [path] of the variable [h] *)
Definition with_node (env : gmap nat handle) (h : nat) (path : list nat)
    (k : handle -> ptr -> M A (out A * gmap nat handle)) : M A (out A * gmap nat handle) :=
  match env !! h with
  | Some hd => let! o := resolve (addr hd) path in
               match o with Some p => k hd p | None => ret (RBad, env) end
  | None => ret (RBad, env)
  end.

(** [it.by_ref().take(n).collect()] on an owning breadth-first iterator *)
Fixpoint take_visits (n : nat) (q : list ptr) : M A (list (A * nat * nat) * list ptr) :=
  match n with
  | 0 => ret ([], q)
  | S n' =>
    let! r := isp_next q in
    match r.1 with
    | None => ret ([], r.2)
    | Some v => let! l := take_visits n' r.2 in ret (v :: l.1, l.2)
    end
  end.

(** [for x in names { it.size_hint(); if let Some(x) = it.next() }] on an [IntoIter] *)
Fixpoint into_names (fr : ptr) (xs : list nat) (env : gmap nat handle) : M A (list nat * gmap nat handle) :=
  match xs with
  | [] => ret ([], env)
  | x :: xs' =>
    let! n := into_iter_size_hint fr in
    let! o := into_iter_next fr in
    let! r := into_names fr xs' (match o with Some q => <[x := HT q]> env | None => env end) in
    ret (n :: r.1, r.2)
  end.

(** the body of a [for c in node.iter_mut()] loop (iter.rs:141-149 [IterMut::next]); [cs]: the references yielded so far,
    [None] once consumed by [detach] *)
Definition each_act_c (h : nat) (cs : list (option ptr)) (a : act A) (env : gmap nat handle)
    : M A (gmap nat handle * list (option ptr)) :=
  match a with
  | AIns j e y =>
    match cs !! j, delete h env !! y with
    | Some (Some c), Some (HT q) =>
      (match e with Front => insert_prev_sib c q | Back => insert_next_sib c q end) ;; ret (delete y env, cs)
    | _, _ => ret (env, cs)
    end
  | AMod j f =>
    match cs !! j with
    | Some (Some c) => modify_data c f ;; ret (env, cs)
    | _ => ret (env, cs)
    end
  | APush j e y =>
    match cs !! j, delete h env !! y with
    | Some (Some c), Some (HT q) =>
      (match e with Front => push_front c q | Back => push_back c q end) ;; ret (delete y env, cs)
    | _, _ => ret (env, cs)
    end
  | ADetach j x =>
    match cs !! j, env !! x with
    | Some (Some c), None => let! q := detach c in ret (<[x := HT q]> env, <[j := None]> cs)
    | _, _ => ret (env, cs)
    end
  end.
Fixpoint each_acts_c (h : nat) (cs : list (option ptr)) (acts : list (act A)) (env : gmap nat handle)
    : M A (gmap nat handle * list (option ptr)) :=
  match acts with
  | [] => ret (env, cs)
  | a :: acts' => let! r := each_act_c h cs a env in each_acts_c h r.2 acts' r.1
  end.
Fixpoint each_loop (f h : nat) (it : citer) (cs : list (option ptr)) (acts : list (list (act A))) (env : gmap nat handle)
    : M A (list (nat * A) * (nat * bool) * gmap nat handle) :=
  match f with
  | 0 => fail EFuel
  | S f' =>
    let! r := ci_next it in
    match r.1 with
    | None => let! r' := ci_next r.2 in ret ([], (ci_size_hint r.2, match r'.1 with Some _ => true | None => false end), env)
    | Some c =>
      let! a := data c in
      let! r1 := each_acts_c h (cs ++ [Some c]) (default [] (head acts)) env in
      let! r2 := each_loop f' h r.2 r1.2 (tail acts) r1.1 in
      ret ((ci_size_hint it, a) :: r2.1.1, r2.1.2, r2.2)
    end
  end.

Definition cstep (env : gmap nat handle) (o : op A) : M A (out A * gmap nat handle) :=
  let bad := ret (RBad, env) in
  match o with
  | ONewTree x a =>
    match env !! x with None => let! p := tree_new a in ret (RUnit, <[x := HT p]> env) | _ => bad end
  | ONewForest x =>
    match env !! x with None => let! p := forest_new in ret (RUnit, <[x := HF p]> env) | _ => bad end
  | OPush e h path y =>
    match env !! y, delete y env !! h with
    | Some (HT q), Some hd =>
      let! o := resolve (addr hd) path in
      match o with
      | Some p => (match e with Front => push_front p q | Back => push_back p q end) ;; ret (RUnit, delete y env)
      | None => bad
      end
    | _, _ => bad
    end
  | OPop e h path x =>
    match env !! h, env !! x with
    | Some hd, None =>
      let! o := resolve (addr hd) path in
      match o with
      | Some p =>
        let! r := match e with Front => pop_front p | Back => pop_back p end in
        match r with Some q => ret (RBool true, <[x := HT q]> env) | None => ret (RBool false, env) end
      | None => bad
      end
    | _, _ => bad
    end
  | OConcat e h path y =>
    match env !! y, delete y env !! h with
    | Some (HF q), Some hd =>
      let! o := resolve (addr hd) path in
      match o with
      | Some p => (match e with Front => prepend p q | Back => append p q end) ;; ret (RUnit, delete y env)
      | None => bad
      end
    | _, _ => bad
    end
  | OInsert e h path y =>
    match env !! y, delete y env !! h with
    | Some (HT q), Some hd =>
      if is_forest_root hd path then bad else
      let! o := resolve (addr hd) path in
      match o with
      | Some p => (match e with Front => insert_prev_sib p q | Back => insert_next_sib p q end) ;; ret (RUnit, delete y env)
      | None => bad
      end
    | _, _ => bad
    end
  | ODetach h path x =>
    match env !! h, env !! x with
    | Some hd, None =>
      if is_forest_root hd path then bad else
      let! o := resolve (addr hd) path in
      match o with
      | Some p => let! q := detach p in ret (RUnit, <[x := HT q]> env)
      | None => bad
      end
    | _, _ => bad
    end
  | OAbandon h x =>
    match env !! h, env !! x with
    | Some (HT p), None => let! r := abandon p in ret (RUnit, <[x := HF r.1]> (<[h := HT r.2]> env))
    | _, _ => bad
    end
  | OModify h path f =>
    with_node env h path (fun hd p => if is_forest_root hd path then bad else modify_data p f ;; ret (RUnit, env))
  | ODrop h =>
    match env !! h with Some hd => drop_tree (addr hd) ;; ret (RUnit, delete h env) | None => bad end
  | OData h path =>
    with_node env h path (fun hd p => if is_forest_root hd path then bad else let! a := data p in ret (RVal a, env))
  | ODegree h path => with_node env h path (fun hd p => let! n := degree p in ret (RNat n, env))
  | OCount h path => with_node env h path (fun hd p => let! n := node_count p in ret (RNat n, env))
  | ONoChild h path => with_node env h path (fun hd p => let! b := has_no_child p in ret (RBool b, env))
  | OEnd e h path =>
    with_node env h path (fun hd p =>
      let! q := match e with Front => front p | Back => back p end in let! a := data_opt q in ret (ROpt a, env))
  | OIter h path =>
    with_node env h path (fun hd p => let! cs := children p in let! l := datas cs in ret (RVals l, env))
  | OParent h path =>
    with_node env h path (fun hd p => if is_forest_root hd path then bad else
      let! q := parent p in let! a := data_opt q in ret (ROpt a, env))
  | OClone h path x =>
    match env !! x with
    | None => with_node env h path (fun hd p => if is_forest_root hd path then bad else
        let! q := deep_clone p in ret (RUnit, <[x := HT q]> env))
    | _ => bad
    end
  | OCloneForest h path x =>
    match env !! x with
    | None => with_node env h path (fun hd p => let! q := deep_clone_forest p in ret (RUnit, <[x := HF q]> env))
    | _ => bad
    end
  | OBfs h path =>
    with_node env h path (fun hd p => if is_forest_root hd path then bad else
      let! l := bfs_visits p in ret (RVisits l, env))
  | OBfsChildren h path => with_node env h path (fun hd p => let! l := bfs_children_visits p in ret (RVisits l, env))
  | OBfsMut h path g =>
    with_node env h path (fun hd p => if is_forest_root hd path then bad else bfs_mut p g ;; ret (RUnit, env))
  | OBfsChildrenMut h path g => with_node env h path (fun hd p => bfs_children_mut p g ;; ret (RUnit, env))
  | OIntoBfs h n =>
    match env !! h with
    | Some hd =>
      let! b := match hd with HT p => tree_into_bfs p | HF p => forest_into_bfs p end in
      let! r := take_visits n b.1 in
      isp_drop r.2 ;;
      ret (RVisits r.1, delete h env)
    | None => bad
    end
  | OFromBfs h x =>
    match env !! h, env !! x with
    | Some (HT p), None =>
      let! b := tree_into_bfs p in let! q := tree_from_bfs isp_next b.1 in ret (RUnit, <[x := HT q]> (delete h env))
    | Some (HF p), None =>
      let! b := forest_into_bfs p in let! q := forest_from_bfs isp_next b.1 b.2.1 b.2.2 in
      ret (RUnit, <[x := HF q]> (delete h env))
    | _, _ => bad
    end
  | OFromVisits x it =>
    match env !! x with
    | None =>
      match it with
      | ITree t => let! q := tree_from_bfs list_next (visit_of <$> level_order t) in ret (RUnit, <[x := HT q]> env)
      | IForest ts => let! q := forest_from_bfs list_next (visit_of <$> level_order_f ts) (length ts) (nodes_f ts) in
                      ret (RUnit, <[x := HF q]> env)
      end
    | _ => bad
    end
  | OIntoIter h xs =>
    match env !! h with
    | Some hd =>
      if decide (NoDup xs /\ Forall (fun x => env !! x = None) xs) then
        let! fr := match hd with HT p => tree_into_iter p | HF p => ret p end in
        let! r := into_names fr xs (delete h env) in
        into_iter_drop fr ;;
        ret (RNats r.1, r.2)
      else bad
    | None => bad
    end
  | OMove h x => match env !! h, env !! x with Some hd, None => ret (RUnit, <[x := hd]> (delete h env)) | _, _ => bad end
  | OMapInto h x f =>
    match env !! h, env !! x with
    | Some (HT p), None =>
      let! b := tree_into_bfs p in let! q := tree_from_bfs (map_next f isp_next) (b.1, []) in ret (RUnit, <[x := HT q]> (delete h env))
    | Some (HF p), None =>
      let! b := forest_into_bfs p in let! q := forest_from_bfs (map_next f isp_next) (b.1, []) b.2.1 b.2.2 in
      ret (RUnit, <[x := HF q]> (delete h env))
    | _, _ => bad
    end
  | OMapBfs h path x f =>
    match env !! x with
    | None => with_node env h path (fun hd p => if is_forest_root hd path then bad else
        let! b := bfs p in let! q := tree_from_bfs (map_next f sp_next) (b.1, []) in ret (RUnit, <[x := HT q]> env))
    | _ => bad
    end
  | OMapBfsChildren h path x f =>
    match env !! x with
    | None => with_node env h path (fun hd p =>
        let! b := bfs_children p in let! q := forest_from_bfs (map_next f sp_next) (b.1, []) b.2.1 b.2.2 in ret (RUnit, <[x := HF q]> env))
    | _ => bad
    end
  | OEach h path acts =>
    with_node env h path (fun hd p =>
      let! it := iter p in
      let! f := fuel in
      let! r := each_loop f h it [] acts env in
      ret (REach r.1.1 r.1.2.1 r.1.2.2, r.2))
  end.

Inductive cres (X : Type) : Type := Done (x : X) (c : cst) | Fails (e : err).
Global Arguments Done {X} x c.
Global Arguments Fails {X} e.

Definition step (c : cst) (o : op A) : cres (out A) :=
  match cstep (c_env c) o (c_mem c) with
  | Ok (r, env') s' => Done r (CSt env' s')
  | Err e => Fails e
  end.

Fixpoint run (c : cst) (os : list (op A)) : cres (list (out A)) :=
  match os with
  | [] => Done [] c
  | o :: os' =>
    match step c o with
    | Done r c' => match run c' os' with Done rs c'' => Done (r :: rs) c'' | Fails e => Fails e end
    | Fails e => Fails e
    end
  end.

(** * Reading back everything a client can see: data and children, recursively *)
Fixpoint read_tree (f : nat) (p : ptr) : M A (tree A) :=
  match f with
  | 0 => fail EFuel
  | S f' =>
    let! a := data p in
    let! cs := children p in
    let! ts := (fix go (cs : list ptr) : M A (list (tree A)) :=
                  match cs with
                  | [] => ret []
                  | c :: cs' => let! t := read_tree f' c in let! ts := go cs' in ret (t :: ts)
                  end) cs in
    ret (Tr a ts)
  end.
Definition read_trees (f : nat) : list ptr -> M A (list (tree A)) :=
  fix go (cs : list ptr) : M A (list (tree A)) :=
    match cs with
    | [] => ret []
    | c :: cs' => let! t := read_tree f c in let! ts := go cs' in ret (t :: ts)
    end.
Definition read_item (hd : handle) : M A (item A) :=
  let! f := fuel in
  match hd with
  | HT p => let! t := read_tree f p in ret (ITree t)
  | HF p => let! cs := children p in let! ts := read_trees f cs in ret (IForest ts)
  end.

(** the content of all variables: [contents c env] says that reading back variable by variable gives [env] *)
Definition contents (c : cst) (env : gmap nat (item A)) : Prop :=
  forall h, match c_env c !! h with
            | Some hd => exists it, read_item hd (c_mem c) = Ok it (c_mem c) /\ env !! h = Some it
            | None => env !! h = None
            end.

(** states a client can get into *)
Definition reachable (c : cst) : Prop := exists os rs, run cst0 os = Done rs c.

(** [p] is the address of a node a client can still reach from a variable *)
Definition live (c : cst) (p : ptr) : Prop :=
  exists h hd path, c_env c !! h = Some hd /\ resolve (addr hd) path (c_mem c) = Ok (Some p) (c_mem c).

End client.
Arguments cst : clear implicits.
