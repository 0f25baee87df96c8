(** CursorModel.v — iterators and walks held by the client while it goes on using the library.  No proofs. *)
From stdpp Require Import base gmap list.
From Verif Require Import Spec ClientSpec Machine NodeModel BfsModel ClientModel WalkModel WalkSpec CallSpec CallModel CursorSpec.

Section model.
Context {A H : Type}.

(** the iterators and walks as they are in memory: iter.rs:85-89 [Iter]; bfs.rs:154-158 [Splitted] of [Iter]; into_iter.rs:8-11 [IntoIter], by its
    forest; [Splitted] of [IntoIter]; walk.rs:259-262, 455-458 [TreeWalk], [ForestWalk]; iter.rs:121-125 [IterMut] with the references it gave that are
    still in use; [Splitted] of [IterMut] (bfs_impls.rs:136-149) with the references to data it gave.  [CWalk], [CMut] and [CBfsMut] hold the tree or forest: an exclusive borrow
    is modelled as taking it and, at its end, giving it back *)
Inductive ccur : Type :=
  | CIter (h : nat) (it : citer)
  | CBfs (h : nat) (it : list citer)
  | CInto (fr : ptr)
  | CIntoBfs (it : list ptr)
  | CWalk (hd : handle) (w : walk)
  | CMut (hd : handle) (it : citer) (cs : list (option ptr))
  | CBfsMut (hd : handle) (it : list citer) (ps : list ptr).
Definition corigin (c : ccur) : option nat := match c with CIter h _ | CBfs h _ => Some h | _ => None end.

(** the variables of the client *)
Record kenv : Type := KE { ke_env : gmap nat handle; ke_benv : gmap nat handle; ke_cur : gmap nat ccur }.

Definition unborrowed_c (h : nat) (cur : gmap nat ccur) : Prop := map_Forall (fun _ c => corigin c <> Some h) cur.
Global Instance unborrowed_c_dec h cur : Decision (unborrowed_c h cur).
Proof. unfold unborrowed_c. apply _. Defined.

(** the borrow checker: a borrow begins and ends; nothing happens in memory *)
Definition borrow_c (e : kenv) (i h : nat) (hd : handle) (c : ccur) : kenv :=
  KE (delete h (ke_env e)) (<[h := hd]> (ke_benv e)) (<[i := c]> (ke_cur e)).
Definition release_c (e : kenv) (i h : nat) : kenv :=
  let cur := delete i (ke_cur e) in
  if decide (unborrowed_c h cur) then
    match ke_benv e !! h with
    | Some hd => KE (<[h := hd]> (ke_env e)) (delete h (ke_benv e)) cur
    | None => KE (ke_env e) (ke_benv e) cur
    end
  else KE (ke_env e) (ke_benv e) cur.

(** what the client can tell of a node it has a reference to: node.rs:112 [data], 145 [degree], 157-163 [node_count] *)
Definition observe (p : ptr) : M A (A * nat * nat) :=
  let! a := data p in let! dg := degree p in let! n := node_count p in let! ds := sub n 1 in ret (a, dg, ds).
Definition observe_walk (r : wout (vkind * ptr) ptr) : M A (wout (vkind * (A * nat * nat)) (A * nat * nat)) :=
  match r with
  | WVisit (Some (k, p)) => let! v := observe p in ret (WVisit (Some (k, v)))
  | WVisit None => ret (WVisit None)
  | WNode (Some p) => let! v := observe p in ret (WNode (Some v))
  | WNode None => ret (WNode None)
  | WUnit => ret WUnit
  end.

(** a call on a mutable reference [q] to a node, the [j]-th of [cs] (node.rs:112, 145, 157 observers, 178 [parent], 115 [data_mut], 377, 402 [push_*],
    428, 464 [pop_*], 501, 531 [prepend], [append], 204, 234 [insert_*_sib], 263 [detach]); None: not a program *)
Definition ref_call (env benv : gmap nat handle) (cs : list (option ptr)) (j : nat) (q : ptr) (o : rop A) : M A (option (kout A * gmap nat handle * list (option ptr))) :=
  match o with
  | RfSee => let! v := observe q in ret (Some (KVisit (Some v), env, cs))
  | RfParent =>
    let! u := parent q in
    match u with
    | Some u => let! v := observe u in ret (Some (KVisit (Some v), env, cs))
    | None => ret (Some (KVisit None, env, cs))
    end
  | RfModify f => modify_data q f ;; ret (Some (KUnit, env, cs))
  | RfPush e y =>
    match env !! y with
    | Some (HT u) => match e with Front => push_front q u | Back => push_back q u end ;; ret (Some (KUnit, delete y env, cs))
    | _ => ret None
    end
  | RfPop e x =>
    if decide (env !! x = None /\ benv !! x = None) then
      let! u := match e with Front => pop_front q | Back => pop_back q end in
      match u with
      | Some u => ret (Some (KGot true, <[x := HT u]> env, cs))
      | None => ret (Some (KGot false, env, cs))
      end
    else ret None
  | RfConcat e y =>
    match env !! y with
    | Some (HF u) => match e with Front => prepend q u | Back => append q u end ;; ret (Some (KUnit, delete y env, cs))
    | _ => ret None
    end
  | RfInsert e y =>
    match env !! y with
    | Some (HT u) => match e with Front => insert_prev_sib q u | Back => insert_next_sib q u end ;; ret (Some (KUnit, delete y env, cs))
    | _ => ret None
    end
  | RfDetach x => if decide (env !! x = None /\ benv !! x = None) then let! u := detach q in ret (Some (KUnit, <[x := HT u]> env, <[j := None]> cs)) else ret None
  end.

Definition kstep (e : kenv) (o : kop A H) : M A (kout A * kenv) :=
  let env := ke_env e in let benv := ke_benv e in let cur := ke_cur e in
  let bad := ret (KBad, e) in
  let upd i c := KE env benv (<[i := c]> cur) in
  match o with
  | KProg p => let! r := cprog [] benv env p in ret (KOut r.1, KE r.2 benv cur)
  | KIter i h path =>                                     (* node.rs:313-322 *)
    match cur !! i, (env ∪ benv) !! h with
    | None, Some hd =>
      let! o := resolve (addr hd) path in
      match o with
      | Some p => let! it := iter p in ret (KUnit, borrow_c e i h hd (CIter h it))
      | None => bad
      end
    | _, _ => bad
    end
  | KBfs i h path =>                                      (* bfs_impls.rs:103-106 *)
    match cur !! i, (env ∪ benv) !! h with
    | None, Some hd =>
      if is_forest_root hd path then bad else
      let! o := resolve (addr hd) path in
      match o with
      | Some p => let! b := bfs p in ret (KUnit, borrow_c e i h hd (CBfs h b.1))
      | None => bad
      end
    | _, _ => bad
    end
  | KBfsKids i h path =>                                  (* bfs_impls.rs:69, 165 *)
    match cur !! i, (env ∪ benv) !! h with
    | None, Some hd =>
      let! o := resolve (addr hd) path in
      match o with
      | Some p => let! b := bfs_children p in ret (KUnit, borrow_c e i h hd (CBfs h b.1))
      | None => bad
      end
    | _, _ => bad
    end
  | KIntoIter i h =>                                      (* into_iter.rs:34-50 *)
    match cur !! i, env !! h with
    | None, Some hd =>
      let! fr := match hd with HT p => tree_into_iter p | HF p => ret p end in
      ret (KUnit, KE (delete h env) benv (<[i := CInto fr]> cur))
    | _, _ => bad
    end
  | KIntoBfs i h =>                                       (* bfs_impls.rs:208-211, 265-268 *)
    match cur !! i, env !! h with
    | None, Some hd =>
      let! b := match hd with HT p => tree_into_bfs p | HF p => forest_into_bfs p end in
      ret (KUnit, KE (delete h env) benv (<[i := CIntoBfs b.1]> cur))
    | _, _ => bad
    end
  | KWalk i h =>                                          (* walk.rs:439-445, 625-633 *)
    match cur !! i, env !! h with
    | None, Some hd => let! w := walk_from hd in ret (KUnit, KE (delete h env) benv (<[i := CWalk hd w]> cur))
    | _, _ => bad
    end
  | KIterMut i h path =>                                  (* node.rs:333-338 *)
    match cur !! i, env !! h with
    | None, Some hd =>
      let! o := resolve (addr hd) path in
      match o with
      | Some p => let! it := iter p in ret (KUnit, KE (delete h env) benv (<[i := CMut hd it []]> cur))
      | None => bad
      end
    | _, _ => bad
    end
  | KBfsMut i h path =>                                   (* bfs_impls.rs:121-124 *)
    match cur !! i, env !! h with
    | None, Some hd =>
      if is_forest_root hd path then bad else
      let! o := resolve (addr hd) path in
      match o with
      | Some p => let! b := bfs p in ret (KUnit, KE (delete h env) benv (<[i := CBfsMut hd b.1 []]> cur))
      | None => bad
      end
    | _, _ => bad
    end
  | KBfsKidsMut i h path =>                               (* bfs_impls.rs:85-88, 180-183 *)
    match cur !! i, env !! h with
    | None, Some hd =>
      let! o := resolve (addr hd) path in
      match o with
      | Some p => let! b := bfs_children p in ret (KUnit, KE (delete h env) benv (<[i := CBfsMut hd b.1 []]> cur))
      | None => bad
      end
    | _, _ => bad
    end
  | KData i j f =>                                        (* [Visit::data], bfs_impls.rs:143: a reference to the data of the node *)
    match cur !! i with
    | Some (CBfsMut hd it ps) =>
      match ps !! j with
      | Some p => let! a := data p in modify_data p f ;; ret (KDatum a, e)
      | None => bad
      end
    | _ => bad
    end
  | KYield i =>                                           (* iter.rs:144-146 *)
    match cur !! i with
    | Some (CMut hd it cs) =>
      let! r := ci_next it in
      match r.1 with
      | Some q => ret (KGot true, upd i (CMut hd r.2 (cs ++ [Some q])))
      | None => ret (KGot false, upd i (CMut hd r.2 cs))
      end
    | _ => bad
    end
  | KRef i j o =>
    match cur !! i with
    | Some (CMut hd it cs) =>
      match cs !! j with
      | Some (Some q) =>
        let! r := ref_call env benv cs j q o in
        match r with
        | Some (v, env', cs') => ret (v, KE env' benv (<[i := CMut hd it cs']> cur))
        | None => bad
        end
      | _ => bad
      end
    | _ => bad
    end
  | KNext i =>                                            (* iter.rs:105-112; bfs.rs:177-194 *)
    match cur !! i with
    | Some (CIter h it) =>
      let! r := ci_next it in
      match r.1 with
      | Some p => let! v := observe p in ret (KVisit (Some v), upd i (CIter h r.2))
      | None => ret (KVisit None, upd i (CIter h r.2))
      end
    | Some (CBfs h it) => let! r := sp_next it in ret (KVisit r.1, upd i (CBfs h r.2))
    | Some (CIntoBfs it) => let! r := isp_next it in ret (KVisit r.1, upd i (CIntoBfs r.2))
    | Some (CBfsMut hd it ps) =>
      let! r := sp_next_node it in
      match r.1 with
      | Some (p, dg, ds) => let! a := data p in ret (KVisit (Some (a, dg, ds)), upd i (CBfsMut hd r.2 (ps ++ [p])))
      | None => ret (KVisit None, upd i (CBfsMut hd r.2 ps))
      end
    | _ => bad
    end
  | KTake i x =>                                          (* into_iter.rs:16-18 *)
    if decide (env !! x = None /\ benv !! x = None) then
      match cur !! i with
      | Some (CInto fr) =>
        let! r := into_iter_next fr in
        match r with
        | Some p => ret (KGot true, KE (<[x := HT p]> env) benv cur)
        | None => ret (KGot false, e)
        end
      | _ => bad
      end
    else bad
  | KHint i =>                                            (* iter.rs:112, 148; into_iter.rs:20-23 *)
    match cur !! i with
    | Some (CIter _ it) | Some (CMut _ it _) => ret (KNat (ci_size_hint it), e)
    | Some (CInto fr) => let! n := into_iter_size_hint fr in ret (KNat n, e)
    | _ => bad
    end
  | KWalkOp i o =>                                        (* walk.rs:270-436, 470-622 *)
    match cur !! i with
    | Some (CWalk hd w) =>
      let! r := w_step w o in
      let! v := observe_walk r.1 in
      ret (KWalked v, upd i (CWalk hd r.2))
    | _ => bad
    end
  | KBack i x =>                                          (* walk.rs:447-451, 635-639 *)
    if decide (env !! x = None /\ benv !! x = None) then
      match cur !! i with
      | Some (CWalk hd _) | Some (CMut hd _ _) | Some (CBfsMut hd _ _) => ret (KUnit, KE (<[x := hd]> env) benv (delete i cur))
      | _ => bad
      end
    else bad
  | KClose i =>                                           (* into_iter.rs:28-32 [Drop]; the tree or forest of a walk: tree.rs, forest.rs [Drop] *)
    match cur !! i with
    | Some (CIter h _) | Some (CBfs h _) => ret (KUnit, release_c e i h)
    | Some (CInto fr) => into_iter_drop fr ;; ret (KUnit, KE env benv (delete i cur))
    | Some (CIntoBfs it) => isp_drop it ;; ret (KUnit, KE env benv (delete i cur))
    | Some (CWalk hd _) | Some (CMut hd _ _) | Some (CBfsMut hd _ _) => drop_tree (addr hd) ;; ret (KUnit, KE env benv (delete i cur))
    | None => bad
    end
  end.
Fixpoint krun (e : kenv) (os : list (kop A H)) : M A (list (kout A) * kenv) :=
  match os with
  | [] => ret ([], e)
  | o :: os' => let! r := kstep e o in let! rs := krun r.2 os' in ret (r.1 :: rs.1, rs.2)
  end.
Definition kenv0 : kenv := KE ∅ ∅ ∅.
End model.
