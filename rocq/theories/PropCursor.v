(** PropCursor.v — C65: iterators and walks the client holds while it goes on using the library. *)
From stdpp Require Import base gmap list.
From Verif Require Import Spec ClientSpec Machine NodeModel BfsModel ClientModel WalkModel WalkSpec CallSpec CallModel CursorSpec CursorModel CursorProps.

(** Any sequence of calls on any number of trees, forests, iterators and walks: every call returns what CursorSpec.v says, the contents of all variables
    (borrowed or not) and the values dropped are those of CursorSpec.v, and nothing fails except with a panic where CursorSpec.v panics *)
Theorem C65_calls {A H : Type} (os : list (kop A H)) :
  match ksrun kss0 os with
  | Some (rs, σ) => exists e s, krun kenv0 os mem0 = Ok (rs, e) s /\ contents (CSt (ke_env e ∪ ke_benv e) s) (ks_env σ ∪ ks_benv σ) /\ m_log s = ks_log σ
  | None => krun kenv0 os mem0 = Err EPanic
  end.
Proof. exact (cursors_refine os). Qed.
Print Assumptions C65_calls.

(** an iterator gives the items of its node at the time it was made, in order, then [None] for ever, whatever calls come between *)
Theorem C65_iterator {A H : Type} (os1 : list (kop A H)) (o : kop A H) (os2 : list (kop A H)) (i h : nat) (hd : handle) (it : item A) (l : list (A * nat * nat)) rs1 e1 s1 rs e s :
  krun kenv0 os1 mem0 = Ok (rs1, e1) s1 -> (ke_env e1 ∪ ke_benv e1) !! h = Some hd -> read_item hd s1 = Ok it s1 ->
  opens o i h it l -> krun kenv0 (os1 ++ o :: os2) mem0 = Ok (rs, e) s -> rs !! length os1 = Some KUnit -> KClose i ∉ os2 ->
  nexts i os2 (drop (S (length os1)) rs) = served (asked i os2) l.
Proof. exact (interleaved os1 o os2 i h hd it l rs1 e1 s1 rs e s). Qed.
Print Assumptions C65_iterator.

(** a walk goes over the tree or forest it was made of as if it were used alone *)
Theorem C65_walk {A H : Type} (os1 os2 : list (kop A H)) (i h : nat) (hd : handle) (it : item A) rs1 e1 s1 rs e s :
  krun kenv0 os1 mem0 = Ok (rs1, e1) s1 -> (ke_env e1 ∪ ke_benv e1) !! h = Some hd -> read_item hd s1 = Ok it s1 ->
  krun kenv0 (os1 ++ KWalk i h :: os2) mem0 = Ok (rs, e) s -> rs !! length os1 = Some KUnit -> forallb (fun o => negb (ends i o)) os2 = true ->
  exists outs cu, c_run (tops it) (c_start (tops it)) (walk_ops i os2) = Some (outs, cu) /\
    walked i os2 (drop (S (length os1)) rs) = (fun r => KWalked (show_walk r)) <$> outs.
Proof. exact (interleaved_walk os1 os2 i h hd it rs1 e1 s1 rs e s). Qed.
Print Assumptions C65_walk.

(** [iter_mut] gives the children its node had, each once, then [None], whatever calls come between, on the references and on other trees and forests; when the borrow
    ends everything outside the node's children is as it was, the children not reached are its last ones, and nothing has changed without a call on a reference *)
Theorem C65_iter_mut {A H : Type} (os1 os2 : list (kop A H)) (i h x : nat) (path : list nat) (hd : handle) (it : item A) (ts : list (tree A)) rs1 e1 s1 rs e s :
  krun kenv0 os1 mem0 = Ok (rs1, e1) s1 -> (ke_env e1 ∪ ke_benv e1) !! h = Some hd -> read_item hd s1 = Ok it s1 -> kids_at it path = Some ts ->
  krun kenv0 (os1 ++ KIterMut i h path :: os2 ++ [KBack i x]) mem0 = Ok (rs, e) s -> rs !! length os1 = Some KUnit -> last rs = Some KUnit ->
  forallb (fun o => negb (ends i o)) os2 = true ->
  let n := length (yielded i os2 (drop (S (length os1)) rs)) in
  yielded i os2 (drop (S (length os1)) rs) = replicate (n `min` length ts) (KGot true) ++ replicate (n - length ts) (KGot false) /\
  exists hd' it' front, (ke_env e ∪ ke_benv e) !! x = Some hd' /\ read_item hd' s = Ok it' s /\ kids_at it' path = Some (front ++ drop n ts) /\
    set_kids it' path ts = it /\ (forallb (fun o => negb (is_ref i o)) os2 = true -> it' = it).
Proof. exact (interleaved_mut os1 os2 i h x path hd it ts rs1 e1 s1 rs e s). Qed.
Print Assumptions C65_iter_mut.

(** [bfs_mut] and [bfs_children_mut] give the visits of the nodes there were, in breadth-first order, then [None] for ever, whatever calls come between, on the references to data kept from
    earlier visits and on other trees and forests; when the borrow ends the data of the m-th visit is what the calls on its reference made of it, one after the other, and nothing else has changed *)
Theorem C65_bfs_mut {A H : Type} (os1 : list (kop A H)) (o : kop A H) (os2 : list (kop A H)) (i h x : nat) (path : list nat) (top : bool) (hd : handle) (it : item A) rs1 e1 s1 rs e s :
  krun kenv0 os1 mem0 = Ok (rs1, e1) s1 -> (ke_env e1 ∪ ke_benv e1) !! h = Some hd -> read_item hd s1 = Ok it s1 -> opens_mut o i h path top ->
  krun kenv0 (os1 ++ o :: os2 ++ [KBack i x]) mem0 = Ok (rs, e) s -> rs !! length os1 = Some KUnit -> last rs = Some KUnit ->
  forallb (fun o => negb (ends i o)) os2 = true ->
  let rs2 := drop (S (length os1)) rs in
  nexts i os2 rs2 = served (asked i os2) (visit_of <$> bfs_mut_order it path top) /\
  exists hd', (ke_env e ∪ ke_benv e) !! x = Some hd' /\
    read_item hd' s = Ok (bfs_mut_item it path top (fun m a => foldl (fun a f => f a) a (changes i m os2 rs2))) s.
Proof. exact (interleaved_bfs_mut os1 o os2 i h x path top hd it rs1 e1 s1 rs e s). Qed.
Print Assumptions C65_bfs_mut.

(** when all iterators and walks are gone nothing is borrowed, and the memory is that of the variables; without variables there is none *)
Theorem C65_closed {A H : Type} (os : list (kop A H)) rs e s : krun kenv0 os mem0 = Ok (rs, e) s -> ke_cur e = ∅ ->
  let c := CSt (ke_env e) s in
  ke_benv e = ∅ /\
  (forall q, live c q -> is_Some (m_heap s !! q)) /\
  (forall q, is_Some (m_heap s !! q) -> live c q \/ exists cap rc q', m_vec s !! q.1 = Some (cap, rc) /\ q.2 < cap /\ live c q' /\ q'.1 = q.1) /\
  (forall v, is_Some (m_vec s !! v) -> exists q, live c q /\ q.1 = v) /\
  (ke_env e = ∅ -> m_heap s = ∅ /\ m_cnt s = ∅ /\ m_vec s = ∅).
Proof. exact (cursors_closed os rs e s). Qed.
Print Assumptions C65_closed.

(** ** Examples.  Variable 0: 0( 1 2( 3 ) ); variable 1: an empty forest *)
Definition kdo (o : op nat) : kop nat nat := KProg (PDo o (fun r => PRet r)).
Definition ksetup : list (kop nat nat) :=
  kdo <$> [ONewTree 0 0; ONewTree 2 1; OPush Back 0 [] 2; ONewTree 2 2; ONewTree 3 3; OPush Back 2 [] 3; OPush Back 0 [] 2; ONewForest 1].
Definition kshow (os : list (kop nat nat)) :=
  match krun kenv0 (ksetup ++ os) mem0 with
  | Ok (rs, e) s => Some (drop 8 rs, m_log s, (map_to_list (ke_env e)).*1, (map_to_list (ke_benv e)).*1, length (map_to_list (m_heap s)))
  | Err _ => None
  end.
(** two iterators on one tree, used alternately; the tree cannot be changed until both are gone, another forest can *)
Definition os_two : list (kop nat nat) :=
  [KIter 0 0 []; KBfs 1 0 []; KNext 1; KNext 0; kdo (OPop Front 0 [] 9); kdo (ONewTree 5 7); kdo (OPush Back 1 [] 5); KNext 1; KHint 0; KNext 0; KNext 0; KClose 0;
   kdo (OPop Front 0 [] 9); KNext 1; KNext 1; KNext 1; KClose 1; kdo (OPop Front 0 [] 9); kdo (OBfs 0 [])].
Example C65_ex_two : kshow os_two =
  Some ([KUnit; KUnit; KVisit (Some (0, 2, 3)); KVisit (Some (1, 0, 0)); KOut RBad; KOut RUnit; KOut RUnit; KVisit (Some (1, 0, 0)); KNat 1; KVisit (Some (2, 1, 1));
         KVisit None; KUnit; KOut RBad; KVisit (Some (2, 1, 1)); KVisit (Some (3, 0, 0)); KVisit None; KUnit; KOut (RBool true); KOut (RVisits [(0, 1, 2); (2, 1, 1); (3, 0, 0)])],
        [], [0; 1; 9], [], 6).
Proof. vm_compute. reflexivity. Qed.
(** the premises of C65_iterator *)
Example C65_ex_iterator : match krun kenv0 ksetup mem0 with
  | Ok (rs1, e1) s1 => match (ke_env e1 ∪ ke_benv e1) !! 0 with
    | Some hd => match read_item hd s1 with Ok it _ => Some (it, visit_of <$> item_level_order it) | _ => None end
    | None => None end
  | Err _ => None end = Some (ITree (Tr 0 [Tr 1 []; Tr 2 [Tr 3 []]]), [(0, 2, 3); (1, 0, 0); (2, 1, 1); (3, 0, 0)]).
Proof. vm_compute. reflexivity. Qed.
Example C65_ex_iterator_out : match krun kenv0 (ksetup ++ os_two) mem0 with
  | Ok (rs, _) _ => Some (nexts 1 (drop 2 os_two) (drop 10 rs), asked 1 (drop 2 os_two)) | Err _ => None end =
  Some (KVisit <$> [Some (0, 2, 3); Some (1, 0, 0); Some (2, 1, 1); Some (3, 0, 0); None], 5).
Proof. vm_compute. reflexivity. Qed.
(** [into_iter]: the tree taken first is changed while the iterator is held; the trees not taken are dropped with it.  [into_bfs] dropped half way: the values it gave out are the client's.  All gone at the end *)
Example C65_ex_into : kshow
  [KIntoIter 0 0; KHint 0; KTake 0 4; KClose 0; KIntoIter 0 4; KTake 0 0; kdo (ONewTree 6 6); kdo (OPush Back 0 [] 6); kdo (ONewTree 6 8); kdo (OPush Back 0 [] 6);
   KTake 0 7; KClose 0; KIntoBfs 0 0; KNext 0; kdo (ONewTree 6 9); KNext 0; KClose 0; kdo (ODrop 6); kdo (ODrop 1)] =
  Some ([KUnit; KNat 1; KGot true; KUnit; KUnit; KGot true; KOut RUnit; KOut RUnit; KOut RUnit; KOut RUnit; KGot false; KUnit; KUnit; KVisit (Some (0, 4, 5));
         KOut RUnit; KVisit (Some (1, 0, 0)); KUnit; KOut RUnit; KOut RUnit], [3; 2; 6; 8; 9], [], [], 0).
Proof. vm_compute. reflexivity. Qed.
(** a walk held while another tree is iterated and changed, then given back *)
Example C65_ex_walk : kshow
  [KWalk 0 0; KWalkOp 0 WGet; kdo (ONewTree 5 7); KWalkOp 0 WNext; kdo (OPush Back 1 [] 5); KIter 1 1 []; KWalkOp 0 (WToSib 1); KNext 1; KWalkOp 0 WNext; KBack 0 1; KClose 1;
   KBack 0 3; kdo (OBfs 3 [])] =
  Some ([KUnit; KWalked (WVisit (Some (VBegin, (0, 2, 3)))); KOut RUnit; KWalked (WVisit (Some (VLeaf, (1, 0, 0)))); KOut RUnit; KUnit;
         KWalked (WVisit (Some (VBegin, (2, 1, 1)))); KVisit (Some (7, 0, 0)); KWalked (WVisit (Some (VLeaf, (3, 0, 0)))); KBad; KUnit; KUnit;
         KOut (RVisits [(0, 2, 3); (1, 0, 0); (2, 1, 1); (3, 0, 0)])], [], [1; 3], [], 6).
Proof. vm_compute. reflexivity. Qed.
(** [iter_mut] on the node 0 of variable 0: while the references to 1 and 2( 3 ) are held, variable 0 cannot be named, other trees are made, iterated and pushed under the references, 1 gets
    a sibling before and its subtree popped again, 2 is detached into variable 6 and changed there; ended, variable 7 is 0( 8 41( 7 ) ) *)
Definition os_mut : list (kop nat nat) :=
  [KHint 0; KYield 0; kdo (OBfs 0 []); kdo (ONewTree 5 7); KRef 0 0 (RfPush Back 5); KYield 0; KHint 0; KRef 0 0 RfSee; kdo (ONewTree 5 8); KIter 1 5 []; KRef 0 0 (RfInsert Front 5); KClose 1;
   KRef 0 0 (RfInsert Front 5); KRef 0 1 RfParent; KRef 0 1 (RfDetach 6); KRef 0 1 RfSee; kdo (OPop Front 6 [] 5); KYield 0; KRef 0 0 (RfModify (Nat.add 40)); KRef 0 0 (RfPop Back 4); KRef 0 0 (RfPop Back 3);
   kdo (OPush Back 1 [] 4); KRef 0 0 (RfConcat Front 1); KRef 0 0 RfSee; KRef 0 0 RfParent].
Example C65_ex_mut : kshow (KIterMut 0 0 [] :: os_mut ++ [KBack 0 7; kdo (OBfs 7 []); kdo (OBfs 6 [])]) =
  Some ([KUnit; KNat 2; KGot true; KOut RBad; KOut RUnit; KUnit; KGot true; KNat 0; KVisit (Some (1, 1, 1)); KOut RUnit; KUnit; KBad; KUnit;
         KUnit; KVisit (Some (0, 3, 5)); KUnit; KBad; KOut (RBool true); KGot false; KUnit; KGot true; KGot false;
         KOut RUnit; KUnit; KVisit (Some (41, 1, 1)); KVisit (Some (0, 2, 3)); KUnit; KOut (RVisits [(0, 2, 3); (8, 0, 0); (41, 1, 1); (7, 0, 0)]); KOut (RVisits [(2, 0, 0)])],
        [], [7; 5; 6], [], 6).
Proof. vm_compute. reflexivity. Qed.
(** the premises of C65_iter_mut: no call in os_mut ends it *)
Example C65_ex_mut_pre : forallb (fun o => negb (ends 0 o)) os_mut = true /\ match krun kenv0 (ksetup ++ KIterMut 0 0 [] :: os_mut ++ [KBack 0 7]) mem0 with
  | Ok (rs, _) _ => Some (rs !! length ksetup, last rs, yielded 0 os_mut (drop (S (length ksetup)) rs)) | Err _ => None end = Some (Some KUnit, Some KUnit, [KGot true; KGot true; KGot false]).
Proof. split; vm_compute; reflexivity. Qed.
(** dropped in the middle: the reference's tree is the client's, the rest is dropped once *)
Example C65_ex_mut_drop : kshow [KIterMut 0 0 []; KYield 0; KYield 0; KRef 0 1 (RfDetach 6); KClose 0] = Some ([KUnit; KGot true; KGot true; KUnit; KUnit], [1; 0], [1; 6], [], 3).
Proof. vm_compute. reflexivity. Qed.
(** [bfs_mut] on variable 0: the references to 0, 1 and 2 are kept and used out of order while another tree is made and iterated; the data of a visit not yet given cannot be changed; the last
    node is not visited.  [bfs_children_mut] on the result *)
Definition os_bm : list (kop nat nat) :=
  [KNext 0; KNext 0; KData 0 2 S; KData 0 0 (Nat.add 10); kdo (ONewTree 5 7); KNext 0; KIter 1 5 []; KData 0 2 (Nat.add 20); KData 0 0 (Nat.mul 3); kdo (OBfs 0 []); KNext 1; KData 0 1 (Nat.add 6)].
Example C65_ex_bfs_mut : kshow (KBfsMut 0 0 [] :: os_bm ++ [KBack 0 6; kdo (OBfs 6 []); KBfsKidsMut 0 6 []; KNext 0; KNext 0; KNext 0; KNext 0; KData 0 2 (Nat.add 40); KClose 1; KClose 0]) =
  Some ([KUnit; KVisit (Some (0, 2, 3)); KVisit (Some (1, 0, 0)); KBad; KDatum 0; KOut RUnit; KVisit (Some (2, 1, 1)); KUnit; KDatum 2; KDatum 10; KOut RBad; KVisit None; KDatum 1;
         KUnit; KOut (RVisits [(30, 2, 3); (7, 0, 0); (22, 1, 1); (3, 0, 0)]); KUnit; KVisit (Some (7, 0, 0)); KVisit (Some (22, 1, 1)); KVisit (Some (3, 0, 0)); KVisit None;
         KDatum 3; KUnit; KUnit], [7; 43; 22; 30], [1; 5], [], 2).
Proof. vm_compute. reflexivity. Qed.
(** the premises of C65_bfs_mut, and what was done to the visits *)
Example C65_ex_bfs_mut_pre : forallb (fun o => negb (ends 0 o)) os_bm = true /\ match krun kenv0 (ksetup ++ KBfsMut 0 0 [] :: os_bm ++ [KBack 0 6]) mem0 with
  | Ok (rs, _) _ => let rs2 := drop (S (length ksetup)) rs in
    Some (rs !! length ksetup, last rs, nexts 0 os_bm rs2, (fun m => foldl (fun a f => f a) 1 (changes 0 m os_bm rs2)) <$> [0; 1; 2; 3]) | Err _ => None end =
  Some (Some KUnit, Some KUnit, KVisit <$> [Some (0, 2, 3); Some (1, 0, 0); Some (2, 1, 1)], [33; 7; 21; 1]).
Proof. split; vm_compute; reflexivity. Qed.
(** a panic: [insert_next_sib] on the root of a tree, with an iterator held *)
Example C65_ex_panic : krun kenv0 (ksetup ++ [KIter 0 1 []; kdo (ONewTree 5 7); kdo (OInsert Back 0 [] 5)]) mem0 = Err EPanic.
Proof. vm_compute. reflexivity. Qed.
