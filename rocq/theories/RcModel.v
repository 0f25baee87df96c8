(** RcModel.v — rc.rs and iter_rc.rs, and their client, on the modelled memory.  No proofs.
    The strong count of [std::rc::Rc] and [Shared::count] are [m_cnt]; the borrow counter of the [RefCell] of a node is
    kept in a separate map (-1: mutably borrowed, n > 0: n shared borrows, absent: 0). *)
From stdpp Require Import base gmap list.
From Verif Require Import Spec ClientSpec RcSpec Machine NodeModel BfsModel ClientModel.

Section model.
Context {A : Type}.
Implicit Types (p q : ptr).

(** rc.rs:51-61 [RcNode]: [ScatteredRcNode] holds the [Rc], [PiledRcNode] the buffer and the index of the slot *)
Inductive rnode : Type := RScat (p : ptr) | RPile (v i : nat).
Definition raddr (r : rnode) : ptr := match r with RScat p => p | RPile v i => (v, i) end.

(** * Counters *)
(** rc.rs:29-38 [RefCount::incr] on [Shared::count] ([usize::MAX] not modelled), [Rc::clone] *)
Definition cnt_incr p : M A unit := fun s =>
  match m_cnt s !! p with
  | None => Err EUB
  | Some 0 => Err EPanic
  | Some c => Ok tt (Mem (m_heap s) (<[p := S c]> (m_cnt s)) (m_vec s) (m_fresh s) (m_log s))
  end.
(** rc.rs:40-48 [RefCount::decr] on [Shared::count] *)
Definition cnt_decr p : M A nat := fun s =>
  match m_cnt s !! p with
  | None => Err EUB
  | Some 0 => Err EPanic
  | Some (S c) => Ok c (Mem (m_heap s) (<[p := c]> (m_cnt s)) (m_vec s) (m_fresh s) (m_log s))
  end.
(** [Rc::strong_count], [Shared::count.get()] *)
Definition cnt_get p : M A nat := fun s => match m_cnt s !! p with Some c => Ok c s | None => Err EUB end.
(** rc.rs:29-38 on [NodeVec::ref_cnt] *)
Definition vec_incr (v : nat) : M A unit := fun s =>
  match m_vec s !! v with
  | None => Err EUB
  | Some (_, 0) => Err EPanic
  | Some (cap, rc) => Ok tt (Mem (m_heap s) (m_cnt s) (<[v := (cap, S rc)]> (m_vec s)) (m_fresh s) (m_log s))
  end.
(** [node_vec.as_ref()] *)
Definition vec_ref (v : nat) : M A unit := fun s => match m_vec s !! v with Some _ => Ok tt s | None => Err EUB end.

(** rc.rs:73-91 [Node::rc]; the index computed from the addresses of the slot and of the buffer is the slot's index *)
Definition rc p : M A rnode :=
  let! n := get p in
  match n_dat n with
  | DScat _ o => cnt_incr o ;; ret (RScat o)
  | DPiled _ v => vec_incr v ;; cnt_incr (v, p.2) ;; ret (RPile v p.2)
  | _ => fail EPanic
  end.
(** rc.rs:94-107 [Node::into_rc] *)
Definition into_rc p : M A rnode :=
  let! n := get p in
  match n_dat n with
  | DScat _ o => ret (RScat o)
  | DPiled _ v => ret (RPile v p.2)
  | _ => fail EPanic
  end.
(** rc.rs:63-69 [From<Tree> for RcNode] *)
Definition rc_from p : M A rnode := into_rc p.

(** rc.rs:110-123 [Clone for RcNode] *)
Definition rc_clone (r : rnode) : M A rnode :=
  match r with
  | RScat p => cnt_incr p ;; ret (RScat p)
  | RPile v i => vec_ref v ;; cnt_incr (v, i) ;; ret (RPile v i)
  end.

(** * Dynamic borrows *)
Definition borrows : Type := gmap ptr Z.
Definition flag (B : borrows) p : Z := default 0%Z (B !! p).
(** rc.rs:181-194 [node_borrow], 196-209 [node_borrow_mut]: the panics of [RefCell::borrow] / [borrow_mut] and of the
    assertion that the node has data *)
Definition is_none_dat (d : dat A) : bool := match d with DNone => true | _ => false end.
Definition acquire (r : rnode) : M A unit :=
  match r with RScat _ => ret tt | RPile v _ => vec_ref v end.
Definition node_borrow (B : borrows) (r : rnode) : M A unit :=
  acquire r ;;
  let! n := get (raddr r) in
  if bool_decide (flag B (raddr r) < 0)%Z then fail EPanic
  else if is_none_dat (n_dat n) then fail EPanic else ret tt.
Definition node_borrow_mut (B : borrows) (r : rnode) : M A unit :=
  acquire r ;;
  let! n := get (raddr r) in
  if bool_decide (flag B (raddr r) <> 0)%Z then fail EPanic
  else if is_none_dat (n_dat n) then fail EPanic else ret tt.

(** [ptr::drop_in_place] of the [RefCell<Node>] in a slot: the data is dropped, the slot may not be used any more *)
Definition drop_in_place p : M A unit := fun s =>
  match m_heap s !! p with
  | Some n => Ok tt (Mem (delete p (m_heap s)) (m_cnt s) (m_vec s) (m_fresh s) (m_log s ++ dat_vals (n_dat n)))
  | None => Err EUB
  end.

(** rc.rs:125-153 [Drop for RcNode]; [rc_pops] is the loop [while let Some(_) = self.pop_front() {}] (rc.rs:334-336), whose
    loop value, a [RcNode], is dropped in each round.  Loop and recursion share one bound.  For a scattered node the field, an
    [Rc], is dropped after the body. *)
Fixpoint rc_drop_loop (f : nat) (B : borrows) (r : rnode) : M A unit :=
  match f with
  | 0 => fail EFuel
  | S f' =>
    match r with
    | RScat p =>
      let! c := cnt_get p in
      (if Nat.eqb c 1 then rc_pops f' B r else ret tt) ;;
      rc_drop p
    | RPile v i =>
      vec_ref v ;;
      let! c := cnt_decr (v, i) in
      (if Nat.eqb c 0 then rc_pops f' B r ;; drop_in_place (v, i) else ret tt) ;;
      decr_ref v
    end
  end
with rc_pops (f : nat) (B : borrows) (r : rnode) : M A unit :=
  match f with
  | 0 => fail EFuel
  | S f' =>
    node_borrow_mut B r ;;
    let! o := pop_front (raddr r) in
    match o with
    | None => ret tt
    | Some c => let! k := rc_from c in rc_drop_loop f' B k ;; rc_pops f' B r
    end
  end.
Definition rc_drop_handle (B : borrows) (r : rnode) : M A unit :=
  let! f := fuel in rc_drop_loop (2 * f) B r.

(** * Methods of RcNode *)
Definition option_rc (o : option ptr) : M A (option rnode) :=
  match o with None => ret None | Some p => let! r := rc p in ret (Some r) end.
(** rc.rs:259 [front], 272 [back] *)
Definition rc_end (e : side) B r : M A (option rnode) :=
  node_borrow B r ;;
  let! o := match e with Front => front (raddr r) | Back => back (raddr r) end in option_rc o.
(** rc.rs:287 [parent] *)
Definition rc_parent B r : M A (option rnode) := node_borrow B r ;; let! o := parent (raddr r) in option_rc o.
(** rc.rs:167 [is_root] *)
Definition rc_is_root B r : M A bool :=
  node_borrow B r ;; let! o := parent (raddr r) in ret (match o with None => true | Some _ => false end).
(** rc.rs:170 [data] *)
Definition rc_data B r : M A A := node_borrow B r ;; data (raddr r).
(** rc.rs:173 [data_mut], used to overwrite the value *)
Definition rc_modify B r (f : A -> A) : M A unit := node_borrow_mut B r ;; modify_data (raddr r) f.
(** rc.rs:222 [has_no_child], 234 [degree], 246 [node_count] *)
Definition rc_has_no_child B r : M A bool := node_borrow B r ;; has_no_child (raddr r).
Definition rc_degree B r : M A nat := node_borrow B r ;; degree (raddr r).
Definition rc_node_count B r : M A nat := node_borrow B r ;; node_count (raddr r).
(** rc.rs:302 [push_front], 317 [push_back] *)
Definition rc_push (e : side) B r t : M A unit :=
  node_borrow_mut B r ;; match e with Front => push_front (raddr r) t | Back => push_back (raddr r) t end.
(** rc.rs:334 [pop_front], 353 [pop_back] *)
Definition rc_pop (e : side) B r : M A (option rnode) :=
  node_borrow_mut B r ;;
  let! o := match e with Front => pop_front (raddr r) | Back => pop_back (raddr r) end in
  match o with None => ret None | Some t => let! k := rc_from t in ret (Some k) end.
(** rc.rs:367 [prepend], 381 [append] *)
Definition rc_concat (e : side) B r fr : M A unit :=
  node_borrow_mut B r ;; match e with Front => prepend (raddr r) fr | Back => append (raddr r) fr end.
(** rc.rs:395 [insert_prev_sib], 411 [insert_next_sib] *)
Definition rc_insert (e : side) B r t : M A unit :=
  node_borrow_mut B r ;; match e with Front => insert_prev_sib (raddr r) t | Back => insert_next_sib (raddr r) t end.
(** rc.rs:425-427 [detach]: the [RefMut] of the node lives until the end of the statement *)
Definition rc_detach B r : M A unit :=
  node_borrow_mut B r ;;
  let! t := detach (raddr r) in
  let! k := rc_from t in
  rc_drop_handle (<[raddr r := (-1)%Z]> B) k.
(** rc.rs:508 [deep_clone] *)
Definition rc_deep_clone B r : M A ptr := node_borrow B r ;; deep_clone (raddr r).
(** rc.rs:445-452 [iter_rc]; iter_rc.rs:28-35 [IterRc::new] *)
Definition rc_iter B r : M A citer := node_borrow B r ;; iter (raddr r).
(** iter_rc.rs:21-23 [IterRc::next] *)
Definition rc_iter_next (it : citer) : M A (option rnode * citer) :=
  let! x := ci_next it in let! o := option_rc x.1 in ret (o, x.2).

(** iter_rc.rs:37-41 [Clone for IterRc]: the fields are copied *)
Definition rc_iter_clone (it : citer) : citer := it.
(** rc.rs:481-493 [into_tree]: the counters are not changed, the handle is forgotten *)
Definition rc_into_tree B r : M A ptr :=
  let! b := rc_is_root B r in
  if b : bool then
    match r with
    | RScat p => if bool_decide (flag B p <> 0)%Z then fail EPanic else ret p
    | RPile v i => vec_ref v ;; ret (v, i)
    end
  else fail EPanic.

(** rc.rs:523-535 [WeakNode]; 455-460 [RcNode::downgrade]: the weak count of a [Rc] is not modelled, the counters of a buffer are
    not changed *)
Inductive wnode : Type := WScat (p : ptr) | WPile (v i : nat).
Definition rc_downgrade (r : rnode) : wnode := match r with RScat p => WScat p | RPile v i => WPile v i end.
(** rc.rs:538-553 [WeakNode::upgrade] *)
Definition weak_upgrade (w : wnode) : M A (option rnode) :=
  match w with
  | WScat p => fun s => match m_cnt s !! p with
                        | None => Ok None s
                        | Some _ => (cnt_incr p ;; ret (Some (RScat p))) s
                        end
  | WPile v i =>
    vec_ref v ;;
    let! c := cnt_get (v, i) in
    match c with 0 => ret None | S _ => cnt_incr (v, i) ;; ret (Some (RPile v i)) end
  end.
(** rc.rs:555-565 [Drop for WeakNode] *)
Definition weak_drop (w : wnode) : M A unit := match w with WScat _ => ret tt | WPile v _ => decr_ref v end.

(** * The client *)
Record rst : Type := RSt {
  r_env : gmap nat handle;  (* exclusively owned variables *)
  r_h : gmap nat rnode;
  r_w : gmap nat wnode;
  r_g : gmap nat (nat * bool);  (* guards: the RcNode variable they borrow from, whether RefMut *)
  r_b : borrows;
  r_it : gmap nat citer;
  r_mem : mem A
}.
Definition rst0 : rst := RSt ∅ ∅ ∅ ∅ ∅ ∅ mem0.

Inductive rres (X : Type) : Type := RDone (x : X) (c : rst) | RFails (e : err).
Global Arguments RDone {X} x c.
Global Arguments RFails {X} e.

(** run a call and go on with its result and the new memory *)
Definition call {X} (c : rst) (m : M A X) (k : X -> mem A -> rres (out A)) : rres (out A) :=
  match m (r_mem c) with Ok x s => k x s | Err e => RFails e end.

Definition set_mem c s := RSt (r_env c) (r_h c) (r_w c) (r_g c) (r_b c) (r_it c) s.
Definition set_renv c e := RSt e (r_h c) (r_w c) (r_g c) (r_b c) (r_it c) (r_mem c).
Definition set_rh c h := RSt (r_env c) h (r_w c) (r_g c) (r_b c) (r_it c) (r_mem c).
Definition set_rw c w := RSt (r_env c) (r_h c) w (r_g c) (r_b c) (r_it c) (r_mem c).
Definition set_rg c g b := RSt (r_env c) (r_h c) (r_w c) g b (r_it c) (r_mem c).
Definition set_rit c it := RSt (r_env c) (r_h c) (r_w c) (r_g c) (r_b c) it (r_mem c).

(** a new variable for the node returned, if there is one *)
Definition rgive (c : rst) (h' : nat) (o : option rnode) : rres (out A) :=
  match o with
  | Some r => RDone (RBool true) (set_rh c (<[h' := r]> (r_h c)))
  | None => RDone (RBool false) c
  end.

Definition rstep (c : rst) (o : rop A) : rres (out A) :=
  let bad := RDone RBad c in
  let B := r_b c in
  let free_h (h : nat) (k : rres (out A)) := match r_h c !! h with None => k | Some _ => bad end in
  let with_h (h : nat) (k : rnode -> rres (out A)) := match r_h c !! h with Some r => k r | None => bad end in
  match o with
  | SX o => call c (cstep (r_env c) o) (fun x s => RDone x.1 (set_renv (set_mem c s) x.2))
  | SFrom x h => free_h h
    match r_env c !! x with
    | Some (HT p) => call c (rc_from p) (fun r s => RDone RUnit (set_rh (set_renv (set_mem c s) (delete x (r_env c))) (<[h := r]> (r_h c))))
    | _ => bad
    end
  | SClone h h' => free_h h' (with_h h (fun r => call c (rc_clone r) (fun r' s => RDone RUnit (set_rh (set_mem c s) (<[h' := r']> (r_h c))))))
  | SDrop h => with_h h (fun r =>
      if bool_decide (h ∈ ((map_to_list (r_g c)).*2).*1) then bad
      else call c (rc_drop_handle B r) (fun _ s => RDone RUnit (set_rh (set_mem c s) (delete h (r_h c)))))
  | SEnd e h h' => free_h h' (with_h h (fun r => call c (rc_end e B r) (fun o s => rgive (set_mem c s) h' o)))
  | SParent h h' => free_h h' (with_h h (fun r => call c (rc_parent B r) (fun o s => rgive (set_mem c s) h' o)))
  | SPop e h h' => free_h h' (with_h h (fun r => call c (rc_pop e B r) (fun o s => rgive (set_mem c s) h' o)))
  | SPush e h y =>
    match r_env c !! y with
    | Some (HT t) => with_h h (fun r => call c (rc_push e B r t) (fun _ s => RDone RUnit (set_renv (set_mem c s) (delete y (r_env c)))))
    | _ => bad
    end
  | SConcat e h y =>
    match r_env c !! y with
    | Some (HF t) => with_h h (fun r => call c (rc_concat e B r t) (fun _ s => RDone RUnit (set_renv (set_mem c s) (delete y (r_env c)))))
    | _ => bad
    end
  | SInsert e h y =>
    match r_env c !! y with
    | Some (HT t) => with_h h (fun r => call c (rc_insert e B r t) (fun _ s => RDone RUnit (set_renv (set_mem c s) (delete y (r_env c)))))
    | _ => bad
    end
  | SDetach h => with_h h (fun r => call c (rc_detach B r) (fun _ s => RDone RUnit (set_mem c s)))
  | SData h => with_h h (fun r => call c (rc_data B r) (fun a s => RDone (RVal a) (set_mem c s)))
  | SModify h f => with_h h (fun r => call c (rc_modify B r f) (fun _ s => RDone RUnit (set_mem c s)))
  | SDegree h => with_h h (fun r => call c (rc_degree B r) (fun n s => RDone (RNat n) (set_mem c s)))
  | SCount h => with_h h (fun r => call c (rc_node_count B r) (fun n s => RDone (RNat n) (set_mem c s)))
  | SNoChild h => with_h h (fun r => call c (rc_has_no_child B r) (fun b s => RDone (RBool b) (set_mem c s)))
  | SIsRoot h => with_h h (fun r => call c (rc_is_root B r) (fun b s => RDone (RBool b) (set_mem c s)))
  | SDeepClone h x =>
    match r_env c !! x with
    | None => with_h h (fun r => call c (rc_deep_clone B r) (fun p s => RDone RUnit (set_renv (set_mem c s) (<[x := HT p]> (r_env c)))))
    | Some _ => bad
    end
  | SDown h w =>
    match r_w c !! w with
    | None => with_h h (fun r => RDone RUnit (set_rw c (<[w := rc_downgrade r]> (r_w c))))
    | Some _ => bad
    end
  | SUp w h => free_h h
    match r_w c !! w with
    | Some wn => call c (weak_upgrade wn) (fun o s => rgive (set_mem c s) h o)
    | None => bad
    end
  | SDropWeak w =>
    match r_w c !! w with
    | Some wn => call c (weak_drop wn) (fun _ s => RDone RUnit (set_rw (set_mem c s) (delete w (r_w c))))
    | None => bad
    end
  | SGuard m h g =>
    match r_g c !! g with
    | None => with_h h (fun r =>
        let p := raddr r in
        if m : bool then call c (node_borrow_mut B r) (fun _ s => RDone RUnit (set_rg (set_mem c s) (<[g := (h, m)]> (r_g c)) (<[p := (-1)%Z]> B)))
        else call c (node_borrow B r) (fun _ s => RDone RUnit (set_rg (set_mem c s) (<[g := (h, m)]> (r_g c)) (<[p := (flag B p + 1)%Z]> B))))
    | Some _ => bad
    end
  | SRead g =>
    match r_g c !! g with
    | Some (h, _) => with_h h (fun r => call c (data (raddr r)) (fun a s => RDone (RVal a) (set_mem c s)))
    | None => bad
    end
  | SWrite g f =>
    match r_g c !! g with
    | Some (h, true) => with_h h (fun r => call c (modify_data (raddr r) f) (fun _ s => RDone RUnit (set_mem c s)))
    | _ => bad
    end
  | SUnguard g =>
    match r_g c !! g with
    | Some (h, m) => with_h h (fun r =>
        let p := raddr r in
        RDone RUnit (set_rg c (delete g (r_g c)) (<[p := (if m : bool then flag B p + 1 else flag B p - 1)%Z]> B)))
    | None => bad
    end
  | SIter h it =>
    match r_it c !! it with
    | None => with_h h (fun r => call c (rc_iter B r) (fun i s => RDone RUnit (set_rit (set_mem c s) (<[it := i]> (r_it c)))))
    | Some _ => bad
    end
  | SNext it h' => free_h h'
    match r_it c !! it with
    | Some i => call c (rc_iter_next i) (fun x s => rgive (set_rit (set_mem c s) (<[it := x.2]> (r_it c))) h' x.1)
    | None => bad
    end
  | SHint it => match r_it c !! it with Some i => RDone (RNat (ci_size_hint i)) c | None => bad end
  | SIterClone it it' =>
    match r_it c !! it', r_it c !! it with None, Some i => RDone RUnit (set_rit c (<[it' := rc_iter_clone i]> (r_it c))) | _, _ => bad end
  | SIntoTree h x =>
    match r_env c !! x with
    | None => with_h h (fun r =>
        if bool_decide (h ∈ ((map_to_list (r_g c)).*2).*1) then bad
        else call c (rc_into_tree B r) (fun p s => RDone RUnit (set_rh (set_renv (set_mem c s) (<[x := HT p]> (r_env c))) (delete h (r_h c)))))
    | Some _ => bad
    end
  end.

Fixpoint rrun (c : rst) (os : list (rop A)) : rres (list (out A)) :=
  match os with
  | [] => RDone [] c
  | o :: os' =>
    match rstep c o with
    | RDone r c' => match rrun c' os' with RDone rs c'' => RDone (r :: rs) c'' | RFails e => RFails e end
    | RFails e => RFails e
    end
  end.

End model.
Arguments rst : clear implicits.
