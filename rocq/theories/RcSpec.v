(** RcSpec.v — what a client sees of the reference-counting API (rc.rs, iter_rc.rs), without memory and counters.
    The nodes under shared ownership form a list of labelled trees: every node has an identity.  An [RcNode] variable holds
    the identity of a node.  The other variables (exclusively owned trees and forests) are those of ClientSpec. *)
From stdpp Require Import base gmap list.
From Verif Require Import Spec ClientSpec.

Section spec.
Context {A : Type}.

Inductive ltree : Type := LN (i : nat) (a : A) (ks : list ltree).
Definition lid (t : ltree) : nat := let 'LN i _ _ := t in i.
Definition lval (t : ltree) : A := let 'LN _ a _ := t in a.
Definition lkids (t : ltree) : list ltree := let 'LN _ _ ks := t in ks.

(** the tree without the identities *)
Fixpoint erase (t : ltree) : tree A := let 'LN _ a ks := t in Tr a (map erase ks).
(** all nodes of a tree, each with everything below it *)
Fixpoint lsubs (t : ltree) : list ltree := t :: flat_map lsubs (lkids t).
Definition lall (ts : list ltree) : list ltree := flat_map lsubs ts.
(** the nodes alive *)
Definition lids (ts : list ltree) : list nat := lid <$> lall ts.
(** the node [i] *)
Definition lfind (i : nat) (ts : list ltree) : option ltree := head (filter (fun t => lid t = i) (lall ts)).
(** the parent of node [i] *)
Definition lparent (i : nat) (ts : list ltree) : option ltree :=
  head (filter (fun t => i ∈ lid <$> lkids t) (lall ts)).
(** the sibling that follows node [i] *)
Fixpoint follower (i : nat) (ks : list ltree) : option nat :=
  match ks with
  | [] => None
  | k :: ks' => if decide (lid k = i) then lid <$> head ks' else follower i ks'
  end.
Definition lnext (i : nat) (ts : list ltree) : option nat :=
  match lparent i ts with Some u => follower i (lkids u) | None => None end.

(** replace the node [i] by [f] of it *)
Fixpoint lmap_at (i : nat) (f : ltree -> ltree) (t : ltree) : ltree :=
  let 'LN j a ks := t in if decide (j = i) then f t else LN j a (map (lmap_at i f) ks).
Definition set_lkids (g : list ltree -> list ltree) (t : ltree) : ltree := let 'LN i a ks := t in LN i a (g ks).
Definition set_lval (g : A -> A) (t : ltree) : ltree := let 'LN i a ks := t in LN i (g a) ks.

(** identities for the nodes of a tree, counted from [n] *)
Fixpoint label (n : nat) (t : tree A) : ltree :=
  let 'Tr a ts := t in
  LN n a ((fix go (n : nat) (ts : list (tree A)) : list ltree :=
             match ts with [] => [] | t :: ts' => label n t :: go (n + nodes t) ts' end) (S n) ts).
Fixpoint label_f (n : nat) (ts : list (tree A)) : list ltree :=
  match ts with [] => [] | t :: ts' => label n t :: label_f (n + nodes t) ts' end.

(** * Release of a root that has no handle any more *)
(** [P i]: node [i] has a handle.  The children with a handle live on as separate trees, the other children are released
    in the same way; the values are dropped children first. *)
Fixpoint surv (P : nat -> bool) (t : ltree) : list ltree :=
  flat_map (fun k => if P (lid k) then [k] else surv P k) (lkids t).
Fixpoint lost (P : nat -> bool) (t : ltree) : list A :=
  flat_map (fun k => if P (lid k) then [] else lost P k) (lkids t) ++ [lval t].

(** * The client *)
Inductive rop : Type :=
  | SX (o : op A)                            (* an operation on exclusively owned trees and forests *)
  | SFrom (x h : nat)                        (* let h = RcNode::from(x) *)
  | SClone (h h' : nat)                      (* let h' = h.clone() *)
  | SDrop (h : nat)                          (* drop(h) *)
  | SEnd (e : side) (h h' : nat)             (* let h' = h.front() / h.back() *)
  | SParent (h h' : nat)                     (* let h' = h.parent() *)
  | SPop (e : side) (h h' : nat)             (* let h' = h.pop_front() / h.pop_back() *)
  | SPush (e : side) (h y : nat)             (* h.push_front(y) / h.push_back(y) *)
  | SConcat (e : side) (h y : nat)           (* h.prepend(y) / h.append(y) *)
  | SInsert (e : side) (h y : nat)           (* h.insert_prev_sib(y) / h.insert_next_sib(y) *)
  | SDetach (h : nat)                        (* h.detach() *)
  | SData (h : nat)                          (* h.data().clone() *)
  | SModify (h : nat) (f : A -> A)           (* let mut d = h.data_mut(); *d = f(d) *)
  | SDegree (h : nat) | SCount (h : nat) | SNoChild (h : nat) | SIsRoot (h : nat)
  | SDeepClone (h x : nat)                   (* let x = h.deep_clone() *)
  | SDown (h w : nat)                        (* let w = h.downgrade() *)
  | SUp (w h : nat)                          (* let h = w.upgrade() *)
  | SDropWeak (w : nat)                      (* drop(w) *)
  | SGuard (m : bool) (h g : nat)            (* let g = h.data_mut() if m / h.data() *)
  | SRead (g : nat)                          (* g.clone() *)
  | SWrite (g : nat) (f : A -> A)            (* *g = f(g) *)
  | SUnguard (g : nat)                       (* drop(g) *)
  | SIter (h it : nat)                       (* let it = h.iter_rc() *)
  | SNext (it h' : nat)                      (* let h' = it.next() *)
  | SHint (it : nat)                         (* it.size_hint() *)
  | SIterClone (it it' : nat)                (* let it' = it.clone() *)
  | SIntoTree (h x : nat).                   (* let x = unsafe { h.into_tree() } *)

Record rss : Type := RSS {
  rs_x : sst A;                  (* exclusively owned variables; values dropped *)
  rs_sh : list ltree;            (* the shared trees *)
  rs_h : gmap nat nat;           (* RcNode variables *)
  rs_w : gmap nat nat;           (* WeakNode variables *)
  rs_g : gmap nat (nat * bool);  (* Ref / RefMut (true) variables: the RcNode variable they borrow from *)
  rs_it : gmap nat (option nat * nat);  (* IterRc variables: node to be yielded next, number of nodes left *)
  rs_next : nat                  (* the next identity *)
}.
Definition rss0 : rss := RSS sst0 [] ∅ ∅ ∅ ∅ 0.

(** some variable refers to node [i] *)
Definition held (H : gmap nat nat) (i : nat) : bool := bool_decide (i ∈ (map_to_list H).*2).
(** the guards alive on node [i] *)
Definition guards_on (H : gmap nat nat) (G : gmap nat (nat * bool)) (i : nat) : list bool :=
  omap (fun hm : nat * bool => if decide (H !! hm.1 = Some i) then Some hm.2 else None) (map_to_list G).*2.
(** [h.data()] and the methods that only look at the node need: no RefMut alive *)
Definition readable (σ : rss) (i : nat) : bool := bool_decide (true ∉ guards_on (rs_h σ) (rs_g σ) i).
(** [h.data_mut()] and the methods that change the node need: no Ref and no RefMut alive *)
Definition writable (σ : rss) (i : nat) : bool := bool_decide (guards_on (rs_h σ) (rs_g σ) i = []).

Definition set_x σ x := RSS x (rs_sh σ) (rs_h σ) (rs_w σ) (rs_g σ) (rs_it σ) (rs_next σ).
Definition set_sh σ sh := RSS (rs_x σ) sh (rs_h σ) (rs_w σ) (rs_g σ) (rs_it σ) (rs_next σ).
Definition set_h σ h := RSS (rs_x σ) (rs_sh σ) h (rs_w σ) (rs_g σ) (rs_it σ) (rs_next σ).
Definition set_w σ w := RSS (rs_x σ) (rs_sh σ) (rs_h σ) w (rs_g σ) (rs_it σ) (rs_next σ).
Definition set_g σ g := RSS (rs_x σ) (rs_sh σ) (rs_h σ) (rs_w σ) g (rs_it σ) (rs_next σ).
Definition set_it σ it := RSS (rs_x σ) (rs_sh σ) (rs_h σ) (rs_w σ) (rs_g σ) it (rs_next σ).
Definition set_nx σ n := RSS (rs_x σ) (rs_sh σ) (rs_h σ) (rs_w σ) (rs_g σ) (rs_it σ) n.
Definition env_of σ := s_env (rs_x σ).
Definition set_env σ env := set_x σ (SSt env (s_log (rs_x σ))).

(** the children [ks], one put next to node [i] *)
Definition insert_sib (e : side) (i : nat) (t : ltree) (ks : list ltree) : list ltree :=
  flat_map (fun k => if decide (lid k = i) then (match e with Front => [t; k] | Back => [k; t] end) else [k]) ks.
Definition remove_kid (i : nat) (ks : list ltree) : list ltree := filter (fun k => lid k <> i) ks.

(** a method that needs the node of [h] for reading / for writing; [None]: it panics *)
Definition on_node (σ : rss) (h : nat) (k : nat -> ltree -> option (out A * rss)) : option (out A * rss) :=
  match rs_h σ !! h with
  | Some i => match lfind i (rs_sh σ) with Some t => k i t | None => Some (RBad, σ) end
  | None => Some (RBad, σ)
  end.
Definition reading σ h k := on_node σ h (fun i t => if readable σ i then k i t else None).
Definition writing σ h k := on_node σ h (fun i t => if writable σ i then k i t else None).

(** a new variable [h'] for node [o], if there is one *)
Definition give (σ : rss) (h' : nat) (o : option nat) : option (out A * rss) :=
  match o with
  | Some i => Some (RBool true, set_h σ (<[h' := i]> (rs_h σ)))
  | None => Some (RBool false, σ)
  end.

(** dropping the variable [h] *)
Definition drop_handle (σ : rss) (h i : nat) : rss :=
  let H' := delete h (rs_h σ) in
  let σ' := set_h σ H' in
  if held H' i then σ'
  else if decide (i ∈ lid <$> rs_sh σ) then
    set_x (set_sh σ' (flat_map (fun t => if decide (lid t = i) then surv (held H') t else [t]) (rs_sh σ)))
          (SSt (env_of σ) (s_log (rs_x σ) ++ flat_map (fun t => if decide (lid t = i) then lost (held H') t else []) (rs_sh σ)))
  else σ'.

Definition rsstep (σ : rss) (o : rop) : option (out A * rss) :=
  let bad := Some (RBad, σ) in
  let free_h (h : nat) (k : option (out A * rss)) := match rs_h σ !! h with None => k | Some _ => bad end in
  match o with
  | SX o => match sstep (rs_x σ) o with Some (r, x) => Some (r, set_x σ x) | None => None end
  | SFrom x h => free_h h
    match env_of σ !! x with
    | Some (ITree t) =>
      Some (RUnit, set_nx (set_h (set_sh (set_env σ (delete x (env_of σ))) (rs_sh σ ++ [label (rs_next σ) t]))
                                 (<[h := rs_next σ]> (rs_h σ))) (rs_next σ + nodes t))
    | _ => bad
    end
  | SClone h h' => free_h h' (on_node σ h (fun i _ => Some (RUnit, set_h σ (<[h' := i]> (rs_h σ)))))
  | SDrop h =>
    match rs_h σ !! h with
    | Some i => if bool_decide (h ∈ ((map_to_list (rs_g σ)).*2).*1) then bad else Some (RUnit, drop_handle σ h i)
    | None => bad
    end
  | SEnd e h h' => free_h h' (reading σ h (fun i t => give σ h' (lid <$> match e with Front => head (lkids t) | Back => last (lkids t) end)))
  | SParent h h' => free_h h' (reading σ h (fun i t => give σ h' (lid <$> lparent i (rs_sh σ))))
  | SPop e h h' => free_h h' (writing σ h (fun i t =>
      match (match e with Front => head (lkids t) | Back => last (lkids t) end) with
      | Some k =>
        Some (RBool true, set_h (set_sh σ (map (lmap_at i (set_lkids (remove_kid (lid k)))) (rs_sh σ) ++ [k]))
                                (<[h' := lid k]> (rs_h σ)))
      | None => Some (RBool false, σ)
      end))
  | SPush e h y =>
    match env_of σ !! y with
    | Some (ITree t) => writing σ h (fun i _ =>
        let k := label (rs_next σ) t in
        Some (RUnit, set_nx (set_sh (set_env σ (delete y (env_of σ)))
                                    (map (lmap_at i (set_lkids (fun ks => match e with Front => k :: ks | Back => ks ++ [k] end))) (rs_sh σ)))
                            (rs_next σ + nodes t)))
    | _ => bad
    end
  | SConcat e h y =>
    match env_of σ !! y with
    | Some (IForest ts) => writing σ h (fun i _ =>
        let l := label_f (rs_next σ) ts in
        Some (RUnit, set_nx (set_sh (set_env σ (delete y (env_of σ)))
                                    (map (lmap_at i (set_lkids (fun ks => match e with Front => l ++ ks | Back => ks ++ l end))) (rs_sh σ)))
                            (rs_next σ + nodes_f ts)))
    | _ => bad
    end
  | SInsert e h y =>
    match env_of σ !! y with
    | Some (ITree t) => writing σ h (fun i _ =>
        match lparent i (rs_sh σ) with
        | Some u =>
          Some (RUnit, set_nx (set_sh (set_env σ (delete y (env_of σ)))
                                      (map (lmap_at (lid u) (set_lkids (insert_sib e i (label (rs_next σ) t)))) (rs_sh σ)))
                              (rs_next σ + nodes t))
        | None => None
        end)
    | _ => bad
    end
  | SDetach h => writing σ h (fun i t =>
      match lparent i (rs_sh σ) with
      | Some u => Some (RUnit, set_sh σ (map (lmap_at (lid u) (set_lkids (remove_kid i))) (rs_sh σ) ++ [t]))
      | None => None
      end)
  | SData h => reading σ h (fun i t => Some (RVal (lval t), σ))
  | SModify h f => writing σ h (fun i t => Some (RUnit, set_sh σ (map (lmap_at i (set_lval f)) (rs_sh σ))))
  | SDegree h => reading σ h (fun i t => Some (RNat (length (lkids t)), σ))
  | SCount h => reading σ h (fun i t => Some (RNat (length (lsubs t)), σ))
  | SNoChild h => reading σ h (fun i t => Some (RBool (match lkids t with [] => true | _ => false end), σ))
  | SIsRoot h => reading σ h (fun i t => Some (RBool (bool_decide (i ∈ lid <$> rs_sh σ)), σ))
  | SDeepClone h x =>
    match env_of σ !! x with
    | None => reading σ h (fun i t => Some (RUnit, set_env σ (<[x := ITree (erase t)]> (env_of σ))))
    | Some _ => bad
    end
  | SDown h w =>
    match rs_w σ !! w with None => on_node σ h (fun i _ => Some (RUnit, set_w σ (<[w := i]> (rs_w σ)))) | Some _ => bad end
  | SUp w h => free_h h
    match rs_w σ !! w with
    | Some i => give σ h (if decide (i ∈ lids (rs_sh σ)) then Some i else None)
    | None => bad
    end
  | SDropWeak w => match rs_w σ !! w with Some _ => Some (RUnit, set_w σ (delete w (rs_w σ))) | None => bad end
  | SGuard m h g =>
    match rs_g σ !! g with
    | None => (if m : bool then writing σ h else reading σ h) (fun i _ => Some (RUnit, set_g σ (<[g := (h, m)]> (rs_g σ))))
    | Some _ => bad
    end
  | SRead g =>
    match rs_g σ !! g with
    | Some (h, _) => on_node σ h (fun i t => Some (RVal (lval t), σ))
    | None => bad
    end
  | SWrite g f =>
    match rs_g σ !! g with
    | Some (h, true) => on_node σ h (fun i t => Some (RUnit, set_sh σ (map (lmap_at i (set_lval f)) (rs_sh σ))))
    | _ => bad
    end
  | SUnguard g => match rs_g σ !! g with Some _ => Some (RUnit, set_g σ (delete g (rs_g σ))) | None => bad end
  | SIter h it =>
    match rs_it σ !! it with
    | None => reading σ h (fun i t => Some (RUnit, set_it σ (<[it := (lid <$> head (lkids t), length (lkids t))]> (rs_it σ))))
    | Some _ => bad
    end
  | SNext it h' => free_h h'
    match rs_it σ !! it with
    | Some (cur, S n) =>
      match cur with
      | Some j => give (set_it σ (<[it := (lnext j (rs_sh σ), n)]> (rs_it σ))) h' (Some j)
      | None => Some (RBool false, set_it σ (<[it := (None, n)]> (rs_it σ)))
      end
    | Some (_, 0) => Some (RBool false, σ)
    | None => bad
    end
  | SHint it => match rs_it σ !! it with Some (_, n) => Some (RNat n, σ) | None => bad end
  | SIterClone it it' =>
    match rs_it σ !! it', rs_it σ !! it with None, Some y => Some (RUnit, set_it σ (<[it' := y]> (rs_it σ))) | _, _ => bad end
  | SIntoTree h x =>
    match env_of σ !! x with
    | None => if bool_decide (h ∈ ((map_to_list (rs_g σ)).*2).*1) then bad
              else reading σ h (fun i t =>
                if decide (i ∈ lid <$> rs_sh σ) then
                  Some (RUnit, set_h (set_sh (set_env σ (<[x := ITree (erase t)]> (env_of σ))) (filter (fun u => lid u <> i) (rs_sh σ))) (delete h (rs_h σ)))
                else None)
    | Some _ => bad
    end
  end.

Fixpoint rsrun (σ : rss) (os : list rop) : option (list (out A) * rss) :=
  match os with
  | [] => Some ([], σ)
  | o :: os' =>
    match rsstep σ o with
    | Some (r, σ') => match rsrun σ' os' with Some (rs, σ'') => Some (r :: rs, σ'') | None => None end
    | None => None
    end
  end.

End spec.
Arguments ltree : clear implicits.
Arguments rop : clear implicits.
Arguments rss : clear implicits.
