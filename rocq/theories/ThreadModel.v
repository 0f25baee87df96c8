(** ThreadModel.v — buffers used from several threads.  No proofs.
    walk.rs:460-461 and 641-642 declare [TreeWalk] and [ForestWalk] [Send]: a tree inside a walk may be moved to another thread.
    The counter of a buffer, [NodeVec::ref_cnt], is a [Cell<usize>] (node_vec.rs:10-13), not an atomic: [RefCount::decr]
    (rc.rs:40-48) is a load followed by a store, and between them another thread may run.
    Simplification: memory is sequentially consistent (a data race is not itself counted as an error); of what a thread does only
    the accesses to buffers are kept: looking at or changing a slot ([Touch]) and giving up a slot ([Decr], i.e. [NodeVec::decr_ref],
    node_vec.rs:171-179).  Nothing in the exclusive-ownership API increments the counter. *)
From stdpp Require Import base gmap list.
From Verif Require Import Machine NodeModel ClientModel.

Inductive ev : Type := Touch (v : nat) | Decr (v : nat).

(** a thread: the value loaded by a [Decr] under way, and what is left to do *)
Record thread : Type := Th { pending : option (nat * nat); prog : list ev }.
(** the live buffers with their counters, and the threads *)
Record tst : Type := TSt { t_vec : gmap nat nat; t_th : list thread }.

Inductive tres : Type := TOk (st : tst) | TBad.  (* [TBad]: access to a released buffer, or panic of [decr] at 0 *)

(** thread [k] makes one step *)
Definition tstep (st : tst) (k : nat) : tres :=
  match t_th st !! k with
  | None => TOk st
  | Some (Th (Some (v, c)) l) =>        (* the store *)
    match t_vec st !! v, c with
    | None, _ | _, 0 => TBad
    | Some _, 1 => TOk (TSt (delete v (t_vec st)) (<[k := Th None l]> (t_th st)))      (* [drop(Box::from_raw(..))] *)
    | Some _, S c' => TOk (TSt (<[v := c']> (t_vec st)) (<[k := Th None l]> (t_th st)))
    end
  | Some (Th None (Touch v :: l)) =>
    match t_vec st !! v with
    | None => TBad
    | Some _ => TOk (TSt (t_vec st) (<[k := Th None l]> (t_th st)))
    end
  | Some (Th None (Decr v :: l)) =>     (* the load *)
    match t_vec st !! v with
    | None => TBad
    | Some c => TOk (TSt (t_vec st) (<[k := Th (Some (v, c)) l]> (t_th st)))
    end
  | Some (Th None []) => TOk st
  end.

(** a schedule says whose turn it is *)
Fixpoint trun (st : tst) (sched : list nat) : tres :=
  match sched with
  | [] => TOk st
  | k :: sched' => match tstep st k with TOk st' => trun st' sched' | TBad => TBad end
  end.

Definition start (vec : gmap nat nat) (progs : list (list ev)) : tst := TSt vec (map (Th None) progs).
Definition finished (st : tst) : Prop := forall th, th ∈ t_th st -> th = Th None [].

(** * What dropping a tree does to the buffers *)
Section events.
Context {A : Type}.
(** tree.rs:244-249, forest.rs:277-282 [Drop] and heap.rs:32-46 [drop_node]: for every node, its children first; a piled node is
    looked at before and its slot given up after its children are dropped *)
Definition node_events (d : dat A) (es : list ev) : list ev :=
  match d with DPiled _ v | DPiledN v => Touch v :: es ++ [Decr v] | _ => es end.
Fixpoint drop_events (f : nat) (p : ptr) : M A (list ev) :=
  match f with
  | 0 => fail EFuel
  | S f' =>
    let! n := get p in
    let! cs := children p in
    let! es := (fix go (cs : list ptr) : M A (list ev) :=
                  match cs with
                  | [] => ret []
                  | c :: cs' => let! es := drop_events f' c in let! es' := go cs' in ret (es ++ es')
                  end) cs in
    ret (node_events (n_dat n) es)
  end.
(** a thread that owns the variables [hs] and drops them one after the other *)
Fixpoint thread_events (env : gmap nat handle) (hs : list nat) : M A (list ev) :=
  match hs with
  | [] => ret []
  | h :: hs' =>
    match env !! h with
    | None => thread_events env hs'
    | Some hd => let! f := fuel in let! es := drop_events f (addr hd) in let! es' := thread_events env hs' in ret (es ++ es')
    end
  end.
Fixpoint threads_events (env : gmap nat handle) (hss : list (list nat)) : M A (list (list ev)) :=
  match hss with
  | [] => ret []
  | hs :: hss' => let! es := thread_events env hs in let! ess := threads_events env hss' in ret (es :: ess)
  end.
End events.
