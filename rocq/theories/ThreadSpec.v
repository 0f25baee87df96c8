(** ThreadSpec.v — vocabulary for programs of several threads.  No proofs. *)
From stdpp Require Import base gmap list.
From Verif Require Import Machine NodeModel ClientModel ThreadModel.

(** how many slots of buffer [v] a program gives up *)
Fixpoint gives (v : nat) (l : list ev) : nat :=
  match l with
  | [] => 0
  | Decr w :: l' => (if decide (w = v) then 1 else 0) + gives v l'
  | Touch _ :: l' => gives v l'
  end.
Definition gives_all (v : nat) (progs : list (list ev)) : nat := sum_list (map (gives v) progs).

(** [keep v]: number of slots of buffer [v] in trees that nobody drops.
    A program touches a slot of [v] only while its thread still owns one: it gives one up later, or some are kept *)
Definition owns (keep : nat -> nat) (l : list ev) : Prop :=
  forall l1 v l2, l = l1 ++ Touch v :: l2 -> 0 < gives v l2 + keep v.

(** the counter of every buffer is the number of its slots in use, as on a single thread *)
Definition counted (keep : nat -> nat) (vec : gmap nat nat) (progs : list (list ev)) : Prop :=
  forall v, vec !! v = match gives_all v progs + keep v with 0 => None | n => Some n end.

(** no buffer has slots in two threads *)
Definition separate (progs : list (list ev)) : Prop :=
  forall i j l l' v, progs !! i = Some l -> progs !! j = Some l' -> 0 < gives v l -> 0 < gives v l' -> i = j.

(** some variable other than those in [hs] owns a node in buffer [v] *)
Definition used_by_others {A} (c : cst A) (hs : list nat) (v : nat) : Prop :=
  exists h hd path p, h ∉ hs /\ c_env c !! h = Some hd /\ resolve (addr hd) path (c_mem c) = Ok (Some p) (c_mem c) /\ p.1 = v.
