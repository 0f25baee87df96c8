(** PropIter.v — C36: size hints are exact and iterators are fused. *)
From stdpp Require Import base gmap list.
From Verif Require Import Spec ClientSpec Machine NodeModel ClientModel Reach IterModel IterProofs BfsProps Demo.

(** [Iter]: let [p] be any node, or the root of a forest, and [cs] its children, the [i]-th at [path ++ [i]].  The [i]-th of [n]
    rounds of [size_hint], [next] tells [length cs - i] and yields the [i]-th child, None from the [length cs]-th on. *)
Theorem C36_iter {A : Type} (c : cst A) (h : nat) (hd : handle) (path : list nat) (p : ptr) :
  reachable c -> c_env c !! h = Some hd -> resolve (addr hd) path (c_mem c) = Ok (Some p) (c_mem c) ->
  exists cs, returns c (degree p) (length cs) /\ (forall i, returns c (resolve (addr hd) (path ++ [i])) (cs !! i)) /\
    forall n, returns c (iter_run n p) ((fun i => (length cs - i, cs !! i)) <$> seq 0 n).
Proof. exact (iter_prop c h hd path p). Qed.
Print Assumptions C36_iter.
(** [(&node).into_iter()]: the node itself, once *)
Theorem C36_once {A : Type} (c : cst A) (h : nat) (hd : handle) (path : list nat) (p : ptr) (n : nat) :
  reachable c -> c_env c !! h = Some hd -> resolve (addr hd) path (c_mem c) = Ok (Some p) (c_mem c) ->
  returns c (once_run n p) ((fun i => match i with 0 => (1, Some p) | _ => (0, None) end) <$> seq 0 n).
Proof. exact (once_prop c h hd path p n). Qed.
Print Assumptions C36_once.
(** [IterMut], with the children already yielded being modified, detached or given new siblings meanwhile: the hint before each
    [next] is the number of the children still to come, 0 after the last, and [next] gives None again. *)
Theorem C36_iter_mut {A : Type} (c : cst A) (env : gmap nat (item A)) (h : nat) (path : list nat) (acts : list (list (act A))) (it : item A) (ts : list (tree A)) :
  reachable c -> contents c env -> env !! h = Some it -> kids_at it path = Some ts ->
  exists c', step c (OEach h path acts) = Done (REach (imap (fun i (t : tree A) => (length ts - i, root_of t)) ts) 0 false) c'.
Proof. exact (each_hints c env h path acts it ts). Qed.
Print Assumptions C36_iter_mut.
(** [IntoIter]: the same, [xs] are the variables that take the trees *)
Theorem C36_into_iter {A : Type} (c : cst A) (env : gmap nat (item A)) (h : nat) (xs : list nat) (it : item A) :
  reachable c -> contents c env -> env !! h = Some it -> NoDup xs -> Forall (fun x => env !! x = None) xs ->
  exists c', step c (OIntoIter h xs) = Done (RNats (imap (fun i _ => length (trees_of it) - i) xs)) c' /\
    contents c' (bind_trees xs (trees_of it) (delete h env)) /\
    forall i x, xs !! i = Some x -> c_env c' !! x = None <-> length (trees_of it) <= i.
Proof. exact (into_hints c env h xs it). Qed.
Print Assumptions C36_into_iter.

Definition at_0 (path : list nat) : ptr :=
  match c_env demo_c !! 0 with
  | Some hd => match resolve (addr hd) path (c_mem demo_c) with Ok (Some p) _ => p | _ => (0, 0) end
  | None => (0, 0)
  end.
Example C36_ex : reachable demo_c /\ result demo_c (iter_run 4 (at_0 [0])) = Some [(2, Some (at_0 [0; 0])); (1, Some (at_0 [0; 1])); (0, None); (0, None)] /\
  at_0 [0; 0] <> at_0 [0; 1] /\ result demo_c (once_run 3 (at_0 [0])) = Some [(1, Some (at_0 [0])); (0, None); (0, None)].
Proof. split; [exact (proj1 demo_ok)|]. vm_compute. split_and!; congruence. Qed.
Example C36_ex_mut : match step demo_c (OEach 2 [] [[AIns 0 Back 1]; [ADetach 0 3]]) with Done r _ => r = REach [(2, 7); (1, 6)] 0 false | Fails _ => False end.
Proof. vm_compute. auto. Qed.
Example C36_ex_into : match step demo_c (OIntoIter 2 [10; 11; 12; 13]) with
  | Done r c => r = RNats [2; 1; 0; 0] /\ c_env c !! 11 <> None /\ c_env c !! 12 = None | Fails _ => False end.
Proof. vm_compute. split_and!; congruence. Qed.
