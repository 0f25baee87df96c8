(** PropRcClone.v — C51 for shared nodes: [deep_clone] of an [RcNode] where [T::clone] panics.
    [rp_deep_clone c f h x]: [let x = h.deep_clone()] with the panic caught; [f hist a] is what [T::clone] gives for [a] after the calls [hist], [None]: it panics.
    [reached c σ] (RcClient): a history of the shared interface leads to [c], on the specification's graph of nodes to [σ]; [lfind i]: the tree below node [i],
    [erase]: its values; [readable]: no [RefMut] of the node is alive; [panics_at f []]: at which of the values [f] panics (PanicSpec); [rlive]: reachable for the client. *)
From stdpp Require Import base gmap list.
From Verif Require Import Spec ClientSpec RcSpec PanicSpec Machine NodeModel ClientModel PanicModel RcModel RcAllowed RcClient RcClonePanicModel RcDemo PanicDemo RcClonePanic.

(** if [T::clone] panics for one of the values below the node, the call panics and changes nothing: the same variables, handles and borrows ([set_mem]), nothing is dropped,
    every node in reach, its reference count and the count of its buffer are as before *)
Theorem C51_shared_clone_panics {A : Type} (c : rst A) (σ : rss A) (f : list A -> A -> option A) (h x i : nat) (t : ltree A) (k : nat) :
  reached c σ -> rs_h σ !! h = Some i -> lfind i (rs_sh σ) = Some t -> env_of σ !! x = None -> readable σ i = true ->
  panics_at f [] (root_of <$> level_order (erase t)) = Some k ->
  exists s', rp_deep_clone c f h x = RDone PPanic (set_mem c s') /\ m_log s' = m_log (r_mem c) /\
    forall p, rlive c p -> m_heap s' !! p = m_heap (r_mem c) !! p /\ m_cnt s' !! p = m_cnt (r_mem c) !! p /\ snd <$> m_vec s' !! p.1 = snd <$> m_vec (r_mem c) !! p.1.
Proof. exact (rc_clone_panics c σ f h x i t k). Qed.
Print Assumptions C51_shared_clone_panics.

(** otherwise [x] is the tree of the values [T::clone] gave, and the program goes on accordingly *)
Theorem C51_shared_clone_returns {A : Type} (c : rst A) (σ : rss A) (f : list A -> A -> option A) (h x i : nat) (t : ltree A) (os : list (rop A)) :
  reached c σ -> rs_h σ !! h = Some i -> lfind i (rs_sh σ) = Some t -> env_of σ !! x = None -> readable σ i = true ->
  panics_at f [] (root_of <$> level_order (erase t)) = None ->
  exists c', rp_deep_clone c f h x = RDone (PRet RUnit) c' /\
    let σ' := set_env σ (<[x := ITree (bfs_fmap (calm f) (erase t))]> (env_of σ)) in
    (allowed c' σ' os -> match rsrun σ' os with Some (rs, _) => exists c'', rrun c' os = RDone rs c'' | None => rrun c' os = RFails EPanic end).
Proof. exact (rc_clone_goes_on c σ f h x i t os). Qed.
Print Assumptions C51_shared_clone_returns.

(** handle 0 is the root of 0( 1( 2 3 ) 4 ) with 1 changed to 11 *)
Definition picky (v : nat) (hist : list nat) (a : nat) : option nat := if Nat.eqb a v then None else Some (a + 100 + length hist).
Example C51_shared_clone_ex : reached rdemo_c rdemo_s /\
  (exists i t, rs_h rdemo_s !! 0 = Some i /\ lfind i (rs_sh rdemo_s) = Some t /\ readable rdemo_s i = true /\ erase t = Tr 0 [Tr 11 [Tr 2 []; Tr 3 []]; Tr 4 []] /\
    panics_at (picky 2) [] (root_of <$> level_order (erase t)) = Some 3 /\ panics_at (picky 9) [] (root_of <$> level_order (erase t)) = None) /\
  env_of rdemo_s !! 30 = None /\
  match rp_deep_clone rdemo_c (picky 2) 0 30 with RDone r c => r = PPanic /\ m_log (r_mem c) = m_log (r_mem rdemo_c) | RFails _ => False end /\
  match rp_deep_clone rdemo_c (picky 9) 0 30 with
  | RDone r c => r = PRet RUnit /\ match rrun c [SX (OBfs 30 [])] with RDone rs _ => rs = [RVisits [(100, 2, 4); (112, 2, 2); (106, 0, 0); (105, 0, 0); (107, 0, 0)]] | RFails _ => False end
  | RFails _ => False end.
Proof.
  split; [exact rdemo_reached|]. split; [eexists _, _; vm_compute; auto 10|]. vm_compute. auto 10.
Qed.

(** while a [RefMut] of the node is alive the call panics at once (a panic of the library: [EPanic]; C56 says what it leaves) *)
Theorem C51_shared_clone_borrowed {A : Type} (c : rst A) (σ : rss A) (f : list A -> A -> option A) (h x i : nat) (t : ltree A) :
  reached c σ -> rs_h σ !! h = Some i -> lfind i (rs_sh σ) = Some t -> env_of σ !! x = None -> readable σ i = false -> rp_deep_clone c f h x = RFails EPanic.
Proof. exact (rc_clone_borrowed c σ f h x i t). Qed.
Print Assumptions C51_shared_clone_borrowed.
Definition borrowed_ops : list (rop nat) := scattered_tree ++ [SGuard true 0 0].
Example C51_shared_borrowed_ex : allowed rst0 rss0 borrowed_ops /\
  match rrun rst0 borrowed_ops, rsrun rss0 borrowed_ops with
  | RDone _ c, Some (_, σ) => (exists i t, rs_h σ !! 0 = Some i /\ lfind i (rs_sh σ) = Some t /\ readable σ i = false) /\ env_of σ !! 30 = None /\ rp_deep_clone c (fun _ a => Some a) 0 30 = RFails EPanic
  | _, _ => False
  end.
Proof. split; [apply allowedb_ok; vm_compute; reflexivity|]. vm_compute. split; [eexists _, _; auto|auto]. Qed.
