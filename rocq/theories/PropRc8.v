(** PropRc8.v — C54: [Extend] for [RcNode] with an iterator that uses the library. *)
From stdpp Require Import base gmap list.
From Verif Require Import Spec ClientSpec RcSpec Machine NodeModel ClientModel RcModel RcAllowed RcClient RcStep4 RcProps2 RcDemo RcExtItModel RcExtItProofs.

(** * C54.  [h.extend(it)] for any iterator: the operations its [next] runs, on any variables but [h], also on the same node through other handles, take effect in
    order, and each tree becomes the last child of the node when it is given; [extend] panics exactly when an operation does or a guard of the node is alive when a
    tree is to be pushed; when it returns, or passes a panic of the iterator on, the program goes on as after an allowed history, and [h] is still the same node. *)
Theorem C54_extend_iterator {A : Type} (c : rst A) (σ : rss A) (h : nat) (r : rnode) (i : nat) (p : iprog A) :
  reached c σ -> r_h c !! h = Some r -> rs_h σ !! h = Some i -> iprog_allowed op_allowed h p c σ ->
  match extend_it_spec i p σ with
  | Some (x, σ') => exists c', rextend_it c h p = RDone x c' /\ reached c' σ' /\ r_h c' !! h = Some r /\ rs_h σ' !! h = Some i
  | None => rextend_it c h p = RFails EPanic
  end.
Proof. exact (rextend_it_ok h r i p c σ). Qed.
Print Assumptions C54_extend_iterator.

(** an iterator that makes a tree, looks through another handle of the node how many children it has by now, takes the first child out, and gives a copy of it *)
Definition ext_prog : iprog nat :=
  IOp (SX (ONewTree 30 5)) (fun _ => IItem 30 (IOp (SDegree 50) (fun x =>
    match x with
    | RNat 3 => IOp (SPop Front 50 51) (fun _ => IOp (SDeepClone 51 31) (fun _ => IOp (SDrop 51) (fun _ => IItem 31 IEnd)))
    | _ => IPanic
    end))).
Definition ext_ops2 : list (rop nat) := shared_ops2 ++ [SClone 1 50].
Example C54_iterator_ex : allowed rst0 rss0 ext_ops2 /\
  match rrun rst0 ext_ops2, rsrun rss0 ext_ops2 with
  | RDone _ c, Some (_, σ) =>
    match r_h c !! 1, rs_h σ !! 1 with
    | Some r, Some i =>
      (length ∘ lkids <$> lfind i (rs_sh σ)) = Some 2 /\
      match extend_it_spec i ext_prog σ with Some (x, σ') => x = RBool true /\ (length ∘ lkids <$> lfind i (rs_sh σ')) = Some 3 | None => False end /\
      match rextend_it c 1 ext_prog with RDone x c' => x = RBool true /\ match rstep c' (SDegree 1) with RDone y _ => y = RNat 3 | _ => False end | _ => False end
    | _, _ => False end
  | _, _ => False
  end.
Proof. split; [apply allowedb_ok; vm_compute; reflexivity|]. vm_compute. auto. Qed.
(** the iterator's operations are allowed *)
Example C54_iterator_allowed_ex :
  match rrun rst0 ext_ops2, rsrun rss0 ext_ops2 with RDone _ c, Some (_, σ) => iprog_allowed op_allowed 1 ext_prog c σ | _, _ => False end.
Proof. vm_compute. split_and!; try exact I; intros H; repeat match goal with H : _ |- _ => inversion_clear H end. Qed.
