(** PropRc4.v — C56: panics of [RcNode] methods that are caught. *)
From stdpp Require Import base gmap list.
From Verif Require Import Spec ClientSpec RcSpec PanicSpec RcPanicSpec Machine NodeModel ClientModel PanicModel RcModel RcAllowed RcClient RcPanicModel RcStep4 RcProps2 RcDemo RcPanicProofs.

(** * C56.  A client that catches panics: every history runs to its end with the results of the specification, where a call that panics leaves everything as it was
    but what was moved into it ([unwound]); the state is one that a history without any panic leads to, so that all that is proved of those (C31-C35, C42, C47,
    C48, C54) holds after caught panics. *)
Theorem C56_history {A : Type} (os : list (rop A)) : pallowed rst0 rss0 os ->
  exists c, rprun rst0 os = RDone (rpsrun rss0 os).1 c /\ reached c (rpsrun rss0 os).2.
Proof. exact (rprun_ok os rst0 rss0 reached0). Qed.
Print Assumptions C56_history.
(** One call that panics. *)
Theorem C56_panic {A : Type} (c : rst A) (σ : rss A) (o : rop A) : reached c σ -> rsstep σ o = None ->
  exists c', rpstep c o = RDone PPanic c' /\ reached c' (unwound σ o).
Proof. exact (panic_ok c σ o). Qed.
Print Assumptions C56_panic.
(** A method that takes no argument by value and panics changes nothing at all: memory, counters, borrow flags.  All states. *)
Theorem C56_nothing_changes {A : Type} (c : rst A) (o : rop A) (c' : rst A) : rpstep c o = RDone PPanic c' ->
  (forall o', o <> SX o') -> (forall e h y, o <> SPush e h y /\ o <> SConcat e h y /\ o <> SInsert e h y) -> (forall h x, o <> SIntoTree h x) -> c' = c.
Proof. exact (panic_same c o c'). Qed.
Print Assumptions C56_nothing_changes.
(** A call that does not panic is the call of RcModel.v.  All states. *)
Theorem C56_otherwise {A : Type} (c : rst A) (o : rop A) (x : out A) (c' : rst A) : rpstep c o = RDone (PRet x) c' <-> rstep c o = RDone x c'.
Proof. exact (agree c o x c'). Qed.
Print Assumptions C56_otherwise.

(** guards on nodes 1 and 0: a tree pushed under node 1 is dropped, then [into_tree] of the inner node 1 through variable 2 drops that handle, [detach] of the root
    and reading the root fail; node 3 can be detached, and after the guards are gone the tree is as before *)
Definition caught_ops : list (rop nat) := guard_ops ++ [SX (ONewTree 20 7); SPush Back 1 20; SData 0; SIntoTree 2 20; SPop Front 1 8; SUnguard 1; SDetach 0; SData 0; SDegree 1; SDrop 1].
Fixpoint pallowedb (c : rst nat) (σ : rss nat) (os : list (rop nat)) : bool :=
  match os with
  | [] => true
  | o :: os' => (op_allowedb c σ o || match rsstep σ o with None => true | Some _ => false end) &&
    match rpstep c o with RDone _ c' => pallowedb c' (rpsstep σ o).2 os' | RFails _ => true end
  end.
Lemma pallowedb_ok os : forall c σ, pallowedb c σ os = true -> pallowed c σ os.
Proof.
  induction os as [|o os IH]; intros c σ; [done|]. cbn [pallowedb pallowed]. intros [H1 H2]%andb_true_iff. split.
  - apply orb_true_iff in H1 as [H1|H1]; [left|right; by destruct (rsstep σ o)]. apply (allowedb_ok [o] c σ). cbn [allowedb]. rewrite H1. by destruct (rstep c o), (rsstep σ o) as [[]|].
  - destruct (rpstep c o); [by apply IH|done].
Qed.
Example C56_ex : pallowed rst0 rss0 caught_ops /\
  drop 21 (rpsrun rss0 caught_ops).1 = [PRet RUnit; PPanic; PPanic; PPanic; PPanic; PRet RUnit; PPanic; PRet (RVal 0); PRet (RNat 2); PRet RBad] /\
  s_log (rs_x (rpsrun rss0 caught_ops).2) = [7].
Proof. split; [apply pallowedb_ok; vm_compute; reflexivity|]. split; vm_compute; reflexivity. Qed.
