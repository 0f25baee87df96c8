(** RcReentSpec.v — shared nodes with a [T::drop] that uses the library itself: what a client program does, in terms of labelled trees.

    When the last [RcNode] of a root is dropped its children are popped one after the other; a child without a handle is released in the same way,
    and each value that goes away runs [T::drop]: code of the client, that may use the handles, weak references, trees and forests there are — it
    may also get a new handle for the node that is being released ([parent()] of a child that is still there), which then lives on without its
    children. *)
From stdpp Require Import base gmap list.
From Verif Require Import Spec ClientSpec RcSpec RcPlainSpec DropRunSpec.

Section spec.
Context {A H : Type}.
Implicit Types (σ : rss A) (st : H) (R : list nat).

(** the [RcNode] variables an operation uses or makes *)
Definition rnames (o : rop A) : list nat :=
  match o with
  | SX _ | SDropWeak _ | SRead _ | SWrite _ _ | SUnguard _ | SHint _ | SIterClone _ _ => []
  | SFrom _ h | SDrop h | SPush _ h _ | SConcat _ h _ | SInsert _ h _ | SDetach h | SData h | SModify h _ | SDegree h | SCount h | SNoChild h | SIsRoot h
  | SDeepClone h _ | SDown h _ | SUp _ h | SGuard _ h _ | SIter h _ | SNext _ h | SIntoTree h _ => [h]
  | SClone h h' | SEnd _ h h' | SParent h h' | SPop _ h h' => [h; h']
  end.
(** the operations used here: those that drop no value (except [drop] itself, [QDrop] below), without the unsafe [into_tree] and without
    [IterRc::next], whose iterator does not keep its nodes (C35) *)
Definition qsilent (o : rop A) : bool := match o with SX o => silent o | SDrop _ | SIntoTree _ _ | SNext _ _ => false | _ => true end.

Inductive qprog (X : Type) : Type :=
  | QRet (a : X)
  | QMem (g : H -> H) (k : H -> qprog X)                 (* look at the other state and change it *)
  | QDo (o : rop A) (k : out A -> qprog X)               (* an operation *)
  | QDrop (h : nat) (k : bool -> qprog X).               (* drop(h) *)
Global Arguments QRet {X} a.
Global Arguments QMem {X} g k.
Global Arguments QDo {X} o k.
Global Arguments QDrop {X} h k.

(** programs that make no trees in a buffer *)
Fixpoint q_buffer_free {X} (p : qprog X) : Prop :=
  match p with
  | QRet _ => True
  | QMem g k => forall st, q_buffer_free (k st)
  | QDo o k => buffer_free o /\ forall r, q_buffer_free (k r)
  | QDrop h k => forall b, q_buffer_free (k b)
  end.

(** the end of a program: its value, the other state and the shared state; a panic; or more than the bound of calls in calls or steps of a loop *)
Inductive sres (X : Type) : Type := SDone (x : X) (st : H) (σ : rss A) | SPanics | SDeep.
Global Arguments SDone {X} x st σ.
Global Arguments SPanics {X}.
Global Arguments SDeep {X}.

(** [h] is what keeps node [i] alive: no other handle, and the node is not a child of another *)
Definition lasth σ (h i : nat) : bool := negb (held (delete h (rs_h σ)) i) && bool_decide (i ∈ lid <$> rs_sh σ).
(** a name for the handle of a child that is popped: none that is in use *)
Definition newname (D : gset nat) R : nat := S (max_list (elements D ++ R)).

Section body.
(** [call R a]: [T::drop] of [a]; [R]: the names it must not use: the handles of the nodes whose release is under way *)
Context (call : list nat -> A -> H -> rss A -> sres unit).

Fixpoint sdrop_q (f : nat) R (h : nat) st σ : sres unit :=
  match f with
  | 0 => SDeep
  | S f' =>
    match rs_h σ !! h with
    | Some i =>
      match (if lasth σ h i then spops_q f' R h st σ else SDone tt st σ) with
      | SDone _ st' σ' =>
        if lasth σ' h i then
          match lfind i (rs_sh σ') with
          | Some t => call R (lval t) st' (drop_handle σ' h i)
          | None => SDone tt st' σ'
          end
        else SDone tt st' (drop_handle σ' h i)
      | SPanics => SPanics
      | SDeep => SDeep
      end
    | None => SDone tt st σ
    end
  end
with spops_q (f : nat) R (h : nat) st σ : sres unit :=
  match f with
  | 0 => SDeep
  | S f' =>
    let x := newname (dom (rs_h σ)) R in
    match rsstep σ (SPop Front h x) with
    | Some (RBool true, σ') =>
      match sdrop_q f' (x :: R) x st σ' with
      | SDone _ st' σ'' => spops_q f' R h st' σ''
      | SPanics => SPanics
      | SDeep => SDeep
      end
    | Some (_, σ') => SDone tt st σ'
    | None => SPanics
    end
  end.

Fixpoint sqbody (n : nat) {X} R (p : qprog X) st σ : sres X :=
  match p with
  | QRet a => SDone a st σ
  | QMem g k => sqbody n R (k st) (g st) σ
  | QDo o k =>
    if decide (qsilent o = true /\ Forall (fun x => x ∉ R) (rnames o)) then
      match rsstep σ o with Some (r, σ') => sqbody n R (k r) st σ' | None => SPanics end
    else sqbody n R (k RBad) st σ
  | QDrop h k =>
    (* not one whose release is under way, and not while a Ref or RefMut borrows from it *)
    if decide (h ∉ R /\ is_Some (rs_h σ !! h) /\ h ∉ ((map_to_list (rs_g σ)).*2).*1) then
      match sdrop_q n (h :: R) h st σ with
      | SDone _ st' σ' => sqbody n R (k true) st' σ'
      | SPanics => SPanics
      | SDeep => SDeep
      end
    else sqbody n R (k false) st σ
  end.
End body.

(** [T::drop], the client's code for the names it must not use and the value *)
Fixpoint sqhandle (handler : list nat -> A -> qprog unit) (n : nat) : list nat -> A -> H -> rss A -> sres unit :=
  match n with
  | 0 => fun _ _ _ _ => SDeep
  | S n' => fun R a st σ => sqbody (sqhandle handler n') n' R (handler R a) st σ
  end.
Definition sqrun (handler : list nat -> A -> qprog unit) (n : nat) {X} (p : qprog X) st : sres X := sqbody (sqhandle handler n) n [] p st rss0.
End spec.
