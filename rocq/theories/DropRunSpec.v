(** DropRunSpec.v — client programs where [T::drop], the code that runs when a value is dropped, uses the library itself: what they do, in terms of
    immutable rose trees.

    Dropping a tree, and assigning to the data of a node, runs [T::drop] of the values that go away.  That is code of the client: it may (through
    some shared place) operate on any tree that is not being dropped or borrowed at the moment, drop further trees — whose values run [T::drop]
    again — and use other state. *)
From stdpp Require Import base gmap list.
From Verif Require Import Spec ClientSpec.

Section spec.
(** [A]: the data; [H]: the other state of the client *)
Context {A H : Type}.

(** the operations that drop no value; those that do are [DDrop] and [DSet] below *)
Definition silent (o : op A) : bool := match o with ODrop _ | OIntoBfs _ _ | OIntoIter _ _ => false | _ => true end.

Inductive dprog (X : Type) : Type :=
  | DRet (a : X)
  | DMem (g : H -> H) (k : H -> dprog X)                              (* look at the other state and change it *)
  | DDo (o : op A) (k : out A -> dprog X)                             (* an operation, whose result may be looked at *)
  | DDrop (h : nat) (k : bool -> dprog X)                             (* drop(h) *)
  | DSet (h : nat) (path : list nat) (v : A) (k : bool -> dprog X).   (* *node.data_mut() = v: the old value is dropped, then v takes its place *)
Global Arguments DRet {X} a.
Global Arguments DMem {X} g k.
Global Arguments DDo {X} o k.
Global Arguments DDrop {X} h k.
Global Arguments DSet {X} h path v k.

(** the end of a program: its value, the other state and the variables; a panic; or calls of [T::drop] in calls of [T::drop] to more levels than
    the stack has *)
Inductive dres (X : Type) : Type := DDone (x : X) (st : H) (σ : sst A) | DPanics | DDeep.
Global Arguments DDone {X} x st σ.
Global Arguments DPanics {X}.
Global Arguments DDeep {X}.

Section body.
(** [call R a]: [T::drop] of [a] *)
Context (call : list nat -> A -> H -> sst A -> dres unit).

(** the values dropped one after the other: each goes to the log, then its [T::drop] runs *)
Fixpoint scalls (R : list nat) (l : list A) (st : H) (σ : sst A) : dres unit :=
  match l with
  | [] => DDone tt st σ
  | a :: l' =>
    match call R a st (SSt (s_env σ) (s_log σ ++ [a])) with
    | DDone _ st' σ' => scalls R l' st' σ'
    | DPanics => DPanics
    | DDeep => DDeep
    end
  end.

(** [R]: the variables that are borrowed: they cannot be used, and nothing else can be given their names *)
Fixpoint sbody {X} (R : list nat) (p : dprog X) (st : H) (σ : sst A) : dres X :=
  match p with
  | DRet a => DDone a st σ
  | DMem g k => sbody R (k st) (g st) σ
  | DDo o k =>
    if decide (silent o = true /\ Forall (fun x => x ∉ R) (op_names o)) then
      match sstep σ o with Some (r, σ') => sbody R (k r) st σ' | None => DPanics end
    else sbody R (k RBad) st σ
  | DDrop h k =>
    match s_env σ !! h with
    | Some it =>
      match scalls R (item_post it) st (SSt (delete h (s_env σ)) (s_log σ)) with
      | DDone _ st' σ' => sbody R (k true) st' σ'
      | DPanics => DPanics
      | DDeep => DDeep
      end
    | None => sbody R (k false) st σ
    end
  | DSet h path v k =>
    match s_env σ !! h with
    | Some it =>
      match node_at it path with
      | Some t =>
        match scalls (h :: R) [root_of t] st (SSt (delete h (s_env σ)) (s_log σ)) with
        | DDone _ st' σ' => sbody R (k true) st' (SSt (<[h := set_data it path v]> (s_env σ')) (s_log σ'))
        | DPanics => DPanics
        | DDeep => DDeep
        end
      | None => sbody R (k false) st σ
      end
    | None => sbody R (k false) st σ
    end
  end.
End body.

(** [T::drop] with a stack of [n] levels; [handler a]: the client's code for the value [a] *)
Fixpoint shandle (handler : A -> dprog unit) (n : nat) : list nat -> A -> H -> sst A -> dres unit :=
  match n with
  | 0 => fun _ _ _ _ => DDeep
  | S n' => fun R a st σ => sbody (shandle handler n') R (handler a) st σ
  end.
Definition sdrun (handler : A -> dprog unit) (n : nat) {X} (p : dprog X) (st : H) : dres X := sbody (shandle handler n) [] p st sst0.
End spec.
