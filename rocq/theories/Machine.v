(** Machine.v — the memory the code runs on, and the error monad.  No proofs.

    The Rust code works with raw pointers to [Node]s which live either alone in an
    [Rc<RefCell<Node>>] ("scattered", heap.rs:7-30) or in the buffer of a [NodeVec] ("piled",
    node_vec.rs:10-23).  An address is a pair (block, index): a scattered node is (b,0) of its own
    block, slot [i] of the buffer [v] is (v,i).  Blocks are numbered by an allocation counter and never
    reused, so an access to a released node is always detected ([EUB]).

    Simplifications: [usize] is [nat] (no overflow on addition; a subtraction below zero is the panic of
    a checked build); stack depth and allocation failure are not modelled; values of [T] are inert (their
    [Drop] does not call back into the tree), dropping a value appends it to [m_log]. *)
From stdpp Require Import base gmap list.

Definition ptr : Type := nat * nat.

Section machine.
Context {A : Type}.

(** node.rs:11-19 [enum Data<T>] *)
Inductive dat : Type :=
  | DNone
  | DScatN (owner : ptr)
  | DScat (a : A) (owner : ptr)
  | DPiledN (owner : nat)
  | DPiled (a : A) (owner : nat).

(** node.rs:92-102 [struct Node<T>]; size.rs:8-11 [struct Size] is inlined as two fields *)
Record node : Type := Node {
  n_prev : option ptr; n_next : option ptr;
  n_head : option ptr; n_tail : option ptr;
  n_up : option ptr;
  n_deg : nat; n_desc : nat;
  n_dat : dat
}.

(** node.rs:104-108 [impl Default for Node] *)
Definition node_default : node := Node None None None None None 0 0 DNone.

(** Memory.  [m_heap]: the live node records.  [m_cnt]: strong count of the [Rc] of a scattered node,
    resp. [Shared::count] of a slot (rc.rs:8-20).  [m_vec]: the live [NodeVec]s: length of [buf] and
    [ref_cnt] (node_vec.rs:10-13).  [m_fresh]: next block number.  [m_log]: dropped values, in order. *)
Record mem : Type := Mem {
  m_heap : gmap ptr node;
  m_cnt : gmap ptr nat;
  m_vec : gmap nat (nat * nat);
  m_fresh : nat;
  m_log : list A
}.

Definition mem0 : mem := Mem ∅ ∅ ∅ 0 [].

Definition set_heap (s : mem) h := Mem h (m_cnt s) (m_vec s) (m_fresh s) (m_log s).

Inductive err : Type :=
  | EPanic   (* a Rust panic: unwrap of None, unreachable!, checked subtraction *)
  | EUB      (* access to memory that is not allocated *)
  | EFuel    (* a loop did not finish within its bound *)
  | EStack.  (* the call stack is exhausted; only the functions of StackModel.v have a bound on it *)

Inductive res (X : Type) : Type := Ok (x : X) (s : mem) | Err (e : err).
Global Arguments Ok {X} x s.
Global Arguments Err {X} e.

Definition M (X : Type) : Type := mem -> res X.

Definition ret {X} (x : X) : M X := fun s => Ok x s.
Definition bind {X Y} (m : M X) (k : X -> M Y) : M Y :=
  fun s => match m s with Ok x s' => k x s' | Err e => Err e end.
Definition fail {X} (e : err) : M X := fun _ => Err e.
Definition gets {X} (f : mem -> X) : M X := fun s => Ok (f s) s.

(** dereferencing a pointer (as_ref / as_mut of [NonNull]) *)
Definition get (p : ptr) : M node :=
  fun s => match m_heap s !! p with Some n => Ok n s | None => Err EUB end.
Definition put (p : ptr) (n : node) : M unit :=
  fun s => match m_heap s !! p with
           | Some _ => Ok tt (set_heap s (<[p := n]> (m_heap s)))
           | None => Err EUB
           end.
Definition upd (p : ptr) (f : node -> node) : M unit := bind (get p) (fun n => put p (f n)).

(** [Option::unwrap] *)
Definition unwrap {X} (o : option X) : M X := match o with Some x => ret x | None => fail EPanic end.

(** a bound for loops over nodes: more than there are nodes *)
Definition fuel : M nat := gets (fun s => S (size (m_heap s))).

End machine.

Arguments dat : clear implicits.
Arguments node : clear implicits.
Arguments mem : clear implicits.
Arguments res : clear implicits.
Arguments M : clear implicits.

Declare Scope monad_scope.
Delimit Scope monad_scope with monad.
Notation "'let!' x := m 'in' k" := (bind m (fun x => k))
  (at level 200, x name, m at level 100, k at level 200, right associativity,
   format "'[v' 'let!'  x  :=  m  'in' '/' k ']'") : monad_scope.
Notation "m ;; k" := (bind m (fun _ => k)) (at level 100, k at level 200, right associativity) : monad_scope.
Open Scope monad_scope.

(** field updates *)
Section fields.
Context {A : Type}.
Implicit Type n : node A.
Definition set_prev v n := Node v (n_next n) (n_head n) (n_tail n) (n_up n) (n_deg n) (n_desc n) (n_dat n).
Definition set_next v n := Node (n_prev n) v (n_head n) (n_tail n) (n_up n) (n_deg n) (n_desc n) (n_dat n).
Definition set_head v n := Node (n_prev n) (n_next n) v (n_tail n) (n_up n) (n_deg n) (n_desc n) (n_dat n).
Definition set_tail v n := Node (n_prev n) (n_next n) (n_head n) v (n_up n) (n_deg n) (n_desc n) (n_dat n).
Definition set_up v n := Node (n_prev n) (n_next n) (n_head n) (n_tail n) v (n_deg n) (n_desc n) (n_dat n).
Definition set_size dg ds n := Node (n_prev n) (n_next n) (n_head n) (n_tail n) (n_up n) dg ds (n_dat n).
Definition set_dat (d : dat A) n := Node (n_prev n) (n_next n) (n_head n) (n_tail n) (n_up n) (n_deg n) (n_desc n) d.
End fields.
