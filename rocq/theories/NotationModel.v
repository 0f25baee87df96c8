(** NotationModel.v — notation.rs, operator by operator.  No proofs.
    A [Tree]/[Forest] value is the address of its root; an operand taken by reference is only read. *)
From stdpp Require Import base gmap list.
From Verif Require Import Spec ClientSpec Machine NodeModel BfsModel ClientModel NotationSpec.

Section nmodel.
Context {A : Type}.
Implicit Types (t u f g : ptr).

(** notation.rs:8 [tr], 11 [fr] *)
Definition n_tr (a : A) : M A ptr := tree_new a.
Definition n_fr : M A ptr := forest_new.

(** notation.rs:14-22 [- tree] *)
Definition neg_t t : M A ptr := let! f := n_fr in push_back f t ;; ret f.
(** notation.rs:25-33 [- &tree] *)
Definition neg_rt t : M A ptr := let! f := n_fr in let! c := deep_clone t in push_back f c ;; ret f.

(** notation.rs:36-45 [tree - tree] *)
Definition sub_t_t t u : M A ptr := let! f := n_fr in push_back f t ;; push_back f u ;; ret f.
(** notation.rs:48-57 [tree - &tree] *)
Definition sub_t_rt t u : M A ptr := let! f := n_fr in push_back f t ;; let! c := deep_clone u in push_back f c ;; ret f.
(** notation.rs:60-69 [&tree - tree] *)
Definition sub_rt_t t u : M A ptr := let! f := n_fr in let! c := deep_clone t in push_back f c ;; push_back f u ;; ret f.
(** notation.rs:72-81 [&tree - &tree] *)
Definition sub_rt_rt t u : M A ptr :=
  let! f := n_fr in let! c := deep_clone t in push_back f c ;; let! d := deep_clone u in push_back f d ;; ret f.

(** notation.rs:84-91 [tree / forest] *)
Definition div_t_f t g : M A ptr := append t g ;; ret t.
(** notation.rs:94-101 [tree / &forest] *)
Definition div_t_rf t g : M A ptr := let! c := deep_clone_forest g in append t c ;; ret t.
(** notation.rs:104-112 [&tree / forest] *)
Definition div_rt_f t g : M A ptr := let! c := deep_clone t in append c g ;; ret c.
(** notation.rs:115-123 [&tree / &forest] *)
Definition div_rt_rf t g : M A ptr := let! c := deep_clone t in let! d := deep_clone_forest g in append c d ;; ret c.

(** notation.rs:126-133 [tree / tree] *)
Definition div_t_t t u : M A ptr := push_back t u ;; ret t.
(** notation.rs:136-143 [tree / &tree] *)
Definition div_t_rt t u : M A ptr := let! c := deep_clone u in push_back t c ;; ret t.
(** notation.rs:146-154 [&tree / tree] *)
Definition div_rt_t t u : M A ptr := let! c := deep_clone t in push_back c u ;; ret c.
(** notation.rs:157-165 [&tree / &tree] *)
Definition div_rt_rt t u : M A ptr := let! c := deep_clone t in let! d := deep_clone u in push_back c d ;; ret c.

(** notation.rs:168-174 [tree / ()] *)
Definition unit_t t : M A ptr := ret t.
(** notation.rs:177-183 [&tree / ()] *)
Definition unit_rt t : M A ptr := deep_clone t.

(** notation.rs:186-193 [forest - tree] *)
Definition sub_f_t f u : M A ptr := push_back f u ;; ret f.
(** notation.rs:196-203 [forest - &tree] *)
Definition sub_f_rt f u : M A ptr := let! c := deep_clone u in push_back f c ;; ret f.
(** notation.rs:206-214 [&forest - tree] *)
Definition sub_rf_t f u : M A ptr := let! c := deep_clone_forest f in push_back c u ;; ret c.
(** notation.rs:217-225 [&forest - &tree] *)
Definition sub_rf_rt f u : M A ptr := let! c := deep_clone_forest f in let! d := deep_clone u in push_back c d ;; ret c.

(** notation.rs:228-235 [forest - forest] *)
Definition sub_f_f f g : M A ptr := append f g ;; ret f.
(** notation.rs:238-245 [forest - &forest] *)
Definition sub_f_rf f g : M A ptr := let! c := deep_clone_forest g in append f c ;; ret f.
(** notation.rs:248-255 [&forest - forest] *)
Definition sub_rf_f f g : M A ptr := let! c := deep_clone_forest f in prepend g c ;; ret g.
(** notation.rs:258-266 [&forest - &forest] *)
Definition sub_rf_rf f g : M A ptr := let! c := deep_clone_forest f in let! d := deep_clone_forest g in append c d ;; ret c.

(** * overload resolution: by the types of the operands and by whether they are borrowed *)
Local Notation operand := (bool * handle)%type.   (* borrowed?, the value *)

Definition do_neg (o : operand) : option (M A handle) :=
  let as_f (m : M A ptr) := Some (let! p := m in ret (HF p)) in
  match o with
  | (false, HT t) => as_f (neg_t t)
  | (true, HT t) => as_f (neg_rt t)
  | (_, HF _) => None
  end.
Definition do_unit (o : operand) : option (M A handle) :=
  let as_t (m : M A ptr) := Some (let! p := m in ret (HT p)) in
  match o with
  | (false, HT t) => as_t (unit_t t)
  | (true, HT t) => as_t (unit_rt t)
  | (_, HF _) => None
  end.
Definition do_sub (l r : operand) : option (M A handle) :=
  let as_f (m : M A ptr) := Some (let! p := m in ret (HF p)) in
  match l, r with
  | (false, HT t), (false, HT u) => as_f (sub_t_t t u)
  | (false, HT t), (true, HT u) => as_f (sub_t_rt t u)
  | (true, HT t), (false, HT u) => as_f (sub_rt_t t u)
  | (true, HT t), (true, HT u) => as_f (sub_rt_rt t u)
  | (_, HT _), (_, HF _) => None
  | (false, HF f), (false, HT u) => as_f (sub_f_t f u)
  | (false, HF f), (true, HT u) => as_f (sub_f_rt f u)
  | (true, HF f), (false, HT u) => as_f (sub_rf_t f u)
  | (true, HF f), (true, HT u) => as_f (sub_rf_rt f u)
  | (false, HF f), (false, HF g) => as_f (sub_f_f f g)
  | (false, HF f), (true, HF g) => as_f (sub_f_rf f g)
  | (true, HF f), (false, HF g) => as_f (sub_rf_f f g)
  | (true, HF f), (true, HF g) => as_f (sub_rf_rf f g)
  end.
Definition do_div (l r : operand) : option (M A handle) :=
  let as_t (m : M A ptr) := Some (let! p := m in ret (HT p)) in
  match l, r with
  | (false, HT t), (false, HF g) => as_t (div_t_f t g)
  | (false, HT t), (true, HF g) => as_t (div_t_rf t g)
  | (true, HT t), (false, HF g) => as_t (div_rt_f t g)
  | (true, HT t), (true, HF g) => as_t (div_rt_rf t g)
  | (false, HT t), (false, HT u) => as_t (div_t_t t u)
  | (false, HT t), (true, HT u) => as_t (div_t_rt t u)
  | (true, HT t), (false, HT u) => as_t (div_rt_t t u)
  | (true, HT t), (true, HT u) => as_t (div_rt_rt t u)
  | (_, HF _), _ => None
  end.

(** * evaluation of an expression, operands left to right; [None]: not a program *)
Local Notation ovalue := (handle + nat)%type.      (* an owned value, or a borrowed variable *)
Definition pick (env : gmap nat handle) (o : ovalue) : option operand :=
  match o with inl hd => Some (false, hd) | inr x => match env !! x with Some hd => Some (true, hd) | None => None end end.
Definition apply1 (d : operand -> option (M A handle)) (o : ovalue) (env : gmap nat handle) : M A (option (handle * gmap nat handle)) :=
  match pick env o ≫= d with Some m => let! hd := m in ret (Some (hd, env)) | None => ret None end.
Definition apply2 (d : operand -> operand -> option (M A handle)) (l r : ovalue) (env : gmap nat handle) : M A (option (handle * gmap nat handle)) :=
  match pick env l ≫= fun a => pick env r ≫= fun b => d a b with
  | Some m => let! hd := m in ret (Some (hd, env))
  | None => ret None
  end.
Fixpoint neval (e : nexpr A) (env : gmap nat handle) : M A (option (handle * gmap nat handle)) :=
  match e with
  | NTr a => let! p := n_tr a in ret (Some (HT p, env))
  | NFr => let! p := n_fr in ret (Some (HF p, env))
  | NVar x => ret (match env !! x with Some hd => Some (hd, delete x env) | None => None end)
  | NNeg o => let! v := oeval o env in match v with Some (v, env1) => apply1 do_neg v env1 | None => ret None end
  | NUnit o => let! v := oeval o env in match v with Some (v, env1) => apply1 do_unit v env1 | None => ret None end
  | NSub l r =>
    let! v := oeval l env in
    match v with
    | Some (v, env1) => let! w := oeval r env1 in
                        match w with Some (w, env2) => apply2 do_sub v w env2 | None => ret None end
    | None => ret None
    end
  | NDiv l r =>
    let! v := oeval l env in
    match v with
    | Some (v, env1) => let! w := oeval r env1 in
                        match w with Some (w, env2) => apply2 do_div v w env2 | None => ret None end
    | None => ret None
    end
  end
with oeval (o : nopnd A) (env : gmap nat handle) : M A (option (ovalue * gmap nat handle)) :=
  match o with
  | NOwn e => let! r := neval e env in ret (match r with Some (hd, env') => Some (inl hd, env') | None => None end)
  | NRef x => ret (match env !! x with Some _ => Some (inr x, env) | None => None end)
  end.

(** [let x = e;] *)
Definition nlet (c : cst A) (x : nat) (e : nexpr A) : cres (out A) :=
  match neval e (c_env c) (c_mem c) with
  | Ok (Some (hd, env')) s' => Done RUnit (CSt (<[x := hd]> env') s')
  | Ok None s' => Done RBad c
  | Err er => Fails er
  end.
End nmodel.
