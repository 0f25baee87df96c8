(** RcReentModel.v — dropping handles of shared nodes when [T::drop] uses the library itself.  No proofs. *)
From stdpp Require Import base gmap list.
From Verif Require Import Spec ClientSpec RcSpec Machine NodeModel ClientModel RcModel DropRunSpec RcReentSpec.

Section model.
Context {A H : Type}.
Implicit Types (c : rst A) (st : H) (R : list nat).

(** the end of a program; [QOut]: see [strict] *)
Inductive qres (X : Type) : Type := QDone (x : X) (st : H) (c : rst A) | QFails (e : err) | QOut.
Global Arguments QDone {X} x st c.
Global Arguments QFails {X} e.
Global Arguments QOut {X}.

(** [strict]: an observer stops the program when the last handle of a node stored in a buffer goes away, or such a node is cloned or downgraded (C32, C33) *)
Context (strict : bool).
Definition watched c (o : rop A) : bool :=
  match o with SClone h _ | SDown h _ => match r_h c !! h with Some (RPile _ _) => true | _ => false end | _ => false end.

Section body.
Context (call : list nat -> A -> H -> rst A -> qres unit).

(** [T::drop] of the value of a node *)
Definition qcall R (l : list A) st c : qres unit := match l with [] => QDone tt st c | a :: _ => call R a st c end.

(** rc.rs:125-153 [Drop for RcNode]: [strong_count] or [count.decr()]; the loop over [pop_front] (RcModel.v [rc_drop_loop], [rc_pops]); then, for a scattered
    node, the field [rc] is dropped: the count goes down and at 0 the value is dropped (its memory cannot be reached any more: the strong count is
    0 and the node has neither parent nor children), for a piled node [drop_in_place] and [decr_ref] *)
Fixpoint drop_q (f : nat) R (h : nat) st c : qres unit :=
  match f with
  | 0 => QFails EStack
  | S f' =>
    match r_h c !! h with
    | Some (RScat p) =>
      match cnt_get p (r_mem c) with
      | Ok n _ =>
        match (if Nat.eqb n 1 then pops_q f' R h st c else QDone tt st c) with
        | QDone _ st' c' =>
          match (let! m := cnt_get p in let! nd := get p in rc_drop p ;; ret (if Nat.eqb m 1 then dat_vals (n_dat nd) else [])) (r_mem c') with
          | Ok l s => qcall R l st' (set_rh (set_mem c' s) (delete h (r_h c')))
          | Err e => QFails e
          end
        | QFails e => QFails e
        | QOut => QOut
        end
      | Err e => QFails e
      end
    | Some (RPile v i) =>
      match (vec_ref v ;; cnt_decr (v, i)) (r_mem c) with
      | Ok 0 s =>
        if strict then QOut else
        match pops_q f' R h st (set_mem c s) with
        | QDone _ st' c' =>
          match (let! nd := get (v, i) in drop_in_place (v, i) ;; ret (dat_vals (n_dat nd))) (r_mem c') with
          | Ok l s1 =>
            match qcall R l st' (set_rh (set_mem c' s1) (delete h (r_h c'))) with
            | QDone _ st2 c2 => match decr_ref v (r_mem c2) with Ok _ s2 => QDone tt st2 (set_mem c2 s2) | Err e => QFails e end
            | QFails e => QFails e
            | QOut => QOut
            end
          | Err e => QFails e
          end
        | QFails e => QFails e
        | QOut => QOut
        end
      | Ok (S _) s => match decr_ref v s with Ok _ s2 => QDone tt st (set_rh (set_mem c s2) (delete h (r_h c))) | Err e => QFails e end
      | Err e => QFails e
      end
    | None => QDone tt st c
    end
  end
(** rc.rs:131, 138 [while let Some(_) = self.pop_front() {}]; [x]: the handle [pop_front] gives, dropped at the end of the step *)
with pops_q (f : nat) R (h : nat) st c : qres unit :=
  match f with
  | 0 => QFails EStack
  | S f' =>
    let x := newname (dom (r_h c)) R in
    match rstep c (SPop Front h x) with
    | RDone (RBool true) c' =>
      match drop_q f' (x :: R) x st c' with
      | QDone _ st' c'' => pops_q f' R h st' c''
      | QFails e => QFails e
      | QOut => QOut
      end
    | RDone _ c' => QDone tt st c'
    | RFails e => QFails e
    end
  end.

Fixpoint qbody (n : nat) {X} R (p : qprog (A:=A) (H:=H) X) st c : qres X :=
  match p with
  | QRet a => QDone a st c
  | QMem g k => qbody n R (k st) (g st) c
  | QDo o k =>
    if decide (qsilent o = true /\ Forall (fun x => x ∉ R) (rnames o)) then
      if strict && watched c o then QOut else
      match rstep c o with RDone r c' => qbody n R (k r) st c' | RFails e => QFails e end
    else qbody n R (k RBad) st c
  | QDrop h k =>
    if decide (h ∉ R /\ is_Some (r_h c !! h) /\ h ∉ ((map_to_list (r_g c)).*2).*1) then
      match drop_q n (h :: R) h st c with
      | QDone _ st' c' => qbody n R (k true) st' c'
      | QFails e => QFails e
      | QOut => QOut
      end
    else qbody n R (k false) st c
  end.
End body.

Fixpoint qhandle (handler : list nat -> A -> qprog (A:=A) (H:=H) unit) (n : nat) : list nat -> A -> H -> rst A -> qres unit :=
  match n with
  | 0 => fun _ _ _ _ => QFails EStack
  | S n' => fun R a st c => qbody (qhandle handler n') n' R (handler R a) st c
  end.
(** a program run from an empty heap *)
Definition qrun (handler : list nat -> A -> qprog (A:=A) (H:=H) unit) (n : nat) {X} (p : qprog X) st : qres X := qbody (qhandle handler n) n [] p st rst0.
End model.
