(** PropApi.v — C66: the methods [Tree] and [Forest] have themselves. *)
From stdpp Require Import base gmap list.
From Verif Require Import Spec ClientSpec Machine NodeModel ClientModel Demo ApiSpec ApiModel ApiProofs.

(** A method called on a variable of type [Tree] or [Forest], in any state a client can get into, gives what the specification says, changes the variables as it
    says, drops no value, and leads to a state in which the same holds again. *)
Theorem C66_own_methods {A : Type} (c : cst A) (env : gmap nat (item A)) (h : nat) (m : method A) (r : out A) (env' : gmap nat (item A)) :
  reachable c -> contents c env -> api_spec env h m = Some (r, env') ->
  exists c', api_step c h m = Done r c' /\ contents c' env' /\ m_log (c_mem c') = m_log (c_mem c) /\ reachable c'.
Proof. exact (api_ok c env h m r env'). Qed.
Print Assumptions C66_own_methods.
(** any number of calls one after the other *)
Theorem C66_own_methods_run {A : Type} (ms : list (nat * method A)) (c : cst A) (env : gmap nat (item A)) (rs : list (out A)) (env' : gmap nat (item A)) :
  reachable c -> contents c env -> api_spec_run env ms = Some (rs, env') ->
  exists c', api_run c ms = Done rs c' /\ contents c' env' /\ m_log (c_mem c') = m_log (c_mem c) /\ reachable c'.
Proof. exact (api_run_ok ms c env rs env'). Qed.
Print Assumptions C66_own_methods_run.

Definition demo_ms : list (nat * method nat) :=
  [(0, MClone 7); (7, MAbandon 8); (8, MIterMut (fun i a => 100 * i + a)); (8, MEndMut Back S); (8, MPop Front 9); (8, MPush Back 7); (9, MDegree);
   (9, MConcat Front 8); (9, MIter); (9, MRootMut (Nat.add 1000)); (9, MBfsMut (fun i a => a + i)); (9, MCount); (9, MBfs); (9, MBfsChildren);
   (9, MBfsChildrenMut (fun i a => a + 1)); (9, MEnd Front); (9, MRoot); (9, MNoChild)].
Example C66_ex : reachable demo_c /\ contents demo_c demo_env /\ is_Some (api_spec_run demo_env demo_ms) /\
  match api_run demo_c demo_ms with Done rs _ => Some rs = fst <$> api_spec_run demo_env demo_ms | Fails _ => False end.
Proof. split; [exact (proj1 demo_ok)|]. split; [exact (proj2 demo_ok)|]. split; [vm_compute; eauto|]. vm_compute. reflexivity. Qed.
