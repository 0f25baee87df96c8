(** PropRc6.v — C59: [T::drop] panics while a handle of a shared node is dropped, and the panic is caught.
    [rdrop_panics c h k] (RcDropPanicModel): [drop(h)] where the [k]+1st value dropped panics. *)
From stdpp Require Import base gmap list.
From Verif Require Import Spec ClientSpec RcSpec PanicSpec Machine NodeModel ClientModel RcModel RcAllowed RcClient RcDemo RcDropPanicModel RcDropPanicProofs RcDropPanic.

(** The other handles do not stay usable: in 0( 1( 2 3 ) 4 ) with handles for 0 and 4 the handle for 0 is dropped and the drop of the value 2 panics.
    Afterwards [parent()] of 4 accesses the node 0, which has been freed. *)
Theorem C59_drop_panics_refuted : exists (os : list (rop nat)) rs c σ c', allowed rst0 rss0 os /\ rrun rst0 os = RDone rs c /\ rsrun rss0 os = Some (rs, σ) /\
  rdrop_panics c 0 0 = RDone PPanic c' /\ rstep c' (SData 1) = RDone (RVal 4) c' /\ rstep c' (SParent 1 2) = RFails EUB.
Proof.
  exists (scattered_tree ++ [SEnd Back 0 1]). do 4 eexists. split; [apply allowedb_ok; vm_compute; reflexivity|].
  split; [vm_compute; reflexivity|]. split; [vm_compute; reflexivity|]. split; [vm_compute; reflexivity|]. split; vm_compute; reflexivity.
Qed.
Print Assumptions C59_drop_panics_refuted.

(** Without a panic the drop is that of C31.  With one, the values are dropped in the usual order up to the one that panics, then some of the others, none twice;
    no freed memory is accessed by the drop and every other handle that reads a value after a drop without panic still reads it.
    Missing: that the other handles can be used for everything else, which is false. *)
Theorem C59_drop_panics_partial {A : Type} (c : rst A) (σ : rss A) (h : nat) (σ' : rss A) (k : nat) : reached c σ -> rsstep σ (SDrop h) = Some (RUnit, σ') ->
  exists L, s_log (rs_x σ') = s_log (rs_x σ) ++ L /\
    (length L <= k -> exists c', rdrop_panics c h k = RDone (PRet RUnit) c' /\ reached c' σ') /\
    (k < length L -> exists c' l, rdrop_panics c h k = RDone PPanic c' /\ m_log (r_mem c') = s_log (rs_x σ) ++ take (S k) L ++ l /\ l `sublist_of` drop (S k) L /\
       forall h' a, rsstep σ' (SData h') = Some (RVal a, σ') -> rstep c' (SData h') = RDone (RVal a) c').
Proof. exact (drop_panics c σ h σ' k). Qed.
Print Assumptions C59_drop_panics_partial.
Example C59_ex : reached rdemo_c rdemo_s /\ match rsstep rdemo_s (SDrop 0) with Some (r, σ') => r = RUnit /\ s_log (rs_x rdemo_s) = [] /\ s_log (rs_x σ') = [4; 0] | None => False end /\
  match rdrop_panics rdemo_c 0 0 with RDone x c' => x = PPanic /\ m_log (r_mem c') = [4; 0] | RFails _ => False end.
Proof. split; [exact rdemo_reached|]. vm_compute. auto 10. Qed.
