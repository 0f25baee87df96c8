(** RcDemo.v — histories used in the examples of PropRc. *)
From stdpp Require Import base gmap list.
From Verif Require Import Spec ClientSpec RcSpec Machine NodeModel ClientModel RcModel RcAllowed RcClient RcStep4.

(** a cloned tree, whose nodes are in one buffer *)
Definition piled_tree : list (rop nat) := [SX (ONewTree 0 0); SX (OClone 0 [] 1); SFrom 1 0].

(** the tree 0( 1( 2 3 ) 4 ), no buffers *)
Definition scattered_tree : list (rop nat) :=
  map SX [ONewTree 0 0; ONewTree 1 1; ONewTree 2 2; OPush Back 1 [] 2; ONewTree 2 3; OPush Back 1 [] 2;
          OPush Front 0 [] 1; ONewTree 1 4; OPush Back 0 [] 1] ++ [SFrom 0 0].
(** A decidable version of [allowed], for the examples. *)
Definition op_allowedb (c : rst nat) (σ : rss nat) (o : rop nat) : bool :=
  match o with
  | SClone h _ | SDown h _ => match r_h c !! h with Some (RPile _ _) => false | _ => true end
  | SNext it _ => match rs_it σ !! it with Some (Some j, S _) => bool_decide (j ∈ lids (rs_sh σ)) | _ => true end
  | SIntoTree h _ =>
    match rs_h σ !! h with
    | Some i =>
      match lfind i (rs_sh σ) with
      | Some t =>
        forallb (fun z : nat * nat => bool_decide (z.1 = h) || bool_decide (z.2 ∉ lid <$> lsubs t)) (map_to_list (rs_h σ)) &&
        forallb (fun z : nat * nat => bool_decide (z.2 ∉ lid <$> lsubs t)) (map_to_list (rs_w σ)) &&
        forallb (fun z : nat * (option nat * nat) => match z.2.1 with Some j => bool_decide (j ∉ lid <$> lsubs t) | None => true end) (map_to_list (rs_it σ))
      | None => true
      end
    | None => true
    end
  | _ => true
  end.
Fixpoint allowedb (c : rst nat) (σ : rss nat) (os : list (rop nat)) : bool :=
  match os with
  | [] => true
  | o :: os' => op_allowedb c σ o &&
    match rstep c o, rsstep σ o with RDone _ c', Some (_, σ') => allowedb c' σ' os' | _, _ => true end
  end.
Lemma allowedb_ok os : forall c σ, allowedb c σ os = true -> allowed c σ os.
Proof.
  induction os as [|o os IH]; intros c σ; [done|]. cbn [allowedb allowed]. intros [H1 H2]%andb_true_iff. split.
  - destruct o; cbn in *; try done.
    + by destruct (r_h c !! h) as [[]|].
    + by destruct (r_h c !! h) as [[]|].
    + destruct (rs_it σ !! it) as [[[] []]|]; try done. by apply bool_decide_eq_true in H1.
    + intros i t Hi Ht. rewrite Hi, Ht in H1. apply andb_true_iff in H1 as [[Ha Hb]%andb_true_iff Hc]. rewrite forallb_forall in Ha, Hb, Hc. split_and!.
      * intros h' j Hne Hj. specialize (Ha (h', j)). rewrite <-elem_of_list_In, elem_of_map_to_list in Ha. specialize (Ha Hj). cbn [fst snd] in Ha.
        rewrite bool_decide_false in Ha by done. by apply bool_decide_eq_true in Ha.
      * intros w j Hj. specialize (Hb (w, j)). rewrite <-elem_of_list_In, elem_of_map_to_list in Hb. specialize (Hb Hj). by apply bool_decide_eq_true in Hb.
      * intros it j n Hj. specialize (Hc (it, (Some j, n))). rewrite <-elem_of_list_In, elem_of_map_to_list in Hc. specialize (Hc Hj). by apply bool_decide_eq_true in Hc.
  - destruct (rstep c o) as [r c'|]; [|done]. destruct (rsstep σ o) as [[r2 σ']|]; [|done]. auto.
Qed.

(** handles: 0 the root 0, 1 the child 1, 2 a clone of 1, 3 the node 3 (child of 1), weak 0 of the root *)
Definition shared_ops : list (rop nat) := scattered_tree ++ [SEnd Front 0 1; SClone 1 2; SEnd Back 1 3; SDown 0 0; SIter 0 0].
(** a tree in a buffer, 0( 1 ), with handles 4 and 5 *)
Definition shared_ops2 : list (rop nat) := shared_ops ++ [SDeepClone 1 9; SFrom 9 4; SEnd Front 4 5; SModify 2 (fun n => n + 10)].
Example shared_allowed : allowed rst0 rss0 shared_ops2.
Proof. apply allowedb_ok. vm_compute. reflexivity. Qed.
Definition rdemo_c : rst nat := match rrun rst0 shared_ops2 with RDone _ c => c | RFails _ => rst0 end.
Definition rdemo_s : rss nat := match rsrun rss0 shared_ops2 with Some (_, σ) => σ | None => rss0 end.
Lemma rdemo_reached : reached rdemo_c rdemo_s.
Proof.
  unfold rdemo_c, rdemo_s. pose proof (rrun_ok _ _ _ RI_init shared_allowed) as H. destruct (rsrun rss0 shared_ops2) as [[rs σ]|] eqn:E.
  - destruct H as (c & Ec & _). rewrite Ec. exists shared_ops2, rs. split; [exact shared_allowed|]. split; [exact Ec|exact E].
  - vm_compute in E. discriminate E.
Qed.
(** the same, reached by any history, with a [Ref] on node 1 (variable 1) and a [RefMut] on the root (variable 0) *)
Definition guard_ops : list (rop nat) := shared_ops2 ++ [SGuard false 1 0; SGuard true 0 1].
Example guard_allowed : allowed rst0 rss0 guard_ops.
Proof. apply allowedb_ok. vm_compute. reflexivity. Qed.
Definition gdemo_c : rst nat := match rrun rst0 guard_ops with RDone _ c => c | RFails _ => rst0 end.
Definition gdemo_s : rss nat := match rsrun rss0 guard_ops with Some (_, σ) => σ | None => rss0 end.
Lemma gdemo_reached : reached gdemo_c gdemo_s.
Proof.
  unfold gdemo_c, gdemo_s. pose proof (rrun_ok _ _ _ RI_init guard_allowed) as H. destruct (rsrun rss0 guard_ops) as [[rs σ]|] eqn:E.
  - destruct H as (c & Ec & _). rewrite Ec. exists guard_ops, rs. split; [exact guard_allowed|]. split; [exact Ec|exact E].
  - vm_compute in E. discriminate E.
Qed.
(** the states after any allowed history *)
Definition after_c (os : list (rop nat)) : rst nat := match rrun rst0 os with RDone _ c => c | RFails _ => rst0 end.
Definition after_s (os : list (rop nat)) : rss nat := match rsrun rss0 os with Some (_, σ) => σ | None => rss0 end.
Lemma after_reached os : allowedb rst0 rss0 os = true -> is_Some (rsrun rss0 os) -> reached (after_c os) (after_s os).
Proof.
  intros Ha%allowedb_ok [[rs σ] E]. unfold after_c, after_s. pose proof (rrun_ok _ _ _ RI_init Ha) as H. rewrite E in *.
  destruct H as (c & Ec & _). rewrite Ec. exists os, rs. auto.
Qed.
