(** C83: experiment.Tree on nodes in memory, with the fields Parent and Size. *)
From Verif Require Import Base Machine SMapSpec AvlTree AvlModel ExpHeapModel ExpHeapSpec ExpHeapTopProofs.
From Verif Require ExpModel.
Local Open Scope Z_scope.

Section Props.
  Context {K V : Type} (cmp : K -> K -> Z) (th : Z) (zero : V) (k0 : K).

  (** Statement by statement on nodes, all calls answer as [ExpModel] says, for every comparator and every threshold: they
      panic when it panics and not otherwise, and no call loops for ever. *)
  Theorem C83_nodes_do_what_trees_do (ops : list (sm_op K V)) :
    run (hstep cmp th zero) (hnew zero k0) ops = option_map (map (@HOut K V)) (run (ExpModel.step cmp th) new ops).
  Proof. exact (run_top cmp th zero ops _ new ExpHeapPutProofs.none IndexHeapProofs.L (proj1 (start_holds zero k0)) eq_refl). Qed.
  Theorem C83_every_call_returns (ops : list (sm_op K V)) outs : run (hstep cmp th zero) (hnew zero k0) ops = Some outs -> ~ In HLoop outs.
  Proof.
    rewrite C83_nodes_do_what_trees_do. destruct (run (ExpModel.step cmp th) new ops) as [l|]; [|discriminate]. intros [= <-] H. apply in_map_iff in H as (r & H & _). discriminate.
  Qed.
  (** In every state, from a node of the tree the field Parent leads to its parent in the tree, if need be by way of nodes
      that have been taken out of it. *)
  Theorem C83_parents_lead_up (ops : list (sm_op K V)) s : reach (hstep cmp th zero) (hnew zero k0) ops = Some s ->
    forall b c, inTree (memory s) b -> childOf (memory s) c b -> above (memory s) c b.
  Proof.
    intros H b c Hb Hc. destruct (reach_top cmp th zero ops _ new ExpHeapPutProofs.none IndexHeapProofs.L s (proj1 (start_holds zero k0)) eq_refl H) as (t & dead & S & H1 & _). eapply holds_above; eassumption.
  Qed.
  (** As long as nothing has been removed by Remove or Delete, Parent is the parent ... *)
  Theorem C83_parent_exact_partial (ops : list (sm_op K V)) s : forallb (fun o => negb (removal o)) ops = true -> reach (hstep cmp th zero) (hnew zero k0) ops = Some s ->
    forall b c, inTree (memory s) b -> childOf (memory s) c b -> Parent (memory s) c = Some b.
  Proof.
    intros Hf H b c Hb Hc. destruct (reach_top cmp th zero ops _ new ExpHeapPutProofs.none IndexHeapProofs.L s (proj1 (start_holds zero k0)) eq_refl H) as (t & dead & S & H1 & H2).
    eapply clean_parent; try eassumption. apply H2; [exact Hf|apply start_holds].
  Qed.
  (** ... and Size is the number of nodes below, the node itself being one of them. *)
  Theorem C83_size_exact_partial (ops : list (sm_op K V)) s : forallb (fun o => negb (removal o)) ops = true -> reach (hstep cmp th zero) (hnew zero k0) ops = Some s ->
    forall b, inTree (memory s) b -> b <> 0%nat -> sizeRight (memory s) b.
  Proof.
    intros Hf H b Hb Hb0. destruct (reach_top cmp th zero ops _ new ExpHeapPutProofs.none IndexHeapProofs.L s (proj1 (start_holds zero k0)) eq_refl H) as (t & dead & S & H1 & H2).
    eapply clean_size; try eassumption. apply H2; [exact Hf|apply start_holds].
  Qed.
End Props.
Print Assumptions C83_nodes_do_what_trees_do.
Print Assumptions C83_every_call_returns.
Print Assumptions C83_parents_lead_up.
Print Assumptions C83_parent_exact_partial.
Print Assumptions C83_size_exact_partial.

(** a three-way comparison; 1 is the threshold of New *)
Definition three (a b : Z) : Z := if a <? b then -1 else if b <? a then 1 else 0.
Definition held (ops : list (sm_op Z Z)) : list (nat * ptr * ptr * ptr * Z * Z) :=
  match reach (hstep three 1 0) (hnew 0 0) ops with
  | Some s => let m := memory s in map (fun a => (a, Parent m a, Children m a false, Children m a true, Size m a, Key m a)) (seq 0 (next m))
  | None => []
  end.
Definition ups3 : list (sm_op Z Z) := map (fun k => MPut k (10 * k)) [5; 2; 8; 1; 3; 7; 9; 6; 4].
(** with these calls nodes are rotated, taken out, and given the entries of others *)
Definition mixed : list (sm_op Z Z) := ups3 ++ [MRemove 9; MDelete 4; MPut 0 0; MUpsert 9 1; MSet 4 4; MGet 6; MValues; MSize; MClear; MLen].
Example C83_nodes_case : run (hstep three 1 0) (hnew 0 0) mixed =
  Some (map (@HOut Z Z) (repeat (MBool true) 9 ++ [MVal (Some 30); MVal (Some 20); MBool true; MBool true; MBool false; MVal (Some 1); MVals [90; 80; 70; 60; 1; 4; 10; 0]; MNat 8; MUnit; MNat 0])).
Proof. vm_compute. reflexivity. Qed.
(** nine nodes, in the order of their addresses: Parent, Children, Size and Key *)
Example C83_exact_case : forallb (fun o => negb (removal o)) ups3 = true /\
  held ups3 = [(0, None, Some 0, Some 5, 0%Z, 0%Z); (1, Some 6, Some 8, Some 9, 3%Z, 5%Z); (2, Some 5, None, Some 4, 2%Z, 2%Z); (3, Some 6, Some 7, None, 2%Z, 8%Z); (4, Some 2, None, None, 1%Z, 1%Z);
    (5, Some 0, Some 6, Some 2, 9%Z, 3%Z); (6, Some 5, Some 3, Some 1, 6%Z, 7%Z); (7, Some 3, None, None, 1%Z, 9%Z); (8, Some 1, None, None, 1%Z, 6%Z); (9, Some 1, None, None, 1%Z, 4%Z)]%nat.
Proof. vm_compute. split; reflexivity. Qed.
(** any comparator, any threshold: here neither is sensible, and the last call panics *)
Example C83_panic_case : run (hstep (fun _ _ => 1) (-3) 0) (hnew 0 0) [MPut 1 1; MPut 2 2] = None /\ run (hstep (fun _ _ => 2) 1 0) (hnew 0 0) [MPut 1 1; MGet 1] = None.
Proof. vm_compute. split; reflexivity. Qed.

(** After one removal: the node at 2 is a child of the one at 3, and its Parent is the removed node at 1. *)
Definition removed : list (sm_op Z Z) := [MPut 2 2; MPut 1 1; MPut 3 3; MPut 4 4; MRemove 5].
Definition state (ops : list (sm_op Z Z)) : mem Z Z := match reach (hstep three 1 0) (hnew 0 0) ops with Some s => memory s | None => memory (hnew 0 0) end.
Lemma below_three : forall c, below (state removed) 3%nat c -> In c [2; 3; 4]%nat.
Proof.
  intros c H. induction H as [|a c _ IH (e & H & _)]; [cbn; tauto|]. cbn [In] in IH. destruct IH as [<-|[<-|[<-|[]]]]; destruct e; vm_compute in H; try discriminate; injection H as <-; cbn; tauto.
Qed.
Lemma in_removed : forall c, inTree (state removed) c -> In c [0; 2; 3; 4]%nat.
Proof.
  intros c H. induction H as [|a c _ IH (e & H & He)]; [cbn; tauto|]. cbn [In] in IH.
  destruct IH as [<-|[<-|[<-|[<-|[]]]]]; [rewrite (He eq_refl) in H| | |]; try destruct e; vm_compute in H; try discriminate; injection H as <-; cbn; tauto.
Qed.
Lemma three_in : inTree (state removed) 3%nat.
Proof. apply (below_child _ 0 0 3); [apply below_self|]. exists true. split; [vm_compute; reflexivity|reflexivity]. Qed.
Example C83_lead_case : childOf (state removed) 2 3 /\ Parent (state removed) 2%nat = Some 1%nat /\ ~ inTree (state removed) 1 /\ Parent (state removed) 1%nat = Some 3%nat.
Proof.
  split; [exists true; split; [vm_compute; reflexivity|reflexivity]|]. split; [vm_compute; reflexivity|]. split; [|vm_compute; reflexivity].
  intros H. apply in_removed in H. cbn in H. lia.
Qed.
Theorem C83_parent_exact_refuted : exists (ops : list (sm_op Z Z)) s, reach (hstep three 1 0) (hnew 0 0) ops = Some s /\
  exists b c x, inTree (memory s) b /\ childOf (memory s) c b /\ Parent (memory s) c = Some x /\ x <> b /\ ~ inTree (memory s) x.
Proof.
  exists removed. eexists. split; [vm_compute; reflexivity|]. exists 3%nat, 2%nat, 1%nat. split; [exact three_in|]. split; [exists true; split; [vm_compute; reflexivity|reflexivity]|].
  split; [vm_compute; reflexivity|]. split; [discriminate|]. intros H. assert (H' : In 1%nat [0; 2; 3; 4]%nat) by (apply in_removed; exact H). cbn in H'. lia.
Qed.
(** ... and the node at 3, with three nodes below, has Size 4. *)
Theorem C83_size_exact_refuted : exists (ops : list (sm_op Z Z)) s, reach (hstep three 1 0) (hnew 0 0) ops = Some s /\
  exists b, inTree (memory s) b /\ b <> 0%nat /\ ~ sizeRight (memory s) b.
Proof.
  exists removed. eexists. split; [vm_compute; reflexivity|]. exists 3%nat. split; [exact three_in|]. split; [discriminate|]. intros (l & ND & HI & HS).
  assert (HL : (length l <= 3)%nat) by (apply (NoDup_incl_length ND (l' := [2; 3; 4]%nat)); intros c Hc; apply below_three, HI, Hc). vm_compute (Size _ _) in HS. lia.
Qed.
(** A removed entry can still be reached from the tree: its node holds it, and the Parent of a node in the tree is that node. *)
Definition holdsOn : list (sm_op Z Z) := [MPut 2 20; MPut 1 10; MRemove 5].
Theorem C83_let_go_refuted : exists (ops : list (sm_op Z Z)) s, run (hstep three 1 0) (hnew 0 0) (ops ++ [MValues]) = Some (map (@HOut Z Z) [MBool true; MBool true; MVal (Some 10); MVals [20]]) /\
  reach (hstep three 1 0) (hnew 0 0) ops = Some s /\ exists c x, inTree (memory s) c /\ Parent (memory s) c = Some x /\ Value (memory s) x = 10.
Proof.
  exists holdsOn. eexists. split; [vm_compute; reflexivity|]. split; [vm_compute; reflexivity|]. exists 1%nat, 2%nat. split; [|split; vm_compute; reflexivity].
  apply (below_child _ 0 0 1); [apply below_self|]. exists true. split; [vm_compute; reflexivity|reflexivity].
Qed.
Print Assumptions C83_parent_exact_refuted.
Print Assumptions C83_size_exact_refuted.
Print Assumptions C83_let_go_refuted.
