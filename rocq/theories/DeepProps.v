(** How deep the trees with stored sizes get (C60).  [ht] counts the nodes on the longest way down from the root, which is
    how many keys searching for the lowest of them compares. *)
From Verif Require Import Base Bind Machine CompareModel AvlTree AvlSpec IndexSpec IndexModel TreelistSpec TreelistModel PrioSpec PrioModel
  DeepProofs DeepQueueProofs.
Local Open Scope Z_scope.

(** [n] insertions of different keys can make more than n / 4 levels. *)
Theorem C60_index_tree_linear_refuted m : exists ks, length ks = (4 * m + 6)%nat /\
  srun (step (A := Z) any 2) E (map (fun k => XPut k (Some k)) ks) = repeat (XBool true) (4 * m + 6) /\
  ht (sreach (step (A := Z) any 2) E (map (fun k => XPut k (Some k)) ks)) = Z.of_nat m + 3.
Proof. exists (deep_keys m). apply deep_index_tree. Qed.

(** No multiple of the logarithm bounds the levels. *)
Theorem C60_index_tree_refuted c : exists ks,
  srun (step (A := Z) any 2) E (map (fun k => XPut k (Some k)) ks) = repeat (XBool true) (length ks) /\
  c * (Z.log2 (Z.of_nat (length ks)) + 1) < ht (sreach (step (A := Z) any 2) E (map (fun k => XPut k (Some k)) ks)).
Proof.
  destruct (Z_le_gt_dec c 0) as [Hc|Hc].
  { destruct (C60_index_tree_linear_refuted 0) as (ks & L & R & H). exists ks. rewrite L. split; [exact R|]. rewrite H.
    pose proof (Z.log2_nonneg (Z.of_nat (4 * 0 + 6))). nia. }
  set (d := Z.to_nat c). assert (Ed : c = Z.of_nat d) by lia.
  set (m := (2 ^ (2 * d + 8))%nat).
  assert (Em : Z.of_nat m = 2 ^ (2 * c + 8)) by (unfold m; rewrite Nat2Z.inj_pow, Ed; f_equal; lia).
  destruct (C60_index_tree_linear_refuted m) as (ks & L & R & H). exists ks. rewrite L. split; [exact R|]. rewrite H.
  assert (B : Z.log2 (Z.of_nat (4 * m + 6)) < 2 * c + 8 + 3).
  { apply Z.log2_lt_pow2; [lia|]. rewrite Z.pow_add_r by lia. change (2 ^ 3) with 8. rewrite <- Em.
    assert (2 <= Z.of_nat m); [|lia]. rewrite Em. change 2 with (2 ^ 1) at 1. apply Z.pow_le_mono_r; lia. }
  assert (G : forall x, 0 <= x -> (x + 1) * (2 * x + 12) < 2 ^ (2 * x + 8)).
  { intros x Hx. pattern x. apply natlike_ind; [vm_compute; reflexivity| |exact Hx]. clear. intros x Hx IH.
    replace (2 * Z.succ x + 8) with (2 * x + 8 + 2) by lia. rewrite Z.pow_add_r by lia. change (2 ^ 2) with 4. nia. }
  specialize (G c ltac:(lia)). rewrite Em. nia.
Qed.

(** Half of the Puts into a priority queue can add a level each: 1, 0, 3, 2, 5, 4, ... does it.  (The bound on [m] keeps the
    sizes below 2^62.) *)
Theorem C60_queue_linear_refuted m : Z.of_nat m < 2 ^ 60 -> exists ks t, length ks = (2 * m)%nat /\
  reach (pq_step any_ex) E (map (fun k => QPut k k) ks) = Some t /\ Z.of_nat m <= ht t.
Proof.
  intros H. destruct (deep_queue m ltac:(lia)) as (t & R & L). exists (pairs 0 m), t. split; [apply pairs_length|]. split; assumption.
Qed.

(** 246 insertions make 63 levels in a tree list, as many as Put can cope with. *)
Theorem C60_tree_list_refuted : exists ks, length ks = 246%nat /\
  srun (tl_step any) new (map (fun k => TPut k k) ks) = repeat (TBool true) 246 /\
  ht (top (sreach (tl_step any) new (map (fun k => TPut k k) ks))) = 63.
Proof. exists (deep_keys 60). vm_compute. repeat split; reflexivity. Qed.
Print Assumptions C60_index_tree_linear_refuted.
Print Assumptions C60_index_tree_refuted.
Print Assumptions C60_queue_linear_refuted.
Print Assumptions C60_tree_list_refuted.

(** some of the trees *)
Example deep_index_case : deep_keys 3 = [22; 21; 20; 3; 2; 1; 7; 6; 5; 0; 11; 10; 9; 4; 15; 14; 13; 8] /\
  ht (sreach (step (A := Z) any 2) E (puts (deep_keys 3))) = 6 /\ ht (sreach (step (A := Z) any 2) E (puts (deep_keys 60))) = 63.
Proof. vm_compute. repeat split; reflexivity. Qed.
Example deep_queue_case : pairs 0 4 = [1; 0; 3; 2; 5; 4; 7; 6] /\
  exists t, reach (pq_step any_ex) E (qputs (pairs 0 100)) = Some t /\ ht t = 101 /\ PrioModel.getSize t = 200.
Proof. split; [reflexivity|]. eexists. split; [vm_compute; reflexivity|]. split; reflexivity. Qed.
