(** Iterators of tree/indextree on an unmodified tree (C34). *)
From Verif Require Import Base Bind Machine OrderSpec SMapSpec SMapFacts CompareModel AvlTree AvlSpec AvlModel AvlIterModel AvlIterProofs AvlIterProps
  IndexSpec IndexModel IndexProofs IndexProps IndexIterSpec IndexIterModel IndexIterProofs.
From Verif Require DeepProofs.
Local Open Scope Z_scope.

Section Props.
  Context {K A : Type} (ltb : K -> K -> bool) (W : weak_order ltb) (cmp : K -> K -> Z) (Hcmp : plain_cmp ltb cmp)
          (shift : Z) (Hsh : 0 <= shift).
  Notation iterator t := (XIT (inew (AVL t 0)) 0).

  (** Whatever tree a sequence of calls has built, an iterator made on it behaves like a cursor over the sorted entries that
      knows its rank.  Full statement: for all trees and all calls on the iterator.  Missing: SeekGT, SeekLT, moving after
      SeekByIndex, Index after a seek that did not find the key and after moving on from beyond an end ([plain_calls]), and
      trees with more than 128 levels; see the refutations below. *)
  Theorem C34_indextree_iterator_partial (ops : list (ix_op K A)) cops :
    let t := sreach (step cmp shift) (@E K (option A)) ops in
    let m := sreach (ix_spec ltb) (@nil (K * option A)) ops in
    trims_in_range ltb [] ops -> ht t <= 128 -> plain_calls ltb m None true false cops ->
    run (xi_step cmp) (iterator t) cops = Some (srun (xi_spec ltb m) None cops).
  Proof.
    intros t m H1 H2 H3. destruct (grown_ok ltb W cmp Hcmp shift Hsh ops H1) as (Ee & Ht & Hs). fold t in Ee, Ht. fold m in Ee, Hs.
    rewrite <- Ee in *. exact (xi_new_ok ltb W cmp Hcmp (AVL t 0) Ht H2 Hs cops H3).
  Qed.

  (** A tree with at most 128 entries has at most 128 levels. *)
  Lemma ht_len (t : tree K (option A)) : ht t <= Z.of_nat (length (elems t)).
  Proof.
    induction t as [|h k v l IHl r IHr]; [cbn; lia|]. cbn [ht elems]. rewrite app_length. cbn [length].
    pose proof (ht_nonneg l). pose proof (ht_nonneg r). lia.
  Qed.
  Theorem C34_small_tree_iterator_partial (ops : list (ix_op K A)) cops :
    let m := sreach (ix_spec ltb) (@nil (K * option A)) ops in
    trims_in_range ltb [] ops -> (length m <= 128)%nat -> plain_calls ltb m None true false cops ->
    run (xi_step cmp) (iterator (sreach (step cmp shift) (@E K (option A)) ops)) cops = Some (srun (xi_spec ltb m) None cops).
  Proof.
    intros m H1 H2 H3. apply C34_indextree_iterator_partial; auto.
    destruct (grown_ok ltb W cmp Hcmp shift Hsh ops H1) as (Ee & _). pose proof (ht_len (sreach (step cmp shift) E ops)) as X. fold m in Ee.
    rewrite Ee in X. lia.
  Qed.
End Props.
Print Assumptions C34_indextree_iterator_partial.
Print Assumptions C34_small_tree_iterator_partial.

(** ** where the code does something else *)
Notation ztree ks := (sreach zstep E (xputs ks)).
Notation ziter ks := (XIT (inew (AVL (ztree ks) 0)) 0).
Notation zcursor ks := (srun (xi_spec Z.ltb (sreach zspec [] (xputs ks))) None).

(** SeekGT passes over the entry it should stop at, and panics when it then runs off the end; SeekLT stops at the key itself. *)
Theorem C34_seek_gt_refuted : exists ks k k', run (xi_step any) (ziter ks) [XI (CGT k); XI CKey] = Some [XO (CBool true); XO (CK k')] /\
  zcursor ks [XI (CGT k); XI CKey] <> [XO (CBool true); XO (CK k')] /\ k' - 1 > k /\ In (k' - 1) ks.
Proof. exists [2; 1; 3], 1, 3. split; [vm_compute; reflexivity|]. split; [vm_compute; discriminate|]. split; [lia|cbn; auto]. Qed.
Theorem C34_seek_gt_panics_refuted : exists ks k, run (xi_step any) (ziter ks) [XI (CGT k)] = None /\ exists k', In k' ks /\ k < k'.
Proof. exists [1], 0. split; [vm_compute; reflexivity|]. exists 1. split; [cbn; auto|lia]. Qed.
Theorem C34_seek_lt_refuted : exists ks k, run (xi_step any) (ziter ks) [XI (CLT k); XI CKey] = Some [XO (CBool true); XO (CK k)].
Proof. exists [2; 1; 3], 1. vm_compute. reflexivity. Qed.
(** After a seek that stops beside the key, Index is -1 at a valid position. *)
Theorem C34_rank_after_seek_refuted : exists ks k, run (xi_step any) (ziter ks) [XI (CGE k); XI CKey; XIRank] =
  Some [XO (CBool false); XO (CK 3); XORank (-1)] /\ zcursor ks [XI (CGE k); XI CKey; XIRank] = [XO (CBool false); XO (CK 3); XORank 1].
Proof. exists [1; 3; 5], 2. vm_compute. split; reflexivity. Qed.
(** After SeekByIndex, Next does not go to the next entry. *)
Theorem C34_next_after_seek_by_index_refuted : exists ks i, run (xi_step any) (ziter ks) [XISeek i; XI CNext; XI CValid] =
  Some [XO CUnit; XO CUnit; XO (CBool false)] /\ zcursor ks [XISeek i; XI CNext; XI CValid] = [XO CUnit; XO CUnit; XO (CBool true)].
Proof. exists [2; 1; 3], 0. vm_compute. split; reflexivity. Qed.
(** Moving on from beyond the end moves the rank but not the iterator: back on the last entry, Index is too large. *)
Theorem C34_rank_beyond_end_refuted : exists ks cops, run (xi_step any) (ziter ks) (cops ++ [XI CKey; XIRank]) =
  Some (zcursor ks (cops ++ [XI CKey]) ++ [XORank 3]) /\ length ks = 3%nat /\ last (zcursor ks (cops ++ [XIRank])) (XORank 0) = XORank 2.
Proof. exists [1; 2; 3], [XI CLast; XI CNext; XI CNext; XI CPrev]. vm_compute. repeat split; reflexivity. Qed.
(** With SetSizeToleranceShift(0) no insertion rotates anything; 130 keys make 130 levels, more than the int8 index of the stack
    can count, and SeekToLast panics. *)
Theorem C34_deep_tree_refuted : exists ks, let t := sreach (step (A := Z) any 0) E (xputs ks) in
  length ks = 130%nat /\ elems t = sreach zspec [] (xputs ks) /\ run (xi_step any) (XIT (inew (AVL t 0)) 0) [XI CLast] = None.
Proof. exists (map Z.of_nat (seq 1 130)). vm_compute. repeat split; reflexivity. Qed.
(** With the tolerance as it is, 514 insertions make 130 levels (see C60). *)
Theorem C34_deep_default_tree_refuted : exists ks, let t := sreach (step (A := Z) any 2) E (xputs ks) in
  length ks = 514%nat /\ elems t = sreach zspec [] (xputs ks) /\ run (xi_step any) (XIT (inew (AVL t 0)) 0) [XI CLast] = None.
Proof. exists (DeepProofs.deep_keys 127). vm_compute. repeat split; reflexivity. Qed.
Print Assumptions C34_deep_default_tree_refuted.
Print Assumptions C34_seek_gt_refuted.
Print Assumptions C34_seek_gt_panics_refuted.
Print Assumptions C34_seek_lt_refuted.
Print Assumptions C34_rank_after_seek_refuted.
Print Assumptions C34_next_after_seek_by_index_refuted.
Print Assumptions C34_rank_beyond_end_refuted.
Print Assumptions C34_deep_tree_refuted.

(** ** example *)
Definition xi_ops : list (xi_op Z) :=
  [XI CValid; XI CNext; XI CFirst; XIRank; XI CKey; XI CNext; XI CKey; XIRank; XI CPrev; XI CPrev; XIRank; XI CValid; XI CNext; XI CKey; XIRank;
   XI (CGE 4); XI CKey; XI CNext; XI CClone; XI CNext; XI CNext; XI CKey; XI (CGE 35); XI CKey; XI (CLE 35); XI CKey; XI CPrev; XI CKey;
   XI (CLE 20); XIRank; XI CNext; XIRank; XISeek 3; XI CKey; XIRank; XI CClone; XI CValue; XISeek 7; XI CValid; XI CLast; XI CNext; XIRank; XI CPrev; XI CKey; XIRank;
   XI (CGE 60); XI CValid; XI CPrev; XI CKey; XI (CLE 1); XI CValid; XI CKey].
Example C34_case : let ks := [30; 10; 50; 20; 40] in let m := sreach zspec [] (xputs ks) in
  plain_calls Z.ltb m None true false xi_ops /\ ht (ztree ks) = 3 /\
  run (xi_step any) (ziter ks) xi_ops = Some
  [XO (CBool false); XO CUnit; XO CUnit; XORank 0; XO (CK 10); XO CUnit; XO (CK 20); XORank 1; XO CUnit; XO CUnit; XORank (-1); XO (CBool false);
   XO CUnit; XO (CK 10); XORank 0; XO (CBool false); XO (CK 10); XO CUnit; XO CUnit; XO CUnit; XO CUnit; XO (CK 40);
   XO (CBool false); XO (CK 40); XO (CBool false); XO (CK 30); XO CUnit; XO (CK 20); XO (CBool true); XORank 1; XO CUnit; XORank 2; XO CUnit;
   XO (CK 40); XORank 3; XO CUnit; XO (CV (Some 40)); XO CUnit; XO (CBool false); XO CUnit; XO CUnit; XORank 5; XO CUnit; XO (CK 50); XORank 4;
   XO (CBool false); XO (CBool false); XO CUnit; XO (CK 50); XO (CBool false); XO (CBool false); XO CPanic].
Proof. cbv zeta. split; [|vm_compute; split; reflexivity]. vm_compute. repeat split; congruence. Qed.
