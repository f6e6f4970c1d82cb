(** C88: iterators of tree/avl and set/treeset on a tree that is changed meanwhile. *)
From Verif Require Import Base Machine OrderSpec SMapSpec SMapFacts CompareModel AvlTree AvlSpec AvlStep AvlHeapModel AvlHeapSpec AvlHeapProofs AvlHeapTopProofs AvlHeapIterModel AvlHeapIterSpec AvlHeapIterProofs AvlHeapIterTopProofs.
From Verif Require AvlModel AvlProofs AvlProps TreeSetProps.
Local Open Scope Z_scope.

Section Props.
  Context {K V : Type} (ltb : K -> K -> bool) (W : weak_order ltb) (cmp : K -> K -> Z) (Hcmp : ex_cmp ltb cmp) (zero : V) (k0 : K).
  Lemma start_inv : winv (K := K) (V := V) ltb (hnew zero k0, None) AvlModel.new ([], None).
  Proof. destruct (rel_new zero k0) as (T & HT). exists T. split; [exact HT|]. split; [apply AvlProps.rel_new|exact I]. Qed.

  (** Calls on a tree, new iterators and calls on the last one made, in any order: all answers are those of a sorted map with a
      cursor, provided an iterator is not used any more once a key was put in or taken out ([careful]).  Calls that change values
      only, that find nothing to remove or that only read do not disturb it: it stays where it is and reads the new values.
      Partial: tree/avl as long as there are at most 126 levels (beyond that an int8 overflows, C21). *)
  Theorem C88_avl_iterator_meanwhile_partial d (ops : list (wop K V)) : 1 <= d <= 127 -> AvlProps.stays_low cmp d (treecalls ops) -> careful ltb ([], None) ops ->
    run (wstep cmp Both d zero) (hnew zero k0, None) ops = Some (srun (wspec ltb) ([], None) ops).
  Proof.
    intros Hd HL HC. apply (world_run cmp Both d zero ltb W Hcmp ops _ AvlModel.new _ start_inv HC). intros p p' Ep.
    assert (HLp : AvlProps.stays_low cmp d p) by (intros a b s Ea; apply (HL a (b ++ p') s); rewrite Ep, Ea, app_assoc; reflexivity).
    destruct (AvlStep.run_total ltb W cmp Hcmp Both d 127 (AvlProps.loose d Hd) ltac:(lia) p AvlModel.new [] (AvlProps.rel_new ltb) (AvlProofs.Inv_E 127) HLp) as (_ & s & E1 & _).
    exists s. split; [exact E1|]. apply (AvlProps.C21_avl_heights_exact ltb W cmp Hcmp d p s Hd HLp E1).
  Qed.
  (** set/treeset: for fewer than 2^64 calls *)
  Theorem C88_treeset_iterator_meanwhile (ops : list (wop K V)) : Z.of_nat (length (treecalls ops)) < 2 ^ 64 -> careful ltb ([], None) ops ->
    run (wstep cmp One 2 zero) (hnew zero k0, None) ops = Some (srun (wspec ltb) ([], None) ops).
  Proof.
    intros Hn HC. apply (world_run cmp One 2 zero ltb W Hcmp ops _ AvlModel.new _ start_inv HC). intros p p' Ep.
    destruct (TreeSetProps.C28_treeset_balanced ltb W cmp Hcmp p) as (s & E1 & _ & _ & E2 & _); [rewrite Ep, app_length in Hn; lia|]. exists s. split; assumption.
  Qed.
End Props.
Print Assumptions C88_avl_iterator_meanwhile_partial.
Print Assumptions C88_treeset_iterator_meanwhile.

Definition five : list (wop Z Z) := map (fun k => WTree (MPut k (k + 1))) [30; 10; 50; 20; 40].
(** a walk, with values changed and keys looked for in between, and a second iterator after an insertion *)
Definition walk : list (wop Z Z) := five ++ [WIter; WCall CFirst; WCall CKey; WTree (MSet 20 7); WTree (MRemove 21); WCall CNext; WCall CValue; WTree (MUpsert 20 8);
  WCall CValue; WTree (MPut 20 9); WCall (CGE 35); WCall CKey; WCall CClone; WCall CPrev; WCall CKey; WTree (MPut 35 0); WIter; WCall (CLE 35); WCall CKey; WCall CNext; WCall CKey].
Definition walked : list (wout Z Z) := repeat (WT (MBool true)) 5 ++ [WU; WC CUnit; WC (CK 10); WT (MBool false); WT (MVal None); WC CUnit; WC (CV 7); WT (MBool true);
  WC (CV 8); WT (MBool false); WC (CBool false); WC (CK 40); WC CUnit; WC CUnit; WC (CK 30); WT (MBool true); WU; WC (CBool true); WC (CK 35); WC CUnit; WC (CK 40)].
Example C88_avl_case : 1 <= 1 <= 127 /\ AvlProps.stays_low any_ex 1 (treecalls walk) /\ careful Z.ltb ([], None) walk /\ run (wstep any_ex Both 1 0) (hnew 0 0, None) walk = Some walked.
Proof.
  split; [lia|]. split; [apply (AvlProps.stays_low_short Z.ltb Zltb_weak any_ex AvlProps.zcmp_ex); cbn; lia|]. split; [vm_compute; tauto|]. vm_compute. reflexivity.
Qed.
Example C88_treeset_case : Z.of_nat (length (treecalls walk)) < 2 ^ 64 /\ careful Z.ltb ([], None) walk /\ run (wstep any_ex One 2 0) (hnew 0 0, None) walk = Some walked.
Proof. split; [vm_compute; reflexivity|]. split; [vm_compute; tauto|]. vm_compute. reflexivity. Qed.

(** Without that proviso it is false.  The stack has as many cells as the tree had levels when the iterator was made: when the
    tree has grown since, every walk that goes further down panics. *)
Theorem C88_iterator_panics_on_grown_tree_refuted : exists (ts : list (sm_op Z Z)) (c : cu_op Z),
  run (AvlModel.step any_ex Both 1) AvlModel.new ts = Some (srun (smap_spec Z.ltb) [] ts) /\
  run (wstep any_ex Both 1 0) (hnew 0 0, None) (WIter :: map WTree ts ++ [WCall c]) = None /\
  run (wstep any_ex One 2 0) (hnew 0 0, None) (WIter :: map WTree ts ++ [WCall c]) = None.
Proof. exists (map (fun k => MPut k (k + 1)) [30; 10; 50; 20; 40]), CFirst. split; [|split]; vm_compute; reflexivity. Qed.
(** Taking out an entry with two children moves the entry of a neighbour into its node and takes the neighbour's node away: an
    iterator there has moved without a call, in tree/avl back to 10, in set/treeset on to 40. *)
Theorem C88_removal_moves_iterator_refuted : exists k k' : Z, k <> k' /\
  run (wstep any_ex Both 1 0) (hnew 0 0, None) (five ++ [WIter; WCall (CGE k); WCall CKey; WTree (MRemove k); WCall CKey]) =
    Some (repeat (WT (MBool true)) 5 ++ [WU; WC (CBool true); WC (CK k); WT (MVal (Some (k + 1))); WC (CK k')]) /\
  run (wstep any_ex One 2 0) (hnew 0 0, None) (five ++ [WIter; WCall (CGE 30); WCall CKey; WTree (MRemove 30); WCall CKey]) =
    Some (repeat (WT (MBool true)) 5 ++ [WU; WC (CBool true); WC (CK 30); WT (MVal (Some 31)); WC (CK 40)]).
Proof. exists 20, 10. split; [discriminate|]. split; vm_compute; reflexivity. Qed.
(** Going on with Next after the entry under the iterator was taken out passes over entries that are still there: in tree/avl
    30 (the walk is over 20) or 50 (over 40, and the walk ends), in set/treeset 40 (over 30). *)
Theorem C88_walk_and_remove_skips_refuted : exists k : Z,
  run (wstep any_ex Both 1 0) (hnew 0 0, None) (five ++ [WIter; WCall (CGE k); WTree (MRemove k); WCall CNext; WCall CValid; WTree (MContains 50)]) =
    Some (repeat (WT (MBool true)) 5 ++ [WU; WC (CBool true); WT (MVal (Some (k + 1))); WC CUnit; WC (CBool false); WT (MBool true)]) /\
  run (wstep any_ex Both 1 0) (hnew 0 0, None) (five ++ [WIter; WCall (CGE 20); WTree (MRemove 20); WCall CNext; WCall CKey; WTree (MContains 30)]) =
    Some (repeat (WT (MBool true)) 5 ++ [WU; WC (CBool true); WT (MVal (Some 21)); WC CUnit; WC (CK 40); WT (MBool true)]) /\
  run (wstep any_ex One 2 0) (hnew 0 0, None) (five ++ [WIter; WCall (CGE 30); WTree (MRemove 30); WCall CNext; WCall CKey; WTree (MContains 40)]) =
    Some (repeat (WT (MBool true)) 5 ++ [WU; WC (CBool true); WT (MVal (Some 31)); WC CUnit; WC (CK 50); WT (MBool true)]).
Proof. exists 40. split; [|split]; vm_compute; reflexivity. Qed.
Print Assumptions C88_iterator_panics_on_grown_tree_refuted.
Print Assumptions C88_removal_moves_iterator_refuted.
Print Assumptions C88_walk_and_remove_skips_refuted.
