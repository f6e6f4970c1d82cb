(** C87: tree/avl and set/treeset on nodes in memory. *)
From Verif Require Import Base Machine OrderSpec SMapSpec SMapFacts CompareModel AvlTree AvlSpec AvlStep AvlHeapModel AvlHeapSpec AvlHeapProofs AvlHeapTopProofs.
From Verif Require AvlModel AvlProps TreeSetProps.
Local Open Scope Z_scope.

Section Props.
  Context {K V : Type} (cmp : K -> K -> Z) (st : style) (d : Z) (zero : V) (k0 : K).

  (** Statement by statement on nodes, all calls answer as [AvlModel] says, for every comparator and every threshold, in both
      packages: they panic when it panics and not otherwise, and no call loops for ever. *)
  Theorem C87_nodes_do_what_trees_do (ops : list (sm_op K V)) :
    run (hstep cmp st d zero) (hnew zero k0) ops = run (AvlModel.step cmp st d) AvlModel.new ops.
  Proof. exact (run_top cmp st d zero ops _ _ (rel_new zero k0)). Qed.
  Theorem C87_height_reported (ops : list (sm_op K V)) s : reach (hstep cmp st d zero) (hnew zero k0) ops = Some s ->
    exists s', reach (AvlModel.step cmp st d) AvlModel.new ops = Some s' /\ hheight s = AvlModel.height s'.
  Proof. intros H. destruct (reach_top cmp st d zero ops _ _ s (rel_new zero k0) H) as (s' & H1 & H2). exists s'. split; [exact H1|apply rel_height, H2]. Qed.
  (** In every state, whatever the comparison function answers, the pointers from Center down are those of a tree: no node is
      come upon twice, none is Center, and Traverse hands out what the nodes hold, in their order. *)
  Theorem C87_each_node_once (ops : list (sm_op K V)) s : reach (hstep cmp st d zero) (hnew zero k0) ops = Some s ->
    exists l, inorder (memory s) (getRoot (memory s)) l /\ NoDup l /\ (forall a, In a l -> (0 < a < next (memory s))%nat) /\
      hstep cmp st d zero s (MTraverse (fun _ => true)) = Some (s, MSeen (map (entry (memory s)) l)).
  Proof. intros H. destruct (reach_top cmp st d zero ops _ _ s (rel_new zero k0) H) as (s' & _ & H2). eapply rel_inorder, H2. Qed.

  Context (ltb : K -> K -> bool) (W : weak_order ltb) (Hcmp : ex_cmp ltb cmp).
  (** With a comparison function from compare, the nodes hold the entries of the sorted map, one node for each entry, and the
      field size is their number. *)
  Theorem C87_one_node_per_entry (ops : list (sm_op K V)) s : reach (hstep cmp st d zero) (hnew zero k0) ops = Some s ->
    exists l, inorder (memory s) (getRoot (memory s)) l /\ NoDup l /\ map (entry (memory s)) l = sreach (smap_spec ltb) [] ops /\ hsize s = length l.
  Proof.
    intros H. destruct (reach_top cmp st d zero ops _ _ s (rel_new zero k0) H) as (s' & H1 & H2). destruct (rel_inorder cmp st d zero _ _ H2) as (l & L1 & L2 & _). exists l. split; [exact L1|]. split; [exact L2|].
    destruct (reach_any ltb W cmp Hcmp st d ops AvlModel.new [] s' (AvlProps.rel_new ltb) H1) as (E1 & E2 & _). pose proof (rel_elems _ _ _ H2 L1) as HE. rewrite E1 in HE. split; [exact HE|].
    rewrite (rel_size _ _ H2), E2, <- HE. apply map_length.
  Qed.
End Props.
Section Heights.
  Context {K V : Type} (ltb : K -> K -> bool) (W : weak_order ltb) (cmp : K -> K -> Z) (Hcmp : ex_cmp ltb cmp) (zero : V) (k0 : K).
  (** The field Height of every node is the number of nodes on the longest way down from it: in tree/avl as long as there are
      at most 126 levels (partial: beyond that an int8 overflows, C21) ... *)
  Theorem C87_avl_height_field_partial d (ops : list (sm_op K V)) s : 1 <= d <= 127 -> AvlProps.stays_low cmp d ops -> reach (hstep cmp Both d zero) (hnew zero k0) ops = Some s ->
    forall l a, inorder (memory s) (getRoot (memory s)) l -> In a l -> levels (memory s) (Some a) (Hgt (nodes (memory s) a)).
  Proof.
    intros Hd HL H. destruct (reach_top cmp Both d zero ops _ _ s (rel_new zero k0) H) as (s' & H1 & H2). apply (rel_exact s s' H2), (AvlProps.C21_avl_heights_exact ltb W cmp Hcmp d ops s' Hd HL H1).
  Qed.
  (** ... and in set/treeset always *)
  Theorem C87_treeset_height_field (ops : list (sm_op K V)) s : Z.of_nat (length ops) < 2 ^ 64 -> reach (hstep cmp One 2 zero) (hnew zero k0) ops = Some s ->
    forall l a, inorder (memory s) (getRoot (memory s)) l -> In a l -> levels (memory s) (Some a) (Hgt (nodes (memory s) a)).
  Proof.
    intros Hn H. destruct (reach_top cmp One 2 zero ops _ _ s (rel_new zero k0) H) as (s' & H1 & H2). destruct (TreeSetProps.C28_treeset_balanced ltb W cmp Hcmp ops Hn) as (s2 & G1 & G2 & _).
    rewrite H1 in G1. injection G1 as <-. apply (rel_exact s s' H2 G2).
  Qed.
End Heights.
Print Assumptions C87_nodes_do_what_trees_do.
Print Assumptions C87_height_reported.
Print Assumptions C87_each_node_once.
Print Assumptions C87_one_node_per_entry.
Print Assumptions C87_avl_height_field_partial.
Print Assumptions C87_treeset_height_field.

Definition nodes_of (s : havl Z Z) : list (nat * Z * Z * option nat * option nat) := map (fun a => let n := nodes (memory s) a in (a, Key n, Hgt n, Kid0 n, Kid1 n)) (seq 0 (next (memory s))).
(** ten insertions with single and double rotations, then removals and writes *)
Definition somecalls : list (sm_op Z Z) :=
  map (fun k => MPut k (10 * k)) [5; 2; 8; 1; 3; 7; 9; 6; 4; 10] ++ [MRemove 4; MDelete 9; MSet 6 61; MUpsert 3 31; MUpsert 4 41; MInsertIfAbsent 8 0; MGet 6].
Example C87_nodes_case : run (hstep any_ex Both 1 0) (hnew 0 0) somecalls =
  Some (repeat (MBool true) 10 ++ [MVal (Some 40); MVal (Some 90); MBool false; MBool true; MBool false; MBool false; MVal (Some 61)]) /\
  run (hstep any_ex One 2 0) (hnew 0 0) (somecalls ++ [MValues]) =
  Some (repeat (MBool true) 10 ++ [MVal (Some 40); MVal (Some 90); MBool false; MBool true; MBool false; MBool false; MVal (Some 61); MVals [10; 20; 31; 41; 50; 61; 70; 80; 100]]).
Proof. vm_compute. split; reflexivity. Qed.
(** The nodes afterwards, tree/avl: address, Key, Height and Children.  Those at 9 and 10 have been taken out; the one at 7 was
    put in with the key 9 and has been given the entry of the one at 10. *)
Example C87_once_case : option_map nodes_of (reach (hstep any_ex Both 1 0) (hnew 0 0) somecalls) =
  Some [(0, 0%Z, 0%Z, Some 0, Some 5); (1, 5%Z, 2%Z, Some 11, Some 8); (2, 2%Z, 2%Z, Some 4, None); (3, 8%Z, 2%Z, None, Some 7); (4, 1%Z, 1%Z, None, None); (5, 3%Z, 4%Z, Some 2, Some 6);
    (6, 7%Z, 3%Z, Some 1, Some 3); (7, 10%Z, 1%Z, None, None); (8, 6%Z, 1%Z, None, None); (9, 4%Z, 1%Z, None, None); (10, 10%Z, 1%Z, None, None); (11, 4%Z, 1%Z, None, None)]%nat.
Proof. vm_compute. reflexivity. Qed.
Example C87_treeset_case : option_map nodes_of (reach (hstep any_ex One 2 0) (hnew 0 0) somecalls) =
  Some [(0, 0%Z, 0%Z, Some 0, Some 1); (1, 5%Z, 4%Z, Some 2, Some 3); (2, 2%Z, 3%Z, Some 4, Some 5); (3, 8%Z, 3%Z, Some 6, Some 10); (4, 1%Z, 1%Z, None, None); (5, 3%Z, 2%Z, None, Some 11);
    (6, 7%Z, 2%Z, Some 8, None); (7, 9%Z, 2%Z, None, Some 10); (8, 6%Z, 1%Z, None, None); (9, 4%Z, 1%Z, None, None); (10, 10%Z, 1%Z, None, None); (11, 4%Z, 1%Z, None, None)]%nat /\
  weak_order Z.ltb /\ ex_cmp Z.ltb any_ex /\ Z.of_nat (length somecalls) < 2 ^ 64.
Proof. split; [vm_compute; reflexivity|]. split; [exact Zltb_weak|]. split; [exact AvlProps.zcmp_ex|]. vm_compute. reflexivity. Qed.
Example C87_height_case : 1 <= 1 <= 127 /\ AvlProps.stays_low any_ex 1 somecalls /\ exists s, reach (hstep any_ex Both 1 0) (hnew 0 0) somecalls = Some s /\ hheight s = Some 4 /\ hsize s = 9%nat.
Proof.
  split; [lia|]. split; [apply (AvlProps.stays_low_short Z.ltb Zltb_weak any_ex AvlProps.zcmp_ex); cbn; lia|]. eexists. split; [vm_compute; reflexivity|]. vm_compute. split; reflexivity.
Qed.
(** any comparator, any threshold: here neither is sensible, and the last call panics *)
Example C87_panic_case : run (hstep (fun _ _ => 1) Both (-3) 0) (hnew 0 0) [MPut 1 1; MPut 2 2] = None /\ run (hstep (fun _ _ => 2) One 2 0) (hnew 0 0) [MPut 1 1; MGet 1] = None.
Proof. vm_compute. split; reflexivity. Qed.
