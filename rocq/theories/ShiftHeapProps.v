(** C86: experiment.ShiftToleranceTree on nodes in memory, with all fields of its nodes. *)
From Verif Require Import Base Machine AvlTree AvlModel IndexModel ShiftModel ShiftHeapModel ShiftHeapSpec ShiftHeapTopProofs.
Local Open Scope Z_scope.

Section Props.
  Context {K V : Type} (cmp : K -> K -> Z) (shift : Z) (k0 : K) (v0 : V).

  (** Statement by statement on nodes, Put, Get, Size and Height answer as [ShiftModel] says, for every comparison function
      and every shift: a call fails when it fails there and not otherwise. *)
  Theorem C86_nodes_do_what_trees_do (ops : list (stol_op K V)) :
    run (htol_step cmp shift) (hnew k0 v0) ops = run (stol_step cmp shift) snew ops.
  Proof. apply run_top, new_rel. Qed.
  (** In every state, Parent of a child is the node it is a child of ... *)
  Theorem C86_parent_exact (ops : list (stol_op K V)) s : reach (htol_step cmp shift) (hnew k0 v0) ops = Some s ->
    forall b c, inTree (memory s) b -> childOf (memory s) c b -> Parent (nodes (memory s) c) = Some b.
  Proof. intros H b c. destruct (reach_top cmp shift ops _ _ s (new_rel k0 v0) H) as (t & _ & R). exact (parent_exact s t b c R). Qed.
  (** ... Size is the number of nodes from a node down, Balance what the left side has more than the right, and Height the
      length of the longest way down, as long as an int8 can hold it. *)
  Theorem C86_fields_exact (ops : list (stol_op K V)) s : reach (htol_step cmp shift) (hnew k0 v0) ops = Some s ->
    forall b, inTree (memory s) b -> b <> 0%nat -> sizeRight (memory s) b /\ balanceRight (memory s) b /\ heightRight (memory s) b.
  Proof. intros H b. destruct (reach_top cmp shift ops _ _ s (new_rel k0 v0) H) as (t & _ & R). exact (fields_exact cmp s t b R). Qed.
End Props.
Print Assumptions C86_nodes_do_what_trees_do.
Print Assumptions C86_parent_exact.
Print Assumptions C86_fields_exact.

(** a three-way comparison; 2 is the shift of NewIndexTreeDefault *)
Definition three (a b : Z) : Z := if a <? b then -1 else if b <? a then 1 else 0.
(** with these calls nodes are rotated once and twice *)
Definition ups : list (stol_op Z Z) := map (fun k => SPut k (10 * k)) [1; 2; 3; 4; 5; 9; 8; 7; 6; 9].
(** nodes in the order of their addresses: Parent, Children, Size, Height, Balance and Key *)
Definition held (cmp : Z -> Z -> Z) (shift : Z) (ops : list (stol_op Z Z)) : list (nat * option nat * (option nat * option nat) * (Z * Z * Z) * Z) :=
  match reach (htol_step cmp shift) (hnew 0 0) ops with
  | Some s => map (fun a => let n := nodes (memory s) a in (a, Parent n, (Kid0 n, Kid1 n), (Size n, Hgt n, Balance n), Key n)) (seq 0 (next (memory s)))
  | None => []
  end.
Example C86_nodes_case : run (htol_step three 2) (hnew 0 0) (ups ++ [SSize; SHeight; SGet 100]) =
  Some (repeat (SBool true) 9 ++ [SBool false; SNat 9; SInt8 4; SVal (Some 40)]).
Proof. vm_compute. reflexivity. Qed.
Example C86_exact_case : held three 2 ups =
  [(0%nat, None, (Some 0%nat, Some 4%nat), (0, 0, 0), 0); (1%nat, Some 2%nat, (None, None), (1, 1, 0), 1); (2%nat, Some 4%nat, (Some 1%nat, Some 3%nat), (3, 2, 0), 2);
   (3%nat, Some 2%nat, (None, None), (1, 1, 0), 3); (4%nat, Some 0%nat, (Some 2%nat, Some 7%nat), (9, 4, -2), 4); (5%nat, Some 9%nat, (None, None), (1, 1, 0), 5);
   (6%nat, Some 7%nat, (None, None), (1, 1, 0), 9); (7%nat, Some 4%nat, (Some 9%nat, Some 6%nat), (5, 3, 2), 8); (8%nat, Some 9%nat, (None, None), (1, 1, 0), 7);
   (9%nat, Some 7%nat, (Some 5%nat, Some 8%nat), (3, 2, 0), 6)].
Proof. vm_compute. reflexivity. Qed.
(** any comparison function, any shift: a comparison that always says "greater" makes a left spine that is rotated all the
    same, one that answers 2 makes Get panic, and a negative shift makes Put panic *)
Example C86_any_case : held (fun _ _ => 1) 2 [SPut 7 0; SPut 7 0; SPut 7 0; SPut 7 0] =
    [(0%nat, None, (Some 0%nat, Some 2%nat), (0, 0, 0), 0); (1%nat, Some 2%nat, (None, None), (1, 1, 0), 7); (2%nat, Some 0%nat, (Some 3%nat, Some 1%nat), (4, 3, 1), 7);
     (3%nat, Some 2%nat, (Some 4%nat, None), (2, 2, 1), 7); (4%nat, Some 3%nat, (None, None), (1, 1, 0), 7)] /\
  run (htol_step (fun _ _ => 2) 2) (hnew 0 0) [SPut 1 1; SGet 1] = None /\ run (htol_step three (-1)) (hnew 0 0) [SPut 1 1; SPut 2 2; SPut 3 3] = None.
Proof. vm_compute. repeat split; reflexivity. Qed.
(** the nodes of [C86_exact_case] are in the tree: here the one that a double rotation brought up *)
Example C86_inTree_case : exists s, reach (htol_step three 2) (hnew 0 0) ups = Some s /\ inTree (memory s) 7 /\ childOf (memory s) 9 7.
Proof.
  eexists. split; [vm_compute; reflexivity|]. split.
  - apply (below_child _ _ 4%nat); [apply (below_child _ _ 0%nat); [constructor|]|]; exists true; split; try discriminate; reflexivity.
  - exists false. split; [reflexivity|discriminate].
Qed.
