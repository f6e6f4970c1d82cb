(** Property theorems C05, C06, C07, C08. *)
From Verif Require Import Base Machine StackSpec StackModel StackProofs.

(** C05: for every element type, every growth policy of Go's append and every operation sequence, the array stack
    never panics and returns exactly what the mathematical stack returns. *)
Theorem C05_array_stack : forall (A : Type) (zero : A) (spare : nat -> nat) (ops : list (stack_op A)),
  run (ArrayStack.step zero spare) ArrayStack.new ops = Some (srun stack_spec [] ops).
Proof. exact @ArrayStackP.run_correct. Qed.
Print Assumptions C05_array_stack.

(** C06 *)
Theorem C06_list_stack : forall (A : Type) (zero : A) (ops : list (stack_op A)),
  run (ListStack.step zero) ListStack.new ops = Some (srun stack_spec [] ops).
Proof. exact @ListStackP.run_correct. Qed.
Print Assumptions C06_list_stack.

(** C07: both constructors, every capacity of at least one. *)
Theorem C07_segmented_stack : forall (A : Type) (zero : A) (ops : list (stack_op A)),
  run (SegStack.step zero) (SegStack.new zero) ops = Some (srun stack_spec [] ops).
Proof. exact @SegStackP.run_correct_new. Qed.
Print Assumptions C07_segmented_stack.

Theorem C07_segmented_stack_with_cap : forall (A : Type) (zero : A) (cap : nat) (ops : list (stack_op A)),
  0 < cap -> run (SegStack.step zero) (SegStack.new_with_cap zero cap) ops = Some (srun stack_spec [] ops).
Proof. exact @SegStackP.run_correct. Qed.
Print Assumptions C07_segmented_stack_with_cap.

(** C08 is false: capacity zero is accepted by the constructor, but the first Push panics. *)
Theorem C08_capacity_zero_refuted : exists cap : nat, forall (A : Type) (zero v : A) ops,
  run (SegStack.step zero) (SegStack.new_with_cap zero cap) (Push v :: ops) = None.
Proof. exact seg_cap0_panics. Qed.
Print Assumptions C08_capacity_zero_refuted.

(** What remains true: every positive capacity works (C07), so zero is the only failing capacity. *)
Theorem C08_capacity_partial : forall (A : Type) (zero v : A) (cap : nat), 0 < cap ->
  run (SegStack.step zero) (SegStack.new_with_cap zero cap) [Push v] = Some [RUnit].
Proof. exact (fun A zero v cap H => SegStackP.run_correct zero cap [Push v] H). Qed.
Print Assumptions C08_capacity_partial.

(** A concrete history crossing block boundaries with reuse of the cached block. *)
Example C07_case : run (SegStack.step 0) (SegStack.new_with_cap 0 1)
    [Push 1; Push 2; Push 3; Push 4; Pop; Push 5; Pop; Pop; Values; Pop; Pop; Pop; Size] =
  Some [RUnit; RUnit; RUnit; RUnit; RVal (Some 4); RUnit; RVal (Some 5); RVal (Some 3); RList [1; 2];
        RVal (Some 2); RVal (Some 1); RVal None; RNat 0].
Proof. vm_compute; reflexivity. Qed.
