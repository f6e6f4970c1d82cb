(** Property theorem C11. *)
From Verif Require Import Base Machine ListQueueSpec ListQueueModel ListQueueProofs.

Theorem C11_listqueue_is_deque : forall (A : Type) (ops : list (lq_op A)),
  run step new ops = Some (srun lq_spec [] ops).
Proof. exact @run_ok. Qed.
Print Assumptions C11_listqueue_is_deque.
Example C11_case : run step new [LPushBack 1; LPushFront 2; LPushBack 3; LForward; LBackward; LPopFront; LPopBack; LBack; LPopFront; LFront] =
  Some [LUnit; LUnit; LUnit; LList [2;1;3]; LList [3;1;2]; LVal (Some 2); LVal (Some 3); LVal (Some 1); LVal (Some 1); LVal None].
Proof. reflexivity. Qed.
