(** What the nodes of tree/avl and set/treeset should look like in memory, said with the fields alone. *)
From Verif Require Import Base SMapSpec AvlHeapModel.
Local Open Scope Z_scope.

Section Spec.
  Context {K V : Type}.
  Implicit Types m : mem K V.
  (** the nodes from a pointer down, everything at Children[0], then the node, then everything at Children[1] *)
  Inductive inorder m : option nat -> list nat -> Prop :=
  | inorder_nil : inorder m None []
  | inorder_node a l r : inorder m (Kid0 (nodes m a)) l -> inorder m (Kid1 (nodes m a)) r -> inorder m (Some a) (l ++ a :: r).
  Definition entry m (a : nat) : K * V := (Key (nodes m a), Value (nodes m a)).
  (** the number of nodes on the longest way down from a pointer *)
  Inductive levels m : option nat -> Z -> Prop :=
  | levels_nil : levels m None 0
  | levels_node a x y : levels m (Kid0 (nodes m a)) x -> levels m (Kid1 (nodes m a)) y -> levels m (Some a) (1 + Z.max x y).
End Spec.
