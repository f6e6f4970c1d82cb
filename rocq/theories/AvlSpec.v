(** The shape of a tree, independently of the heights it stores. *)
From Verif Require Import Base AvlTree.
Local Open Scope Z_scope.

Section Shape.
  Context {K V : Type}.
  Notation tree := (tree K V).
  (** number of nodes on the longest path down *)
  Fixpoint ht (t : tree) : Z := match t with E => 0 | N _ _ _ l r => 1 + Z.max (ht l) (ht r) end.
  (** entries from left to right *)
  Fixpoint elems (t : tree) : list (K * V) := match t with E => [] | N _ k v l r => elems l ++ (k, v) :: elems r end.
  (** every stored height is the true one *)
  Fixpoint exact (t : tree) : Prop :=
    match t with E => True | N h _ _ l r => h = 1 + Z.max (ht l) (ht r) /\ exact l /\ exact r end.
  (** at every node the heights of the two subtrees differ by at most [D]; the AVL condition is [balanced 1] *)
  Fixpoint balanced (D : Z) (t : tree) : Prop :=
    match t with E => True | N _ _ _ l r => Z.abs (ht l - ht r) <= D /\ balanced D l /\ balanced D r end.
End Shape.

Fixpoint fib (n : nat) : Z :=
  match n with O => 0 | S n' => match n' with O => 1 | S n'' => fib n' + fib n'' end end.
