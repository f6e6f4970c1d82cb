(** Depths in a tree and their distribution. *)
From Verif Require Import Base AvlTree.
Local Open Scope Z_scope.

(** the depth of every node of a tree whose topmost node has depth [d] *)
Fixpoint depths_from {K V : Type} (d : Z) (t : tree K V) : list Z :=
  match t with E => [] | N _ _ _ l r => d :: depths_from (d + 1) l ++ depths_from (d + 1) r end.
Definition sum (l : list Z) : Z := fold_right Z.add 0 l.

(** [p] is one of the numbers, at most [q] percent of the other ones are smaller, and more than that are not greater:
    with [n] numbers there are at most floor of [q (n-1) / 100] smaller ones and more than that not greater. *)
Definition below (p : Z) (l : list Z) : Z := Z.of_nat (length (filter (fun x => x <? p) l)).
Definition upto (p : Z) (l : list Z) : Z := Z.of_nat (length (filter (fun x => x <=? p) l)).
Definition percentile (q : Z) (l : list Z) (p : Z) : Prop :=
  In p l /\ 100 * below p l <= q * (Z.of_nat (length l) - 1) < 100 * upto p l.
