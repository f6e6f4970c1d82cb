(** tree/indextree/experiment, iterators of type Tree: iterator.go and iterator_hide.go of the package differ from those of
    tree/avl in the package name only, so the functions are those of [AvlIterModel], on the trees of [ExpModel]. *)
From Verif Require Import Base Bind SMapSpec AvlTree AvlModel AvlIterModel.
Local Open Scope Z_scope.

Section Iter.
  Context {K V : Type} (cmp : K -> K -> Z).
  (** experiment/tree.go 154-156: Iterator; iterator_hide.go 5-13: newIterator *)
  Definition exp_iterator : avl K V -> option (iter K V) := newIterator.
  (** One call on an iterator: experiment/iterator.go 18-90 (Key, Value, Valid, SeekToFirst, SeekToLast, SeekLE, SeekLT, SeekGE, SeekGT,
      Prev, Next, Clone) and iterator_hide.go 15-136 (down, up, seekEqual, seekThan, move) *)
  Definition exp_it_step : iter K V -> cu_op K -> option (iter K V * cu_out K V) := it_step cmp true.
End Iter.
