(** What it means that a ShiftToleranceTree of tree/indextree/experiment is the same tree as one of tree/indextree. *)
From Verif Require Import Base AvlTree RotSpec IndexSpec StatsModel ShiftModel IndexCountModel ShiftCountModel.
Local Open Scope Z_scope.

(** the same nodes with the same keys, values and sizes in the same places *)
Inductive alike {K A} : stree K A -> tree K (option A) -> Prop :=
| alike_nil : alike SE E
| alike_node s h b k v l r l' r' : alike l l' -> alike r r' -> alike (SN s h b k v l r) (N s k (Some v) l' r').

(** the bare tree of entries, values as an index tree holds them *)
Fixpoint bare {K A} (t : stree K A) : bt K (option A) := match t with SE => Leaf | SN _ _ _ k v l r => Node k (Some v) (bare l) (bare r) end.

(** calls that both packages have, and what they are in each of them *)
Inductive tw_op (K A : Type) := TwPut (k : K) (v : A) | TwSize | TwReset | TwStats.
Arguments TwPut {K A}. Arguments TwSize {K A}. Arguments TwReset {K A}. Arguments TwStats {K A}.
Definition on_shift {K A} (o : tw_op K A) : cs_op K A :=
  match o with TwPut k v => ZCall (SPut k v) | TwSize => ZCall SSize | TwReset => ZReset | TwStats => ZStats end.
Definition on_index {K A} (o : tw_op K A) : nx_op K A :=
  match o with TwPut k v => YCall (XPut k (Some v)) | TwSize => YCall XSize | TwReset => YReset | TwStats => YStats end.
(** the same answer; for BenchmarkStats the counters *)
Inductive same_answer {K A} : cs_out A -> nx_out K A -> Prop :=
| same_bool b : same_answer (ZOut (SBool b)) (YOut (XBool b))
| same_size n : same_answer (ZOut (SNat n)) (YOut (XNum (Z.of_nat n)))
| same_unit : same_answer ZUnit YUnit
| same_counts c st : same_answer (ZReport c st) (YCounts c).
