(** Specification of a priority queue of values, independent of the heap model. *)
From Verif Require Import Base.

Section HeapSpec.
  Context {A : Type}.
  Inductive heap_op := HPut (v : A) | HPop | HTop | HClear | HReset | HSize | HEmpty.
  Inductive heap_out := HUnit | HVal (o : option A) | HNat (n : nat) | HBool (b : bool).

  (** [cmp] agrees with the total preorder [le]: a negative answer only when the first argument is at least
      as early, a positive one only when the second is, zero only when they are equivalent.
      (This covers comparators that never answer zero, such as the one of graph/astar.) *)
  Record agrees (le : A -> A -> Prop) (cmp : A -> A -> Z) : Prop := {
    ag_refl : forall a, le a a;
    ag_trans : forall a b c, le a b -> le b c -> le a c;
    ag_le : forall a b, (cmp a b <= 0)%Z -> le a b;
    ag_ge : forall a b, (0 <= cmp a b)%Z -> le b a }.

  (** [x] is a first element of the bag. *)
  Definition first_of (le : A -> A -> Prop) (bag : list A) (x : A) : Prop :=
    In x bag /\ forall y, In y bag -> le x y.

  (** One call on a bag of elements; which of several equivalent first elements is returned is left open. *)
  Inductive heap_spec (le : A -> A -> Prop) : list A -> heap_op -> heap_out -> list A -> Prop :=
  | S_put bag v : heap_spec le bag (HPut v) HUnit (v :: bag)
  | S_pop_empty : heap_spec le [] HPop (HVal None) []
  | S_pop bag x bag' : first_of le bag x -> Permutation bag (x :: bag') -> heap_spec le bag HPop (HVal (Some x)) bag'
  | S_top_empty : heap_spec le [] HTop (HVal None) []
  | S_top bag x : first_of le bag x -> heap_spec le bag HTop (HVal (Some x)) bag
  | S_clear bag : heap_spec le bag HClear HUnit []
  | S_reset bag : heap_spec le bag HReset HUnit []
  | S_size bag : heap_spec le bag HSize (HNat (length bag)) bag
  | S_empty bag : heap_spec le bag HEmpty (HBool (length bag =? 0)) bag.

  (** A whole history is allowed by the specification. *)
  Inductive heap_hist (le : A -> A -> Prop) : list A -> list heap_op -> list heap_out -> Prop :=
  | H_nil bag : heap_hist le bag [] []
  | H_cons bag o r bag' ops rs : heap_spec le bag o r bag' -> heap_hist le bag' ops rs ->
      heap_hist le bag (o :: ops) (r :: rs).
End HeapSpec.
Arguments heap_op A : clear implicits.
Arguments heap_out A : clear implicits.
