(** What the nodes of an experiment.ShiftToleranceTree should look like in memory, said with the fields alone. *)
From Verif Require Import Base ShiftHeapModel.
Local Open Scope Z_scope.

Section Spec.
  Context {K V : Type}.
  Implicit Types m : mem K V.

  Definition kid m (b : nat) (e : bool) : option nat := if e then Kid1 (nodes m b) else Kid0 (nodes m b).
  (** [c] is a child of [b]; Center, at address 0, has one child, its right one *)
  Definition childOf m (c b : nat) : Prop := exists e, kid m b e = Some c /\ (b = 0%nat -> e = true).
  (** [c] is [b] or further down *)
  Inductive below m (b : nat) : nat -> Prop :=
  | below_self : below m b b
  | below_child a c : below m b a -> childOf m c a -> below m b c.
  Definition inTree m (c : nat) : Prop := below m 0%nat c.
  (** there are [n] nodes from [p] down *)
  Definition counts m (p : option nat) (n : nat) : Prop :=
    match p with None => n = 0%nat | Some b => exists l, NoDup l /\ (forall c, In c l <-> below m b c) /\ n = length l end.
  (** the longest way down from [p] has [n] nodes *)
  Inductive deep m : option nat -> nat -> Prop :=
  | deep_nil : deep m None 0
  | deep_node b x y : deep m (kid m b false) x -> deep m (kid m b true) y -> deep m (Some b) (S (Nat.max x y)).
  Definition sizeRight m (b : nat) : Prop := exists n, counts m (Some b) n /\ Size (nodes m b) = Z.of_nat n.
  Definition balanceRight m (b : nat) : Prop := exists x y, counts m (kid m b false) x /\ counts m (kid m b true) y /\
    Balance (nodes m b) = Z.of_nat x - Z.of_nat y.
  (** Height is an int8 *)
  Definition heightRight m (b : nat) : Prop := exists n, deep m (Some b) n /\ ((n <= 127)%nat -> Hgt (nodes m b) = Z.of_nat n).
End Spec.
