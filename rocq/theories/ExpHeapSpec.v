(** What the nodes of an experiment.Tree should look like in memory, said with the fields alone. *)
From Verif Require Import Base SMapSpec ExpHeapModel.
Local Open Scope Z_scope.

Section Spec.
  Context {K V : Type}.
  Implicit Types m : mem K V.

  (** [c] is a child of [b]; Center, at address 0, has one child, its right one *)
  Definition childOf m (c b : nat) : Prop := exists e, Children m b e = Some c /\ (b = 0%nat -> e = true).
  (** [c] is [b] or further down *)
  Inductive below m (b : nat) : nat -> Prop :=
  | below_self : below m b b
  | below_child a c : below m b a -> childOf m c a -> below m b c.
  Definition inTree m (c : nat) : Prop := below m 0%nat c.
  (** following Parent from [c] one comes to [b], and before that only to nodes that are not in the tree *)
  Inductive above m : nat -> nat -> Prop :=
  | above_next c b : Parent m c = Some b -> above m c b
  | above_via c x b : Parent m c = Some x -> ~ inTree m x -> above m x b -> above m c b.
  (** the field Size of [b] is the number of nodes from [b] down *)
  Definition sizeRight m (b : nat) : Prop := exists l, NoDup l /\ (forall c, In c l <-> below m b c) /\ Size m b = Z.of_nat (length l).
  Definition removal {K V} (o : sm_op K V) : bool := match o with MRemove _ | MDelete _ => true | _ => false end.
End Spec.
