(** C80: what a container keeps alive.  A garbage collector frees what cannot be reached from the container; so the
    container keeps alive the nodes that can be reached from its fields by following pointers.  Nothing of the models. *)
From Verif Require Import Base.

Section Held.
  Context {X : Type} (edge : X -> X -> Prop) (root : X -> Prop).
  (** from a pointer among the container's fields, or by a pointer out of a node that is kept alive *)
  Inductive held : X -> Prop :=
  | held_root a : root a -> held a
  | held_edge a b : held a -> edge a b -> held b.

  (** Besides its [own] nodes (sentinels) the container keeps alive one node for each of the entries [xs] and no other. *)
  Definition holds_just {E : Type} (own : list X) (val : X -> option E) (xs : list E) : Prop :=
    exists l, NoDup (own ++ l) /\ (forall a, held a <-> In a (own ++ l)) /\ map val l = map Some xs.
End Held.
