(** Specification vocabulary for comparators; independent of the model. *)
From Verif Require Import Base.
Local Open Scope Z_scope.

(** [cmp] decides the relation [lt] the way the library's plain comparators must:
    -1 before, 0 equal, 1 after. *)
Definition decides {K} (lt : K -> K -> Prop) (cmp : K -> K -> Z) : Prop :=
  forall a b, (cmp a b = -1 <-> lt a b) /\ (cmp a b = 0 <-> a = b) /\ (cmp a b = 1 <-> lt b a).

(** The "Ex" convention: -1 equal, 0 when [b] belongs left of [a], 1 when right. *)
Definition decides_ex {K} (lt : K -> K -> Prop) (cmp : K -> K -> Z) : Prop :=
  forall a b, (cmp a b = -1 <-> a = b) /\ (cmp a b = 0 <-> lt b a) /\ (cmp a b = 1 <-> lt a b).

(** A strict total order. *)
Definition strict_total {K} (lt : K -> K -> Prop) : Prop :=
  (forall a, ~ lt a a) /\ (forall a b c, lt a b -> lt b c -> lt a c) /\
  (forall a b, lt a b \/ a = b \/ lt b a).

(** Dictionary order on strings: a proper prefix comes first, otherwise the first
    differing position decides. *)
Inductive lex_lt : list Z -> list Z -> Prop :=
| lex_prefix p x s : lex_lt p (p ++ x :: s)
| lex_diff p a b s t : a < b -> lex_lt (p ++ a :: s) (p ++ b :: t).

(** Length first, dictionary order among strings of equal length. *)
Definition shortlex_lt (a b : list Z) : Prop :=
  (length a < length b)%nat \/ (length a = length b /\ lex_lt a b).
