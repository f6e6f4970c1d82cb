(** compare/compare.go on floating-point keys (float32 and float64 are among the types of DefaultAny, 104-106).

    What a key is, as far as Go's == and < can tell: NaN, an infinity, or a number, here a fraction with a sign of its own
    (the two zeros are equal but different).  Every float32 and float64 is one of these; which fractions are such numbers
    does not matter.  == and < are those of IEEE 754: the values decide, and with NaN both are false. *)
From Coq Require Import QArith.
From Verif Require Import Base.
Local Open Scope Z_scope.

Inductive number := Inf (neg : bool) | Fin (neg : bool) (abs : Q).
Inductive float := NaN | Num (x : number).

Definition value (neg : bool) (abs : Q) : Q := if neg then Qopp abs else abs.
(** k1 < k2 *)
Definition nlt (a b : number) : bool :=
  match a, b with
  | Inf s, Inf t => s && negb t
  | Inf s, Fin _ _ => s
  | Fin _ _, Inf t => negb t
  | Fin s p, Fin t q => negb (Qle_bool (value t q) (value s p))
  end.
(** k1 == k2 *)
Definition neq (a b : number) : bool :=
  match a, b with
  | Inf s, Inf t => Bool.eqb s t
  | Fin s p, Fin t q => Qeq_bool (value s p) (value t q)
  | _, _ => false
  end.
Definition flt (a b : float) : bool := match a, b with Num x, Num y => nlt x y | _, _ => false end.
Definition feq (a b : float) : bool := match a, b with Num x, Num y => neq x y | _, _ => false end.

Section Any.
  Context {T : Type} (lt : T -> T -> bool).
  (** compare.go 120-130: Any; k1 > k2 is k2 < k1 *)
  Definition anyBy (k1 k2 : T) : Z := if lt k2 k1 then 1 else if lt k1 k2 then -1 else 0.
  (** compare.go 132-142: AnyDesc *)
  Definition anyDescBy (k1 k2 : T) : Z := if lt k2 k1 then -1 else if lt k1 k2 then 1 else 0.
  (** compare.go 108-118: AnyEx *)
  Definition anyExBy (k1 k2 : T) : Z := if lt k2 k1 then 0 else if lt k1 k2 then 1 else -1.
End Any.
