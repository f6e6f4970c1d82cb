(** Model of compare/compare.go (the non-commented part, lines 1-142 and 491-552).
    Integer keys are [Z]; of the generic numeric types of [DefaultAny] (compare.go:104-106)
    the integer ones are meant here, for floats see FloatModel.v.
    A byte string is a [list Z] (each element the numeric value of a byte), as is a slice of runes. *)
From Verif Require Import Base.
Local Open Scope Z_scope.

(** compare.go:120-130 [Any] *)
Definition any (k1 k2 : Z) : Z :=
  if k2 <? k1 then 1 else if k1 <? k2 then -1 else 0.

(** compare.go:132-142 [AnyDesc] *)
Definition any_desc (k1 k2 : Z) : Z :=
  if k2 <? k1 then -1 else if k1 <? k2 then 1 else 0.

(** compare.go:108-118 [AnyEx] *)
Definition any_ex (k1 k2 : Z) : Z :=
  if k2 <? k1 then 0 else if k1 <? k2 then 1 else -1.

(** The loop shared by the array comparators, e.g. compare.go:71-78, 81-88, 91-98: scan the
    common positions, on the first difference return [gt] when k1[i] > k2[i] and [lt] otherwise,
    when the loop bound is reached return [fin]. The loop bound is min(len k1, len k2) in every
    branch of the source. *)
Fixpoint scan (gt lt fin : Z) (k1 k2 : list Z) : Z :=
  match k1, k2 with
  | a :: t1, b :: t2 =>
      if a =? b then scan gt lt fin t1 t2 else if b <? a then gt else lt
  | _, _ => fin
  end.

(** compare.go:68-102 [ArrayAny] *)
Definition array_any (k1 k2 : list Z) : Z :=
  if (length k2 <? length k1)%nat then scan 1 (-1) 1 k1 k2
  else if (length k1 <? length k2)%nat then scan 1 (-1) (-1) k1 k2
  else scan 1 (-1) 0 k1 k2.

(** compare.go:10-28 [ArrayLenAny] *)
Definition array_len_any (k1 k2 : list Z) : Z :=
  if (length k2 <? length k1)%nat then 1
  else if (length k1 <? length k2)%nat then -1
  else scan 1 (-1) 0 k1 k2.

(** compare.go:31-65 [ArrayAnyEx] *)
Definition array_any_ex (k1 k2 : list Z) : Z :=
  if (length k2 <? length k1)%nat then scan 1 0 1 k1 k2
  else if (length k1 <? length k2)%nat then scan 1 0 0 k1 k2
  else scan 0 1 (-1) k1 k2.

(** compare.go:491-527 [RunesDesc]; the parameters are named k2, k1 in this order.  Arguments that are not slices of runes
    make the type assertions (492-493) panic and are not modelled. *)
Definition runes_desc (k2 k1 : list Z) : Z :=
  if (length k2 <? length k1)%nat then scan 1 (-1) 1 k1 k2
  else if (length k1 <? length k2)%nat then scan 1 (-1) (-1) k1 k2
  else scan 1 (-1) 0 k1 k2.

(** compare.go:530-552 [RunesLenDesc] *)
Definition runes_len_desc (k2 k1 : list Z) : Z :=
  if (length k2 <? length k1)%nat then 1
  else if (length k1 <? length k2)%nat then -1
  else scan 1 (-1) 0 k1 k2.
