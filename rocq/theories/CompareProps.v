(** Property theorems C01, C02. *)
From Verif Require Import Base CompareModel CompareSpec CompareProofs.
Local Open Scope Z_scope.

(** C01: every plain comparator decides a strict total order: the usual one on integers, its
    reverse, dictionary order and length-then-dictionary order on byte strings. *)
Theorem C01_any : strict_total Z.lt /\ decides Z.lt any.
Proof. exact (conj Zlt_strict_total any_decides). Qed.
Print Assumptions C01_any.

Theorem C01_any_desc : decides (fun a b => b < a) any_desc /\ forall a b, any_desc a b = any b a.
Proof. exact any_desc_spec. Qed.
Print Assumptions C01_any_desc.

Theorem C01_array_any : strict_total lex_lt /\ decides lex_lt array_any.
Proof. exact (conj lex_strict_total array_any_decides). Qed.
Print Assumptions C01_array_any.

Theorem C01_array_len_any : strict_total shortlex_lt /\ decides shortlex_lt array_len_any.
Proof. exact (conj shortlex_strict_total array_len_any_decides). Qed.
Print Assumptions C01_array_len_any.

(** RunesDesc and RunesLenDesc are those two orders on rune slices, reversed. *)
Theorem C01_runes_desc : decides (fun a b => lex_lt b a) runes_desc /\ decides (fun a b => shortlex_lt b a) runes_len_desc.
Proof. exact (conj (decides_flip _ _ array_any_decides) (decides_flip _ _ array_len_any_decides)). Qed.
Print Assumptions C01_runes_desc.

(** Consequence used by every ordered container: they are comparators in the sense of [cmp_ok]. *)
Theorem C01_comparators_ok : cmp_ok any /\ cmp_ok any_desc /\ cmp_ok array_any /\ cmp_ok array_len_any.
Proof. exact (conj any_cmp_ok (conj any_desc_cmp_ok (conj array_any_cmp_ok array_len_any_cmp_ok))). Qed.
Print Assumptions C01_comparators_ok.

Example C01_case : array_any [97;98] [97;98;0] = -1 /\ array_any [98] [97;98;0] = 1 /\ array_len_any [98] [97;98;0] = -1
  /\ runes_desc [8364; 98] [8364] = -1 /\ runes_len_desc [98] [97; 8364] = 1.
Proof. vm_compute; auto. Qed.

(** C02: [AnyEx] is the direction comparator of the usual order ... *)
Theorem C02_any_ex : decides_ex Z.lt any_ex.
Proof. exact any_ex_decides. Qed.
Print Assumptions C02_any_ex.

(** ... and [ArrayAnyEx] that of dictionary order, but only between strings of the same length. *)
Theorem C02_array_any_ex_partial : forall k1 k2, length k1 = length k2 ->
  (array_any_ex k1 k2 = -1 <-> k1 = k2) /\
  (array_any_ex k1 k2 = 0 <-> lex_lt k2 k1) /\ (array_any_ex k1 k2 = 1 <-> lex_lt k1 k2).
Proof. exact array_any_ex_same_length. Qed.
Print Assumptions C02_array_any_ex_partial.

(** The full statement is false: [ArrayAnyEx] decides no strict total order whatsoever
    ("a" < "b" < "aa" < "a"). *)
Theorem C02_array_any_ex_refuted : ~ exists lt, strict_total lt /\ decides_ex lt array_any_ex.
Proof. exact array_any_ex_no_order. Qed.
Print Assumptions C02_array_any_ex_refuted.

(** It is exactly mirrored on strings of different lengths: there it answers right (1) when dictionary order says
    the second argument belongs left. *)
Theorem C02_array_any_ex_mixed_mirrored : forall k1 k2, length k1 <> length k2 ->
  (array_any_ex k1 k2 = 1 <-> lex_lt k2 k1) /\ (array_any_ex k1 k2 = 0 <-> lex_lt k1 k2).
Proof. exact array_any_ex_mixed. Qed.
Print Assumptions C02_array_any_ex_mixed_mirrored.

Example C02_case : array_any_ex [97] [98] = 1 /\ array_any_ex [98] [97] = 0 /\ array_any_ex [98] [98] = -1
  /\ array_any_ex [98] [97;97] = 1.
Proof. vm_compute; auto. Qed.
