(** What printed containers look like, in terms of [String.concat] of the standard library. *)
From Coq Require Export Strings.Ascii Strings.String.
From Verif Require Import Base AvlTree.
Local Open Scope string_scope.

(** "[", the items separated by [sep], "]" *)
Definition bracketed (sep : string) (items : list string) : string := "[" ++ String.concat sep items ++ "]".

(** no byte of [s] is [c] *)
Fixpoint avoids (c : ascii) (s : string) : Prop := match s with EmptyString => True | String a s' => a <> c /\ avoids c s' end.

(** ** drawings of trees
    the keys from right to left, each with its depth *)
Fixpoint levels {K V : Type} (depth : nat) (t : tree K V) : list (K * nat) :=
  match t with E => [] | N _ k _ l r => levels (S depth) r ++ [(k, depth)] ++ levels (S depth) l end.
(** what is drawn for a level above, and before a key: box-drawing characters between two colour sequences *)
Definition coloured (colour text : string) : string :=
  String (ascii_of_nat 27) (colour ++ text ++ String (ascii_of_nat 27) "[0m").
Definition cells : list string := [coloured "[34m" "│   "; coloured "[31m" "│   "; "    "].
Definition marks : list string := [coloured "[34m" "└── "; coloured "[31m" "┌── "].
(** a line of a drawing: one cell for every level above, a mark, the text, the end of the line *)
Inductive drawn (cells : list string) (marks : list string) (text : string) : nat -> string -> Prop :=
| drawn_here mark : In mark marks -> drawn cells marks text 0 (mark ++ text ++ String (ascii_of_nat 10) "")
| drawn_right cell n line : In cell cells -> drawn cells marks text n line -> drawn cells marks text (S n) (cell ++ line).
