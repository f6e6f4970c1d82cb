(** Vocabulary for C74: how many elements a history leaves, and what a history spends in all. *)
From Verif Require Import Base HeapSpec.

(** how many elements a heap holds after a call, from how many it held before *)
Definition heap_count {A} (n : nat) (o : heap_op A) : nat :=
  match o with
  | HPut _ => S n
  | HPop => pred n
  | HClear | HReset => 0
  | _ => n
  end.

(** Every state passed through holds at most [p] elements. *)
Definition at_most {T O} (next : T -> O -> T) (sz : T -> nat) (t : T) (ops : list O) (p : nat) : Prop :=
  forall k, sz (fold_left next (firstn k ops) t) <= p.

(** The sum over a history of what its calls cost. *)
Fixpoint spent {S O R} (step : S -> O -> option (S * R)) (cost : S -> O -> nat) (s : S) (ops : list O) : nat :=
  match ops with
  | [] => 0
  | o :: ops' => cost s o + match step s o with Some (s', _) => spent step cost s' ops' | None => 0 end
  end.

(** how many of the calls are of a given kind *)
Definition calls {O} (kind : O -> bool) (ops : list O) : nat := length (filter kind ops).
