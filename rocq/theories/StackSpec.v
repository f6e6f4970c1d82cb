(** Specification of a stack of values: a list, most recently pushed element first. *)
From Verif Require Import Base.

Section StackSpec.
  Context {A : Type}.
  Inductive stack_op := Push (v : A) | Pop | Peek | Clear | Empty | Size | Values.
  (** Results: nothing; a value or failure (Go's [(zero, false)]); a flag; a count; a slice. *)
  Inductive stack_out := RUnit | RVal (o : option A) | RBool (b : bool) | RNat (n : nat) | RList (l : list A).

  Definition stack_spec (l : list A) (o : stack_op) : list A * stack_out :=
    match o with
    | Push v => (v :: l, RUnit)
    | Pop => (tl l, RVal (hd_error l))
    | Peek => (l, RVal (hd_error l))
    | Clear => ([], RUnit)
    | Empty => (l, RBool (match l with [] => true | _ => false end))
    | Size => (l, RNat (length l))
    | Values => (l, RList (rev l))          (* bottom of the stack first *)
    end.
End StackSpec.
Arguments stack_op A : clear implicits.
Arguments stack_out A : clear implicits.
