(** Specification of a double-ended queue: the list of its elements, front first. *)
From Verif Require Import Base.

Section QueueSpec.
  Context {A : Type}.
  Inductive queue_op := QPushBack (v : A) | QPushFront (v : A) | QPopBack | QPopFront | QSize
    | QIndex (i : nat) | QValues | QTraverse (f : nat -> A -> bool).
  Inductive queue_out := QUnit | QVal (o : option A) | QNat (n : nat) | QList (l : list A)
    | QVisited (l : list (nat * A)) | QPanic.

  (** what a callback that answers [f] sees: every element in order with its position, up to and
      including the first one it answers [false] for *)
  Fixpoint visit (f : nat -> A -> bool) (i : nat) (l : list A) : list (nat * A) :=
    match l with
    | [] => []
    | v :: l' => (i, v) :: if f i v then visit f (S i) l' else []
    end.

  Definition queue_spec (l : list A) (o : queue_op) : list A * queue_out :=
    match o with
    | QPushBack v => (l ++ [v], QUnit)
    | QPushFront v => (v :: l, QUnit)
    | QPopBack => (removelast l, QVal (hd_error (rev l)))
    | QPopFront => (tl l, QVal (hd_error l))
    | QSize => (l, QNat (length l))
    | QIndex i => (l, match nth_error l i with Some v => QVal (Some v) | None => QPanic end)
    | QValues => (l, QList l)
    | QTraverse f => (l, QVisited (visit f 0 l))
    end.
End QueueSpec.
Arguments queue_op A : clear implicits.
Arguments queue_out A : clear implicits.
