(** Specification of the linked deque as a client sees it: besides the queue calls, a client reads the
    values at Front() and Back() and walks the whole chain with Element.Next from Front() or Element.Prev from Back(). *)
From Verif Require Import Base.

Section S.
  Context {A : Type}.
  Inductive lq_op := LPushBack (v : A) | LPushFront (v : A) | LPopBack | LPopFront | LSize
    | LFront | LBack | LForward | LBackward.
  Inductive lq_out := LUnit | LVal (o : option A) | LNat (n : nat) | LList (l : list A).
  Definition lq_spec (l : list A) (o : lq_op) : list A * lq_out :=
    match o with
    | LPushBack v => (l ++ [v], LUnit)
    | LPushFront v => (v :: l, LUnit)
    | LPopBack => (removelast l, LVal (hd_error (rev l)))
    | LPopFront => (tl l, LVal (hd_error l))
    | LSize => (l, LNat (length l))
    | LFront => (l, LVal (hd_error l))
    | LBack => (l, LVal (hd_error (rev l)))
    | LForward => (l, LList l)
    | LBackward => (l, LList (rev l))
    end.
End S.
Arguments lq_op A : clear implicits.
Arguments lq_out A : clear implicits.
