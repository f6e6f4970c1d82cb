(** Specification of a random-access sequence. *)
From Verif Require Import Base QueueSpec.

Section S.
  Context {A : Type}.
  Inductive al_op := APush (v : A) | APushFront (vs : list A) | APushBack (vs : list A)
    | AFront | ABack | APopFront | APopBack | AIndex (i : nat) | ASet (i : nat) (v : A) | ARemove (i : nat)
    | AClear | ASize | AEmpty | AValues | ATraverse (f : nat -> A -> bool).
  (** [APanic]: the call panics and leaves the list as it was.  [AUndef]: an out-of-contract call of which only
      the effect on the list is specified (none).  [AOom]: the process ran out of memory, now or earlier. *)
  Inductive al_out := AUnit | AVal (o : option A) | ANat (n : nat) | ABool (b : bool) | AList (l : list A)
    | AVisited (l : list (nat * A)) | APanic | AUndef | AOom.

  Fixpoint delete_at (i : nat) (l : list A) : list A :=
    match l, i with
    | [], _ => []
    | _ :: l', O => l'
    | x :: l', S i' => x :: delete_at i' l'
    end.
  Fixpoint update_at (i : nat) (v : A) (l : list A) : list A :=
    match l, i with
    | [], _ => []
    | _ :: l', O => v :: l'
    | x :: l', S i' => x :: update_at i' v l'
    end.

  Definition al_spec (l : list A) (o : al_op) : list A * al_out :=
    match o with
    | APush v => (l ++ [v], AUnit)
    | APushFront vs => (rev vs ++ l, AUnit)          (* pushed one after the other *)
    | APushBack vs => (l ++ vs, AUnit)
    | AFront => (l, AVal (hd_error l))
    | ABack => (l, AVal (hd_error (rev l)))
    | APopFront => (tl l, AVal (hd_error l))
    | APopBack => (removelast l, AVal (hd_error (rev l)))
    | AIndex i => (l, match nth_error l i with Some v => AVal (Some v) | None => APanic end)
    | ASet i v => (update_at i v l, if i <? length l then AUnit else AUndef)
    | ARemove i => (delete_at i l, match nth_error l i with Some v => AVal (Some v) | None => APanic end)
    | AClear => ([], AUnit)
    | ASize => (l, ANat (length l))
    | AEmpty => (l, ABool (length l =? 0))
    | AValues => (l, AList l)
    | ATraverse f => (l, AVisited (visit f 0 l))
    end.
End S.
Arguments al_op A : clear implicits.
Arguments al_out A : clear implicits.

(** Number of pairs (list element, searched value) that are equal, for a boolean equality [eqb]. *)
Definition count_equal {A} (eqb : A -> A -> bool) (l values : list A) : nat :=
  list_sum (map (fun x => length (filter (eqb x) values)) l).

(** The arguments of a call exist in memory: fewer than 2^62 values, an int index. *)
Definition fits {A} (o : al_op A) : Prop :=
  match o with
  | APushFront vs | APushBack vs => (Z.of_nat (length vs) < 2 ^ 62)%Z
  | ASet i _ => (Z.of_nat i < 2 ^ 63)%Z
  | _ => True
  end.
(** Number of values a call pushes; total over a sequence; whether it removes an element. *)
Definition pushes {A} (o : al_op A) : Z :=
  match o with APush _ => 1 | APushFront vs | APushBack vs => Z.of_nat (length vs) | _ => 0 end%Z.
Definition total_pushed {A} (ops : list (al_op A)) : Z := fold_right Z.add 0%Z (map pushes ops).
Definition removing {A} (o : al_op A) : bool :=
  match o with APopFront | APopBack | ARemove _ => true | _ => false end.
