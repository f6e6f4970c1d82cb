(** Several tree lists at a time: made with New, or the result of a set operation on two of them.  Here each is a sorted
    list of entries of its own. *)
From Verif Require Import Base OrderSpec SMapSpec IndexSpec IndexPoolSpec TreelistSpec.
Local Open Scope Z_scope.

Inductive lset := LIntersection | LUnion | LDifference.

Section PoolSpec.
  Context {K V : Type} (ltb : K -> K -> bool).
  Notation entries := (list (K * V)).

  (** Lists are called by the order in which they were made. *)
  Inductive lp_op :=
  | LNew
  | LOn (i : nat) (o : tl_op K V)
  (** Intersection, UnionSets, DifferenceSets of list [i] with list [j] (which may be the same); the result is the next list *)
  | LSet (s : lset) (i j : nat).
  Inductive lp_out := LMade | LSays (x : tl_out K V) | LPanic | LNoList.

  Definition present (k : K) (m : entries) : bool := existsb (fun e => same ltb (fst e) k) m.
  (** where both have a key, the entry is that of the first *)
  Definition set_spec (s : lset) (m1 m2 : entries) : entries :=
    match s with
    | LIntersection => filter (fun e => present (fst e) m2) m1
    | LDifference => filter (fun e => negb (present (fst e) m2)) m1
    | LUnion => fold_left (fun m e => if present (fst e) m then m else write ltb (fst e) e m) m2 m1
    end.
  Definition lp_spec (es : list entries) (o : lp_op) : list entries * lp_out :=
    match o with
    | LNew => (es ++ [[]], LMade)
    | LOn i o =>
        match nth_error es i with
        | None => (es, LNoList)
        | Some e => (put_at i (fst (tl_spec ltb e o)) es, LSays (snd (tl_spec ltb e o)))
        end
    | LSet s i j =>
        match nth_error es i, nth_error es j with
        | Some m1, Some m2 => (es ++ [set_spec s m1 m2], LMade)
        | _, _ => (es, LNoList)
        end
    end.

  (** ** where the code departs from this, as for one list (TreelistSpec.v)
      [fs] says which lists have stale ends; those are not asked for Head or Tail, and not used in set operations. *)
  Definition flags_after (fs : list bool) (es : list entries) (o : lp_op) : list bool :=
    match o with
    | LNew => fs ++ [false]
    | LOn i o => match nth_error fs i, nth_error es i with Some f, Some e => put_at i (stale_after ltb f e o) fs | _, _ => fs end
    | LSet s i j => match nth_error es i, nth_error es j with Some _, Some _ => fs ++ [false] | _, _ => fs end
    end.
  Definition call_fine (fs : list bool) (es : list entries) (o : lp_op) : Prop :=
    match o with
    | LNew => True
    | LOn i o => match nth_error fs i, nth_error es i with Some f, Some e => trim_inside e o /\ end_ok f o | _, _ => True end
    | LSet s i j => nth_error fs i <> Some true /\ nth_error fs j <> Some true
    end.
  Fixpoint calls_fine (fs : list bool) (es : list entries) (ops : list lp_op) : Prop :=
    match ops with
    | [] => True
    | o :: ops => call_fine fs es o /\ calls_fine (flags_after fs es o) (fst (lp_spec es o)) ops
    end.
  Fixpoint flags_run (fs : list bool) (es : list entries) (ops : list lp_op) : list bool :=
    match ops with [] => fs | o :: ops => flags_run (flags_after fs es o) (fst (lp_spec es o)) ops end.
  (** no list ever has more than 63 entries *)
  Fixpoint lists_small (es : list entries) (ops : list lp_op) : Prop :=
    (forall e, In e es -> len e <= 63) /\
    match ops with [] => True | o :: ops => lists_small (fst (lp_spec es o)) ops end.

  (** a Put that panicked *)
  Definition put_panics (o : lp_op) (x : lp_out) : Prop := match o, x with LOn _ o, LSays x => put_fails o x | _, _ => False end.
End PoolSpec.
Arguments lp_op K V : clear implicits.
Arguments lp_out K V : clear implicits.
