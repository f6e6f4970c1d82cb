(** Tree lists that are changed while iterators stand in them, independently of how they are stored: the entries in key
    order, and for each iterator the key of the entry it is at and the number that Index answers. *)
From Verif Require Import Base OrderSpec SMapSpec IndexSpec TreelistSpec.
Local Open Scope Z_scope.

Section Spec.
  Context {K V : Type} (ltb : K -> K -> bool).
  Notation entries := (list (K * V)).

  Definition key_at (m : entries) (i : Z) : option K := option_map fst (entry_at m (Some i)).

  (** One call of a method of an iterator.  A seek sets the number to the position the entry has then; Next and Prev add or
      subtract one, whatever has become of the positions.  Prev counts down even if it panics. *)
  Definition ci_spec (m : entries) (p : option K * Z) (o : ti_op K) : (option K * Z) * ti_out K V :=
    let goto i := (key_at m i, i) in
    let seek k i := match m with [] => (p, TIPanic) | _ => (goto i, ti_found ltb k m) end in
    let entry := match fst p with None => None | Some k => hd_error (sames ltb k m) end in
    let read f := (p, match entry with None => TIPanic | Some e => f e end) in
    match o with
    | TIFirst => (goto 0, TIUnit)
    | TILast => (goto (len m - 1), TIUnit)
    | TINext => match fst p with None => (p, TIPanic) | Some k => ((key_at m (len (upto ltb k m)), snd p + 1), TIUnit) end
    | TIPrev => match fst p with
                | None => ((None, snd p - 1), TIPanic)
                | Some k => ((key_at m (len (before ltb k m) - 1), snd p - 1), TIUnit)
                end
    | TIGE k => seek k (len (before ltb k m))
    | TIGT k => seek k (len (upto ltb k m))
    | TILE k => seek k (len (upto ltb k m) - 1)
    | TILT k => seek k (len (before ltb k m) - 1)
    | TIByIndex i => match entry_at m (Some i) with None => (p, TIPanic) | Some _ => (goto i, TIUnit) end
    | TIValid => (p, TIBool match fst p with None => false | Some _ => true end)
    | TIKey => read (fun e => TIK (fst e))
    | TIValue => read (fun e => TIV (snd e))
    | TISlice => read TIKV
    | TICompare k => read (fun e => TIInt (sign ltb (fst e) k))
    | TIIndex => (p, TIInt (snd p))
    | TIClone => (p, TIUnit)
    end.

  (** A call of the tree, a call of iterator number [j], or: from now on number [j] is a Clone of number [i]. *)
  Inductive tc_op := CTree (o : tl_op K V) | CIter (j : nat) (o : ti_op K) | CClone (i j : nat).
  Inductive tc_out := CT (r : tl_out K V) | CI (r : ti_out K V).
  Definition set_at {X} (j : nat) (x : X) (f : nat -> X) : nat -> X := fun i => if Nat.eqb i j then x else f i.
  Definition tc_spec (st : entries * (nat -> option K * Z)) (o : tc_op) : (entries * (nat -> option K * Z)) * tc_out :=
    let (m, ps) := st in
    match o with
    | CTree o => let (m', r) := tl_spec ltb m o in ((m', ps), CT r)
    | CIter j o => let (p, r) := ci_spec m (ps j) o in ((m, set_at j p ps), CI r)
    | CClone i j => ((m, set_at j (ps i) ps), CI TIUnit)
    end.

  (** ** where the code departs from this
      Removing one entry may move the entry before it or after it to another node, that of the removed entry. *)
  Definition apart (m : entries) (x k : K) : Prop :=
    ~ has ltb x m \/ exists e, In e m /\ (ltb x (fst e) && ltb (fst e) k || ltb k (fst e) && ltb (fst e) x = true).
  (** after the call the entry of [k] is still there, and in the same node *)
  Definition stays (m : entries) (o : tl_op K V) (k : K) : Prop :=
    let i := len (before ltb k m) in
    match o with
    | TRemove x => apart m x k
    | TRemoveIndex n => match entry_at m (Some n) with None => True | Some e => apart m (fst e) k end
    | TRemoveHead => match hd_error m with None => True | Some e => apart m (fst e) k end
    | TRemoveTail => match last_error m with None => True | Some e => apart m (fst e) k end
    | TClear => False
    | TRemoveRange lo hi => if same ltb lo hi then apart m lo k else within ltb lo hi k = false
    | TRemoveRangeByIndex a b => ~ (a <= i <= b)
    | TTrim lo hi => ltb hi lo = true \/ within ltb lo hi k = true
    | TTrimByIndex a b => a <= i <= b \/ fst (tl_spec ltb m o) = m
    | _ => True
    end.
  (** First and Last read the two ends of the thread, like Head and Tail. *)
  Definition tc_ok (stale : bool) (st : entries * (nat -> option K * Z)) (o : tc_op) : Prop :=
    let (m, ps) := st in
    match o with
    | CTree o => trim_inside m o /\ end_ok stale o /\ forall j k, fst (ps j) = Some k -> stays m o k
    | CIter _ TIFirst | CIter _ TILast => stale = false
    | _ => True
    end.
  Definition tc_stale (stale : bool) (m : entries) (o : tc_op) : bool :=
    match o with CTree o => stale_after ltb stale m o | _ => stale end.
  Fixpoint tc_all_ok (stale : bool) (st : entries * (nat -> option K * Z)) (ops : list tc_op) : Prop :=
    match ops with
    | [] => True
    | o :: ops => tc_ok stale st o /\ tc_all_ok (tc_stale stale (fst st) o) (fst (tc_spec st o)) ops
    end.
  (** the calls of the tree among them *)
  Fixpoint tree_calls (ops : list tc_op) : list (tl_op K V) :=
    match ops with [] => [] | CTree o :: ops => o :: tree_calls ops | _ :: ops => tree_calls ops end.
End Spec.
Arguments tc_op K V : clear implicits.
Arguments tc_out K V : clear implicits.
