(** The linked hash map as an association list with distinct keys, in order. *)
From Verif Require Import Base.

Section Spec.
  Context {K V : Type} (keq : K -> K -> bool).
  Inductive lh_op :=
  | LSetBack (k : K) (v : V) | LSetFront (k : K) (v : V) | LPut (k : K) (v : V) | LInsertIfAbsent (k : K) (v : V)
  | LPushBack (k : K) (v : V) | LPushFront (k : K) (v : V) | LGet (k : K) | LSet (k : K) (v : V)
  | LUpsert (k : K) (v : V) | LClear | LRemove (k : K) | LDelete (k : K) | LEmpty | LSize | LLen
  | LKeys | LValues | LSlices.
  Inductive lh_out :=
  | LUnit | LBool (b : bool) | LVal (o : option V) | LNat (n : nat)
  | LKeyList (l : list K) | LValList (l : list V) | LPairs (l : list (K * V)).

  Definition lookup (l : list (K * V)) (k : K) : option V :=
    option_map snd (find (fun e => keq (fst e) k) l).
  Definition has (l : list (K * V)) (k : K) : bool := existsb (fun e => keq (fst e) k) l.
  Definition without (l : list (K * V)) (k : K) : list (K * V) := filter (fun e => negb (keq (fst e) k)) l.
  Definition updated (l : list (K * V)) (k : K) (v : V) : list (K * V) :=
    map (fun e => if keq (fst e) k then (k, v) else e) l.

  Definition lh_spec (l : list (K * V)) (o : lh_op) : list (K * V) * lh_out :=
    match o with
    | LSetBack k v => (without l k ++ [(k, v)], LBool (has l k))
    | LSetFront k v => ((k, v) :: without l k, LBool (has l k))
    | LPut k v | LInsertIfAbsent k v | LPushBack k v =>
        if has l k then (l, LBool false) else (l ++ [(k, v)], LBool true)
    | LPushFront k v => if has l k then (l, LBool false) else ((k, v) :: l, LBool true)
    | LGet k => (l, LVal (lookup l k))
    | LSet k v => (updated l k v, LBool (has l k))
    | LUpsert k v => (if has l k then updated l k v else l ++ [(k, v)], LBool (has l k))
    | LClear => ([], LUnit)
    | LRemove k | LDelete k => (without l k, LVal (lookup l k))
    | LEmpty => (l, LBool (match l with [] => true | _ => false end))
    | LSize | LLen => (l, LNat (length l))
    | LKeys => (l, LKeyList (map fst l))
    | LValues => (l, LValList (map snd l))
    | LSlices => (l, LPairs l)
    end.
End Spec.
