(** What a finite map and a finite set are, independently of how they are stored: a map is a function from keys to
    optional values.  The specification says which results an operation may give ([ok]) and what the map is
    afterwards ([next]).  Enumerations may come in any order. *)
From Verif Require Import Base.

Section FMap.
  Context {K V : Type} (keq : K -> K -> bool).
  Definition fmap := K -> option V.
  Definition fempty : fmap := fun _ => None.
  Definition fset (f : fmap) (k : K) (v : V) : fmap := fun k' => if keq k k' then Some v else f k'.
  Definition fdel (f : fmap) (k : K) : fmap := fun k' => if keq k k' then None else f k'.

  (** [d] lists every key of the map exactly once *)
  Definition lists_keys (f : fmap) (d : list K) : Prop := NoDup d /\ forall k, In k d <-> f k <> None.

  Inductive hm_op :=
  | HPut (k : K) (v : V) | HInsertIfAbsent (k : K) (v : V) | HSet (k : K) (v : V) | HUpsert (k : K) (v : V)
  | HGet (k : K) | HRemove (k : K) | HDelete (k : K) | HEmpty | HSize | HLen | HKeys | HValues | HSlices | HClear.
  Inductive hm_out :=
  | HUnit | HBool (b : bool) | HVal (o : option V) | HNat (n : nat)
  | HKeyList (l : list K) | HValList (l : list V) | HPairs (l : list (K * V)).

  Definition next (f : fmap) (o : hm_op) : fmap :=
    match o with
    | HPut k v | HInsertIfAbsent k v => match f k with None => fset f k v | Some _ => f end
    | HSet k v | HUpsert k v => fset f k v
    | HRemove k | HDelete k => fdel f k
    | HClear => fempty
    | _ => f
    end.
  Definition present (f : fmap) (k : K) : bool := match f k with None => false | Some _ => true end.
  Definition ok (f : fmap) (o : hm_op) (r : hm_out) : Prop :=
    match o, r with
    | HPut k _, HBool b | HInsertIfAbsent k _, HBool b => b = negb (present f k)
    | HSet _ _, HUnit | HRemove _, HUnit | HClear, HUnit => True
    | HUpsert k _, HBool b => b = present f k
    | HGet k, HVal o' | HDelete k, HVal o' => o' = f k
    | HEmpty, HBool b => b = true <-> forall k, f k = None
    | HSize, HNat n | HLen, HNat n => exists d, lists_keys f d /\ n = length d
    | HKeys, HKeyList l => lists_keys f l
    | HValues, HValList l => exists d, lists_keys f d /\ map Some l = map f d
    | HSlices, HPairs l => NoDup (map fst l) /\ forall k v, In (k, v) l <-> f k = Some v
    | _, _ => False
    end.
  (** results [rs] of the operations [os] are possible from [f] *)
  Fixpoint allowed (f : fmap) (os : list hm_op) (rs : list hm_out) : Prop :=
    match os, rs with
    | [], [] => True
    | o :: os', r :: rs' => ok f o r /\ allowed (next f o) os' rs'
    | _, _ => False
    end.
End FMap.
Arguments fmap K V : clear implicits.

(** Finite sets, as predicates. *)
Section FSet.
  Context {K : Type}.
  Inductive hs_op := SAdd (ks : list K) | SRemove (ks : list K) | SValues | SContains (k : K) | SEmpty | SClear | SSize.
  Inductive hs_out := SUnit | SBool (b : bool) | SNat (n : nat) | SList (l : list K).
  Definition snext (s : K -> Prop) (o : hs_op) : K -> Prop :=
    match o with
    | SAdd ks => fun k => s k \/ In k ks
    | SRemove ks => fun k => s k /\ ~ In k ks
    | SClear => fun _ => False
    | _ => s
    end.
  Definition lists_set (s : K -> Prop) (l : list K) : Prop := NoDup l /\ forall k, In k l <-> s k.
  Definition sok (s : K -> Prop) (o : hs_op) (r : hs_out) : Prop :=
    match o, r with
    | SAdd _, SUnit | SRemove _, SUnit | SClear, SUnit => True
    | SValues, SList l => lists_set s l
    | SContains k, SBool b => b = true <-> s k
    | SEmpty, SBool b => b = true <-> forall k, ~ s k
    | SSize, SNat n => exists l, lists_set s l /\ n = length l
    | _, _ => False
    end.
  Fixpoint sallowed (s : K -> Prop) (os : list hs_op) (rs : list hs_out) : Prop :=
    match os, rs with
    | [], [] => True
    | o :: os', r :: rs' => sok s o r /\ sallowed (snext s o) os' rs'
    | _, _ => False
    end.
End FSet.
