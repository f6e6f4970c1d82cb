(** Tree lists, independently of how they are stored: the entries in key order, and a thread through the nodes. *)
From Verif Require Import Base OrderSpec SMapSpec IndexSpec.
Local Open Scope Z_scope.

Definition last_error {X : Type} (l : list X) : option X := hd_error (rev l).

(** [d x false] and [d x true] are the neighbours of [x] in [l], [e false] and [e true] the two ends of [l]. *)
Definition linked (d : nat -> bool -> option nat) (e : bool -> option nat) (l : list nat) : Prop :=
  e false = hd_error l /\ e true = last_error l /\
  forall a x b, l = a ++ x :: b -> d x false = last_error a /\ d x true = hd_error b.

Section Spec.
  Context {K V : Type} (ltb : K -> K -> bool).
  Notation entries := (list (K * V)).

  Inductive tl_op :=
  | TPut (k : K) (v : V) | TSet (k : K) (v : V) | TPutDuplicate (k : K) (v : V) (f : V -> V)
  | TGet (k : K) | TRemove (k : K) | TRemoveIndex (i : Z) | THead | TTail | TRemoveHead | TRemoveTail
  | TIndex (i : Z) | TIndexOf (k : K) | TSize | TTraverse (go : entries -> bool) | TSlices | TClear
  | TRemoveRange (lo hi : K) | TRemoveRangeByIndex (i j : Z) | TTrim (lo hi : K) | TTrimByIndex (i j : Z).
  (** [TStale]: a slice that is no longer in the tree *)
  Inductive tl_out :=
  | TUnit | TBool (b : bool) | TVal (v : option V) | TSlice (e : option (K * V)) | TNum (z : Z) | TSeen (l : entries)
  | TStale | TPanic.

  (** as for index trees (IndexSpec.v), for any values *)
  Definition between (i j : Z) (m : entries) : entries := firstn (Z.to_nat (j + 1 - i)) (skipn (Z.to_nat i) m).
  Definition around (i j : Z) (m : entries) : entries := firstn (Z.to_nat i) m ++ skipn (Z.to_nat (j + 1)) m.

  (** Put: true if the key was absent.  Set and PutDuplicate: true if it was there. *)
  Definition tl_spec (m : entries) (o : tl_op) : entries * tl_out :=
    match o with
    | TPut k v => match sames ltb k m with [] => (write ltb k (k, v) m, TBool true) | _ => (m, TBool false) end
    | TSet k v =>
        match sames ltb k m with
        | [] => (write ltb k (k, v) m, TBool false)
        | (k0, _) :: _ => (write ltb k (k0, v) m, TBool true)
        end
    | TPutDuplicate k v f =>
        match sames ltb k m with
        | [] => (write ltb k (k, v) m, TBool false)
        | (k0, v0) :: _ => (write ltb k (k0, f v0) m, TBool true)
        end
    | TGet k => (m, TVal (option_map snd (hd_error (sames ltb k m))))
    | TRemove k => (erase ltb k m, TSlice (hd_error (sames ltb k m)))
    | TRemoveIndex i =>
        match entry_at m (Some i) with None => (m, TPanic) | Some e => (around i i m, TSlice (Some e)) end
    | THead => (m, TSlice (hd_error m))
    | TTail => (m, TSlice (last_error m))
    | TRemoveHead => (tl m, TSlice (hd_error m))
    | TRemoveTail => (removelast m, TSlice (last_error m))
    | TIndex i => (m, match entry_at m (Some i) with None => TPanic | Some e => TSlice (Some e) end)
    | TIndexOf k => (m, TNum match sames ltb k m with [] => -1 | _ => len (before ltb k m) end)
    | TSize => (m, TNum (len m))
    | TTraverse go => (m, TSeen (visit go [] m))
    | TSlices => (m, TSeen m)
    | TClear => ([], TUnit)
    | TRemoveRange lo hi =>
        if ltb hi lo then (m, TPanic)
        else (filter (fun e => negb (within ltb lo hi (fst e))) m, TBool (existsb (fun e => within ltb lo hi (fst e)) m))
    | TRemoveRangeByIndex i j =>
        if j <? i then (m, TUnit)
        else if (j <? 0) || (len m <=? i) || (len m =? 0) then (m, TPanic)
        else (around i j m, TUnit)
    | TTrim lo hi => if ltb hi lo then (m, TPanic) else (filter (fun e => within ltb lo hi (fst e)) m, TUnit)
    | TTrimByIndex i j =>
        if (j <? i) || (i <? 0) || (len m <=? j) then (m, TPanic) else (between i j m, TUnit)
    end.

  (** ** where the code departs from this
      A TrimByIndex that starts inside and ends beyond the last entry fails half way. *)
  Definition trim_inside (m : entries) (o : tl_op) : Prop :=
    match o with TTrimByIndex i j => ~ (0 < i < len m /\ len m <= j) | _ => True end.
  Fixpoint trims_inside (m : entries) (ops : list tl_op) : Prop :=
    match ops with [] => True | o :: ops' => trim_inside m o /\ trims_inside (fst (tl_spec m o)) ops' end.
  (** A Trim that removes every entry there is leaves the two ends of the thread as they were: until something is put in
      again or Clear is called, Head and Tail still return what was removed. *)
  Definition stale_after (stale : bool) (m : entries) (o : tl_op) : bool :=
    match o with
    | TClear => false
    | TTrim _ _ => match m, fst (tl_spec m o) with [], _ => stale | _, [] => true | _, _ => false end
    | _ => match fst (tl_spec m o) with [] => stale | _ => false end
    end.
  Definition end_ok (stale : bool) (o : tl_op) : Prop := match o with THead | TTail => stale = false | _ => True end.
  Fixpoint ends_ok (stale : bool) (m : entries) (ops : list tl_op) : Prop :=
    match ops with [] => True | o :: ops' => end_ok stale o /\ ends_ok (stale_after stale m o) (fst (tl_spec m o)) ops' end.

  Fixpoint stale_run (stale : bool) (m : entries) (ops : list tl_op) : bool :=
    match ops with [] => stale | o :: ops' => stale_run (stale_after stale m o) (fst (tl_spec m o)) ops' end.
  (** A Put that panicked: only in a tree deeper than the code expects trees to be. *)
  Definition put_fails (o : tl_op) (r : tl_out) : Prop :=
    match o, r with TPut _ _, TPanic | TSet _ _, TPanic | TPutDuplicate _ _ _, TPanic => True | _, _ => False end.

  (** ** set operations: the entries of the result *)
  Definition has (k : K) (m : entries) : Prop := exists e, In e m /\ same ltb (fst e) k = true.
  Definition is_intersection (m1 m2 m : entries) : Prop :=
    strictly_sorted ltb m /\ forall e, In e m <-> In e m1 /\ has (fst e) m2.
  Definition is_union (m1 m2 m : entries) : Prop :=
    strictly_sorted ltb m /\ forall e, In e m <-> In e m1 \/ (In e m2 /\ ~ has (fst e) m1).
  Definition is_difference (m1 m2 m : entries) : Prop :=
    strictly_sorted ltb m /\ forall e, In e m <-> In e m1 /\ ~ has (fst e) m2.

  (** ** iterators: [None] an iterator not yet positioned, [Some i] at position i, -1 and the length being just outside *)
  Inductive ti_op :=
  | TIFirst | TILast | TINext | TIPrev | TIGE (k : K) | TIGT (k : K) | TILE (k : K) | TILT (k : K) | TIByIndex (i : Z)
  | TIValid | TIKey | TIValue | TISlice | TICompare (k : K) | TIIndex | TIClone.
  Inductive ti_out := TIUnit | TIBool (b : bool) | TIK (k : K) | TIV (v : V) | TIKV (e : K * V) | TIInt (z : Z) | TIPanic.
  (** -1, 0, 1 as the first key is before, the same as, after the second *)
  Definition sign (a b : K) : Z := if ltb a b then -1 else if ltb b a then 1 else 0.
  Definition ti_found (k : K) (m : entries) : ti_out := TIBool match sames ltb k m with [] => false | _ => true end.
  Definition ti_spec (m : entries) (p : option Z) (o : ti_op) : option Z * ti_out :=
    let at_entry {X} (none : X) (some : K * V -> X) := match entry_at m p with None => none | Some e => some e end in
    match o with
    | TIFirst => (Some 0, TIUnit)
    | TILast => (Some (len m - 1), TIUnit)
    | TINext => at_entry (p, TIPanic) (fun _ => (option_map (fun i => i + 1) p, TIUnit))
    | TIPrev => at_entry (p, TIPanic) (fun _ => (option_map (fun i => i - 1) p, TIUnit))
    | TIGE k => (Some (len (before ltb k m)), ti_found k m)
    | TIGT k => (Some (len (upto ltb k m)), ti_found k m)
    | TILE k => (Some (len (upto ltb k m) - 1), ti_found k m)
    | TILT k => (Some (len (before ltb k m) - 1), ti_found k m)
    | TIByIndex i => if (0 <=? i) && (i <? len m) then (Some i, TIUnit) else (p, TIPanic)
    | TIValid => (p, TIBool (at_entry false (fun _ => true)))
    | TIKey => (p, at_entry TIPanic (fun e => TIK (fst e)))
    | TIValue => (p, at_entry TIPanic (fun e => TIV (snd e)))
    | TISlice => (p, at_entry TIPanic TIKV)
    | TICompare k => (p, at_entry TIPanic (fun e => TIInt (sign (fst e) k)))
    | TIIndex => (p, TIInt match p with None => 0 | Some i => i end)
    | TIClone => (p, TIUnit)
    end.
  (** calls for which the code does this: all but a seek by key in an empty tree, which panics, and, as documented, a Prev
      that is not at an entry, which counts down before it panics *)
  Definition call_ok (m : entries) (p : option Z) (o : ti_op) : Prop :=
    match o with TIGE _ | TIGT _ | TILE _ | TILT _ => m <> [] | TIPrev => entry_at m p <> None | _ => True end.
  Fixpoint calls_ok (m : entries) (p : option Z) (ops : list ti_op) : Prop :=
    match ops with [] => True | o :: ops' => call_ok m p o /\ calls_ok m (fst (ti_spec m p o)) ops' end.

  (** ** range iterators: the entries from the first to the last inside the bounds, with their positions *)
  Definition inside (gt lt : bool) (lo hi k : K) : bool :=
    (if gt then ltb lo k else negb (ltb k lo)) && (if lt then ltb k hi else negb (ltb hi k)).
  Definition numbered (m : entries) : list ((K * V) * Z) := combine m (map Z.of_nat (seq 0 (length m))).
  Definition range_of (gt lt : bool) (lo hi : K) (m : entries) : list ((K * V) * Z) :=
    filter (fun p => inside gt lt lo hi (fst (fst p))) (numbered m).
  Fixpoint until {X : Type} (go : list X -> bool) (seen l : list X) : list X :=
    match l with
    | [] => seen
    | x :: l' => let seen := seen ++ [x] in if go seen then until go seen l' else seen
    end.
End Spec.
Arguments tl_op K V : clear implicits.
Arguments tl_out K V : clear implicits.
Arguments ti_op K : clear implicits.
Arguments ti_out K V : clear implicits.
