(** Index trees, independently of how they are stored: the entries in key order, cut by key or by position.
    Values are Go interfaces: [None] is the nil interface, an ordinary value. *)
From Verif Require Import Base OrderSpec SMapSpec AvlTree AvlSpec.
Local Open Scope Z_scope.

Section IndexSpec.
  Context {K A : Type} (ltb : K -> K -> bool).
  Notation entries := (list (K * option A)).

  Inductive ix_op :=
  | XPut (k : K) (v : option A) | XInsertIfAbsent (k : K) (v : option A) | XSet (k : K) (v : option A)
  | XUpsert (k : K) (v : option A) | XGet (k : K) | XRemove (k : K) | XDelete (k : K) | XSize | XLen | XClear
  | XValues | XTraverse (go : entries -> bool)
  | XIndex (i : Z) | XIndexOf (k : K) | XRemoveIndex (i : Z)
  | XRemoveRange (lo hi : K) | XRemoveRangeByIndex (i j : Z) | XTrim (lo hi : K) | XTrimByIndex (i j : Z)
  (** split at [k], the key itself going left if [contain]; go on with the returned (right) tree if [rgt], with the
      receiver otherwise; the result is the content of the tree not gone on with *)
  | XSplit (contain rgt : bool) (k : K).
  Inductive ix_out :=
  | XUnit | XBool (b : bool) | XVal (v : option A) | XFound (v : option A) (b : bool) | XNum (z : Z)
  | XVals (l : list (option A)) | XSeen (l : entries) | XKV (k : K) (v : option A) | XOther (l : entries)
  | XNil | XPanic.

  Definition from_to (i j : Z) (m : entries) : entries :=
    firstn (Z.to_nat (j + 1 - i)) (skipn (Z.to_nat i) m).
  Definition outside (i j : Z) (m : entries) : entries := firstn (Z.to_nat i) m ++ skipn (Z.to_nat (j + 1)) m.
  Definition within (lo hi k : K) : bool := negb (ltb k lo) && negb (ltb hi k).

  Definition ix_spec (m : entries) (o : ix_op) : entries * ix_out :=
    match o with
    | XPut k v | XInsertIfAbsent k v =>
        match sames ltb k m with [] => (write ltb k (k, v) m, XBool true) | _ => (m, XBool false) end
    | XSet k v => (write ltb k (k, v) m, XBool match sames ltb k m with [] => false | _ => true end)
    | XUpsert k v =>
        match sames ltb k m with
        | [] => (write ltb k (k, v) m, XBool false)
        | (k0, _) :: _ => (write ltb k (k0, v) m, XBool true)
        end
    | XGet k => (m, match sames ltb k m with [] => XFound None false | (_, v) :: _ => XFound v true end)
    | XRemove k => (erase ltb k m, match sames ltb k m with [] => XVal None | (_, v) :: _ => XVal v end)
    | XDelete k => (erase ltb k m, match sames ltb k m with [] => XFound None false | (_, v) :: _ => XFound v true end)
    | XSize | XLen => (m, XNum (len m))
    | XClear => ([], XUnit)
    | XValues => (m, XVals (map snd m))
    | XTraverse go => (m, XSeen (visit go [] m))
    | XIndex i => (m, match entry_at m (Some i) with None => XPanic | Some e => XKV (fst e) (snd e) end)
    | XIndexOf k => (m, XNum match sames ltb k m with [] => -1 | _ => len (before ltb k m) end)
    | XRemoveIndex i =>
        match entry_at m (Some i) with None => (m, XPanic) | Some e => (outside i i m, XVal (snd e)) end
    | XRemoveRange lo hi =>
        if ltb hi lo then (m, XPanic) else (filter (fun e => negb (within lo hi (fst e))) m, XUnit)
    | XRemoveRangeByIndex i j =>
        if j <? i then (m, XUnit)
        else if (j <? 0) || (len m <=? i) || (len m =? 0) then (m, XPanic)
        else (outside i j m, XUnit)
    | XTrim lo hi => if ltb hi lo then (m, XPanic) else (filter (fun e => within lo hi (fst e)) m, XUnit)
    | XTrimByIndex i j =>
        if (j <? i) || (i <? 0) || (len m <=? j) then (m, XPanic) else (from_to i j m, XUnit)
    | XSplit contain rgt k =>
        let f (e : K * option A) := if contain then negb (ltb k (fst e)) else ltb (fst e) k in
        let a := filter f m in
        let b := filter (fun e => negb (f e)) m in
        if rgt then (b, XOther a) else (a, XOther b)
    end.

  (** ** where the code departs from this
      A TrimByIndex that starts inside and ends beyond the last entry fails half way. *)
  Definition trim_in_range (m : entries) (o : ix_op) : Prop :=
    match o with XTrimByIndex i j => ~ (0 < i < len m /\ len m <= j) | _ => True end.
  (** The result of a Set or Split on an empty tree and of a Delete of a nil value is not the one above. *)
  Definition answered (m : entries) (o : ix_op) : Prop :=
    match o with
    | XSet _ _ | XSplit _ _ _ => m <> []
    | XDelete k => forall e, In e m -> same ltb (fst e) k = true -> snd e <> None
    | _ => True
    end.
  Fixpoint trims_in_range (m : entries) (ops : list ix_op) : Prop :=
    match ops with [] => True | o :: ops' => trim_in_range m o /\ trims_in_range (fst (ix_spec m o)) ops' end.
  Fixpoint all_answered (m : entries) (ops : list ix_op) : Prop :=
    match ops with [] => True | o :: ops' => answered m o /\ all_answered (fst (ix_spec m o)) ops' end.
End IndexSpec.
Arguments ix_op K A : clear implicits.
Arguments ix_out K A : clear implicits.

(** every stored size is the number of entries below *)
Fixpoint sized {K V : Type} (t : tree K V) : Prop :=
  match t with
  | E => True
  | N n _ _ l r => n = Z.of_nat (length (elems l)) + Z.of_nat (length (elems r)) + 1 /\ sized l /\ sized r
  end.
