(** What is left of a sorted map when the comparison function is no order at all (NaN among the keys, a bug in it, ...): which
    entry a call finds is left open, that it touches no others is not. *)
From Verif Require Import Base SMapSpec AvlTree AvlSpec IndexSpec.
Local Open Scope Z_scope.

Section Lists.
  Context {X : Type}.
  Definition added (e : X) (m m' : list X) : Prop := exists a b, m = a ++ b /\ m' = a ++ e :: b.
  Definition dropped (e : X) (m m' : list X) : Prop := added e m' m.
  Definition swapped (e e' : X) (m m' : list X) : Prop := exists a b, m = a ++ e :: b /\ m' = a ++ e' :: b.
  (** the second list is the first without some of its elements *)
  Inductive thinned : list X -> list X -> Prop :=
  | thin_nil : thinned [] []
  | thin_keep e m m' : thinned m m' -> thinned (e :: m) (e :: m')
  | thin_drop e m m' : thinned m m' -> thinned (e :: m) m'.
  (** every element of the first list is in one of the others, in the order they had *)
  Inductive parted : list X -> list X -> list X -> Prop :=
  | part_nil : parted [] [] []
  | part_left e m a b : parted m a b -> parted (e :: m) (e :: a) b
  | part_right e m a b : parted m a b -> parted (e :: m) a (e :: b).
End Lists.

Section Wild.
  Context {K A : Type} (cmp : K -> K -> Z).
  Notation entries := (list (K * option A)).
  Implicit Types (m : entries).

  (** The call [o] on the entries [m] may answer [x] and leave [m'].  Calls by position do what they always do. *)
  Definition may m (o : ix_op K A) m' (x : ix_out K A) : Prop :=
    match o with
    | XPut k v | XInsertIfAbsent k v =>
        x = XBool true /\ added (k, v) m m' \/ x = XBool false /\ m' = m /\ exists e, In e m /\ cmp k (fst e) = 0
    | XSet k v =>
        x = XBool (match m with [] => true | _ => false end) /\ added (k, v) m m' \/
        x = XBool true /\ exists e, cmp k (fst e) = 0 /\ swapped e (k, v) m m'
    | XUpsert k v =>
        x = XBool false /\ added (k, v) m m' \/ x = XBool true /\ exists e, cmp k (fst e) = 0 /\ swapped e (fst e, v) m m'
    | XGet k => m' = m /\ (x = XFound None false \/ exists e, In e m /\ cmp k (fst e) = 0 /\ x = XFound (snd e) true)
    | XRemove k => x = XVal None /\ m' = m \/ exists e, cmp k (fst e) = 0 /\ dropped e m m' /\ x = XVal (snd e)
    | XDelete k =>
        x = XFound None false /\ m' = m \/
        exists e, cmp k (fst e) = 0 /\ dropped e m m' /\ x = XFound (snd e) (match snd e with None => false | _ => true end)
    | XSize | XLen => m' = m /\ x = XNum (len m)
    | XClear => m' = [] /\ x = XUnit
    | XValues => m' = m /\ x = XVals (map snd m)
    | XTraverse go => m' = m /\ x = XSeen (visit go [] m)
    | XIndex i => m' = m /\ x = match entry_at m (Some i) with None => XPanic | Some e => XKV (fst e) (snd e) end
    | XIndexOf k => m' = m /\ (x = XNum (-1) \/ exists i e, entry_at m (Some i) = Some e /\ cmp k (fst e) = 0 /\ x = XNum i)
    | XRemoveIndex i =>
        match entry_at m (Some i) with None => m' = m /\ x = XPanic | Some e => m' = outside i i m /\ x = XVal (snd e) end
    | XRemoveRange lo hi =>
        if cmp lo hi >? 0 then m' = m /\ x = XPanic
        else if cmp lo hi =? 0 then x = XUnit /\ (m' = m \/ exists e, cmp lo (fst e) = 0 /\ dropped e m m')
        else x = XUnit /\ thinned m m'
    | XRemoveRangeByIndex i j =>
        if j <? i then m' = m /\ x = XUnit
        else if (j <? 0) || (len m <=? i) || (len m =? 0) then m' = m /\ x = XPanic
        else m' = outside i j m /\ x = XUnit
    | XTrim lo hi => if cmp lo hi >? 0 then m' = m /\ x = XPanic else x = XUnit /\ thinned m m'
    | XTrimByIndex i j =>
        if (j <? i) || (i <? 0) || (len m <=? j) then x = XPanic /\ (~ 0 < i < len m -> m' = m) else m' = from_to i j m /\ x = XUnit
    | XSplit contain rgt k =>
        match m with
        | [] => m' = [] /\ x = XNil
        | _ => exists other, x = XOther other /\ if rgt then parted m other m' else parted m m' other
        end
    end.

  (** a run from [m] to [m'] with these answers *)
  Inductive may_run : entries -> list (ix_op K A) -> list (ix_out K A) -> entries -> Prop :=
  | may_stop m : may_run m [] [] m
  | may_go m o m1 x ops xs m2 : may m o m1 x -> may_run m1 ops xs m2 -> may_run m (o :: ops) (x :: xs) m2.

  (** no Trim by keys, and no TrimByIndex that failed *)
  Definition no_trim (o : ix_op K A) (x : ix_out K A) : Prop :=
    match o with XTrim _ _ => False | XTrimByIndex _ _ => x <> XPanic | _ => True end.
End Wild.

(** The same for the maps of tree/avl, set/treeset ([several] = false) and the multimaps of tree/avls ([several] = true).  Their
    comparison function gives a direction, 0 or 1, or a negative number for a hit. *)
Section Directions.
  Context {K V : Type} (cmp : K -> K -> Z).
  Notation entries := (list (K * V)).
  Implicit Types (m : entries).
  Definition hit (k : K) (e : K * V) : Prop := cmp (fst e) k < 0.

  Definition smay (several : bool) m (o : sm_op K V) m' (x : sm_out K V) : Prop :=
    match o with
    | MPut k v => x = MBool true /\ added (k, v) m m' \/ several = false /\ x = MBool false /\ m' = m /\ exists e, In e m /\ hit k e
    | MInsertIfAbsent k v => x = MBool true /\ added (k, v) m m' \/ x = MBool false /\ m' = m /\ exists e, In e m /\ hit k e
    | MSet k v => x = MBool true /\ added (k, v) m m' \/
        x = MBool false /\ exists e, hit k e /\ swapped e (if several then fst e else k, v) m m'
    | MUpsert k v => x = MBool false /\ added (k, v) m m' \/ x = MBool true /\ exists e, hit k e /\ swapped e (fst e, v) m m'
    | MGet k => m' = m /\ (x = MVal None \/ exists e, In e m /\ hit k e /\ x = MVal (Some (snd e)))
    | MContains k => m' = m /\ (x = MBool false \/ exists e, In e m /\ hit k e /\ x = MBool true)
    | MRemove k | MDelete k => x = MVal None /\ m' = m \/ exists e, hit k e /\ dropped e m m' /\ x = MVal (Some (snd e))
    | MClear => m' = [] /\ x = MUnit
    | MSize | MLen => m' = m /\ x = MNat (length m)
    | MEmpty => m' = m /\ x = MBool (match m with [] => true | _ => false end)
    | MValues => m' = m /\ x = MVals (map snd m)
    | MTraverse go => m' = m /\ x = MSeen (visit go [] m)
    end.
  Inductive smay_run (several : bool) : entries -> list (sm_op K V) -> list (sm_out K V) -> entries -> Prop :=
  | smay_stop m : smay_run several m [] [] m
  | smay_go m o m1 x ops xs m2 : smay several m o m1 x -> smay_run several m1 ops xs m2 -> smay_run several m (o :: ops) (x :: xs) m2.
End Directions.
