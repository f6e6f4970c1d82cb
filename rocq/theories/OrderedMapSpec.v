(** Ordered maps, independently of how they are stored: the entries in key order.  A value of the map's value type [V] is an
    [option A]: for an interface type [V] nil is an ordinary value and is [None]; for any other type only [Some] occurs. *)
From Verif Require Import Base OrderSpec SMapSpec.
Local Open Scope Z_scope.

Section Spec.
  Context {K A : Type} (ltb : K -> K -> bool).
  (** the zero key and the zero value, returned where there is nothing to return *)
  Context (zk : K) (zv : option A).
  Notation entries := (list (K * option A)).

  Inductive om_op :=
  | OPut (k : K) (v : option A) | OInsertIfAbsent (k : K) (v : option A) | OSet (k : K) (v : option A)
  | OUpsert (k : K) (v : option A) | OGet (k : K) | ORemove (k : K) | ODelete (k : K) | OContains (k : K)
  | OSize | OLen | OIsEmpty | OIndexOf (k : K) | OIndex (i : Z) | ORemoveIndex (i : Z) | OKeys | OValues | OClear.
  Inductive om_out :=
  | OUnit | OBool (b : bool) | OFound (v : option A) (b : bool) | ONum (z : Z) | OKV (k : K) (v : option A)
  | OTaken (k : K) (v : option A) (b : bool) | OKs (l : list K) | OVs (l : list (option A)) | OPanic.

  (** Put and InsertIfAbsent: true if the key was absent.  Set and Upsert: true if a value was replaced. *)
  Definition om_spec (m : entries) (o : om_op) : entries * om_out :=
    match o with
    | OPut k v | OInsertIfAbsent k v =>
        match sames ltb k m with [] => (write ltb k (k, v) m, OBool true) | _ => (m, OBool false) end
    | OSet k v => (write ltb k (k, v) m, OBool match sames ltb k m with [] => false | _ => true end)
    | OUpsert k v =>
        match sames ltb k m with
        | [] => (write ltb k (k, v) m, OBool false)
        | (k0, _) :: _ => (write ltb k (k0, v) m, OBool true)
        end
    | OGet k => (m, match sames ltb k m with [] => OFound zv false | (_, v) :: _ => OFound v true end)
    | ORemove k | ODelete k =>
        (erase ltb k m, match sames ltb k m with [] => OFound zv false | (_, v) :: _ => OFound v true end)
    | OContains k => (m, OBool match sames ltb k m with [] => false | _ => true end)
    | OSize | OLen => (m, ONum (len m))
    | OIsEmpty => (m, OBool match m with [] => true | _ => false end)
    | OIndexOf k => (m, ONum match sames ltb k m with [] => -1 | _ => len (before ltb k m) end)
    | OIndex i => (m, match entry_at m (Some i) with None => OPanic | Some e => OKV (fst e) (snd e) end)
    | ORemoveIndex i =>
        match entry_at m (Some i) with
        | None => (m, OTaken zk zv false)
        | Some e => (firstn (Z.to_nat i) m ++ skipn (Z.to_nat (i + 1)) m, OTaken (fst e) (snd e) true)
        end
    | OKeys => (m, OKs (map fst m))
    | OValues => (m, OVs (map snd m))
    | OClear => ([], OUnit)
    end.

  (** ** where the code answers otherwise
      A call that hands out a nil value, and Set on an empty map. *)
  Definition no_nil (m : entries) : Prop := forall e, In e m -> snd e <> None.
  Definition plain (m : entries) (o : om_op) : Prop :=
    match o with
    | OSet _ _ => m <> []
    | OGet k | ORemove k | ODelete k => no_nil (sames ltb k m)
    | OIndex i | ORemoveIndex i => forall e, entry_at m (Some i) = Some e -> snd e <> None
    | OValues => no_nil m
    | _ => True
    end.
  Fixpoint all_plain (m : entries) (ops : list om_op) : Prop :=
    match ops with [] => True | o :: ops' => plain m o /\ all_plain (fst (om_spec m o)) ops' end.
End Spec.
Arguments om_op K A : clear implicits.
Arguments om_out K A : clear implicits.
