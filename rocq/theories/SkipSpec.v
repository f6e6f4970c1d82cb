(** Skip lists, independently of how they are stored: the entries in key order, one per key.  The number in Put, Set and
    PutDuplicate is the outcome of the coin flips; it has no influence here. *)
From Verif Require Import Base OrderSpec SMapSpec.
Local Open Scope Z_scope.

Section SkipSpec.
  Context {K V : Type} (ltb : K -> K -> bool).
  Notation entries := (list (K * V)).

  Inductive sk_op :=
  | KPut (k : K) (v : V) (r : nat) | KSet (k : K) (v : V) (r : nat) | KPutDuplicate (k : K) (v : V) (r : nat)
  | KGet (k : K) | KRemove (k : K) | KRemoveHead | KRemoveTail | KHead | KTail | KClear | KSize
  | KTraverse (go : entries -> bool) | KSlice | KSlices
  | KIndex (i : Z) | KIndexOf (k : K) | KRemoveIndex (i : Z) | KRemoveRangeByIndex (i j : Z)
  | KTrim (lo hi : K) | KTrimByIndex (i j : Z).
  (** [KDup old b]: PutDuplicate gave [old] to the callback and answered [b] *)
  Inductive sk_out :=
  | KUnit | KBool (b : bool) | KVal (v : option V) | KDup (old : option (K * V)) (b : bool) | KEntry (e : option (K * V))
  | KNum (n : Z) | KSeen (l : entries).

  (** a key that is there keeps its spelling and gets the new value *)
  Definition sput (k : K) (v : V) (m : entries) : entries :=
    match sames ltb k m with [] => write ltb k (k, v) m | (k0, _) :: _ => write ltb k (k0, v) m end.
  Definition position (k : K) (m : entries) : Z := match sames ltb k m with [] => -1 | _ => len (before ltb k m) end.
  Definition at_index (m : entries) (i : Z) : option (K * V) := if (0 <=? i) && (i <? len m) then nth_error m (Z.to_nat i) else None.
  Definition last_entry (m : entries) : option (K * V) := hd_error (rev m).
  (** the entries at the positions from [i] to [j], and all others *)
  Definition slots (i j : Z) (m : entries) : entries := firstn (Z.to_nat (j + 1 - i)) (skipn (Z.to_nat i) m).
  Definition others (i j : Z) (m : entries) : entries := firstn (Z.to_nat i) m ++ skipn (Z.to_nat (j + 1)) m.

  Definition sk_spec (m : entries) (o : sk_op) : entries * sk_out :=
    match o with
    | KPut k v _ | KSet k v _ => (sput k v m, KBool match sames ltb k m with [] => true | _ => false end)
    | KPutDuplicate k v _ => (sput k v m, KDup (hd_error (sames ltb k m)) match sames ltb k m with [] => true | _ => false end)
    | KGet k => (m, KVal (option_map snd (hd_error (sames ltb k m))))
    | KRemove k => (erase ltb k m, KEntry (hd_error (sames ltb k m)))
    | KRemoveHead => (tl m, KEntry (hd_error m))
    | KRemoveTail => (removelast m, KEntry (last_entry m))
    | KHead => (m, KEntry (hd_error m))
    | KTail => (m, KEntry (last_entry m))
    | KClear => ([], KUnit)
    | KSize => (m, KNum (len m))
    | KTraverse go => (m, KSeen (visit go [] m))
    | KSlice | KSlices => (m, KSeen m)
    | KIndex i => (m, KEntry (at_index m i))
    | KIndexOf k => (m, KNum (position k m))
    | KRemoveIndex i => (match at_index m i with None => m | Some _ => others i i m end, KEntry (at_index m i))
    | KRemoveRangeByIndex i j =>
        let i := Z.max i 0 in let j := Z.min j (len m - 1) in ((if i <=? j then others i j m else m), KUnit)
    | KTrim lo hi => (filter (fun e => negb (ltb (fst e) lo) && negb (ltb hi (fst e))) m, KUnit)
    | KTrimByIndex i j =>
        let i := Z.max i 0 in let j := Z.min j (len m - 1) in ((if i <=? j then slots i j m else m), KUnit)
    end.

  (** ** set operations *)
  Definition has (k : K) (m : entries) : bool := match sames ltb k m with [] => false | _ => true end.
  (** the keys of both, with the values of the second *)
  Definition both (a b : entries) : entries :=
    flat_map (fun e => match sames ltb (fst e) b with [] => [] | (_, v) :: _ => [(fst e, v)] end) a.
  (** the keys of either, the second one's values first *)
  Definition either (a b : entries) : entries := fold_left (fun m e => sput (fst e) (snd e) m) b a.
  Definition only (a b : entries) : entries := filter (fun e => negb (has (fst e) b)) a.

  (** ** cursors: a position among the entries, the one after the last standing for "nowhere" *)
  Inductive ski_op :=
  | IFirst | ILast | INext | IPrev | IGE (k : K) | IGT (k : K) | ILE (k : K) | ILT (k : K) | IAt (i : Z)
  | IValid | IEntry | IClone.
  Inductive ski_out := IUnit | IBool (b : bool) | IKV (e : option (K * V)).
  Definition in_list (m : entries) (p : Z) : bool := (0 <=? p) && (p <? len m).
  Definition ski_spec (m : entries) (p : Z) (o : ski_op) : Z * ski_out :=
    let seek i := let i := if in_list m i then i else len m in (i, IBool (in_list m i)) in
    match o with
    | IFirst => (0, IUnit)
    | ILast => (Z.max (len m - 1) 0, IUnit)
    | INext => (Z.min (p + 1) (len m), IUnit)
    | IPrev => ((if p =? 0 then len m else p - 1), IUnit)
    | IGE k => seek (len (before ltb k m))
    | IGT k => seek (len (upto ltb k m))
    | ILE k => seek (len (upto ltb k m) - 1)
    | ILT k => seek (len (before ltb k m) - 1)
    | IAt i => ((if in_list m i then i else len m), IUnit)
    | IValid => (p, IBool (in_list m p))
    | IEntry => (p, IKV (at_index m p))
    | IClone => (p, IUnit)
    end.
End SkipSpec.
Arguments sk_op K V : clear implicits.
Arguments sk_out K V : clear implicits.
Arguments ski_op K : clear implicits.
Arguments ski_out K V : clear implicits.

(** ** level structure: a chain of nodes, and picking some members of a list in order *)
Inductive sub {T : Type} : list T -> list T -> Prop :=
| sub_nil : sub [] []
| sub_skip x l l' : sub l l' -> sub l (x :: l')
| sub_take x l l' : sub l l' -> sub (x :: l) (x :: l').
(** ** calls of a cursor that keep its Index right: [p] is its position *)
Definition steady {K : Type} (p : Z) (o : ski_op K) : bool :=
  match o with IFirst | ILast | INext | IValid | IEntry | IClone => true | IPrev => negb (p =? 0) | _ => false end.
Fixpoint all_steady {K V : Type} (ltb : K -> K -> bool) (m : list (K * V)) (p : Z) (ops : list (ski_op K)) : bool :=
  match ops with [] => true | o :: ops' => steady p o && all_steady ltb m (fst (ski_spec ltb m p o)) ops' end.

(** ** several lists, numbered, used by several goroutines: one call, and what it does if nothing comes in between.  The
    answer of a set operation is the entries of the new list. *)
Inductive call (K V : Type) :=
| On (l : nat) (o : sk_op K V) | Meet (a b : nat) (rs : list nat) | Join (a b : nat) (rs : list nat) | Minus (a b : nat) (rs : list nat).
Arguments On {K V} l o. Arguments Meet {K V} a b rs. Arguments Join {K V} a b rs. Arguments Minus {K V} a b rs.
Inductive answer (K V : Type) := Out (r : sk_out K V) | Made (m : list (K * V)).
Arguments Out {K V} r. Arguments Made {K V} m.
Definition upd {T : Type} (g : nat -> T) (l : nat) (x : T) : nat -> T := fun l' => if (l' =? l)%nat then x else g l'.
Definition call_spec {K V : Type} (ltb : K -> K -> bool) (g : nat -> list (K * V)) (c : call K V) : (nat -> list (K * V)) * answer K V :=
  match c with
  | On l o => (upd g l (fst (sk_spec ltb (g l) o)), Out (snd (sk_spec ltb (g l) o)))
  | Meet a b _ => (g, Made (both ltb (g a) (g b)))
  | Join a b _ => (g, Made (either ltb (g a) (g b)))
  | Minus a b _ => (g, Made (only ltb (g a) (g b)))
  end.
(** every call but RemoveHead and DifferenceSets *)
Definition well_locked {K V : Type} (c : call K V) : bool := match c with On _ KRemoveHead | Minus _ _ _ => false | _ => true end.
