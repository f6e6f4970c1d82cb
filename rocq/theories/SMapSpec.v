(** Sorted maps and sorted multimaps, independently of how they are stored: the list of their entries in order.
    [before], [sames] and [after] cut the entries at a key. *)
From Verif Require Import Base OrderSpec.

Section SMap.
  Context {K V : Type} (ltb : K -> K -> bool).
  Definition entries := list (K * V).

  Definition before (k : K) (m : entries) : entries := filter (fun e => ltb (fst e) k) m.
  Definition sames (k : K) (m : entries) : entries := filter (fun e => same ltb (fst e) k) m.
  Definition after (k : K) (m : entries) : entries := filter (fun e => ltb k (fst e)) m.
  Definition strictly_sorted (m : entries) : Prop :=
    StronglySorted (fun a b => ltb (fst a) (fst b) = true) m.
  Definition weakly_sorted (m : entries) : Prop :=
    StronglySorted (fun a b => ltb (fst b) (fst a) = false) m.

  (** what a traversal with a callback sees: entries one after the other until the callback, which may look at
      everything seen so far, says stop *)
  Fixpoint visit (go : entries -> bool) (seen todo : entries) : entries :=
    match todo with
    | [] => seen
    | e :: rest => if go (seen ++ [e]) then visit go (seen ++ [e]) rest else seen ++ [e]
    end.

  Inductive sm_op :=
  | MPut (k : K) (v : V) | MInsertIfAbsent (k : K) (v : V) | MSet (k : K) (v : V) | MUpsert (k : K) (v : V)
  | MGet (k : K) | MContains (k : K) | MRemove (k : K) | MDelete (k : K) | MClear | MSize | MLen | MEmpty
  | MValues | MTraverse (go : entries -> bool).
  Inductive sm_out :=
  | MUnit | MBool (b : bool) | MVal (o : option V) | MNat (n : nat) | MVals (l : list V) | MSeen (l : entries).

  (** ** at most one entry per key *)
  Definition write (k : K) (e : K * V) (m : entries) : entries := before k m ++ e :: after k m.
  Definition erase (k : K) (m : entries) : entries := before k m ++ after k m.
  Definition smap_spec (m : entries) (o : sm_op) : entries * sm_out :=
    match o with
    | MPut k v | MInsertIfAbsent k v =>
        match sames k m with [] => (write k (k, v) m, MBool true) | _ => (m, MBool false) end
    | MSet k v => (write k (k, v) m, MBool match sames k m with [] => true | _ => false end)
    | MUpsert k v =>
        match sames k m with
        | [] => (write k (k, v) m, MBool false)
        | (k0, _) :: _ => (write k (k0, v) m, MBool true)
        end
    | MGet k => (m, MVal (option_map snd (hd_error (sames k m))))
    | MContains k => (m, MBool match sames k m with [] => false | _ => true end)
    | MRemove k | MDelete k => (erase k m, MVal (option_map snd (hd_error (sames k m))))
    | MClear => ([], MUnit)
    | MSize | MLen => (m, MNat (length m))
    | MEmpty => (m, MBool match m with [] => true | _ => false end)
    | MValues => (m, MVals (map snd m))
    | MTraverse go => (m, MSeen (visit go [] m))
    end.

  (** ** several entries per key, oldest first *)
  Definition mm_insert (e : K * V) (m : entries) : entries :=
    filter (fun x => negb (ltb (fst e) (fst x))) m ++ e :: after (fst e) m.
  Definition mm_replace_first (k : K) (v : V) (m : entries) : entries :=
    before k m ++ match sames k m with [] => [] | (k0, _) :: rest => (k0, v) :: rest end ++ after k m.
  Definition mm_drop_first (k : K) (m : entries) : entries := before k m ++ tl (sames k m) ++ after k m.
  Definition mmap_spec (m : entries) (o : sm_op) : entries * sm_out :=
    match o with
    | MPut k v => (mm_insert (k, v) m, MBool true)
    | MInsertIfAbsent k v =>
        match sames k m with [] => (mm_insert (k, v) m, MBool true) | _ => (m, MBool false) end
    | MSet k v =>
        match sames k m with
        | [] => (mm_insert (k, v) m, MBool true)
        | _ => (mm_replace_first k v m, MBool false)
        end
    | MUpsert k v =>
        match sames k m with
        | [] => (mm_insert (k, v) m, MBool false)
        | _ => (mm_replace_first k v m, MBool true)
        end
    | MGet k => (m, MVal (option_map snd (hd_error (sames k m))))
    | MContains k => (m, MBool match sames k m with [] => false | _ => true end)
    | MRemove k | MDelete k => (mm_drop_first k m, MVal (option_map snd (hd_error (sames k m))))
    | MClear => ([], MUnit)
    | MSize | MLen => (m, MNat (length m))
    | MEmpty => (m, MBool match m with [] => true | _ => false end)
    | MValues => (m, MVals (map snd m))
    | MTraverse go => (m, MSeen (visit go [] m))
    end.

  (** ** cursors: a position among [n] entries; [-1] is "before the first", [n] is "after the last";
      [None] is a cursor that was never positioned *)
  Inductive cu_op :=
  | CFirst | CLast | CNext | CPrev | CGE (k : K) | CGT (k : K) | CLE (k : K) | CLT (k : K)
  | CValid | CKey | CValue | CClone.
  Inductive cu_out := CUnit | CBool (b : bool) | CK (k : K) | CV (v : V) | CPanic.
  Definition upto (k : K) (m : entries) : entries := filter (fun e => negb (ltb k (fst e))) m.
  Local Open Scope Z_scope.
  Definition len (m : entries) : Z := Z.of_nat (length m).
  Definition entry_at (m : entries) (p : option Z) : option (K * V) :=
    match p with
    | Some i => if (0 <=? i) && (i <? len m) then nth_error m (Z.to_nat i) else None
    | None => None
    end.
  Definition goto (m : entries) (i : Z) : option Z := match m with [] => None | _ => Some i end.
  Definition found (k : K) (m : entries) : cu_out := CBool match sames k m with [] => false | _ => true end.
  (** [edge] says where a seek that finds nothing leaves the cursor: just past the end it ran into ([true]), or
      nowhere ([false]) *)
  Definition land (edge : bool) (m : entries) (i : Z) : option Z :=
    if edge then goto m i else if (0 <=? i) && (i <? len m) then Some i else None.
  Definition cursor_spec (edge : bool) (m : entries) (p : option Z) (o : cu_op) : option Z * cu_out :=
    match o with
    | CFirst => (goto m 0, CUnit)
    | CLast => (goto m (len m - 1), CUnit)
    | CNext => (option_map (fun i => Z.min (i + 1) (len m)) p, CUnit)
    | CPrev => (option_map (fun i => Z.max (i - 1) (-1)) p, CUnit)
    | CGE k => (land edge m (len (before k m)), found k m)
    | CGT k => (land edge m (len (upto k m)), found k m)
    | CLE k => (land edge m (len (upto k m) - 1), found k m)
    | CLT k => (land edge m (len (before k m) - 1), found k m)
    | CValid => (p, CBool match entry_at m p with None => false | _ => true end)
    | CKey => (p, match entry_at m p with None => CPanic | Some e => CK (fst e) end)
    | CValue => (p, match entry_at m p with None => CPanic | Some e => CV (snd e) end)
    | CClone => (p, CUnit)
    end.
End SMap.
Arguments sm_op K V : clear implicits.
Arguments sm_out K V : clear implicits.
Arguments cu_op K : clear implicits.
Arguments cu_out K V : clear implicits.
