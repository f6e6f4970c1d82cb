(** Model of map/hashmap/hashmap.go and set/hashset/hashset.go (wrappers around the built-in map, see GoMap.v).
    Not modelled: String (hashmap.go:130-133, hashset.go:71-81); NewWithCap's capacity hint
    (hashmap.go:23-25), which has no effect on contents. *)
From Verif Require Import Base GoMap Slice HashSpec.

Section HM.
  Context {K V : Type} (keq : K -> K -> bool) (nilk : K) (nilv : V).
  (** the order in which [range] visits a map, at the n-th operation *)
  Variable order : nat -> gmap K V -> gmap K V.

  (** hashmap.go:13-15, plus a counter of operations that only feeds [order] *)
  Record hmap := HM { hm : gmap K V; tick : nat }.
  (** hashmap.go:18-20 *)
  Definition new : hmap := HM [] 0.
  (** hashmap.go:28-34 *)
  Definition put (m : gmap K V) (k : K) (v : V) : gmap K V * bool :=
    match gm_get keq m k with None => (gm_set keq m k v, true) | Some _ => (m, false) end.
  (** hashmap.go:37-39 *)
  Definition insertIfAbsent := put.
  (** hashmap.go:42-44 *)
  Definition set (m : gmap K V) (k : K) (v : V) : gmap K V := gm_set keq m k v.
  (** hashmap.go:47-51 *)
  Definition upsert (m : gmap K V) (k : K) (v : V) : gmap K V * bool :=
    let replaced := match gm_get keq m k with None => false | Some _ => true end in
    (gm_set keq m k v, replaced).
  (** hashmap.go:54-57; the pair (value, found) as an option *)
  Definition get (m : gmap K V) (k : K) : option V := gm_get keq m k.
  (** hashmap.go:60-62 *)
  Definition remove (m : gmap K V) (k : K) : gmap K V := gm_del keq m k.
  (** hashmap.go:65-71 *)
  Definition delete (m : gmap K V) (k : K) : gmap K V * option V :=
    match gm_get keq m k with
    | Some v => (gm_del keq m k, Some v)
    | None => (m, None)
    end.
  (** hashmap.go:74-76 *)
  Definition empty (m : gmap K V) : bool := gm_len m =? 0.
  (** hashmap.go:79-81, 84-86 *)
  Definition size (m : gmap K V) : nat := gm_len m.
  (** the loops of hashmap.go:92-95, 103-106, 115-120: write each visited entry at the next index of a slice made
      with length len(m); a write past the end panics *)
  Fixpoint fill {X} (g : K * V -> X) (es : gmap K V) (buf : list X) (count : nat) : option (list X) :=
    match es with
    | [] => Some buf
    | e :: es' => match put_at buf count (g e) with
                  | None => None
                  | Some buf' => fill g es' buf' (count + 1)
                  end
    end.
  (** hashmap.go:89-97 *)
  Definition keys (t : nat) (m : gmap K V) : option (list K) := fill fst (order t m) (repeat nilk (gm_len m)) 0.
  (** hashmap.go:100-108 *)
  Definition values (t : nat) (m : gmap K V) : option (list V) := fill snd (order t m) (repeat nilv (gm_len m)) 0.
  (** hashmap.go:111-122 *)
  Definition slices (t : nat) (m : gmap K V) : option (list (K * V)) :=
    fill (fun e => e) (order t m) (repeat (nilk, nilv) (gm_len m)) 0.
  (** hashmap.go:125-127 *)
  Definition clear : gmap K V := [].

  (** dispatch *)
  Definition step (s : hmap) (o : hm_op (K:=K) (V:=V)) : option (hmap * hm_out) :=
    let m := hm s in
    let ret m' r := Some (HM m' (S (tick s)), r) in
    match o with
    | HPut k v => let '(m', b) := put m k v in ret m' (HBool b)
    | HInsertIfAbsent k v => let '(m', b) := insertIfAbsent m k v in ret m' (HBool b)
    | HSet k v => ret (set m k v) HUnit
    | HUpsert k v => let '(m', b) := upsert m k v in ret m' (HBool b)
    | HGet k => ret m (HVal (get m k))
    | HRemove k => ret (remove m k) HUnit
    | HDelete k => let '(m', r) := delete m k in ret m' (HVal r)
    | HEmpty => ret m (HBool (empty m))
    | HSize | HLen => ret m (HNat (size m))
    | HKeys => match keys (tick s) m with None => None | Some l => ret m (HKeyList l) end
    | HValues => match values (tick s) m with None => None | Some l => ret m (HValList l) end
    | HSlices => match slices (tick s) m with None => None | Some l => ret m (HPairs l) end
    | HClear => ret clear HUnit
    end.
End HM.

Section HS.
  Context {K : Type} (keq : K -> K -> bool) (nilk : K).
  Variable order : nat -> gmap K unit -> gmap K unit.
  (** hashset.go:11-13, plus the operation counter *)
  Record hset := HS { hs : gmap K unit; stick : nat }.
  (** hashset.go:16-19 *)
  Definition snew : hset := HS [] 0.
  (** hashset.go:22-28 *)
  Fixpoint add (m : gmap K unit) (items : list K) : gmap K unit :=
    match items with
    | [] => m
    | i :: items' => add (match gm_get keq m i with None => gm_set keq m i tt | Some _ => m end) items'
    end.
  (** hashset.go:31-35 *)
  Fixpoint sremove (m : gmap K unit) (items : list K) : gmap K unit :=
    match items with [] => m | i :: items' => sremove (gm_del keq m i) items' end.
  (** hashset.go:67-69 *)
  Definition ssize (m : gmap K unit) : nat := gm_len m.
  (** hashset.go:38-46 *)
  Definition svalues (t : nat) (m : gmap K unit) : option (list K) := fill fst (order t m) (repeat nilk (ssize m)) 0.
  (** hashset.go:49-54 *)
  Definition contains (m : gmap K unit) (k : K) : bool := match gm_get keq m k with Some _ => true | None => false end.
  (** hashset.go:57-59 *)
  Definition sempty (m : gmap K unit) : bool := ssize m =? 0.
  (** hashset.go:62-64 *)
  Definition sclear : gmap K unit := [].
  (** dispatch *)
  Definition sstep (s : hset) (o : hs_op (K:=K)) : option (hset * hs_out) :=
    let m := hs s in
    let ret m' r := Some (HS m' (S (stick s)), r) in
    match o with
    | SAdd ks => ret (add m ks) SUnit
    | SRemove ks => ret (sremove m ks) SUnit
    | SValues => match svalues (stick s) m with None => None | Some l => ret m (SList l) end
    | SContains k => ret m (SBool (contains m k))
    | SEmpty => ret m (SBool (sempty m))
    | SClear => ret sclear SUnit
    | SSize => ret m (SNat (ssize m))
    end.
End HS.
