(** Sets as sorted lists of entries, and the three set operations on them. *)
From Verif Require Import Base OrderSpec SMapSpec.

Section TreeSet.
  Context {K V : Type} (ltb : K -> K -> bool).
  Notation entries := (list (K * V)).
  Definition has (k : K) (m : entries) : bool := existsb (fun e => same ltb (fst e) k) m.
  (** entries of [a] whose key is (not) in [b] *)
  Definition inter (a b : entries) : entries := filter (fun e => has (fst e) b) a.
  Definition diff (a b : entries) : entries := filter (fun e => negb (has (fst e) b)) a.
  (** [u] is the union of [a] and [b] where entries of [b] replace those of [a] with an equivalent key *)
  Definition is_union (a b u : entries) : Prop :=
    strictly_sorted ltb u /\ forall e, In e u <-> In e b \/ (In e a /\ has (fst e) b = false).

  (** Calls on a receiver [a] with another set [b] at hand. *)
  Inductive ts_op := TOn (o : sm_op K V) | TOther (o : sm_op K V) | TUnion | TIntersection | TDifference | TSwap.
  (** [ok (a,b) o (a',b') r]: this is what operation [o] may do to the two sets *)
  Definition ts_ok (s : entries * entries) (o : ts_op) (s' : entries * entries) (r : sm_out K V) : Prop :=
    let '(a, b) := s in
    match o with
    | TOn o => s' = (fst (smap_spec ltb a o), b) /\ r = snd (smap_spec ltb a o)
    | TOther o => s' = (a, fst (smap_spec ltb b o)) /\ r = snd (smap_spec ltb b o)
    | TUnion => r = MUnit /\ snd s' = b /\ is_union a b (fst s')
    | TIntersection => r = MUnit /\ s' = (inter a b, b)
    | TDifference => r = MUnit /\ s' = (diff a b, b)
    | TSwap => r = MUnit /\ s' = (b, a)
    end.
  Fixpoint ts_allowed (s : entries * entries) (os : list ts_op) (rs : list (sm_out K V)) (fin : entries * entries) : Prop :=
    match os, rs with
    | [], [] => s = fin
    | o :: os', r :: rs' => exists s', ts_ok s o s' r /\ ts_allowed s' os' rs' fin
    | _, _ => False
    end.
End TreeSet.
Arguments ts_op K V : clear implicits.
