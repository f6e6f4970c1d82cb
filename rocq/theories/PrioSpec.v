(** Priority queues of queue/priority, independently of how they are stored: the entries in order of their keys, those
    with equivalent keys oldest first. *)
From Verif Require Import Base OrderSpec SMapSpec.
Local Open Scope Z_scope.

Section Spec.
  Context {K V : Type} (ltb : K -> K -> bool).
  Notation entries := (list (K * V)).

  Inductive pq_op :=
  | QPut (k : K) (v : V) | QInsertIfAbsent (k : K) (v : V) | QUpsert (k : K) (v : V) | QGet (k : K)
  | QIndex (i : Z) | QRemove (k : K) | QDelete (k : K) | QRemoveIndex (i : Z) | QPopHead | QPopTail
  | QClear | QSize | QLen | QTraverse (go : entries -> bool) | QValues.
  (** [QVal (Some v)]: v and true; [QVal None]: the zero value and false *)
  Inductive pq_out :=
  | QUnit | QBool (b : bool) | QVal (o : option V) | QV (v : V) | QNum (z : Z) | QSeen (l : entries) | QVals (l : list V) | QPanic.

  (** all but the entry at position [i] *)
  Definition but (i : Z) (m : entries) : entries := firstn (Z.to_nat i) m ++ skipn (S (Z.to_nat i)) m.
  Definition pq_spec (m : entries) (o : pq_op) : entries * pq_out :=
    match o with
    | QPut k v => (mm_insert ltb (k, v) m, QBool true)
    | QInsertIfAbsent k v =>
        match sames ltb k m with [] => (mm_insert ltb (k, v) m, QBool true) | _ => (m, QBool false) end
    | QUpsert k v =>
        match sames ltb k m with
        | [] => (mm_insert ltb (k, v) m, QBool false)
        | _ => (mm_replace_first ltb k v m, QBool true)
        end
    | QGet k => (m, QVal (option_map snd (hd_error (sames ltb k m))))
    | QIndex i =>
        (m, match entry_at m (Some (if i <? 0 then len m + i else i)) with None => QPanic | Some e => QV (snd e) end)
    | QRemove k | QDelete k => (mm_drop_first ltb k m, QVal (option_map snd (hd_error (sames ltb k m))))
    | QRemoveIndex i => match entry_at m (Some i) with None => (m, QPanic) | Some e => (but i m, QV (snd e)) end
    | QPopHead => (tl m, QVal (option_map snd (hd_error m)))
    | QPopTail => (removelast m, QVal (option_map snd (hd_error (rev m))))
    | QClear => ([], QUnit)
    | QSize | QLen => (m, QNum (len m))
    | QTraverse go => (m, QSeen (visit go [] m))
    | QValues => (m, QVals (map snd m))
    end.

  (** The code departs from this when RemoveIndex is called with a position outside a queue of several entries. *)
  Definition inside_ok (m : entries) (o : pq_op) : Prop :=
    match o with QRemoveIndex i => 0 <= i < len m \/ len m <= 1 | _ => True end.
  Fixpoint insides_ok (m : entries) (ops : list pq_op) : Prop :=
    match ops with [] => True | o :: ops' => inside_ok m o /\ insides_ok (fst (pq_spec m o)) ops' end.

  (** ** iterators
      The number of levels an iterator of a queue of [n] entries has room for: one and a half times the binary digits of
      [n]. *)
  Definition room (n : Z) : Z := let h := if n =? 0 then 0 else Z.log2 n + 1 in h + h / 2.
  (** How an iterator may move: a seek for a key that several entries have takes any of them for the one sought; apart
      from that, as [cursor_spec] says. *)
  Definition lands (m : entries) (p : option Z) (o : cu_op K) (p' : option Z) : Prop :=
    let any_of k i := exists e, entry_at m (Some i) = Some e /\ same ltb (fst e) k = true in
    let by_spec := p' = fst (cursor_spec ltb true m p o) in
    match o with
    | CGE k | CLE k => match sames ltb k m with _ :: _ :: _ => exists i, any_of k i /\ p' = Some i | _ => by_spec end
    | CGT k => match sames ltb k m with _ :: _ :: _ => exists i, any_of k i /\ p' = Some (i + 1) | _ => by_spec end
    | CLT k => match sames ltb k m with _ :: _ :: _ => exists i, any_of k i /\ p' = Some (i - 1) | _ => by_spec end
    | _ => by_spec
    end.
  (** [walks m p ops outs]: calls [ops] on an iterator at [p] may answer [outs] *)
  Inductive walks (m : entries) : option Z -> list (cu_op K) -> list (cu_out K V) -> Prop :=
  | walks_nil p : walks m p [] []
  | walks_cons p o p' ops outs : lands m p o p' -> walks m p' ops outs ->
      walks m p (o :: ops) (snd (cursor_spec ltb true m p o) :: outs).
  (** no seek for a key that several entries have *)
  Definition unique_seek (m : entries) (o : cu_op K) : Prop :=
    match o with CGE k | CLE k | CGT k | CLT k => (length (sames ltb k m) <= 1)%nat | _ => True end.
End Spec.
Arguments pq_op K V : clear implicits.
Arguments pq_out K V : clear implicits.
