(** What an index tree iterator should do: a cursor over the sorted entries that also knows its rank. *)
From Verif Require Import Base OrderSpec SMapSpec.
Local Open Scope Z_scope.

Section Spec.
  Context {K V : Type} (ltb : K -> K -> bool).
  Notation entries := (list (K * V)).
  Inductive xi_op := XI (o : cu_op K) | XISeek (i : Z) | XIRank.
  Inductive xi_out := XO (o : cu_out K V) | XORank (i : Z).

  (** The position is that of [cursor_spec]; SeekByIndex outside the sequence leaves the cursor nowhere.
      A cursor that is nowhere has no rank; -1 stands for that. *)
  Definition xi_spec (m : entries) (p : option Z) (o : xi_op) : option Z * xi_out :=
    match o with
    | XI o => let '(p', x) := cursor_spec ltb true m p o in (p', XO x)
    | XISeek i => (if (0 <=? i) && (i <? len m) then Some i else None, XO CUnit)
    | XIRank => (p, XORank match p with Some i => i | None => -1 end)
    end.

  (** Calls for which the code does this.  [walk]: the iterator may be moved (not after SeekByIndex); [rank]: Index is
      meaningful (set by SeekToFirst, SeekToLast, SeekByIndex and seeks that found the key; lost by a seek that did not and by
      moving on from beyond an end).  SeekGT and SeekLT are never among them. *)
  Definition rank_kept (m : entries) (p : option Z) (next : bool) : bool :=
    match p with Some i => if next then i <? len m else -1 <? i | None => false end.
  Definition here (k : K) (m : entries) : bool := existsb (fun e => same ltb (fst e) k) m.
  Fixpoint plain_calls (m : entries) (p : option Z) (walk rank : bool) (ops : list xi_op) : Prop :=
    match ops with
    | [] => True
    | o :: ops' =>
        let go := plain_calls m (fst (xi_spec m p o)) in
        match o with
        | XI CFirst | XI CLast => go true true ops'
        | XI CNext => walk = true /\ go true (rank && rank_kept m p true) ops'
        | XI CPrev => walk = true /\ go true (rank && rank_kept m p false) ops'
        | XI (CGE k) | XI (CLE k) => go true (here k m) ops'
        | XI (CGT _) | XI (CLT _) => False
        | XISeek i => go false ((0 <=? i) && (i <? len m)) ops'
        | XIRank => rank = true /\ p <> None /\ go walk rank ops'
        | _ => go walk rank ops'
        end
    end.
End Spec.
Arguments xi_op K : clear implicits.
Arguments xi_out K V : clear implicits.
