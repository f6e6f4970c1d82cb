(** What is left of a tree list when the comparison function is no order at all (see WildSpec.v). *)
From Verif Require Import Base SMapSpec IndexSpec TreelistSpec WildSpec.
Local Open Scope Z_scope.

Section TreelistWild.
  Context {K V : Type} (cmp : K -> K -> Z).
  Notation entries := (list (K * V)).
  Implicit Types (m : entries).

  (** The call [o] on the entries [m] may answer [x] and leave [m'].  A Put that panics has put the entry in.  A RemoveRange
      takes out entries that are next to each other.  Calls by position are those of the sorted list; they make no use of
      the order given to [tl_spec]. *)
  Definition tmay m (o : tl_op K V) m' (x : tl_out K V) : Prop :=
    match o with
    | TPut k v =>
        (x = TBool true \/ x = TPanic) /\ added (k, v) m m' \/ x = TBool false /\ m' = m /\ exists e, In e m /\ cmp k (fst e) = 0
    | TSet k v =>
        (x = TBool false \/ x = TPanic) /\ added (k, v) m m' \/
        x = TBool true /\ exists e, cmp k (fst e) = 0 /\ swapped e (fst e, v) m m'
    | TPutDuplicate k v f =>
        (x = TBool false \/ x = TPanic) /\ added (k, v) m m' \/
        x = TBool true /\ exists e, cmp k (fst e) = 0 /\ swapped e (fst e, f (snd e)) m m'
    | TGet k => m' = m /\ (x = TVal None \/ exists e, In e m /\ cmp k (fst e) = 0 /\ x = TVal (Some (snd e)))
    | TRemove k => x = TSlice None /\ m' = m \/ exists e, cmp k (fst e) = 0 /\ dropped e m m' /\ x = TSlice (Some e)
    | TIndexOf k => m' = m /\ (x = TNum (-1) \/ exists i e, entry_at m (Some i) = Some e /\ cmp k (fst e) = 0 /\ x = TNum i)
    | TRemoveRange lo hi =>
        if cmp lo hi >? 0 then m' = m /\ x = TPanic
        else if cmp lo hi =? 0 then x = TBool false /\ m' = m \/ x = TBool true /\ exists e, cmp lo (fst e) = 0 /\ dropped e m m'
        else x = TBool false /\ m' = m \/ x = TBool true /\ exists a b c, m = a ++ b ++ c /\ b <> [] /\ m' = a ++ c
    | TTrim lo hi => if cmp lo hi >? 0 then m' = m /\ x = TPanic else x = TUnit /\ thinned m m'
    | TTrimByIndex i j =>
        if (j <? i) || (i <? 0) || (len m <=? j) then x = TPanic /\ (~ 0 < i < len m -> m' = m) else m' = between i j m /\ x = TUnit
    | _ => (m', x) = tl_spec (fun _ _ => false) m o
    end.
  Inductive tmay_run : entries -> list (tl_op K V) -> list (tl_out K V) -> entries -> Prop :=
  | tmay_stop m : tmay_run m [] [] m
  | tmay_go m o m1 x ops xs m2 : tmay m o m1 x -> tmay_run m1 ops xs m2 -> tmay_run m (o :: ops) (x :: xs) m2.

  (** no Trim by keys, no TrimByIndex that failed, no Put that panicked *)
  Definition calm (o : tl_op K V) (x : tl_out K V) : Prop :=
    match o with TTrim _ _ => False | TTrimByIndex _ _ => x <> TPanic | _ => ~ put_fails o x end.
End TreelistWild.
