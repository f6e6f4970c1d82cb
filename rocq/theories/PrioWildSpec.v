(** What is left of a priority queue when the comparison function is no order at all (see WildSpec.v). *)
From Verif Require Import Base SMapSpec AvlTree AvlSpec IndexSpec PrioSpec WildSpec.
Local Open Scope Z_scope.

Section PrioWild.
  Context {K V : Type} (cmp : K -> K -> Z).
  Notation entries := (list (K * V)).
  Implicit Types (m : entries).
  Definition qmay m (o : pq_op K V) m' (x : pq_out K V) : Prop :=
    match o with
    | QPut k v => x = QBool true /\ added (k, v) m m'
    | QInsertIfAbsent k v => x = QBool true /\ added (k, v) m m' \/ x = QBool false /\ m' = m /\ exists e, In e m /\ hit cmp k e
    | QUpsert k v => x = QBool false /\ added (k, v) m m' \/ x = QBool true /\ exists e, hit cmp k e /\ swapped e (fst e, v) m m'
    | QGet k => m' = m /\ (x = QVal None \/ exists e, In e m /\ hit cmp k e /\ x = QVal (Some (snd e)))
    | QRemove k | QDelete k => x = QVal None /\ m' = m \/ exists e, hit cmp k e /\ dropped e m m' /\ x = QVal (Some (snd e))
    | QIndex i => m' = m /\ x = match entry_at m (Some (if i <? 0 then len m + i else i)) with None => QPanic | Some e => QV (snd e) end
    | QRemoveIndex i => match entry_at m (Some i) with None => m' = m /\ x = QPanic | Some e => m' = but i m /\ x = QV (snd e) end
    | QPopHead => m' = tl m /\ x = QVal (option_map snd (hd_error m))
    | QPopTail => m' = removelast m /\ x = QVal (option_map snd (hd_error (rev m)))
    | QClear => m' = [] /\ x = QUnit
    | QSize | QLen => m' = m /\ x = QNum (len m)
    | QTraverse go => m' = m /\ x = QSeen (visit go [] m)
    | QValues => m' = m /\ x = QVals (map snd m)
    end.
  Inductive qmay_run : entries -> list (pq_op K V) -> list (pq_out K V) -> entries -> Prop :=
  | qmay_stop m : qmay_run m [] [] m
  | qmay_go m o m1 x ops xs m2 : qmay m o m1 x -> qmay_run m1 ops xs m2 -> qmay_run m (o :: ops) (x :: xs) m2.
End PrioWild.
