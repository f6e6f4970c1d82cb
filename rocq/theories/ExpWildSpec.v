(** tree/indextree/experiment, type Tree: what a call may do to a list of entries when nothing is known of the comparison
    function.  Put and Set treat keys as equal if the function answers 0; Get, Upsert, Remove and Delete take any entry for
    which it answers a negative number ([hit]). *)
From Verif Require Import Base SMapSpec WildSpec.
Local Open Scope Z_scope.

Section Spec.
  Context {K V : Type} (cmp : K -> K -> Z).
  Notation entries := (list (K * V)).
  Definition equal (k : K) (e : K * V) : Prop := cmp (fst e) k = 0.
  Definition emay (m : entries) (o : sm_op K V) (m' : entries) (x : sm_out K V) : Prop :=
    match o with
    | MPut k v | MInsertIfAbsent k v =>
        x = MBool true /\ added (k, v) m m' \/ x = MBool false /\ m' = m /\ exists e, In e m /\ equal k e
    | MSet k v => x = MBool true /\ added (k, v) m m' \/ x = MBool false /\ exists e, equal k e /\ swapped e (k, v) m m'
    | MUpsert k v => x = MBool true /\ (exists e, hit cmp k e /\ swapped e (fst e, v) m m') \/
        x = MBool false /\ (added (k, v) m m' \/ exists e, equal k e /\ swapped e (k, v) m m')
    | MGet k => m' = m /\ (x = MVal None \/ exists e, In e m /\ hit cmp k e /\ x = MVal (Some (snd e)))
    | MContains k => m' = m /\ (x = MBool false \/ exists e, In e m /\ hit cmp k e /\ x = MBool true)
    | MRemove k | MDelete k => x = MVal None /\ m' = m \/ exists e, hit cmp k e /\ dropped e m m' /\ x = MVal (Some (snd e))
    | MClear => m' = [] /\ x = MUnit
    | MSize | MLen => m' = m /\ x = MNat (length m)
    | MEmpty => m' = m /\ x = MBool (match m with [] => true | _ => false end)
    | MValues => m' = m /\ x = MVals (map snd m)
    | MTraverse go => m' = m /\ x = MSeen (visit go [] m)
    end.
  Inductive emay_run : entries -> list (sm_op K V) -> list (sm_out K V) -> entries -> Prop :=
  | emay_stop m : emay_run m [] [] m
  | emay_go m o m1 x ops xs m2 : emay m o m1 x -> emay_run m1 ops xs m2 -> emay_run m (o :: ops) (x :: xs) m2.
  (** calls on an iterator that do not seek *)
  Definition walks (o : cu_op K) : bool := match o with CGE _ | CGT _ | CLE _ | CLT _ => false | _ => true end.
  (** calls that take the answers of the comparison function for directions *)
  Definition directs (o : sm_op K V) : bool :=
    match o with MUpsert _ _ | MGet _ | MContains _ | MRemove _ | MDelete _ => true | _ => false end.
End Spec.
