(** A sorted map together with a cursor on it, that stays where it is when the map gets other values for its keys. *)
From Verif Require Import Base SMapSpec AvlHeapIterModel.
Local Open Scope Z_scope.

Section Spec.
  Context {K V : Type} (ltb : K -> K -> bool).
  (** the call, with this answer, has neither put a key in nor taken one out *)
  Definition quiet (o : sm_op K V) (r : sm_out K V) : bool :=
    match o, r with
    | MPut _ _, MBool b | MInsertIfAbsent _ _, MBool b | MSet _ _, MBool b => negb b
    | MUpsert _ _, MBool b => b
    | MRemove _, MVal v | MDelete _, MVal v => match v with None => true | Some _ => false end
    | MGet _, _ | MContains _, _ | MSize, _ | MLen, _ | MEmpty, _ | MValues, _ | MTraverse _, _ => true
    | _, _ => false
    end.
  (** the map, and the cursor if there is one and no key came or went since it was made *)
  Definition wspec (w : list (K * V) * option (option Z)) (o : wop K V) : (list (K * V) * option (option Z)) * wout K V :=
    let '(m, p) := w in
    match o with
    | WTree o => let '(m', r) := smap_spec ltb m o in ((m', if quiet o r then p else None), WT r)
    | WIter => ((m, Some None), WU)
    | WCall c => match p with
                 | None => (w, WU)
                 | Some q => let '(q', r) := cursor_spec ltb true m q c in ((m, Some q'), WC r)
                 end
    end.
  (** iterators are not used any more once a key came or went *)
  Fixpoint careful (w : list (K * V) * option (option Z)) (ops : list (wop K V)) : Prop :=
    match ops with
    | [] => True
    | o :: ops => (match o, snd w with WCall _, None => False | _, _ => True end) /\ careful (fst (wspec w o)) ops
    end.
  Definition treecalls (ops : list (wop K V)) : list (sm_op K V) := flat_map (fun o => match o with WTree o => [o] | _ => [] end) ops.
End Spec.
