(** What is left of a skip list when the comparison function is no order at all.  A search ends at some place where the entry
    before is below the key and the one after is not; with an order there is only one such place. *)
From Verif Require Import Base SMapSpec SkipSpec WildSpec.
Local Open Scope Z_scope.

Section SkipWild.
  Context {K V : Type} (cmp : K -> K -> Z).
  Notation entries := (list (K * V)).
  Implicit Types (m a b : entries).

  (** [m], cut at a place where a search for [k] may end *)
  Definition place (k : K) m a b : Prop :=
    m = a ++ b /\ match rev a with [] => True | e :: _ => cmp (fst e) k < 0 end /\ match b with [] => True | e :: _ => 0 <= cmp (fst e) k end.
  (** the entry found there, and those after it *)
  Definition found (k : K) b : option ((K * V) * entries) :=
    match b with e :: b' => if cmp (fst e) k =? 0 then Some (e, b') else None | [] => None end.
  (** an entry that does not count as below [e] although it stands before it *)
  Definition blocked a (e : K * V) : Prop := exists e', In e' a /\ 0 <= cmp (fst e') (fst e).

  (** The call [o] on the entries [m] may answer [x] and leave [m']. *)
  Definition kmay m (o : sk_op K V) m' (x : sk_out K V) : Prop :=
    match o with
    | KPut k v _ | KSet k v _ =>
        exists a b, place k m a b /\
          match found k b with
          | Some (e, b') => m' = a ++ (fst e, v) :: b' /\ x = KBool false
          | None => m' = a ++ (k, v) :: b /\ x = KBool true
          end
    | KPutDuplicate k v _ =>
        exists a b, place k m a b /\
          match found k b with
          | Some (e, b') => m' = a ++ (fst e, v) :: b' /\ x = KDup (Some e) false
          | None => m' = a ++ (k, v) :: b /\ x = KDup None true
          end
    | KGet k => m' = m /\ exists a b, place k m a b /\ x = KVal (option_map (fun p => snd (fst p)) (found k b))
    | KRemove k =>
        exists a b, place k m a b /\
          match found k b with Some (e, b') => m' = a ++ b' /\ x = KEntry (Some e) | None => m' = m /\ x = KEntry None end
    | KRemoveHead =>
        match m with
        | [] => m' = [] /\ x = KEntry None
        | e0 :: _ =>
            exists a b, place (fst e0) m a b /\
              match found (fst e0) b with Some (e, b') => m' = a ++ b' /\ x = KEntry (Some e) | None => m' = m /\ x = KEntry None end
        end
    | KRemoveTail =>
        match rev m with
        | [] => m' = [] /\ x = KEntry None
        | e :: a => m' = rev a /\ x = KEntry (Some e) \/ m' = m /\ x = KEntry None /\ blocked (rev a) e
        end
    | KRemoveIndex i =>
        match at_index m i with
        | None => m' = m /\ x = KEntry None
        | Some e => m' = others i i m /\ x = KEntry (Some e) \/ m' = m /\ x = KEntry None /\ blocked (firstn (Z.to_nat i) m) e
        end
    | KIndexOf k =>
        m' = m /\ (x = KNum (-1) /\ (forall e, In e m -> cmp (fst e) k <> 0) \/
                   exists a e b, m = a ++ e :: b /\ cmp (fst e) k = 0 /\ (forall e', In e' a -> cmp (fst e') k <> 0) /\ x = KNum (len a))
    | KTrim _ _ | KTrimByIndex _ _ => x = KUnit /\ thinned m m'
    | KClear => m' = [] /\ x = KUnit
    | KHead => m' = m /\ x = KEntry (hd_error m)
    | KTail => m' = m /\ x = KEntry (last_entry m)
    | KSize => m' = m /\ x = KNum (len m)
    | KTraverse go => m' = m /\ x = KSeen (visit go [] m)
    | KSlice | KSlices => m' = m /\ x = KSeen m
    | KIndex i => m' = m /\ x = KEntry (at_index m i)
    | KRemoveRangeByIndex _ _ => False
    end.
  Inductive kmay_run : entries -> list (sk_op K V) -> list (sk_out K V) -> entries -> Prop :=
  | kmay_stop m : kmay_run m [] [] m
  | kmay_go m o m1 x ops xs m2 : kmay m o m1 x -> kmay_run m1 ops xs m2 -> kmay_run m (o :: ops) (x :: xs) m2.
End SkipWild.

(** every call but RemoveRangeByIndex *)
Definition ranges {K V : Type} (o : sk_op K V) : bool := match o with KRemoveRangeByIndex _ _ => true | _ => false end.
