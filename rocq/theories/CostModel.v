(** Which comparator calls tree/avl, set/treeset, tree/avls and tree/heap make: for every operation the arguments of the calls in order.
    These functions follow the walks of AvlModel.v, AvlsModel.v and HeapModel.v, which carry the same citations; that no call is
    missing is [C68_avl_calls_complete], [C68_avls_calls_complete] and [C68_heap_calls_complete]. *)
From Verif Require Import Base Bind SMapSpec AvlTree AvlModel AvlsModel HeapSpec.
From Verif Require HeapModel.
Local Open Scope Z_scope.

Section Avl.
  Context {K V : Type} (cmp : K -> K -> Z).

  (** tree/avl/tree_hide.go 9-38 (put), 40-49 (get), 51-89 (remove) and the same functions of set/treeset/tree_hide.go: one call tree.Compare(cur.Key, key) per node on the way
      down; below an answer that is negative, or neither 0 nor 1, nothing is asked.  neighboring (91-107) and rebalance
      (109 on) ask nothing. *)
  Fixpoint walk (key : K) (cur : tree K V) : list (K * K) :=
    match cur with
    | E => []
    | N _ ck _ l r =>
        let c := cmp ck key in
        (ck, key) :: if c <? 0 then [] else if c =? 0 then walk key l else if c =? 1 then walk key r else []
    end.

  (** tree/avl/tree.go 43-152; Upsert (53-61) looks the key up and, where it is missing, calls Set; set/treeset/tree.go 45-164 *)
  Definition avl_calls (s : avl K V) (o : sm_op K V) : list (K * K) :=
    match o with
    | MPut k _ | MInsertIfAbsent k _ | MSet k _ | MGet k | MContains k | MRemove k | MDelete k => walk k (root s)
    | MUpsert k _ => walk k (root s) ++ match get cmp k (root s) with Some None => walk k (root s) | _ => [] end
    | MClear | MSize | MLen | MEmpty | MValues | MTraverse _ => []
    end.

  (** tree/avls/tree_hide.go 9-34: put goes on to the right of an equal key *)
  Fixpoint walkPut (key : K) (cur : tree K V) : list (K * K) :=
    match cur with
    | E => []
    | N _ ck _ l r =>
        let c := cmp ck key in
        let c' := if c <? 0 then 1 else c in
        (ck, key) :: if c' =? 0 then walkPut key l else if c' =? 1 then walkPut key r else []
    end.

  (** tree/avls/tree_hide.go 36-50 (get), 52-96 (removeLeft): on to the left of an equal key *)
  Fixpoint walkGet (key : K) (cur : tree K V) : list (K * K) :=
    match cur with
    | E => []
    | N _ ck _ l r =>
        let c := cmp ck key in
        (ck, key) :: if c <? 0 then walkGet key l else if c =? 0 then walkGet key l else if c =? 1 then walkGet key r else []
    end.

  (** tree/avls/tree.go 37-150; Contains, which tree/avls does not have, is taken for Get as in [AvlsModel.mstep] *)
  Definition avls_calls (s : avl K V) (o : sm_op K V) : list (K * K) :=
    match o with
    | MPut k _ => walkPut k (root s)
    | MGet k | MContains k | MRemove k | MDelete k => walkGet k (root s)
    | MSet k _ | MUpsert k _ | MInsertIfAbsent k _ => walkGet k (root s) ++ match mget cmp k (root s) with Some None => walkPut k (root s) | _ => [] end
    | MClear | MSize | MLen | MEmpty | MValues | MTraverse _ => []
    end.
End Avl.

Section Heap.
  Context {A : Type} (zero : A) (compare : A -> A -> Z).
  Local Open Scope nat_scope.

  (** tree/heap/heap.go 71-81: the loop of Put *)
  Fixpoint up_calls (fuel : nat) (els : list A) (curidx : nat) (v : A) : list (A * A) :=
    match fuel with
    | O => []
    | S fuel' =>
        if curidx =? 0 then []
        else
          let pidx := (curidx - 1) / 2 in
          match nth_error els pidx with
          | None => []
          | Some pvalue =>
              (v, pvalue) ::
              if (compare v pvalue <=? 0)%Z then
                match HeapModel.set_at els curidx pvalue with None => [] | Some els' => up_calls fuel' els' pidx v end
              else []
          end
    end.

  (** tree/heap/heap.go 120-146: the loop of Pop *)
  Fixpoint down_calls (fuel : nat) (els : list A) (sz curidx : nat) (downvalue : A) : list (A * A) :=
    match fuel with
    | O => []
    | S fuel' =>
        let c1 := 2 * curidx + 1 in
        let c2 := 2 * curidx + 2 in
        let go cidx :=
          match nth_error els cidx with
          | None => []
          | Some cv =>
              (cv, downvalue) ::
              if (compare cv downvalue <=? 0)%Z then
                match HeapModel.set_at els curidx cv with None => [] | Some els' => down_calls fuel' els' sz cidx downvalue end
              else []
          end in
        if c2 <? sz then
          match nth_error els c1, nth_error els c2 with
          | Some e1, Some e2 => (e1, e2) :: go (if (compare e1 e2 <? 0)%Z then c1 else c2)
          | _, _ => []
          end
        else if sz <=? c1 then []
        else go c1
    end.

  (** tree/heap/heap.go 64-82 (Put), 100-148 (Pop); the other functions ask nothing *)
  Definition heap_calls (h0 : @HeapModel.heap A) (o : heap_op A) : list (A * A) :=
    match o with
    | HPut v =>
        let h := HeapModel.grow zero h0 in
        up_calls (S (HeapModel.size h)) (HeapModel.elements h) (HeapModel.size h) v
    | HPop =>
        if HeapModel.size h0 =? 0 then []
        else
          let h := HeapModel.slimming {| HeapModel.size := HeapModel.size h0 - 1; HeapModel.elements := HeapModel.elements h0 |} in
          match nth_error (HeapModel.elements h) (HeapModel.size h) with
          | None => []
          | Some downvalue => if HeapModel.size h =? 0 then [] else down_calls (S (HeapModel.size h)) (HeapModel.elements h) (HeapModel.size h) 0 downvalue
          end
    | _ => []
    end.
End Heap.
