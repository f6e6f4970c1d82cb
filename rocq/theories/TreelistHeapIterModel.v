(** tree/treelist: iterators, statement by statement on the nodes in memory of TreelistHeapModel.v, over a tree that may be
    changed between their calls.  An iterator holds a pointer to a node, which it reads and follows whatever has become of
    the node. *)
From Verif Require Import Base IndexSpec IndexHeapModel TreelistSpec TreelistChangeSpec TreelistHeapModel.
Local Open Scope Z_scope.

Section Iter.
  Context {K V : Type} (cmp : K -> K -> Z).
  Notation M := (M K V).
  Notation TM := (TM K V).
  Notation tmem := (tmem K V).

  (** iterator.go 3-6: hNode.  The tree of an iterator is the one there is. *)
  Record titer := TI { tcur : ptr; tidx : Z }.

  Section Root.
  (** tree.root *)
  Context (root : nat).
  Notation troot := (Some root : ptr).

  (** utils.go 536-562: the loop of seekNodeWithIndex; what is returned is the node, offset and c *)
  Fixpoint hseekLoop (key : K) (n : nat) (offset : Z) (cur : ptr) : M (ptr * Z * Z) :=
    match n with
    | O => fun _ => Loop
    | S n =>
        let! k := rd Key cur in
        let c := cmp key k in
        let last := cur in
        if c <? 0 then
          let! cur := rdKid cur false in
          if negb (isNil cur) then
            let! w := rdKid cur true in let! s := getSize w in hseekLoop key n (offset - (s + 1)) cur
          else ret (last, offset, c)
        else if c >? 0 then
          let! cur := rdKid cur true in
          if negb (isNil cur) then
            let! w := rdKid cur false in let! s := getSize w in hseekLoop key n (offset + (s + 1)) cur
          else ret (last, offset, c)
        else ret (cur, offset, c)
    end.
  (** utils.go 528-564: seekNodeWithIndex *)
  Definition hseekNodeWithIndex (key : K) : M (ptr * Z * Z) :=
    let! cur := getRoot root in
    let! w := rdKid cur false in
    let! offset := getSize w in
    fueled (fun n => hseekLoop key n offset cur).

  (** iterator.go 19-29, 34-44, 57-67, 71-81: the body of a seek, going on by Direct[1] ([d]) or back by Direct[0] if
      [off dir].  Simplified: the fields are assigned at the end; the code assigns idx before it reads Direct, which cannot
      panic, as seekNodeWithIndex returns a node. *)
  Definition hseek (d : bool) (off : Z -> bool) (key : K) : TM (titer * bool) :=
    let? r := lift (hseekNodeWithIndex key) in
    let '(cur, idx, dir) := (r : ptr * Z * Z) in
    if off dir then
      let? cur := rdDir cur d in pure (TI cur (if d then idx + 1 else idx - 1), dir =? 0)
    else pure (TI cur idx, dir =? 0).
  (** iterator.go 19-29, 34-44 *)
  Definition hSeekGE := hseek true (fun dir => dir >? 0).
  Definition hSeekGT := hseek true (fun dir => dir >=? 0).
  (** iterator.go 57-67, 71-81 *)
  Definition hSeekLE := hseek false (fun dir => dir <? 0).
  Definition hSeekLT := hseek false (fun dir => dir <=? 0).
  (** iterator.go 48-52: SeekByIndex *)
  Definition hSeekByIndex (i : Z) : TM titer := let? cur := lift (index root i) in pure (TI cur i).
  (** iterator.go 84-91: SeekToFirst *)
  Definition hSeekToFirst : TM titer := let? cur := rdDir troot false in pure (TI cur 0).
  (** iterator.go 94-100: SeekToLast *)
  Definition hSeekToLast : TM titer :=
    let? cur := rdDir troot true in let? s := lift (treeSize root) in pure (TI cur (s - 1)).
  (** iterator.go 108-113: Prev, once idx has been counted down *)
  Definition hPrev (it : titer) : TM titer := let? cur := rdDir (tcur it) false in pure (TI cur (tidx it)).
  (** iterator.go 124-128: Next *)
  Definition hNext (it : titer) : TM titer := let? cur := rdDir (tcur it) true in pure (TI cur (tidx it + 1)).
  (** iterator.go 119-121: Compare *)
  Definition hCompare (key : K) (it : titer) : TM Z := let? k := lift (rd Key (tcur it)) in pure (cmp k key).
  End Root.

  (** What a call makes of the iterator and answers; [it] is the iterator if the call panics. *)
  Definition ianswer {X} (e : TM X) (f : X -> titer * ti_out K V) (it : titer) (m : tmem) : option (tmem * titer * ti_out K V) :=
    match e m with
    | Done x m' => Some (m', fst (f x), snd (f x))
    | Fail m' => Some (m', it, TIPanic)
    | Forever => None
    end.
  (** One call of a method of Iterator.  Besides the functions above: iterator.go 103-105 (Valid), 131-133 (Slice, read at
      once), 136-138 (Index), 141-143 (Key), 146-148 (Value), 152-154 (Clone). *)
  Definition hi_step (m : tmem) (it : titer) (o : ti_op K) : option (tmem * titer * ti_out K V) :=
    let moved it' := (it', TIUnit) in
    let sought r := (fst r, TIBool (snd r)) in
    match o with
    | TIGE k => ianswer (hSeekGE 0 k) sought it m
    | TIGT k => ianswer (hSeekGT 0 k) sought it m
    | TILE k => ianswer (hSeekLE 0 k) sought it m
    | TILT k => ianswer (hSeekLT 0 k) sought it m
    | TIByIndex i => ianswer (hSeekByIndex 0 i) moved it m
    | TIFirst => ianswer (hSeekToFirst 0) moved it m
    | TILast => ianswer (hSeekToLast 0) moved it m
    | TIValid => Some (m, it, TIBool (negb (isNil (tcur it))))
    | TIPrev => let it := TI (tcur it) (tidx it - 1) in ianswer (hPrev it) moved it m
    | TINext => ianswer (hNext it) moved it m
    | TICompare k => ianswer (hCompare k it) (fun c => (it, TIInt c)) it m
    | TISlice => ianswer (slice (tcur it)) (fun e => (it, TIKV e)) it m
    | TIIndex => Some (m, it, TIInt (tidx it))
    | TIKey => ianswer (lift (rd Key (tcur it))) (fun k => (it, TIK k)) it m
    | TIValue => ianswer (lift (rd Value (tcur it))) (fun v => (it, TIV v)) it m
    | TIClone => Some (m, TI (tcur it) (tidx it), TIUnit)
    end.

  (** A call of the tree, of an iterator, or a Clone (iterator.go 152-154) that becomes iterator number [j].  A new iterator
      (tree.go 54-57) is [TI None 0]. *)
  Definition hc_step (st : tmem * (nat -> titer)) (o : tc_op K V) : option ((tmem * (nat -> titer)) * tc_out K V) :=
    let (m, its) := st in
    match o with
    | CTree o => match thstep cmp m o with Some (m', r) => Some ((m', its), CT r) | None => None end
    | CIter j o => match hi_step m (its j) o with Some (m', it, r) => Some ((m', set_at j it its), CI r) | None => None end
    | CClone i j => Some ((m, set_at j (TI (tcur (its i)) (tidx (its i))) its), CI TIUnit)
    end.
End Iter.
