(** tree/treelist: iterators and range iterators over a tree list that is not changed meanwhile.

    Nodes are known by their numbers, as in TreelistModel.v.  What Key, Value, Slice and Compare read through a pointer to
    a node that is no longer in the tree is not modelled; the model then answers as for nil. *)
From Verif Require Import Base Bind OrderSpec SMapSpec AvlTree AvlModel AvlSpec IndexSpec IndexModel TreelistSpec TreelistModel.
Local Open Scope Z_scope.

Section Iter.
  Context {K V : Type} (cmp : K -> K -> Z).
  Notation tl := (TreelistModel.tl K V).
  Notation tree := (tree K (nat * V)).

  (** iterator.go 3-6: hNode *)
  Record hNode := H { cur : option nat; idx : Z }.

  (** utils.go 536-562: the loop of seekNodeWithIndex at a node; what is returned is the node, offset and c *)
  Fixpoint seekLoop (key : K) (offset : Z) (t : tree) : option (nat * Z * Z) :=
    match t with
    | E => None
    | N _ k (i, _) l r =>
        let c := cmp key k in
        if c <? 0 then match l with E => Some (i, offset, c) | N _ _ _ _ lr => seekLoop key (offset - (getSize lr + 1)) l end
        else if c >? 0 then match r with E => Some (i, offset, c) | N _ _ _ rl _ => seekLoop key (offset + (getSize rl + 1)) r end
        else Some (i, offset, c)
    end.
  (** utils.go 528-564: seekNodeWithIndex; on an empty tree 533 panics *)
  Definition seekNodeWithIndex (key : K) (t : tree) : option (nat * Z * Z) :=
    match t with E => None | N _ _ _ l _ => seekLoop key (getSize l) t end.

  (** iterator.go 19-29, 34-44, 57-67, 71-81 and iterator_range.go 96-102, 104-110 and so on: a seek, going one step on
      ([true]) or back if [off c] *)
  Definition seek (dir : bool) (off : Z -> bool) (key : K) (s : tl) : option (hNode * bool) :=
    '(x, i, c) <- seekNodeWithIndex key (top s) ;;
    Some (if off c then H (d (lks s) x dir) (if dir then i + 1 else i - 1) else H (Some x) i, c =? 0).
  (** iterator.go 19-29, 34-44 *)
  Definition SeekGE := seek true (fun c => c >? 0).
  Definition SeekGT := seek true (fun c => c >=? 0).
  (** iterator.go 57-67, 71-81 *)
  Definition SeekLE := seek false (fun c => c <? 0).
  Definition SeekLT := seek false (fun c => c <=? 0).

  (** the node an iterator is at *)
  Definition here (s : tl) (h : hNode) : option (K * V) := x <- cur h ;; slice x (top s).

  (** One call of a method of Iterator, iterator.go 16-154; a new one (tree.go 54-57) is [H None 0].  [TIPanic]: the call
      panicked. *)
  Definition ti_step (s : tl) (h : hNode) (o : ti_op K) : hNode * ti_out K V :=
    let seeking r := match r with Some (h', b) => (h', TIBool b) | None => (h, TIPanic) end in
    match o with
    | TIGE k => seeking (SeekGE k s)
    | TIGT k => seeking (SeekGT k s)
    | TILE k => seeking (SeekLE k s)
    | TILT k => seeking (SeekLT k s)
    | TIByIndex i => match index i (top s) with Some (_, (x, _)) => (H (Some x) i, TIUnit) | None => (h, TIPanic) end
    | TIFirst => (H (e (lks s) false) 0, TIUnit)
    | TILast => (H (e (lks s) true) (getSize (top s) - 1), TIUnit)
    | TIValid => (h, TIBool match cur h with Some _ => true | None => false end)
    | TIPrev => match cur h with Some x => (H (d (lks s) x false) (idx h - 1), TIUnit) | None => (H None (idx h - 1), TIPanic) end
    | TINext => match cur h with Some x => (H (d (lks s) x true) (idx h + 1), TIUnit) | None => (h, TIPanic) end
    | TICompare k => (h, match here s h with Some (k0, _) => TIInt (cmp k0 k) | None => TIPanic end)
    | TISlice => (h, match here s h with Some kv => TIKV kv | None => TIPanic end)
    | TIIndex => (h, TIInt (idx h))
    | TIKey => (h, match here s h with Some (k, _) => TIK k | None => TIPanic end)
    | TIValue => (h, match here s h with Some (_, v) => TIV v | None => TIPanic end)
    | TIClone => (H (cur h) (idx h), TIUnit)
    end.

  (** iterator_range.go 13-17: siter, eiter and dir (false: Forward); a new one (tree.go 59-64) is [R (H None 0) (H None 0) false] *)
  Record range := R { siter : hNode; eiter : hNode; dir : bool }.

  (** iterator_range.go 89-190: GE2LE, GT2LE, GE2LT, GT2LT.  When the first seek panics so does the second. *)
  Definition setRange (gt lt : bool) (start end_ : K) (s : tl) (ir : range) : option range :=
    '(h1, _) <- (if gt then SeekGT start s else SeekGE start s) ;;
    '(h2, _) <- (if lt then SeekLT end_ s else SeekLE end_ s) ;;
    Some (R h1 h2 (dir ir)).

  (** iterator_range.go 77-86: Size *)
  Definition rangeSize (ir : range) : Z :=
    match cur (siter ir), cur (eiter ir) with
    | Some _, Some _ => if idx (siter ir) >? idx (eiter ir) then 0 else idx (eiter ir) - idx (siter ir) + 1
    | _, _ => 0
    end.

  Notation seen := (list ((K * V) * Z)).
  (** iterator_range.go 53-63.  [None]: a nil pointer.  [fuel]: Go goes on until it comes to [end_], or to nil. *)
  Fixpoint rangeLoop (fuel : nat) (s : tl) (go : seen -> bool) (fwd : bool) (c end_ : option nat) (i : Z) (acc : seen) : option seen :=
    match fuel with
    | O => None
    | S fuel' =>
        x <- c ;;
        kv <- slice x (top s) ;;
        let acc := acc ++ [(kv, i)] in
        if negb (go acc) || match end_ with Some y => Nat.eqb x y | None => false end then Some acc
        else rangeLoop fuel' s go fwd (d (lks s) x fwd) end_ (if fwd then i + 1 else i - 1) acc
    end.
  (** iterator_range.go 25-65: Range; [go] is told what the callback has been given so far *)
  Definition Range (s : tl) (go : seen -> bool) (ir : range) : option seen :=
    if idx (siter ir) >? idx (eiter ir) then Some []
    else
      let '(a, b) := if dir ir then (eiter ir, siter ir) else (siter ir, eiter ir) in
      rangeLoop (S (length (elems (top s)))) s go (negb (dir ir)) (cur a) (cur b) (idx a) [].
End Iter.
