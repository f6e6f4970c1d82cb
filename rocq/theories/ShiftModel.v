(** tree/indextree/experiment/shift_tolerance_tree.go: type ShiftToleranceTree.

    A node and everything below it is [SN Size Height Balance Key Value left right] (20-28), a nil pointer [SE]; tree.Center
    is a dummy node whose child 1 is the tree proper.  Parent pointers are not represented: fixPut and fixPutSize climb
    from the node Put has just come down to, and are written as what the recursion does on its way back up.  Sizes are
    integers, heights int8.  The rotation counters are in ShiftCountModel.v.  [None] is a Go panic. *)
From Verif Require Import Base Bind AvlTree AvlModel IndexModel.
Local Open Scope Z_scope.

Inductive stree (K V : Type) := SE | SN (size height balance : Z) (k : K) (v : V) (l r : stree K V).
Arguments SE {K V}.
Arguments SN {K V} size height balance k v l r.

Section Shift.
  Context {K V : Type} (cmp : K -> K -> Z) (shift : Z).
  Notation stree := (stree K V).

  (** 188-193: getSizeTolerance *)
  Definition sizeT (t : stree) : Z := match t with SE => 0 | SN s _ _ _ _ _ _ => s end.
  (** 195-200: getHeightTolerance *)
  Definition heightT (t : stree) : Z := match t with SE => 0 | SN _ h _ _ _ _ _ => h end.
  (** 202-210: updateHeight, int8 *)
  Definition newHeight (l r : stree) : Z := if heightT l >? heightT r then i8 (heightT l + 1) else i8 (heightT r + 1).
  (** 212-214 (updateBalance) and 202-210 (updateHeight) on a node whose Size has just been set to [s] *)
  Definition renew (s : Z) (k : K) (v : V) (l r : stree) : stree := SN s (newHeight l r) (sizeT l - sizeT r) k v l r.
  (** 132-134, 269-274, 302-307: Size = sum of the children's + 1, then updateBalance and updateHeight *)
  Definition resum (k : K) (v : V) (l r : stree) : stree := renew (sizeT l + sizeT r + 1) k v l r.

  (** 246-277: lrotate *)
  Definition slrotate (cur : stree) : option stree :=
    match cur with SN _ _ _ k v l (SN _ _ _ mk mv ml mr) => Some (resum mk mv (resum k v l ml) mr) | _ => None end.
  (** 279-310: rrotate *)
  Definition srrotate (cur : stree) : option stree :=
    match cur with SN _ _ _ k v (SN _ _ _ mk mv ml mr) r => Some (resum mk mv ml (resum k v mr r)) | _ => None end.

  (** 233-244: sizeRRotate *)
  Definition ssizeRRotate (cur : stree) : option stree :=
    match cur with
    | SN s h b k v l (SN _ _ _ _ _ rl rr as r) =>
        if sizeT rl >? sizeT rr then r' <- srrotate r ;; slrotate (SN s h b k v l r') else slrotate cur
    | _ => None
    end.
  (** 220-231: sizeLRotate *)
  Definition ssizeLRotate (cur : stree) : option stree :=
    match cur with
    | SN s h b k v (SN _ _ _ _ _ ll lr as l) r =>
        if sizeT ll <? sizeT lr then l' <- slrotate l ;; srrotate (SN s h b k v l' r) else srrotate cur
    | _ => None
    end.

  (** One node of the way up: fixPut at the parent of the new node (139-146, [First]), in its loop (151-177, [Height]),
      or fixPutSize (130-137, [Sizes]); 180-186 is getHeightLimit.  A negative shift count panics. *)
  Definition sfixPut (c : climb) (cur : stree) : option (stree * climb) :=
    match cur with
    | SE => None
    | SN s _ _ k v l r =>
        match c with
        | First => Some (renew (s + 1) k v l r, if s + 1 =? 3 then Sizes else Height 2)
        | Sizes => Some (resum k v l r, Sizes)
        | Height h =>
            let cur := renew (s + 1) k v l r in
            if shift <? 0 then None else
            let rootsize := shl64 h in
            let bottomsize := Z.shiftr rootsize shift + 1 in
            if s + 1 <? rootsize then
              let balance := match cur with SN _ _ b _ _ _ _ => b | SE => 0 end in
              if balance <? 0 then
                if bottomsize <=? - balance then t <- ssizeRRotate cur ;; Some (t, Sizes) else Some (cur, Height (h + 1))
              else
                if bottomsize <=? balance then t <- ssizeLRotate cur ;; Some (t, Sizes) else Some (cur, Height (h + 1))
            else Some (cur, Height (h + 1))
        end
    end.

  (** 65-109: Put; the second result is [None] if the key was there *)
  Fixpoint sput (key : K) (value : V) (cur : stree) : option (stree * option climb) :=
    match cur with
    | SE => Some (SN 1 1 0 key value SE SE, Some First)
    | SN s h b k v l r =>
        let c := cmp k key in
        if c <? 0 then
          '(r', res) <- sput key value r ;;
          match res with
          | None => Some (SN s h b k v l r', None)
          | Some st => '(t, st') <- sfixPut st (SN s h b k v l r') ;; Some (t, Some st')
          end
        else if c >? 0 then
          '(l', res) <- sput key value l ;;
          match res with
          | None => Some (SN s h b k v l' r, None)
          | Some st => '(t, st') <- sfixPut st (SN s h b k v l' r) ;; Some (t, Some st')
          end
        else Some (cur, None)
    end.

  (** 119-128: get; Children[cmp] is out of range beyond 1 *)
  Fixpoint sget (key : K) (cur : stree) : option (option V) :=
    match cur with
    | SE => Some None
    | SN _ _ _ k v l r =>
        let c := cmp k key in
        if c <? 0 then Some (Some v) else if c =? 0 then sget key l else if c =? 1 then sget key r else None
    end.

  (** 9-18: the fields that matter, Center.Children[1] and size *)
  Record stol := STOL { sroot : stree; scount : nat }.
  (** 35-44, 46-48: NewShiftTolerance *)
  Definition snew : stol := STOL SE 0.

  Inductive stol_op := SPut (k : K) (v : V) | SGet (k : K) | SSize | SHeight.
  Inductive stol_out := SBool (b : bool) | SVal (o : option V) | SNat (n : nat) | SInt8 (z : Z).
  (** 65-109 (Put), 111-117 (Get), 50-52 (Size), 54-59 (Height) *)
  Definition stol_step (s : stol) (o : stol_op) : option (stol * stol_out) :=
    match o with
    | SPut k v =>
        '(t, res) <- sput k v (sroot s) ;;
        Some match res with None => (STOL t (scount s), SBool false) | Some _ => (STOL t (S (scount s)), SBool true) end
    | SGet k => g <- sget k (sroot s) ;; Some (s, SVal g)
    | SSize => Some (s, SNat (scount s))
    | SHeight => Some (s, SInt8 (if (scount s =? 0)%nat then 0 else heightT (sroot s)))
    end.
End Shift.
Arguments stol K V : clear implicits.
Arguments stol_op K V : clear implicits.
Arguments stol_out V : clear implicits.
