(** Iterators of tree/indextree on a tree that is not modified meanwhile.  As in AvlIterModel, a node pointer is modelled by
    the subtree below it, and the record [iter] holds the tree, cur, idx and stack; it is used here with the whole tree in
    [root] ([size] is unused).  idx is an int8. *)
From Verif Require Import Base Bind SMapSpec AvlTree AvlModel AvlIterModel IndexModel IndexIterSpec.
Local Open Scope Z_scope.

Section Iter.
  Context {K V : Type} (cmp : K -> K -> Z).
  Notation tree := (tree K V).
  Notation iter := (iter K V).

  (** tree/indextree/utils.go 386-400: getHigh; [most] is maxHight *)
  Fixpoint getHigh (cur : tree) (h most : Z) : Z :=
    match cur with
    | E => most
    | N s _ _ l r => if s =? 1 then (if most <? h then h else most) else getHigh r (h + 1) (getHigh l (h + 1) most)
    end.
  (** utils.go 382-404: hight *)
  Definition hight (t : tree) : Z := getHigh t 0 0.

  (** tree/indextree/iterator_hide.go 3-14: newIterator *)
  Definition inew (T : avl K V) : iter :=
    let h := hight (root T) in
    IT T E (-1) (repeat (E, false) (Z.to_nat ((if h =? 0 then 1 else h) + 1))).

  (** iterator_hide.go 16-40: down *)
  Definition idown (c : bool) (it : iter) : option (iter * bool) :=
    match cur it with
    | E =>
        if -1 <? idx it then
          '(n, dd) <- peek (stack it) (idx it) ;;
          if Bool.eqb dd (negb c) then Some (IT (itree it) n (idx it - 1) (stack it), true) else Some (it, false)
        else Some (it, false)
    | N _ _ _ l r =>
        match child c l r with
        | E => Some (it, false)
        | sub =>
            let i := i8 (idx it + 1) in
            s <- poke (stack it) i (cur it, c) ;;
            Some (IT (itree it) sub i s, true)
        end
    end.

  (** iterator_hide.go 42-72: up *)
  Fixpoint iup_loop (fuel : nat) (c : bool) (it : iter) (i : Z) : option (iter * bool) :=
    match fuel with
    | O => None
    | S fuel' =>
        if -1 <? i then
          '(n, dd) <- peek (stack it) i ;;
          if Bool.eqb dd (negb c) then Some (IT (itree it) n (i - 1) (stack it), true)
          else iup_loop fuel' c it (i - 1)
        else
          match cur it with
          | E => Some (it, false)
          | _ =>
              if idx it + 1 <? Z.of_nat (length (stack it)) then
                let i := i8 (idx it + 1) in
                s <- poke (stack it) i (cur it, c) ;; Some (IT (itree it) E i s, false)
              else Some (IT (itree it) E (idx it) (stack it), false)
          end
    end.
  Definition iup (c : bool) (it : iter) : option (iter * bool) := iup_loop (S (S (Z.to_nat (idx it)))) c it (idx it).

  (** [for iter.down(c) {}]: one more round than the tree has nodes is never used up *)
  Fixpoint idown_loop (fuel : nat) (c : bool) (it : iter) : option iter :=
    match fuel with
    | O => None
    | S fuel' => '(it', b) <- idown c it ;; if b : bool then idown_loop fuel' c it' else Some it'
    end.

  (** iterator_hide.go 146-156: move *)
  Definition imove (c : bool) (it : iter) : option iter :=
    '(it', b) <- idown c it ;;
    if b : bool then idown_loop (levels (root (itree it))) (negb c) it'
    else '(it'', _) <- iup c it' ;; Some it''.

  (** iterator.go 44-60: SeekToFirst (c = false), SeekToLast (c = true), but for pos *)
  Definition iend (c : bool) (it : iter) : option iter :=
    idown_loop (levels (root (itree it))) c (IT (itree it) (root (itree it)) (-1) (stack it)).

  (** iterator_hide.go 83-105: the loop of seekEqual, but for pos; [lg] is LessAndGreater = 1 *)
  Fixpoint equal_loop (fuel : nat) (key : K) (lg : bool) (it : iter) : option (iter * bool) :=
    match fuel with
    | O => None
    | S fuel' =>
        match cur it with
        | E => None
        | N _ k _ _ _ =>
            let c := cmp k key in
            let dir := c <? 0 in
            if c =? 0 then Some (it, true)
            else
              '(it', b) <- idown dir it ;;
              if b : bool then equal_loop fuel' key lg it'
              else if Bool.eqb dir lg then '(it'', _) <- iup lg it' ;; Some (it'', false)
              else Some (it', false)
        end
    end.

  (** iterator_hide.go 117-143: the loop of seekThan; the last result is the new pos, [None] if it keeps its value *)
  Fixpoint than_loop (fuel : nat) (key : K) (lg : bool) (it : iter) : option (iter * bool * option Z) :=
    match fuel with
    | O => None
    | S fuel' =>
        match cur it with
        | E => None
        | N _ k _ _ _ =>
            let c := cmp k key in
            let dir := c <? 0 in
            if c >? 0 then
              it' <- imove lg it ;;
              match cur it' with
              | E => None
              | N _ k' _ _ _ => Some (it', true, Some (IndexOf cmp k' (root (itree it))))
              end
            else
              '(it', b) <- idown dir it ;;
              if b : bool then than_loop fuel' key lg it'
              else
                '(it'', _) <- (if Bool.eqb dir lg then iup lg it' else Some (it', false)) ;;
                Some (it'', false, match cur it'' with
                                   | E => None
                                   | N _ k' _ _ _ => Some (IndexOf cmp k' (root (itree it)))
                                   end)
        end
    end.

  (** utils.go 289-314: index as a node; going down to nil panics *)
  Fixpoint nodeLoop (i idx : Z) (cur : tree) : option tree :=
    match cur with
    | E => None
    | N _ k v l r =>
        if idx >? i then nodeLoop i (idx - (kidSize true l + 1)) l
        else if idx <? i then nodeLoop i (idx + (kidSize false r + 1)) r
        else Some cur
    end.

  (** iterator.go 3-11: Iterator, with pos *)
  Record xiter := XIT { core : iter; pos : Z }.

  (** iterator.go 88-95: Clone *)
  Definition iclone (it : iter) : iter :=
    let o := inew (itree it) in
    let n := Nat.min (length (stack o)) (length (stack it)) in
    IT (itree it) (cur it) (idx it) (firstn n (stack it) ++ skipn n (stack o)).

  (** iterator.go 62-76 with iterator_hide.go 74-144 *)
  Definition iequal (key : K) (lg : bool) (x : xiter) : option (xiter * bool) :=
    let it := core x in
    match root (itree it) with
    | E => Some (XIT (IT (itree it) E (idx it) (stack it)) (pos x), false)
    | t => '(it', b) <- equal_loop (levels t) key lg (IT (itree it) t (-1) (stack it)) ;;
           Some (XIT it' (IndexOf cmp key t), b)
    end.
  Definition ithan (key : K) (lg : bool) (x : xiter) : option (xiter * bool) :=
    let it := core x in
    match root (itree it) with
    | E => Some (XIT (IT (itree it) E (idx it) (stack it)) (pos x), false)
    | t => '(it', b, p) <- than_loop (levels t) key lg (IT (itree it) t (-1) (stack it)) ;;
           Some (XIT it' (match p with Some i => i | None => pos x end), b)
    end.

  (** iterator.go 34-42: SeekByIndex *)
  Definition ibyIndex (i : Z) (x : xiter) : option xiter :=
    let it := core x in
    let t := root (itree it) in
    if (i <? 0) || (getSize t <=? i) then Some (XIT (IT (itree it) E (idx it) (stack it)) (pos x))
    else n <- nodeLoop i (kidSize false t) t ;; Some (XIT (IT (itree it) n (idx it) (stack it)) i).

  (** One call; [None] is a panic.  iterator.go 18-32: Key, Value, Valid, Index; 78-86: Prev, Next.  Key and Value of an
      iterator that stands nowhere panic, which leaves it as it was. *)
  Definition xi_step (x : xiter) (o : xi_op K) : option (xiter * xi_out K V) :=
    let it := core x in
    match o with
    | XI CFirst => it' <- iend false it ;; Some (XIT it' 0, XO CUnit)
    | XI CLast => it' <- iend true it ;; Some (XIT it' (getSize (root (itree it)) - 1), XO CUnit)
    | XI CNext => it' <- imove true it ;; Some (XIT it' (pos x + 1), XO CUnit)
    | XI CPrev => it' <- imove false it ;; Some (XIT it' (pos x - 1), XO CUnit)
    | XI (CGE k) => '(x', b) <- iequal k true x ;; Some (x', XO (CBool b))
    | XI (CLE k) => '(x', b) <- iequal k false x ;; Some (x', XO (CBool b))
    | XI (CGT k) => '(x', b) <- ithan k true x ;; Some (x', XO (CBool b))
    | XI (CLT k) => '(x', b) <- ithan k false x ;; Some (x', XO (CBool b))
    | XI CValid => Some (x, XO (CBool (negb (is_nil (cur it)))))
    | XI CKey => Some (x, XO match cur it with E => CPanic | N _ k _ _ _ => CK k end)
    | XI CValue => Some (x, XO match cur it with E => CPanic | N _ _ v _ _ => CV v end)
    | XI CClone => Some (XIT (iclone it) (pos x), XO CUnit)
    | XISeek i => x' <- ibyIndex i x ;; Some (x', XO CUnit)
    | XIRank => Some (x, XORank (pos x))
    end.
End Iter.
