(** The iterators of tree/avl and set/treeset on nodes in memory ([AvlHeapModel]): here the tree can be changed while an
    iterator is around, where [AvlIterModel] has a tree that stays as it is.  Line numbers are those of tree/avl/iterator.go
    and iterator_hide.go; in set/treeset the text of iterator_hide.go is the same. *)
From Verif Require Import Base Bind SMapSpec AvlTree AvlHeapModel.
Local Open Scope Z_scope.

Section Iter.
  Context {K V : Type} (cmp : K -> K -> Z).
  Notation ptr := (option nat).
  (** tree/avl/iterator.go 4-16, set/treeset/iterator.go 4-16: Iterator, NodeDir ([true] is direction 1); the field tree is given
      to the functions.  idx is an int8 in Go; it cannot wrap: the stack has at most 127 cells and every increment is followed by
      an access to the stack. *)
  Record hiter := HI { hcur : ptr; hidx : Z; hstack : list (ptr * bool) }.
  (** iterator_hide.go 5-13: newIterator; make panics on a negative length *)
  Definition hnewIterator (t : havl K V) : option hiter :=
    h <- hheight t ;;
    if h <? 0 then None else Some (HI None (-1) (repeat (None, false) (Z.to_nat h))).
  (** reading and writing [iter.stack[i]]: out of range is a panic *)
  Definition hpeek (s : list (ptr * bool)) (i : Z) : option (ptr * bool) :=
    if i <? 0 then None else nth_error s (Z.to_nat i).
  Definition hpoke (s : list (ptr * bool)) (i : Z) (x : ptr * bool) : option (list (ptr * bool)) :=
    if (i <? 0) || (Z.of_nat (length s) <=? i) then None
    else Some (firstn (Z.to_nat i) s ++ x :: skipn (S (Z.to_nat i)) s).
  (** iterator_hide.go 15-39: down *)
  Definition hdown (m : mem K V) (c : bool) (it : hiter) : option (hiter * bool) :=
    match hcur it with
    | None =>
        if -1 <? hidx it then
          '(n, dd) <- hpeek (hstack it) (hidx it) ;;
          if Bool.eqb dd (negb c) then Some (HI n (hidx it - 1) (hstack it), true) else Some (it, false)
        else Some (it, false)
    | Some a =>
        match kid (nodes m a) c with
        | None => Some (it, false)
        | Some b =>
            s <- hpoke (hstack it) (hidx it + 1) (Some a, c) ;;
            Some (HI (Some b) (hidx it + 1) s, true)
        end
    end.
  (** iterator_hide.go 41-69: up.  The loop runs over the local [i], from iter.idx down to -1. *)
  Fixpoint hup_loop (fuel : nat) (c : bool) (it : hiter) (i : Z) : option (hiter * bool) :=
    match fuel with
    | O => None
    | S fuel' =>
        if -1 <? i then
          '(n, dd) <- hpeek (hstack it) i ;;
          if Bool.eqb dd (negb c) then Some (HI n (i - 1) (hstack it), true)
          else hup_loop fuel' c it (i - 1)
        else
          match hcur it with
          | None => Some (it, false)
          | Some _ => s <- hpoke (hstack it) (hidx it + 1) (hcur it, c) ;;
                      Some (HI None (hidx it + 1) s, false)
          end
    end.
  Definition hup (c : bool) (it : hiter) : option (hiter * bool) := hup_loop (S (S (Z.to_nat (hidx it)))) c it (hidx it).
  (** [for iter.down(c) {}]: every round but the first fills one more cell of the stack *)
  Fixpoint hdown_loop (fuel : nat) (m : mem K V) (c : bool) (it : hiter) : option hiter :=
    match fuel with
    | O => None
    | S fuel' => '(it', b) <- hdown m c it ;; if b : bool then hdown_loop fuel' m c it' else Some it'
    end.
  (** the number of steps for the loops, twice that of the nodes in memory *)
  Definition steps (m : mem K V) : nat := (next m + next m)%nat.
  (** iterator_hide.go 125-136: move *)
  Definition hmove (m : mem K V) (c : bool) (it : hiter) : option hiter :=
    '(it', b) <- hdown m c it ;;
    if b : bool then hdown_loop (steps m) m (negb c) it'
    else '(it'', _) <- hup c it' ;; Some it''.
  (** tree/avl/iterator.go 34-51, set/treeset/iterator.go 39-56: SeekToFirst (c = false), SeekToLast (c = true) *)
  Definition hseekToEnd (m : mem K V) (c : bool) (it : hiter) : option hiter :=
    hdown_loop (steps m) m c (HI (getRoot m) (-1) (hstack it)).
  (** iterator_hide.go 72-94 seekEqual and 97-122 seekThan ([strict]); [lg] is LessAndGreater = 1.  What Compare answers is
      converted to an int8, and indexes the children when it is not negative. *)
  Fixpoint hseek_loop (fuel : nat) (m : mem K V) (strict : bool) (key : K) (lg : bool) (it : hiter) : option (hiter * bool) :=
    match fuel with
    | O => None
    | S fuel' =>
        n <- rd m (hcur it) ;;
        let c := cmp (Key n) key in
        if c <? 0 then
          if strict then it' <- hmove m lg it ;; Some (it', true) else Some (it, true)
        else if (i8 c =? 0) || (i8 c =? 1) then
          '(it', b) <- hdown m (i8 c =? 1) it ;;
          if b : bool then hseek_loop fuel' m strict key lg it'
          else if Bool.eqb (i8 c =? 1) lg then '(it'', _) <- hup lg it' ;; Some (it'', false)
          else Some (it', false)
        else None
    end.
  Definition hseek (m : mem K V) (strict : bool) (key : K) (lg : bool) (it : hiter) : option (hiter * bool) :=
    if isNil (getRoot m) then Some (HI None (hidx it) (hstack it), false)
    else hseek_loop (steps m) m strict key lg (HI (getRoot m) (-1) (hstack it)).
  (** tree/avl/iterator.go 84-90: Clone *)
  Definition hclone (t : havl K V) (it : hiter) : option hiter :=
    o <- hnewIterator t ;;
    let n := Nat.min (length (hstack o)) (length (hstack it)) in
    Some (HI (hcur it) (hidx it) (firstn n (hstack it) ++ skipn n (hstack o))).
  (** set/treeset/iterator.go 109-117: Clone; copies cell after cell, up to idx *)
  Fixpoint hcopy_cells (n : nat) (i : Z) (src dst : list (ptr * bool)) : option (list (ptr * bool)) :=
    match n with
    | O => Some dst
    | S n' => x <- hpeek src i ;; dst' <- hpoke dst i x ;; hcopy_cells n' (i + 1) src dst'
    end.
  Definition hclone_used (t : havl K V) (it : hiter) : option hiter :=
    o <- hnewIterator t ;;
    s <- hcopy_cells (Z.to_nat (hidx it + 1)) 0 (hstack it) (hstack o) ;;
    Some (HI (hcur it) (hidx it) s).
  (** One call on an iterator, as in [AvlIterModel.it_step] (tree/avl/iterator.go 18-90, set/treeset/iterator.go 18-117);
      [st] tells the two packages apart, whose Clone is not the same. *)
  Definition hit_step (st : style) (t : havl K V) (it : hiter) (o : cu_op K) : option (hiter * cu_out K V) :=
    let m := memory t in
    match o with
    | CFirst => it' <- hseekToEnd m false it ;; Some (it', CUnit)
    | CLast => it' <- hseekToEnd m true it ;; Some (it', CUnit)
    | CNext => it' <- hmove m true it ;; Some (it', CUnit)
    | CPrev => it' <- hmove m false it ;; Some (it', CUnit)
    | CGE k => '(it', b) <- hseek m false k true it ;; Some (it', CBool b)
    | CGT k => '(it', b) <- hseek m true k true it ;; Some (it', CBool b)
    | CLE k => '(it', b) <- hseek m false k false it ;; Some (it', CBool b)
    | CLT k => '(it', b) <- hseek m true k false it ;; Some (it', CBool b)
    | CValid => Some (it, CBool (negb (isNil (hcur it))))
    | CKey => Some (it, match hcur it with None => CPanic | Some a => CK (Key (nodes m a)) end)
    | CValue => Some (it, match hcur it with None => CPanic | Some a => CV (Value (nodes m a)) end)
    | CClone => it' <- (match st with Both => hclone t it | One => hclone_used t it end) ;; Some (it', CUnit)
    end.
  (** Calls on a tree, on an iterator, and Iterator() (tree/avl/tree.go 154-156, set/treeset/tree.go 195-197), after which the
      caller goes on with the new one. *)
  Inductive wop := WTree (o : sm_op K V) | WIter | WCall (c : cu_op K).
  Inductive wout := WT (r : sm_out K V) | WU | WC (r : cu_out K V).
  Definition wstep (st : style) (d : Z) (zero : V) (w : havl K V * option hiter) (o : wop) : option ((havl K V * option hiter) * wout) :=
    let '(t, it) := w in
    match o with
    | WTree o => '(t', r) <- hstep cmp st d zero t o ;; Some ((t', it), WT r)
    | WIter => it' <- hnewIterator t ;; Some ((t, Some it'), WU)
    | WCall c => match it with None => None | Some i => '(i', r) <- hit_step st t i c ;; Some ((t, Some i'), WC r) end
    end.
End Iter.
Arguments wop K V : clear implicits.
Arguments wout K V : clear implicits.
