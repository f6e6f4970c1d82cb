(** Iterators of tree/avl, tree/avls and set/treeset on a tree that is not modified meanwhile.  A node pointer is modelled
    by the subtree below it ([E] is nil): the iterator only reads nodes.  Line numbers: tree/avl/iterator.go and
    iterator_hide.go; set/treeset/iterator_hide.go is the same text, tree/avls/iterator_hide.go differs in the seeks. *)
From Verif Require Import Base Bind SMapSpec AvlTree AvlModel.
Local Open Scope Z_scope.

Section Iter.
  Context {K V : Type} (cmp : K -> K -> Z).
  Notation tree := (tree K V).

  (** tree/avl/iterator.go 4-16, tree/avls/iterator.go 4-16, set/treeset/iterator.go 4-16: Iterator, NodeDir ([true] is direction 1).  idx is an int8 in Go; it cannot wrap: the
      stack has at most 127 cells and every increment is followed by an access to the stack. *)
  Record iter := IT { itree : avl K V; cur : tree; idx : Z; stack : list (tree * bool) }.

  (** tree/avl/iterator_hide.go 5-13, tree/avls/iterator_hide.go 5-13: newIterator; make panics on a negative length *)
  Definition newIterator (t : avl K V) : option iter :=
    h <- height t ;;
    if h <? 0 then None else Some (IT t E (-1) (repeat (E, false) (Z.to_nat h))).

  (** reading and writing [iter.stack[i]]: out of range is a panic *)
  Definition peek (s : list (tree * bool)) (i : Z) : option (tree * bool) :=
    if i <? 0 then None else nth_error s (Z.to_nat i).
  Definition poke (s : list (tree * bool)) (i : Z) (x : tree * bool) : option (list (tree * bool)) :=
    if (i <? 0) || (Z.of_nat (length s) <=? i) then None
    else Some (firstn (Z.to_nat i) s ++ x :: skipn (S (Z.to_nat i)) s).

  (** tree/avl/iterator_hide.go 15-39, tree/avls/iterator_hide.go 15-39: down *)
  Definition down (c : bool) (it : iter) : option (iter * bool) :=
    match cur it with
    | E =>
        if -1 <? idx it then
          '(n, dd) <- peek (stack it) (idx it) ;;
          if Bool.eqb dd (negb c) then Some (IT (itree it) n (idx it - 1) (stack it), true) else Some (it, false)
        else Some (it, false)
    | N _ _ _ l r =>
        match child c l r with
        | E => Some (it, false)
        | sub =>
            s <- poke (stack it) (idx it + 1) (cur it, c) ;;
            Some (IT (itree it) sub (idx it + 1) s, true)
        end
    end.

  (** tree/avl/iterator_hide.go 41-69, tree/avls/iterator_hide.go 41-69: up.  The loop runs over the local [i], from
      iter.idx down to -1. *)
  Fixpoint up_loop (fuel : nat) (c : bool) (it : iter) (i : Z) : option (iter * bool) :=
    match fuel with
    | O => None
    | S fuel' =>
        if -1 <? i then
          '(n, dd) <- peek (stack it) i ;;
          if Bool.eqb dd (negb c) then Some (IT (itree it) n (i - 1) (stack it), true)
          else up_loop fuel' c it (i - 1)
        else
          match cur it with
          | E => Some (it, false)
          | _ => s <- poke (stack it) (idx it + 1) (cur it, c) ;;
                 Some (IT (itree it) E (idx it + 1) s, false)
          end
    end.
  Definition up (c : bool) (it : iter) : option (iter * bool) := up_loop (S (S (Z.to_nat (idx it)))) c it (idx it).

  (** [for iter.down(c) {}]: one more round than the tree has levels is never used up *)
  Fixpoint down_loop (fuel : nat) (c : bool) (it : iter) : option iter :=
    match fuel with
    | O => None
    | S fuel' => '(it', b) <- down c it ;; if b : bool then down_loop fuel' c it' else Some it'
    end.
  Fixpoint levels (t : tree) : nat := match t with E => 1%nat | N _ _ _ l r => S (levels l + levels r) end.

  (** tree/avl/iterator_hide.go 125-136, tree/avls/iterator_hide.go 163-174: move *)
  Definition move (c : bool) (it : iter) : option iter :=
    '(it', b) <- down c it ;;
    if b : bool then down_loop (levels (root (itree it))) (negb c) it'
    else '(it'', _) <- up c it' ;; Some it''.

  (** tree/avl/iterator.go 34-51, tree/avls/iterator.go 34-51, set/treeset/iterator.go 39-56: SeekToFirst (c = false), SeekToLast (c = true) *)
  Definition seekToEnd (c : bool) (it : iter) : option iter :=
    down_loop (levels (root (itree it))) c (IT (itree it) (root (itree it)) (-1) (stack it)).

  (** tree/avl/iterator_hide.go 72-94 seekEqual and 97-122 seekThan ([strict]); [lg] is LessAndGreater = 1.
      [iter.tree.Compare(iter.cur.Key, key)] with a nil cur would panic. *)
  Fixpoint seek_loop (fuel : nat) (strict : bool) (key : K) (lg : bool) (it : iter) : option (iter * bool) :=
    match fuel with
    | O => None
    | S fuel' =>
        match cur it with
        | E => None
        | N _ k _ _ _ =>
            let c := cmp k key in
            if c <? 0 then
              if strict then it' <- move lg it ;; Some (it', true) else Some (it, true)
            else
              '(it', b) <- down (c =? 1) it ;;
              if b : bool then seek_loop fuel' strict key lg it'
              else if Bool.eqb (c =? 1) lg then '(it'', _) <- up lg it' ;; Some (it'', false)
              else Some (it', false)
        end
    end.
  Definition seek (strict : bool) (key : K) (lg : bool) (it : iter) : option (iter * bool) :=
    match root (itree it) with
    | E => Some (IT (itree it) E (idx it) (stack it), false)
    | t => seek_loop (levels t) strict key lg (IT (itree it) t (-1) (stack it))
    end.

  (** tree/avl/iterator.go 84-90, tree/avls/iterator.go 84-90: Clone *)
  Definition clone (it : iter) : option iter :=
    o <- newIterator (itree it) ;;
    let n := Nat.min (length (stack o)) (length (stack it)) in
    Some (IT (itree it) (cur it) (idx it) (firstn n (stack it) ++ skipn n (stack o))).
  (** set/treeset/iterator.go 109-117: Clone; copies cell after cell, up to idx *)
  Fixpoint copy_cells (n : nat) (i : Z) (src dst : list (tree * bool)) : option (list (tree * bool)) :=
    match n with
    | O => Some dst
    | S n' => x <- peek src i ;; dst' <- poke dst i x ;; copy_cells n' (i + 1) src dst'
    end.
  Definition clone_used (it : iter) : option iter :=
    o <- newIterator (itree it) ;;
    s <- copy_cells (Z.to_nat (idx it + 1)) 0 (stack it) (stack o) ;;
    Some (IT (itree it) (cur it) (idx it) s).

  (** One call on an iterator of tree/avl ([full]) or set/treeset, where the seeks that report a boolean are
      SeekGEExact etc. (iterator.go 63-96).  The caller goes on with the clone after [CClone].  [CKey]/[CValue] on a nil
      cur panic (tree/avl/iterator.go 18-26); that is an observable answer and leaves the iterator as it was. *)
  Definition it_step (full : bool) (it : iter) (o : cu_op K) : option (iter * cu_out K V) :=
    match o with
    | CFirst => it' <- seekToEnd false it ;; Some (it', CUnit)
    | CLast => it' <- seekToEnd true it ;; Some (it', CUnit)
    | CNext => it' <- move true it ;; Some (it', CUnit)
    | CPrev => it' <- move false it ;; Some (it', CUnit)
    | CGE k => '(it', b) <- seek false k true it ;; Some (it', CBool b)
    | CGT k => '(it', b) <- seek true k true it ;; Some (it', CBool b)
    | CLE k => '(it', b) <- seek false k false it ;; Some (it', CBool b)
    | CLT k => '(it', b) <- seek true k false it ;; Some (it', CBool b)
    | CValid => Some (it, CBool (negb (is_nil (cur it))))
    | CKey => Some (it, match cur it with E => CPanic | N _ k _ _ _ => CK k end)
    | CValue => Some (it, match cur it with E => CPanic | N _ _ v _ _ => CV v end)
    | CClone => it' <- (if full then clone it else clone_used it) ;; Some (it', CUnit)
    end.
  (** ** tree/avls: seeks that pass over runs of equal keys *)
  (** tree/avls/iterator_hide.go 96-151: the loop of seekBound.  [t] is the local cur, [stk] iter.stack, [pathIdx] the local;
      [cand] = (candidate, candidateIdx, candidateStack). *)
  Fixpoint bound_loop (strict : bool) (key : K) (lg : bool) (t : tree) (stk : list (tree * bool)) (pathIdx : Z)
      (cand : tree * Z * list (tree * bool)) (exact : bool)
      : option (list (tree * bool) * (tree * Z * list (tree * bool)) * bool) :=
    match t with
    | E => Some (stk, cand, exact)
    | N _ k _ l r =>
        let c := cmp k key in
        let '(sat, dir, ex) :=
          if lg then
            if c =? 0 then (true, false, exact)
            else if c <? 0 then if strict then (false, true, true) else (true, false, true)
            else (false, true, exact)
          else
            if c =? 1 then (true, true, exact)
            else if c <? 0 then if strict then (false, false, true) else (true, true, true)
            else (false, false, exact) in
        let cand' := if sat : bool then (t, pathIdx, firstn (length (snd cand)) stk ++ skipn (length stk) (snd cand)) else cand in
        match child dir l r with
        | E => Some (stk, cand', ex)
        | _ =>
            stk' <- poke stk (pathIdx + 1) (t, dir) ;;
            if dir then bound_loop strict key lg r stk' (pathIdx + 1) cand' ex
            else bound_loop strict key lg l stk' (pathIdx + 1) cand' ex
        end
    end.
  (** tree/avls/iterator_hide.go 72-160: seekEqual, seekThan, seekBound *)
  Definition seekBound (strict : bool) (key : K) (lg : bool) (it : iter) : option (iter * bool) :=
    match root (itree it) with
    | E => Some (IT (itree it) E (-1) (stack it), false)
    | t =>
        '(stk, (c, ci, cs), ex) <-
          bound_loop strict key lg t (stack it) (-1) (E, -1, repeat (E, false) (length (stack it))) false ;;
        Some (IT (itree it) c ci (match c with E => stk | _ => firstn (length stk) cs ++ skipn (length cs) stk end), ex)
    end.
  (** One call on an iterator of tree/avls. *)
  Definition its_step (it : iter) (o : cu_op K) : option (iter * cu_out K V) :=
    match o with
    | CGE k => '(it', b) <- seekBound false k true it ;; Some (it', CBool b)
    | CGT k => '(it', b) <- seekBound true k true it ;; Some (it', CBool b)
    | CLE k => '(it', b) <- seekBound false k false it ;; Some (it', CBool b)
    | CLT k => '(it', b) <- seekBound true k false it ;; Some (it', CBool b)
    | _ => it_step true it o
    end.
End Iter.
Arguments iter K V : clear implicits.
