(** Model of list/linked_list: linked_list.go, iterator.go, circular_iterator.go on an explicit heap of nodes.
    Not modelled: String (linked_list.go:253-255) and the deprecated spelling Vaild, which is Valid.
    The size field (uint) is a natural number: it is only decremented where it is positive or just before a panic. *)
From Verif Require Import Base Bind Machine DLL LinkedListSpec.

Section LL.
  Context {A : Type} (zero : A).

  (** linked_list.go:25-30; the comparator is an argument of [contains] *)
  Record llist := LL { hp : heap A; head : ptr; tail : ptr; size : nat }.
  Definition zero_node : node A := mk None None zero.
  Definition with_heap (l : llist) (h : heap A) : llist := LL h (head l) (tail l) (size l).

  (** linked_list.go:33-44 *)
  Definition new : option llist :=
    let '(h0, hd) := alloc [] zero_node in
    h1 <- set_prev h0 hd None ;;
    let '(h2, tl) := alloc h1 zero_node in
    h3 <- set_next h2 tl None ;;
    h4 <- set_next h3 hd tl ;;
    h5 <- set_prev h4 tl hd ;;
    Some (LL h5 hd tl 0).

  (** linked_list.go:59-65 *)
  Definition clear (l : llist) : option llist :=
    h1 <- set_next (hp l) (head l) (tail l) ;;
    h2 <- set_prev h1 (tail l) (head l) ;;
    Some (LL h2 (head l) (tail l) 0).
  (** linked_list.go:68-70 *)
  Definition empty (l : llist) : bool := size l =? 0.

  (** linked_list.go:82-90 = 117-125: link one value before the tail sentinel *)
  Definition link_back (l : llist) (v : A) (h : heap A) : option (heap A) :=
    let '(h1, nd) := alloc h (mk None None v) in
    tprev <- get_prev h1 (tail l) ;;
    h2 <- set_next h1 tprev nd ;;
    h3 <- set_prev h2 nd tprev ;;
    h4 <- set_next h3 nd (tail l) ;;
    set_prev h4 (tail l) nd.
  (** linked_list.go:99-107: link one value after the head sentinel *)
  Definition link_front (l : llist) (v : A) (h : heap A) : option (heap A) :=
    let '(h1, nd) := alloc h (mk None None v) in
    hnext <- get_next h1 (head l) ;;
    h2 <- set_prev h1 hnext nd ;;
    h3 <- set_next h2 nd hnext ;;
    h4 <- set_prev h3 nd (head l) ;;
    set_next h4 (head l) nd.
  Fixpoint each (f : A -> heap A -> option (heap A)) (vs : list A) (h : heap A) : option (heap A) :=
    match vs with [] => Some h | v :: vs' => h' <- f v h ;; each f vs' h' end.
  (** linked_list.go:78-91 *)
  Definition push (l : llist) (v : A) : option llist :=
    h <- link_back l v (hp l) ;; Some (LL h (head l) (tail l) (size l + 1)).
  (** linked_list.go:94-109 *)
  Definition pushFront (l : llist) (vs : list A) : option llist :=
    h <- each (link_front l) vs (hp l) ;; Some (LL h (head l) (tail l) (size l + length vs)).
  (** linked_list.go:112-127 *)
  Definition pushBack (l : llist) (vs : list A) : option llist :=
    h <- each (link_back l) vs (hp l) ;; Some (LL h (head l) (tail l) (size l + length vs)).

  (** linked_list.go:130-145; (zero, false) is [None] *)
  Definition popFront (l : llist) : option (llist * option A) :=
    if negb (size l =? 0) then
      temp <- get_next (hp l) (head l) ;;
      hnext <- get_next (hp l) temp ;;
      h1 <- set_prev (hp l) hnext (head l) ;;
      h2 <- set_next h1 (head l) hnext ;;
      nd <- deref h2 temp ;;
      Some (LL h2 (head l) (tail l) (size l - 1), Some (nval nd))
    else Some (l, None).
  (** linked_list.go:148-163 *)
  Definition popBack (l : llist) : option (llist * option A) :=
    if negb (size l =? 0) then
      temp <- get_prev (hp l) (tail l) ;;
      tprev <- get_prev (hp l) temp ;;
      h1 <- set_next (hp l) tprev (tail l) ;;
      h2 <- set_prev h1 (tail l) tprev ;;
      nd <- deref h2 temp ;;
      Some (LL h2 (head l) (tail l) (size l - 1), Some (nval nd))
    else Some (l, None).
  (** linked_list.go:166-172 *)
  Definition front (l : llist) : option (option A) :=
    if negb (size l =? 0) then
      p <- get_next (hp l) (head l) ;; nd <- deref (hp l) p ;; Some (Some (nval nd))
    else Some None.
  (** linked_list.go:175-181 *)
  Definition back (l : llist) : option (option A) :=
    if negb (size l =? 0) then
      p <- get_prev (hp l) (tail l) ;; nd <- deref (hp l) p ;; Some (Some (nval nd))
    else Some None.

  (** the loops of linked_list.go:200-205 and 209-214; [n] is the remaining uidx *)
  Fixpoint walk_back (h : heap A) (hd c : ptr) (n : nat) : option (option A) :=
    if ptr_eqb c hd then Some None
    else nd <- deref h c ;;
         match n with 0 => Some (Some (nval nd)) | S n' => walk_back h hd (nprev nd) n' end.
  Fixpoint walk_fwd (h : heap A) (tl c : ptr) (n : nat) : option (option A) :=
    if ptr_eqb c tl then Some None
    else nd <- deref h c ;;
         match n with 0 => Some (Some (nval nd)) | S n' => walk_fwd h tl (nnext nd) n' end.
  (** linked_list.go:184-219 *)
  Definition index (l : llist) (idx : Z) : option (option A) :=
    if (idx <? 0)%Z then Some None
    else
      let uidx := Z.to_nat idx in
      if size l <=? uidx then Some None
      else if size l / 2 <? uidx then
        c <- get_prev (hp l) (tail l) ;; walk_back (hp l) (head l) c (size l - 1 - uidx)
      else
        c <- get_next (hp l) (head l) ;; walk_fwd (hp l) (tail l) c uidx.

  (** linked_list.go:221-228 *)
  Definition remove (h : heap A) (c : ptr) : option (heap A) :=
    curPrev <- get_prev h c ;;
    curNext <- get_next h c ;;
    h1 <- set_next h curPrev curNext ;;
    h2 <- set_prev h1 curNext curPrev ;;
    h3 <- set_prev h2 c None ;;
    set_next h3 c None.

  (** linked_list.go:258-264: the values given to the callback, up to the first false.  [fuel] bounds the number of
      nodes visited; callers give the number of nodes ever allocated. *)
  Fixpoint traverse_from (f : A -> bool) (fuel : nat) (h : heap A) (c tl : ptr) : option (list A) :=
    if ptr_eqb c tl then Some []
    else match fuel with
         | 0 => None
         | S fuel' =>
             nd <- deref h c ;;
             if f (nval nd) then rest <- traverse_from f fuel' h (nnext nd) tl ;; Some (nval nd :: rest)
             else Some [nval nd]
         end.
  Definition traverse (l : llist) (f : A -> bool) : option (list A) :=
    c <- get_next (hp l) (head l) ;; traverse_from f (length (hp l)) (hp l) c (tail l).
  (** linked_list.go:244-250 *)
  Definition values (l : llist) : option (list A) := traverse l (fun _ => true).
  (** linked_list.go:231-241: the same walk, then the inner loop over the searched values *)
  Definition contains (comp : A -> A -> Z) (l : llist) (vs : list A) : option nat :=
    els <- traverse l (fun _ => true) ;;
    Some (fold_left (fun count x => fold_left (fun c v => if (comp x v =? -1)%Z then c + 1 else c) vs count) els 0).

  (** ** Iterators.  An iterator is its node pointer (iterator.go:4-7, circular_iterator.go:3-6). *)
  (** linked_list.go:47-49, 54-56; ToHead iterator.go:200-202, circular_iterator.go:75-77 *)
  Definition it_first (l : llist) : option ptr := get_next (hp l) (head l).
  (** ToTail iterator.go:205-207, circular_iterator.go:80-82 *)
  Definition it_last (l : llist) : option ptr := get_prev (hp l) (tail l).

  (** iterator.go:20-25 = 47-52 (and circular_iterator.go:179-184 = 206-211): append nodes to the new piece *)
  Fixpoint build (vs : list A) (h : heap A) (e : ptr) : option (heap A * ptr) :=
    match vs with
    | [] => Some (h, e)
    | v :: vs' =>
        let '(h1, nd) := alloc h (mk None None v) in
        h2 <- set_next h1 e nd ;;
        h3 <- set_prev h2 nd e ;;
        build vs' h3 nd
    end.
  (** iterator.go:10-34 = circular_iterator.go:169-193 *)
  Definition insertBefore (l : llist) (c : ptr) (vs : list A) : option llist :=
    match vs with
    | [] => None                                                      (* values[0] *)
    | v :: vs' =>
        let '(h1, start) := alloc (hp l) (mk None None v) in
        '(h2, e) <- build vs' h1 start ;;
        cprev <- get_prev h2 c ;;
        h3 <- set_next h2 cprev start ;;
        h4 <- set_prev h3 start cprev ;;
        h5 <- set_next h4 e c ;;
        h6 <- set_prev h5 c e ;;
        Some (LL h6 (head l) (tail l) (size l + length vs))
    end.
  (** iterator.go:37-61 = circular_iterator.go:196-220 *)
  Definition insertAfter (l : llist) (c : ptr) (vs : list A) : option llist :=
    match vs with
    | [] => None
    | v :: vs' =>
        let '(h1, start) := alloc (hp l) (mk None None v) in
        '(h2, e) <- build vs' h1 start ;;
        cnext <- get_next h2 c ;;
        h3 <- set_next h2 c start ;;
        h4 <- set_prev h3 start c ;;
        h5 <- set_next h4 e cnext ;;
        h6 <- set_prev h5 cnext e ;;
        Some (LL h6 (head l) (tail l) (size l + length vs))
    end.
  (** iterator.go:64-86 = circular_iterator.go:118-140 *)
  Definition moveBefore (l : llist) (c m : ptr) : option llist :=
    if ptr_eqb c m then Some l
    else
      mprev <- get_prev (hp l) m ;;
      if ptr_eqb mprev c then Some l
      else
        cprev <- get_prev (hp l) c ;;
        cnext <- get_next (hp l) c ;;
        h1 <- set_next (hp l) cprev cnext ;;
        h2 <- set_prev h1 cnext cprev ;;
        h3 <- set_next h2 mprev c ;;
        h4 <- set_prev h3 c mprev ;;
        h5 <- set_prev h4 m c ;;
        h6 <- set_next h5 c m ;;
        Some (with_heap l h6).
  (** iterator.go:89-112 = circular_iterator.go:143-166 *)
  Definition moveAfter (l : llist) (c m : ptr) : option llist :=
    if ptr_eqb c m then Some l
    else
      mnext <- get_next (hp l) m ;;
      if ptr_eqb mnext c then Some l
      else
        cprev <- get_prev (hp l) c ;;
        cnext <- get_next (hp l) c ;;
        h1 <- set_next (hp l) cprev cnext ;;
        h2 <- set_prev h1 cnext cprev ;;
        h3 <- set_prev h2 mnext c ;;
        h4 <- set_next h3 c mnext ;;
        h5 <- set_next h4 m c ;;
        h6 <- set_prev h5 c m ;;
        Some (with_heap l h6).
  (** iterator.go:115-120; circular_iterator.go:223-234 *)
  Definition removeToNext (circ : bool) (l : llist) (c : ptr) : option (llist * ptr) :=
    temp <- get_next (hp l) c ;;
    h1 <- remove (hp l) c ;;
    c' <- (if circ && ptr_eqb temp (tail l) then get_next h1 (head l) else Some temp) ;;
    Some (LL h1 (head l) (tail l) (size l - 1), c').
  (** iterator.go:123-128; circular_iterator.go:237-248 *)
  Definition removeToPrev (circ : bool) (l : llist) (c : ptr) : option (llist * ptr) :=
    temp <- get_prev (hp l) c ;;
    h1 <- remove (hp l) c ;;
    c' <- (if circ && ptr_eqb temp (head l) then get_prev h1 (tail l) else Some temp) ;;
    Some (LL h1 (head l) (tail l) (size l - 1), c').
  (** iterator.go:131-133 = circular_iterator.go:8-10 (both right-hand sides are read first) *)
  Definition swap (l : llist) (c o : ptr) : option llist :=
    nc <- deref (hp l) c ;;
    no <- deref (hp l) o ;;
    h1 <- set_val (hp l) c (nval no) ;;
    h2 <- set_val h1 o (nval nc) ;;
    Some (with_heap l h2).
  (** iterator.go:136-138 = circular_iterator.go:13-15 *)
  Definition setValue (l : llist) (c : ptr) (v : A) : option llist :=
    h1 <- set_val (hp l) c v ;; Some (with_heap l h1).
  (** iterator.go:141-143 = circular_iterator.go:18-20 *)
  Definition value (l : llist) (c : ptr) : option A := nd <- deref (hp l) c ;; Some (nval nd).
  (** iterator.go:147-157 = circular_iterator.go:24-34 *)
  Definition valid (l : llist) (c : ptr) : bool := negb (ptr_eqb c (head l) || ptr_eqb c (tail l)).

  (** iterator.go:195-197, 190-192 *)
  Definition next (l : llist) (c : ptr) : option ptr := get_next (hp l) c.
  Definition prev (l : llist) (c : ptr) : option ptr := get_prev (hp l) c.
  (** circular_iterator.go:56-72 *)
  Definition circ_next (l : llist) (c : ptr) : option ptr :=
    if size l =? 0 then Some c
    else if ptr_eqb c (tail l) then get_next (hp l) (head l)
    else c' <- get_next (hp l) c ;; if ptr_eqb c' (tail l) then get_next (hp l) (head l) else Some c'.
  (** circular_iterator.go:37-53 *)
  Definition circ_prev (l : llist) (c : ptr) : option ptr :=
    if size l =? 0 then Some c
    else if ptr_eqb c (head l) then get_prev (hp l) (tail l)
    else c' <- get_prev (hp l) c ;; if ptr_eqb c' (head l) then get_prev (hp l) (tail l) else Some c'.

  (** the loops of iterator.go:167-172 and 178-183 *)
  Fixpoint fwd_loop (l : llist) (n : nat) (c : ptr) : option ptr :=
    match n with
    | 0 => Some c
    | S n' => c' <- get_next (hp l) c ;; if ptr_eqb c' (tail l) then Some c' else fwd_loop l n' c'
    end.
  Fixpoint bwd_loop (l : llist) (n : nat) (c : ptr) : option ptr :=
    match n with
    | 0 => Some c
    | S n' => c' <- get_prev (hp l) c ;; if ptr_eqb c' (head l) then Some c' else bwd_loop l n' c'
    end.
  (** iterator.go:160-187 *)
  Definition move (l : llist) (c : ptr) (step : Z) : option ptr :=
    if (0 <? step)%Z then if ptr_eqb c (tail l) then Some c else fwd_loop l (Z.to_nat step) c
    else if ptr_eqb c (head l) then Some c else bwd_loop l (Z.to_nat (- step)) c.
  (** the loops of circular_iterator.go:95-101 and 107-112 *)
  Fixpoint circ_fwd (l : llist) (n : nat) (c : ptr) : option ptr :=
    match n with
    | 0 => Some c
    | S n' => c' <- get_next (hp l) c ;;
              c'' <- (if ptr_eqb c' (tail l) then get_next (hp l) (head l) else Some c') ;;
              circ_fwd l n' c''
    end.
  Fixpoint circ_bwd (l : llist) (n : nat) (c : ptr) : option ptr :=
    match n with
    | 0 => Some c
    | S n' => c' <- get_prev (hp l) c ;;
              c'' <- (if ptr_eqb c' (head l) then get_prev (hp l) (tail l) else Some c') ;;
              circ_bwd l n' c''
    end.
  (** circular_iterator.go:85-115 *)
  Definition circ_move (l : llist) (c : ptr) (step : Z) : option ptr :=
    if size l =? 0 then Some c
    else if (0 <? step)%Z then
      c1 <- (if ptr_eqb c (tail l) then get_next (hp l) (head l) else Some c) ;;
      circ_fwd l (Z.to_nat step) c1
    else
      c1 <- (if ptr_eqb c (head l) then get_prev (hp l) (tail l) else Some c) ;;
      circ_bwd l (Z.to_nat (- step)) c1.

  (** dispatch of list operations *)
  Definition step (l : llist) (o : ll_op A) : option (llist * ll_out A) :=
    match o with
    | LPush v => l' <- push l v ;; Some (l', LUnit)
    | LPushFront vs => l' <- pushFront l vs ;; Some (l', LUnit)
    | LPushBack vs => l' <- pushBack l vs ;; Some (l', LUnit)
    | LPopFront => '(l', r) <- popFront l ;; Some (l', LVal r)
    | LPopBack => '(l', r) <- popBack l ;; Some (l', LVal r)
    | LFront => r <- front l ;; Some (l, LVal r)
    | LBack => r <- back l ;; Some (l, LVal r)
    | LIndex i => r <- index l i ;; Some (l, LVal r)
    | LClear => l' <- clear l ;; Some (l', LUnit)
    | LEmpty => Some (l, LBool (empty l))
    | LSize => Some (l, LNat (size l))
    | LValues => r <- values l ;; Some (l, LList r)
    | LTraverse f => r <- traverse l f ;; Some (l, LList r)
    end.

  (** the list together with any number of iterators *)
  Record sys := SYS { lst : llist; its : nat -> ptr }.
  Definition set_it (s : sys) (i : nat) (c : ptr) : sys := SYS (lst s) (fun j => if j =? i then c else its s j).
  (** dispatch *)
  Definition iter_act (s : sys) (i : nat) (circ : bool) (a : it_act A) : option (sys * ll_out A) :=
    let l := lst s in
    let c := its s i in
    let pos (x : option ptr) := c' <- x ;; Some (set_it s i c', LUnit) in
    let upd (x : option llist) := l' <- x ;; Some (SYS l' (its s), LUnit) in
    let both (x : option (llist * ptr)) := '(l', c') <- x ;; Some (set_it (SYS l' (its s)) i c', LUnit) in
    match a with
    | INew | IToHead => pos (it_first l)
    | IToTail => pos (it_last l)
    | INext => pos (if circ then circ_next l c else next l c)
    | IPrev => pos (if circ then circ_prev l c else prev l c)
    | IValid => Some (s, LBool (valid l c))
    | IValue => v <- value l c ;; Some (s, LVal (Some v))
    | ISetValue v => upd (setValue l c v)
    | ISwap j => upd (swap l c (its s j))
    | IMove z => pos (if circ then circ_move l c z else move l c z)
    | IMoveBefore j => upd (moveBefore l c (its s j))
    | IMoveAfter j => upd (moveAfter l c (its s j))
    | IInsertBefore vs => upd (insertBefore l c vs)
    | IInsertAfter vs => upd (insertAfter l c vs)
    | IRemoveToNext => both (removeToNext circ l c)
    | IRemoveToPrev => both (removeToPrev circ l c)
    end.
  Definition sys_step (s : sys) (o : c_op A) : option (sys * ll_out A) :=
    match o with
    | OnList o' => '(l', r) <- step (lst s) o' ;; Some (SYS l' (its s), r)
    | OnIter i circ a => iter_act s i circ a
    end.
  (** a new list; every iterator variable starts as one made on the empty list *)
  Definition sys_new : option sys := l <- new ;; c <- it_first l ;; Some (SYS l (fun _ => c)).
End LL.
