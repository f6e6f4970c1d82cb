(** tree/skiplist/skiplist.go: skip lists.

    A list has its own memory of nodes: an address is a number, a pointer is [option nat], [None] being nil; nodes are
    appended and never freed, so an iterator keeps its node after a removal.  A nil pointer followed, or a Forward cell that
    a node does not have, is a panic; so is, here, a loop that has visited more nodes than there are (it would not end).
    Both are [None].  rand.Intn: every insertion takes the number of coin flips that came up 0.  The locks are the subject
    of SkipConc.v.  int and int64 are unbounded. *)
From Verif Require Import Base Bind SkipSpec.
Local Open Scope Z_scope.

Section Skip.
  Context {K V : Type} (cmp : K -> K -> Z).

  (** skiplist.go 10-14: Node; the header has no entry (its zero key and value are never read) *)
  Record node := Nd { kv : option (K * V); fwd : list (option nat) }.
  (** skiplist.go 27-34: SkipList, with its nodes *)
  Record skiplist := SL { mem : list node; header : nat; level : nat; size : Z; maxLevel : nat }.
  (** skiplist.go 36-38 *)
  Definition MaxLevel : nat := 16.

  (** a.Forward[i]; a.Forward[i] = p; a.Key and a.Value; a.Value = v; p.Forward[i] for a pointer *)
  Definition getf (m : list node) (a i : nat) : option (option nat) := n <- nth_error m a ;; nth_error (fwd n) i.
  Definition setf (m : list node) (a i : nat) (p : option nat) : option (list node) :=
    n <- nth_error m a ;;
    if (i <? length (fwd n))%nat then Some (list_set m a (Nd (kv n) (list_set (fwd n) i p))) else None.
  Definition entry (m : list node) (a : nat) : option (K * V) := n <- nth_error m a ;; kv n.
  Definition setv (m : list node) (a : nat) (v : V) : option (list node) :=
    n <- nth_error m a ;; e <- kv n ;; Some (list_set m a (Nd (Some (fst e, v)) (fwd n))).
  Definition next (m : list node) (p : option nat) (i : nat) : option (option nat) := a <- p ;; getf m a i.
  Definition peqb (p q : option nat) : bool :=
    match p, q with None, None => true | Some a, Some b => (a =? b)%nat | _, _ => false end.
  (** enough rounds for any loop over the nodes *)
  Definition fuel (m : list node) : nat := S (length m).

  (** skiplist.go 40-51 (New), 882-896 (NewWithMaxLevel) *)
  Definition NewWithMaxLevel (l : Z) : skiplist :=
    SL [Nd None (repeat None MaxLevel)] 0 1 0 (if (l <? 1) || (16 <? l) then MaxLevel else Z.to_nat l).
  Definition New : skiplist := NewWithMaxLevel 16.

  (** skiplist.go 53-59: randomLevel, after [r] flips of 0 *)
  Definition randomLevel (s : skiplist) (r : nat) : nat := Nat.min (1 + r) (maxLevel s).

  (** The inner loops, e.g. skiplist.go 72-74: go along level [i] as long as [go] says so of the next node *)
  Fixpoint advance (fuel : nat) (go : nat -> K -> bool) (m : list node) (i cur : nat) : option nat :=
    match fuel with
    | O => None
    | S f =>
        p <- getf m cur i ;;
        match p with
        | None => Some cur
        | Some b => e <- entry m b ;; if go b (fst e) then advance f go m i b else Some cur
        end
    end.
  (** The loops over the levels, e.g. skiplist.go 69-76: from [n - 1] down to 0, going on from the node reached.  Gives the
      last node and update[0 .. n-1]. *)
  Fixpoint descend (go : nat -> K -> bool) (m : list node) (n cur : nat) : option (nat * list nat) :=
    match n with
    | O => Some (cur, [])
    | S i => c <- advance (fuel m) go m i cur ;; '(c', us) <- descend go m i c ;; Some (c', us ++ [c])
    end.
  (** the same, starting at the header on every level: skiplist.go 475-481, 585-591 *)
  Fixpoint restart (go : nat -> K -> bool) (m : list node) (n hdr : nat) : option (list nat) :=
    match n with
    | O => Some []
    | S i => c <- advance (fuel m) go m i hdr ;; us <- restart go m i hdr ;; Some (us ++ [c])
    end.
  (** update[i]: the header above the levels in use (skiplist.go 65-68) *)
  Definition update (s : skiplist) (us : list nat) (i : nat) : nat := nth i us (header s).
  Definition below (k : K) (_ : nat) (k' : K) : bool := cmp k' k <? 0.
  Definition notAbove (k : K) (_ : nat) (k' : K) : bool := cmp k' k <=? 0.

  (** skiplist.go 101-104: link the new node on the levels from [i] on, [n] of them *)
  Fixpoint link (upd : nat -> nat) (new : nat) (n i : nat) (m : list node) : option (list node) :=
    match n with
    | O => Some m
    | S n' =>
        p <- getf m (upd i) i ;; m <- setf m new i p ;; m <- setf m (upd i) i (Some new) ;; link upd new n' (i + 1) m
    end.
  (** skiplist.go 151-155: unlink [cur] on the levels from [i] on, [n] of them *)
  Fixpoint unlink (upd : nat -> nat) (cur n i : nat) (m : list node) : option (list node) :=
    match n with
    | O => Some m
    | S n' =>
        p <- getf m (upd i) i ;;
        if peqb p (Some cur) then q <- getf m cur i ;; m <- setf m (upd i) i q ;; unlink upd cur n' (i + 1) m
        else unlink upd cur n' (i + 1) m
    end.
  (** skiplist.go 157-159: drop empty levels *)
  Fixpoint shrink (m : list node) (hdr lv : nat) : option nat :=
    match lv with
    | S (S _ as l1) => p <- getf m hdr l1 ;; match p with None => shrink m hdr l1 | Some _ => Some lv end
    | _ => Some lv
    end.

  (** skiplist.go 83-106 (and 530-553, 730-753): insert a new node *)
  Definition insert (s : skiplist) (us : list nat) (k : K) (v : V) (r : nat) : option skiplist :=
    let newLevel := randomLevel s r in
    let lv := if (level s <=? newLevel)%nat then (newLevel + 1)%nat else level s in
    let lv := if (maxLevel s <? lv)%nat then maxLevel s else lv in
    let new := length (mem s) in
    m <- link (update s us) new newLevel 0 (mem s ++ [Nd (Some (k, v)) (repeat None lv)]) ;;
    Some (SL m (header s) lv (size s + 1) (maxLevel s)).
  (** skiplist.go 61-108 (Put), 505-555 (PutDuplicate, the old entry being what the callback gets), 711-754 (putInternal) *)
  Definition put (s : skiplist) (k : K) (v : V) (r : nat) : option (skiplist * option (K * V)) :=
    '(cur, us) <- descend (below k) (mem s) (level s) (header s) ;;
    p <- getf (mem s) cur 0 ;;
    match p with
    | None => s' <- insert s us k v r ;; Some (s', None)
    | Some b =>
        e <- entry (mem s) b ;;
        if cmp (fst e) k =? 0 then m <- setv (mem s) b v ;; Some (SL m (header s) (level s) (size s) (maxLevel s), Some e)
        else s' <- insert s us k v r ;; Some (s', None)
    end.

  (** skiplist.go 110-127 (Get), 697-709 (searchInternal) *)
  Definition search (s : skiplist) (k : K) : option (option (K * V)) :=
    '(cur, _) <- descend (below k) (mem s) (level s) (header s) ;;
    p <- getf (mem s) cur 0 ;;
    match p with
    | None => Some None
    | Some b => e <- entry (mem s) b ;; Some (if cmp (fst e) k =? 0 then Some e else None)
    end.

  (** skiplist.go 151-162 (and 487-498, 597-608, 650-660): take node [cur] out *)
  Definition takeOut (s : skiplist) (us : list nat) (cur : nat) : option skiplist :=
    m <- unlink (update s us) cur (level s) 0 (mem s) ;;
    lv <- shrink m (header s) (level s) ;;
    Some (SL m (header s) lv (size s - 1) (maxLevel s)).
  (** skiplist.go 129-163 (Remove), 845-876 (removeInternal) *)
  Definition remove (s : skiplist) (k : K) : option (skiplist * option (K * V)) :=
    '(cur, us) <- descend (below k) (mem s) (level s) (header s) ;;
    p <- getf (mem s) cur 0 ;;
    match p with
    | None => Some (s, None)
    | Some b =>
        e <- entry (mem s) b ;;
        if cmp (fst e) k =? 0 then s' <- takeOut s us b ;; e' <- entry (mem s') b ;; Some (s', Some e') else Some (s, None)
    end.

  (** skiplist.go 449-454: RemoveHead *)
  Definition removeHead (s : skiplist) : option (skiplist * option (K * V)) :=
    if size s =? 0 then Some (s, None)
    else p <- getf (mem s) (header s) 0 ;; b <- p ;; e <- entry (mem s) b ;; remove s (fst e).

  (** skiplist.go 199-201, 465-467: the last node *)
  Fixpoint lastNode (fuel : nat) (m : list node) (cur : nat) : option nat :=
    match fuel with
    | O => None
    | S f => p <- getf m cur 0 ;; match p with None => Some cur | Some b => lastNode f m b end
    end.
  Definition notAt (cur : nat) (k : K) (a : nat) (k' : K) : bool := negb (a =? cur)%nat && (cmp k' k <? 0).
  (** skiplist.go 468-498, 579-608: find the predecessors of node [cur] and take it out *)
  Definition removeNode (s : skiplist) (cur : nat) : option (skiplist * option (K * V)) :=
    e <- entry (mem s) cur ;;
    us <- restart (notAt cur (fst e)) (mem s) (level s) (header s) ;;
    p <- getf (mem s) (update s us 0) 0 ;;
    if peqb p (Some cur) then s' <- takeOut s us cur ;; e' <- entry (mem s') cur ;; Some (s', Some e')
    else Some (s, None).
  (** skiplist.go 456-499: RemoveTail *)
  Definition removeTail (s : skiplist) : option (skiplist * option (K * V)) :=
    if size s =? 0 then Some (s, None)
    else p <- getf (mem s) (header s) 0 ;; b <- p ;; cur <- lastNode (fuel (mem s)) (mem s) b ;; removeNode s cur.

  (** skiplist.go 179-189 (Head), 191-206 (Tail) *)
  Definition headEntry (s : skiplist) : option (option (K * V)) :=
    p <- getf (mem s) (header s) 0 ;; match p with None => Some None | Some b => e <- entry (mem s) b ;; Some (Some e) end.
  Definition tailEntry (s : skiplist) : option (option (K * V)) :=
    p <- getf (mem s) (header s) 0 ;;
    match p with
    | None => Some None
    | Some b => cur <- lastNode (fuel (mem s)) (mem s) b ;; e <- entry (mem s) cur ;; Some (Some e)
    end.

  (** skiplist.go 217-220, 441-444, 570-573, 628-631: [i] steps along the list *)
  Fixpoint walk (m : list node) (i : nat) (p : option nat) : option (option nat) :=
    match i with O => Some p | S i' => p' <- next m p 0 ;; walk m i' p' end.
  (** skiplist.go 208-225: Index *)
  Definition index (s : skiplist) (i : Z) : option (option (K * V)) :=
    if (i <? 0) || (size s <=? i) then Some None
    else p <- getf (mem s) (header s) 0 ;; q <- walk (mem s) (Z.to_nat i) p ;; b <- q ;; e <- entry (mem s) b ;; Some (Some e).
  (** skiplist.go 561-609: RemoveIndex *)
  Definition removeIndex (s : skiplist) (i : Z) : option (skiplist * option (K * V)) :=
    if (i <? 0) || (size s <=? i) then Some (s, None)
    else p <- getf (mem s) (header s) 0 ;; q <- walk (mem s) (Z.to_nat i) p ;;
         match q with None => Some (s, None) | Some cur => removeNode s cur end.
  (** skiplist.go 227-241: IndexOf, from node [p] on *)
  Fixpoint indexOf (fuel : nat) (m : list node) (k : K) (p : option nat) (idx : Z) : option Z :=
    match fuel with
    | O => None
    | S f =>
        match p with
        | None => Some (-1)
        | Some b => e <- entry m b ;; if cmp (fst e) k =? 0 then Some idx else q <- getf m b 0 ;; indexOf f m k q (idx + 1)
        end
    end.
  (** skiplist.go 243-252: Clear; the old nodes stay where they are *)
  Definition clear (s : skiplist) : skiplist :=
    SL (mem s ++ [Nd None (repeat None MaxLevel)]) (length (mem s)) 1 0 (maxLevel s).

  (** skiplist.go 264-270: Traverse, from node [p] on; [go] looks at what has been seen *)
  Fixpoint traverse (fuel : nat) (m : list node) (go : list (K * V) -> bool) (p : option nat) (seen : list (K * V)) : option (list (K * V)) :=
    match fuel with
    | O => None
    | S f =>
        match p with
        | None => Some seen
        | Some b =>
            e <- entry m b ;;
            if go (seen ++ [e]) then q <- getf m b 0 ;; traverse f m go q (seen ++ [e]) else Some (seen ++ [e])
        end
    end.
  (** skiplist.go 670-674 (Slice), 878-880 (Slices), and the other loops over all nodes (686, 762, 771, 786, 801, 830) *)
  Fixpoint collect (fuel : nat) (m : list node) (p : option nat) : option (list (K * V)) :=
    match fuel with
    | O => None
    | S f =>
        match p with
        | None => Some []
        | Some b => e <- entry m b ;; q <- getf m b 0 ;; l <- collect f m q ;; Some (e :: l)
        end
    end.
  Definition slice (s : skiplist) : option (list (K * V)) :=
    p <- getf (mem s) (header s) 0 ;; collect (fuel (mem s)) (mem s) p.

  (** skiplist.go 633-662: the loop of RemoveRangeByIndex *)
  Fixpoint removeRange (s : skiplist) (n : nat) (cur : option nat) : option skiplist :=
    match n, cur with
    | O, _ | _, None => Some s
    | S n', Some c =>
        e <- entry (mem s) c ;;
        q <- getf (mem s) c 0 ;;
        '(_, us) <- descend (notAt c (fst e)) (mem s) (level s) (header s) ;;
        s' <- takeOut s us c ;;
        removeRange s' n' q
    end.
  (** skiplist.go 611-663: RemoveRangeByIndex *)
  Definition removeRangeByIndex (s : skiplist) (lo hi : Z) : option skiplist :=
    let lo := if lo <? 0 then 0 else lo in
    let hi := if size s <=? hi then size s - 1 else hi in
    if hi <? lo then Some s
    else p <- getf (mem s) (header s) 0 ;; q <- walk (mem s) (Z.to_nat lo) p ;; removeRange s (Z.to_nat (hi - lo + 1)) q.

  (** skiplist.go 809-811, 840-842 *)
  Fixpoint removeAll (s : skiplist) (ks : list K) : option skiplist :=
    match ks with [] => Some s | k :: ks' => '(s', _) <- remove s k ;; removeAll s' ks' end.
  (** skiplist.go 796-812: Trim *)
  Definition trim (s : skiplist) (lo hi : K) : option skiplist :=
    l <- slice s ;; removeAll s (map fst (filter (fun e => (cmp (fst e) lo <? 0) || (0 <? cmp (fst e) hi)) l)).
  (** skiplist.go 830-838: the keys at positions outside [lo .. hi], [idx] being the position of the first *)
  Fixpoint outsiders (lo hi idx : Z) (l : list (K * V)) : list K :=
    match l with
    | [] => []
    | e :: l' => (if (idx <? lo) || (hi <? idx) then [fst e] else []) ++ outsiders lo hi (idx + 1) l'
    end.
  (** skiplist.go 814-843: TrimByIndex *)
  Definition trimByIndex (s : skiplist) (lo hi : Z) : option skiplist :=
    let lo := if lo <? 0 then 0 else lo in
    let hi := if size s <=? hi then size s - 1 else hi in
    if hi <? lo then Some s else l <- slice s ;; removeAll s (outsiders lo hi 0 l).

  (** One call: skiplist.go 61-880 *)
  Definition sk_step (s : skiplist) (o : sk_op K V) : option (skiplist * sk_out K V) :=
    match o with
    | KPut k v r | KSet k v r => '(s', old) <- put s k v r ;; Some (s', KBool match old with None => true | _ => false end)
    | KPutDuplicate k v r => '(s', old) <- put s k v r ;; Some (s', KDup old match old with None => true | _ => false end)
    | KGet k => e <- search s k ;; Some (s, KVal (option_map snd e))
    | KRemove k => '(s', e) <- remove s k ;; Some (s', KEntry e)
    | KRemoveHead => '(s', e) <- removeHead s ;; Some (s', KEntry e)
    | KRemoveTail => '(s', e) <- removeTail s ;; Some (s', KEntry e)
    | KHead => e <- headEntry s ;; Some (s, KEntry e)
    | KTail => e <- tailEntry s ;; Some (s, KEntry e)
    | KClear => Some (clear s, KUnit)
    | KSize => Some (s, KNum (size s))
    | KTraverse go => p <- getf (mem s) (header s) 0 ;; l <- traverse (fuel (mem s)) (mem s) go p [] ;; Some (s, KSeen l)
    | KSlice | KSlices => l <- slice s ;; Some (s, KSeen l)
    | KIndex i => e <- index s i ;; Some (s, KEntry e)
    | KIndexOf k => p <- getf (mem s) (header s) 0 ;; i <- indexOf (fuel (mem s)) (mem s) k p 0 ;; Some (s, KNum i)
    | KRemoveIndex i => '(s', e) <- removeIndex s i ;; Some (s', KEntry e)
    | KRemoveRangeByIndex i j => s' <- removeRangeByIndex s i j ;; Some (s', KUnit)
    | KTrim lo hi => s' <- trim s lo hi ;; Some (s', KUnit)
    | KTrimByIndex i j => s' <- trimByIndex s i j ;; Some (s', KUnit)
    end.

  (** ** Set operations.  [rs] gives the coin flips of the insertions into the result, one after the other *)
  (** skiplist.go 763-766, 772-775: Put all entries of [l] *)
  Fixpoint putAll (s : skiplist) (l : list (K * V)) (rs : list nat) : option (skiplist * list nat) :=
    match l with
    | [] => Some (s, rs)
    | e :: l' => '(s', _) <- put s (fst e) (snd e) (hd 0%nat rs) ;; putAll s' l' (tl rs)
    end.
  (** skiplist.go 678-695: Intersection, from the entries [l] of the receiver on *)
  Fixpoint intersect (l : list (K * V)) (other res : skiplist) (rs : list nat) : option skiplist :=
    match l with
    | [] => Some res
    | e :: l' =>
        f <- search other (fst e) ;;
        match f with
        | Some e' => '(res', _) <- put res (fst e) (snd e') (hd 0%nat rs) ;; intersect l' other res' (tl rs)
        | None => intersect l' other res rs
        end
    end.
  Definition Intersection (s other : skiplist) (rs : list nat) : option skiplist := l <- slice s ;; intersect l other New rs.
  (** skiplist.go 756-778: UnionSets *)
  Definition UnionSets (s other : skiplist) (rs : list nat) : option skiplist :=
    l <- slice s ;; '(res, rs') <- putAll New l rs ;; l' <- slice other ;; '(res', _) <- putAll res l' rs' ;; Some res'.
  (** skiplist.go 780-794: DifferenceSets *)
  Fixpoint subtract (l : list (K * V)) (other res : skiplist) (rs : list nat) : option skiplist :=
    match l with
    | [] => Some res
    | e :: l' =>
        f <- search other (fst e) ;;
        match f with
        | Some _ => subtract l' other res rs
        | None => '(res', _) <- put res (fst e) (snd e) (hd 0%nat rs) ;; subtract l' other res' (tl rs)
        end
    end.
  Definition DifferenceSets (s other : skiplist) (rs : list nat) : option skiplist := l <- slice s ;; subtract l other New rs.

  (** ** Iterators; [ski_step] is one call, and SkipChangeModel.v mixes such calls with calls of the list.  skiplist.go 21-25:
      Iterator *)
  Record iterator := It { inode : option nat; iindex : Z }.
  (** skiplist.go 171-177 *)
  Definition newIterator (s : skiplist) : option iterator := p <- getf (mem s) (header s) 0 ;; Some (It p 0).
  (** skiplist.go 288-294: the loop of Prev: the node before [target], and the node it stopped at *)
  Fixpoint findPrev (fuel : nat) (m : list node) (target : option nat) (prev : nat) (cur : option nat) : option (nat * option nat) :=
    match fuel with
    | O => None
    | S f =>
        match cur with
        | None => Some (prev, None)
        | Some c => if peqb (Some c) target then Some (prev, cur) else q <- getf m c 0 ;; findPrev f m target c q
        end
    end.
  (** skiplist.go 284-306: Prev *)
  Definition iprev (s : skiplist) (it : iterator) : option iterator :=
    p <- getf (mem s) (header s) 0 ;;
    '(prev, cur) <- findPrev (fuel (mem s)) (mem s) (inode it) (header s) p ;;
    Some (if peqb cur (inode it) then
            if (prev =? header s)%nat then It None (iindex it) else It (Some prev) (iindex it - 1)
          else match cur with None => It None (iindex it) | Some _ => it end).
  (** skiplist.go 369-378, 388-397: the last node passed, if any *)
  Definition passed (s : skiplist) (go : nat -> K -> bool) : option (option nat) :=
    '(cur, _) <- descend go (mem s) (level s) (header s) ;; Some (if (cur =? header s)%nat then None else Some cur).
  Definition valid (p : option nat) : bool := match p with None => false | _ => true end.
  (** One call: skiplist.go 273-447; the result of IEntry is that of Key and Value, [None] being the zero values *)
  Definition ski_step (s : skiplist) (it : iterator) (o : ski_op K) : option (iterator * ski_out K V) :=
    match o with
    | IFirst => p <- getf (mem s) (header s) 0 ;; Some (It p 0, IUnit)
    | ILast =>
        p <- getf (mem s) (header s) 0 ;;
        match p with
        | None => Some (It None (iindex it), IUnit)
        | Some b => cur <- lastNode (fuel (mem s)) (mem s) b ;; Some (It (Some cur) (size s - 1), IUnit)
        end
    | INext =>
        match inode it with
        | None => Some (it, IUnit)
        | Some b => q <- getf (mem s) b 0 ;; Some (It q (iindex it + 1), IUnit)
        end
    | IPrev => it' <- iprev s it ;; Some (it', IUnit)
    | IGE k => '(cur, _) <- descend (below k) (mem s) (level s) (header s) ;; p <- getf (mem s) cur 0 ;; Some (It p 0, IBool (valid p))
    | IGT k => '(cur, _) <- descend (notAbove k) (mem s) (level s) (header s) ;; p <- getf (mem s) cur 0 ;; Some (It p 0, IBool (valid p))
    | ILE k => p <- passed s (notAbove k) ;; Some (It p (iindex it), IBool (valid p))
    | ILT k => p <- passed s (below k) ;; Some (It p (iindex it), IBool (valid p))
    | IAt i =>
        if (i <? 0) || (size s <=? i) then Some (It None (iindex it), IUnit)
        else p <- getf (mem s) (header s) 0 ;; q <- walk (mem s) (Z.to_nat i) p ;; Some (It q 0, IUnit)
    | IValid => Some (it, IBool (valid (inode it)))
    | IEntry => match inode it with None => Some (it, IKV None) | Some b => e <- entry (mem s) b ;; Some (it, IKV (Some e)) end
    | IClone => Some (it, IUnit)
    end.
End Skip.
Arguments node K V : clear implicits.
Arguments skiplist K V : clear implicits.
