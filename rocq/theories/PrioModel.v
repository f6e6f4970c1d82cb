(** queue/priority: a search tree with stored subtree sizes that keeps several entries per key.

    A node and everything below it is an [AvlTree.tree] whose number is the Go field Size (node.go 7-12); a nil pointer
    is [E].  tree.Center is a dummy node: the tree proper is Center.Children[1], and Center.Children[0] is Center itself
    (tree.go 28).  The Size of Center is counted down by RemoveIndex and never read; it is not modelled.  The fields Left
    and Right of Tree are never used.  Sizes and positions are integers: no queue has 2^63 entries.  [None] is a panic or
    a loop that does not end; both only occur once stored sizes are wrong.

    Not modelled: Node.String and everything only used for debugging (node.go 14-16, 149-238; tree_hide.go 535-564), and
    the functions no exported function calls (tree_hide.go 271-533). *)
From Verif Require Import Base Bind SMapSpec AvlTree AvlModel AvlIterModel IndexModel PrioSpec.
Local Open Scope Z_scope.

Section Prio.
  Context {K V : Type} (cmp : K -> K -> Z).
  Notation tree := (tree K V).

  (** node.go 38-44, and 25-30: getSize *)
  Definition getSize : tree -> Z := IndexModel.getSize.
  (** node.go 18-23: updateSize *)
  Definition sum : K -> V -> tree -> tree -> tree := IndexModel.sum.

  (** node.go 46-52: getMaybeHeight.  A negative size is shifted for ever. *)
  Fixpoint heightLoop (fuel : nat) (size height : Z) : option Z :=
    if size =? 0 then Some height
    else match fuel with O => None | S fuel' => heightLoop fuel' (Z.shiftr size 1) (height + 1) end.
  Definition getMaybeHeight (size : Z) : option Z := heightLoop (Z.to_nat size) size 0.

  (** node.go 59-69: rootSizeTable[h].bottomsize for 2 <= h < 64 *)
  Definition bottomsize (h : Z) : Z := Z.shiftr (shl64 h) 2 + 1.

  (** node.go 71-95: leftRotateWithRight *)
  Definition leftRotateWithRight (cur : tree) : option tree :=
    match cur with
    | N _ k v l (N _ k1 v1 (N _ k2 v2 l2 r2) r1) => Some (sum k2 v2 (sum k v l l2) (sum k1 v1 r2 r1))
    | N _ k v l (N _ k1 v1 E r1) => Some (sum k1 v1 E r1)
    | _ => None
    end.
  (** node.go 97-121: rightRotateWithLeft *)
  Definition rightRotateWithLeft (cur : tree) : option tree :=
    match cur with
    | N _ k v (N _ k1 v1 l1 (N _ k2 v2 l2 r2)) r => Some (sum k2 v2 (sum k1 v1 l1 l2) (sum k v r2 r))
    | N _ k v (N _ k1 v1 l1 E) r => Some (sum k1 v1 l1 E)
    | _ => None
    end.
  (** node.go 123-134: leftRotate *)
  Definition leftRotate (cur : tree) : option tree :=
    match cur with
    | N _ k v l (N _ k1 v1 l1 r1) => Some (sum k1 v1 (sum k v l l1) r1)
    | _ => None
    end.
  (** node.go 136-147: rightRotate *)
  Definition rightRotate (cur : tree) : option tree :=
    match cur with
    | N _ k v (N _ k1 v1 l1 r1) r => Some (sum k1 v1 l1 (sum k v r1 r))
    | _ => None
    end.

  (** tree_hide.go 220-233: sizeRotateType *)
  Definition sizeRotateType (l r : tree) (c : bool) : bool :=
    match child c l r with
    | E => false
    | N _ _ _ sl sr => match child (negb c) sl sr with E => false | subsub => getSize (child c sl sr) >? getSize subsub end
    end.

  (** tree_hide.go 235-269: rebalance, of the node parent.Children[child] *)
  Definition rebalance (node : tree) : option tree :=
    match node with
    | E => None
    | N s k v l r =>
        let lsize := getSize l in
        let rsize := getSize r in
        h <- getMaybeHeight s ;;
        let h := if h <? 2 then 2 else h in
        let h := if 64 <=? h then 63 else h in
        if lsize >? rsize then
          if bottomsize h <=? lsize - rsize then
            if sizeRotateType l r false then rightRotateWithLeft node else rightRotate node
          else Some node
        else if rsize >? lsize then
          if bottomsize h <=? rsize - lsize then
            if sizeRotateType l r true then leftRotateWithRight node else leftRotate node
          else Some node
        else Some node
    end.

  (** tree_hide.go 14-43: put, called with [cur = parent.Children[child]]; [alone]: the other child of the parent is nil;
      the flag is isExists == 2.  Put writes Value through the returned pointer afterwards; rotations never read it, so
      the model writes at once.  A comparator result other than 0, 1 or negative is an index out of range. *)
  Fixpoint put (key : K) (v : V) (cur : tree) (alone : bool) : option (tree * bool) :=
    match cur with
    | E => Some (N 1 key v E E, negb alone)
    | N s ck cv l r =>
        let c := cmp ck key in
        let c := if c <? 0 then 1 else c in
        '(t, two) <-
          (if c =? 0 then '(l', two) <- put key v l (is_nil r) ;; Some (N (s + 1) ck cv l' r, two)
           else if c =? 1 then '(r', two) <- put key v r (is_nil l) ;; Some (N (s + 1) ck cv l r', two)
           else None) ;;
        if (s + 1 >? 2) && negb two then t' <- rebalance t ;; Some (t', two) else Some (t, two)
    end.

  (** tree_hide.go 74-86: getfirst; gives key and value of the node found *)
  Fixpoint getfirst (key : K) (cur : tree) (sel : option (K * V)) : option (option (K * V)) :=
    match cur with
    | E => Some sel
    | N _ ck cv l r =>
        let c := cmp ck key in
        if c <? 0 then getfirst key l (Some (ck, cv))
        else if c =? 0 then getfirst key l sel
        else if c =? 1 then getfirst key r sel
        else None
    end.
  (** tree.go 53-56: [cur.Value = value] through the pointer getfirst returned: the same walk, the last node with an
      equivalent key being written; the flag says whether there was one *)
  Fixpoint setfirst (key : K) (v : V) (cur : tree) : option (tree * bool) :=
    match cur with
    | E => Some (E, false)
    | N s ck cv l r =>
        let c := cmp ck key in
        if c <? 0 then
          '(l', hit) <- setfirst key v l ;;
          if hit : bool then Some (N s ck cv l' r, true) else Some (N s ck v l r, true)
        else if c =? 0 then '(l', hit) <- setfirst key v l ;; Some (N s ck cv l' r, hit)
        else if c =? 1 then '(r', hit) <- setfirst key v r ;; Some (N s ck cv l r', hit)
        else None
    end.

  (** tree_hide.go 46-57: seekRoot *)
  Fixpoint seekRoot (key : K) (cur : tree) : option tree :=
    match cur with
    | E => Some E
    | N _ ck _ l r =>
        let c := cmp ck key in
        if c <? 0 then Some cur else if c =? 0 then seekRoot key l else if c =? 1 then seekRoot key r else None
    end.
  (** tree_hide.go 60-72: traverse *)
  Fixpoint traverseKey (key : K) (cur : tree) (result : list V) : option (list V) :=
    match cur with
    | E => Some result
    | N _ ck cv l r =>
        let c := cmp ck key in
        if c <? 0 then result <- traverseKey key l (result ++ [cv]) ;; traverseKey key r result
        else if c =? 0 then traverseKey key l result
        else if c =? 1 then traverseKey key r result
        else None
    end.
  (** tree.go 71-78: Gets *)
  Definition Gets (key : K) (t : tree) : option (list V) :=
    cur <- seekRoot key t ;; match cur with E => Some [] | _ => traverseKey key cur [] end.

  (** tree_hide.go 203-218: neighboring, called with [cur = parent.Children[child2]]; [c] is child1, which is also the
      direction of the further steps.  Gives what becomes of cur, and the key and value of the node taken out. *)
  Fixpoint neighboring (c : bool) (cur : tree) : option (tree * (K * V)) :=
    match cur with
    | E => None
    | N s k v l r =>
        match child c l r with
        | E => Some (child (negb c) l r, (k, v))
        | _ =>
            '(sub, e) <- (if c then neighboring c r else neighboring c l) ;;
            t <- rebalance (with_child c (s - 1) k v l r sub) ;; Some (t, e)
        end
    end.

  (** tree_hide.go 171-189, 116-135: what removeLeft and removeIndex put in the place of a node, [side] being true for a
      right child: a node with less than two children is replaced by the other, otherwise it takes over key and value
      of the next one on that side *)
  Definition replace (side : bool) (l r : tree) : option tree :=
    match l, r with
    | E, _ => Some r
    | _, E => Some l
    | _, _ =>
        '(sub, (k, v)) <- neighboring (negb side) (child side l r) ;;
        rebalance (if side then sum k v l sub else sum k v sub r)
    end.

  (** tree_hide.go 150-201: removeLeft, called with [cur = grandpa.Children[child2].Children[child1]]; [side] is child1 = 1.
      [cur != tree.Center] (164, 195) is always true. *)
  Fixpoint removeLeft (key : K) (cur : tree) (side : bool) : option (tree * option V) :=
    match cur with
    | E => Some (E, None)
    | N s ck cv l r =>
        let c := cmp ck key in
        if c <? 0 then
          '(l', target) <- removeLeft key l false ;;
          match target with
          | Some _ => t <- rebalance (N (s - 1) ck cv l' r) ;; Some (t, target)
          | None => t <- replace side l' r ;; Some (t, Some cv)
          end
        else if c =? 0 then
          '(l', target) <- removeLeft key l false ;;
          match target with
          | Some _ => t <- rebalance (N (s - 1) ck cv l' r) ;; Some (t, target)
          | None => Some (N s ck cv l' r, None)
          end
        else if c =? 1 then
          '(r', target) <- removeLeft key r true ;;
          match target with
          | Some _ => t <- rebalance (N (s - 1) ck cv l r') ;; Some (t, target)
          | None => Some (N s ck cv l r', None)
          end
        else None
    end.

  (** tree_hide.go 108-148: removeIndex, called with [cur = parent.Children[child]], which it does not count down itself;
      where it calls itself it counts down the size of cur (112) first.  Gives no value if it panicked (140, 144), as
      much as had been done by then being done. *)
  Fixpoint removeIndex (i idx : Z) (cur : tree) (side : bool) : option (tree * option V) :=
    match cur with
    | E => None
    | N s k v l r =>
        if idx =? i then t <- replace side l r ;; Some (t, Some v)
        else if idx >? i then
          match l with
          | E => Some (cur, None)
          | _ => '(l', res) <- removeIndex i (idx - (kidSize true l + 1)) l false ;; Some (N (s - 1) k v l' r, res)
          end
        else
          match r with
          | E => Some (cur, None)
          | _ => '(r', res) <- removeIndex i (idx + (kidSize false r + 1)) r true ;; Some (N (s - 1) k v l r', res)
          end
    end.

  (** tree.go 125-146: PopHead, of a tree that is not empty *)
  Fixpoint popHead (cur : tree) : option (tree * V) :=
    match cur with
    | E => None
    | N s k v E r => Some (r, v)
    | N s k v l r => '(l', x) <- popHead l ;; Some (N (s - 1) k v l' r, x)
    end.
  (** tree.go 148-164: PopTail *)
  Fixpoint popTail (cur : tree) : option (tree * V) :=
    match cur with
    | E => None
    | N s k v l E => Some (l, v)
    | N s k v l r => '(r', x) <- popTail r ;; Some (N (s - 1) k v l r', x)
    end.

  (** tree.go 32-40: Put; isExists is never 1 *)
  Definition Put (key : K) (v : V) (t : tree) : option tree := '(t', _) <- put key v t false ;; Some t'.

  (** tree.go 179-198: Traverse; [AvlModel.traverse] is the same traversal *)
  Definition Traverse (go : list (K * V) -> bool) (t : tree) : list (K * V) := fst (traverse go t []).

  (** One call.  tree.go 43-49 (InsertIfAbsent), 52-59 (Upsert), 61-68 (Get), 80-92 (Index; tree_hide.go 88-106, index,
      is that of the index tree), 94-106 (Remove, Delete), 109-123 (RemoveIndex; it is idx, a size, that 119 tests),
      125-164 (PopHead, PopTail), 166-177 (Clear, Size, Len), 200-210 (Values). *)
  Definition pq_step (t : tree) (o : pq_op K V) : option (tree * pq_out K V) :=
    match o with
    | QPut k v => t' <- Put k v t ;; Some (t', QBool true)
    | QInsertIfAbsent k v =>
        g <- getfirst k t None ;;
        match g with Some _ => Some (t, QBool false) | None => t' <- Put k v t ;; Some (t', QBool true) end
    | QUpsert k v =>
        g <- getfirst k t None ;;
        match g with
        | Some _ => '(t', _) <- setfirst k v t ;; Some (t', QBool true)
        | None => t' <- Put k v t ;; Some (t', QBool false)
        end
    | QGet k => g <- getfirst k t None ;; Some (t, QVal (option_map snd g))
    | QIndex i =>
        Some (t, match index (if i <? 0 then getSize t + i else i) t with Some (_, v) => QV v | None => QPanic end)
    | QRemove k | QDelete k => '(t', target) <- removeLeft k t true ;; Some (t', QVal target)
    | QRemoveIndex i =>
        match t with
        | E => Some (t, QPanic)
        | _ =>
            let idx := kidSize false t in
            '(t', res) <- removeIndex (if idx <? 0 then getSize t + i else i) idx t true ;;
            Some (t', match res with Some v => QV v | None => QPanic end)
        end
    | QPopHead => if getSize t =? 0 then Some (t, QVal None) else '(t', v) <- popHead t ;; Some (t', QVal (Some v))
    | QPopTail => if getSize t =? 0 then Some (t, QVal None) else '(t', v) <- popTail t ;; Some (t', QVal (Some v))
    | QClear => Some (E, QUnit)
    | QSize | QLen => Some (t, QNum (getSize t))
    | QTraverse go => Some (t, QSeen (Traverse go t))
    | QValues => Some (t, QVals (map snd (Traverse (fun _ => true) t)))
    end.

  (** ** iterators (of a queue that is not changed meanwhile)
      A node pointer is the subtree below it, as in AvlIterModel, whose record [iter] is used with the tree in [root]
      ([size] is unused).  iterator.go 39-57 and 99-107 and iterator_hide.go 15-135 are, line by line, the code of
      tree/avl/iterator.go and iterator_hide.go; the definitions are those of AvlIterModel.v. *)
  (** iterator_hide.go 5-13: newIterator *)
  Definition newIterator (t : tree) : option (iter K V) :=
    h <- getMaybeHeight (getSize t) ;;
    Some (IT (AVL t 0) E (-1) (repeat (E, false) (Z.to_nat (h + Z.shiftr h 1)))).
  (** iterator.go 110-116: Clone *)
  Definition clone (it : iter K V) : option (iter K V) :=
    o <- newIterator (root (itree it)) ;;
    let n := Nat.min (length (stack o)) (length (stack it)) in
    Some (IT (itree it) (cur it) (idx it) (firstn n (stack it) ++ skipn n (stack o))).
  (** One call: iterator.go 18-116.  The seeks report a boolean as SeekGEExact etc. do. *)
  Definition qi_step (it : iter K V) (o : cu_op K) : option (iter K V * cu_out K V) :=
    match o with CClone => it' <- clone it ;; Some (it', CUnit) | _ => it_step cmp true it o end.
End Prio.
