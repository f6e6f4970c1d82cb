(** tree/avls: search trees that keep several entries per key.  Nodes, rotations, rebalance and neighboring are those of
    [AvlTree] with style [One]; the record [avl], traverse, values and height are those of [AvlModel], whose text is the
    same here (tree.go 7-13, 113-131, 133-143, 145-150). *)
From Verif Require Import Base Bind SMapSpec AvlTree AvlModel.
Local Open Scope Z_scope.

Section Model.
  Context {K V : Type} (cmp : K -> K -> Z) (d : Z).
  Notation tree := (tree K V).
  Notation avl := (avl K V).

  (** tree/avls/tree_hide.go 9-34: put, called with [cur = parent.Children[child]]; [alone]: the other child of the parent
      is nil.  The callers write Key and Value through the returned pointer afterwards; rotations never read those fields,
      so the model writes at once.  A comparator result other than 0, 1 or negative is an index out of range. *)
  Fixpoint mput (key : K) (v : V) (cur : tree) (alone : bool) : option (tree * bool) :=
    match cur with
    | E => Some (N 1 key v E E, alone)
    | N h ck cv l r =>
        let c := cmp ck key in
        let c' := if c <? 0 then 1 else c in
        if c' =? 0 then
          '(l', rb) <- mput key v l (is_nil r) ;;
          if rb : bool then rebalance One d (N h ck cv l' r) else Some (N h ck cv l' r, false)
        else if c' =? 1 then
          '(r', rb) <- mput key v r (is_nil l) ;;
          if rb : bool then rebalance One d (N h ck cv l r') else Some (N h ck cv l r', false)
        else None
    end.

  (** tree/avls/tree_hide.go 36-50: get; gives key and value of the node found *)
  Fixpoint mget (key : K) (cur : tree) : option (option (K * V)) :=
    match cur with
    | E => Some None
    | N _ ck cv l r =>
        let c := cmp ck key in
        if c <? 0 then
          left <- mget key l ;;
          match left with Some e => Some (Some e) | None => Some (Some (ck, cv)) end
        else if c =? 0 then mget key l
        else if c =? 1 then mget key r
        else None
    end.

  (** tree/avls/tree.go 38-41 and 52-55: [cur.Value = value] through the pointer returned by get: the same walk, writing
      where get stops; the flag says whether there was a node. *)
  Fixpoint mget_write (key : K) (v : V) (cur : tree) : option (tree * bool) :=
    match cur with
    | E => Some (E, false)
    | N h ck cv l r =>
        let c := cmp ck key in
        if c <? 0 then
          '(l', hit) <- mget_write key v l ;;
          if hit : bool then Some (N h ck cv l' r, true) else Some (N h ck v l r, true)
        else if c =? 0 then '(l', hit) <- mget_write key v l ;; Some (N h ck cv l' r, hit)
        else if c =? 1 then '(r', hit) <- mget_write key v r ;; Some (N h ck cv l r', hit)
        else None
    end.

  (** tree/avls/tree_hide.go 52-96: removeLeft, called with [cur = grandpa.Children[child2].Children[child1]]; [side] is
      child1 = 1.  Gives the new subtree, the value removed ([None] for a nil target) and the flag.  [cur != tree.Center]
      (64, 91) is always true: only Center.Children[0] is Center, and the walk starts at Center.Children[1]. *)
  Fixpoint removeLeft (key : K) (cur : tree) (side : bool) : option (tree * option V * bool) :=
    match cur with
    | E => Some (E, None, false)
    | N h ck cv l r =>
        let c := cmp ck key in
        if c <? 0 then
          '(l', target, rb) <- removeLeft key l false ;;
          match target with
          | Some v =>
              if rb : bool then '(t, rb') <- rebalance One d (N h ck cv l' r) ;; Some (t, Some v, rb')
              else Some (N h ck cv l' r, Some v, false)
          | None =>
              match l', r with
              | E, _ => Some (r, Some cv, true)
              | _, E => Some (l', Some cv, true)
              | _, _ =>
                  '(sub, (rk, rv), _) <- neighboring One d (negb side) (child side l' r) ;;
                  '(t, rb') <- rebalance One d (with_child side h rk rv l' r sub) ;;
                  Some (t, Some cv, rb')
              end
          end
        else if c =? 0 then
          '(l', target, rb) <- removeLeft key l false ;;
          if rb : bool then '(t, rb') <- rebalance One d (N h ck cv l' r) ;; Some (t, target, rb')
          else Some (N h ck cv l' r, target, false)
        else if c =? 1 then
          '(r', target, rb) <- removeLeft key r true ;;
          if rb : bool then '(t, rb') <- rebalance One d (N h ck cv l r') ;; Some (t, target, rb')
          else Some (N h ck cv l r', target, false)
        else None
    end.

  (** tree/avls/tree.go 60-66: Put *)
  Definition sput (s : avl) (k : K) (v : V) : option (avl * bool) :=
    '(t, _) <- mput k v (root s) false ;; Some (AVL t (S (size s)), true).

  (** tree/avls/tree.go 37-48: Set *)
  Definition sset (s : avl) (k : K) (v : V) : option (avl * bool) :=
    g <- mget k (root s) ;;
    match g with
    | Some _ => '(t, _) <- mget_write k v (root s) ;; Some (AVL t (size s), false)
    | None => '(t, _) <- mput k v (root s) false ;; Some (AVL t (S (size s)), true)
    end.

  (** tree/avls/tree.go 51-58: Upsert *)
  Definition supsert (s : avl) (k : K) (v : V) : option (avl * bool) :=
    g <- mget k (root s) ;;
    match g with
    | Some _ => '(t, _) <- mget_write k v (root s) ;; Some (AVL t (size s), true)
    | None => '(s', _) <- sput s k v ;; Some (s', false)
    end.

  (** tree/avls/tree.go 77-83: Get *)
  Definition sget (s : avl) (k : K) : option (option V) :=
    g <- mget k (root s) ;; Some (option_map snd g).

  (** tree/avls/tree.go 69-75: InsertIfAbsent *)
  Definition sinsert (s : avl) (k : K) (v : V) : option (avl * bool) :=
    g <- sget s k ;;
    match g with
    | Some _ => Some (s, false)
    | None => '(s', _) <- sput s k v ;; Some (s', true)
    end.

  (** tree/avls/tree.go 85-97: Remove and Delete *)
  Definition sremove (s : avl) (k : K) : option (avl * option V) :=
    '(t, target, _) <- removeLeft k (root s) true ;;
    match target with
    | Some v => Some (AVL t (size s - 1), Some v)
    | None => Some (AVL t (size s), None)
    end.

  (** One call.  tree/avls has no Contains and no Empty: to share the type of calls with the other trees, they are
      answered from Get and Size.  Clear 99-102, Size and Len 104-111. *)
  Definition mstep (s : avl) (o : sm_op K V) : option (avl * sm_out K V) :=
    match o with
    | MPut k v => '(s', b) <- sput s k v ;; Some (s', MBool b)
    | MInsertIfAbsent k v => '(s', b) <- sinsert s k v ;; Some (s', MBool b)
    | MSet k v => '(s', b) <- sset s k v ;; Some (s', MBool b)
    | MUpsert k v => '(s', b) <- supsert s k v ;; Some (s', MBool b)
    | MGet k => g <- sget s k ;; Some (s, MVal g)
    | MContains k => g <- sget s k ;; Some (s, MBool match g with Some _ => true | None => false end)
    | MRemove k | MDelete k => '(s', r) <- sremove s k ;; Some (s', MVal r)
    | MClear => Some (AVL E 0, MUnit)
    | MSize | MLen => Some (s, MNat (size s))
    | MEmpty => Some (s, MBool (Nat.eqb (size s) 0))
    | MValues => Some (s, MVals (values s))
    | MTraverse go => Some (s, MSeen (fst (traverse go (root s) [])))
    end.
End Model.
