(** tree/avl and set/treeset: search trees with one entry per key.  The two packages have the same put, get, remove,
    neighboring and rebalance (up to the rotations' height updates, see [AvlTree.style]) and the same Set, Upsert,
    Put/Add, Get, Remove, Clear, Size, Traverse, Values and Height; line numbers are given for both. *)
From Verif Require Import Base Bind SMapSpec AvlTree.
Local Open Scope Z_scope.

Section Model.
  Context {K V : Type} (cmp : K -> K -> Z) (st : style) (d : Z).
  Notation tree := (tree K V).

  (** tree/avl/tree_hide.go 9-38, set/treeset/tree_hide.go 9-38: put, called with [cur = parent.Children[child]];
      [alone] says whether the other child of the parent is nil.  The callers write Key and Value through the returned
      pointer afterwards; rotations move nodes but never read those fields, so the model writes at once: [v] into a
      new node, [hit] into an existing one.  A comparator result other than 0, 1 or negative is an index out of range. *)
  Fixpoint put (hit : K * V -> K * V) (key : K) (v : V) (cur : tree) (alone : bool) : option (tree * bool * bool) :=
    match cur with
    | E => Some (N 1 key v E E, false, alone)
    | N h ck cv l r =>
        let c := cmp ck key in
        if c <? 0 then
          let '(k', v') := hit (ck, cv) in Some (N h k' v' l r, true, false)
        else if c =? 0 then
          '(l', ex, rb) <- put hit key v l (is_nil r) ;;
          if (ex || negb rb)%bool then Some (N h ck cv l' r, ex, rb)
          else '(t, rb') <- rebalance st d (N h ck cv l' r) ;; Some (t, ex, rb')
        else if c =? 1 then
          '(r', ex, rb) <- put hit key v r (is_nil l) ;;
          if (ex || negb rb)%bool then Some (N h ck cv l r', ex, rb)
          else '(t, rb') <- rebalance st d (N h ck cv l r') ;; Some (t, ex, rb')
        else None
    end.

  (** tree/avl/tree_hide.go 40-49, set/treeset/tree_hide.go 40-49: get; gives key and value of the node found *)
  Fixpoint get (key : K) (cur : tree) : option (option (K * V)) :=
    match cur with
    | E => Some None
    | N _ ck cv l r =>
        let c := cmp ck key in
        if c <? 0 then Some (Some (ck, cv))
        else if c =? 0 then get key l
        else if c =? 1 then get key r
        else None
    end.

  (** tree/avl/tree.go 55-56, set/treeset/tree.go 57-58: [cur.Value = value] through the pointer returned by get: the
      same walk, writing where get stops. *)
  Fixpoint get_write (key : K) (v : V) (cur : tree) : option tree :=
    match cur with
    | E => Some E
    | N h ck cv l r =>
        let c := cmp ck key in
        if c <? 0 then Some (N h ck v l r)
        else if c =? 0 then l' <- get_write key v l ;; Some (N h ck cv l' r)
        else if c =? 1 then r' <- get_write key v r ;; Some (N h ck cv l r')
        else None
    end.

  (** tree/avl/tree_hide.go 51-89, set/treeset/tree_hide.go 51-89: remove, called with
      [cur = grandpa.Children[child2].Children[child1]]; [side] is child1 = 1.  Gives the new subtree, the value of the
      removed node ([None] for a nil target) and the flag.  The test [cur != tree.Center] (line 84) is always true:
      only Center.Children[0] is Center, and the walk starts at Center.Children[1]. *)
  Fixpoint remove (key : K) (cur : tree) (side : bool) : option (tree * option V * bool) :=
    match cur with
    | E => Some (E, None, false)
    | N h ck cv l r =>
        let c := cmp ck key in
        if c <? 0 then
          match l, r with
          | E, _ => Some (r, Some cv, true)
          | _, E => Some (l, Some cv, true)
          | _, _ =>
              '(sub, (rk, rv), _) <- neighboring st d (negb side) (child side l r) ;;
              '(t, rb) <- rebalance st d (with_child side h rk rv l r sub) ;;
              Some (t, Some cv, rb)
          end
        else if c =? 0 then
          '(l', target, rb) <- remove key l false ;;
          if rb : bool then '(t, rb') <- rebalance st d (N h ck cv l' r) ;; Some (t, target, rb')
          else Some (N h ck cv l' r, target, false)
        else if c =? 1 then
          '(r', target, rb) <- remove key r true ;;
          if rb : bool then '(t, rb') <- rebalance st d (N h ck cv l r') ;; Some (t, target, rb')
          else Some (N h ck cv l r', target, false)
        else None
    end.

  (** tree/avl/tree.go 7-15, set/treeset/tree.go 10-17: type Tree.  The sentinel Center is only ever used for its
      Children[1], the root.  [size] is a uint in Go; the model counts in [nat] (no tree has 2^64 nodes). *)
  Record avl := AVL { root : tree; size : nat }.

  (** tree/avl/tree.go 17-41, set/treeset/tree.go 19-43: New, NewEx *)
  Definition new : avl := AVL E 0.

  (** tree/avl/tree.go 43-51, set/treeset/tree.go 45-53: Set *)
  Definition set (s : avl) (k : K) (v : V) : option (avl * bool) :=
    '(t, ex, _) <- put (fun _ => (k, v)) k v (root s) false ;;
    Some (AVL t (if ex : bool then size s else S (size s)), negb ex).

  (** tree/avl/tree.go 53-61, set/treeset/tree.go 55-63: Upsert *)
  Definition upsert (s : avl) (k : K) (v : V) : option (avl * bool) :=
    g <- get k (root s) ;;
    match g with
    | Some _ => t <- get_write k v (root s) ;; Some (AVL t (size s), true)
    | None => '(s', _) <- set s k v ;; Some (s', false)
    end.

  (** tree/avl/tree.go 63-75 Put and InsertIfAbsent; set/treeset/tree.go 65-77 Add and InsertIfAbsent *)
  Definition put_ (s : avl) (k : K) (v : V) : option (avl * bool) :=
    '(t, ex, _) <- put (fun e => e) k v (root s) false ;;
    Some (AVL t (if ex : bool then size s else S (size s)), negb ex).

  (** tree/avl/tree.go 77-84, set/treeset/tree.go 87-94: Get *)
  Definition get_ (s : avl) (k : K) : option (option V) :=
    g <- get k (root s) ;; Some (option_map snd g).

  (** set/treeset/tree.go 79-85: Contains *)
  Definition contains (s : avl) (k : K) : option bool :=
    g <- get_ s k ;; Some (match g with Some _ => true | None => false end).

  (** tree/avl/tree.go 86-98, set/treeset/tree.go 100-112: Remove and Delete *)
  Definition remove_ (s : avl) (k : K) : option (avl * option V) :=
    '(t, target, _) <- remove k (root s) true ;;
    match target with
    | Some v => Some (AVL t (size s - 1), Some v)
    | None => Some (AVL t (size s), None)
    end.

  (** tree/avl/tree.go 100-103, set/treeset/tree.go 114-117: Clear *)
  Definition clear (s : avl) : avl := AVL E 0.

  (** tree/avl/tree.go 116-131, set/treeset/tree.go 130-145: the recursive closure of Traverse.  The callback is
      described by what it answers given the entries it has been handed so far; [seen] collects them. *)
  Fixpoint traverse (go : list (K * V) -> bool) (cur : tree) (seen : list (K * V)) : list (K * V) * bool :=
    match cur with
    | E => (seen, true)
    | N _ k v l r =>
        let '(s1, c1) := traverse go l seen in
        if negb c1 then (s1, false) else
        let s2 := s1 ++ [(k, v)] in
        if negb (go s2) then (s2, false) else
        let '(s3, c3) := traverse go r s2 in
        if negb c3 then (s3, false) else (s3, true)
    end.

  (** tree/avl/tree.go 135-145, set/treeset/tree.go 149-159: Values *)
  Definition values (s : avl) : list V :=
    match size s with
    | O => []
    | _ => map snd (fst (traverse (fun _ => true) (root s) []))
    end.

  (** tree/avl/tree.go 147-152, set/treeset/tree.go 161-166: Height (nil root with a non-zero size would panic) *)
  Definition height (s : avl) : option Z :=
    match size s with
    | O => Some 0
    | _ => match root s with E => None | t => Some (getHeight t) end
    end.

  (** One call.  Put is Add in set/treeset; Contains and Empty exist only in set/treeset (96-98). *)
  Definition step (s : avl) (o : sm_op K V) : option (avl * sm_out K V) :=
    match o with
    | MPut k v | MInsertIfAbsent k v => '(s', b) <- put_ s k v ;; Some (s', MBool b)
    | MSet k v => '(s', b) <- set s k v ;; Some (s', MBool b)
    | MUpsert k v => '(s', b) <- upsert s k v ;; Some (s', MBool b)
    | MGet k => g <- get_ s k ;; Some (s, MVal g)
    | MContains k => b <- contains s k ;; Some (s, MBool b)
    | MRemove k | MDelete k => '(s', r) <- remove_ s k ;; Some (s', MVal r)
    | MClear => Some (clear s, MUnit)
    | MSize | MLen => Some (s, MNat (size s))
    | MEmpty => Some (s, MBool (Nat.eqb (size s) 0))
    | MValues => Some (s, MVals (values s))
    | MTraverse go => Some (s, MSeen (fst (traverse go (root s) [])))
    end.
End Model.
Arguments avl K V : clear implicits.
