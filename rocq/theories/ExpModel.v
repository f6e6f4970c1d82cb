(** tree/indextree/experiment, type Tree: a copy of tree/avl whose put asks the comparator in another way and keeps the
    number of nodes below each node; get, remove, neighboring, rebalance, the rotations' height updates and the exported
    functions are those of tree/avl line by line (AvlModel.v).  [None] is a Go panic.

    Not modelled here: the fields Size and Parent of its nodes, which only fixPutSize (tree_hide.go 9-14) and the rotations
    use and which no exported function reads (ExpHeapModel.v has them, and that fixPutSize comes to its end is proved
    there); the iterators, which are those of tree/avl.  The calls MContains and MEmpty of the shared list of calls do not exist in this package.

    The other tree of the package, ShiftToleranceTree, is modelled in ShiftModel.v. *)
From Verif Require Import Base Bind SMapSpec AvlTree AvlModel.
Local Open Scope Z_scope.

Section Tree.
  Context {K V : Type} (cmp : K -> K -> Z) (d : Z).
  Notation tree := (tree K V).
  Notation avl := (avl K V).

  (** experiment/tree_hide.go 16-54: put, as [AvlModel.put] otherwise *)
  Fixpoint put (hit : K * V -> K * V) (key : K) (v : V) (cur : tree) (alone : bool) : option (tree * bool * bool) :=
    match cur with
    | E => Some (N 1 key v E E, false, alone)
    | N h ck cv l r =>
        let c := cmp ck key in
        if c <? 0 then
          '(l', ex, rb) <- put hit key v l (is_nil r) ;;
          if (ex || negb rb)%bool then Some (N h ck cv l' r, ex, rb)
          else '(t, rb') <- rebalance Both d (N h ck cv l' r) ;; Some (t, ex, rb')
        else if c >? 0 then
          '(r', ex, rb) <- put hit key v r (is_nil l) ;;
          if (ex || negb rb)%bool then Some (N h ck cv l r', ex, rb)
          else '(t, rb') <- rebalance Both d (N h ck cv l r') ;; Some (t, ex, rb')
        else let '(k', v') := hit (ck, cv) in Some (N h k' v' l r, true, false)
    end.

  (** experiment/tree.go 43-51: Set *)
  Definition set (s : avl) (k : K) (v : V) : option (avl * bool) :=
    '(t, ex, _) <- put (fun _ => (k, v)) k v (root s) false ;;
    Some (AVL t (if ex : bool then size s else S (size s)), negb ex).

  (** experiment/tree.go 54-61: Upsert; get is tree_hide.go 56-65 *)
  Definition upsert (s : avl) (k : K) (v : V) : option (avl * bool) :=
    g <- get cmp k (root s) ;;
    match g with
    | Some _ => t <- get_write cmp k v (root s) ;; Some (AVL t (size s), true)
    | None => '(s', _) <- set s k v ;; Some (s', false)
    end.

  (** experiment/tree.go 63-75: Put and InsertIfAbsent *)
  Definition put_ (s : avl) (k : K) (v : V) : option (avl * bool) :=
    '(t, ex, _) <- put (fun e => e) k v (root s) false ;;
    Some (AVL t (if ex : bool then size s else S (size s)), negb ex).

  (** One call; the rest of experiment/tree.go (77-152: Get, Remove, Delete, Clear, Size, Len, Traverse, Values, Height) and
      remove (tree_hide.go 67-105) are those of tree/avl. *)
  Definition step (s : avl) (o : sm_op K V) : option (avl * sm_out K V) :=
    match o with
    | MPut k v | MInsertIfAbsent k v => '(s', b) <- put_ s k v ;; Some (s', MBool b)
    | MSet k v => '(s', b) <- set s k v ;; Some (s', MBool b)
    | MUpsert k v => '(s', b) <- upsert s k v ;; Some (s', MBool b)
    | _ => AvlModel.step cmp Both d s o
    end.
End Tree.
