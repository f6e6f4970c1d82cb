(** tree/avl and set/treeset a second time: statement by statement on nodes in memory, where [AvlModel] has trees.  In
    particular put gives a pointer to the node, through which Set, Put and Add write when all rotations are done, and remove
    overwrites key and value of a node in its place.  Line numbers are those of tree/avl, then of set/treeset; the rotation
    counters of tree/avl (AvlCountModel.v) are left out.

    An address is a number; a pointer is [option nat], [None] being nil.  Recursive functions get a number of steps, one more
    than there are nodes in memory.  A result [None] is a panic (a field read or written through nil, an index out of range)
    or running out of steps. *)
From Verif Require Import Base Bind SMapSpec AvlTree.
Local Open Scope Z_scope.

Section AvlHeap.
  (** [zero] is the zero value of VALUE, [st] which of the two packages ([AvlTree.style]), [d] differenceHeight *)
  Context {K V : Type} (cmp : K -> K -> Z) (st : style) (d : Z) (zero : V).
  Notation ptr := (option nat).
  (** node.go 7-12 of both: type Node; Children[0] and Children[1] are [Kid0] and [Kid1] *)
  Record hnode := HN { Key : K; Value : V; Hgt : Z; Kid0 : ptr; Kid1 : ptr }.
  Record mem := Mem { nodes : nat -> hnode; next : nat }.
  (** reading and writing fields *)
  Definition kid (n : hnode) (e : bool) : ptr := if e then Kid1 n else Kid0 n.
  Definition rd (m : mem) (p : ptr) : option hnode := match p with None => None | Some a => Some (nodes m a) end.
  Definition rdKid (m : mem) (p : ptr) (e : bool) : option ptr := match p with None => None | Some a => Some (kid (nodes m a) e) end.
  Definition set (a : nat) (f : hnode -> hnode) (m : mem) : mem :=
    Mem (fun x => if (x =? a)%nat then f (nodes m a) else nodes m x) (next m).
  Definition wr (f : hnode -> hnode) (p : ptr) (m : mem) : option mem := match p with None => None | Some a => Some (set a f m) end.
  Definition setKid (e : bool) (q : ptr) (n : hnode) : hnode :=
    if e then HN (Key n) (Value n) (Hgt n) (Kid0 n) q else HN (Key n) (Value n) (Hgt n) q (Kid1 n).
  Definition setHgt (z : Z) (n : hnode) : hnode := HN (Key n) (Value n) z (Kid0 n) (Kid1 n).
  Definition setKey (k : K) (n : hnode) : hnode := HN k (Value n) (Hgt n) (Kid0 n) (Kid1 n).
  Definition setValue (v : V) (n : hnode) : hnode := HN (Key n) v (Hgt n) (Kid0 n) (Kid1 n).
  Definition isNil (p : ptr) : bool := match p with None => true | Some _ => false end.
  (** tree.Center (tree.go 8, 20-26; 11, 22-28) is the node at address 0 *)
  Notation Center := (Some 0%nat).

  (** node.go 91-96; 85-90: getHeight *)
  Definition heightOf (m : mem) (p : ptr) : Z := match p with None => 0 | Some a => Hgt (nodes m a) end.
  (** node.go 35-43: updateHeight; 35-37: updateHeightOneChild(c) *)
  Definition fixHeight (c : bool) (p : ptr) (m : mem) : option mem :=
    n <- rd m p ;;
    let lh := heightOf m (kid n false) in
    let rh := heightOf m (kid n true) in
    match st with
    | Both => if lh >? rh then wr (setHgt (i8 (lh + 1))) p m else wr (setHgt (i8 (rh + 1))) p m
    | One => wr (setHgt (i8 (heightOf m (kid n c) + 1))) p m
    end.
  (** node.go 148-160; 140-151: leftRotate ([e] is 1).  162-174; 153-164: rightRotate ([e] is 0) *)
  Definition rotate (e : bool) (parent : ptr) (child : bool) (m : mem) : option mem :=
    cur <- rdKid m parent child ;;
    sub <- rdKid m cur e ;;
    m1 <- wr (setKid child sub) parent m ;;
    x <- rdKid m1 sub (negb e) ;;
    m2 <- wr (setKid e x) cur m1 ;;
    m3 <- wr (setKid (negb e) cur) sub m2 ;;
    m4 <- fixHeight e cur m3 ;;
    fixHeight (negb e) sub m4.
  (** node.go 107-126; 101-119: leftRotateWithRight ([e] is 1).  128-146; 121-138: rightRotateWithLeft ([e] is 0) *)
  Definition rotate2 (e : bool) (parent : ptr) (child : bool) (m : mem) : option mem :=
    cur <- rdKid m parent child ;;
    sub <- rdKid m cur e ;;
    subsub <- rdKid m sub (negb e) ;;
    m1 <- wr (setKid child subsub) parent m ;;
    c0 <- rdKid m1 subsub (negb e) ;;
    c1 <- rdKid m1 subsub e ;;
    m2 <- wr (setKid (negb e) cur) subsub m1 ;;
    m3 <- wr (setKid e sub) subsub m2 ;;
    m4 <- wr (setKid e c0) cur m3 ;;
    m5 <- wr (setKid (negb e) c1) sub m4 ;;
    m6 <- fixHeight (negb e) cur m5 ;;
    m7 <- fixHeight e sub m6 ;;
    fixHeight (negb e) subsub m7.

  (** tree_hide.go 109-148; 109-150: rebalance *)
  Definition rebalance (parent : ptr) (child : bool) (m : mem) : option (mem * bool) :=
    node <- rdKid m parent child ;;
    n <- rd m node ;;
    let lh := heightOf m (kid n false) in
    let rh := heightOf m (kid n true) in
    let diff := i8 (lh - rh) in
    if d <=? diff then
      sub <- rd m (kid n false) ;;
      m' <- (if heightOf m (kid sub true) >? heightOf m (kid sub false) then rotate2 false parent child m else rotate false parent child m) ;;
      Some (m', true)
    else if diff <=? i8 (- d) then
      sub <- rd m (kid n true) ;;
      m' <- (if heightOf m (kid sub false) >? heightOf m (kid sub true) then rotate2 true parent child m else rotate true parent child m) ;;
      Some (m', true)
    else
      let z := if lh >? rh then i8 (lh + 1) else i8 (rh + 1) in
      if Hgt n =? z then Some (m, false) else m' <- wr (setHgt z) node m ;; Some (m', true).

  (** tree_hide.go 12-15 of both and newNode (node.go 84-89; 78-83): a new node *)
  Definition newNode (key : K) (m : mem) : nat * mem :=
    let a := next m in
    (a, Mem (fun x => if (x =? a)%nat then HN key zero 1 None None else nodes m x) (S a)).
  (** tree_hide.go 9-38 of both: put; the target, whether it was there, and the flag *)
  Fixpoint put (fuel : nat) (parent : ptr) (child : bool) (key : K) (m : mem) : option (mem * ptr * bool * bool) :=
    match fuel with
    | O => None
    | S fuel =>
        cur <- rdKid m parent child ;;
        match cur with
        | None =>
            let '(target, m1) := newNode key m in
            m2 <- wr (setKid child (Some target)) parent m1 ;;
            other <- rdKid m2 parent (negb child) ;;
            Some (m2, Some target, false, isNil other)
        | Some a =>
            let c := cmp (Key (nodes m a)) key in
            if c <? 0 then Some (m, cur, true, false)
            else if (c =? 0) || (c =? 1) then
              '(m1, target, ex, rb) <- put fuel cur (c =? 1) key m ;;
              if (ex || negb rb)%bool then Some (m1, target, ex, rb)
              else '(m2, rb') <- rebalance parent child m1 ;; Some (m2, target, ex, rb')
            else None
        end
    end.
  (** tree_hide.go 40-49 of both: get *)
  Fixpoint get (fuel : nat) (key : K) (cur : ptr) (m : mem) : option ptr :=
    match fuel with
    | O => None
    | S fuel =>
        match cur with
        | None => Some None
        | Some a =>
            let c := cmp (Key (nodes m a)) key in
            if c <? 0 then Some cur
            else if (c =? 0) || (c =? 1) then get fuel key (kid (nodes m a) (c =? 1)) m
            else None
        end
    end.
  (** tree_hide.go 91-107 of both: neighboring *)
  Fixpoint neighboring (fuel : nat) (parent : ptr) (child2 child1 : bool) (m : mem) : option (mem * ptr * bool) :=
    match fuel with
    | O => None
    | S fuel =>
        cur <- rdKid m parent child2 ;;
        sub <- rdKid m cur child1 ;;
        match sub with
        | None =>
            other <- rdKid m cur (negb child1) ;;
            m1 <- wr (setKid child2 other) parent m ;;
            Some (m1, cur, true)
        | Some _ =>
            '(m1, result, rb) <- neighboring fuel cur child1 child1 m ;;
            if rb : bool then '(m2, rb') <- rebalance parent child2 m1 ;; Some (m2, result, rb') else Some (m1, result, false)
        end
    end.
  (** tree_hide.go 51-89 of both: remove.  The target is given by the value it points to: [&cur.Value] of a node taken out
      and [&result] are not written again before Remove reads them. *)
  Fixpoint remove (fuel : nat) (key : K) (grandpa : ptr) (child2 child1 : bool) (m : mem) : option (mem * option V * bool) :=
    match fuel with
    | O => None
    | S fuel =>
        parent <- rdKid m grandpa child2 ;;
        cur <- rdKid m parent child1 ;;
        match cur with
        | None => Some (m, None, false)
        | Some a =>
            let n := nodes m a in
            let c := cmp (Key n) key in
            if c <? 0 then
              if isNil (kid n false) then m1 <- wr (setKid child1 (kid n true)) parent m ;; Some (m1, Some (Value n), true)
              else if isNil (kid n true) then m1 <- wr (setKid child1 (kid n false)) parent m ;; Some (m1, Some (Value n), true)
              else
                '(m1, replacer, _) <- neighboring (S (next m)) cur child1 (negb child1) m ;;
                r <- rd m1 replacer ;;
                m2 <- wr (setKey (Key r)) cur m1 ;;
                r2 <- rd m2 replacer ;;
                m3 <- wr (setValue (Value r2)) cur m2 ;;
                '(m4, rb) <- rebalance parent child1 m3 ;;
                Some (m4, Some (Value n), rb)
            else if (c =? 0) || (c =? 1) then
              '(m1, target, rb) <- remove fuel key parent child1 (c =? 1) m ;;
              if (negb (a =? 0)%nat && rb)%bool then '(m2, rb') <- rebalance parent child1 m1 ;; Some (m2, target, rb')
              else Some (m1, target, rb)
            else None
        end
    end.
  (** tree.go 116-131; 130-145: the recursive closure of Traverse, as in [AvlModel.traverse] *)
  Fixpoint traverse (fuel : nat) (go : list (K * V) -> bool) (cur : ptr) (seen : list (K * V)) (m : mem) : option (list (K * V) * bool) :=
    match fuel with
    | O => None
    | S fuel =>
        match cur with
        | None => Some (seen, true)
        | Some a =>
            let n := nodes m a in
            '(s1, c1) <- traverse fuel go (kid n false) seen m ;;
            if negb c1 then Some (s1, false) else
            let s2 := s1 ++ [(Key n, Value n)] in
            if negb (go s2) then Some (s2, false) else
            '(s3, c3) <- traverse fuel go (kid n true) s2 m ;;
            if negb c3 then Some (s3, false) else Some (s3, true)
        end
    end.

  (** tree.go 7-15; 10-17: the memory and the field size *)
  Record havl := HAVL { memory : mem; hsize : nat }.
  (** tree.go 17-41; 19-43: New, NewEx; Children[0] of Center is Center itself.  [k0] is the zero key. *)
  Definition hnew (k0 : K) : havl := HAVL (Mem (fun _ => HN k0 zero 0 (Some 0%nat) None) 1) 0.
  (** tree_hide.go 5-7 of both: getRoot *)
  Definition getRoot (m : mem) : ptr := Kid1 (nodes m 0%nat).
  (** tree.go 43-51; 45-53: Set *)
  Definition hset (s : havl) (k : K) (v : V) : option (havl * bool) :=
    '(m1, target, ex, _) <- put (S (next (memory s))) Center true k (memory s) ;;
    m2 <- wr (setKey k) target m1 ;;
    m3 <- wr (setValue v) target m2 ;;
    Some (HAVL m3 (if ex : bool then hsize s else S (hsize s)), negb ex).
  (** tree.go 53-61; 55-63: Upsert *)
  Definition hupsert (s : havl) (k : K) (v : V) : option (havl * bool) :=
    g <- get (S (next (memory s))) k (getRoot (memory s)) (memory s) ;;
    match g with
    | Some _ => m1 <- wr (setValue v) g (memory s) ;; Some (HAVL m1 (hsize s), true)
    | None => '(s', _) <- hset s k v ;; Some (s', false)
    end.
  (** tree.go 63-75; 65-77: Put and InsertIfAbsent, Add and InsertIfAbsent *)
  Definition hput (s : havl) (k : K) (v : V) : option (havl * bool) :=
    '(m1, target, ex, _) <- put (S (next (memory s))) Center true k (memory s) ;;
    if ex : bool then Some (HAVL m1 (hsize s), false)
    else m2 <- wr (setValue v) target m1 ;; Some (HAVL m2 (S (hsize s)), true).
  (** tree.go 77-84; 87-94: Get *)
  Definition hget (s : havl) (k : K) : option (option V) :=
    g <- get (S (next (memory s))) k (getRoot (memory s)) (memory s) ;;
    match g with Some a => Some (Some (Value (nodes (memory s) a))) | None => Some None end.
  (** tree.go 86-98; 100-112: Remove and Delete *)
  Definition hremove (s : havl) (k : K) : option (havl * option V) :=
    '(m1, target, _) <- remove (S (next (memory s))) k Center false true (memory s) ;;
    match target with
    | Some v => Some (HAVL m1 (hsize s - 1), Some v)
    | None => Some (HAVL m1 (hsize s), None)
    end.
  (** tree.go 100-103; 114-117: Clear *)
  Definition hclear (s : havl) : havl := HAVL (set 0%nat (setKid true None) (memory s)) 0.
  (** tree.go 116-133; 130-147: Traverse *)
  Definition htraverse (s : havl) (go : list (K * V) -> bool) : option (list (K * V)) :=
    '(l, _) <- traverse (S (next (memory s))) go (getRoot (memory s)) [] (memory s) ;; Some l.
  (** One call, as in [AvlModel.step]: Size, Len (tree.go 105-112; 119-126), Values (135-145; 149-159), Empty and Contains
      (treeset 79-85, 96-98) *)
  Definition hstep (s : havl) (o : sm_op K V) : option (havl * sm_out K V) :=
    match o with
    | MPut k v | MInsertIfAbsent k v => '(s', b) <- hput s k v ;; Some (s', MBool b)
    | MSet k v => '(s', b) <- hset s k v ;; Some (s', MBool b)
    | MUpsert k v => '(s', b) <- hupsert s k v ;; Some (s', MBool b)
    | MGet k => g <- hget s k ;; Some (s, MVal g)
    | MContains k => g <- hget s k ;; Some (s, MBool (match g with Some _ => true | None => false end))
    | MRemove k | MDelete k => '(s', r) <- hremove s k ;; Some (s', MVal r)
    | MClear => Some (hclear s, MUnit)
    | MSize | MLen => Some (s, MNat (hsize s))
    | MEmpty => Some (s, MBool (Nat.eqb (hsize s) 0))
    | MValues => if (hsize s =? 0)%nat then Some (s, MVals []) else l <- htraverse s (fun _ => true) ;; Some (s, MVals (map snd l))
    | MTraverse go => l <- htraverse s go ;; Some (s, MSeen l)
    end.
  (** tree.go 147-152; 161-166: Height *)
  Definition hheight (s : havl) : option Z :=
    if (hsize s =? 0)%nat then Some 0 else n <- rd (memory s) (getRoot (memory s)) ;; Some (Hgt n).
End AvlHeap.
Arguments hnode K V : clear implicits.
Arguments mem K V : clear implicits.
Arguments havl K V : clear implicits.
