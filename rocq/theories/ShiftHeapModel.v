(** tree/indextree/experiment/shift_tolerance_tree.go, type ShiftToleranceTree, a second time: statement by statement on nodes
    in memory, with the field Parent, which [ShiftModel] leaves out.  The rotation counters are in ShiftCountModel.v.

    An address is a number; a pointer is [option nat], [None] being nil.  Loops and recursive functions get a number of steps,
    one more than there are nodes in memory.  A result [None] is a panic (a field read or written through nil, an index out of
    range, a negative shift count) or running out of steps.  Sizes and balances are integers, heights int8 ([i8]). *)
From Verif Require Import Base Bind AvlTree AvlModel IndexModel ShiftModel.
Local Open Scope Z_scope.

Section ShiftHeap.
  Context {K V : Type} (cmp : K -> K -> Z) (shift : Z).
  Notation ptr := (option nat).
  (** 20-28: type ShiftToleranceNode; Children[0] and Children[1] are [Kid0] and [Kid1] *)
  Record hnode := HN { Key : K; Value : V; Hgt : Z; Size : Z; Balance : Z; Parent : ptr; Kid0 : ptr; Kid1 : ptr }.
  Record mem := Mem { nodes : nat -> hnode; next : nat }.
  (** reading and writing fields *)
  Definition rd (m : mem) (p : ptr) : option hnode := match p with None => None | Some a => Some (nodes m a) end.
  Definition wr (f : hnode -> hnode) (p : ptr) (m : mem) : option mem :=
    match p with
    | None => None
    | Some a => Some (Mem (fun x => if (x =? a)%nat then f (nodes m a) else nodes m x) (next m))
    end.
  Definition eqp (p q : ptr) : bool :=
    match p, q with None, None => true | Some a, Some b => (a =? b)%nat | _, _ => false end.
  Definition setParent (q : ptr) (n : hnode) := HN (Key n) (Value n) (Hgt n) (Size n) (Balance n) q (Kid0 n) (Kid1 n).
  Definition setKid0 (q : ptr) (n : hnode) := HN (Key n) (Value n) (Hgt n) (Size n) (Balance n) (Parent n) q (Kid1 n).
  Definition setKid1 (q : ptr) (n : hnode) := HN (Key n) (Value n) (Hgt n) (Size n) (Balance n) (Parent n) (Kid0 n) q.
  Definition setHgt (z : Z) (n : hnode) := HN (Key n) (Value n) z (Size n) (Balance n) (Parent n) (Kid0 n) (Kid1 n).
  Definition setSize (z : Z) (n : hnode) := HN (Key n) (Value n) (Hgt n) z (Balance n) (Parent n) (Kid0 n) (Kid1 n).
  Definition setBalance (z : Z) (n : hnode) := HN (Key n) (Value n) (Hgt n) (Size n) z (Parent n) (Kid0 n) (Kid1 n).
  (** tree.Center (10, 37) is the node at address 0 *)
  Notation Center := (Some 0%nat).

  (** 188-193: getSizeTolerance *)
  Definition sizeOf (m : mem) (p : ptr) : Z := match p with None => 0 | Some a => Size (nodes m a) end.
  (** 195-200: getHeightTolerance *)
  Definition heightOf (m : mem) (p : ptr) : Z := match p with None => 0 | Some a => Hgt (nodes m a) end.
  (** 202-210: updateHeight *)
  Definition updateHeight (p : ptr) (m : mem) : option mem :=
    n <- rd m p ;;
    let lh := heightOf m (Kid0 n) in
    let rh := heightOf m (Kid1 n) in
    if lh >? rh then wr (setHgt (i8 (lh + 1))) p m else wr (setHgt (i8 (rh + 1))) p m.
  (** 212-214: updateBalance *)
  Definition updateBalance (p : ptr) (m : mem) : option mem :=
    n <- rd m p ;; wr (setBalance (sizeOf m (Kid0 n) - sizeOf m (Kid1 n))) p m.
  (** 132, 269, 270, 302, 303: Size = the children's sizes + 1 *)
  Definition updateSize (p : ptr) (m : mem) : option mem :=
    n <- rd m p ;; wr (setSize (sizeOf m (Kid0 n) + sizeOf m (Kid1 n) + 1)) p m.

  (** 246-277: lrotate; the result is not used *)
  Definition lrotate (cur : ptr) (m : mem) : option mem :=
    nc <- rd m cur ;;
    let mov := Kid1 nc in
    nm <- rd m mov ;;
    let movright := Kid0 nm in
    np <- rd m (Parent nc) ;;
    m1 <- (if eqp (Kid1 np) cur then wr (setKid1 mov) (Parent nc) m else wr (setKid0 mov) (Parent nc) m) ;;
    nc1 <- rd m1 cur ;;
    m2 <- wr (setParent (Parent nc1)) mov m1 ;;
    m3 <- (match movright with
           | Some _ => m' <- wr (setKid1 movright) cur m2 ;; wr (setParent cur) movright m'
           | None => wr (setKid1 None) cur m2
           end) ;;
    m4 <- wr (setKid0 cur) mov m3 ;;
    m5 <- wr (setParent mov) cur m4 ;;
    m6 <- updateSize cur m5 ;;
    m7 <- updateSize mov m6 ;;
    m8 <- updateBalance cur m7 ;;
    m9 <- updateBalance mov m8 ;;
    m10 <- updateHeight cur m9 ;;
    updateHeight mov m10.
  (** 279-310: rrotate *)
  Definition rrotate (cur : ptr) (m : mem) : option mem :=
    nc <- rd m cur ;;
    let mov := Kid0 nc in
    nm <- rd m mov ;;
    let movright := Kid1 nm in
    np <- rd m (Parent nc) ;;
    m1 <- (if eqp (Kid0 np) cur then wr (setKid0 mov) (Parent nc) m else wr (setKid1 mov) (Parent nc) m) ;;
    nc1 <- rd m1 cur ;;
    m2 <- wr (setParent (Parent nc1)) mov m1 ;;
    m3 <- (match movright with
           | Some _ => m' <- wr (setKid0 movright) cur m2 ;; wr (setParent cur) movright m'
           | None => wr (setKid0 None) cur m2
           end) ;;
    m4 <- wr (setKid1 cur) mov m3 ;;
    m5 <- wr (setParent mov) cur m4 ;;
    m6 <- updateSize cur m5 ;;
    m7 <- updateSize mov m6 ;;
    m8 <- updateBalance cur m7 ;;
    m9 <- updateBalance mov m8 ;;
    m10 <- updateHeight cur m9 ;;
    updateHeight mov m10.
  (** 220-231: sizeLRotate (216-218 is getChildrenSizeTolerance) *)
  Definition sizeLRotate (cur : ptr) (m : mem) : option mem :=
    nc <- rd m cur ;;
    nl <- rd m (Kid0 nc) ;;
    if sizeOf m (Kid0 nl) <? sizeOf m (Kid1 nl) then m1 <- lrotate (Kid0 nc) m ;; rrotate cur m1 else rrotate cur m.
  (** 233-244: sizeRRotate *)
  Definition sizeRRotate (cur : ptr) (m : mem) : option mem :=
    nc <- rd m cur ;;
    nr <- rd m (Kid1 nc) ;;
    if sizeOf m (Kid0 nr) >? sizeOf m (Kid1 nr) then m1 <- rrotate (Kid1 nc) m ;; lrotate cur m1 else lrotate cur m.

  (** 130-137: fixPutSize *)
  Fixpoint fixPutSize (fuel : nat) (cur : ptr) (m : mem) : option mem :=
    match fuel with
    | O => None
    | S fuel =>
        if eqp cur None || eqp cur Center then Some m
        else
          m1 <- updateSize cur m ;;
          m2 <- updateBalance cur m1 ;;
          m3 <- updateHeight cur m2 ;;
          n <- rd m3 cur ;;
          fixPutSize fuel (Parent n) m3
    end.
  (** 140-142, 152-154: Size++, updateBalance, updateHeight *)
  Definition grow (cur : ptr) (m : mem) : option mem :=
    n <- rd m cur ;;
    m1 <- wr (setSize (Size n + 1)) cur m ;;
    m2 <- updateBalance cur m1 ;;
    updateHeight cur m2.
  (** 151-177: the loop of fixPut; 180-186 is getHeightLimit *)
  Fixpoint fixLoop (fuel : nat) (height : Z) (cur : ptr) (m : mem) : option mem :=
    match fuel with
    | O => None
    | S fuel =>
        if eqp cur None || eqp cur Center then Some m
        else
          m1 <- grow cur m ;;
          n <- rd m1 cur ;;
          let parent := Parent n in
          if shift <? 0 then None else
          let rootsize := shl64 height in
          let bottomsize := Z.shiftr rootsize shift + 1 in
          if Size n <? rootsize then
            let balance := Balance n in
            if balance <? 0 then
              if bottomsize <=? - balance
              then m2 <- sizeRRotate cur m1 ;; fixPutSize (S (next m2)) parent m2
              else fixLoop fuel (height + 1) parent m1
            else
              if bottomsize <=? balance
              then m2 <- sizeLRotate cur m1 ;; fixPutSize (S (next m2)) parent m2
              else fixLoop fuel (height + 1) parent m1
          else fixLoop fuel (height + 1) parent m1
    end.
  (** 139-178: fixPut *)
  Definition fixPut (cur : ptr) (m : mem) : option mem :=
    m1 <- grow cur m ;;
    n <- rd m1 cur ;;
    if Size n =? 3 then fixPutSize (S (next m1)) (Parent n) m1 else fixLoop (S (next m1)) 2 (Parent n) m1.

  (** 68-74, 89, 99: a new node *)
  Definition newNode (parent : ptr) (key : K) (value : V) (m : mem) : ptr * mem :=
    let a := next m in
    (Some a, Mem (fun x => if (x =? a)%nat then HN key value 1 1 0 parent None None else nodes m x) (S a)).
  (** 82-108: the loop of Put; whether tree.size is counted up (75, 91, 101) is the second result *)
  Fixpoint descend (fuel : nat) (key : K) (value : V) (cur : ptr) (m : mem) : option (mem * bool) :=
    match fuel with
    | O => None
    | S fuel =>
        n <- rd m cur ;;
        let c := cmp (Key n) key in
        if c <? 0 then
          match Kid1 n with
          | Some _ => descend fuel key value (Kid1 n) m
          | None =>
              let '(node, m1) := newNode cur key value m in
              m2 <- wr (setKid1 node) cur m1 ;;
              m3 <- fixPut cur m2 ;; Some (m3, true)
          end
        else if c >? 0 then
          match Kid0 n with
          | Some _ => descend fuel key value (Kid0 n) m
          | None =>
              let '(node, m1) := newNode cur key value m in
              m2 <- wr (setKid0 node) cur m1 ;;
              m3 <- fixPut cur m2 ;; Some (m3, true)
          end
        else Some (m, false)
    end.
  (** 61-63: getRoot *)
  Definition getRoot (m : mem) : ptr := Kid1 (nodes m 0%nat).
  (** 65-109: Put *)
  Definition put (key : K) (value : V) (m : mem) : option (mem * bool) :=
    match getRoot m with
    | None =>
        let '(node, m1) := newNode Center key value m in
        m2 <- wr (setKid1 node) Center m1 ;; Some (m2, true)
    | cur => descend (S (next m)) key value cur m
    end.
  (** 119-128: get *)
  Fixpoint get (fuel : nat) (key : K) (cur : ptr) (m : mem) : option (option V) :=
    match fuel with
    | O => None
    | S fuel =>
        match cur with
        | None => Some None
        | Some a =>
            let n := nodes m a in
            let c := cmp (Key n) key in
            if c <? 0 then Some (Some (Value n))
            else if c =? 0 then get fuel key (Kid0 n) m
            else if c =? 1 then get fuel key (Kid1 n) m
            else None
        end
    end.

  (** 9-18: the memory and the field size *)
  Record htol := HTOL { memory : mem; hcount : nat }.
  (** 35-44, 46-48: NewShiftTolerance; Children[0] of Center is Center itself.  [k0] and [v0] are zero values. *)
  Definition hnew (k0 : K) (v0 : V) : htol := HTOL (Mem (fun _ => HN k0 v0 0 0 0 None (Some 0%nat) None) 1) 0.
  (** 65-109 (Put), 111-117 (Get), 50-52 (Size), 54-59 (Height) *)
  Definition htol_step (s : htol) (o : stol_op K V) : option (htol * stol_out V) :=
    match o with
    | SPut k v =>
        '(m, b) <- put k v (memory s) ;;
        Some (HTOL m (if b then S (hcount s) else hcount s), SBool b)
    | SGet k => g <- get (S (S (next (memory s)))) k (getRoot (memory s)) (memory s) ;; Some (s, SVal g)
    | SSize => Some (s, SNat (hcount s))
    | SHeight =>
        if (hcount s =? 0)%nat then Some (s, SInt8 0)
        else n <- rd (memory s) (getRoot (memory s)) ;; Some (s, SInt8 (Hgt n))
    end.
End ShiftHeap.
Arguments hnode K V : clear implicits.
Arguments mem K V : clear implicits.
Arguments htol K V : clear implicits.
