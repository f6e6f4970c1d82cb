(** tree/treelist: binary search trees with stored subtree sizes whose nodes are also threaded in key order.

    A node is known by a number.  A node and everything below it is an [AvlTree.tree] holding the Go fields Size, Key,
    Value and Children (tree.go 20-29, type treeNode); what is stored with a key is the number of the node and its
    Value.  The Direct pointers are a function of the node's number ([d x false] is x.Direct[0]).  tree.root is a dummy
    node: [top] is tree.root.Children[0] and [ends] is tree.root.Direct.  Parent pointers are not represented: every Go
    loop that climbs by them starts at a node of the tree and follows the path from the root back.  The Balance field is
    always recomputed (updateBalance, utils.go 588-590) before it is read, so it is computed where it is read.  The
    rotation counters are in TreelistCountModel.v.  Sizes and positions are integers: no tree has 2^63 nodes.  What is read through
    a pointer to a node that is not in the tree any more is not modelled: the answer is then [TStale].
    [None] is a Go panic.

    Where the code is that of tree/indextree line by line, the definition is the one of IndexModel.v. *)
From Verif Require Import Base Bind OrderSpec SMapSpec AvlTree AvlModel IndexSpec IndexModel TreelistSpec.
Local Open Scope Z_scope.

Section Treelist.
  Context {K V : Type} (cmp : K -> K -> Z).
  Notation node := (nat * V)%type.
  Notation tree := (tree K node).

  (** the Direct pointers of the nodes, and of tree.root; tree.go 20-37 *)
  Record links := L { d : nat -> bool -> option nat; e : bool -> option nat }.
  (** x.Direct[dir] = y *)
  Definition setd (x : nat) (dir : bool) (y : option nat) (lk : links) : links :=
    L (fun i b => if Nat.eqb i x && Bool.eqb b dir then y else d lk i b) (e lk).
  (** tree.root.Direct[dir] = y *)
  Definition sete (dir : bool) (y : option nat) (lk : links) : links :=
    L (d lk) (fun b => if Bool.eqb b dir then y else e lk b).

  (** tree.go 36-43; [fresh] is a number no node has *)
  Record tl := T { top : tree; lks : links; fresh : nat }.
  (** tree.go 46-48: New *)
  Definition new : tl := T E (L (fun _ _ => None) (fun _ => None)) 0.

  (** utils.go 574-579 (getSize), 566-568 with its callers, 267-298, 300-331, 243-253, 255-265 *)
  Definition getSize : tree -> Z := IndexModel.getSize.
  Definition sum : K -> node -> tree -> tree -> tree := IndexModel.sum.
  Definition lrotate : tree -> option tree := IndexModel.lrotate.
  Definition rrotate : tree -> option tree := IndexModel.rrotate.
  Definition sizeRRotate : tree -> option tree := IndexModel.sizeRRotate.
  Definition sizeLRotate : tree -> option tree := IndexModel.sizeLRotate.

  (** utils.go 149-167: an entry of rootSizeTable, for 2 <= h < 64; the loop is 154-160 *)
  Fixpoint bottomLoop (n : nat) (x rootsize bottomsize : Z) : Z :=
    match n with
    | O => bottomsize
    | S n' => let r := Z.shiftr rootsize x in if r =? 0 then bottomsize else bottomLoop n' (x + 1) rootsize (bottomsize - r)
    end.
  Definition bottomsize (h : Z) : Z := bottomLoop 61 3 (shl64 h) (Z.shiftr (shl64 h) 1).

  (** What fixPut still has to do when it comes to the next node on its way up: utils.go 170-180 at the parent of the new
      node, the loop 182-207 with the given height, only fixPutSize (130-135), or nothing, after a panic. *)
  Inductive climb := First | Height (h : Z) | Sizes | Broken.

  (** utils.go 169-208 (fixPut), 130-135 (fixPutSize): one node of the way up.  rootSizeTable has 64 entries: at height 64
      reading it panics (187), the size of that node having been counted up (183). *)
  Definition fixPut (c : climb) (cur : tree) : option (tree * climb) :=
    match cur with
    | E => None
    | N s k v l r =>
        let s1 := s + 1 in
        match c with
        | First => Some (N s1 k v l r, if s1 =? 3 then Sizes else Height 2)
        | Sizes => Some (N s1 k v l r, Sizes)
        | Broken => Some (N s k v l r, Broken)
        | Height h =>
            if 64 <=? h then Some (N s1 k v l r, Broken)
            else if s1 <? shl64 h then
              let balance := getSize l - getSize r in
              if balance <? 0 then
                if bottomsize h <=? - balance then t <- sizeRRotate (N s1 k v l r) ;; Some (t, Sizes)
                else Some (N s1 k v l r, Height (h + 1))
              else
                if bottomsize h <=? balance then t <- sizeLRotate (N s1 k v l r) ;; Some (t, Sizes)
                else Some (N s1 k v l r, Height (h + 1))
            else Some (N s1 k v l r, Height (h + 1))
        end
    end.

  (** How a descent of putWith ends: at a node with the key, or with a new node between [left] and [right]. *)
  Inductive placed := Found | Placed (left right : option nat) (c : climb).

  (** utils.go 74-102 (putWith) and 40-45, 61 (attachNode): [hit] is onExists, [x] the number of the new node, [left] and
      [right] the variables of that name.  On an empty tree putWith calls initRootNode (28-37), which does what
      attachNode would with left and right nil. *)
  Fixpoint put (hit : V -> V) (x : nat) (key : K) (value : V) (left right : option nat) (cur : tree) : option (tree * placed) :=
    match cur with
    | E => Some (N 1 key (x, value) E E, Placed left right First)
    | N s k (i, v) l r =>
        let c := cmp key k in
        if c <? 0 then
          '(l', res) <- put hit x key value left (Some i) l ;;
          match res with
          | Found => Some (N s k (i, v) l' r, Found)
          | Placed a b st => '(t, st') <- fixPut st (N s k (i, v) l' r) ;; Some (t, Placed a b st')
          end
        else if c >? 0 then
          '(r', res) <- put hit x key value (Some i) right r ;;
          match res with
          | Found => Some (N s k (i, v) l r', Found)
          | Placed a b st => '(t, st') <- fixPut st (N s k (i, v) l r') ;; Some (t, Placed a b st')
          end
        else Some (N s k (i, hit v) l r, Found)
    end.

  (** utils.go 47-60: the Direct pointers in attachNode (and 35-36 in initRootNode) *)
  Definition attachLinks (x : nat) (left right : option nat) (lk : links) : links :=
    let lk := match left with Some y => setd y true (Some x) lk | None => sete false (Some x) lk end in
    let lk := match right with Some y => setd y false (Some x) lk | None => sete true (Some x) lk end in
    setd x true right (setd x false left lk).

  (** utils.go 64-103: putWith.  A panic in fixPut comes after the node has been attached. *)
  Definition putWith (key : K) (value : V) (inserted exists_ : bool) (hit : V -> V) (s : tl) : option (tl * tl_out K V) :=
    '(t, res) <- put hit (fresh s) key value None None (top s) ;;
    Some match res with
         | Found => (T t (lks s) (fresh s), TBool exists_)
         | Placed dl dr c =>
             (T t (attachLinks (fresh s) dl dr (lks s)) (S (fresh s)),
              match c with Broken => TPanic | _ => TBool inserted end)
         end.

  (** utils.go 509-526: getNode *)
  Definition getNode : K -> tree -> tree := IndexModel.getNode cmp.
  (** utils.go 482-507: index *)
  Definition index (i : Z) (t : tree) : option (K * node) := IndexModel.index i t.
  (** tree.go 112-141: IndexOf *)
  Definition IndexOf (key : K) (t : tree) : Z := IndexModel.IndexOf cmp key t.

  (** the Key and Value of the node a pointer leads to, if it is in the tree *)
  Fixpoint slice (x : nat) (t : tree) : option (K * V) :=
    match t with
    | E => None
    | N _ k (i, v) l r =>
        if Nat.eqb i x then Some (k, v) else match slice x l with Some kv => Some kv | None => slice x r end
    end.

  (** utils.go 365-472, removeNode: what becomes of the tree when the node [x] is removed.  Either it was a leaf and is
      gone, or it took over Key and Value of the node before or after it, which is gone instead (402-426, 439-460).
      fixRemoveSize (137-142) counts down the sizes from the parent of the node that is gone upwards.  The node is
      looked for where it is in the tree; [None]: it is not there. *)
  Inductive gone := Leaf | TookPrev | TookNext.
  Fixpoint removeAt (x : nat) (cur : tree) : option (tree * ((K * V) * gone)) :=
    match cur with
    | E => None
    | N s k (i, v) l r =>
        if Nat.eqb i x then
          if s =? 1 then Some (E, ((k, v), Leaf))
          else if getSize l >? getSize r then
            '(l', (pk, (_, pv))) <- takeEnd true l ;; Some (N (s - 1) pk (i, pv) l' r, ((k, v), TookPrev))
          else
            '(r', (nk, (_, nv))) <- takeEnd false r ;; Some (N (s - 1) nk (i, nv) l r', ((k, v), TookNext))
        else
          match removeAt x l with
          | Some (l', res) => Some (N (s - 1) k (i, v) l' r, res)
          | None => '(r', res) <- removeAt x r ;; Some (N (s - 1) k (i, v) l r', res)
          end
    end.

  (** utils.go 379-389; tree.go 321-331 and 469-479 *)
  Definition unlink (dleft dright : option nat) (lk : links) : links :=
    let lk := match dleft with Some y => setd y true dright lk | None => sete false dright lk end in
    match dright with Some y => setd y false dleft lk | None => sete true dleft lk end.

  (** utils.go 370-398, 428-435, 462-468: the Direct pointers in removeNode.  In the last two cases the node between is
      cut out: dleft.Direct[R] = cur (or tree.root.Direct[L] = cur), cur.Direct[L] = dleft, and the mirror image.
      [None]: cur.Direct[L] or cur.Direct[R] was nil. *)
  Definition removeLinks (x : nat) (isRoot : bool) (how : gone) (lk : links) : option links :=
    match how with
    | Leaf =>
        Some (if isRoot then sete true None (sete false None lk) else unlink (d lk x false) (d lk x true) lk)
    | TookPrev => p <- d lk x false ;; Some (unlink (d lk p false) (Some x) lk)
    | TookNext => n <- d lk x true ;; Some (unlink (Some x) (d lk n true) lk)
    end.

  (** utils.go 365-472: removeNode(cur) for the node [x] *)
  Definition removeNode (x : nat) (s : tl) : option (tl * tl_out K V) :=
    match removeAt x (top s) with
    | None => Some (s, TStale)
    | Some (t, (kv, how)) =>
        let isRoot := match top s with N _ _ (i, _) _ _ => Nat.eqb i x | E => false end in
        lk <- removeLinks x isRoot how (lks s) ;; Some (T t lk (fresh s), TSlice (Some kv))
    end.

  (** tree.go 185-190: Remove *)
  Definition Remove (key : K) (s : tl) : option (tl * tl_out K V) :=
    match getNode key (top s) with E => Some (s, TSlice None) | N _ _ (i, _) _ _ => removeNode i s end.
  (** tree.go 193-198: RemoveIndex *)
  Definition RemoveIndex (i : Z) (s : tl) : option (tl * tl_out K V) :=
    '(_, (x, _)) <- index i (top s) ;; removeNode x s.
  (** tree.go 201-207, 218-224: Head, Tail *)
  Definition endSlice (dir : bool) (s : tl) : tl_out K V :=
    match e (lks s) dir with
    | None => TSlice None
    | Some x => match slice x (top s) with Some kv => TSlice (Some kv) | None => TStale end
    end.
  (** tree.go 210-215, 227-232: RemoveHead, RemoveTail; removeNode(nil) panics *)
  Definition removeEnd (dir : bool) (s : tl) : option (tl * tl_out K V) :=
    match top s with E => Some (s, TSlice None) | _ => x <- e (lks s) dir ;; removeNode x s end.

  (** ** cutting out a range *)

  (** utils.go 210-241, 333-363 and tree.go 333-351, 481-499 *)
  Definition closeCut : Z -> tree -> tree -> option (tree * cut) := IndexModel.closeCut.
  Definition upFromCut : cut -> Z -> K -> node -> tree -> tree -> tree := IndexModel.upFromCut.

  (** tree.go 254-278: ltrim of RemoveRange, with the value dleft has at the end (nothing if [t] is nil) *)
  Fixpoint ltrim (lk : links) (low : K) (t : tree) : tree * option nat :=
    match t with
    | E => (E, None)
    | N _ k (i, v) l r =>
        let c := cmp low k in
        if c >? 0 then
          let '(child, dl) := ltrim lk low r in
          (sum k (i, v) l child, match child with E => Some i | _ => dl end)
        else if c <? 0 then match l with E => (E, d lk i false) | _ => ltrim lk low l end
        else (l, d lk i false)
    end.
  (** tree.go 288-312: rtrim of RemoveRange, with dright *)
  Fixpoint rtrim (lk : links) (high : K) (t : tree) : tree * option nat :=
    match t with
    | E => (E, None)
    | N _ k (i, v) l r =>
        let c := cmp high k in
        if c <? 0 then
          let '(child, dr) := rtrim lk high l in
          (sum k (i, v) child r, match child with E => Some i | _ => dr end)
        else if c >? 0 then match r with E => (E, d lk i true) | _ => rtrim lk high r end
        else (r, d lk i true)
    end.

  (** tree.go 247-353 with getRangeRoot (utils.go 106-128): RemoveRange for low before high.  With the tree come dleft
      and dright, if a range root was found. *)
  Fixpoint removeRange (lk : links) (low high : K) (cur : tree) : option (tree * cut * option (option nat * option nat)) :=
    match cur with
    | E => Some (E, Nothing, None)
    | N s k (i, v) l r =>
        let c1 := cmp low k in
        let c2 := cmp high k in
        if (c1 =? c2) && (c1 <? 0) then
          '(l', x, dd) <- removeRange lk low high l ;; Some (upFromCut x s k (i, v) l' r, x, dd)
        else if (c1 =? c2) && (c1 >? 0) then
          '(r', x, dd) <- removeRange lk low high r ;; Some (upFromCut x s k (i, v) l r', x, dd)
        else
          let '(lgroup, dleft) := match l with E => (E, d lk i false) | _ => ltrim lk low l end in
          let '(rgroup, dright) := match r with E => (E, d lk i true) | _ => rtrim lk high r end in
          '(t, x) <- closeCut s lgroup rgroup ;; Some (t, x, Some (dleft, dright))
    end.

  (** tree.go 235-354: RemoveRange *)
  Definition RemoveRange (low high : K) (s : tl) : option (tl * tl_out K V) :=
    let c := cmp low high in
    if c >? 0 then None
    else if c =? 0 then
      '(s', res) <- Remove low s ;; Some (s', match res with TSlice None => TBool false | TSlice _ => TBool true | _ => res end)
    else
      '(t, _, dd) <- removeRange (lks s) low high (top s) ;;
      Some match dd with
           | None => (s, TBool false)
           | Some (dleft, dright) => (T t (unlink dleft dright (lks s)) (fresh s), TBool true)
           end.

  (** tree.go 390-420: ltrim of RemoveRangeByIndex, with dleft *)
  Fixpoint ltrimAt (lk : links) (low idx : Z) (dir : bool) (t : tree) : tree * option nat :=
    match t with
    | E => (E, None)
    | N _ k (i, v) l r =>
        let idx := if dir then idx + (getSize l + 1) else idx - (getSize r + 1) in
        if idx <? low then
          let '(child, dl) := ltrimAt lk low idx true r in
          (sum k (i, v) l child, match child with E => Some i | _ => dl end)
        else if idx >? low then match l with E => (E, d lk i false) | _ => ltrimAt lk low idx false l end
        else (l, d lk i false)
    end.
  (** tree.go 430-460: rtrim of RemoveRangeByIndex, with dright *)
  Fixpoint rtrimAt (lk : links) (high idx : Z) (dir : bool) (t : tree) : tree * option nat :=
    match t with
    | E => (E, None)
    | N _ k (i, v) l r =>
        let idx := if dir then idx + (getSize l + 1) else idx - (getSize r + 1) in
        if idx >? high then
          let '(child, dr) := rtrimAt lk high idx false l in
          (sum k (i, v) child r, match child with E => Some i | _ => dr end)
        else if idx <? high then match r with E => (E, d lk i true) | _ => rtrimAt lk high idx true r end
        else (r, d lk i true)
    end.
  (** tree.go 372-499: RemoveRangeByIndex for low not above high *)
  Fixpoint removeRangeAt (lk : links) (low high idx : Z) (cur : tree) : option (tree * cut * (option nat * option nat)) :=
    match cur with
    | E => None
    | N s k (i, v) l r =>
        if (idx >? low) && (idx >? high) then
          '(l', x, dd) <- removeRangeAt lk low high (idx - (kidSize true l + 1)) l ;; Some (upFromCut x s k (i, v) l' r, x, dd)
        else if (idx <? high) && (idx <? low) then
          '(r', x, dd) <- removeRangeAt lk low high (idx + (kidSize false r + 1)) r ;; Some (upFromCut x s k (i, v) l r', x, dd)
        else
          let '(lgroup, dleft) := match l with E => (E, d lk i false) | _ => ltrimAt lk low idx false l end in
          let '(rgroup, dright) := match r with E => (E, d lk i true) | _ => rtrimAt lk high idx true r end in
          '(t, x) <- closeCut s lgroup rgroup ;; Some (t, x, (dleft, dright))
    end.
  (** tree.go 357-500: RemoveRangeByIndex; nothing has been changed when it panics *)
  Definition RemoveRangeByIndex (low high : Z) (s : tl) : option (tl * tl_out K V) :=
    if low >? high then Some (s, TUnit) else
    '(t, _, (dleft, dright)) <- removeRangeAt (lks s) low high (kidSize false (top s)) (top s) ;;
    Some (T t (unlink dleft dright (lks s)) (fresh s), TUnit).

  (** ** keeping a range *)

  (** tree.go 596-599, 603-606, 702-705, 709-712: the first or last node of a tree *)
  Fixpoint endId (dir : bool) (t : tree) : option nat :=
    match t with
    | E => None
    | N _ _ (i, _) l r => match child dir l r with E => Some i | _ => endId dir (child dir l r) end
    end.
  (** tree.go 593-609, 699-715 *)
  Definition closeEnds (t : tree) (lk : links) : links :=
    match endId false t, endId true t with
    | Some lhand, Some rhand =>
        let lk := sete false (Some lhand) (setd lhand false None lk) in
        sete true (Some rhand) (setd rhand true None lk)
    | _, _ => lk
    end.
  (** tree.go 528-611: Trim.  ltrim and rtrim (540-585) and what is done with them are those of the index tree; if
      nothing is left, tree.root.Direct stays. *)
  Definition Trim (low high : K) (s : tl) : option (tl * tl_out K V) :=
    t <- IndexModel.Trim cmp low high (top s) ;; Some (T t (closeEnds t (lks s)) (fresh s), TUnit).
  (** tree.go 614-716: TrimByIndex; when it panics, the tree may have been changed and the thread has not *)
  Definition TrimByIndex (low high : Z) (s : tl) : tl * tl_out K V :=
    let '(t, ok) := IndexModel.TrimByIndex low high (top s) in
    if ok then (T t (closeEnds t (lks s)) (fresh s), TUnit) else (T t (lks s) (fresh s), TPanic).

  (** tree.go 144-167: Traverse; [AvlModel.traverse] is the same traversal.  The callback sees keys and values. *)
  Definition plainKV (en : K * node) : K * V := (fst en, snd (snd en)).
  Definition Traverse (go : list (K * V) -> bool) (t : tree) : list (K * V) :=
    map plainKV (fst (traverse (fun seen => go (map plainKV seen)) t [])).

  Definition orPanic (s : tl) (r : option (tl * tl_out K V)) : tl * tl_out K V :=
    match r with Some p => p | None => (s, TPanic) end.

  (** One call.  [TPanic]: it panicked, the tree being as it was, except in TrimByIndex and when fixPut panics.
      tree.go 67-72 (Size), 75-80 (Get), 85-101 (PutDuplicate, Set, Put), 106-109 (Index), 170-182 (Slices), 503-509
      (Clear).  The function given to PutDuplicate changes the value as [f] does; that it may not change the key is
      documented. *)
  Definition tl_step (s : tl) (o : tl_op K V) : tl * tl_out K V :=
    match o with
    | TPut k v => orPanic s (putWith k v true false (fun v0 => v0) s)
    | TSet k v => orPanic s (putWith k v false true (fun _ => v) s)
    | TPutDuplicate k v f => orPanic s (putWith k v false true f s)
    | TGet k => (s, TVal match getNode k (top s) with E => None | N _ _ (_, v) _ _ => Some v end)
    | TRemove k => orPanic s (Remove k s)
    | TRemoveIndex i => orPanic s (RemoveIndex i s)
    | THead => (s, endSlice false s)
    | TTail => (s, endSlice true s)
    | TRemoveHead => orPanic s (removeEnd false s)
    | TRemoveTail => orPanic s (removeEnd true s)
    | TIndex i => orPanic s ('(k, (_, v)) <- index i (top s) ;; Some (s, TSlice (Some (k, v))))
    | TIndexOf k => (s, TNum (IndexOf k (top s)))
    | TSize => (s, TNum (getSize (top s)))
    | TTraverse go => (s, TSeen (Traverse go (top s)))
    | TSlices => (s, TSeen (Traverse (fun _ => true) (top s)))
    | TClear => (T E (sete true None (sete false None (lks s))) (fresh s), TUnit)
    | TRemoveRange lo hi => orPanic s (RemoveRange lo hi s)
    | TRemoveRangeByIndex i j => orPanic s (RemoveRangeByIndex i j s)
    | TTrim lo hi => orPanic s (Trim lo hi s)
    | TTrimByIndex i j => TrimByIndex i j s
    end.
End Treelist.
Arguments links : clear implicits.
Arguments tl K V : clear implicits.
