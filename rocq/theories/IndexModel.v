(** tree/indextree: binary search trees with stored subtree sizes.

    A node and everything below it is an [AvlTree.tree] whose number is the Go field Size (tree.go 12-20, type hNode:
    Key, Value, Children, Size); a nil pointer is [E].  tree.root is a dummy node: the tree proper is
    tree.root.Children[0].  Parent pointers are not represented: every Go loop that climbs by them starts at a node the
    same call has just come down to, and is written here as what the recursion does on its way back up.  The Balance
    field is always recomputed (updateBalance, utils.go 191-193) before it is read, so it is computed where it is read.
    The rotation counters only feed BenchmarkStats; they are in IndexCountModel.v.  Sizes and positions are integers: no tree has
    2^63 nodes.  [None] is a Go panic. *)
From Verif Require Import Base Bind AvlTree AvlModel IndexSpec.
Local Open Scope Z_scope.

(** int64(1) << height for a height that is not negative *)
Definition shl64 (h : Z) : Z := if h <? 63 then 2 ^ h else if h =? 63 then - 2 ^ 63 else 0.

Section Index.
  Context {K V : Type} (cmp : K -> K -> Z) (shift : Z).
  Notation tree := (tree K V).

  (** tree/indextree/utils.go 184-189: getSize *)
  Definition getSize (t : tree) : Z := match t with E => 0 | N s _ _ _ _ => s end.

  (** utils.go 176-178 with its callers: Size = getChildrenSumSize(cur) + 1 *)
  Definition sum (k : K) (v : V) (l r : tree) : tree := N (getSize l + getSize r + 1) k v l r.

  (** getSize(cur.Children[dir]); reading a child of nil panics, which in the callers the next step does *)
  Definition kidSize (dir : bool) (t : tree) : Z :=
    match t with E => 0 | N _ _ _ l r => getSize (child dir l r) end.

  (** utils.go 108-140: lrotate *)
  Definition lrotate (cur : tree) : option tree :=
    match cur with
    | N _ k v l (N _ mk mv ml mr) => Some (sum mk mv (sum k v l ml) mr)
    | _ => None
    end.

  (** utils.go 142-174: rrotate *)
  Definition rrotate (cur : tree) : option tree :=
    match cur with
    | N _ k v (N _ mk mv ml mr) r => Some (sum mk mv ml (sum k v mr r))
    | _ => None
    end.

  (** utils.go 84-94: sizeRRotate *)
  Definition sizeRRotate (cur : tree) : option tree :=
    match cur with
    | N s k v l (N _ _ _ rl rr as r) =>
        if getSize rl >? getSize rr then r' <- rrotate r ;; lrotate (N s k v l r') else lrotate cur
    | _ => None
    end.

  (** utils.go 96-106: sizeLRotate *)
  Definition sizeLRotate (cur : tree) : option tree :=
    match cur with
    | N s k v (N _ _ _ ll lr as l) r =>
        if getSize ll <? getSize lr then l' <- lrotate l ;; rrotate (N s k v l' r) else rrotate cur
    | _ => None
    end.

  (** What fixPut still has to do when it comes to the next node on its way up: utils.go 43-53 at the parent of the
      new node, the loop 55-81 with the given height, or only fixPutSize (7-13). *)
  Inductive climb := First | Height (h : Z) | Sizes.

  (** utils.go 41-82 (fixPut), 7-13 (fixPutSize), 33-39 (getHeightLimit): one node of the way up.  [shift] is the
      package variable sizeToleranceShift (27-31); a negative shift count panics. *)
  Definition fixPut (c : climb) (cur : tree) : option (tree * climb) :=
    match cur with
    | E => None
    | N s k v l r =>
        let s := s + 1 in
        match c with
        | First => Some (N s k v l r, if s =? 3 then Sizes else Height 2)
        | Sizes => Some (N s k v l r, Sizes)
        | Height h =>
            if shift <? 0 then None else
            let rootsize := shl64 h in
            let bottomsize := Z.shiftr rootsize shift + 1 in
            if s <? rootsize then
              let balance := getSize l - getSize r in
              if balance <? 0 then
                if bottomsize <=? - balance then t <- sizeRRotate (N s k v l r) ;; Some (t, Sizes)
                else Some (N s k v l r, Height (h + 1))
              else
                if bottomsize <=? balance then t <- sizeLRotate (N s k v l r) ;; Some (t, Sizes)
                else Some (N s k v l r, Height (h + 1))
            else Some (N s k v l r, Height (h + 1))
        end
    end.

  (** tree.go 62-102 (Put) and 110-152 (Set) below the root: [hit] is what happens to the node with the key (nothing for
      Put, key and value replaced for Set).  The second result is [None] if the key was there. *)
  Fixpoint put (hit : K * V -> K * V) (key : K) (value : V) (cur : tree) : option (tree * option climb) :=
    match cur with
    | E => Some (N 1 key value E E, Some First)
    | N s k v l r =>
        let c := cmp key k in
        if c <? 0 then
          '(l', res) <- put hit key value l ;;
          match res with
          | None => Some (N s k v l' r, None)
          | Some st => '(t, st') <- fixPut st (N s k v l' r) ;; Some (t, Some st')
          end
        else if c >? 0 then
          '(r', res) <- put hit key value r ;;
          match res with
          | None => Some (N s k v l r', None)
          | Some st => '(t, st') <- fixPut st (N s k v l r') ;; Some (t, Some st')
          end
        else let '(k', v') := hit (k, v) in Some (N s k' v' l r, None)
    end.

  (** tree.go 62-102: Put; the flag is true if the key was new *)
  Definition Put (key : K) (value : V) (t : tree) : option (tree * bool) :=
    '(t', res) <- put (fun e => e) key value t ;; Some (t', match res with None => false | _ => true end).

  (** tree.go 110-152: Set; 112-116 answer true on an empty tree *)
  Definition Set_ (key : K) (value : V) (t : tree) : option (tree * bool) :=
    match t with
    | E => Some (N 1 key value E E, true)
    | _ => '(t', res) <- put (fun _ => (key, value)) key value t ;;
           Some (t', match res with None => true | _ => false end)
    end.

  (** utils.go 316-333: getNode *)
  Fixpoint getNode (key : K) (cur : tree) : tree :=
    match cur with
    | E => E
    | N _ k _ l r => let c := cmp key k in if c <? 0 then getNode key l else if c >? 0 then getNode key r else cur
    end.

  (** utils.go 316-333 and tree.go 157: the assignment to the Value of the node that getNode found *)
  Fixpoint setValue (key : K) (value : V) (cur : tree) : tree :=
    match cur with
    | E => E
    | N s k v l r =>
        let c := cmp key k in
        if c <? 0 then N s k v (setValue key value l) r
        else if c >? 0 then N s k v l (setValue key value r)
        else N s k value l r
    end.

  (** tree.go 155-162: Upsert *)
  Definition Upsert (key : K) (value : V) (t : tree) : option (tree * bool) :=
    match getNode key t with
    | E => '(t', _) <- Put key value t ;; Some (t', false)
    | _ => Some (setValue key value t, true)
    end.

  (** utils.go 302-313: the loop of index; [idx] is the position of [cur].  Going down to nil panics. *)
  Fixpoint indexLoop (i idx : Z) (cur : tree) : option (K * V) :=
    match cur with
    | E => None
    | N _ k v l r =>
        if idx >? i then indexLoop i (idx - (kidSize true l + 1)) l
        else if idx <? i then indexLoop i (idx + (kidSize false r + 1)) r
        else Some (k, v)
    end.

  (** utils.go 289-314: index (a nil root panics too) *)
  Definition index (i : Z) (t : tree) : option (K * V) := indexLoop i (kidSize false t) t.

  (** tree.go 181-199: the loop of IndexOf *)
  Fixpoint indexOfLoop (key : K) (offset : Z) (cur : tree) : Z :=
    match cur with
    | E => -1
    | N _ k _ l r =>
        let c := cmp key k in
        if c <? 0 then indexOfLoop key (offset - (kidSize true l + 1)) l
        else if c >? 0 then indexOfLoop key (offset + (kidSize false r + 1)) r
        else offset
    end.

  (** tree.go 171-201: IndexOf *)
  Definition IndexOf (key : K) (t : tree) : Z := indexOfLoop key (kidSize false t) t.

  (** tree.go 292-314, 381-403: taking out the last node of the left subtree, 319-341, 408-430: the first of the
      right; [dir] is the direction followed.  On the way back fixRemoveSize (utils.go 15-20) counts down. *)
  Fixpoint takeEnd (dir : bool) (cur : tree) : option (tree * (K * V)) :=
    match cur with
    | E => None
    | N s k v l r =>
        match child dir l r with
        | E => Some (child (negb dir) l r, (k, v))
        | N _ _ _ _ _ => '(t, e) <- takeEnd dir (child dir l r) ;; Some (with_child dir (s - 1) k v l r t, e)
        end
    end.

  (** tree.go 283-345, 372-434: removing the node [cur]; gives what stands in its place *)
  Definition removeNode (cur : tree) : option tree :=
    match cur with
    | E => None
    | N s k v l r =>
        if s =? 1 then Some E
        else if getSize l >? getSize r then
          '(l', (k', v')) <- takeEnd true l ;; Some (N (s - 1) k' v' l' r)
        else
          '(r', (k', v')) <- takeEnd false r ;; Some (N (s - 1) k' v' l r')
    end.

  (** tree.go 277-349: Remove; the second result is the value of the node removed, if there was one *)
  Fixpoint removeKey (key : K) (cur : tree) : option (tree * option V) :=
    match cur with
    | E => Some (E, None)
    | N s k v l r =>
        let c := cmp key k in
        if c <? 0 then
          '(l', res) <- removeKey key l ;;
          Some (N (match res with None => s | Some _ => s - 1 end) k v l' r, res)
        else if c >? 0 then
          '(r', res) <- removeKey key r ;;
          Some (N (match res with None => s | Some _ => s - 1 end) k v l r', res)
        else t <- removeNode cur ;; Some (t, Some v)
    end.

  (** tree.go 366-438: RemoveIndex, with the loop of index *)
  Fixpoint removeIndexLoop (i idx : Z) (cur : tree) : option (tree * V) :=
    match cur with
    | E => None
    | N s k v l r =>
        if idx >? i then
          '(l', x) <- removeIndexLoop i (idx - (kidSize true l + 1)) l ;; Some (N (s - 1) k v l' r, x)
        else if idx <? i then
          '(r', x) <- removeIndexLoop i (idx + (kidSize false r + 1)) r ;; Some (N (s - 1) k v l r', x)
        else t <- removeNode cur ;; Some (t, v)
    end.
  Definition RemoveIndex (i : Z) (t : tree) : option (tree * V) := removeIndexLoop i (kidSize false t) t.

  (** ** cutting out a range *)

  (** tree.go 460-476: ltrim of RemoveRange *)
  Fixpoint ltrim (low : K) (t : tree) : tree :=
    match t with
    | E => E
    | N _ k v l r => if cmp low k >? 0 then sum k v l (ltrim low r) else ltrim low l
    end.

  (** tree.go 483-499: rtrim of RemoveRange *)
  Fixpoint rtrim (high : K) (t : tree) : tree :=
    match t with
    | E => E
    | N _ k v l r => if cmp high k <? 0 then sum k v (rtrim high l) r else rtrim high r
    end.

  (** utils.go 257-287: fixRemoveRange.  [x << 1] is twice [x]. *)
  Definition fixRemoveRange (cur : tree) : option tree :=
    match cur with
    | E => None
    | N s k v l r =>
        if s <=? 2 then Some cur else
        let ls := getSize l in
        let rs := getSize r in
        if (ls >? rs) && (rs * 2 <=? ls) then
          match l with
          | E => None
          | N _ _ _ ll lr =>
              if getSize ll <? getSize lr then l' <- lrotate l ;; rrotate (N s k v l' r) else rrotate cur
          end
        else if (ls <? rs) && (ls * 2 <=? rs) then
          match r with
          | E => None
          | N _ _ _ rl rr =>
              if getSize rl >? getSize rr then r' <- rrotate r ;; lrotate (N s k v l r') else lrotate cur
          end
        else Some cur
    end.

  (** utils.go 226-248, mergeGroups: hanging [sub] (not nil, of size [n]) below the last node of [group] in direction
      [dir], then counting and rotating up to the top of the group *)
  Fixpoint attach (dir : bool) (sub : tree) (n : Z) (group : tree) : option tree :=
    match group with
    | E => None
    | N s k v l r =>
        t <- match child dir l r with E => Some sub | N _ _ _ _ _ => attach dir sub n (child dir l r) end ;;
        fixRemoveRange (with_child dir (s + n) k v l r t)
    end.

  (** tree.go 506-525, 622-640 and mergeGroups: joining what is left of the two subtrees *)
  Definition join (lgroup rgroup : tree) : option tree :=
    let rsize := getSize rgroup in
    let lsize := getSize lgroup in
    if lsize >? rsize then
      match rgroup with E => Some lgroup | _ => attach true rgroup rsize lgroup end
    else
      match lgroup with
      | E => match rgroup with E => None | _ => Some rgroup end
      | _ => attach false lgroup lsize rgroup
      end.

  (** What the way up from the cut has to do: nothing (no node in the range), subtract the size that went away
      (tree.go 510-513, 626-629), or recompute the sizes (utils.go 250-254). *)
  Inductive cut := Nothing | Gone (n : Z) | Merged.
  Definition upFromCut (c : cut) (s : Z) (k : K) (v : V) (l r : tree) : tree :=
    match c with Nothing => N s k v l r | Gone n => N (s - n) k v l r | Merged => sum k v l r end.

  (** tree.go 506-525, 622-640 *)
  Definition closeCut (size : Z) (lgroup rgroup : tree) : option (tree * cut) :=
    match lgroup, rgroup with
    | E, E => Some (E, Gone size)
    | _, _ => t <- join lgroup rgroup ;; Some (t, Merged)
    end.

  (** tree.go 454-525 with getRangeRoot (utils.go 202-223): RemoveRange for low before high *)
  Fixpoint removeRange (low high : K) (cur : tree) : option (tree * cut) :=
    match cur with
    | E => Some (E, Nothing)
    | N s k v l r =>
        let c1 := cmp low k in
        let c2 := cmp high k in
        if (c1 =? c2) && (c1 <? 0) then
          '(l', x) <- removeRange low high l ;; Some (upFromCut x s k v l' r, x)
        else if (c1 =? c2) && (c1 >? 0) then
          '(r', x) <- removeRange low high r ;; Some (upFromCut x s k v l r', x)
        else closeCut s (ltrim low l) (rtrim high r)
    end.

  (** tree.go 441-526: RemoveRange *)
  Definition RemoveRange (low high : K) (t : tree) : option tree :=
    let c := cmp low high in
    if c >? 0 then None
    else if c =? 0 then '(t', _) <- removeKey low t ;; Some t'
    else '(t', _) <- removeRange low high t ;; Some t'.

  (** tree.go 560-584: ltrim of RemoveRangeByIndex *)
  Fixpoint ltrimAt (low idx : Z) (dir : bool) (t : tree) : tree :=
    match t with
    | E => E
    | N _ k v l r =>
        let idx := if dir then idx + (getSize l + 1) else idx - (getSize r + 1) in
        if idx <? low then sum k v l (ltrimAt low idx true r)
        else if idx >? low then ltrimAt low idx false l
        else l
    end.

  (** tree.go 591-615: rtrim of RemoveRangeByIndex *)
  Fixpoint rtrimAt (high idx : Z) (dir : bool) (t : tree) : tree :=
    match t with
    | E => E
    | N _ k v l r =>
        let idx := if dir then idx + (getSize l + 1) else idx - (getSize r + 1) in
        if idx >? high then sum k v (rtrimAt high idx false l) r
        else if idx <? high then rtrimAt high idx true r
        else r
    end.

  (** tree.go 544-640: RemoveRangeByIndex for low not above high *)
  Fixpoint removeRangeAt (low high idx : Z) (cur : tree) : option (tree * cut) :=
    match cur with
    | E => None
    | N s k v l r =>
        if (idx >? low) && (idx >? high) then
          '(l', x) <- removeRangeAt low high (idx - (kidSize true l + 1)) l ;; Some (upFromCut x s k v l' r, x)
        else if (idx <? high) && (idx <? low) then
          '(r', x) <- removeRangeAt low high (idx + (kidSize false r + 1)) r ;; Some (upFromCut x s k v l r', x)
        else closeCut s (ltrimAt low idx false l) (rtrimAt high idx true r)
    end.

  (** tree.go 530-641: RemoveRangeByIndex; nothing has been changed when it panics *)
  Definition RemoveRangeByIndex (low high : Z) (t : tree) : option tree :=
    if low >? high then Some t else '(t', _) <- removeRangeAt low high (kidSize false t) t ;; Some t'.

  (** ** keeping a range *)

  (** tree.go 657-677: ltrim of Trim, below the range root *)
  Fixpoint keepFrom (low : K) (t : tree) : tree :=
    match t with
    | E => E
    | N _ k v l r =>
        let c := cmp low k in
        if c >? 0 then keepFrom low r
        else if c <? 0 then sum k v (keepFrom low l) r
        else N (getSize r + 1) k v E r
    end.

  (** tree.go 682-702: rtrim of Trim *)
  Fixpoint keepTo (high : K) (t : tree) : tree :=
    match t with
    | E => E
    | N _ k v l r =>
        let c := cmp high k in
        if c <? 0 then keepTo high l
        else if c >? 0 then sum k v l (keepTo high r)
        else N (getSize l + 1) k v l E
    end.

  (** utils.go 202-223: getRangeRoot *)
  Fixpoint getRangeRoot (low high : K) (cur : tree) : tree :=
    match cur with
    | E => E
    | N _ k _ l r =>
        let c1 := cmp low k in
        let c2 := cmp high k in
        if negb (c1 =? c2) then cur
        else if c1 <? 0 then getRangeRoot low high l
        else if c1 >? 0 then getRangeRoot low high r
        else cur
    end.

  (** tree.go 657-677, 682-702: what the node [t] and everything below it looks like after ltrim(t), rtrim(t), called for
      their assignments only: where they return a node further down, nothing above that node has been assigned to *)
  Fixpoint leaveFrom (low : K) (t : tree) : tree :=
    match t with
    | E => E
    | N s k v l r => if cmp low k >? 0 then N s k v l (leaveFrom low r) else keepFrom low t
    end.
  Fixpoint leaveTo (high : K) (t : tree) : tree :=
    match t with
    | E => E
    | N s k v l r => if cmp high k <? 0 then N s k v (leaveTo high l) r else keepTo high t
    end.

  (** tree.go 644-714: Trim.  The results of ltrim(root) and rtrim(root) are dropped (679, 704). *)
  Definition Trim (low high : K) (t : tree) : option tree :=
    if cmp low high >? 0 then None
    else Some (leaveTo high (leaveFrom low (getRangeRoot low high t))).

  (** tree.go 747-767: ltrim of TrimByIndex.  Reading a child of a nil child panics. *)
  Fixpoint keepFromAt (low idx : Z) (t : tree) : option tree :=
    match t with
    | E => Some E
    | N _ k v l r =>
        if idx <? low then match r with E => None | _ => keepFromAt low (idx + kidSize false r + 1) r end
        else if idx >? low then
          match l with
          | E => None
          | _ => l' <- keepFromAt low (idx - kidSize true l - 1) l ;; Some (sum k v l' r)
          end
        else Some (N (getSize r + 1) k v E r)
    end.

  (** tree.go 772-792: rtrim of TrimByIndex *)
  Fixpoint keepToAt (high idx : Z) (t : tree) : option tree :=
    match t with
    | E => Some E
    | N _ k v l r =>
        if idx >? high then match l with E => None | _ => keepToAt high (idx - kidSize true l - 1) l end
        else if idx <? high then
          match r with
          | E => None
          | _ => r' <- keepToAt high (idx + kidSize false r + 1) r ;; Some (sum k v l r')
          end
        else Some (N (getSize l + 1) k v l E)
    end.

  (** How TrimByIndex ends: with the new root, or with a panic and the (possibly already changed) tree. *)
  Inductive trimmed := Kept (root : tree) | Broken (t : tree).

  (** tree.go 732-812: TrimByIndex for low not above high.  A panic inside ltrim or rtrim comes before any assignment of
      that same closure (they assign on the way back), so it leaves the tree as it was before ltrim, or as ltrim has
      left it, still hanging in its old place below ancestors with their old sizes. *)
  Fixpoint trimAt (low high idx : Z) (cur : tree) : trimmed :=
    match cur with
    | E => Broken E
    | N s k v l r =>
        if (idx >? low) && (idx >? high) then
          match trimAt low high (idx - (kidSize true l + 1)) l with
          | Kept t => Kept t
          | Broken l' => Broken (N s k v l' r)
          end
        else if (idx <? high) && (idx <? low) then
          match trimAt low high (idx + (kidSize false r + 1)) r with
          | Kept t => Kept t
          | Broken r' => Broken (N s k v l r')
          end
        else
          match keepFromAt low idx cur with
          | None => Broken cur
          | Some t1 => match keepToAt high idx t1 with None => Broken t1 | Some t2 => Kept t2 end
          end
    end.

  (** tree.go 717-815: TrimByIndex; the flag says that it returned *)
  Definition TrimByIndex (low high : Z) (t : tree) : tree * bool :=
    if low >? high then (t, false) else
    match trimAt low high (kidSize false t) t with Kept t' => (t', true) | Broken t' => (t', false) end.

  (** ** splitting *)

  (** tree.go 850-891 (Split) and 972-1013 (SplitContain): traverse.  Gives what ends up in lroot.Children[1] and in
      rroot.Children[0].  A node attached on the way has its size recomputed by the calls below, when it is their lroot
      or rroot. *)
  Fixpoint splitBelow (contain : bool) (key : K) (cur : tree) : tree * tree :=
    match cur with
    | E => (E, E)
    | N s k v l r =>
        let c := cmp k key in
        if c >? 0 then let '(a, b) := splitBelow contain key l in (a, sum k v b r)
        else if c <? 0 then let '(a, b) := splitBelow contain key r in (sum k v l a, b)
        else if contain then (N (getSize l + 1) k v l E, r)
        else (l, N (getSize r + 1) k v E r)
    end.

  (** tree.go 832-833, 955-956: the test that makes a node lroot rather than rroot *)
  Definition goesLeft (contain : bool) (key k : K) : bool :=
    let c := cmp k key in if contain then negb (c >? 0) else c <? 0.

  (** tree.go 831-847, 954-969 while only one of the roots has been found ([leftRun]: lroot), then 919-935, 1041-1057.
      [None] if the other root is never found. *)
  Fixpoint splitRun (contain leftRun : bool) (key : K) (cur : tree) : option (tree * tree) :=
    match cur with
    | E => None
    | N _ k v l r =>
        if goesLeft contain key k then
          if leftRun then '(a, b) <- splitRun contain leftRun key r ;; Some (sum k v l a, b)
          else let '(a, b) := splitBelow contain key r in Some (sum k v l a, b)
        else
          if leftRun then let '(a, b) := splitBelow contain key l in Some (a, sum k v b r)
          else '(a, b) <- splitRun contain leftRun key l ;; Some (a, sum k v b r)
    end.

  (** tree.go 818-938 (Split), 941-1060 (SplitContain): the receiver's new content and that of the returned tree;
      [None]: nil was returned, the receiver being empty *)
  Definition Split (contain : bool) (key : K) (t : tree) : option (tree * tree) :=
    match t with
    | E => None
    | N _ k _ _ _ =>
        if goesLeft contain key k then
          match splitRun contain true key t with None => Some (t, E) | Some p => Some p end
        else
          match splitRun contain false key t with None => Some (E, t) | Some p => Some p end
    end.
End Index.

Section Calls.
  Context {K A : Type} (cmp : K -> K -> Z) (shift : Z).
  Notation tree := (tree K (option A)).

  (** tree.go 262-274: Values *)
  Definition Values (t : tree) : list (option A) := map snd (fst (traverse (fun _ => true) t [])).

  Definition orPanic (t : tree) (r : option (tree * ix_out K A)) : tree * ix_out K A :=
    match r with Some p => p | None => (t, XPanic) end.

  (** One call on a tree: the tree afterwards and the result.  A panic recovered by the caller leaves the tree as it was,
      except in TrimByIndex (see [trimAt]).  tree.go 41-46 (Size), 54-59 (Get), 105-107 (InsertIfAbsent), 165-168
      (Index), 236-259 (Traverse), 277-349 (Remove answers nil for an absent key), 352-358 (Delete: a nil value counts
      as absent), 361-363 (Len), 1063-1065 (Clear). *)
  Definition step (t : tree) (o : ix_op K A) : tree * ix_out K A :=
    match o with
    | XPut k v | XInsertIfAbsent k v => orPanic t ('(t', b) <- Put cmp shift k v t ;; Some (t', XBool b))
    | XSet k v => orPanic t ('(t', b) <- Set_ cmp shift k v t ;; Some (t', XBool b))
    | XUpsert k v => orPanic t ('(t', b) <- Upsert cmp shift k v t ;; Some (t', XBool b))
    | XGet k => (t, match getNode cmp k t with E => XFound None false | N _ _ v _ _ => XFound v true end)
    | XRemove k =>
        orPanic t ('(t', res) <- removeKey cmp k t ;; Some (t', XVal match res with None => None | Some v => v end))
    | XDelete k =>
        orPanic t ('(t', res) <- removeKey cmp k t ;;
                   Some (t', match res with
                             | None | Some None => XFound None false
                             | Some (Some v) => XFound (Some v) true
                             end))
    | XSize | XLen => (t, XNum (getSize t))
    | XClear => (E, XUnit)
    | XValues => (t, XVals (Values t))
    | XTraverse go => (t, XSeen (fst (traverse go t [])))
    | XIndex i => orPanic t ('(k, v) <- index i t ;; Some (t, XKV k v))
    | XIndexOf k => (t, XNum (IndexOf cmp k t))
    | XRemoveIndex i => orPanic t ('(t', v) <- RemoveIndex i t ;; Some (t', XVal v))
    | XRemoveRange lo hi => orPanic t (t' <- RemoveRange cmp lo hi t ;; Some (t', XUnit))
    | XRemoveRangeByIndex i j => orPanic t (t' <- RemoveRangeByIndex i j t ;; Some (t', XUnit))
    | XTrim lo hi => orPanic t (t' <- Trim cmp lo hi t ;; Some (t', XUnit))
    | XTrimByIndex i j => let '(t', ok) := TrimByIndex i j t in (t', if ok then XUnit else XPanic)
    | XSplit contain rgt k =>
        match Split cmp contain k t with
        | None => (t, XNil)
        | Some (a, b) =>
            let (go_on, other) := if rgt then (b, a) else (a, b) in
            (go_on, XOther (fst (traverse (fun _ => true) other [])))
        end
    end.
End Calls.
