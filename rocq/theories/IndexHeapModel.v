(** tree/indextree a second time, statement by statement on nodes in memory: pointers, Parent fields, updates in place,
    loops that climb by Parent.  IndexModel.v describes the same functions on trees without Parent pointers; that the two
    agree is proved in the IndexHeap...Proofs.v files and stated in IndexHeapProps.v.

    An address is a number; a pointer is [option nat], [None] being nil.  Reading or writing a field through nil panics.
    Loops and recursive closures get a number of steps ([fuel]), one more than there are nodes in memory; running out of
    them is [Loop].  Sizes and positions are integers.  The rotation counters are not modelled. *)
From Verif Require Import Base IndexSpec IndexModel.
Local Open Scope Z_scope.

Definition ptr := option nat.
(** pointer comparison *)
Definition eqp (p q : ptr) : bool :=
  match p, q with None, None => true | Some a, Some b => Nat.eqb a b | _, _ => false end.
Definition isNil (p : ptr) : bool := match p with None => true | Some _ => false end.
Definition upd {X : Type} (f : nat -> X) (a : nat) (x : X) : nat -> X := fun b => if Nat.eqb b a then x else f b.

Section Memory.
  Context {K V : Type}.

  (** tree.go 12-20: type hNode, one function per field; [next] is the first unused address.  Children[0] is
      [Children a false]. *)
  Record mem := Mem {
    Parent : nat -> ptr; Children : nat -> bool -> ptr; Size : nat -> Z; Balance : nat -> Z;
    Key : nat -> K; Value : nat -> V; next : nat }.

  (** what running a piece of code gives *)
  Inductive res (X : Type) := Ret (x : X) (m : mem) | Panic (m : mem) | Loop.
  Arguments Ret {X} _ _.
  Arguments Panic {X} _.
  Arguments Loop {X}.
  Definition M (X : Type) := mem -> res X.
  Definition ret {X} (x : X) : M X := fun m => Ret x m.
  Definition panic {X} : M X := fun m => Panic m.
  Definition bind {X Y} (e : M X) (f : X -> M Y) : M Y :=
    fun m => match e m with Ret x m' => f x m' | Panic m' => Panic m' | Loop => Loop end.

  (** reading and writing fields *)
  Definition rd {X} (f : mem -> nat -> X) (p : ptr) : M X :=
    fun m => match p with None => Panic m | Some a => Ret (f m a) m end.
  Definition rdKid (p : ptr) (d : bool) : M ptr := rd (fun m a => Children m a d) p.
  Definition wr (f : nat -> mem -> mem) (p : ptr) : M unit :=
    fun m => match p with None => Panic m | Some a => Ret tt (f a m) end.
  Definition setParent (q : ptr) (a : nat) (m : mem) : mem :=
    Mem (upd (Parent m) a q) (Children m) (Size m) (Balance m) (Key m) (Value m) (next m).
  Definition setKid (d : bool) (q : ptr) (a : nat) (m : mem) : mem :=
    Mem (Parent m) (upd (Children m) a (fun e => if Bool.eqb e d then q else Children m a e)) (Size m) (Balance m) (Key m) (Value m) (next m).
  Definition setSize (z : Z) (a : nat) (m : mem) : mem :=
    Mem (Parent m) (Children m) (upd (Size m) a z) (Balance m) (Key m) (Value m) (next m).
  Definition setBalance (z : Z) (a : nat) (m : mem) : mem :=
    Mem (Parent m) (Children m) (Size m) (upd (Balance m) a z) (Key m) (Value m) (next m).
  Definition setKey (k : K) (a : nat) (m : mem) : mem :=
    Mem (Parent m) (Children m) (Size m) (Balance m) (upd (Key m) a k) (Value m) (next m).
  Definition setValue (v : V) (a : nat) (m : mem) : mem :=
    Mem (Parent m) (Children m) (Size m) (Balance m) (Key m) (upd (Value m) a v) (next m).
  (** a new node with the given fields, the others zero *)
  Definition alloc (p : ptr) (s : Z) (k : K) (v : V) : M ptr :=
    fun m => let a := next m in
      Ret (Some a) (Mem (upd (Parent m) a p) (upd (Children m) a (fun _ => None)) (upd (Size m) a s) (upd (Balance m) a 0)
                        (upd (Key m) a k) (upd (Value m) a v) (S a)).
  (** the number of steps for loops *)
  Definition fueled {X} (f : nat -> M X) : M X := fun m => f (S (next m)) m.
End Memory.
Arguments mem K V : clear implicits.
Arguments res K V X : clear implicits.
Arguments M K V X : clear implicits.
Arguments Ret {K V X} _ _.
Arguments Panic {K V X} _.
Arguments Loop {K V X}.

Notation "'let!' x := e 'in' k" := (bind e (fun x => k)) (at level 200, x pattern, e at level 100, k at level 200).
Notation "e ;! k" := (bind e (fun _ => k)) (at level 199, right associativity).

Section Tree.
  Context {K V : Type} (cmp : K -> K -> Z) (shift : Z).
  Notation M := (M K V).

  (** utils.go 184-189: getSize *)
  Definition getSize (p : ptr) : M Z := match p with None => ret 0 | Some _ => rd Size p end.

  (** utils.go 176-178: getChildrenSumSize *)
  Definition getChildrenSumSize (cur : ptr) : M Z :=
    let! l := rdKid cur false in let! a := getSize l in
    let! r := rdKid cur true in let! b := getSize r in ret (a + b).

  (** utils.go 180-182: getChildrenSize *)
  Definition getChildrenSize (cur : ptr) : M (Z * Z) :=
    let! l := rdKid cur false in let! a := getSize l in
    let! r := rdKid cur true in let! b := getSize r in ret (a, b).

  (** utils.go 191-193: updateBalance *)
  Definition updateBalance (p : ptr) : M unit :=
    let! ab := getChildrenSize p in wr (setBalance (fst ab - snd ab)) p.

  (** utils.go 195-200: getRelationship *)
  Definition getRelationship (cur : ptr) : M bool :=
    let! p := rd Parent cur in let! r := rdKid p true in ret (eqp r cur).

  (** cur.Size = getChildrenSumSize(cur) + 1 *)
  Definition sumSize (cur : ptr) : M unit := let! s := getChildrenSumSize cur in wr (setSize (s + 1)) cur.

  (** utils.go 108-140 (lrotate: L is 1, R is 0) and 142-174 (rrotate: L is 0, R is 1) *)
  Definition rotate (L : bool) (cur : ptr) : M ptr :=
    let R := negb L in
    let! mov := rdKid cur L in
    let! movright := rdKid mov R in
    let! p := rd Parent cur in
    let! pl := rdKid p L in
    (if eqp pl cur then wr (setKid L mov) p else wr (setKid R mov) p) ;!
    let! p := rd Parent cur in
    wr (setParent p) mov ;!
    (if negb (isNil movright) then wr (setKid L movright) cur ;! wr (setParent cur) movright
     else wr (setKid L None) cur) ;!
    wr (setKid R cur) mov ;!
    wr (setParent mov) cur ;!
    sumSize cur ;!
    sumSize mov ;!
    updateBalance cur ;!
    updateBalance mov ;!
    ret mov.
  Definition lrotate : ptr -> M ptr := rotate true.
  Definition rrotate : ptr -> M ptr := rotate false.

  (** utils.go 84-94: sizeRRotate *)
  Definition sizeRRotate (cur : ptr) : M ptr :=
    let! r := rdKid cur true in
    let! ab := getChildrenSize r in
    if fst ab >? snd ab then let! r := rdKid cur true in rrotate r ;! lrotate cur else lrotate cur.

  (** utils.go 96-106: sizeLRotate *)
  Definition sizeLRotate (cur : ptr) : M ptr :=
    let! l := rdKid cur false in
    let! ab := getChildrenSize l in
    if fst ab <? snd ab then let! l := rdKid cur false in lrotate l ;! rrotate cur else rrotate cur.

  Section Root.
  (** tree.root *)
  Context (root : nat).
  Notation troot := (Some root : ptr).

  (** utils.go 335-337: getRoot *)
  Definition getRoot : M ptr := rdKid troot false.

  (** utils.go 7-13: fixPutSize *)
  Fixpoint fixPutSize (n : nat) (cur : ptr) : M unit :=
    match n with
    | O => fun _ => Loop
    | S n => if eqp cur troot then ret tt else
        let! s := rd Size cur in wr (setSize (s + 1)) cur ;!
        updateBalance cur ;!
        let! p := rd Parent cur in fixPutSize n p
    end.

  (** utils.go 15-20: fixRemoveSize *)
  Fixpoint fixRemoveSize (n : nat) (cur : ptr) : M unit :=
    match n with
    | O => fun _ => Loop
    | S n => if eqp cur troot then ret tt else
        let! s := rd Size cur in wr (setSize (s - 1)) cur ;!
        let! p := rd Parent cur in fixRemoveSize n p
    end.

  (** utils.go 55-81: the loop of fixPut; 33-39: getHeightLimit, where a negative shift count panics *)
  Fixpoint fixPutLoop (n : nat) (height : Z) (cur : ptr) : M unit :=
    match n with
    | O => fun _ => Loop
    | S n => if eqp cur troot then ret tt else
        let! s := rd Size cur in wr (setSize (s + 1)) cur ;!
        updateBalance cur ;!
        let! parent := rd Parent cur in
        if shift <? 0 then panic else
        let rootsize := shl64 height in
        let bottomsize := Z.shiftr rootsize shift + 1 in
        let! s := rd Size cur in
        let! balance := rd Balance cur in
        if s <? rootsize then
          if balance <? 0 then
            if bottomsize <=? - balance then sizeRRotate cur ;! fueled (fun n => fixPutSize n parent)
            else fixPutLoop n (height + 1) parent
          else
            if bottomsize <=? balance then sizeLRotate cur ;! fueled (fun n => fixPutSize n parent)
            else fixPutLoop n (height + 1) parent
        else fixPutLoop n (height + 1) parent
    end.

  (** utils.go 41-82: fixPut *)
  Definition fixPut (cur : ptr) : M unit :=
    let! s := rd Size cur in wr (setSize (s + 1)) cur ;!
    updateBalance cur ;!
    let! s := rd Size cur in
    let! p := rd Parent cur in
    if s =? 3 then fueled (fun n => fixPutSize n p) else fueled (fun n => fixPutLoop n 2 p).

  (** tree.go 73-100 (Put) and 121-150 (Set, [over]): the loop; the answer is whether the key was there *)
  Fixpoint putLoop (over : bool) (k : K) (v : V) (n : nat) (cur : ptr) : M bool :=
    match n with
    | O => fun _ => Loop
    | S n =>
        let! ck := rd Key cur in
        let c := cmp k ck in
        let go (d : bool) : M bool :=
          let! q := rdKid cur d in
          if negb (isNil q) then putLoop over k v n q
          else let! node := alloc cur 1 k v in wr (setKid d node) cur ;! fixPut cur ;! ret false in
        if c <? 0 then go false
        else if c >? 0 then go true
        else if over then wr (setKey k) cur ;! wr (setValue v) cur ;! ret true
        else ret true
    end.

  (** tree.go 62-102: Put *)
  Definition Put (k : K) (v : V) : M bool :=
    let! cur := getRoot in
    if isNil cur then let! node := alloc troot 1 k v in wr (setKid false node) troot ;! ret true
    else let! there := fueled (fun n => putLoop false k v n cur) in ret (negb there).

  (** tree.go 110-152: Set *)
  Definition Set_ (k : K) (v : V) : M bool :=
    let! cur := getRoot in
    if isNil cur then let! node := alloc troot 1 k v in wr (setKid false node) troot ;! ret true
    else fueled (fun n => putLoop true k v n cur).

  (** utils.go 316-333: getNode *)
  Fixpoint getNodeLoop (k : K) (n : nat) (cur : ptr) : M ptr :=
    match n with
    | O => fun _ => Loop
    | S n => if isNil cur then ret None else
        let! ck := rd Key cur in
        let c := cmp k ck in
        if c <? 0 then let! q := rdKid cur false in getNodeLoop k n q
        else if c >? 0 then let! q := rdKid cur true in getNodeLoop k n q
        else ret cur
    end.
  Definition getNode (k : K) : M ptr := let! cur := getRoot in fueled (fun n => getNodeLoop k n cur).

  (** tree.go 155-162: Upsert *)
  Definition Upsert (k : K) (v : V) : M bool :=
    let! cur := getNode k in
    if isNil cur then Put k v ;! ret false else wr (setValue v) cur ;! ret true.

  (** utils.go 289-314: index *)
  Fixpoint indexLoop (i : Z) (n : nat) (idx : Z) (cur : ptr) : M ptr :=
    match n with
    | O => fun _ => Loop
    | S n =>
        if idx >? i then
          let! q := rdKid cur false in let! w := rdKid q true in let! s := getSize w in indexLoop i n (idx - (s + 1)) q
        else if idx <? i then
          let! q := rdKid cur true in let! w := rdKid q false in let! s := getSize w in indexLoop i n (idx + (s + 1)) q
        else ret cur
    end.
  Definition index (i : Z) : M ptr :=
    let! cur := getRoot in let! w := rdKid cur false in let! idx := getSize w in fueled (fun n => indexLoop i n idx cur).

  (** tree.go 165-168: Index *)
  Definition Index (i : Z) : M (K * V) :=
    let! p := index i in let! k := rd Key p in let! v := rd Value p in ret (k, v).

  (** tree.go 171-201: IndexOf *)
  Fixpoint indexOfLoop (k : K) (n : nat) (offset : Z) (cur : ptr) : M Z :=
    match n with
    | O => fun _ => Loop
    | S n =>
        let! ck := rd Key cur in
        let c := cmp k ck in
        if c <? 0 then
          let! q := rdKid cur false in
          if isNil q then ret (-1) else
          let! w := rdKid q true in let! s := getSize w in indexOfLoop k n (offset - (s + 1)) q
        else if c >? 0 then
          let! q := rdKid cur true in
          if isNil q then ret (-1) else
          let! w := rdKid q false in let! s := getSize w in indexOfLoop k n (offset + (s + 1)) q
        else ret offset
    end.
  Definition IndexOf (k : K) : M Z :=
    let! cur := getRoot in
    if isNil cur then ret (-1) else
    let! w := rdKid cur false in let! offset := getSize w in fueled (fun n => indexOfLoop k n offset cur).

  (** tree.go 236-259: Traverse; the callback is described by what it answers given the entries it has been handed so
      far, [seen] collects them *)
  Fixpoint traverasl (go : list (K * V) -> bool) (n : nat) (cur : ptr) (seen : list (K * V)) : M (list (K * V) * bool) :=
    match n with
    | O => fun _ => Loop
    | S n => if isNil cur then ret (seen, true) else
        let! l := rdKid cur false in
        let! sc := traverasl go n l seen in
        if negb (snd sc) then ret (fst sc, false) else
        let! k := rd Key cur in let! v := rd Value cur in
        let s2 := fst sc ++ [(k, v)] in
        if negb (go s2) then ret (s2, false) else
        let! r := rdKid cur true in traverasl go n r s2
    end.
  Definition Traverse (go : list (K * V) -> bool) : M (list (K * V)) :=
    let! cur := getRoot in let! sc := fueled (fun n => traverasl go n cur []) in ret (fst sc).

  (** tree.go 262-274: Values *)
  Definition Values : M (list V) := let! l := Traverse (fun _ => true) in ret (map snd l).

  (** tree.go 292-295, 319-322, 381-384, 408-411: prev and next; utils.go 229-231: hand *)
  Fixpoint lastNode (d : bool) (n : nat) (cur : ptr) : M ptr :=
    match n with
    | O => fun _ => Loop
    | S n => let! q := rdKid cur d in if negb (isNil q) then lastNode d n q else ret cur
    end.

  (** tree.go 291-316 (with [L] = 0, prev) and 317-343 (with [L] = 1, next; there the names L and R are exchanged), the same in 380-432 *)
  Definition replaceBy (L : bool) (cur : ptr) : M V :=
    let R := negb L in
    let! q := rdKid cur L in
    let! prev := fueled (fun n => lastNode R n q) in
    let! value := rd Value cur in
    let! k := rd Key prev in wr (setKey k) cur ;!
    let! v := rd Value prev in wr (setValue v) cur ;!
    let! prevParent := rd Parent prev in
    let! w := rdKid prev L in
    (if eqp prevParent cur then
       wr (setKid L w) cur ;!
       (if negb (isNil w) then wr (setParent cur) w else ret tt) ;!
       fueled (fun n => fixRemoveSize n cur)
     else
       wr (setKid R w) prevParent ;!
       (if negb (isNil w) then wr (setParent prevParent) w else ret tt) ;!
       fueled (fun n => fixRemoveSize n prevParent)) ;!
    ret value.

  (** tree.go 283-344, 372-433: removing the node [cur] *)
  Definition removeNode (cur : ptr) : M V :=
    let! s := rd Size cur in
    if s =? 1 then
      let! parent := rd Parent cur in
      let! d := getRelationship cur in
      wr (setKid d None) parent ;!
      fueled (fun n => fixRemoveSize n parent) ;!
      rd Value cur
    else
      let! ab := getChildrenSize cur in
      if fst ab >? snd ab then replaceBy false cur else replaceBy true cur.

  (** utils.go 202-223: getRangeRoot *)
  Fixpoint getRangeRoot (low high : K) (n : nat) (cur : ptr) : M ptr :=
    match n with
    | O => fun _ => Loop
    | S n => if isNil cur then ret None else
        let! k := rd Key cur in
        let c1 := cmp low k in
        let c2 := cmp high k in
        if negb (c1 =? c2) then ret cur
        else if c1 <? 0 then let! q := rdKid cur false in getRangeRoot low high n q
        else if c1 >? 0 then let! q := rdKid cur true in getRangeRoot low high n q
        else ret cur
    end.

  (** root.Children[d] = child; if child != nil { child.Parent = root }; root.Size = getChildrenSumSize(root) + 1 *)
  Definition adopt (d : bool) (p child : ptr) : M unit :=
    wr (setKid d child) p ;!
    (if negb (isNil child) then wr (setParent p) child else ret tt) ;!
    sumSize p.

  (** tree.go 460-476 (ltrim: [d] is 1, keeping what is below low) and 483-499 (rtrim: [d] is 0, above high) *)
  Fixpoint trim (d : bool) (bound : K) (n : nat) (p : ptr) : M ptr :=
    match n with
    | O => fun _ => Loop
    | S n => if isNil p then ret None else
        let! k := rd Key p in
        let c := cmp bound k in
        if (if d then c >? 0 else c <? 0) then
          let! q := rdKid p d in let! child := trim d bound n q in adopt d p child ;! ret p
        else let! w := rdKid p (negb d) in trim d bound n w
    end.

  (** utils.go 257-287: fixRemoveRange *)
  Definition fixRemoveRange (cur : ptr) : M unit :=
    let! s := rd Size cur in
    if s <=? 2 then ret tt else
    let! ab := getChildrenSize cur in
    let (ls, rs) := (ab : Z * Z) in
    if (ls >? rs) && (rs * 2 <=? ls) then
      let! l := rdKid cur false in
      let! cd := getChildrenSize l in
      (if fst cd <? snd cd then lrotate l ;! ret tt else ret tt) ;!
      rrotate cur ;! ret tt
    else if (ls <? rs) && (ls * 2 <=? rs) then
      let! r := rdKid cur true in
      let! cd := getChildrenSize r in
      (if fst cd >? snd cd then rrotate r ;! ret tt else ret tt) ;!
      lrotate cur ;! ret tt
    else ret tt.

  (** utils.go 242-247: the loop of mergeGroups below [rparent] *)
  Fixpoint growUp (childSize : Z) (rparent : ptr) (n : nat) (parent : ptr) : M unit :=
    match n with
    | O => fun _ => Loop
    | S n => if eqp parent rparent then ret tt else
        let! s := rd Size parent in wr (setSize (s + childSize)) parent ;!
        let! temp := rd Parent parent in
        fixRemoveRange parent ;!
        growUp childSize rparent n temp
    end.

  (** utils.go 250-254, tree.go 924-932, 1046-1054: recomputing the sizes up to the dummy node [top] *)
  Fixpoint sumUp (top : nat) (n : nat) (parent : ptr) : M unit :=
    match n with
    | O => fun _ => Loop
    | S n => if eqp parent (Some top) then ret tt else
        sumSize parent ;! let! p := rd Parent parent in sumUp top n p
    end.

  (** utils.go 225-255: mergeGroups *)
  Definition mergeGroups (rt group childGroup : ptr) (childSize : Z) (LR : bool) : M unit :=
    let! rparent := rd Parent rt in
    let! hand := fueled (fun n => lastNode LR n group) in
    wr (setKid LR childGroup) hand ;!
    (if negb (isNil childGroup) then wr (setParent hand) childGroup else ret tt) ;!
    let! d := getRelationship rt in
    wr (setKid d group) rparent ;!
    (if negb (isNil group) then wr (setParent rparent) group else ret tt) ;!
    (if negb (isNil childGroup) then
       let! parent := rd Parent childGroup in fueled (fun n => growUp childSize rparent n parent)
     else ret tt) ;!
    fueled (fun n => sumUp root n rparent).

  (** tree.go 510-513, 626-629 *)
  Fixpoint shrinkUp (size : Z) (n : nat) (rparent : ptr) : M unit :=
    match n with
    | O => fun _ => Loop
    | S n => if eqp rparent troot then ret tt else
        let! s := rd Size rparent in wr (setSize (s - size)) rparent ;!
        let! p := rd Parent rparent in shrinkUp size n p
    end.

  (** tree.go 506-525, 622-640 *)
  Definition closeCut (rt lgroup rgroup : ptr) : M unit :=
    if isNil lgroup && isNil rgroup then
      let! rparent := rd Parent rt in
      let! size := rd Size rt in
      let! d := getRelationship rt in
      wr (setKid d None) rparent ;!
      fueled (fun n => shrinkUp size n rparent)
    else
      let! rsize := getSize rgroup in
      let! lsize := getSize lgroup in
      if lsize >? rsize then mergeGroups rt lgroup rgroup rsize true
      else mergeGroups rt rgroup lgroup lsize false.

  (** tree.go 545-556, 734-745: the node whose position is the first to be in the range *)
  Fixpoint rangeRootAt (low high : Z) (n : nat) (idx : Z) (cur : ptr) : M (ptr * Z) :=
    match n with
    | O => fun _ => Loop
    | S n =>
        if (idx >? low) && (idx >? high) then
          let! q := rdKid cur false in let! w := rdKid q true in let! s := getSize w in rangeRootAt low high n (idx - (s + 1)) q
        else if (idx <? high) && (idx <? low) then
          let! q := rdKid cur true in let! w := rdKid q false in let! s := getSize w in rangeRootAt low high n (idx + (s + 1)) q
        else ret (cur, idx)
    end.

  (** tree.go 560-584 (ltrim: [d] is 1) and 591-615 (rtrim: [d] is 0) *)
  Fixpoint trimAt (d : bool) (bound : Z) (n : nat) (idx : Z) (dir : bool) (p : ptr) : M ptr :=
    match n with
    | O => fun _ => Loop
    | S n => if isNil p then ret None else
        let! w := rdKid p (negb dir) in let! s := getSize w in
        let idx := if dir then idx + (s + 1) else idx - (s + 1) in
        if (if d then idx <? bound else idx >? bound) then
          let! q := rdKid p d in
          let! child := trimAt d bound n idx d q in adopt d p child ;! ret p
        else if (if d then idx >? bound else idx <? bound) then
          let! q := rdKid p (negb d) in trimAt d bound n idx (negb d) q
        else rdKid p (negb d)
    end.

  (** tree.go 530-641: RemoveRangeByIndex; a panic is recovered and raised again (536-540) *)
  Definition RemoveRangeByIndex (low high : Z) : M unit :=
    if low >? high then ret tt else
    let! cur := getRoot in let! w := rdKid cur false in let! idx := getSize w in
    let! ri := fueled (fun n => rangeRootAt low high n idx cur) in
    let (rt, idx) := (ri : ptr * Z) in
    let! l := rdKid rt false in
    let! lgroup := (if negb (isNil l) then fueled (fun n => trimAt true low n idx false l) else ret None) in
    let! r := rdKid rt true in
    let! rgroup := (if negb (isNil r) then fueled (fun n => trimAt false high n idx true r) else ret None) in
    closeCut rt lgroup rgroup.

  (** tree.go 657-677 (ltrim of Trim: [d] is 0, keeping what is not below low) and 682-702 (rtrim: [d] is 1) *)
  Fixpoint keep (d : bool) (bound : K) (n : nat) (p : ptr) : M ptr :=
    match n with
    | O => fun _ => Loop
    | S n => if isNil p then ret None else
        let! k := rd Key p in
        let c := cmp bound k in
        if (if d then c <? 0 else c >? 0) then let! q := rdKid p (negb d) in keep d bound n q
        else if (if d then c >? 0 else c <? 0) then
          let! q := rdKid p d in let! child := keep d bound n q in adopt d p child ;! ret p
        else
          wr (setKid d None) p ;!
          let! q := rdKid p (negb d) in let! s := getSize q in wr (setSize (s + 1)) p ;! ret p
    end.

  (** tree.go 706-713, 797-802: the range root becomes the root.  The walks to both ends after that (804-812) have no
      effect and are left out.  [root != tree.root] always holds. *)
  Definition newRoot (rt : ptr) : M unit :=
    (if negb (eqp rt troot) then wr (setKid false rt) troot else ret tt) ;!
    (if negb (isNil rt) then wr (setParent troot) rt else ret tt).

  (** tree.go 644-714: Trim *)
  Definition Trim (low high : K) : M unit :=
    if cmp low high >? 0 then panic else
    let! cur := getRoot in
    let! rt := fueled (fun n => getRangeRoot low high n cur) in
    fueled (fun n => keep false low n rt) ;!
    fueled (fun n => keep true high n rt) ;!
    newRoot rt.

  (** tree.go 747-767 (ltrim of TrimByIndex: [d] is 0) and 772-792 (rtrim: [d] is 1) *)
  Fixpoint keepAt (d : bool) (bound : Z) (n : nat) (idx : Z) (p : ptr) : M ptr :=
    match n with
    | O => fun _ => Loop
    | S n => if isNil p then ret None else
        let down (e : bool) : M ptr :=
          let! q := rdKid p e in let! w := rdKid q (negb e) in let! s := getSize w in
          let! q := rdKid p e in keepAt d bound n (if e then idx + s + 1 else idx - s - 1) q in
        if (if d then idx >? bound else idx <? bound) then down (negb d)
        else if (if d then idx <? bound else idx >? bound) then let! child := down d in adopt d p child ;! ret p
        else
          wr (setKid d None) p ;!
          let! q := rdKid p (negb d) in let! s := getSize q in wr (setSize (s + 1)) p ;! ret p
    end.

  (** tree.go 717-815: TrimByIndex; a panic is recovered and raised again (722-726) *)
  Definition TrimByIndex (low high : Z) : M unit :=
    if low >? high then panic else
    let! cur := getRoot in let! w := rdKid cur false in let! idx := getSize w in
    let! ri := fueled (fun n => rangeRootAt low high n idx cur) in
    let (rt, idx) := (ri : ptr * Z) in
    fueled (fun n => keepAt false low n idx rt) ;!
    fueled (fun n => keepAt true high n idx rt) ;!
    newRoot rt.

  (** tree.go 831-847, 954-970: looking for lroot and rroot *)
  Fixpoint splitRoots (contain : bool) (k : K) (n : nat) (cur lroot rroot : ptr) : M (ptr * ptr * ptr) :=
    match n with
    | O => fun _ => Loop
    | S n => if isNil cur then ret (cur, lroot, rroot) else
        let! ck := rd Key cur in
        if goesLeft cmp contain k ck then
          let! q := rdKid cur true in
          if negb (isNil rroot) then ret (q, cur, rroot) else splitRoots contain k n q cur rroot
        else
          let! q := rdKid cur false in
          if negb (isNil lroot) then ret (q, lroot, cur) else splitRoots contain k n q lroot cur
    end.

  (** p.Children[d] = cur; cur.Parent = p *)
  Definition hang (d : bool) (p cur : ptr) : M unit := wr (setKid d cur) p ;! wr (setParent p) cur.

  (** tree.go 849-891, 972-1014: traverse *)
  Fixpoint splitBelow (contain : bool) (k : K) (n : nat) (cur lroot rroot : ptr) : M unit :=
    match n with
    | O => fun _ => Loop
    | S n =>
        if isNil cur then
          wr (setKid true None) lroot ;! let! l := rdKid lroot false in let! s := getSize l in wr (setSize (s + 1)) lroot ;!
          wr (setKid false None) rroot ;! let! r := rdKid rroot true in let! s := getSize r in wr (setSize (s + 1)) rroot
        else
          let! ck := rd Key cur in
          let c := cmp ck k in
          if c >? 0 then
            hang false rroot cur ;!
            let! q := rdKid cur false in splitBelow contain k n q lroot cur ;!
            sumSize rroot
          else if c <? 0 then
            hang true lroot cur ;!
            let! q := rdKid cur true in splitBelow contain k n q cur rroot ;!
            sumSize lroot
          else if contain then
            hang true lroot cur ;!
            let! rgt := rdKid cur true in
            wr (setKid true None) cur ;!
            let! l := rdKid cur false in let! s := getSize l in wr (setSize (s + 1)) cur ;!
            sumSize lroot ;!
            wr (setKid false rgt) rroot ;!
            (if negb (isNil rgt) then wr (setParent rroot) rgt else ret tt) ;!
            sumSize rroot
          else
            hang false rroot cur ;!
            let! lft := rdKid cur false in
            wr (setKid false None) cur ;!
            let! r := rdKid cur true in let! s := getSize r in wr (setSize (s + 1)) cur ;!
            sumSize rroot ;!
            wr (setKid true lft) lroot ;!
            (if negb (isNil lft) then wr (setParent lroot) lft else ret tt) ;!
            sumSize lroot
    end.

  (** tree.go 41-46: Size *)
  Definition treeSize : M Z := let! rt := getRoot in if negb (isNil rt) then rd Size rt else ret 0.

  (** tree.go 1063-1065: Clear *)
  Definition Clear : M unit := wr (setKid false None) troot.

  (** utils.go 339-379, check, which the package's tests call: whether it gets through without panicking.  (Here it goes
      on after an error.) *)
  Fixpoint tcheck (n : nat) (p : ptr) (m : mem K V) : bool :=
    match n, p with
    | O, _ => false
    | S n, None => true
    | S n, Some a =>
        let sz q := match q with None => 0 | Some b => Size m b end in
        let hangs q := match q with None => true | Some b => eqp (Parent m b) p end in
        let l := Children m a false in
        let r := Children m a true in
        (Size m a =? sz l + sz r + 1) && hangs l && hangs r && tcheck n l m && tcheck n r m
    end.
  Definition check (m : mem K V) : bool :=
    let rt := Children m root false in
    match rt with None => true | Some a => eqp (Parent m a) troot end && tcheck (S (next m)) rt m.
  End Root.
End Tree.

(** Index trees hold values that may be nil: [None]. *)
Section Index.
  (** [zero] is the zero value of the key type: the Key of tree.root *)
  Context {K A : Type} (cmp : K -> K -> Z) (shift : Z) (zero : K).
  Notation V := (option A).
  Notation M := (M K V).

  Section Root.
  (** tree.root *)
  Context (root : nat).
  Notation troot := (Some root : ptr).

  (** tree.go 54-59: Get *)
  Definition Get (k : K) : M (V * bool) :=
    let! cur := getNode cmp root k in
    if isNil cur then ret (None, false) else let! v := rd Value cur in ret (v, true).

  (** tree.go 277-349: Remove, nil for an absent key *)
  Definition Remove (k : K) : M V := let! cur := getNode cmp root k in if isNil cur then ret None else removeNode root cur.

  (** tree.go 366-438: RemoveIndex *)
  Definition RemoveIndex (i : Z) : M V := let! cur := index root i in if isNil cur then ret None else removeNode root cur.

  (** tree.go 441-526: RemoveRange *)
  Definition RemoveRange (low high : K) : M unit :=
    let c := cmp low high in
    if c >? 0 then panic
    else if c =? 0 then Remove low ;! ret tt
    else
      let! cur := getRoot root in
      let! rt := fueled (fun n => getRangeRoot cmp low high n cur) in
      if isNil rt then ret tt else
      let! l := rdKid rt false in
      let! lgroup := (if negb (isNil l) then fueled (fun n => trim cmp true low n l) else ret None) in
      let! r := rdKid rt true in
      let! rgroup := (if negb (isNil r) then fueled (fun n => trim cmp false high n r) else ret None) in
      closeCut root rt lgroup rgroup.

  (** tree.go 31-33: New *)
  Definition newTree : M nat := let! p := alloc None 0 zero None in match p with Some a => ret a | None => panic end.

  (** tree.go 818-938 (Split), 941-1060 (SplitContain): the root of the tree returned, if any *)
  Definition Split (contain : bool) (k : K) : M (option nat) :=
    let! rt := getRoot root in
    if isNil rt then ret None else
    let! clr := fueled (fun n => splitRoots cmp contain k n rt None None) in
    let '(cur, lroot, rroot) := (clr : ptr * ptr * ptr) in
    if isNil lroot then
      wr (setKid false None) troot ;!
      let! rtree := newTree in
      wr (setKid false rt) (Some rtree) ;!
      wr (setParent (Some rtree)) rt ;!
      ret (Some rtree)
    else if isNil rroot then let! rtree := newTree in ret (Some rtree)
    else
      let! rtree := newTree in
      let! lp := rd Parent lroot in
      (if negb (eqp lp rroot) then
         wr (setKid false rroot) (Some rtree) ;! wr (setParent (Some rtree)) rroot
       else
         wr (setKid false rt) (Some rtree) ;! wr (setParent (Some rtree)) rt ;!
         wr (setKid false lroot) troot ;! wr (setParent troot) lroot) ;!
      wr (setKid true None) lroot ;!
      wr (setKid false None) rroot ;!
      fueled (fun n => splitBelow cmp contain k n cur lroot rroot) ;!
      fueled (fun n => sumUp root n lroot) ;!
      fueled (fun n => sumUp rtree n rroot) ;!
      ret (Some rtree).

  End Root.

  (** a tree: the memory and tree.root *)
  Definition heapTree : Type := mem K V * nat.

  (** tree.go 31-33: New, in an empty memory *)
  Definition new : heapTree :=
    (Mem (fun _ => None) (fun _ _ => None) (fun _ => 0) (fun _ => 0) (fun _ => zero) (fun _ => None) 1, O).

  (** One call; [None] is a loop without end.  See the functions above and, for Delete and Len, tree.go 352-363.  After
      Split the calls go on with the returned tree or with the receiver. *)
  Definition answer {X} (r : nat) (e : M X) (f : X -> ix_out K A) (m : mem K V) : option (heapTree * ix_out K A) :=
    match e m with Ret x m' => Some ((m', r), f x) | Panic m' => Some ((m', r), XPanic) | Loop => None end.
  Definition hstep (s : heapTree) (o : ix_op K A) : option (heapTree * ix_out K A) :=
    let '(m, r) := s in
    match o with
    | XPut k v | XInsertIfAbsent k v => answer r (Put cmp shift r k v) XBool m
    | XSet k v => answer r (Set_ cmp shift r k v) XBool m
    | XUpsert k v => answer r (Upsert cmp shift r k v) XBool m
    | XGet k => answer r (Get r k) (fun x => XFound (fst x) (snd x)) m
    | XRemove k => answer r (Remove r k) XVal m
    | XDelete k => answer r (Remove r k) (fun v => match v with None => XFound None false | Some x => XFound (Some x) true end) m
    | XSize | XLen => answer r (treeSize r) XNum m
    | XClear => answer r (Clear r) (fun _ => XUnit) m
    | XValues => answer r (Values r) XVals m
    | XTraverse go => answer r (Traverse r go) XSeen m
    | XIndex i => answer r (Index r i) (fun x => XKV (fst x) (snd x)) m
    | XIndexOf k => answer r (IndexOf cmp r k) XNum m
    | XRemoveIndex i => answer r (RemoveIndex r i) XVal m
    | XRemoveRange lo hi => answer r (RemoveRange r lo hi) (fun _ => XUnit) m
    | XRemoveRangeByIndex i j => answer r (RemoveRangeByIndex r i j) (fun _ => XUnit) m
    | XTrim lo hi => answer r (Trim cmp r lo hi) (fun _ => XUnit) m
    | XTrimByIndex i j => answer r (TrimByIndex r i j) (fun _ => XUnit) m
    | XSplit contain rgt k =>
        match Split r contain k m with
        | Ret None m' => Some ((m', r), XNil)
        | Ret (Some r2) m' =>
            let '(here, there) := if rgt then (r2, r) else (r, r2) in
            answer here (Traverse there (fun _ => true)) XOther m'
        | Panic m' => Some ((m', r), XPanic)
        | Loop => None
        end
    end.
End Index.
