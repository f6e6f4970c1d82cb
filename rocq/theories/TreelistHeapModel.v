(** tree/treelist a second time, statement by statement on nodes in memory: Parent and Direct pointers, updates in place,
    loops that climb by Parent.  TreelistModel.v describes the same functions on trees without Parent pointers; that the two
    agree is proved in the TreelistHeap...Proofs.v files and stated in TreelistHeapProps.v.

    The memory is that of IndexHeapModel.v, with the Direct pointers beside it; where the code is that of tree/indextree
    line by line, the definition is the one of IndexHeapModel.v, run on the memory without the Direct pointers ([lift]).
    As there, an address is a number, reading or writing through nil panics, and loops get a number of steps.  The rotation
    counters are not modelled. *)
From Verif Require Import Base IndexSpec IndexModel IndexHeapModel TreelistSpec.
From Verif Require TreelistModel.
Local Open Scope Z_scope.

Section Memory.
  Context {K V : Type}.

  (** tree.go 20-29: type treeNode; Direct[0] is [Direct a false] *)
  Record tmem := TMem { base : mem K V; Direct : nat -> bool -> ptr }.

  (** what running a piece of code gives *)
  Inductive tres (X : Type) := Done (x : X) (m : tmem) | Fail (m : tmem) | Forever.
  Arguments Done {X} _ _.
  Arguments Fail {X} _.
  Arguments Forever {X}.
  Definition TM (X : Type) := tmem -> tres X.
  Definition pure {X} (x : X) : TM X := fun m => Done x m.
  Definition fail {X} : TM X := fun m => Fail m.
  Definition tbind {X Y} (e : TM X) (f : X -> TM Y) : TM Y :=
    fun m => match e m with Done x m' => f x m' | Fail m' => Fail m' | Forever => Forever end.
  (** code that neither reads nor writes Direct pointers *)
  Definition lift {X} (e : M K V X) : TM X :=
    fun m => match e (base m) with Ret x b => Done x (TMem b (Direct m)) | Panic b => Fail (TMem b (Direct m)) | Loop => Forever end.

  (** p.Direct[d] *)
  Definition rdDir (p : ptr) (d : bool) : TM ptr :=
    fun m => match p with None => Fail m | Some a => Done (Direct m a d) m end.
  (** p.Direct[d] = q *)
  Definition setDir (d : bool) (q : ptr) (a : nat) (m : tmem) : tmem :=
    TMem (base m) (fun b e => if Nat.eqb b a && Bool.eqb e d then q else Direct m b e).
  Definition wrDir (p : ptr) (d : bool) (q : ptr) : TM unit :=
    fun m => match p with None => Fail m | Some a => Done tt (setDir d q a m) end.
  (** a new node with the given fields, the others zero *)
  Definition talloc (p : ptr) (s : Z) (k : K) (v : V) : TM ptr :=
    fun m => match alloc p s k v (base m) with
             | Ret q b => Done q (TMem b (upd (Direct m) (next (base m)) (fun _ => None)))
             | Panic b => Fail (TMem b (Direct m))
             | Loop => Forever
             end.
  (** the number of steps for loops *)
  Definition tfueled {X} (f : nat -> TM X) : TM X := fun m => f (S (next (base m))) m.
End Memory.
Arguments tmem K V : clear implicits.
Arguments tres K V X : clear implicits.
Arguments TM K V X : clear implicits.
Arguments Done {K V X} _ _.
Arguments Fail {K V X} _.
Arguments Forever {K V X}.

Notation "'let?' x := e 'in' k" := (tbind e (fun x => k)) (at level 200, x pattern, e at level 100, k at level 200).
Notation "e ;? k" := (tbind e (fun _ => k)) (at level 199, right associativity).

Section Tree.
  (** [zero] and [zeroV] are the Key and the Value of tree.root *)
  Context {K V : Type} (cmp : K -> K -> Z) (zero : K) (zeroV : V).
  Notation M := (M K V).
  Notation TM := (TM K V).

  Section Root.
  (** tree.root *)
  Context (root : nat).
  Notation troot := (Some root : ptr).

  (** utils.go 130-135: fixPutSize *)
  Fixpoint fixPutSize (n : nat) (cur : ptr) : M unit :=
    match n with
    | O => fun _ => Loop
    | S n => if eqp cur troot then ret tt else
        let! s := rd Size cur in wr (setSize (s + 1)) cur ;!
        let! p := rd Parent cur in fixPutSize n p
    end.

  (** utils.go 182-207: the loop of fixPut; 187: rootSizeTable (149-167) has 64 entries, those at 0 and 1 are not read *)
  Fixpoint fixPutLoop (n : nat) (height : Z) (cur : ptr) : M unit :=
    match n with
    | O => fun _ => Loop
    | S n => if eqp cur troot then ret tt else
        let! s := rd Size cur in wr (setSize (s + 1)) cur ;!
        updateBalance cur ;!
        let! parent := rd Parent cur in
        if 64 <=? height then panic else
        let rootsize := shl64 height in
        let bottomsize := TreelistModel.bottomsize height in
        let! s := rd Size cur in
        if s <? rootsize then
          let! balance := rd Balance cur in
          if balance <? 0 then
            if bottomsize <=? - balance then sizeRRotate cur ;! fueled (fun n => fixPutSize n parent)
            else fixPutLoop n (height + 1) parent
          else
            if bottomsize <=? balance then sizeLRotate cur ;! fueled (fun n => fixPutSize n parent)
            else fixPutLoop n (height + 1) parent
        else fixPutLoop n (height + 1) parent
    end.

  (** utils.go 169-208: fixPut *)
  Definition fixPut (cur : ptr) : M unit :=
    let! s := rd Size cur in wr (setSize (s + 1)) cur ;!
    updateBalance cur ;!
    let! s := rd Size cur in
    let! p := rd Parent cur in
    if s =? 3 then fueled (fun n => fixPutSize n p) else fueled (fun n => fixPutLoop n 2 p).

  (** utils.go 28-37: initRootNode *)
  Definition initRootNode (k : K) (v : V) : TM unit :=
    let? node := talloc troot 1 k v in
    lift (wr (setKid false node) troot) ;?
    wrDir troot false node ;?
    wrDir troot true node.

  (** utils.go 39-62: attachNode *)
  Definition attachNode (parent : ptr) (childDir : bool) (k : K) (v : V) (left right : ptr) : TM unit :=
    let? node := talloc parent 1 k v in
    lift (wr (setKid childDir node) parent) ;?
    (if negb (isNil left) then wrDir left true node else wrDir troot false node) ;?
    (if negb (isNil right) then wrDir right false node else wrDir troot true node) ;?
    wrDir node false left ;?
    wrDir node true right ;?
    lift (fixPut parent).

  (** utils.go 77-102: the loop of putWith; [onExists] is what it does to the Value, if it is not nil.  The answer is
      whether the key was there. *)
  Fixpoint putLoop (onExists : option (V -> V)) (k : K) (v : V) (n : nat) (cur left right : ptr) : TM bool :=
    match n with
    | O => fun _ => Forever
    | S n =>
        let? ck := lift (rd Key cur) in
        let c := cmp k ck in
        if c <? 0 then
          let right := cur in
          let? child := lift (rdKid cur false) in
          if negb (isNil child) then putLoop onExists k v n child left right
          else attachNode cur false k v left right ;? pure false
        else if c >? 0 then
          let left := cur in
          let? child := lift (rdKid cur true) in
          if negb (isNil child) then putLoop onExists k v n child left right
          else attachNode cur true k v left right ;? pure false
        else
          match onExists with
          | None => pure true
          | Some f => let? w := lift (rd Value cur) in lift (wr (setValue (f w)) cur) ;? pure true
          end
    end.

  (** utils.go 64-103: putWith *)
  Definition putWith (k : K) (v : V) (insertedResult existsResult : bool) (onExists : option (V -> V)) : TM bool :=
    let? cur := lift (getRoot root) in
    if isNil cur then initRootNode k v ;? pure insertedResult
    else let? there := tfueled (fun n => putLoop onExists k v n cur None None) in
         pure (if there : bool then existsResult else insertedResult).

  (** Slice{Key: p.Key, Value: p.Value}; &p.Slice where it is read at once *)
  Definition slice (p : ptr) : TM (K * V) := lift (let! k := rd Key p in let! v := rd Value p in ret (k, v)).

  (** tree.go 75-80: Get *)
  Definition Get (k : K) : TM (option V) :=
    let? cur := lift (getNode cmp root k) in
    if isNil cur then pure None else let? v := lift (rd Value cur) in pure (Some v).

  (** tree.go 106-109: Index *)
  Definition Index (i : Z) : TM (K * V) := let? node := lift (index root i) in slice node.

  (** utils.go 379-389; tree.go 321-331, 469-479 *)
  Definition unlink (dleft dright : ptr) : TM unit :=
    (if negb (isNil dleft) then wrDir dleft true dright else wrDir troot false dright) ;?
    (if negb (isNil dright) then wrDir dright false dleft else wrDir troot true dleft).

  (** utils.go 401-435 ([L] = 0, prev) and 437-468 ([L] = 1, next; there the names L and R are exchanged).  401-426 and
      437-460 are [replaceBy] of the index tree. *)
  Definition takeOver (L : bool) (cur : ptr) : TM unit :=
    lift (replaceBy root L cur) ;?
    let? q := rdDir cur L in
    let? dleft := rdDir q L in
    (if negb (isNil dleft) then wrDir dleft (negb L) cur else wrDir troot L cur) ;?
    wrDir cur L dleft.

  (** utils.go 365-472: removeNode *)
  Definition removeNode (cur : ptr) : TM (K * V) :=
    let? s := slice cur in
    let? size := lift (rd Size cur) in
    if size =? 1 then
      let? parent := lift (rd Parent cur) in
      if negb (eqp parent troot) then
        let? d := lift (getRelationship cur) in
        lift (wr (setKid d None) parent) ;?
        lift (fueled (fun n => fixRemoveSize root n parent)) ;?
        let? dright := rdDir cur true in
        let? dleft := rdDir cur false in
        unlink dleft dright ;?
        pure s
      else
        lift (wr (setKid false None) parent) ;?
        wrDir troot false None ;?
        wrDir troot true None ;?
        pure s
    else
      let? ab := lift (getChildrenSize cur) in
      takeOver (negb (fst ab >? snd ab)) cur ;?
      pure s.

  (** tree.go 185-190: Remove *)
  Definition Remove (k : K) : TM (option (K * V)) :=
    let? cur := lift (getNode cmp root k) in
    if isNil cur then pure None else let? s := removeNode cur in pure (Some s).

  (** tree.go 193-198: RemoveIndex *)
  Definition RemoveIndex (i : Z) : TM (option (K * V)) :=
    let? cur := lift (index root i) in
    if isNil cur then pure None else let? s := removeNode cur in pure (Some s).

  (** tree.go 201-207, 218-224: Head, Tail *)
  Definition endOf (d : bool) : TM (option (K * V)) :=
    let? h := rdDir troot d in
    if isNil h then pure None else let? s := slice h in pure (Some s).

  (** tree.go 210-215, 227-232: RemoveHead, RemoveTail *)
  Definition removeEnd (d : bool) : TM (option (K * V)) :=
    let? rt := lift (getRoot root) in
    if isNil rt then pure None else
    let? h := rdDir troot d in
    let? s := removeNode h in pure (Some s).

  (** tree.go 254-278 (ltrim: [d] is 1) and 288-312 (rtrim: [d] is 0); [near] is the variable dleft or dright *)
  Fixpoint trim (d : bool) (bound : K) (n : nat) (p near : ptr) : TM (ptr * ptr) :=
    match n with
    | O => fun _ => Forever
    | S n => if isNil p then pure (None, near) else
        let? k := lift (rd Key p) in
        let c := cmp bound k in
        if (if d then c >? 0 else c <? 0) then
          let? q := lift (rdKid p d) in
          let? cn := trim d bound n q near in
          lift (adopt d p (fst cn)) ;?
          pure (p, if isNil (fst cn) then p else snd cn)
        else if (if d then c <? 0 else c >? 0) then
          let? q := lift (rdKid p (negb d)) in
          let? near := (if isNil q then rdDir p (negb d) else pure near) in
          let? q := lift (rdKid p (negb d)) in
          trim d bound n q near
        else
          let? near := rdDir p (negb d) in
          let? q := lift (rdKid p (negb d)) in
          pure (q, near)
    end.

  (** tree.go 280-285, 314-319, 422-427, 462-467: one side of the range root [rt], cut by [f] *)
  Definition side (d : bool) (rt : ptr) (f : ptr -> TM (ptr * ptr)) : TM (ptr * ptr) :=
    let? q := lift (rdKid rt (negb d)) in
    if negb (isNil q) then f q else let? near := rdDir rt (negb d) in pure (None, near).

  (** tree.go 235-354: RemoveRange; 333-351 and mergeGroups (utils.go 333-363) are those of the index tree *)
  Definition RemoveRange (low high : K) : TM bool :=
    let c := cmp low high in
    if c >? 0 then fail
    else if c =? 0 then let? s := Remove low in pure (match s with None => false | Some _ => true end)
    else
      let? cur := lift (getRoot root) in
      let? rt := lift (fueled (fun n => getRangeRoot cmp low high n cur)) in
      if isNil rt then pure false else
      let? l := side true rt (fun q => tfueled (fun n => trim true low n q None)) in
      let? r := side false rt (fun q => tfueled (fun n => trim false high n q None)) in
      unlink (snd l) (snd r) ;?
      lift (closeCut root rt (fst l) (fst r)) ;?
      pure true.

  (** tree.go 390-420 (ltrim: [d] is 1) and 430-460 (rtrim: [d] is 0) *)
  Fixpoint trimAt (d : bool) (bound : Z) (n : nat) (idx : Z) (dir : bool) (p near : ptr) : TM (ptr * ptr) :=
    match n with
    | O => fun _ => Forever
    | S n => if isNil p then pure (None, near) else
        let? w := lift (rdKid p (negb dir)) in
        let? s := lift (getSize w) in
        let idx := if dir then idx + (s + 1) else idx - (s + 1) in
        if (if d then idx <? bound else idx >? bound) then
          let? q := lift (rdKid p d) in
          let? cn := trimAt d bound n idx d q near in
          lift (adopt d p (fst cn)) ;?
          pure (p, if isNil (fst cn) then p else snd cn)
        else if (if d then idx >? bound else idx <? bound) then
          let? q := lift (rdKid p (negb d)) in
          let? near := (if isNil q then rdDir p (negb d) else pure near) in
          let? q := lift (rdKid p (negb d)) in
          trimAt d bound n idx (negb d) q near
        else
          let? near := rdDir p (negb d) in
          let? q := lift (rdKid p (negb d)) in
          pure (q, near)
    end.

  (** tree.go 357-500: RemoveRangeByIndex; a panic is recovered and raised again (363-367) *)
  Definition RemoveRangeByIndex (low high : Z) : TM unit :=
    if low >? high then pure tt else
    let? cur := lift (getRoot root) in
    let? w := lift (rdKid cur false) in
    let? idx := lift (getSize w) in
    let? ri := lift (fueled (fun n => rangeRootAt low high n idx cur)) in
    let (rt, idx) := (ri : ptr * Z) in
    let? l := side true rt (fun q => tfueled (fun n => trimAt true low n idx false q None)) in
    let? r := side false rt (fun q => tfueled (fun n => trimAt false high n idx true q None)) in
    unlink (snd l) (snd r) ;?
    lift (closeCut root rt (fst l) (fst r)).

  (** tree.go 596-601, 603-608, 702-707, 709-714: one end of the tree below [rt] becomes an end of the thread *)
  Definition closeEnd (d : bool) (rt : ptr) : TM unit :=
    let? hand := lift (fueled (fun n => lastNode d n rt)) in
    wrDir hand d None ;?
    wrDir troot d hand.

  (** tree.go 589-609, 695-715.  589-594 and 695-700 are [newRoot] of the index tree. *)
  Definition settle (rt : ptr) : TM unit :=
    lift (newRoot root rt) ;?
    (if negb (isNil rt) then closeEnd false rt ;? closeEnd true rt else pure tt).

  (** tree.go 528-611: Trim *)
  Definition Trim (low high : K) : TM unit :=
    if cmp low high >? 0 then fail else
    let? cur := lift (getRoot root) in
    let? rt := lift (fueled (fun n => getRangeRoot cmp low high n cur)) in
    lift (fueled (fun n => keep cmp false low n rt)) ;?
    lift (fueled (fun n => keep cmp true high n rt)) ;?
    settle rt.

  (** tree.go 614-716: TrimByIndex; a panic is recovered and raised again (620-624) *)
  Definition TrimByIndex (low high : Z) : TM unit :=
    if low >? high then fail else
    let? cur := lift (getRoot root) in
    let? w := lift (rdKid cur false) in
    let? idx := lift (getSize w) in
    let? ri := lift (fueled (fun n => rangeRootAt low high n idx cur)) in
    let (rt, idx) := (ri : ptr * Z) in
    lift (fueled (fun n => keepAt false low n idx rt)) ;?
    lift (fueled (fun n => keepAt true high n idx rt)) ;?
    settle rt.

  (** tree.go 503-509: Clear *)
  Definition Clear : TM unit :=
    lift (wr (setKid false None) troot) ;?
    wrDir troot false None ;?
    wrDir troot true None.
  End Root.

  (** tree.go 46-48: New, in an empty memory; tree.root is at address 0 *)
  Definition tnew : tmem K V :=
    TMem (Mem (fun _ => None) (fun _ _ => None) (fun _ => 0) (fun _ => 0) (fun _ => zero) (fun _ => zeroV) 1) (fun _ _ => None).

  (** One call; [None] is a loop without end.  Besides the functions above: tree.go 67-72 (Size), 83-101 (PutDuplicate, Set,
      Put), 112-141 (IndexOf), 144-167 (Traverse), 170-182 (Slices), those of the index tree.  The function given to
      PutDuplicate changes the value as [f] does. *)
  Definition tanswer {X} (e : TM X) (f : X -> tl_out K V) (m : tmem K V) : option (tmem K V * tl_out K V) :=
    match e m with Done x m' => Some (m', f x) | Fail m' => Some (m', TPanic) | Forever => None end.
  Definition thstepAt (root : nat) (m : tmem K V) (o : tl_op K V) : option (tmem K V * tl_out K V) :=
    match o with
    | TPut k v => tanswer (putWith root k v true false None) TBool m
    | TSet k v => tanswer (putWith root k v false true (Some (fun _ => v))) TBool m
    | TPutDuplicate k v f => tanswer (putWith root k v false true (Some f)) TBool m
    | TGet k => tanswer (Get root k) TVal m
    | TRemove k => tanswer (Remove root k) TSlice m
    | TRemoveIndex i => tanswer (RemoveIndex root i) TSlice m
    | THead => tanswer (endOf root false) TSlice m
    | TTail => tanswer (endOf root true) TSlice m
    | TRemoveHead => tanswer (removeEnd root false) TSlice m
    | TRemoveTail => tanswer (removeEnd root true) TSlice m
    | TIndex i => tanswer (Index root i) (fun s => TSlice (Some s)) m
    | TIndexOf k => tanswer (lift (IndexOf cmp root k)) TNum m
    | TSize => tanswer (lift (treeSize root)) TNum m
    | TTraverse go => tanswer (lift (Traverse root go)) TSeen m
    | TSlices => tanswer (lift (Traverse root (fun _ => true))) TSeen m
    | TClear => tanswer (Clear root) (fun _ => TUnit) m
    | TRemoveRange lo hi => tanswer (RemoveRange root lo hi) TBool m
    | TRemoveRangeByIndex i j => tanswer (RemoveRangeByIndex root i j) (fun _ => TUnit) m
    | TTrim lo hi => tanswer (Trim root lo hi) (fun _ => TUnit) m
    | TTrimByIndex i j => tanswer (TrimByIndex root i j) (fun _ => TUnit) m
    end.
  (** the same with tree.root at address 0 *)
  Definition thstep : tmem K V -> tl_op K V -> option (tmem K V * tl_out K V) := thstepAt 0.
End Tree.
