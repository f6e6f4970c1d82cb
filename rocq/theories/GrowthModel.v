(** What the heap, the circular queue and the segmented stack allocate for their own storage: the number of elements
    each call passes to [make].  The slices returned by [Values] are the caller's and are not counted. *)
From Verif Require Import Base HeapSpec QueueSpec StackSpec HeapModel ArrayQueueModel StackModel.

Section Growth.
  Context {A : Type} (zero : A).

  (** tree/heap/heap.go: the [make] of [grow] (line 30, called by [Put] at 66), of [slimming] (line 91, called by [Pop]
      at 111 after the size went down) and of [Reset] (line 49).  [length (elements _)] of the result is the argument
      of [make]. *)
  Definition heap_made (h : heap (A:=A)) (o : heap_op A) : nat :=
    match o with
    | HPut _ => if length (HeapModel.elements h) <=? HeapModel.size h then length (HeapModel.elements (HeapModel.grow zero h)) else 0
    | HPop =>
        if HeapModel.size h =? 0 then 0
        else
          let h1 := {| HeapModel.size := HeapModel.size h - 1; HeapModel.elements := HeapModel.elements h |} in
          let elen := length (HeapModel.elements h) in
          if (32 <=? elen) && (HeapModel.size h1 <=? elen / 2) then length (HeapModel.elements (HeapModel.slimming h1)) else 0
    | HReset => length (HeapModel.elements (HeapModel.reset zero h))
    | _ => 0
    end.

  (** queue/linkedarray/queue.go:8-14: the length of the slice [data] *)
  Definition room (q : option (queue (A:=A))) : nat := match q with Some q => length (data q) | None => 0 end.
  (** queue/linkedarray/queue.go: the [make] of [grow] (line 30, called by the pushes at 60 and 71) and of [slimming]
      (line 43, called by the pops at 125 and 140 unless the queue was empty).  The length of the slice afterwards is
      the argument of [make]. *)
  Definition queue_made (q : queue (A:=A)) (o : queue_op A) : nat :=
    let full := cap q <=? ArrayQueueModel.size q in
    let slim := negb (ArrayQueueModel.size q =? 0) && (ArrayQueueModel.size q - 1 <=? cap q / 2) in
    match o with
    | QPushBack v => if full then room (pushBack zero q v) else 0
    | QPushFront v => if full then room (pushFront zero q v) else 0
    | QPopBack => if slim then room (option_map fst (popBack zero q)) else 0
    | QPopFront => if slim then room (option_map fst (popFront zero q)) else 0
    | _ => 0
    end.

  (** stack/listarray/stack.go: the [make] of [grow] (line 37, called by [Push] at 137 when the top block is full) *)
  Definition stack_made (s : SegStack.st (A:=A)) (o : stack_op A) : nat :=
    match o with
    | Push _ =>
        if SegStack.curp (SegStack.top s) =? length (SegStack.elements (SegStack.top s))
        then snd (SegStack.grownode zero s) else 0
    | _ => 0
    end.

  (** stack/listarray/stack.go:7-20: the slots of all the blocks the stack keeps alive, the cached one included *)
  Definition stack_cells (s : SegStack.st (A:=A)) : nat :=
    length (SegStack.elements (SegStack.top s)) +
    list_sum (map (fun b => length (SegStack.elements b)) (SegStack.downs s)) +
    match SegStack.cache s with Some c => length (SegStack.elements c) | None => 0 end.
End Growth.
