(** C74: what the heap, the circular queue and the segmented stack keep allocated, and what they allocate in all. *)
From Verif Require Import Base Machine HeapSpec QueueSpec StackSpec HeapModel ArrayQueueModel StackModel.
From Verif Require Import GrowthSpec GrowthModel GrowthProofs.

(* ------------------------------------------------------------------ *)
(** * The heap, whatever the comparator answers *)

(** Memory: without Clear the slice is never longer than twice the contents (or 31) ... *)
Theorem C74_heap_memory : forall (A : Type) (zero : A) (compare : A -> A -> Z) (ops : list (heap_op A)),
  ~ In HClear ops ->
  exists h, reach (HeapModel.step zero compare) (HeapModel.new zero) ops = Some h /\
    HeapModel.size h = fold_left heap_count ops 0 /\
    length (HeapModel.elements h) <= Nat.max 31 (2 * HeapModel.size h).
Proof. exact @HeapG.heap_memory_now. Qed.
Print Assumptions C74_heap_memory.

(** ... and with it, never longer than twice what the heap once held (or 31). *)
Theorem C74_heap_memory_peak : forall (A : Type) (zero : A) (compare : A -> A -> Z) (ops : list (heap_op A)) (p : nat),
  at_most heap_count (fun n => n) 0 ops p ->
  exists h, reach (HeapModel.step zero compare) (HeapModel.new zero) ops = Some h /\
    HeapModel.size h = fold_left heap_count ops 0 /\
    length (HeapModel.elements h) <= Nat.max 31 (2 * p).
Proof. exact @HeapG.heap_memory_peak. Qed.
Print Assumptions C74_heap_memory_peak.

(** Work: all the slices ever made, together, have no more than 15 slots for every Put, 3 for every Pop and 16 for
    every Reset, and 48 more.  So a call costs a constant on average, however the calls are mixed. *)
Theorem C74_heap_work : forall (A : Type) (zero : A) (compare : A -> A -> Z) (ops : list (heap_op A)),
  spent (HeapModel.step zero compare) (heap_made zero) (HeapModel.new zero) ops <=
    48 + 15 * calls (fun o => match o with HPut _ => true | _ => false end) ops +
    3 * calls (fun o => match o with HPop => true | _ => false end) ops +
    16 * calls (fun o => match o with HReset => true | _ => false end) ops.
Proof. exact @HeapG.heap_work. Qed.
Print Assumptions C74_heap_work.

(** The bill is complete: a call that is billed nothing leaves the slice as long as it was, and one that is billed
    leaves a slice of just that length. *)
Theorem C74_heap_bill : forall (A : Type) (zero : A) (compare : A -> A -> Z) (ops : list (heap_op A)) h o,
  reach (HeapModel.step zero compare) (HeapModel.new zero) ops = Some h ->
  exists h' r, HeapModel.step zero compare h o = Some (h', r) /\
    length (HeapModel.elements h') =
      if heap_made zero h o =? 0 then length (HeapModel.elements h) else heap_made zero h o.
Proof. exact @HeapG.heap_counted. Qed.
Print Assumptions C74_heap_bill.

Definition cmpN (a b : nat) : Z := (Z.of_nat a - Z.of_nat b)%Z.
(** forty Puts take the slice to 64; thirty-five Pops take it back to 27: bills of 32 and 64, then 48, 36 and 27 *)
Definition C74_heap_ops : list (heap_op nat) := map HPut (seq 1 40) ++ repeat HPop 35.
Example C74_heap_case :
  ~ In HClear C74_heap_ops /\ at_most heap_count (fun n => n) 0 C74_heap_ops 40 /\
  option_map (fun h => (HeapModel.size h, length (HeapModel.elements h)))
    (reach (HeapModel.step 0 cmpN) (HeapModel.new 0) C74_heap_ops) = Some (5, 27) /\
  spent (HeapModel.step 0 cmpN) (heap_made 0) (HeapModel.new 0) C74_heap_ops = 32 + 64 + 48 + 36 + 27.
Proof.
  split; [|split; [|split; vm_compute; reflexivity]].
  - intros H. unfold C74_heap_ops in H. apply in_app_or in H as [H|H].
    + apply in_map_iff in H as (x & ? & _). discriminate.
    + apply repeat_spec in H. discriminate.
  - intros k. destruct (Nat.le_gt_cases k 75) as [Hk|Hk].
    + assert (Hall : forallb (fun k => fold_left heap_count (firstn k C74_heap_ops) 0 <=? 40) (seq 0 76) = true)
        by (vm_compute; reflexivity).
      rewrite forallb_forall in Hall. apply Nat.leb_le, Hall, in_seq. lia.
    + rewrite firstn_all2 by (change (length C74_heap_ops) with 75; lia). vm_compute. lia.
Qed.

(** Clear keeps the slice (as its comment says), so the first bound does need its hypothesis. *)
Example C74_heap_clear :
  option_map (fun h => (HeapModel.size h, length (HeapModel.elements h)))
    (reach (HeapModel.step 0 cmpN) (HeapModel.new 0) (map HPut (seq 1 40) ++ [HClear])) = Some (0, 64).
Proof. vm_compute; reflexivity. Qed.

(* ------------------------------------------------------------------ *)
(** * The circular queue *)

Theorem C74_queue_memory : forall (A : Type) (zero : A) (ops : list (queue_op A)),
  exists q, reach (ArrayQueueModel.step zero) (ArrayQueueModel.new zero) ops = Some q /\
    length (data q) <= Nat.max 8 (2 * length (sreach queue_spec [] ops)).
Proof. exact @QueueG.queue_memory. Qed.
Print Assumptions C74_queue_memory.

Theorem C74_queue_work : forall (A : Type) (zero : A) (ops : list (queue_op A)),
  spent (ArrayQueueModel.step zero) (queue_made zero) (ArrayQueueModel.new zero) ops <=
    24 + 15 * calls (fun o => match o with QPushBack _ | QPushFront _ => true | _ => false end) ops +
    3 * calls (fun o => match o with QPopBack | QPopFront => true | _ => false end) ops.
Proof. exact @QueueG.queue_work. Qed.
Print Assumptions C74_queue_work.

Theorem C74_queue_bill : forall (A : Type) (zero : A) (ops : list (queue_op A)) q o,
  reach (ArrayQueueModel.step zero) (ArrayQueueModel.new zero) ops = Some q ->
  exists q' r, ArrayQueueModel.step zero q o = Some (q', r) /\
    length (data q') = if queue_made zero q o =? 0 then length (data q) else queue_made zero q o.
Proof. exact @QueueG.queue_counted. Qed.
Print Assumptions C74_queue_bill.

(** up to 32 slots and down to 3; from there on every PopFront of a single element makes three slots anew *)
Definition C74_queue_ops : list (queue_op nat) :=
  map QPushBack (seq 1 20) ++ repeat QPopFront 20 ++ concat (repeat [QPushFront 7; QPopBack] 5).
Example C74_queue_case :
  option_map (fun q => (ArrayQueueModel.size q, length (data q)))
    (reach (ArrayQueueModel.step 0) (ArrayQueueModel.new 0) C74_queue_ops) = Some (0, 3) /\
  spent (ArrayQueueModel.step 0) (queue_made 0) (ArrayQueueModel.new 0) C74_queue_ops =
    (16 + 32) + (24 + 18 + 14 + 11 + 9 + 7 + 6 + 5 + 4 + 3) + 5 * 3.
Proof. split; vm_compute; reflexivity. Qed.

(* ------------------------------------------------------------------ *)
(** * The segmented stack *)

(** Memory: without Clear all the blocks together, the cached one included, have at most nine times as many slots as
    there are elements (or three times the initial capacity) ... *)
Theorem C74_stack_memory : forall (A : Type) (zero : A) (cap : nat) (ops : list (stack_op A)),
  0 < cap -> ~ In Clear ops ->
  exists s, reach (SegStack.step zero) (SegStack.new_with_cap zero cap) ops = Some s /\
    stack_cells s <= Nat.max (3 * cap) (9 * length (sreach stack_spec [] ops)).
Proof. exact @StackG.stack_memory_now. Qed.
Print Assumptions C74_stack_memory.

(** ... and with it, at most five times the largest number of elements so far and twice the initial capacity. *)
Theorem C74_stack_memory_peak : forall (A : Type) (zero : A) (cap : nat) (ops : list (stack_op A)) (p : nat),
  0 < cap -> at_most (fun l o => fst (stack_spec l o)) (@length A) [] ops p ->
  exists s, reach (SegStack.step zero) (SegStack.new_with_cap zero cap) ops = Some s /\
    stack_cells s <= p + 2 * Nat.max cap (2 * p).
Proof. exact @StackG.stack_memory_peak. Qed.
Print Assumptions C74_stack_memory_peak.

(** Work: at most ten slots for every Push, Clear or no Clear. *)
Theorem C74_stack_work : forall (A : Type) (zero : A) (cap : nat) (ops : list (stack_op A)), 0 < cap ->
  spent (SegStack.step zero) (stack_made zero) (SegStack.new_with_cap zero cap) ops <=
    10 * calls (fun o => match o with Push _ => true | _ => false end) ops.
Proof. exact @StackG.stack_work. Qed.
Print Assumptions C74_stack_work.

(** The bill is complete: no call adds more slots to the stack than it is billed for. *)
Theorem C74_stack_bill : forall (A : Type) (zero : A) (cap : nat) (ops : list (stack_op A)) s o, 0 < cap ->
  reach (SegStack.step zero) (SegStack.new_with_cap zero cap) ops = Some s ->
  exists s' r, SegStack.step zero s o = Some (s', r) /\ stack_cells s' <= stack_cells s + stack_made zero s o.
Proof. exact @StackG.stack_counted. Qed.
Print Assumptions C74_stack_bill.

(** Memory in proportion to the contents is false once Clear has been used: for every n there is a number of pushes
    after which, once the stack was cleared, n slots or more stay allocated whatever is done next, as long as that is
    not another Clear.  Popping everything does not give them back either. *)
Theorem C74_stack_clear_refuted : forall (A : Type) (zero v : A) (n : nat),
  exists m, forall ops : list (stack_op A), ~ In Clear ops ->
  exists s, reach (SegStack.step zero) (SegStack.new zero) (repeat (Push v) m ++ Clear :: ops) = Some s /\
    n <= stack_cells s /\
    sreach stack_spec [] (repeat (Push v) m ++ Clear :: ops) = sreach stack_spec [] ops.
Proof. exact @StackG.clear_keeps. Qed.
Print Assumptions C74_stack_clear_refuted.

(** blocks of 2, 4 and 12: the block of twelve is made once, kept in the cache, dropped when the block below it is
    cached in turn, and made again *)
Definition C74_stack_ops : list (stack_op nat) :=
  map Push (seq 1 7) ++ [Pop; Push 7; Pop] ++ repeat Pop 4 ++ map Push (seq 3 5).
Example C74_stack_case :
  ~ In Clear C74_stack_ops /\
  option_map (fun s => (SegStack.size s, stack_cells s))
    (reach (SegStack.step 0) (SegStack.new_with_cap 0 2) C74_stack_ops) = Some (7, 2 + 4 + 12) /\
  spent (SegStack.step 0) (stack_made 0) (SegStack.new_with_cap 0 2) C74_stack_ops = 4 + 12 + 12.
Proof.
  split; [|split; vm_compute; reflexivity].
  intros H. cbn in H. repeat (destruct H as [H|H]; [discriminate|]). exact H.
Qed.
(** a hundred pushes, a Clear, and the 144 slots of the top block stay *)
Example C74_stack_clear_case :
  option_map (fun s => (SegStack.size s, stack_cells s))
    (reach (SegStack.step 0) (SegStack.new 0) (repeat (Push 1) 100 ++ [Clear; Push 2; Pop; Pop])) = Some (0, 144).
Proof. vm_compute; reflexivity. Qed.
