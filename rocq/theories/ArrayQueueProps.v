(** Property theorems C09, C10. *)
From Verif Require Import Base Machine QueueSpec ArrayQueueModel ArrayQueueProofs.

(** C09 *)
Theorem C09_arrayqueue_is_deque : forall (A : Type) (zero : A) (ops : list (queue_op A)),
  run (step zero) (new zero) ops = Some (srun queue_spec [] ops).
Proof. exact @run_ok. Qed.
Print Assumptions C09_arrayqueue_is_deque.

Theorem C09_arrayqueue_ends : forall (A : Type) (zero : A) (ops : list (queue_op A)) (x : A) (l : list A),
  sreach queue_spec [] ops = l ->
  exists q, reach (step zero) (new zero) ops = Some q /\
    (hd_error l = Some x -> front q = Some x) /\ (hd_error (rev l) = Some x -> back q = Some x).
Proof. exact @ends_ok. Qed.
Print Assumptions C09_arrayqueue_ends.

(** wraps around, grows twice and shrinks *)
Example C09_case :
  run (step 0) (new 0) (QPushFront 100 :: map QPushBack (seq 1 18) ++ repeat QPopFront 14 ++ [QPushFront 7; QValues; QIndex 1; QPopBack]) =
  Some (repeat QUnit 19 ++ map (fun x => QVal (Some x)) (100 :: seq 1 13) ++
        [QUnit; QList [7;14;15;16;17;18]; QVal (Some 14); QVal (Some 18)]).
Proof. vm_compute; reflexivity. Qed.

(** C10, Index part, is false: Index with a negative argument returns an element that was popped earlier. *)
Theorem C10_negative_index_refuted :
  exists (ops : list (queue_op nat)) q,
    reach (step 0) (new 0) ops = Some q /\ sreach queue_spec [] ops = [6;7;8;9;10] /\ index q (-1) = Ret 5.
Proof.
  exists (map QPushBack [5;6;7;8;9;10] ++ [QPopFront]). eexists. vm_compute. repeat split; reflexivity.
Qed.
Print Assumptions C10_negative_index_refuted.

(** What holds of C10: an index at or past the size always panics (and so never returns data)... *)
Theorem C10_index_past_end_partial : forall (A : Type) (zero : A) ops q (i : Z),
  reach (step zero) (new zero) ops = Some q ->
  (Z.of_nat (length (sreach queue_spec [] ops)) <= i)%Z -> index q i = Panic.
Proof. exact @index_out_ok. Qed.
Print Assumptions C10_index_past_end_partial.
Example C10_case : index (new 0) 0 = Panic. Proof. reflexivity. Qed.

(** ... and Front and Back of an empty queue return the zero value of the element type whatever was stored before. *)
Theorem C10_empty_ends_partial : forall (A : Type) (zero : A) (ops : list (queue_op A)),
  sreach queue_spec [] ops = [] ->
  exists q, reach (step zero) (new zero) ops = Some q /\ front q = Some zero /\ back q = Some zero.
Proof. exact @empty_ends_ok. Qed.
Print Assumptions C10_empty_ends_partial.
Example C10_case2 : sreach queue_spec [] [QPushFront 3; QPushBack 4; QPopBack; QPopFront] = [].
Proof. reflexivity. Qed.
