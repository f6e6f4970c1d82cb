(** Sequencing of steps that may panic: [x <- e ;; k] runs [e]; if it panics ([None]) the whole does. *)
Notation "x <- e ;; k" := (match e with Some x => k | None => None end)
  (at level 100, e at next level, right associativity).
Notation "' p <- e ;; k" := (match e with Some p => k | None => None end)
  (at level 100, p pattern, e at next level, right associativity).
