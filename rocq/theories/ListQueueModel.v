(** Model of queue/list/queue.go and queue/list/element.go on an explicit heap of elements. *)
From Verif Require Import Base DLL ListQueueSpec.

Section ListQueue.
  Context {A : Type}.

  (** queue.go:3-8, together with the heap of all elements ever allocated (element.go:3-7) *)
  Record lqueue := { hp : heap A; head : ptr; tail : ptr; size : nat }.

  (** queue.go:10-16 [New] *)
  Definition new : lqueue := {| hp := []; head := None; tail := None; size := 0 |}.

  (** queue.go:30-42 [PushBack] *)
  Definition pushBack (q : lqueue) (value : A) : option lqueue :=
    let '(h1, e) := alloc (hp q) (mk None None value) in
    let sz := size q + 1 in
    if sz =? 1 then Some {| hp := h1; head := e; tail := e; size := sz |}
    else
      match set_prev h1 e (tail q) with
      | None => None
      | Some h2 =>
        match set_next h2 (tail q) e with
        | None => None
        | Some h3 => Some {| hp := h3; head := head q; tail := e; size := sz |}
        end end.

  (** queue.go:44-58 [PushFront] *)
  Definition pushFront (q : lqueue) (value : A) : option lqueue :=
    let '(h1, e) := alloc (hp q) (mk None None value) in
    let sz := size q + 1 in
    if sz =? 1 then Some {| hp := h1; head := e; tail := e; size := sz |}
    else
      match set_next h1 e (head q) with
      | None => None
      | Some h2 =>
        match set_prev h2 (head q) e with
        | None => None
        | Some h3 => Some {| hp := h3; head := e; tail := tail q; size := sz |}
        end end.

  (** queue.go:60-83 [PopBack]; the nil result is [None] *)
  Definition popBack (q : lqueue) : option (lqueue * option A) :=
    if size q =? 0 then Some (q, None)
    else
      let sz := size q - 1 in
      if sz =? 0 then
        match deref (hp q) (tail q) with
        | None => None
        | Some p => Some ({| hp := hp q; head := None; tail := None; size := sz |}, Some (nval p))
        end
      else
        match deref (hp q) (tail q) with
        | None => None
        | Some p =>
          let prev := nprev p in
          match set_next (hp q) prev None with
          | None => None
          | Some h1 =>
            match set_prev h1 (tail q) None with
            | None => None
            | Some h2 => Some ({| hp := h2; head := head q; tail := prev; size := sz |}, Some (nval p))
            end end end.

  (** queue.go:85-108 [PopFront] *)
  Definition popFront (q : lqueue) : option (lqueue * option A) :=
    if size q =? 0 then Some (q, None)
    else
      let sz := size q - 1 in
      if sz =? 0 then
        match deref (hp q) (head q) with
        | None => None
        | Some p => Some ({| hp := hp q; head := None; tail := None; size := sz |}, Some (nval p))
        end
      else
        match deref (hp q) (head q) with
        | None => None
        | Some p =>
          let next := nnext p in
          match set_prev (hp q) next None with
          | None => None
          | Some h1 =>
            match set_next h1 (head q) None with
            | None => None
            | Some h2 => Some ({| hp := h2; head := next; tail := tail q; size := sz |}, Some (nval p))
            end end end.

  (** A client loop [for e := p; e != nil; e = e.Next()] collecting [e.Value()] (element.go:13-19);
      [fuel] bounds the number of steps, running out is [None]. *)
  Fixpoint walk_next (fuel : nat) (h : heap A) (p : ptr) : option (list A) :=
    match p with
    | None => Some []
    | Some _ =>
      match fuel with
      | O => None
      | S fuel' => match deref h p with
                   | None => None
                   | Some n => option_map (cons (nval n)) (walk_next fuel' h (nnext n))
                   end end end.
  (** the same with [e.Prev()] (element.go:9-11) *)
  Fixpoint walk_prev (fuel : nat) (h : heap A) (p : ptr) : option (list A) :=
    match p with
    | None => Some []
    | Some _ =>
      match fuel with
      | O => None
      | S fuel' => match deref h p with
                   | None => None
                   | Some n => option_map (cons (nval n)) (walk_prev fuel' h (nprev n))
                   end end end.

  (** queue.go:22-28 [Front], [Back]: the value of the element returned, if it is not nil *)
  Definition val_at (h : heap A) (p : ptr) : option (option A) :=
    match p with None => Some None | Some _ => option_map (fun n => Some (nval n)) (deref h p) end.

  (** Dispatcher; [Size] is queue.go:18-20.  Walks are given as much fuel as there are allocated elements. *)
  Definition step (q : lqueue) (o : lq_op A) : option (lqueue * lq_out A) :=
    match o with
    | LPushBack v => option_map (fun q' => (q', LUnit)) (pushBack q v)
    | LPushFront v => option_map (fun q' => (q', LUnit)) (pushFront q v)
    | LPopBack => option_map (fun '(q', r) => (q', LVal r)) (popBack q)
    | LPopFront => option_map (fun '(q', r) => (q', LVal r)) (popFront q)
    | LSize => Some (q, LNat (size q))
    | LFront => option_map (fun r => (q, LVal r)) (val_at (hp q) (head q))
    | LBack => option_map (fun r => (q, LVal r)) (val_at (hp q) (tail q))
    | LForward => option_map (fun r => (q, LList r)) (walk_next (length (hp q)) (hp q) (head q))
    | LBackward => option_map (fun r => (q, LList r)) (walk_prev (length (hp q)) (hp q) (tail q))
    end.
End ListQueue.
