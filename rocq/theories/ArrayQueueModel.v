(** Model of queue/linkedarray/queue.go.  int64 fields are natural numbers: they stay in [0, 2*cap]
    (overflow beyond 2^63 elements is not modelled). *)
From Verif Require Import Base Slice QueueSpec.

(** Result of a call that may panic leaving the queue unchanged. *)
Inductive res (B : Type) := Ret (b : B) | Panic.
Arguments Ret {B}. Arguments Panic {B}.

Section ArrayQueue.
  Context {A : Type} (zero : A).

  (** queue.go:8-14 *)
  Record queue := { size : nat; data : list A; cap : nat; start : nat; end_ : nat }.

  (** queue.go:16-24 [New] *)
  Definition new : queue := {| size := 0; start := 0; end_ := 0; cap := 8; data := repeat zero 8 |}.

  (** queue.go:26-38 [grow] *)
  Definition grow (q : queue) : option queue :=
    if cap q <=? size q then
      let cap' := cap q * 2 in
      let growData := repeat zero cap' in
      match slice (data q) (start q) (length (data q)) with
      | None => None
      | Some s1 =>
        match copy_at growData 0 s1 with
        | None => None
        | Some g1 =>
          match slice (data q) 0 (start q) with
          | None => None
          | Some s2 =>
            match copy_at g1 (cap q - start q) s2 with
            | None => None
            | Some g2 => Some {| size := size q; data := g2; start := 0; end_ := cap q; cap := cap' |}
            end end end end
    else Some q.

  (** queue.go:40-57 [slimming] *)
  Definition slimming (q : queue) : option queue :=
    if size q <=? cap q / 2 then
      let cap' := cap q - cap q / 4 in
      let growData := repeat zero cap' in
      let fin d := Some {| size := size q; data := d; start := 0; end_ := size q; cap := cap' |} in
      if end_ q <? start q then
        match slice (data q) (start q) (length (data q)) with
        | None => None
        | Some s1 =>
          match copy_at growData 0 s1 with
          | None => None
          | Some g1 =>
            match slice (data q) 0 (end_ q) with
            | None => None
            | Some s2 => match copy_at g1 (cap q - start q) s2 with None => None | Some g2 => fin g2 end
            end end end
      else
        match slice (data q) (start q) (end_ q) with
        | None => None
        | Some s1 => match copy_at growData 0 s1 with None => None | Some g1 => fin g1 end
        end
    else Some q.

  (** queue.go:59-68 [PushBack] *)
  Definition pushBack (q0 : queue) (value : A) : option queue :=
    match grow q0 with
    | None => None
    | Some q =>
      match put_at (data q) (end_ q) value with
      | None => None
      | Some d =>
          let e := end_ q + 1 in
          Some {| size := size q + 1; data := d; cap := cap q; start := start q;
                  end_ := if cap q <=? e then 0 else e |}
      end end.

  (** queue.go:70-80 [PushFront]; [start - 1 < 0] is [start = 0] *)
  Definition pushFront (q0 : queue) (value : A) : option queue :=
    match grow q0 with
    | None => None
    | Some q =>
      let s := if start q =? 0 then cap q - 1 else start q - 1 in
      match put_at (data q) s value with
      | None => None
      | Some d => Some {| size := size q + 1; data := d; cap := cap q; start := s; end_ := end_ q |}
      end end.

  (** queue.go:82-93 [Index], any int64 argument *)
  Definition index (q : queue) (idx : Z) : res A :=
    if (idx <? Z.of_nat (size q))%Z then
      let idx := (Z.of_nat (start q) + idx)%Z in
      let idx := if (Z.of_nat (cap q) <=? idx)%Z then (idx - Z.of_nat (cap q))%Z else idx in
      if (idx <? 0)%Z then Panic
      else match nth_error (data q) (Z.to_nat idx) with Some v => Ret v | None => Panic end
    else Panic.

  (** queue.go:95-97 [Front] *)
  Definition front (q : queue) : option A := nth_error (data q) (start q).
  (** queue.go:99-105 [Back] *)
  Definition back (q : queue) : option A :=
    nth_error (data q) (if end_ q =? 0 then cap q - 1 else end_ q - 1).

  (** queue.go:111-127 [PopBack]; nil is [None] *)
  Definition popBack (q : queue) : option (queue * option A) :=
    if size q =? 0 then Some (q, None)
    else
      let e := if end_ q =? 0 then cap q - 1 else end_ q - 1 in
      match nth_error (data q) e with
      | None => None
      | Some tail =>
          option_map (fun q' => (q', Some tail))
            (slimming {| size := size q - 1; data := data q; cap := cap q; start := start q; end_ := e |})
      end.

  (** queue.go:129-142 [PopFront] *)
  Definition popFront (q : queue) : option (queue * option A) :=
    if size q =? 0 then Some (q, None)
    else
      match nth_error (data q) (start q) with
      | None => None
      | Some head =>
          let s := start q + 1 in
          option_map (fun q' => (q', Some head))
            (slimming {| size := size q - 1; data := data q; cap := cap q;
                         start := if cap q <=? s then 0 else s; end_ := end_ q |})
      end.

  (** queue.go:148-154, first loop of [Traverse]; also gives back whether [do] stopped it and [count] (= [idx]).
      [fuel] is the number of remaining iterations allowed by [i < cap]. *)
  Fixpoint trav1 (fuel : nat) (q : queue) (do : nat -> A -> bool) (i count : nat)
    : option (list (nat * A) * bool * nat) :=
    match fuel with
    | O => Some ([], false, count)
    | S fuel' =>
        if (i <? cap q) && (count <? size q) then
          match nth_error (data q) i with
          | None => None
          | Some v =>
              if do count v then
                option_map (fun '(l, b, c) => ((count, v) :: l, b, c)) (trav1 fuel' q do (S i) (S count))
              else Some ([(count, v)], true, count)
          end
        else Some ([], false, count)
    end.
  (** queue.go:157-163, second loop *)
  Fixpoint trav2 (fuel : nat) (q : queue) (do : nat -> A -> bool) (i idx : nat) : option (list (nat * A)) :=
    match fuel with
    | O => Some []
    | S fuel' =>
        if i <? end_ q then
          match nth_error (data q) i with
          | None => None
          | Some v =>
              if do idx v then option_map (cons (idx, v)) (trav2 fuel' q do (S i) (S idx))
              else Some [(idx, v)]
          end
        else Some []
    end.
  (** queue.go:144-165 [Traverse]: the calls made to [do] *)
  Definition traverse (q : queue) (do : nat -> A -> bool) : option (list (nat * A)) :=
    match trav1 (cap q - start q) q do (start q) 0 with
    | None => None
    | Some (l1, stopped, count) =>
        if stopped then Some l1
        else if count <? size q then option_map (app l1) (trav2 (end_ q) q do 0 count)
        else Some l1
    end.

  (** queue.go:172-175, first loop of [Values] *)
  Fixpoint vals1 (fuel : nat) (q : queue) (i count : nat) : option (list A * nat) :=
    match fuel with
    | O => Some ([], count)
    | S fuel' =>
        if (i <? cap q) && (count <? size q) then
          match nth_error (data q) i with
          | None => None
          | Some v => option_map (fun '(l, c) => (v :: l, c)) (vals1 fuel' q (S i) (S count))
          end
        else Some ([], count)
    end.
  (** queue.go:178-180, second loop *)
  Fixpoint vals2 (fuel : nat) (q : queue) (i : nat) : option (list A) :=
    match fuel with
    | O => Some []
    | S fuel' =>
        if i <? end_ q then
          match nth_error (data q) i with
          | None => None
          | Some v => option_map (cons v) (vals2 fuel' q (S i))
          end
        else Some []
    end.
  (** queue.go:168-185 [Values] *)
  Definition values (q : queue) : option (list A) :=
    match vals1 (cap q - start q) q (start q) 0 with
    | None => None
    | Some (l1, count) =>
        if count <? size q then option_map (app l1) (vals2 (end_ q) q 0) else Some l1
    end.

  (** Dispatcher; [Size] is queue.go:107-109.  The panic of [Index] is a result, as it leaves the queue unchanged. *)
  Definition step (q : queue) (o : queue_op A) : option (queue * queue_out A) :=
    match o with
    | QPushBack v => option_map (fun q' => (q', QUnit)) (pushBack q v)
    | QPushFront v => option_map (fun q' => (q', QUnit)) (pushFront q v)
    | QPopBack => option_map (fun '(q', r) => (q', QVal r)) (popBack q)
    | QPopFront => option_map (fun '(q', r) => (q', QVal r)) (popFront q)
    | QSize => Some (q, QNat (size q))
    | QIndex i => Some (q, match index q (Z.of_nat i) with Ret v => QVal (Some v) | Panic => QPanic end)
    | QValues => option_map (fun l => (q, QList l)) (values q)
    | QTraverse f => option_map (fun l => (q, QVisited l)) (traverse q f)
    end.
End ArrayQueue.
