(** Models of stack/array, stack/list and stack/listarray. *)
From Verif Require Import Base StackSpec.

(* ------------------------------------------------------------------ *)
(** * stack/array/stack.go *)
Module ArrayStack.
Section M.
  Context {A : Type} (zero : A).
  (** How many spare slots Go's runtime leaves after reallocating a full slice of the given
      length; any function (the growth policy of [append] is not specified by the language). *)
  Variable spare : nat -> nat.

  (** stack.go:8-11.  The slice [element] is its backing array and its length; slots at or beyond
      [len] hold whatever was left there. *)
  Record st := { buf : list A; len : nat }.

  (** stack.go:14-17 [New]: nil slice *)
  Definition new : st := {| buf := []; len := 0 |}.

  (** stack.go:20-22 [Push]: Go's append *)
  Definition push (s : st) (v : A) : st :=
    if len s <? length (buf s)
    then {| buf := list_set (buf s) (len s) v; len := S (len s) |}
    else {| buf := firstn (len s) (buf s) ++ v :: repeat zero (spare (len s)); len := S (len s) |}.

  (** stack.go:25-30 [Peek]; outer None: index out of range *)
  Definition peek (s : st) : option (option A) :=
    if len s =? 0 then Some None
    else option_map Some (nth_error (buf s) (len s - 1)).

  (** stack.go:33-43 [Pop] *)
  Definition pop (s : st) : option (st * option A) :=
    if len s =? 0 then Some (s, None)
    else match nth_error (buf s) (len s - 1) with
         | None => None
         | Some e => Some ({| buf := buf s; len := len s - 1 |}, Some e)
         end.

  (** stack.go:46-48 [Clear]: element[0:0] *)
  Definition clear (s : st) : st := {| buf := buf s; len := 0 |}.
  (** stack.go:51-54 [Empty] *)
  Definition empty (s : st) : bool := len s =? 0.
  (** stack.go:57-59 [Size] *)
  Definition size (s : st) : nat := len s.
  (** stack.go:67-71 [Values]: copy of the slice *)
  Definition values (s : st) : list A := firstn (len s) (buf s).

  (** Dispatcher over the methods above. *)
  Definition step (s : st) (o : stack_op A) : option (st * stack_out A) :=
    match o with
    | Push v => Some (push s v, RUnit)
    | Pop => match pop s with Some (s', r) => Some (s', RVal r) | None => None end
    | Peek => option_map (fun r => (s, RVal r)) (peek s)
    | Clear => Some (clear s, RUnit)
    | Empty => Some (s, RBool (empty s))
    | Size => Some (s, RNat (size s))
    | Values => Some (s, RList (values s))
    end.
End M.
End ArrayStack.

(* ------------------------------------------------------------------ *)
(** * stack/list/stack.go *)
Module ListStack.
Section M.
  Context {A : Type} (zero : A).
  (** list/stack.go:5-15.  Cells are never modified after creation, so the chain [top, top.down, ...] is a
      Coq list; [size] is the separate counter. *)
  Record st := { top : list A; size : nat }.
  (** list/stack.go:18-22 [New] *)
  Definition new : st := {| top := []; size := 0 |}.
  (** list/stack.go:25-28 [Clear] *)
  Definition clear (s : st) : st := new.
  (** list/stack.go:31-33 [Empty] *)
  Definition empty (s : st) : bool := size s =? 0.
  (** list/stack.go:55-60 loop of [Values]: result[n] = value; n--.  [n] is a uint:
      [room] = n+1 is the number of slots left; writing with no slot left is an out-of-range panic (n has wrapped). *)
  Fixpoint fill (result : list A) (room : nat) (cur : list A) {struct cur} : option (list A) :=
    match cur with
    | [] => Some result
    | v :: cur' => match room with
                   | O => None
                   | S n => fill (list_set result n v) n cur'
                   end
    end.
  (** list/stack.go:46-62 [Values]; nil for an empty stack is the empty list *)
  Definition values (s : st) : option (list A) :=
    if size s =? 0 then Some []
    else fill (repeat zero (size s)) (size s) (top s).
  (** list/stack.go:65-70 [Push] *)
  Definition push (s : st) (v : A) : st := {| top := v :: top s; size := S (size s) |}.
  (** list/stack.go:73-84 [Pop]; None: nil dereference *)
  Definition pop (s : st) : option (st * option A) :=
    if size s =? 0 then Some (s, None)
    else match top s with
         | [] => None
         | v :: down => Some ({| top := down; size := size s - 1 |}, Some v)
         end.
  (** list/stack.go:87-92 [Peek] *)
  Definition peek (s : st) : option (option A) :=
    if size s =? 0 then Some None
    else match top s with [] => None | v :: _ => Some (Some v) end.

  (** Dispatcher over the methods above; [Size] is list/stack.go:36-38. *)
  Definition step (s : st) (o : stack_op A) : option (st * stack_out A) :=
    match o with
    | Push v => Some (push s v, RUnit)
    | Pop => match pop s with Some (s', r) => Some (s', RVal r) | None => None end
    | Peek => option_map (fun r => (s, RVal r)) (peek s)
    | Clear => Some (clear s, RUnit)
    | Empty => Some (s, RBool (empty s))
    | Size => Some (s, RNat (size s))
    | Values => option_map (fun r => (s, RList r)) (values s)
    end.
End M.
End ListStack.

(* ------------------------------------------------------------------ *)
(** * stack/listarray/stack.go *)
Module SegStack.
Section M.
  Context {A : Type} (zero : A).
  (** listarray/stack.go:7-11 [hNode]; [elements] has cap = len.  The [down] pointers form the list below.
      [curp] is [cur + 1] (cur starts at -1), i.e. the number of used slots. *)
  Record block := { elements : list A; curp : nat }.
  (** listarray/stack.go:14-20.  [top] followed by the blocks reached by [down] (nil-terminated);
      [cache] is a detached block (its [down] is nil). *)
  Record st := { top : block; downs : list block; cache : option block; size : nat }.

  (** listarray/stack.go:25-38: the block [grow] puts on top, the cached one or a new one, and the argument of [make]
      (0 if nothing is made) *)
  Definition grownode (s : st) : block * nat :=
    match cache s with
    | Some c => ({| elements := elements c; curp := 0 |}, 0)
    | None =>
        let growsize := if size s <=? 256 then 2 * size s else 256 + size s / 4 in
        ({| elements := repeat zero growsize; curp := 0 |}, growsize)
    end.
  (** listarray/stack.go:22-46 [grow] (the returned flag is unused by callers) *)
  Definition grow (s : st) : st :=
    if curp (top s) =? length (elements (top s))
    then {| top := fst (grownode s); downs := top s :: downs s; cache := None; size := size s |}
    else s.

  (** listarray/stack.go:60-65 [New] *)
  Definition new : st :=
    {| top := {| elements := repeat zero 8; curp := 0 |}; downs := []; cache := None; size := 0 |}.
  (** listarray/stack.go:68-73 [NewWithCap]; non-negative capacities *)
  Definition new_with_cap (cap : nat) : st :=
    {| top := {| elements := repeat zero cap; curp := 0 |}; downs := []; cache := None; size := 0 |}.
  (** listarray/stack.go:76-81 [Clear] *)
  Definition clear (s : st) : st :=
    {| top := {| elements := elements (top s); curp := 0 |}; downs := []; cache := cache s; size := 0 |}.

  (** listarray/stack.go:136-141 [Push]; None: index out of range *)
  Definition push (s0 : st) (v : A) : option st :=
    let s := grow s0 in
    let i := curp (top s) in
    if i <? length (elements (top s)) then
      Some {| top := {| elements := list_set (elements (top s)) i v; curp := S i |};
              downs := downs s; cache := cache s; size := S (size s) |}
    else None.

  (** listarray/stack.go:144-157 [Pop] with [cacheRemove] (48-57) inlined.  [curp = 1] is [cur == 0];
      [curp = 0] is [cur == -1], where elements[cur] panics. *)
  Definition pop (s : st) : option (st * option A) :=
    if size s =? 0 then Some (s, None)
    else
      match downs s, curp (top s) with
      | d :: ds, 1 =>
          match nth_error (elements (top s)) 0 with
          | None => None
          | Some e => Some ({| top := d; downs := ds; cache := Some (top s); size := size s - 1 |}, Some e)
          end
      | _, O => None
      | _, S c =>
          match nth_error (elements (top s)) c with
          | None => None
          | Some e => Some ({| top := {| elements := elements (top s); curp := c |};
                               downs := downs s; cache := cache s; size := size s - 1 |}, Some e)
          end
      end.

  (** listarray/stack.go:160-165 [Peek] *)
  Definition peek (s : st) : option (option A) :=
    if size s =? 0 then Some None
    else match curp (top s) with
         | O => None
         | S c => option_map Some (nth_error (elements (top s)) c)
         end.

  (** listarray/stack.go:106-111: the inner loop over one block writes elements[cur], elements[cur-1], ... , elements[0]
      into result[n], result[n-1], ...; [i] counts the slots still to be read ([cur - i + 1] of the source). *)
  Fixpoint fill_block (result : list A) (room : nat) (els : list A) (i : nat) {struct i} : option (list A * nat) :=
    match i with
    | O => Some (result, room)
    | S j => match room, nth_error els j with
             | S n, Some v => fill_block (list_set result n v) n els j
             | _, _ => None
             end
    end.
  (** listarray/stack.go:105-112: outer loop over [cur = cur.down] *)
  Fixpoint fill (result : list A) (room : nat) (bs : list block) : option (list A) :=
    match bs with
    | [] => Some result
    | b :: bs' =>
        match fill_block result room (elements b) (curp b) with
        | None => None
        | Some (result', room') => fill result' room' bs'
        end
    end.
  (** listarray/stack.go:100-115 [Values] *)
  Definition values (s : st) : option (list A) :=
    fill (repeat zero (size s)) (size s) (top s :: downs s).

  (** Dispatcher; [Empty] is listarray/stack.go:84-86, [Size] 89-91. *)
  Definition step (s : st) (o : stack_op A) : option (st * stack_out A) :=
    match o with
    | Push v => option_map (fun s' => (s', RUnit)) (push s v)
    | Pop => match pop s with Some (s', r) => Some (s', RVal r) | None => None end
    | Peek => option_map (fun r => (s, RVal r)) (peek s)
    | Clear => Some (clear s, RUnit)
    | Empty => Some (s, RBool (size s =? 0))
    | Size => Some (s, RNat (size s))
    | Values => option_map (fun r => (s, RList r)) (values s)
    end.
End M.
End SegStack.
