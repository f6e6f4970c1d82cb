(** Model of list/array_list/array_list.go, iterator.go and circular_iterator.go.
    uint fields are integers in [0, 2^64) and every Go addition or subtraction that can wrap goes through [u].
    Allocation is bounded: [make] of more than [limit] elements kills the process ([Oom]). *)
From Verif Require Import Base Slice QueueSpec ArrayListSpec.

Inductive outcome (X : Type) := Ok (x : X) | Oom | Panicked.
Arguments Ok {X}. Arguments Oom {X}. Arguments Panicked {X}.
Definition bind {X Y} (o : outcome X) (f : X -> outcome Y) : outcome Y :=
  match o with Ok x => f x | Oom => Oom | Panicked => Panicked end.
Definition of_opt {X} (o : option X) : outcome X := match o with Some x => Ok x | None => Panicked end.

(** uint arithmetic (64-bit) *)
Definition u (z : Z) : Z := (z mod 2 ^ 64)%Z.

Section ArrayList.
  Context {A : Type} (zero : A) (limit : Z).

  (** array_list.go:16-25 ([growthSize] is never used; the comparator is an argument of [contains]) *)
  Record alist := { data : list A; headidx : Z; tailidx : Z; size : Z; shrinkSize : Z }.

  Definition lenZ (l : list A) : Z := Z.of_nat (length l).
  (** l.data[i] and l.data[i] = v for a uint i *)
  Definition get (d : list A) (i : Z) : option A :=
    if ((0 <=? i) && (i <? lenZ d))%Z then nth_error d (Z.to_nat i) else None.
  Definition set (d : list A) (i : Z) (v : A) : option (list A) :=
    if ((0 <=? i) && (i <? lenZ d))%Z then Some (list_set d (Z.to_nat i) v) else None.
  (** l.data[i:j] for uints *)
  Definition sl (d : list A) (i j : Z) : option (list A) :=
    if ((0 <=? i) && (i <=? j) && (j <=? lenZ d))%Z then slice d (Z.to_nat i) (Z.to_nat j) else None.
  (** copy(d[off:], src) *)
  Definition cp (d : list A) (off : Z) (src : list A) : option (list A) :=
    if ((0 <=? off) && (off <=? lenZ d))%Z then copy_at d (Z.to_nat off) src else None.
  (** make([]T, n) *)
  Definition make (n : Z) : outcome (list A) :=
    if (limit <? n)%Z then Oom else Ok (repeat zero (Z.to_nat n)).

  Definition obind {X Y} (o : option X) (f : X -> outcome Y) : outcome Y := bind (of_opt o) f.

  (** array_list.go:36-44 [New]; 59-64 [Clear] (which does not reset shrinkSize) *)
  Definition new : alist :=
    {| data := repeat zero 8; tailidx := 4; headidx := 3; size := 0; shrinkSize := 0 |}.
  Definition clear (l : alist) : alist :=
    {| data := repeat zero 8; tailidx := 4; headidx := 3; size := 0; shrinkSize := shrinkSize l |}.

  (** array_list.go:76-98 [shrink] *)
  Definition shrink (l : alist) : outcome alist :=
    if (size l <=? 8)%Z then Ok l
    else if (size l <=? shrinkSize l)%Z then
      let lcap := lenZ (data l) in
      let nSize := u (lcap - lcap / 4) in
      bind (make nSize) (fun temp =>
      let ghidx := (size l / 4)%Z in
      let gtidx := u (ghidx + size l + 1) in
      obind (sl (data l) (u (headidx l + 1)) (tailidx l)) (fun src =>
      obind (cp temp (u (ghidx + 1)) src) (fun d =>
      Ok {| data := d; headidx := ghidx; tailidx := gtidx; size := size l;
            shrinkSize := u (size l - size l / 4) |})))
    else Ok l.

  (** array_list.go:101-119 [growth] *)
  Definition growth (l : alist) : outcome alist :=
    if (2 ^ 63 <=? size l)%Z then Panicked
    else
      let lcap := lenZ (data l) in
      let nSize := u (lcap * 2) in
      bind (make nSize) (fun temp =>
      let ghidx := (lcap / 2)%Z in
      let gtidx := u (ghidx + size l + 1) in
      obind (sl (data l) (u (headidx l + 1)) (tailidx l)) (fun src =>
      obind (cp temp (u (ghidx + 1)) src) (fun d =>
      Ok {| data := d; headidx := ghidx; tailidx := gtidx; size := size l;
            shrinkSize := u (size l - size l / 4) |}))).

  (** the loops [for cond { l.growth() }] of array_list.go:123, 134, 149; [fuel] iterations at most *)
  Fixpoint grow_while (fuel : nat) (cond : alist -> bool) (l : alist) : outcome alist :=
    if cond l then
      match fuel with
      | O => Panicked
      | S fuel' => bind (growth l) (grow_while fuel' cond)
      end
    else Ok l.

  (** array_list.go:122-129 [Push] *)
  Definition push (l0 : alist) (value : A) : outcome alist :=
    bind (grow_while 64 (fun l => (lenZ (data l) <? u (tailidx l + 1))%Z) l0) (fun l =>
    obind (set (data l) (tailidx l) value) (fun d =>
    Ok {| data := d; headidx := headidx l; tailidx := u (tailidx l + 1); size := u (size l + 1);
          shrinkSize := shrinkSize l |})).

  (** array_list.go:139-142 *)
  Fixpoint front_loop (values : list A) (d : list A) (h : Z) : option (list A * Z) :=
    match values with
    | [] => Some (d, h)
    | v :: values' => match set d h v with None => None | Some d' => front_loop values' d' (u (h - 1)) end
    end.
  (** array_list.go:132-144 [PushFront] *)
  Definition pushFront (l0 : alist) (values : list A) : outcome alist :=
    let psize := lenZ values in
    bind (grow_while 64 (fun l => (2 ^ 63 <? u (headidx l + 1 - psize))%Z) l0) (fun l =>
    obind (front_loop values (data l) (headidx l)) (fun '(d, h) =>
    Ok {| data := d; headidx := h; tailidx := tailidx l; size := u (size l + psize);
          shrinkSize := shrinkSize l |})).

  (** array_list.go:153-156 *)
  Fixpoint back_loop (values : list A) (d : list A) (t : Z) : option (list A * Z) :=
    match values with
    | [] => Some (d, t)
    | v :: values' => match set d t v with None => None | Some d' => back_loop values' d' (u (t + 1)) end
    end.
  (** array_list.go:147-158 [PushBack] *)
  Definition pushBack (l0 : alist) (values : list A) : outcome alist :=
    let psize := lenZ values in
    bind (grow_while 64 (fun l => (lenZ (data l) <? u (tailidx l + psize))%Z) l0) (fun l =>
    obind (back_loop values (data l) (tailidx l)) (fun '(d, t) =>
    Ok {| data := d; headidx := headidx l; tailidx := t; size := u (size l + psize);
          shrinkSize := shrinkSize l |})).

  (** array_list.go:161-167 [Front], 170-176 [Back]; [None] inside is Go's [ok = false] *)
  Definition front (l : alist) : outcome (option A) :=
    if (size l =? 0)%Z then Ok None else obind (get (data l) (u (headidx l + 1))) (fun v => Ok (Some v)).
  Definition back (l : alist) : outcome (option A) :=
    if (size l =? 0)%Z then Ok None else obind (get (data l) (u (tailidx l - 1))) (fun v => Ok (Some v)).

  (** array_list.go:179-189 [PopFront] *)
  Definition popFront (l : alist) : outcome (alist * option A) :=
    if (size l =? 0)%Z then Ok (l, None)
    else
      let h := u (headidx l + 1) in
      obind (get (data l) h) (fun result =>
      bind (shrink {| data := data l; headidx := h; tailidx := tailidx l; size := u (size l - 1);
                      shrinkSize := shrinkSize l |}) (fun l' => Ok (l', Some result))).
  (** array_list.go:192-202 [PopBack] *)
  Definition popBack (l : alist) : outcome (alist * option A) :=
    if (size l =? 0)%Z then Ok (l, None)
    else
      let t := u (tailidx l - 1) in
      obind (get (data l) t) (fun result =>
      bind (shrink {| data := data l; headidx := headidx l; tailidx := t; size := u (size l - 1);
                      shrinkSize := shrinkSize l |}) (fun l' => Ok (l', Some result))).

  (** array_list.go:205-210 [Index] *)
  Definition index (l : alist) (idx : Z) : outcome A :=
    if (size l <=? idx)%Z then Panicked else of_opt (get (data l) (u (idx + headidx l + 1))).

  (** array_list.go:213-216 [Set]; [idx] is an int, converted to uint *)
  Definition set_idx (l : alist) (idx : Z) (value : A) : outcome alist :=
    obind (set (data l) (u (u idx + headidx l + 1)) value) (fun d =>
    Ok {| data := d; headidx := headidx l; tailidx := tailidx l; size := size l; shrinkSize := shrinkSize l |}).

  (** array_list.go:219-240 [Remove] *)
  Definition remove (l : alist) (idx : Z) : outcome (alist * A) :=
    if (size l <=? idx)%Z then Panicked
    else
      let offset := u (headidx l + 1 + idx) in
      obind (get (data l) offset) (fun result =>
      let fin d h t :=
        bind (shrink {| data := d; headidx := h; tailidx := t; size := u (size l - 1); shrinkSize := shrinkSize l |})
             (fun l' => Ok (l', result)) in
      if (headidx l <? u (lenZ (data l) - tailidx l))%Z then
        obind (sl (data l) (u (offset + 1)) (tailidx l)) (fun src =>
        obind (cp (data l) offset src) (fun d => fin d (headidx l) (u (tailidx l - 1))))
      else
        obind (sl (data l) (u (headidx l + 1)) offset) (fun src =>
        obind (cp (data l) (u (headidx l + 2)) src) (fun d => fin d (u (headidx l + 1)) (tailidx l)))).

  (** array_list.go:243-254 [Contains] *)
  Definition contains (comp : A -> A -> Z) (l : alist) (values : list A) : outcome nat :=
    obind (sl (data l) (u (headidx l + 1)) (tailidx l)) (fun els =>
    Ok (fold_left (fun count element =>
          fold_left (fun count searchValue => if (comp element searchValue =? -1)%Z then S count else count) values count)
        els 0)).

  (** array_list.go:257-261 [Values] *)
  Definition values (l : alist) : outcome (list A) :=
    bind (make (size l)) (fun newElements =>
    obind (sl (data l) (u (headidx l + 1)) (tailidx l)) (fun src =>
    of_opt (cp newElements 0 src))).

  (** array_list.go:269-275 [Traverse]; [fuel] is the number of remaining iterations *)
  Fixpoint traverse (fuel : nat) (l : alist) (every : nat -> A -> bool) (i : nat) : outcome (list (nat * A)) :=
    match fuel with
    | O => Ok []
    | S fuel' =>
        if (Z.of_nat i <? size l)%Z then
          obind (get (data l) (u (Z.of_nat i + headidx l + 1))) (fun v =>
          if every i v then bind (traverse fuel' l every (S i)) (fun r => Ok ((i, v) :: r))
          else Ok [(i, v)])
        else Ok []
    end.

  (** The process: a live list or a dead process. *)
  Inductive astate := Live (l : alist) | Dead.

  (** Dispatcher.  Out-of-memory kills the process; the log.Panic of Index and Remove leaves the list unchanged and is
      the result [APanic] (any other panic stops the run); for an out-of-range Set a client recovers from a possible panic.
      [Size] array_list.go:72-74, [Empty] 67-69. *)
  Definition lift {X} (o : outcome X) (f : X -> alist * al_out A) : option (astate * al_out A) :=
    match o with Ok x => let '(l', r) := f x in Some (Live l', r) | Oom => Some (Dead, AOom) | Panicked => None end.

  Definition step (s : astate) (o : al_op A) : option (astate * al_out A) :=
    match s with
    | Dead => Some (Dead, AOom)
    | Live l =>
      match o with
      | APush v => lift (push l v) (fun l' => (l', AUnit))
      | APushFront vs => lift (pushFront l vs) (fun l' => (l', AUnit))
      | APushBack vs => lift (pushBack l vs) (fun l' => (l', AUnit))
      | AFront => lift (front l) (fun r => (l, AVal r))
      | ABack => lift (back l) (fun r => (l, AVal r))
      | APopFront => lift (popFront l) (fun '(l', r) => (l', AVal r))
      | APopBack => lift (popBack l) (fun '(l', r) => (l', AVal r))
      | AIndex i => if (size l <=? Z.of_nat i)%Z
                    then (match index l (Z.of_nat i) with Panicked => Some (Live l, APanic) | _ => None end)
                    else lift (index l (Z.of_nat i)) (fun v => (l, AVal (Some v)))
      | ASet i v => if (size l <=? Z.of_nat i)%Z
                    then match set_idx l (Z.of_nat i) v with
                         | Ok l' => Some (Live l', AUndef) | _ => Some (Live l, AUndef) end
                    else lift (set_idx l (Z.of_nat i) v) (fun l' => (l', AUnit))
      | ARemove i => if (size l <=? Z.of_nat i)%Z
                     then (match remove l (Z.of_nat i) with Panicked => Some (Live l, APanic) | _ => None end)
                     else lift (remove l (Z.of_nat i)) (fun '(l', v) => (l', AVal (Some v)))
      | AClear => Some (Live (clear l), AUnit)
      | ASize => Some (Live l, ANat (Z.to_nat (size l)))
      | AEmpty => Some (Live l, ABool (size l =? 0)%Z)
      | AValues => lift (values l) (fun r => (l, AList r))
      | ATraverse f => lift (traverse (Z.to_nat (size l)) l f 0) (fun r => (l, AVisited r))
      end
    end.

  (** ** Iterators (iterator.go, circular_iterator.go): the list and the unsigned position *)
  Record iter := { al : alist; cur : Z }.
  (** array_list.go:47-49, 54-56 *)
  Definition iterator (l : alist) : iter := {| al := l; cur := 0 |}.
  (** iterator.go:12-14 and circular_iterator.go:52-54 [Value] *)
  Definition it_value (i : iter) : outcome A := index (al i) (cur i).
  (** iterator.go:18-25, circular_iterator.go:58-65 [Valid] *)
  Definition it_valid (i : iter) : bool := (cur i <? size (al i))%Z.
  (** iterator.go:28-35, circular_iterator.go:12-19 [Swap] of two iterators over the same list *)
  Definition it_swap (i other : iter) : outcome alist :=
    let l := al i in
    let cidx := u (cur i + headidx l + 1) in
    let oidx := u (cur other + headidx l + 1) in
    obind (get (data l) cidx) (fun temp =>
    obind (get (data l) oidx) (fun o =>
    obind (set (data l) cidx o) (fun d1 =>
    obind (set d1 oidx temp) (fun d2 =>
    Ok {| data := d2; headidx := headidx l; tailidx := tailidx l; size := size l; shrinkSize := shrinkSize l |})))).
  (** iterator.go:38-40, circular_iterator.go:22-24 [SetValue] *)
  Definition it_set (i : iter) (v : A) : outcome alist :=
    let l := al i in
    obind (set (data l) (u (cur i + headidx l + 1)) v) (fun d =>
    Ok {| data := d; headidx := headidx l; tailidx := tailidx l; size := size l; shrinkSize := shrinkSize l |}).
  (** iterator.go:43-48, circular_iterator.go:27-32 [IndexTo] *)
  Definition it_index_to (i : iter) (idx : Z) : outcome iter :=
    if (size (al i) <=? idx)%Z then Panicked else Ok {| al := al i; cur := idx |}.
  (** iterator.go:56-61 [RemoveToNext] *)
  Definition it_remove_next (i : iter) : outcome iter :=
    bind (remove (al i) (cur i)) (fun '(l', _) =>
    Ok {| al := l'; cur := if (cur i =? size l')%Z then u (cur i - 1) else cur i |}).
  (** iterator.go:64-70 [RemoveToPrev] *)
  Definition it_remove_prev (i : iter) : outcome iter :=
    bind (remove (al i) (cur i)) (fun '(l', _) =>
    Ok {| al := l'; cur := if (cur i =? 0)%Z then cur i else u (cur i - 1) |}).
  (** iterator.go:73-75 [Prev], 78-80 [Next] *)
  Definition it_prev (i : iter) : iter := {| al := al i; cur := u (cur i - 1) |}.
  Definition it_next (i : iter) : iter := {| al := al i; cur := u (cur i + 1) |}.
  (** iterator.go:83-90, circular_iterator.go:97-104 [ToHead], [ToTail] *)
  Definition it_head (i : iter) : iter := {| al := al i; cur := 0 |}.
  Definition it_tail (i : iter) : iter := {| al := al i; cur := u (size (al i) - 1) |}.

  (** circular_iterator.go:40-43, 46-49 [RemoveToNext], [RemoveToPrev] *)
  Definition ci_remove_next (i : iter) : outcome iter :=
    bind (remove (al i) (cur i)) (fun '(l', _) => Ok {| al := l'; cur := cur i |}).
  Definition ci_remove_prev (i : iter) : outcome iter :=
    bind (remove (al i) (cur i)) (fun '(l', _) => Ok {| al := l'; cur := u (cur i - 1) |}).
  (** circular_iterator.go:68-80 [Prev] *)
  Definition ci_prev (i : iter) : iter :=
    if (size (al i) =? 0)%Z then i
    else {| al := al i; cur := if (cur i =? 0)%Z then u (size (al i) - 1) else u (cur i - 1) |}.
  (** circular_iterator.go:83-94 [Next] *)
  Definition ci_next (i : iter) : iter :=
    if (size (al i) =? 0)%Z then i
    else {| al := al i; cur := if (u (size (al i) - 1) <=? cur i)%Z then 0%Z else u (cur i + 1) |}.

  (** Client loops [for iter.ToHead(); iter.Valid(); iter.Next() { iter.Value() }] and the backward one, at most [fuel] steps. *)
  Fixpoint walk (fuel : nat) (move : iter -> iter) (i : iter) : outcome (list A) :=
    if it_valid i then
      match fuel with
      | O => Panicked
      | S fuel' => bind (it_value i) (fun v => bind (walk fuel' move (move i)) (fun r => Ok (v :: r)))
      end
    else Ok [].
  (** [n] values seen while moving with [move]. *)
  Fixpoint take_walk (n : nat) (move : iter -> iter) (i : iter) : outcome (list A) :=
    match n with
    | O => Ok []
    | S n' => bind (it_value i) (fun v => bind (take_walk n' move (move i)) (fun r => Ok (v :: r)))
    end.
End ArrayList.
Arguments Live {A}. Arguments Dead {A}.
