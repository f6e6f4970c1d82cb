(** The linked list as a sequence, and its iterators as cursors on the cells of a sequence. *)
From Verif Require Import Base.

Section Seq.
  Context {A : Type}.
  Inductive ll_op :=
  | LPush (v : A) | LPushFront (vs : list A) | LPushBack (vs : list A) | LPopFront | LPopBack | LFront | LBack
  | LIndex (i : Z) | LClear | LEmpty | LSize | LValues | LTraverse (f : A -> bool).
  Inductive ll_out :=
  | LUnit | LVal (o : option A) | LBool (b : bool) | LNat (n : nat) | LList (l : list A).

  (** elements shown to the callback: up to and including the first one it answers false to *)
  Fixpoint shown (f : A -> bool) (l : list A) : list A :=
    match l with [] => [] | x :: l' => x :: if f x then shown f l' else [] end.
  Definition at_index (l : list A) (i : Z) : option A := if (i <? 0)%Z then None else nth_error l (Z.to_nat i).

  Definition ll_spec (l : list A) (o : ll_op) : list A * ll_out :=
    match o with
    | LPush v => (l ++ [v], LUnit)
    | LPushFront vs => (rev vs ++ l, LUnit)
    | LPushBack vs => (l ++ vs, LUnit)
    | LPopFront => (tl l, LVal (hd_error l))
    | LPopBack => (removelast l, LVal (hd_error (rev l)))
    | LFront => (l, LVal (hd_error l))
    | LBack => (l, LVal (hd_error (rev l)))
    | LIndex i => (l, LVal (at_index l i))
    | LClear => ([], LUnit)
    | LEmpty => (l, LBool (match l with [] => true | _ => false end))
    | LSize => (l, LNat (length l))
    | LValues => (l, LList l)
    | LTraverse f => (l, LList (shown f l))
    end.
End Seq.
Arguments ll_op A : clear implicits.
Arguments ll_out A : clear implicits.

(** Cursors.  Every cell of the sequence has a name, given once and for all when the value is put in; names 0 and 1
    stand for the places before the first and after the last cell.  Any number of iterators [cur 0, cur 1, ...] sit on
    names.  An edit through one iterator moves cells without renaming them, so the others stay on their cells.
    [c_spec] is [None] when a documented precondition fails: a stale iterator (its cell was removed), reading or
    editing at the places before the first or after the last cell, inserting no values. *)
Section Cursors.
  Context {A : Type}.
  Record cstate := CS { cells : list (nat * A); fresh : nat; cur : nat -> nat }.
  Definition cnew : cstate := CS [] 2 (fun _ => 1).

  Definition names (s : cstate) : list nat := 0 :: map fst (cells s) ++ [1].
  Fixpoint follows (l : list nat) (c : nat) : option nat :=
    match l with
    | a :: ((b :: _) as t) => if a =? c then Some b else follows t c
    | _ => None
    end.
  Definition succ (s : cstate) (c : nat) : option nat := follows (names s) c.
  Definition pred (s : cstate) (c : nat) : option nat := follows (rev (names s)) c.
  Definition first (s : cstate) : nat := hd 1 (map fst (cells s)).
  Definition last_ (s : cstate) : nat := last (map fst (cells s)) 0.
  Definition live (s : cstate) (c : nat) : bool := existsb (Nat.eqb c) (map fst (cells s)).
  Definition somewhere (s : cstate) (c : nat) : bool := existsb (Nat.eqb c) (names s).
  Definition value_of (l : list (nat * A)) (c : nat) : option A :=
    option_map snd (find (fun x => fst x =? c) l).
  Definition write (l : list (nat * A)) (c : nat) (v : A) : list (nat * A) :=
    map (fun x => if fst x =? c then (c, v) else x) l.
  Definition drop (l : list (nat * A)) (c : nat) : list (nat * A) := filter (fun x => negb (fst x =? c)) l.
  (** put [new] just before / just after the cell named [c] *)
  Fixpoint ins_before (new : list (nat * A)) (c : nat) (l : list (nat * A)) : list (nat * A) :=
    match l with
    | [] => new
    | x :: l' => if fst x =? c then new ++ x :: l' else x :: ins_before new c l'
    end.
  Fixpoint ins_after (new : list (nat * A)) (c : nat) (l : list (nat * A)) : list (nat * A) :=
    match l with
    | [] => []
    | x :: l' => if fst x =? c then x :: new ++ l' else x :: ins_after new c l'
    end.
  Definition ins_after' new c l := if c =? 0 then new ++ l else ins_after new c l.
  (** new cells get the next names, in the order in which their values are given *)
  Definition named (s : cstate) (vs : list A) : list (nat * A) := combine (seq (fresh s) (length vs)) vs.
  Definition put_cells (s : cstate) (l : list (nat * A)) : cstate := CS l (fresh s) (cur s).
  Definition add_cells (s : cstate) (l : list (nat * A)) (k : nat) : cstate := CS l (fresh s + k) (cur s).
  Definition at_ (s : cstate) (i c : nat) : cstate := CS (cells s) (fresh s) (fun j => if j =? i then c else cur s j).

  Definition cnext (s : cstate) (c : nat) : option nat :=
    match cells s with
    | [] => Some c
    | _ => if c =? 1 then Some (first s)
           else match succ s c with
                | None => None
                | Some c' => Some (if c' =? 1 then first s else c')
                end
    end.
  Definition cprev (s : cstate) (c : nat) : option nat :=
    match cells s with
    | [] => Some c
    | _ => if c =? 0 then Some (last_ s)
           else match pred s c with
                | None => None
                | Some c' => Some (if c' =? 0 then last_ s else c')
                end
    end.
  (** [n] steps *)
  Fixpoint steps (f : nat -> option nat) (n c : nat) : option nat :=
    match n with 0 => Some c | S n' => match f c with None => None | Some c' => steps f n' c' end end.

  Inductive it_act :=
  | INew | INext | IPrev | IToHead | IToTail | IValid | IValue | ISetValue (v : A) | ISwap (j : nat)
  | IMove (z : Z) | IMoveBefore (j : nat) | IMoveAfter (j : nat) | IInsertBefore (vs : list A)
  | IInsertAfter (vs : list A) | IRemoveToNext | IRemoveToPrev.
  (** a list operation, or an action of iterator [i]; [circ] chooses the circular kind *)
  Inductive c_op := OnList (o : ll_op A) | OnIter (i : nat) (circ : bool) (a : it_act).

  Definition list_step (s : cstate) (o : ll_op A) : cstate * ll_out A :=
    let l := cells s in
    let out := snd (ll_spec (map snd l) o) in
    match o with
    | LPush v => (add_cells s (l ++ named s [v]) 1, out)
    | LPushBack vs => (add_cells s (l ++ named s vs) (length vs), out)
    | LPushFront vs => (add_cells s (rev (named s vs) ++ l) (length vs), out)
    | LPopFront => (put_cells s (tl l), out)
    | LPopBack => (put_cells s (removelast l), out)
    | LClear => (put_cells s [], out)
    | _ => (s, out)
    end.

  Definition moved (s : cstate) (i : nat) (c : option nat) : option (cstate * ll_out A) :=
    match c with None => None | Some c' => Some (at_ s i c', LUnit) end.
  Definition when {X} (b : bool) (x : option X) : option X := if b then x else None.
  Definition iter_step (s : cstate) (i : nat) (circ : bool) (a : it_act) : option (cstate * ll_out A) :=
    let c := cur s i in
    let l := cells s in
    match a with
    | INew | IToHead => Some (at_ s i (first s), LUnit)
    | IToTail => Some (at_ s i (last_ s), LUnit)
    | INext => when (somewhere s c) (moved s i (if circ then cnext s c else succ s c))
    | IPrev => when (somewhere s c) (moved s i (if circ then cprev s c else pred s c))
    | IValid => when (somewhere s c) (Some (s, LBool (live s c)))
    | IValue => match value_of l c with None => None | Some v => Some (s, LVal (Some v)) end
    | ISetValue v => when (live s c) (Some (put_cells s (write l c v), LUnit))
    | ISwap j => match value_of l c, value_of l (cur s j) with
                 | Some v, Some w => Some (put_cells s (write (write l c w) (cur s j) v), LUnit)
                 | _, _ => None
                 end
    | IMove z =>
        if circ then
          when (match l with [] => somewhere s c | _ => live s c end)
            (moved s i (if (0 <? z)%Z then steps (cnext s) (Z.to_nat z) c else steps (cprev s) (Z.to_nat (- z)) c))
        else
          when (somewhere s c)
            (moved s i (if (0 <? z)%Z
                        then steps (fun x => if x =? 1 then Some x else succ s x) (Z.to_nat z) c
                        else steps (fun x => if x =? 0 then Some x else pred s x) (Z.to_nat (- z)) c))
    | IMoveBefore j =>
        let m := cur s j in
        match value_of l c with
        | Some v => when (live s m || (m =? 1))
                      (Some (put_cells s (if c =? m then l else ins_before [(c, v)] m (drop l c)), LUnit))
        | None => None
        end
    | IMoveAfter j =>
        let m := cur s j in
        match value_of l c with
        | Some v => when (live s m || (m =? 0))
                      (Some (put_cells s (if c =? m then l else ins_after' [(c, v)] m (drop l c)), LUnit))
        | None => None
        end
    | IInsertBefore vs =>
        when ((live s c || (c =? 1)) && negb (match vs with [] => true | _ => false end))
          (Some (add_cells s (ins_before (named s vs) c l) (length vs), LUnit))
    | IInsertAfter vs =>
        when ((live s c || (c =? 0)) && negb (match vs with [] => true | _ => false end))
          (Some (add_cells s (ins_after' (named s vs) c l) (length vs), LUnit))
    | IRemoveToNext =>
        when (live s c)
          (let s' := put_cells s (drop l c) in
           moved s' i (match succ s c with
                       | Some c' => Some (if circ && (c' =? 1) then first s' else c')
                       | None => None
                       end))
    | IRemoveToPrev =>
        when (live s c)
          (let s' := put_cells s (drop l c) in
           moved s' i (match pred s c with
                       | Some c' => Some (if circ && (c' =? 0) then last_ s' else c')
                       | None => None
                       end))
    end.
  Definition c_spec (s : cstate) (o : c_op) : option (cstate * ll_out A) :=
    match o with
    | OnList o' => Some (list_step s o')
    | OnIter i circ a => iter_step s i circ a
    end.
End Cursors.
Arguments cstate A : clear implicits.
Arguments it_act A : clear implicits.
Arguments c_op A : clear implicits.
