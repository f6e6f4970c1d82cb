(** tree/treelist: several lists at a time, in one memory, and the set operations on their nodes (TreelistSetModel.v has
    them without nodes).  The code for one list is in TreelistHeapModel.v. *)
From Verif Require Import Base IndexSpec IndexPoolSpec IndexModel IndexHeapModel TreelistSpec TreelistPoolSpec TreelistHeapModel.
Local Open Scope Z_scope.

Section Sets.
  Context {K V : Type} (cmp : K -> K -> Z) (zero : K) (zeroV : V).
  Notation TM := (TM K V).
  Notation tmem := (tmem K V).

  (** the variables head1 and head2 (utils.go 811-812, 836-837) *)
  Record heads := Heads { head1 : ptr; head2 : ptr }.

  (** Reading the two lists.  [m1] is where the nodes of the first are, [m2] where those of the second are: in Go the same
      memory. *)
  Section Read.
  Context (op : lset) (m1 m2 : tmem).
  Definition fuel2 : nat := S (next (base m1)) + S (next (base m2)).

  (** utils.go 764-808: emit, for the two nodes with the keys compared to [c]; the node whose Slice it returns, if any, is
      one of the first ([false]) or the second list *)
  Definition emit (a1 a2 : nat) (c : Z) : heads * option (bool * nat) :=
    let next1 := Direct m1 a1 true in
    let next2 := Direct m2 a2 true in
    match op with
    | LIntersection =>
        if c <? 0 then (Heads next1 (Some a2), None)
        else if c >? 0 then (Heads (Some a1) next2, None)
        else (Heads next1 next2, Some (false, a1))
    | LUnion =>
        if c <? 0 then (Heads next1 (Some a2), Some (false, a1))
        else if c >? 0 then (Heads (Some a1) next2, Some (true, a2))
        else (Heads next1 next2, Some (false, a1))
    | LDifference =>
        if c <? 0 then (Heads next1 (Some a2), Some (false, a1))
        else if c >? 0 then (Heads (Some a1) next2, None)
        else (Heads next1 next2, None)
    end.

  (** utils.go 821-824, 825-828, 830-833; [None] is a loop without end *)
  Fixpoint countRest (n : nat) (m : tmem) (h : ptr) (count : Z) : option Z :=
    match h with
    | None => Some count
    | Some a => match n with O => None | S n => countRest n m (Direct m a true) (count + 1) end
    end.
  (** utils.go 810-834: count *)
  Fixpoint countLoop (n : nat) (h : heads) (count : Z) : option Z :=
    match head1 h, head2 h with
    | Some a1, Some a2 =>
        match n with
        | O => None
        | S n =>
            let (h, out) := emit a1 a2 (cmp (Key (base m1) a1) (Key (base m2) a2)) in
            countLoop n h (match out with Some _ => count + 1 | None => count end)
        end
    | h1, h2 =>
        match op with
        | LIntersection => Some count
        | LUnion => match countRest n m1 h1 count with Some count => countRest n m2 h2 count | None => None end
        | LDifference => countRest n m1 h1 count
        end
    end.

  Definition sliceAt (m : tmem) (a : nat) : K * V := (Key (base m) a, Value (base m) a).
  (** utils.go 838-864: next; [None] is a loop without end, [Some None] the panic of 863 *)
  Fixpoint nextSlice (n : nat) (h : heads) : option (option (heads * (K * V))) :=
    match head1 h, head2 h with
    | Some a1, Some a2 =>
        match n with
        | O => None
        | S n =>
            match emit a1 a2 (cmp (Key (base m1) a1) (Key (base m2) a2)) with
            | (h, Some (false, a)) => Some (Some (h, sliceAt m1 a))
            | (h, Some (true, a)) => Some (Some (h, sliceAt m2 a))
            | (h, None) => nextSlice n h
            end
        end
    | h1, h2 =>
        match op, h1, h2 with
        | LUnion, Some a, _ | LDifference, Some a, _ => Some (Some (Heads (Direct m1 a true) h2, sliceAt m1 a))
        | LUnion, None, Some a => Some (Some (Heads h1 (Direct m2 a true), sliceAt m2 a))
        | _, _, _ => Some None
        end
    end.
  End Read.

  (** [src m] is where the nodes of the two lists are when [m] is the memory the result is made in: in Go, [m] and [m]. *)
  Section Build.
  Context (op : lset) (src : tmem -> tmem * tmem).

  (** calling next (utils.go 924) *)
  Definition getNext (h : heads) : TM (heads * (K * V)) :=
    fun m => let (m1, m2) := src m in
      match nextSlice op m1 m2 (fuel2 m1 m2) h with None => Forever | Some None => Fail m | Some (Some x) => Done x m end.

  (** utils.go 926-934 *)
  Definition chain (root : nat) (prev node : ptr) : TM unit :=
    if negb (isNil prev) then wrDir prev true node ;? wrDir node false prev else wrDir (Some root) false node.

  (** utils.go 916-940: build; prev and the variables of next are passed on *)
  Fixpoint build (root : nat) (n : nat) (size : Z) (parent prev : ptr) (h : heads) : TM (ptr * (ptr * heads)) :=
    if size =? 0 then pure (None, (prev, h)) else
    match n with
    | O => fun _ => Forever
    | S n =>
        let leftSize := Z.quot size 2 in
        let rightSize := size - leftSize - 1 in
        let? node := talloc parent 0 zero zeroV in
        let? l := build root n leftSize node prev h in
        lift (wr (setKid false (fst l)) node) ;?
        let? s := getNext (snd (snd l)) in
        lift (wr (setKey (fst (snd s))) node) ;?
        lift (wr (setValue (snd (snd s))) node) ;?
        chain root (fst (snd l)) node ;?
        let? r := build root n rightSize node node (fst s) in
        lift (wr (setKid true (fst r)) node) ;?
        lift (sumSize node) ;?
        lift (updateBalance node) ;?
        pure (node, snd r)
    end.

  (** utils.go 908-945: buildFromSortedStream *)
  Definition buildFrom (root : nat) (count : Z) (h : heads) : TM unit :=
    Clear root ;?
    if count =? 0 then pure tt else
    let? r := build root (Z.to_nat count) count (Some root) None h in
    lift (wr (setKid false (fst r)) (Some root)) ;?
    wrDir (Some root) true (fst (snd r)).

  (** tree.go 46-48: New, in a memory with other nodes *)
  Definition newList : TM ptr := talloc None 0 zero zeroV.

  (** tree.go 719-743: Intersection, UnionSets, DifferenceSets, of the lists with the roots [r1] and [r2]; utils.go 810-834,
      836-837, 866 (setOperationStream).  The answer is the root of the result. *)
  Definition setOperation (r1 r2 : nat) : TM ptr :=
    let? result := newList in
    fun m => let (m1, m2) := src m in
      let h := Heads (Direct m1 r1 false) (Direct m2 r2 false) in
      match countLoop op m1 m2 (fuel2 m1 m2) h 0, result with
      | Some count, Some r => (buildFrom r count h ;? pure result) m
      | _, _ => Forever
      end.
  End Build.
End Sets.

Section Pool.
  Context {K V : Type} (cmp : K -> K -> Z) (zero : K) (zeroV : V).

  (** a memory without nodes *)
  Definition tblank : tmem K V :=
    TMem (Mem (fun _ => None) (fun _ _ => None) (fun _ => 0) (fun _ => 0) (fun _ => zero) (fun _ => zeroV) 0) (fun _ _ => None).

  (** One memory for all lists, and tree.root of each (tree.go 36-43). *)
  Definition lpool : Type := tmem K V * list nat.
  Definition lpool0 : lpool := (tblank, []).

  (** One call; [None] is a loop without end. *)
  Definition lpstep (s : lpool) (o : lp_op K V) : option (lpool * lp_out K V) :=
    let (m, rs) := s in
    match o with
    | LNew => match newList zero zeroV m with Done (Some r) m' => Some ((m', rs ++ [r]), LMade) | _ => None end
    | LOn i o =>
        match nth_error rs i with
        | None => Some (s, LNoList)
        | Some r => match thstepAt cmp r m o with Some (m', x) => Some ((m', rs), LSays x) | None => None end
        end
    | LSet op i j =>
        match nth_error rs i, nth_error rs j with
        | Some r1, Some r2 =>
            match setOperation cmp zero zeroV op (fun m => (m, m)) r1 r2 m with
            | Done (Some r) m' => Some ((m', rs ++ [r]), LMade)
            | Fail m' => Some ((m', rs), LPanic)
            | _ => None
            end
        | _, _ => Some (s, LNoList)
        end
    end.

  (** The same calls when no memory is shared: each list has one of its own, with tree.root at address 0. *)
  Definition lapart (ms : list (tmem K V)) (o : lp_op K V) : option (list (tmem K V) * lp_out K V) :=
    match o with
    | LNew => Some (ms ++ [tnew zero zeroV], LMade)
    | LOn i o =>
        match nth_error ms i with
        | None => Some (ms, LNoList)
        | Some m => match thstep cmp m o with Some (m', x) => Some (put_at i m' ms, LSays x) | None => None end
        end
    | LSet op i j =>
        match nth_error ms i, nth_error ms j with
        | Some m1, Some m2 =>
            match setOperation cmp zero zeroV op (fun _ => (m1, m2)) 0 0 tblank with
            | Done _ m' => Some (ms ++ [m'], LMade)
            | Fail _ => Some (ms, LPanic)
            | Forever => None
            end
        | _, _ => Some (ms, LNoList)
        end
    end.
End Pool.
