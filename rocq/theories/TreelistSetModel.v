(** tree/treelist: Intersection, UnionSets, DifferenceSets.

    The two tree lists are read by following the Direct pointers.  What a pointer to a node that is no longer in the tree
    leads to is not modelled: the answer is then [None], as it is for a Go panic.  Go follows the pointers for as long as
    there are any; [fuel] is the number of steps allowed, more than two threads without a cycle have. *)
From Verif Require Import Base Bind OrderSpec SMapSpec AvlTree AvlSpec IndexSpec IndexModel TreelistSpec TreelistModel.
Local Open Scope Z_scope.

Section SetModel.
  Context {K V : Type} (cmp : K -> K -> Z).
  Notation tl := (TreelistModel.tl K V).
  Notation tree := (tree K (nat * V)).

  (** utils.go 754-760 *)
  Inductive set_op := Intersection | Union | Difference.

  (** the variables head1 and head2 (utils.go 811-812, 836-837) *)
  Notation heads := (option nat * option nat)%type.

  (** utils.go 764-808: emit, for the two nodes with the keys compared to [c]; the Slice it returns, if any, is that of
      the node whose number is returned, in the first ([false]) or the second list *)
  Definition emit (op : set_op) (s1 s2 : tl) (x1 x2 : nat) (c : Z) : heads * option (bool * nat) :=
    let next1 := d (lks s1) x1 true in
    let next2 := d (lks s2) x2 true in
    match op with
    | Intersection =>
        if c <? 0 then ((next1, Some x2), None)
        else if c >? 0 then ((Some x1, next2), None)
        else ((next1, next2), Some (false, x1))
    | Union =>
        if c <? 0 then ((next1, Some x2), Some (false, x1))
        else if c >? 0 then ((Some x1, next2), Some (true, x2))
        else ((next1, next2), Some (false, x1))
    | Difference =>
        if c <? 0 then ((next1, Some x2), Some (false, x1))
        else if c >? 0 then ((Some x1, next2), None)
        else ((next1, next2), None)
    end.
  (** the comparison of 814 and 840 *)
  Definition compareAt (s1 s2 : tl) (x1 x2 : nat) : option Z :=
    '(k1, _) <- slice x1 (top s1) ;; '(k2, _) <- slice x2 (top s2) ;; Some (cmp k1 k2).

  (** utils.go 821-824, 825-828, 830-833 *)
  Fixpoint countRest (fuel : nat) (s : tl) (h : option nat) (count : Z) : option Z :=
    match h with
    | None => Some count
    | Some x => match fuel with O => None | S fuel' => countRest fuel' s (d (lks s) x true) (count + 1) end
    end.
  (** utils.go 813-834: how many entries the result has *)
  Fixpoint countLoop (fuel : nat) (op : set_op) (s1 s2 : tl) (h : heads) (count : Z) : option Z :=
    match h with
    | (Some x1, Some x2) =>
        match fuel with
        | O => None
        | S fuel' =>
            c <- compareAt s1 s2 x1 x2 ;;
            let '(h', out) := emit op s1 s2 x1 x2 c in
            countLoop fuel' op s1 s2 h' (match out with Some _ => count + 1 | None => count end)
        end
    | (h1, h2) =>
        match op with
        | Intersection => Some count
        | Union => count <- countRest fuel s1 h1 count ;; countRest fuel s2 h2 count
        | Difference => countRest fuel s1 h1 count
        end
    end.

  (** utils.go 838-864: next *)
  Fixpoint next (fuel : nat) (op : set_op) (s1 s2 : tl) (h : heads) : option (heads * (K * V)) :=
    match h with
    | (Some x1, Some x2) =>
        match fuel with
        | O => None
        | S fuel' =>
            c <- compareAt s1 s2 x1 x2 ;;
            match emit op s1 s2 x1 x2 c with
            | (h', Some (false, x)) => kv <- slice x (top s1) ;; Some (h', kv)
            | (h', Some (true, x)) => kv <- slice x (top s2) ;; Some (h', kv)
            | (h', None) => next fuel' op s1 s2 h'
            end
        end
    | (h1, h2) =>
        match op, h1, h2 with
        | Union, Some x, _ | Difference, Some x, _ => kv <- slice x (top s1) ;; Some ((d (lks s1) x true, h2), kv)
        | Union, None, Some x => kv <- slice x (top s2) ;; Some ((h1, d (lks s2) x true), kv)
        | _, _, _ => None
        end
    end.

  (** what build changes: prev, the Direct pointers, the next free number, and the variables of next *)
  Record building := B { prev : option nat; blks : links; bfresh : nat; bheads : heads }.
  (** utils.go 928-934 *)
  Definition chain (x : nat) (st : building) : building :=
    let lk := blks st in
    B (Some x)
      (match prev st with Some p => setd x false (Some p) (setd p true (Some x) lk) | None => sete false (Some x) lk end)
      (bfresh st) (bheads st).
  (** utils.go 916-940: build; size / 2 and size - leftSize - 1 are less than size *)
  Fixpoint build (depth fuel : nat) (op : set_op) (s1 s2 : tl) (size : Z) (st : building) : option (tree * building) :=
    if size =? 0 then Some (E, st) else
    match depth with
    | O => None
    | S depth' =>
        let leftSize := Z.quot size 2 in
        let rightSize := size - leftSize - 1 in
        let x := bfresh st in
        '(l, st) <- build depth' fuel op s1 s2 leftSize (B (prev st) (blks st) (S x) (bheads st)) ;;
        '(h, (k, v)) <- next fuel op s1 s2 (bheads st) ;;
        let st := chain x (B (prev st) (blks st) (bfresh st) h) in
        '(r, st) <- build depth' fuel op s1 s2 rightSize st ;;
        Some (sum k (x, v) l r, st)
    end.

  (** tree.go 719-743; utils.go 810-812, 836-837, 866 (setOperationStream), 908-945 (buildFromSortedStream) *)
  Definition setOperation (op : set_op) (s1 s2 : tl) : option tl :=
    let fuel := S (length (elems (top s1)) + length (elems (top s2))) in
    let start := (e (lks s1) false, e (lks s2) false) in
    count <- countLoop fuel op s1 s2 start 0 ;;
    if count =? 0 then Some new else
    '(t, st) <- build (Z.to_nat count) fuel op s1 s2 count (B None (lks (@new K V)) 0 start) ;;
    Some (T t (sete true (prev st) (blks st)) (bfresh st)).
End SetModel.
