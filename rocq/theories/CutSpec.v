(** What the calls of an index tree do to its shape, rotations aside: parts of binary trees, by key and by position. *)
From Verif Require Import Base OrderSpec SMapSpec AvlTree RotSpec IndexSpec.
Local Open Scope Z_scope.

Section Cut.
  Context {K V : Type}.
  Notation bt := (bt K V).

  Fixpoint nodes (t : bt) : Z := match t with Leaf => 0 | Node _ _ l r => nodes l + nodes r + 1 end.
  (** the nodes whose keys lie on the left of a border ([p]), and the others; whole subtrees stay together *)
  Fixpoint before (p : K -> bool) (t : bt) : bt :=
    match t with Leaf => Leaf | Node k v l r => if p k then Node k v l (before p r) else before p l end.
  Fixpoint after (p : K -> bool) (t : bt) : bt :=
    match t with Leaf => Leaf | Node k v l r => if p k then after p r else Node k v (after p l) r end.
  (** the first [n] nodes in order, and the others *)
  Fixpoint first (n : Z) (t : bt) : bt :=
    match t with Leaf => Leaf | Node k v l r => if nodes l <? n then Node k v l (first (n - nodes l - 1) r) else first n l end.
  Fixpoint others (n : Z) (t : bt) : bt :=
    match t with Leaf => Leaf | Node k v l r => if nodes l <? n then others (n - nodes l - 1) r else Node k v (others n l) r end.

  (** [a] before [b] as one tree: the one with fewer nodes hangs below the end of the other *)
  Fixpoint hang_last (b t : bt) : bt := match t with Leaf => b | Node k v l r => Node k v l (hang_last b r) end.
  Fixpoint hang_first (a t : bt) : bt := match t with Leaf => a | Node k v l r => Node k v (hang_first a l) r end.
  Definition together (a b : bt) : bt := if nodes b <? nodes a then hang_last b a else hang_first a b.

  (** one node out of the tree: spliced out or filled with the next or the previous entry *)
  Inductive dropped : bt -> bt -> Prop :=
  | dropped_no_left k v r : dropped (Node k v Leaf r) r
  | dropped_no_right k v l : dropped (Node k v l Leaf) l
  | dropped_next k v l r e r' : first_out r e r' -> dropped (Node k v l r) (Node (fst e) (snd e) l r')
  | dropped_prev k v l r e l' : last_out l e l' -> dropped (Node k v l r) (Node (fst e) (snd e) l' r).
  (** the node at position [i] *)
  Inductive droppedAt : Z -> bt -> bt -> Prop :=
  | at_left i k v l r l' : i < nodes l -> droppedAt i l l' -> droppedAt i (Node k v l r) (Node k v l' r)
  | at_right i k v l r r' : nodes l < i -> droppedAt (i - nodes l - 1) r r' -> droppedAt i (Node k v l r) (Node k v l r')
  | at_here k v l r t' : dropped (Node k v l r) t' -> droppedAt (nodes l) (Node k v l r) t'.

  Context (ltb : K -> K -> bool).
  (** without the keys from [lo] to [hi]: below the topmost node in between, what is before and what is after it *)
  Fixpoint without (lo hi : K) (t : bt) : bt :=
    match t with
    | Leaf => Leaf
    | Node k v l r =>
        if ltb hi k then Node k v (without lo hi l) r else if ltb k lo then Node k v l (without lo hi r)
        else together (before (fun a => ltb a lo) l) (after (fun a => negb (ltb hi a)) r)
    end.
  (** without the positions from [i] to [j] *)
  Fixpoint withoutAt (i j : Z) (t : bt) : bt :=
    match t with
    | Leaf => Leaf
    | Node k v l r =>
        let p := nodes l in
        if j <? p then Node k v (withoutAt i j l) r else if p <? i then Node k v l (withoutAt (i - p - 1) (j - p - 1) r)
        else together (first i l) (others (j - p) r)
    end.
End Cut.

Section Plain.
  Context {K A : Type} (ltb : K -> K -> bool).
  Notation bt := (bt K (option A)).
  (** what a call that does not panic does to the tree, rotations aside *)
  Definition ix_plain (o : ix_op K A) (t t' : bt) : Prop :=
    match o with
    | XPut k v | XInsertIfAbsent k v => t' = ins ltb (fun e => e) k v t
    | XSet k v => t' = ins ltb (fun _ => (k, v)) k v t
    | XUpsert k v => t' = ins ltb (fun e => (fst e, v)) k v t
    | XRemove k | XDelete k => if found ltb k t then taken ltb k t t' else t' = t
    | XRemoveIndex i => droppedAt i t t'
    | XRemoveRange lo hi => if same ltb lo hi then (if found ltb lo t then taken ltb lo t t' else t' = t) else t' = without ltb lo hi t
    | XRemoveRangeByIndex i j => if j <? i then t' = t else t' = withoutAt i j t
    | XTrim lo hi => t' = before (fun a => negb (ltb hi a)) (after (fun a => ltb a lo) t)
    | XTrimByIndex i j => t' = first (j + 1 - i) (others i t)
    | XSplit contain rgt k =>
        let f a := if contain then negb (ltb k a) else ltb a k in t' = if rgt then after f t else before f t
    | XClear => t' = Leaf
    | _ => t' = t
    end.
  (** the calls that may rotate: at most once on insertion; in a removal by range *)
  Definition ix_inserts (o : ix_op K A) : bool := match o with XPut _ _ | XInsertIfAbsent _ _ | XSet _ _ | XUpsert _ _ => true | _ => false end.
  Definition ix_cuts (o : ix_op K A) : bool := match o with XRemoveRange _ _ | XRemoveRangeByIndex _ _ => true | _ => false end.
  (** the call that goes on with another tree than the receiver *)
  Definition ix_other (o : ix_op K A) : bool := match o with XSplit _ true _ => true | _ => false end.
End Plain.
