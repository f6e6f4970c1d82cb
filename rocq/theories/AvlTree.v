(** The binary search trees with stored heights behind tree/avl, tree/avls and set/treeset: nodes, rotations,
    rebalancing, and the walk that pulls out a neighbour of a removed node.

    A node and everything below it is a [tree]; a nil pointer is [E].  No node of these trees is ever reachable by two
    paths, so updating [parent.Children[child]] in place is modelled by returning the new subtree for that place.
    [None] is a Go panic (nil dereference, index out of range).  Heights are int8 in Go and wrap around in the model
    as they do there ([i8]).  The rotation counters of tree/avl (tree.go 13-14, node.go 108, 129, 149, 163) only
    feed BenchmarkStats; they are in AvlCountModel.v. *)
From Verif Require Import Base Bind.
Local Open Scope Z_scope.

(** int8 arithmetic: the value of an int8 expression whose mathematical value is [z]. *)
Definition i8 (z : Z) : Z := (z + 128) mod 256 - 128.

(** Which of the two versions of the rotations: tree/avl/node.go recomputes heights from both children
    (updateHeight), tree/avls/node.go and set/treeset/node.go from one child only (updateHeightOneChild). *)
Inductive style := Both | One.

Section Tree.
  Context {K V : Type}.

  (** tree/avl/node.go 7-12, tree/avls/node.go 7-12, set/treeset/node.go 7-12: type Node
      (Height, Key, Value, Children[0], Children[1]). *)
  Inductive tree := E | N (h : Z) (k : K) (v : V) (l r : tree).

  Definition is_nil (t : tree) : bool := match t with E => true | _ => false end.

  (** tree/avl/node.go 91-96, tree/avls/node.go 28-33, set/treeset/node.go 85-90: getHeight *)
  Definition getHeight (t : tree) : Z := match t with E => 0 | N h _ _ _ _ => h end.

  (** tree/avl/node.go 35-43: updateHeight *)
  Definition updateHeight (k : K) (v : V) (l r : tree) : tree :=
    let lh := getHeight l in
    let rh := getHeight r in
    if lh >? rh then N (i8 (lh + 1)) k v l r else N (i8 (rh + 1)) k v l r.

  (** tree/avls/node.go 18-20, set/treeset/node.go 35-37: updateHeightOneChild ([false] is child 0) *)
  Definition updateHeightOneChild (child : bool) (k : K) (v : V) (l r : tree) : tree :=
    N (i8 (getHeight (if child then r else l) + 1)) k v l r.

  (** The height update at the end of a rotation; [child] is what the One version passes. *)
  Definition fixup (st : style) (child : bool) (k : K) (v : V) (l r : tree) : tree :=
    match st with Both => updateHeight k v l r | One => updateHeightOneChild child k v l r end.

  (** tree/avl/node.go 107-126, tree/avls/node.go 35-53, set/treeset/node.go 101-119: leftRotateWithRight *)
  Definition leftRotateWithRight (st : style) (cur : tree) : option tree :=
    match cur with
    | N _ k v l (N _ sk sv (N _ ssk ssv c0 c1) sr) =>
        Some (fixup st false ssk ssv (fixup st false k v l c0) (fixup st true sk sv c1 sr))
    | _ => None
    end.

  (** tree/avl/node.go 128-146, tree/avls/node.go 55-72, set/treeset/node.go 121-138: rightRotateWithLeft *)
  Definition rightRotateWithLeft (st : style) (cur : tree) : option tree :=
    match cur with
    | N _ k v (N _ sk sv sl (N _ ssk ssv c0 c1)) r =>
        Some (fixup st true ssk ssv (fixup st false sk sv sl c0) (fixup st true k v c1 r))
    | _ => None
    end.

  (** tree/avl/node.go 148-160, tree/avls/node.go 74-85, set/treeset/node.go 140-151: leftRotate *)
  Definition leftRotate (st : style) (cur : tree) : option tree :=
    match cur with
    | N _ k v l (N _ sk sv sl sr) => Some (fixup st false sk sv (fixup st true k v l sl) sr)
    | _ => None
    end.

  (** tree/avl/node.go 162-174, tree/avls/node.go 87-98, set/treeset/node.go 153-164: rightRotate *)
  Definition rightRotate (st : style) (cur : tree) : option tree :=
    match cur with
    | N _ k v (N _ sk sv sl sr) r => Some (fixup st true sk sv sl (fixup st false k v sr r))
    | _ => None
    end.

  Context (st : style) (d : Z).

  (** tree/avl/tree_hide.go 109-148, tree/avls/tree_hide.go 116-157, set/treeset/tree_hide.go 109-150: rebalance of
      [node := parent.Children[child]] with threshold differenceHeight = [d]; gives the new subtree and the flag. *)
  Definition rebalance (node : tree) : option (tree * bool) :=
    match node with
    | E => None
    | N h k v l r =>
        let lh := getHeight l in
        let rh := getHeight r in
        let diff := i8 (lh - rh) in
        if d <=? diff then
          match l with
          | E => None
          | N _ _ _ sl sr =>
              t <- (if getHeight sr >? getHeight sl then rightRotateWithLeft st node else rightRotate st node) ;;
              Some (t, true)
          end
        else if diff <=? i8 (- d) then
          match r with
          | E => None
          | N _ _ _ sl sr =>
              t <- (if getHeight sl >? getHeight sr then leftRotateWithRight st node else leftRotate st node) ;;
              Some (t, true)
          end
        else if lh >? rh then
          if h =? i8 (lh + 1) then Some (node, false) else Some (N (i8 (lh + 1)) k v l r, true)
        else
          if h =? i8 (rh + 1) then Some (node, false) else Some (N (i8 (rh + 1)) k v l r, true)
    end.

  (** The child in direction [dir] ([false] is Children[0]), and putting a subtree there. *)
  Definition child (dir : bool) (l r : tree) : tree := if dir then r else l.
  Definition with_child (dir : bool) (h : Z) (k : K) (v : V) (l r t : tree) : tree :=
    if dir then N h k v l t else N h k v t r.

  (** tree/avl/tree_hide.go 91-107, tree/avls/tree_hide.go 98-114, set/treeset/tree_hide.go 91-107: neighboring.
      [cur] is [parent.Children[child2]], [dir] is child1.  Gives the new subtree, the key and value of the node that
      was taken out (all the caller reads of it), and the flag. *)
  Fixpoint neighboring (dir : bool) (cur : tree) : option (tree * (K * V) * bool) :=
    match cur with
    | E => None
    | N h k v l r =>
        match child dir l r with
        | E => Some (child (negb dir) l r, (k, v), true)
        | N _ _ _ _ _ =>
            '(sub, res, rb) <- neighboring dir (child dir l r) ;;
            let cur' := with_child dir h k v l r sub in
            if rb : bool then '(t, rb') <- rebalance cur' ;; Some (t, res, rb') else Some (cur', res, false)
        end
    end.
End Tree.
Arguments tree K V : clear implicits.
