(** set/treeset: the tree operations are those of [AvlModel] with style [One] and differenceHeight 2 (tree.go 19-30);
    here the operations that involve a second set.  The two sets are different objects ([a.Difference(a)], which would
    remove entries of the tree it is walking, is not modelled). *)
From Verif Require Import Base Bind SMapSpec AvlTree AvlModel TreeSetSpec.
Local Open Scope Z_scope.

Section Model.
  Context {K V : Type} (cmp : K -> K -> Z) (d : Z).
  Notation avl := (avl K V).

  (** set/treeset/tree.go 128-147: Traverse with a callback that changes something else and never stops it *)
  Fixpoint each {S} (f : S -> K -> V -> option S) (cur : tree K V) (s : S) : option S :=
    match cur with
    | E => Some s
    | N _ k v l r => s1 <- each f l s ;; s2 <- f s1 k v ;; each f r s2
    end.

  (** set/treeset/tree.go 199-209: Union, doUnion *)
  Definition union (a b : avl) : option avl :=
    each (fun s k v => '(s', _) <- set cmp One d s k v ;; Some s') (root b) a.

  (** set/treeset/tree.go 224-226: the loop of retainAll *)
  Fixpoint remove_keys (a : avl) (ks : list K) : option avl :=
    match ks with
    | [] => Some a
    | k :: ks' => '(a', _) <- remove_ cmp One d a k ;; remove_keys a' ks'
    end.

  (** set/treeset/tree.go 211-227: Intersection, retainAll *)
  Definition intersection (a b : avl) : option avl :=
    ks <- each (fun ks k v => c <- contains cmp b k ;; Some (if c : bool then ks else ks ++ [k])) (root a) [] ;;
    remove_keys a ks.

  (** set/treeset/tree.go 229-239: Difference, removeAll *)
  Definition difference (a b : avl) : option avl :=
    each (fun s k v => '(s', _) <- remove_ cmp One d s k ;; Some s') (root b) a.

  (** Two sets in play; [TSwap] only changes which one the next calls are made on. *)
  Definition ts_step (s : avl * avl) (o : ts_op K V) : option ((avl * avl) * sm_out K V) :=
    let '(a, b) := s in
    match o with
    | TOn o => '(a', r) <- step cmp One d a o ;; Some ((a', b), r)
    | TOther o => '(b', r) <- step cmp One d b o ;; Some ((a, b'), r)
    | TUnion => a' <- union a b ;; Some ((a', b), MUnit)
    | TIntersection => a' <- intersection a b ;; Some ((a', b), MUnit)
    | TDifference => a' <- difference a b ;; Some ((a', b), MUnit)
    | TSwap => Some ((b, a), MUnit)
    end.
End Model.
