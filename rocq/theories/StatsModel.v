(** BenchmarkStats of tree/avl and tree/indextree: the shape of the tree in figures. *)
From Verif Require Import Base AvlTree.
Local Open Scope Z_scope.

(** tree/avl/bench_stats.go 5-12, tree/indextree/bench_stats.go 5-12: type BenchmarkStats without the rotation counters.
    AvgDepth is the float64 quotient of [sTotal] and [sCount] (0 for an empty tree). *)
Record stats := Stats { sHeight : Z; sTotal : Z; sCount : Z; sP50 : Z; sP95 : Z }.

(** sort.Ints.  (The standard library's; which algorithm it uses makes no difference to the result.) *)
Fixpoint insertInt (x : Z) (l : list Z) : list Z :=
  match l with [] => [x] | y :: r => if x <=? y then x :: y :: r else y :: insertInt x r end.
Fixpoint sortInts (l : list Z) : list Z := match l with [] => [] | x :: r => insertInt x (sortInts r) end.

Section Stats.
  Context {K V : Type}.
  Notation tree := (tree K V).

  (** number of rounds the loop of shapeStats makes: one per node *)
  Fixpoint nodes (t : tree) : nat := match t with E => O | N _ _ _ l r => S (nodes l + nodes r) end.

  (** tree/avl/bench_stats.go 30-47, tree/indextree/bench_stats.go 47-64: the loop; the state is queue, height,
      totalDepth, count and depths.  [None] is running out of rounds, see [C65_stats_right]. *)
  Fixpoint shapeLoop (n : nat) (queue : list (tree * Z)) (height total count : Z) (depths : list Z) : option (Z * Z * Z * list Z) :=
    match queue with
    | [] => Some (height, total, count, depths)
    | (node, depth) :: queue =>
        match n with
        | O => None
        | S n =>
            let height := if depth >? height then depth else height in
            match node with
            | E => None
            | N _ _ _ l r =>
                let queue := match l with E => queue | _ => queue ++ [(l, depth + 1)] end in
                let queue := match r with E => queue | _ => queue ++ [(r, depth + 1)] end in
                shapeLoop n queue height (total + depth) (count + 1) (depths ++ [depth])
            end
        end
    end.

  (** tree/avl/bench_stats.go 14-54, tree/indextree/bench_stats.go 31-71: shapeStats (the multiplication by 95 is not cut to
      64 bits: no tree has 2^56 nodes) *)
  Definition shapeStats (root : tree) : option stats :=
    match root with
    | E => Some (Stats 0 0 0 0 0)
    | _ =>
        match shapeLoop (nodes root) [(root, 1)] 0 0 0 [] with
        | None => None
        | Some (height, total, count, depths) =>
            let s := sortInts depths in
            let n := Z.of_nat (length s) in
            match nth_error s (Z.to_nat ((n - 1) / 2)), nth_error s (Z.to_nat (((n - 1) * 95) / 100)) with
            | Some p50, Some p95 => Some (Stats height total count p50 p95)
            | _, _ => None
            end
        end
    end.
End Stats.
