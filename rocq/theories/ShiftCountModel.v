(** tree/indextree/experiment with its rotation counters and BenchmarkStats: for ShiftToleranceTree the functions of
    [ShiftModel] that rotate once more, handing the fields singleRotations and doubleRotations (shift_tolerance_tree.go
    15-16; [c], in this order) along; for Tree those of [ExpModel].  They are int in Go; the model counts in [nat]. *)
From Verif Require Import Base Bind SMapSpec AvlTree AvlModel AvlCountModel IndexModel StatsModel ShiftModel.
From Verif Require ExpModel.
Local Open Scope Z_scope.

Section Shift.
  Context {K V : Type} (cmp : K -> K -> Z) (shift : Z).
  Notation stree := (stree K V).
  Notation counts := (nat * nat)%type.

  (** experiment/shift_tolerance_tree.go 233-244: sizeRRotate ([single], [double]: the counter is raised, 237, 242) *)
  Definition ssizeRRotate_n (cur : stree) (c : counts) : option (stree * counts) :=
    match cur with
    | SN s h b k v l (SN _ _ _ _ _ rl rr as r) =>
        if sizeT rl >? sizeT rr then r' <- srrotate r ;; t <- slrotate (SN s h b k v l r') ;; Some (t, double c)
        else t <- slrotate cur ;; Some (t, single c)
    | _ => None
    end.
  (** experiment/shift_tolerance_tree.go 220-231: sizeLRotate (counters: 224, 229) *)
  Definition ssizeLRotate_n (cur : stree) (c : counts) : option (stree * counts) :=
    match cur with
    | SN s h b k v (SN _ _ _ _ _ ll lr as l) r =>
        if sizeT ll <? sizeT lr then l' <- slrotate l ;; t <- srrotate (SN s h b k v l' r) ;; Some (t, double c)
        else t <- srrotate cur ;; Some (t, single c)
    | _ => None
    end.

  (** experiment/shift_tolerance_tree.go 139-178 (fixPut), 130-137 (fixPutSize), one node of the way up as in
      [ShiftModel.sfixPut] *)
  Definition sfixPut_n (st : climb) (cur : stree) (c : counts) : option (stree * climb * counts) :=
    match cur with
    | SE => None
    | SN s _ _ k v l r =>
        match st with
        | First => Some (renew (s + 1) k v l r, if s + 1 =? 3 then Sizes else Height 2, c)
        | Sizes => Some (resum k v l r, Sizes, c)
        | Height h =>
            let cur := renew (s + 1) k v l r in
            if shift <? 0 then None else
            let rootsize := shl64 h in
            let bottomsize := Z.shiftr rootsize shift + 1 in
            if s + 1 <? rootsize then
              let balance := match cur with SN _ _ b _ _ _ _ => b | SE => 0 end in
              if balance <? 0 then
                if bottomsize <=? - balance then '(t, c') <- ssizeRRotate_n cur c ;; Some (t, Sizes, c') else Some (cur, Height (h + 1), c)
              else
                if bottomsize <=? balance then '(t, c') <- ssizeLRotate_n cur c ;; Some (t, Sizes, c') else Some (cur, Height (h + 1), c)
            else Some (cur, Height (h + 1), c)
        end
    end.

  (** experiment/shift_tolerance_tree.go 65-109: Put, as in [ShiftModel.sput] *)
  Fixpoint sput_n (key : K) (value : V) (cur : stree) (c : counts) : option (stree * option climb * counts) :=
    match cur with
    | SE => Some (SN 1 1 0 key value SE SE, Some First, c)
    | SN s h b k v l r =>
        let x := cmp k key in
        if x <? 0 then
          '(r', res, c1) <- sput_n key value r c ;;
          match res with
          | None => Some (SN s h b k v l r', None, c1)
          | Some st => '(t, st', c2) <- sfixPut_n st (SN s h b k v l r') c1 ;; Some (t, Some st', c2)
          end
        else if x >? 0 then
          '(l', res, c1) <- sput_n key value l c ;;
          match res with
          | None => Some (SN s h b k v l' r, None, c1)
          | Some st => '(t, st', c2) <- sfixPut_n st (SN s h b k v l' r) c1 ;; Some (t, Some st', c2)
          end
        else Some (cur, None, c)
    end.

  (** number of rounds the loop of shapeStats makes: one per node *)
  Fixpoint snodes (t : stree) : nat := match t with SE => O | SN _ _ _ _ _ l r => S (snodes l + snodes r) end.
  (** experiment/shift_tolerance_tree.go 345-362: the loop of shapeStats, as in [StatsModel.shapeLoop] *)
  Fixpoint sshapeLoop (n : nat) (queue : list (stree * Z)) (height total count : Z) (depths : list Z) : option (Z * Z * Z * list Z) :=
    match queue with
    | [] => Some (height, total, count, depths)
    | (node, depth) :: queue =>
        match n with
        | O => None
        | S n =>
            let height := if depth >? height then depth else height in
            match node with
            | SE => None
            | SN _ _ _ _ _ l r =>
                let queue := match l with SE => queue | _ => queue ++ [(l, depth + 1)] end in
                let queue := match r with SE => queue | _ => queue ++ [(r, depth + 1)] end in
                sshapeLoop n queue height (total + depth) (count + 1) (depths ++ [depth])
            end
        end
    end.
  (** experiment/shift_tolerance_tree.go 329-369: shapeStats *)
  Definition sshapeStats (root : stree) : option stats :=
    match root with
    | SE => Some (Stats 0 0 0 0 0)
    | _ =>
        match sshapeLoop (snodes root) [(root, 1)] 0 0 0 [] with
        | None => None
        | Some (height, total, count, depths) =>
            let s := sortInts depths in
            let n := Z.of_nat (length s) in
            match nth_error s (Z.to_nat ((n - 1) / 2)), nth_error s (Z.to_nat (((n - 1) * 95) / 100)) with
            | Some p50, Some p95 => Some (Stats height total count p50 p95)
            | _, _ => None
            end
        end
    end.

  (** experiment/shift_tolerance_tree.go 9-18: type ShiftToleranceTree, with the counters; 35-44: NewShiftTolerance *)
  Record cstol := CS { stol_of : stol K V; counts_s : counts }.
  Definition snew_n : cstol := CS snew (0, 0)%nat.
  (** One call: those of [ShiftModel.stol_step], ResetBenchmarkStats (312-315) and BenchmarkStats (317-327) *)
  Inductive cs_op := ZCall (o : stol_op K V) | ZReset | ZStats.
  Inductive cs_out := ZOut (r : stol_out V) | ZUnit | ZReport (c : counts) (s : stats).
  Definition step_s (s : cstol) (o : cs_op) : option (cstol * cs_out) :=
    match o with
    | ZCall (SPut k v) =>
        '(t, res, c) <- sput_n k v (sroot (stol_of s)) (counts_s s) ;;
        Some match res with
             | None => (CS (STOL t (scount (stol_of s))) c, ZOut (SBool false))
             | Some _ => (CS (STOL t (S (scount (stol_of s)))) c, ZOut (SBool true))
             end
    | ZCall o => '(p, r) <- stol_step cmp shift (stol_of s) o ;; Some (CS p (counts_s s), ZOut r)
    | ZReset => Some (CS (stol_of s) (0, 0)%nat, ZUnit)
    | ZStats => st <- sshapeStats (sroot (stol_of s)) ;; Some (s, ZReport (counts_s s) st)
    end.
End Shift.
Arguments cstol K V : clear implicits.
Arguments cs_op K V : clear implicits.
Arguments cs_out V : clear implicits.

Section Tree.
  Context {K V : Type} (cmp : K -> K -> Z) (d : Z).
  Notation tree := (tree K V).
  Notation counts := (nat * nat)%type.

  (** experiment/tree_hide.go 16-54: put, as in [ExpModel.put]; the rotations raise the counters (node.go 122, 158, 194,
      217) as those of tree/avl do ([rebalance_n]; here tree_hide.go 126-165) *)
  Fixpoint eput_n (hit : K * V -> K * V) (key : K) (v : V) (cur : tree) (alone : bool) (c : counts) : option (tree * bool * bool * counts) :=
    match cur with
    | E => Some (N 1 key v E E, false, alone, c)
    | N h ck cv l r =>
        let x := cmp ck key in
        if x <? 0 then
          '(l', ex, rb, c1) <- eput_n hit key v l (is_nil r) c ;;
          if (ex || negb rb)%bool then Some (N h ck cv l' r, ex, rb, c1)
          else '(t, rb', c2) <- rebalance_n d (N h ck cv l' r) c1 ;; Some (t, ex, rb', c2)
        else if x >? 0 then
          '(r', ex, rb, c1) <- eput_n hit key v r (is_nil l) c ;;
          if (ex || negb rb)%bool then Some (N h ck cv l r', ex, rb, c1)
          else '(t, rb', c2) <- rebalance_n d (N h ck cv l r') c1 ;; Some (t, ex, rb', c2)
        else let '(k', v') := hit (ck, cv) in Some (N h k' v' l r, true, false, c)
    end.
  (** experiment/tree.go 43-51: Set; 63-75: Put, InsertIfAbsent *)
  Definition estore_n (hit : K * V -> K * V) (s : cavl K V) (k : K) (v : V) : option (cavl K V * bool) :=
    '(t, ex, _, c) <- eput_n hit k v (root (base s)) false (counts_of s) ;;
    Some (CA (AVL t (if ex : bool then size (base s) else S (size (base s)))) c, negb ex).
  (** experiment/tree.go 54-61: Upsert *)
  Definition eupsert_n (s : cavl K V) (k : K) (v : V) : option (cavl K V * bool) :=
    g <- get cmp k (root (base s)) ;;
    match g with
    | Some _ => t <- get_write cmp k v (root (base s)) ;; Some (CA (AVL t (size (base s))) (counts_of s), true)
    | None => '(s', _) <- estore_n (fun _ => (k, v)) s k v ;; Some (s', false)
    end.
  (** One call, as in [ExpModel.step]; ResetBenchmarkStats (tree.go 158-161) and the counters of BenchmarkStats (163-173)
      as in tree/avl *)
  Definition estep_n (s : cavl K V) (o : n_op K V) : option (cavl K V * n_out K V) :=
    match o with
    | NCall (MPut k v) | NCall (MInsertIfAbsent k v) => '(s', b) <- estore_n (fun e => e) s k v ;; Some (s', NOut (MBool b))
    | NCall (MSet k v) => '(s', b) <- estore_n (fun _ => (k, v)) s k v ;; Some (s', NOut (MBool b))
    | NCall (MUpsert k v) => '(s', b) <- eupsert_n s k v ;; Some (s', NOut (MBool b))
    | _ => step_n cmp d s o
    end.
End Tree.
