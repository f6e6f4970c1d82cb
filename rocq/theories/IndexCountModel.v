(** tree/indextree with its rotation counters: the functions of [IndexModel] that rotate once more, handing the fields
    singleRotations and doubleRotations (tree.go 26-27; [c], in this order) along.  They are int in Go; the model
    counts in [nat]. *)
From Verif Require Import Base Bind AvlTree AvlModel AvlCountModel IndexSpec IndexModel.
Local Open Scope Z_scope.

Section Model.
  Context {K V : Type} (cmp : K -> K -> Z) (shift : Z).
  Notation tree := (tree K V).
  Notation counts := (nat * nat)%type.

  (** tree/indextree/utils.go 84-94: sizeRRotate ([single], [double]: the counter is raised, 88, 92) *)
  Definition sizeRRotate_n (cur : tree) (c : counts) : option (tree * counts) :=
    match cur with
    | N s k v l (N _ _ _ rl rr as r) =>
        if getSize rl >? getSize rr then r' <- rrotate r ;; t <- lrotate (N s k v l r') ;; Some (t, double c)
        else t <- lrotate cur ;; Some (t, single c)
    | _ => None
    end.

  (** tree/indextree/utils.go 96-106: sizeLRotate (counters: 100, 104) *)
  Definition sizeLRotate_n (cur : tree) (c : counts) : option (tree * counts) :=
    match cur with
    | N s k v (N _ _ _ ll lr as l) r =>
        if getSize ll <? getSize lr then l' <- lrotate l ;; t <- rrotate (N s k v l' r) ;; Some (t, double c)
        else t <- rrotate cur ;; Some (t, single c)
    | _ => None
    end.

  (** tree/indextree/utils.go 41-82: fixPut, with fixPutSize (7-13), one node of the way up as in [IndexModel.fixPut] *)
  Definition fixPut_n (st : climb) (cur : tree) (c : counts) : option (tree * climb * counts) :=
    match cur with
    | E => None
    | N s k v l r =>
        let s := s + 1 in
        match st with
        | First => Some (N s k v l r, if s =? 3 then Sizes else Height 2, c)
        | Sizes => Some (N s k v l r, Sizes, c)
        | Height h =>
            if shift <? 0 then None else
            let rootsize := shl64 h in
            let bottomsize := Z.shiftr rootsize shift + 1 in
            if s <? rootsize then
              let balance := getSize l - getSize r in
              if balance <? 0 then
                if bottomsize <=? - balance then '(t, c') <- sizeRRotate_n (N s k v l r) c ;; Some (t, Sizes, c')
                else Some (N s k v l r, Height (h + 1), c)
              else
                if bottomsize <=? balance then '(t, c') <- sizeLRotate_n (N s k v l r) c ;; Some (t, Sizes, c')
                else Some (N s k v l r, Height (h + 1), c)
            else Some (N s k v l r, Height (h + 1), c)
        end
    end.

  (** tree/indextree/tree.go 62-102 (Put) and 110-152 (Set) below the root, as in [IndexModel.put] *)
  Fixpoint put_n (hit : K * V -> K * V) (key : K) (value : V) (cur : tree) (c : counts) : option (tree * option climb * counts) :=
    match cur with
    | E => Some (N 1 key value E E, Some First, c)
    | N s k v l r =>
        let x := cmp key k in
        if x <? 0 then
          '(l', res, c1) <- put_n hit key value l c ;;
          match res with
          | None => Some (N s k v l' r, None, c1)
          | Some st => '(t, st', c2) <- fixPut_n st (N s k v l' r) c1 ;; Some (t, Some st', c2)
          end
        else if x >? 0 then
          '(r', res, c1) <- put_n hit key value r c ;;
          match res with
          | None => Some (N s k v l r', None, c1)
          | Some st => '(t, st', c2) <- fixPut_n st (N s k v l r') c1 ;; Some (t, Some st', c2)
          end
        else let '(k', v') := hit (k, v) in Some (N s k' v' l r, None, c)
    end.

  (** tree/indextree/tree.go 62-102: Put *)
  Definition Put_n (key : K) (value : V) (t : tree) (c : counts) : option (tree * bool * counts) :=
    '(t', res, c') <- put_n (fun e => e) key value t c ;; Some (t', match res with None => false | _ => true end, c').
  (** tree/indextree/tree.go 110-152: Set *)
  Definition Set_n (key : K) (value : V) (t : tree) (c : counts) : option (tree * bool * counts) :=
    match t with
    | E => Some (N 1 key value E E, true, c)
    | _ => '(t', res, c') <- put_n (fun _ => (key, value)) key value t c ;;
           Some (t', match res with None => true | _ => false end, c')
    end.
  (** tree/indextree/tree.go 155-162: Upsert *)
  Definition Upsert_n (key : K) (value : V) (t : tree) (c : counts) : option (tree * bool * counts) :=
    match getNode cmp key t with
    | E => '(t', _, c') <- Put_n key value t c ;; Some (t', false, c')
    | _ => Some (setValue cmp key value t, true, c)
    end.

  (** tree/indextree/utils.go 257-287: fixRemoveRange (counters: 269, 274, 279, 284) *)
  Definition fixRemoveRange_n (cur : tree) (c : counts) : option (tree * counts) :=
    match cur with
    | E => None
    | N s k v l r =>
        if s <=? 2 then Some (cur, c) else
        let ls := getSize l in
        let rs := getSize r in
        if (ls >? rs) && (rs * 2 <=? ls) then
          match l with
          | E => None
          | N _ _ _ ll lr =>
              if getSize ll <? getSize lr then l' <- lrotate l ;; t <- rrotate (N s k v l' r) ;; Some (t, double c)
              else t <- rrotate cur ;; Some (t, single c)
          end
        else if (ls <? rs) && (ls * 2 <=? rs) then
          match r with
          | E => None
          | N _ _ _ rl rr =>
              if getSize rl >? getSize rr then r' <- rrotate r ;; t <- lrotate (N s k v l r') ;; Some (t, double c)
              else t <- lrotate cur ;; Some (t, single c)
          end
        else Some (cur, c)
    end.
  (** tree/indextree/utils.go 226-248: the first part of mergeGroups, as in [IndexModel.attach] *)
  Fixpoint attach_n (dir : bool) (sub : tree) (n : Z) (group : tree) (c : counts) : option (tree * counts) :=
    match group with
    | E => None
    | N s k v l r =>
        '(t, c1) <- match child dir l r with E => Some (sub, c) | N _ _ _ _ _ => attach_n dir sub n (child dir l r) c end ;;
        fixRemoveRange_n (with_child dir (s + n) k v l r t) c1
    end.
  (** tree/indextree/tree.go 506-525, 622-640 and mergeGroups, as in [IndexModel.join] *)
  Definition join_n (lgroup rgroup : tree) (c : counts) : option (tree * counts) :=
    let rsize := getSize rgroup in
    let lsize := getSize lgroup in
    if lsize >? rsize then
      match rgroup with E => Some (lgroup, c) | _ => attach_n true rgroup rsize lgroup c end
    else
      match lgroup with
      | E => match rgroup with E => None | _ => Some (rgroup, c) end
      | _ => attach_n false lgroup lsize rgroup c
      end.
  (** tree/indextree/tree.go 506-525, 622-640 *)
  Definition closeCut_n (size : Z) (lgroup rgroup : tree) (c : counts) : option (tree * cut * counts) :=
    match lgroup, rgroup with
    | E, E => Some (E, Gone size, c)
    | _, _ => '(t, c') <- join_n lgroup rgroup c ;; Some (t, Merged, c')
    end.
  (** tree/indextree/tree.go 454-525 with getRangeRoot (utils.go 202-223) *)
  Fixpoint removeRange_n (low high : K) (cur : tree) (c : counts) : option (tree * cut * counts) :=
    match cur with
    | E => Some (E, Nothing, c)
    | N s k v l r =>
        let c1 := cmp low k in
        let c2 := cmp high k in
        if (c1 =? c2) && (c1 <? 0) then
          '(l', x, c') <- removeRange_n low high l c ;; Some (upFromCut x s k v l' r, x, c')
        else if (c1 =? c2) && (c1 >? 0) then
          '(r', x, c') <- removeRange_n low high r c ;; Some (upFromCut x s k v l r', x, c')
        else closeCut_n s (ltrim cmp low l) (rtrim cmp high r) c
    end.
  (** tree/indextree/tree.go 441-526: RemoveRange *)
  Definition RemoveRange_n (low high : K) (t : tree) (c : counts) : option (tree * counts) :=
    let x := cmp low high in
    if x >? 0 then None
    else if x =? 0 then '(t', _) <- removeKey cmp low t ;; Some (t', c)
    else '(t', _, c') <- removeRange_n low high t c ;; Some (t', c').
  (** tree/indextree/tree.go 544-640: RemoveRangeByIndex for low not above high *)
  Fixpoint removeRangeAt_n (low high idx : Z) (cur : tree) (c : counts) : option (tree * cut * counts) :=
    match cur with
    | E => None
    | N s k v l r =>
        if (idx >? low) && (idx >? high) then
          '(l', x, c') <- removeRangeAt_n low high (idx - (kidSize true l + 1)) l c ;; Some (upFromCut x s k v l' r, x, c')
        else if (idx <? high) && (idx <? low) then
          '(r', x, c') <- removeRangeAt_n low high (idx + (kidSize false r + 1)) r c ;; Some (upFromCut x s k v l r', x, c')
        else closeCut_n s (ltrimAt low idx false l) (rtrimAt high idx true r) c
    end.
  (** tree/indextree/tree.go 530-641: RemoveRangeByIndex *)
  Definition RemoveRangeByIndex_n (low high : Z) (t : tree) (c : counts) : option (tree * counts) :=
    if low >? high then Some (t, c) else '(t', _, c') <- removeRangeAt_n low high (kidSize false t) t c ;; Some (t', c').
End Model.

Section Calls.
  Context {K A : Type} (cmp : K -> K -> Z) (shift : Z).
  Notation tree := (tree K (option A)).

  (** tree/indextree/tree.go 23-28: type Tree, with the counters; a new tree (31-33) has none *)
  Record cix := CI { content : tree; counts_ix : nat * nat }.
  Definition new_ix : cix := CI E (0, 0)%nat.
  Definition orPanic_n (s : cix) (r : option (cix * ix_out K A)) : cix * ix_out K A :=
    match r with Some p => p | None => (s, XPanic) end.
  (** One call: those of [IndexModel.step]; ResetBenchmarkStats (bench_stats.go 14-17); the fields SingleRotations and
      DoubleRotations of BenchmarkStats (19-29).  Whoever goes on with the tree that Split or SplitContain returned
      (made by New, tree.go 896, 903, 906, 1018, 1025, 1028) finds its counters at 0. *)
  Inductive nx_op := YCall (o : ix_op K A) | YReset | YStats.
  Inductive nx_out := YOut (r : ix_out K A) | YUnit | YCounts (c : nat * nat).
  Definition call_ix (s : cix) (o : ix_op K A) : cix * ix_out K A :=
    let t := content s in
    let c := counts_ix s in
    match o with
    | XPut k v | XInsertIfAbsent k v => orPanic_n s ('(t', b, c') <- Put_n cmp shift k v t c ;; Some (CI t' c', XBool b))
    | XSet k v => orPanic_n s ('(t', b, c') <- Set_n cmp shift k v t c ;; Some (CI t' c', XBool b))
    | XUpsert k v => orPanic_n s ('(t', b, c') <- Upsert_n cmp shift k v t c ;; Some (CI t' c', XBool b))
    | XRemoveRange lo hi => orPanic_n s ('(t', c') <- RemoveRange_n cmp lo hi t c ;; Some (CI t' c', XUnit))
    | XRemoveRangeByIndex i j => orPanic_n s ('(t', c') <- RemoveRangeByIndex_n i j t c ;; Some (CI t' c', XUnit))
    | XSplit _ rgt _ =>
        let '(t', r) := step cmp shift t o in
        (CI t' (if rgt then match r with XNil => c | _ => (0, 0)%nat end else c), r)
    | _ => let '(t', r) := step cmp shift t o in (CI t' c, r)
    end.
  Definition step_ix (s : cix) (o : nx_op) : cix * nx_out :=
    match o with
    | YCall o => let '(s', r) := call_ix s o in (s', YOut r)
    | YReset => (CI (content s) (0, 0)%nat, YUnit)
    | YStats => (s, YCounts (counts_ix s))
    end.
End Calls.
Arguments cix K A : clear implicits.
Arguments nx_op K A : clear implicits.
Arguments nx_out K A : clear implicits.
