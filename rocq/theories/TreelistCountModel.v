(** tree/treelist with its rotation counters: the functions of [TreelistModel] that rotate once more, handing the fields
    singleRotations and doubleRotations (tree.go 39-40; [c], in this order) along.  They are int64 in Go; the model
    counts in [nat].  Where the code is that of tree/indextree line by line, the definition is the one of
    [IndexCountModel]. *)
From Verif Require Import Base Bind OrderSpec SMapSpec AvlTree AvlModel AvlCountModel IndexSpec IndexModel IndexCountModel TreelistSpec TreelistModel.
Local Open Scope Z_scope.

Section Treelist.
  Context {K V : Type} (cmp : K -> K -> Z).
  Notation node := (nat * V)%type.
  Notation tree := (tree K node).
  Notation counts := (nat * nat)%type.

  (** utils.go 243-253 (counters: 247, 251), 255-265 (259, 263) *)
  Definition sizeRRotate_t : tree -> counts -> option (tree * counts) := sizeRRotate_n.
  Definition sizeLRotate_t : tree -> counts -> option (tree * counts) := sizeLRotate_n.

  (** utils.go 169-208 (fixPut), 130-135 (fixPutSize): one node of the way up as in [TreelistModel.fixPut] *)
  Definition fixPut_t (st : climb) (cur : tree) (c : counts) : option (tree * climb * counts) :=
    match cur with
    | E => None
    | N s k v l r =>
        let s1 := s + 1 in
        match st with
        | First => Some (N s1 k v l r, if s1 =? 3 then Sizes else Height 2, c)
        | Sizes => Some (N s1 k v l r, Sizes, c)
        | Broken => Some (N s k v l r, Broken, c)
        | Height h =>
            if 64 <=? h then Some (N s1 k v l r, Broken, c)
            else if s1 <? shl64 h then
              let balance := getSize l - getSize r in
              if balance <? 0 then
                if bottomsize h <=? - balance then '(t, c') <- sizeRRotate_t (N s1 k v l r) c ;; Some (t, Sizes, c')
                else Some (N s1 k v l r, Height (h + 1), c)
              else
                if bottomsize h <=? balance then '(t, c') <- sizeLRotate_t (N s1 k v l r) c ;; Some (t, Sizes, c')
                else Some (N s1 k v l r, Height (h + 1), c)
            else Some (N s1 k v l r, Height (h + 1), c)
        end
    end.

  (** utils.go 74-102 (putWith) and 40-45, 61 (attachNode), as in [TreelistModel.put] *)
  Fixpoint put_t (hit : V -> V) (x : nat) (key : K) (value : V) (left right : option nat) (cur : tree) (c : counts) : option (tree * placed * counts) :=
    match cur with
    | E => Some (N 1 key (x, value) E E, Placed left right First, c)
    | N s k (i, v) l r =>
        let o := cmp key k in
        if o <? 0 then
          '(l', res, c1) <- put_t hit x key value left (Some i) l c ;;
          match res with
          | Found => Some (N s k (i, v) l' r, Found, c1)
          | Placed a b st => '(t, st', c2) <- fixPut_t st (N s k (i, v) l' r) c1 ;; Some (t, Placed a b st', c2)
          end
        else if o >? 0 then
          '(r', res, c1) <- put_t hit x key value (Some i) right r c ;;
          match res with
          | Found => Some (N s k (i, v) l r', Found, c1)
          | Placed a b st => '(t, st', c2) <- fixPut_t st (N s k (i, v) l r') c1 ;; Some (t, Placed a b st', c2)
          end
        else Some (N s k (i, hit v) l r, Found, c)
    end.

  (** tree.go 36-43: type Tree, with the counters; a new tree (46-48) has none *)
  Record ctl := CT { list_of : tl K V; counts_tl : counts }.
  Definition new_tl : ctl := CT new (0, 0)%nat.

  (** utils.go 64-103: putWith *)
  Definition putWith_t (key : K) (value : V) (inserted exists_ : bool) (hit : V -> V) (s : ctl) : option (ctl * tl_out K V) :=
    let b := list_of s in
    '(t, res, c) <- put_t hit (fresh b) key value None None (top b) (counts_tl s) ;;
    Some match res with
         | Found => (CT (T t (lks b) (fresh b)) c, TBool exists_)
         | Placed dl dr st =>
             (CT (T t (attachLinks (fresh b) dl dr (lks b)) (S (fresh b))) c,
              match st with Broken => TPanic | _ => TBool inserted end)
         end.

  (** utils.go 210-241 (fixRemoveRange; counters: 222, 227, 232, 237), 333-363 (mergeGroups) and tree.go 333-351, 481-499 *)
  Definition closeCut_t : Z -> tree -> tree -> counts -> option (tree * cut * counts) := closeCut_n.

  (** tree.go 247-353 with getRangeRoot (utils.go 106-128), as in [TreelistModel.removeRange] *)
  Fixpoint removeRange_t (lk : links) (low high : K) (cur : tree) (c : counts) :
    option (tree * cut * option (option nat * option nat) * counts) :=
    match cur with
    | E => Some (E, Nothing, None, c)
    | N s k (i, v) l r =>
        let c1 := cmp low k in
        let c2 := cmp high k in
        if (c1 =? c2) && (c1 <? 0) then
          '(l', x, dd, c') <- removeRange_t lk low high l c ;; Some (upFromCut x s k (i, v) l' r, x, dd, c')
        else if (c1 =? c2) && (c1 >? 0) then
          '(r', x, dd, c') <- removeRange_t lk low high r c ;; Some (upFromCut x s k (i, v) l r', x, dd, c')
        else
          let '(lgroup, dleft) := match l with E => (E, d lk i false) | _ => ltrim cmp lk low l end in
          let '(rgroup, dright) := match r with E => (E, d lk i true) | _ => rtrim cmp lk high r end in
          '(t, x, c') <- closeCut_t s lgroup rgroup c ;; Some (t, x, Some (dleft, dright), c')
    end.

  (** tree.go 235-354: RemoveRange *)
  Definition RemoveRange_t (low high : K) (s : ctl) : option (ctl * tl_out K V) :=
    let b := list_of s in
    let o := cmp low high in
    if o >? 0 then None
    else if o =? 0 then
      '(b', res) <- Remove cmp low b ;;
      Some (CT b' (counts_tl s), match res with TSlice None => TBool false | TSlice _ => TBool true | _ => res end)
    else
      '(t, _, dd, c) <- removeRange_t (lks b) low high (top b) (counts_tl s) ;;
      Some match dd with
           | None => (CT b c, TBool false)
           | Some (dleft, dright) => (CT (T t (unlink dleft dright (lks b)) (fresh b)) c, TBool true)
           end.

  (** tree.go 372-499: RemoveRangeByIndex for low not above high *)
  Fixpoint removeRangeAt_t (lk : links) (low high idx : Z) (cur : tree) (c : counts) :
    option (tree * cut * (option nat * option nat) * counts) :=
    match cur with
    | E => None
    | N s k (i, v) l r =>
        if (idx >? low) && (idx >? high) then
          '(l', x, dd, c') <- removeRangeAt_t lk low high (idx - (kidSize true l + 1)) l c ;;
          Some (upFromCut x s k (i, v) l' r, x, dd, c')
        else if (idx <? high) && (idx <? low) then
          '(r', x, dd, c') <- removeRangeAt_t lk low high (idx + (kidSize false r + 1)) r c ;;
          Some (upFromCut x s k (i, v) l r', x, dd, c')
        else
          let '(lgroup, dleft) := match l with E => (E, d lk i false) | _ => ltrimAt lk low idx false l end in
          let '(rgroup, dright) := match r with E => (E, d lk i true) | _ => rtrimAt lk high idx true r end in
          '(t, x, c') <- closeCut_t s lgroup rgroup c ;; Some (t, x, (dleft, dright), c')
    end.
  (** tree.go 357-500: RemoveRangeByIndex *)
  Definition RemoveRangeByIndex_t (low high : Z) (s : ctl) : option (ctl * tl_out K V) :=
    let b := list_of s in
    if low >? high then Some (s, TUnit) else
    '(t, _, (dleft, dright), c) <- removeRangeAt_t (lks b) low high (kidSize false (top b)) (top b) (counts_tl s) ;;
    Some (CT (T t (unlink dleft dright (lks b)) (fresh b)) c, TUnit).

  Definition orPanic_t (s : ctl) (r : option (ctl * tl_out K V)) : ctl * tl_out K V :=
    match r with Some p => p | None => (s, TPanic) end.
  (** One call: those of [TreelistModel.tl_step], Clear (tree.go 503-509) resetting the counters; SingleRotations and
      DoubleRotations (511-519), read one after the other; ResetRotations (521-525). *)
  Inductive nt_op := WCall (o : tl_op K V) | WReset | WCounts.
  Inductive nt_out := WOut (r : tl_out K V) | WUnit | WNums (singles doubles : nat).
  Definition call_tl (s : ctl) (o : tl_op K V) : ctl * tl_out K V :=
    match o with
    | TPut k v => orPanic_t s (putWith_t k v true false (fun v0 => v0) s)
    | TSet k v => orPanic_t s (putWith_t k v false true (fun _ => v) s)
    | TPutDuplicate k v f => orPanic_t s (putWith_t k v false true f s)
    | TRemoveRange lo hi => orPanic_t s (RemoveRange_t lo hi s)
    | TRemoveRangeByIndex i j => orPanic_t s (RemoveRangeByIndex_t i j s)
    | TClear => let '(b, r) := tl_step cmp (list_of s) o in (CT b (0, 0)%nat, r)
    | _ => let '(b, r) := tl_step cmp (list_of s) o in (CT b (counts_tl s), r)
    end.
  Definition step_tl (s : ctl) (o : nt_op) : ctl * nt_out :=
    match o with
    | WCall o => let '(s', r) := call_tl s o in (s', WOut r)
    | WReset => (CT (list_of s) (0, 0)%nat, WUnit)
    | WCounts => (s, WNums (fst (counts_tl s)) (snd (counts_tl s)))
    end.
End Treelist.
Arguments ctl K V : clear implicits.
Arguments nt_op K V : clear implicits.
Arguments nt_out K V : clear implicits.
