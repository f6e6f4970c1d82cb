(** tree/avl with its rotation counters: the functions of [AvlTree] and [AvlModel] once more, handing the fields
    singleRotations and doubleRotations ([c], in this order) along.  They are int in Go; the model counts in [nat]. *)
From Verif Require Import Base Bind SMapSpec AvlTree AvlModel.
Local Open Scope Z_scope.

Section Model.
  Context {K V : Type} (cmp : K -> K -> Z) (d : Z).
  Notation tree := (tree K V).
  Notation counts := (nat * nat)%type.

  (** tree/avl/node.go 149, 163: [tree.singleRotations++] *)
  Definition single (c : counts) : counts := (S (fst c), snd c).
  (** tree/avl/node.go 108, 129: [tree.doubleRotations++] *)
  Definition double (c : counts) : counts := (fst c, S (snd c)).

  (** tree/avl/tree_hide.go 109-148: rebalance; the rotations node.go 107-174 *)
  Definition rebalance_n (node : tree) (c : counts) : option (tree * bool * counts) :=
    match node with
    | E => None
    | N h k v l r =>
        let lh := getHeight l in
        let rh := getHeight r in
        let diff := i8 (lh - rh) in
        if d <=? diff then
          match l with
          | E => None
          | N _ _ _ sl sr =>
              '(t, c') <- (if getHeight sr >? getHeight sl
                           then t <- rightRotateWithLeft Both node ;; Some (t, double c)
                           else t <- rightRotate Both node ;; Some (t, single c)) ;;
              Some (t, true, c')
          end
        else if diff <=? i8 (- d) then
          match r with
          | E => None
          | N _ _ _ sl sr =>
              '(t, c') <- (if getHeight sl >? getHeight sr
                           then t <- leftRotateWithRight Both node ;; Some (t, double c)
                           else t <- leftRotate Both node ;; Some (t, single c)) ;;
              Some (t, true, c')
          end
        else if lh >? rh then
          if h =? i8 (lh + 1) then Some (node, false, c) else Some (N (i8 (lh + 1)) k v l r, true, c)
        else
          if h =? i8 (rh + 1) then Some (node, false, c) else Some (N (i8 (rh + 1)) k v l r, true, c)
    end.

  (** tree/avl/tree_hide.go 91-107: neighboring *)
  Fixpoint neighboring_n (dir : bool) (cur : tree) (c : counts) : option (tree * (K * V) * bool * counts) :=
    match cur with
    | E => None
    | N h k v l r =>
        match child dir l r with
        | E => Some (child (negb dir) l r, (k, v), true, c)
        | N _ _ _ _ _ =>
            '(sub, res, rb, c1) <- neighboring_n dir (child dir l r) c ;;
            let cur' := with_child dir h k v l r sub in
            if rb : bool then '(t, rb', c2) <- rebalance_n cur' c1 ;; Some (t, res, rb', c2) else Some (cur', res, false, c1)
        end
    end.

  (** tree/avl/tree_hide.go 9-38: put *)
  Fixpoint put_n (hit : K * V -> K * V) (key : K) (v : V) (cur : tree) (alone : bool) (c : counts) : option (tree * bool * bool * counts) :=
    match cur with
    | E => Some (N 1 key v E E, false, alone, c)
    | N h ck cv l r =>
        let x := cmp ck key in
        if x <? 0 then
          let '(k', v') := hit (ck, cv) in Some (N h k' v' l r, true, false, c)
        else if x =? 0 then
          '(l', ex, rb, c1) <- put_n hit key v l (is_nil r) c ;;
          if (ex || negb rb)%bool then Some (N h ck cv l' r, ex, rb, c1)
          else '(t, rb', c2) <- rebalance_n (N h ck cv l' r) c1 ;; Some (t, ex, rb', c2)
        else if x =? 1 then
          '(r', ex, rb, c1) <- put_n hit key v r (is_nil l) c ;;
          if (ex || negb rb)%bool then Some (N h ck cv l r', ex, rb, c1)
          else '(t, rb', c2) <- rebalance_n (N h ck cv l r') c1 ;; Some (t, ex, rb', c2)
        else None
    end.

  (** tree/avl/tree_hide.go 51-89: remove *)
  Fixpoint remove_n (key : K) (cur : tree) (side : bool) (c : counts) : option (tree * option V * bool * counts) :=
    match cur with
    | E => Some (E, None, false, c)
    | N h ck cv l r =>
        let x := cmp ck key in
        if x <? 0 then
          match l, r with
          | E, _ => Some (r, Some cv, true, c)
          | _, E => Some (l, Some cv, true, c)
          | _, _ =>
              '(sub, (rk, rv), _, c1) <- neighboring_n (negb side) (child side l r) c ;;
              '(t, rb, c2) <- rebalance_n (with_child side h rk rv l r sub) c1 ;;
              Some (t, Some cv, rb, c2)
          end
        else if x =? 0 then
          '(l', target, rb, c1) <- remove_n key l false c ;;
          if rb : bool then '(t, rb', c2) <- rebalance_n (N h ck cv l' r) c1 ;; Some (t, target, rb', c2)
          else Some (N h ck cv l' r, target, false, c1)
        else if x =? 1 then
          '(r', target, rb, c1) <- remove_n key r true c ;;
          if rb : bool then '(t, rb', c2) <- rebalance_n (N h ck cv l r') c1 ;; Some (t, target, rb', c2)
          else Some (N h ck cv l r', target, false, c1)
        else None
    end.

  (** tree/avl/tree.go 7-15: type Tree, with the counters *)
  Record cavl := CA { base : avl K V; counts_of : counts }.
  (** tree/avl/tree.go 17-41: New, NewEx *)
  Definition new_n : cavl := CA new (0, 0)%nat.
  (** tree/avl/tree.go 43-51: Set; 63-75: Put, InsertIfAbsent ([hit] as in [AvlModel.put]) *)
  Definition store_n (hit : K * V -> K * V) (s : cavl) (k : K) (v : V) : option (cavl * bool) :=
    '(t, ex, _, c) <- put_n hit k v (root (base s)) false (counts_of s) ;;
    Some (CA (AVL t (if ex : bool then size (base s) else S (size (base s)))) c, negb ex).
  (** tree/avl/tree.go 53-61: Upsert *)
  Definition upsert_n (s : cavl) (k : K) (v : V) : option (cavl * bool) :=
    g <- get cmp k (root (base s)) ;;
    match g with
    | Some _ => t <- get_write cmp k v (root (base s)) ;; Some (CA (AVL t (size (base s))) (counts_of s), true)
    | None => '(s', _) <- store_n (fun _ => (k, v)) s k v ;; Some (s', false)
    end.
  (** tree/avl/tree.go 86-98: Remove, Delete *)
  Definition take_n (s : cavl) (k : K) : option (cavl * option V) :=
    '(t, target, _, c) <- remove_n k (root (base s)) true (counts_of s) ;;
    match target with
    | Some v => Some (CA (AVL t (size (base s) - 1)) c, Some v)
    | None => Some (CA (AVL t (size (base s))) c, None)
    end.

  (** One call: those of [AvlModel.step] (calls that do not change the tree as there), ResetBenchmarkStats
      (tree/avl/tree.go 158-161) and the fields SingleRotations and DoubleRotations of BenchmarkStats (163-174; for
      its other fields see [StatsModel]).  Clear (100-103) does not touch the counters. *)
  Inductive n_op := NCall (o : sm_op K V) | NReset | NStats.
  Inductive n_out := NOut (r : sm_out K V) | NUnit | NCounts (c : counts).
  Definition step_n (s : cavl) (o : n_op) : option (cavl * n_out) :=
    match o with
    | NReset => Some (CA (base s) (0, 0)%nat, NUnit)
    | NStats => Some (s, NCounts (counts_of s))
    | NCall (MPut k v) | NCall (MInsertIfAbsent k v) => '(s', b) <- store_n (fun e => e) s k v ;; Some (s', NOut (MBool b))
    | NCall (MSet k v) => '(s', b) <- store_n (fun _ => (k, v)) s k v ;; Some (s', NOut (MBool b))
    | NCall (MUpsert k v) => '(s', b) <- upsert_n s k v ;; Some (s', NOut (MBool b))
    | NCall (MRemove k) | NCall (MDelete k) => '(s', r) <- take_n s k ;; Some (s', NOut (MVal r))
    | NCall o => '(b, r) <- step cmp Both d (base s) o ;; Some (CA b (counts_of s), NOut r)
    end.
End Model.
Arguments cavl K V : clear implicits.
Arguments n_op K V : clear implicits.
Arguments n_out K V : clear implicits.
