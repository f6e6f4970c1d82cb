(** Model of map/linkedhashmap/linked_hashmap.go: nodes in an explicit heap, the hash index a Go map (GoMap.v).
    Not modelled: the String methods (37-39, 296-298). *)
From Verif Require Import Base Bind Machine DLL GoMap LinkedHashSpec.

Section LHM.
  Context {K V : Type} (keq : K -> K -> bool) (nilk : K) (nilv : V).

  (** linked_hashmap.go:17-20; a node (11-14) carries the pair (Key, Value) *)
  Record lhm := LHM { hp : heap (K * V); head : ptr; tail : ptr; idx : gmap K ptr }.

  (** &hNode{} *)
  Definition zero_node : node (K * V) := mk None None (nilk, nilv).

  (** linked_hashmap.go:26-34 *)
  Definition new : option lhm :=
    let '(h0, hd) := alloc [] zero_node in
    let '(h1, tl) := alloc h0 zero_node in
    h2 <- set_next h1 hd tl ;;
    h3 <- set_prev h2 tl hd ;;
    Some (LHM h3 hd tl []).

  (** node.Value = value *)
  Definition set_value (h : heap (K * V)) (p : ptr) (v : V) : option (heap (K * V)) :=
    nd <- deref h p ;; set_val h p (fst (nval nd), v).

  (** linked_hashmap.go:67-76 = 137-147: a new last entry is written into the tail sentinel, a new node becomes
      the tail sentinel *)
  Definition append_tail (m : lhm) (k : K) (v : V) : option lhm :=
    let '(h1, nd) := alloc (hp m) zero_node in
    h2 <- set_val h1 (tail m) (k, v) ;;
    h3 <- set_prev h2 nd (tail m) ;;
    h4 <- set_next h3 (tail m) nd ;;
    Some (LHM h4 (head m) nd (gm_set keq (idx m) k (tail m))).
  (** linked_hashmap.go:108-117 = 160-171 *)
  Definition append_head (m : lhm) (k : K) (v : V) : option lhm :=
    let '(h1, nd) := alloc (hp m) zero_node in
    h2 <- set_val h1 (head m) (k, v) ;;
    h3 <- set_next h2 nd (head m) ;;
    h4 <- set_prev h3 (head m) nd ;;
    Some (LHM h4 nd (tail m) (gm_set keq (idx m) k (head m))).

  (** linked_hashmap.go:42-81 *)
  Definition setBack (m : lhm) (k : K) (v : V) : option (lhm * bool) :=
    match gm_get keq (idx m) k with
    | Some nd =>
        h1 <- set_value (hp m) nd v ;;
        tp <- get_prev h1 (tail m) ;;
        if ptr_eqb nd tp then Some (LHM h1 (head m) (tail m) (idx m), true)
        else
          prev <- get_prev h1 nd ;;
          next <- get_next h1 nd ;;
          h2 <- set_next h1 prev next ;;
          h3 <- set_prev h2 next prev ;;
          tprev <- get_prev h3 (tail m) ;;
          h4 <- set_next h3 tprev nd ;;
          h5 <- set_prev h4 nd tprev ;;
          h6 <- set_next h5 nd (tail m) ;;
          h7 <- set_prev h6 (tail m) nd ;;
          Some (LHM h7 (head m) (tail m) (idx m), true)
    | None => m' <- append_tail m k v ;; Some (m', false)
    end.

  (** linked_hashmap.go:84-121 *)
  Definition setFront (m : lhm) (k : K) (v : V) : option (lhm * bool) :=
    match gm_get keq (idx m) k with
    | Some nd =>
        h1 <- set_value (hp m) nd v ;;
        hn <- get_next h1 (head m) ;;
        if ptr_eqb nd hn then Some (LHM h1 (head m) (tail m) (idx m), true)
        else
          prev <- get_prev h1 nd ;;
          next <- get_next h1 nd ;;
          h2 <- set_next h1 prev next ;;
          h3 <- set_prev h2 next prev ;;
          hnext <- get_next h3 (head m) ;;
          h4 <- set_prev h3 hnext nd ;;
          h5 <- set_next h4 nd hnext ;;
          h6 <- set_prev h5 nd (head m) ;;
          h7 <- set_next h6 (head m) nd ;;
          Some (LHM h7 (head m) (tail m) (idx m), true)
    | None => m' <- append_head m k v ;; Some (m', false)
    end.

  (** linked_hashmap.go:134-154 *)
  Definition pushBack (m : lhm) (k : K) (v : V) : option (lhm * bool) :=
    match gm_get keq (idx m) k with
    | None => m' <- append_tail m k v ;; Some (m', true)
    | Some _ => Some (m, false)
    end.
  (** linked_hashmap.go:124-126 *)
  Definition put := pushBack.
  (** linked_hashmap.go:129-131 *)
  Definition insertIfAbsent := put.
  (** linked_hashmap.go:157-177 *)
  Definition pushFront (m : lhm) (k : K) (v : V) : option (lhm * bool) :=
    match gm_get keq (idx m) k with
    | None => m' <- append_head m k v ;; Some (m', true)
    | Some _ => Some (m, false)
    end.

  (** linked_hashmap.go:180-186; (nil, false) is [None] *)
  Definition get (m : lhm) (k : K) : option (option V) :=
    match gm_get keq (idx m) k with
    | Some nd => n <- deref (hp m) nd ;; Some (Some (snd (nval n)))
    | None => Some None
    end.

  (** linked_hashmap.go:189-196 *)
  Definition set (m : lhm) (k : K) (v : V) : option (lhm * bool) :=
    match gm_get keq (idx m) k with
    | Some nd => h1 <- set_val (hp m) nd (k, v) ;; Some (LHM h1 (head m) (tail m) (idx m), true)
    | None => Some (m, false)
    end.

  (** linked_hashmap.go:200-208 *)
  Definition upsert (m : lhm) (k : K) (v : V) : option (lhm * bool) :=
    match gm_get keq (idx m) k with
    | Some nd => h1 <- set_val (hp m) nd (k, v) ;; Some (LHM h1 (head m) (tail m) (idx m), true)
    | None => '(m', _) <- put m k v ;; Some (m', false)
    end.

  (** linked_hashmap.go:211-223 *)
  Definition clear (m : lhm) : option lhm :=
    h1 <- set_val (hp m) (head m) (nilk, nilv) ;;
    h2 <- set_prev h1 (head m) None ;;
    h3 <- set_val h2 (tail m) (nilk, nilv) ;;
    h4 <- set_next h3 (tail m) None ;;
    h5 <- set_next h4 (head m) (tail m) ;;
    h6 <- set_prev h5 (tail m) (head m) ;;
    Some (LHM h6 (head m) (tail m) []).

  (** linked_hashmap.go:241-246 *)
  Definition unlink (h : heap (K * V)) (nd : ptr) : option (heap (K * V)) :=
    nprev <- get_prev h nd ;;
    nnext <- get_next h nd ;;
    h1 <- set_next h nprev nnext ;;
    set_prev h1 nnext nprev.

  (** linked_hashmap.go:226-233 *)
  Definition remove (m : lhm) (k : K) : option (lhm * option V) :=
    match gm_get keq (idx m) k with
    | Some nd =>
        let i := gm_del keq (idx m) k in
        h1 <- unlink (hp m) nd ;;
        n <- deref h1 nd ;;
        Some (LHM h1 (head m) (tail m) i, Some (snd (nval n)))
    | None => Some (m, None)
    end.
  (** linked_hashmap.go:236-238 *)
  Definition delete := remove.

  (** linked_hashmap.go:249-251 *)
  Definition empty (m : lhm) : bool := gm_len (idx m) =? 0.
  (** linked_hashmap.go:254-256, 259-261 *)
  Definition size (m : lhm) : nat := gm_len (idx m).

  (** the loops of linked_hashmap.go:266-270, 277-281, 287-291: collect [g] of every node from [cur] until the tail
      sentinel.  [fuel] bounds the number of nodes visited; the callers give the number of nodes ever allocated, and a
      loop that would visit more (hence loop forever) shows up as [None]. *)
  Fixpoint walk {X} (g : K * V -> X) (fuel : nat) (h : heap (K * V)) (cur tl : ptr) : option (list X) :=
    if ptr_eqb cur tl then Some []
    else match fuel with
         | 0 => None
         | S fuel' => nd <- deref h cur ;;
                      rest <- walk g fuel' h (nnext nd) tl ;;
                      Some (g (nval nd) :: rest)
         end.
  Definition walk_all {X} (g : K * V -> X) (m : lhm) : option (list X) :=
    first <- get_next (hp m) (head m) ;;
    walk g (length (hp m)) (hp m) first (tail m).
  (** linked_hashmap.go:264-273 *)
  Definition keys (m : lhm) : option (list K) := walk_all fst m.
  (** linked_hashmap.go:276-283 *)
  Definition values (m : lhm) : option (list V) := walk_all snd m.
  (** linked_hashmap.go:286-293 *)
  Definition slices (m : lhm) : option (list (K * V)) := walk_all (fun e => e) m.

  (** dispatch *)
  Definition step (m : lhm) (o : lh_op (K:=K) (V:=V)) : option (lhm * lh_out) :=
    let rb (x : option (lhm * bool)) := '(m', b) <- x ;; Some (m', LBool b) in
    let rv (x : option (lhm * option V)) := '(m', b) <- x ;; Some (m', LVal b) in
    match o with
    | LSetBack k v => rb (setBack m k v)
    | LSetFront k v => rb (setFront m k v)
    | LPut k v => rb (put m k v)
    | LInsertIfAbsent k v => rb (insertIfAbsent m k v)
    | LPushBack k v => rb (pushBack m k v)
    | LPushFront k v => rb (pushFront m k v)
    | LGet k => r <- get m k ;; Some (m, LVal r)
    | LSet k v => rb (set m k v)
    | LUpsert k v => rb (upsert m k v)
    | LClear => m' <- clear m ;; Some (m', LUnit)
    | LRemove k => rv (remove m k)
    | LDelete k => rv (delete m k)
    | LEmpty => Some (m, LBool (empty m))
    | LSize | LLen => Some (m, LNat (size m))
    | LKeys => l <- keys m ;; Some (m, LKeyList l)
    | LValues => l <- values m ;; Some (m, LValList l)
    | LSlices => l <- slices m ;; Some (m, LPairs l)
    end.
  Definition run_all (ops : list lh_op) : option (list lh_out) :=
    m <- new ;; run step m ops.
End LHM.
