(** set/treeset with node identities: the same functions as in [AvlModel]/[TreeSetModel], on a heap of nodes, so that a
    traversal can go on while the tree it walks is being changed.  Used to run [a.Difference(a)] on concrete sets.
    Recursion carries fuel; [None] is a panic or fuel running out. *)
From Verif Require Import Base Bind.
Local Open Scope Z_scope.

(** set/treeset/node.go 7-12: Node; pointers are indices into the heap, [None] is nil *)
Definition ptr := option nat.
Record hnode := HN { hk : Z; hh : Z; c0 : ptr; c1 : ptr }.
Definition heap := list hnode.
Definition kid (n : hnode) (c : bool) : ptr := if c then c1 n else c0 n.
Definition with_kid (n : hnode) (c : bool) (p : ptr) : hnode :=
  if c then HN (hk n) (hh n) (c0 n) p else HN (hk n) (hh n) p (c1 n).
Definition upd (h : heap) (i : nat) (n : hnode) : heap := firstn i h ++ n :: skipn (S i) h.
Definition load (h : heap) (p : ptr) : option hnode := match p with Some i => nth_error h i | None => None end.
(** [p.Children[c] = q] *)
Definition setkid (h : heap) (p : ptr) (c : bool) (q : ptr) : option heap :=
  match p with Some i => n <- nth_error h i ;; Some (upd h i (with_kid n c q)) | None => None end.
(** [p.Key = k] *)
Definition setkey (h : heap) (p : ptr) (k : Z) : option heap :=
  match p with Some i => n <- nth_error h i ;; Some (upd h i (HN k (hh n) (c0 n) (c1 n))) | None => None end.
Definition setheight (h : heap) (p : ptr) (x : Z) : option heap :=
  match p with Some i => n <- nth_error h i ;; Some (upd h i (HN (hk n) x (c0 n) (c1 n))) | None => None end.
Definition getkid (h : heap) (p : ptr) (c : bool) : option ptr := n <- load h p ;; Some (kid n c).
(** set/treeset/node.go 85-90: getHeight *)
Definition geth (h : heap) (p : ptr) : option Z := match p with None => Some 0 | _ => n <- load h p ;; Some (hh n) end.
(** set/treeset/node.go 35-37: updateHeightOneChild *)
Definition oneChild (h : heap) (p : ptr) (c : bool) : option heap :=
  q <- getkid h p c ;; x <- geth h q ;; setheight h p (x + 1).

(** set/treeset/node.go 140-164: leftRotate ([c = true]) and rightRotate ([c = false]); they are mirror images *)
Definition rotate1 (c : bool) (h : heap) (parent : ptr) (ch : bool) : option heap :=
  cur <- getkid h parent ch ;; sub <- getkid h cur c ;;
  h1 <- setkid h parent ch sub ;;
  x <- getkid h1 sub (negb c) ;; h2 <- setkid h1 cur c x ;; h3 <- setkid h2 sub (negb c) cur ;;
  h4 <- oneChild h3 cur c ;; oneChild h4 sub (negb c).
(** set/treeset/node.go 101-138: leftRotateWithRight ([c = true]) and rightRotateWithLeft ([c = false]) *)
Definition rotate2 (c : bool) (h : heap) (parent : ptr) (ch : bool) : option heap :=
  cur <- getkid h parent ch ;; sub <- getkid h cur c ;; subsub <- getkid h sub (negb c) ;;
  h1 <- setkid h parent ch subsub ;;
  x <- getkid h1 subsub (negb c) ;; y <- getkid h1 subsub c ;;
  h2 <- setkid h1 subsub (negb c) cur ;; h3 <- setkid h2 subsub c sub ;;
  h4 <- setkid h3 cur c x ;; h5 <- setkid h4 sub (negb c) y ;;
  h6 <- oneChild h5 cur (negb c) ;; h7 <- oneChild h6 sub c ;; oneChild h7 subsub (negb c).

(** set/treeset/tree_hide.go 109-150: rebalance, differenceHeight 2 *)
Definition rebalance (h : heap) (parent : ptr) (ch : bool) : option (heap * bool) :=
  node <- getkid h parent ch ;; n <- load h node ;; lh <- geth h (c0 n) ;; rh <- geth h (c1 n) ;;
  let diff := lh - rh in
  if 2 <=? diff then
    s <- load h (c0 n) ;; x <- geth h (c1 s) ;; y <- geth h (c0 s) ;;
    h' <- (if y <? x then rotate2 false h parent ch else rotate1 false h parent ch) ;; Some (h', true)
  else if diff <=? -2 then
    s <- load h (c1 n) ;; x <- geth h (c0 s) ;; y <- geth h (c1 s) ;;
    h' <- (if y <? x then rotate2 true h parent ch else rotate1 true h parent ch) ;; Some (h', true)
  else
    let x := (if rh <? lh then lh else rh) + 1 in
    if hh n =? x then Some (h, false) else h' <- setheight h node x ;; Some (h', true).

Section Cmp.
  Context (cmp : Z -> Z -> Z).

  (** set/treeset/tree_hide.go 9-38: put *)
  Fixpoint put (fuel : nat) (h : heap) (parent : ptr) (ch : bool) (key : Z) : option (heap * bool * bool) :=
    match fuel with
    | O => None
    | S fuel' =>
        cur <- getkid h parent ch ;;
        match cur with
        | None =>
            h1 <- setkid (h ++ [HN key 1 None None]) parent ch (Some (length h)) ;;
            o <- getkid h1 parent (negb ch) ;;
            Some (h1, false, match o with None => true | _ => false end)
        | Some i =>
            n <- nth_error h i ;;
            let c := cmp (hk n) key in
            if c <? 0 then Some (h, true, false)
            else
              '(h1, ex, rb) <- put fuel' h cur (c =? 1) key ;;
              if (ex || negb rb)%bool then Some (h1, ex, rb)
              else '(h2, rb') <- rebalance h1 parent ch ;; Some (h2, ex, rb')
        end
    end.

  (** set/treeset/tree_hide.go 91-107: neighboring *)
  Fixpoint neighboring (fuel : nat) (h : heap) (parent : ptr) (child2 child1 : bool) : option (heap * ptr * bool) :=
    match fuel with
    | O => None
    | S fuel' =>
        cur <- getkid h parent child2 ;; sub <- getkid h cur child1 ;;
        match sub with
        | None =>
            other <- getkid h cur (negb child1) ;; h1 <- setkid h parent child2 other ;; Some (h1, cur, true)
        | Some _ =>
            '(h1, res, rb) <- neighboring fuel' h cur child1 child1 ;;
            if rb : bool then '(h2, rb') <- rebalance h1 parent child2 ;; Some (h2, res, rb') else Some (h1, res, false)
        end
    end.

  (** set/treeset/tree_hide.go 51-89: remove; [parent] is grandpa.Children[child2] *)
  Fixpoint remove (fuel : nat) (h : heap) (parent : ptr) (child1 : bool) (key : Z) : option (heap * bool * bool) :=
    match fuel with
    | O => None
    | S fuel' =>
        cur <- getkid h parent child1 ;;
        match cur with
        | None => Some (h, false, false)
        | Some i =>
            n <- nth_error h i ;;
            let c := cmp (hk n) key in
            if c <? 0 then
              match c0 n, c1 n with
              | None, r => h1 <- setkid h parent child1 r ;; Some (h1, true, true)
              | l, None => h1 <- setkid h parent child1 l ;; Some (h1, true, true)
              | _, _ =>
                  '(h1, replacer, _) <- neighboring fuel' h cur child1 (negb child1) ;;
                  rn <- load h1 replacer ;; h2 <- setkey h1 cur (hk rn) ;;
                  '(h3, rb) <- rebalance h2 parent child1 ;; Some (h3, true, rb)
              end
            else
              '(h1, target, rb) <- remove fuel' h cur (c =? 1) key ;;
              if rb : bool then '(h2, rb') <- rebalance h1 parent child1 ;; Some (h2, target, rb')
              else Some (h1, target, false)
        end
    end.

  (** The tree: node 0 is Center, its Children[1] the root (tree.go 19-30; Center.Children[0] is not used). *)
  Record ts := TS { hp : heap; sz : nat }.
  Definition hnew : ts := TS [HN 0 0 (Some 0%nat) None] 0.
  (** set/treeset/tree.go 65-72: Add *)
  Definition add (s : ts) (k : Z) : option ts :=
    '(h, ex, _) <- put 100 (hp s) (Some 0%nat) true k ;; Some (TS h (if ex : bool then sz s else S (sz s))).
  (** set/treeset/tree.go 100-107: Remove *)
  Definition hremove (s : ts) (k : Z) : option ts :=
    '(h, ok, _) <- remove 100 (hp s) (Some 0%nat) true k ;; Some (TS h (if ok : bool then (sz s - 1)%nat else sz s)).
  (** set/treeset/tree.go 128-147: Traverse, the callback changing the tree that is being walked *)
  Fixpoint htraverse (fuel : nat) (f : ts -> Z -> option ts) (s : ts) (cur : ptr) : option ts :=
    match fuel with
    | O => None
    | S fuel' =>
        match cur with
        | None => Some s
        | _ =>
            n <- load (hp s) cur ;; s1 <- htraverse fuel' f s (c0 n) ;;
            n1 <- load (hp s1) cur ;; s2 <- f s1 (hk n1) ;;
            n2 <- load (hp s2) cur ;; htraverse fuel' f s2 (c1 n2)
        end
    end.
  (** set/treeset/tree.go 229-239: Difference with the receiver itself as argument *)
  Definition difference_self (s : ts) : option ts :=
    r <- getkid (hp s) (Some 0%nat) true ;; htraverse 100 hremove s r.
  (** keys from left to right (Values) *)
  Fixpoint keys_from (fuel : nat) (h : heap) (cur : ptr) : option (list Z) :=
    match fuel with
    | O => None
    | S fuel' =>
        match cur with
        | None => Some []
        | _ => n <- load h cur ;; l <- keys_from fuel' h (c0 n) ;; r <- keys_from fuel' h (c1 n) ;; Some (l ++ hk n :: r)
        end
    end.
  Definition keys (s : ts) : option (list Z) := r <- getkid (hp s) (Some 0%nat) true ;; keys_from 100 (hp s) r.
  Fixpoint add_all (s : ts) (ks : list Z) : option ts :=
    match ks with [] => Some s | k :: ks' => s' <- add s k ;; add_all s' ks' end.
End Cmp.
