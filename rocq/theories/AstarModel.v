(** graph/astar: a grid of tiles and the search for paths on it.

    A *Tile is modelled by its position; the tiles of a graph are a function from positions, read and written only inside
    the grid: [Tiles[y][x]] outside is a panic.  Bytes and coordinates are integers.  [None] is a loop or recursion that
    does not end.  Panics are answers ([APanic]), with what had been done by then.

    The interfaces: Neighbor is Neighbor4, Neighbor8 or a function of the user's from tiles to tiles of the graph, which
    writes nothing and answers the same in every call of one search.  CountCost and CountWeight are parameters: what they write
    to tile.Cost and tile.Weight is any function of the graph and the two tiles they get, SimpleCost and SimpleWeight being
    one each.  Simplified: they write nothing else, and they are the same in every call.  sort.Sort (line 507) is a
    parameter too. *)
From Verif Require Import Base Bind HeapModel AstarSpec.
Local Open Scope Z_scope.

(** astar.go 13-26 *)
Definition SKIP := 42. Definition PLAIN := 46. Definition BLOCK := 120. Definition START := 115. Definition END := 101. Definition PATH := 111.

(** astar.go 72-80: Tile (X and Y are the position) *)
Record tile := T { cost : Z; weight : Z; isCount : bool; attr : Z }.
(** astar.go 48-52: Point *)
Record point := P { at_ : pos; pattr : Z }.
(** astar.go 28-46: Graph *)
Record graph := G { dimX : Z; dimY : Z; start : option point; finish : option point; pathlist : list (list pos);
                    tiles : pos -> tile; neighbor : dirs; openHeap : heap (A:=pos) }.

Definition peqb (p q : pos) : bool := (fst p =? fst q) && (snd p =? snd q).
(** writing one tile *)
Definition upd (ts : pos -> tile) (p : pos) (t : tile) : pos -> tile := fun q => if peqb q p then t else ts q.
Definition with_tiles (g : graph) ts := G (dimX g) (dimY g) (start g) (finish g) (pathlist g) ts (neighbor g) (openHeap g).
Definition with_heap (g : graph) h := G (dimX g) (dimY g) (start g) (finish g) (pathlist g) (tiles g) (neighbor g) h.
Definition with_paths (g : graph) ps := G (dimX g) (dimY g) (start g) (finish g) ps (tiles g) (neighbor g) (openHeap g).
Definition with_target (g : graph) s e := G (dimX g) (dimY g) s e (pathlist g) (tiles g) (neighbor g) (openHeap g).
(** the index checks of [Tiles[y][x]] *)
Definition inside (g : graph) (p : pos) : bool := (0 <=? fst p) && (fst p <? dimX g) && (0 <=? snd p) && (snd p <? dimY g).
(** a nil *Tile: what unused cells of the heap hold *)
Definition nil_tile : pos := (-1, -1).
(** the number of tiles *)
Definition area (g : graph) : nat := Z.to_nat (dimX g * dimY g).

(** astar.go 83-100: New; make panics on a negative length *)
Definition New (w h : Z) : option graph :=
  if (h <? 0) || ((w <? 0) && (0 <? h)) then None
  else Some (G w h None None [] (fun _ => T 0 0 false PLAIN) Four (new nil_tile)).

(** ** Reading.  Strings are lists of bytes.  bufio.Reader.ReadLine (Go's standard library) over a buffer of 4096 bytes, as
    called in astar.go 105-109 and 212-216: the bytes up to the next '\n', without it and without one '\r' before it; if
    there is no '\n' among the next 4096 bytes, these (a '\r' at their end is left for the next call); what is left at the
    end of the string.  Gives the line and the rest of the string; [None] is io.EOF. *)
Definition NL := 10. Definition CR := 13.
Definition bufsize : nat := Z.to_nat 4096.
Fixpoint upToNL (s : list Z) : option (list Z) :=
  match s with [] => None | c :: s' => if c =? NL then Some [] else l <- upToNL s' ;; Some (c :: l) end.
Definition dropCR (l : list Z) : list Z * bool :=
  match rev l with c :: _ => if c =? CR then (removelast l, true) else (l, false) | [] => (l, false) end.
Definition readLine (s : list Z) : option (list Z * list Z) :=
  match upToNL (firstn bufsize s) with
  | Some l => Some (fst (dropCR l), skipn (S (length l)) s)
  | None =>
      if (bufsize <=? length s)%nat then
        let '(l, back) := dropCR (firstn bufsize s) in Some (l, (if back then [CR] else []) ++ skipn bufsize s)
      else match s with [] => None | _ => Some (s, []) end
  end.
(** all lines; every call takes at least one byte, so [fuel] may be the length of the string *)
Fixpoint readLines (fuel : nat) (s : list Z) : list (list Z) :=
  match fuel with
  | O => []
  | S fuel' => match readLine s with None => [] | Some (l, s') => l :: readLines fuel' s' end
  end.
(** the positions in the order of the loops over y and x *)
Definition cells (w h : Z) : list pos :=
  flat_map (fun y => map (fun x => (Z.of_nat x, Z.of_nat y)) (seq 0 (Z.to_nat w))) (seq 0 (Z.to_nat h)).
(** \s of regexp (astar.go 119): tab, newline, form feed, return, space; all of them are single bytes *)
Definition space (c : Z) : bool := (c =? 9) || (c =? 10) || (c =? 12) || (c =? 13) || (c =? 32).
(** astar.go 106-134: tilebuffer *)
Definition tilebuffer (text : list Z) : list (list Z) :=
  filter (fun b => match b with [] => false | _ => true end) (map (filter (fun c => negb (space c))) (readLines (length text) text)).
(** tilebuffer[y][x], if there is one *)
Definition letter (buf : list (list Z)) (p : pos) : option Z := row <- nth_error buf (Z.to_nat (snd p)) ;; nth_error row (Z.to_nat (fst p)).
(** astar.go 143-158: the attribute of a tile *)
Definition tileAttr (c : option Z) : Z :=
  match c with Some a => if (a =? SKIP) || (a =? START) || (a =? END) then PLAIN else a | None => PLAIN end.
(** astar.go 147-148, 150-151: the last one counts *)
Definition targetOf (c : Z) (buf : list (list Z)) (ps : list pos) : option point :=
  fold_left (fun t p => match letter buf p with Some a => if a =? c then Some (P p 0) else t | None => t end) ps None.
(** astar.go 103-169: NewWithTiles *)
Definition NewWithTiles (text : list Z) : graph :=
  let buf := tilebuffer text in
  let w := Z.of_nat (fold_right (fun b m => Nat.max (length b) m) O buf) in
  let h := Z.of_nat (length buf) in
  G w h (targetOf START buf (cells w h)) (targetOf END buf (cells w h)) []
    (fun p => T 0 0 false (tileAttr (letter buf p))) Four (new nil_tile).

(** astar.go 226-248: one line of SetStringTiles, from column [x] on.  The flag is false if it panicked. *)
Fixpoint setRow (g : graph) (y x : Z) (line : list Z) : graph * bool :=
  match line with
  | [] => (g, true)
  | a :: line' =>
      if dimX g <=? x then (g, true)
      else if a =? START then setRow (with_target g (Some (P (x, y) 0)) (finish g)) y (x + 1) line'
      else if a =? END then setRow (with_target g (start g) (Some (P (x, y) 0))) y (x + 1) line'
      else if (a =? 9) || (a =? 32) || (a =? NL) then setRow g y x line'
      else if a =? SKIP then setRow g y (x + 1) line'
      else if inside g (x, y) then
        let t := tiles g (x, y) in
        setRow (with_tiles g (upd (tiles g) (x, y) (T (cost t) (weight t) (isCount t) a))) y (x + 1) line'
      else (g, false)
  end.
(** astar.go 211-251: SetStringTiles *)
Fixpoint setRows (g : graph) (y : Z) (lines : list (list Z)) : graph * bool :=
  match lines with
  | [] => (g, true)
  | [] :: lines' => setRows g y lines'
  | line :: lines' => let '(g', ok) := setRow g y 0 line in if ok then setRows g' (y + 1) lines' else (g', false)
  end.

(** ** Printing.  astar.go 289-299, 315-325, 349-359: the attributes, row by row *)
Definition dataOf (g : graph) : list (list Z) :=
  map (fun y => map (fun x => attr (tiles g (Z.of_nat x, Z.of_nat y))) (seq 0 (Z.to_nat (dimX g)))) (seq 0 (Z.to_nat (dimY g))).
(** data[y][x] = a *)
Definition setData (data : list (list Z)) (p : pos) (a : Z) : option (list (list Z)) :=
  if (fst p <? 0) || (snd p <? 0) then None
  else row <- nth_error data (Z.to_nat (snd p)) ;;
       if (Z.to_nat (fst p) <? length row)%nat then Some (list_set data (Z.to_nat (snd p)) (list_set row (Z.to_nat (fst p)) a)) else None.
(** astar.go 301-308, 335-342, 368-375 *)
Definition printed (data : list (list Z)) : list Z := NL :: flat_map (fun row => row ++ [NL]) data.
(** astar.go 288-311 (GetTiles), 314-345 (GetTilesWithTarget), 348-378 (GetPathTiles) *)
Definition GetTiles (g : graph) : list Z := printed (dataOf g).
Definition GetTilesWithTarget (g : graph) : option (list Z) :=
  d <- match start g with Some s => setData (dataOf g) (at_ s) START | None => Some (dataOf g) end ;;
  d <- match finish g with Some e => setData d (at_ e) END | None => Some d end ;;
  Some (printed d).
Fixpoint setPath (d : list (list Z)) (path : list pos) : option (list (list Z)) :=
  match path with [] => Some d | p :: path' => d' <- setData d p PATH ;; setPath d' path' end.
Definition GetPathTiles (g : graph) (path : list pos) : option (list Z) :=
  d <- setPath (dataOf g) path ;;
  s <- start g ;; d <- setData d (at_ s) START ;;
  e <- finish g ;; d <- setData d (at_ e) END ;;
  Some (printed d).

(** astar.go 171-177: weightCompare; reads the tiles as they are when the heap compares *)
Definition weightCompare (ts : pos -> tile) (p1 p2 : pos) : Z := if weight (ts p1) <=? weight (ts p2) then 1 else -1.

(** astar.go 253-255: abs (Go binds >> tighter than ^ and -) *)
Definition abs (v : Z) : Z := Z.lxor v (Z.shiftr v 31) - Z.shiftr v 31.
(** count_interface.go 18-20: SimpleCost, what it writes to tile.Cost *)
Definition SimpleCost (g : graph) (tile ptile : pos) : Z := cost (tiles g ptile) + 1.
(** count_interface.go 27-32: SimpleWeight, what it writes to tile.Weight.  Simplified: without an end, where the code would
    panic, 0; search has made sure that there is one. *)
Definition SimpleWeight (g : graph) (tile ptile : pos) : Z :=
  match finish g with
  | Some e => - (abs (fst tile - fst (at_ e)) + abs (snd tile - snd (at_ e)) + cost (tiles g tile))
  | None => 0
  end.

(** neighbor_interface.go 13-26 (Neighbor8), 33-46 (Neighbor4): GetNeighbor; 4-6: that of a user.  A user's function is one of
    positions; what it lists outside the grid stands for no tile and is left out. *)
Definition offsets8 : list pos := [(1, 0); (-1, 0); (0, 1); (0, -1); (1, 1); (-1, 1); (-1, -1); (1, -1)].
Definition offsets4 : list pos := [(1, 0); (-1, 0); (0, 1); (0, -1)].
Definition around (g : graph) (offsets : list pos) (p : pos) : list pos :=
  flat_map (fun d => let x := fst p + fst d in let y := snd p + snd d in
    if (x <? 0) || (y <? 0) || (dimX g <=? x) || (dimY g <=? y) then [] else [(x, y)]) offsets.
Definition GetNeighbor (g : graph) (p : pos) : list pos :=
  match neighbor g with Four => around g offsets4 p | Eight => around g offsets8 p | Own near => filter (inside g) (near p) end.

(** astar.go 417-435: singlePath.  The walk is deterministic: if it has not come to the start after as many steps as there
    are tiles it never will.  Gives the path appended to pathlist. *)
Definition lowest (g : graph) (tile : pos) : pos :=
  fold_left (fun ret n => if isCount (tiles g n) && (cost (tiles g n) <=? cost (tiles g ret)) then n else ret)
    (GetNeighbor g tile) tile.
Fixpoint singlePath (fuel : nat) (g : graph) (tile startTile : pos) (path : list pos) : option (list pos) :=
  if peqb tile startTile then Some path
  else match fuel with
       | O => None
       | S fuel' => let tile' := lowest g tile in singlePath fuel' g tile' startTile (path ++ [tile'])
       end.

(** astar.go 437-466: multiPath.  [minCostTiles]: lines 442-454.  Gives the paths appended to pathlist; a recursion deeper
    than there are tiles never ends. *)
Definition minCostTiles (g : graph) (tile : pos) : list pos :=
  snd (fold_left (fun acc n =>
    let '(ret, ms) := acc in
    if isCount (tiles g n) then
      if cost (tiles g n) <? cost (tiles g ret) then (n, [n])
      else if cost (tiles g ret) =? cost (tiles g n) then (ret, ms ++ [n]) else acc
    else acc) (GetNeighbor g tile) (tile, [])).
Fixpoint multiPath (fuel : nat) (g : graph) (tile startTile : pos) (path : list pos) : option (list (list pos)) :=
  match fuel with
  | O => None
  | S fuel' =>
      let path := path ++ [tile] in
      if peqb tile startTile then Some [path]
      else fold_left (fun acc r => ps <- acc ;; qs <- multiPath fuel' g r startTile path ;; Some (ps ++ qs))
             (minCostTiles g tile) (Some [])
  end.

Section Search.
  Context (Cost Weight : graph -> pos -> pos -> Z) (sortPaths : list (list pos) -> list (list pos)).

  (** astar.go 515-523: the neighbours of the tile popped; Weight (count_interface.go 4-6) is called after Cost (9-11) has
      written *)
  Definition discover (tile : pos) (g : graph) (n : pos) : option graph :=
    let t := tiles g n in
    if negb (isCount t) && negb (attr t =? BLOCK) then
      let c := Cost g n tile in
      let costed := with_tiles g (upd (tiles g) n (T c (weight t) (isCount t) (attr t))) in
      let ts := upd (tiles g) n (T c (Weight costed n tile) true (attr t)) in
      h <- put nil_tile (weightCompare ts) (openHeap g) n ;;
      Some (with_heap (with_tiles g ts) h)
    else Some g.
  Fixpoint discoverAll (tile : pos) (g : graph) (ns : list pos) : option graph :=
    match ns with [] => Some g | n :: ns' => g' <- discover tile g n ;; discoverAll tile g' ns' end.

  (** astar.go 495-531: the loop of search; a tile is put at most once, and the start at most once more *)
  Fixpoint loop (fuel : nat) (multi : bool) (s e : pos) (g : graph) : option (graph * bool) :=
    match fuel with
    | O => None
    | S fuel' =>
        '(h, popped) <- pop (weightCompare (tiles g)) (openHeap g) ;;
        let g := with_heap g h in
        match popped with
        | None => Some (g, false)
        | Some tile =>
            if peqb tile e then
              if multi then ps <- multiPath (S (area g)) g tile s [tile] ;; Some (with_paths g (sortPaths ps), true)
              else p <- singlePath (area g) g tile s [tile] ;; Some (with_paths g [p], true)
            else
              g' <- discoverAll tile g (GetNeighbor g tile) ;; loop fuel' multi s e g'
        end
    end.

  (** astar.go 469-532: search *)
  Definition search (multi : bool) (g : graph) : option (graph * as_out) :=
    let done g := with_heap g (clear (openHeap g)) in
    match start g, finish g with
    | None, _ | _, None => Some (done g, APanic)
    | Some s, Some e =>
        let sp := at_ s in
        let ep := at_ e in
        if negb (inside g sp) then Some (done g, APanic)
        else
          let ts := tiles g sp in
          let g := with_target g (Some (P sp (attr ts))) (Some e) in
          let g := with_tiles g (upd (tiles g) sp (T (cost ts) (weight ts) true START)) in
          if negb (inside g ep) then Some (done g, APanic)
          else
            let te := tiles g ep in
            let g := with_target g (start g) (Some (P ep (attr te))) in
            let g := with_tiles g (upd (tiles g) ep (T (cost te) (weight te) false END)) in
            h <- put nil_tile (weightCompare (tiles g)) (openHeap g) sp ;;
            '(g', b) <- loop (S (S (area g))) multi sp ep (with_heap g h) ;;
            Some (done g', ABool b)
    end.

  (** astar.go 386-405: Clear, over the tiles in the order of the loops.  The flag is false if it panicked. *)
  Fixpoint clearTiles (g : graph) (ps : list pos) : graph * bool :=
    match ps with
    | [] => (g, true)
    | p :: ps' =>
        let a := attr (tiles g p) in
        let new := if a =? PATH then Some PLAIN
                   else if a =? START then option_map pattr (start g)
                   else if a =? END then option_map pattr (finish g)
                   else Some a in
        match new with
        | None => (g, false)
        | Some a' => clearTiles (with_tiles g (upd (tiles g) p (T 0 0 false a'))) ps'
        end
    end.

  (** One call: astar.go 180-187 (GetAttr, SetAttr), 200-208 (SetNeighbor, SetTarget), 258-285 (GetSteps, GetSingleSteps,
      GetTarget, GetPath, GetMultiPath, GetDimension), 386-415 (Clear, Search, SearchMulti), and SetStringTiles and the
      printing functions above, GetSinglePathTiles (381-383) included *)
  Definition as_step (g : graph) (o : as_op) : option (graph * as_out) :=
    match o with
    | ASetAttr x y a =>
        if inside g (x, y) then
          let t := tiles g (x, y) in
          Some (with_tiles g (upd (tiles g) (x, y) (T (cost t) (weight t) (isCount t) a)), AUnit)
        else Some (g, APanic)
    | ASetTarget sx sy ex ey => Some (with_target g (Some (P (sx, sy) 0)) (Some (P (ex, ey) 0)), AUnit)
    | ASetNeighbor e => Some (G (dimX g) (dimY g) (start g) (finish g) (pathlist g) (tiles g) e (openHeap g), AUnit)
    | ASearch => search false g
    | ASearchMulti => search true g
    | AClear => let '(g', ok) := clearTiles g (cells (dimX g) (dimY g)) in Some (g', if ok then AUnit else APanic)
    | AGetAttr x y => Some (g, if inside g (x, y) then ANum (attr (tiles g (x, y))) else APanic)
    | AGetTarget => Some (g, ATarget (option_map at_ (start g)) (option_map at_ (finish g)))
    | AGetDimension => Some (g, ATarget (Some (dimX g, dimY g)) None)
    | AGetPath => Some (g, match pathlist g with [] => APanic | p :: _ => APath p end)
    | AGetMultiPath => Some (g, APaths (pathlist g))
    | AGetSingleSteps => Some (g, match pathlist g with [] => APanic | p :: _ => ANum (Z.of_nat (length p) - 1) end)
    | AGetSteps path => Some (g, ANum (Z.of_nat (length path) - 1))
    | ASetStringTiles text => let '(g', ok) := setRows g 0 (readLines (length text) text) in Some (g', if ok then AUnit else APanic)
    | AGetTiles => Some (g, AText (GetTiles g))
    | AGetTilesWithTarget => Some (g, match GetTilesWithTarget g with Some t => AText t | None => APanic end)
    | AGetPathTiles path => Some (g, match GetPathTiles g path with Some t => AText t | None => APanic end)
    | AGetSinglePathTiles =>
        Some (g, match pathlist g with [] => APanic | p :: _ => match GetPathTiles g p with Some t => AText t | None => APanic end end)
    end.
End Search.
