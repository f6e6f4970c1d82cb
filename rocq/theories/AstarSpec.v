(** Specification of path search on a grid: routes over free tiles, and the calls of graph/astar.  Independent of the
    model of the search. *)
From Verif Require Import Base.
Local Open Scope Z_scope.

Definition pos := (Z * Z)%type.
(** the tiles of a grid of [w] columns and [h] rows *)
Definition within (w h : Z) (p : pos) : Prop := 0 <= fst p < w /\ 0 <= snd p < h.
(** neighbouring tiles: side by side; or also corner to corner; or those a function of the user's lists *)
Inductive dirs := Four | Eight | Own (near : pos -> list pos).
Definition adjacent (d : dirs) (p q : pos) : Prop :=
  let dx := Z.abs (fst p - fst q) in let dy := Z.abs (snd p - snd q) in
  match d with Four => dx + dy = 1 | Eight => p <> q /\ dx <= 1 /\ dy <= 1 | Own near => In q (near p) end.
(** every move can be taken back, and none leads nowhere *)
Definition fair (d : dirs) : Prop :=
  match d with Own near => forall p, ~ In p (near p) /\ forall q, In q (near p) -> In p (near q) | _ => True end.
(** no move is listed twice *)
Definition once (d : dirs) : Prop := match d with Own near => forall p, NoDup (near p) | _ => True end.
(** a way over free tiles from [a] to [b], both included *)
Inductive route (d : dirs) (free : pos -> Prop) : pos -> list pos -> pos -> Prop :=
| route_end a : free a -> route d free a [a] a
| route_step a c b l : free a -> adjacent d a c -> route d free c l b -> route d free a (a :: l) b.
(** the number of moves of a way *)
Definition moves (l : list pos) : Z := Z.of_nat (length l) - 1.
Definition manhattan (p q : pos) : Z := Z.abs (fst p - fst q) + Z.abs (snd p - snd q).
(** the rectangle of which [a] and [b] are opposite corners *)
Definition between (a b p : pos) : Prop :=
  Z.min (fst a) (fst b) <= fst p <= Z.max (fst a) (fst b) /\ Z.min (snd a) (snd b) <= snd p <= Z.max (snd a) (snd b).

(** calls; attributes are bytes *)
Inductive as_op :=
| ASetAttr (x y a : Z) | ASetTarget (sx sy ex ey : Z) | ASetNeighbor (d : dirs)
| ASearch | ASearchMulti | AClear
| AGetAttr (x y : Z) | AGetTarget | AGetDimension | AGetPath | AGetMultiPath | AGetSingleSteps | AGetSteps (path : list pos)
| ASetStringTiles (text : list Z) | AGetTiles | AGetTilesWithTarget | AGetPathTiles (path : list pos) | AGetSinglePathTiles.
Inductive as_out :=
| AUnit | ABool (b : bool) | APanic | ANum (n : Z) | ATarget (s e : option pos) | APath (p : list pos) | APaths (ps : list (list pos)) | AText (t : list Z).
Definition is_search (o : as_op) : bool := match o with ASearch | ASearchMulti => true | _ => false end.

(** ** Texts: lists of bytes.  The pieces between the newlines *)
Fixpoint pieces (text : list Z) : list (list Z) :=
  match text with
  | [] => [[]]
  | c :: text' => if c =? 10 then [] :: pieces text' else match pieces text' with l :: ls => (c :: l) :: ls | [] => [[c]] end
  end.
(** the lines: a return before a newline belongs to the newline; nothing after the last newline is no line *)
Definition no_return (l : list Z) : list Z := match rev l with 13 :: r => rev r | _ => l end.
Fixpoint lines_of (ps : list (list Z)) : list (list Z) :=
  match ps with [] => [] | [[]] => [] | [l] => [l] | l :: ps' => no_return l :: lines_of ps' end.
Definition text_lines (text : list Z) : list (list Z) := lines_of (pieces text).
Definition short_lines (text : list Z) : Prop := forall l, In l (pieces text) -> Z.of_nat (length l) < 4096.
(** white space, and what is left of some lines without it *)
Definition white (c : Z) : bool := existsb (Z.eqb c) [9; 10; 12; 13; 32].
Definition gap (c : Z) : bool := existsb (Z.eqb c) [9; 32].
Definition not_nil {T : Type} (l : list T) : bool := match l with [] => false | _ => true end.
(** the rows of letters: without white space and empty rows; or only without tabs and blanks, of the lines that are not empty *)
Definition rows (text : list Z) : list (list Z) := filter not_nil (map (filter (fun c => negb (white c))) (text_lines text)).
Definition loose_rows (text : list Z) : list (list Z) := map (filter (fun c => negb (gap c))) (filter not_nil (text_lines text)).
Definition letter_at (rs : list (list Z)) (p : pos) : option Z :=
  if (0 <=? fst p) && (0 <=? snd p) then match nth_error rs (Z.to_nat (snd p)) with Some r => nth_error r (Z.to_nat (fst p)) | None => None end else None.
Definition width (rs : list (list Z)) : Z := fold_right (fun r m => Z.max (Z.of_nat (length r)) m) 0 rs.
(** reading order *)
Definition not_after (p q : pos) : Prop := snd p < snd q \/ snd p = snd q /\ fst p <= fst q.
(** [o] is the last of the positions [P] *)
Definition is_last (P : pos -> Prop) (o : option pos) : Prop :=
  match o with None => forall p, ~ P p | Some p => P p /\ forall q, P q -> not_after q p end.
(** letters with a meaning of their own: '*', 's', 'e' *)
Definition special (c : Z) : bool := existsb (Z.eqb c) [42; 115; 101].
(** what is printed: a newline, and every row followed by one *)
Definition picture (w h : Z) (f : pos -> Z) : list Z :=
  10 :: flat_map (fun y => map (fun x => f (Z.of_nat x, Z.of_nat y)) (seq 0 (Z.to_nat w)) ++ [10]) (seq 0 (Z.to_nat h)).
