(** Model of tree/heap/heap.go. *)
From Verif Require Import Base HeapSpec.

(** Bounds-checked slice write, [None] = index out of range panic. *)
Definition set_at {A} (l : list A) (i : nat) (v : A) : option (list A) :=
  if i <? length l then Some (list_set l i v) else None.

Section Heap.
  Context {A : Type} (zero : A) (compare : A -> A -> Z).

  (** heap.go:8-12; [elements] is the backing slice of length len(elements), only the first [size] are live *)
  Record heap := { size : nat; elements : list A }.

  (** heap.go:15-19 [New] *)
  Definition new : heap := {| size := 0; elements := repeat zero 16 |}.

  (** heap.go:26-34 [grow] *)
  Definition grow (h : heap) : heap :=
    let ecap := length (elements h) in
    if ecap <=? size h
    then {| size := size h; elements := elements h ++ repeat zero ecap |}
    else h.

  (** heap.go:71-81, the loop of [Put] and the final store.  [fuel] bounds the iterations ([curidx] strictly decreases);
      running out of fuel is [None]. *)
  Fixpoint sift_up (fuel : nat) (els : list A) (curidx : nat) (v : A) : option (list A) :=
    match fuel with
    | O => None
    | S fuel' =>
        if curidx =? 0 then set_at els curidx v
        else
          let pidx := (curidx - 1) / 2 in
          match nth_error els pidx with
          | None => None
          | Some pvalue =>
              if (compare v pvalue <=? 0)%Z then
                match set_at els curidx pvalue with
                | None => None
                | Some els' => sift_up fuel' els' pidx v
                end
              else set_at els curidx v
          end
    end.

  (** heap.go:64-82 [Put] *)
  Definition put (h0 : heap) (v : A) : option heap :=
    let h := grow h0 in
    option_map (fun els => {| size := S (size h); elements := els |})
               (sift_up (S (size h)) (elements h) (size h) v).

  (** heap.go:84-97 [slimming] *)
  Definition slimming (h : heap) : heap :=
    let elen := length (elements h) in
    if 32 <=? elen then
      let ecap := elen / 2 in
      if size h <=? ecap
      then {| size := size h; elements := firstn (elen - ecap / 2) (elements h) |}
      else h
    else h.

  (** heap.go:120-146, the loop of [Pop] and the final store *)
  Fixpoint sift_down (fuel : nat) (els : list A) (sz curidx : nat) (downvalue : A) : option (list A) :=
    match fuel with
    | O => None
    | S fuel' =>
        let c1 := 2 * curidx + 1 in
        let c2 := 2 * curidx + 2 in
        let finish := set_at els curidx downvalue in
        let go cidx :=
          match nth_error els cidx with
          | None => None
          | Some cv =>
              if (compare cv downvalue <=? 0)%Z then
                match set_at els curidx cv with
                | None => None
                | Some els' => sift_down fuel' els' sz cidx downvalue
                end
              else finish
          end in
        if c2 <? sz then
          match nth_error els c1, nth_error els c2 with
          | Some e1, Some e2 => go (if (compare e1 e2 <? 0)%Z then c1 else c2)
          | _, _ => None
          end
        else if sz <=? c1 then finish
        else go c1
    end.

  (** heap.go:100-148 [Pop] *)
  Definition pop (h0 : heap) : option (heap * option A) :=
    if size h0 =? 0 then Some (h0, None)
    else
      match nth_error (elements h0) 0 with
      | None => None
      | Some top =>
          let h := slimming {| size := size h0 - 1; elements := elements h0 |} in
          if size h =? 0 then Some (h, Some top)
          else
            match nth_error (elements h) (size h) with
            | None => None
            | Some downvalue =>
                option_map (fun els => ({| size := size h; elements := els |}, Some top))
                  (sift_down (S (size h)) (elements h) (size h) 0 downvalue)
            end
      end.

  (** heap.go:53-61 [Top] *)
  Definition top (h : heap) : option (option A) :=
    if size h =? 0 then Some None else option_map Some (nth_error (elements h) 0).

  (** heap.go:42-44 [Clear] *)
  Definition clear (h : heap) : heap := {| size := 0; elements := elements h |}.
  (** heap.go:47-50 [Reset] *)
  Definition reset (h : heap) : heap := new.

  (** Dispatcher; [Size] is heap.go:22-24, [Empty] 37-39. *)
  Definition step (h : heap) (o : heap_op A) : option (heap * heap_out A) :=
    match o with
    | HPut v => option_map (fun h' => (h', HUnit)) (put h v)
    | HPop => option_map (fun '(h', r) => (h', HVal r)) (pop h)
    | HTop => option_map (fun r => (h, HVal r)) (top h)
    | HClear => Some (clear h, HUnit)
    | HReset => Some (reset h, HUnit)
    | HSize => Some (h, HNat (size h))
    | HEmpty => Some (h, HBool (size h <? 1))
    end.
End Heap.
