(** tree/skiplist/skiplist.go: a list and iterators that stay in use while the list is changed.  Every iterator belongs to the
    list; it is a pointer to a node and a number (skiplist.go 21-25). *)
From Verif Require Import Base Bind SkipSpec SkipChangeSpec SkipModel.

Section Change.
  Context {K V : Type} (cmp : K -> K -> Z).

  (** A call of the list (61-880) or of an iterator (273-447); Index (419-421); Clone (423-429), which becomes number [j];
      Iterator (171-177), likewise. *)
  Definition ch_step (st : skiplist K V * (nat -> iterator)) (o : ch_op K V) : option ((skiplist K V * (nat -> iterator)) * ch_out K V) :=
    let (s, its) := st in
    match o with
    | HList o => '(s', r) <- sk_step cmp s o ;; Some ((s', its), HL r)
    | HIter j o => '(it, r) <- ski_step cmp s (its j) o ;; Some ((s, set_at j it its), HI r)
    | HIndex j => Some (st, HN (iindex (its j)))
    | HClone i j => Some ((s, set_at j (It (inode (its i)) (iindex (its i))) its), HI IUnit)
    | HNew j => it <- newIterator s ;; Some ((s, set_at j it its), HI IUnit)
    end.
End Change.
