(** Skip lists that are changed while iterators stand in them, independently of how they are stored: the entries in key
    order, and for each iterator where it is and the number that Index answers. *)
From Verif Require Import Base OrderSpec SMapSpec SkipSpec.
Local Open Scope Z_scope.

Section Spec.
  Context {K V : Type} (ltb : K -> K -> bool).
  Notation entries := (list (K * V)).

  (** At an entry of the list; or at one that has been taken out, [e], in front of [next]; or nowhere. *)
  Inductive place := Nowhere | At (k : K) | Gone (e : K * V) (next : place).

  Definition first_of (m : entries) : place := match m with [] => Nowhere | e :: _ => At (fst e) end.
  Definition last_of (m : entries) : place := match last_entry m with None => Nowhere | Some e => At (fst e) end.
  (** the entries from [k] on *)
  Definition from (k : K) (m : entries) : entries := sames ltb k m ++ after ltb k m.
  Definition read_at (m : entries) (p : place) : option (K * V) :=
    match p with Nowhere => None | At k => hd_error (sames ltb k m) | Gone e _ => Some e end.
  (** Who stood at an entry that was taken out is in front of the entry that was next then, which may have been taken out too. *)
  Fixpoint along (m' rest : entries) : place :=
    match rest with [] => Nowhere | e :: rest => if has ltb (fst e) m' then At (fst e) else Gone e (along m' rest) end.
  (** what becomes of a place when the entries change from [m] to [m'] *)
  Fixpoint moved (m m' : entries) (p : place) : place :=
    match p with Nowhere => Nowhere | At k => along m' (from k m) | Gone e p => Gone e (moved m m' p) end.

  (** One call of a method of an iterator. *)
  Definition ch_iter (m : entries) (st : place * Z) (o : ski_op K) : (place * Z) * ski_out K V :=
    let (p, i) := st in
    let found q := IBool match q with Nowhere => false | _ => true end in
    match o with
    | IFirst => ((first_of m, 0), IUnit)
    | ILast => ((last_of m, match m with [] => i | _ => len m - 1 end), IUnit)
    | INext => (match p with Nowhere => (Nowhere, i) | At k => (first_of (after ltb k m), i + 1) | Gone _ q => (q, i + 1) end, IUnit)
    | IPrev => let back q := (q, match q with Nowhere => i | _ => i - 1 end) in
               (match p with Nowhere => back (last_of m) | At k => back (last_of (before ltb k m)) | Gone _ _ => (Nowhere, i) end, IUnit)
    | IGE k => let q := first_of (from k m) in ((q, 0), found q)
    | IGT k => let q := first_of (after ltb k m) in ((q, 0), found q)
    | ILE k => let q := last_of (upto ltb k m) in ((q, i), found q)
    | ILT k => let q := last_of (before ltb k m) in ((q, i), found q)
    | IAt n => (if in_list m n then (first_of (skipn (Z.to_nat n) m), 0) else (Nowhere, i), IUnit)
    | IValid => (st, found p)
    | IEntry => (st, IKV (read_at m p))
    | IClone => (st, IUnit)
    end.

  (** A call of the list, or of iterator number [j], or Index of it; or: from now on number [j] is a Clone of number [i], or a
      new iterator. *)
  Inductive ch_op := HList (o : sk_op K V) | HIter (j : nat) (o : ski_op K) | HIndex (j : nat) | HClone (i j : nat) | HNew (j : nat).
  Inductive ch_out := HL (r : sk_out K V) | HI (r : ski_out K V) | HN (i : Z).
  Definition set_at {X} (j : nat) (x : X) (f : nat -> X) : nat -> X := fun i => if Nat.eqb i j then x else f i.
  Definition ch_spec (st : entries * (nat -> place * Z)) (o : ch_op) : (entries * (nat -> place * Z)) * ch_out :=
    let (m, ps) := st in
    match o with
    | HList o => let (m', r) := sk_spec ltb m o in ((m', fun j => (moved m m' (fst (ps j)), snd (ps j))), HL r)
    | HIter j o => let (p, r) := ch_iter m (ps j) o in ((m, set_at j p ps), HI r)
    | HIndex j => (st, HN (snd (ps j)))
    | HClone i j => ((m, set_at j (ps i) ps), HI IUnit)
    | HNew j => ((m, set_at j (first_of m, 0) ps), HI IUnit)
    end.
End Spec.
Arguments place K V : clear implicits.
Arguments ch_op K V : clear implicits.
Arguments ch_out K V : clear implicits.
