(** The contract of /repo/api_standard.md ("Preferred Core Methods"): what InsertIfAbsent, Upsert, Delete and Len mean in
    every package, with Get and Clear to observe it.  A container is a list of bindings, in no particular order. *)
From Verif Require Import Base.

Section Std.
  Context {K V : Type} (eqb : K -> K -> bool).

  Inductive std_op := StdInsertIfAbsent (k : K) (v : V) | StdUpsert (k : K) (v : V) | StdDelete (k : K) | StdGet (k : K) | StdLen | StdClear.
  (** [StdVal (Some v)]: v and true; [StdVal None]: false.  [StdOther]: anything else, a panic included. *)
  Inductive std_out := StdBool (b : bool) | StdVal (o : option V) | StdNum (n : nat) | StdUnit | StdOther.

  Definition std_find (k : K) (m : list (K * V)) : option V := option_map snd (find (fun e => eqb (fst e) k) m).
  Definition std_rest (k : K) (m : list (K * V)) : list (K * V) := filter (fun e => negb (eqb (fst e) k)) m.
  Definition std_spec (m : list (K * V)) (o : std_op) : list (K * V) * std_out :=
    match o with
    | StdInsertIfAbsent k v => match std_find k m with None => ((k, v) :: m, StdBool true) | Some _ => (m, StdBool false) end
    | StdUpsert k v => ((k, v) :: std_rest k m, StdBool match std_find k m with None => false | Some _ => true end)
    | StdDelete k => (std_rest k m, StdVal (std_find k m))
    | StdGet k => (m, StdVal (std_find k m))
    | StdLen => (m, StdNum (length m))
    | StdClear => ([], StdUnit)
    end.
End Std.
Arguments std_op K V : clear implicits.
Arguments std_out V : clear implicits.
