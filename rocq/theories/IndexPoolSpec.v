(** Several index trees at a time: made with New, or by a Split after which both trees stay in use.  Here each is a
    sorted list of entries of its own. *)
From Verif Require Import Base OrderSpec SMapSpec IndexSpec.
Local Open Scope Z_scope.

(** the list with another element at place [i] *)
Fixpoint put_at {X : Type} (i : nat) (x : X) (l : list X) : list X :=
  match l, i with [], _ => [] | _ :: l, O => x :: l | y :: l, S i => y :: put_at i x l end.

Section PoolSpec.
  Context {K A : Type} (ltb : K -> K -> bool).
  Notation entries := (list (K * option A)).

  (** Trees are called by the order in which they were made. *)
  Inductive pool_op :=
  | PNew
  | POn (i : nat) (o : ix_op K A)
  (** Split at [k] of tree [i], the key itself staying in tree [i] if [contain]; the returned tree is the next number *)
  | PSplit (i : nat) (contain : bool) (k : K).
  Inductive pool_out :=
  | PMade | PSays (x : ix_out K A)
  | PGave (b : bool) (** whether Split returned a tree *)
  | PNoTree.

  (** (A Split of an empty tree returns none.) *)
  Definition pool_spec (es : list entries) (o : pool_op) : list entries * pool_out :=
    match o with
    | PNew => (es ++ [[]], PMade)
    | POn i o =>
        match nth_error es i with
        | None => (es, PNoTree)
        | Some e => (put_at i (fst (ix_spec ltb e o)) es, PSays (snd (ix_spec ltb e o)))
        end
    | PSplit i contain k =>
        match nth_error es i with
        | None => (es, PNoTree)
        | Some [] => (es, PGave false)
        | Some e =>
            let f (x : K * option A) := if contain then negb (ltb k (fst x)) else ltb (fst x) k in
            (put_at i (filter f e) es ++ [filter (fun x => negb (f x)) e], PGave true)
        end
    end.

  (** as for one tree, see IndexSpec.v *)
  Definition on_tree (P : entries -> ix_op K A -> Prop) (es : list entries) (o : pool_op) : Prop :=
    match o with POn i o => match nth_error es i with Some e => P e o | None => True end | _ => True end.
  Fixpoint pool_in_range (es : list entries) (ops : list pool_op) : Prop :=
    match ops with
    | [] => True
    | o :: ops => on_tree trim_in_range es o /\ pool_in_range (fst (pool_spec es o)) ops
    end.
  Fixpoint pool_answered (es : list entries) (ops : list pool_op) : Prop :=
    match ops with
    | [] => True
    | o :: ops => on_tree (answered ltb) es o /\ pool_answered (fst (pool_spec es o)) ops
    end.
End PoolSpec.
Arguments pool_op K A : clear implicits.
Arguments pool_out K A : clear implicits.
