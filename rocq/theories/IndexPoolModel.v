(** tree/indextree: several trees at a time.  The code for one tree is in IndexHeapModel.v (nodes in memory) and
    IndexModel.v (a tree without addresses). *)
From Verif Require Import Base Bind OrderSpec SMapSpec AvlTree AvlModel AvlSpec IndexSpec IndexPoolSpec IndexModel IndexHeapModel.
Local Open Scope Z_scope.

Section Pool.
  Context {K A : Type} (cmp : K -> K -> Z) (shift : Z) (zero : K).
  Notation V := (option A).

  (** One memory for all trees, and tree.root of each (tree.go 23-28). *)
  Definition pool : Type := mem K (option A) * list nat.
  Definition pool0 : pool :=
    (Mem (fun _ => None) (fun _ _ => None) (fun _ => 0) (fun _ => 0) (fun _ => zero) (fun _ => None) 0, []).

  (** One call: New (tree.go 31-33), a method of tree [i], or Split/SplitContain of tree [i] (tree.go 818-1060), the tree
      returned being kept.  [None] is a loop without end.  A tree changes its root only when [XSplit] goes on with the
      returned one. *)
  Definition pstep (s : pool) (o : pool_op K A) : option (pool * pool_out K A) :=
    let '(m, rs) := s in
    match o with
    | PNew => match newTree zero m with Ret r m' => Some ((m', rs ++ [r]), PMade) | _ => None end
    | POn i o =>
        match nth_error rs i with
        | None => Some (s, PNoTree)
        | Some r => match hstep cmp shift zero (m, r) o with
                    | Some ((m', r'), x) => Some ((m', put_at i r' rs), PSays x)
                    | None => None
                    end
        end
    | PSplit i contain k =>
        match nth_error rs i with
        | None => Some (s, PNoTree)
        | Some r => match Split cmp zero r contain k m with
                    | Ret None m' => Some ((m', rs), PGave false)
                    | Ret (Some r2) m' => Some ((m', rs ++ [r2]), PGave true)
                    | Panic m' => Some ((m', rs), PSays XPanic)
                    | Loop => None
                    end
        end
    end.

  (** The same calls when no memory is shared: a list of trees (IndexModel.v, same lines). *)
  Definition apart (ts : list (tree K V)) (o : pool_op K A) : list (tree K V) * pool_out K A :=
    match o with
    | PNew => (ts ++ [E], PMade)
    | POn i o =>
        match nth_error ts i with
        | None => (ts, PNoTree)
        | Some t => (put_at i (fst (IndexModel.step cmp shift t o)) ts, PSays (snd (IndexModel.step cmp shift t o)))
        end
    | PSplit i contain k =>
        match nth_error ts i with
        | None => (ts, PNoTree)
        | Some t => match IndexModel.Split cmp contain k t with
                    | None => (ts, PGave false)
                    | Some (t1, t2) => (put_at i t1 ts ++ [t2], PGave true)
                    end
        end
    end.
End Pool.
