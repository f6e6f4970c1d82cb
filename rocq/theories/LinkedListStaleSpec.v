(** Cursors of a linked list whose cell has been taken out of it. *)
From Verif Require Import Base LinkedListSpec.

Section Stale.
  Context {A : Type}.
  (** the list and its cursors, the cells that have left the list with what is in them, and which of those left by an
      iterator's own RemoveToNext or RemoveToPrev *)
  Record dstate := DS { base : cstate A; dead : list (nat * A); cut : list nat }.
  Definition dnew : dstate := DS cnew [] [].
  Definition gone (t t' : cstate A) : list (nat * A) := filter (fun x => negb (live t' (fst x))) (cells t).
  Definition cutter (o : c_op A) : bool :=
    match o with OnIter _ _ (IRemoveToNext | IRemoveToPrev) => true | _ => false end.
  Definition held (s : dstate) (c : nat) : option A := value_of (cells (base s) ++ dead s) c.
  (** A call that is defined for cells of the list does what it does there.  On a cell that is out of the list,
      Valid still answers true, Value what is in the cell, SetValue and Swap change what is in it. *)
  Definition d_spec (s : dstate) (o : c_op A) : option (dstate * ll_out A) :=
    match c_spec (base s) o with
    | Some (t', r) =>
        let g := gone (base s) t' in
        Some (DS t' (g ++ dead s) (if cutter o then map fst g ++ cut s else cut s), r)
    | None =>
        match o with
        | OnIter i _ IValid =>
            match value_of (dead s) (cur (base s) i) with Some _ => Some (s, LBool true) | None => None end
        | OnIter i _ IValue =>
            match value_of (dead s) (cur (base s) i) with Some v => Some (s, LVal (Some v)) | None => None end
        | OnIter i _ (ISetValue v) =>
            match value_of (dead s) (cur (base s) i) with
            | Some _ => Some (DS (base s) (write (dead s) (cur (base s) i) v) (cut s), LUnit)
            | None => None
            end
        | OnIter i _ (ISwap j) =>
            let c := cur (base s) i in
            let d := cur (base s) j in
            match held s c, held s d with
            | Some v, Some w =>
                let sw l := write (write l c w) d v in
                Some (DS (put_cells (base s) (sw (cells (base s)))) (sw (dead s)) (cut s), LUnit)
            | _, _ => None
            end
        | _ => None
        end
    end.
End Stale.
Arguments dstate A : clear implicits.
