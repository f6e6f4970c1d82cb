(** map/orderedmap.go/map.go: a wrapper around an index tree that converts the stored [interface{}] back to the value type.
    A value of type [V] is an [option A] as in OrderedMapSpec.v; storing it in an [interface{}] keeps it, nil becoming the nil
    interface. *)
From Verif Require Import Base Bind OrderSpec SMapSpec AvlTree AvlModel AvlIterModel IndexSpec IndexModel IndexIterSpec IndexIterModel OrderedMapSpec.
Local Open Scope Z_scope.

Section Map.
  Context {K A : Type} (cmp : K -> K -> Z) (shift : Z) (zk : K) (zv : option A).
  Notation tree := (tree K (option A)).

  (** [v.(V)]: panics on the nil interface, also when V is an interface type; map.go 36, 62, 71, 85, 94, 117, 144 *)
  Definition cast (v : option A) : option (option A) := match v with None => None | Some _ => Some v end.
  (** the [append(result, v.(V))] of Values, map.go 115-119, over the values in order *)
  Fixpoint castAll (l : list (option A)) : option (list (option A)) :=
    match l with [] => Some [] | v :: l' => v' <- cast v ;; l'' <- castAll l' ;; Some (v' :: l'') end.
  Definition orPanicked (r : option (om_out K A)) : om_out K A := match r with None => OPanic | Some x => x end.

  (** map.go 18-125.  Each method calls the index tree methods ([IndexModel.step]) and converts the answer.  A panic of the
      tree, or of the conversion after the tree was changed (Remove 57-63, Delete 66-72, RemoveIndex 88-95), is the
      answer [OPanic], the tree being what the call had made of it.  [shift] is the tree's SizeToleranceShift
      (indextree.New sets it; the map has no way to change it). *)
  Definition omstep (t : tree) (o : om_op K A) : tree * om_out K A :=
    let call o := step cmp shift t o in
    match o with
    | OPut k v => let '(t', r) := call (XPut k v) in (t', match r with XBool b => OBool b | _ => OPanic end)
    | OInsertIfAbsent k v => let '(t', r) := call (XInsertIfAbsent k v) in (t', match r with XBool b => OBool b | _ => OPanic end)
    | OSet k v => let '(t', r) := call (XSet k v) in (t', match r with XBool b => OBool b | _ => OPanic end)
    | OUpsert k v => let '(t', r) := call (XUpsert k v) in (t', match r with XBool b => OBool b | _ => OPanic end)
    | OGet k =>
        let '(t', r) := call (XGet k) in
        (t', match r with
             | XFound v ok => if negb ok then OFound zv false else orPanicked (v' <- cast v ;; Some (OFound v' true))
             | _ => OPanic
             end)
    | ORemove k =>
        let '(t', r) := call (XRemove k) in
        (t', match r with
             | XVal None => OFound zv false
             | XVal v => orPanicked (v' <- cast v ;; Some (OFound v' true))
             | _ => OPanic
             end)
    | ODelete k =>
        let '(t', r) := call (XDelete k) in
        (t', match r with
             | XFound v ok => if negb ok then OFound zv false else orPanicked (v' <- cast v ;; Some (OFound v' true))
             | _ => OPanic
             end)
    | OContains k => let '(t', r) := call (XGet k) in (t', match r with XFound _ ok => OBool ok | _ => OPanic end)
    | OSize => let '(t', r) := call XSize in (t', match r with XNum n => ONum n | _ => OPanic end)
    | OLen => let '(t', r) := call XSize in (t', match r with XNum n => ONum n | _ => OPanic end)
    | OIsEmpty => let '(t', r) := call XSize in (t', match r with XNum n => OBool (n =? 0) | _ => OPanic end)
    | OIndexOf k => let '(t', r) := call (XIndexOf k) in (t', match r with XNum n => ONum n | _ => OPanic end)
    | OIndex i =>
        let '(t', r) := call (XIndex i) in
        (t', match r with XKV k v => orPanicked (v' <- cast v ;; Some (OKV k v')) | _ => OPanic end)
    | ORemoveIndex i =>
        if (i <? 0) || (getSize t <=? i) then (t, OTaken zk zv false)
        else match snd (call (XIndex i)) with
             | XKV k _ =>
                 let '(t', r) := call (XRemoveIndex i) in
                 (t', match r with XVal v => orPanicked (v' <- cast v ;; Some (OTaken k v' true)) | _ => OPanic end)
             | _ => (t, OPanic)
             end
    | OKeys => let '(t', r) := call (XTraverse (fun _ => true)) in (t', match r with XSeen l => OKs (map fst l) | _ => OPanic end)
    | OValues =>
        let '(t', r) := call (XTraverse (fun _ => true)) in
        (t', match r with XSeen l => orPanicked (vs <- castAll (map snd l) ;; Some (OVs vs)) | _ => OPanic end)
    | OClear => let '(t', _) := call XClear in (t', OUnit)
    end.

  (** map.go 127-189: the index tree's iterator; only Value (143-145) converts, panicking on nil *)
  Definition oi_step (x : xiter (V := option A)) (o : xi_op K) : option (xiter * xi_out K (option A)) :=
    '(x', r) <- xi_step cmp x o ;;
    Some (x', match r with XO (CV v) => match cast v with None => XO CPanic | Some v' => XO (CV v') end | _ => r end).
End Map.
