(** tree/indextree/experiment, type Tree, a second time: statement by statement on nodes in memory, with the fields Parent
    and Size, which [ExpModel] leaves out.  The rotation counters are left out (see [ShiftCountModel]).

    An address is a number; a pointer is [option nat], [None] being nil.  Reading or writing a field through nil panics.
    Loops and recursive functions get a number of steps, one more than there are nodes in memory; running out of them is
    [Loop].  Sizes are integers (int64 in Go), heights wrap around as int8 does ([i8]). *)
From Verif Require Import Base SMapSpec AvlTree.
From Verif Require IndexHeapModel.
Local Open Scope Z_scope.

Notation ptr := (option nat).
Notation upd := IndexHeapModel.upd.
Definition nonNil (p : ptr) : bool := match p with None => false | Some _ => true end.

Section Memory.
  Context {K V : Type}.

  (** experiment/node.go 7-14: type Node, one function per field; [next] is the first unused address.  Children[0] is
      [Children a false]. *)
  Record mem := Mem {
    Parent : nat -> ptr; Children : nat -> bool -> ptr; Height : nat -> Z; Size : nat -> Z;
    Key : nat -> K; Value : nat -> V; next : nat }.

  (** what running a piece of code gives *)
  Inductive res (X : Type) := Ret (x : X) (m : mem) | Panic | Loop.
  Arguments Ret {X} _ _.
  Arguments Panic {X}.
  Arguments Loop {X}.
  Definition M (X : Type) := mem -> res X.
  Definition ret {X} (x : X) : M X := fun m => Ret x m.
  Definition panic {X} : M X := fun m => Panic.
  Definition bind {X Y} (e : M X) (f : X -> M Y) : M Y :=
    fun m => match e m with Ret x m' => f x m' | Panic => Panic | Loop => Loop end.

  (** reading and writing fields *)
  Definition rd {X} (f : mem -> nat -> X) (p : ptr) : M X := fun m => match p with None => Panic | Some a => Ret (f m a) m end.
  Definition rdKid (p : ptr) (d : bool) : M ptr := rd (fun m a => Children m a d) p.
  Definition wr (f : nat -> mem -> mem) (p : ptr) : M unit := fun m => match p with None => Panic | Some a => Ret tt (f a m) end.
  Definition setParent (q : ptr) (a : nat) (m : mem) : mem :=
    Mem (upd (Parent m) a q) (Children m) (Height m) (Size m) (Key m) (Value m) (next m).
  Definition setKid (d : bool) (q : ptr) (a : nat) (m : mem) : mem :=
    Mem (Parent m) (upd (Children m) a (fun e => if Bool.eqb e d then q else Children m a e)) (Height m) (Size m) (Key m) (Value m) (next m).
  Definition setHeight (z : Z) (a : nat) (m : mem) : mem :=
    Mem (Parent m) (Children m) (upd (Height m) a z) (Size m) (Key m) (Value m) (next m).
  Definition setSize (z : Z) (a : nat) (m : mem) : mem :=
    Mem (Parent m) (Children m) (Height m) (upd (Size m) a z) (Key m) (Value m) (next m).
  Definition setKey (k : K) (a : nat) (m : mem) : mem :=
    Mem (Parent m) (Children m) (Height m) (Size m) (upd (Key m) a k) (Value m) (next m).
  Definition setValue (v : V) (a : nat) (m : mem) : mem :=
    Mem (Parent m) (Children m) (Height m) (Size m) (Key m) (upd (Value m) a v) (next m).
  (** the number of steps for loops and recursive functions *)
  Definition fueled {X} (f : nat -> M X) : M X := fun m => f (S (next m)) m.
End Memory.
Arguments mem K V : clear implicits.
Arguments res K V X : clear implicits.
Arguments M K V X : clear implicits.
Arguments Ret {K V X} _ _.
Arguments Panic {K V X}.
Arguments Loop {K V X}.

Notation "'let@' x := e 'in' k" := (bind e (fun x => k)) (at level 200, x pattern, e at level 100, k at level 200).
Notation "e ;@ k" := (bind e (fun _ => k)) (at level 199, right associativity).

Section Tree.
  (** [zero] is the zero value of VALUE, [d] is differenceHeight *)
  Context {K V : Type} (cmp : K -> K -> Z) (d : Z) (zero : V).
  Notation M := (M K V).
  (** tree.Center (tree.go 8, 18-27) is the node at address 0 *)
  Notation Center := (Some 0%nat).

  (** node.go 104-109: getHeight *)
  Definition getHeight (p : ptr) : M Z := match p with None => ret 0 | Some _ => rd Height p end.
  (** node.go 51-56: getSize *)
  Definition getSize (p : ptr) : M Z := match p with None => ret 0 | Some _ => rd Size p end.
  (** node.go 37-45: updateHeight *)
  Definition updateHeight (node : ptr) : M unit :=
    let@ l := rdKid node false in let@ lh := getHeight l in
    let@ r := rdKid node true in let@ rh := getHeight r in
    if lh >? rh then wr (setHeight (i8 (lh + 1))) node else wr (setHeight (i8 (rh + 1))) node.
  (** node.go 47-49: updateSize *)
  Definition updateSize (node : ptr) : M unit :=
    let@ l := rdKid node false in let@ a := getSize l in
    let@ r := rdKid node true in let@ b := getSize r in
    wr (setSize (a + b + 1)) node.
  (** node.go 97-102: newNode, with the fields that put (tree_hide.go 21-22) gives it *)
  Definition newNode (k : K) (parent : ptr) : M ptr :=
    fun m => let a := next m in
      Ret (Some a) (Mem (upd (Parent m) a parent) (upd (Children m) a (fun _ => None)) (upd (Height m) a 1) (upd (Size m) a 1)
                        (upd (Key m) a k) (upd (Value m) a zero) (S a)).

  (** node.go 193-214: leftRotate ([e] is 1) and 216-237: rightRotate ([e] is 0) *)
  Definition rotate (e : bool) (parent : ptr) (child : bool) : M unit :=
    let@ cur := rdKid parent child in
    let@ sub := rdKid cur e in
    wr (setKid child sub) parent ;@
    (if nonNil sub then wr (setParent parent) sub else ret tt) ;@
    let@ x := rdKid sub (negb e) in
    wr (setKid e x) cur ;@
    let@ x := rdKid sub (negb e) in
    (if nonNil x then wr (setParent cur) x else ret tt) ;@
    wr (setKid (negb e) cur) sub ;@
    wr (setParent sub) cur ;@
    updateHeight cur ;@
    updateHeight sub ;@
    updateSize cur ;@
    updateSize sub.
  (** node.go 121-155: leftRotateWithRight ([e] is 1) and 157-191: rightRotateWithLeft ([e] is 0) *)
  Definition rotate2 (e : bool) (parent : ptr) (child : bool) : M unit :=
    let@ cur := rdKid parent child in
    let@ sub := rdKid cur e in
    let@ subsub := rdKid sub (negb e) in
    wr (setKid child subsub) parent ;@
    (if nonNil subsub then wr (setParent parent) subsub else ret tt) ;@
    let@ c0 := rdKid subsub (negb e) in
    let@ c1 := rdKid subsub e in
    wr (setKid (negb e) cur) subsub ;@
    wr (setParent subsub) cur ;@
    wr (setKid e sub) subsub ;@
    (if nonNil sub then wr (setParent subsub) sub else ret tt) ;@
    wr (setKid e c0) cur ;@
    (if nonNil c0 then wr (setParent cur) c0 else ret tt) ;@
    wr (setKid (negb e) c1) sub ;@
    (if nonNil c1 then wr (setParent sub) c1 else ret tt) ;@
    updateHeight cur ;@
    updateHeight sub ;@
    updateHeight subsub ;@
    updateSize cur ;@
    updateSize sub ;@
    updateSize subsub.

  (** tree_hide.go 126-165: rebalance *)
  Definition rebalance (parent : ptr) (child : bool) : M bool :=
    let@ node := rdKid parent child in
    let@ l := rdKid node false in let@ lh := getHeight l in
    let@ r := rdKid node true in let@ rh := getHeight r in
    let diff := i8 (lh - rh) in
    if d <=? diff then
      let@ sub := rdKid node false in
      let@ sr := rdKid sub true in let@ a := getHeight sr in
      let@ sl := rdKid sub false in let@ b := getHeight sl in
      (if a >? b then rotate2 false parent child else rotate false parent child) ;@ ret true
    else if diff <=? i8 (- d) then
      let@ sub := rdKid node true in
      let@ sl := rdKid sub false in let@ a := getHeight sl in
      let@ sr := rdKid sub true in let@ b := getHeight sr in
      (if a >? b then rotate2 true parent child else rotate true parent child) ;@ ret true
    else
      let@ h := rd Height node in
      let z := if lh >? rh then i8 (lh + 1) else i8 (rh + 1) in
      if h =? z then ret false else wr (setHeight z) node ;@ ret true.

  (** tree_hide.go 9-14: fixPutSize *)
  Fixpoint fixLoop (fuel : nat) (cur : ptr) : M unit :=
    match fuel with
    | O => fun _ => Loop
    | S fuel =>
        if IndexHeapModel.eqp cur Center then ret tt
        else updateSize cur ;@ let@ p := rd Parent cur in fixLoop fuel p
    end.
  Definition fixPutSize (cur : ptr) : M unit := fueled (fun n => fixLoop n cur).

  (** tree_hide.go 37-39, 42-44 and 46-53: what put does when the inner call is back *)
  Definition up (parent : ptr) (child : bool) (x : ptr * bool * bool) : M (ptr * bool * bool) :=
    let '(target, ex, rb) := x in
    if (ex || negb rb)%bool then ret x
    else let@ rb := rebalance parent child in
         (if rb : bool then fixPutSize parent else ret tt) ;@ ret (target, ex, rb).
  (** tree_hide.go 16-54: put *)
  Fixpoint put (fuel : nat) (parent : ptr) (child : bool) (key : K) : M (ptr * bool * bool) :=
    match fuel with
    | O => fun _ => Loop
    | S fuel =>
        let@ cur := rdKid parent child in
        match cur with
        | None =>
            let@ target := newNode key parent in
            wr (setKid child target) parent ;@
            fixPutSize parent ;@
            let@ other := rdKid parent (negb child) in
            ret (target, false, negb (nonNil other))
        | Some _ =>
            let@ k := rd Key cur in
            let c := cmp k key in
            if c <? 0 then let@ x := put fuel cur false key in up parent child x
            else if c >? 0 then let@ x := put fuel cur true key in up parent child x
            else ret (cur, true, false)
        end
    end.

  (** tree_hide.go 57-66: get; a comparator result above 1 is an index out of range *)
  Fixpoint get (fuel : nat) (key : K) (cur : ptr) : M ptr :=
    match fuel with
    | O => fun _ => Loop
    | S fuel =>
        match cur with
        | None => ret None
        | Some _ =>
            let@ k := rd Key cur in
            let c := cmp k key in
            if c <? 0 then ret cur
            else if c =? 0 then let@ l := rdKid cur false in get fuel key l
            else if c =? 1 then let@ r := rdKid cur true in get fuel key r
            else panic
        end
    end.

  (** tree_hide.go 108-124: neighboring *)
  Fixpoint neighboring (fuel : nat) (parent : ptr) (child2 child1 : bool) : M (ptr * bool) :=
    match fuel with
    | O => fun _ => Loop
    | S fuel =>
        let@ cur := rdKid parent child2 in
        let@ sub := rdKid cur child1 in
        match sub with
        | None =>
            let@ other := rdKid cur (negb child1) in
            wr (setKid child2 other) parent ;@
            ret (cur, true)
        | Some _ =>
            let@ (result, rb) := neighboring fuel cur child1 child1 in
            if rb : bool then let@ rb := rebalance parent child2 in ret (result, rb) else ret (result, rb)
        end
    end.

  (** tree_hide.go 68-106: remove.  The target is given by the value it points to: [&cur.Value] of a node taken out and
      [&result] are not written again before Remove reads them. *)
  Fixpoint remove (fuel : nat) (key : K) (grandpa : ptr) (child2 child1 : bool) : M (option V * bool) :=
    match fuel with
    | O => fun _ => Loop
    | S fuel =>
        let@ parent := rdKid grandpa child2 in
        let@ cur := rdKid parent child1 in
        match cur with
        | None => ret (None, false)
        | Some _ =>
            let@ k := rd Key cur in
            let c := cmp k key in
            if c <? 0 then
              let@ c0 := rdKid cur false in
              let@ c1 := rdKid cur true in
              let@ v := rd Value cur in
              if negb (nonNil c0) then wr (setKid child1 c1) parent ;@ ret (Some v, true)
              else if negb (nonNil c1) then wr (setKid child1 c0) parent ;@ ret (Some v, true)
              else
                let@ (replacer, _) := fueled (fun n => neighboring n cur child1 (negb child1)) in
                let@ rk := rd Key replacer in wr (setKey rk) cur ;@
                let@ rv := rd Value replacer in wr (setValue rv) cur ;@
                let@ rb := rebalance parent child1 in ret (Some v, rb)
            else if (c =? 0) || (c =? 1) then
              let@ (target, rb) := remove fuel key parent child1 (c =? 1) in
              if negb (IndexHeapModel.eqp cur Center) && rb then let@ rb := rebalance parent child1 in ret (target, rb)
              else ret (target, rb)
            else panic
        end
    end.

  (** tree.go 114-133: the recursive closure of Traverse, as in [AvlModel.traverse] *)
  Fixpoint traverse (fuel : nat) (go : list (K * V) -> bool) (cur : ptr) (seen : list (K * V)) : M (list (K * V) * bool) :=
    match fuel with
    | O => fun _ => Loop
    | S fuel =>
        match cur with
        | None => ret (seen, true)
        | Some _ =>
            let@ l := rdKid cur false in
            let@ (s1, c1) := traverse fuel go l seen in
            if negb c1 then ret (s1, false) else
            let@ k := rd Key cur in
            let@ v := rd Value cur in
            let s2 := s1 ++ [(k, v)] in
            if negb (go s2) then ret (s2, false) else
            let@ r := rdKid cur true in
            let@ (s3, c3) := traverse fuel go r s2 in
            if negb c3 then ret (s3, false) else ret (s3, true)
        end
    end.

  (** tree.go 43-51: Set, without the counting of [tree.size] *)
  Definition Set_ (key : K) (value : V) : M bool :=
    let@ (target, ex, _) := fueled (fun n => put n Center true key) in
    wr (setKey key) target ;@ wr (setValue value) target ;@ ret (negb ex).
  (** tree.go 63-70: Put, without the counting *)
  Definition Put (key : K) (value : V) : M bool :=
    let@ (target, ex, _) := fueled (fun n => put n Center true key) in
    (if ex : bool then ret tt else wr (setValue value) target) ;@ ret (negb ex).
  (** tree.go 54-61: Upsert; the second answer says whether Set has inserted *)
  Definition Upsert (key : K) (value : V) : M (bool * bool) :=
    let@ root := rdKid Center true in
    let@ cur := fueled (fun n => get n key root) in
    if nonNil cur then wr (setValue value) cur ;@ ret (true, false)
    else let@ b := Set_ key value in ret (false, b).
  (** tree.go 77-84: Get *)
  Definition Get (key : K) : M (option V) :=
    let@ root := rdKid Center true in
    let@ cur := fueled (fun n => get n key root) in
    match cur with None => ret None | Some _ => let@ v := rd Value cur in ret (Some v) end.
  (** tree.go 86-93: Remove, without the counting *)
  Definition Remove (key : K) : M (option V) :=
    let@ (target, _) := fueled (fun n => remove n key Center false true) in ret target.

  (** tree.go 7-15: type Tree, with all memory; 17-41: New, NewEx (Center is its own left child; the key and the value of
      Center are never read, the model has no zero value of KEY: [k0] is any key) *)
  Record htree := HT { memory : mem K V; size : nat }.
  Definition hnew (k0 : K) : htree :=
    HT (Mem (fun _ => None) (fun a e => match a, e with O, false => Center | _, _ => None end) (fun _ => 0) (fun _ => 0)
            (fun _ => k0) (fun _ => zero) 1) 0.

  (** One call.  [HLoop]: the call does not come back.  InsertIfAbsent (73-75), Delete (96-98), Clear (100-103), Size (105-107),
      Len (110-112), Traverse (114-133), Values (135-145).  The calls MContains and MEmpty of the shared list of calls do
      not exist in this package; the model answers them by get and size. *)
  Inductive h_out := HOut (r : sm_out K V) | HLoop.
  Definition done {X} (s : htree) (e : M X) (f : X -> mem K V -> htree * sm_out K V) : option (htree * h_out) :=
    match e (memory s) with
    | Ret x m => let '(s', r) := f x m in Some (s', HOut r)
    | Panic => None
    | Loop => Some (s, HLoop)
    end.
  Definition grow (s : htree) (b : bool) : nat := if b then S (size s) else size s.
  Definition hstep (s : htree) (o : sm_op K V) : option (htree * h_out) :=
    match o with
    | MPut k v | MInsertIfAbsent k v => done s (Put k v) (fun b m => (HT m (grow s b), MBool b))
    | MSet k v => done s (Set_ k v) (fun b m => (HT m (grow s b), MBool b))
    | MUpsert k v => done s (Upsert k v) (fun x m => (HT m (grow s (snd x)), MBool (fst x)))
    | MGet k => done s (Get k) (fun v m => (HT m (size s), MVal v))
    | MContains k => done s (Get k) (fun v m => (HT m (size s), MBool (match v with Some _ => true | None => false end)))
    | MRemove k | MDelete k => done s (Remove k) (fun r m => (HT m (match r with Some _ => size s - 1 | None => size s end)%nat, MVal r))
    | MClear => done s (wr (setKid true None) Center) (fun _ m => (HT m 0, MUnit))
    | MSize | MLen => Some (s, HOut (MNat (size s)))
    | MEmpty => Some (s, HOut (MBool (Nat.eqb (size s) 0)))
    | MValues =>
        match size s with
        | O => Some (s, HOut (MVals []))
        | _ => done s (let@ root := rdKid Center true in fueled (fun n => traverse n (fun _ => true) root []))
                    (fun x m => (HT m (size s), MVals (map snd (fst x))))
        end
    | MTraverse go =>
        done s (let@ root := rdKid Center true in fueled (fun n => traverse n go root [])) (fun x m => (HT m (size s), MSeen (fst x)))
    end.
End Tree.
Arguments htree K V : clear implicits.
Arguments h_out K V : clear implicits.
