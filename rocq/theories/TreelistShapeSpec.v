(** What the calls of a tree list do to its shape, rotations aside. *)
From Verif Require Import Base OrderSpec SMapSpec AvlTree RotSpec IndexSpec CutSpec TreelistSpec.
Local Open Scope Z_scope.

Section Plain.
  Context {K V : Type} (ltb : K -> K -> bool).
  (** the tree without the numbers of the nodes *)
  Fixpoint values (t : bt K (nat * V)) : bt K V := match t with Leaf => Leaf | Node k v l r => Node k (snd v) (values l) (values r) end.

  (** what a call that does not panic does to the tree, rotations aside *)
  Definition tl_plain (o : tl_op K V) (t t' : bt K V) : Prop :=
    match o with
    | TPut k v => t' = ins ltb (fun e => e) k v t
    | TSet k v => t' = ins ltb (fun e => (fst e, v)) k v t
    | TPutDuplicate k v f => t' = ins ltb (fun e => (fst e, f (snd e))) k v t
    | TRemove k => if found ltb k t then taken ltb k t t' else t' = t
    | TRemoveIndex i => droppedAt i t t'
    | TRemoveHead => match t with Leaf => t' = Leaf | _ => droppedAt 0 t t' end
    | TRemoveTail => match t with Leaf => t' = Leaf | _ => droppedAt (nodes t - 1) t t' end
    | TRemoveRange lo hi => if same ltb lo hi then (if found ltb lo t then taken ltb lo t t' else t' = t) else t' = without ltb lo hi t
    | TRemoveRangeByIndex i j => if j <? i then t' = t else t' = withoutAt i j t
    | TTrim lo hi => t' = before (fun a => negb (ltb hi a)) (after (fun a => ltb a lo) t)
    | TTrimByIndex i j => t' = first (j + 1 - i) (others i t)
    | TClear => t' = Leaf
    | _ => t' = t
    end.
  (** the calls that may rotate: at most once on insertion; in a removal by range *)
  Definition tl_inserts (o : tl_op K V) : bool := match o with TPut _ _ | TSet _ _ | TPutDuplicate _ _ _ => true | _ => false end.
  Definition tl_cuts (o : tl_op K V) : bool := match o with TRemoveRange _ _ | TRemoveRangeByIndex _ _ => true | _ => false end.
  Definition tl_clears (o : tl_op K V) : bool := match o with TClear => true | _ => false end.
End Plain.
