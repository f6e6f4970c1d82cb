(** What a rotation is, and what a call does to a search tree that is not rebalanced: trees of entries without stored
    heights, turned at one place at a time. *)
From Verif Require Import Base SMapSpec AvlTree.

Section Rot.
  Context {K V : Type}.
  Inductive bt := Leaf | Node (k : K) (v : V) (l r : bt).

  (** the tree without the stored heights *)
  Fixpoint strip (t : tree K V) : bt := match t with E => Leaf | N _ k v l r => Node k v (strip l) (strip r) end.

  (** one rotation somewhere in the tree, single ([false]) or double ([true]) *)
  Inductive turn : bool -> bt -> bt -> Prop :=
  | turn_right k v k1 v1 a b c : turn false (Node k v (Node k1 v1 a b) c) (Node k1 v1 a (Node k v b c))
  | turn_left k v k1 v1 a b c : turn false (Node k v a (Node k1 v1 b c)) (Node k1 v1 (Node k v a b) c)
  | turn_left_right k v k1 v1 k2 v2 a b c e :
      turn true (Node k v (Node k1 v1 a (Node k2 v2 b c)) e) (Node k2 v2 (Node k1 v1 a b) (Node k v c e))
  | turn_right_left k v k1 v1 k2 v2 a b c e :
      turn true (Node k v a (Node k1 v1 (Node k2 v2 b c) e)) (Node k2 v2 (Node k v a b) (Node k1 v1 c e))
  | turn_in_left x k v l l' r : turn x l l' -> turn x (Node k v l r) (Node k v l' r)
  | turn_in_right x k v l r r' : turn x r r' -> turn x (Node k v l r) (Node k v l r').
  (** [s] single and [d] double rotations, in any order *)
  Inductive turns : nat -> nat -> bt -> bt -> Prop :=
  | turns_none t : turns 0 0 t t
  | turns_single s d t t1 t2 : turns s d t t1 -> turn false t1 t2 -> turns (S s) d t t2
  | turns_double s d t t1 t2 : turns s d t t1 -> turn true t1 t2 -> turns s (S d) t t2.

  Context (ltb : K -> K -> bool).
  (** is the key on the path of the search *)
  Fixpoint found (k : K) (t : bt) : bool :=
    match t with Leaf => false | Node k0 _ l r => if ltb k k0 then found k l else if ltb k0 k then found k r else true end.
  (** the entry found is rewritten by [hit]; if there is none, a new leaf [(k, v)] *)
  Fixpoint ins (hit : K * V -> K * V) (k : K) (v : V) (t : bt) : bt :=
    match t with
    | Leaf => Node k v Leaf Leaf
    | Node k0 v0 l r =>
        if ltb k k0 then Node k0 v0 (ins hit k v l) r else if ltb k0 k then Node k0 v0 l (ins hit k v r)
        else Node (fst (hit (k0, v0))) (snd (hit (k0, v0))) l r
    end.
  (** [t] without its first (last) entry [e] *)
  Inductive first_out : bt -> K * V -> bt -> Prop :=
  | first_here k v r : first_out (Node k v Leaf r) (k, v) r
  | first_left k v l r e l' : first_out l e l' -> first_out (Node k v l r) e (Node k v l' r).
  Inductive last_out : bt -> K * V -> bt -> Prop :=
  | last_here k v l : last_out (Node k v l Leaf) (k, v) l
  | last_right k v l r e r' : last_out r e r' -> last_out (Node k v l r) e (Node k v l r').
  (** [t] without the entry found: its node is spliced out or filled with the next or the previous entry *)
  Inductive taken (k : K) : bt -> bt -> Prop :=
  | taken_left k0 v0 l r l' : ltb k k0 = true -> taken k l l' -> taken k (Node k0 v0 l r) (Node k0 v0 l' r)
  | taken_right k0 v0 l r r' : ltb k k0 = false -> ltb k0 k = true -> taken k r r' -> taken k (Node k0 v0 l r) (Node k0 v0 l r')
  | taken_no_left k0 v0 r : ltb k k0 = false -> ltb k0 k = false -> taken k (Node k0 v0 Leaf r) r
  | taken_no_right k0 v0 l : ltb k k0 = false -> ltb k0 k = false -> taken k (Node k0 v0 l Leaf) l
  | taken_next k0 v0 l r e r' : ltb k k0 = false -> ltb k0 k = false -> first_out r e r' -> taken k (Node k0 v0 l r) (Node (fst e) (snd e) l r')
  | taken_prev k0 v0 l r e l' : ltb k k0 = false -> ltb k0 k = false -> last_out l e l' -> taken k (Node k0 v0 l r) (Node (fst e) (snd e) l' r).

  (** what a call does to the tree, rotations aside *)
  Definition plain (o : sm_op K V) (t t' : bt) : Prop :=
    match o with
    | MPut k v | MInsertIfAbsent k v => t' = ins (fun e => e) k v t
    | MSet k v => t' = ins (fun _ => (k, v)) k v t
    | MUpsert k v => t' = ins (fun e => (fst e, v)) k v t
    | MRemove k | MDelete k => if found k t then taken k t t' else t' = t
    | MClear => t' = Leaf
    | _ => t' = t
    end.
  Definition removes (o : sm_op K V) : bool := match o with MRemove _ | MDelete _ => true | _ => false end.
  Definition clears (o : sm_op K V) : bool := match o with MClear => true | _ => false end.
End Rot.
Arguments bt K V : clear implicits.
