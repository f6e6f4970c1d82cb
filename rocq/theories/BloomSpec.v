(** A Bloom filter with one hash function, seen from outside: the keys added since the last reset and the slot of each. *)
From Verif Require Import Base.
Local Open Scope Z_scope.

(** FNV-1, 64 bits (the published algorithm): multiply by the prime, then xor the byte in. *)
Definition fnv1_64 (key : list Z) : Z :=
  fold_left (fun h b => Z.lxor (h * 1099511628211 mod 2 ^ 64) b) key 14695981039346656037.

Section Spec.
  Context {K : Type} (enc : K -> option (list Z)).
  Inductive b_op := BAddBytes (key : list Z) | BContainsBytes (key : list Z) | BAdd (k : K) | BContains (k : K)
                  | BReset | BCap | BHitSize.
  Inductive b_out := BBool (b : bool) | BNum (z : Z) | BUnit.

  (** the keys of a call can be encoded (encoding/binary accepts fixed-size values only) *)
  Definition encodable (o : b_op) : Prop := match o with BAdd k | BContains k => enc k <> None | _ => True end.

  (** number of slots of a filter asked to have [bits] bits: whole bytes *)
  Definition slots (bits : Z) : Z := 8 * ((bits + 7) / 8).
  Definition slot (bits : Z) (key : list Z) : Z := fnv1_64 key mod slots bits.
  Definition hit (bits : Z) (added : list (list Z)) (key : list Z) : bool :=
    existsb (fun k => slot bits k =? slot bits key) added.
  Definition used (bits : Z) (added : list (list Z)) : Z :=
    Z.of_nat (length (nodup Z.eq_dec (map (slot bits) added))).
  Definition bytes_of (k : K) : list Z := match enc k with Some b => b | None => [] end.

  Definition bloom_spec (bits : Z) (added : list (list Z)) (o : b_op) : list (list Z) * b_out :=
    match o with
    | BAddBytes key => (key :: added, BBool (hit bits added key))
    | BContainsBytes key => (added, BBool (hit bits added key))
    | BAdd k => (bytes_of k :: added, BBool (hit bits added (bytes_of k)))
    | BContains k => (added, BBool (hit bits added (bytes_of k)))
    | BReset => ([], BUnit)
    | BCap => (added, BNum (slots bits))
    | BHitSize => (added, BNum (used bits added))
    end.
End Spec.
Arguments b_op K : clear implicits.
