(** Model of filter/bloom/bloom.go.  Bytes and uint64 values are integers, reduced modulo 2^64 where Go does.
    Not modelled: HitRatio (bloom.go:109-111), a division of two modelled numbers in floating point; short reads in
    Decode, whose errors the code ignores. *)
From Verif Require Import Base Bind Machine Slice BloomSpec.
Local Open Scope Z_scope.

(** hash/fnv New64 (standard library, FNV-1): the state is the running hash *)
Definition h_new : Z := 14695981039346656037.
Definition h_byte (h b : Z) : Z := Z.lxor (h * 1099511628211 mod 2 ^ 64) b.
Definition h_write (h : Z) (key : list Z) : Z := fold_left h_byte key h.

(** bloom.go:11-16 *)
Record bloom := BL { bits : list Z; hitSize : Z; cap : Z; hs : Z }.

(** bloom.go:29-36 *)
Definition new (bitsCap : Z) : bloom :=
  let bsize := Z.shiftr ((bitsCap + 7) mod 2 ^ 64) 3 in
  BL (repeat 0 (Z.to_nat bsize)) 0 (Z.shiftl bsize 3 mod 2 ^ 64) h_new.

(** bloom.go:49-67; a zero cap is a division by zero *)
Definition addBytes (bl : bloom) (key : list Z) : option (bloom * bool) :=
  let h := h_write (hs bl) key in
  if cap bl =? 0 then None
  else
    let bitnum := h mod cap bl in
    let bytenum := Z.to_nat (Z.shiftr bitnum 3) in
    let bset := Z.shiftl 1 (bitnum mod 8) mod 256 in
    w <- nth_error (bits bl) bytenum ;;
    let isExists := negb (Z.land w bset =? 0) in
    let hit := if isExists then hitSize bl else (hitSize bl + 1) mod 2 ^ 64 in
    bits' <- put_at (bits bl) bytenum (Z.lor w bset) ;;
    Some (BL bits' hit (cap bl) h_new, isExists).
(** bloom.go:80-94 *)
Definition containsBytes (bl : bloom) (key : list Z) : option (bloom * bool) :=
  let h := h_write (hs bl) key in
  if cap bl =? 0 then None
  else
    let bitnum := h mod cap bl in
    let bytenum := Z.to_nat (Z.shiftr bitnum 3) in
    let bset := Z.shiftl 1 (bitnum mod 8) mod 256 in
    w <- nth_error (bits bl) bytenum ;;
    Some (BL (bits bl) (hitSize bl) (cap bl) h_new, negb (Z.land w bset =? 0)).

(** bloom.go:121-123: the doubling loop; [fuel] bounds the number of rounds *)
Fixpoint reset_loop (fuel : nat) (b : list Z) (bp : nat) : option (list Z) :=
  match fuel with
  | O => None
  | S fuel' =>
      if (bp <? length b)%nat then
        src <- slice b 0 bp ;;
        b' <- copy_at b bp src ;;
        reset_loop fuel' b' (bp * 2)
      else Some b
  end.
(** bloom.go:114-126 *)
Definition reset (bl : bloom) : option bloom :=
  match bits bl with
  | [] => Some bl
  | _ => b1 <- put_at (bits bl) 0 0 ;;
         b2 <- reset_loop (S (length b1)) b1 1 ;;
         Some (BL b2 0 (cap bl) (hs bl))
  end.

(** encoding/binary, big endian uint64 *)
Definition be64 (x : Z) : list Z := map (fun i => Z.shiftr x (8 * (7 - Z.of_nat i)) mod 256) (seq 0 8).
Definition unbe64 (l : list Z) : Z := fold_left (fun a b => a * 256 + b) l 0.
(** bloom.go:129-135: binary.Write of a slice writes its elements, without its length *)
Definition encode (bl : bloom) : list Z := be64 (hitSize bl) ++ be64 (cap bl) ++ bits bl.
(** binary.Read into a slice reads as many elements as the slice already has *)
Definition read_slice (old input : list Z) : list Z := firstn (length old) input.
(** bloom.go:138-143; the slice has been cut to length 0 before it is read *)
Definition decode (bl : bloom) (input : list Z) : bloom :=
  let cut := firstn 0 (bits bl) in
  let h := unbe64 (firstn 8 input) in
  let c := unbe64 (firstn 8 (skipn 8 input)) in
  BL (read_slice cut (skipn 16 input)) h c (hs bl).
(** bloom.go:18-26; the slice is nil *)
Definition newByDecode (input : list Z) : bloom :=
  BL (read_slice [] (skipn 16 input)) (unbe64 (firstn 8 input)) (unbe64 (firstn 8 (skipn 8 input))) h_new.

Section Step.
  Context {K : Type} (enc : K -> option (list Z)).
  (** bloom.go:39-46; [enc] is binary.Write into a buffer, [None] when it reports an error *)
  Definition add (bl : bloom) (k : K) : option (bloom * bool) := b <- enc k ;; addBytes bl b.
  (** bloom.go:70-77 *)
  Definition contains (bl : bloom) (k : K) : option (bloom * bool) := b <- enc k ;; containsBytes bl b.
  (** dispatch; Cap bloom.go:97-99, HitSize 102-104 *)
  Definition step (bl : bloom) (o : b_op K) : option (bloom * b_out) :=
    match o with
    | BAddBytes key => '(bl', r) <- addBytes bl key ;; Some (bl', BBool r)
    | BContainsBytes key => '(bl', r) <- containsBytes bl key ;; Some (bl', BBool r)
    | BAdd k => '(bl', r) <- add bl k ;; Some (bl', BBool r)
    | BContains k => '(bl', r) <- contains bl k ;; Some (bl', BBool r)
    | BReset => bl' <- reset bl ;; Some (bl', BUnit)
    | BCap => Some (bl, BNum (cap bl))
    | BHitSize => Some (bl, BNum (hitSize bl))
    end.
End Step.
