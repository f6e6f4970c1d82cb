(** Sequences of insertions that make the trees of tree/indextree and queue/priority as deep as they are large, up to a
    factor: the shapes these sequences keep, and that they keep them. *)
From Verif Require Import Base Bind Machine CompareModel AvlTree AvlSpec AvlModel IndexSpec IndexModel.
Local Open Scope Z_scope.

(** ** tree/indextree *)

(** The keys: six to begin with, then four for each further level; [n] is larger than all the others. *)
Definition first_keys (n : Z) : list Z := [n + 2; n + 1; n; 3; 2; 1].
Definition block (i : Z) : list Z := [4 * (i + 1) + 3; 4 * (i + 1) + 2; 4 * (i + 1) + 1; 4 * i].
Fixpoint blocks (i : Z) (m : nat) : list Z := match m with O => [] | S m' => block i ++ blocks (i + 1) m' end.
Definition deep_keys (m : nat) : list Z := first_keys (4 * Z.of_nat m + 8) ++ blocks 0 m.

Lemma any_lt a b : a < b -> any a b = -1.
Proof. intros H. unfold any. destruct (Z.ltb_spec b a); [lia|]. destruct (Z.ltb_spec a b); lia. Qed.
Lemma any_gt a b : b < a -> any a b = 1.
Proof. intros H. unfold any. destruct (Z.ltb_spec b a); lia. Qed.

Section Index.
  Notation tree := (tree Z (option Z)).
  Notation put := (put any 2 (fun e : Z * option Z => e)).

  Definition leaf (a : Z) : tree := N 1 a (Some a) E E.
  Definition node (a : Z) (l r : tree) : tree := IndexModel.sum a (Some a) l r.
  Definition three (a : Z) : tree := node (a + 1) (leaf a) (leaf (a + 2)).
  (** the lowest part of the tree, and the levels above it *)
  Definition foot (n i : Z) : tree := node (4 * i + 3) (node (4 * i + 2) (leaf (4 * i + 1)) E) (three n).
  Definition level (i : Z) (t : tree) : tree := node (4 * i + 3) (three (4 * i)) t.
  Fixpoint levels (i : Z) (m : nat) (t : tree) : tree := match m with O => t | S m' => level i (levels (i + 1) m' t) end.

  (** what fixPut still has to do does not touch the levels above a tree of the given size *)
  Definition calm (s : Z) (c : climb) : Prop :=
    match c with First => False | Sizes => True | Height h => 4 <= h /\ s - 3 <= 2 ^ (h - 2) end.
  Definition grows (k : Z) (t t' : tree) : Prop :=
    exists c, put k (Some k) t = Some (t', Some c) /\ calm (getSize t') c /\ getSize t' = getSize t + 1 /\ 3 <= getSize t.

  Lemma grows_level i k t t' : 4 * i + 3 < k -> grows k t t' -> grows k (level i t) (level i t').
  Proof.
    intros Hk (c & P & C & S & T). unfold grows, level, node, IndexModel.sum. cbn [IndexModel.put getSize].
    rewrite (any_gt _ _ Hk). cbn [Z.ltb Z.gtb Z.compare]. rewrite P. cbv beta iota.
    set (s := getSize (three (4 * i)) + getSize t + 1).
    assert (Es : s = getSize t + 4) by (unfold s, three, node, IndexModel.sum; cbn [getSize leaf]; lia).
    assert (Es' : getSize (three (4 * i)) + getSize t' + 1 = s + 1) by lia. rewrite Es'.
    assert (E3 : getSize (three (4 * i)) = 3) by reflexivity.
    destruct c as [|h|]; [destruct C| |].
    - destruct C as [Ch C]. assert (D : 4 <= 2 ^ (h - 2)).
      { change 4 with (2 ^ 2). apply Z.pow_le_mono_r; lia. }
      assert (D' : 2 ^ (h + 1 - 2) = 2 * 2 ^ (h - 2)) by (replace (h + 1 - 2) with (Z.succ (h - 2)) by lia; apply Z.pow_succ_r; lia).
      assert (F : fixPut 2 (Height h) (N s (4 * i + 3) (Some (4 * i + 3)) (three (4 * i)) t') =
        Some (N (s + 1) (4 * i + 3) (Some (4 * i + 3)) (three (4 * i)) t', Height (h + 1))).
      { unfold fixPut. change (2 <? 0) with false. cbv iota. destruct (Z.ltb_spec (s + 1) (shl64 h)) as [L|L]; [|reflexivity].
        unfold shl64 in L |- *. destruct (Z.ltb_spec h 63) as [Hh|Hh]; [|destruct (h =? 63); lia].
        rewrite E3. destruct (Z.ltb_spec (3 - getSize t') 0); [|lia].
        rewrite Z.shiftr_div_pow2 by lia. replace (2 ^ h) with (2 ^ (h - 2) * 2 ^ 2) by (rewrite <- Z.pow_add_r by lia; f_equal; lia).
        rewrite Z.div_mul by lia. destruct (Z.leb_spec (2 ^ (h - 2) + 1) (- (3 - getSize t'))); [lia|reflexivity]. }
      rewrite F. cbv beta iota. eexists. split; [reflexivity|]. cbn [getSize calm]. repeat split; lia.
    - cbn [fixPut]. eexists. split; [reflexivity|]. cbn [getSize calm]. repeat split; lia.
  Qed.
  Lemma grows_levels k m : forall i t t', 4 * (i + Z.of_nat m) <= k -> grows k t t' -> grows k (levels i m t) (levels i m t').
  Proof.
    induction m as [|m IH]; intros i t t' Hk G; cbn [levels]; [exact G|].
    apply grows_level; [lia|]. apply IH; [lia|exact G].
  Qed.

  Ltac cmps := repeat (match goal with |- context [any ?a ?b] => first [rewrite (any_lt a b) by lia|rewrite (any_gt a b) by lia] end;
    cbn [Z.ltb Z.gtb Z.compare IndexModel.put]).
  Ltac grow := unfold grows, foot, level, three, node, leaf, IndexModel.sum; cbn [IndexModel.put]; cmps;
    eexists; split; [reflexivity|]; split; [vm_compute; intuition discriminate|]; split; [reflexivity|vm_compute; discriminate].
  Lemma block_grows n i : 4 * i + 7 < n -> exists t1 t2 t3,
    grows (4 * (i + 1) + 3) (foot n i) t1 /\ grows (4 * (i + 1) + 2) t1 t2 /\ grows (4 * (i + 1) + 1) t2 t3 /\
    grows (4 * i) t3 (level i (foot n (i + 1))).
  Proof.
    intros H. set (low := node (4 * i + 2) (leaf (4 * i + 1)) E).
    exists (node (4 * i + 3) low (node (n + 1) (node n (leaf (4 * (i + 1) + 3)) E) (leaf (n + 2)))),
      (node (4 * i + 3) low (node (n + 1) (node (4 * (i + 1) + 3) (leaf (4 * (i + 1) + 2)) (leaf n)) (leaf (n + 2)))),
      (node (4 * i + 3) low (foot n (i + 1))).
    unfold low. split; [grow|]. split; [grow|]. split; [grow|grow].
  Qed.

  (** what the calls do *)
  Notation step := (step (A := Z) any 2).
  Definition puts (ks : list Z) : list (ix_op Z Z) := map (fun k => XPut k (Some k)) ks.
  Lemma grows_step k t t' : grows k t t' -> step t (XPut k (Some k)) = (t', XBool true).
  Proof. intros (c & P & _). cbn [IndexModel.step]. unfold Put. rewrite P. reflexivity. Qed.
  Lemma block_step n i m : 4 * (i + Z.of_nat m) + 7 < n ->
    sreach step (levels i m (foot n (i + Z.of_nat m))) (puts (block (i + Z.of_nat m))) = levels i (S m) (foot n (i + Z.of_nat (S m))) /\
    srun step (levels i m (foot n (i + Z.of_nat m))) (puts (block (i + Z.of_nat m))) = repeat (XBool true) 4.
  Proof.
    intros H. destruct (block_grows n (i + Z.of_nat m) H) as (t1 & t2 & t3 & G1 & G2 & G3 & G4).
    apply (grows_levels _ m i) in G1; [|lia]. apply (grows_levels _ m i) in G2; [|lia].
    apply (grows_levels _ m i) in G3; [|lia]. apply (grows_levels _ m i) in G4; [|lia].
    apply grows_step in G1, G2, G3, G4. cbn [puts block map sreach srun]. rewrite G1. cbn [fst]. rewrite G2. cbn [fst].
    rewrite G3. cbn [fst]. rewrite G4. cbn [fst]. split; [|reflexivity].
    replace (i + Z.of_nat m + 1) with (i + Z.of_nat (S m)) by lia. generalize (foot n (i + Z.of_nat (S m))) as t. clear.
    revert i. induction m as [|m IH]; intros i t; cbn [levels]; [f_equal; lia|]. f_equal.
    replace (i + Z.of_nat (S m)) with (i + 1 + Z.of_nat m) by lia. apply IH.
  Qed.
  Lemma sreach_app {T O R : Type} (st : T -> O -> T * R) a b t : sreach st t (a ++ b) = sreach st (sreach st t a) b.
  Proof. revert t. induction a as [|o a IH]; intros t; cbn [app sreach]; [reflexivity|apply IH]. Qed.
  Lemma srun_app {T O R : Type} (st : T -> O -> T * R) a b t : srun st t (a ++ b) = srun st t a ++ srun st (sreach st t a) b.
  Proof.
    revert t. induction a as [|o a IH]; intros t; cbn [app srun sreach]; [reflexivity|].
    destruct (st t o) as [t' r]. cbn [fst app]. f_equal. apply IH.
  Qed.
  Lemma blocks_step n m' : forall m, 4 * (Z.of_nat (m + m')) + 3 < n ->
    sreach step (levels 0 m (foot n (Z.of_nat m))) (puts (blocks (Z.of_nat m) m')) = levels 0 (m + m') (foot n (Z.of_nat (m + m'))) /\
    srun step (levels 0 m (foot n (Z.of_nat m))) (puts (blocks (Z.of_nat m) m')) = repeat (XBool true) (4 * m').
  Proof.
    induction m' as [|m' IH]; intros m H.
    - rewrite Nat.add_0_r. split; reflexivity.
    - cbn [blocks]. unfold puts. rewrite map_app. fold (puts (block (Z.of_nat m))) (puts (blocks (Z.of_nat m + 1) m')).
      destruct (block_step n 0 m ltac:(lia)) as [B1 B2]. change (0 + Z.of_nat m) with (Z.of_nat m) in B1, B2.
      change (0 + Z.of_nat (S m)) with (Z.of_nat (S m)) in B1. rewrite sreach_app, srun_app, B1, B2.
      replace (Z.of_nat m + 1) with (Z.of_nat (S m)) by lia.
      replace (m + S m')%nat with (S m + m')%nat by lia. destruct (IH (S m) ltac:(lia)) as [I1 I2]. rewrite I1, I2. split; [reflexivity|].
      rewrite <- repeat_app. f_equal. lia.
  Qed.
  Ltac puts1 := unfold foot, three, node, leaf, IndexModel.sum; cbn [IndexModel.step]; unfold Put; cbn [IndexModel.put Z.mul Z.add]; cmps; reflexivity.
  Lemma first_step n : 3 < n -> sreach step E (puts (first_keys n)) = foot n 0 /\ srun step E (puts (first_keys n)) = repeat (XBool true) 6.
  Proof.
    intros H.
    assert (S1 : step E (XPut (n + 2) (Some (n + 2))) = (leaf (n + 2), XBool true)) by reflexivity.
    assert (S2 : step (leaf (n + 2)) (XPut (n + 1) (Some (n + 1))) = (node (n + 2) (leaf (n + 1)) E, XBool true)) by puts1.
    assert (S3 : step (node (n + 2) (leaf (n + 1)) E) (XPut n (Some n)) = (three n, XBool true)) by puts1.
    assert (S4 : step (three n) (XPut 3 (Some 3)) = (node (n + 1) (node n (leaf 3) E) (leaf (n + 2)), XBool true)) by puts1.
    assert (S5 : step (node (n + 1) (node n (leaf 3) E) (leaf (n + 2))) (XPut 2 (Some 2)) =
                 (node (n + 1) (node 3 (leaf 2) (leaf n)) (leaf (n + 2)), XBool true)) by puts1.
    assert (S6 : step (node (n + 1) (node 3 (leaf 2) (leaf n)) (leaf (n + 2))) (XPut 1 (Some 1)) = (foot n 0, XBool true)) by puts1.
    cbn [puts first_keys map sreach srun]. rewrite S1. cbn [fst]. rewrite S2. cbn [fst]. rewrite S3. cbn [fst]. rewrite S4. cbn [fst].
    rewrite S5. cbn [fst]. rewrite S6. split; reflexivity.
  Qed.

  Lemma height_levels n m : forall i j, ht (levels i m (foot n j)) = Z.of_nat m + 3.
  Proof.
    induction m as [|m IH]; intros i j; [reflexivity|]. cbn [levels]. unfold level, node, IndexModel.sum. cbn [ht]. rewrite IH.
    change (ht (three (4 * i))) with 2. lia.
  Qed.
  Lemma deep_index_tree m : length (deep_keys m) = (4 * m + 6)%nat /\
    srun step E (puts (deep_keys m)) = repeat (XBool true) (4 * m + 6) /\ ht (sreach step E (puts (deep_keys m))) = Z.of_nat m + 3.
  Proof.
    unfold deep_keys. set (n := 4 * Z.of_nat m + 8). unfold puts. rewrite map_app. fold (puts (first_keys n)) (puts (blocks 0 m)).
    destruct (first_step n ltac:(lia)) as [F1 F2]. destruct (blocks_step n m 0 ltac:(cbn [Nat.add]; lia)) as [B1 B2].
    cbn [Z.of_nat levels Nat.add] in B1, B2. rewrite srun_app, sreach_app, F1, F2, B1, B2.
    split; [|split; [rewrite <- repeat_app; f_equal; lia|apply height_levels]].
    rewrite app_length. assert (L : forall i, length (blocks i m) = (4 * m)%nat).
    { clear. induction m as [|m IH]; intros i; cbn [blocks block app length]; [reflexivity|]. rewrite IH. lia. }
    rewrite L. cbn [first_keys length]. lia.
  Qed.
End Index.
