From Verif Require Import Base Machine Slice QueueSpec ArrayQueueModel ArrayQueueProofs.
Require Import ZifyBool ZifyNat.
Ltac Zify.zify_post_hook ::= Z.div_mod_to_equations.

Section P.
  Context {A : Type} (zero : A).
  Notation queue := (queue (A:=A)).
  Ltac ixs := unfold ix in *; repeat match goal with
    | |- context[?a <? ?b] => destruct (Nat.ltb_spec a b)
    | |- context[?a <=? ?b] => destruct (Nat.leb_spec a b)
    | H : context[?a <? ?b] |- _ => destruct (Nat.ltb_spec a b)
    end.

  (** the slots after the elements hold zero, unless the queue is more than half full *)
  Definition bare (q : queue) : Prop := forall i, size q <= i < cap q -> nth_error (data q) (ix (cap q) (start q) i) = Some zero.
  Definition tidy (q : queue) : Prop := cap q / 2 < size q \/ bare q.

  Lemma grow_tidy q l q' : Rel q l -> tidy q -> grow zero q = Some q' -> tidy q'.
  Proof.
    intros (H1 & H2 & H3 & H4 & H5 & H6 & H7) T. unfold grow. destruct (Nat.leb_spec (cap q) (size q)) as [Hge|Hge]; [|intros [= <-]; exact T].
    destruct (slice (data q) (start q) (length (data q))) as [s1|] eqn:S1; [|discriminate]. apply slice_nth in S1 as (S1a & S1b & S1c).
    destruct (copy_at_nth (repeat zero (cap q * 2)) 0 s1) as (g1 & G1 & G1l & G1n); [rewrite repeat_length; lia|]. rewrite G1.
    destruct (slice (data q) 0 (start q)) as [s2|] eqn:S2; [|discriminate]. apply slice_nth in S2 as (S2a & S2b & S2c). rewrite repeat_length in G1l.
    destruct (copy_at_nth g1 (cap q - start q) s2) as (g2 & G2 & G2l & G2n); [lia|]. rewrite G2. intros [= <-]. right. intros i Hi. cbn [size cap start data] in *.
    replace (ix (cap q * 2) 0 i) with i by (ixs; lia). rewrite G2n. destruct (Nat.leb_spec (cap q - start q) i); [|lia]. cbn [andb].
    destruct (Nat.ltb_spec i (cap q - start q + length s2)); [lia|]. rewrite G1n. cbn [Nat.leb andb]. destruct (Nat.ltb_spec i (0 + length s1)); [lia|].
    apply nth_error_repeat_lt. lia.
  Qed.
  Lemma slimming_tidy q l q' : Rel q l -> size q < cap q -> slimming zero q = Some q' -> tidy q'.
  Proof.
    intros (H1 & H2 & H3 & H4 & H5 & H6 & H7) Hlt. unfold slimming. destruct (Nat.leb_spec (size q) (cap q / 2)) as [Hle|Hle]; [|intros [= <-]; left; exact Hle].
    set (cap' := cap q - cap q / 4). assert (Hc : size q < cap') by (unfold cap'; lia). destruct (Nat.ltb_spec (end_ q) (start q)) as [Ew|Ew].
    - destruct (slice (data q) (start q) (length (data q))) as [s1|] eqn:S1; [|discriminate]. apply slice_nth in S1 as (S1a & S1b & S1c).
      assert (Hw : size q = cap q - start q + end_ q) by (clear - H1 H3 H5 Ew Hlt; ixs; lia).
      destruct (copy_at_nth (repeat zero cap') 0 s1) as (g1 & G1 & G1l & G1n); [rewrite repeat_length; lia|]. rewrite G1.
      destruct (slice (data q) 0 (end_ q)) as [s2|] eqn:S2; [|discriminate]. apply slice_nth in S2 as (S2a & S2b & S2c). rewrite repeat_length in G1l.
      destruct (copy_at_nth g1 (cap q - start q) s2) as (g2 & G2 & G2l & G2n); [lia|]. rewrite G2. intros [= <-]. right. intros i Hi. cbn [size cap start data] in *.
      replace (ix cap' 0 i) with i by (clearbody cap'; ixs; lia). rewrite G2n. destruct (Nat.leb_spec (cap q - start q) i); [|lia]. cbn [andb].
      destruct (Nat.ltb_spec i (cap q - start q + length s2)); [lia|]. rewrite G1n. cbn [Nat.leb andb]. destruct (Nat.ltb_spec i (0 + length s1)); [lia|].
      apply nth_error_repeat_lt. lia.
    - assert (Hw : end_ q = start q + size q) by (clear - H1 H3 H5 Ew Hlt; ixs; lia).
      destruct (slice (data q) (start q) (end_ q)) as [s1|] eqn:S1; [|discriminate]. apply slice_nth in S1 as (S1a & S1b & S1c).
      destruct (copy_at_nth (repeat zero cap') 0 s1) as (g1 & G1 & G1l & G1n); [rewrite repeat_length; lia|]. rewrite G1. intros [= <-]. right. intros i Hi. cbn [size cap start data] in *.
      replace (ix cap' 0 i) with i by (clearbody cap'; ixs; lia). rewrite G1n. cbn [Nat.leb andb]. destruct (Nat.ltb_spec i (0 + length s1)); [lia|].
      apply nth_error_repeat_lt. lia.
  Qed.
  Lemma step_tidy q l o q' r : Rel q l -> tidy q -> step zero q o = Some (q', r) -> tidy q'.
  Proof.
    intros HR T. pose proof HR as (H1 & H2 & H3 & H4 & H5 & H6 & H7). destruct o; cbn [step].
    - unfold pushBack. destruct (grow_rel zero q l HR) as (g & Eg & HRg & Hlt & Hs). pose proof (grow_tidy q l g HR T Eg) as Tg. rewrite Eg.
      destruct HRg as (G1 & G2 & G3 & G4 & G5 & G6 & G7). rewrite put_at_ok by (ixs; lia). intros [= <- _].
      destruct Tg as [Tg|Tg]; [left; cbn [size cap]; lia|]. right. intros i Hi. cbn [size cap start data] in *.
      rewrite nth_error_list_set_neq; [apply Tg; lia|]. rewrite G5. clear - Hi G3 Hlt. ixs; lia.
    - unfold pushFront. destruct (grow_rel zero q l HR) as (g & Eg & HRg & Hlt & Hs). pose proof (grow_tidy q l g HR T Eg) as Tg. rewrite Eg.
      destruct HRg as (G1 & G2 & G3 & G4 & G5 & G6 & G7). set (s := if start g =? 0 then cap g - 1 else start g - 1).
      assert (Hss : s < cap g) by (unfold s; destruct (Nat.eqb_spec (start g) 0); lia). rewrite put_at_ok by lia. intros [= <- _].
      destruct Tg as [Tg|Tg]; [left; cbn [size cap]; lia|]. right. intros i Hi. cbn [size cap start data] in *.
      assert (Hix : ix (cap g) s i = ix (cap g) (start g) (i - 1)).
      { unfold s, ix. destruct (Nat.eqb_spec (start g) 0); repeat match goal with |- context[?a <? ?b] => destruct (Nat.ltb_spec a b) end; lia. }
      rewrite nth_error_list_set_neq; [rewrite Hix; apply Tg; lia|]. clearbody s. clear - Hi Hss. ixs; lia.
    - unfold popBack. destruct (Nat.eqb_spec (size q) 0) as [E0|E0]; [intros [= <- _]; exact T|].
      set (e := if end_ q =? 0 then cap q - 1 else end_ q - 1).
      assert (He : e = ix (cap q) (start q) (size q - 1)) by (unfold e; destruct (Nat.eqb_spec (end_ q) 0); ixs; lia).
      destruct (nth_error (data q) e) as [x|]; [|discriminate].
      match goal with |- context[slimming zero ?q0] => destruct (slimming zero q0) as [q1|] eqn:Es; [|discriminate] end. intros [= <- _].
      apply (slimming_tidy _ (removelast l)) in Es; [exact Es| |cbn [size cap]; lia].
      unfold Rel; cbn [size cap start data end_]. rewrite removelast_length. repeat split; try lia.
      intros i Hi. rewrite removelast_nth by lia. apply H7; lia.
    - unfold popFront. destruct (Nat.eqb_spec (size q) 0) as [E0|E0]; [intros [= <- _]; exact T|].
      destruct (nth_error (data q) (start q)) as [x|]; [|discriminate].
      match goal with |- context[slimming zero ?q0] => destruct (slimming zero q0) as [q1|] eqn:Es; [|discriminate] end. intros [= <- _].
      apply (slimming_tidy _ (tl l)) in Es; [exact Es| |cbn [size cap]; lia].
      destruct l as [|y l]; [cbn in H6; lia|]. cbn [tl]. unfold Rel; cbn [size cap start data end_]. cbn [length] in H6. repeat split; try lia; try (ixs; lia).
      intros i Hi. specialize (H7 (S i)). cbn [nth_error] in H7. rewrite <- H7 by lia. f_equal.
      unfold ix. destruct (Nat.leb_spec (cap q) (start q + 1)); repeat match goal with |- context[?a <? ?b] => destruct (Nat.ltb_spec a b) end; lia.
    - intros [= <- _]. exact T.
    - destruct (index q _); intros [= <- _]; exact T.
    - destruct (values q); [|discriminate]. intros [= <- _]. exact T.
    - destruct (traverse q f); [|discriminate]. intros [= <- _]. exact T.
  Qed.
  Lemma reach_tidy ops : forall (q : queue) (l : list A), Rel q l -> tidy q -> exists q' : queue, reach (step zero) q ops = Some q' /\ Rel q' (sreach queue_spec l ops) /\ tidy q'.
  Proof.
    induction ops as [|o ops IH]; intros q l HR T; [exists q; auto|]. destruct (step_rel zero q l o HR) as (q' & Es & HR'). cbn [reach sreach]. rewrite Es.
    apply IH; [exact HR'|]. exact (step_tidy q l o q' _ HR T Es).
  Qed.

  Lemma rotated (q : queue) l : Rel q l -> exists rest, Permutation (data q) (l ++ rest) /\ length rest = cap q - size q /\
    forall i, i < cap q - size q -> nth_error rest i = nth_error (data q) (ix (cap q) (start q) (size q + i)).
  Proof.
    intros (H1 & H2 & H3 & H4 & H5 & H6 & H7). set (rot := skipn (start q) (data q) ++ firstn (start q) (data q)).
    assert (Hrot : forall i, i < cap q -> nth_error rot i = nth_error (data q) (ix (cap q) (start q) i)).
    { intros i Hi. unfold rot. assert (Hl : length (skipn (start q) (data q)) = cap q - start q) by (rewrite skipn_length; lia).
      unfold ix. destruct (Nat.ltb_spec (start q + i) (cap q)).
      - rewrite nth_error_app1 by lia. apply nth_error_skipn_add.
      - rewrite nth_error_app2 by lia. rewrite Hl, nth_error_firstn_lt by lia. f_equal. lia. }
    assert (Hlen : length rot = cap q) by (unfold rot; rewrite app_length, skipn_length, firstn_length; lia).
    assert (Hfirst : firstn (size q) rot = l).
    { apply nth_ext with (d := zero) (d' := zero); rewrite firstn_length, Hlen; [lia|]. intros i Hi. apply nth_error_nth. rewrite nth_error_firstn_lt by lia.
      rewrite Hrot, H7 by lia. apply nth_error_nth'. lia. }
    exists (skipn (size q) rot). split; [|split].
    - rewrite <- Hfirst at 1. rewrite firstn_skipn. unfold rot. rewrite Permutation_app_comm, firstn_skipn. reflexivity.
    - rewrite skipn_length. lia.
    - intros i Hi. rewrite nth_error_skipn_add. apply Hrot. lia.
  Qed.
  Lemma queue_slots ops : exists q rest, reach (step zero) (new zero) ops = Some q /\ Permutation (data q) (sreach queue_spec [] ops ++ rest) /\
    (Forall (eq zero) rest \/ length rest < length (sreach queue_spec [] ops)).
  Proof.
    destruct (reach_tidy ops (new zero) []) as (q & Er & HR & T).
    - apply new_rel.
    - right. intros i Hi. cbn [size cap start data new] in *. replace (ix 8 0 i) with i by (ixs; lia). apply nth_error_repeat_lt. lia.
    - destruct (rotated q _ HR) as (rest & P & Hl & Hn). exists q, rest. split; [exact Er|]. split; [exact P|]. destruct HR as (H1 & _ & _ & H4 & _ & H6 & _).
      destruct T as [T|T]; [right; lia|]. left. apply Forall_forall. intros x Hx. apply In_nth_error in Hx as (i & Hi).
      assert (i < length rest) by (apply nth_error_Some; congruence). rewrite Hn in Hi by lia. rewrite T in Hi by lia. congruence.
  Qed.
End P.
