(** C44, C45: the Bloom filter. *)
From Verif Require Import Base Bind Machine Slice BloomSpec BloomModel.
Local Open Scope Z_scope.

Definition bit_set (b : list Z) (p : Z) : Prop :=
  exists w, nth_error b (Z.to_nat (p / 8)) = Some w /\ Z.testbit w (p mod 8) = true.

Lemma NoDup_map_in {X Y} (f : X -> Y) l : (forall x y, In x l -> In y l -> f x = f y -> x = y) -> NoDup l -> NoDup (map f l).
Proof.
  intros Hf H. induction H as [|x l Hx H IH]; cbn [map]; constructor.
  - intros Hi. apply in_map_iff in Hi as (y & E & Hy). apply Hx. rewrite (Hf x y (or_introl eq_refl) (or_intror Hy) (eq_sym E)). exact Hy.
  - apply IH. intros a b Ha Hb. apply Hf; now right.
Qed.

Section P.
  Context (n : Z) (Hn : 1 <= n <= 2 ^ 64 - 8).
  Definition Rel (bl : bloom) (added : list (list Z)) : Prop :=
    hs bl = h_new /\ cap bl = slots n /\ Z.of_nat (length (bits bl)) = (n + 7) / 8 /\
    (forall p, 0 <= p < slots n -> (bit_set (bits bl) p <-> In p (map (slot n) added))) /\
    hitSize bl = used n added.

  Lemma slots_pos : 8 <= slots n <= 2 ^ 64 - 8.
  Proof. unfold slots. pose proof (Z.div_mod (n + 7) 8). pose proof (Z.mod_pos_bound (n + 7) 8). lia. Qed.
  Lemma slot_range k : 0 <= slot n k < slots n.
  Proof. unfold slot. apply Z.mod_pos_bound. pose proof slots_pos. lia. Qed.
  Lemma used_bound added : 0 <= used n added <= slots n.
  Proof.
    unfold used. split; [lia|]. pose proof slots_pos.
    assert (H1 : NoDup (map Z.to_nat (nodup Z.eq_dec (map (slot n) added)))).
    { apply NoDup_map_in; [|apply NoDup_nodup].
      intros x y Hx Hy E. apply nodup_In in Hx, Hy. apply in_map_iff in Hx as (a & <- & _). apply in_map_iff in Hy as (b & <- & _).
      pose proof (slot_range a). pose proof (slot_range b). lia. }
    assert (H2 : incl (map Z.to_nat (nodup Z.eq_dec (map (slot n) added))) (seq 0 (Z.to_nat (slots n)))).
    { intros x Hx. apply in_map_iff in Hx as (y & <- & Hy). apply nodup_In in Hy. apply in_map_iff in Hy as (a & <- & _).
      pose proof (slot_range a). apply in_seq. lia. }
    pose proof (NoDup_incl_length H1 H2) as H3. rewrite map_length, seq_length in H3. lia.
  Qed.

  Lemma new_rel : Rel (new n) [].
  Proof.
    unfold new. rewrite Z.mod_small by lia. rewrite Z.shiftr_div_pow2 by lia. change (2 ^ 3) with 8.
    pose proof slots_pos. pose proof (Z.div_pos (n + 7) 8). split; [reflexivity|]. split.
    { cbn [cap]. rewrite Z.shiftl_mul_pow2 by lia. change (2 ^ 3) with 8. unfold slots in *. rewrite Z.mod_small; lia. }
    cbn [bits]. rewrite repeat_length. split; [lia|]. split; [|reflexivity].
    intros p Hp. split; [|intros []]. intros (w & E & Hw). apply nth_error_In in E. apply repeat_spec in E. subst w.
    now rewrite Z.testbit_0_l in Hw.
  Qed.

  Lemma one_bit (p : Z) : 0 <= p -> Z.shiftl 1 (p mod 8) mod 256 = 2 ^ (p mod 8).
  Proof.
    intros Hp. pose proof (Z.mod_pos_bound p 8). rewrite Z.shiftl_mul_pow2 by lia. rewrite Z.mul_1_l. apply Z.mod_small.
    split; [apply Z.pow_nonneg; lia|]. change 256 with (2 ^ 8). apply Z.pow_lt_mono_r; lia.
  Qed.
  Lemma land_pow2 w j : 0 <= j -> negb (Z.land w (2 ^ j) =? 0) = Z.testbit w j.
  Proof.
    intros Hj. destruct (Z.testbit w j) eqn:E.
    - apply negb_true_iff, Z.eqb_neq. intros H. assert (Hb : Z.testbit (Z.land w (2 ^ j)) j = true).
      { rewrite Z.land_spec, E, Z.pow2_bits_true by lia. reflexivity. }
      rewrite H, Z.testbit_0_l in Hb. discriminate.
    - apply negb_false_iff, Z.eqb_eq. apply Z.bits_inj'. intros i Hi. rewrite Z.land_spec, Z.testbit_0_l.
      destruct (Z.eq_dec i j) as [->|Hne]; [now rewrite E|]. rewrite (Z.pow2_bits_false j i) by lia. apply andb_false_r.
  Qed.
  Lemma byte_of_slot bl added p : Rel bl added -> 0 <= p < slots n ->
    exists w, nth_error (bits bl) (Z.to_nat (Z.shiftr p 3)) = Some w /\ Z.to_nat (Z.shiftr p 3) = Z.to_nat (p / 8) /\
      (Z.testbit w (p mod 8) = true <-> In p (map (slot n) added)).
  Proof.
    intros (_ & _ & Hl & Hb & _) Hp. rewrite Z.shiftr_div_pow2 by lia. change (2 ^ 3) with 8.
    destruct (nth_error (bits bl) (Z.to_nat (p / 8))) as [w|] eqn:E.
    - exists w. split; [reflexivity|]. split; [reflexivity|]. rewrite <- (Hb p Hp). unfold bit_set. rewrite E. split.
      + intros H. eauto.
      + intros (w' & [= <-] & H). exact H.
    - exfalso. apply nth_error_None in E. unfold slots in Hp.
      assert (p / 8 < (n + 7) / 8) by (apply Z.div_lt_upper_bound; lia). pose proof (Z.div_pos p 8). lia.
  Qed.
  Lemma hit_in added key : hit n added key = true <-> In (slot n key) (map (slot n) added).
  Proof.
    unfold hit. rewrite existsb_exists, in_map_iff. split; intros (k & H1 & H2).
    - apply Z.eqb_eq in H2. eauto.
    - exists k. split; [assumption|]. now apply Z.eqb_eq.
  Qed.

  Lemma contains_ok bl added key : Rel bl added -> containsBytes bl key = Some (bl, hit n added key).
  Proof.
    intros HR. pose proof HR as (Eh & Ec & Hl & Hb & Es). pose proof slots_pos. pose proof (slot_range key) as Hs.
    unfold containsBytes. rewrite Eh, Ec. destruct (Z.eqb_spec (slots n) 0); [lia|].
    change (h_write h_new key) with (fnv1_64 key). fold (slot n key).
    destruct (byte_of_slot bl added _ HR Hs) as (w & -> & _ & Hw). rewrite one_bit by lia.
    rewrite land_pow2 by (apply Z.mod_pos_bound; lia). rewrite <- Eh, <- Ec.
    replace (Z.testbit w (slot n key mod 8)) with (hit n added key); [destruct bl; reflexivity|].
    apply eq_true_iff_eq. rewrite hit_in. symmetry. exact Hw.
  Qed.
  Lemma add_ok bl added key : Rel bl added ->
    exists bl', addBytes bl key = Some (bl', hit n added key) /\ Rel bl' (key :: added).
  Proof.
    intros HR. pose proof HR as (Eh & Ec & Hl & Hb & Es). pose proof slots_pos. pose proof (slot_range key) as Hs.
    unfold addBytes. rewrite Eh, Ec. destruct (Z.eqb_spec (slots n) 0); [lia|].
    change (h_write h_new key) with (fnv1_64 key). fold (slot n key).
    destruct (byte_of_slot bl added _ HR Hs) as (w & E & Ep & Hw). rewrite E. rewrite one_bit by lia.
    pose proof (Z.mod_pos_bound (slot n key) 8) as Hm.
    rewrite land_pow2 by lia.
    replace (Z.testbit w (slot n key mod 8)) with (hit n added key) in * by (apply eq_true_iff_eq; rewrite hit_in; symmetry; exact Hw).
    assert (Hlt : (Z.to_nat (Z.shiftr (slot n key) 3) < length (bits bl))%nat) by (apply nth_error_Some; congruence).
    rewrite put_at_ok by assumption. eexists; split; [reflexivity|].
    split; [reflexivity|]. split; [reflexivity|]. cbn [bits]. rewrite list_set_length. split; [assumption|]. split.
    - intros p Hp. cbn [map In]. rewrite <- (Hb p Hp). unfold bit_set. rewrite Ep in *.
      destruct (Nat.eq_dec (Z.to_nat (slot n key / 8)) (Z.to_nat (p / 8))) as [Ei|Ei].
      + rewrite <- Ei. rewrite nth_error_list_set_eq by assumption. rewrite E.
        assert (Hq : slot n key / 8 = p / 8).
        { pose proof (Z.div_pos p 8). pose proof (Z.div_pos (slot n key) 8). lia. }
        pose proof (Z.mod_pos_bound p 8).
        pose proof (Z.div_mod p 8). pose proof (Z.div_mod (slot n key) 8). split.
        * intros (w' & [= <-] & Hb'). rewrite Z.lor_spec in Hb'. apply orb_true_iff in Hb' as [Hb'|Hb']; [right; eauto|].
          left. destruct (Z.eq_dec (slot n key mod 8) (p mod 8)) as [Em|Em]; [lia|].
          rewrite Z.pow2_bits_false in Hb' by lia. discriminate.
        * intros Hor. eexists; split; [reflexivity|]. rewrite Z.lor_spec. apply orb_true_iff. destruct Hor as [->|(w' & [= <-] & Hb')].
          -- right. apply Z.pow2_bits_true. lia.
          -- left; assumption.
      + rewrite nth_error_list_set_neq by auto. split; [auto|]. intros [Ek|H']; [|exact H'].
        exfalso. apply Ei. now rewrite Ek.
    - cbn [hitSize]. unfold used. cbn [map]. rewrite Es. unfold used. cbn [nodup].
      destruct (in_dec Z.eq_dec (slot n key) (map (slot n) added)) as [Hi|Hi].
      + apply hit_in in Hi. rewrite Hi. reflexivity.
      + destruct (hit n added key) eqn:Eq; [apply hit_in in Eq; contradiction|]. cbn [length].
        assert (HR' : 0 <= used n (key :: added) <= slots n) by apply used_bound. unfold used in HR'. cbn [map nodup] in HR'.
        destruct (in_dec Z.eq_dec (slot n key) (map (slot n) added)); [contradiction|]. cbn [length] in HR'.
        rewrite Z.mod_small by lia. lia.
  Qed.

  Lemma reset_loop_ok fuel : forall b bp, (1 <= bp)%nat -> (length b < fuel + bp)%nat -> (1 <= fuel)%nat ->
    (forall i, (i < bp)%nat -> (i < length b)%nat -> nth_error b i = Some 0) ->
    exists b', reset_loop fuel b bp = Some b' /\ length b' = length b /\
      forall i, (i < length b)%nat -> nth_error b' i = Some 0.
  Proof.
    induction fuel as [|fuel IH]; intros b bp Hbp Hf Hf1 H; [lia|]. cbn [reset_loop].
    destruct (Nat.ltb_spec bp (length b)) as [Hlt|Hge].
    - destruct (slice_ok b 0 bp) as [Es El]; [lia|lia|]. rewrite Es.
      assert (Hs : forall i, (i < bp)%nat -> nth_error (firstn (bp - 0) (skipn 0 b)) i = Some 0).
      { intros i Hi. rewrite skipn_O, Nat.sub_0_r, nth_error_firstn_lt by lia. apply H; lia. }
      set (src := firstn (bp - 0) (skipn 0 b)) in *. unfold copy_at.
      destruct (Nat.leb_spec bp (length b)); [|lia].
      assert (Hlen : length (firstn bp b ++ firstn (length b - bp) src ++ skipn (bp + length src) b) = length b).
      { rewrite !app_length, !firstn_length, skipn_length. lia. }
      destruct (IH (firstn bp b ++ firstn (length b - bp) src ++ skipn (bp + length src) b) (bp * 2)%nat) as (b' & E & El' & Hz).
      + lia.
      + lia.
      + lia.
      + rewrite Hlen. intros i Hi Hi2. destruct (Nat.lt_ge_cases i bp) as [Hib|Hib].
        * rewrite nth_error_app1 by (rewrite firstn_length; lia). rewrite nth_error_firstn_lt by lia. apply H; lia.
        * rewrite nth_error_app2 by (rewrite firstn_length; lia). rewrite firstn_length. replace (Nat.min bp (length b)) with bp by lia.
          rewrite nth_error_app1 by (rewrite firstn_length; lia). rewrite nth_error_firstn_lt by lia. apply Hs. lia.
      + rewrite E. exists b'. rewrite Hlen in *. auto.
    - exists b. split; [reflexivity|]. split; [reflexivity|]. intros i Hi. apply H; lia.
  Qed.
  Lemma reset_ok bl added : Rel bl added -> exists bl', reset bl = Some bl' /\ Rel bl' [].
  Proof.
    intros (Eh & Ec & Hl & Hb & Es). unfold reset. pose proof slots_pos as Hsp. unfold slots in Hsp.
    destruct (bits bl) as [|w ws] eqn:Ebits; [cbn [length] in Hl; lia|]. rewrite <- Ebits in *.
    assert (Hlt : (0 < length (bits bl))%nat) by lia. rewrite put_at_ok by assumption.
    destruct (reset_loop_ok (S (length (list_set (bits bl) 0 0))) (list_set (bits bl) 0 0) 1) as (b' & -> & El & Hz); try lia.
    { intros i Hi _. replace i with 0%nat by lia. now apply nth_error_list_set_eq. }
    rewrite list_set_length in *. eexists; split; [reflexivity|].
    split; [assumption|]. split; [assumption|]. cbn [bits]. split; [lia|]. split; [|reflexivity].
    intros p Hp. split; [|intros []]. intros (x & E & Hx).
    assert (Hi : (Z.to_nat (p / 8) < length b')%nat) by (apply nth_error_Some; congruence).
    rewrite El in Hi. rewrite (Hz _ Hi) in E. injection E as <-. now rewrite Z.testbit_0_l in Hx.
  Qed.

  Lemma step_ok {K} (enc : K -> option (list Z)) bl added o : encodable enc o -> Rel bl added ->
    exists bl', step enc bl o = Some (bl', snd (bloom_spec enc n added o)) /\ Rel bl' (fst (bloom_spec enc n added o)).
  Proof.
    intros He HR. destruct o; cbn [step bloom_spec fst snd encodable] in *.
    - destruct (add_ok bl added key HR) as (bl' & -> & HR'). eauto.
    - rewrite (contains_ok bl added key HR). eauto.
    - unfold add, bytes_of. destruct (enc k) as [b|]; [|congruence]. destruct (add_ok bl added b HR) as (bl' & -> & HR'). eauto.
    - unfold contains, bytes_of. destruct (enc k) as [b|]; [|congruence]. rewrite (contains_ok bl added b HR). eauto.
    - destruct (reset_ok bl added HR) as (bl' & -> & HR'). eauto.
    - pose proof HR as (_ & -> & _). eauto.
    - pose proof HR as (_ & _ & _ & _ & ->). eauto.
  Qed.
  Lemma run_ok {K} (enc : K -> option (list Z)) ops : forall bl added, Forall (encodable enc) ops -> Rel bl added ->
    run (step enc) bl ops = Some (srun (bloom_spec enc n) added ops) /\
    exists bl', reach (step enc) bl ops = Some bl' /\ Rel bl' (sreach (bloom_spec enc n) added ops).
  Proof.
    induction ops as [|o ops IH]; intros bl added He HR; cbn [run srun reach sreach]; [eauto|].
    inversion He as [|? ? H1 H2]; subst. destruct (step_ok enc bl added o H1 HR) as (bl' & -> & HR').
    destruct (bloom_spec enc n added o) as [a r] eqn:E. cbn [fst snd] in *.
    destruct (IH bl' a H2 HR') as [-> H]. split; [reflexivity|]. exact H.
  Qed.
End P.

(** C44.  For every size from 1 bit up (and below 2^64 - 8, the largest multiple of a byte), every sequence of calls
    answers exactly as the set of keys added since the last Reset says: Contains is true when some added key has the same
    slot, Add answers what Contains would have before, HitSize is the number of different slots in use. *)
Theorem C44_bloom_exact : forall (K : Type) (enc : K -> option (list Z)) (n : Z), 1 <= n <= 2 ^ 64 - 8 ->
  forall ops, Forall (encodable enc) ops -> run (step enc) (new n) ops = Some (srun (bloom_spec enc n) [] ops).
Proof. intros K enc n Hn ops He. apply (run_ok n Hn); [assumption|]. now apply new_rel. Qed.
Print Assumptions C44_bloom_exact.

(** No false negatives: once a key is added, every Contains of it, before the next Reset, says true. *)
Lemma hit_mono n added a key : hit n added key = true -> hit n (a :: added) key = true.
Proof. unfold hit. cbn [existsb]. intros ->. apply orb_true_r. Qed.
Lemma hit_self n added key : hit n (key :: added) key = true.
Proof. unfold hit. cbn [existsb]. now rewrite Z.eqb_refl. Qed.
Theorem C44_no_false_negatives : forall (K : Type) (enc : K -> option (list Z)) (n : Z), 1 <= n <= 2 ^ 64 - 8 ->
  forall before key between bl, Forall (encodable enc) (before ++ BAddBytes key :: between) -> ~ In BReset between ->
  reach (step enc) (new n) (before ++ BAddBytes key :: between) = Some bl -> containsBytes bl key = Some (bl, true).
Proof.
  intros K enc n Hn before key between bl He Hr E.
  destruct (run_ok n Hn enc _ (new n) [] He (new_rel n Hn)) as (_ & bl' & E' & HR).
  assert (bl' = bl) by congruence. subst bl'. rewrite (contains_ok n Hn bl _ key HR). f_equal. f_equal.
  assert (Hmid : forall t, hit n t key = true -> hit n (sreach (bloom_spec enc n) t between) key = true).
  { clear - Hr. induction between as [|o l IH]; intros t Ht; cbn [sreach]; [assumption|].
    assert (Hr' : ~ In BReset l) by (intros Hi; apply Hr; right; exact Hi). apply (IH Hr').
    destruct o; cbn [bloom_spec fst]; auto using hit_mono. exfalso. apply Hr. left. reflexivity. }
  assert (Happ : forall l1 l2 t, sreach (bloom_spec enc n) t (l1 ++ l2) = sreach (bloom_spec enc n) (sreach (bloom_spec enc n) t l1) l2).
  { induction l1 as [|o l1 IH]; intros l2 t; cbn [app sreach]; auto. }
  rewrite Happ. cbn [sreach]. apply Hmid. apply hit_self.
Qed.
Print Assumptions C44_no_false_negatives.

(** The hit counter is the number of bits set in the array, and the array has exactly the advertised capacity. *)
Definition is_set (b : list Z) (p : nat) : bool :=
  match nth_error b (p / 8) with Some w => Z.testbit w (Z.of_nat p mod 8) | None => false end.
Theorem C44_hit_counter : forall (K : Type) (enc : K -> option (list Z)) (n : Z), 1 <= n <= 2 ^ 64 - 8 ->
  forall ops bl, Forall (encodable enc) ops -> reach (step enc) (new n) ops = Some bl ->
  cap bl = Z.of_nat (8 * length (bits bl)) /\
  hitSize bl = Z.of_nat (length (filter (is_set (bits bl)) (seq 0 (8 * length (bits bl))))).
Proof.
  intros K enc n Hn ops bl He E.
  destruct (run_ok n Hn enc _ (new n) [] He (new_rel n Hn)) as (_ & bl' & E' & HR).
  assert (bl' = bl) by congruence. subst bl'. set (added := sreach _ _ _) in HR.
  destruct HR as (_ & Ec & Hl & Hb & Es). assert (Hcap : slots n = Z.of_nat (8 * length (bits bl))) by (unfold slots; lia).
  split; [congruence|]. rewrite Es. unfold used. f_equal. rewrite <- (map_length Z.to_nat (nodup Z.eq_dec (map (slot n) added))).
  apply Permutation_length. apply NoDup_Permutation.
  - apply NoDup_map_in; [|apply NoDup_nodup].
    intros x y Hx Hy Exy. apply nodup_In in Hx, Hy. apply in_map_iff in Hx as (a & <- & _). apply in_map_iff in Hy as (b & <- & _).
    pose proof (slot_range n Hn a). pose proof (slot_range n Hn b). lia.
  - apply NoDup_filter, seq_NoDup.
  - assert (Hset : forall p, 0 <= p < slots n -> (is_set (bits bl) (Z.to_nat p) = true <-> In p (map (slot n) added))).
    { intros p Hp. rewrite <- (Hb p Hp). unfold is_set, bit_set. rewrite Z2Nat.id by lia.
      replace (Z.to_nat p / 8)%nat with (Z.to_nat (p / 8)) by (rewrite Z2Nat.inj_div by lia; reflexivity).
      destruct (nth_error (bits bl) (Z.to_nat (p / 8))) as [w|]; split.
      - eauto.
      - intros (w' & [= <-] & H). exact H.
      - discriminate.
      - intros (w' & H & _). discriminate. }
    intros x. rewrite filter_In, in_seq, in_map_iff. split.
    + intros (p & <- & Hp). apply nodup_In in Hp. pose proof Hp as Hp'. apply in_map_iff in Hp' as (a & Ea & _).
      pose proof (slot_range n Hn a). rewrite Ea in *. split; [lia|]. apply Hset; assumption.
    + intros (H1 & H2). exists (Z.of_nat x). split; [lia|]. apply nodup_In. apply Hset; [lia|]. now rewrite Nat2Z.id.
Qed.
Print Assumptions C44_hit_counter.

(** a filter of 10 bits (2 bytes), byte keys and 16-bit keys *)
Definition enc16 (k : nat) : option (list Z) := Some [Z.of_nat k / 256; Z.of_nat k mod 256].
Example C44_case : run (step enc16) (new 10)
    [BAdd 1%nat; BAddBytes [0; 1]; BContains 1%nat; BContains 2%nat; BAdd 2%nat; BAdd 3%nat; BHitSize; BCap; BReset; BContains 1%nat; BHitSize] =
  Some [BBool false; BBool true; BBool true; BBool false; BBool false; BBool false; BNum 3; BNum 16; BUnit; BBool false; BNum 0].
Proof. vm_compute. reflexivity. Qed.
(** outside the hypothesis: a filter of no bits panics (division by zero) at the first call *)
Example new_zero_panics : run (step enc16) (new 0) [BContains 1%nat] = None.
Proof. reflexivity. Qed.

(** C45 is false: whatever filter is encoded, the decoded one has no bits at all, so it panics at the first query (this
    holds for Decode into any filter, and for NewByDecode). *)
Lemma push_byte x : x / 256 * 256 + x mod 256 = x.
Proof. pose proof (Z.div_mod x 256). lia. Qed.
Lemma unbe64_be64 x : 0 <= x < 2 ^ 64 -> unbe64 (be64 x) = x.
Proof.
  intros Hx. set (g := fun i : Z => Z.shiftr x (8 * i) mod 256).
  change (unbe64 (be64 x)) with
    ((((((((0 * 256 + g 7) * 256 + g 6) * 256 + g 5) * 256 + g 4) * 256 + g 3) * 256 + g 2) * 256 + g 1) * 256 + g 0).
  assert (H0 : forall i, 0 <= i -> Z.shiftr x (8 * (i + 1)) = Z.shiftr x (8 * i) / 256).
  { intros i Hi. rewrite !Z.shiftr_div_pow2 by lia. rewrite Z.div_div by (try apply Z.pow_nonzero; lia).
    f_equal. change 256 with (2 ^ 8). rewrite <- Z.pow_add_r by lia. f_equal. lia. }
  assert (Hg : forall i, 0 <= i -> Z.shiftr x (8 * (i + 1)) * 256 + g i = Z.shiftr x (8 * i)).
  { intros i Hi. rewrite H0 by assumption. apply push_byte. }
  assert (H7 : 0 * 256 + g 7 = Z.shiftr x (8 * 7)).
  { unfold g. rewrite Z.mod_small; [lia|]. rewrite Z.shiftr_div_pow2 by lia. split; [apply Z.div_pos; lia|].
    apply Z.div_lt_upper_bound; [lia|]. change (2 ^ (8 * 7) * 256) with (2 ^ 64). lia. }
  rewrite H7. pose proof (Hg 6 ltac:(lia)) as G6. pose proof (Hg 5 ltac:(lia)) as G5. pose proof (Hg 4 ltac:(lia)) as G4.
  pose proof (Hg 3 ltac:(lia)) as G3. pose proof (Hg 2 ltac:(lia)) as G2. pose proof (Hg 1 ltac:(lia)) as G1.
  pose proof (Hg 0 ltac:(lia)) as G0. clear - G6 G5 G4 G3 G2 G1 G0.
  change (6 + 1) with 7 in G6. change (5 + 1) with 6 in G5. change (4 + 1) with 5 in G4. change (3 + 1) with 4 in G3.
  change (2 + 1) with 3 in G2. change (1 + 1) with 2 in G1. change (0 + 1) with 1 in G0. clearbody g.
  rewrite G6, G5, G4, G3, G2, G1, G0. apply Z.shiftr_0_r.
Qed.
Lemma be64_length x : length (be64 x) = 8%nat.
Proof. unfold be64. now rewrite map_length, seq_length. Qed.
Lemma decode_encode bl bl' : 0 <= hitSize bl < 2 ^ 64 -> 0 <= cap bl < 2 ^ 64 ->
  decode bl' (encode bl) = BL [] (hitSize bl) (cap bl) (hs bl') /\ newByDecode (encode bl) = BL [] (hitSize bl) (cap bl) h_new.
Proof.
  intros H1 H2. unfold decode, newByDecode, read_slice, encode. cbn [firstn length].
  assert (E1 : firstn 8 (be64 (hitSize bl) ++ be64 (cap bl) ++ bits bl) = be64 (hitSize bl)).
  { rewrite firstn_app, be64_length, Nat.sub_diag. cbn [firstn]. rewrite app_nil_r. apply firstn_all2. now rewrite be64_length. }
  assert (E2 : firstn 8 (skipn 8 (be64 (hitSize bl) ++ be64 (cap bl) ++ bits bl)) = be64 (cap bl)).
  { rewrite skipn_app, be64_length, Nat.sub_diag. rewrite skipn_all2 by (rewrite be64_length; lia). cbn [skipn app].
    rewrite firstn_app, be64_length, Nat.sub_diag. cbn [firstn]. rewrite app_nil_r. apply firstn_all2. now rewrite be64_length. }
  rewrite E1, E2, !unbe64_be64 by assumption. auto.
Qed.
Theorem C45_roundtrip_refuted : exists (K : Type) (enc : K -> option (list Z)) n ops bl,
  1 <= n <= 2 ^ 64 - 8 /\ reach (step enc) (new n) ops = Some bl /\
  (forall key, containsBytes bl key <> None) /\
  (forall key, containsBytes (newByDecode (encode bl)) key = None) /\
  (forall bl' key, containsBytes (decode bl' (encode bl)) key = None).
Proof.
  assert (He : Forall (encodable enc16) [BAdd 1%nat; BAdd 2%nat]) by (repeat constructor; discriminate).
  assert (Hn : 1 <= 64 <= 2 ^ 64 - 8) by lia.
  destruct (run_ok 64 Hn enc16 _ (new 64) [] He (new_rel 64 Hn)) as (_ & bl & E & HR).
  exists nat, enc16, 64, [BAdd 1%nat; BAdd 2%nat], bl. split; [lia|]. split; [exact E|].
  pose proof HR as (_ & Ec & _ & _ & Es). pose proof (slots_pos 64 Hn) as Hs. pose proof (used_bound 64 Hn [[0; 2]; [0; 1]]) as Hu.
  change (used 64 [[0; 2]; [0; 1]]) with (used 64 (sreach (bloom_spec enc16 64) [] [BAdd 1%nat; BAdd 2%nat])) in Hu.
  rewrite <- Es in Hu. rewrite <- Ec in Hs, Hu.
  assert (Hd : forall b, decode b (encode bl) = BL [] (hitSize bl) (cap bl) (hs b) /\ newByDecode (encode bl) = BL [] (hitSize bl) (cap bl) h_new)
    by (intros b; apply decode_encode; lia).
  assert (Hp : forall h c s key, containsBytes (BL [] h c s) key = None).
  { intros h c s key. unfold containsBytes. cbn [bits cap hs]. destruct (c =? 0); [reflexivity|].
    generalize (Z.to_nat (Z.shiftr (h_write s key mod c) 3)). intros [|k]; reflexivity. }
  split; [|split].
  - intros key. rewrite (contains_ok 64 Hn _ _ key HR). discriminate.
  - intros key. rewrite (proj2 (Hd bl)). apply Hp.
  - intros b key. rewrite (proj1 (Hd b)). apply Hp.
Qed.
Print Assumptions C45_roundtrip_refuted.
(** The general fact: no filter survives the round trip, only the two counters do.  (The full claim, that queries
    answer alike, is what is refuted above.) *)
Theorem C45_counters_only_partial : forall (K : Type) (enc : K -> option (list Z)) (n : Z), 1 <= n <= 2 ^ 64 - 8 ->
  forall ops bl bl', Forall (encodable enc) ops -> reach (step enc) (new n) ops = Some bl ->
  hitSize (decode bl' (encode bl)) = hitSize bl /\ cap (decode bl' (encode bl)) = cap bl /\
  hitSize (newByDecode (encode bl)) = hitSize bl /\ cap (newByDecode (encode bl)) = cap bl /\
  forall key, addBytes (newByDecode (encode bl)) key = None /\ containsBytes (newByDecode (encode bl)) key = None.
Proof.
  intros K enc n Hn ops bl bl' He E.
  destruct (run_ok n Hn enc _ (new n) [] He (new_rel n Hn)) as (_ & b & E' & HR).
  assert (b = bl) by congruence. subst b. destruct HR as (_ & Ec & _ & _ & Es). pose proof (slots_pos n Hn).
  pose proof (used_bound n Hn (sreach (bloom_spec enc n) [] ops)).
  destruct (decode_encode bl bl') as [-> ->]; [lia|lia|]. cbn [hitSize cap]. repeat (split; [reflexivity|]).
  intros key. unfold addBytes, containsBytes. cbn [bits cap]. rewrite Ec.
  destruct (Z.eqb_spec (slots n) 0); [lia|].
  match goal with |- context [nth_error [] ?k] => destruct k end; auto.
Qed.
Print Assumptions C45_counters_only_partial.
