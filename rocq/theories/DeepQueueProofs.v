(** Puts of 1, 0, 3, 2, 5, 4, ... make the tree of queue/priority half as deep as it is large: it stays one long right edge
    below at most two nodes with anything much to their left. *)
From Verif Require Import Base Bind Machine CompareModel AvlTree AvlSpec AvlModel IndexModel PrioSpec PrioModel PrioIterProofs.
Local Open Scope Z_scope.

Section Queue.
  Notation tree := (tree Z Z).
  Notation put := (PrioModel.put any_ex).
  Notation sum := (PrioModel.sum (K := Z) (V := Z)).

  Lemma ex_lt a b : a < b -> any_ex a b = 1.
  Proof. intros H. unfold any_ex. destruct (Z.ltb_spec b a); [lia|]. destruct (Z.ltb_spec a b); lia. Qed.
  Lemma ex_gt a b : b < a -> any_ex a b = 0.
  Proof. intros H. unfold any_ex. destruct (Z.ltb_spec b a); lia. Qed.

  (** what rebalance does to a node that is heavier on the right *)
  Definition bot (s : Z) : Z := 2 ^ (Z.log2 s - 1) + 1.
  Lemma bottom_bot s : 4 <= s < 2 ^ 62 -> exists h, getMaybeHeight s = Some h /\
    bottomsize (let h := if h <? 2 then 2 else h in if 64 <=? h then 63 else h) = bot s.
  Proof.
    intros H. exists (Z.log2 s + 1). split.
    { unfold getMaybeHeight. rewrite heightLoop_log by lia. f_equal. }
    assert (L1 : 2 <= Z.log2 s) by (change 2 with (Z.log2 4); apply Z.log2_le_mono; lia).
    assert (L2 : Z.log2 s < 62) by (apply Z.log2_lt_pow2; lia).
    destruct (Z.ltb_spec (Z.log2 s + 1) 2); [lia|]. cbv zeta. destruct (Z.leb_spec 64 (Z.log2 s + 1)); [lia|].
    unfold bottomsize, shl64, bot. destruct (Z.ltb_spec (Z.log2 s + 1) 63); [|lia].
    rewrite Z.shiftr_div_pow2 by lia. replace (2 ^ (Z.log2 s + 1)) with (2 ^ (Z.log2 s - 1) * 2 ^ 2) by (rewrite <- Z.pow_add_r by lia; f_equal; lia).
    rewrite Z.div_mul by lia. reflexivity.
  Qed.
  Lemma keeps s k v (l r : tree) : 4 <= s < 2 ^ 62 -> getSize l < getSize r -> getSize r - getSize l < bot s ->
    rebalance (N s k v l r) = Some (N s k v l r).
  Proof.
    intros Hs Hlr Hb. destruct (bottom_bot s Hs) as (h & H1 & H2). unfold rebalance. rewrite H1. cbv zeta in H2 |- *. rewrite H2.
    rewrite Z.gtb_ltb. destruct (Z.ltb_spec (getSize r) (getSize l)); [lia|].
    rewrite Z.gtb_ltb. destruct (Z.ltb_spec (getSize l) (getSize r)); [|lia].
    destruct (Z.leb_spec (bot s) (getSize r - getSize l)); [lia|reflexivity].
  Qed.
  Lemma turns s k v (l : tree) rs k1 v1 s2 k2 v2 l2 r2 rr : 4 <= s < 2 ^ 62 -> getSize l < rs -> bot s <= rs - getSize l ->
    s2 < getSize rr ->
    rebalance (N s k v l (N rs k1 v1 (N s2 k2 v2 l2 r2) rr)) = Some (sum k2 v2 (sum k v l l2) (sum k1 v1 r2 rr)).
  Proof.
    intros Hs Hlr Hb Hd. destruct (bottom_bot s Hs) as (h & H1 & H2). unfold rebalance. rewrite H1. cbv zeta in H2 |- *. rewrite H2.
    set (r := N rs k1 v1 (N s2 k2 v2 l2 r2) rr). assert (Er : getSize r = rs) by reflexivity. rewrite Er.
    rewrite Z.gtb_ltb. destruct (Z.ltb_spec rs (getSize l)); [lia|].
    rewrite Z.gtb_ltb. destruct (Z.ltb_spec (getSize l) rs); [|lia].
    destruct (Z.leb_spec (bot s) (rs - getSize l)); [|lia].
    assert (T : sizeRotateType l r true = true).
    { unfold sizeRotateType, r. cbn [child negb]. rewrite Z.gtb_ltb. apply Z.ltb_lt. exact Hd. }
    rewrite T. reflexivity.
  Qed.

  (** One Put on the right of a node. *)
  Lemma put_right key w s k v (l r : tree) alone : k < key ->
    put key w (N s k v l r) alone =
    match put key w r (is_nil l) with
    | None => None
    | Some (r', two) => if (s + 1 >? 2) && negb two then t' <- rebalance (N (s + 1) k v l r') ;; Some (t', two) else Some (N (s + 1) k v l r', two)
    end.
  Proof.
    intros H. cbn [PrioModel.put]. rewrite (ex_lt _ _ H). cbn [Z.ltb Z.eqb Z.compare Pos.eqb].
    destruct (put key w r (is_nil l)) as [[r' two]|]; reflexivity.
  Qed.

  (** [n] nodes one below the other to the right, nothing to their left except one entry at the last; after one more Put
      ([tail] is what the last of them has on its right), and after two. *)
  Inductive vine (b : Z) (d : Z) (tail : tree) : Z -> tree -> Prop :=
  | vine_last k v c cv : k < b -> c < b -> vine b d tail 1 (N (2 + d) k v (N 1 c cv E E) tail)
  | vine_next n k v r : k < b -> 1 <= n -> vine b d tail n r -> vine b d tail (n + 1) (N (n + 2 + d) k v E r).
  Definition peak (b n : Z) (t : tree) : Prop :=
    exists k v c cv r, t = N (n + 3) k v (N 1 c cv E E) r /\ k < b /\ c < b /\ vine b 0 E n r.
  Lemma vine_size b d tail n t : vine b d tail n t -> getSize t = n + 1 + d /\ 1 <= n.
  Proof. induction 1 as [k v c cv H Hc|n k v r H Hn V IH]; cbn; lia. Qed.
  Lemma vine_weaken b b' tail d n t : b <= b' -> vine b d tail n t -> vine b' d tail n t.
  Proof. intros L. induction 1; constructor; auto; lia. Qed.
  Lemma vine_height b d tail n t : vine b d tail n t -> n + 1 <= ht t.
  Proof. induction 1 as [k v c cv H Hc|n k v r H Hn V IH]; cbn [ht]; lia. Qed.

  Lemma vine_put1 b n t : vine b 0 E n t -> forall x w, b <= x -> forall alone,
    exists t', put x w t alone = Some (t', true) /\ vine b 1 (N 1 x w E E) n t'.
  Proof.
    induction 1 as [k v c cv H Hc|n k v r H Hn V IH]; intros x w Hx alone; rewrite put_right by lia.
    - cbn [PrioModel.put is_nil negb]. eexists. split; [rewrite andb_false_r; reflexivity|]. apply (vine_last b 1 _ k v c cv H Hc).
    - destruct (IH x w Hx true) as (r' & P & V'). cbn [is_nil]. rewrite P. cbn [negb]. rewrite andb_false_r. eexists. split; [reflexivity|].
      replace (n + 2 + 0 + 1) with (n + 2 + 1) by lia. apply vine_next; auto.
  Qed.
  Lemma bot_small s : 4 <= s -> bot s <= s - 1.
  Proof.
    intros H. unfold bot. destruct (Z.log2_spec s) as [L1 L2]; [lia|].
    assert (2 <= Z.log2 s) by (change 2 with (Z.log2 4); apply Z.log2_le_mono; lia).
    replace (Z.log2 s) with (Z.succ (Z.log2 s - 1)) in L1 by lia. rewrite Z.pow_succ_r in L1 by lia. lia.
  Qed.
  Lemma vine_put2 b x w n t : vine b 1 (N 1 x w E E) n t -> forall y u, n + 4 < 2 ^ 62 -> b <= y < x -> forall alone,
    exists t', put y u t alone = Some (t', false) /\ peak (x + 1) n t'.
  Proof.
    induction 1 as [k v c cv H Hc|n k v r H Hn V IH]; intros y u Hs Hy alone; rewrite put_right by lia.
    - assert (P : put y u (N 1 x w E E) false = Some (N 2 x w (N 1 y u E E) E, false)).
      { cbn [PrioModel.put]. rewrite ex_gt by lia. reflexivity. }
      cbn [is_nil]. rewrite P. cbn [negb]. change ((2 + 1 + 1 >? 2) && true) with true. cbv beta iota.
      rewrite keeps by (cbn; lia). eexists. split; [reflexivity|].
      exists k, v, c, cv, (N 2 x w (N 1 y u E E) E). split; [reflexivity|]. split; [lia|]. split; [lia|]. apply (vine_last _ 0); lia.
    - destruct (IH y u ltac:(lia) Hy true) as (r' & P & k1 & v1 & c & cv & r1 & -> & Hk1 & Hc1 & V1). cbn [is_nil]. rewrite P. cbn [negb].
      destruct (vine_size _ _ _ _ _ V1) as [S1 _].
      rewrite Z.gtb_ltb. destruct (Z.ltb_spec 2 (n + 2 + 1 + 1)); [|lia]. cbn [andb].
      rewrite turns; [|lia|cbn; lia| |lia]; [|cbn [PrioModel.getSize IndexModel.getSize]; pose proof (bot_small (n + 2 + 1 + 1)); lia].
      cbv beta iota. eexists. split; [reflexivity|].
      exists c, cv, k, v, (N (n + 2 + 0) k1 v1 E r1). split; [|split; [exact Hc1|split; [lia|apply vine_next; auto]]].
      unfold PrioModel.sum, IndexModel.sum. cbn [IndexModel.getSize]. change (IndexModel.getSize r1) with (PrioModel.getSize r1). rewrite S1.
      f_equal; [lia|]. f_equal. lia.
  Qed.

  (** The whole tree after [m] pairs of Puts. *)
  Definition one_wing (b m : Z) (t : tree) : Prop := exists k v l r, t = N (2 * m) k v l r /\ k < b /\
    getSize l = m - 1 /\ vine b 0 E (m - 1) r.
  Definition two_wings (b m : Z) (t : tree) : Prop := exists k v l k1 v1 l1 r a, t = N (2 * m) k v l (N (m + a) k1 v1 l1 r) /\
    k < b /\ k1 < b /\ getSize l = m - 1 - a /\ getSize l1 = a /\ 1 <= a /\ 2 * a + 1 <= 2 ^ Z.log2 m /\ vine b 0 E (m - 2) r.
  Definition winged (b m : Z) (t : tree) : Prop := 2 <= m /\ (one_wing b m t \/ two_wings b m t).

  Lemma bot_even m : 2 <= m -> bot (2 * m) = 2 ^ Z.log2 m + 1.
  Proof. intros H. unfold bot. rewrite Z.log2_double by lia. do 2 f_equal. lia. Qed.
  Lemma bot_inner m a : 2 <= m -> 1 <= a -> 2 * a + 1 <= 2 ^ Z.log2 m -> bot (m + a + 2) <= m + 1 - a.
  Proof.
    intros Hm Ha H. unfold bot. destruct (Z.log2_spec m) as [L1 L2]; [lia|]. rewrite Z.pow_succ_r in L2 by apply Z.log2_nonneg.
    destruct (Z.log2_spec (m + a + 2)) as [Q1 Q2]; [lia|].
    assert (Hl : 1 <= Z.log2 m) by (change 1 with (Z.log2 2); apply Z.log2_le_mono; lia).
    assert (Ev : 2 ^ Z.log2 m = 2 * 2 ^ (Z.log2 m - 1)) by (rewrite <- Z.pow_succ_r by lia; f_equal; lia).
    assert (U : Z.log2 (m + a + 2) < Z.log2 m + 2).
    { apply Z.log2_lt_pow2; [lia|]. rewrite Z.pow_add_r by lia. change (2 ^ 2) with 4. lia. }
    assert (U' : Z.log2 m <= Z.log2 (m + a + 2)) by (apply Z.log2_le_mono; lia).
    destruct (Z.eq_dec (Z.log2 (m + a + 2)) (Z.log2 m)) as [e|e].
    - rewrite e. lia.
    - assert (e' : Z.log2 (m + a + 2) = Z.succ (Z.log2 m)) by lia. rewrite e' in *. rewrite Z.pow_succ_r in Q1 by lia.
      replace (Z.succ (Z.log2 m) - 1) with (Z.log2 m) by lia. lia.
  Qed.

  Lemma more s two : 2 <= s -> (s + 1 >? 2) && negb two = negb two.
  Proof. intros H. rewrite Z.gtb_ltb. destruct (Z.ltb_spec 2 (s + 1)); [reflexivity|lia]. Qed.
  Lemma small_pow m : 2 <= m < 2 ^ 60 -> 2 ^ Z.log2 (m + 1) <= m + 1.
  Proof. intros H. apply (Z.log2_spec (m + 1)). lia. Qed.

  Lemma pair_put b m t x w y u : winged b m t -> m + 1 < 2 ^ 60 -> b <= y < x -> exists t1 t2,
    put x w t false = Some (t1, true) /\ put y u t1 false = Some (t2, false) /\ winged (x + 1) (m + 1) t2.
  Proof.
    intros [Hm [(k & v & l & r & -> & Hk & Hl & V)|(k & v & l & k1 & v1 & l1 & r & a & -> & Hk & Hk1 & Hl & Hl1 & Ha & Hp & V)]] Hs Hy.
    - destruct (vine_put1 _ _ _ V x w ltac:(lia) (is_nil l)) as (r1 & P1 & V1).
      destruct (vine_put2 _ _ _ _ _ V1 y u ltac:(lia) Hy (is_nil l)) as (r2 & P2 & k2 & v2 & c & cv & r3 & -> & Hk2 & Hc & V2).
      destruct (vine_size _ _ _ _ _ V2) as [S2 _].
      exists (N (2 * m + 1) k v l r1). rewrite put_right, P1, andb_false_r by lia.
      rewrite put_right, P2, more by lia. cbn [negb].
      destruct (Z_lt_le_dec (m - 1 + 3 - getSize l) (bot (2 * m + 1 + 1))) as [B|B].
      + rewrite keeps; [|lia|cbn [PrioModel.getSize IndexModel.getSize]; lia|exact B]. eexists. split; [reflexivity|]. split; [reflexivity|]. split; [lia|]. right.
        replace (2 * m + 1 + 1) with (2 * (m + 1)) in B |- * by lia. rewrite bot_even in B by lia.
        exists k, v, l, k2, v2, (N 1 c cv E E), r3, 1. repeat split; try lia.
        * f_equal. f_equal. lia.
        * replace (m + 1 - 2) with (m - 1) by lia. exact V2.
      + rewrite turns; [|lia|lia|exact B|lia]. eexists. split; [reflexivity|]. split; [reflexivity|]. split; [lia|]. left.
        unfold PrioModel.sum, IndexModel.sum. cbn [IndexModel.getSize]. change (@IndexModel.getSize Z Z) with (@PrioModel.getSize Z Z). rewrite S2, Hl.
        exists c, cv, (N (m - 1 + 0 + 1) k v l E), (N (m - 1 + 2 + 0) k2 v2 E r3). repeat split; try lia.
        * f_equal; [lia|]. f_equal. lia.
        * cbn. lia.
        * replace (m + 1 - 1) with (m - 1 + 1) by lia. apply vine_next; auto; lia.
    - destruct (vine_put1 _ _ _ V x w ltac:(lia) (is_nil l1)) as (r1 & P1 & V1).
      destruct (vine_put2 _ _ _ _ _ V1 y u ltac:(lia) Hy (is_nil l1)) as (r2 & P2 & k2 & v2 & c & cv & r3 & -> & Hk2 & Hc & V2).
      destruct (vine_size _ _ _ _ _ V2) as [S2 H2].
      exists (N (2 * m + 1) k v l (N (m + a + 1) k1 v1 l1 r1)).
      rewrite put_right, put_right, P1, !andb_false_r by lia. cbv beta iota. cbn [negb]. rewrite ?andb_false_r.
      pose proof (bot_inner m a Hm Ha Hp) as B1. replace (m + a + 2) with (m + a + 1 + 1) in B1 by lia.
      assert (B2 : 2 ^ Z.log2 m <= m) by (apply (Z.log2_spec m); lia).
      rewrite put_right, put_right, P2, more by lia. cbn [negb].
      rewrite turns; [|lia|lia|lia|lia]. rewrite more by lia. cbn [negb].
      assert (F : sum c cv (sum k1 v1 l1 E) (sum k2 v2 E r3) = N (m + 1 + (a + 1)) c cv (N (a + 1) k1 v1 l1 E) (N (m - 2 + 2 + 0) k2 v2 E r3)).
      { unfold PrioModel.sum, IndexModel.sum. cbn [IndexModel.getSize]. change (@IndexModel.getSize Z Z) with (@PrioModel.getSize Z Z).
        rewrite S2, Hl1. f_equal; [lia| |]; f_equal; lia. }
      rewrite F. clear F. assert (V3 : vine (x + 1) 0 E (m - 2 + 1) (N (m - 2 + 2 + 0) k2 v2 E r3)) by (apply vine_next; auto; lia).
      destruct (Z_lt_le_dec (m + 1 + (a + 1) - getSize l) (bot (2 * m + 1 + 1))) as [B|B].
      + rewrite keeps; [|lia|cbn [PrioModel.getSize IndexModel.getSize]; lia|exact B]. eexists. split; [reflexivity|]. split; [reflexivity|]. split; [lia|]. right.
        replace (2 * m + 1 + 1) with (2 * (m + 1)) in B |- * by lia. rewrite bot_even in B by lia.
        do 7 eexists. exists (a + 1). split; [reflexivity|]. repeat split; try lia.
        replace (m + 1 - 2) with (m - 2 + 1) by lia. exact V3.
      + rewrite turns; [|lia|lia|exact B|cbn; lia]. eexists. split; [reflexivity|]. split; [reflexivity|]. split; [lia|]. left.
        destruct (vine_size _ _ _ _ _ V3) as [S3 _].
        unfold PrioModel.sum, IndexModel.sum. cbn [IndexModel.getSize]. change (@IndexModel.getSize Z Z) with (@PrioModel.getSize Z Z). rewrite Hl, Hl1.
        do 4 eexists. split; [f_equal; lia|]. split; [lia|]. split; [cbn; lia|].
        replace (m + 1 - 1) with (m - 2 + 1 + 1) by lia. replace (0 + (m - 2 + 2 + 0) + 1) with (m - 2 + 1 + 2 + 0) by lia. apply vine_next; auto; lia.
  Qed.

  Lemma winged_height b m t : winged b m t -> m + 1 <= ht t.
  Proof.
    intros [Hm [(k & v & l & r & -> & _ & _ & V)|(k & v & l & k1 & v1 & l1 & r & a & -> & _ & _ & _ & _ & _ & _ & V)]];
      apply vine_height in V; cbn [ht]; lia.
  Qed.

  (** the Puts *)
  Fixpoint pairs (i : Z) (m : nat) : list Z := match m with O => [] | S m' => [2 * i + 1; 2 * i] ++ pairs (i + 1) m' end.
  Definition qputs (ks : list Z) : list (pq_op Z Z) := map (fun k => QPut k k) ks.
  Lemma pairs_length m : forall i, length (pairs i m) = (2 * m)%nat.
  Proof. induction m as [|m IH]; intros i; cbn [pairs app length]; [reflexivity|]. rewrite IH. lia. Qed.
  Lemma winged_run m' : forall i t, winged (2 * i) i t -> i + Z.of_nat m' < 2 ^ 60 -> exists t',
    reach (pq_step any_ex) t (qputs (pairs i m')) = Some t' /\ winged (2 * (i + Z.of_nat m')) (i + Z.of_nat m') t'.
  Proof.
    induction m' as [|m' IH]; intros i t W H.
    - exists t. split; [reflexivity|]. replace (i + Z.of_nat 0) with i by lia. exact W.
    - destruct (pair_put _ _ _ (2 * i + 1) (2 * i + 1) (2 * i) (2 * i) W ltac:(lia) ltac:(lia)) as (t1 & t2 & P1 & P2 & W2).
      destruct (IH (i + 1) t2) as (t' & R & W'); [replace (2 * (i + 1)) with (2 * i + 1 + 1) by lia; exact W2|lia|].
      exists t'. split; [|replace (i + Z.of_nat (S m')) with (i + 1 + Z.of_nat m') by lia; exact W'].
      cbn [pairs app qputs map reach pq_step]. unfold Put. rewrite P1. cbv beta iota. rewrite P2. exact R.
  Qed.
  Lemma deep_queue m : 0 <= Z.of_nat m < 2 ^ 60 -> exists t, reach (pq_step any_ex) E (qputs (pairs 0 m)) = Some t /\ Z.of_nat m <= ht t.
  Proof.
    intros H. destruct m as [|[|m]]; [exists E; split; [reflexivity|cbn; lia]|eexists; split; [reflexivity|cbn; lia]|].
    set (t0 := N 4 1 1 (N 1 0 0 E E) (N 2 3 3 (N 1 2 2 E E) E) : tree).
    assert (W : winged (2 * 2) 2 t0).
    { split; [lia|]. left. exists 1, 1, (N 1 0 0 E E), (N 2 3 3 (N 1 2 2 E E) E). split; [reflexivity|]. split; [lia|]. split; [reflexivity|].
      apply (vine_last (2 * 2) 0 E 3 3 2 2); lia. }
    destruct (winged_run m 2 t0 W ltac:(lia)) as (t' & R & W'). exists t'. split; [|apply winged_height in W'; lia].
    assert (App : forall (a b : list (pq_op Z Z)) (t u : tree), reach (pq_step any_ex) t a = Some u -> reach (pq_step any_ex) t (a ++ b) = reach (pq_step any_ex) u b).
    { clear. induction a as [|o a IH]; intros b t u; cbn [reach app]; [now intros [= ->]|].
      destruct (pq_step any_ex t o) as [[t1 r]|]; [apply IH|discriminate 1]. }
    rewrite <- R. change (qputs (pairs 0 (S (S m)))) with ([QPut 1 1; QPut 0 0; QPut 3 3; QPut 2 2] ++ qputs (pairs 2 m)).
    apply App. vm_compute. reflexivity.
  Qed.
End Queue.
