(** Skip lists: C49-C52. *)
From Verif Require Import Base Bind Machine OrderSpec SMapSpec SMapFacts SkipSpec SkipModel SkipProofs SkipOps SkipSets.

Section Props.
  Context {K V : Type} (ltb : K -> K -> bool) (W : weak_order ltb) (cmp : K -> K -> Z) (Hc : sign_cmp ltb cmp).
  Notation step := (sk_step (V:=V) cmp).
  Notation spec := (sk_spec (V:=V) ltb).

  (** Whatever the coins say and whatever the maximum level is, any sequence of calls on a new list gives the answers of the
      sorted map; none panics. *)
  Theorem C49_sorted_map l ops : run step (NewWithMaxLevel l) ops = Some (srun spec [] ops).
  Proof. apply (sim_run step spec (rel ltb)); [|apply new_rel]. intros s m o. apply (sk_sim ltb W cmp Hc). Qed.
  Lemma reached l ops : exists s, reach step (NewWithMaxLevel l) ops = Some s /\ rel ltb s (sreach spec [] ops).
  Proof. apply (sim_reach step spec (rel ltb)); [|apply new_rel]. intros s m o. apply (sk_sim ltb W cmp Hc). Qed.

  (** the pointers of level [i] from node [a] on *)
  Fixpoint chain (m : list (node K V)) (i a : nat) (l : list nat) : Prop :=
    match l with [] => getf m a i = Some None | b :: l' => getf m a i = Some (Some b) /\ chain m i b l' end.
  Lemma path_chain m i (L : list (cell K V)) : forall a, path m i a L -> chain m i a (ids L).
  Proof. induction L as [|c L IH]; intros a H; cbn in *; auto. destruct H. split; auto. Qed.
  Lemma sub_at i (L : list (cell K V)) : sub (ids (at_ (S i) L)) (ids (at_ i L)).
  Proof.
    induction L as [|c L IH]; [constructor|]. rewrite !at_cons, !ids_app. destruct (S i <? cht c) eqn:E.
    - replace (i <? cht c) with true by (symmetry; apply Nat.ltb_lt; apply Nat.ltb_lt in E; lia). cbn. now constructor.
    - destruct (i <? cht c); cbn; auto. now constructor.
  Qed.
  (** Level 0 links all entries in order; every other level links some of the nodes of the level below, in the same order;
      the levels not in use are empty. *)
  Theorem C49_levels l ops : exists s (ch : nat -> list nat), reach step (NewWithMaxLevel l) ops = Some s /\
    (forall i, i < 16 -> chain (mem s) i (header s) (ch i)) /\ (forall i, sub (ch (S i)) (ch i)) /\
    NoDup (ch 0) /\ map (entry (mem s)) (ch 0) = map Some (sreach spec [] ops) /\ (forall i, level s <= i -> ch i = []) /\ 1 <= level s <= maxLevel s /\ maxLevel s <= 16.
  Proof.
    destruct (reached l ops) as (s & E & L & I & <-). exists s, (fun i => ids (at_ i L)). split; auto. pose proof (si_mem _ _ _ I) as M. split; [|split; [|split; [|split; [|split]]]].
    - intros i Hi. apply path_chain. now apply (mo_path _ _ _ M).
    - intros i. apply sub_at.
    - apply nodup_at. pose proof (mo_nodup _ _ _ M) as N. now inversion N.
    - rewrite (at_zero (mem s)) by apply (mo_good _ _ _ M). unfold ids, ents. rewrite !map_map. apply map_ext_in. intros c Hin. apply (mo_good _ _ _ M c Hin).
    - intros i Hi. rewrite (at_high (level s)); auto. intros c Hin. destruct (si_ht _ _ _ I c Hin); lia.
    - pose proof (si_level _ _ _ I). pose proof (si_max _ _ _ I). lia.
  Qed.

  (** C50: positions and ranges, in any state reached *)
  Theorem C50_positions l ops : exists s, reach step (NewWithMaxLevel l) ops = Some s /\ let m := sreach spec [] ops in
    (forall i, step s (KIndex i) = Some (s, KEntry (if (0 <=? i) && (i <? len m) then nth_error m (Z.to_nat i) else None))%Z) /\
    (forall i e, nth_error m i = Some e -> step s (KIndexOf (fst e)) = Some (s, KNum (Z.of_nat i))) /\
    (forall k, (forall e, In e m -> same ltb (fst e) k = false) -> step s (KIndexOf k) = Some (s, KNum (-1)%Z)) /\
    (forall i, exists s', step s (KRemoveIndex i) = Some (s', KEntry (if (0 <=? i) && (i <? len m) then nth_error m (Z.to_nat i) else None)%Z) /\
       step s' KSlice = Some (s', KSeen (if (0 <=? i) && (i <? len m) then firstn (Z.to_nat i) m ++ skipn (S (Z.to_nat i)) m else m)%Z)) /\
    (forall i j, (0 <= i <= j)%Z -> (j < len m)%Z -> exists s', step s (KRemoveRangeByIndex i j) = Some (s', KUnit) /\
       step s' KSlice = Some (s', KSeen (firstn (Z.to_nat i) m ++ skipn (S (Z.to_nat j)) m))) /\
    (forall i j, (0 <= i <= j)%Z -> (j < len m)%Z -> exists s', step s (KTrimByIndex i j) = Some (s', KUnit) /\
       step s' KSlice = Some (s', KSeen (skipn (Z.to_nat i) (firstn (S (Z.to_nat j)) m)))) /\
    (forall lo hi, exists s', step s (KTrim lo hi) = Some (s', KUnit) /\
       step s' KSlice = Some (s', KSeen (filter (fun e => negb (ltb (fst e) lo) && negb (ltb hi (fst e))) m))).
  Proof.
    destruct (reached l ops) as (s & E & H). exists s. split; auto. cbn zeta. set (m := sreach spec [] ops) in *. clearbody m.
    assert (Sl : forall s' m', rel ltb s' m' -> step s' KSlice = Some (s', KSeen m')). { intros s' m' H'. cbn [sk_step]. now rewrite (slice_ok ltb s' m' H'). }
    assert (Sd : strictly_sorted ltb m) by (apply (rel_sorted ltb s m H)).
    split; [|split; [|split; [|split; [|split; [|split]]]]].
    - intros i. assert (X := sk_sim ltb W cmp Hc s m (KIndex i) H). destruct X as (s' & X & _). cbn [sk_step sk_spec fst snd] in *. destruct (index s i); [|discriminate]. injection X as <- ->. reflexivity.
    - intros i e Hi. assert (X := sk_sim ltb W cmp Hc s m (KIndexOf (fst e)) H). destruct X as (s' & X & _). apply nth_error_split in Hi as (a & b & -> & Hl).
      destruct (cut_same_strict ltb W a e b (fst e) (same_refl ltb W _) Sd) as (X1 & X2 & X3). cbn [sk_spec fst snd] in X. unfold position in X. rewrite X1, X2 in X. unfold len in X. rewrite Hl in X.
      cbn [sk_step] in *. destruct (getf (mem s) (header s) 0); [|discriminate]. destruct (indexOf cmp _ _ _ _ _); [|discriminate]. injection X as <- ->. reflexivity.
    - intros k Hk. assert (X := sk_sim ltb W cmp Hc s m (KIndexOf k) H). destruct X as (s' & X & _). cbn [sk_spec fst snd] in X. unfold position, sames in X. rewrite filter_none in X by auto.
      cbn [sk_step] in *. destruct (getf (mem s) (header s) 0); [|discriminate]. destruct (indexOf cmp _ _ _ _ _); [|discriminate]. injection X as <- ->. reflexivity.
    - intros i. destruct (sk_sim ltb W cmp Hc s m (KRemoveIndex i) H) as (s' & X & H'). exists s'. split; [exact X|]. rewrite (Sl s' _ H'). f_equal. f_equal. f_equal. cbn [sk_spec fst]. unfold at_index, others.
      destruct ((0 <=? i) && (i <? len m))%Z eqn:B; auto. apply andb_true_iff in B as (B1 & B2). apply Z.leb_le in B1. apply Z.ltb_lt in B2.
      destruct (nth_error m (Z.to_nat i)) eqn:N; [now replace (Z.to_nat (i + 1)) with (S (Z.to_nat i)) by lia|]. apply nth_error_None in N. unfold len in B2. lia.
    - intros i j Hij Hj. destruct (sk_sim ltb W cmp Hc s m (KRemoveRangeByIndex i j) H) as (s' & X & H'). exists s'. split; [exact X|]. rewrite (Sl s' _ H'). f_equal. f_equal. f_equal. cbn [sk_spec fst].
      replace (Z.max i 0) with i by lia. replace (Z.min j (len m - 1)) with j by lia. replace (i <=? j)%Z with true by (symmetry; apply Z.leb_le; lia). unfold others. now replace (Z.to_nat (j + 1)) with (S (Z.to_nat j)) by lia.
    - intros i j Hij Hj. destruct (sk_sim ltb W cmp Hc s m (KTrimByIndex i j) H) as (s' & X & H'). exists s'. split; [exact X|]. rewrite (Sl s' _ H'). f_equal. f_equal. f_equal. cbn [sk_spec fst].
      replace (Z.max i 0) with i by lia. replace (Z.min j (len m - 1)) with j by lia. replace (i <=? j)%Z with true by (symmetry; apply Z.leb_le; lia). unfold slots. rewrite firstn_skipn_comm. f_equal. f_equal. lia.
    - intros lo hi. destruct (sk_sim ltb W cmp Hc s m (KTrim lo hi) H) as (s' & X & H'). exists s'. split; [exact X|]. now rewrite (Sl s' _ H').
  Qed.
  (** indexes outside the list are cut off at its ends; a range that is then empty removes and keeps nothing special: the
      list stays as it is *)
  Theorem C50_clamped l ops i j : exists s, reach step (NewWithMaxLevel l) ops = Some s /\ let m := sreach spec [] ops in
    let i' := Z.max i 0 in let j' := Z.min j (len m - 1) in
    (exists s1, step s (KRemoveRangeByIndex i j) = Some (s1, KUnit) /\
       step s1 KSlice = Some (s1, KSeen (if i' <=? j' then firstn (Z.to_nat i') m ++ skipn (S (Z.to_nat j')) m else m)%Z)) /\
    (exists s2, step s (KTrimByIndex i j) = Some (s2, KUnit) /\
       step s2 KSlice = Some (s2, KSeen (if i' <=? j' then skipn (Z.to_nat i') (firstn (S (Z.to_nat j')) m) else m)%Z)).
  Proof.
    destruct (reached l ops) as (s & E & H). exists s. split; auto. cbn zeta. set (m := sreach spec [] ops) in *. clearbody m.
    assert (Sl : forall s' m', rel ltb s' m' -> step s' KSlice = Some (s', KSeen m')). { intros s' m' H'. cbn [sk_step]. now rewrite (slice_ok ltb s' m' H'). }
    split.
    - destruct (sk_sim ltb W cmp Hc s m (KRemoveRangeByIndex i j) H) as (s' & X & H'). exists s'. split; [exact X|]. rewrite (Sl s' _ H'). f_equal. f_equal. f_equal. cbn [sk_spec fst]. unfold others.
      destruct (Z.leb_spec (Z.max i 0) (Z.min j (len m - 1))); auto. now replace (Z.to_nat (Z.min j (len m - 1) + 1)) with (S (Z.to_nat (Z.min j (len m - 1)))) by lia.
    - destruct (sk_sim ltb W cmp Hc s m (KTrimByIndex i j) H) as (s' & X & H'). exists s'. split; [exact X|]. rewrite (Sl s' _ H'). f_equal. f_equal. f_equal. cbn [sk_spec fst]. unfold slots.
      destruct (Z.leb_spec (Z.max i 0) (Z.min j (len m - 1))); auto. rewrite firstn_skipn_comm. f_equal. f_equal. lia.
  Qed.

  (** C51.  A list behaves as the map [m] if every sequence of calls gives the map's answers. *)
  Definition behaves (s : skiplist K V) (m : list (K * V)) : Prop := forall ops, run step s ops = Some (srun spec m ops).
  Lemma rel_behaves s m : rel ltb s m -> behaves s m.
  Proof. intros H ops. apply (sim_run step spec (rel ltb)); auto. intros s' m' o. apply (sk_sim ltb W cmp Hc). Qed.
  Lemma sames_sput k k' (v : V) (m : list (K * V)) : strictly_sorted ltb m -> sames ltb k (sput ltb k' v m) =
    if same ltb k' k then match sames ltb k m with [] => [(k', v)] | (k0, _) :: _ => [(k0, v)] end else sames ltb k m.
  Proof.
    intros Sd. assert (X : forall x, same ltb (fst x) k' = true -> sames ltb k (write ltb k' x m) = if same ltb k' k then [x] else sames ltb k m).
    { intros x Hx. destruct (same ltb k' k) eqn:E.
      - assert (Hk : forall y, same ltb y k = same ltb y k').
        { intros y. unfold same. rewrite (same_lt_r ltb W _ _ y E), (same_lt_l ltb W _ _ y E). reflexivity. }
        unfold sames. rewrite (filter_ext _ (fun e => same ltb (fst e) k')) by (intros; apply Hk).
        pose proof (write_sorted ltb W k' x m Hx Sd) as Sd'. unfold write in *. exact (proj1 (proj2 (cut_same_strict ltb W _ x _ k' Hx Sd'))).
      - unfold write, sames. rewrite filter_app. cbn [filter]. assert (Ex : same ltb (fst x) k = false).
        { unfold same in *. rewrite (same_lt_r ltb W _ _ k Hx), (same_lt_l ltb W _ _ k Hx). exact E. }
        rewrite Ex. rewrite (cut_all ltb W m k' (strict_weak ltb W m Sd)) at 3. rewrite !filter_app.
        replace (filter (fun e => same ltb (fst e) k) (sames ltb k' m)) with (@nil (K * V)); auto.
        symmetry. apply filter_none. intros e He. apply filter_In in He as (_ & He). unfold same. rewrite (same_lt_r ltb W _ _ k He), (same_lt_l ltb W _ _ k He). exact E. }
    unfold sput. destruct (sames ltb k' m) as [|[k0 v0] r] eqn:S0.
    - rewrite X by apply (same_refl ltb W). destruct (same ltb k' k) eqn:E; auto.
      assert (S1 : sames ltb k m = []); [|now rewrite S1]. unfold sames in *. rewrite <- S0. apply filter_ext. intros e. unfold same. rewrite (same_lt_r ltb W _ _ (fst e) E), (same_lt_l ltb W _ _ (fst e) E). reflexivity.
    - assert (H0 : same ltb k0 k' = true). { assert (In (k0, v0) (sames ltb k' m)) by (rewrite S0; now left). now apply filter_In in H as (_ & H). }
      rewrite X by exact H0. destruct (same ltb k' k) eqn:E; auto.
      assert (S1 : sames ltb k m = (k0, v0) :: r); [|now rewrite S1]. rewrite <- S0. unfold sames. apply filter_ext. intros e. unfold same. rewrite (same_lt_r ltb W _ _ (fst e) E), (same_lt_l ltb W _ _ (fst e) E). reflexivity.
  Qed.
  Lemma sput_sorted k (v : V) (m : list (K * V)) : strictly_sorted ltb m -> strictly_sorted ltb (sput ltb k v m).
  Proof.
    intros Sd. unfold sput. destruct (sames ltb k m) as [|[k0 v0] r] eqn:S0; apply write_sorted; auto; [apply (same_refl ltb W)|].
    assert (In (k0, v0) (sames ltb k m)) by (rewrite S0; now left). now apply filter_In in H as (_ & H).
  Qed.
  Lemma either_lookup k (b : list (K * V)) : strictly_sorted ltb b -> forall a, strictly_sorted ltb a -> strictly_sorted ltb (either ltb a b) /\
    sames ltb k (either ltb a b) = match sames ltb k a, sames ltb k b with (ka, _) :: _, (_, vb) :: _ => [(ka, vb)] | [], l => l | l, [] => l end.
  Proof.
    intros Sb. unfold either. induction b as [|[kb vb] b IH]; intros a Sa; [cbn [fold_left]; split; auto; change (sames ltb k []) with (@nil (K * V)); now destruct (sames ltb k a) as [|[]]|]. cbn [fold_left fst snd].
    assert (Sb' : strictly_sorted ltb b) by now inversion Sb. destruct (IH Sb' (sput ltb kb vb a)) as (X1 & X2); [now apply sput_sorted|]. split; auto. rewrite X2, sames_sput by auto.
    replace (sames ltb k ((kb, vb) :: b)) with (if same ltb kb k then [(kb, vb)] else sames ltb k b).
    - destruct (same ltb kb k) eqn:E; [|reflexivity].
      assert (Eb : sames ltb k b = []).
      { apply filter_none. intros e He. inversion Sb as [|? ? _ F]; subst. rewrite Forall_forall in F. unfold same. rewrite <- (same_lt_l ltb W _ _ (fst e) E).
        specialize (F e He). cbn [fst] in F. rewrite F. apply andb_false_r. }
      rewrite Eb. now destruct (sames ltb k a) as [|[]].
    - unfold sames. cbn [filter fst]. destruct (same ltb kb k) eqn:E; auto. f_equal. symmetry. apply filter_none. intros e He. inversion Sb as [|? ? _ F]; subst. rewrite Forall_forall in F.
      unfold same. rewrite <- (same_lt_l ltb W _ _ (fst e) E). specialize (F e He). cbn [fst] in F. rewrite F. apply andb_false_r.
  Qed.
  (** Two lists made by any calls: the intersection has the keys (as the first list spells them) that both have, with the
      second list's values; the difference the entries of the first whose key the second has not; whatever the coins say. *)
  Theorem C51_intersection_difference l1 ops1 l2 ops2 rs : exists s1 s2 si sd,
    reach step (NewWithMaxLevel l1) ops1 = Some s1 /\ reach step (NewWithMaxLevel l2) ops2 = Some s2 /\
    let m1 := sreach spec [] ops1 in let m2 := sreach spec [] ops2 in
    Intersection cmp s1 s2 rs = Some si /\ behaves si (both ltb m1 m2) /\ DifferenceSets cmp s1 s2 rs = Some sd /\ behaves sd (only ltb m1 m2).
  Proof.
    destruct (reached l1 ops1) as (s1 & E1 & H1), (reached l2 ops2) as (s2 & E2 & H2). destruct (Intersection_ok ltb W cmp Hc s1 _ s2 _ rs H1 H2) as (si & Ei & Hi).
    destruct (DifferenceSets_ok ltb W cmp Hc s1 _ s2 _ rs H1 H2) as (sd & Ed & Hd). exists s1, s2, si, sd. do 3 (split; [assumption|]). split; [now apply rel_behaves|]. split; [assumption|now apply rel_behaves].
  Qed.
  (** The union is sorted and finds exactly the keys of either list; a key of both has the first list's spelling and the
      second list's value. *)
  Theorem C51_union l1 ops1 l2 ops2 rs : exists s1 s2 su mu,
    reach step (NewWithMaxLevel l1) ops1 = Some s1 /\ reach step (NewWithMaxLevel l2) ops2 = Some s2 /\ UnionSets cmp s1 s2 rs = Some su /\
    behaves su mu /\ strictly_sorted ltb mu /\ let m1 := sreach spec [] ops1 in let m2 := sreach spec [] ops2 in
    forall k, sames ltb k mu = match sames ltb k m1, sames ltb k m2 with (k1, _) :: _, (_, v2) :: _ => [(k1, v2)] | [], l => l | l, [] => l end.
  Proof.
    destruct (reached l1 ops1) as (s1 & E1 & H1), (reached l2 ops2) as (s2 & E2 & H2). destruct (UnionSets_ok ltb W cmp Hc s1 _ s2 _ rs H1 H2) as (su & Eu & Hu).
    exists s1, s2, su. eexists. do 3 (split; [eassumption|]). split; [apply rel_behaves; eassumption|]. split; [eapply rel_sorted; eauto|]. cbn zeta. intros k. apply either_lookup; eapply rel_sorted; eauto.
  Qed.

  (** C52: a cursor on a list that is not changed meanwhile *)
  Notation istep := (ski_step (V:=V) cmp).
  Theorem C52_cursor_partial l ops walk : exists s it, reach step (NewWithMaxLevel l) ops = Some s /\ newIterator s = Some it /\
    run (istep s) it walk = Some (srun (ski_spec ltb (sreach spec [] ops)) 0%Z walk).
  Proof.
    destruct (reached l ops) as (s & E & L & I & <-). destruct (newIterator_ok ltb s L I) as (it & Ei & St). exists s, it. do 2 (split; [assumption|]).
    apply (sim_run (istep s) (ski_spec ltb (ents L)) (standing s L)); auto. intros. now apply (ski_sim ltb W cmp Hc).
  Qed.
  Lemma index_step s L it p o it' r : SI ltb s L -> standing s L it p -> iindex it = p -> steady p o = true -> istep s it o = Some (it', r) ->
    iindex it' = fst (ski_spec ltb (ents L) p o).
  Proof.
    intros I St Hi Hs E. destruct (stand_split s L it p St) as (P & R & EL & Hp & Hn). destruct o; cbn [steady] in Hs; try discriminate; cbn [ski_step ski_spec fst] in *.
    - rewrite (first_cell ltb s L I) in E. injection E as <- <-. reflexivity.
    - rewrite (first_cell ltb s L I) in E. pose proof (rel_size ltb s _ (ex_intro _ L (conj I eq_refl))) as Hz. destruct L as [|c L]; cbn [hd_id hd_error option_map] in E.
      + injection E as <- <-. cbn [iindex]. destruct St as (St & _). unfold len in *. cbn in *. lia.
      + rewrite (lastNode_ok ltb s L [] c (fuel (mem s)) I) in E by (pose proof (all_fuel ltb s _ I) as F; cbn [length] in F; lia). injection E as <- <-. cbn [iindex]. rewrite Hz. unfold len. cbn [ents map length]. lia.
    - rewrite Hn in E. destruct R as [|c R]; cbn [hd_id hd_error option_map] in E.
      + injection E as <- <-. rewrite app_nil_r in EL. subst P. rewrite len_ents. lia.
      + rewrite EL in I. rewrite (next_of ltb s P c R I) in E. injection E as <- <-. cbn [iindex]. rewrite EL, len_ents, app_length. cbn [length]. lia.
    - unfold iprev in E. rewrite (first_cell ltb s L I), Hn in E. assert (I' := I). rewrite EL in I'. assert (Hf : length P < fuel (mem s)) by (pose proof (all_fuel ltb s _ I') as F; rewrite app_length in F; lia).
      pose proof (findPrev_ok ltb s (header s) P [] R (fuel (mem s)) I' Hf) as F. cbn [app] in F. change (lastid (header s) []) with (header s) in F. rewrite <- EL in F. rewrite F in E.
      replace (peqb (hd_id R) (hd_id R)) with true in E by (destruct R; cbn; auto; now rewrite Nat.eqb_refl). rewrite (lastid_hdr ltb s P R I') in E.
      apply negb_true_iff in Hs. rewrite Hs. apply Z.eqb_neq in Hs. destruct P as [|c P]; [cbn in Hp; lia|]. injection E as <- <-. cbn [iindex]. lia.
    - injection E as <- <-. auto.
    - destruct (inode it); [destruct (entry _ _); [|discriminate]|]; injection E as <- <-; auto.
    - injection E as <- <-. auto.
  Qed.
  (** Index() is the position of the cursor as long as it is moved by SeekToFirst, SeekToLast, Next, and Prev away from
      entries other than the first. *)
  Theorem C52_index_partial l ops walk : all_steady ltb (sreach spec [] ops) 0%Z walk = true -> exists s it it',
    reach step (NewWithMaxLevel l) ops = Some s /\ newIterator s = Some it /\ reach (istep s) it walk = Some it' /\
    iindex it' = sreach (ski_spec ltb (sreach spec [] ops)) 0%Z walk.
  Proof.
    intros Hs. destruct (reached l ops) as (s & E & L & I & EL). rewrite <- EL in *. destruct (newIterator_ok ltb s L I) as (it & Ei & St). exists s, it.
    assert (H0 : iindex it = 0%Z). { unfold newIterator in Ei. destruct (getf _ _ _); [|discriminate]. now injection Ei as <-. }
    enough (X : exists it', reach (istep s) it walk = Some it' /\ iindex it' = sreach (ski_spec ltb (ents L)) 0%Z walk) by (destruct X as (it' & X1 & X2); exists it'; auto).
    clear Ei. revert it Hs St H0. generalize 0%Z as p. induction walk as [|o walk IH]; intros p it Hs St H0; [exists it; auto|]. cbn [all_steady] in Hs. apply andb_true_iff in Hs as (Hs1 & Hs2).
    destruct (ski_sim ltb W cmp Hc s L it p o I St) as (it1 & E1 & St1). cbn [reach sreach]. rewrite E1. apply IH; auto. eapply index_step; eauto.
  Qed.
End Props.

(** ** Instances *)
Local Open Scope Z_scope.
Lemma Zsub_sign : sign_cmp Z.ltb Z.sub.
Proof. intros a b. rewrite !Z.ltb_lt. lia. Qed.
Definition ex_puts : list (sk_op Z Z) :=
  [KPut 5 50 2; KPut 1 10 0; KPut 9 90 7; KPut 3 30 1; KPut 7 70 0; KPut 5 55 4; KPutDuplicate 3 33 1; KRemove 9; KPut 9 99 3].
Definition ex_more : list (sk_op Z Z) :=
  [KSlice; KIndex 2; KIndexOf 7; KRemoveIndex 1; KTrim 2 9; KRemoveHead; KTail; KRemoveTail; KSize; KSlices; KClear; KHead].

Example C49_example : srun (sk_spec Z.ltb) [] (ex_puts ++ ex_more) =
  [KBool true; KBool true; KBool true; KBool true; KBool true; KBool false; KDup (Some (3, 30)) false; KEntry (Some (9, 90)); KBool true;
   KSeen [(1, 10); (3, 33); (5, 55); (7, 70); (9, 99)]; KEntry (Some (5, 55)); KNum 3; KEntry (Some (3, 33)); KUnit; KEntry (Some (5, 55)); KEntry (Some (9, 99));
   KEntry (Some (9, 99)); KNum 1; KSeen [(7, 70)]; KUnit; KEntry None] /\
  run (sk_step Z.sub) (NewWithMaxLevel 3) (ex_puts ++ ex_more) = Some (srun (sk_spec Z.ltb) [] (ex_puts ++ ex_more)).
Proof. vm_compute. auto. Qed.
Print Assumptions C49_sorted_map.
(** in that list, three levels are in use, with 5, 3 and 2 nodes *)
Example C49_levels_example : exists s ch, reach (sk_step Z.sub) (NewWithMaxLevel 3) ex_puts = Some s /\ level s = 3%nat /\
  chain (mem s) 0 (header s) (ch 0%nat) /\ chain (mem s) 1 (header s) (ch 1%nat) /\ chain (mem s) 2 (header s) (ch 2%nat) /\
  map (fun i => length (ch i)) [0; 1; 2]%nat = [5; 3; 2]%nat.
Proof.
  destruct (reach (sk_step Z.sub) (NewWithMaxLevel 3) ex_puts) as [s|] eqn:E; [|vm_compute in E; discriminate].
  exists s, (fun i => match i with 0%nat => [2; 4; 1; 5; 6]%nat | 1%nat => [4; 1; 6]%nat | _ => [1; 6]%nat end).
  split; auto. vm_compute in E. injection E as <-. vm_compute. repeat split.
Qed.
Print Assumptions C49_levels.
Example C50_example : sreach (sk_spec Z.ltb) [] ex_puts = [(1, 10); (3, 33); (5, 55); (7, 70); (9, 99)] /\
  run (sk_step Z.sub) (NewWithMaxLevel 3) (ex_puts ++ [KRemoveRangeByIndex 1 2; KSlice; KTrimByIndex 1 7; KSlice; KTrimByIndex 1 0; KSlice])
  = Some (srun (sk_spec Z.ltb) [] ex_puts ++ [KUnit; KSeen [(1, 10); (7, 70); (9, 99)]; KUnit; KSeen [(7, 70); (9, 99)]; KUnit; KSeen [(7, 70); (9, 99)]]).
Proof. vm_compute. auto. Qed.
Print Assumptions C50_positions.
Print Assumptions C50_clamped.
Definition ex_other : list (sk_op Z Z) := [KPut 4 4 1; KPut 3 3 0; KPut 9 9 3].
Example C51_example :
  both Z.ltb (sreach (sk_spec Z.ltb) [] ex_puts) (sreach (sk_spec Z.ltb) [] ex_other) = [(3, 3); (9, 9)] /\
  only Z.ltb (sreach (sk_spec Z.ltb) [] ex_puts) (sreach (sk_spec Z.ltb) [] ex_other) = [(1, 10); (5, 55); (7, 70)] /\
  match reach (sk_step Z.sub) (NewWithMaxLevel 3) ex_puts, reach (sk_step Z.sub) New ex_other with
  | Some s1, Some s2 => match UnionSets Z.sub s1 s2 [1; 0; 2; 0; 0; 3]%nat with Some su => slice su | None => None end
  | _, _ => None
  end = Some [(1, 10); (3, 3); (4, 4); (5, 55); (7, 70); (9, 9)].
Proof. vm_compute. auto. Qed.
Print Assumptions C51_intersection_difference.
Print Assumptions C51_union.
Definition ex_walk : list (ski_op Z) := [IGE 4; IEntry; INext; IEntry; IPrev; IPrev; IEntry; ILT 1; IValid; IPrev; IEntry; ILE 8; IEntry; IAt 1; IEntry; IGT 9; IValid].
Example C52_example : srun (ski_spec Z.ltb (sreach (sk_spec Z.ltb) [] ex_puts)) 0 ex_walk =
  [IBool true; IKV (Some (5, 55)); IUnit; IKV (Some (7, 70)); IUnit; IUnit; IKV (Some (3, 33)); IBool false; IBool false; IUnit; IKV (Some (9, 99));
   IBool true; IKV (Some (7, 70)); IUnit; IKV (Some (3, 33)); IBool false; IBool false].
Proof. vm_compute. auto. Qed.
Print Assumptions C52_cursor_partial.
Example C52_index_example : all_steady Z.ltb (sreach (sk_spec Z.ltb) [] ex_puts) 0 [INext; INext; INext; IPrev; ILast; IPrev; INext; INext; IPrev; IFirst; INext] = true /\
  sreach (ski_spec Z.ltb (sreach (sk_spec Z.ltb) [] ex_puts)) 0 [INext; INext; INext; IPrev; ILast; IPrev; INext; INext; IPrev] = 4.
Proof. vm_compute. auto. Qed.
Print Assumptions C52_index_partial.

(** Index() is wrong after every seek: with the entries 1, 2, 3, the cursor is at the entry of rank [p] but says [i]. *)
Definition three : list (sk_op Z Z) := [KPut 1 1 0; KPut 2 2 1; KPut 3 3 0].
Definition says (walk : list (ski_op Z)) : option (Z * Z) :=
  s <- reach (sk_step Z.sub) New three ;; it <- newIterator s ;; it' <- reach (ski_step Z.sub s) it walk ;;
  Some (sreach (ski_spec Z.ltb (sreach (sk_spec Z.ltb) [] three)) 0 walk, iindex it').
Theorem C52_index_refuted :
  (exists k, says [IGE k] = Some (1, 0)) /\ (exists k, says [IGT k] = Some (1, 0)) /\ (exists k, says [ILE k] = Some (2, 0)) /\
  (exists k, says [ILT k] = Some (1, 0)) /\ (exists i, says [IAt i] = Some (2, 0)) /\ says [IPrev; IPrev] = Some (2, -1).
Proof. split; [exists 2|split; [exists 1|split; [exists 5|split; [exists 3|split; [exists 2|]]]]]; reflexivity. Qed.
Print Assumptions C52_index_refuted.
