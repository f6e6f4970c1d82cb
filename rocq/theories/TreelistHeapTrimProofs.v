(** tree/treelist in memory: keeping a range. *)
From Verif Require Import Base Bind Machine AvlTree AvlModel AvlSpec IndexSpec TreelistSpec TreelistModel IndexModel
  IndexHeapModel IndexHeapProofs IndexHeapPutProofs IndexHeapReadProofs IndexHeapRemoveProofs IndexHeapCutProofs IndexHeapRangeProofs IndexHeapTrimProofs
  TreelistHeapModel TreelistHeapProofs TreelistHeapRangeProofs.
Local Open Scope Z_scope.

Section Trim.
  Context {K V : Type}.
  Notation tmem := (tmem K V).
  Notation tree := (AvlTree.tree K (nat * V)).
  Implicit Types (m : tmem) (lk : TreelistModel.links).

  Lemma endId_last (g : mem K (nat * V)) d c : forall t i, Forall (fun f : frame => snd (fst f) = d) c -> t <> E -> endId d t = Some i -> endId d (tplug (cview g c) t) = Some i.
  Proof.
    induction c as [|((a, e), y) c IH]; intros t i Hc Ht Hi; [exact Hi|]. apply Forall_cons_iff in Hc as (He & Hc). cbn [fst snd] in He. subst e.
    cbn [cview map fview tplug tfill]. apply IH; [exact Hc|destruct d; discriminate|].
    destruct (Value g a) as (j, v). destruct d; cbn [tnd endId child]; destruct t; try congruence; exact Hi.
  Qed.

  Lemma closeEnd_ok d lk m s : body (tagged (base m)) s -> s <> L -> ~ In 0%nat (addrs s) -> (hgt s <= S (next (base m)))%nat -> dirs (Direct m) lk ->
    exists i dir, endId d (view (tagged (base m)) s) = Some i /\ closeEnd 0 d (pt s) m = Done tt (TMem (base m) dir) /\
      dirs dir (sete d (Some i) (setd i d None lk)).
  Proof.
    intros Hb Hs H0 Hh Hd. destruct (lastNode_ok (tagged (base m)) d s (S (next (base m))) Hb Hs Hh) as (c & b & w & Es & R & _ & Fd).
    assert (Hb0 : b <> 0%nat).
    { intros ->. apply H0. rewrite Es. apply (Permutation.Permutation_in _ (Permutation.Permutation_sym (addrs_plug c _))). apply in_or_app. right. apply in_nd. auto. }
    assert (Eb : Some b = addr (Some (pred b))) by (cbn; f_equal; lia).
    assert (Ei : endId d (view (tagged (base m)) s) = Some (pred b)).
    { rewrite Es, view_plug. apply endId_last; [exact Fd|rewrite view_nd; destruct d; discriminate|]. rewrite view_nd. destruct d; reflexivity. }
    destruct (wrDir_node m lk (pred b) d None Hd) as (dir1 & R1 & D1).
    destruct (wrDir_root (TMem (base m) dir1) _ d (Some (pred b)) D1) as (dir2 & R2 & D2).
    exists (pred b), dir2. split; [exact Ei|]. split; [|exact D2]. unfold closeEnd.
    erewrite run_tbind.
    2:{ apply (read_tagged (fueled (fun n => lastNode d n (pt s))) _ m (Some b)); [apply a_fueled; intros n; apply a_lastNode|]. exact R. }
    rewrite Eb. erewrite run_tbind by exact R1. exact R2.
  Qed.

  (** settle, at the place [c] *)
  Lemma settle_ok lk fr m c s : ok (tagged (base m)) 0 c s -> dirs (Direct m) lk -> next (base m) = S fr ->
    exists m', settle 0 (pt s) m = Done tt m' /\ trep m' (T (view (tagged (base m)) s) (closeEnds (view (tagged (base m)) s) lk) fr).
  Proof.
    intros O Hd Hn. unfold settle. destruct (newRoot_at _ _ _ _ O) as (g1 & R1 & O1 & V1).
    destruct (lift_tagged _ _ m _ _ (a_newRoot 0 (pt s)) (a_newRoot 0 (pt s)) R1) as (b1 & R2 & -> & W1). erewrite run_tbind by exact R2.
    assert (N1 : next b1 = S fr).
    { pose proof (s_newRoot 0 (pt s) (tagged (base m))) as Hs. rewrite R1 in Hs. cbn in Hs. congruence. }
    rewrite <- V1. destruct s as [|a l r] eqn:Es.
    - cbn [pt isNil negb view closeEnds endId]. eexists. split; [reflexivity|]. constructor; [|exact Hd|exact N1]. exists L. auto.
    - rewrite <- Es in *. assert (Hne : s <> L) by (rewrite Es; discriminate). replace (negb (isNil (pt s))) with true by (rewrite Es; reflexivity).
      assert (H0 : ~ In 0%nat (addrs s)) by (pose proof (ok_n _ _ _ _ O1) as Hno; apply NoDup_cons_iff in Hno as (Hno & _); exact Hno).
      pose proof (ok_hgt _ _ _ _ O1) as Hh.
      destruct (closeEnd_ok false lk (TMem b1 (Direct m)) s (ok_b _ _ _ _ O1) Hne H0 ltac:(cbn in *; lia) Hd) as (i & dir & E1 & R3 & D3).
      destruct (closeEnd_ok true _ (TMem b1 dir) s (ok_b _ _ _ _ O1) Hne H0 ltac:(cbn in *; lia) D3) as (j & dir' & E2 & R4 & D4).
      cbn [base Direct] in *. exists (TMem b1 dir'). split; [erewrite run_tbind by exact R3; exact R4|].
      unfold closeEnds. rewrite E1, E2. constructor; cbn [base Direct lks fresh TreelistModel.top]; [|exact D4|exact N1]. exists s. auto.
  Qed.

  Lemma af_keepAt {V1 W} d z n p : agree (K := K) (V := V1) (W := W) (fueled (fun f => keepAt d z f n p)) (fueled (fun f => keepAt d z f n p)).
  Proof. apply a_fueled. intros f. apply a_keepAt. Qed.

  Lemma TrimByIndexT_ok low high m (s : tl K V) : trep m s ->
    let '(t, good) := IndexModel.TrimByIndex low high (TreelistModel.top s) in
    exists m', TrimByIndex 0 low high m = (if good then Done tt m' else Fail m') /\
      trep m' (T t (if good then closeEnds t (lks s) else lks s) (fresh s)).
  Proof.
    intros Hr. pose proof Hr as [(x0 & Hok & Ht) Hd Hn]. unfold IndexModel.TrimByIndex, TrimByIndex.
    assert (Es : s = T (TreelistModel.top s) (lks s) (fresh s)) by (destruct s; reflexivity).
    destruct (low >? high) eqn:Elh.
    { exists m. split; [reflexivity|]. rewrite <- Es. exact Hr. }
    rewrite (startT m x0 _ Hok). rewrite <- Ht. 
    destruct x0 as [|b0 bl0 br0] eqn:Ex.
    { exists m. split; [reflexivity|]. constructor; [exists L; auto|exact Hd|exact Hn]. }
    rewrite <- Ex in *. assert (Hne : x0 <> L) by (rewrite Ex; discriminate). clear Ex b0 bl0 br0. set (g := tagged (base m)) in *.
    destruct (rangeRootAt_found low high x0 g 0 [] (S (next (base m))) (kidSize false (view g x0)) Hok (ok_hgt _ _ _ _ Hok) Hne)
      as [(H1 & _ & H2)|(c & a & l & r & i & H0 & O & H1 & _ & H2 & H3)]; rewrite H2.
    { exists m. split; [|rewrite Ht, <- Es; exact Hr]. apply fail_tbind. apply (panics_tagged _ _ _ (af_rangeRootAt low high _ (pt x0))). exact H1. }
    erewrite run_tbind by (apply (read_tagged _ _ _ _ (af_rangeRootAt low high _ (pt x0))); exact H1). cbv beta iota.
    rewrite app_nil_r in O. specialize (H3 ltac:(lia)).
    assert (Nr : NoDup (addrs (B a l r))).
    { pose proof (ok_n _ _ _ _ O) as Hn'. apply NoDup_cons_iff in Hn' as (_ & Hn'). apply nodup_app in Hn'. tauto. }
    pose proof (keepAt_ok false low (B a l r) g (S (next (base m))) i (ok_b _ _ _ _ O) Nr (ok_hgt _ _ _ _ O)) as Kf. unfold keepAtSpec, tkeepAt in Kf.
    destruct (IndexModel.keepFromAt low i (view g (B a l r))) as [t1|].
    2:{ exists m. split; [|rewrite Ht, <- Es; exact Hr]. apply fail_tbind. apply (panics_tagged _ _ _ (af_keepAt false low i (Some a))). exact Kf. }
    destruct Kf as (g1 & s1 & R1 & T1 & P1). specialize (P1 ltac:(lia)). destruct (ok_replace _ _ _ _ _ _ _ O T1 P1) as (O1 & C1 & N1).
    destruct (lift_tagged _ _ m _ _ (af_keepAt false low i (Some a)) (af_keepAt false low i (Some a)) R1) as (b1 & R1' & -> & W1).
    erewrite run_tbind by exact R1'.
    pose proof T1 as (B1 & _ & Nd1 & V1 & _).
    pose proof (keepAt_ok true high s1 (tagged b1) (S (next b1)) i B1 Nd1 (ok_hgt _ _ _ _ O1)) as Kt. unfold keepAtSpec, tkeepAt in Kt. rewrite V1 in Kt.
    assert (Ep : pt s1 = Some a) by exact (proj1 P1). rewrite Ep in Kt.
    assert (Nb1 : next b1 = S (fresh s)) by (rewrite <- Hn; exact N1).
    destruct (IndexModel.keepToAt high i t1) as [t2|].
    2:{ exists (TMem b1 (Direct m)). split; [apply fail_tbind; apply (panics_tagged _ _ (TMem b1 (Direct m)) (af_keepAt true high i (Some a))); exact Kt|].
        constructor; cbn [base Direct lks TreelistModel.top fresh]; [|exact Hd|exact Nb1]. exists (plug c s1). split; [apply (proj1 (ok_plug _ _ _ _)); exact O1|].
        rewrite view_plug, C1, V1. reflexivity. }
    destruct Kt as (g2 & s2 & R2 & T2 & P2). specialize (P2 ltac:(lia)). destruct (ok_replace _ _ _ _ _ _ _ O1 T2 P2) as (O2 & C2 & N2).
    destruct (lift_tagged _ _ (TMem b1 (Direct m)) _ _ (af_keepAt true high i (Some a)) (af_keepAt true high i (Some a)) R2) as (b2 & R2' & -> & W2).
    erewrite run_tbind by exact R2'. cbn [Direct base] in *.
    pose proof T2 as (_ & _ & _ & V2 & _).
    assert (Ep2 : pt s2 = Some a) by (rewrite <- Ep; exact (proj1 P2)). rewrite <- V2, <- Ep2.
    apply (settle_ok (lks s) (fresh s) (TMem b2 (Direct m)) c s2 O2 Hd). rewrite <- Nb1. exact N2.
  Qed.

  Section Keys.
  Context (cmp : K -> K -> Z).
  Lemma af_keep {V1 W} d z p : agree (K := K) (V := V1) (W := W) (fueled (fun f => keep cmp d z f p)) (fueled (fun f => keep cmp d z f p)).
  Proof. apply a_fueled. intros f. apply a_keep. Qed.

  Lemma TrimT_ok low high m (s : tl K V) : trep m s ->
    match IndexModel.Trim cmp low high (TreelistModel.top s) with
    | None => Trim cmp 0 low high m = Fail m
    | Some t => exists m', Trim cmp 0 low high m = Done tt m' /\ trep m' (T t (closeEnds t (lks s)) (fresh s))
    end.
  Proof.
    intros Hr. pose proof Hr as [(x0 & Hok & Ht) Hd Hn]. unfold IndexModel.Trim, Trim. destruct (_ >? 0); [reflexivity|].
    erewrite run_tbind by (apply getRootT, Hok). rewrite <- Ht. set (g := tagged (base m)) in *.
    destruct (rangeRoot_found cmp low high x0 g 0 [] (S (next (base m))) Hok (ok_hgt _ _ _ _ Hok)) as [(H1 & _ & H2)|(c & a & l & r & H0 & O & H1 & _ & H2)];
      rewrite H2; (erewrite run_tbind by (apply (read_tagged _ _ _ _ (af_getRangeRoot cmp low high (pt x0))); exact H1)).
    - cbn [IndexModel.leaveFrom IndexModel.leaveTo]. erewrite run_tbind by (apply lift_read; reflexivity). erewrite run_tbind by (apply lift_read; reflexivity).
      assert (O : ok (put_at 0 [] L g) 0 [] L).
      { apply (place_ok g 0 [] (pt x0)); [exact (ok_c _ _ _ _ Hok)| | |exact I]; cbn [caddrs app addrs]; [apply NoDup_cons_iff; split; [tauto|constructor]|].
        intros b [<-|[]]. apply (ok_l _ _ _ _ Hok). left; reflexivity. }
      unfold settle. assert (R : newRoot 0 None g = Ret tt (put_at 0 [] L g)) by reflexivity.
      destruct (lift_tagged _ _ m _ _ (a_newRoot 0 None) (a_newRoot 0 None) R) as (b1 & R2 & E1 & W1). erewrite run_tbind by exact R2. cbn [isNil negb].
      eexists. split; [reflexivity|]. constructor; cbn [base Direct lks fresh TreelistModel.top closeEnds endId]; [|exact Hd|].
      + exists L. split; [|reflexivity]. rewrite <- E1. exact O.
      + change (next b1) with (next (tagged b1)). rewrite <- E1. exact Hn.
    - rewrite app_nil_r in O.
      assert (Nr : NoDup (addrs (B a l r))).
      { pose proof (ok_n _ _ _ _ O) as Hn'. apply NoDup_cons_iff in Hn' as (_ & Hn'). apply nodup_app in Hn'. tauto. }
      destruct (keep_ok cmp false low (B a l r) g (S (next (base m))) (ok_b _ _ _ _ O) Nr (ok_hgt _ _ _ _ O)) as (g1 & s0 & s1 & R1 & _ & T1 & P1).
      destruct (ok_replace _ _ _ _ _ _ _ O T1 P1) as (O1 & C1 & N1). pose proof T1 as (B1 & _ & Nd1 & V1 & _).
      destruct (lift_tagged _ _ m _ _ (af_keep false low (Some a)) (af_keep false low (Some a)) R1) as (b1 & R1' & -> & W1).
      erewrite run_tbind by exact R1'.
      destruct (keep_ok cmp true high s1 (tagged b1) (S (next b1)) B1 Nd1 (ok_hgt _ _ _ _ O1)) as (g2 & s0' & s2 & R2 & _ & T2 & P2).
      destruct (ok_replace _ _ _ _ _ _ _ O1 T2 P2) as (O2 & C2 & N2). pose proof T2 as (B2 & _ & Nd2 & V2 & _).
      assert (Ep : pt s1 = Some a) by exact (proj1 P1). assert (Ep2 : pt s2 = Some a) by (rewrite <- Ep; exact (proj1 P2)).
      rewrite Ep in R2. destruct (lift_tagged _ _ (TMem b1 (Direct m)) _ _ (af_keep true high (Some a)) (af_keep true high (Some a)) R2) as (b2 & R2' & -> & W2).
      erewrite run_tbind by exact R2'. cbn [Direct base] in *.
      replace (leaveTo cmp high (leaveFrom cmp low (view g (B a l r)))) with (view (tagged b2) s2) by (rewrite V2, V1; reflexivity). rewrite <- Ep2.
      apply (settle_ok (lks s) (fresh s) (TMem b2 (Direct m)) c s2 O2 Hd). rewrite <- Hn. cbn in N1, N2. cbn [base]. congruence.
  Qed.
  End Keys.
End Trim.
