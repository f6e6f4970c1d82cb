(** tree/avls against the sorted multimap. *)
From Verif Require Import Base Bind Machine OrderSpec SMapSpec SMapFacts AvlTree AvlSpec AvlModel AvlsModel AvlProofs AvlAny AvlStep.
Local Open Scope Z_scope.

Section Lists.
  Context {K V : Type} (ltb : K -> K -> bool) (W : weak_order ltb).
  Notation entries := (list (K * V)).
  Implicit Types (m l r : entries) (x : K * V) (k : K).

  Lemma upto_left l x r k : ltb k (fst x) = true -> (forall y, In y r -> ltb (fst y) (fst x) = false) ->
    upto ltb k (l ++ x :: r) = upto ltb k l.
  Proof.
    intros Hx Hr. unfold upto. rewrite filter_app. cbn [filter]. rewrite Hx. cbn [negb].
    rewrite (filter_none _ r), app_nil_r; auto. intros y Hy. rewrite (lt_le ltb W k (fst x) (fst y)); auto.
  Qed.
  Lemma upto_right l x r k : ltb k (fst x) = false -> (forall y, In y l -> ltb (fst x) (fst y) = false) ->
    upto ltb k (l ++ x :: r) = l ++ x :: upto ltb k r /\ after ltb k (l ++ x :: r) = after ltb k r.
  Proof.
    intros Hx Hl. unfold upto, after. rewrite !filter_app. cbn [filter]. rewrite Hx. cbn [negb].
    assert (G : forall y, In y l -> ltb k (fst y) = false).
    { intros y Hy. apply (le_le ltb W (fst y) (fst x) k); auto. }
    rewrite (filter_all _ l), (filter_none _ l); auto. intros y Hy. rewrite (G y Hy). reflexivity.
  Qed.
  Lemma before_sames_left l x k : weakly_sorted ltb l -> same ltb (fst x) k = true ->
    (forall y, In y l -> ltb (fst x) (fst y) = false) -> l = before ltb k l ++ sames ltb k l.
  Proof.
    intros Hs Hx Hl. rewrite (cut_all ltb W l k Hs) at 1. unfold after. rewrite (filter_none _ l), app_nil_r; auto.
    intros y Hy. rewrite <- (same_lt_l ltb W _ _ _ Hx). auto.
  Qed.
  Lemma sames_after_right r x k : weakly_sorted ltb r -> same ltb (fst x) k = true ->
    (forall y, In y r -> ltb (fst y) (fst x) = false) -> r = sames ltb k r ++ after ltb k r.
  Proof.
    intros Hs Hx Hr. rewrite (cut_all ltb W r k Hs) at 1. unfold before. rewrite (filter_none _ r); auto.
    intros y Hy. rewrite <- (same_lt_r ltb W _ _ _ Hx). auto.
  Qed.

  Lemma weak_app l r : weakly_sorted ltb (l ++ r) <->
    weakly_sorted ltb l /\ weakly_sorted ltb r /\ (forall x y, In x l -> In y r -> ltb (fst y) (fst x) = false).
  Proof. unfold weakly_sorted. rewrite ssorted_app. tauto. Qed.
  Lemma weak_cons x r : weakly_sorted ltb (x :: r) <-> weakly_sorted ltb r /\ (forall y, In y r -> ltb (fst y) (fst x) = false).
  Proof.
    unfold weakly_sorted. split.
    - inversion 1; subst. rewrite Forall_forall in *. auto.
    - intros (H1 & H2). constructor; auto. apply Forall_forall. auto.
  Qed.
  Lemma insert_sorted e m : weakly_sorted ltb m -> weakly_sorted ltb (mm_insert ltb e m).
  Proof.
    intros H. unfold mm_insert. rewrite weak_app, weak_cons. repeat match goal with |- _ /\ _ => split end.
    - apply (ssorted_filter (V := V)). exact H.
    - apply (ssorted_filter (V := V)). exact H.
    - intros y Hy. apply filter_In in Hy as (_ & Hy). apply (lt_asym ltb W). exact Hy.
    - intros x y Hx Hy. apply filter_In in Hx as (_ & Hx). rewrite negb_true_iff in Hx. destruct Hy as [<-|Hy]; auto.
      apply filter_In in Hy as (_ & Hy). apply (lt_asym ltb W). eapply (le_lt ltb W); eauto.
  Qed.
  Lemma replace_sorted k v m : weakly_sorted ltb m -> weakly_sorted ltb (mm_replace_first ltb k v m).
  Proof.
    intros H. unfold mm_replace_first. pose proof (cut_all ltb W m k H) as C. rewrite C in H.
    destruct (sames ltb k m) as [|[k0 v0] q]; [exact H|]. clear C. revert H. rewrite !weak_app, !weak_cons. cbn [fst].
    intros (A & ((B1 & B2) & B3 & B4) & C). split; auto. split.
    - split; auto. split; auto. intros x y [<-|Hx] Hy; [apply (B4 (k0, v0) y); cbn; auto|apply (B4 x y); cbn; auto].
    - intros x y Hx Hy. cbn [app] in Hy. destruct Hy as [<-|Hy]; [apply (C x (k0, v0)); cbn; auto|apply (C x y); cbn; auto].
  Qed.
  Lemma drop_sorted k m : weakly_sorted ltb m -> weakly_sorted ltb (mm_drop_first ltb k m).
  Proof.
    intros H. unfold mm_drop_first. pose proof (cut_all ltb W m k H) as C. rewrite C in H.
    destruct (sames ltb k m) as [|[k0 v0] q]; [exact H|]. clear C. revert H. cbn [tl]. rewrite !weak_app, !weak_cons.
    intros (A & ((B1 & B2) & B3 & B4) & C). split; auto. split; [split; auto; split; auto|]; intros x y Hx Hy; [apply (B4 x y)|apply (C x y)]; cbn; auto.
  Qed.
  Lemma mmap_sorted m o : weakly_sorted ltb m -> weakly_sorted ltb (fst (mmap_spec ltb m o)).
  Proof.
    intros H. destruct o; cbn [mmap_spec fst]; auto using insert_sorted, drop_sorted.
    - destruct (sames ltb k m); cbn [fst]; auto using insert_sorted.
    - destruct (sames ltb k m); cbn [fst]; auto using insert_sorted, replace_sorted.
    - destruct (sames ltb k m); cbn [fst]; auto using insert_sorted, replace_sorted.
    - constructor.
  Qed.
  Lemma weak_len k m : weakly_sorted ltb m -> length m = (length (before ltb k m) + (length (sames ltb k m) + length (after ltb k m)))%nat.
  Proof. intros H. rewrite (cut_all ltb W m k H) at 1. rewrite !app_length. reflexivity. Qed.
  Lemma insert_len e m : length (mm_insert ltb e m) = S (length m).
  Proof.
    unfold mm_insert, after. rewrite app_length. cbn [length]. rewrite <- plus_n_Sm. f_equal.
    induction m as [|x m IH]; auto. cbn [filter]. destruct (ltb (fst e) (fst x)); cbn [negb length]; lia.
  Qed.
  Lemma replace_len k v m : weakly_sorted ltb m -> length (mm_replace_first ltb k v m) = length m.
  Proof.
    intros H. rewrite (weak_len k m H). unfold mm_replace_first. rewrite !app_length. destruct (sames ltb k m) as [|[k0 v0] q]; reflexivity.
  Qed.
  Lemma drop_len k m : weakly_sorted ltb m ->
    length (mm_drop_first ltb k m) = match sames ltb k m with [] => length m | _ => (length m - 1)%nat end.
  Proof.
    intros H. rewrite (weak_len k m H). unfold mm_drop_first. rewrite !app_length. destruct (sames ltb k m); cbn [tl length]; lia.
  Qed.
End Lists.

Section Ops.
  Context {K V : Type} (ltb : K -> K -> bool) (W : weak_order ltb) (cmp : K -> K -> Z) (Hcmp : ex_cmp ltb cmp) (d : Z).
  Notation tree := (tree K V).

  Ltac side3 ck key := destruct (cmp_cases ltb cmp Hcmp ck key) as [[Hc Ho]|[[Hc Ho]|[Hc Ho]]]; rewrite Hc;
    [change (0 <? 0) with false; change (0 =? 0) with true
    |change (1 <? 0) with false; change (1 =? 0) with false; change (1 =? 1) with true
    |change (-1 <? 0) with true; change (1 =? 0) with false; change (1 =? 1) with true]; cbv iota zeta.

  (** *** entries *)
  Lemma mput_any key v (t : tree) : forall alone t' rb, weakly_sorted ltb (elems t) ->
    mput cmp d key v t alone = Some (t', rb) -> elems t' = mm_insert ltb (key, v) (elems t).
  Proof.
    induction t as [|h ck cv l IHl r IHr]; intros alone t' rb Hs.
    - cbn [mput]. intros E1. injection E1 as <- <-. reflexivity.
    - cbn [elems] in Hs |- *. destruct (weak_mid ltb _ _ _ Hs) as (Sl & Sr & Ll & Lr).
      assert (HR : ltb key ck = false -> forall r0 rb0, mput cmp d key v r (is_nil l) = Some (r0, rb0) ->
        elems l ++ (ck, cv) :: elems r0 = mm_insert ltb (key, v) (elems l ++ (ck, cv) :: elems r)).
      { intros Ho r0 rb0 E1. rewrite (IHr _ _ _ Sr E1). unfold mm_insert. cbn [fst].
        destruct (upto_right ltb W (elems l) (ck, cv) (elems r) key Ho Ll) as (U1 & U2). unfold upto in U1. rewrite U1, U2.
        rewrite <- app_assoc. reflexivity. }
      cbn [mput]. side3 ck key.
      + destruct (mput cmp d key v l (is_nil r)) as [[l' rb']|] eqn:E1; [|discriminate].
        assert (HX : elems (N h ck cv l' r) = mm_insert ltb (key, v) (elems l ++ (ck, cv) :: elems r)).
        { cbn [elems]. rewrite (IHl _ _ _ Sl E1). unfold mm_insert. cbn [fst].
          pose proof (upto_left ltb W (elems l) (ck, cv) (elems r) key Ho Lr) as U1. unfold upto in U1. rewrite U1.
          destruct (cut_left ltb W (elems l) (ck, cv) (elems r) key Ho Lr) as (_ & _ & U2). rewrite U2.
          rewrite <- app_assoc. reflexivity. }
        destruct rb'; [|intros E2; injection E2 as <- <-; exact HX]. intros E2. rewrite (rebalance_elems _ _ _ _ _ E2). exact HX.
      + destruct (mput cmp d key v r (is_nil l)) as [[r' rb']|] eqn:E1; [|discriminate].
        pose proof (HR (lt_asym ltb W _ _ Ho) _ _ eq_refl) as HX.
        destruct rb'; [|intros E2; injection E2 as <- <-; exact HX]. intros E2. rewrite (rebalance_elems _ _ _ _ _ E2). exact HX.
      + apply same_iff in Ho as (Ho1 & Ho2).
        destruct (mput cmp d key v r (is_nil l)) as [[r' rb']|] eqn:E1; [|discriminate].
        pose proof (HR Ho2 _ _ eq_refl) as HX.
        destruct rb'; [|intros E2; injection E2 as <- <-; exact HX]. intros E2. rewrite (rebalance_elems _ _ _ _ _ E2). exact HX.
  Qed.

  Lemma mget_ok key (t : tree) : weakly_sorted ltb (elems t) -> mget cmp key t = Some (hd_error (sames ltb key (elems t))).
  Proof.
    induction t as [|h ck cv l IHl r IHr]; intros Hs; [reflexivity|].
    cbn [elems] in Hs |- *. destruct (weak_mid ltb _ _ _ Hs) as (Sl & Sr & Ll & Lr). cbn [mget]. side3 ck key.
    - destruct (cut_left ltb W (elems l) (ck, cv) (elems r) key Ho Lr) as (_ & C2 & _). rewrite C2. auto.
    - destruct (cut_right ltb W (elems l) (ck, cv) (elems r) key Ho Ll) as (_ & C2 & _). rewrite C2. auto.
    - destruct (cut_same ltb W (elems l) (ck, cv) (elems r) key Ho Ll Lr) as (_ & C2 & _). rewrite C2, (IHl Sl).
      destruct (sames ltb key (elems l)); reflexivity.
  Qed.

  Lemma mget_write_ok key v (t : tree) : weakly_sorted ltb (elems t) ->
    exists t', mget_write cmp key v t = Some (t', match sames ltb key (elems t) with [] => false | _ => true end) /\
      elems t' = mm_replace_first ltb key v (elems t) /\ ht t' = ht t /\ (forall D, Inv D t -> Inv D t').
  Proof.
    induction t as [|h ck cv l IHl r IHr]; intros Hs.
    { exists E. repeat split; auto. }
    cbn [elems] in Hs |- *. destruct (weak_mid ltb _ _ _ Hs) as (Sl & Sr & Ll & Lr). cbn [mget_write].
    destruct (IHl Sl) as (l' & L1 & L2 & L3 & L4). destruct (IHr Sr) as (r' & R1 & R2 & R3 & R4).
    unfold mm_replace_first in *. side3 ck key.
    - destruct (cut_left ltb W (elems l) (ck, cv) (elems r) key Ho Lr) as (C1 & C2 & C3). rewrite C1, C2, C3, L1.
      eexists. split; [reflexivity|]. cbn [elems ht]. rewrite L2, L3, <- !app_assoc. split; auto. split; auto.
      intros D. rewrite !Inv_N, L3. intuition.
    - destruct (cut_right ltb W (elems l) (ck, cv) (elems r) key Ho Ll) as (C1 & C2 & C3). rewrite C1, C2, C3, R1.
      eexists. split; [reflexivity|]. cbn [elems ht]. rewrite R2, R3, <- app_assoc. split; auto. split; auto.
      intros D. rewrite !Inv_N, R3. intuition.
    - destruct (cut_same ltb W (elems l) (ck, cv) (elems r) key Ho Ll Lr) as (C1 & C2 & C3). rewrite C1, C2, C3, L1.
      pose proof (before_sames_left ltb W (elems l) (ck, cv) key Sl Ho Ll) as B1.
      pose proof (sames_after_right ltb W (elems r) (ck, cv) key Sr Ho Lr) as B2.
      destruct (sames ltb key (elems l)) as [|[k0 v0] q] eqn:El.
      + eexists. split; [reflexivity|]. cbn [elems ht app]. rewrite app_nil_r in B1. rewrite <- B1, <- B2. auto.
      + eexists. split; [reflexivity|]. cbn [elems ht app]. rewrite L2, L3. split.
        * assert (A0 : after ltb key (elems l) = []).
          { unfold after. apply filter_none. intros y Hy. rewrite <- (same_lt_l ltb W _ _ _ Ho). apply Ll. exact Hy. }
          rewrite A0, app_nil_r. repeat (rewrite <- !app_assoc || cbn [app]). rewrite <- B2. reflexivity.
        * split; auto. intros D. rewrite !Inv_N, L3. intuition.
  Qed.

  Lemma removeLeft_nil key (t : tree) : forall side t' rb,
    removeLeft cmp d key t side = Some (t', None, rb) -> t' = t /\ rb = false.
  Proof.
    induction t as [|h ck cv l IHl r IHr]; intros side t' rb; cbn [removeLeft].
    { intros E1. injection E1 as <- <-. auto. }
    destruct (cmp ck key <? 0).
    - destruct (removeLeft cmp d key l false) as [[[l' [o'|]] rb']|].
      { destruct rb'; [destruct (rebalance One d _) as [[? ?]|]|]; discriminate. }
      2: discriminate.
      destruct l'; [discriminate|]. destruct r; [discriminate|].
      destruct (neighboring One d _ _) as [[[? [? ?]] ?]|]; [|discriminate].
      destruct (rebalance One d _) as [[? ?]|]; discriminate.
    - destruct (cmp ck key =? 0).
      + destruct (removeLeft cmp d key l false) as [[[l' [o'|]] rb']|] eqn:E1; [| |discriminate].
        * destruct rb'; [destruct (rebalance One d _) as [[? ?]|]|]; discriminate.
        * destruct (IHl _ _ _ E1) as (-> & ->). intros E2. injection E2 as <- <-. auto.
      + destruct (cmp ck key =? 1); [|discriminate].
        destruct (removeLeft cmp d key r true) as [[[r' [o'|]] rb']|] eqn:E1; [| |discriminate].
        * destruct rb'; [destruct (rebalance One d _) as [[? ?]|]|]; discriminate.
        * destruct (IHr _ _ _ E1) as (-> & ->). intros E2. injection E2 as <- <-. auto.
  Qed.

  Lemma removeLeft_any key (t : tree) : forall side t' o rb, weakly_sorted ltb (elems t) ->
    removeLeft cmp d key t side = Some (t', o, rb) ->
    o = option_map snd (hd_error (sames ltb key (elems t))) /\ elems t' = mm_drop_first ltb key (elems t).
  Proof.
    induction t as [|h ck cv l IHl r IHr]; intros side t' o rb Hs.
    { cbn [removeLeft]. intros E1. injection E1 as <- <- <-. auto. }
    cbn [elems] in Hs |- *. destruct (weak_mid ltb _ _ _ Hs) as (Sl & Sr & Ll & Lr). cbn [removeLeft]. side3 ck key.
    - destruct (removeLeft cmp d key l false) as [[[l' o'] rb']|] eqn:E1; [|discriminate].
      destruct (IHl _ _ _ _ Sl E1) as (X1 & X2).
      destruct (cut_left ltb W (elems l) (ck, cv) (elems r) key Ho Lr) as (C1 & C2 & C3).
      assert (HX : elems (N h ck cv l' r) = mm_drop_first ltb key (elems l ++ (ck, cv) :: elems r)).
      { unfold mm_drop_first in *. cbn [elems]. rewrite C1, C2, C3, X2, <- !app_assoc. reflexivity. }
      rewrite C2. destruct rb'.
      * destruct (rebalance One d (N h ck cv l' r)) as [[t1 b1]|] eqn:E2; [|discriminate].
        intros E3. injection E3 as <- <- <-. rewrite (rebalance_elems _ _ _ _ _ E2). auto.
      * intros E3. injection E3 as <- <- <-. auto.
    - destruct (removeLeft cmp d key r true) as [[[r' o'] rb']|] eqn:E1; [|discriminate].
      destruct (IHr _ _ _ _ Sr E1) as (X1 & X2).
      destruct (cut_right ltb W (elems l) (ck, cv) (elems r) key Ho Ll) as (C1 & C2 & C3).
      assert (HX : elems (N h ck cv l r') = mm_drop_first ltb key (elems l ++ (ck, cv) :: elems r)).
      { unfold mm_drop_first in *. cbn [elems]. rewrite C1, C2, C3, X2, <- !app_assoc. reflexivity. }
      rewrite C2. destruct rb'.
      * destruct (rebalance One d (N h ck cv l r')) as [[t1 b1]|] eqn:E2; [|discriminate].
        intros E3. injection E3 as <- <- <-. rewrite (rebalance_elems _ _ _ _ _ E2). auto.
      * intros E3. injection E3 as <- <- <-. auto.
    - destruct (removeLeft cmp d key l false) as [[[l' o'] rb']|] eqn:E1; [|discriminate].
      destruct (IHl _ _ _ _ Sl E1) as (X1 & X2).
      destruct (cut_same ltb W (elems l) (ck, cv) (elems r) key Ho Ll Lr) as (C1 & C2 & C3).
      pose proof (before_sames_left ltb W (elems l) (ck, cv) key Sl Ho Ll) as B1.
      pose proof (sames_after_right ltb W (elems r) (ck, cv) key Sr Ho Lr) as B2.
      assert (A0 : after ltb key (elems l) = []).
      { unfold after. apply filter_none. intros y Hy. rewrite <- (same_lt_l ltb W _ _ _ Ho). apply Ll. exact Hy. }
      rewrite C2. destruct o' as [v|].
      + assert (HX : elems (N h ck cv l' r) = mm_drop_first ltb key (elems l ++ (ck, cv) :: elems r)).
        { unfold mm_drop_first in *. cbn [elems]. rewrite C1, C2, C3, X2, A0, app_nil_r.
          destruct (sames ltb key (elems l)) as [|e q]; [discriminate|]. cbn [tl app].
          rewrite B2 at 1. rewrite <- !app_assoc. reflexivity. }
        assert (HV : Some v = option_map snd (hd_error (sames ltb key (elems l) ++ (ck, cv) :: sames ltb key (elems r)))).
        { destruct (sames ltb key (elems l)) as [|e q]; [discriminate|exact X1]. }
        destruct rb'.
        * destruct (rebalance One d (N h ck cv l' r)) as [[t1 b1]|] eqn:E2; [|discriminate].
          intros E3. injection E3 as <- <- <-. rewrite (rebalance_elems _ _ _ _ _ E2). auto.
        * intros E3. injection E3 as <- <- <-. auto.
      + assert (S0 : sames ltb key (elems l) = []) by (destruct (sames ltb key (elems l)); [reflexivity|discriminate]).
        destruct (removeLeft_nil _ _ _ _ _ E1) as (-> & _). rewrite S0 in *. rewrite app_nil_r in B1. cbn [app hd_error option_map snd].
        assert (HX : mm_drop_first ltb key (elems l ++ (ck, cv) :: elems r) = elems l ++ elems r).
        { unfold mm_drop_first. rewrite C1, C2, C3. cbn [app tl]. rewrite <- B1, <- B2. reflexivity. }
        rewrite HX. destruct l as [|lh lk lv ll lr]; [intros E2; injection E2 as <- <- <-; auto|].
        destruct r as [|rh rk rv rl rr]; [intros E2; injection E2 as <- <- <-; cbn [elems]; rewrite app_nil_r; auto|].
        destruct (neighboring One d (negb side) (child side (N lh lk lv ll lr) (N rh rk rv rl rr))) as [[[sub [nk nv]] b1]|] eqn:E2; [|discriminate].
        apply neighboring_elems in E2. set (L := N lh lk lv ll lr) in *. set (R := N rh rk rv rl rr) in *. clearbody L R.
        destruct (rebalance One d (with_child side h nk nv L R sub)) as [[t1 b2]|] eqn:E3; [|discriminate].
        intros E4. injection E4 as <- <- <-. split; auto. rewrite (rebalance_elems _ _ _ _ _ E3). destruct side; cbn [child with_child negb elems] in *.
        * rewrite E2. reflexivity.
        * rewrite E2, <- app_assoc. reflexivity.
  Qed.

  (** *** heights *)
  Context (D : Z) (RB : @rb_ok K V One d D) (HD : 1 <= D).
  Ltac conj_ := repeat match goal with |- _ /\ _ => split end.
  Ltac nonneg := repeat match goal with
    | t : AvlTree.tree K V |- _ => lazymatch goal with H : 0 <= ht t |- _ => fail | _ => pose proof (ht_nonneg t) end end.
  Lemma mput_ok key v (t : tree) : forall alone, Inv D t -> ht t <= 126 ->
    exists t' rb, mput cmp d key v t alone = Some (t', rb) /\ Inv D t' /\ ht t' <= ht t + 1 /\ (D = 127 \/ ht t <= ht t') /\
      (rb = false -> ht t' = ht t \/ (t = E /\ alone = false /\ ht t' = 1)).
  Proof.
    induction t as [|h ck cv l IHl r IHr]; intros alone HI Hh.
    - exists (N 1 key v E E), alone. cbn [mput ht]. conj_; auto; try lia; try discriminate; split; cbn; auto with zarith; repeat split; lia.
    - apply Inv_N in HI. destruct HI as (Eh & Hb & Il & Ir). cbn [ht] in Hh.
      assert (HL : exists t' rb, ('(l', rb) <- mput cmp d key v l (is_nil r) ;;
          if rb : bool then rebalance One d (N h ck cv l' r) else Some (N h ck cv l' r, false)) = Some (t', rb) /\
        Inv D t' /\ ht t' <= ht (N h ck cv l r) + 1 /\ (D = 127 \/ ht (N h ck cv l r) <= ht t') /\
        (rb = false -> ht t' = ht (N h ck cv l r) \/ (N h ck cv l r = E /\ alone = false /\ ht t' = 1))).
      { nonneg. destruct (IHl (is_nil r) Il ltac:(lia)) as (l' & rb & E1 & I' & B1 & B2 & B4). rewrite E1. nonneg. destruct rb.
        - destruct (RB h ck cv l' r I' Ir ltac:(lia) ltac:(lia) ltac:(lia)) as (t' & b & R1 & R2 & R3 & R4 & R5 & R6).
          rewrite R1. exists t', b. cbn [ht]. conj_; auto; try apply R3; try lia.
          intros ->. left. rewrite (R6 eq_refl) in R3 |- *. apply Inv_N in R3. cbn [ht]. lia.
        - exists (N h ck cv l' r), false. rewrite Inv_N. cbn [ht].
          assert (Z.max (ht l') (ht r) = Z.max (ht l) (ht r) /\ Z.abs (ht l' - ht r) <= D) as (M1 & M2).
          { destruct (B4 eq_refl) as [B5|(-> & B5 & B6)]; [rewrite B5; auto|].
            destruct r as [|rh rk rv rl rr]; [discriminate|].
            pose proof (ht_nonneg rl). pose proof (ht_nonneg rr). cbn [ht] in *. lia. }
          rewrite M1. conj_; auto; try lia. }
      assert (HR : exists t' rb, ('(r', rb) <- mput cmp d key v r (is_nil l) ;;
          if rb : bool then rebalance One d (N h ck cv l r') else Some (N h ck cv l r', false)) = Some (t', rb) /\
        Inv D t' /\ ht t' <= ht (N h ck cv l r) + 1 /\ (D = 127 \/ ht (N h ck cv l r) <= ht t') /\
        (rb = false -> ht t' = ht (N h ck cv l r) \/ (N h ck cv l r = E /\ alone = false /\ ht t' = 1))).
      { nonneg. destruct (IHr (is_nil l) Ir ltac:(lia)) as (r' & rb & E1 & I' & B1 & B2 & B4). rewrite E1. nonneg. destruct rb.
        - destruct (RB h ck cv l r' Il I' ltac:(lia) ltac:(lia) ltac:(lia)) as (t' & b & R1 & R2 & R3 & R4 & R5 & R6).
          rewrite R1. exists t', b. cbn [ht]. conj_; auto; try apply R3; try lia.
          intros ->. left. rewrite (R6 eq_refl) in R3 |- *. apply Inv_N in R3. cbn [ht]. lia.
        - exists (N h ck cv l r'), false. rewrite Inv_N. cbn [ht].
          assert (Z.max (ht l) (ht r') = Z.max (ht l) (ht r) /\ Z.abs (ht l - ht r') <= D) as (M1 & M2).
          { destruct (B4 eq_refl) as [B5|(-> & B5 & B6)]; [rewrite B5; auto|].
            destruct l as [|rh rk rv rl rr]; [discriminate|].
            pose proof (ht_nonneg rl). pose proof (ht_nonneg rr). cbn [ht] in *. lia. }
          rewrite M1. conj_; auto; try lia. }
      cbn [mput]. side3 ck key; [exact HL|exact HR|exact HR].
  Qed.

  Lemma removeLeft_ok key (t : tree) : forall side, Inv D t -> ht t <= 127 ->
    exists t' o rb, removeLeft cmp d key t side = Some (t', o, rb) /\ Inv D t' /\
      ht t' <= ht t /\ (D = 127 \/ ht t - 1 <= ht t') /\ (rb = false -> ht t' = ht t).
  Proof.
    induction t as [|h ck cv l IHl r IHr]; intros side HI Hh.
    { exists E, None, false. conj_; auto; cbn [ht]; lia. }
    pose proof HI as HI0. apply Inv_N in HI. destruct HI as (Eh & Hb & Il & Ir). cbn [ht] in Hh. nonneg.
    assert (HRb : forall l' r', Inv D l' -> Inv D r' -> (l' = l \/ r' = r) -> ht l' <= ht l -> ht r' <= ht r -> (D = 127 \/ ht l - 1 <= ht l') ->
      (D = 127 \/ ht r - 1 <= ht r') -> forall nk nv (o : option V),
      exists t' o' rb, ('(t, rb') <- rebalance One d (N h nk nv l' r') ;; Some (t, o, rb')) = Some (t', o', rb) /\ Inv D t' /\
        ht t' <= ht (N h ck cv l r) /\ (D = 127 \/ ht (N h ck cv l r) - 1 <= ht t') /\ (rb = false -> ht t' = ht (N h ck cv l r))).
    { intros l' r' I1 I2 Hor B1 B2 B3 B4 nk nv o. nonneg.
      destruct (RB h nk nv l' r' I1 I2 ltac:(lia) ltac:(lia) ltac:(destruct Hor; subst; lia)) as (t' & b & R1 & R2 & R3 & R4 & R5 & R6).
      rewrite R1. exists t', o, b. cbn [ht]. conj_; auto; try apply R3; try (destruct Hor; subst; lia).
      intros ->. rewrite (R6 eq_refl) in R3 |- *. apply Inv_N in R3. cbn [ht]. lia. }
    cbn [removeLeft]. side3 ck key.
    - destruct (IHl false Il ltac:(lia)) as (l' & o & rb & E1 & I' & B1 & B2 & B3). rewrite E1. destruct rb.
      + apply HRb; auto; lia.
      + exists (N h ck cv l' r), o, false. rewrite Inv_N. cbn [ht]. rewrite (B3 eq_refl). conj_; auto; lia.
    - destruct (IHr true Ir ltac:(lia)) as (r' & o & rb & E1 & I' & B1 & B2 & B3). rewrite E1. destruct rb.
      + apply HRb; auto; lia.
      + exists (N h ck cv l r'), o, false. rewrite Inv_N. cbn [ht]. rewrite (B3 eq_refl). conj_; auto; lia.
    - destruct (IHl false Il ltac:(lia)) as (l' & o & rb & E1 & I' & B1 & B2 & B3). rewrite E1. destruct o as [v|].
      + destruct rb.
        * apply HRb; auto; lia.
        * exists (N h ck cv l' r), (Some v), false. rewrite Inv_N. cbn [ht]. rewrite (B3 eq_refl). conj_; auto; lia.
      + destruct (removeLeft_nil _ _ _ _ _ E1) as (-> & _). destruct l as [|lh lk lv ll lr] eqn:El; [|destruct r as [|rh rk rv rl rr] eqn:Er].
        * exists r, (Some cv), true. cbn [ht] in *. conj_; auto; try apply Ir; try lia; discriminate.
        * exists (N lh lk lv ll lr), (Some cv), true. cbn [ht] in *. conj_; auto; try apply Il; try lia; discriminate.
        * rewrite <- El, <- Er in *. destruct side; cbn [negb child with_child].
          -- destruct (neighboring_ok One d D RB HD false r) as (r' & [rk' rv'] & rb1 & F1 & F2 & I1 & D1 & D2 & D3); auto; try lia; [congruence|].
             rewrite F1. apply HRb; auto; lia.
          -- destruct (neighboring_ok One d D RB HD true l) as (l' & [lk' lv'] & rb1 & F1 & F2 & I1 & D1 & D2 & D3); auto; try lia; [congruence|].
             rewrite F1. apply HRb; auto; lia.
  Qed.
End Ops.

Section Step.
  Context {K V : Type} (ltb : K -> K -> bool) (W : weak_order ltb) (cmp : K -> K -> Z) (Hcmp : ex_cmp ltb cmp) (d : Z).
  Notation avl := (avl K V).

  Definition MRel (s : avl) (m : list (K * V)) : Prop :=
    elems (root s) = m /\ size s = length m /\ weakly_sorted ltb m.
  Lemma mrel_new : MRel new [].
  Proof. repeat split. constructor. Qed.

  Lemma sput_any s m k v s' b : MRel s m -> sput cmp d s k v = Some (s', b) -> b = true /\ MRel s' (mm_insert ltb (k, v) m).
  Proof.
    intros (<- & Hn & Hm). unfold sput. destruct (mput cmp d k v (root s) false) as [[t rb]|] eqn:E1; [|discriminate].
    intros E2. injection E2 as <- <-. split; [reflexivity|]. unfold MRel. cbn [root size].
    rewrite (mput_any ltb W cmp Hcmp d _ _ _ _ _ _ Hm E1), insert_len, Hn. auto using (insert_sorted ltb W).
  Qed.
  Lemma write_any s m k v : MRel s m -> sames ltb k m <> [] ->
    exists t, mget_write cmp k v (root s) = Some (t, true) /\ MRel (AVL t (size s)) (mm_replace_first ltb k v m).
  Proof.
    intros (<- & Hn & Hm) Hs. destruct (mget_write_ok ltb W cmp Hcmp k v (root s) Hm) as (t & E1 & E2 & _).
    exists t. rewrite E1. destruct (sames ltb k (elems (root s))) eqn:Es; [congruence|]. split; [reflexivity|].
    unfold MRel. cbn [root size]. rewrite E2, (replace_len ltb W), Hn by auto. auto using (replace_sorted ltb W).
  Qed.
  Lemma sremove_any s m k s' b : MRel s m -> sremove cmp d s k = Some (s', b) ->
    b = option_map snd (hd_error (sames ltb k m)) /\ MRel s' (mm_drop_first ltb k m).
  Proof.
    intros (<- & Hn & Hm). unfold sremove. destruct (removeLeft cmp d k (root s) true) as [[[t o] rb]|] eqn:E1; [|discriminate].
    destruct (removeLeft_any ltb W cmp Hcmp d _ _ _ _ _ _ Hm E1) as (-> & E2).
    unfold MRel. rewrite (drop_len ltb W) by auto. pose proof (drop_sorted ltb W k _ Hm).
    destruct (sames ltb k (elems (root s))) as [|e q]; cbn [hd_error option_map]; intros E3; injection E3 as <- <-; cbn [root size]; rewrite ?Hn; auto.
  Qed.

  Lemma mstep_any s m o s' r : MRel s m -> mstep cmp d s o = Some (s', r) ->
    r = snd (mmap_spec ltb m o) /\ MRel s' (fst (mmap_spec ltb m o)).
  Proof.
    intros HR. pose proof HR as (Ee & Hn & Hm).
    assert (HG : forall k, mget cmp k (root s) = Some (hd_error (sames ltb k m))).
    { intros k. rewrite <- Ee. apply (mget_ok ltb W cmp Hcmp). congruence. }
    destruct o; cbn [mstep mmap_spec].
    - destruct (sput cmp d s k v) as [[s1 b]|] eqn:E1; [|discriminate]. intros E2. injection E2 as <- <-.
      destruct (sput_any _ _ _ _ _ _ HR E1) as (-> & HR'). auto.
    - unfold sinsert, sget. rewrite HG. destruct (sames ltb k m) as [|e q]; cbn [hd_error option_map].
      + destruct (sput cmp d s k v) as [[s1 b]|] eqn:E1; [|discriminate]. intros E2. injection E2 as <- <-.
        destruct (sput_any _ _ _ _ _ _ HR E1) as (-> & HR'). auto.
      + intros E2. injection E2 as <- <-. auto.
    - unfold sset. rewrite HG. destruct (sames ltb k m) as [|e q] eqn:Es; cbn [hd_error].
      + pose proof (sput_any s m k v) as X. unfold sput in X. destruct (mput cmp d k v (root s) false) as [[t rb]|]; [|discriminate].
        intros E2. injection E2 as <- <-. destruct (X _ _ HR eq_refl). auto.
      + destruct (write_any s m k v HR ltac:(congruence)) as (t & -> & HR'). intros E2. injection E2 as <- <-. auto.
    - unfold supsert. rewrite HG. destruct (sames ltb k m) as [|e q] eqn:Es; cbn [hd_error].
      + destruct (sput cmp d s k v) as [[s1 b]|] eqn:E1; [|discriminate]. intros E2. injection E2 as <- <-.
        destruct (sput_any _ _ _ _ _ _ HR E1) as (_ & HR'). auto.
      + destruct (write_any s m k v HR ltac:(congruence)) as (t & -> & HR'). intros E2. injection E2 as <- <-. auto.
    - unfold sget. rewrite HG. intros E2. injection E2 as <- <-. auto.
    - unfold sget. rewrite HG. intros E2. injection E2 as <- <-. destruct (sames ltb k m); auto.
    - destruct (sremove cmp d s k) as [[s1 b]|] eqn:E1; [|discriminate]. intros E2. injection E2 as <- <-.
      destruct (sremove_any _ _ _ _ _ HR E1) as (-> & HR'). auto.
    - destruct (sremove cmp d s k) as [[s1 b]|] eqn:E1; [|discriminate]. intros E2. injection E2 as <- <-.
      destruct (sremove_any _ _ _ _ _ HR E1) as (-> & HR'). auto.
    - intros E2. injection E2 as <- <-. cbn [fst snd]. repeat split. constructor.
    - intros E2; injection E2 as <- <-. rewrite Hn. auto.
    - intros E2; injection E2 as <- <-. rewrite Hn. auto.
    - intros E2; injection E2 as <- <-. rewrite Hn. destruct m; auto.
    - intros E2; injection E2 as <- <-. rewrite values_ok by congruence. rewrite Ee. auto.
    - intros E2; injection E2 as <- <-. destruct (traverse_ok go (root s) []) as (-> & _). rewrite Ee. auto.
  Qed.

  Lemma mrun_any ops : forall s m rs, MRel s m -> run (mstep cmp d) s ops = Some rs -> rs = srun (mmap_spec ltb) m ops.
  Proof.
    induction ops as [|o ops IH]; intros s m rs HR; cbn [run srun]; [congruence|].
    destruct (mstep cmp d s o) as [[s' r]|] eqn:E1; [|discriminate].
    destruct (mstep_any _ _ _ _ _ HR E1) as (-> & HR').
    destruct (run (mstep cmp d) s' ops) as [rs'|] eqn:E2; [|discriminate]. cbn [option_map]. intros E3. injection E3 as <-.
    rewrite (IH _ _ _ HR' E2). destruct (mmap_spec ltb m o); reflexivity.
  Qed.

  Lemma mmap_grow (m : list (K * V)) o : weakly_sorted ltb m -> (length (fst (mmap_spec ltb m o)) <= S (length m))%nat.
  Proof.
    intros H. pose proof (fun k => drop_len ltb W k m H) as HD.
    assert (HD' : forall k, (length (mm_drop_first ltb k m) <= S (length m))%nat) by (intros k; rewrite HD; destruct (sames ltb k m); lia).
    destruct o; cbn [mmap_spec fst]; auto; try (destruct (sames ltb k m); cbn [fst]);
      rewrite ?insert_len, ?(replace_len ltb W) by auto; cbn [length]; lia.
  Qed.

  Context (RB : @rb_ok K V One d 1).
  Lemma mstep_total s m o : MRel s m -> Inv 1 (root s) -> ht (root s) <= 126 ->
    exists s' r, mstep cmp d s o = Some (s', r) /\ Inv 1 (root s').
  Proof.
    intros HR HI Hh. pose proof HR as (Ee & Hn & Hm).
    assert (HG : forall k, mget cmp k (root s) = Some (hd_error (sames ltb k m))).
    { intros k. rewrite <- Ee. apply (mget_ok ltb W cmp Hcmp). congruence. }
    assert (HP : forall k v, exists t b, mput cmp d k v (root s) false = Some (t, b) /\ Inv 1 t).
    { intros k v. destruct (mput_ok ltb cmp Hcmp d 1 RB ltac:(lia) k v (root s) false HI Hh) as (t & b & E1 & I1 & _). eauto. }
    assert (HW : forall k v, exists t b, mget_write cmp k v (root s) = Some (t, b) /\ Inv 1 t).
    { intros k v. rewrite <- Ee in Hm. destruct (mget_write_ok ltb W cmp Hcmp k v (root s) Hm) as (t & E1 & _ & _ & I1). eauto. }
    assert (HD : forall k, exists s' b, sremove cmp d s k = Some (s', b) /\ Inv 1 (root s')).
    { intros k. unfold sremove. destruct (removeLeft_ok ltb cmp Hcmp d 1 RB ltac:(lia) k (root s) true HI ltac:(lia)) as (t & o' & b & E1 & I1 & _).
      rewrite E1. destruct o'; eexists; eexists; (split; [reflexivity|]); auto. }
    destruct o; cbn [mstep]; unfold sinsert, sset, supsert, sget, sput; rewrite ?HG.
    - destruct (HP k v) as (t & b & -> & I1). eauto.
    - destruct (HP k v) as (t & b & -> & I1). destruct (hd_error (sames ltb k m)); cbn [option_map]; eauto.
    - destruct (HP k v) as (t & b & -> & I1). destruct (HW k v) as (t2 & b2 & -> & I2). destruct (hd_error (sames ltb k m)); eauto.
    - destruct (HP k v) as (t & b & -> & I1). destruct (HW k v) as (t2 & b2 & -> & I2). destruct (hd_error (sames ltb k m)); eauto.
    - eauto.
    - eauto.
    - destruct (HD k) as (s' & b & -> & I1). eauto.
    - destruct (HD k) as (s' & b & -> & I1). eauto.
    - eexists; eexists; split; [reflexivity|]. apply Inv_E.
    - eauto.
    - eauto.
    - eauto.
    - eauto.
    - eauto.
  Qed.

  Lemma mrun_total ops : forall s m, MRel s m -> Inv 1 (root s) -> Z.of_nat (length m + length ops) < 2 ^ 64 ->
    run (mstep cmp d) s ops = Some (srun (mmap_spec ltb) m ops) /\
    exists s', reach (mstep cmp d) s ops = Some s' /\ MRel s' (sreach (mmap_spec ltb) m ops) /\ Inv 1 (root s').
  Proof.
    induction ops as [|o ops IH]; intros s m HR HI HL; cbn [run srun reach sreach].
    - split; [reflexivity|]. exists s. auto.
    - destruct (mstep_total s m o HR HI) as (s' & r & E1 & HI').
      { apply avl_low; [apply HI|]. destruct HR as (-> & _). lia. }
      rewrite E1. destruct (mstep_any _ _ _ _ _ HR E1) as (-> & HR').
      destruct (IH s' _ HR' HI') as (E2 & s2 & E3 & R2 & I2).
      { destruct HR as (_ & _ & Hm). pose proof (mmap_grow m o Hm). cbn [length] in HL. lia. }
      rewrite E2. destruct (mmap_spec ltb m o) as [m' r']. split; [reflexivity|]. eauto.
  Qed.
End Step.
