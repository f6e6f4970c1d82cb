(** tree/avl, set/treeset and tree/avls: what holds for any comparison function that gives a direction or a hit. *)
From Verif Require Import Base Bind Machine OrderSpec SMapSpec SMapFacts AvlTree AvlSpec AvlModel AvlProofs AvlAny AvlStep AvlsModel WildSpec IndexWildProofs.
Local Open Scope Z_scope.

Section Tree.
  Context {K V : Type} (cmp : K -> K -> Z) (Hdir : forall a b, cmp a b <= 1).
  Context (st : style) (d D : Z) (RB : @rb_ok K V st d D) (HD : 1 <= D).
  Notation tree := (tree K V).
  Implicit Types (t l r : tree).

  Ltac conj_ := repeat match goal with |- _ /\ _ => split end.
  Ltac nonneg := repeat match goal with
    | t : AvlTree.tree K V |- _ => lazymatch goal with H : 0 <= ht t |- _ => fail | _ => pose proof (ht_nonneg t) end
    end.
  Ltac side3 ck key := pose proof (Hdir ck key); destruct (Z.ltb_spec (cmp ck key) 0) as [Ho|Ho];
    [|destruct (Z.eqb_spec (cmp ck key) 0) as [Ho0|Ho0]; [|destruct (Z.eqb_spec (cmp ck key) 1) as [Ho1|Ho1]; [|lia]]].

  (** what a walk that may write at a hit leaves of the entries *)
  Definition wrote (ex : bool) (f : K * V -> K * V) key v (m m' : list (K * V)) : Prop :=
    if ex then exists e, hit cmp key e /\ swapped e (f e) m m' else added (key, v) m m'.
  Lemma wrote_left ex f key v m m' y (q : list (K * V)) : wrote ex f key v m m' -> wrote ex f key v (m ++ y :: q) (m' ++ y :: q).
  Proof. destruct ex; cbn [wrote]; [|apply added_left]. intros (e & H1 & H2). exists e. split; [exact H1|apply swapped_left, H2]. Qed.
  Lemma wrote_right ex f key v m m' y (q : list (K * V)) : wrote ex f key v m m' -> wrote ex f key v (q ++ y :: m) (q ++ y :: m').
  Proof. destruct ex; cbn [wrote]; [|apply added_right]. intros (e & H1 & H2). exists e. split; [exact H1|apply swapped_right, H2]. Qed.

  Lemma put_wild f key v t : forall alone, Inv D t -> ht t <= 126 ->
    exists t' ex rb, put cmp st d f key v t alone = Some (t', ex, rb) /\ wrote ex f key v (elems t) (elems t') /\
      Inv D t' /\ ht t' <= ht t + 1 /\ (D = 127 \/ ht t <= ht t') /\ (ex = true -> ht t' = ht t) /\
      (rb = false -> ht t' = ht t \/ (t = E /\ alone = false /\ ht t' = 1)).
  Proof.
    induction t as [|h ck cv l IHl r IHr]; intros alone HI Hh.
    - exists (N 1 key v E E), false, alone. cbn [put ht elems]. split; [reflexivity|]. split; [exists [], []; auto|].
      conj_; auto; try lia; try discriminate; split; cbn; auto with zarith; repeat split; lia.
    - apply Inv_N in HI. destruct HI as (Eh & Hb & Il & Ir). cbn [ht] in Hh. cbn [elems]. nonneg. cbn [put]. side3 ck key.
      + destruct (f (ck, cv)) as [k' v'] eqn:Ef. exists (N h k' v' l r), true, false. rewrite Inv_N. cbn [ht elems]. split; [reflexivity|]. split.
        * exists (ck, cv). split; [exact Ho|]. rewrite Ef. apply swapped_mid.
        * conj_; auto; lia.
      + destruct (IHl (is_nil r) Il ltac:(lia)) as (l' & ex & rb & E1 & E2 & I' & B1 & B2 & B3 & B4). rewrite E1.
        pose proof (wrote_left _ _ _ _ _ _ (ck, cv) (elems r) E2) as HX. clear E2. nonneg.
        destruct ex; [|destruct rb]; cbn [orb negb].
        * exists (N h ck cv l' r), true, rb. rewrite Inv_N. cbn [ht elems].
          specialize (B3 eq_refl). rewrite B3 in *. split; [reflexivity|]. split; [exact HX|]. conj_; auto; try lia.
        * destruct (RB h ck cv l' r I' Ir ltac:(lia) ltac:(lia) ltac:(lia)) as (t' & b & R1 & R2 & R3 & R4 & R5 & R6).
          rewrite R1. exists t', false, b. cbn [ht]. rewrite R2. split; [reflexivity|]. split; [exact HX|]. conj_; auto; try apply R3; try lia; try discriminate.
          intros ->. left. rewrite (R6 eq_refl) in R3 |- *. apply Inv_N in R3. cbn [ht]. lia.
        * exists (N h ck cv l' r), false, false. rewrite Inv_N. cbn [ht elems].
          assert (Z.max (ht l') (ht r) = Z.max (ht l) (ht r) /\ Z.abs (ht l' - ht r) <= D) as (M1 & M2).
          { destruct (B4 eq_refl) as [B5|(-> & B5 & B6)]; [rewrite B5; auto|].
            destruct r as [|rh rk rv rl rr]; [discriminate|].
            pose proof (ht_nonneg rl). pose proof (ht_nonneg rr). cbn [ht] in *. lia. }
          rewrite M1. split; [reflexivity|]. split; [exact HX|]. conj_; auto; try lia.
      + destruct (IHr (is_nil l) Ir ltac:(lia)) as (r' & ex & rb & E1 & E2 & I' & B1 & B2 & B3 & B4). rewrite E1.
        pose proof (wrote_right _ _ _ _ _ _ (ck, cv) (elems l) E2) as HX. clear E2. nonneg.
        destruct ex; [|destruct rb]; cbn [orb negb].
        * exists (N h ck cv l r'), true, rb. rewrite Inv_N. cbn [ht elems].
          specialize (B3 eq_refl). rewrite B3 in *. split; [reflexivity|]. split; [exact HX|]. conj_; auto; try lia.
        * destruct (RB h ck cv l r' Il I' ltac:(lia) ltac:(lia) ltac:(lia)) as (t' & b & R1 & R2 & R3 & R4 & R5 & R6).
          rewrite R1. exists t', false, b. cbn [ht]. rewrite R2. split; [reflexivity|]. split; [exact HX|]. conj_; auto; try apply R3; try lia; try discriminate.
          intros ->. left. rewrite (R6 eq_refl) in R3 |- *. apply Inv_N in R3. cbn [ht]. lia.
        * exists (N h ck cv l r'), false, false. rewrite Inv_N. cbn [ht elems].
          assert (Z.max (ht l) (ht r') = Z.max (ht l) (ht r) /\ Z.abs (ht l - ht r') <= D) as (M1 & M2).
          { destruct (B4 eq_refl) as [B5|(-> & B5 & B6)]; [rewrite B5; auto|].
            destruct l as [|rh rk rv rl rr]; [discriminate|].
            pose proof (ht_nonneg rl). pose proof (ht_nonneg rr). cbn [ht] in *. lia. }
          rewrite M1. split; [reflexivity|]. split; [exact HX|]. conj_; auto; try lia.
  Qed.

  Lemma put_get f key v t : forall alone t' ex rb, put cmp st d f key v t alone = Some (t', ex, rb) ->
    exists g, get cmp key t = Some g /\ ex = match g with None => false | Some _ => true end.
  Proof.
    induction t as [|h ck cv l IHl r IHr]; intros alone t' ex rb; cbn [put get]; [intros H; injection H as <- <- <-; eauto|]. side3 ck key.
    - destruct (f (ck, cv)). intros H0. injection H0 as <- <- <-. eauto.
    - destruct (put cmp st d f key v l (is_nil r)) as [[[l' ex'] rb']|] eqn:E1; [|discriminate]. destruct (IHl _ _ _ _ E1) as (g & G1 & G2). intros H0. exists g. split; [exact G1|].
      rewrite <- G2. destruct (ex' || negb rb')%bool; [congruence|]. destruct (rebalance st d (N h ck cv l' r)) as [[t1 b1]|]; congruence.
    - destruct (put cmp st d f key v r (is_nil l)) as [[[l' ex'] rb']|] eqn:E1; [|discriminate]. destruct (IHr _ _ _ _ E1) as (g & G1 & G2). intros H0. exists g. split; [exact G1|].
      rewrite <- G2. destruct (ex' || negb rb')%bool; [congruence|]. destruct (rebalance st d (N h ck cv l l')) as [[t1 b1]|]; congruence.
  Qed.

  (** [get] and the write through what it found *)
  Lemma get_wild key v t : exists g, get cmp key t = Some g /\
    match g with
    | None => True
    | Some e => In e (elems t) /\ hit cmp key e /\ exists t', get_write cmp key v t = Some t' /\
        ht t' = ht t /\ (Inv D t -> Inv D t') /\ swapped e (fst e, v) (elems t) (elems t')
    end.
  Proof.
    induction t as [|h ck cv l IHl r IHr]; cbn [get get_write elems ht]; [exists None; auto|]. side3 ck key.
    - exists (Some (ck, cv)). split; [reflexivity|]. split; [apply in_or_app; right; left; reflexivity|]. split; [exact Ho|].
      exists (N h ck v l r). rewrite !Inv_N. split; [reflexivity|]. split; [reflexivity|]. split; [auto|]. apply swapped_mid.
    - destruct IHl as (g & E1 & E2). exists g. split; [exact E1|]. destruct g as [e|]; [|exact I]. destruct E2 as (F1 & F2 & t' & F3 & F4 & F5 & F6).
      split; [apply in_or_app; left; exact F1|]. split; [exact F2|]. rewrite F3. exists (N h ck cv t' r). rewrite !Inv_N. cbn [ht elems]. rewrite F4.
      split; [reflexivity|]. split; [reflexivity|]. split; [intros (? & ? & ? & ?); auto|]. apply swapped_left, F6.
    - destruct IHr as (g & E1 & E2). exists g. split; [exact E1|]. destruct g as [e|]; [|exact I]. destruct E2 as (F1 & F2 & t' & F3 & F4 & F5 & F6).
      split; [apply in_or_app; right; right; exact F1|]. split; [exact F2|]. rewrite F3. exists (N h ck cv l t'). rewrite !Inv_N. cbn [ht elems]. rewrite F4.
      split; [reflexivity|]. split; [reflexivity|]. split; [intros (? & ? & ? & ?); auto|]. apply swapped_right, F6.
  Qed.

  (** what a removal leaves of the entries *)
  Definition took (res : option V) key (m m' : list (K * V)) : Prop :=
    match res with None => m' = m | Some v => exists e, hit cmp key e /\ snd e = v /\ dropped e m m' end.
  Lemma took_left res key m m' y (q : list (K * V)) : took res key m m' -> took res key (m ++ y :: q) (m' ++ y :: q).
  Proof. destruct res as [v|]; cbn [took]; [|intros ->; reflexivity]. intros (e & H1 & H2 & H3). exists e. split; [exact H1|]. split; [exact H2|apply added_left, H3]. Qed.
  Lemma took_right res key m m' y (q : list (K * V)) : took res key m m' -> took res key (q ++ y :: m) (q ++ y :: m').
  Proof. destruct res as [v|]; cbn [took]; [|intros ->; reflexivity]. intros (e & H1 & H2 & H3). exists e. split; [exact H1|]. split; [exact H2|apply added_right, H3]. Qed.
  Lemma took_mid key k v (p q : list (K * V)) : hit cmp key (k, v) -> took (Some v) key (p ++ (k, v) :: q) (p ++ q).
  Proof. intros H. exists (k, v). split; [exact H|]. split; [reflexivity|]. exists p, q. auto. Qed.

  (** taking out the node itself: the two ways of the code *)
  Lemma unlink_ok h k v l r (side : bool) : Inv D (N h k v l r) -> h <= 127 ->
    exists t' rb, (match l, r with
                   | E, _ => Some (r, Some v, true)
                   | _, E => Some (l, Some v, true)
                   | _, _ =>
                       '(sub, (rk, rv), _) <- neighboring st d (negb side) (child side l r) ;;
                       '(t, rb') <- rebalance st d (with_child side h rk rv l r sub) ;;
                       Some (t, Some v, rb')
                   end) = Some (t', Some v, rb) /\ elems t' = elems l ++ elems r /\ Inv D t' /\
      ht t' <= h /\ (D = 127 \/ h - 1 <= ht t') /\ (rb = false -> ht t' = h).
  Proof.
    intros HI Hh. apply Inv_N in HI. destruct HI as (Eh & Hb & Il & Ir). nonneg.
    destruct l as [|lh lk lv ll lr] eqn:El; [|destruct r as [|rh rk rv rl rr] eqn:Er].
    - exists r, true. cbn [ht elems app] in *. conj_; auto; try apply Ir; try lia; discriminate.
    - exists (N lh lk lv ll lr), true. change (elems (@E K V)) with (@nil (K * V)). rewrite app_nil_r.
      cbn [ht] in *. conj_; auto; try apply Il; try lia; discriminate.
    - rewrite <- El, <- Er in *. destruct side; cbn [negb child with_child].
      + destruct (neighboring_ok st d D RB HD false r) as (r' & [rk' rv'] & rb & E1 & E2 & I' & B1 & B2 & B3); auto; try lia; [congruence|].
        rewrite E1. nonneg.
        destruct (RB h rk' rv' l r' Il I' ltac:(lia) ltac:(lia) ltac:(lia)) as (t' & b & R1 & R2 & R3 & R4 & R5 & R6).
        rewrite R1. exists t', b. rewrite R2, E2. conj_; auto; try apply R3; try lia.
        intros ->. rewrite (R6 eq_refl) in R3 |- *. apply Inv_N in R3. cbn [ht]. lia.
      + destruct (neighboring_ok st d D RB HD true l) as (l' & [lk' lv'] & rb & E1 & E2 & I' & B1 & B2 & B3); auto; try lia; [congruence|].
        rewrite E1. nonneg.
        destruct (RB h lk' lv' l' r I' Ir ltac:(lia) ltac:(lia) ltac:(lia)) as (t' & b & R1 & R2 & R3 & R4 & R5 & R6).
        rewrite R1. exists t', b. rewrite R2, E2, <- app_assoc. conj_; auto; try apply R3; try lia.
        intros ->. rewrite (R6 eq_refl) in R3 |- *. apply Inv_N in R3. cbn [ht]. lia.
  Qed.

  Lemma remove_wild key t : forall side, Inv D t -> ht t <= 127 ->
    exists t' res rb, remove cmp st d key t side = Some (t', res, rb) /\ took res key (elems t) (elems t') /\ Inv D t' /\
      ht t' <= ht t /\ (D = 127 \/ ht t - 1 <= ht t') /\ (rb = false -> ht t' = ht t).
  Proof.
    induction t as [|h ck cv l IHl r IHr]; intros side HI Hh.
    - exists E, None, false. cbn [remove took ht]. conj_; auto; lia.
    - pose proof HI as HI0. apply Inv_N in HI. destruct HI as (Eh & Hb & Il & Ir). cbn [ht] in Hh. cbn [elems]. nonneg.
      cbn [remove]. side3 ck key.
      + destruct (unlink_ok h ck cv l r side HI0 ltac:(lia)) as (t' & rb & E1 & E2 & I' & B1 & B2 & B3). exists t', (Some cv), rb. split; [exact E1|].
        rewrite E2. split; [apply took_mid, Ho|]. cbn [ht]. rewrite <- Eh. auto.
      + destruct (IHl false Il ltac:(lia)) as (l' & res & rb & E1 & E2 & I' & B1 & B2 & B3).
        rewrite E1. pose proof (took_left _ _ _ _ (ck, cv) (elems r) E2) as HX. nonneg. destruct rb.
        * destruct (RB h ck cv l' r I' Ir ltac:(lia) ltac:(lia) ltac:(lia)) as (t' & b & R1 & R2 & R3 & R4 & R5 & R6).
          rewrite R1. exists t', res, b. rewrite R2. cbn [ht]. split; [reflexivity|]. split; [exact HX|]. conj_; auto; try apply R3; try lia.
          intros ->. rewrite (R6 eq_refl) in R3 |- *. apply Inv_N in R3. cbn [ht]. lia.
        * exists (N h ck cv l' r), res, false. rewrite Inv_N. cbn [ht elems]. rewrite (B3 eq_refl).
          split; [reflexivity|]. split; [exact HX|]. conj_; auto; lia.
      + destruct (IHr true Ir ltac:(lia)) as (r' & res & rb & E1 & E2 & I' & B1 & B2 & B3).
        rewrite E1. pose proof (took_right _ _ _ _ (ck, cv) (elems l) E2) as HX. nonneg. destruct rb.
        * destruct (RB h ck cv l r' Il I' ltac:(lia) ltac:(lia) ltac:(lia)) as (t' & b & R1 & R2 & R3 & R4 & R5 & R6).
          rewrite R1. exists t', res, b. rewrite R2. cbn [ht]. split; [reflexivity|]. split; [exact HX|]. conj_; auto; try apply R3; try lia.
          intros ->. rewrite (R6 eq_refl) in R3 |- *. apply Inv_N in R3. cbn [ht]. lia.
        * exists (N h ck cv l r'), res, false. rewrite Inv_N. cbn [ht elems]. rewrite (B3 eq_refl).
          split; [reflexivity|]. split; [exact HX|]. conj_; auto; lia.
  Qed.

  (** ** one call *)
  Definition wellsized (s : avl K V) : Prop := size s = length (elems (root s)).
  Lemma wrote_len ex f key v m m' : wrote ex f key v m m' -> length m' = if ex then length m else S (length m).
  Proof. destruct ex; cbn [wrote]; [intros (e & _ & H); exact (swapped_len _ _ _ _ H)|apply added_len]. Qed.
  Lemma took_len res key m m' : took res key m m' -> length m' = match res with None => length m | Some _ => (length m - 1)%nat end.
  Proof. destruct res; cbn [took]; [|intros ->; reflexivity]. intros (e & _ & _ & H). apply added_len in H. rewrite H. cbn. lia. Qed.

  Lemma step_wild s o : wellsized s -> Inv D (root s) -> ht (root s) <= 126 ->
    exists s' x, step cmp st d s o = Some (s', x) /\ wellsized s' /\ Inv D (root s') /\ smay cmp false (elems (root s)) o (elems (root s')) x.
  Proof.
    intros Hs HI Hh. unfold wellsized in *.
    assert (Hput : forall k v, exists s' b, put_ cmp st d s k v = Some (s', b) /\ wellsized s' /\ Inv D (root s') /\
      (b = true /\ added (k, v) (elems (root s)) (elems (root s')) \/ b = false /\ elems (root s') = elems (root s) /\ exists e, In e (elems (root s)) /\ hit cmp k e)).
    { intros k v. unfold put_. destruct (put_wild (fun e => e) k v (root s) false HI Hh) as (t & ex & rb & -> & E2 & I' & _).
      eexists _, _. split; [reflexivity|]. cbn [root]. split; [unfold wellsized; cbn [root size]; rewrite (wrote_len _ _ _ _ _ _ E2), Hs; destruct ex; reflexivity|].
      split; [exact I'|]. destruct ex; cbn [wrote negb] in *; [right|left; auto]. destruct E2 as (e & H1 & H2). destruct (swapped_same _ _ _ H2). eauto. }
    assert (Hset : forall k v, exists s' b, set cmp st d s k v = Some (s', b) /\ wellsized s' /\ Inv D (root s') /\
      (b = true /\ added (k, v) (elems (root s)) (elems (root s')) \/ b = false /\ exists e, hit cmp k e /\ swapped e (k, v) (elems (root s)) (elems (root s')))).
    { intros k v. unfold set. destruct (put_wild (fun _ => (k, v)) k v (root s) false HI Hh) as (t & ex & rb & -> & E2 & I' & _).
      eexists _, _. split; [reflexivity|]. cbn [root]. split; [unfold wellsized; cbn [root size]; rewrite (wrote_len _ _ _ _ _ _ E2), Hs; destruct ex; reflexivity|].
      split; [exact I'|]. destruct ex; cbn [wrote negb] in *; [right|left]; auto. }
    assert (Hrem : forall k, exists s' b, remove_ cmp st d s k = Some (s', b) /\ wellsized s' /\ Inv D (root s') /\ took b k (elems (root s)) (elems (root s'))).
    { intros k. unfold remove_. destruct (remove_wild k (root s) true HI ltac:(lia)) as (t & res & rb & -> & E2 & I' & _).
      destruct res; eexists _, _; (split; [reflexivity|]); cbn [root]; (split; [unfold wellsized; cbn [root size]; rewrite (took_len _ _ _ _ E2), Hs; reflexivity|]); auto. }
    assert (Htook : forall b k m m', took b k m m' -> MVal (K := K) b = MVal None /\ m' = m \/ exists e, hit cmp k e /\ dropped e m m' /\ MVal (K := K) b = MVal (Some (snd e))).
    { intros [v|] k m m'; cbn [took]; [|auto]. intros (e & H1 & <- & H2). right. exists e. auto. }
    destruct o; cbn [step smay].
    - destruct (Hput k v) as (s' & b & -> & H1 & H2 & H3). eexists _, _. split; [reflexivity|]. split; [exact H1|]. split; [exact H2|].
      destruct H3 as [(-> & H3)|(-> & H3 & H4)]; auto.
    - destruct (Hput k v) as (s' & b & -> & H1 & H2 & H3). eexists _, _. split; [reflexivity|]. split; [exact H1|]. split; [exact H2|].
      destruct H3 as [(-> & H3)|(-> & H3 & H4)]; auto.
    - destruct (Hset k v) as (s' & b & -> & H1 & H2 & H3). eexists _, _. split; [reflexivity|]. split; [exact H1|]. split; [exact H2|].
      destruct H3 as [(-> & H3)|(-> & H3)]; auto.
    - unfold upsert. destruct (get_wild k v (root s)) as ([e|] & Eg & H); rewrite Eg.
      + destruct H as (F1 & F2 & t' & -> & F4 & F5 & F6). eexists _, _. split; [reflexivity|]. unfold wellsized. cbn [root size].
        rewrite (swapped_len _ _ _ _ F6). split; [exact Hs|]. split; [auto|]. right. eauto.
      + destruct (Hset k v) as (s' & b & E1 & H1 & H2 & H3). assert (b = true) as ->.
        { revert E1. unfold set. destruct (put cmp st d (fun _ => (k, v)) k v (root s) false) as [[[t' ex] rb]|] eqn:E2; [|discriminate]. intros E3. injection E3 as <- <-.
          destruct (put_get _ _ _ _ _ _ _ _ E2) as (g & G1 & G2). rewrite Eg in G1. injection G1 as <-. rewrite G2. reflexivity. }
        rewrite E1. eexists _, _. split; [reflexivity|]. split; [exact H1|]. split; [exact H2|]. destruct H3 as [(_ & H3)|(H3 & _)]; [auto|discriminate].
    - unfold get_. destruct (root s) as [|h0 k0 v0 l0 r0] eqn:Er; [cbn [get]; eexists _, _; rewrite Er; cbn; auto 6|].
      rewrite <- Er in *. destruct (get_wild k v0 (root s)) as ([e|] & -> & H); eexists _, _; (split; [reflexivity|]); (split; [exact Hs|]); (split; [exact HI|]); (split; [reflexivity|]); cbn [option_map].
      + destruct H as (F1 & F2 & _). eauto.
      + auto.
    - unfold contains, get_. destruct (root s) as [|h0 k0 v0 l0 r0] eqn:Er; [cbn [get]; eexists _, _; rewrite Er; cbn; auto 6|].
      rewrite <- Er in *. destruct (get_wild k v0 (root s)) as ([e|] & -> & H); eexists _, _; (split; [reflexivity|]); (split; [exact Hs|]); (split; [exact HI|]); (split; [reflexivity|]); cbn [option_map].
      + destruct H as (F1 & F2 & _). eauto.
      + auto.
    - destruct (Hrem k) as (s' & b & -> & H1 & H2 & H3). eexists _, _. split; [reflexivity|]. split; [exact H1|]. split; [exact H2|]. apply Htook, H3.
    - destruct (Hrem k) as (s' & b & -> & H1 & H2 & H3). eexists _, _. split; [reflexivity|]. split; [exact H1|]. split; [exact H2|]. apply Htook, H3.
    - eexists _, _. split; [reflexivity|]. split; [reflexivity|]. split; [apply Inv_E|]. auto.
    - eexists _, _. split; [reflexivity|]. rewrite Hs. auto.
    - eexists _, _. split; [reflexivity|]. rewrite Hs. auto.
    - eexists _, _. split; [reflexivity|]. rewrite Hs. split; [auto|]. split; [auto|]. split; [reflexivity|]. destruct (elems (root s)); reflexivity.
    - eexists _, _. split; [reflexivity|]. rewrite (values_ok s Hs). auto.
    - eexists _, _. split; [reflexivity|]. rewrite (proj1 (traverse_ok go (root s) [])). auto.
  Qed.

  (** ** tree/avls *)
  Section Several.
  Context (Est : st = One).
  Lemma RB1 : @rb_ok K V One d D.
  Proof. rewrite <- Est. exact RB. Qed.
  Lemma mput_wild key v t : forall alone, Inv D t -> ht t <= 126 ->
    exists t' rb, mput cmp d key v t alone = Some (t', rb) /\ added (key, v) (elems t) (elems t') /\
      Inv D t' /\ ht t' <= ht t + 1 /\ (D = 127 \/ ht t <= ht t') /\
      (rb = false -> ht t' = ht t \/ (t = E /\ alone = false /\ ht t' = 1)).
  Proof.
    induction t as [|h ck cv l IHl r IHr]; intros alone HI Hh.
    - exists (N 1 key v E E), alone. cbn [mput ht elems]. split; [reflexivity|]. split; [exists [], []; auto|].
      conj_; auto; try lia; try discriminate; split; cbn; auto with zarith; repeat split; lia.
    - apply Inv_N in HI. destruct HI as (Eh & Hb & Il & Ir). cbn [ht] in Hh. cbn [elems]. nonneg. cbn [mput].
      set (c := if cmp ck key <? 0 then 1 else cmp ck key).
      assert (c = 0 \/ c = 1) as Hc by (unfold c; pose proof (Hdir ck key); destruct (Z.ltb_spec (cmp ck key) 0); lia).
      destruct Hc as [-> | ->]; cbv beta iota zeta delta [Z.eqb Pos.eqb].
      + destruct (IHl (is_nil r) Il ltac:(lia)) as (l' & rb & E1 & E2 & I' & B1 & B2 & B4). rewrite E1.
        pose proof (added_left _ _ _ (ck, cv) (elems r) E2) as HX. clear E2. nonneg. destruct rb.
        * destruct (RB1 h ck cv l' r I' Ir ltac:(lia) ltac:(lia) ltac:(lia)) as (t' & b & R1 & R2 & R3 & R4 & R5 & R6).
          rewrite R1. exists t', b. cbn [ht]. rewrite R2. split; [reflexivity|]. split; [exact HX|]. conj_; auto; try apply R3; try lia; try discriminate.
          intros ->. left. rewrite (R6 eq_refl) in R3 |- *. apply Inv_N in R3. cbn [ht]. lia.
        * exists (N h ck cv l' r), false. rewrite Inv_N. cbn [ht elems].
          assert (Z.max (ht l') (ht r) = Z.max (ht l) (ht r) /\ Z.abs (ht l' - ht r) <= D) as (M1 & M2).
          { destruct (B4 eq_refl) as [B5|(-> & B5 & B6)]; [rewrite B5; auto|].
            destruct r as [|rh rk rv rl rr]; [discriminate|].
            pose proof (ht_nonneg rl). pose proof (ht_nonneg rr). cbn [ht] in *. lia. }
          rewrite M1. split; [reflexivity|]. split; [exact HX|]. conj_; auto; try lia.
      + destruct (IHr (is_nil l) Ir ltac:(lia)) as (r' & rb & E1 & E2 & I' & B1 & B2 & B4). rewrite E1.
        pose proof (added_right _ _ _ (ck, cv) (elems l) E2) as HX. clear E2. nonneg. destruct rb.
        * destruct (RB1 h ck cv l r' Il I' ltac:(lia) ltac:(lia) ltac:(lia)) as (t' & b & R1 & R2 & R3 & R4 & R5 & R6).
          rewrite R1. exists t', b. cbn [ht]. rewrite R2. split; [reflexivity|]. split; [exact HX|]. conj_; auto; try apply R3; try lia; try discriminate.
          intros ->. left. rewrite (R6 eq_refl) in R3 |- *. apply Inv_N in R3. cbn [ht]. lia.
        * exists (N h ck cv l r'), false. rewrite Inv_N. cbn [ht elems].
          assert (Z.max (ht l) (ht r') = Z.max (ht l) (ht r) /\ Z.abs (ht l - ht r') <= D) as (M1 & M2).
          { destruct (B4 eq_refl) as [B5|(-> & B5 & B6)]; [rewrite B5; auto|].
            destruct l as [|rh rk rv rl rr]; [discriminate|].
            pose proof (ht_nonneg rl). pose proof (ht_nonneg rr). cbn [ht] in *. lia. }
          rewrite M1. split; [reflexivity|]. split; [exact HX|]. conj_; auto; try lia.
  Qed.

  Lemma mget_wild key v t : exists g t', mget cmp key t = Some g /\ mget_write cmp key v t = Some (t', match g with None => false | Some _ => true end) /\
    match g with
    | None => True
    | Some e => In e (elems t) /\ hit cmp key e /\ ht t' = ht t /\ (Inv D t -> Inv D t') /\ swapped e (fst e, v) (elems t) (elems t')
    end.
  Proof.
    induction t as [|h ck cv l IHl r IHr]; cbn [mget mget_write elems ht]; [exists None, E; auto|]. side3 ck key.
    - destruct IHl as (g & t' & -> & -> & E2). destruct g as [e|].
      + exists (Some e), (N h ck cv t' r). destruct E2 as (F1 & F2 & F4 & F5 & F6). split; [reflexivity|]. split; [reflexivity|].
        split; [apply in_or_app; left; exact F1|]. split; [exact F2|]. rewrite !Inv_N. cbn [ht elems]. rewrite F4.
        split; [reflexivity|]. split; [intros (? & ? & ? & ?); auto|]. apply swapped_left, F6.
      + exists (Some (ck, cv)), (N h ck v l r). split; [reflexivity|]. split; [reflexivity|]. split; [apply in_or_app; right; left; reflexivity|]. split; [exact Ho|].
        rewrite !Inv_N. split; [reflexivity|]. split; [auto|]. apply swapped_mid.
    - destruct IHl as (g & t' & -> & -> & E2). exists g, (N h ck cv t' r). split; [reflexivity|]. split; [reflexivity|]. destruct g as [e|]; [|exact I]. destruct E2 as (F1 & F2 & F4 & F5 & F6).
      split; [apply in_or_app; left; exact F1|]. split; [exact F2|]. rewrite !Inv_N. cbn [ht elems]. rewrite F4.
      split; [reflexivity|]. split; [intros (? & ? & ? & ?); auto|]. apply swapped_left, F6.
    - destruct IHr as (g & t' & -> & -> & E2). exists g, (N h ck cv l t'). split; [reflexivity|]. split; [reflexivity|]. destruct g as [e|]; [|exact I]. destruct E2 as (F1 & F2 & F4 & F5 & F6).
      split; [apply in_or_app; right; right; exact F1|]. split; [exact F2|]. rewrite !Inv_N. cbn [ht elems]. rewrite F4.
      split; [reflexivity|]. split; [intros (? & ? & ? & ?); auto|]. apply swapped_right, F6.
  Qed.

  Lemma removeLeft_wild key t : forall side, Inv D t -> ht t <= 127 ->
    exists t' res rb, removeLeft cmp d key t side = Some (t', res, rb) /\ took res key (elems t) (elems t') /\ (res = None -> t' = t) /\ Inv D t' /\
      ht t' <= ht t /\ (D = 127 \/ ht t - 1 <= ht t') /\ (rb = false -> ht t' = ht t) /\ (res = None -> rb = false).
  Proof.
    induction t as [|h ck cv l IHl r IHr]; intros side HI Hh.
    - exists E, None, false. cbn [removeLeft took ht]. conj_; auto; lia.
    - pose proof HI as HI0. apply Inv_N in HI. destruct HI as (Eh & Hb & Il & Ir). cbn [ht] in Hh. cbn [elems]. nonneg.
      cbn [removeLeft]. side3 ck key.
      + destruct (IHl false Il ltac:(lia)) as (l' & res & rb & E1 & E2 & E3 & I' & B1 & B2 & B3 & B4). rewrite E1. destruct res as [v|].
        * pose proof (took_left _ _ _ _ (ck, cv) (elems r) E2) as HX. nonneg. destruct rb.
          -- destruct (RB1 h ck cv l' r I' Ir ltac:(lia) ltac:(lia) ltac:(lia)) as (t' & b & R1 & R2 & R3 & R4 & R5 & R6).
             rewrite R1. exists t', (Some v), b. rewrite R2. cbn [ht]. split; [reflexivity|]. split; [exact HX|]. conj_; auto; try apply R3; try lia; try discriminate.
             intros ->. rewrite (R6 eq_refl) in R3 |- *. apply Inv_N in R3. cbn [ht]. lia.
          -- exists (N h ck cv l' r), (Some v), false. rewrite Inv_N. cbn [ht elems]. rewrite (B3 eq_refl).
             split; [reflexivity|]. split; [exact HX|]. conj_; auto; try lia; discriminate.
        * rewrite (E3 eq_refl) in *. pose proof unlink_ok as UL. rewrite Est in UL.
          destruct (UL h ck cv l r side HI0 ltac:(lia)) as (t' & rb' & F1 & F2 & F3 & F4 & F5 & F6). exists t', (Some cv), rb'. split; [exact F1|].
          rewrite F2. split; [apply took_mid, Ho|]. cbn [ht]. rewrite <- Eh. conj_; auto; discriminate.
      + destruct (IHl false Il ltac:(lia)) as (l' & res & rb & E1 & E2 & E3 & I' & B1 & B2 & B3 & B4).
        rewrite E1. pose proof (took_left _ _ _ _ (ck, cv) (elems r) E2) as HX. nonneg. destruct rb.
        * destruct (RB1 h ck cv l' r I' Ir ltac:(lia) ltac:(lia) ltac:(lia)) as (t' & b & R1 & R2 & R3 & R4 & R5 & R6).
          rewrite R1. exists t', res, b. rewrite R2. cbn [ht]. split; [reflexivity|]. split; [exact HX|].
          conj_; auto; try apply R3; try lia; try (intros ->; specialize (B4 eq_refl); discriminate).
          intros ->. rewrite (R6 eq_refl) in R3 |- *. apply Inv_N in R3. cbn [ht]. lia.
        * exists (N h ck cv l' r), res, false. rewrite Inv_N. cbn [ht elems]. rewrite (B3 eq_refl).
          split; [reflexivity|]. split; [exact HX|]. conj_; auto; try lia. intros Er. rewrite (E3 Er). reflexivity.
      + destruct (IHr true Ir ltac:(lia)) as (r' & res & rb & E1 & E2 & E3 & I' & B1 & B2 & B3 & B4).
        rewrite E1. pose proof (took_right _ _ _ _ (ck, cv) (elems l) E2) as HX. nonneg. destruct rb.
        * destruct (RB1 h ck cv l r' Il I' ltac:(lia) ltac:(lia) ltac:(lia)) as (t' & b & R1 & R2 & R3 & R4 & R5 & R6).
          rewrite R1. exists t', res, b. rewrite R2. cbn [ht]. split; [reflexivity|]. split; [exact HX|].
          conj_; auto; try apply R3; try lia; try (intros ->; specialize (B4 eq_refl); discriminate).
          intros ->. rewrite (R6 eq_refl) in R3 |- *. apply Inv_N in R3. cbn [ht]. lia.
        * exists (N h ck cv l r'), res, false. rewrite Inv_N. cbn [ht elems]. rewrite (B3 eq_refl).
          split; [reflexivity|]. split; [exact HX|]. conj_; auto; try lia. intros Er. rewrite (E3 Er). reflexivity.
  Qed.

  Lemma mstep_wild s o : wellsized s -> Inv D (root s) -> ht (root s) <= 126 ->
    exists s' x, mstep cmp d s o = Some (s', x) /\ wellsized s' /\ Inv D (root s') /\ smay cmp true (elems (root s)) o (elems (root s')) x.
  Proof.
    intros Hs HI Hh. unfold wellsized in *.
    assert (Hput : forall k v, exists t rb, mput cmp d k v (root s) false = Some (t, rb) /\ wellsized (AVL t (S (size s))) /\ Inv D t /\ added (k, v) (elems (root s)) (elems t)).
    { intros k v. destruct (mput_wild k v (root s) false HI Hh) as (t & rb & E1 & E2 & I' & _). exists t, rb. split; [exact E1|].
      split; [unfold wellsized; cbn [root size]; rewrite (added_len _ _ _ E2), Hs; reflexivity|]. auto. }
    assert (Hget : forall k v, exists g t', mget cmp k (root s) = Some g /\ mget_write cmp k v (root s) = Some (t', match g with None => false | Some _ => true end) /\
      match g with None => True | Some e => In e (elems (root s)) /\ hit cmp k e /\ wellsized (AVL t' (size s)) /\ Inv D t' /\ swapped e (fst e, v) (elems (root s)) (elems t') end).
    { intros k v. destruct (mget_wild k v (root s)) as (g & t' & E1 & E2 & E3). exists g, t'. split; [exact E1|]. split; [exact E2|]. destruct g as [e|]; [|exact I].
      destruct E3 as (F1 & F2 & F4 & F5 & F6). unfold wellsized. cbn [root size]. rewrite (swapped_len _ _ _ _ F6). auto 9. }
    assert (Hfind : forall k, exists g, mget cmp k (root s) = Some g /\ match g with None => True | Some e => In e (elems (root s)) /\ hit cmp k e end).
    { intros k. destruct (root s) as [|h0 k0 v0 l0 r0] eqn:Er; [exists None; auto|]. rewrite <- Er in *. destruct (Hget k v0) as (g & t' & E1 & _ & E3). exists g. split; [exact E1|].
      destruct g; [tauto|exact I]. }
    assert (Hrem : forall k, exists s' b, sremove cmp d s k = Some (s', b) /\ wellsized s' /\ Inv D (root s') /\
      (MVal (K := K) b = MVal None /\ elems (root s') = elems (root s) \/ exists e, hit cmp k e /\ dropped e (elems (root s)) (elems (root s')) /\ MVal (K := K) b = MVal (Some (snd e)))).
    { intros k. unfold sremove. destruct (removeLeft_wild k (root s) true HI ltac:(lia)) as (t & res & rb & -> & E2 & _ & I' & _).
      destruct res as [v|]; eexists _, _; (split; [reflexivity|]); cbn [root]; (split; [unfold wellsized; cbn [root size]; rewrite (took_len _ _ _ _ E2), Hs; reflexivity|]); (split; [exact I'|]); cbn [took] in E2; [|auto].
      destruct E2 as (e & H1 & <- & H2). right. exists e. auto. }
    destruct o; cbn [mstep smay].
    - unfold sput. destruct (Hput k v) as (t & rb & -> & H1 & H2 & H3). eexists _, _. split; [reflexivity|]. auto.
    - unfold sinsert, sget, sput. destruct (Hfind k) as (g & -> & H). destruct g as [e|]; cbn [option_map].
      + eexists _, _. split; [reflexivity|]. split; [exact Hs|]. split; [exact HI|]. right. split; [reflexivity|]. split; [reflexivity|]. exists e. exact H.
      + destruct (Hput k v) as (t & rb & -> & H1 & H2 & H3). eexists _, _. split; [reflexivity|]. auto.
    - unfold sset. destruct (Hget k v) as (g & t' & -> & -> & H). destruct g as [e|].
      + destruct H as (F1 & F2 & F3 & F4 & F5). eexists _, _. split; [reflexivity|]. split; [exact F3|]. split; [exact F4|]. right. split; [reflexivity|]. exists e. auto.
      + destruct (Hput k v) as (t & rb & -> & H1 & H2 & H3). eexists _, _. split; [reflexivity|]. auto.
    - unfold supsert, sput. destruct (Hget k v) as (g & t' & -> & -> & H). destruct g as [e|].
      + destruct H as (F1 & F2 & F3 & F4 & F5). eexists _, _. split; [reflexivity|]. split; [exact F3|]. split; [exact F4|]. right. split; [reflexivity|]. exists e. auto.
      + destruct (Hput k v) as (t & rb & -> & H1 & H2 & H3). eexists _, _. split; [reflexivity|]. auto.
    - unfold sget. destruct (Hfind k) as (g & -> & H). eexists _, _. split; [reflexivity|]. split; [exact Hs|]. split; [exact HI|]. split; [reflexivity|].
      destruct g as [e|]; cbn [option_map]; [right; exists e; tauto|auto].
    - unfold sget. destruct (Hfind k) as (g & -> & H). eexists _, _. split; [reflexivity|]. split; [exact Hs|]. split; [exact HI|]. split; [reflexivity|].
      destruct g as [e|]; cbn [option_map]; [right; exists e; tauto|auto].
    - destruct (Hrem k) as (s' & b & -> & H1 & H2 & H3). eexists _, _. split; [reflexivity|]. auto.
    - destruct (Hrem k) as (s' & b & -> & H1 & H2 & H3). eexists _, _. split; [reflexivity|]. auto.
    - eexists _, _. split; [reflexivity|]. split; [reflexivity|]. split; [apply Inv_E|]. auto.
    - eexists _, _. split; [reflexivity|]. rewrite Hs. auto.
    - eexists _, _. split; [reflexivity|]. rewrite Hs. auto.
    - eexists _, _. split; [reflexivity|]. rewrite Hs. split; [auto|]. split; [auto|]. split; [reflexivity|]. destruct (elems (root s)); reflexivity.
    - eexists _, _. split; [reflexivity|]. rewrite (values_ok s Hs). auto.
    - eexists _, _. split; [reflexivity|]. rewrite (proj1 (traverse_ok go (root s) [])). auto.
  Qed.
  End Several.
End Tree.

(** ** sequences of calls *)
Section Runs.
  Context {K V : Type} (cmp : K -> K -> Z) (several : bool) (f : avl K V -> sm_op K V -> option (avl K V * sm_out K V)) (D : Z).
  Context (Hf : forall s o, wellsized s -> Inv D (root s) -> ht (root s) <= 126 ->
    exists s' x, f s o = Some (s', x) /\ wellsized s' /\ Inv D (root s') /\ smay cmp several (elems (root s)) o (elems (root s')) x).
  Lemma smay_grow m o m' x : smay (V := V) cmp several m o m' x -> (length m' <= S (length m))%nat.
  Proof.
    assert (A : forall e (m m' : list (K * V)), added e m m' -> (length m' <= S (length m))%nat) by (intros e m0 m1 H; rewrite (added_len _ _ _ H); lia).
    assert (B : forall e e' (m m' : list (K * V)), swapped e e' m m' -> (length m' <= S (length m))%nat) by (intros e e' m0 m1 H; rewrite (swapped_len _ _ _ _ H); lia).
    assert (C : forall e (m m' : list (K * V)), dropped e m m' -> (length m' <= S (length m))%nat) by (intros e m0 m1 H; apply added_len in H; lia).
    destruct o; cbn [smay]; intros H; repeat match goal with
      | H : _ \/ _ |- _ => destruct H
      | H : _ /\ _ |- _ => destruct H
      | H : exists _, _ |- _ => destruct H
      end; subst; eauto; cbn; lia.
  Qed.
  Lemma run_wild ops : forall s, wellsized s -> Inv D (root s) ->
    (forall p q s', ops = p ++ q -> reach f s p = Some s' -> ht (root s') <= 126) ->
    exists s' xs, reach f s ops = Some s' /\ run f s ops = Some xs /\ wellsized s' /\ Inv D (root s') /\ smay_run cmp several (elems (root s)) ops xs (elems (root s')).
  Proof.
    induction ops as [|o ops IH]; intros s Hs HI HL; cbn [run reach]; [exists s, []; repeat (split; [auto|]); constructor|].
    destruct (Hf s o Hs HI) as (s1 & x & E1 & H1 & H2 & H3); [apply (HL [] (o :: ops) s); reflexivity|]. rewrite E1.
    destruct (IH s1 H1 H2) as (s' & xs & I1 & I2 & I3 & I4 & I5).
    { intros p q s2 E2 E3. apply (HL (o :: p) q s2); [rewrite E2; reflexivity|]. cbn [reach]. rewrite E1. exact E3. }
    rewrite I1, I2. exists s', (x :: xs). repeat (split; [auto|]). econstructor; eassumption.
  Qed.
  Lemma low_wild ops : D = 1 -> forall s, wellsized s -> Inv D (root s) -> Z.of_nat (length (elems (root s)) + length ops) < 2 ^ 64 ->
    forall p q s', ops = p ++ q -> reach f s p = Some s' -> ht (root s') <= 126.
  Proof.
    intros HD. induction ops as [|o ops IH]; intros s Hs HI Hn p q s' E1 R1.
    - destruct p; [|discriminate]. cbn in R1. injection R1 as <-. apply avl_low; [rewrite <- HD; apply HI|]. lia.
    - assert (ht (root s) <= 126) as Hh by (apply avl_low; [rewrite <- HD; apply HI|]; lia).
      destruct p as [|o' p]; [cbn in R1; injection R1 as <-; exact Hh|].
      cbn [app] in E1. injection E1 as <- ->. cbn [reach] in R1.
      destruct (Hf s o Hs HI Hh) as (s1 & x & E2 & H1 & H2 & H3). rewrite E2 in R1. pose proof (smay_grow _ _ _ _ H3).
      apply (IH s1 H1 H2) with (p := p) (q := q); auto. cbn [length] in Hn. lia.
  Qed.
End Runs.
