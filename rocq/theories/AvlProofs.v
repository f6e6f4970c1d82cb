(** Rotations, rebalancing, insertion and removal keep the entries in order, the stored heights exact and, for
    suitable thresholds, the tree balanced. *)
From Verif Require Import Base Bind Machine OrderSpec SMapSpec SMapFacts AvlTree AvlSpec AvlModel.
Local Open Scope Z_scope.

Lemma i8_id z : -128 <= z <= 127 -> i8 z = z.
Proof. intros H. unfold i8. rewrite Z.mod_small by lia. lia. Qed.

Section Proofs.
  Context {K V : Type}.
  Notation tree := (tree K V).
  Implicit Types (t l r : tree).

  Lemma ht_nonneg t : 0 <= ht t.
  Proof. induction t; cbn [ht]; lia. Qed.
  Lemma ht_E t : ht t = 0 -> t = E.
  Proof. destruct t as [|h k v l r]; auto. cbn [ht]. pose proof (ht_nonneg l). lia. Qed.

  (** stored heights exact, imbalance at most [D] *)
  Definition Inv (D : Z) t : Prop := exact t /\ balanced D t.
  Lemma Inv_N D h k v l r : Inv D (N h k v l r) <->
    h = 1 + Z.max (ht l) (ht r) /\ Z.abs (ht l - ht r) <= D /\ Inv D l /\ Inv D r.
  Proof. unfold Inv. cbn [exact balanced]. tauto. Qed.
  Lemma Inv_E D : Inv D E.
  Proof. split; exact I. Qed.
  Lemma Inv_height D t : Inv D t -> getHeight t = ht t.
  Proof. destruct t; simpl; auto. intros H. apply Inv_N in H. tauto. Qed.

  Lemma updateHeight_ok k v l r : getHeight l = ht l -> getHeight r = ht r -> ht l <= 126 -> ht r <= 126 ->
    updateHeight k v l r = N (1 + Z.max (ht l) (ht r)) k v l r.
  Proof.
    intros Hl Hr Bl Br. unfold updateHeight. rewrite Hl, Hr. pose proof (ht_nonneg l). pose proof (ht_nonneg r).
    destruct (Z.gtb_spec (ht l) (ht r)); rewrite i8_id by lia; f_equal; lia.
  Qed.
  Lemma updateHeightOneChild_ok (c : bool) k v l r : getHeight l = ht l -> getHeight r = ht r ->
    ht l <= 126 -> ht r <= 126 -> (if c then ht l <= ht r else ht r <= ht l) ->
    updateHeightOneChild c k v l r = N (1 + Z.max (ht l) (ht r)) k v l r.
  Proof.
    intros Hl Hr Bl Br Hc. unfold updateHeightOneChild. pose proof (ht_nonneg l). pose proof (ht_nonneg r).
    destruct c; [rewrite Hr|rewrite Hl]; rewrite i8_id by lia; f_equal; lia.
  Qed.

  (** What rebalancing does to a node whose subtrees are fine.  [D = 127] is no bound at all on the imbalance, as
      heights are at most 127. *)
  Definition rb_ok (st : style) (d D : Z) : Prop :=
    forall h k v l r, Inv D l -> Inv D r -> Z.abs (ht l - ht r) <= D + 1 -> ht l <= 126 -> ht r <= 126 ->
    exists t b, rebalance st d (N h k v l r) = Some (t, b) /\ elems t = elems l ++ (k, v) :: elems r /\ Inv D t /\
      ht t <= 1 + Z.max (ht l) (ht r) /\
      (D = 127 \/ (Z.max (ht l) (ht r) <= ht t /\
                   (Z.abs (ht l - ht r) <= D -> ht t = 1 + Z.max (ht l) (ht r)))) /\
      (b = false -> t = N h k v l r).

  Ltac heights := repeat match goal with
    | H : Inv _ (N _ _ _ _ _) |- _ => apply Inv_N in H; destruct H as (? & ? & ? & ?)
    end.
  Ltac nonneg := repeat match goal with
    | t : AvlTree.tree K V |- _ => lazymatch goal with H : 0 <= ht t |- _ => fail | _ => pose proof (ht_nonneg t) end
    end.
  Ltac hts := repeat match goal with
    | H : Inv _ ?t |- _ => lazymatch goal with H' : getHeight t = ht t |- _ => fail
                           | _ => pose proof (Inv_height _ _ H) end
    end.
  Ltac fin := cbn [ht elems getHeight] in *; subst; nonneg; repeat rewrite Inv_N; cbn [ht]; repeat (rewrite <- app_assoc; cbn [app]);
     repeat match goal with |- _ /\ _ => split end; auto; try discriminate; try lia;
     try (first [left; lia | right; lia | intros; f_equal; lia]).
  Ltac side := cbn [ht getHeight] in *; nonneg; lia.
  Ltac upd := repeat match goal with
    | |- context [updateHeight ?k ?v ?l ?r] => rewrite (updateHeight_ok k v l r) by side
    | |- context [updateHeightOneChild ?c ?k ?v ?l ?r] => rewrite (updateHeightOneChild_ok c k v l r) by side
    end.

  Lemma rebalance_ok st d D : 1 <= d <= 127 ->
    (st = Both /\ D = 127) \/ (st = Both /\ 2 <= d /\ D = d - 1) \/ (st = One /\ d = 2 /\ D = 1) ->
    rb_ok st d D.
  Proof.
    intros Hd Hcase h k v l r Il Ir Hdiff Bl Br. nonneg. hts.
    unfold rebalance. rewrite H1, H2, !i8_id by lia.
    destruct (Z.leb_spec d (ht l - ht r)) as [Hr1|Hr1]; [|destruct (Z.leb_spec (ht l - ht r) (- d)) as [Hl1|Hl1]].
    - destruct l as [|lh lk lv ll lr]; [cbn [ht] in *; lia|]. heights. hts. rewrite H7, H8.
      destruct (Z.gtb_spec (ht lr) (ht ll)) as [Hs|Hs].
      + destruct lr as [|sh sk sv c0 c1]; [cbn [ht] in *; nonneg; lia|]. heights. hts.
        cbn [rightRotateWithLeft]. destruct Hcase as [[-> ->]|[(-> & Hd2 & ->)|(-> & -> & ->)]]; cbn [fixup]; upd.
        all: eexists; exists true; split; [reflexivity|]; fin.
      + cbn [rightRotate]. destruct Hcase as [[-> ->]|[(-> & Hd2 & ->)|(-> & -> & ->)]]; cbn [fixup]; upd.
        all: eexists; exists true; split; [reflexivity|]; fin.
    - destruct r as [|rh rk rv rl rr]; [cbn [ht] in *; lia|]. heights. hts. rewrite H7, H8.
      destruct (Z.gtb_spec (ht rl) (ht rr)) as [Hs|Hs].
      + destruct rl as [|sh sk sv c0 c1]; [cbn [ht] in *; nonneg; lia|]. heights. hts.
        cbn [leftRotateWithRight]. destruct Hcase as [[-> ->]|[(-> & Hd2 & ->)|(-> & -> & ->)]]; cbn [fixup]; upd.
        all: eexists; exists true; split; [reflexivity|]; fin.
      + cbn [leftRotate]. destruct Hcase as [[-> ->]|[(-> & Hd2 & ->)|(-> & -> & ->)]]; cbn [fixup]; upd.
        all: eexists; exists true; split; [reflexivity|]; fin.
    - destruct (Z.gtb_spec (ht l) (ht r)) as [Hg|Hg].
      + destruct (Z.eqb_spec h (ht l + 1)) as [He|He]; eexists; eexists; (split; [reflexivity|]); fin.
      + destruct (Z.eqb_spec h (ht r + 1)) as [He|He]; eexists; eexists; (split; [reflexivity|]); fin.
  Qed.

  (** ** insertion, lookup and removal *)
  Section Ops.
    Context (ltb : K -> K -> bool) (W : weak_order ltb) (cmp : K -> K -> Z) (Hcmp : ex_cmp ltb cmp).
    Context (st : style) (d D : Z) (RB : rb_ok st d D) (HD : 1 <= D).

    Ltac conj_ := repeat match goal with |- _ /\ _ => split end.
    (** The comparator sends the walk left, right, or stops it. *)
    Lemma cmp_cases a b :
      (cmp a b = 0 /\ ltb b a = true) \/ (cmp a b = 1 /\ ltb a b = true) \/ (cmp a b = -1 /\ same ltb a b = true).
    Proof.
      rewrite Hcmp. unfold same. destruct (ltb b a) eqn:E1; [tauto|]. destruct (ltb a b) eqn:E2; tauto.
    Qed.

    Ltac side3 ck key := destruct (cmp_cases ck key) as [[Hc Ho]|[[Hc Ho]|[Hc Ho]]]; rewrite Hc;
      [change (0 <? 0) with false; change (0 =? 0) with true
      |change (1 <? 0) with false; change (1 =? 0) with false; change (1 =? 1) with true
      |change (-1 <? 0) with true]; cbv iota.

    Lemma put_ok hit key v t : forall alone, Inv D t -> ht t <= 126 -> strictly_sorted ltb (elems t) ->
      exists t' ex rb, put cmp st d hit key v t alone = Some (t', ex, rb) /\
        ex = match sames ltb key (elems t) with [] => false | _ => true end /\
        elems t' = match sames ltb key (elems t) with
                   | [] => write ltb key (key, v) (elems t)
                   | x :: _ => write ltb key (hit x) (elems t)
                   end /\
        Inv D t' /\ ht t' <= ht t + 1 /\ (D = 127 \/ ht t <= ht t') /\ (ex = true -> ht t' = ht t) /\
        (rb = false -> ht t' = ht t \/ (t = E /\ alone = false /\ ht t' = 1)).
    Proof.
      induction t as [|h ck cv l IHl r IHr]; intros alone HI Hh Hs.
      - exists (N 1 key v E E), false, alone. cbn [put ht elems]. conj_; auto; try lia; try discriminate; split; cbn; auto with zarith; repeat split; lia.
      - apply Inv_N in HI. destruct HI as (Eh & Hb & Il & Ir). cbn [ht] in Hh. cbn [elems] in Hs |- *.
        destruct (strict_mid ltb _ _ _ Hs) as (Sl & Sr & Ll & Lr). nonneg.
        cbn [put]. side3 ck key.
        + destruct (IHl (is_nil r) Il ltac:(lia) Sl) as (l' & ex & rb & E1 & E2 & E3 & I' & B1 & B2 & B3 & B4).
          rewrite E1. destruct (cut_left ltb W (elems l) (ck, cv) (elems r) key Ho) as (C1 & C2 & C3).
          { intros y Hy. apply (lt_asym _ W). auto. }
          unfold write. rewrite C1, C2, C3.
          assert (HX : elems l' ++ (ck, cv) :: elems r =
            match sames ltb key (elems l) with
            | [] => before ltb key (elems l) ++ (key, v) :: after ltb key (elems l) ++ (ck, cv) :: elems r
            | x :: _ => before ltb key (elems l) ++ hit x :: after ltb key (elems l) ++ (ck, cv) :: elems r
            end).
          { rewrite E3. destruct (sames ltb key (elems l)); unfold write; rewrite <- app_assoc; reflexivity. }
          clear E3. nonneg.
          destruct ex; [|destruct rb]; cbn [orb negb].
          * exists (N h ck cv l' r), true, rb. rewrite Inv_N. cbn [ht elems].
            specialize (B3 eq_refl). rewrite B3 in *. conj_; auto; try lia.
          * destruct (RB h ck cv l' r I' Ir ltac:(lia) ltac:(lia) ltac:(lia))
              as (t' & b & R1 & R2 & R3 & R4 & R5 & R6).
            rewrite R1. exists t', false, b. cbn [ht]. rewrite R2. conj_; auto; try apply R3; try lia; try discriminate.
            intros ->. left. rewrite (R6 eq_refl) in R3 |- *. apply Inv_N in R3. cbn [ht]. lia.
          * exists (N h ck cv l' r), false, false. rewrite Inv_N. cbn [ht elems].
            assert (Z.max (ht l') (ht r) = Z.max (ht l) (ht r) /\ Z.abs (ht l' - ht r) <= D) as (M1 & M2).
            { destruct (B4 eq_refl) as [B5|(-> & B5 & B6)]; [rewrite B5; auto|].
              destruct r as [|rh rk rv rl rr]; [discriminate|].
              pose proof (ht_nonneg rl). pose proof (ht_nonneg rr). cbn [ht] in *. lia. }
            rewrite M1. conj_; auto; try lia.
        + destruct (IHr (is_nil l) Ir ltac:(lia) Sr) as (r' & ex & rb & E1 & E2 & E3 & I' & B1 & B2 & B3 & B4).
          rewrite E1. destruct (cut_right ltb W (elems l) (ck, cv) (elems r) key Ho) as (C1 & C2 & C3).
          { intros y Hy. apply (lt_asym _ W). auto. }
          unfold write. rewrite C1, C2, C3.
          assert (HX : elems l ++ (ck, cv) :: elems r' =
            match sames ltb key (elems r) with
            | [] => (elems l ++ (ck, cv) :: before ltb key (elems r)) ++ (key, v) :: after ltb key (elems r)
            | x :: _ => (elems l ++ (ck, cv) :: before ltb key (elems r)) ++ hit x :: after ltb key (elems r)
            end).
          { rewrite E3. destruct (sames ltb key (elems r)); unfold write; rewrite <- app_assoc; reflexivity. }
          clear E3. nonneg.
          destruct ex; [|destruct rb]; cbn [orb negb].
          * exists (N h ck cv l r'), true, rb. rewrite Inv_N. cbn [ht elems].
            specialize (B3 eq_refl). rewrite B3 in *. conj_; auto; try lia.
          * destruct (RB h ck cv l r' Il I' ltac:(lia) ltac:(lia) ltac:(lia))
              as (t' & b & R1 & R2 & R3 & R4 & R5 & R6).
            rewrite R1. exists t', false, b. cbn [ht]. rewrite R2. conj_; auto; try apply R3; try lia; try discriminate.
            intros ->. left. rewrite (R6 eq_refl) in R3 |- *. apply Inv_N in R3. cbn [ht]. lia.
          * exists (N h ck cv l r'), false, false. rewrite Inv_N. cbn [ht elems].
            assert (Z.max (ht l) (ht r') = Z.max (ht l) (ht r) /\ Z.abs (ht l - ht r') <= D) as (M1 & M2).
            { destruct (B4 eq_refl) as [B5|(-> & B5 & B6)]; [rewrite B5; auto|].
              destruct l as [|rh rk rv rl rr]; [discriminate|].
              pose proof (ht_nonneg rl). pose proof (ht_nonneg rr). cbn [ht] in *. lia. }
            rewrite M1. conj_; auto; try lia.
        + destruct (cut_same_strict ltb W (elems l) (ck, cv) (elems r) key Ho Hs) as (C1 & C2 & C3).
          unfold write. rewrite C1, C2, C3. destruct (hit (ck, cv)) as [k' v'].
          exists (N h k' v' l r), true, false. rewrite Inv_N. cbn [ht elems]. conj_; auto; lia.
    Qed.

    Lemma get_ok key t : strictly_sorted ltb (elems t) -> get cmp key t = Some (hd_error (sames ltb key (elems t))).
    Proof.
      induction t as [|h ck cv l IHl r IHr]; intros Hs; [reflexivity|].
      cbn [elems] in Hs |- *. destruct (strict_mid ltb _ _ _ Hs) as (Sl & Sr & Ll & Lr).
      cbn [get]. side3 ck key.
      - destruct (cut_left ltb W (elems l) (ck, cv) (elems r) key Ho) as (C1 & C2 & C3).
        { intros y Hy. apply (lt_asym _ W). auto. }
        rewrite C2. auto.
      - destruct (cut_right ltb W (elems l) (ck, cv) (elems r) key Ho) as (C1 & C2 & C3).
        { intros y Hy. apply (lt_asym _ W). auto. }
        rewrite C2. auto.
      - destruct (cut_same_strict ltb W (elems l) (ck, cv) (elems r) key Ho Hs) as (C1 & C2 & C3).
        rewrite C2. reflexivity.
    Qed.

    Lemma get_write_ok key v t : Inv D t -> strictly_sorted ltb (elems t) ->
      exists t', get_write cmp key v t = Some t' /\ Inv D t' /\ ht t' = ht t /\
        elems t' = match sames ltb key (elems t) with
                   | [] => elems t
                   | (k0, _) :: _ => write ltb key (k0, v) (elems t)
                   end.
    Proof.
      induction t as [|h ck cv l IHl r IHr]; intros HI Hs.
      - exists E. conj_; auto.
      - apply Inv_N in HI. destruct HI as (Eh & Hb & Il & Ir).
        cbn [elems] in Hs |- *. destruct (strict_mid ltb _ _ _ Hs) as (Sl & Sr & Ll & Lr).
        cbn [get_write]. side3 ck key.
        + destruct (cut_left ltb W (elems l) (ck, cv) (elems r) key Ho) as (C1 & C2 & C3).
          { intros y Hy. apply (lt_asym _ W). auto. }
          destruct (IHl Il Sl) as (l' & E1 & I' & E2 & E3). rewrite E1.
          exists (N h ck cv l' r). rewrite Inv_N. cbn [ht elems]. rewrite E2, E3, C2. conj_; auto.
          unfold write. rewrite C1, C3. destruct (sames ltb key (elems l)) as [|[k0 v0] ls]; auto.
          rewrite <- app_assoc. reflexivity.
        + destruct (cut_right ltb W (elems l) (ck, cv) (elems r) key Ho) as (C1 & C2 & C3).
          { intros y Hy. apply (lt_asym _ W). auto. }
          destruct (IHr Ir Sr) as (r' & E1 & I' & E2 & E3). rewrite E1.
          exists (N h ck cv l r'). rewrite Inv_N. cbn [ht elems]. rewrite E2, E3, C2. conj_; auto.
          unfold write. rewrite C1, C3. destruct (sames ltb key (elems r)) as [|[k0 v0] ls]; auto.
          rewrite <- app_assoc. reflexivity.
        + destruct (cut_same_strict ltb W (elems l) (ck, cv) (elems r) key Ho Hs) as (C1 & C2 & C3).
          exists (N h ck v l r). rewrite Inv_N. cbn [ht elems]. unfold write. rewrite C1, C2, C3. conj_; auto.
    Qed.

    Lemma neighboring_ok dir t : t <> E -> Inv D t -> ht t <= 127 ->
      exists t' e rb, neighboring st d dir t = Some (t', e, rb) /\
        elems t = (if dir then elems t' ++ [e] else e :: elems t') /\ Inv D t' /\
        ht t' <= ht t /\ (D = 127 \/ ht t - 1 <= ht t') /\ (rb = false -> ht t' = ht t).
    Proof.
      induction t as [|h k v l IHl r IHr]; intros HE HI Hh; [congruence|].
      apply Inv_N in HI. destruct HI as (Eh & Hb & Il & Ir). cbn [ht] in *. nonneg. cbn [neighboring].
      destruct dir; cbn [child negb with_child].
      - destruct r as [|rh rk rv rl rr] eqn:Er.
        + exists l, (k, v), true. cbn [elems ht]. conj_; auto; try apply Il; try lia; discriminate.
        + rewrite <- Er in *.
          destruct IHr as (r' & e & rb & E1 & E2 & I' & B1 & B2 & B3); auto; try lia; [congruence|].
          rewrite E1. cbn [elems]. rewrite E2. nonneg. destruct rb.
          * destruct (RB h k v l r' Il I' ltac:(lia) ltac:(lia) ltac:(lia)) as (t' & b & R1 & R2 & R3 & R4 & R5 & R6).
            rewrite R1. exists t', e, b. rewrite R2. rewrite <- app_assoc.
            conj_; auto; try apply R3; try lia.
            intros ->. rewrite (R6 eq_refl) in R3 |- *. apply Inv_N in R3. cbn [ht]. lia.
          * exists (N h k v l r'), e, false. rewrite Inv_N. cbn [ht elems]. rewrite (B3 eq_refl).
            rewrite <- app_assoc. conj_; auto; lia.
      - destruct l as [|lh lk lv ll lr] eqn:El.
        + exists r, (k, v), true. cbn [elems ht]. conj_; auto; try apply Ir; try lia; discriminate.
        + rewrite <- El in *.
          destruct IHl as (l' & e & rb & E1 & E2 & I' & B1 & B2 & B3); auto; try lia; [congruence|].
          rewrite E1. cbn [elems]. rewrite E2. nonneg. destruct rb.
          * destruct (RB h k v l' r I' Ir ltac:(lia) ltac:(lia) ltac:(lia)) as (t' & b & R1 & R2 & R3 & R4 & R5 & R6).
            rewrite R1. exists t', e, b. rewrite R2. conj_; auto; try apply R3; try lia.
            intros ->. rewrite (R6 eq_refl) in R3 |- *. apply Inv_N in R3. cbn [ht]. lia.
          * exists (N h k v l' r), e, false. rewrite Inv_N. cbn [ht elems]. rewrite (B3 eq_refl).
            conj_; auto; lia.
    Qed.

    Lemma remove_ok key t : forall side, Inv D t -> ht t <= 127 -> strictly_sorted ltb (elems t) ->
      exists t' rb, remove cmp st d key t side = Some (t', option_map snd (hd_error (sames ltb key (elems t))), rb) /\
        elems t' = erase ltb key (elems t) /\ Inv D t' /\
        ht t' <= ht t /\ (D = 127 \/ ht t - 1 <= ht t') /\ (rb = false -> ht t' = ht t).
    Proof.
      induction t as [|h ck cv l IHl r IHr]; intros side HI Hh Hs.
      - exists E, false. conj_; auto; cbn [ht]; lia.
      - pose proof HI as HI0. apply Inv_N in HI. destruct HI as (Eh & Hb & Il & Ir). cbn [ht] in Hh. cbn [elems] in Hs |- *.
        destruct (strict_mid ltb _ _ _ Hs) as (Sl & Sr & Ll & Lr). nonneg.
        cbn [remove]. side3 ck key.
        + destruct (IHl false Il ltac:(lia) Sl) as (l' & rb & E1 & E2 & I' & B1 & B2 & B3).
          rewrite E1. destruct (cut_left ltb W (elems l) (ck, cv) (elems r) key Ho) as (C1 & C2 & C3).
          { intros y Hy. apply (lt_asym _ W). auto. }
          unfold erase in *. rewrite C1, C2, C3, app_assoc, <- E2. nonneg. destruct rb.
          * destruct (RB h ck cv l' r I' Ir ltac:(lia) ltac:(lia) ltac:(lia)) as (t' & b & R1 & R2 & R3 & R4 & R5 & R6).
            rewrite R1. exists t', b. rewrite R2. cbn [ht]. conj_; auto; try apply R3; try lia.
            intros ->. rewrite (R6 eq_refl) in R3 |- *. apply Inv_N in R3. cbn [ht]. lia.
          * exists (N h ck cv l' r), false. rewrite Inv_N. cbn [ht elems]. rewrite (B3 eq_refl).
            conj_; auto; lia.
        + destruct (IHr true Ir ltac:(lia) Sr) as (r' & rb & E1 & E2 & I' & B1 & B2 & B3).
          rewrite E1. destruct (cut_right ltb W (elems l) (ck, cv) (elems r) key Ho) as (C1 & C2 & C3).
          { intros y Hy. apply (lt_asym _ W). auto. }
          unfold erase in *. rewrite C1, C2, C3, <- app_assoc. cbn [app]. rewrite <- E2. nonneg. destruct rb.
          * destruct (RB h ck cv l r' Il I' ltac:(lia) ltac:(lia) ltac:(lia)) as (t' & b & R1 & R2 & R3 & R4 & R5 & R6).
            rewrite R1. exists t', b. rewrite R2. cbn [ht]. conj_; auto; try apply R3; try lia.
            intros ->. rewrite (R6 eq_refl) in R3 |- *. apply Inv_N in R3. cbn [ht]. lia.
          * exists (N h ck cv l r'), false. rewrite Inv_N. cbn [ht elems]. rewrite (B3 eq_refl).
            conj_; auto; lia.
        + destruct (cut_same_strict ltb W (elems l) (ck, cv) (elems r) key Ho Hs) as (C1 & C2 & C3).
          unfold erase. rewrite C1, C2, C3. cbn [hd_error option_map snd ht].
          destruct l as [|lh lk lv ll lr] eqn:El; [|destruct r as [|rh rk rv rl rr] eqn:Er].
          * exists r, true. cbn [ht elems app] in *. conj_; auto; try apply Ir; try lia; discriminate.
          * exists (N lh lk lv ll lr), true. rewrite app_nil_r.
            cbn [ht] in *. conj_; auto; try apply Il; try lia; discriminate.
          * rewrite <- El, <- Er in *. destruct side; cbn [negb child with_child].
            -- destruct (neighboring_ok false r) as (r' & [rk' rv'] & rb & E1 & E2 & I' & B1 & B2 & B3); auto; try lia; [congruence|].
               rewrite E1. nonneg.
               destruct (RB h rk' rv' l r' Il I' ltac:(lia) ltac:(lia) ltac:(lia)) as (t' & b & R1 & R2 & R3 & R4 & R5 & R6).
               rewrite R1. exists t', b. rewrite R2, E2. conj_; auto; try apply R3; try lia.
               intros ->. rewrite (R6 eq_refl) in R3 |- *. apply Inv_N in R3. cbn [ht]. lia.
            -- destruct (neighboring_ok true l) as (l' & [lk' lv'] & rb & E1 & E2 & I' & B1 & B2 & B3); auto; try lia; [congruence|].
               rewrite E1. nonneg.
               destruct (RB h lk' lv' l' r I' Ir ltac:(lia) ltac:(lia) ltac:(lia)) as (t' & b & R1 & R2 & R3 & R4 & R5 & R6).
               rewrite R1. exists t', b. rewrite R2, E2, <- app_assoc. conj_; auto; try apply R3; try lia.
               intros ->. rewrite (R6 eq_refl) in R3 |- *. apply Inv_N in R3. cbn [ht]. lia.
    Qed.
  End Ops.
End Proofs.
