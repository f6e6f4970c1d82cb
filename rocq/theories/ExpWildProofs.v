(** tree/indextree/experiment, type Tree: any comparison function (lemmas for C84). *)
From Verif Require Import Base Bind Machine OrderSpec SMapSpec SMapFacts AvlTree AvlSpec AvlModel AvlProofs AvlAny AvlStep WildSpec IndexWildProofs AvlWildProofs AvlIterModel AvlIterProofs
  ExpModel ExpProps ExpIterModel ExpWildSpec.
Local Open Scope Z_scope.

Section Step.
  Context {K V : Type} (cmp : K -> K -> Z) (d D : Z) (RB : @rb_ok K V Both d D) (HD : 1 <= D).
  Lemma sides_dir a b : sides cmp a b <= 1.
  Proof. unfold sides. destruct (cmp a b <? 0); [lia|]. destruct (cmp a b >? 0); lia. Qed.
  Lemma sides_equal k (e : K * V) : hit (sides cmp) k e -> equal cmp k e.
  Proof.
    unfold hit, equal, sides. rewrite Z.gtb_ltb. destruct (Z.ltb_spec (cmp (fst e) k) 0); [lia|]. destruct (Z.ltb_spec 0 (cmp (fst e) k)); lia.
  Qed.
  Lemma step_exp (s : avl K V) o : (directs o = true -> forall a b, cmp a b <= 1) -> wellsized s -> Inv D (root s) -> ht (root s) <= 126 ->
    exists s' x, step cmp d s o = Some (s', x) /\ wellsized s' /\ Inv D (root s') /\ emay cmp (elems (root s)) o (elems (root s')) x.
  Proof.
    intros Hc Hs HI Hh.
    assert (Hset : forall k v, exists s' x, step cmp d s (MSet k v) = Some (s', x) /\ wellsized s' /\ Inv D (root s') /\ emay cmp (elems (root s)) (MSet k v) (elems (root s')) x).
    { intros k v. rewrite (step_avl cmp d s (MSet k v) I). destruct (AvlWildProofs.step_wild (sides cmp) sides_dir Both d D RB HD s (MSet k v) Hs HI Hh) as (s' & x & E1 & H1 & H2 & H3).
      exists s', x. repeat (split; [assumption|]). cbn [smay emay] in *. destruct H3 as [H3|(H3 & e & H4 & H5)]; [auto|]. right. split; [exact H3|]. exists e. split; [apply sides_equal, H4|exact H5]. }
    destruct o; cbn [directs] in Hc; try specialize (Hc eq_refl).
    - rewrite (step_avl cmp d s (MPut k v) I). destruct (AvlWildProofs.step_wild (sides cmp) sides_dir Both d D RB HD s (MPut k v) Hs HI Hh) as (s' & x & E1 & H1 & H2 & H3).
      exists s', x. split; [exact E1|]. repeat (split; [assumption|]). cbn [smay emay] in *.
      destruct H3 as [H3|(_ & H3 & H4 & e & H5 & H6)]; [auto|]. right. split; [exact H3|]. split; [exact H4|]. exists e. split; [exact H5|apply sides_equal, H6].
    - rewrite (step_avl cmp d s (MInsertIfAbsent k v) I). destruct (AvlWildProofs.step_wild (sides cmp) sides_dir Both d D RB HD s (MInsertIfAbsent k v) Hs HI Hh) as (s' & x & E1 & H1 & H2 & H3).
      exists s', x. split; [exact E1|]. repeat (split; [assumption|]). cbn [smay emay] in *.
      destruct H3 as [H3|(H3 & H4 & e & H5 & H6)]; [auto|]. right. split; [exact H3|]. split; [exact H4|]. exists e. split; [exact H5|apply sides_equal, H6].
    - apply Hset.
    - cbn [step]. unfold upsert. destruct (get_wild cmp Hc D k v (root s)) as ([e|] & Eg & H); rewrite Eg.
      + destruct H as (F1 & F2 & t' & -> & F4 & F5 & F6). eexists _, _. split; [reflexivity|]. unfold wellsized. cbn [root size].
        rewrite (swapped_len _ _ _ _ F6). split; [exact Hs|]. split; [auto|]. left. split; [reflexivity|]. exists e. auto.
      + destruct (Hset k v) as (s' & x & E1 & H1 & H2 & H3). cbn [step] in E1. destruct (ExpModel.set cmp d s k v) as [[s1 b]|]; [|discriminate]. injection E1 as <- <-.
        eexists _, _. split; [reflexivity|]. split; [exact H1|]. split; [exact H2|]. right. split; [reflexivity|]. destruct H3 as [(_ & H3)|(_ & H3)]; auto.
    - exact (AvlWildProofs.step_wild cmp Hc Both d D RB HD s (MGet k) Hs HI Hh).
    - exact (AvlWildProofs.step_wild cmp Hc Both d D RB HD s (MContains k) Hs HI Hh).
    - exact (AvlWildProofs.step_wild cmp Hc Both d D RB HD s (MRemove k) Hs HI Hh).
    - exact (AvlWildProofs.step_wild cmp Hc Both d D RB HD s (MDelete k) Hs HI Hh).
    - exact (AvlWildProofs.step_wild (sides cmp) sides_dir Both d D RB HD s MClear Hs HI Hh).
    - exact (AvlWildProofs.step_wild (sides cmp) sides_dir Both d D RB HD s MSize Hs HI Hh).
    - exact (AvlWildProofs.step_wild (sides cmp) sides_dir Both d D RB HD s MLen Hs HI Hh).
    - exact (AvlWildProofs.step_wild (sides cmp) sides_dir Both d D RB HD s MEmpty Hs HI Hh).
    - exact (AvlWildProofs.step_wild (sides cmp) sides_dir Both d D RB HD s MValues Hs HI Hh).
    - exact (AvlWildProofs.step_wild (sides cmp) sides_dir Both d D RB HD s (MTraverse go) Hs HI Hh).
  Qed.
  Lemma emay_grow m o m' x : emay (V := V) cmp m o m' x -> (length m' <= S (length m))%nat.
  Proof.
    assert (A : forall e (m m' : list (K * V)), added e m m' -> (length m' <= S (length m))%nat) by (intros e m0 m1 H; rewrite (added_len _ _ _ H); lia).
    assert (B : forall e e' (m m' : list (K * V)), swapped e e' m m' -> (length m' <= S (length m))%nat) by (intros e e' m0 m1 H; rewrite (swapped_len _ _ _ _ H); lia).
    assert (C : forall e (m m' : list (K * V)), dropped e m m' -> (length m' <= S (length m))%nat) by (intros e m0 m1 H; apply added_len in H; lia).
    destruct o; cbn [emay]; intros H; repeat match goal with
      | H : _ \/ _ |- _ => destruct H
      | H : _ /\ _ |- _ => destruct H
      | H : exists _, _ |- _ => destruct H
      end; subst; eauto; cbn; lia.
  Qed.
  Lemma run_exp (ops : list (sm_op K V)) : (existsb directs ops = true -> forall a b, cmp a b <= 1) -> forall s : avl K V, wellsized s -> Inv D (root s) ->
    (forall p q s', ops = p ++ q -> reach (step cmp d) s p = Some s' -> ht (root s') <= 126) ->
    exists s' xs, reach (step cmp d) s ops = Some s' /\ run (step cmp d) s ops = Some xs /\ wellsized s' /\ Inv D (root s') /\ emay_run cmp (elems (root s)) ops xs (elems (root s')).
  Proof.
    induction ops as [|o ops IH]; intros Hc s Hs HI HL; cbn [run reach]; [exists s, []; repeat (split; [auto|]); constructor|].
    cbn [existsb] in Hc. destruct (step_exp s o) as (s1 & x & E1 & H1 & H2 & H3); [intros H; apply Hc; rewrite H; reflexivity|exact Hs|exact HI|apply (HL [] (o :: ops) s); reflexivity|]. rewrite E1.
    destruct (IH ltac:(intros H; apply Hc; rewrite H; apply orb_true_r) s1 H1 H2) as (s' & xs & I1 & I2 & I3 & I4 & I5).
    { intros p q s2 E2 E3. apply (HL (o :: p) q s2); [rewrite E2; reflexivity|]. cbn [reach]. rewrite E1. exact E3. }
    rewrite I1, I2. exists s', (x :: xs). repeat (split; [auto|]). econstructor; eassumption.
  Qed.
  Lemma low_exp (ops : list (sm_op K V)) : D = 1 -> (existsb directs ops = true -> forall a b, cmp a b <= 1) -> forall s : avl K V, wellsized s -> Inv D (root s) -> Z.of_nat (length (elems (root s)) + length ops) < 2 ^ 64 ->
    forall p q s', ops = p ++ q -> reach (step cmp d) s p = Some s' -> ht (root s') <= 126.
  Proof.
    intros HD1. induction ops as [|o ops IH]; intros Hc s Hs HI Hn p q s' E1 R1.
    - destruct p; [|discriminate]. cbn in R1. injection R1 as <-. apply avl_low; [rewrite <- HD1; apply HI|]. lia.
    - assert (ht (root s) <= 126) as Hh by (apply avl_low; [rewrite <- HD1; apply HI|]; lia).
      destruct p as [|o' p]; [cbn in R1; injection R1 as <-; exact Hh|].
      cbn [app] in E1. injection E1 as <- ->. cbn [reach] in R1. cbn [existsb] in Hc.
      destruct (step_exp s o) as (s1 & x & E2 & H1 & H2 & H3); auto; [intros H; apply Hc; rewrite H; reflexivity|]. rewrite E2 in R1. pose proof (emay_grow _ _ _ _ H3).
      apply (IH ltac:(intros H'; apply Hc; rewrite H'; apply orb_true_r) s1 H1 H2) with (p := p) (q := q); auto. cbn [length] in Hn. lia.
  Qed.
End Step.

(** iterators without seeks need no order *)
Section Walk.
  Context {K V : Type} (ltb : K -> K -> bool) (cmp : K -> K -> Z) (T : avl K V) (Hh : height T = Some (ht (root T))).
  Notation m := (elems (root T)).
  Lemma walk_pos it q o : walks o = true -> Pos T (ht (root T)) it q ->
    exists it', exp_it_step cmp it o = Some (it', snd (cursor_spec ltb true m q o)) /\ Pos T (ht (root T)) it' (fst (cursor_spec ltb true m q o)).
  Proof.
    unfold exp_it_step. intros Ho H. destruct o; try discriminate; cbn [it_step cursor_spec fst snd].
    - destruct (seekToEnd_pos T _ (Z.le_refl _) false it q H) as (it' & E1 & E2). rewrite E1. eauto.
    - destruct (seekToEnd_pos T _ (Z.le_refl _) true it q H) as (it' & E1 & E2). rewrite E1. eauto.
    - destruct (move_pos T _ (Z.le_refl _) true it q H) as (it' & E1 & E2). rewrite E1. eauto.
    - destruct (move_pos T _ (Z.le_refl _) false it q H) as (it' & E1 & E2). rewrite E1. eauto.
    - rewrite (read_pos T _ it q H). exists it. split; auto. destruct (cur it); reflexivity.
    - rewrite (read_pos T _ it q H). exists it. split; auto. destruct (cur it); reflexivity.
    - rewrite (read_pos T _ it q H). exists it. split; auto. destruct (cur it); reflexivity.
    - destruct (clone_pos T Hh it q H) as (it' & E1 & E2). rewrite E1. eauto.
  Qed.
  Lemma walk_run : exists it, exp_iterator T = Some it /\
    forall cops, forallb walks cops = true -> run (exp_it_step cmp) it cops = Some (srun (cursor_spec ltb true m) None cops).
  Proof.
    eexists. split; [apply (new_iter T Hh)|]. intros cops. pose proof (new_pos T) as H. revert H. generalize (@None Z).
    match goal with |- forall q, _ ?it _ -> _ => generalize it end.
    induction cops as [|o cops IH]; intros it q H Hw; [reflexivity|]. cbn [forallb] in Hw. apply andb_true_iff in Hw as (H1 & H2). cbn [run srun].
    destruct (walk_pos it q o H1 H) as (it' & -> & E2). rewrite (IH it' _ E2 H2). destruct (cursor_spec ltb true m q o); reflexivity.
  Qed.
End Walk.
