(** One call on an AVL tree (tree/avl, set/treeset) against the sorted-map specification. *)
From Verif Require Import Base Bind Machine OrderSpec SMapSpec SMapFacts AvlTree AvlSpec AvlModel AvlProofs AvlAny.
Local Open Scope Z_scope.

Section Step.
  Context {K V : Type} (ltb : K -> K -> bool) (W : weak_order ltb) (cmp : K -> K -> Z) (Hcmp : ex_cmp ltb cmp).
  Context (st : style) (d : Z).
  Notation avl := (avl K V).

  Definition Rel (s : avl) (m : list (K * V)) : Prop :=
    elems (root s) = m /\ size s = length m /\ strictly_sorted ltb m.

  Lemma len_cut k (m : list (K * V)) : strictly_sorted ltb m ->
    length m = (length (before ltb k m) + (length (sames ltb k m) + length (after ltb k m)))%nat.
  Proof. intros H. rewrite (cut_all ltb W m k) at 1 by (apply (strict_weak ltb W); auto). rewrite !app_length. reflexivity. Qed.
  Lemma len_write k e (m : list (K * V)) :
    length (write ltb k e m) = (length (before ltb k m) + S (length (after ltb k m)))%nat.
  Proof. unfold write. rewrite app_length. reflexivity. Qed.
  Lemma len_erase k (m : list (K * V)) :
    length (erase ltb k m) = (length (before ltb k m) + length (after ltb k m))%nat.
  Proof. unfold erase. rewrite app_length. reflexivity. Qed.
  Lemma write_new_len k e (m : list (K * V)) : strictly_sorted ltb m -> sames ltb k m = [] ->
    length (write ltb k e m) = S (length m).
  Proof. intros H1 H2. rewrite len_write, (len_cut k m H1), H2. simpl. lia. Qed.
  Lemma write_old_len k e (m : list (K * V)) : strictly_sorted ltb m -> sames ltb k m <> [] ->
    length (write ltb k e m) = length m.
  Proof.
    intros H1 H2. rewrite len_write, (len_cut k m H1). destruct (strict_sames ltb W m k H1) as [E|(x & E)]; [congruence|].
    rewrite E. simpl. lia.
  Qed.
  Lemma erase_none k (m : list (K * V)) : strictly_sorted ltb m -> sames ltb k m = [] -> erase ltb k m = m.
  Proof.
    intros H1 H2. pose proof (cut_all ltb W m k (strict_weak ltb W _ H1)) as H3. rewrite H2 in H3. symmetry. exact H3.
  Qed.
  Lemma erase_some_len k (m : list (K * V)) : strictly_sorted ltb m -> sames ltb k m <> [] ->
    length (erase ltb k m) = (length m - 1)%nat.
  Proof.
    intros H1 H2. rewrite len_erase, (len_cut k m H1). destruct (strict_sames ltb W m k H1) as [E|(x & E)]; [congruence|].
    rewrite E. simpl. lia.
  Qed.
  (** overwriting with the entry that is already there changes nothing *)
  Lemma write_same k x (m : list (K * V)) l : strictly_sorted ltb m -> sames ltb k m = x :: l -> write ltb k x m = m.
  Proof.
    intros H1 H2. pose proof (cut_all ltb W m k (strict_weak ltb W _ H1)) as H3.
    destruct (strict_sames ltb W m k H1) as [E|(y & E)]; rewrite E in *; [discriminate|].
    injection H2 as -> <-. symmetry. exact H3.
  Qed.

  Lemma set_any s m k v s' b : Rel s m -> set cmp st d s k v = Some (s', b) ->
    b = match sames ltb k m with [] => true | _ => false end /\ Rel s' (write ltb k (k, v) m).
  Proof.
    intros (<- & Hn & Hm). unfold set.
    destruct (put cmp st d _ k v (root s) false) as [[[t ex] rb]|] eqn:E1; [|discriminate].
    intros E2. injection E2 as <- <-.
    destruct (put_any st d ltb W cmp Hcmp _ _ _ _ _ _ _ _ Hm E1) as (-> & E3).
    assert (Hw : strictly_sorted ltb (write ltb k (k, v) (elems (root s)))).
    { apply write_sorted; auto. apply (same_refl _ W). }
    destruct (sames ltb k (elems (root s))) eqn:E4; (split; [reflexivity|]); unfold Rel; cbn [root size]; rewrite E3;
      repeat split; auto.
    - rewrite write_new_len; auto.
    - rewrite write_old_len; auto. congruence.
  Qed.
  Lemma put_any_ s m k v s' b : Rel s m -> put_ cmp st d s k v = Some (s', b) ->
    b = match sames ltb k m with [] => true | _ => false end /\
    Rel s' match sames ltb k m with [] => write ltb k (k, v) m | _ => m end.
  Proof.
    intros (<- & Hn & Hm). unfold put_.
    destruct (put cmp st d _ k v (root s) false) as [[[t ex] rb]|] eqn:E1; [|discriminate].
    intros E2. injection E2 as <- <-.
    destruct (put_any st d ltb W cmp Hcmp _ _ _ _ _ _ _ _ Hm E1) as (-> & E3).
    destruct (sames ltb k (elems (root s))) eqn:E4; (split; [reflexivity|]); unfold Rel; cbn [root size]; rewrite E3.
    - repeat split; auto; [rewrite write_new_len; auto|]. apply write_sorted; auto. apply (same_refl _ W).
    - rewrite (write_same _ _ _ _ Hm E4). auto.
  Qed.
  Lemma sames_same k m x l : sames ltb k (m : list (K * V)) = x :: l -> same ltb (fst x) k = true.
  Proof. intros H. assert (In x (sames ltb k m)) by (rewrite H; simpl; auto). apply filter_In in H0. tauto. Qed.

  (** an answer that is given is the right one, whatever the heights *)
  Lemma step_any s m o s' r : Rel s m -> step cmp st d s o = Some (s', r) ->
    r = snd (smap_spec ltb m o) /\ Rel s' (fst (smap_spec ltb m o)).
  Proof.
    intros HR. pose proof HR as (Ee & Hn & Hm). destruct o; cbn [step smap_spec].
    1, 2: destruct (put_ cmp st d s k v) as [[s1 b]|] eqn:E1; [|discriminate]; intros E2; injection E2 as <- <-;
      destruct (put_any_ _ _ _ _ _ _ HR E1) as (-> & HR'); destruct (sames ltb k m); auto.
    - destruct (set cmp st d s k v) as [[s1 b]|] eqn:E1; [|discriminate]; intros E2; injection E2 as <- <-.
      destruct (set_any _ _ _ _ _ _ HR E1) as (-> & HR'); auto.
    - destruct (upsert cmp st d s k v) as [[s1 b]|] eqn:E1; [|discriminate]; intros E2; injection E2 as <- <-.
      unfold upsert in E1. rewrite (get_ok ltb W cmp Hcmp k (root s)) in E1 by congruence.
      rewrite Ee in E1. destruct (sames ltb k m) as [|[k0 v0] l] eqn:Es; cbn [hd_error] in E1.
      + destruct (set cmp st d s k v) as [[s2 b2]|] eqn:E2; [|discriminate]. injection E1 as <- <-.
        destruct (set_any _ _ _ _ _ _ HR E2) as (_ & HR'); auto.
      + destruct (get_write_any ltb W cmp Hcmp k v (root s)) as (t' & X1 & X2); [congruence|].
        rewrite X1 in E1. injection E1 as <- <-. rewrite Ee, Es in X2. cbn [fst snd]. split; [reflexivity|].
        unfold Rel. cbn [root size]. rewrite X2. repeat split; auto.
        * rewrite write_old_len; auto. congruence.
        * apply write_sorted; auto. apply (sames_same _ _ _ _ Es).
    - unfold get_. rewrite (get_ok ltb W cmp Hcmp k (root s)) by congruence. rewrite Ee. intros E2. injection E2 as <- <-. auto.
    - unfold contains, get_. rewrite (get_ok ltb W cmp Hcmp k (root s)) by congruence. rewrite Ee.
      intros E2. injection E2 as <- <-. destruct (sames ltb k m); auto.
    - destruct (remove_ cmp st d s k) as [[s1 b]|] eqn:E1; [|discriminate]; intros E2; injection E2 as <- <-.
      unfold remove_ in E1. destruct (remove cmp st d k (root s) true) as [[[t o] rb]|] eqn:E2; [|discriminate].
      destruct (remove_any st d ltb W cmp Hcmp _ _ _ _ _ _ ltac:(rewrite Ee; exact Hm) E2) as (-> & X2). rewrite Ee in *.
      cbn [fst snd]. pose proof (erase_sorted ltb W k m Hm).
      destruct (sames ltb k m) as [|x l] eqn:Es; cbn [hd_error option_map] in E1; injection E1 as <- <-;
        (split; [reflexivity|]); unfold Rel; cbn [root size]; repeat split; auto.
      + rewrite erase_none; auto.
      + rewrite erase_some_len by congruence. rewrite Hn. reflexivity.
    - destruct (remove_ cmp st d s k) as [[s1 b]|] eqn:E1; [|discriminate]; intros E2; injection E2 as <- <-.
      unfold remove_ in E1. destruct (remove cmp st d k (root s) true) as [[[t o] rb]|] eqn:E2; [|discriminate].
      destruct (remove_any st d ltb W cmp Hcmp _ _ _ _ _ _ ltac:(rewrite Ee; exact Hm) E2) as (-> & X2). rewrite Ee in *.
      cbn [fst snd]. pose proof (erase_sorted ltb W k m Hm).
      destruct (sames ltb k m) as [|x l] eqn:Es; cbn [hd_error option_map] in E1; injection E1 as <- <-;
        (split; [reflexivity|]); unfold Rel; cbn [root size]; repeat split; auto.
      + rewrite erase_none; auto.
      + rewrite erase_some_len by congruence. rewrite Hn. reflexivity.
    - intros E2; injection E2 as <- <-. repeat split; auto. constructor.
    - intros E2; injection E2 as <- <-. rewrite Hn. auto.
    - intros E2; injection E2 as <- <-. rewrite Hn. auto.
    - intros E2; injection E2 as <- <-. rewrite Hn. destruct m; auto.
    - intros E2; injection E2 as <- <-. rewrite values_ok by congruence. rewrite Ee. auto.
    - intros E2; injection E2 as <- <-. destruct (traverse_ok go (root s) []) as (-> & _). rewrite Ee. auto.
  Qed.

  (** with exact heights, and the tree not too tall, nothing panics and heights stay exact *)
  Context (D : Z) (RB : @rb_ok K V st d D) (HD : 1 <= D).
  Lemma step_total s m o : Rel s m -> Inv D (root s) -> ht (root s) <= 126 ->
    exists s' r, step cmp st d s o = Some (s', r) /\ Inv D (root s').
  Proof.
    intros HR HI Hh. pose proof HR as (Ee & Hn & Hm). rewrite <- Ee in Hm.
    assert (Hset : forall k v, exists s' b, set cmp st d s k v = Some (s', b) /\ Inv D (root s')).
    { intros k v. unfold set.
      destruct (put_ok ltb W cmp Hcmp st d D RB HD (fun _ => (k, v)) k v (root s) false HI Hh Hm)
        as (t & ex & rb & E1 & _ & _ & I' & _). rewrite E1. eauto. }
    assert (Hput : forall k v, exists s' b, put_ cmp st d s k v = Some (s', b) /\ Inv D (root s')).
    { intros k v. unfold put_.
      destruct (put_ok ltb W cmp Hcmp st d D RB HD (fun e => e) k v (root s) false HI Hh Hm)
        as (t & ex & rb & E1 & _ & _ & I' & _). rewrite E1. eauto. }
    assert (Hrem : forall k, exists s' b, remove_ cmp st d s k = Some (s', b) /\ Inv D (root s')).
    { intros k. unfold remove_.
      destruct (remove_ok ltb W cmp Hcmp st d D RB HD k (root s) true HI ltac:(lia) Hm) as (t & rb & E1 & _ & I' & _).
      rewrite E1. destruct (sames ltb k (elems (root s))); eexists; eexists; (split; [reflexivity|]); auto. }
    destruct o; cbn [step].
    - destruct (Hput k v) as (s' & b & -> & HI'). eauto.
    - destruct (Hput k v) as (s' & b & -> & HI'). eauto.
    - destruct (Hset k v) as (s' & b & -> & HI'). eauto.
    - unfold upsert. rewrite (get_ok ltb W cmp Hcmp) by auto.
      destruct (sames ltb k (elems (root s))); cbn [hd_error].
      + destruct (Hset k v) as (s' & b & -> & HI'). eauto.
      + destruct (get_write_ok ltb W cmp Hcmp D k v (root s) HI Hm) as (t' & -> & HI' & _). eauto.
    - unfold get_. rewrite (get_ok ltb W cmp Hcmp) by auto. eauto.
    - unfold contains, get_. rewrite (get_ok ltb W cmp Hcmp) by auto. eauto.
    - destruct (Hrem k) as (s' & b & -> & HI'). eauto.
    - destruct (Hrem k) as (s' & b & -> & HI'). eauto.
    - eexists; eexists; split; [reflexivity|]. apply Inv_E.
    - eauto.
    - eauto.
    - eauto.
    - eauto.
    - eauto.
  Qed.

  (** ** operation sequences *)
  Lemma run_any ops : forall s m rs, Rel s m -> run (step cmp st d) s ops = Some rs -> rs = srun (smap_spec ltb) m ops.
  Proof.
    induction ops as [|o ops IH]; intros s m rs HR; cbn [run srun]; [congruence|].
    destruct (step cmp st d s o) as [[s' r]|] eqn:E1; [|discriminate].
    destruct (step_any _ _ _ _ _ HR E1) as (-> & HR').
    destruct (run (step cmp st d) s' ops) as [rs'|] eqn:E2; [|discriminate]. cbn [option_map]. intros E3. injection E3 as <-.
    rewrite (IH _ _ _ HR' E2). destruct (smap_spec ltb m o); reflexivity.
  Qed.
  Lemma reach_any ops : forall s m s', Rel s m -> reach (step cmp st d) s ops = Some s' ->
    Rel s' (sreach (smap_spec ltb) m ops).
  Proof.
    induction ops as [|o ops IH]; intros s m s' HR; cbn [reach sreach]; [congruence|].
    destruct (step cmp st d s o) as [[s1 r]|] eqn:E1; [|discriminate].
    destruct (step_any _ _ _ _ _ HR E1) as (_ & HR'). eauto.
  Qed.
  Definition low_from (s : avl) (ops : list (sm_op K V)) : Prop :=
    forall p q s', ops = p ++ q -> reach (step cmp st d) s p = Some s' -> ht (root s') <= 126.
  Lemma run_total ops : forall s m, Rel s m -> Inv D (root s) -> low_from s ops ->
    run (step cmp st d) s ops = Some (srun (smap_spec ltb) m ops) /\
    exists s', reach (step cmp st d) s ops = Some s' /\ Rel s' (sreach (smap_spec ltb) m ops) /\ Inv D (root s').
  Proof.
    induction ops as [|o ops IH]; intros s m HR HI HL; cbn [run srun reach sreach].
    - split; [reflexivity|]. exists s. auto.
    - destruct (step_total s m o HR HI) as (s' & r & E1 & HI').
      { apply (HL [] (o :: ops) s); reflexivity. }
      rewrite E1. destruct (step_any _ _ _ _ _ HR E1) as (-> & HR').
      destruct (IH s' _ HR' HI') as (E2 & s2 & E3 & R2 & I2).
      { intros p q s2 E2 E3. apply (HL (o :: p) q s2); [rewrite E2; reflexivity|]. cbn [reach]. rewrite E1. exact E3. }
      rewrite E2. destruct (smap_spec ltb m o) as [m' r']. split; [reflexivity|]. eauto.
  Qed.
End Step.

(** ** balanced trees are not tall *)
Section Fib.
  Context {K V : Type}.
  Notation tree := (tree K V).
  Lemma fib_SS n : fib (S (S n)) = fib (S n) + fib n.
  Proof. reflexivity. Qed.
  Lemma fib_pos n : 0 <= fib n /\ 1 <= fib (S n) /\ fib n <= fib (S n).
  Proof. induction n as [|n IH]; [cbn; lia|]. rewrite fib_SS. lia. Qed.
  Lemma fib_mono n m : (n <= m)%nat -> fib n <= fib m.
  Proof. induction 1; [lia|]. pose proof (fib_pos m). lia. Qed.
  Lemma avl_fib (t : tree) : balanced 1 t -> fib (Z.to_nat (ht t) + 2) <= Z.of_nat (length (elems t)) + 1.
  Proof.
    induction t as [|h k v l IHl r IHr]; intros HB; [cbn; lia|].
    cbn [balanced] in HB. destruct HB as (Hd & Hl & Hr). specialize (IHl Hl). specialize (IHr Hr).
    cbn [ht elems]. rewrite app_length. cbn [length].
    pose proof (ht_nonneg l). pose proof (ht_nonneg r).
    replace (Z.to_nat (1 + Z.max (ht l) (ht r)) + 2)%nat
      with (S (S (Z.to_nat (Z.max (ht l) (ht r)) + 1))) by lia.
    rewrite fib_SS. rewrite Nat2Z.inj_add, Nat2Z.inj_succ.
    destruct (Z.le_ge_cases (ht l) (ht r)).
    - rewrite Z.max_r by lia. pose proof (fib_mono (Z.to_nat (ht r) + 1) (Z.to_nat (ht l) + 2) ltac:(lia)).
      replace (S (Z.to_nat (ht r) + 1)) with (Z.to_nat (ht r) + 2)%nat by lia. lia.
    - rewrite Z.max_l by lia. pose proof (fib_mono (Z.to_nat (ht l) + 1) (Z.to_nat (ht r) + 2) ltac:(lia)).
      replace (S (Z.to_nat (ht l) + 1)) with (Z.to_nat (ht l) + 2)%nat by lia. lia.
  Qed.
  (** fast Fibonacci, to evaluate the bound *)
  Fixpoint fibp (n : nat) (a b : Z) : Z := match n with O => a | S n' => fibp n' b (a + b) end.
  Lemma fibp_fib n : forall m, fibp n (fib m) (fib (S m)) = fib (n + m).
  Proof.
    induction n as [|n IH]; intros m; [reflexivity|]. cbn [fibp].
    replace (fib m + fib (S m)) with (fib (S (S m))) by (rewrite fib_SS; lia). rewrite IH. f_equal. lia.
  Qed.
  Lemma fib_129 : fib 129 = 407305795904080553832073954.
  Proof. transitivity (fibp 129 (fib 0) (fib 1)); [rewrite fibp_fib; f_equal|vm_compute; reflexivity]. Qed.
  Lemma avl_low (t : tree) : balanced 1 t -> Z.of_nat (length (elems t)) < 2 ^ 64 -> ht t <= 126.
  Proof.
    intros HB Hn. pose proof (avl_fib t HB). destruct (Z.le_gt_cases (ht t) 126); [assumption|]. exfalso.
    pose proof (fib_mono 129 (Z.to_nat (ht t) + 2) ltac:(lia)). rewrite fib_129 in *. lia.
  Qed.
End Fib.

Section Grow.
  Context {K V : Type} (ltb : K -> K -> bool) (W : weak_order ltb).
  (** an operation adds at most one entry *)
  Lemma smap_grow (m : list (K * V)) o : strictly_sorted ltb m -> (length (fst (smap_spec ltb m o)) <= S (length m))%nat.
  Proof.
    intros Hm.
    assert (Hw : forall k e, (length (write ltb k e m) <= S (length m))%nat).
    { intros k e. rewrite len_write, (len_cut ltb W k m Hm). lia. }
    assert (He : forall k, (length (erase ltb k m) <= S (length m))%nat).
    { intros k. rewrite len_erase, (len_cut ltb W k m Hm). lia. }
    destruct o; cbn [smap_spec fst]; auto.
    - destruct (sames ltb k m); cbn [fst]; auto.
    - destruct (sames ltb k m); cbn [fst]; auto.
    - destruct (sames ltb k m) as [|[k0 v0] l]; cbn [fst]; auto.
    - cbn; lia.
  Qed.
  Lemma smap_sreach ops : forall (m : list (K * V)), strictly_sorted ltb m ->
    strictly_sorted ltb (sreach (smap_spec ltb) m ops) /\
    (length (sreach (smap_spec ltb) m ops) <= length ops + length m)%nat.
  Proof.
    induction ops as [|o ops IH]; intros m Hm; cbn [sreach length]; [split; [auto|lia]|].
    pose proof (smap_grow m o Hm). destruct (IH _ (smap_spec_sorted ltb W m o Hm)). split; [auto|lia].
  Qed.
End Grow.

Section LowAvl.
  Context {K V : Type} (ltb : K -> K -> bool) (W : weak_order ltb) (cmp : K -> K -> Z) (Hcmp : ex_cmp ltb cmp).
  Context (st : style) (d : Z) (RB : @rb_ok K V st d 1).
  (** An AVL tree never gets too tall for int8. *)
  Lemma low_avl ops : forall (s : avl K V) m, Rel ltb s m -> Inv 1 (root s) -> Z.of_nat (length m + length ops) < 2 ^ 64 ->
    low_from cmp st d s ops.
  Proof.
    induction ops as [|o ops IH]; intros s m HR HI Hn p q s' E1 R1.
    - destruct p; [|discriminate]. cbn in R1. injection R1 as <-. apply avl_low; [apply HI|].
      destruct HR as (-> & _). cbn in Hn. lia.
    - destruct p as [|o' p].
      + cbn in R1. injection R1 as <-. apply avl_low; [apply HI|]. destruct HR as (-> & _). lia.
      + cbn [app] in E1. injection E1 as <- ->. cbn [reach] in R1.
        destruct (step cmp st d s o) as [[s1 r]|] eqn:E2; [|discriminate].
        destruct (step_any ltb W cmp Hcmp st d _ _ _ _ _ HR E2) as (_ & HR').
        destruct (step_total ltb W cmp Hcmp st d 1 RB ltac:(lia) s m o HR HI) as (s2 & r2 & E3 & HI').
        { apply avl_low; [apply HI|]. destruct HR as (-> & _). lia. }
        rewrite E2 in E3. injection E3 as <- <-.
        apply (IH s1 _ HR' HI') with (p := p) (q := q); auto.
        destruct HR as (_ & _ & Hm). pose proof (smap_grow ltb W m o Hm). cbn [length] in Hn. lia.
  Qed.
End LowAvl.
