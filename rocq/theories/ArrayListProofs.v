From Verif Require Import Base Machine Slice QueueSpec ArrayListSpec ArrayListModel ArrayQueueProofs.
Require Import ZifyBool ZifyNat.
Ltac Zify.zify_post_hook ::= Z.div_mod_to_equations.
Local Open Scope Z_scope.

Lemma u_small z : 0 <= z < 2 ^ 64 -> u z = z.
Proof. intros H. unfold u. apply Z.mod_small. exact H. Qed.
Lemma u_add_l a b : u (u a + b) = u (a + b).
Proof. unfold u. apply Zplus_mod_idemp_l. Qed.
Lemma u_add_r a b : u (b + u a) = u (b + a).
Proof. unfold u. apply Zplus_mod_idemp_r. Qed.
Lemma u_add3 a b c : u (b + u a + c) = u (b + a + c).
Proof. rewrite <- !Z.add_assoc, (Z.add_comm (u a)), Z.add_assoc, u_add_r. f_equal; lia. Qed.
Lemma u_sub_l a b : u (u a - b) = u (a - b).
Proof. unfold u. apply Zminus_mod_idemp_l. Qed.

Section P.
  Context {A : Type} (zero : A) (limit : Z).
  Hypothesis Hlim : 16 <= limit <= 2 ^ 62.
  Notation alist := (alist (A:=A)).
  Notation outcome := ArrayListModel.outcome.

  Record RelX (l : alist) (c : list A) (h t : nat) : Prop := {
    r_len : (8 <= length (data l))%nat /\ lenZ (data l) <= limit;
    r_ht : (h + length c = t /\ t <= length (data l))%nat;
    r_head : headidx l = u (Z.of_nat h - 1);
    r_tail : tailidx l = Z.of_nat t;
    r_size : size l = Z.of_nat (length c);
    r_shr : 0 <= shrinkSize l /\ (length (data l) = 8%nat \/ 8 * shrinkSize l <= 3 * lenZ (data l) + 24);
    r_nth : forall i, (i < length c)%nat -> nth_error (data l) (h + i) = nth_error c i }.
  Definition Rel (l : alist) (c : list A) : Prop := exists h t, RelX l c h t.

  Lemma get_ok (d : list A) i : (i < length d)%nat -> get d (Z.of_nat i) = nth_error d i.
  Proof.
    intros H. unfold get, lenZ. rewrite Nat2Z.id.
    replace ((0 <=? Z.of_nat i) && (Z.of_nat i <? Z.of_nat (length d))) with true by lia. reflexivity.
  Qed.
  Lemma set_ok (d : list A) i v : (i < length d)%nat -> set d (Z.of_nat i) v = Some (list_set d i v).
  Proof.
    intros H. unfold set, lenZ. rewrite Nat2Z.id.
    replace ((0 <=? Z.of_nat i) && (Z.of_nat i <? Z.of_nat (length d))) with true by lia. reflexivity.
  Qed.
  Lemma sl_ok (d : list A) i j : (i <= j <= length d)%nat -> sl d (Z.of_nat i) (Z.of_nat j) = slice d i j.
  Proof.
    intros H. unfold sl, lenZ. rewrite !Nat2Z.id.
    replace ((0 <=? Z.of_nat i) && (Z.of_nat i <=? Z.of_nat j) && (Z.of_nat j <=? Z.of_nat (length d))) with true by lia.
    reflexivity.
  Qed.
  Lemma cp_ok (d : list A) i src : (i <= length d)%nat -> cp d (Z.of_nat i) src = copy_at d i src.
  Proof.
    intros H. unfold cp, lenZ. rewrite !Nat2Z.id.
    replace ((0 <=? Z.of_nat i) && (Z.of_nat i <=? Z.of_nat (length d))) with true by lia. reflexivity.
  Qed.

  Lemma slice_content (d : list A) h t c : (h + length c = t)%nat -> (t <= length d)%nat ->
    (forall i, (i < length c)%nat -> nth_error d (h + i) = nth_error c i) -> slice d h t = Some c.
  Proof.
    intros H1 H2 H3. destruct (slice d h t) as [s|] eqn:E.
    - apply slice_nth in E as (_ & El & En). f_equal. apply nth_error_eq_ext. intros i.
      destruct (Nat.lt_ge_cases i (length c)) as [Hi|Hi].
      + rewrite En by lia. apply H3; assumption.
      + rewrite !(proj2 (nth_error_None _ _)); auto; lia.
    - unfold slice in E. replace ((h <=? t)%nat && (t <=? length d)%nat) with true in E by lia. discriminate.
  Qed.

  Lemma head_plus l c h t k : RelX l c h t -> (h + k <= length (data l))%nat -> u (headidx l + 1 + Z.of_nat k) = Z.of_nat (h + k).
  Proof.
    intros [[R1 R1'] R2 R3 R4 R5 R6 R7] Hk. unfold lenZ in *. rewrite R3.
    rewrite <- Z.add_assoc, u_add_l. rewrite u_small; lia.
  Qed.
  Lemma head1 l c h t : RelX l c h t -> u (headidx l + 1) = Z.of_nat h.
  Proof.
    intros HR. pose proof (head_plus l c h t 0 HR) as H. destruct HR as [? [? ?] ? ? ? ? ?].
    rewrite !Nat.add_0_r, Z.add_0_r in H. apply H. lia.
  Qed.
  Lemma content l c h t : RelX l c h t -> sl (data l) (u (headidx l + 1)) (tailidx l) = Some c.
  Proof.
    intros HR. rewrite (head1 _ _ _ _ HR). destruct HR as [R1 [R2 R2'] R3 R4 R5 R6 R7].
    rewrite R4, sl_ok by lia. apply slice_content; auto.
  Qed.

  (* copying the content into a fresh array *)
  Lemma relocate n off (c : list A) : (off + length c <= n)%nat -> exists d,
    cp (repeat zero n) (Z.of_nat off) c = Some d /\ length d = n /\
    forall i, (i < length c)%nat -> nth_error d (off + i) = nth_error c i.
  Proof.
    intros H. rewrite cp_ok by (rewrite repeat_length; lia).
    destruct (copy_at_nth (repeat zero n) off c) as (d & E & El & En); [rewrite repeat_length; lia|].
    rewrite repeat_length in El. exists d. repeat split; auto. intros i Hi. rewrite En.
    replace ((off <=? off + i)%nat && (off + i <? off + length c)%nat) with true by lia. f_equal; lia.
  Qed.

  Lemma growth_rel l c h t : RelX l c h t ->
    (growth zero limit l = Oom /\ limit < 2 * lenZ (data l)) \/
    (exists l', growth zero limit l = Ok l' /\ 2 * lenZ (data l) <= limit /\
      RelX l' c (length (data l) / 2 + 1) (length (data l) / 2 + 1 + length c) /\ length (data l') = (2 * length (data l))%nat /\
      shrinkSize l' = size l - size l / 4).
  Proof.
    intros HR. pose proof (content _ _ _ _ HR) as Hc. destruct HR as [[R1 R1'] [R2 R2'] R3 R4 R5 [R6a R6b] R7].
    unfold growth. set (n := length (data l)) in *. unfold lenZ in *. fold n.
    assert (Hsz : 0 <= size l <= Z.of_nat n) by lia.
    destruct (Z.leb_spec (2 ^ 63) (size l)); [lia|].
    rewrite (u_small (Z.of_nat n * 2)) by lia. unfold make.
    destruct (Z.ltb_spec limit (Z.of_nat n * 2)) as [Ho|Ho]; [left; split; [reflexivity|lia]|right].
    cbn [bind]. unfold obind. rewrite Hc. cbn [of_opt bind].
    rewrite (u_small (Z.of_nat n / 2 + 1)) by lia. rewrite (u_small (Z.of_nat n / 2 + size l + 1)) by lia.
    replace (Z.of_nat n / 2 + 1) with (Z.of_nat (n / 2 + 1)) by lia.
    replace (Z.to_nat (Z.of_nat n * 2)) with (2 * n)%nat by lia.
    destruct (relocate (2 * n) (n / 2 + 1) c) as (d & E & El & En); [lia|].
    rewrite E. cbn [of_opt bind]. eexists; split; [reflexivity|]. split; [lia|].
    assert (Hs4 : u (size l - size l / 4) = size l - size l / 4) by (apply u_small; lia).
    split; [|split; [exact El|exact Hs4]].
    constructor; unfold lenZ; cbn [data headidx tailidx size shrinkSize]; rewrite ?El; try lia; auto.
    - rewrite u_small; lia.
  Qed.

  Lemma shrink_rel l c h t : RelX l c h t -> exists l' h' t', shrink zero limit l = Ok l' /\ RelX l' c h' t' /\
     (if (8 <? size l) && (size l <=? shrinkSize l)
      then h' = (length c / 4 + 1)%nat /\ length (data l') = (length (data l) - length (data l) / 4)%nat /\ shrinkSize l' = size l - size l / 4
      else l' = l /\ h' = h).
  Proof.
    intros HR. pose proof (content _ _ _ _ HR) as Hc. pose proof HR as [[R1 R1'] [R2 R2'] R3 R4 R5 [R6a R6b] R7].
    unfold shrink. destruct (Z.leb_spec (size l) 8) as [E8|E8].
    { exists l, h, t. destruct (Z.ltb_spec 8 (size l)); [lia|]. simpl. auto. }
    destruct (Z.ltb_spec 8 (size l)); [|lia]. cbn [andb].
    destruct (Z.leb_spec (size l) (shrinkSize l)) as [Es|Es].
    2:{ exists l, h, t. auto. }
    set (n := length (data l)) in *. unfold lenZ in *. fold n.
    assert (Hsz : 0 <= size l <= Z.of_nat n) by lia.
    rewrite (u_small (Z.of_nat n - Z.of_nat n / 4)) by lia. unfold make.
    destruct (Z.ltb_spec limit (Z.of_nat n - Z.of_nat n / 4)) as [Ho|Ho]; [lia|].
    cbn [bind]. unfold obind. rewrite Hc. cbn [of_opt bind].
    rewrite (u_small (size l / 4 + 1)) by lia. rewrite (u_small (size l / 4 + size l + 1)) by lia.
    replace (size l / 4 + 1) with (Z.of_nat (length c / 4 + 1)) by lia.
    replace (Z.to_nat (Z.of_nat n - Z.of_nat n / 4)) with (n - n / 4)%nat by lia.
    destruct (relocate (n - n / 4) (length c / 4 + 1) c) as (d & E & El & En); [lia|].
    rewrite E. cbn [of_opt bind]. do 3 eexists; split; [reflexivity|].
    assert (Hs4 : u (size l - size l / 4) = size l - size l / 4) by (apply u_small; lia).
    split; [|split; [reflexivity|split; [exact El|exact Hs4]]].
    instantiate (1 := (length c / 4 + 1 + length c)%nat).
    constructor; unfold lenZ; cbn [data headidx tailidx size shrinkSize]; rewrite ?El; try lia; auto.
    - rewrite u_small; lia.
  Qed.

  (* growing until a condition on the margins holds *)
  Lemma grow_while_rel cond fuel : forall l c h t,
    RelX l c h t -> limit < 2 ^ Z.of_nat fuel * lenZ (data l) ->
    grow_while zero limit fuel cond l = Oom \/
    exists l' h' t', grow_while zero limit fuel cond l = Ok l' /\ RelX l' c h' t' /\ cond l' = false.
  Proof.
    induction fuel as [|fuel IH]; intros l c h t HR Hf; cbn [grow_while].
    - destruct HR as [[R1 R1'] ? ? ? ? ? ?]. change (2 ^ Z.of_nat 0) with 1 in Hf. lia.
    - destruct (cond l) eqn:Ec; [|right; eauto 6].
      destruct (growth_rel _ _ _ _ HR) as [[E _]|(l' & E & _ & HR' & El & _)]; rewrite E; cbn [bind].
      + left; reflexivity.
      + apply (IH _ _ _ _ HR'). unfold lenZ in *. rewrite El.
        replace (Z.of_nat (S fuel)) with (1 + Z.of_nat fuel) in Hf by lia. rewrite Z.pow_add_r in Hf by lia. nia.
  Qed.
  Lemma fuel64 l c h t : RelX l c h t -> limit < 2 ^ Z.of_nat 64 * lenZ (data l).
  Proof. intros [[R1 _] ? ? ? ? ? ?]. unfold lenZ. change (2 ^ Z.of_nat 64) with (2 ^ 64). lia. Qed.

  Lemma back_loop_ok (vs : list A) : forall d t, (t + length vs <= length d)%nat -> lenZ d <= limit -> exists d',
    back_loop vs d (Z.of_nat t) = Some (d', Z.of_nat (t + length vs)) /\ length d' = length d /\
    (forall i, (i < length vs)%nat -> nth_error d' (t + i) = nth_error vs i) /\
    (forall i, (i < t)%nat -> nth_error d' i = nth_error d i).
  Proof.
    induction vs as [|v vs IH]; intros d t Ht Hl; simpl in *.
    - exists d. rewrite Nat.add_0_r. repeat split; auto. intros; lia.
    - unfold lenZ in *. rewrite set_ok by lia. rewrite u_small by lia.
      replace (Z.of_nat t + 1) with (Z.of_nat (S t)) by lia.
      destruct (IH (list_set d t v) (S t)) as (d' & E & El & H1 & H2); rewrite ?list_set_length; try lia.
      exists d'. rewrite E, El, list_set_length. split; [do 2 f_equal; lia|]. split; [reflexivity|]. split.
      + intros [|i] Hi; simpl.
        * rewrite Nat.add_0_r, H2 by lia. apply nth_error_list_set_eq; lia.
        * replace (t + S i)%nat with (S t + i)%nat by lia. apply H1; lia.
      + intros i Hi. rewrite H2 by lia. apply nth_error_list_set_neq; lia.
  Qed.

  Lemma app_rel l c h t vs d : RelX l c h t -> (t + length vs <= length (data l))%nat ->
    length d = length (data l) ->
    (forall i, (i < length vs)%nat -> nth_error d (t + i) = nth_error vs i) ->
    (forall i, (i < t)%nat -> nth_error d i = nth_error (data l) i) ->
    RelX {| data := d; headidx := headidx l; tailidx := Z.of_nat (t + length vs); size := Z.of_nat (length (c ++ vs));
            shrinkSize := shrinkSize l |} (c ++ vs) h (t + length vs).
  Proof.
    intros [R1 [R2 R2'] R3 R4 R5 R6 R7] Ht Hd H1 H2.
    unfold lenZ in *. constructor; unfold lenZ; cbn [data headidx tailidx size shrinkSize]; rewrite ?app_length, ?Hd; try lia; auto.
    intros i Hi. destruct (Nat.lt_ge_cases i (length c)) as [Hic|Hic].
    - rewrite H2 by lia. rewrite nth_error_app1 by lia. auto.
    - rewrite nth_error_app2 by lia. rewrite <- H1 by lia. f_equal; lia.
  Qed.

  Lemma pushBack_rel l c vs : Rel l c -> lenZ vs < 2 ^ 62 ->
    pushBack zero limit l vs = Oom \/ exists l', pushBack zero limit l vs = Ok l' /\ Rel l' (c ++ vs).
  Proof.
    intros (h & t & HR) Hvs. unfold pushBack.
    match goal with |- context[grow_while zero limit 64 ?cond l] =>
      destruct (grow_while_rel cond 64 l c h t HR (fuel64 _ _ _ _ HR)) as [E|(l1 & h1 & t1 & E & HR1 & Ec)] end; rewrite E; cbn [bind]; [left; reflexivity|right].
    clear HR. pose proof HR1 as [[R1 R1'] [R2 R2'] R3 R4 R5 [R6a R6b] R7].
    unfold lenZ in *. rewrite R4, u_small in Ec by lia.
    destruct (back_loop_ok vs (data l1) t1) as (d & Eb & El & H1 & H2); [lia|unfold lenZ; lia|].
    rewrite R4, Eb. unfold obind; cbn [of_opt bind]. eexists; split; [reflexivity|].
    exists h1, (t1 + length vs)%nat. rewrite R5, u_small by lia.
    replace (Z.of_nat (length c) + Z.of_nat (length vs)) with (Z.of_nat (length (c ++ vs))) by (rewrite app_length; lia).
    apply app_rel; auto. lia.
  Qed.

  Lemma push_rel l c v : Rel l c ->
    push zero limit l v = Oom \/ exists l', push zero limit l v = Ok l' /\ Rel l' (c ++ [v]).
  Proof.
    intros (h & t & HR). unfold push.
    match goal with |- context[grow_while zero limit 64 ?cond l] =>
      destruct (grow_while_rel cond 64 l c h t HR (fuel64 _ _ _ _ HR)) as [E|(l1 & h1 & t1 & E & HR1 & Ec)] end; rewrite E; cbn [bind]; [left; reflexivity|right].
    clear HR. pose proof HR1 as [[R1 R1'] [R2 R2'] R3 R4 R5 [R6a R6b] R7].
    unfold lenZ in *. rewrite R4, u_small in Ec by lia.
    destruct (back_loop_ok [v] (data l1) t1) as (d & Eb & El & H1 & H2); [simpl; lia|unfold lenZ; lia|].
    simpl in Eb. rewrite R4. destruct (set (data l1) (Z.of_nat t1) v) as [d'|]; [|discriminate].
    injection Eb as -> Eu. unfold obind; cbn [of_opt bind]. eexists; split; [reflexivity|].
    exists h1, (t1 + 1)%nat. rewrite Eu, R5, u_small by lia.
    replace (Z.of_nat (length c) + 1) with (Z.of_nat (length (c ++ [v]))) by (rewrite app_length; simpl; lia).
    apply (app_rel l1 c h1 t1 [v]); simpl; auto. lia.
  Qed.

  Lemma front_loop_ok (vs : list A) : forall d h, (length vs <= h)%nat -> (h <= length d)%nat -> lenZ d <= limit -> exists d',
    front_loop vs d (u (Z.of_nat h - 1)) = Some (d', u (Z.of_nat (h - length vs) - 1)) /\ length d' = length d /\
    (forall i, (i < length vs)%nat -> nth_error d' (h - length vs + i) = nth_error (rev vs) i) /\
    (forall i, (h <= i)%nat -> nth_error d' i = nth_error d i).
  Proof.
    induction vs as [|v vs IH]; intros d h Hh Hd Hl; cbn [front_loop length rev].
    - exists d. rewrite Nat.sub_0_r. repeat split; auto. intros; lia.
    - simpl in Hh. unfold lenZ in *. destruct h as [|h]; [lia|].
      replace (Z.of_nat (S h) - 1) with (Z.of_nat h) by lia. rewrite (u_small (Z.of_nat h)) by lia.
      rewrite set_ok by lia.
      destruct (IH (list_set d h v) h) as (d' & E & El & H1 & H2); rewrite ?list_set_length; try lia.
      exists d'. rewrite E, El, list_set_length. split; [do 4 f_equal; lia|]. split; [reflexivity|]. split.
      + intros i Hi. destruct (Nat.eq_dec i (length vs)) as [->|Hne].
        * rewrite nth_error_app2, rev_length, Nat.sub_diag by (rewrite rev_length; lia). simpl.
          replace (h - length vs + length vs)%nat with h by lia. rewrite H2 by lia. apply nth_error_list_set_eq; lia.
        * rewrite nth_error_app1 by (rewrite rev_length; lia). rewrite <- H1 by lia. f_equal; lia.
      + intros i Hi. rewrite H2 by lia. apply nth_error_list_set_neq; lia.
  Qed.

  Lemma pushFront_relX l c h t vs : RelX l c h t -> (length vs <= h)%nat ->
    exists l', pushFront zero limit l vs = Ok l' /\ RelX l' (rev vs ++ c) (h - length vs) t /\
       length (data l') = length (data l) /\ shrinkSize l' = shrinkSize l.
  Proof.
    intros HR Hh. pose proof HR as [[R1 R1'] [R2 R2'] R3 R4 R5 [R6a R6b] R7].
    unfold pushFront. unfold lenZ in *. cbn [grow_while].
    replace (u (headidx l + 1 - Z.of_nat (length vs))) with (Z.of_nat (h - length vs)).
    2:{ rewrite R3. replace (u (Z.of_nat h - 1) + 1 - Z.of_nat (length vs)) with (u (Z.of_nat h - 1) + (1 - Z.of_nat (length vs))) by lia.
        rewrite u_add_l, u_small; lia. }
    destruct (Z.ltb_spec (2 ^ 63) (Z.of_nat (h - length vs))) as [|Hok]; [lia|]. cbn [bind].
    destruct (front_loop_ok vs (data l) h) as (d & E & El & H1 & H2); [lia|lia|unfold lenZ; lia|].
    rewrite R3, E. unfold obind; cbn [of_opt bind]. eexists; split; [reflexivity|].
    split; [|simpl; auto].
    constructor; unfold lenZ; cbn [data headidx tailidx size shrinkSize]; rewrite ?app_length, ?rev_length, ?El; try lia; auto.
    - rewrite u_small; lia.
    - intros i Hi. destruct (Nat.lt_ge_cases i (length vs)) as [Hiv|Hiv].
      + rewrite nth_error_app1 by (rewrite rev_length; lia). auto.
      + rewrite nth_error_app2 by (rewrite rev_length; lia). rewrite rev_length, H2 by lia. rewrite <- R7 by lia. f_equal; lia.
  Qed.

  Lemma grow_while_false cond l fuel : cond l = false -> grow_while zero limit fuel cond l = Ok l.
  Proof. intros H. destruct fuel; simpl; now rewrite H. Qed.

  Lemma front_cond l c h t (vs : list A) : RelX l c h t -> lenZ vs < 2 ^ 62 ->
     (2 ^ 63 <? u (headidx l + 1 - lenZ vs)) = negb (length vs <=? h)%nat.
  Proof.
    intros [[R1 R1'] [R2 R2'] R3 R4 R5 R6 R7] Hvs. unfold lenZ in *. rewrite R3.
    replace (u (Z.of_nat h - 1) + 1 - Z.of_nat (length vs)) with (u (Z.of_nat h - 1) + (1 - Z.of_nat (length vs))) by lia.
    rewrite u_add_l. destruct (Nat.leb_spec (length vs) h) as [H|H]; cbn [negb].
    - rewrite u_small by lia. lia.
    - replace (u (Z.of_nat h - 1 + (1 - Z.of_nat (length vs)))) with (2 ^ 64 + Z.of_nat h - Z.of_nat (length vs)); [lia|].
      unfold u. rewrite <- (Z_mod_plus_full _ 1). rewrite Z.mod_small; lia.
  Qed.

  Lemma pushFront_rel l c vs : Rel l c -> lenZ vs < 2 ^ 62 ->
    pushFront zero limit l vs = Oom \/ exists l', pushFront zero limit l vs = Ok l' /\ Rel l' (rev vs ++ c).
  Proof.
    intros (h & t & HR) Hvs. unfold pushFront.
    match goal with |- context[grow_while zero limit 64 ?cond l] => set (cd := cond);
      destruct (grow_while_rel cd 64 l c h t HR (fuel64 _ _ _ _ HR)) as [E|(l1 & h1 & t1 & E & HR1 & Ec)] end; rewrite E; cbn [bind]; [left; reflexivity|right].
    unfold cd in Ec. rewrite (front_cond _ _ _ _ _ HR1 Hvs) in Ec.
    destruct (pushFront_relX l1 c h1 t1 vs HR1) as (l' & E' & HR' & _); [lia|].
    unfold pushFront in E'. rewrite grow_while_false in E'.
    2:{ rewrite (front_cond _ _ _ _ _ HR1 Hvs). assumption. }
    cbn [bind] in E'. rewrite E'. eexists; split; [reflexivity|]. exists (h1 - length vs)%nat, t1. assumption.
  Qed.

  Lemma front_rel l c : Rel l c -> front l = Ok (hd_error c).
  Proof.
    intros (h & t & HR). unfold front. pose proof (head1 _ _ _ _ HR) as Hh.
    destruct HR as [[R1 R1'] [R2 R2'] R3 R4 R5 R6 R7]. rewrite R5.
    destruct c as [|x c]; [reflexivity|]. destruct (Z.eqb_spec (Z.of_nat (length (x :: c))) 0) as [E|E]; [simpl in E; lia|].
    rewrite Hh, get_ok by (simpl in *; lia). specialize (R7 0%nat). rewrite Nat.add_0_r in R7.
    rewrite R7 by (simpl; lia). reflexivity.
  Qed.
  Lemma back_rel l c : Rel l c -> back l = Ok (hd_error (rev c)).
  Proof.
    intros (h & t & HR). unfold back. destruct HR as [[R1 R1'] [R2 R2'] R3 R4 R5 R6 R7]. rewrite R5. unfold lenZ in *.
    destruct (Z.eqb_spec (Z.of_nat (length c)) 0) as [E|E].
    - destruct c; [reflexivity|simpl in E; lia].
    - rewrite R4, u_small by lia. replace (Z.of_nat t - 1) with (Z.of_nat (h + (length c - 1))) by lia.
      rewrite get_ok by lia. rewrite R7 by lia. rewrite rev_hd.
      destruct (nth_error c (length c - 1)) eqn:En; [reflexivity|]. apply nth_error_None in En. lia.
  Qed.

  Lemma popFront_rel l x c h t : RelX l (x :: c) h t -> exists l1 l', popFront zero limit l = Ok (l', Some x) /\
      RelX l1 c (S h) t /\ shrink zero limit l1 = Ok l' /\ data l1 = data l /\ shrinkSize l1 = shrinkSize l /\ Rel l' c.
  Proof.
    intros HR. unfold popFront. pose proof (head1 _ _ _ _ HR) as Hh.
    pose proof HR as [[R1 R1'] [R2 R2'] R3 R4 R5 R6 R7]. simpl in R2, R5. unfold lenZ in *. rewrite R5.
    destruct (Z.eqb_spec (Z.of_nat (S (length c))) 0) as [E|E]; [lia|].
    rewrite Hh, get_ok by lia. pose proof (R7 0%nat) as R70. rewrite Nat.add_0_r in R70.
    rewrite R70 by (simpl; lia). unfold obind. cbn [nth_error of_opt bind].
    match goal with |- context[shrink zero limit ?l1] => assert (HR1 : RelX l1 c (S h) t); [|
      destruct (shrink_rel l1 c (S h) t HR1) as (l' & h' & t' & Es & HR' & _)] end.
    - constructor; unfold lenZ; cbn [data headidx tailidx size shrinkSize]; try lia.
      + rewrite u_small; lia.
      + rewrite u_small; lia.
      + intros i Hi. specialize (R7 (S i)). simpl in R7. rewrite <- R7 by lia. f_equal; lia.
    - rewrite Es. cbn [bind]. eexists _, l'. split; [reflexivity|]. split; [exact HR1|]. split; [exact Es|]. split; [reflexivity|]. split; [reflexivity|].
      exists h', t'. assumption.
  Qed.
  Lemma popBack_rel l c h t : RelX l c h t -> c <> [] -> exists l1 l', popBack zero limit l = Ok (l', hd_error (rev c)) /\
     RelX l1 (removelast c) h (t - 1) /\ shrink zero limit l1 = Ok l' /\ data l1 = data l /\ shrinkSize l1 = shrinkSize l /\ Rel l' (removelast c).
  Proof.
    intros HR Hne. unfold popBack.
    pose proof HR as [[R1 R1'] [R2 R2'] R3 R4 R5 R6 R7]. unfold lenZ in *. rewrite R5.
    assert (Hpos : (0 < length c)%nat) by (destruct c; [congruence|simpl; lia]).
    destruct (Z.eqb_spec (Z.of_nat (length c)) 0) as [E|E]; [lia|].
    rewrite R4, u_small by lia. replace (Z.of_nat t - 1) with (Z.of_nat (t - 1)) by lia.
    assert (Hn : nth_error (data l) (t - 1) = nth_error c (length c - 1)) by (rewrite <- R7 by lia; f_equal; lia).
    rewrite get_ok by lia. rewrite Hn, rev_hd. destruct (nth_error c (length c - 1)) as [x|] eqn:En.
    2:{ apply nth_error_None in En. lia. }
    unfold obind. cbn [of_opt bind].
    match goal with |- context[shrink zero limit ?l1] => assert (HR1 : RelX l1 (removelast c) h (t - 1)); [|
      destruct (shrink_rel l1 (removelast c) h (t - 1) HR1) as (l' & h' & t' & Es & HR' & _)] end.
    - constructor; unfold lenZ; cbn [data headidx tailidx size shrinkSize]; rewrite ?removelast_length; try lia; auto.
      + rewrite u_small; lia.
      + intros i Hi. rewrite removelast_nth by lia. apply R7; lia.
    - rewrite Es. cbn [bind]. eexists _, l'. split; [reflexivity|]. split; [exact HR1|]. split; [exact Es|]. split; [reflexivity|]. split; [reflexivity|].
      exists h', t'. assumption.
  Qed.

  Lemma index_rel l c i : Rel l c -> (i < length c)%nat -> exists v, nth_error c i = Some v /\ index l (Z.of_nat i) = Ok v.
  Proof.
    intros (h & t & HR) Hi. unfold index. pose proof HR as [[R1 R1'] [R2 R2'] R3 R4 R5 R6 R7].
    destruct (Z.leb_spec (size l) (Z.of_nat i)); [lia|].
    replace (Z.of_nat i + headidx l + 1) with (headidx l + 1 + Z.of_nat i) by lia.
    rewrite (head_plus _ _ _ _ _ HR) by lia. rewrite get_ok, R7 by lia.
    destruct (nth_error c i) eqn:E; [eexists; split; reflexivity|]. apply nth_error_None in E. lia.
  Qed.

  Lemma update_at_list_set (l : list A) : forall i v, update_at i v l = list_set l i v.
  Proof. induction l as [|x l IH]; intros [|i] v; simpl; auto. now rewrite IH. Qed.

  Lemma set_data_rel l c h t i v : RelX l c h t -> (i < length c)%nat ->
    RelX {| data := list_set (data l) (h + i) v; headidx := headidx l; tailidx := tailidx l; size := size l; shrinkSize := shrinkSize l |}
         (update_at i v c) h t.
  Proof.
    intros [[R1 R1'] [R2 R2'] R3 R4 R5 R6 R7] Hi. rewrite update_at_list_set.
    constructor; unfold lenZ in *; cbn [data headidx tailidx size shrinkSize]; rewrite ?list_set_length; auto; try lia.
    intros j Hj. destruct (Nat.eq_dec i j) as [->|Hij].
    - rewrite !nth_error_list_set_eq by lia. reflexivity.
    - rewrite !nth_error_list_set_neq by lia. auto.
  Qed.

  Lemma set_rel l c i v : Rel l c -> (i < length c)%nat -> exists l', set_idx l (Z.of_nat i) v = Ok l' /\ Rel l' (update_at i v c).
  Proof.
    intros (h & t & HR) Hi. pose proof HR as [[R1 R1'] [R2 R2'] R3 R4 R5 R6 R7]. unfold set_idx. unfold lenZ in *.
    rewrite (u_small (Z.of_nat i)) by lia.
    replace (Z.of_nat i + headidx l + 1) with (headidx l + 1 + Z.of_nat i) by lia.
    rewrite (head_plus _ _ _ _ _ HR) by lia. rewrite set_ok by lia. unfold obind; cbn [of_opt bind].
    eexists; split; [reflexivity|]. exists h, t. apply set_data_rel; assumption.
  Qed.

  (* an out-of-range Set never changes the content *)
  Lemma set_out_rel l c idx v l' : Rel l c -> (-2^63 <= idx < 2^63) -> (idx < 0 \/ Z.of_nat (length c) <= idx) ->
    set_idx l idx v = Ok l' -> Rel l' c.
  Proof.
    intros (h & t & HR) Hr Ho E. pose proof HR as [[R1 R1'] [R2 R2'] R3 R4 R5 R6 R7]. unfold set_idx in E. unfold lenZ in *.
    replace (u (u idx + headidx l + 1)) with (u (idx + Z.of_nat h)) in E.
    2:{ rewrite R3. rewrite <- Z.add_assoc, u_add_l. replace (idx + (u (Z.of_nat h - 1) + 1)) with (idx + u (Z.of_nat h - 1) + 1) by lia.
        rewrite u_add3. f_equal; lia. }
    destruct (set (data l) (u (idx + Z.of_nat h)) v) as [d|] eqn:Es; [|discriminate].
    unfold obind in E; cbn [of_opt bind] in E. injection E as <-.
    unfold set, lenZ in Es. set (k := u (idx + Z.of_nat h)) in *.
    destruct ((0 <=? k) && (k <? Z.of_nat (length (data l)))) eqn:Ek; [|discriminate]. injection Es as <-.
    assert (Hk : (Z.to_nat k < h \/ t <= Z.to_nat k)%nat).
    { assert (Hcase : k = idx + Z.of_nat h \/ k = idx + Z.of_nat h + 2 ^ 64).
      { unfold k, u. destruct (Z.le_gt_cases 0 (idx + Z.of_nat h)).
        - left. apply Z.mod_small. lia.
        - right. rewrite <- (Z_mod_plus_full _ 1). rewrite Z.mod_small; lia. }
      lia. }
    exists h, t. constructor; unfold lenZ; cbn [data headidx tailidx size shrinkSize]; rewrite ?list_set_length; auto; try lia.
    intros i Hi. rewrite nth_error_list_set_neq by lia. auto.
  Qed.

  Lemma delete_at_length (c : list A) : forall i, (i < length c)%nat -> length (delete_at i c) = (length c - 1)%nat.
  Proof. induction c as [|x c IH]; intros [|i] H; simpl in *; try lia. rewrite IH by lia. lia. Qed.
  Lemma delete_at_nth (c : list A) : forall i j, nth_error (delete_at i c) j = nth_error c (if (j <? i)%nat then j else S j).
  Proof.
    induction c as [|x c IH]; intros i j.
    - transitivity (@None A); [destruct i, j; reflexivity|]. symmetry. apply nth_error_None. simpl. lia.
    - destruct i as [|i]; [reflexivity|]. destruct j as [|j]; [reflexivity|].
      simpl. rewrite IH. change (S j <? S i)%nat with (j <? i)%nat. destruct (j <? i)%nat; reflexivity.
  Qed.

  Lemma remove_rel l c i : Rel l c -> (i < length c)%nat ->
    exists l' v, remove zero limit l (Z.of_nat i) = Ok (l', v) /\ nth_error c i = Some v /\ Rel l' (delete_at i c).
  Proof.
    intros (h & t & HR) Hi. pose proof HR as [[R1 R1'] [R2 R2'] R3 R4 R5 R6 R7]. unfold remove. unfold lenZ in *.
    destruct (Z.leb_spec (size l) (Z.of_nat i)); [lia|].
    rewrite (head_plus _ _ _ _ _ HR) by lia. rewrite get_ok, R7 by lia.
    destruct (nth_error c i) as [v|] eqn:Ev; [|apply nth_error_None in Ev; lia].
    unfold obind. cbn [of_opt bind].
    rewrite (u_small (size l - 1)) by lia.
    assert (Hfin : forall d hd h' t', length d = length (data l) -> hd = u (Z.of_nat h' - 1) -> (h' + (length c - 1) = t')%nat -> (t' <= length d)%nat ->
      (forall j, (j < length c - 1)%nat -> nth_error d (h' + j) = nth_error (delete_at i c) j) ->
      exists l' v0, bind (shrink zero limit {| data := d; headidx := hd; tailidx := Z.of_nat t'; size := size l - 1; shrinkSize := shrinkSize l |})
          (fun l' => Ok (l', v)) = Ok (l', v0) /\ Some v = Some v0 /\ Rel l' (delete_at i c)).
    { intros d hd h' t' Hd Hhd Ht' Ht2 Hn.
      match goal with |- context[shrink zero limit ?l1] => assert (HR1 : RelX l1 (delete_at i c) h' t'); [|
        destruct (shrink_rel l1 _ h' t' HR1) as (l' & h2 & t2 & Es & HR' & _)] end.
      - constructor; unfold lenZ; cbn [data headidx tailidx size shrinkSize]; rewrite ?delete_at_length, ?Hd by lia; auto; try lia.
      - rewrite Es. cbn [bind]. exists l', v. repeat split. exists h2, t2; assumption. }
    destruct (Z.ltb_spec (headidx l) (u (Z.of_nat (length (data l)) - tailidx l))) as [Hside|Hside].
    - rewrite (u_small (Z.of_nat (h + i) + 1)) by lia. rewrite R4.
      replace (Z.of_nat (h + i) + 1) with (Z.of_nat (h + i + 1)) by lia. rewrite sl_ok by lia.
      destruct (slice (data l) (h + i + 1) t) as [src|] eqn:Es.
      2:{ unfold slice in Es. replace ((h + i + 1 <=? t)%nat && (t <=? length (data l))%nat) with true in Es by lia. discriminate. }
      apply slice_nth in Es as (S1 & S2 & S3). cbn [of_opt bind]. rewrite cp_ok by lia.
      destruct (copy_at_nth (data l) (h + i) src) as (d & Ed & Edl & Edn); [lia|]. rewrite Ed. cbn [of_opt bind].
      rewrite u_small by lia. replace (Z.of_nat t - 1) with (Z.of_nat (t - 1)) by lia.
      apply Hfin with (h' := h); auto; try lia.
      intros j Hj. rewrite Edn, delete_at_nth. destruct (Nat.ltb_spec j i).
      + replace ((h + i <=? h + j)%nat && (h + j <? h + i + length src)%nat) with false by lia. apply R7; lia.
      + replace ((h + i <=? h + j)%nat && (h + j <? h + i + length src)%nat) with true by lia.
        rewrite S3 by lia. rewrite <- R7 by lia. f_equal; lia.
    - rewrite (head1 _ _ _ _ HR). rewrite sl_ok by lia.
      destruct (slice (data l) h (h + i)) as [src|] eqn:Es.
      2:{ unfold slice in Es. replace ((h <=? h + i)%nat && (h + i <=? length (data l))%nat) with true in Es by lia. discriminate. }
      apply slice_nth in Es as (S1 & S2 & S3). cbn [of_opt bind].
      replace (headidx l + 2) with (headidx l + 1 + Z.of_nat 1) by lia. rewrite (head_plus _ _ _ _ _ HR) by lia. rewrite cp_ok by lia.
      destruct (copy_at_nth (data l) (h + 1) src) as (d & Ed & Edl & Edn); [lia|]. rewrite Ed. cbn [of_opt bind]. rewrite R4.
      apply Hfin with (h' := S h); auto; try lia.
      + rewrite u_small; lia.
      + intros j Hj. rewrite Edn, delete_at_nth. destruct (Nat.ltb_spec j i).
        * replace ((h + 1 <=? S h + j)%nat && (S h + j <? h + 1 + length src)%nat) with true by lia.
          rewrite S3 by lia. rewrite <- R7 by lia. f_equal; lia.
        * replace ((h + 1 <=? S h + j)%nat && (S h + j <? h + 1 + length src)%nat) with false by lia.
          rewrite <- R7 by lia. f_equal; lia.
  Qed.

  Lemma values_rel l c : Rel l c -> values zero limit l = Ok c.
  Proof.
    intros (h & t & HR). unfold values, obind. rewrite (content _ _ _ _ HR).
    destruct HR as [[R1 R1'] [R2 R2'] R3 R4 R5 R6 R7]. unfold lenZ in *. unfold make.
    destruct (Z.ltb_spec limit (size l)); [lia|]. cbn [bind of_opt].
    rewrite R5, Nat2Z.id. destruct (relocate (length c) 0 c) as (d & E & El & En); [lia|].
    change (Z.of_nat 0) with 0 in E. rewrite E. cbn [of_opt]. f_equal. apply nth_error_eq_ext. intros i.
    destruct (Nat.lt_ge_cases i (length c)); [apply (En i); assumption|].
    rewrite !(proj2 (nth_error_None _ _)); auto; lia.
  Qed.

  Lemma traverse_rel l c f : Rel l c -> forall fuel i, (fuel + i = length c)%nat -> traverse fuel l f i = Ok (visit f i (skipn i c)).
  Proof.
    intros (h & t & HR). pose proof HR as [[R1 R1'] [R2 R2'] R3 R4 R5 R6 R7].
    induction fuel as [|fuel IH]; intros i Hi; cbn [traverse].
    - rewrite skipn_all2 by lia. reflexivity.
    - destruct (Z.ltb_spec (Z.of_nat i) (size l)); [|lia].
      replace (Z.of_nat i + headidx l + 1) with (headidx l + 1 + Z.of_nat i) by lia.
      rewrite (head_plus _ _ _ _ _ HR) by lia. rewrite get_ok, R7 by lia.
      destruct (nth_error c i) as [v|] eqn:Ev; [|apply nth_error_None in Ev; lia].
      assert (Hsk : skipn i c = v :: skipn (S i) c).
      { clear -Ev. revert i Ev. induction c as [|y c IHl]; intros [|n] Hx; simpl in *; try discriminate; [congruence|auto]. }
      unfold obind. cbn [of_opt bind]. rewrite Hsk. cbn [visit]. destruct (f i v); [|reflexivity].
      rewrite IH by lia. reflexivity.
  Qed.

  Lemma new_rel : Rel (new zero) [].
  Proof. exists 4%nat, 4%nat. constructor; unfold lenZ; simpl; auto; try lia. Qed.
  Lemma clear_rel l c : Rel l c -> Rel (clear zero l) [].
  Proof. intros (h & t & [? ? ? ? ? [? ?] ?]). exists 4%nat, 4%nat. constructor; unfold lenZ; simpl; auto; try lia. Qed.

  (* arguments fit in memory *)
  Definition op_fits (o : al_op A) : Prop :=
    match o with APushFront vs | APushBack vs => lenZ vs < 2 ^ 62 | ASet i _ => Z.of_nat i < 2 ^ 63 | _ => True end.

  Lemma delete_out (c : list A) : forall i, (length c <= i)%nat -> delete_at i c = c.
  Proof. induction c as [|x c IH]; intros [|i] H; simpl in *; auto; try lia. rewrite IH by lia; reflexivity. Qed.
  Lemma update_out (c : list A) v : forall i, (length c <= i)%nat -> update_at i v c = c.
  Proof. induction c as [|x c IH]; intros [|i] H; simpl in *; auto; try lia. rewrite IH by lia; reflexivity. Qed.

  Definition is_push (o : al_op A) : bool := match o with APush _ | APushFront _ | APushBack _ => true | _ => false end.

  Lemma step_rel l c o : Rel l c -> op_fits o ->
    (step zero limit (Live l) o = Some (Dead, AOom) /\ is_push o = true) \/
    exists l', step zero limit (Live l) o = Some (Live l', snd (al_spec c o)) /\ Rel l' (fst (al_spec c o)).
  Proof.
    intros HR Hf. pose proof HR as (h & t & HRX).
    assert (Hsize : size l = Z.of_nat (length c)) by (destruct HRX; assumption).
    destruct o; cbn [step al_spec fst snd op_fits] in *.
    - destruct (push_rel l c v HR) as [E|(l' & E & HR')]; rewrite E; simpl; eauto.
    - destruct (pushFront_rel l c vs HR Hf) as [E|(l' & E & HR')]; rewrite E; simpl; eauto.
    - destruct (pushBack_rel l c vs HR Hf) as [E|(l' & E & HR')]; rewrite E; simpl; eauto.
    - right. rewrite (front_rel l c HR). simpl. eauto.
    - right. rewrite (back_rel l c HR). simpl. eauto.
    - right. destruct c as [|x c].
      + unfold popFront. rewrite Hsize. simpl. eauto.
      + destruct (popFront_rel l x c h t HRX) as (l1 & l' & E & _ & _ & _ & _ & HR'). rewrite E. simpl. eauto.
    - right. destruct c as [|x c].
      + unfold popBack. rewrite Hsize. simpl. eauto.
      + destruct (popBack_rel l (x :: c) h t HRX) as (l1 & l' & E & _ & _ & _ & _ & HR'); [discriminate|]. rewrite E. simpl lift. eauto.
    - right. rewrite Hsize. destruct (Z.leb_spec (Z.of_nat (length c)) (Z.of_nat i)) as [Ho|Ho].
      + unfold index. rewrite Hsize. destruct (Z.leb_spec (Z.of_nat (length c)) (Z.of_nat i)); [|lia].
        rewrite (proj2 (nth_error_None c i)) by lia. eauto.
      + destruct (index_rel l c i HR) as (v & Ev & E); [lia|]. rewrite E, Ev. simpl. eauto.
    - right. rewrite Hsize. destruct (Z.leb_spec (Z.of_nat (length c)) (Z.of_nat i)) as [Ho|Ho].
      + rewrite update_out by lia. destruct (Nat.ltb_spec i (length c)); [lia|].
        destruct (set_idx l (Z.of_nat i) v) as [l'| |] eqn:E; eauto.
        exists l'. split; [reflexivity|].
        eapply set_out_rel; [exact HR| |right; exact Ho|exact E]. lia.
      + destruct (set_rel l c i v HR) as (l' & E & HR'); [lia|]. rewrite E. simpl.
        destruct (Nat.ltb_spec i (length c)); [|lia]. eauto.
    - right. rewrite Hsize. destruct (Z.leb_spec (Z.of_nat (length c)) (Z.of_nat i)) as [Ho|Ho].
      + unfold remove. rewrite Hsize. destruct (Z.leb_spec (Z.of_nat (length c)) (Z.of_nat i)); [|lia].
        rewrite (proj2 (nth_error_None c i)) by lia. rewrite delete_out by lia. eauto.
      + destruct (remove_rel l c i HR) as (l' & v & E & Ev & HR'); [lia|]. rewrite E, Ev. simpl. eauto.
    - right. eexists; split; [reflexivity|]. eapply clear_rel; eassumption.
    - right. rewrite Hsize, Nat2Z.id. eauto.
    - right. rewrite Hsize. replace (Z.of_nat (length c) =? 0) with (length c =? 0)%nat by lia. eauto.
    - right. rewrite (values_rel l c HR). simpl. eauto.
    - right. rewrite Hsize, Nat2Z.id, (traverse_rel l c f HR) by lia. simpl. eauto.
  Qed.
End P.
