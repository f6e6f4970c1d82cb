From Verif Require Import Base Machine Slice QueueSpec ArrayQueueModel.
Require Import ZifyBool ZifyNat.
Ltac Zify.zify_post_hook ::= Z.div_mod_to_equations.

Section P.
  Context {A : Type} (zero : A).
  Notation queue := (queue (A:=A)).

  (* physical slot of logical position i *)
  Definition ix (cap start i : nat) : nat := if start + i <? cap then start + i else start + i - cap.

  Definition Rel (q : queue) (l : list A) : Prop :=
    3 <= cap q /\ length (data q) = cap q /\ start q < cap q /\ size q <= cap q /\
    end_ q = ix (cap q) (start q) (size q) /\ length l = size q /\
    forall i, i < size q -> nth_error (data q) (ix (cap q) (start q) i) = nth_error l i.

  Lemma new_rel : Rel (new zero) [].
  Proof. unfold Rel, new, ix; simpl. repeat split; try lia. Qed.

  Ltac ixs := unfold ix in *; repeat match goal with
    | |- context[?a <? ?b] => destruct (Nat.ltb_spec a b)
    | |- context[?a <=? ?b] => destruct (Nat.leb_spec a b)
    | H : context[?a <? ?b] |- _ => destruct (Nat.ltb_spec a b)
    end.

  Lemma grow_rel q l : Rel q l -> exists q', grow zero q = Some q' /\ Rel q' l /\ size q' < cap q' /\ size q' = size q.
  Proof.
    intros (H1 & H2 & H3 & H4 & H5 & H6 & H7). unfold grow.
    destruct (Nat.leb_spec (cap q) (size q)) as [E|E].
    - assert (Es : size q = cap q) by lia.
      destruct (slice (data q) (start q) (length (data q))) as [s1|] eqn:S1.
      2:{ exfalso. unfold slice in S1. destruct (Nat.leb_spec (start q) (length (data q))); [|lia].
          rewrite Nat.leb_refl in S1. discriminate. }
      apply slice_nth in S1 as (S1a & S1b & S1c).
      destruct (copy_at_nth (repeat zero (cap q * 2)) 0 s1) as (g1 & G1 & G1l & G1n); [rewrite repeat_length; lia|].
      rewrite G1. destruct (slice (data q) 0 (start q)) as [s2|] eqn:S2.
      2:{ exfalso. unfold slice in S2. destruct (Nat.leb_spec (start q) (length (data q))); [discriminate|lia]. }
      apply slice_nth in S2 as (S2a & S2b & S2c).
      rewrite repeat_length in G1l.
      destruct (copy_at_nth g1 (cap q - start q) s2) as (g2 & G2 & G2l & G2n); [lia|].
      rewrite G2. eexists; split; [reflexivity|]. unfold Rel; simpl. repeat split; try lia.
      { unfold ix; simpl. destruct (Nat.ltb_spec (size q) (cap q * 2)); lia. }
      intros i Hi. rewrite <- H7 by assumption.
      replace (ix (cap q * 2) 0 i) with i by (ixs; lia).
      rewrite G2n. destruct (Nat.leb_spec (cap q - start q) i) as [Hc|Hc]; simpl.
      + destruct (Nat.ltb_spec i (cap q - start q + length s2)); [|lia]. rewrite S2c by lia. f_equal. ixs; lia.
      + rewrite G1n. simpl. destruct (Nat.ltb_spec i (length s1)); [|lia]. rewrite S1c by lia. f_equal. ixs; lia.
    - exists q. repeat split; auto.
  Qed.

  Lemma slimming_rel q l : Rel q l -> size q < cap q ->
    exists q', slimming zero q = Some q' /\ Rel q' l /\ size q' = size q.
  Proof.
    intros (H1 & H2 & H3 & H4 & H5 & H6 & H7) Hlt. unfold slimming.
    destruct (Nat.leb_spec (size q) (cap q / 2)) as [E|E].
    2:{ exists q. repeat split; auto. }
    set (cap' := cap q - cap q / 4).
    assert (Hc : 3 <= cap' /\ size q < cap') by (unfold cap'; lia).
    destruct (Nat.ltb_spec (end_ q) (start q)) as [Ew|Ew].
    - destruct (slice (data q) (start q) (length (data q))) as [s1|] eqn:S1.
      2:{ exfalso. unfold slice in S1. destruct (Nat.leb_spec (start q) (length (data q))); [|lia].
          rewrite Nat.leb_refl in S1. discriminate. }
      apply slice_nth in S1 as (S1a & S1b & S1c).
      assert (Hw : size q = cap q - start q + end_ q) by (ixs; lia).
      destruct (copy_at_nth (repeat zero cap') 0 s1) as (g1 & G1 & G1l & G1n); [rewrite repeat_length; lia|].
      rewrite G1. destruct (slice (data q) 0 (end_ q)) as [s2|] eqn:S2.
      2:{ exfalso. unfold slice in S2. destruct (Nat.leb_spec (end_ q) (length (data q))); [discriminate|lia]. }
      apply slice_nth in S2 as (S2a & S2b & S2c). rewrite repeat_length in G1l.
      destruct (copy_at_nth g1 (cap q - start q) s2) as (g2 & G2 & G2l & G2n); [lia|].
      rewrite G2. eexists; split; [reflexivity|]. unfold Rel; simpl. repeat split; try lia.
      { unfold ix; simpl. destruct (Nat.ltb_spec (size q) cap'); lia. }
      intros i Hi. rewrite <- H7 by assumption.
      replace (ix cap' 0 i) with i by (clearbody cap'; ixs; lia).
      rewrite G2n. destruct (Nat.leb_spec (cap q - start q) i) as [Hci|Hci]; simpl.
      + destruct (Nat.ltb_spec i (cap q - start q + length s2)); [|lia]. rewrite S2c by lia. f_equal.
        clearbody cap'; ixs; lia.
      + rewrite G1n. simpl. destruct (Nat.ltb_spec i (length s1)); [|lia]. rewrite S1c by lia. f_equal.
        clearbody cap'; ixs; lia.
    - assert (Hw : end_ q = start q + size q) by (ixs; lia).
      assert (He : end_ q < cap q) by (ixs; lia).
      destruct (slice (data q) (start q) (end_ q)) as [s1|] eqn:S1.
      2:{ exfalso. unfold slice in S1. destruct (Nat.leb_spec (start q) (end_ q)); [|lia].
          destruct (Nat.leb_spec (end_ q) (length (data q))); [discriminate|lia]. }
      apply slice_nth in S1 as (S1a & S1b & S1c).
      destruct (copy_at_nth (repeat zero cap') 0 s1) as (g1 & G1 & G1l & G1n); [rewrite repeat_length; lia|].
      rewrite G1, repeat_length in *. eexists; split; [reflexivity|]. unfold Rel; simpl. repeat split; try lia.
      { unfold ix; simpl. destruct (Nat.ltb_spec (size q) cap'); lia. }
      intros i Hi. rewrite <- H7 by assumption.
      replace (ix cap' 0 i) with i by (clearbody cap'; ixs; lia).
      rewrite G1n. simpl. destruct (Nat.ltb_spec i (length s1)); [|lia]. rewrite S1c by lia. f_equal.
      clearbody cap'; ixs; lia.
  Qed.

  Lemma pushBack_rel q l v : Rel q l -> exists q', pushBack zero q v = Some q' /\ Rel q' (l ++ [v]).
  Proof.
    intros HR. destruct (grow_rel q l HR) as (g & E & (H1 & H2 & H3 & H4 & H5 & H6 & H7) & Hlt & Hs).
    unfold pushBack. rewrite E. rewrite put_at_ok by (ixs; lia). eexists; split; [reflexivity|].
    unfold Rel; simpl. rewrite list_set_length, app_length; simpl. repeat split; try (ixs; lia).
    intros i Hi. destruct (Nat.eq_dec i (size g)) as [->|Hne].
    - rewrite <- H5. rewrite nth_error_list_set_eq by (ixs; lia). rewrite nth_error_app2 by lia.
      now replace (size g - length l) with 0 by lia.
    - rewrite nth_error_list_set_neq by (ixs; lia). rewrite nth_error_app1 by lia. apply H7; lia.
  Qed.

  Lemma pushFront_rel q l v : Rel q l -> exists q', pushFront zero q v = Some q' /\ Rel q' (v :: l).
  Proof.
    intros HR. destruct (grow_rel q l HR) as (g & E & (H1 & H2 & H3 & H4 & H5 & H6 & H7) & Hlt & Hs).
    unfold pushFront. rewrite E. set (s := if start g =? 0 then cap g - 1 else start g - 1).
    assert (Hss : s < cap g) by (unfold s; destruct (Nat.eqb_spec (start g) 0); lia).
    assert (Hix : forall i, S i <= cap g -> ix (cap g) s (S i) = ix (cap g) (start g) i).
    { intros i Hi. unfold s, ix. destruct (Nat.eqb_spec (start g) 0);
      repeat match goal with |- context[?a <? ?b] => destruct (Nat.ltb_spec a b) end; lia. }
    rewrite put_at_ok by lia. eexists; split; [reflexivity|].
    unfold Rel; simpl. rewrite list_set_length. repeat split; try lia.
    { rewrite Nat.add_1_r, Hix by lia. assumption. }
    intros [|i] Hi; simpl.
    - replace (ix (cap g) s 0) with s by (clearbody s; ixs; lia). apply nth_error_list_set_eq; lia.
    - rewrite Hix by lia. rewrite nth_error_list_set_neq. apply H7; lia.
      rewrite <- Hix by lia. clearbody s. ixs; lia.
  Qed.

  Lemma removelast_length (l : list A) : length (removelast l) = length l - 1.
  Proof. induction l as [|a [|b l] IH]; simpl in *; auto. rewrite IH. lia. Qed.
  Lemma removelast_nth (l : list A) i : i < length l - 1 -> nth_error (removelast l) i = nth_error l i.
  Proof.
    revert i; induction l as [|a [|b l] IH]; intros i H; simpl in H; try lia.
    destruct i; [reflexivity|]. change (removelast (a::b::l)) with (a :: removelast (b::l)). cbn [nth_error]. apply IH.
    simpl; lia.
  Qed.
  Lemma rev_hd (l : list A) : hd_error (rev l) = nth_error l (length l - 1).
  Proof.
    destruct l as [|x l] using rev_ind; [reflexivity|]. rewrite rev_unit, app_length; simpl.
    rewrite nth_error_app2 by lia. now replace (length l + 1 - 1 - length l) with 0 by lia.
  Qed.

  Lemma nth_error_ex (l : list A) i : i < length l -> exists x, nth_error l i = Some x.
  Proof. intros H. destruct (nth_error l i) eqn:E; eauto. apply nth_error_None in E. lia. Qed.

  Lemma popBack_rel q l : Rel q l -> exists q', popBack zero q = Some (q', hd_error (rev l)) /\ Rel q' (removelast l).
  Proof.
    intros HR. pose proof HR as (H1 & H2 & H3 & H4 & H5 & H6 & H7).
    unfold popBack. destruct (Nat.eqb_spec (size q) 0) as [E0|E0].
    { destruct l; [|simpl in *; lia]. exists q. split; [reflexivity|]. exact HR. }
    set (e := if end_ q =? 0 then cap q - 1 else end_ q - 1).
    assert (He : e = ix (cap q) (start q) (size q - 1)).
    { unfold e. destruct (Nat.eqb_spec (end_ q) 0); ixs; lia. }
    rewrite He, H7 by lia. destruct (nth_error_ex l (size q - 1)) as (x & Hx); [lia|]. rewrite Hx.
    rewrite rev_hd, H6, Hx.
    match goal with |- context[slimming zero ?q0] => destruct (slimming_rel q0 (removelast l)) as (q' & Eq & HR' & _) end.
    - unfold Rel; simpl. rewrite removelast_length. repeat split; try lia.
      intros i Hi. rewrite removelast_nth by lia. apply H7; lia.
    - simpl; lia.
    - rewrite Eq. simpl. eauto.
  Qed.

  Lemma popFront_rel q l : Rel q l -> exists q', popFront zero q = Some (q', hd_error l) /\ Rel q' (tl l).
  Proof.
    intros HR. pose proof HR as (H1 & H2 & H3 & H4 & H5 & H6 & H7).
    unfold popFront. destruct (Nat.eqb_spec (size q) 0) as [E0|E0].
    { destruct l; [|simpl in *; lia]. exists q. split; [reflexivity|]. exact HR. }
    destruct l as [|x l]; [simpl in *; lia|]. pose proof (H7 0) as H70. simpl in H70.
    replace (ix (cap q) (start q) 0) with (start q) in H70 by (ixs; lia). rewrite H70 by lia.
    match goal with |- context[slimming zero ?q0] => destruct (slimming_rel q0 l) as (q' & Eq & HR' & _) end.
    - unfold Rel; simpl. simpl in H6. repeat split; try lia; try (ixs; lia).
      intros i Hi. specialize (H7 (S i)). simpl in H7. rewrite <- H7 by lia. f_equal.
      unfold ix. destruct (Nat.leb_spec (cap q) (start q + 1));
      repeat match goal with |- context[?a <? ?b] => destruct (Nat.ltb_spec a b) end; lia.
    - simpl; lia.
    - rewrite Eq. simpl. eauto.
  Qed.

  Lemma index_rel q l i : Rel q l ->
    index q (Z.of_nat i) = match nth_error l i with Some v => Ret v | None => Panic end.
  Proof.
    intros (H1 & H2 & H3 & H4 & H5 & H6 & H7). unfold index.
    destruct (Z.ltb_spec (Z.of_nat i) (Z.of_nat (size q))) as [Hi|Hi].
    - rewrite <- H7 by lia.
      match goal with |- context[Z.to_nat ?z] => replace (Z.to_nat z) with (ix (cap q) (start q) i);
        [destruct (Z.ltb_spec z 0); [exfalso; revert H|reflexivity]|] end.
      all: unfold ix; destruct (Z.leb_spec (Z.of_nat (cap q)) (Z.of_nat (start q) + Z.of_nat i));
        try destruct (Nat.ltb_spec (start q + i) (cap q)); lia.
    - replace (nth_error l i) with (@None A); [reflexivity|]. symmetry. apply nth_error_None. lia.
  Qed.

  Lemma front_rel q x l : Rel q (x :: l) -> front q = Some x.
  Proof.
    intros (H1 & H2 & H3 & H4 & H5 & H6 & H7). unfold front. simpl in H6. specialize (H7 0). simpl in H7.
    rewrite <- H7 by lia. f_equal. ixs; lia.
  Qed.
  Lemma back_rel q l x : Rel q (l ++ [x]) -> back q = Some x.
  Proof.
    intros (H1 & H2 & H3 & H4 & H5 & H6 & H7). unfold back. rewrite app_length in H6; simpl in H6.
    specialize (H7 (length l)). rewrite nth_error_app2, Nat.sub_diag in H7 by lia. simpl in H7.
    rewrite <- H7 by lia. f_equal. destruct (Nat.eqb_spec (end_ q) 0); ixs; lia.
  Qed.

  Lemma visit_app f (l1 l2 : list A) : forall i, visit f i (l1 ++ l2) =
    if forallb (fun p => f (fst p) (snd p)) (combine (seq i (length l1)) l1)
    then visit f i l1 ++ visit f (i + length l1) l2 else visit f i l1.
  Proof.
    induction l1 as [|a l1 IH]; intros i; simpl; [now rewrite Nat.add_0_r|].
    destruct (f i a); simpl; auto. rewrite IH. replace (i + S (length l1)) with (S i + length l1) by lia.
    destruct (forallb _ _); reflexivity.
  Qed.

  (* both loops read a run of consecutive slots *)
  Lemma trav1_spec q l f fuel : Rel q l -> forall count, fuel = cap q - (start q + count) -> count <= size q -> start q + count <= cap q ->
    exists vis st c, trav1 fuel q f (start q + count) count = Some (vis, st, c) /\
      (if st then visit f count (skipn count l) = vis
       else c = Nat.min (size q) (cap q - start q) /\ visit f count (skipn count l) = vis ++ visit f c (skipn c l)).
  Proof.
    intros HR. pose proof HR as (H1 & H2 & H3 & H4 & H5 & H6 & H7).
    induction fuel as [|fuel IH]; intros count Hf Hc Hcap; simpl.
    - exists [], false, count. split; [reflexivity|]. split; [lia|reflexivity].
    - destruct (Nat.ltb_spec (start q + count) (cap q)) as [Hlt|Hlt]; [|lia].
      destruct (Nat.ltb_spec count (size q)) as [Hlt2|Hlt2]; simpl.
      2:{ exists [], false, count. split; [reflexivity|]. split; [lia|reflexivity]. }
      assert (Hix : start q + count = ix (cap q) (start q) count) by (ixs; lia).
      destruct (nth_error_ex l count) as (x & Hx); [lia|].
      rewrite Hix, H7, Hx by lia. rewrite <- Hix.
      assert (Hsk : skipn count l = x :: skipn (S count) l).
      { clear -Hx. revert count Hx. induction l as [|y l IHl]; intros [|n] Hx; simpl in *; try discriminate; [congruence|auto]. }
      rewrite Hsk. cbn [visit]. destruct (f count x) eqn:Ef.
      + destruct (IH (S count)) as (vis & st & c & E & Hv); try lia.
        replace (S (start q + count)) with (start q + S count) by lia. rewrite E. simpl.
        exists ((count, x) :: vis), st, c. split; [reflexivity|]. destruct st.
        * now rewrite Hv.
        * destruct Hv as [Hc' Hv]. split; [assumption|]. simpl. f_equal. exact Hv.
      + exists [(count, x)], true, count. split; reflexivity.
  Qed.

  Lemma trav2_spec q l f fuel : Rel q l -> cap q < start q + size q \/ cap q = start q + size q -> forall i,
     fuel = end_ q - i -> i <= end_ q ->
     trav2 fuel q f i (cap q - start q + i) = Some (visit f (cap q - start q + i) (skipn (cap q - start q + i) l)).
  Proof.
    intros HR Hw. pose proof HR as (H1 & H2 & H3 & H4 & H5 & H6 & H7).
    assert (He : end_ q = start q + size q - cap q) by (ixs; lia).
    induction fuel as [|fuel IH]; intros i Hf Hi; simpl.
    - rewrite skipn_all2 by lia. reflexivity.
    - destruct (Nat.ltb_spec i (end_ q)) as [Hlt|Hlt]; [|lia].
      assert (Hix : i = ix (cap q) (start q) (cap q - start q + i)) by (ixs; lia).
      destruct (nth_error_ex l (cap q - start q + i)) as (x & Hx); [lia|].
      rewrite Hix at 1. rewrite H7, Hx by lia.
      assert (Hsk : skipn (cap q - start q + i) l = x :: skipn (S (cap q - start q + i)) l).
      { clear -Hx. revert Hx. generalize (cap q - start q + i). intros n Hx. revert n Hx.
        induction l as [|y l IHl]; intros [|n] Hx; simpl in *; try discriminate; [congruence|auto]. }
      rewrite Hsk. cbn [visit]. destruct (f (cap q - start q + i) x); [|reflexivity].
      replace (S (cap q - start q + i)) with (cap q - start q + S i) by lia.
      rewrite IH by lia. reflexivity.
  Qed.

  Lemma traverse_rel q l f : Rel q l -> traverse q f = Some (visit f 0 l).
  Proof.
    intros HR. pose proof HR as (H1 & H2 & H3 & H4 & H5 & H6 & H7). unfold traverse.
    destruct (trav1_spec q l f (cap q - start q) HR 0) as (vis & st & c & E & Hv); try lia.
    rewrite Nat.add_0_r in E. rewrite E. simpl in Hv. destruct st; [now rewrite Hv|].
    destruct Hv as [Hc Hv]. destruct (Nat.ltb_spec c (size q)) as [Hlt|Hlt].
    - pose proof (trav2_spec q l f (end_ q) HR) as Ht. specialize (Ht ltac:(lia) 0).
      rewrite Nat.add_0_r in Ht. replace c with (cap q - start q) by lia. rewrite Ht by lia.
      simpl. rewrite Hv. now replace c with (cap q - start q) by lia.
    - rewrite Hv, skipn_all2 by lia. simpl. now rewrite app_nil_r.
  Qed.

  Lemma vals1_trav (q : queue) fuel : forall i count, vals1 fuel q i count =
    option_map (fun '(l, _, c) => (map snd l, c)) (trav1 fuel q (fun _ _ => true) i count).
  Proof.
    induction fuel as [|fuel IH]; intros i count; simpl; auto.
    destruct ((i <? cap q) && (count <? size q)); auto. destruct (nth_error (data q) i); auto.
    rewrite IH. destruct (trav1 fuel q _ (S i) (S count)) as [[[l b] c]|]; reflexivity.
  Qed.
  Lemma vals2_trav (q : queue) fuel : forall i idx, vals2 fuel q i =
    option_map (map snd) (trav2 fuel q (fun _ _ => true) i idx).
  Proof.
    induction fuel as [|fuel IH]; intros i idx; simpl; auto.
    destruct (i <? end_ q); auto. destruct (nth_error (data q) i); auto.
    rewrite (IH _ (S idx)). destruct (trav2 fuel q _ (S i) (S idx)); reflexivity.
  Qed.
  Lemma trav1_not_stopped (q : queue) fuel : forall i count l b c, trav1 fuel q (fun _ _ => true) i count = Some (l, b, c) -> b = false.
  Proof.
    induction fuel as [|fuel IH]; intros i count l b c E; simpl in E; [congruence|].
    destruct (_ && _); [|congruence]. destruct (nth_error _ _); [|discriminate].
    destruct (trav1 fuel q _ _ _) as [[[l' b'] c']|] eqn:E'; [|discriminate]. simpl in E. apply IH in E'. congruence.
  Qed.
  Lemma values_traverse (q : queue) : values q = option_map (map snd) (traverse q (fun _ _ => true)).
  Proof.
    unfold values, traverse. rewrite vals1_trav.
    destruct (trav1 _ q _ _ _) as [[[l b] c]|] eqn:E; [|reflexivity]. simpl.
    apply trav1_not_stopped in E as ->. destruct (c <? size q); [|reflexivity].
    rewrite (vals2_trav _ _ _ c). destruct (trav2 _ q _ _ _); simpl; [|reflexivity]. now rewrite map_app.
  Qed.
  Lemma visit_all (l : list A) : forall i, map snd (visit (fun _ _ => true) i l) = l.
  Proof. induction l as [|a l IH]; intros i; simpl; [reflexivity|]. now rewrite IH. Qed.

  Lemma step_rel q l o : Rel q l ->
    exists q', step zero q o = Some (q', snd (queue_spec l o)) /\ Rel q' (fst (queue_spec l o)).
  Proof.
    intros HR. destruct o; cbn [step queue_spec fst snd].
    - destruct (pushBack_rel q l v HR) as (q' & E & HR'). rewrite E. simpl. eauto.
    - destruct (pushFront_rel q l v HR) as (q' & E & HR'). rewrite E. simpl. eauto.
    - destruct (popBack_rel q l HR) as (q' & E & HR'). rewrite E. simpl. eauto.
    - destruct (popFront_rel q l HR) as (q' & E & HR'). rewrite E. simpl. eauto.
    - exists q. split; [|assumption]. destruct HR as (_ & _ & _ & _ & _ & -> & _). reflexivity.
    - exists q. split; [|assumption]. rewrite (index_rel q l i HR). destruct (nth_error l i); reflexivity.
    - exists q. split; [|assumption]. rewrite values_traverse, (traverse_rel q l _ HR). simpl. now rewrite visit_all.
    - exists q. split; [|assumption]. rewrite (traverse_rel q l f HR). reflexivity.
  Qed.

  Lemma run_ok ops : run (step zero) (new zero) ops = Some (srun queue_spec [] ops).
  Proof. apply (sim_run _ _ Rel step_rel), new_rel. Qed.

  Lemma ends_ok ops x l : sreach queue_spec [] ops = l ->
    exists q, reach (step zero) (new zero) ops = Some q /\
      (hd_error l = Some x -> front q = Some x) /\ (hd_error (rev l) = Some x -> back q = Some x).
  Proof.
    intros <-. destruct (sim_reach _ _ Rel step_rel ops _ _ new_rel) as (q & E & HR).
    exists q. split; [exact E|]. split.
    - destruct (sreach queue_spec [] ops); simpl; [discriminate|]. intros [= <-]. eapply front_rel; eassumption.
    - destruct (sreach queue_spec [] ops) as [|y l _] using rev_ind; [discriminate|].
      rewrite rev_unit. simpl. intros [= <-]. eapply back_rel; eassumption.
  Qed.
  Lemma index_out_ok ops q i : reach (step zero) (new zero) ops = Some q ->
    (Z.of_nat (length (sreach queue_spec [] ops)) <= i)%Z -> index q i = Panic.
  Proof.
    intros E Hi. destruct (sim_reach _ _ Rel step_rel ops _ _ new_rel) as (q' & E' & HR).
    rewrite E in E'. injection E' as <-. unfold index. destruct HR as (_ & _ & _ & _ & _ & Hl & _).
    destruct (Z.ltb_spec i (Z.of_nat (size q))); [lia|reflexivity].
  Qed.

  (* an empty queue holds no stale element *)
  Definition Clean (q : queue) : Prop := size q = 0 -> forall i, i < cap q -> nth_error (data q) i = Some zero.
  Lemma slimming_clean q q' : slimming zero q = Some q' -> size q = 0 -> start q <= length (data q) -> length (data q) = cap q ->
     3 <= cap q -> end_ q = start q -> Clean q'.
  Proof.
    unfold slimming. intros E H0 Hs Hd Hc He. rewrite H0, He in E. simpl in E.
    rewrite Nat.ltb_irrefl in E. unfold slice in E. rewrite Nat.leb_refl in E.
    destruct (Nat.leb_spec (start q) (length (data q))); [|lia]. rewrite Nat.sub_diag in E. simpl in E.
    set (c := cap q - cap q / 4) in *. injection E as <-. intros _ i Hi. simpl in *.
    rewrite firstn_nil. simpl. apply nth_error_repeat_lt; assumption.
  Qed.
  Lemma step_clean q l o q' r : Rel q l -> Clean q -> step zero q o = Some (q', r) -> Clean q'.
  Proof.
    intros HR HC. pose proof HR as (H1 & H2 & H3 & H4 & H5 & H6 & H7).
    destruct o; cbn [step]; intros E.
    - unfold pushBack in E. destruct (grow zero q); [|discriminate]. destruct (put_at _ _ _); [|discriminate].
      simpl in E. injection E as <- <-. intros H; simpl in H; lia.
    - unfold pushFront in E. destruct (grow zero q); [|discriminate].
      destruct (put_at _ (if start _ =? 0 then _ else _) _); [|discriminate].
      simpl in E. injection E as <- <-. intros H; simpl in H; lia.
    - destruct (popBack_rel q l HR) as (q2 & E2 & HR2). rewrite E2 in E. simpl in E. injection E as <- <-.
      unfold popBack in E2. destruct (Nat.eqb_spec (size q) 0); [injection E2 as <- _; exact HC|].
      destruct (nth_error _ _); [|discriminate].
      destruct (slimming zero _) as [q3|] eqn:Es; [|discriminate]. simpl in E2. injection E2 as -> _.
      intros Hz. destruct HR2 as (_ & _ & _ & _ & _ & Hl2 & _). rewrite removelast_length, H6 in Hl2.
      eapply slimming_clean; [exact Es|..]; simpl; try lia.
      destruct (Nat.eqb_spec (end_ q) 0); ixs; lia.
    - destruct (popFront_rel q l HR) as (q2 & E2 & HR2). rewrite E2 in E. simpl in E. injection E as <- <-.
      unfold popFront in E2. destruct (Nat.eqb_spec (size q) 0); [injection E2 as <- _; exact HC|].
      destruct (nth_error _ _); [|discriminate].
      destruct (slimming zero _) as [q3|] eqn:Es; [|discriminate]. simpl in E2. injection E2 as -> _.
      intros Hz. destruct HR2 as (_ & _ & _ & _ & _ & Hl2 & _).
      assert (Htl : length (tl l) = length l - 1) by (destruct l; simpl; lia). rewrite Htl, H6 in Hl2.
      eapply slimming_clean; [exact Es|..]; simpl; try lia.
      all: destruct (Nat.leb_spec (cap q) (start q + 1)); ixs; lia.
    - injection E as <- _; exact HC.
    - injection E as <- _; exact HC.
    - destruct (values q); [|discriminate]. simpl in E. injection E as <- _; exact HC.
    - destruct (traverse q f); [|discriminate]. simpl in E. injection E as <- _; exact HC.
  Qed.
  Lemma reach_clean ops : forall (q : queue) (l : list A), Rel q l -> Clean q -> exists q' : queue, reach (step zero) q ops = Some q' /\ Rel q' (sreach queue_spec l ops) /\ Clean q'.
  Proof.
    induction ops as [|o ops IH]; intros q l HR HC; simpl; [eauto|].
    destruct (step_rel q l o HR) as (q1 & E & HR1). rewrite E. apply IH; [assumption|].
    exact (step_clean q l o q1 _ HR HC E).
  Qed.
  Lemma empty_ends_ok ops : sreach queue_spec [] ops = [] ->
    exists q, reach (step zero) (new zero) ops = Some q /\ front q = Some zero /\ back q = Some zero.
  Proof.
    intros H. destruct (reach_clean ops (new zero) [] new_rel) as (q & E & HR & HC).
    { intros _ i Hi. apply (nth_error_repeat_lt zero 8); exact Hi. }
    rewrite H in HR. destruct HR as (H1 & H2 & H3 & H4 & H5 & H6 & H7). simpl in H6.
    exists q. split; [assumption|]. unfold front, back. split; apply HC; try lia.
    destruct (Nat.eqb_spec (end_ q) 0); ixs; lia.
  Qed.
End P.
