(** tree/avls: the stable sorted multimap it implements (C24), its balance (C25) and its iterators (C26). *)
From Verif Require Import Base Bind Machine OrderSpec SMapSpec SMapFacts CompareModel AvlTree AvlSpec AvlModel AvlProofs AvlAny AvlStep
  AvlProps TreeSetProps AvlIterModel AvlIterProofs AvlsModel AvlsProofs.
Local Open Scope Z_scope.

Section Props.
  Context {K V : Type} (ltb : K -> K -> bool) (W : weak_order ltb) (cmp : K -> K -> Z) (Hcmp : ex_cmp ltb cmp).

  (** New(): every answer is the one the sorted sequence of entries gives, in which equal keys keep their insertion order;
      no call panics. *)
  Theorem C24_avls_stable_multimap (ops : list (sm_op K V)) : Z.of_nat (length ops) < 2 ^ 64 ->
    run (mstep cmp 2) new ops = Some (srun (mmap_spec ltb) [] ops).
  Proof. intros Hn. apply (mrun_total ltb W cmp Hcmp 2 rb_One ops new [] (mrel_new ltb) (Inv_E 1) Hn). Qed.

  (** NewEx(): whatever the threshold, an answer that is given is right. *)
  Theorem C24_avls_answers_right d (ops : list (sm_op K V)) rs :
    run (mstep cmp d) new ops = Some rs -> rs = srun (mmap_spec ltb) [] ops.
  Proof. apply (mrun_any ltb W cmp Hcmp d ops new [] rs (mrel_new ltb)). Qed.

  (** Stored heights are exact and the AVL condition holds, so a tree of height h has at least fib (h+2) - 1 entries. *)
  Theorem C25_avls_balanced (ops : list (sm_op K V)) : Z.of_nat (length ops) < 2 ^ 64 ->
    exists s, reach (mstep cmp 2) new ops = Some s /\ exact (root s) /\ balanced 1 (root s) /\
      height s = Some (ht (root s)) /\ fib (Z.to_nat (ht (root s)) + 2) <= Z.of_nat (size s) + 1.
  Proof.
    intros Hn. destruct (mrun_total ltb W cmp Hcmp 2 rb_One ops new [] (mrel_new ltb) (Inv_E 1) Hn) as (_ & s & E1 & (E2 & E3 & E4) & HI).
    exists s. split; [exact E1|]. split; [apply HI|]. split; [apply HI|]. split.
    - unfold height. rewrite E3, <- E2. destruct (root s) as [|h k v l r] eqn:Er; [reflexivity|].
      cbn [elems]. rewrite app_length. cbn [length]. rewrite <- plus_n_Sm. f_equal. exact (Inv_height _ _ HI).
    - rewrite E3, <- E2. apply avl_fib, HI.
  Qed.

  (** An iterator on whatever tree the calls built behaves, for every sequence of iterator calls, like a cursor over the
      sorted sequence of entries, duplicates included. *)
  Theorem C26_avls_iterator (ops : list (sm_op K V)) s : Z.of_nat (length ops) < 2 ^ 64 ->
    reach (mstep cmp 2) new ops = Some s ->
    exists it, newIterator s = Some it /\
      forall cops, run (its_step cmp) it cops = Some (srun (cursor_spec ltb false (sreach (mmap_spec ltb) [] ops)) None cops).
  Proof.
    intros Hn HR. destruct (C25_avls_balanced ops Hn) as (s' & E0 & _ & _ & Hh & _). rewrite HR in E0. injection E0 as <-.
    destruct (mrun_total ltb W cmp Hcmp 2 rb_One ops new [] (mrel_new ltb) (Inv_E 1) Hn) as (_ & s' & E1 & (E2 & E3 & E4) & _).
    rewrite HR in E1. injection E1 as <-. rewrite <- E2. apply (its_run ltb W cmp Hcmp s Hh). rewrite E2. exact E4.
  Qed.
End Props.

(** ** what the specification amounts to: insertion puts the new entry behind its equals and disturbs nothing, so among the
    entries with one key the order is that of insertion, and removal takes the oldest *)
Section Stable.
  Context {K V : Type} (ltb : K -> K -> bool) (W : weak_order ltb).
  Lemma sames_app k (a b : list (K * V)) : sames ltb k (a ++ b) = sames ltb k a ++ sames ltb k b.
  Proof. apply filter_app. Qed.
  Lemma sames_none k (m : list (K * V)) : (forall x, In x m -> same ltb (fst x) k = false) -> sames ltb k m = [].
  Proof. apply filter_none. Qed.
  Theorem C24_insert_is_stable k k' v (m : list (K * V)) : weakly_sorted ltb m ->
    sames ltb k' (mm_insert ltb (k, v) m) = sames ltb k' m ++ (if same ltb k k' then [(k, v)] else []) /\
    Permutation (mm_insert ltb (k, v) m) ((k, v) :: m) /\ weakly_sorted ltb (mm_insert ltb (k, v) m).
  Proof.
    intros Hm. split; [|split; [|apply (insert_sorted ltb W); exact Hm]].
    - unfold mm_insert. cbn [fst].
      assert (X : filter (fun x => negb (ltb k (fst x))) m ++ after ltb k m = m).
      { clear k' v. induction m as [|x m IH]; [reflexivity|]. inversion_clear Hm as [|? ? H1 H2]. rewrite Forall_forall in H2.
        unfold after in *. cbn [filter]. destruct (ltb k (fst x)) eqn:E1; cbn [negb app].
        - rewrite filter_none; [rewrite filter_all; [reflexivity|]|]; intros y Hy.
          + apply (lt_le ltb W k (fst x) (fst y)); auto.
          + rewrite (lt_le ltb W k (fst x) (fst y)); auto.
        - f_equal. apply IH. exact H1. }
      rewrite <- X at 3. rewrite !sames_app. change ((k, v) :: after ltb k m) with ([(k, v)] ++ after ltb k m).
      rewrite sames_app. unfold sames at 2. cbn [filter fst]. destruct (same ltb k k') eqn:E1.
      + rewrite (sames_none k' (after ltb k m)); [rewrite !app_nil_r; reflexivity|].
        intros x Hx. apply filter_In in Hx as (_ & Hx). unfold same. rewrite <- (same_lt_l ltb W _ _ _ E1), Hx.
        rewrite andb_comm. reflexivity.
      + rewrite app_nil_r. reflexivity.
    - unfold mm_insert. cbn [fst]. rewrite <- Permutation_middle. apply perm_skip.
      unfold after. clear. induction m as [|x m IH]; [reflexivity|]. cbn [filter]. destruct (ltb k (fst x)); cbn [negb app].
      + rewrite <- Permutation_middle. auto.
      + auto.
  Qed.
  Theorem C24_remove_takes_the_oldest k k' (m : list (K * V)) : weakly_sorted ltb m ->
    sames ltb k' (mm_drop_first ltb k m) = if same ltb k k' then tl (sames ltb k' m) else sames ltb k' m.
  Proof.
    intros Hm. destruct (same ltb k k') eqn:E1.
    - assert (X : sames ltb k' m = sames ltb k m).
      { apply filter_eq. intros x _. unfold same. rewrite (same_lt_l ltb W _ _ _ E1), (same_lt_r ltb W _ _ _ E1). reflexivity. }
      rewrite X. unfold mm_drop_first. rewrite !sames_app.
      rewrite (sames_none k' (before ltb k m)), (sames_none k' (after ltb k m)).
      + rewrite app_nil_r. cbn [app]. unfold sames at 1. apply filter_all. intros x Hx.
        assert (Hx' : In x (sames ltb k m)) by (destruct (sames ltb k m); [destruct Hx|right; exact Hx]).
        rewrite <- X in Hx'. apply filter_In in Hx' as (_ & Hx'). exact Hx'.
      + intros x Hx. apply filter_In in Hx as (_ & Hx). unfold same. rewrite <- (same_lt_l ltb W _ _ _ E1), Hx, andb_comm. reflexivity.
      + intros x Hx. apply filter_In in Hx as (_ & Hx). unfold same. rewrite <- (same_lt_r ltb W _ _ _ E1), Hx. reflexivity.
    - rewrite (cut_all ltb W m k Hm) at 2. unfold mm_drop_first. rewrite !sames_app. f_equal. f_equal.
      assert (G : sames ltb k' (sames ltb k m) = []).
      { apply sames_none. intros x Hx. apply filter_In in Hx as (_ & Hx). rewrite same_sym in Hx.
        unfold same in E1 |- *. rewrite <- (same_lt_l ltb W _ _ _ Hx), <- (same_lt_r ltb W _ _ _ Hx). exact E1. }
      rewrite G. apply sames_none. intros x Hx.
      assert (Hx' : In x (sames ltb k m)) by (destruct (sames ltb k m); [destruct Hx|right; exact Hx]).
      destruct (same ltb (fst x) k') eqn:E2; [|reflexivity]. exfalso.
      assert (In x (sames ltb k' (sames ltb k m))) by (apply filter_In; auto). rewrite G in H. destruct H.
  Qed.
End Stable.
Print Assumptions C24_remove_takes_the_oldest.
Print Assumptions C24_avls_stable_multimap.
Print Assumptions C24_avls_answers_right.
Print Assumptions C24_insert_is_stable.
Print Assumptions C25_avls_balanced.
Print Assumptions C26_avls_iterator.

(** ** examples: runs of equal keys across rotations *)
Example C24_case :
  run (mstep any_ex 2) new
    [MPut 1 10; MPut 1 11; MPut 1 12; MPut 0 5; MPut 1 13; MPut 2 20; MValues; MGet 1; MSet 1 99; MRemove 1; MRemove 1; MValues;
     MUpsert 3 30; MInsertIfAbsent 3 31; MSet 3 33; MDelete 7; MSize; MTraverse (fun seen => Nat.ltb (length seen) 2)] =
  Some [MBool true; MBool true; MBool true; MBool true; MBool true; MBool true; MVals [5; 10; 11; 12; 13; 20]; MVal (Some 10);
        MBool false; MVal (Some 99); MVal (Some 11); MVals [5; 12; 13; 20]; MBool false; MBool false; MBool false; MVal None; MNat 5%nat;
        MSeen [(0, 5); (1, 12)]].
Proof. vm_compute. reflexivity. Qed.
Example C25_case : exists s, reach (mstep any_ex 2) new (map (fun v => MPut 7 v) [1; 2; 3; 4; 5; 6; 7; 8; 9]) = Some s /\
  height s = Some 4 /\ size s = 9%nat /\ balanced 1 (root s).
Proof. eexists. split; [vm_compute; reflexivity|]. vm_compute. repeat split; discriminate. Qed.
Example C26_case : exists s it, reach (mstep any_ex 2) new (map (fun v => MPut (v / 10) v) [10; 11; 20; 30; 21; 12; 31; 0]) = Some s /\
  newIterator s = Some it /\
  run (its_step any_ex) it [CGE 1; CValue; CNext; CValue; CGT 1; CValue; CPrev; CValue; CLE 2; CValue; CLT 2; CValue; CGT 3; CValid; CFirst; CValue] =
  Some [CBool true; CV 10; CUnit; CV 11; CBool true; CV 20; CUnit; CV 12; CBool true; CV 21; CBool true; CV 12; CBool true; CBool false; CUnit; CV 0].
Proof. eexists. eexists. split; [vm_compute; reflexivity|]. split; [vm_compute; reflexivity|]. vm_compute. reflexivity. Qed.
