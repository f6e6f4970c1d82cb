(** tree/avl: the map it implements (C20), its stored heights (C21) and its balance (C22). *)
From Verif Require Import Base Bind Machine OrderSpec SMapSpec SMapFacts CompareModel AvlTree AvlSpec AvlModel AvlProofs AvlAny AvlStep.
Local Open Scope Z_scope.

(** The tree never grows beyond 126 levels while the operations run (its heights are int8). *)
Definition stays_low {K V} (cmp : K -> K -> Z) (d : Z) (ops : list (sm_op K V)) : Prop :=
  forall p q s, ops = p ++ q -> reach (step cmp Both d) new p = Some s -> ht (root s) <= 126.

Section Props.
  Context {K V : Type} (ltb : K -> K -> bool) (W : weak_order ltb) (cmp : K -> K -> Z) (Hcmp : ex_cmp ltb cmp).

  Lemma rel_new : @Rel K V ltb new [].
  Proof. repeat split. constructor. Qed.

  Lemma loose d : 1 <= d <= 127 -> @rb_ok K V Both d 127.
  Proof. intros H. apply rebalance_ok; auto. Qed.

  (** Every answer is the one a sorted map would give, and no call panics. *)
  Theorem C20_avl_sorted_map d (ops : list (sm_op K V)) : 1 <= d <= 127 -> stays_low cmp d ops ->
    run (step cmp Both d) new ops = Some (srun (smap_spec ltb) [] ops).
  Proof.
    intros Hd HL. apply (run_total ltb W cmp Hcmp Both d 127 (loose d Hd) ltac:(lia) ops new [] rel_new (Inv_E 127) HL).
  Qed.

  (** Even without the bound on the height, an answer that is given is right. *)
  Theorem C20_avl_answers_right d (ops : list (sm_op K V)) rs :
    run (step cmp Both d) new ops = Some rs -> rs = srun (smap_spec ltb) [] ops.
  Proof. apply (run_any ltb W cmp Hcmp Both d ops new [] rs rel_new). Qed.

  (** Traversals are in strictly increasing key order: what a sorted map lists is strictly sorted. *)
  Theorem C20_avl_strictly_increasing d (ops : list (sm_op K V)) s :
    reach (step cmp Both d) new ops = Some s ->
    strictly_sorted ltb (fst (traverse (fun _ => true) (root s) [])) /\
    size s = length (fst (traverse (fun _ => true) (root s) [])).
  Proof.
    intros HR. destruct (reach_any ltb W cmp Hcmp Both d ops new [] s rel_new HR) as (E1 & E2 & E3).
    destruct (traverse_ok (fun _ => true) (root s) []) as (X & _). rewrite X, E1.
    pose proof (visit_all (sreach (smap_spec ltb) [] ops) []) as Y. cbn [app] in Y.
    change (fun _ : entries => true) with (fun _ : list (K * V) => true) in Y. rewrite Y. auto.
  Qed.

  (** Stored heights are the true ones, and Height() reports the true height of the tree. *)
  Theorem C21_avl_heights_exact d (ops : list (sm_op K V)) s : 1 <= d <= 127 -> stays_low cmp d ops ->
    reach (step cmp Both d) new ops = Some s -> exact (root s) /\ height s = Some (ht (root s)).
  Proof.
    intros Hd HL HR.
    destruct (run_total ltb W cmp Hcmp Both d 127 (loose d Hd) ltac:(lia) ops new [] rel_new (Inv_E 127) HL)
      as (_ & s' & E1 & (E2 & E3 & E4) & HI). rewrite HR in E1. injection E1 as <-.
    split; [apply HI|]. unfold height. rewrite E3, <- E2. destruct (root s) as [|h k v l r] eqn:Er; [reflexivity|].
    cbn [elems]. rewrite app_length. cbn [length]. rewrite <- plus_n_Sm.
    f_equal. exact (Inv_height _ _ HI).
  Qed.

  (** With a threshold of at least 2 (NewEx) no node is ever out of balance by the threshold. *)
  Theorem C22_threshold_balanced_partial d (ops : list (sm_op K V)) s : 2 <= d <= 127 -> stays_low cmp d ops ->
    reach (step cmp Both d) new ops = Some s -> balanced (d - 1) (root s).
  Proof.
    intros Hd HL HR. assert (RB : @rb_ok K V Both d (d - 1)) by (apply rebalance_ok; [lia|]; right; left; auto with zarith).
    destruct (run_total ltb W cmp Hcmp Both d (d - 1) RB ltac:(lia) ops new [] rel_new (Inv_E _) HL)
      as (_ & s' & E1 & _ & HI). rewrite HR in E1. injection E1 as <-. apply HI.
  Qed.

  (** With threshold 2 (NewEx) the tree is an AVL tree, so int8 heights are no restriction and no bound on the height
      has to be assumed. *)
  Lemma stays_low_2 (ops : list (sm_op K V)) : Z.of_nat (length ops) < 2 ^ 64 -> stays_low cmp 2 ops.
  Proof.
    intros Hn. assert (RB : @rb_ok K V Both 2 1) by (apply rebalance_ok; [lia|]; right; left; auto with zarith).
    exact (low_avl ltb W cmp Hcmp Both 2 RB ops new [] rel_new (Inv_E 1) Hn).
  Qed.
  Theorem C22_threshold_two_is_avl_partial (ops : list (sm_op K V)) : Z.of_nat (length ops) < 2 ^ 64 ->
    run (step cmp Both 2) new ops = Some (srun (smap_spec ltb) [] ops) /\
    exists s, reach (step cmp Both 2) new ops = Some s /\ exact (root s) /\ balanced 1 (root s) /\
      fib (Z.to_nat (ht (root s)) + 2) <= Z.of_nat (size s) + 1.
  Proof.
    intros Hn. assert (RB : @rb_ok K V Both 2 1) by (apply rebalance_ok; [lia|]; right; left; auto with zarith).
    destruct (run_total ltb W cmp Hcmp Both 2 1 RB ltac:(lia) ops new [] rel_new (Inv_E _) (stays_low_2 ops Hn))
      as (E0 & s & E1 & (E2 & E3 & E4) & HI).
    split; [exact E0|]. exists s. repeat split; auto; try apply HI. rewrite E3, <- E2. apply avl_fib, HI.
  Qed.
End Props.

Print Assumptions C20_avl_sorted_map.
Print Assumptions C20_avl_answers_right.
Print Assumptions C20_avl_strictly_increasing.
Print Assumptions C21_avl_heights_exact.
Print Assumptions C22_threshold_balanced_partial.
Print Assumptions C22_threshold_two_is_avl_partial.

(** ** a concrete key type *)
Notation zcmp := any_ex.
Lemma zcmp_ex : ex_cmp Z.ltb any_ex.
Proof. intros a b. unfold any_ex. destruct (Z.ltb_spec b a), (Z.gtb_spec a b), (Z.ltb_spec a b); lia. Qed.

(** Decide balance, to run the witnesses. *)
Fixpoint balancedb {K V} (D : Z) (t : tree K V) : bool :=
  match t with E => true | N _ _ _ l r => (Z.abs (ht l - ht r) <=? D) && balancedb D l && balancedb D r end.
Lemma balancedb_ok {K V} D (t : tree K V) : balanced D t -> balancedb D t = true.
Proof.
  induction t as [|h k v l IHl r IHr]; cbn [balanced balancedb]; [auto|]. intros (H1 & H2 & H3).
  rewrite (proj2 (Z.leb_le _ _) H1), IHl, IHr; auto.
Qed.

Definition puts (ks : list Z) : list (sm_op Z unit) := map (fun k => MPut k tt) ks.

(** C22 is false: the trees of New (threshold 1) lose the AVL condition - by a removal, ... *)
Theorem C22_avl_balance_refuted :
  exists (ops : list (sm_op Z unit)) s, reach (step zcmp Both 1) new ops = Some s /\ (forall o, In o ops -> exists k, o = MPut k tt \/ o = MRemove k) /\
    ~ balanced 1 (root s).
Proof.
  set (ops := puts [4; 8; 5; 7; 1; 6; 3; 2] ++ [MRemove 5]).
  destruct (reach (step zcmp Both 1) new ops) as [s|] eqn:E1; [|vm_compute in E1; discriminate].
  exists ops, s. split; [exact E1|]. split.
  - intros o Ho. cbn in Ho. repeat (destruct Ho as [<-|Ho]; [eauto|]). destruct Ho.
  - intros H. apply balancedb_ok in H. vm_compute in E1. injection E1 as <-. vm_compute in H. discriminate.
Qed.
(** ... and also by insertions alone. *)
Theorem C22_avl_balance_insert_only_refuted :
  exists ks s, reach (step zcmp Both 1) new (puts ks) = Some s /\ ~ balanced 1 (root s).
Proof.
  set (ks := [17; 5; 24; 19; 16; 23; 7; 14; 22; 9; 18; 8; 27; 10; 12; 20; 1; 4; 15; 26; 6; 13; 11; 3; 2; 25; 21]).
  destruct (reach (step zcmp Both 1) new (puts ks)) as [s|] eqn:E1; [|vm_compute in E1; discriminate].
  exists ks, s. split; [exact E1|].
  intros H. apply balancedb_ok in H. vm_compute in E1. injection E1 as <-. vm_compute in H. discriminate.
Qed.
(** C21 needs the bound on the height: with NewEx(cmp, 127), 129 insertions make Height() report -128. *)
Theorem C21_int8_overflow_refuted :
  exists (ops : list (sm_op Z unit)) s, reach (step zcmp Both 127) new ops = Some s /\ height s = Some (-128) /\ ht (root s) = 128.
Proof.
  set (ops := puts (0 :: -1 :: map Z.of_nat (seq 1 127))).
  destruct (reach (step zcmp Both 127) new ops) as [s|] eqn:E1; [|vm_compute in E1; discriminate].
  exists ops, s. split; [exact E1|]. vm_compute in E1. injection E1 as <-. vm_compute. auto.
Qed.
Print Assumptions C22_avl_balance_refuted.
Print Assumptions C22_avl_balance_insert_only_refuted.
Print Assumptions C21_int8_overflow_refuted.

(** ** examples *)
Lemma ht_le_size {K V} (t : tree K V) : ht t <= Z.of_nat (length (elems t)).
Proof. induction t as [|h k v l IHl r IHr]; cbn [ht elems]; [cbn; lia|]. rewrite app_length. cbn [length]. lia. Qed.
(** sequences of at most 126 operations never make a tall tree *)
Lemma stays_low_short {K V} (ltb : K -> K -> bool) (W : weak_order ltb) cmp (Hc : ex_cmp ltb cmp) d (ops : list (sm_op K V)) :
  (length ops <= 126)%nat -> stays_low cmp d ops.
Proof.
  intros Hn p q s Epq HR. pose proof (ht_le_size (root s)).
  destruct (reach_any ltb W cmp Hc Both d p new [] s (rel_new ltb) HR) as (E1 & _ & _).
  destruct (smap_sreach ltb W p [] ltac:(constructor)) as (_ & B). rewrite <- E1 in B.
  subst ops. rewrite app_length in Hn. cbn [length] in B. lia.
Qed.
Definition ex_ops : list (sm_op Z Z) :=
  [MPut 5 50; MPut 3 30; MPut 8 80; MSet 3 31; MUpsert 8 81; MPut 5 0; MInsertIfAbsent 4 40; MRemove 5; MGet 4; MGet 5;
   MDelete 9; MSize; MValues; MTraverse (fun seen => Nat.ltb (length seen) 2); MClear; MLen].
Example C20_case : 1 <= 1 <= 127 /\ stays_low zcmp 1 ex_ops /\
  run (step zcmp Both 1) new ex_ops =
  Some [MBool true; MBool true; MBool true; MBool false; MBool true; MBool false; MBool true; MVal (Some 50);
        MVal (Some 40); MVal None; MVal None; MNat 3; MVals [31; 40; 81]; MSeen [(3, 31); (4, 40)]; MUnit; MNat 0].
Proof.
  split; [lia|]. split; [|vm_compute; reflexivity].
  apply (stays_low_short Z.ltb Zltb_weak zcmp zcmp_ex). cbn. lia.
Qed.
Example C21_case : exists s, reach (step zcmp Both 1) new (puts [1; 2; 3; 4; 5; 6; 7; 8; 9]) = Some s /\
  height s = Some 4 /\ ht (root s) = 4.
Proof. eexists. split; [vm_compute; reflexivity|]. vm_compute. auto. Qed.
Example C22_case : exists s, reach (step zcmp Both 2) new (puts [1; 2; 3; 4; 5; 6; 7; 8; 9]) = Some s /\
  ht (root s) = 4 /\ size s = 9%nat /\ balanced 1 (root s).
Proof. eexists. split; [vm_compute; reflexivity|]. vm_compute. repeat split; discriminate. Qed.
