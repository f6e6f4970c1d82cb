(** set/treeset: the map it implements (C27), its shape (C28) and the set operations (C29). *)
From Verif Require Import Base Bind Machine OrderSpec SMapSpec SMapFacts CompareModel AvlTree AvlSpec AvlModel AvlProofs AvlAny AvlStep
  AvlProps TreeSetSpec TreeSetModel TreeSetProofs.
From Verif Require TreeSetHeap.
Local Open Scope Z_scope.

Section Props.
  Context {K V : Type} (ltb : K -> K -> bool) (W : weak_order ltb) (cmp : K -> K -> Z) (Hcmp : ex_cmp ltb cmp).

  Lemma rb_One : @rb_ok K V One 2 1.
  Proof. apply rebalance_ok; [lia|]. right; right. auto. Qed.
  Lemma low_One (ops : list (sm_op K V)) : Z.of_nat (length ops) < 2 ^ 64 -> low_from cmp One 2 new ops.
  Proof. intros Hn. exact (low_avl ltb W cmp Hcmp One 2 rb_One ops new [] (rel_new ltb) (Inv_E 1) Hn). Qed.

  (** Every answer is the one a sorted map would give, and no call panics. *)
  Theorem C27_treeset_sorted_map (ops : list (sm_op K V)) : Z.of_nat (length ops) < 2 ^ 64 ->
    run (step cmp One 2) new ops = Some (srun (smap_spec ltb) [] ops).
  Proof.
    intros Hn. apply (run_total ltb W cmp Hcmp One 2 1 rb_One ltac:(lia) ops new [] (rel_new ltb) (Inv_E 1) (low_One ops Hn)).
  Qed.
  Theorem C27_treeset_strictly_increasing (ops : list (sm_op K V)) s :
    reach (step cmp One 2) new ops = Some s ->
    strictly_sorted ltb (fst (traverse (fun _ => true) (root s) [])) /\
    size s = length (fst (traverse (fun _ => true) (root s) [])).
  Proof.
    intros HR. destruct (reach_any ltb W cmp Hcmp One 2 ops new [] s (rel_new ltb) HR) as (E1 & E2 & E3).
    destruct (traverse_ok (fun _ => true) (root s) []) as (X & _). rewrite X, E1.
    pose proof (visit_all (sreach (smap_spec ltb) [] ops) []) as Y. cbn [app] in Y.
    change (fun _ : entries => true) with (fun _ : list (K * V) => true) in Y. rewrite Y. auto.
  Qed.

  (** Stored heights are exact, the tree is an AVL tree, and its height is logarithmic in its size. *)
  Theorem C28_treeset_balanced (ops : list (sm_op K V)) : Z.of_nat (length ops) < 2 ^ 64 ->
    exists s, reach (step cmp One 2) new ops = Some s /\ exact (root s) /\ balanced 1 (root s) /\
      height s = Some (ht (root s)) /\ fib (Z.to_nat (ht (root s)) + 2) <= Z.of_nat (size s) + 1.
  Proof.
    intros Hn.
    destruct (run_total ltb W cmp Hcmp One 2 1 rb_One ltac:(lia) ops new [] (rel_new ltb) (Inv_E _) (low_One ops Hn))
      as (_ & s & E1 & (E2 & E3 & E4) & HI).
    exists s. split; [exact E1|]. split; [apply HI|]. split; [apply HI|]. split.
    - unfold height. rewrite E3, <- E2. destruct (root s) as [|h k v l r] eqn:Er; [reflexivity|].
      cbn [elems]. rewrite app_length. cbn [length]. rewrite <- plus_n_Sm. f_equal. exact (Inv_height _ _ HI).
    - rewrite E3, <- E2. apply avl_fib, HI.
  Qed.

  (** the keys a sequence of calls can put into the sets *)
  Definition op_keys (o : ts_op K V) : list K :=
    match o with
    | TOn (MPut k _) | TOn (MInsertIfAbsent k _) | TOn (MSet k _) | TOn (MUpsert k _)
    | TOther (MPut k _) | TOther (MInsertIfAbsent k _) | TOther (MSet k _) | TOther (MUpsert k _) => [k]
    | _ => []
    end.
  Lemma op_keys_len (ops : list (ts_op K V)) : (length (flat_map op_keys ops) <= length ops)%nat.
  Proof.
    induction ops as [|o ops IH]; cbn [flat_map length]; [lia|]. rewrite app_length.
    assert (length (op_keys o) <= 1)%nat by (destruct o as [o|o| | | | ]; try destruct o; cbn; lia). lia.
  Qed.
  Lemma op_keys_known (ops : list (ts_op K V)) o : In o ops -> ts_known (flat_map op_keys ops) o.
  Proof.
    intros Ho. destruct o as [o|o| | | | ]; cbn [ts_known]; try exact I;
      (destruct o; cbn [key_known]; try exact I; apply in_flat_map; eexists; (split; [exact Ho|]); cbn; auto).
  Qed.
  (** Two sets, any mixture of calls on them: every answer is right, no call panics, and Union, Intersection and
      Difference give exactly the set-theoretic result and leave the argument alone; both trees stay AVL trees. *)
  Theorem C29_treeset_algebra (ops : list (ts_op K V)) : Z.of_nat (length ops) < 2 ^ 64 ->
    exists rs a b ma mb, run (ts_step cmp 2) (new, new) ops = Some rs /\
      reach (ts_step cmp 2) (new, new) ops = Some (a, b) /\
      ts_allowed ltb ([], []) ops rs (ma, mb) /\
      elems (root a) = ma /\ elems (root b) = mb /\ size a = length ma /\ size b = length mb /\
      balanced 1 (root a) /\ balanced 1 (root b).
  Proof.
    intros Hn. pose proof (op_keys_len ops).
    assert (HU : Z.of_nat (length (flat_map op_keys ops)) < 2 ^ 64) by lia.
    assert (G0 : Good ltb (flat_map op_keys ops) (@new K V) []).
    { split; [apply rel_new|]. split; [apply Inv_E|]. intros x []. }
    destruct (ts_run_ok ltb W cmp Hcmp _ HU ops (new, new) ([], []) (conj G0 G0)) as (rs & [a b] & [ma mb] & E1 & E2 & E3 & (GA & GB)).
    { intros o Ho. apply op_keys_known. exact Ho. }
    cbn [fst snd] in GA, GB. destruct GA as ((A1 & A2 & _) & (_ & A3) & _), GB as ((B1 & B2 & _) & (_ & B3) & _).
    exists rs, a, b, ma, mb. repeat (split; [assumption|]). assumption.
  Qed.
End Props.

Print Assumptions C27_treeset_sorted_map.
Print Assumptions C27_treeset_strictly_increasing.
Print Assumptions C28_treeset_balanced.
Print Assumptions C29_treeset_algebra.

(** ** a set and itself: [a.Difference(a)] removes entries of the tree it is walking, and stops early *)
Theorem C29_self_difference_refuted :
  exists ks s s', TreeSetHeap.add_all any_ex TreeSetHeap.hnew ks = Some s /\ TreeSetHeap.keys s = Some ks /\
    TreeSetHeap.difference_self any_ex s = Some s' /\ TreeSetHeap.keys s' = Some [3; 4] /\ TreeSetHeap.sz s' = 2%nat.
Proof.
  exists [1; 2; 3; 4]. eexists. eexists. split; [vm_compute; reflexivity|]. split; [vm_compute; reflexivity|].
  split; [vm_compute; reflexivity|]. vm_compute. auto.
Qed.
Print Assumptions C29_self_difference_refuted.

(** ** examples *)
Example C27_case : run (step any_ex One 2) new ex_ops =
  Some [MBool true; MBool true; MBool true; MBool false; MBool true; MBool false; MBool true; MVal (Some 50);
        MVal (Some 40); MVal None; MVal None; MNat 3; MVals [31; 40; 81]; MSeen [(3, 31); (4, 40)]; MUnit; MNat 0].
Proof. vm_compute. reflexivity. Qed.
Example C28_case : exists s, reach (step any_ex One 2) new (puts [1; 2; 3; 4; 5; 6; 7; 8; 9] ++ [MRemove 1; MRemove 2]) = Some s /\
  ht (root s) = 3 /\ size s = 7%nat /\ balanced 1 (root s).
Proof. eexists. split; [vm_compute; reflexivity|]. vm_compute. repeat split; discriminate. Qed.
Definition two_sets : list (ts_op Z Z) :=
  [TOn (MPut 1 1); TOn (MPut 2 2); TOn (MPut 3 3); TOther (MPut 2 20); TOther (MPut 4 40)].
Example C29_case :
  run (ts_step any_ex 2) (new, new) (two_sets ++ [TUnion; TOn MValues; TOther MValues]) =
    Some [MBool true; MBool true; MBool true; MBool true; MBool true; MUnit; MVals [1; 20; 3; 40]; MVals [20; 40]] /\
  run (ts_step any_ex 2) (new, new) (two_sets ++ [TIntersection; TOn MValues; TOther MValues]) =
    Some [MBool true; MBool true; MBool true; MBool true; MBool true; MUnit; MVals [2]; MVals [20; 40]] /\
  run (ts_step any_ex 2) (new, new) (two_sets ++ [TDifference; TOn MValues; TSwap; TOn MValues]) =
    Some [MBool true; MBool true; MBool true; MBool true; MBool true; MUnit; MVals [1; 3]; MUnit; MVals [20; 40]].
Proof. repeat split; vm_compute; reflexivity. Qed.
