(** tree/indextree/experiment, type Tree: whatever the comparison function answers, nothing is lost or made up (C84), and
    BenchmarkStats agrees with Height() and Size() (C65). *)
From Verif Require Import Base Bind Machine OrderSpec SMapSpec AvlTree AvlSpec AvlModel AvlProofs AvlStep StatsModel StatsProps WildSpec AvlWildProofs AvlIterModel ExpModel ExpProps ExpIterModel
  ExpWildSpec ExpWildProofs.
From Verif Require AvlProps ExpHeapModel ExpHeapProps.
Local Open Scope Z_scope.

Section Props.
  Context {K V : Type} (cmp : K -> K -> Z).

  (** As long as the int8 heights suffice (they do for threshold 2), no call panics; the answers are those of a list of
      entries in which Put and Set found some entry that compares as equal, or none, in which Get, Upsert, Remove and Delete
      found some entry that compares as less, or none, and in which no other entry was touched; Size is the number of
      entries, the stored heights are right, Height() is the height, and the threshold is kept.  Put, Set, InsertIfAbsent and
      traversals take any comparison function; the others panic if it answers more than 1. *)
  Theorem C84_experiment_any_comparison d (ops : list (sm_op K V)) : 1 <= d <= 127 -> (existsb directs ops = true -> forall a b, cmp a b <= 1) ->
    d = 2 /\ Z.of_nat (length ops) < 2 ^ 64 \/ stays_low cmp d ops ->
    exists s xs, reach (step cmp d) new ops = Some s /\ run (step cmp d) new ops = Some xs /\ emay_run cmp [] ops xs (elems (root s)) /\
      size s = length (elems (root s)) /\ exact (root s) /\ height s = Some (ht (root s)) /\ (2 <= d -> balanced (d - 1) (root s)).
  Proof.
    intros Hd Hc HL.
    assert (HH : forall D (s : avl K V), Inv D (root s) -> size s = length (elems (root s)) -> height s = Some (ht (root s))).
    { intros D [t n] HI Hn. pose proof (Inv_height _ _ HI) as H. unfold height. cbn [root size] in *. destruct t; [rewrite Hn; reflexivity|].
      destruct n; [cbn [elems] in Hn; rewrite app_length in Hn; cbn in Hn; lia|]. cbn [getHeight] in H. rewrite <- H. reflexivity. }
    destruct (Z.le_gt_cases 2 d) as [H2|H2].
    - assert (RB : @rb_ok K V Both d (d - 1)) by (apply rebalance_ok; [lia|]; right; left; auto with zarith).
      assert (stays_low cmp d ops) as HL'.
      { destruct HL as [(-> & Hn)|HL]; [|exact HL]. intros p q s. exact (low_exp cmp 2 1 RB ltac:(lia) ops eq_refl Hc new eq_refl (Inv_E _) Hn p q s). }
      destruct (run_exp cmp d (d - 1) RB ltac:(lia) ops Hc new eq_refl (Inv_E _) HL') as (s & xs & E1 & E2 & E3 & HI & E4). pose proof (HH _ s HI E3). destruct HI as (I1 & I2).
      exists s, xs. auto 9.
    - destruct HL as [(-> & _)|HL]; [lia|]. destruct (run_exp cmp d 127 (AvlProps.loose d Hd) ltac:(lia) ops Hc new eq_refl (Inv_E _) HL) as (s & xs & E1 & E2 & E3 & HI & E4). pose proof (HH _ s HI E3). destruct HI as (I1 & I2).
      exists s, xs. repeat (split; [assumption|]). lia.
  Qed.
  (** In memory (C83) likewise: every call comes back. *)
  Corollary C84_nodes_any_comparison d zero k0 (ops : list (sm_op K V)) : 1 <= d <= 127 -> (existsb directs ops = true -> forall a b, cmp a b <= 1) ->
    d = 2 /\ Z.of_nat (length ops) < 2 ^ 64 \/ stays_low cmp d ops ->
    exists xs m, run (ExpHeapModel.hstep cmp d zero) (ExpHeapModel.hnew zero k0) ops = Some (map (@ExpHeapModel.HOut K V) xs) /\ emay_run cmp [] ops xs m.
  Proof.
    intros Hd Hc HL. destruct (C84_experiment_any_comparison d ops Hd Hc HL) as (s & xs & _ & E2 & E3 & _). exists xs, (elems (root s)). split; [|exact E3].
    rewrite ExpHeapProps.C83_nodes_do_what_trees_do, E2. reflexivity.
  Qed.

  (** An iterator that does not seek is a cursor over the entries in the order of Traverse.  Full statement: for all calls on
      iterators; false of the seeks, see below. *)
  Theorem C84_iterators_walk_partial d (ops : list (sm_op K V)) s : 1 <= d <= 127 -> (existsb directs ops = true -> forall a b, cmp a b <= 1) ->
    d = 2 /\ Z.of_nat (length ops) < 2 ^ 64 \/ stays_low cmp d ops -> reach (step cmp d) new ops = Some s ->
    exists m it, step cmp d s (MTraverse (fun _ => true)) = Some (s, MSeen m) /\ exp_iterator s = Some it /\
      forall ltb cops, forallb walks cops = true -> run (exp_it_step cmp) it cops = Some (srun (cursor_spec ltb true m) None cops).
  Proof.
    intros Hd Hc HL HR. destruct (C84_experiment_any_comparison d ops Hd Hc HL) as (s' & xs & E1 & _ & _ & _ & _ & E2 & _). rewrite HR in E1. injection E1 as <-.
    exists (elems (root s)). destruct (walk_run (fun _ _ => false) cmp s E2) as (it & H1 & _). exists it. split.
    - cbn [step AvlModel.step]. do 3 f_equal. pose proof (proj1 (AvlAny.traverse_ok (fun _ => true) (root s) [])) as X.
      pose proof (SMapFacts.visit_all (elems (root s)) []) as Y. cbn [app] in Y. change (fun _ : SMapSpec.entries => true) with (fun _ : list (K * V) => true) in Y. exact (eq_trans X Y).
    - split; [exact H1|]. intros ltb cops Hw. destruct (walk_run ltb cmp s E2) as (it' & H1' & H2'). rewrite H1 in H1'. injection H1' as <-. auto.
  Qed.
  (** BenchmarkStats of experiment.Tree agrees with Height() and Size(). *)
  Theorem C65_experiment_stats d (ops : list (sm_op K V)) t : 1 <= d <= 127 -> (existsb directs ops = true -> forall a b, cmp a b <= 1) ->
    d = 2 /\ Z.of_nat (length ops) < 2 ^ 64 \/ stays_low cmp d ops -> reach (step cmp d) new ops = Some t ->
    exists s, shapeStats (root t) = Some s /\ height t = Some (sHeight s) /\ sCount s = Z.of_nat (size t).
  Proof.
    intros Hd Hc HL HR. destruct (C84_experiment_any_comparison d ops Hd Hc HL) as (s' & xs & E1 & _ & _ & Es & _ & E2 & _). rewrite HR in E1. injection E1 as <-.
    destruct (C65_stats_right (root t)) as (s & F1 & F2 & F3 & F4 & _). exists s. split; [exact F1|]. split; [rewrite E2; congruence|]. rewrite F4, Es. reflexivity.
  Qed.
End Props.
Print Assumptions C84_experiment_any_comparison.
Print Assumptions C84_nodes_any_comparison.
Print Assumptions C84_iterators_walk_partial.
Print Assumptions C65_experiment_stats.

(** Seeks do not find the only key there is, and find it when asked for a greater one: for every order, every comparator for
    it that answers -1, 0 and 1, every threshold. *)
Theorem C84_seek_refuted {K V} (ltb : K -> K -> bool) (W : weak_order ltb) (cmp : K -> K -> Z) (Hcmp : plain_cmp ltb cmp) (d : Z) (k other : K) (v : V) : ltb k other = true ->
  exists s it, reach (step cmp d) new [MPut k v] = Some s /\ exp_iterator s = Some it /\
    run (exp_it_step cmp) it [CGE k; CKey; CGE other; CKey] = Some [CBool false; CK k; CBool true; CK k] /\
    srun (cursor_spec ltb true [(k, v)]) None [CGE k; CKey; CGE other; CKey] = [CBool true; CK k; CBool false; CPanic].
Proof.
  intros L. pose proof (Hcmp k k) as Hk. rewrite (wo_irrefl _ W k) in Hk. pose proof (Hcmp k other) as Ho. rewrite L in Ho.
  eexists _, _. split; [reflexivity|]. split; [reflexivity|]. split.
  - cbn. rewrite Hk. cbn. rewrite Ho. cbn. reflexivity.
  - cbn. unfold before, upto, found, sames, same, land, goto. cbn. rewrite (wo_irrefl _ W k), L. cbn. try rewrite (lt_asym ltb W _ _ L). reflexivity.
Qed.
Print Assumptions C84_seek_refuted.

(** ** examples *)
(** answers without any sense, all calls: lookups go astray, nothing else does *)
Definition mess (a b : Z) : Z := (a * a + 3 * b + a * b + 5) mod 7 mod 3 - 1.
Lemma mess_dir a b : mess a b <= 1.
Proof. unfold mess. pose proof (Z.mod_pos_bound ((a * a + 3 * b + a * b + 5) mod 7) 3 ltac:(lia)). lia. Qed.
Definition mess_ops : list (sm_op Z Z) := map (fun k => MPut k (10 * k)) [5; 1; 9; 3; 12; 7; 4; 14; 2; 11; 0; 8] ++
  [MSet 3 31; MUpsert 9 91; MGet 3; MRemove 9; MRemove 4; MInsertIfAbsent 6 60; MSize; MTraverse (fun _ => true)].
Example C84_case : Z.of_nat (length mess_ops) < 2 ^ 64 /\ option_map (skipn 12) (run (step mess 2) new mess_ops) = Some
  [MBool true; MBool true; MVal (Some 140); MVal (Some 91); MVal (Some 50); MBool false; MNat 7;
   MSeen [(8, 80); (12, 120); (3, 31); (7, 70); (14, 140); (0, 0); (3, 30)]].
Proof. split; vm_compute; reflexivity. Qed.
(** any numbers, where nothing is looked up *)
Example C84_case_numbers : existsb directs (map (fun k => MPut k k) [5; 100; -7; 30; 5] ++ [@MTraverse Z Z (fun _ => true)]) = false /\
  run (step (fun a b => a - b) 2) new (map (fun k => MPut k k) [5; 100; -7; 30; 5] ++ [@MTraverse Z Z (fun _ => true)]) =
    Some [MBool true; MBool true; MBool true; MBool true; MBool false; MSeen [(100, 100); (30, 30); (5, 5); (-7, -7)]].
Proof. split; vm_compute; reflexivity. Qed.
Example C84_case_walk : forallb (walks (K := Z)) [CLast; CKey; CPrev; CClone; CKey; CPrev; CPrev; CPrev; CPrev; CValid; CNext; CValue] = true /\
  option_map (fun s => option_map (fun it => run (exp_it_step mess) it [CLast; CKey; CPrev; CClone; CKey; CPrev; CPrev; CPrev; CPrev; CValid; CNext; CValue]) (exp_iterator s))
    (reach (step mess 2) new (map (fun k => MPut k (10 * k)) [5; 1; 9; 3] ++ [MRemove 3])) =
  Some (Some (Some [CUnit; CK 3; CUnit; CUnit; CK 5; CUnit; CUnit; CUnit; CUnit; CBool false; CUnit; CV 10])).
Proof. split; vm_compute; reflexivity. Qed.
Example C65_case_experiment : option_map (fun s => (shapeStats (root s), height s, size s)) (reach (step mess 2) new mess_ops) = Some (Some (Stats 4 18 7 3 3), Some 4, 7%nat).
Proof. vm_compute; reflexivity. Qed.
