(** tree/avl, set/treeset and tree/avls: a comparison function that is no order does no damage (C76, continued). *)
From Verif Require Import Base Bind Machine OrderSpec SMapSpec AvlTree AvlSpec AvlModel AvlProofs AvlStep AvlProps AvlsModel WildSpec AvlWildProofs FloatModel TreeSetProps IndexWildProps.
Local Open Scope Z_scope.

Section Props.
  Context {K V : Type} (cmp : K -> K -> Z) (Hdir : forall a b, cmp a b <= 1).

  (** tree/avl: as long as the int8 heights suffice (they do for threshold 2), no call panics, whatever directions the comparison function gives; the
      answers are those of a list of entries in which calls by key found some entry that counts as a hit, or none, and
      touched no other; Size is the number of entries, the stored heights are right and the threshold is kept. *)
  Theorem C76_avl_any_comparison d (ops : list (sm_op K V)) : 1 <= d <= 127 ->
    d = 2 /\ Z.of_nat (length ops) < 2 ^ 64 \/ stays_low cmp d ops ->
    exists s xs, reach (step cmp Both d) new ops = Some s /\ run (step cmp Both d) new ops = Some xs /\ smay_run cmp false [] ops xs (elems (root s)) /\
      size s = length (elems (root s)) /\ exact (root s) /\ (2 <= d -> balanced (d - 1) (root s)).
  Proof.
    intros Hd HL. destruct (Z.le_gt_cases 2 d) as [H2|H2].
    - assert (RB : @rb_ok K V Both d (d - 1)) by (apply rebalance_ok; [lia|]; right; left; auto with zarith).
      assert (stays_low cmp d ops) as HL'.
      { destruct HL as [(-> & Hn)|HL]; [|exact HL]. exact (low_wild cmp false _ 1 (step_wild cmp Hdir Both 2 1 RB ltac:(lia)) ops eq_refl new eq_refl (Inv_E _) Hn). }
      destruct (run_wild cmp false _ (d - 1) (step_wild cmp Hdir Both d (d - 1) RB ltac:(lia)) ops new eq_refl (Inv_E _) HL') as (s & xs & E1 & E2 & E3 & (I1 & I2) & E4).
      exists s, xs. auto 8.
    - destruct HL as [(-> & _)|HL]; [lia|]. destruct (run_wild cmp false _ 127 (step_wild cmp Hdir Both d 127 (loose d Hd) ltac:(lia)) ops new eq_refl (Inv_E _) HL) as (s & xs & E1 & E2 & E3 & (I1 & I2) & E4).
      exists s, xs. repeat (split; [assumption|]). lia.
  Qed.

  (** set/treeset and tree/avls stay AVL trees: no condition on their height is needed. *)
  Theorem C76_treeset_any_comparison (ops : list (sm_op K V)) : Z.of_nat (length ops) < 2 ^ 64 ->
    exists s xs, reach (step cmp One 2) new ops = Some s /\ run (step cmp One 2) new ops = Some xs /\ smay_run cmp false [] ops xs (elems (root s)) /\
      size s = length (elems (root s)) /\ exact (root s) /\ balanced 1 (root s).
  Proof.
    intros Hn. pose proof (step_wild (V := V) cmp Hdir One 2 1 rb_One ltac:(lia)) as St.
    destruct (run_wild cmp false _ 1 St ops new eq_refl (Inv_E _) (low_wild cmp false _ 1 St ops eq_refl new eq_refl (Inv_E _) Hn)) as (s & xs & E1 & E2 & E3 & (I1 & I2) & E4).
    exists s, xs. auto 8.
  Qed.
  Theorem C76_avls_any_comparison (ops : list (sm_op K V)) : Z.of_nat (length ops) < 2 ^ 64 ->
    exists s xs, reach (mstep cmp 2) new ops = Some s /\ run (mstep cmp 2) new ops = Some xs /\ smay_run cmp true [] ops xs (elems (root s)) /\
      size s = length (elems (root s)) /\ exact (root s) /\ balanced 1 (root s).
  Proof.
    intros Hn. pose proof (mstep_wild (V := V) cmp Hdir One 2 1 rb_One ltac:(lia) eq_refl) as St.
    destruct (run_wild cmp true _ 1 St ops new eq_refl (Inv_E _) (low_wild cmp true _ 1 St ops eq_refl new eq_refl (Inv_E _) Hn)) as (s & xs & E1 & E2 & E3 & (I1 & I2) & E4).
    exists s, xs. auto 8.
  Qed.
End Props.
Print Assumptions C76_avl_any_comparison.
Print Assumptions C76_treeset_any_comparison.
Print Assumptions C76_avls_any_comparison.

(** A comparison function that gives other numbers than directions - a difference, say - is an index out of range. *)
Theorem C76_no_direction_refuted : exists (cmp : Z -> Z -> Z) (ops : list (sm_op Z Z)),
  run (step cmp Both 1) new ops = None /\ run (step cmp One 2) new ops = None /\ run (mstep cmp 2) new ops = None.
Proof. exists (fun a b => b - a), [MPut 1 1; MPut 3 3]. vm_compute. auto. Qed.
Print Assumptions C76_no_direction_refuted.

(** ** examples *)
(** NaN among floats (compare.AnyEx), and answers without any sense: lookups go astray, nothing else does *)
Definition chaos (a b : Z) : Z := (a * a + 3 * b + a * b + 5) mod 7 mod 3 - 1.
Definition wild_sops {K : Type} (f : Z -> K) (w : K) : list (sm_op K Z) :=
  map (fun z => MPut (f z) z) [5; 1; 9; 3] ++ [MPut w 100] ++ map (fun z => MPut (f z) z) [12; 7; 4; 14; 2; 11; 0; 8] ++
  [MSet w 200; MUpsert w 300; MGet (f 3); MGet w; MRemove (f 9); MRemove w; MSize; MInsertIfAbsent w 400; MRemove (f 5); MTraverse (fun _ => true)].
Lemma nan_dir a b : anyExBy flt a b <= 1.
Proof. unfold anyExBy. destruct (flt b a), (flt a b); lia. Qed.
Lemma chaos_dir a b : chaos a b <= 1.
Proof. unfold chaos. pose proof (Z.mod_pos_bound ((a * a + 3 * b + a * b + 5) mod 7) 3 ltac:(lia)). lia. Qed.
Example C76_case_avl : Z.of_nat (length (wild_sops flo NaN)) < 2 ^ 64 /\ option_map (skipn 13) (run (step (anyExBy flt) Both 2) new (wild_sops flo NaN)) = Some
  [MBool false; MBool true; MVal (Some 300); MVal (Some 300); MVal (Some 300); MVal (Some 7); MNat 10; MBool false; MVal None;
   MSeen (map (fun z => (flo z, z)) [0; 1; 2; 3; 4; 8; 9; 11; 12; 14])].
Proof. split; vm_compute; reflexivity. Qed.
Example C76_case_treeset : Z.of_nat (length (wild_sops (fun z => z) 13)) < 2 ^ 64 /\ option_map (skipn 13) (run (step chaos One 2) new (wild_sops (fun z => z) 13)) = Some
  [MBool true; MBool false; MVal (Some 9); MVal None; MVal None; MVal None; MNat 7; MBool true; MVal (Some 9);
   MSeen [(13, 400); (13, 300); (13, 200); (13, 100); (2, 2); (5, 5); (3, 3)]].
Proof. split; vm_compute; reflexivity. Qed.
Example C76_case_avls : option_map (skipn 13) (run (mstep chaos 2) new (wild_sops (fun z => z) 13)) = Some
  [MBool true; MBool false; MVal (Some 4); MVal None; MVal (Some 1); MVal None; MNat 14; MBool true; MVal (Some 9);
   MSeen [(13, 400); (13, 100); (2, 2); (5, 5); (3, 3); (4, 4); (11, 11); (12, 12); (8, 8); (7, 7); (14, 14); (0, 0); (13, 300); (13, 200)]].
Proof. vm_compute. reflexivity. Qed.
