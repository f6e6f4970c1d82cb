(** C61: comparators that answer other numbers than -1, 0 and 1 with the right sign, in tree/indextree, map/orderedmap.go
    and tree/treelist. *)
From Verif Require Import Base Bind Machine OrderSpec SMapSpec SMapFacts CompareModel AvlTree AvlSpec IndexSpec IndexModel IndexProofs IndexProps
  OrderedMapSpec OrderedMapModel OrderedMapProps TreelistSpec TreelistModel TreelistLinks TreelistProofs TreelistSteps TreelistProps
  TreelistSetModel TreelistSetProofs TreelistSetProps SignProofs.
Local Open Scope Z_scope.

Section Props.
  Context {K : Type} (ltb : K -> K -> bool) (W : weak_order ltb) (cmp : K -> K -> Z) (Hcmp : sign_cmp ltb cmp).

  Section Index.
    Context {A : Type} (shift : Z) (Hsh : 0 <= shift).
    (** Index trees.  Full statement: without the condition on [ops] in the first line.  Missing: RemoveRange and Trim,
        for which it is false (below); the other conditions are those of C30. *)
    Theorem C61_indextree_partial (ops : list (ix_op K A)) : (forall lo hi, ~ In (XRemoveRange lo hi) ops /\ ~ In (XTrim lo hi) ops) ->
      trims_in_range ltb [] ops ->
      elems (sreach (step cmp shift) E ops) = sreach (ix_spec ltb) [] ops /\
      sized (sreach (step cmp shift) E ops) /\
      (all_answered ltb [] ops -> srun (step cmp shift) E ops = srun (ix_spec ltb) [] ops).
    Proof.
      intros Ho Ht.
      destruct (srun_same (step cmp shift) (step (sgn cmp) shift) (fun o => In o ops)
                  (fun t o Hin => eq_sym (step_sgn cmp shift t o
                     (fun lo hi => conj (fun X => proj1 (Ho lo hi) (eq_ind _ (fun y => In y ops) Hin _ X))
                                        (fun X => proj2 (Ho lo hi) (eq_ind _ (fun y => In y ops) Hin _ X)))))
                  ops E (fun o H => H)) as (-> & ->).
      pose proof (sgn_plain cmp ltb W Hcmp) as P. split; [|split].
      - apply (C30_indextree_content ltb W _ P shift Hsh ops Ht).
      - apply (C31_sizes_exact_partial ltb W _ P shift Hsh ops Ht).
      - intros Ha. apply (C30_indextree_sorted_map_partial ltb W _ P shift Hsh ops Ht Ha).
    Qed.

    (** Ordered maps, which have no operations on ranges of keys; as in C35, all answers but those that involve nil
        values, and Set on an empty map. *)
    Theorem C61_ordered_map (zk : K) (zv : option A) (ops : list (om_op K A)) :
      elems (sreach (omstep cmp shift zk zv) E ops) = sreach (om_spec ltb zk zv) [] ops /\ 
      (all_plain ltb zk zv [] ops -> srun (omstep cmp shift zk zv) E ops = srun (om_spec ltb zk zv) [] ops).
    Proof.
      destruct (srun_same (omstep cmp shift zk zv) (omstep (sgn cmp) shift zk zv) (fun _ => True)
                  (fun t o _ => eq_sym (omstep_sgn cmp shift zk zv t o)) ops E (fun _ _ => I)) as (-> & ->).
      pose proof (sgn_plain cmp ltb W Hcmp) as P. split.
      - apply (C35_content ltb W _ P shift Hsh zk zv ops).
      - apply (C35_ordered_map_partial ltb W _ P shift Hsh zk zv ops).
    Qed.
  End Index.

  Section Treelist.
    Context {V : Type}.
    Definition no_key_ranges (ops : list (tl_op K V)) : Prop := forall lo hi, ~ In (TRemoveRange lo hi) ops /\ ~ In (TTrim lo hi) ops.
    Lemma tl_same ops s : no_key_ranges ops ->
      srun (tl_step cmp) s ops = srun (tl_step (sgn cmp)) s ops /\ sreach (tl_step cmp) s ops = sreach (tl_step (sgn cmp)) s ops.
    Proof.
      intros Ho. apply (srun_same _ _ (fun o => In o ops)); [|auto]. intros t o Hin. symmetry. apply tl_step_sgn.
      intros lo hi. split; intros ->; [apply (proj1 (Ho lo hi))|apply (proj2 (Ho lo hi))]; exact Hin.
    Qed.
    (** Tree lists.  Full statement: without [no_key_ranges].  Missing: RemoveRange and Trim, for which it is false
        (below); the other conditions and the second alternative are those of C36. *)
    Theorem C61_treelist_partial (ops : list (tl_op K V)) : no_key_ranges ops -> trims_inside ltb [] ops -> ends_ok ltb false [] ops ->
      srun (tl_step cmp) new ops = srun (tl_spec ltb) [] ops \/
      exists ops1 o ops2, ops = ops1 ++ o :: ops2 /\ srun (tl_step cmp) new ops1 = srun (tl_spec ltb) [] ops1 /\
        63 < ht (top (sreach (tl_step cmp) new ops1)) /\ put_fails o (snd (tl_step cmp (sreach (tl_step cmp) new ops1) o)).
    Proof.
      intros Ho Ht He. rewrite (proj1 (tl_same ops new Ho)).
      destruct (C36_tree_list_partial ltb W _ (sgn_plain cmp ltb W Hcmp) ops Ht He) as [X|(ops1 & o & ops2 & -> & X1 & X2 & X3)]; [left; exact X|right].
      assert (Ho1 : no_key_ranges ops1) by (intros lo hi; split; intros X; [apply (proj1 (Ho lo hi))|apply (proj2 (Ho lo hi))]; apply in_or_app; auto).
      exists ops1, o, ops2. split; [reflexivity|]. destruct (tl_same ops1 new Ho1) as (-> & ->). split; [exact X1|]. split; [exact X2|].
      rewrite <- tl_step_sgn; [exact X3|]. intros lo hi. split; intros ->; [apply (proj1 (Ho lo hi))|apply (proj2 (Ho lo hi))]; apply in_or_app; simpl; auto.
    Qed.

    (** Set operations of tree lists.  Full statement and what is missing: as above and as in C38. *)
    Theorem C61_set_operations_partial op (ops1 ops2 : list (tl_op K V)) : no_key_ranges ops1 -> no_key_ranges ops2 ->
      reached ltb cmp ops1 -> reached ltb cmp ops2 ->
      exists s m, setOperation cmp op (sreach (tl_step cmp) new ops1) (sreach (tl_step cmp) new ops2) = Some s /\
        is_result ltb op (sreach (tl_spec ltb) [] ops1) (sreach (tl_spec ltb) [] ops2) m /\ consistent ltb s m.
    Proof.
      intros H1 H2 R1 R2.
      assert (G : forall ops, no_key_ranges ops -> reached ltb cmp ops -> reached ltb (sgn cmp) ops).
      { intros ops H (P & R). split; [|exact R]. intros a o b Eq. specialize (P a o b Eq). subst ops.
        assert (Ha : no_key_ranges a) by (intros lo hi; split; intros X; [apply (proj1 (H lo hi))|apply (proj2 (H lo hi))]; apply in_or_app; auto).
        rewrite (proj2 (tl_same a new Ha)) in P. rewrite tl_step_sgn; [exact P|].
        intros lo hi. split; intros ->; [apply (proj1 (H lo hi))|apply (proj2 (H lo hi))]; apply in_or_app; simpl; auto. }
      destruct (C38_set_operations_partial ltb W _ (sgn_plain cmp ltb W Hcmp) op ops1 ops2 (G _ H1 R1) (G _ H2 R2)) as (s & m & E1 & E2 & E3 & _).
      exists s, m. rewrite (proj2 (tl_same ops1 new H1)), (proj2 (tl_same ops2 new H2)), <- setOperation_sgn. auto.
    Qed.
  End Treelist.
End Props.
Print Assumptions C61_indextree_partial.
Print Assumptions C61_ordered_map.
Print Assumptions C61_treelist_partial.
Print Assumptions C61_set_operations_partial.

Lemma sub_sign : sign_cmp Z.ltb Z.sub.
Proof. intros a b. rewrite !Z.ltb_lt. lia. Qed.
Lemma ltb_weak : weak_order Z.ltb.
Proof. split; intros; rewrite ?Z.ltb_lt, ?Z.ltb_ge in *; lia. Qed.

(** With a - b as the comparator, RemoveRange(20, 30) removes 10, and Trim(20, 30) keeps it. *)
Theorem C61_range_refuted : exists (ltb : Z -> Z -> bool) (cmp : Z -> Z -> Z), weak_order ltb /\ sign_cmp ltb cmp /\
  map fst (elems (sreach (step cmp 2) E [XPut 10 (Some 1); XRemoveRange 20 30])) = [] /\
  map fst (sreach (ix_spec ltb) [] [XPut 10 (Some 1); XRemoveRange 20 30]) = [10] /\
  map fst (elems (sreach (step cmp 2) E [XPut 10 (Some 1); XPut 25 (Some 1); XTrim 20 30])) = [10; 25] /\
  map fst (sreach (ix_spec ltb) [] [XPut 10 (Some 1); XPut 25 (Some 1); XTrim 20 30]) = [25].
Proof. exists Z.ltb, Z.sub. split; [exact ltb_weak|]. split; [exact sub_sign|]. vm_compute. auto. Qed.
Print Assumptions C61_range_refuted.

Theorem C61_treelist_range_refuted : exists (ltb : Z -> Z -> bool) (cmp : Z -> Z -> Z), weak_order ltb /\ sign_cmp ltb cmp /\
  map fst (elems (top (sreach (tl_step cmp) new [TPut 10 1; TRemoveRange 20 30]))) = [] /\
  map fst (sreach (tl_spec ltb) [] [TPut 10 1; TRemoveRange 20 30]) = [10] /\
  map fst (elems (top (sreach (tl_step cmp) new [TPut 10 1; TPut 25 1; TTrim 20 30]))) = [10; 25] /\
  map fst (sreach (tl_spec ltb) [] [TPut 10 1; TPut 25 1; TTrim 20 30]) = [25].
Proof. exists Z.ltb, Z.sub. split; [exact ltb_weak|]. split; [exact sub_sign|]. vm_compute. auto. Qed.
Print Assumptions C61_treelist_range_refuted.

(** the hypotheses are met *)
Definition ex_ops : list (ix_op Z Z) :=
  [XPut 30 (Some 3); XPut 10 (Some 1); XPut 20 (Some 2); XPut 10 (Some 9); XUpsert 25 (Some 5); XRemove 20; XIndexOf 25; XRemoveRangeByIndex 0 0; XValues].
Example ex_C61 : (forall lo hi, ~ In (XRemoveRange lo hi) ex_ops /\ ~ In (XTrim lo hi) ex_ops) /\ trims_in_range Z.ltb [] ex_ops /\
  all_answered Z.ltb [] ex_ops /\
  srun (step Z.sub 2) E ex_ops = [XBool true; XBool true; XBool true; XBool false; XBool false; XVal (Some 2); XNum 1; XUnit; XVals [Some 5; Some 3]].
Proof.
  split; [|split; [|split]].
  - intros lo hi. split; cbn [ex_ops In]; intuition discriminate.
  - cbn. tauto.
  - cbn. tauto.
  - reflexivity.
Qed.
Definition ex_tops : list (tl_op Z Z) := [TPut 30 3; TPut 10 1; TPut 20 2; TRemoveHead; TIndexOf 30; TSlices].
Example ex_C61_treelist : no_key_ranges ex_tops /\ trims_inside Z.ltb [] ex_tops /\ ends_ok Z.ltb false [] ex_tops /\
  srun (tl_step Z.sub) new ex_tops = [TBool true; TBool true; TBool true; TSlice (Some (10, 1)); TNum 1; TSeen [(20, 2); (30, 3)]].
Proof.
  split; [|split; [|split]].
  - intros lo hi. split; cbn [ex_tops In]; intuition discriminate.
  - cbn. tauto.
  - cbn. tauto.
  - reflexivity.
Qed.
