(** tree/indextree: a sorted map (C30) with exact ranks (C31), range removal (C32) and splitting (C33). *)
From Verif Require Import Base Bind Machine OrderSpec SMapSpec SMapFacts CompareModel AvlTree AvlSpec IndexSpec IndexModel IndexProofs.
Local Open Scope Z_scope.

Section Props.
  Context {K A : Type} (ltb : K -> K -> bool) (W : weak_order ltb) (cmp : K -> K -> Z) (Hcmp : plain_cmp ltb cmp)
          (shift : Z) (Hsh : 0 <= shift).
  Notation grown ops := (sreach (step cmp shift) (@E K (option A)) ops).
  Notation content ops := (sreach (ix_spec ltb) (@nil (K * option A)) ops).

  (** Every answer is the one the sorted list of entries gives.  Full statement: for all [ops].  Missing: the calls that
      answer otherwise ([all_answered]: Set and Split on an empty tree, Delete of a nil value) and those that fail half way
      ([trims_in_range]); see the refutations below. *)
  Theorem C30_indextree_sorted_map_partial (ops : list (ix_op K A)) :
    trims_in_range ltb [] ops -> all_answered ltb [] ops ->
    srun (step cmp shift) E ops = srun (ix_spec ltb) [] ops.
  Proof. intros H1 H2. apply (xrun_ok ltb W cmp Hcmp shift Hsh ops E [] (xrel_new ltb) H1). exact H2. Qed.

  (** Whatever it answers, the content is right, and in order. *)
  Theorem C30_indextree_content (ops : list (ix_op K A)) : trims_in_range ltb [] ops ->
    elems (grown ops) = content ops /\ strictly_sorted ltb (content ops).
  Proof. intros H1. destruct (xrun_ok ltb W cmp Hcmp shift Hsh ops E [] (xrel_new ltb) H1) as ((E1 & _ & E2) & _). auto. Qed.

  (** Full statement: after all [ops].  Missing: after a TrimByIndex that panicked half way. *)
  Theorem C31_sizes_exact_partial (ops : list (ix_op K A)) : trims_in_range ltb [] ops -> sized (grown ops).
  Proof. intros H1. destruct (xrun_ok ltb W cmp Hcmp shift Hsh ops E [] (xrel_new ltb) H1) as ((_ & E1 & _) & _). auto. Qed.

  (** In a tree with these entries in this order ... *)
  Section Ranks.
    Context (ops : list (ix_op K A)) (Hops : trims_in_range ltb [] ops).
    Notation t := (grown ops).
    Notation m := (content ops).
    Lemma grown_ok : XRel ltb t m.
    Proof. apply (xrun_ok ltb W cmp Hcmp shift Hsh ops E [] (xrel_new ltb) Hops). Qed.

    (** Index finds exactly the positions there are, and there the entry with that many entries before it *)
    Theorem C31_index i : (exists a x b, m = a ++ x :: b /\ Z.of_nat (length a) = i /\ index i t = Some x) \/
      (~ 0 <= i < Z.of_nat (length m) /\ index i t = None).
    Proof.
      destruct grown_ok as (Ee & Ht & _). rewrite index_ok, Ee by exact Ht.
      destruct (Z_le_gt_dec 0 i); [destruct (Z_lt_ge_dec i (len m))|].
      - left. rewrite entry_at_in by lia. unfold len in *.
        destruct (nth_error m (Z.to_nat i)) as [x|] eqn:E1; [|apply nth_error_None in E1; lia].
        destruct (nth_error_split _ _ E1) as (a & b & E2 & E3). exists a, x, b. split; [exact E2|]. split; [lia|reflexivity].
      - right. rewrite entry_at_none by lia. unfold len in *. split; [lia|reflexivity].
      - right. rewrite entry_at_none by lia. split; [lia|reflexivity].
    Qed.

    (** IndexOf: as many entries come before as have a smaller key *)
    Theorem C31_index_of k :
      (forall a x b, m = a ++ x :: b -> same ltb (fst x) k = true -> IndexOf cmp k t = Z.of_nat (length a)) /\
      ((forall x, In x m -> same ltb (fst x) k = false) -> IndexOf cmp k t = -1).
    Proof.
      destruct grown_ok as (Ee & Ht & Hs). pose proof Hs as Hs'. rewrite <- Ee in Hs'.
      pose proof (indexOfLoop_ok ltb W cmp Hcmp k t 0 Hs' Ht) as X. rewrite !Z.add_0_l, Ee in X. unfold IndexOf. rewrite X. split.
      - intros a x b Em Hx. rewrite Em in *. destruct (cut_same_strict ltb W a x b k Hx Hs) as (-> & -> & _). reflexivity.
      - intros H. unfold sames. rewrite filter_none by exact H. reflexivity.
    Qed.

    (** RemoveIndex takes out exactly that entry, and panics, changing nothing, where there is none *)
    Theorem C31_remove_index i : (exists a x b t', m = a ++ x :: b /\ Z.of_nat (length a) = i /\
        RemoveIndex i t = Some (t', snd x) /\ elems t' = a ++ b /\ sized t') \/
      (~ 0 <= i < Z.of_nat (length m) /\ RemoveIndex i t = None).
    Proof.
      destruct grown_ok as (Ee & Ht & _). pose proof (removeIndexLoop_ok i t 0 Ht) as X.
      rewrite Z.add_0_l, Z.sub_0_r, Ee in X. unfold RemoveIndex.
      destruct (Z_le_gt_dec 0 i); [destruct (Z_lt_ge_dec i (len m))|].
      - left. rewrite entry_at_in in X by lia. unfold len in *.
        destruct (nth_error m (Z.to_nat i)) as [x|] eqn:E1; [|apply nth_error_None in E1; lia].
        destruct (nth_error_split _ _ E1) as (a & b & E2 & E3). destruct X as (t' & X1 & X2 & X3).
        exists a, x, b, t'. split; [exact E2|]. split; [lia|]. split; [exact X1|]. split; [|exact X3].
        rewrite X2, E2, firstn_left, skipn_right by lia. rewrite firstn_all2 by lia. replace (Z.to_nat _) with 0%nat by lia. reflexivity.
      - right. rewrite entry_at_none in X by lia. unfold len in *. split; [lia|exact X].
      - right. rewrite entry_at_none in X by lia. split; [lia|exact X].
    Qed.

    (** RemoveRange removes exactly the keys from lo to hi *)
    Theorem C32_remove_range lo hi :
      (ltb hi lo = true -> RemoveRange cmp lo hi t = None) /\
      (ltb hi lo = false -> exists t', RemoveRange cmp lo hi t = Some t' /\ sized t' /\
         elems t' = filter (fun e => ltb (fst e) lo || ltb hi (fst e)) m).
    Proof.
      pose proof (step_ok ltb W cmp Hcmp shift Hsh t m (XRemoveRange lo hi) grown_ok I) as ((E1 & E2 & _) & E3).
      specialize (E3 I). cbn [step ix_spec] in *. destruct (ltb hi lo).
      - split; [|discriminate]. destruct (RemoveRange cmp lo hi t); [discriminate E3|reflexivity].
      - split; [discriminate|]. destruct (RemoveRange cmp lo hi t) as [t'|]; [|discriminate E3]. cbn [orPanic fst snd] in *.
        exists t'. split; [reflexivity|]. split; [exact E2|]. rewrite E1. apply filter_eq. intros x _. unfold within.
        rewrite negb_andb, !negb_involutive. reflexivity.
    Qed.

    (** RemoveRangeByIndex removes exactly the entries at positions i to j, as far as there are any *)
    Theorem C32_remove_range_by_index i j a b c : m = a ++ b ++ c -> b <> [] ->
      (i = Z.of_nat (length a) \/ (i < 0 /\ a = [])) ->
      (j = Z.of_nat (length a + length b) - 1 \/ (Z.of_nat (length m) <= j /\ c = [])) ->
      exists t', RemoveRangeByIndex i j t = Some t' /\ elems t' = a ++ c /\ sized t'.
    Proof.
      intros Em Hb Hi Hj. assert (Lb : (0 < length b)%nat) by (destruct b; [congruence|cbn [length]; lia]).
      assert (Lm : length m = (length a + length b + length c)%nat) by (rewrite Em, !app_length; lia).
      assert (Hij : i <= j) by (destruct Hi as [Hi|(Hi & ->)], Hj as [Hj|(Hj & ->)]; cbn [length] in *; lia).
      pose proof (step_ok ltb W cmp Hcmp shift Hsh t m (XRemoveRangeByIndex i j) grown_ok I) as ((E1 & E2 & _) & E3).
      specialize (E3 I). cbn [step ix_spec] in *.
      replace (j <? i) with false in * by (symmetry; apply Z.ltb_ge; lia).
      replace ((j <? 0) || (len m <=? i) || (len m =? 0)) with false in *.
      2:{ unfold len. rewrite Lm. symmetry. rewrite !orb_false_iff, Z.ltb_ge, Z.leb_gt, Z.eqb_neq.
          destruct Hi as [Hi|(Hi & ->)], Hj as [Hj|(Hj & ->)]; cbn [length] in *; lia. }
      destruct (RemoveRangeByIndex i j t) as [t'|]; [|discriminate E3]. cbn [orPanic fst snd] in *.
      exists t'. split; [reflexivity|]. split; [|exact E2]. rewrite E1. unfold outside. rewrite Em. f_equal.
      - destruct Hi as [->|(Hi & ->)]; [rewrite Nat2Z.id, firstn_app, Nat.sub_diag, firstn_all; apply app_nil_r|].
        replace (Z.to_nat i) with 0%nat by lia. reflexivity.
      - rewrite app_assoc, skipn_app. destruct Hj as [->|(Hj & ->)].
        + rewrite skipn_all2 by (rewrite app_length; lia). cbn [app].
          replace (Z.to_nat _ - _)%nat with 0%nat by (rewrite app_length; lia). reflexivity.
        + rewrite skipn_nil, app_nil_r. apply skipn_all2. rewrite app_length. lia.
    Qed.

    (** Trim keeps exactly the keys from lo to hi *)
    Theorem C32_trim lo hi :
      (ltb hi lo = true -> Trim cmp lo hi t = None) /\
      (ltb hi lo = false -> exists t', Trim cmp lo hi t = Some t' /\ sized t' /\
         elems t' = filter (fun e => negb (ltb (fst e) lo) && negb (ltb hi (fst e))) m).
    Proof.
      pose proof (step_ok ltb W cmp Hcmp shift Hsh t m (XTrim lo hi) grown_ok I) as ((E1 & E2 & _) & E3).
      specialize (E3 I). cbn [step ix_spec] in *. destruct (ltb hi lo).
      - split; [|discriminate]. destruct (Trim cmp lo hi t); [discriminate E3|reflexivity].
      - split; [discriminate|]. destruct (Trim cmp lo hi t) as [t'|]; [|discriminate E3]. cbn [orPanic fst snd] in *.
        exists t'. split; [reflexivity|]. split; [exact E2|exact E1].
    Qed.

    (** TrimByIndex keeps exactly the entries at positions i to j.  Full statement: for all bounds, panicking and changing
        nothing when there are no such positions.  Missing: bounds with only i in the tree, see the refutation. *)
    Theorem C32_trim_by_index_partial a b c : m = a ++ b ++ c -> b <> [] ->
      exists t', TrimByIndex (Z.of_nat (length a)) (Z.of_nat (length a + length b) - 1) t = (t', true) /\ elems t' = b /\ sized t'.
    Proof.
      intros Em Hb. assert (Lb : (0 < length b)%nat) by (destruct b; [congruence|cbn [length]; lia]).
      assert (Lm : len m = Z.of_nat (length a + length b + length c)) by (unfold len; rewrite Em, !app_length; lia).
      set (i := Z.of_nat (length a)). set (j := Z.of_nat (length a + length b) - 1).
      pose proof (step_ok ltb W cmp Hcmp shift Hsh t m (XTrimByIndex i j) grown_ok) as X.
      destruct X as ((E1 & E2 & _) & E3); [cbn [trim_in_range]; lia|]. specialize (E3 I). cbn [step ix_spec] in *.
      replace ((j <? i) || (i <? 0) || (len m <=? j)) with false in *.
      2:{ symmetry. rewrite !orb_false_iff, !Z.ltb_ge, Z.leb_gt. unfold i, j. lia. }
      destruct (TrimByIndex i j t) as [t' [|]]; [|discriminate E3]. cbn [fst snd] in *.
      exists t'. split; [reflexivity|]. split; [|exact E2]. rewrite E1. unfold from_to, i, j. rewrite Em, Nat2Z.id.
      rewrite skipn_app, skipn_all2, Nat.sub_diag by lia. cbn [app skipn]. replace (Z.to_nat _) with (length b) by lia.
      rewrite firstn_app, firstn_all, Nat.sub_diag. apply app_nil_r.
    Qed.

    (** Split leaves the smaller keys, SplitContain also the key itself; the rest is in the tree returned.  Full statement:
        for all trees.  Missing: the empty tree, for which no tree is returned. *)
    Theorem C33_split_partial (contain : bool) k : m <> [] ->
      exists a b, Split cmp contain k t = Some (a, b) /\ sized a /\ sized b /\
        elems a = filter (fun e => ltb (fst e) k || (contain && same ltb (fst e) k)) m /\
        elems b = filter (fun e => ltb k (fst e) || (negb contain && same ltb (fst e) k)) m.
    Proof.
      intros Hm. destruct grown_ok as (Ee & Ht & Hs). pose proof Hs as Hs'. rewrite <- Ee in Hs'.
      destruct (Split_ok ltb W cmp Hcmp contain k t Hs' Ht) as (a & b & E1 & E2 & E3 & E4 & E5).
      { intros X. apply Hm. rewrite <- Ee, X. reflexivity. }
      exists a, b. split; [exact E1|]. split; [exact E4|]. split; [exact E5|]. rewrite E2, E3, Ee. split; apply filter_eq; intros x _;
        unfold toLeft, same; destruct (ltb (fst x) k) eqn:X1, (ltb k (fst x)) eqn:X2, contain; auto;
        rewrite (lt_asym _ W _ _ X1) in X2; discriminate.
    Qed.
  End Ranks.
End Props.
Print Assumptions C30_indextree_sorted_map_partial.
Print Assumptions C30_indextree_content.
Print Assumptions C31_sizes_exact_partial.
Print Assumptions C31_index.
Print Assumptions C31_index_of.
Print Assumptions C31_remove_index.
Print Assumptions C32_remove_range.
Print Assumptions C32_remove_range_by_index.
Print Assumptions C32_trim.
Print Assumptions C32_trim_by_index_partial.
Print Assumptions C33_split_partial.

(** ** where the code answers something else *)
Lemma any_plain : plain_cmp Z.ltb any.
Proof. intros a b. unfold any. destruct (Z.ltb_spec b a), (Z.ltb_spec a b); auto; lia. Qed.
Notation zstep := (step (A := Z) any 2).
Notation zspec := (ix_spec (A := Z) Z.ltb).
Definition xputs (ks : list Z) : list (ix_op Z Z) := map (fun k => XPut k (Some k)) ks.

(** Set answers "replaced" for the first entry of an empty tree. *)
Theorem C30_set_on_empty_refuted : exists ops, trims_in_range Z.ltb [] ops /\ srun zstep E ops <> srun zspec [] ops.
Proof. exists [XSet 1 (Some 5)]. split; [cbn; auto|]. vm_compute. discriminate. Qed.
(** Delete says that a key with a nil value was not there - and removes it. *)
Theorem C30_delete_nil_refuted : exists ops, trims_in_range Z.ltb [] ops /\ srun zstep E ops <> srun zspec [] ops /\
  (forall o, In o ops -> match o with XSet _ _ | XSplit _ _ _ => False | _ => True end) /\
  srun zstep E ops = [XBool true; XFound None true; XFound None false; XNum 0].
Proof.
  exists [XPut 1 None; XGet 1; XDelete 1; XSize]. repeat split; try (cbn; auto; fail).
  - vm_compute. discriminate.
  - intros o [<-|[<-|[<-|[<-|[]]]]]; exact I.
Qed.
(** A TrimByIndex that panics because of its upper bound has already dropped entries ... *)
Theorem C32_trim_by_index_refuted : exists ks i j, 0 <= i <= j /\
  let t := sreach zstep E (xputs ks) in
  snd (TrimByIndex i j t) = false /\ elems (fst (TrimByIndex i j t)) <> elems t.
Proof. exists [1; 2; 3; 4; 5], 1, 9. split; [lia|]. split; [vm_compute; reflexivity|]. vm_compute. discriminate. Qed.
(** ... and left wrong sizes behind, so that Size is wrong from then on. *)
Theorem C31_sizes_exact_refuted : exists ks i j, 0 <= i <= j /\
  let t := fst (TrimByIndex i j (sreach zstep E (xputs ks))) in
  ~ sized t /\ getSize t = 7 /\ length (elems t) = 6%nat /\ index 6 t = None.
Proof.
  exists [1; 2; 3; 4; 5; 6; 7], 5, 9. split; [lia|]. cbv zeta. split; [|vm_compute; repeat split; reflexivity].
  set (t := fst _). assert (X : getSize t = 7 /\ length (elems t) = 6%nat) by (vm_compute; auto). intros Y.
  apply size_len in Y. unfold len in Y. lia.
Qed.
(** Splitting an empty tree returns no tree at all. *)
Theorem C33_split_empty_refuted : forall contain k, Split any contain k (@E Z (option Z)) = None.
Proof. reflexivity. Qed.
Print Assumptions C30_set_on_empty_refuted.
Print Assumptions C30_delete_nil_refuted.
Print Assumptions C32_trim_by_index_refuted.
Print Assumptions C31_sizes_exact_refuted.
Print Assumptions C33_split_empty_refuted.

(** ** examples *)
Definition ix_ops : list (ix_op Z Z) := xputs [5; 1; 9; 3; 7; 2; 8; 4; 6; 0] ++
  [XSet 3 None; XPut 3 (Some 33); XUpsert 11 (Some 1); XRemove 5; XRemove 5; XDelete 7; XGet 3; XIndex 3; XIndexOf 6; XIndexOf 5; XIndex 9;
   XRemoveIndex 0; XRemoveRange 3 6; XSize; XValues; XRemoveRangeByIndex 1 2; XTrim 2 20; XSplit false true 9; XPut 9 (Some 9); XValues;
   XTrimByIndex 0 0; XTraverse (fun _ => true)].
Example C30_case : trims_in_range Z.ltb [] ix_ops /\ all_answered Z.ltb [] ix_ops /\
  skipn 10 (srun zstep E ix_ops) =
  [XBool true; XBool false; XBool false; XVal (Some 5); XVal None; XFound (Some 7) true; XFound None true; XKV 3 None; XNum 5; XNum (-1);
   XPanic; XVal (Some 0); XUnit; XNum 5; XVals [Some 1; Some 2; Some 8; Some 9; Some 1]; XUnit; XUnit; XOther []; XBool false;
   XVals [Some 9; Some 1]; XUnit; XSeen [(9, Some 9)]].
Proof.
  split; [vm_compute; intuition congruence|]. split; [|vm_compute; reflexivity].
  vm_compute. repeat split; try congruence. intros e He Hs. repeat (destruct He as [<-|He]; [discriminate || congruence|]). destruct He.
Qed.
(** a tree in which single and double rotations and the merge of a removed range have taken place *)
Example C32_case : let ops := xputs (map Z.of_nat (seq 0 40) ++ map (fun i => - Z.of_nat i) (seq 1 20)) in
  let t := sreach zstep E ops in
  trims_in_range Z.ltb [] ops /\ (exists s k v l r, t = N s k v l r /\ s = 60 /\ l <> E /\ r <> E) /\
  option_map (fun t' => (getSize t', map fst (elems t'))) (RemoveRange any (-18) 37 t) = Some (4, [-20; -19; 38; 39]) /\
  option_map (fun t' => map fst (elems t')) (RemoveRangeByIndex 2 (100) t) = Some [-20; -19] /\
  option_map (fun t' => map fst (elems t')) (Trim any 12 14 t) = Some [12; 13; 14] /\
  map fst (elems (fst (TrimByIndex 57 59 t))) = [37; 38; 39].
Proof.
  cbv zeta. split; [vm_compute; intuition congruence|]. split; [eexists _, _, _, _, _; split; [vm_compute; reflexivity|]; repeat split; congruence|].
  vm_compute. repeat split; reflexivity.
Qed.
Example C33_case : let t := sreach zstep E (xputs [5; 1; 9; 3; 7; 2; 8; 4; 6; 0]) in
  option_map (fun p => (map fst (elems (fst p)), map fst (elems (snd p)))) (Split any false 6 t) = Some ([0; 1; 2; 3; 4; 5], [6; 7; 8; 9]) /\
  option_map (fun p => (map fst (elems (fst p)), map fst (elems (snd p)))) (Split any true 6 t) = Some ([0; 1; 2; 3; 4; 5; 6], [7; 8; 9]).
Proof. vm_compute. repeat split; reflexivity. Qed.
