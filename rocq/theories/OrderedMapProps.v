(** map/orderedmap.go: a finite sorted map (C35). *)
From Verif Require Import Base Bind Machine OrderSpec SMapSpec SMapFacts CompareModel AvlTree AvlSpec AvlModel AvlIterModel IndexSpec IndexModel
  IndexProofs IndexProps IndexIterSpec IndexIterModel IndexIterProofs IndexIterProps OrderedMapSpec OrderedMapModel.
Local Open Scope Z_scope.

Section Props.
  Context {K A : Type} (ltb : K -> K -> bool) (W : weak_order ltb) (cmp : K -> K -> Z) (Hcmp : plain_cmp ltb cmp)
          (shift : Z) (Hsh : 0 <= shift) (zk : K) (zv : option A).
  Notation entries := (list (K * option A)).
  Notation OS := (om_spec ltb zk zv).
  Notation OM := (omstep cmp shift zk zv).

  Lemma castAll_ok (l : list (option A)) : (forall v, In v l -> v <> None) -> castAll l = Some l.
  Proof.
    induction l as [|[a|] l IH]; intros H; [reflexivity| |].
    - cbn. rewrite IH by (intros v Hv; apply H; right; exact Hv). reflexivity.
    - destruct (H None (or_introl eq_refl) eq_refl).
  Qed.

  Lemma om_step_ok t (m : entries) o : XRel ltb t m ->
    XRel ltb (fst (OM t o)) (fst (OS m o)) /\ (plain ltb m o -> snd (OM t o) = snd (OS m o)).
  Proof.
    intros HR.
    assert (S : forall x, trim_in_range m x -> XRel ltb (fst (step cmp shift t x)) (fst (ix_spec ltb m x)) /\
      (answered ltb m x -> snd (step cmp shift t x) = snd (ix_spec ltb m x))).
    { intros x Hx. apply step_ok; auto. }
    assert (Hlen : getSize t = len m).
    { destruct (S XSize I) as (_ & X). specialize (X I). cbn [step ix_spec snd] in X. injection X as X. exact X. }
    assert (Hcast : forall v : option A, v <> None -> cast v = Some v) by (intros [v|] H; [reflexivity|congruence]).
    destruct o as [k v|k v|k v|k v|k|k|k|k| | | |k|i|i| | |]; unfold omstep; cbn [om_spec plain].
    - destruct (S (XPut k v) I) as (X & Y). specialize (Y I). cbn [ix_spec] in X, Y.
      destruct (step cmp shift t (XPut k v)) as [t' r]. cbn [fst snd] in *.
      destruct (sames ltb k m); cbn [fst snd] in *; (split; [exact X|]); intros _; rewrite Y; reflexivity.
    - destruct (S (XInsertIfAbsent k v) I) as (X & Y). specialize (Y I). cbn [ix_spec] in X, Y.
      destruct (step cmp shift t (XInsertIfAbsent k v)) as [t' r]. cbn [fst snd] in *.
      destruct (sames ltb k m); cbn [fst snd] in *; (split; [exact X|]); intros _; rewrite Y; reflexivity.
    - destruct (S (XSet k v) I) as (X & Y). cbn [ix_spec answered] in X, Y.
      destruct (step cmp shift t (XSet k v)) as [t' r]. cbn [fst snd] in *. split; [exact X|].
      intros Hm. rewrite (Y Hm). reflexivity.
    - destruct (S (XUpsert k v) I) as (X & Y). specialize (Y I). cbn [ix_spec] in X, Y.
      destruct (step cmp shift t (XUpsert k v)) as [t' r]. cbn [fst snd] in *.
      destruct (sames ltb k m) as [|[k0 v0] s]; cbn [fst snd] in *; (split; [exact X|]); intros _; rewrite Y; reflexivity.
    - destruct (S (XGet k) I) as (X & Y). specialize (Y I). cbn [ix_spec] in X, Y.
      destruct (step cmp shift t (XGet k)) as [t' r]. cbn [fst snd] in *. split; [exact X|]. intros Hn. rewrite Y.
      destruct (sames ltb k m) as [|[k0 v0] s]; cbn [negb]; [reflexivity|].
      rewrite Hcast by exact (Hn _ (or_introl eq_refl)). reflexivity.
    - destruct (S (XRemove k) I) as (X & Y). specialize (Y I). cbn [ix_spec] in X, Y.
      destruct (step cmp shift t (XRemove k)) as [t' r]. cbn [fst snd] in *. split; [exact X|]. intros Hn. rewrite Y.
      destruct (sames ltb k m) as [|[k0 [v0|]] s]; cbn [negb]; [reflexivity|reflexivity|].
      destruct (Hn _ (or_introl eq_refl) eq_refl).
    - destruct (S (XDelete k) I) as (X & Y). cbn [ix_spec answered] in X, Y.
      destruct (step cmp shift t (XDelete k)) as [t' r]. cbn [fst snd] in *. split; [exact X|]. intros Hn. rewrite Y.
      2:{ intros e He Hs. apply (Hn e). unfold sames. apply filter_In. auto. }
      destruct (sames ltb k m) as [|[k0 v0] s]; cbn [negb]; [reflexivity|].
      rewrite Hcast by exact (Hn _ (or_introl eq_refl)). reflexivity.
    - destruct (S (XGet k) I) as (X & Y). specialize (Y I). cbn [ix_spec] in X, Y.
      destruct (step cmp shift t (XGet k)) as [t' r]. cbn [fst snd] in *. split; [exact X|]. intros _. rewrite Y.
      destruct (sames ltb k m) as [|[k0 v0] s]; reflexivity.
    - split; [exact HR|]. intros _. cbn [step snd]. rewrite Hlen. reflexivity.
    - split; [exact HR|]. intros _. cbn [step snd]. rewrite Hlen. reflexivity.
    - split; [exact HR|]. intros _. cbn [step snd]. rewrite Hlen. unfold len. destruct m; reflexivity.
    - destruct (S (XIndexOf k) I) as (X & Y). specialize (Y I). cbn [ix_spec] in X, Y.
      destruct (step cmp shift t (XIndexOf k)) as [t' r]. cbn [fst snd] in *. split; [exact X|]. intros _. rewrite Y. reflexivity.
    - destruct (S (XIndex i) I) as (X & Y). specialize (Y I). cbn [ix_spec] in X, Y.
      destruct (step cmp shift t (XIndex i)) as [t' r]. cbn [fst snd] in *. split; [exact X|]. intros Hn. rewrite Y.
      destruct (entry_at m (Some i)) as [e|]; [|reflexivity]. rewrite Hcast by exact (Hn _ eq_refl). reflexivity.
    - rewrite Hlen. destruct (S (XRemoveIndex i) I) as (X & Y). specialize (Y I). cbn [ix_spec] in X, Y.
      destruct (S (XIndex i) I) as (_ & Z). specialize (Z I). cbn [ix_spec snd] in Z. rewrite Z.
      destruct ((i <? 0) || (len m <=? i)) eqn:B.
      + assert (N : entry_at m (Some i) = None).
        { cbn [entry_at]. apply orb_true_iff in B. rewrite Z.ltb_lt, Z.leb_le in B.
          replace ((0 <=? i) && (i <? len m)) with false; [reflexivity|]. symmetry. rewrite andb_false_iff, Z.leb_gt, Z.ltb_ge. lia. }
        rewrite N. split; [exact HR|reflexivity].
      + assert (N : exists e, entry_at m (Some i) = Some e).
        { cbn [entry_at]. apply orb_false_iff in B. rewrite Z.ltb_ge, Z.leb_gt in B.
          replace ((0 <=? i) && (i <? len m)) with true by (symmetry; rewrite andb_true_iff, Z.leb_le, Z.ltb_lt; lia).
          unfold len in B. destruct (nth_error m (Z.to_nat i)) as [e|] eqn:E; [eauto|]. apply nth_error_None in E. lia. }
        destruct N as (e & N). rewrite N in *. destruct (step cmp shift t (XRemoveIndex i)) as [t' r]. cbn [fst snd] in *.
        split; [exact X|]. intros Hn. rewrite Y, Hcast by exact (Hn _ eq_refl). reflexivity.
    - destruct (S (XTraverse (fun _ => true)) I) as (X & Y). specialize (Y I). cbn [ix_spec] in X, Y.
      destruct (step cmp shift t (XTraverse (fun _ => true))) as [t' r]. cbn [fst snd] in *. split; [exact X|]. intros _. rewrite Y.
      exact (f_equal (fun l => OKs (map fst l)) (visit_all _ [])).
    - destruct (S (XTraverse (fun _ => true)) I) as (X & Y). specialize (Y I). cbn [ix_spec] in X, Y.
      destruct (step cmp shift t (XTraverse (fun _ => true))) as [t' r]. cbn [fst snd] in *. split; [exact X|]. intros Hn.
      assert (Y' : r = XSeen m) by (rewrite Y; exact (f_equal XSeen (visit_all _ []))). rewrite Y'. rewrite castAll_ok; [reflexivity|]. intros v Hv. apply in_map_iff in Hv. destruct Hv as (e & <- & He).
      exact (Hn e He).
    - split; [apply xrel_new|reflexivity].
  Qed.

  Lemma om_run_ok ops : forall t m, XRel ltb t m ->
    XRel ltb (sreach OM t ops) (sreach OS m ops) /\ (all_plain ltb zk zv m ops -> srun OM t ops = srun OS m ops).
  Proof.
    induction ops as [|o ops IH]; intros t m HR; cbn [sreach srun all_plain]; [auto|].
    destruct (om_step_ok t m o HR) as (X & Y). destruct (IH _ _ X) as (X2 & Y2).
    destruct (OM t o) as [t' r]. destruct (OS m o) as [m' r']. cbn [fst snd] in *. split; [exact X2|].
    intros (P1 & P2). rewrite (Y P1), (Y2 P2). reflexivity.
  Qed.

  (** Every answer is the one the sorted list of entries gives.  Full statement: for all [ops].  Missing ([all_plain]): calls that
      hand out a nil value, and Set on an empty map; see the refutations below. *)
  Theorem C35_ordered_map_partial (ops : list (om_op K A)) :
    all_plain ltb zk zv [] ops -> srun OM E ops = srun OS [] ops.
  Proof. apply om_run_ok, xrel_new. Qed.

  (** Whatever it answers, the content is right, and in order; nil values are stored like others. *)
  Theorem C35_content (ops : list (om_op K A)) :
    elems (sreach OM E ops) = sreach OS [] ops /\ strictly_sorted ltb (sreach OS [] ops).
  Proof. destruct (om_run_ok ops E [] (xrel_new ltb)) as ((E1 & _ & E2) & _). auto. Qed.

  (** No operation on a map whose value type is not an interface type, or into which no nil was put, hands out nil. *)
  Definition puts_value (o : om_op K A) : Prop :=
    match o with OPut _ v | OInsertIfAbsent _ v | OSet _ v | OUpsert _ v => v <> None | _ => True end.
  Lemma no_nil_kept (m : entries) o : no_nil m -> puts_value o -> no_nil (fst (OS m o)).
  Proof.
    intros Hm Hv.
    assert (F : forall k, no_nil (before ltb k m) /\ no_nil (after ltb k m)).
    { intros k. split; intros e He; apply Hm; (eapply proj1, filter_In, He). }
    assert (Wr : forall k k' (v : option A), v <> None -> no_nil (write ltb k (k', v) m)).
    { intros k k' v Hn e He. unfold write in He. rewrite in_app_iff in He. destruct He as [He|[<-|He]];
        [apply (proj1 (F k)); exact He|exact Hn|apply (proj2 (F k)); exact He]. }
    assert (Er : forall k, no_nil (erase ltb k m)).
    { intros k e He. unfold erase in He. rewrite in_app_iff in He. destruct He as [He|He];
        [apply (proj1 (F k)); exact He|apply (proj2 (F k)); exact He]. }
    destruct o; cbn [om_spec puts_value] in *; try exact Hm; try (apply Wr; exact Hv); try apply Er.
    - destruct (sames ltb k m); [apply Wr; exact Hv|exact Hm].
    - destruct (sames ltb k m); [apply Wr; exact Hv|exact Hm].
    - destruct (sames ltb k m) as [|[k0 v0] s]; apply Wr; exact Hv.
    - destruct (entry_at m (Some i)); [|exact Hm]. intros e He. apply Hm. cbn [fst] in He. rewrite in_app_iff in He.
      destruct He as [He|He]; [rewrite <- (firstn_skipn (Z.to_nat i) m)|rewrite <- (firstn_skipn (Z.to_nat (i + 1)) m)]; apply in_or_app; auto.
    - intros e [].
  Qed.
  Theorem C35_concrete_values_partial (ops : list (om_op K A)) :
    (forall o, In o ops -> puts_value o) -> (forall k v, ~ In (OSet k v) ops) -> srun OM E ops = srun OS [] ops.
  Proof.
    intros H1 H2. apply C35_ordered_map_partial. assert (Hm : no_nil (@nil (K * option A))) by intros e [].
    revert H1 H2 Hm. generalize (@nil (K * option A)). induction ops as [|o ops IH]; intros m H1 H2 Hm; cbn [all_plain]; [exact I|].
    split.
    - destruct o as [k v|k v|k v|k v|k|k|k|k| | | |k|i|i| | |]; cbn [plain]; auto.
      + destruct (H2 k v (or_introl eq_refl)).
      + intros e He. apply filter_In in He. apply Hm. tauto.
      + intros e He. apply filter_In in He. apply Hm. tauto.
      + intros e He. apply filter_In in He. apply Hm. tauto.
      + intros e He. cbn [entry_at] in He. destruct (_ && _) in He; [|discriminate]. apply nth_error_In in He. exact (Hm e He).
      + intros e He. cbn [entry_at] in He. destruct (_ && _) in He; [|discriminate]. apply nth_error_In in He. exact (Hm e He).
    - apply IH; [intros o' Ho; apply H1; right; exact Ho|intros k v Hk; apply (H2 k v); right; exact Hk|].
      apply no_nil_kept; [exact Hm|apply H1; left; reflexivity].
  Qed.

  (** The iterator of a map: a cursor over the sorted entries.  Full statement: for all maps and all calls.  Missing: the calls
      the index tree's iterator gets wrong ([plain_calls]), trees with more than 128 levels, and maps with nil values. *)
  Definition unnil (r : xi_out K (option A)) : xi_out K (option A) := match r with XO (CV None) => XO CPanic | _ => r end.
  Lemma oi_run ops : forall x, run (oi_step cmp) x ops = option_map (map unnil) (run (xi_step cmp) x ops).
  Proof.
    induction ops as [|o ops IH]; intros x; cbn [run option_map map]; [reflexivity|].
    unfold oi_step. destruct (xi_step cmp x o) as [[x' r]|]; [|reflexivity]. cbv beta iota. fold (@oi_step K A cmp).
    rewrite IH. destruct (run (xi_step cmp) x' ops) as [rs|]; [|reflexivity]. cbn [option_map map]. do 2 f_equal.
    destruct r as [[| | | [v|] |]|]; reflexivity.
  Qed.
  Theorem C35_iterator_partial (ops : list (om_op K A)) cops :
    let t := sreach OM E ops in
    let m := sreach OS [] ops in
    ht t <= 128 -> no_nil m -> plain_calls ltb m None true false cops ->
    run (oi_step cmp) (XIT (inew (AVL t 0)) 0) cops = Some (srun (xi_spec ltb m) None cops).
  Proof.
    intros t m H2 Hn H3. destruct (om_run_ok ops E [] (xrel_new ltb)) as ((Ee & Ht & Hs) & _). fold t in Ee, Ht. fold m in Ee, Hs.
    rewrite oi_run. rewrite <- Ee in H3, Hs, Hn |- *. pose proof (xi_new_ok ltb W cmp Hcmp (AVL t 0) Ht H2 Hs cops H3) as X.
    cbn [AvlModel.root] in X. rewrite X. cbn [option_map]. f_equal. clear H3 X. generalize (@None Z).
    induction cops as [|o cops IH]; intros p; [reflexivity|]. cbn [srun map]. destruct (xi_spec ltb (elems t) p o) as [p' r] eqn:E1.
    cbn [map]. rewrite IH. f_equal.
    assert (G : r <> XO (CV None)).
    { intros ->. destruct o as [o| |]; cbn [xi_spec] in E1; [|discriminate|discriminate].
      destruct (cursor_spec ltb true (elems t) p o) as [q c] eqn:E2. injection E1 as _ ->.
      destruct o; cbn [cursor_spec] in E2; unfold found in E2; try discriminate.
      - destruct (entry_at (elems t) p); discriminate.
      - destruct (entry_at (elems t) p) as [e|] eqn:E3; [|discriminate]. injection E2 as _ E2. apply (Hn e); [|exact E2].
        unfold entry_at in E3. destruct p as [i|]; [|discriminate]. destruct (_ && _) in E3; [|discriminate]. eapply nth_error_In, E3. }
    destruct r as [[| | | [v|] |]|]; try reflexivity. congruence.
  Qed.
End Props.
Print Assumptions C35_ordered_map_partial.
Print Assumptions C35_content.
Print Assumptions C35_concrete_values_partial.
Print Assumptions C35_iterator_partial.

(** ** where the code does something else *)
Notation zom := (srun (omstep any 2 0 (@None Z)) E).
Notation zos := (srun (om_spec Z.ltb 0 (@None Z)) []).
(** With an interface type for the values: Get of a key holding nil panics, *)
Theorem C35_get_nil_refuted : exists ops k, zom (ops ++ [OGet k]) = zos ops ++ [OPanic] /\ zos (ops ++ [OGet k]) = zos ops ++ [OFound None true].
Proof. exists [OPut 1 (Some 7); OPut 2 None], 2. vm_compute. split; reflexivity. Qed.
(** Remove and Delete take it out and say that it was not there, *)
Theorem C35_remove_nil_refuted : exists ops k, zom (ops ++ [ORemove k; OContains k]) = zos ops ++ [OFound None false; OBool false] /\
  zos (ops ++ [ORemove k; OContains k]) = zos ops ++ [OFound None true; OBool false].
Proof. exists [OPut 1 (Some 7); OPut 2 None], 2. vm_compute. split; reflexivity. Qed.
Theorem C35_delete_nil_refuted : exists ops k, zom (ops ++ [ODelete k; OContains k]) = zos ops ++ [OFound None false; OBool false] /\
  zos (ops ++ [ODelete k; OContains k]) = zos ops ++ [OFound None true; OBool false].
Proof. exists [OPut 1 (Some 7); OPut 2 None], 2. vm_compute. split; reflexivity. Qed.
(** Index and Values panic, and RemoveIndex panics after removing. *)
Theorem C35_values_nil_refuted : exists ops, zom (ops ++ [OValues; OIndex 1]) = zos ops ++ [OPanic; OPanic] /\
  zos (ops ++ [OValues; OIndex 1]) = zos ops ++ [OVs [Some 7; None]; OKV 2 None].
Proof. exists [OPut 1 (Some 7); OPut 2 None]. vm_compute. split; reflexivity. Qed.
Theorem C35_remove_index_nil_refuted : exists ops, zom (ops ++ [ORemoveIndex 1; OSize]) = zos ops ++ [OPanic; ONum 1] /\
  zos (ops ++ [ORemoveIndex 1; OSize]) = zos ops ++ [OTaken 2 None true; ONum 1].
Proof. exists [OPut 1 (Some 7); OPut 2 None]. vm_compute. split; reflexivity. Qed.
(** Whatever the value type: Set on an empty map says that it replaced a value. *)
Theorem C35_set_on_empty_refuted : exists k v, zom [OContains k; OSet k (Some v)] = [OBool false; OBool true] /\
  zos [OContains k; OSet k (Some v)] = [OBool false; OBool false].
Proof. exists 1, 7. vm_compute. split; reflexivity. Qed.
Print Assumptions C35_get_nil_refuted.
Print Assumptions C35_remove_nil_refuted.
Print Assumptions C35_delete_nil_refuted.
Print Assumptions C35_values_nil_refuted.
Print Assumptions C35_remove_index_nil_refuted.
Print Assumptions C35_set_on_empty_refuted.

(** ** examples *)
Definition om_example : list (om_op Z Z) :=
  [OPut 5 (Some 50); OSet 2 (Some 20); OSet 5 (Some 51); OUpsert 2 (Some 21); OUpsert 9 (Some 90); OInsertIfAbsent 9 (Some 99);
   OGet 9; OGet 4; OPut 7 None; OContains 7; OKeys; OIndexOf 7; OIndex 3; OPut 7 (Some 70); OUpsert 7 (Some 71); ORemoveIndex 7; OValues; ORemove 5; ODelete 5; OSize].
Example C35_ordered_map_ex : all_plain Z.ltb 0 None [] om_example /\
  zos om_example = [OBool true; OBool false; OBool true; OBool true; OBool false; OBool false; OFound (Some 90) true; OFound None false;
    OBool true; OBool true; OKs [2; 5; 7; 9]; ONum 2; OKV 9 (Some 90); OBool false; OBool true; OTaken 0 None false;
    OVs [Some 21; Some 51; Some 71; Some 90]; OFound (Some 51) true; OFound None false; ONum 3].
Proof.
  split; [|vm_compute; reflexivity]. unfold om_example. cbn [all_plain plain].
  repeat match goal with |- _ /\ _ => split end;
  first [exact I | intros H; vm_compute in H; discriminate H
        | intros e H; vm_compute in H; first [injection H as <-; vm_compute; discriminate | discriminate H]
        | intros e H; vm_compute in H; repeat (destruct H as [<-|H]; [discriminate|]); destruct H].
Qed.
Example C35_ordered_map_run : zom om_example = zos om_example.
Proof. apply (C35_ordered_map_partial Z.ltb Zltb_weak any any_plain 2 ltac:(lia)). exact (proj1 C35_ordered_map_ex). Qed.
Example C35_iterator_ex : run (oi_step any) (XIT (inew (AVL (sreach (omstep any 2 0 (@None Z)) E om_example) 0)) 0)
  [XI CFirst; XI CNext; XI CValue; XIRank; XI (CGE 8); XI CKey] =
  Some [XO CUnit; XO CUnit; XO (CV (Some 71)); XORank 1; XO (CBool false); XO (CK 9)].
Proof. vm_compute. reflexivity. Qed.
Example C35_iterator_hyps : let m := sreach (om_spec Z.ltb 0 (@None Z)) [] om_example in
  no_nil m /\ plain_calls Z.ltb m None true false [XI CFirst; XI CNext; XI CValue; XIRank; XI (CGE 8); XI CKey] /\
  ht (sreach (omstep any 2 0 (@None Z)) E om_example) <= 128.
Proof.
  vm_compute. repeat match goal with |- _ /\ _ => split end; try discriminate; try reflexivity; try exact I.
  intros e [<-|[<-|[<-|[]]]]; discriminate.
Qed.
