(** tree/treelist: a sorted map whose nodes are threaded in order (C36), and its range operations (C37). *)
From Verif Require Import Base Bind Machine OrderSpec SMapSpec SMapFacts CompareModel AvlTree AvlSpec IndexSpec IndexModel IndexProofs IndexProps
  TreelistSpec TreelistModel TreelistLinks TreelistProofs TreelistSteps.
From Verif Require DeepProofs.
Local Open Scope Z_scope.

(** a thread visiting these entries in this order: nodes of the tree, neighbours linked both ways, the ends known *)
Definition threads {K V : Type} (s : TreelistModel.tl K V) (m : list (K * V)) : Prop :=
  exists l, linked (d (lks s)) (e (lks s)) l /\ map (fun x => slice x (top s)) l = map Some m.

Section Props.
  Context {K V : Type} (ltb : K -> K -> bool) (W : weak_order ltb) (cmp : K -> K -> Z) (Hcmp : plain_cmp ltb cmp).
  Notation grown ops := (sreach (tl_step cmp) (new (K := K) (V := V)) ops).
  Notation content ops := (sreach (tl_spec ltb) (@nil (K * V)) ops).
  Notation stale ops := (stale_run ltb false (@nil (K * V)) ops).

  (** no Put of these calls panics *)
  Definition puts_work (ops : list (tl_op K V)) : Prop :=
    forall ops1 o ops2, ops = ops1 ++ o :: ops2 -> ~ put_fails o (snd (tl_step cmp (grown ops1) o)).

  Lemma rel_start : TRel ltb false (new (K := K) (V := V)) [].
  Proof.
    unfold TRel, new. cbn [top lks fresh elems pk map ids sized]. split; [reflexivity|]. split; [exact I|]. split; [constructor|].
    split; [constructor|]. split; [intros x []|]. split; [|discriminate]. intros _. cbn [d e]. split; [reflexivity|]. split; [reflexivity|].
    intros a x b Eq. destruct a; discriminate.
  Qed.
  Lemma run_ok (ops : list (tl_op K V)) : forall st s m, TRel ltb st s m -> trims_inside ltb m ops ->
    (forall ops1 o ops2, ops = ops1 ++ o :: ops2 -> ~ put_fails o (snd (tl_step cmp (sreach (tl_step cmp) s ops1) o))) ->
    TRel ltb (stale_run ltb st m ops) (sreach (tl_step cmp) s ops) (sreach (tl_spec ltb) m ops) /\
    (ends_ok ltb st m ops -> srun (tl_step cmp) s ops = srun (tl_spec ltb) m ops).
  Proof.
    induction ops as [|o ops IH]; intros st s m HR Ht Hp; [cbn [stale_run sreach srun]; auto|]. destruct Ht as (Ht1 & Ht2).
    destruct (step_ok ltb W cmp Hcmp st s m o HR Ht1 (Hp [] o ops eq_refl)) as (X1 & X2).
    destruct (IH _ _ _ X1 Ht2) as (Y1 & Y2); [intros ops1 o1 ops2 ->; apply (Hp (o :: ops1) o1 ops2 eq_refl)|].
    cbn [stale_run sreach]. split; [exact Y1|]. intros (He1 & He2). specialize (X2 He1). specialize (Y2 He2).
    cbn [srun]. destruct (tl_step cmp s o), (tl_spec ltb m o). cbn [fst snd] in *. congruence.
  Qed.
  Lemma grown_rel ops : puts_work ops -> trims_inside ltb [] ops -> TRel ltb (stale ops) (grown ops) (content ops).
  Proof. intros Hp Ht. apply (run_ok ops false new [] rel_start Ht Hp). Qed.

  (** the calls before the first Put that panics *)
  Lemma first_failure (ops : list (tl_op K V)) : puts_work ops \/
    exists ops1 o ops2, ops = ops1 ++ o :: ops2 /\ puts_work ops1 /\ put_fails o (snd (tl_step cmp (grown ops1) o)).
  Proof.
    induction ops as [|o ops IH] using rev_ind; [left; intros [|? ?] o ops2 Eq; discriminate|].
    destruct IH as [IH|(ops1 & o1 & ops2 & -> & H1 & H2)]; [|right; exists ops1, o1, (ops2 ++ [o]); rewrite <- app_assoc; auto].
    assert (Hd : put_fails o (snd (tl_step cmp (grown ops) o)) \/ ~ put_fails o (snd (tl_step cmp (grown ops) o)))
      by (destruct o, (snd (tl_step cmp (grown ops) _)); cbn [put_fails]; auto).
    destruct Hd as [Hd|Hd]; [right; exists ops, o, []; auto|left]. intros ops1 o1 ops2 Eq.
    destruct (snoc_cases ops2) as [->|(ops3 & o2 & ->)].
    - apply app_inj_tail in Eq. destruct Eq as (-> & ->). exact Hd.
    - rewrite app_comm_cons, app_assoc in Eq. apply app_inj_tail in Eq. destruct Eq as (-> & _). apply (IH ops1 o1 ops3 eq_refl).
  Qed.
  Lemma trims_prefix ops1 ops2 : forall m : list (K * V), trims_inside ltb m (ops1 ++ ops2) -> trims_inside ltb m ops1.
  Proof. induction ops1 as [|o ops1 IH]; intros m; cbn [app trims_inside]; [auto|]. intros (H1 & H2). eauto. Qed.
  Lemma ends_prefix ops1 ops2 : forall st (m : list (K * V)), ends_ok ltb st m (ops1 ++ ops2) -> ends_ok ltb st m ops1.
  Proof. induction ops1 as [|o ops1 IH]; intros st m; cbn [app ends_ok]; [auto|]. intros (H1 & H2). eauto. Qed.

  (** Every answer is the one the sorted list of entries gives, until a Put panics, which happens at most in a tree of
      more than 63 levels.  Full statement: for all [ops], the first alternative.  Missing: the half-done TrimByIndex
      ([trims_inside]) and Head and Tail of a tree list emptied by Trim ([ends_ok]), which answer otherwise (refuted
      below), and trees of more than 63 levels. *)
  Theorem C36_tree_list_partial (ops : list (tl_op K V)) : trims_inside ltb [] ops -> ends_ok ltb false [] ops ->
    srun (tl_step cmp) new ops = srun (tl_spec ltb) [] ops \/
    exists ops1 o ops2, ops = ops1 ++ o :: ops2 /\ srun (tl_step cmp) new ops1 = srun (tl_spec ltb) [] ops1 /\
      63 < ht (top (grown ops1)) /\ put_fails o (snd (tl_step cmp (grown ops1) o)).
  Proof.
    intros Ht He. destruct (first_failure ops) as [Hp|(ops1 & o & ops2 & -> & H1 & H2)].
    - left. apply (run_ok ops false new [] rel_start Ht Hp). exact He.
    - right. exists ops1, o, ops2. split; auto. apply trims_prefix in Ht. apply ends_prefix in He.
      destruct (run_ok ops1 false new [] rel_start Ht H1) as (X1 & X2). split; [apply X2; exact He|]. split; [|exact H2].
      apply (step_low ltb W cmp Hcmp _ _ _ o X1 H2).
  Qed.

  Lemma ht_len (t : tree K (nat * V)) : ht t <= len (elems t).
  Proof.
    induction t as [|s k v l IHl r IHr]; cbn [ht elems]; [reflexivity|]. rewrite len_mid. pose proof (len_nonneg (elems l)). pose proof (len_nonneg (elems r)). lia.
  Qed.
  (** In particular as long as there are no more than 63 entries. *)
  Theorem C36_small_tree_list_partial (ops : list (tl_op K V)) : trims_inside ltb [] ops -> ends_ok ltb false [] ops ->
    (forall ops1 ops2, ops = ops1 ++ ops2 -> len (content ops1) <= 63) ->
    srun (tl_step cmp) new ops = srun (tl_spec ltb) [] ops.
  Proof.
    intros Ht He Hn. destruct (first_failure ops) as [Hp|(ops1 & o & ops2 & -> & H1 & H2)].
    - apply (run_ok ops false new [] rel_start Ht Hp). exact He.
    - exfalso. apply trims_prefix in Ht. pose proof (grown_rel ops1 H1 Ht) as HR.
      pose proof (step_low ltb W cmp Hcmp _ _ _ o HR H2) as X. destruct HR as (Y & _).
      specialize (Hn ops1 (o :: ops2) eq_refl). rewrite <- Y, pk_len in Hn. pose proof (ht_len (top (grown ops1))). unfold len in *. lia.
  Qed.

  Lemma rel_threads s (m : list (K * V)) : TRel ltb false s m -> threads s m.
  Proof.
    intros (E1 & _ & _ & E2 & _ & E3 & _). exists (ids (elems (top s))). split; [apply E3; reflexivity|]. rewrite <- E1.
    unfold pk, ids. rewrite !map_map. apply map_ext_in. intros [k [x v]] Hi. cbn [fst snd plainKV]. apply slice_ok; auto.
  Qed.

  (** The thread visits the entries in order.  Full statement: after all [ops].  Missing: as above. *)
  Theorem C36_thread_partial (ops : list (tl_op K V)) : puts_work ops -> trims_inside ltb [] ops ->
    strictly_sorted ltb (content ops) /\ map plainKV (elems (top (grown ops))) = content ops /\
    (stale ops = false -> threads (grown ops) (content ops)).
  Proof.
    intros Hp Ht. pose proof (grown_rel ops Hp Ht) as HR. pose proof HR as (E1 & _ & E2 & _). split; auto. split; auto.
    intros Hs. rewrite Hs in HR. apply rel_threads. exact HR.
  Qed.

  (** ** ranges *)
  Section Ranges.
    Context (ops : list (tl_op K V)) (Hp : puts_work ops) (Ht : trims_inside ltb [] ops).
    Notation s := (grown ops).
    Notation m := (content ops).
    Notation after o := (fst (tl_step cmp s o)).

    (** what is left is in order, all of it is found by index and by following the thread, and the sizes are right *)
    Definition consistent (s' : TreelistModel.tl K V) (m' : list (K * V)) : Prop :=
      map plainKV (elems (top s')) = m' /\ strictly_sorted ltb m' /\ sized (top s') /\ threads s' m'.

    Lemma rel_consistent s' m' : TRel ltb false s' m' -> consistent s' m'.
    Proof. intros H. pose proof H as (E1 & E2 & E3 & _). split; [exact E1|]. split; [exact E3|]. split; [exact E2|]. apply rel_threads. exact H. Qed.
    Lemma flat {X : Type} (l : list X) : match l with [] => false | _ => false end = false.
    Proof. destruct l; reflexivity. Qed.
    Lemma after_rel o : trim_inside m o -> (match o with TPut _ _ | TSet _ _ | TPutDuplicate _ _ _ => False | _ => True end) ->
      TRel ltb (stale_after ltb (stale ops) m o) (after o) (fst (tl_spec ltb m o)) /\ (end_ok (stale ops) o -> snd (tl_step cmp s o) = snd (tl_spec ltb m o)).
    Proof. intros H1 H2. apply (step_ok ltb W cmp Hcmp); auto; [apply grown_rel; auto|]. destruct o; cbn [put_fails]; auto. Qed.

    (** RemoveRange: what lies outside the bounds stays, and the answer is whether anything went *)
    Theorem C37_remove_range_partial lo hi : ltb hi lo = false -> stale ops = false ->
      exists m', consistent (after (TRemoveRange lo hi)) m' /\
        (forall x, In x m' <-> In x m /\ (ltb (fst x) lo = true \/ ltb hi (fst x) = true)) /\
        snd (tl_step cmp s (TRemoveRange lo hi)) = TBool (negb (Nat.eqb (length m') (length m))).
    Proof.
      intros Hl Hst. destruct (after_rel (TRemoveRange lo hi) I I) as (X1 & X2). specialize (X2 I). cbn [stale_after tl_spec] in X1, X2.
      rewrite Hl, Hst in *. cbn [fst snd] in X1, X2. rewrite flat in X1. eexists. split; [apply rel_consistent; exact X1|].
      split.
      - intros x. rewrite filter_In. unfold within. rewrite negb_true_iff, andb_false_iff, !negb_false_iff. tauto.
      - rewrite X2. f_equal. clear. generalize m as l. intros l.
        assert (Hle : forall l0 : list (K * V), (length (filter (fun x => negb (within ltb lo hi (fst x))) l0) <= length l0)%nat)
          by (intros l0; induction l0 as [|a l0 IH]; cbn [filter length]; [lia|]; destruct (negb _); cbn [length]; lia).
        induction l as [|a l IH]; [reflexivity|]. cbn [existsb filter]. destruct (within ltb lo hi (fst a)); cbn [orb negb].
        + symmetry. apply negb_true_iff, Nat.eqb_neq. specialize (Hle l). cbn [length]. lia.
        + rewrite IH. reflexivity.
    Qed.
    (** bounds the wrong way round: a panic that changes nothing *)
    Theorem C37_remove_range_reversed_partial lo hi : ltb hi lo = true ->
      tl_step cmp s (TRemoveRange lo hi) = (s, TPanic) /\ tl_step cmp s (TTrim lo hi) = (s, TPanic).
    Proof. intros Hl. cbn [tl_step]. unfold RemoveRange, Trim, IndexModel.Trim. rewrite (gt0 ltb W cmp Hcmp), Hl. split; reflexivity. Qed.

    (** RemoveRangeByIndex: the entries at positions i to j go; positions outside are ignored unless none is inside *)
    Theorem C37_remove_range_by_index_partial i j : stale ops = false ->
      (exists a b c, m = a ++ b ++ c /\ b <> [] /\ Z.of_nat (length a) = Z.max 0 i /\ Z.of_nat (length (a ++ b)) = Z.min (j + 1) (len m) /\
         consistent (after (TRemoveRangeByIndex i j)) (a ++ c) /\ snd (tl_step cmp s (TRemoveRangeByIndex i j)) = TUnit) \/
      ((forall p, i <= p <= j -> ~ 0 <= p < len m) /\ consistent (after (TRemoveRangeByIndex i j)) m /\
         snd (tl_step cmp s (TRemoveRangeByIndex i j)) = if j <? i then TUnit else TPanic).
    Proof.
      intros Hst. destruct (after_rel (TRemoveRangeByIndex i j) I I) as (X1 & X2). specialize (X2 I). cbn [stale_after tl_spec] in X1, X2.
      rewrite Hst in *. pose proof (len_nonneg m) as Hm.
      destruct (Z.ltb_spec j i) as [Hij|Hij].
      { right. cbn [fst snd] in X1, X2. split; [intros p; lia|]. split; [rewrite flat in X1; apply rel_consistent; exact X1|]. rewrite X2. reflexivity. }
      destruct ((j <? 0) || (len m <=? i) || (len m =? 0)) eqn:Eo.
      { right. cbn [fst snd] in X1, X2. split; [intros p; lia|]. split; [rewrite flat in X1; apply rel_consistent; exact X1|]. rewrite X2. reflexivity. }
      left. rewrite !orb_false_iff in Eo. destruct Eo as ((O1 & O2) & O3). cbn [fst snd] in X1, X2.
      set (a := firstn (Z.to_nat i) m). set (b := firstn (Z.to_nat (j + 1) - Z.to_nat i) (skipn (Z.to_nat i) m)). set (c := skipn (Z.to_nat (j + 1)) m).
      assert (Em : m = a ++ b ++ c).
      { unfold a, b, c. rewrite <- (firstn_skipn (Z.to_nat i) m) at 1. f_equal.
        rewrite <- (firstn_skipn (Z.to_nat (j + 1) - Z.to_nat i) (skipn (Z.to_nat i) m)) at 1. f_equal. rewrite skipn_add. f_equal. lia. }
      assert (La : Z.of_nat (length a) = Z.max 0 i) by (unfold a; rewrite firstn_length; unfold len in *; lia).
      assert (Lb : Z.of_nat (length (a ++ b)) = Z.min (j + 1) (len m)).
      { rewrite app_length. unfold a, b. rewrite !firstn_length, skipn_length. unfold len in *. lia. }
      exists a, b, c. split; [exact Em|]. split.
      { intros X. rewrite X, app_nil_r in Lb. lia. }
      split; [exact La|]. split; [exact Lb|]. split; [|exact X2].
      apply rel_consistent. change (around i j m) with (a ++ c) in X1. rewrite flat in X1. exact X1.
    Qed.

    (** Trim: what lies inside the bounds stays *)
    Theorem C37_trim_partial lo hi : ltb hi lo = false -> (exists x, In x m /\ ltb (fst x) lo = false /\ ltb hi (fst x) = false) ->
      exists m', consistent (after (TTrim lo hi)) m' /\
        (forall x, In x m' <-> In x m /\ ltb (fst x) lo = false /\ ltb hi (fst x) = false) /\ snd (tl_step cmp s (TTrim lo hi)) = TUnit.
    Proof.
      intros Hl (x & Hx & Hx1 & Hx2).
      destruct (after_rel (TTrim lo hi) I I) as (X1 & X2). specialize (X2 I). cbn [stale_after tl_spec] in X1, X2.
      rewrite Hl in *. cbn [fst snd] in X1, X2. exists (filter (fun x => within ltb lo hi (fst x)) m). split; [|split; [|exact X2]].
      - apply rel_consistent. assert (Hi : In x (filter (fun x => within ltb lo hi (fst x)) m)).
        { apply filter_In. split; auto. unfold within. rewrite Hx1, Hx2. reflexivity. }
        destruct m as [|m0 m1]; [destruct Hx|]. destruct (filter _ (m0 :: m1)); [destruct Hi|]. exact X1.
      - intros y. rewrite filter_In. unfold within. rewrite andb_true_iff, !negb_true_iff. tauto.
    Qed.

    (** TrimByIndex: exactly the positions i to j stay; anything else panics and, unless it starts inside and ends beyond
        the last position, changes nothing *)
    Theorem C37_trim_by_index_partial i j : stale ops = false -> ~ (0 < i < len m /\ len m <= j) ->
      (exists a b c, m = a ++ b ++ c /\ Z.of_nat (length a) = i /\ Z.of_nat (length (a ++ b)) = j + 1 /\
         consistent (after (TTrimByIndex i j)) b /\ snd (tl_step cmp s (TTrimByIndex i j)) = TUnit) \/
      (~ (0 <= i <= j /\ j < len m) /\ consistent (after (TTrimByIndex i j)) m /\ snd (tl_step cmp s (TTrimByIndex i j)) = TPanic).
    Proof.
      intros Hst Hn. destruct (after_rel (TTrimByIndex i j) Hn I) as (X1 & X2). specialize (X2 I). cbn [stale_after tl_spec] in X1, X2.
      rewrite Hst in *. destruct ((j <? i) || (i <? 0) || (len m <=? j)) eqn:Eo.
      { right. cbn [fst snd] in X1, X2. split; [lia|]. split; [rewrite flat in X1; apply rel_consistent; exact X1|exact X2]. }
      left. cbn [fst snd] in X1, X2. rewrite !orb_false_iff in Eo.
      set (a := firstn (Z.to_nat i) m). set (b := firstn (Z.to_nat (j + 1 - i)) (skipn (Z.to_nat i) m)). set (c := skipn (Z.to_nat (j + 1 - i)) (skipn (Z.to_nat i) m)).
      assert (Em : m = a ++ b ++ c).
      { unfold a, b, c. rewrite <- (firstn_skipn (Z.to_nat i) m) at 1. f_equal. symmetry. apply firstn_skipn. }
      exists a, b, c. split; [exact Em|]. split; [unfold a; rewrite firstn_length; unfold len in *; lia|]. split.
      { rewrite app_length. unfold a, b. rewrite !firstn_length, skipn_length. unfold len in *. lia. }
      split; [|exact X2]. apply rel_consistent. change (between i j m) with b in X1. rewrite flat in X1. exact X1.
    Qed.
  End Ranges.
End Props.
Print Assumptions C36_tree_list_partial.
Print Assumptions C36_small_tree_list_partial.
Print Assumptions C36_thread_partial.
Print Assumptions C37_remove_range_partial.
Print Assumptions C37_remove_range_by_index_partial.
Print Assumptions C37_trim_partial.
Print Assumptions C37_trim_by_index_partial.

(** ** where the properties fail *)
Notation ztl_step := (tl_step (V := Z) any).
Notation ztl_spec := (tl_spec (V := Z) Z.ltb).
Definition tputs (ks : list Z) : list (tl_op Z Z) := map (fun k => TPut k (10 * k)) ks.

Definition failed {K V : Type} (o : tl_op K V) (r : tl_out K V) : bool :=
  match o, r with TPut _ _, TPanic | TSet _ _, TPanic | TPutDuplicate _ _ _, TPanic => true | _, _ => false end.
Lemma puts_checked {K V : Type} (cmp : K -> K -> Z) (ops : list (tl_op K V)) :
  existsb (fun p => failed (fst p) (snd p)) (combine ops (srun (tl_step cmp) new ops)) = false -> puts_work cmp ops.
Proof.
  intros H ops1 o ops2 ->. revert H. unfold puts_work. generalize (new (K := K) (V := V)) as s.
  induction ops1 as [|o1 ops1 IH]; intros s; cbn [app srun].
  - cbn [sreach]. destruct (tl_step cmp s o) as [s' r]. cbn [combine existsb fst snd]. intros H Hf.
    apply orb_false_iff in H. destruct H as (H & _). destruct o, r; cbn in *; try congruence; tauto.
  - cbn [sreach]. destruct (tl_step cmp s o1) as [s' r]. cbn [combine existsb fst snd]. intros H. apply orb_false_iff in H. apply IH. tauto.
Qed.

(** Insertions alone make a tree of more than 63 levels (see C60): the 251st Put panics, after it has hung the entry into the
    tree. *)
Theorem C36_put_panics_refuted : exists ks k, length ks = 250%nat /\
  let s := sreach ztl_step new (tputs ks) in
  srun ztl_step new (tputs ks) = repeat (TBool true) 250 /\ srun ztl_spec [] (tputs ks) = repeat (TBool true) 250 /\
  srun ztl_step s [TSize; TGet k; TPut k 0; TGet k] = [TNum 250; TVal None; TPanic; TVal (Some 0)].
Proof. exists (DeepProofs.deep_keys 61), 251. vm_compute. repeat split; reflexivity. Qed.
(** In the end not even Size is right: after 258 Puts of different keys it answers 257. *)
Theorem C36_size_after_panics_refuted : exists ks, length ks = 258%nat /\
  let s := sreach ztl_step new (tputs ks) in
  srun ztl_spec [] (tputs ks) = repeat (TBool true) 258 /\ snd (ztl_step s TSize) = TNum 257 /\
  map fst (elems (top s)) = map fst (sreach ztl_spec [] (tputs ks)).
Proof. exists (DeepProofs.deep_keys 63). vm_compute. repeat split; reflexivity. Qed.
(** A Trim that keeps nothing leaves Head pointing at an entry that is gone. *)
Theorem C37_trim_to_empty_refuted : exists ops, trims_inside Z.ltb [] ops /\ puts_work any ops /\
  srun ztl_step new (ops ++ [TSize; THead]) <> srun ztl_spec [] (ops ++ [TSize; THead]) /\
  ~ threads (sreach ztl_step new ops) (sreach ztl_spec [] ops).
Proof.
  exists [TPut 1 10; TTrim 5 6]. split; [cbn; auto|]. split; [apply puts_checked; reflexivity|].
  split; [vm_compute; discriminate|].
  intros (l & (H1 & _) & H2). vm_compute in H2. destruct l; [|discriminate]. vm_compute in H1. discriminate.
Qed.
(** A TrimByIndex that starts inside and ends beyond the last entry panics after half of the work: entries are gone. *)
Theorem C37_trim_by_index_refuted : exists ops i j,
  let s := sreach ztl_step new ops in
  trims_inside Z.ltb [] ops /\ snd (ztl_step s (TTrimByIndex i j)) = TPanic /\
  snd (ztl_step s TSlices) = TSeen [(1, 10); (2, 20); (3, 30)] /\
  snd (ztl_step (fst (ztl_step s (TTrimByIndex i j))) TSlices) <> TSeen [(1, 10); (2, 20); (3, 30)].
Proof. exists (tputs [2; 1; 3]), 1, 5. vm_compute. repeat split; auto; discriminate. Qed.
Print Assumptions C36_put_panics_refuted.
Print Assumptions C36_size_after_panics_refuted.
Print Assumptions C37_trim_to_empty_refuted.
Print Assumptions C37_trim_by_index_refuted.

(** ** examples *)
Definition tl_ops : list (tl_op Z Z) := tputs [5; 1; 9; 3; 7; 2; 8; 4; 6; 0] ++
  [TPut 3 1; TSet 3 2; TSet 30 3; TPutDuplicate 7 0 (fun v => v + 1); TPutDuplicate 12 0 (fun v => v + 1); TGet 7; TGet 13; TRemove 5; TRemove 5;
   TRemoveIndex 3; TRemoveIndex 30; THead; TTail; TRemoveHead; TRemoveTail; TIndex 2; TIndex (-1); TIndexOf 8; TIndexOf 5; TSize;
   TTraverse (fun seen => Nat.ltb (length seen) 3); TSlices; TRemoveRange 3 6; TRemoveRange 3 3; TRemoveRange 6 3; TRemoveRangeByIndex (-3) 0; THead;
   TTrimByIndex 1 2; TSlices; TTrim 8 10; THead; TTail; TClear; THead; TPut 1 1; TTrim 5 6; TSize; TPut 2 2; THead; TTail].
Example C36_case : trims_inside Z.ltb [] tl_ops /\ ends_ok Z.ltb false [] tl_ops /\ puts_work any tl_ops /\
  skipn 10 (srun ztl_step new tl_ops) =
  [TBool false; TBool true; TBool false; TBool true; TBool false; TVal (Some 71); TVal None; TSlice (Some (5, 50)); TSlice None;
   TSlice (Some (3, 2)); TPanic; TSlice (Some (0, 0)); TSlice (Some (30, 3)); TSlice (Some (0, 0)); TSlice (Some (30, 3)); TSlice (Some (4, 40)); TPanic;
   TNum 5; TNum (-1); TNum 8; TSeen [(1, 10); (2, 20); (4, 40)];
   TSeen [(1, 10); (2, 20); (4, 40); (6, 60); (7, 71); (8, 80); (9, 90); (12, 0)]; TBool true; TBool false; TPanic; TUnit; TSlice (Some (2, 20));
   TUnit; TSeen [(7, 71); (8, 80)]; TUnit; TSlice (Some (8, 80)); TSlice (Some (8, 80)); TUnit; TSlice None; TBool true; TUnit; TNum 0; TBool true; TSlice (Some (2, 2));
   TSlice (Some (2, 2))].
Proof.
  split; [vm_compute; intuition congruence|]. split; [vm_compute; intuition congruence|]. split; [apply puts_checked; vm_compute; reflexivity|].
  vm_compute. reflexivity.
Qed.
(** the thread after that many changes *)
Example C36_thread_case : let ops := firstn 38 tl_ops in stale_run Z.ltb false [] ops = false /\ trims_inside Z.ltb [] ops /\
  length (sreach ztl_spec [] ops) = 2%nat /\
  (exists x y, let lk := lks (sreach ztl_step new ops) in
     x <> y /\ e lk false = Some x /\ d lk x true = Some y /\ d lk y true = None /\ e lk true = Some y /\ d lk y false = Some x /\ d lk x false = None).
Proof.
  cbv zeta. split; [vm_compute; reflexivity|]. split; [vm_compute; intuition congruence|]. split; [vm_compute; reflexivity|].
  eexists _, _. split; [|split; [vm_compute; reflexivity|]]; [|split; [vm_compute; reflexivity|repeat split; vm_compute; reflexivity]]. discriminate.
Qed.
(** trees in which the cut is made deep down, below nodes that have been rotated *)
Example C37_case : let ops := tputs (map Z.of_nat (seq 0 40) ++ map (fun i => - Z.of_nat i) (seq 1 20)) in
  let s := sreach ztl_step new ops in
  let left_ o := match snd (ztl_step (fst (ztl_step s o)) TSlices) with TSeen l => map fst l | _ => [] end in
  trims_inside Z.ltb [] ops /\ puts_work any ops /\ stale_run Z.ltb false [] ops = false /\
  left_ (TRemoveRange (-18) 37) = [-20; -19; 38; 39] /\ left_ (TRemoveRangeByIndex 2 100) = [-20; -19] /\
  left_ (TTrim 12 14) = [12; 13; 14] /\ left_ (TTrimByIndex 57 59) = [37; 38; 39] /\
  snd (ztl_step (fst (ztl_step s (TTrim 12 14))) THead) = TSlice (Some (12, 120)).
Proof.
  cbv zeta. split; [vm_compute; intuition congruence|]. split; [apply puts_checked; vm_compute; reflexivity|]. vm_compute. repeat split; reflexivity.
Qed.

