(** tree/avl, tree/indextree: what BenchmarkStats says about the shape of the tree (C65). *)
From Coq Require Import Permutation Sorted.
From Verif Require Import Base Bind Machine OrderSpec SMapSpec CompareModel AvlTree AvlSpec AvlModel StatsModel StatsSpec.
From Verif Require SMapFacts AvlAny AvlProps IndexSpec IndexModel IndexProps.
Local Open Scope Z_scope.

Section Sort.
  Lemma insert_perm x l : Permutation (insertInt x l) (x :: l).
  Proof. induction l as [|y r IH]; cbn [insertInt]; [reflexivity|]. destruct (x <=? y); [reflexivity|]. rewrite IH. apply perm_swap. Qed.
  Lemma sort_perm l : Permutation (sortInts l) l.
  Proof. induction l as [|x r IH]; cbn [sortInts]; [reflexivity|]. rewrite insert_perm. apply perm_skip, IH. Qed.
  Lemma insert_sorted x l : StronglySorted Z.le l -> StronglySorted Z.le (insertInt x l).
  Proof.
    induction 1 as [|y r Hr IH Hy]; cbn [insertInt]; [constructor; constructor|]. destruct (Z.leb_spec x y).
    - constructor; [constructor; assumption|]. constructor; [assumption|]. eapply Forall_impl; [|exact Hy]. intros; cbn in *; lia.
    - constructor; [exact IH|]. eapply Permutation_Forall; [symmetry; apply insert_perm|]. constructor; [lia|exact Hy].
  Qed.
  Lemma sort_sorted l : StronglySorted Z.le (sortInts l).
  Proof. induction l as [|x r IH]; cbn [sortInts]; [constructor|]. apply insert_sorted, IH. Qed.
  Lemma filter_perm {X} (f : X -> bool) l l' : Permutation l l' -> length (filter f l) = length (filter f l').
  Proof. induction 1 as [|x l l' H IH|x y l|l1 l2 l3 H1 IH1 H2 IH2]; cbn [filter]; [reflexivity| |destruct (f x), (f y); reflexivity|congruence]. destruct (f x); cbn; auto. Qed.
  (** the element at place [i] of a sorted list has at most [i] smaller ones and more than [i] up to it *)
  Lemma sorted_rank l : StronglySorted Z.le l -> forall i p, nth_error l i = Some p -> below p l <= Z.of_nat i < upto p l.
  Proof.
    unfold below, upto. induction 1 as [|y r Hr IH Hy]; intros i p Hi; [destruct i; discriminate|]. destruct i as [|i]; cbn [nth_error filter] in *.
    - injection Hi as <-. rewrite Z.ltb_irrefl, Z.leb_refl. cbn [length]. split; [|lia].
      assert (H : filter (fun x => x <? y) r = []).
      { clear -Hy. induction Hy as [|z q H1 H2 IH2]; cbn [filter]; [reflexivity|]. destruct (Z.ltb_spec z y); [lia|exact IH2]. }
      rewrite H. cbn. lia.
    - specialize (IH i p Hi). assert (y <= p). { apply (proj1 (Forall_forall _ _) Hy p). eapply nth_error_In; exact Hi. }
      destruct (Z.leb_spec y p); [|lia]. destruct (Z.ltb_spec y p); cbn [length]; lia.
  Qed.
  Lemma percentile_at q (l s : list Z) i p : Permutation s l -> StronglySorted Z.le s -> 0 <= q -> nth_error s (Z.to_nat i) = Some p ->
    i = q * (Z.of_nat (length l) - 1) / 100 -> 0 <= i -> percentile q l p.
  Proof.
    intros HP HS Hq Hn Ei Hi. pose proof (sorted_rank s HS _ _ Hn) as (R1 & R2). rewrite Z2Nat.id in R1, R2 by exact Hi.
    unfold below, upto in *. rewrite (filter_perm _ _ _ HP) in R1. rewrite (filter_perm _ _ _ HP) in R2. split; [eapply Permutation_in; [exact HP|]; eapply nth_error_In; exact Hn|].
    unfold below, upto. pose proof (Z.div_mod (q * (Z.of_nat (length l) - 1)) 100 ltac:(lia)) as D. pose proof (Z.mod_pos_bound (q * (Z.of_nat (length l) - 1)) 100 ltac:(lia)). lia.
  Qed.
End Sort.

Section Stats.
  Context {K V : Type}.
  Notation tree := (tree K V).
  Implicit Types t : tree.

  Definition qdepths (q : list (tree * Z)) : list Z := flat_map (fun e => depths_from (snd e) (fst e)) q.
  Definition qnodes (q : list (tree * Z)) : nat := fold_right (fun e n => nodes (fst e) + n)%nat O q.
  Lemma qdepths_app q1 q2 : qdepths (q1 ++ q2) = qdepths q1 ++ qdepths q2.
  Proof. unfold qdepths. apply flat_map_app. Qed.
  Lemma qnodes_app q1 q2 : qnodes (q1 ++ q2) = (qnodes q1 + qnodes q2)%nat.
  Proof. unfold qnodes. induction q1 as [|e q1 IH]; cbn [app fold_right]; [reflexivity|]. rewrite IH. lia. Qed.
  Lemma nodes_len d t : length (depths_from d t) = nodes t.
  Proof. revert d. induction t as [|h k v l IHl r IHr]; intros d; cbn [depths_from nodes length]; [reflexivity|]. rewrite app_length, IHl, IHr. reflexivity. Qed.
  Definition maxl (h : Z) (l : list Z) : Z := fold_left Z.max l h.
  Lemma maxl_app h l1 l2 : maxl h (l1 ++ l2) = maxl (maxl h l1) l2.
  Proof. apply fold_left_app. Qed.
  Lemma maxl_perm l1 l2 : Permutation l1 l2 -> forall h, maxl h l1 = maxl h l2.
  Proof.
    unfold maxl. induction 1 as [|x l l' H IH|x y l|l1 l2 l3 H1 IH1 H2 IH2]; intros h; cbn [fold_left]; auto.
    - f_equal. lia.
    - rewrite IH1. apply IH2.
  Qed.
  Lemma sum_app l1 l2 : sum (l1 ++ l2) = sum l1 + sum l2.
  Proof. unfold sum. induction l1 as [|x l1 IH]; cbn [app fold_right]; [lia|]. rewrite IH. lia. Qed.
  Lemma sum_perm l1 l2 : Permutation l1 l2 -> sum l1 = sum l2.
  Proof. unfold sum. induction 1; cbn [fold_right]; lia. Qed.

  Lemma loop_ok n : forall q h s c ds, (forall e, In e q -> fst e <> E) -> (qnodes q <= n)%nat -> exists ds',
    Permutation ds' (qdepths q) /\ shapeLoop n q h s c ds = Some (maxl h ds', s + sum ds', c + Z.of_nat (length ds'), ds ++ ds').
  Proof.
    induction n as [|n IH]; intros q h s c ds Hq Hn; destruct q as [|(t, d) q].
    - exists []. split; [reflexivity|]. cbn [shapeLoop maxl fold_left sum fold_right length]. rewrite app_nil_r. repeat f_equal; lia.
    - exfalso. cbn in Hn. specialize (Hq (t, d) (or_introl eq_refl)). cbn in Hq. destruct t; [congruence|]. cbn in Hn. lia.
    - exists []. split; [reflexivity|]. cbn [shapeLoop maxl fold_left sum fold_right length]. rewrite app_nil_r. repeat f_equal; lia.
    - cbn [shapeLoop]. destruct t as [|h0 k v l r]; [exfalso; apply (Hq (E, d) (or_introl eq_refl)); reflexivity|].
      set (q2 := match r with E => _ | _ => _ end).
      assert (Hp : Permutation (d :: qdepths q2) (qdepths ((N h0 k v l r, d) :: q)) /\ (forall e, In e q2 -> fst e <> E) /\ (qnodes q2 <= n)%nat).
      { assert (Hq' : forall e, In e q -> fst e <> E) by (intros e He; apply Hq; right; exact He).
        unfold qnodes in Hn. cbn [fold_right fst nodes] in Hn. fold (qnodes q) in Hn.
        cbn [qdepths flat_map fst snd depths_from app]. fold (qdepths q).
        set (q1 := match l with E => q | _ => q ++ [(l, d + 1)] end) in q2.
        assert (H1 : Permutation (qdepths q1) (depths_from (d + 1) l ++ qdepths q) /\ (forall e, In e q1 -> fst e <> E) /\ qnodes q1 = (nodes l + qnodes q)%nat).
        { destruct l as [|a b x y z]; [cbn; auto|]. unfold q1. split; [rewrite qdepths_app; cbn [qdepths flat_map fst snd]; rewrite app_nil_r; apply Permutation_app_comm|].
          split; [intros e He; apply in_app_or in He as [He|[<-|[]]]; [auto|discriminate]|]. rewrite qnodes_app. cbn [qnodes fold_right fst]. lia. }
        destruct H1 as (P1 & N1 & L1).
        assert (H2 : Permutation (qdepths q2) (depths_from (d + 1) r ++ qdepths q1) /\ (forall e, In e q2 -> fst e <> E) /\ qnodes q2 = (nodes r + qnodes q1)%nat).
        { destruct r as [|a b x y z]; [cbn; auto|]. unfold q2. split; [rewrite qdepths_app; cbn [qdepths flat_map fst snd]; rewrite app_nil_r; apply Permutation_app_comm|].
          split; [intros e He; apply in_app_or in He as [He|[<-|[]]]; [auto|discriminate]|]. rewrite qnodes_app. cbn [qnodes fold_right fst]. lia. }
        destruct H2 as (P2 & N2 & L2). split; [|split; [exact N2|lia]]. apply perm_skip. rewrite P2, P1. rewrite !app_assoc. apply Permutation_app_tail, Permutation_app_comm. }
      destruct Hp as (HP & HE & HL).
      destruct (IH q2 (if d >? h then d else h) (s + d) (c + 1) (ds ++ [d]) HE HL) as (ds' & P' & ->). exists (d :: ds'). split; [rewrite P'; exact HP|].
      cbn [length]. unfold maxl. cbn [fold_left sum fold_right]. fold (sum ds').
      replace (Z.max h d) with (if d >? h then d else h) by (rewrite Z.gtb_ltb; destruct (Z.ltb_spec h d); lia).
      rewrite <- app_assoc. cbn [app]. f_equal. f_equal. f_equal. f_equal; lia. lia.
  Qed.
  Lemma max_ht t : forall d h, maxl h (depths_from d t) = match t with E => h | _ => Z.max h (d + ht t - 1) end.
  Proof.
    induction t as [|h0 k v l IHl r IHr]; intros d h; [reflexivity|]. cbn [depths_from ht]. change (d :: ?x) with ([d] ++ x). rewrite !maxl_app, IHl, IHr.
    assert (forall x : tree, 0 <= ht x) by (intros x; induction x; cbn [ht]; lia). pose proof (H l). pose proof (H r).
    cbn [maxl fold_left]. destruct l, r; cbn [ht] in *; lia.
  Qed.

  (** Never a panic, and every figure is what its name says: the height is that of the tree, the depths summed up and counted
      for the average are those of all nodes, and the percentiles divide them as they should. *)
  Theorem C65_stats_right t : exists s, shapeStats t = Some s /\
    sHeight s = ht t /\ sTotal s = sum (depths_from 1 t) /\ sCount s = Z.of_nat (length (elems t)) /\
    (t <> E -> percentile 50 (depths_from 1 t) (sP50 s) /\ percentile 95 (depths_from 1 t) (sP95 s)).
  Proof.
    destruct t as [|h k v l r] eqn:Et; [exists (Stats 0 0 0 0 0); cbn; tauto|]. rewrite <- Et.
    assert (Hne : t <> E) by (rewrite Et; discriminate). unfold shapeStats. 
    destruct (loop_ok (nodes t) [(t, 1)] 0 0 0 []) as (ds & HP & HL).
    { intros e [<-|[]]. exact Hne. }
    { cbn. lia. }
    cbn [qdepths flat_map fst snd] in HP. rewrite app_nil_r in HP. cbn [app] in HL.
    assert (Hlen : length ds = nodes t) by (rewrite (Permutation_length HP); apply nodes_len).
    assert (Hpos : (0 < nodes t)%nat) by (rewrite Et; cbn; lia).
    assert (Hm : forall (X : Type) (a b : X), match t with E => a | _ => b end = b) by (rewrite Et; reflexivity). rewrite Hm, HL. cbv zeta.
    assert (Hls : length (sortInts ds) = nodes t) by (rewrite (Permutation_length (sort_perm ds)); exact Hlen).
    assert (HPs : Permutation (sortInts ds) (depths_from 1 t)) by (rewrite sort_perm; exact HP).
    rewrite Hls. set (n := Z.of_nat (nodes t)) in *.
    assert (B1 : 0 <= (n - 1) / 2 < n) by (split; [apply Z.div_pos; lia|apply Z.div_lt_upper_bound; lia]).
    assert (B2 : 0 <= (n - 1) * 95 / 100 < n) by (split; [apply Z.div_pos; lia|apply Z.div_lt_upper_bound; lia]).
    destruct (nth_error (sortInts ds) (Z.to_nat ((n - 1) / 2))) as [p50|] eqn:E1; [|apply nth_error_None in E1; lia].
    destruct (nth_error (sortInts ds) (Z.to_nat ((n - 1) * 95 / 100))) as [p95|] eqn:E2; [|apply nth_error_None in E2; lia].
    eexists. split; [reflexivity|]. cbn [sHeight sTotal sCount sP50 sP95]. split; [|split; [|split]].
    - rewrite (maxl_perm _ _ HP), max_ht, Hm. rewrite Et. cbn [ht]. assert (forall x : tree, 0 <= ht x) by (intros x; induction x; cbn [ht]; lia).
      pose proof (H l). pose proof (H r). lia.
    - rewrite (sum_perm _ _ HP). lia.
    - rewrite Hlen. assert (Hel : forall x : tree, length (elems x) = nodes x).
      { induction x as [|? ? ? x IHx y IHy]; cbn [elems nodes]; [reflexivity|]. rewrite app_length. cbn [length]. lia. }
      rewrite Hel. lia.
    - intros _. assert (Hn : Z.of_nat (length (depths_from 1 t)) = n) by (rewrite nodes_len; reflexivity). split.
      + apply (percentile_at 50 _ _ _ _ HPs (sort_sorted ds) ltac:(lia) E1); [|lia]. rewrite Hn.
        replace 100 with (50 * 2) by reflexivity. rewrite Z.div_mul_cancel_l by lia. reflexivity.
      + apply (percentile_at 95 _ _ _ _ HPs (sort_sorted ds) ltac:(lia) E2); [|lia]. rewrite Hn. f_equal. lia.
  Qed.
End Stats.
Print Assumptions C65_stats_right.

Section Api.
  Context {K V : Type} (ltb : K -> K -> bool) (W : weak_order ltb) (cmp : K -> K -> Z) (Hcmp : ex_cmp ltb cmp).
  (** tree/avl: the figures agree with Height() and Size(). *)
  Theorem C65_avl_stats d (ops : list (sm_op K V)) t : 1 <= d <= 127 -> AvlProps.stays_low cmp d ops ->
    reach (step cmp Both d) new ops = Some t ->
    exists s, shapeStats (root t) = Some s /\ height t = Some (sHeight s) /\ sCount s = Z.of_nat (size t).
  Proof.
    intros Hd HL HR. destruct (C65_stats_right (root t)) as (s & E1 & E2 & E3 & E4 & _). exists s. split; [exact E1|].
    destruct (AvlProps.C21_avl_heights_exact ltb W cmp Hcmp d ops t Hd HL HR) as (_ & ->). split; [congruence|].
    destruct (AvlProps.C20_avl_strictly_increasing ltb W cmp Hcmp d ops t HR) as (_ & ->). rewrite E4.
    destruct (AvlAny.traverse_ok (fun _ => true) (root t) []) as (-> & _).
    pose proof (SMapFacts.visit_all (elems (root t)) []) as Y. cbn [app] in Y.
    change (fun _ : SMapSpec.entries => true) with (fun _ : list (K * V) => true) in Y. rewrite Y. reflexivity.
  Qed.
End Api.
Section IndexApi.
  Context {K A : Type} (ltb : K -> K -> bool) (W : weak_order ltb) (cmp : K -> K -> Z) (Hcmp : plain_cmp ltb cmp) (shift : Z) (Hsh : 0 <= shift).
  (** tree/indextree: the number of nodes looked at is Size().  Full statement: for all [ops].  Missing: after a TrimByIndex
      that failed half way Size() may be wrong, see C31. *)
  Theorem C65_index_stats_partial (ops : list (IndexSpec.ix_op K A)) : IndexSpec.trims_in_range ltb [] ops ->
    let t := sreach (IndexModel.step cmp shift) E ops in
    exists s, shapeStats t = Some s /\ snd (IndexModel.step cmp shift t IndexSpec.XSize) = IndexSpec.XNum (sCount s).
  Proof.
    intros HT t. destruct (C65_stats_right t) as (s & E1 & E2 & E3 & E4 & _). exists s. split; [exact E1|].
    pose proof (IndexProps.C31_sizes_exact_partial ltb W cmp Hcmp shift Hsh ops HT) as HZ. fold t in HZ. cbn [IndexModel.step snd]. f_equal.
    rewrite E4. destruct t as [|z k v l r]; [reflexivity|]. cbn [elems]. rewrite app_length. cbn [length IndexSpec.sized] in *. cbn. lia.
  Qed.
End IndexApi.
Print Assumptions C65_avl_stats.
Print Assumptions C65_index_stats_partial.

(** ** examples *)
(** a tree of 10 nodes and depth 4 *)
Example C65_case : exists t s, reach (step any_ex Both 2) new (AvlProps.puts [5; 2; 8; 1; 3; 7; 9; 4; 6; 10]) = Some t /\
  AvlProps.stays_low any_ex 2 (AvlProps.puts [5; 2; 8; 1; 3; 7; 9; 4; 6; 10]) /\ shapeStats (root t) = Some s /\ s = Stats 4 29 10 3 4 /\
  percentile 50 (depths_from 1 (root t)) 3 /\ percentile 95 (depths_from 1 (root t)) 4 /\ ~ percentile 95 (depths_from 1 (root t)) 3.
Proof.
  eexists. eexists. split; [vm_compute; reflexivity|].
  split; [apply (AvlProps.stays_low_short Z.ltb Zltb_weak any_ex AvlProps.zcmp_ex); cbn; lia|]. split; [vm_compute; reflexivity|]. split; [reflexivity|].
  unfold percentile. cbn. lia.
Qed.
Example C65_case_index : let t := sreach (IndexModel.step any 2) E (IndexProps.xputs [1; 2; 3; 4; 5; 6; 7; 8; 9; 10; 11; 12] ++ [IndexSpec.XTrim 2 9]) in
  shapeStats t = Some (Stats 4 23 8 3 4).
Proof. vm_compute. reflexivity. Qed.
