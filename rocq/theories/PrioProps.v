(** queue/priority: the stable sorted queue (C40), its positions (C41), Gets (C42), its iterators (C43) and their seeks (C56). *)
From Verif Require Import Base Bind Machine OrderSpec SMapSpec SMapFacts CompareModel AvlTree AvlSpec AvlModel AvlProofs AvlAny AvlStep
  AvlProps TreeSetProps AvlIterModel AvlIterProofs AvlsProofs IndexSpec IndexModel IndexProofs PrioSpec PrioModel PrioProofs PrioIterProofs.
Local Open Scope Z_scope.

Section Props.
  Context {K V : Type} (ltb : K -> K -> bool) (W : weak_order ltb) (cmp : K -> K -> Z) (Hcmp : ex_cmp ltb cmp).
  Notation final ops := (sreach (pq_spec ltb) (@nil (K * V)) ops).

  (** Every answer is the one the sorted sequence of entries gives, in which equal keys keep their insertion order.
      Missing: calls after a RemoveIndex with a position outside a queue of several entries ([insides_ok] excludes those;
      see C41_remove_index_outside_refuted). *)
  Theorem C40_stable_queue_partial (ops : list (pq_op K V)) : insides_ok ltb [] ops ->
    run (pq_step cmp) E ops = Some (srun (pq_spec ltb) [] ops).
  Proof. intros H. apply (pq_run ltb W cmp Hcmp ops E [] (qrel_new ltb) H). Qed.

  (** In particular nothing is missing for programs that do not use RemoveIndex. *)
  Theorem C40_stable_queue_without_remove_index (ops : list (pq_op K V)) : (forall i, ~ In (QRemoveIndex i) ops) ->
    run (pq_step cmp) E ops = Some (srun (pq_spec ltb) [] ops).
  Proof.
    intros H. apply C40_stable_queue_partial. generalize (@nil (K * V)). induction ops as [|o ops IH]; intros m; [exact I|].
    split.
    - destruct o; try exact I. destruct (H i). left. reflexivity.
    - apply IH. intros i Hi. apply (H i). right. exact Hi.
  Qed.

  (** Stored sizes are exact, so Index and RemoveIndex find the right entry; RemoveIndex takes out that entry only. *)
  Theorem C41_positions_partial (ops : list (pq_op K V)) : insides_ok ltb [] ops ->
    exists t, reach (pq_step cmp) E ops = Some t /\ elems t = final ops /\ sized t /\
      (forall i, exists t', pq_step cmp t (QIndex i) = Some (t, match entry_at (final ops) (Some (if i <? 0 then len (final ops) + i else i)) with
                                                  None => QPanic | Some e => QV (snd e) end) /\
        (0 <= i < len (final ops) -> exists l e r, final ops = l ++ e :: r /\ len l = i /\
           pq_step cmp t (QRemoveIndex i) = Some (t', QV (snd e)) /\ elems t' = l ++ r /\ sized t')).
  Proof.
    intros H. destruct (pq_run ltb W cmp Hcmp ops E [] (qrel_new ltb) H) as (_ & t & E1 & E2). pose proof E2 as (E3 & E4 & E5).
    exists t. split; auto. split; auto. split; auto. intros i.
    destruct (pq_sim ltb W cmp Hcmp t _ (QIndex i) E2 I) as (t1 & F1 & _). cbn [pq_step pq_spec snd fst] in F1. injection F1 as <- F1.
    assert (G : 0 <= i < len (final ops) -> exists t', exists l e r, final ops = l ++ e :: r /\ len l = i /\
           pq_step cmp t (QRemoveIndex i) = Some (t', QV (snd e)) /\ elems t' = l ++ r /\ sized t').
    { intros Hi. destruct (pq_sim ltb W cmp Hcmp t _ (QRemoveIndex i) E2 (or_introl Hi)) as (t' & G1 & G2 & G3 & _).
      cbn [pq_spec] in G1, G2. destruct (entry_at_some _ _ Hi) as (e & He). rewrite He in G1, G2. cbn [fst snd] in G1, G2.
      rewrite entry_at_in in He by auto. apply nth_error_split in He as (l & r & He & Hl). exists t', l, e, r.
      split; auto. unfold len in *. split; [lia|]. split; auto. split; auto. rewrite G2. unfold but. rewrite He, <- Hl.
      rewrite firstn_app, firstn_all, Nat.sub_diag. cbn [firstn]. rewrite app_nil_r, skipn_app, skipn_all2 by lia.
      replace (S (length l) - length l)%nat with 1%nat by lia. reflexivity. }
    destruct (Z.le_gt_cases 0 i); [destruct (Z.lt_ge_cases i (len (final ops)))|].
    - destruct (G ltac:(lia)) as (t' & G'). exists t'. split; [|auto]. cbn [pq_step]. do 2 f_equal. exact F1.
    - exists t. split; [cbn [pq_step]; do 2 f_equal; exact F1|lia].
    - exists t. split; [cbn [pq_step]; do 2 f_equal; exact F1|lia].
  Qed.

  (** A RemoveIndex outside panics and does not touch the entries and their order.  Missing: it does change the sizes. *)
  Theorem C41_remove_index_outside_partial (ops : list (pq_op K V)) i : insides_ok ltb [] ops -> ~ 0 <= i < len (final ops) ->
    exists t t', reach (pq_step cmp) E ops = Some t /\ pq_step cmp t (QRemoveIndex i) = Some (t', QPanic) /\ elems t' = final ops.
  Proof.
    intros H Hi. destruct (pq_run ltb W cmp Hcmp ops E [] (qrel_new ltb) H) as (_ & t & E1 & E3 & E4 & E5).
    destruct (AvlIterProofs.tree_cases t) as [Et|(s & k & v & l & r & Et)].
    - exists t, t. split; auto. rewrite Et. split; [reflexivity|]. rewrite <- E3, Et. reflexivity.
    - assert (Hne : t <> E) by (subst; discriminate). rewrite <- E3 in Hi.
      destruct (removeIndex_out i t 0 true E4 Hne ltac:(lia)) as (t' & F1 & F2). exists t, t'. split; auto. rewrite F2, E3. split; auto.
      assert (0 <= kidSize false t). { rewrite Et in *. destruct E4 as (_ & Hl & _). rewrite kid_left by auto. apply len_nonneg. }
      rewrite Z.add_0_l in F1. cbn [pq_step]. rewrite Et at 1. cbv zeta.
      replace (kidSize false t <? 0) with false by lia. rewrite F1. reflexivity.
  Qed.

  (** Gets returns the values of exactly the entries with the key.  Missing: they need not come oldest first. *)
  Theorem C42_gets_partial (ops : list (pq_op K V)) k : insides_ok ltb [] ops ->
    exists t q, reach (pq_step cmp) E ops = Some t /\ Gets cmp k t = Some q /\ Permutation q (map snd (sames ltb k (final ops))).
  Proof.
    intros H. destruct (pq_run ltb W cmp Hcmp ops E [] (qrel_new ltb) H) as (_ & t & E1 & E3 & E4 & E5). rewrite <- E3 in *.
    destruct (Gets_ok ltb W cmp Hcmp k t E5) as (q & F1 & F2). eauto 6.
  Qed.

  (** If the tree has no more levels than the iterator has room for, then for every sequence of iterator calls that seeks
      only for keys the queue holds at most once, the iterator is a cursor over the sorted sequence of entries.
      Missing: deeper trees (C43_deep_refuted) and seeks for repeated keys (C56). *)
  Theorem C43_iterator_partial (ops : list (pq_op K V)) t : insides_ok ltb [] ops -> reach (pq_step cmp) E ops = Some t ->
    ht t <= room (len (final ops)) ->
    exists it, newIterator t = Some it /\ forall cops, Forall (unique_seek ltb (final ops)) cops ->
      run (qi_step cmp) it cops = Some (srun (cursor_spec ltb true (final ops)) None cops).
  Proof.
    intros H HR Hh. destruct (pq_run ltb W cmp Hcmp ops E [] (qrel_new ltb) H) as (_ & t' & E1 & E3 & E4 & E5).
    rewrite HR in E1. injection E1 as <-. rewrite <- E3 in *. eexists. split; [apply new_room; auto|]. intros cops HU.
    destruct (qi_walks ltb W cmp Hcmp t E4 E5 Hh cops _ _ (new_pos t)) as (outs & F1 & F2). rewrite F1. f_equal.
    apply walks_unique; auto.
  Qed.
  Lemma ht_le_len (t : tree K V) : ht t <= len (elems t).
  Proof.
    induction t as [|s k v l IHl r IHr]; [reflexivity|]. cbn [ht elems]. rewrite len_mid.
    pose proof (len_nonneg (elems l)). pose proof (len_nonneg (elems r)). lia.
  Qed.
  (** A queue of at most four entries is never too deep. *)
  Theorem C43_small_queue (ops : list (pq_op K V)) t : insides_ok ltb [] ops -> reach (pq_step cmp) E ops = Some t ->
    len (final ops) <= 4 ->
    exists it, newIterator t = Some it /\ forall cops, Forall (unique_seek ltb (final ops)) cops ->
      run (qi_step cmp) it cops = Some (srun (cursor_spec ltb true (final ops)) None cops).
  Proof.
    intros H HR Hn. apply C43_iterator_partial; auto.
    destruct (pq_run ltb W cmp Hcmp ops E [] (qrel_new ltb) H) as (_ & t' & E1 & E3 & E4 & E5).
    rewrite HR in E1. injection E1 as <-. pose proof (ht_le_len t) as L. rewrite E3 in L. pose proof (len_nonneg (final ops)).
    assert (G : forall z, 0 <= z <= 4 -> z <= room z).
    { intros z Hz. assert (z = 0 \/ z = 1 \/ z = 2 \/ z = 3 \/ z = 4) as [->|[->|[->|[->| ->]]]] by lia; vm_compute; discriminate. }
    specialize (G _ (conj H0 Hn)). lia.
  Qed.

  (** Whatever keys are sought: the booleans are exact, no call panics, a seek for a key held several times stops at one of
      its entries (SeekGE, SeekLE) or next to one (SeekGT, SeekLT), and everything else is as for a cursor.  Missing: which
      of the entries, and trees that are too deep. *)
  Theorem C56_seeks_partial (ops : list (pq_op K V)) t : insides_ok ltb [] ops -> reach (pq_step cmp) E ops = Some t ->
    ht t <= room (len (final ops)) ->
    exists it, newIterator t = Some it /\
      forall cops, exists outs, run (qi_step cmp) it cops = Some outs /\ walks ltb (final ops) None cops outs.
  Proof.
    intros H HR Hh. destruct (pq_run ltb W cmp Hcmp ops E [] (qrel_new ltb) H) as (_ & t' & E1 & E3 & E4 & E5).
    rewrite HR in E1. injection E1 as <-. rewrite <- E3 in *. eexists. split; [apply new_room; auto|]. intros cops.
    apply (qi_walks ltb W cmp Hcmp t E4 E5 Hh cops _ _ (new_pos t)).
  Qed.
End Props.

Lemma heightLoop_negative fuel : forall s h, s < 0 -> heightLoop fuel s h = None.
Proof.
  induction fuel as [|fuel IH]; intros s h Hs; cbn [heightLoop]; destruct (Z.eqb_spec s 0); try lia; auto.
  apply IH. rewrite Z.shiftr_div_pow2 by lia. change (2 ^ 1) with 2. apply Z.div_lt_upper_bound; lia.
Qed.

(** ** where the code departs *)
(** A RemoveIndex outside the queue panics after it has counted down sizes: the next Size is wrong, and
    Index(-1) is no longer the last entry ... *)
Theorem C41_remove_index_outside_refuted : exists (ops : list (pq_op Z Z)) i,
  entry_at (sreach (pq_spec Z.ltb) [] ops) (Some i) = None /\
  run (pq_step any_ex) E (ops ++ [QRemoveIndex i; QSize; QValues; QIndex (-1)]) <>
    Some (srun (pq_spec Z.ltb) [] (ops ++ [QRemoveIndex i; QSize; QValues; QIndex (-1)])) /\
  run (pq_step any_ex) E (ops ++ [QRemoveIndex i; QSize; QValues; QIndex (-1)]) =
    Some [QBool true; QBool true; QBool true; QPanic; QNum 2; QVals [10; 20; 30]; QV 20].
Proof. exists [QPut 1 10; QPut 2 20; QPut 3 30], 3. split; [reflexivity|]. split; [|vm_compute; reflexivity]. vm_compute. discriminate. Qed.
(** ... and after some more, PopHead says that a queue of three entries is empty, and Remove never returns: it halves a
    negative size until it is zero. *)
Theorem C41_hang_refuted : exists (ops : list (pq_op Z Z)) t,
  sreach (pq_spec Z.ltb) [] ops = [(1, 10); (2, 20); (3, 30)] /\
  reach (pq_step any_ex) E ops = Some t /\ pq_step any_ex t (QRemove 1) = None /\
  (exists s k v l r, t = N s k v l r /\ s < 0 /\ forall fuel, heightLoop fuel (s - 1) 0 = None) /\
  run (pq_step any_ex) E (firstn 6 ops ++ [QPopHead]) =
    Some [QBool true; QBool true; QBool true; QPanic; QPanic; QPanic; QVal None].
Proof.
  exists [QPut 1 10; QPut 2 20; QPut 3 30; QRemoveIndex 3; QRemoveIndex 3; QRemoveIndex 3; QRemoveIndex 3]. eexists.
  split; [vm_compute; reflexivity|]. split; [vm_compute; reflexivity|]. split; [vm_compute; reflexivity|]. split; [|vm_compute; reflexivity].
  do 5 eexists. split; [reflexivity|]. split; [reflexivity|]. intros fuel. apply heightLoop_negative. reflexivity.
Qed.
Theorem C42_gets_order_refuted : exists (ops : list (pq_op Z Z)) t, reach (pq_step any_ex) E ops = Some t /\
  Gets any_ex 1 t = Some [11; 10; 12] /\ map snd (sames Z.ltb 1 (sreach (pq_spec Z.ltb) [] ops)) = [10; 11; 12].
Proof.
  exists [QPut 1 10; QPut 1 11; QPut 1 12]. eexists. split; [vm_compute; reflexivity|]. split; vm_compute; reflexivity.
Qed.
(** Seven Puts make a tree whose right edge is too long for the stack of its iterator: the last step of the usual loop
    [for it.SeekToFirst(); it.Valid(); it.Next()] panics. *)
Theorem C43_deep_refuted : exists (ops : list (pq_op Z Z)) t it, insides_ok Z.ltb [] ops /\
  reach (pq_step any_ex) E ops = Some t /\ newIterator t = Some it /\ sreach (pq_spec Z.ltb) [] ops = map (fun k => (k, k)) [0; 1; 2; 3; 4; 5; 6] /\
  (let walk := [CFirst; CNext; CNext; CNext; CNext; CNext; CNext] in
   run (qi_step any_ex) it (walk ++ [CKey]) = Some (repeat CUnit 7 ++ [CK 6]) /\ run (qi_step any_ex) it (walk ++ [CNext]) = None).
Proof.
  exists (map (fun k => QPut k k) [4; 1; 0; 2; 3; 5; 6]). eexists. eexists. split; [cbn; tauto|].
  split; [vm_compute; reflexivity|]. split; [vm_compute; reflexivity|]. split; [vm_compute; reflexivity|]. split; vm_compute; reflexivity.
Qed.
(** With repeated keys SeekGE does not find the first of them, and SeekGT stops at an entry with the key itself. *)
Theorem C56_duplicates_refuted : exists (ops : list (pq_op Z Z)) t it, insides_ok Z.ltb [] ops /\
  reach (pq_step any_ex) E ops = Some t /\ newIterator t = Some it /\
  sreach (pq_spec Z.ltb) [] ops = [(1, 10); (1, 11); (1, 12)] /\
  run (qi_step any_ex) it [CGE 1; CValue; CGT 1; CKey; CValue; CLT 1; CKey] =
    Some [CBool true; CV 11; CBool true; CK 1; CV 12; CBool true; CK 1] /\
  srun (cursor_spec Z.ltb true [(1, 10); (1, 11); (1, 12)]) None [CGE 1; CValue; CGT 1; CKey; CValue; CLT 1; CKey] =
    [CBool true; CV 10; CBool true; CPanic; CPanic; CBool true; CPanic].
Proof.
  exists [QPut 1 10; QPut 1 11; QPut 1 12]. eexists. eexists. split; [cbn; tauto|].
  split; [vm_compute; reflexivity|]. split; [vm_compute; reflexivity|]. split; [vm_compute; reflexivity|]. split; vm_compute; reflexivity.
Qed.

Print Assumptions C40_stable_queue_partial.
Print Assumptions C40_stable_queue_without_remove_index.
Print Assumptions C41_positions_partial.
Print Assumptions C41_remove_index_outside_partial.
Print Assumptions C41_remove_index_outside_refuted.
Print Assumptions C41_hang_refuted.
Print Assumptions C42_gets_partial.
Print Assumptions C42_gets_order_refuted.
Print Assumptions C43_iterator_partial.
Print Assumptions C43_small_queue.
Print Assumptions C43_deep_refuted.
Print Assumptions C56_seeks_partial.
Print Assumptions C56_duplicates_refuted.

(** ** examples *)
Example C40_case :
  let ops := [QPut 5 50; QPut 3 30; QPut 5 51; QPut 4 40; QPut 5 52; QPut 1 10; QValues; QGet 5; QUpsert 5 59; QUpsert 9 90;
     QInsertIfAbsent 9 91; QRemove 5; QDelete 7; QPopHead; QPopTail; QIndex (-1); QIndex 1; QRemoveIndex 2; QSize; QValues;
     QTraverse (fun seen => Nat.ltb (length seen) 2); QRemoveIndex 1; QPopTail; QPopTail; QPopTail; QRemoveIndex 0; QLen] in
  insides_ok Z.ltb [] ops /\ run (pq_step any_ex) E ops =
  Some [QBool true; QBool true; QBool true; QBool true; QBool true; QBool true; QVals [10; 30; 40; 50; 51; 52]; QVal (Some 50);
        QBool true; QBool false; QBool false; QVal (Some 59); QVal None; QVal (Some 10); QVal (Some 90); QV 52; QV 40; QV 51;
        QNum 3; QVals [30; 40; 52]; QSeen [(3, 30); (4, 40)]; QV 40; QVal (Some 52); QVal (Some 30); QVal None; QPanic; QNum 0].
Proof. cbv zeta. split; [|vm_compute; reflexivity]. vm_compute. intuition discriminate. Qed.
Example C41_case : exists t, reach (pq_step any_ex) E (map (fun v => QPut (v / 10) v) [50; 30; 51; 40; 52; 10]) = Some t /\
  pq_step any_ex t (QIndex 3) = Some (t, QV 50) /\ option_map snd (pq_step any_ex t (QRemoveIndex 3)) = Some (QV 50) /\
  option_map (fun p => elems (fst p)) (pq_step any_ex t (QRemoveIndex 3)) = Some [(1, 10); (3, 30); (4, 40); (5, 51); (5, 52)].
Proof. eexists. split; [vm_compute; reflexivity|]. vm_compute. repeat split. Qed.
Example C42_case : exists t, reach (pq_step any_ex) E (map (fun v => QPut (v / 10) v) [50; 30; 51; 40; 52; 10; 53]) = Some t /\
  Gets any_ex 5 t = Some [50; 52; 51; 53] /\ Gets any_ex 6 t = Some [] /\ Gets any_ex 1 t = Some [10].
Proof. eexists. split; [vm_compute; reflexivity|]. vm_compute. repeat split. Qed.
Example C43_case : exists t it, reach (pq_step any_ex) E (map (fun v => QPut (v / 10) v) [50; 30; 51; 40; 52; 10; 53]) = Some t /\
  newIterator t = Some it /\ ht t <= room 7 /\
  run (qi_step any_ex) it [CFirst; CValue; CNext; CValue; CNext; CValue; CNext; CValue; CNext; CValue; CNext; CValue; CNext; CValue;
     CNext; CValid; CPrev; CValue; CGE 4; CValue; CLT 4; CValue; CGT 3; CClone; CValue; CLE 2; CKey; CGT 9; CValid] =
  Some [CUnit; CV 10; CUnit; CV 30; CUnit; CV 40; CUnit; CV 50; CUnit; CV 51; CUnit; CV 52; CUnit; CV 53;
        CUnit; CBool false; CUnit; CV 53; CBool true; CV 40; CBool true; CV 30; CBool true; CUnit; CV 40; CBool false; CK 1; CBool false; CBool false].
Proof. eexists. eexists. split; [vm_compute; reflexivity|]. split; [vm_compute; reflexivity|]. split; [vm_compute; discriminate|]. vm_compute. reflexivity. Qed.
Example C56_case : walks Z.ltb [(1, 10); (1, 11); (1, 12)] None [CGE 1; CValue; CGT 1; CKey] [CBool true; CV 11; CBool true; @CK Z Z 1].
Proof.
  change [CBool true; CV 11; CBool true; @CK Z Z 1] with
    [snd (cursor_spec Z.ltb true [(1, 10); (1, 11); (1, 12)] None (CGE 1)); snd (cursor_spec Z.ltb true [(1, 10); (1, 11); (1, 12)] (Some 1) CValue);
     snd (cursor_spec Z.ltb true [(1, 10); (1, 11); (1, 12)] (Some 1) (CGT 1)); snd (cursor_spec Z.ltb true [(1, 10); (1, 11); (1, 12)] (Some 2) CKey)].
  apply walks_cons with (Some 1); [exists 1; split; [exists (1, 11); split; reflexivity|reflexivity]|].
  apply walks_cons with (Some 1); [reflexivity|].
  apply walks_cons with (Some 2); [exists 1; split; [exists (1, 11); split; reflexivity|reflexivity]|].
  apply walks_cons with (Some 2); [reflexivity|]. constructor.
Qed.
