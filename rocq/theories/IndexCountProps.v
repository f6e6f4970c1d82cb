(** C81, continued: the rotation counters of tree/indextree. *)
From Verif Require Import Base Bind Machine OrderSpec SMapSpec SMapFacts CompareModel AvlTree AvlSpec AvlModel AvlProofs RotSpec AvlCountModel AvlCountProofs IndexSpec IndexModel IndexProofs CutSpec IndexCountModel IndexCountProofs IndexShapeProofs.
Local Open Scope Z_scope.

(** the calls among the steps: all but ResetBenchmarkStats and BenchmarkStats *)
Definition ix_calls {K A} (ops : list (nx_op K A)) : list (ix_op K A) := flat_map (fun o => match o with YCall o => [o] | _ => [] end) ops.

(** Counting, reading and resetting the counters does not touch the tree: any comparison function, any threshold. *)
Theorem C81_index_same_tree {K A : Type} (cmp : K -> K -> Z) shift (ops : list (nx_op K A)) :
  content (sreach (step_ix cmp shift) new_ix ops) = sreach (step cmp shift) E (ix_calls ops) /\
  flat_map (fun x => match x with YOut r => [r] | _ => [] end) (srun (step_ix cmp shift) new_ix ops) = srun (step cmp shift) E (ix_calls ops).
Proof.
  change (@E K (option A)) with (content (@new_ix K A)). generalize (@new_ix K A). induction ops as [|o ops IH]; intros s; [split; reflexivity|].
  destruct o as [o| |]; cbn [ix_calls flat_map app sreach srun step_ix].
  - pose proof (call_erase cmp shift s o) as H. destruct (call_ix cmp shift s o) as [s' r]. cbn [fst snd] in H. rewrite H. cbn [flat_map app]. destruct (IH s') as (I1 & I2).
    split; [exact I1|]. f_equal. exact I2.
  - exact (IH (CI (content s) (0, 0)%nat)).
  - exact (IH s).
Qed.
Print Assumptions C81_index_same_tree.

(** In any call that returns, the counters grow by the numbers of single and double rotations that lead from what the call
    makes of an ordinary search tree to the tree there is afterwards.  The tree that a split returns starts at 0.
    Histories without a TrimByIndex that fails half-way. *)
Theorem C81_index_counters_exact_partial {K A : Type} (ltb : K -> K -> bool) (W : weak_order ltb) (cmp : K -> K -> Z) (Hcmp : plain_cmp ltb cmp) shift :
  0 <= shift -> forall (ops : list (nx_op K A)) o s s' x, trims_in_range ltb [] (ix_calls ops ++ [o]) ->
  sreach (step_ix cmp shift) new_ix ops = s -> step_ix cmp shift s (YCall o) = (s', YOut x) -> x <> XPanic ->
  exists u singles doubles, ix_plain ltb o (strip (content s)) u /\ turns singles doubles u (strip (content s')) /\
    let c := if ix_other o then match x with XNil => counts_ix s | _ => (0, 0)%nat end else counts_ix s in
    fst (counts_ix s') = (fst c + singles)%nat /\ snd (counts_ix s') = (snd c + doubles)%nat.
Proof.
  intros Hsh ops o s s' x HT Hs Hc Hx. destruct (C81_index_same_tree cmp shift ops) as (E1 & _). rewrite Hs in E1.
  assert (HT2 : trims_in_range ltb [] (ix_calls ops) /\ trim_in_range (sreach (ix_spec ltb) [] (ix_calls ops)) o).
  { clear - HT. revert HT. generalize (@nil (K * option A)). induction (ix_calls ops) as [|p ps IH]; intros m HT; cbn [app trims_in_range sreach] in *; [tauto|].
    destruct HT as (H1 & H2). destruct (ix_spec ltb m p) as [m' y]. cbn [fst] in *. apply IH in H2. tauto. }
  destruct HT2 as (T1 & T2). destruct (xrun_ok ltb W cmp Hcmp shift Hsh (ix_calls ops) E [] (xrel_new ltb) T1) as ((R1 & R2 & R3) & _). rewrite <- E1 in R1, R2. rewrite <- R1 in R3, T2.
  cbn [step_ix] in Hc. destruct (call_ix cmp shift s o) as [s1 x1] eqn:E2. injection Hc as <- <-.
  destruct (call_turned ltb W cmp Hcmp shift s s1 o x1 R2 R3 T2 E2 Hx) as (u & P & sg & db & T & C1 & C2). exists u, sg, db. split; [exact P|]. split; [exact T|].
  cbv zeta. destruct (ix_other o); [destruct x1|]; cbn [fst snd] in *; lia.
Qed.
(** The same of what BenchmarkStats reports before and after the call; ResetBenchmarkStats makes that 0. *)
Corollary C81_index_reported_partial {K A : Type} (ltb : K -> K -> bool) (W : weak_order ltb) (cmp : K -> K -> Z) (Hcmp : plain_cmp ltb cmp) shift :
  0 <= shift -> forall (ops : list (nx_op K A)) o s s0 s' s1 x a b a' b', trims_in_range ltb [] (ix_calls ops ++ [o]) ->
  sreach (step_ix cmp shift) new_ix ops = s -> step_ix cmp shift s YStats = (s0, YCounts (a, b)) -> step_ix cmp shift s0 (YCall o) = (s', YOut x) -> x <> XPanic ->
  step_ix cmp shift s' YStats = (s1, YCounts (a', b')) -> ix_other o = false ->
  exists u singles doubles, ix_plain ltb o (strip (content s)) u /\ turns singles doubles u (strip (content s')) /\ a' = (a + singles)%nat /\ b' = (b + doubles)%nat.
Proof.
  intros Hsh ops o s s0 s' s1 x a b a' b' HT Hs H1 H2 Hx H3 Ho. cbn [step_ix] in H1, H3. injection H1 as <- C1. injection H3 as _ C3.
  destruct (C81_index_counters_exact_partial ltb W cmp Hcmp shift Hsh ops o s s' x HT Hs H2 Hx) as (u & sg & db & P & T & C). exists u, sg, db. split; [exact P|]. split; [exact T|].
  rewrite Ho, C1, C3 in C. exact C.
Qed.
Theorem C81_index_reset {K A : Type} (cmp : K -> K -> Z) shift (s s' : cix K A) x : step_ix cmp shift s YReset = (s', x) ->
  content s' = content s /\ step_ix cmp shift s' YStats = (s', YCounts (0, 0)%nat).
Proof. intros [= <- _]. split; reflexivity. Qed.
Print Assumptions C81_index_reported_partial.
Print Assumptions C81_index_counters_exact_partial.

(** An insertion rotates at most once, and only if the key was new: any tree, any comparison function, any threshold. *)
Theorem C81_index_insertion_once {K A : Type} (cmp : K -> K -> Z) shift (s s' : cix K A) o x : ix_inserts o = true -> step_ix cmp shift s (YCall o) = (s', YOut x) ->
  counts_ix s' = counts_ix s \/
  total (counts_ix s') = S (total (counts_ix s)) /\ x = XBool (match o with XPut _ _ | XInsertIfAbsent _ _ => true | _ => false end).
Proof.
  intros Ho H. cbn [step_ix] in H. destruct (call_ix cmp shift s o) as [s1 x1] eqn:E1. injection H as <- <-.
  assert (HP : forall hit k (v : option A) (t : tree K (option A)) c t' res c', put_n cmp shift hit k v t c = Some (t', res, c') -> c' = c \/ total c' = S (total c) /\ res <> None).
  { intros hit k v t c t' res c' H. apply iput_once in H as [H|(-> & H)]; auto. right. split; [now apply more_total|discriminate]. }
  destruct s as [t c]. destruct o; try discriminate; unfold call_ix in E1; cbn [content counts_ix] in *.
  1,2: unfold Put_n in E1; destruct (put_n _ _ _ _ _ t c) as [[[t' res] c']|] eqn:E2; injection E1 as <- <-; cbn [counts_ix]; [|auto];
    destruct (HP _ _ _ _ _ _ _ _ E2) as [->|(H1 & H2)]; [auto|right; destruct res; [auto|congruence]].
  - unfold Set_n in E1. destruct t as [|n0 k0 v0 l r] eqn:Et; [injection E1 as <- <-; auto|]. rewrite <- Et in *.
    destruct (put_n _ _ _ _ _ t c) as [[[t' res] c']|] eqn:E2; injection E1 as <- <-; cbn [counts_ix]; [|auto].
    destruct (HP _ _ _ _ _ _ _ _ E2) as [->|(H1 & H2)]; [auto|right; destruct res; [auto|congruence]].
  - unfold Upsert_n in E1. destruct (getNode cmp k t); [|injection E1 as <- <-; auto].
    unfold Put_n in E1; destruct (put_n _ _ _ _ _ t c) as [[[t' res] c']|] eqn:E2; injection E1 as <- <-; cbn [counts_ix]; [|auto].
    destruct (HP _ _ _ _ _ _ _ _ E2) as [->|(H1 & H2)]; auto.
Qed.
Print Assumptions C81_index_insertion_once.

(** A removal of a range rotates at most once on each level above the last; nothing else rotates. *)
Theorem C81_index_range_once_a_level {K A : Type} (cmp : K -> K -> Z) shift (s s' : cix K A) o x : ix_cuts o = true -> step_ix cmp shift s (YCall o) = (s', YOut x) ->
  Z.of_nat (total (counts_ix s')) <= Z.of_nat (total (counts_ix s)) + Z.max 0 (ht (content s) - 1).
Proof.
  intros Ho H. pose proof (call_cut_few cmp shift s o Ho) as F. cbn [step_ix] in H. destruct (call_ix cmp shift s o) as [s1 x1]. injection H as <- <-. exact F.
Qed.
Theorem C81_index_others_never {K A : Type} (cmp : K -> K -> Z) shift (s s' : cix K A) o x : ix_inserts o = false -> ix_cuts o = false -> ix_other o = false ->
  step_ix cmp shift s (YCall o) = (s', YOut x) -> counts_ix s' = counts_ix s.
Proof.
  intros H1 H2 H3 H. pose proof (call_none cmp shift s o H1 H2 H3) as F. cbn [step_ix] in H. destruct (call_ix cmp shift s o) as [s1 x1]. injection H as <- <-. exact F.
Qed.
(** So without removals of ranges there are never more rotations than insertions. *)
Theorem C81_index_rotations_at_most_insertions {K A : Type} (cmp : K -> K -> Z) shift (ops : list (nx_op K A)) :
  forallb (fun o => negb (ix_cuts o)) (ix_calls ops) = true ->
  (total (counts_ix (sreach (step_ix cmp shift) new_ix ops)) <= length (filter ix_inserts (ix_calls ops)))%nat.
Proof.
  intros Hf. enough (H : forall s, (total (counts_ix (sreach (step_ix cmp shift) s ops)) <= total (counts_ix s) + length (filter ix_inserts (ix_calls ops)))%nat) by (apply (H new_ix)).
  assert (Hc : forall o p, ix_calls (o :: p) = (match o with YCall o => [o] | _ => [] end) ++ ix_calls p :> list (ix_op K A)) by reflexivity.
  induction ops as [|o ops IH]; intros s; [cbn; lia|]. rewrite Hc in *. clear Hc. destruct o as [o| |]; cbn [app sreach step_ix] in *.
  - cbn [forallb filter] in *. apply andb_true_iff in Hf as (F1 & F2). apply negb_true_iff in F1. destruct (call_ix cmp shift s o) as [s1 x1] eqn:E1. specialize (IH F2 s1). cbn [fst].
    destruct (ix_inserts o) eqn:Ei; cbn [length].
    + destruct (C81_index_insertion_once cmp shift s s1 o x1 Ei) as [H|(H & _)]; [cbn [step_ix]; now rewrite E1|rewrite H in IH; lia|lia].
    + destruct (ix_other o) eqn:Eo.
      * destruct o; try discriminate. destruct rgt; [|discriminate]. unfold call_ix in E1. destruct (step cmp shift (content s) _) as [t' r]. injection E1 as <- <-. cbn [counts_ix] in IH.
        assert (total (match r with XNil => counts_ix s | _ => (0, 0)%nat end) <= total (counts_ix s))%nat by (destruct r; cbn; lia). lia.
      * rewrite (C81_index_others_never cmp shift s s1 o x1 Ei F1 Eo) in IH; [lia|]. cbn [step_ix]. now rewrite E1.
  - specialize (IH Hf (CI (content s) (0, 0)%nat)). change (total (counts_ix (CI (content s) (0, 0)%nat))) with 0%nat in IH. cbn [fst]. lia.
  - auto.
Qed.
Print Assumptions C81_index_range_once_a_level.
Print Assumptions C81_index_others_never.
Print Assumptions C81_index_rotations_at_most_insertions.

(** ** examples *)
Definition ix_up (n : nat) : list (nx_op Z Z) := map (fun i => YCall (XPut (Z.of_nat i) (Some (Z.of_nat i)))) (seq 1 n).
Definition ix_mixed : list (nx_op Z Z) :=
  ix_up 15 ++ [YStats; YCall (XRemoveRange 4 8); YStats] ++ map (fun k => YCall (XSet k None)) [40; 20; 30; 35; 33; 34] ++
  [YStats; YCall (XRemove 2); YCall (XSplit true true 10); YStats; YCall (XRemoveRangeByIndex 1 3); YStats; YReset; YCall (XRemoveIndex 1); YStats].
(** both kinds of rotation occur, on insertion and in the removal of a range *)
Example C81_index_mixed_case : flat_map (fun x => match x with YCounts c => [c] | _ => [] end) (srun (step_ix any 2) new_ix ix_mixed) = [(11, 0); (13, 1); (16, 3); (0, 0); (0, 0); (0, 0)]%nat.
Proof. vm_compute. reflexivity. Qed.
Lemma ix_mixed_trims : trims_in_range Z.ltb [] (ix_calls ix_mixed).
Proof. unfold ix_mixed, ix_calls, ix_up. cbn. tauto. Qed.
(** the hypotheses of the theorems at the removal of the range: three rotations in a tree of four levels *)
Example C81_index_range_case : exists s s', sreach (step_ix any 2) new_ix (ix_up 15) = s /\ step_ix any 2 s (YCall (XRemoveRange 4 8)) = (s', YOut XUnit) /\
  trims_in_range Z.ltb [] (ix_calls (ix_up 15) ++ [XRemoveRange 4 8]) /\ ht (content s) = 4 /\ counts_ix s = (11, 0)%nat /\ counts_ix s' = (13, 1)%nat /\
  without Z.ltb 4 8 (strip (content s)) <> strip (content s').
Proof. eexists _, _. split; [reflexivity|]. split; [vm_compute; reflexivity|]. split; [cbn; tauto|]. repeat split; try (vm_compute; reflexivity). vm_compute. discriminate. Qed.
Example C81_index_insertion_case : exists s s', sreach (step_ix any 2) new_ix (ix_up 4) = s /\ step_ix any 2 s (YCall (XPut 5 None)) = (s', YOut (XBool true)) /\
  counts_ix s = (1, 0)%nat /\ counts_ix s' = (2, 0)%nat /\ forallb (fun o => negb (ix_cuts o)) (ix_calls (ix_up 15)) = true /\ length (filter ix_inserts (ix_calls (ix_up 15))) = 15%nat.
Proof. eexists _, _. split; [reflexivity|]. split; [vm_compute; reflexivity|]. repeat split; vm_compute; reflexivity. Qed.
