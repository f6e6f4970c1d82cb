(** C81, continued: the rotation counters of tree/treelist (SingleRotations, DoubleRotations, ResetRotations). *)
From Verif Require Import Base Bind Machine OrderSpec SMapSpec SMapFacts CompareModel AvlTree AvlSpec AvlModel AvlProofs RotSpec AvlCountModel AvlCountProofs IndexSpec IndexModel IndexProofs IndexProps CutSpec
  IndexCountModel IndexCountProofs TreelistSpec TreelistModel TreelistSteps TreelistProps TreelistShapeSpec TreelistCountModel TreelistCountProofs TreelistShapeProofs.
Local Open Scope Z_scope.

(** the calls among the steps: all but reading and resetting the counters *)
Definition tl_calls {K V} (ops : list (nt_op K V)) : list (tl_op K V) := flat_map (fun o => match o with WCall o => [o] | _ => [] end) ops.

(** Counting, reading and resetting the counters does not touch the list: any comparison function. *)
Theorem C81_treelist_same_list {K V : Type} (cmp : K -> K -> Z) (ops : list (nt_op K V)) :
  list_of (sreach (step_tl cmp) new_tl ops) = sreach (tl_step cmp) new (tl_calls ops) /\
  flat_map (fun x => match x with WOut r => [r] | _ => [] end) (srun (step_tl cmp) new_tl ops) = srun (tl_step cmp) new (tl_calls ops).
Proof.
  change (@new K V) with (list_of (@new_tl K V)). generalize (@new_tl K V). induction ops as [|o ops IH]; intros s; [split; reflexivity|].
  destruct o as [o| |]; cbn [tl_calls flat_map app sreach srun step_tl].
  - pose proof (tcall_erase cmp s o) as H. destruct (call_tl cmp s o) as [s' r]. cbn [fst snd] in H. rewrite H. cbn [flat_map app]. destruct (IH s') as (I1 & I2).
    split; [exact I1|]. f_equal. exact I2.
  - exact (IH (CT (list_of s) (0, 0)%nat)).
  - exact (IH s).
Qed.
Print Assumptions C81_treelist_same_list.

(** In any call that returns, the counters grow by the numbers of single and double rotations that lead from what the call
    makes of an ordinary search tree to the tree there is afterwards.  Clear starts again at 0.  Histories in which no
    Put panicked (that takes more than 63 levels) and no TrimByIndex failed half-way: after these the sizes stored in the
    tree are wrong or entries are lost. *)
Theorem C81_treelist_counters_exact_partial {K V : Type} (ltb : K -> K -> bool) (W : weak_order ltb) (cmp : K -> K -> Z) (Hcmp : plain_cmp ltb cmp) :
  forall (ops : list (nt_op K V)) o s s' x, puts_work cmp (tl_calls ops) -> trims_inside ltb [] (tl_calls ops ++ [o]) ->
  sreach (step_tl cmp) new_tl ops = s -> step_tl cmp s (WCall o) = (s', WOut x) -> x <> TPanic ->
  exists u singles doubles, tl_plain ltb o (values (strip (top (list_of s)))) u /\ turns singles doubles u (values (strip (top (list_of s')))) /\
    let c := if tl_clears o then (0, 0)%nat else counts_tl s in
    fst (counts_tl s') = (fst c + singles)%nat /\ snd (counts_tl s') = (snd c + doubles)%nat.
Proof.
  intros ops o s s' x HP HT Hs Hc Hx. destruct (C81_treelist_same_list cmp ops) as (E1 & _). rewrite Hs in E1.
  assert (HT2 : trims_inside ltb [] (tl_calls ops) /\ trim_inside (sreach (tl_spec ltb) [] (tl_calls ops)) o).
  { clear - HT. revert HT. generalize (@nil (K * V)). induction (tl_calls ops) as [|p ps IH]; intros m HT; cbn [app trims_inside sreach] in *; [tauto|].
    destruct HT as (H1 & H2). apply IH in H2. tauto. }
  destruct HT2 as (T1 & T2). pose proof (grown_rel ltb W cmp Hcmp (tl_calls ops) HP T1) as HR. rewrite <- E1 in HR.
  cbn [step_tl] in Hc. destruct (call_tl cmp s o) as [s1 x1] eqn:E2. injection Hc as <- <-.
  destruct (tcall_turned ltb W cmp Hcmp _ s s1 _ o x1 HR T2 E2 Hx) as (u & P & sg & db & T & C1 & C2). exists u, sg, db. split; [exact P|]. split; [exact T|].
  cbv zeta. lia.
Qed.
(** The same of what SingleRotations and DoubleRotations answer before and after the call; ResetRotations makes that 0. *)
Corollary C81_treelist_reported_partial {K V : Type} (ltb : K -> K -> bool) (W : weak_order ltb) (cmp : K -> K -> Z) (Hcmp : plain_cmp ltb cmp) :
  forall (ops : list (nt_op K V)) o s s0 s' s1 x a b a' b', puts_work cmp (tl_calls ops) -> trims_inside ltb [] (tl_calls ops ++ [o]) ->
  sreach (step_tl cmp) new_tl ops = s -> step_tl cmp s WCounts = (s0, WNums a b) -> step_tl cmp s0 (WCall o) = (s', WOut x) -> x <> TPanic -> step_tl cmp s' WCounts = (s1, WNums a' b') ->
  exists u singles doubles, tl_plain ltb o (values (strip (top (list_of s)))) u /\ turns singles doubles u (values (strip (top (list_of s')))) /\
    if tl_clears o then a' = singles /\ b' = doubles else a' = (a + singles)%nat /\ b' = (b + doubles)%nat.
Proof.
  intros ops o s s0 s' s1 x a b a' b' HP HT Hs H1 H2 Hx H3. cbn [step_tl] in H1, H3. injection H1 as <- <- <-. injection H3 as <- <- <-.
  destruct (C81_treelist_counters_exact_partial ltb W cmp Hcmp ops o s s' x HP HT Hs H2 Hx) as (u & sg & db & P & T & C). exists u, sg, db. split; [exact P|]. split; [exact T|].
  destruct (tl_clears o); exact C.
Qed.
Theorem C81_treelist_reset {K V : Type} (cmp : K -> K -> Z) (s s' : ctl K V) x : step_tl cmp s WReset = (s', x) -> list_of s' = list_of s /\ step_tl cmp s' WCounts = (s', WNums 0 0).
Proof. intros [= <- _]. split; reflexivity. Qed.
Print Assumptions C81_treelist_reported_partial.
Print Assumptions C81_treelist_counters_exact_partial.

(** An insertion rotates at most once, and only if the key was new: any list, any comparison function. *)
Theorem C81_treelist_insertion_once {K V : Type} (cmp : K -> K -> Z) (s s' : ctl K V) o x : tl_inserts o = true -> step_tl cmp s (WCall o) = (s', WOut x) ->
  counts_tl s' = counts_tl s \/
  total (counts_tl s') = S (total (counts_tl s)) /\ x = TBool (match o with TPut _ _ => true | _ => false end).
Proof.
  intros Ho H. cbn [step_tl] in H. pose proof (tcall_insert_once cmp s o Ho) as X. destruct (call_tl cmp s o) as [s1 x1]. injection H as <- <-. cbn [fst snd] in X.
  destruct X as [X|(X & Y)]; [auto|right]. split; [now apply more_total|exact Y].
Qed.
(** A removal of a range rotates at most once on each level above the last; nothing else rotates. *)
Theorem C81_treelist_range_once_a_level {K V : Type} (cmp : K -> K -> Z) (s s' : ctl K V) o x : tl_cuts o = true -> step_tl cmp s (WCall o) = (s', WOut x) ->
  Z.of_nat (total (counts_tl s')) <= Z.of_nat (total (counts_tl s)) + Z.max 0 (ht (top (list_of s)) - 1).
Proof.
  intros Ho H. pose proof (tcall_cut_few cmp s o Ho) as F. cbn [step_tl] in H. destruct (call_tl cmp s o) as [s1 x1]. injection H as <- <-. exact F.
Qed.
Theorem C81_treelist_others_never {K V : Type} (cmp : K -> K -> Z) (s s' : ctl K V) o x : tl_inserts o = false -> tl_cuts o = false ->
  step_tl cmp s (WCall o) = (s', WOut x) -> counts_tl s' = if tl_clears o then (0, 0)%nat else counts_tl s.
Proof.
  intros H1 H2 H. pose proof (tcall_none cmp s o H1 H2) as F. cbn [step_tl] in H. destruct (call_tl cmp s o) as [s1 x1]. injection H as <- <-. exact F.
Qed.
(** So without removals of ranges there are never more rotations than insertions. *)
Theorem C81_treelist_rotations_at_most_insertions {K V : Type} (cmp : K -> K -> Z) (ops : list (nt_op K V)) :
  forallb (fun o => negb (tl_cuts o)) (tl_calls ops) = true ->
  (total (counts_tl (sreach (step_tl cmp) new_tl ops)) <= length (filter tl_inserts (tl_calls ops)))%nat.
Proof.
  intros Hf. enough (H : forall s, (total (counts_tl (sreach (step_tl cmp) s ops)) <= total (counts_tl s) + length (filter tl_inserts (tl_calls ops)))%nat) by (apply (H new_tl)).
  assert (Hc : forall o p, tl_calls (o :: p) = (match o with WCall o => [o] | _ => [] end) ++ tl_calls p :> list (tl_op K V)) by reflexivity.
  induction ops as [|o ops IH]; intros s; [cbn; lia|]. rewrite Hc in *. clear Hc. destruct o as [o| |]; cbn [app sreach step_tl] in *.
  - cbn [forallb filter] in *. apply andb_true_iff in Hf as (F1 & F2). apply negb_true_iff in F1. destruct (call_tl cmp s o) as [s1 x1] eqn:E1. specialize (IH F2 s1). cbn [fst].
    destruct (tl_inserts o) eqn:Ei; cbn [length].
    + destruct (C81_treelist_insertion_once cmp s s1 o x1 Ei) as [H|(H & _)]; [cbn [step_tl]; now rewrite E1|rewrite H in IH; lia|lia].
    + rewrite (C81_treelist_others_never cmp s s1 o x1 Ei F1) in IH; [|cbn [step_tl]; now rewrite E1]. destruct (tl_clears o); [change (total (0, 0)%nat) with 0%nat in IH; lia|lia].
  - specialize (IH Hf (CT (list_of s) (0, 0)%nat)). change (total (counts_tl (CT (list_of s) (0, 0)%nat))) with 0%nat in IH. cbn [fst]. lia.
  - auto.
Qed.
Print Assumptions C81_treelist_insertion_once.
Print Assumptions C81_treelist_range_once_a_level.
Print Assumptions C81_treelist_others_never.
Print Assumptions C81_treelist_rotations_at_most_insertions.

(** ** examples *)
Definition tl_up (n : nat) : list (nt_op Z Z) := map (fun i => WCall (TPut (Z.of_nat i) (Z.of_nat i))) (seq 1 n).
Definition tl_mixed : list (nt_op Z Z) :=
  tl_up 31 ++ [WCounts; WCall (TRemoveRange 4 20); WCounts] ++ map (fun k => WCall (TSet k 0)) [70; 50; 60; 65; 63; 64; 62] ++
  [WCounts; WCall (TRemove 2); WCall TRemoveTail; WCounts; WCall (TRemoveRangeByIndex 3 9); WCounts; WReset; WCall (TPut 7 7); WCounts; WCall TClear; WCounts].
Definition nums {K V} (l : list (nt_out K V)) : list (nat * nat) := flat_map (fun x => match x with WNums a b => [(a, b)] | _ => [] end) l.
(** both kinds of rotation occur, on insertion and in the removal of a range *)
Example C81_treelist_mixed_case : nums (srun (step_tl any) new_tl tl_mixed) = [(26, 0); (27, 1); (31, 3); (31, 3); (33, 3); (0, 0); (0, 0)]%nat.
Proof. vm_compute. reflexivity. Qed.
(** the hypotheses of the theorems at the removal of the range: two rotations in a tree of five levels *)
Example C81_treelist_range_case : exists s s', sreach (step_tl any) new_tl (tl_up 31) = s /\ step_tl any s (WCall (TRemoveRange 4 20)) = (s', WOut (TBool true)) /\
  puts_work any (tl_calls (tl_up 31)) /\ trims_inside Z.ltb [] (tl_calls (tl_up 31) ++ [TRemoveRange 4 20]) /\ ht (top (list_of s)) = 5 /\
  counts_tl s = (26, 0)%nat /\ counts_tl s' = (27, 1)%nat /\ without Z.ltb 4 20 (values (strip (top (list_of s)))) <> values (strip (top (list_of s'))).
Proof.
  eexists _, _. split; [reflexivity|]. split; [cbv; reflexivity|]. split; [apply puts_checked; vm_compute; reflexivity|]. split; [cbn; tauto|].
  repeat split; try (vm_compute; reflexivity). vm_compute. discriminate.
Qed.
Example C81_treelist_insertion_case : exists s s', sreach (step_tl any) new_tl (tl_up 4) = s /\ step_tl any s (WCall (TSet 5 0)) = (s', WOut (TBool false)) /\
  counts_tl s = (1, 0)%nat /\ counts_tl s' = (2, 0)%nat /\ forallb (fun o => negb (tl_cuts o)) (tl_calls (tl_up 31)) = true /\ length (filter tl_inserts (tl_calls (tl_up 31))) = 31%nat.
Proof. eexists _, _. split; [reflexivity|]. split; [cbv; reflexivity|]. repeat split; vm_compute; reflexivity. Qed.
(** one single rotation that leads from the plain tree to the tree there is: 5 put into 1 .. 4 *)
Example C81_treelist_exact_case : exists s s' u, sreach (step_tl any) new_tl (tl_up 4) = s /\ step_tl any s (WCall (TPut 5 5)) = (s', WOut (TBool true)) /\
  tl_plain Z.ltb (TPut 5 5) (values (strip (top (list_of s)))) u /\ u <> values (strip (top (list_of s'))) /\ turns 1 0 u (values (strip (top (list_of s')))).
Proof.
  eexists _, _, _. split; [reflexivity|]. split; [cbv; reflexivity|]. split; [reflexivity|]. split; [vm_compute; discriminate|].
  eapply turns_single; [apply turns_none|]. vm_compute. apply turn_in_right, turn_left.
Qed.
