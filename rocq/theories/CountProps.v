(** C81: the rotation counters of tree/avl. *)
From Verif Require Import Base Bind Machine OrderSpec SMapSpec SMapFacts CompareModel AvlTree AvlSpec AvlModel AvlProofs AvlAny AvlStep AvlProps RotSpec AvlCountModel AvlCountProofs AvlOnceProofs.
Local Open Scope Z_scope.

(** the calls among the steps: all but ResetBenchmarkStats and BenchmarkStats *)
Definition calls {K V} (ops : list (n_op K V)) : list (sm_op K V) := flat_map (fun o => match o with NCall o => [o] | _ => [] end) ops.
Definition resets {K V} (o : n_op K V) : bool := match o with NReset => true | _ => false end.

Section Props.
  Context {K V : Type} (ltb : K -> K -> bool) (W : weak_order ltb) (cmp : K -> K -> Z) (Hcmp : ex_cmp ltb cmp).

  (** Counting, reading and resetting the counters does not touch the tree. *)
  Theorem C81_avl_same_tree d (ops : list (n_op K V)) :
    option_map base (reach (step_n cmp d) new_n ops) = reach (step cmp Both d) new (calls ops).
  Proof.
    change (@new K V) with (base (@new_n K V)). generalize (@new_n K V). induction ops as [|o ops IH]; intros s; [reflexivity|].
    destruct o as [o| |]; cbn [calls flat_map app reach].
    - rewrite step_erase. destruct (step_n cmp d s (NCall o)) as [[s' r]|] eqn:Es; [|reflexivity]. unfold out_erase. cbn [fst snd].
      assert (exists r', r = NOut r') as (r' & ->); [|apply IH].
      clear - Es. destruct o; cbn [step_n] in Es;
        repeat match type of Es with context [match ?x with Some _ => _ | None => None end] => destruct x as [[? ?]|]; [|discriminate] end; injection Es as _ <-; eauto.
    - cbn [step_n]. exact (IH (CA (base s) (0, 0)%nat)).
    - cbn [step_n]. apply IH.
  Qed.

  (** In any call the counters grow by the numbers of single and double rotations that lead from what the call makes of
      an ordinary search tree to the tree there is afterwards: for any threshold and any tree. *)
  Theorem C81_avl_counters_exact d (s s' : cavl K V) o r : step_n cmp d s (NCall o) = Some (s', r) ->
    exists u singles doubles, plain ltb o (strip (root (base s))) u /\ turns singles doubles u (strip (root (base s'))) /\
      fst (counts_of s') = (fst (counts_of s) + singles)%nat /\ snd (counts_of s') = (snd (counts_of s) + doubles)%nat.
  Proof.
    intros H. destruct (step_turned ltb cmp Hcmp d W s o s' r H) as (u & P & sg & db & T & E1 & E2). exists u, sg, db. repeat split; auto; lia.
  Qed.

  (** The same of what BenchmarkStats reports before and after the call; ResetBenchmarkStats makes that 0. *)
  Corollary C81_avl_reported d (s s0 s' s1 : cavl K V) o r a b a' b' : step_n cmp d s NStats = Some (s0, NCounts (a, b)) -> step_n cmp d s0 (NCall o) = Some (s', r) ->
    step_n cmp d s' NStats = Some (s1, NCounts (a', b')) ->
    exists u singles doubles, plain ltb o (strip (root (base s))) u /\ turns singles doubles u (strip (root (base s'))) /\ a' = (a + singles)%nat /\ b' = (b + doubles)%nat.
  Proof.
    cbn [step_n]. intros [= <- C1] H [= _ C3]. destruct (C81_avl_counters_exact d s s' o r H) as (u & sg & db & P & T & C). exists u, sg, db. split; [exact P|]. split; [exact T|].
    rewrite C1, C3 in C. exact C.
  Qed.
  Theorem C81_avl_reset d (s s' : cavl K V) x : step_n cmp d s NReset = Some (s', x) -> base s' = base s /\ step_n cmp d s' NStats = Some (s', NCounts (0, 0)%nat).
  Proof. intros [= <- _]. split; reflexivity. Qed.

  (** A removal rotates at most once on each level above the last. *)
  Theorem C81_avl_removal_once_a_level d (s s' : cavl K V) o r : step_n cmp d s (NCall o) = Some (s', r) -> removes o = true ->
    Z.of_nat (total (counts_of s')) <= Z.of_nat (total (counts_of s)) + Z.max 0 (ht (root (base s)) - 1).
  Proof. apply (step_few ltb cmp Hcmp d W). Qed.

  Lemma reached d (ops : list (n_op K V)) s : 2 <= d <= 127 -> stays_low cmp d (calls ops) -> reach (step_n cmp d) new_n ops = Some s ->
    Inv (d - 1) (root (base s)) /\ ht (root (base s)) <= 126 /\ strictly_sorted ltb (elems (root (base s))).
  Proof.
    intros Hd HL HR. pose proof (C81_avl_same_tree d ops) as E1. rewrite HR in E1. cbn [option_map] in E1.
    destruct (run_total ltb W cmp Hcmp Both d (d - 1) (RBd d Hd) ltac:(lia) (calls ops) new [] (rel_new ltb) (Inv_E _) HL) as (_ & s' & E2 & (E3 & _ & E4) & HI).
    assert (s' = base s) by congruence. subst s'. split; [exact HI|]. split; [|congruence]. apply (HL (calls ops) []); [now rewrite app_nil_r|congruence].
  Qed.
  (** With a threshold of at least 2 an insertion rotates at most once, and only if the key was new; reading never does.
      Full statement: for every threshold.  Missing: threshold 1, which New uses (refuted below). *)
  Theorem C81_avl_insertion_once_partial d (ops : list (n_op K V)) s o s' r : 2 <= d <= 127 -> stays_low cmp d (calls ops) ->
    reach (step_n cmp d) new_n ops = Some s -> step_n cmp d s (NCall o) = Some (s', r) -> removes o = false ->
    counts_of s' = counts_of s \/ (total (counts_of s') = S (total (counts_of s)) /\ size (base s') = S (size (base s))).
  Proof.
    intros Hd HL HR Hs Ho. destruct (clears o) eqn:Hc.
    - destruct o; try discriminate. injection Hs as <- _. left. reflexivity.
    - destruct (reached d ops s Hd HL HR) as (I1 & I2 & I3). destruct (step_once d Hd ltb W cmp Hcmp s o s' r I1 I2 I3 Hs Ho Hc) as [(H & _)|H]; auto.
  Qed.
  (** So as long as nothing is removed there are never more rotations than entries. *)
  Theorem C81_avl_rotations_at_most_size_partial d (ops : list (n_op K V)) s : 2 <= d <= 127 -> stays_low cmp d (calls ops) ->
    reach (step_n cmp d) new_n ops = Some s -> forallb (fun o => negb (removes o || clears o)) (calls ops) = true ->
    (total (counts_of s) <= size (base s))%nat.
  Proof.
    intros Hd. revert s. induction ops as [|o ops IH] using rev_ind; intros s HL HR Hf; [injection HR as <-; cbn; lia|].
    assert (Hcalls : calls (ops ++ [o]) = calls ops ++ calls [o]) by (unfold calls; apply flat_map_app). rewrite Hcalls in HL, Hf.
    assert (HL' : stays_low cmp d (calls ops)).
    { intros p q s1 E1. apply (HL p (q ++ calls [o])). rewrite E1, app_assoc. reflexivity. }
    rewrite forallb_app in Hf. apply andb_true_iff in Hf as (F1 & F2).
    assert (Happ : forall o2 s0, reach (step_n cmp d) s0 (ops ++ o2) = match reach (step_n cmp d) s0 ops with Some s1 => reach (step_n cmp d) s1 o2 | None => None end).
    { clear. intros o2. induction ops as [|o ops IH]; intros s0; [reflexivity|]. cbn [app reach]. destruct (step_n cmp d s0 o) as [[s1 r]|]; auto. }
    rewrite Happ in HR. destruct (reach (step_n cmp d) new_n ops) as [s1|] eqn:E1; [|discriminate]. specialize (IH s1 HL' eq_refl F1).
    cbn [reach] in HR. destruct (step_n cmp d s1 o) as [[s2 r]|] eqn:E2; [|discriminate]. injection HR as <-.
    destruct o as [o| |]; [|injection E2 as <- _; cbn; lia|injection E2 as <- _; exact IH].
    cbn [calls flat_map app forallb] in F2. rewrite andb_true_r in F2. apply negb_true_iff, orb_false_iff in F2 as (F2 & F3).
    destruct (reached d ops s1 Hd HL' E1) as (I1 & I2 & I3).
    destruct (step_once d Hd ltb W cmp Hcmp s1 o s2 r I1 I2 I3 E2 F2 F3) as [(-> & H)|(H1 & H2)]; lia.
  Qed.
  (** Threshold 2: no bound on the height has to be assumed. *)
  Theorem C81_threshold_two_partial (ops : list (n_op K V)) s : Z.of_nat (length (calls ops)) < 2 ^ 64 ->
    reach (step_n cmp 2) new_n ops = Some s -> forallb (fun o => negb (removes o || clears o)) (calls ops) = true ->
    (total (counts_of s) <= size (base s))%nat.
  Proof. intros H. apply C81_avl_rotations_at_most_size_partial; [lia|]. now apply (stays_low_2 ltb W cmp Hcmp). Qed.
End Props.
Print Assumptions C81_avl_same_tree.
Print Assumptions C81_avl_reported.
Print Assumptions C81_avl_counters_exact.
Print Assumptions C81_avl_removal_once_a_level.
Print Assumptions C81_avl_insertion_once_partial.
Print Assumptions C81_avl_rotations_at_most_size_partial.
Print Assumptions C81_threshold_two_partial.

(** New uses threshold 1.  There one insertion may rotate more than once, and rotations outnumber the entries. *)
Definition ascending (n : nat) : list (n_op Z unit) := map (fun i => NCall (MPut (Z.of_nat i) tt)) (seq 1 n).
Theorem C81_avl_insertion_once_refuted : exists (ops : list (n_op Z unit)) s k s' r,
  reach (step_n any_ex 1) new_n ops = Some s /\ step_n any_ex 1 s (NCall (MPut k tt)) = Some (s', r) /\ total (counts_of s') = (3 + total (counts_of s))%nat.
Proof. exists (ascending 6). eexists. exists 7. eexists _, _. split; [vm_compute; reflexivity|]. split; vm_compute; reflexivity. Qed.
Theorem C81_avl_rotations_at_most_size_refuted : exists (ops : list (n_op Z unit)) s, reach (step_n any_ex 1) new_n ops = Some s /\
  forallb (fun o => negb (removes o || clears o)) (calls ops) = true /\ size (base s) = 100%nat /\ total (counts_of s) = 293%nat.
Proof. exists (ascending 100). eexists. split; [vm_compute; reflexivity|]. split; [vm_compute; reflexivity|]. split; vm_compute; reflexivity. Qed.
Print Assumptions C81_avl_insertion_once_refuted.
Print Assumptions C81_avl_rotations_at_most_size_refuted.

(** ** examples *)
Definition mixed : list (n_op Z Z) :=
  map (fun k => NCall (MPut k k)) [5; 2; 8; 1; 3; 4] ++ [NStats; NCall (MUpsert 5 50)] ++ map (fun k => NCall (MSet k k)) [9; 10; 7] ++ [NCall (MRemove 1); NStats; NReset; NCall (MRemove 5); NCall (MDelete 6)].
Lemma mixed_low : stays_low any_ex 2 (calls mixed).
Proof. apply (stays_low_2 Z.ltb Zltb_weak any_ex zcmp_ex). vm_compute. reflexivity. Qed.
(** both kinds of rotation occur; the two figures BenchmarkStats reports are those of the moment *)
Example C81_mixed_case : option_map (map (fun r => match r with NCounts c => [c] | _ => [] end)) (run (step_n any_ex 2) new_n mixed) =
  Some [[]; []; []; []; []; []; [(0, 1)%nat]; []; []; []; []; []; [(2, 2)%nat]; []; []; []] /\
  option_map (fun s => (counts_of s, size (base s))) (reach (step_n any_ex 2) new_n mixed) = Some ((0, 0)%nat, 7%nat).
Proof. split; vm_compute; reflexivity. Qed.
Example C81_insertion_case : exists s s' r, reach (step_n any_ex 2) new_n (firstn 5 mixed) = Some s /\ counts_of s = (0, 0)%nat /\
  step_n any_ex 2 s (NCall (MPut 4 4)) = Some (s', r) /\ counts_of s' = (0, 1)%nat /\
  strip (root (base s')) = Node 3 3 (Node 2 2 (Node 1 1 Leaf Leaf) Leaf) (Node 5 5 (Node 4 4 Leaf Leaf) (Node 8 8 Leaf Leaf)).
Proof. eexists _, _, _. split; [vm_compute; reflexivity|]. repeat split; vm_compute; reflexivity. Qed.
Example C81_removal_case : exists s s' r, reach (step_n any_ex 2) new_n (firstn 11 mixed) = Some s /\ ht (root (base s)) = 4 /\
  step_n any_ex 2 s (NCall (MRemove 1)) = Some (s', r) /\ counts_of s = (1, 2)%nat /\ counts_of s' = (2, 2)%nat.
Proof. eexists _, _, _. split; [vm_compute; reflexivity|]. repeat split; vm_compute; reflexivity. Qed.
