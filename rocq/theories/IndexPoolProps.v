(** tree/indextree: several trees in one memory (C64). *)
From Verif Require Import Base Bind Machine OrderSpec SMapSpec CompareModel AvlTree AvlSpec IndexSpec IndexPoolSpec IndexModel IndexHeapModel IndexPoolModel.
From Verif Require Import IndexHeapProofs IndexHeapReadProofs IndexHeapRunProofs IndexHeapFrameProofs IndexHeapProps IndexPoolProofs.
From Verif Require IndexProofs IndexProps.
Local Open Scope Z_scope.

(** a node with all its fields as they were *)
Definition unchanged {K A : Type} (m m' : mem K (option A)) (a : nat) : Prop :=
  (Parent m' a, Children m' a false, Children m' a true) = (Parent m a, Children m a false, Children m a true) /\
  (Size m' a, Balance m' a, Key m' a, Value m' a) = (Size m a, Balance m a, Key m a, Value m a).
(** the tree a call is on *)
Definition called_on {K A : Type} (o : pool_op K A) : option nat :=
  match o with PNew => None | POn i _ | PSplit i _ _ => Some i end.

Section Nodes.
  Context {K A : Type}.
  Implicit Types m : mem K (option A).
  Lemma node_in m r s a : ok m r [] s -> node_of m r a -> In a (addrs s).
  Proof.
    intros O H. destruct (node_place m r s a O H) as (c & l & q & ->). eapply Permutation.Permutation_in; [symmetry; apply addrs_plug|].
    apply in_or_app. right. left. reflexivity.
  Qed.
  Lemma node_same m m' r s a : ok m r [] s -> (forall b, b = r \/ In b (addrs s) -> same_at m m' b) -> node_of m r a -> node_of m' r a.
  Proof.
    intros O H Hn. induction Hn as [a Ha|a d b Hn IH Hk].
    - apply top_node. destruct (H r (or_introl eq_refl)) as (_ & Hc & _). rewrite Hc. exact Ha.
    - eapply kid_node; [exact IH|]. destruct (H a (or_intror (node_in m r s a O Hn))) as (_ & Hc & _). rewrite Hc. exact Hk.
  Qed.
  Lemma same_unchanged m m' a : same_at m m' a -> unchanged m m' a.
  Proof. intros (H1 & H2 & H3 & H4 & H5 & H6). unfold unchanged. rewrite H1, !H2, H3, H4, H5, H6. auto. Qed.
End Nodes.

Section Props.
  Context {K A : Type} (ltb : K -> K -> bool) (W : weak_order ltb) (cmp : K -> K -> Z) (Hcmp : plain_cmp ltb cmp)
          (shift : Z) (Hsh : 0 <= shift) (zero : K).
  Notation pstep := (@pstep K A cmp shift zero).
  Notation pool0 := (@pool0 K A zero).

  Lemma run0 (ops : list (pool_op K A)) : pool_in_range ltb [] ops ->
    run pstep pool0 ops = Some (srun (apart cmp shift) [] ops) /\
    (pool_answered ltb [] ops -> srun (apart cmp shift) [] ops = srun (pool_spec ltb) [] ops) /\
    exists m rs, reach pstep pool0 ops = Some (m, rs) /\ prel m rs (sreach (apart cmp shift) [] ops) /\
                 erel ltb (sreach (apart cmp shift) [] ops) (sreach (pool_spec ltb) [] ops).
  Proof. intros H. exact (pool_run ltb W cmp Hcmp shift Hsh zero ops _ _ _ _ (prel0 zero) (erel0 ltb) H). Qed.

  (** Trees in one memory answer as trees each in a memory of its own: full statement for all [ops].  Missing: what comes
      after a TrimByIndex that fails half way. *)
  Theorem C64_trees_apart_partial (ops : list (pool_op K A)) : pool_in_range ltb [] ops ->
    run pstep pool0 ops = Some (srun (apart cmp shift) [] ops).
  Proof. intros H. apply (run0 ops H). Qed.

  (** Each of them answers as a sorted list of entries that no call on another tree changes.  Full statement: for all
      [ops].  Missing: where the code for one tree departs from it, see C30. *)
  Theorem C64_trees_sorted_maps_partial (ops : list (pool_op K A)) : pool_in_range ltb [] ops -> pool_answered ltb [] ops ->
    run pstep pool0 ops = Some (srun (pool_spec ltb) [] ops).
  Proof. intros H1 H2. destruct (run0 ops H1) as (X1 & X2 & _). rewrite X1, (X2 H2). reflexivity. Qed.

  (** No call on one tree changes a field of a node of another, or adds or removes one there (the call may be any, also
      one that fails half way).  Full statement: also after a TrimByIndex that failed half way. *)
  Theorem C64_other_trees_untouched_partial (ops : list (pool_op K A)) o m rs : pool_in_range ltb [] ops ->
    reach pstep pool0 ops = Some (m, rs) ->
    exists m' rs' x, pstep (m, rs) o = Some ((m', rs'), x) /\
      forall j r, nth_error rs j = Some r -> called_on o <> Some j ->
        nth_error rs' j = Some r /\ unchanged m m' r /\
        (forall a, node_of m' r a <-> node_of m r a) /\ (forall a, node_of m r a -> unchanged m m' a).
  Proof.
    intros H Hr. destruct (run0 ops H) as (_ & _ & m0 & rs0 & Hr' & HP & HE). rewrite Hr in Hr'. injection Hr' as <- <-.
    destruct (pool_step ltb cmp shift Hsh zero m rs _ _ o HP HE) as (m' & rs' & HS & HP'). 
    set (x0 := snd _) in HS. clearbody x0. exists m', rs', x0. split; [exact HS|].
    intros j r Hj Ho. set (ts := sreach (apart cmp shift) [] ops) in *.
    assert (Htj : exists tj, nth_error ts j = Some tj).
    { destruct (nth_error ts j) as [tj|] eqn:Et; [eauto|]. apply nth_error_None in Et. rewrite (pr_len _ _ _ HP) in Et. apply nth_lt in Hj. lia. }
    destruct Htj as (tj & Tj).
    assert (Hmain : nth_error rs' j = Some r /\ (next m <= next m')%nat /\ exists sj, ok m r [] sj /\ (forall a, a = r \/ In a (addrs sj) -> same_at m m' a)).
    { assert (Hself : nth_error rs j = Some r /\ (next m <= next m)%nat /\ exists sj, ok m r [] sj /\ (forall a, a = r \/ In a (addrs sj) -> same_at m m a)).
      { split; [exact Hj|]. split; [lia|]. destruct (pr_one _ _ _ HP j r tj Hj Tj) as ((sj & Oj & _) & _). exists sj. split; [exact Oj|]. intros a _. unfold same_at. auto 10. }
      destruct o as [|i o|i contain k]; cbn [IndexPoolModel.pstep called_on] in HS, Ho.
      - unfold newTree, alloc, bind, ret in HS. cbv zeta in HS. injection HS as <- <- _.
        split; [rewrite nth_error_app1 by (eapply nth_lt; exact Hj); exact Hj|]. split; [cbn [next]; lia|].
        destruct (pr_one _ _ _ HP j r tj Hj Tj) as ((sj & Oj & _) & _). exists sj. split; [exact Oj|]. intros a Ha.
        assert (Hlt : (a < next m)%nat) by (apply (ok_l _ _ _ _ Oj); destruct Ha as [->|Ha]; [left; reflexivity|right; exact Ha]).
        unfold same_at. cbn [Parent Children Size Balance Key Value]. rewrite !upd_ne by lia. auto 10.
      - destruct (nth_error rs i) as [ri|] eqn:Hi; [|injection HS as <- <- _; exact Hself].
        assert (Hij : j <> i) by congruence.
        destruct (hstep cmp shift zero (m, ri) o) as [((m1, r1), x)|] eqn:Hh; [|discriminate]. injection HS as <- <- _.
        assert (Ti : exists ti, nth_error ts i = Some ti).
        { destruct (nth_error ts i) as [ti|] eqn:Et; [eauto|]. apply nth_error_None in Et. rewrite (pr_len _ _ _ HP) in Et. apply nth_lt in Hi. lia. }
        destruct Ti as (ti & Ti). destruct (pr_one _ _ _ HP i ri ti Hi Ti) as ((si & Oi & Vi) & Pi).
        pose proof (call_framed m ri si Oi Pi cmp shift zero o m1 r1 x Hh) as F.
        destruct (others m rs ts i ri si ti m1 r1 j r tj HP Hi Oi Vi Pi F Hij Hj Tj) as (sj & Oj & _ & Sj).
        split; [rewrite put_at_ne by congruence; exact Hj|]. split; [exact (fr_next _ _ _ _ _ F)|]. eauto.
      - destruct (nth_error rs i) as [ri|] eqn:Hi; [|injection HS as <- <- _; exact Hself].
        assert (Hij : j <> i) by congruence.
        assert (Ti : exists ti, nth_error ts i = Some ti).
        { destruct (nth_error ts i) as [ti|] eqn:Et; [eauto|]. apply nth_error_None in Et. rewrite (pr_len _ _ _ HP) in Et. apply nth_lt in Hi. lia. }
        destruct Ti as (ti & Ti). destruct (pr_one _ _ _ HP i ri ti Hi Ti) as ((si & Oi & Vi) & Pi).
        pose proof (split_framed m ri si Oi Pi cmp zero contain k) as F.
        assert (Hf : framed m ri si m' ri /\ (rs' = rs \/ exists q, rs' = rs ++ [q])).
        { destruct (Split cmp zero ri contain k m) as [[q|] m1|m1|]; [| | |discriminate]; injection HS as <- <- _.
          - split; [apply F|]. right. eauto.
          - split; [apply F|auto].
          - split; [apply F|auto]. }
        destruct Hf as (F' & Hrs). destruct (others m rs ts i ri si ti m' ri j r tj HP Hi Oi Vi Pi F' Hij Hj Tj) as (sj & Oj & _ & Sj).
        split; [|split; [exact (fr_next _ _ _ _ _ F')|eauto]]. destruct Hrs as [->|(q & ->)]; [exact Hj|]. rewrite nth_error_app1 by (eapply nth_lt; exact Hj). exact Hj. }
    destruct Hmain as (M1 & M2 & sj & Oj & Sj). split; [exact M1|]. split; [apply same_unchanged, Sj; auto|].
    destruct (ok_same m m' r sj Oj M2 Sj) as (Oj' & _ & _). split.
    - intros a. split; [|apply (node_same m m' r sj a Oj Sj)]. apply (node_same m' m r sj a Oj').
      intros b Hb. destruct (Sj b Hb) as (E1 & E2 & E3 & E4 & E5 & E6). unfold same_at. rewrite E1, E3, E4, E5, E6. auto 10.
    - intros a Ha. apply same_unchanged, Sj. right. exact (node_in m r sj a Oj Ha).
  Qed.

  (** No node is in two trees, and all trees are well linked.  Full statement: for all [ops].  Missing: as above. *)
  Theorem C64_no_shared_nodes_partial (ops : list (pool_op K A)) : pool_in_range ltb [] ops ->
    exists m rs, reach pstep pool0 ops = Some (m, rs) /\ NoDup rs /\
      (forall r, In r rs -> well_linked m r /\ check r m = true) /\
      (forall r1 r2 a, In r1 rs -> In r2 rs -> r1 <> r2 -> (a = r1 \/ node_of m r1 a) -> ~ (a = r2 \/ node_of m r2 a)).
  Proof.
    intros H. destruct (run0 ops H) as (_ & _ & m & rs & Hr & HP & HE). exists m, rs. split; [exact Hr|]. split; [exact (pr_nd _ _ _ HP)|].
    assert (Hone : forall r, In r rs -> exists t, rep m r t /\ Parent m r = None /\ sized t).
    { intros r Hi. apply In_nth_error in Hi as (i & Hi). set (ts := sreach (apart cmp shift) [] ops) in *.
      destruct (nth_error ts i) as [ti|] eqn:Et; [|apply nth_error_None in Et; rewrite (pr_len _ _ _ HP) in Et; apply nth_lt in Hi; lia].
      destruct (nth_error (sreach (pool_spec ltb) [] ops) i) as [ei|] eqn:Ee; [|apply nth_error_None in Ee; rewrite (er_len _ _ _ HE) in Ee; apply nth_lt in Et; lia].
      destruct (pr_one _ _ _ HP i r ti Hi Et) as (X1 & X2). exists ti. split; [exact X1|]. split; [exact X2|]. apply (er_one _ _ _ HE i ti ei Et Ee). }
    split.
    - intros r Hi. destruct (Hone r Hi) as (t & X1 & _ & X3). split; [exact (linked m r t X1 X3)|exact (check_ok m r t X1 X3)].
    - intros r1 r2 a H1 H2 Hne Ha Hb. destruct (Hone r1 H1) as (t1 & (s1 & O1 & _) & P1 & _). destruct (Hone r2 H2) as (t2 & (s2 & O2 & _) & P2 & _).
      apply Hne. apply (disjoint m r1 s1 r2 s2 a O1 O2 P1 P2).
      + destruct Ha as [->|Ha]; [auto|right; exact (node_in m r1 s1 a O1 Ha)].
      + destruct Hb as [->|Hb]; [auto|right; exact (node_in m r2 s2 a O2 Hb)].
  Qed.
End Props.
Print Assumptions C64_trees_apart_partial.
Print Assumptions C64_trees_sorted_maps_partial.
Print Assumptions C64_other_trees_untouched_partial.
Print Assumptions C64_no_shared_nodes_partial.

(** ** example: two trees, each split in two with both halves in use, and calls on all four in turn *)
Notation zpool := (pstep (A := Z) any 2 0).
Notation zpool0 := (pool0 (A := Z) 0).
Definition pool_ops : list (pool_op Z Z) :=
  [PNew; PNew] ++ map (POn 0) (IndexProps.xputs (map Z.of_nat (seq 0 20))) ++ map (POn 1) (IndexProps.xputs (map Z.of_nat (seq 10 20))) ++
  [PSplit 0 false 7; PSplit 1 true 20; POn 2 (XRemoveRange 9 15); POn 0 (XPut 9 (Some 90)); POn 1 (XTrim 12 18); POn 3 (XRemove 25);
   POn 0 (XRemoveIndex 0); POn 2 (XPut 2 None); POn 4 XSize;
   POn 0 (XTraverse (fun _ => true)); POn 1 (XTraverse (fun _ => true)); POn 2 (XTraverse (fun _ => true)); POn 3 (XTraverse (fun _ => true))].
Example C64_case : pool_in_range Z.ltb [] pool_ops /\ pool_answered Z.ltb [] pool_ops /\
  option_map (skipn 42) (run zpool zpool0 pool_ops) = Some
    [PGave true; PGave true; PSays XUnit; PSays (XBool true); PSays XUnit; PSays (XVal (Some 25)); PSays (XVal (Some 0)); PSays (XBool true); PNoTree;
     PSays (XSeen ([(1, Some 1); (2, Some 2); (3, Some 3); (4, Some 4); (5, Some 5); (6, Some 6); (9, Some 90)]));
     PSays (XSeen (map (fun k => (k, Some k)) [12; 13; 14; 15; 16; 17; 18]));
     PSays (XSeen ((2, None) :: map (fun k => (k, Some k)) [7; 8; 16; 17; 18; 19]));
     PSays (XSeen (map (fun k => (k, Some k)) [21; 22; 23; 24; 26; 27; 28; 29]))].
Proof. split; [vm_compute; intuition congruence|]. split; [vm_compute; intuition congruence|]. vm_compute. reflexivity. Qed.
(** the four trees in memory: number of entries and the topmost nodes, all different *)
Example C64_case_nodes : option_map (fun s => map (fun r => (r, Children (fst s) r false, option_map (Size (fst s)) (Children (fst s) r false))) (snd s)) (reach zpool zpool0 pool_ops)
  = Some [(0, Some 5, Some 7%Z); (1, Some 29, Some 7%Z); (42, Some 9, Some 7%Z); (43, Some 37, Some 8%Z)]%nat.
Proof. vm_compute. reflexivity. Qed.
