(** tree/treelist: a comparison function that is no order does no damage to the list (C76). *)
From Verif Require Import Base Bind Machine OrderSpec SMapSpec AvlTree AvlSpec IndexSpec TreelistSpec TreelistModel TreelistLinks TreelistProofs TreelistSteps
  FloatModel IndexModel IndexHeapModel IndexHeapProofs IndexHeapReadProofs IndexHeapRunProofs IndexHeapProps
  TreelistHeapModel TreelistHeapProofs TreelistHeapStepProofs TreelistProps TreelistHeapProps WildSpec TreelistWildSpec TreelistWildProofs TreelistWildHeapProofs.
From Verif Require IndexWildProps.
Local Open Scope Z_scope.

Section Props.
  Context {K V : Type} (cmp : K -> K -> Z) (zero : K) (zeroV : V).
  Notation thstep := (@thstep K V cmp).
  Notation tnew := (tnew zero zeroV).
  Notation entries_of m l := (map (fun a => (Key (base m) a, Value (base m) a)) l).
  Notation fine s := (Good s (elems (TreelistModel.top s))).

  Lemma fine_nodes (m : tmem K V) (s : tl K V) : trep m s -> fine s -> well_linked (base m) 0 /\ check 0 (base m) = true /\
    exists l, threaded m 0 l /\ entries_of m l = pk (elems (TreelistModel.top s)).
  Proof.
    intros Q (_ & Hz & Hn & _ & L1 & L2 & L3). pose proof (tr_tree _ _ Q) as (x & O & Hv). pose proof (tr_dirs _ _ Q) as Hd. pose proof (root_zero _ _ O) as H0.
    assert (Hz' : sized (view (base m) x)) by (apply sized_base; rewrite Hv; exact Hz).
    assert (Hrep : rep (base m) 0 (view (base m) x)) by (exists x; split; [apply ok_base, O|reflexivity]).
    split; [exact (linked (base m) 0 _ Hrep Hz')|]. split; [exact (check_ok (base m) 0 _ Hrep Hz')|].
    exists (map S (ids (elems (TreelistModel.top s)))). split.
    - constructor.
      + rewrite (proj2 Hd), L1. apply (follows_forth m (lks s)); [exact Hd|]. intros a y b Eq. apply (L3 a y b Eq).
      + rewrite (proj2 Hd), L2. apply (follows_back m (lks s)); [exact Hd|]. intros a y b Eq. apply (L3 a y b Eq).
      + apply FinFun.Injective_map_NoDup; [|exact Hn]. intros a b Eq. congruence.
      + intros a. rewrite <- Hv, ids_addrs, pred_addrs by exact H0. symmetry. apply node_addr. apply ok_base, O.
    - rewrite <- Hv. apply entries_at, H0.
  Qed.
  Lemma step_wild (m : tmem K V) (s : tl K V) o : trep m s -> fine s -> exists m' x, thstep m o = Some (m', x) /\ x = snd (tl_step cmp s o) /\
    trep m' (fst (tl_step cmp s o)) /\ tmay cmp (pk (elems (TreelistModel.top s))) o (pk (elems (TreelistModel.top (fst (tl_step cmp s o))))) x /\
    (calm o x -> fine (fst (tl_step cmp s o))) /\ (put_fails o x -> 63 < ht (TreelistModel.top s)).
  Proof.
    intros Q G. destruct (s_step_wild cmp m s o Q G) as (m' & x & H1 & H2 & H3). destruct (tstep_wild cmp s o G) as (X1 & X2 & X3).
    assert (Hx : x = snd (tl_step cmp s o)) by (apply H3; destruct o; cbn; auto). exists m', x. rewrite Hx in *. auto 8.
  Qed.
  Lemma trun_wild ops : forall m s m' xs, trep m s -> fine s -> reach thstep m ops = Some m' -> run thstep m ops = Some xs -> Forall2 calm ops xs ->
    exists s', trep m' s' /\ fine s' /\ tmay_run cmp (pk (elems (TreelistModel.top s))) ops xs (pk (elems (TreelistModel.top s'))).
  Proof.
    induction ops as [|o ops IH]; cbn [reach run]; intros m s m' xs Q G H1 H2 H3.
    - injection H1 as <-. injection H2 as <-. exists s. repeat (split; [assumption|]). constructor.
    - destruct (step_wild m s o Q G) as (m1 & x & X1 & _ & X2 & X3 & X4 & _). rewrite X1 in H1, H2.
      destruct (run thstep m1 ops) as [ys|] eqn:Ey; [|discriminate H2]. injection H2 as <-. inversion_clear H3 as [|? ? ? ? C1 C2].
      destruct (IH m1 _ m' ys X2 (X4 C1) H1 Ey C2) as (s' & Y1 & Y2 & Y3). exists s'. repeat (split; [assumption|]). econstructor; eassumption.
  Qed.
  Lemma fine_new : fine (TreelistModel.new (K := K) (V := V)).
  Proof.
    split; [reflexivity|]. split; [exact I|]. split; [constructor|]. split; [intros x []|]. split; [reflexivity|]. split; [reflexivity|].
    intros a x b Eq. destruct a; discriminate Eq.
  Qed.

  (** After any calls that were calm (no Trim by keys, no TrimByIndex that failed, no Put that panicked), whatever the
      comparison function says: the nodes are well linked, their sizes right, and the package's own check goes through; the
      Direct pointers run through all nodes of the tree, forwards and backwards, in the order in which Traverse shows the
      entries; the answers are those of a list of entries in which calls by key found some entry that compares equal, or none,
      and touched no other; and any further call ends and is of that kind too.  A Put that panics is one into a list of more
      than 63 entries.  Full statement: for all [ops].  Missing: what follows a Trim by keys (refuted below), a TrimByIndex
      that panicked (C70_nodes_well_linked_refuted), or a Put that panicked. *)
  Theorem C76_tree_list_any_comparison_partial ops m xs : reach thstep tnew ops = Some m -> run thstep tnew ops = Some xs -> Forall2 calm ops xs ->
    well_linked (base m) 0 /\ check 0 (base m) = true /\
    exists l, threaded m 0 l /\ tmay_run cmp [] ops xs (entries_of m l) /\
      forall o, exists m' x e', thstep m o = Some (m', x) /\ tmay cmp (entries_of m l) o e' x /\ (put_fails o x -> (63 < length l)%nat).
  Proof.
    intros H1 H2 H3. destruct (trun_wild ops _ _ m xs (trep_new zero zeroV) fine_new H1 H2 H3) as (s & Q & G & R).
    destruct (fine_nodes m s Q G) as (L & C & l & T & El). split; [exact L|]. split; [exact C|]. exists l. rewrite El. split; [exact T|]. split; [exact R|].
    intros o. destruct (step_wild m s o Q G) as (m' & x & X1 & _ & _ & X3 & _ & X5). eexists m', x, _. split; [exact X1|]. split; [exact X3|].
    intros F. specialize (X5 F). pose proof (ht_len (TreelistModel.top s)) as Hh.
    assert (Hl : length l = length (elems (TreelistModel.top s))) by (rewrite <- (map_length (fun a => (Key (base m) a, Value (base m) a)) l), El; unfold pk; apply map_length).
    unfold len in *. lia.
  Qed.

  (** Without calls of Trim and TrimByIndex, and with no more than 63 calls that put something in, no condition is left: every
      run ends, and no Put panics. *)
  Definition trimless (o : tl_op K V) : Prop := match o with TTrim _ _ | TTrimByIndex _ _ => False | _ => True end.
  Definition put_calls (ops : list (tl_op K V)) : list (tl_op K V) :=
    filter (fun o => match o with TPut _ _ | TSet _ _ | TPutDuplicate _ _ _ => true | _ => false end) ops.
  Lemma around_len {X : Type} i j (m : list X) : i <= j -> (length (firstn (Z.to_nat i) m ++ skipn (Z.to_nat (j + 1)) m) <= length m)%nat.
  Proof. intros H. rewrite app_length, firstn_length, skipn_length. lia. Qed.
  Lemma tmay_len m o m' x : trimless o -> tmay cmp m o m' x -> (length m' <= length m + length (put_calls [o]))%nat.
  Proof.
    intros Ho H. destruct o; cbn [trimless] in Ho; try contradiction; cbn [tmay put_calls filter] in *; cbn [length];
      try (rewrite Nat.add_0_r).
    - destruct H as [(_ & a & b & -> & ->)|(_ & -> & _)]; rewrite ?app_length; cbn [length]; lia.
    - destruct H as [(_ & a & b & -> & ->)|(_ & e & _ & a & b & -> & ->)]; rewrite ?app_length; cbn [length]; lia.
    - destruct H as [(_ & a & b & -> & ->)|(_ & e & _ & a & b & -> & ->)]; rewrite ?app_length; cbn [length]; lia.
    - destruct H as (-> & _). lia.
    - destruct H as [(_ & ->)|(e & _ & (a & b & -> & ->) & _)]; rewrite ?app_length; cbn [length]; lia.
    - cbn [tl_spec] in H. destruct (entry_at m (Some i)); injection H as -> _; [unfold around; apply around_len|]; lia.
    - cbn [tl_spec] in H. injection H as -> _. lia.
    - cbn [tl_spec] in H. injection H as -> _. lia.
    - cbn [tl_spec] in H. injection H as -> _. destruct m; cbn; lia.
    - cbn [tl_spec] in H. injection H as -> _. destruct m as [|e m]; [cbn; lia|]. rewrite removelast_firstn_len, firstn_length. lia.
    - cbn [tl_spec] in H. injection H as -> _. lia.
    - destruct H as (-> & _). lia.
    - cbn [tl_spec] in H. injection H as -> _. lia.
    - cbn [tl_spec] in H. injection H as -> _. lia.
    - cbn [tl_spec] in H. injection H as -> _. lia.
    - cbn [tl_spec] in H. injection H as -> _. cbn. lia.
    - destruct (cmp lo hi >? 0); [destruct H as (-> & _); lia|]. destruct (cmp lo hi =? 0).
      + destruct H as [(_ & ->)|(_ & e & _ & a & b & -> & ->)]; rewrite ?app_length; cbn [length]; lia.
      + destruct H as [(_ & ->)|(_ & a & b & c & -> & _ & ->)]; rewrite ?app_length; lia.
    - cbn [tl_spec] in H. destruct (j <? i) eqn:Ej; [injection H as -> _; lia|]. destruct ((j <? 0) || _ || _); injection H as -> _; [lia|].
      unfold around. apply around_len. apply Z.ltb_ge in Ej. exact Ej.
  Qed.
  Theorem C76_tree_list_trimless ops : Forall trimless ops -> (length (put_calls ops) <= 63)%nat ->
    exists m xs, reach thstep tnew ops = Some m /\ run thstep tnew ops = Some xs /\ Forall2 (fun o x => ~ put_fails o x) ops xs /\
      well_linked (base m) 0 /\ check 0 (base m) = true /\ exists l, threaded m 0 l /\ tmay_run cmp [] ops xs (entries_of m l).
  Proof.
    intros Hf Hc. enough (H : forall m s, trep m s -> fine s -> (length (elems (TreelistModel.top s)) + length (put_calls ops) <= 63)%nat ->
      exists m' xs, reach thstep m ops = Some m' /\ run thstep m ops = Some xs /\ Forall2 calm ops xs).
    { destruct (H _ _ (trep_new zero zeroV) fine_new) as (m & xs & H1 & H2 & H3); [cbn; unfold len in Hc; lia|].
      destruct (C76_tree_list_any_comparison_partial ops m xs H1 H2 H3) as (L & C & l & T & R & _). exists m, xs. split; [exact H1|]. split; [exact H2|]. split; [|eauto 6].
      clear - Hf H3. induction H3 as [|o x ops xs Ho H IH]; inversion_clear Hf; constructor; auto. destruct o; cbn [calm trimless put_fails] in *; tauto. }
    clear Hc. induction Hf as [|o ops Ho Hf IH]; intros m s Q G Hn; [exists m, []; cbn; auto|].
    destruct (step_wild m s o Q G) as (m1 & x & X1 & Xs & X2 & X3 & X4 & X5). pose proof (tmay_len _ _ _ _ Ho X3) as Hl. unfold pk in Hl. rewrite !map_length in Hl.
    assert (Hsplit : length (put_calls (o :: ops)) = (length (put_calls [o]) + length (put_calls ops))%nat) by (cbn [put_calls filter]; destruct o; reflexivity).
    assert (Hcalm : calm o x).
    { assert (Hp : ~ put_fails o x) by (intros F; specialize (X5 F); pose proof (ht_len (TreelistModel.top s)); unfold len in *; lia).
      destruct o; cbn [calm trimless] in *; tauto. }
    destruct (IH m1 _ X2 (X4 Hcalm)) as (m' & xs & Y1 & Y2 & Y3); [lia|]. cbn [reach run]. rewrite X1, Y1, Y2. eexists _, _. split; [reflexivity|]. split; [reflexivity|].
    constructor; assumption.
  Qed.
End Props.
Print Assumptions C76_tree_list_any_comparison_partial.
Print Assumptions C76_tree_list_trimless.

(** ** where that ends *)
Notation serial := IndexWildProps.serial.
Notation sheap := (thstep (V := Z) serial).
Notation snew := (tnew 0 0).
Definition wputs (l : list Z) : list (tl_op Z Z) := map (fun z => TPut z z) l.
(** A Trim with numbers that count on from 15 to 0 leaves four entries and a Size of five, and an Index panics that should not. *)
Theorem C76_tree_list_trim_refuted : exists ops m, run sheap snew (ops ++ [TSize; TTraverse (fun _ => true); TIndex 4]) =
    Some [TBool true; TBool true; TBool true; TBool true; TBool true; TUnit; TNum 5; TSeen (map (fun z => (z, z)) [14; 0; 6; 7]); TPanic] /\
  reach sheap snew ops = Some m /\ ~ well_linked (base m) 0 /\ check 0 (base m) = false.
Proof.
  exists (wputs [0; 6; 14; 4; 7] ++ [TTrim 5 11]). destruct (reach sheap snew (wputs [0; 6; 14; 4; 7] ++ [TTrim 5 11])) as [m|] eqn:Er; [|vm_compute in Er; discriminate].
  exists m. split; [vm_compute; reflexivity|]. split; [reflexivity|].
  assert (H : option_map (fun m => (check 0 (base m), Children (base m) 0 false, (Children (base m) 1 false, Children (base m) 1 true), map (Size (base m)) [1; 2; 3]))%nat
                         (reach sheap snew (wputs [0; 6; 14; 4; 7] ++ [TTrim 5 11])) = Some (false, Some 1%nat, (Some 3%nat, Some 2%nat), [5; 2; 1])) by (vm_compute; reflexivity).
  rewrite Er in H. cbn [option_map map] in H. injection H as H2 H3 H4 H5 H6 H7 H8. split; [|exact H2].
  intros X. pose proof (wl_size _ _ X 1 (top_node _ _ _ H3)) as Y. rewrite H4, H5 in Y. cbn [sz] in Y. rewrite H6, H7, H8 in Y. discriminate.
Qed.
Print Assumptions C76_tree_list_trim_refuted.

(** ** examples *)
(** NaN among floats (compare.Any), and the circular numbers: all kinds of calls on lists out of order *)
Notation flo := IndexWildProps.flo.
Definition wild_ops {K : Type} (f : Z -> K) (w : K) : list (tl_op K Z) :=
  map (fun z => TPut (f z) z) [5; 1; 9; 3] ++ [TPut w 100] ++ map (fun z => TPut (f z) z) [12; 7; 4; 14; 2; 11; 0; 8] ++
  [TSet w 200; TPutDuplicate w 300 (Z.add 1); TGet (f 3); TGet w; TIndexOf w; TIndex 4; TRemove (f 9); TRemoveRange (f 2) (f 5); TSize; TRemoveIndex 0;
   TTraverse (fun _ => true); THead; TTail; TRemoveRangeByIndex 1 1; TRemoveHead; TRemoveTail; TSlices; THead; TTail].
Example C76_tree_list_case_nan : Forall trimless (wild_ops flo NaN) /\ (length (put_calls (wild_ops flo NaN)) <= 63)%nat /\
  option_map (skipn 13) (run (thstep (V := Z) (anyBy flt)) (tnew NaN 0) (wild_ops flo NaN)) = Some
    [TBool true; TBool true; TVal (Some 3); TVal (Some 201); TNum 5; TSlice (Some (flo 4, 4)); TSlice (Some (flo 9, 9)); TBool true; TNum 7;
     TSlice (Some (flo 0, 0)); TSeen [(flo 1, 1); (flo 7, 7); (flo 8, 8); (flo 11, 11); (flo 12, 12); (flo 14, 14)]; TSlice (Some (flo 1, 1));
     TSlice (Some (flo 14, 14)); TUnit; TSlice (Some (flo 1, 1)); TSlice (Some (flo 14, 14)); TSeen [(flo 8, 8); (flo 11, 11); (flo 12, 12)];
     TSlice (Some (flo 8, 8)); TSlice (Some (flo 12, 12))].
Proof. split; [repeat constructor|]. split; [cbn; lia|]. vm_compute. reflexivity. Qed.
Example C76_tree_list_case_serial : Forall trimless (wild_ops (fun z => z) 13) /\ (length (put_calls (wild_ops (fun z : Z => z) 13%Z)) <= 63)%nat /\
  option_map (skipn 13) (run sheap snew (wild_ops (fun z => z) 13)) = Some
    [TBool true; TBool true; TVal (Some 3); TVal (Some 201); TNum 0; TSlice (Some (2, 2)); TSlice (Some (9, 9)); TBool true; TNum 8;
     TSlice (Some (13, 201)); TSeen [(14, 14); (0, 0); (1, 1); (7, 7); (8, 8); (11, 11); (12, 12)]; TSlice (Some (14, 14)); TSlice (Some (12, 12));
     TUnit; TSlice (Some (14, 14)); TSlice (Some (12, 12)); TSeen [(1, 1); (7, 7); (8, 8); (11, 11)]; TSlice (Some (1, 1)); TSlice (Some (11, 11))].
Proof. split; [repeat constructor|]. split; [cbn; lia|]. vm_compute. reflexivity. Qed.
