(** Skip lists and heaps: a comparison function that is no order does no damage (C79). *)
From Verif Require Import Base Bind Machine OrderSpec SMapSpec SMapFacts SkipSpec SkipModel SkipProofs SkipOps WildSpec SkipWildSpec SkipWildProofs
  HeapSpec HeapModel HeapProps FloatModel AvlWildProps.
Local Open Scope Z_scope.

(** heap: whatever the comparison function answers, no call panics, Pop and Top give an element that is there if there is
    one, Pop takes out just that one, and Size and Empty are right. *)
Theorem C79_heap_any_comparison (A : Type) (zero : A) (compare : A -> A -> Z) (ops : list (heap_op A)) :
  exists rs, run (HeapModel.step zero compare) (HeapModel.new zero) ops = Some rs /\ heap_hist (fun _ _ => True) [] ops rs.
Proof. apply C03_heap_refines_bag. constructor; auto. Qed.
Print Assumptions C79_heap_any_comparison.

Section Skip.
  Context {K V : Type} (cmp : K -> K -> Z).

  Lemma sk_wild_run (ops : list (sk_op K V)) : forallb (fun o => negb (ranges o)) ops = true -> forall s m, rel tt_ s m ->
    exists s' m' xs, run (sk_step cmp) s ops = Some xs /\ reach (sk_step cmp) s ops = Some s' /\ kmay_run cmp m ops xs m' /\ rel tt_ s' m'.
  Proof.
    induction ops as [|o ops IH]; intros Ho s m H; [exists s, m, []; repeat split; auto; constructor|].
    cbn [forallb] in Ho. apply andb_true_iff in Ho as (H1 & H2). apply negb_true_iff in H1.
    destruct (sk_wild cmp s m o H1 H) as (s1 & m1 & x & E & R1 & M1). destruct (IH H2 s1 m1 R1) as (s' & m' & xs & E1 & E2 & E3 & R2).
    exists s', m', (x :: xs). cbn [run reach]. rewrite E, E1, E2. repeat split; auto. econstructor; eauto.
  Qed.

  (** tree/skiplist, all calls but RemoveRangeByIndex, with any comparison function and any coin flips: no panic, no endless
      loop; a call by key ends at a place where the entry before is below the key and the one after is not, and touches no
      entry but the one found there; Slice gives all entries in the end, and Size is their number. *)
  Theorem C79_skiplist_any_comparison_partial l (ops : list (sk_op K V)) : forallb (fun o => negb (ranges o)) ops = true ->
    exists s m xs, run (sk_step cmp) (NewWithMaxLevel l) ops = Some xs /\ kmay_run cmp [] ops xs m /\
      reach (sk_step cmp) (NewWithMaxLevel l) ops = Some s /\ slice s = Some m /\ SkipModel.size s = len m.
  Proof.
    intros Ho. destruct (sk_wild_run ops Ho (NewWithMaxLevel l) [] (new_rel tt_ l)) as (s & m & xs & E1 & E2 & E3 & R).
    exists s, m, xs. repeat split; auto; [now apply (slice_ok tt_)|now apply (rel_size tt_)].
  Qed.

  (** The description is not too loose: with an order it leaves nothing open but what Trim and TrimByIndex drop. *)
  Context (ltb : K -> K -> bool) (W : weak_order ltb) (Hc : sign_cmp ltb cmp).
  Lemma place_cut k (m a b : list (K * V)) : strictly_sorted ltb m -> place cmp k m a b -> a = before ltb k m /\ b = sames ltb k m ++ after ltb k m.
  Proof.
    intros Sm (-> & H1 & H2). assert (Sm' := Sm). unfold strictly_sorted in Sm'. apply ssorted_app in Sm' as (S1 & S2 & S3).
    assert (Ha : forall e, In e a -> ltb (fst e) k = true).
    { destruct a as [|x a _] using rev_ind; [intros ? []|]. rewrite rev_app_distr in H1. cbn [rev app] in H1. apply Z.ltb_lt in H1. rewrite (cmp_lt ltb cmp Hc) in H1.
      intros e He. apply in_app_or in He as [He|[<-|[]]]; auto. apply ssorted_app in S1 as (_ & _ & S1). apply (wo_trans ltb W _ (fst x)); auto. apply S1; auto. now left. }
    assert (Hb : forall e, In e b -> ltb (fst e) k = false).
    { destruct b as [|x b]; [intros ? []|]. apply Z.ltb_ge in H2. rewrite (cmp_lt ltb cmp Hc) in H2. intros e [<-|He]; auto. inversion S2 as [|? ? _ S4]; subst. rewrite Forall_forall in S4. specialize (S4 e He).
      destruct (ltb (fst e) k) eqn:F; auto. rewrite (wo_trans ltb W _ _ _ S4 F) in H2. discriminate. }
    pose proof (cut_all ltb W (a ++ b) k (strict_weak ltb W _ Sm)) as E.
    assert (Eb : before ltb k (a ++ b) = a). { unfold before. rewrite filter_app, filter_all, filter_none, app_nil_r; auto. }
    split; auto. rewrite Eb in E. now apply app_inv_head in E.
  Qed.
  Theorem C79_exact_for_orders (m m' : list (K * V)) o x : strictly_sorted ltb m -> kmay cmp m o m' x ->
    match o with KTrim _ _ | KTrimByIndex _ _ => True | _ => (m', x) = sk_spec ltb m o end.
  Proof.
    intros Sm.
    assert (Fo : forall k a b, place cmp k m a b -> a = before ltb k m /\
      (sames ltb k m = [] /\ b = after ltb k m /\ found cmp k b = None \/ exists e, sames ltb k m = [e] /\ b = e :: after ltb k m /\ found cmp k b = Some (e, after ltb k m))).
    { intros k a b Pl. destruct (place_cut k m a b Sm Pl) as (-> & Eb). split; auto. destruct (strict_sames ltb W m k Sm) as [Es|(e & Es)]; rewrite Es in *; cbn [app] in Eb.
      - left. split; auto. split; auto. rewrite Eb. destruct (after ltb k m) as [|y l] eqn:Ea; auto. cbn [found]. assert (Hy : In y (after ltb k m)) by (rewrite Ea; now left).
        apply after_in in Hy as (_ & Hy). rewrite (cmp_eq ltb cmp Hc). unfold same. rewrite Hy. now rewrite andb_false_r.
      - right. exists e. split; auto. split; auto. rewrite Eb. cbn [found]. rewrite (cmp_eq ltb cmp Hc). assert (He : In e (sames ltb k m)) by (rewrite Es; now left). apply filter_In in He as (_ & ->). auto. }
    assert (Bl : forall a e b, m = a ++ e :: b -> ~ blocked cmp a e).
    { intros a e b E (e' & H1 & H2). rewrite E in Sm. unfold strictly_sorted in Sm. apply ssorted_app in Sm as (_ & _ & S3). specialize (S3 e' e H1 ltac:(now left)).
      apply Z.ltb_ge in H2. rewrite (cmp_lt ltb cmp Hc) in H2. congruence. }
    destruct o; cbn [kmay sk_spec]; auto.
    all: try (intros (a & b & Pl & H); destruct (Fo _ _ _ Pl) as (-> & [(Es & -> & F)|((k0 & v0) & Es & -> & F)]); rewrite F in H; destruct H as (-> & ->); unfold sput, write, erase; rewrite Es; cbn [fst hd_error]; auto; fail).
    - intros (-> & a & b & Pl & ->). destruct (Fo _ _ _ Pl) as (-> & [(Es & -> & F)|((k0 & v0) & Es & -> & F)]); rewrite F, Es; reflexivity.
    - intros (a & b & Pl & H). destruct (Fo _ _ _ Pl) as (-> & [(Es & -> & F)|(e & Es & -> & F)]); rewrite F in H; destruct H as (-> & ->); unfold erase; rewrite Es; cbn [hd_error]; auto.
      destruct Pl as (<- & _). reflexivity.
    - destruct m as [|e0 m0] eqn:Em; [intros (-> & ->); auto|]. rewrite <- Em in *. intros (a & b & Pl & H).
      destruct (cut_same_strict ltb W [] e0 m0 (fst e0) (same_refl ltb W _) ltac:(rewrite <- Em; exact Sm)) as (X1 & X2 & X3). cbn [app] in *. rewrite <- Em in *.
      destruct (Fo _ _ _ Pl) as (-> & [(Es & -> & F)|(e & Es & -> & F)]); rewrite F in H; destruct H as (-> & ->); [congruence|]. rewrite X1, X3. rewrite X2 in Es. injection Es as <-. rewrite Em. reflexivity.
    - destruct (rev m) as [|e a] eqn:Er.
      + apply (f_equal (@rev _)) in Er. rewrite rev_involutive in Er. subst m. intros (-> & ->). reflexivity.
      + unfold last_entry. rewrite Er. assert (Em : m = rev a ++ [e]) by (rewrite <- (rev_involutive m), Er; reflexivity).
        intros [(-> & ->)|(_ & _ & B)]; [|exfalso; apply (Bl _ _ _ Em B)]. rewrite Em, removelast_last. reflexivity.
    - intros (-> & ->). reflexivity.
    - intros (-> & ->). reflexivity.
    - intros (-> & ->). reflexivity.
    - intros (-> & ->). reflexivity.
    - intros (-> & ->). reflexivity.
    - intros (-> & ->). reflexivity.
    - intros (-> & ->). reflexivity.
    - intros (-> & ->). reflexivity.
    - intros (-> & H). unfold position. f_equal. destruct H as [(-> & H)|(a & e & b & Em & Ee & Ha & ->)].
      + destruct (sames ltb k m) as [|y l] eqn:Es; auto. exfalso. assert (Hy : In y (sames ltb k m)) by (rewrite Es; now left). apply filter_In in Hy as (Hy1 & Hy2). apply (H y Hy1).
        apply Z.eqb_eq. now rewrite (cmp_eq ltb cmp Hc).
      + apply Z.eqb_eq in Ee. rewrite (cmp_eq ltb cmp Hc) in Ee. assert (Sm' := Sm). rewrite Em in Sm'. destruct (cut_same_strict ltb W a e b k Ee Sm') as (X1 & X2 & _). now rewrite Em, X1, X2.
    - destruct (at_index m i) as [e|] eqn:Ei; [|intros (-> & ->); reflexivity]. intros [(-> & ->)|(_ & _ & B)]; [reflexivity|]. exfalso. unfold at_index in Ei.
      destruct ((0 <=? i) && (i <? len m)); [|discriminate]. apply nth_error_split in Ei as (a & b & Em & El). apply (Bl a e b Em). rewrite Em, <- El, firstn_app, Nat.sub_diag, firstn_all in B. cbn [firstn] in B. now rewrite app_nil_r in B.
    - intros [].
  Qed.
End Skip.
Print Assumptions C79_skiplist_any_comparison_partial.
Print Assumptions C79_exact_for_orders.

(** RemoveRangeByIndex takes out the nodes it found by position, going by keys, and counts them whether it succeeded or not:
    with a comparison function that only tells equal keys from others, two entries are left and Size is 1, and further calls
    end in a nil pointer. *)
Definition differ (a b : Z) : Z := if a =? b then 0 else 1.
Theorem C79_range_removal_refuted : exists (cmp : Z -> Z -> Z) (ops : list (sk_op Z Z)),
  (forall a, cmp a a = 0) /\
  run (sk_step cmp) New (ops ++ [KRemoveRangeByIndex 1 1; KSlice; KSize]) = Some [KBool true; KBool true; KUnit; KSeen [(2, 20); (1, 10)]; KNum 1] /\
  run (sk_step cmp) New (ops ++ [KRemoveRangeByIndex 1 1; KRemove 2; KRemove 1; KRemoveHead]) = None.
Proof.
  exists differ, [KPut 1 10 0; KPut 2 20 0]. split; [|vm_compute; auto]. intros a. unfold differ. now rewrite Z.eqb_refl.
Qed.
Print Assumptions C79_range_removal_refuted.

(** ** examples *)
Definition wild_kops (f : Z -> nat) : list (sk_op Z Z) :=
  map (fun z => KPut z (10 * z) (f z)) [5; 1; 9; 3; 13; 12; 7; 4; 14; 2; 11; 0; 8] ++
  [KSlice; KSet 13 200 2; KPutDuplicate 9 99 1; KGet 3; KGet 13; KRemove 9; KRemove 13; KIndexOf 5; KIndex 2; KRemoveIndex 3; KRemoveTail; KRemoveHead;
   KTrim 3 9; KTrimByIndex 1 2; KSize; KSlice].
Example C79_case_skip : forallb (fun o => negb (ranges o)) (wild_kops (fun z => Z.to_nat (z mod 3))) = true /\
  option_map (skipn 13) (run (sk_step chaos) New (wild_kops (fun z => Z.to_nat (z mod 3)))) = Some
  [KSeen [(0, 0); (2, 110); (3, 130); (14, 80); (7, 70); (5, 90); (12, 120); (1, 40)]; KBool true; KDup (Some (0, 0)) false; KVal None; KVal (Some 200); KEntry (Some (0, 99)); KEntry (Some (13, 200)); KNum (-1); KEntry (Some (14, 80)); KEntry None; KEntry None; KEntry None; KUnit; KUnit; KNum 6; KSeen [(2, 110); (3, 130); (7, 70); (5, 90); (12, 120); (1, 40)]].
Proof. split; vm_compute; reflexivity. Qed.
(** which entry is found depends on the coin flips *)
Example C79_case_coins : option_map (skipn 13) (run (sk_step chaos) New (wild_kops (fun _ => 0%nat))) = Some
  [KSeen [(0, 80); (14, 20); (7, 70); (12, 120); (3, 130); (5, 90); (1, 110)]; KBool true; KDup (Some (0, 80)) false; KVal None; KVal (Some 200); KEntry (Some (0, 99)); KEntry (Some (13, 200)); KNum (-1); KEntry (Some (12, 120)); KEntry None; KEntry None; KEntry None; KUnit; KUnit; KNum 5; KSeen [(7, 70); (12, 120); (3, 130); (5, 90); (1, 110)]].
Proof. vm_compute. reflexivity. Qed.
Example C79_case_heap : run (HeapModel.step 0 chaos) (HeapModel.new 0) (map HPut [5; 1; 9; 3; 13; 12] ++ [HTop; HPop; HPop; HSize; HPop; HPop; HPop; HPop; HPop; HEmpty]) = Some
  [HUnit; HUnit; HUnit; HUnit; HUnit; HUnit; HVal (Some 12); HVal (Some 12); HVal (Some 9); HNat 4; HVal (Some 5); HVal (Some 13); HVal (Some 3); HVal (Some 1); HVal None; HBool true].
Proof. vm_compute. reflexivity. Qed.
(** an order: the place is the only one *)
Example C79_case_order : strictly_sorted Z.ltb [(1, 10); (3, 30)] /\ kmay Z.sub [(1, 10); (3, 30)] (KPut 2 20 0) [(1, 10); (2, 20); (3, 30)] (KBool true).
Proof.
  split; [unfold strictly_sorted; repeat constructor|]. exists [(1, 10)], [(3, 30)]. split; [|vm_compute; auto]. repeat split; vm_compute; congruence.
Qed.
