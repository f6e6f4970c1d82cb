(** tree/treelist in memory: iterators over a tree that is changed between their calls. *)
From Verif Require IndexProofs.
From Verif Require Import Base Bind Machine OrderSpec SMapSpec SMapFacts AvlTree AvlSpec AvlModel AvlProofs AvlAny IndexSpec IndexProofs
  TreelistSpec TreelistChangeSpec TreelistModel TreelistLinks TreelistProofs TreelistSteps TreelistChangeProofs TreelistIterModel TreelistIterProofs IndexModel
  IndexHeapModel IndexHeapProofs IndexHeapPutProofs IndexHeapReadProofs
  TreelistHeapModel TreelistHeapProofs TreelistHeapPutProofs TreelistHeapRangeProofs TreelistHeapStepProofs TreelistHeapIterModel.
Local Open Scope Z_scope.

Section Agree.
  Context {K V W : Type} (cmp : K -> K -> Z) (root : nat).
  Notation agree := (agree (K := K) (V := V) (W := W)).
  Hint Resolve a_getSize a_getRoot : agr.
  Lemma a_seek k : agree (hseekNodeWithIndex cmp root k) (hseekNodeWithIndex cmp root k).
  Proof.
    assert (H : forall n z p, agree (hseekLoop cmp k n z p) (hseekLoop cmp k n z p)) by (induction n as [|n IH]; intros z p; cbn [hseekLoop]; agr).
    unfold hseekNodeWithIndex. agr.
  Qed.
End Agree.

Section Iter.
  Context {K V : Type} (ltb : K -> K -> bool) (W : weak_order ltb) (cmp : K -> K -> Z) (Hcmp : plain_cmp ltb cmp).
  Notation tmem := (tmem K V).
  Notation tls := (TreelistModel.tl K V).
  Notation top := TreelistModel.top.
  Notation el s := (elems (top s)).
  Notation TRel := (TRel ltb).

  Lemma hseekLoop_ok key (b : mem K V) s : forall n off, body (tagged b) s -> (hgt s < n)%nat -> s <> L ->
    exists a off' c, hseekLoop cmp key n off (pt s) (tagged b) = Ret (Some a, off', c) (tagged b) /\
      seekLoop cmp key off (view (tagged b) s) = Some (pred a, off', c) /\ In a (addrs s).
  Proof.
    induction s as [|a l IHl r IHr]; intros n off Hb Hn Hs; (destruct n as [|n]; [lia|]); [congruence|]. clear Hs.
    cbn [hgt] in Hn. destruct Hb as (Kl & Kr & _ & _ & Bl & Br). cbn [hseekLoop pt view seekLoop addrs].
    erewrite run_bind by apply rd_ok. cbv zeta. change (Value (tagged b) a) with (pred a, Value b a). cbv beta iota.
    destruct (cmp key (Key (tagged b) a) <? 0).
    - erewrite run_bind by (rewrite rdKid_ok, Kl; reflexivity). destruct l as [|x xl xr]; [eexists _, _, _; split; [reflexivity|]; split; [reflexivity|left; reflexivity]|].
      cbn [pt isNil negb]. pose proof (kid_step (tagged b) a true false _ (fun q s => hseekLoop cmp key n (off - (s + 1)) q) Kl Bl) as X.
      erewrite run_bind in X by (rewrite rdKid_ok, Kl; reflexivity). cbn [pt isNil] in X. rewrite X.
      destruct (IHl n (off - (IndexModel.getSize (view (tagged b) xr) + 1)) Bl ltac:(lia) ltac:(discriminate)) as (a' & off' & c & H1 & H2 & H3).
      exists a', off', c. split; [exact H1|]. split; [exact H2|]. right. apply in_or_app. auto.
    - destruct (cmp key (Key (tagged b) a) >? 0).
      + erewrite run_bind by (rewrite rdKid_ok, Kr; reflexivity). destruct r as [|x xl xr]; [eexists _, _, _; split; [reflexivity|]; split; [reflexivity|left; reflexivity]|].
        cbn [pt isNil negb]. pose proof (kid_step (tagged b) a false true _ (fun q s => hseekLoop cmp key n (off + (s + 1)) q) Kr Br) as X.
        erewrite run_bind in X by (rewrite rdKid_ok, Kr; reflexivity). cbn [pt isNil] in X. rewrite X.
        destruct (IHr n (off + (IndexModel.getSize (view (tagged b) xl) + 1)) Br ltac:(lia) ltac:(discriminate)) as (a' & off' & c & H1 & H2 & H3).
        exists a', off', c. split; [exact H1|]. split; [exact H2|]. right. apply in_or_app. auto.
      + eexists _, _, _. split; [reflexivity|]. split; [reflexivity|left; reflexivity].
  Qed.
  Lemma hseekNode_ok key (m : tmem) (s : tls) : trep m s ->
    lift (hseekNodeWithIndex cmp 0 key) m =
    match seekNodeWithIndex cmp key (top s) with None => Fail m | Some (x, i, c) => Done (Some (S x), i, c) m end.
  Proof.
    intros Hr. destruct (tr_tree _ _ Hr) as (x0 & Hok & Hv). rewrite <- Hv. destruct x0 as [|a l r].
    - apply (panics_tagged _ _ m (a_seek cmp 0 key)). unfold hseekNodeWithIndex. erewrite run_bind by (apply getRoot_ok, Hok). reflexivity.
    - set (x0 := B a l r) in *. destruct (hseekLoop_ok key (base m) x0 (S (next (tagged (base m)))) (kidSize false (view (tagged (base m)) x0)) (ok_b _ _ _ _ Hok) (ok_hgt _ _ _ _ Hok) ltac:(discriminate)) as (a' & off' & c & H1 & H2 & H3).
      assert (Ha : a' = S (pred a')) by (destruct a'; [exfalso; apply (root_zero _ _ Hok), H3|reflexivity]).
      assert (Hs : seekNodeWithIndex cmp key (view (tagged (base m)) x0) = Some (pred a', off', c)) by exact H2.
      rewrite Hs, <- Ha. apply (read_tagged _ _ m _ (a_seek cmp 0 key)). unfold hseekNodeWithIndex. erewrite run_bind by (apply getRoot_ok, Hok).
      rewrite (rootSize_ok _ 0 x0 (fun z => fueled (fun n => hseekLoop cmp key n z (pt x0))) Hok ltac:(discriminate)). exact H1.
  Qed.

  Lemma rdDir_node (m : tmem) (s : tls) x b : trep m s -> rdDir (Some (S x)) b m = Done (addr (d (lks s) x b)) m.
  Proof. intros Hr. destruct (tr_dirs _ _ Hr) as (Hd & _). cbn [rdDir]. rewrite Hd. reflexivity. Qed.
  Definition itOf (h : hNode) : titer := TI (addr (cur h)) (idx h).
  Lemma hseek_ok dir off key (m : tmem) (s : tls) : trep m s ->
    hseek cmp 0 dir off key m = match seek cmp dir off key s with None => Fail m | Some (h, b) => Done (itOf h, b) m end.
  Proof.
    intros Hr. unfold hseek, seek. pose proof (hseekNode_ok key m s Hr) as X. destruct (seekNodeWithIndex cmp key (top s)) as [((x, i), c)|].
    - erewrite run_tbind by exact X. cbv beta iota. destruct (off c); [|reflexivity]. erewrite run_tbind by (apply (rdDir_node m s), Hr). reflexivity.
    - unfold tbind. rewrite X. reflexivity.
  Qed.

  Lemma fail_rd {X} (f : mem K V -> nat -> X) (m : tmem) : lift (rd f None) m = Fail m.
  Proof. destruct m; reflexivity. Qed.
  Lemma fail_slice (m : tmem) : slice None m = Fail m.
  Proof. destruct m; reflexivity. Qed.
  Ltac nil_read := unfold ianswer, hCompare, tbind; rewrite ?fail_rd, ?fail_slice; reflexivity.

  (** where an iterator is *)
  Definition PRel (s : tls) (it : titer) (p : option K * Z) : Prop :=
    tidx it = snd p /\ match fst p with None => tcur it = None | Some k => exists x v, tcur it = Some (S x) /\ In (k, (x, v)) (el s) end.

  Section At.
    Context (m : tmem) (s : tls) (M : list (K * V)) (Hr : trep m s) (stale : bool) (HR : TRel stale s M).

    Lemma pos_rel j : PRel s (itOf (at_pos s j)) (key_at M j, j).
    Proof.
      split; [reflexivity|]. cbn [fst tcur itOf at_pos cur]. pose proof HR as (Em & _). unfold key_at, posId. rewrite <- Em, pk_entry_at.
      destruct (entry_at (el s) (Some j)) as [[k [x v]]|] eqn:Ee; [|reflexivity]. cbn [option_map plainKV fst snd addr]. exists x, v. split; [reflexivity|].
      destruct (at_split _ _ _ Ee) as (a & b & -> & _). apply in_elt.
    Qed.
    Lemma node_read k x v : In (k, (x, v)) (el s) -> Key (base m) (S x) = k /\ Value (base m) (S x) = v.
    Proof.
      intros Hi. destruct (tr_tree _ _ Hr) as (x0 & Hok & Hv). pose proof HR as (_ & _ & _ & Hnd & _).
      pose proof (slice_ok x k v _ Hnd Hi) as Es. rewrite <- Hv in Es. apply slice_view in Es; [|apply (root_zero _ _ Hok)]. injection Es as -> ->. auto.
    Qed.
    Lemma sames_of k x v : In (k, (x, v)) (el s) -> sames ltb k M = [(k, v)].
    Proof.
      intros Hi. pose proof HR as (Em & _ & Hs & _). apply pk_in in Hi. rewrite Em in Hi. destruct (in_split _ _ Hi) as (a & b & Eq). rewrite Eq in Hs |- *.
      apply (cut_same_strict ltb W a (k, v) b k (OrderSpec.same_refl _ W k) Hs).
    Qed.
    Lemma not_stale : M <> [] -> TRel false s M.
    Proof. intros Hm. pose proof (rel_same ltb stale s M HR) as X. destruct M; [congruence|exact X]. Qed.
    Lemma here_not_nil k x v : In (k, (x, v)) (el s) -> M <> [].
    Proof. intros Hi. pose proof HR as (Em & _). intros X. rewrite X in Em. apply pk_nil in Em. rewrite Em in Hi. destruct Hi. Qed.

    Lemma iter_step it p o : PRel s it p -> match o with TIFirst | TILast => stale = false | _ => True end ->
      exists it', hi_step cmp m it o = Some (m, it', snd (ci_spec ltb M p o)) /\ PRel s it' (fst (ci_spec ltb M p o)).
    Proof.
      intros HP Ho. pose proof HR as (Em & Ht & Hs & Hn & Hf & HL & _). pose proof HP as (Hi & Hp). destruct p as (p, i). cbn [fst snd] in Hi, Hp.
      assert (Hseek : forall dir off k j, (M <> [] -> seek cmp dir off k s = Some (at_pos s j, found ltb M k)) ->
        exists it', ianswer (hseek cmp 0 dir off k) (fun r : titer * bool => (fst r, @TIBool K V (snd r))) it m =
          Some (m, it', snd (match M with [] => ((p, i), TIPanic) | _ => ((key_at M j, j), ti_found ltb k M) end)) /\
          PRel s it' (fst (match M with [] => ((p, i), TIPanic) | _ => ((key_at M j, j), @ti_found K V ltb k M) end))).
      { intros dir off k j Hj. unfold ianswer. rewrite (hseek_ok dir off k m s Hr). destruct M as [|e M'] eqn:EM.
        - apply pk_nil, elems_nil in Em. unfold seek. rewrite Em. cbn [seekNodeWithIndex]. eexists. split; [reflexivity|]. exact HP.
        - rewrite Hj by discriminate. rewrite <- EM in *. eexists. split; [reflexivity|]. apply pos_rel. }
      assert (HI : match p with None => tcur it = None | Some k => exists x v, tcur it = Some (S x) /\ In (k, (x, v)) (el s) /\ sames ltb k M = [(k, v)] /\
                     Key (base m) (S x) = k /\ Value (base m) (S x) = v /\ TRel false s M end).
      { destruct p as [k|]; [|exact Hp]. destruct Hp as (x & v & H1 & H2). exists x, v. split; [exact H1|]. split; [exact H2|].
        split; [apply (sames_of k x v H2)|]. destruct (node_read k x v H2). split; [auto|]. split; [auto|]. apply not_stale, (here_not_nil k x v H2). }
      destruct o; cbn [hi_step ci_spec fst snd].
      - (* First *) destruct (HL Ho) as (L1 & _). unfold ianswer, hSeekToFirst. erewrite run_tbind by (apply (rdDir_root m (lks s)), (tr_dirs _ _ Hr)).
        cbn [pure fst snd]. eexists. split; [reflexivity|]. rewrite L1, <- posId_first. apply (pos_rel 0).
      - (* Last *) destruct (HL Ho) as (_ & L2 & _). unfold ianswer, hSeekToLast. erewrite run_tbind by (apply (rdDir_root m (lks s)), (tr_dirs _ _ Hr)).
        destruct (tr_tree _ _ Hr) as (x0 & Hok & Hv).
        erewrite run_tbind by (apply (read_tagged _ _ m _ (a_treeSize 0) (treeSize_ok _ _ _ Hok))). rewrite Hv.
        cbn [pure fst snd]. eexists. split; [reflexivity|]. rewrite IndexProofs.size_len by exact Ht.
        rewrite L2, <- posId_last. replace (len M) with (len (el s)) by (rewrite <- Em, pk_len; reflexivity). apply (pos_rel (len (el s) - 1)).
      - (* Next *) destruct p as [k|].
        + destruct HI as (x & v & H1 & H2 & H3 & H4 & H5 & H6). unfold ianswer, hNext. rewrite H1. erewrite run_tbind by (apply (rdDir_node m s), Hr). cbn [pure fst snd].
          eexists. split; [reflexivity|]. split; [cbn; lia|]. cbn [fst tcur].
          pose proof (rank_entry ltb W _ _ _ _ (rel_sorted ltb _ _ _ HR) H2) as He. destruct (near (lks s) (el s) _ k x v (proj1 (proj2 (proj2 (proj2 (proj2 (proj2 H6))))) eq_refl) He) as (-> & _).
          rewrite (upto_len ltb W s M H6), H3. replace (len (before ltb k (el s))) with (len (before ltb k M)) by (rewrite <- Em, pk_before, pk_len; reflexivity).
          apply (pos_rel (len (before ltb k M) + 1)).
        + unfold ianswer, hNext. rewrite HI. cbn. eexists. split; [reflexivity|]. exact HP.
      - (* Prev *) destruct p as [k|].
        + destruct HI as (x & v & H1 & H2 & H3 & H4 & H5 & H6). unfold ianswer, hPrev. cbn [tcur tidx]. rewrite H1. erewrite run_tbind by (apply (rdDir_node m s), Hr). cbn [pure fst snd].
          eexists. split; [reflexivity|]. split; [cbn; lia|]. cbn [fst tcur].
          pose proof (rank_entry ltb W _ _ _ _ (rel_sorted ltb _ _ _ HR) H2) as He. destruct (near (lks s) (el s) _ k x v (proj1 (proj2 (proj2 (proj2 (proj2 (proj2 H6))))) eq_refl) He) as (_ & ->).
          replace (len (before ltb k (el s))) with (len (before ltb k M)) by (rewrite <- Em, pk_before, pk_len; reflexivity).
          apply (pos_rel (len (before ltb k M) - 1)).
        + unfold ianswer, hPrev. cbn [tcur tidx]. rewrite HI. cbn. eexists. split; [reflexivity|]. split; [cbn; lia|reflexivity].
      - apply (Hseek true (fun c => c >? 0) k). intros Hm. apply (SeekGE_ok ltb W cmp Hcmp s M (not_stale Hm) k Hm).
      - apply (Hseek true (fun c => c >=? 0) k). intros Hm. apply (SeekGT_ok ltb W cmp Hcmp s M (not_stale Hm) k Hm).
      - apply (Hseek false (fun c => c <? 0) k). intros Hm. apply (SeekLE_ok ltb W cmp Hcmp s M (not_stale Hm) k Hm).
      - apply (Hseek false (fun c => c <=? 0) k). intros Hm. apply (SeekLT_ok ltb W cmp Hcmp s M (not_stale Hm) k Hm).
      - (* ByIndex *) destruct (tr_tree _ _ Hr) as (x0 & Hok & Hv). unfold ianswer, hSeekByIndex.
        assert (Ee : entry_at M (Some i0) = option_map plainKV (IndexModel.index i0 (top s))).
        { rewrite <- Em, pk_entry_at, IndexProofs.index_ok by exact Ht. reflexivity. }
        rewrite Ee. rewrite <- Hv. destruct (index_found i0 _ _ _ Hok) as [(H1 & H2 & _)|(c & a & l & r & _ & H1 & H2 & _ & H0)]; rewrite H1.
        + unfold tbind. rewrite (panics_tagged _ _ _ (a_index 0 i0) H2). eexists. split; [reflexivity|]. exact HP.
        + erewrite run_tbind by (apply (read_tagged _ _ _ _ (a_index 0 i0) H2)). cbn [pure fst snd option_map]. eexists. split; [reflexivity|].
          replace (TI (Some a) i0) with (itOf (at_pos s i0)); [apply pos_rel|]. unfold itOf, at_pos, posId. cbn [cur idx]. f_equal.
          rewrite <- IndexProofs.index_ok by exact Ht. rewrite <- Hv, H1. change (Value (tagged (base m)) a) with (pred a, Value (base m) a). cbn [option_map fst snd addr].
          destruct a; [|reflexivity]. exfalso. apply (root_zero _ _ Hok). rewrite H0. apply (Permutation_in _ (Permutation_sym (addrs_plug _ _))), in_or_app. right. left. reflexivity.
      - eexists. split; [|exact HP]. destruct p as [k|]; [destruct HI as (x & v & -> & _)|rewrite HI]; reflexivity.
      - eexists. split; [|exact HP]. destruct p as [k|]; [destruct HI as (x & v & -> & H2 & -> & H4 & H5 & _)|rewrite HI; nil_read].
        unfold ianswer. rewrite lift_rd. cbn [fst snd hd_error]. rewrite H4. reflexivity.
      - eexists. split; [|exact HP]. destruct p as [k|]; [destruct HI as (x & v & -> & H2 & -> & H4 & H5 & _)|rewrite HI; nil_read].
        unfold ianswer. rewrite lift_rd. cbn [fst snd hd_error]. rewrite H5. reflexivity.
      - eexists. split; [|exact HP]. destruct p as [k|]; [destruct HI as (x & v & -> & H2 & -> & H4 & H5 & _)|rewrite HI; nil_read].
        unfold ianswer. rewrite slice_run. cbn [fst snd hd_error]. rewrite H4, H5. reflexivity.
      - eexists. split; [|exact HP]. unfold hCompare. destruct p as [k0|]; [destruct HI as (x & v & -> & H2 & -> & H4 & H5 & _)|rewrite HI; nil_read].
        unfold ianswer. erewrite run_tbind by apply lift_rd. cbn [pure fst snd hd_error]. rewrite H4. do 3 f_equal. unfold sign.
        destruct (IndexProofs.plain_cases ltb cmp Hcmp k0 k) as [[-> Hc]|[[-> Hc]|[-> Hc]]].
        + rewrite Hc. reflexivity.
        + rewrite Hc, (lt_asym _ W _ _ Hc). reflexivity.
        + apply same_iff in Hc. destruct Hc as (-> & ->). reflexivity.
      - eexists. split; [|exact HP]. rewrite Hi. reflexivity.
      - eexists. split; [reflexivity|]. exact HP.
    Qed.
  End At.

  (** the tree was changed: iterators are where they were *)
  Lemma PRel_kept stale (s : tls) M o it p : TRel stale s M -> trim_inside M o -> PRel s it p ->
    (forall k, fst p = Some k -> stays ltb M o k) -> PRel (fst (tl_step cmp s o)) it p.
  Proof.
    intros HR Ht (H1 & H2) Hk. split; [exact H1|]. destruct (fst p) as [k|]; [|exact H2]. destruct H2 as (x & v & E1 & E2).
    destruct (kept ltb W cmp Hcmp stale s M o k x v HR Ht E2 (Hk k eq_refl)) as (v' & H). exists x, v'. auto.
  Qed.

  Lemma crun_ok (ops : list (tc_op K V)) : forall st (m : tmem) its (s : tls) M ps, trep m s -> TRel st s M -> (forall j, PRel s (its j) (ps j)) ->
    tc_all_ok ltb st (M, ps) ops ->
    (forall ops1 o ops2, tree_calls ops = ops1 ++ o :: ops2 -> ~ put_fails o (snd (tl_step cmp (sreach (tl_step cmp) s ops1) o))) ->
    run (hc_step cmp) (m, its) ops = Some (srun (tc_spec ltb) (M, ps) ops).
  Proof.
    induction ops as [|o ops IH]; intros st m its s M ps Hr HR HP Hok Hput; [reflexivity|]. destruct Hok as (Ho & Hok). cbn [run srun].
    destruct o as [o|j o|i j]; cbn [hc_step tc_spec tc_ok tc_stale tree_calls fst] in *.
    - destruct Ho as (O1 & O2 & O3). destruct (s_step ltb W cmp Hcmp st m s M o Hr HR) as (m' & r & H1 & H2 & H3). rewrite H1.
      destruct (step_ok ltb W cmp Hcmp st s M o HR O1 (Hput [] o (tree_calls ops) eq_refl)) as (X1 & X2).
      destruct (tl_spec ltb M o) as (M', r') eqn:Em. cbn [fst snd] in *. rewrite (H3 O2), (X2 O2).
      rewrite (IH _ m' its (fst (tl_step cmp s o)) M' ps H2 X1); auto.
      + intros j. apply (PRel_kept st s M); auto. intros k. apply O3.
      + intros ops1 o1 ops2 Eq. apply (Hput (o :: ops1) o1 ops2). rewrite Eq. reflexivity.
    - assert (Ho' : match o with TIFirst | TILast => st = false | _ => True end) by (destruct o; auto).
      destruct (iter_step m s M Hr st HR (its j) (ps j) o (HP j) Ho') as (it' & H1 & H2). rewrite H1.
      destruct (ci_spec ltb M (ps j) o) as (p', r') eqn:Ei. cbn [fst snd] in *.
      rewrite (IH st m (set_at j it' its) s M (set_at j p' ps)); auto. intros i. unfold set_at. destruct (Nat.eqb i j); auto.
    - rewrite (IH st m _ s M (set_at j (ps i) ps)); auto. intros i'. unfold set_at. destruct (Nat.eqb i' j); auto. apply HP.
  Qed.
End Iter.
