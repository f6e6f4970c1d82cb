(** tree/treelist: iterators over a tree list that is being changed (C71). *)
From Verif Require Import Base Bind Machine OrderSpec SMapSpec SMapFacts CompareModel AvlTree AvlSpec IndexSpec IndexProofs
  TreelistSpec TreelistChangeSpec TreelistModel TreelistLinks TreelistProofs TreelistSteps TreelistChangeProofs TreelistProps IndexModel
  IndexHeapModel TreelistHeapModel TreelistHeapProofs TreelistHeapStepProofs TreelistHeapIterModel TreelistHeapIterProofs.
Local Open Scope Z_scope.

(** calls that remove nothing *)
Definition adds {K V} (o : tl_op K V) : Prop :=
  match o with
  | TRemove _ | TRemoveIndex _ | TRemoveHead | TRemoveTail | TClear | TRemoveRange _ _ | TRemoveRangeByIndex _ _ | TTrim _ _ | TTrimByIndex _ _ => False
  | _ => True
  end.
(** iterator number [j] reads its key, the tree is changed by the calls [c], the iterator goes on; and so on *)
Definition walk {K V} (j : nat) (chunks : list (list (tl_op K V))) : list (tc_op K V) :=
  flat_map (fun c => CIter j TIKey :: map CTree c ++ [CIter j TINext]) chunks.
(** the keys among the answers *)
Definition keys_of {K V} (outs : list (tc_out K V)) : list K := flat_map (fun r => match r with CI (TIK k) => [k] | _ => [] end) outs.

Section Spec.
  Context {K V : Type} (ltb : K -> K -> bool) (W : weak_order ltb).
  Notation entries := (list (K * V)).
  Notation tc_spec := (@tc_spec K V ltb).
  Notation tl_spec := (@tl_spec K V ltb).

  Lemma split_key k v (m : entries) : strictly_sorted ltb m -> In (k, v) m -> m = before ltb k m ++ (k, v) :: after ltb k m /\ sames ltb k m = [(k, v)].
  Proof.
    intros Hs Hi. destruct (in_split _ _ Hi) as (a & b & ->).
    destruct (cut_same_strict ltb W a (k, v) b k (OrderSpec.same_refl _ W k) Hs) as (-> & -> & ->). auto.
  Qed.
  Lemma write_in key e k v (m : entries) : strictly_sorted ltb m -> In (k, v) m -> match sames ltb key m with [] => True | x :: _ => fst e = fst x end ->
    exists v', In (k, v') (write ltb key e m).
  Proof.
    intros Hs Hi He. unfold write. pose proof (cut_all ltb W m key (strict_weak ltb W _ Hs)) as CA.
    destruct (strict_sames ltb W m key Hs) as [Q|(x & Q)]; rewrite Q in *; rewrite CA in Hi; cbn [app] in Hi; rewrite in_app_iff in Hi.
    - exists v. rewrite in_app_iff. cbn [In]. tauto.
    - cbn [In] in Hi. destruct Hi as [Hi|[Hi|Hi]].
      + exists v. rewrite in_app_iff. auto.
      + subst x. cbn [fst] in He. exists (snd e). rewrite in_app_iff. right. left. rewrite <- He. destruct e; reflexivity.
      + exists v. rewrite in_app_iff. cbn [In]. auto.
  Qed.
  Lemma apart_neq (m : entries) x k v : In (k, v) m -> apart ltb m x k -> same ltb k x = false.
  Proof.
    intros Hi [Ha|(e & He & Hb)]; destruct (same ltb k x) eqn:Es; auto; exfalso.
    - apply Ha. exists (k, v). auto.
    - rewrite (same_lt_l _ W _ _ _ Es), (same_lt_r _ W _ _ _ Es) in Hb. apply orb_true_iff in Hb. rewrite !andb_true_iff in Hb.
      assert (X : ltb x x = true) by (destruct Hb as [(B1 & B2)|(B1 & B2)]; exact (wo_trans _ W _ _ _ B1 B2)). rewrite (wo_irrefl _ W) in X. discriminate.
  Qed.
  Lemma mid_in (a b : entries) e k v : In (k, v) (a ++ e :: b) -> same ltb k (fst e) = false -> In (k, v) (a ++ b).
  Proof.
    rewrite !in_app_iff. cbn [In]. intros [H|[->|H]] X; auto. cbn [fst] in X. rewrite (OrderSpec.same_refl _ W) in X. discriminate.
  Qed.
  Lemma around_mid (a b : entries) e : around (len a) (len a) (a ++ e :: b) = a ++ b.
  Proof.
    unfold around, len. rewrite Nat2Z.id, firstn_app, firstn_all, Nat.sub_diag. cbn [firstn]. rewrite app_nil_r.
    f_equal. replace (Z.to_nat (Z.of_nat (length a) + 1)) with (length a + 1)%nat by lia. rewrite skipn_app, skipn_all2 by lia.
    replace (length a + 1 - length a)%nat with 1%nat by lia. reflexivity.
  Qed.
  Lemma at_cut (m : entries) i e : entry_at m (Some i) = Some e -> exists a b, m = a ++ e :: b /\ i = len a.
  Proof.
    intros E1. destruct (Z_le_gt_dec 0 i); [destruct (Z_lt_ge_dec i (len m))|]; [|rewrite entry_at_none in E1 by lia; discriminate..].
    rewrite entry_at_in in E1 by lia. destruct (nth_error_split _ _ E1) as (a & b & -> & E2). exists a, b. split; auto. unfold len. lia.
  Qed.
  (** an entry that stays is there afterwards *)
  Lemma stays_in (m : entries) o k v : strictly_sorted ltb m -> In (k, v) m -> stays ltb m o k -> exists v', In (k, v') (fst (tl_spec m o)).
  Proof.
    intros Hs Hi Hst. destruct (split_key k v m Hs Hi) as (Em & Es).
    assert (Hrk : entry_at m (Some (len (before ltb k m))) = Some (k, v)) by (rewrite Em at 1; apply entry_at_mid).
    assert (Hb : 0 <= len (before ltb k m) < len m).
    { pose proof (len_nonneg (before ltb k m)). split; [lia|]. rewrite Em at 2. rewrite len_mid. pose proof (len_nonneg (after ltb k m)). lia. }
    rewrite entry_at_in in Hrk by exact Hb.
    destruct o as [key w|key w|key w f|key|key|n| | | | |n|key| |go| | |lo hi|i j|lo hi|i j]; cbn [TreelistSpec.tl_spec stays] in *; try contradiction; eauto.
    - destruct (sames ltb key m) as [|x xs] eqn:Ek; [|eauto]. apply (write_in _ _ k v); auto. rewrite Ek. exact I.
    - destruct (sames ltb key m) as [|(k0, v0) xs] eqn:Ek; apply (write_in _ _ k v); auto; rewrite Ek; reflexivity || exact I.
    - destruct (sames ltb key m) as [|(k0, v0) xs] eqn:Ek; apply (write_in _ _ k v); auto; rewrite Ek; reflexivity || exact I.
    - exists v. cbn [fst]. pose proof (apart_neq m key k v Hi Hst) as X. unfold erase. rewrite in_app_iff, before_in, after_in. cbn [fst].
      unfold same in X. destruct (ltb k key), (ltb key k); auto; discriminate.
    - destruct (entry_at m (Some n)) as [e|] eqn:En; [|eauto]. exists v. destruct (at_cut m n e En) as (a & b & Eq & ->). cbn [fst]. rewrite Eq, around_mid. rewrite Eq in Hi.
      apply (mid_in a b e k v Hi). apply (apart_neq m (fst e) k v); [rewrite Eq|]; auto.
    - exists v. destruct m as [|e m']; [destruct Hi|]. cbn [hd_error] in Hst. apply (mid_in [] m' e k v Hi). apply (apart_neq (e :: m') (fst e) k v Hi Hst).
    - exists v. destruct (snoc_cases m) as [->|(a & e & ->)]; [destruct Hi|]. rewrite last_snoc in Hst. cbn [fst]. rewrite removelast_last.
      pose proof (mid_in a [] e k v Hi (apart_neq _ (fst e) k v Hi Hst)) as X. rewrite app_nil_r in X. exact X.
    - destruct (ltb hi lo); [eauto|]. exists v. apply filter_In. split; [exact Hi|]. cbn [fst]. destruct (same ltb lo hi) eqn:El; [|rewrite Hst; reflexivity].
      pose proof (apart_neq m lo k v Hi Hst) as X. unfold within. rewrite <- (same_lt_l _ W _ _ _ El). unfold same in X. destruct (ltb k lo), (ltb lo k); auto; discriminate.
    - destruct (j <? i); [eauto|]. destruct (_ || _ || _); [eauto|]. exists v. cbn [fst]. unfold around. rewrite in_app_iff.
      destruct (Z.lt_ge_cases (len (before ltb k m)) i) as [Hl|Hl].
      + left. apply (nth_in_firstn _ _ _ _ Hrk). lia.
      + right. assert (X : (Z.to_nat (j + 1) <= Z.to_nat (len (before ltb k m)))%nat) by lia. apply (nth_error_In _ _ (nth_in_skipn _ _ _ _ Hrk X)).
    - destruct (ltb hi lo); [eauto|]. destruct Hst as [|Hst]; [discriminate|]. exists v. apply filter_In. auto.
    - destruct Hst as [Hst|Hst]; [|rewrite Hst; eauto]. destruct (_ || _ || _) eqn:Eo; [eauto|]. exists v. cbn [fst]. unfold between. rewrite !orb_false_iff in Eo.
      assert (X : (Z.to_nat i <= Z.to_nat (len (before ltb k m)))%nat) by lia.
      apply nth_in_firstn with (i := (Z.to_nat (len (before ltb k m)) - Z.to_nat i)%nat); [apply (nth_in_skipn _ _ _ _ Hrk X)|lia].
  Qed.

  Lemma sreach_app {T O R : Type} (st : T -> O -> T * R) a : forall b t, sreach st t (a ++ b) = sreach st (sreach st t a) b.
  Proof. induction a as [|o a IH]; intros b t; [reflexivity|]. cbn [app sreach]. apply IH. Qed.
  Lemma keys_app (a b : list (tc_out K V)) : keys_of (a ++ b) = keys_of a ++ keys_of b.
  Proof. apply flat_map_app. Qed.
  Lemma chunk_ok j rest c : forall st (m : entries) ps k v, strictly_sorted ltb m -> In (k, v) m -> fst (ps j) = Some k ->
    tc_all_ok ltb st (m, ps) (map CTree c ++ rest) ->
    exists st' outs v', srun tc_spec (m, ps) (map CTree c ++ rest) = outs ++ srun tc_spec (sreach tl_spec m c, ps) rest /\ keys_of outs = [] /\
      strictly_sorted ltb (sreach tl_spec m c) /\ In (k, v') (sreach tl_spec m c) /\ tc_all_ok ltb st' (sreach tl_spec m c, ps) rest.
  Proof.
    induction c as [|o c IH]; intros st m ps k v Hs Hi Hp Hok; cbn [map app] in *.
    - exists st, [], v. auto.
    - cbn [tc_all_ok srun sreach] in *. cbn [TreelistChangeSpec.tc_spec tc_ok] in *. destruct Hok as ((O1 & O2 & O3) & Hok).
      pose proof (tl_spec_sorted ltb W m o Hs) as Hs'. destruct (stays_in m o k v Hs Hi (O3 j k Hp)) as (v1 & Hi').
      destruct (tl_spec m o) as (m', r) eqn:Eo. cbn [fst snd] in *.
      destruct (IH _ m' ps k v1 Hs' Hi' Hp Hok) as (st' & outs & v' & E1 & E2 & E3). exists st', (CT r :: outs), v'. split; [cbn; rewrite E1; reflexivity|]. split; [exact E2|exact E3].
  Qed.
  (** the next key *)
  Lemma upto_cut (m : entries) k : strictly_sorted ltb m -> m = upto ltb k m ++ after ltb k m.
  Proof.
    intros Hs. induction m as [|x m IH]; [reflexivity|]. inversion_clear Hs. unfold upto, after in *. cbn [filter].
    destruct (ltb k (fst x)) eqn:Ex; cbn [negb]; [|cbn [app]; f_equal; auto].
    rewrite filter_none, filter_all; [reflexivity|..]; intros y Hy; rewrite Forall_forall in H0; rewrite (wo_trans _ W _ _ _ Ex (H0 y Hy)); reflexivity.
  Qed.
  Lemma next_key (m : entries) k : strictly_sorted ltb m ->
    match key_at m (len (upto ltb k m)) with
    | None => forall e, In e m -> ltb k (fst e) = false
    | Some k' => ltb k k' = true /\ (exists v, In (k', v) m) /\ forall e, In e m -> ltb k (fst e) = true -> ltb (fst e) k' = false
    end.
  Proof.
    intros Hs. pose proof (upto_cut m k Hs) as Em. unfold key_at.
    assert (X : entry_at m (Some (len (upto ltb k m))) = hd_error (after ltb k m)).
    { transitivity (entry_at (upto ltb k m ++ after ltb k m) (Some (len (upto ltb k m)))); [rewrite <- Em; reflexivity|].
      destruct (after ltb k m); [rewrite app_nil_r; apply entry_at_none; lia|apply entry_at_mid]. }
    rewrite X. destruct (after ltb k m) as [|(k', v') b] eqn:Ea; cbn [hd_error option_map fst]; clear X.
    - intros e He. rewrite Em, app_nil_r in He. apply filter_In in He as (_ & He).
      destruct (ltb k (fst e)); [discriminate|reflexivity].
    - assert (X : In (k', v') (after ltb k m)) by (rewrite Ea; left; reflexivity). apply after_in in X as (X1 & X2). split; [exact X2|]. split; [eauto|].
      intros e He Hk. assert (Y : In e (after ltb k m)) by (apply after_in; auto). rewrite Ea in Y. destruct Y as [<-|Y]; [apply (wo_irrefl _ W)|].
      rewrite Em in Hs. destruct (strict_mid ltb _ _ _ Hs) as (_ & _ & _ & L1). apply (lt_asym _ W), (L1 e Y).
  Qed.
  Lemma walk_ok j chunks : forall st (m : entries) ps, strictly_sorted ltb m -> tc_all_ok ltb st (m, ps) (walk j chunks) ->
    match fst (ps j) with None => True | Some k => exists v, In (k, v) m end ->
    let ks := keys_of (srun tc_spec (m, ps) (walk j chunks)) in
    StronglySorted (fun a b => ltb a b = true) ks /\
    match fst (ps j) with
    | None => ks = []
    | Some k0 => Forall (fun k => k = k0 \/ ltb k0 k = true) ks /\
        forall k, (forall n, has ltb k (sreach tl_spec m (concat (firstn n chunks)))) -> ltb k k0 = false ->
          (exists k', In k' ks /\ same ltb k' k = true) \/ ((forall k', In k' ks -> ltb k' k = true) /\ length ks = length chunks)
    end.
  Proof.
    induction chunks as [|c chunks IH]; intros st m ps Hs Hok Hp.
    { cbn. split; [constructor|]. destruct (fst (ps j)) as [k0|]; [|reflexivity]. split; [constructor|]. intros k _ _. right. split; [intros k' []|reflexivity]. }
    cbn [walk flat_map app] in *. change (flat_map (fun c => CIter j TIKey :: map CTree c ++ [CIter j TINext]) chunks) with (walk j chunks) in *.
    rewrite <- app_assoc in *. cbn [app] in *. set (rest := CIter j TINext :: walk j chunks) in *.
    cbn [tc_all_ok srun] in *. cbn [TreelistChangeSpec.tc_spec ci_spec tc_ok] in *. destruct Hok as (_ & Hok). cbn [fst snd tc_stale] in *.
    assert (Hset : set_at j (ps j) ps j = ps j) by (unfold set_at; rewrite Nat.eqb_refl; reflexivity).
    set (ps1 := set_at j (ps j) ps) in *. destruct (ps j) as (p, i). cbn [fst snd] in *. destruct p as [k0|].
    - destruct Hp as (v0 & Hi0). destruct (split_key k0 v0 m Hs Hi0) as (_ & ->). cbn [hd_error].
      destruct (chunk_ok j rest c st m ps1 k0 v0 Hs Hi0) as (st' & outs & v' & E1 & E2 & Hs' & Hi' & Hok'); [rewrite Hset; reflexivity|exact Hok|].
      rewrite E1. set (m' := sreach tl_spec m c) in *. unfold rest in *. cbn [tc_all_ok srun] in *. cbn [TreelistChangeSpec.tc_spec ci_spec tc_ok] in *. rewrite Hset in *. cbn [fst snd tc_stale] in *.
      set (ps2 := set_at j (key_at m' (len (upto ltb k0 m')), i + 1) ps1) in *. destruct Hok' as (_ & Hok'). cbn [fst] in Hok'.
      assert (Hset2 : ps2 j = (key_at m' (len (upto ltb k0 m')), i + 1)) by (unfold ps2, set_at; rewrite Nat.eqb_refl; reflexivity).
      pose proof (next_key m' k0 Hs') as Hn. specialize (IH st' m' ps2 Hs' Hok'). rewrite Hset2 in IH. cbn [fst] in IH.
      set (ks := keys_of (srun tc_spec (m', ps2) (walk j chunks))) in *.
      assert (Ek : keys_of (CI (TIK k0) :: outs ++ CI TIUnit :: srun tc_spec (m', ps2) (walk j chunks)) = k0 :: ks).
      { change (k0 :: keys_of (outs ++ CI TIUnit :: srun tc_spec (m', ps2) (walk j chunks)) = k0 :: ks). rewrite keys_app, E2. reflexivity. }
      rewrite Ek. destruct (key_at m' (len (upto ltb k0 m'))) as [k1|].
      + destruct Hn as (N1 & N2 & N3). destruct (IH N2) as (I1 & I2 & I3). rewrite Forall_forall in I2.
        assert (Hgt : forall k, In k ks -> ltb k0 k = true).
        { intros k Hk. destruct (I2 k Hk) as [->|X]; [exact N1|exact (wo_trans _ W _ _ _ N1 X)]. }
        split; [constructor; [exact I1|apply Forall_forall, Hgt]|]. split; [constructor; [auto|]; apply Forall_forall; intros k Hk; right; apply Hgt, Hk|].
        intros k Hk Hle. destruct (ltb k0 k) eqn:Ekk.
        * assert (Hin : forall n, has ltb k (sreach tl_spec m' (concat (firstn n chunks)))).
          { intros n. specialize (Hk (S n)). cbn [firstn concat] in Hk. rewrite sreach_app in Hk. exact Hk. }
          assert (Hk1 : ltb k k1 = false).
          { destruct (Hin 0%nat) as (e & He & Hse). cbn in He. rewrite <- (same_lt_l _ W _ _ _ Hse). apply N3; [exact He|]. rewrite (same_lt_r _ W _ _ _ Hse). exact Ekk. }
          destruct (I3 k Hin Hk1) as [(k' & K1 & K2)|(K1 & K2)]; [left; exists k'; cbn; auto|]. right. split; [|cbn; congruence].
          intros k' [<-|Hk']; [exact Ekk|auto].
        * left. exists k0. split; [left; reflexivity|]. apply same_iff. auto.
      + destruct (IH I) as (_ & IH'). rewrite IH'. split; [repeat constructor|]. split; [repeat constructor|]. intros k Hk Hle.
        left. exists k0. split; [left; reflexivity|]. apply same_iff. split; [|exact Hle]. specialize (Hk 1%nat). cbn [firstn concat] in Hk. rewrite app_nil_r in Hk.
        destruct Hk as (e & He & Hse). rewrite <- (same_lt_r _ W _ _ _ Hse). apply (Hn e He).
    - assert (X : forall c0 st0 (m0 : entries), tc_all_ok ltb st0 (m0, ps1) (map CTree c0 ++ rest) ->
                 exists st' outs m', srun tc_spec (m0, ps1) (map CTree c0 ++ rest) = outs ++ srun tc_spec (m', ps1) rest /\ keys_of outs = [] /\
                   (strictly_sorted ltb m0 -> strictly_sorted ltb m') /\ tc_all_ok ltb st' (m', ps1) rest).
      { induction c0 as [|o c0 IHc]; intros st0 m0 H0; cbn [map app] in *; [exists st0, [], m0; auto|].
        cbn [tc_all_ok srun] in *. cbn [TreelistChangeSpec.tc_spec] in *. destruct H0 as (_ & H0). pose proof (tl_spec_sorted ltb W m0 o) as Hs'. destruct (tl_spec m0 o) as (m1, r). cbn [fst] in *.
        destruct (IHc _ m1 H0) as (st' & outs & m' & E1 & E2 & E3 & E4). exists st', (CT r :: outs), m'. split; [cbn; rewrite E1; reflexivity|]. auto. }
      destruct (X c st m Hok) as (st' & outs & m' & E1 & E2 & E3 & E4). rewrite E1. unfold rest in E4 |- *. cbn [tc_all_ok srun] in *. cbn [TreelistChangeSpec.tc_spec ci_spec] in *. rewrite Hset in *. cbn [fst snd] in *.
      destruct E4 as (_ & E4). cbn [tc_stale] in E4. set (ps2 := set_at j (None, i) ps1) in *.
      assert (Hset2 : ps2 j = (None, i)) by (unfold ps2, set_at; rewrite Nat.eqb_refl; reflexivity).
      specialize (IH st' m' ps2 (E3 Hs) E4). rewrite Hset2 in IH. cbn [fst] in IH. destruct (IH I) as (_ & IH').
      assert (Ek : keys_of (CI TIPanic :: outs ++ CI TIPanic :: srun tc_spec (m', ps2) (walk j chunks)) = []).
      { change (keys_of (outs ++ CI TIPanic :: srun tc_spec (m', ps2) (walk j chunks)) = []). rewrite keys_app, E2. exact IH'. }
      rewrite Ek. split; [constructor|reflexivity].
  Qed.
End Spec.

Section Props.
  Context {K V : Type} (ltb : K -> K -> bool) (W : weak_order ltb) (cmp : K -> K -> Z) (Hcmp : plain_cmp ltb cmp) (zero : K) (zeroV : V).
  Notation content := (sreach (tl_spec (V := V) ltb) []).
  (** an empty tree and iterators that have not been placed *)
  Notation start := (tnew zero zeroV, fun _ : nat => TI None 0).
  Notation nothing := ([] : list (K * V), fun _ : nat => (None, 0)).

  (** Iterators and the tree used in turn answer like positions in the sorted list: after the tree has been changed an iterator
      is still at its entry, sees the value it has by then and goes on to the entry that comes next by then.
      Full statement: for all [ops].  Missing: [tc_all_ok], the calls that take away the entry an iterator is at or one beside
      it, and as in C36, First and Last after a Trim that kept nothing and a TrimByIndex that stops half way; Puts that panic. *)
  Theorem C71_iterators_follow_the_list_partial (ops : list (tc_op K V)) : tc_all_ok ltb false nothing ops -> puts_work cmp (tree_calls ops) ->
    run (hc_step cmp) start ops = Some (srun (tc_spec ltb) nothing ops).
  Proof.
    intros Hok Hp. apply (crun_ok ltb W cmp Hcmp ops false (tnew zero zeroV) (fun _ => TI None 0) TreelistModel.new [] (fun _ => (None, 0))); auto using trep_new, rel_start.
    intros j. split; reflexivity.
  Qed.

  Lemma ok_trims (ops : list (tc_op K V)) : forall st s, tc_all_ok ltb st s ops -> trims_inside ltb (fst s) (tree_calls ops).
  Proof.
    induction ops as [|o ops IH]; intros st (m, ps) Hok; [exact I|]. destruct Hok as (H1 & H2). specialize (IH _ _ H2).
    destruct o as [o|j o|i j]; cbn [tree_calls trims_inside] in *; cbn [tc_spec fst] in *.
    - destruct H1 as (H1 & _). split; [exact H1|]. destruct (tl_spec ltb m o). exact IH.
    - destruct (ci_spec ltb m (ps j) o). exact IH.
    - exact IH.
  Qed.
  Lemma small_puts (ops : list (tl_op K V)) : trims_inside ltb [] ops -> (forall ops1 ops2, ops = ops1 ++ ops2 -> len (content ops1) <= 63) -> puts_work cmp ops.
  Proof.
    intros Ht Hn. destruct (first_failure cmp ops) as [H|(ops1 & o & ops2 & -> & H1 & H2)]; [exact H|].
    exfalso. apply trims_prefix in Ht. pose proof (grown_rel ltb W cmp Hcmp ops1 H1 Ht) as HR.
    pose proof (step_low ltb W cmp Hcmp _ _ _ o HR H2) as X. destruct HR as (Y & _).
    specialize (Hn ops1 (o :: ops2) eq_refl). rewrite <- Y, pk_len in Hn. pose proof (ht_len (TreelistModel.top (sreach (tl_step cmp) TreelistModel.new ops1))). unfold len in *. lia.
  Qed.
  (** As long as there are no more than 63 entries, nothing is said about Puts. *)
  Theorem C71_small_partial (ops : list (tc_op K V)) : tc_all_ok ltb false nothing ops ->
    (forall ops1 ops2, tree_calls ops = ops1 ++ ops2 -> len (content ops1) <= 63) -> run (hc_step cmp) start ops = Some (srun (tc_spec ltb) nothing ops).
  Proof. intros Hok Hn. apply C71_iterators_follow_the_list_partial; [exact Hok|]. apply small_puts; [exact (ok_trims _ _ _ Hok)|exact Hn]. Qed.

  Lemma adds_ok (ops : list (tc_op K V)) : Forall adds (tree_calls ops) -> forall s, tc_all_ok ltb false s ops.
  Proof.
    induction ops as [|o ops IH]; intros Ha (m, ps); [exact I|]. cbn [tc_all_ok]. destruct o as [o|j o|i j]; cbn [tree_calls tc_ok tc_stale] in *.
    - inversion_clear Ha. split.
      + split; [destruct o; cbn [adds trim_inside] in *; try contradiction; exact I|]. split; [destruct o; exact I || reflexivity|]. intros j k _. destruct o; cbn [adds stays] in *; try contradiction; exact I.
      + replace (stale_after ltb false (fst (m, ps)) o) with false; [apply IH; assumption|].
        destruct o; cbn [adds] in *; try contradiction; cbn [stale_after fst]; destruct (fst _); reflexivity.
    - split; [destruct o; exact I || reflexivity|apply IH; assumption].
    - split; [exact I|apply IH; assumption].
  Qed.
  (** So calls that only put entries in and read disturb no iterator, wherever it is.  Full statement: for all [ops].
      Missing: calls that remove, and Puts that panic. *)
  Theorem C71_puts_disturb_nothing_partial (ops : list (tc_op K V)) : Forall adds (tree_calls ops) -> puts_work cmp (tree_calls ops) ->
    run (hc_step cmp) start ops = Some (srun (tc_spec ltb) nothing ops).
  Proof. intros Ha Hp. apply C71_iterators_follow_the_list_partial; [apply adds_ok, Ha|exact Hp]. Qed.

  Lemma calls_app (a b : list (tc_op K V)) : tree_calls (a ++ b) = tree_calls a ++ tree_calls b.
  Proof. induction a as [|o a IH]; [reflexivity|]. destruct o; cbn [app tree_calls]; rewrite IH; reflexivity. Qed.
  Lemma calls_map (ops : list (tl_op K V)) : tree_calls (map CTree ops) = ops.
  Proof. induction ops as [|o ops IH]; [reflexivity|]. cbn [map tree_calls]. rewrite IH. reflexivity. Qed.
  Lemma calls_walk j (chunks : list (list (tl_op K V))) : tree_calls (walk j chunks) = concat chunks.
  Proof.
    induction chunks as [|c chunks IH]; [reflexivity|]. change (walk j (c :: chunks)) with ((CIter j TIKey :: map CTree c ++ [CIter j TINext]) ++ walk j chunks).
    rewrite calls_app, IH. cbn [tree_calls concat]. rewrite calls_app, calls_map. cbn [tree_calls]. rewrite app_nil_r. reflexivity.
  Qed.
  Lemma trees_first ops : forall st (m : list (K * V)) ps rest, strictly_sorted ltb m -> tc_all_ok ltb st (m, ps) (map CTree ops ++ rest) ->
    let m' := sreach (tl_spec ltb) m ops in
    strictly_sorted ltb m' /\ (exists st', tc_all_ok ltb st' (m', ps) rest) /\
    keys_of (srun (tc_spec ltb) (m, ps) (map CTree ops ++ rest)) = keys_of (srun (tc_spec ltb) (m', ps) rest).
  Proof.
    induction ops as [|o ops IH]; intros st m ps rest Hs Hok; cbn [map app sreach] in *; [eauto|].
    destruct Hok as (_ & Hok). cbn [srun tc_spec fst tc_stale] in *. pose proof (tl_spec_sorted ltb W m o Hs) as Hs'.
    destruct (tl_spec ltb m o) as (m', r). cbn [fst] in *. destruct (IH _ m' ps rest Hs' Hok) as (H1 & H2 & H3).
    split; [exact H1|]. split; [exact H2|]. rewrite <- H3. reflexivity.
  Qed.
  (** Walking through a tree from the first entry while it is changed: the keys come in increasing order, none twice; and the
      key of an entry that is there all the time is among them, unless the walk breaks off before it.
      Full statement: for all [ops] and [chunks].  Missing: as above. *)
  Theorem C71_walk_partial j (ops : list (tl_op K V)) (chunks : list (list (tl_op K V))) :
    let calls := map CTree ops ++ CIter j TIFirst :: walk j chunks in
    tc_all_ok ltb false nothing calls -> puts_work cmp (ops ++ concat chunks) ->
    exists outs, run (hc_step cmp) start calls = Some outs /\
      StronglySorted (fun a b => ltb a b = true) (keys_of outs) /\
      forall k, (forall n, has ltb k (content (ops ++ concat (firstn n chunks)))) ->
        (exists k', In k' (keys_of outs) /\ same ltb k' k = true) \/
        (forall k', In k' (keys_of outs) -> ltb k' k = true) /\ length (keys_of outs) = length chunks.
  Proof.
    intros calls Hok Hp. eexists. split.
    { apply C71_iterators_follow_the_list_partial; [exact Hok|]. unfold calls. rewrite calls_app, calls_map. cbn [tree_calls]. rewrite calls_walk. exact Hp. }
    unfold calls in *. destruct (trees_first ops false [] (fun _ => (None, 0)) _ (SSorted_nil _) Hok) as (Hs & (st & Hok') & Ek).
    rewrite Ek. clear Ek Hok. set (m := content ops) in *. destruct Hok' as (_ & Hok). cbn [tc_spec ci_spec fst tc_stale srun] in *.
    set (ps := set_at j (key_at m 0, 0) (fun _ => (None, 0))) in *.
    assert (Hj : ps j = (key_at m 0, 0)) by (unfold ps, set_at; rewrite Nat.eqb_refl; reflexivity).
    pose proof (walk_ok ltb W j chunks st m ps Hs Hok) as HW. rewrite Hj in HW. cbn [fst] in HW.
    change (keys_of (CI TIUnit :: srun (tc_spec ltb) (m, ps) (walk j chunks))) with (keys_of (srun (tc_spec ltb) (m, ps) (walk j chunks))).
    destruct m as [|(k0, v0) m'] eqn:Em.
    - destruct (HW I) as (H1 & _). split; [exact H1|]. intros k Hk. specialize (Hk 0%nat). cbn [firstn concat] in Hk. rewrite app_nil_r in Hk.
      fold m in Hk. rewrite Em in Hk. destruct Hk as (e & [] & _).
    - assert (X : key_at ((k0, v0) :: m') 0 = Some k0) by reflexivity. rewrite X in HW. destruct HW as (H1 & _ & H2); [exists v0; left; reflexivity|].
      split; [exact H1|]. intros k Hk. apply H2.
      + intros n. specialize (Hk n). rewrite sreach_app in Hk. fold m in Hk. rewrite Em in Hk. exact Hk.
      + specialize (Hk 0%nat). cbn [firstn concat] in Hk. rewrite app_nil_r in Hk. fold m in Hk. rewrite Em in Hk.
        destruct Hk as (e & He & Hse). rewrite <- (same_lt_l _ W _ _ _ Hse). destruct He as [<-|He]; [apply (wo_irrefl _ W)|].
        inversion_clear Hs. rewrite Forall_forall in H0. apply (lt_asym _ W), (H0 e He).
  Qed.
End Props.
Print Assumptions C71_iterators_follow_the_list_partial.
Print Assumptions C71_small_partial.
Print Assumptions C71_puts_disturb_nothing_partial.
Print Assumptions C71_walk_partial.

(** ** where that ends *)
Notation zc := (hc_step (V := Z) any).
Notation zcstart := (tnew 0 0, fun _ : nat => TI None 0).
Notation zcnothing := ([] : list (Z * Z), fun _ : nat => (None, 0)).
(** Removing each entry the walk comes to: the walk goes past entries that it should come to. *)
Theorem C71_removing_walk_refuted : exists ops chunks outs, puts_work any (ops ++ concat chunks) /\ trims_inside Z.ltb [] (ops ++ concat chunks) /\
  run zc zcstart (map CTree ops ++ CIter 0 TIFirst :: walk 0 chunks) = Some outs /\
  (forall n, has Z.ltb 3 (sreach (tl_spec Z.ltb) [] (ops ++ concat (firstn n chunks)))) /\ ~ In 3 (keys_of outs) /\ In 4 (keys_of outs).
Proof.
  exists (tputs [1; 2; 3; 4; 5; 6; 7]), [[TRemove 1]; [TRemove 2]; []]. eexists.
  split; [apply puts_checked; reflexivity|]. split; [cbn; auto 15|]. split; [vm_compute; reflexivity|].
  split; [|split; [vm_compute; intuition discriminate|vm_compute; auto]].
  intros n. exists (3, 30). split; [|reflexivity]. destruct n as [|[|[|[|n]]]]; vm_compute; auto 10.
Qed.
(** Removing the entry that comes next: the walk answers the same key twice. *)
Theorem C71_no_key_twice_refuted : exists ops chunks outs, puts_work any (ops ++ concat chunks) /\ trims_inside Z.ltb [] (ops ++ concat chunks) /\
  run zc zcstart (map CTree ops ++ CIter 0 TIFirst :: walk 0 chunks) = Some outs /\ keys_of outs = [1; 1].
Proof.
  exists (tputs [4; 2; 6; 1]), [[TRemove 2]; []]. eexists.
  split; [apply puts_checked; reflexivity|]. split; [cbn; auto 15|]. split; vm_compute; reflexivity.
Qed.
(** After its neighbour was removed, an iterator does not see the value its key is given. *)
Theorem C71_value_refuted : exists ops outs, puts_work any ops /\ trims_inside Z.ltb [] ops /\
  run zc zcstart (map CTree (tputs [1; 2; 3; 4; 5; 6; 7]) ++ CIter 0 (TIGE 3) :: map CTree ops ++ [CIter 0 TISlice; CTree (TGet 3)]) = Some (outs ++ [CI (TIKV (3, 30)); CT (TVal (Some 300))]).
Proof.
  exists [TRemove 2; TSet 3 300], (repeat (CT (TBool true)) 7 ++ [CI (TIBool true); CT (TSlice (Some (2, 20))); CT (TBool true)]).
  split; [apply puts_checked; reflexivity|]. split; [cbn; auto 15|]. vm_compute. reflexivity.
Qed.
(** Index does not answer the position an entry has after others were put in before it. *)
Theorem C71_index_refuted : exists outs,
  run zc zcstart [CTree (TPut 5 50); CIter 0 (TIGE 5); CIter 0 TIIndex; CTree (TPut 1 10); CIter 0 TIKey; CIter 0 TIIndex; CTree (TIndexOf 5)] =
    Some (outs ++ [CI (TIInt 0); CT (TBool true); CI (TIK 5); CI (TIInt 0); CT (TNum 1)]).
Proof. exists [CT (TBool true); CI (TIBool true)]. vm_compute. reflexivity. Qed.
Print Assumptions C71_removing_walk_refuted.
Print Assumptions C71_no_key_twice_refuted.
Print Assumptions C71_value_refuted.
Print Assumptions C71_index_refuted.

(** ** examples *)
Section Check.
  Context {K V : Type} (ltb : K -> K -> bool).
  Notation entries := (list (K * V)).
  Definition apartb (m : entries) (x k : K) : bool :=
    negb (existsb (fun e => same ltb (fst e) x) m) || existsb (fun e => ltb x (fst e) && ltb (fst e) k || ltb k (fst e) && ltb (fst e) x) m.
  Lemma apartb_ok m x k : apartb m x k = true -> apart ltb m x k.
  Proof.
    intros H. apply orb_true_iff in H as [H|H].
    - left. intros (e & He & Hs). apply negb_true_iff in H. assert (X : existsb (fun e => same ltb (fst e) x) m = true) by (apply existsb_exists; eauto). congruence.
    - right. apply existsb_exists in H. exact H.
  Qed.
  Definition staysb (m : entries) (o : tl_op K V) (k : K) : bool :=
    let i := len (before ltb k m) in
    match o with
    | TRemove x => apartb m x k
    | TRemoveIndex n => match entry_at m (Some n) with None => true | Some e => apartb m (fst e) k end
    | TRemoveHead => match hd_error m with None => true | Some e => apartb m (fst e) k end
    | TRemoveTail => match last_error m with None => true | Some e => apartb m (fst e) k end
    | TClear => false
    | TRemoveRange lo hi => if same ltb lo hi then apartb m lo k else negb (within ltb lo hi k)
    | TRemoveRangeByIndex a b => negb ((a <=? i) && (i <=? b))
    | TTrim lo hi => within ltb lo hi k
    | TTrimByIndex a b => (a <=? i) && (i <=? b)
    | _ => true
    end.
  Lemma staysb_ok m o k : staysb m o k = true -> stays ltb m o k.
  Proof.
    intros H. destruct o; cbn [staysb stays] in *; try exact I; try discriminate; try (apply apartb_ok; exact H).
    - destruct (entry_at m (Some i)); [apply apartb_ok; exact H|exact I].
    - destruct (hd_error m); [apply apartb_ok; exact H|exact I].
    - destruct (last_error m); [apply apartb_ok; exact H|exact I].
    - destruct (same ltb lo hi); [apply apartb_ok; exact H|apply negb_true_iff; exact H].
    - apply negb_true_iff, andb_false_iff in H. lia.
    - auto.
    - left. apply andb_true_iff in H. lia.
  Qed.
  Definition tc_okb (n : nat) (stale : bool) (st : entries * (nat -> option K * Z)) (o : tc_op K V) : bool :=
    let (m, ps) := st in
    match o with
    | CTree o => match o with TTrimByIndex i j => negb ((0 <? i) && (i <? len m) && (len m <=? j)) | _ => true end &&
                 match o with THead | TTail => negb stale | _ => true end &&
                 forallb (fun j => match fst (ps j) with None => true | Some k => staysb m o k end) (seq 0 n)
    | CIter j TIFirst | CIter j TILast => negb stale && (j <? n)%nat
    | CIter j _ => (j <? n)%nat
    | CClone i j => (j <? n)%nat
    end.
  Fixpoint all_okb (n : nat) (stale : bool) (st : entries * (nat -> option K * Z)) (ops : list (tc_op K V)) : bool :=
    match ops with [] => true | o :: ops => tc_okb n stale st o && all_okb n (tc_stale ltb stale (fst st) o) (fst (tc_spec ltb st o)) ops end.
  Lemma all_okb_ok n ops : forall stale m ps, (forall j, (n <= j)%nat -> fst (ps j) = None) -> all_okb n stale (m, ps) ops = true -> tc_all_ok ltb stale (m, ps) ops.
  Proof.
    induction ops as [|o ops IH]; intros stale m ps Hps H; [exact I|]. cbn [all_okb tc_all_ok fst] in *. apply andb_true_iff in H as (H1 & H2). split.
    - destruct o as [o|j o|i j]; cbn [tc_okb tc_ok] in *.
      + rewrite !andb_true_iff in H1. destruct H1 as ((A1 & A2) & A3). split; [|split].
        * destruct o; try exact I. cbn [trim_inside]. apply negb_true_iff in A1. rewrite !andb_false_iff in A1. lia.
        * destruct o; try exact I; cbn [end_ok]; apply negb_true_iff; exact A2.
        * intros j k Hj. rewrite forallb_forall in A3. destruct (Nat.lt_ge_cases j n) as [L|L]; [|rewrite (Hps j L) in Hj; discriminate].
          specialize (A3 j ltac:(apply in_seq; lia)). rewrite Hj in A3. apply staysb_ok, A3.
      + destruct o; try exact I; apply andb_true_iff in H1 as (H1 & _); apply negb_true_iff; exact H1.
      + exact I.
    - destruct o as [o|j o|i j]; cbn [tc_okb tc_spec fst] in *.
      + destruct (tl_spec ltb m o). apply IH; auto.
      + destruct (ci_spec ltb m (ps j) o) as (p, r). cbn [fst] in *. apply IH; [|exact H2]. intros i Hi. unfold set_at.
        assert (L : (j < n)%nat) by (destruct o; try (apply andb_true_iff in H1 as (_ & H1)); apply Nat.ltb_lt; exact H1).
        destruct (Nat.eqb_spec i j); [lia|auto].
      + apply IH; [|exact H2]. intros l Hl. unfold set_at. apply Nat.ltb_lt in H1. destruct (Nat.eqb_spec l j); [lia|auto].
  Qed.
End Check.

(** three iterators, one of them a clone; the tree is rotated, loses entries by all means and gains others *)
Definition tc_ops : list (tc_op Z Z) :=
  [CIter 0 TIFirst; CIter 0 TIValid; CIter 0 (TIGE 5); CIter 2 TIPrev; CIter 2 TIIndex; CIter 0 TINext] ++
  map CTree (tputs [20; 4; 8; 12; 16; 24; 28; 32; 36; 40; 44; 48]) ++
  [CIter 0 (TIGE 17); CIter 0 TISlice; CIter 0 TIIndex; CClone 0 1; CIter 1 TIPrev; CIter 1 TISlice; CIter 1 TIIndex;
   CTree (TPut 18 180); CTree (TSet 20 999); CTree (TPut 1 10); CIter 0 TIValue; CIter 1 TINext; CIter 1 TISlice; CIter 1 TIIndex; CTree (TIndexOf 18);
   CIter 1 TINext; CIter 1 TIKey; CTree (TRemove 28); CTree (TRemove 8); CTree (TRemoveIndex 0); CTree TRemoveHead; CTree TRemoveTail; CTree (TRemoveRange 30 37);
   CIter 1 TINext; CIter 1 TISlice; CIter 0 TIPrev; CIter 0 TISlice; CTree (TTrim 13 43); CIter 0 TIPrev; CIter 0 TISlice; CIter 0 TIPrev; CIter 0 TIValid; CIter 0 TIKey;
   CIter 1 (TICompare 25); CIter 1 TINext; CIter 1 TIKey; CIter 1 TINext; CIter 1 TIValid; CIter 1 TINext; CIter 1 TIPrev; CIter 1 TIIndex;
   CIter 2 (TIByIndex 2); CIter 2 TISlice; CTree (TRemoveRangeByIndex 0 1); CTree (TTrimByIndex 0 1); CIter 2 TISlice; CIter 2 TIPrev; CIter 2 TIValid;
   CIter 2 (TILT 24); CIter 2 (TILE 25); CIter 2 TIKey; CIter 2 (TIGT 20); CIter 2 TIKey; CIter 2 TILast; CIter 2 TIKey; CIter 2 (TIByIndex 9); CTree TSize].
Example C71_case : tc_all_ok Z.ltb false zcnothing tc_ops /\ puts_work any (tree_calls tc_ops) /\
  option_map (skipn 18) (run zc zcstart tc_ops) = Some
    [CI (TIBool false); CI (TIKV (20, 200)); CI (TIInt 4); CI TIUnit; CI TIUnit; CI (TIKV (16, 160)); CI (TIInt 3);
     CT (TBool true); CT (TBool true); CT (TBool true); CI (TIV 999); CI TIUnit; CI (TIKV (18, 180)); CI (TIInt 4); CT (TNum 5);
     CI TIUnit; CI (TIK 20); CT (TSlice (Some (28, 280))); CT (TSlice (Some (8, 80))); CT (TSlice (Some (1, 10))); CT (TSlice (Some (4, 40)));
     CT (TSlice (Some (48, 480))); CT (TBool true);
     CI TIUnit; CI (TIKV (24, 240)); CI TIUnit; CI (TIKV (18, 180)); CT TUnit; CI TIUnit; CI (TIKV (16, 160)); CI TIUnit; CI (TIBool false); CI TIPanic;
     CI (TIInt (-1)); CI TIUnit; CI (TIK 40); CI TIUnit; CI (TIBool false); CI TIPanic; CI TIPanic; CI (TIInt 7);
     CI TIUnit; CI (TIKV (20, 999)); CT TUnit; CT TUnit; CI (TIKV (20, 999)); CI TIUnit; CI (TIBool false);
     CI (TIBool true); CI (TIBool false); CI (TIK 24); CI (TIBool true); CI (TIK 24); CI TIUnit; CI (TIK 24); CI TIPanic; CT (TNum 2)].
Proof.
  split; [apply (all_okb_ok Z.ltb 3); [reflexivity|vm_compute; reflexivity]|]. split; [apply puts_checked; vm_compute; reflexivity|]. vm_compute. reflexivity.
Qed.

(** a walk during which entries come and go behind it and ahead of it *)
Definition tc_chunks : list (list (tl_op Z Z)) :=
  [[TPut 15 150]; [TRemove 40; TPut 5 50]; [TRemove 60; TSet 30 333]; []; [TRemoveRange 1 16]; [TTrim 25 75]; [TRemoveTail; TPut 90 900]; []; []].
Example C71_walk_case : tc_all_ok Z.ltb false zcnothing (map CTree (tputs [10; 20; 30; 40; 50; 60; 70; 80]) ++ CIter 1 TIFirst :: walk 1 tc_chunks) /\
  puts_work any (tputs [10; 20; 30; 40; 50; 60; 70; 80] ++ concat tc_chunks) /\
  option_map keys_of (run zc zcstart (map CTree (tputs [10; 20; 30; 40; 50; 60; 70; 80]) ++ CIter 1 TIFirst :: walk 1 tc_chunks)) = Some [10; 15; 20; 30; 50; 70] /\
  forall n, has Z.ltb 50 (sreach (tl_spec Z.ltb) [] (tputs [10; 20; 30; 40; 50; 60; 70; 80] ++ concat (firstn n tc_chunks))).
Proof.
  split; [apply (all_okb_ok Z.ltb 2); [reflexivity|vm_compute; reflexivity]|]. split; [apply puts_checked; vm_compute; reflexivity|]. split; [vm_compute; reflexivity|].
  intros n. exists (50, 500). split; [|reflexivity]. do 10 (destruct n as [|n]; [vm_compute; auto 12|]). vm_compute. auto 12.
Qed.
(** entries put in around an iterator, up to 63 *)
Example C71_puts_case :
  let ops := [CTree (TPut 50 500); CIter 0 TIFirst; CClone 0 1] ++ map CTree (tputs (map Z.of_nat (seq 20 60))) ++ [CIter 0 TINext; CIter 1 TIPrev; CIter 0 TIKey; CIter 1 TIKey] in
  Forall adds (tree_calls ops) /\ puts_work any (tree_calls ops) /\
  option_map (skipn 63) (run zc zcstart ops) = Some [CI TIUnit; CI TIUnit; CI (TIK 51); CI (TIK 49)].
Proof.
  cbv zeta. split; [repeat constructor|]. split; [apply puts_checked; vm_compute; reflexivity|]. vm_compute. reflexivity.
Qed.
