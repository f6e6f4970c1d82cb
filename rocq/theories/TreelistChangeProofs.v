(** Tree lists: entries that keep their node while the tree is changed. *)
From Verif Require Import Base Bind Machine OrderSpec SMapSpec SMapFacts AvlTree AvlSpec AvlModel AvlProofs AvlAny IndexSpec IndexModel IndexProofs
  TreelistSpec TreelistChangeSpec TreelistModel TreelistLinks TreelistProofs TreelistSteps.
Local Open Scope Z_scope.

Section Kept.
  Context {K V : Type} (ltb : K -> K -> bool) (W : weak_order ltb) (cmp : K -> K -> Z) (Hcmp : plain_cmp ltb cmp).
  Notation tls := (TreelistModel.tl K V).
  Notation node := (nat * V)%type.
  Notation el s := (elems (top s)).
  Notation TRel := (TRel ltb).

  Lemma rel_sorted stale (s : tls) M : TRel stale s M -> strictly_sorted ltb (el s).
  Proof. intros (Ee & _ & Hs & _). rewrite <- Ee in Hs. apply pk_sorted in Hs. exact Hs. Qed.
  Lemma in_pk (e : K * V) (l : list (K * node)) : In e (pk l) -> exists x, In (fst e, (x, snd e)) l.
  Proof. unfold pk. intros H. apply in_map_iff in H as ([k [x v]] & <- & H). exists x. exact H. Qed.
  Lemma pk_in k x v (l : list (K * node)) : In (k, (x, v)) l -> In (k, v) (pk l).
  Proof. intros H. apply (in_map plainKV _ _ H). Qed.
  (** an entry splits a sorted list at its key *)
  Lemma split_at k x v (l : list (K * node)) : strictly_sorted ltb l -> In (k, (x, v)) l ->
    l = before ltb k l ++ (k, (x, v)) :: after ltb k l.
  Proof.
    intros Hs Hi. destruct (in_split _ _ Hi) as (a & b & ->).
    destruct (cut_same_strict ltb W a (k, (x, v)) b k (same_refl _ W k) Hs) as (-> & _ & ->). reflexivity.
  Qed.

  Lemma put_kept stale (s : tls) M key w ins ex hit s' r k x v : TRel stale s M -> putWith cmp key w ins ex hit s = Some (s', r) ->
    In (k, (x, v)) (el s) -> exists v', In (k, (x, v')) (el s').
  Proof.
    intros HR Hp Hi. pose proof HR as (_ & Ht & _). pose proof (rel_sorted _ _ _ HR) as Hs.
    pose proof (put_links ltb W cmp Hcmp hit (fresh s) key w (top s) [] [] Hs Ht) as P. cbn [last_error rev hd_error] in P. unfold putWith in Hp.
    pose proof (cut_all ltb W _ key (strict_weak ltb W _ Hs)) as CA.
    destruct (strict_sames ltb W (el s) key Hs) as [Es|([k0 [i v0]] & Es)]; rewrite Es in P, CA.
    - destruct P as (t' & c & E0 & E1 & _). rewrite E0 in Hp. exists v.
      assert (He : el s' = elems t') by (destruct c; injection Hp as <- _; reflexivity). rewrite He, E1. unfold write.
      cbn [app] in CA. rewrite CA, in_app_iff in Hi. rewrite in_app_iff. cbn [In]. tauto.
    - destruct P as (t' & E0 & E1 & _). rewrite E0 in Hp. injection Hp as <- _. cbn [top]. rewrite E1. unfold write.
      rewrite CA, in_app_iff in Hi. cbn [app In] in Hi. destruct Hi as [Hi|[Hi|Hi]].
      + exists v. rewrite in_app_iff. auto.
      + injection Hi as -> -> ->. exists (hit v). rewrite in_app_iff. right. left. reflexivity.
      + exists v. rewrite in_app_iff. cbn [In]. auto.
  Qed.

  (** ** single removals *)
  Ltac bad := solve [match goal with
    | Irr : forall a, ltb a a = true -> False, H : ltb ?a ?a = true |- _ => exact (Irr _ H)
    | Irr : forall a, ltb a a = true -> False, H1 : ltb ?a ?b = true, H2 : ltb ?b ?a = true |- _ => exact (Irr _ (wo_trans _ W _ _ _ H1 H2))
    | Irr : forall a, ltb a a = true -> False, H1 : ltb ?a ?b = true, H2 : ltb ?b ?c = true, H3 : ltb ?c ?a = true |- _ => exact (Irr _ (wo_trans _ W _ _ _ H1 (wo_trans _ W _ _ _ H2 H3)))
    end].
  Lemma gone_kept y how (P : list (K * node)) k0 v0 Q m' k x v e : strictly_sorted ltb (P ++ (k0, (y, v0)) :: Q) -> goneOk y how P Q m' ->
    In (k, (x, v)) (P ++ (k0, (y, v0)) :: Q) -> In e (P ++ (k0, (y, v0)) :: Q) ->
    ltb k0 (fst e) && ltb (fst e) k || ltb k (fst e) && ltb (fst e) k0 = true -> In (k, (x, v)) m'.
  Proof.
    intros Hs Hg Hi He Hb. destruct (strict_mid ltb _ _ _ Hs) as (Sp & Sq & Lp & Lq). cbn [fst] in Lp, Lq.
    assert (Irr : forall a, ltb a a = true -> False) by (intros a; rewrite (wo_irrefl _ W); discriminate).
    assert (Tr := wo_trans _ W). apply orb_true_iff in Hb. rewrite !andb_true_iff in Hb. rewrite in_app_iff in Hi, He. cbn [In] in Hi, He.
    assert (He' : In e P \/ In e Q).
    { destruct He as [|[<-|]]; auto. cbn [fst] in Hb. exfalso. destruct Hb as [(Hb & _)|(_ & Hb)]; bad. }
    clear He. destruct how; cbn [goneOk] in Hg.
    - subst m'. rewrite in_app_iff. destruct Hi as [Hi|[Hi|Hi]]; auto. injection Hi as -> _ _. exfalso. destruct Hb as [(B1 & B2)|(B1 & B2)]; bad.
    - destruct Hg as (P' & k' & i & v' & -> & ->). rewrite in_app_iff in Hi, He' |- *. cbn [In] in Hi, He' |- *.
      destruct Hi as [[Hi|[Hi|[]]]|[Hi|Hi]]; auto; exfalso.
      + injection Hi as -> -> ->. assert (X : ltb k k0 = true) by (apply (Lp (k, (x, v))); rewrite in_app_iff; cbn; auto).
        destruct Hb as [(B1 & B2)|(B1 & B2)]; [bad|].
        destruct (strict_mid ltb _ _ _ Sp) as (_ & _ & L1 & _). cbn [fst] in L1.
        destruct He' as [[He|[<-|[]]]|He]; [specialize (L1 _ He)|cbn [fst] in B1|specialize (Lq _ He)]; bad.
      + injection Hi as -> _ _. destruct Hb as [(B1 & B2)|(B1 & B2)]; bad.
    - destruct Hg as (Q' & k' & i & v' & -> & ->). rewrite in_app_iff. cbn [In] in Hi, He' |- *.
      destruct Hi as [Hi|[Hi|[Hi|Hi]]]; auto; exfalso.
      + injection Hi as -> _ _. destruct Hb as [(B1 & B2)|(B1 & B2)]; bad.
      + injection Hi as -> -> ->. assert (X : ltb k0 k = true) by (apply (Lq (k, (x, v))); cbn; auto).
        destruct Hb as [(B1 & B2)|(B1 & B2)]; [|bad].
        destruct (strict_mid ltb [] _ _ Sq) as (_ & _ & _ & L1). cbn [fst] in L1.
        destruct He' as [He|[<-|He]]; [specialize (Lp _ He)|cbn [fst] in B2|specialize (L1 _ He)]; bad.
  Qed.
  Lemma removeNode_kept stale (s : tls) M P k0 y v0 Q k x v : TRel stale s M -> el s = P ++ (k0, (y, v0)) :: Q -> apart ltb M k0 k ->
    In (k, (x, v)) (el s) -> exists s' o, removeNode y s = Some (s', o) /\ In (k, (x, v)) (el s').
  Proof.
    intros HR Ee Ha Hi. pose proof HR as (Em & Ht & _ & Hn & _). pose proof (rel_sorted _ _ _ HR) as Hs.
    destruct (removeAt_ok y (top s) Ht Hn P k0 v0 Q Ee) as (t' & how & E1 & _ & E3 & _).
    destruct (removeNode_rel ltb stale s M P k0 y v0 Q HR Ee) as (s' & R & _). exists s', (TSlice (Some (k0, v0))). split; [exact R|].
    assert (Et : el s' = elems t').
    { unfold removeNode in R. rewrite E1 in R. cbv zeta in R. destruct (removeLinks _ _ how (lks s)); [|discriminate]. injection R as <-. reflexivity. }
    rewrite Et. destruct Ha as [Ha|(e & He & Hb)].
    - exfalso. apply Ha. exists (k0, v0). split; [|apply (same_refl _ W)]. rewrite <- Em. apply (pk_in k0 y). rewrite Ee. apply in_elt.
    - rewrite Ee in Hs, Hi. rewrite <- Em, Ee in He. apply in_pk in He as (z & He). apply (gone_kept y how P k0 v0 Q _ k x v _ Hs E3 Hi He Hb).
  Qed.
  Lemma Remove_kept stale (s : tls) M key k x v : TRel stale s M -> apart ltb M key k -> In (k, (x, v)) (el s) ->
    exists s' o, Remove cmp key s = Some (s', o) /\ In (k, (x, v)) (el s').
  Proof.
    intros HR Ha Hi. pose proof HR as (Em & _). pose proof (rel_sorted _ _ _ HR) as Hs.
    pose proof (getNode_ok ltb W cmp Hcmp key (top s) Hs) as G. pose proof (cut_all ltb W _ key (strict_weak ltb W _ Hs)) as CA.
    unfold Remove, getNode. destruct (strict_sames ltb W (el s) key Hs) as [Q|([k0 [i v0]] & Q)]; rewrite Q in *.
    - rewrite G. eauto.
    - destruct G as (s1 & l1 & r1 & ->). cbn [app] in CA.
      assert (Hk : same ltb k0 key = true).
      { assert (X : In (k0, (i, v0)) (sames ltb key (el s))) by (rewrite Q; left; reflexivity). apply filter_In in X. apply X. }
      apply (removeNode_kept stale s M _ k0 i v0 _ k x v HR CA); [|exact Hi]. destruct Ha as [Ha|(e & He & Hb)].
      + left. intros (e & He & Hb). apply Ha. exists e. split; [exact He|]. apply same_iff in Hb as (B1 & B2). apply same_iff.
        rewrite <- (same_lt_r _ W _ _ _ Hk), <- (same_lt_l _ W _ _ _ Hk). auto.
      + right. exists e. split; [exact He|]. rewrite (same_lt_r _ W _ _ _ Hk), (same_lt_l _ W _ _ _ Hk). exact Hb.
  Qed.

  (** ** by position *)
  Lemma rank_entry (l : list (K * node)) k x v : strictly_sorted ltb l -> In (k, (x, v)) l ->
    entry_at l (Some (len (before ltb k l))) = Some (k, (x, v)).
  Proof. intros Hs Hi. rewrite (split_at k x v l Hs Hi) at 1. apply entry_at_mid. Qed.
  Lemma rank_bounds (l : list (K * node)) k x v : strictly_sorted ltb l -> In (k, (x, v)) l -> 0 <= len (before ltb k l) < len l.
  Proof.
    intros Hs Hi. pose proof (len_nonneg (before ltb k l)). split; [lia|]. rewrite (split_at k x v l Hs Hi) at 2. rewrite len_mid.
    pose proof (len_nonneg (after ltb k l)). lia.
  Qed.
  Lemma nth_in_firstn {X} (l : list X) n i x : nth_error l i = Some x -> (i < n)%nat -> In x (firstn n l).
  Proof.
    intros H Hl. apply (nth_error_In _ i). revert n i H Hl. induction l as [|y l IH]; intros n [|i] H Hl; try discriminate; (destruct n as [|n]; [lia|]); cbn in *; auto.
    apply IH; auto; lia.
  Qed.
  Lemma nth_in_skipn {X} (l : list X) n i x : nth_error l i = Some x -> (n <= i)%nat -> nth_error (skipn n l) (i - n) = Some x.
  Proof.
    revert n i. induction l as [|y l IH]; intros n i H Hl; [destruct i; discriminate|]. destruct n as [|n]; [rewrite Nat.sub_0_r; exact H|].
    destruct i as [|i]; [lia|]. cbn in H |- *. apply IH; auto; lia.
  Qed.

  Lemma kept stale (s : tls) M o k x v : TRel stale s M -> trim_inside M o ->
    In (k, (x, v)) (el s) -> stays ltb M o k -> exists v', In (k, (x, v')) (el (fst (tl_step cmp s o))).
  Proof.
    intros HR Hp Hi Hst. pose proof HR as (Em & Ht & Hm & Hn & Hf & HL & _). pose proof (rel_sorted _ _ _ HR) as Hs.
    assert (Hput : forall key w ins ex hit, exists v', In (k, (x, v')) (el (fst (orPanic s (putWith cmp key w ins ex hit s))))).
    { intros key w ins ex hit. destruct (putWith cmp key w ins ex hit s) as [(s', r)|] eqn:E; [|eauto]. apply (put_kept _ _ _ _ _ _ _ _ _ _ _ _ _ HR E Hi). }
    assert (Hne : top s <> E) by (intros X; rewrite X in Hi; destruct Hi).
    pose proof (rel_good ltb stale s M HR Hne) as (_ & _ & _ & _ & HG).
    assert (Er : len (before ltb k M) = len (before ltb k (el s))) by (rewrite <- Em, pk_before, pk_len; reflexivity).
    pose proof (rank_entry _ _ _ _ Hs Hi) as Hr. pose proof (rank_bounds _ _ _ _ Hs Hi) as Hb. rewrite entry_at_in in Hr by exact Hb.
    assert (El : len M = len (el s)) by (rewrite <- Em, pk_len; reflexivity).
    destruct o as [key w|key w|key w f|key|key|n| | | | |n|key| |go| | |lo hi|i j|lo hi|i j]; cbn [tl_step stays trim_inside] in *; cbn [fst]; try contradiction; eauto.
    - destruct (Remove_kept stale s M key k x v HR Hst Hi) as (s' & r & -> & H). eauto.
    - unfold RemoveIndex, index. rewrite index_ok by exact Ht. rewrite <- Em, pk_entry_at in Hst.
      destruct (entry_at (el s) (Some n)) as [[k0 [y v0]]|] eqn:En; cbn [option_map plainKV fst snd] in Hst; [|eauto].
      assert (Hi0 : exists P Q, el s = P ++ (k0, (y, v0)) :: Q).
      { assert (X : 0 <= n < len (el s)) by (destruct (Z.le_gt_cases 0 n), (Z.lt_ge_cases n (len (el s))); auto; rewrite entry_at_none in En by lia; discriminate).
        rewrite entry_at_in in En by exact X. apply in_split. apply (nth_error_In _ _ En). }
      destruct Hi0 as (P & Q & Ee). rewrite Em in Hst. destruct (removeNode_kept stale s M P k0 y v0 Q k x v HR Ee Hst Hi) as (s' & r & -> & H). eauto.
    - unfold removeEnd. rewrite <- Em in Hst. destruct (el s) as [|[k0 [y v0]] Q] eqn:Ee; [destruct Hi|]. cbn [pk map hd_error plainKV fst snd] in Hst.
      destruct HG as (G1 & _). cbn [ids map hd_error fst snd] in G1. rewrite G1.
      change (apart ltb (pk ((k0, (y, v0)) :: Q)) k0 k) in Hst. rewrite Em in Hst. rewrite <- Ee in Hi.
      destruct (removeNode_kept stale s M [] k0 y v0 Q k x v HR Ee Hst Hi) as (s' & r & H1 & H2). destruct (top s); [congruence|]. rewrite H1. eauto.
    - unfold removeEnd. rewrite <- Em in Hst. destruct (snoc_cases (el s)) as [Ee|(P & [k0 [y v0]] & Ee)]; [rewrite Ee in Hi; destruct Hi|].
      rewrite pk_last in Hst. rewrite Em in Hst. destruct HG as (_ & G1 & _). rewrite Ee, ids_app in G1. change (ids [(k0, (y, v0))]) with [y] in G1. rewrite last_snoc in G1. rewrite G1.
      rewrite Ee, last_snoc in Hst. cbn [option_map plainKV fst snd] in Hst.
      destruct (removeNode_kept stale s M P k0 y v0 [] k x v HR Ee Hst Hi) as (s' & r & H1 & H2). destruct (top s); [congruence|]. rewrite H1. eauto.
    - unfold index. destruct (IndexModel.index n (top s)) as [[? [? ?]]|]; cbn [orPanic fst]; eauto.
    - unfold RemoveRange. rewrite (gt0 ltb W cmp Hcmp). destruct (ltb hi lo) eqn:Elo; [eauto|].
      assert (Ec : (cmp lo hi =? 0) = same ltb lo hi).
      { rewrite (same_sym ltb). destruct (plain_cases ltb cmp Hcmp lo hi) as [[-> Q]|[[-> Q]|[-> Q]]]; [|congruence|rewrite Q; reflexivity].
        unfold same. rewrite Q, andb_false_r. reflexivity. }
      rewrite Ec. destruct (same ltb lo hi).
      + destruct (Remove_kept stale s M lo k x v HR Hst Hi) as (s' & r & -> & H). eauto.
      + destruct (removeRange_links ltb W cmp Hcmp (lks s) lo hi (top s) Elo [] [] Hs Ht) as (t' & c & dd & -> & E1 & _).
        { cbn [app]. rewrite app_nil_r. exact HG. }
        exists v. assert (X : In (k, (x, v)) (elems t')) by (rewrite E1; apply filter_In; split; [exact Hi|]; cbn [fst]; rewrite Hst; reflexivity).
        destruct dd as [(dl, dr)|]; exact X || exact Hi.
    - unfold RemoveRangeByIndex. rewrite Z.gtb_ltb. destruct (Z.ltb_spec j i) as [Hij|Hij]; [eauto|].
      pose proof (removeRangeAt_links (lks s) i j (top s) Hij 0 [] [] Ht) as X. cbn [app] in X. rewrite app_nil_r in X. specialize (X HG). rewrite !Z.add_0_l in X.
      destruct (_ || _ || _); [rewrite X; eauto|]. destruct X as (t' & c & (dl, dr) & -> & E1 & _). rewrite !Z.sub_0_r in E1. cbn [orPanic fst top]. exists v. rewrite E1, in_app_iff.
      rewrite Er in Hst. destruct (Z.lt_ge_cases (len (before ltb k (el s))) i) as [Hl|Hl].
      + left. apply (nth_in_firstn _ _ _ _ Hr). lia.
      + right. assert (X : (Z.to_nat (j + 1) <= Z.to_nat (len (before ltb k (el s))))%nat) by lia. apply (nth_error_In _ _ (nth_in_skipn _ _ _ _ Hr X)).
    - unfold Trim, IndexModel.Trim. rewrite (gt0 ltb W cmp Hcmp). destruct (ltb hi lo) eqn:Elo; [eauto|]. destruct Hst as [|Hst]; [discriminate|].
      destruct (Trim_ok ltb W cmp Hcmp lo hi (top s) Elo Hs Ht) as (E1 & _). exists v. cbn [orPanic fst top]. rewrite E1. apply filter_In. auto.
    - unfold TrimByIndex, IndexModel.TrimByIndex. cbn [tl_spec] in Hst. rewrite Z.gtb_ltb. destruct (Z.ltb_spec j i) as [Hij|Hij]; [eauto|]. cbn [orb] in Hst.
      destruct (trimAt_ok i j (top s) Hij 0 Ht) as (X1 & X2). rewrite !Z.add_0_l, ?Z.sub_0_r in X1, X2. rewrite El, Er in *.
      destruct ((i <? 0) || (len (el s) <=? j)) eqn:Eo.
      + apply orb_true_iff in Eo. destruct X2 as (t' & -> & X3 & X4); [lia|lia|]. exists v. cbn [fst top]. rewrite X3. exact Hi.
      + apply orb_false_iff in Eo. destruct X1 as (t' & -> & X3 & X4); [lia|]. exists v. cbn [fst top]. rewrite X3, ?Z.sub_0_r.
        assert (Hw : i <= len (before ltb k (el s)) <= j).
        { destruct Hst as [Hst|Hst]; [exact Hst|]. cbn [fst] in Hst. apply (f_equal (@length _)) in Hst. unfold between in Hst.
          rewrite firstn_length, skipn_length in Hst. unfold len in *. lia. }
        assert (X : (Z.to_nat i <= Z.to_nat (len (before ltb k (el s))))%nat) by lia.
        apply nth_in_firstn with (i := (Z.to_nat (len (before ltb k (el s))) - Z.to_nat i)%nat); [apply (nth_in_skipn _ _ _ _ Hr X)|lia].
  Qed.
End Kept.
