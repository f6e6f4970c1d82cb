(** tree/indextree in memory: the calls that cut out or keep a range. *)
From Coq Require Import Permutation.
From Verif Require Import Base Bind Machine AvlTree AvlModel AvlSpec IndexSpec IndexModel.
From Verif Require Import IndexHeapModel IndexHeapProofs IndexHeapPutProofs IndexHeapReadProofs IndexHeapRemoveProofs IndexHeapCutProofs.
From Verif Require IndexProofs SMapSpec.
Local Open Scope Z_scope.

Section Cut.
  Context {K V : Type}.
  Notation mem := (mem K V).
  Notation tree := (tree K V).
  Notation tframe := (tframe (K := K) (V := V)).
  Implicit Types m : mem.

  (** what RemoveRange and RemoveRangeByIndex do at the range root *)
  Lemma cutHere_ok root c a l r m (cutL cutR : ptr -> M K V ptr) (fl fr : tree -> tree) t x : ok m root c (B a l r) ->
    (forall m', body m' l -> next m' = next m -> exists m2 s', cutL (pt l) m' = Ret (pt s') m2 /\ trimmedTo m' m2 l s' (fl (view m' l))) ->
    (forall m', body m' r -> next m' = next m -> exists m2 s', cutR (pt r) m' = Ret (pt s') m2 /\ trimmedTo m' m2 r s' (fr (view m' r))) ->
    fl E = E -> fr E = E ->
    IndexModel.closeCut (Size m a) (fl (view m l)) (fr (view m r)) = Some (t, x) ->
    exists m', (let! l := rdKid (Some a) false in
       let! lgroup := (if negb (isNil l) then cutL l else ret None) in
       let! r := rdKid (Some a) true in
       let! rgroup := (if negb (isNil r) then cutR r else ret None) in
       closeCut root (Some a) lgroup rgroup) m = Ret tt m' /\ rep m' root (upCut x (cview m c) t).
  Proof.
    intros O HL HR El Er Hc.
    pose proof (ok_b _ _ _ _ O) as Hb. apply (body_nd m a false l r) in Hb. destruct Hb as (K1 & K2 & _ & _ & Bl & Br). cbn [negb] in K2.
    assert (Hs : forall m' (f : ptr -> M K V ptr) g s, g E = E -> body m' s -> (exists m2 s', f (pt s) m' = Ret (pt s') m2 /\ trimmedTo m' m2 s s' (g (view m' s))) ->
      exists m2 s', (if negb (isNil (pt s)) then f (pt s) else ret None) m' = Ret (pt s') m2 /\ trimmedTo m' m2 s s' (g (view m' s))).
    { intros m' f g s Eg Hb H. destruct s; [|exact H]. exists m', L. split; [reflexivity|]. cbn [view]. rewrite Eg.
      split; [exact I|]. split; [intros y []|]. split; [constructor|]. split; [reflexivity|apply unch_refl]. }
    destruct (Hs m cutL fl l El Bl (HL m Bl eq_refl)) as (m1 & sl & R1 & T1).
    assert (T0 : trimmedTo m1 m1 L L E).
    { split; [exact I|]. split; [intros y []|]. split; [constructor|]. split; [reflexivity|apply unch_refl]. }
    assert (Nr : forall y, In y (addrs r) -> ~ In y (addrs l)).
    { pose proof (ok_n _ _ _ _ O) as Hn. change (root :: caddrs c ++ addrs (B a l r)) with ((root :: caddrs c) ++ a :: addrs l ++ addrs r) in Hn.
      apply nodup_app in Hn as (_ & Hn & _). apply NoDup_cons_iff in Hn as (_ & Hn). apply nodup_app in Hn as (_ & _ & Hn). intros y H1 H2. exact (Hn y H2 H1). }
    pose proof T1 as (_ & _ & _ & _ & U1).
    assert (Br1 : body m1 r) by (eapply unch_body; eauto).
    destruct (Hs m1 cutR fr r Er Br1 (HR m1 Br1 (proj1 U1))) as (m2 & sr & R2 & T2).
    destruct (trimmed_spot m m1 m2 root c a l r sl sr _ _ O T1 T2) as (S1 & B1 & B2 & V1 & V2 & Z1 & C1 & _ & K3).
    erewrite run_bind by (rewrite rdKid_ok, K1; reflexivity). erewrite run_bind by exact R1.
    erewrite run_bind by (rewrite rdKid_ok, K3, K2; reflexivity). erewrite run_bind by exact R2.
    rewrite <- C1. apply closeCut_ok; [exact S1|exact B1|exact B2|].
    rewrite Z1, V1, V2, (unch_view m m1 _ r U1 Nr). exact Hc.
  Qed.

  Lemma sized_tplug (C : list tframe) : forall t : tree, sized (tplug C t) -> sized t.
  Proof. induction C as [|((((z, k), v), d), y) C IH]; intros t H; [exact H|]. cbn [tplug] in H. apply IH in H. destruct d; cbn in H; tauto. Qed.

  Lemma rangeRootAt_found low high s : forall m root c n idx, ok m root c s -> (hgt s < n)%nat -> s <> L ->
    (rangeRootAt low high n idx (pt s) m = Panic m /\ IndexModel.removeRangeAt low high idx (view m s) = None /\
       IndexModel.trimAt low high idx (view m s) = Broken (view m s)) \/
    exists c1 a l r i, s = plug c1 (B a l r) /\ ok m root (c1 ++ c) (B a l r) /\ rangeRootAt low high n idx (pt s) m = Ret (Some a, i) m /\
      IndexModel.removeRangeAt low high idx (view m s) =
        ('(t, x) <- IndexModel.closeCut (Size m a) (IndexModel.ltrimAt low i false (view m l)) (IndexModel.rtrimAt high i true (view m r)) ;; Some (upCut x (cview m c1) t, x)) /\
      IndexModel.trimAt low high idx (view m s) =
        match IndexModel.keepFromAt low i (view m (B a l r)) with
        | None => Broken (view m s)
        | Some t1 => match IndexModel.keepToAt high i t1 with None => Broken (tplug (cview m c1) t1) | Some t2 => Kept t2 end
        end /\ (low <= high -> low <= i <= high).
  Proof.
    induction s as [|a l IHl r IHr]; intros m root c n idx Hok Hn Hs; [congruence|]. (destruct n as [|n]; [cbn in Hn; lia|]); cbn [pt rangeRootAt view].
    cbn [IndexModel.removeRangeAt IndexModel.trimAt]. cbn [hgt] in Hn.
    pose proof (proj1 (ok_down m root c a false l r) Hok) as Ol. pose proof (proj1 (ok_down m root c a true r l) Hok) as Or.
    destruct (ok_kid _ _ _ _ _ _ _ Ol) as (K1 & K2). cbn [negb] in K2.
    destruct ((idx >? low) && (idx >? high)) eqn:D1; [|destruct ((idx <? high) && (idx <? low)) eqn:D2].
    - rewrite (kid_step m a true false l _ K1 (ok_b _ _ _ _ Ol)).
      destruct l as [|b bl br]; [left; auto|]. set (s := B b bl br) in *.
      destruct (IHl m root _ n (idx - (kidSize true (view m s) + 1)) Ol ltac:(lia) ltac:(discriminate)) as [(H1 & H2 & H3)|(c1 & e & el & er & i & H0 & H1 & H2 & H3 & H4 & H5)].
      + left. rewrite H2, H3. auto.
      + right. exists (c1 ++ [(a, false, r)]), e, el, er, i. rewrite <- app_assoc. rewrite H0 at 1. rewrite plug_snoc, cview_app. cbn [nd cview map fview].
        split; [reflexivity|]. split; [exact H1|]. split; [exact H2|]. split; [|split; [|exact H5]].
        * rewrite H3. destruct (IndexModel.closeCut _ _ _) as [(t, x)|]; [|reflexivity]. cbv beta iota. rewrite upCut_app. reflexivity.
        * rewrite H4. destruct (keepFromAt low i _) as [t1|]; [|reflexivity]. destruct (keepToAt high i t1); [reflexivity|]. rewrite tplug_app. reflexivity.
    - rewrite (kid_step m a false true r _ K2 (ok_b _ _ _ _ Or)).
      destruct r as [|b bl br]; [left; auto|]. set (s := B b bl br) in *.
      destruct (IHr m root _ n (idx + (kidSize false (view m s) + 1)) Or ltac:(lia) ltac:(discriminate)) as [(H1 & H2 & H3)|(c1 & e & el & er & i & H0 & H1 & H2 & H3 & H4 & H5)].
      + left. rewrite H2, H3. auto.
      + right. exists (c1 ++ [(a, true, l)]), e, el, er, i. rewrite <- app_assoc. rewrite H0 at 1. rewrite plug_snoc, cview_app. cbn [nd cview map fview].
        split; [reflexivity|]. split; [exact H1|]. split; [exact H2|]. split; [|split; [|exact H5]].
        * rewrite H3. destruct (IndexModel.closeCut _ _ _) as [(t, x)|]; [|reflexivity]. cbv beta iota. rewrite upCut_app. reflexivity.
        * rewrite H4. destruct (keepFromAt low i _) as [t1|]; [|reflexivity]. destruct (keepToAt high i t1); [reflexivity|]. rewrite tplug_app. reflexivity.
    - right. exists [], a, l, r, idx. split; [reflexivity|]. split; [exact Hok|]. split; [reflexivity|]. split; [|split].
      + destruct (IndexModel.closeCut _ _ _) as [(t, x)|]; reflexivity.
      + reflexivity.
      + intros Hlh. apply andb_false_iff in D1, D2. lia.
  Qed.

  Lemma sized_ltrimAt low idx dir (t : tree) : sized t -> sized (IndexModel.ltrimAt low idx dir t).
  Proof. intros H. apply (IndexProofs.ltrimAt_ok low t (if dir then idx + 1 else idx - Z.of_nat (length (elems t))) idx dir H). destruct dir; unfold SMapSpec.len; lia. Qed.
  Lemma sized_rtrimAt high idx dir (t : tree) : sized t -> sized (IndexModel.rtrimAt high idx dir t).
  Proof. intros H. apply (IndexProofs.rtrimAt_ok high t (if dir then idx + 1 else idx - Z.of_nat (length (elems t))) idx dir H). destruct dir; unfold SMapSpec.len; lia. Qed.

  Lemma parts m root c a l r : ok m root c (B a l r) -> NoDup (addrs l) /\ NoDup (addrs r) /\ (hgt l < S (next m))%nat /\ (hgt r < S (next m))%nat.
  Proof.
    intros O. pose proof (ok_n _ _ _ _ O) as Hn. change (root :: caddrs c ++ addrs (B a l r)) with ((root :: caddrs c) ++ a :: addrs l ++ addrs r) in Hn.
    apply nodup_app in Hn as (_ & Hn & _). apply NoDup_cons_iff in Hn as (_ & Hn). apply nodup_app in Hn as (Nl & Nr & _).
    pose proof (ok_hgt _ _ _ _ O) as Hh. cbn [hgt] in Hh. repeat split; [exact Nl|exact Nr|lia|lia].
  Qed.

  (** how the calls by position start *)
  Inductive start m root (s : sh) : Prop :=
  | startNil : s = L -> (forall X (f : ptr -> Z -> M K V X), (let! cur := getRoot root in let! w := rdKid cur false in let! idx := getSize w in f cur idx) m = Panic m) -> start m root s
  | startAt : s <> L -> (forall X (f : ptr -> Z -> M K V X), (let! cur := getRoot root in let! w := rdKid cur false in let! idx := getSize w in f cur idx) m = f (pt s) (kidSize false (view m s)) m) -> start m root s.
  Lemma ix_start m root s : ok m root [] s -> start m root s.
  Proof.
    intros Hok. destruct s as [|b bl br].
    - apply startNil; [reflexivity|]. intros X f. erewrite run_bind by (apply getRoot_ok, Hok). reflexivity.
    - apply startAt; [discriminate|]. intros X f. erewrite run_bind by (apply getRoot_ok, Hok).
      pose proof (kidSize_ok m false b bl br (ok_b _ _ _ _ Hok)) as X0. unfold bind in X0 |- *. cbn [pt]. destruct (rdKid (Some b) false m) as [w m1|m1|]; try discriminate.
      destruct (getSize w m1); try discriminate. injection X0 as -> ->. reflexivity.
  Qed.

  Lemma RemoveRangeByIndex_ok low high m root t : rep m root t -> sized t ->
    match IndexModel.RemoveRangeByIndex low high t with
    | None => RemoveRangeByIndex root low high m = Panic m
    | Some t' => exists m', RemoveRangeByIndex root low high m = Ret tt m' /\ rep m' root t'
    end.
  Proof.
    intros Hr Hz. unfold IndexModel.RemoveRangeByIndex, RemoveRangeByIndex. destruct (low >? high) eqn:Elh.
    { exists m. auto. }
    destruct Hr as (s & Hok & <-). destruct (ix_start m root s Hok) as [-> Hx|Hn Hx].
    { rewrite Hx. reflexivity. }
    rewrite Hx.
    destruct (rangeRootAt_found low high s m root [] (S (next m)) (kidSize false (view m s)) Hok (ok_hgt _ _ _ _ Hok) Hn)
      as [(H1 & H2 & _)|(c & a & l & r & i & H0 & O & H1 & H2 & _)]; rewrite H2.
    - cbv beta. unfold fueled, bind. rewrite H1. reflexivity.
    - cbv beta. unfold fueled at 1. erewrite run_bind by exact H1. cbv beta iota. rewrite app_nil_r in O.
      assert (Hz' : sized (view m (B a l r))) by (rewrite H0, view_plug in Hz; exact (sized_tplug _ _ Hz)).
      pose proof Hz' as (_ & Zl & Zr).
      destruct (IndexProofs.closeCut_ok (view m (B a l r)) _ _ Hz' (sized_ltrimAt low i false _ Zl) (sized_rtrimAt high i true _ Zr)) as (t1 & x & Ec & _).
      cbn [view IndexModel.getSize] in Ec. rewrite Ec.
      destruct (parts _ _ _ _ _ _ O) as (Nl & Nr & Hl & Hr).
      apply (cutHere_ok root c a l r m (fun l => fueled (fun n => trimAt true low n i false l)) (fun r => fueled (fun n => trimAt false high n i true r)) (ltrimAt low i false) (rtrimAt high i true) t1 x O).
      + intros m' Bl N. unfold fueled. rewrite N. apply (trimAt_ok true low l m' (S (next m)) i false Bl Nl Hl).
      + intros m' Br N. unfold fueled. rewrite N. apply (trimAt_ok false high r m' (S (next m)) i true Br Nr Hr).
      + reflexivity.
      + reflexivity.
      + exact Ec.
  Qed.
End Cut.

Section Range.
  Context {K V : Type} (cmp : K -> K -> Z).
  Notation mem := (mem K V).
  Notation tree := (tree K V).
  Notation tframe := (tframe (K := K) (V := V)).
  Implicit Types m : mem.

  Lemma rangeRoot_found low high s : forall m root c n, ok m root c s -> (hgt s < n)%nat ->
    (getRangeRoot cmp low high n (pt s) m = Ret None m /\ IndexModel.removeRange cmp low high (view m s) = Some (view m s, Nothing) /\
       IndexModel.getRangeRoot cmp low high (view m s) = E) \/
    exists c1 a l r, s = plug c1 (B a l r) /\ ok m root (c1 ++ c) (B a l r) /\ getRangeRoot cmp low high n (pt s) m = Ret (Some a) m /\
      IndexModel.removeRange cmp low high (view m s) =
        ('(t, x) <- IndexModel.closeCut (Size m a) (IndexModel.ltrim cmp low (view m l)) (IndexModel.rtrim cmp high (view m r)) ;; Some (upCut x (cview m c1) t, x)) /\
      IndexModel.getRangeRoot cmp low high (view m s) = view m (B a l r).
  Proof.
    induction s as [|a l IHl r IHr]; intros m root c n Hok Hn; (destruct n as [|n]; [cbn in Hn; lia|]); cbn [pt getRangeRoot isNil view].
    - left. auto.
    - cbn [IndexModel.removeRange IndexModel.getRangeRoot]. unfold bind. rewrite rd_ok. cbn [hgt] in Hn.
      pose proof (proj1 (ok_down m root c a false l r) Hok) as Ol. pose proof (proj1 (ok_down m root c a true r l) Hok) as Or.
      set (c1 := cmp low (Key m a)). set (c2 := cmp high (Key m a)).
      assert (Here : getRangeRoot cmp low high (S n) (Some a) m = Ret (Some a) m -> forall t, t = view m (B a l r) ->
         (exists c1 b bl br, B a l r = plug c1 (B b bl br) /\ ok m root (c1 ++ c) (B b bl br) /\ getRangeRoot cmp low high (S n) (Some a) m = Ret (Some b) m /\
            IndexModel.closeCut (Size m a) (IndexModel.ltrim cmp low (view m l)) (IndexModel.rtrim cmp high (view m r)) =
            ('(t, x) <- IndexModel.closeCut (Size m b) (IndexModel.ltrim cmp low (view m bl)) (IndexModel.rtrim cmp high (view m br)) ;; Some (upCut x (cview m c1) t, x)) /\ t = view m (B b bl br))).
      { intros H1 t ->. exists [], a, l, r. split; [reflexivity|]. split; [exact Hok|]. split; [exact H1|]. split; [|reflexivity].
        destruct (IndexModel.closeCut _ _ _) as [(t, x)|]; reflexivity. }
      cbn [getRangeRoot isNil] in Here. unfold bind in Here at 1 4. rewrite rd_ok in Here. fold c1 c2 in Here. cbv zeta in Here |- *.
      assert (Down : forall d (s y : sh), B a l r = nd a d s y -> ok m root ((a, d, y) :: c) s -> (hgt s < n)%nat ->
        (forall m root c n, ok m root c s -> (hgt s < n)%nat ->
          (getRangeRoot cmp low high n (pt s) m = Ret None m /\ IndexModel.removeRange cmp low high (view m s) = Some (view m s, Nothing) /\
           IndexModel.getRangeRoot cmp low high (view m s) = E) \/
          exists c1 a l r, s = plug c1 (B a l r) /\ ok m root (c1 ++ c) (B a l r) /\ getRangeRoot cmp low high n (pt s) m = Ret (Some a) m /\
          IndexModel.removeRange cmp low high (view m s) =
          ('(t, x) <- IndexModel.closeCut (Size m a) (IndexModel.ltrim cmp low (view m l)) (IndexModel.rtrim cmp high (view m r)) ;; Some (upCut x (cview m c1) t, x)) /\
          IndexModel.getRangeRoot cmp low high (view m s) = view m (B a l r)) ->
        let T := '(t, x) <- IndexModel.removeRange cmp low high (view m s) ;; Some (upFromCut x (Size m a) (Key m a) (Value m a) (if d then view m y else t) (if d then t else view m y), x) in
        let G := (let! q := rdKid (Some a) d in getRangeRoot cmp low high n q) m in
          (G = Ret None m /\ T = Some (view m (B a l r), Nothing) /\
           IndexModel.getRangeRoot cmp low high (view m s) = E) \/
          exists c1 b bl br, B a l r = plug c1 (B b bl br) /\ ok m root (c1 ++ c) (B b bl br) /\ G = Ret (Some b) m /\
          T = ('(t, x) <- IndexModel.closeCut (Size m b) (IndexModel.ltrim cmp low (view m bl)) (IndexModel.rtrim cmp high (view m br)) ;; Some (upCut x (cview m c1) t, x)) /\
          IndexModel.getRangeRoot cmp low high (view m s) = view m (B b bl br)).
      { intros d s y Es O Hh IH T G. destruct (ok_kid _ _ _ _ _ _ _ O) as (K1 & _).
        assert (EG : G = getRangeRoot cmp low high n (pt s) m) by (unfold G; erewrite run_bind by (rewrite rdKid_ok, K1; reflexivity); reflexivity).
        rewrite EG. destruct (IH m root _ n O Hh) as [(H1 & H2 & H3)|(c3 & b & bl & br & H1 & H2 & H3 & H4 & H5)]; unfold T.
        - left. split; [exact H1|]. split; [|exact H3]. rewrite H2, Es, view_nd. destruct d; reflexivity.
        - right. exists (c3 ++ [(a, d, y)]), b, bl, br. rewrite <- app_assoc, plug_snoc, <- H1. split; [exact Es|]. split; [exact H2|]. split; [exact H3|].
          split; [|exact H5]. rewrite H4. generalize (IndexModel.closeCut (Size m b) (ltrim cmp low (view m bl)) (rtrim cmp high (view m br))).
          intros [(t, x)|]; [|reflexivity]. cbv beta iota. rewrite cview_app, upCut_app. reflexivity. }
      destruct (c1 =? c2); cbn [negb andb] in *; [|right; apply Here; reflexivity].
      destruct (c1 <? 0); [|destruct (c1 >? 0)].
      + apply (Down false l r eq_refl Ol ltac:(lia) IHl).
      + apply (Down true r l eq_refl Or ltac:(lia) IHr).
      + right. apply Here; reflexivity.
  Qed.

End Range.

Section Nil.
  Context {K A : Type} (cmp : K -> K -> Z).
  Implicit Types m : mem K (option A).

  Lemma RemoveRange_ok low high m root t t' : rep m root t -> IndexModel.RemoveRange cmp low high t = Some t' ->
    exists m', RemoveRange cmp root low high m = Ret tt m' /\ rep m' root t'.
  Proof.
    intros Hr H. unfold IndexModel.RemoveRange in H. unfold RemoveRange. destruct (_ >? 0); [discriminate|]. destruct (_ =? 0).
    - destruct (IndexModel.removeKey cmp low t) as [(t1, res)|] eqn:E1; [|discriminate]. injection H as <-.
      destruct (Remove_ok cmp low m root t t1 res Hr E1) as (m' & R & Hr'). erewrite run_bind by exact R. exists m'. auto.
    - destruct Hr as (s & Hok & <-). erewrite run_bind by (apply getRoot_ok, Hok). unfold fueled at 1.
      destruct (rangeRoot_found cmp low high s m root [] (S (next m)) Hok (ok_hgt _ _ _ _ Hok)) as [(H1 & H2 & _)|(c & a & l & r & H0 & O & H1 & H2 & _)];
        rewrite H2 in H; (erewrite run_bind by exact H1).
      + injection H as <-. exists m. split; [reflexivity|]. exists s. auto.
      + cbn [isNil]. rewrite app_nil_r in O.
        destruct (IndexModel.closeCut _ _ _) as [(t1, x)|] eqn:Ec; [|discriminate]. injection H as <-.
        destruct (parts _ _ _ _ _ _ O) as (Nl & Nr & Hl & Hr).
        apply (cutHere_ok root c a l r m (fun l => fueled (fun n => trim cmp true low n l)) (fun r => fueled (fun n => trim cmp false high n r)) (ltrim cmp low) (rtrim cmp high) t1 x O).
        * intros m' Bl N. unfold fueled. rewrite N. apply (trim_ok cmp true low l m' (S (next m)) Bl Nl Hl).
        * intros m' Br N. unfold fueled. rewrite N. apply (trim_ok cmp false high r m' (S (next m)) Br Nr Hr).
        * reflexivity.
        * reflexivity.
        * exact Ec.
  Qed.
End Nil.
