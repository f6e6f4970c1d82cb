(** tree/indextree in memory: Trim and TrimByIndex. *)
From Coq Require Import Permutation.
From Verif Require Import Base Bind Machine AvlTree AvlModel AvlSpec IndexSpec IndexModel.
From Verif Require Import IndexHeapModel IndexHeapProofs IndexHeapPutProofs IndexHeapReadProofs IndexHeapRemoveProofs IndexHeapCutProofs IndexHeapRangeProofs.
From Verif Require IndexProofs.
Local Open Scope Z_scope.

Section Keep.
  Context {K V : Type}.
  Notation mem := (mem K V).
  Notation tree := (tree K V).
  Notation tframe := (tframe (K := K) (V := V)).
  Implicit Types m : mem.

  (** the top node of [s] has its old parent and is still the top node of [s'] *)
  Definition inPlace m m' (s s' : sh) : Prop := pt s' = pt s /\ forall a, pt s = Some a -> Parent m' a = Parent m a.

  Lemma trimmed_refl m s : body m s -> NoDup (addrs s) -> trimmedTo m m s s (view m s).
  Proof. intros H1 H2. split; [exact H1|]. split; [apply incl_refl|]. split; [exact H2|]. split; [reflexivity|apply unch_refl]. Qed.
  Lemma inPlace_refl m s : inPlace m m s s.
  Proof. split; auto. Qed.
  Lemma inPlace_hangs m m' s s' p : inPlace m m' s s' -> hangs m p s -> hangs m' p s'.
  Proof.
    intros (H1 & H2) Hh. destruct s' as [|a' l' r']; [exact I|]. destruct s as [|a l r]; [discriminate|]. cbn [pt] in H1. injection H1 as ->. cbn [hangs] in *.
    rewrite (H2 a eq_refl). exact Hh.
  Qed.

  (** the child in the other direction left as it is and this one changed in place *)
  Lemma trimmed_in m m1 a d x y s1 t : body m (nd a d x y) -> NoDup (addrs (nd a d x y)) -> trimmedTo m m1 y s1 t -> inPlace m m1 y s1 ->
    trimmedTo m m1 (nd a d x y) (nd a d x s1) (tnd (Size m a) (Key m a) (Value m a) d (view m x) t) /\ inPlace m m1 (nd a d x y) (nd a d x s1).
  Proof.
    intros Hb Hn (B1 & I1 & N1 & V1 & U1) Hp. apply body_nd in Hb. destruct Hb as (Kx & Ky & Px & Py & Bx & By). apply nd_sub in Hn.
    pose proof Hn as Hn0. apply NoDup_cons_iff in Hn as (Ha & Hn). rewrite in_app_iff in Ha. apply nodup_app in Hn as (Nx & Ny & Nd).
    assert (Ua : Parent m1 a = Parent m a /\ (forall e, Children m1 a e = Children m a e) /\ Size m1 a = Size m a /\ Key m1 a = Key m a /\ Value m1 a = Value m a) by (apply U1; tauto).
    destruct Ua as (Ua1 & Ua2 & Ua3 & Ua4 & Ua5).
    split; [split; [|split; [|split; [|split]]]|].
    - apply body_nd. rewrite !Ua2, (proj1 Hp). split; [exact Kx|]. split; [exact Ky|]. split; [eapply unch_hangs; eauto|]. split; [eapply inPlace_hangs; eauto|]. split; [eapply unch_body; eauto|exact B1].
    - intros z Hz. apply in_nd in Hz. apply in_nd. intuition.
    - apply nd_nodup. apply NoDup_cons_iff. split; [rewrite in_app_iff; intros [X|X]; [tauto|apply I1 in X; tauto]|]. apply nodup_app. split; [exact Nx|]. split; [exact N1|].
      intros z H1 H2. apply (Nd z H1), I1, H2.
    - rewrite view_nd, Ua3, Ua4, Ua5, V1, (unch_view m m1 _ x U1 Nd). reflexivity.
    - eapply unch_incl; [|exact U1]. intros z Hz. apply in_nd. auto.
    - split; [rewrite !pt_nd; reflexivity|]. intros b Hb. rewrite pt_nd in Hb. injection Hb as <-. exact Ua1.
  Qed.

  (** the child [d] dropped *)
  Lemma trim_drop m a d x y : body m (nd a d x y) -> NoDup (addrs (nd a d x y)) ->
    exists m2, (wr (setKid d None) (Some a) ;! (let! q := rdKid (Some a) (negb d) in let! s := getSize q in wr (setSize (s + 1)) (Some a) ;! ret (Some a))) m = Ret (Some a) m2 /\
      trimmedTo m m2 (nd a d x y) (nd a d L y) (tnd (IndexModel.getSize (view m y) + 1) (Key m a) (Value m a) d E (view m y)) /\
      inPlace m m2 (nd a d x y) (nd a d L y).
  Proof.
    intros Hb Hn. apply body_nd in Hb. destruct Hb as (Kx & Ky & Px & Py & Bx & By). apply nd_sub in Hn.
    pose proof Hn as Hn0. apply NoDup_cons_iff in Hn as (Ha & Hn). rewrite in_app_iff in Ha. apply nodup_app in Hn as (Nx & Ny & Nd).
    set (m1 := setKid d None a m).
    assert (K1 : Children m1 a (negb d) = pt y).
    { unfold m1. mm. destruct d; cbn [negb]; exact Ky. }
    assert (U1 : unch m m1 [a]).
    { split; [reflexivity|]. intros z Hz. unfold m1. mm. split; [reflexivity|]. split; [|auto]. intros e. rewrite upd_ne by (intros ->; apply Hz; left; reflexivity). reflexivity. }
    assert (Hy : forall z, In z (addrs y) -> ~ In z [a]) by (intros z Hz [<-|[]]; tauto).
    set (m2 := setSize (gs m1 y + 1) a m1).
    assert (U2 : unch m m2 [a]).
    { eapply unch_trans; [exact U1|]. split; [reflexivity|]. intros z Hz. unfold m2. mm. split; [reflexivity|]. split; [auto|]. rewrite upd_ne by (intros ->; apply Hz; left; reflexivity). auto. }
    exists m2. split.
    - erewrite run_bind by reflexivity. erewrite run_bind by (rewrite rdKid_ok; fold m1; rewrite K1; reflexivity). erewrite run_bind by apply getSize_ok. reflexivity.
    - split; [split; [|split; [|split; [|split]]]|].
      + apply body_nd. assert (Ka : forall e, Children m2 a e = Children m1 a e) by reflexivity. rewrite !Ka, K1. split; [|split; [reflexivity|]].
        * unfold m1. mm. destruct d; reflexivity.
        * split; [exact I|]. split; [eapply unch_hangs; eauto|]. split; [exact I|]. eapply unch_body; eauto.
      + intros z Hz. apply in_nd in Hz. apply in_nd. cbn [addrs In] in Hz. intuition.
      + apply nd_nodup. cbn [addrs app]. apply NoDup_cons_iff. split; [tauto|exact Ny].
      + rewrite view_nd. cbn [view]. rewrite (unch_view m m2 _ y U2 Hy). 
        assert (Eg : gs m1 y = IndexModel.getSize (view m y)) by (unfold gs; rewrite (unch_view m m1 _ y U1 Hy); reflexivity).
        unfold m2. rewrite Eg. unfold m1. mm. reflexivity.
      + eapply unch_incl; [|exact U2]. intros z [<-|[]]. apply in_nd. auto.
      + split; [rewrite !pt_nd; reflexivity|]. intros b _. reflexivity.
  Qed.

  Lemma ok_replace m m' root c s s' t : ok m root c s -> trimmedTo m m' s s' t -> inPlace m m' s s' -> ok m' root c s' /\ cview m' c = cview m c /\ next m' = next m.
  Proof.
    intros [Hc Hh Hb Hn Hl] (B1 & I1 & N1 & V1 & U1) Hp. change (root :: caddrs c ++ addrs s) with ((root :: caddrs c) ++ addrs s) in *.
    apply nodup_app in Hn as (Nc & Ns & Nd).
    split; [constructor|split].
    - rewrite (proj1 Hp). eapply unch_cok; eauto.
    - eapply inPlace_hangs; eauto.
    - exact B1.
    - apply (nodup_app (root :: caddrs c)). split; [exact Nc|]. split; [exact N1|]. intros z H1 H2. apply (Nd z H1), I1, H2.
    - intros z Hz. rewrite (proj1 U1). apply Hl. apply (in_app_or (root :: caddrs c)) in Hz. apply in_or_app. destruct Hz as [Hz|Hz]; [auto|right; apply I1, Hz].
    - eapply unch_cview; [exact U1|]. intros z Hz. apply Nd. right. exact Hz.
    - exact (proj1 U1).
  Qed.

  Lemma newRoot_at m root c s : ok m root c s -> exists m', newRoot root (pt s) m = Ret tt m' /\ ok m' root [] s /\ view m' s = view m s.
  Proof.
    intros O. pose proof (proj1 (ok_plug _ _ _ _) O) as O0.
    assert (O1 : ok (put_at root [] s m) root [] s).
    { apply (place_ok m root [] (pt (plug c s))); [exact (ok_c _ _ _ _ O0)| | |exact (ok_b _ _ _ _ O)]; destruct O as [_ _ _ Hn Hl]; cbn [caddrs app].
      - apply NoDup_cons_iff in Hn as (H1 & H2). apply nodup_app in H2 as (_ & H2 & _). apply NoDup_cons_iff. split; [|exact H2]. intros X. apply H1. apply in_or_app. auto.
      - intros a [Ha|Ha]; apply Hl; [left; exact Ha|right; apply in_or_app; auto]. }
    exists (put_at root [] s m). split.
    - unfold newRoot. assert (Er : eqp (pt s) (Some root) = false).
      { apply eqp_ne. intros X. apply pt_in in X. pose proof (ok_n _ _ _ _ O) as Hn. apply NoDup_cons_iff in Hn as (H1 & _). apply H1, in_or_app. auto. }
      rewrite Er. cbn [negb]. erewrite run_bind by reflexivity. destruct s; reflexivity.
    - split; [exact O1|]. destruct (put_at_data root [] s m) as (D1 & D2 & D3 & D4). apply view_keep, data_all; assumption.
  Qed.
  Lemma newRoot_ok m root c s : ok m root c s -> exists m', newRoot root (pt s) m = Ret tt m' /\ rep m' root (view m s).
  Proof. intros O. destruct (newRoot_at m root c s O) as (m' & R & O1 & V1). exists m'. split; [exact R|]. exists s. auto. Qed.

  (** ** by position *)
  Definition tkeepAt (d : bool) : Z -> Z -> tree -> option tree := if d then IndexModel.keepToAt else IndexModel.keepFromAt.
  Lemma tkeepAt_nd d bound idx z k v x y : tkeepAt d bound idx (tnd z k v d x y) =
    let j (e : bool) t := if e then idx + kidSize false t + 1 else idx - kidSize true t - 1 in
    if (if d then idx >? bound else idx <? bound) then match y with E => None | _ => tkeepAt d bound (j (negb d) y) y end
    else if (if d then idx <? bound else idx >? bound) then
      match x with E => None | _ => t <- tkeepAt d bound (j d x) x ;; Some (tsum k v d t y) end
    else Some (tnd (IndexModel.getSize y + 1) k v d E y).
  Proof.
    destruct d; cbn [tkeepAt tnd IndexModel.keepToAt IndexModel.keepFromAt negb]; cbv zeta.
    - destruct (idx >? bound); [reflexivity|]. destruct (idx <? bound); [|reflexivity]. destruct x; [reflexivity|]. destruct (IndexModel.keepToAt _ _ _); [|reflexivity]. rewrite tsum_sum. reflexivity.
    - destruct (idx <? bound); [reflexivity|]. destruct (idx >? bound); [|reflexivity]. destruct x; [reflexivity|]. destruct (IndexModel.keepFromAt _ _ _); [|reflexivity]. rewrite tsum_sum. reflexivity.
  Qed.

  Lemma run_panic {X Y} (e : M K V X) (k : X -> M K V Y) m m' : e m = Panic m' -> (let! x := e in k x) m = Panic m'.
  Proof. intros H. unfold bind. rewrite H. reflexivity. Qed.

  Definition keepAtSpec d bound s m n idx : Prop :=
    match tkeepAt d bound idx (view m s) with
    | None => keepAt d bound n idx (pt s) m = Panic m
    | Some t => exists m' s', keepAt d bound n idx (pt s) m = Ret (pt s') m' /\ trimmedTo m m' s s' t /\
        ((if d then idx >? bound else idx <? bound) = false -> inPlace m m' s s')
    end.
  Lemma keepAt_ok d bound s : forall m n idx, body m s -> NoDup (addrs s) -> (hgt s < n)%nat -> keepAtSpec d bound s m n idx.
  Proof.
    assert (Hx : forall a d x y m n idx,
      (forall m n idx, body m x -> NoDup (addrs x) -> (hgt x < n)%nat -> keepAtSpec d bound x m n idx) ->
      (forall m n idx, body m y -> NoDup (addrs y) -> (hgt y < n)%nat -> keepAtSpec d bound y m n idx) ->
      body m (nd a d x y) -> NoDup (addrs (nd a d x y)) -> (hgt x < n)%nat -> (hgt y < n)%nat -> keepAtSpec d bound (nd a d x y) m (S n) idx).
    { intros a e x y m n idx IHx IHy Hb Hn Hnx Hny. pose proof Hb as Hb0. apply body_nd in Hb. destruct Hb as (Kx & Ky & Px & Py & Bx & By).
      pose proof (nd_sub _ _ _ _ Hn) as Hn0. apply NoDup_cons_iff in Hn0 as (_ & Hn0). apply nodup_app in Hn0 as (Nx & Ny & _).
      unfold keepAtSpec. rewrite view_nd, tkeepAt_nd, pt_nd. cbv zeta. cbn [keepAt isNil].
      assert (Down : forall f s, Children m a f = pt s -> body m s ->
        (let! q := rdKid (Some a) f in let! w := rdKid q (negb f) in let! z := getSize w in
         let! q := rdKid (Some a) f in keepAt e bound n (if f then idx + z + 1 else idx - z - 1) q) m =
        match s with L => Panic m | _ => keepAt e bound n (if f then idx + kidSize false (view m s) + 1 else idx - kidSize true (view m s) - 1) (pt s) m end).
      { intros f s0 Hk Hbs. rewrite (kid_step m a (negb f) f s0 (fun _ z => let! q := rdKid (Some a) f in keepAt e bound n (if f then idx + z + 1 else idx - z - 1) q) Hk Hbs).
        destruct s0; [reflexivity|]. cbv beta. erewrite run_bind by (rewrite rdKid_ok, Hk; reflexivity). destruct f; reflexivity. }
      destruct (if e then idx >? bound else idx <? bound).
      - rewrite (Down (negb e) y Ky By). destruct y as [|b bl br]; [reflexivity|]. set (y := B b bl br) in *.
        specialize (IHy m n (if negb e then idx + kidSize false (view m y) + 1 else idx - kidSize true (view m y) - 1) By Ny Hny). unfold keepAtSpec in IHy.
        cbn [view] in *. destruct (tkeepAt e bound _ _) as [t|]; [|exact IHy].
        destruct IHy as (m1 & s1 & R1 & T1 & _). exists m1, s1. split; [exact R1|]. split; [apply trimmed_sub, T1|discriminate].
      - destruct (if e then idx <? bound else idx >? bound).
        + pose proof (Down e x Kx Bx) as Dx. destruct x as [|b bl br]; [apply run_panic, Dx|]. set (x := B b bl br) in *.
          specialize (IHx m n (if e then idx + kidSize false (view m x) + 1 else idx - kidSize true (view m x) - 1) Bx Nx Hnx). unfold keepAtSpec in IHx.
          cbn [view] in *. destruct (tkeepAt e bound _ _) as [t|]; [|apply run_panic; rewrite Dx; exact IHx].
          destruct IHx as (m1 & s1 & R1 & T1 & _). erewrite run_bind by (rewrite Dx; exact R1).
          destruct (trim_adopt _ _ _ _ _ _ _ _ Hb0 Hn T1) as (m2 & R2 & T2 & P2).
          exists m2, (nd a e s1 y). rewrite pt_nd. split; [exact R2|]. split; [exact T2|]. intros _. split; [rewrite !pt_nd; reflexivity|].
          intros c Hc. rewrite pt_nd in Hc. injection Hc as <-. exact P2.
        + destruct (trim_drop m a e x y Hb0 Hn) as (m2 & R2 & T2 & P2). exists m2, (nd a e L y). rewrite pt_nd. split; [exact R2|]. split; [exact T2|auto]. }
    induction s as [|a l IHl r IHr]; intros m n idx Hb Hn Hf; (destruct n as [|n]; [lia|]).
    - unfold keepAtSpec. replace (tkeepAt d bound idx (view m L)) with (Some (E : tree)) by (destruct d; reflexivity).
      exists m, L. split; [reflexivity|]. split; [apply trimmed_refl; [exact I|constructor]|intros; apply inPlace_refl].
    - cbn [hgt] in Hf. destruct d.
      + apply (Hx a true r l m n idx IHr IHl Hb Hn); lia.
      + apply (Hx a false l r m n idx IHl IHr Hb Hn); lia.
  Qed.

  Lemma TrimByIndex_ok low high m root t : rep m root t ->
    let '(t', good) := IndexModel.TrimByIndex low high t in
    exists m', TrimByIndex root low high m = (if good then Ret tt m' else Panic m') /\ rep m' root t'.
  Proof.
    intros Hr. unfold IndexModel.TrimByIndex, TrimByIndex. destruct (low >? high) eqn:Elh.
    { exists m. auto. }
    destruct Hr as (s & Hok & <-). destruct (ix_start m root s Hok) as [-> Hx|Hn Hx].
    { rewrite Hx. exists m. split; [reflexivity|]. exists L. auto. }
    rewrite Hx. cbv beta.
    destruct (rangeRootAt_found low high s m root [] (S (next m)) (kidSize false (view m s)) Hok (ok_hgt _ _ _ _ Hok) Hn)
      as [(H1 & _ & H2)|(c & a & l & r & i & H0 & O & H1 & _ & H2 & H3)]; rewrite H2.
    - exists m. split; [|exists s; auto]. unfold fueled, bind. rewrite H1. reflexivity.
    - unfold fueled at 1. unfold bind at 1. rewrite H1. cbv beta iota. rewrite app_nil_r in O. specialize (H3 ltac:(lia)).
      assert (Nr : NoDup (addrs (B a l r))).
      { pose proof (ok_n _ _ _ _ O) as Hn'. apply NoDup_cons_iff in Hn' as (_ & Hn'). apply nodup_app in Hn'. tauto. }
      pose proof (keepAt_ok false low (B a l r) m (S (next m)) i (ok_b _ _ _ _ O) Nr (ok_hgt _ _ _ _ O)) as Kf. unfold keepAtSpec, tkeepAt in Kf.
      destruct (IndexModel.keepFromAt low i (view m (B a l r))) as [t1|].
      2:{ exists m. split; [|exists s; auto]. unfold fueled, bind. cbn [pt] in Kf. rewrite Kf. reflexivity. }
      destruct Kf as (m1 & s1 & R1 & T1 & P1). specialize (P1 ltac:(lia)). destruct (ok_replace _ _ _ _ _ _ _ O T1 P1) as (O1 & C1 & N1).
      pose proof T1 as (B1 & _ & Nd1 & V1 & _).
      pose proof (keepAt_ok true high s1 m1 (S (next m1)) i B1 Nd1 (ok_hgt _ _ _ _ O1)) as Kt. unfold keepAtSpec, tkeepAt in Kt.
      cbn [pt] in R1. unfold fueled at 1. unfold bind at 1. rewrite R1. cbv beta iota. rewrite V1 in Kt.
      assert (Ep : pt s1 = Some a) by exact (proj1 P1). rewrite Ep in Kt.
      destruct (IndexModel.keepToAt high i t1) as [t2|].
      2:{ exists m1. split; [unfold fueled, bind; rewrite Kt; reflexivity|]. exists (plug c s1). split; [apply (proj1 (ok_plug _ _ _ _)); exact O1|].
          rewrite view_plug, C1, V1. reflexivity. }
      destruct Kt as (m2 & s2 & R2 & T2 & P2). specialize (P2 ltac:(lia)). destruct (ok_replace _ _ _ _ _ _ _ O1 T2 P2) as (O2 & C2 & N2).
      unfold fueled at 1. unfold bind at 1. rewrite R2. cbv beta iota.
      destruct (newRoot_ok m2 root c s2 O2) as (m3 & R3 & Rp3). pose proof T2 as (_ & _ & _ & V2 & _). rewrite V2 in Rp3.
      assert (Ep2 : pt s2 = Some a) by (rewrite <- Ep; exact (proj1 P2)). rewrite Ep2 in R3. exists m3. auto.
  Qed.

  (** ** by key *)
  Section Keys.
    Context (cmp : K -> K -> Z).
    Definition tkeep (d : bool) : K -> tree -> tree := if d then IndexModel.keepTo cmp else IndexModel.keepFrom cmp.
    Definition tleave (d : bool) : K -> tree -> tree := if d then IndexModel.leaveTo cmp else IndexModel.leaveFrom cmp.
    Lemma tkeep_nd d bound z k v x y : tkeep d bound (tnd z k v d x y) =
      if (if d then cmp bound k <? 0 else cmp bound k >? 0) then tkeep d bound y
      else if (if d then cmp bound k >? 0 else cmp bound k <? 0) then tsum k v d (tkeep d bound x) y
      else tnd (IndexModel.getSize y + 1) k v d E y.
    Proof. destruct d; cbn [tkeep tnd IndexModel.keepTo IndexModel.keepFrom]; rewrite tsum_sum; reflexivity. Qed.
    Lemma tleave_nd d bound z k v x y : tleave d bound (tnd z k v d x y) =
      if (if d then cmp bound k <? 0 else cmp bound k >? 0) then tnd z k v d x (tleave d bound y) else tkeep d bound (tnd z k v d x y).
    Proof. destruct d; reflexivity. Qed.

    Definition keepSpec d bound s m n : Prop :=
      exists m' s' s2, keep cmp d bound n (pt s) m = Ret (pt s') m' /\ trimmedTo m m' s s' (tkeep d bound (view m s)) /\
        trimmedTo m m' s s2 (tleave d bound (view m s)) /\ inPlace m m' s s2.
    Lemma keep_ok d bound s : forall m n, body m s -> NoDup (addrs s) -> (hgt s < n)%nat -> keepSpec d bound s m n.
    Proof.
      assert (Hx : forall a d x y m n,
        (forall m n, body m x -> NoDup (addrs x) -> (hgt x < n)%nat -> keepSpec d bound x m n) ->
        (forall m n, body m y -> NoDup (addrs y) -> (hgt y < n)%nat -> keepSpec d bound y m n) ->
        body m (nd a d x y) -> NoDup (addrs (nd a d x y)) -> (hgt x < n)%nat -> (hgt y < n)%nat -> keepSpec d bound (nd a d x y) m (S n)).
      { intros a e x y m n IHx IHy Hb Hn Hnx Hny. pose proof Hb as Hb0. apply body_nd in Hb. destruct Hb as (Kx & Ky & Px & Py & Bx & By).
        pose proof (nd_sub _ _ _ _ Hn) as Hn0. apply NoDup_cons_iff in Hn0 as (_ & Hn0). apply nodup_app in Hn0 as (Nx & Ny & _).
        unfold keepSpec. rewrite view_nd, tleave_nd, !tkeep_nd, pt_nd. cbn [keep isNil]. erewrite run_bind by apply rd_ok. cbv zeta.
        destruct (if e then cmp bound (Key m a) <? 0 else cmp bound (Key m a) >? 0).
        - destruct (IHy m n By Ny Hny) as (m1 & s1 & s2 & R1 & T1 & T2 & P2). destruct (trimmed_in _ _ _ _ _ _ _ _ Hb0 Hn T2 P2) as (T3 & P3).
          exists m1, s1, (nd a e x s2). erewrite run_bind by (rewrite rdKid_ok, Ky; reflexivity).
          split; [exact R1|]. split; [apply trimmed_sub, T1|]. auto.
        - destruct (if e then cmp bound (Key m a) >? 0 else cmp bound (Key m a) <? 0).
          + destruct (IHx m n Bx Nx Hnx) as (m1 & s1 & s2 & R1 & T1 & _). destruct (trim_adopt _ _ _ _ _ _ _ _ Hb0 Hn T1) as (m2 & R2 & T2 & P2).
            erewrite run_bind by (rewrite rdKid_ok, Kx; reflexivity). erewrite run_bind by exact R1.
            exists m2, (nd a e s1 y), (nd a e s1 y). rewrite pt_nd. split; [exact R2|]. split; [exact T2|]. split; [exact T2|]. split; [rewrite !pt_nd; reflexivity|].
            intros c Hc. rewrite pt_nd in Hc. injection Hc as <-. exact P2.
          + destruct (trim_drop m a e x y Hb0 Hn) as (m2 & R2 & T2 & P2). exists m2, (nd a e L y), (nd a e L y). rewrite pt_nd. auto. }
      induction s as [|a l IHl r IHr]; intros m n Hb Hn Hf; (destruct n as [|n]; [lia|]).
      - exists m, L, L. split; [reflexivity|]. pose proof (trimmed_refl m L I (NoDup_nil _)) as T.
        destruct d; (split; [exact T|]; split; [exact T|apply inPlace_refl]).
      - cbn [hgt] in Hf. destruct d.
        + apply (Hx a true r l m n IHr IHl Hb Hn); lia.
        + apply (Hx a false l r m n IHl IHr Hb Hn); lia.
    Qed.

    Lemma Trim_ok low high m root t : rep m root t ->
      match IndexModel.Trim cmp low high t with
      | None => Trim cmp root low high m = Panic m
      | Some t' => exists m', Trim cmp root low high m = Ret tt m' /\ rep m' root t'
      end.
    Proof.
      intros (s & Hok & <-). unfold IndexModel.Trim, Trim. destruct (_ >? 0); [reflexivity|].
      erewrite run_bind by (apply getRoot_ok, Hok). unfold fueled at 1.
      destruct (rangeRoot_found cmp low high s m root [] (S (next m)) Hok (ok_hgt _ _ _ _ Hok)) as [(H1 & _ & H2)|(c & a & l & r & H0 & O & H1 & _ & H2)];
        rewrite H2; (erewrite run_bind by exact H1).
      - cbn [IndexModel.leaveFrom IndexModel.leaveTo]. erewrite run_bind by reflexivity. erewrite run_bind by reflexivity.
        assert (O : ok (put_at root [] L m) root [] L).
        { apply (place_ok m root [] (pt s)); [exact (ok_c _ _ _ _ Hok)| | |exact I]; cbn [caddrs app addrs]; [apply NoDup_cons_iff; split; [tauto|constructor]|].
          intros b [<-|[]]. apply (ok_l _ _ _ _ Hok). left; reflexivity. }
        exists (put_at root [] L m). split; [reflexivity|]. exists L. auto.
      - rewrite app_nil_r in O.
        assert (Nr : NoDup (addrs (B a l r))).
        { pose proof (ok_n _ _ _ _ O) as Hn'. apply NoDup_cons_iff in Hn' as (_ & Hn'). apply nodup_app in Hn'. tauto. }
        destruct (keep_ok false low (B a l r) m (S (next m)) (ok_b _ _ _ _ O) Nr (ok_hgt _ _ _ _ O)) as (m1 & s0 & s1 & R1 & _ & T1 & P1).
        destruct (ok_replace _ _ _ _ _ _ _ O T1 P1) as (O1 & C1 & N1). pose proof T1 as (B1 & _ & Nd1 & V1 & _).
        destruct (keep_ok true high s1 m1 (S (next m1)) B1 Nd1 (ok_hgt _ _ _ _ O1)) as (m2 & s0' & s2 & R2 & _ & T2 & P2).
        destruct (ok_replace _ _ _ _ _ _ _ O1 T2 P2) as (O2 & C2 & N2). pose proof T2 as (B2 & _ & Nd2 & V2 & _).
        assert (Ep : pt s1 = Some a) by exact (proj1 P1). assert (Ep2 : pt s2 = Some a) by (rewrite <- Ep; exact (proj1 P2)).
        rewrite Ep in R2. cbn [pt] in R1. erewrite run_bind by exact R1. erewrite run_bind by exact R2.
        destruct (newRoot_ok m2 root c s2 O2) as (m3 & R3 & Rp3). rewrite Ep2 in R3. rewrite V2, V1 in Rp3. exists m3. auto.
    Qed.
  End Keys.
End Keep.
