(** tree/indextree in memory: RemoveRange and RemoveRangeByIndex. *)
From Coq Require Import Permutation.
From Verif Require Import Base Bind Machine AvlTree AvlModel AvlSpec IndexSpec IndexModel.
From Verif Require Import IndexHeapModel IndexHeapProofs IndexHeapPutProofs IndexHeapReadProofs IndexHeapRemoveProofs.
From Verif Require IndexProofs.
Local Open Scope Z_scope.

Section Local.
  Context {K V : Type}.
  Notation mem := (mem K V).
  Notation tree := (tree K V).
  Notation tframe := (tframe (K := K) (V := V)).
  Implicit Types m : mem.

  (** nothing has changed outside [l] *)
  Definition unch m m' (l : list nat) : Prop :=
    next m' = next m /\ forall x, ~ In x l -> Parent m' x = Parent m x /\ (forall d, Children m' x d = Children m x d) /\
      Size m' x = Size m x /\ Key m' x = Key m x /\ Value m' x = Value m x.
  Lemma unch_refl m l : unch m m l.
  Proof. split; [reflexivity|]. intros x _. auto. Qed.
  Lemma unch_incl m m' l1 l2 : incl l1 l2 -> unch m m' l1 -> unch m m' l2.
  Proof. intros Hi (H1 & H2). split; [exact H1|]. intros x Hx. apply H2. intros X. apply Hx, Hi, X. Qed.
  Lemma unch_trans m1 m2 m3 l : unch m1 m2 l -> unch m2 m3 l -> unch m1 m3 l.
  Proof.
    intros (H1 & H2) (H3 & H4). split; [congruence|]. intros x Hx. destruct (H2 x Hx) as (A1 & A2 & A3 & A4 & A5).
    destruct (H4 x Hx) as (B1 & B2 & B3 & B4 & B5). split; [congruence|]. split; [intros d; rewrite B2; apply A2|]. repeat split; congruence.
  Qed.
  Lemma unch_links m m' l l' : unch m m' l -> (forall x, In x l' -> ~ In x l) -> links m m' l'.
  Proof. intros (_ & H) Hd x Hx. destruct (H x (Hd x Hx)) as (H1 & H2 & _). auto. Qed.
  Lemma unch_data m m' l l' : unch m m' l -> (forall x, In x l' -> ~ In x l) -> data m m' l'.
  Proof. intros (_ & H) Hd x Hx. destruct (H x (Hd x Hx)) as (_ & _ & H1). exact H1. Qed.
  Lemma unch_body m m' l s : unch m m' l -> (forall x, In x (addrs s) -> ~ In x l) -> body m s -> body m' s.
  Proof. intros H Hd. eapply body_keep, unch_links; eauto. Qed.
  Lemma unch_view m m' l s : unch m m' l -> (forall x, In x (addrs s) -> ~ In x l) -> view m' s = view m s.
  Proof. intros H Hd. eapply view_keep, unch_data; eauto. Qed.
  Lemma unch_cview m m' l c : unch m m' l -> (forall x, In x (caddrs c) -> ~ In x l) -> cview m' c = cview m c.
  Proof. intros H Hd. eapply cview_keep, unch_data; eauto. Qed.
  Lemma unch_cok m m' l root c x : unch m m' l -> (forall y, In y (root :: caddrs c) -> ~ In y l) -> cok m root c x -> cok m' root c x.
  Proof.
    intros (_ & H) Hd. apply cok_keep.
    - intros a Ha. destruct (H a (Hd a (or_intror Ha))) as (H1 & _). exact H1.
    - intros a d Ha. destruct (H a (Hd a Ha)) as (_ & H1 & _). apply H1.
  Qed.
  Lemma unch_hangs m m' l p s : unch m m' l -> (forall x, In x (addrs s) -> ~ In x l) -> hangs m p s -> hangs m' p s.
  Proof. intros H Hd. eapply hangs_keep, unch_links; eauto. Qed.

  Definition tsum (k : K) (v : V) (d : bool) (x y : tree) : tree := tnd (IndexModel.getSize x + IndexModel.getSize y + 1) k v d x y.
  Lemma tsum_sum k v d x y : tsum k v d x y = IndexModel.sum k v (if d then y else x) (if d then x else y).
  Proof. unfold tsum, IndexModel.sum. destruct d; cbn [tnd]; f_equal. lia. Qed.

  Lemma pt_eq_addrs s a : pt s = Some a -> exists l r, s = B a l r.
  Proof. destruct s as [|b l r]; [discriminate|]. intros H. injection H as ->. eauto. Qed.

  (** p.Children[d] = s, s.Parent = p *)
  Lemma link_ok m a d s y : NoDup (a :: addrs s ++ addrs y) -> Children m a (negb d) = pt y -> hangs m a y -> body m y -> body m s ->
    let m' := hook a s (setKid d (pt s) a m) in
    body m' (nd a d s y) /\ view m' s = view m s /\ view m' y = view m y /\ unch m m' (a :: addrs s) /\ Parent m' a = Parent m a.
  Proof.
    intros Hn Hk Hh By Bs m'. apply NoDup_cons_iff in Hn as (Ha & Hn). rewrite in_app_iff in Ha. apply nodup_app in Hn as (Ns & Ny & Nd).
    assert (Ht : forall x, pt s = Some x -> x <> a) by (intros x X ->; apply pt_in in X; tauto).
    assert (P1 : forall x, pt s <> Some x -> Parent m' x = Parent m x) by (intros x X; unfold m'; rewrite Parent_hook by exact X; reflexivity).
    assert (C1 : forall x e, x <> a -> Children m' x e = Children m x e) by (intros x e X; unfold m'; mm; reflexivity).
    split; [|split; [|split; [|split]]].
    - apply body_nd. split; [unfold m'; mm; reflexivity|]. split; [unfold m'; mm; exact Hk|]. split; [apply hangs_hook|].
      assert (Hy : links m m' (addrs y)).
      { intros x Hx. split; [apply P1; intros X; apply pt_in in X; exact (Nd x X Hx)|]. intros e. apply C1. intros ->. tauto. }
      split; [eapply hangs_keep; eauto|]. split; [|eapply body_keep; eauto].
      apply (body_keep' m); [exact Ns| | |exact Bs].
      + intros x e Hx. apply C1. intros ->. tauto.
      + intros x Hx X. apply P1, X.
    - apply view_keep, data_all; unfold m'; mm; reflexivity.
    - apply view_keep, data_all; unfold m'; mm; reflexivity.
    - split; [unfold m'; mm; reflexivity|]. intros x Hx. cbn [In] in Hx. split; [apply P1; intros X; apply pt_in in X; tauto|].
      split; [intros e; apply C1; intros ->; tauto|]. unfold m'. mm. auto.
    - apply P1. intros X. exact (Ht _ X eq_refl).
  Qed.

  Lemma adopt_ok m a d s y : NoDup (a :: addrs s ++ addrs y) -> Children m a (negb d) = pt y -> hangs m a y -> body m y -> body m s ->
    exists m', adopt d (Some a) (pt s) m = Ret tt m' /\ body m' (nd a d s y) /\
      view m' (nd a d s y) = tsum (Key m a) (Value m a) d (view m s) (view m y) /\ unch m m' (a :: addrs s) /\ Parent m' a = Parent m a.
  Proof.
    intros Hn Hk Hh By Bs. destruct (link_ok m a d s y Hn Hk Hh By Bs) as (B1 & V1 & V2 & U1 & P1).
    set (m1 := hook a s (setKid d (pt s) a m)) in *.
    assert (K1 : Children m1 a d = pt s /\ Children m1 a (negb d) = pt y) by (apply body_nd in B1; tauto).
    eexists. split; [|split; [|split; [|split]]].
    - unfold adopt. erewrite run_bind by reflexivity. erewrite (run_bind _ _ _ tt m1) by (unfold m1; destruct s; reflexivity).
      apply (sumSize_ok m1 a d s y); tauto.
    - apply (body_keep m1); [|exact B1]. intros x _. auto.
    - apply NoDup_cons_iff in Hn as (Ha & _). rewrite in_app_iff in Ha. rewrite view_nd.
      rewrite (view_others m1 _ a s) by (first [apply setSize_only | tauto]). rewrite (view_others m1 _ a y) by (first [apply setSize_only | tauto]).
      mm. unfold tsum, gs. rewrite V1, V2. unfold m1. mm. reflexivity.
    - eapply unch_trans; [exact U1|]. split; [reflexivity|]. intros x Hx. cbn [In] in Hx. mm.
      rewrite upd_ne by (intros ->; tauto). auto.
    - exact P1.
  Qed.

  Definition tbelow (d : bool) (cmp : K -> K -> Z) : K -> tree -> tree := if d then IndexModel.ltrim cmp else IndexModel.rtrim cmp.
  Lemma tbelow_nd cmp d bound z k v x y : tbelow d cmp bound (tnd z k v d x y) =
    if (if d then cmp bound k >? 0 else cmp bound k <? 0) then tsum k v d (tbelow d cmp bound x) y else tbelow d cmp bound y.
  Proof.
    destruct d; cbn [tbelow tnd IndexModel.ltrim IndexModel.rtrim]; rewrite tsum_sum; reflexivity.
  Qed.

  Lemma nd_sub a d x y : NoDup (addrs (nd a d x y)) -> NoDup (a :: addrs x ++ addrs y).
  Proof. intros H. eapply Permutation_NoDup; [apply addrs_nd|exact H]. Qed.
  Lemma in_nd z a d x y : In z (addrs (nd a d x y)) <-> z = a \/ In z (addrs x) \/ In z (addrs y).
  Proof.
    split; intros H.
    - eapply Permutation_in in H; [|apply addrs_nd]. cbn [In] in H. rewrite in_app_iff in H. intuition congruence.
    - eapply Permutation_in; [symmetry; apply addrs_nd|]. cbn [In]. rewrite in_app_iff. intuition congruence.
  Qed.
  Lemma nd_nodup a d x y : NoDup (a :: addrs x ++ addrs y) -> NoDup (addrs (nd a d x y)).
  Proof. intros H. eapply Permutation_NoDup; [symmetry; apply addrs_nd|exact H]. Qed.
  Lemma sub_nodup a x x' y : NoDup (a :: addrs x ++ addrs y) -> incl (addrs x') (addrs x) -> NoDup (addrs x') -> NoDup (a :: addrs x' ++ addrs y).
  Proof.
    intros H Hi Hn. apply NoDup_cons_iff in H as (Ha & H). rewrite in_app_iff in Ha. apply nodup_app in H as (Nx & Ny & Nd).
    apply NoDup_cons_iff. split; [rewrite in_app_iff; intros [X|X]; [apply Hi in X|]; tauto|]. apply nodup_app. split; [exact Hn|]. split; [exact Ny|].
    intros z Hz. apply Nd, Hi, Hz.
  Qed.

  (** what the trimming closures give: the shape [s'] made of nodes of [s] *)
  Definition trimmedTo m m' (s s' : sh) (t : tree) : Prop :=
    body m' s' /\ incl (addrs s') (addrs s) /\ NoDup (addrs s') /\ view m' s' = t /\ unch m m' (addrs s).

  (** the child [d] trimmed, then adopted *)
  Lemma trim_adopt m m1 a d x y s1 t : body m (nd a d x y) -> NoDup (addrs (nd a d x y)) -> trimmedTo m m1 x s1 t ->
    exists m2, (adopt d (Some a) (pt s1) ;! ret (Some a)) m1 = Ret (Some a) m2 /\
      trimmedTo m m2 (nd a d x y) (nd a d s1 y) (tsum (Key m a) (Value m a) d t (view m y)) /\ Parent m2 a = Parent m a.
  Proof.
    intros Hb Hn (B1 & I1 & N1 & V1 & U1). apply body_nd in Hb. destruct Hb as (Kx & Ky & Px & Py & Bx & By). apply nd_sub in Hn.
    pose proof Hn as Hn0. apply NoDup_cons_iff in Hn as (Ha & Hn). rewrite in_app_iff in Ha. apply nodup_app in Hn as (Nx & Ny & Nd).
    assert (Hy : forall z, In z (addrs y) -> ~ In z (addrs x)) by (intros z Hz X; exact (Nd z X Hz)).
    assert (Ua : Parent m1 a = Parent m a /\ (forall e, Children m1 a e = Children m a e) /\ Size m1 a = Size m a /\ Key m1 a = Key m a /\ Value m1 a = Value m a) by (apply U1; tauto).
    destruct Ua as (Ua1 & Ua2 & Ua3 & Ua4 & Ua5).
    pose proof (sub_nodup _ _ _ _ Hn0 I1 N1) as Hn1.
    destruct (adopt_ok m1 a d s1 y Hn1) as (m2 & R2 & B2 & V2 & U2 & P2).
    - rewrite Ua2. exact Ky.
    - eapply unch_hangs; eauto.
    - eapply unch_body; eauto.
    - exact B1.
    - exists m2. erewrite run_bind by exact R2. split; [reflexivity|]. split; [|congruence]. split; [exact B2|]. split; [|split; [|split]].
      + intros z Hz. apply in_nd in Hz. apply in_nd. intuition.
      + apply nd_nodup, Hn1.
      + rewrite V2, Ua4, Ua5, V1. rewrite (unch_view m m1 _ y U1 Hy). reflexivity.
      + eapply unch_trans; [eapply unch_incl; [|exact U1]|eapply unch_incl; [|exact U2]].
        * intros z Hz. apply in_nd. auto.
        * intros z [->|Hz]; apply in_nd; auto.
  Qed.

  Lemma trimmed_sub m m' a d x y s t : trimmedTo m m' y s t -> trimmedTo m m' (nd a d x y) s t.
  Proof.
    intros (H1 & H2 & H3 & H4 & H5). split; [exact H1|]. split; [|split; [exact H3|split; [exact H4|]]].
    - intros z Hz. apply in_nd. auto.
    - eapply unch_incl; [|exact H5]. intros z Hz. apply in_nd. auto.
  Qed.

  Section Trim.
    Context (cmp : K -> K -> Z).
    Lemma trim_ok d bound s : forall m n, body m s -> NoDup (addrs s) -> (hgt s < n)%nat ->
      exists m' s', trim cmp d bound n (pt s) m = Ret (pt s') m' /\ trimmedTo m m' s s' (tbelow d cmp bound (view m s)).
    Proof.
      assert (Hx : forall a d x y m n,
        (forall m n, body m x -> NoDup (addrs x) -> (hgt x < n)%nat ->
           exists m' s', trim cmp d bound n (pt x) m = Ret (pt s') m' /\ trimmedTo m m' x s' (tbelow d cmp bound (view m x))) ->
        (forall m n, body m y -> NoDup (addrs y) -> (hgt y < n)%nat ->
           exists m' s', trim cmp d bound n (pt y) m = Ret (pt s') m' /\ trimmedTo m m' y s' (tbelow d cmp bound (view m y))) ->
        body m (nd a d x y) -> NoDup (addrs (nd a d x y)) -> (hgt x < n)%nat -> (hgt y < n)%nat ->
        exists m' s', trim cmp d bound (S n) (Some a) m = Ret (pt s') m' /\ trimmedTo m m' (nd a d x y) s' (tbelow d cmp bound (view m (nd a d x y)))).
      { intros a e x y m n IHx IHy Hb Hn Hnx Hny. pose proof Hb as Hb0. apply body_nd in Hb. destruct Hb as (Kx & Ky & Px & Py & Bx & By).
        pose proof (nd_sub _ _ _ _ Hn) as Hn0. apply NoDup_cons_iff in Hn0 as (_ & Hn0). apply nodup_app in Hn0 as (Nx & Ny & _).
        cbn [trim isNil]. erewrite run_bind by apply rd_ok. cbv zeta. rewrite view_nd, tbelow_nd.
        destruct (if e then _ else _).
        - erewrite run_bind by (rewrite rdKid_ok, Kx; reflexivity). destruct (IHx m n Bx Nx Hnx) as (m1 & s1 & R1 & T1).
          erewrite run_bind by exact R1. destruct (trim_adopt _ _ _ _ _ _ _ _ Hb0 Hn T1) as (m2 & R2 & T2 & _).
          exists m2, (nd a e s1 y). rewrite pt_nd. split; [exact R2|exact T2].
        - erewrite run_bind by (rewrite rdKid_ok, Ky; reflexivity). destruct (IHy m n By Ny Hny) as (m1 & s1 & R1 & T1).
          exists m1, s1. split; [exact R1|]. apply trimmed_sub, T1. }
      induction s as [|a l IHl r IHr]; intros m n Hb Hn Hf; (destruct n as [|n]; [lia|]).
      - exists m, L. split; [reflexivity|]. split; [exact I|]. split; [intros z []|]. split; [constructor|]. split; [destruct d; reflexivity|apply unch_refl].
      - cbn [hgt] in Hf. destruct d.
        + apply (Hx a true r l m n IHr IHl Hb Hn); lia.
        + apply (Hx a false l r m n IHl IHr Hb Hn); lia.
    Qed.
  End Trim.

  Definition tbelowAt (d : bool) : Z -> Z -> bool -> tree -> tree := if d then IndexModel.ltrimAt else IndexModel.rtrimAt.
  Lemma tbelowAt_nd d bound idx dir z k v x y : tbelowAt d bound idx dir (tnd z k v d x y) =
    let w := if Bool.eqb dir d then y else x in
    let idx := if dir then idx + (IndexModel.getSize w + 1) else idx - (IndexModel.getSize w + 1) in
    if (if d then idx <? bound else idx >? bound) then tsum k v d (tbelowAt d bound idx d x) y
    else if (if d then idx >? bound else idx <? bound) then tbelowAt d bound idx (negb d) y else y.
  Proof.
    destruct d, dir; cbn [tbelowAt tnd IndexModel.ltrimAt IndexModel.rtrimAt Bool.eqb negb]; cbv zeta; rewrite tsum_sum; reflexivity.
  Qed.
  Lemma trimAt_ok d bound s : forall m n idx dir, body m s -> NoDup (addrs s) -> (hgt s < n)%nat ->
    exists m' s', trimAt d bound n idx dir (pt s) m = Ret (pt s') m' /\ trimmedTo m m' s s' (tbelowAt d bound idx dir (view m s)).
  Proof.
    assert (Hx : forall a d x y m n idx dir,
      (forall m n idx dir, body m x -> NoDup (addrs x) -> (hgt x < n)%nat ->
         exists m' s', trimAt d bound n idx dir (pt x) m = Ret (pt s') m' /\ trimmedTo m m' x s' (tbelowAt d bound idx dir (view m x))) ->
      (forall m n idx dir, body m y -> NoDup (addrs y) -> (hgt y < n)%nat ->
         exists m' s', trimAt d bound n idx dir (pt y) m = Ret (pt s') m' /\ trimmedTo m m' y s' (tbelowAt d bound idx dir (view m y))) ->
      body m (nd a d x y) -> NoDup (addrs (nd a d x y)) -> (hgt x < n)%nat -> (hgt y < n)%nat ->
      exists m' s', trimAt d bound (S n) idx dir (Some a) m = Ret (pt s') m' /\ trimmedTo m m' (nd a d x y) s' (tbelowAt d bound idx dir (view m (nd a d x y)))).
    { intros a e x y m n idx dir IHx IHy Hb Hn Hnx Hny. pose proof Hb as Hb0. apply body_nd in Hb. destruct Hb as (Kx & Ky & Px & Py & Bx & By).
      pose proof (nd_sub _ _ _ _ Hn) as Hn0. apply NoDup_cons_iff in Hn0 as (_ & Hn0). apply nodup_app in Hn0 as (Nx & Ny & _).
      cbn [trimAt isNil]. rewrite view_nd, tbelowAt_nd. cbv zeta.
      assert (Kw : Children m a (negb dir) = pt (if Bool.eqb dir e then y else x)) by (destruct dir, e; assumption).
      erewrite run_bind by (rewrite rdKid_ok, Kw; reflexivity). erewrite run_bind by apply getSize_ok. unfold gs.
      replace (view m (if Bool.eqb dir e then y else x)) with (if Bool.eqb dir e then view m y else view m x) by (destruct (Bool.eqb dir e); reflexivity).
      set (j := if dir then _ else _).
      destruct (if e then j <? bound else j >? bound).
      - erewrite run_bind by (rewrite rdKid_ok, Kx; reflexivity). destruct (IHx m n j e Bx Nx Hnx) as (m1 & s1 & R1 & T1).
        erewrite run_bind by exact R1. destruct (trim_adopt _ _ _ _ _ _ _ _ Hb0 Hn T1) as (m2 & R2 & T2 & _).
        exists m2, (nd a e s1 y). rewrite pt_nd. split; [exact R2|exact T2].
      - destruct (if e then j >? bound else j <? bound).
        + erewrite run_bind by (rewrite rdKid_ok, Ky; reflexivity). destruct (IHy m n j (negb e) By Ny Hny) as (m1 & s1 & R1 & T1).
          exists m1, s1. split; [exact R1|]. apply trimmed_sub, T1.
        + exists m, y. rewrite rdKid_ok, Ky. split; [reflexivity|]. apply trimmed_sub. split; [exact By|]. split; [apply incl_refl|]. split; [exact Ny|]. split; [reflexivity|apply unch_refl]. }
    induction s as [|a l IHl r IHr]; intros m n idx dir Hb Hn Hf; (destruct n as [|n]; [lia|]).
    - exists m, L. split; [reflexivity|]. split; [exact I|]. split; [intros z []|]. split; [constructor|]. split; [destruct d; reflexivity|apply unch_refl].
    - cbn [hgt] in Hf. destruct d.
      + apply (Hx a true r l m n idx dir IHr IHl Hb Hn); lia.
      + apply (Hx a false l r m n idx dir IHl IHr Hb Hn); lia.
  Qed.

  Lemma app_same {X} (l1 l2 l3 l4 : list X) : length l1 = length l3 -> l1 ++ l2 = l3 ++ l4 -> l1 = l3 /\ l2 = l4.
  Proof.
    revert l3. induction l1 as [|x l1 IH]; intros [|y l3] Hl H; try discriminate; [auto|]. cbn [app] in H. injection H as -> H.
    destruct (IH l3) as (-> & ->); [injection Hl; auto|exact H|auto].
  Qed.

  (** ** the ways up *)
  Fixpoint attachUp (n : Z) (C : list tframe) (t : tree) : option tree :=
    match C with
    | [] => Some t
    | (s, k, v, d, y) :: C => t1 <- IndexModel.fixRemoveRange (tnd (s + n) k v d t y) ;; attachUp n C t1
    end.
  Lemma attachUp_app n C1 C2 t : attachUp n (C1 ++ C2) t = (t1 <- attachUp n C1 t ;; attachUp n C2 t1).
  Proof.
    revert t. induction C1 as [|((((s, k), v), d), y) C1 IH]; intros t; [reflexivity|]. cbn [app attachUp].
    destruct (IndexModel.fixRemoveRange _); [apply IH|reflexivity].
  Qed.
  Lemma growUp_ok root n0 c c1 : forall m s n t', ok m root (c1 ++ c) s -> (length c1 < n)%nat -> attachUp n0 (cview m c1) (view m s) = Some t' ->
    exists m' s', growUp n0 (Some (top root c)) n (Some (top root (c1 ++ c))) m = Ret tt m' /\ ok m' root c s' /\ view m' s' = t' /\ same m m' c.
  Proof.
    induction c1 as [|((a, d), y) c1 IH]; intros m s n t' Hok Hn Ht; (destruct n as [|n]; [cbn in Hn; lia|]); cbn [growUp app].
    - rewrite eqp_refl. injection Ht as <-. exists m, s. split; [reflexivity|]. split; [exact Hok|]. split; [reflexivity|apply same_refl].
    - cbn [app] in Hok. pose proof (ok_notin_c _ _ _ _ _ _ _ Hok) as (_ & _ & Nc & Nr).
      assert (Ea : eqp (Some a) (Some (top root c)) = false).
      { apply eqp_ne. intros X. injection X as X. pose proof (top_in root c) as Ht0. rewrite <- X in Ht0.
        destruct Ht0 as [Ht0|Ht0]; [congruence|]. apply Nc. clear - Ht0. induction c1 as [|((b, e), z) c1 IH]; [exact Ht0|]. cbn [app caddrs]. right. apply in_or_app; auto. }
      cbn [top]. rewrite Ea. cbn [top]. pose proof (ok_parent _ _ _ _ _ _ _ Hok) as Hp. rewrite <- ok_down in Hok.
      erewrite run_bind by apply rd_ok. erewrite run_bind by reflexivity.
      destruct (put_data m _ root _ a d s y (setSize_only (Size m a + n0) a m) Hok) as (O1 & V1 & V2 & (N1 & C1)).
      set (m1 := setSize (Size m a + n0) a m) in *. erewrite run_bind by apply rd_ok. change (Parent m1 a) with (Parent m a). rewrite Hp.
      cbn [cview map fview attachUp] in Ht.
      destruct (IndexModel.fixRemoveRange _) as [t1|] eqn:Ef; [|discriminate].
      destruct (fixRemoveRange_ok m1 root (c1 ++ c) (nd a d s y) t1 O1) as (m2 & s2 & R2 & O2 & W2 & (N2 & C2)).
      { rewrite view_nd, V1, V2. unfold m1 at 1 2 3. mm. exact Ef. }
      rewrite pt_nd in R2. erewrite run_bind by exact R2.
      rewrite !cview_app in C1, C2. 
      assert (X1 : cview m2 c1 = cview m c1 /\ cview m2 c = cview m c).
      { rewrite C1 in C2. apply app_same in C2; [tauto|]. unfold cview. rewrite !map_length. reflexivity. }
      destruct X1 as (X1 & X2).
      destruct (IH m2 s2 n t' O2 ltac:(cbn in Hn; lia)) as (m3 & s3 & R3 & O3 & W3 & (N3 & C3)).
      { rewrite X1, W2. exact Ht. }
      exists m3, s3. split; [exact R3|]. split; [exact O3|]. split; [exact W3|]. split; congruence.
  Qed.

  Lemma sumUp_ok root c : forall m s n, ok m root c s -> (length c < n)%nat ->
    exists m', sumUp root n (Some (top root c)) m = Ret tt m' /\ ok m' root c s /\
      view m' (plug c s) = (fix up (C : list tframe) t := match C with [] => t | (_, k, v, d, y) :: C => up C (tsum k v d t y) end) (cview m c) (view m s) /\
      view m' s = view m s /\ Parent m' = Parent m /\ Children m' = Children m /\ next m' = next m /\ Key m' = Key m /\ Value m' = Value m /\
      (forall x, ~ In x (caddrs c) -> Size m' x = Size m x).
  Proof.
    induction c as [|((a, d), y) c IH]; intros m s n Hok Hn; (destruct n as [|n]; [cbn in Hn; lia|]); cbn [sumUp]; pose proof (ok_top _ _ _ _ Hok) as Et; rewrite Et.
    - exists m. repeat (split; [first [reflexivity|assumption]|]). auto.
    - cbn [top]. destruct (ok_kid _ _ _ _ _ _ _ Hok) as (K1 & K2). pose proof (ok_parent _ _ _ _ _ _ _ Hok) as Hp. rewrite <- ok_down in Hok.
      erewrite run_bind by (apply (sumSize_ok m a d s y); assumption).
      destruct (put_data m _ root c a d s y (setSize_only (gs m s + gs m y + 1) a m) Hok) as (O1 & V1 & V2 & (N1 & C1)).
      set (m1 := setSize (gs m s + gs m y + 1) a m) in *. erewrite run_bind by apply rd_ok. change (Parent m1 a) with (Parent m a). rewrite Hp.
      destruct (IH m1 (nd a d s y) n O1 ltac:(cbn in Hn; lia)) as (m2 & R2 & O2 & W2 & V3 & P2 & K3 & N2 & Ky2 & Va2 & S2).
      exists m2. split; [exact R2|]. split; [apply ok_down; exact O2|]. split; [|split; [|split; [exact P2|split; [exact K3|split; [congruence|split; [exact Ky2|split; [exact Va2|]]]]]]].
      + cbn [plug]. rewrite W2. cbn [cview map fview]. fold (cview m c). rewrite C1. f_equal. rewrite view_nd, V1, V2. unfold m1, tsum. mm. reflexivity.
      + rewrite !view_nd in V3. rewrite <- V1. destruct d; cbn [tnd] in V3; injection V3 as ? ? ? ? ?; auto.
      + intros x Hx. cbn [caddrs] in Hx. cbn [In] in Hx. rewrite in_app_iff in Hx. rewrite S2 by tauto. unfold m1. mm. rewrite upd_ne by (intros ->; tauto). reflexivity.
  Qed.

  Definition less (z : Z) (f : tframe) : tframe := let '(s, k, v, d, y) := f in (s - z, k, v, d, y).
  Lemma shrinkUp_ok root z c : forall m s n, ok m root c s -> (length c < n)%nat ->
    exists m', shrinkUp root z n (Some (top root c)) m = Ret tt m' /\ ok m' root c s /\ view m' s = view m s /\
      cview m' c = map (less z) (cview m c) /\ next m' = next m.
  Proof.
    induction c as [|((a, d), y) c IH]; intros m s n Hok Hn; (destruct n as [|n]; [cbn in Hn; lia|]); cbn [shrinkUp]; rewrite (ok_top _ _ _ _ Hok).
    - exists m. repeat (split; [first [reflexivity|assumption]|]). reflexivity.
    - cbn [top]. erewrite run_bind by apply rd_ok. erewrite run_bind by reflexivity.
      pose proof (ok_parent _ _ _ _ _ _ _ Hok) as Hp. rewrite <- ok_down in Hok.
      destruct (put_data m _ root c a d s y (setSize_only (Size m a - z) a m) Hok) as (O1 & V1 & V2 & (N1 & C1)).
      set (m1 := setSize (Size m a - z) a m) in *. erewrite run_bind by apply rd_ok. change (Parent m1 a) with (Parent m a). rewrite Hp.
      destruct (IH m1 (nd a d s y) n O1 ltac:(cbn in Hn; lia)) as (m2 & R2 & O2 & W2 & C2 & N2).
      exists m2. split; [exact R2|]. split; [apply ok_down; exact O2|].
      rewrite !view_nd in W2. rewrite C1 in C2.
      assert (X : view m2 s = view m1 s /\ view m2 y = view m1 y /\ Size m2 a = Size m1 a /\ Key m2 a = Key m1 a /\ Value m2 a = Value m1 a).
      { destruct d; cbn [tnd] in W2; injection W2 as ? ? ? ? ?; auto. }
      destruct X as (X1 & X2 & X3 & X4 & X5).
      split; [congruence|]. split; [|congruence].
      cbn [cview map fview less]. fold (cview m2 c). rewrite C2, X2, X3, X4, X5, V2. unfold m1. mm. reflexivity.
  Qed.

  (** on trees: what the way up from a cut does *)
  Fixpoint upCut (x : cut) (C : list tframe) (t : tree) : tree :=
    match C with
    | [] => t
    | (s, k, v, d, y) :: C => upCut x C (upFromCut x s k v (if d then y else t) (if d then t else y))
    end.
  Lemma upCut_app x C1 C2 t : upCut x (C1 ++ C2) t = upCut x C2 (upCut x C1 t).
  Proof. revert t. induction C1 as [|((((s, k), v), d), y) C1 IH]; intros t; [reflexivity|apply IH]. Qed.
  Lemma upCut_Gone z C t : upCut (Gone z) C t = tplug (map (less z) C) t.
  Proof. revert t. induction C as [|((((s, k), v), d), y) C IH]; intros t; [reflexivity|]. cbn [upCut map less tplug tfill]. rewrite IH. destruct d; reflexivity. Qed.
  Lemma upCut_Nothing C t : upCut Nothing C t = tplug C t.
  Proof. revert t. induction C as [|((((s, k), v), d), y) C IH]; intros t; [reflexivity|]. cbn [upCut tplug tfill]. rewrite IH. destruct d; reflexivity. Qed.
  Lemma upCut_Merged C t : upCut Merged C t =
    (fix up (C : list tframe) t := match C with [] => t | (_, k, v, d, y) :: C => up C (tsum k v d t y) end) C t.
  Proof. revert t. induction C as [|((((s, k), v), d), y) C IH]; intros t; [reflexivity|]. cbn [upCut upFromCut]. rewrite IH, <- tsum_sum. reflexivity. Qed.

  (** ** joining *)
  (** [lastNode_ok] for attach *)
  Lemma attach_last m d sub n s : forall c b w, s = plug c (nd b d L w) -> Forall (fun f => snd (fst f) = d) c ->
    attach d sub n (view m s) = attachUp n (cview m ((b, d, w) :: c)) sub.
  Proof.
    intros c b w -> Hd. cbn [cview map fview attachUp]. fold (cview m c). rewrite view_plug, view_nd. cbn [view].
    assert (X : attach d sub n (tnd (Size m b) (Key m b) (Value m b) d E (view m w)) = IndexModel.fixRemoveRange (tnd (Size m b + n) (Key m b) (Value m b) d sub (view m w))).
    { destruct d; reflexivity. }
    rewrite <- X. assert (Y : tnd (Size m b) (Key m b) (Value m b) d E (view m w) <> E) by (destruct d; discriminate).
    generalize dependent (tnd (Size m b) (Key m b) (Value m b) d E (view m w)). intros t X Y. clear X.
    revert t Y. induction Hd as [|((a, e), y) c He Hd IH]; intros t Y; cbn [cview map fview tplug attachUp].
    - destruct (attach d sub n t); reflexivity.
    - cbn [fst snd] in He. subst e. fold (cview m c). rewrite IH by (destruct d; discriminate). cbn [tfill].
      destruct t as [|z k v tl tr]; [congruence|].
      set (u := N z k v tl tr).
      assert (X : attach d sub n (tnd (Size m a) (Key m a) (Value m a) d u (view m y)) =
        (t <- attach d sub n u ;; IndexModel.fixRemoveRange (tnd (Size m a + n) (Key m a) (Value m a) d t (view m y)))).
      { destruct d; reflexivity. }
      rewrite X. destruct (attach d sub n u); reflexivity.
  Qed.

  Lemma getRelationship_ok' m root c a : cok m root c (Some a) -> Parent m a = Some (top root c) ->
    Children m (top root c) (negb (cdir c)) <> Some a -> getRelationship (Some a) m = Ret (cdir c) m.
  Proof.
    intros Hc Hp H2. unfold getRelationship.
    erewrite run_bind by (rewrite rd_ok, Hp; reflexivity). erewrite run_bind by apply rdKid_ok. unfold ret.
    pose proof (cok_dir _ _ _ _ Hc) as H1.
    destruct (cdir c); cbn [negb] in H2.
    - rewrite H1, eqp_refl. reflexivity.
    - rewrite (eqp_ne _ _ H2). reflexivity.
  Qed.

  (** a graft at the place [c] of a subtree *)
  Lemma graft_ok c : forall m b d h w, body m (plug c (nd b d L w)) -> body m h -> NoDup (addrs (plug c (nd b d L w)) ++ addrs h) ->
    body (hook b h (setKid d (pt h) b m)) (plug c (nd b d h w)).
  Proof.
    intros m b d h w Hb Hh Hn.
    assert (Hn1 : NoDup ((caddrs c ++ b :: addrs w) ++ addrs h)).
    { eapply Permutation_NoDup; [|exact Hn]. apply Permutation_app_tail. etransitivity; [apply addrs_plug|]. apply Permutation_app_head. apply (addrs_nd b d L w). }
    set (m' := hook b h (setKid d (pt h) b m)).
    apply nodup_app in Hn1 as (Nc & Nh & Nd). apply nodup_app in Nc as (Nc & Nw & Ncw). apply NoDup_cons_iff in Nw as (Nb & Nw).
    assert (Hpl : forall c s, body m (plug c s) -> body m s /\ forall s', body m' s' -> (forall x, In x (caddrs c) -> ~ In x (b :: addrs h)) ->
              (forall p, hangs m p s -> hangs m' p s') -> pt s' = pt s -> body m' (plug c s')).
    { clear. intros c. induction c as [|((a, e), y) c IH]; intros s Hb.
      - split; [exact Hb|]. intros s' Hs' _ _ _. exact Hs'.
      - cbn [plug] in Hb. destruct (IH _ Hb) as (H1 & H2). apply body_nd in H1. destruct H1 as (K1 & K2 & P1 & P2 & B1 & B2). split; [exact B1|].
        intros s' Hs' Hd Hpp Hpt. cbn [plug caddrs] in *.
        assert (Hy : links m m' (addrs y)).
        { intros x Hx. assert (X : ~ In x (b :: addrs h)) by (apply Hd; right; apply in_or_app; auto). cbn [In] in X. split.
          - unfold m'. rewrite Parent_hook; [reflexivity|]. intros Z. apply pt_in in Z. tauto.
          - intros f. unfold m'. mm. rewrite upd_ne by (intros ->; tauto). reflexivity. }
        assert (Xa : ~ In a (b :: addrs h)) by (apply Hd; left; reflexivity). cbn [In] in Xa.
        apply H2.
        + apply body_nd. assert (Ka : forall f, Children m' a f = Children m a f) by (intros f; unfold m'; mm; rewrite upd_ne by (intros ->; tauto); reflexivity).
          rewrite !Ka, Hpt. split; [exact K1|]. split; [exact K2|]. split; [apply Hpp, P1|]. split; [eapply hangs_keep; eauto|]. split; [exact Hs'|eapply body_keep; eauto].
        + intros x Hx. apply Hd. right. apply in_or_app; auto.
        + intros p. rewrite !hangs_nd. unfold m'. rewrite Parent_hook; [auto|]. intros Z. apply pt_in in Z. tauto.
        + rewrite !pt_nd. reflexivity. }
    destruct (Hpl c _ Hb) as (H1 & H2). apply body_nd in H1. destruct H1 as (K1 & K2 & P1 & P2 & B1 & B2).
    apply H2.
    - apply (link_ok m b d h w); auto. apply NoDup_cons_iff. split.
      + rewrite in_app_iff. intros [X|X]; [|contradiction]. apply (Nd b); [apply in_or_app; right; left; reflexivity|exact X].
      + apply nodup_app. split; [exact Nh|]. split; [exact Nw|]. intros x Hx Hw. apply (Nd x); [apply in_or_app; right; right; exact Hw|exact Hx].
    - intros x Hx [<-|Hx']; [apply (Ncw _ Hx); left; reflexivity|]. apply (Nd x); [apply in_or_app; auto|exact Hx'].
    - intros p. rewrite !hangs_nd. unfold m'. rewrite Parent_hook; [auto|]. intros Z. apply pt_in in Z. apply (Nd b); [apply in_or_app; right; left; reflexivity|exact Z].
    - rewrite !pt_nd. reflexivity.
  Qed.

  (** the place of the node [a], whatever has become of what was below it *)
  Record spot m (root : nat) (c : list frame) (a : nat) (l : list nat) : Prop := {
    sp_c : cok m root c (Some a);
    sp_p : Parent m a = Some (top root c);
    sp_o : Children m (top root c) (negb (cdir c)) <> Some a;
    sp_n : NoDup ((root :: caddrs c) ++ a :: l);
    sp_l : forall x, In x ((root :: caddrs c) ++ a :: l) -> (x < next m)%nat }.

  Lemma mergeGroups_ok m root c a g h z d t : spot m root c a (addrs g ++ addrs h) -> body m g -> body m h -> g <> L ->
    (match h with L => Some (view m g) | _ => attach d (view m h) z (view m g) end) = Some t ->
    exists m', mergeGroups root (Some a) (pt g) (pt h) z d m = Ret tt m' /\ rep m' root (upCut Merged (cview m c) t).
  Proof.
    intros [Hc Hp Ho Hn Hl] Bg Bh Hg Ht.
    pose proof Hn as Hn0. apply nodup_app in Hn as (Nc & Na & Nd). apply NoDup_cons_iff in Na as (Na & Ngh). rewrite in_app_iff in Na.
    pose proof Ngh as Ngh0. apply nodup_app in Ngh as (Ng & Nh & Ngd).
    unfold mergeGroups. erewrite run_bind by (rewrite rd_ok, Hp; reflexivity).
    assert (Hf : (hgt g <= S (next m))%nat).
    { pose proof (hgt_addrs g). assert (length (addrs g) <= next m)%nat; [|lia]. apply nodup_bound; [exact Ng|]. intros x Hx. apply Hl.
      apply in_or_app. right. right. apply in_or_app. auto. }
    destruct (lastNode_ok m d g (S (next m)) Bg Hg Hf) as (c1 & b & w & Eg & Rl & _ & Fd).
    erewrite run_bind by exact Rl. erewrite run_bind by reflexivity.
    set (m1 := hook b h (setKid d (pt h) b m)).
    erewrite (run_bind _ _ _ tt m1) by (unfold m1; destruct h; reflexivity).
    set (g' := plug c1 (nd b d h w)).
    assert (Eg' : pt g' = pt g).
    { rewrite Eg. unfold g'. assert (X : forall c s s', pt s = pt s' -> pt (plug c s) = pt (plug c s')).
      { clear. induction c as [|((a, d), y) c IH]; intros s s' H; [exact H|]. cbn [plug]. apply IH. rewrite !pt_nd. reflexivity. }
      apply X. rewrite !pt_nd. reflexivity. }
    assert (Bg' : body m1 g') by (apply graft_ok; [rewrite <- Eg; exact Bg|exact Bh|rewrite <- Eg; exact Ngh0]).
    assert (Pm : Permutation (addrs g') (addrs g ++ addrs h)).
    { unfold g'. rewrite Eg. etransitivity; [apply addrs_plug|]. etransitivity; [apply Permutation_app_head, addrs_nd|]. symmetry.
      etransitivity; [apply Permutation_app_tail, addrs_plug|]. rewrite <- app_assoc. apply Permutation_app_head.
      etransitivity; [apply Permutation_app_tail, addrs_nd|]. cbn [addrs app]. apply perm_skip. apply Permutation_app_comm. }
    assert (Hbg : In b (addrs g)) by (rewrite Eg; eapply Permutation_in; [symmetry; apply addrs_plug|]; apply in_or_app; right; apply in_nd; auto).
    assert (U1 : unch m m1 (addrs g ++ addrs h)).
    { split; [unfold m1; mm; reflexivity|]. intros x Hx. rewrite in_app_iff in Hx. split; [|split].
      - unfold m1. rewrite Parent_hook; [reflexivity|]. intros X. apply pt_in in X. tauto.
      - intros e. unfold m1. mm. rewrite upd_ne by (intros ->; tauto). reflexivity.
      - unfold m1. mm. auto. }
    assert (Nd' : forall x, In x (root :: caddrs c) -> ~ In x (addrs g ++ addrs h)) by (intros x Hx X; apply (Nd x Hx); right; exact X).
    assert (Cc1 : cok m1 root c (Some a)) by (eapply unch_cok; eauto).
    destruct (proj2 U1 a) as (Pa1 & _); [rewrite in_app_iff; tauto|].
    erewrite run_bind; [|apply (getRelationship_ok' m1 root c a Cc1); [congruence|]].
    2:{ destruct (proj2 U1 (top root c)) as (_ & Kt & _); [apply Nd', top_in|]. rewrite Kt. exact Ho. }
    erewrite run_bind by reflexivity.
    set (m2 := put_at root c g' m1).
    erewrite (run_bind _ _ _ tt m2); [|unfold m2, put_at; rewrite <- Eg'; destruct g'; reflexivity].
    assert (O2 : ok m2 root c g').
    { apply (place_ok m1 root c (Some a)); [exact Cc1| | |exact Bg'].
      - apply (nodup_app (root :: caddrs c)). split; [exact Nc|]. split; [eapply Permutation_NoDup; [symmetry; exact Pm|exact Ngh0]|].
        intros x Hx X. apply (Nd' x Hx). eapply Permutation_in; [exact Pm|exact X].
      - intros x Hx. rewrite (proj1 U1). apply (in_app_or (root :: caddrs c)) in Hx. apply Hl. apply in_or_app. destruct Hx as [Hx|Hx]; [auto|right; right].
        eapply Permutation_in; [exact Pm|exact Hx]. }
    destruct (put_at_data root c g' m1) as (D1 & D2 & D3 & D4). fold m2 in D1, D2, D3, D4.
    assert (Dm : Size m2 = Size m /\ Key m2 = Key m /\ Value m2 = Value m /\ next m2 = next m).
    { rewrite D1, D2, D3, D4. unfold m1. mm. auto. }
    destruct Dm as (D5 & D6 & D7 & D8).
    assert (Vm : forall s, view m2 s = view m s) by (intros s; apply view_keep, data_all; assumption).
    assert (Cm : forall c, cview m2 c = cview m c) by (intros s; apply cview_keep, data_all; assumption).
    (* the sizes inside the group *)
    assert (Grow : exists m3 s3, (if negb (isNil (pt h)) then let! parent := rd Parent (pt h) in fueled (fun n => growUp z (Some (top root c)) n parent) else ret tt) m2 = Ret tt m3 /\
        ok m3 root c s3 /\ view m3 s3 = t /\ same m2 m3 c).
    { destruct h as [|hb hl hr].
      - injection Ht as <-. exists m2, g'. split; [reflexivity|]. split; [exact O2|]. split; [|apply same_refl].
        rewrite Vm. unfold g'. rewrite Eg. reflexivity.
      - cbn [pt isNil negb].
        assert (O2' : ok m2 root (((b, d, w) :: c1) ++ c) (B hb hl hr)) by (cbn [app]; apply ok_down, ok_at_app; exact O2).
        pose proof (ok_h _ _ _ _ O2') as Hh2. cbn [hangs top app] in Hh2.
        erewrite run_bind by (rewrite rd_ok, Hh2; reflexivity). unfold fueled.
        apply (growUp_ok root z c ((b, d, w) :: c1) m2 (B hb hl hr)); [exact O2'| |].
        + pose proof (ok_fuel _ _ _ _ O2') as X. cbn [app length] in *. rewrite app_length in X. unfold frame in *. lia.
        + rewrite Cm, Vm. rewrite <- (attach_last m d (view m (B hb hl hr)) z g c1 b w Eg Fd). exact Ht. }
    destruct Grow as (m3 & s3 & R3 & O3 & V3 & (N3 & C3)).
    erewrite run_bind by exact R3. unfold fueled.
    destruct (sumUp_ok root c m3 s3 (S (next m3)) O3) as (m4 & R4 & O4 & W4 & _); [pose proof (ok_fuel _ _ _ _ O3); lia|].
    exists m4. split; [exact R4|]. exists (plug c s3). split; [apply (proj1 (ok_plug _ _ _ _)); exact O4|].
    rewrite W4, upCut_Merged, C3, Cm, V3. reflexivity.
  Qed.

  Lemma closeCut_ok m root c a sl sr t x : spot m root c a (addrs sl ++ addrs sr) -> body m sl -> body m sr ->
    IndexModel.closeCut (Size m a) (view m sl) (view m sr) = Some (t, x) ->
    exists m', closeCut root (Some a) (pt sl) (pt sr) m = Ret tt m' /\ rep m' root (upCut x (cview m c) t).
  Proof.
    intros Hs Bl Br Ht. unfold closeCut.
    assert (Hgen : (t <- IndexModel.join (view m sl) (view m sr) ;; Some (t, Merged)) = Some (t, x) -> ~ (sl = L /\ sr = L) ->
      exists m', (let! rsize := getSize (pt sr) in let! lsize := getSize (pt sl) in
        if lsize >? rsize then mergeGroups root (Some a) (pt sl) (pt sr) rsize true else mergeGroups root (Some a) (pt sr) (pt sl) lsize false) m = Ret tt m' /\
        rep m' root (upCut x (cview m c) t)).
    { intros H Hne. destruct (IndexModel.join (view m sl) (view m sr)) as [t1|] eqn:Ej; [|discriminate]. injection H as <- <-.
      erewrite run_bind by apply getSize_ok. erewrite run_bind by apply getSize_ok. unfold IndexModel.join in Ej. fold (gs m sl) (gs m sr) in Ej.
      destruct (gs m sl >? gs m sr).
      - apply mergeGroups_ok; auto.
        + intros ->. cbn [view] in Ej. destruct sr; [tauto|discriminate].
        + destruct sr; exact Ej.
      - apply mergeGroups_ok; auto.
        + destruct Hs as [S1 S2 S3 S4 S5]. assert (P : Permutation ((root :: caddrs c) ++ a :: addrs sl ++ addrs sr) ((root :: caddrs c) ++ a :: addrs sr ++ addrs sl)).
          { apply Permutation_app_head, perm_skip, Permutation_app_comm. }
          constructor; auto; [eapply Permutation_NoDup; eauto|]. intros y Hy. apply S5. eapply Permutation_in; [symmetry; exact P|exact Hy].
        + intros ->. cbn [view] in Ej. destruct sl; [tauto|discriminate].
        + destruct sl; [destruct sr; [tauto|exact Ej]|exact Ej]. }
    destruct sl as [|b bl br]; [destruct sr as [|e el er]|].
    - cbn [pt isNil andb]. clear Hgen. cbn [view IndexModel.closeCut] in Ht. injection Ht as <- <-. destruct Hs as [Hc Hp Ho Hn Hl].
      erewrite run_bind by (rewrite rd_ok, Hp; reflexivity). erewrite run_bind by apply rd_ok.
      erewrite run_bind by (apply (getRelationship_ok' m root c a); assumption). erewrite run_bind by reflexivity.
      assert (O1 : ok (put_at root c L m) root c L).
      { apply (place_ok m root c (Some a)); [exact Hc| | |exact I]; cbn [addrs]; rewrite app_nil_r.
        - apply nodup_app in Hn. tauto.
        - intros y Hy. apply Hl. apply in_or_app. auto. }
      unfold put_at in O1. cbn [hook pt] in O1. set (m1 := setKid (cdir c) None (top root c) m) in *. unfold fueled.
      destruct (shrinkUp_ok root (Size m a) c m1 L (S (next m1)) O1) as (m2 & R2 & O2 & W2 & C2 & N2); [pose proof (ok_fuel _ _ _ _ O1); lia|].
      exists m2. split; [exact R2|]. exists (plug c L). split; [apply (proj1 (ok_plug _ _ _ _)); exact O2|].
      rewrite view_plug, W2, C2, upCut_Gone. rewrite (cview_keep m m1) by (apply data_all; reflexivity). reflexivity.
    - cbn [pt isNil andb]. apply Hgen; [exact Ht|]. intros (_ & X). discriminate.
    - cbn [pt isNil andb]. apply Hgen; [exact Ht|]. intros (X & _). discriminate.
  Qed.

  (** both subtrees of a node trimmed *)
  Lemma trimmed_spot m m1 m2 root c a l r sl sr tl tr : ok m root c (B a l r) -> trimmedTo m m1 l sl tl -> trimmedTo m1 m2 r sr tr ->
    spot m2 root c a (addrs sl ++ addrs sr) /\ body m2 sl /\ body m2 sr /\ view m2 sl = tl /\ view m2 sr = tr /\ Size m2 a = Size m a /\
    cview m2 c = cview m c /\ (forall s, (forall z, In z (addrs s) -> In z (addrs r)) -> view m1 s = view m s /\ (body m s -> body m1 s)) /\ (forall e, Children m1 a e = Children m a e).
  Proof.
    intros Hok (B1 & I1 & N1 & V1 & U1) (B2 & I2 & N2 & V2 & U2).
    destruct (ok_notin m root c a false l r Hok) as (Na1 & Na2 & Nac & Nar).
    pose proof (ok_n _ _ _ _ Hok) as Hn. change (root :: caddrs c ++ addrs (B a l r)) with ((root :: caddrs c) ++ a :: addrs l ++ addrs r) in Hn.
    pose proof Hn as Hn0. apply nodup_app in Hn as (Nc & Na & Nd). apply NoDup_cons_iff in Na as (Na & Nlr). apply nodup_app in Nlr as (Nl & Nr & Ndlr).
    assert (Hl1 : forall x, In x (addrs sl) -> ~ In x (addrs r)) by (intros x Hx; apply Ndlr, I1, Hx).
    assert (Hr1 : forall x, In x (addrs r) -> ~ In x (addrs l)) by (intros x Hx X; exact (Ndlr x X Hx)).
    assert (Hc1 : forall x, In x (root :: caddrs c) -> ~ In x (addrs l)) by (intros x Hx X; apply (Nd x Hx); right; apply in_or_app; auto).
    assert (Hc2 : forall x, In x (root :: caddrs c) -> ~ In x (addrs r)) by (intros x Hx X; apply (Nd x Hx); right; apply in_or_app; auto).
    destruct (proj2 U1 a Na1) as (P1 & K1 & S1 & _). destruct (proj2 U2 a Na2) as (P2 & K2 & S2 & _).
    split; [|split; [|split; [|split; [|split; [|split; [|split; [|split]]]]]]].
    - constructor.
      + eapply unch_cok; [exact U2|exact Hc2|]. eapply unch_cok; [exact U1|exact Hc1|]. exact (ok_c _ _ _ _ Hok).
      + rewrite P2, P1. exact (ok_h _ _ _ _ Hok).
      + destruct (proj2 U1 (top root c) (Hc1 _ (top_in _ _))) as (_ & Kt1 & _). destruct (proj2 U2 (top root c) (Hc2 _ (top_in _ _))) as (_ & Kt2 & _).
        rewrite Kt2, Kt1. exact (cok_other _ _ _ _ _ _ Hok).
      + apply nodup_app. split; [exact Nc|]. split.
        * apply NoDup_cons_iff. split; [rewrite in_app_iff; intros [X|X]; [apply I1 in X|apply I2 in X]; tauto|]. apply nodup_app. split; [exact N1|]. split; [exact N2|].
          intros x Hx X. apply (Hl1 x Hx), I2, X.
        * intros x Hx [X|X]; [apply (Nd x Hx); left; exact X|]. apply (Nd x Hx). right. apply in_app_or in X. apply in_or_app. destruct X as [X|X]; [left; apply I1, X|right; apply I2, X].
      + intros x Hx. rewrite (proj1 U2), (proj1 U1). apply (ok_l _ _ _ _ Hok).
        change (root :: caddrs c ++ addrs (B a l r)) with ((root :: caddrs c) ++ a :: addrs l ++ addrs r).
        apply in_app_or in Hx. apply in_or_app. destruct Hx as [Hx|[Hx|Hx]]; [auto|right; left; exact Hx|right; right].
        apply in_app_or in Hx. apply in_or_app. destruct Hx as [X|X]; [left; apply I1, X|right; apply I2, X].
    - eapply unch_body; eauto.
    - exact B2.
    - rewrite (unch_view m1 m2 _ sl U2 Hl1). exact V1.
    - exact V2.
    - congruence.
    - rewrite (unch_cview m1 m2 _ c U2) by (intros x Hx; apply Hc2; right; exact Hx). apply (unch_cview m m1 _ c U1). intros x Hx. apply Hc1. right; exact Hx.
    - intros s Hs. split; [apply (unch_view m m1 _ s U1); auto|]. apply (unch_body m m1 _ s U1). auto.
    - exact K1.
  Qed.
End Local.
