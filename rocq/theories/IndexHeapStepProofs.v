(** tree/indextree in memory: Split and SplitContain, the two trees. *)
From Coq Require Import Permutation.
From Verif Require Import Base Bind Machine OrderSpec SMapSpec AvlTree AvlModel AvlSpec IndexSpec IndexModel.
From Verif Require Import IndexHeapModel IndexHeapProofs IndexHeapPutProofs IndexHeapReadProofs IndexHeapRemoveProofs IndexHeapCutProofs IndexHeapRangeProofs IndexHeapTrimProofs IndexHeapSplitProofs.
From Verif Require IndexProofs.
Local Open Scope Z_scope.

Section Split.
  Context {K A : Type} (cmp : K -> K -> Z) (zero : K).
  Notation V := (option A).
  Notation mem := (mem K (option A)).
  Notation tree := (tree K V).
  Notation tframe := (tframe (K := K) (V := option A)).
  Implicit Types m : mem.

  (** ** new nodes and other trees *)
  Definition allocM (a : nat) m : mem :=
    Mem (upd (Parent m) a None) (upd (Children m) a (fun _ => None)) (upd (Size m) a 0) (upd (Balance m) a 0) (upd (Key m) a zero) (upd (Value m) a None) (S a).
  Lemma newTree_run m : newTree zero m = Ret (next m) (allocM (next m) m).
  Proof. reflexivity. Qed.
  Lemma alloc_fields m x : (x < next m)%nat -> let m' := allocM (next m) m in
    Parent m' x = Parent m x /\ (forall d, Children m' x d = Children m x d) /\ Size m' x = Size m x /\ Key m' x = Key m x /\ Value m' x = Value m x.
  Proof. intros Hx m'. unfold m', allocM. cbn [Parent Children Size Key Value]. rewrite !upd_ne by lia. auto. Qed.
  Lemma alloc_keep m root c s : ok m root c s -> let m' := allocM (next m) m in ok m' root c s /\ cview m' c = cview m c /\ view m' s = view m s.
  Proof.
    intros [Hc Hh Hb Hn Hl] m'. change (root :: caddrs c ++ addrs s) with ((root :: caddrs c) ++ addrs s) in *.
    assert (F : forall x, In x ((root :: caddrs c) ++ addrs s) -> Parent m' x = Parent m x /\ (forall d, Children m' x d = Children m x d) /\ Size m' x = Size m x /\ Key m' x = Key m x /\ Value m' x = Value m x).
    { intros x Hx. apply alloc_fields, Hl, Hx. }
    assert (Ls : links m m' (addrs s)) by (intros x Hx; destruct (F x ltac:(apply in_or_app; auto)) as (H1 & H2 & _); auto).
    split; [constructor|split].
    - eapply cok_keep; [| |exact Hc]; intros x; [intros Hx|intros e Hx]; destruct (F x ltac:(apply in_or_app; left; first [exact Hx|right; exact Hx])) as (H1 & H2 & _); auto.
    - eapply hangs_keep; eauto.
    - eapply body_keep; eauto.
    - exact Hn.
    - intros x Hx. apply Hl in Hx. unfold m', allocM. cbn [next]. lia.
    - apply cview_keep. intros x Hx. destruct (F x ltac:(apply in_or_app; left; right; exact Hx)) as (_ & _ & H). exact H.
    - apply view_keep. intros x Hx. destruct (F x ltac:(apply in_or_app; auto)) as (_ & _ & H). exact H.
  Qed.

  Lemma unch_ok m m' l root c s : unch m m' l -> (forall x, In x (root :: caddrs c ++ addrs s) -> ~ In x l) -> ok m root c s ->
    ok m' root c s /\ cview m' c = cview m c /\ view m' s = view m s.
  Proof.
    intros U Hd [Hc Hh Hb Hn Hl].
    assert (D1 : forall x, In x (root :: caddrs c) -> ~ In x l) by (intros x Hx; apply Hd, (in_or_app (root :: caddrs c)); auto).
    assert (D2 : forall x, In x (addrs s) -> ~ In x l) by (intros x Hx; apply Hd, (in_or_app (root :: caddrs c)); auto).
    split; [constructor|split].
    - eapply unch_cok; eauto.
    - eapply unch_hangs; eauto.
    - eapply unch_body; eauto.
    - exact Hn.
    - rewrite (proj1 U). exact Hl.
    - eapply unch_cview; [exact U|]. intros x Hx. apply D1. right; exact Hx.
    - eapply unch_view; eauto.
  Qed.

  (** the sizes of two trees recomputed *)
  Lemma sum_two {X} m ra ca sa rb cb sb (x : X) : ok m ra ca sa -> ok m rb cb sb ->
    NoDup ((ra :: caddrs ca ++ addrs sa) ++ (rb :: caddrs cb ++ addrs sb)) ->
    exists m', (fueled (fun n => sumUp ra n (Some (top ra ca))) ;! fueled (fun n => sumUp rb n (Some (top rb cb))) ;! ret x) m = Ret x m' /\
      rep m' ra (upCut Merged (cview m ca) (view m sa)) /\ rep m' rb (upCut Merged (cview m cb) (view m sb)).
  Proof.
    intros Oa Ob Hn. unfold fueled.
    destruct (sumUp_ok ra ca m sa (S (next m)) Oa ltac:(pose proof (ok_fuel _ _ _ _ Oa); lia)) as (m1 & R1 & Oa1 & W1 & _ & P1 & K1 & N1 & Y1 & Z1 & S1).
    assert (U1 : unch m m1 (caddrs ca)).
    { split; [exact N1|]. intros y Hy. rewrite P1, K1, Y1, Z1, (S1 y Hy). auto. }
    destruct (unch_ok m m1 _ rb cb sb U1) as (Ob1 & Cb1 & Vb1); [disj Hn|exact Ob|].
    erewrite run_bind by exact R1.
    destruct (sumUp_ok rb cb m1 sb (S (next m1)) Ob1 ltac:(pose proof (ok_fuel _ _ _ _ Ob1); lia)) as (m2 & R2 & Ob2 & W2 & _ & P2 & K2 & N2 & Y2 & Z2 & S2).
    assert (U2 : unch m1 m2 (caddrs cb)).
    { split; [exact N2|]. intros y Hy. rewrite P2, K2, Y2, Z2, (S2 y Hy). auto. }
    erewrite run_bind by exact R2. exists m2. split; [reflexivity|].
    pose proof (proj1 (ok_plug _ _ _ _) Oa1) as Oa1'.
    destruct (unch_ok m1 m2 _ ra [] (plug ca sa) U2) as (Oa2 & _ & Va2).
    { intros y Hy. assert (Hy' : In y (ra :: caddrs ca ++ addrs sa)).
      { cbn [caddrs app] in Hy. destruct Hy as [Hy|Hy]; [left; exact Hy|right]. eapply Permutation_in; [apply addrs_plug|exact Hy]. }
      clear Hy. revert y Hy'. disj Hn. }
    { exact Oa1'. }
    split; [exists (plug ca sa)|exists (plug cb sb)].
    - split; [exact Oa2|]. rewrite Va2, W1, upCut_Merged. reflexivity.
    - split; [apply (proj1 (ok_plug _ _ _ _)); exact Ob2|]. rewrite W2, Cb1, Vb1, upCut_Merged. reflexivity.
  Qed.

  (** ** from the two roots on *)
  Definition pick {X} (d : bool) (p : X * X) : X := if d then fst p else snd p.
  Lemma splitBelow_gen d contain k s m n p w o z : body m s -> side m p d w -> side m o (negb d) z ->
    NoDup (p :: o :: addrs w ++ addrs z ++ addrs s) -> (hgt s < n)%nat ->
    exists m' a b, splitBelow cmp contain k n (pt s) (Some (if d then p else o)) (Some (if d then o else p)) m = Ret tt m' /\
      body m' (nd p d a w) /\ view m' (nd p d a w) = tsum (Key m p) (Value m p) d (pick d (IndexModel.splitBelow cmp contain k (view m s))) (view m w) /\
      body m' (nd o (negb d) b z) /\ view m' (nd o (negb d) b z) = tsum (Key m o) (Value m o) (negb d) (pick (negb d) (IndexModel.splitBelow cmp contain k (view m s))) (view m z) /\
      (forall x, count_occ Nat.eq_dec (addrs a) x + count_occ Nat.eq_dec (addrs b) x = count_occ Nat.eq_dec (addrs s) x)%nat /\
      unch m m' (p :: o :: addrs s) /\ Parent m' p = Parent m p /\ Parent m' o = Parent m o.
  Proof.
    intros Hb Hp Ho Hn Hf. destruct d; cbn [negb] in *.
    - destruct (splitBelow_ok cmp contain k s m n p w o z Hb Hp Ho Hn Hf) as (m' & a & b & R & B1 & V1 & B2 & V2 & C & U & P1 & P2).
      exists m', a, b. auto 10.
    - destruct (splitBelow_ok cmp contain k s m n o z p w Hb Ho Hp ltac:(disj Hn) Hf) as (m' & a & b & R & B1 & V1 & B2 & V2 & C & U & P1 & P2).
      exists m', b, a. split; [exact R|]. split; [exact B2|]. split; [exact V2|]. split; [exact B1|]. split; [exact V1|]. split; [intros x; rewrite <- (C x); lia|].
      split; [eapply unch_incl; [|exact U]; intros x; cbn [In]; tauto|]. auto.
  Qed.

  Lemma tnd_tsum_inj z k v d x y k' v' x' y' : (tnd z k v d x y : tree) = tsum k' v' d x' y' -> x = x' /\ y = y' /\ k = k' /\ v = v'.
  Proof. unfold tsum. destruct d; cbn [tnd]; intros H; injection H; auto. Qed.

  Lemma split_core d contain k r1 r2 c p w o z s m : body m s -> side m p d w -> side m o (negb d) z ->
    cok m r1 c (Some p) -> Parent m p = Some (top r1 c) -> cok m r2 [] (Some o) -> Parent m o = Some r2 ->
    NoDup (r1 :: r2 :: caddrs c ++ p :: o :: addrs w ++ addrs z ++ addrs s) ->
    (forall x, In x (r1 :: r2 :: caddrs c ++ p :: o :: addrs w ++ addrs z ++ addrs s) -> (x < next m)%nat) ->
    let lr := if d then p else o in let rr := if d then o else p in
    let root := if d then r1 else r2 in let rtree := if d then r2 else r1 in
    exists m', (fueled (fun n => splitBelow cmp contain k n (pt s) (Some lr) (Some rr)) ;! fueled (fun n => sumUp root n (Some lr)) ;!
                fueled (fun n => sumUp rtree n (Some rr)) ;! ret (Some rtree)) m = Ret (Some rtree) m' /\
      rep m' r1 (upCut Merged (cview m ((p, d, w) :: c)) (pick d (IndexModel.splitBelow cmp contain k (view m s)))) /\
      rep m' r2 (tsum (Key m o) (Value m o) (negb d) (pick (negb d) (IndexModel.splitBelow cmp contain k (view m s))) (view m z)).
  Proof.
    intros Hb Hp Ho Hc1 Pp Hc2 Po Hn Hl lr rr root rtree.
    assert (Hf : (hgt s < S (next m))%nat).
    { pose proof (hgt_addrs s). assert (length (addrs s) <= next m)%nat; [|lia]. apply nodup_bound; [disj Hn|]. intros x Hx. apply Hl. cbn [In]. rewrite in_app_iff. cbn [In]. rewrite !in_app_iff. tauto. }
    destruct (splitBelow_gen d contain k s m (S (next m)) p w o z Hb Hp Ho ltac:(disj Hn) Hf) as (m1 & a & b & R & B1 & V1 & B2 & V2 & C & U & P1 & P2).
    pose proof (tnd_tsum_inj _ _ _ _ _ _ _ _ _ _ (eq_trans (eq_sym (view_nd m1 p d a w)) V1)) as (Va & Vw & _).
    pose proof (tnd_tsum_inj _ _ _ _ _ _ _ _ _ _ (eq_trans (eq_sym (view_nd m1 o (negb d) b z)) V2)) as (Vb & Vz & Yo & Wo).
    assert (Hn1 : NoDup ((r1 :: caddrs ((p, d, w) :: c) ++ addrs a) ++ (r2 :: caddrs [(o, negb d, z)] ++ addrs b))).
    { pose proof (proj1 (NoDup_count_occ Nat.eq_dec _) Hn) as Hc. apply (NoDup_count_occ Nat.eq_dec). intros x. specialize (Hc x). specialize (C x). clear Hn. cbn [caddrs app]. count. }
    assert (Hin : forall x, In x ((r1 :: caddrs ((p, d, w) :: c) ++ addrs a) ++ (r2 :: caddrs [(o, negb d, z)] ++ addrs b)) -> (x < next m1)%nat).
    { intros x Hx. rewrite (proj1 U). apply Hl. apply (count_occ_In Nat.eq_dec) in Hx. apply (count_occ_In Nat.eq_dec). specialize (C x). clear Hn Hn1. cbn [caddrs app] in *. count. }
    assert (Oa : ok m1 r1 ((p, d, w) :: c) a).
    { apply ok_down. constructor.
      - rewrite pt_nd. eapply unch_cok; [exact U| |exact Hc1]. disj Hn.
      - apply hangs_nd. rewrite P1. exact Pp.
      - exact B1.
      - pose proof (proj1 (NoDup_count_occ Nat.eq_dec _) Hn1) as Hc. apply (NoDup_count_occ Nat.eq_dec). intros x. specialize (Hc x). clear Hn Hn1 C. cbn [caddrs app] in *.
        pose proof (Permutation_count_occ Nat.eq_dec) as X. cbn [count_occ] in *. rewrite !count_occ_app in *.
        assert (Q : count_occ Nat.eq_dec (addrs (nd p d a w)) x = count_occ Nat.eq_dec (p :: addrs a ++ addrs w) x) by (apply X, addrs_nd). rewrite Q. clear X Q. count.
      - intros x Hx. apply Hin. apply (in_app_or (r1 :: caddrs c)) in Hx. apply in_or_app. left. cbn [caddrs app In]. rewrite ?in_app_iff.
        destruct Hx as [[Hx|Hx]|Hx]; [tauto|tauto|]. apply in_nd in Hx. intuition. }
    assert (Ob : ok m1 r2 [(o, negb d, z)] b).
    { apply ok_down. constructor.
      - rewrite pt_nd. eapply unch_cok; [exact U| |exact Hc2]. cbn [caddrs]. disj Hn.
      - apply hangs_nd. rewrite P2. exact Po.
      - exact B2.
      - pose proof (proj1 (NoDup_count_occ Nat.eq_dec _) Hn1) as Hc. apply (NoDup_count_occ Nat.eq_dec). intros x. specialize (Hc x). clear Hn Hn1 C. cbn [caddrs app] in *.
        pose proof (Permutation_count_occ Nat.eq_dec) as X. cbn [count_occ] in *. rewrite !count_occ_app in *.
        assert (Q : count_occ Nat.eq_dec (addrs (nd o (negb d) b z)) x = count_occ Nat.eq_dec (o :: addrs b ++ addrs z) x) by (apply X, addrs_nd). rewrite Q. clear X Q. count.
      - intros x Hx. apply Hin. cbn [caddrs app] in Hx. apply in_or_app. right. cbn [caddrs app In]. rewrite ?in_app_iff.
        destruct Hx as [Hx|Hx]; [tauto|]. apply in_nd in Hx. intuition. }
    assert (Cv : upCut Merged (cview m1 ((p, d, w) :: c)) (view m1 a) = upCut Merged (cview m ((p, d, w) :: c)) (view m1 a)).
    { pose proof (tnd_tsum_inj _ _ _ _ _ _ _ _ _ _ (eq_trans (eq_sym (view_nd m1 p d a w)) V1)) as (_ & _ & Yp & Wp).
      cbn [cview map fview upCut]. fold (cview m1 c) (cview m c). rewrite (unch_cview m m1 _ c U) by disj Hn. rewrite Yp, Wp, Vw. reflexivity. }
    unfold fueled at 1. erewrite run_bind by exact R. rewrite <- Va, <- Vb, <- Cv.
    assert (Co : upCut Merged (cview m1 [(o, negb d, z)]) (view m1 b) = tsum (Key m o) (Value m o) (negb d) (view m1 b) (view m z)).
    { cbn [cview map fview upCut upFromCut]. rewrite tsum_sum, Yo, Wo, Vz. reflexivity. }
    rewrite <- Co. subst lr rr root rtree. destruct d.
    - apply (sum_two m1 r1 ((p, true, w) :: c) a r2 [(o, false, z)] b (Some r2) Oa Ob Hn1).
    - destruct (sum_two m1 r2 [(o, true, z)] b r1 ((p, false, w) :: c) a (Some r1) Ob Oa) as (m2 & R2 & Q1 & Q2).
      + clear - Hn1. eapply Permutation_NoDup; [apply Permutation_app_comm|exact Hn1].
      + exists m2. auto.
  Qed.

  (** ** looking for the two roots: the run goes down by child [d], [p] being its last node so far *)
  Definition lrp (d : bool) (p : ptr) : ptr := if d then p else None.
  Definition rrp (d : bool) (p : ptr) : ptr := if d then None else p.
  Definition both (d : bool) {X} (run other : X) : X * X := if d then (run, other) else (other, run).
  Lemma run_found d contain k s : forall m root c p w n, ok m root ((p, d, w) :: c) s -> (hgt s < n)%nat ->
    (IndexModel.splitRun cmp contain d k (view m s) = None /\
     exists p', splitRoots cmp contain k n (pt s) (lrp d (Some p)) (rrp d (Some p)) m = Ret (None, lrp d (Some p'), rrp d (Some p')) m) \/
    exists c1 p' w' c' o cur z, s = plug c1 (nd o (negb d) cur z) /\ c1 ++ (p, d, w) :: c = (p', d, w') :: c' /\
      splitRoots cmp contain k n (pt s) (lrp d (Some p)) (rrp d (Some p)) m =
        Ret (pt cur, Some (fst (both d p' o)), Some (snd (both d p' o))) m /\
      IndexModel.splitRun cmp contain d k (view m s) =
        (let ab := IndexModel.splitBelow cmp contain k (view m cur) in
         Some (both d (upCut Merged (cview m c1) (pick d ab)) (tsum (Key m o) (Value m o) (negb d) (pick (negb d) ab) (view m z)))).
  Proof.
    assert (Hx : forall a x y m root c p w n, ok m root ((p, d, w) :: c) (nd a d x y) -> (hgt x < n)%nat ->
      (forall m root c p w n, ok m root ((p, d, w) :: c) x -> (hgt x < n)%nat ->
        (IndexModel.splitRun cmp contain d k (view m x) = None /\
         exists p', splitRoots cmp contain k n (pt x) (lrp d (Some p)) (rrp d (Some p)) m = Ret (None, lrp d (Some p'), rrp d (Some p')) m) \/
        exists c1 p' w' c' o cur z, x = plug c1 (nd o (negb d) cur z) /\ c1 ++ (p, d, w) :: c = (p', d, w') :: c' /\
          splitRoots cmp contain k n (pt x) (lrp d (Some p)) (rrp d (Some p)) m =
            Ret (pt cur, Some (fst (both d p' o)), Some (snd (both d p' o))) m /\
          IndexModel.splitRun cmp contain d k (view m x) =
            (let ab := IndexModel.splitBelow cmp contain k (view m cur) in
             Some (both d (upCut Merged (cview m c1) (pick d ab)) (tsum (Key m o) (Value m o) (negb d) (pick (negb d) ab) (view m z))))) ->
      (IndexModel.splitRun cmp contain d k (view m (nd a d x y)) = None /\
       exists p', splitRoots cmp contain k (S n) (Some a) (lrp d (Some p)) (rrp d (Some p)) m = Ret (None, lrp d (Some p'), rrp d (Some p')) m) \/
      exists c1 p' w' c' o cur z, nd a d x y = plug c1 (nd o (negb d) cur z) /\ c1 ++ (p, d, w) :: c = (p', d, w') :: c' /\
        splitRoots cmp contain k (S n) (Some a) (lrp d (Some p)) (rrp d (Some p)) m =
          Ret (pt cur, Some (fst (both d p' o)), Some (snd (both d p' o))) m /\
        IndexModel.splitRun cmp contain d k (view m (nd a d x y)) =
          (let ab := IndexModel.splitBelow cmp contain k (view m cur) in
           Some (both d (upCut Merged (cview m c1) (pick d ab)) (tsum (Key m o) (Value m o) (negb d) (pick (negb d) ab) (view m z))))).
    { intros a x y m root c p w n O Hn IH. pose proof (ok_b _ _ _ _ O) as Hb. apply body_nd in Hb. destruct Hb as (Kx & Ky & _).
      assert (Er : splitRoots cmp contain k (S n) (Some a) (lrp d (Some p)) (rrp d (Some p)) m =
        (if goesLeft cmp contain k (Key m a)
            then let! q := rdKid (Some a) true in if negb (isNil (rrp d (Some p))) then ret (q, Some a, rrp d (Some p)) else splitRoots cmp contain k n q (Some a) (rrp d (Some p))
            else let! q := rdKid (Some a) false in if negb (isNil (lrp d (Some p))) then ret (q, lrp d (Some p), Some a) else splitRoots cmp contain k n q (lrp d (Some p)) (Some a)) m).
      { cbn [splitRoots isNil]. erewrite run_bind by apply rd_ok. reflexivity. }
      rewrite Er. clear Er. rewrite view_nd.
      destruct (Bool.bool_dec (goesLeft cmp contain k (Key m a)) d) as [Eg|Eg].
      - (* the run goes on *)
        pose proof (proj1 (ok_down m root ((p, d, w) :: c) a d x y) O) as O1. clear O. rename O1 into O.
        assert (Es : forall n, (if goesLeft cmp contain k (Key m a)
            then let! q := rdKid (Some a) true in if negb (isNil (rrp d (Some p))) then ret (q, Some a, rrp d (Some p)) else splitRoots cmp contain k n q (Some a) (rrp d (Some p))
            else let! q := rdKid (Some a) false in if negb (isNil (lrp d (Some p))) then ret (q, lrp d (Some p), Some a) else splitRoots cmp contain k n q (lrp d (Some p)) (Some a)) m =
            splitRoots cmp contain k n (pt x) (lrp d (Some a)) (rrp d (Some a)) m).
        { intros n0. rewrite Eg. destruct d; cbn [lrp rrp isNil negb]; (erewrite run_bind by (rewrite rdKid_ok, Kx; reflexivity)); reflexivity. }
        rewrite Es. 
        assert (Et : IndexModel.splitRun cmp contain d k (tnd (Size m a) (Key m a) (Value m a) d (view m x) (view m y)) =
          (ab <- IndexModel.splitRun cmp contain d k (view m x) ;; Some (both d (tsum (Key m a) (Value m a) d (pick d ab) (view m y)) (pick (negb d) ab)))).
        { destruct d; cbn [tnd IndexModel.splitRun]; rewrite Eg; destruct (IndexModel.splitRun _ _ _ _ _) as [(ta, tb)|]; try reflexivity; rewrite tsum_sum; reflexivity. }
        rewrite Et. destruct (IH m root _ a y n O Hn) as [(H1 & p' & H2)|(c1 & p' & w' & c' & o & cur & z & H1 & H2 & H3 & H4)].
        + left. rewrite H1. split; [reflexivity|]. exists p'. exact H2.
        + right. exists (c1 ++ [(a, d, y)]), p', w', c', o, cur, z. rewrite plug_snoc, <- app_assoc. split; [rewrite H1; reflexivity|]. split; [exact H2|]. split; [exact H3|].
          rewrite H4. cbv zeta. rewrite cview_app, upCut_app. cbn [cview map fview upCut upFromCut]. destruct d; cbn [both pick fst snd negb]; rewrite !tsum_sum; reflexivity.
      - (* it ends at [a] *)
        right. exists [], p, w, c, a, y, x. assert (En : nd a d x y = nd a (negb d) y x) by (destruct d; reflexivity).
        split; [exact En|]. split; [reflexivity|]. split.
        + destruct d, (goesLeft cmp contain k (Key m a)); try congruence; cbn [lrp rrp isNil negb both fst snd] in *; (erewrite run_bind by (rewrite rdKid_ok, Ky; reflexivity)); reflexivity.
        + cbv zeta. cbn [cview map upCut]. destruct d; cbn [tnd IndexModel.splitRun negb both pick]; destruct (goesLeft cmp contain k (Key m a)); try congruence;
            destruct (IndexModel.splitBelow cmp contain k (view m y)) as (ta, tb); cbn [fst snd]; rewrite tsum_sum; reflexivity. }
    induction s as [|a l IHl r IHr]; intros m root c p w n O Hn; (destruct n as [|n]; [lia|]).
    - left. split; [reflexivity|]. exists p. reflexivity.
    - cbn [hgt] in Hn. destruct d.
      + apply (Hx a r l m root c p w n O ltac:(lia) IHr).
      + apply (Hx a l r m root c p w n O ltac:(lia) IHl).
  Qed.

  Lemma split_link d contain k r1 r2 c p w o z s m m5 : ok m r1 ((p, d, w) :: c) (nd o (negb d) s z) ->
    ~ In r2 (r1 :: caddrs ((p, d, w) :: c) ++ addrs (nd o (negb d) s z)) -> (r2 < next m)%nat -> Children m r2 true = None ->
    m5 = setKid d None p (setKid (negb d) None o (hangM false r2 o m)) \/ m5 = setKid (negb d) None o (setKid d None p (hangM false r2 o m)) ->
    let lr := if d then p else o in let rr := if d then o else p in
    let root := if d then r1 else r2 in let rtree := if d then r2 else r1 in
    exists m', (fueled (fun n => splitBelow cmp contain k n (pt s) (Some lr) (Some rr)) ;! fueled (fun n => sumUp root n (Some lr)) ;!
                fueled (fun n => sumUp rtree n (Some rr)) ;! ret (Some rtree)) m5 = Ret (Some rtree) m' /\
      rep m' r1 (upCut Merged (cview m ((p, d, w) :: c)) (pick d (IndexModel.splitBelow cmp contain k (view m s)))) /\
      rep m' r2 (tsum (Key m o) (Value m o) (negb d) (pick (negb d) (IndexModel.splitBelow cmp contain k (view m s))) (view m z)).
  Proof.
    intros O Hr2 Hlt Hk2 H5 lr rr root rtree.
    assert (Hn : NoDup (r1 :: r2 :: caddrs c ++ p :: o :: addrs w ++ addrs z ++ addrs s)).
    { pose proof (proj1 (NoDup_count_occ Nat.eq_dec _) (ok_n _ _ _ _ O)) as Hc. apply (NoDup_count_occ Nat.eq_dec). intros x. specialize (Hc x).
      assert (Q : count_occ Nat.eq_dec (addrs (nd o (negb d) s z)) x = count_occ Nat.eq_dec (o :: addrs s ++ addrs z) x) by (apply Permutation_count_occ, addrs_nd).
      assert (Q2 : (count_occ Nat.eq_dec (r1 :: caddrs ((p, d, w) :: c) ++ addrs (nd o (negb d) s z)) r2 = 0)%nat) by (apply count_occ_not_In; exact Hr2).
      cbn [caddrs app count_occ] in *. rewrite !count_occ_app in *. cbn [count_occ] in *. rewrite !count_occ_app in *.
      destruct (Nat.eq_dec r2 x) as [->|]; rewrite Q in *; clear Q; count. }
    assert (Hl : forall x, In x (r1 :: r2 :: caddrs c ++ p :: o :: addrs w ++ addrs z ++ addrs s) -> (x < next m)%nat).
    { intros x Hx. assert (X : x = r2 \/ In x (r1 :: caddrs ((p, d, w) :: c) ++ addrs (nd o (negb d) s z))).
      { cbn [caddrs app In] in *. rewrite !in_app_iff in *. cbn [In] in *. rewrite !in_app_iff in *. rewrite in_nd. intuition. }
      destruct X as [->|X]; [exact Hlt|]. exact (ok_l _ _ _ _ O x X). }
    pose proof (ok_c _ _ _ _ O) as Hc. cbn [cok] in Hc. destruct Hc as (Kp & Kw & Hw & Bw & Pp & Hc). rewrite pt_nd in Kp.
    pose proof (ok_b _ _ _ _ O) as Hb. apply body_side in Hb. destruct Hb as (Ko & Ho & Bs & So).
    assert (U : unch m m5 [p; o; r2]).
    { assert (H : forall x e (q : mem), ~ In x [p; o; r2] -> Children (setKid e None p q) x = Children q x /\ Children (setKid e None o q) x = Children q x).
      { intros x e q Hx. cbn [In] in Hx. mm. rewrite !upd_ne by (intros ->; tauto). auto. }
      pose proof (hangM_unch false r2 o m) as U0. 
      assert (N5 : next m5 = next m) by (destruct H5 as [-> | ->]; reflexivity). split; [exact N5|]. intros x Hx.
      destruct (unch_at _ _ _ x U0) as (A1 & A2 & A3); [cbn [In] in *; tauto|].
      destruct H5 as [-> | ->]; cbn [Parent Size Key Value setKid]; (split; [exact A1|]; split; [|exact A3]); intros e; rewrite <- A2.
      - destruct (H x d (setKid (negb d) None o (hangM false r2 o m)) Hx) as (-> & _). destruct (H x (negb d) (hangM false r2 o m) Hx) as (_ & ->). reflexivity.
      - destruct (H x (negb d) (setKid d None p (hangM false r2 o m)) Hx) as (_ & ->). destruct (H x d (hangM false r2 o m) Hx) as (-> & _). reflexivity. }
    assert (po : p <> o) by disj Hn. assert (pr : p <> r2) by disj Hn. assert (or : o <> r2) by disj Hn.
    assert (Kp5 : Children m5 p (negb d) = Children m p (negb d)).
    { destruct H5 as [-> | ->]; unfold hangM; mm; reflexivity. }
    assert (Ko5 : Children m5 o (negb (negb d)) = Children m o (negb (negb d))).
    { rewrite negb_involutive. destruct H5 as [-> | ->]; unfold hangM; mm; destruct d; reflexivity. }
    assert (Pp5 : Parent m5 p = Parent m p) by (destruct H5 as [-> | ->]; unfold hangM; mm; reflexivity).
    assert (Po5 : Parent m5 o = Some r2) by (destruct H5 as [-> | ->]; unfold hangM; mm; reflexivity).
    assert (Kr5 : Children m5 r2 false = Some o /\ Children m5 r2 true = None).
    { destruct H5 as [-> | ->]; unfold hangM; mm; auto. }
    assert (Yo5 : Key m5 o = Key m o /\ Value m5 o = Value m o) by (destruct H5 as [-> | ->]; auto).
    assert (Yp5 : fview m5 (p, d, w) = fview m (p, d, w)).
    { cbn [fview]. rewrite (unch_view m m5 _ w U) by disj Hn. destruct H5 as [-> | ->]; reflexivity. }
    destruct (split_core d contain k r1 r2 c p w o z s m5) as (m' & R & Q1 & Q2).
    - eapply unch_body; [exact U|disj Hn|exact Bs].
    - split; [rewrite Kp5; exact Kw|]. split; [eapply unch_hangs; [exact U|disj Hn|exact Hw]|eapply unch_body; [exact U|disj Hn|exact Bw]].
    - destruct So as (S1 & S2 & S3). split; [rewrite Ko5; exact S1|]. split; [eapply unch_hangs; [exact U|disj Hn|exact S2]|eapply unch_body; [exact U|disj Hn|exact S3]].
    - eapply unch_cok; [exact U|disj Hn|exact Hc].
    - rewrite Pp5. exact Pp.
    - exact Kr5.
    - exact Po5.
    - exact Hn.
    - rewrite (proj1 U). exact Hl.
    - exists m'. split; [exact R|]. cbn [cview map] in Q1. rewrite Yp5 in Q1. fold (cview m5 c) in Q1.
      rewrite (unch_cview m m5 _ c U) in Q1 by disj Hn. rewrite (unch_view m m5 _ s U) in Q1, Q2 by disj Hn. rewrite (unch_view m m5 _ z U) in Q2 by disj Hn.
      destruct Yo5 as (Y1 & Y2). rewrite Y1, Y2 in Q2. split; [exact Q1|exact Q2].
  Qed.

  Lemma Split_ok contain k m root t : rep m root t ->
    match IndexModel.Split cmp contain k t with
    | None => Split cmp zero root contain k m = Ret None m
    | Some (a, b) => exists m' r2, Split cmp zero root contain k m = Ret (Some r2) m' /\ rep m' root a /\ rep m' r2 b
    end.
  Proof.
    intros (s & O & <-). unfold Split. destruct s as [|a l r].
    { cbn [view IndexModel.Split]. erewrite run_bind by (apply getRoot_ok, O). reflexivity. }
    assert (Hd : forall d x y, B a l r = nd a d x y -> goesLeft cmp contain k (Key m a) = d ->
      match (match IndexModel.splitRun cmp contain d k (view m (nd a d x y)) with None => Some (both d (view m (nd a d x y)) E) | Some p => Some p end) with
      | None => False
      | Some (t1, t2) => exists m' r2, Split cmp zero root contain k m = Ret (Some r2) m' /\ rep m' root t1 /\ rep m' r2 t2
      end).
    { intros d x y Es Eg. rewrite Es in O. pose proof (proj1 (ok_down m root [] a d x y) O) as O1.
      set (mA := allocM (next m) m). set (R := next m) in *.
      assert (KR : forall e, Children mA R e = None) by (intros e; unfold mA, allocM; cbn [Children]; rewrite upd_eq; reflexivity).
      assert (HR : forall c s, ok m root c s -> ~ In R (root :: caddrs c ++ addrs s)).
      { intros c s H X. apply (ok_l _ _ _ _ H) in X. unfold R in X. lia. }
      assert (Er : forall n, splitRoots cmp contain k (S n) (Some a) None None m = splitRoots cmp contain k n (pt x) (lrp d (Some a)) (rrp d (Some a)) m).
      { intros n. pose proof (ok_b _ _ _ _ O) as Hb. apply body_nd in Hb. destruct Hb as (Kx & _).
        cbn [splitRoots isNil]. erewrite run_bind by apply rd_ok. rewrite Eg.
        destruct d; (erewrite run_bind by (rewrite rdKid_ok, Kx; reflexivity)); reflexivity. }
      assert (Et : IndexModel.splitRun cmp contain d k (view m (nd a d x y)) =
          (ab <- IndexModel.splitRun cmp contain d k (view m x) ;; Some (both d (tsum (Key m a) (Value m a) d (pick d ab) (view m y)) (pick (negb d) ab)))).
      { rewrite view_nd. destruct d; cbn [tnd IndexModel.splitRun]; rewrite Eg; destruct (IndexModel.splitRun _ _ _ _ _) as [(ta, tb)|]; try reflexivity; rewrite tsum_sum; reflexivity. }
      unfold Split. erewrite run_bind by (rewrite (getRoot_ok _ _ _ O), pt_nd; reflexivity). cbn [isNil]. unfold fueled at 1.
      assert (Hx : (hgt x < next m)%nat) by (pose proof (ok_fuel _ _ _ _ O1); cbn [length] in *; lia).
      rewrite Et. pose proof (alloc_keep m root [] _ O) as (OA & _ & VA). change (allocM (next m) m) with mA in OA, VA.
      destruct (run_found d contain k x m root [] a y (next m) O1 Hx) as [(H1 & p' & H2)|(c1 & p' & w' & c' & o & cur & z & H1 & H2 & H3 & H4)].
      - (* one root only *)
        erewrite run_bind by (rewrite Er; exact H2). rewrite H1. destruct d; cbn [both lrp rrp isNil].
        + erewrite run_bind by apply newTree_run. exists mA, R. split; [reflexivity|]. split.
          * exists (nd a true x y). split; [exact OA|exact VA].
          * exists L. split; [|reflexivity]. constructor; cbn [caddrs addrs app cok hangs body pt].
            -- split; apply KR.
            -- exact I.
            -- exact I.
            -- apply NoDup_cons_iff. split; [tauto|constructor].
            -- intros b [<-|[]]. unfold mA, allocM, R. cbn [next]. lia.
        + erewrite run_bind by reflexivity. erewrite run_bind by apply newTree_run. mm1. fold R.
          set (m1 := allocM R (setKid false None root m)). erewrite run_bind by reflexivity. erewrite run_bind by reflexivity.
          set (m2 := setParent (Some R) a (setKid false (Some a) R m1)). exists m2, R. split; [reflexivity|].
          assert (Rr : R <> root) by (intros X; apply (HR _ _ O); left; symmetry; exact X).
          assert (Na : NoDup (root :: addrs (nd a false x y))) by exact (ok_n _ _ _ _ O).
          assert (Ra : ~ In R (addrs (nd a false x y))) by (intros X; apply (HR _ _ O); right; exact X).
          assert (B1 : body m1 (nd a false x y)).
          { apply (body_keep m); [|exact (ok_b _ _ _ _ O)]. intros q Hq. assert (q <> R) by (intros ->; tauto). assert (q <> root) by (intros ->; apply NoDup_cons_iff in Na; tauto).
            unfold m1, allocM. mm. auto. }
          split.
          * exists L. split; [|reflexivity]. constructor; cbn [caddrs addrs app cok hangs body pt].
            -- unfold m2, m1, allocM. mm. split; [reflexivity|]. pose proof (ok_c _ _ _ _ O) as X. cbn [cok] in X. tauto.
            -- exact I.
            -- exact I.
            -- apply NoDup_cons_iff. split; [tauto|constructor].
            -- intros b [<-|[]]. unfold m2, m1, allocM, R. mm. pose proof (ok_l _ _ _ _ O root (or_introl eq_refl)). lia.
          * exists (nd a false x y). split.
            -- apply (place_ok m1 R [] None (nd a false x y)); [split; unfold m1, allocM; cbn [Children]; rewrite upd_eq; reflexivity| | |exact B1]; cbn [caddrs app].
               ++ apply NoDup_cons_iff. split; [exact Ra|]. apply NoDup_cons_iff in Na. tauto.
               ++ intros q [<-|Hq]; unfold m1, allocM; mm1; [lia|]. pose proof (ok_l _ _ _ _ O q (or_intror Hq)). unfold R. lia.
            -- apply view_keep. intros q Hq. assert (q <> R) by (intros ->; tauto). unfold m2, m1, allocM. mm. auto.
      - (* both roots *)
        erewrite run_bind by (rewrite Er; exact H3). rewrite H4. cbv zeta.
        assert (Oo : ok m root ((p', d, w') :: c') (nd o (negb d) cur z)).
        { rewrite <- H2. apply ok_plug_app. rewrite <- H1. exact O1. }
        pose proof (ok_parent _ _ _ _ _ _ _ Oo) as Pp.
        pose proof (ok_h _ _ _ _ Oo) as Po. apply hangs_nd in Po. cbn [top] in Po.
        pose proof (alloc_keep m root _ _ Oo) as (Oo1 & Cv1 & Vo1). change (allocM (next m) m) with mA in Oo1, Cv1, Vo1.
        assert (No : o <> top root c').
        { intros X. pose proof (ok_n _ _ _ _ Oo) as Hn. change (root :: caddrs ((p', d, w') :: c') ++ addrs (nd o (negb d) cur z)) with ((root :: caddrs ((p', d, w') :: c')) ++ addrs (nd o (negb d) cur z)) in Hn.
          apply nodup_app in Hn as (_ & _ & Hn). apply (Hn o); [|apply in_nd; auto]. rewrite X. destruct (top_in root c') as [Ht|Ht]; [left; exact Ht|]. right. cbn [caddrs]. right. apply in_or_app. auto. }
        pose proof (HR _ _ Oo) as HRo.
        assert (Vs : view mA cur = view m cur /\ view mA z = view m z /\ Key mA o = Key m o /\ Value mA o = Value m o).
        { rewrite !view_nd in Vo1. destruct d; cbn [tnd negb] in Vo1; injection Vo1 as ? ? ? ? ?; auto. }
        destruct Vs as (Vs1 & Vs2 & Vs3 & Vs4).
        assert (Cx : forall t, upCut Merged (cview m ((p', d, w') :: c')) t = tsum (Key m a) (Value m a) d (upCut Merged (cview m c1) t) (view m y)).
        { intros t. rewrite <- H2, cview_app, upCut_app. cbn [cview map fview upCut upFromCut]. rewrite tsum_sum. reflexivity. }
        destruct d; cbn [both fst snd isNil lrp rrp negb pick] in *.
        + erewrite run_bind by apply newTree_run. fold R mA.
          erewrite run_bind by (rewrite rd_ok; reflexivity).
          assert (Ep : eqp (Parent mA p') (Some o) = false).
          { apply eqp_ne. destruct (alloc_fields m p') as (X & _); [apply (ok_l _ _ _ _ Oo); right; left; reflexivity|]. fold R mA in X. rewrite X, Pp. congruence. }
          rewrite Ep. cbn [negb]. erewrite (run_bind _ _ _ tt (hangM false R o mA)) by reflexivity.
          erewrite run_bind by reflexivity. erewrite run_bind by reflexivity.
          destruct (split_link true contain k root R c' p' w' o z cur mA _ Oo1 HRo ltac:(unfold mA, allocM, R; cbn [next]; lia) (KR true) (or_intror eq_refl)) as (m' & Rn & Q1 & Q2).
          cbn [negb pick] in *. exists m', R. split; [exact Rn|]. rewrite Cv1, Vs1, Cx in Q1. rewrite Vs1, Vs2, Vs3, Vs4 in Q2. auto.
        + erewrite run_bind by apply newTree_run. fold R mA.
          erewrite run_bind by (rewrite rd_ok; reflexivity).
          assert (Ep : eqp (Parent mA o) (Some p') = true).
          { destruct (alloc_fields m o) as (X & _); [apply (ok_l _ _ _ _ Oo), (in_or_app (_ :: _)); right; apply (in_nd _ _ true); auto|]. fold R mA in X. rewrite X, Po. apply eqp_refl. }
          rewrite Ep. cbn [negb].
          set (m2 := put_at R [] (nd a false x y) mA).
          assert (Ra : ~ In R (addrs (nd a false x y))) by (intros X; apply (HR _ _ O); right; exact X).
          assert (Rr : R <> root) by (intros X; apply (HR _ _ O); left; symmetry; exact X).
          assert (Na : NoDup (root :: addrs (nd a false x y))) by exact (ok_n _ _ _ _ O).
          assert (O2 : ok m2 R [] (nd a false x y)).
          { apply (place_ok mA R [] None (nd a false x y)); [split; apply KR| | |exact (ok_b _ _ _ _ OA)]; cbn [caddrs app].
            - apply NoDup_cons_iff. split; [exact Ra|]. apply NoDup_cons_iff in Na. tauto.
            - intros q [<-|Hq]; unfold mA, allocM; mm1; [unfold R; lia|]. pose proof (ok_l _ _ _ _ O q (or_intror Hq)). unfold R. lia. }
          pose proof (put_at_data R [] (nd a false x y) mA) as (D1 & D2 & D3 & D4). fold m2 in D1, D2, D3, D4.
          assert (O3 : ok m2 R ((p', false, w') :: c') (nd o true cur z)).
          { rewrite <- H2. apply ok_plug_app. rewrite <- H1. apply (proj1 (ok_down m2 R [] a false x y)). exact O2. }
          assert (Kr : Children m2 root true = None).
          { unfold m2, put_at. mm. cbn [top]. rewrite upd_ne by congruence. pose proof (ok_c _ _ _ _ OA) as X. cbn [cok] in X. apply X. }
          assert (Nr : ~ In root (R :: caddrs ((p', false, w') :: c') ++ addrs (nd o true cur z))).
          { intros [X|X]; [exact (Rr X)|]. pose proof (ok_n _ _ _ _ Oo) as X2. apply NoDup_cons_iff in X2. tauto. }
          erewrite (run_bind _ _ _ tt (hangM false root o m2)) by reflexivity.
          erewrite run_bind by reflexivity. erewrite run_bind by reflexivity.
          assert (Lr : (root < next m2)%nat) by (rewrite D4; exact (ok_l _ _ _ _ OA root (or_introl eq_refl))).
          destruct (split_link false contain k R root c' p' w' o z cur m2 _ O3 Nr Lr Kr (or_introl eq_refl)) as (m' & Rn & Q1 & Q2).
          cbn [negb pick] in *. exists m', R. split; [exact Rn|].
          rewrite (cview_keep mA m2), Cv1, (view_keep mA m2), Vs1, Cx in Q1 by (apply data_all; assumption).
          rewrite (view_keep mA m2 cur), Vs1, (view_keep mA m2 z), Vs2, D2, D3, Vs3, Vs4 in Q2 by (apply data_all; assumption). auto. }
    cbn [view IndexModel.Split]. destruct (goesLeft cmp contain k (Key m a)) eqn:Eg.
    - specialize (Hd true r l eq_refl eq_refl). cbn [nd view both] in Hd. destruct (IndexModel.splitRun _ _ _ _ _) as [(t1, t2)|]; exact Hd.
    - specialize (Hd false l r eq_refl eq_refl). cbn [nd view both] in Hd. destruct (IndexModel.splitRun _ _ _ _ _) as [(t1, t2)|]; exact Hd.
  Qed.
End Split.
