(** Proofs about [AvlHeapModel]: rebalance, neighboring, put, get, remove and Traverse. *)
From Verif Require Import Base Bind Machine SMapSpec AvlTree AvlHeapModel AvlHeapSpec AvlHeapProofs AvlHeapRotProofs.
From Verif Require AvlModel.
Local Open Scope Z_scope.

Section Ops.
  Context {K V : Type} (cmp : K -> K -> Z) (st : style) (d : Z) (zero : V).
  Implicit Types m : mem K V.

  Lemma turn_refl m p c T : slot m p c T -> turn m p c T m T.
  Proof. intros H. split; [apply eff_refl, H|reflexivity|reflexivity|reflexivity]. Qed.
  Lemma hgt_turn m p c h a u l r z : slot m p c (N h a u l r) -> turn m p c (N h a u l r) (set a (setHgt z) m) (N z a u l r).
  Proof.
    intros (HR & HS & Hp & Hn). cbn [rep sep inT] in *. destruct HR as (Hq & Hh & Ha & Hl & Hr), HS as (Sl & Sr & Al & Ar & Hd). assert (p <> a) by tauto.
    assert (Fr : forall q T, ~ inT a T -> rep m q T -> rep (set a (setHgt z) m) q T).
    { intros q T F. apply rep_frame; [cbn [next set]; lia|]. intros w G. rewrite set_other by congruence. repeat split. }
    split; [split| | |intros w; reflexivity].
    - unfold slot. rewrite set_other by assumption. rewrite Hq. cbn [rep]. rewrite set_same. cbn [Hgt setHgt Kid0 Kid1 next set]. repeat split; try lia; try (apply Fr; assumption); try assumption.
    - intros w F. left. exact F.
    - cbn [next set]. lia.
    - exists (kid (nodes m p) c). rewrite set_other by assumption. destruct (nodes m p), c; reflexivity.
    - intros w F1 F2 F3. cbn [inT] in F2. apply set_other. tauto.
    - intros w. unfold entry. destruct (Nat.eq_dec w a) as [->|G]; [rewrite set_same; reflexivity|rewrite set_other by assumption; reflexivity].
    - reflexivity.
  Qed.
  Lemma rebalance_ok m p c T : slot m p c T ->
    match AvlTree.rebalance st d T with
    | None => rebalance st d (Some p) c m = None
    | Some (T', rb) => exists m', rebalance st d (Some p) c m = Some (m', rb) /\ turn m p c T m' T'
    end.
  Proof.
    intros HSl. destruct T as [|h a u l r]; [destruct HSl as (HR & _); cbn [rep] in HR; unfold rebalance; cbn [rdKid]; rewrite HR; reflexivity|]. destruct u.
    pose proof HSl as (HR & _). cbn [rep] in HR. destruct HR as (Hq & Hh & Ha & Hl & Hr). unfold rebalance. cbn [rdKid]. rewrite Hq. cbn [rd].
    cbn [kid]. rewrite (rep_height _ _ _ Hl), (rep_height _ _ _ Hr), Hh. unfold AvlTree.rebalance.
    destruct (d <=? _).
    - destruct l as [|hb b u1 ll lr]; [cbn [rep] in Hl; rewrite Hl; reflexivity|]. destruct u1. pose proof Hl as (Hqb & Hhb & Hb & Hll & Hlr). rewrite Hqb. cbn [rd].
      cbn [kid]. rewrite (rep_height _ _ _ Hll), (rep_height _ _ _ Hlr). destruct (_ >? _).
      + unfold rightRotateWithLeft. destruct lr as [|hs s u2 c1 c0].
        * unfold rotate2. cbn [rdKid]. rewrite Hq. cbn [rdKid kid]. rewrite Hqb. cbn [rdKid negb kid]. cbn [rep] in Hlr. rewrite Hlr. reflexivity.
        * destruct u2. destruct (rotate2_ok st false m p c h a hb b hs s ll c1 c0 r HSl) as (m' & -> & HT). rewrite !fixup_fh. eexists. split; [reflexivity|exact HT].
      + unfold rightRotate. destruct (rotate_ok st false m p c h a hb b ll lr r HSl) as (m' & -> & HT). rewrite !fixup_fh. eexists. split; [reflexivity|exact HT].
    - destruct (_ <=? _).
      + destruct r as [|hb b u1 rl rr]; [cbn [rep] in Hr; rewrite Hr; reflexivity|]. destruct u1. pose proof Hr as (Hqb & Hhb & Hb & Hrl & Hrr). rewrite Hqb. cbn [rd].
        cbn [kid]. rewrite (rep_height _ _ _ Hrl), (rep_height _ _ _ Hrr). destruct (_ >? _).
        * unfold leftRotateWithRight. destruct rl as [|hs s u2 c0 c1].
          -- unfold rotate2. cbn [rdKid]. rewrite Hq. cbn [rdKid kid]. rewrite Hqb. cbn [rdKid negb kid]. cbn [rep] in Hrl. rewrite Hrl. reflexivity.
          -- destruct u2. destruct (rotate2_ok st true m p c h a hb b hs s rr c1 c0 l HSl) as (m' & -> & HT). rewrite !fixup_fh. eexists. split; [reflexivity|exact HT].
        * unfold leftRotate. destruct (rotate_ok st true m p c h a hb b rr rl l HSl) as (m' & -> & HT). rewrite !fixup_fh. eexists. split; [reflexivity|exact HT].
      + destruct (_ >? _); destruct (_ =? _); try (eexists; split; [reflexivity|apply turn_refl, HSl]); cbn [wr]; (eexists; split; [reflexivity|apply hgt_turn, HSl]).
  Qed.
  (** a child pointer overwritten: [x] takes the place of the node [a] *)
  Lemma cut m p c h a u l r e : slot m p c (N h a u l r) -> 
    let m' := set p (setKid c (kid (nodes m a) e)) m in
    eff m p c (N h a u l r) m' (child e l r) /\ (forall x, entry m' x = entry m x) /\ next m' = next m.
  Proof.
    intros HSl. cbn zeta. destruct (slot_sub _ _ _ _ _ _ _ _ e HSl) as (HR & HS & _). destruct HSl as (HR0 & HS0 & Hp & Hn).
    assert (HI : forall x, inT x (child e l r) -> inT x (N h a u l r)) by (intros x F; cbn [inT]; destruct e; cbn [child] in F; tauto).
    split; [split|split; [|reflexivity]].
    - repeat split; try assumption; [|intros F; apply Hp, HI, F]. rewrite set_same, kid_set_same. revert HR. apply rep_frame; [cbn [next set]; lia|].
      intros w F. rewrite set_other; [repeat split|]. intros ->. apply Hp, HI, F.
    - intros x F. left. apply HI, F.
    - cbn [next set]. lia.
    - eexists. apply set_same.
    - intros x _ _ F. apply set_other, F.
    - intros x. unfold entry. destruct (Nat.eq_dec x p) as [->|G]; [|rewrite set_other by assumption; reflexivity]. rewrite set_same. destruct c; reflexivity.
  Qed.
  Lemma depth_child e h a u l r : (depth (child e l r) < depth (N h a u l r))%nat. Proof. destruct e; cbn [child depth]; lia. Qed.
  Lemma neighboring_ok dir : forall T m p c fuel, slot m p c T -> (depth T < fuel)%nat ->
    match AvlTree.neighboring st d dir T with
    | None => neighboring st d fuel (Some p) c dir m = None
    | Some (T', (ra, _), rb) => exists m', neighboring st d fuel (Some p) c dir m = Some (m', Some ra, rb) /\
        eff m p c T m' T' /\ (forall x, entry m' x = entry m x) /\ next m' = next m /\ inT ra T
    end.
  Proof.
    induction T as [|h a u l IHl r IHr]; intros m p c fuel HSl Hf; (destruct fuel as [|fuel]; [lia|]).
    - cbn [AvlTree.neighboring neighboring rdKid]. destruct HSl as (HR & _). cbn [rep] in HR. rewrite HR. reflexivity.
    - assert (IH : forall m p c fuel, slot m p c (child dir l r) -> (depth (child dir l r) < fuel)%nat ->
        match AvlTree.neighboring st d dir (child dir l r) with
        | None => neighboring st d fuel (Some p) c dir m = None
        | Some (T', (ra, _), rb) => exists m', neighboring st d fuel (Some p) c dir m = Some (m', Some ra, rb) /\
            eff m p c (child dir l r) m' T' /\ (forall x, entry m' x = entry m x) /\ next m' = next m /\ inT ra (child dir l r)
        end) by (destruct dir; assumption). clear IHl IHr.
      pose proof HSl as (HR & _). cbn [rep] in HR. destruct HR as (Hq & Hh & Ha & Hl & Hr).
      pose proof (slot_sub _ _ _ _ _ _ _ _ dir HSl) as HSc. pose proof HSc as (HRc & _). pose proof (depth_child dir h a u l r) as HD.
      cbn [AvlTree.neighboring neighboring rdKid]. rewrite Hq. cbn [rdKid].
      destruct (child dir l r) as [|xh xa xu xl xr] eqn:EC.
      + cbn [rep] in HRc. rewrite HRc. cbn [wr]. eexists. split; [reflexivity|]. destruct (cut _ _ _ _ _ _ _ _ (negb dir) HSl) as (F1 & F2 & F3).
        split; [exact F1|]. split; [exact F2|]. split; [exact F3|]. left. reflexivity.
      + specialize (IH m a dir fuel HSc ltac:(lia)). destruct HRc as (HRc & _). rewrite HRc.
        destruct (AvlTree.neighboring st d dir _) as [[[T' [ra ru]] rb]|]; [|rewrite IH; reflexivity].
        destruct IH as (m1 & -> & F1 & F2 & F3 & F4). rewrite <- EC in F1. pose proof (lift _ _ _ _ _ _ _ _ _ _ _ HSl F1) as G1.
        assert (HI : inT ra (N h a u l r)) by (rewrite <- EC in F4; cbn [inT]; destruct dir; cbn [child] in F4; tauto).
        destruct rb; [|exists m1; repeat split; assumption || apply G1].
        pose proof (rebalance_ok m1 p c _ (e_slot _ _ _ _ _ _ G1)) as HB. destruct (AvlTree.rebalance st d _) as [[T2 rb2]|]; [|rewrite HB; reflexivity].
        destruct HB as (m2 & -> & [T1 T3 T4 T5]). exists m2. split; [reflexivity|]. split; [eapply eff_trans; eassumption|]. split; [intros x; rewrite T3; apply F2|]. split; [congruence|exact HI].
  Qed.

  Lemma get_ok key v : forall T m q fuel, rep m q T -> sep T -> (depth T < fuel)%nat ->
    match AvlModel.get cmp key (tmap (entry m) T) with
    | None => get cmp fuel key q m = None
    | Some None => get cmp fuel key q m = Some None
    | Some (Some e) => exists a, get cmp fuel key q m = Some (Some a) /\ e = entry m a /\ inT a T /\
        AvlModel.get_write cmp key v (tmap (entry m) T) = Some (tmap (upd (entry m) a (fst (entry m a), v)) T)
    end.
  Proof.
    induction T as [|h a u l IHl r IHr]; intros m q fuel HR HS Hf; (destruct fuel as [|fuel]; [lia|]); cbn [tmap AvlModel.get get AvlModel.get_write].
    - cbn [rep] in HR. rewrite HR. reflexivity.
    - cbn [rep sep depth] in *. destruct HR as (-> & Hh & Ha & Hl & Hr), HS as (Sl & Sr & Al & Ar & Hd). change (fst (entry m a)) with (Key (nodes m a)).
      assert (U0 : forall b e T, ~ inT b T -> tmap (upd (entry m) b e) T = tmap (entry m) T).
      { intros b e T F. apply tmap_ext. intros x G. unfold upd. destruct (Nat.eqb_spec x b) as [->|]; [contradiction|reflexivity]. }
      destruct (cmp _ key <? 0).
      { exists a. split; [reflexivity|]. split; [reflexivity|]. split; [left; reflexivity|]. rewrite !U0 by assumption. unfold upd. rewrite Nat.eqb_refl. reflexivity. }
      assert (U1 : forall b e, inT b l \/ inT b r -> upd (entry m) b e a = entry m a).
      { intros b e F. unfold upd. destruct (Nat.eqb_spec a b) as [->|]; [tauto|reflexivity]. }
      destruct (cmp _ key =? 0) eqn:C0; cbn [orb].
      + apply Z.eqb_eq in C0. rewrite C0. cbn [kid Z.eqb]. specialize (IHl m _ fuel Hl Sl ltac:(lia)).
        destruct (AvlModel.get cmp key (tmap (entry m) l)) as [[e|]|]; [|rewrite IHl; reflexivity|rewrite IHl; reflexivity].
        destruct IHl as (b & -> & -> & Hb & ->). exists b. split; [reflexivity|]. split; [reflexivity|]. split; [cbn [inT]; tauto|]. rewrite U1 by tauto. rewrite (U0 b _ r) by (intros F; eapply Hd; eassumption). reflexivity.
      + destruct (cmp _ key =? 1) eqn:C1; [|reflexivity]. cbn [kid]. specialize (IHr m _ fuel Hr Sr ltac:(lia)).
        destruct (AvlModel.get cmp key (tmap (entry m) r)) as [[e|]|]; [|rewrite IHr; reflexivity|rewrite IHr; reflexivity].
        destruct IHr as (b & -> & -> & Hb & ->). exists b. split; [reflexivity|]. split; [reflexivity|]. split; [cbn [inT]; tauto|]. rewrite U1 by tauto. rewrite (U0 b _ l) by (intros F; eapply Hd; eassumption). reflexivity.
  Qed.
  Lemma traverse_ok go : forall T m q fuel seen, rep m q T -> (depth T < fuel)%nat ->
    traverse fuel go q seen m = Some (AvlModel.traverse go (tmap (entry m) T) seen).
  Proof.
    induction T as [|h a u l IHl r IHr]; intros m q fuel seen HR Hf; (destruct fuel as [|fuel]; [lia|]); cbn [tmap AvlModel.traverse traverse].
    - cbn [rep] in HR. rewrite HR. reflexivity.
    - cbn [rep depth] in *. destruct HR as (-> & Hh & Ha & Hl & Hr). cbn [kid]. rewrite (IHl m _ fuel seen Hl) by lia.
      destruct (AvlModel.traverse go (tmap (entry m) l) seen) as [s1 []]; cbn [negb]; [|reflexivity]. change (fst (entry m a), snd (entry m a)) with (Key (nodes m a), Value (nodes m a)).
      destruct (go _); cbn [negb]; [|reflexivity]. rewrite (IHr m _ fuel _ Hr) by lia. destruct (AvlModel.traverse go (tmap (entry m) r) _) as [s3 []]; reflexivity.
  Qed.
  Lemma inorder_ok : forall T m q, rep m q T -> inorder m q (addrs T).
  Proof.
    induction T as [|h a u l IHl r IHr]; intros m q HR; cbn [rep addrs] in *; [rewrite HR; constructor|]. destruct HR as (-> & Hh & Ha & Hl & Hr). constructor; [apply IHl, Hl|apply IHr, Hr].
  Qed.
End Ops.
