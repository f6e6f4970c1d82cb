(** Proofs about [AvlHeapModel]: put, remove and the calls. *)
From Verif Require Import Base Bind Machine SMapSpec AvlTree AvlHeapModel AvlHeapSpec AvlSpec AvlHeapProofs AvlHeapRotProofs AvlHeapOpProofs.
From Verif Require AvlModel.
Local Open Scope Z_scope.

Section Put.
  Context {K V : Type} (cmp : K -> K -> Z) (st : style) (d : Z) (zero : V) (hit : K * V -> K * V) (key : K) (v : V).
  Implicit Types m : mem K V.

  Definition written m (a : nat) (ex : bool) : nat -> K * V := upd (entry m) a (if ex then hit (entry m a) else (key, v)).
  Definition put_good m p c T (alone : bool) fuel : Prop :=
    match AvlModel.put cmp st d hit key v (tmap (entry m) T) alone with
    | None => put cmp st d zero fuel (Some p) c key m = None
    | Some (t', ex, rb) => exists m' a T', put cmp st d zero fuel (Some p) c key m = Some (m', Some a, ex, rb) /\ eff m p c T m' T' /\
        (if ex : bool then inT a T else a = next m /\ fst (entry m' a) = key) /\
        (forall x, (x < next m)%nat -> entry m' x = entry m x) /\ t' = tmap (written m' a ex) T'
    end.
  Lemma put_new m p c alone fuel : slot m p c E -> alone = isNil (kid (nodes m p) (negb c)) -> put_good m p c E alone (S fuel).
  Proof.
    intros (HR & _ & _ & Hn) ->. cbn [rep] in HR. unfold put_good. cbn [tmap AvlModel.put put rdKid]. rewrite HR. unfold newNode. cbn [wr rdKid].
    set (m1 := Mem _ _). assert (M0 : nodes m1 (next m) = HN key zero 1 None None) by (unfold m1; cbn [nodes]; rewrite Nat.eqb_refl; reflexivity).
    assert (M1 : forall x, (x < next m)%nat -> nodes m1 x = nodes m x) by (intros x F; unfold m1; cbn [nodes]; destruct (Nat.eqb_spec x (next m)); [lia|reflexivity]).
    assert (M2 : next m1 = S (next m)) by reflexivity. clearbody m1. set (m2 := set p _ m1).
    assert (P : nodes m2 p = setKid c (Some (next m)) (nodes m p)) by (unfold m2; rewrite set_same, M1 by assumption; reflexivity).
    assert (A : nodes m2 (next m) = HN key zero 1 None None) by (unfold m2; rewrite set_other by lia; exact M0).
    assert (En : forall x, (x < next m)%nat -> entry m2 x = entry m x).
    { intros x F. unfold entry. destruct (Nat.eq_dec x p) as [->|G]; [rewrite P; destruct c; reflexivity|]. unfold m2. rewrite set_other, M1 by assumption. reflexivity. }
    exists m2, (next m), (N 1 (next m) tt E E). split; [rewrite P, kid_set_other; reflexivity|]. split; [split|].
    - unfold slot. rewrite P, kid_set_same. cbn [rep sep inT]. rewrite A. assert (next m2 = S (next m)) by exact M2. repeat split; try lia; try tauto.
    - intros x. cbn [inT]. intros F. right. lia.
    - change (next m2) with (next m1). lia.
    - eexists. exact P.
    - intros x F1 _ F2. unfold m2. rewrite set_other, M1 by assumption. reflexivity.
    - split; [split; [reflexivity|unfold entry; rewrite A; reflexivity]|]. split; [exact En|]. cbn [tmap]. unfold written, upd. rewrite Nat.eqb_refl. reflexivity.
  Qed.
  Lemma put_ok : forall T m p c alone fuel, slot m p c T -> (depth T < fuel)%nat -> alone = isNil (kid (nodes m p) (negb c)) -> put_good m p c T alone fuel.
  Proof.
    induction T as [|h a u l IHl r IHr]; intros m p c alone fuel HSl Hf Hal; (destruct fuel as [|fuel]; [lia|]); [apply put_new; assumption|].
    pose proof HSl as (HR & HS & _). cbn [rep sep] in HR, HS. destruct HR as (Hq & Hh & Ha & Hl & Hr), HS as (Sl & Sr & Al & Ar & Hd).
    unfold put_good. cbn [tmap AvlModel.put put rdKid]. rewrite Hq. change (fst (entry m a)) with (Key (nodes m a)).
    destruct (cmp _ key <? 0).
    { change (Key (nodes m a), snd (entry m a)) with (entry m a). destruct (hit (entry m a)) as [k' v'] eqn:EH. exists m, a, (N h a u l r). split; [reflexivity|]. split; [apply eff_refl, HSl|].
      split; [left; reflexivity|]. split; [reflexivity|]. cbn [tmap]. unfold written. rewrite EH.
      assert (U0 : forall e T, ~ inT a T -> tmap (upd (entry m) a e) T = tmap (entry m) T).
      { intros e T F. apply tmap_ext. intros x G. unfold upd. destruct (Nat.eqb_spec x a) as [->|]; [contradiction|reflexivity]. }
      rewrite !U0 by assumption. unfold upd. rewrite Nat.eqb_refl. reflexivity. }
    assert (GO : forall e, (forall m p c alone fuel, slot m p c (child e l r) -> (depth (child e l r) < fuel)%nat -> alone = isNil (kid (nodes m p) (negb c)) -> put_good m p c (child e l r) alone fuel) ->
      match ('(x', ex, rb) <- AvlModel.put cmp st d hit key v (tmap (entry m) (child e l r)) (is_nil (tmap (entry m) (child (negb e) l r))) ;;
             let t := with_child e h (Key (nodes m a)) (snd (entry m a)) (tmap (entry m) l) (tmap (entry m) r) x' in
             if (ex || negb rb)%bool then Some (t, ex, rb) else '(t, rb') <- AvlTree.rebalance st d t ;; Some (t, ex, rb')) with
      | None => ('(m1, target, ex, rb) <- put cmp st d zero fuel (Some a) e key m ;;
              if (ex || negb rb)%bool then Some (m1, target, ex, rb)
              else '(m2, rb') <- rebalance st d (Some p) c m1 ;; Some (m2, target, ex, rb')) = None
      | Some (t', ex, rb) => exists m' b T', ('(m1, target, ex, rb) <- put cmp st d zero fuel (Some a) e key m ;;
              if (ex || negb rb)%bool then Some (m1, target, ex, rb)
              else '(m2, rb') <- rebalance st d (Some p) c m1 ;; Some (m2, target, ex, rb')) = Some (m', Some b, ex, rb) /\ eff m p c (N h a u l r) m' T' /\
          (if ex : bool then inT b (N h a u l r) else b = next m /\ fst (entry m' b) = key) /\
          (forall x, (x < next m)%nat -> entry m' x = entry m x) /\ t' = tmap (written m' b ex) T'
      end).
    2: { destruct (cmp _ key =? 0) eqn:C0; cbn [orb].
      - apply Z.eqb_eq in C0. rewrite C0. exact (GO false IHl).
      - destruct (cmp _ key =? 1); [exact (GO true IHr)|reflexivity]. }
    intros e IH. specialize (IH m a e (is_nil (tmap (entry m) (child (negb e) l r))) fuel (slot_sub _ _ _ _ _ _ _ _ e HSl)).
    specialize (IH ltac:(pose proof (depth_child e h a u l r); lia)). unfold put_good in IH.
    assert (EQ : is_nil (tmap (entry m) (child (negb e) l r)) = isNil (kid (nodes m a) (negb e))).
    { rewrite nil_tmap. symmetry. apply (rep_nil m). destruct e; cbn [negb child kid]; assumption. }
    specialize (IH EQ). destruct (AvlModel.put cmp st d hit key v (tmap (entry m) (child e l r)) _) as [[[t1 ex] rb]|]; [|rewrite IH; reflexivity].
    destruct IH as (m1 & b & T1 & -> & F1 & F2 & F3 & ->). cbn zeta. pose proof (lift _ _ _ _ _ _ _ _ _ _ _ HSl F1) as G1.
    assert (Hb : inT b (child e l r) \/ b = next m) by (destruct ex; [left; exact F2|right; apply F2]).
    assert (EW : with_child e h (Key (nodes m a)) (snd (entry m a)) (tmap (entry m) l) (tmap (entry m) r) (tmap (written m1 b ex) T1) = tmap (written m1 b ex) (with_child e h a u l r T1)).
    { rewrite <- with_child_tmap.
      assert (U1 : written m1 b ex a = entry m a).
      { unfold written, upd. destruct (Nat.eqb_spec a b) as [->|]; [|apply F3; lia]. destruct e; cbn [child] in Hb; destruct Hb as [Hb|Hb]; tauto || lia. }
      rewrite U1. change (fst (entry m a)) with (Key (nodes m a)).
      assert (U0 : tmap (written m1 b ex) (child (negb e) l r) = tmap (entry m) (child (negb e) l r)).
      { assert (HI : forall x, inT x (child (negb e) l r) -> (0 < x < next m)%nat /\ ~ inT x (child e l r)).
        { intros x F. split.
          - destruct e; cbn [child negb] in F; [exact (rep_in m l _ x Hl F)|exact (rep_in m r _ x Hr F)].
          - intros G. destruct e; cbn [child negb] in F, G; eapply Hd; eassumption. }
        apply tmap_ext. intros x F. destruct (HI x F) as (G & G'). unfold written, upd. destruct (Nat.eqb_spec x b) as [->|]; [destruct Hb; [contradiction|lia]|apply F3; lia]. }
      destruct e; cbn [with_child child negb] in *; rewrite U0; reflexivity. }
    rewrite EW. clear EW.
    assert (F2' : if ex then inT b (N h a u l r) else b = next m /\ fst (entry m1 b) = key).
    { destruct ex; [|exact F2]. cbn [inT]. destruct e; cbn [child] in F2; tauto. }
    destruct (ex || negb rb)%bool.
    { exists m1, b, (with_child e h a u l r T1). repeat split; try assumption; apply G1. }
    rewrite rebalance_tmap. pose proof (rebalance_ok st d m1 p c _ (e_slot _ _ _ _ _ _ G1)) as HB.
    destruct (AvlTree.rebalance st d (with_child e h a u l r T1)) as [[T2 rb2]|]; [|rewrite HB; reflexivity].
    destruct HB as (m2 & -> & [H1 H2 H3 H4]). cbn [pmap]. exists m2, b, T2. split; [reflexivity|]. split; [eapply eff_trans; eassumption|].
    split; [destruct ex; [assumption|rewrite H2; assumption]|]. split; [intros x F; rewrite H2; apply F3, F|].
    apply tmap_ext. intros x _. unfold written, upd. rewrite !H2. reflexivity.
  Qed.
End Put.

Section Remove.
  Context {K V : Type} (cmp : K -> K -> Z) (st : style) (d : Z) (key : K).
  Implicit Types m : mem K V.
  Definition remove_good m g c2 p c T fuel : Prop :=
    match AvlModel.remove cmp st d key (tmap (entry m) T) c with
    | None => remove cmp st d fuel key g c2 c m = None
    | Some (t', target, rb) => exists m' T', remove cmp st d fuel key g c2 c m = Some (m', target, rb) /\ eff m p c T m' T' /\ next m' = next m /\ t' = tmap (entry m') T'
    end.
  (** writing the entry of a node *)
  Lemma kv_eff m p c T a k1 v1 : slot m p c T -> inT a T -> let m' := set a (setValue v1) (set a (setKey k1) m) in
    eff m p c T m' T /\ (forall x, entry m' x = upd (entry m) a (k1, v1) x).
  Proof.
    intros (HR & HS & Hp & Hn) Ha. cbn zeta. set (m' := set a _ _).
    assert (A : nodes m' a = setValue v1 (setKey k1 (nodes m a))) by (unfold m'; rewrite !set_same; reflexivity).
    assert (O : forall x, x <> a -> nodes m' x = nodes m x) by (intros x F; unfold m'; rewrite !set_other by assumption; reflexivity).
    assert (p <> a) by (intros ->; contradiction).
    split; [split|].
    - repeat split; try assumption. rewrite O by assumption. revert HR. apply rep_frame; [cbn [next set m']; lia|]. intros x _. destruct (Nat.eq_dec x a) as [->|F]; [rewrite A|rewrite O by assumption]; repeat split.
    - intros x F. left. exact F.
    - cbn [next set m']. lia.
    - exists (kid (nodes m p) c). rewrite O by assumption. destruct (nodes m p), c; reflexivity.
    - intros x F1 F2 F3. apply O. intros ->. contradiction.
    - intros x. unfold upd, entry. destruct (Nat.eqb_spec x a) as [->|F]; [rewrite A; reflexivity|rewrite O by assumption; reflexivity].
  Qed.
  Lemma remove_ok : forall T m g c2 p c fuel, rdKid m g c2 = Some (Some p) -> slot m p c T -> (depth T < fuel)%nat -> remove_good m g c2 p c T fuel.
  Proof.
    induction T as [|h a u l IHl r IHr]; intros m g c2 p c fuel Hg HSl Hf; (destruct fuel as [|fuel]; [lia|]); unfold remove_good; cbn [tmap AvlModel.remove remove]; rewrite Hg; cbn [rdKid].
    - pose proof HSl as (HR & _). cbn [rep] in HR. rewrite HR. exists m, E. split; [reflexivity|]. split; [apply eff_refl, HSl|]. split; reflexivity.
    - pose proof HSl as (HR & HS & Hpn & Hn). cbn [rep sep] in HR, HS. destruct HR as (Hq & Hh & Ha & Hl & Hr), HS as (Sl & Sr & Al & Ar & Hd). rewrite Hq. change (fst (entry m a)) with (Key (nodes m a)).
      destruct (cmp _ key <? 0).
      { cbn [kid]. pose proof (rep_nil _ _ _ Hl) as Nl. pose proof (rep_nil _ _ _ Hr) as Nr.
        assert (CUT : forall e, exists m' T', (m1 <- wr (setKid c (kid (nodes m a) e)) (Some p) m ;; Some (m1, Some (Value (nodes m a)), true)) = Some (m', Some (snd (entry m a)), true) /\
          eff m p c (N h a u l r) m' T' /\ next m' = next m /\ tmap (entry m) (child e l r) = tmap (entry m') T').
        { intros e. destruct (cut _ _ _ _ _ _ _ _ e HSl) as (F1 & F2 & F3). cbn [wr]. eexists. exists (child e l r). split; [reflexivity|]. split; [exact F1|]. split; [exact F3|]. apply tmap_ext. intros x _. symmetry. apply F2. }
        destruct l as [|lh la lu ll lr]; [cbn [is_nil] in Nl; rewrite Nl; exact (CUT true)|]. cbn [is_nil] in Nl. rewrite Nl.
        destruct r as [|rh ra ru rl rr]; [cbn [is_nil] in Nr; rewrite Nr; exact (CUT false)|]. cbn [is_nil] in Nr. rewrite Nr.
        cbn [tmap]. set (l := N lh la lu ll lr) in *. set (r := N rh ra ru rl rr) in *. change (N lh (fst (entry m la)) (snd (entry m la)) (tmap (entry m) ll) (tmap (entry m) lr)) with (tmap (entry m) l).
        change (N rh (fst (entry m ra)) (snd (entry m ra)) (tmap (entry m) rl) (tmap (entry m) rr)) with (tmap (entry m) r).
        rewrite child_tmap, neighboring_tmap. clearbody l r. clear CUT Nl Nr.
        pose proof (slot_sub _ _ _ _ _ _ _ _ c HSl) as HSc. pose proof (depth_next _ _ _ (proj1 HSc) (proj1 (proj2 HSc))) as HD.
        pose proof (neighboring_ok st d (negb c) (child c l r) m a c (S (next m)) HSc ltac:(destruct HD as [HD|HD]; [lia|rewrite HD; cbn [depth]; lia])) as HN1.
        destruct (AvlTree.neighboring st d (negb c) (child c l r)) as [[[T1 [b ub]] rb1]|]; [|rewrite HN1; reflexivity].
        destruct HN1 as (m1 & -> & F1 & F2 & F3 & F4). cbn [rd wr].
        assert (b <> a) by (intros ->; destruct c; cbn [child] in F4; contradiction).
        rewrite set_other by assumption. pose proof (lift _ _ _ _ _ _ _ _ _ _ _ HSl F1) as G1.
        destruct (kv_eff m1 p c _ a (Key (nodes m1 b)) (Value (nodes m1 b)) (e_slot _ _ _ _ _ _ G1)) as (G2 & G3); [destruct u; apply with_child_in; left; reflexivity|].
        set (m3 := set a (setValue _) _) in *. assert (N3 : next m3 = next m1) by reflexivity. clearbody m3.
        destruct (entry m b) as [rk rv] eqn:EB. assert (EB1 : (Key (nodes m1 b), Value (nodes m1 b)) = (rk, rv)) by (rewrite <- EB, <- F2; reflexivity). rewrite EB1 in G3.
        assert (EW : with_child c h rk rv (tmap (entry m) l) (tmap (entry m) r) (tmap (entry m) T1) = tmap (entry m3) (with_child c h a u l r T1)).
        { rewrite <- with_child_tmap. rewrite G3. unfold upd at 1 2. rewrite Nat.eqb_refl. cbn [fst snd].
          assert (U0 : forall T, ~ inT a T -> tmap (entry m3) T = tmap (entry m) T).
          { intros T F. apply tmap_ext. intros x G. rewrite G3. unfold upd. destruct (Nat.eqb_spec x a) as [->|]; [contradiction|apply F2]. }
          rewrite !U0; [reflexivity| |assumption|assumption]. apply (proj1 (proj2 (proj2 (e_slot _ _ _ _ _ _ F1)))). }
        rewrite EW, rebalance_tmap. pose proof (rebalance_ok st d m3 p c _ (e_slot _ _ _ _ _ _ G2)) as HB.
        destruct (AvlTree.rebalance st d (with_child c h a u l r T1)) as [[T2 rb2]|]; [|rewrite HB; reflexivity].
        destruct HB as (m4 & -> & [H1 H2 H3 H4]). cbn [pmap]. exists m4, T2. split; [reflexivity|]. split; [eapply eff_trans; [exact HSl|exact G1|]; eapply eff_trans; [apply G1|exact G2|exact H1]|].
        split; [congruence|]. apply tmap_ext. intros x _. symmetry. apply H2. }
      assert (GO : forall e, (forall m g c2 p c fuel, rdKid m g c2 = Some (Some p) -> slot m p c (child e l r) -> (depth (child e l r) < fuel)%nat -> remove_good m g c2 p c (child e l r) fuel) ->
        match ('(x', target, rb) <- AvlModel.remove cmp st d key (tmap (entry m) (child e l r)) e ;;
               let t := with_child e h (Key (nodes m a)) (snd (entry m a)) (tmap (entry m) l) (tmap (entry m) r) x' in
               if rb : bool then '(t, rb') <- AvlTree.rebalance st d t ;; Some (t, target, rb') else Some (t, target, false)) with
        | None => ('(m1, target, rb) <- remove cmp st d fuel key (Some p) c e m ;;
              if (negb (a =? 0)%nat && rb)%bool then '(m2, rb') <- rebalance st d (Some p) c m1 ;; Some (m2, target, rb') else Some (m1, target, rb)) = None
        | Some (t', target, rb) => exists m' T', ('(m1, target, rb) <- remove cmp st d fuel key (Some p) c e m ;;
              if (negb (a =? 0)%nat && rb)%bool then '(m2, rb') <- rebalance st d (Some p) c m1 ;; Some (m2, target, rb') else Some (m1, target, rb)) = Some (m', target, rb) /\
            eff m p c (N h a u l r) m' T' /\ next m' = next m /\ t' = tmap (entry m') T'
        end).
      2: { destruct (cmp _ key =? 0) eqn:C0; cbn [orb].
        - apply Z.eqb_eq in C0. rewrite C0. exact (GO false IHl).
        - destruct (cmp _ key =? 1); [exact (GO true IHr)|reflexivity]. }
      intros e IH. specialize (IH m (Some p) c a e fuel). cbn [rdKid] in IH. rewrite Hq in IH. specialize (IH eq_refl (slot_sub _ _ _ _ _ _ _ _ e HSl)).
      specialize (IH ltac:(pose proof (depth_child e h a u l r); lia)). unfold remove_good in IH.
      destruct (AvlModel.remove cmp st d key (tmap (entry m) (child e l r)) e) as [[[t1 target] rb]|]; [|rewrite IH; reflexivity].
      destruct IH as (m1 & T1 & -> & F1 & F3 & ->). cbn zeta. pose proof (lift _ _ _ _ _ _ _ _ _ _ _ HSl F1) as G1.
      assert (E0 : (a =? 0)%nat = false) by (apply Nat.eqb_neq; lia). rewrite E0. cbn [negb andb].
      assert (EW : with_child e h (Key (nodes m a)) (snd (entry m a)) (tmap (entry m) l) (tmap (entry m) r) (tmap (entry m1) T1) = tmap (entry m1) (with_child e h a u l r T1)).
      { rewrite <- with_child_tmap. pose proof (entry_p _ _ _ _ _ _ F1) as HE.
        rewrite (HE a) by (lia || (destruct e; cbn [child]; assumption)). change (fst (entry m a)) with (Key (nodes m a)).
        assert (U0 : tmap (entry m1) (child (negb e) l r) = tmap (entry m) (child (negb e) l r)).
        { apply tmap_ext. intros x F. apply HE.
          - destruct e; cbn [child negb] in F; [apply (rep_in m l _ x Hl F)|apply (rep_in m r _ x Hr F)].
          - intros G. destruct e; cbn [child negb] in F, G; eapply Hd; eassumption. }
        destruct e; cbn [with_child child negb] in *; rewrite U0; reflexivity. }
      rewrite EW. clear EW. destruct rb; [|exists m1, (with_child e h a u l r T1); repeat split; try assumption; apply G1].
      rewrite rebalance_tmap. pose proof (rebalance_ok st d m1 p c _ (e_slot _ _ _ _ _ _ G1)) as HB.
      destruct (AvlTree.rebalance st d (with_child e h a u l r T1)) as [[T2 rb2]|]; [|rewrite HB; reflexivity].
      destruct HB as (m2 & -> & [H1 H2 H3 H4]). cbn [pmap]. exists m2, T2. split; [reflexivity|]. split; [eapply eff_trans; eassumption|]. split; [congruence|]. apply tmap_ext. intros x _. symmetry. apply H2.
  Qed.
End Remove.

Section Top.
  Context {K V : Type} (cmp : K -> K -> Z) (st : style) (d : Z) (zero : V).
  Implicit Types m : mem K V.
  Definition rootAt m T : Prop := slot m 0%nat true T /\ Kid0 (nodes m 0%nat) = Some 0%nat.
  Definition rel (h : havl K V) (s : AvlModel.avl K V) : Prop :=
    exists T, rootAt (memory h) T /\ AvlModel.root s = tmap (entry (memory h)) T /\ hsize h = AvlModel.size s.
  Lemma fuel_ok m T : rootAt m T -> (depth T < S (next m))%nat.
  Proof. intros ((HR & HS & _) & _). destruct (depth_next _ _ _ HR HS) as [H|H]; [lia|rewrite H; cbn [depth]; lia]. Qed.
  Lemma root_eff m T m' T' : rootAt m T -> eff m 0%nat true T m' T' -> rootAt m' T'.
  Proof. intros (_ & H) [S _ _ (q & P) _]. split; [exact S|]. rewrite P. exact H. Qed.
  Lemma root_kv m T a f : rootAt m T -> (forall n, skel n (f n)) -> rootAt (set a f m) T.
  Proof.
    intros ((HR & HS & Hp & Hn) & H0) Hf. assert (HK : forall x, skel (nodes m x) (nodes (set a f m) x)).
    { intros x. destruct (Nat.eq_dec x a) as [->|F]; [rewrite set_same; apply Hf|rewrite set_other by assumption; repeat split]. }
    destruct (HK 0%nat) as (_ & F0 & F1). split; [|rewrite F0; exact H0]. repeat split; try assumption. unfold kid in *. rewrite F1. revert HR. apply rep_frame; [cbn [next set]; lia|]. intros x _. apply HK.
  Qed.
  Lemma entry_value m a w x : entry (set a (setValue w) m) x = upd (entry m) a (fst (entry m a), w) x.
  Proof. unfold entry, upd. destruct (Nat.eqb_spec x a) as [->|F]; [rewrite set_same; reflexivity|rewrite set_other by assumption; reflexivity]. Qed.
  Lemma entry_key m a w x : entry (set a (setKey w) m) x = upd (entry m) a (w, snd (entry m a)) x.
  Proof. unfold entry, upd. destruct (Nat.eqb_spec x a) as [->|F]; [rewrite set_same; reflexivity|rewrite set_other by assumption; reflexivity]. Qed.
  Lemma alone_ok m T : rootAt m T -> false = isNil (kid (nodes m 0%nat) (negb true)). Proof. intros (_ & H). cbn [negb kid]. rewrite H. reflexivity. Qed.

  Lemma hset_ok h s k v : rel h s ->
    match AvlModel.set cmp st d s k v with None => hset cmp st d zero h k v = None | Some (s', b) => exists h', hset cmp st d zero h k v = Some (h', b) /\ rel h' s' end.
  Proof.
    intros (T & HT & Hr & Hz). unfold AvlModel.set, hset. rewrite Hr.
    pose proof (put_ok cmp st d zero (fun _ => (k, v)) k v T (memory h) 0%nat true false (S (next (memory h))) (proj1 HT) (fuel_ok _ _ HT) (alone_ok _ _ HT)) as HP. unfold put_good in HP.
    destruct (AvlModel.put cmp st d _ k v _ false) as [[[t ex] rb]|]; [|rewrite HP; reflexivity]. destruct HP as (m' & a & T' & -> & F1 & F2 & F3 & ->). cbn [wr].
    eexists. split; [reflexivity|]. exists T'. cbn [memory AvlModel.root AvlModel.size hsize]. split; [|split; [|rewrite Hz; reflexivity]].
    - apply root_kv; [apply root_kv; [eapply root_eff; eassumption|]|]; intros n; repeat split.
    - apply tmap_ext. intros x _. rewrite entry_value. unfold upd, written, upd. rewrite entry_key. unfold upd. rewrite Nat.eqb_refl. destruct (Nat.eqb_spec x a) as [->|F]; [destruct ex; reflexivity|]. rewrite entry_key. unfold upd. destruct (Nat.eqb_spec x a); [contradiction|reflexivity].
  Qed.
  Lemma hput_ok h s k v : rel h s ->
    match AvlModel.put_ cmp st d s k v with None => hput cmp st d zero h k v = None | Some (s', b) => exists h', hput cmp st d zero h k v = Some (h', b) /\ rel h' s' end.
  Proof.
    intros (T & HT & Hr & Hz). unfold AvlModel.put_, hput. rewrite Hr.
    pose proof (put_ok cmp st d zero (fun e => e) k v T (memory h) 0%nat true false (S (next (memory h))) (proj1 HT) (fuel_ok _ _ HT) (alone_ok _ _ HT)) as HP. unfold put_good in HP.
    destruct (AvlModel.put cmp st d _ k v _ false) as [[[t ex] rb]|]; [|rewrite HP; reflexivity]. destruct HP as (m' & a & T' & -> & F1 & F2 & F3 & ->). cbn [wr].
    destruct ex; (eexists; split; [reflexivity|]); exists T'; cbn [memory AvlModel.root AvlModel.size hsize].
    - split; [eapply root_eff; eassumption|]. split; [|exact Hz]. apply tmap_ext. intros x _. unfold written, upd. destruct (Nat.eqb_spec x a) as [->|F]; reflexivity.
    - split; [apply root_kv; [eapply root_eff; eassumption|intros n; repeat split]|]. split; [|rewrite Hz; reflexivity]. apply tmap_ext. intros x _. rewrite entry_value. destruct F2 as (_ & F2). rewrite F2. reflexivity.
  Qed.
  Lemma hupsert_ok h s k v : rel h s ->
    match AvlModel.upsert cmp st d s k v with None => hupsert cmp st d zero h k v = None | Some (s', b) => exists h', hupsert cmp st d zero h k v = Some (h', b) /\ rel h' s' end.
  Proof.
    intros HR. pose proof (hset_ok h s k v HR) as HS. destruct HR as (T & HT & Hr & Hz). unfold AvlModel.upsert, hupsert, getRoot.
    pose proof (get_ok cmp k v T (memory h) _ (S (next (memory h))) (proj1 (proj1 HT)) (proj1 (proj2 (proj1 HT))) (fuel_ok _ _ HT)) as HG. cbn [kid] in HG. rewrite Hr.
    destruct (AvlModel.get cmp k _) as [[e|]|]; [| |rewrite HG; reflexivity].
    - destruct HG as (a & -> & _ & Ha & ->). cbn [wr]. eexists. split; [reflexivity|]. exists T. cbn [memory AvlModel.root AvlModel.size hsize].
      split; [apply root_kv; [exact HT|intros n; repeat split]|]. split; [|exact Hz]. apply tmap_ext. intros x _. symmetry. apply entry_value.
    - rewrite HG. destruct (AvlModel.set cmp st d s k v) as [[s' b]|]; [|rewrite HS; reflexivity]. destruct HS as (h' & -> & HR'). eexists. split; [reflexivity|exact HR'].
  Qed.
  Lemma hget_ok h s k : rel h s -> hget cmp h k = AvlModel.get_ cmp s k.
  Proof.
    intros (T & HT & Hr & Hz). unfold AvlModel.get_, hget, getRoot.
    pose proof (get_ok cmp k zero T (memory h) _ (S (next (memory h))) (proj1 (proj1 HT)) (proj1 (proj2 (proj1 HT))) (fuel_ok _ _ HT)) as HG. cbn [kid] in HG. rewrite Hr.
    destruct (AvlModel.get cmp k _) as [[e|]|]; [|rewrite HG; reflexivity|rewrite HG; reflexivity]. destruct HG as (a & -> & -> & _). reflexivity.
  Qed.
  Lemma hremove_ok h s k : rel h s ->
    match AvlModel.remove_ cmp st d s k with None => hremove cmp st d h k = None | Some (s', b) => exists h', hremove cmp st d h k = Some (h', b) /\ rel h' s' end.
  Proof.
    intros (T & HT & Hr & Hz). unfold AvlModel.remove_, hremove. rewrite Hr.
    pose proof (remove_ok cmp st d k T (memory h) (Some 0%nat) false 0%nat true (S (next (memory h)))) as HP. cbn [rdKid kid] in HP. rewrite (proj2 HT) in HP. specialize (HP eq_refl (proj1 HT) (fuel_ok _ _ HT)). unfold remove_good in HP.
    destruct (AvlModel.remove cmp st d k _ true) as [[[t target] rb]|]; [|rewrite HP; reflexivity]. destruct HP as (m' & T' & -> & F1 & _ & ->).
    destruct target as [w|]; (eexists; split; [reflexivity|]); exists T'; (split; [eapply root_eff; eassumption|]); (split; [reflexivity|]); cbn [hsize AvlModel.size]; congruence.
  Qed.
  Lemma htraverse_ok h s go : rel h s -> htraverse h go = Some (fst (AvlModel.traverse go (AvlModel.root s) [])).
  Proof.
    intros (T & HT & Hr & Hz). unfold htraverse, getRoot. pose proof (traverse_ok go T (memory h) _ (S (next (memory h))) [] (proj1 (proj1 HT)) (fuel_ok _ _ HT)) as HP. cbn [kid] in HP. rewrite HP, Hr.
    destruct (AvlModel.traverse _ _ _) as [? ?]. reflexivity.
  Qed.
  Lemma step_top h s o : rel h s ->
    match AvlModel.step cmp st d s o with None => hstep cmp st d zero h o = None | Some (s', r) => exists h', hstep cmp st d zero h o = Some (h', r) /\ rel h' s' end.
  Proof.
    intros HR. assert (Hz : hsize h = AvlModel.size s) by (destruct HR as (T & _ & _ & H); exact H).
    destruct o; cbn [AvlModel.step hstep]; unfold AvlModel.contains.
    all: try (pose proof (hput_ok h s k v HR) as H; destruct (AvlModel.put_ cmp st d s k v) as [[s' b]|]; [destruct H as (h' & -> & H); eexists; split; [reflexivity|exact H]|rewrite H; reflexivity]).
    all: try (pose proof (hset_ok h s k v HR) as H; destruct (AvlModel.set cmp st d s k v) as [[s' b]|]; [destruct H as (h' & -> & H); eexists; split; [reflexivity|exact H]|rewrite H; reflexivity]).
    all: try (pose proof (hupsert_ok h s k v HR) as H; destruct (AvlModel.upsert cmp st d s k v) as [[s' b]|]; [destruct H as (h' & -> & H); eexists; split; [reflexivity|exact H]|rewrite H; reflexivity]).
    all: try (pose proof (hremove_ok h s k HR) as H; destruct (AvlModel.remove_ cmp st d s k) as [[s' b]|]; [destruct H as (h' & -> & H); eexists; split; [reflexivity|exact H]|rewrite H; reflexivity]).
    all: try (rewrite (hget_ok h s k HR); destruct (AvlModel.get_ cmp s k); [eexists; split; [reflexivity|exact HR]|reflexivity]).
    all: try (rewrite ?Hz; eexists; split; [reflexivity|exact HR]).
    all: try (rewrite (htraverse_ok h s _ HR); eexists; split; [reflexivity|exact HR]).
    - eexists. split; [reflexivity|]. destruct HR as (T & ((HR & HS & Hp & Hn) & H0) & _). exists E. split; [|split; reflexivity]. unfold hclear. cbn [memory].
      split; [|rewrite set_same; exact H0]. repeat split; try assumption; try (rewrite set_same; reflexivity); try tauto.
    - unfold AvlModel.values. rewrite Hz. destruct (AvlModel.size s); cbn [Nat.eqb]; [eexists; split; [reflexivity|exact HR]|]. rewrite (htraverse_ok h s _ HR). eexists. split; [reflexivity|exact HR].
  Qed.
  Lemma run_top ops : forall h s, rel h s -> run (hstep cmp st d zero) h ops = run (AvlModel.step cmp st d) s ops.
  Proof.
    induction ops as [|o ops IH]; intros h s HR; [reflexivity|]. cbn [run]. pose proof (step_top h s o HR) as H. destruct (AvlModel.step cmp st d s o) as [[s' r]|]; [|rewrite H; reflexivity].
    destruct H as (h' & -> & H). rewrite (IH h' s' H). reflexivity.
  Qed.
  Lemma reach_top ops : forall h s h', rel h s -> reach (hstep cmp st d zero) h ops = Some h' -> exists s', reach (AvlModel.step cmp st d) s ops = Some s' /\ rel h' s'.
  Proof.
    induction ops as [|o ops IH]; intros h s h' HR; cbn [reach]; [intros [= <-]; exists s; split; [reflexivity|exact HR]|]. pose proof (step_top h s o HR) as H. destruct (AvlModel.step cmp st d s o) as [[s' r]|]; [|rewrite H; discriminate].
    destruct H as (h1 & -> & H). apply IH, H.
  Qed.
  Lemma traverse_all (t : tree K V) : forall seen, AvlModel.traverse (fun _ => true) t seen = (seen ++ fst (AvlModel.traverse (fun _ => true) t []), true).
  Proof.
    induction t as [|h k v l IHl r IHr]; intros seen; cbn [AvlModel.traverse]; [rewrite app_nil_r; reflexivity|]. rewrite (IHl seen), (IHl []). cbn [negb fst app]. rewrite IHr, (IHr (_ ++ _)). cbn [negb fst]. rewrite !app_assoc. reflexivity.
  Qed.
  Lemma traverse_addrs f T : fst (AvlModel.traverse (fun _ => true) (tmap f T) []) = map f (addrs T) :> list (K * V).
  Proof.
    induction T as [|h a u l IHl r IHr]; [reflexivity|]. cbn [tmap AvlModel.traverse addrs]. rewrite traverse_all. cbn [app negb]. rewrite IHl, traverse_all, IHr. cbn [negb fst]. rewrite map_app. cbn [map].
    rewrite <- surjective_pairing, <- app_assoc. reflexivity.
  Qed.
  Lemma rel_inorder h s : rel h s -> exists l, inorder (memory h) (getRoot (memory h)) l /\ NoDup l /\ (forall a, In a l -> (0 < a < next (memory h))%nat) /\
    hstep cmp st d zero h (MTraverse (fun _ => true)) = Some (h, MSeen (map (entry (memory h)) l)).
  Proof.
    intros HR. pose proof HR as (T & ((H1 & H2 & H3 & H4) & H0) & Hr & Hz). exists (addrs T). split; [apply inorder_ok, H1|]. split; [apply nodup_addrs, H2|].
    split; [intros a F; rewrite in_addrs in F; eapply rep_in; eassumption|]. cbn [hstep]. rewrite (htraverse_ok h s _ HR), Hr, traverse_addrs. reflexivity.
  Qed.
  Lemma rel_height h s : rel h s -> hheight h = AvlModel.height s.
  Proof.
    intros (T & ((H1 & _) & _) & Hr & Hz). unfold hheight, AvlModel.height, getRoot. rewrite Hz, Hr. destruct (AvlModel.size s); [reflexivity|]. cbn [Nat.eqb kid] in *. destruct T; cbn [rep tmap] in *; [rewrite H1; reflexivity|].
    destruct H1 as (-> & <- & _). reflexivity.
  Qed.
End Top.

Section Facts.
  Context {K V : Type}.
  Lemma rel_new (zero : V) (k0 : K) : rel (hnew zero k0) AvlModel.new.
  Proof. exists E. split; [|split; reflexivity]. split; [|reflexivity]. repeat split; cbn; try lia; tauto. Qed.
  Implicit Types m : mem K V.
  Lemma inorder_det m q l : inorder m q l -> forall l', inorder m q l' -> l' = l.
  Proof.
    induction 1 as [|a l r _ IHl _ IHr]; intros l' H; inversion H; subst; [reflexivity|]. f_equal; [apply IHl; assumption|]. f_equal. apply IHr; assumption.
  Qed.
  Lemma levels_rep m f T : forall q, rep m q T -> levels m q (ht (tmap f T : tree K V)).
  Proof.
    induction T as [|h a u l IHl r IHr]; intros q HR; cbn [rep tmap ht] in *; [rewrite HR; constructor|]. destruct HR as (-> & _ & _ & Hl & Hr). constructor; [apply IHl, Hl|apply IHr, Hr].
  Qed.
  Lemma exact_rep m f T : forall q, rep m q T -> exact (tmap f T : tree K V) -> forall a, inT a T -> levels m (Some a) (Hgt (nodes m a)).
  Proof.
    induction T as [|h b u l IHl r IHr]; intros q HR HE a Ha; cbn [rep tmap exact inT] in *; [destruct Ha|]. destruct HR as (_ & Hh & _ & Hl & Hr), HE as (He & El & Er).
    destruct Ha as [->|[Ha|Ha]]; [|eapply IHl; eassumption|eapply IHr; eassumption]. rewrite Hh, He. constructor; apply levels_rep; assumption.
  Qed.
  Lemma elems_tmap (f : nat -> K * V) T : elems (tmap f T) = map f (addrs T).
  Proof. induction T as [|h a u l IHl r IHr]; [reflexivity|]. cbn [tmap elems addrs]. rewrite map_app, IHl, IHr, <- surjective_pairing. reflexivity. Qed.
  Lemma rel_exact (h : havl K V) s : rel h s -> exact (AvlModel.root s) -> forall l a, inorder (memory h) (getRoot (memory h)) l -> In a l -> levels (memory h) (Some a) (Hgt (nodes (memory h) a)).
  Proof.
    intros (T & ((H1 & _) & _) & Hr & _) HE l a Hl Ha. cbn [kid] in H1. rewrite (inorder_det _ _ _ (inorder_ok _ _ _ H1) _ Hl) in Ha. rewrite in_addrs in Ha. rewrite Hr in HE. eapply exact_rep; eassumption.
  Qed.
  Lemma rel_elems (h : havl K V) s l : rel h s -> inorder (memory h) (getRoot (memory h)) l -> map (entry (memory h)) l = elems (AvlModel.root s).
  Proof. intros (T & ((H1 & _) & _) & Hr & _) Hl. cbn [kid] in H1. rewrite (inorder_det _ _ _ (inorder_ok _ _ _ H1) _ Hl), Hr, elems_tmap. reflexivity. Qed.
  Lemma rel_size (h : havl K V) s : rel h s -> hsize h = AvlModel.size s. Proof. intros (T & _ & _ & H). exact H. Qed.
End Facts.
