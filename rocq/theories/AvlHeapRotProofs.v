(** Proofs about [AvlHeapModel]: the rotations, rebalance and neighboring. *)
From Verif Require Import Base Bind Machine SMapSpec AvlTree AvlHeapModel AvlHeapSpec AvlHeapProofs.
Local Open Scope Z_scope.

Section Rot.
  Context {K V : Type} (st : style) (d : Z).
  Implicit Types m : mem K V.
  (** [x] is the child in direction [e], [y] the other one *)
  Definition nd (e : bool) (h : Z) (a : nat) (x y : atree) : atree := if e then N h a tt y x else N h a tt x y.
  Definition fhe (e c : bool) (hx hy : Z) : Z := fh st c (if e then hy else hx) (if e then hx else hy).
  Lemma rep_nd m q e h a x y : rep m q (nd e h a x y) <->
    q = Some a /\ Hgt (nodes m a) = h /\ (0 < a < next m)%nat /\ rep m (kid (nodes m a) e) x /\ rep m (kid (nodes m a) (negb e)) y.
  Proof. destruct e; cbn [nd rep kid negb]; tauto. Qed.
  Lemma in_nd z e h a x y : inT z (nd e h a x y) <-> z = a \/ inT z x \/ inT z y. Proof. destruct e; cbn [nd inT]; tauto. Qed.
  Lemma sep_nd e h a x y : sep (nd e h a x y) <-> sep x /\ sep y /\ ~ inT a x /\ ~ inT a y /\ forall z, inT z x -> inT z y -> False.
  Proof. destruct e; cbn [nd sep]; intuition eauto. Qed.
  Lemma set_same (a : nat) f m : nodes (set a f m) a = f (nodes m a). Proof. unfold set. cbn [nodes]. rewrite Nat.eqb_refl. reflexivity. Qed.
  Lemma set_other (a x : nat) f m : x <> a -> nodes (set a f m) x = nodes m x. Proof. intros H. unfold set. cbn [nodes]. apply Nat.eqb_neq in H. rewrite H. reflexivity. Qed.
  Lemma fix_ok e c m a hx hy : heightOf m (kid (nodes m a) e) = hx -> heightOf m (kid (nodes m a) (negb e)) = hy ->
    fixHeight st c (Some a) m = Some (set a (setHgt (fhe e c hx hy)) m).
  Proof.
    intros <- <-. unfold fixHeight, fhe, fh. cbn [rd wr]. destruct e; cbn [negb]; destruct st; try (destruct (_ >? _); reflexivity); destruct c; reflexivity.
  Qed.
  (** only pointers and heights change, and no node comes in *)
  Record turn m (p : nat) (c : bool) (T : atree) m' (T' : atree) : Prop := Turn {
    t_eff : eff m p c T m' T';
    t_entry : forall x, entry m' x = entry m x;
    t_next : next m' = next m;
    t_in : forall x, inT x T' <-> inT x T }.

  Ltac look := repeat first [rewrite set_same | rewrite set_other by congruence].
  Lemma kid_h (n : hnode K V) z e : kid (setHgt z n) e = kid n e. Proof. destruct e; reflexivity. Qed.
  Lemma hgt_h (n : hnode K V) z : Hgt (setHgt z n) = z. Proof. reflexivity. Qed.
  Lemma kid_set_other' (n : hnode K V) e q : kid (setKid (negb e) q n) e = kid n e. Proof. destruct e; reflexivity. Qed.
  Ltac kids := repeat first [rewrite kid_h | rewrite hgt_h | rewrite kid_set_same | rewrite kid_set_other | rewrite kid_set_other' | rewrite negb_involutive].
  Lemma ent_k (n : hnode K V) e q : Key (setKid e q n) = Key n /\ Value (setKid e q n) = Value n. Proof. destruct e; split; reflexivity. Qed.

  Lemma rotate_ok e m p c h a hb b x y z : slot m p c (nd e h a (nd e hb b x y) z) ->
    let h1 := fhe e e (getHeight y) (getHeight z) in
    let T' := nd (negb e) (fhe e (negb e) (getHeight x) h1) b (nd e h1 a y z) x in
    exists m', rotate st e (Some p) c m = Some m' /\ turn m p c (nd e h a (nd e hb b x y) z) m' T'.
  Proof.
    intros (HR & HS & Hp & Hn). cbn zeta. pose proof (fun w F => rep_in m _ _ w HR F) as HB.
    apply rep_nd in HR as (Hq & Hh & Ha & HR1 & HRz). apply rep_nd in HR1 as (Hqb & Hhb & Hb & HRx & HRy).
    rewrite !sep_nd, !in_nd in *. destruct HS as ((Sx & Sy & Bx & By & Dxy) & Sz & Ab & Az & D).
    assert (b <> a) by (intros ->; tauto). assert (p <> a) by (intros ->; tauto). assert (p <> b) by (intros ->; tauto).
    assert (FX : forall w, inT w x -> w <> a /\ w <> b /\ w <> p) by (intros w F; repeat split; intros ->; tauto).
    assert (FY : forall w, inT w y -> w <> a /\ w <> b /\ w <> p) by (intros w F; repeat split; intros ->; tauto).
    assert (FZ : forall w, inT w z -> w <> a /\ w <> b /\ w <> p) by (intros w F; repeat split; intros ->; try tauto; apply (D b); [apply in_nd; tauto|assumption]).
    unfold rotate. cbn [rdKid]. rewrite Hq. cbn [rdKid]. rewrite Hqb. cbn [wr rdKid].
    set (m1 := set p _ m). set (m2 := set a _ m1). set (m3 := set b _ m2).
    assert (Op : nodes m3 p = setKid c (Some b) (nodes m p)) by (unfold m3, m2, m1; look; reflexivity).
    assert (Oa : nodes m3 a = setKid e (kid (nodes m b) (negb e)) (nodes m a)) by (unfold m3, m2, m1; look; reflexivity).
    assert (Ob : nodes m3 b = setKid (negb e) (Some a) (nodes m b)) by (unfold m3, m2, m1; look; reflexivity).
    assert (Oo : forall w, w <> p -> w <> a -> w <> b -> nodes m3 w = nodes m w) by (intros w F1 F2 F3; unfold m3, m2, m1; look; reflexivity).
    assert (On : next m3 = next m) by reflexivity. clearbody m3. clear m1 m2.
    assert (Fr : forall m' q T, next m' = next m -> (forall w, inT w T -> nodes m' w = nodes m w) -> rep m q T -> rep m' q T)
      by (intros m' q T F1 F2; apply rep_frame; [lia|]; intros w F; rewrite (F2 w F); repeat split).
    assert (K3 : forall q T, (forall w, inT w T -> w <> a /\ w <> b /\ w <> p) -> rep m q T -> rep m3 q T)
      by (intros q T F; apply Fr; [assumption|]; intros w G; destruct (F w G) as (? & ? & ?); apply Oo; assumption).
    rewrite (fix_ok e e m3 a (getHeight y) (getHeight z)); [|rewrite Oa; kids; apply rep_height, K3; assumption|rewrite Oa; kids; apply rep_height, K3; assumption].
    set (h1 := fhe e e _ _). set (m4 := set a _ m3).
    assert (K4 : forall q T, (forall w, inT w T -> w <> a /\ w <> b /\ w <> p) -> rep m q T -> rep m4 q T)
      by (intros q T F; apply Fr; [exact On|]; intros w G; destruct (F w G) as (? & ? & ?); unfold m4; look; apply Oo; assumption).
    rewrite (fix_ok e (negb e) m4 b (getHeight x) h1);
      [|unfold m4 at 2; look; rewrite Ob; kids; apply rep_height, K4; assumption|unfold m4 at 2; look; rewrite Ob; kids; unfold heightOf, m4; look; reflexivity].
    set (h2 := fhe e (negb e) _ _). eexists. split; [reflexivity|]. set (m5 := set b _ m4).
    assert (Pp : nodes m5 p = setKid c (Some b) (nodes m p)) by (unfold m5, m4; look; exact Op).
    assert (Pa : nodes m5 a = setHgt h1 (setKid e (kid (nodes m b) (negb e)) (nodes m a))) by (unfold m5, m4; look; rewrite Oa; reflexivity).
    assert (Pb : nodes m5 b = setHgt h2 (setKid (negb e) (Some a) (nodes m b))) by (unfold m5, m4; look; rewrite Ob; reflexivity).
    assert (Po : forall w, w <> p -> w <> a -> w <> b -> nodes m5 w = nodes m w) by (intros w F1 F2 F3; unfold m5, m4; look; apply Oo; assumption).
    assert (Pn : next m5 = next m) by exact On. clearbody m5 h1 h2. clear m4 K4 K3 Op Oa Ob Oo On m3.
    assert (K5 : forall q T, (forall w, inT w T -> w <> a /\ w <> b /\ w <> p) -> rep m q T -> rep m5 q T)
      by (intros q T F; apply Fr; [assumption|]; intros w G; destruct (F w G) as (? & ? & ?); apply Po; assumption).
    assert (HI : forall w, inT w (nd (negb e) h2 b (nd e h1 a y z) x) <-> inT w (nd e h a (nd e hb b x y) z)) by (intros w; rewrite !in_nd; tauto).
    split; [split| | |exact HI].
    - repeat split.
      + rewrite Pp. kids. apply rep_nd. rewrite Pb. kids. repeat split; try lia; [|apply K5; assumption].
        apply rep_nd. rewrite Pa. kids. repeat split; try lia; apply K5; assumption.
      + rewrite !sep_nd, !in_nd. repeat split; try assumption; try tauto.
        * intros w F1 F2. apply (D w); [apply in_nd; tauto|assumption].
        * intros [F|[F|F]]; [congruence|tauto|destruct (FZ b F) as (? & ? & ?); congruence].
        * intros w F1 F2. apply in_nd in F1 as [->|[F1|F1]]; [tauto|eapply Dxy; eassumption|]. apply (D w); [apply in_nd; tauto|assumption].
      + rewrite HI, !in_nd. exact Hp.
      + lia.
    - intros w F. left. apply HI, F.
    - lia.
    - exists (Some b). exact Pp.
    - intros w F1 F2 F3. rewrite !in_nd in F2. apply Po; tauto.
    - intros w. unfold entry. destruct (Nat.eq_dec w p) as [->|]; [rewrite Pp; destruct (ent_k (nodes m p) c (Some b)) as (-> & ->); reflexivity|].
      destruct (Nat.eq_dec w a) as [->|]; [rewrite Pa; destruct e; reflexivity|]. destruct (Nat.eq_dec w b) as [->|]; [rewrite Pb; destruct e; reflexivity|]. rewrite Po by assumption. reflexivity.
    - exact Pn.
  Qed.

  Lemma rotate2_ok e m p c h a hb b hs s x c1 c0 z : slot m p c (nd e h a (nd e hb b x (nd e hs s c1 c0)) z) ->
    let h1 := fhe e (negb e) (getHeight c0) (getHeight z) in
    let h2 := fhe e e (getHeight x) (getHeight c1) in
    let T' := nd e (fhe e (negb e) h2 h1) s (nd e h2 b x c1) (nd e h1 a c0 z) in
    exists m', rotate2 st e (Some p) c m = Some m' /\ turn m p c (nd e h a (nd e hb b x (nd e hs s c1 c0)) z) m' T'.
  Proof.
    intros (HR & HS & Hp & Hn). cbn zeta.
    apply rep_nd in HR as (Hq & Hh & Ha & HR1 & HRz). apply rep_nd in HR1 as (Hqb & Hhb & Hb & HRx & HR2). apply rep_nd in HR2 as (Hqs & Hhs & Hs & HR3 & HR4).
    rewrite !sep_nd, !in_nd in *. destruct HS as ((Sx & (S1 & S0 & Ss1 & Ss0 & D10) & Bx & By & Dxy) & Sz & Ab & Az & D).
    assert (Dx : forall w, inT w x -> ~ (w = s \/ inT w c1 \/ inT w c0)) by (intros w F G; apply (Dxy w F), in_nd, G).
    assert (Dz : forall w, inT w z -> ~ (w = b \/ inT w x \/ w = s \/ inT w c1 \/ inT w c0)) by (intros w F G; apply (D w); [rewrite !in_nd; tauto|assumption]).
    assert (b <> a) by (intros ->; tauto). assert (p <> a) by (intros ->; tauto). assert (p <> b) by (intros ->; tauto). assert (s <> a) by (intros ->; tauto). assert (s <> b) by (intros ->; tauto). assert (p <> s) by (intros ->; tauto).
    pose (ok := fun T => forall w, inT w T -> w <> a /\ w <> b /\ w <> s /\ w <> p).
    assert (FX : ok x) by (intros w F; pose proof (Dx w F); repeat split; intros ->; tauto).
    assert (F1 : ok c1) by (intros w F; repeat split; intros ->; tauto).
    assert (F0 : ok c0) by (intros w F; repeat split; intros ->; tauto).
    assert (FZ : ok z) by (intros w F; pose proof (Dz w F); repeat split; intros ->; tauto).
    unfold rotate2. cbn [rdKid]. rewrite Hq. cbn [rdKid]. rewrite Hqb. cbn [rdKid]. rewrite Hqs. cbn [wr rdKid].
    set (m1 := set p _ m). set (m2 := set s (setKid (negb e) (Some a)) m1). set (m3 := set s _ m2). set (m4 := set a _ m3). set (m5 := set b _ m4).
    assert (Op : nodes m5 p = setKid c (Some s) (nodes m p)) by (unfold m5, m4, m3, m2, m1; look; reflexivity).
    assert (Oa : nodes m5 a = setKid e (kid (nodes m s) (negb e)) (nodes m a)) by (unfold m5, m4, m3, m2, m1; look; reflexivity).
    assert (Ob : nodes m5 b = setKid (negb e) (kid (nodes m s) e) (nodes m b)) by (unfold m5, m4, m3, m2, m1; look; reflexivity).
    assert (Os : nodes m5 s = setKid e (Some b) (setKid (negb e) (Some a) (nodes m s))) by (unfold m5, m4, m3, m2, m1; look; reflexivity).
    assert (Oo : forall w, w <> p -> w <> a -> w <> b -> w <> s -> nodes m5 w = nodes m w) by (intros w ? ? ? ?; unfold m5, m4, m3, m2, m1; look; reflexivity).
    assert (On : next m5 = next m) by reflexivity. clearbody m5. clear m1 m2 m3 m4.
    assert (Fr : forall m' q T, next m' = next m -> (forall w, inT w T -> nodes m' w = nodes m w) -> rep m q T -> rep m' q T)
      by (intros m' q T G1 G2; apply rep_frame; [lia|]; intros w F; rewrite (G2 w F); repeat split).
    assert (K5 : forall q T, ok T -> rep m q T -> rep m5 q T)
      by (intros q T F; apply Fr; [assumption|]; intros w G; destruct (F w G) as (? & ? & ? & ?); apply Oo; assumption).
    rewrite (fix_ok e (negb e) m5 a (getHeight c0) (getHeight z)); [|rewrite Oa; kids; apply rep_height, K5; assumption|rewrite Oa; kids; apply rep_height, K5; assumption].
    set (h1 := fhe e (negb e) (getHeight c0) _). set (m6 := set a _ m5).
    assert (K6 : forall q T, ok T -> rep m q T -> rep m6 q T)
      by (intros q T F; apply Fr; [exact On|]; intros w G; destruct (F w G) as (? & ? & ? & ?); unfold m6; look; apply Oo; assumption).
    rewrite (fix_ok e e m6 b (getHeight x) (getHeight c1));
      [|unfold m6 at 2; look; rewrite Ob; kids; apply rep_height, K6; assumption|unfold m6 at 2; look; rewrite Ob; kids; apply rep_height, K6; assumption].
    set (h2 := fhe e e _ _). set (m7 := set b _ m6).
    rewrite (fix_ok e (negb e) m7 s h2 h1);
      [|unfold m7 at 2, m6; look; rewrite Os; kids; unfold heightOf, m7; look; reflexivity|unfold m7 at 2, m6; look; rewrite Os; kids; unfold heightOf, m7, m6; look; reflexivity].
    set (h3 := fhe e (negb e) h2 h1). eexists. split; [reflexivity|]. set (m8 := set s _ m7).
    assert (Pp : nodes m8 p = setKid c (Some s) (nodes m p)) by (unfold m8, m7, m6; look; exact Op).
    assert (Pa : nodes m8 a = setHgt h1 (setKid e (kid (nodes m s) (negb e)) (nodes m a))) by (unfold m8, m7, m6; look; rewrite Oa; reflexivity).
    assert (Pb : nodes m8 b = setHgt h2 (setKid (negb e) (kid (nodes m s) e) (nodes m b))) by (unfold m8, m7, m6; look; rewrite Ob; reflexivity).
    assert (Ps : nodes m8 s = setHgt h3 (setKid e (Some b) (setKid (negb e) (Some a) (nodes m s)))) by (unfold m8, m7, m6; look; rewrite Os; reflexivity).
    assert (Po : forall w, w <> p -> w <> a -> w <> b -> w <> s -> nodes m8 w = nodes m w) by (intros w ? ? ? ?; unfold m8, m7, m6; look; apply Oo; assumption).
    assert (Pn : next m8 = next m) by exact On. clearbody m8 h1 h2 h3. clear m6 m7 K5 K6 Op Oa Ob Os Oo On m5.
    assert (K8 : forall q T, ok T -> rep m q T -> rep m8 q T)
      by (intros q T F; apply Fr; [assumption|]; intros w G; destruct (F w G) as (? & ? & ? & ?); apply Po; assumption).
    assert (HI : forall w, inT w (nd e h3 s (nd e h2 b x c1) (nd e h1 a c0 z)) <-> inT w (nd e h a (nd e hb b x (nd e hs s c1 c0)) z)) by (intros w; rewrite !in_nd; tauto).
    split; [split| | |exact HI].
    - repeat split.
      + rewrite Pp. kids. apply rep_nd. rewrite Ps. kids. repeat split; try lia.
        * apply rep_nd. rewrite Pb. kids. repeat split; try lia; apply K8; assumption.
        * apply rep_nd. rewrite Pa. kids. repeat split; try lia; apply K8; assumption.
      + rewrite !sep_nd, !in_nd. repeat split; try assumption; try tauto.
        * intros w F G. apply (Dx w F). tauto.
        * intros w F G. apply (Dz w G). tauto.
        * intros [F|[F|F]]; [congruence|apply (Dx s F); tauto|tauto].
        * intros [F|[F|F]]; [congruence|tauto|apply (Dz s F); tauto].
        * intros w F G. apply in_nd in F, G. destruct G as [->|[G|G]]; [tauto| |pose proof (Dz w G); intuition congruence || tauto].
          destruct F as [->|[F|F]]; [tauto|apply (Dx w F); tauto|eapply D10; eassumption].
      + rewrite HI, !in_nd. exact Hp.
      + lia.
    - intros w F. left. apply HI, F.
    - lia.
    - exists (Some s). exact Pp.
    - intros w G1 G2 G3. rewrite !in_nd in G2. apply Po; tauto.
    - intros w. unfold entry. destruct (Nat.eq_dec w p) as [->|]; [rewrite Pp; destruct (ent_k (nodes m p) c (Some s)) as (-> & ->); reflexivity|].
      destruct (Nat.eq_dec w a) as [->|]; [rewrite Pa; destruct e; reflexivity|]. destruct (Nat.eq_dec w b) as [->|]; [rewrite Pb; destruct e; reflexivity|].
      destruct (Nat.eq_dec w s) as [->|]; [rewrite Ps; destruct e; reflexivity|]. rewrite Po by assumption. reflexivity.
    - exact Pn.
  Qed.
End Rot.
