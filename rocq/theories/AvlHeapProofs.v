(** Proofs about [AvlHeapModel]: nodes in memory against trees of addresses. *)
From Verif Require Import Base Bind Machine SMapSpec AvlTree AvlHeapModel AvlHeapSpec.
From Verif Require AvlModel.
Local Open Scope Z_scope.

(** Trees of addresses, and the entries put in. *)
Notation atree := (tree nat unit).
Section Shapes.
  Context {K V : Type}.
  Fixpoint tmap (f : nat -> K * V) (T : atree) : tree K V :=
    match T with E => E | N h a _ l r => N h (fst (f a)) (snd (f a)) (tmap f l) (tmap f r) end.
  Fixpoint inT (x : nat) (T : atree) : Prop := match T with E => False | N _ a _ l r => x = a \/ inT x l \/ inT x r end.
  Fixpoint sep (T : atree) : Prop :=
    match T with
    | E => True
    | N _ a _ l r => sep l /\ sep r /\ ~ inT a l /\ ~ inT a r /\ forall x, inT x l -> inT x r -> False
    end.
  Fixpoint depth (T : atree) : nat := match T with E => 0%nat | N _ _ _ l r => S (Nat.max (depth l) (depth r)) end.
  Fixpoint addrs (T : atree) : list nat := match T with E => [] | N _ a _ l r => addrs l ++ a :: addrs r end.
  Definition upd (f : nat -> K * V) (a : nat) (e : K * V) (x : nat) : K * V := if (x =? a)%nat then e else f x.

  Lemma tmap_ext f g T : (forall x, inT x T -> f x = g x) -> tmap f T = tmap g T.
  Proof.
    induction T as [|h a u l IHl r IHr]; intros H; [reflexivity|]. cbn [tmap inT] in *. rewrite (H a) by tauto. f_equal; [apply IHl|apply IHr]; intros; apply H; tauto.
  Qed.
  Lemma height_tmap f T : getHeight (tmap f T) = getHeight T. Proof. destruct T; reflexivity. Qed.
  Lemma nil_tmap f T : is_nil (tmap f T) = is_nil T. Proof. destruct T; reflexivity. Qed.
  Lemma in_addrs x T : In x (addrs T) <-> inT x T.
  Proof. induction T as [|h a u l IHl r IHr]; [cbn; tauto|]. cbn [addrs inT]. rewrite in_app_iff. cbn [In]. rewrite IHl, IHr. intuition congruence. Qed.
  Lemma nodup_addrs T : sep T -> NoDup (addrs T).
  Proof.
    induction T as [|h a u l IHl r IHr]; intros H; [constructor|]. cbn [addrs sep] in *. destruct H as (Sl & Sr & Hl & Hr & Hd).
    assert (G : forall l1 : list nat, NoDup l1 -> forall l2, NoDup l2 -> (forall x, In x l1 -> In x l2 -> False) -> NoDup (l1 ++ l2)).
    { induction l1 as [|y l1 IH]; intros H1 l2 H2 H3; [exact H2|]. inversion H1; subst. cbn. constructor.
      - rewrite in_app_iff. intros [F|F]; [contradiction|]. apply (H3 y); [left; reflexivity|exact F].
      - apply IH; [assumption|assumption|]. intros x F1 F2. apply (H3 x); [right; exact F1|exact F2]. }
    apply G; [apply IHl, Sl| |].
    - constructor; [rewrite in_addrs; exact Hr|apply IHr, Sr].
    - intros x F1 [->|F2]; rewrite in_addrs in *; [contradiction|]. apply (Hd x F1 F2).
  Qed.
  Lemma depth_length T : (depth T <= length (addrs T))%nat.
  Proof. induction T as [|h a u l IHl r IHr]; [cbn; lia|]. cbn [depth addrs]. rewrite app_length. cbn [length]. lia. Qed.

  Context (st : style) (d : Z).
  Definition fh (c : bool) (lh rh : Z) : Z :=
    match st with Both => if lh >? rh then i8 (lh + 1) else i8 (rh + 1) | One => i8 ((if c then rh else lh) + 1) end.
  Lemma fixup_fh {A B} c (a : A) (u : B) l r : fixup st c a u l r = N (fh c (getHeight l) (getHeight r)) a u l r.
  Proof. unfold fixup, fh, updateHeight, updateHeightOneChild. destruct st; [destruct (getHeight l >? getHeight r)|destruct c]; reflexivity. Qed.
  Lemma fixup_tmap f c a u l r : fixup st c (fst (f a)) (snd (f a)) (tmap f l) (tmap f r) = tmap f (fixup st c a u l r).
  Proof. rewrite !fixup_fh, !height_tmap. reflexivity. Qed.
  Definition pmap f (o : option (atree * bool)) : option (tree K V * bool) := match o with Some (T, b) => Some (tmap f T, b) | None => None end.
  Lemma rebalance_tmap f T : AvlTree.rebalance st d (tmap f T) = pmap f (AvlTree.rebalance st d T).
  Proof.
    destruct T as [|h a u l r]; [reflexivity|]. cbn [tmap]. unfold AvlTree.rebalance. rewrite !height_tmap.
    destruct (d <=? _).
    - destruct l as [|lh b u1 ll lr]; [reflexivity|]. cbn [tmap]. rewrite !height_tmap. destruct (_ >? _).
      + unfold rightRotateWithLeft. destruct lr as [|s c0 u2 sl sr]; [reflexivity|]. cbn [tmap pmap]. rewrite <- !fixup_tmap. reflexivity.
      + unfold rightRotate. cbn [pmap]. rewrite <- !fixup_tmap. reflexivity.
    - destruct (_ <=? _).
      + destruct r as [|rh b u1 rl rr]; [reflexivity|]. cbn [tmap]. rewrite !height_tmap. destruct (_ >? _).
        * unfold leftRotateWithRight. destruct rl as [|s c0 u2 sl sr]; [reflexivity|]. cbn [tmap pmap]. rewrite <- !fixup_tmap. reflexivity.
        * unfold leftRotate. cbn [pmap]. rewrite <- !fixup_tmap. reflexivity.
      + destruct (_ >? _); destruct (_ =? _); reflexivity.
  Qed.
  Lemma child_tmap f e l r : child e (tmap f l) (tmap f r) = tmap f (child e l r). Proof. destruct e; reflexivity. Qed.
  Lemma with_child_tmap f e h a u l r t : with_child e h (fst (f a)) (snd (f a)) (tmap f l) (tmap f r) (tmap f t) = tmap f (with_child e h a u l r t).
  Proof. destruct e; reflexivity. Qed.
  Lemma neighboring_tmap f dir T : AvlTree.neighboring st d dir (tmap f T) =
    match AvlTree.neighboring st d dir T with Some (T', (a, _), b) => Some (tmap f T', f a, b) | None => None end.
  Proof.
    induction T as [|h a u l IHl r IHr]; [reflexivity|]. cbn [tmap AvlTree.neighboring]. rewrite !child_tmap.
    assert (IH : AvlTree.neighboring st d dir (tmap f (child dir l r)) = match AvlTree.neighboring st d dir (child dir l r) with Some (T', (a, _), b) => Some (tmap f T', f a, b) | None => None end)
      by (destruct dir; assumption). clear IHl IHr.
    remember (child dir l r) as x. destruct x as [|xh xa xu xl xr]; [cbn [tmap]; rewrite <- surjective_pairing; reflexivity|].
    cbn [tmap]. change (N xh (fst (f xa)) (snd (f xa)) (tmap f xl) (tmap f xr)) with (tmap f (N xh xa xu xl xr)). rewrite IH.
    destruct (AvlTree.neighboring st d dir (N xh xa xu xl xr)) as [[[T' [ra ?]] b]|]; [|reflexivity].
    rewrite (with_child_tmap f dir h a u). destruct b; [|reflexivity]. rewrite rebalance_tmap. destruct (AvlTree.rebalance st d _) as [[? ?]|]; reflexivity.
  Qed.
End Shapes.

Section Rep.
  Context {K V : Type}.
  Implicit Types m : mem K V.
  Fixpoint rep m (q : option nat) (T : atree) : Prop :=
    match T with
    | E => q = None
    | N h a _ l r => q = Some a /\ Hgt (nodes m a) = h /\ (0 < a < next m)%nat /\ rep m (Kid0 (nodes m a)) l /\ rep m (Kid1 (nodes m a)) r
    end.
  Definition skel (n n' : hnode K V) : Prop := Hgt n' = Hgt n /\ Kid0 n' = Kid0 n /\ Kid1 n' = Kid1 n.
  Lemma rep_frame m m' T : (next m <= next m')%nat -> (forall x, inT x T -> skel (nodes m x) (nodes m' x)) -> forall q, rep m q T -> rep m' q T.
  Proof.
    intros Hn. induction T as [|h a u l IHl r IHr]; intros Hf q H; [exact H|]. cbn [rep inT] in *. destruct H as (Hq & Hh & Ha & Hl & Hr).
    destruct (Hf a (or_introl eq_refl)) as (F1 & F2 & F3). rewrite F1, F2, F3. repeat split; try assumption; try lia; [apply IHl|apply IHr]; try assumption; intros; apply Hf; tauto.
  Qed.
  Lemma rep_in m T : forall q x, rep m q T -> inT x T -> (0 < x < next m)%nat.
  Proof. induction T as [|h a u l IHl r IHr]; intros q x H Hx; [destruct Hx|]. cbn [rep inT] in *. destruct H as (_ & _ & Ha & Hl & Hr). destruct Hx as [->|[Hx|Hx]]; eauto. Qed.
  Lemma rep_height m q T : rep m q T -> heightOf m q = getHeight T.
  Proof. destruct T; cbn [rep]; [intros ->; reflexivity|]. intros (-> & H & _). exact H. Qed.
  Lemma rep_nil m q T : rep m q T -> isNil q = is_nil T.
  Proof. destruct T; cbn [rep]; [intros ->; reflexivity|]. intros (-> & H & _). reflexivity. Qed.
  Lemma depth_next m q T : rep m q T -> sep T -> (depth T < next m \/ T = E)%nat.
  Proof.
    intros H HS. destruct T as [|h a u l r]; [right; reflexivity|]. left. eapply Nat.le_lt_trans; [apply depth_length|].
    assert (NoDup (0%nat :: addrs (N h a u l r))) as ND by (constructor; [rewrite in_addrs; intros F; pose proof (rep_in _ _ _ _ H F); lia|apply nodup_addrs, HS]).
    apply NoDup_incl_length with (l' := seq 0 (next m)) in ND; [rewrite seq_length in ND; cbn [length] in *; lia|].
    intros x [<-|F]; [|rewrite in_addrs in F]; apply in_seq; [destruct H as (_ & _ & F & _); lia|]. pose proof (rep_in _ _ _ _ H F). lia.
  Qed.
  Definition slot m (p : nat) (c : bool) (T : atree) : Prop := rep m (kid (nodes m p) c) T /\ sep T /\ ~ inT p T /\ (p < next m)%nat.
  Record eff m (p : nat) (c : bool) (T : atree) m' (T' : atree) : Prop := Eff {
    e_slot : slot m' p c T';
    e_in : forall x, inT x T' -> inT x T \/ (next m <= x)%nat;
    e_next : (next m <= next m')%nat;
    e_p : exists q, nodes m' p = setKid c q (nodes m p);
    e_out : forall x, (x < next m)%nat -> ~ inT x T -> x <> p -> nodes m' x = nodes m x }.

  Lemma kid_set_same (n : hnode K V) e q : kid (setKid e q n) e = q. Proof. destruct e; reflexivity. Qed.
  Lemma kid_set_other (n : hnode K V) e q : kid (setKid e q n) (negb e) = kid n (negb e). Proof. destruct e; reflexivity. Qed.
  Lemma entry_p m p c T m' T' : eff m p c T m' T' -> forall x, (x < next m)%nat -> ~ inT x T -> entry m' x = entry m x.
  Proof.
    intros H x Hx Hn. unfold entry. destruct (Nat.eq_dec x p) as [->|Hp]; [|rewrite (e_out _ _ _ _ _ _ H x Hx Hn Hp); reflexivity].
    destruct (e_p _ _ _ _ _ _ H) as (q & ->). destruct c; reflexivity.
  Qed.
  Lemma slot_sub m p c h a u l r e : slot m p c (N h a u l r) -> slot m a e (child e l r).
  Proof.
    intros (H & HS & Hp & Hn). cbn [rep sep inT] in *. destruct H as (Hq & Hh & Ha & Hl & Hr), HS as (Sl & Sr & Al & Ar & Hd).
    destruct e; cbn [child kid]; repeat split; try assumption; lia.
  Qed.
  Lemma with_child_in x e h a l r t : inT x (with_child e h a tt l r t) <-> x = a \/ inT x t \/ inT x (child (negb e) l r).
  Proof. destruct e; cbn; tauto. Qed.
  Lemma lift m p c h a u l r e m' x' : slot m p c (N h a u l r) -> eff m a e (child e l r) m' x' -> eff m p c (N h a u l r) m' (with_child e h a u l r x').
  Proof.
    intros HSl [Hs Hin Hnx (q & Hp) Hout]. destruct u. pose proof HSl as (H & HS & Hpn & Hn). cbn [rep sep inT] in H, HS, Hpn. destruct H as (Hq & Hh & Ha & Hl & Hr), HS as (Sl & Sr & Al & Ar & Hd).
    destruct Hs as (Hs1 & Hs2 & Hs3 & Hs4).
    assert (HO : forall x, inT x (child (negb e) l r) -> ~ inT x (child e l r) /\ x <> a /\ (0 < x < next m)%nat).
    { intros x Hx. destruct e; cbn [child negb] in *; (split; [intros F; eapply Hd; eassumption|]); (split; [intros ->; contradiction|]); first [exact (rep_in m l _ x Hl Hx)|exact (rep_in m r _ x Hr Hx)]. }
    assert (HR : rep m' (kid (nodes m' a) (negb e)) (child (negb e) l r)).
    { rewrite Hp, kid_set_other. apply rep_frame with (m := m); [assumption| |].
      - intros x Hx. destruct (HO x Hx) as (F1 & F2 & F3). rewrite Hout by (lia || assumption). repeat split.
      - destruct e; cbn [negb child kid]; assumption. }
    assert (HP : nodes m' p = nodes m p) by (apply Hout; [assumption| |]; destruct e; cbn [child] in *; tauto || (intros ->; tauto)).
    split.
    - unfold slot. rewrite HP, Hq. repeat split.
      + destruct e; cbn [with_child rep negb child kid] in *; rewrite Hp in *; cbn [setKid kid Kid0 Kid1 Hgt] in *; repeat split; try assumption; lia.
      + assert (forall x, inT x x' -> inT x (child (negb e) l r) -> False) as HD.
        { intros x F1 F2. destruct (HO x F2) as (F3 & F4 & F5). destruct (Hin x F1) as [F|F]; [contradiction|lia]. }
        destruct e; cbn [with_child sep negb child] in *; repeat split; try assumption. intros x F1 F2; eapply HD; eassumption.
      + rewrite with_child_in. intros [F|[F|F]]; [subst; tauto| |].
        * destruct (Hin p F) as [G|G]; [|lia]. destruct e; cbn [child] in G; tauto.
        * destruct e; cbn [child negb] in F; tauto.
      + lia.
    - intros x. rewrite with_child_in. cbn [inT]. intros [F|[F|F]]; [tauto| |].
      + destruct (Hin x F) as [G|G]; [|tauto]. destruct e; cbn [child] in G; tauto.
      + destruct e; cbn [child negb] in F; tauto.
    - assumption.
    - exists (kid (nodes m p) c). rewrite HP. destruct (nodes m p), c; reflexivity.
    - intros x F1 F2 F3. cbn [inT] in F2. apply Hout; [assumption| |tauto]. destruct e; cbn [child]; tauto.
  Qed.
  Lemma eff_refl m p c T : slot m p c T -> eff m p c T m T.
  Proof. intros H. split; try tauto; [lia|]. exists (kid (nodes m p) c). destruct (nodes m p), c; reflexivity. Qed.
  Lemma eff_trans m p c T m1 T1 m2 T2 : slot m p c T -> eff m p c T m1 T1 -> eff m1 p c T1 m2 T2 -> eff m p c T m2 T2.
  Proof.
    intros HS [S1 I1 N1 (q1 & P1) O1] [S2 I2 N2 (q2 & P2) O2]. split; [assumption| |lia| |].
    - intros x F. destruct (I2 x F) as [G|G]; [apply I1, G|right; lia].
    - exists q2. rewrite P2, P1. destruct c; reflexivity.
    - intros x F1 F2 F3. rewrite O2; [apply O1; assumption|lia| |assumption]. intros F. destruct (I1 x F) as [G|G]; [contradiction|lia].
  Qed.
End Rep.
