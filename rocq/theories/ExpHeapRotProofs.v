(** experiment.Tree in memory: places in the tree, and rebalancing at a place. *)
From Coq Require Import Permutation.
From Verif Require Import Base Bind Machine AvlTree AvlModel ExpHeapModel ExpHeapProofs.
From Verif Require ExpModel.
Local Open Scope Z_scope.
Notation nd := IndexHeapProofs.nd.

(** following Parent from [a] one comes to [p], passing nothing but nodes that are no longer in the tree *)
Inductive leads (par : nat -> ptr) (dead : nat -> Prop) : nat -> nat -> Prop :=
| leads_now a p : par a = Some p -> leads par dead a p
| leads_via a b p : par a = Some b -> dead b -> leads par dead b p -> leads par dead a p.
Lemma leads_frame (par par' : nat -> ptr) (dead dead' : nat -> Prop) a p : (forall c, dead c -> dead' c /\ par' c = par c) -> par' a = par a ->
  leads par dead a p -> leads par' dead' a p.
Proof.
  intros Hd Ha H. revert Ha. induction H as [a p H|a b p H Hb _ IH]; intros Ha; [apply leads_now; congruence|].
  apply (leads_via _ _ a b); [congruence|apply Hd; exact Hb|apply IH, Hd; exact Hb].
Qed.

Section Shape.
  Context {K V : Type}.
  Implicit Types m : mem K V.
  Notation tree := (tree K V).

  Fixpoint kids m (s : sh) : Prop :=
    match s with L => True | B a l r => Children m a false = pt l /\ Children m a true = pt r /\ kids m l /\ kids m r end.
  Fixpoint ups m (dead : nat -> Prop) (s : sh) (p : nat) : Prop :=
    match s with L => True | B a l r => leads (Parent m) dead a p /\ ups m dead l a /\ ups m dead r a end.
  Fixpoint sized m (s : sh) : Prop :=
    match s with L => True | B a l r => Size m a = sz m (pt l) + sz m (pt r) + 1 /\ sized m l /\ sized m r end.
  (** the tree as ExpModel.v sees it, with the keys and values [kv] *)
  Fixpoint vw (kv : nat -> K * V) m (s : sh) : tree :=
    match s with L => E | B a l r => N (Height m a) (fst (kv a)) (snd (kv a)) (vw kv m l) (vw kv m r) end.

  Lemma pt_in s c : pt s = Some c -> In c (addrs s).
  Proof. destruct s; cbn; [discriminate|]. intros [= ->]. left; reflexivity. Qed.
  Lemma kids_frame m m' s : kids m s -> (forall c, In c (addrs s) -> Children m' c = Children m c) -> kids m' s.
  Proof.
    induction s as [|a l IHl r IHr]; intros H F; [exact Logic.I|]. cbn [kids addrs] in *. destruct H as (H1 & H2 & H3 & H4).
    rewrite (F a) by (left; reflexivity). split; [exact H1|]. split; [exact H2|].
    split; [apply IHl|apply IHr]; try assumption; intros c Hc; apply F; right; apply in_app_iff; [left|right]; exact Hc.
  Qed.
  Lemma ups_frame m m' dead dead' s p : ups m dead s p -> (forall c, In c (addrs s) -> Parent m' c = Parent m c) ->
    (forall c, dead c -> dead' c /\ Parent m' c = Parent m c) -> ups m' dead' s p.
  Proof.
    revert p. induction s as [|a l IHl r IHr]; intros p H F D; [exact Logic.I|]. cbn [ups addrs] in *. destruct H as (H1 & H2 & H3).
    split; [apply (leads_frame (Parent m) _ dead); [exact D|apply F; left; reflexivity|exact H1]|].
    split; [apply IHl|apply IHr]; try assumption; intros c Hc; apply F; right; apply in_app_iff; [left|right]; exact Hc.
  Qed.
  Lemma ups_move m m' dead s p q : ups m dead s p -> NoDup (addrs s) -> (forall c, pt s = Some c -> leads (Parent m') dead c q) ->
    (forall c, In c (addrs s) -> pt s <> Some c -> Parent m' c = Parent m c) -> (forall c, dead c -> Parent m' c = Parent m c) -> ups m' dead s q.
  Proof.
    destruct s as [|a l r]; intros H N Hq F D; [exact Logic.I|]. cbn [ups addrs pt] in *. destruct H as (H1 & H2 & H3).
    apply NoDup_cons_iff in N as [N _]. rewrite in_app_iff in N.
    split; [apply Hq; reflexivity|]. split; (eapply ups_frame; [eassumption| |intros c Hc; split; [exact Hc|exact (D c Hc)]]);
      intros c Hc; apply F; try (right; apply in_app_iff; tauto); intros [= <-]; tauto.
  Qed.
  Lemma vw_frame kv kv' m m' s : (forall c, In c (addrs s) -> Height m' c = Height m c /\ kv' c = kv c) -> vw kv' m' s = vw kv m s.
  Proof.
    induction s as [|a l IHl r IHr]; intros F; [reflexivity|]. cbn [vw addrs] in *. destruct (F a) as [-> ->]; [left; reflexivity|].
    rewrite IHl, IHr by (intros c Hc; apply F; right; apply in_app_iff; tauto). reflexivity.
  Qed.
  Lemma sized_frame m m' s : sized m s -> (forall c, In c (addrs s) -> Size m' c = Size m c) -> sized m' s /\ sz m' (pt s) = sz m (pt s).
  Proof.
    induction s as [|a l IHl r IHr]; intros H F; [split; reflexivity|]. cbn [sized addrs pt sz] in *. destruct H as (H1 & H2 & H3).
    destruct IHl as [L1 L2]; [exact H2|intros c Hc; apply F; right; apply in_app_iff; tauto|].
    destruct IHr as [R1 R2]; [exact H3|intros c Hc; apply F; right; apply in_app_iff; tauto|].
    rewrite L2, R2, (F a) by (left; reflexivity). tauto.
  Qed.
  Lemma uhN (k : K) (v : V) (l r : tree) : AvlTree.updateHeight k v l r = N (hmax (AvlTree.getHeight l) (AvlTree.getHeight r)) k v l r.
  Proof. unfold AvlTree.updateHeight, hmax. destruct (_ >? _); reflexivity. Qed.
  Lemma ht_vw kv m s : AvlTree.getHeight (vw kv m s) = ht m (pt s).
  Proof. destruct s; reflexivity. Qed.

  (** child [d] of [p] is the tree [s]; nodes in [dead] were taken out earlier *)
  Record place m (dead : nat -> Prop) (p : nat) (d : bool) (s : sh) : Prop := {
    pl_pt : Children m p d = pt s; pl_kids : kids m s; pl_ups : ups m dead s p;
    pl_nd : NoDup (p :: addrs s); pl_lt : forall c, In c (p :: addrs s) -> (c < next m)%nat;
    pl_dead : forall c, dead c -> (c < next m)%nat /\ ~ In c (p :: addrs s) }.
  (** what a call that works at such a place leaves alone; Size is another matter *)
  Record eff m m' (p : nat) (d : bool) (s : sh) : Prop := {
    f_par : forall c, (c < next m)%nat -> ~ In c (addrs s) -> Parent m' c = Parent m c;
    f_hkv : forall c, (c < next m)%nat -> ~ In c (addrs s) -> Height m' c = Height m c /\ Key m' c = Key m c /\ Value m' c = Value m c;
    f_kid : forall c, (c < next m)%nat -> ~ In c (addrs s) -> c <> p -> Children m' c = Children m c;
    f_oth : Children m' p (negb d) = Children m p (negb d);
    f_next : (next m <= next m')%nat }.

  Lemma nd5 (p a b : nat) (x y z : list nat) : NoDup (p :: a :: b :: x ++ y ++ z) ->
    a <> p /\ b <> p /\ a <> b /\ (forall c, In c x -> c <> p /\ c <> a /\ c <> b /\ ~ In c y /\ ~ In c z) /\
    (forall c, In c y -> c <> p /\ c <> a /\ c <> b /\ ~ In c x /\ ~ In c z) /\ (forall c, In c z -> c <> p /\ c <> a /\ c <> b /\ ~ In c x /\ ~ In c y) /\ NoDup x /\ NoDup y /\ NoDup z.
  Proof.
    rewrite !NoDup_cons_iff, !IndexHeapProofs.nodup_app. cbn [In]. rewrite !in_app_iff. intros (H1 & H2 & H3 & H4 & (H5 & H6 & H7) & H8).
    assert (Hx : forall c, In c x -> ~ (In c y \/ In c z)) by (intros c Hc; specialize (H8 c Hc); rewrite in_app_iff in H8; exact H8).
    split; [intros ->; tauto|]. split; [intros ->; tauto|]. split; [intros ->; tauto|].
    split; [intros c Hc; specialize (Hx c Hc); repeat split; try (intros ->); tauto|].
    split; [intros c Hc; specialize (H7 c Hc); specialize (Hx c); repeat split; try (intros ->); tauto|].
    split; [intros c Hc; specialize (H7 c); specialize (Hx c); repeat split; try (intros ->); tauto|]. tauto.
  Qed.
  Lemma kids_nd m a e x y : kids m (nd a e x y) <-> Children m a e = pt x /\ Children m a (negb e) = pt y /\ kids m x /\ kids m y.
  Proof. destruct e; cbn; tauto. Qed.
  Lemma ups_nd m dead a e x y p : ups m dead (nd a e x y) p <-> leads (Parent m) dead a p /\ ups m dead x a /\ ups m dead y a.
  Proof. destruct e; cbn; tauto. Qed.
  Lemma sized_nd m a e x y : sized m (nd a e x y) <-> Size m a = sz m (pt x) + sz m (pt y) + 1 /\ sized m x /\ sized m y.
  Proof. destruct e; cbn; [rewrite (Z.add_comm (sz m (pt y)))|]; tauto. Qed.
  Lemma pt_nd a e x y : pt (nd a e x y) = Some a.
  Proof. destruct e; reflexivity. Qed.
  Lemma addrs_nd a e x y : Permutation (addrs (nd a e x y)) (a :: addrs x ++ addrs y).
  Proof. apply IndexHeapProofs.addrs_nd. Qed.
  Lemma perm_rot a b e x y z : Permutation (addrs (nd a e (nd b e x y) z)) (a :: b :: addrs x ++ addrs y ++ addrs z).
  Proof. rewrite addrs_nd, addrs_nd. cbn [app]. rewrite <- app_assoc. reflexivity. Qed.
  Lemma perm_rot' a b e x y z : Permutation (addrs (nd b e x (nd a e y z))) (a :: b :: addrs x ++ addrs y ++ addrs z).
  Proof. rewrite addrs_nd, addrs_nd. rewrite <- Permutation_middle. apply perm_swap. Qed.

  (** places with the same nodes *)
  Lemma place_perm m m' dead p d s s' : place m dead p d s -> Permutation (addrs s') (addrs s) -> next m' = next m ->
    Children m' p d = pt s' -> kids m' s' -> ups m' dead s' p -> place m' dead p d s'.
  Proof.
    intros [P1 P2 P3 P4 P5 P6] HP HN Q1 Q2 Q3. assert (HP' : Permutation (p :: addrs s) (p :: addrs s')) by (apply perm_skip; symmetry; exact HP).
    constructor; try assumption.
    - eapply Permutation_NoDup; [exact HP'|exact P4].
    - intros c Hc. rewrite HN. apply P5. eapply Permutation_in; [symmetry; exact HP'|exact Hc].
    - intros c Hc. rewrite HN. destruct (P6 c Hc) as [D1 D2]. split; [exact D1|]. intros H. apply D2. eapply Permutation_in; [symmetry; exact HP'|exact H].
  Qed.

  Lemma rotate_place e m dead p d a b x y z : place m dead p d (nd a e (nd b e x y) z) ->
    exists m', rotate e (Some p) d m = Ret tt m' /\ place m' dead p d (nd b e x (nd a e y z)) /\ eff m m' p d (nd a e (nd b e x y) z) /\
      next m' = next m /\ Key m' = Key m /\ Value m' = Value m /\
      (forall kv, (if e then leftRotate Both (vw kv m (nd a e (nd b e x y) z)) else rightRotate Both (vw kv m (nd a e (nd b e x y) z))) = Some (vw kv m' (nd b e x (nd a e y z)))) /\
      (forall c, ~ In c (addrs (nd a e (nd b e x y) z)) -> Size m' c = Size m c) /\
      (sized m (nd a e (nd b e x y) z) -> sized m' (nd b e x (nd a e y z)) /\ Size m' b = Size m a).
  Proof.
    intros H. pose proof H as [P1 P2 P3 P4 P5 P6].
    assert (N : NoDup (p :: a :: b :: addrs x ++ addrs y ++ addrs z)) by (eapply Permutation_NoDup; [apply perm_skip, perm_rot|exact P4]).
    apply nd5 in N as (N1 & N2 & N3 & Nx & Ny & Nz & NDx & NDy & NDz).
    rewrite pt_nd in P1. rewrite !kids_nd, pt_nd in P2. rewrite !ups_nd in P3. destruct P2 as (K1 & K2 & (K3 & K4 & K5 & K6) & K7). destruct P3 as (U1 & (U2 & U3 & U4) & U5).
    assert (Xx : forall c, pt x = Some c -> c <> p /\ c <> a /\ c <> b) by (intros c Hc; apply pt_in in Hc; specialize (Nx c Hc); tauto).
    assert (Xy : forall c, pt y = Some c -> c <> p /\ c <> a /\ c <> b) by (intros c Hc; apply pt_in in Hc; specialize (Ny c Hc); tauto).
    assert (Xz : forall c, pt z = Some c -> c <> p /\ c <> a /\ c <> b) by (intros c Hc; apply pt_in in Hc; specialize (Nz c Hc); tauto).
    destruct (rotate_run e m p d a b _ _ _ P1 K1 K2 K3 K4 N1 N2 N3) as (m' & R & RR);
      try (intros HH; first [apply Xx in HH|apply Xy in HH|apply Xz in HH]; tauto).
    destruct RR. exists m'. split; [exact R|].
    assert (Hd : forall c, dead c -> Parent m' c = Parent m c).
    { intros c Hc. destruct (P6 c Hc) as [_ Hc']. rewrite perm_rot in Hc'. cbn [In] in Hc'. rewrite !in_app_iff in Hc'. apply r_P; [intros ->; tauto|intros ->; tauto|].
      intros HH. apply pt_in in HH. tauto. }
    assert (Hvx : forall kv, vw kv m' x = vw kv m x) by (intros kv; apply vw_frame; intros c Hc; specialize (Nx c Hc); split; [apply r_h; tauto|reflexivity]).
    assert (Hvy : forall kv, vw kv m' y = vw kv m y) by (intros kv; apply vw_frame; intros c Hc; specialize (Ny c Hc); split; [apply r_h; tauto|reflexivity]).
    assert (Hvz : forall kv, vw kv m' z = vw kv m z) by (intros kv; apply vw_frame; intros c Hc; specialize (Nz c Hc); split; [apply r_h; tauto|reflexivity]).
    split; [|split; [|split; [|split; [|split; [|split; [|split]]]]]]; try assumption.
    - apply (place_perm m m' dead p d (nd a e (nd b e x y) z)); try assumption; [rewrite perm_rot, perm_rot'; reflexivity|rewrite pt_nd; exact r_p| |].
      + rewrite !kids_nd, pt_nd. split; [exact r_b|]. split; [exact r_b'|]. split; [|split; [exact r_a|split; [exact r_a'|split]]];
          (eapply kids_frame; [eassumption|intros c Hc; apply r_kid]); first [specialize (Nx c Hc)|specialize (Ny c Hc)|specialize (Nz c Hc)]; tauto.
      + rewrite !ups_nd. split; [apply leads_now; exact r_Pb|]. split; [|split; [apply leads_now; exact r_Pa|split]].
        * eapply ups_frame; [exact U3| |intros c Hc; split; [exact Hc|exact (Hd c Hc)]]. intros c Hc. specialize (Nx c Hc). apply r_P; try tauto. intros HH. apply pt_in in HH. tauto.
        * apply (ups_move m m' dead y b a); try assumption; [intros c Hc; apply leads_now, r_Py; exact Hc|]. intros c Hc Hne. specialize (Ny c Hc). apply r_P; tauto.
        * eapply ups_frame; [exact U5| |intros c Hc; split; [exact Hc|exact (Hd c Hc)]]. intros c Hc. specialize (Nz c Hc). apply r_P; try tauto. intros HH. apply pt_in in HH. tauto.
    - constructor; try (rewrite r_next; lia); try assumption; intros c Hlt; rewrite perm_rot; cbn [In]; rewrite !in_app_iff; intros Hc.
      + apply r_P; [intros ->; tauto|intros ->; tauto|]. intros HH. apply pt_in in HH. tauto.
      + rewrite r_key, r_val. split; [apply r_h; intros ->; tauto|split; reflexivity].
      + intros Hp. apply r_kid; [exact Hp|intros ->; tauto|intros ->; tauto].
    - intros kv. destruct e; cbn [nd vw leftRotate rightRotate fixup] in *; rewrite !uhN; cbn [AvlTree.getHeight]; rewrite ?Hvx, ?Hvy, ?Hvz, !ht_vw, r_hb, r_ha; reflexivity.
    - intros c. rewrite perm_rot; cbn [In]; rewrite !in_app_iff; intros Hc. apply r_s; intros ->; tauto.
    - rewrite !sized_nd, !pt_nd. cbn [sz]. intros (S1 & (S2 & S3 & S4) & S5).
      destruct (sized_frame m m' x S3) as [X1 X2]; [intros c Hc; specialize (Nx c Hc); apply r_s; tauto|].
      destruct (sized_frame m m' y S4) as [Y1 Y2]; [intros c Hc; specialize (Ny c Hc); apply r_s; tauto|].
      destruct (sized_frame m m' z S5) as [Z1 Z2]; [intros c Hc; specialize (Nz c Hc); apply r_s; tauto|].
      rewrite X2, Y2, Z2. split; [|lia]. repeat split; try assumption; lia.
  Qed.

  Lemma nd7 (p a b g : nat) (x y0 y1 z : list nat) : NoDup (p :: a :: b :: g :: x ++ y0 ++ y1 ++ z) ->
    a <> p /\ b <> p /\ g <> p /\ a <> b /\ a <> g /\ b <> g /\
    (forall c, In c x -> c <> p /\ c <> a /\ c <> b /\ c <> g /\ ~ In c y0 /\ ~ In c y1 /\ ~ In c z) /\
    (forall c, In c y0 -> c <> p /\ c <> a /\ c <> b /\ c <> g /\ ~ In c x /\ ~ In c y1 /\ ~ In c z) /\
    (forall c, In c y1 -> c <> p /\ c <> a /\ c <> b /\ c <> g /\ ~ In c x /\ ~ In c y0 /\ ~ In c z) /\
    (forall c, In c z -> c <> p /\ c <> a /\ c <> b /\ c <> g /\ ~ In c x /\ ~ In c y0 /\ ~ In c y1) /\ NoDup x /\ NoDup y0 /\ NoDup y1 /\ NoDup z.
  Proof.
    rewrite NoDup_cons_iff. intros [H0 H1]. pose proof H1 as H2. apply NoDup_cons_iff in H1 as [H1 H3].
    rewrite (app_assoc y0) in H2. apply nd5 in H2 as (A1 & A2 & A3 & A4 & A5 & A6 & A7 & A8 & A9). apply IndexHeapProofs.nodup_app in A8 as (B1 & B2 & B3).
    cbn [In] in H0, H1. rewrite !in_app_iff in H0, H1.
    assert (forall c, In c x -> c <> b /\ c <> g /\ c <> a /\ ~ In c y0 /\ ~ In c y1 /\ ~ In c z) by (intros c Hc; specialize (A4 c Hc); rewrite in_app_iff in A4; tauto).
    assert (forall c, In c y0 -> c <> b /\ c <> g /\ c <> a /\ ~ In c x /\ ~ In c y1 /\ ~ In c z) by (intros c Hc; specialize (A5 c); specialize (B3 c Hc); rewrite in_app_iff in A5; tauto).
    assert (forall c, In c y1 -> c <> b /\ c <> g /\ c <> a /\ ~ In c x /\ ~ In c y0 /\ ~ In c z) by (intros c Hc; specialize (A5 c); specialize (B3 c); rewrite in_app_iff in A5; tauto).
    assert (forall c, In c z -> c <> b /\ c <> g /\ c <> a /\ ~ In c x /\ ~ In c y0 /\ ~ In c y1) by (intros c Hc; specialize (A6 c Hc); rewrite in_app_iff in A6; tauto).
    split; [intros ->; tauto|]. split; [intros ->; tauto|]. split; [intros ->; tauto|]. split; [congruence|]. split; [congruence|]. split; [congruence|].
    repeat (split; [intros c Hc; match goal with Q : _ |- _ => specialize (Q c Hc) end; split; [intros ->; tauto|tauto]|]). tauto.
  Qed.
  Lemma perm_rot2 a b g e x y0 y1 z : Permutation (addrs (nd a e (nd b e x (nd g e y1 y0)) z)) (a :: b :: g :: addrs x ++ addrs y0 ++ addrs y1 ++ addrs z).
  Proof.
    rewrite addrs_nd. cbn [app]. apply perm_skip. rewrite addrs_nd. cbn [app]. apply perm_skip. rewrite <- app_assoc.
    transitivity (addrs x ++ (g :: addrs y1 ++ addrs y0) ++ addrs z); [apply Permutation_app_head, Permutation_app_tail, addrs_nd|].
    cbn [app]. rewrite <- Permutation_middle. apply perm_skip. apply Permutation_app_head. rewrite !app_assoc. apply Permutation_app_tail, Permutation_app_comm.
  Qed.
  Lemma perm_rot2' a b g e x y0 y1 z : Permutation (addrs (nd g e (nd b e x y1) (nd a e y0 z))) (a :: b :: g :: addrs x ++ addrs y0 ++ addrs y1 ++ addrs z).
  Proof.
    rewrite addrs_nd, addrs_nd, addrs_nd. cbn [app].
    transitivity (g :: b :: a :: (addrs x ++ addrs y1) ++ addrs y0 ++ addrs z); [do 2 apply perm_skip; symmetry; apply Permutation_middle|].
    transitivity (a :: b :: g :: (addrs x ++ addrs y1) ++ addrs y0 ++ addrs z).
    - transitivity (b :: g :: a :: (addrs x ++ addrs y1) ++ addrs y0 ++ addrs z); [apply perm_swap|].
      transitivity (b :: a :: g :: (addrs x ++ addrs y1) ++ addrs y0 ++ addrs z); [apply perm_skip, perm_swap|apply perm_swap].
    - do 3 apply perm_skip. rewrite <- app_assoc. apply Permutation_app_head. rewrite !app_assoc. apply Permutation_app_tail, Permutation_app_comm.
  Qed.

  Lemma rotate2_place e m dead p d a b g x y0 y1 z : let s := nd a e (nd b e x (nd g e y1 y0)) z in let s' := nd g e (nd b e x y1) (nd a e y0 z) in
    place m dead p d s ->
    exists m', rotate2 e (Some p) d m = Ret tt m' /\ place m' dead p d s' /\ eff m m' p d s /\
      next m' = next m /\ Key m' = Key m /\ Value m' = Value m /\
      (forall kv, (if e then leftRotateWithRight Both (vw kv m s) else rightRotateWithLeft Both (vw kv m s)) = Some (vw kv m' s')) /\
      (forall c, ~ In c (addrs s) -> Size m' c = Size m c) /\
      (sized m s -> sized m' s' /\ Size m' g = Size m a).
  Proof.
    intros s s' H. pose proof H as [P1 P2 P3 P4 P5 P6]. subst s s'.
    assert (N : NoDup (p :: a :: b :: g :: addrs x ++ addrs y0 ++ addrs y1 ++ addrs z)) by (eapply Permutation_NoDup; [apply perm_skip, perm_rot2|exact P4]).
    apply nd7 in N as (N1 & N2 & N3 & N4 & N5 & N6 & Nx & Ny0 & Ny1 & Nz & NDx & NDy0 & NDy1 & NDz).
    rewrite pt_nd in P1. rewrite !kids_nd, !pt_nd in P2. rewrite !ups_nd in P3.
    destruct P2 as (K1 & K2 & (K3 & K4 & K5 & (K6 & K7 & K8 & K9)) & K10). destruct P3 as (U1 & (U2 & U3 & (U4 & U5 & U6)) & U7).
    assert (Xx : forall c, pt x = Some c -> c <> p /\ c <> a /\ c <> b /\ c <> g) by (intros c Hc; apply pt_in in Hc; specialize (Nx c Hc); tauto).
    assert (X0 : forall c, pt y0 = Some c -> c <> p /\ c <> a /\ c <> b /\ c <> g) by (intros c Hc; apply pt_in in Hc; specialize (Ny0 c Hc); tauto).
    assert (X1 : forall c, pt y1 = Some c -> c <> p /\ c <> a /\ c <> b /\ c <> g) by (intros c Hc; apply pt_in in Hc; specialize (Ny1 c Hc); tauto).
    assert (Xz : forall c, pt z = Some c -> c <> p /\ c <> a /\ c <> b /\ c <> g) by (intros c Hc; apply pt_in in Hc; specialize (Nz c Hc); tauto).
    destruct (rotate2_run e m p d a b g _ _ _ _ P1 K1 K2 K3 K4 K7 K6 N1 N2 N3 N4 N5 N6) as (m' & R & RR);
      try (intros HH; first [apply Xx in HH|apply X0 in HH|apply X1 in HH|apply Xz in HH]; tauto).
    { intros c Hc Hc'. apply pt_in in Hc, Hc'. specialize (Ny0 c Hc). tauto. }
    destruct RR. exists m'. split; [exact R|].
    assert (Hd : forall c, dead c -> Parent m' c = Parent m c).
    { intros c Hc. destruct (P6 c Hc) as [_ Hc']. rewrite perm_rot2 in Hc'. cbn [In] in Hc'. rewrite !in_app_iff in Hc'. apply t_P; try (intros ->; tauto); intros HH; apply pt_in in HH; tauto. }
    assert (Hvx : forall kv, vw kv m' x = vw kv m x) by (intros kv; apply vw_frame; intros c Hc; specialize (Nx c Hc); split; [apply t_h; tauto|reflexivity]).
    assert (Hv0 : forall kv, vw kv m' y0 = vw kv m y0) by (intros kv; apply vw_frame; intros c Hc; specialize (Ny0 c Hc); split; [apply t_h; tauto|reflexivity]).
    assert (Hv1 : forall kv, vw kv m' y1 = vw kv m y1) by (intros kv; apply vw_frame; intros c Hc; specialize (Ny1 c Hc); split; [apply t_h; tauto|reflexivity]).
    assert (Hvz : forall kv, vw kv m' z = vw kv m z) by (intros kv; apply vw_frame; intros c Hc; specialize (Nz c Hc); split; [apply t_h; tauto|reflexivity]).
    split; [|split; [|split; [|split; [|split; [|split; [|split]]]]]]; try assumption.
    - apply (place_perm m m' dead p d (nd a e (nd b e x (nd g e y1 y0)) z)); try assumption; [rewrite perm_rot2, perm_rot2'; reflexivity|rewrite pt_nd; exact t_p| |].
      + rewrite !kids_nd, !pt_nd.
        assert (kids m' x) by (eapply kids_frame; [eassumption|intros c Hc; specialize (Nx c Hc); apply t_kid; tauto]).
        assert (kids m' y0) by (eapply kids_frame; [eassumption|intros c Hc; specialize (Ny0 c Hc); apply t_kid; tauto]).
        assert (kids m' y1) by (eapply kids_frame; [eassumption|intros c Hc; specialize (Ny1 c Hc); apply t_kid; tauto]).
        assert (kids m' z) by (eapply kids_frame; [eassumption|intros c Hc; specialize (Nz c Hc); apply t_kid; tauto]). tauto.
      + rewrite !ups_nd.
        assert (leads (Parent m') dead g p) by (apply leads_now; exact t_Pg). assert (leads (Parent m') dead b g) by (apply leads_now; exact t_Pb).
        assert (leads (Parent m') dead a g) by (apply leads_now; exact t_Pa).
        assert (ups m' dead x b) by (eapply ups_frame; [exact U3| |intros c Hc; split; [exact Hc|exact (Hd c Hc)]]; intros c Hc; specialize (Nx c Hc); apply t_P; try tauto; intros HH; apply pt_in in HH; tauto).
        assert (ups m' dead z a) by (eapply ups_frame; [exact U7| |intros c Hc; split; [exact Hc|exact (Hd c Hc)]]; intros c Hc; specialize (Nz c Hc); apply t_P; try tauto; intros HH; apply pt_in in HH; tauto).
        assert (ups m' dead y0 a) by (apply (ups_move m m' dead y0 g a); try assumption; [intros c Hc; apply leads_now, t_P0; exact Hc|]; intros c Hc Hne; specialize (Ny0 c Hc); apply t_P; try tauto; intros HH; apply pt_in in HH; tauto).
        assert (ups m' dead y1 b) by (apply (ups_move m m' dead y1 g b); try assumption; [intros c Hc; apply leads_now, t_P1; exact Hc|]; intros c Hc Hne; specialize (Ny1 c Hc); apply t_P; try tauto; intros HH; apply pt_in in HH; tauto).
        tauto.
    - constructor; try (rewrite t_next; lia); try assumption; intros c Hlt; rewrite perm_rot2; cbn [In]; rewrite !in_app_iff; intros Hc.
      + apply t_P; try (intros ->; tauto); intros HH; apply pt_in in HH; tauto.
      + rewrite t_key, t_val. split; [apply t_h; intros ->; tauto|split; reflexivity].
      + intros Hp. apply t_kid; [exact Hp|intros ->; tauto|intros ->; tauto|intros ->; tauto].
    - intros kv. destruct e; cbn [nd vw leftRotateWithRight rightRotateWithLeft fixup] in *; rewrite !uhN; cbn [AvlTree.getHeight]; rewrite ?Hvx, ?Hv0, ?Hv1, ?Hvz, !ht_vw, t_hg, t_hb, t_ha; reflexivity.
    - intros c. rewrite perm_rot2; cbn [In]; rewrite !in_app_iff; intros Hc. apply t_s; intros ->; tauto.
    - rewrite !sized_nd, !pt_nd. cbn [sz]. intros (S1 & (S2 & S3 & S4 & S5 & S6) & S7).
      destruct (sized_frame m m' x S3) as [A1 A2]; [intros c Hc; specialize (Nx c Hc); apply t_s; tauto|].
      destruct (sized_frame m m' y0 S6) as [B1 B2]; [intros c Hc; specialize (Ny0 c Hc); apply t_s; tauto|].
      destruct (sized_frame m m' y1 S5) as [C1 C2]; [intros c Hc; specialize (Ny1 c Hc); apply t_s; tauto|].
      destruct (sized_frame m m' z S7) as [D1 D2]; [intros c Hc; specialize (Nz c Hc); apply t_s; tauto|].
      rewrite A2, B2, C2, D2. split; [|lia]. repeat split; try assumption; lia.
  Qed.
End Shape.
