(** experiment.Tree in memory: the statements of ExpHeapModel.v do to nodes what the functions of ExpModel.v do to trees. *)
From Coq Require Import Permutation.
From Verif Require Import Base Bind Machine AvlTree AvlModel ExpHeapModel.
From Verif Require IndexHeapProofs ExpModel.
Local Open Scope Z_scope.
Notation sh := IndexHeapProofs.sh.
Notation L := IndexHeapProofs.L.
Notation B := IndexHeapProofs.B.
Notation pt := IndexHeapProofs.pt.
Notation addrs := IndexHeapProofs.addrs.
Notation upd_eq := IndexHeapProofs.upd_eq.
Notation upd_ne := IndexHeapProofs.upd_ne.

Section Run.
  Context {K V : Type}.
  Implicit Types m : mem K V.
  Definition ht m (q : ptr) : Z := match q with None => 0 | Some a => Height m a end.
  Definition sz m (q : ptr) : Z := match q with None => 0 | Some a => Size m a end.
  Definition hmax (lh rh : Z) : Z := if lh >? rh then i8 (lh + 1) else i8 (rh + 1).
  Definition optParent (x q : ptr) m : mem K V := match x with None => m | Some a => setParent q a m end.
  Lemma getHeight_run q m : getHeight q m = Ret (ht m q) m.
  Proof. destruct q; reflexivity. Qed.
  Lemma getSize_run q m : getSize q m = Ret (sz m q) m.
  Proof. destruct q; reflexivity. Qed.
  Lemma updateHeight_run a m : updateHeight (Some a) m = Ret tt (setHeight (hmax (ht m (Children m a false)) (ht m (Children m a true))) a m).
  Proof. unfold updateHeight, bind, rdKid, rd. rewrite getHeight_run, getHeight_run. unfold hmax. destruct (_ >? _); reflexivity. Qed.
  Lemma updateSize_run a m : updateSize (Some a) m = Ret tt (setSize (sz m (Children m a false) + sz m (Children m a true) + 1) a m).
  Proof. unfold updateSize, bind, rdKid, rd. rewrite getSize_run, getSize_run. reflexivity. Qed.
  Lemma optParent_run x q m : (if nonNil x then wr (setParent q) x else ret tt) m = Ret tt (optParent x q m).
  Proof. destruct x; reflexivity. Qed.
  Lemma bind_ret {X Y} (e : M K V X) (f : X -> M K V Y) m x m' : e m = Ret x m' -> bind e f m = f x m'.
  Proof. intros H. unfold bind. rewrite H. reflexivity. Qed.
  Lemma rdKid_run a e m : rdKid (Some a) e m = Ret (Children m a e) m.
  Proof. reflexivity. Qed.
  Lemma wr_run f a m : wr f (Some a) m = Ret tt (f a m).
  Proof. reflexivity. Qed.
  Lemma Parent_opt x q m c : Parent (optParent x q m) c = if IndexHeapModel.eqp x (Some c) then q else Parent m c.
  Proof. destruct x as [a|]; [|reflexivity]. cbn. unfold upd. rewrite (Nat.eqb_sym c a). reflexivity. Qed.
  Lemma Children_opt x q m : Children (optParent x q m) = Children m.
  Proof. destruct x; reflexivity. Qed.
  Lemma Height_opt x q m : Height (optParent x q m) = Height m.
  Proof. destruct x; reflexivity. Qed.
  Lemma Size_opt x q m : Size (optParent x q m) = Size m.
  Proof. destruct x; reflexivity. Qed.
  Lemma Key_opt x q m : Key (optParent x q m) = Key m.
  Proof. destruct x; reflexivity. Qed.
  Lemma Value_opt x q m : Value (optParent x q m) = Value m.
  Proof. destruct x; reflexivity. Qed.
  Lemma next_opt x q m : next (optParent x q m) = next m.
  Proof. destruct x; reflexivity. Qed.
  Lemma eqp_some a b : IndexHeapModel.eqp (Some a) (Some b) = Nat.eqb a b.
  Proof. reflexivity. Qed.

  (** what the single rotation of [a] with its child [b] in direction [e] does, [y] being the grandchild that moves *)
  Record rotated m m' (e : bool) (p : nat) (d : bool) (a b : nat) (x y z : ptr) : Prop := {
    r_kid : forall c, c <> p -> c <> a -> c <> b -> Children m' c = Children m c;
    r_p : Children m' p d = Some b; r_p' : Children m' p (negb d) = Children m p (negb d);
    r_a : Children m' a e = y; r_a' : Children m' a (negb e) = z;
    r_b : Children m' b e = x; r_b' : Children m' b (negb e) = Some a;
    r_Pb : Parent m' b = Some p; r_Pa : Parent m' a = Some b; r_Py : forall c, y = Some c -> Parent m' c = Some a;
    r_P : forall c, c <> a -> c <> b -> y <> Some c -> Parent m' c = Parent m c;
    r_h : forall c, c <> a -> c <> b -> Height m' c = Height m c;
    r_ha : Height m' a = if e then hmax (ht m z) (ht m y) else hmax (ht m y) (ht m z);
    r_hb : Height m' b = if e then hmax (Height m' a) (ht m x) else hmax (ht m x) (Height m' a);
    r_s : forall c, c <> a -> c <> b -> Size m' c = Size m c;
    r_sa : Size m' a = sz m y + sz m z + 1; r_sb : Size m' b = sz m x + Size m' a + 1;
    r_key : Key m' = Key m; r_val : Value m' = Value m; r_next : next m' = next m }.

  Lemma ht_eq m m' q : (forall a, q = Some a -> Height m' a = Height m a) -> ht m' q = ht m q.
  Proof. destruct q as [a|]; [intros H; exact (H a eq_refl)|reflexivity]. Qed.
  Lemma sz_eq m m' q : (forall a, q = Some a -> Size m' a = Size m a) -> sz m' q = sz m q.
  Proof. destruct q as [a|]; [intros H; exact (H a eq_refl)|reflexivity]. Qed.

  Ltac step := first [rewrite (bind_ret _ _ _ _ _ (rdKid_run _ _ _)) | rewrite (bind_ret _ _ _ _ _ (wr_run _ _ _))
    | rewrite (bind_ret _ _ _ _ _ (optParent_run _ _ _)) | rewrite (bind_ret _ _ _ _ _ (updateHeight_run _ _)) | rewrite (bind_ret _ _ _ _ _ (updateSize_run _ _)) | rewrite updateSize_run].
  Ltac sm := repeat progress (cbn [setKid setParent setHeight setSize Parent Children Height Size Key Value next Bool.eqb negb];
    rewrite ?Children_opt, ?Height_opt, ?Size_opt, ?Key_opt, ?Value_opt, ?next_opt, ?Parent_opt, ?upd_eq; repeat (rewrite upd_ne by congruence)).

  Ltac pe := repeat progress (sm; rewrite ?IndexHeapProofs.eqp_refl; repeat (rewrite IndexHeapProofs.eqp_ne by congruence)).

  Lemma uh m a : exists m', (forall Y (f : unit -> M K V Y), bind (updateHeight (Some a)) f m = f tt m') /\ Children m' = Children m /\ Parent m' = Parent m /\ Key m' = Key m /\ Value m' = Value m /\ next m' = next m /\ Size m' = Size m /\
    Height m' = upd (Height m) a (hmax (ht m (Children m a false)) (ht m (Children m a true))).
  Proof. eexists. split; [intros Y f; rewrite (bind_ret _ _ _ _ _ (updateHeight_run _ _)); reflexivity|]. repeat split. Qed.
  Lemma us m a : exists m', updateSize (Some a) m = Ret tt m' /\ Children m' = Children m /\ Parent m' = Parent m /\ Key m' = Key m /\ Value m' = Value m /\ next m' = next m /\ Height m' = Height m /\
    Size m' = upd (Size m) a (sz m (Children m a false) + sz m (Children m a true) + 1).
  Proof. eexists. split; [apply updateSize_run|]. repeat split. Qed.
  Lemma ht_upd m m' a z q : Height m' = upd (Height m) a z -> q <> Some a -> ht m' q = ht m q.
  Proof. intros H Hq. destruct q as [c|]; [|reflexivity]. cbn. rewrite H. apply upd_ne. congruence. Qed.
  Lemma sz_upd m m' a z q : Size m' = upd (Size m) a z -> q <> Some a -> sz m' q = sz m q.
  Proof. intros H Hq. destruct q as [c|]; [|reflexivity]. cbn. rewrite H. apply upd_ne. congruence. Qed.
  Lemma ht_same m m' q : Height m' = Height m -> ht m' q = ht m q.
  Proof. intros H. destruct q; [|reflexivity]. cbn. rewrite H. reflexivity. Qed.
  Lemma sz_same m m' q : Size m' = Size m -> sz m' q = sz m q.
  Proof. intros H. destruct q; [|reflexivity]. cbn. rewrite H. reflexivity. Qed.

  (** the two height updates and the two size updates at the end of a rotation *)
  Lemma update2 m a b : a <> b -> (forall e, Children m a e <> Some a /\ Children m a e <> Some b /\ Children m b e <> Some b) ->
    exists m', (updateHeight (Some a) ;@ updateHeight (Some b) ;@ updateSize (Some a) ;@ updateSize (Some b)) m = Ret tt m' /\
      Children m' = Children m /\ Parent m' = Parent m /\ Key m' = Key m /\ Value m' = Value m /\ next m' = next m /\
      (forall c, c <> a -> c <> b -> Height m' c = Height m c /\ Size m' c = Size m c) /\
      Height m' a = hmax (ht m (Children m a false)) (ht m (Children m a true)) /\
      Height m' b = hmax (ht m' (Children m b false)) (ht m' (Children m b true)) /\
      Size m' a = sz m (Children m a false) + sz m (Children m a true) + 1 /\
      Size m' b = sz m' (Children m b false) + sz m' (Children m b true) + 1.
  Proof.
    intros N H.
    destruct (uh m a) as (m1 & R1 & C1 & P1 & K1 & V1 & X1 & S1 & H1). rewrite R1.
    destruct (uh m1 b) as (m2 & R2 & C2 & P2 & K2 & V2 & X2 & S2 & H2). rewrite R2.
    destruct (us m2 a) as (m4 & R4 & C4 & P4 & K4 & V4 & X4 & H4 & S4). rewrite (bind_ret _ _ _ _ _ R4).
    destruct (us m4 b) as (m5 & R5 & C5 & P5 & K5 & V5 & X5 & H5 & S5). exists m5. split; [exact R5|].
    pose proof (H false) as (A1 & A2 & A3). pose proof (H true) as (B1 & B2 & B3).
    rewrite C4, C2, C1 in S5. rewrite C2, C1 in S4. rewrite C1 in H2.
    split; [congruence|]. split; [congruence|]. split; [congruence|]. split; [congruence|]. split; [congruence|].
    split; [intros c D1 D2; rewrite H5, H4, H2, H1, S5, S4, S2, S1, !upd_ne by congruence; split; reflexivity|].
    split; [rewrite H5, H4, H2, H1, upd_ne, upd_eq by congruence; reflexivity|].
    split; [rewrite !(ht_same m4 m5 _ H5), !(ht_same m2 m4 _ H4), !(ht_upd m1 m2 _ _ _ H2) by congruence; rewrite H5, H4, H2, upd_eq; reflexivity|].
    split; [rewrite S5, S4, upd_ne, upd_eq, !(sz_same m1 m2 _ S2), !(sz_same m m1 _ S1) by congruence; reflexivity|].
    rewrite !(sz_upd m4 m5 _ _ _ S5) by congruence. rewrite S5, upd_eq. reflexivity.
  Qed.

  Lemma rotate_run e m p d a b x y z :
    Children m p d = Some a -> Children m a e = Some b -> Children m a (negb e) = z -> Children m b e = x -> Children m b (negb e) = y ->
    a <> p -> b <> p -> a <> b -> y <> Some a -> y <> Some b -> z <> Some a -> z <> Some b -> x <> Some a -> x <> Some b ->
    exists m', rotate e (Some p) d m = Ret tt m' /\ rotated m m' e p d a b x y z.
  Proof.
    intros Hp Ha Hz Hx Hy N1 N2 N3 Y1 Y2 Z1 Z2 X1 X2. unfold rotate.
    step. rewrite Hp. step. rewrite Ha. step. step. step. sm. rewrite Hy. step. step. sm. rewrite Hy. step. step. step.
    set (m1 := setParent (Some b) a _).
    assert (M1 : (forall c, c <> p -> c <> a -> c <> b -> Children m1 c = Children m c) /\
      Children m1 p d = Some b /\ Children m1 p (negb d) = Children m p (negb d) /\ Children m1 a e = y /\ Children m1 a (negb e) = z /\
      Children m1 b e = x /\ Children m1 b (negb e) = Some a /\ Parent m1 b = Some p /\ Parent m1 a = Some b /\ (forall c, y = Some c -> Parent m1 c = Some a) /\
      (forall c, c <> a -> c <> b -> y <> Some c -> Parent m1 c = Parent m c) /\ Height m1 = Height m /\ Size m1 = Size m /\ Key m1 = Key m /\ Value m1 = Value m /\ next m1 = next m).
    { unfold m1. clear m1. split; [intros c C1 C2 C3; sm; reflexivity|]. do 6 (split; [destruct e, d; cbn [negb] in *; sm; congruence|]).
      split; [sm; rewrite eqp_some, Nat.eqb_refl, IndexHeapProofs.eqp_ne by congruence; reflexivity|]. split; [sm; reflexivity|].
      split; [intros c ->; sm; rewrite eqp_some, Nat.eqb_refl; reflexivity|].
      split; [intros c C1 C2 C3; sm; rewrite !IndexHeapProofs.eqp_ne by congruence; reflexivity|].
      repeat (split; [sm; reflexivity|]). sm; reflexivity. }
    destruct M1 as (K0 & K1 & K2 & K3 & K4 & K5 & K6 & P1 & P2 & P3 & P4 & HH & HS & HK & HV & HN). clearbody m1.
    destruct (update2 m1 a b N3) as (m' & R & U1 & U2 & U3 & U4 & U5 & U6 & U7 & U8 & U9 & U10).
    { intros [|]; destruct e; cbn [negb] in *; rewrite ?K3, ?K4, ?K5, ?K6; repeat split; congruence. }
    exists m'. split; [exact R|].
    assert (Hm : forall q, q <> Some a -> q <> Some b -> ht m' q = ht m q /\ sz m' q = sz m q).
    { intros [c|] Q1 Q2; [|split; reflexivity]. cbn. destruct (U6 c) as [-> ->]; [congruence|congruence|]. rewrite HH, HS. split; reflexivity. }
    assert (Hm1 : forall q, ht m1 q = ht m q /\ sz m1 q = sz m q) by (intros [c|]; cbn; rewrite ?HH, ?HS; split; reflexivity).
    constructor; rewrite ?U1, ?U2, ?U3, ?U4, ?U5; try assumption.
    - intros c C1 C2. destruct (U6 c C1 C2) as [-> _]. rewrite HH. reflexivity.
    - rewrite U7. destruct e; cbn [negb] in *; rewrite K3, K4, !(proj1 (Hm1 _)); reflexivity.
    - rewrite U8. destruct e; cbn [negb] in *; rewrite K5, K6, (proj1 (Hm x X1 X2)); reflexivity.
    - intros c C1 C2. destruct (U6 c C1 C2) as [_ ->]. rewrite HS. reflexivity.
    - rewrite U9. destruct e; cbn [negb] in *; rewrite K3, K4, !(proj2 (Hm1 _)); lia.
    - rewrite U10. destruct e; cbn [negb] in *; rewrite K5, K6, (proj2 (Hm x X1 X2)); cbn [sz]; lia.
  Qed.

  (** the same for a double rotation of [a], its child [b] and grandchild [g], whose children [y0] and [y1] move *)
  Record rotated2 m m' (e : bool) (p : nat) (d : bool) (a b g : nat) (x y0 y1 z : ptr) : Prop := {
    t_kid : forall c, c <> p -> c <> a -> c <> b -> c <> g -> Children m' c = Children m c;
    t_p : Children m' p d = Some g; t_p' : Children m' p (negb d) = Children m p (negb d);
    t_a : Children m' a e = y0; t_a' : Children m' a (negb e) = z;
    t_b : Children m' b e = x; t_b' : Children m' b (negb e) = y1;
    t_g : Children m' g e = Some b; t_g' : Children m' g (negb e) = Some a;
    t_Pg : Parent m' g = Some p; t_Pa : Parent m' a = Some g; t_Pb : Parent m' b = Some g;
    t_P0 : forall c, y0 = Some c -> Parent m' c = Some a; t_P1 : forall c, y1 = Some c -> Parent m' c = Some b;
    t_P : forall c, c <> a -> c <> b -> c <> g -> y0 <> Some c -> y1 <> Some c -> Parent m' c = Parent m c;
    t_h : forall c, c <> a -> c <> b -> c <> g -> Height m' c = Height m c;
    t_ha : Height m' a = if e then hmax (ht m z) (ht m y0) else hmax (ht m y0) (ht m z);
    t_hb : Height m' b = if e then hmax (ht m y1) (ht m x) else hmax (ht m x) (ht m y1);
    t_hg : Height m' g = if e then hmax (Height m' a) (Height m' b) else hmax (Height m' b) (Height m' a);
    t_s : forall c, c <> a -> c <> b -> c <> g -> Size m' c = Size m c;
    t_sa : Size m' a = sz m y0 + sz m z + 1; t_sb : Size m' b = sz m x + sz m y1 + 1; t_sg : Size m' g = Size m' a + Size m' b + 1;
    t_key : Key m' = Key m; t_val : Value m' = Value m; t_next : next m' = next m }.

  Lemma update3 m a b g : a <> b -> a <> g -> b <> g ->
    (forall e, Children m a e <> Some a /\ Children m a e <> Some b /\ Children m a e <> Some g /\ Children m b e <> Some a /\ Children m b e <> Some b /\ Children m b e <> Some g /\ Children m g e <> Some g) ->
    exists m', (updateHeight (Some a) ;@ updateHeight (Some b) ;@ updateHeight (Some g) ;@ updateSize (Some a) ;@ updateSize (Some b) ;@ updateSize (Some g)) m = Ret tt m' /\
      Children m' = Children m /\ Parent m' = Parent m /\ Key m' = Key m /\ Value m' = Value m /\ next m' = next m /\
      (forall c, c <> a -> c <> b -> c <> g -> Height m' c = Height m c /\ Size m' c = Size m c) /\
      Height m' a = hmax (ht m (Children m a false)) (ht m (Children m a true)) /\
      Height m' b = hmax (ht m (Children m b false)) (ht m (Children m b true)) /\
      Height m' g = hmax (ht m' (Children m g false)) (ht m' (Children m g true)) /\
      Size m' a = sz m (Children m a false) + sz m (Children m a true) + 1 /\
      Size m' b = sz m (Children m b false) + sz m (Children m b true) + 1 /\
      Size m' g = sz m' (Children m g false) + sz m' (Children m g true) + 1.
  Proof.
    intros N1 N2 N3 H.
    destruct (uh m a) as (m1 & R1 & C1 & P1 & K1 & V1 & X1 & S1 & H1). rewrite R1.
    destruct (uh m1 b) as (m2 & R2 & C2 & P2 & K2 & V2 & X2 & S2 & H2). rewrite R2.
    destruct (uh m2 g) as (m3 & R3 & C3 & P3 & K3 & V3 & X3 & S3 & H3). rewrite R3.
    destruct (us m3 a) as (m4 & R4 & C4 & P4 & K4 & V4 & X4 & H4 & S4). rewrite (bind_ret _ _ _ _ _ R4).
    destruct (us m4 b) as (m5 & R5 & C5 & P5 & K5 & V5 & X5 & H5 & S5). rewrite (bind_ret _ _ _ _ _ R5).
    destruct (us m5 g) as (m6 & R6 & C6 & P6 & K6 & V6 & X6 & H6 & S6). exists m6. split; [exact R6|].
    pose proof (H false) as (A1 & A2 & A3 & A4 & A5 & A6 & A7). pose proof (H true) as (B1 & B2 & B3 & B4 & B5 & B6 & B7).
    rewrite C5, C4, C3, C2, C1 in S6. rewrite C4, C3, C2, C1 in S5. rewrite C3, C2, C1 in S4. rewrite C2, C1 in H3. rewrite C1 in H2.
    split; [congruence|]. split; [congruence|]. split; [congruence|]. split; [congruence|]. split; [congruence|].
    split; [intros c D1 D2 D3; rewrite H6, H5, H4, H3, H2, H1, S6, S5, S4, S3, S2, S1, !upd_ne by congruence; split; reflexivity|].
    split; [rewrite H6, H5, H4, H3, H2, H1, !upd_ne, upd_eq by congruence; reflexivity|].
    split; [rewrite H6, H5, H4, H3, H2, upd_ne, upd_eq, !(ht_upd m m1 _ _ _ H1) by congruence; reflexivity|].
    split; [rewrite (ht_same m5 m6 _ H6), (ht_same m5 m6 _ H6), !(ht_same m4 m5 _ H5), !(ht_same m3 m4 _ H4), !(ht_upd m2 m3 _ _ _ H3) by congruence; rewrite H6, H5, H4, H3, upd_eq; reflexivity|].
    split; [rewrite S6, S5, S4, !upd_ne, upd_eq, !(sz_same m2 m3 _ S3), !(sz_same m1 m2 _ S2), !(sz_same m m1 _ S1) by congruence; reflexivity|].
    split; [rewrite S6, S5, upd_ne, upd_eq, !(sz_upd m3 m4 _ _ _ S4), !(sz_same m2 m3 _ S3), !(sz_same m1 m2 _ S2), !(sz_same m m1 _ S1) by congruence; reflexivity|].
    rewrite !(sz_upd m5 m6 _ _ _ S6) by congruence. rewrite S6, upd_eq. reflexivity.
  Qed.

  Lemma rotate2_run e m p d a b g x y0 y1 z :
    Children m p d = Some a -> Children m a e = Some b -> Children m a (negb e) = z -> Children m b e = x -> Children m b (negb e) = Some g ->
    Children m g (negb e) = y0 -> Children m g e = y1 ->
    a <> p -> b <> p -> g <> p -> a <> b -> a <> g -> b <> g ->
    y0 <> Some a -> y0 <> Some b -> y0 <> Some g -> y1 <> Some a -> y1 <> Some b -> y1 <> Some g ->
    z <> Some a -> z <> Some b -> z <> Some g -> x <> Some a -> x <> Some b -> x <> Some g -> (forall c, y0 = Some c -> y1 <> Some c) ->
    exists m', rotate2 e (Some p) d m = Ret tt m' /\ rotated2 m m' e p d a b g x y0 y1 z.
  Proof.
    intros Hp Ha Hz Hx Hg H0 H1 N1 N2 N3 N4 N5 N6 Y1 Y2 Y3 Y4 Y5 Y6 Z1 Z2 Z3 X1 X2 X3 YY. unfold rotate2.
    step. rewrite Hp. step. rewrite Ha. step. rewrite Hg. step. step. step. sm. rewrite H0. step. sm. rewrite H1. do 8 step.
    set (m1 := optParent y1 (Some b) _).
    assert (M1 : (forall c, c <> p -> c <> a -> c <> b -> c <> g -> Children m1 c = Children m c) /\
      Children m1 p d = Some g /\ Children m1 p (negb d) = Children m p (negb d) /\ Children m1 a e = y0 /\ Children m1 a (negb e) = z /\
      Children m1 b e = x /\ Children m1 b (negb e) = y1 /\ Children m1 g e = Some b /\ Children m1 g (negb e) = Some a /\
      Parent m1 g = Some p /\ Parent m1 a = Some g /\ Parent m1 b = Some g /\ (forall c, y0 = Some c -> Parent m1 c = Some a) /\ (forall c, y1 = Some c -> Parent m1 c = Some b) /\
      (forall c, c <> a -> c <> b -> c <> g -> y0 <> Some c -> y1 <> Some c -> Parent m1 c = Parent m c) /\ Height m1 = Height m /\ Size m1 = Size m /\ Key m1 = Key m /\ Value m1 = Value m /\ next m1 = next m).
    { unfold m1. clear m1. split; [intros c C1 C2 C3 C4; sm; reflexivity|]. do 8 (split; [destruct e, d; cbn [negb] in *; sm; congruence|]).
      split; [pe; reflexivity|].
      split; [pe; reflexivity|].
      split; [pe; reflexivity|].
      split; [intros c Hc; pose proof (YY c Hc); pe; rewrite Hc; pe; reflexivity|].
      split; [intros c ->; pe; reflexivity|].
      split; [intros c C1 C2 C3 C4 C5; pe; reflexivity|].
      repeat (split; [sm; reflexivity|]). sm; reflexivity. }
    destruct M1 as (K0 & K1 & K2 & K3 & K4 & K5 & K6 & K7 & K8 & P1 & P2 & P2' & P3 & P3' & P4 & HH & HS & HK & HV & HN). clearbody m1.
    destruct (update3 m1 a b g N4 N5 N6) as (m' & R & U1 & U2 & U3 & U4 & U5 & U6 & U7 & U8 & U9 & U10 & U11 & U12).
    { intros [|]; destruct e; cbn [negb] in *; rewrite ?K3, ?K4, ?K5, ?K6, ?K7, ?K8; repeat split; congruence. }
    exists m'. split; [exact R|].
    assert (Hm1 : forall q, ht m1 q = ht m q /\ sz m1 q = sz m q) by (intros [c|]; cbn; rewrite ?HH, ?HS; split; reflexivity).
    constructor; rewrite ?U1, ?U2, ?U3, ?U4, ?U5; try assumption.
    - intros c C1 C2 C3. destruct (U6 c C1 C2 C3) as [-> _]. rewrite HH. reflexivity.
    - rewrite U7. destruct e; cbn [negb] in *; rewrite K3, K4, !(proj1 (Hm1 _)); reflexivity.
    - rewrite U8. destruct e; cbn [negb] in *; rewrite K5, K6, !(proj1 (Hm1 _)); reflexivity.
    - rewrite U9. destruct e; cbn [negb] in *; rewrite K7, K8; reflexivity.
    - intros c C1 C2 C3. destruct (U6 c C1 C2 C3) as [_ ->]. rewrite HS. reflexivity.
    - rewrite U10. destruct e; cbn [negb] in *; rewrite K3, K4, !(proj2 (Hm1 _)); lia.
    - rewrite U11. destruct e; cbn [negb] in *; rewrite K5, K6, !(proj2 (Hm1 _)); lia.
    - rewrite U12. destruct e; cbn [negb] in *; rewrite K7, K8; cbn [sz]; lia.
  Qed.
End Run.
