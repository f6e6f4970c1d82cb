From Verif Require Import Base Bind Machine AvlTree AvlModel IndexModel ShiftModel ShiftHeapModel.
From Verif Require DLLSeg.
Local Open Scope Z_scope.

Section P.
  Context {K V : Type}.
  Notation ptr := (option nat).
  Notation hnode := (hnode K V).
  Notation mem := (mem K V).
  Notation stree := (stree K V).
  Implicit Types (m : mem) (n : nat -> hnode).

  (** ** one assignment *)
  Definition set (a : nat) (f : hnode -> hnode) m : mem :=
    Mem (fun x => if (x =? a)%nat then f (nodes m a) else nodes m x) (next m).
  Lemma set_eq a f m : nodes (set a f m) a = f (nodes m a).
  Proof. cbn. now rewrite Nat.eqb_refl. Qed.
  Lemma set_ne a f m x : x <> a -> nodes (set a f m) x = nodes m x.
  Proof. intros H. cbn. apply Nat.eqb_neq in H. now rewrite H. Qed.
  Lemma sizeOf_ne a f m p : p <> Some a -> sizeOf (set a f m) p = sizeOf m p.
  Proof. intros H. destruct p as [x|]; [|reflexivity]. unfold sizeOf. rewrite set_ne by congruence. reflexivity. Qed.
  Lemma heightOf_ne a f m p : p <> Some a -> heightOf (set a f m) p = heightOf m p.
  Proof. intros H. destruct p as [x|]; [|reflexivity]. unfold heightOf. rewrite set_ne by congruence. reflexivity. Qed.
  Definition hmax (lh rh : Z) : Z := if lh >? rh then i8 (lh + 1) else i8 (rh + 1).
  Lemma updateHeight_run a m :
    updateHeight (Some a) m = Some (set a (setHgt (hmax (heightOf m (Kid0 (nodes m a))) (heightOf m (Kid1 (nodes m a))))) m).
  Proof. unfold updateHeight, rd, hmax. destruct (_ >? _); reflexivity. Qed.
  Lemma updateBalance_run a m :
    updateBalance (Some a) m = Some (set a (setBalance (sizeOf m (Kid0 (nodes m a)) - sizeOf m (Kid1 (nodes m a)))) m).
  Proof. reflexivity. Qed.
  Lemma updateSize_run a m :
    updateSize (Some a) m = Some (set a (setSize (sizeOf m (Kid0 (nodes m a)) + sizeOf m (Kid1 (nodes m a)) + 1)) m).
  Proof. reflexivity. Qed.
  Lemma wr_run f a m : wr f (Some a) m = Some (set a f m).
  Proof. reflexivity. Qed.

  (** the six updates at the end of a rotation *)
  Definition renewed (m0 : mem) (nd : hnode) : hnode :=
    HN (Key nd) (Value nd) (hmax (heightOf m0 (Kid0 nd)) (heightOf m0 (Kid1 nd)))
       (sizeOf m0 (Kid0 nd) + sizeOf m0 (Kid1 nd) + 1) (sizeOf m0 (Kid0 nd) - sizeOf m0 (Kid1 nd)) (Parent nd) (Kid0 nd) (Kid1 nd).
  Lemma update6 m a b : a <> b ->
    Kid0 (nodes m a) <> Some a -> Kid1 (nodes m a) <> Some a -> Kid0 (nodes m a) <> Some b -> Kid1 (nodes m a) <> Some b ->
    Kid0 (nodes m b) <> Some b -> Kid1 (nodes m b) <> Some b ->
    exists m', (m6 <- updateSize (Some a) m ;; m7 <- updateSize (Some b) m6 ;; m8 <- updateBalance (Some a) m7 ;;
                m9 <- updateBalance (Some b) m8 ;; m10 <- updateHeight (Some a) m9 ;; updateHeight (Some b) m10) = Some m' /\
      next m' = next m /\ nodes m' a = renewed m (nodes m a) /\ nodes m' b = renewed m' (nodes m b) /\
      forall x, x <> a -> x <> b -> nodes m' x = nodes m x.
  Proof.
    intros Hab Ha0 Ha1 Hb0 Hb1 Hc0 Hc1.
    rewrite updateSize_run. set (m6 := set a _ m).
    assert (E6a : nodes m6 a = setSize (sizeOf m (Kid0 (nodes m a)) + sizeOf m (Kid1 (nodes m a)) + 1) (nodes m a)) by apply set_eq.
    assert (E6 : forall x, x <> a -> nodes m6 x = nodes m x) by (intros; now apply set_ne).
    rewrite updateSize_run. set (m7 := set b _ m6).
    assert (E7b : nodes m7 b = setSize (sizeOf m6 (Kid0 (nodes m6 b)) + sizeOf m6 (Kid1 (nodes m6 b)) + 1) (nodes m6 b)) by apply set_eq.
    assert (E7 : forall x, x <> b -> nodes m7 x = nodes m6 x) by (intros; now apply set_ne).
    rewrite updateBalance_run. set (m8 := set a _ m7).
    assert (E8a : nodes m8 a = setBalance (sizeOf m7 (Kid0 (nodes m7 a)) - sizeOf m7 (Kid1 (nodes m7 a))) (nodes m7 a)) by apply set_eq.
    assert (E8 : forall x, x <> a -> nodes m8 x = nodes m7 x) by (intros; now apply set_ne).
    rewrite updateBalance_run. set (m9 := set b _ m8).
    assert (E9b : nodes m9 b = setBalance (sizeOf m8 (Kid0 (nodes m8 b)) - sizeOf m8 (Kid1 (nodes m8 b))) (nodes m8 b)) by apply set_eq.
    assert (E9 : forall x, x <> b -> nodes m9 x = nodes m8 x) by (intros; now apply set_ne).
    rewrite updateHeight_run. set (m10 := set a _ m9).
    assert (E10a : nodes m10 a = setHgt (hmax (heightOf m9 (Kid0 (nodes m9 a))) (heightOf m9 (Kid1 (nodes m9 a)))) (nodes m9 a)) by apply set_eq.
    assert (E10 : forall x, x <> a -> nodes m10 x = nodes m9 x) by (intros; now apply set_ne).
    rewrite updateHeight_run. set (m11 := set b _ m10).
    assert (E11b : nodes m11 b = setHgt (hmax (heightOf m10 (Kid0 (nodes m10 b))) (heightOf m10 (Kid1 (nodes m10 b)))) (nodes m10 b)) by apply set_eq.
    assert (E11 : forall x, x <> b -> nodes m11 x = nodes m10 x) by (intros; now apply set_ne).
    exists m11. split; [reflexivity|]. split; [reflexivity|].
    (* sizes and heights of the children *)
    assert (Sa : forall p, p <> Some a -> p <> Some b -> sizeOf m7 p = sizeOf m p).
    { intros p H1 H2. unfold m7. rewrite sizeOf_ne by assumption. unfold m6. now rewrite sizeOf_ne by assumption. }
    assert (Ka : heightOf m9 (Kid0 (nodes m a)) = heightOf m (Kid0 (nodes m a)) /\ heightOf m9 (Kid1 (nodes m a)) = heightOf m (Kid1 (nodes m a))).
    { unfold m9, m8, m7, m6. now rewrite !heightOf_ne by assumption. }
    assert (Sb : forall p, p <> Some b -> sizeOf m11 p = sizeOf m6 p).
    { intros p H1. unfold m11. rewrite sizeOf_ne by assumption. destruct p as [x|]; [|reflexivity]. unfold sizeOf.
      destruct (Nat.eq_dec x a) as [->|Hx].
      - rewrite E10a. cbn [setSize setBalance setHgt Kid0 Kid1 Key Value Hgt Size Balance Parent]. rewrite E9 by congruence. rewrite E8a. cbn [setSize setBalance setHgt Kid0 Kid1 Key Value Hgt Size Balance Parent]. rewrite E7 by congruence. reflexivity.
      - rewrite E10, E9, E8, E7 by congruence. reflexivity. }
    assert (Sb8 : forall p, p <> Some b -> sizeOf m8 p = sizeOf m6 p).
    { intros p H1. destruct p as [x|]; [|reflexivity]. unfold sizeOf. destruct (Nat.eq_dec x a) as [->|Hx].
      - rewrite E8a. cbn [setSize setBalance setHgt Kid0 Kid1 Key Value Hgt Size Balance Parent]. rewrite E7 by congruence. reflexivity.
      - rewrite E8, E7 by congruence. reflexivity. }
    assert (Hb : forall p, p <> Some b -> heightOf m11 p = heightOf m10 p) by (intros p H1; unfold m11; now rewrite heightOf_ne).
    split; [|split].
    - rewrite E11, E10a, E9, E8a, E7, E6a by congruence. cbn [setSize setBalance setHgt Kid0 Kid1 Key Value Hgt Size Balance Parent]. rewrite !Sa by assumption. destruct Ka as [-> ->]. reflexivity.
    - assert (Nb : nodes m6 b = nodes m b) by (apply E6; congruence).
      assert (N8 : nodes m8 b = setSize (sizeOf m6 (Kid0 (nodes m b)) + sizeOf m6 (Kid1 (nodes m b)) + 1) (nodes m b)).
      { rewrite E8 by congruence. rewrite E7b, Nb. reflexivity. }
      assert (N10 : nodes m10 b = setBalance (sizeOf m6 (Kid0 (nodes m b)) - sizeOf m6 (Kid1 (nodes m b))) (nodes m8 b)).
      { rewrite E10 by congruence. rewrite E9b, N8. cbn [setSize Kid0 Kid1]. rewrite !Sb8 by assumption. reflexivity. }
      rewrite E11b, N10, N8. cbn [setSize setBalance setHgt Kid0 Kid1 Key Value Hgt Size Balance Parent]. unfold renewed.
      rewrite !Hb, !Sb by assumption. reflexivity.
    - intros x H1 H2. rewrite E11, E10, E9, E8, E7, E6 by assumption. reflexivity.
  Qed.

  (** ** trees with addresses, and the way down to one *)
  Inductive atree := AE | AN (a : nat) (s h b : Z) (k : K) (v : V) (l r : atree).
  Fixpoint erase (t : atree) : stree := match t with AE => SE | AN _ s h b k v l r => SN s h b k v (erase l) (erase r) end.
  Definition root (t : atree) : ptr := match t with AE => None | AN a _ _ _ _ _ _ _ => Some a end.
  Fixpoint addrs (t : atree) : list nat := match t with AE => [] | AN a _ _ _ _ _ l r => a :: addrs l ++ addrs r end.
  Fixpoint rep n (par : ptr) (t : atree) : Prop :=
    match t with
    | AE => True
    | AN a s h b k v l r => n a = HN k v h s b par (root l) (root r) /\ rep n (Some a) l /\ rep n (Some a) r
    end.
  (** [d] says whether the way goes to the right; [o] is the other child *)
  Record frame := FR { fd : bool; fa : nat; fs : Z; fh : Z; fb : Z; fk : K; fv : V; fo : atree }.
  Definition plugA (f : frame) (t : atree) : atree :=
    if fd f then AN (fa f) (fs f) (fh f) (fb f) (fk f) (fv f) (fo f) t else AN (fa f) (fs f) (fh f) (fb f) (fk f) (fv f) t (fo f).
  Definition plug (f : frame) (t : stree) : stree :=
    if fd f then SN (fs f) (fh f) (fb f) (fk f) (fv f) (erase (fo f)) t else SN (fs f) (fh f) (fb f) (fk f) (fv f) t (erase (fo f)).
  Lemma erase_plug f t : erase (plugA f t) = plug f (erase t).
  Proof. unfold plugA, plug. destruct (fd f); reflexivity. Qed.
  Definition cpar (c : list frame) : nat := match c with [] => 0%nat | f :: _ => fa f end.
  Fixpoint caddrs (c : list frame) : list nat := match c with [] => [] | f :: c => fa f :: addrs (fo f) ++ caddrs c end.
  Fixpoint repc n (c : list frame) (q : ptr) : Prop :=
    match c with
    | [] => Kid0 (n 0%nat) = Some 0%nat /\ Kid1 (n 0%nat) = q
    | f :: c' =>
        n (fa f) = HN (fk f) (fv f) (fh f) (fs f) (fb f) (Some (cpar c')) (if fd f then root (fo f) else q) (if fd f then q else root (fo f)) /\
        rep n (Some (fa f)) (fo f) /\ repc n c' (Some (fa f))
    end.
  Definition zip m (t : atree) (c : list frame) : Prop :=
    rep (nodes m) (Some (cpar c)) t /\ repc (nodes m) c (root t) /\ NoDup (addrs t ++ caddrs c) /\
    forall a, In a (addrs t ++ caddrs c) -> (0 < a < next m)%nat.

  Lemma rep_frame n n' t : forall par, (forall a, In a (addrs t) -> n' a = n a) -> rep n par t -> rep n' par t.
  Proof.
    induction t as [|a s h b k v l IHl r IHr]; intros par H; [auto|]. cbn [rep addrs] in *. intros (H1 & H2 & H3).
    split; [rewrite H by (now left); exact H1|]. split; [apply IHl|apply IHr]; auto; intros x Hx; apply H; right; apply in_or_app; auto.
  Qed.
  (** the same tree below another parent *)
  Lemma rep_reparent n n' t par par' : NoDup (addrs t) -> (forall a, In a (addrs t) -> root t <> Some a -> n' a = n a) ->
    (forall a, root t = Some a -> n' a = setParent par' (n a)) -> rep n par t -> rep n' par' t.
  Proof.
    destruct t as [|a s h b k v l r]; [auto|]. cbn [rep addrs root]. intros Hn H1 H2 (E & Hl & Hr).
    apply NoDup_cons_iff in Hn as [Hn _]. split; [rewrite (H2 a eq_refl), E; reflexivity|].
    split; [apply (rep_frame n); [|assumption]|apply (rep_frame n); [|assumption]]; intros x Hx; apply H1;
      try (right; apply in_or_app; auto); intros [= ->]; apply Hn; apply in_or_app; auto.
  Qed.
  Lemma repc_frame n n' c : forall q, n' 0%nat = n 0%nat -> (forall a, In a (caddrs c) -> n' a = n a) -> repc n c q -> repc n' c q.
  Proof.
    induction c as [|f c IH]; intros q H0 H; cbn [repc caddrs] in *; [now rewrite H0|]. intros (H1 & H2 & H3).
    split; [rewrite H by (now left); exact H1|]. split; [apply (rep_frame n); [|assumption]|apply IH; [assumption| |assumption]];
      intros x Hx; apply H; right; apply in_or_app; auto.
  Qed.
  (** what hangs the subtree at the hole *)
  Definition setHole (c : list frame) (q : ptr) : hnode -> hnode :=
    match c with f :: _ => if fd f then setKid1 q else setKid0 q | [] => setKid1 q end.
  Lemma repc_rehang n n' c q q' : NoDup (caddrs c) -> (forall a, In a (caddrs c) -> (0 < a)%nat) ->
    n' (cpar c) = setHole c q' (n (cpar c)) -> (forall a, a = 0%nat \/ In a (caddrs c) -> a <> cpar c -> n' a = n a) ->
    repc n c q -> repc n' c q'.
  Proof.
    intros Hn Hp H1 H2. destruct c as [|f c]; cbn [repc cpar setHole caddrs] in *.
    - rewrite H1. intros [E0 _]. auto.
    - intros (E & Ho & Hc). apply NoDup_cons_iff in Hn as [Hn1 Hn2].
      assert (Hne : forall x, In x (addrs (fo f) ++ caddrs c) -> x <> fa f) by (intros x Hx ->; contradiction).
      split; [rewrite H1, E; destruct (fd f); reflexivity|]. split.
      + apply (rep_frame n); [|assumption]. intros x Hx. apply H2; [right; right|apply Hne]; apply in_or_app; auto.
      + apply (repc_frame n); [| |assumption].
        * apply H2; [auto|]. specialize (Hp (fa f) (or_introl eq_refl)). lia.
        * intros x Hx. apply H2; [right; right|apply Hne]; apply in_or_app; auto.
  Qed.
  Lemma hole1 m c a q : repc (nodes m) c (Some a) -> (0 < a)%nat -> ~ In a (caddrs c) ->
    (if eqp (Kid1 (nodes m (cpar c))) (Some a) then wr (setKid1 q) (Some (cpar c)) m else wr (setKid0 q) (Some (cpar c)) m) =
    Some (set (cpar c) (setHole c q) m).
  Proof.
    intros H Hp Hn. destruct c as [|f c]; cbn [repc cpar setHole caddrs] in *.
    - destruct H as [_ ->]. cbn [eqp]. now rewrite Nat.eqb_refl.
    - destruct H as [-> _]. cbn [Kid1]. destruct (fd f); [cbn [eqp]; now rewrite Nat.eqb_refl|].
      destruct (fo f) as [|x s h b k v l r]; [reflexivity|]. cbn [root eqp]. destruct (Nat.eqb_spec x a) as [->|]; [|reflexivity].
      exfalso. apply Hn. right. now left.
  Qed.
  Lemma hole0 m c a q : repc (nodes m) c (Some a) -> (0 < a)%nat -> ~ In a (caddrs c) ->
    (if eqp (Kid0 (nodes m (cpar c))) (Some a) then wr (setKid0 q) (Some (cpar c)) m else wr (setKid1 q) (Some (cpar c)) m) =
    Some (set (cpar c) (setHole c q) m).
  Proof.
    intros H Hp Hn. destruct c as [|f c]; cbn [repc cpar setHole caddrs] in *.
    - destruct H as [-> _]. cbn [eqp]. destruct (Nat.eqb_spec 0 a); [lia|reflexivity].
    - destruct H as [-> _]. cbn [Kid0]. destruct (fd f); [|cbn [eqp]; now rewrite Nat.eqb_refl].
      destruct (fo f) as [|x s h b k v l r]; [reflexivity|]. cbn [root eqp]. destruct (Nat.eqb_spec x a) as [->|]; [|reflexivity].
      exfalso. apply Hn. right. now left.
  Qed.
  Lemma zip_down m f t c : zip m (plugA f t) c <-> zip m t (f :: c).
  Proof.
    unfold zip, plugA. destruct f as [d a s h b k v o]. cbn [fd fa fs fh fb fk fv fo caddrs cpar repc]. destruct d; cbn [rep root addrs].
    - assert (HP : Permutation ((a :: addrs o ++ addrs t) ++ caddrs c) (addrs t ++ a :: addrs o ++ caddrs c)).
      { cbn [app]. rewrite <- app_assoc. apply Permutation_cons_app. rewrite !app_assoc. apply Permutation_app_tail, Permutation_app_comm. }
      split; intros (H1 & H2 & H3 & H4).
      + split; [tauto|]. split; [tauto|]. split; [eapply Permutation_NoDup; eassumption|]. intros x Hx. apply H4. eapply Permutation_in; [apply Permutation_sym, HP|exact Hx].
      + split; [tauto|]. split; [tauto|]. split; [eapply Permutation_NoDup; [apply Permutation_sym, HP|assumption]|]. intros x Hx. apply H4. eapply Permutation_in; [apply HP|exact Hx].
    - assert (HP : Permutation ((a :: addrs t ++ addrs o) ++ caddrs c) (addrs t ++ a :: addrs o ++ caddrs c)).
      { cbn [app]. rewrite <- app_assoc. apply Permutation_cons_app. reflexivity. }
      split; intros (H1 & H2 & H3 & H4).
      + split; [tauto|]. split; [tauto|]. split; [eapply Permutation_NoDup; eassumption|]. intros x Hx. apply H4. eapply Permutation_in; [apply Permutation_sym, HP|exact Hx].
      + split; [tauto|]. split; [tauto|]. split; [eapply Permutation_NoDup; [apply Permutation_sym, HP|assumption]|]. intros x Hx. apply H4. eapply Permutation_in; [apply HP|exact Hx].
  Qed.

  (** stored sizes and heights *)
  Lemma rep_size m par t : rep (nodes m) par t -> sizeOf m (root t) = sizeT (erase t).
  Proof. destruct t; [reflexivity|]. cbn. intros (-> & _). reflexivity. Qed.
  Lemma rep_height m par t : rep (nodes m) par t -> heightOf m (root t) = heightT (erase t).
  Proof. destruct t; [reflexivity|]. cbn. intros (-> & _). reflexivity. Qed.
  Definition renewA (s : Z) (a : nat) (k : K) (v : V) (l r : atree) : atree :=
    AN a s (newHeight (erase l) (erase r)) (sizeT (erase l) - sizeT (erase r)) k v l r.
  Definition resumA (a : nat) (k : K) (v : V) (l r : atree) : atree := renewA (sizeT (erase l) + sizeT (erase r) + 1) a k v l r.
  Lemma renewed_rep m k v h s b par l r a1 a2 : rep (nodes m) a1 l -> rep (nodes m) a2 r ->
    renewed m (HN k v h s b par (root l) (root r)) =
    HN k v (newHeight (erase l) (erase r)) (sizeT (erase l) + sizeT (erase r) + 1) (sizeT (erase l) - sizeT (erase r)) par (root l) (root r).
  Proof.
    intros Hl Hr. unfold renewed, newHeight, hmax. cbn [Key Value Hgt Size Balance Parent Kid0 Kid1].
    rewrite (rep_size _ _ _ Hl), (rep_size _ _ _ Hr), (rep_height _ _ _ Hl), (rep_height _ _ _ Hr). reflexivity.
  Qed.

  (** ** rotations *)
  Lemma nodup_app {A} (x y : list A) : NoDup (x ++ y) -> NoDup x /\ NoDup y /\ (forall z, In z x -> In z y -> False).
  Proof.
    induction x as [|a x IH]; cbn [app]; intros H; [split; [constructor|auto]|]. apply NoDup_cons_iff in H as [H1 H2]. destruct (IH H2) as (H3 & H4 & H5).
    split; [constructor; [intros Hi; apply H1, in_or_app; auto|assumption]|]. split; [assumption|]. intros z [->|Hz] Hy; [apply H1, in_or_app; auto|eauto].
  Qed.
  Lemma parts a a2 (X Y Z C : list nat) : NoDup (a :: a2 :: X ++ Y ++ Z ++ C) ->
    a <> a2 /\ (forall x, In x X \/ In x Y \/ In x Z \/ In x C -> x <> a /\ x <> a2) /\
    (NoDup X /\ NoDup Y /\ NoDup Z /\ NoDup C) /\
    (forall x, In x X -> In x Y -> False) /\ (forall x, In x X -> In x Z -> False) /\ (forall x, In x X -> In x C -> False) /\
    (forall x, In x Y -> In x Z -> False) /\ (forall x, In x Y -> In x C -> False) /\ (forall x, In x Z -> In x C -> False).
  Proof.
    intros H. apply NoDup_cons_iff in H as [H1 H]. apply NoDup_cons_iff in H as [H2 H].
    apply nodup_app in H as (NX & H & DX). apply nodup_app in H as (NY & H & DY). apply nodup_app in H as (NZ & NC & DZ).
    split; [intros ->; apply H1; now left|]. split.
    { intros x Hx. assert (Hi : In x (X ++ Y ++ Z ++ C)) by (rewrite !in_app_iff; tauto).
      split; intros ->; [apply H1; now right|contradiction]. }
    split; [tauto|]. repeat split; intros x Hx Hy; try (now apply (DX x Hx); rewrite !in_app_iff; tauto); try (now apply (DY x Hx); rewrite !in_app_iff; tauto); eauto.
  Qed.
  Lemma root_in (t : atree) y : root t = Some y -> In y (addrs t).
  Proof. destruct t; cbn; intros [= ->]. now left. Qed.
  Lemma cpar_in c : cpar c = 0%nat \/ In (cpar c) (caddrs c).
  Proof. destruct c; cbn; auto. Qed.
  Lemma lrotate_run m a s h b k v l a2 s2 h2 b2 k2 v2 l2 r2 c :
    zip m (AN a s h b k v l (AN a2 s2 h2 b2 k2 v2 l2 r2)) c ->
    exists m', lrotate (Some a) m = Some m' /\ next m' = next m /\ zip m' (resumA a2 k2 v2 (resumA a k v l l2) r2) c.
  Proof.
    intros (Hr & Hc & Hnd & Hlt). cbn [rep root addrs] in *. destruct Hr as (Ea & Hl & Ea2 & Hl2 & Hr2).
    assert (HP : Permutation ((a :: addrs l ++ a2 :: addrs l2 ++ addrs r2) ++ caddrs c) (a :: a2 :: addrs l ++ addrs l2 ++ addrs r2 ++ caddrs c)).
    { cbn [app]. constructor. rewrite <- app_assoc. cbn [app]. rewrite <- app_assoc. apply Permutation_sym, Permutation_middle. }
    destruct (parts _ _ _ _ _ _ (Permutation_NoDup HP Hnd)) as (Hne & Hout & (NX & NY & NZ & NC) & D1 & D2 & D3 & D4 & D5 & D6).
    assert (Hpos : forall x, In x (a :: a2 :: addrs l ++ addrs l2 ++ addrs r2 ++ caddrs c) -> (0 < x < next m)%nat).
    { intros x Hx. apply Hlt. eapply Permutation_in; [apply Permutation_sym, HP|exact Hx]. }
    assert (Hp1 : forall x, In x (addrs l) \/ In x (addrs l2) \/ In x (addrs r2) \/ x = a \/ x = a2 -> x <> cpar c).
    { intros x Hx ->. destruct (cpar_in c) as [E0|Hi].
      - assert (0 < cpar c)%nat; [|lia]. apply Hpos. cbn [In]. rewrite !in_app_iff. intuition (subst; auto).
      - destruct Hx as [Hx|[Hx|[Hx|[Hx|Hx]]]]; [eauto|eauto|eauto| |]; destruct (Hout (cpar c)) as [F1 F2]; tauto || congruence. }
    assert (Hac : ~ In a (caddrs c)) by (intros Hi; destruct (Hout a) as [F _]; auto).
    assert (Hyin : forall y, root l2 = Some y -> y <> a /\ y <> a2 /\ y <> cpar c).
    { intros y Hy. apply root_in in Hy. destruct (Hout y) as [F1 F2]; [tauto|]. split; [assumption|]. split; [assumption|]. apply Hp1. tauto. }
    assert (Hpa : cpar c <> a) by (intros F; apply (Hp1 a); auto). assert (Hpa2 : cpar c <> a2) by (intros F; apply (Hp1 a2); auto 6).
    (* the links *)
    unfold lrotate, rd. rewrite Ea. cbn [Kid1 Kid0 Parent Key Value Hgt Size Balance]. rewrite Ea2. cbn [Kid1 Kid0 Parent].
    rewrite (hole1 m c a (Some a2) Hc) by (auto; apply Hpos; now left). set (m1 := set _ _ m).
    assert (M1 : forall x, x <> cpar c -> nodes m1 x = nodes m x) by (intros; now apply set_ne).
    assert (M1p : nodes m1 (cpar c) = setHole c (Some a2) (nodes m (cpar c))) by apply set_eq.
    rewrite M1 by congruence. rewrite Ea. cbn [Parent]. rewrite wr_run. set (m2 := set a2 _ m1).
    assert (M2 : forall x, x <> a2 -> nodes m2 x = nodes m1 x) by (intros; now apply set_ne).
    assert (M2b : nodes m2 a2 = setParent (Some (cpar c)) (nodes m1 a2)) by apply set_eq.
    assert (exists m3, match root l2 with Some _ => m' <- wr (setKid1 (root l2)) (Some a) m2 ;; wr (setParent (Some a)) (root l2) m' | None => wr (setKid1 None) (Some a) m2 end = Some m3 /\
              next m3 = next m /\ nodes m3 a = setKid1 (root l2) (nodes m2 a) /\ (forall y, root l2 = Some y -> nodes m3 y = setParent (Some a) (nodes m2 y)) /\
              forall x, x <> a -> root l2 <> Some x -> nodes m3 x = nodes m2 x) as (m3 & R3 & X3 & M3a & M3y & M3).
    { destruct (root l2) as [y|] eqn:Ey.
      - destruct (Hyin y eq_refl) as (Y1 & Y2 & Y3). rewrite !wr_run. eexists. split; [reflexivity|]. split; [reflexivity|].
        split; [rewrite set_ne, set_eq by congruence; reflexivity|]. split; [intros y' [= <-]; rewrite set_eq, set_ne by congruence; reflexivity|].
        intros x H1 H2. rewrite !set_ne by congruence. reflexivity.
      - eexists. split; [reflexivity|]. split; [reflexivity|]. split; [apply set_eq|]. split; [discriminate|]. intros x H1 _. apply (set_ne a (setKid1 None) m2 x H1). }
    rewrite R3. rewrite wr_run. set (m4 := set a2 _ m3). rewrite wr_run. set (m5 := set a _ m4).
    assert (M5 : forall x, x <> a -> nodes m5 x = nodes m4 x) by (intros; now apply set_ne).
    assert (M5a : nodes m5 a = setParent (Some a2) (nodes m4 a)) by apply set_eq.
    assert (M4 : forall x, x <> a2 -> nodes m4 x = nodes m3 x) by (intros; now apply set_ne).
    assert (M4b : nodes m4 a2 = setKid0 (Some a) (nodes m3 a2)) by apply set_eq.
    assert (X5 : next m5 = next m) by exact X3. clearbody m5 m4 m2 m1.
    assert (N5a : nodes m5 a = HN k v h s b (Some a2) (root l) (root l2)).
    { rewrite M5a, M4, M3a, M2, M1 by congruence. rewrite Ea. reflexivity. }
    assert (N5b : nodes m5 a2 = HN k2 v2 h2 s2 b2 (Some (cpar c)) (Some a) (root r2)).
    { rewrite M5, M4b, M3, M2b, M1 by (try congruence; intros F; now apply Hyin in F). rewrite Ea2. reflexivity. }
    assert (N5y : forall y, root l2 = Some y -> nodes m5 y = setParent (Some a) (nodes m y)).
    { intros y Hy. destruct (Hyin y Hy) as (Y1 & Y2 & Y3). rewrite M5, M4, (M3y y Hy), M2, M1 by congruence. reflexivity. }
    assert (N5p : nodes m5 (cpar c) = setHole c (Some a2) (nodes m (cpar c))).
    { rewrite M5, M4, M3, M2, M1p by (try congruence; intros F; now apply Hyin in F). reflexivity. }
    assert (N5 : forall x, x <> a -> x <> a2 -> x <> cpar c -> root l2 <> Some x -> nodes m5 x = nodes m x).
    { intros x H1 H2 H3 H4. rewrite M5, M4, M3, M2, M1 by congruence. reflexivity. }
    assert (R5l : rep (nodes m5) (Some a) l).
    { apply (rep_frame (nodes m)); [|exact Hl]. intros x Hx. destruct (Hout x) as [F1 F2]; [tauto|]. apply N5; auto.
      intros F. apply root_in in F. eauto. }
    assert (R5l2 : rep (nodes m5) (Some a) l2).
    { apply (rep_reparent (nodes m) _ _ (Some a2)); auto. intros x Hx Hy. destruct (Hout x) as [F1 F2]; [tauto|]. apply N5; auto. }
    assert (R5r2 : rep (nodes m5) (Some a2) r2).
    { apply (rep_frame (nodes m)); [|exact Hr2]. intros x Hx. destruct (Hout x) as [F1 F2]; [tauto|]. apply N5; auto.
      intros F. apply root_in in F. eauto. }
    assert (Rout : forall t x, (forall z, In z (addrs t) -> z <> a /\ z <> a2) -> root t = Some x -> x <> a /\ x <> a2).
    { intros t x H F. apply root_in in F. auto. }
    destruct (update6 m5 a a2 Hne) as (m' & Ru & Xu & Ua & Ub & Uo); try (rewrite N5a || rewrite N5b; cbn [Kid0 Kid1]).
    { intros F. apply root_in in F. destruct (Hout a) as [F1 F2]; tauto || congruence. } { intros F. apply root_in in F. destruct (Hout a) as [F1 F2]; tauto || congruence. }
    { intros F. apply root_in in F. destruct (Hout a2) as [F1 F2]; tauto || congruence. } { intros F. apply root_in in F. destruct (Hout a2) as [F1 F2]; tauto || congruence. }
    { congruence. } { intros F. apply root_in in F. destruct (Hout a2) as [F1 F2]; tauto || congruence. }
    exists m'. split; [exact Ru|]. split; [congruence|].
    assert (R'l : rep (nodes m') (Some a) l).
    { apply (rep_frame (nodes m5)); [|exact R5l]. intros x Hx. destruct (Hout x) as [F1 F2]; [tauto|]. now apply Uo. }
    assert (R'l2 : rep (nodes m') (Some a) l2).
    { apply (rep_frame (nodes m5)); [|exact R5l2]. intros x Hx. destruct (Hout x) as [F1 F2]; [tauto|]. now apply Uo. }
    assert (R'r2 : rep (nodes m') (Some a2) r2).
    { apply (rep_frame (nodes m5)); [|exact R5r2]. intros x Hx. destruct (Hout x) as [F1 F2]; [tauto|]. now apply Uo. }
    assert (R'a : rep (nodes m') (Some a2) (resumA a k v l l2)).
    { unfold resumA, renewA. cbn [rep]. split; [|tauto]. rewrite Ua, N5a. now apply renewed_rep with (a1 := Some a) (a2 := Some a). }
    rewrite N5b in Ub. change (Some a) with (root (resumA a k v l l2)) in Ub. rewrite (renewed_rep _ _ _ _ _ _ _ _ _ _ _ R'a R'r2) in Ub.
    assert (HQ : Permutation (addrs (resumA a2 k2 v2 (resumA a k v l l2) r2) ++ caddrs c) (a :: a2 :: addrs l ++ addrs l2 ++ addrs r2 ++ caddrs c)).
    { unfold resumA, renewA. cbn [addrs app]. rewrite <- !app_assoc. apply perm_swap. }
    split; [|split; [|split]].
    - unfold resumA at 1. unfold renewA at 1. cbn [rep]. tauto.
    - cbn [root resumA renewA]. apply (repc_rehang (nodes m) _ _ (Some a)); auto.
      + intros x Hx. apply Hpos. right. right. rewrite !in_app_iff. tauto.
      + rewrite Uo by assumption. exact N5p.
      + intros x Hx Hxp. assert (Hx2 : x <> a /\ x <> a2 /\ root l2 <> Some x).
        { destruct Hx as [->|Hx].
          - split; [|split].
            + assert (0 < a)%nat by (apply Hpos; now left). lia.
            + assert (0 < a2)%nat by (apply Hpos; right; now left). lia.
            + intros F. apply root_in in F. assert (0 < 0)%nat; [|lia]. apply Hpos. right. right. rewrite !in_app_iff. tauto.
          - destruct (Hout x) as [F1 F2]; [tauto|]. split; [assumption|]. split; [assumption|]. intros F. apply root_in in F. eauto. }
        rewrite Uo by tauto. apply N5; tauto.
    - eapply Permutation_NoDup; [apply Permutation_sym, HQ|]. eapply Permutation_NoDup; [exact HP|exact Hnd].
    - intros x Hx. rewrite Xu, X5. apply Hpos. eapply Permutation_in; [exact HQ|exact Hx].
  Qed.
  Lemma Q3 (A B D E0 : list nat) : Permutation (A ++ B ++ D ++ E0) (D ++ B ++ A ++ E0).
  Proof.
    rewrite (app_assoc A B), (app_assoc (A ++ B)), (app_assoc D B), (app_assoc (D ++ B)). apply Permutation_app_tail.
    etransitivity; [apply Permutation_app_comm|]. rewrite <- app_assoc. apply Permutation_app_head, Permutation_app_comm.
  Qed.
  Lemma rrotate_run m a s h b k v r a2 s2 h2 b2 k2 v2 r2 l2 c :
    zip m (AN a s h b k v (AN a2 s2 h2 b2 k2 v2 l2 r2) r) c ->
    exists m', rrotate (Some a) m = Some m' /\ next m' = next m /\ zip m' (resumA a2 k2 v2 l2 (resumA a k v r2 r)) c.
  Proof.
    intros (Hr0 & Hc & Hnd & Hlt). cbn [rep root addrs] in *. destruct Hr0 as (Ea & (Ea2 & Hl2 & Hr2) & Hr).
    assert (HP : Permutation ((a :: (a2 :: addrs l2 ++ addrs r2) ++ addrs r) ++ caddrs c) (a :: a2 :: addrs r ++ addrs r2 ++ addrs l2 ++ caddrs c)).
    { cbn [app]. do 2 constructor. rewrite <- !app_assoc. apply Q3. }
    destruct (parts _ _ _ _ _ _ (Permutation_NoDup HP Hnd)) as (Hne & Hout & (NX & NY & NZ & NC) & D1 & D2 & D3 & D4 & D5 & D6).
    assert (Hpos : forall x, In x (a :: a2 :: addrs r ++ addrs r2 ++ addrs l2 ++ caddrs c) -> (0 < x < next m)%nat).
    { intros x Hx. apply Hlt. eapply Permutation_in; [apply Permutation_sym, HP|exact Hx]. }
    assert (Hp1 : forall x, In x (addrs r) \/ In x (addrs r2) \/ In x (addrs l2) \/ x = a \/ x = a2 -> x <> cpar c).
    { intros x Hx ->. destruct (cpar_in c) as [E0|Hi].
      - assert (0 < cpar c)%nat; [|lia]. apply Hpos. cbn [In]. rewrite !in_app_iff. intuition (subst; auto).
      - destruct Hx as [Hx|[Hx|[Hx|[Hx|Hx]]]]; [eauto|eauto|eauto| |]; destruct (Hout (cpar c)) as [F1 F2]; tauto || congruence. }
    assert (Hac : ~ In a (caddrs c)) by (intros Hi; destruct (Hout a) as [F _]; auto).
    assert (Hyin : forall y, root r2 = Some y -> y <> a /\ y <> a2 /\ y <> cpar c).
    { intros y Hy. apply root_in in Hy. destruct (Hout y) as [F1 F2]; [tauto|]. split; [assumption|]. split; [assumption|]. apply Hp1. tauto. }
    assert (Hpa : cpar c <> a) by (intros F; apply (Hp1 a); auto). assert (Hpa2 : cpar c <> a2) by (intros F; apply (Hp1 a2); auto 6).
    (* the links *)
    unfold rrotate, rd. rewrite Ea. cbn [Kid1 Kid0 Parent Key Value Hgt Size Balance]. rewrite Ea2. cbn [Kid1 Kid0 Parent].
    rewrite (hole0 m c a (Some a2) Hc) by (auto; apply Hpos; now left). set (m1 := set _ _ m).
    assert (M1 : forall x, x <> cpar c -> nodes m1 x = nodes m x) by (intros; now apply set_ne).
    assert (M1p : nodes m1 (cpar c) = setHole c (Some a2) (nodes m (cpar c))) by apply set_eq.
    rewrite M1 by congruence. rewrite Ea. cbn [Parent]. rewrite wr_run. set (m2 := set a2 _ m1).
    assert (M2 : forall x, x <> a2 -> nodes m2 x = nodes m1 x) by (intros; now apply set_ne).
    assert (M2b : nodes m2 a2 = setParent (Some (cpar c)) (nodes m1 a2)) by apply set_eq.
    assert (exists m3, match root r2 with Some _ => m' <- wr (setKid0 (root r2)) (Some a) m2 ;; wr (setParent (Some a)) (root r2) m' | None => wr (setKid0 None) (Some a) m2 end = Some m3 /\
              next m3 = next m /\ nodes m3 a = setKid0 (root r2) (nodes m2 a) /\ (forall y, root r2 = Some y -> nodes m3 y = setParent (Some a) (nodes m2 y)) /\
              forall x, x <> a -> root r2 <> Some x -> nodes m3 x = nodes m2 x) as (m3 & R3 & X3 & M3a & M3y & M3).
    { destruct (root r2) as [y|] eqn:Ey.
      - destruct (Hyin y eq_refl) as (Y1 & Y2 & Y3). rewrite !wr_run. eexists. split; [reflexivity|]. split; [reflexivity|].
        split; [rewrite set_ne, set_eq by congruence; reflexivity|]. split; [intros y' [= <-]; rewrite set_eq, set_ne by congruence; reflexivity|].
        intros x H1 H2. rewrite !set_ne by congruence. reflexivity.
      - eexists. split; [reflexivity|]. split; [reflexivity|]. split; [apply set_eq|]. split; [discriminate|]. intros x H1 _. apply (set_ne a (setKid0 None) m2 x H1). }
    rewrite R3. rewrite wr_run. set (m4 := set a2 _ m3). rewrite wr_run. set (m5 := set a _ m4).
    assert (M5 : forall x, x <> a -> nodes m5 x = nodes m4 x) by (intros; now apply set_ne).
    assert (M5a : nodes m5 a = setParent (Some a2) (nodes m4 a)) by apply set_eq.
    assert (M4 : forall x, x <> a2 -> nodes m4 x = nodes m3 x) by (intros; now apply set_ne).
    assert (M4b : nodes m4 a2 = setKid1 (Some a) (nodes m3 a2)) by apply set_eq.
    assert (X5 : next m5 = next m) by exact X3. clearbody m5 m4 m2 m1.
    assert (N5a : nodes m5 a = HN k v h s b (Some a2) (root r2) (root r)).
    { rewrite M5a, M4, M3a, M2, M1 by congruence. rewrite Ea. reflexivity. }
    assert (N5b : nodes m5 a2 = HN k2 v2 h2 s2 b2 (Some (cpar c)) (root l2) (Some a)).
    { rewrite M5, M4b, M3, M2b, M1 by (try congruence; intros F; now apply Hyin in F). rewrite Ea2. reflexivity. }
    assert (N5y : forall y, root r2 = Some y -> nodes m5 y = setParent (Some a) (nodes m y)).
    { intros y Hy. destruct (Hyin y Hy) as (Y1 & Y2 & Y3). rewrite M5, M4, (M3y y Hy), M2, M1 by congruence. reflexivity. }
    assert (N5p : nodes m5 (cpar c) = setHole c (Some a2) (nodes m (cpar c))).
    { rewrite M5, M4, M3, M2, M1p by (try congruence; intros F; now apply Hyin in F). reflexivity. }
    assert (N5 : forall x, x <> a -> x <> a2 -> x <> cpar c -> root r2 <> Some x -> nodes m5 x = nodes m x).
    { intros x H1 H2 H3 H4. rewrite M5, M4, M3, M2, M1 by congruence. reflexivity. }
    assert (R5r : rep (nodes m5) (Some a) r).
    { apply (rep_frame (nodes m)); [|exact Hr]. intros x Hx. destruct (Hout x) as [F1 F2]; [tauto|]. apply N5; auto.
      intros F. apply root_in in F. eauto. }
    assert (R5r2 : rep (nodes m5) (Some a) r2).
    { apply (rep_reparent (nodes m) _ _ (Some a2)); auto. intros x Hx Hy. destruct (Hout x) as [F1 F2]; [tauto|]. apply N5; auto. }
    assert (R5l2 : rep (nodes m5) (Some a2) l2).
    { apply (rep_frame (nodes m)); [|exact Hl2]. intros x Hx. destruct (Hout x) as [F1 F2]; [tauto|]. apply N5; auto.
      intros F. apply root_in in F. eauto. }
    assert (Rout : forall t x, (forall z, In z (addrs t) -> z <> a /\ z <> a2) -> root t = Some x -> x <> a /\ x <> a2).
    { intros t x H F. apply root_in in F. auto. }
    destruct (update6 m5 a a2 Hne) as (m' & Ru & Xu & Ua & Ub & Uo); try (rewrite N5a || rewrite N5b; cbn [Kid0 Kid1]).
    { intros F. apply root_in in F. destruct (Hout a) as [F1 F2]; tauto || congruence. } { intros F. apply root_in in F. destruct (Hout a) as [F1 F2]; tauto || congruence. }
    { intros F. apply root_in in F. destruct (Hout a2) as [F1 F2]; tauto || congruence. } { intros F. apply root_in in F. destruct (Hout a2) as [F1 F2]; tauto || congruence. }
    { intros F. apply root_in in F. destruct (Hout a2) as [F1 F2]; tauto || congruence. } { congruence. }
    exists m'. split; [exact Ru|]. split; [congruence|].
    assert (R'r : rep (nodes m') (Some a) r).
    { apply (rep_frame (nodes m5)); [|exact R5r]. intros x Hx. destruct (Hout x) as [F1 F2]; [tauto|]. now apply Uo. }
    assert (R'r2 : rep (nodes m') (Some a) r2).
    { apply (rep_frame (nodes m5)); [|exact R5r2]. intros x Hx. destruct (Hout x) as [F1 F2]; [tauto|]. now apply Uo. }
    assert (R'l2 : rep (nodes m') (Some a2) l2).
    { apply (rep_frame (nodes m5)); [|exact R5l2]. intros x Hx. destruct (Hout x) as [F1 F2]; [tauto|]. now apply Uo. }
    assert (R'a : rep (nodes m') (Some a2) (resumA a k v r2 r)).
    { unfold resumA, renewA. cbn [rep]. split; [|tauto]. rewrite Ua, N5a. now apply renewed_rep with (a1 := Some a) (a2 := Some a). }
    rewrite N5b in Ub. change (Some a) with (root (resumA a k v r2 r)) in Ub. rewrite (renewed_rep _ _ _ _ _ _ _ _ _ _ _ R'l2 R'a) in Ub.
    assert (HQ : Permutation (addrs (resumA a2 k2 v2 l2 (resumA a k v r2 r)) ++ caddrs c) (a :: a2 :: addrs r ++ addrs r2 ++ addrs l2 ++ caddrs c)).
    { unfold resumA, renewA. cbn [addrs app]. rewrite <- !app_assoc. cbn [app]. etransitivity; [apply perm_skip, Permutation_sym, Permutation_middle|]. etransitivity; [apply perm_swap|]. do 2 constructor. rewrite <- ?app_assoc. apply Q3. }
    split; [|split; [|split]].
    - unfold resumA at 1. unfold renewA at 1. cbn [rep]. tauto.
    - cbn [root resumA renewA]. apply (repc_rehang (nodes m) _ _ (Some a)); auto.
      + intros x Hx. apply Hpos. right. right. rewrite !in_app_iff. tauto.
      + rewrite Uo by assumption. exact N5p.
      + intros x Hx Hxp. assert (Hx2 : x <> a /\ x <> a2 /\ root r2 <> Some x).
        { destruct Hx as [->|Hx].
          - split; [|split].
            + assert (0 < a)%nat by (apply Hpos; now left). lia.
            + assert (0 < a2)%nat by (apply Hpos; right; now left). lia.
            + intros F. apply root_in in F. assert (0 < 0)%nat; [|lia]. apply Hpos. right. right. rewrite !in_app_iff. tauto.
          - destruct (Hout x) as [F1 F2]; [tauto|]. split; [assumption|]. split; [assumption|]. intros F. apply root_in in F. eauto. }
        rewrite Uo by tauto. apply N5; tauto.
    - eapply Permutation_NoDup; [apply Permutation_sym, HQ|]. eapply Permutation_NoDup; [exact HP|exact Hnd].
    - intros x Hx. rewrite Xu, X5. apply Hpos. eapply Permutation_in; [exact HQ|exact Hx].
  Qed.

  (** ** what a subtree becomes *)
  Definition agrees (r : option mem) (e : option stree) m (c : list frame) : Prop :=
    match e with
    | None => r = None
    | Some t' => exists m' tA, r = Some m' /\ next m' = next m /\ zip m' tA c /\ erase tA = t'
    end.
  Lemma agrees_next r e m m1 c : next m1 = next m -> agrees r e m1 c -> agrees r e m c.
  Proof. intros H. unfold agrees. destruct e; [|auto]. now rewrite H. Qed.
  Lemma lrotate_ok m a s h b k v l r c : zip m (AN a s h b k v l r) c ->
    agrees (lrotate (Some a) m) (slrotate (SN s h b k v (erase l) (erase r))) m c.
  Proof.
    intros Hz. destruct r as [|a2 s2 h2 b2 k2 v2 l2 r2]; cbn [erase slrotate agrees].
    - unfold lrotate, rd. destruct Hz as ((-> & _) & _). reflexivity.
    - destruct (lrotate_run _ _ _ _ _ _ _ _ _ _ _ _ _ _ _ _ _ Hz) as (m' & R & X & Z'). exists m'. eexists. split; [exact R|]. split; [exact X|]. split; [exact Z'|]. reflexivity.
  Qed.
  Lemma rrotate_ok m a s h b k v l r c : zip m (AN a s h b k v l r) c ->
    agrees (rrotate (Some a) m) (srrotate (SN s h b k v (erase l) (erase r))) m c.
  Proof.
    intros Hz. destruct l as [|a2 s2 h2 b2 k2 v2 l2 r2]; cbn [erase srrotate agrees].
    - unfold rrotate, rd. destruct Hz as ((-> & _) & _). reflexivity.
    - destruct (rrotate_run _ _ _ _ _ _ _ _ _ _ _ _ _ _ _ _ _ Hz) as (m' & R & X & Z'). exists m'. eexists. split; [exact R|]. split; [exact X|]. split; [exact Z'|]. reflexivity.
  Qed.
  Lemma sizeRRotate_ok m a s h b k v l r c : zip m (AN a s h b k v l r) c ->
    agrees (sizeRRotate (Some a) m) (ssizeRRotate (SN s h b k v (erase l) (erase r))) m c.
  Proof.
    intros Hz. destruct r as [|a2 s2 h2 b2 k2 v2 l2 r2].
    - cbn [erase ssizeRRotate agrees]. unfold sizeRRotate, rd. destruct Hz as ((-> & _) & _). reflexivity.
    - unfold sizeRRotate, rd. assert (Hz' := Hz). destruct Hz' as ((Ea & Hl & Ea2 & Hl2 & Hr2) & _). rewrite Ea. cbn [Kid1 root]. rewrite Ea2. cbn [Kid0 Kid1].
      rewrite (rep_size _ _ _ Hl2), (rep_size _ _ _ Hr2). cbn [erase ssizeRRotate]. destruct (sizeT (erase l2) >? sizeT (erase r2)).
      + assert (Hz2 : zip m (AN a2 s2 h2 b2 k2 v2 l2 r2) (FR true a s h b k v l :: c)) by (apply zip_down; exact Hz).
        apply rrotate_ok in Hz2. unfold agrees in Hz2 at 1. destruct (srrotate _) as [r'|].
        * destruct Hz2 as (m1 & tA & R & X & Z1 & <-). rewrite R. apply zip_down in Z1. apply (agrees_next _ _ _ m1 _ X). apply lrotate_ok. exact Z1.
        * rewrite Hz2. reflexivity.
      + apply (lrotate_ok m a s h b k v l (AN a2 s2 h2 b2 k2 v2 l2 r2) c Hz).
  Qed.
  Lemma sizeLRotate_ok m a s h b k v l r c : zip m (AN a s h b k v l r) c ->
    agrees (sizeLRotate (Some a) m) (ssizeLRotate (SN s h b k v (erase l) (erase r))) m c.
  Proof.
    intros Hz. destruct l as [|a2 s2 h2 b2 k2 v2 l2 r2].
    - cbn [erase ssizeLRotate agrees]. unfold sizeLRotate, rd. destruct Hz as ((-> & _) & _). reflexivity.
    - unfold sizeLRotate, rd. assert (Hz' := Hz). destruct Hz' as ((Ea & (Ea2 & Hl2 & Hr2) & Hr) & _). rewrite Ea. cbn [Kid0 root]. rewrite Ea2. cbn [Kid0 Kid1].
      rewrite (rep_size _ _ _ Hl2), (rep_size _ _ _ Hr2). cbn [erase ssizeLRotate]. destruct (sizeT (erase l2) <? sizeT (erase r2)).
      + assert (Hz2 : zip m (AN a2 s2 h2 b2 k2 v2 l2 r2) (FR false a s h b k v r :: c)) by (apply zip_down; exact Hz).
        apply lrotate_ok in Hz2. unfold agrees in Hz2 at 1. destruct (slrotate _) as [r'|].
        * destruct Hz2 as (m1 & tA & R & X & Z1 & <-). rewrite R. apply zip_down in Z1. apply (agrees_next _ _ _ m1 _ X). apply rrotate_ok. exact Z1.
        * rewrite Hz2. reflexivity.
      + apply (rrotate_ok m a s h b k v (AN a2 s2 h2 b2 k2 v2 l2 r2) r c Hz).
  Qed.

  (** assignments to Size, Height and Balance *)
  Lemma set_focus m a f s h b k v l r c s' h' b' : zip m (AN a s h b k v l r) c ->
    (forall p x y, f (HN k v h s b p x y) = HN k v h' s' b' p x y) -> zip (set a f m) (AN a s' h' b' k v l r) c.
  Proof.
    intros ((Ea & Hl & Hr) & Hc & Hn & Hp) Hf. cbn [root addrs] in *. cbn [app] in Hn. apply NoDup_cons_iff in Hn as [Hn1 Hn2].
    assert (Hne : forall x, In x ((addrs l ++ addrs r) ++ caddrs c) -> x <> a) by (intros x Hx ->; contradiction).
    split; [|split; [|split]].
    - cbn [rep]. rewrite set_eq, Ea, Hf. split; [reflexivity|].
      split; apply (rep_frame (nodes m)); auto; intros x Hx; apply set_ne, Hne; rewrite !in_app_iff; tauto.
    - cbn [root]. apply (repc_frame (nodes m)); [| |assumption].
      + apply set_ne. specialize (Hp a (or_introl eq_refl)). lia.
      + intros x Hx. apply set_ne, Hne. rewrite !in_app_iff. tauto.
    - now constructor.
    - exact Hp.
  Qed.
  Lemma grow_run m a s h b k v l r c : zip m (AN a s h b k v l r) c ->
    exists m', grow (Some a) m = Some m' /\ next m' = next m /\ zip m' (renewA (s + 1) a k v l r) c.
  Proof.
    intros Hz. unfold grow, rd. assert (Ea : nodes m a = HN k v h s b (Some (cpar c)) (root l) (root r)) by apply Hz. rewrite Ea. cbn [Size].
    rewrite wr_run. set (m1 := set a _ m). assert (Z1 : zip m1 (AN a (s + 1) h b k v l r) c) by (apply (set_focus m a _ s h b); [exact Hz|reflexivity]).
    rewrite updateBalance_run. assert (Z1' := Z1). destruct Z1' as ((E1 & L1 & R1) & _). rewrite E1. cbn [Kid0 Kid1]. rewrite (rep_size _ _ _ L1), (rep_size _ _ _ R1).
    set (m2 := set a _ m1). assert (Z2 : zip m2 (AN a (s + 1) h (sizeT (erase l) - sizeT (erase r)) k v l r) c) by (eapply (set_focus m1 a); [exact Z1|reflexivity]).
    rewrite updateHeight_run. assert (Z2' := Z2). destruct Z2' as ((E2 & L2 & R2) & _). rewrite E2. cbn [Kid0 Kid1]. rewrite (rep_height _ _ _ L2), (rep_height _ _ _ R2).
    eexists. split; [reflexivity|]. split; [reflexivity|]. eapply set_focus; [exact Z2|]. reflexivity.
  Qed.
  Lemma sums_run m a s h b k v l r c : zip m (AN a s h b k v l r) c ->
    exists m', (m1 <- updateSize (Some a) m ;; m2 <- updateBalance (Some a) m1 ;; updateHeight (Some a) m2) = Some m' /\
      next m' = next m /\ zip m' (resumA a k v l r) c.
  Proof.
    intros Hz. rewrite updateSize_run. assert (Z0 := Hz). destruct Z0 as ((E0 & L0 & R0) & _). rewrite E0. cbn [Kid0 Kid1]. rewrite (rep_size _ _ _ L0), (rep_size _ _ _ R0).
    set (m1 := set a _ m). assert (Z1 : zip m1 (AN a (sizeT (erase l) + sizeT (erase r) + 1) h b k v l r) c) by (eapply set_focus; [exact Hz|reflexivity]).
    rewrite updateBalance_run. assert (Z1' := Z1). destruct Z1' as ((E1 & L1 & R1) & _). rewrite E1. cbn [Kid0 Kid1]. rewrite (rep_size _ _ _ L1), (rep_size _ _ _ R1).
    set (m2 := set a _ m1). assert (Z2 : zip m2 (AN a (sizeT (erase l) + sizeT (erase r) + 1) h (sizeT (erase l) - sizeT (erase r)) k v l r) c) by (eapply set_focus; [exact Z1|reflexivity]).
    rewrite updateHeight_run. assert (Z2' := Z2). destruct Z2' as ((E2 & L2 & R2) & _). rewrite E2. cbn [Kid0 Kid1]. rewrite (rep_height _ _ _ L2), (rep_height _ _ _ R2).
    eexists. split; [reflexivity|]. split; [reflexivity|]. eapply set_focus; [exact Z2|]. reflexivity.
  Qed.
  Lemma len_caddrs (c : list frame) : (length c <= length (caddrs c))%nat.
  Proof. induction c as [|f c IH]; cbn [caddrs length]; [lia|]. rewrite app_length. lia. Qed.
  Lemma zip_len m t c : zip m t c -> (length (addrs t) + length c < next m)%nat \/ (t = AE /\ c = []).
  Proof.
    intros (_ & _ & Hn & Hp). assert (Hn0 : NoDup (0%nat :: addrs t ++ caddrs c)).
    { constructor; [|assumption]. intros F. apply Hp in F. lia. }
    destruct (addrs t ++ caddrs c) as [|x L] eqn:El.
    { right. destruct t; [|discriminate]. destruct c; [auto|discriminate]. }
    left. assert (Hlt : (0 < x < next m)%nat) by (apply Hp; now left).
    assert (Hi : incl (0%nat :: x :: L) (seq 0 (next m))).
    { intros y [<-|Hy]; apply in_seq; [lia|]. apply Hp in Hy. lia. }
    apply NoDup_incl_length in Hi; [|assumption]. rewrite seq_length in Hi. rewrite <- El in Hi. cbn [length] in Hi. rewrite app_length in Hi.
    pose proof (len_caddrs c). lia.
  Qed.
End P.

Section C.
  Context {K V : Type} (cmp : K -> K -> Z) (shift : Z).
  Notation ptr := (option nat).
  Notation mem := (mem K V).
  Notation stree := (stree K V).
  Notation frame := (@frame K V).
  Implicit Types (m : mem).

  Fixpoint climbs (st : climb) (t : stree) (c : list frame) : option stree :=
    match c with
    | [] => Some t
    | f :: c => '(t', st') <- sfixPut shift st (plug f t) ;; climbs st' t' c
    end.
  Definition runc (st : climb) (f : nat) (cur : ptr) m : option mem :=
    match st with First => fixPut shift cur m | Height h => fixLoop shift f h cur m | Sizes => fixPutSize f cur m end.
  Lemma plugA_shape (f : frame) t : exists s h b k v l r, plugA f t = AN (fa f) s h b k v l r.
  Proof. unfold plugA. destruct (fd f); repeat eexists. Qed.
  Lemma climb_ok c : forall st f m t, zip m t c -> (length c < f)%nat -> (st = First -> c <> []) ->
    agrees (runc st f (Some (cpar c)) m) (climbs st (erase t) c) m [].
  Proof.
    induction c as [|fr c IH]; intros st f m t Hz Hf Hst.
    - destruct f as [|f]; [lia|]. cbn [climbs agrees cpar]. exists m, t. split; [|auto]. destruct st; [now destruct Hst|reflexivity|reflexivity].
    - cbn [climbs cpar length] in *. rewrite <- erase_plug. assert (Hp : (0 < fa fr)%nat) by (apply Hz; apply in_or_app; right; now left).
      apply zip_down in Hz. destruct (plugA_shape fr t) as (s & h & b & k & v & l & r & E). rewrite E in *. clear E.
      assert (Hnc : eqp (Some (fa fr)) None || eqp (Some (fa fr)) (Some 0%nat) = false) by (cbn [eqp orb]; destruct (Nat.eqb_spec (fa fr) 0); [lia|reflexivity]).
      assert (Hlen : forall m' (t' : atree), zip m' t' c -> t' <> AE -> (length c < S (next m'))%nat).
      { intros m' t' Hz' Ht. apply zip_len in Hz' as [H|[H _]]; [lia|contradiction]. }
      destruct st as [| ht |]; cbn [runc sfixPut erase].
      + unfold fixPut. destruct (grow_run _ _ _ _ _ _ _ _ _ _ Hz) as (m1 & -> & X1 & Z1). apply (agrees_next _ _ _ m1 _ X1).
        unfold rd. assert (E1 := proj1 (proj1 Z1)). rewrite E1. cbn [Size Parent].
        assert (L1 := Hlen _ _ Z1 ltac:(discriminate)).
        destruct (s + 1 =? 3).
        * apply (IH Sizes _ m1 _ Z1 L1). discriminate.
        * apply (IH (Height 2) _ m1 _ Z1 L1). discriminate.
      + destruct f as [|f]; [lia|]. cbn [fixLoop]. rewrite Hnc. destruct (grow_run _ _ _ _ _ _ _ _ _ _ Hz) as (m1 & -> & X1 & Z1). apply (agrees_next _ _ _ m1 _ X1).
        unfold rd. assert (E1 := proj1 (proj1 Z1)). rewrite E1. cbn [Size Parent Balance].
        destruct (shift <? 0); [reflexivity|].
        assert (Hup : agrees (fixLoop shift f (ht + 1) (Some (cpar c)) m1) (climbs (Height (ht + 1)) (erase (renewA (s + 1) (fa fr) k v l r)) c) m1 [])
          by (apply (IH (Height (ht + 1)) f m1 _ Z1); [lia|discriminate]).
        destruct (s + 1 <? shl64 ht); [|exact Hup]. cbn [renew].
        destruct (sizeT (erase l) - sizeT (erase r) <? 0).
        * destruct (Z.shiftr (shl64 ht) shift + 1 <=? - (sizeT (erase l) - sizeT (erase r))); [|exact Hup].
          assert (HR := sizeRRotate_ok _ _ _ _ _ _ _ _ _ _ Z1). unfold agrees in HR. unfold renew. destruct (ssizeRRotate _) as [t'|].
          -- destruct HR as (m2 & tA & -> & X2 & Z2 & <-). apply (agrees_next _ _ _ m2 _ X2). apply (IH Sizes (S (next m2)) m2 tA Z2); [|discriminate].
             destruct (zip_len _ _ _ Z2) as [H|[_ ->]]; [lia|cbn [length]; lia].
          -- rewrite HR. reflexivity.
        * destruct (Z.shiftr (shl64 ht) shift + 1 <=? sizeT (erase l) - sizeT (erase r)); [|exact Hup].
          assert (HR := sizeLRotate_ok _ _ _ _ _ _ _ _ _ _ Z1). unfold agrees in HR. unfold renew. destruct (ssizeLRotate _) as [t'|].
          -- destruct HR as (m2 & tA & -> & X2 & Z2 & <-). apply (agrees_next _ _ _ m2 _ X2). apply (IH Sizes (S (next m2)) m2 tA Z2); [|discriminate].
             destruct (zip_len _ _ _ Z2) as [H|[_ ->]]; [lia|cbn [length]; lia].
          -- rewrite HR. reflexivity.
      + destruct f as [|f]; [lia|]. cbn [fixPutSize]. rewrite Hnc. destruct (sums_run _ _ _ _ _ _ _ _ _ _ Hz) as (m' & R & X1 & Z1).
        destruct (updateSize (Some (fa fr)) m) as [m1|]; [|discriminate]. destruct (updateBalance (Some (fa fr)) m1) as [m2|]; [|discriminate]. rewrite R.
        apply (agrees_next _ _ _ m' _ X1). unfold rd. assert (E1 := proj1 (proj1 Z1)). rewrite E1. cbn [Parent].
        apply (IH Sizes f m' _ Z1); [lia|discriminate].
  Qed.

  Fixpoint plugs (t : stree) (c : list frame) : stree := match c with [] => t | f :: c => plugs (plug f t) c end.
  Definition fin (res : option (stree * option climb)) (c : list frame) : option (stree * bool) :=
    '(t, o) <- res ;;
    match o with None => Some (plugs t c, false) | Some st => t' <- climbs st t c ;; Some (t', true) end.
  Lemma zip_top m c : forall t, zip m t c -> exists tA, zip m tA [] /\ erase tA = plugs (erase t) c.
  Proof.
    induction c as [|f c IH]; intros t Hz; [now exists t|]. apply zip_down in Hz. destruct (IH _ Hz) as (tA & H1 & H2). exists tA. split; [assumption|].
    cbn [plugs]. now rewrite <- erase_plug.
  Qed.
  (** a new leaf *)
  Lemma insert_right m a s h b k v l c key value : zip m (AN a s h b k v l AE) c ->
    exists m2, (let '(node, m1) := newNode (Some a) key value m in wr (setKid1 node) (Some a) m1) = Some m2 /\ next m2 = S (next m) /\
      zip m2 (AN a s h b k v l (AN (next m) 1 1 0 key value AE AE)) c.
  Proof.
    intros ((Ea & Hl & _) & Hc & Hn & Hp). cbn [root addrs app] in *. rewrite app_nil_r in *. cbn [newNode]. set (m1 := Mem _ _). rewrite wr_run.
    eexists. split; [reflexivity|]. split; [reflexivity|].
    assert (Ha : (0 < a < next m)%nat) by (apply Hp; now left).
    assert (N1 : forall x, (x < next m)%nat -> nodes m1 x = nodes m x) by (intros x Hx; cbn; destruct (Nat.eqb_spec x (next m)); [lia|reflexivity]).
    assert (N1n : nodes m1 (next m) = HN key value 1 1 0 (Some a) None None) by (cbn; now rewrite Nat.eqb_refl).
    apply NoDup_cons_iff in Hn as [Hn1 Hn2].
    assert (N2 : forall x, x = 0%nat \/ In x (addrs l ++ caddrs c) -> nodes (set a (setKid1 (Some (next m))) m1) x = nodes m x).
    { intros x Hx. assert (x <> a /\ x < next m)%nat as [H1 H2].
      { destruct Hx as [->|Hx]; [lia|]. split; [intros ->; contradiction|]. apply Hp. now right. }
      rewrite set_ne by assumption. now apply N1. }
    split; [|split; [|split]].
    - cbn [rep root]. split; [rewrite set_eq, N1, Ea by lia; reflexivity|]. split.
      + apply (rep_frame (nodes m)); [|assumption]. intros x Hx. apply N2. right. apply in_or_app. auto.
      + split; [|auto]. rewrite set_ne by lia. exact N1n.
    - cbn [root]. apply (repc_frame (nodes m)); [| |assumption]; [apply N2; auto|]. intros x Hx. apply N2. right. apply in_or_app. auto.
    - cbn [addrs app]. rewrite <- app_assoc. cbn [app]. constructor.
      + intros Hi. apply in_app_or in Hi as [Hi|[Hi|Hi]]; [apply Hn1, in_or_app; auto|lia|apply Hn1, in_or_app; auto].
      + eapply Permutation_NoDup; [apply Permutation_middle|]. constructor; [|assumption]. intros Hi. specialize (Hp _ (or_intror Hi)). lia.
    - cbn [addrs app next set]. intros x Hx. rewrite <- app_assoc in Hx. cbn [app] in Hx. destruct Hx as [<-|Hx]; [subst m1; cbn [next]; lia|].
      apply in_app_or in Hx as [Hx|[<-|Hx]]; [| |]; subst m1; cbn [next]; [| lia |];
        assert (0 < x < next m)%nat by (apply Hp; right; apply in_or_app; auto); lia.
  Qed.
  Lemma insert_left m a s h b k v r c key value : zip m (AN a s h b k v AE r) c ->
    exists m2, (let '(node, m1) := newNode (Some a) key value m in wr (setKid0 node) (Some a) m1) = Some m2 /\ next m2 = S (next m) /\
      zip m2 (AN a s h b k v (AN (next m) 1 1 0 key value AE AE) r) c.
  Proof.
    intros ((Ea & _ & Hl) & Hc & Hn & Hp). cbn [root addrs app] in *. cbn [newNode]. set (m1 := Mem _ _). rewrite wr_run.
    eexists. split; [reflexivity|]. split; [reflexivity|].
    assert (Ha : (0 < a < next m)%nat) by (apply Hp; now left).
    assert (N1 : forall x, (x < next m)%nat -> nodes m1 x = nodes m x) by (intros x Hx; cbn; destruct (Nat.eqb_spec x (next m)); [lia|reflexivity]).
    assert (N1n : nodes m1 (next m) = HN key value 1 1 0 (Some a) None None) by (cbn; now rewrite Nat.eqb_refl).
    apply NoDup_cons_iff in Hn as [Hn1 Hn2].
    assert (N2 : forall x, x = 0%nat \/ In x (addrs r ++ caddrs c) -> nodes (set a (setKid0 (Some (next m))) m1) x = nodes m x).
    { intros x Hx. assert (x <> a /\ x < next m)%nat as [H1 H2].
      { destruct Hx as [->|Hx]; [lia|]. split; [intros ->; contradiction|]. apply Hp. now right. }
      rewrite set_ne by assumption. now apply N1. }
    split; [|split; [|split]].
    - cbn [rep root]. split; [rewrite set_eq, N1, Ea by lia; reflexivity|]. split.
      + split; [|auto]. rewrite set_ne by lia. exact N1n.
      + apply (rep_frame (nodes m)); [|assumption]. intros x Hx. apply N2. right. apply in_or_app. auto.
    - cbn [root]. apply (repc_frame (nodes m)); [| |assumption]; [apply N2; auto|]. intros x Hx. apply N2. right. apply in_or_app. auto.
    - cbn [addrs app]. constructor.
      + intros [Hi|Hi]; [lia|contradiction].
      + constructor; [|assumption]. intros Hi. specialize (Hp _ (or_intror Hi)). lia.
    - cbn [addrs app next set]. subst m1; cbn [next]. intros x [<-|[<-|Hx]]; [lia|lia|].
      assert (0 < x < next m)%nat by (apply Hp; right; assumption). lia.
  Qed.

  Definition pagrees (r : option (mem * bool)) (e : option (stree * bool)) : Prop :=
    match e with
    | None => r = None
    | Some (t', b) => exists m' tA, r = Some (m', b) /\ zip m' tA [] /\ erase tA = t'
    end.
  Lemma fin_right key value (f : frame) s h b k v l r c : cmp k key <? 0 = true ->
    f = FR true (fa f) s h b k v l ->
    fin (sput cmp shift key value (SN s h b k v (erase l) r)) c = fin (sput cmp shift key value r) (f :: c).
  Proof.
    intros Hc ->. cbn [sput]. rewrite Hc. destruct (sput cmp shift key value r) as [[r' [st|]]|]; cbn [fin climbs plug plugs fd fs fh fb fk fv fo]; [|reflexivity|reflexivity].
    destruct (sfixPut _ _ _) as [[t' st']|]; reflexivity.
  Qed.
  Lemma fin_left key value (f : frame) s h b k v l r c : cmp k key <? 0 = false -> cmp k key >? 0 = true ->
    f = FR false (fa f) s h b k v r ->
    fin (sput cmp shift key value (SN s h b k v l (erase r))) c = fin (sput cmp shift key value l) (f :: c).
  Proof.
    intros Hc Hc2 ->. cbn [sput]. rewrite Hc, Hc2. destruct (sput cmp shift key value l) as [[r' [st|]]|]; cbn [fin climbs plug plugs fd fs fh fb fk fv fo]; [|reflexivity|reflexivity].
    destruct (sfixPut _ _ _) as [[t' st']|]; reflexivity.
  Qed.
  Lemma descend_ok key value t : forall a f m c, root t = Some a -> zip m t c -> (next m < length c + f)%nat ->
    pagrees (descend cmp shift f key value (Some a) m) (fin (sput cmp shift key value (erase t)) c).
  Proof.
    induction t as [|a0 s h b k v l IHl r IHr]; intros a f m c Hr Hz Hf; [discriminate|]. injection Hr as ->.
    assert (Hl := zip_len _ _ _ Hz). cbn [addrs length] in Hl. destruct Hl as [Hl|[F _]]; [|discriminate].
    destruct f as [|f]; [lia|]. cbn [descend]. unfold rd. assert (Ea := proj1 (proj1 Hz)). rewrite Ea. cbn [Key Kid0 Kid1 erase].
    destruct (cmp k key <? 0) eqn:C1.
    - rewrite (fin_right key value (FR true a s h b k v l)) by (assumption || reflexivity).
      destruct (root r) as [x|] eqn:Er.
      + apply (IHr x); [reflexivity|apply zip_down; exact Hz|cbn [length]; lia].
      + destruct r; [|discriminate]. destruct (insert_right m a s h b k v l c key value Hz) as (m2 & R & X & Z2).
        cbn [newNode] in R |- *. rewrite R. change (sput cmp shift key value (erase AE)) with (Some (erase (AN (next m) 1 1 0 key value AE AE), Some First)). cbn [fin].
        assert (Z2' : zip m2 (AN (next m) 1 1 0 key value AE AE) (FR true a s h b k v l :: c)) by (apply zip_down; exact Z2).
        assert (HC := climb_ok _ First (S (length (FR true a s h b k v l :: c))) m2 _ Z2' ltac:(lia) ltac:(discriminate)).
        unfold agrees in HC. cbn [runc cpar fa] in HC. destruct (climbs _ _ _) as [t'|].
        * destruct HC as (m' & tA & -> & _ & Z3 & <-). exists m', tA. auto.
        * rewrite HC. reflexivity.
    - destruct (cmp k key >? 0) eqn:C2.
      + rewrite (fin_left key value (FR false a s h b k v r)) by (assumption || reflexivity).
        destruct (root l) as [x|] eqn:Er.
        * apply (IHl x); [reflexivity|apply zip_down; exact Hz|cbn [length]; lia].
        * destruct l; [|discriminate]. destruct (insert_left m a s h b k v r c key value Hz) as (m2 & R & X & Z2).
          cbn [newNode] in R |- *. rewrite R. change (sput cmp shift key value (erase AE)) with (Some (erase (AN (next m) 1 1 0 key value AE AE), Some First)). cbn [fin].
          assert (Z2' : zip m2 (AN (next m) 1 1 0 key value AE AE) (FR false a s h b k v r :: c)) by (apply zip_down; exact Z2).
          assert (HC := climb_ok _ First (S (length (FR false a s h b k v r :: c))) m2 _ Z2' ltac:(lia) ltac:(discriminate)).
          unfold agrees in HC. cbn [runc cpar fa] in HC. destruct (climbs _ _ _) as [t'|].
          -- destruct HC as (m' & tA & -> & _ & Z3 & <-). exists m', tA. auto.
          -- rewrite HC. reflexivity.
      + cbn [sput]. rewrite C1, C2. cbn [fin pagrees]. destruct (zip_top _ _ _ Hz) as (tA & H1 & H2). exists m, tA. auto.
  Qed.
  Lemma get_ok key t : forall f m c, zip m t c -> (next m < length c + f)%nat ->
    get cmp f key (root t) m = sget cmp key (erase t).
  Proof.
    induction t as [|a s h b k v l IHl r IHr]; intros f m c Hz Hf.
    - destruct f as [|f]; [|reflexivity]. destruct (zip_len _ _ _ Hz) as [H|[_ ->]]; cbn [length] in *; lia.
    - assert (Hl := zip_len _ _ _ Hz). cbn [addrs length] in Hl. destruct Hl as [Hl|[F _]]; [|discriminate].
      destruct f as [|f]; [lia|]. cbn [get root sget erase]. rewrite (proj1 (proj1 Hz)). cbn [Key Value Kid0 Kid1].
      destruct (cmp k key <? 0); [reflexivity|]. destruct (cmp k key =? 0).
      + apply (IHl f m (FR false a s h b k v r :: c)); [apply zip_down; exact Hz|cbn [length]; lia].
      + destruct (cmp k key =? 1); [|reflexivity]. apply (IHr f m (FR true a s h b k v l :: c)); [apply zip_down; exact Hz|cbn [length]; lia].
  Qed.
End C.
