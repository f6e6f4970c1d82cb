(** tree/indextree in memory: Put, Set, Upsert. *)
From Coq Require Import Permutation.
From Verif Require Import Base Bind Machine AvlTree AvlModel AvlSpec IndexSpec IndexModel.
From Verif Require Import IndexHeapModel IndexHeapProofs.
Local Open Scope Z_scope.

Section Rebalance.
  Context {K V : Type}.
  Notation mem := (mem K V).
  Notation tree := (tree K V).
  Implicit Types m : mem.

  Lemma same_trans m1 m2 m3 c : same m1 m2 c -> same m2 m3 c -> same m1 m3 c.
  Proof. intros (H1 & H2) (H3 & H4). split; congruence. Qed.
  Lemma same_refl m c : same m m c.
  Proof. split; reflexivity. Qed.

  Lemma rd_ok {X} (f : mem -> nat -> X) a m : rd f (Some a) m = Ret (f m a) m.
  Proof. reflexivity. Qed.
  Lemma rdKid_ok a d m : rdKid (Some a) d m = Ret (Children m a d) m.
  Proof. reflexivity. Qed.

  Lemma double_step m root c d a x y t1 t' : ok m root c (nd a d x y) -> trot (negb d) (view m x) = Some t1 ->
    trot d (tnd (Size m a) (Key m a) (Value m a) d t1 (view m y)) = Some t' ->
    exists q m1 m2 s2, rotate (negb d) (pt x) m = Ret q m1 /\ rotate d (Some a) m1 = Ret (pt s2) m2 /\
      ok m2 root c s2 /\ view m2 s2 = t' /\ same m m2 c.
  Proof.
    intros Hok H1 H2. apply ok_down in Hok.
    destruct (rotate_step m root _ (negb d) x t1 Hok H1) as (m1 & s1 & R1 & O1 & V1 & (N1 & C1)).
    apply ok_down in O1. cbn [cview map fview] in C1. injection C1 as C1a C1b C1c C1d C1e.
    assert (X : view m1 (nd a d s1 y) = tnd (Size m a) (Key m a) (Value m a) d t1 (view m y)) by (rewrite view_nd; congruence).
    rewrite <- X in H2.
    destruct (rotate_step m1 root c d (nd a d s1 y) t' O1 H2) as (m2 & s2 & R2 & O2 & V2 & (N2 & C2)). rewrite pt_nd in R2.
    exists (pt s1), m1, m2, s2. repeat (split; [assumption|]). split; [congruence|]. unfold cview in *. congruence.
  Qed.

  Lemma sizeRRotate_ok m root c s t' : ok m root c s -> IndexModel.sizeRRotate (view m s) = Some t' ->
    exists m' s', sizeRRotate (pt s) m = Ret (pt s') m' /\ ok m' root c s' /\ view m' s' = t' /\ same m m' c.
  Proof.
    intros Hok Ht. destruct s as [|a l [|b rl rr]]; try discriminate. cbn [view IndexModel.sizeRRotate] in Ht.
    pose proof (ok_b _ _ _ _ Hok) as (Kl & Kr & Pl & Pr & Bl & Br). cbn [pt] in Kr. cbn [body] in Br. destruct Br as (Krl & Krr & _).
    unfold sizeRRotate. cbn [pt]. erewrite run_bind by (rewrite rdKid_ok, Kr; reflexivity).
    erewrite run_bind by (apply (getChildrenSize_ok _ _ false rl rr); assumption). cbn [fst snd]. unfold gs.
    destruct (IndexModel.getSize (view m rl) >? IndexModel.getSize (view m rr)).
    - destruct (IndexModel.rrotate (N (Size m b) (Key m b) (Value m b) (view m rl) (view m rr))) as [r'|] eqn:Er; [|discriminate].
      erewrite run_bind by (rewrite rdKid_ok, Kr; reflexivity).
      destruct (double_step m root c true a (B b rl rr) l r' t' Hok Er Ht) as (q & m1 & m2 & s2 & R1 & R2 & O2 & V2 & S2).
      unfold rrotate. erewrite run_bind by exact R1. exists m2, s2. auto.
    - exact (rotate_step m root c true (B a l (B b rl rr)) t' Hok Ht).
  Qed.
  Lemma sizeLRotate_ok m root c s t' : ok m root c s -> IndexModel.sizeLRotate (view m s) = Some t' ->
    exists m' s', sizeLRotate (pt s) m = Ret (pt s') m' /\ ok m' root c s' /\ view m' s' = t' /\ same m m' c.
  Proof.
    intros Hok Ht. destruct s as [|a [|b ll lr] r]; try discriminate. cbn [view IndexModel.sizeLRotate] in Ht.
    pose proof (ok_b _ _ _ _ Hok) as (Kl & Kr & Pl & Pr & Bl & Br). cbn [pt] in Kl. cbn [body] in Bl. destruct Bl as (Kll & Klr & _).
    unfold sizeLRotate. cbn [pt]. erewrite run_bind by (rewrite rdKid_ok, Kl; reflexivity).
    erewrite run_bind by (apply (getChildrenSize_ok _ _ false ll lr); assumption). cbn [fst snd]. unfold gs.
    destruct (IndexModel.getSize (view m ll) <? IndexModel.getSize (view m lr)).
    - destruct (IndexModel.lrotate (N (Size m b) (Key m b) (Value m b) (view m ll) (view m lr))) as [r'|] eqn:Er; [|discriminate].
      erewrite run_bind by (rewrite rdKid_ok, Kl; reflexivity).
      destruct (double_step m root c false a (B b ll lr) r r' t' Hok Er Ht) as (q & m1 & m2 & s2 & R1 & R2 & O2 & V2 & S2).
      unfold lrotate. erewrite run_bind by exact R1. exists m2, s2. auto.
    - exact (rotate_step m root c false (B a (B b ll lr) r) t' Hok Ht).
  Qed.

  Lemma fixRemoveRange_ok m root c s t' : ok m root c s -> IndexModel.fixRemoveRange (view m s) = Some t' ->
    exists m' s', fixRemoveRange (pt s) m = Ret tt m' /\ ok m' root c s' /\ view m' s' = t' /\ same m m' c.
  Proof.
    intros Hok Ht. destruct s as [|a l r]; [discriminate|]. cbn [view IndexModel.fixRemoveRange] in Ht.
    pose proof (ok_b _ _ _ _ Hok) as (Kl & Kr & Pl & Pr & Bl & Br).
    unfold fixRemoveRange. cbn [pt]. erewrite run_bind by apply rd_ok.
    destruct (Size m a <=? 2). { injection Ht as <-. exists m, (B a l r). split; [reflexivity|]. split; [exact Hok|]. split; [reflexivity|apply same_refl]. }
    erewrite run_bind by (apply (getChildrenSize_ok _ _ false l r); assumption). cbv zeta. unfold gs. cbv beta iota.
    destruct (_ && _).
    - destruct l as [|b ll lr]; [discriminate|]. cbn [view] in Ht. cbn [body] in Bl. destruct Bl as (Kll & Klr & _). cbn [pt] in Kl.
      erewrite run_bind by (rewrite rdKid_ok, Kl; reflexivity).
      erewrite run_bind by (apply (getChildrenSize_ok _ _ false ll lr); assumption). cbn [fst snd]. unfold gs.
      destruct (IndexModel.getSize (view m ll) <? IndexModel.getSize (view m lr)).
      + destruct (IndexModel.lrotate (N (Size m b) (Key m b) (Value m b) (view m ll) (view m lr))) as [r'|] eqn:Er; [|discriminate].
        destruct (double_step m root c false a (B b ll lr) r r' t' Hok Er Ht) as (q & m1 & m2 & s2 & R1 & R2 & O2 & V2 & S2).
        erewrite run_bind by (unfold lrotate; erewrite run_bind by exact R1; reflexivity). unfold rrotate. erewrite run_bind by exact R2. exists m2, s2. auto.
      + destruct (rotate_step m root c false (B a (B b ll lr) r) t' Hok Ht) as (m2 & s2 & R2 & O2 & V2 & S2).
        erewrite run_bind by reflexivity. unfold rrotate. erewrite run_bind by exact R2. exists m2, s2. auto.
    - destruct (_ && _).
      + destruct r as [|b rl rr]; [discriminate|]. cbn [view] in Ht. cbn [body] in Br. destruct Br as (Krl & Krr & _). cbn [pt] in Kr.
        erewrite run_bind by (rewrite rdKid_ok, Kr; reflexivity).
        erewrite run_bind by (apply (getChildrenSize_ok _ _ false rl rr); assumption). cbn [fst snd]. unfold gs.
        destruct (IndexModel.getSize (view m rl) >? IndexModel.getSize (view m rr)).
        * destruct (IndexModel.rrotate (N (Size m b) (Key m b) (Value m b) (view m rl) (view m rr))) as [r'|] eqn:Er; [|discriminate].
          destruct (double_step m root c true a (B b rl rr) l r' t' Hok Er Ht) as (q & m1 & m2 & s2 & R1 & R2 & O2 & V2 & S2).
          erewrite run_bind by (unfold rrotate; erewrite run_bind by exact R1; reflexivity). unfold lrotate. erewrite run_bind by exact R2. exists m2, s2. auto.
        * destruct (rotate_step m root c true (B a l (B b rl rr)) t' Hok Ht) as (m2 & s2 & R2 & O2 & V2 & S2).
          erewrite run_bind by reflexivity. unfold lrotate. erewrite run_bind by exact R2. exists m2, s2. auto.
      + injection Ht as <-. exists m, (B a l r). split; [reflexivity|]. split; [exact Hok|]. split; [reflexivity|apply same_refl].
  Qed.

  (** new data in one node *)
  Definition onlyData m m' (a : nat) : Prop :=
    Parent m' = Parent m /\ Children m' = Children m /\ next m' = next m /\ others m m' a.
  Lemma put_data m m' root c a d x y : onlyData m m' a -> ok m root c (nd a d x y) ->
    ok m' root c (nd a d x y) /\ view m' x = view m x /\ view m' y = view m y /\ same m m' c.
  Proof.
    intros (Hp & Hk & Hn & Ho) H. destruct (ok_notin _ _ _ _ _ _ _ H) as (N1 & N2 & N3 & N4).
    split; [eapply ok_links; eauto|]. split; [eapply view_others; eauto|]. split; [eapply view_others; eauto|].
    split; [exact Hn|eapply cview_others; eauto].
  Qed.
  Lemma onlyData_trans m1 m2 m3 a : onlyData m1 m2 a -> onlyData m2 m3 a -> onlyData m1 m3 a.
  Proof.
    intros (H1 & H2 & H3 & H4) (H5 & H6 & H7 & H8). split; [congruence|]. split; [congruence|]. split; [congruence|].
    intros b Hb. destruct (H4 b Hb) as (<- & <- & <-). apply H8, Hb.
  Qed.
  Lemma setSize_only z a m : onlyData m (setSize z a m) a.
  Proof. split; [reflexivity|]. split; [reflexivity|]. split; [reflexivity|]. intros b Hb. cbn. rewrite upd_ne by exact Hb. auto. Qed.
  Lemma setBalance_only z a m : onlyData m (setBalance z a m) a.
  Proof. split; [reflexivity|]. split; [reflexivity|]. split; [reflexivity|]. intros b Hb. cbn. auto. Qed.
  Lemma setKey_only z a m : onlyData m (setKey z a m) a.
  Proof. split; [reflexivity|]. split; [reflexivity|]. split; [reflexivity|]. intros b Hb. cbn. rewrite upd_ne by exact Hb. auto. Qed.
  Lemma setValue_only z a m : onlyData m (setValue z a m) a.
  Proof. split; [reflexivity|]. split; [reflexivity|]. split; [reflexivity|]. intros b Hb. cbn. rewrite upd_ne by exact Hb. auto. Qed.
  (** a new leaf *)
  Lemma alloc_ok m root c k v : ok m root c L ->
    exists m', (forall X (f : ptr -> M K V X), (let! node := alloc (Some (top root c)) 1 k v in wr (setKid (cdir c) node) (Some (top root c)) ;! f node) m = f (Some (next m)) m') /\
      ok m' root c (B (next m) L L) /\ view m' (B (next m) L L) = N 1 k v E E /\ cview m' c = cview m c.
  Proof.
    intros [Hc Hh Hb Hn Hl]. set (p := top root c). set (a := next m) in *. rewrite app_nil_r in Hn, Hl.
    assert (Hp : In p (root :: caddrs c)) by apply top_in. assert (pa : p <> a) by (intros X; apply Hl in Hp; unfold a in X; lia).
    assert (Hx : forall x, In x (root :: caddrs c) -> x <> a) by (intros x X ->; apply Hl in X; unfold a in X; lia).
    eexists. split; [intros X f; unfold alloc; erewrite run_bind by reflexivity; erewrite run_bind by reflexivity; reflexivity|].
    split; [|split].
    - constructor.
      + eapply cok_change; [exact Hn| | |exact Hc].
        * split; [intros x X; mm1; apply upd_ne, Hx; right; exact X|]. intros x e X Hne. mm1. destruct (Nat.eq_dec x p) as [->|Hxp].
          -- rewrite upd_eq. destruct (Bool.eqb_spec e (cdir c)); [fold p in Hne; congruence|]. rewrite upd_ne by exact pa. reflexivity.
          -- rewrite upd_ne by exact Hxp. rewrite upd_ne by (apply Hx, X). reflexivity.
        * mm1. fold p. rewrite upd_eq, Bool.eqb_reflx. reflexivity.
      + cbn [hangs]. mm1. rewrite upd_eq. reflexivity.
      + cbn [body pt hangs]. mm1. fold a. rewrite !(upd_ne _ p) by congruence. rewrite upd_eq. repeat split.
      + apply (Permutation_NoDup (l := a :: root :: caddrs c)).
        * apply (Permutation_app_comm [a] (root :: caddrs c)).
        * constructor; [intros X; exact (Hx _ X eq_refl)|exact Hn].
      + intros x X. mm1. apply (in_app_or (root :: caddrs c)) in X. destruct X as [X|[<-|[]]]; [apply Hl in X|]; unfold a; lia.
    - cbn [view]. mm1. fold a. rewrite !upd_eq. reflexivity.
    - apply cview_keep. intros x X. mm1. fold a. rewrite !upd_ne by (apply Hx; right; exact X). auto.
  Qed.
End Rebalance.

Section Put.
  Context {K V : Type} (cmp : K -> K -> Z) (shift : Z).
  Notation mem := (mem K V).
  Notation tree := (tree K V).
  Implicit Types m : mem.

  Fixpoint climbUp (C : list (tframe (K := K) (V := V))) (p : tree * climb) : option tree :=
    match C with [] => Some (fst p) | f :: C => p' <- IndexModel.fixPut shift (snd p) (tfill f (fst p)) ;; climbUp C p' end.

  (** cur.Size++; cur.updateBalance() *)
  Lemma bump m root c a d x y : ok m root c (nd a d x y) ->
    exists m', (forall X (k : M K V X), (let! s := rd Size (Some a) in wr (setSize (s + 1)) (Some a) ;! updateBalance (Some a) ;! k) m = k m') /\
      ok m' root c (nd a d x y) /\ view m' x = view m x /\ view m' y = view m y /\ same m m' c /\ Parent m' = Parent m /\
      Size m' a = Size m a + 1 /\ Key m' a = Key m a /\ Value m' a = Value m a /\
      Balance m' a = IndexModel.getSize (view m (if d then y else x)) - IndexModel.getSize (view m (if d then x else y)).
  Proof.
    intros Hok. pose proof (ok_b _ _ _ _ Hok) as Hb. apply body_nd in Hb. destruct Hb as (Kx & Ky & _).
    set (m1 := setSize (Size m a + 1) a m).
    destruct (put_data m m1 root c a d x y (setSize_only _ _ _) Hok) as (O1 & Vx & Vy & S1).
    eexists. split.
    - intros X k. erewrite run_bind by apply rd_ok. erewrite run_bind by reflexivity.
      erewrite run_bind by (apply (updateBalance_ok _ _ d x y); [exact Kx|exact Ky]). reflexivity.
    - fold m1. destruct (put_data m1 _ root c a d x y (setBalance_only (gs m1 (if d then y else x) - gs m1 (if d then x else y)) _ _) O1) as (O2 & Vx2 & Vy2 & S2).
      split; [exact O2|]. split; [congruence|]. split; [congruence|]. split; [eapply same_trans; eauto|]. split; [reflexivity|].
      unfold m1. mm. split; [reflexivity|]. split; [reflexivity|]. split; [reflexivity|]. fold m1. unfold gs. destruct d; rewrite Vx, Vy; cbn [setBalance Balance]; apply upd_eq.
  Qed.

  Lemma fixPutSize_ok root c : forall m s n t', ok m root c s -> (length c < n)%nat -> climbUp (cview m c) (view m s, Sizes) = Some t' ->
    exists m' s', fixPutSize root n (Some (top root c)) m = Ret tt m' /\ ok m' root [] s' /\ view m' s' = t' /\ next m' = next m.
  Proof.
    induction c as [|((a, d), y) c IH]; intros m s n t' Hok Hn Ht; (destruct n as [|n]; [cbn in Hn; lia|]); cbn [fixPutSize]; rewrite (ok_top _ _ _ _ Hok).
    - injection Ht as <-. exists m, s. auto.
    - cbn [top]. rewrite <- ok_down in Hok. destruct (bump _ _ _ _ _ _ _ Hok) as (m1 & Hrun & O1 & V1 & V2 & (N1 & C1) & P1 & Sz & Ky & Va & _).
      rewrite Hrun. erewrite run_bind by apply rd_ok. rewrite P1. rewrite ok_down in Hok. rewrite (ok_parent _ _ _ _ _ _ _ Hok).
      cbn [cview map fview climbUp tfill fst snd] in Ht.
      destruct (IH m1 (nd a d s y) n t' O1) as (m2 & s2 & R2 & O2 & W2 & N2).
      + cbn in Hn; lia.
      + rewrite C1, view_nd, Sz, Ky, Va, V1, V2. unfold cview. rewrite <- Ht. destruct d; reflexivity.
      + exists m2, s2. repeat (split; [assumption|]). congruence.
  Qed.

  Lemma fixPutLoop_ok root c : forall m s n h t', ok m root c s -> (length c < n)%nat -> climbUp (cview m c) (view m s, Height h) = Some t' ->
    exists m' s', fixPutLoop shift root n h (Some (top root c)) m = Ret tt m' /\ ok m' root [] s' /\ view m' s' = t' /\ next m' = next m.
  Proof.
    induction c as [|((a, d), y) c IH]; intros m s n h t' Hok Hn Ht; (destruct n as [|n]; [cbn in Hn; lia|]); cbn [fixPutLoop]; rewrite (ok_top _ _ _ _ Hok).
    - injection Ht as <-. exists m, s. auto.
    - cbn [top]. pose proof Hok as Hok0. rewrite <- ok_down in Hok. destruct (bump _ _ _ _ _ _ _ Hok) as (m1 & Hrun & O1 & V1 & V2 & (N1 & C1) & P1 & Sz & Ky & Va & Ba).
      rewrite Hrun. erewrite run_bind by apply rd_ok. rewrite P1. rewrite (ok_parent _ _ _ _ _ _ _ Hok0).
      cbn [cview map fview climbUp fst snd] in Ht.
      set (lt := view m (if d then y else s)) in *. set (rt := view m (if d then s else y)) in *.
      assert (Et : tfill (Size m a, Key m a, Value m a, d, view m y) (view m s) = N (Size m a) (Key m a) (Value m a) lt rt) by (unfold lt, rt; destruct d; reflexivity).
      assert (Ev : view m1 (nd a d s y) = N (Size m a + 1) (Key m a) (Value m a) lt rt) by (rewrite view_nd, Sz, Ky, Va, V1, V2; unfold lt, rt; destruct d; reflexivity).
      rewrite Et in Ht. cbn [IndexModel.fixPut] in Ht.
      destruct (shift <? 0); [discriminate|]. cbv zeta in Ht |- *.
      erewrite run_bind by apply rd_ok. erewrite run_bind by apply rd_ok. rewrite Sz, Ba.
      assert (Hgo : (p' <- Some (N (Size m a + 1) (Key m a) (Value m a) lt rt, Height (h + 1)) ;; climbUp (map (fview m) c) p') = Some t' ->
        exists m' s', fixPutLoop shift root n (h + 1) (Some (top root c)) m1 = Ret tt m' /\ ok m' root [] s' /\ view m' s' = t' /\ next m' = next m).
      { intros H. destruct (IH m1 (nd a d s y) n (h + 1) t' O1) as (m2 & s2 & R2 & O2 & W2 & N2); [cbn in Hn; lia| |].
        - rewrite C1, Ev. exact H.
        - exists m2, s2. repeat (split; [assumption|]). congruence. }
      assert (Hend : forall m2 s2 t2, ok m2 root c s2 -> view m2 s2 = t2 -> same m1 m2 c -> climbUp (map (fview m) c) (t2, Sizes) = Some t' ->
        exists m' s', fueled (fun n => fixPutSize root n (Some (top root c))) m2 = Ret tt m' /\ ok m' root [] s' /\ view m' s' = t' /\ next m' = next m).
      { intros m2 s2 t2 O2 W2 (N2 & C2) H. unfold fueled. pose proof (ok_fuel _ _ _ _ O2) as Hf.
        destruct (fixPutSize_ok root c m2 s2 (S (next m2)) t' O2) as (m3 & s3 & R3 & O3 & W3 & N3); [lia| |].
        - rewrite C2, C1, W2. exact H.
        - exists m3, s3. repeat (split; [assumption|]). congruence. }
      rewrite <- Ev in Ht.
      destruct (Size m a + 1 <? shl64 h); [|apply Hgo; rewrite <- Ev; exact Ht].
      destruct (_ <? 0).
      + destruct (_ <=? _); [|apply Hgo; rewrite <- Ev; exact Ht].
        destruct (IndexModel.sizeRRotate _) as [t2|] eqn:Er; [|discriminate].
        destruct (sizeRRotate_ok m1 root c _ t2 O1 Er) as (m2 & s2 & R2 & O2 & W2 & S2). rewrite pt_nd in R2.
        erewrite run_bind by exact R2. eapply Hend; eauto.
      + destruct (_ <=? _); [|apply Hgo; rewrite <- Ev; exact Ht].
        destruct (IndexModel.sizeLRotate _) as [t2|] eqn:Er; [|discriminate].
        destruct (sizeLRotate_ok m1 root c _ t2 O1 Er) as (m2 & s2 & R2 & O2 & W2 & S2). rewrite pt_nd in R2.
        erewrite run_bind by exact R2. eapply Hend; eauto.
  Qed.

  Lemma fixPut_ok root c a d y m s t' : ok m root ((a, d, y) :: c) s -> climbUp (cview m ((a, d, y) :: c)) (view m s, First) = Some t' ->
    exists m' s', fixPut shift root (Some a) m = Ret tt m' /\ ok m' root [] s' /\ view m' s' = t' /\ next m' = next m.
  Proof.
    intros Hok Ht. pose proof Hok as Hok0. rewrite <- ok_down in Hok. destruct (bump _ _ _ _ _ _ _ Hok) as (m1 & Hrun & O1 & V1 & V2 & (N1 & C1) & P1 & Sz & Ky & Va & Ba).
    unfold fixPut. rewrite Hrun. erewrite run_bind by apply rd_ok. erewrite run_bind by apply rd_ok. rewrite P1, Sz, (ok_parent _ _ _ _ _ _ _ Hok0).
    cbn [cview map fview climbUp fst snd] in Ht.
    assert (Et : IndexModel.fixPut shift First (tfill (Size m a, Key m a, Value m a, d, view m y) (view m s)) =
                 Some (view m1 (nd a d s y), if Size m a + 1 =? 3 then Sizes else Height 2)) by (rewrite view_nd, Sz, Ky, Va, V1, V2; destruct d; reflexivity).
    rewrite Et in Ht. cbv beta iota in Ht. rewrite <- N1. unfold fueled. pose proof (ok_fuel _ _ _ _ O1) as Hf. 
    destruct (Size m a + 1 =? 3).
    - apply (fixPutSize_ok root c m1 (nd a d s y)); [exact O1|lia|]. rewrite C1. exact Ht.
    - apply (fixPutLoop_ok root c m1 (nd a d s y)); [exact O1|lia|]. rewrite C1. exact Ht.
  Qed.

  (** ** Put and Set *)
  Definition putUp (C : list tframe) (p : tree * option climb) : option (tree * bool) :=
    match snd p with None => Some (tplug C (fst p), true) | Some st => t <- climbUp C (fst p, st) ;; Some (t, false) end.
  Definition hit (over : bool) (k : K) (v : V) : K * V -> K * V := if over then fun _ => (k, v) else fun e => e.

  Lemma putLoop_ok root over k v s : forall c m n t' b, s <> L -> ok m root c s -> (hgt s <= n)%nat ->
    (p <- IndexModel.put cmp shift (hit over k v) k v (view m s) ;; putUp (cview m c) p) = Some (t', b) ->
    exists m' s', putLoop cmp shift root over k v n (pt s) m = Ret b m' /\ ok m' root [] s' /\ view m' s' = t'.
  Proof.
    assert (Hgo : forall a d x y c m n t' b,
      (forall c m n t' b, x <> L -> ok m root c x -> (hgt x <= n)%nat ->
         (p <- IndexModel.put cmp shift (hit over k v) k v (view m x) ;; putUp (cview m c) p) = Some (t', b) ->
         exists m' s', putLoop cmp shift root over k v n (pt x) m = Ret b m' /\ ok m' root [] s' /\ view m' s' = t') ->
      ok m root c (nd a d x y) -> (hgt x <= n)%nat ->
      (p <- IndexModel.put cmp shift (hit over k v) k v (view m x) ;; putUp (cview m ((a, d, y) :: c)) p) = Some (t', b) ->
      exists m' s', (let! q := rdKid (Some a) d in
          if negb (isNil q) then putLoop cmp shift root over k v n q
          else let! node := alloc (Some a) 1 k v in wr (setKid d node) (Some a) ;! fixPut shift root (Some a) ;! ret false) m = Ret b m' /\
        ok m' root [] s' /\ view m' s' = t').
    { intros a d x y c m n t' b IH Hok Hn Ht. rewrite ok_down in Hok. destruct (ok_kid _ _ _ _ _ _ _ Hok) as (Kx & Ky).
      erewrite run_bind by (rewrite rdKid_ok, Kx; reflexivity).
      destruct x as [|e xl xr].
      - cbn [pt isNil negb]. cbn [view IndexModel.put] in Ht. unfold putUp in Ht. cbn [snd fst] in Ht.
        destruct (climbUp (cview m ((a, d, y) :: c)) (N 1 k v E E, First)) as [t2|] eqn:Ec; [|discriminate]. injection Ht as <- <-.
        destruct (alloc_ok m root _ k v Hok) as (m1 & R1 & O1 & V1 & C1). cbn [top cdir] in R1.
        rewrite R1. destruct (fixPut_ok root c a d y m1 _ t2 O1) as (m2 & s2 & R2 & O2 & W2 & N2); [rewrite V1, C1; exact Ec|].
        erewrite run_bind by exact R2. exists m2, s2. auto.
      - apply (IH _ _ _ _ _ ltac:(discriminate) Hok Hn Ht). }
    induction s as [|a l IHl r IHr]; intros c m n t' b Hs Hok Hn Ht; [congruence|]. clear Hs.
    cbn [hgt] in Hn. destruct n as [|n]; [lia|]. cbn [putLoop pt]. erewrite run_bind by apply rd_ok.
    cbn [view IndexModel.put] in Ht. cbv zeta in Ht |- *.
    destruct (cmp k (Key m a) <? 0).
    - apply (Hgo a false l r c m n t' b IHl Hok); [lia|]. rewrite <- Ht.
      destruct (IndexModel.put cmp shift (hit over k v) k v (view m l)) as [(l', [st|])|]; cbv beta iota; [|reflexivity..].
      unfold putUp. cbn [snd fst cview map climbUp fview tfill tnd].
      destruct (IndexModel.fixPut _ _ _) as [(t2, st2)|]; reflexivity.
    - destruct (cmp k (Key m a) >? 0).
      + apply (Hgo a true r l c m n t' b IHr Hok); [lia|]. rewrite <- Ht.
        destruct (IndexModel.put cmp shift (hit over k v) k v (view m r)) as [(l', [st|])|]; cbv beta iota; [|reflexivity..].
        unfold putUp. cbn [snd fst cview map climbUp fview tfill tnd].
        destruct (IndexModel.fixPut _ _ _) as [(t2, st2)|]; reflexivity.
      + unfold hit in Ht. destruct over; cbv beta iota in Ht; unfold putUp in Ht; cbn [snd fst] in Ht; injection Ht as <- <-.
        * erewrite run_bind by reflexivity. erewrite run_bind by reflexivity.
          destruct (put_data m _ root c a false l r (onlyData_trans _ _ _ _ (setKey_only k a m) (setValue_only v a _)) Hok) as (O1 & V1 & V2 & (N1 & C1)).
          eexists. exists (plug c (B a l r)). split; [reflexivity|]. split; [apply (proj1 (ok_plug _ _ _ _)); exact O1|].
          rewrite view_plug. rewrite C1. cbn [view]. rewrite V1, V2. mm1. rewrite !upd_eq. reflexivity.
        * exists m, (plug c (B a l r)). split; [reflexivity|]. split; [apply (proj1 (ok_plug _ _ _ _)); exact Hok|]. rewrite view_plug. reflexivity.
  Qed.
End Put.
