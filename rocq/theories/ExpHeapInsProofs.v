(** experiment.Tree in memory: put. *)
From Coq Require Import Permutation.
From Verif Require Import Base Bind Machine AvlTree AvlModel ExpHeapModel ExpHeapProofs ExpHeapRotProofs ExpHeapRebProofs ExpHeapPutProofs.
From Verif Require ExpModel.
Local Open Scope Z_scope.

Section Put.
  Context {K V : Type} (cmp : K -> K -> Z) (th : Z) (zero : V).
  Implicit Types m : mem K V.
  Notation tree := (tree K V).
  Definition kvof m (a : nat) : K * V := (Key m a, Value m a).
  Definition allSized m (live : nat -> Prop) : Prop := forall c, live c -> c <> 0%nat -> sizedAt m c.

  (** a call has put a new node with the key [key] into the tree [s], which has become [s']; [lst] are the nodes above *)
  Record fresh (key : K) m m' (dead : nat -> Prop) (p : nat) (d : bool) (s s' : sh) (lst : list nat) : Prop := {
    n_place : place m' dead p d s'; n_eff : eff m m' p d s; n_perm : Permutation (addrs s') (next m :: addrs s);
    n_next : next m' = S (next m); n_key : Key m' (next m) = key; n_val : Value m' (next m) = zero;
    n_kv : forall c, c <> next m -> Key m' c = Key m c /\ Value m' c = Value m c;
    n_es : dead = none -> forall live : nat -> Prop, live p -> (forall c, In c (addrs s) -> live c) -> (forall c, In c lst -> live c) -> (forall c, live c -> (c < next m)%nat) ->
      (p = 0%nat -> d = true) -> exact m live -> allSized m live ->
      exact m' (fun c => live c \/ c = next m) /\ allSized m' (fun c => live c \/ c = next m) }.

  Lemma eff_trans m m1 m2 p d s s1 : eff m m1 p d s -> eff m1 m2 p d s1 -> (forall c, In c (addrs s1) -> (c < next m)%nat -> In c (addrs s)) -> eff m m2 p d s.
  Proof.
    intros [F1 F2 F3 F4 F5] [G1 G2 G3 G4 G5] H. constructor; [| | |rewrite G4; exact F4|lia].
    - intros c Hc Hn. rewrite G1, F1; auto; lia.
    - intros c Hc Hn. destruct (F2 c Hc Hn) as (A1 & A2 & A3). rewrite <- A1, <- A2, <- A3. apply G2; [lia|]. intros Hi. apply Hn, H; assumption.
    - intros c Hc Hn Hp. rewrite G3, F3; auto; lia.
  Qed.

  (** the tree around a place *)
  Lemma place_down m dead p d a e x y : place m dead p d (nd a e x y) -> place m dead a e x.
  Proof.
    intros [P1 P2 P3 P4 P5 P6]. rewrite kids_nd in P2. rewrite ups_nd in P3.
    assert (N : NoDup (p :: a :: addrs x ++ addrs y)) by (eapply Permutation_NoDup; [apply perm_skip, addrs_nd|exact P4]).
    assert (I : forall c, In c (p :: addrs (nd a e x y)) <-> c = p \/ c = a \/ In c (addrs x) \/ In c (addrs y)).
    { intros c. cbn [In]. rewrite addrs_nd. cbn [In]. rewrite in_app_iff. split; intros; intuition auto. }
    apply NoDup_cons_iff in N as [_ N]. apply NoDup_cons_iff in N as [N1 N2]. apply IndexHeapProofs.nodup_app in N2 as (N2 & N3 & N4). rewrite in_app_iff in N1.
    constructor; try tauto.
    - constructor; tauto.
    - intros c Hc. apply P5, I. destruct Hc as [<-|Hc]; tauto.
    - intros c Hc. destruct (P6 c Hc) as [D1 D2]. split; [exact D1|]. rewrite I in D2. intros [<-|Hx]; tauto.
  Qed.
  Lemma place_up m m1 (dead dead' : nat -> Prop) p d a e x y x' : place m dead p d (nd a e x y) -> place m1 dead' a e x' -> eff m m1 a e x ->
    (forall c, In c (addrs x') -> In c (addrs x) \/ c = next m) -> (forall c, dead c -> dead' c) -> (forall c, dead' c -> dead c \/ In c (addrs x)) ->
    place m1 dead' p d (nd a e x' y) /\ eff m m1 p d (nd a e x y) /\ Height m1 a = Height m a /\ (forall c, In c (addrs y) -> Height m1 c = Height m c /\ c <> next m).
  Proof.
    intros H Q HF HI HD HD'. pose proof H as [P1 P2 P3 P4 P5 P6]. destruct Q as [Q1 Q2 Q3 Q4 Q5 Q6]. destruct HF as [F1 F2 F3 F4 F5].
    rewrite pt_nd in P1. rewrite kids_nd in P2. rewrite ups_nd in P3. destruct P2 as (K1 & K2 & K3 & K4). destruct P3 as (U1 & U2 & U3).
    assert (N : NoDup (p :: a :: addrs x ++ addrs y)) by (eapply Permutation_NoDup; [apply perm_skip, addrs_nd|exact P4]).
    assert (I : forall c, In c (p :: addrs (nd a e x y)) <-> c = p \/ c = a \/ In c (addrs x) \/ In c (addrs y)).
    { intros c. cbn [In]. rewrite addrs_nd. cbn [In]. rewrite in_app_iff. split; intros; intuition auto. }
    assert (I' : forall c, In c (p :: addrs (nd a e x' y)) <-> c = p \/ c = a \/ In c (addrs x') \/ In c (addrs y)).
    { intros c. cbn [In]. rewrite addrs_nd. cbn [In]. rewrite in_app_iff. split; intros; intuition auto. }
    assert (Is : forall c, In c (addrs (nd a e x y)) <-> c = a \/ In c (addrs x) \/ In c (addrs y)).
    { intros c. rewrite addrs_nd. cbn [In]. rewrite in_app_iff. split; intros; intuition auto. }
    assert (Lt : forall c, c = p \/ c = a \/ In c (addrs x) \/ In c (addrs y) -> (c < next m)%nat) by (intros c Hc; apply P5, I, Hc).
    apply NoDup_cons_iff in N as [N0 N]. cbn [In] in N0. apply NoDup_cons_iff in N as [N1 N2]. apply IndexHeapProofs.nodup_app in N2 as (N2 & N3 & N4). rewrite in_app_iff in N0, N1.
    assert (Y : forall c, In c (addrs y) -> (c < next m)%nat /\ ~ In c (addrs x) /\ c <> a) by (intros c Hc; split; [apply Lt; tauto|]; split; [intros Hx; exact (N4 c Hx Hc)|intros ->; tauto]).
    assert (Fp : Children m1 p = Children m p) by (apply F3; [apply Lt; tauto|tauto|intros ->; tauto]).
    assert (Dp : forall c, dead c -> dead' c /\ Parent m1 c = Parent m c).
    { intros c Hc. split; [apply HD; exact Hc|]. destruct (P6 c Hc) as [D1 D2]. rewrite I in D2. apply F1; tauto. }
    split; [|split; [|split]].
    - constructor.
      + rewrite pt_nd, Fp. exact P1.
      + rewrite kids_nd. rewrite F4. repeat (split; [assumption|]). eapply kids_frame; [exact K4|]. intros c Hc. destruct (Y c Hc) as (A1 & A2 & A3). apply F3; tauto.
      + rewrite ups_nd. split; [|split; [exact Q3|]].
        * apply (leads_frame (Parent m) _ dead); [exact Dp|apply F1; [apply Lt; tauto|tauto]|exact U1].
        * eapply ups_frame; [exact U3| |exact Dp]. intros c Hc. destruct (Y c Hc) as (A1 & A2 & A3). apply F1; tauto.
      + apply NoDup_cons_iff in Q4 as [Q4 Q4']. eapply Permutation_NoDup; [apply perm_skip; symmetry; apply addrs_nd|].
        assert (Nx : ~ In (next m) (addrs y)) by (intros Hx; apply Y in Hx; lia).
        constructor; [|constructor; [|apply IndexHeapProofs.nodup_app; split; [exact Q4'|split; [exact N3|]]]].
        * cbn [In]. rewrite in_app_iff. intros [->|[Hx|Hx]]; [tauto| |tauto]. apply HI in Hx as [Hx| ->]; [tauto|]. specialize (Lt (next m)); lia.
        * rewrite in_app_iff. intros [Hx|Hx]; tauto.
        * intros c Hx Hy. apply HI in Hx as [Hx| ->]; [exact (N4 c Hx Hy)|tauto].
      + intros c Hc. apply I' in Hc. destruct Hc as [->|[->|[Hc|Hc]]]; try (enough (c < next m)%nat by lia; apply Lt; tauto); [specialize (Lt p); lia|specialize (Lt a); lia|apply Q5; right; exact Hc].
      + intros c Hc. split; [apply Q6; exact Hc|]. rewrite I'. destruct (Q6 c Hc) as [_ Hq]. cbn [In] in Hq. destruct (HD' c Hc) as [Hd|Hd].
        * destruct (P6 c Hd) as [_ D2]. rewrite I in D2. intros [?|[?|[?|?]]]; try tauto.
        * intros [->|[->|[?|?]]]; try tauto. exact (N4 c Hd H0).
    - constructor; [| | |rewrite Fp; reflexivity|exact F5].
      + intros c Hc Hn. rewrite Is in Hn. apply F1; tauto.
      + intros c Hc Hn. rewrite Is in Hn. apply F2; tauto.
      + intros c Hc Hn Hp. rewrite Is in Hn. apply F3; tauto.
    - apply F2; [apply Lt; tauto|tauto].
    - intros c Hc. destruct (Y c Hc) as (A1 & A2 & A3). split; [apply F2; tauto|lia].
  Qed.

  Lemma pt_perm s s' : Permutation (addrs s') (addrs s) -> s = L -> s' = L.
  Proof. intros H ->. apply Permutation_length in H. destruct s'; [reflexivity|discriminate]. Qed.
  Lemma up_fresh key m m1 dead p d a e x y x' lst l1 rb : place m dead p d (nd a e x y) -> ~ In 0%nat (addrs (nd a e x y)) ->
    climbs (Parent m) p lst -> (forall c, In c lst -> (c < next m)%nat /\ ~ In c (addrs (nd a e x y))) ->
    fresh key m m1 dead a e x x' l1 -> (forall c, In c l1 -> c = a \/ dead c \/ In c lst) ->
    match up th (Some p) d (Some (next m), false, rb) m1 with
    | Loop => False
    | Panic => rb = true /\ forall kv, AvlTree.rebalance Both th (vw kv m1 (nd a e x' y)) = None
    | Ret (q, ex, rb') m' => q = Some (next m) /\ ex = false /\ exists s', fresh key m m' dead p d (nd a e x y) s' lst /\
        forall kv, if rb then AvlTree.rebalance Both th (vw kv m1 (nd a e x' y)) = Some (vw kv m' s', rb') else rb' = false /\ vw kv m' s' = vw kv m1 (nd a e x' y)
    end.
  Proof.
    intros HP H0 HC HL [Q1 Q2 Q3 Q4 Q5 Q6 Q7 Q8] Hl1.
    destruct (place_up m m1 dead dead p d a e x y x' HP Q1 Q2) as (A1 & A2 & A3 & A4).
    { intros c Hc. rewrite Q3 in Hc. destruct Hc as [<-|Hc]; tauto. } { tauto. } { tauto. }
    assert (Is : forall c, In c (addrs (nd a e x y)) <-> c = a \/ In c (addrs x) \/ In c (addrs y)).
    { intros c. rewrite addrs_nd. cbn [In]. rewrite in_app_iff. split; intros; intuition auto. }
    assert (PM : Permutation (addrs (nd a e x' y)) (next m :: addrs (nd a e x y))).
    { rewrite addrs_nd, Q3, addrs_nd. cbn [app]. apply perm_swap. }
    assert (SUB : forall s2, Permutation (addrs s2) (addrs (nd a e x' y)) -> forall c, In c (addrs s2) -> (c < next m)%nat -> In c (addrs (nd a e x y))).
    { intros s2 Hs c Hc Hlt. rewrite Hs, PM in Hc. destruct Hc as [<-|Hc]; [lia|exact Hc]. }
    assert (FR : fresh key m m1 dead p d (nd a e x y) (nd a e x' y) lst).
    { constructor; try assumption. intros Hd live L1 L2 L3 L4 L5 X S. apply Q8; try assumption.
      - apply L2, Is. tauto.
      - intros c Hc. apply L2, Is. tauto.
      - intros c Hc. destruct (Hl1 c Hc) as [->|[Hx|Hx]]; [apply L2, Is; tauto|rewrite Hd in Hx; destruct Hx|apply L3; exact Hx].
      - intros ->. exfalso. apply H0, Is. tauto. }
    unfold up. destruct rb; cbn [orb negb].
    2:{ unfold ret. split; [reflexivity|]. split; [reflexivity|]. exists (nd a e x' y). split; [exact FR|]. intros kv. split; reflexivity. }
    assert (RB : match rebalance th (Some p) d m1 with
      | Loop => False
      | Panic => forall kv, AvlTree.rebalance Both th (vw kv m1 (nd a e x' y)) = None
      | Ret rb m' => exists s', moved m1 m' dead p d (nd a e x' y) s' /\ forall kv, AvlTree.rebalance Both th (vw kv m1 (nd a e x' y)) = Some (vw kv m' s', rb)
      end) by (destruct e; apply rebalance_place; exact A1).
    unfold bind at 1. destruct (rebalance th (Some p) d m1) as [rb' m2| |]; [|split; [reflexivity|exact RB]|exact RB].
    destruct RB as (s2 & MV & RF). pose proof MV as [V1 V2 V3 V4 V5 V6 V7 V8].
    assert (FR2 : fresh key m m2 dead p d (nd a e x y) s2 lst).
    { destruct FR as [B1 B2 B3 B4 B5 B6 B7 B8]. constructor; rewrite ?V4, ?V5, ?V6; try assumption.
      - apply (eff_trans m m1 m2 p d (nd a e x y) (nd a e x' y)); try assumption. apply SUB. reflexivity.
      - rewrite V3. exact B3.
      - intros Hd live L1 L2 L3 L4 L5 X S. destruct (B8 Hd live L1 L2 L3 L4 L5 X S) as [X' S']. subst dead.
        destruct (moved_exact m1 m2 (fun c => live c \/ c = next m) p d (nd a e x' y) s2) as [X2 S2]; try assumption.
        + tauto.
        + intros c Hc. rewrite PM in Hc. destruct Hc as [<-|Hc]; [tauto|left; apply L2; exact Hc].
        + intros c Hc. rewrite Q4. destruct Hc as [Hc| ->]; [specialize (L4 c Hc); lia|lia].
        + rewrite PM. intros [Hx|Hx]; [|tauto]. pose proof (pl_lt _ _ _ _ _ HP p (or_introl eq_refl)). lia.
        + split; [exact X2|]. exact (S2 S'). }
    destruct rb'.
    2:{ cbn. split; [reflexivity|]. split; [reflexivity|]. exists s2. split; [exact FR2|exact RF]. }
    assert (C2 : climbs (Parent m2) p lst).
    { apply (climbs_frame (Parent m)); [exact HC|]. intros c Hc. destruct (HL c Hc) as [Hc1 Hc2]. apply (n_eff _ _ _ _ _ _ _ _ _ FR2); assumption. }
    destruct (fixPutSize_run m2 p lst C2) as (m3 & R3 & O & SZ3).
    { intros c Hc. rewrite V4, Q4. destruct (HL c Hc); lia. }
    unfold bind. rewrite R3. unfold ret. split; [reflexivity|]. split; [reflexivity|]. exists s2. split.
    - destruct FR2 as [B1 B2 B3 B4 B5 B6 B7 B8]. pose proof O as [O1 O2 O3 O4 O5 O6]. constructor; rewrite ?O4, ?O5, ?O6; try assumption.
      + apply (place_sizes m2); assumption.
      + apply (eff_sizes m m2); assumption.
      + intros Hd live L1 L2 L3 L4 L5 X S. destruct (B8 Hd live L1 L2 L3 L4 L5 X S) as [X' S'].
        split; [unfold exact; rewrite O1, O2; exact X'|]. intros c Hc Hc0. refine (SZ3 (fun c => live c \/ c = next m) X' _ _ c Hc Hc0); [intros b Hb; left; apply L3; exact Hb|intros b Hb Hb0; right; exact (S' b Hb Hb0)].
    - intros kv. rewrite (vw_sizes kv m2 m3 s2 O). apply RF.
  Qed.
  Definition putRel key dead fuel s m p d lst : Prop :=
    let alone := negb (nonNil (Children m p (negb d))) in
    match put cmp th zero fuel (Some p) d key m with
    | Loop => False
    | Panic => forall hit v, ExpModel.put cmp th hit key v (vw (kvof m) m s) alone = None
    | Ret (q, ex, rb) m' => exists tg s', q = Some tg /\
        (if ex : bool then m' = m /\ s' = s /\ In tg (addrs s) else tg = next m /\ fresh key m m' dead p d s s' lst) /\
        forall hit v, ExpModel.put cmp th hit key v (vw (kvof m) m s) alone = Some (vw (upd (kvof m) tg (if ex then hit (kvof m tg) else (key, v))) m' s', ex, rb)
    end.
  Definition Nd (e : bool) h (k : K) (v : V) (x y : tree) : tree := if e then N h k v y x else N h k v x y.
  Lemma vw_nd kv m a e x y : vw kv m (nd a e x y) = Nd e (Height m a) (fst (kv a)) (snd (kv a)) (vw kv m x) (vw kv m y).
  Proof. destruct e; reflexivity. Qed.
  Lemma put_descend key dead fuel m p d a e x y lst l1 : place m dead p d (nd a e x y) -> ~ In 0%nat (addrs (nd a e x y)) ->
    climbs (Parent m) p lst -> (forall c, In c lst -> (c < next m)%nat /\ ~ In c (addrs (nd a e x y))) ->
    (forall c, In c l1 -> c = a \/ dead c \/ In c lst) -> putRel key dead fuel x m a e l1 ->
    let F hit v := '(t, ex, rb) <- ExpModel.put cmp th hit key v (vw (kvof m) m x) (is_nil (vw (kvof m) m y)) ;;
      if (ex || negb rb)%bool then Some (Nd e (Height m a) (Key m a) (Value m a) t (vw (kvof m) m y), ex, rb)
      else '(t', rb') <- AvlTree.rebalance Both th (Nd e (Height m a) (Key m a) (Value m a) t (vw (kvof m) m y)) ;; Some (t', ex, rb') in
    match (let@ z := put cmp th zero fuel (Some a) e key in up th (Some p) d z) m with
    | Loop => False
    | Panic => forall hit v, F hit v = None
    | Ret (q, ex, rb) m' => exists tg s', q = Some tg /\
        (if ex : bool then m' = m /\ s' = nd a e x y /\ In tg (addrs (nd a e x y)) else tg = next m /\ fresh key m m' dead p d (nd a e x y) s' lst) /\
        forall hit v, F hit v = Some (vw (upd (kvof m) tg (if ex then hit (kvof m tg) else (key, v))) m' s', ex, rb)
    end.
  Proof.
    intros HP H0 HC HL Hl1 IH F. unfold putRel in IH. pose proof (pl_kids _ _ _ _ _ HP) as HK. rewrite kids_nd in HK. destruct HK as (_ & K2 & _ & _).
    assert (AL : negb (nonNil (Children m a (negb e))) = is_nil (vw (kvof m) m y)) by (rewrite K2; destruct y; reflexivity).
    rewrite AL in IH. unfold bind. destruct (put cmp th zero fuel (Some a) e key m) as [[[q ex] rb] m1| |]; [|intros hit v; unfold F; rewrite IH; reflexivity|exact IH].
    destruct IH as (tg & x' & -> & HX & HF).
    assert (N : NoDup (a :: addrs x ++ addrs y)).
    { eapply Permutation_NoDup; [apply addrs_nd|]. pose proof (pl_nd _ _ _ _ _ HP) as N. apply NoDup_cons_iff in N. apply N. }
    apply NoDup_cons_iff in N as [N1 N2]. apply IndexHeapProofs.nodup_app in N2 as (N2 & N3 & N4). rewrite in_app_iff in N1.
    destruct ex.
    - destruct HX as (-> & -> & Hi). unfold up. cbn [orb]. exists tg, (nd a e x y). split; [reflexivity|].
      split; [split; [reflexivity|split; [reflexivity|]]; rewrite addrs_nd; right; apply in_app_iff; tauto|].
      intros hit v. unfold F. rewrite HF. cbn [orb]. rewrite vw_nd. rewrite upd_ne by (intros ->; tauto).
      rewrite (vw_frame (kvof m) (upd (kvof m) tg (hit (kvof m tg))) m m y); [reflexivity|]. intros c Hc. split; [reflexivity|]. apply upd_ne. intros ->. exact (N4 _ Hi Hc).
    - destruct HX as (-> & FR).
      assert (PU : Height m1 a = Height m a /\ (forall c, In c (addrs y) -> Height m1 c = Height m c /\ c <> next m)).
      { destruct FR as [B1 B2 B3 B4 B5 B6 B7 B8]. apply (place_up m m1 dead dead p d a e x y x' HP B1 B2); [intros c Hc; rewrite B3 in Hc; destruct Hc as [<-|Hc]; tauto|tauto|tauto]. }
      destruct PU as [A3 A4].
      pose proof (up_fresh key m m1 dead p d a e x y x' lst l1 rb HP H0 HC HL FR Hl1) as U.
      assert (Ha : (a < next m)%nat) by (apply (pl_lt _ _ _ _ _ HP); right; rewrite addrs_nd; left; reflexivity).
      assert (VW : forall v, vw (upd (kvof m) (next m) (key, v)) m1 (nd a e x' y) = Nd e (Height m a) (Key m a) (Value m a) (vw (upd (kvof m) (next m) (key, v)) m1 x') (vw (kvof m) m y)).
      { intros v. rewrite vw_nd, A3, upd_ne by lia. f_equal. apply vw_frame. intros c Hc. destruct (A4 c Hc) as [A5 A6]. split; [exact A5|apply upd_ne; exact A6]. }
      destruct (up th (Some p) d (Some (next m), false, rb) m1) as [[[q ex] rb'] m2| |]; [|destruct U as (-> & U)|exact U].
      + destruct U as (-> & -> & s' & FR' & U). exists (next m), s'. split; [reflexivity|]. split; [split; [reflexivity|exact FR']|].
        intros hit v. unfold F. rewrite HF. cbn [orb]. rewrite <- VW. specialize (U (upd (kvof m) (next m) (key, v))). destruct rb; cbn [negb].
        * rewrite U. reflexivity.
        * destruct U as [-> <-]. reflexivity.
      + intros hit v. unfold F. rewrite HF. cbn [orb negb]. rewrite <- VW, U. reflexivity.
  Qed.
  Lemma put_place key dead : forall fuel s m p d lst, place m dead p d s -> ~ In 0%nat (addrs s) -> climbs (Parent m) p lst ->
    (forall c, In c lst -> (c < next m)%nat /\ ~ In c (addrs s)) -> (length (addrs s) < fuel)%nat -> putRel key dead fuel s m p d lst.
  Proof.
    induction fuel as [|fuel IH]; intros s m p d lst HP H0 HC HL Hf; [lia|]. unfold putRel. cbv zeta.
    pose proof HP as [P1 P2 P3 P4 P5 P6]. cbn [put]. rewrite (bind_ret _ _ _ _ _ (rdKid_run p d m)), P1.
    destruct s as [|a l r].
    - cbn [pt]. clear IH. unfold bind at 1, newNode. set (n := next m). set (m1 := Mem _ _ _ _ _ _ _). rewrite (bind_ret _ _ _ _ _ (wr_run _ p m1)). set (m2 := setKid d (Some n) p m1).
      assert (Hp : (p < n)%nat) by (apply P5; left; reflexivity).
      assert (C1 : Children m2 p d = Some n) by (cbn [m2 setKid Children]; rewrite upd_eq, Bool.eqb_reflx; reflexivity).
      assert (C2 : Children m2 p (negb d) = Children m p (negb d)) by (cbn [m2 setKid Children]; rewrite upd_eq; cbn [m1 Children]; rewrite upd_ne by lia; destruct d; reflexivity).
      assert (C3 : forall c, c <> p -> c <> n -> Children m2 c = Children m c) by (intros c Hc Hc'; cbn [m2 setKid Children]; rewrite upd_ne by exact Hc; cbn [m1 Children]; rewrite upd_ne by exact Hc'; reflexivity).
      assert (C4 : forall e, Children m2 n e = None) by (intros e; cbn [m2 setKid Children]; rewrite upd_ne by lia; cbn [m1 Children]; rewrite upd_eq; reflexivity).
      assert (PP : forall c, c <> n -> Parent m2 c = Parent m c) by (intros c Hc; cbn [m2 m1 setKid Parent]; apply upd_ne; exact Hc).
      assert (SS : forall c, c <> n -> Size m2 c = Size m c) by (intros c Hc; cbn [m2 m1 setKid Size]; apply upd_ne; exact Hc).
      assert (HH : forall c, c <> n -> Height m2 c = Height m c /\ Key m2 c = Key m c /\ Value m2 c = Value m c) by (intros c Hc; cbn [m2 m1 setKid Height Key Value]; rewrite !upd_ne by exact Hc; repeat split).
      assert (Pn : Parent m2 n = Some p /\ Size m2 n = 1 /\ Height m2 n = 1 /\ Key m2 n = key /\ Value m2 n = zero) by (cbn [m2 m1 setKid Parent Size Height Key Value]; rewrite !upd_eq; repeat split).
      assert (Nx : next m2 = S n) by reflexivity. clearbody m2. clear m1.
      destruct Pn as (Pn1 & Pn2 & Pn3 & Pn4 & Pn5).
      assert (CL : climbs (Parent m2) p lst) by (apply (climbs_frame (Parent m)); [exact HC|]; intros c Hc; apply PP; destruct (HL c Hc); unfold n; lia).
      destruct (fixPutSize_run m2 p lst CL) as (m3 & R3 & O & SZ3); [intros c Hc; destruct (HL c Hc); unfold n in *; lia|].
      rewrite (bind_ret _ _ _ _ _ R3). pose proof O as [O1 O2 O3 O4 O5 O6]. rewrite (bind_ret _ _ _ _ _ (rdKid_run p (negb d) m3)). unfold ret. rewrite O2, C2.
      exists n, (B n L L). split; [reflexivity|]. split; [split; [reflexivity|]|].
      + constructor; rewrite ?O4, ?O5, ?O6; try assumption; try reflexivity.
        * apply (place_sizes m2); [|exact O]. constructor; cbn [pt kids ups addrs app].
          -- exact C1.
          -- rewrite !C4. repeat split.
          -- split; [apply leads_now; exact Pn1|split; exact Logic.I].
          -- constructor; [cbn [In]; lia|constructor; [tauto|constructor]].
          -- intros c [<-|[<-|[]]]; lia.
          -- intros c Hc. destruct (P6 c Hc) as [D1 D2]. cbn [In addrs] in *. fold n in D1. split; [lia|]. intros [<-|[<-|[]]]; [tauto|lia].
        * apply (eff_sizes m m2); [|exact O]. constructor; fold n; [intros c Hc _; apply PP; lia|intros c Hc _; apply HH; lia|intros c Hc _ Hcp; apply C3; lia|exact C2|lia].
        * intros c Hc. apply HH; exact Hc.
        * intros Hd live L1 L2 L3 L4 L5 [X0 X] S. fold n in L4 |- *.
          assert (Oth : forall c, Children m p (negb d) = Some c -> c <> n).
          { intros c Hc. destruct (Nat.eq_dec p 0) as [->|Hp0]; [rewrite (L5 eq_refl) in Hc; cbn [negb] in Hc; assert (c = 0%nat) as -> by congruence; lia|].
            destruct (X p (negb d) c L1 ltac:(congruence) Hc) as (_ & X2 & _). apply L4 in X2. lia. }
          assert (X' : exact m2 (fun c => live c \/ c = n)).
          { split.
            - destruct (Nat.eq_dec p 0) as [->|Hp0]; [rewrite (L5 eq_refl) in C2; cbn [negb] in C2; congruence|rewrite C3; [exact X0|congruence|lia]].
            - intros a e c Ha Hae Hc. destruct Ha as [Ha| ->]; [|rewrite C4 in Hc; discriminate].
              destruct (Nat.eq_dec a p) as [->|Hap]; [destruct (Bool.bool_dec e d) as [->|He]|].
              + rewrite C1 in Hc. injection Hc as <-. split; [exact Pn1|]. split; [tauto|]. rewrite C2. intros Hx. apply Oth in Hx. congruence.
              + assert (e = negb d) as -> by (destruct e, d; cbn; congruence). rewrite C2 in Hc. destruct (X p (negb d) c L1 Hae Hc) as (X1 & X2 & X3). specialize (L4 c X2).
                rewrite PP by lia. split; [exact X1|]. split; [tauto|]. rewrite Bool.negb_involutive, C1. intros [= <-]. lia.
              + pose proof (L4 a Ha). rewrite C3 in Hc by lia. destruct (X a e c Ha Hae Hc) as (X1 & X2 & X3). specialize (L4 c X2). rewrite PP by lia. rewrite C3 by lia. tauto. }
          split; [unfold exact; rewrite O1, O2; exact X'|]. intros c Hc Hc0. refine (SZ3 _ X' _ _ c Hc Hc0); [intros b Hb; left; apply L3; exact Hb|]. intros b Hb Hb0.
          destruct Hb as [Hb| ->]; [|right; unfold sizedAt; rewrite !C4, Pn2; reflexivity].
          destruct (Nat.eq_dec b p) as [->|Hbp]; [left; eapply climbs_head; eassumption|]. right. pose proof (L4 b Hb). unfold sizedAt. rewrite SS by lia. rewrite C3 by lia. rewrite (S b Hb Hb0).
          assert (SZ : forall e, sz m2 (Children m b e) = sz m (Children m b e)).
          { intros e. destruct (Children m b e) as [q|] eqn:Eq; [|reflexivity]. cbn [sz]. apply SS. destruct (X b e q Hb ltac:(congruence) Eq) as (_ & X2 & _). apply L4 in X2. lia. }
          rewrite !SZ. reflexivity.
      + intros hit v. cbn [vw ExpModel.put fst snd]. rewrite O3, Pn3, upd_eq. reflexivity.
    - assert (UP : ups m dead (B a l r) p) by exact P3. cbn [ups] in UP. destruct UP as (U1 & _ & _).
      destruct (climbs_leads _ _ _ _ _ U1 HC) as (l1 & HC1 & Hl1).
      cbn [pt]. assert (R : rd Key (Some a) m = Ret (Key m a) m) by reflexivity. rewrite (bind_ret _ _ _ _ _ R). cbv zeta.
      cbn [vw ExpModel.put kvof fst snd]. cbn [addrs] in *. cbn [length] in Hf. rewrite app_length in Hf.
      apply NoDup_cons_iff in P4 as [N0 N1]. cbn [In] in N0. apply NoDup_cons_iff in N1 as [N1 N2]. rewrite in_app_iff in *. 
      assert (L1 : forall c, In c l1 -> (c < next m)%nat /\ ~ In c (addrs l) /\ ~ In c (addrs r)).
      { intros c Hc. destruct (Hl1 c Hc) as [->|[Hd|Hd]].
        - split; [apply P5; cbn [In]; tauto|tauto].
        - destruct (P6 c Hd) as [D1 D2]. cbn [In] in D2. rewrite in_app_iff in D2. tauto.
        - destruct (HL c Hd) as [D1 D2]. cbn [In] in D2. rewrite in_app_iff in D2. tauto. }
      cbn [In] in H0. rewrite in_app_iff in H0.
      assert (IHl : putRel key dead fuel l m a false l1).
      { apply IH; [apply (place_down m dead p d a false l r HP)|tauto|exact HC1|intros c Hc; specialize (L1 c Hc); tauto|lia]. }
      assert (IHr : putRel key dead fuel r m a true l1).
      { apply IH; [apply (place_down m dead p d a true r l HP)|tauto|exact HC1|intros c Hc; specialize (L1 c Hc); tauto|lia]. }
      destruct (cmp (Key m a) key <? 0); [|destruct (cmp (Key m a) key >? 0)].
      + apply (put_descend key dead fuel m p d a false l r lst l1); try assumption. cbn [nd addrs In]. rewrite in_app_iff. exact H0.
      + apply (put_descend key dead fuel m p d a true r l lst l1); try assumption. cbn [nd addrs In]. rewrite in_app_iff. exact H0.
      + unfold ret. exists a, (B a l r). split; [reflexivity|]. split; [split; [reflexivity|split; [reflexivity|left; reflexivity]]|].
        intros hit v. change (Key m a, Value m a) with (kvof m a). destruct (hit (kvof m a)) as [k' v'] eqn:Eh. cbn [vw]. rewrite upd_eq. cbn [fst snd].
        rewrite !(vw_frame (kvof m) (upd (kvof m) a (k', v')) m m); [reflexivity| |]; intros c Hc; (split; [reflexivity|apply upd_ne; intros ->; tauto]).
  Qed.
End Put.
