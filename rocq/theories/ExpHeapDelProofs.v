(** experiment.Tree in memory: get, neighboring, remove, Traverse. *)
From Coq Require Import Permutation.
From Verif Require Import Base Bind Machine AvlTree AvlModel ExpHeapModel ExpHeapProofs ExpHeapRotProofs ExpHeapRebProofs ExpHeapPutProofs ExpHeapInsProofs.
From Verif Require ExpModel.
Local Open Scope Z_scope.

Section Del.
  Context {K V : Type} (cmp : K -> K -> Z) (th : Z).
  Implicit Types m : mem K V.
  Notation tree := (tree K V).

  Lemma sh_nd e a l r : exists x y, B a l r = nd a e x y.
  Proof. destruct e; [exists r, l|exists l, r]; reflexivity. Qed.
  Lemma nbr_Nd e h (k : K) (v : V) (x y : tree) : AvlTree.neighboring Both th e (Nd e h k v x y) =
    match x with
    | E => Some (y, (k, v), true)
    | _ => '(sub, res, rb) <- AvlTree.neighboring Both th e x ;;
           if rb : bool then '(t, rb') <- AvlTree.rebalance Both th (Nd e h k v sub y) ;; Some (t, res, rb') else Some (Nd e h k v sub y, res, false)
    end.
  Proof. destruct e, x; reflexivity. Qed.
  Lemma in_nd a e x y c : In c (addrs (nd a e x y)) <-> c = a \/ In c (addrs x) \/ In c (addrs y).
  Proof. rewrite addrs_nd. cbn [In]. rewrite in_app_iff. split; intros; intuition auto. Qed.
  Lemma leads_trans par (dead : nat -> Prop) a b p : leads par dead a b -> dead b -> leads par dead b p -> leads par dead a p.
  Proof. induction 1 as [a b H|a b q H Hb _ IH]; intros D L; [apply (leads_via _ _ a b); assumption|apply (leads_via _ _ a b); auto]. Qed.
  Definition plus (dead : nat -> Prop) (b : nat) : nat -> Prop := fun c => dead c \/ c = b.

  (** taking out a node that has at most one child *)
  Lemma place_lift m dead p d a e y : place m dead p d (nd a e L y) -> let m' := setKid d (pt y) p m in
    place m' (plus dead a) p d y /\ eff m m' p d (nd a e L y).
  Proof.
    intros [P1 P2 P3 P4 P5 P6] m'. rewrite kids_nd in P2. rewrite ups_nd in P3. destruct P2 as (K1 & K2 & _ & K4). destruct P3 as (U1 & _ & U3).
    assert (N : NoDup (p :: a :: addrs y)) by (eapply Permutation_NoDup; [apply perm_skip, (addrs_nd a e L y)|exact P4]).
    apply NoDup_cons_iff in N as [N0 N]. cbn [In] in N0. apply NoDup_cons_iff in N as [N1 N2].
    assert (C3 : forall c, c <> p -> Children m' c = Children m c) by (intros c Hc; cbn [m' setKid Children]; apply upd_ne; exact Hc).
    split.
    - constructor.
      + cbn [m' setKid Children]. rewrite upd_eq, Bool.eqb_reflx. reflexivity.
      + eapply kids_frame; [exact K4|]. intros c Hc. apply C3. intros ->. tauto.
      + destruct y as [|b yl yr]; [exact Logic.I|]. cbn [ups] in U3 |- *. destruct U3 as (U4 & U5 & U6).
        assert (X : forall c, dead c -> plus dead a c /\ Parent m c = Parent m c) by (intros c Hc; split; [left; exact Hc|reflexivity]).
        split; [|split; (eapply (ups_frame m m'); [eassumption|reflexivity|exact X])].
        change (Parent m') with (Parent m). apply (leads_trans _ _ b a p); [eapply leads_frame; [exact X|reflexivity|exact U4]|right; reflexivity|eapply leads_frame; [exact X|reflexivity|exact U1]].
      + constructor; [tauto|exact N2].
      + intros c Hc. apply P5. cbn [In] in *. rewrite in_nd. tauto.
      + intros c Hc. change (next m') with (next m). destruct Hc as [Hc| ->].
        * destruct (P6 c Hc) as [D1 D2]. split; [exact D1|]. cbn [In] in *. rewrite in_nd in D2. tauto.
        * split; [apply P5; cbn [In]; rewrite in_nd; tauto|]. cbn [In]. intros [->|Hx]; tauto.
    - constructor; try reflexivity; [intros c _ _; repeat split|intros c _ _ Hc; apply C3; exact Hc|].
      cbn [m' setKid Children]. rewrite upd_eq. destruct d; reflexivity.
  Qed.

  (** the node [b] has been taken out of [s], the tree that is left is [s'] *)
  Record taken m m' (dead dead' : nat -> Prop) (p : nat) (d : bool) (s s' : sh) : Prop := {
    k_place : place m' dead' p d s'; k_eff : eff m m' p d s; k_in : forall c, In c (addrs s') -> In c (addrs s);
    k_next : next m' = next m; k_dead : forall c, dead c -> dead' c; k_dead' : forall c, dead' c -> dead c \/ In c (addrs s) }.

  Lemma taken_up m m1 dead dead' p d a e x y x' : place m dead p d (nd a e x y) -> taken m m1 dead dead' a e x x' ->
    taken m m1 dead dead' p d (nd a e x y) (nd a e x' y) /\ Height m1 a = Height m a /\ (forall c, In c (addrs y) -> Height m1 c = Height m c).
  Proof.
    intros HP [Q1 Q2 Q3 Q4 Q5 Q6]. destruct (place_up m m1 dead dead' p d a e x y x' HP Q1 Q2) as (A1 & A2 & A3 & A4); auto.
    split; [|split; [exact A3|intros c Hc; apply A4; exact Hc]]. constructor; try assumption.
    - intros c Hc. rewrite in_nd in *. destruct Hc as [?|[Hc|?]]; [tauto|apply Q3 in Hc; tauto|tauto].
    - intros c Hc. rewrite in_nd. destruct (Q6 c Hc); tauto.
  Qed.
  Lemma taken_moved m m1 m2 dead dead' p d s s1 s2 : taken m m1 dead dead' p d s s1 -> moved m1 m2 dead' p d s1 s2 -> taken m m2 dead dead' p d s s2.
  Proof.
    intros [Q1 Q2 Q3 Q4 Q5 Q6] [V1 V2 V3 V4 V5 V6 V7 V8]. constructor; try assumption.
    - apply (eff_trans m m1 m2 p d s s1); auto.
    - intros c Hc. rewrite V3 in Hc. auto.
    - congruence.
  Qed.

  Lemma neighboring_place c1 : forall fuel s m dead p d, s <> L -> place m dead p d s -> (length (addrs s) < fuel)%nat ->
    match neighboring th fuel (Some p) d c1 m with
    | Loop => False
    | Panic => forall kv, AvlTree.neighboring Both th c1 (vw kv m s) = None
    | Ret (q, rb) m' => exists b s', q = Some b /\ In b (addrs s) /\ taken m m' dead (plus dead b) p d s s' /\ Key m' = Key m /\ Value m' = Value m /\
        forall kv, AvlTree.neighboring Both th c1 (vw kv m s) = Some (vw kv m' s', kv b, rb)
    end.
  Proof.
    induction fuel as [|fuel IH]; intros s m dead p d Hs HP Hf; [lia|]. destruct s as [|a l r]; [congruence|].
    destruct (sh_nd c1 a l r) as (x & y & Hnd). rewrite Hnd in HP, Hf |- *. clear Hs Hnd. pose proof HP as [P1 P2 P3 P4 P5 P6]. rewrite kids_nd in P2. destruct P2 as (K1 & K2 & K3 & K4).
    cbn [neighboring]. rewrite (bind_ret _ _ _ _ _ (rdKid_run p d m)), P1, pt_nd. rewrite (bind_ret _ _ _ _ _ (rdKid_run a c1 m)), K1.
    destruct x as [|xa xl xr].
    - cbn [pt]. rewrite (bind_ret _ _ _ _ _ (rdKid_run a (negb c1) m)), K2. rewrite (bind_ret _ _ _ _ _ (wr_run _ p m)). unfold ret.
      exists a, y. split; [reflexivity|]. split; [rewrite in_nd; tauto|]. destruct (place_lift m dead p d a c1 y HP) as [A1 A2].
      split; [|split; [reflexivity|split; [reflexivity|]]].
      + constructor; try assumption; [intros c Hc; rewrite in_nd; tauto|reflexivity|left; assumption|intros c [Hc| ->]; [tauto|rewrite in_nd; tauto]].
      + intros kv. rewrite vw_nd, nbr_Nd. cbn [vw]. rewrite <- surjective_pairing. rewrite (vw_frame kv kv m (setKid d (pt y) p m)); [reflexivity|]. intros; split; reflexivity.
    - set (x := B xa xl xr) in *. cbn [pt x]. fold x.
      assert (Hx : x <> L) by discriminate.
      assert (LEN : length (addrs (nd a c1 x y)) = S (length (addrs x) + length (addrs y))) by (rewrite (Permutation_length (addrs_nd a c1 x y)); cbn [length]; rewrite app_length; reflexivity).
      specialize (IH x m dead a c1 Hx (place_down _ _ _ _ _ _ _ _ HP) ltac:(lia)).
      assert (VN : forall kv, match vw kv m x with E => False | N _ _ _ _ _ => True end) by (intros kv; exact Logic.I).
      clearbody x. unfold bind at 1. destruct (neighboring th fuel (Some a) c1 c1 m) as [[q rb] m1| |]; [| |exact IH].
      2:{ intros kv. rewrite vw_nd, nbr_Nd, IH. specialize (VN kv). destruct (vw kv m x); [contradiction|reflexivity]. }
      destruct IH as (b & x' & -> & Hb & TK & HK & HV & IH).
      destruct (taken_up m m1 dead (plus dead b) p d a c1 x y x' HP TK) as (TK1 & H1 & H2).
      assert (VW : forall kv, vw kv m1 (nd a c1 x' y) = Nd c1 (Height m a) (fst (kv a)) (snd (kv a)) (vw kv m1 x') (vw kv m y)).
      { intros kv. rewrite vw_nd, H1. f_equal. apply vw_frame. intros c Hc. split; [apply H2; exact Hc|reflexivity]. }
      assert (FN : forall kv, AvlTree.neighboring Both th c1 (vw kv m (nd a c1 x y)) =
         if rb then '(t, rb') <- AvlTree.rebalance Both th (vw kv m1 (nd a c1 x' y)) ;; Some (t, kv b, rb') else Some (vw kv m1 (nd a c1 x' y), kv b, false)).
      { intros kv. rewrite vw_nd, nbr_Nd, IH, VW. specialize (VN kv). destruct (vw kv m x); [contradiction|reflexivity]. }
      destruct rb.
      + assert (RB : match rebalance th (Some p) d m1 with
          | Loop => False
          | Panic => forall kv, AvlTree.rebalance Both th (vw kv m1 (nd a c1 x' y)) = None
          | Ret rb m' => exists s', moved m1 m' (plus dead b) p d (nd a c1 x' y) s' /\ forall kv, AvlTree.rebalance Both th (vw kv m1 (nd a c1 x' y)) = Some (vw kv m' s', rb)
          end) by (pose proof (k_place _ _ _ _ _ _ _ _ TK1) as A1; destruct c1; apply rebalance_place; exact A1).
        unfold bind. destruct (rebalance th (Some p) d m1) as [rb' m2| |]; [|intros kv; rewrite FN, RB; reflexivity|exact RB].
        destruct RB as (s2 & MV & RF). unfold ret. exists b, s2. split; [reflexivity|]. split; [rewrite in_nd; tauto|].
        split; [apply (taken_moved m m1 m2 _ _ _ _ _ (nd a c1 x' y)); assumption|]. rewrite (v_key _ _ _ _ _ _ _ MV), (v_val _ _ _ _ _ _ _ MV). split; [exact HK|split; [exact HV|]].
        intros kv. rewrite FN, RF. reflexivity.
      + unfold ret. exists b, (nd a c1 x' y). split; [reflexivity|]. split; [rewrite in_nd; tauto|]. split; [exact TK1|]. split; [exact HK|split; [exact HV|exact FN]].
  Qed.

  (** get and what Upsert writes through the pointer that it gives *)
  Lemma get_place key : forall fuel s m, kids m s -> NoDup (addrs s) -> (length (addrs s) < fuel)%nat ->
    match get cmp fuel key (pt s) m with
    | Loop => False
    | Panic => AvlModel.get cmp key (vw (kvof m) m s) = None
    | Ret None m' => m' = m /\ AvlModel.get cmp key (vw (kvof m) m s) = Some None
    | Ret (Some b) m' => m' = m /\ In b (addrs s) /\ AvlModel.get cmp key (vw (kvof m) m s) = Some (Some (kvof m b)) /\
        forall v, get_write cmp key v (vw (kvof m) m s) = Some (vw (kvof (setValue v b m)) (setValue v b m) s)
    end.
  Proof.
    induction fuel as [|fuel IH]; intros s m HK ND Hf; [lia|]. destruct s as [|a l r]; [cbn; split; reflexivity|].
    cbn [pt get addrs kids length vw] in *. destruct HK as (K1 & K2 & K3 & K4). rewrite app_length in Hf.
    apply NoDup_cons_iff in ND as [N1 N2]. apply IndexHeapProofs.nodup_app in N2 as (N2 & N3 & N4). rewrite in_app_iff in N1.
    assert (R : rd Key (Some a) m = Ret (Key m a) m) by reflexivity. rewrite (bind_ret _ _ _ _ _ R). cbv zeta. cbn [AvlModel.get get_write kvof fst snd].
    destruct (cmp (Key m a) key <? 0).
    { unfold ret. split; [reflexivity|]. split; [left; reflexivity|]. split; [reflexivity|]. intros v. cbn [vw kvof fst snd setValue Key Value Height]. rewrite upd_eq.
      rewrite !(vw_frame (kvof m) (kvof (setValue v a m)) m (setValue v a m)); [reflexivity| |]; intros c Hc; (split; [reflexivity|]); unfold kvof; cbn [setValue Key Value]; rewrite upd_ne by (intros ->; tauto); reflexivity. }
    destruct (cmp (Key m a) key =? 0); [|destruct (cmp (Key m a) key =? 1); [|reflexivity]].
    - rewrite (bind_ret _ _ _ _ _ (rdKid_run a false m)), K1. specialize (IH l m K3 N2 ltac:(lia)).
      destruct (get cmp fuel key (pt l) m) as [[b|] m'| |]; [|exact IH|exact IH|exact IH].
      destruct IH as (-> & Hb & IH1 & IH2). split; [reflexivity|]. split; [right; apply in_app_iff; tauto|]. split; [exact IH1|]. intros v. rewrite IH2.
      assert (Q : Value (setValue v b m) a = Value m a) by (cbn [setValue Value]; apply upd_ne; intros ->; tauto).
      change (Height (setValue v b m) a) with (Height m a). change (Key (setValue v b m) a) with (Key m a). rewrite Q.
      rewrite (vw_frame (kvof m) (kvof (setValue v b m)) m (setValue v b m) r); [reflexivity|]. intros c Hc; (split; [reflexivity|]); unfold kvof; cbn [setValue Key Value]; rewrite upd_ne by (intros ->; eapply N4; eassumption); reflexivity.
    - rewrite (bind_ret _ _ _ _ _ (rdKid_run a true m)), K2. specialize (IH r m K4 N3 ltac:(lia)).
      destruct (get cmp fuel key (pt r) m) as [[b|] m'| |]; [|exact IH|exact IH|exact IH].
      destruct IH as (-> & Hb & IH1 & IH2). split; [reflexivity|]. split; [right; apply in_app_iff; tauto|]. split; [exact IH1|]. intros v. rewrite IH2.
      assert (Q : Value (setValue v b m) a = Value m a) by (cbn [setValue Value]; apply upd_ne; intros ->; tauto).
      change (Height (setValue v b m) a) with (Height m a). change (Key (setValue v b m) a) with (Key m a). rewrite Q.
      rewrite (vw_frame (kvof m) (kvof (setValue v b m)) m (setValue v b m) l); [reflexivity|]. intros c Hc; (split; [reflexivity|]); unfold kvof; cbn [setValue Key Value]; rewrite upd_ne by (intros ->; eapply N4; eassumption); reflexivity.
  Qed.
  Lemma traverse_place go : forall fuel s m seen, kids m s -> (length (addrs s) < fuel)%nat ->
    traverse fuel go (pt s) seen m = Ret (AvlModel.traverse go (vw (kvof m) m s) seen) m.
  Proof.
    induction fuel as [|fuel IH]; intros s m seen HK Hf; [lia|]. destruct s as [|a l r]; [reflexivity|].
    cbn [pt traverse addrs kids length vw] in *. destruct HK as (K1 & K2 & K3 & K4). rewrite app_length in Hf.
    rewrite (bind_ret _ _ _ _ _ (rdKid_run a false m)), K1. rewrite (bind_ret _ _ _ _ _ (IH l m seen K3 ltac:(lia))). cbn [AvlModel.traverse kvof fst snd].
    destruct (AvlModel.traverse go (vw (kvof m) m l) seen) as [s1 c1]. destruct c1; cbn [negb]; [|reflexivity].
    unfold bind at 1 2. unfold rd at 1 2. destruct (go (s1 ++ [(Key m a, Value m a)])); cbn [negb]; [|reflexivity].
    rewrite (bind_ret _ _ _ _ _ (rdKid_run a true m)), K2. rewrite (bind_ret _ _ _ _ _ (IH r m _ K4 ltac:(lia))).
    destruct (AvlModel.traverse go (vw (kvof m) m r) (s1 ++ [(Key m a, Value m a)])) as [s3 c3]. destruct c3; reflexivity.
  Qed.
End Del.
