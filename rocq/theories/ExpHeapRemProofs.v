(** experiment.Tree in memory: remove. *)
From Coq Require Import Permutation.
From Verif Require Import Base Bind Machine AvlTree AvlModel ExpHeapModel ExpHeapProofs ExpHeapRotProofs ExpHeapRebProofs ExpHeapPutProofs ExpHeapInsProofs ExpHeapDelProofs.
From Verif Require ExpModel.
Local Open Scope Z_scope.

Section Rem.
  Context {K V : Type} (cmp : K -> K -> Z) (th : Z).
  Implicit Types m : mem K V.
  Notation tree := (tree K V).

  Lemma kvof_frame m m1 (dead : nat -> Prop) p d s s' c : place m dead p d s -> eff m m1 p d s' -> In c (addrs s) -> ~ In c (addrs s') -> kvof m1 c = kvof m c.
  Proof.
    intros HP [F1 F2 F3 F4 F5] Hc Hn. destruct (F2 c) as (_ & Q1 & Q2); [apply (pl_lt _ _ _ _ _ HP); right; exact Hc|exact Hn|]. unfold kvof. rewrite Q1, Q2. reflexivity.
  Qed.
  Definition remRel key fuel s m (dead : nat -> Prop) g c2 p d : Prop :=
    match remove cmp th fuel key (Some g) c2 d m with
    | Loop => False
    | Panic => AvlModel.remove cmp Both th key (vw (kvof m) m s) d = None
    | Ret (v, rb) m' => exists s' dead', taken m m' dead dead' p d s s' /\ AvlModel.remove cmp Both th key (vw (kvof m) m s) d = Some (vw (kvof m') m' s', v, rb)
    end.
  (** the way back up *)
  Lemma remove_descend key fuel m dead p d a e x y : place m dead p d (nd a e x y) -> ~ In 0%nat (addrs (nd a e x y)) -> remRel key fuel x m dead p d a e ->
    let F := '(t, target, rb) <- AvlModel.remove cmp Both th key (vw (kvof m) m x) e ;;
      if rb : bool then '(t', rb') <- AvlTree.rebalance Both th (Nd e (Height m a) (Key m a) (Value m a) t (vw (kvof m) m y)) ;; Some (t', target, rb')
      else Some (Nd e (Height m a) (Key m a) (Value m a) t (vw (kvof m) m y), target, false) in
    match (let@ (target, rb) := remove cmp th fuel key (Some p) d e in
           if negb (IndexHeapModel.eqp (Some a) (Some 0%nat)) && rb then let@ rb := rebalance th (Some p) d in ret (target, rb) else ret (target, rb)) m with
    | Loop => False
    | Panic => F = None
    | Ret (v, rb) m' => exists s' dead', taken m m' dead dead' p d (nd a e x y) s' /\ F = Some (vw (kvof m') m' s', v, rb)
    end.
  Proof.
    intros HP H0 IH F. unfold remRel in IH. unfold bind at 1. destruct (remove cmp th fuel key (Some p) d e m) as [[v rb] m1| |]; [|unfold F; rewrite IH; reflexivity|exact IH].
    destruct IH as (x' & dead' & TK & IH). destruct (taken_up m m1 dead dead' p d a e x y x' HP TK) as (TK1 & H1 & H2).
    assert (N : NoDup (a :: addrs x ++ addrs y)).
    { eapply Permutation_NoDup; [apply addrs_nd|]. pose proof (pl_nd _ _ _ _ _ HP) as N. apply NoDup_cons_iff in N. apply N. }
    apply NoDup_cons_iff in N as [N1 N2]. apply IndexHeapProofs.nodup_app in N2 as (N2 & N3 & N4). rewrite in_app_iff in N1.
    assert (KV : forall c, c = a \/ In c (addrs y) -> kvof m1 c = kvof m c).
    { intros c Hc. destruct TK as [_ [_ F2 _ _ _] _ _ _ _]. destruct (F2 c) as (_ & Q1 & Q2); [apply (pl_lt _ _ _ _ _ HP); right; rewrite in_nd; tauto| |unfold kvof; rewrite Q1, Q2; reflexivity].
      intros Hx. destruct Hc as [->|Hc]; [tauto|exact (N4 c Hx Hc)]. }
    assert (VW : vw (kvof m1) m1 (nd a e x' y) = Nd e (Height m a) (Key m a) (Value m a) (vw (kvof m1) m1 x') (vw (kvof m) m y)).
    { rewrite vw_nd, H1, (KV a) by tauto. f_equal. apply vw_frame. intros c Hc. split; [apply H2; exact Hc|apply KV; tauto]. }
    assert (FN : F = if rb then '(t', rb') <- AvlTree.rebalance Both th (vw (kvof m1) m1 (nd a e x' y)) ;; Some (t', v, rb') else Some (vw (kvof m1) m1 (nd a e x' y), v, false)).
    { unfold F. rewrite IH, VW. destruct rb; reflexivity. }
    clearbody F. subst F.
    assert (Ha : IndexHeapModel.eqp (Some a) (Some 0%nat) = false) by (cbn [IndexHeapModel.eqp]; apply Nat.eqb_neq; intros ->; apply H0; rewrite in_nd; tauto).
    rewrite Ha. cbn [negb andb]. destruct rb.
    - assert (RB : match rebalance th (Some p) d m1 with
        | Loop => False
        | Panic => forall kv, AvlTree.rebalance Both th (vw kv m1 (nd a e x' y)) = None
        | Ret rb m' => exists s', moved m1 m' dead' p d (nd a e x' y) s' /\ forall kv, AvlTree.rebalance Both th (vw kv m1 (nd a e x' y)) = Some (vw kv m' s', rb)
        end) by (pose proof (k_place _ _ _ _ _ _ _ _ TK1) as A1; destruct e; apply rebalance_place; exact A1).
      unfold bind. destruct (rebalance th (Some p) d m1) as [rb' m2| |]; [|rewrite RB; reflexivity|exact RB].
      destruct RB as (s2 & MV & RF). unfold ret. exists s2, dead'. split; [apply (taken_moved m m1 m2 _ _ _ _ _ (nd a e x' y)); assumption|].
      rewrite RF. assert (kvof m2 = kvof m1) as -> by (unfold kvof; rewrite (v_key _ _ _ _ _ _ _ MV), (v_val _ _ _ _ _ _ _ MV); reflexivity). reflexivity.
    - unfold ret. exists (nd a e x' y), dead'. split; [exact TK1|reflexivity].
  Qed.

  Lemma remove_place key : forall fuel s m dead g c2 p d, place m dead p d s -> ~ In 0%nat (addrs s) -> Children m g c2 = Some p -> (length (addrs s) < fuel)%nat ->
    remRel key fuel s m dead g c2 p d.
  Proof.
    induction fuel as [|fuel IH]; intros s m dead g c2 p d HP H0 HG Hf; [lia|]. unfold remRel. cbn [remove].
    pose proof HP as [P1 P2 P3 P4 P5 P6]. rewrite (bind_ret _ _ _ _ _ (rdKid_run g c2 m)), HG. rewrite (bind_ret _ _ _ _ _ (rdKid_run p d m)), P1.
    destruct s as [|a l r].
    { cbn [pt]. unfold ret. exists L, dead. split; [|reflexivity]. constructor; try tauto. apply eff_refl. }
    cbn [pt]. assert (R : rd Key (Some a) m = Ret (Key m a) m) by reflexivity. rewrite (bind_ret _ _ _ _ _ R). cbv zeta.
    cbn [vw AvlModel.remove kvof fst snd]. pose proof P2 as (K1 & K2 & K3 & K4).
    cbn [addrs length] in Hf. rewrite app_length in Hf. cbn [addrs In] in H0. rewrite in_app_iff in H0.
    destruct (cmp (Key m a) key <? 0) eqn:E1.
    - rewrite (bind_ret _ _ _ _ _ (rdKid_run a false m)), K1. rewrite (bind_ret _ _ _ _ _ (rdKid_run a true m)), K2.
      assert (R' : rd Value (Some a) m = Ret (Value m a) m) by reflexivity. rewrite (bind_ret _ _ _ _ _ R'). clear R R'.
      destruct l as [|la ll lr]; [|destruct r as [|ra rl rr]].
      + cbn [pt nonNil negb vw]. rewrite (bind_ret _ _ _ _ _ (wr_run _ p m)). unfold ret. destruct (place_lift m dead p d a false r HP) as [A1 A2].
        exists r, (plus dead a). split; [|rewrite (vw_frame (kvof m) (kvof (setKid d (pt r) p m)) m (setKid d (pt r) p m)); [reflexivity|intros; split; reflexivity]].
        constructor; try assumption; [intros c Hc; right; exact Hc|reflexivity|left; assumption|intros c [Hc| ->]; [tauto|right; left; reflexivity]].
      + cbn [pt nonNil negb]. rewrite (bind_ret _ _ _ _ _ (wr_run _ p m)). unfold ret. destruct (place_lift m dead p d a true (B la ll lr) HP) as [A1 A2]. cbn [pt] in A1, A2.
        set (l := B la ll lr) in *.
        exists l, (plus dead a). split; [|rewrite <- (vw_frame (kvof m) (kvof (setKid d (Some la) p m)) m (setKid d (Some la) p m) l); [reflexivity|intros; split; reflexivity]].
        constructor; try assumption; [intros c Hc; right; apply in_app_iff; left; exact Hc|reflexivity|left; assumption|intros c [Hc| ->]; [tauto|right; left; reflexivity]].
      + assert (NL : match vw (kvof m) m (B la ll lr) with E => False | _ => True end /\ match vw (kvof m) m (B ra rl rr) with E => False | _ => True end) by (split; exact Logic.I).
        assert (X : exists x y, B a (B la ll lr) (B ra rl rr) = nd a d x y /\ x <> L /\ vw (kvof m) m x = child d (vw (kvof m) m (B la ll lr)) (vw (kvof m) m (B ra rl rr)) /\
          forall h k v t, with_child d h k v (vw (kvof m) m (B la ll lr)) (vw (kvof m) m (B ra rl rr)) t = Nd d h k v t (vw (kvof m) m y)).
        { destruct d; [exists (B ra rl rr), (B la ll lr)|exists (B la ll lr), (B ra rl rr)]; repeat split; discriminate. }
        destruct X as (x & y & Hs & Hx & HX1 & HX2).
        cbn [pt nonNil negb]. remember (vw (kvof m) m (B la ll lr)) as tl eqn:Etl. remember (vw (kvof m) m (B ra rl rr)) as tr eqn:Etr. clear Etl Etr. destruct NL as [NL1 NL2].
        destruct tl as [|h1 k1 v1 t1 t1']; [contradiction|]. destruct tr as [|h2 k2 v2 t2 t2']; [contradiction|]. rewrite <- HX1.
        assert (H0' : ~ In 0%nat (addrs (nd a d x y))) by (rewrite <- Hs; cbn [addrs In] in *; rewrite in_app_iff; exact H0).
        rewrite Hs in *. clear Hs HX1 NL1 NL2 K1 K2 K3 K4 IH Hf h1 k1 v1 t1 t1' h2 k2 v2 t2 t2' H0 || idtac.
        pose proof (place_down _ _ _ _ _ _ _ _ HP) as HPx.
        assert (N : NoDup (a :: addrs x ++ addrs y)) by (eapply Permutation_NoDup; [apply addrs_nd|]; apply NoDup_cons_iff in P4; apply P4).
        apply NoDup_cons_iff in N as [N1 N2]. apply IndexHeapProofs.nodup_app in N2 as (N2 & N3 & N4). rewrite in_app_iff in N1.
        assert (LEN : (length (addrs x) < S (next m))%nat).
        { enough (length (addrs x) <= next m)%nat by lia. apply short; [exact N2|]. intros c Hc. apply (pl_lt _ _ _ _ _ HPx). right. exact Hc. }
        pose proof (neighboring_place th (negb d) (S (next m)) x m dead a d Hx HPx LEN) as NB.
        unfold bind at 1, fueled at 1. destruct (neighboring th (S (next m)) (Some a) d (negb d) m) as [[q rb] m1| |]; [|rewrite NB; reflexivity|exact NB].
        destruct NB as (b & x' & -> & Hb & TK & HK & HV & NB). destruct (taken_up m m1 dead (plus dead b) p d a d x y x' HP TK) as (TK1 & H1 & H2).
        unfold bind at 1, rd at 1. unfold bind at 1, wr at 1. unfold bind at 1, rd at 1. unfold bind at 1, wr at 1. cbn [setKey Value].
        set (m2 := setValue (Value m1 b) a (setKey (Key m1 b) a m1)).
        assert (KV : forall c, kvof m2 c = if Nat.eqb c a then kvof m b else kvof m c).
        { intros c. unfold kvof, m2. cbn [setValue setKey Key Value]. unfold upd. rewrite HK, HV. destruct (Nat.eqb c a); reflexivity. }
        assert (TK2 : taken m m2 dead (plus dead b) p d (nd a d x y) (nd a d x' y)).
        { destruct TK1 as [Q1 [F1 F2 F3 F4 F5] Q3 Q4 Q5 Q6]. constructor; try assumption.
          - apply (place_heights m1); try reflexivity. exact Q1.
          - constructor; try assumption. intros c Hc Hn. destruct (F2 c Hc Hn) as (G1 & G2 & G3). split; [exact G1|]. rewrite in_nd in Hn.
            cbn [m2 setValue setKey Key Value]. rewrite !upd_ne by (intros ->; tauto). split; assumption. }
        assert (VW : vw (kvof m2) m2 (nd a d x' y) = Nd d (Height m a) (Key m b) (Value m b) (vw (kvof m) m1 x') (vw (kvof m) m y)).
        { rewrite vw_nd. change (Height m2) with (Height m1). rewrite H1, KV, Nat.eqb_refl. f_equal; apply vw_frame; intros c Hc; rewrite KV.
          - split; [reflexivity|]. destruct (Nat.eqb_spec c a) as [->|_]; [|reflexivity]. exfalso. apply (k_in _ _ _ _ _ _ _ _ TK) in Hc. tauto.
          - split; [apply H2; exact Hc|]. destruct (Nat.eqb_spec c a) as [->|_]; [tauto|reflexivity]. }
        rewrite NB. change (kvof m b) with (Key m b, Value m b). cbv beta iota. rewrite HX2, <- VW.
        assert (RB : match rebalance th (Some p) d m2 with
          | Loop => False
          | Panic => forall kv, AvlTree.rebalance Both th (vw kv m2 (nd a d x' y)) = None
          | Ret rb m' => exists s', moved m2 m' (plus dead b) p d (nd a d x' y) s' /\ forall kv, AvlTree.rebalance Both th (vw kv m2 (nd a d x' y)) = Some (vw kv m' s', rb)
          end) by (pose proof (k_place _ _ _ _ _ _ _ _ TK2) as A1; clear - A1; destruct d; apply rebalance_place; exact A1).
        unfold bind. destruct (rebalance th (Some p) d m2) as [rb' m3| |]; [|rewrite RB; reflexivity|exact RB].
        destruct RB as (s3 & MV & RF). unfold ret. exists s3, (plus dead b). split; [apply (taken_moved m m2 m3 _ _ _ _ _ (nd a d x' y)); assumption|].
        rewrite RF. assert (kvof m3 = kvof m2) as -> by (unfold kvof; rewrite (v_key _ _ _ _ _ _ _ MV), (v_val _ _ _ _ _ _ _ MV); reflexivity). reflexivity.
    - destruct (cmp (Key m a) key =? 0) eqn:E2; [|destruct (cmp (Key m a) key =? 1) eqn:E3; [|reflexivity]]; cbn [orb].
      + assert (cmp (Key m a) key =? 1 = false) as -> by (apply Z.eqb_eq in E2; rewrite E2; reflexivity).
        apply (remove_descend key fuel m dead p d a false l r); [exact HP|cbn [nd addrs In]; rewrite in_app_iff; exact H0|].
        apply IH; [exact (place_down _ _ _ _ a false l r HP)|tauto|exact P1|lia].
      + apply (remove_descend key fuel m dead p d a true r l); [exact HP|cbn [nd addrs In]; rewrite in_app_iff; exact H0|].
        apply IH; [exact (place_down _ _ _ _ a true r l HP)|tauto|exact P1|lia].
  Qed.
End Rem.
