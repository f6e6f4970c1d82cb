(** experiment.Tree in memory: rebalance. *)
From Coq Require Import Permutation.
From Verif Require Import Base Bind Machine AvlTree AvlModel ExpHeapModel ExpHeapProofs ExpHeapRotProofs.
From Verif Require ExpModel.
Local Open Scope Z_scope.

Section Shape.
  Context {K V : Type} (th : Z).
  Implicit Types m : mem K V.
  Notation tree := (tree K V).

  (** what a call that only moves the nodes of [s] about leaves, [s'] being the tree in the end *)
  Record moved m m' (dead : nat -> Prop) (p : nat) (d : bool) (s s' : sh) : Prop := {
    v_place : place m' dead p d s'; v_eff : eff m m' p d s; v_perm : Permutation (addrs s') (addrs s);
    v_next : next m' = next m; v_key : Key m' = Key m; v_val : Value m' = Value m;
    v_size : forall c, ~ In c (addrs s) -> Size m' c = Size m c;
    v_sized : sized m s -> sized m' s' /\ sz m' (pt s') = sz m (pt s) }.

  Lemma place_heights m m' dead p d s : place m dead p d s -> next m' = next m -> Children m' = Children m -> Parent m' = Parent m -> place m' dead p d s.
  Proof.
    intros [P1 P2 P3 P4 P5 P6] HN HC HP. constructor; try assumption; rewrite ?HN; try assumption; [rewrite HC; exact P1| |].
    - eapply kids_frame; [exact P2|intros; rewrite HC; reflexivity].
    - eapply ups_frame; [exact P3|intros; rewrite HP; reflexivity|intros c Hc; rewrite HP; split; [exact Hc|reflexivity]].
  Qed.
  Lemma eff_refl m p d s : eff m m p d s.
  Proof. constructor; intros; repeat split; lia. Qed.

  Lemma rebalance_place m dead p d a l r : place m dead p d (B a l r) ->
    match rebalance th (Some p) d m with
    | Loop => False
    | Panic => forall kv, AvlTree.rebalance Both th (vw kv m (B a l r)) = None
    | Ret rb m' => exists s', moved m m' dead p d (B a l r) s' /\ forall kv, AvlTree.rebalance Both th (vw kv m (B a l r)) = Some (vw kv m' s', rb)
    end.
  Proof.
    intros H. pose proof H as [P1 P2 P3 P4 P5 P6]. cbn [pt kids] in P1, P2. destruct P2 as (K1 & K2 & K3 & K4).
    assert (RB : forall kv, AvlTree.rebalance Both th (vw kv m (B a l r)) =
      if th <=? i8 (ht m (pt l) - ht m (pt r)) then
        match vw kv m l with
        | E => None
        | N _ _ _ sl sr => t <- (if AvlTree.getHeight sr >? AvlTree.getHeight sl then rightRotateWithLeft Both (vw kv m (B a l r)) else rightRotate Both (vw kv m (B a l r))) ;; Some (t, true)
        end
      else if i8 (ht m (pt l) - ht m (pt r)) <=? i8 (- th) then
        match vw kv m r with
        | E => None
        | N _ _ _ sl sr => t <- (if AvlTree.getHeight sl >? AvlTree.getHeight sr then leftRotateWithRight Both (vw kv m (B a l r)) else leftRotate Both (vw kv m (B a l r))) ;; Some (t, true)
        end
      else if Height m a =? hmax (ht m (pt l)) (ht m (pt r)) then Some (vw kv m (B a l r), false)
      else Some (N (hmax (ht m (pt l)) (ht m (pt r))) (fst (kv a)) (snd (kv a)) (vw kv m l) (vw kv m r), true)).
    { intros kv. cbn [vw AvlTree.rebalance]. rewrite !ht_vw. unfold hmax. destruct (ht m (pt l) >? ht m (pt r)); reflexivity. }
    unfold rebalance. rewrite (bind_ret _ _ _ _ _ (rdKid_run p d m)). rewrite P1.
    rewrite (bind_ret _ _ _ _ _ (rdKid_run a false m)), K1. rewrite (bind_ret _ _ _ _ _ (getHeight_run (pt l) m)).
    rewrite (bind_ret _ _ _ _ _ (rdKid_run a true m)), K2. rewrite (bind_ret _ _ _ _ _ (getHeight_run (pt r) m)). cbv zeta.
    destruct (th <=? i8 (ht m (pt l) - ht m (pt r))) eqn:E1; [|destruct (i8 (ht m (pt l) - ht m (pt r)) <=? i8 (- th)) eqn:E2].
    - rewrite (bind_ret _ _ _ _ _ (rdKid_run a false m)), K1. destruct l as [|b ll lr]; [intros kv; rewrite RB; reflexivity|].
      cbn [pt kids] in K3 |- *. destruct K3 as (K5 & K6 & K7 & K8).
      rewrite (bind_ret _ _ _ _ _ (rdKid_run b true m)), K6. rewrite (bind_ret _ _ _ _ _ (getHeight_run (pt lr) m)).
      rewrite (bind_ret _ _ _ _ _ (rdKid_run b false m)), K5. rewrite (bind_ret _ _ _ _ _ (getHeight_run (pt ll) m)).
      destruct (ht m (pt lr) >? ht m (pt ll)) eqn:E3.
      + destruct lr as [|g g0 g1].
        * assert (R : rotate2 false (Some p) d m = Panic).
          { unfold rotate2. rewrite (bind_ret _ _ _ _ _ (rdKid_run p d m)), P1. rewrite (bind_ret _ _ _ _ _ (rdKid_run a false m)), K1.
            rewrite (bind_ret _ _ _ _ _ (rdKid_run b true m)), K6. reflexivity. }
          unfold bind at 1. rewrite R. intros kv. rewrite RB. cbn [vw]. rewrite ht_vw. cbn [AvlTree.getHeight]. cbn [pt ht] in E3. rewrite E3. reflexivity.
        * destruct (rotate2_place false m dead p d a b g ll g1 g0 r H) as (m' & R & Q1 & Q2 & Q3 & Q4 & Q5 & Q6 & Q7 & Q8).
          rewrite (bind_ret _ _ _ _ _ R). unfold ret. exists (nd g false (nd b false ll g0) (nd a false g1 r)). split.
          -- constructor; try assumption; [rewrite perm_rot2'; symmetry; apply (perm_rot2 a b g false ll g1 g0 r)].
          -- intros kv. specialize (Q6 kv). cbn [nd] in Q6. rewrite RB. cbn [vw]. cbn [vw] in Q6. rewrite ht_vw. cbn [AvlTree.getHeight]. cbn [pt ht] in E3. rewrite E3. rewrite Q6. reflexivity.
      + destruct (rotate_place false m dead p d a b ll lr r H) as (m' & R & Q1 & Q2 & Q3 & Q4 & Q5 & Q6 & Q7 & Q8).
        rewrite (bind_ret _ _ _ _ _ R). unfold ret. exists (nd b false ll (nd a false lr r)). split.
        * constructor; try assumption; [rewrite perm_rot'; symmetry; apply (perm_rot a b false ll lr r)].
        * intros kv. specialize (Q6 kv). cbn [nd] in Q6. rewrite RB. cbn [vw]. cbn [vw] in Q6. rewrite !ht_vw, E3. rewrite Q6. reflexivity.
    - rewrite (bind_ret _ _ _ _ _ (rdKid_run a true m)), K2. destruct r as [|b rl rr]; [intros kv; rewrite RB; reflexivity|].
      cbn [pt kids] in K4 |- *. destruct K4 as (K5 & K6 & K7 & K8).
      rewrite (bind_ret _ _ _ _ _ (rdKid_run b false m)), K5. rewrite (bind_ret _ _ _ _ _ (getHeight_run (pt rl) m)).
      rewrite (bind_ret _ _ _ _ _ (rdKid_run b true m)), K6. rewrite (bind_ret _ _ _ _ _ (getHeight_run (pt rr) m)).
      destruct (ht m (pt rl) >? ht m (pt rr)) eqn:E3.
      + destruct rl as [|g g0 g1].
        * assert (R : rotate2 true (Some p) d m = Panic).
          { unfold rotate2. rewrite (bind_ret _ _ _ _ _ (rdKid_run p d m)), P1. rewrite (bind_ret _ _ _ _ _ (rdKid_run a true m)), K2.
            rewrite (bind_ret _ _ _ _ _ (rdKid_run b false m)), K5. reflexivity. }
          unfold bind at 1. rewrite R. intros kv. rewrite RB. cbn [vw]. rewrite ht_vw. cbn [AvlTree.getHeight]. cbn [pt ht] in E3. rewrite E3. reflexivity.
        * destruct (rotate2_place true m dead p d a b g rr g0 g1 l H) as (m' & R & Q1 & Q2 & Q3 & Q4 & Q5 & Q6 & Q7 & Q8).
          rewrite (bind_ret _ _ _ _ _ R). unfold ret. exists (nd g true (nd b true rr g1) (nd a true g0 l)). split.
          -- constructor; try assumption; [rewrite perm_rot2'; symmetry; apply (perm_rot2 a b g true rr g0 g1 l)].
          -- intros kv. specialize (Q6 kv). cbn [nd] in Q6. rewrite RB. cbn [vw]. cbn [vw] in Q6. rewrite ht_vw. cbn [AvlTree.getHeight]. cbn [pt ht] in E3. rewrite E3. rewrite Q6. reflexivity.
      + destruct (rotate_place true m dead p d a b rr rl l H) as (m' & R & Q1 & Q2 & Q3 & Q4 & Q5 & Q6 & Q7 & Q8).
        rewrite (bind_ret _ _ _ _ _ R). unfold ret. exists (nd b true rr (nd a true rl l)). split.
        * constructor; try assumption; [rewrite perm_rot'; symmetry; apply (perm_rot a b true rr rl l)].
        * intros kv. specialize (Q6 kv). cbn [nd] in Q6. rewrite RB. cbn [vw]. cbn [vw] in Q6. rewrite !ht_vw, E3. rewrite Q6. reflexivity.
    - assert (R : rd Height (Some a) m = Ret (Height m a) m) by reflexivity. rewrite (bind_ret _ _ _ _ _ R). cbv zeta. fold (hmax (ht m (pt l)) (ht m (pt r))).
      destruct (Height m a =? _) eqn:E3.
      + exists (B a l r). split; [|intros kv; rewrite RB; reflexivity]. constructor; try reflexivity; [exact H|apply eff_refl|tauto].
      + rewrite (bind_ret _ _ _ _ _ (wr_run _ a m)). unfold ret. exists (B a l r).
        apply NoDup_cons_iff in P4 as [N1 N2]. cbn [addrs] in N2. apply NoDup_cons_iff in N2 as [N2 N3]. rewrite in_app_iff in N2. split.
        * constructor; try reflexivity.
          -- apply (place_heights m); try reflexivity; assumption.
          -- constructor; cbn [setHeight Parent Children Height Key Value next]; try (intros; reflexivity).
             intros c _ Hc. cbn [addrs In] in Hc. rewrite upd_ne by (intros ->; tauto). repeat split.
          -- intros HS. apply sized_frame; [exact HS|reflexivity].
        * intros kv. rewrite RB. cbn [vw setHeight Height]. rewrite upd_eq.
          rewrite !(vw_frame kv kv m (setHeight _ a m)) by (intros c Hc; cbn [setHeight Height]; rewrite upd_ne by (intros ->; tauto); split; reflexivity). reflexivity.
  Qed.
End Shape.
