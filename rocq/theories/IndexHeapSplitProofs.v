(** tree/indextree in memory: Split and SplitContain. *)
From Coq Require Import Permutation.
From Verif Require Import Base Bind Machine AvlTree AvlModel AvlSpec IndexSpec IndexModel.
From Verif Require Import IndexHeapModel IndexHeapProofs IndexHeapPutProofs IndexHeapReadProofs IndexHeapRemoveProofs IndexHeapCutProofs IndexHeapRangeProofs IndexHeapTrimProofs.
From Verif Require IndexProofs.
Local Open Scope Z_scope.

(** distinctness by counting occurrences *)
Ltac count :=
  repeat match goal with
         | H : In _ _ |- _ => apply (count_occ_In Nat.eq_dec) in H
         | H : ~ In _ _ |- _ => apply (count_occ_not_In Nat.eq_dec) in H
         end;
  rewrite ?count_occ_app in *; cbn [count_occ addrs] in *; rewrite ?count_occ_app in *; cbn [count_occ addrs] in *; rewrite ?count_occ_app in *; cbn [count_occ] in *;
  repeat match goal with
         | H : context [Nat.eq_dec ?x ?y] |- _ => destruct (Nat.eq_dec x y)
         | |- context [Nat.eq_dec ?x ?y] => destruct (Nat.eq_dec x y)
         end; try congruence; try lia.
(** [Hn : NoDup _]; the goal is [NoDup _], [~ In x _], [x <> y] or starts with [forall x, In x _ ->] *)
Ltac disj Hn :=
  let Hc := fresh "Hc" in
  pose proof (proj1 (NoDup_count_occ Nat.eq_dec _) Hn) as Hc;
  lazymatch goal with
  | |- NoDup _ => apply (NoDup_count_occ Nat.eq_dec); let z := fresh "z" in intros z; specialize (Hc z); clear Hn; count
  | |- ?x <> ?y => let X := fresh in intros X; specialize (Hc x); clear Hn; subst; count
  | |- ~ In ?x _ => let X := fresh in intros X; specialize (Hc x); clear Hn; count
  | |- forall x, In x _ -> _ => let z := fresh "z" in let X := fresh in let Y := fresh in intros z X Y; specialize (Hc z); clear Hn; count
  end.

Section Split.
  Context {K A : Type}.
  Notation V := (option A).
  Notation mem := (mem K (option A)).
  Notation tree := (tree K V).
  Notation tframe := (tframe (K := K) (V := option A)).
  Implicit Types m : mem.

  Lemma unch_at m m' l x : unch m m' l -> ~ In x l -> Parent m' x = Parent m x /\ (forall d, Children m' x d = Children m x d) /\
      Size m' x = Size m x /\ Key m' x = Key m x /\ Value m' x = Value m x.
  Proof. intros H. apply (proj2 H). Qed.

  (** the node [p] with one child, [y] *)
  Definition side m (p : nat) (d : bool) (y : sh) : Prop := Children m p (negb d) = pt y /\ hangs m p y /\ body m y.
  Lemma body_side m p d x y : body m (nd p d x y) <-> Children m p d = pt x /\ hangs m p x /\ body m x /\ side m p d y.
  Proof. rewrite body_nd. unfold side. tauto. Qed.
  Lemma side_keep m m' l p d y : unch m m' l -> ~ In p l -> (forall x, In x (addrs y) -> ~ In x l) -> side m p d y -> side m' p d y.
  Proof.
    intros H Hp Hy (H1 & H2 & H3). destruct (unch_at _ _ _ _ H Hp) as (_ & Kp & _). split; [rewrite Kp; exact H1|]. split; [eapply unch_hangs; eauto|eapply unch_body; eauto].
  Qed.

  (** p.Children[d] = nil; p.Size = getSize(p.Children[1-d]) + 1 *)
  Definition dropM (d : bool) (p : nat) (y : sh) m : mem := setSize (gs m y + 1) p (setKid d None p m).
  Lemma dropM_ok m d p y : side m p d y -> ~ In p (addrs y) -> let m' := dropM d p y m in
    body m' (nd p d L y) /\ view m' (nd p d L y) = tsum (Key m p) (Value m p) d E (view m y) /\ unch m m' [p] /\ Parent m' = Parent m.
  Proof.
    intros (Hk & Hh & Hb) Hn m'.
    assert (U : unch m m' [p]).
    { split; [reflexivity|]. intros z Hz. unfold m', dropM. mm. split; [reflexivity|]. split; [intros e|]; rewrite upd_ne by (intros ->; apply Hz; left; reflexivity); auto. }
    assert (Hy : forall x, In x (addrs y) -> ~ In x [p]) by (intros x Hx [<-|[]]; tauto).
    split; [|split; [|split; [exact U|reflexivity]]].
    - apply body_nd. split; [unfold m', dropM; mm; reflexivity|]. split; [unfold m', dropM; mm; exact Hk|]. split; [exact I|]. split; [eapply unch_hangs; eauto|]. split; [exact I|eapply unch_body; eauto].
    - rewrite view_nd. cbn [view]. rewrite (unch_view m m' _ y U Hy). unfold m', dropM. mm. reflexivity.
  Qed.
  Lemma drop_run {X} m d p y (k : M K (option A) X) : Children m p (negb d) = pt y ->
    (wr (setKid d None) (Some p) ;! (let! l := rdKid (Some p) (negb d) in let! s := getSize l in wr (setSize (s + 1)) (Some p) ;! k)) m = k (dropM d p y m).
  Proof.
    intros Hk. erewrite run_bind by reflexivity. erewrite run_bind by (rewrite rdKid_ok; mm; rewrite Hk; reflexivity).
    erewrite run_bind by apply getSize_ok. erewrite run_bind by reflexivity. unfold dropM, gs.
    rewrite (view_keep m (setKid d None p m)) by (apply data_all; reflexivity). reflexivity.
  Qed.
  Lemma drop_run_false {X} m p y (k : M K (option A) X) : Children m p true = pt y ->
    (wr (setKid false None) (Some p) ;! (let! l := rdKid (Some p) true in let! s := getSize l in wr (setSize (s + 1)) (Some p) ;! k)) m = k (dropM false p y m).
  Proof. exact (drop_run m false p y k). Qed.
  Lemma drop_run' m d p y : Children m p (negb d) = pt y ->
    (wr (setKid d None) (Some p) ;! (let! l := rdKid (Some p) (negb d) in let! s := getSize l in wr (setSize (s + 1)) (Some p))) m = Ret tt (dropM d p y m).
  Proof.
    intros Hk. erewrite run_bind by reflexivity. erewrite run_bind by (rewrite rdKid_ok; mm; rewrite Hk; reflexivity).
    erewrite run_bind by apply getSize_ok. unfold dropM, gs.
    rewrite (view_keep m (setKid d None p m)) by (apply data_all; reflexivity). reflexivity.
  Qed.

  (** p.Children[d] = a; a.Parent = p *)
  Definition hangM (d : bool) (p a : nat) m : mem := setParent (Some p) a (setKid d (Some a) p m).
  Lemma hang_run d p a m : hang d (Some p) (Some a) m = Ret tt (hangM d p a m).
  Proof. reflexivity. Qed.
  Lemma hangM_unch d p a m : unch m (hangM d p a m) [p; a].
  Proof.
    split; [reflexivity|]. intros z Hz. cbn [In] in Hz. unfold hangM. mm. rewrite upd_ne by (intros ->; tauto). split; [reflexivity|].
    split; [|auto]. intros e. rewrite upd_ne by (intros ->; tauto). reflexivity.
  Qed.

  (** p.Size = getChildrenSumSize(p) + 1 *)
  Lemma sum_here m p d x y : body m (nd p d x y) -> NoDup (p :: addrs x ++ addrs y) -> let m' := setSize (gs m x + gs m y + 1) p m in
    sumSize (Some p) m = Ret tt m' /\ body m' (nd p d x y) /\ view m' (nd p d x y) = tsum (Key m p) (Value m p) d (view m x) (view m y) /\
    unch m m' [p] /\ Parent m' = Parent m /\ Key m' = Key m /\ Value m' = Value m.
  Proof.
    intros Hb Hn m'. pose proof (proj1 (body_nd _ _ _ _ _) Hb) as (K1 & K2 & _).
    assert (U : unch m m' [p]).
    { split; [reflexivity|]. intros z Hz. unfold m'. mm. split; [reflexivity|]. split; [reflexivity|]. rewrite upd_ne by (intros ->; apply Hz; left; reflexivity). auto. }
    split; [apply (sumSize_ok m p d x y); assumption|]. split; [|split; [|auto]].
    - apply (body_keep m); [|exact Hb]. intros z _. auto.
    - rewrite view_nd. rewrite (unch_view m m' _ x U) by (disj Hn). rewrite (unch_view m m' _ y U) by (disj Hn). unfold m'. mm. reflexivity.
  Qed.

  (** ** below the two roots *)
  Context (cmp : K -> K -> Z).

  Definition splitPost m m' la w ra z s a b ta tb : Prop :=
    body m' (nd la true a w) /\ view m' (nd la true a w) = tsum (Key m la) (Value m la) true ta (view m w) /\
    body m' (nd ra false b z) /\ view m' (nd ra false b z) = tsum (Key m ra) (Value m ra) false tb (view m z) /\
    (forall x, count_occ Nat.eq_dec (addrs a) x + count_occ Nat.eq_dec (addrs b) x = count_occ Nat.eq_dec (addrs s) x)%nat /\
    unch m m' (la :: ra :: addrs s) /\ Parent m' la = Parent m la /\ Parent m' ra = Parent m ra.

  Lemma splitBelow_ok contain k s : forall m n la w ra z, body m s -> side m la true w -> side m ra false z ->
    NoDup (la :: ra :: addrs w ++ addrs z ++ addrs s) -> (hgt s < n)%nat ->
    exists m' a b, splitBelow cmp contain k n (pt s) (Some la) (Some ra) m = Ret tt m' /\
      splitPost m m' la w ra z s a b (fst (IndexModel.splitBelow cmp contain k (view m s))) (snd (IndexModel.splitBelow cmp contain k (view m s))).
  Proof.
    induction s as [|c l IHl r IHr]; intros m n la w ra z Hb Hl Hr Hn Hf; (destruct n as [|n]; [lia|]).
    - cbn [pt splitBelow isNil]. rewrite (drop_run m true la w) by (apply Hl).
      destruct (dropM_ok m true la w Hl ltac:(disj Hn)) as (B1 & V1 & U1 & P1). set (m1 := dropM true la w m) in *.
      assert (Hr1 : side m1 ra false z) by (eapply side_keep; [exact U1|disj Hn|disj Hn|exact Hr]).
      destruct (dropM_ok m1 false ra z Hr1 ltac:(disj Hn)) as (B2 & V2 & U2 & P2). set (m2 := dropM false ra z m1) in *.
      exists m2, L, L. split; [apply (drop_run' m1 false ra z), Hr1|]. cbn [view IndexModel.splitBelow fst snd]. split; [|split; [|split; [|split; [|split; [|split; [|split]]]]]].
      + eapply unch_body; [exact U2| |exact B1]. intros x Hx. apply in_nd in Hx. cbn [addrs In] in Hx. destruct Hx as [->|[[]|Hx]]; [disj Hn|]. revert x Hx. disj Hn.
      + rewrite (unch_view m1 m2 _ _ U2); [exact V1|]. intros x Hx. apply in_nd in Hx. cbn [addrs In] in Hx. destruct Hx as [->|[[]|Hx]]; [disj Hn|]. revert x Hx. disj Hn.
      + exact B2.
      + rewrite V2. destruct (unch_at _ _ _ ra U1) as (_ & _ & _ & -> & ->); [disj Hn|]. rewrite (unch_view m m1 _ z U1) by disj Hn. reflexivity.
      + intros x. reflexivity.
      + eapply unch_trans; (eapply unch_incl; [|eassumption]); intros x [<-|[]]; cbn; auto.
      + rewrite P2, P1. reflexivity.
      + rewrite P2, P1. reflexivity.
    - pose proof Hb as (Kl & Kr & Pl & Pr & Bl & Br). cbn [hgt] in Hf. cbn [pt splitBelow isNil]. erewrite run_bind by apply rd_ok. cbv zeta. cbn [view IndexModel.splitBelow]. cbv zeta.
      destruct (cmp (Key m c) k >? 0); [|destruct (cmp (Key m c) k <? 0); [|destruct contain]].
      + (* to the right *)
        pose proof (hangM_unch false ra c m) as U1. erewrite run_bind by apply hang_run. set (m1 := hangM false ra c m) in *.
        assert (K1 : forall e, Children m1 c e = Children m c e).
        { intros e. unfold m1, hangM. mm. rewrite upd_ne by disj Hn. reflexivity. }
        erewrite run_bind by (rewrite rdKid_ok, K1, Kl; reflexivity).
        assert (Hl1 : side m1 la true w) by (eapply side_keep; [exact U1|disj Hn|disj Hn|exact Hl]).
        assert (Hc1 : side m1 c false r).
        { split; [rewrite K1; exact Kr|]. split; [eapply unch_hangs; [exact U1|disj Hn|exact Pr]|eapply unch_body; [exact U1|disj Hn|exact Br]]. }
        assert (Bl1 : body m1 l) by (eapply unch_body; [exact U1|disj Hn|exact Bl]).
        destruct (IHl m1 n la w c r Bl1 Hl1 Hc1 ltac:(disj Hn) ltac:(lia)) as (m2 & a & b & R2 & B2 & V2 & B3 & V3 & Cn & U2 & P2 & P3).
        erewrite run_bind by exact R2.
        rewrite (unch_view m m1 _ l U1) in V2, V3 by disj Hn.
        destruct (IndexModel.splitBelow cmp contain k (view m l)) as (ta, tb) eqn:Es. cbn [fst snd] in *.
        destruct (unch_at _ _ _ ra U2 ltac:(disj Hn)) as (Pr2 & Kr2 & Sr2 & Yr2 & Wr2).
        assert (B4 : body m2 (nd ra false (nd c false b r) z)).
        { apply body_side. rewrite pt_nd, Kr2. split; [unfold m1, hangM; mm; reflexivity|]. split; [apply hangs_nd; rewrite P3; unfold m1, hangM; mm; reflexivity|].
          split; [exact B3|]. eapply side_keep; [exact U2|disj Hn|disj Hn|]. destruct Hr as (H1 & H2 & H3). split; [unfold m1, hangM; mm; exact H1|].
          split; [eapply unch_hangs; [exact U1|disj Hn|exact H2]|eapply unch_body; [exact U1|disj Hn|exact H3]]. }
        assert (Cn' : forall x, (count_occ Nat.eq_dec (addrs a) x + count_occ Nat.eq_dec (addrs (nd c false b r)) x = count_occ Nat.eq_dec (addrs (B c l r)) x)%nat).
        { intros x. specialize (Cn x). cbn [nd addrs count_occ]. rewrite !count_occ_app. destruct (Nat.eq_dec c x); lia. }
        assert (Hn2 : NoDup (ra :: addrs (nd c false b r) ++ addrs z)).
        { pose proof (proj1 (NoDup_count_occ Nat.eq_dec _) Hn) as Hc. apply (NoDup_count_occ Nat.eq_dec). intros x. specialize (Hc x). specialize (Cn' x). clear Hn.
          rewrite ?count_occ_app in *; cbn [count_occ] in *; rewrite ?count_occ_app in *. destruct (Nat.eq_dec ra x), (Nat.eq_dec la x); lia. }
        destruct (sum_here m2 ra false _ z B4 Hn2) as (R3 & B5 & V5 & U3 & P5 & Y5 & W5). set (m3 := setSize _ ra m2) in *.
        assert (Hra : forall x, In x (addrs (nd la true a w)) -> ~ In x [ra]).
        { intros x Hx [<-|[]]. apply in_nd in Hx. specialize (Cn' ra). pose proof (proj1 (NoDup_count_occ Nat.eq_dec _) Hn ra) as Hc. clear Hn Hn2 Cn. destruct Hx as [->|[Hx|Hx]]; count. }
        exists m3, a, (nd c false b r). split; [exact R3|]. split; [|split; [|split; [|split; [|split; [|split; [|split]]]]]].
        * eapply unch_body; [exact U3|exact Hra|exact B2].
        * rewrite (unch_view m2 m3 _ _ U3 Hra), V2. destruct (unch_at _ _ _ la U1) as (_ & _ & _ & -> & ->); [disj Hn|]. rewrite (unch_view m m1 _ w U1) by disj Hn. reflexivity.
        * exact B5.
        * rewrite V5. f_equal.
          -- rewrite Yr2. reflexivity.
          -- rewrite Wr2. reflexivity.
          -- rewrite V3, tsum_sum. cbv iota. f_equal. apply (unch_view m m1 _ r U1). disj Hn.
          -- rewrite (unch_view m1 m2 _ z U2) by disj Hn. apply (unch_view m m1 _ z U1). disj Hn.
        * exact Cn'.
        * eapply unch_trans; [eapply unch_incl; [|exact U1]|eapply unch_trans; [eapply unch_incl; [|exact U2]|eapply unch_incl; [|exact U3]]]; intros x; cbn [In addrs]; rewrite ?in_app_iff; intuition.
        * rewrite P5, P2. apply (unch_at _ _ _ la U1). disj Hn.
        * rewrite P5, Pr2. unfold m1, hangM. mm. rewrite upd_ne by disj Hn. reflexivity.
      + (* to the left *)
        pose proof (hangM_unch true la c m) as U1. erewrite run_bind by apply hang_run. set (m1 := hangM true la c m) in *.
        assert (K1 : forall e, Children m1 c e = Children m c e).
        { intros e. unfold m1, hangM. mm. rewrite upd_ne by disj Hn. reflexivity. }
        erewrite run_bind by (rewrite rdKid_ok, K1, Kr; reflexivity).
        assert (Hr1 : side m1 ra false z) by (eapply side_keep; [exact U1|disj Hn|disj Hn|exact Hr]).
        assert (Hc1 : side m1 c true l).
        { split; [cbn [negb]; rewrite K1; exact Kl|]. split; [eapply unch_hangs; [exact U1|disj Hn|exact Pl]|eapply unch_body; [exact U1|disj Hn|exact Bl]]. }
        assert (Br1 : body m1 r) by (eapply unch_body; [exact U1|disj Hn|exact Br]).
        destruct (IHr m1 n c l ra z Br1 Hc1 Hr1 ltac:(disj Hn) ltac:(lia)) as (m2 & a & b & R2 & B3 & V3 & B2 & V2 & Cn & U2 & P3 & P2).
        erewrite run_bind by exact R2.
        rewrite (unch_view m m1 _ r U1) in V2, V3 by disj Hn.
        destruct (IndexModel.splitBelow cmp contain k (view m r)) as (ta, tb) eqn:Es. cbn [fst snd] in *.
        destruct (unch_at _ _ _ la U2 ltac:(disj Hn)) as (Pr2 & Kr2 & Sr2 & Yr2 & Wr2).
        assert (B4 : body m2 (nd la true (nd c true a l) w)).
        { apply body_side. rewrite pt_nd, Kr2. split; [unfold m1, hangM; mm; reflexivity|]. split; [apply hangs_nd; rewrite P3; unfold m1, hangM; mm; reflexivity|].
          split; [exact B3|]. eapply side_keep; [exact U2|disj Hn|disj Hn|]. destruct Hl as (H1 & H2 & H3). split; [unfold m1, hangM; mm; exact H1|].
          split; [eapply unch_hangs; [exact U1|disj Hn|exact H2]|eapply unch_body; [exact U1|disj Hn|exact H3]]. }
        assert (Cn' : forall x, (count_occ Nat.eq_dec (addrs (nd c true a l)) x + count_occ Nat.eq_dec (addrs b) x = count_occ Nat.eq_dec (addrs (B c l r)) x)%nat).
        { intros x. specialize (Cn x). cbn [nd addrs count_occ]. rewrite !count_occ_app. destruct (Nat.eq_dec c x); lia. }
        assert (Hn2 : NoDup (la :: addrs (nd c true a l) ++ addrs w)).
        { pose proof (proj1 (NoDup_count_occ Nat.eq_dec _) Hn) as Hc. apply (NoDup_count_occ Nat.eq_dec). intros x. specialize (Hc x). specialize (Cn' x). clear Hn.
          rewrite ?count_occ_app in *; cbn [count_occ] in *; rewrite ?count_occ_app in *. destruct (Nat.eq_dec ra x), (Nat.eq_dec la x); lia. }
        destruct (sum_here m2 la true _ w B4 Hn2) as (R3 & B5 & V5 & U3 & P5 & Y5 & W5). set (m3 := setSize _ la m2) in *.
        assert (Hra : forall x, In x (addrs (nd ra false b z)) -> ~ In x [la]).
        { intros x Hx [<-|[]]. apply in_nd in Hx. specialize (Cn' la). pose proof (proj1 (NoDup_count_occ Nat.eq_dec _) Hn la) as Hc. clear Hn Hn2 Cn. destruct Hx as [->|[Hx|Hx]]; count. }
        exists m3, (nd c true a l), b. split; [exact R3|]. split; [|split; [|split; [|split; [|split; [|split; [|split]]]]]].
        * exact B5.
        * rewrite V5. f_equal.
          -- rewrite Yr2. reflexivity.
          -- rewrite Wr2. reflexivity.
          -- rewrite V3, tsum_sum. cbv iota. f_equal. apply (unch_view m m1 _ l U1). disj Hn.
          -- rewrite (unch_view m1 m2 _ w U2) by disj Hn. apply (unch_view m m1 _ w U1). disj Hn.
        * eapply unch_body; [exact U3|exact Hra|exact B2].
        * rewrite (unch_view m2 m3 _ _ U3 Hra), V2. destruct (unch_at _ _ _ ra U1) as (_ & _ & _ & -> & ->); [disj Hn|]. rewrite (unch_view m m1 _ z U1) by disj Hn. reflexivity.
        * exact Cn'.
        * eapply unch_trans; [eapply unch_incl; [|exact U1]|eapply unch_trans; [eapply unch_incl; [|exact U2]|eapply unch_incl; [|exact U3]]]; intros x; cbn [In addrs]; rewrite ?in_app_iff; intuition.
        * rewrite P5, Pr2. unfold m1, hangM. mm. rewrite upd_ne by disj Hn. reflexivity.
        * rewrite P5, P2. apply (unch_at _ _ _ ra U1). disj Hn.
      + (* the key itself, to the left *)
        pose proof (hangM_unch true la c m) as U1. erewrite run_bind by apply hang_run. set (m1 := hangM true la c m) in *.
        assert (K1 : forall e, Children m1 c e = Children m c e).
        { intros e. unfold m1, hangM. mm. rewrite upd_ne by disj Hn. reflexivity. }
        erewrite run_bind by (rewrite rdKid_ok, K1, Kr; reflexivity).
        assert (Hc1 : side m1 c true l).
        { split; [cbn [negb]; rewrite K1; exact Kl|]. split; [eapply unch_hangs; [exact U1|disj Hn|exact Pl]|eapply unch_body; [exact U1|disj Hn|exact Bl]]. }
        rewrite (drop_run m1 true c l) by (apply Hc1).
        destruct (dropM_ok m1 true c l Hc1 ltac:(disj Hn)) as (B2 & V2 & U2 & P2). set (m2 := dropM true c l m1) in *.
        destruct (unch_at _ _ _ la U2 ltac:(disj Hn)) as (Pp2 & Kp2 & Sp2 & Yp2 & Wp2).
        assert (B3 : body m2 (nd la true (nd c true L l) w)).
        { apply body_side. rewrite pt_nd, Kp2. split; [unfold m1, hangM; mm; reflexivity|]. split; [apply hangs_nd; rewrite P2; unfold m1, hangM; mm; reflexivity|].
          split; [exact B2|]. eapply side_keep; [exact U2|disj Hn|disj Hn|]. destruct Hl as (H1 & H2 & H3). split; [unfold m1, hangM; mm; exact H1|].
          split; [eapply unch_hangs; [exact U1|disj Hn|exact H2]|eapply unch_body; [exact U1|disj Hn|exact H3]]. }
        destruct (sum_here m2 la true (nd c true L l) w B3 ltac:(cbn [nd addrs app]; disj Hn)) as (R3 & B5 & V5 & U3 & P5 & Y5 & W5). erewrite run_bind by exact R3. set (m3 := setSize _ la m2) in *.
        assert (U13 : unch m m3 [la; c]).
        { eapply unch_trans; [exact U1|eapply unch_trans; [eapply unch_incl; [|exact U2]|eapply unch_incl; [|exact U3]]]; intros x; cbn [In]; tauto. }
        assert (Hq3 : side m3 ra false z) by (eapply side_keep; [exact U13|disj Hn|disj Hn|exact Hr]).
        destruct Hq3 as (Q1 & Q2 & Q3).
        destruct (adopt_ok m3 ra false r z ltac:(disj Hn) Q1 Q2 Q3 ltac:(eapply unch_body; [exact U13|disj Hn|exact Br])) as (m4 & R4 & B6 & V6 & U4 & P6).
        assert (Hin : forall x, In x (addrs (nd la true (nd c true L l) w)) -> ~ In x (ra :: addrs r)).
        { intros x Hx. apply in_nd in Hx. destruct Hx as [->|[Hx|Hx]]; [disj Hn|cbn [nd] in Hx; revert x Hx; disj Hn|revert x Hx; disj Hn]. }
        exists m4, (nd c true L l), (r). split; [exact R4|]. cbn [fst snd]. split; [|split; [|split; [|split; [|split; [|split; [|split]]]]]].
        * eapply unch_body; [exact U4|exact Hin|exact B5].
        * rewrite (unch_view m3 m4 _ _ U4 Hin), V5. f_equal.
          -- rewrite V2. unfold tsum. cbn [tnd IndexModel.getSize]. rewrite (unch_view m m1 _ l U1) by disj Hn. f_equal.
          -- rewrite (unch_view m1 m2 _ w U2) by disj Hn. apply (unch_view m m1 _ w U1). disj Hn.
        * exact B6.
        * rewrite V6. destruct (unch_at _ _ _ ra U13) as (_ & _ & _ & -> & ->); [disj Hn|]. f_equal; [apply (unch_view m m3 _ r U13); disj Hn|apply (unch_view m m3 _ z U13); disj Hn].
        * intros x. cbn [nd addrs count_occ app]. rewrite ?count_occ_app. destruct (Nat.eq_dec c x); cbn [count_occ]; lia.
        * eapply unch_trans; [eapply unch_incl; [|exact U13]|eapply unch_incl; [|exact U4]]; intros x; cbn [In addrs]; rewrite ?in_app_iff; intuition.
        * destruct (unch_at _ _ _ la U4) as (-> & _); [disj Hn|]. rewrite P5, Pp2. unfold m1, hangM. mm. rewrite upd_ne by disj Hn. reflexivity.
        * rewrite P6. apply (unch_at _ _ _ ra U13). disj Hn.
      + (* the key itself, to the right *)
        pose proof (hangM_unch false ra c m) as U1. erewrite run_bind by apply hang_run. set (m1 := hangM false ra c m) in *.
        assert (K1 : forall e, Children m1 c e = Children m c e).
        { intros e. unfold m1, hangM. mm. rewrite upd_ne by disj Hn. reflexivity. }
        erewrite run_bind by (rewrite rdKid_ok, K1, Kl; reflexivity).
        assert (Hc1 : side m1 c false r).
        { split; [cbn [negb]; rewrite K1; exact Kr|]. split; [eapply unch_hangs; [exact U1|disj Hn|exact Pr]|eapply unch_body; [exact U1|disj Hn|exact Br]]. }
        rewrite drop_run_false with (y := r) by (apply Hc1).
        destruct (dropM_ok m1 false c r Hc1 ltac:(disj Hn)) as (B2 & V2 & U2 & P2). set (m2 := dropM false c r m1) in *.
        destruct (unch_at _ _ _ ra U2 ltac:(disj Hn)) as (Pp2 & Kp2 & Sp2 & Yp2 & Wp2).
        assert (B3 : body m2 (nd ra false (nd c false L r) z)).
        { apply body_side. rewrite pt_nd, Kp2. split; [unfold m1, hangM; mm; reflexivity|]. split; [apply hangs_nd; rewrite P2; unfold m1, hangM; mm; reflexivity|].
          split; [exact B2|]. eapply side_keep; [exact U2|disj Hn|disj Hn|]. destruct Hr as (H1 & H2 & H3). split; [unfold m1, hangM; mm; exact H1|].
          split; [eapply unch_hangs; [exact U1|disj Hn|exact H2]|eapply unch_body; [exact U1|disj Hn|exact H3]]. }
        destruct (sum_here m2 ra false (nd c false L r) z B3 ltac:(cbn [nd addrs app]; disj Hn)) as (R3 & B5 & V5 & U3 & P5 & Y5 & W5). erewrite run_bind by exact R3. set (m3 := setSize _ ra m2) in *.
        assert (U13 : unch m m3 [ra; c]).
        { eapply unch_trans; [exact U1|eapply unch_trans; [eapply unch_incl; [|exact U2]|eapply unch_incl; [|exact U3]]]; intros x; cbn [In]; tauto. }
        assert (Hq3 : side m3 la true w) by (eapply side_keep; [exact U13|disj Hn|disj Hn|exact Hl]).
        destruct Hq3 as (Q1 & Q2 & Q3).
        destruct (adopt_ok m3 la true l w ltac:(disj Hn) Q1 Q2 Q3 ltac:(eapply unch_body; [exact U13|disj Hn|exact Bl])) as (m4 & R4 & B6 & V6 & U4 & P6).
        assert (Hin : forall x, In x (addrs (nd ra false (nd c false L r) z)) -> ~ In x (la :: addrs l)).
        { intros x Hx. apply in_nd in Hx. destruct Hx as [->|[Hx|Hx]]; [disj Hn|cbn [nd] in Hx; revert x Hx; disj Hn|revert x Hx; disj Hn]. }
        exists m4, (l), (nd c false L r). split; [exact R4|]. cbn [fst snd]. split; [|split; [|split; [|split; [|split; [|split; [|split]]]]]].
        * exact B6.
        * rewrite V6. destruct (unch_at _ _ _ la U13) as (_ & _ & _ & -> & ->); [disj Hn|]. f_equal; [apply (unch_view m m3 _ l U13); disj Hn|apply (unch_view m m3 _ w U13); disj Hn].
        * eapply unch_body; [exact U4|exact Hin|exact B5].
        * rewrite (unch_view m3 m4 _ _ U4 Hin), V5. f_equal.
          -- rewrite V2. unfold tsum. cbn [tnd IndexModel.getSize]. rewrite (unch_view m m1 _ r U1) by disj Hn. f_equal.
          -- rewrite (unch_view m1 m2 _ z U2) by disj Hn. apply (unch_view m m1 _ z U1). disj Hn.
        * intros x. cbn [nd addrs count_occ app]. rewrite ?count_occ_app. destruct (Nat.eq_dec c x); cbn [count_occ]; lia.
        * eapply unch_trans; [eapply unch_incl; [|exact U13]|eapply unch_incl; [|exact U4]]; intros x; cbn [In addrs]; rewrite ?in_app_iff; intuition.
        * rewrite P6. apply (unch_at _ _ _ la U13). disj Hn.
        * destruct (unch_at _ _ _ ra U4) as (-> & _); [disj Hn|]. rewrite P5, Pp2. unfold m1, hangM. mm. rewrite upd_ne by disj Hn. reflexivity.
  Qed.
End Split.
