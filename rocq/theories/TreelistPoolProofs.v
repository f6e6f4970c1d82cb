(** tree/treelist: several lists, each in a memory of its own, and the sorted lists of entries they stand for. *)
From Verif Require Import Base Bind Machine OrderSpec SMapSpec SMapFacts CompareModel AvlTree AvlSpec IndexSpec IndexPoolSpec
  TreelistSpec TreelistModel TreelistLinks TreelistProofs TreelistSteps TreelistProps IndexModel
  IndexHeapModel IndexHeapProofs IndexHeapReadProofs IndexHeapProps TreelistPoolSpec TreelistHeapModel TreelistHeapProofs TreelistHeapStepProofs TreelistHeapProps
  TreelistPoolModel TreelistMoveProofs TreelistPoolMoveProofs TreelistPoolBuildProofs.
From Verif Require TreelistSetModel TreelistSetProofs.
Local Open Scope Z_scope.

(** ** What comes out of a set operation *)
Section Sets.
  Context {K V : Type} (ltb : K -> K -> bool) (W : weak_order ltb) (cmp : K -> K -> Z) (Hcmp : plain_cmp ltb cmp).
  Notation entries := (list (K * V)).
  Implicit Types m : entries.

  Lemma sorted_head_lt x m y : strictly_sorted ltb (x :: m) -> In y m -> ltb (fst x) (fst y) = true.
  Proof. intros H. apply TreelistSetProofs.sorted_cons in H as (_ & H). apply H. Qed.
  Lemma sorted_unique m : forall m', strictly_sorted ltb m -> strictly_sorted ltb m' -> (forall x, In x m <-> In x m') -> m = m'.
  Proof.
    induction m as [|x m IH]; intros [|y m'] H1 H2 H3; [reflexivity|destruct (proj2 (H3 y) (or_introl eq_refl))|destruct (proj1 (H3 x) (or_introl eq_refl))|].
    assert (Eq : x = y).
    { destruct (proj1 (H3 x) (or_introl eq_refl)) as [->|Hx]; [reflexivity|]. destruct (proj2 (H3 y) (or_introl eq_refl)) as [->|Hy]; [reflexivity|].
      pose proof (sorted_head_lt _ _ _ H1 Hy) as A1. pose proof (sorted_head_lt _ _ _ H2 Hx) as A2. rewrite (lt_asym _ W _ _ A1) in A2. discriminate. }
    subst y. f_equal. apply IH; [apply TreelistSetProofs.sorted_cons in H1; tauto|apply TreelistSetProofs.sorted_cons in H2; tauto|]. intros z. split; intros Hz.
    - destruct (proj1 (H3 z) (or_intror Hz)) as [<-|Hz']; [|exact Hz']. pose proof (sorted_head_lt _ _ _ H1 Hz) as X. rewrite (wo_irrefl _ W) in X. discriminate.
    - destruct (proj2 (H3 z) (or_intror Hz)) as [<-|Hz']; [|exact Hz']. pose proof (sorted_head_lt _ _ _ H2 Hz) as X. rewrite (wo_irrefl _ W) in X. discriminate.
  Qed.
  Lemma present_has k m : present ltb k m = true <-> has ltb k m.
  Proof. unfold present, has. rewrite existsb_exists. reflexivity. Qed.
  Lemma present_sames k m : present ltb k m = false -> sames ltb k m = [].
  Proof.
    intros H. unfold sames. induction m as [|x m IH]; [reflexivity|]. cbn [present existsb] in H. apply orb_false_iff in H as (H1 & H2). cbn [filter]. rewrite H1. apply IH, H2.
  Qed.
  Lemma same_self k : OrderSpec.same ltb k k = true.
  Proof. unfold OrderSpec.same. rewrite (wo_irrefl _ W). reflexivity. Qed.
  Lemma union_in m2 : forall m1, strictly_sorted ltb m1 -> strictly_sorted ltb m2 ->
    strictly_sorted ltb (set_spec ltb LUnion m1 m2) /\ forall x, In x (set_spec ltb LUnion m1 m2) <-> In x m1 \/ (In x m2 /\ ~ has ltb (fst x) m1).
  Proof.
    cbn [set_spec]. induction m2 as [|y m2 IH]; intros m1 H1 H2; [cbn; split; [exact H1|tauto]|]. cbn [fold_left].
    pose proof (sorted_head_lt y m2) as Hlt. specialize (fun z => Hlt z H2). apply TreelistSetProofs.sorted_cons in H2 as (H2 & _).
    destruct (present ltb (fst y) m1) eqn:Ep.
    - destruct (IH m1 H1 H2) as (I1 & I2). split; [exact I1|]. intros x. rewrite I2. apply present_has in Ep. cbn [In]. split; [tauto|]. intros [X|([<-|X] & N)]; tauto.
    - pose proof (present_sames _ _ Ep) as Es.
      assert (Hw : forall x, In x (write ltb (fst y) y m1) <-> x = y \/ In x m1).
      { intros x. pose proof (cut_all ltb W m1 (fst y) (strict_weak ltb W m1 H1)) as Ec. rewrite Es in Ec. cbn [app] in Ec. unfold write.
        rewrite Ec at 3. rewrite !in_app_iff. cbn [In]. intuition congruence. }
      destruct (IH (write ltb (fst y) y m1)) as (I1 & I2); [apply (write_sorted ltb W); [apply same_self|exact H1]|exact H2|].
      split; [exact I1|]. intros x. rewrite I2, Hw. cbn [In].
      assert (N : ~ has ltb (fst y) m1) by (intros X; apply present_has in X; congruence).
      assert (Hh : In x m2 -> (has ltb (fst x) (write ltb (fst y) y m1) <-> has ltb (fst x) m1)).
      { intros Hx. split; intros (z & Hz & E0); [|exists z; split; [apply Hw; auto|exact E0]]. apply Hw in Hz as [->|Hz]; [|exists z; auto].
        unfold OrderSpec.same in E0. rewrite (Hlt x Hx) in E0. cbn in E0. discriminate. }
      split; [intros [[->|X]|(X & Y)]; [auto|auto|rewrite (Hh X) in Y; auto]|]. intros [X|([<-|X] & Y)]; [auto|auto|]. right. rewrite (Hh X). auto.
  Qed.
  Lemma has_dec k m : has ltb k m \/ ~ has ltb k m.
  Proof. destruct (present ltb k m) eqn:E; [left; apply present_has, E|right; intros X; apply present_has in X; congruence]. Qed.
  Lemma merge_spec op m1 m2 : strictly_sorted ltb m1 -> strictly_sorted ltb m2 -> TreelistSetProofs.merge cmp (conv op) m1 m2 = set_spec ltb op m1 m2.
  Proof.
    intros H1 H2. destruct (TreelistSetProofs.merge_ok ltb W cmp Hcmp (conv op) m1 m2 H1 H2) as (A1 & A2).
    destruct op; cbn [conv TreelistSetProofs.member] in *.
    - apply sorted_unique; [exact A1|apply ssorted_filter, H1|]. intros x. rewrite A2. cbn [set_spec]. rewrite filter_In, present_has. reflexivity.
    - destruct (union_in m2 m1 H1 H2) as (B1 & B2). apply sorted_unique; [exact A1|exact B1|]. intros x. rewrite A2, B2. reflexivity.
    - apply sorted_unique; [exact A1|apply ssorted_filter, H1|]. intros x. rewrite A2. cbn [set_spec]. rewrite filter_In, negb_true_iff.
      pose proof (present_has (fst x) m2) as P. destruct (present ltb (fst x) m2); intuition congruence.
  Qed.
End Sets.

(** ** The lists, each in its own memory *)
Section Pool.
  Context {K V : Type} (ltb : K -> K -> bool) (W : weak_order ltb) (cmp : K -> K -> Z) (Hcmp : plain_cmp ltb cmp) (zero : K) (zeroV : V).
  Notation tmem := (tmem K V).
  Notation entries := (list (K * V)).
  Notation lapart := (lapart cmp zero zeroV).

  Definition holds (f : bool) (m : tmem) (M : entries) : Prop := exists s, trep m s /\ TRel ltb f s M.
  Record held (fs : list bool) (ms : list tmem) (es : list entries) : Prop := {
    hd_fs : length fs = length ms;
    hd_es : length es = length ms;
    hd_at : forall i f m M, nth_error fs i = Some f -> nth_error ms i = Some m -> nth_error es i = Some M -> holds f m M }.
  Lemma held_snoc fs ms es m M : held fs ms es -> holds false m M -> held (fs ++ [false]) (ms ++ [m]) (es ++ [M]).
  Proof.
    intros [L1 L2 L3] H. constructor; [rewrite !app_length; cbn; lia..|]. intros i f m' M' H1 H2 H3.
    apply nth_snoc in H2 as [H2|(-> & ->)].
    - assert (i < length ms)%nat by (apply nth_error_Some; congruence). rewrite nth_error_app1 in H1, H3 by lia. eauto.
    - rewrite nth_error_app2 in H1 by lia. rewrite L1, Nat.sub_diag in H1. rewrite nth_error_app2 in H3 by lia. rewrite L2, Nat.sub_diag in H3. cbn in H1, H3. congruence.
  Qed.
  Lemma held_put fs ms es i f m M : held fs ms es -> (i < length ms)%nat -> holds f m M -> held (put_at i f fs) (put_at i m ms) (put_at i M es).
  Proof.
    intros [L1 L2 L3] Hi H. constructor; [rewrite !put_at_len; assumption..|]. intros j f' m' M' H1 H2 H3. destruct (Nat.eq_dec i j) as [<-|Hij].
    - destruct (nth_error fs i) as [f0|] eqn:E1; [|apply nth_error_None in E1; lia]. destruct (nth_error ms i) as [m0|] eqn:E2; [|apply nth_error_None in E2; lia].
      destruct (nth_error es i) as [M0|] eqn:E3; [|apply nth_error_None in E3; lia].
      rewrite (put_at_eq _ _ _ _ E1) in H1. rewrite (put_at_eq _ _ _ _ E2) in H2. rewrite (put_at_eq _ _ _ _ E3) in H3. congruence.
    - rewrite put_at_ne in H1 by exact Hij. rewrite put_at_ne in H2 by exact Hij. rewrite put_at_ne in H3 by exact Hij. eauto.
  Qed.

  Lemma holds_len f M (s : TreelistModel.tl K V) : TRel ltb f s M -> (length (elems (TreelistModel.top s)) <= fresh s)%nat.
  Proof.
    intros (_ & _ & _ & Hn & Hf & _). replace (length (elems (TreelistModel.top s))) with (length (ids (elems (TreelistModel.top s)))) by (unfold ids; apply map_length).
    rewrite <- (seq_length (fresh s) 0). apply NoDup_incl_length; [exact Hn|]. intros x Hx. apply in_seq. specialize (Hf x Hx). lia.
  Qed.

  Lemma apart_step fs ms es o : held fs ms es -> call_fine fs es o ->
    exists ms' x, lapart ms o = Some (ms', x) /\
      (put_panics o x -> exists i e, nth_error es i = Some e /\ 63 < len e) /\
      (~ put_panics o x -> held (flags_after ltb fs es o) ms' (fst (lp_spec ltb es o)) /\ x = snd (lp_spec ltb es o)).
  Proof.
    intros HH Hc. pose proof HH as [L1 L2 L3]. destruct o as [|i o|op i j]; cbn [TreelistPoolModel.lapart call_fine flags_after lp_spec] in *.
    - exists (ms ++ [tnew zero zeroV]), LMade. split; [reflexivity|]. split; [intros []|]. intros _. split; [|reflexivity]. apply held_snoc; [exact HH|].
      exists TreelistModel.new. split; [apply trep_new|apply rel_start].
    - destruct (nth_error ms i) as [m|] eqn:Em.
      2: { rewrite (nth_same ms es i (eq_sym L2) Em), (nth_same ms fs i (eq_sym L1) Em). exists ms, LNoList. split; [reflexivity|]. split; [intros []|]. intros _. split; [exact HH|reflexivity]. }
      destruct (nth_has ms fs i m (eq_sym L1) Em) as (f & Ef). destruct (nth_has ms es i m (eq_sym L2) Em) as (M & EM). rewrite Ef, EM in *.
      destruct (L3 i f m M Ef Em EM) as (s & Hr & HR). destruct Hc as (Ht & He).
      destruct (s_step ltb W cmp Hcmp f m s M o Hr HR) as (m' & r & R1 & R2 & R3). specialize (R3 He). subst r. rewrite R1.
      eexists _, _. split; [reflexivity|]. cbn [put_panics]. split.
      + intros Hp. exists i, M. split; [exact EM|]. pose proof (step_low ltb W cmp Hcmp f s M o HR Hp) as Hl. destruct HR as (<- & _). rewrite pk_len. pose proof (ht_len (TreelistModel.top s)). lia.
      + intros Hp. destruct (step_ok ltb W cmp Hcmp f s M o HR Ht Hp) as (X1 & X2). rewrite (X2 He). cbn [fst snd]. split; [|reflexivity].
        apply held_put; [exact HH|apply nth_error_Some; congruence|]. eexists. split; [exact R2|exact X1].
    - destruct (nth_error ms i) as [m1|] eqn:E1.
      2: { rewrite (nth_same ms es i (eq_sym L2) E1). exists ms, LNoList. split; [reflexivity|]. split; [intros []|]. intros _. split; [exact HH|reflexivity]. }
      destruct (nth_has ms fs i m1 (eq_sym L1) E1) as (f1 & F1). destruct (nth_has ms es i m1 (eq_sym L2) E1) as (M1 & D1). rewrite D1.
      destruct (nth_error ms j) as [m2|] eqn:E2.
      2: { rewrite (nth_same ms es j (eq_sym L2) E2). exists ms, LNoList. split; [reflexivity|]. split; [intros []|]. intros _. split; [exact HH|reflexivity]. }
      destruct (nth_has ms fs j m2 (eq_sym L1) E2) as (f2 & F2). destruct (nth_has ms es j m2 (eq_sym L2) E2) as (M2 & D2). rewrite D2.
      rewrite F1, F2 in Hc. destruct f1; [destruct Hc; congruence|]. destruct f2; [destruct Hc; congruence|].
      destruct (L3 i false m1 M1 F1 E1 D1) as (s1 & T1 & R1). destruct (L3 j false m2 M2 F2 E2 D2) as (s2 & T2 & R2).
      pose proof R1 as (_ & _ & S1 & _). pose proof R2 as (_ & _ & S2 & _). pose proof (merge_spec ltb W cmp Hcmp op M1 M2 S1 S2) as Em.
      destruct (TreelistSetProofs.merge_ok ltb W cmp Hcmp (conv op) M1 M2 S1 S2) as (Sm & _).
      destruct (TreelistSetProofs.setOperation_ok ltb cmp (conv op) s1 s2 M1 M2 R1 R2 Sm) as (s & Es & Rs).
      destruct (set_at cmp zero zeroV op m1 m2 s1 s2 s T1 T2 (holds_len _ _ _ R1) (holds_len _ _ _ R2) Es) as (m' & Rm & Tm). rewrite Rm.
      exists (ms ++ [m']), LMade. split; [reflexivity|]. split; [intros []|]. intros _. split; [|reflexivity]. apply held_snoc; [exact HH|].
      exists s. split; [exact Tm|]. rewrite <- Em. exact Rs.
  Qed.

  Notation lpstep := (lpstep cmp zero zeroV).
  Fixpoint puts_fine (ms : list tmem) (ops : list (lp_op K V)) : Prop :=
    match ops with
    | [] => True
    | o :: ops => match lapart ms o with Some (ms', x) => ~ put_panics o x /\ puts_fine ms' ops | None => True end
    end.
  Lemma both_run ops : forall phis fs ms es g rs, prel phis ms g rs -> held fs ms es -> calls_fine ltb fs es ops -> puts_fine ms ops ->
    run lpstep (g, rs) ops = Some (srun (lp_spec ltb) es ops) /\
    exists phis' ms' g' rs', reach lpstep (g, rs) ops = Some (g', rs') /\ prel phis' ms' g' rs' /\ held (flags_run ltb fs es ops) ms' (sreach (lp_spec ltb) es ops).
  Proof.
    induction ops as [|o ops IH]; intros phis fs ms es g rs HP HH Hc Hp.
    - split; [reflexivity|]. exists phis, ms, g, rs. auto.
    - destruct Hc as (Hc1 & Hc2). destruct (apart_step fs ms es o HH Hc1) as (ms' & x & E1 & _ & E2). cbn [puts_fine] in Hp. rewrite E1 in Hp. destruct Hp as (Hp1 & Hp2).
      destruct (E2 Hp1) as (HH' & Ex). destruct (pool_step cmp zero zeroV phis ms g rs o ms' x HP E1) as (phis' & g' & rs' & E3 & HP' & _).
      destruct (IH phis' _ ms' _ g' rs' HP' HH' Hc2 Hp2) as (X1 & X2). cbn [run reach srun sreach flags_run]. rewrite E3.
      split; [|exact X2]. rewrite X1, Ex. destruct (lp_spec ltb es o) as (es', y). reflexivity.
  Qed.
  Lemma fine_seen ops : forall phis ms g rs, prel phis ms g rs ->
    (forall ops1 o ops2 l x, ops = ops1 ++ o :: ops2 -> run lpstep (g, rs) (ops1 ++ [o]) = Some (l ++ [x]) -> ~ put_panics o x) -> puts_fine ms ops.
  Proof.
    induction ops as [|o ops IH]; intros phis ms g rs HP H; [exact I|]. cbn [puts_fine]. destruct (lapart ms o) as [(ms', x)|] eqn:E1; [|exact I].
    destruct (pool_step cmp zero zeroV phis ms g rs o ms' x HP E1) as (phis' & g' & rs' & E3 & HP' & _). split.
    - apply (H [] o ops [] x eq_refl). cbn [app run]. rewrite E3. reflexivity.
    - apply (IH phis' ms' g' rs' HP'). intros ops1 o1 ops2 l y -> Hr. apply (H (o :: ops1) o1 ops2 (x :: l) y eq_refl). cbn [app run]. rewrite E3, Hr. reflexivity.
  Qed.
  Lemma fine_small ops : forall fs ms es, held fs ms es -> calls_fine ltb fs es ops -> lists_small ltb es ops -> puts_fine ms ops.
  Proof.
    induction ops as [|o ops IH]; intros fs ms es HH Hc Hs; [exact I|]. destruct Hc as (Hc1 & Hc2). destruct Hs as (Hs1 & Hs2).
    destruct (apart_step fs ms es o HH Hc1) as (ms' & x & E1 & E2 & E3). cbn [puts_fine]. rewrite E1.
    assert (Hp : ~ put_panics o x). { intros X. destruct (E2 X) as (i & e0 & Hi & Hl). specialize (Hs1 e0 (nth_error_In _ _ Hi)). lia. }
    split; [exact Hp|]. destruct (E3 Hp) as (HH' & _). exact (IH _ ms' _ HH' Hc2 Hs2).
  Qed.
  Lemma held_start : held [] [] [].
  Proof. constructor; auto. intros []; discriminate. Qed.
End Pool.

(** ** What is seen in the one memory *)
Section Seen.
  Context {K V : Type} (phi : list nat) (m g : tmem K V) (r : nat) (Hm : tmoved phi m g) (Hr : nth_error phi 0 = Some r).
  Implicit Types (a b : nat).

  Lemma pp_some p q b : pp phi p q -> q = Some b -> exists a, p = Some a /\ nth_error phi a = Some b.
  Proof. intros H ->. destruct p as [a|]; cbn in H; [eauto|tauto]. Qed.
  Lemma pp_some' p q a : pp phi p q -> p = Some a -> exists b, q = Some b /\ nth_error phi a = Some b.
  Proof. intros H ->. destruct q as [b|]; cbn in H; [eauto|tauto]. Qed.
  Lemma node_seen b : node_of (base g) r b -> exists a, node_of (base m) 0 a /\ nth_error phi a = Some b.
  Proof.
    destruct Hm as [Hb _]. induction 1 as [b H|b d c H (a & IH1 & IH2) Hc].
    - destruct (pp_some _ _ b (mv_kid _ _ _ Hb 0%nat r false Hr) H) as (a & E1 & E2). exists a. split; [apply top_node, E1|exact E2].
    - destruct (pp_some _ _ c (mv_kid _ _ _ Hb a b d IH2) Hc) as (a' & E1 & E2). exists a'. split; [apply (kid_node _ _ a d a' IH1 E1)|exact E2].
  Qed.
  Lemma node_seen' a b : node_of (base m) 0 a -> nth_error phi a = Some b -> node_of (base g) r b.
  Proof.
    destruct Hm as [Hb _]. intros H. revert b. induction H as [a H|a d c H IH Hc]; intros b Hab.
    - destruct (pp_some' _ _ a (mv_kid _ _ _ Hb 0%nat r false Hr) H) as (b' & E1 & E2). rewrite Hab in E2. injection E2 as <-. apply top_node, E1.
    - assert (Ha : (a < length phi)%nat). { apply nth_error_Some. intros X. apply nth_error_None in X.
        assert (Y : forall a, node_of (base m) 0 a -> exists b, nth_error phi a = Some b); [|destruct (Y a H) as (? & Z); apply nth_error_None in X; congruence].
        intros a0. induction 1 as [a0 Z|a0 d0 c0 Z (b0 & IH0) Z'].
        + destruct (pp_some' _ _ a0 (mv_kid _ _ _ Hb 0%nat r false Hr) Z) as (b' & _ & E2). eauto.
        + destruct (pp_some' _ _ c0 (mv_kid _ _ _ Hb a0 b0 d0 IH0) Z') as (b' & _ & E2). eauto. }
      destruct (nth_error phi a) as [b0|] eqn:Ea; [|apply nth_error_None in Ea; lia].
      destruct (pp_some' _ _ c (mv_kid _ _ _ Hb a b0 d Ea) Hc) as (b' & E1 & E2). rewrite Hab in E2. injection E2 as <-. exact (kid_node _ _ b0 d b (IH b0 eq_refl) E1).
  Qed.

  (** the shape, moved *)
  Definition at_phi a : nat := nth a phi 0%nat.
  Fixpoint msh (s : sh) : sh := match s with L => L | B a x y => B (at_phi a) (msh x) (msh y) end.
  Lemma phi_at a : (a < next (base m))%nat -> nth_error phi a = Some (at_phi a).
  Proof. intros H. apply nth_error_nth'. rewrite (mv_len _ _ _ (tm_base _ _ _ Hm)). exact H. Qed.
  Lemma pt_msh s : (forall a, In a (addrs s) -> (a < next (base m))%nat) -> forall q, pp phi (pt s) q -> q = pt (msh s).
  Proof.
    intros H q Hq. destruct s as [|a x y]; cbn [pt msh] in *; destruct q as [b|]; cbn in Hq; try tauto.
    rewrite (phi_at a) in Hq by (apply H; left; reflexivity). injection Hq as <-. reflexivity.
  Qed.
  Lemma addrs_msh s : addrs (msh s) = map at_phi (addrs s).
  Proof. induction s as [|a x IHx y IHy]; [reflexivity|]. cbn [msh addrs map]. rewrite IHx, IHy, map_app. reflexivity. Qed.
  Lemma hangs_msh p p' s : (forall a, In a (addrs s) -> (a < next (base m))%nat) -> nth_error phi p = Some p' -> hangs (base m) p s -> hangs (base g) p' (msh s).
  Proof.
    intros H Hp. destruct s as [|a x y]; [auto|]. cbn [hangs msh]. intros E0. pose proof (mv_parent _ _ _ (tm_base _ _ _ Hm) a (at_phi a) (phi_at a (H a (or_introl eq_refl)))) as X.
    rewrite E0 in X. destruct (Parent (base g) (at_phi a)) as [q|]; cbn in X; [congruence|tauto].
  Qed.
  Lemma body_msh s : (forall a, In a (addrs s) -> (a < next (base m))%nat) -> body (base m) s -> body (base g) (msh s).
  Proof.
    induction s as [|a x IHx y IHy]; [auto|]. intros H (H1 & H2 & H3 & H4 & H5 & H6). cbn [addrs] in H. cbn [body msh].
    assert (Hx : forall c, In c (addrs x) -> (c < next (base m))%nat) by (intros c Hc; apply H; right; apply in_or_app; auto).
    assert (Hy : forall c, In c (addrs y) -> (c < next (base m))%nat) by (intros c Hc; apply H; right; apply in_or_app; auto).
    pose proof (phi_at a (H a (or_introl eq_refl))) as Ha.
    split; [apply (pt_msh x Hx); rewrite <- H1; apply (mv_kid _ _ _ (tm_base _ _ _ Hm)), Ha|].
    split; [apply (pt_msh y Hy); rewrite <- H2; apply (mv_kid _ _ _ (tm_base _ _ _ Hm)), Ha|].
    split; [apply (hangs_msh a); assumption|]. split; [apply (hangs_msh a); assumption|]. auto.
  Qed.
  Lemma view_msh s : (forall a, In a (addrs s) -> (a < next (base m))%nat) -> view (base g) (msh s) = view (base m) s.
  Proof.
    induction s as [|a x IHx y IHy]; [auto|]. intros H. cbn [addrs] in H. cbn [view msh].
    pose proof (phi_at a (H a (or_introl eq_refl))) as Ha. pose proof (tm_base _ _ _ Hm) as Hb.
    rewrite (mv_size _ _ _ Hb _ _ Ha), (mv_key _ _ _ Hb _ _ Ha), (mv_value _ _ _ Hb _ _ Ha), IHx, IHy; [reflexivity|..]; intros c Hc; apply H; right; apply in_or_app; auto.
  Qed.
  Lemma ok_msh s : ok (base m) 0 [] s -> ok (base g) r [] (msh s).
  Proof.
    intros [H1 H2 H3 H4 H5]. cbn [caddrs app IndexHeapProofs.top] in *. pose proof (tm_base _ _ _ Hm) as Hb.
    assert (Hl : forall a, In a (addrs s) -> (a < next (base m))%nat) by (intros a Ha; apply H5; right; exact Ha).
    assert (H0 : at_phi 0 = r) by (unfold at_phi; destruct phi; [discriminate|]; injection Hr as <-; reflexivity).
    constructor; cbn [caddrs app IndexHeapProofs.top cok] in *.
    - destruct H1 as (A1 & A2). split; [apply (pt_msh s Hl); rewrite <- A1; apply (mv_kid _ _ _ Hb), Hr|].
      pose proof (mv_kid _ _ _ Hb 0%nat r true Hr) as X. rewrite A2 in X. destruct (Children (base g) r true); [cbn in X; tauto|reflexivity].
    - apply (hangs_msh 0); assumption.
    - apply body_msh; assumption.
    - rewrite addrs_msh, <- H0. change (at_phi 0 :: map at_phi (addrs s)) with (map at_phi (0%nat :: addrs s)).
      assert (Hi : forall a c, In a (0%nat :: addrs s) -> In c (0%nat :: addrs s) -> at_phi a = at_phi c -> a = c).
      { intros a c Ha Hc Eq. apply (nth_inj phi a c (at_phi a) (mv_nd _ _ _ Hb)); [apply phi_at, H5, Ha|rewrite Eq; apply phi_at, H5, Hc]. }
      revert Hi H4. generalize (0%nat :: addrs s). clear. induction l as [|x l IH]; intros Hi Hn; [constructor|]. apply NoDup_cons_iff in Hn as (N1 & N2). cbn [map]. constructor.
      + intros X. apply in_map_iff in X as (y & Ey & Hy). apply N1. rewrite (Hi x y); [exact Hy|left; reflexivity|right; exact Hy|congruence].
      + apply IH; [|exact N2]. intros a c Ha Hc. apply Hi; right; assumption.
    - intros b Hb'. apply (mv_lt _ _ _ Hb). destruct Hb' as [<-|Hb']; [apply (nth_error_In _ _ Hr)|]. rewrite addrs_msh in Hb'. apply in_map_iff in Hb' as (a & <- & Ha). apply (nth_error_In _ a), phi_at, Hl, Ha.
  Qed.
  Lemma follows_seen d l : forall p q, pp phi p q -> follows m d p l -> follows g d q (map at_phi l).
  Proof.
    induction l as [|a l IH]; intros p q Hpq H; cbn [follows map] in *.
    - subst p. destruct q; cbn in Hpq; [tauto|reflexivity].
    - destruct H as (-> & H). destruct q as [b|]; cbn in Hpq; [|tauto]. assert (Eb : at_phi a = b) by (unfold at_phi; apply nth_error_nth, Hpq). rewrite Eb. split; [reflexivity|].
      apply (IH (Direct m a d)); [apply (tm_dir _ _ _ Hm), Hpq|exact H].
  Qed.
End Seen.
