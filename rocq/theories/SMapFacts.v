(** Facts about cutting sorted lists of entries at a key. *)
From Verif Require Import Base OrderSpec SMapSpec.

Lemma ssorted_app {A} (R : A -> A -> Prop) l1 l2 :
  StronglySorted R (l1 ++ l2) <->
  StronglySorted R l1 /\ StronglySorted R l2 /\ (forall x y, In x l1 -> In y l2 -> R x y).
Proof.
  induction l1 as [|a l1 IH]; simpl.
  - split; [intros H; repeat split; auto; [constructor|tauto] | tauto].
  - split.
    + intros H. inversion_clear H. apply IH in H0. destruct H0 as (H2 & H3 & H4).
      rewrite Forall_app in H1. destruct H1 as (H5 & H6). repeat split; auto.
      * constructor; auto.
      * intros x y [<-|Hx] Hy; auto. rewrite Forall_forall in H6. auto.
    + intros (H1 & H2 & H3). inversion_clear H1. constructor.
      * apply IH. repeat split; auto.
      * rewrite Forall_app. split; auto. rewrite Forall_forall. auto.
Qed.

Lemma filter_all {A} (f : A -> bool) l : (forall x, In x l -> f x = true) -> filter f l = l.
Proof. induction l as [|a l IH]; simpl; intros H; auto. rewrite H by auto. f_equal; auto. Qed.
Lemma filter_none {A} (f : A -> bool) l : (forall x, In x l -> f x = false) -> filter f l = [].
Proof. induction l as [|a l IH]; simpl; intros H; auto. rewrite H by auto. auto. Qed.
Lemma filter_eq {A} (f g : A -> bool) l : (forall x, In x l -> f x = g x) -> filter f l = filter g l.
Proof. induction l as [|a l IH]; simpl; intros H; auto. rewrite H by auto. rewrite IH by auto. reflexivity. Qed.

Section Cut.
  Context {K V : Type} (ltb : K -> K -> bool) (W : weak_order ltb).
  Notation entries := (list (K * V)).
  Implicit Types (m l r : entries) (x : K * V) (k : K).

  Lemma strict_weak m : strictly_sorted ltb m -> weakly_sorted ltb m.
  Proof.
    unfold strictly_sorted, weakly_sorted. induction 1; constructor; auto.
    eapply Forall_impl; [|eassumption]. intros b. simpl. apply (lt_asym _ W).
  Qed.
  Lemma strict_mid l x r : strictly_sorted ltb (l ++ x :: r) ->
    strictly_sorted ltb l /\ strictly_sorted ltb r /\
    (forall y, In y l -> ltb (fst y) (fst x) = true) /\ (forall y, In y r -> ltb (fst x) (fst y) = true).
  Proof.
    unfold strictly_sorted. rewrite ssorted_app. intros (H1 & H2 & H3). inversion_clear H2.
    rewrite Forall_forall in H0. repeat split; auto. intros. apply H3; simpl; auto.
  Qed.
  Lemma weak_mid l x r : weakly_sorted ltb (l ++ x :: r) ->
    weakly_sorted ltb l /\ weakly_sorted ltb r /\
    (forall y, In y l -> ltb (fst x) (fst y) = false) /\ (forall y, In y r -> ltb (fst y) (fst x) = false).
  Proof.
    unfold weakly_sorted. rewrite ssorted_app. intros (H1 & H2 & H3). inversion_clear H2.
    rewrite Forall_forall in H0. repeat split; auto. intros. apply H3; simpl; auto.
  Qed.

  (** [k] belongs left of [x] *)
  Lemma cut_left l x r k : ltb k (fst x) = true -> (forall y, In y r -> ltb (fst y) (fst x) = false) ->
    before ltb k (l ++ x :: r) = before ltb k l /\ sames ltb k (l ++ x :: r) = sames ltb k l /\
    after ltb k (l ++ x :: r) = after ltb k l ++ x :: r.
  Proof.
    intros Hx Hr. unfold before, sames, after. rewrite !filter_app. simpl.
    rewrite Hx. unfold same at 2. rewrite Hx, (lt_asym _ W _ _ Hx). simpl.
    rewrite (filter_none _ r), (filter_none _ r), (filter_all _ r), !app_nil_r; auto.
    - intros y Hy. apply (lt_le _ W _ (fst x)); auto.
    - intros y Hy. unfold same. rewrite (lt_le _ W k (fst x) (fst y)); auto. apply andb_false_r.
    - intros y Hy. apply (lt_asym _ W), (lt_le _ W _ (fst x)); auto.
  Qed.
  (** [k] belongs right of [x] *)
  Lemma cut_right l x r k : ltb (fst x) k = true -> (forall y, In y l -> ltb (fst x) (fst y) = false) ->
    before ltb k (l ++ x :: r) = l ++ x :: before ltb k r /\ sames ltb k (l ++ x :: r) = sames ltb k r /\
    after ltb k (l ++ x :: r) = after ltb k r.
  Proof.
    intros Hx Hl. unfold before, sames, after. rewrite !filter_app. simpl.
    rewrite Hx. unfold same at 2. rewrite Hx, (lt_asym _ W _ _ Hx). simpl.
    rewrite (filter_all _ l), (filter_none _ l), (filter_none _ l); auto.
    - intros y Hy. apply (lt_asym _ W), (le_lt _ W _ (fst x)); auto.
    - intros y Hy. unfold same. rewrite (le_lt _ W (fst y) (fst x) k); auto.
    - intros y Hy. apply (le_lt _ W _ (fst x)); auto.
  Qed.
  (** [k] is equivalent to [x] *)
  Lemma cut_same l x r k : same ltb (fst x) k = true ->
    (forall y, In y l -> ltb (fst x) (fst y) = false) -> (forall y, In y r -> ltb (fst y) (fst x) = false) ->
    before ltb k (l ++ x :: r) = before ltb k l /\
    sames ltb k (l ++ x :: r) = sames ltb k l ++ x :: sames ltb k r /\
    after ltb k (l ++ x :: r) = after ltb k r.
  Proof.
    intros Hx Hl Hr. unfold before, sames, after. rewrite !filter_app. simpl.
    pose proof Hx as Hx'. apply same_iff in Hx'. destruct Hx' as (H1 & H2). rewrite Hx, H1, H2.
    rewrite (filter_none _ r), (filter_none (fun e => ltb k (fst e)) l), app_nil_r; auto.
    - intros y Hy. rewrite <- (same_lt_l _ W _ _ _ Hx). auto.
    - intros y Hy. rewrite <- (same_lt_r _ W _ _ _ Hx). auto.
  Qed.
  Lemma cut_same_strict l x r k : same ltb (fst x) k = true -> strictly_sorted ltb (l ++ x :: r) ->
    before ltb k (l ++ x :: r) = l /\ sames ltb k (l ++ x :: r) = [x] /\ after ltb k (l ++ x :: r) = r.
  Proof.
    intros Hx Hs. apply strict_mid in Hs. destruct Hs as (_ & _ & Hl & Hr).
    destruct (cut_same l x r k Hx) as (E1 & E2 & E3).
    - intros y Hy. apply (lt_asym _ W). auto.
    - intros y Hy. apply (lt_asym _ W). auto.
    - rewrite E1, E2, E3. unfold before, sames, after.
      rewrite (filter_all _ l), (filter_none _ l), (filter_none _ r), (filter_all _ r); auto.
      + intros y Hy. rewrite <- (same_lt_l _ W _ _ _ Hx). auto.
      + intros y Hy. unfold same. rewrite <- (same_lt_l _ W _ _ _ Hx), (Hr y Hy). simpl. apply andb_false_r.
      + intros y Hy. unfold same. rewrite <- (same_lt_r _ W _ _ _ Hx), (Hl y Hy). reflexivity.
      + intros y Hy. rewrite <- (same_lt_r _ W _ _ _ Hx). auto.
  Qed.

  (** The cut recovers a sorted list. *)
  Lemma cut_all m k : weakly_sorted ltb m -> m = before ltb k m ++ sames ltb k m ++ after ltb k m.
  Proof.
    induction m as [|x m IH]; intros Hs; [reflexivity|].
    pose proof (weak_mid [] x m Hs) as (_ & Hm & _ & Hr). specialize (IH Hm).
    destruct (ltb (fst x) k) eqn:E1; [|destruct (ltb k (fst x)) eqn:E2].
    - destruct (cut_right [] x m k E1) as (E3 & E4 & E5); [simpl; tauto|]. simpl app in E3, E4, E5.
      rewrite E3, E4, E5. simpl. congruence.
    - destruct (cut_left [] x m k E2 Hr) as (E3 & E4 & E5). simpl app in E3, E4, E5. rewrite E3, E4, E5. reflexivity.
    - destruct (cut_same [] x m k) as (E3 & E4 & E5); auto.
      + apply same_iff; auto.
      + simpl; tauto.
      + simpl app in E3, E4, E5. rewrite E3, E4, E5. simpl. f_equal.
        rewrite IH at 1. replace (before ltb k m) with (@nil (K * V)); [reflexivity|].
        symmetry. apply filter_none. intros y Hy. apply (le_le _ W k (fst x)); auto.
  Qed.

  Lemma before_in k m y : In y (before ltb k m) <-> In y m /\ ltb (fst y) k = true.
  Proof. apply filter_In. Qed.
  Lemma after_in k m y : In y (after ltb k m) <-> In y m /\ ltb k (fst y) = true.
  Proof. apply filter_In. Qed.
  Lemma ssorted_filter (R : K * V -> K * V -> Prop) f m : StronglySorted R m -> StronglySorted R (filter f m).
  Proof.
    induction 1; simpl; [constructor|]. destruct (f a); auto. constructor; auto.
    rewrite Forall_forall in *. intros y Hy. apply filter_In in Hy. apply H0. tauto.
  Qed.
  Lemma write_sorted k x m : same ltb (fst x) k = true -> strictly_sorted ltb m -> strictly_sorted ltb (write ltb k x m).
  Proof.
    intros Hx Hm. unfold write, strictly_sorted. rewrite ssorted_app. repeat split.
    - apply ssorted_filter; auto.
    - constructor; [apply ssorted_filter; auto|]. rewrite Forall_forall. intros y Hy. apply after_in in Hy.
      rewrite (same_lt_l _ W _ _ _ Hx). tauto.
    - intros y z Hy Hz. apply before_in in Hy. destruct Hz as [<-|Hz].
      + rewrite (same_lt_r _ W _ _ _ Hx). tauto.
      + apply after_in in Hz. apply (wo_trans _ W _ k); tauto.
  Qed.
  Lemma erase_sorted k m : strictly_sorted ltb m -> strictly_sorted ltb (erase ltb k m).
  Proof.
    intros Hm. unfold erase, strictly_sorted. rewrite ssorted_app. repeat split; try (apply ssorted_filter; auto).
    intros y z Hy Hz. apply before_in in Hy. apply after_in in Hz. apply (wo_trans _ W _ k); tauto.
  Qed.

  (** at most one equivalent entry *)
  Lemma strict_sames m k : strictly_sorted ltb m -> sames ltb k m = [] \/ exists x, sames ltb k m = [x].
  Proof.
    intros Hm. destruct (sames ltb k m) as [|x [|y l]] eqn:E; eauto. exfalso.
    pose proof (ssorted_filter _ (fun e => same ltb (fst e) k) m Hm) as H.
    unfold sames in E. rewrite E in H. inversion_clear H. inversion_clear H1.
    assert (Hx : In x (filter (fun e => same ltb (fst e) k) m)) by (rewrite E; simpl; auto).
    assert (Hy : In y (filter (fun e => same ltb (fst e) k) m)) by (rewrite E; simpl; auto).
    apply filter_In in Hx, Hy. destruct Hx as (_ & Hx), Hy as (_ & Hy).
    rewrite (same_lt_l _ W _ _ _ Hx) in H. apply same_iff in Hy. destruct Hy. congruence.
  Qed.

  (** ** specification states stay sorted *)
  Lemma smap_spec_sorted m o : strictly_sorted ltb m -> strictly_sorted ltb (fst (smap_spec ltb m o)).
  Proof.
    intros Hm. destruct o; simpl; auto.
    1, 2: destruct (sames ltb k m); auto; apply write_sorted; auto; apply (same_refl _ W).
    - apply write_sorted; auto. apply (same_refl _ W).
    - destruct (sames ltb k m) as [|[k0 v0] l] eqn:E; simpl; apply write_sorted; auto.
      + apply (same_refl _ W).
      + assert (In (k0, v0) (sames ltb k m)) by (rewrite E; simpl; auto). apply filter_In in H. tauto.
    - apply erase_sorted; auto.
    - apply erase_sorted; auto.
    - constructor.
  Qed.

  Lemma visit_all m : forall seen, visit (fun _ => true) seen m = seen ++ m.
  Proof.
    induction m as [|x m IH]; intros seen; simpl; [now rewrite app_nil_r|]. rewrite IH, <- app_assoc. reflexivity.
  Qed.
End Cut.
