From Verif Require Import Base Machine GoMap Slice HashSpec HashModel.

Lemma fill_ok {K V X} (g : K * V -> X) (es : gmap K V) : forall pre post, length es <= length post ->
  fill g es (pre ++ post) (length pre) = Some (pre ++ map g es ++ skipn (length es) post).
Proof.
  induction es as [|e es IH]; intros pre post H; [reflexivity|].
  destruct post as [|x post]; simpl in H; [lia|]. cbn [fill].
  rewrite put_at_ok by (rewrite app_length; simpl; lia).
  rewrite list_set_app_r by lia. rewrite Nat.sub_diag. cbn [list_set].
  replace (pre ++ g e :: post) with ((pre ++ [g e]) ++ post) by (rewrite <- app_assoc; reflexivity).
  replace (length pre + 1) with (length (pre ++ [g e])) by (rewrite app_length; reflexivity).
  rewrite IH by lia. cbn [map skipn length]. rewrite <- app_assoc. reflexivity.
Qed.
Lemma fill_all {K V X} (g : K * V -> X) (es : gmap K V) x n : n = length es ->
  fill g es (repeat x n) 0 = Some (map g es).
Proof.
  intros ->. pose proof (fill_ok g es [] (repeat x (length es))) as H. cbn [app length] in H. rewrite H by (rewrite repeat_length; lia).
  rewrite skipn_all2 by (rewrite repeat_length; lia). now rewrite app_nil_r.
Qed.

Section HM.
  Context {K V : Type} (keq : K -> K -> bool) (nilk : K) (nilv : V).
  Variable order : nat -> gmap K V -> gmap K V.
  Hypothesis Hk : forall a b, keq a b = true <-> a = b.
  Hypothesis Ho : forall n m, Permutation (order n m) m.

  Definition Rel (s : hmap (K:=K) (V:=V)) (f : fmap K V) : Prop :=
    NoDup (keys_of (hm s)) /\ forall k, gm_get keq (hm s) k = f k.

  Lemma lists_keys_of s f : Rel s f -> lists_keys f (keys_of (hm s)).
  Proof using Hk.
    intros [Hn H]. split; [assumption|]. intros k. rewrite <- H. symmetry. apply gm_get_keys; assumption.
  Qed.
  Lemma lists_perm (f : fmap K V) d d' : Permutation d' d -> lists_keys f d -> lists_keys f d'.
  Proof.
    intros Hp [Hn H]. split.
    - eapply Permutation_NoDup; [symmetry; exact Hp|assumption].
    - intros k. rewrite <- H. split; apply Permutation_in; [assumption|now symmetry].
  Qed.
  Lemma order_len n m : gm_len m = length (order n m).
  Proof using Ho. unfold gm_len. symmetry. apply Permutation_length, Ho. Qed.

  Lemma Rel_set s f k v t : Rel s f -> Rel (HM (gm_set keq (hm s) k v) t) (fset keq f k v).
  Proof using Hk.
    intros [Hn H]. split; cbn [hm].
    - apply gm_set_nodup; assumption.
    - intros k'. rewrite gm_get_set by assumption. unfold fset. now rewrite H.
  Qed.
  Lemma Rel_del s f k t : Rel s f -> Rel (HM (gm_del keq (hm s) k) t) (fdel keq f k).
  Proof using Hk.
    intros [Hn H]. split; cbn [hm].
    - apply gm_del_nodup; assumption.
    - intros k'. rewrite gm_get_del by assumption. unfold fdel. now rewrite H.
  Qed.
  Lemma Rel_ext s f g t : Rel s f -> (forall k, f k = g k) -> Rel (HM (hm s) t) g.
  Proof. intros [Hn H] E. split; cbn [hm]; [assumption|]. intros k. now rewrite <- E. Qed.

  Lemma step_ok s f o : Rel s f ->
    exists s' r, step keq nilk nilv order s o = Some (s', r) /\ ok f o r /\ Rel s' (next keq f o).
  Proof using Hk Ho.
    intros HR. pose proof (lists_keys_of s f HR) as HL. pose proof HR as [Hn H].
    assert (Hput : forall k v t, exists m', put keq (hm s) k v = (m', negb (present f k)) /\
                     Rel (HM m' t) (match f k with None => fset keq f k v | Some _ => f end)).
    { intros k v t. unfold put, present. rewrite H. destruct (f k).
      - eexists; split; [reflexivity|]. eapply Rel_ext; eauto.
      - eexists; split; [reflexivity|]. now apply Rel_set. }
    destruct o; simpl; unfold insertIfAbsent.
    - destruct (Hput k v (S (tick s))) as (m' & -> & HR'). eauto.
    - destruct (Hput k v (S (tick s))) as (m' & -> & HR'). eauto.
    - do 2 eexists; split; [reflexivity|]. split; [exact I|]. now apply Rel_set.
    - do 2 eexists; split; [reflexivity|]. split; [now rewrite H|]. now apply Rel_set.
    - do 2 eexists; split; [reflexivity|]. split; [apply H|]. eapply Rel_ext; eauto.
    - do 2 eexists; split; [reflexivity|]. split; [exact I|]. now apply Rel_del.
    - unfold delete. rewrite H. destruct (f k) eqn:E.
      + do 2 eexists; split; [reflexivity|]. split; [reflexivity|]. now apply Rel_del.
      + do 2 eexists; split; [reflexivity|]. split; [reflexivity|].
        apply (Rel_ext s f _ _ HR). intros k'. unfold fdel. destruct (keq k k') eqn:E'; auto.
        apply Hk in E'. now subst.
    - do 2 eexists; split; [reflexivity|]. split; [|eapply Rel_ext; eauto].
      unfold empty, gm_len. rewrite Nat.eqb_eq. split; intros E.
      + intros k. rewrite <- H. destruct (hm s); [reflexivity|discriminate].
      + destruct (hm s) as [|[k v] m] eqn:Em; [reflexivity|]. exfalso.
        specialize (H k). simpl in H. rewrite keq_refl in H by assumption. rewrite E in H. discriminate.
    - do 2 eexists; split; [reflexivity|]. split; [|eapply Rel_ext; eauto].
      exists (keys_of (hm s)). split; [assumption|]. unfold size, keys_of, gm_len. now rewrite map_length.
    - do 2 eexists; split; [reflexivity|]. split; [|eapply Rel_ext; eauto].
      exists (keys_of (hm s)). split; [assumption|]. unfold size, keys_of, gm_len. now rewrite map_length.
    - unfold keys. rewrite fill_all by apply order_len.
      do 2 eexists; split; [reflexivity|]. split; [|eapply Rel_ext; eauto].
      eapply lists_perm; [|exact HL]. apply Permutation_map, Ho.
    - unfold values. rewrite fill_all by apply order_len.
      do 2 eexists; split; [reflexivity|]. split; [|eapply Rel_ext; eauto].
      exists (keys_of (order (tick s) (hm s))). split.
      + eapply lists_perm; [|exact HL]. apply Permutation_map, Ho.
      + unfold keys_of. rewrite !map_map. apply map_ext_in. intros [k v] Hin. simpl.
        rewrite <- H. symmetry. apply gm_In_get; try assumption. eapply Permutation_in; [apply Ho|exact Hin].
    - unfold slices. rewrite fill_all by apply order_len. rewrite map_id.
      do 2 eexists; split; [reflexivity|]. split; [|eapply Rel_ext; eauto]. split.
      + eapply Permutation_NoDup; [|exact Hn]. symmetry. apply Permutation_map, Ho.
      + intros k v. rewrite <- H. split.
        * intros Hin. apply gm_In_get; try assumption. eapply Permutation_in; [apply Ho|exact Hin].
        * intros E. apply gm_get_In in E; [|assumption]. eapply Permutation_in; [symmetry; apply Ho|exact E].
    - do 2 eexists; split; [reflexivity|]. split; [exact I|]. split; [constructor|reflexivity].
  Qed.

  Lemma run_ok ops : forall s f, Rel s f ->
    exists rs, run (step keq nilk nilv order) s ops = Some rs /\ allowed keq f ops rs.
  Proof using Hk Ho.
    induction ops as [|o ops IH]; intros s f HR.
    - exists []. split; [reflexivity|exact I].
    - destruct (step_ok s f o HR) as (s' & r & E & Hok & HR'). destruct (IH s' _ HR') as (rs & Er & Hal).
      exists (r :: rs). cbn [run]. rewrite E, Er. split; [reflexivity|]. split; assumption.
  Qed.
End HM.

Section HS.
  Context {K : Type} (keq : K -> K -> bool) (nilk : K).
  Variable order : nat -> gmap K unit -> gmap K unit.
  Hypothesis Hk : forall a b, keq a b = true <-> a = b.
  Hypothesis Ho : forall n m, Permutation (order n m) m.
  Definition sinv (m : gmap K unit) (s : K -> Prop) : Prop :=
    NoDup (keys_of m) /\ forall k, In k (keys_of m) <-> s k.

  Lemma add_ok ks : forall m s, sinv m s -> sinv (add keq m ks) (fun k => s k \/ In k ks).
  Proof using Hk.
    induction ks as [|i ks IH]; intros m s [Hn H].
    - split; [assumption|]. intros k; simpl. rewrite H. tauto.
    - cbn [add]. destruct (IH (match gm_get keq m i with None => gm_set keq m i tt | Some _ => m end)
                              (fun k => s k \/ k = i)) as [Hn' H'].
      { destruct (gm_get keq m i) eqn:E.
        - split; [assumption|]. intros k. rewrite H. split; [auto|]. intros [?| ->]; [assumption|].
          apply H. apply (gm_get_keys keq Hk). congruence.
        - split; [now apply gm_set_nodup|]. intros k. rewrite gm_set_keys by assumption. rewrite H. tauto. }
      split; [assumption|]. intros k. rewrite H'. simpl. split; intuition.
  Qed.
  Lemma sremove_ok ks : forall m s, sinv m s -> sinv (sremove keq m ks) (fun k => s k /\ ~ In k ks).
  Proof using Hk.
    induction ks as [|i ks IH]; intros m s [Hn H].
    - split; [assumption|]. intros k; simpl. rewrite H. tauto.
    - cbn [sremove]. destruct (IH (gm_del keq m i) (fun k => s k /\ k <> i)) as [Hn' H'].
      { split; [now apply gm_del_nodup|]. intros k. rewrite gm_del_keys by assumption. rewrite H. tauto. }
      split; [assumption|]. intros k. rewrite H'. simpl. split; intuition.
  Qed.

  Lemma sstep_ok s f o : sinv (hs s) f ->
    exists s' r, sstep keq nilk order s o = Some (s', r) /\ sok f o r /\ sinv (hs s') (snext f o).
  Proof using Hk Ho.
    intros HR. pose proof HR as [Hn H]. destruct o; simpl.
    - do 2 eexists; split; [reflexivity|]. split; [exact I|]. now apply add_ok.
    - do 2 eexists; split; [reflexivity|]. split; [exact I|]. now apply sremove_ok.
    - unfold svalues, ssize. rewrite fill_all by (unfold gm_len; symmetry; apply Permutation_length, Ho).
      do 2 eexists; split; [reflexivity|]. split; [|exact HR]. split.
      + eapply Permutation_NoDup; [|exact Hn]. symmetry. apply Permutation_map, Ho.
      + intros k. rewrite <- H. unfold keys_of.
        split; apply Permutation_in; [|symmetry]; apply Permutation_map, Ho.
    - do 2 eexists; split; [reflexivity|]. split; [|exact HR]. simpl. rewrite <- H.
      rewrite <- (gm_get_keys keq Hk). unfold contains. destruct (gm_get keq (hs s) k); split; congruence.
    - do 2 eexists; split; [reflexivity|]. split; [|exact HR]. simpl.
      unfold sempty, ssize, gm_len. rewrite Nat.eqb_eq. unfold keys_of in H. split; intros E.
      + intros k Hin. apply H in Hin. destruct (hs s); [easy|discriminate].
      + destruct (hs s) as [|[k v] m]; [reflexivity|]. exfalso. apply (E k). apply H. simpl; auto.
    - do 2 eexists; split; [reflexivity|]. split; [exact I|]. split; [constructor|]. intros k; simpl; tauto.
    - do 2 eexists; split; [reflexivity|]. split; [|exact HR]. exists (keys_of (hs s)).
      split; [exact HR|]. unfold keys_of, ssize, gm_len. now rewrite map_length.
  Qed.
  Lemma srun_ok ops : forall s f, sinv (hs s) f ->
    exists rs, run (sstep keq nilk order) s ops = Some rs /\ sallowed f ops rs.
  Proof using Hk Ho.
    induction ops as [|o ops IH]; intros s f HR.
    - exists []. split; [reflexivity|exact I].
    - destruct (sstep_ok s f o HR) as (s' & r & E & Hok & HR'). destruct (IH s' _ HR') as (rs & Er & Hal).
      exists (r :: rs). cbn [run]. rewrite E, Er. split; [reflexivity|]. split; assumption.
  Qed.
End HS.
