(** set/treeset: the tree operations and the set operations against the specification. *)
From Verif Require Import Base Bind Machine OrderSpec SMapSpec SMapFacts AvlTree AvlSpec AvlModel AvlProofs AvlAny AvlStep
  TreeSetSpec TreeSetModel.
Local Open Scope Z_scope.

Lemma filter_filter {A} (f g : A -> bool) l : filter f (filter g l) = filter (fun x => g x && f x)%bool l.
Proof. induction l as [|x l IH]; cbn; auto. destruct (g x); cbn; rewrite IH; destruct (f x); auto. Qed.

Section P.
  Context {K V : Type} (ltb : K -> K -> bool) (W : weak_order ltb) (cmp : K -> K -> Z) (Hcmp : ex_cmp ltb cmp).
  (** all keys that are ever put in: fewer than 2^64 *)
  Context (U : list K) (HU : Z.of_nat (length U) < 2 ^ 64).
  Notation avl := (avl K V).
  Notation entries := (list (K * V)).

  Lemma rb2 : @rb_ok K V One 2 1.
  Proof. apply rebalance_ok; [lia|]. right; right. auto. Qed.

  Definition Good (s : avl) (m : entries) : Prop := Rel ltb s m /\ Inv 1 (root s) /\ incl (map fst m) U.

  Lemma strict_nodup (m : entries) : strictly_sorted ltb m -> NoDup (map fst m).
  Proof.
    induction 1 as [|x m Hs IH Hx]; cbn [map]; constructor; auto.
    intros Hi. apply in_map_iff in Hi. destruct Hi as (y & E & Hy). rewrite Forall_forall in Hx. specialize (Hx y Hy).
    rewrite E, (wo_irrefl _ W) in Hx. discriminate.
  Qed.
  Lemma good_low s m : Good s m -> ht (root s) <= 126.
  Proof.
    intros ((E1 & E2 & E3) & HI & Hinc). apply avl_low; [apply HI|]. rewrite E1, <- (map_length fst).
    pose proof (NoDup_incl_length (strict_nodup m E3) Hinc). lia.
  Qed.
  (** the key an operation may add is among [U] *)
  Definition key_known (o : sm_op K V) : Prop :=
    match o with MPut k _ | MInsertIfAbsent k _ | MSet k _ | MUpsert k _ => In k U | _ => True end.
  Lemma write_incl k e (m : entries) : In (fst e) U -> incl (map fst m) U -> incl (map fst (write ltb k e m)) U.
  Proof.
    intros H1 H2 x Hx. apply in_map_iff in Hx. destruct Hx as (y & <- & Hy). unfold write in Hy.
    apply in_app_iff in Hy. destruct Hy as [Hy|[<-|Hy]]; auto; apply filter_In in Hy; apply H2, in_map; tauto.
  Qed.
  Lemma erase_incl k (m : entries) : incl (map fst m) U -> incl (map fst (erase ltb k m)) U.
  Proof.
    intros H2 x Hx. apply in_map_iff in Hx. destruct Hx as (y & <- & Hy). unfold erase in Hy.
    apply in_app_iff in Hy. destruct Hy as [Hy|Hy]; apply filter_In in Hy; apply H2, in_map; tauto.
  Qed.
  Lemma good_step s m o : Good s m -> key_known o ->
    exists s', step cmp One 2 s o = Some (s', snd (smap_spec ltb m o)) /\ Good s' (fst (smap_spec ltb m o)).
  Proof.
    intros HG Hk. pose proof (good_low _ _ HG) as HL. destruct HG as (HR & HI & Hinc).
    destruct (step_total ltb W cmp Hcmp One 2 1 rb2 ltac:(lia) s m o HR HI HL) as (s' & r & E1 & HI').
    destruct (step_any ltb W cmp Hcmp One 2 _ _ _ _ _ HR E1) as (-> & HR'). exists s'. split; [assumption|].
    split; [assumption|]. split; [assumption|].
    destruct o; cbn [smap_spec fst key_known] in *; auto.
    - destruct (sames ltb k m); cbn [fst]; auto. apply write_incl; auto.
    - destruct (sames ltb k m); cbn [fst]; auto. apply write_incl; auto.
    - apply write_incl; auto.
    - destruct (sames ltb k m) as [|[k0 v0] l] eqn:Es; cbn [fst]; apply write_incl; auto.
      assert (In (k0, v0) (sames ltb k m)) by (rewrite Es; cbn; auto). apply filter_In in H.
      apply Hinc. apply (in_map fst m (k0, v0)). apply H.
    - apply erase_incl; auto.
    - apply erase_incl; auto.
    - intros x [].
  Qed.

  (** ** traversal with an effect *)
  Lemma each_fold {S} (f : S -> K -> V -> option S) (t : tree K V) : forall s,
    each f t s = fold_left (fun os e => match os with Some s => f s (fst e) (snd e) | None => None end) (elems t) (Some s).
  Proof.
    induction t as [|h k v l IHl r IHr]; intros s; [reflexivity|]. cbn [each elems]. rewrite fold_left_app, IHl.
    destruct (fold_left _ (elems l) (Some s)) as [s1|]; cbn [fold_left fst snd].
    - destruct (f s1 k v); [apply IHr|]. clear. induction (elems r) as [|x q IH]; [reflexivity|exact IH].
    - clear. induction (elems r) as [|x q IH]; [reflexivity|exact IH].
  Qed.

  Lemma has_app k a b : has ltb k (a ++ b : entries) = (has ltb k a || has ltb k b)%bool.
  Proof. apply existsb_app. Qed.
  Lemma has_one k k' (v : V) : has ltb k [(k', v)] = same ltb k' k.
  Proof. apply orb_false_r. Qed.
  Lemma has_sames k (m : entries) : has ltb k m = match sames ltb k m with [] => false | _ => true end.
  Proof.
    unfold has, sames. induction m as [|x m IH]; cbn; auto. destruct (same ltb (fst x) k); cbn; auto.
  Qed.
  Lemma has_true k (m : entries) : has ltb k m = true <-> exists e, In e m /\ same ltb (fst e) k = true.
  Proof. apply existsb_exists. Qed.
  Lemma has_false k (m : entries) : has ltb k m = false <-> forall e, In e m -> same ltb (fst e) k = false.
  Proof.
    split.
    - intros H e He. destruct (same ltb (fst e) k) eqn:E; auto. assert (has ltb k m = true) by (apply has_true; eauto). congruence.
    - intros H. destruct (has ltb k m) eqn:E; auto. apply has_true in E. destruct E as (e & He & E). rewrite H in E; auto.
  Qed.
  (** membership after a write *)
  Lemma write_in k e (m : entries) x : strictly_sorted ltb m ->
    In x (write ltb k e m) <-> x = e \/ (In x m /\ same ltb (fst x) k = false).
  Proof.
    intros Hm. unfold write. rewrite in_app_iff. cbn [In]. rewrite before_in, after_in. unfold same.
    split.
    - intros [(H1 & H2)|[<-|(H1 & H2)]]; auto; right; split; auto; rewrite H2; cbn; auto. apply andb_false_r.
    - intros [->|(H1 & H2)]; auto. destruct (ltb (fst x) k) eqn:E1; [left; auto|]. destruct (ltb k (fst x)) eqn:E2; [auto|discriminate].
  Qed.
  Lemma erase_filter k (m : entries) : strictly_sorted ltb m -> erase ltb k m = filter (fun e => negb (same ltb (fst e) k)) m.
  Proof.
    intros Hm. pose proof (cut_all ltb W m k (strict_weak ltb W _ Hm)) as E.
    rewrite E at 2. rewrite !filter_app. unfold erase. f_equal; [|rewrite (filter_none _ (sames ltb k m)); [cbn [app]|]].
    - symmetry. apply filter_all. intros x Hx. apply before_in in Hx. unfold same. destruct Hx as (_ & ->). reflexivity.
    - symmetry. apply filter_all. intros x Hx. apply after_in in Hx. unfold same. destruct Hx as (_ & ->). rewrite andb_false_r. reflexivity.
    - intros x Hx. apply filter_In in Hx. destruct Hx as (_ & ->). reflexivity.
  Qed.

  Lemma union_ok a ma b mb : Good a ma -> Good b mb ->
    exists a' m', union cmp 2 a b = Some a' /\ Good a' m' /\ is_union ltb ma mb m'.
  Proof.
    intros HA ((<- & _ & Hb) & _ & Hinc). unfold union. rewrite each_fold.
    set (mb := elems (root b)) in *. clearbody mb.
    assert (HH : forall q p (a' : avl) m', mb = p ++ q -> Good a' m' ->
      (forall e, In e m' <-> In e p \/ In e ma /\ has ltb (fst e) p = false) ->
      exists a'' m'', fold_left (fun (os : option avl) (e : K * V) => match os with
          Some s => '(s', _) <- set cmp One 2 s (fst e) (snd e) ;; Some s' | None => None end) q (Some a') = Some a'' /\ Good a'' m'' /\
        (forall e, In e m'' <-> In e mb \/ In e ma /\ has ltb (fst e) mb = false)).
    { induction q as [|[k v] q IH]; intros p a' m' E HG Hin.
      - rewrite app_nil_r in E. subst p. cbn. eauto.
      - cbn [fold_left fst snd].
        destruct (good_step a' m' (MSet k v) HG) as (a2 & E2 & HG2).
        { cbn. apply Hinc. rewrite E, map_app. apply in_app_iff. right. left. reflexivity. }
        cbn [step] in E2. destruct (set cmp One 2 a' k v) as [[a3 b3]|]; [|discriminate]. injection E2 as -> _.
        cbn [smap_spec fst] in HG2. apply (IH (p ++ [(k, v)]) a2 _ ltac:(rewrite <- app_assoc; exact E) HG2).
        intros e. destruct HG as ((_ & _ & Sm') & _). rewrite (write_in k (k, v) m' e Sm'), Hin.
        rewrite in_app_iff, has_app. cbn [In]. unfold has at 3. cbn [existsb fst].
        rewrite orb_false_r, orb_false_iff, (same_sym ltb k (fst e)).
        split; [intuition auto|].
        intros [[H1|[<-|[]]]|(H1 & H2 & H3)]; auto.
        right. split; auto. rewrite E in Hb. apply strict_mid in Hb. destruct Hb as (_ & _ & Hb & _).
        specialize (Hb e H1). cbn [fst] in Hb. unfold same. rewrite Hb. reflexivity. }
    destruct (HH mb [] a ma eq_refl HA) as (a' & m' & E1 & HG & Hin).
    { intros e. cbn. intuition auto. }
    exists a', m'. split; [exact E1|]. split; [exact HG|]. split; [|exact Hin]. apply HG.
  Qed.

  Lemma difference_ok a ma b mb : Good a ma -> Good b mb ->
    exists a', difference cmp 2 a b = Some a' /\ Good a' (diff ltb ma mb).
  Proof.
    intros HA ((<- & _ & Hb) & _ & Hinc). unfold difference. rewrite each_fold.
    set (mb := elems (root b)) in *. clearbody mb.
    assert (HH : forall q p (a' : avl), mb = p ++ q -> Good a' (diff ltb ma p) ->
      exists a'', fold_left (fun (os : option avl) (e : K * V) => match os with
          Some s => '(s', _) <- remove_ cmp One 2 s (fst e) ;; Some s' | None => None end) q (Some a') = Some a'' /\
          Good a'' (diff ltb ma mb)).
    { induction q as [|[k v] q IH]; intros p a' E HG.
      - rewrite app_nil_r in E. subst p. cbn. eauto.
      - cbn [fold_left fst snd].
        destruct (good_step a' _ (MRemove k) HG I) as (a2 & E2 & HG2).
        cbn [step] in E2. destruct (remove_ cmp One 2 a' k) as [[a3 b3]|]; [|discriminate]. injection E2 as -> _.
        cbn [smap_spec fst] in HG2. apply (IH (p ++ [(k, v)]) a2 ltac:(rewrite <- app_assoc; exact E)).
        replace (diff ltb ma (p ++ [(k, v)])) with (erase ltb k (diff ltb ma p)); [exact HG2|].
        destruct HG as ((_ & _ & Sm') & _). rewrite erase_filter by exact Sm'. unfold diff.
        rewrite filter_filter. apply filter_eq. intros x _. rewrite has_app, has_one, negb_orb, (same_sym ltb k).
        reflexivity. }
    apply (HH mb [] a eq_refl). replace (diff ltb ma []) with ma; [exact HA|]. symmetry. apply filter_all. reflexivity.
  Qed.

  Lemma remove_keys_ok ks : forall a ma, Good a ma ->
    exists a', remove_keys cmp 2 a ks = Some a' /\
      Good a' (filter (fun e => negb (existsb (fun k => same ltb k (fst e)) ks)) ma).
  Proof.
    induction ks as [|k ks IH]; intros a ma HG; cbn [remove_keys existsb].
    - exists a. split; [reflexivity|]. rewrite filter_all by reflexivity. exact HG.
    - destruct (good_step a ma (MRemove k) HG I) as (a2 & E2 & HG2).
      cbn [step] in E2. destruct (remove_ cmp One 2 a k) as [[a3 b3]|]; [|discriminate]. injection E2 as -> _.
      cbn [smap_spec fst] in HG2. destruct (IH a2 _ HG2) as (a' & E3 & HG3). exists a'. split; [exact E3|].
      destruct HG as ((_ & _ & Sm) & _). rewrite erase_filter, filter_filter in HG3 by exact Sm.
      erewrite filter_eq; [exact HG3|]. intros x _. cbn beta. rewrite negb_orb, (same_sym ltb k). reflexivity.
  Qed.
  Lemma intersection_ok a ma b mb : Good a ma -> Good b mb ->
    exists a', intersection cmp 2 a b = Some a' /\ Good a' (inter ltb ma mb).
  Proof.
    intros HA HB. unfold intersection. rewrite each_fold.
    assert (HH : forall q ks, fold_left (fun (os : option (list K)) (e : K * V) => match os with
        Some ks => c <- contains cmp b (fst e) ;; Some (if c : bool then ks else ks ++ [fst e]) | None => None end) q (Some ks)
        = Some (ks ++ map fst (filter (fun e => negb (has ltb (fst e) mb)) q))).
    { induction q as [|[k v] q IH]; intros ks; cbn [fold_left fst]; [rewrite app_nil_r; reflexivity|].
      destruct (good_step b mb (MContains k) HB I) as (b2 & E2 & _). cbn [step] in E2.
      destruct (contains cmp b k) as [c|]; [|discriminate]. cbn [smap_spec snd] in E2. injection E2 as _ ->.
      rewrite <- has_sames. cbn [filter fst]. destruct (has ltb k mb) eqn:Eh; cbn [negb]; rewrite IH; [reflexivity|].
      rewrite <- app_assoc. reflexivity. }
    rewrite HH. clear HH. cbn [app].
    destruct (remove_keys_ok (map fst (filter (fun e => negb (has ltb (fst e) mb)) (elems (root a)))) a ma HA) as (a' & E1 & HG).
    exists a'. split; [exact E1|]. destruct HA as ((<- & _ & Sm) & _).
    unfold inter. erewrite filter_eq; [exact HG|]. intros x Hx. cbn beta.
    destruct (has ltb (fst x) mb) eqn:Eh.
    - symmetry. apply negb_true_iff. apply not_true_is_false. intros Hc. apply existsb_exists in Hc.
      destruct Hc as (k & Hk & Es). apply in_map_iff in Hk. destruct Hk as (y & <- & Hy). apply filter_In in Hy.
      destruct Hy as (_ & Hy). apply negb_true_iff in Hy. rewrite has_false in Hy. apply has_true in Eh.
      destruct Eh as (e & He & Ee). specialize (Hy e He). unfold same in *.
      rewrite (same_lt_l _ W _ _ _ Es), (same_lt_r _ W _ _ _ Es) in Hy. congruence.
    - symmetry. apply negb_false_iff. apply existsb_exists. exists (fst x). split; [|apply (same_refl _ W)].
      apply in_map. apply filter_In. rewrite Eh. auto.
  Qed.

  Definition ts_known (o : ts_op K V) : Prop := match o with TOn o | TOther o => key_known o | _ => True end.
  Definition Good2 (s : avl * avl) (m : entries * entries) : Prop := Good (fst s) (fst m) /\ Good (snd s) (snd m).
  Lemma ts_step_ok s m o : Good2 s m -> ts_known o ->
    exists s' r m', ts_step cmp 2 s o = Some (s', r) /\ ts_ok ltb m o m' r /\ Good2 s' m'.
  Proof.
    destruct s as [a b], m as [ma mb]. intros (HA & HB) Hk. cbn [fst snd] in HA, HB. destruct o; cbn [ts_step ts_ok ts_known] in *.
    - destruct (good_step a ma o HA Hk) as (a' & E1 & HG). rewrite E1.
      exists (a', b), (snd (smap_spec ltb ma o)), (fst (smap_spec ltb ma o), mb). repeat split; auto; apply HG || apply HB.
    - destruct (good_step b mb o HB Hk) as (b' & E1 & HG). rewrite E1.
      exists (a, b'), (snd (smap_spec ltb mb o)), (ma, fst (smap_spec ltb mb o)). repeat split; auto; apply HG || apply HA.
    - destruct (union_ok a ma b mb HA HB) as (a' & m' & E1 & HG & Hu). rewrite E1.
      exists (a', b), MUnit, (m', mb). repeat split; auto; apply HG || apply HB || apply Hu.
    - destruct (intersection_ok a ma b mb HA HB) as (a' & E1 & HG). rewrite E1.
      exists (a', b), MUnit, (inter ltb ma mb, mb). repeat split; auto; apply HG || apply HB.
    - destruct (difference_ok a ma b mb HA HB) as (a' & E1 & HG). rewrite E1.
      exists (a', b), MUnit, (diff ltb ma mb, mb). repeat split; auto; apply HG || apply HB.
    - exists (b, a), MUnit, (mb, ma). repeat split; auto; apply HB || apply HA.
  Qed.
  Lemma ts_run_ok ops : forall s m, Good2 s m -> (forall o, In o ops -> ts_known o) ->
    exists rs s' m', run (ts_step cmp 2) s ops = Some rs /\ reach (ts_step cmp 2) s ops = Some s' /\
      ts_allowed ltb m ops rs m' /\ Good2 s' m'.
  Proof.
    induction ops as [|o ops IH]; intros s m HG Hk.
    - exists [], s, m. cbn [run reach ts_allowed]. split; [reflexivity|]. split; [reflexivity|]. split; [reflexivity|exact HG].
    - destruct (ts_step_ok s m o HG (Hk o (or_introl eq_refl))) as (s1 & r & m1 & E1 & Hok & HG1).
      destruct (IH s1 m1 HG1 (fun o' H => Hk o' (or_intror H))) as (rs & s' & m' & E2 & E3 & E4 & HG2).
      exists (r :: rs), s', m'. cbn [run reach ts_allowed]. rewrite E1, E2. split; [reflexivity|]. split; [exact E3|].
      split; [|exact HG2]. exists m1. auto.
  Qed.
End P.
