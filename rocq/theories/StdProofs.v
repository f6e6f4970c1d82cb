(** The standard calls on the specifications of the single packages. *)
From Verif Require Import Base Bind Machine OrderSpec SMapSpec SMapFacts IndexSpec OrderedMapSpec PrioSpec StdSpec.
From Verif Require HashSpec LinkedHashSpec.

Lemma find_hd {A} (f : A -> bool) l : find f l = hd_error (filter f l).
Proof. induction l as [|x l IH]; [reflexivity|]. cbn [find filter]. destruct (f x); [reflexivity|exact IH]. Qed.
Lemma filter_parts {A} (f : A -> bool) l : length l = (length (filter f l) + length (filter (fun x => negb (f x)) l))%nat.
Proof. induction l as [|x l IH]; [reflexivity|]. cbn [filter]. destruct (f x); cbn [negb length]; lia. Qed.
Lemma filter_twice {A} (f g : A -> bool) l : filter f (filter g l) = filter (fun x => g x && f x) l.
Proof.
  induction l as [|x l IH]; [reflexivity|]. cbn [filter]. destruct (g x); cbn [filter andb]; [|exact IH].
  destruct (f x); [f_equal|]; exact IH.
Qed.
Lemma filter_map {A B} (g : A -> B) (f : B -> bool) l : filter f (map g l) = map g (filter (fun x => f (g x)) l).
Proof. induction l as [|x l IH]; [reflexivity|]. cbn [map filter]. destruct (f (g x)); cbn [map]; rewrite IH; reflexivity. Qed.
Lemma srun_sim {S T O P R Q} (step : S -> P -> S * R) (spec : T -> O -> T * Q) (e : O -> P) (out : R -> Q) (Rel : S -> T -> Prop) :
  (forall s t o, Rel s t -> Rel (fst (step s (e o))) (fst (spec t o)) /\ out (snd (step s (e o))) = snd (spec t o)) ->
  forall ops s t, Rel s t -> map out (srun step s (map e ops)) = srun spec t ops.
Proof.
  intros H. induction ops as [|o ops IH]; intros s t HR; [reflexivity|]. cbn [map srun].
  destruct (H s t o HR) as (X & Y). destruct (step s (e o)) as [s' r]. destruct (spec t o) as [t' q]. cbn [fst snd] in *.
  cbn [map]. rewrite Y, (IH _ _ X). reflexivity.
Qed.

(** ** sorted maps *)
Section Sorted.
  Context {K V : Type} (ltb : K -> K -> bool) (W : weak_order ltb).
  Notation entries := (list (K * V)).
  Implicit Types (m s : entries) (k : K) (v : V) (o : std_op K V).

  Definition mop o : sm_op K V :=
    match o with
    | StdInsertIfAbsent k v => MInsertIfAbsent k v | StdUpsert k v => MUpsert k v | StdDelete k => MDelete k
    | StdGet k => MGet k | StdLen => MLen | StdClear => MClear
    end.
  Definition mout (r : sm_out K V) : std_out V :=
    match r with MBool b => StdBool b | MVal o => StdVal o | MNat n => StdNum n | MUnit => StdUnit | _ => StdOther end.

  (** the same bindings *)
  Definition SRel m s : Prop :=
    strictly_sorted ltb m /\ length m = length s /\ forall k, map snd (sames ltb k m) = map snd (filter (fun e => same ltb (fst e) k) s).

  Lemma same_swap a b c : same ltb a b = true -> same ltb a c = same ltb b c.
  Proof. intros H. unfold same. rewrite (same_lt_l ltb W _ _ _ H), (same_lt_r ltb W _ _ _ H). reflexivity. Qed.
  Lemma same_swap_r a b c : same ltb a b = true -> same ltb c a = same ltb c b.
  Proof. intros H. unfold same. rewrite (same_lt_l ltb W _ _ _ H), (same_lt_r ltb W _ _ _ H). reflexivity. Qed.
  Lemma smap_find m s k : SRel m s -> std_find (same ltb) k s = option_map snd (hd_error (sames ltb k m)).
  Proof.
    intros (_ & _ & H). specialize (H k). unfold std_find. rewrite find_hd.
    destruct (sames ltb k m), (filter _ s); cbn in *; congruence.
  Qed.
  Lemma sames_erase k k' m : strictly_sorted ltb m ->
    sames ltb k' (erase ltb k m) = if same ltb k k' then [] else sames ltb k' m.
  Proof.
    intros Hm. unfold erase, sames. rewrite filter_app. destruct (same ltb k k') eqn:E1.
    - unfold before, after. rewrite !filter_twice, !filter_none; [reflexivity| |]; intros x _;
        rewrite <- (same_swap_r _ _ (fst x) E1); unfold same; destruct (ltb (fst x) k), (ltb k (fst x)); reflexivity.
    - rewrite (cut_all ltb W m k (strict_weak ltb W m Hm)) at 3. rewrite !filter_app. f_equal.
      rewrite (filter_none _ (sames ltb k m)); [reflexivity|]. intros x Hx. apply filter_In in Hx.
      destruct Hx as (_ & Hx). rewrite (same_swap _ _ k' Hx). exact E1.
  Qed.
  Lemma sames_write k k' e m : same ltb (fst e) k = true -> strictly_sorted ltb m ->
    sames ltb k' (write ltb k e m) = if same ltb k k' then [e] else sames ltb k' m.
  Proof.
    intros He Hm. pose proof (sames_erase k k' m Hm) as X. unfold erase, write, sames in *. rewrite filter_app in *. cbn [filter].
    rewrite (same_swap _ _ k' He). destruct (same ltb k k') eqn:E1; [|exact X].
    apply app_eq_nil in X. destruct X as (-> & ->). reflexivity.
  Qed.
  Lemma erase_length k m : strictly_sorted ltb m -> length (erase ltb k m) = (length m - length (sames ltb k m))%nat.
  Proof.
    intros Hm. rewrite (cut_all ltb W m k (strict_weak ltb W m Hm)) at 2. unfold erase. rewrite !app_length. lia.
  Qed.
  Lemma write_length k e m : length (write ltb k e m) = S (length (erase ltb k m)).
  Proof. unfold write, erase. rewrite !app_length. cbn [length]. lia. Qed.
  Lemma rest_sames k k' s :
    filter (fun e => same ltb (fst e) k') (std_rest (same ltb) k s) =
      if same ltb k k' then [] else filter (fun e => same ltb (fst e) k') s.
  Proof.
    unfold std_rest. rewrite filter_twice. destruct (same ltb k k') eqn:E1.
    - apply filter_none. intros x _. rewrite (same_swap_r _ _ (fst x) E1). destruct (same ltb (fst x) k'); reflexivity.
    - apply filter_eq. intros x _. destruct (same ltb (fst x) k) eqn:E2; [|reflexivity]. rewrite (same_swap _ _ k' E2), E1. reflexivity.
  Qed.
  Lemma rest_length m k s : SRel m s -> length (std_rest (same ltb) k s) = length (erase ltb k m).
  Proof.
    intros (Hm & Hl & Hs). rewrite (erase_length k m Hm), Hl. specialize (Hs k). apply (f_equal (@length V)) in Hs.
    rewrite !map_length in Hs. rewrite Hs. unfold std_rest.
    pose proof (filter_parts (fun e : K * V => same ltb (fst e) k) s). cbn in *. lia.
  Qed.
  Lemma srel_erase m s k : SRel m s -> SRel (erase ltb k m) (std_rest (same ltb) k s).
  Proof.
    intros HR. pose proof (rest_length m k s HR) as L. destruct HR as (Hm & Hl & Hs). split; [|split].
    - apply (erase_sorted ltb W). exact Hm.
    - symmetry. exact L.
    - intros k'. rewrite (sames_erase k k' m Hm), rest_sames. destruct (same ltb k k'); [reflexivity|apply Hs].
  Qed.
  Lemma srel_write m s k k0 v : SRel m s -> same ltb k0 k = true -> SRel (write ltb k (k0, v) m) ((k, v) :: std_rest (same ltb) k s).
  Proof.
    intros HR H0. pose proof (rest_length m k s HR) as L. destruct HR as (Hm & Hl & Hs). split; [|split].
    - apply (write_sorted ltb W); assumption.
    - rewrite write_length. cbn [length]. congruence.
    - intros k'. rewrite (sames_write k k' (k0, v) m H0 Hm). cbn [filter fst]. rewrite rest_sames.
      destruct (same ltb k k'); [reflexivity|apply Hs].
  Qed.
  Lemma smap_std m s o : SRel m s ->
    SRel (fst (smap_spec ltb m (mop o))) (fst (std_spec (same ltb) s o)) /\
    mout (snd (smap_spec ltb m (mop o))) = snd (std_spec (same ltb) s o).
  Proof.
    intros HR. destruct o; cbn [mop smap_spec std_spec].
    - rewrite (smap_find m s k HR). destruct (sames ltb k m) as [|e l] eqn:E1; cbn [hd_error option_map fst snd]; [|auto].
      split; [|reflexivity]. replace s with (std_rest (same ltb) k s).
      + apply srel_write; [exact HR|apply (same_refl ltb W)].
      + destruct HR as (_ & _ & Hs). specialize (Hs k). rewrite E1 in Hs. symmetry in Hs. apply map_eq_nil in Hs.
        unfold std_rest. apply filter_all. intros x Hx. destruct (same ltb (fst x) k) eqn:E2; [|reflexivity]. exfalso.
        assert (Hi : In x (filter (fun e => same ltb (fst e) k) s)) by (apply filter_In; auto). rewrite Hs in Hi. exact Hi.
    - rewrite (smap_find m s k HR). destruct (sames ltb k m) as [|[k0 v0] l] eqn:E1; cbn [hd_error option_map fst snd].
      + split; [apply srel_write; [exact HR|apply (same_refl ltb W)]|reflexivity].
      + split; [|reflexivity]. apply srel_write; [exact HR|].
        assert (Hi : In (k0, v0) (sames ltb k m)) by (rewrite E1; left; reflexivity). apply filter_In in Hi. apply Hi.
    - rewrite (smap_find m s k HR). split; [apply srel_erase; exact HR|reflexivity].
    - rewrite (smap_find m s k HR). split; [exact HR|reflexivity].
    - split; [exact HR|]. destruct HR as (_ & H & _). cbn. rewrite H. reflexivity.
    - split; [|reflexivity]. split; [constructor|]. split; reflexivity.
  Qed.
  Lemma srel_nil : SRel [] [].
  Proof. split; [constructor|]. split; reflexivity. Qed.
  Lemma smap_std_run ops : map mout (srun (smap_spec ltb) [] (map mop ops)) = srun (std_spec (same ltb)) [] ops.
  Proof. exact (srun_sim _ _ mop mout SRel smap_std ops [] [] srel_nil). Qed.

  (** ** multimaps: as long as every key occurs at most once, the standard calls do the same and keep it so *)
  Lemma insert_write k v m : sames ltb k m = [] -> mm_insert ltb (k, v) m = write ltb k (k, v) m.
  Proof.
    intros H. unfold mm_insert, write. cbn [fst]. f_equal. apply filter_eq. intros x Hx.
    destruct (ltb k (fst x)) eqn:E1, (ltb (fst x) k) eqn:E2; try reflexivity.
    - rewrite (lt_asym ltb W _ _ E1) in E2. discriminate.
    - exfalso. assert (Hi : In x (sames ltb k m)) by (apply filter_In; split; [exact Hx|]; unfold same; rewrite E1, E2; reflexivity).
      rewrite H in Hi. exact Hi.
  Qed.
  Lemma mmap_smap m o : strictly_sorted ltb m -> mmap_spec ltb m (mop o) = smap_spec ltb m (mop o).
  Proof.
    intros Hm. destruct o; cbn [mop mmap_spec smap_spec]; try reflexivity.
    - destruct (sames ltb k m) eqn:E1; [|reflexivity]. rewrite (insert_write k v m E1). reflexivity.
    - destruct (strict_sames ltb W m k Hm) as [E1|([k0 v0] & E1)].
      + rewrite E1, (insert_write k v m E1). reflexivity.
      + unfold mm_replace_first. rewrite E1. reflexivity.
    - destruct (strict_sames ltb W m k Hm) as [E1|([k0 v0] & E1)]; unfold mm_drop_first; rewrite E1; reflexivity.
  Qed.
  Lemma mmap_std_run ops : map mout (srun (mmap_spec ltb) [] (map mop ops)) = srun (std_spec (same ltb)) [] ops.
  Proof.
    apply (srun_sim _ _ mop mout SRel); [|apply srel_nil]. intros m s o HR. rewrite mmap_smap by apply HR. apply smap_std. exact HR.
  Qed.

  (** ** priority queues *)
  Definition qop o : pq_op K V :=
    match o with
    | StdInsertIfAbsent k v => QInsertIfAbsent k v | StdUpsert k v => QUpsert k v | StdDelete k => QDelete k
    | StdGet k => QGet k | StdLen => QLen | StdClear => QClear
    end.
  Definition qout (r : pq_out K V) : std_out V :=
    match r with QBool b => StdBool b | QVal o => StdVal o | QNum z => StdNum (Z.to_nat z) | QUnit => StdUnit | _ => StdOther end.
  Lemma pq_mmap m o :
    fst (pq_spec ltb m (qop o)) = fst (mmap_spec ltb m (mop o)) /\
    qout (snd (pq_spec ltb m (qop o))) = mout (snd (mmap_spec ltb m (mop o))).
  Proof.
    destruct o; cbn [qop mop pq_spec mmap_spec]; try (destruct (sames ltb k m)); split; try reflexivity.
    cbn. unfold len. rewrite Nat2Z.id. reflexivity.
  Qed.
  Lemma pq_std_run ops : map qout (srun (pq_spec ltb) [] (map qop ops)) = srun (std_spec (same ltb)) [] ops.
  Proof.
    apply (srun_sim _ _ qop qout SRel); [|apply srel_nil]. intros m s o HR. destruct (pq_mmap m o) as (-> & ->).
    rewrite mmap_smap by apply HR. apply smap_std. exact HR.
  Qed.
End Sorted.

(** ** index trees and ordered maps, whose values are interfaces: no value stored is nil *)
Section Interfaces.
  Context {K A : Type} (ltb : K -> K -> bool) (W : weak_order ltb) (zk : K) (zv : option A).
  Notation lift := (map (fun e : K * A => (fst e, Some (snd e)))).
  Implicit Types (m : list (K * A)) (k : K) (o : std_op K A).

  Definition xop o : ix_op K A :=
    match o with
    | StdInsertIfAbsent k v => XInsertIfAbsent k (Some v) | StdUpsert k v => XUpsert k (Some v) | StdDelete k => XDelete k
    | StdGet k => XGet k | StdLen => XLen | StdClear => XClear
    end.
  Definition xout (r : ix_out K A) : std_out A :=
    match r with
    | XBool b => StdBool b | XFound (Some v) true => StdVal (Some v) | XFound _ false => StdVal None
    | XNum z => StdNum (Z.to_nat z) | XUnit => StdUnit | _ => StdOther
    end.
  Definition oop o : om_op K A :=
    match o with
    | StdInsertIfAbsent k v => OInsertIfAbsent k (Some v) | StdUpsert k v => OUpsert k (Some v) | StdDelete k => ODelete k
    | StdGet k => OGet k | StdLen => OLen | StdClear => OClear
    end.
  Definition oout (r : om_out K A) : std_out A :=
    match r with
    | OBool b => StdBool b | OFound (Some v) true => StdVal (Some v) | OFound _ false => StdVal None
    | ONum z => StdNum (Z.to_nat z) | OUnit => StdUnit | _ => StdOther
    end.

  Lemma sames_lift k m : sames ltb k (lift m) = lift (sames ltb k m).
  Proof. unfold sames. apply filter_map. Qed.
  Lemma write_lift k k0 v m : write ltb k (k0, Some v) (lift m) = lift (write ltb k (k0, v) m).
  Proof. unfold write, before, after. rewrite !filter_map, map_app. reflexivity. Qed.
  Lemma erase_lift k m : erase ltb k (lift m) = lift (erase ltb k m).
  Proof. unfold erase, before, after. rewrite !filter_map, map_app. reflexivity. Qed.
  Lemma len_lift m : Z.to_nat (len (lift m)) = length m.
  Proof. unfold len. rewrite map_length, Nat2Z.id. reflexivity. Qed.

  Lemma ix_smap m o :
    fst (ix_spec ltb (lift m) (xop o)) = lift (fst (smap_spec ltb m (mop o))) /\
    xout (snd (ix_spec ltb (lift m) (xop o))) = mout (snd (smap_spec ltb m (mop o))) /\
    answered ltb (lift m) (xop o) /\ trim_in_range (lift m) (xop o).
  Proof.
    destruct o; cbn [xop mop ix_spec smap_spec answered trim_in_range]; rewrite ?sames_lift.
    - destruct (sames ltb k m) as [|e l]; cbn [map fst snd]; rewrite ?write_lift; auto.
    - destruct (sames ltb k m) as [|[k0 v0] l]; cbn [map fst snd]; rewrite ?write_lift; auto.
    - rewrite erase_lift. repeat split; [destruct (sames ltb k m) as [|[k0 v0] l]; reflexivity|].
      intros e He _. apply in_map_iff in He. destruct He as (x & <- & _). discriminate.
    - repeat split. destruct (sames ltb k m) as [|[k0 v0] l]; reflexivity.
    - cbn [fst snd xout mout]. rewrite len_lift. auto.
    - auto.
  Qed.
  Lemma om_smap m o :
    fst (om_spec ltb zk zv (lift m) (oop o)) = lift (fst (smap_spec ltb m (mop o))) /\
    oout (snd (om_spec ltb zk zv (lift m) (oop o))) = mout (snd (smap_spec ltb m (mop o))) /\
    plain ltb (lift m) (oop o).
  Proof.
    assert (N : forall k, no_nil (sames ltb k (lift m))).
    { intros k e He. rewrite sames_lift in He. apply in_map_iff in He. destruct He as (x & <- & _). discriminate. }
    destruct o; cbn [oop mop om_spec smap_spec plain]; rewrite ?sames_lift.
    - destruct (sames ltb k m) as [|e l]; cbn [map fst snd]; rewrite ?write_lift; auto.
    - destruct (sames ltb k m) as [|[k0 v0] l]; cbn [map fst snd]; rewrite ?write_lift; auto.
    - rewrite erase_lift. split; [reflexivity|]. split; [|rewrite <- sames_lift; apply N]. cbn [snd].
      destruct (sames ltb k m) as [|[k0 v0] l]; cbn; [destruct zv|]; reflexivity.
    - split; [reflexivity|]. split; [|rewrite <- sames_lift; apply N]. cbn [snd].
      destruct (sames ltb k m) as [|[k0 v0] l]; cbn; [destruct zv|]; reflexivity.
    - cbn [fst snd oout mout]. rewrite len_lift. auto.
    - auto.
  Qed.
  Lemma ix_std_fine ops : forall m, trims_in_range ltb (lift m) (map xop ops) /\ all_answered ltb (lift m) (map xop ops).
  Proof.
    induction ops as [|o ops IH]; intros m; cbn [map trims_in_range all_answered]; [auto|].
    destruct (ix_smap m o) as (-> & _ & X & Y). destruct (IH (fst (smap_spec ltb m (mop o)))). auto.
  Qed.
  Lemma om_std_fine ops : forall m, all_plain ltb zk zv (lift m) (map oop ops).
  Proof.
    induction ops as [|o ops IH]; intros m; cbn [map all_plain]; [exact I|].
    destruct (om_smap m o) as (-> & _ & X). auto.
  Qed.
  Lemma ix_std_run ops : map xout (srun (ix_spec ltb) [] (map xop ops)) = srun (std_spec (same ltb)) [] ops.
  Proof.
    apply (srun_sim _ _ xop xout (fun l s => exists m, l = lift m /\ SRel ltb m s)); [|exists []; split; [reflexivity|apply srel_nil]].
    intros l s o (m & -> & HR). destruct (ix_smap m o) as (-> & -> & _). destruct (smap_std ltb W m s o HR) as (X & Y). eauto.
  Qed.
  Lemma om_std_run ops : map oout (srun (om_spec ltb zk zv) [] (map oop ops)) = srun (std_spec (same ltb)) [] ops.
  Proof.
    apply (srun_sim _ _ oop oout (fun l s => exists m, l = lift m /\ SRel ltb m s)); [|exists []; split; [reflexivity|apply srel_nil]].
    intros l s o (m & -> & HR). destruct (om_smap m o) as (-> & -> & _). destruct (smap_std ltb W m s o HR) as (X & Y). eauto.
  Qed.
End Interfaces.

(** ** hash maps *)
Section Hashed.
  Context {K V : Type} (keq : K -> K -> bool) (Hk : forall a b, keq a b = true <-> a = b).
  Import HashSpec LinkedHashSpec.
  Implicit Types (s l : list (K * V)) (k : K) (v : V) (o : std_op K V).

  Definition hop o : @hm_op K V :=
    match o with
    | StdInsertIfAbsent k v => HInsertIfAbsent k v | StdUpsert k v => HUpsert k v | StdDelete k => HDelete k
    | StdGet k => HGet k | StdLen => HLen | StdClear => HClear
    end.
  Definition hout (r : @hm_out K V) : std_out V :=
    match r with HBool b => StdBool b | HVal o => StdVal o | HNat n => StdNum n | HUnit => StdUnit | _ => StdOther end.
  Definition lop o : @lh_op K V :=
    match o with
    | StdInsertIfAbsent k v => LInsertIfAbsent k v | StdUpsert k v => LUpsert k v | StdDelete k => LDelete k
    | StdGet k => LGet k | StdLen => LLen | StdClear => LClear
    end.
  Definition lout (r : @lh_out K V) : std_out V :=
    match r with LBool b => StdBool b | LVal o => StdVal o | LNat n => StdNum n | LUnit => StdUnit | _ => StdOther end.

  Lemma keq_refl k : keq k k = true.
  Proof. apply Hk. reflexivity. Qed.
  Lemma find_rest k k' s : std_find keq k' (std_rest keq k s) = if keq k k' then None else std_find keq k' s.
  Proof.
    unfold std_find, std_rest. induction s as [|[a v] s IH]; cbn [filter find fst]; [destruct (keq k k'); reflexivity|].
    destruct (keq a k) eqn:E1; cbn [negb].
    - apply Hk in E1. subst a. rewrite IH. destruct (keq k k'); reflexivity.
    - cbn [find fst]. destruct (keq a k') eqn:E2; [|exact IH]. apply Hk in E2. subst a.
      destruct (keq k k') eqn:E3; [|reflexivity]. apply Hk in E3. subst k'. rewrite keq_refl in E1. discriminate.
  Qed.
  Lemma find_in k s : std_find keq k s <> None <-> In k (map fst s).
  Proof.
    unfold std_find. induction s as [|[a v] s IH]; cbn [find map fst In]; [intuition congruence|].
    destruct (keq a k) eqn:E1; cbn [option_map].
    - apply Hk in E1. split; [auto|discriminate].
    - rewrite IH. split; [auto|]. intros [->|H]; [|exact H]. rewrite keq_refl in E1. discriminate.
  Qed.
  Lemma rest_nodup k s : NoDup (map fst s) -> NoDup (map fst (std_rest keq k s)).
  Proof.
    unfold std_rest. induction s as [|[a v] s IH]; intros H; cbn [filter map fst] in *; [exact H|]. inversion_clear H.
    destruct (keq a k); cbn [negb]; [auto|]. cbn [map fst]. constructor; [|auto]. intros X. apply H0.
    apply in_map_iff in X. destruct X as (e & E1 & E2). apply filter_In in E2. apply in_map_iff. exists e. tauto.
  Qed.
  Lemma rest_out k s : ~ In k (map fst (std_rest keq k s)).
  Proof. intros H. apply find_in in H. rewrite find_rest, keq_refl in H. auto. Qed.

  (** the map [f] has exactly the bindings [s] *)
  Definition FRel (f : fmap K V) s : Prop := NoDup (map fst s) /\ forall k, f k = std_find keq k s.
  Lemma frel_set f s k v : FRel f s -> FRel (fset keq f k v) ((k, v) :: std_rest keq k s).
  Proof.
    intros (H1 & H2). split; [cbn [map fst]; constructor; [apply rest_out|apply rest_nodup; exact H1]|]. intros k'.
    pose proof (find_rest k k' s) as X. unfold fset, std_find in *. cbn [find fst]. destruct (keq k k'); [reflexivity|]. rewrite X. apply H2.
  Qed.
  Lemma frel_del f s k : FRel f s -> FRel (fdel keq f k) (std_rest keq k s).
  Proof.
    intros (H1 & H2). split; [apply rest_nodup; exact H1|]. intros k'. unfold fdel. rewrite find_rest. destruct (keq k k'); auto.
  Qed.
  Lemma rest_absent k s : std_find keq k s = None -> std_rest keq k s = s.
  Proof.
    intros H. apply filter_all. intros e He. destruct (keq (fst e) k) eqn:E1; [|reflexivity]. exfalso. apply Hk in E1.
    apply (find_in k s); [|exact H]. apply in_map_iff. eauto.
  Qed.
  Lemma hm_std f s o r : FRel f s -> ok f (hop o) r ->
    FRel (next keq f (hop o)) (fst (std_spec keq s o)) /\ hout r = snd (std_spec keq s o).
  Proof.
    intros HR Hr. pose proof HR as (H1 & H2). destruct o; cbn [hop ok next std_spec] in *; destruct r; try contradiction; unfold present in Hr.
    - rewrite <- H2. destruct (f k) eqn:E1; cbn [fst snd hout]; subst b; [split; [exact HR|reflexivity]|]. split; [|reflexivity].
      rewrite <- (rest_absent k s) by congruence. apply frel_set. exact HR.
    - rewrite <- H2. cbn [fst snd hout]. subst b. split; [apply frel_set; exact HR|reflexivity].
    - rewrite <- H2. cbn [fst snd hout]. subst o. split; [apply frel_del; exact HR|reflexivity].
    - rewrite <- H2. cbn [fst snd hout]. subst o. split; [exact HR|reflexivity].
    - cbn [fst snd hout]. split; [exact HR|]. destruct Hr as (d & (D1 & D2) & ->). f_equal. rewrite <- (map_length fst s).
      apply Permutation_length, NoDup_Permutation; [exact D1|exact H1|]. intros k. rewrite D2, H2. apply find_in.
    - cbn [fst snd hout]. split; [|reflexivity]. split; [constructor|reflexivity].
  Qed.
  Lemma hm_std_run ops : forall f s rs, FRel f s -> allowed keq f (map hop ops) rs -> map hout rs = srun (std_spec keq) s ops.
  Proof.
    induction ops as [|o ops IH]; intros f s rs HR Ha; destruct rs as [|r rs]; cbn [map allowed] in Ha; try contradiction; [reflexivity|].
    destruct Ha as (H1 & H2). destruct (hm_std f s o r HR H1) as (X & Y). cbn [map srun].
    destruct (std_spec keq s o) as [s' q]. cbn [fst snd] in *. rewrite Y, (IH _ _ _ X H2). reflexivity.
  Qed.
  Lemma frel_nil : FRel fempty [].
  Proof. split; [constructor|reflexivity]. Qed.

  (** ** linked hash maps: the same bindings, in an order of their own *)
  Definition LRel l s : Prop := NoDup (map fst l) /\ NoDup (map fst s) /\ length l = length s /\ forall k, std_find keq k l = std_find keq k s.
  Lemma has_find l k : has keq l k = match std_find keq k l with None => false | Some _ => true end.
  Proof.
    unfold has, std_find. induction l as [|[a v] l IH]; [reflexivity|]. cbn [existsb find fst]. destruct (keq a k); [reflexivity|exact IH].
  Qed.
  Lemma find_app k (l1 l2 : list (K * V)) : std_find keq k (l1 ++ l2) = match std_find keq k l1 with None => std_find keq k l2 | Some v => Some v end.
  Proof.
    unfold std_find. induction l1 as [|[a v] l1 IH]; [reflexivity|]. cbn [app find fst]. destruct (keq a k); [reflexivity|exact IH].
  Qed.
  Lemma updated_keys l k v : map fst (updated keq l k v) = map fst l.
  Proof.
    unfold updated. rewrite map_map. apply map_ext_in. intros [a b] _. cbn [fst]. destruct (keq a k) eqn:E1; [|reflexivity]. apply Hk in E1. auto.
  Qed.
  Lemma find_updated l k v k' : std_find keq k' (updated keq l k v) =
    if keq k k' then match std_find keq k l with None => None | Some _ => Some v end else std_find keq k' l.
  Proof.
    unfold std_find, updated. induction l as [|[a b] l IH]; cbn [map find fst]; [destruct (keq k k'); reflexivity|].
    destruct (keq a k) eqn:E1; cbn [fst].
    - apply Hk in E1. subst a. destruct (keq k k') eqn:E2; [reflexivity|]. exact IH.
    - destruct (keq a k') eqn:E2; [|exact IH]. apply Hk in E2. subst a.
      destruct (keq k k') eqn:E3; [|reflexivity]. apply Hk in E3. subst k'. rewrite keq_refl in E1. discriminate.
  Qed.
  Lemma rest_count k s : NoDup (map fst s) ->
    length s = (length (std_rest keq k s) + match std_find keq k s with None => 0 | Some _ => 1 end)%nat.
  Proof.
    intros H. destruct (std_find keq k s) eqn:E1; [|rewrite (rest_absent k s E1); lia].
    unfold std_find, std_rest in *. induction s as [|[a b] s IH]; cbn [find fst filter map] in *; [discriminate|].
    inversion_clear H. destruct (keq a k) eqn:E2; cbn [negb length].
    - apply Hk in E2. subst a. pose proof (rest_absent k s) as X. unfold std_rest in X. rewrite X; [lia|].
      destruct (std_find keq k s) eqn:E3; [|reflexivity]. exfalso. apply H0. apply find_in. congruence.
    - rewrite (IH H1 E1). lia.
  Qed.
  Lemma lrel_rest l s k : LRel l s -> LRel (std_rest keq k l) (std_rest keq k s).
  Proof.
    intros (H1 & H2 & H3 & H4). repeat split; [apply rest_nodup; exact H1|apply rest_nodup; exact H2| |].
    - pose proof (rest_count k l H1). pose proof (rest_count k s H2). rewrite (H4 k) in *. lia.
    - intros k'. rewrite !find_rest. destruct (keq k k'); auto.
  Qed.
  Lemma nodup_snoc l k v : NoDup (map fst l) -> std_find keq k l = None -> NoDup (map fst (l ++ [(k, v)])).
  Proof.
    intros H1 H2. apply (Permutation_NoDup (l := k :: map fst l)).
    - rewrite map_app. apply Permutation_cons_append.
    - constructor; [|exact H1]. intros X. apply find_in in X. auto.
  Qed.
  Lemma find_cons k a v s : std_find keq k ((a, v) :: s) = if keq a k then Some v else std_find keq k s.
  Proof. unfold std_find. cbn [find fst]. destruct (keq a k); reflexivity. Qed.
  Lemma find_snoc l k v k' : std_find keq k l = None ->
    std_find keq k' (l ++ [(k, v)]) = if keq k k' then Some v else std_find keq k' l.
  Proof.
    intros H. rewrite find_app, find_cons. destruct (keq k k') eqn:E1; [|destruct (std_find keq k' l); reflexivity].
    apply Hk in E1. subst k'. rewrite H. reflexivity.
  Qed.
  Lemma lh_std l s o : LRel l s ->
    LRel (fst (lh_spec keq l (lop o))) (fst (std_spec keq s o)) /\ lout (snd (lh_spec keq l (lop o))) = snd (std_spec keq s o).
  Proof.
    intros HR. pose proof HR as (H1 & H2 & H3 & H4). destruct o; cbn [lop lh_spec std_spec]; rewrite ?has_find.
    - rewrite (H4 k). destruct (std_find keq k s) eqn:E1; cbn [fst snd lout]; [split; [exact HR|reflexivity]|]. split; [|reflexivity].
      repeat split.
      + apply nodup_snoc; [exact H1|congruence].
      + cbn [map fst]. constructor; [|exact H2]. intros X. apply find_in in X. auto.
      + rewrite app_length. cbn [length]. lia.
      + intros k'. rewrite find_snoc, find_cons by congruence. rewrite H4. reflexivity.
    - rewrite (H4 k). cbn [fst snd lout]. split; [|reflexivity].
      destruct (frel_set (fun k => std_find keq k s) s k v) as (N & _); [split; auto|].
      pose proof (rest_count k s H2) as L. destruct (std_find keq k s) eqn:E1.
      + repeat split; [rewrite updated_keys; exact H1|exact N| |].
        * unfold updated. rewrite map_length. cbn [length]. lia.
        * intros k'. rewrite find_updated, find_cons, find_rest, !H4, E1. destruct (keq k k'); reflexivity.
      + repeat split; [apply nodup_snoc; [exact H1|congruence]|exact N| |].
        * rewrite app_length. cbn [length]. lia.
        * intros k'. rewrite find_snoc, find_cons, find_rest, H4 by congruence. destruct (keq k k'); reflexivity.
    - cbn [fst snd lout]. split; [apply lrel_rest; exact HR|]. f_equal. apply H4.
    - cbn [fst snd lout]. split; [exact HR|]. f_equal. apply H4.
    - cbn [fst snd lout]. split; [exact HR|]. f_equal. exact H3.
    - split; [|reflexivity]. repeat split; constructor.
  Qed.
  Lemma lh_std_run ops : map lout (srun (lh_spec keq) [] (map lop ops)) = srun (std_spec keq) [] ops.
  Proof. apply (srun_sim _ _ lop lout LRel lh_std). repeat split; constructor. Qed.
End Hashed.

(** Only the equality tests matter. *)
Lemma std_spec_eqb {K V} (e1 e2 : K -> K -> bool) (ops : list (std_op K V)) : (forall a b, e1 a b = e2 a b) ->
  forall s, srun (std_spec e1) s ops = srun (std_spec e2) s ops.
Proof.
  intros H. induction ops as [|o ops IH]; intros s; [reflexivity|]. cbn [srun].
  assert (X : std_spec e1 s o = std_spec e2 s o).
  { assert (F : forall k, std_find e1 k s = std_find e2 k s).
    { intros k. unfold std_find. f_equal. induction s as [|x s IHs]; [reflexivity|]. cbn [find]. rewrite H, IHs. reflexivity. }
    assert (G : forall k, std_rest e1 k s = std_rest e2 k s) by (intros k; apply filter_eq; intros x _; rewrite H; reflexivity).
    destruct o; cbn [std_spec]; rewrite ?F, ?G; reflexivity. }
  rewrite X. destruct (std_spec e2 s o) as [s' r]. rewrite IH. reflexivity.
Qed.
