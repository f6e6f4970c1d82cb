(** tree/indextree/experiment (C66). *)
From Verif Require Import Base Bind Machine OrderSpec SMapSpec CompareModel AvlTree AvlSpec AvlModel ExpModel.
From Verif Require AvlProps.
Local Open Scope Z_scope.

(** calls that do not look for a key with get *)
Definition no_get {K V} (o : sm_op K V) : Prop :=
  match o with MUpsert _ _ | MGet _ | MContains _ | MRemove _ | MDelete _ => False | _ => True end.

Section Turned.
  Context {K : Type} (ltb : K -> K -> bool) (W : weak_order ltb).
  Lemma flip_weak : weak_order (fun a b => ltb b a).
  Proof.
    constructor; intros.
    - apply W.
    - eapply (wo_trans _ W); eauto.
    - destruct (wo_split _ W _ b _ H); auto.
  Qed.
  (** put of experiment.Tree seen as put of tree/avl *)
  Definition sides (cmp : K -> K -> Z) (a b : K) : Z := if cmp a b <? 0 then 0 else if cmp a b >? 0 then 1 else -1.
  Lemma sides_ex cmp : sign_cmp ltb cmp -> ex_cmp (fun a b => ltb b a) (sides cmp).
  Proof.
    intros H a b. unfold sides. destruct (H a b) as (H1 & H2). rewrite Z.gtb_ltb.
    destruct (Z.ltb_spec (cmp a b) 0) as [L|L]; destruct (Z.ltb_spec 0 (cmp a b)) as [L2|L2];
      destruct (ltb a b) eqn:E1; destruct (ltb b a) eqn:E2; try reflexivity; exfalso; intuition (try congruence; lia).
  Qed.
End Turned.

Section Props.
  Context {K V : Type} (ltb : K -> K -> bool) (W : weak_order ltb) (cmp : K -> K -> Z) (Hcmp : sign_cmp ltb cmp) (d : Z).

  Lemma put_avl hit key v (t : tree K V) : forall alone, put cmp d hit key v t alone = AvlModel.put (sides cmp) Both d hit key v t alone.
  Proof.
    induction t as [|h ck cv l IHl r IHr]; intros alone; [reflexivity|]. cbn [put AvlModel.put]. rewrite IHl, IHr.
    assert (Es : sides cmp ck key = if cmp ck key <? 0 then 0 else if cmp ck key >? 0 then 1 else -1) by reflexivity. rewrite Es.
    destruct (cmp ck key <? 0); [reflexivity|]. destruct (cmp ck key >? 0); reflexivity.
  Qed.
  Lemma step_avl (s : avl K V) o : no_get o -> step cmp d s o = AvlModel.step (sides cmp) Both d s o.
  Proof.
    destruct o; cbn [no_get]; try contradiction; intros _; cbn [step AvlModel.step]; try reflexivity;
      unfold put_, AvlModel.put_, set, AvlModel.set; rewrite put_avl; reflexivity.
  Qed.
  Lemma run_avl (ops : list (sm_op K V)) : Forall no_get ops -> forall s,
    run (step cmp d) s ops = run (AvlModel.step (sides cmp) Both d) s ops /\ reach (step cmp d) s ops = reach (AvlModel.step (sides cmp) Both d) s ops.
  Proof.
    induction 1 as [|o ops Ho H IH]; intros s; [split; reflexivity|]. cbn [run reach]. rewrite (step_avl s o Ho).
    destruct (AvlModel.step (sides cmp) Both d s o) as [(s', x)|]; [|split; reflexivity]. destruct (IH s') as (-> & ->). split; reflexivity.
  Qed.

  (** The tree never grows beyond 126 levels while the operations run. *)
  Definition stays_low (ops : list (sm_op K V)) : Prop :=
    forall p q s, ops = p ++ q -> reach (step cmp d) new p = Some s -> ht (root s) <= 126.
  Lemma low_avl ops : Forall no_get ops -> stays_low ops -> AvlProps.stays_low (sides cmp) d ops.
  Proof.
    intros Hg H p q s E0 Hr. apply (H p q s E0). rewrite E0 in Hg. apply Forall_app in Hg as (Hg & _). destruct (run_avl p Hg new) as (_ & ->). exact Hr.
  Qed.

  (** Calls other than Get, Upsert, Remove and Delete answer as a map sorted from the greatest key down, for every
      comparator with the right signs; Height() is the height.  Full statement: for all calls, and in increasing order as
      in tree/avl.  Both are false, see below. *)
  Theorem C66_insertions_sorted_partial (ops : list (sm_op K V)) : 1 <= d <= 127 -> Forall no_get ops -> stays_low ops ->
    run (step cmp d) new ops = Some (srun (smap_spec (fun a b => ltb b a)) [] ops) /\
    exists s, reach (step cmp d) new ops = Some s /\ height s = Some (ht (root s)).
  Proof.
    intros Hd Hg HL. pose proof (flip_weak ltb W) as W'. pose proof (sides_ex ltb cmp Hcmp) as X. pose proof (low_avl ops Hg HL) as HL'.
    destruct (run_avl ops Hg new) as (R1 & R2). rewrite R1, R2. split; [apply (AvlProps.C20_avl_sorted_map _ W' _ X d ops Hd HL')|].
    pose proof (AvlProps.C20_avl_sorted_map _ W' _ X d ops Hd HL') as R3.
    destruct (reach (AvlModel.step (sides cmp) Both d) new ops) as [s|] eqn:Es.
    - exists s. split; [reflexivity|]. apply (AvlProps.C21_avl_heights_exact _ W' _ X d ops s Hd HL' Es).
    - exfalso. clear - R3 Es. revert R3 Es. generalize (srun (smap_spec (fun a b => ltb b a)) [] ops). generalize (@new K V).
      induction ops as [|o ops IH]; intros s l; cbn [run reach]; [discriminate|].
      destruct (AvlModel.step (sides cmp) Both d s o) as [(s', x)|]; [|discriminate]. destruct (run _ s' ops) eqn:Er; [|discriminate]. intros _. apply (IH s' l0 Er).
  Qed.

  Lemma cmp_self k : cmp k k = 0.
  Proof.
    destruct (Hcmp k k) as (H1 & H2). pose proof (wo_irrefl _ W k) as Hi. destruct (Z.lt_trichotomy (cmp k k) 0) as [L|[L|L]]; [|exact L|].
    - apply H1 in L. congruence.
    - apply H2 in L. congruence.
  Qed.

  (** Get, Upsert and Remove do not find the only key there is, for every order, comparator, threshold and key. *)
  Theorem C66_not_found_refuted (k : K) (v w : V) :
    run (step cmp d) new [MPut k v; MGet k] = Some [MBool true; MVal None] /\
    run (step cmp d) new [MPut k v; MUpsert k w] = Some [MBool true; MBool false] /\
    run (step cmp d) new [MPut k v; MRemove k; MSize] = Some [MBool true; MVal None; MNat 1] /\
    forall o, In o [MGet k; MUpsert k w; MRemove k] ->
      run (step cmp d) new [MPut k v; o] <> Some (srun (smap_spec ltb) [] [MPut k v; o]).
  Proof.
    pose proof (cmp_self k) as H0.
    assert (R1 : run (step cmp d) new [MPut k v; MGet k] = Some [MBool true; MVal None]).
    { cbn. unfold get_. cbn. rewrite H0. reflexivity. }
    assert (R2 : run (step cmp d) new [MPut k v; MUpsert k w] = Some [MBool true; MBool false]).
    { cbn. unfold upsert, set. cbn. rewrite H0. reflexivity. }
    assert (R3 : run (step cmp d) new [MPut k v; MRemove k; MSize] = Some [MBool true; MVal None; MNat 1]).
    { cbn. unfold remove_. cbn. rewrite H0. reflexivity. }
    split; [exact R1|]. split; [exact R2|]. split; [exact R3|].
    assert (Hs : same ltb k k = true) by apply (same_refl ltb W).
    intros o [<-|[<-|[<-|[]]]]; [rewrite R1|rewrite R2|].
    - cbn [srun smap_spec]. unfold sames, write, before, after. cbn [filter app fst]. cbn. unfold sames. cbn [filter fst]. rewrite Hs. cbn. discriminate.
    - cbn [srun smap_spec]. unfold sames, write, before, after. cbn [filter app fst]. cbn. unfold sames. cbn [filter fst]. rewrite Hs. cbn. discriminate.
    - assert (R4 : run (step cmp d) new [MPut k v; MRemove k] = Some [MBool true; MVal None]).
      { cbn. unfold remove_. cbn. rewrite H0. reflexivity. }
      rewrite R4. cbn [srun smap_spec]. unfold sames, write, before, after. cbn [filter app fst]. cbn. unfold sames. cbn [filter fst]. rewrite Hs. cbn. discriminate.
  Qed.

  (** Get and Remove find and remove another key than the one asked for, whenever that one is greater. *)
  Theorem C66_wrong_key_refuted (k other : K) (v : V) : ltb k other = true ->
    run (step cmp d) new [MPut k v; MGet other; MRemove other; MSize] = Some [MBool true; MVal (Some v); MVal (Some v); MNat 0] /\
    srun (smap_spec ltb) [] [MPut k v; MGet other; MRemove other; MSize] = [MBool true; MVal None; MVal None; MNat 1].
  Proof.
    intros L. assert (H0 : (cmp k other <? 0) = true) by (apply Z.ltb_lt; apply Hcmp; exact L). split.
    - cbn. unfold get_. cbn. rewrite H0. cbn. unfold remove_. cbn. rewrite H0. reflexivity.
    - cbn [srun smap_spec]. unfold erase, sames, write, before, after. cbn. unfold erase, sames, before, after. cbn.
      unfold same. rewrite L, (lt_asym ltb W _ _ L). cbn. reflexivity.
  Qed.
End Props.

(** With a direction comparator, which get and remove need, Put refuses a smaller new key and takes the same key twice. *)
Theorem C66_direction_refuted {K V} (ltb : K -> K -> bool) (W : weak_order ltb) (cmp : K -> K -> Z) (Hcmp : ex_cmp ltb cmp) (d : Z) (k less : K) (v w : V) :
  1 <= d <= 127 -> ltb less k = true ->
  run (step cmp d) new [MPut k v; MPut less w; MSize] = Some [MBool true; MBool false; MNat 1] /\
  srun (smap_spec ltb) [] [MPut k v; MPut less w; MSize] = [MBool true; MBool true; MNat 2] /\
  run (step cmp d) new [MPut k v; MPut k w] = Some [MBool true; MBool true] /\
  srun (smap_spec ltb) [] [MPut k v; MPut k w] = [MBool true; MBool false].
Proof.
  intros Hd L. pose proof (Hcmp k less) as H1. pose proof (Hcmp k k) as H2. rewrite L in H1. rewrite (wo_irrefl _ W k) in H2. split; [|split; [|split]].
  - cbn. unfold put_. cbn. rewrite H1. reflexivity.
  - cbn. unfold sames, write, before, after, same. cbn. rewrite L, (lt_asym ltb W _ _ L). reflexivity.
  - cbn. unfold put_. cbn. rewrite H2. cbn. destruct (d <=? 1); [reflexivity|]. replace (i8 (- d)) with (- d).
    + replace (1 <=? - d) with false by (symmetry; apply Z.leb_gt; lia). reflexivity.
    + unfold i8. rewrite Z.mod_small by lia. lia.
  - cbn. unfold sames, write, before, after, same. cbn. rewrite (wo_irrefl _ W k). reflexivity.
Qed.
Print Assumptions C66_insertions_sorted_partial.
Print Assumptions C66_not_found_refuted.
Print Assumptions C66_wrong_key_refuted.
Print Assumptions C66_direction_refuted.

Definition sub_cmp (a b : Z) : Z := a - b.
Lemma sub_sign : sign_cmp Z.ltb sub_cmp.
Proof. intros a b. unfold sub_cmp. rewrite !Z.ltb_lt. lia. Qed.
(** Eight insertions, a refused and a replaced one, read back from the greatest key down. *)
Definition insertions : list (sm_op Z Z) :=
  [MPut 5 50; MPut 3 30; MPut 8 80; MPut 1 10; MPut 4 40; MPut 3 31; MSet 8 81; MPut 9 90; MInsertIfAbsent 6 60; MValues; MTraverse (fun l => Nat.ltb (length l) 2); MSize].
Example C66_case : Forall no_get insertions /\ stays_low sub_cmp 2 insertions /\
  run (step sub_cmp 2) new insertions =
    Some [MBool true; MBool true; MBool true; MBool true; MBool true; MBool false; MBool false; MBool true; MBool true;
          MVals [90; 81; 60; 50; 40; 30; 10]; MSeen [(9, 90); (8, 81)]; MNat 7].
Proof.
  split; [repeat constructor|]. split; [|vm_compute; reflexivity].
  intros p q s H Hr. assert (Hp : p = firstn (length p) insertions) by (rewrite H, firstn_app, Nat.sub_diag, firstn_all; cbn; rewrite app_nil_r; reflexivity).
  assert (HL : (length p <= 12)%nat) by (pose proof (f_equal (@length _) H) as X; rewrite app_length in X; cbn in X; lia).
  rewrite Hp in Hr. revert Hr. generalize (length p), HL. clear. intros n HL Hr.
  do 13 (destruct n as [|n]; [vm_compute in Hr; injection Hr as <-; vm_compute; congruence|]). lia.
Qed.
Example C66_case_refuted : (sign_cmp Z.ltb sub_cmp /\ Z.ltb 3 7 = true) /\
  run (step sub_cmp 1) new [MPut 3 30; MPut 7 70; MGet 7; MGet 100] = Some [MBool true; MBool true; MVal None; MVal (Some 70)] /\
  run (step sub_cmp 2) new [MPut 3 30; MPut 7 70; MGet 3; MGet 1] = None /\
  ex_cmp Z.ltb any_ex /\ run (step any_ex 2) new [MPut 3 30; MPut 7 70; MPut 5 50; MSet 4 40; MValues] =
    Some [MBool true; MBool true; MBool false; MBool false; MVals [30; 40]].
Proof.
  split; [split; [exact sub_sign|reflexivity]|]. split; [vm_compute; reflexivity|]. split; [vm_compute; reflexivity|]. split; [exact AvlProps.zcmp_ex|vm_compute; reflexivity].
Qed.
