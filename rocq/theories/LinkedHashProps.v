(** C19: the linked hash map is an association list with distinct keys, in insertion / move order. *)
From Verif Require Import Base Bind Machine GoMap LinkedHashSpec LinkedHashModel LinkedHashProofs.

Theorem C19_linkedhashmap_association_list :
  forall (K V : Type) (keq : K -> K -> bool) (nilk : K) (nilv : V), (forall a b, keq a b = true <-> a = b) ->
  forall ops, run_all keq nilk nilv ops = Some (srun (lh_spec keq) [] ops).
Proof.
  intros K V keq nilk nilv Hk ops. unfold run_all. destruct (new_rel keq nilk nilv) as (m & -> & HR).
  apply (sim_run _ _ (Rel keq)); [|assumption]. intros s t o H. apply step_ok; assumption.
Qed.

(** No key is ever listed twice, and the hash index never disagrees with the chain: in every reachable state, Get
    finds exactly the listed pairs and Size is the number of listed pairs. *)
Theorem C19_linkedhashmap_index_agrees :
  forall (K V : Type) (keq : K -> K -> bool) (nilk : K) (nilv : V), (forall a b, keq a b = true <-> a = b) ->
  forall m0 ops m, new nilk nilv = Some m0 -> reach (step keq nilk nilv) m0 ops = Some m ->
  exists l, slices m = Some l /\ NoDup (map fst l) /\ size m = length l /\
            (forall k v, get keq m k = Some (Some v) <-> In (k, v) l) /\
            (forall k, get keq m k = Some None <-> ~ In k (map fst l)).
Proof.
  intros K V keq nilk nilv Hk m0 ops m E0 Er. destruct (new_rel keq nilk nilv) as (m0' & E & HR).
  assert (m0' = m0) by congruence. subst m0'.
  destruct (sim_reach _ _ (Rel keq) (fun s t o H => step_ok keq nilk nilv Hk s t o H) ops m0 [] HR)
    as (m' & Er' & HR'). assert (m' = m) by congruence. subst m'.
  set (l := sreach (lh_spec keq) [] ops) in *. exists l.
  pose proof (keys_distinct keq m l HR') as Hn.
  assert (Hget : forall k, get keq m k = Some (lookup keq l k)) by (intros; now apply get_ok).
  assert (Hyes : forall k v, In (k, v) l -> lookup keq l k = Some v).
  { intros k v Hin. apply in_split in Hin as (l1 & l2 & El). rewrite El in *. now apply lookup_present. }
  split. { unfold slices. rewrite (walk_all_ok keq nilk Hk (fun e => e) m l HR'), map_id. reflexivity. }
  split; [assumption|]. split; [eapply size_ok; eassumption|]. split.
  - intros k v. rewrite Hget. split.
    + intros [= Ev]. destruct (has keq l k) eqn:Eh.
      * apply existsb_exists in Eh as ([k' v'] & Hin & Ek). apply Hk in Ek. simpl in Ek. subst k'.
        rewrite (Hyes _ _ Hin) in Ev. congruence.
      * exfalso. unfold lookup in Ev. destruct (find _ l) as [e|] eqn:Ef; [|discriminate].
        apply find_some in Ef as [Hin Ek]. assert (has keq l k = true) by (apply existsb_exists; eauto). congruence.
    + intros Hin. f_equal. auto.
  - intros k. rewrite Hget. split.
    + intros [= Ev] Hin. apply in_map_iff in Hin as ([k' v'] & Ek & Hin). simpl in Ek. subst k'.
      rewrite (Hyes _ _ Hin) in Ev. discriminate.
    + intros Hni. now rewrite (lookup_absent keq Hk).
Qed.

Example linkedhashmap_run :
  run_all Nat.eqb 0 0
    [LPut 1 10; LPut 2 20; LPushFront 3 30; LKeys; LSetBack 3 33; LSetFront 2 22; LSlices; LPut 1 99; LUpsert 1 11;
     LUpsert 4 40; LSet 5 50; LRemove 2; LDelete 2; LKeys; LValues; LSize; LClear; LSetFront 7 70; LSlices] =
  Some [LBool true; LBool true; LBool true; LKeyList [3; 1; 2]; LBool true; LBool true;
        LPairs [(2, 22); (1, 10); (3, 33)]; LBool false; LBool true; LBool false; LBool false; LVal (Some 22);
        LVal None; LKeyList [1; 3; 4]; LValList [11; 33; 40]; LNat 3; LUnit; LBool false; LPairs [(7, 70)]].
Proof. reflexivity. Qed.
Example linkedhashmap_reached :
  exists m0 m, new 0 0 = Some m0 /\
    reach (step Nat.eqb 0 0) m0 [LPut 1 10; LPushFront 2 20; LSetBack 2 21] = Some m /\
    slices m = Some [(1, 10); (2, 21)].
Proof. do 2 eexists. repeat split; reflexivity. Qed.

Print Assumptions C19_linkedhashmap_association_list.
Print Assumptions C19_linkedhashmap_index_agrees.
