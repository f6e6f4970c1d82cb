(** C77: the methods of /repo/api_standard.md (InsertIfAbsent, Upsert, Delete, Len) mean the same in every package that offers
    them. *)
From Verif Require Import Base Bind Machine OrderSpec SMapSpec SMapFacts StdSpec StdProofs.
From Verif Require AvlTree HashSpec HashModel HashProps GoMap LinkedHashModel LinkedHashProps AvlModel AvlAny AvlProps TreeSetProps AvlsModel AvlsProps
  IndexModel IndexProps OrderedMapModel OrderedMapProps PrioModel PrioProps ExpModel ExpProps CompareModel.
Local Open Scope Z_scope.

(** What the standard calls answer, container by container; [None] is a panic. *)
Section Answers.
  Context {K V : Type}.
  Notation E := AvlTree.E.
  Implicit Types ops : list (std_op K V).
  (** map/hashmap *)
  Definition std_hashmap (keq : K -> K -> bool) (nilk : K) (nilv : V) (order : nat -> GoMap.gmap K V -> GoMap.gmap K V) ops :=
    option_map (map hout) (run (HashModel.step keq nilk nilv order) HashModel.new (map hop ops)).
  (** map/linkedhashmap *)
  Definition std_linkedhashmap (keq : K -> K -> bool) (nilk : K) (nilv : V) ops :=
    option_map (map lout) (LinkedHashModel.run_all keq nilk nilv (map lop ops)).
  (** tree/avl, with the threshold given to NewEx (New: 1) *)
  Definition std_avl (cmp : K -> K -> Z) (d : Z) ops :=
    option_map (map mout) (run (AvlModel.step cmp AvlTree.Both d) AvlModel.new (map mop ops)).
  (** set/treeset *)
  Definition std_treeset (cmp : K -> K -> Z) ops :=
    option_map (map mout) (run (AvlModel.step cmp AvlTree.One 2) AvlModel.new (map mop ops)).
  (** tree/avls *)
  Definition std_avls (cmp : K -> K -> Z) ops := option_map (map mout) (run (AvlsModel.mstep cmp 2) AvlModel.new (map mop ops)).
  (** queue/priority *)
  Definition std_priority (cmp : K -> K -> Z) ops := option_map (map qout) (run (PrioModel.pq_step cmp) E (map qop ops)).
  (** tree/indextree, values other than nil *)
  Definition std_indextree (cmp : K -> K -> Z) (shift : Z) ops := Some (map xout (srun (IndexModel.step cmp shift) E (map xop ops))).
  (** map/orderedmap.go, values other than nil *)
  Definition std_orderedmap (cmp : K -> K -> Z) (shift : Z) (zk : K) (zv : option V) ops :=
    Some (map oout (srun (OrderedMapModel.omstep cmp shift zk zv) E (map oop ops))).
  (** tree/indextree/experiment *)
  Definition std_experiment (cmp : K -> K -> Z) (d : Z) ops :=
    option_map (map mout) (run (ExpModel.step cmp d) AvlModel.new (map mop ops)).
End Answers.

Section Props.
  Context {K V : Type}.

  (** Hash maps compare keys with ==. *)
  Theorem C77_hashmap (keq : K -> K -> bool) nilk (nilv : V) order : (forall a b, keq a b = true <-> a = b) ->
    (forall n m, Permutation (order n m) m) ->
    forall ops, std_hashmap keq nilk nilv order ops = Some (srun (std_spec keq) [] ops).
  Proof.
    intros Hk Ho ops. destruct (HashProps.C18_hashmap_is_finite_map K V keq nilk nilv order Hk Ho (map hop ops)) as (rs & E1 & E2).
    unfold std_hashmap. rewrite E1. cbn [option_map]. f_equal. exact (hm_std_run keq Hk ops _ _ rs (frel_nil keq) E2).
  Qed.
  Theorem C77_linkedhashmap (keq : K -> K -> bool) nilk (nilv : V) : (forall a b, keq a b = true <-> a = b) ->
    forall ops, std_linkedhashmap keq nilk nilv ops = Some (srun (std_spec keq) [] ops).
  Proof.
    intros Hk ops. unfold std_linkedhashmap. rewrite (LinkedHashProps.C19_linkedhashmap_association_list K V keq nilk nilv Hk).
    cbn [option_map]. f_equal. apply (lh_std_run keq Hk).
  Qed.

  (** Ordered containers compare keys with their comparison function. *)
  Context (ltb : K -> K -> bool) (W : weak_order ltb) (cmp : K -> K -> Z).
  Theorem C77_avl d (ops : list (std_op K V)) : ex_cmp ltb cmp -> 1 <= d <= 127 -> AvlProps.stays_low cmp d (map mop ops) ->
    std_avl cmp d ops = Some (srun (std_spec (same ltb)) [] ops).
  Proof.
    intros Hc Hd HL. unfold std_avl. rewrite (AvlProps.C20_avl_sorted_map ltb W cmp Hc d (map mop ops) Hd HL).
    cbn [option_map]. f_equal. apply (smap_std_run ltb W).
  Qed.
  (** Without the bound on the height: an answer that is given is right. *)
  Theorem C77_avl_answers_right d (ops : list (std_op K V)) rs : ex_cmp ltb cmp ->
    std_avl cmp d ops = Some rs -> rs = srun (std_spec (same ltb)) [] ops.
  Proof.
    intros Hc. unfold std_avl. destruct (run _ _ _) as [l|] eqn:E1; cbn [option_map]; [|discriminate]. intros H. injection H as <-.
    rewrite (AvlProps.C20_avl_answers_right ltb W cmp Hc d _ l E1). apply (smap_std_run ltb W).
  Qed.
  Theorem C77_treeset (ops : list (std_op K V)) : ex_cmp ltb cmp -> Z.of_nat (length ops) < 2 ^ 64 ->
    std_treeset cmp ops = Some (srun (std_spec (same ltb)) [] ops).
  Proof.
    intros Hc Hn. unfold std_treeset. rewrite (TreeSetProps.C27_treeset_sorted_map ltb W cmp Hc) by (rewrite map_length; exact Hn).
    cbn [option_map]. f_equal. apply (smap_std_run ltb W).
  Qed.
  Theorem C77_avls (ops : list (std_op K V)) : ex_cmp ltb cmp -> Z.of_nat (length ops) < 2 ^ 64 ->
    std_avls cmp ops = Some (srun (std_spec (same ltb)) [] ops).
  Proof.
    intros Hc Hn. unfold std_avls. rewrite (AvlsProps.C24_avls_stable_multimap ltb W cmp Hc) by (rewrite map_length; exact Hn).
    cbn [option_map]. f_equal. apply (mmap_std_run ltb W).
  Qed.
  Theorem C77_priority (ops : list (std_op K V)) : ex_cmp ltb cmp ->
    std_priority cmp ops = Some (srun (std_spec (same ltb)) [] ops).
  Proof.
    intros Hc. unfold std_priority. rewrite (PrioProps.C40_stable_queue_without_remove_index ltb W cmp Hc).
    - cbn [option_map]. f_equal. apply (pq_std_run ltb W).
    - intros i Hi. apply in_map_iff in Hi. destruct Hi as (o & Ho & _). destruct o; discriminate Ho.
  Qed.
  Theorem C77_indextree shift (ops : list (std_op K V)) : plain_cmp ltb cmp -> 0 <= shift ->
    std_indextree cmp shift ops = Some (srun (std_spec (same ltb)) [] ops).
  Proof.
    intros Hc Hs. unfold std_indextree. destruct (ix_std_fine ltb ops []) as (X & Y).
    rewrite (IndexProps.C30_indextree_sorted_map_partial ltb W cmp Hc shift Hs _ X Y). f_equal. apply (ix_std_run ltb W).
  Qed.
  Theorem C77_orderedmap shift zk zv (ops : list (std_op K V)) : plain_cmp ltb cmp -> 0 <= shift ->
    std_orderedmap cmp shift zk zv ops = Some (srun (std_spec (same ltb)) [] ops).
  Proof.
    intros Hc Hs. unfold std_orderedmap.
    rewrite (OrderedMapProps.C35_ordered_map_partial ltb W cmp Hc shift Hs zk zv _ (om_std_fine ltb zk zv ops [])). f_equal.
    apply (om_std_run ltb W).
  Qed.
End Props.

(** Where keys that compare equal are equal, any of these containers can replace any other: the same standard calls get the same
    answers from all of them.  [cmp] and [cmp'] are the comparison functions of the two families (see [ex_cmp], [plain_cmp]). *)
Theorem C77_interchangeable {K V : Type} (ltb : K -> K -> bool) (W : weak_order ltb) (cmp cmp' : K -> K -> Z)
    (keq : K -> K -> bool) nilk nilv order shift zk zv (ops : list (std_op K V)) :
  ex_cmp ltb cmp -> plain_cmp ltb cmp' -> 0 <= shift -> (forall a b, keq a b = true <-> a = b) ->
  (forall a b, same ltb a b = true <-> a = b) -> (forall n m, Permutation (order n m) m) ->
  AvlProps.stays_low cmp 1 (map mop ops) -> Z.of_nat (length ops) < 2 ^ 64 ->
  exists answers, Forall (fun got => got = Some answers)
    [std_hashmap keq nilk nilv order ops; std_linkedhashmap keq nilk nilv ops; std_avl cmp 1 ops; std_treeset cmp ops;
     std_avls cmp ops; std_priority cmp ops; std_indextree cmp' shift ops; std_orderedmap cmp' shift zk zv ops].
Proof.
  intros Hc Hc' Hs Hk He Ho HL Hn. exists (srun (std_spec keq) [] ops).
  assert (X : srun (std_spec (same ltb)) [] ops = srun (std_spec keq) [] ops).
  { apply std_spec_eqb. intros a b. specialize (Hk a b). specialize (He a b). destruct (same ltb a b), (keq a b); intuition congruence. }
  repeat apply Forall_cons; [| | | | | | | |apply Forall_nil]; try rewrite <- X.
  - rewrite X. apply C77_hashmap; assumption.
  - rewrite X. apply C77_linkedhashmap; assumption.
  - apply (C77_avl ltb W); [assumption|lia|assumption].
  - apply (C77_treeset ltb W); assumption.
  - apply (C77_avls ltb W); assumption.
  - apply (C77_priority ltb W); assumption.
  - apply (C77_indextree ltb W); assumption.
  - apply (C77_orderedmap ltb W); assumption.
Qed.

Print Assumptions C77_hashmap.
Print Assumptions C77_linkedhashmap.
Print Assumptions C77_avl.
Print Assumptions C77_avl_answers_right.
Print Assumptions C77_treeset.
Print Assumptions C77_avls.
Print Assumptions C77_priority.
Print Assumptions C77_indextree.
Print Assumptions C77_orderedmap.
Print Assumptions C77_interchangeable.

(** ** where it does not hold
    nil is a value of an interface type.  tree/indextree stores it and finds it, but Delete says that it was not there. *)
Theorem C77_nil_refuted : exists ops : list (IndexSpec.ix_op Z Z),
  srun (IndexModel.step CompareModel.any 0) AvlTree.E ops =
    [IndexSpec.XBool true; IndexSpec.XFound None true; IndexSpec.XFound None false] /\
  ops = [IndexSpec.XInsertIfAbsent 1 None; IndexSpec.XGet 1; IndexSpec.XDelete 1].
Proof. eexists. split; [|reflexivity]. vm_compute. reflexivity. Qed.
(** tree/indextree/experiment does not keep the contract: after an insertion, Upsert takes the key for absent. *)
Theorem C77_experiment_refuted : forall d, exists ops : list (std_op Z Z),
  ops = [StdInsertIfAbsent 1 10; StdUpsert 1 11] /\
  std_experiment ExpProps.sub_cmp d ops = Some [StdBool true; StdBool false] /\
  srun (std_spec (same Z.ltb)) [] ops = [StdBool true; StdBool true].
Proof.
  intros d. eexists. split; [reflexivity|]. split; [|reflexivity]. unfold std_experiment.
  destruct (ExpProps.C66_not_found_refuted Z.ltb Zltb_weak ExpProps.sub_cmp ExpProps.sub_sign d 1 10 11) as (_ & X & _).
  exact (f_equal (option_map (map mout)) X).
Qed.
(** The legacy Set says the opposite in tree/avl of what it says in map/orderedmap.go: no contract covers it. *)
Theorem C77_legacy_set_refuted : exists (k v w : Z) b,
  run (AvlModel.step CompareModel.any_ex AvlTree.Both 1) AvlModel.new [MInsertIfAbsent k v; MSet k w] = Some [MBool true; MBool b] /\
  srun (OrderedMapModel.omstep CompareModel.any 0 0 (Some 0)) AvlTree.E [OrderedMapSpec.OInsertIfAbsent k (Some v); OrderedMapSpec.OSet k (Some w)] =
    [OrderedMapSpec.OBool true; OrderedMapSpec.OBool (negb b)].
Proof. exists 1, 10, 20, false. split; vm_compute; reflexivity. Qed.
Print Assumptions C77_nil_refuted.
Print Assumptions C77_experiment_refuted.
Print Assumptions C77_legacy_set_refuted.

(** ** examples *)
Definition std_calls : list (std_op Z Z) :=
  [StdInsertIfAbsent 5 50; StdInsertIfAbsent 3 30; StdInsertIfAbsent 5 51; StdUpsert 8 80; StdUpsert 3 31; StdGet 3; StdGet 5; StdLen;
   StdDelete 5; StdDelete 5; StdGet 5; StdLen; StdClear; StdLen; StdUpsert 5 52; StdDelete 5].
Definition std_answers : list (std_out Z) :=
  [StdBool true; StdBool true; StdBool false; StdBool false; StdBool true; StdVal (Some 31); StdVal (Some 50); StdNum 3;
   StdVal (Some 50); StdVal None; StdVal None; StdNum 2; StdUnit; StdNum 0; StdBool false; StdVal (Some 52)].
(** The hypotheses are met, and all containers answer this. *)
Example C77_case_keys : (forall a b, (a =? b) = true <-> a = b) /\ (forall a b, same Z.ltb a b = true <-> a = b) /\
  ex_cmp Z.ltb CompareModel.any_ex /\ plain_cmp Z.ltb CompareModel.any /\ weak_order Z.ltb.
Proof.
  split; [apply Z.eqb_eq|]. split; [|split; [apply AvlProps.zcmp_ex|split; [|apply Zltb_weak]]].
  - intros a b. unfold same. rewrite andb_true_iff, !negb_true_iff, !Z.ltb_ge. lia.
  - apply IndexProps.any_plain.
Qed.
Example C77_case_low : AvlProps.stays_low CompareModel.any_ex 1 (map mop std_calls).
Proof. apply (AvlProps.stays_low_short Z.ltb Zltb_weak CompareModel.any_ex AvlProps.zcmp_ex). cbn. lia. Qed.
Example C77_case : Forall (fun got => got = Some std_answers)
  [std_hashmap Z.eqb 0 0 (fun n m => m) std_calls; std_linkedhashmap Z.eqb 0 0 std_calls; std_avl CompareModel.any_ex 1 std_calls;
   std_treeset CompareModel.any_ex std_calls; std_avls CompareModel.any_ex std_calls; std_priority CompareModel.any_ex std_calls;
   std_indextree CompareModel.any 0 std_calls; std_orderedmap CompareModel.any 0 0 (Some 0) std_calls] /\
  srun (std_spec Z.eqb) [] std_calls = std_answers.
Proof. split; [|reflexivity]. repeat apply Forall_cons; [| | | | | | | |apply Forall_nil]; vm_compute; reflexivity. Qed.
