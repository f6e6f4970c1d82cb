(** Iterators of tree/avl and set/treeset on an unmodified tree (C23). *)
From Verif Require Import Base Bind Machine OrderSpec SMapSpec SMapFacts CompareModel AvlTree AvlSpec AvlModel AvlProofs AvlAny AvlStep
  AvlProps TreeSetProps AvlIterModel AvlIterProofs.
Local Open Scope Z_scope.

Section Props.
  Context {K V : Type} (ltb : K -> K -> bool) (W : weak_order ltb) (cmp : K -> K -> Z) (Hcmp : ex_cmp ltb cmp).

  (** Whatever tree a sequence of calls has built, an iterator made on it behaves, for every further sequence of calls on
      the iterator, like a cursor over the sorted list of entries; no call overruns the stack. *)
  Theorem C23_avl_iterator d (ops : list (sm_op K V)) s : 1 <= d <= 127 -> stays_low cmp d ops ->
    reach (step cmp Both d) new ops = Some s ->
    exists it, newIterator s = Some it /\
      forall cops, run (it_step cmp true) it cops = Some (srun (cursor_spec ltb true (sreach (smap_spec ltb) [] ops)) None cops).
  Proof.
    intros Hd HL HR. destruct (C21_avl_heights_exact ltb W cmp Hcmp d ops s Hd HL HR) as (_ & Hh).
    destruct (reach_any ltb W cmp Hcmp Both d ops new [] s (rel_new ltb) HR) as (E1 & _ & E3). rewrite <- E1.
    apply (it_run ltb W cmp Hcmp s Hh). rewrite E1. exact E3.
  Qed.
  Theorem C23_treeset_iterator (ops : list (sm_op K V)) s : Z.of_nat (length ops) < 2 ^ 64 ->
    reach (step cmp One 2) new ops = Some s ->
    exists it, newIterator s = Some it /\
      forall cops, run (it_step cmp false) it cops = Some (srun (cursor_spec ltb true (sreach (smap_spec ltb) [] ops)) None cops).
  Proof.
    intros Hn HR. destruct (C28_treeset_balanced ltb W cmp Hcmp ops Hn) as (s' & E0 & _ & _ & Hh & _).
    rewrite HR in E0. injection E0 as <-.
    destruct (reach_any ltb W cmp Hcmp One 2 ops new [] s (rel_new ltb) HR) as (E1 & _ & E3). rewrite <- E1.
    apply (it_run ltb W cmp Hcmp s Hh). rewrite E1. exact E3.
  Qed.
End Props.

(** ** what the cursor specification amounts to *)
Section Walks.
  Context {K V : Type} (ltb : K -> K -> bool) (m : list (K * V)).
  (** from the first entry, reading and stepping shows the whole list and then stops being valid; and backwards *)
  Fixpoint walk (next : cu_op K) (n : nat) : list (cu_op K) :=
    match n with O => [CValid] | S n' => CKey :: CValue :: next :: walk next n' end.
  Fixpoint shown (l : list (K * V)) : list (cu_out K V) :=
    match l with [] => [CBool false] | (k, v) :: l' => CK k :: CV v :: CUnit :: shown l' end.
  Lemma walk_next edge : forall b a, m = a ++ b -> m <> [] -> srun (cursor_spec ltb edge m) (Some (len a)) (walk CNext (length b)) = shown b.
  Proof.
    induction b as [|[k v] b IH]; intros a E Hm; cbn [walk length srun cursor_spec fst snd shown].
    - rewrite app_nil_r in E. subst a. unfold entry_at. rewrite Z.ltb_irrefl, andb_false_r. reflexivity.
    - assert (X : entry_at m (Some (len a)) = Some (k, v)).
      { unfold entry_at, len. rewrite E. rewrite app_length. cbn [length].
        destruct (Z.leb_spec 0 (Z.of_nat (length a))); [|lia].
        destruct (Z.ltb_spec (Z.of_nat (length a)) (Z.of_nat (length a + S (length b)))); [|lia]. cbn [andb].
        rewrite Nat2Z.id, nth_error_app2, Nat.sub_diag by lia. reflexivity. }
      rewrite X. cbn [fst snd option_map]. repeat f_equal.
      rewrite <- (IH (a ++ [(k, v)])); [|rewrite <- app_assoc; exact E|exact Hm]. f_equal. f_equal.
      unfold len. rewrite E, !app_length. cbn [length]. lia.
  Qed.
  Lemma walk_prev edge : forall a b, m = rev a ++ b -> m <> [] -> srun (cursor_spec ltb edge m) (Some (len a - 1)) (walk CPrev (length a)) = shown a.
  Proof.
    induction a as [|[k v] a IH]; intros b E Hm; cbn [walk length srun cursor_spec fst snd shown].
    - reflexivity.
    - assert (X : entry_at m (Some (len ((k, v) :: a) - 1)) = Some (k, v)).
      { unfold entry_at, len. rewrite E. cbn [rev length]. rewrite !app_length, rev_length. cbn [length].
        match goal with |- context [?x <=? ?y] => destruct (Z.leb_spec x y); [|lia] end.
        match goal with |- context [?x <? ?y] => destruct (Z.ltb_spec x y); [|lia] end. cbn [andb].
        replace (Z.to_nat (Z.of_nat (S (length a)) - 1)) with (length (rev a)) by (rewrite rev_length; lia).
        rewrite <- app_assoc, nth_error_app2, Nat.sub_diag by lia. reflexivity. }
      rewrite X. cbn [fst snd option_map]. repeat f_equal.
      rewrite <- (IH ((k, v) :: b)); [|rewrite E; cbn [rev]; rewrite <- app_assoc; reflexivity|exact Hm]. f_equal. f_equal.
      unfold len. cbn [length]. lia.
  Qed.
  (** SeekToFirst and Next see every entry once, in order; SeekToLast and Prev see them in the opposite order *)
  Theorem C23_full_walk edge : m <> [] ->
    srun (cursor_spec ltb edge m) None (CFirst :: walk CNext (length m)) = CUnit :: shown m /\
    srun (cursor_spec ltb edge m) None (CLast :: walk CPrev (length m)) = CUnit :: shown (rev m).
  Proof.
    intros Hm. cbn [srun cursor_spec fst snd]. assert (G : forall i, goto m i = Some i) by (destruct m; [congruence|reflexivity]).
    rewrite !G. split; f_equal.
    - apply (walk_next edge m []); auto.
    - pose proof (walk_prev edge (rev m) []) as X. unfold len in *. rewrite rev_length, rev_involutive, app_nil_r in X. auto.
  Qed.
End Walks.
Print Assumptions C23_avl_iterator.
Print Assumptions C23_treeset_iterator.
Print Assumptions C23_full_walk.

(** ** examples *)
Definition walk_ops : list (cu_op Z) :=
  [CKey; CGE 4; CKey; CPrev; CKey; CClone; CNext; CNext; CValue; CGT 50; CValid; CPrev; CKey; CLT 10; CValid; CNext; CKey;
   CLE 20; CKey; CLast; CNext; CNext; CPrev; CValue].
Example C23_case : exists s it, reach (step any_ex Both 1) new (map (fun k => MPut k (k + 1)) [30; 10; 50; 20; 40]) = Some s /\
  newIterator s = Some it /\ stays_low any_ex 1 (map (fun k => MPut k (k + 1)) [30; 10; 50; 20; 40]) /\
  run (it_step any_ex true) it walk_ops =
    Some [CPanic; CBool false; CK 10; CUnit; CPanic; CUnit; CUnit; CUnit; CV 21; CBool true; CBool false; CUnit; CK 50; CBool true; CBool false;
          CUnit; CK 10; CBool true; CK 20; CUnit; CUnit; CUnit; CUnit; CV 51].
Proof.
  eexists. eexists. split; [vm_compute; reflexivity|]. split; [vm_compute; reflexivity|]. split.
  - apply (stays_low_short Z.ltb Zltb_weak any_ex zcmp_ex). cbn. lia.
  - vm_compute. reflexivity.
Qed.
Example C23_treeset_case : exists s it, reach (step any_ex One 2) new (map (fun k => MPut k (k + 1)) [30; 10; 50; 20; 40]) = Some s /\
  newIterator s = Some it /\
  run (it_step any_ex false) it walk_ops = Some (srun (cursor_spec Z.ltb true [(10, 11); (20, 21); (30, 31); (40, 41); (50, 51)]) None walk_ops).
Proof. eexists. eexists. split; [vm_compute; reflexivity|]. split; [vm_compute; reflexivity|]. vm_compute. reflexivity. Qed.
