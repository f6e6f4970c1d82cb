(** tree/treelist: Intersection, UnionSets, DifferenceSets (C38). *)
From Verif Require Import Base Bind Machine OrderSpec SMapSpec SMapFacts CompareModel AvlTree AvlSpec IndexSpec IndexModel IndexProofs IndexProps
  TreelistSpec TreelistModel TreelistLinks TreelistProofs TreelistSteps TreelistProps TreelistSetModel TreelistSetProofs.
Local Open Scope Z_scope.

Definition is_result {K V : Type} (ltb : K -> K -> bool) (op : set_op) (m1 m2 m : list (K * V)) : Prop :=
  match op with
  | Intersection => is_intersection ltb m1 m2 m
  | Union => is_union ltb m1 m2 m
  | Difference => is_difference ltb m1 m2 m
  end.

Section Props.
  Context {K V : Type} (ltb : K -> K -> bool) (W : weak_order ltb) (cmp : K -> K -> Z) (Hcmp : plain_cmp ltb cmp).
  Notation grown ops := (sreach (tl_step cmp) (new (K := K) (V := V)) ops).
  Notation content ops := (sreach (tl_spec ltb) (@nil (K * V)) ops).
  Notation stale ops := (stale_run ltb false (@nil (K * V)) ops).
  Definition reached (ops : list (tl_op K V)) : Prop := puts_work cmp ops /\ trims_inside ltb [] ops /\ stale ops = false.

  (** The result is a new tree list with exactly the entries asked for, those of both lists being the receiver's, in
      order, threaded and with right sizes; and it goes on answering as a tree list should.  (The arguments are only
      read: no function of the model could change them.)  Full statement: for all tree lists.  Missing: lists emptied by
      Trim, whose stale ends are followed (below), and what C36 excludes. *)
  Theorem C38_set_operations_partial op (ops1 ops2 : list (tl_op K V)) : reached ops1 -> reached ops2 ->
    exists s m, setOperation cmp op (grown ops1) (grown ops2) = Some s /\
      is_result ltb op (content ops1) (content ops2) m /\ consistent ltb s m /\
      forall ops, trims_inside ltb m ops -> ends_ok ltb false m ops ->
        (forall ops1 o ops2, ops = ops1 ++ o :: ops2 -> ~ put_fails o (snd (tl_step cmp (sreach (tl_step cmp) s ops1) o))) ->
        srun (tl_step cmp) s ops = srun (tl_spec ltb) m ops.
  Proof.
    intros (P1 & T1 & S1) (P2 & T2 & S2).
    pose proof (grown_rel ltb W cmp Hcmp ops1 P1 T1) as R1. pose proof (grown_rel ltb W cmp Hcmp ops2 P2 T2) as R2. rewrite S1 in R1. rewrite S2 in R2.
    destruct (merge_ok ltb W cmp Hcmp op (content ops1) (content ops2)) as (M1 & M2); [apply R1|apply R2|].
    destruct (setOperation_ok ltb cmp op _ _ _ _ R1 R2 M1) as (s & E1 & E2).
    exists s, (merge cmp op (content ops1) (content ops2)). split; [exact E1|]. split; [destruct op; exact (conj M1 M2)|].
    split; [apply rel_consistent; exact E2|]. intros ops Ht He Hp. apply (run_ok ltb W cmp Hcmp ops false s _ E2 Ht Hp). exact He.
  Qed.
End Props.
Print Assumptions C38_set_operations_partial.

(** The list emptied by Trim still leads to the removed entry; its union with a list reads it. *)
Theorem C38_stale_refuted : exists ops1 ops2 : list (tl_op Z Z), exists x,
  trims_inside Z.ltb [] (ops1 ++ ops2) /\ sreach (tl_spec Z.ltb) [] ops1 = [] /\
  let s := sreach (tl_step any) new ops1 in
  top s = E /\ e (lks s) false = Some x /\ setOperation any Union s (sreach (tl_step any) new ops2) = None.
Proof. exists [TPut 1 1; TTrim 5 6], [TPut 2 2], 0%nat. vm_compute. repeat split; auto. Qed.
Print Assumptions C38_stale_refuted.

Definition set_case (op : set_op) : option (list (Z * Z) * Z * tl_out Z Z) :=
  option_map (fun s => (map plainKV (elems (top s)), getSize (top s), snd (tl_step any s TTail)))
    (setOperation any op (sreach (tl_step any) new (tputs [5; 1; 9; 3; 7; 2; 8]))
       (sreach (tl_step any) new (map (fun k => TPut k 0) [4; 9; 2; 11; 5; 0] ++ [TRemove 4]))).
Example C38_case : set_case Intersection = Some ([(2, 20); (5, 50); (9, 90)], 3, TSlice (Some (9, 90))) /\
  set_case Union = Some ([(0, 0); (1, 10); (2, 20); (3, 30); (5, 50); (7, 70); (8, 80); (9, 90); (11, 0)], 9, TSlice (Some (11, 0))) /\
  set_case Difference = Some ([(1, 10); (3, 30); (7, 70); (8, 80)], 4, TSlice (Some (8, 80))).
Proof. vm_compute. repeat split; reflexivity. Qed.
Example C38_reached : reached Z.ltb any (tputs [5; 1; 9; 3; 7; 2; 8]) /\
  reached Z.ltb any (map (fun k => TPut k 0) [4; 9; 2; 11; 5; 0] ++ [TRemove 4]).
Proof. split; (split; [apply puts_checked; vm_compute; reflexivity|]; vm_compute; auto 20). Qed.
