(** C62: floating-point keys. *)
From Coq Require Import QArith.
From Verif Require Import Base Bind Machine OrderSpec SMapSpec SMapFacts AvlTree AvlSpec IndexSpec IndexModel IndexProofs IndexProps
  FloatModel.
From Verif Require GoMap HashSpec HashModel LinkedHashSpec LinkedHashModel AvlModel.
Local Open Scope Z_scope.

Lemma nlt_fin s p t q : nlt (Fin s p) (Fin t q) = true <-> (value s p < value t q)%Q.
Proof.
  cbn [nlt]. destruct (Qle_bool (value t q) (value s p)) eqn:E; cbn [negb].
  - apply Qle_bool_iff in E. split; [discriminate|]. intros H. destruct (Qlt_not_le _ _ H E).
  - split; [|reflexivity]. intros _. apply Qnot_le_lt. intros H. apply Qle_bool_iff in H. congruence.
Qed.
Lemma nlt_fin_f s p t q : nlt (Fin s p) (Fin t q) = false <-> (value t q <= value s p)%Q.
Proof.
  pose proof (nlt_fin s p t q) as H. destruct (nlt (Fin s p) (Fin t q)).
  - split; [discriminate|]. intros X. destruct (Qlt_not_le _ _ (proj1 H eq_refl) X).
  - split; [|reflexivity]. intros _. apply Qnot_lt_le. intros X. apply H in X. discriminate.
Qed.
Lemma nlt_weak : weak_order nlt.
Proof.
  split.
  - intros [s|s p]; [destruct s; reflexivity|]. apply nlt_fin_f. apply Qle_refl.
  - intros a b c. destruct a as [s|s p], b as [t|t q], c as [u|u r].
    8:{ rewrite !nlt_fin. apply Qlt_trans. }
    all: try destruct s; try destruct t; try destruct u; cbn [nlt andb negb]; intros; try reflexivity; discriminate.
  - intros a b c. destruct a as [s|s p], b as [t|t q], c as [u|u r].
    8:{ rewrite !nlt_fin. intros H. destruct (Qlt_le_dec (value s p) (value t q)) as [X|X]; [left; exact X|right; exact (Qle_lt_trans _ _ _ X H)]. }
    all: try destruct s; try destruct t; try destruct u; cbn [nlt andb negb]; intros; auto; discriminate.
Qed.
Lemma same_neq a b : same nlt a b = neq a b.
Proof.
  unfold same. destruct a as [s|s p], b as [t|t q].
  4:{ cbn [neq]. pose proof (nlt_fin_f s p t q) as H1. pose proof (nlt_fin_f t q s p) as H2. pose proof (nlt_fin s p t q) as H3. pose proof (nlt_fin t q s p) as H4.
      destruct (Qeq_bool (value s p) (value t q)) eqn:E.
      - apply Qeq_bool_iff in E. rewrite (proj2 H1), (proj2 H2); [reflexivity| |]; rewrite E; apply Qle_refl.
      - destruct (nlt (Fin s p) (Fin t q)) eqn:E1; [reflexivity|]. destruct (nlt (Fin t q) (Fin s p)) eqn:E2; [reflexivity|].
        exfalso. assert (X : (value s p == value t q)%Q) by (apply Qle_antisym; [apply H2|apply H1]; reflexivity).
        apply Qeq_bool_iff in X. congruence. }
  all: try destruct s; try destruct t; reflexivity.
Qed.
Lemma reverse_weak {K} (lt : K -> K -> bool) : weak_order lt -> weak_order (fun a b => lt b a).
Proof. intros [H1 H2 H3]. split; [exact H1|intros a b c X Y; exact (H2 _ _ _ Y X)|intros a b c X; destruct (H3 _ b _ X); auto]. Qed.

(** On numbers, infinities and the two zeros included, Any, AnyEx and AnyDesc are comparators for an order (the reverse one
    for AnyDesc), in which finite numbers stand by their values and keys are equivalent exactly if they are ==.  What is
    proved about the containers for all orders therefore holds for keys of this kind. *)
Theorem C62_numbers_partial :
  weak_order nlt /\ weak_order (fun a b => nlt b a) /\
  plain_cmp nlt (anyBy nlt) /\ ex_cmp nlt (anyExBy nlt) /\ plain_cmp (fun a b => nlt b a) (anyDescBy nlt) /\
  (forall a b, same nlt a b = neq a b) /\
  (forall s p t q, nlt (Fin s p) (Fin t q) = true <-> (value s p < value t q)%Q).
Proof.
  split; [exact nlt_weak|]. split; [exact (reverse_weak _ nlt_weak)|].
  assert (A : forall a b, nlt a b = true -> nlt b a = false) by (apply (lt_asym nlt nlt_weak)).
  split; [|split; [|split; [|split; [exact same_neq|exact nlt_fin]]]].
  - intros a b. unfold anyBy. destruct (nlt b a) eqn:E1, (nlt a b) eqn:E2; try reflexivity. rewrite (A _ _ E1) in E2. discriminate.
  - intros a b. unfold anyExBy. reflexivity.
  - intros a b. unfold anyDescBy. reflexivity.
Qed.
Print Assumptions C62_numbers_partial.

(** for instance: index trees with such keys *)
Theorem C62_indextree_partial {A : Type} (shift : Z) (ops : list (ix_op number A)) : 0 <= shift ->
  trims_in_range nlt [] ops -> all_answered nlt [] ops ->
  srun (step (anyBy nlt) shift) E ops = srun (ix_spec nlt) [] ops.
Proof. intros Hs. apply (C30_indextree_sorted_map_partial nlt nlt_weak _ (proj1 (proj2 (proj2 C62_numbers_partial))) shift Hs). Qed.
Print Assumptions C62_indextree_partial.

(** With NaN among the keys there is no order that Any or AnyEx is a comparator for: NaN is equivalent to everything. *)
Definition one : float := Num (Fin false 1%Q).
Definition two : float := Num (Fin false 2%Q).
Theorem C62_nan_refuted :
  (~ exists ltb, weak_order ltb /\ sign_cmp ltb (anyBy flt)) /\ (~ exists ltb, weak_order ltb /\ ex_cmp ltb (anyExBy flt)).
Proof.
  split; intros (ltb & W & H).
  - destruct (H one two) as (H1 & _). assert (L : ltb one two = true) by (apply H1; reflexivity).
    destruct (wo_split _ W _ NaN _ L) as [X|X]; apply (H _ _) in X; discriminate X.
  - assert (L : ltb one two = true).
    { specialize (H one two). change (anyExBy flt one two) with 1 in H. destruct (ltb two one); [discriminate|]. destruct (ltb one two); [reflexivity|discriminate]. }
    destruct (wo_split _ W _ NaN _ L) as [X|X].
    + specialize (H one NaN). rewrite X in H. change (anyExBy flt one NaN) with (-1) in H. destruct (ltb NaN one); discriminate.
    + specialize (H NaN two). rewrite X in H. change (anyExBy flt NaN two) with (-1) in H. destruct (ltb two NaN); discriminate.
Qed.
Print Assumptions C62_nan_refuted.

(** After NaN has been put into an index tree or an AVL tree, 1 cannot be put in; asked for 1, the tree answers with the
    value of NaN, and Remove(1) removes NaN. *)
Theorem C62_tree_nan_refuted :
  srun (step (anyBy flt) 2) E [XPut NaN (Some 7); XPut one (Some 8); XGet one; XRemove one; XSize] =
    [XBool true; XBool false; XFound (Some 7) true; XVal (Some 7); XNum 0] /\
  run (AvlModel.step (anyExBy flt) Both 1) AvlModel.new [MPut NaN 7; MPut one 8; MGet one; MRemove one; MSize] =
    Some [MBool true; MBool false; MVal (Some 7); MVal (Some 7); MNat 0].
Proof. split; vm_compute; reflexivity. Qed.
Print Assumptions C62_tree_nan_refuted.

(** A hash map and a linked hash map take NaN in again and again, do not find it and cannot remove it. *)
Theorem C62_hash_nan_refuted :
  run (HashModel.step feq NaN 0 (fun _ m => m)) HashModel.new
    [HashSpec.HPut NaN 7; HashSpec.HPut NaN 8; HashSpec.HGet NaN; HashSpec.HRemove NaN; HashSpec.HSize] =
    Some [HashSpec.HBool true; HashSpec.HBool true; HashSpec.HVal None; HashSpec.HUnit; HashSpec.HNat 2] /\
  LinkedHashModel.run_all feq NaN 0
    [LinkedHashSpec.LPut NaN 7; LinkedHashSpec.LPut NaN 8; LinkedHashSpec.LGet NaN; LinkedHashSpec.LRemove NaN; LinkedHashSpec.LKeys] =
    Some [LinkedHashSpec.LBool true; LinkedHashSpec.LBool true; LinkedHashSpec.LVal None; LinkedHashSpec.LVal None; LinkedHashSpec.LKeyList [NaN; NaN]].
Proof. split; vm_compute; reflexivity. Qed.
Print Assumptions C62_hash_nan_refuted.

Example ex_C62 :
  let half := Fin false (1 # 2) in let zero := Fin false 0 in let minus0 := Fin true 0 in let inf := Inf false in let minf := Inf true in
  let ops := [XPut half (Some 1); XPut inf (Some 2); XPut zero (Some 3); XPut minf (Some 4); XPut minus0 (Some 5); XPut (Fin true 3) (Some 6);
              XValues; XGet minus0; XIndexOf (Fin false (2 # 4))] in
  trims_in_range nlt [] ops /\ all_answered nlt [] ops /\
  srun (step (anyBy nlt) 2) E ops = [XBool true; XBool true; XBool true; XBool true; XBool false; XBool true;
    XVals [Some 4; Some 6; Some 3; Some 1; Some 2]; XFound (Some 3) true; XNum 3].
Proof. split; [cbn; tauto|]. split; [cbn; tauto|]. vm_compute. reflexivity. Qed.
