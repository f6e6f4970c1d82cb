(** Shared vocabulary: comparators, list helpers.  No model of repo code here. *)
From Coq Require Export List Arith ZArith Lia Bool Permutation Sorting.Sorted.
Require Import ZifyBool ZifyNat.
Export ListNotations.

(** A comparator [cmp a b] is negative / zero / positive when [a] is before /
    equivalent to / after [b].  [cmp_ok] says it describes a total preorder. *)
Record cmp_ok {K : Type} (cmp : K -> K -> Z) : Prop := {
  cmp_refl : forall a, cmp a a = 0%Z;
  cmp_anti : forall a b, (cmp a b < 0)%Z <-> (0 < cmp b a)%Z;
  cmp_trans : forall a b c, (cmp a b <= 0)%Z -> (cmp b c <= 0)%Z -> (cmp a c <= 0)%Z }.

Section CmpFacts.
  Context {K : Type} (cmp : K -> K -> Z) (H : cmp_ok cmp).
  Local Open Scope Z_scope.

  Lemma cmp_eq_sym a b : cmp a b = 0 -> cmp b a = 0.
  Proof. pose proof (cmp_anti _ H a b). pose proof (cmp_anti _ H b a). lia. Qed.
  Lemma cmp_lt_gt a b : cmp a b < 0 -> 0 < cmp b a.
  Proof. apply (cmp_anti _ H). Qed.
  Lemma cmp_gt_lt a b : 0 < cmp a b -> cmp b a < 0.
  Proof. apply (cmp_anti _ H). Qed.
  Lemma cmp_le_ge a b : cmp a b <= 0 -> 0 <= cmp b a.
  Proof. pose proof (cmp_anti _ H b a). lia. Qed.
  Lemma cmp_ge_le a b : 0 <= cmp a b -> cmp b a <= 0.
  Proof. pose proof (cmp_anti _ H a b). lia. Qed.
  Lemma cmp_le_lt_trans a b c : cmp a b <= 0 -> cmp b c < 0 -> cmp a c < 0.
  Proof.
    intros H1 H2. destruct (Z.lt_ge_cases (cmp a c) 0) as [|H3]; [assumption|].
    apply cmp_ge_le in H3. pose proof (cmp_trans _ H c a b H3 H1).
    apply cmp_lt_gt in H2. lia.
  Qed.
  Lemma cmp_lt_le_trans a b c : cmp a b < 0 -> cmp b c <= 0 -> cmp a c < 0.
  Proof.
    intros H1 H2. destruct (Z.lt_ge_cases (cmp a c) 0) as [|H3]; [assumption|].
    apply cmp_ge_le in H3. pose proof (cmp_trans _ H b c a H2 H3).
    apply cmp_lt_gt in H1. lia.
  Qed.
  Lemma cmp_lt_trans a b c : cmp a b < 0 -> cmp b c < 0 -> cmp a c < 0.
  Proof. intros H1 H2. apply (cmp_lt_le_trans a b c); [assumption|lia]. Qed.
  Lemma cmp_eq_trans a b c : cmp a b = 0 -> cmp b c = 0 -> cmp a c = 0.
  Proof.
    intros H1 H2. assert (cmp a c <= 0) by (apply (cmp_trans _ H a b c); lia).
    apply cmp_eq_sym in H1. apply cmp_eq_sym in H2.
    assert (cmp c a <= 0) by (apply (cmp_trans _ H c b a); lia).
    pose proof (cmp_le_ge c a). lia.
  Qed.
  (** comparing with equivalent keys gives the same sign *)
  Lemma cmp_eq_sgn_r a b c : cmp b c = 0 -> Z.sgn (cmp a b) = Z.sgn (cmp a c).
  Proof.
    intros He. pose proof (cmp_eq_sym _ _ He) as He'.
    destruct (Z.lt_trichotomy (cmp a b) 0) as [Hl|[Hl|Hl]].
    - assert (cmp a c < 0) by (apply (cmp_lt_le_trans a b c); lia). lia.
    - assert (cmp a c = 0) by (apply (cmp_eq_trans a b c); lia). lia.
    - apply cmp_gt_lt in Hl as Hl'. assert (cmp c a < 0) by (apply (cmp_le_lt_trans c b a); lia).
      apply cmp_lt_gt in H0. lia.
  Qed.
  Lemma cmp_eq_sgn_l a b c : cmp a b = 0 -> Z.sgn (cmp a c) = Z.sgn (cmp b c).
  Proof.
    intros He. pose proof (cmp_eq_sgn_r c a b He).
    pose proof (cmp_anti _ H a c). pose proof (cmp_anti _ H c a).
    pose proof (cmp_anti _ H b c). pose proof (cmp_anti _ H c b). lia.
  Qed.
End CmpFacts.

(** Replace position [i] of a list (Go: [s[i] = x] for an in-range index). *)
Fixpoint list_set {A} (l : list A) (i : nat) (x : A) : list A :=
  match l, i with
  | [], _ => []
  | _ :: t, O => x :: t
  | h :: t, S i' => h :: list_set t i' x
  end.

Lemma list_set_length {A} (l : list A) i x : length (list_set l i x) = length l.
Proof. revert i; induction l as [|h t IH]; intros [|i]; simpl; auto. Qed.

Lemma nth_error_list_set_eq {A} (l : list A) i x :
  i < length l -> nth_error (list_set l i x) i = Some x.
Proof. revert i; induction l as [|h t IH]; intros [|i] Hi; simpl in *; try lia; auto. apply IH; lia. Qed.

Lemma nth_error_list_set_neq {A} (l : list A) i j x :
  i <> j -> nth_error (list_set l i x) j = nth_error l j.
Proof. revert i j; induction l as [|h t IH]; intros [|i] [|j] Hi; simpl in *; try lia; auto. Qed.

Lemma nth_list_set {A} (l : list A) i j x d :
  i < length l -> nth j (list_set l i x) d = if Nat.eqb i j then x else nth j l d.
Proof.
  revert i j; induction l as [|h t IH]; intros [|i] [|j] Hi; simpl in *; try lia; auto.
  apply IH; lia.
Qed.

Lemma list_set_app_l {A} (l1 l2 : list A) i x :
  i < length l1 -> list_set (l1 ++ l2) i x = list_set l1 i x ++ l2.
Proof. revert i; induction l1 as [|h t IH]; intros [|i] Hi; simpl in *; try lia; auto. f_equal; apply IH; lia. Qed.

Lemma list_set_app_r {A} (l1 l2 : list A) i x :
  length l1 <= i -> list_set (l1 ++ l2) i x = l1 ++ list_set l2 (i - length l1) x.
Proof.
  revert i; induction l1 as [|h t IH]; intros i Hi; simpl in *.
  - now rewrite Nat.sub_0_r.
  - destruct i as [|i]; [lia|]. simpl. f_equal. apply IH; lia.
Qed.

Lemma nth_error_eq_ext {A} (l1 l2 : list A) :
  (forall i, nth_error l1 i = nth_error l2 i) -> l1 = l2.
Proof.
  revert l2; induction l1 as [|h t IH]; intros [|h2 t2] Hx; auto.
  - specialize (Hx 0); discriminate.
  - specialize (Hx 0); discriminate.
  - pose proof (Hx 0) as H0; simpl in H0; injection H0 as ->. f_equal. apply IH. intros i; apply (Hx (S i)).
Qed.

Lemma nth_ext_len {A} (l1 l2 : list A) d :
  length l1 = length l2 -> (forall i, i < length l1 -> nth i l1 d = nth i l2 d) -> l1 = l2.
Proof. intros; eapply nth_ext; eauto. Qed.

Global Arguments firstn {A} n l : simpl nomatch.
Global Arguments skipn {A} n l : simpl nomatch.
