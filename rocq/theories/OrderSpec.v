(** Orders and comparators, independently of any container.  Keys may be compared on part of their contents only
    (two different keys may be equivalent), so the order is a strict weak one, given by a boolean "comes before". *)
From Verif Require Import Base.

Section Order.
  Context {K : Type} (ltb : K -> K -> bool).

  Record weak_order : Prop := {
    wo_irrefl : forall a, ltb a a = false;
    wo_trans : forall a b c, ltb a b = true -> ltb b c = true -> ltb a c = true;
    wo_split : forall a b c, ltb a c = true -> ltb a b = true \/ ltb b c = true }.

  (** equivalent: neither comes before the other *)
  Definition same (a b : K) : bool := negb (ltb a b) && negb (ltb b a).

  (** The "Ex" comparators of compare/: -1 for equivalent keys, otherwise the side (0 left, 1 right) of [a] on which
      [b] belongs. *)
  Definition ex_cmp (cmp : K -> K -> Z) : Prop :=
    forall a b, cmp a b = (if ltb b a then 0 else if ltb a b then 1 else -1)%Z.

  (** The plain comparators of compare/: -1, 0, 1. *)
  Definition plain_cmp (cmp : K -> K -> Z) : Prop :=
    forall a b, cmp a b = (if ltb a b then -1 else if ltb b a then 1 else 0)%Z.

  (** A comparator for the order, whatever numbers it uses. *)
  Definition sign_cmp (cmp : K -> K -> Z) : Prop :=
    forall a b, (cmp a b < 0 <-> ltb a b = true)%Z /\ (0 < cmp a b <-> ltb b a = true)%Z.
End Order.

Section Facts.
  Context {K : Type} (ltb : K -> K -> bool) (W : weak_order ltb).
  Lemma lt_asym a b : ltb a b = true -> ltb b a = false.
  Proof.
    intros H. destruct (ltb b a) eqn:E; [|reflexivity].
    pose proof (wo_trans _ W _ _ _ H E) as X. rewrite (wo_irrefl _ W) in X. discriminate.
  Qed.
  (** a <= b < c, a < b <= c, a <= b <= c *)
  Lemma le_lt a b c : ltb b a = false -> ltb b c = true -> ltb a c = true.
  Proof. intros H1 H2. destruct (wo_split _ W _ a _ H2) as [X|X]; congruence. Qed.
  Lemma lt_le a b c : ltb a b = true -> ltb c b = false -> ltb a c = true.
  Proof. intros H1 H2. destruct (wo_split _ W _ c _ H1) as [X|X]; congruence. Qed.
  Lemma le_le a b c : ltb b a = false -> ltb c b = false -> ltb c a = false.
  Proof. intros H1 H2. destruct (ltb c a) eqn:E; [|reflexivity]. destruct (wo_split _ W _ b _ E); congruence. Qed.
  Lemma same_iff a b : same ltb a b = true <-> ltb a b = false /\ ltb b a = false.
  Proof. unfold same. destruct (ltb a b), (ltb b a); simpl; intuition congruence. Qed.
  Lemma same_refl a : same ltb a a = true.
  Proof. apply same_iff. rewrite (wo_irrefl _ W). auto. Qed.
  Lemma same_sym a b : same ltb a b = same ltb b a.
  Proof. unfold same. apply andb_comm. Qed.
  Lemma same_lt_l a b c : same ltb a b = true -> ltb a c = ltb b c.
  Proof.
    intros H. apply same_iff in H. destruct H as (H1 & H2).
    destruct (ltb a c) eqn:E1, (ltb b c) eqn:E2; try reflexivity.
    - rewrite (le_lt b a c) in E2; congruence.
    - rewrite (le_lt a b c) in E1; congruence.
  Qed.
  Lemma same_lt_r a b c : same ltb a b = true -> ltb c a = ltb c b.
  Proof.
    intros H. apply same_iff in H. destruct H as (H1 & H2).
    destruct (ltb c a) eqn:E1, (ltb c b) eqn:E2; try reflexivity.
    - rewrite (lt_le c a b) in E2; congruence.
    - rewrite (lt_le c b a) in E1; congruence.
  Qed.
End Facts.

(** Integers, for examples. *)
Lemma Zltb_weak : weak_order Z.ltb.
Proof. split; intros; lia. Qed.
