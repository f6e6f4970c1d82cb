From Verif Require Import Base CompareModel CompareSpec.
Require Import ZifyBool ZifyNat.
Local Open Scope Z_scope.

Lemma lex_lt_cons a s t : lex_lt s t -> lex_lt (a :: s) (a :: t).
Proof.
  intros H; inversion H; subst.
  - apply (lex_prefix (a :: s) x s0).
  - apply (lex_diff (a :: p) a0 b s0 t0); assumption.
Qed.
Lemma lex_lt_inv a s b t :
  lex_lt (a :: s) (b :: t) -> a < b \/ (a = b /\ lex_lt s t).
Proof.
  intros H; inversion H as [p x s0 E1 E2 | p c d s0 t0 Hl E1 E2].
  - right. split; [reflexivity|]. constructor.
  - destruct p as [|q p]; simpl in *.
    + injection E1; injection E2; intros; subst; left; assumption.
    + injection E1; injection E2; intros; subst. right; split; [reflexivity|]. constructor; assumption.
Qed.
Lemma lex_lt_nil_r s : ~ lex_lt s [].
Proof. intros H; inversion H; destruct s; try discriminate; destruct p; discriminate. Qed.
Lemma lex_lt_nil_l b t : lex_lt [] (b :: t).
Proof. apply (lex_prefix [] b t). Qed.
Lemma lex_lt_head a s b t : a < b -> lex_lt (a :: s) (b :: t).
Proof. intros; apply (lex_diff [] a b s t); assumption. Qed.

Lemma lex_irrefl a : ~ lex_lt a a.
Proof.
  induction a as [|x a IH]; intros H.
  - exact (lex_lt_nil_r _ H).
  - apply lex_lt_inv in H as [H|[_ H]]; [lia|auto].
Qed.
Lemma lex_trans a : forall b c, lex_lt a b -> lex_lt b c -> lex_lt a c.
Proof.
  induction a as [|x a IH]; intros [|y b] [|z c] H1 H2;
    try (exfalso; eapply lex_lt_nil_r; eassumption).
  - apply lex_lt_nil_l.
  - apply lex_lt_inv in H1 as [H1|[-> H1]]; apply lex_lt_inv in H2 as [H2|[-> H2]];
      try (apply lex_lt_head; lia).
    apply lex_lt_cons; eauto.
Qed.
Lemma lex_total a : forall b, lex_lt a b \/ a = b \/ lex_lt b a.
Proof.
  induction a as [|x a IH]; intros [|y b]; auto using lex_lt_nil_l.
  destruct (Z.lt_trichotomy x y) as [H|[H|H]].
  - left; apply lex_lt_head; assumption.
  - subst. destruct (IH b) as [H|[->|H]]; auto using lex_lt_cons.
  - right; right; apply lex_lt_head; assumption.
Qed.
Lemma lex_strict_total : strict_total lex_lt.
Proof. repeat split; [apply lex_irrefl|intros a b c; apply lex_trans|apply lex_total]. Qed.

Lemma shortlex_strict_total : strict_total shortlex_lt.
Proof.
  unfold shortlex_lt. repeat split.
  - intros a [H|[_ H]]; [lia|exact (lex_irrefl _ H)].
  - intros a b c [H1|[E1 H1]] [H2|[E2 H2]]; try (left; lia).
    right; split; [lia|]. eapply lex_trans; eassumption.
  - intros a b. destruct (Nat.lt_trichotomy (length a) (length b)) as [H|[H|H]]; auto.
    destruct (lex_total a b) as [Hl|[->|Hl]]; auto 6.
Qed.

Lemma Zlt_strict_total : strict_total Z.lt.
Proof. repeat split; intros; lia. Qed.

(* [scan] on strings: three-way result *)
Lemma scan_cases gt lt fin k1 : forall k2,
  (exists p a b s t, k1 = p ++ a :: s /\ k2 = p ++ b :: t /\ a <> b /\
     scan gt lt fin k1 k2 = if b <? a then gt else lt) \/
  (exists s, k1 = k2 ++ s /\ scan gt lt fin k1 k2 = fin) \/
  (exists s, k2 = k1 ++ s /\ scan gt lt fin k1 k2 = fin).
Proof.
  induction k1 as [|a k1 IH]; intros [|b k2]; simpl.
  - right; left; exists []; auto.
  - right; right; exists (b :: k2); auto.
  - right; left; exists (a :: k1); auto.
  - destruct (Z.eqb_spec a b) as [->|Hne].
    + destruct (IH k2) as [(p & x & y & s & t & -> & -> & Hne & E)|[(s & -> & E)|(s & -> & E)]].
      * left. exists (b :: p), x, y, s, t. auto.
      * right; left; exists s; auto.
      * right; right; exists s; auto.
    + left. exists [], a, b, k1, k2. auto.
Qed.

Definition decides_result {K} (lt : K -> K -> Prop) (r : Z) (a b : K) : Prop :=
  (r = -1 /\ lt a b) \/ (r = 0 /\ a = b) \/ (r = 1 /\ lt b a).

Lemma decides_of_result {K} (lt : K -> K -> Prop) cmp :
  strict_total lt -> (forall a b, decides_result lt (cmp a b) a b) -> decides lt cmp.
Proof.
  intros (Hirr & Htr & _) Hr a b. unfold decides_result in Hr.
  specialize (Hr a b).
  assert (lt a b -> lt b a -> False) by (intros; eapply Hirr, Htr; eauto).
  destruct Hr as [[E Hl]|[[E ->]|[E Hl]]]; rewrite E; repeat split; intros; try lia; auto;
    try (subst; exfalso; eauto); try (exfalso; eauto).
Qed.

Lemma any_decides : decides Z.lt any.
Proof. intros a b. unfold any. destruct (Z.ltb_spec b a), (Z.ltb_spec a b); lia. Qed.
Lemma any_desc_decides : decides Z.gt any_desc.
Proof. intros a b. unfold any_desc. destruct (Z.ltb_spec b a), (Z.ltb_spec a b); lia. Qed.
Lemma any_ex_decides : decides_ex Z.lt any_ex.
Proof. intros a b. unfold any_ex. destruct (Z.ltb_spec b a), (Z.ltb_spec a b); lia. Qed.

Lemma array_any_result k1 k2 : decides_result lex_lt (array_any k1 k2) k1 k2.
Proof.
  unfold array_any, decides_result.
  assert (Hgo : forall fin,
    (fin = 1 <-> (length k2 < length k1)%nat) -> (fin = -1 <-> (length k1 < length k2)%nat) ->
    (fin = 0 <-> length k1 = length k2) -> (fin = 1 \/ fin = -1 \/ fin = 0) ->
    let r := scan 1 (-1) fin k1 k2 in
    (r = -1 /\ lex_lt k1 k2) \/ (r = 0 /\ k1 = k2) \/ (r = 1 /\ lex_lt k2 k1)).
  { intros fin F1 F2 F3 F r. subst r.
    destruct (scan_cases 1 (-1) fin k1 k2) as [(p & a & b & s & t & E1 & E2 & Hne & ->)|[(s & E1 & ->)|(s & E1 & ->)]].
    - subst. destruct (Z.ltb_spec b a).
      + right; right; split; [reflexivity|apply lex_diff; lia].
      + left; split; [reflexivity|apply lex_diff; lia].
    - subst k1. rewrite app_length in *. destruct s as [|x s].
      + right; left. simpl in *. rewrite app_nil_r. split; [lia|reflexivity].
      + right; right. simpl in *. split; [lia|]. constructor.
    - subst k2. rewrite app_length in *. destruct s as [|x s].
      + right; left. simpl in *. rewrite app_nil_r. split; [lia|reflexivity].
      + left. simpl in *. split; [lia|]. constructor. }
  destruct (Nat.ltb_spec (length k2) (length k1)); [apply Hgo; lia|].
  destruct (Nat.ltb_spec (length k1) (length k2)); apply Hgo; lia.
Qed.

Lemma array_any_decides : decides lex_lt array_any.
Proof. apply decides_of_result; [apply lex_strict_total|apply array_any_result]. Qed.

Lemma array_len_any_decides : decides shortlex_lt array_len_any.
Proof.
  apply decides_of_result; [apply shortlex_strict_total|]. intros k1 k2.
  pose proof (array_any_result k1 k2) as Hr. unfold array_any in Hr.
  unfold array_len_any, decides_result, shortlex_lt in *.
  destruct (Nat.ltb_spec (length k2) (length k1)); [right; right; split; [reflexivity|left; lia]|].
  destruct (Nat.ltb_spec (length k1) (length k2)); [left; split; [reflexivity|left; lia]|].
  assert (length k1 = length k2) by lia. intuition.
Qed.

Lemma decides_cmp_ok {K} (lt : K -> K -> Prop) cmp :
  strict_total lt -> decides lt cmp -> cmp_ok cmp.
Proof.
  intros (Hirr & Htr & Htot) Hd.
  assert (Hc : forall a b, cmp a b = -1 /\ lt a b \/ cmp a b = 0 /\ a = b \/ cmp a b = 1 /\ lt b a).
  { intros a b. destruct (Hd a b) as (H1 & H2 & H3). destruct (Htot a b) as [H|[H|H]]; intuition. }
  constructor.
  - intros a. destruct (Hd a a) as (_ & H & _). apply H; reflexivity.
  - intros a b.
    assert (Ha : lt a b -> lt b a -> False) by (intros; eapply Hirr, Htr; eauto).
    destruct (Hc a b) as [[E H]|[[E H]|[E H]]], (Hc b a) as [[E' H']|[[E' H']|[E' H']]];
      try lia; exfalso; first [exact (Ha H H') | exact (Ha H' H) | subst; exact (Hirr _ H) | subst; exact (Hirr _ H')].
  - intros a b c Hab Hbc.
    destruct (Hc a b) as [[E H]|[[E H]|[E H]]]; [| |lia];
    destruct (Hc b c) as [[E' H']|[[E' H']|[E' H']]]; try lia; subst; try lia.
    destruct (Hd a c) as (H1 & _). assert (cmp a c = -1) by (apply H1; eauto). lia.
Qed.

Lemma any_cmp_ok : cmp_ok any.
Proof. eapply decides_cmp_ok; [apply Zlt_strict_total|apply any_decides]. Qed.
Lemma any_desc_cmp_ok : cmp_ok any_desc.
Proof. eapply decides_cmp_ok; [|apply any_desc_decides]. repeat split; intros; lia. Qed.
Lemma array_any_cmp_ok : cmp_ok array_any.
Proof. eapply decides_cmp_ok; [apply lex_strict_total|apply array_any_decides]. Qed.
Lemma array_len_any_cmp_ok : cmp_ok array_len_any.
Proof. eapply decides_cmp_ok; [apply shortlex_strict_total|apply array_len_any_decides]. Qed.

(* ArrayAnyEx is consistent on strings of one length *)
Lemma array_any_ex_same_length k1 k2 : length k1 = length k2 ->
  (array_any_ex k1 k2 = -1 <-> k1 = k2) /\
  (array_any_ex k1 k2 = 0 <-> lex_lt k2 k1) /\ (array_any_ex k1 k2 = 1 <-> lex_lt k1 k2).
Proof.
  intros E. pose proof (array_any_decides k1 k2) as (H1 & H2 & H3).
  assert (Hx : array_any_ex k1 k2 = if array_any k1 k2 =? 0 then -1 else if array_any k1 k2 =? 1 then 0 else 1).
  { unfold array_any_ex, array_any. rewrite E, Nat.ltb_irrefl. clear.
    revert k2; induction k1 as [|a k1 IH]; intros [|b k2]; simpl; auto.
    destruct (Z.eqb_spec a b); auto. destruct (Z.ltb_spec b a); reflexivity. }
  pose proof (array_any_result k1 k2) as Hr. unfold decides_result in Hr.
  rewrite Hx. destruct Hr as [[Er Hr]|[[Er Hr]|[Er Hr]]]; rewrite Er in *; simpl; intuition (auto; try discriminate).
Qed.

(* ... but on mixed lengths it is not even antisymmetric w.r.t. any strict order *)
Lemma array_any_ex_no_order :
  ~ exists lt, strict_total lt /\ decides_ex lt array_any_ex.
Proof.
  intros (lt & (Hirr & Htr & _) & Hd).
  (* "a" < "b" < "aa" would be needed together with "aa" < "a" *)
  destruct (Hd [97] [98]) as (_ & _ & H1). 
  destruct (Hd [98] [97; 97]) as (_ & _ & H2).
  destruct (Hd [97; 97] [97]) as (_ & _ & H3).
  destruct (Hd [97] [97;97]) as (_ & H4 & H5).
  assert (A1 : lt [97] [98]) by (apply H1; reflexivity).
  assert (A2 : lt [98] [97;97]) by (apply H2; reflexivity).
  assert (A3 : lt [97;97] [97]) by (apply H4; reflexivity).
  exact (Hirr _ (Htr _ _ _ (Htr _ _ _ A1 A2) A3)).
Qed.

Lemma any_desc_spec : decides (fun a b => b < a) any_desc /\ forall a b, any_desc a b = any b a.
Proof.
  split; intros a b; unfold any_desc, any; destruct (Z.ltb_spec b a), (Z.ltb_spec a b); try lia; repeat split; lia.
Qed.

Lemma array_any_ex_mixed k1 k2 : length k1 <> length k2 ->
  (array_any_ex k1 k2 = 1 <-> lex_lt k2 k1) /\ (array_any_ex k1 k2 = 0 <-> lex_lt k1 k2).
Proof.
  intros Hne. pose proof (array_any_result k1 k2) as Hr. unfold decides_result in Hr.
  assert (Hx : array_any_ex k1 k2 = if array_any k1 k2 =? 1 then 1 else 0).
  { unfold array_any_ex, array_any.
    destruct (Nat.ltb_spec (length k2) (length k1)); [|destruct (Nat.ltb_spec (length k1) (length k2)); [|lia]];
    clear; revert k2; induction k1 as [|a k1 IH]; intros [|b k2]; simpl; auto;
    destruct (Z.eqb_spec a b); auto; destruct (Z.ltb_spec b a); reflexivity. }
  assert (Hirr := lex_irrefl). assert (Htr := lex_trans). rewrite Hx.
  destruct Hr as [[Er Hr]|[[Er Hr]|[Er Hr]]]; rewrite Er; simpl.
  - split; split; intros; try discriminate; auto. exfalso; eapply Hirr, Htr; eauto.
  - subst; congruence.
  - split; split; intros; try discriminate; auto. exfalso; eapply Hirr, Htr; eauto.
Qed.

Lemma decides_flip {K} (lt : K -> K -> Prop) cmp : decides lt cmp -> decides (fun a b => lt b a) (fun a b => cmp b a).
Proof. intros H a b. destruct (H b a) as (H1 & H2 & H3). repeat split; try apply H1; try apply H3; intros; [symmetry|]; apply H2; auto. Qed.
