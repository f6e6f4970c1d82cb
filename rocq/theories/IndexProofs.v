(** Index trees: every operation keeps the entries in order and the sizes exact, and does not panic where the
    specification does not. *)
From Verif Require Import Base Bind Machine OrderSpec SMapSpec SMapFacts AvlTree AvlSpec AvlModel AvlProofs AvlAny IndexSpec IndexModel.
Local Open Scope Z_scope.

(** ** lists and positions *)
Section Lists.
  Context {X : Type}.
  Implicit Types (m l r : list X).
  Notation zlen m := (Z.of_nat (length m)).

  Lemma ssorted_firstn (R : X -> X -> Prop) n m : StronglySorted R m -> StronglySorted R (firstn n m).
  Proof. intros H. rewrite <- (firstn_skipn n m) in H. apply ssorted_app in H. tauto. Qed.
  Lemma ssorted_skipn (R : X -> X -> Prop) n m : StronglySorted R m -> StronglySorted R (skipn n m).
  Proof. intros H. rewrite <- (firstn_skipn n m) in H. apply ssorted_app in H. tauto. Qed.
  Lemma skipn_add a b m : skipn a (skipn b m) = skipn (a + b) m.
  Proof.
    revert m. induction b as [|b IH]; intros m; [rewrite Nat.add_0_r; reflexivity|].
    rewrite Nat.add_succ_r. destruct m as [|x m]; [rewrite !skipn_nil; reflexivity|]. apply IH.
  Qed.
  Lemma ssorted_cross (R : X -> X -> Prop) n p m x y : StronglySorted R m -> (n <= p)%nat ->
    In x (firstn n m) -> In y (skipn p m) -> R x y.
  Proof.
    intros H L Hx Hy. rewrite <- (firstn_skipn n m) in H. apply ssorted_app in H. destruct H as (_ & _ & H). apply H; auto.
    replace p with ((p - n) + n)%nat in Hy by lia. rewrite <- skipn_add in Hy.
    rewrite <- (firstn_skipn (p - n) (skipn n m)). apply in_or_app; auto.
  Qed.

  Lemma firstn_left l x r i : i <= zlen l -> firstn (Z.to_nat i) (l ++ x :: r) = firstn (Z.to_nat i) l.
  Proof.
    intros H. rewrite firstn_app. replace (Z.to_nat i - length l)%nat with 0%nat by lia. cbn [firstn]. apply app_nil_r.
  Qed.
  Lemma firstn_right l x r i : zlen l < i -> firstn (Z.to_nat i) (l ++ x :: r) = l ++ x :: firstn (Z.to_nat (i - zlen l - 1)) r.
  Proof.
    intros H. rewrite firstn_app, firstn_all2 by lia. f_equal.
    replace (Z.to_nat i - length l)%nat with (S (Z.to_nat (i - zlen l - 1))) by lia. reflexivity.
  Qed.
  Lemma skipn_left l x r i : i <= zlen l -> skipn (Z.to_nat i) (l ++ x :: r) = skipn (Z.to_nat i) l ++ x :: r.
  Proof.
    intros H. rewrite skipn_app. replace (Z.to_nat i - length l)%nat with 0%nat by lia. reflexivity.
  Qed.
  Lemma skipn_right l x r i : zlen l < i -> skipn (Z.to_nat i) (l ++ x :: r) = skipn (Z.to_nat (i - zlen l - 1)) r.
  Proof.
    intros H. rewrite skipn_app, skipn_all2 by lia. cbn [app].
    replace (Z.to_nat i - length l)%nat with (S (Z.to_nat (i - zlen l - 1))) by lia. reflexivity.
  Qed.
  Lemma zlen_mid l x r : zlen (l ++ x :: r) = zlen l + zlen r + 1.
  Proof. rewrite app_length. cbn [length]. lia. Qed.
End Lists.


Section Cuts.
  Context {K V : Type} (ltb : K -> K -> bool) (W : weak_order ltb).
  Notation entries := (list (K * V)).
  Implicit Types (m l r : entries) (x : K * V).

  Lemma entry_at_nil i : entry_at (@nil (K * V)) (Some i) = None.
  Proof. unfold entry_at, len. cbn [length]. destruct (0 <=? i) eqn:E1, (i <? Z.of_nat 0) eqn:E2; auto; lia. Qed.
  Lemma entry_at_some m i : 0 <= i < len m -> exists e, entry_at m (Some i) = Some e.
  Proof.
    intros H. unfold entry_at. replace ((0 <=? i) && (i <? len m)) with true by (symmetry; apply andb_true_iff; lia).
    unfold len in H. destruct (nth_error m (Z.to_nat i)) eqn:E; eauto. apply nth_error_None in E. lia.
  Qed.
  Lemma entry_at_none m i : ~ 0 <= i < len m -> entry_at m (Some i) = None.
  Proof.
    intros H. unfold entry_at. replace ((0 <=? i) && (i <? len m)) with false; auto.
    symmetry; apply andb_false_iff. destruct (Z.leb_spec 0 i); [right|left; auto]. apply Z.ltb_ge. lia.
  Qed.
  Lemma entry_at_in m i : 0 <= i < len m -> entry_at m (Some i) = nth_error m (Z.to_nat i).
  Proof. intros H. unfold entry_at. now replace ((0 <=? i) && (i <? len m)) with true by (symmetry; apply andb_true_iff; lia). Qed.
  Lemma len_mid l x r : len (l ++ x :: r) = len l + len r + 1.
  Proof. apply zlen_mid. Qed.
  Lemma len_nonneg m : 0 <= len m. Proof. unfold len. lia. Qed.

  Lemma entry_at_left l x r i : i < len l -> entry_at (l ++ x :: r) (Some i) = entry_at l (Some i).
  Proof.
    intros H. pose proof (len_nonneg r). destruct (Z.le_gt_cases 0 i).
    - rewrite !entry_at_in by (rewrite ?len_mid; lia). apply nth_error_app1. unfold len in *. lia.
    - rewrite !entry_at_none by lia. reflexivity.
  Qed.
  Lemma entry_at_mid l x r : entry_at (l ++ x :: r) (Some (len l)) = Some x.
  Proof.
    pose proof (len_nonneg r). pose proof (len_nonneg l). rewrite entry_at_in by (rewrite ?len_mid; lia).
    unfold len. rewrite Nat2Z.id, nth_error_app2, Nat.sub_diag by lia. reflexivity.
  Qed.
  Lemma entry_at_right l x r i : len l < i -> entry_at (l ++ x :: r) (Some i) = entry_at r (Some (i - len l - 1)).
  Proof.
    intros H. pose proof (len_nonneg l). destruct (Z.lt_ge_cases (i - len l - 1) (len r)).
    - rewrite !entry_at_in by (rewrite ?len_mid; lia). unfold len in *. rewrite nth_error_app2 by lia.
      replace (Z.to_nat i - length l)%nat with (S (Z.to_nat (i - Z.of_nat (length l) - 1))) by lia. reflexivity.
    - rewrite !entry_at_none by (rewrite ?len_mid; lia). reflexivity.
  Qed.

  (** a test that holds up to some point only *)
  Definition mono (f : K -> bool) : Prop := forall a b, ltb a b = true -> f b = true -> f a = true.
  Notation F f := (filter (fun e : K * V => f (fst e))).
  Notation NF f := (filter (fun e : K * V => negb (f (fst e)))).

  Lemma mono_lt k : mono (fun a => ltb a k).
  Proof. intros a b H1 H2. apply (wo_trans _ W _ b); auto. Qed.
  Lemma mono_le k : mono (fun a => negb (ltb k a)).
  Proof.
    intros a b H1 H2. apply negb_true_iff. apply negb_true_iff in H2. apply (lt_asym _ W) in H1.
    apply (le_le _ W a b k); auto.
  Qed.

  Lemma mono_yes f l x r : mono f -> strictly_sorted ltb (l ++ x :: r) -> f (fst x) = true ->
    F f (l ++ x :: r) = l ++ x :: F f r /\ NF f (l ++ x :: r) = NF f r.
  Proof.
    intros M Hs Hx. destruct (strict_mid ltb _ _ _ Hs) as (_ & _ & Hl & _).
    rewrite !filter_app. cbn [filter]. rewrite Hx. cbn [negb].
    rewrite (filter_all _ l), (filter_none _ l); auto.
    - intros y Hy. rewrite (M (fst y) (fst x)); auto.
    - intros y Hy. apply (M (fst y) (fst x)); auto.
  Qed.
  Lemma mono_no f l x r : mono f -> strictly_sorted ltb (l ++ x :: r) -> f (fst x) = false ->
    F f (l ++ x :: r) = F f l /\ NF f (l ++ x :: r) = NF f l ++ x :: r.
  Proof.
    intros M Hs Hx. destruct (strict_mid ltb _ _ _ Hs) as (_ & _ & _ & Hr).
    assert (Hf : forall y, In y r -> f (fst y) = false).
    { intros y Hy. destruct (f (fst y)) eqn:E1; auto. rewrite (M (fst x) (fst y)) in Hx; auto. }
    rewrite !filter_app. cbn [filter]. rewrite Hx. cbn [negb].
    rewrite (filter_none _ r), (filter_all _ r), app_nil_r; auto.
    intros y Hy. rewrite Hf; auto.
  Qed.
End Cuts.

Ltac assoc := repeat (rewrite <- !app_assoc || cbn [app]).

Section Sized.
  Context {K V : Type}.
  Notation tree := (tree K V).
  Implicit Types (t l r : tree).

  Lemma size_len t : sized t -> getSize t = len (elems t).
  Proof.
    destruct t as [|s k v l r]; [reflexivity|]. cbn [sized getSize elems]. intros (H & _). rewrite len_mid. exact H.
  Qed.
  Lemma size_pos t : t <> E -> 0 < len (elems t).
  Proof.
    destruct t as [|s k v l r]; [congruence|]. intros _. cbn [elems]. rewrite len_mid.
    pose proof (len_nonneg (elems l)). pose proof (len_nonneg (elems r)). lia.
  Qed.
  Lemma node_sized s k v l r : s = len (elems l) + len (elems r) + 1 -> sized l -> sized r -> sized (N s k v l r).
  Proof. cbn [sized]. unfold len. auto. Qed.
  Lemma sum_sized k v l r : sized l -> sized r -> sized (sum k v l r).
  Proof. intros Hl Hr. unfold sum. apply node_sized; auto. rewrite !size_len by auto. lia. Qed.
  Lemma sum_elems k v l r : elems (sum k v l r) = elems l ++ (k, v) :: elems r.
  Proof. reflexivity. Qed.
  Lemma kid_left s k v l r : sized l -> kidSize false (N s k v l r) = len (elems l).
  Proof. intros H. cbn [kidSize child]. apply size_len; auto. Qed.
  (** the position of a child's node, from that of its parent *)
  Lemma kid_true t : sized t -> t <> E -> kidSize true t + 1 + kidSize false t = len (elems t).
  Proof.
    destruct t as [|s k v l r]; [congruence|]. cbn [sized kidSize child elems]. intros (H & Hl & Hr) _.
    rewrite !size_len, len_mid by auto. lia.
  Qed.

  (** ** rotations *)
  Lemma lrotate_ok s k v l r : sized l -> sized r -> r <> E ->
    exists t, lrotate (N s k v l r) = Some t /\ elems t = elems l ++ (k, v) :: elems r /\ sized t /\ t <> E.
  Proof.
    destruct r as [|s' mk mv ml mr]; [congruence|]. cbn [sized]. intros Hl (_ & H1 & H2) _. eexists. split; [reflexivity|].
    split; [|split]; [rewrite !sum_elems; cbn [elems]; assoc; auto| |unfold sum; congruence]. repeat apply sum_sized; auto.
  Qed.
  Lemma rrotate_ok s k v l r : sized l -> sized r -> l <> E ->
    exists t, rrotate (N s k v l r) = Some t /\ elems t = elems l ++ (k, v) :: elems r /\ sized t /\ t <> E.
  Proof.
    destruct l as [|s' mk mv ml mr]; [congruence|]. cbn [sized]. intros (_ & H1 & H2) Hr _. eexists. split; [reflexivity|].
    split; [|split]; [rewrite !sum_elems; cbn [elems]; assoc; auto| |unfold sum; congruence]. repeat apply sum_sized; auto.
  Qed.
  Lemma size_nonnil t : 0 < getSize t -> t <> E.
  Proof. intros H ->. cbn in H. lia. Qed.
  Lemma size_nonneg t : sized t -> 0 <= getSize t.
  Proof. intros H. rewrite size_len by auto. apply len_nonneg. Qed.

  Lemma double_right s k v l r : sized l -> sized r -> r <> E ->
    exists t, match r with
              | E => None
              | N _ _ _ rl rr => if getSize rl >? getSize rr then r' <- rrotate r ;; lrotate (N s k v l r') else lrotate (N s k v l r)
              end = Some t /\ elems t = elems l ++ (k, v) :: elems r /\ sized t /\ t <> E.
  Proof.
    intros Hl Hr Hn. destruct r as [|rs rk rv rl rr] eqn:Er; [congruence|].
    destruct (getSize rl >? getSize rr) eqn:E1; [|apply lrotate_ok; auto].
    assert (Hr' := Hr). cbn [sized] in Hr'. destruct Hr' as (_ & H1 & H2).
    destruct (rrotate_ok rs rk rv rl rr H1 H2) as (r' & -> & E2 & E3 & E4).
    { apply size_nonnil. pose proof (size_nonneg _ H2). lia. }
    destruct (lrotate_ok s k v l r' Hl E3 E4) as (t & -> & E5 & E6 & E7). exists t. rewrite E5, E2. auto.
  Qed.
  Lemma double_left s k v l r : sized l -> sized r -> l <> E ->
    exists t, match l with
              | E => None
              | N _ _ _ ll lr => if getSize ll <? getSize lr then l' <- lrotate l ;; rrotate (N s k v l' r) else rrotate (N s k v l r)
              end = Some t /\ elems t = elems l ++ (k, v) :: elems r /\ sized t /\ t <> E.
  Proof.
    intros Hl Hr Hn. destruct l as [|ls lk lv ll lr] eqn:El; [congruence|].
    destruct (getSize ll <? getSize lr) eqn:E1; [|apply rrotate_ok; auto].
    assert (Hl' := Hl). cbn [sized] in Hl'. destruct Hl' as (_ & H1 & H2).
    destruct (lrotate_ok ls lk lv ll lr H1 H2) as (l' & -> & E2 & E3 & E4).
    { apply size_nonnil. pose proof (size_nonneg _ H1). lia. }
    destruct (rrotate_ok s k v l' r E3 Hr E4) as (t & -> & E5 & E6 & E7). exists t. rewrite E5, E2. auto.
  Qed.

  Lemma fixPut_ok shift c s k v l r : 0 <= shift -> sized l -> sized r -> s = len (elems l) + len (elems r) ->
    exists t c', fixPut shift c (N s k v l r) = Some (t, c') /\ elems t = elems l ++ (k, v) :: elems r /\ sized t.
  Proof.
    intros Hsh Hl Hr Hs.
    assert (Hn : sized (N (s + 1) k v l r)) by (apply node_sized; auto; lia).
    pose proof (size_nonneg _ Hl) as Pl. pose proof (size_nonneg _ Hr) as Pr.
    cbn [fixPut]. destruct c as [|h|]; [eauto| |eauto].
    replace (shift <? 0) with false by (symmetry; apply Z.ltb_ge; lia).
    destruct (Z.ltb_spec (s + 1) (shl64 h)); [|eauto].
    assert (0 <= Z.shiftr (shl64 h) shift).
    { apply Z.shiftr_nonneg. pose proof (len_nonneg (elems l)). pose proof (len_nonneg (elems r)). lia. }
    destruct (Z.ltb_spec (getSize l - getSize r) 0).
    - destruct (_ <=? _) eqn:E1; [|eauto].
      destruct (double_right (s + 1) k v l r Hl Hr) as (t & E2 & E3 & E4 & _); [apply size_nonnil; lia|].
      unfold sizeRRotate. destruct r as [|rs rk rv rl rr]; [discriminate|]. rewrite E2. eauto.
    - destruct (Z.leb_spec (Z.shiftr (shl64 h) shift + 1) (getSize l - getSize r)); [|eauto].
      destruct (double_left (s + 1) k v l r Hl Hr) as (t & E2 & E3 & E4 & _); [apply size_nonnil; lia|].
      unfold sizeLRotate. destruct l as [|ls lk lv ll lr]; [discriminate|]. rewrite E2. eauto.
  Qed.

  Lemma fixRemoveRange_ok s k v l r : sized (N s k v l r) ->
    exists t, fixRemoveRange (N s k v l r) = Some t /\ elems t = elems l ++ (k, v) :: elems r /\ sized t.
  Proof.
    intros Hn. pose proof Hn as (_ & Hl & Hr). pose proof (size_nonneg _ Hl) as Pl. pose proof (size_nonneg _ Hr) as Pr.
    cbn [fixRemoveRange]. destruct (s <=? 2); [eauto|].
    destruct ((getSize l >? getSize r) && _) eqn:E1; [|destruct ((getSize l <? getSize r) && _) eqn:E2; [|eauto]].
    - apply andb_true_iff in E1. destruct (double_left s k v l r Hl Hr) as (t & E3 & E4 & E5 & _); [apply size_nonnil; lia|eauto].
    - apply andb_true_iff in E2. destruct (double_right s k v l r Hl Hr) as (t & E3 & E4 & E5 & _); [apply size_nonnil; lia|eauto].
  Qed.

  Lemma attach_ok dir sub n t : sized sub -> n = len (elems sub) -> t <> E -> sized t ->
    exists t', attach dir sub n t = Some t' /\
      elems t' = (if dir then elems t ++ elems sub else elems sub ++ elems t) /\ sized t'.
  Proof.
    intros Hsub Hn. induction t as [|s k v l IHl r IHr]; [congruence|]. intros _ (Hs & Hl & Hr). cbn [attach].
    destruct dir; cbn [child with_child].
    - assert (exists r', match r with E => Some sub | _ => attach true sub n r end = Some r' /\
        elems r' = elems r ++ elems sub /\ sized r') as (r' & E1 & E2 & E3).
      { destruct r as [|rs rk rv rl rr] eqn:Er; [eauto|]. rewrite <- Er in *. apply IHr; auto. subst; congruence. }
      rewrite E1. destruct (fixRemoveRange_ok (s + n) k v l r') as (t' & -> & E5 & E6).
      { apply node_sized; auto. rewrite E2. unfold len in *. rewrite app_length. lia. }
      exists t'. rewrite E5, E2. cbn [elems]. assoc. auto.
    - assert (exists l', match l with E => Some sub | _ => attach false sub n l end = Some l' /\
        elems l' = elems sub ++ elems l /\ sized l') as (l' & E1 & E2 & E3).
      { destruct l as [|ls lk lv ll lr] eqn:El; [rewrite app_nil_r; eauto|]. rewrite <- El in *. apply IHl; auto. subst; congruence. }
      rewrite E1. destruct (fixRemoveRange_ok (s + n) k v l' r) as (t' & -> & E5 & E6).
      { apply node_sized; auto. rewrite E2. unfold len in *. rewrite app_length. lia. }
      exists t'. rewrite E5, E2. cbn [elems]. assoc. auto.
  Qed.

  Lemma join_ok l r : sized l -> sized r -> ~ (l = E /\ r = E) ->
    exists t, join l r = Some t /\ elems t = elems l ++ elems r /\ sized t.
  Proof.
    intros Hl Hr Hn. pose proof (size_nonneg _ Hl) as Pl. pose proof (size_nonneg _ Hr) as Pr.
    unfold join. destruct (getSize l >? getSize r) eqn:E1.
    - destruct r as [|rs rk rv rl rr] eqn:Er; [rewrite app_nil_r; eauto|]. rewrite <- Er in *.
      apply (attach_ok true); auto; [apply size_len; auto|]. apply size_nonnil. lia.
    - destruct l as [|ls lk lv ll lr] eqn:El.
      + destruct r; [tauto|]. eauto.
      + rewrite <- El in *. apply (attach_ok false); auto; [apply size_len; auto|].
        apply size_nonnil. rewrite (size_len l) in E1 by auto. pose proof (size_pos l ltac:(subst; congruence)). lia.
  Qed.

  (** what the way up from the cut finds *)
  Definition cutOk (c : cut) (n n' : Z) : Prop :=
    match c with Nothing => n' = n | Gone d => n' = n - d | Merged => True end.

  Lemma up_left c s k v l l' r : sized (N s k v l r) -> sized l' -> cutOk c (len (elems l)) (len (elems l')) ->
    sized (upFromCut c s k v l' r) /\ elems (upFromCut c s k v l' r) = elems l' ++ (k, v) :: elems r /\
    cutOk c (len (elems (N s k v l r))) (len (elems (upFromCut c s k v l' r))).
  Proof.
    intros (Hs & Hl & Hr) Hl' Hc.
    assert (X : elems (upFromCut c s k v l' r) = elems l' ++ (k, v) :: elems r) by (destruct c; reflexivity).
    split; [|split]; auto.
    - destruct c; cbn [upFromCut cutOk] in *; [apply node_sized|apply node_sized|apply sum_sized]; auto; unfold len in *; lia.
    - rewrite X. cbn [elems]. rewrite !len_mid. destruct c; cbn [cutOk] in *; auto; lia.
  Qed.
  Lemma up_right c s k v l r r' : sized (N s k v l r) -> sized r' -> cutOk c (len (elems r)) (len (elems r')) ->
    sized (upFromCut c s k v l r') /\ elems (upFromCut c s k v l r') = elems l ++ (k, v) :: elems r' /\
    cutOk c (len (elems (N s k v l r))) (len (elems (upFromCut c s k v l r'))).
  Proof.
    intros (Hs & Hl & Hr) Hr' Hc.
    assert (X : elems (upFromCut c s k v l r') = elems l ++ (k, v) :: elems r') by (destruct c; reflexivity).
    split; [|split]; auto.
    - destruct c; cbn [upFromCut cutOk] in *; [apply node_sized|apply node_sized|apply sum_sized]; auto; unfold len in *; lia.
    - rewrite X. cbn [elems]. rewrite !len_mid. destruct c; cbn [cutOk] in *; auto; lia.
  Qed.
  Lemma closeCut_ok t a b : sized t -> sized a -> sized b ->
    exists t' c, closeCut (getSize t) a b = Some (t', c) /\ elems t' = elems a ++ elems b /\ sized t' /\
      cutOk c (len (elems t)) (len (elems t')).
  Proof.
    intros Ht Ha Hb.
    assert (D : (a = E /\ b = E) \/ ~ (a = E /\ b = E)).
    { destruct a, b; auto; right; intros (? & ?); congruence. }
    destruct D as [(-> & ->)|D].
    - exists E, (Gone (getSize t)). cbn [closeCut cutOk]. rewrite size_len by auto. cbn [elems sized]. change (len []) with 0.
      repeat split; auto. lia.
    - destruct (join_ok a b Ha Hb D) as (t' & E1 & E2 & E3). exists t', Merged. unfold closeCut. rewrite E1.
      destruct a, b; try tauto; cbn [cutOk]; auto.
  Qed.

  (** ** taking nodes out *)
  Lemma takeEnd_ok dir t : sized t -> t <> E ->
    exists t' e, takeEnd dir t = Some (t', e) /\ elems t = (if dir then elems t' ++ [e] else e :: elems t') /\ sized t'.
  Proof.
    induction t as [|s k v l IHl r IHr]; [congruence|]. intros (Hs & Hl & Hr) _. cbn [takeEnd].
    destruct dir; cbn [child with_child negb].
    - destruct r as [|rs rk rv rl rr] eqn:Er; [eauto|]. rewrite <- Er in *.
      destruct (IHr Hr ltac:(subst; congruence)) as (t' & e & -> & E2 & E3). eexists _, _. split; [reflexivity|].
      cbn [elems]. rewrite E2. split; [assoc; auto|]. apply node_sized; auto.
      rewrite E2 in Hs. unfold len. rewrite app_length in Hs. cbn [length] in Hs. lia.
    - destruct l as [|ls lk lv ll lr] eqn:El; [eauto|]. rewrite <- El in *.
      destruct (IHl Hl ltac:(subst; congruence)) as (t' & e & -> & E2 & E3). eexists _, _. split; [reflexivity|].
      cbn [elems]. rewrite E2. split; [auto|]. apply node_sized; auto.
      rewrite E2 in Hs. unfold len. cbn [length] in Hs. lia.
  Qed.
  Lemma removeNode_ok s k v l r : sized (N s k v l r) ->
    exists t, removeNode (N s k v l r) = Some t /\ elems t = elems l ++ elems r /\ sized t.
  Proof.
    intros Hn. pose proof Hn as (Hs & Hl & Hr). pose proof (size_nonneg _ Hl) as Pl. pose proof (size_nonneg _ Hr) as Pr.
    cbn [removeNode]. rewrite !size_len in * by auto.
    destruct (Z.eqb_spec s 1) as [E1|E1].
    - exists E. rewrite E1 in Hs. destruct (elems l), (elems r); cbn [length] in Hs; try lia. cbn; auto.
    - destruct (len (elems l) >? len (elems r)) eqn:E2.
      + destruct (takeEnd_ok true l Hl) as (l' & [k' v'] & -> & E3 & E4).
        { intros ->. cbn in E2. change (len []) with 0 in E2. lia. }
        eexists. split; [reflexivity|]. cbn [elems]. rewrite E3. split; [assoc; auto|]. apply node_sized; auto.
        rewrite E3 in Hs. unfold len. rewrite app_length in Hs. cbn [length] in Hs. lia.
      + destruct (takeEnd_ok false r Hr) as (r' & [k' v'] & -> & E3 & E4).
        { intros ->. change (len (elems E)) with 0 in E2. change (length (@elems K V E)) with 0%nat in Hs.
          unfold len in *. lia. }
        eexists. split; [reflexivity|]. cbn [elems]. rewrite E3. split; [assoc; auto|]. apply node_sized; auto.
        rewrite E3 in Hs. unfold len. cbn [length] in Hs. lia.
  Qed.

  (** ** positions *)
  Lemma left_pos b s k v l r : sized (N s k v l r) -> l <> E ->
    b + kidSize false (N s k v l r) - (kidSize true l + 1) = b + kidSize false l.
  Proof. intros (_ & Hl & Hr) Hn. rewrite (kid_left _ _ _ _ _ Hl), <- (kid_true l) by auto. lia. Qed.
  Lemma right_pos b s k v l r : sized (N s k v l r) ->
    b + kidSize false (N s k v l r) + (kidSize false r + 1) = b + len (elems l) + 1 + kidSize false r.
  Proof. intros (_ & Hl & Hr). rewrite (kid_left _ _ _ _ _ Hl). lia. Qed.

  Lemma indexLoop_ok i t : forall b, sized t -> indexLoop i (b + kidSize false t) t = entry_at (elems t) (Some (i - b)).
  Proof.
    induction t as [|s k v l IHl r IHr]; intros b Ht; [symmetry; apply entry_at_nil|].
    pose proof Ht as (Hs & Hl & Hr). cbn [indexLoop elems].
    pose proof (kid_left s k v l r Hl) as Ek.
    destruct (b + kidSize false (N s k v l r) >? i) eqn:E1; [|destruct (Z.ltb_spec (b + kidSize false (N s k v l r)) i)].
    - rewrite entry_at_left by lia. destruct l as [|ls lk lv ll lr] eqn:El; [symmetry; apply entry_at_nil|].
      rewrite <- El in *. rewrite left_pos by (subst; auto; congruence). apply IHl; auto.
    - rewrite entry_at_right by lia. rewrite right_pos by auto. rewrite IHr by auto. f_equal. f_equal. lia.
    - replace (i - b) with (len (elems l)) by lia. symmetry. apply entry_at_mid.
  Qed.
  Lemma index_ok i t : sized t -> index i t = entry_at (elems t) (Some i).
  Proof. intros H. unfold index. pose proof (indexLoop_ok i t 0 H) as X. rewrite Z.add_0_l, Z.sub_0_r in X. exact X. Qed.

  Notation out i j m := (firstn (Z.to_nat i) m ++ skipn (Z.to_nat (j + 1)) m).

  Lemma removeIndexLoop_ok i t : forall b, sized t ->
    match entry_at (elems t) (Some (i - b)) with
    | None => removeIndexLoop i (b + kidSize false t) t = None
    | Some e => exists t', removeIndexLoop i (b + kidSize false t) t = Some (t', snd e) /\
                  elems t' = out (i - b) (i - b) (elems t) /\ sized t'
    end.
  Proof.
    induction t as [|s k v l IHl r IHr]; intros b Ht; [cbn [elems]; rewrite entry_at_nil; reflexivity|].
    pose proof Ht as (Hs & Hl & Hr). cbn [removeIndexLoop elems].
    pose proof (kid_left s k v l r Hl) as Ek.
    destruct (b + kidSize false (N s k v l r) >? i) eqn:E1; [|destruct (Z.ltb_spec (b + kidSize false (N s k v l r)) i)].
    - rewrite entry_at_left by lia. destruct l as [|ls lk lv ll lr] eqn:El; [cbn [elems]; rewrite entry_at_nil; reflexivity|].
      rewrite <- El in *. rewrite left_pos by (subst; auto; congruence). specialize (IHl b Hl).
      destruct (entry_at (elems l) (Some (i - b))) as [e|] eqn:Ee; [|rewrite IHl; reflexivity].
      assert (Hi : 0 <= i - b < len (elems l)).
      { destruct (Z.le_gt_cases 0 (i - b)), (Z.lt_ge_cases (i - b) (len (elems l))); auto; rewrite entry_at_none in Ee by lia; discriminate. }
      destruct IHl as (l' & -> & E2 & E3). eexists. split; [reflexivity|]. cbn [elems]. unfold len in *.
      rewrite firstn_left, skipn_left by lia. rewrite E2. assoc. split; auto. apply node_sized; auto.
      unfold len. rewrite E2, app_length, firstn_length, skipn_length. lia.
    - rewrite entry_at_right by lia. rewrite right_pos by auto.
      specialize (IHr (b + len (elems l) + 1) Hr). replace (i - b - len (elems l) - 1) with (i - (b + len (elems l) + 1)) by lia.
      destruct (entry_at (elems r) (Some (i - (b + len (elems l) + 1)))) as [e|] eqn:Ee; [|rewrite IHr; reflexivity].
      assert (Hi : 0 <= i - (b + len (elems l) + 1) < len (elems r)).
      { destruct (Z.le_gt_cases 0 (i - (b + len (elems l) + 1))), (Z.lt_ge_cases (i - (b + len (elems l) + 1)) (len (elems r)));
        auto; rewrite entry_at_none in Ee by lia; discriminate. }
      destruct IHr as (r' & -> & E2 & E3). eexists. split; [reflexivity|]. cbn [elems]. unfold len in *.
      rewrite firstn_right, skipn_right by lia. rewrite E2. assoc.
      replace (i - b + 1 - Z.of_nat (length (elems l)) - 1) with (i - (b + Z.of_nat (length (elems l)) + 1) + 1) by lia.
      replace (i - b - Z.of_nat (length (elems l)) - 1) with (i - (b + Z.of_nat (length (elems l)) + 1)) by lia.
      split; auto. apply node_sized; auto.
      unfold len. rewrite E2, app_length, firstn_length, skipn_length. lia.
    - replace (i - b) with (len (elems l)) by lia. rewrite entry_at_mid. cbn [snd].
      destruct (removeNode_ok s k v l r Ht) as (t' & -> & E2 & E3). exists t'. split; auto. split; auto.
      unfold len. rewrite firstn_left, skipn_right by lia. rewrite E2, Nat2Z.id, firstn_all.
      replace (Z.to_nat _) with 0%nat by lia. reflexivity.
  Qed.

  Lemma ltrimAt_ok low t : forall b idx (dir : bool), sized t -> idx = (if dir then b - 1 else b + len (elems t)) ->
    elems (ltrimAt low idx dir t) = firstn (Z.to_nat (low - b)) (elems t) /\ sized (ltrimAt low idx dir t).
  Proof.
    induction t as [|s k v l IHl r IHr]; intros b idx dir Ht Hi.
    - cbn [ltrimAt elems]. rewrite firstn_nil. auto.
    - pose proof Ht as (Hs & Hl & Hr). cbn [ltrimAt elems] in *.
      replace (if dir then idx + (getSize l + 1) else idx - (getSize r + 1)) with (b + len (elems l)).
      2:{ rewrite !size_len by auto. destruct dir; rewrite ?len_mid in Hi; lia. }
      unfold len in *. destruct (Z.ltb_spec (b + Z.of_nat (length (elems l))) low); [|destruct (_ >? low) eqn:E1].
      + destruct (IHr (b + Z.of_nat (length (elems l)) + 1) (b + Z.of_nat (length (elems l))) true Hr) as (E1 & E2); [lia|].
        split; [|apply sum_sized; auto]. rewrite sum_elems, E1, firstn_right by lia. do 4 f_equal. lia.
      + destruct (IHl b (b + Z.of_nat (length (elems l))) false Hl) as (E2 & E3); [lia|]. split; auto.
        rewrite E2, firstn_left by lia. reflexivity.
      + split; auto. replace (low - b) with (Z.of_nat (length (elems l))) by lia.
        rewrite firstn_left by lia. rewrite Nat2Z.id, firstn_all. reflexivity.
  Qed.
  Lemma rtrimAt_ok high t : forall b idx (dir : bool), sized t -> idx = (if dir then b - 1 else b + len (elems t)) ->
    elems (rtrimAt high idx dir t) = skipn (Z.to_nat (high + 1 - b)) (elems t) /\ sized (rtrimAt high idx dir t).
  Proof.
    induction t as [|s k v l IHl r IHr]; intros b idx dir Ht Hi.
    - cbn [rtrimAt elems]. rewrite skipn_nil. auto.
    - pose proof Ht as (Hs & Hl & Hr). cbn [rtrimAt elems] in *.
      replace (if dir then idx + (getSize l + 1) else idx - (getSize r + 1)) with (b + len (elems l)).
      2:{ rewrite !size_len by auto. destruct dir; rewrite ?len_mid in Hi; lia. }
      unfold len in *. destruct (_ >? high) eqn:E1; [|destruct (Z.ltb_spec (b + Z.of_nat (length (elems l))) high)].
      + destruct (IHl b (b + Z.of_nat (length (elems l))) false Hl) as (E2 & E3); [lia|].
        split; [|apply sum_sized; auto]. rewrite sum_elems, E2, skipn_left by lia. reflexivity.
      + destruct (IHr (b + Z.of_nat (length (elems l)) + 1) (b + Z.of_nat (length (elems l))) true Hr) as (E2 & E3); [lia|].
        split; auto. rewrite E2, skipn_right by lia. f_equal. lia.
      + split; auto. rewrite skipn_right by lia. replace (Z.to_nat _) with 0%nat by lia. reflexivity.
  Qed.

  Lemma removeRangeAt_ok low high t : low <= high -> forall b, sized t ->
    if (high <? b) || (b + len (elems t) <=? low) || (len (elems t) =? 0)
    then removeRangeAt low high (b + kidSize false t) t = None
    else exists t' c, removeRangeAt low high (b + kidSize false t) t = Some (t', c) /\
           elems t' = out (low - b) (high - b) (elems t) /\ sized t' /\ cutOk c (len (elems t)) (len (elems t')).
  Proof.
    intros Hlh. induction t as [|s k v l IHl r IHr]; intros b Ht.
    - cbn [elems]. change (len []) with 0. rewrite orb_true_r. reflexivity.
    - pose proof Ht as (Hs & Hl & Hr). cbn [removeRangeAt].
      pose proof (kid_left s k v l r Hl) as Ek. cbn [elems]. rewrite len_mid.
      pose proof (len_nonneg (elems l)) as Pl. pose proof (len_nonneg (elems r)) as Pr.
      replace (len (elems l) + len (elems r) + 1 =? 0) with false by (symmetry; apply Z.eqb_neq; lia). rewrite orb_false_r.
      destruct ((_ >? low) && _) eqn:E1; [|destruct ((_ <? high) && _) eqn:E2].
      + apply andb_true_iff in E1. destruct l as [|ls lk lv ll lr] eqn:El.
        { change (len (elems E)) with 0 in *. replace (high <? b) with true by (symmetry; apply Z.ltb_lt; lia). reflexivity. }
        rewrite <- El in *. rewrite left_pos by (subst; auto; congruence). specialize (IHl b Hl).
        pose proof (size_pos l ltac:(subst; congruence)) as Pl'.
        replace (len (elems l) =? 0) with false in IHl by (symmetry; apply Z.eqb_neq; lia). rewrite orb_false_r in IHl.
        replace (b + (len (elems l) + len (elems r) + 1) <=? low) with (b + len (elems l) <=? low).
        2:{ apply eq_true_iff_eq. rewrite !Z.leb_le. lia. }
        destruct ((high <? b) || (b + len (elems l) <=? low)) eqn:E3; [rewrite IHl; reflexivity|].
        apply orb_false_iff in E3. destruct IHl as (l' & c & -> & E4 & E5 & E6). eexists _, _. split; [reflexivity|].
        destruct (up_left c s k v l l' r Ht E5 E6) as (X1 & X2 & X3). rewrite X2, E4. split.
        * unfold len in *. rewrite firstn_left, skipn_left by lia. assoc. reflexivity.
        * split; auto. rewrite X2, E4 in X3. rewrite <- len_mid with (x := (k, v)). exact X3.
      + apply andb_true_iff in E2. rewrite right_pos by auto. specialize (IHr (b + len (elems l) + 1) Hr).
        destruct r as [|rs rk rv rl rr] eqn:Er.
        { change (len (elems E)) with 0 in *. replace (b + (len (elems l) + 0 + 1) <=? low) with true by (symmetry; apply Z.leb_le; lia).
          rewrite orb_true_r. reflexivity. }
        rewrite <- Er in *. pose proof (size_pos r ltac:(subst; congruence)) as Pr'.
        replace (len (elems r) =? 0) with false in IHr by (symmetry; apply Z.eqb_neq; lia). rewrite orb_false_r in IHr.
        replace (high <? b) with (high <? b + len (elems l) + 1).
        2:{ apply eq_true_iff_eq. rewrite !Z.ltb_lt. lia. }
        replace (b + (len (elems l) + len (elems r) + 1)) with (b + len (elems l) + 1 + len (elems r)) by lia.
        destruct ((high <? b + len (elems l) + 1) || (b + len (elems l) + 1 + len (elems r) <=? low)) eqn:E3; [rewrite IHr; reflexivity|].
        apply orb_false_iff in E3. destruct IHr as (r' & c & -> & E4 & E5 & E6). eexists _, _. split; [reflexivity|].
        destruct (up_right c s k v l r r' Ht E5 E6) as (X1 & X2 & X3). rewrite X2, E4. split.
        * unfold len in *. rewrite firstn_right, skipn_right by lia. assoc.
          replace (low - b - Z.of_nat (length (elems l)) - 1) with (low - (b + Z.of_nat (length (elems l)) + 1)) by lia.
          replace (high - b + 1 - Z.of_nat (length (elems l)) - 1) with (high - (b + Z.of_nat (length (elems l)) + 1) + 1) by lia.
          reflexivity.
        * split; auto. rewrite X2, E4 in X3. rewrite <- len_mid with (x := (k, v)). exact X3.
      + apply andb_false_iff in E1, E2.
        replace ((high <? b) || (b + (len (elems l) + len (elems r) + 1) <=? low)) with false by (symmetry; apply orb_false_iff; lia).
        rewrite Ek.
        destruct (ltrimAt_ok low l b (b + len (elems l)) false Hl eq_refl) as (L1 & L2).
        destruct (rtrimAt_ok high r (b + len (elems l) + 1) (b + len (elems l)) true Hr) as (R1 & R2); [lia|].
        destruct (closeCut_ok (N s k v l r) _ _ Ht L2 R2) as (t' & c & C1 & C2 & C3 & C4). cbn [getSize] in C1. rewrite C1.
        eexists _, _. split; [reflexivity|]. rewrite C2, L1, R1. split.
        * unfold len in *. rewrite firstn_left, skipn_right by lia. do 3 f_equal. lia.
        * split; auto. cbn [elems] in C4. rewrite len_mid, C2, L1, R1 in C4. exact C4.
  Qed.

  Lemma keepFromAt_ok low t : forall b, sized t -> b <= low < b + len (elems t) ->
    exists t', keepFromAt low (b + kidSize false t) t = Some t' /\ elems t' = skipn (Z.to_nat (low - b)) (elems t) /\ sized t'.
  Proof.
    induction t as [|s k v l IHl r IHr]; intros b Ht Hb; [change (len (elems E)) with 0 in Hb; lia|].
    pose proof Ht as (Hs & Hl & Hr). cbn [keepFromAt]. cbn [elems] in *. rewrite len_mid in Hb.
    pose proof (kid_left s k v l r Hl) as Ek.
    destruct (Z.ltb_spec (b + kidSize false (N s k v l r)) low); [|destruct (_ >? low) eqn:E1].
    - destruct (IHr (b + len (elems l) + 1) Hr) as (r' & E2 & E3 & E4); [lia|].
      exists r'. rewrite E3. split; [|split]; auto.
      + destruct r as [|rs rk rv rl rr] eqn:Er; [change (len (elems E)) with 0 in Hb; lia|]. rewrite <- Er in *.
        rewrite <- E2. f_equal. lia.
      + unfold len in *. rewrite skipn_right by lia. f_equal. lia.
    - destruct (IHl b Hl) as (l' & E2 & E3 & E4); [lia|].
      destruct l as [|ls lk lv ll lr] eqn:El; [change (len (elems E)) with 0 in *; lia|]. rewrite <- El in *.
      replace (b + kidSize false (N s k v l r) - kidSize true l - 1) with (b + kidSize false (N s k v l r) - (kidSize true l + 1)) by lia.
      rewrite left_pos by (subst; auto; congruence). rewrite E2. eexists. split; [reflexivity|].
      rewrite sum_elems, E3. unfold len in *. rewrite skipn_left by lia. split; auto. apply sum_sized; auto.
    - eexists. split; [reflexivity|]. cbn [elems app]. split.
      + unfold len in *. rewrite skipn_left by lia. replace (low - b) with (Z.of_nat (length (elems l))) by lia.
        rewrite Nat2Z.id, skipn_all. reflexivity.
      + rewrite size_len by auto. apply node_sized; cbn [sized]; auto.
  Qed.
  Lemma keepToAt_ok high t : forall b, sized t -> b <= high < b + len (elems t) ->
    exists t', keepToAt high (b + kidSize false t) t = Some t' /\ elems t' = firstn (Z.to_nat (high + 1 - b)) (elems t) /\ sized t'.
  Proof.
    induction t as [|s k v l IHl r IHr]; intros b Ht Hb; [change (len (elems E)) with 0 in Hb; lia|].
    pose proof Ht as (Hs & Hl & Hr). cbn [keepToAt]. cbn [elems] in *. rewrite len_mid in Hb.
    pose proof (kid_left s k v l r Hl) as Ek.
    destruct (_ >? high) eqn:E1; [|destruct (Z.ltb_spec (b + kidSize false (N s k v l r)) high)].
    - destruct (IHl b Hl) as (l' & E2 & E3 & E4); [lia|].
      destruct l as [|ls lk lv ll lr] eqn:El; [change (len (elems E)) with 0 in *; lia|]. rewrite <- El in *.
      replace (b + kidSize false (N s k v l r) - kidSize true l - 1) with (b + kidSize false (N s k v l r) - (kidSize true l + 1)) by lia.
      rewrite left_pos by (subst; auto; congruence). rewrite E2. eexists. split; [reflexivity|].
      rewrite E3. unfold len in *. rewrite firstn_left by lia. split; auto.
    - destruct (IHr (b + len (elems l) + 1) Hr) as (r' & E2 & E3 & E4); [lia|].
      destruct r as [|rs rk rv rl rr] eqn:Er; [change (len (elems E)) with 0 in Hb; lia|]. rewrite <- Er in *.
      replace (b + kidSize false (N s k v l r) + kidSize false r + 1) with (b + len (elems l) + 1 + kidSize false r) by lia.
      rewrite E2. eexists. split; [reflexivity|]. rewrite sum_elems, E3. split; [|apply sum_sized; auto].
      unfold len in *. rewrite firstn_right by lia. do 4 f_equal. lia.
    - eexists. split; [reflexivity|]. cbn [elems app]. split.
      + unfold len in *. rewrite firstn_right by lia. replace (Z.to_nat _) with 0%nat by lia. reflexivity.
      + rewrite size_len by auto. apply node_sized; cbn [sized]; auto. change (len (elems E)) with 0. lia.
  Qed.
  Lemma keepFromAt_none low t : forall b, sized t -> t <> E -> low < b \/ b + len (elems t) <= low ->
    keepFromAt low (b + kidSize false t) t = None.
  Proof.
    induction t as [|s k v l IHl r IHr]; intros b Ht Hn Hb; [congruence|].
    pose proof Ht as (Hs & Hl & Hr). cbn [keepFromAt]. cbn [elems] in *. rewrite len_mid in Hb.
    pose proof (kid_left s k v l r Hl) as Ek.
    pose proof (len_nonneg (elems l)) as Pl. pose proof (len_nonneg (elems r)) as Pr.
    destruct (Z.ltb_spec (b + kidSize false (N s k v l r)) low); [|destruct (_ >? low) eqn:E1]; [| |lia].
    - destruct r as [|rs rk rv rl rr] eqn:Er; auto. rewrite <- Er in *.
      replace (b + kidSize false (N s k v l r) + kidSize false r + 1) with (b + len (elems l) + 1 + kidSize false r) by lia.
      apply IHr; auto; [subst; congruence|lia].
    - destruct l as [|ls lk lv ll lr] eqn:El; auto. rewrite <- El in *.
      replace (b + kidSize false (N s k v l r) - kidSize true l - 1) with (b + kidSize false (N s k v l r) - (kidSize true l + 1)) by lia.
      rewrite left_pos by (subst; auto; congruence). rewrite IHl; auto; [subst; congruence|lia].
  Qed.
  Lemma keepToAt_none high t : forall b, sized t -> t <> E -> high < b \/ b + len (elems t) <= high ->
    keepToAt high (b + kidSize false t) t = None.
  Proof.
    induction t as [|s k v l IHl r IHr]; intros b Ht Hn Hb; [congruence|].
    pose proof Ht as (Hs & Hl & Hr). cbn [keepToAt]. cbn [elems] in *. rewrite len_mid in Hb.
    pose proof (kid_left s k v l r Hl) as Ek.
    pose proof (len_nonneg (elems l)) as Pl. pose proof (len_nonneg (elems r)) as Pr.
    destruct (_ >? high) eqn:E1; [|destruct (Z.ltb_spec (b + kidSize false (N s k v l r)) high)]; [| |lia].
    - destruct l as [|ls lk lv ll lr] eqn:El; auto. rewrite <- El in *.
      replace (b + kidSize false (N s k v l r) - kidSize true l - 1) with (b + kidSize false (N s k v l r) - (kidSize true l + 1)) by lia.
      rewrite left_pos by (subst; auto; congruence). apply IHl; auto; [subst; congruence|lia].
    - destruct r as [|rs rk rv rl rr] eqn:Er; auto. rewrite <- Er in *.
      replace (b + kidSize false (N s k v l r) + kidSize false r + 1) with (b + len (elems l) + 1 + kidSize false r) by lia.
      rewrite IHr; auto; [subst; congruence|lia].
  Qed.
End Sized.

Section Keys.
  Context {K V : Type} (ltb : K -> K -> bool) (W : weak_order ltb) (cmp : K -> K -> Z) (Hcmp : plain_cmp ltb cmp).
  Notation tree := (tree K V).
  Implicit Types (t l r : tree).

  Lemma plain_cases a b :
    (cmp a b = -1 /\ ltb a b = true) \/ (cmp a b = 1 /\ ltb b a = true) \/ (cmp a b = 0 /\ same ltb b a = true).
  Proof.
    rewrite Hcmp. unfold same. destruct (ltb a b) eqn:E1; auto. destruct (ltb b a) eqn:E2; auto.
  Qed.
  Ltac side3 key ck := destruct (plain_cases key ck) as [[Hc Ho]|[[Hc Ho]|[Hc Ho]]]; rewrite Hc;
    [change (-1 <? 0) with true
    |change (1 <? 0) with false; change (1 >? 0) with true
    |change (0 <? 0) with false; change (0 >? 0) with false]; cbv iota.
  Ltac cutL key := match goal with Ho : ltb key ?ck = true |- context[elems ?l ++ (?ck, ?cv) :: elems ?r] =>
    destruct (cut_left ltb W (elems l) (ck, cv) (elems r) key Ho) as (C1 & C2 & C3);
    [intros y Hy; apply (lt_asym _ W); auto|] end.
  Ltac cutR key := match goal with Ho : ltb ?ck key = true |- context[elems ?l ++ (?ck, ?cv) :: elems ?r] =>
    destruct (cut_right ltb W (elems l) (ck, cv) (elems r) key Ho) as (C1 & C2 & C3);
    [intros y Hy; apply (lt_asym _ W); auto|] end.
  Ltac cutS key := match goal with Ho : same ltb ?ck key = true, Hs : strictly_sorted ltb _ |- context[elems ?l ++ (?ck, ?cv) :: elems ?r] =>
    destruct (cut_same_strict ltb W (elems l) (ck, cv) (elems r) key Ho Hs) as (C1 & C2 & C3) end.

  Lemma put_ok shift hit key v t : 0 <= shift -> strictly_sorted ltb (elems t) -> sized t ->
    exists t' res, put cmp shift hit key v t = Some (t', res) /\ sized t' /\
      (res = None <-> sames ltb key (elems t) <> []) /\
      elems t' = match sames ltb key (elems t) with
                 | [] => write ltb key (key, v) (elems t)
                 | x :: _ => write ltb key (hit x) (elems t)
                 end /\
      (res <> None -> len (elems t') = len (elems t) + 1).
  Proof.
    intros Hsh. induction t as [|s ck cv l IHl r IHr]; intros Hs Ht.
    - cbn [put]. eexists _, _. split; [reflexivity|]. cbn [elems sized]. repeat split; auto; try congruence. tauto.
    - pose proof Ht as (Hz & Hl & Hr). cbn [elems] in Hs |- *. destruct (strict_mid ltb _ _ _ Hs) as (Sl & Sr & Ll & Lr).
      cbn [put]. side3 key ck.
      + cutL key. unfold write. rewrite C1, C2, C3.
        destruct (IHl Sl Hl) as (l' & res & -> & E1 & E2 & E3 & E4).
        assert (HX : elems l' ++ (ck, cv) :: elems r =
            match sames ltb key (elems l) with
            | [] => before ltb key (elems l) ++ (key, v) :: after ltb key (elems l) ++ (ck, cv) :: elems r
            | x :: _ => before ltb key (elems l) ++ hit x :: after ltb key (elems l) ++ (ck, cv) :: elems r
            end).
        { rewrite E3. unfold write. destruct (sames ltb key (elems l)); rewrite <- app_assoc; reflexivity. }
        destruct res as [st|].
        * assert (Hn : len (elems l') = len (elems l) + 1) by (apply E4; congruence).
          destruct (fixPut_ok shift st s ck cv l' r Hsh E1 Hr) as (t' & st' & -> & F1 & F2).
          { unfold len in *. lia. }
          eexists _, _. split; [reflexivity|]. split; auto. split; [split; [discriminate|intros X; apply E2 in X; discriminate]|].
          rewrite F1. split; [exact HX|]. intros _. rewrite !len_mid. lia.
        * eexists _, _. split; [reflexivity|]. cbn [elems]. split; [|split; [|split]]; auto; [|congruence].
          apply node_sized; auto. enough (len (elems l') = len (elems l)) by (unfold len in *; lia).
          destruct (sames ltb key (elems l)) as [|x xs] eqn:Es; [destruct (proj1 E2 eq_refl); reflexivity|].
          rewrite E3. clear HX E3 E4. pose proof (cut_all ltb W (elems l) key (strict_weak ltb W _ Sl)) as CA.
          destruct (strict_sames ltb W (elems l) key Sl) as [Q|(x' & Q)]; rewrite Q in *; [discriminate|].
          apply (f_equal (@length _)) in CA. rewrite !app_length in CA. unfold write, len. rewrite !app_length. cbn [length] in *. lia.
      + cutR key. unfold write. rewrite C1, C2, C3.
        destruct (IHr Sr Hr) as (r' & res & -> & E1 & E2 & E3 & E4).
        assert (HX : elems l ++ (ck, cv) :: elems r' =
            match sames ltb key (elems r) with
            | [] => (elems l ++ (ck, cv) :: before ltb key (elems r)) ++ (key, v) :: after ltb key (elems r)
            | x :: _ => (elems l ++ (ck, cv) :: before ltb key (elems r)) ++ hit x :: after ltb key (elems r)
            end).
        { rewrite E3. unfold write. destruct (sames ltb key (elems r)); rewrite <- app_assoc; reflexivity. }
        destruct res as [st|].
        * assert (Hn : len (elems r') = len (elems r) + 1) by (apply E4; congruence).
          destruct (fixPut_ok shift st s ck cv l r' Hsh Hl E1) as (t' & st' & -> & F1 & F2).
          { unfold len in *. lia. }
          eexists _, _. split; [reflexivity|]. split; auto. split; [split; [discriminate|intros X; apply E2 in X; discriminate]|].
          rewrite F1. split; [exact HX|]. intros _. rewrite !len_mid. lia.
        * eexists _, _. split; [reflexivity|]. cbn [elems]. split; [|split; [|split]]; auto; [|congruence].
          apply node_sized; auto. enough (len (elems r') = len (elems r)) by (unfold len in *; lia).
          destruct (sames ltb key (elems r)) as [|x xs] eqn:Es; [destruct (proj1 E2 eq_refl); reflexivity|].
          rewrite E3. clear HX E3 E4. pose proof (cut_all ltb W (elems r) key (strict_weak ltb W _ Sr)) as CA.
          destruct (strict_sames ltb W (elems r) key Sr) as [Q|(x' & Q)]; rewrite Q in *; [discriminate|].
          apply (f_equal (@length _)) in CA. rewrite !app_length in CA. unfold write, len. rewrite !app_length. cbn [length] in *. lia.
      + cutS key. unfold write. rewrite C1, C2, C3. destruct (hit (ck, cv)) as [k' v'] eqn:Eh.
        eexists _, _. split; [reflexivity|]. cbn [elems]. split; [apply node_sized; auto|].
        split; [split; congruence|]. split; auto. congruence.
  Qed.

  Lemma getNode_ok key t : strictly_sorted ltb (elems t) ->
    match sames ltb key (elems t) with
    | [] => getNode cmp key t = E
    | (k, v) :: _ => exists s l r, getNode cmp key t = N s k v l r
    end.
  Proof.
    induction t as [|s ck cv l IHl r IHr]; intros Hs; [reflexivity|].
    cbn [elems] in Hs |- *. destruct (strict_mid ltb _ _ _ Hs) as (Sl & Sr & Ll & Lr). cbn [getNode]. side3 key ck.
    - cutL key. rewrite C2. exact (IHl Sl).
    - cutR key. rewrite C2. exact (IHr Sr).
    - cutS key. rewrite C2. eauto.
  Qed.
  Lemma setValue_ok key v t : strictly_sorted ltb (elems t) -> sized t ->
    sized (setValue cmp key v t) /\ length (elems (setValue cmp key v t)) = length (elems t) /\
    elems (setValue cmp key v t) = match sames ltb key (elems t) with
                                   | [] => elems t
                                   | (k0, _) :: _ => write ltb key (k0, v) (elems t)
                                   end.
  Proof.
    induction t as [|s ck cv l IHl r IHr]; intros Hs Ht; [auto|]. pose proof Ht as (Hz & Hl & Hr).
    cbn [elems] in Hs |- *. destruct (strict_mid ltb _ _ _ Hs) as (Sl & Sr & Ll & Lr). cbn [setValue]. side3 key ck.
    - cutL key. unfold write. rewrite C1, C2, C3. destruct (IHl Sl Hl) as (E1 & E2 & E3). cbn [sized elems].
      rewrite !app_length. cbn [length]. rewrite E2. split; auto. split; auto. rewrite E3.
      destruct (sames ltb key (elems l)) as [|[k0 v0] xs]; auto. unfold write. rewrite <- app_assoc. reflexivity.
    - cutR key. unfold write. rewrite C1, C2, C3. destruct (IHr Sr Hr) as (E1 & E2 & E3). cbn [sized elems].
      rewrite !app_length. cbn [length]. rewrite E2. split; auto. split; auto. rewrite E3.
      destruct (sames ltb key (elems r)) as [|[k0 v0] xs]; auto. unfold write. rewrite <- app_assoc. reflexivity.
    - cutS key. unfold write. rewrite C1, C2, C3. cbn [sized elems]. rewrite !app_length. auto.
  Qed.

  Lemma indexOfLoop_ok key t : forall b, strictly_sorted ltb (elems t) -> sized t ->
    indexOfLoop cmp key (b + kidSize false t) t =
    match sames ltb key (elems t) with [] => -1 | _ => b + len (before ltb key (elems t)) end.
  Proof.
    induction t as [|s ck cv l IHl r IHr]; intros b Hs Ht; [reflexivity|]. pose proof Ht as (Hz & Hl & Hr).
    cbn [elems] in Hs |- *. destruct (strict_mid ltb _ _ _ Hs) as (Sl & Sr & Ll & Lr). cbn [indexOfLoop]. side3 key ck.
    - cutL key. rewrite C1, C2. destruct l as [|ls lk lv ll lr] eqn:El; [reflexivity|].
      rewrite <- El in *. rewrite left_pos by (subst; auto; congruence). auto.
    - cutR key. rewrite C1, C2, right_pos, IHr by auto. destruct (sames ltb key (elems r)); auto. rewrite len_mid. lia.
    - cutS key. rewrite C1, C2, kid_left by auto. reflexivity.
  Qed.

  Lemma removeKey_ok key t : strictly_sorted ltb (elems t) -> sized t ->
    exists t', removeKey cmp key t = Some (t', option_map snd (hd_error (sames ltb key (elems t)))) /\
      elems t' = erase ltb key (elems t) /\ sized t' /\
      len (elems t') = len (elems t) - match sames ltb key (elems t) with [] => 0 | _ => 1 end.
  Proof.
    induction t as [|s ck cv l IHl r IHr]; intros Hs Ht; [exists E; repeat split; reflexivity|]. pose proof Ht as (Hz & Hl & Hr).
    cbn [elems] in Hs |- *. destruct (strict_mid ltb _ _ _ Hs) as (Sl & Sr & Ll & Lr). cbn [removeKey]. side3 key ck.
    - cutL key. unfold erase. rewrite C1, C2, C3. destruct (IHl Sl Hl) as (l' & -> & E1 & E2 & E3).
      eexists. split; [reflexivity|]. cbn [elems]. rewrite !len_mid, E3, E1. unfold erase. rewrite <- app_assoc. split; auto.
      split; [|lia]. apply node_sized; auto. rewrite E3. unfold len in *.
      destruct (sames ltb key (elems l)); cbn [hd_error option_map]; lia.
    - cutR key. unfold erase. rewrite C1, C2, C3. destruct (IHr Sr Hr) as (r' & -> & E1 & E2 & E3).
      eexists. split; [reflexivity|]. cbn [elems]. rewrite !len_mid, E3, E1. unfold erase. rewrite <- app_assoc. split; auto.
      split; [|lia]. apply node_sized; auto. rewrite E3. unfold len in *.
      destruct (sames ltb key (elems r)); cbn [hd_error option_map]; lia.
    - cutS key. unfold erase. rewrite C1, C2, C3. destruct (removeNode_ok s ck cv l r Ht) as (t' & -> & E1 & E2).
      eexists. split; [reflexivity|]. split; auto. split; auto. rewrite E1, len_mid. unfold len. rewrite app_length. lia.
  Qed.

  (** ** cutting by key *)
  Notation F f := (filter (fun e : K * V => f (fst e))).
  Notation NF f := (filter (fun e : K * V => negb (f (fst e)))).

  Lemma gt0 a b : (cmp a b >? 0) = ltb b a.
  Proof. destruct (plain_cases a b) as [[-> H]|[[-> H]|[-> H]]]; [|auto|]. - symmetry. apply (lt_asym _ W); auto.
    - apply same_iff in H. symmetry. tauto. Qed.
  Lemma lt0 a b : (cmp a b <? 0) = ltb a b.
  Proof. destruct (plain_cases a b) as [[-> H]|[[-> H]|[-> H]]]; [auto| |]. - symmetry. apply (lt_asym _ W); auto.
    - apply same_iff in H. symmetry. tauto. Qed.

  Lemma ltrim_ok low t : strictly_sorted ltb (elems t) -> sized t ->
    elems (ltrim cmp low t) = F (fun a => ltb a low) (elems t) /\ sized (ltrim cmp low t).
  Proof.
    induction t as [|s k v l IHl r IHr]; intros Hs Ht; [auto|]. pose proof Ht as (_ & Hl & Hr). cbn [elems] in *.
    destruct (strict_mid ltb _ _ _ Hs) as (Sl & Sr & _ & _). cbn [ltrim]. rewrite gt0. destruct (ltb k low) eqn:E1.
    - destruct (mono_yes ltb (fun a => ltb a low) _ _ _ (mono_lt ltb W low) Hs E1) as (-> & _). destruct (IHr Sr Hr) as (E2 & E3).
      rewrite sum_elems, E2. split; auto. apply sum_sized; auto.
    - destruct (mono_no ltb (fun a => ltb a low) _ _ _ (mono_lt ltb W low) Hs E1) as (-> & _). auto.
  Qed.
  Lemma rtrim_ok high t : strictly_sorted ltb (elems t) -> sized t ->
    elems (rtrim cmp high t) = NF (fun a => negb (ltb high a)) (elems t) /\ sized (rtrim cmp high t).
  Proof.
    induction t as [|s k v l IHl r IHr]; intros Hs Ht; [auto|]. pose proof Ht as (_ & Hl & Hr). cbn [elems] in *.
    destruct (strict_mid ltb _ _ _ Hs) as (Sl & Sr & _ & _). cbn [rtrim]. rewrite lt0. destruct (ltb high k) eqn:E1.
    - destruct (mono_no ltb (fun a => negb (ltb high a)) _ (k, v) _ (mono_le ltb W high) Hs) as (_ & ->); [cbn [fst]; rewrite E1; auto|].
      destruct (IHl Sl Hl) as (E2 & E3). rewrite sum_elems, E2. split; auto. apply sum_sized; auto.
    - destruct (mono_yes ltb (fun a => negb (ltb high a)) _ (k, v) _ (mono_le ltb W high) Hs) as (_ & ->); [cbn [fst]; rewrite E1; auto|]. auto.
  Qed.
  Lemma keepFrom_ok low t : strictly_sorted ltb (elems t) -> sized t ->
    elems (keepFrom cmp low t) = NF (fun a => ltb a low) (elems t) /\ sized (keepFrom cmp low t).
  Proof.
    induction t as [|s k v l IHl r IHr]; intros Hs Ht; [auto|]. pose proof Ht as (_ & Hl & Hr). cbn [elems] in *.
    destruct (strict_mid ltb _ _ _ Hs) as (Sl & Sr & Ll & _). cbn [keepFrom]. rewrite gt0, lt0. destruct (ltb k low) eqn:E1.
    - destruct (mono_yes ltb (fun a => ltb a low) _ _ _ (mono_lt ltb W low) Hs E1) as (_ & ->). auto.
    - destruct (mono_no ltb (fun a => ltb a low) _ _ _ (mono_lt ltb W low) Hs E1) as (_ & ->). destruct (ltb low k) eqn:E2.
      + destruct (IHl Sl Hl) as (E3 & E4). rewrite sum_elems, E3. split; auto. apply sum_sized; auto.
      + split.
        * cbn [elems app]. rewrite filter_none; auto. intros y Hy. apply negb_false_iff.
          rewrite <- (same_lt_r ltb W k low); [apply (Ll y Hy)|apply same_iff; auto].
        * apply (sum_sized k v E r); cbn [sized]; auto.
  Qed.
  Lemma keepTo_ok high t : strictly_sorted ltb (elems t) -> sized t ->
    elems (keepTo cmp high t) = F (fun a => negb (ltb high a)) (elems t) /\ sized (keepTo cmp high t).
  Proof.
    induction t as [|s k v l IHl r IHr]; intros Hs Ht; [auto|]. pose proof Ht as (_ & Hl & Hr). cbn [elems] in *.
    destruct (strict_mid ltb _ _ _ Hs) as (Sl & Sr & _ & Lr). cbn [keepTo]. rewrite gt0, lt0. destruct (ltb high k) eqn:E1.
    - destruct (mono_no ltb (fun a => negb (ltb high a)) _ (k, v) _ (mono_le ltb W high) Hs) as (-> & _); [cbn [fst]; rewrite E1; auto|]. auto.
    - destruct (mono_yes ltb (fun a => negb (ltb high a)) _ (k, v) _ (mono_le ltb W high) Hs) as (-> & _); [cbn [fst]; rewrite E1; auto|].
      destruct (ltb k high) eqn:E2.
      + destruct (IHr Sr Hr) as (E3 & E4). rewrite sum_elems, E3. split; auto. apply sum_sized; auto.
      + split.
        * cbn [elems app]. rewrite filter_none; auto. intros y Hy. apply negb_false_iff.
          rewrite <- (same_lt_l ltb W k high); [apply (Lr y Hy)|apply same_iff; auto].
        * rewrite size_len by auto. apply node_sized; cbn [sized]; auto. change (len (elems E)) with 0. lia.
  Qed.

  (** [low] and [high] compare equal to [k]'s key or lie on the two sides of it exactly when it is in the range *)
  Lemma range_here low high k : ltb high low = false ->
    (cmp low k = cmp high k /\ cmp low k = -1 /\ ltb high k = true /\ ltb low k = true) \/
    (cmp low k = cmp high k /\ cmp low k = 1 /\ ltb k low = true /\ ltb k high = true) \/
    ((cmp low k <> cmp high k \/ cmp low k = 0) /\ within ltb low high k = true).
  Proof.
    intros Hlh. unfold within.
    destruct (plain_cases low k) as [[-> H1]|[[-> H1]|[-> H1]]], (plain_cases high k) as [[-> H2]|[[-> H2]|[-> H2]]]; auto 6.
    - right; right. split; [left; lia|]. rewrite (lt_asym _ W _ _ H1), (lt_asym _ W _ _ H2). auto.
    - right; right. split; [left; lia|]. apply same_iff in H2. rewrite (lt_asym _ W _ _ H1). destruct H2 as (_ & ->). auto.
    - exfalso. rewrite (wo_trans _ W _ _ _ H2 H1) in Hlh. discriminate.
    - exfalso. rewrite <- (same_lt_l _ W _ _ _ H2), H1 in Hlh. discriminate.
    - exfalso. rewrite <- (same_lt_r _ W _ _ _ H1), H2 in Hlh. discriminate.
    - right; right. split; [right; auto|]. apply same_iff in H1. destruct H1 as (-> & _). rewrite (lt_asym _ W _ _ H2). auto.
    - right; right. split; [right; auto|]. apply same_iff in H1, H2. destruct H1 as (-> & _), H2 as (_ & ->). auto.
  Qed.

  Lemma out_right low high m k : ltb high k = true -> (forall y : K * V, In y m -> ltb k (fst y) = true) ->
    forall y, In y m -> within ltb low high (fst y) = false.
  Proof.
    intros H1 H2 y Hy. unfold within. rewrite (wo_trans _ W high k (fst y)); auto. apply andb_false_r.
  Qed.
  Lemma out_left low high m k : ltb k low = true -> (forall y : K * V, In y m -> ltb (fst y) k = true) ->
    forall y, In y m -> within ltb low high (fst y) = false.
  Proof.
    intros H1 H2 y Hy. unfold within. rewrite (wo_trans _ W (fst y) k low); auto.
  Qed.
  Lemma in_left low high k y : within ltb low high k = true -> ltb (fst y) k = true ->
    within ltb low high (@fst K V y) = negb (ltb (fst y) low).
  Proof.
    unfold within. rewrite andb_true_iff, !negb_true_iff. intros (_ & H1) H2.
    rewrite (le_le _ W (fst y) k high); auto; [apply andb_true_r|]. apply (lt_asym _ W); auto.
  Qed.
  Lemma in_right low high k y : within ltb low high k = true -> ltb k (fst y) = true ->
    within ltb low high (@fst K V y) = negb (ltb high (fst y)).
  Proof.
    unfold within. rewrite andb_true_iff, !negb_true_iff. intros (H1 & _) H2.
    rewrite (le_le _ W low k (fst y)); auto. apply (lt_asym _ W); auto.
  Qed.

  Lemma removeRange_ok low high t : ltb high low = false -> strictly_sorted ltb (elems t) -> sized t ->
    exists t' c, removeRange cmp low high t = Some (t', c) /\
      elems t' = NF (within ltb low high) (elems t) /\ sized t' /\ cutOk c (len (elems t)) (len (elems t')).
  Proof.
    intros Hlh. induction t as [|s k v l IHl r IHr]; intros Hs Ht.
    - exists E, Nothing. repeat split; reflexivity.
    - pose proof Ht as (Hz & Hl & Hr). cbn [elems] in Hs |- *. destruct (strict_mid ltb _ _ _ Hs) as (Sl & Sr & Ll & Lr).
      cbn [fst] in Ll, Lr. cbn [removeRange].
      destruct (range_here low high k Hlh) as [(-> & H2 & H3 & H4)|[(-> & H2 & H3 & H4)|(H1 & H2)]].
      + replace (_ && (cmp high k <? 0)) with true by (rewrite Z.eqb_refl, lt0, H3; reflexivity).
        destruct (IHl Sl Hl) as (l' & c & -> & E2 & E3 & E4).
        destruct (up_left c s k v l l' r Ht E3 E4) as (X1 & X2 & X3). eexists _, _. split; [reflexivity|].
        split; [|split; auto].
        rewrite X2, E2, filter_app. cbn [filter fst]. f_equal.
        replace (within ltb low high k) with false by (unfold within; rewrite H3; symmetry; apply andb_false_r). cbn [negb].
        f_equal. symmetry. apply filter_all. intros y Hy. rewrite (out_right low high (elems r) k H3 Lr y Hy). reflexivity.
      + replace (_ && (cmp high k <? 0)) with false by (rewrite lt0, (lt_asym _ W _ _ H4), andb_false_r; reflexivity).
        replace (_ && (cmp high k >? 0)) with true by (rewrite Z.eqb_refl, gt0, H4; reflexivity).
        destruct (IHr Sr Hr) as (r' & c & -> & E2 & E3 & E4).
        destruct (up_right c s k v l r r' Ht E3 E4) as (X1 & X2 & X3). eexists _, _. split; [reflexivity|].
        split; [|split; auto].
        rewrite X2, E2, filter_app. cbn [filter fst].
        replace (within ltb low high k) with false by (unfold within; rewrite H3; reflexivity). cbn [negb].
        f_equal. symmetry. apply filter_all. intros y Hy. rewrite (out_left low high (elems l) k H3 Ll y Hy). reflexivity.
      + replace ((cmp low k =? cmp high k) && (cmp low k <? 0)) with false.
        2:{ symmetry. apply andb_false_iff. destruct H1 as [H1|H1]; [left; apply Z.eqb_neq; auto|right; rewrite H1; auto]. }
        replace ((cmp low k =? cmp high k) && (cmp low k >? 0)) with false.
        2:{ symmetry. apply andb_false_iff. destruct H1 as [H1|H1]; [left; apply Z.eqb_neq; auto|right; rewrite H1; auto]. }
        destruct (ltrim_ok low l Sl Hl) as (L1 & L2). destruct (rtrim_ok high r Sr Hr) as (R1 & R2).
        destruct (closeCut_ok (N s k v l r) _ _ Ht L2 R2) as (t' & c & C1 & C2 & C3 & C4). cbn [getSize] in C1. rewrite C1.
        eexists _, _. split; [reflexivity|]. split; [|split; auto]. rewrite C2, L1, R1, filter_app. cbn [filter fst]. rewrite H2. cbn [negb].
        f_equal; apply filter_eq; intros y Hy.
        * rewrite (in_left low high k y H2 (Ll y Hy)), negb_involutive. reflexivity.
        * rewrite (in_right low high k y H2 (Lr y Hy)). reflexivity.
  Qed.

  Lemma leave_keep low high t : ltb high low = false ->
    leaveTo cmp high (leaveFrom cmp low (getRangeRoot cmp low high t)) = keepTo cmp high (keepFrom cmp low (getRangeRoot cmp low high t)).
  Proof.
    intros Hlh. induction t as [|s k v l IHl r IHr]; [reflexivity|]. cbn [getRangeRoot].
    destruct (range_here low high k Hlh) as [(-> & H2 & H3 & H4)|[(-> & H2 & H3 & H4)|(H1 & H2)]].
    - rewrite Z.eqb_refl, lt0, H3. cbn [negb]. exact IHl.
    - rewrite Z.eqb_refl, lt0, (lt_asym _ W _ _ H4), gt0, H4. cbn [negb]. exact IHr.
    - replace (if negb (cmp low k =? cmp high k) then _ else _) with (N s k v l r).
      2:{ destruct (Z.eqb_spec (cmp low k) (cmp high k)); cbn [negb]; auto. destruct H1 as [H1|H1]; [tauto|]. rewrite H1. reflexivity. }
      unfold within in H2. apply andb_true_iff in H2. destruct H2 as (H2 & H3). apply negb_true_iff in H2, H3.
      cbn [leaveFrom]. rewrite gt0, H2. cbn [keepFrom]. rewrite gt0, H2, lt0.
      destruct (ltb low k); [unfold sum|]; cbn [leaveTo]; rewrite lt0, H3; reflexivity.
  Qed.

  Lemma Trim_ok low high t : ltb high low = false -> strictly_sorted ltb (elems t) -> sized t ->
    elems (leaveTo cmp high (leaveFrom cmp low (getRangeRoot cmp low high t))) = F (within ltb low high) (elems t) /\
    sized (leaveTo cmp high (leaveFrom cmp low (getRangeRoot cmp low high t))).
  Proof.
    intros Hlh. rewrite (leave_keep low high t Hlh). induction t as [|s k v l IHl r IHr]; intros Hs Ht; [split; reflexivity || exact I|].
    pose proof Ht as (Hz & Hl & Hr). pose proof Hs as Hs'. cbn [elems] in Hs |- *.
    destruct (strict_mid ltb _ _ _ Hs) as (Sl & Sr & Ll & Lr). cbn [fst] in Ll, Lr. cbn [getRangeRoot].
    destruct (range_here low high k Hlh) as [(-> & H2 & H3 & H4)|[(-> & H2 & H3 & H4)|(H1 & H2)]].
    - rewrite Z.eqb_refl, lt0, H3. cbn [negb]. destruct (IHl Sl Hl) as (E1 & E2). split; auto. rewrite E1, filter_app. cbn [filter fst].
      replace (within ltb low high k) with false by (unfold within; rewrite H3; symmetry; apply andb_false_r).
      rewrite (filter_none _ (elems r)), app_nil_r; auto. apply (out_right low high (elems r) k H3 Lr).
    - rewrite Z.eqb_refl, lt0, (lt_asym _ W _ _ H4), gt0, H4. cbn [negb].
      destruct (IHr Sr Hr) as (E1 & E2). split; auto. rewrite E1, filter_app. cbn [filter fst].
      replace (within ltb low high k) with false by (unfold within; rewrite H3; reflexivity).
      rewrite (filter_none _ (elems l)); auto. apply (out_left low high (elems l) k H3 Ll).
    - replace (if negb (cmp low k =? cmp high k) then _ else _) with (N s k v l r).
      2:{ destruct (Z.eqb_spec (cmp low k) (cmp high k)); cbn [negb]; auto. destruct H1 as [H1|H1]; [tauto|]. rewrite H1. reflexivity. }
      destruct (keepFrom_ok low (N s k v l r) Hs' Ht) as (E1 & E2).
      destruct (keepTo_ok high (keepFrom cmp low (N s k v l r))) as (E3 & E4); auto.
      { rewrite E1. apply ssorted_filter; auto. }
      split; auto. rewrite E3, E1. cbn [elems]. clear. induction (elems l ++ (k, v) :: elems r) as [|y m IH]; auto.
      cbn [filter]. unfold within in *. destruct (ltb (fst y) low); cbn [negb andb filter]; auto.
      destruct (ltb high (fst y)); cbn [negb]; rewrite IH; auto.
  Qed.

  (** ** splitting *)
  Definition toLeft (contain : bool) (key k : K) : bool := if contain then negb (ltb key k) else ltb k key.
  Lemma mono_toLeft contain key : mono ltb (toLeft contain key).
  Proof. destruct contain; [apply (mono_le ltb W)|apply (mono_lt ltb W)]. Qed.
  Lemma goesLeft_ok contain key k : goesLeft cmp contain key k = toLeft contain key k.
  Proof. unfold goesLeft, toLeft. rewrite gt0, lt0. reflexivity. Qed.

  Lemma splitBelow_ok contain key t : strictly_sorted ltb (elems t) -> sized t ->
    let p := splitBelow cmp contain key t in
    elems (fst p) = F (toLeft contain key) (elems t) /\ elems (snd p) = NF (toLeft contain key) (elems t) /\
    sized (fst p) /\ sized (snd p).
  Proof.
    induction t as [|s k v l IHl r IHr]; intros Hs Ht; [cbn; auto|]. pose proof Ht as (_ & Hl & Hr). cbn [elems] in *.
    destruct (strict_mid ltb _ _ _ Hs) as (Sl & Sr & Ll & Lr). cbn [fst] in Ll, Lr. cbn [splitBelow]. rewrite gt0, lt0.
    pose proof (mono_toLeft contain key) as M.
    destruct (ltb key k) eqn:E1; [|destruct (ltb k key) eqn:E2].
    - destruct (mono_no ltb _ _ (k, v) _ M Hs) as (X1 & X2).
      { unfold toLeft. cbn [fst]. destruct contain; [rewrite E1; auto|apply (lt_asym _ W); auto]. }
      specialize (IHl Sl Hl). destruct (splitBelow cmp contain key l) as [a b]. cbn [fst snd] in *.
      destruct IHl as (A1 & A2 & A3 & A4). rewrite sum_elems, X1, X2, A1, A2. repeat split; auto; try apply sum_sized; auto.
    - destruct (mono_yes ltb _ _ (k, v) _ M Hs) as (X1 & X2).
      { unfold toLeft. cbn [fst]. destruct contain; [rewrite E1; auto|auto]. }
      specialize (IHr Sr Hr). destruct (splitBelow cmp contain key r) as [a b]. cbn [fst snd] in *.
      destruct IHr as (A1 & A2 & A3 & A4). rewrite sum_elems, X1, X2, A1, A2. repeat split; auto; try apply sum_sized; auto.
    - assert (Q : same ltb k key = true) by (apply same_iff; auto).
      destruct contain; cbn [fst snd].
      + destruct (mono_yes ltb _ _ (k, v) _ M Hs) as (X1 & X2); [unfold toLeft; cbn [fst]; rewrite E1; auto|].
        assert (Y : forall y, In y (elems r) -> toLeft true key (fst y) = false).
        { intros y Hy. unfold toLeft. rewrite <- (same_lt_l ltb W _ _ _ Q), (Lr y Hy). auto. }
        rewrite X1, X2. cbn [elems]. rewrite filter_none, filter_all; auto; [|intros y Hy; rewrite Y; auto].
        repeat split; auto. apply node_sized; cbn [sized]; auto. rewrite size_len by auto. change (len (elems E)) with 0. lia.
      + destruct (mono_no ltb _ _ (k, v) _ M Hs) as (X1 & X2); [unfold toLeft; cbn [fst]; auto|].
        assert (Y : forall y, In y (elems l) -> toLeft false key (fst y) = true).
        { intros y Hy. unfold toLeft. rewrite <- (same_lt_r ltb W _ _ _ Q). apply (Ll y Hy). }
        rewrite X1, X2. cbn [elems]. rewrite filter_all, filter_none; auto; [|intros y Hy; rewrite Y; auto].
        repeat split; auto. apply node_sized; cbn [sized]; auto. rewrite size_len by auto. change (len (elems E)) with 0. lia.
  Qed.

  Lemma splitRun_ok contain run key t : strictly_sorted ltb (elems t) -> sized t ->
    match splitRun cmp contain run key t with
    | None => forall y, In y (elems t) -> toLeft contain key (fst y) = run
    | Some p => elems (fst p) = F (toLeft contain key) (elems t) /\ elems (snd p) = NF (toLeft contain key) (elems t) /\
                sized (fst p) /\ sized (snd p)
    end.
  Proof.
    induction t as [|s k v l IHl r IHr]; intros Hs Ht; [cbn; tauto|]. pose proof Ht as (_ & Hl & Hr). cbn [elems] in *.
    destruct (strict_mid ltb _ _ _ Hs) as (Sl & Sr & Ll & Lr). cbn [fst] in Ll, Lr. cbn [splitRun]. rewrite goesLeft_ok.
    pose proof (mono_toLeft contain key) as M. destruct (toLeft contain key k) eqn:E1.
    - destruct (mono_yes ltb _ _ (k, v) _ M Hs E1) as (X1 & X2). destruct run.
      + specialize (IHr Sr Hr). destruct (splitRun cmp contain true key r) as [[a b]|]; cbn [fst snd] in *.
        * destruct IHr as (A1 & A2 & A3 & A4). rewrite sum_elems, X1, X2, A1, A2. repeat split; auto; try apply sum_sized; auto.
        * intros y Hy. apply in_app_or in Hy. destruct Hy as [Hy|[<-|Hy]]; auto. apply (M (fst y) k); auto.
      + pose proof (splitBelow_ok contain key r Sr Hr) as B. cbv zeta in B.
        destruct (splitBelow cmp contain key r) as [a b]. cbn [fst snd] in *.
        destruct B as (A1 & A2 & A3 & A4). rewrite sum_elems, X1, X2, A1, A2. repeat split; auto; try apply sum_sized; auto.
    - destruct (mono_no ltb _ _ (k, v) _ M Hs E1) as (X1 & X2). destruct run.
      + pose proof (splitBelow_ok contain key l Sl Hl) as B. cbv zeta in B.
        destruct (splitBelow cmp contain key l) as [a b]. cbn [fst snd] in *.
        destruct B as (A1 & A2 & A3 & A4). rewrite sum_elems, X1, X2, A1, A2. repeat split; auto; try apply sum_sized; auto.
      + specialize (IHl Sl Hl). destruct (splitRun cmp contain false key l) as [[a b]|]; cbn [fst snd] in *.
        * destruct IHl as (A1 & A2 & A3 & A4). rewrite sum_elems, X1, X2, A1, A2. repeat split; auto; try apply sum_sized; auto.
        * intros y Hy. apply in_app_or in Hy. destruct Hy as [Hy|[<-|Hy]]; auto.
          destruct (toLeft contain key (fst y)) eqn:E2; auto. rewrite (M k (fst y)) in E1; auto.
  Qed.

  Lemma Split_ok contain key t : strictly_sorted ltb (elems t) -> sized t -> t <> E ->
    exists a b, Split cmp contain key t = Some (a, b) /\
      elems a = F (toLeft contain key) (elems t) /\ elems b = NF (toLeft contain key) (elems t) /\ sized a /\ sized b.
  Proof.
    intros Hs Ht Hn. unfold Split. destruct t as [|s k v l r] eqn:Et; [congruence|]. rewrite <- Et in *. rewrite goesLeft_ok.
    assert (Hin : In (k, v) (elems t)) by (subst; cbn [elems]; apply in_or_app; simpl; auto).
    destruct (toLeft contain key k).
    - pose proof (splitRun_ok contain true key t Hs Ht) as X. destruct (splitRun cmp contain true key t) as [[a b]|].
      + eauto.
      + exists t, E. split; auto. cbn [sized]. rewrite filter_all, filter_none; auto. intros y Hy. rewrite X; auto.
    - pose proof (splitRun_ok contain false key t Hs Ht) as X. destruct (splitRun cmp contain false key t) as [[a b]|].
      + eauto.
      + exists E, t. split; auto. cbn [sized]. rewrite filter_none, filter_all; auto. intros y Hy. rewrite X; auto.
  Qed.
End Keys.

Section TrimAt.
  Context {K V : Type}.
  Notation tree := (tree K V).
  Implicit Types (t l r : tree).

  Lemma keepFromAt_root low s k v l r b t1 : sized (N s k v l r) -> b <= low <= b + kidSize false (N s k v l r) ->
    keepFromAt low (b + kidSize false (N s k v l r)) (N s k v l r) = Some t1 ->
    low + kidSize false t1 = b + kidSize false (N s k v l r) /\ t1 <> E.
  Proof.
    intros Ht Hb. pose proof Ht as (Hs & Hl & Hr). cbn [keepFromAt]. pose proof (kid_left s k v l r Hl) as Ek.
    destruct (Z.ltb_spec (b + kidSize false (N s k v l r)) low); [lia|].
    destruct (_ >? low) eqn:E1.
    - destruct (keepFromAt_ok low l b Hl) as (l' & E2 & E3 & E4); [lia|].
      destruct l as [|ls lk lv ll lr] eqn:El; [discriminate|]. rewrite <- El in *.
      replace (b + kidSize false (N s k v l r) - kidSize true l - 1) with (b + kidSize false (N s k v l r) - (kidSize true l + 1)) by lia.
      rewrite left_pos by (subst; auto; congruence). rewrite E2. intros X. injection X as <-. split; [|unfold sum; congruence].
      unfold sum. rewrite kid_left, E3 by auto. rewrite Ek. unfold len in *. rewrite skipn_length. lia.
    - intros X. injection X as <-. split; [|congruence]. cbn [kidSize child getSize]. cbn [kidSize child] in *. lia.
  Qed.

  Lemma trimAt_ok low high t : low <= high -> forall b, sized t ->
    (b <= low /\ high < b + len (elems t) ->
     exists t', trimAt low high (b + kidSize false t) t = Kept t' /\
       elems t' = firstn (Z.to_nat (high + 1 - low)) (skipn (Z.to_nat (low - b)) (elems t)) /\ sized t') /\
    (~ (b <= low /\ high < b + len (elems t)) -> ~ (b < low < b + len (elems t) /\ b + len (elems t) <= high) ->
     exists t', trimAt low high (b + kidSize false t) t = Broken t' /\ elems t' = elems t /\ sized t').
  Proof.
    intros Hlh. induction t as [|s k v l IHl r IHr]; intros b Ht.
    { change (len (elems E)) with 0. split; [lia|]. intros _ _. exists E. auto. }
    pose proof Ht as (Hs & Hl & Hr). pose proof (kid_left s k v l r Hl) as Ek.
    pose proof (len_nonneg (elems l)) as Pl. pose proof (len_nonneg (elems r)) as Pr.
    cbn [trimAt]. destruct ((_ >? low) && _) eqn:E1; [|destruct ((_ <? high) && _) eqn:E2].
    - apply andb_true_iff in E1. cbn [elems]. rewrite len_mid.
      destruct (IHl b Hl) as (A & B).
      assert (EL : trimAt low high (b + kidSize false (N s k v l r) - (kidSize true l + 1)) l = trimAt low high (b + kidSize false l) l).
      { destruct l as [|ls lk lv ll lr] eqn:El; [reflexivity|]. rewrite <- El in *. rewrite left_pos; auto. subst; congruence. }
      rewrite EL. split.
      + intros H. destruct A as (t' & -> & A1 & A2); [lia|]. exists t'. split; auto. split; auto. rewrite A1.
        unfold len in *. rewrite skipn_left by lia. rewrite firstn_app.
        replace (Z.to_nat _ - length (skipn _ _))%nat with 0%nat by (rewrite skipn_length; lia). cbn [firstn]. rewrite app_nil_r. auto.
      + intros H1 H2. destruct B as (l' & -> & B1 & B2); [lia|lia|]. eexists. split; [reflexivity|]. cbn [elems]. rewrite B1. split; auto.
        apply node_sized; auto. rewrite B1. auto.
    - apply andb_true_iff in E2. cbn [elems]. rewrite len_mid. rewrite right_pos by auto.
      destruct (IHr (b + len (elems l) + 1) Hr) as (A & B). split.
      + intros H. destruct A as (t' & -> & A1 & A2); [lia|]. exists t'. split; auto. split; auto. rewrite A1.
        unfold len in *. rewrite skipn_right by lia. do 3 f_equal. lia.
      + intros H1 H2. destruct B as (r' & -> & B1 & B2); [lia|lia|]. eexists. split; [reflexivity|]. cbn [elems]. rewrite B1. split; auto.
        apply node_sized; auto. rewrite B1. auto.
    - apply andb_false_iff in E1, E2. pose proof (len_mid (elems l) (k, v) (elems r)) as EM.
      change (elems l ++ (k, v) :: elems r) with (elems (N s k v l r)) in EM. split.
      + intros H. destruct (keepFromAt_ok low (N s k v l r) b Ht) as (t1 & F1 & F2 & F3); [lia|]. rewrite F1.
        destruct (keepFromAt_root low s k v l r b t1 Ht) as (R1 & R2); auto; [lia|]. rewrite <- R1.
        assert (EN : len (elems t1) = b + len (elems (N s k v l r)) - low).
        { rewrite F2. unfold len in *. rewrite skipn_length. lia. }
        destruct (keepToAt_ok high t1 low F3) as (t2 & G1 & G2 & G3); [lia|]. rewrite G1. exists t2. rewrite G2, F2. auto.
      + intros H1 H2. destruct (Z.lt_ge_cases low b) as [H3|H3].
        { rewrite keepFromAt_none; auto; [|congruence]. exists (N s k v l r). auto. }
        destruct (keepFromAt_ok low (N s k v l r) b Ht) as (t1 & F1 & F2 & F3); [lia|]. rewrite F1.
        destruct (keepFromAt_root low s k v l r b t1 Ht) as (R1 & R2); auto; [lia|]. rewrite <- R1.
        replace (low - b) with 0 in F2 by lia. cbn [Z.to_nat skipn] in F2. change (skipn 0 ?x) with x in F2.
        rewrite keepToAt_none; auto; [exists t1; auto|]. rewrite F2. lia.
  Qed.
End TrimAt.

(** ** runs of operations *)
Section Steps.
  Context {K A : Type} (ltb : K -> K -> bool) (W : weak_order ltb) (cmp : K -> K -> Z) (Hcmp : plain_cmp ltb cmp)
          (shift : Z) (Hsh : 0 <= shift).
  Notation tree := (tree K (option A)).
  Notation entries := (list (K * option A)).

  Definition XRel (t : tree) (m : entries) : Prop := elems t = m /\ sized t /\ strictly_sorted ltb m.

  Lemma outside_sorted i j (m : entries) : 0 <= j + 1 -> i <= j + 1 -> strictly_sorted ltb m -> strictly_sorted ltb (outside i j m).
  Proof.
    intros H1 H2 Hm. unfold outside, strictly_sorted. rewrite ssorted_app. split; [|split].
    - apply ssorted_firstn; auto.
    - apply ssorted_skipn; auto.
    - intros x y Hx Hy. exact (ssorted_cross _ (Z.to_nat i) (Z.to_nat (j + 1)) m x y Hm ltac:(lia) Hx Hy).
  Qed.

  Lemma ix_spec_sorted m o : strictly_sorted ltb m -> strictly_sorted ltb (fst (ix_spec (A := A) ltb m o)).
  Proof.
    intros Hm. destruct o; simpl; auto.
    1, 2: destruct (sames ltb k m); auto; apply (write_sorted ltb W); auto; apply (same_refl _ W).
    - apply (write_sorted ltb W); auto. apply (same_refl _ W).
    - destruct (sames ltb k m) as [|[k0 v0] l] eqn:E; simpl; apply (write_sorted ltb W); auto.
      + apply (same_refl _ W).
      + assert (H : In (k0, v0) (sames ltb k m)) by (rewrite E; simpl; auto). apply filter_In in H. tauto.
    - apply (erase_sorted ltb W); auto.
    - apply (erase_sorted ltb W); auto.
    - constructor.
    - destruct (Z.lt_ge_cases i 0) as [H|H]; [rewrite andb_false_l || idtac|].
      + replace (0 <=? i) with false by (symmetry; apply Z.leb_gt; lia). auto.
      + destruct ((0 <=? i) && (i <? len m)); auto. destruct (nth_error m (Z.to_nat i)); auto.
        apply outside_sorted; auto; lia.
    - destruct (ltb hi lo); auto. apply ssorted_filter; auto.
    - destruct (Z.ltb_spec j i); auto. destruct ((j <? 0) || _ || _) eqn:E; auto. rewrite !orb_false_iff in E.
      apply outside_sorted; auto; lia.
    - destruct (ltb hi lo); auto. apply ssorted_filter; auto.
    - destruct ((j <? i) || (i <? 0) || (len m <=? j)); auto. apply ssorted_firstn, ssorted_skipn; auto.
    - destruct rgt; apply ssorted_filter; auto.
  Qed.

  Lemma step_ok t m o : XRel t m -> trim_in_range m o ->
    XRel (fst (step cmp shift t o)) (fst (ix_spec ltb m o)) /\
    (answered ltb m o -> snd (step cmp shift t o) = snd (ix_spec ltb m o)).
  Proof.
    intros (Ee & Ht & Hs) Hp.
    assert (HS := ix_spec_sorted m o Hs). unfold XRel. rewrite <- Ee in *. clear Ee.
    assert (Htr : forall go (u : tree), fst (traverse go u []) = visit go [] (elems u)).
    { intros go u. destruct (traverse_ok go u []) as (X & _). exact X. }
    assert (Hall : forall u : tree, fst (traverse (fun _ => true) u []) = elems u).
    { intros u. rewrite Htr. exact (visit_all (elems u) []). }
    assert (HP : forall k v, exists t',
      Put cmp shift k v t = Some (t', match sames ltb k (elems t) with [] => true | _ => false end) /\
      elems t' = match sames ltb k (elems t) with [] => write ltb k (k, v) (elems t) | _ => elems t end /\ sized t').
    { intros k v. destruct (put_ok ltb W cmp Hcmp shift (fun e => e) k v t Hsh Hs Ht) as (t' & res & E1 & E2 & E3 & E4 & _).
      unfold Put. rewrite E1. exists t'. rewrite E4.
      destruct (sames ltb k (elems t)) as [|x xs] eqn:Es.
      - destruct res; [auto|]. destruct (proj1 E3 eq_refl); auto.
      - destruct res as [c0|]; [discriminate (proj2 E3 ltac:(congruence))|]. split; [auto|split; auto]. unfold write.
        pose proof (cut_all ltb W (elems t) k (strict_weak ltb W _ Hs)) as CA.
        destruct (strict_sames ltb W (elems t) k Hs) as [Q|(x' & Q)]; rewrite Q in *; [discriminate|].
        injection Es as -> <-. symmetry. exact CA. }
    destruct o; cbn [step ix_spec trim_in_range answered] in *.
    - destruct (HP k v) as (t' & -> & E1 & E2). cbn [orPanic fst snd] in *. rewrite E1. destruct (sames ltb k (elems t)); cbn [fst snd] in *; auto.
    - destruct (HP k v) as (t' & -> & E1 & E2). cbn [orPanic fst snd] in *. rewrite E1. destruct (sames ltb k (elems t)); cbn [fst snd] in *; auto.
    - (* Set *)
      unfold Set_. destruct t as [|s0 k0 v0 l0 r0] eqn:Et.
      { cbn [orPanic fst snd elems sized sames before after filter write app length] in *. repeat split; auto. intros H. destruct (H eq_refl). }
      rewrite <- Et in *.
      destruct (put_ok ltb W cmp Hcmp shift (fun _ => (k, v)) k v t Hsh Hs Ht) as (t' & res & E1 & E2 & E3 & E4 & _).
      rewrite E1. cbn [orPanic fst snd] in *. rewrite E4.
      destruct (sames ltb k (elems t)) as [|x xs] eqn:Es; destruct res; auto.
      + destruct (proj1 E3 eq_refl); auto.
      + discriminate (proj2 E3 ltac:(congruence)).
    - (* Upsert *)
      unfold Upsert. pose proof (getNode_ok ltb W cmp Hcmp k t Hs) as G.
      destruct (setValue_ok ltb W cmp Hcmp k v t Hs Ht) as (V1 & _ & V2).
      destruct (HP k v) as (t' & P1 & P2 & P3).
      destruct (sames ltb k (elems t)) as [|[k0 v0] xs] eqn:Es.
      + rewrite G, P1. cbn [orPanic fst snd] in *. auto.
      + destruct G as (s1 & l1 & r1 & ->). cbn [orPanic fst snd] in *. auto.
    - pose proof (getNode_ok ltb W cmp Hcmp k t Hs) as G. cbn [fst snd] in *. split; auto. intros _.
      destruct (sames ltb k (elems t)) as [|[k0 v0] xs]; [rewrite G; auto|]. destruct G as (s1 & l1 & r1 & ->). auto.
    - destruct (removeKey_ok ltb W cmp Hcmp k t Hs Ht) as (t' & -> & E1 & E2 & _). cbn [orPanic fst snd] in *. split; auto.
      intros _. destruct (sames ltb k (elems t)) as [|[k0 v0] xs]; auto.
    - destruct (removeKey_ok ltb W cmp Hcmp k t Hs Ht) as (t' & -> & E1 & E2 & _). cbn [orPanic fst snd] in *. split; auto.
      intros Ha. pose proof (fun x (H : In x (elems t)) => H) as _.
      destruct (sames ltb k (elems t)) as [|[k0 v0] xs] eqn:Es; cbn [hd_error option_map snd]; auto.
      destruct v0 as [a|]; auto. exfalso.
      assert (Hin : In (k0, @None A) (sames ltb k (elems t))) by (rewrite Es; simpl; auto).
      apply filter_In in Hin. destruct Hin as (Hin & Hsame). apply (Ha (k0, None) Hin Hsame). reflexivity.
    - rewrite size_len by auto. cbn [fst snd] in *. auto.
    - rewrite size_len by auto. cbn [fst snd] in *. auto.
    - cbn [fst snd elems sized] in *. auto.
    - unfold Values. rewrite Hall. cbn [fst snd] in *. auto.
    - rewrite Htr. cbn [fst snd] in *. auto.
    - rewrite index_ok by auto. destruct (entry_at (elems t) (Some i)) as [[k0 v0]|]; cbn [orPanic fst snd] in *; auto.
    - cbn [fst snd] in *. split; auto. intros _. unfold IndexOf.
      pose proof (indexOfLoop_ok ltb W cmp Hcmp k t 0 Hs Ht) as X. rewrite !Z.add_0_l in X. rewrite X. auto.
    - unfold RemoveIndex. pose proof (removeIndexLoop_ok i t 0 Ht) as X. rewrite Z.add_0_l, Z.sub_0_r in X.
      destruct (entry_at (elems t) (Some i)) as [e|].
      + destruct X as (t' & -> & X1 & X2). cbn [orPanic fst snd] in *. auto.
      + rewrite X. cbn [orPanic fst snd] in *. auto.
    - unfold RemoveRange. rewrite (gt0 ltb W cmp Hcmp). destruct (ltb hi lo) eqn:El; [cbn [orPanic fst snd] in *; auto|].
      destruct (Z.eqb_spec (cmp lo hi) 0) as [Ez|Ez].
      + destruct (removeKey_ok ltb W cmp Hcmp lo t Hs Ht) as (t' & -> & E1 & E2 & _). cbn [orPanic fst snd] in *.
        split; auto. split; [|split; auto]. rewrite E1.
        assert (Q : same ltb hi lo = true).
        { destruct (plain_cases ltb cmp Hcmp lo hi) as [[Q1 Q2]|[[Q1 Q2]|[Q1 Q2]]]; auto; congruence. }
        rewrite (cut_all ltb W (elems t) lo (strict_weak ltb W _ Hs)) at 2. unfold erase. rewrite !filter_app.
        rewrite filter_all, (filter_none _ (sames ltb lo (elems t))), filter_all; auto.
        * intros y Hy. apply after_in in Hy. unfold within. rewrite (same_lt_l ltb W _ _ _ Q), (proj2 Hy). rewrite andb_false_r. reflexivity.
        * intros y Hy. apply filter_In in Hy. destruct Hy as (_ & Hy). apply same_iff in Hy. unfold within.
          rewrite (same_lt_l ltb W _ _ _ Q). destruct Hy as (-> & ->). reflexivity.
        * intros y Hy. apply before_in in Hy. unfold within. rewrite (proj2 Hy). reflexivity.
      + destruct (removeRange_ok ltb W cmp Hcmp lo hi t El Hs Ht) as (t' & c & -> & E1 & E2 & _). cbn [orPanic fst snd] in *. auto.
    - unfold RemoveRangeByIndex. rewrite Z.gtb_ltb. destruct (Z.ltb_spec j i); [cbn [orPanic fst snd] in *; auto|].
      pose proof (removeRangeAt_ok i j t H 0 Ht) as X. rewrite !Z.add_0_l in X.
      destruct ((j <? 0) || _ || _).
      + rewrite X. cbn [orPanic fst snd] in *. auto.
      + destruct X as (t' & c & -> & X1 & X2 & _). rewrite !Z.sub_0_r in X1. cbn [orPanic fst snd] in *. auto.
    - unfold Trim. rewrite (gt0 ltb W cmp Hcmp). destruct (ltb hi lo) eqn:El; [cbn [orPanic fst snd] in *; auto|].
      destruct (Trim_ok ltb W cmp Hcmp lo hi t El Hs Ht) as (E1 & E2). cbn [orPanic fst snd] in *. auto.
    - unfold TrimByIndex. rewrite Z.gtb_ltb. destruct (Z.ltb_spec j i); cbn [orb]; [cbn [fst snd] in *; auto|].
      destruct (trimAt_ok i j t H 0 Ht) as (X1 & X2). rewrite !Z.add_0_l, ?Z.sub_0_r in X1, X2.
      destruct ((i <? 0) || (len (elems t) <=? j)) eqn:Eo.
      + apply orb_true_iff in Eo. destruct X2 as (t' & -> & X3 & X4); [lia|lia|]. cbn [fst snd orb] in *. rewrite X3. auto.
      + apply orb_false_iff in Eo. destruct X1 as (t' & -> & X3 & X4); [lia|]. cbn [fst snd orb] in *. rewrite X3, Z.sub_0_r. split; [split; [|split]|]; auto. apply ssorted_firstn, ssorted_skipn; auto.
    - destruct t as [|s0 k0 v0 l0 r0] eqn:Et.
      { cbn [Split fst snd elems filter] in *. split; [destruct rgt; auto|]. intros X. destruct (X eq_refl). }
      rewrite <- Et in *.
      destruct (Split_ok ltb W cmp Hcmp contain k t Hs Ht) as (a & b & -> & E1 & E2 & E3 & E4); [subst; congruence|].
      destruct rgt; cbn [fst snd] in *; rewrite Hall.
      + rewrite E1, E2. split; auto.
      + rewrite E1, E2. split; auto.
  Qed.

  Lemma xrun_ok ops : forall t m, XRel t m -> trims_in_range ltb m ops ->
    XRel (sreach (step cmp shift) t ops) (sreach (ix_spec ltb) m ops) /\
    (all_answered ltb m ops -> srun (step cmp shift) t ops = srun (ix_spec ltb) m ops).
  Proof.
    induction ops as [|o ops IH]; intros t m HR HT; [cbn; auto|]. destruct HT as (H1 & H2).
    destruct (step_ok t m o HR H1) as (A1 & A2). cbn [sreach srun all_answered].
    destruct (step cmp shift t o) as [t' x] eqn:E1. destruct (ix_spec ltb m o) as [m' y] eqn:E2. cbn [fst snd] in *.
    destruct (IH t' m' A1 H2) as (B1 & B2). split; auto. intros (C1 & C2). rewrite A2, B2; auto.
  Qed.
  Lemma xrel_new : XRel E [].
  Proof. repeat split; auto. constructor. Qed.
End Steps.
