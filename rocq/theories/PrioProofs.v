(** queue/priority: every operation keeps the entries in order and the sizes exact. *)
From Verif Require Import Base Bind Machine OrderSpec SMapSpec SMapFacts AvlTree AvlSpec AvlModel AvlProofs AvlAny AvlStep AvlsProofs
  IndexSpec IndexModel IndexProofs PrioSpec PrioModel.
Local Open Scope Z_scope.

Section Shape.
  Context {K V : Type}.
  Notation tree := (tree K V).

  Lemma heightLoop_ok n : forall s h, 0 <= s <= Z.of_nat n -> exists h', heightLoop n s h = Some h' /\ h <= h'.
  Proof.
    induction n as [|n IH]; intros s h Hs; cbn [heightLoop].
    - replace s with 0 by lia. exists h. cbn. auto with zarith.
    - destruct (Z.eqb_spec s 0) as [->|Hn]; [exists h; auto with zarith|].
      destruct (IH (Z.shiftr s 1) (h + 1)) as (h' & -> & H).
      { rewrite Z.shiftr_div_pow2 by lia. change (2 ^ 1) with 2. split; [apply Z.div_pos; lia|].
        assert (s / 2 < s) by (apply Z.div_lt; lia). lia. }
      exists h'. split; auto. lia.
  Qed.
  Lemma getMaybeHeight_ok s : 0 <= s -> exists h, getMaybeHeight s = Some h /\ 0 <= h.
  Proof. intros H. apply heightLoop_ok. lia. Qed.

  Lemma rebalance_ok (t : tree) : sized t -> t <> E -> exists t', rebalance t = Some t' /\ elems t' = elems t /\ sized t' /\ t' <> E.
  Proof.
    destruct t as [|s k v l r]; [congruence|]. intros Ht _. pose proof Ht as (Hs & Hl & Hr). unfold rebalance.
    destruct (getMaybeHeight_ok s) as (h & -> & _); [lia|]. cbv zeta.
    set (h' := if h <? 2 then 2 else h). set (h'' := if 64 <=? h' then 63 else h'). clearbody h''. clear h'.
    pose proof (size_nonneg _ Hl) as Pl. pose proof (size_nonneg _ Hr) as Pr.
    assert (SELF : exists t', Some (N s k v l r) = Some t' /\ elems t' = elems (N s k v l r) /\ sized t' /\ t' <> E).
    { eexists. split; [reflexivity|]. split; auto. split; auto. discriminate. }
    change (getSize l) with (IndexModel.getSize l). change (getSize r) with (IndexModel.getSize r).
    destruct (IndexModel.getSize l >? IndexModel.getSize r) eqn:E1.
    - destruct (bottomsize h'' <=? _); [|exact SELF].
      assert (Hn : l <> E) by (apply size_nonnil; lia).
      destruct l as [|ls lk lv ll lr]; [congruence|]. destruct Hl as (Ls & Hll & Hlr). unfold sizeRotateType. cbn [child negb].
      destruct lr as [|ms mk mv ml mr].
      + eexists. split; [reflexivity|]. unfold sum. rewrite !sum_elems. cbn [elems]. assoc. split; auto.
        split; [repeat apply sum_sized; auto|unfold IndexModel.sum; discriminate].
      + destruct Hlr as (Ms & Hml & Hmr). match goal with |- context [if ?b then _ else _] => destruct b end; cbn [rightRotateWithLeft rightRotate]; eexists; (split; [reflexivity|]);
        unfold sum; rewrite !sum_elems; cbn [elems]; assoc; (split; [auto|]);
        (split; [repeat apply sum_sized; auto; cbn [sized]; auto|unfold IndexModel.sum; discriminate]).
    - destruct (IndexModel.getSize r >? IndexModel.getSize l) eqn:E2; [|exact SELF].
      destruct (bottomsize h'' <=? _); [|exact SELF].
      assert (Hn : r <> E) by (apply size_nonnil; lia).
      destruct r as [|rs rk rv rl rr]; [congruence|]. destruct Hr as (Rs & Hrl & Hrr). unfold sizeRotateType. cbn [child negb].
      destruct rl as [|ms mk mv ml mr].
      + eexists. split; [reflexivity|]. unfold sum. rewrite !sum_elems. cbn [elems]. assoc. split; auto.
        split; [repeat apply sum_sized; auto|unfold IndexModel.sum; discriminate].
      + destruct Hrl as (Ms & Hml & Hmr). match goal with |- context [if ?b then _ else _] => destruct b end; cbn [leftRotateWithRight leftRotate]; eexists; (split; [reflexivity|]);
        unfold sum; rewrite !sum_elems; cbn [elems]; assoc; (split; [auto|]);
        (split; [repeat apply sum_sized; auto; cbn [sized]; auto|unfold IndexModel.sum; discriminate]).
  Qed.

  Lemma neighboring_ok c (t : tree) : sized t -> t <> E ->
    exists t' e, neighboring c t = Some (t', e) /\ elems t = (if c then elems t' ++ [e] else e :: elems t') /\ sized t'.
  Proof.
    induction t as [|s k v l IHl r IHr]; [congruence|]. intros (Hs & Hl & Hr) _. cbn [neighboring].
    destruct c; cbn [child with_child negb].
    - destruct r as [|rs rk rv rl rr] eqn:Er; [eauto|]. rewrite <- Er in *.
      destruct (IHr Hr ltac:(subst; congruence)) as (t' & e & -> & E2 & E3).
      destruct (rebalance_ok (N (s - 1) k v l t')) as (t1 & -> & F1 & F2 & _); [|discriminate|].
      { apply node_sized; auto. rewrite E2 in Hs. unfold len. rewrite app_length in Hs. cbn [length] in Hs. lia. }
      eexists _, _. split; [reflexivity|]. cbn [elems]. rewrite E2, F1. split; [cbn [elems]; assoc; auto|auto].
    - destruct l as [|ls lk lv ll lr] eqn:El; [eauto|]. rewrite <- El in *.
      destruct (IHl Hl ltac:(subst; congruence)) as (t' & e & -> & E2 & E3).
      destruct (rebalance_ok (N (s - 1) k v t' r)) as (t1 & -> & F1 & F2 & _); [|discriminate|].
      { apply node_sized; auto. rewrite E2 in Hs. unfold len. cbn [length] in Hs. lia. }
      eexists _, _. split; [reflexivity|]. cbn [elems]. rewrite E2, F1. split; [cbn [elems]; assoc; auto|auto].
  Qed.

  Lemma replace_ok side (l r : tree) : sized l -> sized r ->
    exists t, replace side l r = Some t /\ elems t = elems l ++ elems r /\ sized t.
  Proof.
    intros Hl Hr. unfold replace.
    destruct l as [|ls lk lv ll lr] eqn:El; [eauto|]. destruct r as [|rs rk rv rl rr] eqn:Er; [exists l; subst; cbn [elems]; rewrite app_nil_r; auto|].
    rewrite <- El, <- Er in *. destruct side; cbn [negb child].
    - destruct (neighboring_ok false r Hr ltac:(subst; congruence)) as (r' & [k v] & -> & E2 & E3).
      destruct (rebalance_ok (sum k v l r')) as (t & -> & F1 & F2 & _); [apply sum_sized; auto|unfold sum, IndexModel.sum; discriminate|].
      exists t. split; auto. rewrite F1. unfold sum. rewrite sum_elems, E2. auto.
    - destruct (neighboring_ok true l Hl ltac:(subst; congruence)) as (l' & [k v] & -> & E2 & E3).
      destruct (rebalance_ok (sum k v l' r)) as (t & -> & F1 & F2 & _); [apply sum_sized; auto|unfold sum, IndexModel.sum; discriminate|].
      exists t. split; auto. rewrite F1. unfold sum. rewrite sum_elems, E2. assoc. auto.
  Qed.

  (** ** positions *)
  Lemma removeIndex_ok i (t : tree) : forall b side, sized t -> 0 <= i - b < len (elems t) ->
    exists t' e, removeIndex i (b + kidSize false t) t side = Some (t', Some (snd e)) /\
      entry_at (elems t) (Some (i - b)) = Some e /\ elems t' = but (i - b) (elems t) /\ sized t'.
  Proof.
    induction t as [|s k v l IHl r IHr]; intros b side Ht Hi.
    { unfold len in Hi. cbn [elems length] in Hi. lia. }
    pose proof Ht as (Hs & Hl & Hr). cbn [removeIndex elems] in *. rewrite len_mid in Hi.
    pose proof (kid_left s k v l r Hl) as Ek. unfold but.
    destruct (Z.eqb_spec (b + kidSize false (N s k v l r)) i) as [E0|E0]; [|destruct (b + kidSize false (N s k v l r) >? i) eqn:E1].
    - replace (i - b) with (len (elems l)) by lia. rewrite entry_at_mid.
      destruct (replace_ok side l r Hl Hr) as (t & -> & F1 & F2). exists t, (k, v). split; [reflexivity|]. split; auto.
      split; auto. rewrite F1. unfold len. rewrite Nat2Z.id, firstn_app, firstn_all, Nat.sub_diag. cbn [firstn]. rewrite app_nil_r.
      rewrite skipn_app, (skipn_all2 (elems l)) by lia. replace (S (length (elems l)) - length (elems l))%nat with 1%nat by lia. reflexivity.
    - destruct l as [|ls lk lv ll lr] eqn:El.
      { unfold len in *. cbn [elems length] in *. lia. }
      rewrite <- El in *. rewrite left_pos by (subst; auto; congruence).
      destruct (IHl b false Hl ltac:(lia)) as (l' & e & -> & X1 & X2 & X3). rewrite entry_at_left by lia.
      eexists _, e. split; [reflexivity|]. split; auto. unfold but in X2. unfold len in *. cbn [elems].
      rewrite firstn_left by lia. replace (S (Z.to_nat (i - b))) with (Z.to_nat (i - b + 1)) in * by lia.
      rewrite skipn_left by lia. rewrite X2. assoc. split; auto. apply node_sized; auto.
      unfold len. rewrite X2, app_length, firstn_length, skipn_length. lia.
    - destruct r as [|rs rk rv rl rr] eqn:Er.
      { unfold len in *. cbn [elems length] in *. lia. }
      rewrite <- Er in *. rewrite right_pos by auto.
      destruct (IHr (b + len (elems l) + 1) true Hr ltac:(lia)) as (r' & e & -> & X1 & X2 & X3). rewrite entry_at_right by lia.
      eexists _, e. split; [reflexivity|]. replace (i - b - len (elems l) - 1) with (i - (b + len (elems l) + 1)) by lia.
      split; auto. unfold but in X2. unfold len in *. cbn [elems].
      rewrite firstn_right by lia. replace (S (Z.to_nat (i - b))) with (Z.to_nat (i - b + 1)) by lia.
      rewrite skipn_right by lia. rewrite X2. assoc. split.
      + f_equal. f_equal. f_equal; f_equal; lia.
      + apply node_sized; auto. unfold len. rewrite X2, app_length, firstn_length, skipn_length. lia.
  Qed.
  (** a position outside: the call panics *)
  Lemma removeIndex_out i (t : tree) : forall b side, sized t -> t <> E -> ~ 0 <= i - b < len (elems t) ->
    exists t', removeIndex i (b + kidSize false t) t side = Some (t', None) /\ elems t' = elems t.
  Proof.
    induction t as [|s k v l IHl r IHr]; intros b side Ht Hn Hi; [congruence|].
    pose proof Ht as (Hs & Hl & Hr). cbn [removeIndex elems] in *. rewrite len_mid in Hi.
    pose proof (kid_left s k v l r Hl) as Ek. pose proof (len_nonneg (elems l)). pose proof (len_nonneg (elems r)).
    destruct (Z.eqb_spec (b + kidSize false (N s k v l r)) i) as [E0|E0]; [lia|destruct (b + kidSize false (N s k v l r) >? i) eqn:E1].
    - destruct l as [|ls lk lv ll lr] eqn:El; [eexists; split; reflexivity|]. rewrite <- El in *.
      rewrite left_pos by (subst; auto; congruence).
      destruct (IHl b false Hl ltac:(subst; congruence) ltac:(lia)) as (l' & -> & X). eexists. split; [reflexivity|]. cbn [elems]. rewrite X. auto.
    - destruct r as [|rs rk rv rl rr] eqn:Er; [eexists; split; reflexivity|]. rewrite <- Er in *.
      rewrite right_pos by auto.
      destruct (IHr (b + len (elems l) + 1) true Hr ltac:(subst; congruence) ltac:(lia)) as (r' & -> & X). eexists. split; [reflexivity|]. cbn [elems]. rewrite X. auto.
  Qed.

  Lemma popHead_ok (t : tree) : sized t -> t <> E ->
    exists t' e, popHead t = Some (t', snd e) /\ elems t = e :: elems t' /\ sized t'.
  Proof.
    induction t as [|s k v l IHl r IHr]; [congruence|]. intros (Hs & Hl & Hr) _. cbn [popHead].
    destruct l as [|ls lk lv ll lr] eqn:El; [exists r, (k, v); auto|]. rewrite <- El in *.
    destruct (IHl Hl ltac:(subst; congruence)) as (l' & e & -> & E2 & E3). eexists _, e. split; [reflexivity|].
    cbn [elems]. rewrite E2. split; [reflexivity|]. apply node_sized; auto. rewrite E2 in Hs. unfold len. cbn [length] in Hs. lia.
  Qed.
  Lemma popTail_ok (t : tree) : sized t -> t <> E ->
    exists t' e, popTail t = Some (t', snd e) /\ elems t = elems t' ++ [e] /\ sized t'.
  Proof.
    induction t as [|s k v l IHl r IHr]; [congruence|]. intros (Hs & Hl & Hr) _. cbn [popTail].
    destruct r as [|rs rk rv rl rr] eqn:Er; [exists l, (k, v); auto|]. rewrite <- Er in *.
    destruct (IHr Hr ltac:(subst; congruence)) as (r' & e & -> & E2 & E3). eexists _, e. split; [reflexivity|].
    cbn [elems]. rewrite E2. split; [assoc; reflexivity|]. apply node_sized; auto. rewrite E2, app_length in Hs. unfold len. cbn [length] in Hs. lia.
  Qed.
End Shape.

Section Ops.
  Context {K V : Type} (ltb : K -> K -> bool) (W : weak_order ltb) (cmp : K -> K -> Z) (Hcmp : ex_cmp ltb cmp).
  Notation tree := (tree K V).
  Implicit Types (t l r : tree).

  Ltac side3 ck key := destruct (cmp_cases ltb cmp Hcmp ck key) as [[Hc Ho]|[[Hc Ho]|[Hc Ho]]]; rewrite Hc;
    [change (0 <? 0) with false; change (0 =? 0) with true
    |change (1 <? 0) with false; change (1 =? 0) with false; change (1 =? 1) with true
    |change (-1 <? 0) with true; change (1 =? 0) with false; change (1 =? 1) with true]; cbv iota zeta.

  Lemma put_ok key v t : forall alone, weakly_sorted ltb (elems t) -> sized t ->
    exists t' two, put cmp key v t alone = Some (t', two) /\ elems t' = mm_insert ltb (key, v) (elems t) /\ sized t'.
  Proof.
    induction t as [|s ck cv l IHl r IHr]; intros alone Hs Ht.
    - cbn [put]. eexists _, _. split; [reflexivity|]. cbn. auto.
    - cbn [elems] in Hs |- *. destruct (weak_mid ltb _ _ _ Hs) as (Sl & Sr & Ll & Lr). pose proof Ht as (Hz & Hl & Hr).
      assert (FIN : forall t0 two, elems t0 = mm_insert ltb (key, v) (elems l ++ (ck, cv) :: elems r) -> sized t0 -> t0 <> E ->
        exists t' two', (if (s + 1 >? 2) && negb two then t' <- rebalance t0 ;; Some (t', two) else Some (t0, two)) = Some (t', two') /\
          elems t' = mm_insert ltb (key, v) (elems l ++ (ck, cv) :: elems r) /\ sized t').
      { intros t0 two X1 X2 X3. destruct (_ && _); [|eauto].
        destruct (rebalance_ok t0 X2 X3) as (t' & -> & F1 & F2 & _). exists t', two. rewrite F1. auto. }
      assert (HL : ltb key ck = true -> exists l' two, put cmp key v l (is_nil r) = Some (l', two) /\
        elems l' ++ (ck, cv) :: elems r = mm_insert ltb (key, v) (elems l ++ (ck, cv) :: elems r) /\ sized (N (s + 1) ck cv l' r)).
      { intros Ho. destruct (IHl (is_nil r) Sl Hl) as (l' & two & E1 & E2 & E3). exists l', two. split; auto. split.
        - rewrite E2. unfold mm_insert. cbn [fst].
          pose proof (upto_left ltb W (elems l) (ck, cv) (elems r) key Ho Lr) as U1. unfold upto in U1. rewrite U1.
          destruct (cut_left ltb W (elems l) (ck, cv) (elems r) key Ho Lr) as (_ & _ & U2). rewrite U2.
          rewrite <- app_assoc. reflexivity.
        - apply node_sized; auto. unfold len. rewrite E2, insert_len. lia. }
      assert (HR : ltb key ck = false -> exists r' two, put cmp key v r (is_nil l) = Some (r', two) /\
        elems l ++ (ck, cv) :: elems r' = mm_insert ltb (key, v) (elems l ++ (ck, cv) :: elems r) /\ sized (N (s + 1) ck cv l r')).
      { intros Ho. destruct (IHr (is_nil l) Sr Hr) as (r' & two & E1 & E2 & E3). exists r', two. split; auto. split.
        - rewrite E2. unfold mm_insert. cbn [fst].
          destruct (upto_right ltb W (elems l) (ck, cv) (elems r) key Ho Ll) as (U1 & U2). unfold upto in U1. rewrite U1, U2.
          rewrite <- app_assoc. reflexivity.
        - apply node_sized; auto. unfold len. rewrite E2, insert_len. lia. }
      cbn [put]. side3 ck key.
      + destruct (HL Ho) as (l' & two & -> & E2 & E3). apply FIN; auto. discriminate.
      + destruct (HR (lt_asym ltb W _ _ Ho)) as (r' & two & -> & E2 & E3). apply FIN; auto. discriminate.
      + apply same_iff in Ho as (Ho1 & Ho2). destruct (HR Ho2) as (r' & two & -> & E2 & E3). apply FIN; auto. discriminate.
  Qed.
  Lemma Put_ok key v t : weakly_sorted ltb (elems t) -> sized t ->
    exists t', Put cmp key v t = Some t' /\ elems t' = mm_insert ltb (key, v) (elems t) /\ sized t'.
  Proof. intros Hs Ht. destruct (put_ok key v t false Hs Ht) as (t' & two & E1 & E2 & E3). unfold Put. rewrite E1. eauto. Qed.

  Lemma getfirst_ok key t : forall sel, weakly_sorted ltb (elems t) ->
    getfirst cmp key t sel = Some match sames ltb key (elems t) with [] => sel | e :: _ => Some e end.
  Proof.
    induction t as [|s ck cv l IHl r IHr]; intros sel Hs; [reflexivity|].
    cbn [elems] in Hs |- *. destruct (weak_mid ltb _ _ _ Hs) as (Sl & Sr & Ll & Lr). cbn [getfirst]. side3 ck key.
    - destruct (cut_left ltb W (elems l) (ck, cv) (elems r) key Ho Lr) as (_ & C2 & _). rewrite C2. auto.
    - destruct (cut_right ltb W (elems l) (ck, cv) (elems r) key Ho Ll) as (_ & C2 & _). rewrite C2. auto.
    - destruct (cut_same ltb W (elems l) (ck, cv) (elems r) key Ho Ll Lr) as (_ & C2 & _). rewrite C2, IHl by auto.
      destruct (sames ltb key (elems l)); reflexivity.
  Qed.
  Lemma getfirst_hd key t : weakly_sorted ltb (elems t) -> getfirst cmp key t None = Some (hd_error (sames ltb key (elems t))).
  Proof. intros H. rewrite getfirst_ok by auto. destruct (sames ltb key (elems t)); reflexivity. Qed.

  Lemma setfirst_ok key v t : weakly_sorted ltb (elems t) -> sized t ->
    exists t', setfirst cmp key v t = Some (t', match sames ltb key (elems t) with [] => false | _ => true end) /\
      elems t' = mm_replace_first ltb key v (elems t) /\ sized t'.
  Proof.
    induction t as [|s ck cv l IHl r IHr]; intros Hs Ht.
    { exists E. repeat split; auto. }
    cbn [elems] in Hs |- *. destruct (weak_mid ltb _ _ _ Hs) as (Sl & Sr & Ll & Lr). pose proof Ht as (Hz & Hl & Hr). cbn [setfirst].
    destruct (IHl Sl Hl) as (l' & L1 & L2 & L3). destruct (IHr Sr Hr) as (r' & R1 & R2 & R3).
    pose proof (replace_len ltb W key v (elems l) Sl) as N1. pose proof (replace_len ltb W key v (elems r) Sr) as N2.
    rewrite <- L2 in N1. rewrite <- R2 in N2.
    unfold mm_replace_first in *. side3 ck key.
    - destruct (cut_left ltb W (elems l) (ck, cv) (elems r) key Ho Lr) as (C1 & C2 & C3). rewrite C1, C2, C3, L1.
      eexists. split; [reflexivity|]. split; [cbn [elems]; rewrite L2, <- !app_assoc; auto|]. apply node_sized; auto. unfold len. lia.
    - destruct (cut_right ltb W (elems l) (ck, cv) (elems r) key Ho Ll) as (C1 & C2 & C3). rewrite C1, C2, C3, R1.
      eexists. split; [reflexivity|]. split; [cbn [elems]; rewrite R2, <- app_assoc; auto|]. apply node_sized; auto. unfold len. lia.
    - destruct (cut_same ltb W (elems l) (ck, cv) (elems r) key Ho Ll Lr) as (C1 & C2 & C3). rewrite C1, C2, C3, L1.
      pose proof (before_sames_left ltb W (elems l) (ck, cv) key Sl Ho Ll) as B1.
      pose proof (sames_after_right ltb W (elems r) (ck, cv) key Sr Ho Lr) as B2.
      destruct (sames ltb key (elems l)) as [|[k0 v0] q] eqn:El.
      + eexists. split; [reflexivity|]. cbn [elems app]. rewrite app_nil_r in B1. rewrite <- B1, <- B2. split; auto.
      + eexists. split; [reflexivity|]. cbn [elems app]. rewrite L2. split.
        * assert (A0 : after ltb key (elems l) = []).
          { unfold after. apply filter_none. intros y Hy. rewrite <- (same_lt_l ltb W _ _ _ Ho). apply Ll. exact Hy. }
          rewrite A0, app_nil_r. assoc. rewrite <- B2. reflexivity.
        * apply node_sized; auto. unfold len. lia.
  Qed.

  Lemma removeLeft_nil key t : forall side t', removeLeft cmp key t side = Some (t', None) -> t' = t.
  Proof.
    induction t as [|s ck cv l IHl r IHr]; intros side t'; cbn [removeLeft].
    { intros E1. injection E1 as <-. auto. }
    destruct (cmp ck key <? 0).
    - destruct (removeLeft cmp key l false) as [[l' [o'|]]|]; [| |discriminate].
      + destruct (rebalance _); discriminate.
      + destruct (replace side l' r); discriminate.
    - destruct (cmp ck key =? 0).
      + destruct (removeLeft cmp key l false) as [[l' [o'|]]|] eqn:E1; [| |discriminate].
        * destruct (rebalance _); discriminate.
        * rewrite (IHl _ _ E1). congruence.
      + destruct (cmp ck key =? 1); [|discriminate].
        destruct (removeLeft cmp key r true) as [[r' [o'|]]|] eqn:E1; [| |discriminate].
        * destruct (rebalance _); discriminate.
        * rewrite (IHr _ _ E1). congruence.
  Qed.

  Lemma removeLeft_ok key t : forall side, weakly_sorted ltb (elems t) -> sized t ->
    exists t', removeLeft cmp key t side = Some (t', option_map snd (hd_error (sames ltb key (elems t)))) /\
      elems t' = mm_drop_first ltb key (elems t) /\ sized t'.
  Proof.
    induction t as [|s ck cv l IHl r IHr]; intros side Hs Ht.
    { exists E. auto. }
    cbn [elems] in Hs |- *. destruct (weak_mid ltb _ _ _ Hs) as (Sl & Sr & Ll & Lr). pose proof Ht as (Hz & Hl & Hr). cbn [removeLeft].
    destruct (IHl false Sl Hl) as (l' & L1 & L2 & L3). destruct (IHr true Sr Hr) as (r' & R1 & R2 & R3).
    pose proof (drop_len ltb W key (elems l) Sl) as N1. pose proof (drop_len ltb W key (elems r) Sr) as N2.
    rewrite <- L2 in N1. rewrite <- R2 in N2.
    assert (FIN : forall t0 (x : V) (m : list (K * V)), elems t0 = m -> sized t0 -> t0 <> E ->
      exists t', (t1 <- rebalance t0 ;; Some (t1, Some x)) = Some (t', Some x) /\ elems t' = m /\ sized t').
    { intros t0 x m X1 X2 X3. destruct (rebalance_ok t0 X2 X3) as (t' & -> & F1 & F2 & _). exists t'. rewrite F1. auto. }
    assert (NE : forall m : list (K * V), sames ltb key m <> [] -> m <> []) by (intros m H ->; apply H; reflexivity).
    side3 ck key.
    - rewrite L1. destruct (cut_left ltb W (elems l) (ck, cv) (elems r) key Ho Lr) as (C1 & C2 & C3). rewrite C2.
      assert (HX : elems l' ++ (ck, cv) :: elems r = mm_drop_first ltb key (elems l ++ (ck, cv) :: elems r)).
      { unfold mm_drop_first in *. rewrite C1, C2, C3, L2, <- !app_assoc. reflexivity. }
      destruct (sames ltb key (elems l)) as [|e q] eqn:El; cbn [hd_error option_map].
      + eexists. split; [reflexivity|]. split; [exact HX|]. apply node_sized; auto. unfold len. lia.
      + apply FIN; [exact HX| |discriminate]. apply node_sized; auto. unfold len.
        assert (elems l <> []) by (apply NE; rewrite El; discriminate). destruct (elems l); [congruence|]. cbn [length] in *. lia.
    - rewrite R1. destruct (cut_right ltb W (elems l) (ck, cv) (elems r) key Ho Ll) as (C1 & C2 & C3). rewrite C2.
      assert (HX : elems l ++ (ck, cv) :: elems r' = mm_drop_first ltb key (elems l ++ (ck, cv) :: elems r)).
      { unfold mm_drop_first in *. rewrite C1, C2, C3, R2, <- !app_assoc. reflexivity. }
      destruct (sames ltb key (elems r)) as [|e q] eqn:Er; cbn [hd_error option_map].
      + eexists. split; [reflexivity|]. split; [exact HX|]. apply node_sized; auto. unfold len. lia.
      + apply FIN; [exact HX| |discriminate]. apply node_sized; auto. unfold len.
        assert (elems r <> []) by (apply NE; rewrite Er; discriminate). destruct (elems r); [congruence|]. cbn [length] in *. lia.
    - rewrite L1. destruct (cut_same ltb W (elems l) (ck, cv) (elems r) key Ho Ll Lr) as (C1 & C2 & C3). rewrite C2.
      pose proof (before_sames_left ltb W (elems l) (ck, cv) key Sl Ho Ll) as B1.
      pose proof (sames_after_right ltb W (elems r) (ck, cv) key Sr Ho Lr) as B2.
      assert (A0 : after ltb key (elems l) = []).
      { unfold after. apply filter_none. intros y Hy. rewrite <- (same_lt_l ltb W _ _ _ Ho). apply Ll. exact Hy. }
      destruct (sames ltb key (elems l)) as [|e q] eqn:El; cbn [hd_error option_map app].
      + assert (L1' := L1). cbn [hd_error option_map] in L1'. apply removeLeft_nil in L1'. subst l'. rewrite app_nil_r in B1.
        assert (HX : mm_drop_first ltb key (elems l ++ (ck, cv) :: elems r) = elems l ++ elems r).
        { unfold mm_drop_first. rewrite C1, C2, C3. cbn [app tl]. rewrite <- B1, <- B2. reflexivity. }
        rewrite HX. destruct (replace_ok side l r Hl Hr) as (t & -> & F1 & F2). eauto.
      + assert (HX : elems l' ++ (ck, cv) :: elems r = mm_drop_first ltb key (elems l ++ (ck, cv) :: elems r)).
        { unfold mm_drop_first in *. rewrite C1, C2, C3, L2, El, A0, app_nil_r. cbn [tl app].
          rewrite B2 at 1. rewrite <- !app_assoc. reflexivity. }
        apply FIN; [exact HX| |discriminate]. apply node_sized; auto. unfold len.
        assert (elems l <> []) by (apply NE; rewrite El; discriminate). destruct (elems l); [congruence|]. cbn [length] in *. lia.
  Qed.

  (** ** Gets *)
  Lemma traverseKey_ok key t : forall res, weakly_sorted ltb (elems t) ->
    exists q, traverseKey cmp key t res = Some (res ++ q) /\ Permutation q (map snd (sames ltb key (elems t))).
  Proof.
    induction t as [|s ck cv l IHl r IHr]; intros res Hs; [exists []; rewrite app_nil_r; auto|].
    cbn [elems] in Hs |- *. destruct (weak_mid ltb _ _ _ Hs) as (Sl & Sr & Ll & Lr). cbn [traverseKey]. side3 ck key.
    - destruct (cut_left ltb W (elems l) (ck, cv) (elems r) key Ho Lr) as (_ & C2 & _). rewrite C2. auto.
    - destruct (cut_right ltb W (elems l) (ck, cv) (elems r) key Ho Ll) as (_ & C2 & _). rewrite C2. auto.
    - destruct (cut_same ltb W (elems l) (ck, cv) (elems r) key Ho Ll Lr) as (_ & C2 & _). rewrite C2.
      destruct (IHl (res ++ [cv]) Sl) as (q1 & -> & P1). destruct (IHr ((res ++ [cv]) ++ q1) Sr) as (q2 & -> & P2).
      exists (cv :: q1 ++ q2). split; [assoc; reflexivity|]. rewrite map_app. cbn [map snd].
      rewrite <- Permutation_middle. apply perm_skip, Permutation_app; auto.
  Qed.
  Lemma seekRoot_ok key t : weakly_sorted ltb (elems t) ->
    exists u, seekRoot cmp key t = Some u /\ sames ltb key (elems u) = sames ltb key (elems t) /\ weakly_sorted ltb (elems u).
  Proof.
    induction t as [|s ck cv l IHl r IHr]; intros Hs; [exists E; auto|].
    pose proof Hs as Hs'. cbn [elems] in Hs'. destruct (weak_mid ltb _ _ _ Hs') as (Sl & Sr & Ll & Lr). cbn [seekRoot]. side3 ck key.
    - cbn [elems]. destruct (cut_left ltb W (elems l) (ck, cv) (elems r) key Ho Lr) as (_ & C2 & _). rewrite C2. auto.
    - cbn [elems]. destruct (cut_right ltb W (elems l) (ck, cv) (elems r) key Ho Ll) as (_ & C2 & _). rewrite C2. auto.
    - eauto.
  Qed.
  Lemma Gets_ok key t : weakly_sorted ltb (elems t) ->
    exists q, Gets cmp key t = Some q /\ Permutation q (map snd (sames ltb key (elems t))).
  Proof.
    intros Hs. unfold Gets. destruct (seekRoot_ok key t Hs) as (u & -> & <- & Hu). destruct u as [|s k v l r] eqn:Eu; [exists []; auto|].
    rewrite <- Eu in *. destruct (traverseKey_ok key u [] Hu) as (q & E1 & E2). eauto.
  Qed.

  (** ** steps *)
  Definition QRel (t : tree) (m : list (K * V)) : Prop := elems t = m /\ sized t /\ weakly_sorted ltb m.
  Lemma qrel_new : QRel E [].
  Proof. repeat split. constructor. Qed.

  Lemma weak_tl (m : list (K * V)) : weakly_sorted ltb m -> weakly_sorted ltb (tl m).
  Proof. intros H. destruct m; auto. apply weak_cons in H. tauto. Qed.
  Lemma weak_but i (m : list (K * V)) : weakly_sorted ltb m -> weakly_sorted ltb (but i m).
  Proof.
    intros H. unfold but. apply weak_app. split; [apply ssorted_firstn; auto|]. split; [apply ssorted_skipn; auto|].
    intros x y Hx Hy. apply (ssorted_cross _ (Z.to_nat i) (S (Z.to_nat i)) m x y H ltac:(lia) Hx Hy).
  Qed.
  Lemma tree_cases t : t = E \/ exists s k v l r, t = N s k v l r.
  Proof. destruct t; eauto 10. Qed.
  Lemma elems_nil t : elems t = [] -> t = E.
  Proof. destruct t as [|s k v l r]; auto. cbn [elems]. intros H. apply app_eq_nil in H as (_ & H). discriminate. Qed.

  Lemma pq_sim t m o : QRel t m -> inside_ok m o ->
    exists t', pq_step cmp t o = Some (t', snd (pq_spec ltb m o)) /\ QRel t' (fst (pq_spec ltb m o)).
  Proof.
    intros (<- & Ht & Hs) Hok. pose proof (size_len t Ht) as Hn.
    destruct o; cbn [pq_step pq_spec inside_ok fst snd] in *; unfold QRel.
    - destruct (Put_ok k v t Hs Ht) as (t' & -> & E1 & E2). eauto 6 using insert_sorted.
    - rewrite getfirst_hd by auto. destruct (sames ltb k (elems t)) as [|e q]; cbn [hd_error fst snd]; [|eauto 6].
      destruct (Put_ok k v t Hs Ht) as (t' & -> & E1 & E2). eauto 6 using insert_sorted.
    - rewrite getfirst_hd by auto. destruct (setfirst_ok k v t Hs Ht) as (t1 & E3 & E4 & E5). 
      destruct (sames ltb k (elems t)) as [|e q] eqn:Es; cbn [hd_error fst snd].
      + destruct (Put_ok k v t Hs Ht) as (t' & -> & E1 & E2). eauto 6 using insert_sorted.
      + rewrite E3. eauto 6 using replace_sorted.
    - rewrite getfirst_hd by auto. eauto 6.
    - rewrite index_ok by auto. change (getSize t) with (IndexModel.getSize t). rewrite Hn. exists t. split; auto.
      destruct (entry_at (elems t) _) as [[? ?]|]; reflexivity.
    - destruct (removeLeft_ok k t true Hs Ht) as (t' & -> & E1 & E2). eauto 6 using drop_sorted.
    - destruct (removeLeft_ok k t true Hs Ht) as (t' & -> & E1 & E2). eauto 6 using drop_sorted.
    - destruct (tree_cases t) as [->|(s & k & v & l & r & Et)].
      { cbn [elems]. rewrite entry_at_nil. exists E. cbn. auto. }
      assert (Hne : t <> E) by (subst; discriminate).
      replace (match t with E => Some (t, QPanic) | N _ _ _ _ _ => _ end) with
        (let idx := kidSize false t in
         '(t', res) <- removeIndex (if idx <? 0 then getSize t + i else i) idx t true ;;
         Some (t', match res with Some v => QV v | None => @QPanic K V end)) by (rewrite Et; reflexivity).
      cbv zeta. assert (0 <= kidSize false t). { subst t. destruct Ht as (_ & Hl & _). rewrite kid_left by auto. apply len_nonneg. }
      replace (kidSize false t <? 0) with false by lia. pose proof (size_pos t Hne) as Hp.
      destruct (Z.lt_ge_cases i 0) as [Hi|Hi]; [|destruct (Z.lt_ge_cases i (len (elems t))) as [Hj|Hj]].
      + rewrite entry_at_none by lia. assert (H1 : len (elems t) = 1) by lia.
        assert (Hx : removeIndex i (kidSize false t) t true = Some (t, None)).
        { subst t. pose proof Ht as (Hz & Hl & Hr). cbn [elems] in H1. rewrite len_mid in H1.
          pose proof (len_nonneg (elems l)). pose proof (len_nonneg (elems r)).
          assert (l = E) as -> by (apply elems_nil; destruct (elems l); auto; unfold len in *; cbn [length] in *; lia).
          cbn [removeIndex]. rewrite kid_left by auto. change (len (elems E)) with 0.
          destruct (Z.eqb_spec 0 i); [lia|]. destruct (0 >? i) eqn:E1; [reflexivity|lia]. }
        rewrite Hx. exists t. auto.
      + destruct (removeIndex_ok i t 0 true Ht ltac:(lia)) as (t' & e & X1 & X2 & X3 & X4).
        rewrite Z.add_0_l in X1. rewrite Z.sub_0_r in X2, X3. rewrite X1, X2. exists t'. eauto 6 using weak_but.
      + rewrite entry_at_none by lia. assert (H1 : len (elems t) = 1) by lia.
        assert (Hx : removeIndex i (kidSize false t) t true = Some (t, None)).
        { subst t. pose proof Ht as (Hz & Hl & Hr). cbn [elems] in H1. rewrite len_mid in H1.
          pose proof (len_nonneg (elems l)). pose proof (len_nonneg (elems r)).
          assert (l = E) as -> by (apply elems_nil; destruct (elems l); auto; unfold len in *; cbn [length] in *; lia).
          assert (r = E) as -> by (apply elems_nil; destruct (elems r); auto; unfold len in *; cbn [length] in *; lia).
          cbn [removeIndex]. rewrite kid_left by auto. change (len (elems E)) with 0. cbn [elems app] in Hj.
          change (len [(k, v)]) with 1 in Hj.
          destruct (Z.eqb_spec 0 i); [lia|]. destruct (0 >? i) eqn:E1; [lia|reflexivity]. }
        rewrite Hx. exists t. auto.
    - change (getSize t) with (IndexModel.getSize t). rewrite Hn. destruct (tree_cases t) as [->|(s & k & v & l & r & Et)].
      { exists E. cbn. repeat split; constructor. }
      assert (Hne : t <> E) by (subst; discriminate). pose proof (size_pos t Hne). replace (len (elems t) =? 0) with false by lia.
      destruct (popHead_ok t Ht Hne) as (t' & e & -> & E2 & E3). rewrite E2 in Hs |- *. exists t'. cbn [hd_error option_map tl].
      apply weak_tl in Hs. auto.
    - change (getSize t) with (IndexModel.getSize t). rewrite Hn. destruct (tree_cases t) as [->|(s & k & v & l & r & Et)].
      { exists E. cbn. repeat split; constructor. }
      assert (Hne : t <> E) by (subst; discriminate). pose proof (size_pos t Hne). replace (len (elems t) =? 0) with false by lia.
      destruct (popTail_ok t Ht Hne) as (t' & e & -> & E2 & E3). rewrite E2 in Hs |- *. exists t'.
      rewrite rev_app_distr, removelast_last. cbn [rev app hd_error option_map].
      apply weak_app in Hs. intuition auto.
    - exists E. repeat split. constructor.
    - exists t. change (getSize t) with (IndexModel.getSize t). rewrite Hn. auto.
    - exists t. change (getSize t) with (IndexModel.getSize t). rewrite Hn. auto.
    - exists t. unfold Traverse. destruct (traverse_ok go t []) as (-> & _). auto.
    - exists t. unfold Traverse. destruct (traverse_ok (fun _ => true) t []) as (-> & _). split; [|auto]. exact (f_equal (fun x => Some (t, QVals (map snd x))) (visit_all _ [])).
  Qed.

  Lemma pq_run ops : forall t m, QRel t m -> insides_ok ltb m ops ->
    run (pq_step cmp) t ops = Some (srun (pq_spec ltb) m ops) /\
    exists t', reach (pq_step cmp) t ops = Some t' /\ QRel t' (sreach (pq_spec ltb) m ops).
  Proof.
    induction ops as [|o ops IH]; intros t m HR Hok; [split; [reflexivity|cbn; eauto]|].
    cbn [insides_ok] in Hok. destruct Hok as (H1 & H2). destruct (pq_sim t m o HR H1) as (t' & E1 & E2).
    destruct (IH _ _ E2 H2) as (E3 & E4). cbn [run reach srun sreach]. rewrite E1. destruct (pq_spec ltb m o) as [m' r].
    cbn [fst snd] in *. rewrite E3. auto.
  Qed.
End Ops.
