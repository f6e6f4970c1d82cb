(** The counters of index trees count the rotations, and how many there can be in one call. *)
From Verif Require Import Base Bind Machine OrderSpec SMapSpec SMapFacts CompareModel AvlTree AvlSpec AvlModel AvlProofs RotSpec AvlCountModel AvlCountProofs IndexSpec IndexModel IndexProofs CutSpec IndexCountModel.
Local Open Scope Z_scope.

(** ** the counters aside, these are the functions of [IndexModel] *)
Section Erase.
  Context {K V : Type} (cmp : K -> K -> Z) (shift : Z).
  Notation tree := (tree K V).
  Implicit Types (t l r : tree).
  Ltac fin := repeat match goal with
    | |- context [match ?x with Some _ => _ | None => None end] => destruct x as [?|]
    | |- context [if ?b then _ else _] => destruct b
    | |- ?x = ?x => reflexivity end; try reflexivity.
  Lemma sizeR_erase t c : sizeRRotate t = option_map fst (sizeRRotate_n t c).
  Proof.
    destruct t as [|s k v l [|rs rk rv rl rr]]; try reflexivity. unfold sizeRRotate, sizeRRotate_n.
    destruct (_ >? _); [destruct (rrotate _) as [r'|]; [|reflexivity]|]; destruct (lrotate _); reflexivity.
  Qed.
  Lemma sizeL_erase t c : sizeLRotate t = option_map fst (sizeLRotate_n t c).
  Proof.
    destruct t as [|s k v [|rs rk rv rl rr] r]; try reflexivity. unfold sizeLRotate, sizeLRotate_n.
    destruct (_ <? _); [destruct (lrotate _) as [r'|]; [|reflexivity]|]; destruct (rrotate _); reflexivity.
  Qed.
  Lemma fixPut_erase st t c : fixPut shift st t = option_map fst (fixPut_n shift st t c).
  Proof.
    destruct t as [|s k v l r]; [reflexivity|]. unfold fixPut, fixPut_n. destruct st; try reflexivity.
    destruct (shift <? 0); [reflexivity|]. destruct (_ <? shl64 h); [|reflexivity]. destruct (_ <? 0).
    - destruct (_ <=? - _); [|reflexivity]. rewrite (sizeR_erase _ c). destruct (sizeRRotate_n _ c) as [[t' c']|]; reflexivity.
    - destruct (_ <=? _); [|reflexivity]. rewrite (sizeL_erase _ c). destruct (sizeLRotate_n _ c) as [[t' c']|]; reflexivity.
  Qed.
  Lemma iput_erase hit key v t : forall c, put cmp shift hit key v t = option_map fst (put_n cmp shift hit key v t c).
  Proof.
    induction t as [|s k w l IHl r IHr]; intros c; [reflexivity|]. cbn [put put_n]. destruct (cmp key k <? 0); [|destruct (cmp key k >? 0)].
    - rewrite (IHl c). destruct (put_n cmp shift hit key v l c) as [[[l' [st|]] c1]|]; cbn [option_map fst]; try reflexivity.
      rewrite (fixPut_erase _ _ c1). destruct (fixPut_n shift st _ c1) as [[[t' st'] c2]|]; reflexivity.
    - rewrite (IHr c). destruct (put_n cmp shift hit key v r c) as [[[l' [st|]] c1]|]; cbn [option_map fst]; try reflexivity.
      rewrite (fixPut_erase _ _ c1). destruct (fixPut_n shift st _ c1) as [[[t' st'] c2]|]; reflexivity.
    - destruct (hit (k, w)); reflexivity.
  Qed.
  Lemma Put_erase key v t c : Put cmp shift key v t = option_map fst (Put_n cmp shift key v t c).
  Proof. unfold Put, Put_n. rewrite (iput_erase _ _ _ _ c). destruct (put_n _ _ _ _ _ _ c) as [[[t' r] c']|]; reflexivity. Qed.
  Lemma Set_erase key v t c : Set_ cmp shift key v t = option_map fst (Set_n cmp shift key v t c).
  Proof.
    unfold Set_, Set_n. destruct t as [|s k w l r] eqn:Et; [reflexivity|]. rewrite <- Et. rewrite (iput_erase _ _ _ _ c).
    destruct (put_n _ _ _ _ _ _ c) as [[[t' x] c']|]; reflexivity.
  Qed.
  Lemma Upsert_erase key v t c : Upsert cmp shift key v t = option_map fst (Upsert_n cmp shift key v t c).
  Proof.
    unfold Upsert, Upsert_n. destruct (getNode cmp key t); [|reflexivity]. rewrite (Put_erase _ _ _ c). destruct (Put_n _ _ _ _ _ c) as [[[t' x] c']|]; reflexivity.
  Qed.
  Lemma fixRR_erase t c : fixRemoveRange t = option_map fst (fixRemoveRange_n t c).
  Proof.
    destruct t as [|s k v l r]; [reflexivity|]. unfold fixRemoveRange, fixRemoveRange_n. destruct (s <=? 2); [reflexivity|].
    destruct (_ && _)%bool; [|destruct (_ && _)%bool; [|reflexivity]].
    - destruct l as [|ls lk lv ll lr]; [reflexivity|]. destruct (_ <? _); [destruct (lrotate _) as [x|]; [|reflexivity]|]; destruct (rrotate _); reflexivity.
    - destruct r as [|ls lk lv ll lr]; [reflexivity|]. destruct (_ >? _); [destruct (rrotate _) as [x|]; [|reflexivity]|]; destruct (lrotate _); reflexivity.
  Qed.
  Lemma attach_erase dir sub n t : forall c, attach dir sub n t = option_map fst (attach_n dir sub n t c).
  Proof.
    induction t as [|s k v l IHl r IHr]; intros c; [reflexivity|]. cbn [attach attach_n].
    assert (IH : forall c, attach dir sub n (child dir l r) = option_map fst (attach_n dir sub n (child dir l r) c)) by (destruct dir; assumption).
    destruct (child dir l r) as [|s0 k0 v0 l0 r0]; [apply fixRR_erase|]. rewrite (IH c).
    destruct (attach_n dir sub n _ c) as [[t' c1]|]; cbn [option_map fst]; [apply fixRR_erase|reflexivity].
  Qed.
  Lemma join_erase l r c : join l r = option_map fst (join_n l r c).
  Proof.
    unfold join, join_n. destruct (_ >? _); [destruct r|destruct l; [destruct r|]]; try reflexivity; apply attach_erase.
  Qed.
  Lemma closeCut_erase n l r c : closeCut n l r = option_map fst (closeCut_n n l r c).
  Proof.
    unfold closeCut, closeCut_n. destruct l as [|ls lk lv ll lr] eqn:El; [destruct r as [|rs rk rv rl rr] eqn:Er; [reflexivity|rewrite <- Er]|rewrite <- El];
      rewrite (join_erase _ _ c); destruct (join_n _ _ c) as [[t' c']|]; reflexivity.
  Qed.
  Lemma removeRange_erase low high t : forall c, removeRange cmp low high t = option_map fst (removeRange_n cmp low high t c).
  Proof.
    induction t as [|s k v l IHl r IHr]; intros c; [reflexivity|]. cbn [removeRange removeRange_n].
    destruct (_ && _)%bool; [|destruct (_ && _)%bool].
    - rewrite (IHl c). destruct (removeRange_n _ _ _ l c) as [[[t' x] c']|]; reflexivity.
    - rewrite (IHr c). destruct (removeRange_n _ _ _ r c) as [[[t' x] c']|]; reflexivity.
    - apply closeCut_erase.
  Qed.
  Lemma RemoveRange_erase low high t c : RemoveRange cmp low high t = option_map fst (RemoveRange_n cmp low high t c).
  Proof.
    unfold RemoveRange, RemoveRange_n. destruct (_ >? 0); [reflexivity|]. destruct (_ =? 0).
    - destruct (removeKey cmp low t) as [[t' x]|]; reflexivity.
    - rewrite (removeRange_erase _ _ _ c). destruct (removeRange_n _ _ _ t c) as [[[t' x] c']|]; reflexivity.
  Qed.
  Lemma removeRangeAt_erase low high t : forall idx c, removeRangeAt low high idx t = option_map fst (removeRangeAt_n low high idx t c).
  Proof.
    induction t as [|s k v l IHl r IHr]; intros idx c; [reflexivity|]. cbn [removeRangeAt removeRangeAt_n].
    destruct (_ && _)%bool; [|destruct (_ && _)%bool].
    - rewrite (IHl _ c). destruct (removeRangeAt_n _ _ _ l c) as [[[t' x] c']|]; reflexivity.
    - rewrite (IHr _ c). destruct (removeRangeAt_n _ _ _ r c) as [[[t' x] c']|]; reflexivity.
    - apply closeCut_erase.
  Qed.
  Lemma RemoveRangeByIndex_erase low high t c : RemoveRangeByIndex low high t = option_map fst (RemoveRangeByIndex_n low high t c).
  Proof.
    unfold RemoveRangeByIndex, RemoveRangeByIndex_n. destruct (_ >? _); [reflexivity|].
    rewrite (removeRangeAt_erase _ _ _ _ c). destruct (removeRangeAt_n _ _ _ t c) as [[[t' x] c']|]; reflexivity.
  Qed.
End Erase.
Lemma call_erase {K A} (cmp : K -> K -> Z) shift (s : cix K A) o :
  step cmp shift (content s) o = (content (fst (call_ix cmp shift s o)), snd (call_ix cmp shift s o)).
Proof.
  destruct s as [t c]. destruct o; unfold call_ix; cbn [content counts_ix]; try (destruct (step cmp shift t _); reflexivity); cbn [step].
  1,2: rewrite (Put_erase _ _ _ _ _ c); destruct (Put_n _ _ _ _ _ c) as [[[t' b] c']|]; reflexivity.
  - rewrite (Set_erase _ _ _ _ _ c); destruct (Set_n _ _ _ _ _ c) as [[[t' b] c']|]; reflexivity.
  - rewrite (Upsert_erase _ _ _ _ _ c); destruct (Upsert_n _ _ _ _ _ c) as [[[t' b] c']|]; reflexivity.
  - rewrite (RemoveRange_erase _ _ _ _ c); destruct (RemoveRange_n _ _ _ _ c) as [[t' c']|]; reflexivity.
  - rewrite (RemoveRangeByIndex_erase _ _ _ c); destruct (RemoveRangeByIndex_n _ _ _ c) as [[t' c']|]; reflexivity.
Qed.

(** ** how many rotations: any tree, any comparison function, any threshold *)
Section Few.
  Context {K V : Type} (cmp : K -> K -> Z) (shift : Z).
  Notation tree := (tree K V).
  Implicit Types (t l r : tree).
  Definition more (c c' : nat * nat) : Prop := c' = single c \/ c' = double c.
  Lemma more_total c c' : more c c' -> total c' = S (total c).
  Proof. intros [->| ->]; unfold total, single, double; cbn [fst snd]; lia. Qed.

  Lemma sizeR_turned t c t' c' : sizeRRotate_n t c = Some (t', c') -> turned c c' (strip t) (strip t') /\ more c c'.
  Proof.
    destruct t as [|s k v l [|rs rk rv rl rr]]; try discriminate. unfold sizeRRotate_n. destruct (_ >? _).
    - destruct rl as [|ls lk lv ll lr]; [discriminate|]. cbn [rrotate lrotate sum]. intros [= <- <-]. split; [apply turned_double, turn_right_left|right; reflexivity].
    - cbn [lrotate sum]. intros [= <- <-]. split; [apply turned_single, turn_left|left; reflexivity].
  Qed.
  Lemma sizeL_turned t c t' c' : sizeLRotate_n t c = Some (t', c') -> turned c c' (strip t) (strip t') /\ more c c'.
  Proof.
    destruct t as [|s k v [|rs rk rv ll lr] r]; try discriminate. unfold sizeLRotate_n. destruct (_ <? _).
    - destruct lr as [|ls lk lv l1 l2]; [discriminate|]. cbn [rrotate lrotate sum]. intros [= <- <-]. split; [apply turned_double, turn_left_right|right; reflexivity].
    - cbn [rrotate sum]. intros [= <- <-]. split; [apply turned_single, turn_right|left; reflexivity].
  Qed.
  Lemma fixPut_turned st t c t' st' c' : fixPut_n shift st t c = Some (t', st', c') ->
    turned c c' (strip t) (strip t') /\ (st = Sizes -> st' = Sizes /\ c' = c) /\ (c' = c \/ st' = Sizes /\ more c c').
  Proof.
    destruct t as [|s k v l r]; [discriminate|]. unfold fixPut_n. destruct st.
    - intros [= <- <- <-]. split; [apply turned_none|]. split; [discriminate|auto].
    - destruct (shift <? 0); [discriminate|]. destruct (_ <? shl64 h).
      2:{ intros [= <- <- <-]. split; [apply turned_none|]. split; [discriminate|auto]. }
      destruct (_ <? 0); destruct (_ <=? _).
      2,4: intros [= <- <- <-]; split; [apply turned_none|]; split; [discriminate|auto].
      + destruct (sizeRRotate_n _ c) as [[t1 c1]|] eqn:E1; [|discriminate]. intros [= <- <- <-]. apply sizeR_turned in E1 as (T & M). split; [exact T|]. split; [discriminate|auto].
      + destruct (sizeLRotate_n _ c) as [[t1 c1]|] eqn:E1; [|discriminate]. intros [= <- <- <-]. apply sizeL_turned in E1 as (T & M). split; [exact T|]. split; [discriminate|auto].
    - intros [= <- <- <-]. split; [apply turned_none|]. split; [auto|auto].
  Qed.
  (** once a rotation has been made only sizes are put right *)
  Definition at_most_one (c c' : nat * nat) (res : option climb) : Prop := c' = c \/ res = Some Sizes /\ more c c'.
  Lemma iput_once hit key v t : forall c t' res c', put_n cmp shift hit key v t c = Some (t', res, c') -> at_most_one c c' res.
  Proof.
    unfold at_most_one. induction t as [|s k w l IHl r IHr]; intros c t' res c'; cbn [put_n]; [intros [= <- <- <-]; auto|].
    destruct (cmp key k <? 0); [|destruct (cmp key k >? 0)].
    - destruct (put_n cmp shift hit key v l c) as [[[l' [st|]] c1]|] eqn:E1; [| |discriminate]; apply IHl in E1.
      + destruct (fixPut_n shift st _ c1) as [[[t2 st2] c2]|] eqn:E2; [|discriminate]. intros [= <- <- <-]. apply fixPut_turned in E2 as (_ & F1 & F2).
        destruct E1 as [->|([= ->] & M)]; [destruct F2 as [->|(-> & M)]; auto|]. destruct (F1 eq_refl) as (-> & ->). auto.
      + intros [= <- <- <-]. destruct E1 as [->|(? & _)]; [auto|discriminate].
    - destruct (put_n cmp shift hit key v r c) as [[[l' [st|]] c1]|] eqn:E1; [| |discriminate]; apply IHr in E1.
      + destruct (fixPut_n shift st _ c1) as [[[t2 st2] c2]|] eqn:E2; [|discriminate]. intros [= <- <- <-]. apply fixPut_turned in E2 as (_ & F1 & F2).
        destruct E1 as [->|([= ->] & M)]; [destruct F2 as [->|(-> & M)]; auto|]. destruct (F1 eq_refl) as (-> & ->). auto.
      + intros [= <- <- <-]. destruct E1 as [->|(? & _)]; [auto|discriminate].
    - destruct (hit (k, w)). intros [= <- <- <-]. auto.
  Qed.
  Lemma fixRR_turned t c t' c' : fixRemoveRange_n t c = Some (t', c') -> turned c c' (strip t) (strip t') /\ (total c' <= S (total c))%nat.
  Proof.
    destruct t as [|s k v l r]; [discriminate|]. unfold fixRemoveRange_n. destruct (s <=? 2); [intros [= <- <-]; split; [apply turned_none|lia]|].
    destruct (_ && _)%bool; [|destruct (_ && _)%bool; [|intros [= <- <-]; split; [apply turned_none|lia]]].
    - destruct l as [|ls lk lv ll lr]; [discriminate|]. destruct (_ <? _).
      + destruct lr as [|ms mk mv ml mr]; [discriminate|]. cbn [rrotate lrotate sum]. intros [= <- <-]. split; [apply turned_double, turn_left_right|unfold total; cbn; lia].
      + cbn [rrotate sum]. intros [= <- <-]. split; [apply turned_single, turn_right|unfold total; cbn; lia].
    - destruct r as [|ls lk lv rl rr]; [discriminate|]. destruct (_ >? _).
      + destruct rl as [|ms mk mv ml mr]; [discriminate|]. cbn [rrotate lrotate sum]. intros [= <- <-]. split; [apply turned_double, turn_right_left|unfold total; cbn; lia].
      + cbn [lrotate sum]. intros [= <- <-]. split; [apply turned_single, turn_left|unfold total; cbn; lia].
  Qed.
  Lemma attach_turned (dir : bool) sub n t : forall c t' c', attach_n dir sub n t c = Some (t', c') ->
    turned c c' (if dir then hang_last (strip sub) (strip t) else hang_first (strip sub) (strip t)) (strip t') /\ Z.of_nat (total c') <= Z.of_nat (total c) + ht t.
  Proof.
    induction t as [|s k v l IHl r IHr]; intros c t' c'; [discriminate|]. cbn [attach_n]. pose proof (ht_nonneg l). pose proof (ht_nonneg r).
    destruct dir; cbn [child with_child].
    - destruct r as [|rs rk rv rl rr] eqn:Er.
      + intros H1. apply fixRR_turned in H1 as (T & B). split; [exact T|cbn [ht] in *; lia].
      + rewrite <- Er in *. destruct (attach_n true sub n r c) as [[t1 c1]|] eqn:E1; [|discriminate]. apply IHr in E1 as (T1 & B1).
        intros H2. apply fixRR_turned in H2 as (T & B). cbn [strip hang_last ht]. split; [eapply turned_trans; [apply turned_right; exact T1|exact T]|lia].
    - destruct l as [|rs rk rv rl rr] eqn:Er.
      + intros H1. apply fixRR_turned in H1 as (T & B). split; [exact T|cbn [ht] in *; lia].
      + rewrite <- Er in *. destruct (attach_n false sub n l c) as [[t1 c1]|] eqn:E1; [|discriminate]. apply IHl in E1 as (T1 & B1).
        intros H2. apply fixRR_turned in H2 as (T & B). cbn [strip hang_first ht]. split; [eapply turned_trans; [apply turned_left; exact T1|exact T]|lia].
  Qed.
  Lemma hang_last_leaf (t : bt K V) : hang_last Leaf t = t.
  Proof. induction t; cbn [hang_last]; congruence. Qed.
  Lemma hang_first_leaf (t : bt K V) : hang_first Leaf t = t.
  Proof. induction t; cbn [hang_first]; congruence. Qed.
  Lemma join_few l r c t' c' : join_n l r c = Some (t', c') -> Z.of_nat (total c') <= Z.of_nat (total c) + Z.max (ht l) (ht r).
  Proof.
    pose proof (ht_nonneg l). pose proof (ht_nonneg r). unfold join_n. destruct (_ >? _).
    - destruct r as [|rs rk rv rl rr] eqn:Er; [intros [= <- <-]; lia|]. rewrite <- Er in *. intros H1. apply attach_turned in H1 as (_ & B). lia.
    - destruct l as [|rs rk rv rl rr] eqn:Er; [destruct r; [discriminate|]; intros [= <- <-]; lia|]. rewrite <- Er in *. intros H1. apply attach_turned in H1 as (_ & B). lia.
  Qed.
  Lemma closeCut_few n l r c t' x c' : closeCut_n n l r c = Some (t', x, c') -> Z.of_nat (total c') <= Z.of_nat (total c) + Z.max (ht l) (ht r).
  Proof.
    pose proof (ht_nonneg l). pose proof (ht_nonneg r). unfold closeCut_n. intros H1.
    assert (H2 : c' = c \/ exists t1, join_n l r c = Some (t1, c')).
    { destruct l as [|ls lk lv ll lr] eqn:El; [destruct r as [|rs rk rv rl rr] eqn:Er; [injection H1 as <- <- <-; auto|rewrite <- Er in *]|rewrite <- El in *];
        destruct (join_n _ _ c) as [[t1 c1]|]; try discriminate; injection H1 as <- <- <-; eauto. }
    destruct H2 as [->|(t1 & H2)]; [lia|]. now apply join_few in H2.
  Qed.
  Lemma ltrim_ht low t : ht (ltrim cmp low t) <= ht t.
  Proof. induction t as [|s k v l IHl r IHr]; [cbn; lia|]. cbn [ltrim]. destruct (_ >? 0); cbn [ht sum]; lia. Qed.
  Lemma rtrim_ht high t : ht (rtrim cmp high t) <= ht t.
  Proof. induction t as [|s k v l IHl r IHr]; [cbn; lia|]. cbn [rtrim]. destruct (_ <? 0); cbn [ht sum]; lia. Qed.
  Lemma ltrimAt_ht low t : forall idx dir, ht (ltrimAt low idx dir t) <= ht t.
  Proof.
    induction t as [|s k v l IHl r IHr]; intros idx dir; [cbn; lia|]. cbn [ltrimAt]. set (i := if dir then _ else _).
    specialize (IHl i false). specialize (IHr i true). destruct (_ <? _); [|destruct (_ >? _)]; cbn [ht sum]; lia.
  Qed.
  Lemma rtrimAt_ht high t : forall idx dir, ht (rtrimAt high idx dir t) <= ht t.
  Proof.
    induction t as [|s k v l IHl r IHr]; intros idx dir; [cbn; lia|]. cbn [rtrimAt]. set (i := if dir then _ else _).
    specialize (IHl i false). specialize (IHr i true). destruct (_ >? _); [|destruct (_ <? _)]; cbn [ht sum]; lia.
  Qed.
  Lemma removeRange_few low high t : forall c t' x c', removeRange_n cmp low high t c = Some (t', x, c') ->
    Z.of_nat (total c') <= Z.of_nat (total c) + Z.max 0 (ht t - 1).
  Proof.
    induction t as [|s k v l IHl r IHr]; intros c t' x c'; cbn [removeRange_n]; [intros [= <- <- <-]; cbn; lia|].
    pose proof (ht_nonneg l). pose proof (ht_nonneg r). cbn [ht].
    destruct (_ && _)%bool; [|destruct (_ && _)%bool].
    - destruct (removeRange_n cmp low high l c) as [[[t1 x1] c1]|] eqn:E1; [|discriminate]. intros [= <- <- <-]. apply IHl in E1. lia.
    - destruct (removeRange_n cmp low high r c) as [[[t1 x1] c1]|] eqn:E1; [|discriminate]. intros [= <- <- <-]. apply IHr in E1. lia.
    - intros H1. apply closeCut_few in H1. pose proof (ltrim_ht low l). pose proof (rtrim_ht high r). lia.
  Qed.
  Lemma removeRangeAt_few low high t : forall idx c t' x c', removeRangeAt_n low high idx t c = Some (t', x, c') ->
    Z.of_nat (total c') <= Z.of_nat (total c) + Z.max 0 (ht t - 1).
  Proof.
    induction t as [|s k v l IHl r IHr]; intros idx c t' x c'; cbn [removeRangeAt_n]; [discriminate|].
    pose proof (ht_nonneg l). pose proof (ht_nonneg r). cbn [ht].
    destruct (_ && _)%bool; [|destruct (_ && _)%bool].
    - destruct (removeRangeAt_n low high _ l c) as [[[t1 x1] c1]|] eqn:E1; [|discriminate]. intros [= <- <- <-]. apply IHl in E1. lia.
    - destruct (removeRangeAt_n low high _ r c) as [[[t1 x1] c1]|] eqn:E1; [|discriminate]. intros [= <- <- <-]. apply IHr in E1. lia.
    - intros H1. apply closeCut_few in H1. pose proof (ltrimAt_ht low l idx false). pose proof (rtrimAt_ht high r idx true). lia.
  Qed.
End Few.

Section CallFew.
  Context {K A : Type} (cmp : K -> K -> Z) (shift : Z).
  Lemma call_insert_once (s : cix K A) o : ix_inserts o = true ->
    counts_ix (fst (call_ix cmp shift s o)) = counts_ix s \/ more (counts_ix s) (counts_ix (fst (call_ix cmp shift s o))).
  Proof.
    assert (HP : forall hit k (v : option A) (t : tree K (option A)) c t' res c', put_n cmp shift hit k v t c = Some (t', res, c') -> c' = c \/ more c c').
    { intros hit k v t c t' res c' H. apply iput_once in H as [H|(_ & H)]; auto. }
    destruct s as [t c]. destruct o; try discriminate; intros _; unfold call_ix; cbn [content counts_ix].
    1,2: unfold Put_n; destruct (put_n _ _ _ _ _ t c) as [[[t' res] c']|] eqn:E1; cbn [orPanic_n fst counts_ix]; [eapply HP; exact E1|auto].
    - unfold Set_n. destruct t as [|n0 k0 v0 l r] eqn:Et; [cbn; auto|]. rewrite <- Et.
      destruct (put_n _ _ _ _ _ t c) as [[[t' res] c']|] eqn:E1; cbn [orPanic_n fst counts_ix]; [eapply HP; exact E1|auto].
    - unfold Upsert_n. destruct (getNode cmp k t); [|cbn; auto].
      unfold Put_n; destruct (put_n _ _ _ _ _ t c) as [[[t' res] c']|] eqn:E1; cbn [orPanic_n fst counts_ix]; [eapply HP; exact E1|auto].
  Qed.
  Lemma call_cut_few (s : cix K A) o : ix_cuts o = true ->
    Z.of_nat (total (counts_ix (fst (call_ix cmp shift s o)))) <= Z.of_nat (total (counts_ix s)) + Z.max 0 (ht (content s) - 1).
  Proof.
    destruct s as [t c]. destruct o; try discriminate; intros _; unfold call_ix; cbn [content counts_ix].
    - unfold RemoveRange_n. destruct (_ >? 0); [cbn; lia|]. destruct (_ =? 0); [destruct (removeKey cmp lo t) as [[t' x]|]; cbn; lia|].
      destruct (removeRange_n cmp lo hi t c) as [[[t' x] c']|] eqn:E1; cbn [orPanic_n fst counts_ix]; [now apply removeRange_few in E1|lia].
    - unfold RemoveRangeByIndex_n. destruct (_ >? _); [cbn; lia|].
      destruct (removeRangeAt_n i j _ t c) as [[[t' x] c']|] eqn:E1; cbn [orPanic_n fst counts_ix]; [now apply removeRangeAt_few in E1|lia].
  Qed.
  Lemma call_none (s : cix K A) o : ix_inserts o = false -> ix_cuts o = false -> ix_other o = false ->
    counts_ix (fst (call_ix cmp shift s o)) = counts_ix s.
  Proof.
    destruct s as [t c]. destruct o; try discriminate; intros _ _; unfold call_ix; cbn [content counts_ix]; try (destruct (step cmp shift t _); reflexivity).
    cbn [ix_other]. destruct rgt; [discriminate|]. intros _. destruct (step cmp shift t _); reflexivity.
  Qed.
End CallFew.
