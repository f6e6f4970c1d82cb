(** The rotation counters of tree lists: erasing them, and how much they can grow. *)
From Verif Require Import Base Bind Machine OrderSpec SMapSpec AvlTree AvlSpec AvlModel AvlProofs RotSpec AvlCountModel AvlCountProofs IndexSpec IndexModel IndexProofs CutSpec
  IndexCountModel IndexCountProofs TreelistSpec TreelistModel TreelistShapeSpec TreelistCountModel.
Local Open Scope Z_scope.

Section Erase.
  Context {K V : Type} (cmp : K -> K -> Z).
  Notation node := (nat * V)%type.
  Notation tree := (tree K node).
  Implicit Types (t l r : tree).

  Lemma tfixPut_erase st t c : fixPut st t = option_map fst (fixPut_t st t c).
  Proof.
    destruct t as [|s k v l r]; [reflexivity|]. unfold fixPut, fixPut_t. destruct st; try reflexivity.
    destruct (64 <=? h); [reflexivity|]. destruct (_ <? shl64 h); [|reflexivity]. unfold sizeRRotate, sizeLRotate, sizeRRotate_t, sizeLRotate_t. destruct (_ <? 0).
    - destruct (_ <=? - _); [|reflexivity]. rewrite (sizeR_erase _ c). destruct (sizeRRotate_n _ c) as [[t' c']|]; reflexivity.
    - destruct (_ <=? _); [|reflexivity]. rewrite (sizeL_erase _ c). destruct (sizeLRotate_n _ c) as [[t' c']|]; reflexivity.
  Qed.
  Lemma tput_erase hit x key w t : forall a b c, put cmp hit x key w a b t = option_map fst (put_t cmp hit x key w a b t c).
  Proof.
    induction t as [|s k [i v] l IHl r IHr]; intros a b c; [reflexivity|]. cbn [put put_t]. destruct (cmp key k <? 0); [|destruct (cmp key k >? 0)].
    - rewrite (IHl _ _ c). destruct (put_t cmp hit x key w _ _ l c) as [[[l' [|p q st]] c1]|]; cbn [option_map fst]; try reflexivity.
      rewrite (tfixPut_erase _ _ c1). destruct (fixPut_t st _ c1) as [[[t' st'] c2]|]; reflexivity.
    - rewrite (IHr _ _ c). destruct (put_t cmp hit x key w _ _ r c) as [[[l' [|p q st]] c1]|]; cbn [option_map fst]; try reflexivity.
      rewrite (tfixPut_erase _ _ c1). destruct (fixPut_t st _ c1) as [[[t' st'] c2]|]; reflexivity.
    - reflexivity.
  Qed.
  Lemma tremoveRange_erase lk low high t : forall c, removeRange cmp lk low high t = option_map fst (removeRange_t cmp lk low high t c).
  Proof.
    induction t as [|s k [i v] l IHl r IHr]; intros c; [reflexivity|]. cbn [removeRange removeRange_t].
    destruct (_ && _)%bool; [|destruct (_ && _)%bool].
    - rewrite (IHl c). destruct (removeRange_t _ _ _ _ l c) as [[[[t' x] dd] c']|]; reflexivity.
    - rewrite (IHr c). destruct (removeRange_t _ _ _ _ r c) as [[[[t' x] dd] c']|]; reflexivity.
    - destruct (match l with E => _ | _ => _ end) as [lg dl]. destruct (match r with E => _ | _ => _ end) as [rg dr].
      unfold closeCut, closeCut_t. rewrite (closeCut_erase s lg rg c). destruct (closeCut_n s lg rg c) as [[[t' x] c']|]; reflexivity.
  Qed.
  Lemma tremoveRangeAt_erase lk low high t : forall idx c, removeRangeAt lk low high idx t = option_map fst (removeRangeAt_t lk low high idx t c).
  Proof.
    induction t as [|s k [i v] l IHl r IHr]; intros idx c; [reflexivity|]. cbn [removeRangeAt removeRangeAt_t].
    destruct (_ && _)%bool; [|destruct (_ && _)%bool].
    - rewrite (IHl _ c). destruct (removeRangeAt_t _ _ _ _ l c) as [[[[t' x] dd] c']|]; reflexivity.
    - rewrite (IHr _ c). destruct (removeRangeAt_t _ _ _ _ r c) as [[[[t' x] dd] c']|]; reflexivity.
    - destruct (match l with E => _ | _ => _ end) as [lg dl]. destruct (match r with E => _ | _ => _ end) as [rg dr].
      unfold closeCut, closeCut_t. rewrite (closeCut_erase s lg rg c). destruct (closeCut_n s lg rg c) as [[[t' x] c']|]; reflexivity.
  Qed.
  Lemma tcall_erase (s : ctl K V) o : tl_step cmp (list_of s) o = (list_of (fst (call_tl cmp s o)), snd (call_tl cmp s o)).
  Proof.
    destruct s as [b c]. assert (HP : forall k w ins ex hit, orPanic b (putWith cmp k w ins ex hit b) =
      (list_of (fst (orPanic_t (CT b c) (putWith_t cmp k w ins ex hit (CT b c)))), snd (orPanic_t (CT b c) (putWith_t cmp k w ins ex hit (CT b c))))).
    { intros. unfold putWith, putWith_t. cbn [list_of counts_tl]. rewrite (tput_erase _ _ _ _ _ _ _ c). destruct (put_t _ _ _ _ _ _ _ _ c) as [[[t [|p q st]] c']|]; reflexivity. }
    destruct o; unfold call_tl; cbn [list_of counts_tl]; try (destruct (tl_step cmp b _); reflexivity); cbn [tl_step]; auto.
    - unfold RemoveRange, RemoveRange_t. cbn [list_of counts_tl]. destruct (_ >? 0); [reflexivity|]. destruct (_ =? 0); [destruct (Remove cmp lo b) as [[b' r]|]; reflexivity|].
      rewrite (tremoveRange_erase _ _ _ _ c). destruct (removeRange_t _ _ _ _ _ c) as [[[[t x] [[p q]|]] c']|]; reflexivity.
    - unfold RemoveRangeByIndex, RemoveRangeByIndex_t. cbn [list_of counts_tl]. destruct (_ >? _); [reflexivity|].
      rewrite (tremoveRangeAt_erase _ _ _ _ _ c). destruct (removeRangeAt_t _ _ _ _ _ c) as [[[[t x] [p q]] c']|]; reflexivity.
  Qed.

  (** ** how many rotations there can be *)
  Lemma tfixPut_turned st t c t' st' c' : fixPut_t st t c = Some (t', st', c') ->
    turned c c' (strip t) (strip t') /\ (st = Sizes -> st' = Sizes /\ c' = c) /\ (c' = c \/ st' = Sizes /\ more c c').
  Proof.
    destruct t as [|s k v l r]; [discriminate|]. unfold fixPut_t. destruct st.
    - intros [= <- <- <-]. split; [apply turned_none|]. split; [discriminate|auto].
    - destruct (64 <=? h); [intros [= <- <- <-]; split; [apply turned_none|]; split; [discriminate|auto]|]. destruct (_ <? shl64 h).
      2:{ intros [= <- <- <-]. split; [apply turned_none|]. split; [discriminate|auto]. }
      unfold sizeRRotate_t, sizeLRotate_t. destruct (_ <? 0); destruct (_ <=? _).
      2,4: intros [= <- <- <-]; split; [apply turned_none|]; split; [discriminate|auto].
      + destruct (sizeRRotate_n _ c) as [[t1 c1]|] eqn:E1; [|discriminate]. intros [= <- <- <-]. apply sizeR_turned in E1 as (T & M). split; [exact T|]. split; [discriminate|auto].
      + destruct (sizeLRotate_n _ c) as [[t1 c1]|] eqn:E1; [|discriminate]. intros [= <- <- <-]. apply sizeL_turned in E1 as (T & M). split; [exact T|]. split; [discriminate|auto].
    - intros [= <- <- <-]. split; [apply turned_none|]. split; [auto|auto].
    - intros [= <- <- <-]. split; [apply turned_none|]. split; [discriminate|auto].
  Qed.
  Lemma tput_once hit x key w t : forall a b c t' res c', put_t cmp hit x key w a b t c = Some (t', res, c') ->
    c' = c \/ (exists p q, res = Placed p q Sizes) /\ more c c'.
  Proof.
    induction t as [|s k [i v] l IHl r IHr]; intros a b c t' res c'; cbn [put_t]; [intros [= <- <- <-]; auto|].
    destruct (cmp key k <? 0); [|destruct (cmp key k >? 0)].
    - destruct (put_t cmp hit x key w _ _ l c) as [[[l' [|p q st]] c1]|] eqn:E1; [| |discriminate]; apply IHl in E1.
      + intros [= <- <- <-]. destruct E1 as [->|((p & q & X) & _)]; [auto|discriminate].
      + destruct (fixPut_t st _ c1) as [[[t2 st2] c2]|] eqn:E2; [|discriminate]. intros [= <- <- <-]. apply tfixPut_turned in E2 as (_ & F1 & F2).
        destruct E1 as [->|((p' & q' & [= -> -> ->]) & M)]; [destruct F2 as [->|(-> & M)]; eauto|]. destruct (F1 eq_refl) as (-> & ->). eauto.
    - destruct (put_t cmp hit x key w _ _ r c) as [[[l' [|p q st]] c1]|] eqn:E1; [| |discriminate]; apply IHr in E1.
      + intros [= <- <- <-]. destruct E1 as [->|((p & q & X) & _)]; [auto|discriminate].
      + destruct (fixPut_t st _ c1) as [[[t2 st2] c2]|] eqn:E2; [|discriminate]. intros [= <- <- <-]. apply tfixPut_turned in E2 as (_ & F1 & F2).
        destruct E1 as [->|((p' & q' & [= -> -> ->]) & M)]; [destruct F2 as [->|(-> & M)]; eauto|]. destruct (F1 eq_refl) as (-> & ->). eauto.
    - intros [= <- <- <-]. auto.
  Qed.
  Lemma tltrim_ht lk low t : ht (fst (ltrim cmp lk low t)) <= ht t.
  Proof.
    induction t as [|s k [i v] l IHl r IHr]; [cbn; lia|]. pose proof (ht_nonneg l). pose proof (ht_nonneg r). cbn [ltrim ht]. destruct (_ >? 0); [|destruct (_ <? 0)].
    - destruct (ltrim cmp lk low r) as [x y]. cbn [fst] in *. unfold sum, IndexModel.sum. cbn [ht]. lia.
    - destruct l; [cbn [fst ht] in *; lia|]. lia.
    - cbn [fst]. lia.
  Qed.
  Lemma trtrim_ht lk high t : ht (fst (rtrim cmp lk high t)) <= ht t.
  Proof.
    induction t as [|s k [i v] l IHl r IHr]; [cbn; lia|]. pose proof (ht_nonneg l). pose proof (ht_nonneg r). cbn [rtrim ht]. destruct (_ <? 0); [|destruct (_ >? 0)].
    - destruct (rtrim cmp lk high l) as [x y]. cbn [fst] in *. unfold sum, IndexModel.sum. cbn [ht]. lia.
    - destruct r; [cbn [fst ht] in *; lia|]. lia.
    - cbn [fst]. lia.
  Qed.
  Lemma tltrimAt_ht lk low t : forall idx dir, ht (fst (ltrimAt lk low idx dir t)) <= ht t.
  Proof.
    induction t as [|s k [i v] l IHl r IHr]; intros idx dir; [cbn; lia|]. pose proof (ht_nonneg l). pose proof (ht_nonneg r). cbn [ltrimAt ht].
    set (p := if dir then _ else _). destruct (p <? low); [|destruct (p >? low)].
    - specialize (IHr p true). destruct (ltrimAt lk low p true r) as [x y]. cbn [fst] in *. unfold sum, IndexModel.sum. cbn [ht]. lia.
    - destruct l; [cbn [fst ht] in *; lia|]. specialize (IHl p false). lia.
    - cbn [fst]. lia.
  Qed.
  Lemma trtrimAt_ht lk high t : forall idx dir, ht (fst (rtrimAt lk high idx dir t)) <= ht t.
  Proof.
    induction t as [|s k [i v] l IHl r IHr]; intros idx dir; [cbn; lia|]. pose proof (ht_nonneg l). pose proof (ht_nonneg r). cbn [rtrimAt ht].
    set (p := if dir then _ else _). destruct (p >? high); [|destruct (p <? high)].
    - specialize (IHl p false). destruct (rtrimAt lk high p false l) as [x y]. cbn [fst] in *. unfold sum, IndexModel.sum. cbn [ht]. lia.
    - destruct r; [cbn [fst ht] in *; lia|]. specialize (IHr p true). lia.
    - cbn [fst]. lia.
  Qed.
  Lemma group_ht (t : tree) (o : option nat) (f : tree -> tree * option nat) : ht (fst (f t)) <= ht t -> ht (fst match t with E => (E, o) | _ => f t end) <= ht t.
  Proof. destruct t; auto. intros _. cbn. lia. Qed.
  Lemma tremoveRange_few lk low high t : forall c t' x dd c', removeRange_t cmp lk low high t c = Some (t', x, dd, c') ->
    Z.of_nat (total c') <= Z.of_nat (total c) + Z.max 0 (ht t - 1).
  Proof.
    induction t as [|s k [i v] l IHl r IHr]; intros c t' x dd c'; cbn [removeRange_t]; [intros [= <- <- <- <-]; cbn; lia|].
    pose proof (ht_nonneg l). pose proof (ht_nonneg r). cbn [ht].
    destruct (_ && _)%bool; [|destruct (_ && _)%bool].
    - destruct (removeRange_t cmp lk low high l c) as [[[[t1 x1] d1] c1]|] eqn:E1; [|discriminate]. intros [= <- <- <- <-]. apply IHl in E1. lia.
    - destruct (removeRange_t cmp lk low high r c) as [[[[t1 x1] d1] c1]|] eqn:E1; [|discriminate]. intros [= <- <- <- <-]. apply IHr in E1. lia.
    - pose proof (group_ht l (d lk i false) (ltrim cmp lk low) (tltrim_ht lk low l)) as G1. pose proof (group_ht r (d lk i true) (rtrim cmp lk high) (trtrim_ht lk high r)) as G2.
      destruct (match l with E => _ | _ => _ end) as [lg dl]. destruct (match r with E => _ | _ => _ end) as [rg dr]. cbn [fst] in *. unfold closeCut_t.
      destruct (closeCut_n s lg rg c) as [[[t1 x1] c1]|] eqn:E1; [|discriminate]. intros [= <- <- <- <-]. apply (closeCut_few cmp) in E1. lia.
  Qed.
  Lemma tremoveRangeAt_few lk low high t : forall idx c t' x dd c', removeRangeAt_t lk low high idx t c = Some (t', x, dd, c') ->
    Z.of_nat (total c') <= Z.of_nat (total c) + Z.max 0 (ht t - 1).
  Proof.
    induction t as [|s k [i v] l IHl r IHr]; intros idx c t' x dd c'; cbn [removeRangeAt_t]; [discriminate|].
    pose proof (ht_nonneg l). pose proof (ht_nonneg r). cbn [ht].
    destruct (_ && _)%bool; [|destruct (_ && _)%bool].
    - destruct (removeRangeAt_t lk low high _ l c) as [[[[t1 x1] d1] c1]|] eqn:E1; [|discriminate]. intros [= <- <- <- <-]. apply IHl in E1. lia.
    - destruct (removeRangeAt_t lk low high _ r c) as [[[[t1 x1] d1] c1]|] eqn:E1; [|discriminate]. intros [= <- <- <- <-]. apply IHr in E1. lia.
    - pose proof (group_ht l (d lk i false) (ltrimAt lk low idx false) (tltrimAt_ht lk low l _ _)) as G1. pose proof (group_ht r (d lk i true) (rtrimAt lk high idx true) (trtrimAt_ht lk high r _ _)) as G2.
      destruct (match l with E => _ | _ => _ end) as [lg dl]. destruct (match r with E => _ | _ => _ end) as [rg dr]. cbn [fst] in *. unfold closeCut_t.
      destruct (closeCut_n s lg rg c) as [[[t1 x1] c1]|] eqn:E1; [|discriminate]. intros [= <- <- <- <-]. apply (closeCut_few cmp) in E1. lia.
  Qed.
  Lemma tcall_insert_once (s : ctl K V) o : tl_inserts o = true ->
    counts_tl (fst (call_tl cmp s o)) = counts_tl s \/
    more (counts_tl s) (counts_tl (fst (call_tl cmp s o))) /\ snd (call_tl cmp s o) = TBool (match o with TPut _ _ => true | _ => false end).
  Proof.
    assert (HP : forall k w ins ex hit, let x := orPanic_t s (putWith_t cmp k w ins ex hit s) in counts_tl (fst x) = counts_tl s \/ more (counts_tl s) (counts_tl (fst x)) /\ snd x = TBool ins).
    { intros k w ins ex hit. cbv zeta. unfold putWith_t. destruct (put_t _ _ _ _ _ _ _ _ _) as [[[t res] c']|] eqn:E1; [|auto]. apply tput_once in E1 as [->|((p & q & ->) & M)]; cbn [orPanic_t].
      - left. destruct res; reflexivity. - cbn [fst snd counts_tl]. auto. }
    destruct o; try discriminate; intros _; apply HP.
  Qed.
  Lemma tcall_cut_few (s : ctl K V) o : tl_cuts o = true ->
    Z.of_nat (total (counts_tl (fst (call_tl cmp s o)))) <= Z.of_nat (total (counts_tl s)) + Z.max 0 (ht (top (list_of s)) - 1).
  Proof.
    destruct s as [b c]. destruct o; try discriminate; intros _; cbn [call_tl list_of counts_tl].
    - unfold RemoveRange_t. cbn [list_of counts_tl]. destruct (_ >? 0); [cbn; lia|]. destruct (_ =? 0); [destruct (Remove cmp lo b) as [[b' r]|]; cbn; lia|].
      destruct (removeRange_t _ _ _ _ _ c) as [[[[t x] dd] c']|] eqn:E1; [apply tremoveRange_few in E1; destruct dd as [[p q]|]; exact E1|cbn; lia].
    - unfold RemoveRangeByIndex_t. cbn [list_of counts_tl]. destruct (_ >? _); [cbn; lia|].
      destruct (removeRangeAt_t _ _ _ _ _ c) as [[[[t x] [p q]] c']|] eqn:E1; [apply tremoveRangeAt_few in E1; exact E1|cbn; lia].
  Qed.
  Lemma tcall_none (s : ctl K V) o : tl_inserts o = false -> tl_cuts o = false ->
    counts_tl (fst (call_tl cmp s o)) = if tl_clears o then (0, 0)%nat else counts_tl s.
  Proof. destruct s as [b c]. destruct o; try discriminate; intros _ _; unfold call_tl; cbn [list_of counts_tl]; destruct (tl_step cmp b _); reflexivity. Qed.
End Erase.
