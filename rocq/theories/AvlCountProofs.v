(** The counters count the rotations, and how many there can be in one call. *)
From Verif Require Import Base Bind Machine OrderSpec SMapSpec SMapFacts CompareModel AvlTree AvlSpec AvlModel AvlProofs AvlAny AvlStep RotSpec AvlCountModel.
Local Open Scope Z_scope.

Section Proofs.
  Context {K V : Type}.
  Notation tree := (tree K V).
  Implicit Types (t l r : tree).


  (** ** the counters aside, these are the functions of [AvlModel] *)
  Section Erase.
    Context (cmp : K -> K -> Z) (d : Z).
    Lemma rebalance_erase t c : rebalance Both d t = option_map fst (rebalance_n d t c).
    Proof.
      destruct t as [|h k v l r]; [reflexivity|]. cbn [rebalance rebalance_n].
      destruct (d <=? _); [destruct l as [|lh lk lv ll lr]; [reflexivity|]|destruct (_ <=? i8 (- d)); [destruct r as [|rh rk rv rl rr]; [reflexivity|]|]].
      - destruct (getHeight lr >? getHeight ll); [destruct (rightRotateWithLeft Both _)|destruct (rightRotate Both _)]; reflexivity.
      - destruct (getHeight rl >? getHeight rr); [destruct (leftRotateWithRight Both _)|destruct (leftRotate Both _)]; reflexivity.
      - destruct (_ >? _); destruct (_ =? _); reflexivity.
    Qed.
    Lemma neighboring_erase dir t : forall c, neighboring Both d dir t = option_map fst (neighboring_n d dir t c).
    Proof.
      induction t as [|h k v l IHl r IHr]; intros c; [reflexivity|]. cbn [neighboring neighboring_n].
      assert (IH : forall c, neighboring Both d dir (child dir l r) = option_map fst (neighboring_n d dir (child dir l r) c)) by (destruct dir; assumption).
      destruct (child dir l r) as [|h0 k0 v0 l0 r0]; [reflexivity|]. rewrite (IH c).
      destruct (neighboring_n d dir _ c) as [[[[sub res] rb] c1]|]; cbn [option_map fst]; [|reflexivity]. destruct rb; [|reflexivity].
      rewrite (rebalance_erase _ c1). destruct (rebalance_n d _ c1) as [[[t b] c2]|]; reflexivity.
    Qed.
    Lemma put_erase hit key v t : forall alone c, put cmp Both d hit key v t alone = option_map fst (put_n cmp d hit key v t alone c).
    Proof.
      induction t as [|h k w l IHl r IHr]; intros alone c; [reflexivity|]. cbn [put put_n].
      destruct (cmp k key <? 0); [destruct (hit (k, w)); reflexivity|]. destruct (cmp k key =? 0); [|destruct (cmp k key =? 1); [|reflexivity]].
      - rewrite (IHl _ c). destruct (put_n cmp d hit key v l _ c) as [[[[l' ex] rb] c1]|]; cbn [option_map fst]; [|reflexivity].
        destruct (_ || _)%bool; [reflexivity|]. rewrite (rebalance_erase _ c1). destruct (rebalance_n d _ c1) as [[[t b] c2]|]; reflexivity.
      - rewrite (IHr _ c). destruct (put_n cmp d hit key v r _ c) as [[[[l' ex] rb] c1]|]; cbn [option_map fst]; [|reflexivity].
        destruct (_ || _)%bool; [reflexivity|]. rewrite (rebalance_erase _ c1). destruct (rebalance_n d _ c1) as [[[t b] c2]|]; reflexivity.
    Qed.
    Lemma remove_erase key t : forall side c, remove cmp Both d key t side = option_map fst (remove_n cmp d key t side c).
    Proof.
      induction t as [|h k w l IHl r IHr]; intros side c; [reflexivity|]. cbn [remove remove_n].
      destruct (cmp k key <? 0); [|destruct (cmp k key =? 0); [|destruct (cmp k key =? 1); [|reflexivity]]].
      - destruct l as [|lh lk lv ll lr] eqn:El; [reflexivity|]. destruct r as [|rh rk rv rl rr] eqn:Er; [reflexivity|]. rewrite <- El, <- Er in *.
        rewrite (neighboring_erase _ _ c). destruct (neighboring_n d _ _ c) as [[[[sub [rk' rv']] rb] c1]|]; cbn [option_map fst]; [|reflexivity].
        rewrite (rebalance_erase _ c1). destruct (rebalance_n d _ c1) as [[[t b] c2]|]; reflexivity.
      - rewrite (IHl _ c). destruct (remove_n cmp d key l _ c) as [[[[l' tg] rb] c1]|]; cbn [option_map fst]; [|reflexivity].
        destruct rb; [|reflexivity]. rewrite (rebalance_erase _ c1). destruct (rebalance_n d _ c1) as [[[t b] c2]|]; reflexivity.
      - rewrite (IHr _ c). destruct (remove_n cmp d key r _ c) as [[[[l' tg] rb] c1]|]; cbn [option_map fst]; [|reflexivity].
        destruct rb; [|reflexivity]. rewrite (rebalance_erase _ c1). destruct (rebalance_n d _ c1) as [[[t b] c2]|]; reflexivity.
    Qed.

    Definition out_erase (x : cavl K V * n_out K V) : option (avl K V * sm_out K V) :=
      match snd x with NOut r => Some (base (fst x), r) | _ => None end.
    Lemma step_erase s o : step cmp Both d (base s) o = match step_n cmp d s (NCall o) with Some x => out_erase x | None => None end.
    Proof.
      destruct s as [[t n] c]. destruct o; cbn [step step_n base counts_of]; try reflexivity.
      all: unfold put_, set, upsert, upsert_n, store_n, remove_, take_n; cbn [base counts_of root size]; try reflexivity.
      1-3: rewrite (put_erase _ _ _ _ _ c); destruct (put_n cmp d _ _ _ _ _ c) as [[[[t' ex] rb] c1]|]; reflexivity.
      - destruct (get cmp k t) as [[g|]|]; [destruct (get_write cmp k v t); reflexivity| |reflexivity]. unfold set. cbn [root size].
        rewrite (put_erase _ _ _ _ _ c); destruct (put_n cmp d _ _ _ _ _ c) as [[[[t' ex] rb] c1]|]; reflexivity.
      - unfold get_. cbn [root]. destruct (get cmp k t); reflexivity.
      - unfold contains, get_. cbn [root]. destruct (get cmp k t); reflexivity.
      - rewrite (remove_erase _ _ _ c); destruct (remove_n cmp d _ _ _ c) as [[[[t' [tg|]] rb] c1]|]; reflexivity.
      - rewrite (remove_erase _ _ _ c); destruct (remove_n cmp d _ _ _ c) as [[[[t' [tg|]] rb] c1]|]; reflexivity.
    Qed.
  End Erase.

  (** ** rotations in the sense of [RotSpec] *)
  Lemma turns_trans s d (t t1 : bt K V) : turns s d t t1 -> forall s' d' (t2 : bt K V), turns s' d' t1 t2 -> turns (s' + s)%nat (d' + d)%nat t t2.
  Proof.
    intros H s' d' t2 H2. induction H2 as [|s' d' u u1 u2 H2 IH Ht|s' d' u u1 u2 H2 IH Ht]; cbn [Nat.add]; auto.
    - eapply turns_single; [apply IH; exact H|exact Ht].
    - eapply turns_double; [apply IH; exact H|exact Ht].
  Qed.
  Lemma turns_left s d k v (l l' r : bt K V) : turns s d l l' -> turns s d (Node k v l r) (Node k v l' r).
  Proof.
    intros H. induction H as [|s d u u1 u2 H IH Ht|s d u u1 u2 H IH Ht]; [constructor| |].
    - eapply turns_single; [exact IH|now apply turn_in_left].
    - eapply turns_double; [exact IH|now apply turn_in_left].
  Qed.
  Lemma turns_right s d k v (l r r' : bt K V) : turns s d r r' -> turns s d (Node k v l r) (Node k v l r').
  Proof.
    intros H. induction H as [|s d u u1 u2 H IH Ht|s d u u1 u2 H IH Ht]; [constructor| |].
    - eapply turns_single; [exact IH|now apply turn_in_right].
    - eapply turns_double; [exact IH|now apply turn_in_right].
  Qed.

  (** from counters [c] to [c'] by the rotations that lead from [t] to [t'] *)
  Definition turned (c c' : nat * nat) (t t' : bt K V) : Prop :=
    exists s d, turns s d t t' /\ fst c' = (s + fst c)%nat /\ snd c' = (d + snd c)%nat.
  Lemma turned_none c (t : bt K V) : turned c c t t.
  Proof. exists 0%nat, 0%nat. repeat split. constructor. Qed.
  Lemma turned_trans c c1 c2 (t t1 t2 : bt K V) : turned c c1 t t1 -> turned c1 c2 t1 t2 -> turned c c2 t t2.
  Proof. intros (s & d & H & E1 & E2) (s' & d' & H' & E1' & E2'). exists (s' + s)%nat, (d' + d)%nat. split; [eapply turns_trans; eassumption|]. lia. Qed.
  Lemma turned_left c c' k v (l l' r : bt K V) : turned c c' l l' -> turned c c' (Node k v l r) (Node k v l' r).
  Proof. intros (s & d & H & E1 & E2). exists s, d. auto using turns_left. Qed.
  Lemma turned_right c c' k v (l r r' : bt K V) : turned c c' r r' -> turned c c' (Node k v l r) (Node k v l r').
  Proof. intros (s & d & H & E1 & E2). exists s, d. auto using turns_right. Qed.
  Lemma turned_single c (t t' : bt K V) : turn false t t' -> turned c (single c) t t'.
  Proof. intros H. exists 1%nat, 0%nat. split; [eapply turns_single; [constructor|exact H]|]. split; reflexivity. Qed.
  Lemma turned_double c (t t' : bt K V) : turn true t t' -> turned c (double c) t t'.
  Proof. intros H. exists 0%nat, 1%nat. split; [eapply turns_double; [constructor|exact H]|]. split; reflexivity. Qed.

  Lemma strip_updateHeight k v l r : strip (updateHeight k v l r) = Node k v (strip l) (strip r).
  Proof. unfold updateHeight. destruct (_ >? _); reflexivity. Qed.

  (** both counters together *)
  Definition total (c : nat * nat) : nat := (fst c + snd c)%nat.
  Section Exact.
    Context (ltb : K -> K -> bool) (cmp : K -> K -> Z) (Hcmp : ex_cmp ltb cmp) (d : Z).
    Lemma rebalance_turned t c t' b c' : rebalance_n d t c = Some (t', b, c') -> turned c c' (strip t) (strip t') /\ (total c' <= S (total c))%nat.
    Proof.
      destruct t as [|h k v l r]; [discriminate|]. cbn [rebalance_n]. destruct (d <=? _); [|destruct (_ <=? i8 (- d))].
      - destruct l as [|lh lk lv ll lr]; [discriminate|]. destruct (getHeight lr >? getHeight ll); cbn [rightRotateWithLeft rightRotate fixup].
        + destruct lr as [|sh sk sv c0 c1]; [discriminate|]. intros [= <- <- <-]. rewrite !strip_updateHeight. split; [apply turned_double, turn_left_right|unfold total; cbn; lia].
        + intros [= <- <- <-]. rewrite !strip_updateHeight. split; [apply turned_single, turn_right|unfold total; cbn; lia].
      - destruct r as [|rh rk rv rl rr]; [discriminate|]. destruct (getHeight rl >? getHeight rr); cbn [leftRotateWithRight leftRotate fixup].
        + destruct rl as [|sh sk sv c0 c1]; [discriminate|]. intros [= <- <- <-]. rewrite !strip_updateHeight. split; [apply turned_double, turn_right_left|unfold total; cbn; lia].
        + intros [= <- <- <-]. rewrite !strip_updateHeight. split; [apply turned_single, turn_left|unfold total; cbn; lia].
      - destruct (_ >? _); destruct (_ =? _); intros [= <- <- <-]; (split; [apply turned_none|lia]).
    Qed.
    Ltac side3 ck key := destruct (cmp_cases ltb cmp Hcmp ck key) as [[Hc Ho]|[[Hc Ho]|[Hc Ho]]]; rewrite Hc;
      [change (0 <? 0) with false; change (0 =? 0) with true
      |change (1 <? 0) with false; change (1 =? 0) with false; change (1 =? 1) with true
      |change (-1 <? 0) with true]; cbv iota.
    Lemma same_both a b : same ltb a b = true -> ltb a b = false /\ ltb b a = false.
    Proof. unfold same. destruct (ltb a b), (ltb b a); cbn; auto; discriminate. Qed.
    Context (W : weak_order ltb).
    Lemma asym a b : ltb a b = true -> ltb b a = false.
    Proof. apply (lt_asym _ W). Qed.

    Lemma put_turned hit key v t : forall alone c t' ex rb c', put_n cmp d hit key v t alone c = Some (t', ex, rb, c') ->
      turned c c' (ins ltb hit key v (strip t)) (strip t') /\ (ex = true -> c' = c).
    Proof.
      induction t as [|h k w l IHl r IHr]; intros alone c t' ex rb c'; cbn [put_n].
      - intros [= <- <- <- <-]. split; [apply turned_none|reflexivity].
      - cbn [strip ins]. side3 k key.
        + rewrite Ho. destruct (put_n cmp d hit key v l _ c) as [[[[l' ex1] rb1] c1]|] eqn:E1; [|discriminate]. apply IHl in E1 as (T1 & X1).
          destruct ex1; cbn [orb].
          * intros [= <- <- <- <-]. split; [now apply turned_left|auto].
          * destruct rb1; cbn [negb].
            -- destruct (rebalance_n d _ c1) as [[[t2 b2] c2]|] eqn:E2; [|discriminate]. intros [= <- <- <- <-]. split; [|discriminate].
               apply rebalance_turned in E2 as (T2 & _). eapply turned_trans; [apply turned_left; exact T1|exact T2].
            -- intros [= <- <- <- <-]. split; [now apply turned_left|discriminate].
        + rewrite (asym _ _ Ho), Ho. destruct (put_n cmp d hit key v r _ c) as [[[[l' ex1] rb1] c1]|] eqn:E1; [|discriminate]. apply IHr in E1 as (T1 & X1).
          destruct ex1; cbn [orb].
          * intros [= <- <- <- <-]. split; [now apply turned_right|auto].
          * destruct rb1; cbn [negb].
            -- destruct (rebalance_n d _ c1) as [[[t2 b2] c2]|] eqn:E2; [|discriminate]. intros [= <- <- <- <-]. split; [|discriminate].
               apply rebalance_turned in E2 as (T2 & _). eapply turned_trans; [apply turned_right; exact T1|exact T2].
            -- intros [= <- <- <- <-]. split; [now apply turned_right|discriminate].
        + apply same_both in Ho as (-> & ->). destruct (hit (k, w)) as [k' v']. intros [= <- <- <- <-]. split; [apply turned_none|reflexivity].
    Qed.

    Definition one_out (dir : bool) := if dir then @last_out K V else @first_out K V.
    Lemma neighboring_turned dir t : forall c t' e rb c', neighboring_n d dir t c = Some (t', e, rb, c') ->
      exists u, one_out dir (strip t) e u /\ turned c c' u (strip t') /\ (Z.of_nat (total c') < Z.of_nat (total c) + ht t).
    Proof.
      induction t as [|h k v l IHl r IHr]; intros c t' e rb c'; cbn [neighboring_n]; [discriminate|]. pose proof (ht_nonneg l). pose proof (ht_nonneg r).
      destruct dir; cbn [child negb with_child].
      - destruct r as [|rh rk rv rl rr] eqn:Er.
        + intros [= <- <- <- <-]. exists (strip l). split; [apply last_here|]. split; [apply turned_none|cbn [ht]; lia].
        + rewrite <- Er in *. destruct (neighboring_n d true r c) as [[[[r' e1] rb1] c1]|] eqn:E1; [|discriminate]. apply IHr in E1 as (u & L & T & B).
          cbn [strip ht]. destruct rb1.
          * destruct (rebalance_n d _ c1) as [[[t2 b2] c2]|] eqn:E2; [|discriminate]. intros [= <- <- <- <-]. apply rebalance_turned in E2 as (T2 & B2).
            exists (Node k v (strip l) u). split; [now apply last_right|]. split; [eapply turned_trans; [apply turned_right; exact T|exact T2]|lia].
          * intros [= <- <- <- <-]. exists (Node k v (strip l) u). split; [now apply last_right|]. split; [now apply turned_right|lia].
      - destruct l as [|rh rk rv rl rr] eqn:Er.
        + intros [= <- <- <- <-]. exists (strip r). split; [apply first_here|]. split; [apply turned_none|cbn [ht]; lia].
        + rewrite <- Er in *. destruct (neighboring_n d false l c) as [[[[r' e1] rb1] c1]|] eqn:E1; [|discriminate]. apply IHl in E1 as (u & L & T & B).
          cbn [strip ht]. destruct rb1.
          * destruct (rebalance_n d _ c1) as [[[t2 b2] c2]|] eqn:E2; [|discriminate]. intros [= <- <- <- <-]. apply rebalance_turned in E2 as (T2 & B2).
            exists (Node k v u (strip r)). split; [now apply first_left|]. split; [eapply turned_trans; [apply turned_left; exact T|exact T2]|lia].
          * intros [= <- <- <- <-]. exists (Node k v u (strip r)). split; [now apply first_left|]. split; [now apply turned_left|lia].
    Qed.
    Lemma remove_turned key t : forall side c t' tg rb c', remove_n cmp d key t side c = Some (t', tg, rb, c') ->
      (Z.of_nat (total c') <= Z.of_nat (total c) + ht t - 1 \/ c' = c) /\
      match tg with
      | Some _ => found ltb key (strip t) = true /\ exists u, taken ltb key (strip t) u /\ turned c c' u (strip t')
      | None => found ltb key (strip t) = false /\ t' = t /\ c' = c /\ rb = false
      end.
    Proof.
      induction t as [|h k w l IHl r IHr]; intros side c t' tg rb c'; cbn [remove_n].
      - intros [= <- <- <- <-]. cbn [strip found]. auto.
      - pose proof (ht_nonneg l). pose proof (ht_nonneg r). cbn [strip found ht]. side3 k key.
        + rewrite Ho. destruct (remove_n cmp d key l _ c) as [[[[l' tg1] rb1] c1]|] eqn:E1; [|discriminate]. apply IHl in E1 as (B1 & M).
          assert (Hpos : tg1 <> None -> 1 <= ht l).
          { intros Hn. destruct tg1 as [x|]; [|congruence]. destruct M as (Hf & _). destruct l as [|lh lk lv ll lr]; [discriminate|]. cbn [ht]. pose proof (ht_nonneg ll). lia. }
          destruct rb1.
          * destruct (rebalance_n d _ c1) as [[[t2 b2] c2]|] eqn:E2; [|discriminate]. intros [= <- <- <- <-]. apply rebalance_turned in E2 as (T2 & B2).
            destruct tg1 as [x|]; [|destruct M as (_ & _ & _ & ?); discriminate]. destruct M as (F & u & T & Tu). specialize (Hpos ltac:(discriminate)).
            split; [left; destruct B1 as [B1| ->]; lia|]. split; [exact F|]. exists (Node k w u (strip r)). split; [now apply taken_left|].
            eapply turned_trans; [apply turned_left; exact Tu|exact T2].
          * intros [= <- <- <- <-]. split; [destruct B1 as [B1|B1]; [left; lia|right; exact B1]|]. destruct tg1 as [x|].
            -- destruct M as (F & u & T & Tu). split; [exact F|]. exists (Node k w u (strip r)). split; [now apply taken_left|now apply turned_left].
            -- destruct M as (F & -> & -> & _). auto.
        + rewrite (asym _ _ Ho), Ho. destruct (remove_n cmp d key r _ c) as [[[[l' tg1] rb1] c1]|] eqn:E1; [|discriminate]. apply IHr in E1 as (B1 & M).
          assert (Hpos : tg1 <> None -> 1 <= ht r).
          { intros Hn. destruct tg1 as [x|]; [|congruence]. destruct M as (Hf & _). destruct r as [|lh lk lv ll lr]; [discriminate|]. cbn [ht]. pose proof (ht_nonneg ll). lia. }
          pose proof (asym _ _ Ho) as Ho'. destruct rb1.
          * destruct (rebalance_n d _ c1) as [[[t2 b2] c2]|] eqn:E2; [|discriminate]. intros [= <- <- <- <-]. apply rebalance_turned in E2 as (T2 & B2).
            destruct tg1 as [x|]; [|destruct M as (_ & _ & _ & ?); discriminate]. destruct M as (F & u & T & Tu). specialize (Hpos ltac:(discriminate)).
            split; [left; destruct B1 as [B1| ->]; lia|]. split; [exact F|]. exists (Node k w (strip l) u). split; [now apply taken_right|].
            eapply turned_trans; [apply turned_right; exact Tu|exact T2].
          * intros [= <- <- <- <-]. split; [destruct B1 as [B1|B1]; [left; lia|right; exact B1]|]. destruct tg1 as [x|].
            -- destruct M as (F & u & T & Tu). split; [exact F|]. exists (Node k w (strip l) u). split; [now apply taken_right|now apply turned_right].
            -- destruct M as (F & -> & -> & _). auto.
        + apply same_both in Ho as (Ho1 & Ho2). rewrite Ho1, Ho2. destruct l as [|lh lk lv ll lr] eqn:El.
          { intros [= <- <- <- <-]. split; [auto|]. split; [reflexivity|]. exists (strip r). split; [now apply taken_no_left|apply turned_none]. }
          destruct r as [|rh rk rv rl rr] eqn:Er.
          { intros [= <- <- <- <-]. split; [auto|]. split; [reflexivity|]. exists (strip l). rewrite El. split; [now apply taken_no_right|apply turned_none]. }
          rewrite <- El, <- Er in *. destruct (neighboring_n d _ _ c) as [[[[sub [rk' rv']] rb1] c1]|] eqn:E1; [|discriminate].
          destruct (rebalance_n d _ c1) as [[[t2 b2] c2]|] eqn:E2; [|discriminate]. intros [= <- <- <- <-]. apply rebalance_turned in E2 as (T2 & B2).
          apply neighboring_turned in E1 as (u & O1 & T1 & B1). destruct side; cbn [negb child with_child one_out strip] in *.
          * split; [left; lia|]. split; [reflexivity|]. exists (Node rk' rv' (strip l) u). split; [now apply (taken_next ltb key k w (strip l) (strip r) (rk', rv') u)|].
            eapply turned_trans; [apply turned_right; exact T1|exact T2].
          * split; [left; lia|]. split; [reflexivity|]. exists (Node rk' rv' u (strip r)). split; [now apply (taken_prev ltb key k w (strip l) (strip r) (rk', rv') u)|].
            eapply turned_trans; [apply turned_left; exact T1|exact T2].
    Qed.
    Lemma get_write_ins key v t : forall t', get_write cmp key v t = Some t' ->
      (exists g, get cmp key t = Some (Some g)) -> strip t' = ins ltb (fun e => (fst e, v)) key v (strip t).
    Proof.
      induction t as [|h k w l IHl r IHr]; intros t'; cbn [get_write get strip ins]; [intros _ (g & Hg); discriminate|]. side3 k key.
      - rewrite Ho. destruct (get_write cmp key v l) as [l'|]; [|discriminate]. intros [= <-] Hg. cbn [strip]. f_equal. auto.
      - rewrite (asym _ _ Ho), Ho. destruct (get_write cmp key v r) as [r'|]; [|discriminate]. intros [= <-] Hg. cbn [strip]. f_equal. auto.
      - apply same_both in Ho as (-> & ->). intros [= <-] _. reflexivity.
    Qed.
    Lemma get_none_ins key v t : get cmp key t = Some None -> forall hit hit', ins ltb hit key v (strip t) = ins ltb hit' key v (strip t).
    Proof.
      intros Hg hit hit'. revert Hg. induction t as [|h k w l IHl r IHr]; cbn [get strip ins]; [reflexivity|]. side3 k key.
      - rewrite Ho. intros Hg. f_equal. auto.
      - rewrite (asym _ _ Ho), Ho. intros Hg. f_equal. auto.
      - discriminate.
    Qed.

    Lemma step_turned (s : cavl K V) o s' (res : n_out K V) : step_n cmp d s (NCall o) = Some (s', res) ->
      exists u, plain ltb o (strip (root (base s))) u /\ turned (counts_of s) (counts_of s') u (strip (root (base s'))).
    Proof.
      assert (Hput : forall hit k v s' b, store_n cmp d hit s k v = Some (s', b) ->
        turned (counts_of s) (counts_of s') (ins ltb hit k v (strip (root (base s)))) (strip (root (base s')))).
      { intros hit k v s1 b. unfold store_n. destruct (put_n cmp d hit k v _ false _) as [[[[t ex] rb] c1]|] eqn:E1; [|discriminate].
        apply put_turned in E1 as (T & _). intros [= <- _]. exact T. }
      assert (Htake : forall k s' x, take_n cmp d s k = Some (s', x) -> exists u, plain ltb (MRemove k) (strip (root (base s))) u /\
        turned (counts_of s) (counts_of s') u (strip (root (base s')))).
      { intros k s1 x. unfold take_n. destruct (remove_n cmp d k _ true _) as [[[[t tg] rb] c1]|] eqn:E1; [|discriminate].
        apply remove_turned in E1 as (_ & M). cbn [plain]. destruct tg as [v|]; intros [= <- _]; cbn [base counts_of root].
        - destruct M as (-> & u & T & Tu). eauto.
        - destruct M as (-> & -> & -> & _). eexists. split; [reflexivity|apply turned_none]. }
      destruct o; cbn [step_n].
      1-3: destruct (store_n cmp d _ s k v) as [[s1 b]|] eqn:E1; [|discriminate]; intros [= <- _]; eexists; (split; [reflexivity|]); eapply Hput; exact E1.
      - unfold upsert_n. destruct (get cmp k _) as [[g|]|] eqn:Eg; [| |discriminate].
        + destruct (get_write cmp k v _) as [t|] eqn:Ew; [|discriminate]. intros [= <- _]. cbn [base counts_of root]. eexists. split; [reflexivity|].
          rewrite (get_write_ins k v _ t Ew); [apply turned_none|eauto].
        + destruct (store_n cmp d _ s k v) as [[s1 b]|] eqn:E1; [|discriminate]. intros [= <- _]. eexists. split; [reflexivity|].
          rewrite (get_none_ins k v _ Eg _ (fun _ => (k, v))). eapply Hput; exact E1.
      - cbn [step]. destruct (get_ cmp (base s) k); [|discriminate]. intros [= <- _]. eexists. split; [reflexivity|apply turned_none].
      - cbn [step]. destruct (contains cmp (base s) k); [|discriminate]. intros [= <- _]. eexists. split; [reflexivity|apply turned_none].
      - destruct (take_n cmp d s k) as [[s1 x]|] eqn:E1; [|discriminate]. intros [= <- _]. exact (Htake _ _ _ E1).
      - destruct (take_n cmp d s k) as [[s1 x]|] eqn:E1; [|discriminate]. intros [= <- _]. exact (Htake _ _ _ E1).
      - intros [= <- _]. eexists. split; [reflexivity|apply turned_none].
      - intros [= <- _]. eexists. split; [reflexivity|apply turned_none].
      - intros [= <- _]. eexists. split; [reflexivity|apply turned_none].
      - intros [= <- _]. eexists. split; [reflexivity|apply turned_none].
      - intros [= <- _]. eexists. split; [reflexivity|apply turned_none].
      - intros [= <- _]. eexists. split; [reflexivity|apply turned_none].
    Qed.
    Lemma step_few (s : cavl K V) o s' (res : n_out K V) : step_n cmp d s (NCall o) = Some (s', res) -> removes o = true ->
      Z.of_nat (total (counts_of s')) <= Z.of_nat (total (counts_of s)) + Z.max 0 (ht (root (base s)) - 1).
    Proof.
      assert (Htake : forall k s' x, take_n cmp d s k = Some (s', x) -> Z.of_nat (total (counts_of s')) <= Z.of_nat (total (counts_of s)) + Z.max 0 (ht (root (base s)) - 1)).
      { intros k s1 x. unfold take_n. destruct (remove_n cmp d k _ true _) as [[[[t tg] rb] c1]|] eqn:E1; [|discriminate].
        apply remove_turned in E1 as (B & _). destruct tg as [v|]; intros [= <- _]; cbn [base counts_of root]; destruct B as [B| ->]; lia. }
      destruct o; cbn [step_n]; try discriminate.
      all: destruct (take_n cmp d s k) as [[s1 x]|] eqn:E1; [|discriminate]; intros [= <- _] _; exact (Htake _ _ _ E1).
    Qed.
  End Exact.
End Proofs.
