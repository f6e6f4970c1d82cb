(** What the calls of a tree list do to its shape: the trees of [TreelistShapeSpec], up to the rotations counted. *)
From Verif Require Import Base Bind Machine OrderSpec SMapSpec SMapFacts CompareModel AvlTree AvlSpec AvlModel AvlProofs RotSpec AvlCountModel AvlCountProofs IndexSpec IndexModel IndexProofs CutSpec
  IndexCountModel IndexCountProofs IndexShapeProofs TreelistSpec TreelistModel TreelistLinks TreelistProofs TreelistSteps TreelistShapeSpec TreelistCountModel TreelistCountProofs.
Local Open Scope Z_scope.

(** ** without the numbers of the nodes *)
Section Values.
  Context {K V : Type}.
  Notation bn := (bt K (nat * V)).
  Implicit Types (u a b : bn).
  Lemma values_turn x u a : turn x u a -> turn x (values u) (values a).
  Proof. induction 1; cbn [values]; constructor; auto. Qed.
  Lemma values_turned c c' u a : turned c c' u a -> turned c c' (values u) (values a).
  Proof.
    intros (s & d & T & H). exists s, d. split; [|exact H]. clear H. induction T; [constructor|eapply turns_single; [eassumption|now apply values_turn]|eapply turns_double; [eassumption|now apply values_turn]].
  Qed.
  Lemma values_nodes u : nodes (values u) = nodes u.
  Proof. induction u as [|k v l IHl r IHr]; cbn [values nodes]; lia. Qed.
  Lemma values_before p u : values (before p u) = before p (values u).
  Proof. induction u as [|k v l IHl r IHr]; [reflexivity|]. cbn [values before]. destruct (p k); cbn [values]; congruence. Qed.
  Lemma values_after p u : values (after p u) = after p (values u).
  Proof. induction u as [|k v l IHl r IHr]; [reflexivity|]. cbn [values after]. destruct (p k); cbn [values]; congruence. Qed.
  Lemma values_first u : forall n, values (first n u) = first n (values u).
  Proof. induction u as [|k v l IHl r IHr]; intros n; [reflexivity|]. cbn [values first]. rewrite values_nodes. destruct (_ <? _); cbn [values]; now rewrite ?IHl, ?IHr. Qed.
  Lemma values_others u : forall n, values (others n u) = others n (values u).
  Proof. induction u as [|k v l IHl r IHr]; intros n; [reflexivity|]. cbn [values others]. rewrite values_nodes. destruct (_ <? _); cbn [values]; now rewrite ?IHl, ?IHr. Qed.
  Lemma values_hang_last a u : values (hang_last a u) = hang_last (values a) (values u).
  Proof. induction u as [|k v l IHl r IHr]; [reflexivity|]. cbn [values hang_last]. congruence. Qed.
  Lemma values_hang_first a u : values (hang_first a u) = hang_first (values a) (values u).
  Proof. induction u as [|k v l IHl r IHr]; [reflexivity|]. cbn [values hang_first]. congruence. Qed.
  Lemma values_together a b : values (together a b) = together (values a) (values b).
  Proof. unfold together. rewrite !values_nodes. destruct (_ <? _); [apply values_hang_last|apply values_hang_first]. Qed.
  Lemma values_first_out u e a : first_out u e a -> first_out (values u) (fst e, snd (snd e)) (values a).
  Proof. induction 1; cbn [values fst snd]; constructor; auto. Qed.
  Lemma values_last_out u e a : last_out u e a -> last_out (values u) (fst e, snd (snd e)) (values a).
  Proof. induction 1; cbn [values fst snd]; constructor; auto. Qed.
  Context (ltb : K -> K -> bool).
  Lemma values_without lo hi u : values (without ltb lo hi u) = without ltb lo hi (values u).
  Proof.
    induction u as [|k v l IHl r IHr]; [reflexivity|]. cbn [values without]. destruct (ltb hi k); [cbn [values]; congruence|]. destruct (ltb k lo); [cbn [values]; congruence|].
    now rewrite values_together, values_before, values_after.
  Qed.
  Lemma values_withoutAt u : forall i j, values (withoutAt i j u) = withoutAt i j (values u).
  Proof.
    induction u as [|k v l IHl r IHr]; intros i j; [reflexivity|]. cbn [values withoutAt]. cbv zeta. rewrite values_nodes. destruct (j <? _); [cbn [values]; congruence|]. destruct (_ <? i); [cbn [values]; congruence|].
    now rewrite values_together, values_first, values_others.
  Qed.
  Lemma values_ins (hit : V -> V) x key v u :
    values (ins ltb (fun e => (fst e, (fst (snd e), hit (snd (snd e))))) key (x, v) u) = ins ltb (fun e => (fst e, hit (snd e))) key v (values u).
  Proof. induction u as [|k w l IHl r IHr]; [reflexivity|]. cbn [values ins]. destruct (ltb key k); [cbn [values]; congruence|]. destruct (ltb k key); [cbn [values]; congruence|]. reflexivity. Qed.
  Lemma values_found key u : found ltb key (values u) = found ltb key u.
  Proof. induction u as [|k w l IHl r IHr]; [reflexivity|]. cbn [values found]. destruct (ltb key k); auto. destruct (ltb k key); auto. Qed.
  Lemma ins_hit (hit hit' : K * V -> K * V) key v (u : bt K V) : (forall e, hit e = hit' e) -> ins ltb hit key v u = ins ltb hit' key v u.
  Proof. intros H. induction u as [|k w l IHl r IHr]; [reflexivity|]. cbn [ins]. rewrite IHl, IHr, H. reflexivity. Qed.
End Values.

Section Shape.
  Context {K V : Type}.
  Notation node := (nat * V)%type.
  Notation tree := (tree K node).
  Implicit Types (t l r : tree).

  Lemma tstrip_up x s k v l r : strip (upFromCut x s k v l r) = Node k v (strip l) (strip r).
  Proof. apply strip_up. Qed.
  Lemma tstrip_sum k v l r : strip (sum k v l r) = Node k v (strip l) (strip r).
  Proof. apply strip_sum. Qed.
  Lemma tsum_sized k v l r : sized l -> sized r -> sized (sum k v l r).
  Proof. intros Hl Hr. unfold sum, IndexModel.sum. apply node_sized; auto. rewrite !size_len by auto. lia. Qed.

  Lemma tltrimAt_shape lk low t : forall b idx (dir : bool), sized t -> idx = (if dir then b - 1 else b + len (elems t)) ->
    strip (fst (ltrimAt lk low idx dir t)) = first (low - b) (strip t) /\ sized (fst (ltrimAt lk low idx dir t)).
  Proof.
    induction t as [|s k [i v] l IHl r IHr]; intros b idx dir Ht Hi; [split; [reflexivity|exact Ht]|]. pose proof Ht as (Hs & Hl & Hr). cbn [ltrimAt elems strip first] in *.
    replace (if dir then idx + (getSize l + 1) else idx - (getSize r + 1)) with (b + len (elems l)).
    2:{ unfold getSize. rewrite !size_len by auto. destruct dir; rewrite ?len_mid in Hi; lia. }
    rewrite nodes_strip. destruct (Z.ltb_spec (b + len (elems l)) low); [|destruct (_ >? low) eqn:E1].
    - replace (len (elems l) <? low - b) with true by lia. destruct (IHr (b + len (elems l) + 1) (b + len (elems l)) true Hr) as (I1 & I2); [lia|].
      destruct (ltrimAt lk low (b + len (elems l)) true r) as [child dl]. cbn [fst] in *. rewrite tstrip_sum, I1. split; [f_equal; f_equal; lia|now apply tsum_sized].
    - replace (len (elems l) <? low - b) with false by lia. destruct (IHl b (b + len (elems l)) false Hl eq_refl) as (I1 & I2). destruct l; [split; [reflexivity|exact Hl]|auto].
    - replace (len (elems l) <? low - b) with false by lia. cbn [fst]. split; auto. rewrite first_all; [reflexivity|]. rewrite nodes_strip. lia.
  Qed.
  Lemma trtrimAt_shape lk high t : forall b idx (dir : bool), sized t -> idx = (if dir then b - 1 else b + len (elems t)) ->
    strip (fst (rtrimAt lk high idx dir t)) = others (high + 1 - b) (strip t) /\ sized (fst (rtrimAt lk high idx dir t)).
  Proof.
    induction t as [|s k [i v] l IHl r IHr]; intros b idx dir Ht Hi; [split; [reflexivity|exact Ht]|]. pose proof Ht as (Hs & Hl & Hr). cbn [rtrimAt elems strip others] in *.
    replace (if dir then idx + (getSize l + 1) else idx - (getSize r + 1)) with (b + len (elems l)).
    2:{ unfold getSize. rewrite !size_len by auto. destruct dir; rewrite ?len_mid in Hi; lia. }
    rewrite nodes_strip. destruct (_ >? high) eqn:E1; [|destruct (Z.ltb_spec (b + len (elems l)) high)].
    - replace (len (elems l) <? high + 1 - b) with false by lia. destruct (IHl b (b + len (elems l)) false Hl eq_refl) as (I1 & I2).
      destruct (rtrimAt lk high (b + len (elems l)) false l) as [child dl]. cbn [fst] in *. rewrite tstrip_sum, I1. split; [reflexivity|now apply tsum_sized].
    - replace (len (elems l) <? high + 1 - b) with true by lia. destruct (IHr (b + len (elems l) + 1) (b + len (elems l)) true Hr) as (I1 & I2); [lia|].
      replace (high + 1 - b - len (elems l) - 1) with (high + 1 - (b + len (elems l) + 1)) by lia. destruct r; [split; [reflexivity|exact Hr]|auto].
    - replace (len (elems l) <? high + 1 - b) with true by lia. cbn [fst]. split; auto. rewrite others_all; [reflexivity|]. lia.
  Qed.
  Lemma tremoveRangeAt_shape lk low high t : low <= high -> forall b c t' x dd c', sized t ->
    removeRangeAt_t lk low high (b + kidSize false t) t c = Some (t', x, dd, c') -> turned c c' (withoutAt (low - b) (high - b) (strip t)) (strip t').
  Proof.
    intros Hlh. induction t as [|s k [i v] l IHl r IHr]; intros b c t' x dd c' Ht; cbn [removeRangeAt_t]; [discriminate|]. pose proof Ht as (Hs & Hl & Hr).
    pose proof (kid_left s k (i, v) l r Hl) as Ek. cbn [strip withoutAt]. rewrite nodes_strip. destruct ((_ >? low) && _)%bool eqn:E1; [|destruct ((_ <? high) && _)%bool eqn:E2].
    - replace (high - b <? len (elems l)) with true by lia. destruct l as [|ls lk0 lv ll lr] eqn:El; [discriminate|]. rewrite <- El in *. rewrite left_pos by (subst; auto; congruence).
      destruct (removeRangeAt_t lk low high _ l c) as [[[[l' y] d1] c1]|] eqn:E3; [|discriminate]. intros [= <- <- <- <-]. rewrite tstrip_up. apply turned_left. eapply IHl; eauto.
    - replace (high - b <? len (elems l)) with false by lia. replace (len (elems l) <? low - b) with true by lia. rewrite right_pos by auto.
      destruct (removeRangeAt_t lk low high _ r c) as [[[[l' y] d1] c1]|] eqn:E3; [|discriminate]. intros [= <- <- <- <-]. rewrite tstrip_up. apply turned_right. apply IHr in E3; auto.
      replace (low - b - len (elems l) - 1) with (low - (b + len (elems l) + 1)) by lia. replace (high - b - len (elems l) - 1) with (high - (b + len (elems l) + 1)) by lia. exact E3.
    - replace (high - b <? len (elems l)) with false by lia. replace (len (elems l) <? low - b) with false by lia. rewrite Ek.
      destruct (tltrimAt_shape lk low l b (b + len (elems l)) false Hl eq_refl) as (L1 & L2). destruct (trtrimAt_shape lk high r (b + len (elems l) + 1) (b + len (elems l)) true Hr) as (R1 & R2); [lia|].
      assert (G1 : fst match l with E => (E, d lk i false) | _ => ltrimAt lk low (b + len (elems l)) false l end = fst (ltrimAt lk low (b + len (elems l)) false l)) by (destruct l; reflexivity).
      assert (G2 : fst match r with E => (E, d lk i true) | _ => rtrimAt lk high (b + len (elems l)) true r end = fst (rtrimAt lk high (b + len (elems l)) true r)) by (destruct r; reflexivity).
      destruct (match l with E => _ | _ => _ end) as [lg dl]. destruct (match r with E => _ | _ => _ end) as [rg dr]. cbn [fst] in G1, G2. rewrite <- G1 in *. rewrite <- G2 in *. unfold closeCut_t.
      destruct (closeCut_n s lg rg c) as [[[t1 x1] c1]|] eqn:E3; [|discriminate]. intros [= <- <- <- <-]. apply closeCut_turned in E3; auto. rewrite L1, R1 in E3.
      replace (high - b - len (elems l)) with (high + 1 - (b + len (elems l) + 1)) by lia. exact E3.
  Qed.

  (** one node, known by its number *)
  Lemma removeAt_shape x t : sized t -> NoDup (ids (elems t)) -> forall P k v Q t' how, elems t = P ++ (k, (x, v)) :: Q ->
    removeAt x t = Some (t', how) -> droppedAt (len P) (values (strip t)) (values (strip t')).
  Proof.
    induction t as [|s ck [i cv] l IHl r IHr]; intros Ht Hn P k v Q t' how EQ; [destruct P; discriminate|].
    pose proof Ht as (Hs & Hl & Hr). cbn [elems] in EQ, Hn. rewrite ids_app, ids_cons in Hn. cbn [fst snd] in Hn.
    assert (Nl : NoDup (ids (elems l))) by (apply NoDup_app_remove_r in Hn; auto).
    assert (Nr : NoDup (ids (elems r))).
    { apply NoDup_app_remove_l in Hn. apply NoDup_cons_iff in Hn. tauto. }
    apply nodup_mid in Hn. destruct Hn as (N1 & N2 & N3).
    assert (D : forall y, In y (ids (elems l)) -> In y (ids (elems r)) -> False).
    { clear - N3. induction (ids (elems l)) as [|z a IH]; cbn [app] in N3; [intros y []|]. apply NoDup_cons_iff in N3. destruct N3 as (M1 & M2).
      intros y [->|Hy] Hb; [|exact (IH M2 y Hy Hb)]. apply M1. rewrite in_app_iff. auto. }
    pose proof (nodes_strip l) as NL. pose proof (nodes_strip r) as NR. pose proof (values_nodes (strip l)) as VL. pose proof (values_nodes (strip r)) as VR.
    cbn [removeAt strip values snd]. destruct (Nat.eqb_spec i x) as [->|Hix].
    - assert (P = elems l) as ->.
      { apply app_mid in EQ. destruct EQ as [(c & E1 & E2)|(c & E1 & E2)].
        - destruct N1. rewrite E1, ids_app, ids_cons, in_app_iff. simpl. auto.
        - destruct c as [|y c]; cbn [app] in E1.
          + rewrite app_nil_r in E2. auto.
          + injection E1 as E3 E4. destruct N2. rewrite E4, ids_app, ids_cons, in_app_iff. simpl. auto. }
      intros H. replace (len (elems l)) with (nodes (values (strip l))) by lia. apply at_here. destruct (Z.eqb_spec s 1) as [E1|E1].
      + injection H as <- <-. cbn [strip values]. rewrite (nodes_zero (values (strip l))), (nodes_zero (values (strip r))); [apply dropped_no_left| |]; unfold len in *; lia.
      + destruct (_ >? _).
        * destruct (takeEnd true l) as [[l' [k' [i' v']]]|] eqn:E2; [|discriminate]. injection H as <- <-. apply takeEnd_out in E2. cbn [strip values snd].
          apply (dropped_prev ck cv (values (strip l)) (values (strip r)) (k', v')). now apply values_last_out in E2.
        * destruct (takeEnd false r) as [[r' [k' [i' v']]]|] eqn:E2; [|discriminate]. injection H as <- <-. apply takeEnd_out in E2. cbn [strip values snd].
          apply (dropped_next ck cv (values (strip l)) (values (strip r)) (k', v')). now apply values_first_out in E2.
    - apply app_mid in EQ. destruct EQ as [(c & E1 & ->)|(c & E1 & ->)].
      + destruct (removeAt_ok x l Hl Nl P k v c E1) as (l' & h & F & _). rewrite F. intros [= <- <-]. cbn [strip values snd]. apply at_left; [|eapply IHl; eauto].
        rewrite VL, NL, E1. unfold len. rewrite app_length. cbn [length]. lia.
      + destruct c as [|y c]; cbn [app] in E1; [injection E1; congruence|]. injection E1 as <- E1.
        rewrite removeAt_none.
        2:{ intros X. apply (D x X). rewrite E1, ids_app, ids_cons, in_app_iff. simpl. auto. }
        destruct (removeAt_ok x r Hr Nr c k v Q E1) as (r' & h & F & _). rewrite F. intros [= <- <-]. cbn [strip values snd]. apply at_right.
        * rewrite VL, NL. unfold len. rewrite app_length. cbn [length]. lia.
        * replace (len (elems l ++ (ck, (i, cv)) :: c) - nodes (values (strip l)) - 1) with (len c); [eapply IHr; eauto|].
          rewrite VL, NL. unfold len. rewrite app_length. cbn [length]. lia.
  Qed.
End Shape.

Section Keys.
  Context {K V : Type} (ltb : K -> K -> bool) (W : weak_order ltb) (cmp : K -> K -> Z) (Hcmp : plain_cmp ltb cmp).
  Notation node := (nat * V)%type.
  Notation tree := (tree K node).
  Implicit Types (t l r : tree).
  Notation gt0 := (gt0 ltb W cmp Hcmp).
  Notation lt0 := (lt0 ltb W cmp Hcmp).

  Lemma tput_turned hit x key w t : forall a b c t' res c', put_t cmp hit x key w a b t c = Some (t', res, c') ->
    turned c c' (ins ltb (fun e => (fst e, (fst (snd e), hit (snd (snd e))))) key (x, w) (strip t)) (strip t').
  Proof.
    induction t as [|s k [i v] l IHl r IHr]; intros a b c t' res c'; cbn [put_t strip ins]; [intros [= <- <- <-]; apply turned_none|].
    rewrite lt0, gt0. destruct (ltb key k); [|destruct (ltb k key)].
    - destruct (put_t cmp hit x key w _ _ l c) as [[[l' [|p q st]] c1]|] eqn:E1; [| |discriminate]; apply IHl in E1.
      + intros [= <- <- <-]. now apply turned_left.
      + destruct (fixPut_t st _ c1) as [[[t2 st2] c2]|] eqn:E2; [|discriminate]. intros [= <- <- <-]. apply tfixPut_turned in E2 as (T & _).
        eapply turned_trans; [apply turned_left; exact E1|exact T].
    - destruct (put_t cmp hit x key w _ _ r c) as [[[l' [|p q st]] c1]|] eqn:E1; [| |discriminate]; apply IHr in E1.
      + intros [= <- <- <-]. now apply turned_right.
      + destruct (fixPut_t st _ c1) as [[[t2 st2] c2]|] eqn:E2; [|discriminate]. intros [= <- <- <-]. apply tfixPut_turned in E2 as (T & _).
        eapply turned_trans; [apply turned_right; exact E1|exact T].
    - intros [= <- <- <-]. apply turned_none.
  Qed.
  Lemma tltrim_shape lk low t : strictly_sorted ltb (elems t) -> sized t ->
    strip (fst (ltrim cmp lk low t)) = before (fun a => ltb a low) (strip t) /\ sized (fst (ltrim cmp lk low t)).
  Proof.
    induction t as [|s k [i v] l IHl r IHr]; intros Hs Ht; [split; [reflexivity|exact Ht]|]. pose proof Ht as (_ & Hl & Hr). cbn [elems] in Hs. destruct (strict_mid ltb _ _ _ Hs) as (Sl & Sr & Ll & _).
    cbn [ltrim strip before]. rewrite gt0, lt0. destruct (ltb k low) eqn:E1; [|destruct (ltb low k) eqn:E2].
    - destruct (IHr Sr Hr) as (I1 & I2). destruct (ltrim cmp lk low r) as [child dl]. cbn [fst] in *. rewrite tstrip_sum, I1. split; [reflexivity|now apply tsum_sized].
    - destruct (IHl Sl Hl) as (I1 & I2). destruct l; [split; [reflexivity|exact Hl]|auto].
    - cbn [fst]. split; auto. symmetry. apply before_all. intros y Hy. specialize (Ll y Hy). cbn [fst] in Ll. destruct (ltb (fst y) low) eqn:E3; auto.
      assert (X : same ltb low k = true) by (apply same_iff; auto). rewrite (same_lt_r ltb W low k (fst y) X) in E3. congruence.
  Qed.
  Lemma trtrim_shape lk high t : strictly_sorted ltb (elems t) -> sized t ->
    strip (fst (rtrim cmp lk high t)) = after (fun a => negb (ltb high a)) (strip t) /\ sized (fst (rtrim cmp lk high t)).
  Proof.
    induction t as [|s k [i v] l IHl r IHr]; intros Hs Ht; [split; [reflexivity|exact Ht]|]. pose proof Ht as (_ & Hl & Hr). cbn [elems] in Hs. destruct (strict_mid ltb _ _ _ Hs) as (Sl & Sr & _ & Lr).
    cbn [rtrim strip after]. rewrite gt0, lt0. destruct (ltb high k) eqn:E1; cbn [negb]; [|destruct (ltb k high) eqn:E2].
    - destruct (IHl Sl Hl) as (I1 & I2). destruct (rtrim cmp lk high l) as [child dl]. cbn [fst] in *. rewrite tstrip_sum, I1. split; [reflexivity|now apply tsum_sized].
    - destruct (IHr Sr Hr) as (I1 & I2). destruct r; [split; [reflexivity|exact Hr]|auto].
    - cbn [fst]. split; auto. symmetry. apply after_all. intros y Hy. specialize (Lr y Hy). cbn [fst] in Lr. apply negb_false_iff. destruct (ltb high (fst y)) eqn:E3; auto.
      assert (X : same ltb high k = true) by (apply same_iff; auto). rewrite (same_lt_l ltb W high k (fst y) X) in E3. congruence.
  Qed.
  Lemma tremoveRange_shape lk low high t : ltb high low = false -> forall c t' x dd c', strictly_sorted ltb (elems t) -> sized t ->
    removeRange_t cmp lk low high t c = Some (t', x, dd, c') -> turned c c' (without ltb low high (strip t)) (strip t') /\ (dd = None -> t' = t /\ x = Nothing).
  Proof.
    intros Hlh. induction t as [|s k [i v] l IHl r IHr]; intros c t' x dd c' Hs Ht; cbn [removeRange_t]; [intros [= <- <- <- <-]; split; [apply turned_none|auto]|]. pose proof Ht as (_ & Hl & Hr).
    cbn [elems] in Hs. destruct (strict_mid ltb _ _ _ Hs) as (Sl & Sr & _ & _). cbn [strip without].
    destruct (range_here ltb W cmp Hcmp low high k Hlh) as [(-> & H2 & H3 & H4)|[(-> & H2 & H3 & H4)|(H1 & H2)]].
    - rewrite Z.eqb_refl, lt0, H3. cbn [andb]. destruct (removeRange_t cmp lk low high l c) as [[[[l' y] d1] c1]|] eqn:E3; [|discriminate]. intros [= <- <- <- <-].
      destruct (IHl _ _ _ _ _ Sl Hl E3) as (I1 & I2). rewrite tstrip_up. split; [now apply turned_left|]. intros ->. destruct (I2 eq_refl) as (-> & ->). auto.
    - rewrite Z.eqb_refl, lt0, (lt_asym _ W _ _ H4), gt0, H4, H3. cbn [andb]. destruct (removeRange_t cmp lk low high r c) as [[[[l' y] d1] c1]|] eqn:E3; [|discriminate].
      intros [= <- <- <- <-]. destruct (IHr _ _ _ _ _ Sr Hr E3) as (I1 & I2). rewrite tstrip_up. split; [now apply turned_right|]. intros ->. destruct (I2 eq_refl) as (-> & ->). auto.
    - destruct (tltrim_shape lk low l Sl Hl) as (L1 & L2). destruct (trtrim_shape lk high r Sr Hr) as (R1 & R2).
      assert (G1 : fst match l with E => (E, d lk i false) | _ => ltrim cmp lk low l end = fst (ltrim cmp lk low l)) by (destruct l; reflexivity).
      assert (G2 : fst match r with E => (E, d lk i true) | _ => rtrim cmp lk high r end = fst (rtrim cmp lk high r)) by (destruct r; reflexivity).
      destruct (match l with E => _ | _ => _ end) as [lg dl]. destruct (match r with E => _ | _ => _ end) as [rg dr]. cbn [fst] in G1, G2. rewrite <- G1 in *. rewrite <- G2 in *. unfold closeCut_t.
      replace (if _ && _ then _ else _) with ('(t0, x0, c'0) <- closeCut_n s lg rg c ;; Some (t0, x0, Some (dl, dr), c'0)).
      2:{ destruct (Z.eqb_spec (cmp low k) (cmp high k)); cbn [andb]; auto. destruct H1 as [H1|H1]; [tauto|]. rewrite H1. reflexivity. }
      unfold within in H2. apply andb_true_iff in H2 as (H2 & H3). apply negb_true_iff in H2, H3. rewrite H2, H3.
      destruct (closeCut_n s lg rg c) as [[[t1 x1] c1]|] eqn:E3; [|discriminate]. intros [= <- <- <- <-]. apply closeCut_turned in E3; auto. rewrite L1, R1 in E3. split; [exact E3|discriminate].
  Qed.

  (** ** the node at a position, known by its key *)
  Lemma droppedAt_taken key t : strictly_sorted ltb (elems t) -> forall P e Q u, elems t = P ++ e :: Q -> same ltb (fst e) key = true ->
    droppedAt (len P) (values (strip t)) u -> found ltb key (strip t) = true /\ taken ltb key (values (strip t)) u.
  Proof.
    induction t as [|s k v l IHl r IHr]; intros Hs P e Q u EQ He D; [destruct P; discriminate|]. cbn [elems] in *. destruct (strict_mid ltb _ _ _ Hs) as (Sl & Sr & Ll & Lr).
    assert (NL : nodes (values (strip l)) = len (elems l)) by (now rewrite values_nodes, nodes_strip).
    apply app_mid in EQ. cbn [strip values found] in *. destruct EQ as [(c & E1 & ->)|(c & E1 & ->)].
    - assert (Hin : In e (elems l)) by (rewrite E1, in_app_iff; simpl; auto). specialize (Ll e Hin). cbn [fst] in Ll. rewrite (same_lt_l ltb W _ _ k He) in Ll. rewrite Ll.
      assert (len P < len (elems l)) by (rewrite E1; unfold len; rewrite app_length; cbn [length]; lia).
      inversion D; subst; try lia. destruct (IHl Sl P e c l' E1 He) as (I1 & I2); [assumption|]. split; [exact I1|]. now apply taken_left.
    - destruct c as [|y c]; cbn [app] in E1.
      + injection E1 as <- _. cbn [fst] in He. rewrite app_nil_r in D. apply same_iff in He as (A1 & A2). rewrite A1, A2. split; [reflexivity|].
        inversion D; subst; try lia. now apply dropped_taken.
      + injection E1 as <- E1. assert (Hin : In e (elems r)) by (rewrite E1, in_app_iff; simpl; auto). specialize (Lr e Hin). cbn [fst] in Lr.
        rewrite (same_lt_r ltb W _ _ k He) in Lr. rewrite (lt_asym _ W _ _ Lr), Lr.
        assert (X : len (elems l ++ (k, v) :: c) = len (elems l) + len c + 1) by (unfold len; rewrite app_length; cbn [length]; lia). rewrite X in D. pose proof (len_nonneg c).
        inversion D; subst; try lia. replace (len (elems l) + len c + 1 - nodes (values (strip l)) - 1) with (len c) in * by lia.
        destruct (IHr Sr c e Q r' E1 He) as (I1 & I2); [assumption|]. split; [exact I1|]. apply taken_right; auto. now apply lt_asym.
  Qed.

  Lemma tremoveNode_shape stale (s s' : TreelistModel.tl K V) m P k x v Q res : TRel ltb stale s m -> elems (top s) = P ++ (k, (x, v)) :: Q -> removeNode x s = Some (s', res) ->
    droppedAt (len P) (values (strip (top s))) (values (strip (top s'))).
  Proof.
    intros HR Ee. pose proof HR as (_ & Ht & _ & Hn & _). unfold removeNode. destruct (removeAt_ok x (top s) Ht Hn P k v Q Ee) as (t' & how & E1 & _). rewrite E1.
    destruct (removeLinks _ _ _ _); [|discriminate]. intros [= <- <-]. eapply removeAt_shape; eauto.
  Qed.
  Lemma tRemove_shape stale (s s' : TreelistModel.tl K V) m key res : TRel ltb stale s m -> Remove cmp key s = Some (s', res) ->
    if found ltb key (values (strip (top s))) then taken ltb key (values (strip (top s))) (values (strip (top s'))) else values (strip (top s')) = values (strip (top s)).
  Proof.
    intros HR. pose proof HR as (Ee & Ht & Hs & _). assert (Hs' := Hs). rewrite <- Ee in Hs'. apply pk_sorted in Hs'.
    pose proof (getNode_ok ltb W cmp Hcmp key (top s) Hs') as G. pose proof (getNode_found ltb W cmp Hcmp key (top s)) as GF. pose proof (cut_all ltb W _ key (strict_weak ltb W _ Hs')) as CA.
    rewrite values_found. unfold Remove, TreelistModel.getNode.
    destruct (strict_sames ltb W (elems (top s)) key Hs') as [Q|([k0 [i v0]] & Q)].
    - rewrite Q in G. rewrite G in *. intros [= <- <-]. destruct (found ltb key (strip (top s))); [|reflexivity]. destruct (proj2 GF eq_refl). reflexivity.
    - assert (Hin : In (k0, (i, v0)) (sames ltb key (elems (top s)))) by (rewrite Q; simpl; auto). apply filter_In in Hin as (_ & Hk). rewrite Q in G, CA.
      destruct G as (s1 & l1 & r1 & G). rewrite G. cbn [app] in CA. intros H. pose proof (tremoveNode_shape stale s s' m _ k0 i v0 _ res HR CA H) as D.
      destruct (droppedAt_taken key (top s) Hs' _ _ _ _ CA Hk D) as (F1 & F2). rewrite F1. exact F2.
  Qed.
  Lemma tcall_turned stale (s s' : ctl K V) m o x : TRel ltb stale (list_of s) m -> trim_inside m o -> call_tl cmp s o = (s', x) -> x <> TPanic ->
    exists u, tl_plain ltb o (values (strip (top (list_of s)))) u /\
      turned (if tl_clears o then (0, 0)%nat else counts_tl s) (counts_tl s') u (values (strip (top (list_of s')))).
  Proof.
    destruct s as [b c]. cbn [list_of counts_tl]. intros HR Hp H Hx. pose proof HR as (Ee & Ht & Hs & Hn & Hf & HL & Hst). assert (Hs' := Hs). rewrite <- Ee in Hs'. apply pk_sorted in Hs'.
    assert (HP : forall k v ins0 ex hit, orPanic_t (CT b c) (putWith_t cmp k v ins0 ex hit (CT b c)) = (s', x) ->
      turned c (counts_tl s') (ins ltb (fun e => (fst e, hit (snd e))) k v (values (strip (top b)))) (values (strip (top (list_of s'))))).
    { intros k v ins0 ex hit X. unfold putWith_t in X. cbn [list_of counts_tl] in X. destruct (put_t cmp hit _ k v None None (top b) c) as [[[t res] c']|] eqn:E1; [|injection X as <- <-; congruence].
      apply tput_turned in E1. apply values_turned in E1. rewrite values_ins in E1. destruct res as [|p q st]; injection X as <- <-; exact E1. }
    assert (Hsame : forall y, (CT b c, y) = (s', x) -> turned c (counts_tl s') (values (strip (top b))) (values (strip (top (list_of s'))))) by (intros y [= <- <-]; apply turned_none).
    destruct o; unfold call_tl in H; cbn [list_of counts_tl tl_step tl_plain tl_clears trim_inside] in *.
    - apply HP in H. eexists. split; [reflexivity|]. erewrite ins_hit; [exact H|]. intros [k0 v0]; reflexivity.
    - apply HP in H. eexists. split; [reflexivity|]. exact H.
    - apply HP in H. eexists. split; [reflexivity|]. exact H.
    - eexists. split; [reflexivity|]. eapply Hsame; eauto.
    - destruct (Remove cmp k b) as [[b' res]|] eqn:E1; [|injection H as <- <-; congruence]. injection H as <- <-. cbn [list_of counts_tl]. eexists. split; [|apply turned_none].
      eapply tRemove_shape; eauto.
    - unfold RemoveIndex, TreelistModel.index in H. rewrite index_ok in H by auto. destruct (entry_at (elems (top b)) (Some i)) as [[k [y v]]|] eqn:En; [|injection H as <- <-; congruence].
      destruct (removeNode y b) as [[b' res]|] eqn:E1; [|injection H as <- <-; congruence]. injection H as <- <-. cbn [list_of counts_tl]. eexists. split; [|apply turned_none].
      assert (Hi : 0 <= i < len (elems (top b))).
      { destruct (Z.le_gt_cases 0 i), (Z.lt_ge_cases i (len (elems (top b)))); auto; rewrite entry_at_none in En by lia; discriminate. }
      rewrite entry_at_in in En by auto. apply nth_error_split in En as (P & Q & X1 & X2). replace i with (len P) by (unfold len; lia). eapply tremoveNode_shape; eauto.
    - eexists. split; [reflexivity|]. eapply Hsame; eauto.
    - eexists. split; [reflexivity|]. eapply Hsame; eauto.
    - unfold removeEnd in H. destruct (elems (top b)) as [|[k [y v]] Q] eqn:E1.
      + rewrite (elems_nil _ E1) in *. injection H as <- <-. cbn [list_of counts_tl strip values]. eexists. split; [reflexivity|]. rewrite (elems_nil _ E1). apply turned_none.
      + assert (Hne : top b <> E) by (intros X; rewrite X in E1; discriminate). destruct (rel_good ltb stale b m HR Hne) as (_ & _ & _ & _ & HG). rewrite E1 in HG. destruct HG as (G1 & _). cbn in G1.
        destruct (removeNode_rel ltb stale b m [] k y v Q HR E1) as (b' & X1 & _). pose proof (tremoveNode_shape stale b b' m [] k y v Q _ HR E1 X1) as D. change (len []) with 0 in D.
        destruct (top b) as [|s0 k0 w0 l0 r0]; [congruence|]. rewrite G1, X1 in H. injection H as <- <-. cbn [list_of counts_tl]. eexists. split; [|apply turned_none]. exact D.
    - unfold removeEnd in H. destruct (snoc_cases (elems (top b))) as [E1|(P & [k [y v]] & E1)].
      + rewrite (elems_nil _ E1) in *. injection H as <- <-. cbn [list_of counts_tl strip values]. eexists. split; [reflexivity|]. rewrite (elems_nil _ E1). apply turned_none.
      + assert (Hne : top b <> E) by (intros X; rewrite X in E1; destruct P; discriminate). destruct (rel_good ltb stale b m HR Hne) as (_ & _ & _ & _ & HG). rewrite E1, ids_app in HG. destruct HG as (_ & G1 & _).
        change (ids [(k, (y, v))]) with [y] in G1. rewrite last_snoc in G1.
        destruct (removeNode_rel ltb stale b m P k y v [] HR E1) as (b' & X1 & _). pose proof (tremoveNode_shape stale b b' m P k y v [] _ HR E1 X1) as D.
        replace (len P) with (nodes (values (strip (top b))) - 1) in D by (rewrite values_nodes, nodes_strip, E1; unfold len; rewrite app_length; cbn [length]; lia).
        destruct (top b) as [|s0 k0 w0 l0 r0]; [congruence|]. rewrite G1, X1 in H. injection H as <- <-. cbn [list_of counts_tl]. eexists. split; [|apply turned_none]. exact D.
    - eexists. split; [reflexivity|]. destruct (TreelistModel.index i (top b)) as [[k [y v]]|]; eapply Hsame; exact H.
    - eexists. split; [reflexivity|]. eapply Hsame; eauto.
    - eexists. split; [reflexivity|]. eapply Hsame; eauto.
    - eexists. split; [reflexivity|]. eapply Hsame; eauto.
    - eexists. split; [reflexivity|]. eapply Hsame; eauto.
    - injection H as <- <-. cbn [list_of counts_tl top strip values]. eexists. split; [reflexivity|apply turned_none].
    - unfold RemoveRange_t in H. cbn [list_of counts_tl] in H. rewrite gt0 in H. destruct (ltb hi lo) eqn:E0; [injection H as <- <-; congruence|].
      destruct (plain_cases ltb cmp Hcmp lo hi) as [[Hc Ho]|[[Hc Ho]|[Hc Ho]]]; rewrite Hc in H; [change (-1 =? 0) with false in H|congruence|change (0 =? 0) with true in H]; cbv iota in H.
      + destruct (removeRange_t cmp _ lo hi (top b) c) as [[[[t' y] dd] c']|] eqn:E1; [|injection H as <- <-; congruence].
        apply tremoveRange_shape in E1 as (E1 & E2); auto. apply values_turned in E1. rewrite values_without in E1.
        unfold same. rewrite Ho. cbn [orb negb andb]. eexists. split; [reflexivity|]. destruct dd as [[p q]|]; injection H as <- <-; cbn [list_of counts_tl top]; [exact E1|].
        destruct (E2 eq_refl) as (-> & _). exact E1.
      + destruct (Remove cmp lo b) as [[b' res]|] eqn:E1; [|injection H as <- <-; congruence]. injection H as <- <-. cbn [list_of counts_tl]. eexists. split; [|apply turned_none].
        replace (same ltb lo hi) with true by (symmetry; apply same_iff; apply same_iff in Ho; tauto). eapply tRemove_shape; eauto.
    - unfold RemoveRangeByIndex_t in H. cbn [list_of counts_tl] in H. destruct (i >? j) eqn:E0.
      + replace (j <? i) with true by lia. eexists. split; [reflexivity|]. eapply Hsame; eauto.
      + destruct (removeRangeAt_t _ i j _ (top b) c) as [[[[t' y] [p q]] c']|] eqn:E1; [|injection H as <- <-; congruence]. injection H as <- <-. cbn [list_of counts_tl top].
        replace (j <? i) with false by lia. eexists. split; [reflexivity|].
        pose proof (tremoveRangeAt_shape (lks b) i j (top b) ltac:(lia) 0 c t' y (p, q) c' Ht) as R. change (0 + kidSize false (top b)) with (kidSize false (top b)) in R. rewrite !Z.sub_0_r in R.
        specialize (R E1). apply values_turned in R. rewrite values_withoutAt in R. exact R.
    - unfold TreelistModel.Trim, IndexModel.Trim in H. rewrite gt0 in H. destruct (ltb hi lo) eqn:E0; [injection H as <- <-; congruence|]. cbn [orPanic] in H. injection H as <- <-. cbn [list_of counts_tl top].
      eexists. split; [reflexivity|]. rewrite (Trim_shape ltb W cmp Hcmp), values_before, values_after by auto. apply turned_none.
    - unfold TreelistModel.TrimByIndex, IndexModel.TrimByIndex in H. destruct (i >? j) eqn:E0; [injection H as <- <-; congruence|]. destruct (trimAt i j (kidSize false (top b)) (top b)) as [t'|t'] eqn:E1; injection H as <- <-; [|congruence].
      cbn [list_of counts_tl top]. eexists. split; [reflexivity|]. rewrite <- Ee, pk_len in Hp.
      destruct (trimAt_ok i j (top b) ltac:(lia) 0 Ht) as (_ & B). change (0 + kidSize false (top b)) with (kidSize false (top b)) in B.
      assert (R : 0 <= i /\ j < 0 + len (elems (top b))).
      { destruct (Z.le_gt_cases 0 i), (Z.lt_ge_cases j (0 + len (elems (top b)))); auto; exfalso; (destruct B as (t2 & B & _); [lia|lia|congruence]). }
      pose proof (trimAt_shape i j (top b) ltac:(lia) 0 t' Ht (proj1 R) (proj2 R)) as T. change (0 + kidSize false (top b)) with (kidSize false (top b)) in T. rewrite Z.sub_0_r in T.
      rewrite T, values_first, values_others by exact E1. apply turned_none.
  Qed.
End Keys.
