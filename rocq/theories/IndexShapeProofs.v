(** What the calls of an index tree do to its shape: the trees of [CutSpec], up to the rotations counted. *)
From Verif Require Import Base Bind Machine OrderSpec SMapSpec SMapFacts CompareModel AvlTree AvlSpec AvlModel AvlProofs RotSpec AvlCountModel AvlCountProofs IndexSpec IndexModel IndexProofs CutSpec IndexCountModel IndexCountProofs.
Local Open Scope Z_scope.

Section Shape.
  Context {K V : Type}.
  Notation tree := (tree K V).
  Implicit Types (t l r : tree).
  Lemma nodes_strip t : nodes (strip t) = len (elems t).
  Proof. induction t as [|s k v l IHl r IHr]; [reflexivity|]. cbn [strip nodes elems]. rewrite len_mid, IHl, IHr. reflexivity. Qed.
  Lemma nodes_nonneg (t : bt K V) : 0 <= nodes t.
  Proof. induction t; cbn [nodes]; lia. Qed.
  Lemma nodes_zero (t : bt K V) : nodes t = 0 -> t = Leaf.
  Proof. destruct t as [|k v l r]; [auto|]. cbn [nodes]. pose proof (nodes_nonneg l). pose proof (nodes_nonneg r). lia. Qed.
  Lemma strip_leaf t : strip t = Leaf -> t = E.
  Proof. destruct t; [auto|discriminate]. Qed.

  Lemma join_turned l r c t' c' : sized l -> sized r -> join_n l r c = Some (t', c') -> turned c c' (together (strip l) (strip r)) (strip t').
  Proof.
    intros Hl Hr. unfold join_n, together. rewrite !nodes_strip, !size_len by auto. destruct (len (elems l) >? len (elems r)) eqn:E1.
    - replace (len (elems r) <? len (elems l)) with true by lia. destruct r as [|rs rk rv rl rr] eqn:Er.
      + intros [= <- <-]. cbn [strip]. rewrite hang_last_leaf. apply turned_none.
      + rewrite <- Er in *. intros H. now apply attach_turned in H as (T & _).
    - replace (len (elems r) <? len (elems l)) with false by lia. destruct l as [|rs rk rv rl rr] eqn:Er.
      + destruct r as [|rs rk rv rl rr] eqn:Er2; [discriminate|]. rewrite <- Er2 in *. intros [= <- <-]. cbn [strip]. rewrite hang_first_leaf. apply turned_none.
      + rewrite <- Er in *. intros H. now apply attach_turned in H as (T & _).
  Qed.
  Lemma closeCut_turned n l r c t' x c' : sized l -> sized r -> closeCut_n n l r c = Some (t', x, c') -> turned c c' (together (strip l) (strip r)) (strip t').
  Proof.
    intros Hl Hr. unfold closeCut_n. destruct l as [|ls lk lv ll lr] eqn:El; [destruct r as [|rs rk rv rl rr] eqn:Er; [intros [= <- <- <-]; apply turned_none|rewrite <- Er in *]|rewrite <- El in *];
      (destruct (join_n _ _ c) as [[t1 c1]|] eqn:E1; [|discriminate]); intros [= <- <- <-]; eapply join_turned; eauto.
  Qed.
  Lemma strip_up x s k v l r : strip (upFromCut x s k v l r) = Node k v (strip l) (strip r).
  Proof. destruct x; reflexivity. Qed.
  Lemma strip_sum k v l r : strip (sum k v l r) = Node k v (strip l) (strip r).
  Proof. reflexivity. Qed.

  (** ** single removals *)
  Definition one_end (dir : bool) := if dir then @last_out K V else @first_out K V.
  Lemma takeEnd_out dir t : forall t' e, takeEnd dir t = Some (t', e) -> one_end dir (strip t) e (strip t').
  Proof.
    induction t as [|s k v l IHl r IHr]; intros t' e; cbn [takeEnd]; [discriminate|]. destruct dir; cbn [child negb with_child one_end] in *.
    - destruct r as [|rs rk rv rl rr] eqn:Er; [intros [= <- <-]; apply last_here|]. rewrite <- Er in *.
      destruct (takeEnd true r) as [[t1 e1]|]; [|discriminate]. intros [= <- <-]. cbn [strip]. apply last_right. auto.
    - destruct l as [|rs rk rv rl rr] eqn:Er; [intros [= <- <-]; apply first_here|]. rewrite <- Er in *.
      destruct (takeEnd false l) as [[t1 e1]|]; [|discriminate]. intros [= <- <-]. cbn [strip]. apply first_left. auto.
  Qed.
  Lemma removeNode_dropped s k v l r t' : sized (N s k v l r) -> removeNode (N s k v l r) = Some t' -> dropped (Node k v (strip l) (strip r)) (strip t').
  Proof.
    intros Hn. pose proof Hn as (Hs & Hl & Hr). cbn [removeNode]. destruct (Z.eqb_spec s 1) as [E1|E1].
    - intros [= <-]. pose proof (nodes_nonneg (strip l)). pose proof (nodes_nonneg (strip r)). pose proof (nodes_strip l). pose proof (nodes_strip r). unfold len in *.
      rewrite (nodes_zero (strip l)), (nodes_zero (strip r)) by lia. apply dropped_no_left.
    - destruct (_ >? _).
      + destruct (takeEnd true l) as [[l' [k' v']]|] eqn:E2; [|discriminate]. intros [= <-]. apply takeEnd_out in E2. cbn [strip]. now apply (dropped_prev k v (strip l) (strip r) (k', v')).
      + destruct (takeEnd false r) as [[r' [k' v']]|] eqn:E2; [|discriminate]. intros [= <-]. apply takeEnd_out in E2. cbn [strip]. now apply (dropped_next k v (strip l) (strip r) (k', v')).
  Qed.
  Lemma removeIndexLoop_shape i t : forall b t' x, sized t -> removeIndexLoop i (b + kidSize false t) t = Some (t', x) -> droppedAt (i - b) (strip t) (strip t').
  Proof.
    induction t as [|s k v l IHl r IHr]; intros b t' x Ht; cbn [removeIndexLoop]; [discriminate|]. pose proof Ht as (Hs & Hl & Hr).
    pose proof (kid_left s k v l r Hl) as Ek. destruct (_ >? i) eqn:E1; [|destruct (_ <? i) eqn:E2].
    - destruct l as [|ls lk lv ll lr] eqn:El; [discriminate|]. rewrite <- El in *. rewrite left_pos by (subst; auto; congruence).
      destruct (removeIndexLoop i (b + kidSize false l) l) as [[l' y]|] eqn:E3; [|discriminate]. intros [= <- <-]. cbn [strip]. apply at_left; [rewrite nodes_strip; lia|]. eapply IHl; eauto.
    - rewrite right_pos by auto. destruct (removeIndexLoop i _ r) as [[r' y]|] eqn:E3; [|discriminate]. intros [= <- <-]. cbn [strip]. apply at_right; [rewrite nodes_strip; lia|].
      rewrite nodes_strip. apply IHr in E3; auto. replace (i - b - len (elems l) - 1) with (i - (b + len (elems l) + 1)) by lia. exact E3.
    - destruct (removeNode (N s k v l r)) as [t1|] eqn:E3; [|discriminate]. intros [= <- <-]. apply removeNode_dropped in E3; auto.
      replace (i - b) with (nodes (strip l)) by (rewrite nodes_strip; lia). now apply at_here.
  Qed.

  (** ** by position *)
  Lemma first_all (t : bt K V) : forall n, nodes t <= n -> first n t = t.
  Proof.
    induction t as [|k v l IHl r IHr]; intros n H; cbn [first nodes] in *; [reflexivity|]. pose proof (nodes_nonneg r).
    replace (nodes l <? n) with true by lia. rewrite IHr by lia. reflexivity.
  Qed.
  Lemma first_none (t : bt K V) : forall n, n <= 0 -> first n t = Leaf.
  Proof.
    induction t as [|k v l IHl r IHr]; intros n H; cbn [first] in *; [reflexivity|]. pose proof (nodes_nonneg l).
    replace (nodes l <? n) with false by lia. apply IHl; lia.
  Qed.
  Lemma others_all (t : bt K V) : forall n, n <= 0 -> others n t = t.
  Proof.
    induction t as [|k v l IHl r IHr]; intros n H; cbn [others] in *; [reflexivity|]. pose proof (nodes_nonneg l).
    replace (nodes l <? n) with false by lia. rewrite IHl by lia. reflexivity.
  Qed.
  Lemma others_none (t : bt K V) : forall n, nodes t <= n -> others n t = Leaf.
  Proof.
    induction t as [|k v l IHl r IHr]; intros n H; cbn [others nodes] in *; [reflexivity|]. pose proof (nodes_nonneg r).
    replace (nodes l <? n) with true by lia. apply IHr; lia.
  Qed.
  Lemma ltrimAt_shape low t : forall b idx (dir : bool), sized t -> idx = (if dir then b - 1 else b + len (elems t)) ->
    strip (ltrimAt low idx dir t) = first (low - b) (strip t).
  Proof.
    induction t as [|s k v l IHl r IHr]; intros b idx dir Ht Hi; [reflexivity|]. pose proof Ht as (Hs & Hl & Hr). cbn [ltrimAt elems strip first] in *.
    replace (if dir then idx + (getSize l + 1) else idx - (getSize r + 1)) with (b + len (elems l)).
    2:{ rewrite !size_len by auto. destruct dir; rewrite ?len_mid in Hi; lia. }
    rewrite nodes_strip. destruct (Z.ltb_spec (b + len (elems l)) low); [|destruct (_ >? low) eqn:E1].
    - replace (len (elems l) <? low - b) with true by lia. rewrite strip_sum. rewrite (IHr (b + len (elems l) + 1) _ true Hr); [|lia]. f_equal. f_equal. lia.
    - replace (len (elems l) <? low - b) with false by lia. apply IHl; auto.
    - replace (len (elems l) <? low - b) with false by lia. rewrite first_all; [reflexivity|]. rewrite nodes_strip. lia.
  Qed.
  Lemma rtrimAt_shape high t : forall b idx (dir : bool), sized t -> idx = (if dir then b - 1 else b + len (elems t)) ->
    strip (rtrimAt high idx dir t) = others (high + 1 - b) (strip t).
  Proof.
    induction t as [|s k v l IHl r IHr]; intros b idx dir Ht Hi; [reflexivity|]. pose proof Ht as (Hs & Hl & Hr). cbn [rtrimAt elems strip others] in *.
    replace (if dir then idx + (getSize l + 1) else idx - (getSize r + 1)) with (b + len (elems l)).
    2:{ rewrite !size_len by auto. destruct dir; rewrite ?len_mid in Hi; lia. }
    rewrite nodes_strip. destruct (_ >? high) eqn:E1; [|destruct (Z.ltb_spec (b + len (elems l)) high)].
    - replace (len (elems l) <? high + 1 - b) with false by lia. rewrite strip_sum. rewrite (IHl b _ false Hl); auto.
    - replace (len (elems l) <? high + 1 - b) with true by lia. rewrite (IHr (b + len (elems l) + 1) _ true Hr); [|lia]. f_equal. lia.
    - replace (len (elems l) <? high + 1 - b) with true by lia. rewrite others_all; [reflexivity|lia].
  Qed.
  Lemma removeRangeAt_shape low high t : low <= high -> forall b c t' x c', sized t ->
    removeRangeAt_n low high (b + kidSize false t) t c = Some (t', x, c') -> turned c c' (withoutAt (low - b) (high - b) (strip t)) (strip t').
  Proof.
    intros Hlh. induction t as [|s k v l IHl r IHr]; intros b c t' x c' Ht; cbn [removeRangeAt_n]; [discriminate|]. pose proof Ht as (Hs & Hl & Hr).
    pose proof (kid_left s k v l r Hl) as Ek. cbn [strip withoutAt]. rewrite nodes_strip. destruct ((_ >? low) && _)%bool eqn:E1; [|destruct ((_ <? high) && _)%bool eqn:E2].
    - replace (high - b <? len (elems l)) with true by lia. destruct l as [|ls lk lv ll lr] eqn:El; [discriminate|]. rewrite <- El in *. rewrite left_pos by (subst; auto; congruence).
      destruct (removeRangeAt_n low high _ l c) as [[[l' y] c1]|] eqn:E3; [|discriminate]. intros [= <- <- <-]. rewrite strip_up. apply turned_left. eapply IHl; eauto.
    - replace (high - b <? len (elems l)) with false by lia. replace (len (elems l) <? low - b) with true by lia. rewrite right_pos by auto.
      destruct (removeRangeAt_n low high _ r c) as [[[l' y] c1]|] eqn:E3; [|discriminate]. intros [= <- <- <-]. rewrite strip_up. apply turned_right. apply IHr in E3; auto.
      replace (low - b - len (elems l) - 1) with (low - (b + len (elems l) + 1)) by lia. replace (high - b - len (elems l) - 1) with (high - (b + len (elems l) + 1)) by lia. exact E3.
    - replace (high - b <? len (elems l)) with false by lia. replace (len (elems l) <? low - b) with false by lia. rewrite Ek. intros H.
      destruct (ltrimAt_ok low l b (b + len (elems l)) false Hl eq_refl) as (_ & L2). destruct (rtrimAt_ok high r (b + len (elems l) + 1) (b + len (elems l)) true Hr) as (_ & R2); [lia|].
      apply closeCut_turned in H; auto. rewrite (ltrimAt_shape low l b) in H by auto. rewrite (rtrimAt_shape high r (b + len (elems l) + 1)) in H by (auto; lia).
      replace (high - b - len (elems l)) with (high + 1 - (b + len (elems l) + 1)) by lia. exact H.
  Qed.
  Lemma keepFromAt_shape low t : forall b t', sized t -> b <= low < b + len (elems t) -> keepFromAt low (b + kidSize false t) t = Some t' ->
    strip t' = others (low - b) (strip t).
  Proof.
    induction t as [|s k v l IHl r IHr]; intros b t' Ht Hb; cbn [keepFromAt]; [intros [= <-]; reflexivity|]. pose proof Ht as (Hs & Hl & Hr).
    pose proof (kid_left s k v l r Hl) as Ek. cbn [elems strip others] in *. rewrite len_mid in Hb. rewrite nodes_strip. destruct (Z.ltb_spec (b + kidSize false (N s k v l r)) low); [|destruct (_ >? low) eqn:E1].
    - replace (len (elems l) <? low - b) with true by lia. destruct r as [|rs rk rv rl rr] eqn:Er; [discriminate|]. rewrite <- Er in *.
      replace (b + kidSize false (N s k v l r) + kidSize false r + 1) with (b + len (elems l) + 1 + kidSize false r) by lia. intros H1. apply IHr in H1; auto; [|lia].
      rewrite H1. f_equal. lia.
    - replace (len (elems l) <? low - b) with false by lia. destruct l as [|ls lk lv ll lr] eqn:El; [discriminate|]. rewrite <- El in *.
      replace (b + kidSize false (N s k v l r) - kidSize true l - 1) with (b + kidSize false (N s k v l r) - (kidSize true l + 1)) by lia.
      rewrite left_pos by (subst; auto; congruence). destruct (keepFromAt low _ l) as [l'|] eqn:E2; [|discriminate]. intros [= <-]. apply IHl in E2; auto; [|lia]. rewrite strip_sum, E2. reflexivity.
    - replace (len (elems l) <? low - b) with false by lia. intros [= <-]. cbn [strip]. rewrite others_none; [reflexivity|]. rewrite nodes_strip. lia.
  Qed.
  Lemma keepToAt_shape high t : forall b t', sized t -> b <= high < b + len (elems t) -> keepToAt high (b + kidSize false t) t = Some t' ->
    strip t' = first (high + 1 - b) (strip t).
  Proof.
    induction t as [|s k v l IHl r IHr]; intros b t' Ht Hb; cbn [keepToAt]; [intros [= <-]; reflexivity|]. pose proof Ht as (Hs & Hl & Hr).
    pose proof (kid_left s k v l r Hl) as Ek. cbn [elems strip first] in *. rewrite len_mid in Hb. rewrite nodes_strip. destruct (_ >? high) eqn:E1; [|destruct (Z.ltb_spec (b + kidSize false (N s k v l r)) high)].
    - replace (len (elems l) <? high + 1 - b) with false by lia. destruct l as [|ls lk lv ll lr] eqn:El; [discriminate|]. rewrite <- El in *.
      replace (b + kidSize false (N s k v l r) - kidSize true l - 1) with (b + kidSize false (N s k v l r) - (kidSize true l + 1)) by lia.
      rewrite left_pos by (subst; auto; congruence). intros H1. apply IHl in H1; auto. lia.
    - replace (len (elems l) <? high + 1 - b) with true by lia. destruct r as [|rs rk rv rl rr] eqn:Er; [discriminate|]. rewrite <- Er in *.
      replace (b + kidSize false (N s k v l r) + kidSize false r + 1) with (b + len (elems l) + 1 + kidSize false r) by lia.
      destruct (keepToAt high _ r) as [r'|] eqn:E2; [|discriminate]. intros [= <-]. apply IHr in E2; auto; [|lia]. rewrite strip_sum, E2. f_equal. f_equal. lia.
    - replace (len (elems l) <? high + 1 - b) with true by lia. intros [= <-]. cbn [strip]. rewrite first_none; [reflexivity|lia].
  Qed.
  (** a node out of range stays out of the way *)
  Lemma first_others_left (k : K) (v : V) l r n i : 0 <= i -> n + i <= len (elems l) -> 0 < n ->
    first n (others i (Node k v (strip l) (strip r))) = first n (others i (strip l)).
  Proof.
    intros H1 H2 H3. cbn [others]. rewrite nodes_strip. replace (len (elems l) <? i) with false by lia. cbn [first].
    assert (Hn : forall (u : bt K V) i, 0 <= i <= nodes u -> nodes (others i u) = nodes u - i).
    { clear. induction u as [|k v l IHl r IHr]; intros i H; cbn [others nodes] in *; [lia|]. destruct (Z.ltb_spec (nodes l) i).
      - rewrite IHr by lia. lia.
      - cbn [nodes]. rewrite IHl by lia. lia. }
    rewrite Hn by (rewrite nodes_strip; lia). rewrite nodes_strip. replace (len (elems l) - i <? n) with false by lia. reflexivity.
  Qed.
  Lemma trimAt_shape low high t : low <= high -> forall b t', sized t -> b <= low -> high < b + len (elems t) ->
    trimAt low high (b + kidSize false t) t = Kept t' -> strip t' = first (high + 1 - low) (others (low - b) (strip t)).
  Proof.
    intros Hlh. induction t as [|s k v l IHl r IHr]; intros b t' Ht H1 H2; cbn [trimAt]; [discriminate|]. pose proof Ht as (Hs & Hl & Hr).
    pose proof (kid_left s k v l r Hl) as Ek. pose proof (len_mid (elems l) (k, v) (elems r)) as EM. cbn [elems] in H2. rewrite len_mid in H2.
    destruct ((_ >? low) && _)%bool eqn:E1; [|destruct ((_ <? high) && _)%bool eqn:E2].
    - destruct l as [|ls lk lv ll lr] eqn:El; [discriminate|]. rewrite <- El in *. rewrite left_pos by (subst; auto; congruence).
      destruct (trimAt low high _ l) as [u|] eqn:E3; [|discriminate]. intros [= <-]. apply IHl in E3; auto; [|lia]. rewrite E3. cbn [strip].
      symmetry. apply first_others_left; lia.
    - rewrite right_pos by auto. destruct (trimAt low high _ r) as [u|] eqn:E3; [|discriminate]. intros [= <-]. apply IHr in E3; auto; [|lia|lia]. rewrite E3. cbn [strip others].
      rewrite nodes_strip. replace (len (elems l) <? low - b) with true by lia. do 2 f_equal. lia.
    - destruct (keepFromAt_ok low (N s k v l r) b Ht) as (t1 & F1 & F2 & F3); [cbn [elems]; lia|]. rewrite F1.
      destruct (keepFromAt_root low s k v l r b t1 Ht) as (R1 & R2); auto; [lia|]. rewrite <- R1.
      assert (EN : len (elems t1) = b + len (elems (N s k v l r)) - low).
      { rewrite F2. cbn [elems]. unfold len in *. rewrite skipn_length. lia. }
      destruct (keepToAt high (low + kidSize false t1) t1) as [t2|] eqn:E3; [|discriminate]. intros [= <-].
      apply keepToAt_shape in E3; auto; [|cbn [elems] in EN; lia]. apply keepFromAt_shape in F1; auto; [|cbn [elems]; lia]. rewrite E3, F1. reflexivity.
  Qed.
End Shape.

Section Keys.
  Context {K V : Type} (ltb : K -> K -> bool) (W : weak_order ltb) (cmp : K -> K -> Z) (Hcmp : plain_cmp ltb cmp).
  Notation tree := (tree K V).
  Implicit Types (t l r : tree).
  Notation gt0 := (gt0 ltb W cmp Hcmp).
  Notation lt0 := (lt0 ltb W cmp Hcmp).

  Lemma iput_turned shift hit key v t : forall c t' res c', put_n cmp shift hit key v t c = Some (t', res, c') ->
    turned c c' (ins ltb hit key v (strip t)) (strip t').
  Proof.
    induction t as [|s k w l IHl r IHr]; intros c t' res c'; cbn [put_n strip ins]; [intros [= <- <- <-]; apply turned_none|].
    rewrite lt0, gt0. destruct (ltb key k); [|destruct (ltb k key)].
    - destruct (put_n cmp shift hit key v l c) as [[[l' [st|]] c1]|] eqn:E1; [| |discriminate]; apply IHl in E1.
      + destruct (fixPut_n shift st _ c1) as [[[t2 st2] c2]|] eqn:E2; [|discriminate]. intros [= <- <- <-]. apply fixPut_turned in E2 as (T & _).
        eapply turned_trans; [apply turned_left; exact E1|exact T].
      + intros [= <- <- <-]. now apply turned_left.
    - destruct (put_n cmp shift hit key v r c) as [[[l' [st|]] c1]|] eqn:E1; [| |discriminate]; apply IHr in E1.
      + destruct (fixPut_n shift st _ c1) as [[[t2 st2] c2]|] eqn:E2; [|discriminate]. intros [= <- <- <-]. apply fixPut_turned in E2 as (T & _).
        eapply turned_trans; [apply turned_right; exact E1|exact T].
      + intros [= <- <- <-]. now apply turned_right.
    - destruct (hit (k, w)) as [k' v']. intros [= <- <- <-]. apply turned_none.
  Qed.
  Lemma getNode_found key t : getNode cmp key t <> E <-> found ltb key (strip t) = true.
  Proof.
    induction t as [|s k w l IHl r IHr]; cbn [getNode strip found]; [split; [congruence|discriminate]|].
    rewrite lt0, gt0. destruct (ltb key k); auto. destruct (ltb k key); auto. split; [reflexivity|discriminate].
  Qed.
  Lemma setValue_shape key v t : found ltb key (strip t) = true -> strip (setValue cmp key v t) = ins ltb (fun e => (fst e, v)) key v (strip t).
  Proof.
    induction t as [|s k w l IHl r IHr]; cbn [setValue strip found ins]; [discriminate|].
    rewrite lt0, gt0. destruct (ltb key k); [intros H; cbn [strip]; now rewrite IHl|]. destruct (ltb k key); [intros H; cbn [strip]; now rewrite IHr|]. reflexivity.
  Qed.
  Lemma ins_absent hit hit' key v (u : bt K V) : found ltb key u = false -> ins ltb hit key v u = ins ltb hit' key v u.
  Proof.
    induction u as [|k w l IHl r IHr]; cbn [found ins]; [reflexivity|]. destruct (ltb key k); [intros H; now rewrite IHl|]. destruct (ltb k key); [intros H; now rewrite IHr|]. discriminate.
  Qed.
  Lemma dropped_taken key k v (l r t' : bt K V) : ltb key k = false -> ltb k key = false -> dropped (Node k v l r) t' -> taken ltb key (Node k v l r) t'.
  Proof.
    intros H1 H2 H. inversion H; subst.
    - now apply taken_no_left. - now apply taken_no_right. - now apply taken_next. - now apply taken_prev.
  Qed.
  Lemma removeKey_shape key t : forall t' res, sized t -> removeKey cmp key t = Some (t', res) ->
    if found ltb key (strip t) then taken ltb key (strip t) (strip t') else strip t' = strip t.
  Proof.
    induction t as [|s k w l IHl r IHr]; intros t' res Ht; cbn [removeKey strip found]; [intros [= <- <-]; reflexivity|]. pose proof Ht as (_ & Hl & Hr).
    rewrite lt0, gt0. destruct (ltb key k) eqn:E1; [|destruct (ltb k key) eqn:E2].
    - destruct (removeKey cmp key l) as [[l' x]|] eqn:E3; [|discriminate]. intros [= <- <-]. specialize (IHl _ _ Hl eq_refl). cbn [strip].
      destruct (found ltb key (strip l)); [now apply taken_left|now rewrite IHl].
    - destruct (removeKey cmp key r) as [[l' x]|] eqn:E3; [|discriminate]. intros [= <- <-]. specialize (IHr _ _ Hr eq_refl). cbn [strip].
      destruct (found ltb key (strip r)); [now apply taken_right|now rewrite IHr].
    - destruct (removeNode (N s k w l r)) as [t1|] eqn:E3; [|discriminate]. intros [= <- <-]. apply dropped_taken; auto. eapply removeNode_dropped; eauto.
  Qed.

  (** ** by key *)
  Lemma ltrim_shape low t : strip (ltrim cmp low t) = before (fun a => ltb a low) (strip t).
  Proof. induction t as [|s k v l IHl r IHr]; [reflexivity|]. cbn [ltrim strip before]. rewrite gt0. destruct (ltb k low); [now rewrite strip_sum, IHr|exact IHl]. Qed.
  Lemma rtrim_shape high t : strip (rtrim cmp high t) = after (fun a => negb (ltb high a)) (strip t).
  Proof. induction t as [|s k v l IHl r IHr]; [reflexivity|]. cbn [rtrim strip after]. rewrite lt0. destruct (ltb high k); cbn [negb]; [now rewrite strip_sum, IHl|exact IHr]. Qed.
  Lemma removeRange_shape low high t : ltb high low = false -> forall c t' x c', strictly_sorted ltb (elems t) -> sized t ->
    removeRange_n cmp low high t c = Some (t', x, c') -> turned c c' (without ltb low high (strip t)) (strip t').
  Proof.
    intros Hlh. induction t as [|s k v l IHl r IHr]; intros c t' x c' Hs Ht; cbn [removeRange_n]; [intros [= <- <- <-]; apply turned_none|]. pose proof Ht as (_ & Hl & Hr).
    cbn [elems] in Hs. destruct (strict_mid ltb _ _ _ Hs) as (Sl & Sr & _ & _). cbn [strip without].
    destruct (range_here ltb W cmp Hcmp low high k Hlh) as [(-> & H2 & H3 & H4)|[(-> & H2 & H3 & H4)|(H1 & H2)]].
    - rewrite Z.eqb_refl, lt0, H3. cbn [andb]. destruct (removeRange_n cmp low high l c) as [[[l' y] c1]|] eqn:E3; [|discriminate]. intros [= <- <- <-]. rewrite strip_up. apply turned_left. eapply IHl; eauto.
    - rewrite Z.eqb_refl, lt0, (lt_asym _ W _ _ H4), gt0, H4, H3. cbn [andb]. destruct (removeRange_n cmp low high r c) as [[[l' y] c1]|] eqn:E3; [|discriminate].
      intros [= <- <- <-]. rewrite strip_up. apply turned_right. eapply IHr; eauto.
    - replace (if _ && _ then _ else _) with (closeCut_n s (ltrim cmp low l) (rtrim cmp high r) c).
      2:{ destruct (Z.eqb_spec (cmp low k) (cmp high k)); cbn [andb]; auto. destruct H1 as [H1|H1]; [tauto|]. rewrite H1. reflexivity. }
      unfold within in H2. apply andb_true_iff in H2 as (H2 & H3). apply negb_true_iff in H2, H3. rewrite H2, H3. intros H.
      apply closeCut_turned in H; [|apply (ltrim_ok ltb W cmp Hcmp low l Sl Hl)|apply (rtrim_ok ltb W cmp Hcmp high r Sr Hr)].
      rewrite ltrim_shape, rtrim_shape in H. exact H.
  Qed.
  Lemma after_none p t : (forall y, In y (elems t) -> p (fst y) = true) -> after p (strip t) = Leaf.
  Proof.
    induction t as [|s k v l IHl r IHr]; intros H; [reflexivity|]. cbn [strip after elems] in *.
    rewrite (H (k, v) (in_elt _ _ _) : p k = _). apply IHr. intros y Hy. apply H, in_app_iff. right. right. exact Hy.
  Qed.
  Lemma before_none p t : (forall y, In y (elems t) -> p (fst y) = false) -> before p (strip t) = Leaf.
  Proof.
    induction t as [|s k v l IHl r IHr]; intros H; [reflexivity|]. cbn [strip before elems] in *.
    rewrite (H (k, v) (in_elt _ _ _) : p k = _). apply IHl. intros y Hy. apply H, in_app_iff. left. exact Hy.
  Qed.
  Lemma keepFrom_shape low t : strictly_sorted ltb (elems t) -> strip (keepFrom cmp low t) = after (fun a => ltb a low) (strip t).
  Proof.
    induction t as [|s k v l IHl r IHr]; intros Hs; [reflexivity|]. cbn [elems] in Hs. destruct (strict_mid ltb _ _ _ Hs) as (Sl & Sr & Ll & _). cbn [fst] in Ll.
    cbn [keepFrom strip after]. rewrite gt0, lt0. destruct (ltb k low) eqn:E1; [auto|]. destruct (ltb low k) eqn:E2; [now rewrite strip_sum, IHl|].
    cbn [strip]. rewrite after_none; [reflexivity|]. intros y Hy. rewrite <- (same_lt_r ltb W k low); [apply (Ll y Hy)|apply same_iff; auto].
  Qed.
  Lemma keepTo_shape high t : strictly_sorted ltb (elems t) -> strip (keepTo cmp high t) = before (fun a => negb (ltb high a)) (strip t).
  Proof.
    induction t as [|s k v l IHl r IHr]; intros Hs; [reflexivity|]. cbn [elems] in Hs. destruct (strict_mid ltb _ _ _ Hs) as (Sl & Sr & _ & Lr). cbn [fst] in Lr.
    cbn [keepTo strip before]. rewrite gt0, lt0. destruct (ltb high k) eqn:E1; cbn [negb]; [auto|]. destruct (ltb k high) eqn:E2; [now rewrite strip_sum, IHr|].
    cbn [strip]. rewrite before_none; [reflexivity|]. intros y Hy. apply negb_false_iff. rewrite <- (same_lt_l ltb W k high); [apply (Lr y Hy)|apply same_iff; auto].
  Qed.
  Lemma Trim_shape low high t : ltb high low = false -> strictly_sorted ltb (elems t) -> sized t ->
    strip (leaveTo cmp high (leaveFrom cmp low (getRangeRoot cmp low high t))) = before (fun a => negb (ltb high a)) (after (fun a => ltb a low) (strip t)).
  Proof.
    intros Hlh. rewrite (leave_keep ltb W cmp Hcmp low high t Hlh). induction t as [|s k v l IHl r IHr]; intros Hs Ht; [reflexivity|].
    pose proof Ht as (Hz & Hl & Hr). pose proof Hs as Hs'. cbn [elems] in Hs. destruct (strict_mid ltb _ _ _ Hs) as (Sl & Sr & Ll & Lr). cbn [fst] in Ll, Lr. cbn [getRangeRoot].
    destruct (range_here ltb W cmp Hcmp low high k Hlh) as [(-> & H2 & H3 & H4)|[(-> & H2 & H3 & H4)|(H1 & H2)]].
    - rewrite Z.eqb_refl, lt0, H3. cbn [negb]. rewrite IHl by auto. cbn [strip after]. rewrite (lt_asym _ W _ _ H4). cbn [before]. rewrite H3. reflexivity.
    - rewrite Z.eqb_refl, lt0, (lt_asym _ W _ _ H4), gt0, H4. cbn [negb]. rewrite IHr by auto. cbn [strip after]. rewrite H3. reflexivity.
    - replace (if negb (cmp low k =? cmp high k) then _ else _) with (N s k v l r).
      2:{ destruct (Z.eqb_spec (cmp low k) (cmp high k)); cbn [negb]; auto. destruct H1 as [H1|H1]; [tauto|]. rewrite H1. reflexivity. }
      destruct (keepFrom_ok ltb W cmp Hcmp low (N s k v l r) Hs' Ht) as (E1 & E2). rewrite keepTo_shape, keepFrom_shape; auto. rewrite E1. apply ssorted_filter; auto.
  Qed.

  (** ** splitting *)
  Notation side contain key := (toLeft ltb contain key).
  Lemma before_all p t : (forall y, In y (elems t) -> p (fst y) = true) -> before p (strip t) = strip t.
  Proof.
    induction t as [|s k v l IHl r IHr]; intros H; [reflexivity|]. cbn [strip before elems] in *.
    rewrite (H (k, v) (in_elt _ _ _) : p k = _). rewrite IHr; [reflexivity|]. intros y Hy. apply H, in_app_iff. right. right. exact Hy.
  Qed.
  Lemma after_all p t : (forall y, In y (elems t) -> p (fst y) = false) -> after p (strip t) = strip t.
  Proof.
    induction t as [|s k v l IHl r IHr]; intros H; [reflexivity|]. cbn [strip after elems] in *.
    rewrite (H (k, v) (in_elt _ _ _) : p k = _). rewrite IHl; [reflexivity|]. intros y Hy. apply H, in_app_iff. left. exact Hy.
  Qed.
  Lemma splitBelow_shape contain key t : strictly_sorted ltb (elems t) ->
    strip (fst (splitBelow cmp contain key t)) = before (side contain key) (strip t) /\ strip (snd (splitBelow cmp contain key t)) = after (side contain key) (strip t).
  Proof.
    induction t as [|s k v l IHl r IHr]; intros Hs; [split; reflexivity|]. cbn [elems] in Hs. destruct (strict_mid ltb _ _ _ Hs) as (Sl & Sr & Ll & Lr). cbn [fst] in Ll, Lr.
    cbn [splitBelow strip before after]. rewrite gt0, lt0. destruct (IHl Sl) as (A1 & A2). destruct (IHr Sr) as (B1 & B2).
    destruct (splitBelow cmp contain key l) as [a b], (splitBelow cmp contain key r) as [a' b']. cbn [fst snd] in *.
    destruct (ltb key k) eqn:E1; [|destruct (ltb k key) eqn:E2].
    - replace (side contain key k) with false by (unfold toLeft; destruct contain; [now rewrite E1|symmetry; apply (lt_asym _ W); auto]). cbn [fst snd]. rewrite strip_sum, A2. auto.
    - replace (side contain key k) with true by (unfold toLeft; destruct contain; [now rewrite E1|auto]). cbn [fst snd]. rewrite strip_sum, B1. auto.
    - destruct contain; unfold toLeft; rewrite ?E1, ?E2; cbn [negb fst snd].
      + rewrite before_none, after_all; [auto| |]; intros y Hy; apply negb_false_iff; rewrite <- (same_lt_l ltb W k key); [apply (Lr y Hy)|apply same_iff; auto|apply (Lr y Hy)|apply same_iff; auto].
      + rewrite before_all, after_none; [auto| |]; intros y Hy; rewrite <- (same_lt_r ltb W k key); [apply (Ll y Hy)|apply same_iff; auto|apply (Ll y Hy)|apply same_iff; auto].
  Qed.
  Lemma splitRun_shape contain run key t : strictly_sorted ltb (elems t) ->
    match splitRun cmp contain run key t with
    | Some p => strip (fst p) = before (side contain key) (strip t) /\ strip (snd p) = after (side contain key) (strip t)
    | None => if run then before (side contain key) (strip t) = strip t /\ after (side contain key) (strip t) = Leaf
              else before (side contain key) (strip t) = Leaf /\ after (side contain key) (strip t) = strip t
    end.
  Proof.
    induction t as [|s k v l IHl r IHr]; intros Hs; [destruct run; split; reflexivity|]. cbn [elems] in Hs. destruct (strict_mid ltb _ _ _ Hs) as (Sl & Sr & Ll & Lr). cbn [fst] in Ll, Lr.
    specialize (IHl Sl). specialize (IHr Sr). cbn [splitRun strip before after]. rewrite (goesLeft_ok ltb W cmp Hcmp). destruct (side contain key k); destruct run.
    - destruct (splitRun cmp contain true key r) as [[a b]|]; cbn [fst snd] in *; destruct IHr as (A1 & A2); [rewrite strip_sum|]; rewrite A1, A2; auto.
    - destruct (splitBelow_shape contain key r Sr) as (A1 & A2). destruct (splitBelow cmp contain key r) as [a b]. cbn [fst snd] in *. rewrite strip_sum, A1, A2. auto.
    - destruct (splitBelow_shape contain key l Sl) as (A1 & A2). destruct (splitBelow cmp contain key l) as [a b]. cbn [fst snd] in *. rewrite strip_sum, A1, A2. auto.
    - destruct (splitRun cmp contain false key l) as [[a b]|]; cbn [fst snd] in *; destruct IHl as (A1 & A2); [rewrite strip_sum|]; rewrite A1, A2; auto.
  Qed.
  Lemma Split_shape contain key t a b : strictly_sorted ltb (elems t) -> Split cmp contain key t = Some (a, b) ->
    strip a = before (side contain key) (strip t) /\ strip b = after (side contain key) (strip t).
  Proof.
    intros Hs. unfold Split. destruct t as [|s k v l r] eqn:Et; [discriminate|]. rewrite <- Et in *. destruct (goesLeft cmp contain key k).
    - pose proof (splitRun_shape contain true key t Hs) as H. destruct (splitRun cmp contain true key t) as [p|]; intros [= ]; subst; [auto|]. destruct H as (-> & ->). auto.
    - pose proof (splitRun_shape contain false key t Hs) as H. destruct (splitRun cmp contain false key t) as [p|]; intros [= ]; subst; [auto|]. destruct H as (-> & ->). auto.
  Qed.
End Keys.

(** ** the calls *)
Section Call.
  Context {K A : Type} (ltb : K -> K -> bool) (W : weak_order ltb) (cmp : K -> K -> Z) (Hcmp : plain_cmp ltb cmp) (shift : Z).
  Notation tree := (tree K (option A)).
  Lemma call_turned (s s' : cix K A) o x : sized (content s) -> strictly_sorted ltb (elems (content s)) -> trim_in_range (elems (content s)) o ->
    call_ix cmp shift s o = (s', x) -> x <> XPanic ->
    exists u, ix_plain ltb o (strip (content s)) u /\ turned (if ix_other o then (if match x with XNil => true | _ => false end then counts_ix s else (0, 0)%nat) else counts_ix s) (counts_ix s') u (strip (content s')).
  Proof.
    destruct s as [t c]. cbn [content counts_ix]. intros Ht Hs Hr H Hx.
    destruct o; unfold call_ix in H; cbn [content counts_ix step ix_other ix_plain] in *.
    1,2: unfold Put_n in H; destruct (put_n _ _ _ _ _ t c) as [[[t' res] c']|] eqn:E1; [|injection H as <- <-; congruence]; injection H as <- <-; cbn [content counts_ix];
      eexists; split; [reflexivity|]; eapply iput_turned; eauto.
    - unfold Set_n in H. destruct t as [|n0 k0 v0 l r] eqn:Et; [injection H as <- <-; eexists; split; [reflexivity|apply turned_none]|]. rewrite <- Et in *.
      destruct (put_n _ _ _ _ _ t c) as [[[t' res] c']|] eqn:E1; [|injection H as <- <-; congruence]. injection H as <- <-. cbn [content counts_ix].
      eexists; split; [reflexivity|]. eapply iput_turned; eauto.
    - pose proof (getNode_found ltb W cmp Hcmp k t) as G. unfold Upsert_n in H. destruct (getNode cmp k t) as [|n0 k0 v0 l r].
      + unfold Put_n in H. destruct (put_n _ _ _ _ _ t c) as [[[t' res] c']|] eqn:E1; [|injection H as <- <-; congruence]. injection H as <- <-. cbn [content counts_ix].
        eexists; split; [reflexivity|]. rewrite (ins_absent ltb _ (fun e => e)); [eapply iput_turned; eauto|].
        destruct (found ltb k (strip t)); [|reflexivity]. destruct (proj2 G eq_refl); reflexivity.
      + injection H as <- <-. cbn [content counts_ix]. eexists; split; [reflexivity|]. rewrite <- (setValue_shape ltb W cmp Hcmp); [apply turned_none|]. apply G. congruence.
    - injection H as <- <-. eexists; split; [reflexivity|apply turned_none].
    - destruct (removeKey cmp k t) as [[t' res]|] eqn:E1; [|injection H as <- <-; congruence]. injection H as <- <-. cbn [content counts_ix]. exists (strip t'). split; [|apply turned_none].
      eapply removeKey_shape; eauto.
    - destruct (removeKey cmp k t) as [[t' res]|] eqn:E1; [|injection H as <- <-; congruence]. injection H as <- <-. cbn [content counts_ix]. exists (strip t'). split; [|apply turned_none].
      eapply removeKey_shape; eauto.
    - injection H as <- <-. eexists; split; [reflexivity|apply turned_none].
    - injection H as <- <-. eexists; split; [reflexivity|apply turned_none].
    - injection H as <- <-. eexists; split; [reflexivity|apply turned_none].
    - injection H as <- <-. eexists; split; [reflexivity|apply turned_none].
    - injection H as <- <-. eexists; split; [reflexivity|apply turned_none].
    - destruct (index i t) as [[k v]|]; injection H as <- <-; (eexists; split; [reflexivity|apply turned_none]).
    - injection H as <- <-. eexists; split; [reflexivity|apply turned_none].
    - unfold RemoveIndex in H. destruct (removeIndexLoop i _ t) as [[t' v]|] eqn:E1; [|injection H as <- <-; congruence]. injection H as <- <-. cbn [content counts_ix]. exists (strip t'). split; [|apply turned_none].
      pose proof (removeIndexLoop_shape i t 0 t' v Ht) as R. rewrite Z.add_0_l, Z.sub_0_r in R. auto.
    - unfold RemoveRange_n in H. rewrite (gt0 ltb W cmp Hcmp) in H. destruct (ltb hi lo) eqn:E0; [injection H as <- <-; congruence|].
      destruct (plain_cases ltb cmp Hcmp lo hi) as [[Hc Ho]|[[Hc Ho]|[Hc Ho]]]; rewrite Hc in H; [change (-1 =? 0) with false in H|congruence|change (0 =? 0) with true in H]; cbv iota in H.
      + destruct (removeRange_n cmp lo hi t c) as [[[t' y] c']|] eqn:E1; [|injection H as <- <-; congruence]. injection H as <- <-. cbn [content counts_ix].
        unfold same. rewrite Ho. cbn [orb negb andb]. eexists. split; [reflexivity|]. eapply removeRange_shape; eauto.
      + destruct (removeKey cmp lo t) as [[t' res]|] eqn:E1; [|injection H as <- <-; congruence]. injection H as <- <-. cbn [content counts_ix]. exists (strip t'). split; [|apply turned_none].
        replace (same ltb lo hi) with true by (symmetry; apply same_iff; apply same_iff in Ho; tauto). eapply removeKey_shape; eauto.
    - unfold RemoveRangeByIndex_n in H. destruct (i >? j) eqn:E0.
      + injection H as <- <-. cbn [content counts_ix]. replace (j <? i) with true by lia. eexists; split; [reflexivity|apply turned_none].
      + destruct (removeRangeAt_n i j _ t c) as [[[t' y] c']|] eqn:E1; [|injection H as <- <-; congruence]. injection H as <- <-. cbn [content counts_ix].
        replace (j <? i) with false by lia. eexists; split; [reflexivity|].
        pose proof (removeRangeAt_shape i j t ltac:(lia) 0 c t' y c' Ht) as R. rewrite Z.add_0_l, !Z.sub_0_r in R. auto.
    - unfold Trim in H. rewrite (gt0 ltb W cmp Hcmp) in H. destruct (ltb hi lo) eqn:E0; [injection H as <- <-; congruence|]. cbn [orPanic] in H. injection H as <- <-. cbn [content counts_ix].
      eexists; split; [reflexivity|]. rewrite (Trim_shape ltb W cmp Hcmp) by auto. apply turned_none.
    - unfold TrimByIndex in H. destruct (i >? j) eqn:E0; [injection H as <- <-; congruence|]. destruct (trimAt i j (kidSize false t) t) as [t'|t'] eqn:E1; injection H as <- <-; [|congruence].
      cbn [content counts_ix]. eexists; split; [reflexivity|]. cbn [trim_in_range] in Hr.
      destruct (trimAt_ok i j t ltac:(lia) 0 Ht) as (_ & B). change (0 + kidSize false t) with (kidSize false t) in B.
      assert (R : 0 <= i /\ j < 0 + len (elems t)).
      { destruct (Z.le_gt_cases 0 i), (Z.lt_ge_cases j (0 + len (elems t))); auto; exfalso; (destruct B as (t2 & B & _); [lia|lia|congruence]). }
      pose proof (trimAt_shape i j t ltac:(lia) 0 t' Ht (proj1 R) (proj2 R)) as T. change (0 + kidSize false t) with (kidSize false t) in T. rewrite Z.sub_0_r in T. rewrite T by exact E1. apply turned_none.
    - destruct (Split cmp contain k t) as [[a b]|] eqn:E1.
      + pose proof (Split_shape ltb W cmp Hcmp contain k t a b Hs E1) as (S1 & S2). destruct rgt; injection H as <- <-; cbn [content counts_ix]; (eexists; split; [reflexivity|]).
        * rewrite S2. apply turned_none. * rewrite S1. apply turned_none.
      + unfold Split in E1. destruct t as [|n0 k0 v0 l r]; [|destruct (goesLeft cmp contain k k0); [destruct (splitRun cmp contain true k _)|destruct (splitRun cmp contain false k _)]; discriminate].
        injection H as <- <-. cbn [content counts_ix]. destruct rgt; (eexists; split; [reflexivity|apply turned_none]).
  Qed.
End Call.
