(** An insertion rotates at most once when the threshold is at least 2. *)
From Verif Require Import Base Bind Machine OrderSpec SMapSpec SMapFacts CompareModel AvlTree AvlSpec AvlModel AvlProofs AvlAny AvlStep RotSpec AvlCountModel AvlCountProofs.
Local Open Scope Z_scope.

Section Once.
  Context {K V : Type}.
  Notation tree := (tree K V).
  Implicit Types (t l r : tree).
  Ltac heights := repeat match goal with
    | H : Inv _ (N _ _ _ _ _) |- _ => apply Inv_N in H; destruct H as (? & ? & ? & ?)
    end.
  Ltac nonneg := repeat match goal with
    | t : AvlTree.tree K V |- _ => lazymatch goal with H : 0 <= ht t |- _ => fail | _ => pose proof (ht_nonneg t) end
    end.
  Ltac hts := repeat match goal with
    | H : Inv _ ?t |- _ => lazymatch goal with H' : getHeight t = ht t |- _ => fail
                           | _ => pose proof (Inv_height _ _ H) end
    end.
  Ltac side := cbn [ht getHeight] in *; nonneg; lia.
  Ltac upd := repeat match goal with
    | |- context [updateHeight ?k ?v ?l ?r] => rewrite (updateHeight_ok k v l r) by side
    end.
  Ltac rwh := repeat match goal with H : getHeight ?t = ht ?t |- context [getHeight ?t] => rewrite H end.
  (** the two subtrees of a node have different heights *)
  Definition uneven t : Prop := match t with E => False | N _ _ _ a b => ht a <> ht b end.

  Context (d : Z) (Hd : 2 <= d <= 127).
  Lemma rebalance_once h k v l r c t b c' : Inv (d - 1) l -> Inv (d - 1) r -> Z.abs (ht l - ht r) <= d -> ht l <= 126 -> ht r <= 126 ->
    rebalance_n d (N h k v l r) c = Some (t, b, c') ->
    (c' = c /\ Z.abs (ht l - ht r) < d /\ exists h', t = N h' k v l r) \/
    (total c' = S (total c) /\ ht l = ht r + d /\ (uneven l -> ht t = ht l)) \/
    (total c' = S (total c) /\ ht r = ht l + d /\ (uneven r -> ht t = ht r)).
  Proof.
    intros Il Ir Hdiff Bl Br. nonneg. hts. unfold rebalance_n. rewrite (Inv_height _ _ Il), (Inv_height _ _ Ir), !i8_id by lia.
    destruct (Z.leb_spec d (ht l - ht r)) as [Hr1|Hr1]; [|destruct (Z.leb_spec (ht l - ht r) (- d)) as [Hl1|Hl1]].
    - destruct l as [|lh lk lv ll lr]; [cbn [ht] in *; lia|]. heights. hts. rwh.
      destruct (Z.gtb_spec (ht lr) (ht ll)) as [Hs|Hs].
      + destruct lr as [|sh sk sv c0 c1]; [cbn [ht] in *; nonneg; lia|]. heights. hts.
        cbn [rightRotateWithLeft fixup]. upd. intros [= <- <- <-]. right. left. unfold total; cbn [double fst snd]. split; [lia|]. split; [cbn [ht] in *; lia|].
        intros _. cbn [ht] in *. nonneg. lia.
      + cbn [rightRotate fixup]. upd. intros [= <- <- <-]. right. left. unfold total; cbn [single fst snd]. split; [lia|]. split; [cbn [ht] in *; lia|].
        cbn [uneven]. intros Hu. cbn [ht] in *. nonneg. lia.
    - destruct r as [|rh rk rv rl rr]; [cbn [ht] in *; lia|]. heights. hts. rwh.
      destruct (Z.gtb_spec (ht rl) (ht rr)) as [Hs|Hs].
      + destruct rl as [|sh sk sv c0 c1]; [cbn [ht] in *; nonneg; lia|]. heights. hts.
        cbn [leftRotateWithRight fixup]. upd. intros [= <- <- <-]. right. right. unfold total; cbn [double fst snd]. split; [lia|]. split; [cbn [ht] in *; lia|].
        intros _. cbn [ht] in *. nonneg. lia.
      + cbn [leftRotate fixup]. upd. intros [= <- <- <-]. right. right. unfold total; cbn [single fst snd]. split; [lia|]. split; [cbn [ht] in *; lia|].
        cbn [uneven]. intros Hu. cbn [ht] in *. nonneg. lia.
    - intros H'. left. destruct (_ >? _); destruct (_ =? _); injection H' as <- <- <-; (split; [reflexivity|]; split; [lia|eauto]).
  Qed.

  Context (ltb : K -> K -> bool) (W : weak_order ltb) (cmp : K -> K -> Z) (Hcmp : ex_cmp ltb cmp).
  Lemma RBd : @rb_ok K V Both d (d - 1).
  Proof. apply rebalance_ok; [lia|]. right. left. auto with zarith. Qed.
  Ltac side3 ck key := destruct (cmp_cases ltb cmp Hcmp ck key) as [[Hc Ho]|[[Hc Ho]|[Hc Ho]]]; rewrite Hc;
    [change (0 <? 0) with false; change (0 =? 0) with true
    |change (1 <? 0) with false; change (1 =? 0) with false; change (1 =? 1) with true
    |change (-1 <? 0) with true]; cbv iota.

  Lemma put_once hit key v t : forall alone c t' ex rb c', Inv (d - 1) t -> ht t <= 126 -> strictly_sorted ltb (elems t) ->
    put_n cmp d hit key v t alone c = Some (t', ex, rb, c') ->
    (c' = c /\ (ht t' = ht t + 1 -> t = E \/ uneven t')) \/ (ex = false /\ total c' = S (total c) /\ ht t' = ht t).
  Proof.
    induction t as [|h k w l IHl r IHr]; intros alone c t' ex rb c' HI Hh Hs; cbn [put_n].
    - intros [= <- <- <- <-]. left. auto.
    - apply Inv_N in HI. destruct HI as (Eh & Hb & Il & Ir). cbn [ht] in Hh. cbn [elems] in Hs. destruct (strict_mid ltb _ _ _ Hs) as (Sl & Sr & _ & _). nonneg.
      side3 k key.
      + destruct (put_n cmp d hit key v l _ c) as [[[[l' ex1] rb1] c1]|] eqn:E1; [|discriminate].
        assert (Hl : ht l <= 126) by lia. pose proof (IHl _ _ _ _ _ _ Il Hl Sl E1) as Q. pose proof (put_erase cmp d hit key v l (is_nil r) c) as P. rewrite E1 in P. cbn [option_map fst] in P.
        destruct (put_ok ltb W cmp Hcmp Both d (d - 1) RBd ltac:(lia) hit key v l (is_nil r) Il Hl Sl) as (l1 & ex2 & rb2 & P1 & _ & _ & I' & B1 & B2 & B3 & B4).
        rewrite P in P1. injection P1 as <- <- <-. nonneg. destruct ex1; cbn [orb].
        * intros [= <- <- <- <-]. left. specialize (B3 eq_refl). destruct Q as [(-> & _)|(Hx & _)]; [|discriminate]. split; [reflexivity|]. cbn [ht]. lia.
        * destruct rb1; cbn [negb].
          -- destruct (rebalance_n d _ c1) as [[[t2 b2] c2]|] eqn:E2; [|discriminate]. intros [= <- <- <- <-].
             assert (G1 : Z.abs (ht l' - ht r) <= d) by lia. assert (G2 : ht l' <= 126) by lia. assert (G3 : ht r <= 126) by lia.
             destruct (rebalance_once _ _ _ _ _ _ _ _ _ I' Ir G1 G2 G3 E2) as [(-> & D1 & h' & ->)|[(T2 & D2 & U)|(T2 & D2 & U)]]; [| |lia].
             ++ cbn [ht uneven]. destruct Q as [(-> & Q)|(_ & Q1 & Q2)]; [left|right; repeat split; auto; lia]. split; [reflexivity|]. intros Hg. right. lia.
             ++ destruct Q as [(-> & Q)|(_ & Q1 & Q2)]; [|lia]. right. split; [reflexivity|]. split; [exact T2|]. assert (Hg : ht l' = ht l + 1) by lia.
                destruct (Q Hg) as [-> |Hu]; [cbn [ht] in *; lia|]. rewrite (U Hu). cbn [ht]. lia.
          -- intros [= <- <- <- <-]. cbn [ht uneven]. destruct Q as [(-> & Q)|(_ & Q1 & Q2)]; [left|right; repeat split; auto; lia]. split; [reflexivity|]. intros Hg. right. lia.
      + destruct (put_n cmp d hit key v r _ c) as [[[[r' ex1] rb1] c1]|] eqn:E1; [|discriminate].
        assert (Hr : ht r <= 126) by lia. pose proof (IHr _ _ _ _ _ _ Ir Hr Sr E1) as Q. pose proof (put_erase cmp d hit key v r (is_nil l) c) as P. rewrite E1 in P. cbn [option_map fst] in P.
        destruct (put_ok ltb W cmp Hcmp Both d (d - 1) RBd ltac:(lia) hit key v r (is_nil l) Ir Hr Sr) as (l1 & ex2 & rb2 & P1 & _ & _ & I' & B1 & B2 & B3 & B4).
        rewrite P in P1. injection P1 as <- <- <-. nonneg. destruct ex1; cbn [orb].
        * intros [= <- <- <- <-]. left. specialize (B3 eq_refl). destruct Q as [(-> & _)|(Hx & _)]; [|discriminate]. split; [reflexivity|]. cbn [ht]. lia.
        * destruct rb1; cbn [negb].
          -- destruct (rebalance_n d _ c1) as [[[t2 b2] c2]|] eqn:E2; [|discriminate]. intros [= <- <- <- <-].
             assert (G1 : Z.abs (ht l - ht r') <= d) by lia. assert (G2 : ht r' <= 126) by lia. assert (G3 : ht l <= 126) by lia.
             destruct (rebalance_once _ _ _ _ _ _ _ _ _ Il I' G1 G3 G2 E2) as [(-> & D1 & h' & ->)|[(T2 & D2 & U)|(T2 & D2 & U)]]; [|lia|].
             ++ cbn [ht uneven]. destruct Q as [(-> & Q)|(_ & Q1 & Q2)]; [left|right; repeat split; auto; lia]. split; [reflexivity|]. intros Hg. right. lia.
             ++ destruct Q as [(-> & Q)|(_ & Q1 & Q2)]; [|lia]. right. split; [reflexivity|]. split; [exact T2|]. assert (Hg : ht r' = ht r + 1) by lia.
                destruct (Q Hg) as [-> |Hu]; [cbn [ht] in *; lia|]. rewrite (U Hu). cbn [ht]. lia.
          -- intros [= <- <- <- <-]. cbn [ht uneven]. destruct Q as [(-> & Q)|(_ & Q1 & Q2)]; [left|right; repeat split; auto; lia]. split; [reflexivity|]. intros Hg. right. lia.
      + destruct (hit (k, w)) as [k' v']. intros [= <- <- <- <-]. left. split; [reflexivity|]. cbn [ht]. lia.
  Qed.

  (** in one call that removes nothing: at most one rotation, and none unless the size grew *)
  Lemma step_once (s : cavl K V) o s' (res : n_out K V) : Inv (d - 1) (root (base s)) -> ht (root (base s)) <= 126 -> strictly_sorted ltb (elems (root (base s))) ->
    step_n cmp d s (NCall o) = Some (s', res) -> removes o = false -> clears o = false ->
    (counts_of s' = counts_of s /\ (size (base s) <= size (base s'))%nat) \/
    (total (counts_of s') = S (total (counts_of s)) /\ size (base s') = S (size (base s))).
  Proof.
    intros HI Hh Hs.
    assert (Hput : forall hit k v s' b, store_n cmp d hit s k v = Some (s', b) ->
      (counts_of s' = counts_of s /\ (size (base s) <= size (base s'))%nat) \/ (total (counts_of s') = S (total (counts_of s)) /\ size (base s') = S (size (base s)))).
    { intros hit k v s1 b. unfold store_n. destruct (put_n cmp d hit k v _ false _) as [[[[t ex] rb] c1]|] eqn:E1; [|discriminate].
      apply put_once in E1; auto. intros [= <- _]. cbn [base counts_of size]. destruct E1 as [(-> & _)|(-> & H & _)]; [left|right; auto]. split; [reflexivity|]. destruct ex; lia. }
    destruct o; cbn [step_n removes clears]; try discriminate.
    1-3: destruct (store_n cmp d _ s k v) as [[s1 b]|] eqn:E1; [|discriminate]; intros [= <- _] _ _; eapply Hput; exact E1.
    - unfold upsert_n. destruct (get cmp k _) as [[g|]|] eqn:Eg; [| |discriminate].
      + destruct (get_write cmp k v _) as [t|] eqn:Ew; [|discriminate]. intros [= <- _] _ _. left. cbn. auto.
      + destruct (store_n cmp d _ s k v) as [[s1 b]|] eqn:E1; [|discriminate]. intros [= <- _] _ _. eapply Hput; exact E1.
    - cbn [step]. destruct (get_ cmp (base s) k); [|discriminate]. intros [= <- _] _ _. cbn. auto.
    - cbn [step]. destruct (contains cmp (base s) k); [|discriminate]. intros [= <- _] _ _. cbn. auto.
    - intros [= <- _] _ _. cbn. auto.
    - intros [= <- _] _ _. cbn. auto.
    - intros [= <- _] _ _. cbn. auto.
    - intros [= <- _] _ _. cbn. auto.
    - intros [= <- _] _ _. cbn. auto.
  Qed.
End Once.
