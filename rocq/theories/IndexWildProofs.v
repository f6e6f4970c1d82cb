(** tree/indextree: what holds for any comparison function. *)
From Verif Require Import Base Bind Machine OrderSpec SMapSpec SMapFacts AvlTree AvlSpec IndexSpec AvlModel AvlAny AvlStep IndexModel IndexProofs WildSpec.
Local Open Scope Z_scope.

Section Lists.
  Context {X : Type}.
  Implicit Types (m a b : list X).
  Lemma thin_refl m : thinned m m.
  Proof. induction m; constructor; auto. Qed.
  Lemma thin_none m : thinned m [].
  Proof. induction m; constructor; auto. Qed.
  Lemma thin_app a a' b b' : thinned a a' -> thinned b b' -> thinned (a ++ b) (a' ++ b').
  Proof. induction 1; cbn [app]; intros; auto; constructor; auto. Qed.
  Lemma thin_mid a a' e b b' : thinned a a' -> thinned b b' -> thinned (a ++ e :: b) (a' ++ e :: b').
  Proof. intros. apply thin_app; [assumption|]. constructor. assumption. Qed.
  Lemma thin_left a a' e b : thinned a a' -> thinned (a ++ e :: b) a'.
  Proof. intros. rewrite <- (app_nil_r a'). apply thin_app; [assumption|apply thin_none]. Qed.
  Lemma thin_right a e b b' : thinned b b' -> thinned (a ++ e :: b) b'.
  Proof. intros. change b' with ([] ++ b'). apply thin_app; [apply thin_none|]. constructor. assumption. Qed.
  Lemma thin_out a a' e b b' : thinned a a' -> thinned b b' -> thinned (a ++ e :: b) (a' ++ b').
  Proof. intros. apply thin_app; [assumption|]. constructor. assumption. Qed.
  Lemma part_all m : parted m m [].
  Proof. induction m; constructor; auto. Qed.
  Lemma part_none m : parted m [] m.
  Proof. induction m; constructor; auto. Qed.
  Lemma part_app m a b m' a' b' : parted m a b -> parted m' a' b' -> parted (m ++ m') (a ++ a') (b ++ b').
  Proof. induction 1; cbn [app]; intros; auto; constructor; auto. Qed.
  (** with everything behind going to the right, or everything before to the left *)
  Lemma part_behind m a b e r : parted m a b -> parted (m ++ e :: r) a (b ++ e :: r).
  Proof. intros H. rewrite <- (app_nil_r a). apply part_app; [exact H|apply part_none]. Qed.
  Lemma part_before l e m a b : parted m a b -> parted (l ++ e :: m) (l ++ e :: a) b.
  Proof. intros H. change b with ([] ++ b). apply part_app; [apply part_all|]. constructor. exact H. Qed.
  Lemma added_left e m m' y r : added e m m' -> added e (m ++ y :: r) (m' ++ y :: r).
  Proof. intros (a & b & -> & ->). exists a, (b ++ y :: r). rewrite <- !app_assoc. auto. Qed.
  Lemma added_right e m m' y l : added e m m' -> added e (l ++ y :: m) (l ++ y :: m').
  Proof. intros (a & b & -> & ->). exists (l ++ y :: a), b. rewrite <- !app_assoc. auto. Qed.
  Lemma swapped_left e e' m m' y r : swapped e e' m m' -> swapped e e' (m ++ y :: r) (m' ++ y :: r).
  Proof. intros (a & b & -> & ->). exists a, (b ++ y :: r). rewrite <- !app_assoc. auto. Qed.
  Lemma swapped_right e e' m m' y l : swapped e e' m m' -> swapped e e' (l ++ y :: m) (l ++ y :: m').
  Proof. intros (a & b & -> & ->). exists (l ++ y :: a), b. rewrite <- !app_assoc. auto. Qed.
  Lemma swapped_mid (e e' : X) l r : swapped e e' (l ++ e :: r) (l ++ e' :: r).
  Proof. exists l, r. auto. Qed.
  Lemma added_len e m m' : added e m m' -> length m' = S (length m).
  Proof. intros (a & b & -> & ->). rewrite !app_length. cbn [length]. lia. Qed.
  Lemma swapped_len e e' m m' : swapped e e' m m' -> length m' = length m.
  Proof. intros (a & b & -> & ->). rewrite !app_length. reflexivity. Qed.
  Lemma swapped_same e m m' : swapped e e m m' -> m' = m /\ In e m.
  Proof. intros (a & b & -> & ->). split; [reflexivity|]. apply in_or_app. right. left. reflexivity. Qed.
End Lists.

Section Tree.
  Context {K V : Type} (cmp : K -> K -> Z).
  Notation tree := (tree K V).
  Implicit Types (t l r : tree).

  Lemma put_wild shift hit k v t : 0 <= shift -> sized t ->
    exists t' res, put cmp shift hit k v t = Some (t', res) /\ sized t' /\
      match res with Some _ => added (k, v) (elems t) (elems t') | None => exists e, cmp k (fst e) = 0 /\ swapped e (hit e) (elems t) (elems t') end.
  Proof.
    intros Hsh. induction t as [|s k0 v0 l IHl r IHr]; intros Ht; cbn [put].
    - eexists _, _. split; [reflexivity|]. cbn [sized elems app]. split; [repeat split|]. exists [], []. auto.
    - destruct Ht as (Hs & Hl & Hr). destruct (Z.ltb_spec (cmp k k0) 0) as [H|H]; [|destruct (cmp k k0 >? 0) eqn:Hg].
      + destruct (IHl Hl) as (l' & res & -> & Z' & X). destruct res as [c|].
        * destruct (fixPut_ok shift c s k0 v0 l' r Hsh Z' Hr) as (t' & c' & -> & E1 & E2); [apply added_len in X; unfold len; lia|].
          eexists _, _. split; [reflexivity|]. split; [exact E2|]. rewrite E1. cbn [elems]. apply added_left, X.
        * destruct X as (e & He & X). eexists _, _. split; [reflexivity|]. split.
          -- apply node_sized; auto. unfold len. rewrite (swapped_len _ _ _ _ X). exact Hs.
          -- exists e. split; [exact He|]. cbn [elems]. apply swapped_left, X.
      + destruct (IHr Hr) as (r' & res & -> & Z' & X). destruct res as [c|].
        * destruct (fixPut_ok shift c s k0 v0 l r' Hsh Hl Z') as (t' & c' & -> & E1 & E2); [apply added_len in X; unfold len; lia|].
          eexists _, _. split; [reflexivity|]. split; [exact E2|]. rewrite E1. cbn [elems]. apply added_right, X.
        * destruct X as (e & He & X). eexists _, _. split; [reflexivity|]. split.
          -- apply node_sized; auto. unfold len. rewrite (swapped_len _ _ _ _ X). exact Hs.
          -- exists e. split; [exact He|]. cbn [elems]. apply swapped_right, X.
      + destruct (hit (k0, v0)) as (k', v') eqn:Eh. eexists _, _. split; [reflexivity|]. split; [apply node_sized; auto|].
        exists (k0, v0). cbn [fst]. split; [lia|]. rewrite Eh. cbn [elems]. apply swapped_mid.
  Qed.
  Lemma Put_wild shift k v t : 0 <= shift -> sized t -> exists t' b, Put cmp shift k v t = Some (t', b) /\ sized t' /\
    if b then added (k, v) (elems t) (elems t') else elems t' = elems t /\ exists e, In e (elems t) /\ cmp k (fst e) = 0.
  Proof.
    intros Hsh Ht. destruct (put_wild shift (fun e => e) k v t Hsh Ht) as (t' & res & E1 & E2 & X). unfold Put. rewrite E1. eexists _, _. split; [reflexivity|].
    split; [exact E2|]. destruct res; [exact X|]. destruct X as (e & He & X). apply swapped_same in X as (X1 & X2). eauto.
  Qed.
  Lemma Set_wild shift k v t : 0 <= shift -> sized t -> exists t' b, Set_ cmp shift k v t = Some (t', b) /\ sized t' /\
    (b = (match elems t with [] => true | _ => false end) /\ added (k, v) (elems t) (elems t') \/
     b = true /\ exists e, cmp k (fst e) = 0 /\ swapped e (k, v) (elems t) (elems t')).
  Proof.
    intros Hsh Ht. unfold Set_. destruct t as [|s k0 v0 l r] eqn:Et.
    - eexists _, _. split; [reflexivity|]. cbn [sized elems app]. split; [repeat split|]. left. split; [reflexivity|]. exists [], []. auto.
    - rewrite <- Et in *. destruct (put_wild shift (fun _ => (k, v)) k v t Hsh Ht) as (t' & res & E1 & E2 & X). rewrite E1. eexists _, _. split; [reflexivity|].
      split; [exact E2|]. destruct res; [left|right; auto]. split; [|exact X]. rewrite Et. cbn [elems]. destruct (elems l); reflexivity.
  Qed.
  Lemma getNode_wild k t : match getNode cmp k t with E => True | N _ k0 v0 _ _ => cmp k k0 = 0 /\ In (k0, v0) (elems t) end.
  Proof.
    induction t as [|s k0 v0 l IHl r IHr]; cbn [getNode elems]; [exact I|].
    destruct (Z.ltb_spec (cmp k k0) 0) as [H|H]; [|destruct (cmp k k0 >? 0) eqn:Hg].
    - destruct (getNode cmp k l); [exact I|]. rewrite in_app_iff. tauto.
    - destruct (getNode cmp k r); [exact I|]. rewrite in_app_iff. cbn [In]. tauto.
    - split; [lia|]. rewrite in_app_iff. cbn [In]. auto.
  Qed.
  Lemma setValue_wild k v t : sized t -> getNode cmp k t <> E ->
    sized (setValue cmp k v t) /\ exists e, cmp k (fst e) = 0 /\ swapped e (fst e, v) (elems t) (elems (setValue cmp k v t)).
  Proof.
    induction t as [|s k0 v0 l IHl r IHr]; cbn [getNode setValue]; [congruence|]. intros (Hs & Hl & Hr).
    destruct (Z.ltb_spec (cmp k k0) 0) as [H|H]; [|destruct (cmp k k0 >? 0) eqn:Hg]; intros Hn.
    - destruct (IHl Hl Hn) as (Z' & e & He & X). split; [apply node_sized; auto; unfold len; rewrite (swapped_len _ _ _ _ X); exact Hs|].
      exists e. split; [exact He|]. cbn [elems]. apply swapped_left, X.
    - destruct (IHr Hr Hn) as (Z' & e & He & X). split; [apply node_sized; auto; unfold len; rewrite (swapped_len _ _ _ _ X); exact Hs|].
      exists e. split; [exact He|]. cbn [elems]. apply swapped_right, X.
    - split; [apply node_sized; auto|]. exists (k0, v0). cbn [fst elems]. split; [lia|apply swapped_mid].
  Qed.
  Lemma Upsert_wild shift k v t : 0 <= shift -> sized t -> exists t' b, Upsert cmp shift k v t = Some (t', b) /\ sized t' /\
    (b = false /\ added (k, v) (elems t) (elems t') \/ b = true /\ exists e, cmp k (fst e) = 0 /\ swapped e (fst e, v) (elems t) (elems t')).
  Proof.
    intros Hsh Ht. unfold Upsert. pose proof (setValue_wild k v t Ht) as S. destruct (getNode cmp k t) as [|s0 k0 v0 l0 r0] eqn:G.
    - (* getNode and put take the same way *)
      destruct (put_wild shift (fun e => e) k v t Hsh Ht) as (t' & res & E1 & E2 & X).
      assert (Hres : exists c, res = Some c).
      { clear - G E1. revert t' res G E1. induction t as [|s k0 v0 l IHl r IHr]; intros t' res; cbn [getNode put]; [intros _ H; injection H as <- <-; eauto|].
        destruct (cmp k k0 <? 0); [|destruct (cmp k k0 >? 0); [|discriminate]]; intros G E1.
        - destruct (put cmp shift _ k v l) as [(l', res')|]; [|discriminate]. destruct (IHl l' res' G eq_refl) as (c & ->).
          destruct (fixPut shift c _) as [(t1, c1)|]; [|discriminate]. injection E1 as <- <-. eauto.
        - destruct (put cmp shift _ k v r) as [(r', res')|]; [|discriminate]. destruct (IHr r' res' G eq_refl) as (c & ->).
          destruct (fixPut shift c _) as [(t1, c1)|]; [|discriminate]. injection E1 as <- <-. eauto. }
      destruct Hres as (c & ->). unfold Put. rewrite E1. eexists _, _. split; [reflexivity|]. split; [exact E2|]. left. auto.
    - destruct S as (S1 & S2); [discriminate|]. eexists _, _. split; [reflexivity|]. split; [exact S1|]. right. auto.
  Qed.
  Lemma removeKey_wild k t : sized t -> exists t' res, removeKey cmp k t = Some (t', res) /\ sized t' /\
    match res with None => elems t' = elems t | Some v => exists e, cmp k (fst e) = 0 /\ dropped e (elems t) (elems t') /\ snd e = v end.
  Proof.
    induction t as [|s k0 v0 l IHl r IHr]; intros Ht; cbn [removeKey]; [eexists _, _; split; [reflexivity|]; cbn; auto|].
    pose proof Ht as (Hs & Hl & Hr). destruct (Z.ltb_spec (cmp k k0) 0) as [H|H]; [|destruct (cmp k k0 >? 0) eqn:Hg].
    - destruct (IHl Hl) as (l' & res & -> & Z' & X). eexists _, _. split; [reflexivity|]. destruct res as [v|].
      + destruct X as (e & He & X & Ev). split; [apply node_sized; auto; apply added_len in X; unfold len; lia|]. exists e. split; [exact He|]. split; [|exact Ev].
        cbn [elems]. apply added_left, X.
      + split; [apply node_sized; auto; unfold len; rewrite X; exact Hs|]. cbn [elems]. rewrite X. reflexivity.
    - destruct (IHr Hr) as (r' & res & -> & Z' & X). eexists _, _. split; [reflexivity|]. destruct res as [v|].
      + destruct X as (e & He & X & Ev). split; [apply node_sized; auto; apply added_len in X; unfold len; lia|]. exists e. split; [exact He|]. split; [|exact Ev].
        cbn [elems]. apply added_right, X.
      + split; [apply node_sized; auto; unfold len; rewrite X; exact Hs|]. cbn [elems]. rewrite X. reflexivity.
    - destruct (removeNode_ok s k0 v0 l r Ht) as (t' & -> & E1 & E2). eexists _, _. split; [reflexivity|]. split; [exact E2|].
      exists (k0, v0). cbn [fst snd]. split; [lia|]. split; [|reflexivity]. exists (elems l), (elems r). auto.
  Qed.
  Lemma indexOf_wild k t : forall b, sized t ->
    indexOfLoop cmp k (b + kidSize false t) t = -1 \/
    exists e, entry_at (elems t) (Some (indexOfLoop cmp k (b + kidSize false t) t - b)) = Some e /\ cmp k (fst e) = 0.
  Proof.
    induction t as [|s k0 v0 l IHl r IHr]; intros b Ht; cbn [indexOfLoop]; [auto|]. pose proof Ht as (Hs & Hl & Hr).
    assert (Hi : forall (m : list (K * V)) i e, entry_at m (Some i) = Some e -> 0 <= i < len m).
    { intros m i e Hm. destruct (Z.lt_ge_cases i 0); [|destruct (Z.lt_ge_cases i (len m)); [lia|]]; rewrite entry_at_none in Hm by lia; discriminate. }
    destruct (Z.ltb_spec (cmp k k0) 0) as [H|H]; [|destruct (cmp k k0 >? 0) eqn:Hg].
    - destruct l as [|ls lk lv ll lr] eqn:El; [auto|]. rewrite <- El in *. rewrite (left_pos b s k0 v0 l r Ht) by (subst; congruence).
      destruct (IHl b Hl) as [IH|(e & IH & He)]; [auto|]. right. exists e. split; [|exact He]. cbn [elems]. rewrite entry_at_left; [exact IH|]. apply Hi in IH. lia.
    - rewrite (right_pos b s k0 v0 l r Ht). destruct (IHr (b + len (elems l) + 1) Hr) as [IH|(e & IH & He)]; [auto|]. right. exists e. split; [|exact He].
      cbn [elems]. pose proof (Hi _ _ _ IH). rewrite entry_at_right by lia. rewrite <- IH. f_equal. f_equal. lia.
    - right. exists (k0, v0). cbn [fst elems]. split; [|lia]. rewrite (kid_left _ _ _ _ _ Hl), Z.add_comm, Z.add_simpl_r. apply entry_at_mid.
  Qed.
  Lemma ltrim_wild low t : sized t -> sized (ltrim cmp low t) /\ thinned (elems t) (elems (ltrim cmp low t)).
  Proof.
    induction t as [|s k v l IHl r IHr]; cbn [ltrim]; intros Ht; [split; [exact I|constructor]|]. destruct Ht as (_ & Hl & Hr). cbn [elems]. destruct (cmp low k >? 0).
    - destruct (IHr Hr) as (Z' & X). split; [apply sum_sized; auto|]. rewrite sum_elems. apply thin_mid; [apply thin_refl|exact X].
    - destruct (IHl Hl) as (Z' & X). split; [exact Z'|]. apply thin_left, X.
  Qed.
  Lemma rtrim_wild high t : sized t -> sized (rtrim cmp high t) /\ thinned (elems t) (elems (rtrim cmp high t)).
  Proof.
    induction t as [|s k v l IHl r IHr]; cbn [rtrim]; intros Ht; [split; [exact I|constructor]|]. destruct Ht as (_ & Hl & Hr). cbn [elems]. destruct (cmp high k <? 0).
    - destruct (IHl Hl) as (Z' & X). split; [apply sum_sized; auto|]. rewrite sum_elems. apply thin_mid; [exact X|apply thin_refl].
    - destruct (IHr Hr) as (Z' & X). split; [exact Z'|]. apply thin_right, X.
  Qed.
  Lemma removeRange_wild lo hi t : sized t -> exists t' c, removeRange cmp lo hi t = Some (t', c) /\ sized t' /\ thinned (elems t) (elems t') /\
    cutOk c (len (elems t)) (len (elems t')).
  Proof.
    induction t as [|s k v l IHl r IHr]; cbn [removeRange]; intros Ht; [eexists _, _; split; [reflexivity|]; cbn; repeat split; constructor|].
    pose proof Ht as (Hs & Hl & Hr). destruct (_ && _); [|destruct (_ && _)].
    - destruct (IHl Hl) as (l' & c & -> & Z' & X & C). destruct (up_left c s k v l l' r Ht Z' C) as (U1 & U2 & U3). eexists _, _. split; [reflexivity|].
      split; [exact U1|]. split; [|exact U3]. rewrite U2. cbn [elems]. apply thin_mid; [exact X|apply thin_refl].
    - destruct (IHr Hr) as (r' & c & -> & Z' & X & C). destruct (up_right c s k v l r r' Ht Z' C) as (U1 & U2 & U3). eexists _, _. split; [reflexivity|].
      split; [exact U1|]. split; [|exact U3]. rewrite U2. cbn [elems]. apply thin_mid; [apply thin_refl|exact X].
    - destruct (ltrim_wild lo l Hl) as (L1 & L2). destruct (rtrim_wild hi r Hr) as (R1 & R2).
      destruct (closeCut_ok (N s k v l r) _ _ Ht L1 R1) as (t' & c & X & X2 & X3 & X4). cbn [getSize] in X. rewrite X. eexists _, _. split; [reflexivity|].
      split; [exact X3|]. split; [|exact X4]. rewrite X2. cbn [elems]. apply thin_out; assumption.
  Qed.
  Lemma RemoveRange_wild lo hi t : sized t -> if cmp lo hi >? 0 then RemoveRange cmp lo hi t = None else
    exists t', RemoveRange cmp lo hi t = Some t' /\ sized t' /\
      if cmp lo hi =? 0 then elems t' = elems t \/ exists e, cmp lo (fst e) = 0 /\ dropped e (elems t) (elems t') else thinned (elems t) (elems t').
  Proof.
    intros Ht. unfold RemoveRange. destruct (cmp lo hi >? 0); [reflexivity|]. destruct (cmp lo hi =? 0).
    - destruct (removeKey_wild lo t Ht) as (t' & res & -> & Z' & X). eexists. split; [reflexivity|]. split; [exact Z'|]. destruct res; [|auto].
      destruct X as (e & He & X & _). eauto.
    - destruct (removeRange_wild lo hi t Ht) as (t' & c & -> & Z' & X & _). eauto.
  Qed.
  Lemma keepFrom_wild low t : thinned (elems t) (elems (keepFrom cmp low t)).
  Proof.
    induction t as [|s k v l IHl r IHr]; cbn [keepFrom elems]; [constructor|]. destruct (cmp low k >? 0); [apply thin_right, IHr|]. destruct (cmp low k <? 0).
    - rewrite sum_elems. apply thin_mid; [exact IHl|apply thin_refl].
    - cbn [elems]. apply thin_mid; [apply thin_none|apply thin_refl].
  Qed.
  Lemma keepTo_wild high t : thinned (elems t) (elems (keepTo cmp high t)).
  Proof.
    induction t as [|s k v l IHl r IHr]; cbn [keepTo elems]; [constructor|]. destruct (cmp high k <? 0); [apply thin_left, IHl|]. destruct (cmp high k >? 0).
    - rewrite sum_elems. apply thin_mid; [apply thin_refl|exact IHr].
    - cbn [elems]. apply thin_mid; [apply thin_refl|apply thin_none].
  Qed.
  Lemma thin_trans {X : Type} (a b c : list X) : thinned a b -> thinned b c -> thinned a c.
  Proof. intros H. revert c. induction H; intros c Hc; [exact Hc|inversion Hc; subst; constructor; auto|constructor; auto]. Qed.
  Lemma Trim_wild lo hi t : thinned (elems t) (elems (leaveTo cmp hi (leaveFrom cmp lo (getRangeRoot cmp lo hi t)))).
  Proof.
    apply (thin_trans _ (elems (getRangeRoot cmp lo hi t))); [|apply (thin_trans _ (elems (leaveFrom cmp lo (getRangeRoot cmp lo hi t))))].
    - induction t as [|s k v l IHl r IHr]; cbn [getRangeRoot elems]; [constructor|]. destruct (negb _); [apply thin_refl|].
      destruct (_ <? 0); [apply thin_left, IHl|]. destruct (_ >? 0); [apply thin_right, IHr|apply thin_refl].
    - induction (getRangeRoot cmp lo hi t) as [|s k v l IHl r IHr]; [constructor|]. cbn [leaveFrom]. destruct (cmp lo k >? 0); [|apply keepFrom_wild].
      cbn [elems]. apply thin_mid; [apply thin_refl|exact IHr].
    - induction (leaveFrom cmp lo (getRangeRoot cmp lo hi t)) as [|s k v l IHl r IHr]; [constructor|]. cbn [leaveTo]. destruct (cmp hi k <? 0); [|apply keepTo_wild].
      cbn [elems]. apply thin_mid; [exact IHl|apply thin_refl].
  Qed.
  Lemma splitBelow_wild contain k t : sized t -> let '(a, b) := splitBelow cmp contain k t in sized a /\ sized b /\ parted (elems t) (elems a) (elems b).
  Proof.
    induction t as [|s k0 v0 l IHl r IHr]; cbn [splitBelow]; intros Ht; [cbn; repeat split; constructor|]. destruct Ht as (Hs & Hl & Hr).
    destruct (cmp k0 k >? 0); [|destruct (cmp k0 k <? 0); [|destruct contain]].
    - specialize (IHl Hl). destruct (splitBelow cmp contain k l) as (a, b). destruct IHl as (I1 & I2 & I3). split; [exact I1|]. split; [apply sum_sized; auto|].
      rewrite sum_elems. cbn [elems]. apply part_behind, I3.
    - specialize (IHr Hr). destruct (splitBelow cmp contain k r) as (a, b). destruct IHr as (I1 & I2 & I3). split; [apply sum_sized; auto|]. split; [exact I2|].
      rewrite sum_elems. cbn [elems]. apply part_before, I3.
    - rewrite (size_len l Hl). split; [apply node_sized; cbn [sized elems len length]; auto; unfold len; cbn; lia|]. split; [exact Hr|]. cbn [elems].
      apply part_before, part_none.
    - rewrite (size_len r Hr). split; [exact Hl|]. split; [apply node_sized; cbn [sized elems]; auto; unfold len; cbn; lia|]. cbn [elems app].
      rewrite <- (app_nil_r (elems l)) at 2. change ((k0, v0) :: elems r) with ([] ++ (k0, v0) :: elems r) at 2. apply part_app; [apply part_all|apply part_none].
  Qed.
  Lemma splitRun_wild contain run k t : sized t ->
    match splitRun cmp contain run k t with None => True | Some (a, b) => sized a /\ sized b /\ parted (elems t) (elems a) (elems b) end.
  Proof.
    induction t as [|s k0 v0 l IHl r IHr]; cbn [splitRun]; intros Ht; [exact I|]. destruct Ht as (Hs & Hl & Hr).
    pose proof (splitBelow_wild contain k l Hl) as Bl. pose proof (splitBelow_wild contain k r Hr) as Br. specialize (IHl Hl). specialize (IHr Hr).
    destruct (goesLeft cmp contain k k0), run.
    - destruct (splitRun cmp contain true k r) as [(a, b)|]; [|exact I]. destruct IHr as (I1 & I2 & I3). split; [apply sum_sized; auto|]. split; [exact I2|].
      rewrite sum_elems. cbn [elems]. apply part_before, I3.
    - destruct (splitBelow cmp contain k r) as (a, b). destruct Br as (I1 & I2 & I3). split; [apply sum_sized; auto|]. split; [exact I2|].
      rewrite sum_elems. cbn [elems]. apply part_before, I3.
    - destruct (splitBelow cmp contain k l) as (a, b). destruct Bl as (I1 & I2 & I3). split; [exact I1|]. split; [apply sum_sized; auto|].
      rewrite sum_elems. cbn [elems]. apply part_behind, I3.
    - destruct (splitRun cmp contain false k l) as [(a, b)|]; [|exact I]. destruct IHl as (I1 & I2 & I3). split; [exact I1|]. split; [apply sum_sized; auto|].
      rewrite sum_elems. cbn [elems]. apply part_behind, I3.
  Qed.
  Lemma Split_wild contain k t : sized t -> match elems t with
    | [] => Split cmp contain k t = None
    | _ => exists a b, Split cmp contain k t = Some (a, b) /\ sized a /\ sized b /\ parted (elems t) (elems a) (elems b) end.
  Proof.
    intros Ht. destruct t as [|s k0 v0 l r] eqn:Et; [reflexivity|]. rewrite <- Et in *.
    assert (He : elems t <> []) by (rewrite Et; cbn [elems]; destruct (elems l); discriminate). destruct (elems t) as [|e0 m0] eqn:Ee; [congruence|]. rewrite <- Ee in *. clear He.
    assert (Es : Split cmp contain k t = if goesLeft cmp contain k k0
      then match splitRun cmp contain true k t with None => Some (t, E) | Some p => Some p end
      else match splitRun cmp contain false k t with None => Some (E, t) | Some p => Some p end) by (rewrite Et; reflexivity).
    rewrite Es. pose proof (splitRun_wild contain true k t Ht) as X. pose proof (splitRun_wild contain false k t Ht) as Y. destruct (goesLeft cmp contain k k0).
    - destruct (splitRun cmp contain true k t) as [(a, b)|]; [eauto|]. exists t, E. split; [reflexivity|]. cbn [sized elems]. auto using part_all.
    - destruct (splitRun cmp contain false k t) as [(a, b)|]; [eauto|]. exists E, t. split; [reflexivity|]. cbn [sized elems]. auto using part_none.
  Qed.

  Lemma trimAt_beyond low high t : low <= high -> forall b, sized t -> b + len (elems t) <= high -> exists t', trimAt low high (b + kidSize false t) t = Broken t'.
  Proof.
    intros Hlh. induction t as [|s k v l IHl r IHr]; intros b Ht Hh; [eexists; reflexivity|].
    pose proof Ht as (Hs & Hl & Hr). pose proof (kid_left s k v l r Hl) as Ek.
    pose proof (len_nonneg (elems l)) as Pl. pose proof (len_nonneg (elems r)) as Pr. pose proof (len_mid (elems l) (k, v) (elems r)) as EM.
    change (elems l ++ (k, v) :: elems r) with (elems (N s k v l r)) in EM.
    cbn [trimAt]. destruct ((_ >? low) && _) eqn:E1; [apply andb_true_iff in E1; lia|]. destruct ((_ <? high) && _) eqn:E2.
    - rewrite right_pos by auto. destruct (IHr (b + len (elems l) + 1) Hr) as (r' & ->); [lia|]. eauto.
    - apply andb_false_iff in E1, E2. destruct (Z.lt_ge_cases low b) as [H3|H3].
      { rewrite keepFromAt_none; auto; [eauto|congruence]. }
      destruct (keepFromAt_ok low (N s k v l r) b Ht) as (t1 & F1 & F2 & F3); [lia|]. rewrite F1.
      destruct (keepFromAt_root low s k v l r b t1 Ht) as (R1 & R2); auto; [lia|]. rewrite <- R1.
      rewrite keepToAt_none; auto; [eauto|]. rewrite F2. unfold len in *. rewrite skipn_length. lia.
  Qed.
End Tree.

Section Steps.
  Context {K A : Type} (cmp : K -> K -> Z) (shift : Z) (Hsh : 0 <= shift).
  Notation tree := (tree K (option A)).
  Notation step := (@step K A cmp shift).

  Lemma step_wild t o : sized t -> may cmp (elems t) o (elems (fst (step t o))) (snd (step t o)) /\ (no_trim o (snd (step t o)) -> sized (fst (step t o))).
  Proof.
    intros Ht.
    assert (Hall : forall go (u : tree), fst (traverse go u []) = visit go [] (elems u)) by (intros go u; destruct (traverse_ok go u []) as (X & _); exact X).
    assert (Hev : forall u : tree, fst (traverse (fun _ => true) u []) = elems u) by (intros u; rewrite Hall; exact (visit_all (elems u) [])).
    destruct o; cbn [IndexModel.step may no_trim].
    - destruct (Put_wild cmp shift k v t Hsh Ht) as (t' & b & -> & Z' & X). cbn [orPanic fst snd]. split; [|auto]. destruct b; [auto|]. right. tauto.
    - destruct (Put_wild cmp shift k v t Hsh Ht) as (t' & b & -> & Z' & X). cbn [orPanic fst snd]. split; [|auto]. destruct b; [auto|]. right. tauto.
    - destruct (Set_wild cmp shift k v t Hsh Ht) as (t' & b & -> & Z' & X). cbn [orPanic fst snd]. split; [|auto]. destruct X as [(-> & X)|(-> & X)]; auto.
    - destruct (Upsert_wild cmp shift k v t Hsh Ht) as (t' & b & -> & Z' & X). cbn [orPanic fst snd]. split; [|auto]. destruct X as [(-> & X)|(-> & X)]; auto.
    - pose proof (getNode_wild cmp k t) as X. cbn [fst snd]. split; [|auto]. split; [reflexivity|]. destruct (getNode cmp k t) as [|s0 k0 v0 l0 r0]; [auto|].
      right. exists (k0, v0). cbn [fst snd]. tauto.
    - destruct (removeKey_wild cmp k t Ht) as (t' & res & -> & Z' & X). cbn [orPanic fst snd]. split; [|auto]. destruct res as [v|]; [|auto].
      right. destruct X as (e & He & X & <-). eauto.
    - destruct (removeKey_wild cmp k t Ht) as (t' & res & -> & Z' & X). cbn [orPanic fst snd]. split; [|auto]. destruct res as [v|]; [|auto].
      right. destruct X as (e & He & X & <-). exists e. split; [exact He|]. split; [exact X|]. destruct (snd e); reflexivity.
    - cbn [fst snd]. rewrite (size_len t Ht). auto.
    - cbn [fst snd]. rewrite (size_len t Ht). auto.
    - cbn. auto.
    - cbn [fst snd]. unfold Values. rewrite Hev. auto.
    - cbn [fst snd]. rewrite Hall. auto.
    - rewrite (index_ok i t Ht). destruct (entry_at (elems t) (Some i)) as [(k, v)|]; cbn [orPanic fst snd]; auto.
    - cbn [fst snd]. split; [|auto]. split; [reflexivity|]. unfold IndexOf. destruct (indexOf_wild cmp k t 0 Ht) as [X|(e & X & He)]; rewrite Z.add_0_l in X.
      + rewrite X. auto.
      + right. rewrite Z.sub_0_r in X. eauto.
    - unfold RemoveIndex. pose proof (removeIndexLoop_ok i t 0 Ht) as X. rewrite Z.add_0_l, Z.sub_0_r in X.
      destruct (entry_at (elems t) (Some i)) as [e|].
      + destruct X as (t' & -> & X1 & X2). cbn [orPanic fst snd]. auto.
      + rewrite X. cbn [orPanic fst snd]. auto.
    - pose proof (RemoveRange_wild cmp lo hi t Ht) as X. destruct (cmp lo hi >? 0); [rewrite X; cbn [orPanic fst snd]; auto|].
      destruct X as (t' & -> & Z' & X). cbn [orPanic fst snd]. split; [|auto]. destruct (cmp lo hi =? 0); auto.
    - unfold RemoveRangeByIndex. rewrite Z.gtb_ltb. destruct (Z.ltb_spec j i); [cbn [orPanic fst snd]; auto|].
      pose proof (removeRangeAt_ok i j t H 0 Ht) as X. rewrite !Z.add_0_l in X.
      destruct ((j <? 0) || _ || _).
      + rewrite X. cbn [orPanic fst snd]. auto.
      + destruct X as (t' & c & -> & X1 & X2 & _). rewrite !Z.sub_0_r in X1. cbn [orPanic fst snd]. auto.
    - unfold Trim. destruct (cmp lo hi >? 0); cbn [orPanic fst snd]; [tauto|]. split; [|tauto]. split; [reflexivity|apply Trim_wild].
    - unfold TrimByIndex. rewrite Z.gtb_ltb. destruct (Z.ltb_spec j i); cbn [orb]; [cbn [fst snd]; auto|].
      destruct (trimAt_ok i j t H 0 Ht) as (X1 & X2). rewrite !Z.add_0_l, ?Z.sub_0_r in X1, X2.
      destruct ((i <? 0) || (len (elems t) <=? j)) eqn:Eo.
      + apply orb_true_iff in Eo. split.
        * destruct (Z.lt_ge_cases i 0) as [Hi|Hi].
          -- destruct X2 as (t' & -> & X3 & X4); [lia|lia|]. cbn [fst snd]. auto.
          -- destruct (trimAt_beyond cmp i j t H 0 Ht ltac:(lia)) as (t' & Eb). rewrite Z.add_0_l in Eb. rewrite Eb in *. cbn [fst snd]. split; [reflexivity|]. intros Hn.
             destruct X2 as (t2 & E2 & X3 & _); [lia|lia|]. injection E2 as ->. exact X3.
        * destruct (Z.lt_ge_cases i 0) as [Hi|Hi].
          -- destruct X2 as (t' & -> & X3 & X4); [lia|lia|]. cbn [fst snd]. auto.
          -- destruct (trimAt_beyond cmp i j t H 0 Ht ltac:(lia)) as (t' & Eb). rewrite Z.add_0_l in Eb. rewrite Eb in *. cbn [fst snd]. intros []. reflexivity.
      + apply orb_false_iff in Eo. destruct X1 as (t' & -> & X3 & X4); [lia|]. cbn [fst snd orb]. rewrite X3, Z.sub_0_r. auto.
    - pose proof (Split_wild cmp contain k t Ht) as X. destruct (elems t) as [|e0 m0] eqn:Ee.
      + rewrite X. cbn [fst snd]. rewrite Ee. auto.
      + destruct X as (a & b & -> & Za & Zb & X). destruct rgt; cbn [fst snd]; rewrite Hev; split; eauto.
  Qed.
End Steps.
