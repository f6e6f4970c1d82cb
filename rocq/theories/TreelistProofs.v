(** Tree lists: every operation keeps the entries in order, the sizes exact and the thread in step. *)
From Verif Require Import Base Bind Machine OrderSpec SMapSpec SMapFacts AvlTree AvlSpec AvlModel AvlProofs AvlAny IndexSpec IndexModel IndexProofs
  TreelistSpec TreelistModel TreelistLinks.
Local Open Scope Z_scope.

(** ** keys and values of entries that carry a node number *)
Section Plain.
  Context {K V : Type} (ltb : K -> K -> bool).
  Notation node := (nat * V)%type.
  Implicit Types (m : list (K * node)).
  Definition pk : list (K * node) -> list (K * V) := map plainKV.
  Definition ids : list (K * node) -> list nat := map (fun en => fst (snd en)).

  Lemma pk_app m m' : pk (m ++ m') = pk m ++ pk m'. Proof. apply map_app. Qed.
  Lemma ids_app m m' : ids (m ++ m') = ids m ++ ids m'. Proof. apply map_app. Qed.
  Lemma pk_cons x m : pk (x :: m) = plainKV x :: pk m. Proof. reflexivity. Qed.
  Lemma ids_cons x m : ids (x :: m) = fst (snd x) :: ids m. Proof. reflexivity. Qed.
  Lemma pk_filter f m : filter (fun e => f (fst e)) (pk m) = pk (filter (fun e => f (fst e)) m).
  Proof. induction m as [|x m IH]; [reflexivity|]. cbn. destruct (f (fst x)); cbn; rewrite <- IH; reflexivity. Qed.
  Lemma pk_before k m : before ltb k (pk m) = pk (before ltb k m). Proof. exact (pk_filter (fun a => ltb a k) m). Qed.
  Lemma pk_after k m : after ltb k (pk m) = pk (after ltb k m). Proof. exact (pk_filter (fun a => ltb k a) m). Qed.
  Lemma pk_sames k m : sames ltb k (pk m) = pk (sames ltb k m). Proof. exact (pk_filter (fun a => same ltb a k) m). Qed.
  Lemma pk_len m : len (pk m) = len m. Proof. unfold len, pk. rewrite map_length. reflexivity. Qed.
  Lemma pk_write k x m : write ltb k (plainKV x) (pk m) = pk (write ltb k x m).
  Proof. unfold write. rewrite pk_before, pk_after, pk_app, pk_cons. reflexivity. Qed.
  Lemma pk_erase k m : erase ltb k (pk m) = pk (erase ltb k m).
  Proof. unfold erase. rewrite pk_before, pk_after, pk_app. reflexivity. Qed.
  Lemma pk_entry_at m p : entry_at (pk m) p = option_map plainKV (entry_at m p).
  Proof. destruct p as [i|]; [|reflexivity]. cbn. rewrite pk_len. destruct (_ && _); [|reflexivity]. apply nth_error_map. Qed.
  Lemma pk_firstn n m : firstn n (pk m) = pk (firstn n m). Proof. apply firstn_map. Qed.
  Lemma pk_skipn n m : skipn n (pk m) = pk (skipn n m).
  Proof. revert m. induction n as [|n IH]; intros [|x m]; cbn; auto. Qed.
  Lemma pk_hd m : hd_error (pk m) = option_map plainKV (hd_error m). Proof. destruct m; reflexivity. Qed.
  Lemma pk_last m : last_error (pk m) = option_map plainKV (last_error m).
  Proof. unfold last_error, pk. rewrite <- map_rev. apply pk_hd. Qed.
  Lemma ids_hd m : hd_error (ids m) = option_map (fun e => fst (snd e)) (hd_error m). Proof. destruct m; reflexivity. Qed.
  Lemma ids_last m : last_error (ids m) = option_map (fun e => fst (snd e)) (last_error m).
  Proof. unfold last_error, ids. rewrite <- map_rev. apply ids_hd. Qed.
  Lemma pk_visit go m : forall seen, visit go (pk seen) (pk m) = pk (visit (fun s => go (pk s)) seen m).
  Proof.
    induction m as [|x m IH]; intros seen; [reflexivity|]. cbn [pk map visit]. change (map plainKV m) with (pk m).
    rewrite pk_app. change (pk [x]) with [@plainKV K V x]. destruct (go (pk seen ++ [plainKV x])); [|rewrite pk_app; reflexivity].
    rewrite <- IH, pk_app. reflexivity.
  Qed.
  Lemma pk_sorted m : strictly_sorted ltb (pk m) <-> strictly_sorted ltb m.
  Proof.
    unfold strictly_sorted. induction m as [|x m IH]; [split; constructor|]. rewrite pk_cons. split; intros H; inversion_clear H; constructor; try tauto.
    - rewrite Forall_forall in *. intros y Hy. apply (H1 (plainKV y)). apply in_map. exact Hy.
    - rewrite Forall_forall in *. intros y Hy. apply in_map_iff in Hy. destruct Hy as (z & <- & Hz). apply (H1 z Hz).
  Qed.
  Lemma pk_nil m : pk m = [] <-> m = []. Proof. destruct m; split; intros H; auto; discriminate. Qed.
End Plain.

Section Shapes.
  Context {K V : Type}.
  Notation node := (nat * V)%type.
  Notation tree := (tree K node).
  Implicit Types (t l r : tree).

  (** ** Put *)
  Lemma bottom_pos h : 2 <= h <= 62 -> 0 < bottomsize h.
  Proof.
    intros H. assert (X : forallb (fun n => 0 <? bottomsize (Z.of_nat n)) (seq 2 61) = true) by (vm_compute; reflexivity).
    rewrite forallb_forall in X. specialize (X (Z.to_nat h)). rewrite Z2Nat.id in X by lia. apply Z.ltb_lt, X.
    apply in_seq. lia.
  Qed.
  Definition climbOk (n : Z) (c : climb) : Prop :=
    match c with First => 1 <= n | Height h => 2 <= h <= n | Sizes => True | Broken => 65 <= n end.

  Lemma fixPut_fine n c s k v l r : climbOk n c -> (c = Broken \/ (sized l /\ sized r /\ s = len (elems l) + len (elems r))) ->
    exists t c', fixPut c (N s k v l r) = Some (t, c') /\ elems t = elems l ++ (k, v) :: elems r /\ climbOk (n + 1) c' /\ (c' = Broken \/ sized t).
  Proof.
    intros Hc Hz0. assert (Hd : c = Broken \/ c <> Broken) by (destruct c; auto; right; discriminate).
    destruct Hd as [->|Hd].
    { eexists _, _. split; [reflexivity|]. cbn [elems climbOk] in *. split; auto. split; [lia|]. auto. }
    destruct Hz0 as [Hz0|(Hl & Hr & Hs)]; [congruence|].
    assert (Hz : sized (N (s + 1) k v l r)) by (apply node_sized; auto; lia).
    pose proof (size_nonneg _ Hl) as Pl. pose proof (size_nonneg _ Hr) as Pr.
    cbn [fixPut]. destruct c as [|h| |]; cbn [climbOk] in Hc; [| | |congruence].
    - eexists _, _. split; [reflexivity|]. split; auto. split; auto. destruct (s + 1 =? 3); cbn [climbOk]; lia.
    - destruct (Z.leb_spec 64 h).
      { eexists _, _. split; [reflexivity|]. split; auto. cbn [climbOk]. split; [lia|auto]. }
      assert (Hup : exists t c', Some (N (s + 1) k v l r, Height (h + 1)) = Some (t, c') /\
        elems t = elems l ++ (k, v) :: elems r /\ climbOk (n + 1) c' /\ (c' = Broken \/ sized t)).
      { eexists _, _. split; [reflexivity|]. cbn [climbOk]. split; auto. split; [lia|auto]. }
      destruct (Z.ltb_spec (s + 1) (shl64 h)) as [E1|]; [|exact Hup].
      assert (Hh : h <= 62).
      { destruct (Z.le_gt_cases h 62); auto. exfalso. replace h with 63 in E1 by lia.
        change (shl64 63) with (- 2 ^ 63) in E1. pose proof (len_nonneg (elems l)). pose proof (len_nonneg (elems r)). lia. }
      pose proof (bottom_pos h ltac:(lia)) as Hb. unfold getSize in *.
      destruct (Z.ltb_spec (IndexModel.getSize l - IndexModel.getSize r) 0).
      + destruct (_ <=? _) eqn:E2; [|exact Hup].
        destruct (double_right (s + 1) k v l r Hl Hr) as (t & E3 & E4 & E5 & _); [apply size_nonnil; lia|].
        unfold sizeRRotate, IndexModel.sizeRRotate. destruct r as [|rs rk rv rl rr]; [discriminate|]. rewrite E3.
        exists t, Sizes. cbn [climbOk]. auto.
      + destruct (Z.leb_spec (bottomsize h) (IndexModel.getSize l - IndexModel.getSize r)); [|exact Hup].
        destruct (double_left (s + 1) k v l r Hl Hr) as (t & E3 & E4 & E5 & _); [apply size_nonnil; lia|].
        unfold sizeLRotate, IndexModel.sizeLRotate. destruct l as [|ls lk lv ll lr]; [discriminate|]. rewrite E3.
        exists t, Sizes. cbn [climbOk]. auto.
    - eexists _, _. split; [reflexivity|]. cbn [climbOk]. auto.
  Qed.

  (** ** removing one node *)
  Lemma removeAt_none x t : ~ In x (ids (elems t)) -> removeAt x t = None.
  Proof.
    induction t as [|s k [i v] l IHl r IHr]; intros H; [reflexivity|]. cbn [elems] in H. rewrite ids_app, ids_cons, in_app_iff in H. cbn [In fst snd] in H.
    cbn [removeAt]. destruct (Nat.eqb_spec i x); [tauto|]. rewrite IHl, IHr by tauto. reflexivity.
  Qed.
  Lemma ids_split x (m : list (K * node)) : In x (ids m) -> exists P k v Q, m = P ++ (k, (x, v)) :: Q.
  Proof.
    intros H. apply in_map_iff in H. destruct H as ([k [i v]] & E1 & E2). cbn in E1. subst i.
    apply in_split in E2. destruct E2 as (P & Q & ->). eauto.
  Qed.

  Definition goneOk (x : nat) (how : gone) (P Q m' : list (K * node)) : Prop :=
    match how with
    | Leaf => m' = P ++ Q
    | TookPrev => exists P' k i v, P = P' ++ [(k, (i, v))] /\ m' = P' ++ (k, (x, v)) :: Q
    | TookNext => exists Q' k i v, Q = (k, (i, v)) :: Q' /\ m' = P ++ (k, (x, v)) :: Q'
    end.

  Lemma goneOk_len x how P k v Q m' : goneOk x how P Q m' -> len m' = len (P ++ (k, (x, v)) :: Q) - 1.
  Proof.
    unfold len. destruct how; cbn [goneOk].
    - intros ->. rewrite !app_length. cbn [length]. lia.
    - intros (P' & ? & ? & ? & -> & ->). rewrite !app_length. cbn [length]. lia.
    - intros (Q' & ? & ? & ? & -> & ->). rewrite !app_length. cbn [length]. lia.
  Qed.
  Lemma goneOk_left x how P Q m' y z : goneOk x how P Q m' -> goneOk x how P (Q ++ y :: z) (m' ++ y :: z).
  Proof.
    destruct how; cbn [goneOk].
    - intros ->. assoc. reflexivity.
    - intros (P' & ? & ? & ? & -> & ->). eexists _, _, _, _. split; [reflexivity|]. assoc. reflexivity.
    - intros (Q' & ? & ? & ? & -> & ->). eexists _, _, _, _. split; [reflexivity|]. assoc. reflexivity.
  Qed.
  Lemma goneOk_right x how P Q m' z : goneOk x how P Q m' -> goneOk x how (z ++ P) Q (z ++ m').
  Proof.
    destruct how; cbn [goneOk].
    - intros ->. assoc. reflexivity.
    - intros (P' & ? & ? & ? & -> & ->). eexists (z ++ P'), _, _, _. assoc. split; reflexivity.
    - intros (Q' & ? & ? & ? & -> & ->). eexists _, _, _, _. split; [reflexivity|]. assoc. reflexivity.
  Qed.

  Lemma removeAt_ok x t : sized t -> NoDup (ids (elems t)) -> forall P k v Q, elems t = P ++ (k, (x, v)) :: Q ->
    exists t' how, removeAt x t = Some (t', ((k, v), how)) /\ sized t' /\ goneOk x how P Q (elems t') /\
      (forall s k' v' l r, t = N s k' (x, v') l r -> how = Leaf -> P = [] /\ Q = []).
  Proof.
    induction t as [|s ck [i cv] l IHl r IHr]; intros Ht Hn P k v Q EQ; [destruct P; discriminate|].
    pose proof Ht as (Hs & Hl & Hr). pose proof (size_nonneg _ Hl) as Pl. pose proof (size_nonneg _ Hr) as Pr.
    cbn [elems] in EQ, Hn. rewrite ids_app, ids_cons in Hn. cbn [fst snd] in Hn.
    assert (Nl : NoDup (ids (elems l))) by (apply NoDup_app_remove_r in Hn; auto).
    assert (Nr : NoDup (ids (elems r))).
    { apply NoDup_app_remove_l in Hn. apply NoDup_cons_iff in Hn. tauto. }
    apply nodup_mid in Hn. destruct Hn as (N1 & N2 & N3).
    assert (D : forall y, In y (ids (elems l)) -> In y (ids (elems r)) -> False).
    { clear - N3. induction (ids (elems l)) as [|z a IH]; cbn [app] in N3; [intros y []|]. apply NoDup_cons_iff in N3. destruct N3 as (M1 & M2).
      intros y [->|Hy] Hb; [|exact (IH M2 y Hy Hb)]. apply M1. rewrite in_app_iff. auto. }
    cbn [removeAt]. destruct (Nat.eqb_spec i x) as [->|Hix].
    - assert (P = elems l /\ (k, (x, v)) = (ck, (x, cv)) /\ Q = elems r) as (-> & E1 & ->).
      { apply app_mid in EQ. destruct EQ as [(c & E1 & E2)|(c & E1 & E2)].
        - destruct N1. rewrite E1, ids_app, ids_cons, in_app_iff. simpl. auto.
        - destruct c as [|y c]; cbn [app] in E1.
          + injection E1 as E3 E4 E5. rewrite app_nil_r in E2. subst. auto.
          + injection E1 as E3 E4. destruct N2. rewrite E4, ids_app, ids_cons, in_app_iff. simpl. auto. }
      injection E1 as -> ->. rewrite !size_len in * by auto. unfold getSize. rewrite !size_len by auto.
      destruct (Z.eqb_spec s 1) as [E1|E1]; [|destruct (len (elems l) >? len (elems r)) eqn:E2].
      + exists E, Leaf. rewrite E1 in Hs. destruct (elems l), (elems r); cbn [length] in Hs; try lia. cbn; auto.
      + destruct (takeEnd_ok true l Hl) as (l' & [k' [i' v']] & -> & E3 & E4).
        { intros ->. cbn in E2. change (len []) with 0 in E2. lia. }
        eexists _, TookPrev. split; [reflexivity|]. split; [|split; [|discriminate]].
        * apply node_sized; auto. rewrite E3 in Hs. unfold len. rewrite app_length in Hs. cbn [length] in Hs. lia.
        * cbn [elems goneOk]. rewrite E3. eauto 6.
      + destruct (takeEnd_ok false r Hr) as (r' & [k' [i' v']] & -> & E3 & E4).
        { intros ->. change (len (elems E)) with 0 in E2. change (length (@elems K node AvlTree.E)) with 0%nat in Hs.
          unfold len in *. lia. }
        eexists _, TookNext. split; [reflexivity|]. split; [|split; [|discriminate]].
        * apply node_sized; auto. rewrite E3 in Hs. unfold len. cbn [length] in Hs. lia.
        * cbn [elems goneOk]. rewrite E3. eauto 6.
    - apply app_mid in EQ. destruct EQ as [(c & E1 & ->)|(c & E1 & ->)].
      + destruct (IHl Hl Nl P k v c E1) as (l' & how & -> & F1 & F2 & _). eexists _, how. split; [reflexivity|].
        pose proof (goneOk_len _ _ _ k v _ _ F2) as FL. rewrite <- E1 in FL. split; [|split].
        * apply node_sized; auto. unfold len in *. lia.
        * cbn [elems]. apply goneOk_left; auto.
        * intros s0 k' v' l0 r0 [= _ _ X _ _ _]. congruence.
      + destruct c as [|y c]; cbn [app] in E1; [injection E1; congruence|]. injection E1 as <- E1.
        rewrite removeAt_none.
        2:{ intros X. apply (D x X). rewrite E1, ids_app, ids_cons, in_app_iff. simpl. auto. }
        destruct (IHr Hr Nr c k v Q E1) as (r' & how & -> & F1 & F2 & _). eexists _, how. split; [reflexivity|].
        pose proof (goneOk_len _ _ _ k v _ _ F2) as FL. rewrite <- E1 in FL. split; [|split].
        * apply node_sized; auto. unfold len in *. lia.
        * cbn [elems]. apply (goneOk_right _ _ _ _ _ (elems l ++ [(ck, (i, cv))])) in F2. revert F2. assoc. auto.
        * intros s0 k' v' l0 r0 [= _ _ X _ _ _]. congruence.
  Qed.

  (** the node a pointer leads to *)
  Lemma slice_none x t : ~ In x (ids (elems t)) -> slice x t = None.
  Proof.
    induction t as [|s k [i v] l IHl r IHr]; intros H; [reflexivity|]. cbn [elems] in H. rewrite ids_app, ids_cons, in_app_iff in H. cbn [In fst snd] in H.
    cbn [slice]. destruct (Nat.eqb_spec i x); [tauto|]. rewrite IHl, IHr by tauto. reflexivity.
  Qed.
  Lemma slice_ok x k v t : NoDup (ids (elems t)) -> In (k, (x, v)) (elems t) -> slice x t = Some (k, v).
  Proof.
    induction t as [|s ck [i cv] l IHl r IHr]; intros Hn Hi; [destruct Hi|].
    cbn [elems] in Hi, Hn. rewrite ids_app, ids_cons in Hn. cbn [fst snd] in Hn.
    assert (Nl : NoDup (ids (elems l))) by (apply NoDup_app_remove_r in Hn; auto).
    assert (Nr : NoDup (ids (elems r))).
    { apply NoDup_app_remove_l in Hn. apply NoDup_cons_iff in Hn. tauto. }
    apply nodup_mid in Hn. destruct Hn as (N1 & N2 & N3).
    assert (Hin : forall m : list (K * node), In (k, (x, v)) m -> In x (ids m)).
    { intros m H. apply (in_map (fun en => fst (snd en))) in H. exact H. }
    cbn [slice]. apply in_app_iff in Hi. cbn [In] in Hi. destruct Hi as [Hi|[Hi|Hi]].
    - destruct (Nat.eqb_spec i x); [subst; destruct N1; auto|]. rewrite (IHl Nl Hi). reflexivity.
    - injection Hi as -> -> ->. rewrite Nat.eqb_refl. reflexivity.
    - destruct (Nat.eqb_spec i x); [subst; destruct N2; auto|]. rewrite slice_none; [auto|].
      intros X. apply Hin in Hi. apply in_split in X. destruct X as (a & b & X). rewrite X, <- app_assoc in N3. cbn [app] in N3.
      apply nodup_mid in N3. destruct N3 as (_ & N3 & _). apply N3. apply in_or_app. auto.
  Qed.

  Lemma endId_ok dir t : endId dir t = if dir then last_error (ids (elems t)) else hd_error (ids (elems t)).
  Proof.
    induction t as [|s k [i v] l IHl r IHr]; [destruct dir; reflexivity|]. cbn [endId elems]. rewrite ids_app, ids_cons.
    destruct dir; cbn [child].
    - destruct r as [|rs rk rv rl rr] eqn:Er.
      + cbn [elems ids map]. rewrite last_snoc. reflexivity.
      + rewrite <- Er in *. rewrite IHr. change (ids (elems l) ++ fst (snd (k, (i, v))) :: ids (elems r)) with (ids (elems l) ++ [i] ++ ids (elems r)).
        rewrite app_assoc, last_app; [reflexivity|]. subst r. cbn [elems]. rewrite ids_app. destruct (ids (elems rl)); discriminate.
    - destruct l as [|ls lk lv ll lr] eqn:El; [reflexivity|]. rewrite <- El in *. rewrite IHl, hd_app; auto.
      subst l. cbn [elems]. rewrite ids_app. destruct (ids (elems ll)); discriminate.
  Qed.

  Lemma elems_nil t : elems t = [] -> t = E.
  Proof. destruct t; [reflexivity|]. cbn [elems]. destruct (elems t1); discriminate. Qed.

  Lemma closeEnds_ok lk t a b : linked (d lk) (e lk) (a ++ ids (elems t) ++ b) -> NoDup (ids (elems t)) -> t <> E ->
    linked (d (closeEnds t lk)) (e (closeEnds t lk)) (ids (elems t)).
  Proof.
    intros H Hn Ht. unfold closeEnds. rewrite !endId_ok.
    destruct (ids (elems t)) as [|x m] eqn:E1.
    { destruct Ht. apply elems_nil. destruct (elems t); [auto|discriminate]. }
    destruct (last_error (x :: m)) as [y|] eqn:E2.
    - cbn [hd_error]. apply (closed_ok lk a (x :: m) b x y); auto.
    - destruct (snoc_cases (x :: m)) as [X|(a' & z & X)]; [discriminate|]. rewrite X, last_snoc in E2. discriminate.
  Qed.

  (** ** cutting by position *)
  Lemma here (i : nat) k (v : V) l r : ids (elems l ++ (k, (i, v)) :: elems r) = ids (elems l) ++ i :: ids (elems r).
  Proof. rewrite ids_app. reflexivity. Qed.
  Lemma ids_ne t : t <> E -> ids (elems t) <> [].
  Proof. intros H X. apply H, elems_nil. destruct (elems t); [auto|discriminate]. Qed.

  Notation linkedl lk l := (linked (d lk) (e lk) l).

  Lemma ltrimAt_links lk low t : forall b idx (dir : bool) A B, sized t -> t <> E -> idx = (if dir then b - 1 else b + len (elems t)) ->
    linkedl lk (A ++ ids (elems t) ++ B) ->
    exists t' dl, ltrimAt lk low idx dir t = (t', dl) /\ elems t' = firstn (Z.to_nat (low - b)) (elems t) /\ sized t' /\
      dl = last_error (A ++ ids (elems t')).
  Proof.
    induction t as [|s k [i v] l IHl r IHr]; intros b idx dir A B Ht Hne Hi HL; [congruence|].
    pose proof Ht as (Hs & Hl & Hr). cbn [ltrimAt elems] in *. rewrite here in HL.
    replace (if dir then idx + (getSize l + 1) else idx - (getSize r + 1)) with (b + len (elems l)).
    2:{ unfold getSize. rewrite !size_len by auto. destruct dir; rewrite ?len_mid in Hi; lia. }
    unfold len in *. destruct (Z.ltb_spec (b + Z.of_nat (length (elems l))) low); [|destruct (_ >? low) eqn:E1].
    - assert (exists r' dr, ltrimAt lk low (b + Z.of_nat (length (elems l))) true r = (r', dr) /\
        elems r' = firstn (Z.to_nat (low - (b + Z.of_nat (length (elems l)) + 1))) (elems r) /\ sized r' /\
        match r' with E => Some i | _ => dr end = last_error ((A ++ ids (elems l) ++ [i]) ++ ids (elems r'))) as (r' & dr & -> & E1 & E2 & E3).
      { destruct r as [|rs rk rv rl rr] eqn:Er.
        - exists E, None. cbn [ltrimAt elems sized]. rewrite firstn_nil. cbn [ids map]. rewrite app_nil_r, app_assoc, last_snoc. auto.
        - rewrite <- Er in *. destruct (IHr (b + Z.of_nat (length (elems l)) + 1) (b + Z.of_nat (length (elems l))) true (A ++ ids (elems l) ++ [i]) B Hr)
            as (r' & dr & E1 & E2 & E3 & E4); [subst; congruence|lia| |].
          { revert HL. assoc. auto. }
          exists r', dr. split; auto. split; auto. split; auto. destruct r' as [|? ? ? ? ?]; auto.
          cbn [elems ids map]. rewrite app_nil_r, app_assoc, last_snoc. reflexivity. }
      eexists _, _. split; [reflexivity|]. split; [|split].
      + unfold sum. rewrite sum_elems, E1, firstn_right by lia. do 4 f_equal. lia.
      + apply sum_sized; auto.
      + rewrite E3. unfold sum. rewrite sum_elems, here. assoc. reflexivity.
    - destruct l as [|ls lk' lv ll lr] eqn:El.
      + eexists _, _. split; [reflexivity|]. cbn [elems sized]. cbn [elems app length] in *. split; [|split]; auto.
        * replace (Z.to_nat (low - b)) with 0%nat by lia. reflexivity.
        * cbn [ids map]. rewrite app_nil_r. cbn [ids map app] in HL. apply (linked_left lk A i (ids (elems r) ++ B)). exact HL.
      + rewrite <- El in *. destruct (IHl b (b + Z.of_nat (length (elems l))) false A (i :: ids (elems r) ++ B) Hl) as (l' & dl & E2 & E3 & E4 & E5);
          [subst; congruence|lia| |].
        { revert HL. assoc. auto. }
        exists l', dl. split; auto. split; auto. rewrite E3, firstn_left by lia. reflexivity.
    - eexists _, _. split; [reflexivity|]. split; [|split]; auto.
      + replace (low - b) with (Z.of_nat (length (elems l))) by lia. rewrite firstn_left by lia. rewrite Nat2Z.id, firstn_all. reflexivity.
      + apply (linked_left lk (A ++ ids (elems l)) i (ids (elems r) ++ B)). revert HL. assoc. auto.
  Qed.
  Lemma rtrimAt_links lk high t : forall b idx (dir : bool) A B, sized t -> t <> E -> idx = (if dir then b - 1 else b + len (elems t)) ->
    linkedl lk (A ++ ids (elems t) ++ B) ->
    exists t' dr, rtrimAt lk high idx dir t = (t', dr) /\ elems t' = skipn (Z.to_nat (high + 1 - b)) (elems t) /\ sized t' /\
      dr = hd_error (ids (elems t') ++ B).
  Proof.
    induction t as [|s k [i v] l IHl r IHr]; intros b idx dir A B Ht Hne Hi HL; [congruence|].
    pose proof Ht as (Hs & Hl & Hr). cbn [rtrimAt elems] in *. rewrite here in HL.
    replace (if dir then idx + (getSize l + 1) else idx - (getSize r + 1)) with (b + len (elems l)).
    2:{ unfold getSize. rewrite !size_len by auto. destruct dir; rewrite ?len_mid in Hi; lia. }
    unfold len in *. destruct (_ >? high) eqn:E1; [|destruct (Z.ltb_spec (b + Z.of_nat (length (elems l))) high)].
    - assert (exists l' dl, rtrimAt lk high (b + Z.of_nat (length (elems l))) false l = (l', dl) /\
        elems l' = skipn (Z.to_nat (high + 1 - b)) (elems l) /\ sized l' /\
        match l' with E => Some i | _ => dl end = hd_error (ids (elems l') ++ i :: ids (elems r) ++ B)) as (l' & dl & -> & E2 & E3 & E4).
      { destruct l as [|ls lk' lv ll lr] eqn:El.
        - exists E, None. cbn [rtrimAt elems sized]. rewrite skipn_nil. auto.
        - rewrite <- El in *. destruct (IHl b (b + Z.of_nat (length (elems l))) false A (i :: ids (elems r) ++ B) Hl)
            as (l' & dl & E2 & E3 & E4 & E5); [subst; congruence|lia| |].
          { revert HL. assoc. auto. }
          exists l', dl. split; auto. split; auto. split; auto. destruct l' as [|? ? ? ? ?]; auto. }
      eexists _, _. split; [reflexivity|]. split; [|split].
      + unfold sum. rewrite sum_elems, E2, skipn_left by lia. reflexivity.
      + apply sum_sized; auto.
      + rewrite E4. unfold sum. rewrite sum_elems, here. assoc. reflexivity.
    - destruct r as [|rs rk rv rl rr] eqn:Er.
      + eexists _, _. split; [reflexivity|]. cbn [elems sized]. cbn [elems app length] in *. split; [|split]; auto.
        * rewrite skipn_right by lia. rewrite skipn_nil. reflexivity.
        * cbn [ids map app] in *. apply (linked_right lk (A ++ ids (elems l)) i B). revert HL. assoc. auto.
      + rewrite <- Er in *. destruct (IHr (b + Z.of_nat (length (elems l)) + 1) (b + Z.of_nat (length (elems l))) true (A ++ ids (elems l) ++ [i]) B Hr)
          as (r' & dr & E2 & E3 & E4 & E5); [subst; congruence|lia| |].
        { revert HL. assoc. auto. }
        exists r', dr. split; auto. split; auto. rewrite E3, skipn_right by lia. f_equal. lia.
    - eexists _, _. split; [reflexivity|]. split; [|split]; auto.
      + rewrite skipn_right by lia. replace (Z.to_nat _) with 0%nat by lia. reflexivity.
      + apply (linked_right lk (A ++ ids (elems l)) i (ids (elems r) ++ B)). revert HL. assoc. auto.
  Qed.

  (** what cutting [M] out from between [P] and [Q] leaves, inside a thread from [A] to [B] *)
  Definition cutAt (A B : list nat) (m m' : list (K * node)) (dd : option nat * option nat) : Prop :=
    exists P M Q, m = P ++ M ++ Q /\ M <> [] /\ m' = P ++ Q /\ fst dd = last_error (A ++ ids P) /\ snd dd = hd_error (ids Q ++ B).
  Lemma cutAt_left A B m m' dd x i z : fst (snd x) = i -> cutAt A (i :: ids z ++ B) m m' dd -> cutAt A B (m ++ x :: z) (m' ++ x :: z) dd.
  Proof.
    intros <- (P & M & Q & -> & H0 & -> & H1 & H2). exists P, M, (Q ++ x :: z). assoc. repeat split; auto.
    rewrite H2, ids_app, ids_cons. assoc. reflexivity.
  Qed.
  Lemma cutAt_right A B m m' dd x i z : fst (snd x) = i -> cutAt (A ++ ids z ++ [i]) B m m' dd -> cutAt A B (z ++ x :: m) (z ++ x :: m') dd.
  Proof.
    intros <- (P & M & Q & -> & H0 & -> & H1 & H2). exists (z ++ x :: P), M, Q. assoc. repeat split; auto.
    rewrite H1, ids_app, ids_cons. assoc. reflexivity.
  Qed.

  Notation out i j m := (firstn (Z.to_nat i) m ++ skipn (Z.to_nat (j + 1)) m).

  Lemma removeRangeAt_links lk low high t : low <= high -> forall b A B, sized t -> linkedl lk (A ++ ids (elems t) ++ B) ->
    if (high <? b) || (b + len (elems t) <=? low) || (len (elems t) =? 0)
    then removeRangeAt lk low high (b + kidSize false t) t = None
    else exists t' c dd, removeRangeAt lk low high (b + kidSize false t) t = Some (t', c, dd) /\
           elems t' = out (low - b) (high - b) (elems t) /\ sized t' /\ cutOk c (len (elems t)) (len (elems t')) /\
           cutAt A B (elems t) (elems t') dd.
  Proof.
    intros Hlh. induction t as [|s k [i v] l IHl r IHr]; intros b A B Ht HL.
    - cbn [elems]. change (len []) with 0. rewrite orb_true_r. reflexivity.
    - pose proof Ht as (Hs & Hl & Hr). cbn [removeRangeAt].
      pose proof (kid_left s k (i, v) l r Hl) as Ek. cbn [elems] in HL |- *. rewrite here in HL. rewrite len_mid.
      pose proof (len_nonneg (elems l)) as Pl. pose proof (len_nonneg (elems r)) as Pr.
      replace (len (elems l) + len (elems r) + 1 =? 0) with false by (symmetry; apply Z.eqb_neq; lia). rewrite orb_false_r.
      destruct ((_ >? low) && _) eqn:E1; [|destruct ((_ <? high) && _) eqn:E2].
      + apply andb_true_iff in E1. destruct l as [|ls lk' lv ll lr] eqn:El.
        { change (len (elems E)) with 0 in *. replace (high <? b) with true by (symmetry; apply Z.ltb_lt; lia). reflexivity. }
        rewrite <- El in *. rewrite left_pos by (subst; auto; congruence). specialize (IHl b A (i :: ids (elems r) ++ B) Hl).
        pose proof (size_pos l ltac:(subst; congruence)) as Pl'.
        replace (len (elems l) =? 0) with false in IHl by (symmetry; apply Z.eqb_neq; lia). rewrite orb_false_r in IHl.
        replace (b + (len (elems l) + len (elems r) + 1) <=? low) with (b + len (elems l) <=? low).
        2:{ apply eq_true_iff_eq. rewrite !Z.leb_le. lia. }
        assert (HL' : linkedl lk (A ++ ids (elems l) ++ i :: ids (elems r) ++ B)) by (revert HL; assoc; auto). specialize (IHl HL').
        destruct ((high <? b) || (b + len (elems l) <=? low)) eqn:E3; [rewrite IHl; reflexivity|].
        apply orb_false_iff in E3. destruct IHl as (l' & c & dd & -> & E4 & E5 & E6 & E7). eexists _, _, _. split; [reflexivity|].
        unfold upFromCut. destruct (up_left c s k (i, v) l l' r Ht E5 E6) as (X1 & X2 & X3). rewrite X2. split; [|split; [|split]]; auto.
        * rewrite E4. unfold len in *. rewrite firstn_left, skipn_left by lia. assoc. reflexivity.
        * rewrite X2 in X3. cbn [elems] in X3. rewrite len_mid in X3. exact X3.
        * apply (cutAt_left A B _ _ dd (k, (i, v)) i); auto.
      + apply andb_true_iff in E2. rewrite right_pos by auto. specialize (IHr (b + len (elems l) + 1) (A ++ ids (elems l) ++ [i]) B Hr).
        destruct r as [|rs rk rv rl rr] eqn:Er.
        { change (len (elems E)) with 0 in *. replace (b + (len (elems l) + 0 + 1) <=? low) with true by (symmetry; apply Z.leb_le; lia).
          rewrite orb_true_r. reflexivity. }
        rewrite <- Er in *. pose proof (size_pos r ltac:(subst; congruence)) as Pr'.
        replace (len (elems r) =? 0) with false in IHr by (symmetry; apply Z.eqb_neq; lia). rewrite orb_false_r in IHr.
        replace (high <? b) with (high <? b + len (elems l) + 1).
        2:{ apply eq_true_iff_eq. rewrite !Z.ltb_lt. lia. }
        replace (b + (len (elems l) + len (elems r) + 1)) with (b + len (elems l) + 1 + len (elems r)) by lia.
        assert (HL' : linkedl lk ((A ++ ids (elems l) ++ [i]) ++ ids (elems r) ++ B)) by (revert HL; assoc; auto). specialize (IHr HL').
        destruct ((high <? b + len (elems l) + 1) || (b + len (elems l) + 1 + len (elems r) <=? low)) eqn:E3; [rewrite IHr; reflexivity|].
        apply orb_false_iff in E3. destruct IHr as (r' & c & dd & -> & E4 & E5 & E6 & E7). eexists _, _, _. split; [reflexivity|].
        unfold upFromCut. destruct (up_right c s k (i, v) l r r' Ht E5 E6) as (X1 & X2 & X3). rewrite X2. split; [|split; [|split]]; auto.
        * rewrite E4. unfold len in *. rewrite firstn_right, skipn_right by lia. assoc.
          replace (low - b - Z.of_nat (length (elems l)) - 1) with (low - (b + Z.of_nat (length (elems l)) + 1)) by lia.
          replace (high - b + 1 - Z.of_nat (length (elems l)) - 1) with (high - (b + Z.of_nat (length (elems l)) + 1) + 1) by lia.
          reflexivity.
        * rewrite X2 in X3. cbn [elems] in X3. rewrite len_mid in X3. exact X3.
        * apply (cutAt_right A B _ _ dd (k, (i, v)) i); auto.
      + apply andb_false_iff in E1, E2.
        replace ((high <? b) || (b + (len (elems l) + len (elems r) + 1) <=? low)) with false by (symmetry; apply orb_false_iff; lia).
        rewrite Ek.
        assert (exists l' dl, match l with E => (E, d lk i false) | _ => ltrimAt lk low (b + len (elems l)) false l end = (l', dl) /\
          elems l' = firstn (Z.to_nat (low - b)) (elems l) /\ sized l' /\ dl = last_error (A ++ ids (elems l'))) as (l' & dl & L0 & L1 & L2 & L3).
        { destruct l as [|ls lk' lv ll lr] eqn:El.
          - exists E, (d lk i false). cbn [elems sized]. rewrite firstn_nil. cbn [ids map]. rewrite app_nil_r.
            split; auto. split; auto. split; auto. apply (linked_left lk A i (ids (elems r) ++ B)). exact HL.
          - rewrite <- El in *. apply (ltrimAt_links lk low l b (b + len (elems l)) false A (i :: ids (elems r) ++ B)); auto; [subst; congruence|].
            revert HL. assoc. auto. }
        assert (exists r' dr, match r with E => (E, d lk i true) | _ => rtrimAt lk high (b + len (elems l)) true r end = (r', dr) /\
          elems r' = skipn (Z.to_nat (high + 1 - (b + len (elems l) + 1))) (elems r) /\ sized r' /\ dr = hd_error (ids (elems r') ++ B))
          as (r' & dr & R0 & R1 & R2 & R3).
        { destruct r as [|rs rk rv rl rr] eqn:Er.
          - exists E, (d lk i true). cbn [elems sized]. rewrite skipn_nil. cbn [ids map app].
            split; auto. split; auto. split; auto. apply (linked_right lk (A ++ ids (elems l)) i B). cbn [elems ids map] in HL. revert HL. assoc. auto.
          - rewrite <- Er in *. apply (rtrimAt_links lk high r (b + len (elems l) + 1) (b + len (elems l)) true (A ++ ids (elems l) ++ [i]) B); auto; [subst; congruence|lia|].
            revert HL. assoc. auto. }
        rewrite L0, R0. unfold closeCut.
        destruct (closeCut_ok (N s k (i, v) l r) _ _ Ht L2 R2) as (t' & c & C1 & C2 & C3 & C4). cbn [IndexModel.getSize] in C1. rewrite C1.
        eexists _, _, _. split; [reflexivity|]. split; [|split; [|split]]; auto.
        * rewrite C2, L1, R1. unfold len in *. rewrite firstn_left, skipn_right by lia. do 3 f_equal. lia.
        * cbn [elems] in C4. rewrite len_mid in C4. exact C4.
        * exists (elems l'), (skipn (Z.to_nat (low - b)) (elems l) ++ (k, (i, v)) :: firstn (Z.to_nat (high + 1 - (b + len (elems l) + 1))) (elems r)), (elems r').
          rewrite L1, R1. split; [|split; [|split; [|split]]].
          -- assoc. rewrite firstn_skipn, app_assoc, firstn_skipn. reflexivity.
          -- intros X. apply app_eq_nil in X. destruct X; discriminate.
          -- rewrite C2, L1, R1. reflexivity.
          -- cbn [fst]. rewrite L3, L1. reflexivity.
          -- cbn [snd]. rewrite R3, R1. reflexivity.
  Qed.
End Shapes.
