(** tree/treelist: what holds for any comparison function. *)
From Verif Require Import Base Bind Machine OrderSpec SMapSpec SMapFacts AvlTree AvlSpec AvlModel AvlProofs AvlAny IndexSpec IndexModel IndexProofs
  TreelistSpec TreelistModel TreelistLinks TreelistProofs TreelistSteps WildSpec IndexWildProofs TreelistWildSpec.
Local Open Scope Z_scope.

Section Wild.
  Context {K V : Type} (cmp : K -> K -> Z).
  Notation node := (nat * V)%type.
  Notation tree := (tree K node).
  Notation linkedl lk l := (linked (d lk) (e lk) l).
  Implicit Types (t l r : tree).

  Lemma put_wild hit x key v t : forall A B, sized t -> exists t' res, put cmp hit x key v (last_error A) (hd_error B) t = Some (t', res) /\
    match res with
    | Placed a b c => exists P Q, elems t = P ++ Q /\ elems t' = P ++ (key, (x, v)) :: Q /\ a = last_error (A ++ ids P) /\ b = hd_error (ids Q ++ B) /\
        (c = Broken \/ sized t') /\ climbOk (ht t + 1) c
    | Found => sized t' /\ exists P Q k0 i v0, cmp key k0 = 0 /\ elems t = P ++ (k0, (i, v0)) :: Q /\ elems t' = P ++ (k0, (i, hit v0)) :: Q
    end.
  Proof.
    induction t as [|s ck [i cv] l IHl r IHr]; intros A B Ht.
    - cbn [put]. eexists _, _. split; [reflexivity|]. exists [], []. cbn. rewrite app_nil_r. repeat split; auto; lia.
    - pose proof Ht as (Hz & Hl & Hr). cbn [put]. destruct (Z.ltb_spec (cmp key ck) 0) as [H|H]; [|destruct (cmp key ck >? 0) eqn:Hg].
      + destruct (IHl A (i :: ids (elems r) ++ B) Hl) as (l' & res & X0 & X). cbn [hd_error] in X0. rewrite X0. destruct res as [|a b c].
        * destruct X as (Z' & P & Q & k0 & j & v0 & Hk & E1 & E2). eexists _, _. split; [reflexivity|]. split.
          -- apply node_sized; auto. unfold len. rewrite E2. rewrite E1 in Hz. rewrite app_length in *. exact Hz.
          -- exists P, (Q ++ (ck, (i, cv)) :: elems r), k0, j, v0. cbn [elems]. rewrite E1, E2, <- !app_assoc. auto.
        * destruct X as (P & Q & E1 & E2 & -> & -> & E3 & E4).
          destruct (fixPut_fine (ht l + 1) c s ck (i, cv) l' r E4) as (t' & c' & -> & F1 & F3 & F2).
          { destruct E3; auto. right. split; auto. split; auto. rewrite E1 in Hz. rewrite E2. unfold len. rewrite !app_length in *. cbn [length] in *. lia. }
          eexists _, _. split; [reflexivity|]. exists P, (Q ++ (ck, (i, cv)) :: elems r). cbn [elems]. rewrite F1, E1, E2, <- !app_assoc.
          split; [reflexivity|]. split; [reflexivity|]. split; [reflexivity|]. split; [rewrite ids_app, ids_cons, <- app_assoc; reflexivity|]. split; [exact F2|].
          cbn [ht]. destruct c'; cbn [climbOk] in *; auto; lia.
      + destruct (IHr (A ++ ids (elems l) ++ [i]) B Hr) as (r' & res & X0 & X). rewrite app_assoc, last_snoc in X0. rewrite X0. destruct res as [|a b c].
        * destruct X as (Z' & P & Q & k0 & j & v0 & Hk & E1 & E2). eexists _, _. split; [reflexivity|]. split.
          -- apply node_sized; auto. unfold len. rewrite E2. rewrite E1 in Hz. rewrite app_length in *. exact Hz.
          -- exists (elems l ++ (ck, (i, cv)) :: P), Q, k0, j, v0. cbn [elems]. rewrite E1, E2, <- !app_assoc. auto.
        * destruct X as (P & Q & E1 & E2 & -> & -> & E3 & E4).
          destruct (fixPut_fine (ht r + 1) c s ck (i, cv) l r' E4) as (t' & c' & -> & F1 & F3 & F2).
          { destruct E3; auto. right. split; auto. split; auto. rewrite E1 in Hz. rewrite E2. unfold len. rewrite !app_length in *. cbn [length] in *. lia. }
          eexists _, _. split; [reflexivity|]. exists (elems l ++ (ck, (i, cv)) :: P), Q. cbn [elems]. rewrite F1, E1, E2, <- !app_assoc.
          split; [reflexivity|]. split; [reflexivity|]. split; [rewrite ids_app, ids_cons; assoc; reflexivity|]. split; [reflexivity|]. split; [exact F2|].
          cbn [ht]. destruct c'; cbn [climbOk] in *; auto; lia.
      + eexists _, _. split; [reflexivity|]. split; [apply node_sized; auto|]. exists (elems l), (elems r), ck, i, cv. cbn [elems]. split; [lia|auto].
  Qed.

  Lemma ltrim_wild_links lk low t : forall A B, sized t -> t <> E -> linkedl lk (A ++ ids (elems t) ++ B) ->
    exists t' dl M, ltrim cmp lk low t = (t', dl) /\ elems t = elems t' ++ M /\ sized t' /\ dl = last_error (A ++ ids (elems t')).
  Proof.
    induction t as [|s k [i v] l IHl r IHr]; intros A B Ht Hne HL; [congruence|]. pose proof Ht as (_ & Hl & Hr). cbn [elems] in *.
    rewrite here in HL. cbn [ltrim]. destruct (cmp low k >? 0); [|destruct (cmp low k <? 0)].
    - assert (exists r' dr M, ltrim cmp lk low r = (r', dr) /\ elems r = elems r' ++ M /\ sized r' /\
        match r' with E => Some i | _ => dr end = last_error ((A ++ ids (elems l) ++ [i]) ++ ids (elems r'))) as (r' & dr & M & -> & E2 & E3 & E4).
      { destruct r as [|rs rk rv rl rr] eqn:Er.
        - exists E, None, []. cbn [ltrim elems sized ids map]. split; [reflexivity|]. split; [reflexivity|]. split; [exact I|]. rewrite app_nil_r, app_assoc, last_snoc. reflexivity.
        - rewrite <- Er in *. destruct (IHr (A ++ ids (elems l) ++ [i]) B Hr) as (r' & dr & M & F1 & F2 & F3 & F4); [subst; congruence| |].
          { revert HL. assoc. auto. }
          exists r', dr, M. split; auto. split; auto. split; auto. destruct r' as [|? ? ? ? ?]; auto.
          cbn [elems ids map]. rewrite app_nil_r, app_assoc, last_snoc. reflexivity. }
      eexists _, _, M. split; [reflexivity|]. unfold sum. rewrite sum_elems, E2. split; [assoc; reflexivity|]. split; [apply sum_sized; auto|].
      rewrite E4, ids_app, ids_cons. assoc. reflexivity.
    - destruct l as [|ls lk' lv ll lr] eqn:El.
      + eexists _, _, _. split; [reflexivity|]. cbn [elems sized ids map app] in *. split; [reflexivity|]. split; auto. rewrite app_nil_r.
        apply (linked_left lk A i (ids (elems r) ++ B)). exact HL.
      + rewrite <- El in *. destruct (IHl A (i :: ids (elems r) ++ B)) as (t' & dl & M & F1 & F2 & F3 & F4); auto; [subst; congruence|revert HL; assoc; auto|].
        exists t', dl, (M ++ (k, (i, v)) :: elems r). rewrite F2. assoc. auto.
    - eexists _, _, _. split; [reflexivity|]. split; [reflexivity|]. split; auto.
      apply (linked_left lk (A ++ ids (elems l)) i (ids (elems r) ++ B)). revert HL. assoc. auto.
  Qed.
  Lemma rtrim_wild_links lk high t : forall A B, sized t -> t <> E -> linkedl lk (A ++ ids (elems t) ++ B) ->
    exists t' dr M, rtrim cmp lk high t = (t', dr) /\ elems t = M ++ elems t' /\ sized t' /\ dr = hd_error (ids (elems t') ++ B).
  Proof.
    induction t as [|s k [i v] l IHl r IHr]; intros A B Ht Hne HL; [congruence|]. pose proof Ht as (_ & Hl & Hr). cbn [elems] in *.
    rewrite here in HL. cbn [rtrim]. destruct (cmp high k <? 0); [|destruct (cmp high k >? 0)].
    - assert (exists l' dl M, rtrim cmp lk high l = (l', dl) /\ elems l = M ++ elems l' /\ sized l' /\
        match l' with E => Some i | _ => dl end = hd_error (ids (elems l') ++ i :: ids (elems r) ++ B)) as (l' & dl & M & -> & E2 & E3 & E4).
      { destruct l as [|ls lk' lv ll lr] eqn:El.
        - exists E, None, []. cbn [rtrim elems sized ids map app]. auto.
        - rewrite <- El in *. destruct (IHl A (i :: ids (elems r) ++ B) Hl) as (l' & dl & M & F1 & F2 & F3 & F4); [subst; congruence| |].
          { revert HL. assoc. auto. }
          exists l', dl, M. split; auto. split; auto. split; auto. destruct l' as [|? ? ? ? ?]; auto. }
      eexists _, _, M. split; [reflexivity|]. unfold sum. rewrite sum_elems, E2. split; [assoc; reflexivity|]. split; [apply sum_sized; auto|].
      rewrite E4, ids_app, ids_cons. assoc. reflexivity.
    - destruct r as [|rs rk rv rl rr] eqn:Er.
      + eexists _, _, _. split; [reflexivity|]. cbn [elems sized ids map app] in *. split; [symmetry; apply app_nil_r|]. split; auto.
        apply (linked_right lk (A ++ ids (elems l)) i B). revert HL. assoc. auto.
      + rewrite <- Er in *. destruct (IHr (A ++ ids (elems l) ++ [i]) B) as (t' & dr & M & F1 & F2 & F3 & F4); auto; [subst; congruence|revert HL; assoc; auto|].
        exists t', dr, (elems l ++ (k, (i, v)) :: M). rewrite F2. assoc. auto.
    - eexists _, _, (elems l ++ [(k, (i, v))]). split; [reflexivity|]. split; [assoc; reflexivity|]. split; auto.
      apply (linked_right lk (A ++ ids (elems l)) i (ids (elems r) ++ B)). revert HL. assoc. auto.
  Qed.

  Lemma removeRange_wild_links lk low high t : forall A B, sized t -> linkedl lk (A ++ ids (elems t) ++ B) ->
    exists t' c dd, removeRange cmp lk low high t = Some (t', c, dd) /\ sized t' /\ cutOk c (len (elems t)) (len (elems t')) /\
      match dd with None => elems t' = elems t | Some dd => cutAt A B (elems t) (elems t') dd end.
  Proof.
    induction t as [|s k [i v] l IHl r IHr]; intros A B Ht HL.
    - exists E, Nothing, None. repeat split; reflexivity.
    - pose proof Ht as (Hz & Hl & Hr). cbn [elems] in HL |- *. rewrite here in HL. cbn [removeRange]. unfold upFromCut, closeCut.
      destruct (_ && _); [|destruct (_ && _)].
      + destruct (IHl A (i :: ids (elems r) ++ B) Hl) as (l' & c & dd & -> & E3 & E4 & E5); [revert HL; assoc; auto|].
        destruct (up_left c s k (i, v) l l' r Ht E3 E4) as (X1 & X2 & X3). eexists _, _, _. split; [reflexivity|].
        rewrite X2. split; [exact X1|]. split; [rewrite X2 in X3; exact X3|].
        destruct dd as [dd|]; [|congruence]. apply (cutAt_left A B _ _ dd (k, (i, v)) i); auto.
      + destruct (IHr (A ++ ids (elems l) ++ [i]) B Hr) as (r' & c & dd & -> & E3 & E4 & E5); [revert HL; assoc; auto|].
        destruct (up_right c s k (i, v) l r r' Ht E3 E4) as (X1 & X2 & X3). eexists _, _, _. split; [reflexivity|].
        rewrite X2. split; [exact X1|]. split; [rewrite X2 in X3; exact X3|].
        destruct dd as [dd|]; [|congruence]. apply (cutAt_right A B _ _ dd (k, (i, v)) i); auto.
      + assert (exists l' dl M, match l with E => (E, d lk i false) | _ => ltrim cmp lk low l end = (l', dl) /\
          elems l = elems l' ++ M /\ sized l' /\ dl = last_error (A ++ ids (elems l'))) as (l' & dl & M & L0 & L1 & L2 & L3).
        { destruct l as [|ls lk' lv ll lr] eqn:El.
          - exists E, (d lk i false), []. cbn [elems sized ids map].
            split; auto. split; auto. split; auto. rewrite app_nil_r. apply (linked_left lk A i (ids (elems r) ++ B)). exact HL.
          - rewrite <- El in *. apply (ltrim_wild_links lk low l A (i :: ids (elems r) ++ B)); auto; [subst; congruence|].
            revert HL. assoc. auto. }
        assert (exists r' dr M, match r with E => (E, d lk i true) | _ => rtrim cmp lk high r end = (r', dr) /\
          elems r = M ++ elems r' /\ sized r' /\ dr = hd_error (ids (elems r') ++ B)) as (r' & dr & N & R0 & R1 & R2 & R3).
        { destruct r as [|rs rk rv rl rr] eqn:Er.
          - exists E, (d lk i true), []. cbn [elems sized ids map app].
            split; auto. split; auto. split; auto. apply (linked_right lk (A ++ ids (elems l)) i B). cbn [elems ids map] in HL. revert HL. assoc. auto.
          - rewrite <- Er in *. apply (rtrim_wild_links lk high r (A ++ ids (elems l) ++ [i]) B); auto; [subst; congruence|].
            revert HL. assoc. auto. }
        rewrite L0, R0.
        destruct (closeCut_ok (AvlTree.N s k (i, v) l r) _ _ Ht L2 R2) as (t' & c & C1 & C2 & C3 & C4). cbn [IndexModel.getSize] in C1. rewrite C1.
        eexists _, _, _. split; [reflexivity|]. split; [exact C3|]. split; [exact C4|].
        exists (elems l'), (M ++ (k, (i, v)) :: N), (elems r'). split; [rewrite L1, R1; assoc; reflexivity|].
        split; [destruct M; discriminate|]. split; [exact C2|]. split; [exact L3|exact R3].
  Qed.

  (** ** steps *)
  Notation ent s := (pk (elems (top s))).
  Notation fine s := (Good s (elems (top s))).
  Lemma fine_entries (s : TreelistModel.tl K V) m : Good s m -> fine s.
  Proof. intros H. pose proof H as (-> & _). exact H. Qed.

  Lemma putWith_wild (s : TreelistModel.tl K V) k v ins ex hit : fine s ->
    exists s' x, putWith cmp k v ins ex hit s = Some (s', x) /\
      ((x = TBool ins \/ x = TPanic /\ 63 < ht (top s)) /\ added (k, v) (ent s) (ent s') \/
       x = TBool ex /\ exists e, cmp k (fst e) = 0 /\ swapped e (fst e, hit (snd e)) (ent s) (ent s')) /\ (x <> TPanic -> fine s').
  Proof.
    intros (_ & Ht & Hn & Hf & HL). unfold putWith. destruct (put_wild hit (fresh s) k v (top s) [] [] Ht) as (t' & res & X0 & X). cbn [last_error rev hd_error] in X0.
    rewrite X0. destruct res as [|a b c].
    - destruct X as (Z' & P & Q & k0 & i & v0 & Hk & E1 & E2). eexists _, _. split; [reflexivity|]. split.
      + right. split; [reflexivity|]. exists (k0, v0). cbn [fst snd top]. split; [exact Hk|]. exists (pk P), (pk Q). rewrite E1, E2, !pk_app, !pk_cons. auto.
      + intros _. apply (fine_entries _ (elems t')). unfold Good. cbn [top lks fresh].
        assert (Ei : ids (elems t') = ids (elems (top s))) by (rewrite E1, E2, !ids_app, !ids_cons; reflexivity). rewrite Ei. auto.
    - destruct X as (P & Q & E1 & E2 & -> & -> & E3 & E4). rewrite app_nil_r. cbn [app]. eexists _, _. split; [reflexivity|].
      assert (Ha : added (k, v) (ent s) (pk (elems t'))) by (exists (pk P), (pk Q); rewrite E1, E2, !pk_app, !pk_cons; auto). split.
      + left. split; [|exact Ha]. destruct c; cbn [climbOk] in E4; auto. right. split; [reflexivity|lia].
      + intros Hx. assert (Hz : sized t') by (destruct E3 as [->|E3]; [congruence|exact E3]). apply (fine_entries _ (P ++ (k, (fresh s, v)) :: Q)). unfold Good. cbn [top lks fresh].
        split; [exact E2|]. split; [exact Hz|]. rewrite E1 in Hn, Hf, HL. rewrite ids_app in *. rewrite ids_cons. cbn [fst snd].
        assert (Hd : NoDup (ids P ++ fresh s :: ids Q)).
        { apply NoDup_Add with (a := fresh s) (l := ids P ++ ids Q); [apply Add_app|]. split; auto. intros X. apply Hf in X. lia. }
        split; [exact Hd|]. split; [|apply attachLinks_ok; auto].
        intros y Hy. rewrite in_app_iff in Hy. cbn [In] in Hy. assert (Hy' : y = fresh s \/ In y (ids P ++ ids Q)) by (rewrite in_app_iff; intuition). destruct Hy' as [->|Hy']; [lia|].
        apply Hf in Hy'. lia.
  Qed.
  Lemma removeNode_wild (s : TreelistModel.tl K V) P k x v Q : fine s -> elems (top s) = P ++ (k, (x, v)) :: Q ->
    exists s', removeNode x s = Some (s', TSlice (Some (k, v))) /\ fine s' /\ ent s' = pk P ++ pk Q.
  Proof.
    intros HG E1. destruct (removeNode_links s _ P k x v Q HG E1) as (s' & m' & E2 & E3 & E4). exists s'. split; [exact E2|].
    pose proof E3 as (E5 & _). split; [apply (fine_entries _ m'), E3|]. rewrite E5, E4. apply pk_app.
  Qed.
  Lemma Remove_wild (s : TreelistModel.tl K V) k : fine s -> exists s' x, Remove cmp k s = Some (s', x) /\ fine s' /\
    (x = TSlice None /\ s' = s \/ exists e, cmp k (fst e) = 0 /\ dropped e (ent s) (ent s') /\ x = TSlice (Some e)).
  Proof.
    intros HG. unfold Remove, getNode. pose proof (getNode_wild cmp k (top s)) as X. destruct (IndexModel.getNode cmp k (top s)) as [|s0 k0 [i v0] l0 r0].
    - eexists _, _. split; [reflexivity|]. auto.
    - destruct X as (Hk & X). apply in_split in X. destruct X as (P & Q & X). destruct (removeNode_wild s P k0 i v0 Q HG X) as (s' & -> & E1 & E2).
      eexists _, _. split; [reflexivity|]. split; [exact E1|]. right. exists (k0, v0). cbn [fst]. split; [exact Hk|]. split; [|reflexivity].
      exists (pk P), (pk Q). rewrite E2, X, pk_app, pk_cons. auto.
  Qed.
  Lemma cut_wild (s : TreelistModel.tl K V) t' dl dr : fine s -> cutAt [] [] (elems (top s)) (elems t') (dl, dr) -> sized t' ->
    Good (T t' (unlink dl dr (lks s)) (fresh s)) (elems t').
  Proof.
    intros (_ & Ht & Hn & Hf & HL) (P & M & Q & E0 & _ & E1 & H1 & H2) E2. cbn [fst snd app] in H1, H2. rewrite app_nil_r in H2. rewrite E0 in *. rewrite E1.
    apply (good_sub s t' _ P M Q); auto. subst dl dr. rewrite !ids_app in *. apply (unlink_ok (lks s) (ids P) (ids M) (ids Q)); auto.
  Qed.
  Lemma keep_wild (s : TreelistModel.tl K V) P M Q t' : fine s -> elems (top s) = P ++ M ++ Q -> elems t' = M -> sized t' -> t' <> E ->
    Good (T t' (closeEnds t' (lks s)) (fresh s)) M.
  Proof.
    intros (_ & Ht & Hn & Hf & HL) E0 E1 E2 Hne. rewrite E0, !ids_app in *.
    assert (HnM : NoDup (ids M)) by (apply NoDup_app_remove_l in Hn; apply NoDup_app_remove_r in Hn; auto).
    unfold Good. cbn [top lks fresh]. split; auto. split; auto. split; auto. split.
    - intros x Hx. apply Hf. rewrite !in_app_iff. auto.
    - subst M. apply (closeEnds_ok (lks s) t' (ids P) (ids Q)); auto.
  Qed.
  Lemma thin_pk (m m' : list (K * node)) : thinned m m' -> thinned (pk m) (pk m').
  Proof. induction 1; cbn [pk map]; constructor; auto. Qed.
  Lemma end_wild (s : TreelistModel.tl K V) dir : fine s -> endSlice dir s = TSlice (if dir then last_error (ent s) else hd_error (ent s)).
  Proof.
    intros (_ & _ & Hn & _ & L1 & L2 & _). unfold endSlice. destruct dir; [rewrite L2, ids_last, pk_last|rewrite L1, ids_hd, pk_hd].
    - destruct (last_error (elems (top s))) as [[k [i v]]|] eqn:El; [|reflexivity]. cbn [option_map fst snd]. rewrite (slice_ok i k v); auto. apply last_in; auto.
    - destruct (hd_error (elems (top s))) as [[k [i v]]|] eqn:El; [|reflexivity]. cbn [option_map fst snd]. rewrite (slice_ok i k v); auto. apply hd_in; auto.
  Qed.

  Lemma tstep_wild (s : TreelistModel.tl K V) o : fine s ->
    tmay cmp (ent s) o (ent (fst (tl_step cmp s o))) (snd (tl_step cmp s o)) /\
    (calm o (snd (tl_step cmp s o)) -> fine (fst (tl_step cmp s o))) /\
    (put_fails o (snd (tl_step cmp s o)) -> 63 < ht (top s)).
  Proof.
    intros HG. pose proof HG as (_ & Ht & Hn & Hf & HL).
    assert (Htr : forall go, Traverse go (top s) = visit go [] (ent s)).
    { intros go. unfold Traverse. destruct (traverse_ok (fun seen => go (map plainKV seen)) (top s) []) as (X & _). rewrite X. symmetry. apply (pk_visit go (elems (top s)) []). }
    destruct o; cbn [tl_step tmay calm put_fails tl_spec].
    - destruct (putWith_wild s k v true false (fun v0 => v0) HG) as (s' & x & -> & X & Y). cbn [orPanic fst snd]. split; [|split].
      + destruct X as [([->|(-> & _)] & X)|(-> & e & He & X)]; auto. right. destruct e as (k0, v0). cbn [fst snd] in *. apply swapped_same in X as (X1 & X2). eauto.
      + intros Hx. apply Y. intros ->. auto.
      + destruct X as [([->|(-> & X)] & _)|(-> & _)]; cbn; tauto.
    - destruct (putWith_wild s k v false true (fun _ => v) HG) as (s' & x & -> & X & Y). cbn [orPanic fst snd]. split; [|split].
      + destruct X as [([->|(-> & _)] & X)|(-> & e & He & X)]; eauto.
      + intros Hx. apply Y. intros ->. auto.
      + destruct X as [([->|(-> & X)] & _)|(-> & _)]; cbn; tauto.
    - destruct (putWith_wild s k v false true f HG) as (s' & x & -> & X & Y). cbn [orPanic fst snd]. split; [|split].
      + destruct X as [([->|(-> & _)] & X)|(-> & e & He & X)]; eauto.
      + intros Hx. apply Y. intros ->. auto.
      + destruct X as [([->|(-> & X)] & _)|(-> & _)]; cbn; tauto.
    - cbn [fst snd]. split; [|tauto]. split; [reflexivity|]. unfold getNode. pose proof (getNode_wild cmp k (top s)) as X.
      destruct (IndexModel.getNode cmp k (top s)) as [|s0 k0 [i v0] l0 r0]; [auto|]. right. exists (k0, v0). cbn [fst snd]. destruct X as (Hk & X).
      split; [|auto]. apply (in_map plainKV) in X. exact X.
    - destruct (Remove_wild s k HG) as (s' & x & -> & E1 & X). cbn [orPanic fst snd]. split; [|tauto]. destruct X as [(-> & ->)|X]; auto.
    - (* RemoveIndex *)
      unfold RemoveIndex, index. rewrite index_ok by auto. rewrite pk_entry_at.
      destruct (entry_at (elems (top s)) (Some i)) as [[k [x v]]|] eqn:En; cbn [option_map orPanic fst snd]; [|split; [reflexivity|tauto]].
      assert (Hi : 0 <= i < len (elems (top s))).
      { destruct (Z.le_gt_cases 0 i), (Z.lt_ge_cases i (len (elems (top s)))); auto; rewrite entry_at_none in En by lia; discriminate. }
      rewrite entry_at_in in En by auto.
      assert (E1 : elems (top s) = firstn (Z.to_nat i) (elems (top s)) ++ (k, (x, v)) :: skipn (Z.to_nat (i + 1)) (elems (top s))).
      { pose proof (nth_error_split _ _ En) as (l1 & l2 & X1 & X2). rewrite X1 at 1. rewrite X1, <- X2.
        rewrite firstn_app, firstn_all2, Nat.sub_diag by lia. cbn [firstn]. rewrite app_nil_r. do 2 f_equal.
        replace (Z.to_nat (i + 1)) with (S (length l1)) by lia. clear. induction l1; auto. }
      destruct (removeNode_wild s _ k x v _ HG E1) as (s' & -> & X1 & X2). cbn [orPanic fst snd]. split; [|tauto]. f_equal.
      rewrite X2. unfold around. rewrite pk_firstn, pk_skipn. reflexivity.
    - cbn [fst snd]. rewrite (end_wild s false HG). split; [reflexivity|tauto].
    - cbn [fst snd]. rewrite (end_wild s true HG). split; [reflexivity|tauto].
    - (* RemoveHead *)
      unfold removeEnd. destruct (elems (top s)) as [|[k [x v]] Q] eqn:E1.
      + rewrite (elems_nil _ E1). cbn [orPanic fst snd]. rewrite E1. split; [reflexivity|]. split; [|tauto]. intros _. first [exact HG | rewrite E1 in HG |- *; exact HG | rewrite E1 in HG; exact HG].
      + assert (G1 : e (lks s) false = Some x) by (destruct HL as (G1 & _); exact G1). rewrite <- E1 in HG.
        destruct (removeNode_wild s [] k x v Q HG E1) as (s' & X1 & X2 & X3). destruct (top s) as [|? ? ? ? ?]; [discriminate|]. rewrite G1, X1. cbn [orPanic fst snd].
        split; [|tauto]. rewrite X3. reflexivity.
    - (* RemoveTail *)
      unfold removeEnd. destruct (snoc_cases (elems (top s))) as [E1|(P & [k [x v]] & E1)].
      + rewrite (elems_nil _ E1). cbn [orPanic fst snd]. rewrite E1. split; [reflexivity|]. split; [|tauto]. intros _. first [exact HG | rewrite E1 in HG |- *; exact HG | rewrite E1 in HG; exact HG].
      + assert (G1 : e (lks s) true = Some x).
        { destruct HL as (_ & G1 & _). rewrite E1, ids_app in G1. change (ids [(k, (x, v))]) with [x] in G1. rewrite last_snoc in G1. exact G1. }
        destruct (removeNode_wild s P k x v [] HG E1) as (s' & X1 & X2 & X3).
        destruct (top s) as [|? ? ? ? ?]; [destruct P; discriminate|]. rewrite G1, X1. cbn [orPanic fst snd].
        split; [|tauto]. rewrite X3, E1, pk_app. cbn [pk map plainKV fst snd]. rewrite removelast_last, last_snoc, app_nil_r. reflexivity.
    - (* Index *)
      unfold index. rewrite index_ok by auto. rewrite pk_entry_at.
      destruct (entry_at (elems (top s)) (Some i)) as [[k [x v]]|]; cbn [option_map orPanic fst snd plainKV]; (split; [reflexivity|tauto]).
    - (* IndexOf *)
      cbn [fst snd]. split; [|tauto]. split; [reflexivity|]. unfold IndexOf, IndexModel.IndexOf. destruct (indexOf_wild cmp k (top s) 0 Ht) as [X|(en & X & He)]; rewrite Z.add_0_l in X.
      + rewrite X. auto.
      + right. rewrite Z.sub_0_r in X. eexists _, (plainKV en). rewrite pk_entry_at, X. split; [reflexivity|]. destruct en as (k0, (j, v0)). auto.
    - cbn [fst snd]. unfold getSize. rewrite size_len by auto. rewrite pk_len. split; [reflexivity|tauto].
    - cbn [fst snd]. rewrite Htr. split; [reflexivity|tauto].
    - cbn [fst snd]. rewrite Htr. split; [|tauto]. f_equal. f_equal. exact (visit_all (ent s) []).
    - (* Clear *)
      cbn [fst snd top]. split; [reflexivity|]. split; [|tauto]. intros _. unfold Good. cbn [top elems ids map lks sized fresh].
      split; [reflexivity|]. split; [exact I|]. split; [constructor|]. split; [intros x []|]. apply (cleared_ok (lks s)).
    - (* RemoveRange *)
      unfold RemoveRange. destruct (cmp lo hi >? 0); [cbn [orPanic fst snd]; split; [auto|tauto]|]. destruct (cmp lo hi =? 0).
      + destruct (Remove_wild s lo HG) as (s' & x & -> & E1 & X). cbn [orPanic fst snd]. split; [|tauto].
        destruct X as [(-> & ->)|(en & He & X & ->)]; [auto|]. right. eauto.
      + destruct (removeRange_wild_links (lks s) lo hi (top s) [] [] Ht) as (t' & c & dd & -> & E2 & _ & E3).
        { cbn [app]. rewrite app_nil_r. exact HL. }
        destruct dd as [[dl dr]|]; cbn [orPanic fst snd].
        * split; [|split; [|tauto]].
          -- right. split; [reflexivity|]. destruct E3 as (P & M & Q & X1 & X2 & X3 & _). exists (pk P), (pk M), (pk Q). cbn [top]. rewrite X1, X3, !pk_app.
             split; [reflexivity|]. split; [|reflexivity]. destruct M; [congruence|discriminate].
          -- intros _. apply (cut_wild s t' dl dr HG E3 E2).
        * split; [auto|tauto].
    - (* RemoveRangeByIndex *)
      unfold RemoveRangeByIndex. rewrite Z.gtb_ltb. destruct (Z.ltb_spec j i) as [Hij|Hij]; [cbn [orPanic fst snd]; split; [reflexivity|tauto]|].
      pose proof (removeRangeAt_links (lks s) i j (top s) Hij 0 [] [] Ht) as X. cbn [app] in X. rewrite app_nil_r in X. specialize (X HL).
      rewrite !Z.add_0_l in X. rewrite <- pk_len in X. destruct ((j <? 0) || (len (ent s) <=? i) || (len (ent s) =? 0)).
      + rewrite X. cbn [orPanic fst snd]. split; [reflexivity|tauto].
      + destruct X as (t' & c & [dl dr] & -> & E1 & E2 & _ & E3). rewrite !Z.sub_0_r in E1. cbn [orPanic fst snd top]. split; [|split; [|tauto]].
        * f_equal. rewrite E1. unfold around. rewrite pk_firstn, pk_skipn, <- pk_app. reflexivity.
        * intros _. apply (cut_wild s t' dl dr HG E3 E2).
    - (* Trim *)
      unfold Trim, IndexModel.Trim. destruct (cmp lo hi >? 0); cbn [orPanic fst snd top]; [tauto|]. split; [|tauto]. split; [reflexivity|]. apply thin_pk, Trim_wild.
    - (* TrimByIndex *)
      unfold TrimByIndex, IndexModel.TrimByIndex. rewrite Z.gtb_ltb. destruct (Z.ltb_spec j i) as [Hij|Hij]; cbn [orb]; [cbn [fst snd]; split; [auto|tauto]|].
      destruct (trimAt_ok i j (top s) Hij 0 Ht) as (X1 & X2). rewrite !Z.add_0_l, ?Z.sub_0_r in X1, X2. rewrite <- pk_len in X1, X2.
      destruct ((i <? 0) || (len (ent s) <=? j)) eqn:Eo.
      + apply orb_true_iff in Eo. destruct (Z.lt_ge_cases i 0) as [Hi|Hi].
        * destruct X2 as (t' & -> & X3 & X4); [lia|lia|]. cbn [fst snd top]. rewrite X3. split; [auto|tauto].
        * destruct (trimAt_beyond cmp i j (top s) Hij 0 Ht) as (t' & Eb); [rewrite <- pk_len; lia|]. rewrite Z.add_0_l in Eb. rewrite Eb in *. cbn [fst snd top].
          split; [|tauto]. split; [reflexivity|]. intros Hno. destruct X2 as (t2 & E2 & X3 & _); [lia|lia|]. injection E2 as ->. rewrite X3. reflexivity.
      + apply orb_false_iff in Eo. destruct X1 as (t' & -> & X3 & X4); [lia|]. rewrite ?Z.sub_0_r in X3. cbn [fst snd top]. split; [|split; [|tauto]].
        * split; [|reflexivity]. rewrite X3. unfold between. rewrite pk_skipn, pk_firstn. reflexivity.
        * intros _. apply (keep_wild s (firstn (Z.to_nat i) (elems (top s))) (elems t') (skipn (Z.to_nat (j + 1)) (elems (top s)))); auto.
          -- rewrite X3. replace (Z.to_nat (j + 1 - i)) with (Z.to_nat (j + 1) - Z.to_nat i)%nat by lia. apply window. lia.
          -- intros X. rewrite X in X3. cbn [elems] in X3. apply (f_equal (@length _)) in X3.
             rewrite firstn_length, skipn_length in X3. cbn [length] in X3. rewrite pk_len in Eo. unfold len in *. lia.
  Qed.
End Wild.
