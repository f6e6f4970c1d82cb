(** Tree lists: cutting by key, and runs of operations. *)
From Verif Require Import Base Bind Machine OrderSpec SMapSpec SMapFacts AvlTree AvlSpec AvlModel AvlProofs AvlAny IndexSpec IndexModel IndexProofs
  TreelistSpec TreelistModel TreelistLinks TreelistProofs.
Local Open Scope Z_scope.

Section Keys.
  Context {K V : Type} (ltb : K -> K -> bool) (W : weak_order ltb) (cmp : K -> K -> Z) (Hcmp : plain_cmp ltb cmp).
  Notation node := (nat * V)%type.
  Notation tree := (tree K node).
  Notation linkedl lk l := (linked (d lk) (e lk) l).
  Implicit Types (t l r : tree).
  Notation F f := (filter (fun e : K * node => f (fst e))).
  Notation NF f := (filter (fun e : K * node => negb (f (fst e)))).

  Lemma mono_split f (m : list (K * node)) : mono ltb f -> strictly_sorted ltb m -> m = F f m ++ NF f m.
  Proof.
    intros Hf. induction m as [|x m IH]; intros Hs; [reflexivity|].
    destruct (f (fst x)) eqn:E1.
    - destruct (mono_yes ltb f [] x m Hf Hs E1) as (X1 & X2). cbn [app] in X1, X2. rewrite X1, X2. cbn [app]. f_equal. apply IH.
      inversion_clear Hs; auto.
    - destruct (mono_no ltb f [] x m Hf Hs E1) as (X1 & X2). cbn [app] in X1, X2. rewrite X1, X2. reflexivity.
  Qed.

  Ltac side3 key ck := destruct (plain_cases ltb cmp Hcmp key ck) as [[Hc Ho]|[[Hc Ho]|[Hc Ho]]]; rewrite Hc;
    [change (-1 <? 0) with true
    |change (1 <? 0) with false; change (1 >? 0) with true
    |change (0 <? 0) with false; change (0 >? 0) with false]; cbv iota.
  Ltac cutL key := match goal with Ho : ltb key ?ck = true |- context[elems ?l ++ (?ck, ?cv) :: elems ?r] =>
    destruct (cut_left ltb W (elems l) (ck, cv) (elems r) key Ho) as (C1 & C2 & C3);
    [intros y Hy; apply (lt_asym _ W); auto|] end.
  Ltac cutR key := match goal with Ho : ltb ?ck key = true |- context[elems ?l ++ (?ck, ?cv) :: elems ?r] =>
    destruct (cut_right ltb W (elems l) (ck, cv) (elems r) key Ho) as (C1 & C2 & C3);
    [intros y Hy; apply (lt_asym _ W); auto|] end.
  Ltac cutS key := match goal with Ho : same ltb ?ck key = true, Hs : strictly_sorted ltb _ |- context[elems ?l ++ (?ck, ?cv) :: elems ?r] =>
    destruct (cut_same_strict ltb W (elems l) (ck, cv) (elems r) key Ho Hs) as (C1 & C2 & C3) end.

  Lemma write_len k x y (m : list (K * node)) : strictly_sorted ltb m -> sames ltb k m = [x] -> len (write ltb k y m) = len m.
  Proof.
    intros Hs E1. pose proof (cut_all ltb W m k (strict_weak ltb W _ Hs)) as CA. rewrite E1 in CA.
    apply (f_equal (@length _)) in CA. rewrite !app_length in CA. unfold write, len. rewrite !app_length. cbn [length] in *. lia.
  Qed.
  Lemma write_new_len k y (m : list (K * node)) : strictly_sorted ltb m -> sames ltb k m = [] -> len (write ltb k y m) = len m + 1.
  Proof.
    intros Hs E1. pose proof (cut_all ltb W m k (strict_weak ltb W _ Hs)) as CA. rewrite E1 in CA.
    apply (f_equal (@length _)) in CA. rewrite !app_length in CA. unfold write, len. rewrite !app_length. cbn [length] in *. lia.
  Qed.

  Lemma put_links hit x key v t : forall A B, strictly_sorted ltb (elems t) -> sized t ->
    match sames ltb key (elems t) with
    | [] => exists t' c, put cmp hit x key v (last_error A) (hd_error B) t =
              Some (t', Placed (last_error (A ++ ids (before ltb key (elems t)))) (hd_error (ids (after ltb key (elems t)) ++ B)) c) /\
            elems t' = write ltb key (key, (x, v)) (elems t) /\ (c = Broken \/ sized t') /\ climbOk (ht t + 1) c
    | (k0, (i, v0)) :: _ => exists t', put cmp hit x key v (last_error A) (hd_error B) t = Some (t', Found) /\
            elems t' = write ltb key (k0, (i, hit v0)) (elems t) /\ sized t'
    end.
  Proof.
    induction t as [|s ck [i cv] l IHl r IHr]; intros A B Hs Ht.
    - cbn [put sames elems filter before after ids map app]. rewrite app_nil_r. eexists _, _. split; [reflexivity|].
      cbn. repeat split; auto; lia.
    - pose proof Ht as (Hz & Hl & Hr). cbn [elems] in Hs |- *. destruct (strict_mid ltb _ _ _ Hs) as (Sl & Sr & Ll & Lr).
      cbn [put]. side3 key ck.
      + cutL key. unfold write. rewrite C1, C2, C3.
        specialize (IHl A (i :: ids (elems r) ++ B) Sl Hl). cbn [hd_error] in IHl.
        destruct (sames ltb key (elems l)) as [|[k0 [i0 v0]] xs] eqn:Es.
        * destruct IHl as (l' & c & -> & E1 & E2 & E3).
          pose proof (write_new_len key (key, (x, v)) (elems l) Sl Es) as Hn. rewrite <- E1 in Hn.
          destruct (fixPut_fine (ht l + 1) c s ck (i, cv) l' r E3) as (t' & c' & -> & F1 & F3 & F2).
          { destruct E2; auto. right. split; auto. split; auto. unfold len in *. lia. }
          exists t', c'. split; [|split; [|split]]; auto.
          -- rewrite ids_app, ids_cons. assoc. reflexivity.
          -- rewrite F1, E1. unfold write. assoc. reflexivity.
          -- cbn [ht]. destruct c'; cbn [climbOk] in *; auto; lia.
        * destruct IHl as (l' & -> & E1 & E2). eexists. split; [reflexivity|]. cbn [elems]. rewrite E1. unfold write. split; [assoc; reflexivity|].
          apply node_sized; auto. rewrite E1. destruct (strict_sames ltb W (elems l) key Sl) as [Q|(x' & Q)]; [congruence|].
          rewrite (write_len _ _ _ _ Sl Q). unfold len in *. lia.
      + cutR key. unfold write. rewrite C1, C2, C3.
        specialize (IHr (A ++ ids (elems l) ++ [i]) B Sr Hr). rewrite app_assoc, last_snoc in IHr.
        destruct (sames ltb key (elems r)) as [|[k0 [i0 v0]] xs] eqn:Es.
        * destruct IHr as (r' & c & -> & E1 & E2 & E3).
          pose proof (write_new_len key (key, (x, v)) (elems r) Sr Es) as Hn. rewrite <- E1 in Hn.
          destruct (fixPut_fine (ht r + 1) c s ck (i, cv) l r' E3) as (t' & c' & -> & F1 & F3 & F2).
          { destruct E2; auto. right. split; auto. split; auto. unfold len in *. lia. }
          exists t', c'. split; [|split; [|split]]; auto.
          -- rewrite ids_app, ids_cons. assoc. reflexivity.
          -- rewrite F1, E1. unfold write. assoc. reflexivity.
          -- cbn [ht]. destruct c'; cbn [climbOk] in *; auto; lia.
        * destruct IHr as (r' & -> & E1 & E2). eexists. split; [reflexivity|]. cbn [elems]. rewrite E1. unfold write. split; [assoc; reflexivity|].
          apply node_sized; auto. rewrite E1. destruct (strict_sames ltb W (elems r) key Sr) as [Q|(x' & Q)]; [congruence|].
          rewrite (write_len _ _ _ _ Sr Q). unfold len in *. lia.
      + cutS key. unfold write. rewrite C1, C2, C3. eexists. split; [reflexivity|]. cbn [elems]. split; auto.
  Qed.

  Lemma ltrim_links lk low t : forall A B, strictly_sorted ltb (elems t) -> sized t -> t <> E -> linkedl lk (A ++ ids (elems t) ++ B) ->
    exists t' dl, ltrim cmp lk low t = (t', dl) /\ elems t' = F (fun a => ltb a low) (elems t) /\ sized t' /\
      dl = last_error (A ++ ids (elems t')).
  Proof.
    induction t as [|s k [i v] l IHl r IHr]; intros A B Hs Ht Hne HL; [congruence|]. pose proof Ht as (_ & Hl & Hr). cbn [elems] in *.
    destruct (strict_mid ltb _ _ _ Hs) as (Sl & Sr & Ll & _). rewrite here in HL. cbn [ltrim].
    rewrite (gt0 ltb W cmp Hcmp), (lt0 ltb W cmp Hcmp). destruct (ltb k low) eqn:E1.
    - destruct (mono_yes ltb (fun a => ltb a low) _ _ _ (mono_lt ltb W low) Hs E1) as (-> & _).
      assert (exists r' dr, ltrim cmp lk low r = (r', dr) /\ elems r' = F (fun a => ltb a low) (elems r) /\ sized r' /\
        match r' with E => Some i | _ => dr end = last_error ((A ++ ids (elems l) ++ [i]) ++ ids (elems r'))) as (r' & dr & -> & E2 & E3 & E4).
      { destruct r as [|rs rk rv rl rr] eqn:Er.
        - exists E, None. cbn [ltrim elems sized filter ids map]. rewrite app_nil_r, app_assoc, last_snoc. auto.
        - rewrite <- Er in *. destruct (IHr (A ++ ids (elems l) ++ [i]) B Sr Hr) as (r' & dr & F1 & F2 & F3 & F4); [subst; congruence| |].
          { revert HL. assoc. auto. }
          exists r', dr. split; auto. split; auto. split; auto. destruct r' as [|? ? ? ? ?]; auto.
          cbn [elems ids map]. rewrite app_nil_r, app_assoc, last_snoc. reflexivity. }
      eexists _, _. split; [reflexivity|]. unfold sum. rewrite sum_elems, E2. split; auto. split; [apply sum_sized; auto|].
      rewrite E4, E2, ids_app, ids_cons. assoc. reflexivity.
    - destruct (mono_no ltb (fun a => ltb a low) _ _ _ (mono_lt ltb W low) Hs E1) as (-> & _). destruct (ltb low k) eqn:E2.
      + destruct l as [|ls lk' lv ll lr] eqn:El.
        * eexists _, _. split; [reflexivity|]. cbn [elems sized filter ids map app] in *. split; auto. split; auto. rewrite app_nil_r.
          apply (linked_left lk A i (ids (elems r) ++ B)). exact HL.
        * rewrite <- El in *. apply (IHl A (i :: ids (elems r) ++ B)); auto; [subst; congruence|]. revert HL. assoc. auto.
      + eexists _, _. split; [reflexivity|]. split; [|split]; auto.
        * symmetry. apply filter_all. intros y Hy. rewrite <- (same_lt_r ltb W k low); [apply (Ll y Hy)|apply same_iff; auto].
        * apply (linked_left lk (A ++ ids (elems l)) i (ids (elems r) ++ B)). revert HL. assoc. auto.
  Qed.
  Lemma rtrim_links lk high t : forall A B, strictly_sorted ltb (elems t) -> sized t -> t <> E -> linkedl lk (A ++ ids (elems t) ++ B) ->
    exists t' dr, rtrim cmp lk high t = (t', dr) /\ elems t' = NF (fun a => negb (ltb high a)) (elems t) /\ sized t' /\
      dr = hd_error (ids (elems t') ++ B).
  Proof.
    induction t as [|s k [i v] l IHl r IHr]; intros A B Hs Ht Hne HL; [congruence|]. pose proof Ht as (_ & Hl & Hr). cbn [elems] in *.
    destruct (strict_mid ltb _ _ _ Hs) as (Sl & Sr & _ & Lr). rewrite here in HL. cbn [rtrim].
    rewrite (gt0 ltb W cmp Hcmp), (lt0 ltb W cmp Hcmp). destruct (ltb high k) eqn:E1.
    - destruct (mono_no ltb (fun a => negb (ltb high a)) _ (k, (i, v)) _ (mono_le ltb W high) Hs) as (_ & ->); [cbn [fst]; rewrite E1; auto|].
      assert (exists l' dl, rtrim cmp lk high l = (l', dl) /\ elems l' = NF (fun a => negb (ltb high a)) (elems l) /\ sized l' /\
        match l' with E => Some i | _ => dl end = hd_error (ids (elems l') ++ i :: ids (elems r) ++ B)) as (l' & dl & -> & E2 & E3 & E4).
      { destruct l as [|ls lk' lv ll lr] eqn:El.
        - exists E, None. cbn [rtrim elems sized filter ids map app]. auto.
        - rewrite <- El in *. destruct (IHl A (i :: ids (elems r) ++ B) Sl Hl) as (l' & dl & F1 & F2 & F3 & F4); [subst; congruence| |].
          { revert HL. assoc. auto. }
          exists l', dl. split; auto. split; auto. split; auto. destruct l' as [|? ? ? ? ?]; auto. }
      eexists _, _. split; [reflexivity|]. unfold sum. rewrite sum_elems, E2. split; auto. split; [apply sum_sized; auto|].
      rewrite E4, E2, ids_app, ids_cons. assoc. reflexivity.
    - destruct (mono_yes ltb (fun a => negb (ltb high a)) _ (k, (i, v)) _ (mono_le ltb W high) Hs) as (_ & ->); [cbn [fst]; rewrite E1; auto|].
      destruct (ltb k high) eqn:E2.
      + destruct r as [|rs rk rv rl rr] eqn:Er.
        * eexists _, _. split; [reflexivity|]. cbn [elems sized filter ids map app] in *. split; auto. split; auto.
          apply (linked_right lk (A ++ ids (elems l)) i B). revert HL. assoc. auto.
        * rewrite <- Er in *. apply (IHr (A ++ ids (elems l) ++ [i]) B); auto; [subst; congruence|]. revert HL. assoc. auto.
      + eexists _, _. split; [reflexivity|]. split; [|split]; auto.
        * symmetry. apply filter_all. intros y Hy. rewrite negb_involutive, <- (same_lt_l ltb W k high); [apply (Lr y Hy)|apply same_iff; auto].
        * apply (linked_right lk (A ++ ids (elems l)) i (ids (elems r) ++ B)). revert HL. assoc. auto.
  Qed.

  Lemma removeRange_links lk low high t : ltb high low = false -> forall A B, strictly_sorted ltb (elems t) -> sized t ->
    linkedl lk (A ++ ids (elems t) ++ B) ->
    exists t' c dd, removeRange cmp lk low high t = Some (t', c, dd) /\
      elems t' = NF (within ltb low high) (elems t) /\ sized t' /\ cutOk c (len (elems t)) (len (elems t')) /\
      match dd with
      | None => elems t' = elems t
      | Some dd => cutAt A B (elems t) (elems t') dd
      end.
  Proof.
    intros Hlh. induction t as [|s k [i v] l IHl r IHr]; intros A B Hs Ht HL.
    - exists E, Nothing, None. repeat split; reflexivity.
    - pose proof Ht as (Hz & Hl & Hr). cbn [elems] in Hs, HL |- *. destruct (strict_mid ltb _ _ _ Hs) as (Sl & Sr & Ll & Lr).
      rewrite here in HL. cbn [fst] in Ll, Lr. cbn [removeRange]. unfold upFromCut, closeCut.
      destruct (range_here ltb W cmp Hcmp low high k Hlh) as [(-> & H2 & H3 & H4)|[(-> & H2 & H3 & H4)|(H1 & H2)]].
      + replace (_ && (cmp high k <? 0)) with true by (rewrite Z.eqb_refl, (lt0 ltb W cmp Hcmp), H3; reflexivity).
        destruct (IHl A (i :: ids (elems r) ++ B) Sl Hl) as (l' & c & dd & -> & E2 & E3 & E4 & E5); [revert HL; assoc; auto|].
        destruct (up_left c s k (i, v) l l' r Ht E3 E4) as (X1 & X2 & X3). eexists _, _, _. split; [reflexivity|].
        rewrite X2. split; [|split; [|split]]; auto.
        * rewrite E2, filter_app. cbn [filter fst]. f_equal.
          replace (within ltb low high k) with false by (unfold within; rewrite H3; symmetry; apply andb_false_r). cbn [negb].
          f_equal. symmetry. apply filter_all. intros y Hy. rewrite (out_right ltb W low high (elems r) k H3 Lr y Hy). reflexivity.
        * rewrite X2 in X3. exact X3.
        * destruct dd as [dd|]; [|congruence]. apply (cutAt_left A B _ _ dd (k, (i, v)) i); auto.
      + replace (_ && (cmp high k <? 0)) with false by (rewrite (lt0 ltb W cmp Hcmp), (lt_asym _ W _ _ H4), andb_false_r; reflexivity).
        replace (_ && (cmp high k >? 0)) with true by (rewrite Z.eqb_refl, (gt0 ltb W cmp Hcmp), H4; reflexivity).
        destruct (IHr (A ++ ids (elems l) ++ [i]) B Sr Hr) as (r' & c & dd & -> & E2 & E3 & E4 & E5); [revert HL; assoc; auto|].
        destruct (up_right c s k (i, v) l r r' Ht E3 E4) as (X1 & X2 & X3). eexists _, _, _. split; [reflexivity|].
        rewrite X2. split; [|split; [|split]]; auto.
        * rewrite E2, filter_app. cbn [filter fst].
          replace (within ltb low high k) with false by (unfold within; rewrite H3; reflexivity). cbn [negb].
          f_equal. symmetry. apply filter_all. intros y Hy. rewrite (out_left ltb W low high (elems l) k H3 Ll y Hy). reflexivity.
        * rewrite X2 in X3. exact X3.
        * destruct dd as [dd|]; [|congruence]. apply (cutAt_right A B _ _ dd (k, (i, v)) i); auto.
      + replace ((cmp low k =? cmp high k) && (cmp low k <? 0)) with false.
        2:{ symmetry. apply andb_false_iff. destruct H1 as [H1|H1]; [left; apply Z.eqb_neq; auto|right; rewrite H1; auto]. }
        replace ((cmp low k =? cmp high k) && (cmp low k >? 0)) with false.
        2:{ symmetry. apply andb_false_iff. destruct H1 as [H1|H1]; [left; apply Z.eqb_neq; auto|right; rewrite H1; auto]. }
        assert (exists l' dl, match l with E => (E, d lk i false) | _ => ltrim cmp lk low l end = (l', dl) /\
          elems l' = F (fun a => ltb a low) (elems l) /\ sized l' /\ dl = last_error (A ++ ids (elems l'))) as (l' & dl & L0 & L1 & L2 & L3).
        { destruct l as [|ls lk' lv ll lr] eqn:El.
          - exists E, (d lk i false). cbn [elems sized filter ids map]. rewrite app_nil_r.
            split; auto. split; auto. split; auto. apply (linked_left lk A i (ids (elems r) ++ B)). exact HL.
          - rewrite <- El in *. apply (ltrim_links lk low l A (i :: ids (elems r) ++ B)); auto; [subst; congruence|].
            revert HL. assoc. auto. }
        assert (exists r' dr, match r with E => (E, d lk i true) | _ => rtrim cmp lk high r end = (r', dr) /\
          elems r' = NF (fun a => negb (ltb high a)) (elems r) /\ sized r' /\ dr = hd_error (ids (elems r') ++ B))
          as (r' & dr & R0 & R1 & R2 & R3).
        { destruct r as [|rs rk rv rl rr] eqn:Er.
          - exists E, (d lk i true). cbn [elems sized filter ids map app].
            split; auto. split; auto. split; auto. apply (linked_right lk (A ++ ids (elems l)) i B). cbn [elems ids map] in HL. revert HL. assoc. auto.
          - rewrite <- Er in *. apply (rtrim_links lk high r (A ++ ids (elems l) ++ [i]) B); auto; [subst; congruence|].
            revert HL. assoc. auto. }
        rewrite L0, R0.
        destruct (closeCut_ok (N s k (i, v) l r) _ _ Ht L2 R2) as (t' & c & C1 & C2 & C3 & C4). cbn [IndexModel.getSize] in C1. rewrite C1.
        eexists _, _, _. split; [reflexivity|]. split; [|split; [|split]]; auto.
        * rewrite C2, L1, R1, filter_app. cbn [filter fst]. rewrite H2. cbn [negb].
          f_equal; apply filter_eq; intros y Hy.
          -- rewrite (in_left ltb W low high k y H2 (Ll y Hy)), negb_involutive. reflexivity.
          -- rewrite (in_right ltb W low high k y H2 (Lr y Hy)). reflexivity.
        * exists (elems l'), (NF (fun a => ltb a low) (elems l) ++ (k, (i, v)) :: F (fun a => negb (ltb high a)) (elems r)), (elems r').
          rewrite L1, R1. split; [|split; [|split; [|split]]].
          -- rewrite (mono_split (fun a => ltb a low) (elems l)) at 1 by (auto; apply mono_lt; auto).
             rewrite (mono_split (fun a => negb (ltb high a)) (elems r)) at 1 by (auto; apply mono_le; auto). assoc. reflexivity.
          -- intros X. apply app_eq_nil in X. destruct X; discriminate.
          -- rewrite C2, L1, R1. reflexivity.
          -- cbn [fst]. rewrite L3, L1. reflexivity.
          -- cbn [snd]. rewrite R3, R1. reflexivity.
  Qed.

  (** ** runs of operations *)
  Definition TRel (stale : bool) (s : TreelistModel.tl K V) (m : list (K * V)) : Prop :=
    pk (elems (top s)) = m /\ sized (top s) /\ strictly_sorted ltb m /\ NoDup (ids (elems (top s))) /\
    (forall x, In x (ids (elems (top s))) -> (x < fresh s)%nat) /\
    (stale = false -> linkedl (lks s) (ids (elems (top s)))) /\ (stale = true -> m = []).

  (** the same state, given by the entries with their numbers *)
  Definition Good (s : TreelistModel.tl K V) (m : list (K * node)) : Prop :=
    elems (top s) = m /\ sized (top s) /\ NoDup (ids m) /\ (forall x, In x (ids m) -> (x < fresh s)%nat) /\ linkedl (lks s) (ids m).
  Lemma good_rel s m : Good s m -> strictly_sorted ltb m -> TRel false s (pk m).
  Proof.
    intros (<- & H1 & H2 & H3 & H4) Hs. unfold TRel. split; [auto|]. split; [auto|]. split; [apply pk_sorted; auto|].
    split; [auto|]. split; [auto|]. split; [auto|congruence].
  Qed.

  Lemma around_sorted i j (m : list (K * V)) : 0 <= j + 1 -> i <= j + 1 -> strictly_sorted ltb m -> strictly_sorted ltb (around i j m).
  Proof.
    intros H1 H2 Hm. unfold around, strictly_sorted. rewrite ssorted_app. split; [|split].
    - apply ssorted_firstn; auto.
    - apply ssorted_skipn; auto.
    - intros x y Hx Hy. exact (ssorted_cross _ (Z.to_nat i) (Z.to_nat (j + 1)) m x y Hm ltac:(lia) Hx Hy).
  Qed.
  Lemma tl_spec_sorted m o : strictly_sorted ltb m -> strictly_sorted ltb (fst (tl_spec (V := V) ltb m o)).
  Proof.
    intros Hm.
    assert (Hk : forall k k0 v0 v xs, sames ltb k m = (k0, v0) :: xs -> strictly_sorted ltb (write ltb k (k0, v) m)).
    { intros k k0 v0 v xs E. apply (write_sorted ltb W); auto.
      assert (H : In (k0, v0) (sames ltb k m)) by (rewrite E; simpl; auto). apply filter_In in H. tauto. }
    assert (Hn : forall k v, strictly_sorted ltb (write ltb k (k, v) m)).
    { intros k v. apply (write_sorted ltb W); auto. apply (same_refl _ W). }
    destruct o; cbn [tl_spec]; auto.
    - destruct (sames ltb k m); cbn [fst]; auto.
    - destruct (sames ltb k m) as [|[k0 v0] l] eqn:E; cbn [fst]; eauto.
    - destruct (sames ltb k m) as [|[k0 v0] l] eqn:E; cbn [fst]; eauto.
    - apply (erase_sorted ltb W); auto.
    - cbn [entry_at]. destruct (Z.leb_spec 0 i); cbn [andb]; auto. destruct (i <? len m); auto. destruct (nth_error m (Z.to_nat i)); auto.
      apply around_sorted; auto; lia.
    - cbn [fst]. destruct m; [auto|]. inversion_clear Hm. auto.
    - cbn [fst]. destruct (snoc_cases m) as [->|(a & x & ->)]; [constructor|]. rewrite removelast_last. apply ssorted_app in Hm. tauto.
    - constructor.
    - destruct (ltb hi lo); auto. apply ssorted_filter; auto.
    - destruct (Z.ltb_spec j i); auto. destruct ((j <? 0) || _ || _) eqn:E; auto. rewrite !orb_false_iff in E.
      apply around_sorted; auto; lia.
    - destruct (ltb hi lo); auto. apply ssorted_filter; auto.
    - destruct ((j <? i) || (i <? 0) || (len m <=? j)); auto. apply ssorted_firstn, ssorted_skipn; auto.
  Qed.

  (** Put, Set, PutDuplicate *)
  Lemma putWith_ok stale s m k v ins ex hit : TRel stale s m ->
    (63 < ht (top s) /\ exists s', putWith cmp k v ins ex hit s = Some (s', TPanic)) \/
    exists s', putWith cmp k v ins ex hit s = Some (s', TBool match sames ltb k m with [] => ins | _ => ex end) /\
      TRel false s' match sames ltb k m with [] => write ltb k (k, v) m | (k0, v0) :: _ => write ltb k (k0, hit v0) m end.
  Proof.
    intros (Ee & Ht & Hs & Hn & Hf & HL & Hst). assert (Hs' := Hs). rewrite <- Ee in Hs'. apply pk_sorted in Hs'.
    pose proof (put_links hit (fresh s) k v (top s) [] [] Hs' Ht) as P. cbn [last_error rev hd_error] in P.
    unfold putWith. rewrite <- Ee, pk_sames.
    destruct (sames ltb k (elems (top s))) as [|[k0 [i v0]] xs] eqn:Es.
    - destruct P as (t' & c & -> & E1 & E2 & E3). cbn [pk map].
      destruct E2 as [->|E2]; [left; split; [cbn [climbOk] in E3; lia|eexists; reflexivity]|].
      assert (Hb : c = Broken \/ c <> Broken) by (destruct c; auto; right; discriminate).
      destruct Hb as [->|Hb]; [left; split; [cbn [climbOk] in E3; lia|eexists; reflexivity]|right].
      eexists. split; [destruct c; try reflexivity; congruence|].
      change (k, v) with (@plainKV K V (k, (fresh s, v))). rewrite pk_write. apply good_rel.
      + assert (Ha : elems (top s) = before ltb k (elems (top s)) ++ after ltb k (elems (top s))).
        { pose proof (cut_all ltb W _ k (strict_weak ltb W _ Hs')) as CA. rewrite Es in CA. exact CA. }
        assert (Hx : NoDup (ids (before ltb k (elems (top s))) ++ fresh s :: ids (after ltb k (elems (top s))))).
        { rewrite Ha, ids_app in Hn, Hf.
          apply NoDup_Add with (a := fresh s) (l := ids (before ltb k (elems (top s))) ++ ids (after ltb k (elems (top s)))); [apply Add_app|].
          split; auto. intros X. apply Hf in X. lia. }
        unfold Good. cbn [top lks fresh]. split; [exact E1|]. split; [exact E2|]. unfold write. rewrite ids_app, ids_cons. cbn [fst snd].
        split; [exact Hx|]. split.
        * intros x Hi. rewrite Ha, ids_app in Hf. rewrite in_app_iff in Hi. cbn [In] in Hi.
          destruct Hi as [Hi|[<-|Hi]]; [|lia|]; specialize (Hf x); rewrite in_app_iff in Hf; specialize (Hf ltac:(tauto)); lia.
        * rewrite app_nil_l, app_nil_r. destruct stale.
          -- rewrite Hst in Ee by auto. apply pk_nil in Ee. rewrite Ee. cbn.
             split; [reflexivity|split; [reflexivity|]]. intros a x b Eq. destruct a as [|y [|z a]]; try discriminate. injection Eq as <- <-.
             rewrite !Nat.eqb_refl. cbn. auto.
          -- apply attachLinks_ok; auto. rewrite <- ids_app, <- Ha. auto.
      + apply (write_sorted ltb W); auto. apply (same_refl _ W).
    - right. destruct P as (t' & -> & E1 & E2). cbn [pk map plainKV fst snd]. eexists. split; [reflexivity|].
      change (k0, hit v0) with (@plainKV K V (k0, (i, hit v0))). change (map plainKV ?x) with (pk x). rewrite pk_write.
      destruct (strict_sames ltb W (elems (top s)) k Hs') as [Q|(x' & Q)]; rewrite Q in Es; [discriminate|]. injection Es as -> <-.
      assert (Hi : ids (write ltb k (k0, (i, hit v0)) (elems (top s))) = ids (elems (top s))).
      { pose proof (cut_all ltb W _ k (strict_weak ltb W _ Hs')) as CA. rewrite Q in CA. rewrite CA at 2. unfold write.
        rewrite !ids_app, ids_cons. reflexivity. }
      apply good_rel.
      + unfold Good. cbn [top lks fresh]. rewrite Hi. split; [exact E1|]. split; [exact E2|]. split; [exact Hn|]. split; [exact Hf|].
        apply HL. destruct stale; auto. exfalso. rewrite Hst in Ee by auto. apply pk_nil in Ee. rewrite Ee in Q. discriminate.
      + apply (write_sorted ltb W); auto. cbn [fst]. assert (H : In (k0, (i, v0)) (sames ltb k (elems (top s)))) by (rewrite Q; simpl; auto).
        apply filter_In in H. tauto.
  Qed.

  (** removing one node *)
  Lemma good_sub (s : TreelistModel.tl K V) t' lk P M Q : NoDup (ids (P ++ M ++ Q)) -> (forall x, In x (ids (P ++ M ++ Q)) -> (x < fresh s)%nat) ->
    elems t' = P ++ Q -> sized t' -> linkedl lk (ids (P ++ Q)) -> Good (T t' lk (fresh s)) (P ++ Q).
  Proof.
    intros H1 H2 H3 H4 H5. rewrite !ids_app in H1, H2. unfold Good. cbn [top lks fresh]. split; [auto|]. split; [auto|]. split; [|split; [|auto]]; rewrite ids_app.
    - clear - H1. induction (ids P) as [|x p IH]; cbn [app] in *.
      + apply NoDup_app_remove_l in H1. auto.
      + inversion_clear H1. constructor; auto. rewrite !in_app_iff in *. tauto.
    - intros x. rewrite in_app_iff. intros X. apply H2. rewrite !in_app_iff. tauto.
  Qed.

  Lemma removeNode_links (s : TreelistModel.tl K V) m P k x v Q : Good s m -> m = P ++ (k, (x, v)) :: Q ->
    exists s' m', removeNode x s = Some (s', TSlice (Some (k, v))) /\ Good s' m' /\ pk m' = pk (P ++ Q).
  Proof.
    intros (Ee & Ht & Hn & Hf & HL) Em. rewrite Em in *.
    destruct (removeAt_ok x (top s) Ht) with (P := P) (k := k) (v := v) (Q := Q) as (t' & how & E1 & E2 & E3 & E4); auto; [rewrite Ee; auto|].
    unfold removeNode. rewrite E1.
    assert (Hlx : d (lks s) x false = last_error (ids P)).
    { rewrite ids_app, ids_cons in HL. apply (linked_left _ _ _ _ HL). }
    assert (Hrx : d (lks s) x true = hd_error (ids Q)).
    { rewrite ids_app, ids_cons in HL. apply (linked_right _ _ _ _ HL). }
    destruct how; cbn [goneOk removeLinks] in *.
    - eexists _, (P ++ Q). split; [reflexivity|]. split; auto.
      apply (good_sub s t' _ P [(k, (x, v))] Q); auto.
      destruct (match top s with N _ _ (i, _) _ _ => Nat.eqb i x | E => false end) eqn:Er.
      + destruct (top s) as [|s0 k1 [i1 v1] l1 r1] eqn:Et; [discriminate|]. apply Nat.eqb_eq in Er. subst i1.
        destruct (E4 _ _ _ _ _ eq_refl eq_refl) as (-> & ->). apply cleared_ok.
      + rewrite Hlx, Hrx, ids_app. apply (unlink_ok (lks s) (ids P) [x] (ids Q)).
        * rewrite ids_app in HL. exact HL.
        * rewrite ids_app in Hn. exact Hn.
    - destruct E3 as (P' & k' & i & v' & -> & E3). replace (d (lks s) x false) with (Some i) by (rewrite Hlx, ids_app; symmetry; apply last_snoc).
      eexists _, (P' ++ (k', (x, v')) :: Q). split; [reflexivity|]. split.
      2:{ rewrite !pk_app, !pk_cons. assoc. reflexivity. }
      assert (I1 : ids ((P' ++ [(k', (i, v'))]) ++ (k, (x, v)) :: Q) = ids P' ++ [i] ++ x :: ids Q).
      { rewrite !ids_app, !ids_cons. assoc. reflexivity. }
      assert (I2 : ids (P' ++ (k', (x, v')) :: Q) = ids P' ++ x :: ids Q) by (rewrite ids_app; reflexivity).
      rewrite I1 in *. unfold Good. cbn [top lks fresh]. rewrite I2. split; auto. split; auto. split; [|split].
      + clear - Hn. apply nodup_mid in Hn. tauto.
      + intros y Hy. apply Hf. rewrite in_app_iff in *. simpl in *. tauto.
      + replace (d (lks s) i false) with (last_error (ids P')) by (symmetry; apply (linked_left _ _ _ _ HL)).
        apply (unlink_ok (lks s) (ids P') [i] (x :: ids Q)); auto.
    - destruct E3 as (Q' & k' & i & v' & -> & E3). rewrite ids_cons in Hrx. cbn [fst snd hd_error] in Hrx. rewrite Hrx.
      eexists _, (P ++ (k', (x, v')) :: Q'). split; [reflexivity|]. split.
      2:{ rewrite !pk_app, !pk_cons. assoc. reflexivity. }
      assert (I1 : ids (P ++ (k, (x, v)) :: (k', (i, v')) :: Q') = (ids P ++ [x]) ++ [i] ++ ids Q').
      { rewrite !ids_app, !ids_cons. assoc. reflexivity. }
      assert (I2 : ids (P ++ (k', (x, v')) :: Q') = (ids P ++ [x]) ++ ids Q') by (rewrite ids_app, ids_cons; assoc; reflexivity).
      rewrite I1 in *. unfold Good. cbn [top lks fresh]. rewrite I2. split; auto. split; auto. split; [|split].
      + clear - Hn. apply nodup_mid in Hn. tauto.
      + intros y Hy. apply Hf. rewrite !in_app_iff in *. simpl in *. tauto.
      + replace (d (lks s) i true) with (hd_error (ids Q')) by (symmetry; apply (linked_right _ _ _ _ HL)).
        pose proof (unlink_ok (lks s) (ids P ++ [x]) [i] (ids Q') HL Hn) as U. rewrite last_snoc in U. exact U.
  Qed.

  Lemma rel_same stale s m : TRel stale s m -> TRel match m with [] => stale | _ => false end s m.
  Proof.
    intros H. destruct m as [|x m]; auto. destruct stale; auto. destruct H as (_ & _ & _ & _ & _ & _ & H). discriminate (H eq_refl).
  Qed.
  Lemma rel_new stale s m : TRel false s m -> TRel match m with [] => stale | _ => false end s m.
  Proof.
    intros H. destruct m as [|x m]; auto. destruct H as (H1 & H2 & H3 & H4 & H5 & H6 & _). repeat (split; auto).
  Qed.
  Lemma rel_good stale s m : TRel stale s m -> top s <> E -> Good s (elems (top s)).
  Proof.
    intros (H1 & H2 & H3 & H4 & H5 & H6 & H7) Hn. unfold Good. split; [auto|]. split; [auto|]. split; [auto|]. split; [auto|]. apply H6. destruct stale; auto.
    exfalso. apply Hn, elems_nil. rewrite H7 in H1 by auto. apply pk_nil in H1. auto.
  Qed.
  Lemma filter_exists {X} (f : X -> bool) (l : list X) : existsb f l = false -> filter (fun x => negb (f x)) l = l.
  Proof.
    intros H. apply filter_all. intros x Hx. destruct (f x) eqn:E; auto. exfalso.
    assert (existsb f l = true) by (apply existsb_exists; eauto). congruence.
  Qed.
  Lemma exists_filter {X} (f : X -> bool) (l : list X) : filter (fun x => negb (f x)) l = l -> existsb f l = false.
  Proof.
    intros H. destruct (existsb f l) eqn:E; auto. apply existsb_exists in E. destruct E as (x & E1 & E2).
    rewrite <- H in E1. apply filter_In in E1. rewrite E2 in E1. destruct E1; discriminate.
  Qed.

  (** what one removed node leaves *)
  Lemma removeNode_rel stale s m P k x v Q : TRel stale s m -> elems (top s) = P ++ (k, (x, v)) :: Q ->
    exists s', removeNode x s = Some (s', TSlice (Some (k, v))) /\ (strictly_sorted ltb (pk (P ++ Q)) -> TRel false s' (pk (P ++ Q))).
  Proof.
    intros HR Ee.
    assert (Hne : top s <> E) by (intros X; rewrite X in Ee; destruct P; discriminate).
    destruct (removeNode_links s _ P k x v Q (rel_good stale s m HR Hne) Ee) as (s' & m' & E1 & E2 & E3).
    exists s'. split; auto. rewrite <- E3. intros Hs. apply good_rel; auto. apply pk_sorted in Hs. exact Hs.
  Qed.

  Lemma Remove_ok stale s m k : TRel stale s m ->
    exists s', Remove cmp k s = Some (s', TSlice (hd_error (sames ltb k m))) /\
      TRel match erase ltb k m with [] => stale | _ => false end s' (erase ltb k m).
  Proof.
    intros HR. pose proof HR as (Ee & Ht & Hs & _). assert (Hs' := Hs). rewrite <- Ee in Hs'. apply pk_sorted in Hs'.
    pose proof (getNode_ok ltb W cmp Hcmp k (top s) Hs') as G. pose proof (cut_all ltb W _ k (strict_weak ltb W _ Hs')) as CA.
    unfold Remove, getNode. rewrite <- Ee, pk_sames, pk_erase.
    destruct (strict_sames ltb W (elems (top s)) k Hs') as [Q|([k0 [i v0]] & Q)]; rewrite Q in *.
    - rewrite G. eexists. split; [reflexivity|]. cbn [app] in CA. unfold erase. rewrite <- CA, Ee. apply rel_same; auto.
    - destruct G as (s1 & l1 & r1 & ->). cbn [app] in CA.
      destruct (removeNode_rel stale s m _ k0 i v0 _ HR CA) as (s' & -> & H).
      exists s'. split; [reflexivity|]. apply rel_new. apply H. change (before ltb k (elems (top s)) ++ after ltb k (elems (top s))) with (erase ltb k (elems (top s))).
      apply pk_sorted, (erase_sorted ltb W); auto.
  Qed.

  Lemma cut_rel s m m' t' dl dr : Good s m -> cutAt [] [] m m' (dl, dr) -> elems t' = m' -> sized t' -> strictly_sorted ltb m' ->
    TRel false (T t' (unlink dl dr (lks s)) (fresh s)) (pk m').
  Proof.
    intros (Ee & Ht & Hn & Hf & HL) (P & M & Q & -> & _ & -> & H1 & H2) E1 E2 Hs. cbn [fst snd app] in H1, H2. rewrite app_nil_r in H2.
    apply good_rel; auto. apply (good_sub s t' _ P M Q); auto. subst dl dr. rewrite !ids_app in *. apply (unlink_ok (lks s) (ids P) (ids M) (ids Q)); auto.
  Qed.
  Lemma keep_rel s P M Q t' : Good s (P ++ M ++ Q) -> elems t' = M -> sized t' -> strictly_sorted ltb M -> t' <> E ->
    TRel false (T t' (closeEnds t' (lks s)) (fresh s)) (pk M).
  Proof.
    intros (Ee & Ht & Hn & Hf & HL) E1 E2 Hs Hne. rewrite !ids_app in *.
    assert (HnM : NoDup (ids M)) by (apply NoDup_app_remove_l in Hn; apply NoDup_app_remove_r in Hn; auto).
    apply good_rel; auto. unfold Good. cbn [top lks fresh]. split; auto. split; auto. split; auto. split.
    - intros x Hx. apply Hf. rewrite !in_app_iff. auto.
    - subst M. apply (closeEnds_ok (lks s) t' (ids P) (ids Q)); auto.
  Qed.
  Lemma within_split low high (m : list (K * node)) : ltb high low = false -> strictly_sorted ltb m ->
    m = F (fun a => ltb a low) m ++ F (within ltb low high) m ++ F (fun a => ltb high a) m.
  Proof.
    intros Hlh Hs. rewrite (mono_split (fun a => ltb a low) m) at 1 by (auto; apply mono_lt; auto). f_equal.
    rewrite (mono_split (fun a => negb (ltb high a)) (NF (fun a => ltb a low) m)) at 1 by (auto using ssorted_filter; try apply mono_le; auto; apply ssorted_filter; auto).
    f_equal.
    - clear. induction m as [|x m IH]; auto. cbn [filter]. unfold within in *. destruct (ltb (fst x) low); cbn [negb andb filter]; auto.
      destruct (ltb high (fst x)); cbn [negb]; rewrite IH; auto.
    - clear Hs. induction m as [|x m IH]; auto. cbn [filter]. destruct (ltb (fst x) low) eqn:E1; cbn [negb filter].
      + destruct (ltb high (fst x)) eqn:E2; auto. rewrite (wo_trans _ W _ _ _ E2 E1) in Hlh. discriminate.
      + rewrite negb_involutive. destruct (ltb high (fst x)); rewrite IH; auto.
  Qed.
  Lemma window (a b : nat) (m : list (K * node)) : (a <= b)%nat -> m = firstn a m ++ firstn (b - a) (skipn a m) ++ skipn b m.
  Proof.
    intros H. rewrite <- (firstn_skipn a m) at 1. f_equal. rewrite <- (firstn_skipn (b - a) (skipn a m)) at 1. f_equal.
    rewrite skipn_add. f_equal. lia.
  Qed.

  Lemma step_low stale s m o : TRel stale s m -> put_fails o (snd (tl_step cmp s o)) -> 63 < ht (top s).
  Proof.
    intros HR. destruct o; cbn [tl_step put_fails]; try tauto.
    - destruct (putWith_ok stale s m k v true false (fun v0 => v0) HR) as [(X & _)|(s' & -> & _)]; [auto|intros []].
    - destruct (putWith_ok stale s m k v false true (fun _ => v) HR) as [(X & _)|(s' & -> & _)]; [auto|intros []].
    - destruct (putWith_ok stale s m k v false true f HR) as [(X & _)|(s' & -> & _)]; [auto|intros []].
  Qed.

  Lemma step_ok stale s m o : TRel stale s m -> trim_inside m o -> ~ put_fails o (snd (tl_step cmp s o)) ->
    TRel (stale_after ltb stale m o) (fst (tl_step cmp s o)) (fst (tl_spec ltb m o)) /\
    (end_ok stale o -> snd (tl_step cmp s o) = snd (tl_spec ltb m o)).
  Proof.
    intros HR Hp Hh. pose proof HR as (Ee & Ht & Hs & Hn & Hf & HL & Hst). assert (Hs' := Hs). rewrite <- Ee in Hs'. apply pk_sorted in Hs'.
    assert (HS := tl_spec_sorted m o Hs).
    assert (Hsame : TRel match m with [] => stale | _ => false end s m) by (apply rel_same; auto).
    assert (Htr : forall go, Traverse go (top s) = visit go [] m).
    { intros go. unfold Traverse. destruct (traverse_ok (fun seen => go (map plainKV seen)) (top s) []) as (X & _). rewrite X.
      rewrite <- Ee. symmetry. apply (pk_visit go (elems (top s)) []). }
    assert (HP : forall k v ins ex hit, snd (orPanic s (putWith cmp k v ins ex hit s)) <> TPanic -> exists s', putWith cmp k v ins ex hit s = Some (s', TBool match sames ltb k m with [] => ins | _ => ex end) /\
      TRel false s' match sames ltb k m with [] => write ltb k (k, v) m | (k0, v0) :: _ => write ltb k (k0, hit v0) m end)
      by (intros k v ins ex hit; destruct (putWith_ok stale s m k v ins ex hit HR) as [(_ & s' & ->)|X]; [intros []; reflexivity|auto]).
    assert (HNP : forall r : tl_out K V, ~ match r with TPanic => True | _ => False end -> r <> TPanic) by (intros r X ->; auto).
    assert (Hend : forall dir, stale = false -> endSlice dir s = TSlice (if dir then last_error m else hd_error m)).
    { intros dir ->. unfold endSlice. destruct (HL eq_refl) as (L1 & L2 & _). rewrite <- Ee.
      destruct dir; [rewrite L2, ids_last, pk_last|rewrite L1, ids_hd, pk_hd].
      - destruct (last_error (elems (top s))) as [[k [i v]]|] eqn:El; [|reflexivity]. cbn [option_map fst snd].
        rewrite (slice_ok i k v); auto. apply last_in; auto.
      - destruct (hd_error (elems (top s))) as [[k [i v]]|] eqn:El; [|reflexivity]. cbn [option_map fst snd].
        rewrite (slice_ok i k v); auto. apply hd_in; auto. }
    destruct o; cbn [tl_step tl_spec stale_after end_ok trim_inside] in *.
    - (* Put *)
      cbn [put_fails] in Hh. destruct (HP k v true false (fun v0 => v0) (HNP _ Hh)) as (s' & -> & E1). cbn [orPanic fst snd].
      destruct (strict_sames ltb W m k Hs) as [Q|([k0 v0] & Q)]; rewrite Q in *; cbn [fst snd] in *; (split; [|reflexivity]).
      + apply rel_new. auto.
      + apply rel_new. replace m with (write ltb k (k0, v0) m); auto. unfold write.
        pose proof (cut_all ltb W m k (strict_weak ltb W _ Hs)) as CA. rewrite Q in CA. symmetry. exact CA.
    - cbn [put_fails] in Hh. destruct (HP k v false true (fun _ => v) (HNP _ Hh)) as (s' & -> & E1). cbn [orPanic fst snd].
      destruct (sames ltb k m) as [|[k0 v0] xs]; cbn [fst snd] in *; (split; [|reflexivity]); apply rel_new; auto.
    - cbn [put_fails] in Hh. destruct (HP k v false true f (HNP _ Hh)) as (s' & -> & E1). cbn [orPanic fst snd].
      destruct (sames ltb k m) as [|[k0 v0] xs]; cbn [fst snd] in *; (split; [|reflexivity]); apply rel_new; auto.
    - (* Get *)
      cbn [fst snd]. split; auto. intros _. pose proof (getNode_ok ltb W cmp Hcmp k (top s) Hs') as G. unfold getNode.
      rewrite <- Ee, pk_sames. destruct (sames ltb k (elems (top s))) as [|[k0 [i v0]] xs]; [rewrite G; reflexivity|].
      destruct G as (s1 & l1 & r1 & ->). reflexivity.
    - (* Remove *)
      destruct (Remove_ok stale s m k HR) as (s' & -> & E1). cbn [orPanic fst snd]. auto.
    - (* RemoveIndex *)
      unfold RemoveIndex, index. rewrite index_ok by auto. rewrite <- Ee, pk_entry_at in *.
      destruct (entry_at (elems (top s)) (Some i)) as [[k [x v]]|] eqn:En; cbn [option_map] in *.
      + assert (Hi : 0 <= i < len (elems (top s))).
        { destruct (Z.le_gt_cases 0 i), (Z.lt_ge_cases i (len (elems (top s)))); auto; rewrite entry_at_none in En by lia; discriminate. }
        rewrite entry_at_in in En by auto.
        assert (E1 : elems (top s) = firstn (Z.to_nat i) (elems (top s)) ++ (k, (x, v)) :: skipn (Z.to_nat (i + 1)) (elems (top s))).
        { pose proof (nth_error_split _ _ En) as (l1 & l2 & X1 & X2). rewrite X1 at 1. rewrite X1, <- X2.
          rewrite firstn_app, firstn_all2, Nat.sub_diag by lia. cbn [firstn]. rewrite app_nil_r. do 2 f_equal.
          replace (Z.to_nat (i + 1)) with (S (length l1)) by lia. clear. induction l1; auto. }
        destruct (removeNode_rel stale s _ _ k x v _ HR E1) as (s' & -> & X). cbn [orPanic fst snd] in *. split; [|reflexivity].
        apply rel_new. unfold around in *. rewrite pk_firstn, pk_skipn, <- pk_app in *. apply X. auto.
      + cbn [orPanic fst snd] in *. auto.
    - cbn [fst snd]. split; auto. intros H. apply (Hend false); auto.
    - cbn [fst snd]. split; auto. intros H. apply (Hend true); auto.
    - (* RemoveHead *)
      unfold removeEnd. destruct (elems (top s)) as [|[k [x v]] Q] eqn:E1.
      + rewrite (elems_nil _ E1). cbn [pk map] in Ee. subst m. cbn [orPanic fst snd hd_error List.tl]. auto.
      + assert (Hne : top s <> E) by (intros X; rewrite X in E1; discriminate).
        destruct (rel_good stale s m HR Hne) as (_ & _ & _ & _ & HG). rewrite E1 in HG. destruct HG as (G1 & _). cbn in G1.
        destruct (removeNode_rel stale s m [] k x v Q HR E1) as (s' & X1 & X2).
        destruct (top s) as [|? ? ? ? ?]; [congruence|]. rewrite G1, X1. cbn [orPanic fst snd].
        subst m. cbn [List.tl pk map hd_error app] in *. split; [|reflexivity]. apply (rel_new stale s' (pk Q)). apply X2. exact HS.
    - (* RemoveTail *)
      unfold removeEnd. destruct (snoc_cases (elems (top s))) as [E1|(P & [k [x v]] & E1)].
      + rewrite (elems_nil _ E1). rewrite E1 in Ee. cbn [pk map] in Ee. subst m. cbn [orPanic fst snd]. auto.
      + assert (Hne : top s <> E) by (intros X; rewrite X in E1; destruct P; discriminate).
        destruct (rel_good stale s m HR Hne) as (_ & _ & _ & _ & HG). rewrite E1, ids_app in HG. destruct HG as (_ & G1 & _).
        change (ids [(k, (x, v))]) with [x] in G1. rewrite last_snoc in G1.
        destruct (removeNode_rel stale s m P k x v [] HR E1) as (s' & X1 & X2).
        destruct (top s) as [|? ? ? ? ?]; [congruence|]. rewrite G1, X1. cbn [orPanic fst snd].
        rewrite E1, pk_app in Ee. cbn [pk map plainKV fst snd] in Ee. subst m. change (map plainKV P) with (pk P) in *.
        rewrite removelast_last, last_snoc in *. rewrite app_nil_r in X2. split; [|reflexivity]. apply rel_new; auto.
    - (* Index *)
      unfold index. rewrite index_ok by auto. rewrite <- Ee, pk_entry_at in *.
      destruct (entry_at (elems (top s)) (Some i)) as [[k [x v]]|]; cbn [option_map orPanic fst snd plainKV]; auto.
    - (* IndexOf *)
      cbn [fst snd]. split; auto. intros _. unfold IndexOf, IndexModel.IndexOf.
      pose proof (indexOfLoop_ok ltb W cmp Hcmp k (top s) 0 Hs' Ht) as X. rewrite !Z.add_0_l in X. rewrite X.
      rewrite <- Ee, pk_sames, pk_before, pk_len. destruct (sames ltb k (elems (top s))); reflexivity.
    - cbn [fst snd]. split; auto. intros _. unfold getSize. rewrite size_len by auto. rewrite <- Ee, pk_len. reflexivity.
    - cbn [fst snd]. rewrite Htr. auto.
    - cbn [fst snd]. rewrite Htr. split; auto. intros _. f_equal. exact (visit_all m []).
    - (* Clear *)
      cbn [fst snd]. split; auto. unfold TRel. cbn [top elems ids map pk lks sized]. split; [reflexivity|]. split; [exact I|].
      split; [constructor|]. split; [constructor|]. split; [intros x []|]. split; [|congruence]. intros _. apply (cleared_ok (lks s)).
    - (* RemoveRange *)
      unfold RemoveRange. rewrite (gt0 ltb W cmp Hcmp). destruct (ltb hi lo) eqn:El; [cbn [orPanic fst snd] in *; auto|].
      destruct (Z.eqb_spec (cmp lo hi) 0) as [Ez|Ez].
      + assert (Q : same ltb hi lo = true).
        { destruct (plain_cases ltb cmp Hcmp lo hi) as [[Q1 Q2]|[[Q1 Q2]|[Q1 Q2]]]; auto; congruence. }
        assert (Qw : forall a, within ltb lo hi a = same ltb a lo).
        { intros a. unfold within, same. rewrite (same_lt_l ltb W _ _ _ Q). reflexivity. }
        destruct (Remove_ok stale s m lo HR) as (s' & -> & E1).
        assert (Ef : filter (fun e => negb (within ltb lo hi (fst e))) m = erase ltb lo m).
        { rewrite (cut_all ltb W m lo (strict_weak ltb W _ Hs)) at 1. unfold erase. rewrite !filter_app.
          rewrite filter_all, (filter_none _ (sames ltb lo m)), filter_all; auto.
          - intros y Hy. apply after_in in Hy. rewrite Qw. unfold same. rewrite (proj2 Hy). rewrite andb_false_r. reflexivity.
          - intros y Hy. apply filter_In in Hy. rewrite Qw, (proj2 Hy). reflexivity.
          - intros y Hy. apply before_in in Hy. rewrite Qw. unfold same. rewrite (proj2 Hy). reflexivity. }
        assert (Eb : existsb (fun e => within ltb lo hi (fst e)) m = match sames ltb lo m with [] => false | _ => true end).
        { destruct (sames ltb lo m) as [|x xs] eqn:Es.
          - apply exists_filter. rewrite Ef. unfold erase. pose proof (cut_all ltb W m lo (strict_weak ltb W _ Hs)) as CA. rewrite Es in CA. symmetry; exact CA.
          - apply existsb_exists. exists x. assert (H : In x (sames ltb lo m)) by (rewrite Es; simpl; auto).
            apply filter_In in H. rewrite Qw. auto. }
        cbn [orPanic fst snd] in *. rewrite Ef, Eb. split; auto. intros _. destruct (sames ltb lo m) as [|[k0 v0] xs]; reflexivity.
      + destruct (elems (top s)) as [|x0 xs] eqn:E0.
        { rewrite (elems_nil _ E0). cbn [removeRange orPanic fst snd]. subst m. auto. }
        assert (Hne : top s <> E) by (intros X; rewrite X in E0; discriminate). rewrite <- E0 in *.
        pose proof (rel_good stale s m HR Hne) as HG. pose proof HG as (_ & _ & _ & _ & HG').
        destruct (removeRange_links (lks s) lo hi (top s) El [] [] Hs' Ht) as (t' & c & dd & -> & E1 & E2 & _ & E3).
        { cbn [app]. rewrite app_nil_r. exact HG'. }
        assert (Ef : filter (fun e => negb (within ltb lo hi (fst e))) m = pk (elems t')).
        { rewrite <- Ee, E1. apply (pk_filter (fun a => negb (within ltb lo hi a))). }
        destruct dd as [[dl dr]|]; cbn [orPanic fst snd] in *.
        * rewrite Ef in *. split.
          -- apply rel_new. apply (cut_rel s (elems (top s)) (elems t') t' dl dr); auto. apply pk_sorted in HS. exact HS.
          -- intros _. f_equal. symmetry. destruct (existsb _ m) eqn:Eb; auto. exfalso. apply filter_exists in Eb. rewrite Ef, <- Ee in Eb.
             destruct E3 as (P & M & Q & X1 & X2 & X3 & _). apply (f_equal (@length _)) in Eb. unfold pk in Eb. rewrite !map_length, X1, X3, !app_length in Eb.
             destruct M; [congruence|]. cbn [length] in Eb. lia.
        * rewrite Ef, E3, Ee. split; auto. intros _. f_equal. symmetry. apply exists_filter. rewrite Ef, E3. exact Ee.
    - (* RemoveRangeByIndex *)
      unfold RemoveRangeByIndex. rewrite Z.gtb_ltb. destruct (Z.ltb_spec j i) as [Hij|Hij]; [cbn [orPanic fst snd] in *; auto|].
      destruct (elems (top s)) as [|x0 xs] eqn:E0.
      { rewrite (elems_nil _ E0). cbn [removeRangeAt orPanic fst snd]. subst m. cbn [pk map] in *. change (len []) with 0 in *.
        rewrite orb_true_r in *. auto. }
      assert (Hne : top s <> E) by (intros X; rewrite X in E0; discriminate). rewrite <- E0 in *.
      pose proof (rel_good stale s m HR Hne) as HG. pose proof HG as (_ & _ & _ & _ & HG').
      pose proof (removeRangeAt_links (lks s) i j (top s) Hij 0 [] [] Ht) as X. cbn [app] in X. rewrite app_nil_r in X. specialize (X HG').
      rewrite !Z.add_0_l in X. rewrite <- pk_len, Ee in X. destruct ((j <? 0) || (len m <=? i) || (len m =? 0)).
      + rewrite X. cbn [orPanic fst snd] in *. auto.
      + destruct X as (t' & c & [dl dr] & -> & E1 & E2 & _ & E3). rewrite !Z.sub_0_r in E1. cbn [orPanic fst snd] in *.
        assert (Ef : around i j m = pk (elems t')).
        { rewrite <- Ee, E1. unfold around. rewrite pk_firstn, pk_skipn, <- pk_app. reflexivity. }
        rewrite Ef in *. split; auto. apply rel_new. apply (cut_rel s (elems (top s)) (elems t') t' dl dr); auto. apply pk_sorted in HS. exact HS.
    - (* Trim *)
      unfold Trim, IndexModel.Trim. rewrite (gt0 ltb W cmp Hcmp). destruct (ltb hi lo) eqn:El; [cbn [orPanic fst snd] in *|].
      { auto. }
      destruct (Trim_ok ltb W cmp Hcmp lo hi (top s) El Hs' Ht) as (E1 & E2). cbn [orPanic fst snd] in *.
      set (t' := leaveTo cmp hi (leaveFrom cmp lo (getRangeRoot cmp lo hi (top s)))) in *.
      assert (Ef : filter (fun e => within ltb lo hi (fst e)) m = pk (elems t')).
      { rewrite <- Ee, E1. apply (pk_filter (within ltb lo hi)). }
      rewrite Ef in *. split; auto.
      destruct (elems t') as [|y ys] eqn:Et'.
      { assert (Et : t' = E) by (apply elems_nil; auto). rewrite Et. cbn [pk map closeEnds endId].
        destruct m as [|m0 ms].
        - destruct HR as (X1 & X2 & X3 & X4 & X5 & X6 & X7). unfold TRel. cbn [top lks fresh].
          apply pk_nil in X1. rewrite X1 in *. split; [reflexivity|]. split; [exact I|]. split; [constructor|].
          split; [constructor|]. split; [intros x []|]. auto.
        - unfold TRel. cbn [top lks fresh elems pk map ids sized]. split; [reflexivity|]. split; [exact I|]. split; [constructor|].
          split; [constructor|]. split; [intros x []|]. rewrite Ef. cbn [pk map]. split; [congruence|auto]. }
      destruct m as [|m0 ms].
      { apply pk_nil in Ee. rewrite Ee in E1. discriminate. }
      assert (Hne : top s <> E) by (intros X; rewrite X in Ee; discriminate).
      rewrite <- Et' in *.
      assert (TRel false (T t' (closeEnds t' (lks s)) (fresh s)) (pk (elems t'))).
      { apply (keep_rel s (F (fun a => ltb a lo) (elems (top s))) (elems t') (F (fun a => ltb hi a) (elems (top s)))); auto.
        - rewrite E1. rewrite <- within_split; auto. apply (rel_good stale s (m0 :: ms)); auto.
        - apply pk_sorted in HS. exact HS.
        - intros X. rewrite X in Et'. discriminate. }
      rewrite Et' in *. rewrite Ef. exact H.
    - (* TrimByIndex *)
      unfold TrimByIndex, IndexModel.TrimByIndex. rewrite Z.gtb_ltb. destruct (Z.ltb_spec j i) as [Hij|Hij]; cbn [orb].
      { cbn [fst snd]. split; auto. }
      destruct (trimAt_ok i j (top s) Hij 0 Ht) as (X1 & X2). rewrite !Z.add_0_l, ?Z.sub_0_r in X1, X2.
      rewrite <- pk_len, Ee in X1, X2.
      destruct ((i <? 0) || (len m <=? j)) eqn:Eo.
      + apply orb_true_iff in Eo. destruct X2 as (t' & -> & X3 & X4); [lia|lia|]. cbn [fst snd] in *. split; auto.
        unfold TRel in *. cbn [top lks fresh]. rewrite X3. tauto.
      + apply orb_false_iff in Eo. destruct X1 as (t' & -> & X3 & X4); [lia|]. cbn [fst snd] in *. rewrite ?Z.sub_0_r in X3.
        assert (Ef : between i j m = pk (elems t')).
        { rewrite <- Ee, X3. unfold between. rewrite pk_skipn, pk_firstn. reflexivity. }
        rewrite Ef in *. split; auto. apply rel_new.
        assert (Hlen : 0 < len m) by lia.
        assert (Hne : top s <> E) by (intros X; rewrite X in Ee; cbn in Ee; subst m; cbn in Hlen; lia).
        apply (keep_rel s (firstn (Z.to_nat i) (elems (top s))) (elems t') (skipn (Z.to_nat (j + 1)) (elems (top s)))); auto.
        * rewrite X3. replace (Z.to_nat (j + 1 - i)) with (Z.to_nat (j + 1) - Z.to_nat i)%nat by lia.
          rewrite <- window by lia. apply (rel_good stale s m); auto.
        * cbn [orb] in HS. destruct Eo as (Z1 & Z2). rewrite Z1, Z2 in HS. cbn [orb fst] in HS. apply pk_sorted in HS. exact HS.
        * intros X. rewrite X in X3. cbn [elems] in X3. apply (f_equal (@length _)) in X3.
          rewrite firstn_length, skipn_length in X3. cbn [length] in X3. rewrite <- Ee, pk_len in Eo. unfold len in *. lia.
  Qed.
End Keys.
