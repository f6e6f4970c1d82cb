(** queue/priority: iterators. *)
From Verif Require Import Base Bind Machine OrderSpec SMapSpec SMapFacts AvlTree AvlSpec AvlModel AvlIterModel AvlIterProofs AvlsProofs
  IndexSpec IndexModel IndexProofs PrioSpec PrioModel PrioProofs.
Local Open Scope Z_scope.

Section Seeks.
  Context {K V : Type} (T : avl K V) (cells : Z) (Hcells : ht (root T) <= cells).
  Context (ltb : K -> K -> bool) (W : weak_order ltb) (cmp : K -> K -> Z) (Hcmp : ex_cmp ltb cmp).
  Context (strict lg : bool) (key : K) (Hs : weakly_sorted ltb (elems (root T))).
  Notation t := (root T).
  Notation On := (On T cells).
  Notation Pos := (Pos T cells).
  Notation sat := (sat ltb strict lg key).
  Notation target := (target T ltb strict lg key).
  Notation foundb := (foundb ltb key).

  (** where a seek for a key in the queue stops *)
  Definition hit (i : Z) : Prop := exists j e, entry_at (elems t) (Some j) = Some e /\ same ltb (fst e) key = true /\
    i = if strict then if lg then j + 1 else j - 1 else j.

  Lemma seek_loop_any : forall fuel it p, On it p -> (levels (cur it) <= fuel)%nat ->
    (forall y, In y (past lg p) -> sat y = false) -> (forall y, In y (todo lg p) -> sat y = true) ->
    exists it' i, seek_loop cmp fuel strict key lg it = Some (it', foundb (elems (cur it))) /\ Pos it' (Some i) /\
      if foundb (elems (cur it)) then hit i else i = target.
  Proof.
    induction fuel as [|fuel IH]; intros it p H Hf HP HT.
    { destruct (cur it); cbn in Hf; lia. }
    cbn [seek_loop]. destruct (On_split T _ it p lg H) as (h & k & v & l & r & Ec & Esq).
    pose proof H as (_ & _ & _ & HA & _). rewrite Ec in HA. rewrite Ec.
    assert (HN : forall c : bool, (if c then ltb k key = true else ltb key k = true) ->
      foundb (elems (N h k v l r)) = foundb (elems (child c l r)) ->
      exists it' i, ('(it', b) <- down c it ;;
        if b : bool then seek_loop cmp fuel strict key lg it'
        else if Bool.eqb c lg then '(it'', _) <- up lg it' ;; Some (it'', false) else Some (it', false)) =
        Some (it', foundb (elems (N h k v l r))) /\ Pos it' (Some i) /\ if foundb (elems (N h k v l r)) then hit i else i = target).
    { intros c Hc Hb. assert (Hk : sat (k, v) = negb (Bool.eqb c lg)).
      { destruct c; [rewrite (sat_lt ltb W _ _ _ k v Hc)|rewrite (sat_gt ltb W _ _ _ k v Hc)]; destruct lg; reflexivity. }
      destruct (down_on T _ Hcells c it p H) as (h1 & k1 & v1 & l1 & r1 & E1 & E2). rewrite Ec in E1. injection E1 as <- <- <- <- <-.
      destruct E2 as [(E2 & E3)|(E2 & it' & E3 & E4 & E5)]; rewrite E3, Hb.
      - rewrite E2. change (foundb (elems E)) with false. destruct (Bool.eqb c lg) eqn:Ecl; cbn [negb] in Hk.
        + apply Bool.eqb_prop in Ecl. subst c. destruct (up_on T _ Hcells lg it p _ _ _ _ _ H Ec E2) as (it' & b & U1 & U2). rewrite U1.
          eexists _, target. split; [reflexivity|]. split; auto. apply (land_next T _ ltb W _ _ _ Hs it p _ _ _ _ _ it' H Ec Hk); auto.
          rewrite Ec. unfold right_of. rewrite E2. replace (sq lg E) with (@nil (K * V)) by (destruct lg; reflexivity). exact HT.
        + eexists _, target. split; [reflexivity|]. split; auto. apply (land_on T _ ltb W _ _ _ Hs it p _ _ _ _ _ H Ec Hk). rewrite Ec. unfold left_of.
          assert (c = negb lg) by (destruct c, lg; cbn in *; congruence). subst c. rewrite E2.
          replace (sq lg E) with (@nil (K * V)) by (destruct lg; reflexivity). rewrite app_nil_r. exact HP.
      - rewrite <- E5. apply (IH it' _ E4).
        + rewrite E5. rewrite Ec in Hf. cbn [levels] in Hf. destruct c; cbn [child]; lia.
        + rewrite Ec. cbn [past]. destruct (Bool.eqb c lg) eqn:Ecl; cbn [negb] in Hk.
          * pose proof (left_unsat T _ ltb W _ _ _ Hs it p _ _ _ _ _ H Ec Hk) as X. rewrite Ec in X. unfold left_of in X. rewrite <- app_assoc in X. exact X.
          * rewrite app_nil_r. exact HP.
        + rewrite Ec. cbn [todo]. destruct (Bool.eqb c lg) eqn:Ecl; cbn [negb] in Hk; [exact HT|].
          destruct (sq_mono T ltb W strict lg key Hs _ _ _ Esq) as (M & _). specialize (M Hk). rewrite Ec in M. unfold right_of in M.
          intros y [<-|Hy]; auto. }
    destruct (compare_step T ltb W cmp Hcmp key Hs p h k v l r HA) as [(C1 & C2 & C3)|[(C1 & C2 & C3)|(C1 & C2 & C3)]]; rewrite C2; cbn [Z.ltb Z.compare].
    - exact (HN false C1 C3).
    - exact (HN true C1 C3).
    - rewrite C3. destruct (entry_on T _ it p H) as (h0 & k0 & v0 & l0 & r0 & E1 & E2). rewrite Ec in E1. injection E1 as <- <- <- <- <-.
      set (j := len (left_of true p (cur it))) in *. assert (HPj : Pos it (Some j)) by (left; exists p; auto).
      assert (Hj : 0 <= j < len (elems t)).
      { pose proof (On_len T _ it p true H). pose proof (len_pos (right_of true p (cur it))). pose proof (len_pos (left_of true p (cur it))). subst j. lia. }
      destruct strict eqn:Est.
      + destruct (move_pos T _ Hcells lg it _ HPj) as (it' & F1 & F2). rewrite F1. cbn [option_map] in F2.
        eexists _, _. split; [reflexivity|]. split; [exact F2|]. exists j, (k, v). rewrite Est. split; auto. split; auto. destruct lg; lia.
      + exists it, j. split; [reflexivity|]. split; auto. exists j, (k, v). rewrite Est. auto.
  Qed.

  Lemma seek_any it q : Pos it q ->
    exists it' q', seek cmp strict key lg it = Some (it', foundb (elems t)) /\ Pos it' q' /\
      if foundb (elems t) then exists i, q' = Some i /\ hit i else q' = goto (elems t) target.
  Proof.
    intros H. destruct (Pos_base T _ _ _ H) as (H1 & H2). unfold seek. rewrite H1.
    destruct (root_cases T) as [Et|(h & k & v & l & r & Et)].
    - rewrite Et. exists (IT T E (idx it) (stack it)), None. split; [reflexivity|]. cbn [elems goto Pos]. unfold Unset; cbn [itree cur idx stack].
      split; [|reflexivity]. pose proof (Pos_empty T _ _ _ Et H). auto.
    - rewrite Et. rewrite <- Et. pose proof (start_on T _ it H1 H2 ltac:(congruence)) as S.
      destruct (seek_loop_any (levels t) _ _ S) as (it' & i & E1 & E2 & E3); cbn [cur] in *; auto; try (intros y []).
      rewrite H1 in E1. exists it', (Some i). split; [exact E1|]. split; auto. destruct (foundb (elems t)); [eauto|].
      rewrite E3. unfold goto. destruct (elems t) eqn:Ee; auto. rewrite Et in Ee. cbn [elems] in Ee. destruct (elems l); discriminate.
  Qed.
End Seeks.

Section Runs.
  Context {K V : Type} (ltb : K -> K -> bool) (W : weak_order ltb) (cmp : K -> K -> Z) (Hcmp : ex_cmp ltb cmp).
  Notation entries := (list (K * V)).

  Lemma same_pos (m : entries) k i e : weakly_sorted ltb m -> entry_at m (Some i) = Some e -> same ltb (fst e) k = true ->
    len (before ltb k m) <= i < len (before ltb k m) + len (sames ltb k m) /\ (1 <= length (sames ltb k m))%nat.
  Proof.
    intros Hs He Hk. assert (Hi : 0 <= i < len m).
    { destruct (Z.le_gt_cases 0 i), (Z.lt_ge_cases i (len m)); auto; rewrite entry_at_none in He by lia; discriminate. }
    rewrite entry_at_in in He by auto. rewrite (cut_all ltb W m k Hs) in He at 1. apply same_iff in Hk as (Hk1 & Hk2).
    assert (X : len (before ltb k m) <= i).
    { apply Z.nlt_ge. intros Hlt. unfold len in Hlt. rewrite nth_error_app1 in He by lia.
      apply nth_error_In, filter_In in He as (_ & He). congruence. }
    assert (Y : i < len (before ltb k m) + len (sames ltb k m)).
    { apply Z.nle_gt. intros Hlt. unfold len in *. rewrite nth_error_app2 in He by lia. rewrite nth_error_app2 in He by lia.
      apply nth_error_In, filter_In in He as (_ & He). congruence. }
    split; auto. unfold len in *. lia.
  Qed.
  Lemma upto_len (m : entries) k : weakly_sorted ltb m -> len (upto ltb k m) = len (before ltb k m) + len (sames ltb k m).
  Proof.
    intros Hs. pose proof (weak_len ltb W k m Hs) as H. unfold len.
    assert (G : (length (upto ltb k m) + length (after ltb k m) = length m)%nat).
    { clear. unfold upto, after. induction m as [|x m IH]; auto. cbn [filter]. destruct (ltb k (fst x)); cbn [negb length]; lia. }
    lia.
  Qed.

  Context (t : tree K V) (Ht : sized t) (Hs : weakly_sorted ltb (elems t)).
  Notation T := (AVL t 0).
  Notation m := (elems t).

  Lemma heightLoop_log n : forall s h, 0 < s <= Z.of_nat n -> heightLoop n s h = Some (h + Z.log2 s + 1).
  Proof.
    induction n as [|n IH]; intros s h H; [lia|]. cbn [heightLoop]. destruct (Z.eqb_spec s 0); [lia|].
    rewrite Z.shiftr_div_pow2 by lia. change (2 ^ 1) with 2.
    destruct (Z.eq_dec s 1) as [->|Hn].
    - change (1 / 2) with 0. replace (h + Z.log2 1 + 1) with (h + 1) by (change (Z.log2 1) with 0; lia). destruct n; reflexivity.
    - assert (0 < s / 2) by (apply Z.div_str_pos; lia). assert (s / 2 < s) by (apply Z.div_lt; lia).
      rewrite IH by lia. f_equal.
      assert (Z.log2 s = Z.log2 (s / 2) + 1); [|lia].
      destruct (Z.log2_spec (s / 2)) as (L1 & L2); auto. pose proof (Z.log2_nonneg (s / 2)).
      apply Z.log2_unique; [lia|]. rewrite !Z.pow_succ_r in * by lia. replace (Z.log2 (s / 2) + 1) with (Z.succ (Z.log2 (s / 2))) by lia.
      rewrite Z.pow_succ_r by lia. pose proof (Z.div_mod s 2 ltac:(lia)). pose proof (Z.mod_pos_bound s 2 ltac:(lia)). lia.
  Qed.
  Lemma new_room : newIterator t = Some (IT T E (-1) (repeat (E, false) (Z.to_nat (room (len m))))).
  Proof.
    unfold newIterator, getMaybeHeight. change (getSize t) with (IndexModel.getSize t). rewrite (size_len t Ht). unfold room.
    destruct (Z.eqb_spec (len m) 0) as [->|Hn]; [reflexivity|]. pose proof (len_nonneg m).
    rewrite heightLoop_log by lia. rewrite Z.shiftr_div_pow2 by lia. reflexivity.
  Qed.
  Lemma room_nonneg n : 0 <= n -> 0 <= room n.
  Proof.
    intros H. unfold room. destruct (n =? 0); [reflexivity|]. pose proof (Z.log2_nonneg n).
    assert (0 <= (Z.log2 n + 1) / 2) by (apply Z.div_pos; lia). lia.
  Qed.

  Context (Hroom : ht t <= room (len m)).
  Notation Pos := (Pos T (room (len m))).
  Lemma new_pos : Pos (IT T E (-1) (repeat (E, false) (Z.to_nat (room (len m))))) None.
  Proof.
    pose proof (room_nonneg (len m) (len_nonneg m)). unfold AvlIterProofs.Pos, Unset, fits; cbn [itree cur idx stack root].
    rewrite repeat_length. repeat split; auto. lia.
  Qed.
  Lemma clone_pos it q : Pos it q -> exists it', clone it = Some it' /\ Pos it' q.
  Proof.
    intros H. destruct (Pos_base T _ _ _ H) as (H1 & H2). unfold clone. rewrite H1. cbn [root]. rewrite new_room. cbn [stack].
    eexists. split; [reflexivity|]. unfold fits in H2. cbn [root] in H2. pose proof (room_nonneg (len m) (len_nonneg m)).
    assert (L : Z.to_nat (room (len m)) = length (stack it)) by lia. rewrite L, repeat_length, Nat.min_id, firstn_all.
    rewrite skipn_all2, app_nil_r by (rewrite repeat_length; lia).
    destruct it as [a b c e]; cbn [itree cur idx stack] in *. subst. exact H.
  Qed.

  Lemma found_bool k : CBool (foundb ltb k m) = found ltb k m.
  Proof. reflexivity. Qed.
  Lemma seek_lands strict lg k o it q : Pos it q ->
    o = match lg, strict with true, false => CGE k | true, true => CGT k | false, false => CLE k | false, true => CLT k end ->
    exists it' q', seek cmp strict k lg it = Some (it', foundb ltb k m) /\ Pos it' q' /\ lands ltb m q o q'.
  Proof.
    intros H Ho. destruct (seek_any T _ Hroom ltb W cmp Hcmp strict lg k Hs it q H) as (it' & q' & E1 & E2 & E3).
    exists it', q'. split; [exact E1|]. split; [exact E2|]. cbn [root] in *. rewrite target_is in E3. cbn [root] in E3.
    pose proof (upto_len m k Hs) as Hu. unfold foundb in E3.
    assert (C : (sames ltb k m = [] /\ q' = fst (cursor_spec ltb true m q o)) \/
      ((1 <= length (sames ltb k m))%nat /\ exists i e, entry_at m (Some i) = Some e /\ same ltb (fst e) k = true /\
        len (before ltb k m) <= i < len (before ltb k m) + len (sames ltb k m) /\
        q' = Some (if strict then if lg then i + 1 else i - 1 else i))).
    { destruct (sames ltb k m) as [|e0 s0] eqn:Es.
      - left. split; auto. rewrite E3. subst o. destruct lg, strict; reflexivity.
      - right. split; [cbn; lia|]. destruct E3 as (i & -> & j & e & X1 & X2 & X3). cbn [root] in X1. exists j, e.
        destruct (same_pos m k j e Hs X1 X2) as (X4 & _). rewrite Es in X4. subst i. auto. }
    destruct C as [(C1 & C2)|(C1 & i & e & X1 & X2 & X3 & X4)].
    - subst o. unfold lands. destruct lg, strict; rewrite C1; exact C2.
    - destruct (sames ltb k m) as [|e0 [|e1 s1]] eqn:Es.
      + cbn in C1. lia.
      + change (len [e0]) with 1 in *. assert (Hne : m <> []) by (intros X; rewrite X in Es; discriminate).
        assert (G : forall z, goto m z = Some z) by (intros z; unfold goto; destruct m; [congruence|reflexivity]).
        subst q'. subst o. unfold lands. destruct lg, strict; rewrite Es; cbn [cursor_spec fst land]; rewrite G; f_equal; lia.
      + subst q' o. unfold lands. destruct lg, strict; rewrite Es; exists i; (split; [exists e; auto|reflexivity]).
  Qed.

  Lemma qi_pos it q o : Pos it q ->
    exists it' q', qi_step cmp it o = Some (it', snd (cursor_spec ltb true m q o)) /\ Pos it' q' /\ lands ltb m q o q'.
  Proof.
    intros H. destruct o; cbn [qi_step it_step].
    - destruct (seekToEnd_pos T _ Hroom false it q H) as (it' & E1 & E2). rewrite E1. eexists _, _. split; [reflexivity|]. split; [exact E2|reflexivity].
    - destruct (seekToEnd_pos T _ Hroom true it q H) as (it' & E1 & E2). rewrite E1. eexists _, _. split; [reflexivity|]. split; [exact E2|reflexivity].
    - destruct (move_pos T _ Hroom true it q H) as (it' & E1 & E2). rewrite E1. eexists _, _. split; [reflexivity|]. split; [exact E2|reflexivity].
    - destruct (move_pos T _ Hroom false it q H) as (it' & E1 & E2). rewrite E1. eexists _, _. split; [reflexivity|]. split; [exact E2|reflexivity].
    - destruct (seek_lands false true k (CGE k) it q H eq_refl) as (it' & q' & -> & E2 & E3). exists it', q'. auto.
    - destruct (seek_lands true true k (CGT k) it q H eq_refl) as (it' & q' & -> & E2 & E3). exists it', q'. auto.
    - destruct (seek_lands false false k (CLE k) it q H eq_refl) as (it' & q' & -> & E2 & E3). exists it', q'. auto.
    - destruct (seek_lands true false k (CLT k) it q H eq_refl) as (it' & q' & -> & E2 & E3). exists it', q'. auto.
    - cbn [cursor_spec snd]. pose proof (read_pos T _ it q H) as R. cbn [root] in R. rewrite R. exists it, q. split; [|split; auto; reflexivity]. destruct (cur it); reflexivity.
    - cbn [cursor_spec snd]. pose proof (read_pos T _ it q H) as R. cbn [root] in R. rewrite R. exists it, q. split; [|split; auto; reflexivity]. destruct (cur it); reflexivity.
    - cbn [cursor_spec snd]. pose proof (read_pos T _ it q H) as R. cbn [root] in R. rewrite R. exists it, q. split; [|split; auto; reflexivity]. destruct (cur it); reflexivity.
    - destruct (clone_pos it q H) as (it' & E1 & E2). rewrite E1. eexists _, q. split; [reflexivity|]. split; [exact E2|reflexivity].
  Qed.

  Lemma qi_walks cops : forall it q, Pos it q -> exists outs, run (qi_step cmp) it cops = Some outs /\ walks ltb m q cops outs.
  Proof.
    induction cops as [|o cops IH]; intros it q H; [exists []; split; [reflexivity|constructor]|].
    destruct (qi_pos it q o H) as (it' & q' & E1 & E2 & E3). destruct (IH it' q' E2) as (outs & E4 & E5).
    eexists. cbn [run]. rewrite E1, E4. split; [reflexivity|]. econstructor; eauto.
  Qed.
End Runs.

Section Unique.
  Context {K V : Type} (ltb : K -> K -> bool).
  Lemma walks_unique (m : list (K * V)) cops : forall q outs, Forall (unique_seek ltb m) cops -> walks ltb m q cops outs ->
    outs = srun (cursor_spec ltb true m) q cops.
  Proof.
    induction cops as [|o cops IH]; intros q outs HU HW; inversion HW as [|p o' p' ops' outs' HL HW']; subst; [reflexivity|].
    inversion_clear HU as [|? ? U1 U2]. cbn [srun].
    assert (p' = fst (cursor_spec ltb true m q o)) as ->.
    { unfold lands in HL. destruct o; try exact HL; cbn [unique_seek] in U1; destruct (sames ltb k m) as [|? [|? ?]]; try exact HL; cbn [length] in U1; lia. }
    destruct (cursor_spec ltb true m q o) as [q' r]. cbn [fst snd] in *. f_equal. apply IH; auto.
  Qed.
End Unique.
