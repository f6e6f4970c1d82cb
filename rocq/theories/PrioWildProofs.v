(** queue/priority: what holds for any comparison function that gives a direction or a hit. *)
From Verif Require Import Base Bind Machine OrderSpec SMapSpec SMapFacts AvlTree AvlSpec AvlModel AvlProofs AvlAny AvlStep AvlsProofs
  IndexSpec IndexModel IndexProofs WildSpec IndexWildProofs PrioSpec PrioModel PrioProofs PrioWildSpec.
Local Open Scope Z_scope.

Section Wild.
  Context {K V : Type} (cmp : K -> K -> Z) (Hdir : forall a b, cmp a b <= 1).
  Notation tree := (tree K V).
  Implicit Types (t l r : tree) (m : list (K * V)).
  Notation hit := (hit cmp).

  Lemma added_len (e : K * V) m m' : added e m m' -> len m' = len m + 1.
  Proof. intros (a & b & -> & ->). unfold len. rewrite !app_length. cbn [length]. lia. Qed.
  Lemma swapped_len (e e' : K * V) m m' : swapped e e' m m' -> len m' = len m.
  Proof. intros (a & b & -> & ->). unfold len. rewrite !app_length. reflexivity. Qed.

  Lemma put_wild key v t : forall alone, sized t -> exists t' two, put cmp key v t alone = Some (t', two) /\ added (key, v) (elems t) (elems t') /\ sized t'.
  Proof.
    induction t as [|s ck cv l IHl r IHr]; intros alone Ht.
    - cbn [put]. eexists _, _. split; [reflexivity|]. split; [exists [], []; auto|]. cbn. auto.
    - pose proof Ht as (Hz & Hl & Hr). cbn [elems].
      assert (FIN : forall t0 two, added (key, v) (elems l ++ (ck, cv) :: elems r) (elems t0) -> sized t0 -> t0 <> E ->
        exists t' two', (if (s + 1 >? 2) && negb two then t' <- rebalance t0 ;; Some (t', two) else Some (t0, two)) = Some (t', two') /\
          added (key, v) (elems l ++ (ck, cv) :: elems r) (elems t') /\ sized t').
      { intros t0 two X1 X2 X3. destruct (_ && _); [|eauto].
        destruct (rebalance_ok t0 X2 X3) as (t' & -> & F1 & F2 & _). exists t', two. rewrite F1. auto. }
      assert (HR : exists t' two, ('(t, two) <- ('(r', two) <- put cmp key v r (is_nil l) ;; Some (N (s + 1) ck cv l r', two)) ;;
        (if (s + 1 >? 2) && negb two then t' <- rebalance t ;; Some (t', two) else Some (t, two))) = Some (t', two) /\ added (key, v) (elems l ++ (ck, cv) :: elems r) (elems t') /\ sized t').
      { destruct (IHr (is_nil l) Hr) as (r' & two & -> & E2 & E3). apply FIN; [|apply node_sized; auto|discriminate].
        - apply added_right, E2.
        - pose proof (added_len _ _ _ E2). unfold len in *. lia. }
      cbn [put]. pose proof (Hdir ck key). destruct (Z.ltb_spec (cmp ck key) 0); [exact HR|].
      destruct (Z.eqb_spec (cmp ck key) 0); [|destruct (Z.eqb_spec (cmp ck key) 1); [exact HR|lia]].
      destruct (IHl (is_nil r) Hl) as (l' & two & -> & E2 & E3). apply FIN; [|apply node_sized; auto|discriminate].
      + apply added_left, E2.
      + pose proof (added_len _ _ _ E2). unfold len in *. lia.
  Qed.
  Lemma Put_wild key v t : sized t -> exists t', Put cmp key v t = Some t' /\ added (key, v) (elems t) (elems t') /\ sized t'.
  Proof. intros Ht. destruct (put_wild key v t false Ht) as (t' & two & E1 & E2). unfold Put. rewrite E1. eauto. Qed.

  Ltac side3 ck key := pose proof (Hdir ck key); destruct (Z.ltb_spec (cmp ck key) 0) as [Ho|Ho];
    [|destruct (Z.eqb_spec (cmp ck key) 0) as [Ho0|Ho0]; [|destruct (Z.eqb_spec (cmp ck key) 1) as [Ho1|Ho1]; [|lia]]].
  Lemma getfirst_wild key t : forall sel, exists g, getfirst cmp key t sel = Some g /\ (g = sel \/ exists e, g = Some e /\ In e (elems t) /\ hit key e).
  Proof.
    induction t as [|s ck cv l IHl r IHr]; intros sel; [exists sel; auto|]. cbn [getfirst elems]. side3 ck key.
    - destruct (IHl (Some (ck, cv))) as (g & -> & [->|(e & -> & H1 & H2)]); eexists; (split; [reflexivity|]); right; eexists; (split; [reflexivity|]).
      + split; [apply in_or_app; right; now left|exact Ho].
      + split; [apply in_or_app; auto|exact H2].
    - destruct (IHl sel) as (g & -> & [->|(e & -> & H1 & H2)]); eexists; (split; [reflexivity|]); auto. right. exists e. rewrite in_app_iff. auto.
    - destruct (IHr sel) as (g & -> & [->|(e & -> & H1 & H2)]); eexists; (split; [reflexivity|]); auto. right. exists e. rewrite in_app_iff. cbn [In]. auto.
  Qed.
    Lemma setfirst_wild key v t : sized t -> exists t' b, setfirst cmp key v t = Some (t', b) /\ sized t' /\
    (if b : bool then exists e, hit key e /\ swapped e (fst e, v) (elems t) (elems t') else t' = t).
  Proof.
    induction t as [|s ck cv l IHl r IHr]; intros Ht; [exists E, false; auto|]. pose proof Ht as (Hz & Hl & Hr). cbn [setfirst getfirst elems].
    destruct (IHl Hl) as (l' & bl & L1 & L2 & L3). destruct (IHr Hr) as (r' & br & R1 & R2 & R3).
    assert (HL : bl = true -> sized (N s ck cv l' r) /\ exists e, hit key e /\ swapped e (fst e, v) (elems l ++ (ck, cv) :: elems r) (elems l' ++ (ck, cv) :: elems r)).
    { intros ->. destruct L3 as (e & X1 & X2). split; [apply node_sized; auto; pose proof (swapped_len _ _ _ _ X2); unfold len in *; lia|]. exists e. split; auto. apply swapped_left, X2. }
    assert (HR : br = true -> sized (N s ck cv l r') /\ exists e, hit key e /\ swapped e (fst e, v) (elems l ++ (ck, cv) :: elems r) (elems l ++ (ck, cv) :: elems r')).
    { intros ->. destruct R3 as (e & X1 & X2). split; [apply node_sized; auto; pose proof (swapped_len _ _ _ _ X2); unfold len in *; lia|]. exists e. split; auto. apply swapped_right, X2. }
    side3 ck key.
    - rewrite L1. destruct bl.
      + destruct (HL eq_refl) as (X1 & X2). eexists _, true. split; [reflexivity|]. auto.
      + eexists _, true. split; [reflexivity|]. split; [cbn [sized]; auto|]. exists (ck, cv). split; [exact Ho|]. apply swapped_mid.
    - rewrite L1. destruct bl.
      + destruct (HL eq_refl) as (X1 & X2). eexists _, true. split; [reflexivity|]. auto.
      + rewrite L3. eexists _, false. split; [reflexivity|]. auto.
    - rewrite R1. destruct br.
      + destruct (HR eq_refl) as (X1 & X2). eexists _, true. split; [reflexivity|]. auto.
      + rewrite R3. eexists _, false. split; [reflexivity|]. auto.
  Qed.
  (** writing finds an entry where looking does *)
  Lemma setfirst_found key v t t' : setfirst cmp key v t = Some (t', false) -> forall sel, getfirst cmp key t sel = Some sel.
  Proof.
    revert t'. induction t as [|s ck cv l IHl r IHr]; intros t' H sel; [reflexivity|]. cbn [setfirst getfirst] in *. side3 ck key.
    - destruct (setfirst cmp key v l) as [[l' []]|]; discriminate.
    - destruct (setfirst cmp key v l) as [[l' bl]|]; [|discriminate]. injection H as <- ->. now apply (IHl l').
    - destruct (setfirst cmp key v r) as [[r' br]|]; [|discriminate]. injection H as <- ->. now apply (IHr r').
  Qed.

  Lemma removeLeft_wild key t : forall side, sized t -> exists t' o, removeLeft cmp key t side = Some (t', o) /\ sized t' /\
    match o with None => t' = t | Some x => exists e, hit key e /\ dropped e (elems t) (elems t') /\ x = snd e end.
  Proof.
    induction t as [|s ck cv l IHl r IHr]; intros side Ht; [exists E, None; auto|]. pose proof Ht as (Hz & Hl & Hr). cbn [removeLeft elems].
    destruct (IHl false Hl) as (l' & ol & L1 & L2 & L3). destruct (IHr true Hr) as (r' & or & R1 & R2 & R3).
    assert (FIN : forall t0 x, sized t0 -> t0 <> E -> (exists e, hit key e /\ dropped e (elems l ++ (ck, cv) :: elems r) (elems t0) /\ x = snd e) ->
      exists t' o, (t1 <- rebalance t0 ;; Some (t1, Some x)) = Some (t', o) /\ sized t' /\
        match o with None => t' = N s ck cv l r | Some x => exists e, hit key e /\ dropped e (elems l ++ (ck, cv) :: elems r) (elems t') /\ x = snd e end).
    { intros t0 x X1 X2 X3. destruct (rebalance_ok t0 X1 X2) as (t' & -> & F1 & F2 & _). exists t', (Some x). rewrite F1. auto. }
    assert (HL : forall x, ol = Some x -> exists t' o, (t1 <- rebalance (N (s - 1) ck cv l' r) ;; Some (t1, Some x)) = Some (t', o) /\ sized t' /\
        match o with None => t' = N s ck cv l r | Some x => exists e, hit key e /\ dropped e (elems l ++ (ck, cv) :: elems r) (elems t') /\ x = snd e end).
    { intros x ->. destruct L3 as (e & X1 & X2 & X3). apply FIN; [|discriminate|].
      - apply node_sized; auto. pose proof (added_len _ _ _ X2). unfold len in *. lia.
      - exists e. split; auto. split; auto. cbn [elems]. unfold dropped. apply added_left, X2. }
    side3 ck key.
    - rewrite L1. destruct ol as [x|]; [now apply HL|]. subst l'. destruct (replace_ok side l r Hl Hr) as (t1 & -> & F1 & F2).
      exists t1, (Some cv). split; [reflexivity|]. split; auto. exists (ck, cv). rewrite F1. split; [exact Ho|]. split; auto. exists (elems l), (elems r). auto.
    - rewrite L1. destruct ol as [x|]; [now apply HL|]. subst l'. eexists _, None. split; [reflexivity|]. auto.
    - rewrite R1. destruct or as [x|]; [|subst r'; eexists _, None; split; [reflexivity|]; auto].
      destruct R3 as (e & X1 & X2 & X3). apply FIN; [|discriminate|].
      + apply node_sized; auto. pose proof (added_len _ _ _ X2). unfold len in *. lia.
      + exists e. split; auto. split; auto. cbn [elems]. unfold dropped. apply added_right, X2.
  Qed.

  (** any weakly sorted list will do for the calls that compare nothing *)
  Definition ff_ (_ _ : K) : bool := false.
  Lemma ff_order : weak_order ff_. Proof. constructor; unfold ff_; auto; discriminate. Qed.
  Lemma ff_cmp : ex_cmp ff_ (fun _ _ => -1). Proof. intros a b. unfold ff_. repeat split; intros; try discriminate; auto; lia. Qed.
  Lemma ff_sorted m : weakly_sorted ff_ m.
  Proof. unfold weakly_sorted. induction m; constructor; auto. apply Forall_forall. reflexivity. Qed.

  Theorem pq_wild t o : sized t -> inside_ok (elems t) o -> exists t' x, pq_step cmp t o = Some (t', x) /\ sized t' /\ qmay cmp (elems t) o (elems t') x.
  Proof.
    intros Ht Hok.
    assert (BY : pq_step cmp t o = pq_step (fun _ _ => -1) t o ->
      exists t', pq_step cmp t o = Some (t', snd (pq_spec ff_ (elems t) o)) /\ sized t' /\ elems t' = fst (pq_spec ff_ (elems t) o)).
    { intros ->. destruct (pq_sim ff_ ff_order _ ff_cmp t (elems t) o (conj eq_refl (conj Ht (ff_sorted _))) Hok) as (t' & E1 & E2 & E3 & _). eauto. }
    destruct o.
    1, 2, 3, 4, 6, 7: clear BY Hok; cbn [pq_step qmay].
    - destruct (Put_wild k v t Ht) as (t' & -> & E1 & E2). eauto 6.
    - destruct (getfirst_wild k t None) as (g & -> & [->|(e & -> & H1 & H2)]); [|exists t; eexists; split; [reflexivity|]; split; [exact Ht|]; right; split; [reflexivity|]; split; [reflexivity|]; now exists e].
      destruct (Put_wild k v t Ht) as (t' & -> & E1 & E2). eauto 7.
    - destruct (setfirst_wild k v t Ht) as (t1 & b & S1 & S2 & S3).
      destruct (getfirst_wild k t None) as (g & Eg & Hg). rewrite Eg. destruct g as [e|].
      + rewrite S1. destruct b; [|rewrite (setfirst_found k v t t1 S1 None) in Eg; discriminate]. eauto 8.
      + destruct (Put_wild k v t Ht) as (t' & -> & E1 & E2). eauto 7.
    - destruct (getfirst_wild k t None) as (g & -> & [->|(e & -> & H1 & H2)]); exists t; eexists; (split; [reflexivity|]); (split; [auto|]); (split; [auto|]); eauto 6.
    - destruct (removeLeft_wild k t true Ht) as (t' & [x|] & -> & E1 & E2); do 2 eexists; (split; [reflexivity|]); (split; [exact E1|]).
      + right. destruct E2 as (e & X1 & X2 & ->). eauto.
      + subst t'. auto.
    - destruct (removeLeft_wild k t true Ht) as (t' & [x|] & -> & E1 & E2); do 2 eexists; (split; [reflexivity|]); (split; [exact E1|]).
      + right. destruct E2 as (e & X1 & X2 & ->). eauto.
      + subst t'. auto.
    - destruct (BY eq_refl) as (t' & E1 & E2 & E3). exists t'. eexists. split; [exact E1|]. split; [exact E2|]. cbn [pq_spec fst snd qmay] in *. auto.
    - destruct (BY eq_refl) as (t' & E1 & E2 & E3). exists t'. eexists. split; [exact E1|]. split; [exact E2|]. cbn [pq_spec fst snd qmay] in *. destruct (entry_at (elems t) (Some i)); auto.
    - destruct (BY eq_refl) as (t' & E1 & E2 & E3). exists t'. eexists. split; [exact E1|]. split; [exact E2|]. cbn [pq_spec fst snd qmay] in *. auto.
    - destruct (BY eq_refl) as (t' & E1 & E2 & E3). exists t'. eexists. split; [exact E1|]. split; [exact E2|]. cbn [pq_spec fst snd qmay] in *. auto.
    - destruct (BY eq_refl) as (t' & E1 & E2 & E3). exists t'. eexists. split; [exact E1|]. split; [exact E2|]. cbn [pq_spec fst snd qmay] in *. auto.
    - destruct (BY eq_refl) as (t' & E1 & E2 & E3). exists t'. eexists. split; [exact E1|]. split; [exact E2|]. cbn [pq_spec fst snd qmay] in *. auto.
    - destruct (BY eq_refl) as (t' & E1 & E2 & E3). exists t'. eexists. split; [exact E1|]. split; [exact E2|]. cbn [pq_spec fst snd qmay] in *. auto.
    - destruct (BY eq_refl) as (t' & E1 & E2 & E3). exists t'. eexists. split; [exact E1|]. split; [exact E2|]. cbn [pq_spec fst snd qmay] in *. auto.
    - destruct (BY eq_refl) as (t' & E1 & E2 & E3). exists t'. eexists. split; [exact E1|]. split; [exact E2|]. cbn [pq_spec fst snd qmay] in *. auto.
  Qed.
End Wild.
