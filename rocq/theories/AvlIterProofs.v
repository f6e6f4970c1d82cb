(** The iterators walk the sorted sequence of entries. *)
From Verif Require Import Base Bind Machine OrderSpec SMapSpec SMapFacts AvlTree AvlSpec AvlModel AvlIterModel.
Local Open Scope Z_scope.

Section Walk.
  Context {K V : Type}.
  Notation tree := (tree K V).
  Notation path := (list (tree * bool)).

  (** entries in direction [d] *)
  Definition sq (d : bool) (t : tree) : list (K * V) := if d then elems t else rev (elems t).
  Lemma sq_N d h k v l r : sq d (N h k v l r) = sq d (child (negb d) l r) ++ (k, v) :: sq d (child d l r).
  Proof. destruct d; cbn; [reflexivity|]. rewrite rev_app_distr. cbn. rewrite <- app_assoc. reflexivity. Qed.
  Lemma sq_len d t : length (sq d t) = length (elems t).
  Proof. destruct d; cbn; auto. apply rev_length. Qed.

  (** what lies before and after a place, in direction [d] *)
  Fixpoint past (d : bool) (p : path) : list (K * V) :=
    match p with
    | (N _ k v l r, dd) :: p' => past d p' ++ (if Bool.eqb dd d then sq d (child (negb d) l r) ++ [(k, v)] else [])
    | (E, _) :: p' => past d p'
    | [] => []
    end.
  Fixpoint todo (d : bool) (p : path) : list (K * V) :=
    match p with
    | (N _ k v l r, dd) :: p' => (if Bool.eqb dd d then [] else (k, v) :: sq d (child d l r)) ++ todo d p'
    | (E, _) :: p' => todo d p'
    | [] => []
    end.
  Inductive At (t : tree) : path -> tree -> Prop :=
  | At0 : At t [] t
  | AtS p dd h k v l r : At t p (N h k v l r) -> At t ((N h k v l r, dd) :: p) (child dd l r).

  Lemma At_sq t p c : At t p c -> forall d, sq d t = past d p ++ sq d c ++ todo d p.
  Proof.
    induction 1 as [|p dd h k v l r H IH]; intros d; cbn [past todo]; [rewrite app_nil_r; reflexivity|].
    rewrite IH, sq_N. destruct dd, d; cbn [Bool.eqb child negb app]; rewrite <- ?app_assoc; cbn [app]; rewrite ?app_nil_r; reflexivity.
  Qed.
  Lemma At_depth t p c : At t p c -> Z.of_nat (length p) + ht c <= ht t.
  Proof.
    induction 1 as [|p dd h k v l r H IH]; [cbn; lia|]. cbn [length ht] in *. destruct dd; cbn [child]; lia.
  Qed.
  Lemma ht_nonneg (t : tree) : 0 <= ht t.
  Proof. induction t; cbn [ht]; lia. Qed.
  Lemma past_todo p : past false p = rev (todo true p).
  Proof.
    induction p as [|[[|h k v l r] dd] p IH]; cbn [past todo]; auto.
    rewrite rev_app_distr, <- IH. f_equal. destruct dd; cbn [Bool.eqb]; auto.
  Qed.

  Lemma tree_cases (u : tree) : u = E \/ exists h k v l r, u = N h k v l r.
  Proof. destruct u; eauto 10. Qed.

  (** ** the stack *)
  Definition stk (s : path) (i : Z) (p : path) : Prop :=
    i = Z.of_nat (length p) - 1 /\ (length p <= length s)%nat /\ firstn (length p) s = rev p.
  Lemma firstn_poke (s : path) n x : (n < length s)%nat ->
    firstn (S n) (firstn n s ++ x :: skipn (S n) s) = firstn n s ++ [x].
  Proof.
    intros H. rewrite firstn_app, firstn_length, Nat.min_l by lia. replace (S n - n)%nat with 1%nat by lia.
    rewrite firstn_firstn, Nat.min_r by lia. reflexivity.
  Qed.
  Lemma poke_ok s i p x : stk s i p -> (length p < length s)%nat ->
    exists s', poke s (i + 1) x = Some s' /\ length s' = length s /\ stk s' (i + 1) (x :: p).
  Proof.
    intros (-> & H1 & H2) H. unfold poke. replace (Z.of_nat (length p) - 1 + 1) with (Z.of_nat (length p)) by lia.
    destruct (Z.ltb_spec (Z.of_nat (length p)) 0); [lia|]. destruct (Z.leb_spec (Z.of_nat (length s)) (Z.of_nat (length p))); [lia|].
    cbn [orb]. rewrite Nat2Z.id. eexists. split; [reflexivity|].
    assert (L : length (firstn (length p) s ++ x :: skipn (S (length p)) s) = length s).
    { rewrite app_length, firstn_length. cbn [length]. rewrite skipn_length. lia. }
    split; [exact L|]. split; [cbn [length]; lia|]. split; [rewrite L; cbn [length]; lia|].
    cbn [length rev]. rewrite firstn_poke by lia. rewrite H2. reflexivity.
  Qed.
  Lemma stk_tail s i x p : stk s i (x :: p) -> stk s (i - 1) p.
  Proof.
    intros (-> & H1 & H2). cbn [length rev] in *. split; [lia|]. split; [lia|].
    apply (f_equal (firstn (length p))) in H2. rewrite firstn_firstn, Nat.min_l in H2 by lia. rewrite H2.
    rewrite firstn_app, rev_length, Nat.sub_diag, app_nil_r. rewrite <- (rev_length p) at 1. apply firstn_all.
  Qed.
  Lemma stk_peek s i x p : stk s i (x :: p) -> peek s i = Some x.
  Proof.
    intros (-> & H1 & H2). cbn [length rev] in *. unfold peek. destruct (Z.ltb_spec (Z.of_nat (S (length p)) - 1) 0); [lia|].
    replace (Z.to_nat (Z.of_nat (S (length p)) - 1)) with (length p) by lia.
    rewrite <- (firstn_skipn (S (length p)) s), H2, <- app_assoc, nth_error_app2; rewrite rev_length; auto.
    rewrite Nat.sub_diag. reflexivity.
  Qed.
  Lemma stk_app s q1 q2 : stk s (Z.of_nat (length (q1 ++ q2)) - 1) (q1 ++ q2) -> stk s (Z.of_nat (length q2) - 1) q2.
  Proof.
    induction q1 as [|x q1 IH]; auto. intros H. apply stk_tail in H. apply IH.
    replace (Z.of_nat (length (q1 ++ q2)) - 1) with (Z.of_nat (length ((x :: q1) ++ q2)) - 1 - 1) by (cbn [app length]; lia).
    exact H.
  Qed.

  (** ** places of an iterator on the tree [T] *)
  Context (T : avl K V) (cells : Z).
  Notation t := (root T).
  Context (Hcells : ht t <= cells).
  (** the length of the stack *)
  Definition fits (s : path) : Prop := Z.of_nat (length s) = cells.
  Definition On (it : iter K V) (p : path) : Prop :=
    itree it = T /\ fits (stack it) /\ stk (stack it) (idx it) p /\ At t p (cur it) /\ cur it <> E.
  Definition Off (d : bool) (it : iter K V) : Prop :=
    itree it = T /\ fits (stack it) /\ cur it = E /\
    exists p h k v l r, stk (stack it) (idx it) ((N h k v l r, d) :: p) /\ At t p (N h k v l r) /\ child d l r = E /\
      Forall (fun x => snd x = d) p.
  Definition Unset (it : iter K V) : Prop := itree it = T /\ fits (stack it) /\ cur it = E /\ idx it = -1.

  (** entries before the current one, in direction [d] *)
  Definition left_of (d : bool) (p : path) (c : tree) : list (K * V) :=
    past d p ++ match c with E => [] | N _ _ _ l r => sq d (child (negb d) l r) end.
  Definition right_of (d : bool) (p : path) (c : tree) : list (K * V) :=
    match c with E => [] | N _ _ _ l r => sq d (child d l r) end ++ todo d p.

  Lemma On_room it p : On it p -> (length p < length (stack it))%nat.
  Proof.
    intros (_ & F & _ & A & Hc). unfold fits in F. pose proof (At_depth _ _ _ A) as H. destruct (cur it) as [|h k v l r]; [congruence|].
    cbn [ht] in H. pose proof (ht_nonneg l). lia.
  Qed.
  Lemma On_split it p d : On it p -> exists h k v l r, cur it = N h k v l r /\
    sq d t = left_of d p (cur it) ++ (k, v) :: right_of d p (cur it).
  Proof.
    intros (_ & _ & _ & A & Hc). pose proof (At_sq _ _ _ A d) as H. destruct (cur it) as [|h k v l r]; [congruence|].
    exists h, k, v, l, r. split; auto. rewrite H, sq_N. unfold left_of, right_of. rewrite <- !app_assoc. reflexivity.
  Qed.
  Lemma left_right_of p c : left_of false p c = rev (right_of true p c).
  Proof.
    unfold left_of, right_of. rewrite past_todo. rewrite rev_app_distr. f_equal. destruct c; reflexivity.
  Qed.

  Lemma down_on c it p : On it p -> exists h k v l r, cur it = N h k v l r /\
    ((child c l r = E /\ down c it = Some (it, false)) \/
     (child c l r <> E /\ exists it', down c it = Some (it', true) /\ On it' ((cur it, c) :: p) /\ cur it' = child c l r)).
  Proof.
    intros H. pose proof (On_room _ _ H) as R. destruct H as (H1 & H2 & H3 & H4 & H5). unfold down.
    destruct (cur it) as [|h k v l r] eqn:Ec; [congruence|]. exists h, k, v, l, r. split; auto.
    destruct (child c l r) as [|h' k' v' l' r'] eqn:Ed; [left; auto|]. right. split; [discriminate|].
    destruct (poke_ok _ _ _ (N h k v l r, c) H3 R) as (s' & E1 & E2 & E3). rewrite E1. eexists. split; [reflexivity|].
    split; [|reflexivity]. unfold On; cbn [itree cur idx stack]. split; auto. split; [unfold fits in *; congruence|]. split; auto.
    split; [|discriminate]. rewrite <- Ed. apply AtS. exact H4.
  Qed.

  (** running down against [d] reaches the first entry of the subtree in direction [d] *)
  Lemma down_loop_ok d it p fuel : On it p -> (levels (cur it) <= fuel)%nat ->
    exists it' p', down_loop fuel (negb d) it = Some it' /\ On it' p' /\ left_of d p' (cur it') = past d p /\
      right_of d p' (cur it') = tl (sq d (cur it)) ++ todo d p /\
      exists h k v l r, cur it' = N h k v l r /\ child (negb d) l r = E.
  Proof.
    revert it p. induction fuel as [|fuel IH]; intros it p H Hf.
    { destruct (cur it); cbn in Hf; lia. }
    cbn [down_loop]. destruct (down_on (negb d) it p H) as (h & k & v & l & r & Ec & [(E1 & E2)|(E1 & it' & E2 & E3 & E4)]); rewrite E2.
    - exists it, p. split; auto. split; auto. rewrite Ec. unfold left_of, right_of. rewrite sq_N, E1.
      replace (sq d E) with (@nil (K * V)) by (destruct d; reflexivity). rewrite app_nil_r. cbn [app tl].
      split; auto. split; auto. exists h, k, v, l, r. auto.
    - destruct (IH it' _ E3) as (it'' & p'' & F1 & F2 & F3 & F4 & F5).
      { rewrite E4. rewrite Ec in Hf. cbn [levels] in Hf. destruct d; cbn [child negb]; lia. }
      exists it'', p''. split; auto. split; auto. rewrite F3, F4, Ec, E4. cbn [past todo].
      replace (Bool.eqb (negb d) d) with false by (destruct d; reflexivity). rewrite app_nil_r. split; auto.
      split; [|exact F5]. rewrite sq_N.
      destruct (sq d (child (negb d) l r)) as [|e q] eqn:Es.
      + destruct (child (negb d) l r) as [|h' k' v' l' r']; [congruence|]. rewrite sq_N in Es. apply app_eq_nil in Es as (_ & Es). discriminate.
      + cbn [app tl]. rewrite <- !app_assoc. reflexivity.
  Qed.

  Lemma At_drop q p c : At t (q ++ p) c -> q <> [] -> exists n dd q', q = q' ++ [(n, dd)] /\ At t p n.
  Proof.
    revert c. induction q as [|x q IH]; [congruence|]. intros c H _. inversion H as [|p0 dd h k v l r H']; subst.
    destruct q as [|y q].
    - exists (N h k v l r), dd, []. split; auto.
    - destruct (IH _ H' ltac:(discriminate)) as (n & dd' & q' & E1 & E2). exists n, dd', ((N h k v l r, dd) :: q'). rewrite E1. auto.
  Qed.
  Lemma At_nonE x p c : At t (x :: p) c -> exists h k v l r, fst x = N h k v l r /\ At t p (N h k v l r).
  Proof. inversion 1; subst. cbn. eauto 10. Qed.
  Lemma past_same c q p : Forall (fun x => snd x = c) q -> todo c (q ++ p) = todo c p.
  Proof.
    induction 1 as [|[[|h k v l r] dd] q H _ IH]; cbn [app todo]; auto. cbn in H. subst dd.
    rewrite Bool.eqb_reflx. exact IH.
  Qed.
  Lemma up_loop_ok c it p q p' : itree it = T -> fits (stack it) -> stk (stack it) (idx it) p -> At t p (cur it) -> p = q ++ p' ->
    Forall (fun x => snd x = c) q ->
    forall fuel, (length p' < fuel)%nat ->
    match todo c p' with
    | [] => up_loop fuel c it (Z.of_nat (length p') - 1) = up_loop 1 c it (-1) /\ Forall (fun x => snd x = c) p
    | _ => exists it' p2, up_loop fuel c it (Z.of_nat (length p') - 1) = Some (it', true) /\ On it' p2 /\
        left_of c p2 (cur it') = past c p ++ sq c (cur it)
    end.
  Proof.
    intros H1 H2 H3 H4. revert q. induction p' as [|[n dd] p' IH]; intros q Hp Hq fuel Hf.
    - cbn [todo length]. destruct fuel as [|fuel]; [lia|]. cbn [up_loop]. split; [reflexivity|]. rewrite Hp, app_nil_r. exact Hq.
    - assert (Hs : stk (stack it) (Z.of_nat (length ((n, dd) :: p')) - 1) ((n, dd) :: p')).
      { apply (stk_app _ q). rewrite <- Hp. destruct H3 as (Hi & X). split; auto. }
      destruct fuel as [|fuel]; [cbn in Hf; lia|]. cbn [up_loop].
      destruct (Z.ltb_spec (-1) (Z.of_nat (length ((n, dd) :: p')) - 1)) as [_|Hx]; [|cbn [length] in Hx; lia].
      rewrite (stk_peek _ _ _ _ Hs).
      assert (HA : exists h k v l r, n = N h k v l r /\ At t p' n).
      { rewrite Hp in H4. clear - H4. revert H4. generalize (cur it). induction q as [|x q IHq]; intros c0 H.
        - apply At_nonE in H as (h & k & v & l & r & X1 & X2). cbn in X1. subst n. eauto 10.
        - apply At_nonE in H as (h & k & v & l & r & X1 & X2). eauto. }
      destruct HA as (h & k & v & l & r & -> & HA). cbn [todo].
      destruct (Bool.eqb dd (negb c)) eqn:Ed.
      + assert (Ed' : Bool.eqb dd c = false) by (destruct dd, c; cbn in *; congruence). rewrite Ed'. cbn [app].
        eexists. exists p'. split; [reflexivity|]. pose proof (stk_tail _ _ _ _ Hs) as Ht.
        split. { unfold On; cbn [itree cur idx stack]. repeat (split; auto). discriminate. }
        cbn [cur]. unfold left_of.
        pose proof (At_sq _ _ _ H4 c) as S1. rewrite Hp, (past_same c q _ Hq) in S1. cbn [todo] in S1. rewrite Ed' in S1.
        pose proof (At_sq _ _ _ HA c) as S2. rewrite sq_N in S2. rewrite S2 in S1.
        rewrite <- Hp in S1.
        apply (app_inv_tail ((k, v) :: sq c (child c l r) ++ todo c p')). rewrite <- !app_assoc.
        rewrite <- !app_assoc in S1. cbn [app] in S1. exact S1.
      + assert (dd = c) by (destruct dd, c; cbn in *; congruence). subst dd. rewrite Bool.eqb_reflx. cbn [app].
        specialize (IH (q ++ [(N h k v l r, c)])).
        replace (Z.of_nat (length ((N h k v l r, c) :: p')) - 1 - 1) with (Z.of_nat (length p') - 1) by (cbn [length]; lia).
        apply IH; [rewrite <- app_assoc; exact Hp| |cbn in Hf; lia].
        apply Forall_app. split; auto.
  Qed.
  Lemma todo_all c p u : At t p u -> Forall (fun x => snd x = c) p -> todo c p = [].
  Proof. intros _ H. rewrite <- (app_nil_r p), (past_same c p [] H). reflexivity. Qed.

  Lemma up_on c it p h k v l r : On it p -> cur it = N h k v l r -> child c l r = E ->
    exists it' b, up c it = Some (it', b) /\
      match right_of c p (cur it) with
      | [] => Off c it'
      | _ => exists p', On it' p' /\ left_of c p' (cur it') = left_of c p (cur it) ++ [(k, v)]
      end.
  Proof.
    intros H Ec El. pose proof (On_room _ _ H) as R. destruct H as (H1 & H2 & H3 & H4 & H5). unfold up.
    pose proof (proj1 H3) as Hi. rewrite Hi.
    assert (S2 : sq c (cur it) = sq c (child (negb c) l r) ++ [(k, v)]).
    { rewrite Ec, sq_N, El. destruct c; reflexivity. }
    assert (E0 : right_of c p (cur it) = todo c p).
    { rewrite Ec. unfold right_of. rewrite El. destruct c; reflexivity. }
    pose proof (up_loop_ok c it p [] p H1 H2 H3 H4 eq_refl (Forall_nil _) (S (S (Z.to_nat (Z.of_nat (length p) - 1)))) ltac:(lia)) as U.
    rewrite E0. destruct (todo c p) as [|e q] eqn:Et.
    - destruct U as (U & Hall). rewrite U. cbn [up_loop]. rewrite Ec.
      destruct (poke_ok _ _ _ (N h k v l r, c) H3 R) as (s' & E1 & E2 & E3). cbn [Z.ltb Z.compare]. rewrite E1.
      eexists _, _. split; [reflexivity|]. unfold Off; cbn [itree cur idx stack]. split; auto. split; [unfold fits in *; congruence|].
      split; auto. exists p, h, k, v, l, r. rewrite <- Ec in *. split; auto.
    - destruct U as (it' & p2 & U1 & U2 & U3). exists it', true. split; [exact U1|]. exists p2. split; auto.
      rewrite U3, S2. rewrite Ec. unfold left_of. rewrite app_assoc. reflexivity.
  Qed.
  Lemma up_off c it : Off c it -> up c it = Some (it, false).
  Proof.
    intros (H1 & H2 & H3 & p & h & k & v & l & r & H4 & H5 & H6 & H7). unfold up.
    pose proof (proj1 H4) as Hi. rewrite Hi.
    assert (G : forall q p', (N h k v l r, c) :: p = q ++ p' -> Forall (fun x => snd x = c) p' -> forall fuel, (length p' < fuel)%nat ->
      up_loop fuel c it (Z.of_nat (length p') - 1) = Some (it, false)).
    { clear Hi. intros q p'. revert q. induction p' as [|[n dd] p' IH]; intros q Hq Ha fuel Hf.
      - destruct fuel; [lia|]. cbn [up_loop length]. cbn [Z.of_nat Z.sub Z.add Z.opp Z.ltb Z.compare]. rewrite H3. reflexivity.
      - destruct fuel as [|fuel]; [cbn in Hf; lia|]. cbn [up_loop].
        destruct (Z.ltb_spec (-1) (Z.of_nat (length ((n, dd) :: p')) - 1)) as [_|Hx]; [|cbn [length] in Hx; lia].
        assert (Hs : stk (stack it) (Z.of_nat (length ((n, dd) :: p')) - 1) ((n, dd) :: p')).
        { apply (stk_app _ q). rewrite <- Hq. destruct H4 as (X0 & X). split; auto. }
        rewrite (stk_peek _ _ _ _ Hs). pose proof (Forall_inv Ha) as Hd. pose proof (Forall_inv_tail Ha) as Ha'. cbn in Hd. subst dd.
        replace (Bool.eqb c (negb c)) with false by (destruct c; reflexivity).
        replace (Z.of_nat (length ((n, c) :: p')) - 1 - 1) with (Z.of_nat (length p') - 1) by (cbn [length]; lia).
        apply (IH (q ++ [(n, c)])); auto; [rewrite <- app_assoc; exact Hq|cbn in Hf; lia]. }
    apply (G [] _ eq_refl); [constructor; auto|lia].
  Qed.
  Lemma up_unset c it : Unset it -> up c it = Some (it, false).
  Proof. intros (_ & _ & H1 & H2). unfold up. rewrite H2. cbn. rewrite H1. reflexivity. Qed.
  Lemma down_off c d it : Off d it ->
    if Bool.eqb d c then down c it = Some (it, false)
    else exists it' p, down c it = Some (it', true) /\ On it' p /\ left_of c p (cur it') = [] /\
      exists h k v l r, cur it' = N h k v l r /\ child (negb c) l r = E.
  Proof.
    intros (H1 & H2 & H3 & p & h & k & v & l & r & H4 & H5 & H6 & H7). unfold down. rewrite H3.
    pose proof (proj1 H4) as Hi. destruct (Z.ltb_spec (-1) (idx it)) as [_|Hx]; [|cbn [length] in Hi; lia].
    rewrite (stk_peek _ _ _ _ H4). destruct (Bool.eqb d c) eqn:E1.
    - replace (Bool.eqb d (negb c)) with false by (destruct d, c; cbn in *; congruence). reflexivity.
    - assert (d = negb c) by (destruct d, c; cbn in *; congruence). subst d. rewrite Bool.eqb_reflx.
      eexists. exists p. split; [reflexivity|]. split.
      { unfold On; cbn [itree cur idx stack]. pose proof (stk_tail _ _ _ _ H4). repeat (split; auto). discriminate. }
      cbn [cur]. split; [|exists h, k, v, l, r; auto]. unfold left_of. rewrite H6.
      replace (sq c E) with (@nil (K * V)) by (destruct c; reflexivity). rewrite app_nil_r.
      clear - H7. induction H7 as [|[[|h k v l r] dd] q H _ IH]; cbn [past]; auto. cbn in H. subst dd.
      replace (Bool.eqb (negb c) c) with false by (destruct c; reflexivity). rewrite IH. reflexivity.
  Qed.
  Lemma down_unset c it : Unset it -> down c it = Some (it, false).
  Proof. intros (_ & _ & H1 & H2). unfold down. rewrite H1, H2. reflexivity. Qed.

  Lemma At_levels p c : At t p c -> (levels c <= levels t)%nat.
  Proof. induction 1 as [|p dd h k v l r H IH]; auto. cbn [levels] in IH. destruct dd; cbn [child]; lia. Qed.

  Lemma move_on c it p : On it p -> exists h k v l r, cur it = N h k v l r /\ exists it', move c it = Some it' /\
    match right_of c p (cur it) with
    | [] => Off c it'
    | _ => exists p', On it' p' /\ left_of c p' (cur it') = left_of c p (cur it) ++ [(k, v)]
    end.
  Proof.
    intros H. destruct (down_on c it p H) as (h & k & v & l & r & Ec & Hd). exists h, k, v, l, r. split; auto.
    unfold move. replace (itree it) with T by (symmetry; apply H).
    destruct Hd as [(E1 & E2)|(E1 & it' & E2 & E3 & E4)]; rewrite E2.
    - destruct (up_on c it p _ _ _ _ _ H Ec E1) as (it' & b & U1 & U2). rewrite U1. eauto.
    - destruct (down_loop_ok c it' _ (levels t) E3) as (it'' & p'' & F1 & F2 & F3 & _).
      { apply At_levels with (p := (cur it, c) :: p). apply E3. }
      rewrite F1. exists it''. split; auto. rewrite Ec. unfold right_of.
      destruct (sq c (child c l r)) as [|e q] eqn:Es.
      + destruct (child c l r) as [|h' k' v' l' r']; [congruence|]. rewrite sq_N in Es. apply app_eq_nil in Es as (_ & Es). discriminate.
      + cbn [app]. exists p''. split; auto. rewrite F3, Ec. cbn [past]. rewrite Bool.eqb_reflx. unfold left_of.
        rewrite app_assoc. reflexivity.
  Qed.
  Lemma move_off c d it : Off d it -> exists it', move c it = Some it' /\
    if Bool.eqb d c then Off d it' else exists p', On it' p' /\ left_of c p' (cur it') = [].
  Proof.
    intros H. pose proof (down_off c d it H) as D. unfold move. replace (itree it) with T by (symmetry; apply H).
    destruct (Bool.eqb d c) eqn:Ed.
    - rewrite D. assert (d = c) by (destruct d, c; cbn in *; congruence). subst d. rewrite (up_off c it H). eauto.
    - destruct D as (it' & p & D1 & D2 & D3 & h & k & v & l & r & D4 & D5). rewrite D1.
      assert (L : (0 < levels t)%nat) by (destruct t; cbn; lia). destruct (levels t) as [|f]; [lia|]. cbn [down_loop].
      destruct (down_on (negb c) it' p D2) as (h0 & k0 & v0 & l0 & r0 & X1 & [(X2 & X3)|(X2 & _)]).
      + rewrite X3. eauto.
      + rewrite X1 in D4. injection D4 as -> -> -> -> ->. congruence.
  Qed.
  Lemma move_unset c it : Unset it -> move c it = Some it.
  Proof. intros H. unfold move. rewrite (down_unset c it H), (up_unset c it H). reflexivity. Qed.

  (** ** positions *)
  Notation n := (len (elems t)).
  Definition Pos (it : iter K V) (q : option Z) : Prop :=
    match q with
    | None => Unset it
    | Some i => (exists p, On it p /\ i = len (left_of true p (cur it))) \/ (i = n /\ Off true it) \/ (i = -1 /\ Off false it)
    end.
  Lemma len_app (a b : list (K * V)) : len (a ++ b) = len a + len b.
  Proof. unfold len. rewrite app_length. lia. Qed.
  Lemma len_rev (a : list (K * V)) : len (rev a) = len a.
  Proof. unfold len. rewrite rev_length. lia. Qed.
  Lemma len_cons e (a : list (K * V)) : len (e :: a) = 1 + len a.
  Proof. unfold len. cbn [length]. lia. Qed.
  Lemma len_pos (a : list (K * V)) : 0 <= len a.
  Proof. unfold len. lia. Qed.
  Lemma On_len it p d : On it p -> len (left_of d p (cur it)) + 1 + len (right_of d p (cur it)) = n.
  Proof.
    intros H. destruct (On_split it p d H) as (h & k & v & l & r & E1 & E2). pose proof (f_equal len E2) as E3.
    rewrite len_app, len_cons in E3. replace (len (sq d t)) with n in E3 by (destruct d; cbn; rewrite ?len_rev; auto). lia.
  Qed.
  Lemma left_false it p : On it p -> len (left_of true p (cur it)) = n - 1 - len (left_of false p (cur it)).
  Proof. intros H. pose proof (On_len it p true H). rewrite left_right_of, len_rev. lia. Qed.

  Lemma move_pos c it q : Pos it q -> exists it', move c it = Some it' /\
    Pos it' (option_map (fun i => if c then Z.min (i + 1) n else Z.max (i - 1) (-1)) q).
  Proof.
    destruct q as [i|]; cbn [Pos option_map].
    2:{ intros H. rewrite (move_unset c it H). eauto. }
    intros [(p & H & ->)|[(-> & H)|(-> & H)]].
    - destruct (move_on c it p H) as (h & k & v & l & r & Ec & it' & E1 & E2). exists it'. split; auto.
      pose proof (On_len it p c H) as L. destruct (right_of c p (cur it)) as [|e x] eqn:Er.
      + unfold len in L at 2. cbn in L. right. destruct c.
        * left. split; auto. lia.
        * right. split; auto. rewrite (left_false it p H). lia.
      + destruct E2 as (p' & H' & E2). left. exists p'. split; auto. rewrite len_cons in L. pose proof (len_pos x).
        pose proof (f_equal len E2) as E3. rewrite len_app in E3. change (len [(k, v)]) with 1 in E3. destruct c.
        * pose proof (len_pos (left_of true p (cur it))). lia.
        * rewrite (left_false it p H), (left_false it' p' H'). pose proof (len_pos (left_of false p (cur it))). lia.
    - destruct (move_off c true it H) as (it' & E1 & E2). exists it'. split; auto. destruct c; cbn [Bool.eqb] in E2.
      + right. left. split; auto. lia.
      + destruct E2 as (p' & H' & E2). left. exists p'. split; auto. rewrite (left_false it' p' H'), E2.
        pose proof (len_pos (elems t)). pose proof (On_len it' p' true H') as X. change (len []) with 0.
        pose proof (len_pos (left_of true p' (cur it'))). pose proof (len_pos (right_of true p' (cur it'))). lia.
    - destruct (move_off c false it H) as (it' & E1 & E2). exists it'. split; auto. destruct c; cbn [Bool.eqb] in E2.
      + destruct E2 as (p' & H' & E2). left. exists p'. split; auto. rewrite E2. change (len []) with 0.
        pose proof (On_len it' p' true H') as X. pose proof (len_pos (left_of true p' (cur it'))).
        pose proof (len_pos (right_of true p' (cur it'))). lia.
      + right. right. split; auto.
  Qed.

  Lemma At_empty p c : t = E -> At t p c -> p = [] /\ c = E.
  Proof. intros Et A. induction A as [|p dd h k v l r A IH]; [auto|]. destruct (IH) as (_ & X). discriminate. Qed.
  Lemma Pos_empty it q : t = E -> Pos it q -> idx it = -1.
  Proof.
    intros Et. destruct q as [i|]; cbn [Pos]; [intros [(p & H & _)|[(_ & H)|(_ & H)]]|intros H].
    - destruct H as (_ & _ & _ & A & X). destruct (At_empty _ _ Et A) as (_ & Y). congruence.
    - destruct H as (_ & _ & _ & p & h & k & v & l & r & _ & A & _). destruct (At_empty _ _ Et A) as (_ & Y). discriminate.
    - destruct H as (_ & _ & _ & p & h & k & v & l & r & _ & A & _). destruct (At_empty _ _ Et A) as (_ & Y). discriminate.
    - apply H.
  Qed.
  Lemma root_cases : t = E \/ exists h k v l r, t = N h k v l r.
  Proof. exact (tree_cases t). Qed.
  Lemma start_on it : itree it = T -> fits (stack it) -> t <> E -> On (IT (itree it) t (-1) (stack it)) [].
  Proof.
    intros H1 H2 H3. unfold On; cbn [itree cur idx stack]. split; auto. split; auto. split.
    - split; [reflexivity|]. split; [cbn; lia|]. reflexivity.
    - split; [apply At0|auto].
  Qed.
  Lemma Pos_base it q : Pos it q -> itree it = T /\ fits (stack it).
  Proof. destruct q as [i|]; cbn [Pos]; [intros [(p & H & _)|[(_ & H)|(_ & H)]]|intros H]; destruct H as (A & B & _); auto. Qed.

  Lemma seekToEnd_base c it : itree it = T -> fits (stack it) -> exists it', seekToEnd c it = Some it' /\
    Pos it' (goto (elems t) (if c then n - 1 else 0)).
  Proof.
    intros H1 H2. unfold seekToEnd. rewrite H1.
    destruct root_cases as [Et|(h & k & v & l & r & Et)].
    - assert (U : Unset (IT T E (-1) (stack it))) by (unfold Unset; cbn [itree cur idx stack]; auto).
      rewrite Et. cbn [levels down_loop]. rewrite (down_unset c _ U). eexists. split; [reflexivity|]. exact U.
    - pose proof (start_on it H1 H2 ltac:(congruence)) as S. rewrite H1 in S.
      destruct (down_loop_ok (negb c) _ _ (levels t) S) as (it' & p' & F1 & F2 & F3 & _); [cbn [cur]; lia|].
      rewrite Bool.negb_involutive in F1. rewrite F1. exists it'. split; auto.
      assert (G : forall i, goto (elems t) i = Some i).
      { intros i. unfold goto. rewrite Et. cbn [elems]. destruct (elems l); reflexivity. }
      rewrite G. left. exists p'. split; auto. destruct c; cbn [negb] in F3.
      + rewrite (left_false _ _ F2), F3. change (len (past false [])) with 0. lia.
      + rewrite F3. reflexivity.
  Qed.

  Lemma seekToEnd_pos c it q : Pos it q -> exists it', seekToEnd c it = Some it' /\
    Pos it' (goto (elems t) (if c then n - 1 else 0)).
  Proof. intros H. destruct (Pos_base _ _ H) as (H1 & H2). apply seekToEnd_base; auto. Qed.

  (** what is read at a position *)
  Lemma entry_on it p : On it p -> exists h k v l r, cur it = N h k v l r /\
    entry_at (elems t) (Some (len (left_of true p (cur it)))) = Some (k, v).
  Proof.
    intros H. destruct (On_split it p true H) as (h & k & v & l & r & E1 & E2). exists h, k, v, l, r. split; auto.
    cbn [sq] in E2. unfold entry_at. rewrite E2. rewrite len_app, len_cons. pose proof (len_pos (left_of true p (cur it))).
    pose proof (len_pos (right_of true p (cur it))).
    destruct (Z.leb_spec 0 (len (left_of true p (cur it)))); [|lia].
    match goal with |- context [?a <? ?b] => destruct (Z.ltb_spec a b); [|lia] end. cbn [andb].
    unfold len. rewrite Nat2Z.id, nth_error_app2, Nat.sub_diag by lia. reflexivity.
  Qed.
  Lemma read_pos it q : Pos it q ->
    entry_at (elems t) q = match cur it with E => None | N _ k v _ _ => Some (k, v) end.
  Proof.
    destruct q as [i|]; cbn [Pos].
    2:{ intros (_ & _ & -> & _). reflexivity. }
    intros [(p & H & ->)|[(-> & H)|(-> & H)]].
    - destruct (entry_on it p H) as (h & k & v & l & r & E1 & E2). rewrite E2, E1. reflexivity.
    - destruct H as (_ & _ & -> & _). unfold entry_at. rewrite Z.ltb_irrefl, andb_false_r. reflexivity.
    - destruct H as (_ & _ & -> & _). reflexivity.
  Qed.

  (** ** a clone stands where the original stands *)
  Lemma On_stack it p s : On it p -> length s = length (stack it) -> firstn (length p) s = firstn (length p) (stack it) ->
    On (IT (itree it) (cur it) (idx it) s) p.
  Proof.
    intros (H1 & H2 & (H3 & H3' & H3'') & H4 & H5) E1 E2. unfold On, fits, stk; cbn [itree cur idx stack].
    unfold fits in H2. rewrite E2. repeat split; auto; congruence.
  Qed.
  Lemma Off_stack d it s : Off d it -> length s = length (stack it) ->
    firstn (Z.to_nat (idx it + 1)) s = firstn (Z.to_nat (idx it + 1)) (stack it) ->
    Off d (IT (itree it) (cur it) (idx it) s).
  Proof.
    intros (H1 & H2 & H3 & p & h & k & v & l & r & (H4 & H4' & H4'') & H5) E1 E2. unfold Off, fits, stk; cbn [itree cur idx stack].
    unfold fits in H2. split; auto. split; [congruence|]. split; auto. exists p, h, k, v, l, r. split; auto.
    split; auto. split; [congruence|]. rewrite H4 in E2.
    match type of E2 with firstn ?x _ = _ => replace x with (length ((N h k v l r, d) :: p)) in E2 by lia end. rewrite E2. exact H4''.
  Qed.
  Lemma Pos_idx it q : Pos it q -> (Z.to_nat (idx it + 1) <= length (stack it))%nat /\ -1 <= idx it.
  Proof.
    destruct q as [i|]; cbn [Pos]; [intros [(p & H & _)|[(_ & H)|(_ & H)]]|intros H].
    - destruct H as (_ & _ & (H1 & H2 & _) & _). rewrite H1. lia.
    - destruct H as (_ & _ & _ & p & h & k & v & l & r & (H1 & H2 & _) & _). rewrite H1. cbn [length] in *. lia.
    - destruct H as (_ & _ & _ & p & h & k & v & l & r & (H1 & H2 & _) & _). rewrite H1. cbn [length] in *. lia.
    - destruct H as (_ & _ & _ & H). rewrite H. cbn. lia.
  Qed.
  Lemma Pos_stack it q s : Pos it q -> length s = length (stack it) ->
    firstn (Z.to_nat (idx it + 1)) s = firstn (Z.to_nat (idx it + 1)) (stack it) ->
    Pos (IT (itree it) (cur it) (idx it) s) q.
  Proof.
    intros H E1 E2. destruct q as [i|]; cbn [Pos] in *.
    - destruct H as [(p & H & E3)|[(E3 & H)|(E3 & H)]].
      + left. exists p. split; auto. apply On_stack; auto. destruct H as (_ & _ & (H & _) & _). rewrite H in E2.
        match type of E2 with firstn ?x _ = _ => replace x with (length p) in E2 by lia end. exact E2.
      + right. left. split; auto. apply Off_stack; auto.
      + right. right. split; auto. apply Off_stack; auto.
    - destruct H as (H1 & H2 & H3 & H4). unfold Unset, fits in *; cbn [itree cur idx stack]. repeat split; auto. congruence.
  Qed.

  (** ** seeks *)
  Context (ltb : K -> K -> bool) (W : weak_order ltb) (cmp : K -> K -> Z) (Hcmp : ex_cmp ltb cmp).
  Context (strict lg : bool) (key : K).
  (** the entries a seek may stop on *)
  Definition sat (e : K * V) : bool :=
    match lg, strict with
    | true, false => negb (ltb (fst e) key)
    | true, true => ltb key (fst e)
    | false, false => negb (ltb key (fst e))
    | false, true => ltb (fst e) key
    end.
  Definition target : Z :=
    let u := len (filter (fun e => negb (sat e)) (elems t)) in if lg then u else n - 1 - u.

  Context (Hs : weakly_sorted ltb (elems t)).
  Lemma sq_mono A e B : sq lg t = A ++ e :: B ->
    (sat e = true -> forall y, In y B -> sat y = true) /\ (sat e = false -> forall y, In y A -> sat y = false).
  Proof.
    intros H. assert (G : (forall y, In y A -> if lg then ltb (fst e) (fst y) = false else ltb (fst y) (fst e) = false) /\
                         (forall y, In y B -> if lg then ltb (fst y) (fst e) = false else ltb (fst e) (fst y) = false)).
    { destruct lg; cbn [sq] in H.
      - rewrite H in Hs. destruct (weak_mid ltb _ _ _ Hs) as (_ & _ & X1 & X2). auto.
      - apply (f_equal (@rev _)) in H. rewrite rev_involutive, rev_app_distr in H. cbn [rev] in H. rewrite <- app_assoc in H.
        cbn [app] in H. rewrite H in Hs. destruct (weak_mid ltb _ _ _ Hs) as (_ & _ & X1 & X2).
        split; intros y Hy; [apply X2|apply X1]; apply -> in_rev; auto. }
    destruct G as (G1 & G2). unfold sat. split; intros He y Hy; [specialize (G2 y Hy)|specialize (G1 y Hy)]; destruct lg, strict;
      rewrite ?negb_true_iff, ?negb_false_iff in *.
    - eapply (lt_le ltb W); eauto.
    - eapply (le_le ltb W); eauto.
    - eapply (le_lt ltb W); eauto.
    - eapply (le_le ltb W); eauto.
    - eapply (le_le ltb W); eauto.
    - eapply (le_lt ltb W); eauto.
    - eapply (le_le ltb W); eauto.
    - eapply (lt_le ltb W); eauto.
  Qed.
  Lemma count_unsat : len (filter (fun e => negb (sat e)) (elems t)) = len (filter (fun e => negb (sat e)) (sq lg t)).
  Proof.
    assert (G : forall (f : K * V -> bool) m, length (filter f m) = length (filter f (rev m))).
    { intros f m. induction m as [|e m IH]; auto. cbn [rev filter].
      rewrite filter_app, app_length, <- IH. cbn [filter]. destruct (f e); cbn [length]; lia. }
    unfold sq, len. f_equal. destruct lg; auto.
  Qed.
  Lemma land_on it p h k v l r : On it p -> cur it = N h k v l r -> sat (k, v) = true ->
    (forall y, In y (left_of lg p (cur it)) -> sat y = false) -> Pos it (Some target) /\ 0 <= target < n.
  Proof.
    intros H Ec Hk Hl. destruct (On_split it p lg H) as (h0 & k0 & v0 & l0 & r0 & E1 & E2). rewrite Ec in E1. injection E1 as <- <- <- <- <-.
    destruct (sq_mono _ _ _ E2) as (M & _). specialize (M Hk).
    assert (E3 : len (filter (fun e => negb (sat e)) (elems t)) = len (left_of lg p (cur it))).
    { rewrite count_unsat, E2, filter_app. cbn [filter]. rewrite Hk. cbn [negb].
      rewrite (filter_all _ (left_of lg p (cur it))) by (intros y Hy; rewrite (Hl y Hy); auto).
      rewrite (filter_none _ (right_of lg p (cur it))) by (intros y Hy; rewrite (M y Hy); auto). rewrite app_nil_r. reflexivity. }
    pose proof (On_len it p lg H) as L. pose proof (len_pos (left_of lg p (cur it))). pose proof (len_pos (right_of lg p (cur it))).
    unfold target. rewrite E3. split; [|destruct lg; lia].
    left. exists p. split; auto. destruct lg; auto. rewrite (left_false it p H). lia.
  Qed.
  Lemma none_sat : (forall y, In y (sq lg t) -> sat y = false) -> target = if lg then n else -1.
  Proof.
    intros H. unfold target. rewrite count_unsat, filter_all by (intros y Hy; rewrite (H y Hy); auto).
    replace (len (sq lg t)) with n by (destruct lg; cbn; rewrite ?len_rev; auto). destruct lg; lia.
  Qed.
  Lemma land_off it : Off lg it -> (forall y, In y (sq lg t) -> sat y = false) -> Pos it (Some target).
  Proof. intros H1 H2. rewrite (none_sat H2). right. destruct lg; auto. Qed.

  Definition foundb (m : list (K * V)) : bool := match sames ltb key m with [] => false | _ => true end.
  Lemma At_sorted p u : At t p u -> weakly_sorted ltb (elems u).
  Proof.
    induction 1 as [|p dd h k v l r H IH]; auto. cbn [elems] in IH. destruct (weak_mid ltb _ _ _ IH) as (A & B & _).
    destruct dd; auto.
  Qed.
  (** one comparison: what it says about the entry and where keys equivalent to [key] can still be *)
  Lemma compare_step p h k v l r : At t p (N h k v l r) ->
    (ltb key k = true /\ cmp k key = 0 /\ foundb (elems (N h k v l r)) = foundb (elems l)) \/
    (ltb k key = true /\ cmp k key = 1 /\ foundb (elems (N h k v l r)) = foundb (elems r)) \/
    (same ltb k key = true /\ cmp k key = -1 /\ foundb (elems (N h k v l r)) = true).
  Proof.
    intros A. apply At_sorted in A. cbn [elems] in A. destruct (weak_mid ltb _ _ _ A) as (_ & _ & A1 & A2).
    rewrite Hcmp. unfold foundb. cbn [elems].
    destruct (ltb key k) eqn:E1; [left; repeat split|right; destruct (ltb k key) eqn:E2; [left|right]; repeat split].
    - destruct (cut_left ltb W (elems l) (k, v) (elems r) key E1 A2) as (_ & X & _). rewrite X. reflexivity.
    - destruct (cut_right ltb W (elems l) (k, v) (elems r) key E2 A1) as (_ & X & _). rewrite X. reflexivity.
    - apply same_iff. auto.
    - assert (In (k, v) (sames ltb key (elems l ++ (k, v) :: elems r))).
      { apply filter_In. split; [apply in_elt|]. apply same_iff. auto. }
      destruct (sames ltb key (elems l ++ (k, v) :: elems r)); [contradiction|reflexivity].
  Qed.
  Lemma sat_lt k v : ltb k key = true -> sat (k, v) = negb lg.
  Proof. intros H. unfold sat. cbn [fst]. rewrite H, (lt_asym ltb W _ _ H). destruct lg, strict; reflexivity. Qed.
  Lemma sat_gt k v : ltb key k = true -> sat (k, v) = lg.
  Proof. intros H. unfold sat. cbn [fst]. rewrite H, (lt_asym ltb W _ _ H). destruct lg, strict; reflexivity. Qed.
  Lemma sat_same k v : same ltb k key = true -> sat (k, v) = negb strict.
  Proof. intros H. apply same_iff in H as (H1 & H2). unfold sat. cbn [fst]. rewrite H1, H2. destruct lg, strict; reflexivity. Qed.

  Lemma left_unsat it p h k v l r : On it p -> cur it = N h k v l r -> sat (k, v) = false ->
    forall y, In y (left_of lg p (cur it) ++ [(k, v)]) -> sat y = false.
  Proof.
    intros H Ec Hk y Hy. destruct (On_split it p lg H) as (h0 & k0 & v0 & l0 & r0 & E1 & E2). rewrite Ec in E1. injection E1 as <- <- <- <- <-.
    destruct (sq_mono _ _ _ E2) as (_ & M). apply in_app_or in Hy as [Hy|[<-|[]]]; auto.
  Qed.
  Lemma all_unsat it p h k v l r : On it p -> cur it = N h k v l r -> right_of lg p (cur it) = [] -> sat (k, v) = false ->
    forall y, In y (sq lg t) -> sat y = false.
  Proof.
    intros H Ec Hr Hk y Hy. destruct (On_split it p lg H) as (h0 & k0 & v0 & l0 & r0 & E1 & E2). rewrite Ec in E1. injection E1 as <- <- <- <- <-.
    rewrite Hr in E2. rewrite E2 in Hy. exact (left_unsat it p _ _ _ _ _ H Ec Hk y Hy).
  Qed.
  (** after stepping over an entry that is too small, with all the rest good *)
  Lemma land_next it p h k v l r it' : On it p -> cur it = N h k v l r -> sat (k, v) = false ->
    (forall y, In y (right_of lg p (cur it)) -> sat y = true) ->
    match right_of lg p (cur it) with
    | [] => Off lg it'
    | _ => exists p', On it' p' /\ left_of lg p' (cur it') = left_of lg p (cur it) ++ [(k, v)]
    end -> Pos it' (Some target).
  Proof.
    intros H Ec Hk Hr Hm. destruct (right_of lg p (cur it)) as [|e q] eqn:Er.
    - apply land_off; auto. apply (all_unsat it p _ _ _ _ _ H Ec Er Hk).
    - destruct Hm as (p' & H' & E1). destruct (On_split it' p' lg H') as (h1 & k1 & v1 & l1 & r1 & F1 & F2).
      apply (land_on it' p' _ _ _ _ _ H' F1).
      + destruct (On_split it p lg H) as (h0 & k0 & v0 & l0 & r0 & E3 & E4). rewrite Ec in E3. injection E3 as <- <- <- <- <-.
        rewrite E4, E1, <- app_assoc in F2. apply app_inv_head in F2. cbn [app] in F2. rewrite Er in F2. injection F2 as -> _.
        apply Hr. left. reflexivity.
      + rewrite E1. apply (left_unsat it p _ _ _ _ _ H Ec Hk).
  Qed.

  Lemma seek_loop_ok : strictly_sorted ltb (elems t) -> forall fuel it p, On it p -> (levels (cur it) <= fuel)%nat ->
    (forall y, In y (past lg p) -> sat y = false) -> (forall y, In y (todo lg p) -> sat y = true) ->
    exists it', seek_loop cmp fuel strict key lg it = Some (it', foundb (elems (cur it))) /\ Pos it' (Some target).
  Proof.
    intros HS. induction fuel as [|fuel IH]; intros it p H Hf HP HT.
    { destruct (cur it); cbn in Hf; lia. }
    cbn [seek_loop]. destruct (On_split it p lg H) as (h & k & v & l & r & Ec & Esq).
    pose proof H as (_ & _ & _ & HA & _). rewrite Ec in HA. rewrite Ec.
    assert (HN : forall c : bool, (if c then ltb k key = true else ltb key k = true) ->
      foundb (elems (N h k v l r)) = foundb (elems (child c l r)) ->
      exists it', ('(it', b) <- down c it ;;
        if b : bool then seek_loop cmp fuel strict key lg it'
        else if Bool.eqb c lg then '(it'', _) <- up lg it' ;; Some (it'', false) else Some (it', false)) =
        Some (it', foundb (elems (N h k v l r))) /\ Pos it' (Some target)).
    { intros c Hc Hb. assert (Hk : sat (k, v) = negb (Bool.eqb c lg)).
      { destruct c; [rewrite (sat_lt k v Hc)|rewrite (sat_gt k v Hc)]; destruct lg; reflexivity. }
      destruct (down_on c it p H) as (h1 & k1 & v1 & l1 & r1 & E1 & E2). rewrite Ec in E1. injection E1 as <- <- <- <- <-.
      destruct E2 as [(E2 & E3)|(E2 & it' & E3 & E4 & E5)]; rewrite E3, Hb.
      - rewrite E2. change (foundb (elems E)) with false. destruct (Bool.eqb c lg) eqn:Ecl; cbn [negb] in Hk.
        + apply Bool.eqb_prop in Ecl. subst c. destruct (up_on lg it p _ _ _ _ _ H Ec E2) as (it' & b & U1 & U2). rewrite U1.
          eexists. split; [reflexivity|]. apply (land_next it p _ _ _ _ _ it' H Ec Hk); auto.
          rewrite Ec. unfold right_of. rewrite E2. replace (sq lg E) with (@nil (K * V)) by (destruct lg; reflexivity). exact HT.
        + eexists. split; [reflexivity|]. apply (land_on it p _ _ _ _ _ H Ec Hk). rewrite Ec. unfold left_of.
          assert (c = negb lg) by (destruct c, lg; cbn in *; congruence). subst c. rewrite E2.
          replace (sq lg E) with (@nil (K * V)) by (destruct lg; reflexivity). rewrite app_nil_r. exact HP.
      - rewrite <- E5. apply (IH it' _ E4).
        + rewrite E5. rewrite Ec in Hf. cbn [levels] in Hf. destruct c; cbn [child]; lia.
        + rewrite Ec. cbn [past]. destruct (Bool.eqb c lg) eqn:Ecl; cbn [negb] in Hk.
          * pose proof (left_unsat it p _ _ _ _ _ H Ec Hk) as X. rewrite Ec in X. unfold left_of in X. rewrite <- app_assoc in X. exact X.
          * rewrite app_nil_r. exact HP.
        + rewrite Ec. cbn [todo]. destruct (Bool.eqb c lg) eqn:Ecl; cbn [negb] in Hk; [exact HT|].
          destruct (sq_mono _ _ _ Esq) as (M & _). specialize (M Hk). rewrite Ec in M. unfold right_of in M.
          intros y [<-|Hy]; auto. }
    destruct (compare_step p h k v l r HA) as [(C1 & C2 & C3)|[(C1 & C2 & C3)|(C1 & C2 & C3)]]; rewrite C2; cbn [Z.ltb Z.compare].
    - exact (HN false C1 C3).
    - exact (HN true C1 C3).
    - rewrite C3. pose proof (sat_same k v C1) as Hk. apply same_iff in C1 as (C1 & C1').
      assert (SM : (forall y, In y (left_of lg p (cur it)) -> sat y = false) /\ (forall y, In y (right_of lg p (cur it)) -> sat y = true)).
      { destruct (On_split it p true H) as (h1 & k1 & v1 & l1 & r1 & E1 & E2). rewrite Ec in E1. injection E1 as <- <- <- <- <-.
        cbn [sq] in E2. rewrite E2 in HS. destruct (strict_mid ltb _ _ _ HS) as (_ & _ & S1 & S2).
        assert (L1 : forall y, In y (left_of true p (cur it)) -> sat y = negb lg).
        { intros [yk yv] Hy. apply sat_lt. specialize (S1 _ Hy). cbn [fst] in S1. exact (lt_le ltb W _ _ _ S1 C1'). }
        assert (L2 : forall y, In y (right_of true p (cur it)) -> sat y = lg).
        { intros [yk yv] Hy. apply sat_gt. specialize (S2 _ Hy). cbn [fst] in S2. exact (le_lt ltb W _ _ _ C1 S2). }
        destruct lg; cbn [negb] in *; [split; auto|]. rewrite left_right_of. split.
        - intros y Hy. apply L2. apply in_rev. exact Hy.
        - intros y Hy. apply L1. rewrite <- (rev_involutive (left_of true p (cur it))). apply -> in_rev.
          replace (rev (left_of true p (cur it))) with (right_of false p (cur it)); auto.
          pose proof (On_split it p false H) as (h1 & k1 & v1 & l1 & r1 & E1 & E3). rewrite Ec in E1. injection E1 as <- <- <- <- <-.
          cbn [sq] in E3. rewrite E2, rev_app_distr, left_right_of in E3. cbn [rev] in E3. rewrite <- app_assoc in E3.
          apply app_inv_head in E3. injection E3 as E3. symmetry. exact E3. }
      destruct SM as (SL & SR). destruct strict eqn:Est.
      + destruct (move_on lg it p H) as (h1 & k1 & v1 & l1 & r1 & E1 & it' & E2 & E3). rewrite Ec in E1. injection E1 as <- <- <- <- <-.
        rewrite E2. eexists. split; [reflexivity|]. exact (land_next it p _ _ _ _ _ it' H Ec Hk SR E3).
      + eexists. split; [reflexivity|]. exact (proj1 (land_on it p _ _ _ _ _ H Ec Hk SL)).
  Qed.
  Lemma seek_base it : strictly_sorted ltb (elems t) -> itree it = T -> fits (stack it) -> (t = E -> idx it = -1) ->
    exists it', seek cmp strict key lg it = Some (it', foundb (elems t)) /\ Pos it' (goto (elems t) target).
  Proof.
    intros HS H1 H2 H3. unfold seek. rewrite H1. destruct root_cases as [Et|(h & k & v & l & r & Et)].
    - rewrite Et. exists (IT T E (idx it) (stack it)). split; [reflexivity|]. cbn [elems goto Pos]. unfold Unset; cbn [itree cur idx stack].
      auto.
    - rewrite Et. rewrite <- Et. pose proof (start_on it H1 H2 ltac:(congruence)) as S.
      destruct (seek_loop_ok HS (levels t) _ _ S) as (it' & E1 & E2); cbn [cur]; auto; try (intros y []).
      rewrite H1 in E1. exists it'. split; [exact E1|].
      replace (goto (elems t) target) with (Some target); auto. unfold goto. destruct (elems t) eqn:Ee; auto.
      rewrite Et in Ee. cbn [elems] in Ee. destruct (elems l); discriminate.
  Qed.

  Lemma seek_pos it q : strictly_sorted ltb (elems t) -> Pos it q ->
    exists it', seek cmp strict key lg it = Some (it', foundb (elems t)) /\ Pos it' (goto (elems t) target).
  Proof. intros HS H. destruct (Pos_base _ _ H) as (H1 & H2). apply seek_base; auto. intros Et. exact (Pos_empty _ _ Et H). Qed.

  (** *** seekBound *)
  Definition CandOk (c : tree) (ci : Z) (cs : path) (L : list (K * V)) : Prop :=
    exists p0 h k v l r, On (IT T c ci cs) p0 /\ c = N h k v l r /\ left_of lg p0 c = L /\ sat (k, v) = true.
  Lemma bound_loop_ok : forall u stk_ i p c ci cs ex, u <> E -> At t p u -> stk stk_ i p -> fits stk_ -> fits cs ->
    (forall y, In y (past lg p) -> sat y = false) ->
    match c with E => todo lg p = [] /\ ci = -1 | _ => CandOk c ci cs (past lg p ++ sq lg u) end ->
    exists stk' c' ci' cs', bound_loop cmp strict key lg u stk_ i (c, ci, cs) ex =
        Some (stk', (c', ci', cs'), ex || foundb (elems u)) /\ fits stk' /\
      match c' with
      | E => ci' = -1 /\ forall y, In y (sq lg t) -> sat y = false
      | _ => exists L, CandOk c' ci' cs' L /\ forall y, In y L -> sat y = false
      end.
  Proof.
    induction u as [|h k v l IHl r IHr]; intros stk_ i p c ci cs ex Hu HA HK HF HC HP HD; [congruence|].
    cbn [bound_loop].
    set (sd := if lg then _ else _).
    assert (Esd : sd = (sat (k, v), Bool.eqb (sat (k, v)) (negb lg), ex || same ltb k key)%bool /\
      foundb (elems (N h k v l r)) =
        (same ltb k key || foundb (elems (child (Bool.eqb (sat (k, v)) (negb lg)) l r)))%bool).
    { subst sd. destruct (compare_step p h k v l r HA) as [(C1 & C2 & C3)|[(C1 & C2 & C3)|(C1 & C2 & C3)]]; rewrite C2, C3.
      - rewrite (sat_gt k v C1). assert (same ltb k key = false) as -> by (unfold same; rewrite C1; apply andb_false_r).
        rewrite orb_false_r. destruct lg; split; reflexivity.
      - rewrite (sat_lt k v C1). assert (same ltb k key = false) as -> by (unfold same; rewrite C1; reflexivity).
        rewrite orb_false_r. destruct lg; split; reflexivity.
      - rewrite (sat_same k v C1), C1. rewrite orb_true_r. destruct lg, strict; split; reflexivity. }
    destruct Esd as (-> & Efd). rewrite Efd, orb_assoc. set (ex' := (ex || same ltb k key)%bool).
    assert (HO : On (IT T (N h k v l r) i stk_) p).
    { unfold On; cbn [itree cur idx stack]. repeat (split; auto). }
    pose proof (On_room _ _ HO) as HR. cbn [stack] in HR.
    assert (Ecs : firstn (length cs) stk_ ++ skipn (length stk_) cs = stk_).
    { assert (length cs = length stk_) as -> by (unfold fits in *; lia). rewrite firstn_all, skipn_all2, app_nil_r; auto.
      unfold fits in *; lia. }
    set (dir := Bool.eqb (sat (k, v)) (negb lg)).
    (* the candidate after this node *)
    assert (HD' : forall c1 ci1 cs1, (if sat (k, v) then (N h k v l r, i, firstn (length (snd (c, ci, cs))) stk_ ++ skipn (length stk_) (snd (c, ci, cs))) else (c, ci, cs)) = (c1, ci1, cs1) ->
      fits cs1 /\ (forall y, In y (past lg ((N h k v l r, dir) :: p)) -> sat y = false) /\
      match c1 with E => todo lg ((N h k v l r, dir) :: p) = [] /\ ci1 = -1
      | _ => CandOk c1 ci1 cs1 (past lg ((N h k v l r, dir) :: p) ++ sq lg (child dir l r)) end).
    { intros c1 ci1 cs1 E1. cbn [snd] in E1. rewrite Ecs in E1. cbn [past todo]. subst dir. destruct (sat (k, v)) eqn:Hk.
      - injection E1 as <- <- <-. split; auto.
        replace (Bool.eqb (Bool.eqb true (negb lg)) lg) with false by (destruct lg; reflexivity). rewrite app_nil_r. split; auto.
        exists p, h, k, v, l, r. split; auto. split; auto. split; auto. unfold left_of. f_equal. f_equal. destruct lg; reflexivity.
      - injection E1 as <- <- <-. split; auto.
        replace (Bool.eqb (Bool.eqb false (negb lg)) lg) with true by (destruct lg; reflexivity).
        split.
        { pose proof (left_unsat _ _ _ _ _ _ _ HO eq_refl Hk) as X. cbn [cur] in X. unfold left_of in X. rewrite <- app_assoc in X. exact X. }
        replace (Bool.eqb false (negb lg)) with lg by (destruct lg; reflexivity).
        destruct c as [|h1 k1 v1 l1 r1]; [exact HD|]. rewrite sq_N in HD. rewrite <- !app_assoc. exact HD. }
    destruct (if sat (k, v) then _ else _) as [[c1 ci1] cs1] eqn:E1. destruct (HD' _ _ _ eq_refl) as (HC1 & HP1 & HD1). clear HD'.
    assert (Hdone : child dir l r = E -> exists stk' c' ci' cs', Some (stk_, (c1, ci1, cs1), ex') =
        Some (stk', (c', ci', cs'), ex' || foundb (elems (child dir l r))) /\ fits stk' /\
      match c' with
      | E => ci' = -1 /\ forall y, In y (sq lg t) -> sat y = false
      | _ => exists L, CandOk c' ci' cs' L /\ forall y, In y L -> sat y = false
      end).
    { intros Ed. rewrite Ed in *. change (foundb (elems E)) with false. rewrite orb_false_r.
      replace (sq lg E) with (@nil (K * V)) in HD1 by (destruct lg; reflexivity). rewrite app_nil_r in HD1.
      exists stk_, c1, ci1, cs1. split; auto. split; auto. destruct c1 as [|h1 k1 v1 l1 r1]; [|eauto].
      destruct HD1 as (HD1 & ->). split; auto. pose proof (AtS _ p dir _ _ _ _ _ HA) as HA'. rewrite Ed in HA'.
      intros y Hy. rewrite (At_sq _ _ _ HA' lg), HD1 in Hy. replace (sq lg E) with (@nil (K * V)) in Hy by (destruct lg; reflexivity).
      rewrite !app_nil_r in Hy. auto. }
    destruct (child dir l r) as [|h2 k2 v2 l2 r2] eqn:Ed; [apply Hdone; auto|]. clear Hdone.
    destruct (poke_ok _ _ _ (N h k v l r, dir) HK HR) as (s' & F1 & F2 & F3). rewrite F1.
    assert (HF' : fits s') by (unfold fits in *; congruence).
    pose proof (AtS _ p dir _ _ _ _ _ HA) as HA'.
    rewrite <- Ed in *. assert (Hne : child dir l r <> E) by congruence. clear Ed.
    destruct dir; cbn [child] in *; [apply (IHr s' (i + 1) _ c1 ci1 cs1 ex' Hne HA' F3 HF' HC1 HP1 HD1)|
      apply (IHl s' (i + 1) _ c1 ci1 cs1 ex' Hne HA' F3 HF' HC1 HP1 HD1)].
  Qed.
  Lemma seekBound_pos it q : Pos it q ->
    exists it', seekBound cmp strict key lg it = Some (it', foundb (elems t)) /\ Pos it' (land false (elems t) target).
  Proof.
    intros H. destruct (Pos_base _ _ H) as (H1 & H2). unfold seekBound. rewrite H1. destruct root_cases as [Et|(h & k & v & l & r & Et)].
    - assert (En : n = 0) by (rewrite Et; reflexivity). rewrite Et. exists (IT T E (-1) (stack it)). split; [reflexivity|]. unfold land. cbn [elems].
      destruct (Z.leb_spec 0 target), (Z.ltb_spec target (@len K V [])); cbn [andb Pos]; unfold Unset; cbn [itree cur idx stack]; auto.
      unfold len in *. cbn in *. lia.
    - rewrite Et. rewrite <- Et.
      assert (HC : fits (repeat (@E K V, false) (length (stack it)))) by (unfold fits in *; rewrite repeat_length; auto).
      destruct (bound_loop_ok t (stack it) (-1) [] E (-1) (repeat (E, false) (length (stack it))) false) as (s' & c' & ci' & cs' & B1 & B2 & B3);
        auto; try (intros y []); try congruence; try apply At0.
      { split; [reflexivity|]. split; [cbn; lia|reflexivity]. }
      rewrite B1. cbn [orb]. eexists. split; [reflexivity|]. destruct c' as [|h1 k1 v1 l1 r1].
      + destruct B3 as (-> & B3). unfold land. rewrite (none_sat B3).
        replace ((0 <=? (if lg then n else -1)) && ((if lg then n else -1) <? n))%bool with false.
        2:{ destruct lg; [rewrite Z.ltb_irrefl, andb_false_r|]; reflexivity. }
        unfold Pos, Unset; cbn [itree cur idx stack]. auto.
      + destruct B3 as (L & (p0 & h2 & k2 & v2 & l2 & r2 & C1 & C2 & C3 & C4) & B3). injection C2 as <- <- <- <- <-.
        assert (X : firstn (length s') cs' ++ skipn (length cs') s' = cs').
        { destruct C1 as (_ & C1 & _). cbn [stack] in C1. assert (length s' = length cs') as -> by (unfold fits in *; lia).
          rewrite firstn_all, skipn_all2, app_nil_r; auto. unfold fits in *; lia. }
        rewrite X. destruct (land_on _ p0 _ _ _ _ _ C1 eq_refl C4) as (Y1 & Y2).
        { cbn [cur]. rewrite C3. exact B3. }
        unfold land. destruct (Z.leb_spec 0 target), (Z.ltb_spec target n); try lia. exact Y1.
  Qed.
End Walk.

(** ** new iterators and clones *)
Section Clones.
  Context {K V : Type} (T : avl K V).
  Notation t := (root T).
  
  Notation path := (list (tree K V * bool)).
  Notation Pos := (Pos T (ht t)).
  Context (Hh : height T = Some (ht t)).
  Lemma new_iter : newIterator T = Some (IT T E (-1) (repeat (E, false) (Z.to_nat (ht t)))).
  Proof. unfold newIterator. rewrite Hh. pose proof (ht_nonneg t). destruct (Z.ltb_spec (ht t) 0); [lia|]. reflexivity. Qed.
  Lemma new_pos : Pos (IT T E (-1) (repeat (E, false) (Z.to_nat (ht t)))) None.
  Proof. pose proof (ht_nonneg t). unfold Pos, Unset, fits; cbn [itree cur idx stack]. rewrite repeat_length. repeat split; auto. lia. Qed.
  Lemma clone_pos it q : Pos it q -> exists it', clone it = Some it' /\ Pos it' q.
  Proof.
    intros H. destruct (Pos_base T _ _ _ H) as (H1 & H2). unfold clone. rewrite H1, new_iter. cbn [stack]. eexists. split; [reflexivity|].
    unfold fits in H2. pose proof (ht_nonneg t).
    assert (L : Z.to_nat (ht t) = length (stack it)) by lia. rewrite L, repeat_length, Nat.min_id, firstn_all.
    rewrite skipn_all2, app_nil_r by (rewrite repeat_length; lia).
    destruct it as [a b c e]; cbn [itree cur idx stack] in *. subst. exact H.
  Qed.
  Lemma firstn_S_nth {A} (l : list A) m x : nth_error l m = Some x -> firstn (S m) l = firstn m l ++ [x].
  Proof.
    revert l. induction m; intros [|y l] H; try discriminate; cbn in *; [congruence|]. rewrite IHm by auto. reflexivity.
  Qed.
  Lemma copy_cells_ok (src : path) : forall m i dst, length dst = length src -> (i + m <= length src)%nat ->
    firstn i dst = firstn i src ->
    exists dst', copy_cells m (Z.of_nat i) src dst = Some dst' /\ length dst' = length src /\ firstn (i + m) dst' = firstn (i + m) src.
  Proof.
    induction m as [|m IH]; intros i dst L1 L2 E1; cbn [copy_cells].
    - exists dst. rewrite Nat.add_0_r. auto.
    - destruct (nth_error src i) as [x|] eqn:En; [|apply nth_error_None in En; lia].
      unfold peek. destruct (Z.ltb_spec (Z.of_nat i) 0); [lia|]. rewrite Nat2Z.id, En. unfold poke.
      destruct (Z.ltb_spec (Z.of_nat i) 0); [lia|]. destruct (Z.leb_spec (Z.of_nat (length dst)) (Z.of_nat i)); [lia|]. cbn [orb].
      rewrite Nat2Z.id. replace (Z.of_nat i + 1) with (Z.of_nat (S i)) by lia.
      destruct (IH (S i) (firstn i dst ++ x :: skipn (S i) dst)) as (dst' & F1 & F2 & F3).
      + rewrite app_length, firstn_length. cbn [length]. rewrite skipn_length. lia.
      + lia.
      + rewrite firstn_poke by lia. rewrite E1. symmetry. apply firstn_S_nth. exact En.
      + exists dst'. replace (i + S m)%nat with (S i + m)%nat by lia. auto.
  Qed.
  Lemma clone_used_pos it q : Pos it q -> exists it', clone_used it = Some it' /\ Pos it' q.
  Proof.
    intros H. destruct (Pos_base T _ _ _ H) as (H1 & H2). unfold clone_used. rewrite H1, new_iter. cbn [stack].
    destruct (Pos_idx T _ _ _ H) as (H3 & _). unfold fits in H2. pose proof (ht_nonneg t).
    destruct (copy_cells_ok (stack it) (Z.to_nat (idx it + 1)) 0 (repeat (E, false) (Z.to_nat (ht t)))) as (s & F1 & F2 & F3); auto.
    { rewrite repeat_length. lia. }
    change (Z.of_nat 0) with 0 in F1. rewrite F1. eexists. split; [reflexivity|]. pose proof (Pos_stack T _ it q s H F2 F3) as X. rewrite H1 in X. exact X.
  Qed.
End Clones.

(** ** whole runs *)
Section Runs.
  Context {K V : Type} (ltb : K -> K -> bool) (W : weak_order ltb) (cmp : K -> K -> Z) (Hcmp : ex_cmp ltb cmp).
  Context (T : avl K V) (Hh : height T = Some (ht (root T))).
  Notation m := (elems (root T)).

  Lemma target_is (strict lg : bool) k : target T ltb strict lg k =
    match lg, strict with
    | true, false => len (before ltb k m) | true, true => len (upto ltb k m)
    | false, false => len (upto ltb k m) - 1 | false, true => len (before ltb k m) - 1
    end.
  Proof.
    unfold target, sat. assert (G : forall f : K * V -> bool, len m - 1 - len (filter (fun e => negb (f e)) m) = len (filter f m) - 1).
    { intros f. induction m as [|e x IH]; [reflexivity|]. cbn [filter]. destruct (f e); cbn [negb]; rewrite !len_cons; lia. }
    destruct lg, strict.
    - reflexivity.
    - unfold before. f_equal. apply filter_eq. intros. apply negb_involutive.
    - apply G.
    - apply G.
  Qed.
  Lemma it_pos full it q o : strictly_sorted ltb m -> Pos T (ht (root T)) it q ->
    exists it', it_step cmp full it o = Some (it', snd (cursor_spec ltb true m q o)) /\ Pos T (ht (root T)) it' (fst (cursor_spec ltb true m q o)).
  Proof.
    intros HS H. pose proof (strict_weak ltb W _ HS) as HW. destruct o; cbn [it_step cursor_spec fst snd land].
    - destruct (seekToEnd_pos T _ (Z.le_refl _) false it q H) as (it' & E1 & E2). rewrite E1. eauto.
    - destruct (seekToEnd_pos T _ (Z.le_refl _) true it q H) as (it' & E1 & E2). rewrite E1. eauto.
    - destruct (move_pos T _ (Z.le_refl _) true it q H) as (it' & E1 & E2). rewrite E1. eauto.
    - destruct (move_pos T _ (Z.le_refl _) false it q H) as (it' & E1 & E2). rewrite E1. eauto.
    - destruct (seek_pos T _ (Z.le_refl _) ltb W cmp Hcmp false true k HW it q HS H) as (it' & E1 & E2). rewrite E1, target_is in *. eauto.
    - destruct (seek_pos T _ (Z.le_refl _) ltb W cmp Hcmp true true k HW it q HS H) as (it' & E1 & E2). rewrite E1, target_is in *. eauto.
    - destruct (seek_pos T _ (Z.le_refl _) ltb W cmp Hcmp false false k HW it q HS H) as (it' & E1 & E2). rewrite E1, target_is in *. eauto.
    - destruct (seek_pos T _ (Z.le_refl _) ltb W cmp Hcmp true false k HW it q HS H) as (it' & E1 & E2). rewrite E1, target_is in *. eauto.
    - rewrite (read_pos T _ it q H). exists it. split; auto. destruct (cur it); reflexivity.
    - rewrite (read_pos T _ it q H). exists it. split; auto. destruct (cur it); reflexivity.
    - rewrite (read_pos T _ it q H). exists it. split; auto. destruct (cur it); reflexivity.
    - destruct full.
      + destruct (clone_pos T Hh it q H) as (it' & E1 & E2). rewrite E1. eauto.
      + destruct (clone_used_pos T Hh it q H) as (it' & E1 & E2). rewrite E1. eauto.
  Qed.
  Lemma its_pos it q o : weakly_sorted ltb m -> Pos T (ht (root T)) it q ->
    exists it', its_step cmp it o = Some (it', snd (cursor_spec ltb false m q o)) /\ Pos T (ht (root T)) it' (fst (cursor_spec ltb false m q o)).
  Proof.
    intros HW H. destruct o; cbn [its_step it_step cursor_spec fst snd].
    - destruct (seekToEnd_pos T _ (Z.le_refl _) false it q H) as (it' & E1 & E2). rewrite E1. eauto.
    - destruct (seekToEnd_pos T _ (Z.le_refl _) true it q H) as (it' & E1 & E2). rewrite E1. eauto.
    - destruct (move_pos T _ (Z.le_refl _) true it q H) as (it' & E1 & E2). rewrite E1. eauto.
    - destruct (move_pos T _ (Z.le_refl _) false it q H) as (it' & E1 & E2). rewrite E1. eauto.
    - destruct (seekBound_pos T _ (Z.le_refl _) ltb W cmp Hcmp false true k HW it q H) as (it' & E1 & E2). rewrite E1, target_is in *. eauto.
    - destruct (seekBound_pos T _ (Z.le_refl _) ltb W cmp Hcmp true true k HW it q H) as (it' & E1 & E2). rewrite E1, target_is in *. eauto.
    - destruct (seekBound_pos T _ (Z.le_refl _) ltb W cmp Hcmp false false k HW it q H) as (it' & E1 & E2). rewrite E1, target_is in *. eauto.
    - destruct (seekBound_pos T _ (Z.le_refl _) ltb W cmp Hcmp true false k HW it q H) as (it' & E1 & E2). rewrite E1, target_is in *. eauto.
    - rewrite (read_pos T _ it q H). exists it. split; auto. destruct (cur it); reflexivity.
    - rewrite (read_pos T _ it q H). exists it. split; auto. destruct (cur it); reflexivity.
    - rewrite (read_pos T _ it q H). exists it. split; auto. destruct (cur it); reflexivity.
    - destruct (clone_pos T Hh it q H) as (it' & E1 & E2). rewrite E1. eauto.
  Qed.
  Lemma it_run full : strictly_sorted ltb m -> exists it, newIterator T = Some it /\
    forall cops, run (it_step cmp full) it cops = Some (srun (cursor_spec ltb true m) None cops).
  Proof.
    intros HS. eexists. split; [apply (new_iter T Hh)|]. intros cops.
    apply (sim_run (it_step cmp full) (cursor_spec ltb true m) (Pos T (ht (root T)))).
    - intros s a o H. destruct (it_pos full s a o HS H) as (s' & E1 & E2). eauto.
    - apply new_pos.
  Qed.
  Lemma its_run : weakly_sorted ltb m -> exists it, newIterator T = Some it /\
    forall cops, run (its_step cmp) it cops = Some (srun (cursor_spec ltb false m) None cops).
  Proof.
    intros HS. eexists. split; [apply (new_iter T Hh)|]. intros cops.
    apply (sim_run (its_step cmp) (cursor_spec ltb false m) (Pos T (ht (root T)))).
    - intros s a o H. destruct (its_pos s a o HS H) as (s' & E1 & E2). eauto.
    - apply new_pos.
  Qed.
End Runs.
