(** Skip lists with an arbitrary comparison function. *)
From Verif Require Import Base Bind Machine OrderSpec SMapSpec SMapFacts SkipSpec SkipModel SkipProofs SkipOps WildSpec SkipWildSpec.

(** every list is sorted by this; the facts about the shape of the lists are used with it *)
Definition tt_ {K : Type} (_ _ : K) : bool := true.
Lemma tt_sorted {K V : Type} (m : list (K * V)) : strictly_sorted tt_ m.
Proof. unfold strictly_sorted. induction m; constructor; auto. apply Forall_forall. reflexivity. Qed.

Section Levels.
  Context {K V : Type}.
  Implicit Types (A B L P Q R X Y : list (cell K V)) (c : cell K V) (m : list (node K V)) (go : nat -> K -> bool).
  Definition goc go c : bool := go (cid c) (fst (ckv c)).
  Definition stops go B : Prop := match B with [] => True | c :: _ => goc go c = false end.

  Lemma advance_wild m i go B : forall A a f, path m i a (A ++ B) -> (forall c, In c (A ++ B) -> good m c) ->
    (forall c, In c A -> goc go c = true) -> stops go B -> length A < f -> advance f go m i a = Some (lastid a A).
  Proof.
    unfold goc. induction A as [|c A IH]; intros a f H G H1 H2 Hf; (destruct f as [|f]; [lia|]); cbn [advance].
    - rewrite (path_hd _ _ _ _ H). destruct B as [|c B]; cbn; auto. destruct (G c) as (-> & _); [now left|]. cbn in H2. unfold goc in H2. now rewrite H2.
    - cbn in H. destruct H as (-> & H). destruct (G c) as (-> & _); [now left|]. rewrite H1 by now left.
      rewrite (IH (cid c) f); auto; [now rewrite lastid_cons| | |cbn in Hf; lia].
      + intros c' Hc. apply G. now right.
      + intros c' Hc. apply H1. now right.
  Qed.

  (** [P] is empty or ends in a cell higher than [n] that [go] passes *)
  Definition ends go (n : nat) P : Prop := P = [] \/ exists P' c, P = P' ++ [c] /\ n < cht c /\ goc go c = true.
  Lemma ends_le go n n' P : n' <= n -> ends go n P -> ends go n' P.
  Proof. intros H [->|(P' & c & -> & X & Y)]; [now left|right]. exists P', c. auto with zarith. Qed.
  Lemma ends_app go n P Q : ends go n P -> ends go n Q -> ends go n (P ++ Q).
  Proof. intros HP [->|(Q' & c & -> & X)]; [now rewrite app_nil_r|right]. exists (P ++ Q'), c. now rewrite app_assoc. Qed.
  Lemma ends_last go n P h j : ends go n P -> j <= n -> lastid h (at_ j P) = lastid h P.
  Proof.
    intros [->|(P' & c & -> & X & _)] Hj; [reflexivity|]. rewrite at_app, at_one. replace (j <? cht c) with true by (symmetry; apply Nat.ltb_lt; lia). now rewrite !lastid_snoc.
  Qed.

  Lemma cut_level go i Q : exists Q1 Q2 Q3, Q = Q1 ++ Q2 ++ Q3 /\ ends go i Q1 /\ at_ i Q2 = [] /\ (forall c, In c (at_ i Q1) -> goc go c = true) /\
    match Q3 with [] => True | c :: _ => i < cht c /\ goc go c = false end.
  Proof.
    induction Q as [|c Q (Q1 & Q2 & Q3 & E & H1 & H2 & H3 & H4)]; [exists [], [], []; repeat split; auto; now left|].
    destruct (Nat.ltb_spec i (cht c)) as [Hi|Hi].
    - destruct (goc go c) eqn:G; [|exists [], [], (c :: Q); repeat split; auto; now left].
      exists (c :: Q1), Q2, Q3. split; [now rewrite E|]. split; [|split; [auto|split; auto]].
      + change (c :: Q1) with ([c] ++ Q1). apply ends_app; auto. right. exists [], c. auto.
      + rewrite at_cons. intros x Hx. apply in_app_or in Hx as [X|X]; auto. destruct (i <? cht c); [destruct X as [<-|[]]; auto|destruct X].
    - destruct H1 as [->|(P' & c' & -> & X & Y)].
      + exists [], (c :: Q2), Q3. split; [now rewrite E|]. split; [now left|]. split; auto. rewrite at_cons, H2. replace (i <? cht c) with false by (symmetry; now apply Nat.ltb_ge). auto.
      + exists (c :: P' ++ [c']), Q2, Q3. split; [now rewrite E|]. split; [right; exists (c :: P'), c'; auto|]. split; auto. split; auto.
        rewrite at_cons. replace (i <? cht c) with false by (symmetry; now apply Nat.ltb_ge). exact H3.
  Qed.

  Lemma stops_at go i Q R : match Q with [] => True | c :: _ => i < cht c /\ goc go c = false end ->
    match R with [] => True | c :: _ => i < cht c /\ goc go c = false end -> stops go (at_ i (Q ++ R)).
  Proof.
    intros H1 H2. destruct Q as [|c Q]; cbn [app].
    - destruct R as [|c R]; [exact I|]. destruct H2 as (X & Y). rewrite at_cons. replace (i <? cht c) with true by (symmetry; now apply Nat.ltb_lt). exact Y.
    - destruct H1 as (X & Y). rewrite at_cons. replace (i <? cht c) with true by (symmetry; now apply Nat.ltb_lt). exact Y.
  Qed.
  Lemma lastid_app a A B : lastid a (A ++ B) = lastid (lastid a A) B.
  Proof. revert a. induction A as [|c A IH]; intros a; [reflexivity|]. cbn [app]. now rewrite !lastid_cons, IH. Qed.

  (** Going down the levels ends somewhere, with the right predecessors on every level for that place *)
  Lemma descend_wild go m h n : forall P Q R, mem_ok m h (P ++ Q ++ R) -> n <= 16 -> ends go n P -> at_ n Q = [] ->
    match R with [] => True | c :: _ => n < cht c /\ goc go c = false end ->
    exists X Y, Q = X ++ Y /\ descend go m n (lastid h P) = Some (lastid h (P ++ X), preds h (P ++ X) n) /\ stops go (Y ++ R) /\ ends go 0 (P ++ X).
  Proof.
    induction n as [|n IH]; intros P Q R M Hn HP HQ HR; cbn [descend].
    - assert (Q = []) as ->.
      { destruct Q as [|c Q]; auto. exfalso. pose proof (mo_good _ _ _ M c ltac:(apply in_r, in_l; now left)) as (_ & X & _). rewrite at_cons in HQ.
        replace (0 <? cht c) with true in HQ by (symmetry; apply Nat.ltb_lt; lia). discriminate. }
      exists [], []. rewrite (app_nil_r P). repeat split; auto. destruct R as [|c R]; [exact I|exact (proj2 HR)].
    - destruct (cut_level go n Q) as (Q1 & Q2 & Q3 & -> & E1 & E2 & E3 & E4).
      assert (HR' : match R with [] => True | c :: _ => n < cht c /\ goc go c = false end) by (destruct R; auto; intuition lia).
      assert (Ad : advance (fuel m) go m n (lastid h P) = Some (lastid h (P ++ Q1))).
      { pose proof (mo_path _ _ _ M n ltac:(lia)) as Pt. rewrite at_app in Pt. apply path_app in Pt as (_ & Pt). rewrite (ends_last go (S n)) in Pt by (auto; lia).
        rewrite !at_app, E2 in Pt. cbn [app] in Pt. rewrite <- app_assoc, <- at_app in Pt.
        rewrite (advance_wild m n go (at_ n (Q3 ++ R)) (at_ n Q1) (lastid h P) (fuel m)).
        - rewrite lastid_app. now rewrite (ends_last go n).
        - exact Pt.
        - intros c Hin. apply (mo_good _ _ _ M). apply in_r. apply in_app_or in Hin as [Hin|Hin]; apply at_in in Hin as (Hin & _).
          + apply in_l, in_l, Hin.
          + rewrite <- !app_assoc. apply in_r, in_r, Hin.
        - exact E3.
        - now apply stops_at.
        - unfold fuel. assert (length (at_ n Q1) <= length m); [|lia]. apply few_ids.
          + intros c Hin. apply at_in in Hin as (Hin & _). apply (mo_good _ _ _ M). apply in_r, in_l, in_l, Hin.
          + apply nodup_at. pose proof (mo_nodup _ _ _ M) as N. inversion N as [|? ? _ N2]; subst. rewrite !ids_app in N2. apply nodup_r, nodup_l, nodup_l in N2. exact N2. }
      rewrite Ad. destruct (IH (P ++ Q1) Q2 (Q3 ++ R)) as (X & Y & -> & D & S1 & S2).
      + rewrite <- !app_assoc in *. exact M.
      + lia.
      + apply ends_app; auto. apply (ends_le go (S n)); auto.
      + exact E2.
      + destruct Q3 as [|c Q3]; auto.
      + rewrite D. exists (Q1 ++ X), (Y ++ Q3). rewrite <- !app_assoc in *. split; [reflexivity|]. split; [|split; auto].
        do 2 f_equal. rewrite preds_S. do 2 f_equal. rewrite at_app in E2. apply app_eq_nil in E2 as (E2 & _). rewrite !at_app, E2, app_nil_r, <- at_app.
        symmetry. apply (ends_last go n); auto. apply ends_app; auto. apply (ends_le go (S n)); auto.
  Qed.

  (** Starting again on every level *)
  Fixpoint run_of go A : list (cell K V) := match A with [] => [] | c :: A' => if goc go c then c :: run_of go A' else [] end.
  Lemma run_of_split go A : exists B, A = run_of go A ++ B /\ stops go B /\ forall c, In c (run_of go A) -> goc go c = true.
  Proof.
    induction A as [|c A (B & E & H1 & H2)]; cbn [run_of]; [exists []; repeat split; auto; intros ? []|]. destruct (goc go c) eqn:G.
    - exists B. split; [cbn; now rewrite <- E|]. split; auto. intros x [<-|Hx]; auto.
    - exists (c :: A). repeat split; auto.
  Qed.
  Definition starts go (h : nat) L (n : nat) : list nat := map (fun i => lastid h (run_of go (at_ i L))) (seq 0 n).
  Lemma restart_wild go m h L n : mem_ok m h L -> n <= 16 -> restart go m n h = Some (starts go h L n).
  Proof.
    intros M. induction n as [|n IH]; intros Hn; cbn [restart]; [reflexivity|]. rewrite IH by lia.
    destruct (run_of_split go (at_ n L)) as (B & E & H1 & H2). rewrite (advance_wild m n go B (run_of go (at_ n L)) h (fuel m)); auto.
    - unfold starts. rewrite seq_S, map_app. reflexivity.
    - rewrite <- E. apply (mo_path _ _ _ M). lia.
    - rewrite <- E. intros c Hin. apply at_in in Hin. apply (mo_good _ _ _ M). tauto.
    - assert (length (at_ n L) <= length m); [|unfold fuel; rewrite E, app_length in H; lia]. apply few_ids.
      + intros c Hin. apply at_in in Hin. apply (mo_good _ _ _ M). tauto.
      + apply nodup_at. pose proof (mo_nodup _ _ _ M) as N. now inversion N.
  Qed.

  (** Only the cells whose next is the one to be unlinked matter *)
  Lemma setf_other m m' a i p b j : setf m a i p = Some m' -> j <> i -> getf m' b j = getf m b j.
  Proof.
    unfold setf, getf. intros H Hj. destruct (nth_error m a) as [n|] eqn:En; [|discriminate]. destruct (i <? length (fwd n)); [|discriminate]. injection H as <-.
    assert (Ha : a < length m) by (apply nth_error_Some; congruence).
    destruct (Nat.eq_dec a b) as [<-|Hb]; [|now rewrite nth_error_list_set_neq]. rewrite nth_error_list_set_eq, En by auto. cbn [fwd]. apply nth_error_list_set_neq. auto.
  Qed.
  Definition misses m (cur a i : nat) : Prop := exists p, getf m a i = Some p /\ peqb p (Some cur) = false.
  Lemma unlink_eq u u' cur n : forall i m, (forall j, i <= j < i + n -> u j = u' j \/ misses m cur (u j) j /\ misses m cur (u' j) j) ->
    unlink u cur n i m = unlink u' cur n i m.
  Proof.
    induction n as [|n IH]; intros i m H; cbn [unlink]; [reflexivity|]. destruct (H i ltac:(lia)) as [E|((p & E1 & E2) & (q & E3 & E4))].
    - rewrite E. destruct (getf m (u' i) i) as [p|]; auto. destruct (peqb p (Some cur)); [|apply IH; intros j Hj; apply H; lia].
      destruct (getf m cur i) as [q|]; auto. destruct (setf m (u' i) i q) as [m1|] eqn:Es; auto. apply IH. intros j Hj. unfold misses. rewrite !(setf_other _ _ _ _ _ _ _ Es) by lia. apply H. lia.
    - rewrite E1, E2, E3, E4. apply IH. intros j Hj. apply H. lia.
  Qed.
End Levels.

Section Ops.
  Context {K V : Type} (cmp : K -> K -> Z).
  Implicit Types (A B L P R M : list (cell K V)) (c : cell K V) (s : skiplist K V) (m : list (K * V)).
  Notation SI := (SI tt_).
  Notation rel := (rel tt_).
  Notation place := (place cmp).
  Notation found := (found cmp).

  Lemma landing_wild s L go : SI s L -> exists P R, L = P ++ R /\
    descend go (mem s) (level s) (header s) = Some (lastid (header s) P, preds (header s) P (level s)) /\
    getf (mem s) (lastid (header s) P) 0 = Some (hd_id R) /\ stops go R /\ ends go 0 P.
  Proof.
    intros I. pose proof (si_level _ _ _ I). pose proof (si_max _ _ _ I).
    destruct (descend_wild go (mem s) (header s) (level s) [] L []) as (P & R & E & D & H1 & H2); auto.
    - rewrite app_nil_r. exact (si_mem _ _ _ I).
    - lia.
    - now left.
    - apply (at_high (level s)); auto. exact (si_ht _ _ _ I).
    - exists P, R. cbn [app] in *. rewrite app_nil_r in H1. repeat split; auto. subst L. apply (next_cell _ _ _ _ (si_mem _ _ _ I)).
  Qed.
  Lemma at_place k P R : stops (below cmp k) R -> ends (below cmp k) 0 P -> place k (ents (P ++ R)) (ents P) (ents R).
  Proof.
    intros H1 H2. split; [apply ents_app|]. split.
    - destruct H2 as [->|(P' & c & -> & _ & G)]; [exact I|]. rewrite ents_app, rev_app_distr. cbn [ents map rev app]. unfold goc, below in G. now apply Z.ltb_lt.
    - destruct R as [|c R]; [exact I|]. cbn [ents map]. cbn [stops] in H1. unfold goc, below in H1. now apply Z.ltb_ge.
  Qed.
  (** what a search for [k] comes to *)
  Lemma search_at s m k : rel s m -> exists P R, SI s (P ++ R) /\ m = ents P ++ ents R /\ place k m (ents P) (ents R) /\
    descend (below cmp k) (mem s) (level s) (header s) = Some (lastid (header s) P, preds (header s) P (level s)) /\
    getf (mem s) (lastid (header s) P) 0 = Some (hd_id R).
  Proof.
    intros (L & I & <-). destruct (landing_wild s L (below cmp k) I) as (P & R & -> & D & N & H1 & H2). exists P, R.
    split; auto. split; [apply ents_app|]. split; [now apply at_place|auto].
  Qed.

  Lemma put_wild s m k v r : rel s m -> exists s' a b, place k m a b /\
    match found k b with
    | Some (e, b') => put cmp s k v r = Some (s', Some e) /\ rel s' (a ++ (fst e, v) :: b')
    | None => put cmp s k v r = Some (s', None) /\ rel s' (a ++ (k, v) :: b)
    end.
  Proof.
    intros H. destruct (search_at s m k H) as (P & R & I & -> & Pl & D & N). unfold put. rewrite D, N.
    assert (Ins : exists s', insert s (preds (header s) P (level s)) k v r = Some s' /\ rel s' (ents P ++ (k, v) :: ents R)).
    { destruct (insert_ok tt_ s P R k v r _ I eq_refl (tt_sorted _)) as (s' & c & E & C1 & I' & _). exists s'. split; auto. exists (P ++ c :: R). split; auto.
      rewrite ents_app. cbn [ents map]. now rewrite C1. }
    destruct Ins as (s' & Ei & Hi). destruct R as [|c R]; cbn [hd_id hd_error option_map] in *.
    - exists s', (ents P), []. split; auto. cbn [SkipWildSpec.found]. rewrite Ei. auto.
    - rewrite (cell_entry tt_ s P c R I). destruct (cmp (fst (ckv c)) k =? 0)%Z eqn:Ez.
      + destruct (setv_SI tt_ s P c R v I) as (m' & -> & I'). eexists _, (ents P), (ents (c :: R)). split; auto. cbn [ents map SkipWildSpec.found]. rewrite Ez. split; [reflexivity|].
        eexists. split; [exact I'|]. rewrite ents_app. reflexivity.
      + exists s', (ents P), (ents (c :: R)). split; auto. cbn [ents map SkipWildSpec.found]. rewrite Ez, Ei. auto.
  Qed.
  Lemma search_wild s m k : rel s m -> exists a b, place k m a b /\ search cmp s k = Some (option_map fst (found k b)).
  Proof.
    intros H. destruct (search_at s m k H) as (P & R & I & -> & Pl & D & N). exists (ents P), (ents R). split; auto. unfold search. rewrite D, N.
    destruct R as [|c R]; cbn [hd_id hd_error option_map]; [reflexivity|]. rewrite (cell_entry tt_ s P c R I). cbn [ents map SkipWildSpec.found].
    now destruct (cmp (fst (ckv c)) k =? 0)%Z.
  Qed.
  Lemma remove_wild s m k : rel s m -> exists s' a b, place k m a b /\
    match found k b with
    | Some (e, b') => remove cmp s k = Some (s', Some e) /\ rel s' (a ++ b')
    | None => remove cmp s k = Some (s', None) /\ rel s' m
    end.
  Proof.
    intros H. destruct (search_at s m k H) as (P & R & I & Em & Pl & D & N). unfold remove. rewrite D, N. destruct R as [|c R]; cbn [hd_id hd_error option_map] in *.
    - exists s, (ents P), []. split; auto. cbn [SkipWildSpec.found]. auto.
    - rewrite (cell_entry tt_ s P c R I). destruct (cmp (fst (ckv c)) k =? 0)%Z eqn:Ez.
      + destruct (takeOut_ok tt_ s P c R _ I eq_refl) as (s' & -> & I' & E' & _). rewrite E'. exists s', (ents P), (ents (c :: R)). split; auto.
        cbn [ents map SkipWildSpec.found]. rewrite Ez. split; [reflexivity|]. exists (P ++ R). split; auto. apply ents_app.
      + exists s, (ents P), (ents (c :: R)). split; auto. cbn [ents map SkipWildSpec.found]. rewrite Ez. auto.
  Qed.

  (** ** Removing a node *)
  Lemma run_of_app go A B : (forall c, In c A -> goc go c = true) -> run_of go (A ++ B) = A ++ run_of go B.
  Proof. intros H. induction A as [|c A IH]; cbn [app run_of]; auto. rewrite (H c) by now left. rewrite IH; auto. intros x Hx. apply H. now right. Qed.
  Lemma run_of_stop go A c B : goc go c = false -> ~ In c (run_of go (A ++ c :: B)).
  Proof.
    intros H. induction A as [|x A IH]; cbn [app run_of]; [rewrite H; intros []|]. destruct (goc go x) eqn:G; [|intros []]. intros [->|X]; [congruence|auto].
  Qed.
  Lemma update_starts s go L i : (forall c, In c L -> cht c <= level s) -> update s (starts go (header s) L (level s)) i = lastid (header s) (run_of go (at_ i L)).
  Proof.
    intros Hh. unfold update, starts. destruct (Nat.lt_ge_cases i (level s)) as [Hi|Hi].
    - erewrite nth_indep by (rewrite map_length, seq_length; auto). rewrite (map_nth (fun i => lastid (header s) (run_of go (at_ i L))) _ 0), seq_nth by auto. reflexivity.
    - rewrite nth_overflow by (rewrite map_length, seq_length; auto). rewrite (at_high (level s) i L); auto.
  Qed.
  Lemma removeNode_wild s P c R : SI s (P ++ c :: R) ->
    (exists s', removeNode cmp s (cid c) = Some (s', Some (ckv c)) /\ SI s' (P ++ R)) \/
    removeNode cmp s (cid c) = Some (s, None) /\ blocked cmp (ents P) (ckv c).
  Proof.
    intros I. unfold removeNode. rewrite (cell_entry tt_ s P c R I). pose proof (si_level _ _ _ I) as Hl. pose proof (si_max _ _ _ I) as Hx.
    set (go := notAt cmp (cid c) (fst (ckv c))). pose proof (si_mem _ _ _ I) as M. rewrite (restart_wild go (mem s) (header s) (P ++ c :: R)) by (auto; lia).
    pose proof (update_starts s go (P ++ c :: R)) as Up. rewrite (Up 0 (si_ht _ _ _ I)).
    rewrite (at_zero (mem s)) by apply (mo_good _ _ _ M).
    assert (Gc : goc go c = false) by (unfold goc, go, notAt; now rewrite Nat.eqb_refl).
    destruct (mid_nodup _ _ _ _ (mo_nodup _ _ _ M)) as (N1 & N2).
    destruct (forallb (goc go) P) eqn:HP.
    - rewrite forallb_forall in HP. left. rewrite (run_of_app go P (c :: R) HP). cbn [run_of]. rewrite Gc, app_nil_r.
      rewrite (next_cell _ _ P (c :: R) M). cbn [hd_id hd_error option_map peqb]. rewrite Nat.eqb_refl.
      destruct (takeOut_ok tt_ s P c R _ I eq_refl) as (s' & Et & I' & E' & _).
      replace (takeOut s (starts go (header s) (P ++ c :: R) (level s)) (cid c)) with (Some s'); [rewrite E'; exists s'; auto|].
      rewrite <- Et. unfold takeOut. rewrite (unlink_eq (update s (starts go (header s) (P ++ c :: R) (level s))) (update s (preds (header s) P (level s))) (cid c) (level s) 0 (mem s)); [reflexivity|].
      intros j Hj. rewrite Up by exact (si_ht _ _ _ I). rewrite (update_ok tt_ s P (c :: R) j I).
      rewrite at_app, at_cons. rewrite run_of_app by (intros x X; apply HP; now apply at_in in X). destruct (Nat.ltb_spec j (cht c)) as [Hj'|Hj'].
      + left. cbn [app run_of]. now rewrite Gc, app_nil_r.
      + right. cbn [app]. pose proof (mo_path _ _ _ M j ltac:(lia)) as Pt. rewrite at_app, at_cons in Pt. replace (j <? cht c) with false in Pt by (symmetry; now apply Nat.ltb_ge). cbn [app] in Pt.
        assert (Ms : forall A B, at_ j R = A ++ B -> misses (mem s) (cid c) (lastid (header s) (at_ j P ++ A)) j).
        { intros A B E. rewrite E, app_assoc in Pt. apply path_app in Pt as (_ & Pt). apply path_hd in Pt. eexists. split; [exact Pt|]. destruct B as [|x B]; [reflexivity|].
          cbn [hd_id hd_error option_map peqb]. apply Nat.eqb_neq. intros X. apply N2. right. rewrite ids_app. apply in_or_app. right. apply (ids_at j). rewrite E, ids_app. apply in_or_app. right. cbn. now left. }
        destruct (run_of_split go (at_ j R)) as (B & E & _). split; [apply (Ms _ B); auto|]. specialize (Ms [] (at_ j R) eq_refl). now rewrite app_nil_r in Ms.
    - right.
      assert (Ex : exists x, In x P /\ goc go x = false).
      { clear - HP. induction P as [|x P IH]; [discriminate|]. cbn [forallb] in HP. destruct (goc go x) eqn:G; [|exists x; split; auto; now left].
        destruct (IH HP) as (y & Y1 & Y2). exists y. split; auto. now right. }
      destruct Ex as (x & Hx1 & Hx2). split.
      + apply in_split in Hx1 as (P1 & P2 & ->).
        destruct (run_of_split go ((P1 ++ x :: P2) ++ c :: R)) as (B & E & _ & Ht). assert (M' := M). rewrite E in M'. rewrite (next_cell _ _ _ _ M').
        destruct B as [|y B]; [reflexivity|]. cbn [hd_id hd_error option_map]. replace (peqb (Some (cid y)) (Some (cid c))) with false; [reflexivity|]. symmetry. cbn [peqb]. apply Nat.eqb_neq. intros X.
        (* [y] would be [c], and [x] before it *)
        assert (Hxr : ~ In x (run_of go ((P1 ++ x :: P2) ++ c :: R))) by (rewrite <- app_assoc; cbn [app]; now apply run_of_stop).
        set (r := run_of go ((P1 ++ x :: P2) ++ c :: R)) in *.
        assert (Hcr : forall z, cid z = cid c -> ~ In z (P1 ++ x :: P2)) by (intros z Hz Hin; apply N2; right; rewrite <- Hz, ids_app; apply in_or_app; left; now apply in_map).
        assert (Hle : exists Z, r = (P1 ++ x :: P2) ++ Z).
        { clear - E X Hcr. revert E Hcr. generalize (P1 ++ x :: P2) as Q. induction r as [|z r IH]; intros Q E Hq.
          - destruct Q as [|q Q]; [exists []; auto|]. cbn [app] in E. injection E as <- _. exfalso. apply (Hq q X). now left.
          - destruct Q as [|q Q]; [exists (z :: r); auto|]. cbn [app] in E. injection E as <- E. destruct (IH Q E) as (Z & ->); [intros z0 Hz Hin; apply (Hq z0 Hz); now right|]. exists Z. auto. }
        destruct Hle as (Z & HZ). apply Hxr. rewrite HZ. apply in_or_app. left. apply in_or_app. right. now left.
      + exists (ckv x). split; [now apply in_map|]. unfold goc, go, notAt in Hx2. apply andb_false_iff in Hx2 as [X|X].
        * apply negb_false_iff, Nat.eqb_eq in X. exfalso. apply N2. right. rewrite <- X, ids_app. apply in_or_app. left. now apply in_map.
        * now apply Z.ltb_ge.
  Qed.
  Lemma thinned_refl m : thinned m m. Proof. induction m; constructor; auto. Qed.
  Lemma thinned_trans (a b d : list (K * V)) : thinned a b -> thinned b d -> thinned a d.
  Proof.
    intros H. revert d. induction H; intros d Hd.
    - exact Hd.
    - inversion Hd; subst; constructor; auto.
    - constructor. auto.
  Qed.
  Lemma thinned_mid (a b : list (K * V)) e : thinned (a ++ e :: b) (a ++ b).
  Proof. induction a; cbn; constructor; auto. apply thinned_refl. Qed.
  Lemma removeAll_wild ks : forall s m, rel s m -> exists s' m', removeAll cmp s ks = Some s' /\ rel s' m' /\ thinned m m'.
  Proof.
    induction ks as [|k ks IH]; intros s m H; cbn [removeAll]; [exists s, m; auto using thinned_refl|].
    destruct (remove_wild s m k H) as (s1 & a & b & (E & _) & F). destruct b as [|e b]; cbn [SkipWildSpec.found] in F.
    - destruct F as (-> & H1). destruct (IH s1 m H1) as (s' & m' & X). exists s', m'. exact X.
    - destruct (cmp (fst e) k =? 0)%Z; destruct F as (-> & H1); destruct (IH s1 _ H1) as (s' & m' & X1 & X2 & X3); exists s', m'; repeat split; auto.
      eapply thinned_trans; [|exact X3]. rewrite E. apply thinned_mid.
  Qed.
  Lemma indexOf_wild s k R : forall P f idx, SI s (P ++ R) -> length R < f ->
    (indexOf cmp f (mem s) k (hd_id R) idx = Some (-1)%Z /\ (forall e, In e (ents R) -> cmp (fst e) k <> 0%Z)) \/
    exists a e b, ents R = a ++ e :: b /\ cmp (fst e) k = 0%Z /\ (forall e', In e' a -> cmp (fst e') k <> 0%Z) /\ indexOf cmp f (mem s) k (hd_id R) idx = Some (idx + len a)%Z.
  Proof.
    induction R as [|c R IH]; intros P f idx I Hf; (destruct f as [|f]; [lia|]); cbn [indexOf hd_id hd_error option_map]; [left; split; auto; intros ? []|].
    rewrite (cell_entry tt_ s P c R I), (next_of tt_ s P c R I). change (ents (c :: R)) with (ckv c :: ents R). destruct (Z.eqb_spec (cmp (fst (ckv c)) k) 0) as [Ez|Ez].
    - right. exists [], (ckv c), (ents R). repeat split; auto. unfold len. cbn [length Z.of_nat]. now rewrite Z.add_0_r.
    - destruct (IH (P ++ [c]) f (idx + 1)%Z) as [(X & Y)|(a & e & b & X1 & X2 & X3 & X4)]; [now rewrite <- app_assoc|cbn in Hf; lia| |].
      + left. split; auto. intros e [<-|He]; auto.
      + right. exists (ckv c :: a), e, b. rewrite X1, X4. repeat split; auto; [|f_equal; unfold len; cbn [length]; lia]. intros e' [<-|He]; auto.
  Qed.

  Theorem sk_wild s m o : ranges o = false -> rel s m -> exists s' m' x, sk_step cmp s o = Some (s', x) /\ rel s' m' /\ kmay cmp m o m' x.
  Proof.
    intros Hr H. pose proof (rel_size tt_ s m H) as Hz.
    assert (Rm : forall k, exists s' m' e, remove cmp s k = Some (s', e) /\ rel s' m' /\ exists a b, place k m a b /\
      match found k b with Some (e', b') => m' = a ++ b' /\ KEntry (V := V) e = KEntry (Some e') | None => m' = m /\ KEntry (V := V) e = KEntry None end).
    { intros k. destruct (remove_wild s m k H) as (s' & a & b & Pl & F). destruct (found k b) as [[e b']|] eqn:Ef; destruct F as (E & H').
      - exists s', (a ++ b'), (Some e). repeat split; auto. exists a, b. rewrite Ef. auto.
      - exists s', m, None. repeat split; auto. exists a, b. rewrite Ef. auto. }
    destruct o; try discriminate Hr; cbn [sk_step kmay].
    - destruct (put_wild s m k v r H) as (s' & a & b & Pl & F). destruct (found k b) as [[e b']|] eqn:Ef; destruct F as (-> & H'); do 3 eexists; (split; [reflexivity|]; split; [exact H'|]); exists a, b; rewrite Ef; auto.
    - destruct (put_wild s m k v r H) as (s' & a & b & Pl & F). destruct (found k b) as [[e b']|] eqn:Ef; destruct F as (-> & H'); do 3 eexists; (split; [reflexivity|]; split; [exact H'|]); exists a, b; rewrite Ef; auto.
    - destruct (put_wild s m k v r H) as (s' & a & b & Pl & F). destruct (found k b) as [[e b']|] eqn:Ef; destruct F as (-> & H'); do 3 eexists; (split; [reflexivity|]; split; [exact H'|]); exists a, b; rewrite Ef; auto.
    - destruct (search_wild s m k H) as (a & b & Pl & ->). do 3 eexists. split; [reflexivity|]. split; [exact H|]. split; auto. exists a, b. split; auto. destruct (found k b) as [[e b']|]; reflexivity.
    - destruct (Rm k) as (s' & m' & e & -> & H' & X). exists s', m', (KEntry e). auto.
    - unfold removeHead. rewrite Hz. destruct m as [|e m]; [exists s, [], (KEntry None); auto|]. replace (len (e :: m) =? 0)%Z with false by (symmetry; apply Z.eqb_neq; unfold len; cbn [length]; lia).
      pose proof H as (L & I & E). rewrite (first_cell tt_ s L I). destruct L as [|c L]; [discriminate|]. cbn [hd_id hd_error option_map].
      rewrite (cell_entry tt_ s [] c L I). injection E as E1 E2. rewrite E1. destruct (Rm (fst e)) as (s' & m' & e' & -> & H' & X). exists s', m', (KEntry e'). auto.
    - unfold removeTail. rewrite Hz. destruct m as [|e m]; [exists s, [], (KEntry None); split; [reflexivity|split; [exact H|split; reflexivity]]|]. replace (len (e :: m) =? 0)%Z with false by (symmetry; apply Z.eqb_neq; unfold len; cbn [length]; lia).
      pose proof H as (L & I & E). rewrite (first_cell tt_ s L I). destruct L as [|c L]; [discriminate|]. cbn [hd_id hd_error option_map].
      rewrite (lastNode_ok tt_ s L [] c (fuel (mem s)) I) by (pose proof (all_fuel tt_ s _ I) as F; cbn [length] in F; lia).
      rewrite <- E in *. destruct (rsplit c L) as (P & E' & ->). rewrite E' in *. rewrite ents_app, rev_app_distr. cbn [ents map rev app]. rewrite rev_involutive.
      destruct (removeNode_wild s P (last L c) [] I) as [(s' & -> & I')|(-> & B)].
      + exists s', (ents P), (KEntry (Some (ckv (last L c)))). split; auto. split; auto. rewrite app_nil_r in I'. exists P. auto.
      + exists s. do 2 eexists. split; [reflexivity|]. split; [exact H|]. right. rewrite ents_app. auto.
    - destruct H as (L & I & <-). unfold headEntry. rewrite (first_cell tt_ s L I). exists s, (ents L). destruct L as [|c L]; cbn [hd_id hd_error option_map]; [eexists; split; [reflexivity|split; [exists []; auto|auto]]|].
      rewrite (cell_entry tt_ s [] c L I). eexists; split; [reflexivity|]. split; auto. eexists; eauto.
    - destruct H as (L & I & <-). unfold tailEntry. rewrite (first_cell tt_ s L I). exists s, (ents L). destruct L as [|c L]; cbn [hd_id hd_error option_map]; [eexists; split; [reflexivity|split; [exists []; auto|auto]]|].
      rewrite (lastNode_ok tt_ s L [] c (fuel (mem s)) I) by (pose proof (all_fuel tt_ s _ I) as F; cbn [length] in F; lia).
      rewrite last_entry_ents. destruct (rsplit c L) as (P & E' & ->). assert (I' := I). rewrite E' in I'. rewrite (cell_entry tt_ s P _ [] I'). eexists; split; [reflexivity|]. split; auto. eexists; eauto.
    - do 3 eexists. split; [reflexivity|]. split; [|split; reflexivity]. exists []. split; auto. destruct H as (L & I & _). destruct (alloc_ok (mem s) (Nd None (repeat None MaxLevel))) as (A1 & A2 & A3 & A4 & A5 & A6).
      pose proof (si_level _ _ _ I). pose proof (si_max _ _ _ I). constructor; cbn [clear mem header level size maxLevel ents map length]; try lia; auto.
      + constructor; [exact A5|constructor; [intros []|constructor]|intros ? []|]. intros i Hi. cbn [at_ filter path]. rewrite A6. cbn [fwd]. unfold MaxLevel. now rewrite nth_error_repeat by lia.
      + constructor.
      + intros ? [].
    - rewrite Hz. exists s, m. eexists. split; [reflexivity|auto].
    - exists s, m. assert (H0 := H). destruct H0 as (L & I & <-). rewrite (first_cell tt_ s L I), (traverse_ok tt_ s go L [] _ [] I (all_fuel tt_ s L I)). eexists. split; [reflexivity|auto].
    - rewrite (slice_ok tt_ s m H). exists s, m. eexists. split; [reflexivity|auto].
    - rewrite (slice_ok tt_ s m H). exists s, m. eexists. split; [reflexivity|auto].
    - exists s, m, (KEntry (at_index m i)). split; [|auto]. unfold index, at_index. rewrite Hz, index_in. destruct ((0 <=? i) && (i <? len m))%Z eqn:B; cbn [negb]; auto. apply andb_true_iff in B as (B1 & B2).
      apply Z.leb_le in B1. apply Z.ltb_lt in B2. destruct H as (L & I & <-). unfold len, ents in B2. rewrite map_length in B2. rewrite (first_cell tt_ s L I), (walk_ok tt_ s (Z.to_nat i) [] L I) by lia.
      rewrite <- nth_hd. destruct (skipn (Z.to_nat i) L) as [|c R] eqn:E; [apply (f_equal (@length _)) in E; rewrite skipn_length in E; cbn in E; lia|]. cbn [hd_id hd_error option_map].
      rewrite <- (firstn_skipn (Z.to_nat i) L), E in I. rewrite (cell_entry tt_ s _ c R I). reflexivity.
    - exists s, m. assert (H0 := H). destruct H0 as (L & I & <-). rewrite (first_cell tt_ s L I).
      destruct (indexOf_wild s k L [] (fuel (mem s)) 0%Z I (all_fuel tt_ s L I)) as [(-> & X)|(a & e & b & X1 & X2 & X3 & ->)].
      + eexists. split; [reflexivity|]. split; auto.
      + eexists. split; [reflexivity|]. split; auto. split; auto. right. exists a, e, b. rewrite Z.add_0_l. auto.
    - unfold removeIndex. assert (Ha := eq_refl (at_index m i)). unfold at_index in Ha at 2. rewrite Hz, index_in. destruct ((0 <=? i) && (i <? len m))%Z eqn:B; cbn [negb]; rewrite Ha; [|exists s, m; eexists; split; [reflexivity|auto]]. apply andb_true_iff in B as (B1 & B2).
      apply Z.leb_le in B1. apply Z.ltb_lt in B2. assert (H0 := H). destruct H0 as (L & I & <-). unfold len, ents in B2. rewrite map_length in B2. rewrite (first_cell tt_ s L I), (walk_ok tt_ s (Z.to_nat i) [] L I) by lia.
      rewrite <- nth_hd. destruct (skipn (Z.to_nat i) L) as [|c R] eqn:E; [apply (f_equal (@length _)) in E; rewrite skipn_length in E; cbn in E; lia|]. cbn [hd_id hd_error option_map].
      rewrite <- (firstn_skipn (Z.to_nat i) L), E in I. destruct (removeNode_wild s _ c R I) as [(s' & -> & I')|(-> & Bl)].
      + do 3 eexists. split; [reflexivity|]. split; [eexists; split; [exact I'|reflexivity]|]. left. split; auto. unfold others. rewrite firstn_ents, skipn_ents, ents_app. f_equal. f_equal.
        replace (Z.to_nat (i + 1)) with (Z.to_nat i + 1) by lia. rewrite <- skipn_add, E. reflexivity.
      + do 3 eexists. split; [reflexivity|]. split; [exact H|]. right. rewrite firstn_ents. auto.
    - unfold trim. rewrite (slice_ok tt_ s m H). destruct (removeAll_wild (map fst (filter (fun e => (cmp (fst e) lo <? 0) || (0 <? cmp (fst e) hi))%Z m)) s m H) as (s' & m' & -> & X & Y).
      exists s', m', KUnit. auto.
    - unfold trimByIndex. destruct (_ <? _)%Z; [exists s, m, KUnit; auto using thinned_refl|]. rewrite (slice_ok tt_ s m H).
      match goal with |- context [removeAll cmp s ?ks] => destruct (removeAll_wild ks s m H) as (s' & m' & -> & X & Y) end. exists s', m', KUnit. auto.
  Qed.
End Ops.
