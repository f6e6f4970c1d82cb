(** Skip lists that are changed while iterators stand in them: the proofs. *)
From Verif Require Import Base Bind Machine OrderSpec SMapSpec SMapFacts SkipSpec SkipChangeSpec SkipModel SkipChangeModel SkipProofs SkipOps SkipSets.

Section Frames.
  Context {K V : Type}.
  Notation mem_t := (list (node K V)).
  Lemma setf_frame (m : mem_t) a i p m' : setf m a i p = Some m' ->
    (forall b j, b <> a -> getf m' b j = getf m b j) /\ (forall b, entry m' b = entry m b) /\ length m' = length m.
  Proof.
    intros H. assert (X : exists l, flen m a = Some l /\ i < l).
    { unfold setf, flen in *. destruct (nth_error m a) as [n|]; [|discriminate]. cbn. destruct (Nat.ltb_spec i (length (fwd n))); [eauto|discriminate]. }
    destruct X as (l & X1 & X2). destruct (setf_ok m a i p l X1 X2) as (m1 & E & _ & A2 & A3 & _ & A5). rewrite E in H. injection H as <-. auto.
  Qed.
  Lemma link_frame upd new n : forall i (m m' : mem_t), link upd new n i m = Some m' ->
    (forall b j, b <> new -> (forall i, upd i <> b) -> getf m' b j = getf m b j) /\ (forall b, entry m' b = entry m b) /\ length m' = length m.
  Proof.
    induction n as [|n IH]; intros i m m' H; cbn [link] in H; [injection H as <-; auto|]. destruct (getf m (upd i) i) as [p|]; [|discriminate].
    destruct (setf m new i p) as [m1|] eqn:E1; [|discriminate]. destruct (setf m1 (upd i) i (Some new)) as [m2|] eqn:E2; [|discriminate].
    destruct (setf_frame _ _ _ _ _ E1) as (A1 & A2 & A3). destruct (setf_frame _ _ _ _ _ E2) as (B1 & B2 & B3). destruct (IH _ _ _ H) as (C1 & C2 & C3).
    split; [|split; [intros; now rewrite C2, B2|congruence]]. intros b j Hb Hu. rewrite C1, B1; auto.
  Qed.
  Lemma unlink_frame upd cur n : forall i (m m' : mem_t), unlink upd cur n i m = Some m' ->
    (forall b j, (forall i, upd i <> b) -> getf m' b j = getf m b j) /\ (forall b, entry m' b = entry m b) /\ length m' = length m.
  Proof.
    induction n as [|n IH]; intros i m m' H; cbn [unlink] in H; [injection H as <-; auto|]. destruct (getf m (upd i) i) as [p|]; [|discriminate].
    destruct (peqb p (Some cur)); [|now apply (IH (i + 1))].
    destruct (getf m cur i) as [q|]; [|discriminate]. destruct (setf m (upd i) i q) as [m1|] eqn:E1; [|discriminate].
    destruct (setf_frame _ _ _ _ _ E1) as (A1 & A2 & A3). destruct (IH _ _ _ H) as (C1 & C2 & C3).
    split; [|split; [intros; now rewrite C2, A2|congruence]]. intros b j Hu. rewrite C1, A1; auto.
  Qed.
  (** nodes were added, and only those in [X] were written to *)
  Definition kept (X : nat -> Prop) (s s' : skiplist K V) : Prop := length (mem s) <= length (mem s') /\
    forall a, a < length (mem s) -> ~ X a -> getf (mem s') a 0 = getf (mem s) a 0 /\ entry (mem s') a = entry (mem s) a.
  Lemma kept_refl X s : kept X s s. Proof. split; auto. Qed.
  Lemma kept_trans X s s1 s2 : kept X s s1 -> kept X s1 s2 -> kept X s s2.
  Proof.
    intros (A1 & A2) (B1 & B2). split; [lia|]. intros a Ha HX. destruct (A2 a Ha HX) as (<- & <-). apply B2; auto. lia.
  Qed.
  Lemma kept_mono (X Y : nat -> Prop) s s' : (forall a, X a -> Y a) -> kept X s s' -> kept Y s s'.
  Proof. intros H (A1 & A2). split; auto. Qed.
End Frames.

Section Change.
  Context {K V : Type} (ltb : K -> K -> bool) (W : weak_order ltb) (cmp : K -> K -> Z) (Hc : sign_cmp ltb cmp).
  Implicit Types (A B L P R M D : list (cell K V)) (c : cell K V) (s : skiplist K V) (p q : place K V).
  Notation SI := (SI ltb).

  (** ** Where an iterator stands *)
  Inductive PR s L : option nat -> place K V -> Prop :=
  | PR_none : PR s L None Nowhere
  | PR_at c : In c L -> PR s L (Some (cid c)) (At (fst (ckv c)))
  | PR_gone a e n p : a < length (mem s) -> ~ In a (header s :: ids L) -> entry (mem s) a = Some e -> getf (mem s) a 0 = Some n -> PR s L n p ->
      PR s L (Some a) (Gone e p).

  Record chg s L s' L' : Prop := {
    ch_hdr : header s' = header s \/ length (mem s) <= header s';
    ch_kept : kept (fun a => In a (header s :: ids L')) s s';
    ch_old : forall c', In c' L' -> cid c' < length (mem s) -> exists c, In c L /\ cid c = cid c' /\ fst (ckv c) = fst (ckv c');
    ch_new : forall c c', In c' L' -> length (mem s) <= cid c' -> In c L -> same ltb (fst (ckv c)) (fst (ckv c')) = false }.

  Lemma has_in k (m : list (K * V)) : has ltb k m = true <-> exists e, In e m /\ same ltb (fst e) k = true.
  Proof.
    unfold has, sames. split.
    - destruct (filter _ m) as [|e l] eqn:F; [discriminate|]. intros _. exists e. apply (filter_In (fun e => same ltb (fst e) k)). rewrite F. now left.
    - intros (e & H). apply (filter_In (fun e => same ltb (fst e) k)) in H. now destruct (filter _ m).
  Qed.
  Lemma same_cell s L c c' : SI s L -> In c L -> In c' L -> same ltb (fst (ckv c)) (fst (ckv c')) = true -> c = c'.
  Proof.
    intros I H H' E. pose proof (si_sorted _ _ _ I) as Sd. apply List.in_split in H as (A & B & ->). rewrite ents_app in Sd. change (ents (c :: B)) with (ckv c :: ents B) in Sd.
    apply ssorted_app in Sd as (_ & Sd1 & Sd2). inversion Sd1 as [|? ? _ Sd3]; subst. rewrite Forall_forall in Sd3. apply same_iff in E as (E1 & E2).
    apply in_app_or in H' as [H'|[H'|H']]; auto; exfalso.
    - specialize (Sd2 (ckv c') (ckv c) (in_map _ _ _ H') ltac:(now left)). cbn in Sd2. congruence.
    - specialize (Sd3 (ckv c') (in_map _ _ _ H')). cbn in Sd3. congruence.
  Qed.
  Lemma cid_cell s L c c' : SI s L -> In c L -> In c' L -> cid c = cid c' -> c = c'.
  Proof.
    intros I H H' E. pose proof (mo_nodup _ _ _ (si_mem _ _ _ I)) as N. apply List.in_split in H as (A & B & ->). apply mid_nodup in N as (_ & N).
    apply in_app_or in H' as [H'|[H'|H']]; auto; exfalso; apply N; right; rewrite E, ids_app; apply in_or_app; [left|right]; now apply in_map.
  Qed.
  Lemma cell_lt s L c : SI s L -> In c L -> cid c < length (mem s).
  Proof. intros I H. apply good_in. now apply (mo_good _ _ _ (si_mem _ _ _ I)). Qed.
  Lemma hdr_lt s L : SI s L -> header s < length (mem s).
  Proof. intros I. pose proof (mo_hdr _ _ _ (si_mem _ _ _ I)) as M. unfold flen in M. apply nth_error_Some. destruct (nth_error (mem s) (header s)); [discriminate|discriminate M]. Qed.
  Lemma old_in s L s' L' a : SI s L -> chg s L s' L' -> a < length (mem s) -> In a (header s' :: ids L') -> In a (header s :: ids L).
  Proof.
    intros I Ch Ha [<-|H].
    - destruct (ch_hdr _ _ _ _ Ch) as [->|X]; [now left|lia].
    - apply in_map_iff in H as (c' & <- & H). destruct (ch_old _ _ _ _ Ch c' H Ha) as (c & H1 & <- & _). right. now apply in_map.
  Qed.
  Lemma along_ok s L s' L' : SI s L -> SI s' L' -> chg s L s' L' -> forall R P, L = P ++ R -> PR s' L' (hd_id R) (along ltb (ents L') (ents R)).
  Proof.
    intros I I' Ch. induction R as [|c R IH]; intros P E; [constructor|]. cbn [ents map along hd_id hd_error option_map].
    assert (Hin : In c L) by (rewrite E; apply in_or_app; right; now left). pose proof (cell_lt _ _ _ I Hin) as Hlt.
    destruct (has ltb (fst (ckv c)) (ents L')) eqn:Hh.
    - apply has_in in Hh as (e & He & Hs). apply in_map_iff in He as (c' & <- & Hc'). destruct (Nat.lt_ge_cases (cid c') (length (mem s))) as [X|X].
      + destruct (ch_old _ _ _ _ Ch c' Hc' X) as (c0 & H0 & E1 & E2). assert (c0 = c) by (apply (same_cell s L); auto; congruence). subst c0. rewrite E1, E2. now constructor.
      + pose proof (ch_new _ _ _ _ Ch c c' Hc' X Hin) as Y. rewrite same_sym in Y. congruence.
    - assert (N : ~ In (cid c) (ids L')).
      { intros X. apply in_map_iff in X as (c' & X1 & X2). destruct (ch_old _ _ _ _ Ch c' X2) as (c0 & H0 & E1 & E2); [lia|].
        assert (c0 = c) by (apply (cid_cell s L); auto; congruence). subst c0. assert (has ltb (fst (ckv c)) (ents L') = true); [|congruence].
        apply has_in. exists (ckv c'). split; [now apply in_map|]. rewrite <- E2. now apply same_refl. }
      assert (Nh : cid c <> header s). { intros X. pose proof (mo_nodup _ _ _ (si_mem _ _ _ I)) as N0. inversion N0; subst. apply H1. rewrite <- X. now apply in_map. }
      destruct (ch_kept _ _ _ _ Ch) as (K1 & K2). destruct (K2 (cid c) Hlt) as (K3 & K4); [intros [X|X]; [congruence|contradiction]|].
      apply (PR_gone s' L' _ _ (hd_id R)); [lia| | | |apply (IH (P ++ [c])); now rewrite <- app_assoc].
      + intros [X|X]; [|contradiction]. destruct (ch_hdr _ _ _ _ Ch); [congruence|lia].
      + rewrite K4. now apply (mo_good _ _ _ (si_mem _ _ _ I)).
      + rewrite K3. rewrite E in I. apply (next_of ltb s P c R I).
  Qed.
  Lemma from_ok s P c R : SI s (P ++ c :: R) -> from ltb (fst (ckv c)) (ents (P ++ c :: R)) = ents (c :: R).
  Proof.
    intros I. pose proof (si_sorted _ _ _ I) as Sd. rewrite ents_app in Sd |- *. change (ents (c :: R)) with (ckv c :: ents R) in *.
    destruct (cut_same_strict ltb W (ents P) (ckv c) (ents R) (fst (ckv c)) (same_refl ltb W _) Sd) as (X1 & X2 & X3). unfold from. now rewrite X2, X3.
  Qed.
  Lemma PR_moved s L s' L' n p : SI s L -> SI s' L' -> chg s L s' L' -> PR s L n p -> PR s' L' n (moved ltb (ents L) (ents L') p).
  Proof.
    intros I I' Ch H. induction H as [|c H|a e n p Ha Hn He Hf H IH]; cbn [moved]; [constructor| |].
    - apply List.in_split in H as (P & R & E). assert (I1 := I). rewrite E in I1. rewrite E, (from_ok s P c R I1). apply (along_ok s L s' L' I I' Ch (c :: R) P E).
    - assert (Hn' : ~ In a (header s' :: ids L')) by (intros X; apply Hn; eapply old_in; eauto). destruct (ch_kept _ _ _ _ Ch) as (K1 & K2).
      destruct (K2 a Ha) as (K3 & K4). { intros [X|X]; [apply Hn; now left|apply Hn'; now right]. }
      apply (PR_gone s' L' a e n); auto; [lia|congruence|congruence].
  Qed.

  (** ** What the calls of the list write to *)
  Lemma chg_refl s L : SI s L -> chg s L s L.
  Proof.
    intros I. constructor; auto; [apply kept_refl|eauto|]. intros c c' H H'. pose proof (cell_lt _ _ _ I H). lia.
  Qed.
  Lemma upd_in s P R i : SI s (P ++ R) -> In (update s (preds (header s) P (level s)) i) (header s :: ids P).
  Proof.
    intros I. rewrite (update_ok ltb s P R i I). pose proof (lastid_in (header s) (at_ i P)) as [H|H]; [now left|]. right. eapply ids_at; eauto.
  Qed.
  Lemma takeOut_frame s P R cur s' : SI s (P ++ R) -> takeOut s (preds (header s) P (level s)) cur = Some s' ->
    header s' = header s /\ kept (fun a => In a (header s :: ids P)) s s'.
  Proof.
    intros I. unfold takeOut. destruct (unlink _ _ _ _ _) as [m|] eqn:E; [|discriminate]. destruct (shrink _ _ _); [|discriminate]. intros H. injection H as <-. cbn [header].
    split; auto. destruct (unlink_frame _ _ _ _ _ _ E) as (A1 & A2 & A3). split; cbn [mem]; [lia|]. intros a _ HX. split; auto. apply A1. intros i <-. apply HX. now apply (upd_in s P R).
  Qed.
  (** cells were taken out *)
  Lemma chg_sub s L s' L' : SI s L -> header s' = header s -> kept (fun a => In a (header s :: ids L')) s s' -> incl L' L -> chg s L s' L'.
  Proof.
    intros I Hh Hk Hi. constructor; auto; [intros c' H _; exists c'; auto|]. intros c c' H H'. pose proof (cell_lt _ _ _ I (Hi _ H)). lia.
  Qed.
  Lemma take_chg s P c R s' : SI s (P ++ c :: R) -> takeOut s (preds (header s) P (level s)) (cid c) = Some s' ->
    SI s' (P ++ R) /\ header s' = header s /\ kept (fun a => In a (header s :: ids P)) s s'.
  Proof.
    intros I E. destruct (takeOut_frame s P (c :: R) (cid c) s' I E). destruct (takeOut_ok ltb s P c R _ I eq_refl) as (s1 & E1 & I1 & _). rewrite E in E1. injection E1 as <-. auto.
  Qed.
  Lemma in_ids_app a (x : nat) A B : In a (x :: ids A) -> In a (x :: ids (A ++ B)).
  Proof. intros [H|H]; [now left|right]. rewrite ids_app. apply in_or_app. auto. Qed.
  Lemma incl_mid P M R : incl (P ++ R) (P ++ M ++ R).
  Proof. intros x H. rewrite !in_app_iff in *. tauto. Qed.

  (** Removing a key: the cells before it stay, and of the old ones only they are written to. *)
  Lemma remove_chg s P M R k s' o : SI s (P ++ M ++ R) -> ents P = before ltb k (ents (P ++ M ++ R)) -> ents M = sames ltb k (ents (P ++ M ++ R)) ->
    ents R = after ltb k (ents (P ++ M ++ R)) -> remove cmp s k = Some (s', o) -> SI s' (P ++ R) /\ header s' = header s /\ kept (fun a => In a (header s :: ids P)) s s'.
  Proof.
    intros I H1 H2 H3. unfold remove. assert (Sp : splits (below cmp k) P (M ++ R)) by (eapply (splits_below ltb cmp Hc); [eauto|eapply (cut_R ltb W k P M R); eauto]).
    rewrite (descend_top ltb s P (M ++ R) _ I Sp), (next_cell _ _ P (M ++ R) (si_mem _ _ _ I)).
    destruct (strict_sames ltb W _ k (si_sorted _ _ _ I)) as [X|(x & X)]; rewrite X in H2.
    - apply map_eq_nil in H2 as ->. cbn [app] in *. pose proof (hd_after ltb cmp Hc s P R k I (fun c => after_R ltb k R (P ++ R) c H3)) as Hh.
      assert (F : Some (s, None) = Some (s', o) -> SI s' (P ++ R) /\ header s' = header s /\ kept (fun a => In a (header s :: ids P)) s s').
      { intros Y. injection Y as <- _. split; auto. split; auto. apply kept_refl. }
      destruct R as [|c0 R]; cbn [hd_id hd_error option_map] in *; auto. destruct Hh as (e & -> & ->). auto.
    - destruct M as [|c [|]]; try discriminate. cbn [app hd_id hd_error option_map] in *. rewrite (cell_entry ltb s P c R I), (cmp_eq ltb cmp Hc).
      assert (Hs : same ltb (fst (ckv c)) k = true). { assert (Hin : In (ckv c) (sames ltb k (ents (P ++ c :: R)))) by (rewrite X, <- H2; now left). apply filter_In in Hin. tauto. }
      rewrite Hs. destruct (takeOut _ _ _) as [s1|] eqn:E; [|discriminate]. destruct (entry _ _); [|discriminate]. intros Y. injection Y as <- _. now apply (take_chg s P c R).
  Qed.
  Lemma remove_change s L k s' o : SI s L -> remove cmp s k = Some (s', o) -> exists L', SI s' L' /\ chg s L s' L'.
  Proof.
    intros I E. destruct (cut ltb W s L k I) as (P & M & R & EL & H1 & H2 & H3). rewrite EL in *. destruct (remove_chg s P M R k s' o I H1 H2 H3 E) as (I' & Hh & Hk).
    exists (P ++ R). split; auto. apply chg_sub; auto; [|apply incl_mid]. eapply kept_mono; [|exact Hk]. intros a. apply in_ids_app.
  Qed.
  Lemma removeNode_change s P c R s' o : SI s (P ++ c :: R) -> removeNode cmp s (cid c) = Some (s', o) -> exists L', SI s' L' /\ chg s (P ++ c :: R) s' L'.
  Proof.
    intros I. unfold removeNode. rewrite (cell_entry ltb s P c R I). rewrite (restart_top ltb s P (c :: R) _ I (splits_at ltb W cmp Hc s P c R I)).
    destruct (getf _ _ _) as [q|]; [|discriminate]. destruct (peqb _ _); [|intros H; injection H as <- _; eauto using chg_refl].
    destruct (takeOut _ _ _) as [s1|] eqn:E; [|discriminate]. destruct (entry _ _); [|discriminate]. intros H. injection H as <- _. destruct (take_chg s P c R s1 I E) as (I' & Hh & Hk).
    exists (P ++ R). split; auto. apply chg_sub; auto; [|apply (incl_mid P [c] R)]. eapply kept_mono; [|exact Hk]. intros a. apply in_ids_app.
  Qed.
  Lemma removeRange_change n : forall s P R s', SI s (P ++ R) -> removeRange cmp s n (hd_id R) = Some s' ->
    SI s' (P ++ skipn n R) /\ header s' = header s /\ kept (fun a => In a (header s :: ids P)) s s'.
  Proof.
    induction n as [|n IH]; intros s P R s' I H; cbn [removeRange] in H; [injection H as <-; auto using kept_refl|].
    destruct R as [|c R]; cbn [hd_id hd_error option_map] in H; [injection H as <-; auto using kept_refl|].
    rewrite (cell_entry ltb s P c R I), (next_of ltb s P c R I), (descend_top ltb s P (c :: R) _ I (splits_at ltb W cmp Hc s P c R I)) in H.
    destruct (takeOut _ _ _) as [s1|] eqn:E; [|discriminate]. destruct (take_chg s P c R s1 I E) as (I1 & Hh & Hk).
    destruct (IH s1 P R s' I1 H) as (I2 & Hh2 & Hk2). cbn [skipn]. split; auto. split; [congruence|]. rewrite Hh in Hk2. eapply kept_trans; eauto.
  Qed.
  Lemma removeAll_change (l : list (bool * cell K V)) : forall s D s', SI s (D ++ map snd l) ->
    removeAll cmp s (map (fun x => fst (ckv (snd x))) (filter fst l)) = Some s' ->
    SI s' (D ++ map snd (filter (fun x => negb (fst x)) l)) /\ header s' = header s /\
    kept (fun a => In a (header s :: ids (D ++ map snd (filter (fun x => negb (fst x)) l)))) s s'.
  Proof.
    induction l as [|[b c] l IH]; intros s D s' I H; cbn [filter map fst snd removeAll] in *; [injection H as <-; auto using kept_refl|].
    destruct b; cbn [negb map fst snd removeAll] in *.
    - destruct (remove cmp s (fst (ckv c))) as [(s1, o)|] eqn:E; [|discriminate]. pose proof (si_sorted _ _ _ I) as Sd. rewrite ents_app in Sd.
      change (ents (c :: map snd l)) with (ckv c :: ents (map snd l)) in Sd.
      destruct (cut_same_strict ltb W _ (ckv c) _ (fst (ckv c)) (same_refl ltb W _) Sd) as (X1 & X2 & X3).
      destruct (remove_chg s D [c] (map snd l) (fst (ckv c)) s1 o) as (I1 & Hh & Hk); auto; cbn [app]; rewrite ?ents_app; cbn [ents map] in *; auto.
      destruct (IH s1 D s' I1 H) as (I2 & Hh2 & Hk2). split; auto. split; [congruence|]. rewrite Hh in Hk2. eapply kept_trans; [|exact Hk2]. eapply kept_mono; [|exact Hk]. intros a. apply in_ids_app.
    - destruct (IH s (D ++ [c]) s') as (I2 & Hh & Hk); [now rewrite <- app_assoc|auto|]. rewrite <- app_assoc in I2, Hk. auto.
  Qed.
  Lemma kept_cells (l : list (bool * cell K V)) : incl (map snd (filter (fun x => negb (fst x)) l)) (map snd l).
  Proof. intros x H. apply in_map_iff in H as (y & <- & H). apply filter_In in H as (H & _). now apply in_map. Qed.
  Lemma removeAll_labels (l : list (bool * cell K V)) s s' : SI s (map snd l) -> removeAll cmp s (map (fun x => fst (ckv (snd x))) (filter fst l)) = Some s' ->
    exists L', SI s' L' /\ chg s (map snd l) s' L'.
  Proof.
    intros I H. destruct (removeAll_change l s [] s' I H) as (I' & Hh & Hk). cbn [app] in *. eexists. split; [exact I'|]. apply chg_sub; auto. apply kept_cells.
  Qed.
  Lemma labels_by (f : K * V -> bool) L : map (fun x => fst (ckv (snd x))) (filter fst (map (fun c => (f (ckv c), c)) L)) = map fst (filter f (ents L)).
  Proof. induction L as [|c L IH]; cbn [map filter fst snd ents] in *; auto. destruct (f (ckv c)); cbn [map fst snd]; now rewrite IH. Qed.
  Fixpoint numbered (lo hi idx : Z) L : list (bool * cell K V) :=
    match L with [] => [] | c :: L' => ((idx <? lo) || (hi <? idx), c)%Z :: numbered lo hi (idx + 1) L' end.
  Lemma numbered_ok lo hi L : forall idx, map snd (numbered lo hi idx L) = L /\
    map (fun x => fst (ckv (snd x))) (filter fst (numbered lo hi idx L)) = outsiders lo hi idx (ents L).
  Proof.
    induction L as [|c L IH]; intros idx; cbn [numbered map filter fst snd ents outsiders]; auto. destruct (IH (idx + 1)%Z) as (E1 & E2). unfold ents in E2. rewrite E1. split; auto.
    destruct ((idx <? lo) || (hi <? idx))%Z; cbn [map fst snd app]; now rewrite E2.
  Qed.

  Lemma put_change s L k v r s' o : SI s L -> put cmp s k v r = Some (s', o) -> exists L', SI s' L' /\ chg s L s' L'.
  Proof.
    intros I. destruct (landing ltb W cmp Hc s L k I) as (P & M & R & E & H1 & H2 & H3 & D & N & HM). unfold put. rewrite D, N. subst L.
    destruct HM as [->|(c & -> & Hsame)]; cbn [app hd_id hd_error option_map] in *.
    - assert (Ins : exists s' c, insert s (preds (header s) P (level s)) k v r = Some s' /\ ckv c = (k, v) /\ SI s' (P ++ c :: R) /\ maxLevel s' = maxLevel s /\ cid c = length (mem s)).
      { apply (insert_ok ltb); auto. rewrite H1, H3. change (before ltb k (ents (P ++ R)) ++ (k, v) :: after ltb k (ents (P ++ R))) with (write ltb k (k, v) (ents (P ++ R))).
        apply write_sorted; auto; [now apply same_refl|apply (si_sorted _ _ _ I)]. }
      destruct Ins as (s1 & c & E' & C1 & I' & _ & C2). rewrite E'.
      assert (Ch : chg s (P ++ R) s1 (P ++ c :: R)).
      { unfold insert in E'. destruct (link _ _ _ _ _) as [m|] eqn:El; [|discriminate]. injection E' as <-. destruct (link_frame _ _ _ _ _ _ El) as (A1 & A2 & A3).
        destruct (alloc_ok (mem s) (Nd (Some (k, v)) (repeat None (if maxLevel s <? (if level s <=? randomLevel s r then randomLevel s r + 1 else level s) then maxLevel s else if level s <=? randomLevel s r then randomLevel s r + 1 else level s)))) as (B1 & B2 & _).
        constructor; cbn [header mem] in *; auto.
        - split; cbn [mem]; [rewrite A3, app_length; lia|]. intros a Ha HX. split; [|rewrite A2; now apply B2]. rewrite A1; [now apply B1|lia|].
          intros i <-. apply HX. pose proof (upd_in s P R i I) as [X|X]; [now left|right]. rewrite ids_app. apply in_or_app. auto.
        - intros c' Hin Hlt. exists c'. split; auto. apply in_app_or in Hin as [X|[<-|X]]; [apply in_or_app; auto|lia|apply in_or_app; auto].
        - intros c0 c' Hin Hge H0. apply in_app_or in Hin as [X|[<-|X]]; [| |]; [pose proof (cell_lt _ _ _ I (in_or_app P R c' (or_introl X))); lia| |pose proof (cell_lt _ _ _ I (in_or_app P R c' (or_intror X))); lia].
          rewrite C1. cbn [fst]. apply (in_map ckv) in H0. destruct (same ltb (fst (ckv c0)) k) eqn:Hs; auto. exfalso.
          assert (Y : In (ckv c0) (sames ltb k (ents (P ++ R)))) by (apply filter_In; auto). rewrite <- H2 in Y. destruct Y. }
      pose proof (hd_after ltb cmp Hc s P R k I (fun c => after_R ltb k R (P ++ R) c H3)) as Hh.
      assert (F : Some (s1, None) = Some (s', o) -> exists L', SI s' L' /\ chg s (P ++ R) s' L') by (intros Y; injection Y as <- _; eauto).
      destruct R as [|c0 R]; cbn [hd_id hd_error option_map] in *; auto. destruct Hh as (e & -> & ->). auto.
    - rewrite (cell_entry ltb s P c R I), (cmp_eq ltb cmp Hc), Hsame. destruct (setv_SI ltb s P c R v I) as (m' & E & I'). rewrite E. intros H. injection H as <- _. eexists. split; [exact I'|].
      destruct (setv_ok (mem s) (cid c) v (ckv c) (cell_entry ltb _ _ _ _ I)) as (m1 & E1 & A1 & A2 & A3 & A4 & A5). rewrite E in E1. injection E1 as <-. constructor; cbn [header mem]; auto.
      + split; cbn [mem]; [lia|]. intros a Ha HX. split; auto. apply A2. intros ->. apply HX. right. rewrite ids_app. apply in_or_app. right. now left.
      + intros c' Hin _. apply in_app_or in Hin as [X|[<-|X]]; [exists c'; split; auto; apply in_or_app; auto|exists c; split; auto; apply in_or_app; right; now left|exists c'; split; auto; apply in_or_app; right; now right].
      + intros c0 c' Hin Hge _. pose proof (cell_lt _ _ _ I' Hin) as X. cbn [mem] in X. lia.
  Qed.
  Lemma clear_change s L : SI s L -> exists L', SI (clear s) L' /\ chg s L (clear s) L'.
  Proof.
    intros I. exists []. split.
    - destruct (sk_sim ltb W cmp Hc s (ents L) KClear (ex_intro _ L (conj I eq_refl))) as (s' & E & (L' & I' & E')). cbn in E. injection E as <-. cbn in E'. apply map_eq_nil in E'. now subst L'.
    - destruct (alloc_ok (mem s) (Nd None (repeat None MaxLevel))) as (A1 & A2 & _). constructor; cbn [clear header mem].
      + now right.
      + split; cbn [clear mem]; [rewrite app_length; lia|auto].
      + intros ? [].
      + intros ? ? [].
  Qed.

  Lemma step_change s L o s' r : SI s L -> sk_step cmp s o = Some (s', r) -> exists L', SI s' L' /\ chg s L s' L'.
  Proof.
    intros I H. assert (Stay : s = s' -> exists L', SI s' L' /\ chg s L s' L') by (intros <-; eauto using chg_refl).
    assert (Rl : rel ltb s (ents L)) by (exists L; auto). destruct o; cbn [sk_step] in H.
    1-3: destruct (put cmp s k v r0) as [(s1, o)|] eqn:E; [|discriminate]; injection H as <- _; eapply put_change; eauto.
    - destruct (search _ _ _); [|discriminate]. injection H as H _. auto.
    - destruct (remove cmp s k) as [(s1, o)|] eqn:E; [|discriminate]. injection H as <- _. eapply remove_change; eauto.
    - destruct (removeHead cmp s) as [(s1, o)|] eqn:E; [|discriminate]. injection H as <- _. unfold removeHead in E. destruct (size s =? 0)%Z; [injection E as E _; auto|].
      destruct (getf _ _ _) as [[b|]|]; try discriminate. destruct (entry _ _); [|discriminate]. eapply remove_change; eauto.
    - destruct (removeTail cmp s) as [(s1, o)|] eqn:E; [|discriminate]. injection H as <- _. unfold removeTail in E. destruct (size s =? 0)%Z; [injection E as E _; auto|].
      rewrite (first_cell ltb s L I) in E. destruct L as [|c L]; [discriminate|]. cbn [hd_id hd_error option_map] in E.
      rewrite (lastNode_ok ltb s L [] c (fuel (mem s)) I) in E by (pose proof (all_fuel ltb s _ I) as F; cbn [length] in F; lia).
      destruct (rsplit c L) as (P & E' & E''). rewrite E'' in E. rewrite E' in I |- *. eapply removeNode_change; eauto.
    - destruct (headEntry s); [|discriminate]. injection H as H _. auto.
    - destruct (tailEntry s); [|discriminate]. injection H as H _. auto.
    - injection H as <- _. now apply clear_change.
    - injection H as H _. auto.
    - destruct (getf _ _ _); [|discriminate]. destruct (traverse _ _ _ _ _); [|discriminate]. injection H as H _. auto.
    - destruct (slice s); [|discriminate]. injection H as H _. auto.
    - destruct (slice s); [|discriminate]. injection H as H _. auto.
    - destruct (index s i); [|discriminate]. injection H as H _. auto.
    - destruct (getf _ _ _); [|discriminate]. destruct (indexOf _ _ _ _ _ _); [|discriminate]. injection H as H _. auto.
    - destruct (removeIndex cmp s i) as [(s1, o)|] eqn:E; [|discriminate]. injection H as <- _. unfold removeIndex in E. pose proof (si_size _ _ _ I) as Hz.
      destruct (Z.ltb_spec i 0); [injection E as E _; auto|]. destruct (Z.leb_spec (size s) i); [injection E as E _; auto|]. cbn [orb] in E.
      rewrite (first_cell ltb s L I), (walk_ok ltb s (Z.to_nat i) [] L I) in E by lia. destruct (skipn (Z.to_nat i) L) as [|c R] eqn:ER; cbn [hd_id hd_error option_map] in E; [injection E as E _; auto|].
      rewrite <- (firstn_skipn (Z.to_nat i) L), ER in I |- *. eapply removeNode_change; eauto.
    - destruct (removeRangeByIndex cmp s i j) as [s1|] eqn:E; [|discriminate]. injection H as <- _. unfold removeRangeByIndex in E. pose proof (si_size _ _ _ I) as Hz.
      set (lo := if (i <? 0)%Z then 0%Z else i) in *. set (hi := if (size s <=? j)%Z then (size s - 1)%Z else j) in *.
      assert (Hlo : (0 <= lo)%Z) by (unfold lo; destruct (Z.ltb_spec i 0); lia). assert (Hhi : (hi < size s)%Z) by (unfold hi; destruct (Z.leb_spec (size s) j); lia). clearbody lo hi.
      destruct (Z.ltb_spec hi lo); [injection E as E; auto|]. rewrite (first_cell ltb s L I), (walk_ok ltb s (Z.to_nat lo) [] L I) in E by lia.
      pose proof I as I0. rewrite <- (firstn_skipn (Z.to_nat lo) L) in I. destruct (removeRange_change _ _ _ _ _ I E) as (I' & Hh & Hk). eexists. split; [exact I'|]. apply chg_sub; auto.
      + eapply kept_mono; [|exact Hk]. intros a. apply in_ids_app.
      + intros x Hx. rewrite <- (firstn_skipn (Z.to_nat lo) L). rewrite in_app_iff in *. destruct Hx as [Hx|Hx]; auto. right. rewrite <- (firstn_skipn (Z.to_nat (hi - lo + 1)) (skipn (Z.to_nat lo) L)). apply in_or_app. auto.
    - destruct (trim cmp s lo hi) as [s1|] eqn:E; [|discriminate]. injection H as <- _. unfold trim in E. rewrite (slice_ok ltb s _ Rl) in E.
      rewrite <- (labels_by (fun e => (cmp (fst e) lo <? 0) || (0 <? cmp (fst e) hi))%Z L) in E.
      assert (EL : map snd (map (fun c => (((cmp (fst (ckv c)) lo <? 0) || (0 <? cmp (fst (ckv c)) hi))%Z, c)) L) = L) by (rewrite map_map; apply map_id).
      rewrite <- EL in I |- *. eapply removeAll_labels; eauto.
    - destruct (trimByIndex cmp s i j) as [s1|] eqn:E; [|discriminate]. injection H as <- _. unfold trimByIndex in E.
      destruct (Z.ltb _ _) in E; [injection E as E; auto|]. rewrite (slice_ok ltb s _ Rl) in E.
      match type of E with removeAll _ _ (outsiders ?a ?b _ _) = _ => destruct (numbered_ok a b L 0%Z) as (E1 & E2) end. rewrite <- E2 in E. rewrite <- E1 in I |- *. eapply removeAll_labels; eauto.
  Qed.

  (** ** The calls of the iterators *)
  Lemma PR_hd s P R : PR s (P ++ R) (hd_id R) (first_of (ents R)).
  Proof. destruct R as [|c R]; cbn; constructor. apply in_or_app. right. now left. Qed.
  Lemma PR_last s P R h : PR s (P ++ R) (match P with [] => None | _ => Some (lastid h P) end) (last_of (ents P)).
  Proof.
    destruct P as [|c P _] using rev_ind; [constructor|]. unfold last_of. rewrite last_ents, lastid_snoc. replace (match P ++ [c] with [] => None | _ => Some (cid c) end) with (Some (cid c)) by now destruct P.
    constructor. apply in_or_app. left. apply in_or_app. right. now left.
  Qed.
  Lemma PR_valid s L n p : PR s L n p -> valid n = match p with Nowhere => false | _ => true end.
  Proof. now intros []. Qed.
  Lemma findPrev_miss s a : forall R P f h, SI s (P ++ R) -> ~ In a (ids R) -> length R < f -> findPrev f (mem s) (Some a) h (hd_id R) = Some (lastid h R, None).
  Proof.
    induction R as [|c R IH]; intros P f h I Hn Hf; (destruct f as [|f]; [lia|]); cbn [findPrev hd_id hd_error option_map]; [reflexivity|]. cbn [peqb].
    replace (cid c =? a) with false by (symmetry; apply Nat.eqb_neq; intros <-; apply Hn; now left). rewrite (next_of ltb s P c R I), lastid_cons.
    apply (IH (P ++ [c])); [now rewrite <- app_assoc|intros X; apply Hn; now right|cbn in Hf; lia].
  Qed.
  Lemma passed_at s P R go : SI s (P ++ R) -> splits go P R -> passed s go = Some (match P with [] => None | _ => Some (lastid (header s) P) end).
  Proof. intros I Sp. unfold passed. rewrite (descend_top ltb s P R go I Sp), (lastid_hdr ltb s P R I). now destruct P. Qed.
  Lemma upto_ents s L P M R k : SI s L -> L = P ++ M ++ R -> ents P = before ltb k (ents L) -> ents M = sames ltb k (ents L) ->
    ents R = after ltb k (ents L) -> upto ltb k (ents L) = ents (P ++ M).
  Proof.
    intros I E H1 H2 H3.
    assert (F : forall e, In e (ents (P ++ M)) -> ltb k (fst e) = false).
    { intros e He. rewrite ents_app in He. apply in_app_or in He as [He|He].
      - rewrite H1 in He. apply before_in in He as (_ & He). now apply (lt_asym ltb W).
      - rewrite H2 in He. apply filter_In in He as (_ & He). apply same_iff in He. tauto. }
    unfold upto. rewrite E at 1. rewrite app_assoc, ents_app, filter_app. rewrite filter_all by (intros e He; rewrite (F e He); auto).
    rewrite filter_none; [apply app_nil_r|]. intros e He. rewrite H3 in He. apply after_in in He as (_ & ->). reflexivity.
  Qed.
  Lemma cell_cut s P c R : SI s (P ++ c :: R) -> let m := ents (P ++ c :: R) in let k := fst (ckv c) in
    before ltb k m = ents P /\ sames ltb k m = [ckv c] /\ after ltb k m = ents R.
  Proof.
    cbv zeta. intros I. pose proof (si_sorted _ _ _ I) as Sd. rewrite ents_app in Sd |- *. change (ents (c :: R)) with (ckv c :: ents R) in *.
    apply (cut_same_strict ltb W (ents P) (ckv c) (ents R) (fst (ckv c)) (same_refl ltb W _) Sd).
  Qed.
  Lemma back_ok s P R h i : SI s (P ++ R) -> let it := if match P with [] => true | _ => false end then It None i else It (Some (lastid h P)) (i - 1) in
    let q := last_of (ents P) in PR s (P ++ R) (inode it) q /\ iindex it = match q with Nowhere => i | _ => (i - 1)%Z end.
  Proof.
    cbv zeta. intros I. pose proof (PR_last s P R h) as X. pose proof (PR_valid _ _ _ _ X) as Y. destruct P as [|c P]; cbn [inode iindex valid] in *.
    - auto.
    - split; auto. now destruct (last_of (ents (c :: P))).
  Qed.
  Lemma iter_step s L it p o : SI s L -> PR s L (inode it) p -> exists it', let st := ch_iter ltb (ents L) (p, iindex it) o in
    ski_step cmp s it o = Some (it', snd st) /\ PR s L (inode it') (fst (fst st)) /\ iindex it' = snd (fst st).
  Proof.
    intros I HP. assert (Fuel : forall P R, L = P ++ R -> length P < fuel (mem s)) by (intros P R E; pose proof (all_fuel ltb s _ I) as F; rewrite E, app_length in F; lia).
    destruct o; cbn [ski_step ch_iter fst snd].
    - rewrite (first_cell ltb s L I). eexists. split; [reflexivity|]. split; auto. apply (PR_hd s [] L).
    - rewrite (first_cell ltb s L I). destruct L as [|c L0]; cbn [hd_id hd_error option_map ents map]; [eexists; split; [reflexivity|]; split; auto; constructor|].
      rewrite (lastNode_ok ltb s L0 [] c (fuel (mem s)) I) by (pose proof (all_fuel ltb s _ I) as F; cbn [length] in F; lia). eexists. split; [reflexivity|]. cbn [inode iindex]. split.
      + pose proof (PR_last s (c :: L0) [] 0) as X. rewrite app_nil_r, lastid_cons in X. exact X.
      + rewrite (si_size _ _ _ I). unfold len. cbn [length]. now rewrite map_length.
    - inversion HP as [E1 E2|c Hin E1 E2|a e n p' Ha Hn He Hf H E1 E2]; cbn [fst snd].
      + exists it. rewrite <- E1. auto using PR_none.
      + apply List.in_split in Hin as (P & R & E). rewrite E in I |- *. destruct (cell_cut s P c R I) as (_ & _ & ->). rewrite (next_of ltb s P c R I). eexists. split; [reflexivity|]. split; auto.
        cbn [inode]. pose proof (PR_hd s (P ++ [c]) R) as X. now rewrite <- app_assoc in X.
      + rewrite Hf. eexists. split; [reflexivity|]. auto.
    - unfold iprev. rewrite (first_cell ltb s L I). inversion HP as [E1 E2|c Hin E1 E2|a e n p' Ha Hn He Hf H E1 E2]; cbn [fst snd].
      + pose proof (findPrev_ok ltb s (header s) L [] [] (fuel (mem s))) as F. cbn [app] in F. rewrite app_nil_r in F. specialize (F I (all_fuel ltb s L I)). change (hd_id []) with (@None nat) in F.
        change (lastid (header s) []) with (header s) in F. rewrite F. cbn [peqb]. pose proof (lastid_hdr ltb s L []) as Hl. rewrite app_nil_r in Hl. rewrite (Hl I).
        eexists. split; [reflexivity|]. pose proof (back_ok s L [] (header s) (iindex it)) as X. rewrite app_nil_r in X. destruct (X I) as (X1 & X2). rewrite X2. now destruct (last_of (ents L)).
      + apply List.in_split in Hin as (P & R & E). assert (I' := I). rewrite E in I'. pose proof (findPrev_ok ltb s (header s) P [] (c :: R) (fuel (mem s)) I' (Fuel _ _ E)) as F. cbn [app] in F.
        change (lastid (header s) []) with (header s) in F. rewrite <- E in F. change (hd_id (c :: R)) with (Some (cid c)) in F. rewrite F. cbn [peqb]. rewrite Nat.eqb_refl, (lastid_hdr ltb s P (c :: R) I').
        eexists. split; [reflexivity|]. rewrite E. destruct (cell_cut s P c R I') as (-> & _ & _). destruct (back_ok s P (c :: R) (header s) (iindex it) I') as (X1 & X2). rewrite X2. now destruct (last_of (ents P)).
      + rewrite (findPrev_miss s a L [] _ _ I); [|intros X; apply Hn; now right|now apply all_fuel with (ltb := ltb)]. cbn [peqb]. eexists. split; [reflexivity|]. split; auto. constructor.
    - destruct (cut ltb W s L k I) as (P0 & M0 & R0 & E0 & H1 & H2 & H3). pose proof (cut_R ltb W k P0 M0 R0 L E0 H2 H3) as HR.
      assert (Sp : splits (below cmp k) P0 (M0 ++ R0)) by (eapply (splits_below ltb cmp Hc); eauto). unfold from. rewrite <- H2, <- H3, <- ents_app. rewrite E0 in I |- *.
      rewrite (descend_top ltb s P0 (M0 ++ R0) _ I Sp), (next_cell _ _ P0 (M0 ++ R0) (si_mem _ _ _ I)). pose proof (PR_hd s P0 (M0 ++ R0)) as X. rewrite <- (PR_valid _ _ _ _ X). eexists. split; [reflexivity|]. auto.
    - destruct (cut ltb W s L k I) as (P0 & M0 & R0 & E0 & H1 & H2 & H3). pose proof (splits_upto ltb W cmp Hc k P0 M0 R0 L E0 H1 H2 H3) as Sp. rewrite <- H3. rewrite E0, app_assoc in I |- *.
      rewrite (descend_top ltb s _ R0 _ I Sp), (next_cell _ _ _ R0 (si_mem _ _ _ I)). pose proof (PR_hd s (P0 ++ M0) R0) as X. rewrite <- (PR_valid _ _ _ _ X). eexists. split; [reflexivity|]. auto.
    - destruct (cut ltb W s L k I) as (P0 & M0 & R0 & E0 & H1 & H2 & H3). pose proof (splits_upto ltb W cmp Hc k P0 M0 R0 L E0 H1 H2 H3) as Sp.
      rewrite (upto_ents s L P0 M0 R0 k I E0 H1 H2 H3). rewrite E0, app_assoc in I |- *. rewrite (passed_at s _ _ _ I Sp). pose proof (PR_last s (P0 ++ M0) R0 (header s)) as X. rewrite <- (PR_valid _ _ _ _ X). eexists. split; [reflexivity|]. auto.
    - destruct (cut ltb W s L k I) as (P0 & M0 & R0 & E0 & H1 & H2 & H3). pose proof (cut_R ltb W k P0 M0 R0 L E0 H2 H3) as HR.
      assert (Sp : splits (below cmp k) P0 (M0 ++ R0)) by (eapply (splits_below ltb cmp Hc); eauto). rewrite <- H1. rewrite E0 in I |- *. rewrite (passed_at s _ _ _ I Sp). pose proof (PR_last s P0 (M0 ++ R0) (header s)) as X. rewrite <- (PR_valid _ _ _ _ X). eexists. split; [reflexivity|]. auto.
    - pose proof (rel_size ltb s _ (ex_intro _ L (conj I eq_refl))) as Hz. rewrite Hz, index_in. unfold in_list. destruct ((0 <=? i) && (i <? len (ents L)))%Z eqn:B; cbn [negb fst snd].
      + apply andb_true_iff in B as (B1 & B2). apply Z.leb_le in B1. apply Z.ltb_lt in B2. rewrite (first_cell ltb s L I). rewrite len_ents in B2. rewrite (walk_ok ltb s (Z.to_nat i) [] L I) by lia.
        eexists. split; [reflexivity|]. split; auto. cbn [inode]. rewrite skipn_ents. pose proof (PR_hd s (firstn (Z.to_nat i) L) (skipn (Z.to_nat i) L)) as X. now rewrite firstn_skipn in X.
      + eexists. split; [reflexivity|]. split; auto. constructor.
    - rewrite (PR_valid _ _ _ _ HP). exists it. auto.
    - exists it. cbn [read_at]. split; auto. inversion HP as [E1 E2|c Hin E1 E2|a e n p' Ha Hn He Hf H E1 E2]; cbn [read_at]; auto.
      + apply List.in_split in Hin as (P & R & E). rewrite E in I |- *. destruct (cell_cut s P c R I) as (_ & -> & _). now rewrite (cell_entry ltb s P c R I).
      + now rewrite He.
    - exists it. auto.
  Qed.

  (** ** Everything together *)
  Definition stands s L (it : iterator) (st : place K V * Z) : Prop := PR s L (inode it) (fst st) /\ iindex it = snd st.
  Definition ch_rel (st : skiplist K V * (nat -> iterator)) (sp : list (K * V) * (nat -> place K V * Z)) : Prop :=
    exists L, SI (fst st) L /\ ents L = fst sp /\ forall j, stands (fst st) L (snd st j) (snd sp j).
  Lemma set_stands s L (its : nat -> iterator) (ps : nat -> place K V * Z) j it st : (forall j, stands s L (its j) (ps j)) -> stands s L it st ->
    forall i, stands s L (set_at j it its i) (set_at j st ps i).
  Proof. intros H H' i. unfold set_at. now destruct (i =? j). Qed.
  Theorem ch_sim st sp o : ch_rel st sp -> exists st', ch_step cmp st o = Some (st', snd (ch_spec ltb sp o)) /\ ch_rel st' (fst (ch_spec ltb sp o)).
  Proof.
    destruct st as [s its], sp as [m ps]. intros (L & I & EL & H). cbn [fst snd] in *. subst m. destruct o as [o|j o|j|i j|j]; cbn [ch_step ch_spec].
    - destruct (sk_sim ltb W cmp Hc s (ents L) o (ex_intro _ L (conj I eq_refl))) as (s' & E & Rl). rewrite E. destruct (step_change s L o s' _ I E) as (L' & I' & Ch).
      assert (EL : ents L' = fst (sk_spec ltb (ents L) o)).
      { pose proof (slice_ok ltb s' _ Rl) as X. rewrite (slice_ok ltb s' (ents L') (ex_intro _ L' (conj I' eq_refl))) in X. now injection X. }
      destruct (sk_spec ltb (ents L) o) as [m' r]. cbn [fst snd] in *. eexists. split; [reflexivity|]. exists L'. cbn [fst snd]. split; auto. split; auto. intros j. destruct (H j) as (H1 & H2).
      split; cbn [fst snd]; auto. rewrite <- EL. now apply (PR_moved s).
    - destruct (H j) as (H1 & H2). destruct (iter_step s L (its j) (fst (ps j)) o I H1) as (it & E & H3 & H4). rewrite E. rewrite H2 in *. rewrite <- surjective_pairing in *.
      destruct (ch_iter ltb (ents L) (ps j) o) as [st r]. cbn [fst snd] in *. eexists. split; [reflexivity|]. exists L. cbn [fst snd]. split; auto. split; auto. apply set_stands; auto. split; auto.
    - destruct (H j) as (H1 & H2). rewrite H2. eexists. split; [reflexivity|]. exists L. auto.
    - eexists. split; [reflexivity|]. exists L. cbn [fst snd]. split; auto. split; auto. apply set_stands; auto. destruct (H i) as (H1 & H2). split; auto.
    - unfold newIterator. rewrite (first_cell ltb s L I). eexists. split; [reflexivity|]. exists L. cbn [fst snd]. split; auto. split; auto. apply set_stands; auto. split; auto. apply (PR_hd s [] L).
  Qed.
  Lemma ch_new_rel l : ch_rel (NewWithMaxLevel l, fun _ => It None 0) ([], fun _ => (Nowhere, 0%Z)).
  Proof. destruct (new_rel (V := V) ltb l) as (L & I & E). exists L. split; auto. split; auto. intros j. split; auto. constructor. Qed.
End Change.
