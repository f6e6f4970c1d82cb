(** Skip lists: the calls against the specification. *)
From Verif Require Import Base Bind Machine OrderSpec SMapSpec SMapFacts SkipSpec SkipModel SkipProofs.

Section Ops.
  Context {K V : Type} (ltb : K -> K -> bool) (W : weak_order ltb) (cmp : K -> K -> Z) (Hc : sign_cmp ltb cmp).
  Implicit Types (A B L P R M : list (cell K V)) (c : cell K V) (s : skiplist K V).
  Notation SI := (SI ltb).

  Lemma cmp_lt a b : (cmp a b <? 0)%Z = ltb a b.
  Proof. destruct (Hc a b) as (H1 & _). destruct (ltb a b); destruct (Z.ltb_spec (cmp a b) 0); auto; exfalso; [assert (cmp a b < 0)%Z; [tauto|lia]|assert (false = true); [tauto|discriminate]]. Qed.
  Lemma cmp_gt a b : (0 <? cmp a b)%Z = ltb b a.
  Proof. destruct (Hc a b) as (_ & H1). destruct (ltb b a); destruct (Z.ltb_spec 0 (cmp a b)); auto; exfalso; [assert (0 < cmp a b)%Z; [tauto|lia]|assert (false = true); [tauto|discriminate]]. Qed.
  Lemma cmp_le a b : (cmp a b <=? 0)%Z = negb (ltb b a).
  Proof. rewrite <- (cmp_gt a b). destruct (Z.leb_spec (cmp a b) 0), (Z.ltb_spec 0 (cmp a b)); auto; lia. Qed.
  Lemma cmp_eq a b : (cmp a b =? 0)%Z = same ltb a b.
  Proof. unfold same. rewrite <- (cmp_gt a b), <- (cmp_lt a b). destruct (Z.eqb_spec (cmp a b) 0), (Z.ltb_spec 0 (cmp a b)), (Z.ltb_spec (cmp a b) 0); auto; lia. Qed.

  (** ** Cutting at a key *)
  Lemma cut s L k : SI s L -> exists P M R, L = P ++ M ++ R /\ ents P = before ltb k (ents L) /\ ents M = sames ltb k (ents L) /\ ents R = after ltb k (ents L).
  Proof.
    intros I. pose proof (cut_all ltb W (ents L) k (strict_weak ltb W _ (si_sorted _ _ _ I))) as E. unfold ents in E at 1.
    apply map_eq_app in E as (P & L' & -> & E1 & E2). apply map_eq_app in E2 as (M & R & -> & E2 & E3). exists P, M, R. auto.
  Qed.
  Lemma in_ents c L : In c L -> In (ckv c) (ents L). Proof. apply in_map. Qed.
  Lemma splits_below k P R m : ents P = before ltb k m -> (forall c, In c R -> ltb (fst (ckv c)) k = false) -> splits (below cmp k) P R.
  Proof.
    intros H1 H2. unfold below. split; intros c Hin; rewrite cmp_lt; auto.
    apply in_ents in Hin. rewrite H1 in Hin. now apply before_in in Hin.
  Qed.
  Lemma cut_R k P M R L : L = P ++ M ++ R -> ents M = sames ltb k (ents L) -> ents R = after ltb k (ents L) -> forall c, In c (M ++ R) -> ltb (fst (ckv c)) k = false.
  Proof.
    intros -> H2 H3 c Hin. apply in_app_or in Hin as [X|X]; apply in_ents in X.
    - rewrite H2 in X. unfold sames in X. apply filter_In in X as (_ & X). apply same_iff in X. tauto.
    - rewrite H3 in X. apply after_in in X as (_ & X). now apply lt_asym.
  Qed.
  Lemma splits_upto k P M R L : L = P ++ M ++ R -> ents P = before ltb k (ents L) -> ents M = sames ltb k (ents L) -> ents R = after ltb k (ents L) ->
    splits (notAbove cmp k) (P ++ M) R.
  Proof.
    intros -> H1 H2 H3. unfold notAbove. split; intros c Hin; rewrite cmp_le.
    - apply in_app_or in Hin as [X|X]; apply in_ents in X.
      + rewrite H1 in X. apply before_in in X as (_ & X). apply (lt_asym ltb W) in X. now rewrite X.
      + rewrite H2 in X. apply filter_In in X as (_ & X). apply same_iff in X as (_ & X). now rewrite X.
    - apply in_ents in Hin. rewrite H3 in Hin. apply after_in in Hin as (_ & X). now rewrite X.
  Qed.
  Lemma ents_app A B : ents (A ++ B) = ents A ++ ents B. Proof. apply map_app. Qed.

  (** what is found after the entries below a key *)
  Lemma landing s L k : SI s L -> exists P M R, L = P ++ M ++ R /\ ents P = before ltb k (ents L) /\ ents M = sames ltb k (ents L) /\ ents R = after ltb k (ents L) /\
    descend (below cmp k) (mem s) (level s) (header s) = Some (lastid (header s) P, preds (header s) P (level s)) /\
    getf (mem s) (lastid (header s) P) 0 = Some (hd_id (M ++ R)) /\ (M = [] \/ exists c, M = [c] /\ same ltb (fst (ckv c)) k = true).
  Proof.
    intros I. destruct (cut s L k I) as (P & M & R & E & H1 & H2 & H3). exists P, M, R. do 4 (split; [auto|]).
    assert (Sp : splits (below cmp k) P (M ++ R)) by (eapply splits_below; [eauto|eapply cut_R; eauto]). subst L. split; [|split].
    - now apply (descend_top ltb s P (M ++ R)).
    - apply (next_cell _ _ _ _ (si_mem _ _ _ I)).
    - destruct (strict_sames ltb W _ k (si_sorted _ _ _ I)) as [X|(x & X)]; rewrite X in H2.
      + left. now apply map_eq_nil in H2.
      + right. destruct M as [|c [|]]; try discriminate. exists c. split; auto. assert (Hin : In (ckv c) (sames ltb k (ents (P ++ [c] ++ R)))) by (rewrite X, <- H2; now left).
        apply filter_In in Hin. tauto.
  Qed.
  Lemma hd_after s P R k : SI s (P ++ R) -> (forall c, In c R -> ltb k (fst (ckv c)) = true) -> match hd_id R with None => True | Some b => exists e, entry (mem s) b = Some e /\ (cmp (fst e) k =? 0)%Z = false end.
  Proof.
    intros I H. destruct R as [|c R]; cbn; auto. exists (ckv c). split; [apply (mo_good _ _ _ (si_mem _ _ _ I)); apply in_or_app; right; now left|].
    rewrite cmp_eq. unfold same. rewrite (H c) by now left. apply andb_false_r.
  Qed.
  Lemma after_R k R L c : ents R = after ltb k (ents L) -> In c R -> ltb k (fst (ckv c)) = true.
  Proof. intros H Hin. apply in_ents in Hin. rewrite H in Hin. now apply after_in in Hin. Qed.
  Lemma cell_entry s P c R : SI s (P ++ c :: R) -> entry (mem s) (cid c) = Some (ckv c).
  Proof. intros I. apply (mo_good _ _ _ (si_mem _ _ _ I)). apply in_or_app. right. now left. Qed.

  (** ** Put *)
  Lemma setv_SI s P c R v : SI s (P ++ c :: R) -> exists m', setv (mem s) (cid c) v = Some m' /\
    SI (SL m' (header s) (level s) (size s) (maxLevel s)) (P ++ C (cid c) (cht c) (fst (ckv c), v) :: R).
  Proof.
    intros I. destruct (setv_ok (mem s) (cid c) v (ckv c) (cell_entry _ _ _ _ I)) as (m' & E & A1 & A2 & A3 & A4 & A5). exists m'. split; auto.
    destruct I as [[M1 M2 M3 M4] S1 S2 S3 S4 S5]. destruct (mid_nodup _ _ _ _ M2) as (N1 & N2).
    assert (Hat : forall i, path (mem s) i (header s) (at_ i (P ++ c :: R)) -> path m' i (header s) (at_ i (P ++ C (cid c) (cht c) (fst (ckv c), v) :: R))).
    { intros i H. rewrite at_app, at_cons in *. apply path_app in H as (H1 & H2). apply path_app. split.
      - apply (seg_frame (mem s)); auto. rewrite ids_app in N1. inversion N1; subst. constructor; [|apply nodup_at; eapply nodup_l; eauto].
        intros X. apply H3. apply in_or_app. left. eapply ids_at; eauto.
      - cbn [cht]. destruct (i <? cht c); cbn [app path cid] in *.
        + destruct H2 as (H2 & H3). split; [now rewrite A3|]. apply (path_frame (mem s) m' i _ (cid c)); auto.
        + apply (path_frame (mem s) m' i _ (lastid (header s) (at_ i P))); auto. }
    constructor; cbn [mem header level size maxLevel]; auto.
    - constructor; auto.
      + rewrite A4; auto.
      + replace (ids (P ++ C (cid c) (cht c) (fst (ckv c), v) :: R)) with (ids (P ++ c :: R)); auto. rewrite !ids_app. reflexivity.
      + intros x Hx. apply in_app_or in Hx as [X|[<-|X]].
        * apply (good_frame (mem s)); auto; [|apply M3; apply in_or_app; auto]. apply A2. intros Y. apply N2. right. rewrite <- Y, ids_app. apply in_or_app. left. now apply in_map.
        * destruct (M3 c) as (_ & G2 & (l & G3 & G4) & G5); [apply in_or_app; right; now left|]. split; [exact A1|]. cbn [cht cid]. split; auto.
          split; [exists l; rewrite A4; auto|]. intros i p Hi. cbn [cid]. rewrite A3. now apply G5.
        * apply (good_frame (mem s)); auto; [|apply M3; apply in_or_app; right; now right]. apply A2. intros Y. apply N2. right. rewrite <- Y, ids_app. apply in_or_app. right. now apply in_map.
    - rewrite ents_app in *. cbn [ents map ckv] in *. unfold strictly_sorted in *. apply ssorted_app in S1 as (X1 & X2 & X3). apply ssorted_app. inversion X2 as [|? ? Y1 Y2]; subst.
      split; auto. split.
      + constructor; auto.
      + intros a b Ha [<-|Hb]; [apply (X3 a (ckv c)); auto; now left|apply X3; auto; now right].
    - intros x Hx. apply in_app_or in Hx as [X|[<-|X]]; [apply S4; apply in_or_app; auto|cbn; apply S4; apply in_or_app; right; now left|apply S4; apply in_or_app; right; now right].
    - rewrite S5, !app_length. reflexivity.
  Qed.
  Definition rel s (m : list (K * V)) : Prop := exists L, SI s L /\ ents L = m.

  Theorem put_ok s m k v r : rel s m -> exists s', put cmp s k v r = Some (s', hd_error (sames ltb k m)) /\ rel s' (sput ltb k v m).
  Proof.
    intros (L & I & <-). destruct (landing s L k I) as (P & M & R & E & H1 & H2 & H3 & D & N & HM). unfold put. rewrite D, N. unfold sput. rewrite <- H2. subst L.
    destruct HM as [->|(c & -> & Hsame)]; cbn [app hd_id hd_error option_map] in *.
    - assert (Ins : exists s' c, insert s (preds (header s) P (level s)) k v r = Some s' /\ ckv c = (k, v) /\ SI s' (P ++ c :: R) /\ maxLevel s' = maxLevel s /\ cid c = length (mem s)).
      { apply (insert_ok ltb); auto. rewrite H1, H3. change (before ltb k (ents (P ++ R)) ++ (k, v) :: after ltb k (ents (P ++ R))) with (write ltb k (k, v) (ents (P ++ R))).
        apply write_sorted; auto; [now apply same_refl|apply (si_sorted _ _ _ I)]. }
      destruct Ins as (s' & c & E' & C1 & I' & _). rewrite E'.
      pose proof (hd_after s P R k I (fun c => after_R k R (P ++ R) c H3)) as Hh.
      assert (Rl : rel s' (write ltb k (k, v) (ents (P ++ R)))).
      { exists (P ++ c :: R). split; auto. unfold write. rewrite ents_app. cbn [ents map]. rewrite C1. rewrite <- H1, <- H3. reflexivity. }
      destruct R as [|c0 R]; cbn [hd_id hd_error option_map] in *; [exists s'; auto|]. destruct Hh as (e & -> & ->). exists s'. auto.
    - rewrite (cell_entry s P c R I). rewrite cmp_eq, Hsame. destruct (setv_SI s P c R v I) as (m' & -> & I'). eexists. split; [reflexivity|].
      exists (P ++ C (cid c) (cht c) (fst (ckv c), v) :: R). split; auto. rewrite ents_app. cbn [ents map ckv]. destruct (ckv c) as [k0 v0]. unfold write. rewrite <- H1, <- H3. reflexivity.
  Qed.

  (** ** Get, Remove *)
  Theorem search_ok s m k : rel s m -> search cmp s k = Some (hd_error (sames ltb k m)).
  Proof.
    intros (L & I & <-). destruct (landing s L k I) as (P & M & R & E & H1 & H2 & H3 & D & N & HM). unfold search. rewrite D, N. rewrite <- H2. subst L.
    destruct HM as [->|(c & -> & Hsame)]; cbn [app hd_id hd_error option_map] in *.
    - pose proof (hd_after s P R k I (fun c => after_R k R (P ++ R) c H3)) as Hh. destruct R as [|c0 R]; cbn [hd_id hd_error option_map] in *; auto. destruct Hh as (e & -> & ->). auto.
    - rewrite (cell_entry s P c R I). rewrite cmp_eq, Hsame. reflexivity.
  Qed.
  Theorem remove_ok s m k : rel s m -> exists s', remove cmp s k = Some (s', hd_error (sames ltb k m)) /\ rel s' (erase ltb k m).
  Proof.
    intros (L & I & <-). destruct (landing s L k I) as (P & M & R & E & H1 & H2 & H3 & D & N & HM). unfold remove. rewrite D, N. rewrite <- H2. unfold erase. rewrite <- H1, <- H3. subst L.
    destruct HM as [->|(c & -> & Hsame)]; cbn [app hd_id hd_error option_map] in *.
    - pose proof (hd_after s P R k I (fun c => after_R k R (P ++ R) c H3)) as Hh. exists s.
      assert (rel s (ents P ++ ents R)) by (exists (P ++ R); split; auto; apply ents_app).
      destruct R as [|c0 R]; cbn [hd_id hd_error option_map] in *; auto. destruct Hh as (e & -> & ->). auto.
    - rewrite (cell_entry s P c R I). rewrite cmp_eq, Hsame. destruct (takeOut_ok ltb s P c R _ I eq_refl) as (s' & -> & I' & E' & _). rewrite E'.
      exists s'. split; auto. exists (P ++ R). split; auto. apply ents_app.
  Qed.

  (** ** Positions *)
  Lemma first_cell s L : SI s L -> getf (mem s) (header s) 0 = Some (hd_id L).
  Proof. intros I. apply (next_cell (mem s) (header s) [] L). exact (si_mem _ _ _ I). Qed.
  Lemma next_of s P c R : SI s (P ++ c :: R) -> getf (mem s) (cid c) 0 = Some (hd_id R).
  Proof.
    intros I. pose proof (si_mem _ _ _ I) as M. replace (P ++ c :: R) with ((P ++ [c]) ++ R) in M by (rewrite <- app_assoc; auto).
    apply next_cell in M. now rewrite lastid_snoc in M.
  Qed.
  Lemma all_fuel s L : SI s L -> length L < fuel (mem s).
  Proof.
    intros I. destruct (si_mem _ _ _ I) as [_ N G _]. inversion N; subst. pose proof (few_ids _ _ G ltac:(auto)). unfold fuel. lia.
  Qed.
  Lemma lastNode_ok s R : forall P c f, SI s (P ++ c :: R) -> length R < f -> lastNode f (mem s) (cid c) = Some (lastid (cid c) R).
  Proof.
    induction R as [|c' R IH]; intros P c f I Hf; (destruct f as [|f]; [lia|]); cbn [lastNode]; rewrite (next_of s P c _ I); cbn [hd_id hd_error option_map]; auto.
    rewrite (IH (P ++ [c]) c' f); [now rewrite lastid_cons|now rewrite <- app_assoc|cbn in Hf; lia].
  Qed.
  Lemma walk_ok s i : forall P R, SI s (P ++ R) -> i <= length R -> walk (mem s) i (hd_id R) = Some (hd_id (skipn i R)).
  Proof.
    induction i as [|i IH]; intros P R I Hi; cbn [walk]; [reflexivity|]. destruct R as [|c R]; [cbn in Hi; lia|]. cbn [hd_id hd_error option_map next].
    rewrite (next_of s P c R I). cbn [skipn]. apply (IH (P ++ [c])); [now rewrite <- app_assoc|cbn in Hi; lia].
  Qed.
  Lemma collect_ok s R : forall P f, SI s (P ++ R) -> length R < f -> collect f (mem s) (hd_id R) = Some (ents R).
  Proof.
    induction R as [|c R IH]; intros P f I Hf; (destruct f as [|f]; [lia|]); cbn [collect hd_id hd_error option_map]; auto.
    rewrite (cell_entry s P c R I), (next_of s P c R I). rewrite (IH (P ++ [c]) f); [reflexivity|now rewrite <- app_assoc|cbn in Hf; lia].
  Qed.
  Lemma slice_ok s m : rel s m -> slice s = Some m.
  Proof. intros (L & I & <-). unfold slice. rewrite (first_cell s L I). apply (collect_ok s L []); auto. now apply all_fuel. Qed.
  Lemma traverse_ok s go R : forall P f seen, SI s (P ++ R) -> length R < f -> traverse f (mem s) go (hd_id R) seen = Some (visit go seen (ents R)).
  Proof.
    induction R as [|c R IH]; intros P f seen I Hf; (destruct f as [|f]; [lia|]); cbn [traverse hd_id hd_error option_map]; auto.
    rewrite (cell_entry s P c R I), (next_of s P c R I). cbn [ents map visit]. destruct (go (seen ++ [ckv c])); auto.
    apply (IH (P ++ [c]) f); [now rewrite <- app_assoc|cbn in Hf; lia].
  Qed.
  Lemma indexOf_ok s k R : forall P f idx, SI s (P ++ R) -> length R < f ->
    indexOf cmp f (mem s) k (hd_id R) idx = Some (match sames ltb k (ents R) with [] => -1 | _ => idx + len (before ltb k (ents R)) end)%Z.
  Proof.
    induction R as [|c R IH]; intros P f idx I Hf; (destruct f as [|f]; [lia|]); cbn [indexOf hd_id hd_error option_map]; auto.
    rewrite (cell_entry s P c R I), (next_of s P c R I), cmp_eq. change (ents (c :: R)) with (ckv c :: ents R). unfold sames, before. cbn [filter].
    pose proof (si_sorted _ _ _ I) as Sd. rewrite ents_app in Sd. change (ents (c :: R)) with (ckv c :: ents R) in Sd. apply ssorted_app in Sd as (_ & Sd & _). inversion Sd as [|? ? _ Sd2]; subst.
    rewrite Forall_forall in Sd2.
    destruct (same ltb (fst (ckv c)) k) eqn:E.
    - apply same_iff in E as (E1 & E2). rewrite E1. f_equal. rewrite filter_none; [unfold len; cbn; lia|].
      intros x Hx. apply (lt_asym ltb W). apply (le_lt ltb W _ (fst (ckv c))); auto.
    - rewrite (IH (P ++ [c]) f (idx + 1)%Z); [|now rewrite <- app_assoc|cbn in Hf; lia]. unfold sames, before. destruct (filter (fun e => same ltb (fst e) k) (ents R)) as [|x l] eqn:F; auto.
      f_equal. assert (Hx : In x (filter (fun e => same ltb (fst e) k) (ents R))) by (rewrite F; now left). apply filter_In in Hx as (Hx1 & Hx2).
      specialize (Sd2 x Hx1). rewrite <- (same_lt_r ltb W _ _ (fst (ckv c)) Hx2), Sd2. unfold len. cbn [length]. lia.
  Qed.

  (** ** Removing nodes *)
  Lemma splits_at s P c R : SI s (P ++ c :: R) -> splits (notAt cmp (cid c) (fst (ckv c))) P (c :: R).
  Proof.
    intros I. pose proof (si_sorted _ _ _ I) as Sd. rewrite ents_app in Sd. change (ents (c :: R)) with (ckv c :: ents R) in Sd. apply ssorted_app in Sd as (_ & Sd1 & Sd2). inversion Sd1 as [|? ? _ Sd3]; subst.
    rewrite Forall_forall in Sd3. destruct (mid_nodup _ _ _ _ (mo_nodup _ _ _ (si_mem _ _ _ I))) as (_ & N). unfold notAt. split.
    - intros x Hx. rewrite cmp_lt. rewrite (Sd2 (ckv x) (ckv c)); [|now apply in_map|now left]. rewrite andb_true_r. apply negb_true_iff, Nat.eqb_neq.
      intros X. apply N. right. rewrite <- X, ids_app. apply in_or_app. left. now apply in_map.
    - intros x [<-|Hx]; [now rewrite Nat.eqb_refl|]. rewrite cmp_lt. rewrite (lt_asym ltb W _ _ (Sd3 (ckv x) ltac:(now apply in_map))). apply andb_false_r.
  Qed.
  Lemma removeNode_ok s P c R : SI s (P ++ c :: R) -> exists s', removeNode cmp s (cid c) = Some (s', Some (ckv c)) /\ SI s' (P ++ R).
  Proof.
    intros I. unfold removeNode. rewrite (cell_entry s P c R I). rewrite (restart_top ltb s P (c :: R) _ I (splits_at s P c R I)).
    rewrite (update_ok ltb s P (c :: R) 0 I).
    assert (E0 : at_ 0 P = P). { apply (at_zero (mem s)). intros x Hx. apply (mo_good _ _ _ (si_mem _ _ _ I)). apply in_or_app; auto. } rewrite E0.
    rewrite (next_cell _ _ P (c :: R) (si_mem _ _ _ I)). cbn [hd_id hd_error option_map peqb]. rewrite Nat.eqb_refl.
    destruct (takeOut_ok ltb s P c R _ I eq_refl) as (s' & -> & I' & E' & _). rewrite E'. exists s'. auto.
  Qed.
  Lemma removeRange_ok n : forall s P R, SI s (P ++ R) -> exists s', removeRange cmp s n (hd_id R) = Some s' /\ SI s' (P ++ skipn n R).
  Proof.
    induction n as [|n IH]; intros s P R I; cbn [removeRange]; [exists s; auto|]. destruct R as [|c R]; cbn [hd_id hd_error option_map]; [exists s; auto|].
    rewrite (cell_entry s P c R I), (next_of s P c R I), (descend_top ltb s P (c :: R) _ I (splits_at s P c R I)).
    destruct (takeOut_ok ltb s P c R _ I eq_refl) as (s' & -> & I' & _). destruct (IH s' P R I') as (s'' & E & I''). exists s''. auto.
  Qed.
  Lemma removeAll_ok l : forall s (D : list (K * V)), rel s (D ++ map snd l) ->
    exists s', removeAll cmp s (map (fun x => fst (snd x)) (filter fst l)) = Some s' /\ rel s' (D ++ map snd (filter (fun x : bool * (K * V) => negb (fst x)) l)).
  Proof.
    induction l as [|[b e] l IH]; intros s D H; cbn [filter map fst snd removeAll] in *; [exists s; auto|]. destruct b; cbn [negb map fst snd removeAll].
    - destruct (remove_ok s _ (fst e) H) as (s1 & -> & H1). apply IH.
      destruct H as (L & I & E). pose proof (si_sorted _ _ _ I) as Sd. rewrite E in Sd.
      destruct (cut_same_strict ltb W D e (map snd l) (fst e) (same_refl ltb W _) Sd) as (X1 & X2 & X3). unfold erase in H1. rewrite X1, X3 in H1. exact H1.
    - destruct (IH s (D ++ [e])) as (s' & E & H'); [now rewrite <- app_assoc|]. exists s'. split; auto. rewrite <- app_assoc in H'. exact H'.
  Qed.

  (** ** All calls *)
  Lemma rel_size s m : rel s m -> size s = len m.
  Proof. intros (L & I & <-). rewrite (si_size _ _ _ I). unfold len, ents. now rewrite map_length. Qed.
  Lemma skipn_add {T} a b : forall l : list T, skipn a (skipn b l) = skipn (b + a) l.
  Proof. induction b as [|b IH]; intros [|x l]; cbn [skipn plus]; auto. now rewrite !skipn_nil. Qed.
  Lemma skipn_ents n L : skipn n (ents L) = ents (skipn n L). Proof. apply skipn_map. Qed.
  Lemma firstn_ents n L : firstn n (ents L) = ents (firstn n L). Proof. apply firstn_map. Qed.
  Lemma last_ents P c : last_entry (ents (P ++ [c])) = Some (ckv c).
  Proof. unfold last_entry. rewrite ents_app, rev_app_distr. reflexivity. Qed.
  Lemma last_entry_ents c R : last_entry (ents (c :: R)) = Some (ckv (last R c)).
  Proof. destruct R as [|c' R _] using rev_ind; [reflexivity|]. rewrite last_last, app_comm_cons. apply last_ents. Qed.
  Lemma rsplit c R : exists P, c :: R = P ++ [last R c] /\ lastid (cid c) R = cid (last R c).
  Proof.
    destruct R as [|c' R _] using rev_ind; [exists []; split; reflexivity|]. exists (c :: R). rewrite last_last. split; [reflexivity|apply lastid_snoc].
  Qed.

  Lemma kept_filter (f : K * V -> bool) m : map snd (filter (fun x => negb (fst x)) (map (fun e => (f e, e)) m)) = filter (fun e => negb (f e)) m /\
    map (fun x => fst (snd x)) (filter fst (map (fun e => (f e, e)) m)) = map fst (filter f m) /\ map snd (map (fun e => (f e, e)) m) = m.
  Proof. induction m as [|e m (IH1 & IH2 & IH3)]; cbn [map filter fst snd]; auto. rewrite IH3. destruct (f e); cbn [negb map fst snd]; rewrite ?IH1, ?IH2; auto. Qed.
  Fixpoint label (lo hi idx : Z) (m : list (K * V)) : list (bool * (K * V)) :=
    match m with [] => [] | e :: m' => ((idx <? lo) || (hi <? idx), e)%Z :: label lo hi (idx + 1) m' end.
  Lemma label_ok lo hi m : forall idx, (0 <= idx)%Z -> map snd (label lo hi idx m) = m /\
    map (fun x => fst (snd x)) (filter fst (label lo hi idx m)) = outsiders lo hi idx m /\
    map snd (filter (fun x : bool * (K * V) => negb (fst x)) (label lo hi idx m)) = firstn (Z.to_nat (hi + 1 - Z.max lo idx)) (skipn (Z.to_nat (lo - idx)) m).
  Proof.
    induction m as [|e m IH]; intros idx Hi; cbn [label map filter fst snd outsiders].
    - rewrite skipn_nil, firstn_nil. auto.
    - destruct (IH (idx + 1)%Z ltac:(lia)) as (H1 & H2 & H3). rewrite H1. split; auto.
      destruct (Z.ltb_spec idx lo); cbn [orb negb map filter fst snd app].
      + rewrite H2. split; auto. rewrite H3. replace (Z.to_nat (lo - idx)) with (S (Z.to_nat (lo - (idx + 1)))) by lia. cbn [skipn]. now replace (Z.max lo (idx + 1)) with (Z.max lo idx) by lia.
      + replace (Z.to_nat (lo - idx)) with 0 by lia. cbn [skipn]. replace (Z.max lo idx) with idx by lia.
        replace (Z.to_nat (lo - (idx + 1))) with 0 in H3 by lia. cbn [skipn] in H3. replace (Z.max lo (idx + 1)) with (idx + 1)%Z in H3 by lia.
        destruct (Z.ltb_spec hi idx); cbn [negb map filter fst snd app]; rewrite H2, H3; split; auto.
        * now replace (Z.to_nat (hi + 1 - (idx + 1))) with 0 by lia; replace (Z.to_nat (hi + 1 - idx)) with 0 by lia.
        * replace (Z.to_nat (hi + 1 - idx)) with (S (Z.to_nat (hi + 1 - (idx + 1)))) by lia. reflexivity.
  Qed.

  Lemma nth_hd n L : option_map ckv (hd_error (skipn n L)) = nth_error (ents L) n.
  Proof. unfold ents. revert L; induction n as [|n IH]; intros [|c L]; cbn; auto. Qed.
  Lemma index_in (m : list (K * V)) i : ((i <? 0) || (len m <=? i))%Z = negb ((0 <=? i) && (i <? len m))%Z.
  Proof. rewrite negb_andb, <- Z.ltb_antisym, <- Z.leb_antisym. reflexivity. Qed.

  Theorem sk_sim s m o : rel s m -> exists s', sk_step cmp s o = Some (s', snd (sk_spec ltb m o)) /\ rel s' (fst (sk_spec ltb m o)).
  Proof.
    intros H. pose proof (rel_size s m H) as Hz. destruct o; cbn [sk_step sk_spec fst snd].
    - destruct (put_ok s m k v r H) as (s' & -> & H'). exists s'. split; auto. now destruct (sames ltb k m).
    - destruct (put_ok s m k v r H) as (s' & -> & H'). exists s'. split; auto. now destruct (sames ltb k m).
    - destruct (put_ok s m k v r H) as (s' & -> & H'). exists s'. split; auto. now destruct (sames ltb k m).
    - rewrite (search_ok s m k H). exists s. auto.
    - destruct (remove_ok s m k H) as (s' & -> & H'). exists s'. auto.
    - unfold removeHead. rewrite Hz. destruct m as [|e m]; [exists s; auto|]. replace (len (e :: m) =? 0)%Z with false by (symmetry; apply Z.eqb_neq; unfold len; cbn [length]; lia).
      pose proof H as (L & I & E). rewrite (first_cell s L I). destruct L as [|c L]; [discriminate|]. cbn [hd_id hd_error option_map].
      rewrite (cell_entry s [] c L I). destruct (remove_ok s _ (fst (ckv c)) H) as (s' & -> & H'). exists s'. cbn [hd_error tl].
      pose proof (si_sorted _ _ _ I) as Sd. rewrite E in Sd. injection E as E1 E2. rewrite E1 in *.
      destruct (cut_same_strict ltb W [] e m (fst e) (same_refl ltb W _) Sd) as (X1 & X2 & X3). cbn [app] in *. unfold erase in H'. rewrite X1, X3 in H'. rewrite X2. auto.
    - unfold removeTail. rewrite Hz. destruct m as [|e m]; [exists s; auto|]. replace (len (e :: m) =? 0)%Z with false by (symmetry; apply Z.eqb_neq; unfold len; cbn [length]; lia).
      pose proof H as (L & I & E). rewrite (first_cell s L I). destruct L as [|c L]; [discriminate|]. cbn [hd_id hd_error option_map].
      rewrite (lastNode_ok s L [] c (fuel (mem s)) I) by (pose proof (all_fuel s _ I) as F; cbn [length] in F; lia).
      rewrite <- E, last_entry_ents. destruct (rsplit c L) as (P & E' & ->). rewrite E' in *. destruct (removeNode_ok s P (last L c) [] I) as (s' & -> & I'). exists s'. split; auto.
      exists P. rewrite app_nil_r in I'. split; auto. rewrite ents_app. symmetry. apply removelast_last.
    - destruct H as (L & I & <-). unfold headEntry. rewrite (first_cell s L I). exists s. destruct L as [|c L]; cbn [hd_id hd_error option_map]; [split; [auto|exists []; auto]|].
      rewrite (cell_entry s [] c L I). split; auto. eexists; eauto.
    - destruct H as (L & I & <-). unfold tailEntry. rewrite (first_cell s L I). exists s. destruct L as [|c L]; cbn [hd_id hd_error option_map]; [split; [auto|exists []; auto]|].
      rewrite (lastNode_ok s L [] c (fuel (mem s)) I) by (pose proof (all_fuel s _ I) as F; cbn [length] in F; lia).
      rewrite last_entry_ents. destruct (rsplit c L) as (P & E' & ->). assert (I' := I). rewrite E' in I'. rewrite (cell_entry s P _ [] I'). split; auto. eexists; eauto.
    - eexists. split; [reflexivity|]. exists []. split; auto. destruct H as (L & I & _). destruct (alloc_ok (mem s) (Nd None (repeat None MaxLevel))) as (A1 & A2 & A3 & A4 & A5 & A6).
      pose proof (si_level _ _ _ I). pose proof (si_max _ _ _ I). constructor; cbn [clear mem header level size maxLevel ents map length]; try lia; auto.
      + constructor; [exact A5|constructor; [intros []|constructor]|intros ? []|]. intros i Hi. cbn [at_ filter path]. rewrite A6. cbn [fwd]. unfold MaxLevel. now rewrite nth_error_repeat by lia.
      + constructor.
      + intros ? [].
    - exists s. rewrite Hz. auto.
    - destruct H as (L & I & <-). rewrite (first_cell s L I), (traverse_ok s go L [] _ [] I (all_fuel s L I)). exists s. split; auto. eexists; eauto.
    - rewrite (slice_ok s m H). exists s. auto.
    - rewrite (slice_ok s m H). exists s. auto.
    - exists s. split; auto. unfold index, at_index. rewrite Hz, index_in. destruct ((0 <=? i) && (i <? len m))%Z eqn:B; cbn [negb]; auto. apply andb_true_iff in B as (B1 & B2).
      apply Z.leb_le in B1. apply Z.ltb_lt in B2. destruct H as (L & I & <-). unfold len, ents in B2. rewrite map_length in B2. rewrite (first_cell s L I), (walk_ok s (Z.to_nat i) [] L I) by lia.
      rewrite <- nth_hd. destruct (skipn (Z.to_nat i) L) as [|c R] eqn:E; [apply (f_equal (@length _)) in E; rewrite skipn_length in E; cbn in E; lia|]. cbn [hd_id hd_error option_map].
      rewrite <- (firstn_skipn (Z.to_nat i) L), E in I. rewrite (cell_entry s _ c R I). reflexivity.
    - exists s. destruct H as (L & I & <-). rewrite (first_cell s L I), (indexOf_ok s k L [] _ 0%Z I (all_fuel s L I)). split; [unfold position; now destruct (sames ltb k (ents L))|eexists; eauto].
    - unfold removeIndex, at_index. rewrite Hz, index_in. destruct ((0 <=? i) && (i <? len m))%Z eqn:B; cbn [negb]; [|exists s; auto]. apply andb_true_iff in B as (B1 & B2).
      apply Z.leb_le in B1. apply Z.ltb_lt in B2. destruct H as (L & I & <-). unfold len, ents in B2. rewrite map_length in B2. rewrite (first_cell s L I), (walk_ok s (Z.to_nat i) [] L I) by lia.
      rewrite <- nth_hd. destruct (skipn (Z.to_nat i) L) as [|c R] eqn:E; [apply (f_equal (@length _)) in E; rewrite skipn_length in E; cbn in E; lia|]. cbn [hd_id hd_error option_map].
      rewrite <- (firstn_skipn (Z.to_nat i) L), E in I. destruct (removeNode_ok s _ c R I) as (s' & -> & I'). exists s'. split; auto. eexists. split; [exact I'|]. unfold others. rewrite firstn_ents, skipn_ents, ents_app. f_equal. f_equal.
      replace (Z.to_nat (i + 1)) with (Z.to_nat i + 1) by lia. rewrite <- skipn_add, E. reflexivity.
    - unfold removeRangeByIndex. rewrite Hz. set (lo := if (i <? 0)%Z then 0%Z else i). set (hi := if (len m <=? j)%Z then (len m - 1)%Z else j).
      replace (Z.max i 0) with lo by (unfold lo; destruct (Z.ltb_spec i 0); lia). replace (Z.min j (len m - 1)) with hi by (unfold hi; destruct (Z.leb_spec (len m) j); lia).
      assert (Hlo : (0 <= lo)%Z) by (unfold lo; destruct (Z.ltb_spec i 0); lia). assert (Hhi : (hi < len m)%Z) by (unfold hi; destruct (Z.leb_spec (len m) j); lia). clearbody lo hi.
      rewrite Z.leb_antisym. destruct (Z.ltb_spec hi lo); cbn [negb]; [exists s; auto|]. destruct H as (L & I & <-). unfold len, ents in Hhi. rewrite map_length in Hhi. rewrite (first_cell s L I), (walk_ok s (Z.to_nat lo) [] L I) by lia.
      rewrite <- (firstn_skipn (Z.to_nat lo) L) in I. destruct (removeRange_ok (Z.to_nat (hi - lo + 1)) s _ _ I) as (s' & -> & I'). exists s'. split; auto. eexists. split; [exact I'|].
      unfold others. rewrite firstn_ents, skipn_ents, ents_app, skipn_add. f_equal. f_equal. f_equal. lia.
    - unfold trim. rewrite (slice_ok s m H). destruct (kept_filter (fun e => (cmp (fst e) lo <? 0) || (0 <? cmp (fst e) hi))%Z m) as (E1 & E2 & E3). rewrite <- E2.
      destruct (removeAll_ok (map (fun e => ((cmp (fst e) lo <? 0) || (0 <? cmp (fst e) hi), e))%Z m) s []) as (s' & -> & H'); [now rewrite E3|]. exists s'. split; auto. cbn [app] in H'. rewrite E1 in H'.
      erewrite filter_ext; [exact H'|]. intros e. cbn beta. rewrite cmp_lt, cmp_gt, negb_orb. reflexivity.
    - unfold trimByIndex. rewrite Hz. set (lo := if (i <? 0)%Z then 0%Z else i). set (hi := if (len m <=? j)%Z then (len m - 1)%Z else j).
      replace (Z.max i 0) with lo by (unfold lo; destruct (Z.ltb_spec i 0); lia). replace (Z.min j (len m - 1)) with hi by (unfold hi; destruct (Z.leb_spec (len m) j); lia).
      assert (Hlo : (0 <= lo)%Z) by (unfold lo; destruct (Z.ltb_spec i 0); lia). clearbody lo hi.
      rewrite Z.leb_antisym. destruct (Z.ltb_spec hi lo); cbn [negb]; [exists s; auto|]. rewrite (slice_ok s m H).
      destruct (label_ok lo hi m 0%Z ltac:(lia)) as (E1 & E2 & E3). rewrite <- E2. destruct (removeAll_ok (label lo hi 0 m) s []) as (s' & -> & H'); [now rewrite E1|].
      exists s'. split; auto. cbn [app] in H'. rewrite E3 in H'. unfold slots. now replace (Z.max lo 0) with lo in H' by lia; replace (lo - 0)%Z with lo in H' by lia.
  Qed.
  Lemma new_rel l : rel (NewWithMaxLevel l) [].
  Proof.
    exists []. split; auto. unfold NewWithMaxLevel. constructor; cbn [mem header level size maxLevel ents map length]; auto.
    - constructor; [reflexivity|constructor; [intros []|constructor]|intros ? []|]. intros i Hi. cbn [at_ filter path]. unfold getf. cbn [nth_error fwd]. unfold MaxLevel. now rewrite nth_error_repeat by lia.
    - constructor.
    - unfold MaxLevel. destruct (Z.ltb_spec l 1), (Z.ltb_spec 16 l); cbn [orb]; lia.
    - unfold MaxLevel. destruct (Z.ltb_spec l 1), (Z.ltb_spec 16 l); cbn [orb]; lia.
    - intros ? [].
  Qed.
End Ops.
