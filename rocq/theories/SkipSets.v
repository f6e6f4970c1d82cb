(** Skip lists: set operations and iterators. *)
From Verif Require Import Base Bind Machine OrderSpec SMapSpec SMapFacts SkipSpec SkipModel SkipProofs SkipOps.

Section Sets.
  Context {K V : Type} (ltb : K -> K -> bool) (W : weak_order ltb) (cmp : K -> K -> Z) (Hc : sign_cmp ltb cmp).
  Notation rel := (rel ltb).
  Implicit Types (s res other : skiplist K V) (m l a b : list (K * V)).

  Lemma rel_sorted s m : rel s m -> strictly_sorted ltb m.
  Proof. intros (L & I & <-). apply (si_sorted _ _ _ I). Qed.
  Lemma sput_end k v m : (forall e, In e m -> ltb (fst e) k = true) -> sput ltb k v m = m ++ [(k, v)].
  Proof.
    intros H. unfold sput, write. assert (E : sames ltb k m = []). { apply filter_none. intros e He. unfold same. now rewrite (H e He). }
    rewrite E. unfold before, after. rewrite filter_all by auto. rewrite filter_none; auto. intros e He. apply (lt_asym ltb W). auto.
  Qed.
  Lemma hd_lt e l m k v : strictly_sorted ltb ((k, v) :: l) -> In e (m ++ [(k, v)]) -> (forall e e', In e m -> In e' ((k, v) :: l) -> ltb (fst e) (fst e') = true) ->
    forall e', In e' l -> ltb (fst e) (fst e') = true.
  Proof.
    intros Sd He H e' He'. apply in_app_or in He as [He|[<-|[]]]; [apply H; [auto|now right]|]. unfold strictly_sorted in Sd. inversion Sd as [|? ? _ F]; subst. rewrite Forall_forall in F. now apply F.
  Qed.
  Lemma putAll_ok l : forall s m rs, rel s m -> exists s' rs', putAll cmp s l rs = Some (s', rs') /\ rel s' (either ltb m l).
  Proof.
    induction l as [|e l IH]; intros s m rs H; cbn [putAll]; [exists s, rs; auto|]. destruct (put_ok ltb W cmp Hc s m (fst e) (snd e) (hd 0 rs) H) as (s' & -> & H').
    destruct (IH s' _ (tl rs) H') as (s'' & rs' & E & H''). exists s'', rs'. auto.
  Qed.
  Lemma sub_nil l : forall m, strictly_sorted ltb l -> (forall e e', In e m -> In e' l -> ltb (fst e) (fst e') = true) -> either ltb m l = m ++ l.
  Proof.
    induction l as [|[k v] l IH]; intros m Sd H; [cbn; now rewrite app_nil_r|]. unfold either in *. cbn [fold_left fst snd]. rewrite sput_end by (intros e He; apply (H e (k, v)); auto; now left).
    rewrite IH; [now rewrite <- app_assoc|now inversion Sd|]. intros e e' He. eapply hd_lt; eauto.
  Qed.
  Lemma intersect_ok l : forall m other b res rs, rel other b -> rel res m -> strictly_sorted ltb l -> (forall e e', In e m -> In e' l -> ltb (fst e) (fst e') = true) ->
    exists s', intersect cmp l other res rs = Some s' /\ rel s' (m ++ both ltb l b).
  Proof.
    induction l as [|[k v] l IH]; intros m other b res rs Ho Hr Sd H; cbn [intersect fst snd]; [exists res; split; auto; cbn; now rewrite app_nil_r|].
    rewrite (search_ok ltb W cmp Hc other b k Ho). unfold both. cbn [flat_map fst]. assert (Sd' : strictly_sorted ltb l) by now inversion Sd.
    destruct (sames ltb k b) as [|[k' v'] tl0] eqn:E; cbn [hd_error snd app].
    - apply (IH m other b res rs); auto. intros; apply H; auto; now right.
    - destruct (put_ok ltb W cmp Hc res m k v' (hd 0 rs) Hr) as (s' & -> & H'). rewrite sput_end in H' by (intros e He; apply (H e (k, v)); auto; now left).
      destruct (IH _ other b s' (tl rs) Ho H' Sd') as (s'' & -> & H''); [|exists s''; split; auto; now rewrite <- app_assoc in H''].
      intros e e' He He'. apply in_app_or in He as [He|[<-|[]]]; [apply H; [auto|now right]|]. inversion Sd as [|? ? _ F]; subst. rewrite Forall_forall in F. apply (F e' He').
  Qed.
  Lemma subtract_ok l : forall m other b res rs, rel other b -> rel res m -> strictly_sorted ltb l -> (forall e e', In e m -> In e' l -> ltb (fst e) (fst e') = true) ->
    exists s', subtract cmp l other res rs = Some s' /\ rel s' (m ++ only ltb l b).
  Proof.
    induction l as [|[k v] l IH]; intros m other b res rs Ho Hr Sd H; cbn [subtract fst snd]; [exists res; split; auto; cbn; now rewrite app_nil_r|].
    rewrite (search_ok ltb W cmp Hc other b k Ho). unfold only. cbn [filter fst]. unfold has at 1. assert (Sd' : strictly_sorted ltb l) by now inversion Sd.
    destruct (sames ltb k b) as [|[k' v'] tl0] eqn:E; cbn [hd_error snd app negb].
    - destruct (put_ok ltb W cmp Hc res m k v (hd 0 rs) Hr) as (s' & -> & H'). rewrite sput_end in H' by (intros e He; apply (H e (k, v)); auto; now left).
      destruct (IH _ other b s' (tl rs) Ho H' Sd') as (s'' & -> & H''); [|exists s''; split; auto; now rewrite <- app_assoc in H''].
      intros e e' He. eapply hd_lt; eauto.
    - apply (IH m other b res rs); auto. intros; apply H; auto; now right.
  Qed.
  Theorem Intersection_ok s a other b rs : rel s a -> rel other b -> exists s', Intersection cmp s other rs = Some s' /\ rel s' (both ltb a b).
  Proof.
    intros Ha Hb. unfold Intersection. rewrite (slice_ok ltb s a Ha). apply (intersect_ok a [] other b New rs); [exact Hb|apply new_rel|exact (rel_sorted s a Ha)|intros ? ? []].
  Qed.
  Theorem UnionSets_ok s a other b rs : rel s a -> rel other b -> exists s', UnionSets cmp s other rs = Some s' /\ rel s' (either ltb a b).
  Proof.
    intros Ha Hb. unfold UnionSets. rewrite (slice_ok ltb s a Ha). destruct (putAll_ok a New [] rs (new_rel ltb 16)) as (s1 & rs1 & -> & H1).
    rewrite (sub_nil a []) in H1; [|eapply rel_sorted; eauto|intros ? ? []]. rewrite (slice_ok ltb other b Hb). destruct (putAll_ok b s1 a rs1 H1) as (s2 & rs2 & -> & H2). exists s2. auto.
  Qed.
  Theorem DifferenceSets_ok s a other b rs : rel s a -> rel other b -> exists s', DifferenceSets cmp s other rs = Some s' /\ rel s' (only ltb a b).
  Proof.
    intros Ha Hb. unfold DifferenceSets. rewrite (slice_ok ltb s a Ha). apply (subtract_ok a [] other b New rs); [exact Hb|apply new_rel|exact (rel_sorted s a Ha)|intros ? ? []].
  Qed.

  (** ** Iterators *)
  Notation SI := (SI ltb).
  Definition standing s (L : list (cell K V)) (it : iterator) (p : Z) : Prop := (0 <= p <= len (ents L))%Z /\ inode it = hd_id (skipn (Z.to_nat p) L).
  Lemma len_ents (L : list (cell K V)) : len (ents L) = Z.of_nat (length L). Proof. unfold len, ents. now rewrite map_length. Qed.
  Lemma skipn_len {T} (l : list T) : skipn (length l) l = []. Proof. apply skipn_all. Qed.
  Lemma hd_skip (P R : list (cell K V)) : hd_id (skipn (length P) (P ++ R)) = hd_id R. Proof. now rewrite skipn_app, skipn_len, Nat.sub_diag. Qed.
  Lemma findPrev_ok s h : forall A P B f, SI s (P ++ A ++ B) -> length A < f ->
    findPrev f (mem s) (hd_id B) (lastid h P) (hd_id (A ++ B)) = Some (lastid h (P ++ A), hd_id B).
  Proof.
    induction A as [|c A IH]; intros P B f I Hf; (destruct f as [|f]; [lia|]); cbn [findPrev app].
    - rewrite app_nil_r. destruct B as [|c B]; cbn [hd_id hd_error option_map]; auto. cbn [peqb]. now rewrite Nat.eqb_refl.
    - cbn [hd_id hd_error option_map]. assert (E : peqb (Some (cid c)) (hd_id B) = false).
      { destruct B as [|c' B]; auto. cbn [hd_id hd_error option_map peqb]. apply Nat.eqb_neq. intros X. pose proof (mo_nodup _ _ _ (si_mem _ _ _ I)) as N. cbn [app] in N. apply mid_nodup in N as (_ & N).
        apply N. right. rewrite X, !ids_app. apply in_or_app. right. apply in_or_app. right. now left. }
      unfold hd_id in E |- *. rewrite E. rewrite (next_of ltb s P c (A ++ B) I).
      specialize (IH (P ++ [c]) B f). rewrite lastid_snoc in IH. unfold hd_id in IH |- *. rewrite IH; [now rewrite <- app_assoc|now rewrite <- app_assoc|cbn in Hf; lia].
  Qed.
  Lemma lastid_hdr s (P R : list (cell K V)) : SI s (P ++ R) -> (lastid (header s) P =? header s)%nat = match P with [] => true | _ => false end.
  Proof.
    intros I. destruct P as [|c P _] using rev_ind; [apply Nat.eqb_refl|]. rewrite lastid_snoc. replace (match P ++ [c] with [] => true | _ => false end) with false by now destruct P.
    apply Nat.eqb_neq. intros X. pose proof (mo_nodup _ _ _ (si_mem _ _ _ I)) as N. inversion N as [|? ? N1 _]; subst. apply N1. rewrite <- X, !ids_app. apply in_or_app. left. apply in_or_app. right. now left.
  Qed.
  Lemma stand_split s (L : list (cell K V)) it p : standing s L it p -> exists P R, L = P ++ R /\ p = Z.of_nat (length P) /\ inode it = hd_id R.
  Proof.
    intros (Hp & E). exists (firstn (Z.to_nat p) L), (skipn (Z.to_nat p) L). rewrite firstn_skipn. split; auto. split; auto. rewrite firstn_length. rewrite len_ents in Hp. lia.
  Qed.
  Lemma stand_at s (P R : list (cell K V)) it : inode it = hd_id R -> standing s (P ++ R) it (Z.of_nat (length P)).
  Proof. intros E. split; [rewrite len_ents, app_length; lia|]. now rewrite Nat2Z.id, hd_skip. Qed.
  Lemma in_split (P R : list (cell K V)) : in_list (ents (P ++ R)) (Z.of_nat (length P)) = valid (hd_id R).
  Proof.
    unfold in_list. rewrite len_ents, app_length. destruct R as [|c R]; cbn [hd_id hd_error option_map valid length].
    - replace (Z.of_nat (length P) <? _)%Z with false by (symmetry; apply Z.ltb_ge; lia). apply andb_false_r.
    - apply andb_true_iff. split; [apply Z.leb_le|apply Z.ltb_lt]; lia.
  Qed.
  Lemma seek_split s (P R : list (cell K V)) it x : x = Z.of_nat (length P) -> inode it = hd_id R ->
    in_list (ents (P ++ R)) (if in_list (ents (P ++ R)) x then x else len (ents (P ++ R))) = valid (hd_id R) /\
    standing s (P ++ R) it (if in_list (ents (P ++ R)) x then x else len (ents (P ++ R))).
  Proof.
    intros -> E. rewrite in_split. destruct R as [|c R]; cbn [hd_id hd_error option_map valid].
    - rewrite app_nil_r, len_ents. split.
      + replace (length P) with (length P) by auto. pose proof (in_split P []) as X. rewrite app_nil_r in X. exact X.
      + pose proof (stand_at s P [] it E) as X. now rewrite app_nil_r in X.
    - split; [apply (in_split P (c :: R))|]. now apply stand_at.
  Qed.
  Lemma before_len (L P M R : list (cell K V)) k : L = P ++ M ++ R -> ents P = before ltb k (ents L) -> ents M = sames ltb k (ents L) ->
    len (before ltb k (ents L)) = Z.of_nat (length P).
  Proof. intros _ <- _. apply len_ents. Qed.
  Lemma upto_len s (L P M R : list (cell K V)) k : SI s L -> L = P ++ M ++ R -> ents P = before ltb k (ents L) -> ents M = sames ltb k (ents L) ->
    ents R = after ltb k (ents L) -> len (upto ltb k (ents L)) = Z.of_nat (length (P ++ M)).
  Proof.
    intros I E H1 H2 H3. assert (X : upto ltb k (ents L) = ents (P ++ M)); [|rewrite X; apply len_ents].
    assert (F : forall e, In e (ents (P ++ M)) -> ltb k (fst e) = false).
    { intros e He. rewrite ents_app in He. apply in_app_or in He as [He|He].
      - rewrite H1 in He. apply before_in in He as (_ & He). now apply (lt_asym ltb W).
      - rewrite H2 in He. apply filter_In in He as (_ & He). apply same_iff in He. tauto. }
    unfold upto. rewrite E at 1. rewrite app_assoc, ents_app, filter_app. rewrite filter_all by (intros e He; rewrite (F e He); auto).
    rewrite filter_none; [apply app_nil_r|]. intros e He. rewrite H3 in He. apply after_in in He as (_ & ->). reflexivity.
  Qed.
  (** the end of a search, as a position *)
  Lemma passed_ok s P R go : SI s (P ++ R) -> splits go P R -> exists q, passed s go = Some q /\
    (if in_list (ents (P ++ R)) (Z.of_nat (length P) - 1) then exists c P', P = P' ++ [c] /\ q = Some (cid c) else P = [] /\ q = None).
  Proof.
    intros I Sp. unfold passed. rewrite (descend_top ltb s P R go I Sp), (lastid_hdr s P R I). eexists. split; [reflexivity|].
    destruct P as [|c P _] using rev_ind.
    - cbn [length]. unfold in_list. cbn [Z.of_nat Z.sub Z.add Z.opp Z.leb Z.compare andb]. auto.
    - rewrite lastid_snoc. replace (in_list _ _) with true.
      + exists c, P. split; auto. now destruct P.
      + symmetry. unfold in_list. rewrite len_ents, !app_length. cbn [length]. apply andb_true_iff. split; [apply Z.leb_le|apply Z.ltb_lt]; lia.
  Qed.
  Lemma passed_stand s P R go x i : SI s (P ++ R) -> splits go P R -> x = (Z.of_nat (length P) - 1)%Z -> exists q, passed s go = Some q /\
    in_list (ents (P ++ R)) (if in_list (ents (P ++ R)) x then x else len (ents (P ++ R))) = valid q /\
    standing s (P ++ R) (It q i) (if in_list (ents (P ++ R)) x then x else len (ents (P ++ R))).
  Proof.
    intros I Sp ->. destruct (passed_ok s P R go I Sp) as (q & E & H). exists q. split; auto. destruct (in_list (ents (P ++ R)) (Z.of_nat (length P) - 1)) eqn:B.
    - destruct H as (c & P' & -> & ->). rewrite B. split; auto. rewrite app_length. cbn [length]. replace (Z.of_nat (length P' + 1) - 1)%Z with (Z.of_nat (length P')) by lia.
      rewrite <- app_assoc. now apply stand_at.
    - destruct H as (-> & ->). split.
      + unfold in_list. rewrite Z.ltb_irrefl. apply andb_false_r.
      + split; [unfold len; lia|]. cbn [inode app]. rewrite len_ents, Nat2Z.id, skipn_len. reflexivity.
  Qed.

  Theorem ski_sim s L it p o : SI s L -> standing s L it p -> exists it', ski_step cmp s it o = Some (it', snd (ski_spec ltb (ents L) p o)) /\ standing s L it' (fst (ski_spec ltb (ents L) p o)).
  Proof.
    intros I St. destruct (stand_split s L it p St) as (P & R & E & Hp & Hn). destruct o; cbn [ski_step ski_spec fst snd].
    - rewrite (first_cell ltb s L I). eexists. split; [reflexivity|]. split; [unfold len; lia|reflexivity].
    - rewrite (first_cell ltb s L I). destruct L as [|c L0] eqn:EL; cbn [hd_id hd_error option_map]; [eexists; split; [reflexivity|]; split; [unfold len; cbn; lia|reflexivity]|].
      rewrite (lastNode_ok ltb s L0 [] c (fuel (mem s)) I) by (pose proof (all_fuel ltb s _ I) as F; cbn [length] in F; lia). eexists. split; [reflexivity|].
      destruct (rsplit c L0) as (P0 & E0 & ->). rewrite E0. rewrite len_ents, app_length. cbn [length]. replace (Z.max _ _) with (Z.of_nat (length P0)) by lia. now apply stand_at.
    - rewrite Hn. destruct R as [|c R]; cbn [hd_id hd_error option_map].
      + exists it. split; auto. rewrite app_nil_r in E. subst P. replace (Z.min _ _) with p; auto. rewrite len_ents. lia.
      + rewrite E in I. rewrite (next_of ltb s P c R I). eexists. split; [reflexivity|]. rewrite E, len_ents, app_length. cbn [length].
        replace (Z.min _ _) with (Z.of_nat (length (P ++ [c]))) by (rewrite app_length; cbn [length]; lia). replace (P ++ c :: R) with ((P ++ [c]) ++ R) by now rewrite <- app_assoc. now apply stand_at.
    - unfold iprev. rewrite (first_cell ltb s L I), Hn. assert (I' := I). rewrite E in I'. assert (Hf : length P < fuel (mem s)) by (pose proof (all_fuel ltb s _ I') as F; rewrite app_length in F; lia).
      pose proof (findPrev_ok s (header s) P [] R (fuel (mem s)) I' Hf) as F. cbn [app] in F. change (lastid (header s) []) with (header s) in F. rewrite <- E in F. rewrite F.
      replace (peqb (hd_id R) (hd_id R)) with true by (destruct R; cbn; auto; now rewrite Nat.eqb_refl). rewrite (lastid_hdr s P R I'). eexists. split; [reflexivity|].
      destruct P as [|c P _] using rev_ind.
      + cbn [length] in Hp. subst p. cbn [Z.of_nat Z.eqb]. split; [unfold len; lia|]. cbn [inode]. now rewrite len_ents, Nat2Z.id, skipn_len.
      + rewrite app_length in Hp. cbn [length] in Hp. replace (p =? 0)%Z with false by (symmetry; apply Z.eqb_neq; lia). replace (match P ++ [c] with [] => true | _ => false end) with false by now destruct P.
        rewrite lastid_snoc, E. replace (p - 1)%Z with (Z.of_nat (length P)) by lia. rewrite <- app_assoc. now apply stand_at.
    - destruct (cut ltb W s L k I) as (P0 & M0 & R0 & E0 & H1 & H2 & H3). pose proof (cut_R ltb W k P0 M0 R0 L E0 H2 H3) as HR.
      assert (Sp : splits (below cmp k) P0 (M0 ++ R0)) by (eapply (splits_below ltb cmp Hc); eauto).
      pose proof (before_len L P0 M0 R0 k E0 H1 H2) as Hl. rewrite Hl. rewrite E0 in I |- *. rewrite (descend_top ltb s P0 (M0 ++ R0) _ I Sp), (next_cell _ _ P0 (M0 ++ R0) (si_mem _ _ _ I)).
      destruct (seek_split s P0 (M0 ++ R0) (It (hd_id (M0 ++ R0)) 0) _ eq_refl eq_refl) as (X1 & X2). eexists. split; [now rewrite X1|exact X2].
    - destruct (cut ltb W s L k I) as (P0 & M0 & R0 & E0 & H1 & H2 & H3). pose proof (splits_upto ltb W cmp Hc k P0 M0 R0 L E0 H1 H2 H3) as Sp.
      pose proof (upto_len s L P0 M0 R0 k I E0 H1 H2 H3) as Hl. rewrite Hl. rewrite E0, app_assoc in I |- *. rewrite (descend_top ltb s _ R0 _ I Sp), (next_cell _ _ _ R0 (si_mem _ _ _ I)).
      destruct (seek_split s (P0 ++ M0) R0 (It (hd_id R0) 0) _ eq_refl eq_refl) as (X1 & X2). eexists. split; [now rewrite X1|exact X2].
    - destruct (cut ltb W s L k I) as (P0 & M0 & R0 & E0 & H1 & H2 & H3). pose proof (splits_upto ltb W cmp Hc k P0 M0 R0 L E0 H1 H2 H3) as Sp.
      pose proof (upto_len s L P0 M0 R0 k I E0 H1 H2 H3) as Hl. rewrite Hl. rewrite E0, app_assoc in I |- *.
      destruct (passed_stand s _ R0 _ _ (iindex it) I Sp eq_refl) as (q & -> & X1 & X2). eexists. split; [now rewrite X1|exact X2].
    - destruct (cut ltb W s L k I) as (P0 & M0 & R0 & E0 & H1 & H2 & H3). pose proof (cut_R ltb W k P0 M0 R0 L E0 H2 H3) as HR.
      assert (Sp : splits (below cmp k) P0 (M0 ++ R0)) by (eapply (splits_below ltb cmp Hc); eauto).
      pose proof (before_len L P0 M0 R0 k E0 H1 H2) as Hl. rewrite Hl. rewrite E0 in I |- *.
      destruct (passed_stand s _ _ _ _ (iindex it) I Sp eq_refl) as (q & -> & X1 & X2). eexists. split; [now rewrite X1|exact X2].
    - pose proof (rel_size ltb s _ (ex_intro _ L (conj I eq_refl))) as Hz. rewrite Hz, index_in. unfold in_list. destruct ((0 <=? i) && (i <? len (ents L)))%Z eqn:B; cbn [negb].
      + apply andb_true_iff in B as (B1 & B2). apply Z.leb_le in B1. apply Z.ltb_lt in B2. rewrite (first_cell ltb s L I). pose proof B2 as B3. rewrite len_ents in B3. rewrite (walk_ok ltb s (Z.to_nat i) [] L I) by lia.
        eexists. split; [reflexivity|]. split; [lia|reflexivity].
      + eexists. split; [reflexivity|]. split; [unfold len; lia|]. cbn [inode]. now rewrite len_ents, Nat2Z.id, skipn_len.
    - exists it. split; auto. rewrite Hn, Hp, E, in_split. reflexivity.
    - exists it. split; auto. rewrite Hn. unfold at_index. pose proof (in_split P R) as B. unfold in_list in B. rewrite <- E, <- Hp in B. rewrite B. destruct R as [|c R]; cbn [hd_id hd_error option_map valid]; auto.
      rewrite E in I. rewrite (cell_entry ltb s P c R I). subst L p. rewrite Nat2Z.id, <- nth_hd, skipn_app, skipn_len, Nat.sub_diag. reflexivity.
    - exists it. auto.
  Qed.
  Lemma newIterator_ok s L : SI s L -> exists it, newIterator s = Some it /\ standing s L it 0.
  Proof. intros I. unfold newIterator. rewrite (first_cell ltb s L I). eexists. split; [reflexivity|]. split; [unfold len; lia|reflexivity]. Qed.
End Sets.
