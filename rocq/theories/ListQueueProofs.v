From Verif Require Import Base Machine DLL ListQueueSpec ListQueueModel.

Section P.
  Context {A : Type}.
  Notation lqueue := (lqueue (A:=A)).

  Definition Rel (q : lqueue) (l : list A) : Prop :=
    exists L : list (nat * A), map snd L = l /\ NoDup (map fst L) /\ chain (hp q) None L None /\
      head q = hd_ptr L None /\ tail q = last_ptr None L /\ size q = length l.

  Lemma new_rel : Rel new [].
  Proof. exists []. repeat split; constructor. Qed.

  Lemma fresh h (L : list (nat * A)) p n : chain h p L n -> ~ In (length h) (map fst L).
  Proof.
    intros H Hin. apply chain_lt in H. rewrite Forall_forall in H.
    apply in_map_iff in Hin as ([a v] & E & Ha). apply H in Ha. simpl in *. lia.
  Qed.
  Lemma nodup_snoc (l : list nat) x : NoDup l -> ~ In x l -> NoDup (l ++ [x]).
  Proof.
    intros H1 H2. apply (Permutation_NoDup (Permutation_cons_append l x)). constructor; assumption.
  Qed.
  Lemma nth_error_last (h : heap A) x : nth_error (h ++ [x]) (length h) = Some x.
  Proof. rewrite nth_error_app2, Nat.sub_diag by lia. reflexivity. Qed.

  Lemma pushBack_rel q l v : Rel q l -> exists q', pushBack q v = Some q' /\ Rel q' (l ++ [v]).
  Proof.
    intros (L & HL & Hnd & Hc & Hh & Ht & Hs). unfold pushBack. simpl.
    pose proof (fresh _ _ _ _ Hc) as Hf.
    destruct L as [|[a0 v0] L0 _] using rev_ind.
    - subst l. simpl in Hs. rewrite Hs. simpl. eexists; split; [reflexivity|].
      exists [(length (hp q), v)]. simpl. repeat split; auto.
      + constructor; [easy|constructor].
      + apply nth_error_last.
    - subst l. rewrite map_app in *. simpl in *.
      rewrite app_length, map_length in Hs. simpl in Hs.
      destruct (Nat.eqb_spec (size q + 1) 1); [lia|].
      rewrite last_ptr_snoc in Ht. rewrite Ht, Hh.
      rewrite (set_prev_ok _ _ _ _ (nth_error_last _ _)). simpl.
      set (h2 := list_set _ _ _).
      assert (Hc2 : chain h2 None (L0 ++ [(a0, v0)]) None).
      { apply chain_set_other. rewrite map_app; assumption. apply chain_alloc; assumption. }
      destruct (chain_set_next h2 a0 v0 L0 None None (Some (length (hp q)))) as (h3 & E3 & El & Hc3 & Hfr); auto.
      rewrite E3. eexists; split; [reflexivity|].
      exists ((L0 ++ [(a0, v0)]) ++ [(length (hp q), v)]). simpl.
      repeat split; simpl.
      + now rewrite !map_app.
      + rewrite !map_app. apply nodup_snoc; assumption.
      + apply chain_app. split; [exact Hc3|]. simpl. split; [|exact I]. rewrite last_ptr_snoc.
        rewrite Hfr. 2:{ intros E. apply Hf. apply in_or_app; right; left; congruence. }
        unfold h2. apply nth_error_list_set_eq. rewrite app_length; simpl; lia.
      + destruct L0 as [|[]]; reflexivity.
      + now rewrite last_ptr_snoc.
      + rewrite !app_length, map_length. simpl. lia.
  Qed.

  Lemma pushFront_rel q l v : Rel q l -> exists q', pushFront q v = Some q' /\ Rel q' (v :: l).
  Proof.
    intros (L & HL & Hnd & Hc & Hh & Ht & Hs). unfold pushFront. simpl.
    pose proof (fresh _ _ _ _ Hc) as Hf.
    destruct L as [|[a0 v0] L0].
    - subst l. simpl in Hs. rewrite Hs. simpl. eexists; split; [reflexivity|].
      exists [(length (hp q), v)]. simpl. repeat split; auto.
      + constructor; [easy|constructor].
      + apply nth_error_last.
    - simpl in Hh, HL. subst l. simpl in Hs. rewrite map_length in Hs.
      destruct (Nat.eqb_spec (size q + 1) 1); [lia|].
      rewrite Hh. rewrite (set_next_ok _ _ _ _ (nth_error_last _ _)). simpl.
      set (h2 := list_set _ _ _).
      assert (Hc2 : chain h2 None ((a0, v0) :: L0) None).
      { apply chain_set_other; [assumption|]. apply chain_alloc; assumption. }
      destruct (chain_set_prev h2 a0 v0 L0 None (Some (length (hp q))) None) as (h3 & E3 & El & Hc3 & Hfr); auto.
      rewrite E3. eexists; split; [reflexivity|].
      exists ((length (hp q), v) :: (a0, v0) :: L0). unfold Rel; cbn [map fst snd hp head tail size].
      split; [reflexivity|]. split; [constructor; assumption|]. split; [|split; [reflexivity|split]].
      + split; [|exact Hc3]. simpl. rewrite Hfr. 2:{ intros E. apply Hf. left. simpl. congruence. }
        unfold h2. apply nth_error_list_set_eq. rewrite app_length; simpl; lia.
      + rewrite Ht. reflexivity.
      + simpl. rewrite map_length. lia.
  Qed.

  Lemma popBack_rel q l : Rel q l -> exists q', popBack q = Some (q', hd_error (rev l)) /\ Rel q' (removelast l).
  Proof.
    intros (L & HL & Hnd & Hc & Hh & Ht & Hs). unfold popBack.
    destruct L as [|[a v] L _] using rev_ind.
    - subst l. rewrite Hs. simpl. exists q. split; [reflexivity|]. exists []. repeat split; auto.
    - subst l. rewrite map_app in *. simpl in *. rewrite app_length, map_length in Hs. simpl in Hs.
      rewrite rev_unit, removelast_last. simpl. rewrite last_ptr_snoc in Ht.
      destruct (Nat.eqb_spec (size q) 0); [lia|].
      pose proof Hc as Hc'. apply chain_app in Hc' as [Hc1 [Hc2 _]]. simpl in Hc1, Hc2. rewrite Ht. simpl. rewrite Hc2. simpl.
      destruct (Nat.eqb_spec (size q - 1) 0) as [E1|E1].
      + eexists; split; [reflexivity|]. destruct L; [|simpl in *; lia]. exists []. simpl. repeat split; auto. constructor.
      + destruct L as [|[b w] L _] using rev_ind; [simpl in *; lia|].
        rewrite last_ptr_snoc in *. rewrite map_app in Hnd; simpl in Hnd.
        assert (Hnd1 : NoDup (map fst L ++ [b]) /\ ~ In a (map fst L ++ [b])).
        { split. apply NoDup_remove_1 in Hnd. now rewrite app_nil_r in Hnd.
          apply NoDup_remove_2 in Hnd. now rewrite app_nil_r in Hnd. }
        destruct Hnd1 as [Hnd1 Hna].
        destruct (chain_set_next (hp q) b w L None (Some a) None) as (h1 & E & El & Hc3 & Hfr); auto.
        rewrite E.
        assert (Ha1 : nth_error h1 a = Some (mk (Some b) None v)).
        { rewrite Hfr; [assumption|]. intros ->. apply Hna, in_or_app. right; left; reflexivity. }
        rewrite (set_prev_ok _ _ _ _ Ha1). eexists; split; [reflexivity|].
        exists (L ++ [(b, w)]). cbn [hp head tail size]. split; [reflexivity|]. rewrite map_app in *. cbn [map fst] in *.
        split; [exact Hnd1|]. split; [|split; [|split]].
        * apply chain_set_other; [|exact Hc3]. rewrite map_app; exact Hna.
        * rewrite Hh. destruct L as [|[]]; reflexivity.
        * now rewrite last_ptr_snoc.
        * rewrite map_length. lia.
  Qed.

  Lemma popFront_rel q l : Rel q l -> exists q', popFront q = Some (q', hd_error l) /\ Rel q' (tl l).
  Proof.
    intros (L & HL & Hnd & Hc & Hh & Ht & Hs). unfold popFront.
    destruct L as [|[a v] L].
    - subst l. rewrite Hs. simpl. exists q. split; [reflexivity|]. exists []. repeat split; auto.
    - subst l. simpl in *. rewrite map_length in Hs. rewrite Hs, Hh. simpl. rewrite Nat.sub_0_r.
      destruct Hc as [Hc1 Hc2]. rewrite Hc1. simpl.
      destruct L as [|[b w] L]; simpl.
      + eexists; split; [reflexivity|]. exists []. repeat split; auto. constructor.
      + inversion Hnd as [|? ? Hna Hnd1]; subst.
        destruct (chain_set_prev (hp q) b w L (Some a) None None) as (h1 & E & El & Hc3 & Hfr); auto.
        rewrite E.
        assert (Ha1 : nth_error h1 a = Some (mk None (Some b) v)).
        { rewrite Hfr; [assumption|]. intros ->. apply Hna. left; reflexivity. }
        rewrite (set_next_ok _ _ _ _ Ha1). eexists; split; [reflexivity|].
        exists ((b, w) :: L). cbn [hp head tail size map fst snd]. split; [reflexivity|].
        split; [assumption|]. split; [|split; [reflexivity|split]].
        * apply chain_set_other; [exact Hna|exact Hc3].
        * rewrite Ht. reflexivity.
        * simpl. now rewrite map_length.
  Qed.

  Lemma walk_next_ok h (L : list (nat * A)) : forall fuel p, chain h p L None -> length L <= fuel ->
    walk_next fuel h (hd_ptr L None) = Some (map snd L).
  Proof.
    induction L as [|[a v] L IH]; intros fuel p H Hf; [destruct fuel; reflexivity|].
    destruct fuel; [simpl in Hf; lia|]. simpl in *. destruct H as [H1 H2]. rewrite H1. simpl.
    rewrite (IH fuel _ H2) by lia. reflexivity.
  Qed.
  Lemma walk_prev_ok h (L : list (nat * A)) : forall fuel n, chain h None L n -> length L <= fuel ->
    walk_prev fuel h (last_ptr None L) = Some (rev (map snd L)).
  Proof.
    induction L as [|[a v] L IH] using rev_ind; intros fuel n H Hf; [destruct fuel; reflexivity|].
    rewrite app_length in Hf. simpl in Hf.
    destruct fuel; [lia|]. rewrite last_ptr_snoc, map_app, rev_app_distr. simpl.
    apply chain_app in H as [H1 [H2 _]]. rewrite H2. simpl. rewrite (IH fuel _ H1) by lia. reflexivity.
  Qed.
  Lemma chain_length h (L : list (nat * A)) p n : chain h p L n -> NoDup (map fst L) -> length L <= length h.
  Proof.
    intros H Hn. apply chain_lt in H.
    rewrite <- (map_length fst), <- (seq_length (length h) 0). apply NoDup_incl_length; [assumption|].
    intros a Ha. apply in_seq. apply in_map_iff in Ha as (x & <- & Hx). rewrite Forall_forall in H.
    apply H in Hx. lia.
  Qed.

  Lemma step_rel q l o : Rel q l ->
    exists q', step q o = Some (q', snd (lq_spec l o)) /\ Rel q' (fst (lq_spec l o)).
  Proof.
    intros HR. pose proof HR as (L & HL & Hnd & Hc & Hh & Ht & Hs). destruct o; cbn [step lq_spec fst snd].
    - destruct (pushBack_rel q l v HR) as (q' & E & HR'). rewrite E. simpl. eauto.
    - destruct (pushFront_rel q l v HR) as (q' & E & HR'). rewrite E. simpl. eauto.
    - destruct (popBack_rel q l HR) as (q' & E & HR'). rewrite E. simpl. eauto.
    - destruct (popFront_rel q l HR) as (q' & E & HR'). rewrite E. simpl. eauto.
    - exists q. rewrite Hs. auto.
    - exists q. split; [|assumption]. rewrite Hh. destruct L as [|[a v] L]; subst l; simpl; [reflexivity|].
      destruct Hc as [-> _]. reflexivity.
    - exists q. split; [|assumption]. rewrite Ht. destruct L as [|[a v] L _] using rev_ind; subst l; simpl; [reflexivity|].
      rewrite last_ptr_snoc, map_app, rev_app_distr. simpl. apply chain_app in Hc as [_ [-> _]]. reflexivity.
    - exists q. split; [|assumption]. rewrite Hh, (walk_next_ok _ L _ None); auto. simpl. now rewrite HL.
      eapply chain_length; eassumption.
    - exists q. split; [|assumption]. rewrite Ht, (walk_prev_ok _ L _ None); auto. simpl. now rewrite HL.
      eapply chain_length; eassumption.
  Qed.
  Lemma run_ok ops : run step (new (A:=A)) ops = Some (srun lq_spec [] ops).
  Proof. apply (sim_run _ _ Rel step_rel), new_rel. Qed.
End P.
