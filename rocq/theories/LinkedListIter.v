(** The iterators of the linked list act as cursors. *)
From Verif Require Import Base Bind Machine DLL DLLSeg LinkedListSpec LinkedListModel LinkedListProofs.

Section I.
  Context {A : Type} (zero : A).
  Notation cell := (nat * A)%type.
  Implicit Types (h : heap A) (L P Q X Y Z : list cell) (l : llist (A:=A)).

  Lemma named_disj h p M n (vs : list A) : chain h p M n -> disj M (combine (seq (length h) (length vs)) vs).
  Proof.
    intros Hc b H1 H2. apply in_map_iff in H1 as ([x w] & <- & H1). apply chain_lt in Hc. rewrite Forall_forall in Hc.
    apply Hc in H1. cbn [fst] in *. apply in_map_iff in H2 as ([y u] & E & H2). cbn [fst] in E. subst y.
    apply in_combine_l in H2. apply in_seq in H2. lia.
  Qed.
  Lemma named_nodup (vs : list A) : forall n, NoDup (map fst (combine (seq n (length vs)) vs)).
  Proof.
    induction vs as [|v vs IH]; intros n; cbn [length seq combine map fst]; constructor; [|apply IH].
    intros H. apply in_map_iff in H as ([y u] & E & H). cbn [fst] in E. subst y. apply in_combine_l in H. apply in_seq in H. lia.
  Qed.

  (** building the new piece *)
  Lemma build_ok vs : forall h S pS e, S <> [] -> NoDup (map fst S) -> chain h pS S None -> e = last_ptr None S ->
    exists h', let S' := S ++ combine (seq (length h) (length vs)) vs in
      build vs h e = Some (h', last_ptr None S') /\ length h' = length h + length vs /\
      chain h' pS S' None /\ (forall M q m, disj S M -> chain h q M m -> chain h' q M m).
  Proof.
    induction vs as [|v vs IH]; intros h S pS e HS NS CS ->; cbn [build length seq combine].
    - exists h. rewrite app_nil_r. repeat split; auto.
    - cbn [alloc]. pose proof (seg_new h None None v) as CN. pose proof (disj_new h _ _ _ v CS) as D.
      pose proof (chain_alloc _ (mk None None v) _ _ _ CS) as CS'.
      destruct (seg_set_next _ _ _ _ (Some (length h)) None HS NS CS') as (h2 & E2 & El2 & CS2 & F2). rewrite E2.
      apply F2 in CN; [|assumption].
      assert (N1 : NoDup (map fst [(length h, v)])) by (repeat constructor; easy).
      destruct (seg_set_prev _ _ _ _ (last_ptr None S) None (cons_ne _ _) N1 CN) as (h3 & E3 & El3 & CN3 & F3).
      cbn [hd_ptr] in E3. rewrite E3. apply F3 in CS2; [|apply disj_sym; assumption].
      assert (El : length h3 = Datatypes.S (length h)) by (rewrite El3, El2, app_length; cbn [length]; lia).
      destruct (IH h3 (S ++ [(length h, v)]) pS (Some (length h))) as (h' & Eb & El' & C' & F').
      + destruct S; discriminate.
      + apply nodup_disj; auto.
      + apply chain_app. split; [exact CS2|]. rewrite (last_ptr_irrel _ _ None) by assumption. exact CN3.
      + now rewrite last_ptr_snoc.
      + exists h'. cbn zeta in *. rewrite El in *. rewrite <- app_assoc in *. cbn [app] in *.
        split; [exact Eb|]. split; [lia|]. split; [exact C'|]. intros M q m Dm Cm. apply F'.
        * apply disj_app_l. split; [assumption|]. apply disj_sym. eapply disj_new; exact Cm.
        * apply F3; [apply disj_sym; eapply disj_new; exact Cm|]. apply F2; [assumption|]. apply chain_alloc. exact Cm.
  Qed.

  (** neighbours at a cut *)
  Lemma adj l P Q n : RelL l (P ++ Q) n ->
    get_prev (hp l) (Some (hd 1 (map fst Q))) = Some (Some (last (map fst P) 0)) /\
    get_next (hp l) (Some (last (map fst P) 0)) = Some (Some (hd 1 (map fst Q))).
  Proof.
    intros (_ & _ & _ & _ & vh & vt & Hn & Hc). rewrite full_split in Hc. apply chain_app in Hc as [C1 C2].
    assert (E1 : Some (hd 1 (map fst Q)) = hd_ptr (Q ++ [(1, vt)]) None) by (destruct Q as [|[]]; reflexivity).
    pose proof (last_cons (A:=A) vh P) as E2. rewrite E1, <- E2. split.
    - rewrite (get_prev_seg _ _ _ _ (snoc1_ne _ _) C2). reflexivity.
    - rewrite (get_next_seg _ _ _ _ (cons_ne _ _) C1). reflexivity.
  Qed.

  Lemma insert_ok l P Q n v vs : RelL l (P ++ Q) n ->
    exists h2 e h3 h4 h5 h6, alloc (hp l) (mk None None v) = (hp l ++ [mk None None v], Some n) /\
      build vs (hp l ++ [mk None None v]) (Some n) = Some (h2, e) /\
      get_prev h2 (Some (hd 1 (map fst Q))) = Some (Some (last (map fst P) 0)) /\
      get_next h2 (Some (last (map fst P) 0)) = Some (Some (hd 1 (map fst Q))) /\
      set_next h2 (Some (last (map fst P) 0)) (Some n) = Some h3 /\
      set_prev h3 (Some n) (Some (last (map fst P) 0)) = Some h4 /\
      set_next h4 e (Some (hd 1 (map fst Q))) = Some h5 /\
      set_prev h5 (Some (hd 1 (map fst Q))) e = Some h6 /\
      forall k, k = size l + length (v :: vs) ->
        RelL (LL h6 (head l) (tail l) k) (P ++ combine (seq n (length (v :: vs))) (v :: vs) ++ Q) (n + length (v :: vs)).
  Proof.
    intros (Eh & Et & Es & En & vh & vt & Hn & Hc).
    assert (E1 : Some (hd 1 (map fst Q)) = hd_ptr (Q ++ [(1, vt)]) None) by (destruct Q as [|[]]; reflexivity).
    pose proof (last_cons (A:=A) vh P) as E2. rewrite E1, <- E2. clear E1 E2.
    assert (HPn : (0, vh) :: P <> []) by discriminate. pose proof (snoc1_ne (A:=A) Q (1, vt)) as HQn.
    rewrite full_split in Hn, Hc. set (P' := (0, vh) :: P) in *. set (Q' := Q ++ [(1, vt)]) in *.
    pose proof (named_disj _ _ _ _ (v :: vs) Hc) as D. rewrite En in D. cbn [length seq combine] in D.
    apply disj_app_l in D as [DP DQ].
    apply nodup_disj in Hn as (NP & NQ & DPQ). apply chain_app in Hc as [CP CQ].
    pose proof (seg_new (hp l) None None v) as CS. rewrite En in CS.
    apply (chain_alloc _ (mk None None v)) in CP. apply (chain_alloc _ (mk None None v)) in CQ.
    destruct (build_ok vs _ [(n, v)] None (Some n) (cons_ne _ _) ltac:(repeat constructor; easy) CS eq_refl)
      as (h2 & Eb & El & CS2 & F). cbn zeta in *.
    assert (Eln : length (hp l ++ [mk None None v]) = S n) by (rewrite app_length; cbn [length]; lia).
    rewrite Eln in *. cbn [app] in Eb, CS2. set (N := (n, v) :: combine (seq (S n) (length vs)) vs) in *.
    assert (Dp : disj [(n, v)] P').
    { intros b Hb Hp. destruct Hb as [<-|[]]. apply (DP n Hp). left. reflexivity. }
    assert (Dq : disj [(n, v)] Q').
    { intros b Hb Hp. destruct Hb as [<-|[]]. apply (DQ n Hp). left. reflexivity. }
    apply (F _ _ _ Dp) in CP. apply (F _ _ _ Dq) in CQ.
    assert (NN : NoDup (map fst N)) by (apply (named_nodup (v :: vs) n)).
    assert (HNn : N <> []) by (unfold N; discriminate).
    destruct (link_ok h2 None P' N Q' None HPn HNn HQn NP NN NQ DP DPQ (disj_sym _ _ DQ) _ _ _ _ CP CS2 CQ)
      as (h3 & h4 & h5 & h6 & F1 & F2 & F3 & F4 & F5 & F6).
    change (hd_ptr N None) with (Some n) in *.
    exists h2, (last_ptr None N), h3, h4, h5, h6.
    split; [unfold alloc; now rewrite En|]. split; [exact Eb|].
    split. { rewrite (get_prev_seg _ _ _ _ HQn CQ). f_equal; now apply last_ptr_irrel. }
    split. { rewrite (get_next_seg _ _ _ _ HPn CP). f_equal; now apply hd_ptr_irrel. }
    do 4 (split; [assumption|]). intros k ->.
    split; [assumption|]. split; [assumption|].
    split. { cbn [size]. rewrite Es, !app_length, named_len. lia. }
    split. { cbn [hp]. rewrite F5, El. cbn [length]. lia. }
    exists vh, vt. rewrite full_split. cbn [hp length seq combine]. fold P' N. rewrite <- app_assoc. fold Q'.
    split; [|exact F6]. apply nodup3. repeat split; auto using disj_sym.
  Qed.

  (** where an insertion goes *)
  Lemma cut_before L c new : NoDup (map fst L) -> ~ In 1 (map fst L) ->
    existsb (Nat.eqb c) (map fst L) || (c =? 1) = true ->
    exists P Q, L = P ++ Q /\ hd 1 (map fst Q) = c /\ ins_before new c L = P ++ new ++ Q.
  Proof.
    intros Hn H1 H. destruct (existsb (Nat.eqb c) (map fst L)) eqn:E.
    - apply live_split in E as (L1 & v & L2 & ->). exists L1, ((c, v) :: L2). split; [reflexivity|]. split; [reflexivity|].
      apply ins_before_split; [apply (nodup_mid _ _ _ _ Hn)|]. right; eauto.
    - cbn [orb] in H. apply Nat.eqb_eq in H. subst c. exists L, []. split; [now rewrite app_nil_r|]. split; [reflexivity|].
      rewrite <- (app_nil_r L) at 1. apply ins_before_split; auto.
  Qed.
  Lemma cut_after L c new : NoDup (map fst L) -> ~ In 0 (map fst L) ->
    existsb (Nat.eqb c) (map fst L) || (c =? 0) = true ->
    exists P Q, L = P ++ Q /\ last (map fst P) 0 = c /\ ins_after' new c L = P ++ new ++ Q.
  Proof.
    intros Hn H1 H. unfold ins_after'. destruct (existsb (Nat.eqb c) (map fst L)) eqn:E.
    - apply live_split in E as (L1 & v & L2 & ->). exists (L1 ++ [(c, v)]), L2. rewrite <- !app_assoc. split; [reflexivity|].
      rewrite map_app. cbn [map fst]. rewrite last_last. split; [reflexivity|].
      destruct (Nat.eqb_spec c 0) as [->|Hne].
      { exfalso. apply H1. rewrite map_app. apply in_or_app. right. left. reflexivity. }
      rewrite ins_after_split; [reflexivity|]. apply (nodup_mid _ _ _ _ Hn).
    - cbn [orb] in H. apply Nat.eqb_eq in H. subst c. exists [], L. auto.
  Qed.

  Lemma insertBefore_ok l L n c vs : RelL l L n -> existsb (Nat.eqb c) (map fst L) || (c =? 1) = true -> vs <> [] ->
    exists l', insertBefore l (Some c) vs = Some l' /\
      RelL l' (ins_before (combine (seq n (length vs)) vs) c L) (n + length vs).
  Proof.
    intros HR Hl Hv. pose proof (RelL_nodup _ _ _ HR) as (H1 & H2 & H3).
    destruct (cut_before L c (combine (seq n (length vs)) vs) H1 H3 Hl) as (P & Q & -> & <- & ->).
    destruct vs as [|v vs]; [congruence|].
    destruct (insert_ok l P Q n v vs HR) as (h2 & e & h3 & h4 & h5 & h6 & Ea & E1 & E2 & _ & E3 & E4 & E5 & E6 & HR').
    unfold insertBefore. rewrite Ea, E1, E2, E3, E4, E5, E6. eexists; split; [reflexivity|]. apply HR'. reflexivity.
  Qed.
  Lemma insertAfter_ok l L n c vs : RelL l L n -> existsb (Nat.eqb c) (map fst L) || (c =? 0) = true -> vs <> [] ->
    exists l', insertAfter l (Some c) vs = Some l' /\
      RelL l' (ins_after' (combine (seq n (length vs)) vs) c L) (n + length vs).
  Proof.
    intros HR Hl Hv. pose proof (RelL_nodup _ _ _ HR) as (H1 & H2 & H3).
    destruct (cut_after L c (combine (seq n (length vs)) vs) H1 H2 Hl) as (P & Q & -> & <- & ->).
    destruct vs as [|v vs]; [congruence|].
    destruct (insert_ok l P Q n v vs HR) as (h2 & e & h3 & h4 & h5 & h6 & Ea & E1 & _ & E2 & E3 & E4 & E5 & E6 & HR').
    unfold insertAfter. rewrite Ea, E1, E2, E3, E4, E5, E6. eexists; split; [reflexivity|]. apply HR'. reflexivity.
  Qed.

  (** moving a cell *)
  Lemma relink l X c v Y P Q n : RelL l (X ++ (c, v) :: Y) n -> X ++ Y = P ++ Q ->
    let p := Some (last (map fst P) 0) in let q := Some (hd 1 (map fst Q)) in
    exists cp cn h1 h2, get_prev (hp l) (Some c) = Some cp /\ get_next (hp l) (Some c) = Some cn /\
      set_next (hp l) cp cn = Some h1 /\ set_prev h1 cn cp = Some h2 /\
      (exists h3 h4 h5 h6, set_next h2 p (Some c) = Some h3 /\ set_prev h3 (Some c) p = Some h4 /\
        set_prev h4 q (Some c) = Some h5 /\ set_next h5 (Some c) q = Some h6 /\
        RelL (with_heap l h6) (P ++ (c, v) :: Q) n) /\
      (exists h3 h4 h5 h6, set_prev h2 q (Some c) = Some h3 /\ set_next h3 (Some c) q = Some h4 /\
        set_next h4 p (Some c) = Some h5 /\ set_prev h5 (Some c) p = Some h6 /\
        RelL (with_heap l h6) (P ++ (c, v) :: Q) n).
  Proof.
    intros (Eh & Et & Es & En & vh & vt & Hn & Hc) EPQ p q.
    assert (E1 : q = hd_ptr (Q ++ [(1, vt)]) None) by (destruct Q as [|[]]; reflexivity).
    assert (E2 : p = last_ptr None ((0, vh) :: P)) by (symmetry; apply last_cons). clearbody p q. subst p q.
    rewrite full_split in Hn, Hc. cbn [app] in Hn, Hc.
    change ((0, vh) :: X ++ (c, v) :: Y ++ [(1, vt)]) with (((0, vh) :: X) ++ (c, v) :: (Y ++ [(1, vt)])) in Hn, Hc.
    destruct (unlink_ok' _ _ _ _ _ _ _ (cons_ne (0, vh) X) (snoc1_ne Y (1, vt)) Hn Hc)
      as (h1 & h2 & G1 & G2 & G3 & G4 & El & C1 & C2).
    change ((c, v) :: (Y ++ [(1, vt)])) with ([(c, v)] ++ (Y ++ [(1, vt)])) in Hn.
    apply nodup3 in Hn as (NX & NS & NY & D1 & D2 & D3).
    assert (Hn' : NoDup (map fst (((0, vh) :: X) ++ Y ++ [(1, vt)]))) by (apply nodup_disj; auto).
    assert (D : disj (((0, vh) :: X) ++ Y ++ [(1, vt)]) [(c, v)]) by (apply disj_app_l; auto using disj_sym).
    assert (EF : ((0, vh) :: X) ++ Y ++ [(1, vt)] = ((0, vh) :: P) ++ Q ++ [(1, vt)]).
    { cbn [app]. rewrite !app_assoc, EPQ. reflexivity. }
    rewrite EF in Hn', D, C1. apply nodup_disj in Hn' as (NP & NQ & DPQ). apply disj_app_l in D as [DP DQ].
    apply chain_app in C1 as [CP CQ].
    assert (Hend : forall h6, length h6 = length h2 -> chain h6 None (((0, vh) :: P) ++ [(c, v)] ++ Q ++ [(1, vt)]) None ->
      RelL (with_heap l h6) (P ++ (c, v) :: Q) n).
    { intros h6 E6 C6. split; [assumption|]. split; [assumption|]. cbn [with_heap hp size]. split.
      { rewrite Es. apply (f_equal (@length _)) in EPQ. rewrite !app_length in *. cbn [length]. lia. }
      split; [congruence|]. exists vh, vt. rewrite full_split. cbn [app]. split; [|exact C6].
      change (NoDup (map fst (((0, vh) :: P) ++ [(c, v)] ++ Q ++ [(1, vt)]))). apply nodup3.
      repeat split; auto using disj_sym. }
    do 2 eexists. exists h1, h2. split; [exact G1|]. split; [exact G2|]. split; [exact G3|]. split; [exact G4|]. split.
    - destruct (link_ok3 _ _ _ _ _ _ (cons_ne _ _) (cons_ne (c, v) []) (snoc1_ne _ _) NP NS NQ DP DPQ (disj_sym _ _ DQ)
                  _ _ _ _ CP C2 CQ) as (h3 & h4 & h5 & h6 & F1 & F2 & F3 & F4 & F5 & F6).
      exists h3, h4, h5, h6. cbn [hd_ptr] in F1, F2. change (last_ptr None [(c, v)]) with (Some c) in F3, F4. auto 10.
    - destruct (link_ok4 _ _ _ _ _ _ (cons_ne _ _) (cons_ne (c, v) []) (snoc1_ne _ _) NP NS NQ DP DPQ (disj_sym _ _ DQ)
                  _ _ _ _ CP C2 CQ) as (h3 & h4 & h5 & h6 & F1 & F2 & F3 & F4 & F5 & F6).
      exists h3, h4, h5, h6. change (hd_ptr [(c, v)] None) with (Some c) in F3, F4.
      change (last_ptr None [(c, v)]) with (Some c) in F1, F2. auto 10.
  Qed.
  Lemma around l X c v Y P Q n : RelL l (X ++ (c, v) :: Y) n -> X ++ Y = P ++ Q ->
    (P = X /\ Q = Y) \/
    (get_prev (hp l) (Some (hd 1 (map fst Q))) = Some (Some (last (map fst P) 0)) /\
     get_next (hp l) (Some (last (map fst P) 0)) = Some (Some (hd 1 (map fst Q)))).
  Proof.
    intros HR E. destruct (app_eq_app _ _ _ _ E) as (Z & [[E1 E2]|[E1 E2]]).
    - subst X Q. destruct Z as [|z Z]; [left; rewrite app_nil_r; auto|]. right.
      rewrite <- app_assoc in HR. apply adj in HR. exact HR.
    - subst P Y. destruct Z as [|z Z _] using rev_ind; [left; rewrite app_nil_r; auto|]. right.
      replace (X ++ (c, v) :: (Z ++ [z]) ++ Q) with ((X ++ (c, v) :: Z ++ [z]) ++ Q) in HR
        by (rewrite <- app_assoc; reflexivity).
      apply adj in HR. revert HR.
      replace (last (map fst (X ++ (c, v) :: Z ++ [z])) 0) with (fst z).
      2:{ change (X ++ (c, v) :: Z ++ [z]) with (X ++ ((c, v) :: Z) ++ [z]). rewrite app_assoc, map_app. cbn [map].
          now rewrite last_last. }
      replace (last (map fst (X ++ Z ++ [z])) 0) with (fst z); [tauto|].
      rewrite app_assoc, map_app. cbn [map]. now rewrite last_last.
  Qed.
  Lemma last_in (l : list nat) d : In (last l d) (d :: l).
  Proof.
    destruct l as [|x l _] using rev_ind; [left; reflexivity|]. rewrite last_last. right. apply in_or_app. right. left. reflexivity.
  Qed.
  Lemma hd_in (l : list nat) d : In (hd d l) (d :: l).
  Proof. destruct l; [left|right; left]; reflexivity. Qed.
  Lemma live_drop L c m : m <> c -> existsb (Nat.eqb m) (map fst L) = true -> existsb (Nat.eqb m) (map fst (drop L c)) = true.
  Proof.
    intros Hne H. apply existsb_exists in H as (x & Hin & E). apply Nat.eqb_eq in E. subst x.
    apply existsb_exists. exists m. split; [|apply Nat.eqb_refl]. apply in_map_iff in Hin as (y & E & Hin).
    apply in_map_iff. exists y. split; [assumption|]. apply filter_In. split; [assumption|].
    destruct (Nat.eqb_spec (fst y) c); [congruence|reflexivity].
  Qed.

  Lemma moveBefore_ok l L n c v m : RelL l L n -> value_of L c = Some v ->
    existsb (Nat.eqb m) (map fst L) || (m =? 1) = true ->
    exists l', moveBefore l (Some c) (Some m) = Some l' /\
      RelL l' (if c =? m then L else ins_before [(c, v)] m (drop L c)) n.
  Proof.
    intros HR Hv Hm. unfold moveBefore. cbn [ptr_eqb]. destruct (Nat.eqb_spec c m) as [Ecm|Hne]; [eauto|].
    pose proof (RelL_nodup _ _ _ HR) as (Hn & H0 & H1).
    assert (Hm' : existsb (Nat.eqb m) (map fst (drop L c)) || (m =? 1) = true).
    { apply orb_true_iff in Hm as [Hm|Hm]; [rewrite (live_drop L c m) by auto; reflexivity|rewrite Hm; apply orb_true_r]. }
    apply value_split in Hv as (X & Y & ->). rewrite drop_split in * by assumption.
    assert (Hn' : NoDup (map fst (X ++ Y)) /\ ~ In 1 (map fst (X ++ Y)) /\ ~ In c (map fst (X ++ Y)) /\ c <> 0).
    { rewrite map_app in *. cbn [map fst] in *. repeat split.
      - apply NoDup_remove_1 in Hn. assumption.
      - intros Hi. apply H1. rewrite in_app_iff in *. cbn [In]. tauto.
      - apply NoDup_remove_2 in Hn. assumption.
      - intros ->. apply H0. apply in_or_app. right. left. reflexivity. }
    destruct Hn' as (Hn1 & Hn2 & Hn3 & Hn4).
    destruct (cut_before _ _ [(c, v)] Hn1 Hn2 Hm') as (P & Q & EPQ & <- & ->). cbn [app] in *.
    destruct (around _ _ _ _ _ _ _ _ HR EPQ) as [[-> ->]|[Ep En]].
    - assert (HR2 : RelL l ((X ++ [(c, v)]) ++ Y) n) by (rewrite <- app_assoc; exact HR).
      apply adj in HR2 as [Ep _]. rewrite map_app in Ep. cbn [map fst] in Ep. rewrite last_last in Ep.
      rewrite Ep. cbn [ptr_eqb]. rewrite Nat.eqb_refl. eauto.
    - rewrite Ep. cbn [ptr_eqb]. destruct (Nat.eqb_spec (last (map fst P) 0) c) as [Ec|_].
      { exfalso. pose proof (last_in (map fst P) 0) as Hi. rewrite Ec in Hi. destruct Hi as [Hi|Hi]; [congruence|].
        apply Hn3. rewrite EPQ, map_app. apply in_or_app. auto. }
      destruct (relink _ _ _ _ _ _ _ _ HR EPQ) as (cp & cn & h1 & h2 & G1 & G2 & G3 & G4 & (h3 & h4 & h5 & h6 & F1 & F2 & F3 & F4 & HR') & _).
      rewrite G1, G2, G3, G4, F1, F2, F3, F4. eauto.
  Qed.
  Lemma moveAfter_ok l L n c v m : RelL l L n -> value_of L c = Some v ->
    existsb (Nat.eqb m) (map fst L) || (m =? 0) = true ->
    exists l', moveAfter l (Some c) (Some m) = Some l' /\
      RelL l' (if c =? m then L else ins_after' [(c, v)] m (drop L c)) n.
  Proof.
    intros HR Hv Hm. unfold moveAfter. cbn [ptr_eqb]. destruct (Nat.eqb_spec c m) as [Ecm|Hne]; [eauto|].
    pose proof (RelL_nodup _ _ _ HR) as (Hn & H0 & H1).
    assert (Hm' : existsb (Nat.eqb m) (map fst (drop L c)) || (m =? 0) = true).
    { apply orb_true_iff in Hm as [Hm|Hm]; [rewrite (live_drop L c m) by auto; reflexivity|rewrite Hm; apply orb_true_r]. }
    apply value_split in Hv as (X & Y & ->). rewrite drop_split in * by assumption.
    assert (Hn' : NoDup (map fst (X ++ Y)) /\ ~ In 0 (map fst (X ++ Y)) /\ ~ In c (map fst (X ++ Y)) /\ c <> 1).
    { rewrite map_app in *. cbn [map fst] in *. repeat split.
      - apply NoDup_remove_1 in Hn. assumption.
      - intros Hi. apply H0. rewrite in_app_iff in *. cbn [In]. tauto.
      - apply NoDup_remove_2 in Hn. assumption.
      - intros ->. apply H1. apply in_or_app. right. left. reflexivity. }
    destruct Hn' as (Hn1 & Hn2 & Hn3 & Hn4).
    destruct (cut_after _ _ [(c, v)] Hn1 Hn2 Hm') as (P & Q & EPQ & <- & ->). cbn [app] in *.
    destruct (around _ _ _ _ _ _ _ _ HR EPQ) as [[-> ->]|[Ep En]].
    - apply adj in HR as HR2. destruct HR2 as [_ En]. cbn [map fst hd] in En.
      rewrite En. cbn [ptr_eqb]. rewrite Nat.eqb_refl. eauto.
    - rewrite En. cbn [ptr_eqb]. destruct (Nat.eqb_spec (hd 1 (map fst Q)) c) as [Ec|_].
      { exfalso. pose proof (hd_in (map fst Q) 1) as Hi. rewrite Ec in Hi. destruct Hi as [Hi|Hi]; [congruence|].
        apply Hn3. rewrite EPQ, map_app. apply in_or_app. auto. }
      destruct (relink _ _ _ _ _ _ _ _ HR EPQ) as (cp & cn & h1 & h2 & G1 & G2 & G3 & G4 & _ & (h3 & h4 & h5 & h6 & F1 & F2 & F3 & F4 & HR')).
      rewrite G1, G2, G3, G4, F1, F2, F3, F4. eauto.
  Qed.

  (** writing *)
  Lemma setValue_ok l L n c v : RelL l L n -> existsb (Nat.eqb c) (map fst L) = true ->
    exists h', set_val (hp l) (Some c) v = Some h' /\ RelL (with_heap l h') (write L c v) n.
  Proof.
    intros HR Hl. pose proof (RelL_nodup _ _ _ HR) as (Hn & _). apply live_split in Hl as (X & w & Y & ->).
    rewrite write_split by assumption. destruct HR as (Eh & Et & Es & En & vh & vt & Hf & Hc).
    rewrite full_split in Hf, Hc. cbn [app] in Hf, Hc.
    change ((0, vh) :: X ++ (c, w) :: Y ++ [(1, vt)]) with (((0, vh) :: X) ++ (c, w) :: (Y ++ [(1, vt)])) in Hf, Hc.
    destruct (seg_set_val _ _ _ _ _ _ _ v Hf Hc) as (h' & E & El & C & _). exists h'. split; [exact E|].
    split; [assumption|]. split; [assumption|]. cbn [with_heap size hp]. split.
    { rewrite Es, !app_length. reflexivity. }
    split; [congruence|]. exists vh, vt. rewrite full_split. split; [|exact C].
    revert Hf. rewrite !map_app. cbn [map fst]. rewrite !map_app. cbn [map fst]. tauto.
  Qed.
  Lemma value_live L c v : value_of L c = Some v -> existsb (Nat.eqb c) (map fst L) = true.
  Proof.
    intros H. apply value_split in H as (X & Y & ->). rewrite map_app, existsb_app. cbn [map fst existsb].
    rewrite Nat.eqb_refl. cbn [orb]. apply orb_true_r.
  Qed.
  Lemma value_node l L n c v : RelL l L n -> value_of L c = Some v -> exists nd, deref (hp l) (Some c) = Some nd /\ nval nd = v.
  Proof. intros HR Hv. apply value_split in Hv as (X & Y & ->). eapply node_at; exact HR. Qed.
  Lemma swap_ok l L n c d v w : RelL l L n -> value_of L c = Some v -> value_of L d = Some w ->
    exists l', swap l (Some c) (Some d) = Some l' /\ RelL l' (write (write L c w) d v) n.
  Proof.
    intros HR Hc Hd. unfold swap. destruct (value_node _ _ _ _ _ HR Hc) as (nc & -> & <-).
    destruct (value_node _ _ _ _ _ HR Hd) as (nd & -> & <-).
    destruct (setValue_ok _ _ _ _ (nval nd) HR (value_live _ _ _ Hc)) as (h1 & -> & HR1).
    assert (Hl : existsb (Nat.eqb d) (map fst (write L c (nval nd))) = true)
      by (rewrite write_names; eapply value_live; exact Hd).
    destruct (setValue_ok _ _ _ _ (nval nc) HR1 Hl) as (h2 & E & HR2). cbn [with_heap hp] in E. rewrite E. eauto.
  Qed.

  (** removing *)
  Lemma follows_unique (l1 : list nat) a (l2 : list nat) b : NoDup (l1 ++ a :: l2) -> follows (l1 ++ a :: l2) a = Some b -> hd_error l2 = Some b.
  Proof.
    intros Hn H. destruct l2 as [|x l2].
    - exfalso. apply follows_split in H as (m1 & m2 & E). assert (Hin : In a l1).
      { change (a :: b :: m2) with ([a] ++ b :: m2) in E. destruct m2 as [|z m2 _] using rev_ind.
        - rewrite app_assoc in E. apply app_inj_tail in E as [E _]. rewrite E. apply in_or_app. right. left. reflexivity.
        - replace (m1 ++ [a] ++ b :: m2 ++ [z]) with ((m1 ++ [a] ++ b :: m2) ++ [z]) in E
            by (rewrite <- !app_assoc; reflexivity).
          apply app_inj_tail in E as [E _]. rewrite E. apply in_or_app. right. left. reflexivity. }
      apply NoDup_remove_2 in Hn. apply Hn. apply in_or_app. auto.
    - rewrite split_follows in H; [exact H|]. apply NoDup_remove_2 in Hn. rewrite in_app_iff in Hn. tauto.
  Qed.

  Lemma removeToNext_ok circ l L n c d : RelL l L n -> existsb (Nat.eqb c) (map fst L) = true ->
    follows (0 :: map fst L ++ [1]) c = Some d ->
    exists l', removeToNext circ l (Some c) =
      Some (l', Some (if circ && (d =? 1) then hd 1 (map fst (drop L c)) else d)) /\ RelL l' (drop L c) n.
  Proof.
    intros HR Hl Hf. unfold removeToNext. rewrite (get_next_at _ _ _ _ _ HR Hf).
    pose proof (RelL_nodup _ _ _ HR) as (Hn & _). apply live_split in Hl as (X & w & Y & ->).
    rewrite drop_split by assumption. pose proof HR as (Eh & Et & Es & _).
    destruct (remove_ok _ _ _ _ _ _ HR) as (h' & -> & HR').
    specialize (HR' (size l - 1)). assert (Ek : size l - 1 = length (X ++ Y))
      by (rewrite Es, !app_length; cbn [length]; lia). specialize (HR' Ek).
    rewrite Et. cbn [ptr_eqb]. pose proof (first_ok _ _ _ HR') as Ef. cbn [hp head] in Ef.
    destruct (circ && (d =? 1)); [rewrite Ef|]; (eexists; split; [reflexivity|]); rewrite <- Et; exact HR'.
  Qed.
  Lemma removeToPrev_ok circ l L n c d : RelL l L n -> existsb (Nat.eqb c) (map fst L) = true ->
    follows (rev (0 :: map fst L ++ [1])) c = Some d ->
    exists l', removeToPrev circ l (Some c) =
      Some (l', Some (if circ && (d =? 0) then last (map fst (drop L c)) 0 else d)) /\ RelL l' (drop L c) n.
  Proof.
    intros HR Hl Hf. unfold removeToPrev. rewrite (get_prev_at _ _ _ _ _ HR Hf).
    pose proof (RelL_nodup _ _ _ HR) as (Hn & _). apply live_split in Hl as (X & w & Y & ->).
    rewrite drop_split by assumption. pose proof HR as (Eh & Et & Es & _).
    destruct (remove_ok _ _ _ _ _ _ HR) as (h' & -> & HR').
    specialize (HR' (size l - 1)). assert (Ek : size l - 1 = length (X ++ Y))
      by (rewrite Es, !app_length; cbn [length]; lia). specialize (HR' Ek).
    rewrite Eh. cbn [ptr_eqb]. pose proof (last_ok _ _ _ HR') as Ef. cbn [hp tail] in Ef.
    destruct (circ && (d =? 0)); [rewrite Ef|]; (eexists; split; [reflexivity|]); rewrite <- Eh; exact HR'.
  Qed.

  (** stepping *)
  Lemma fwd_ok l (t : cstate A) n : RelL l (cells t) (fresh t) -> forall c d, c <> 1 ->
    steps (fun x => if x =? 1 then Some x else succ t x) n c = Some d -> fwd_loop l n (Some c) = Some (Some d).
  Proof.
    intros HR. pose proof HR as (_ & Et & _). induction n as [|n IH]; intros c d Hc H; cbn [steps fwd_loop] in *; [injection H as <-; reflexivity|].
    destruct (Nat.eqb_spec c 1) as [|_]; [congruence|]. destruct (succ t c) as [c'|] eqn:E; [|discriminate].
    rewrite (get_next_at _ _ _ _ _ HR E), Et. cbn [ptr_eqb]. destruct (Nat.eqb_spec c' 1) as [->|Hne].
    - assert (Hs : forall k, steps (fun x => if x =? 1 then Some x else succ t x) k 1 = Some 1)
        by (induction k; [reflexivity|exact IHk]). rewrite Hs in H. injection H as <-. reflexivity.
    - apply IH; assumption.
  Qed.
  Lemma bwd_ok l (t : cstate A) n : RelL l (cells t) (fresh t) -> forall c d, c <> 0 ->
    steps (fun x => if x =? 0 then Some x else pred t x) n c = Some d -> bwd_loop l n (Some c) = Some (Some d).
  Proof.
    intros HR. pose proof HR as (Eh & _). induction n as [|n IH]; intros c d Hc H; cbn [steps bwd_loop] in *; [injection H as <-; reflexivity|].
    destruct (Nat.eqb_spec c 0) as [|_]; [congruence|]. destruct (pred t c) as [c'|] eqn:E; [|discriminate].
    rewrite (get_prev_at _ _ _ _ _ HR E), Eh. cbn [ptr_eqb]. destruct (Nat.eqb_spec c' 0) as [->|Hne].
    - assert (Hs : forall k, steps (fun x => if x =? 0 then Some x else pred t x) k 0 = Some 0)
        by (induction k; [reflexivity|exact IHk]). rewrite Hs in H. injection H as <-. reflexivity.
    - apply IH; assumption.
  Qed.
  Lemma steps_fix f n c : f c = Some c -> steps f n c = Some c.
  Proof. intros H. induction n; cbn [steps]; [reflexivity|]. now rewrite H. Qed.
  Lemma move_ok l (t : cstate A) c z d : RelL l (cells t) (fresh t) ->
    (if (0 <? z)%Z then steps (fun x => if x =? 1 then Some x else succ t x) (Z.to_nat z) c
     else steps (fun x => if x =? 0 then Some x else pred t x) (Z.to_nat (- z)) c) = Some d ->
    move l (Some c) z = Some (Some d).
  Proof.
    intros HR H. pose proof HR as (Eh & Et & _). unfold move. rewrite Eh, Et. cbn [ptr_eqb]. destruct (0 <? z)%Z.
    - destruct (Nat.eqb_spec c 1) as [->|Hne]; [rewrite steps_fix in H by reflexivity; injection H as <-; reflexivity|]. eapply fwd_ok; eassumption.
    - destruct (Nat.eqb_spec c 0) as [->|Hne]; [rewrite steps_fix in H by reflexivity; injection H as <-; reflexivity|]. eapply bwd_ok; eassumption.
  Qed.

  Lemma first_ne1 l (t : cstate A) : RelL l (cells t) (fresh t) -> cells t <> [] -> first t <> 1.
  Proof.
    intros HR Hne. apply RelL_nodup in HR as (_ & _ & H). unfold first. destruct (cells t) as [|[a v] L]; [congruence|].
    cbn [map fst hd In] in *. tauto.
  Qed.
  Lemma last_ne0 l (t : cstate A) : RelL l (cells t) (fresh t) -> cells t <> [] -> last_ t <> 0.
  Proof.
    intros HR Hne. apply RelL_nodup in HR as (_ & H & _). unfold last_.
    destruct (cells t) as [|[a v] L _] using rev_ind; [congruence|]. rewrite map_app in *. cbn [map fst] in *.
    rewrite last_last. intros ->. apply H. apply in_or_app. right. left. reflexivity.
  Qed.
  Lemma cfwd_ok l (t : cstate A) n : RelL l (cells t) (fresh t) -> cells t <> [] -> forall c d, c <> 1 ->
    steps (cnext t) n c = Some d -> circ_fwd l n (Some c) = Some (Some d).
  Proof.
    intros HR Hne. pose proof HR as (_ & Et & _). induction n as [|n IH]; intros c d Hc H; cbn [steps circ_fwd] in *; [injection H as <-; reflexivity|].
    unfold cnext at 1 in H. pose proof (first_ne1 l t HR Hne) as Hf. pose proof (first_ok _ _ _ HR) as Ef.
    fold (first t) in Ef. destruct (cells t) eqn:Ec; [congruence|]. rewrite <- Ec in *.
    destruct (Nat.eqb_spec c 1) as [|_]; [congruence|]. destruct (succ t c) as [c'|] eqn:E; [|discriminate].
    rewrite (get_next_at _ _ _ _ _ HR E), Et. cbn [ptr_eqb]. destruct (Nat.eqb_spec c' 1) as [->|Hn1].
    - rewrite Ef. apply IH; assumption.
    - apply IH; assumption.
  Qed.
  Lemma cbwd_ok l (t : cstate A) n : RelL l (cells t) (fresh t) -> cells t <> [] -> forall c d, c <> 0 ->
    steps (cprev t) n c = Some d -> circ_bwd l n (Some c) = Some (Some d).
  Proof.
    intros HR Hne. pose proof HR as (Eh & _). induction n as [|n IH]; intros c d Hc H; cbn [steps circ_bwd] in *; [injection H as <-; reflexivity|].
    unfold cprev at 1 in H. pose proof (last_ne0 l t HR Hne) as Hf. pose proof (last_ok _ _ _ HR) as Ef.
    fold (last_ t) in Ef. destruct (cells t) eqn:Ec; [congruence|]. rewrite <- Ec in *.
    destruct (Nat.eqb_spec c 0) as [|_]; [congruence|]. destruct (pred t c) as [c'|] eqn:E; [|discriminate].
    rewrite (get_prev_at _ _ _ _ _ HR E), Eh. cbn [ptr_eqb]. destruct (Nat.eqb_spec c' 0) as [->|Hn1].
    - rewrite Ef. apply IH; assumption.
    - apply IH; assumption.
  Qed.
  Lemma circ_move_ok l (t : cstate A) c z d : RelL l (cells t) (fresh t) ->
    (cells t = [] \/ live t c = true) ->
    (if (0 <? z)%Z then steps (cnext t) (Z.to_nat z) c else steps (cprev t) (Z.to_nat (- z)) c) = Some d ->
    circ_move l (Some c) z = Some (Some d).
  Proof.
    intros HR Hl H. unfold circ_move. rewrite (size0 _ _ _ HR). destruct (cells t) as [|x L] eqn:Ec.
    - rewrite !steps_fix in H by (unfold cnext, cprev; rewrite Ec; reflexivity). destruct (0 <? z)%Z; injection H as <-; reflexivity.
    - destruct Hl as [Hl|Hl]; [discriminate|]. assert (Hne : cells t <> []) by congruence. rewrite <- Ec in HR.
      pose proof (RelL_nodup _ _ _ HR) as (_ & H0 & H1). pose proof HR as (Eh & Et & _). unfold live in Hl.
      apply existsb_exists in Hl as (y & Hin & E). apply Nat.eqb_eq in E. subst y.
      rewrite Eh, Et. cbn [ptr_eqb]. destruct (Nat.eqb_spec c 1) as [->|]; [tauto|].
      destruct (Nat.eqb_spec c 0) as [->|]; [tauto|].
      destruct (0 <? z)%Z; [eapply cfwd_ok|eapply cbwd_ok]; eassumption.
  Qed.
  Lemma circ_next_ok l (t : cstate A) c d : RelL l (cells t) (fresh t) -> cnext t c = Some d -> circ_next l (Some c) = Some (Some d).
  Proof.
    intros HR H. unfold circ_next. rewrite (size0 _ _ _ HR). unfold cnext in H. pose proof (first_ok _ _ _ HR) as Ef.
    fold (first t) in Ef. pose proof HR as (_ & Et & _). destruct (cells t) eqn:Ec; [injection H as <-; reflexivity|]. rewrite <- Ec in *.
    rewrite Et. cbn [ptr_eqb]. destruct (Nat.eqb_spec c 1) as [->|]; [injection H as <-; assumption|].
    destruct (succ t c) as [c'|] eqn:E; [|discriminate]. rewrite (get_next_at _ _ _ _ _ HR E). cbn [ptr_eqb].
    destruct (Nat.eqb_spec c' 1); injection H as <-; [assumption|reflexivity].
  Qed.
  Lemma circ_prev_ok l (t : cstate A) c d : RelL l (cells t) (fresh t) -> cprev t c = Some d -> circ_prev l (Some c) = Some (Some d).
  Proof.
    intros HR H. unfold circ_prev. rewrite (size0 _ _ _ HR). unfold cprev in H. pose proof (last_ok _ _ _ HR) as Ef.
    fold (last_ t) in Ef. pose proof HR as (Eh & _). destruct (cells t) eqn:Ec; [injection H as <-; reflexivity|]. rewrite <- Ec in *.
    rewrite Eh. cbn [ptr_eqb]. destruct (Nat.eqb_spec c 0) as [->|]; [injection H as <-; assumption|].
    destruct (pred t c) as [c'|] eqn:E; [|discriminate]. rewrite (get_prev_at _ _ _ _ _ HR E). cbn [ptr_eqb].
    destruct (Nat.eqb_spec c' 0); injection H as <-; [assumption|reflexivity].
  Qed.

  (** ** one step *)
  Lemma Rel_at s (t : cstate A) i c : Rel s t -> Rel (set_it s i (Some c)) (at_ t i c).
  Proof.
    intros [HR Hi]. split; [exact HR|]. intros j. cbn [set_it its at_ cur]. destruct (j =? i); [reflexivity|apply Hi].
  Qed.
  Lemma Rel_upd s (t : cstate A) l' L n : Rel s t -> RelL l' L n -> Rel (SYS l' (its s)) (CS L n (cur t)).
  Proof. intros [HR Hi] HR'. split; assumption. Qed.
  Lemma valid_ok l (t : cstate A) c : RelL l (cells t) (fresh t) -> somewhere t c = true -> valid l (Some c) = live t c.
  Proof.
    intros HR Hs. pose proof (RelL_nodup _ _ _ HR) as (_ & H0 & H1). destruct HR as (Eh & Et & _).
    unfold valid. rewrite Eh, Et. cbn [ptr_eqb]. unfold somewhere, names in Hs. cbn [existsb] in Hs. rewrite existsb_app in Hs.
    cbn [existsb] in Hs. fold (live t c) in Hs. destruct (live t c) eqn:El.
    - unfold live in El. apply existsb_exists in El as (y & Hin & E). apply Nat.eqb_eq in E. subst y.
      destruct (Nat.eqb_spec c 0) as [->|]; [tauto|]. destruct (Nat.eqb_spec c 1) as [->|]; [tauto|]. reflexivity.
    - destruct (c =? 0); [reflexivity|]. destruct (c =? 1); [reflexivity|]. discriminate.
  Qed.
  Lemma when_some {B} (b : bool) (x : option B) y : when b x = Some y -> b = true /\ x = Some y.
  Proof. destruct b; cbn [when]; [auto|discriminate]. Qed.
  Lemma moved_some (t : cstate A) i x t' r : moved t i x = Some (t', r) -> exists c, x = Some c /\ t' = at_ t i c /\ r = LUnit.
  Proof. destruct x as [c|]; cbn [moved]; [intros [= <- <-]; eauto|discriminate]. Qed.

  Lemma sys_step_ok s (t t' : cstate A) o r : Rel s t -> c_spec t o = Some (t', r) ->
    exists s', sys_step s o = Some (s', r) /\ Rel s' t'.
  Proof.
    intros HS H. pose proof HS as [HR Hi]. destruct o as [o|i circ a]; cbn [c_spec sys_step] in *.
    - injection H as H. destruct (step_ok (lst s) t o HR) as (l' & -> & HR' & Ecur). rewrite H in *. cbn [fst snd] in *.
      eexists; split; [reflexivity|]. split; [assumption|]. intros j. cbn [its]. rewrite Ecur. apply Hi.
    - unfold iter_act. rewrite Hi. set (c := cur t i) in *. destruct a; cbn [iter_step] in H; fold c in H.
      + injection H as <- <-. unfold it_first. rewrite (first_ok _ _ _ HR). eexists; split; [reflexivity|]. now apply Rel_at.
      + apply when_some in H as [_ H]. apply moved_some in H as (d & E & -> & ->).
        assert (En : (if circ then circ_next (lst s) (Some c) else next (lst s) (Some c)) = Some (Some d)).
        { destruct circ; [eapply circ_next_ok; eassumption|]. unfold next. eapply get_next_at; eassumption. }
        rewrite En. eexists; split; [reflexivity|]. now apply Rel_at.
      + apply when_some in H as [_ H]. apply moved_some in H as (d & E & -> & ->).
        assert (En : (if circ then circ_prev (lst s) (Some c) else prev (lst s) (Some c)) = Some (Some d)).
        { destruct circ; [eapply circ_prev_ok; eassumption|]. unfold prev. eapply get_prev_at; eassumption. }
        rewrite En. eexists; split; [reflexivity|]. now apply Rel_at.
      + injection H as <- <-. unfold it_first. rewrite (first_ok _ _ _ HR). eexists; split; [reflexivity|]. now apply Rel_at.
      + injection H as <- <-. unfold it_last. rewrite (last_ok _ _ _ HR). eexists; split; [reflexivity|]. now apply Rel_at.
      + apply when_some in H as [Hs H]. injection H as <- <-. rewrite (valid_ok _ _ _ HR Hs). eauto.
      + destruct (value_of (cells t) c) as [v|] eqn:E; [|discriminate]. injection H as <- <-. unfold value.
        destruct (value_node _ _ _ _ _ HR E) as (nd & -> & <-). eauto.
      + apply when_some in H as [Hl H]. injection H as <- <-. unfold setValue.
        destruct (setValue_ok _ _ _ _ v HR Hl) as (h' & -> & HR'). eexists; split; [reflexivity|]. eapply Rel_upd; eassumption.
      + rewrite Hi. destruct (value_of (cells t) c) as [v|] eqn:E; [|discriminate].
        destruct (value_of (cells t) (cur t j)) as [w|] eqn:E2; [|discriminate]. injection H as <- <-.
        destruct (swap_ok _ _ _ _ _ _ _ HR E E2) as (l' & -> & HR'). eexists; split; [reflexivity|]. eapply Rel_upd; eassumption.
      + destruct circ.
        * apply when_some in H as [Hl H]. apply moved_some in H as (d & E & -> & ->).
          rewrite (circ_move_ok _ _ _ _ _ HR) with (2 := E).
          -- eexists; split; [reflexivity|]. now apply Rel_at.
          -- destruct (cells t); [left; reflexivity|right; exact Hl].
        * apply when_some in H as [Hl H]. apply moved_some in H as (d & E & -> & ->).
          rewrite (move_ok _ _ _ _ _ HR E). eexists; split; [reflexivity|]. now apply Rel_at.
      + rewrite Hi. destruct (value_of (cells t) c) as [v|] eqn:E; [|discriminate]. apply when_some in H as [Hl H]. injection H as <- <-.
        destruct (moveBefore_ok _ _ _ _ _ _ HR E Hl) as (l' & -> & HR'). eexists; split; [reflexivity|]. eapply Rel_upd; eassumption.
      + rewrite Hi. destruct (value_of (cells t) c) as [v|] eqn:E; [|discriminate]. apply when_some in H as [Hl H]. injection H as <- <-.
        destruct (moveAfter_ok _ _ _ _ _ _ HR E Hl) as (l' & -> & HR'). eexists; split; [reflexivity|]. eapply Rel_upd; eassumption.
      + apply when_some in H as [Hl H]. injection H as <- <-. apply andb_true_iff in Hl as [Hl Hv].
        assert (Hv' : vs <> []) by (destruct vs; discriminate).
        destruct (insertBefore_ok _ _ _ _ _ HR Hl Hv') as (l' & -> & HR'). eexists; split; [reflexivity|]. eapply Rel_upd; eassumption.
      + apply when_some in H as [Hl H]. injection H as <- <-. apply andb_true_iff in Hl as [Hl Hv].
        assert (Hv' : vs <> []) by (destruct vs; discriminate).
        destruct (insertAfter_ok _ _ _ _ _ HR Hl Hv') as (l' & -> & HR'). eexists; split; [reflexivity|]. eapply Rel_upd; eassumption.
      + apply when_some in H as [Hl H]. apply moved_some in H as (d & E & -> & ->).
        destruct (succ t c) as [e|] eqn:Ef; [|discriminate]. injection E as <-.
        destruct (removeToNext_ok circ _ _ _ _ _ HR Hl Ef) as (l' & -> & HR'). eexists; split; [reflexivity|].
        apply (Rel_at (SYS l' (its s))). eapply Rel_upd; eassumption.
      + apply when_some in H as [Hl H]. apply moved_some in H as (d & E & -> & ->).
        destruct (pred t c) as [e|] eqn:Ef; [|discriminate]. injection E as <-.
        destruct (removeToPrev_ok circ _ _ _ _ _ HR Hl Ef) as (l' & -> & HR'). eexists; split; [reflexivity|].
        apply (Rel_at (SYS l' (its s))). eapply Rel_upd; eassumption.
  Qed.
  Lemma sys_new_ok : exists s, sys_new zero = Some s /\ Rel s cnew.
  Proof.
    destruct (new_ok zero) as (l & E & HR). unfold sys_new. rewrite E. unfold it_first. rewrite (first_ok _ _ _ HR).
    eexists; split; [reflexivity|]. split; [exact HR|]. reflexivity.
  Qed.
End I.
