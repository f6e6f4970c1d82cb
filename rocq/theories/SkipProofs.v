(** Skip lists: the levels, insertion and removal. *)
From Verif Require Import Base Bind Machine OrderSpec SMapSpec SMapFacts SkipSpec SkipModel.

Lemma nodup_l {A} (l l' : list A) : NoDup (l ++ l') -> NoDup l.
Proof. induction l; intros H; [constructor|]. inversion H; subst. constructor; auto. intros X. apply H2. apply in_or_app. auto. Qed.
Lemma nodup_r {A} (l l' : list A) : NoDup (l ++ l') -> NoDup l'.
Proof. induction l; intros H; auto. inversion H; subst. auto. Qed.

Section Mem.
  Context {K V : Type}.
  Notation mem_t := (list (node K V)).
  (** ** Memory *)
  Definition flen (m : mem_t) (a : nat) : option nat := option_map (fun n => length (fwd n)) (nth_error m a).
  Lemma setf_ok (m : mem_t) a i p l : flen m a = Some l -> i < l -> exists m', setf m a i p = Some m' /\ getf m' a i = Some p /\
    (forall b j, b <> a \/ j <> i -> getf m' b j = getf m b j) /\ (forall b, entry m' b = entry m b) /\ (forall b, flen m' b = flen m b) /\
    length m' = length m.
  Proof.
    unfold flen, setf, getf, entry. intros E Hi. destruct (nth_error m a) as [n|] eqn:En; [|discriminate]. injection E as <-.
    assert (Ha : a < length m) by (apply nth_error_Some; congruence).
    replace (i <? length (fwd n)) with true by (symmetry; now apply Nat.ltb_lt). eexists. split; [reflexivity|].
    rewrite nth_error_list_set_eq by auto. cbn [fwd]. split; [now apply nth_error_list_set_eq|]. split; [|split; [|split; [|apply list_set_length]]].
    - intros b j H. destruct (Nat.eq_dec a b) as [<-|Hb]; [|now rewrite nth_error_list_set_neq]. rewrite nth_error_list_set_eq, En by auto. cbn [fwd].
      apply nth_error_list_set_neq. intuition.
    - intros b. destruct (Nat.eq_dec a b) as [<-|Hb]; [|now rewrite nth_error_list_set_neq]. now rewrite nth_error_list_set_eq, En.
    - intros b. destruct (Nat.eq_dec a b) as [<-|Hb]; [|now rewrite nth_error_list_set_neq]. rewrite nth_error_list_set_eq, En by auto. cbn. now rewrite list_set_length.
  Qed.
  Lemma setv_ok (m : mem_t) a v e : entry m a = Some e -> exists m', setv m a v = Some m' /\ entry m' a = Some (fst e, v) /\
    (forall b, b <> a -> entry m' b = entry m b) /\ (forall b j, getf m' b j = getf m b j) /\ (forall b, flen m' b = flen m b) /\ length m' = length m.
  Proof.
    unfold flen, setv, getf, entry. intros E. destruct (nth_error m a) as [n|] eqn:En; [|discriminate]. rewrite E.
    assert (Ha : a < length m) by (apply nth_error_Some; congruence). eexists. split; [reflexivity|].
    rewrite nth_error_list_set_eq by auto. split; [reflexivity|]. split; [|split; [|split; [|apply list_set_length]]].
    - intros b Hb. now rewrite nth_error_list_set_neq by auto.
    - intros b j. destruct (Nat.eq_dec a b) as [<-|Hb]; [|now rewrite nth_error_list_set_neq]. now rewrite nth_error_list_set_eq, En.
    - intros b. destruct (Nat.eq_dec a b) as [<-|Hb]; [|now rewrite nth_error_list_set_neq]. now rewrite nth_error_list_set_eq, En.
  Qed.
  Lemma alloc_ok (m : mem_t) n : let m' := m ++ [n] in
    (forall b j, b < length m -> getf m' b j = getf m b j) /\ (forall b, b < length m -> entry m' b = entry m b) /\
    (forall b, b < length m -> flen m' b = flen m b) /\ entry m' (length m) = kv n /\ flen m' (length m) = Some (length (fwd n)) /\
    (forall j, getf m' (length m) j = nth_error (fwd n) j).
  Proof.
    cbv zeta. unfold getf, entry, flen.
    do 3 (split; [intros; rewrite nth_error_app1 by auto; reflexivity|]).
    rewrite nth_error_app2, Nat.sub_diag by auto. cbn. auto.
  Qed.

  (** ** Cells of the list: address, height, entry *)
  Record cell := C { cid : nat; cht : nat; ckv : K * V }.
  Implicit Types (A B L P R : list cell) (c : cell).
  Definition at_ (i : nat) L : list cell := filter (fun c => i <? cht c) L.
  Definition ids L : list nat := map cid L.
  Definition ents L : list (K * V) := map ckv L.
  Definition lastid (a : nat) A : nat := last (ids A) a.
  Fixpoint path (m : mem_t) (i a : nat) L : Prop :=
    match L with [] => getf m a i = Some None | c :: L' => getf m a i = Some (Some (cid c)) /\ path m i (cid c) L' end.
  Fixpoint seg (m : mem_t) (i a : nat) A : Prop :=
    match A with [] => True | c :: A' => getf m a i = Some (Some (cid c)) /\ seg m i (cid c) A' end.
  (** the Forward cells of [c] above its height, if there are any, are nil *)
  Definition blank (m : mem_t) c : Prop := forall i p, cht c <= i -> getf m (cid c) i = Some p -> p = None.
  Definition good (m : mem_t) c : Prop :=
    entry m (cid c) = Some (ckv c) /\ 1 <= cht c /\ (exists l, flen m (cid c) = Some l /\ cht c <= l) /\ blank m c.
  Definition hd_id L : option nat := option_map cid (hd_error L).

  Lemma at_app i A B : at_ i (A ++ B) = at_ i A ++ at_ i B. Proof. apply filter_app. Qed.
  Lemma at_one i c : at_ i [c] = if i <? cht c then [c] else []. Proof. reflexivity. Qed.
  Lemma at_cons i c L : at_ i (c :: L) = (if i <? cht c then [c] else []) ++ at_ i L.
  Proof. unfold at_. cbn [filter]. now destruct (i <? cht c). Qed.
  Lemma at_in i L c : In c (at_ i L) <-> In c L /\ i < cht c.
  Proof. unfold at_. rewrite filter_In, Nat.ltb_lt. tauto. Qed.
  Lemma ids_app A B : ids (A ++ B) = ids A ++ ids B. Proof. apply map_app. Qed.
  Lemma ids_at i L a : In a (ids (at_ i L)) -> In a (ids L).
  Proof. intros H. apply in_map_iff in H as (c & <- & H). apply in_map. now apply at_in in H. Qed.
  Lemma nodup_at i L : NoDup (ids L) -> NoDup (ids (at_ i L)).
  Proof.
    unfold ids, at_. induction L as [|c L IH]; intros H; cbn [filter map]; [constructor|]. inversion H as [|? ? H1 H2]; subst.
    destruct (i <? cht c); cbn [map]; auto. constructor; auto. intros X. apply H1. eapply ids_at; eauto.
  Qed.
  Lemma lastid_snoc a A c : lastid a (A ++ [c]) = cid c. Proof. unfold lastid. rewrite ids_app. apply last_last. Qed.
  Lemma lastid_cons a c A : lastid a (c :: A) = lastid (cid c) A.
  Proof.
    destruct A as [|c' A] using rev_ind; [reflexivity|]. rewrite app_comm_cons. now rewrite !lastid_snoc.
  Qed.
  Lemma lastid_in a A : In (lastid a A) (a :: ids A).
  Proof. destruct A as [|c A _] using rev_ind; [now left|]. rewrite lastid_snoc, ids_app. right. apply in_or_app. right. now left. Qed.
  Lemma path_hd m i a L : path m i a L -> getf m a i = Some (hd_id L). Proof. destruct L; cbn; [auto|intros (H & _); auto]. Qed.
  Lemma path_app m i A B : forall a, path m i a (A ++ B) <-> seg m i a A /\ path m i (lastid a A) B.
  Proof.
    induction A as [|c A IH]; intros a; cbn [app path seg].
    - cbn. tauto.
    - rewrite IH, lastid_cons. tauto.
  Qed.
  Lemma path_frame m m' i L : forall a a', getf m' a' i = getf m a i -> (forall b, In b (ids L) -> getf m' b i = getf m b i) -> path m i a L -> path m' i a' L.
  Proof.
    induction L as [|c L IH]; intros a a' E F H; cbn in *; [congruence|]. destruct H as (H1 & H2). split; [congruence|]. apply (IH (cid c)); auto.
  Qed.
  Lemma seg_frame m m' i A : forall a, NoDup (a :: ids A) -> (forall b, In b (a :: ids A) -> b <> lastid a A -> getf m' b i = getf m b i) ->
    seg m i a A -> seg m' i a A.
  Proof.
    induction A as [|c A IH]; intros a N F H; cbn [seg] in *; auto. destruct H as (H1 & H2). inversion N as [|? ? N1 N2]; subst.
    rewrite lastid_cons in F. split.
    - rewrite F; auto; [now left|]. intros ->. apply N1. apply lastid_in.
    - apply IH; auto. intros b Hb. apply F. now right.
  Qed.
  Lemma good_frame m m' c : (entry m' (cid c) = entry m (cid c)) -> flen m' (cid c) = flen m (cid c) ->
    (forall i, cht c <= i -> getf m' (cid c) i = getf m (cid c) i) -> good m c -> good m' c.
  Proof. unfold good, blank. intros -> -> Hf (H1 & H2 & H3 & H4). repeat split; auto. intros i p Hi. rewrite Hf by exact Hi. now apply H4. Qed.
  Lemma same_cid c c' L : NoDup (ids L) -> In c L -> In c' L -> cid c = cid c' -> c = c'.
  Proof.
    induction L as [|x L IH]; intros Hn H H' Hc; [destruct H|]. cbn [ids map] in Hn. apply NoDup_cons_iff in Hn as (N1 & N2).
    destruct H as [->|H]; destruct H' as [->|H']; auto; exfalso; apply N1; [rewrite Hc|rewrite <- Hc]; now apply in_map.
  Qed.
  (** the last cell of level [i] before a place is not a cell that does not reach level [i] *)
  Lemma low_not_last h i P Q x : NoDup (h :: ids (P ++ Q)) -> In x (P ++ Q) -> cht x <= i -> cid x <> lastid h (at_ i P).
  Proof.
    intros Hn Hx Hi Hc. apply NoDup_cons_iff in Hn as (N1 & N2). pose proof (lastid_in h (at_ i P)) as Hu. rewrite <- Hc in Hu.
    destruct Hu as [Hu|Hu]; [apply N1; rewrite Hu; now apply in_map|].
    apply in_map_iff in Hu as (y & Hy & Hin). apply at_in in Hin as (Hin & Hlt).
    assert (x = y) by (apply (same_cid x y (P ++ Q)); auto; apply in_or_app; auto). subst y. lia.
  Qed.
  Lemma good_in m c : good m c -> cid c < length m.
  Proof. intros (H & _). unfold entry in H. apply nth_error_Some. destruct (nth_error m (cid c)); congruence. Qed.

  (** ** Going along the levels *)
  Lemma advance_ok m i go B : forall A a f, path m i a (A ++ B) -> (forall c, In c (A ++ B) -> good m c) ->
    (forall c, In c A -> go (cid c) (fst (ckv c)) = true) -> (forall c, In c B -> go (cid c) (fst (ckv c)) = false) -> length A < f ->
    advance f go m i a = Some (lastid a A).
  Proof.
    induction A as [|c A IH]; intros a f H G H1 H2 Hf; (destruct f as [|f]; [lia|]); cbn [advance].
    - rewrite (path_hd _ _ _ _ H). destruct B as [|c B]; cbn; auto. destruct (G c) as (-> & _); [now left|]. now rewrite H2 by now left.
    - cbn in H. destruct H as (-> & H). destruct (G c) as (-> & _); [now left|]. rewrite H1 by now left.
      rewrite (IH (cid c) f); auto; [now rewrite lastid_cons| | |cbn in Hf; lia].
      + intros c' Hc. apply G. now right.
      + intros c' Hc. apply H1. now right.
  Qed.
  Lemma at_split i h P : exists A1 A2, at_ i P = A1 ++ A2 /\ lastid h A1 = lastid h (at_ (S i) P).
  Proof.
    induction P as [|c P IH] using rev_ind; [exists [], []; auto|]. rewrite !at_app, !at_one. destruct IH as (A1 & A2 & E1 & E2).
    destruct (S i <? cht c) eqn:H1.
    - replace (i <? cht c) with true by (symmetry; apply Nat.ltb_lt; apply Nat.ltb_lt in H1; lia).
      exists (at_ i P ++ [c]), []. now rewrite app_nil_r, !lastid_snoc.
    - rewrite app_nil_r. exists A1, (A2 ++ if i <? cht c then [c] else []). rewrite E1, app_assoc. auto.
  Qed.
  Definition preds (h : nat) P (n : nat) : list nat := map (fun i => lastid h (at_ i P)) (seq 0 n).
  Lemma preds_S h P n : preds h P (S n) = preds h P n ++ [lastid h (at_ n P)].
  Proof. unfold preds. rewrite seq_S, map_app. reflexivity. Qed.
  Lemma few_ids (m : mem_t) L : (forall c, In c L -> good m c) -> NoDup (ids L) -> length L <= length m.
  Proof.
    intros G N. replace (length L) with (length (ids L)) by apply map_length. rewrite <- (seq_length (length m) 0). apply NoDup_incl_length; auto.
    intros a Ha. apply in_map_iff in Ha as (c & <- & Hc). apply in_seq. pose proof (good_in _ _ (G c Hc)). lia.
  Qed.
  Lemma few m i P R : (forall c, In c (P ++ R) -> good m c) -> NoDup (ids (P ++ R)) -> length (at_ i P) < fuel m.
  Proof.
    intros G N. unfold fuel. assert (length (at_ i P) <= length m); [|lia].
    apply few_ids.
    - intros c Hc. apply G. apply in_or_app. left. now apply at_in in Hc.
    - apply nodup_at. eapply nodup_l. rewrite <- ids_app. exact N.
  Qed.
End Mem.
Arguments cell K V : clear implicits.

Section List_.
  Context {K V : Type} (ltb : K -> K -> bool) (W : weak_order ltb) (cmp : K -> K -> Z) (Hc : sign_cmp ltb cmp).
  Implicit Types (A B L P R : list (cell K V)) (c : cell K V) (s : skiplist K V).

  (** ** The invariant *)
  Record mem_ok (m : list (node K V)) (h : nat) L : Prop := {
    mo_hdr : flen m h = Some 16;
    mo_nodup : NoDup (h :: ids L);
    mo_good : forall c, In c L -> good m c;
    mo_path : forall i, i < 16 -> path m i h (at_ i L) }.
  Record SI s L : Prop := {
    si_mem : mem_ok (mem s) (header s) L;
    si_sorted : strictly_sorted ltb (ents L);
    si_level : 1 <= level s <= maxLevel s;
    si_max : maxLevel s <= 16;
    si_ht : forall c, In c L -> cht c <= level s;
    si_size : size s = Z.of_nat (length L) }.

  Lemma at_high n i L : (forall c, In c L -> cht c <= n) -> n <= i -> at_ i L = [].
  Proof.
    intros H Hi. apply filter_none. intros c Hin. apply Nat.ltb_ge. specialize (H c Hin). lia.
  Qed.
  Lemma at_zero (m : list (node K V)) L : (forall c, In c L -> good m c) -> at_ 0 L = L.
  Proof. intros H. apply filter_all. intros c Hin. apply Nat.ltb_lt. destruct (H c Hin) as (_ & X & _). lia. Qed.
  Lemma in_l {T : Type} (x : T) l l' : In x l -> In x (l ++ l'). Proof. intros; apply in_or_app; auto. Qed.
  Lemma in_r {T : Type} (x : T) l l' : In x l' -> In x (l ++ l'). Proof. intros; apply in_or_app; auto. Qed.

  (** ** Searching *)
  Definition splits (go : nat -> K -> bool) P R : Prop :=
    (forall c, In c P -> go (cid c) (fst (ckv c)) = true) /\ (forall c, In c R -> go (cid c) (fst (ckv c)) = false).
  Section Search.
    Context (m : list (node K V)) (h : nat) (P R : list (cell K V)) (M : mem_ok m h (P ++ R)).
    Context (go : nat -> K -> bool) (Hgo : splits go P R).
    Let G := mo_good _ _ _ M.
    Lemma nodup_PR : NoDup (ids (P ++ R)). Proof. pose proof (mo_nodup _ _ _ M) as N. now inversion N. Qed.
    Lemma go_at i c : In c (at_ i R) -> go (cid c) (fst (ckv c)) = false.
    Proof. intros H. apply at_in in H. apply Hgo. tauto. Qed.
    Lemma advance_level i : i < 16 -> advance (fuel m) go m i (lastid h (at_ (S i) P)) = Some (lastid h (at_ i P)).
    Proof.
      intros Hi. destruct (at_split i h P) as (A1 & A2 & E1 & E2). rewrite <- E2. pose proof (mo_path _ _ _ M i Hi) as H. rewrite at_app, E1, <- app_assoc in H.
      apply path_app in H as (_ & H). rewrite (advance_ok m i go (at_ i R) A2); auto.
      - rewrite E1. unfold lastid. rewrite ids_app. f_equal. destruct A2 as [|c A2 _] using rev_ind; [cbn; now rewrite app_nil_r|].
        rewrite ids_app, app_assoc. cbn [ids map]. now rewrite !last_last.
      - intros c Hin. apply G. apply in_app_or in Hin as [X|X].
        + apply in_l. apply (at_in i). rewrite E1. now apply in_r.
        + apply in_r. now apply at_in in X.
      - intros c Hin. apply Hgo. apply (at_in i). rewrite E1. now apply in_r.
      - intros c Hin. eapply go_at; eauto.
      - pose proof (few m i P R G nodup_PR) as X. rewrite E1, app_length in X. lia.
    Qed.
    Lemma advance_top i : i < 16 -> advance (fuel m) go m i h = Some (lastid h (at_ i P)).
    Proof.
      intros Hi. apply (advance_ok m i go (at_ i R)).
      - rewrite <- at_app. now apply (mo_path _ _ _ M).
      - intros c Hin. apply G. rewrite <- at_app in Hin. now apply at_in in Hin.
      - intros c Hin. apply Hgo. now apply at_in in Hin.
      - intros c Hin. eapply go_at; eauto.
      - apply (few m i P R G nodup_PR).
    Qed.
    Lemma descend_ok n : n <= 16 -> descend go m n (lastid h (at_ n P)) = Some (lastid h P, preds h P n).
    Proof.
      induction n as [|n IH]; intros Hn; cbn [descend].
      - rewrite (at_zero m) by (intros c Hin; apply G, in_l, Hin). reflexivity.
      - rewrite advance_level by lia. rewrite IH by lia. now rewrite preds_S.
    Qed.
    Lemma restart_ok n : n <= 16 -> restart go m n h = Some (preds h P n).
    Proof. induction n as [|n IH]; intros Hn; cbn [restart]; [reflexivity|]. rewrite advance_top, IH by lia. now rewrite preds_S. Qed.
    Lemma next_cell : getf m (lastid h P) 0 = Some (hd_id R).
    Proof.
      assert (H0 : 0 < 16) by lia. pose proof (mo_path _ _ _ M 0 H0) as H. rewrite (at_zero m) in H by apply G. apply path_app in H as (_ & H). now apply path_hd.
    Qed.
  End Search.
  Lemma descend_top s P R go : SI s (P ++ R) -> splits go P R ->
    descend go (mem s) (level s) (header s) = Some (lastid (header s) P, preds (header s) P (level s)).
  Proof.
    intros I Hgo. pose proof (si_level _ _ I). pose proof (si_max _ _ I).
    rewrite <- (descend_ok (mem s) (header s) P R (si_mem _ _ I) go Hgo (level s)) by lia.
    rewrite (at_high (level s) (level s) P); auto. intros c Hin. apply (si_ht _ _ I). now apply in_l.
  Qed.
  Lemma restart_top s P R go : SI s (P ++ R) -> splits go P R ->
    restart go (mem s) (level s) (header s) = Some (preds (header s) P (level s)).
  Proof.
    intros I Hgo. pose proof (si_level _ _ I). pose proof (si_max _ _ I). apply (restart_ok _ _ P R); auto; [apply (si_mem _ _ I)|lia].
  Qed.
  Lemma update_ok s P R i : SI s (P ++ R) -> update s (preds (header s) P (level s)) i = lastid (header s) (at_ i P).
  Proof.
    intros I. unfold update, preds. destruct (Nat.lt_ge_cases i (level s)) as [Hi|Hi].
    - erewrite nth_indep by (rewrite map_length, seq_length; auto). rewrite (map_nth (fun i => lastid (header s) (at_ i P)) _ 0), seq_nth by auto. reflexivity.
    - rewrite nth_overflow by (rewrite map_length, seq_length; auto). rewrite (at_high (level s)); auto. intros c Hin. apply (si_ht _ _ I). now apply in_l.
  Qed.

  (** ** Linking in a new cell *)
  Lemma mid_nodup h P c R : NoDup (h :: ids (P ++ c :: R)) -> NoDup (h :: ids (P ++ R)) /\ ~ In (cid c) (h :: ids (P ++ R)).
  Proof.
    rewrite !ids_app. cbn [ids map]. intros H. rewrite app_comm_cons in H. split.
    - rewrite app_comm_cons. eapply NoDup_remove_1; eauto.
    - rewrite app_comm_cons. eapply NoDup_remove_2; eauto.
  Qed.
  (** level [i] holds the new cell *)
  Lemma link_level m i h P c R : NoDup (h :: ids (P ++ c :: R)) -> i < cht c -> i < 16 -> flen m h = Some 16 -> (forall x, In x (P ++ R) -> good m x) ->
    good m c -> path m i h (at_ i (P ++ R)) ->
    exists m', (p <- getf m (lastid h (at_ i P)) i ;; m <- setf m (cid c) i p ;; setf m (lastid h (at_ i P)) i (Some (cid c))) = Some m' /\
      path m' i h (at_ i (P ++ c :: R)) /\ (forall x, In x (P ++ c :: R) -> cht x <= i -> getf m' (cid x) i = getf m (cid x) i) /\
      (forall b j, j <> i -> getf m' b j = getf m b j) /\
      (forall b, entry m' b = entry m b) /\ (forall b, flen m' b = flen m b) /\ length m' = length m.
  Proof.
    intros N Hi H16 Hh G Gc H. set (u := lastid h (at_ i P)). rewrite at_app in H. apply path_app in H as (H1 & H2).
    destruct (mid_nodup _ _ _ _ N) as (N1 & N2). fold u in H2. rewrite (path_hd _ _ _ _ H2).
    destruct Gc as (Gc1 & _ & (lc & Gc2 & Gc3) & _).
    assert (Hu : In u (h :: ids (at_ i P))) by apply lastid_in.
    assert (Hup : In u (h :: ids (P ++ R))). { destruct Hu as [X|X]; [now left|right]. rewrite ids_app. apply in_l. eapply ids_at; eauto. }
    assert (Hucid : u <> cid c) by (intros ->; contradiction).
    assert (Lu : exists l, flen m u = Some l /\ i < l).
    { destruct Hu as [<-|X]; [exists 16; auto|]. apply in_map_iff in X as (x & <- & X). apply at_in in X as (X1 & X2).
      destruct (G x) as (_ & _ & (l & X3 & X4) & _); [now apply in_l|]. exists l. split; auto. lia. }
    destruct Lu as (lu & Lu1 & Lu2).
    destruct (setf_ok m (cid c) i (hd_id (at_ i R)) lc Gc2 ltac:(lia)) as (m1 & -> & A1 & A2 & A3 & A4 & A5).
    destruct (setf_ok m1 u i (Some (cid c)) lu) as (m2 & -> & B1 & B2 & B3 & B4 & B5); [rewrite A4; auto|auto|].
    exists m2. split; auto. split; [|split; [|split; [|split; [|split]]]].
    - rewrite at_app, at_cons. replace (i <? cht c) with true by (symmetry; now apply Nat.ltb_lt). cbn [app]. apply path_app. fold u. split.
      + apply (seg_frame m); auto.
        * apply NoDup_cons_iff in N1 as (X & X'). constructor; [|apply nodup_at; rewrite ids_app in X'; eapply nodup_l; eauto].
          intros Y. apply X. rewrite ids_app. apply in_l. eapply ids_at; eauto.
        * intros b Hb Hbu. fold u in Hbu. rewrite B2 by auto. apply A2. left. intros ->. apply N2. destruct Hb as [X|X]; [now left|right].
          rewrite ids_app. apply in_l. eapply ids_at; eauto.
      + cbn [path]. split; auto. apply (path_frame m m2 i _ u); auto.
        * rewrite B2 by auto. rewrite A1. symmetry. now apply path_hd.
        * intros b Hb. assert (Hb' : In b (ids R)) by (eapply ids_at; eauto).
          rewrite B2; [apply A2; left|left].
          -- intros ->. apply N2. right. rewrite ids_app. now apply in_r.
          -- intros ->. destruct Hu as [Y|Y].
             ++ apply NoDup_cons_iff in N1 as (X & _). apply X. rewrite Y, ids_app. apply in_r. auto.
             ++ apply ids_at in Y. apply NoDup_cons_iff in N1 as (_ & X). rewrite ids_app in X. apply in_split in Y as (l1 & l2 & Y). rewrite Y in X.
                rewrite <- app_assoc in X. cbn in X. apply NoDup_remove_2 in X. apply X. rewrite app_assoc. apply in_r. auto.
    - intros x Hx Hxi. rewrite B2, A2; auto; left.
      + intros X. assert (x = c); [|subst x; lia]. apply NoDup_cons_iff in N as (_ & N). apply (same_cid x c (P ++ c :: R)); auto. apply in_r. now left.
      + apply (low_not_last h i P (c :: R)); auto.
    - intros b j Hj. rewrite B2, A2; auto.
    - intros b. rewrite B3, A3; auto.
    - intros b. rewrite B4, A4; auto.
    - congruence.
  Qed.
  Lemma link_ok h P c R upd : (forall i, upd i = lastid h (at_ i P)) -> forall n i m,
    NoDup (h :: ids (P ++ c :: R)) -> i + n = cht c -> cht c <= 16 -> flen m h = Some 16 -> (forall x, In x (P ++ R) -> good m x) -> good m c ->
    (forall j, i <= j < 16 -> path m j h (at_ j (P ++ R))) -> (forall j, j < i -> path m j h (at_ j (P ++ c :: R))) ->
    exists m', link upd (cid c) n i m = Some m' /\ mem_ok m' h (P ++ c :: R) /\ length m' = length m.
  Proof.
    intros Hu. induction n as [|n IH]; intros i m N Hi H16 Hh G Gc H1 H2; cbn [link].
    - exists m. split; auto. split; auto. constructor; auto.
      + intros x Hx. apply in_app_or in Hx as [X|[<-|X]]; auto; apply G; [now apply in_l|now apply in_r].
      + intros j Hj. destruct (Nat.lt_ge_cases j i); [now apply H2|].
        rewrite at_app, at_cons. replace (j <? cht c) with false by (symmetry; apply Nat.ltb_ge; lia). cbn [app]. rewrite <- at_app. apply H1. lia.
    - rewrite Hu. destruct (link_level m i h P c R N ltac:(lia) ltac:(lia) Hh G Gc (H1 i ltac:(lia))) as (m' & E & A1 & A0 & A2 & A3 & A4 & A5).
      assert (Hg : forall x, In x (P ++ c :: R) -> good m x -> good m' x).
      { intros x Hx. apply good_frame; auto. intros j Hj. destruct (Nat.eq_dec j i) as [->|Hji]; auto. }
      destruct (getf m _ i) as [p|]; [|discriminate]. destruct (setf m (cid c) i p) as [m1|]; [|discriminate]. rewrite E.
      destruct (IH (i + 1) m') as (m2 & E2 & B1 & B2); auto; try lia.
      + rewrite A4. auto.
      + intros x Hx. apply Hg; auto. apply in_app_or in Hx as [Hx|Hx]; [now apply in_l|apply in_r; now right].
      + apply Hg; auto. apply in_r. now left.
      + intros j Hj. apply (path_frame m m' j _ h); [apply A2; lia|intros b _; apply A2; lia|apply H1; lia].
      + intros j Hj. destruct (Nat.eq_dec j i) as [->|Hji]; auto.
        apply (path_frame m m' j _ h); [apply A2; lia|intros b _; apply A2; lia|apply H2; lia].
      + exists m2. split; auto. split; auto. congruence.
  Qed.

  (** ** Taking a cell out *)
  Lemma unlink_ok h P c R upd : (forall i, upd i = lastid h (at_ i P)) -> forall n i m,
    NoDup (h :: ids (P ++ c :: R)) -> i + n <= 16 -> flen m h = Some 16 -> (forall x, In x (P ++ c :: R) -> good m x) ->
    (forall j, i <= j < 16 -> path m j h (at_ j (P ++ c :: R))) -> (forall j, j < i -> path m j h (at_ j (P ++ R))) ->
    exists m', unlink upd (cid c) n i m = Some m' /\ (forall j, i + n <= j < 16 -> path m' j h (at_ j (P ++ c :: R))) /\
      (forall j, j < i + n -> path m' j h (at_ j (P ++ R))) /\ (forall b, entry m' b = entry m b) /\ (forall b, flen m' b = flen m b) /\ length m' = length m /\
      (forall x, In x (P ++ c :: R) -> good m' x).
  Proof.
    intros Hu. induction n as [|n IH]; intros i m N Hi Hh G H1 H2; cbn [unlink].
    - exists m. rewrite Nat.add_0_r. auto 10.
    - rewrite Hu. set (u := lastid h (at_ i P)). pose proof (H1 i ltac:(lia)) as H. rewrite at_app, at_cons in H. apply path_app in H as (S1 & S2). fold u in S2.
      rewrite (path_hd _ _ _ _ S2). destruct (mid_nodup _ _ _ _ N) as (N1 & N2).
      assert (Hu' : In u (h :: ids (at_ i P))) by apply lastid_in.
      destruct (i <? cht c) eqn:Hci; cbn [app hd_id hd_error option_map] in *.
      + cbn [peqb]. rewrite Nat.eqb_refl. cbn [path] in S2. destruct S2 as (S2 & S3). rewrite (path_hd _ _ _ _ S3).
        assert (Lu : exists l, flen m u = Some l /\ i < l).
        { destruct Hu' as [<-|X]; [exists 16; split; auto; lia|]. apply in_map_iff in X as (x & <- & X). apply at_in in X as (X1 & X2).
          destruct (G x) as (_ & _ & (l & X3 & X4) & _); [now apply in_l|]. exists l. split; auto. lia. }
        destruct Lu as (lu & Lu1 & Lu2). destruct (setf_ok m u i (hd_id (at_ i R)) lu Lu1 Lu2) as (m1 & E1 & A1 & A2 & A3 & A4 & A5).
        replace (option_map cid (hd_error (at_ i R))) with (hd_id (at_ i R)) by reflexivity. rewrite E1.
        destruct (IH (i + 1) m1) as (m2 & E2 & B1 & B2 & B3 & B4 & B5 & B6); auto; try lia.
        * rewrite A4; auto.
        * intros x Hx. apply (good_frame m); auto. intros j Hj. apply A2. destruct (Nat.eq_dec j i) as [->|Hji]; auto. left.
          apply (low_not_last h i P (c :: R)); auto.
        * intros j Hj. apply (path_frame m m1 j _ h); [apply A2; lia|intros b _; apply A2; lia|apply H1; lia].
        * intros j Hj. destruct (Nat.eq_dec j i) as [->|Hji]; [|apply (path_frame m m1 j _ h); [apply A2; lia|intros b _; apply A2; lia|apply H2; lia]].
          rewrite at_app. apply path_app. fold u. split.
          -- apply (seg_frame m); auto.
             ++ apply NoDup_cons_iff in N1 as (X & Y). constructor; [|apply nodup_at; rewrite ids_app in Y; eapply nodup_l; eauto].
                intros Z. apply X. rewrite ids_app. apply in_l. eapply ids_at; eauto.
          -- apply (path_frame m m1 i _ (cid c)); auto.
             ++ rewrite A1. symmetry. now apply path_hd.
             ++ intros b Hb. apply A2. left. intros ->. apply ids_at in Hb. apply NoDup_cons_iff in N1 as (X & Y). rewrite ids_app in X, Y. destruct Hu' as [Z|Z].
                ** apply X. rewrite Z. now apply in_r.
                ** apply ids_at in Z. apply in_split in Z as (l1 & l2 & Z). rewrite Z, <- app_assoc in Y. cbn in Y. apply NoDup_remove_2 in Y.
                   apply Y. rewrite app_assoc. now apply in_r.
        * exists m2. split; auto. replace (i + S n) with (i + 1 + n) by lia. split; auto. split; auto. split; [|split; [|split]]; auto; try congruence; intros b; congruence.
      + assert (Hp : peqb (hd_id (at_ i R)) (Some (cid c)) = false).
        { destruct (at_ i R) as [|x l] eqn:E; cbn; auto. apply Nat.eqb_neq. intros X. apply N2. right. rewrite ids_app. apply in_r.
          rewrite <- X. apply in_map. apply (at_in i). rewrite E. now left. }
        replace (option_map cid (hd_error (at_ i R))) with (hd_id (at_ i R)) by reflexivity. rewrite Hp.
        destruct (IH (i + 1) m) as (m2 & E2 & B1 & B2 & B3); auto; try lia.
        * intros j Hj. apply H1. lia.
        * intros j Hj. destruct (Nat.eq_dec j i) as [->|Hji]; [|apply H2; lia]. pose proof (H1 i ltac:(lia)) as X. rewrite at_app, at_cons, Hci in X. cbn [app] in X.
          rewrite at_app. auto.
        * exists m2. split; auto. replace (i + S n) with (i + 1 + n) by lia. auto.
  Qed.
  Lemma shrink_ok m h L : (forall i, i < 16 -> path m i h (at_ i L)) -> forall lv, 1 <= lv <= 16 -> (forall c, In c L -> cht c <= lv) ->
    exists lv', shrink m h lv = Some lv' /\ 1 <= lv' <= lv /\ forall c, In c L -> cht c <= lv'.
  Proof.
    intros H. induction lv as [|lv IH]; intros Hl Hh; [lia|]. destruct lv as [|lv]; cbn [shrink]; [exists 1; split; auto|].
    rewrite (path_hd _ _ _ _ (H (S lv) ltac:(lia))). destruct (at_ (S lv) L) as [|c l] eqn:E; cbn [hd_id hd_error option_map].
    - destruct IH as (lv' & E' & X & Y); [lia| |exists lv'; split; auto; split; auto; lia].
      intros c Hin. destruct (Nat.le_gt_cases (cht c) (S lv)) as [|X]; auto. assert (Y : In c (at_ (S lv) L)) by (apply at_in; auto). rewrite E in Y. destruct Y.
    - exists (S (S lv)). split; auto. split; auto. lia.
  Qed.
  Lemma takeOut_ok s P c R us : SI s (P ++ c :: R) -> us = preds (header s) P (level s) ->
    exists s', takeOut s us (cid c) = Some s' /\ SI s' (P ++ R) /\ entry (mem s') (cid c) = Some (ckv c) /\ header s' = header s /\
      maxLevel s' = maxLevel s.
  Proof.
    intros I ->. unfold takeOut. pose proof (si_level _ _ I). pose proof (si_max _ _ I). destruct (si_mem _ _ I) as [M1 M2 M3 M4].
    destruct (unlink_ok (header s) P c R (update s (preds (header s) P (level s))) (fun i => update_ok s P (c :: R) i I) (level s) 0 (mem s) M2 ltac:(lia) M1 M3) as (m' & -> & A1 & A2 & A3 & A4 & A5 & A6).
    { intros j Hj. apply M4. lia. } { intros j Hj. lia. }
    destruct (mid_nodup _ _ _ _ M2) as (N1 & N2).
    assert (Hp : forall j, j < 16 -> path m' j (header s) (at_ j (P ++ R))).
    { intros j Hj. destruct (Nat.lt_ge_cases j (level s)) as [X|X]; [apply A2; lia|]. specialize (A1 j ltac:(lia)).
      rewrite at_app, at_cons in A1. replace (j <? cht c) with false in A1; [rewrite at_app; auto|]. symmetry. apply Nat.ltb_ge.
      pose proof (si_ht _ _ I c ltac:(apply in_r; now left)). lia. }
    assert (Hin : forall x, In x (P ++ R) -> In x (P ++ c :: R)). { intros x Hx. apply in_app_or in Hx as [X|X]; [now apply in_l|apply in_r; now right]. }
    destruct (shrink_ok m' (header s) (P ++ R) Hp (level s)) as (lv & -> & L1 & L2); [lia|intros x Hx; apply (si_ht _ _ I); auto|].
    eexists. split; [reflexivity|]. cbn [mem header maxLevel]. split; [|split; [|auto]].
    - constructor; cbn [mem header level size maxLevel].
      + constructor; auto; rewrite A4; auto.
      + pose proof (si_sorted _ _ I) as X. unfold ents in *. rewrite map_app in *. cbn [map] in X. unfold strictly_sorted in *.
        apply ssorted_app in X as (X1 & X2 & X3). apply ssorted_app. inversion X2; subst. split; auto. split; auto. intros a b Ha Hb. apply X3; auto. now right.
      + lia.
      + lia.
      + auto.
      + rewrite (si_size _ _ I), !app_length. cbn [length]. lia.
    - rewrite A3. apply M3. apply in_r. now left.
  Qed.

  (** ** Insertion *)
  Lemma insert_ok s P R k v r us : SI s (P ++ R) -> us = preds (header s) P (level s) -> strictly_sorted ltb (ents P ++ (k, v) :: ents R) ->
    exists s' c, insert s us k v r = Some s' /\ ckv c = (k, v) /\ SI s' (P ++ c :: R) /\ maxLevel s' = maxLevel s /\ cid c = length (mem s).
  Proof.
    intros I -> Hs. unfold insert. pose proof (si_level _ _ I) as Hl. pose proof (si_max _ _ I) as Hm. destruct (si_mem _ _ I) as [M1 M2 M3 M4].
    set (nl := randomLevel s r). assert (Hnl : 1 <= nl <= maxLevel s) by (unfold nl, randomLevel; lia).
    set (lv := if maxLevel s <? (if level s <=? nl then nl + 1 else level s) then maxLevel s else if level s <=? nl then nl + 1 else level s).
    assert (Hlv : level s <= lv <= maxLevel s /\ nl <= lv).
    { unfold lv. destruct (Nat.leb_spec (level s) nl); destruct (Nat.ltb_spec (maxLevel s) (nl + 1)); destruct (Nat.ltb_spec (maxLevel s) (level s)); lia. }
    assert (Hcell : exists c : cell K V, cid c = length (mem s) /\ cht c = nl /\ ckv c = (k, v)) by (exists (C (length (mem s)) nl (k, v)); auto).
    destruct Hcell as (c & C1 & C2 & C3). destruct (alloc_ok (mem s) (Nd (Some (k, v)) (repeat None lv))) as (A1 & A2 & A3 & A4 & A5 & A6).
    set (m := mem s ++ [Nd (Some (k, v)) (repeat None lv)]) in *. cbn [kv fwd] in *. rewrite repeat_length in A5.
    assert (Hlt : forall a, In a (header s :: ids (P ++ R)) -> a < length (mem s)).
    { intros a [<-|Ha].
      - unfold flen in M1. apply nth_error_Some. destruct (nth_error (mem s) (header s)); [discriminate|discriminate M1].
      - apply in_map_iff in Ha as (x & <- & Hx). now apply good_in, M3. }
    destruct (link_ok (header s) P c R (update s (preds (header s) P (level s))) (fun i => update_ok s P R i I) nl 0 m) as (m' & E & B1 & B2); auto.
    - rewrite ids_app. cbn [ids map]. rewrite app_comm_cons. apply NoDup_Add with (a := cid c) (l := (header s :: ids P) ++ ids R).
      + apply Add_app.
      + split; [cbn [app]; rewrite <- ids_app; auto|]. cbn [app]. rewrite <- ids_app. intros X. apply Hlt in X. rewrite C1 in X. lia.
    - lia.
    - rewrite A3; auto. apply Hlt. now left.
    - intros x Hx. apply (good_frame (mem s)); auto; [apply A2|apply A3|intros j _; apply A1]; apply Hlt; right; now apply in_map.
    - split; [rewrite C1, C3; exact A4|]. split; [lia|]. split; [exists lv; split; [rewrite C1; exact A5|lia]|].
      intros j p _ X. rewrite C1 in X. unfold m in X. unfold getf in X. rewrite nth_error_app2, Nat.sub_diag in X by lia. cbn in X.
      apply nth_error_In in X. now apply repeat_spec in X.
    - intros j Hj. apply (path_frame (mem s) m j _ (header s)); [apply A1, Hlt; now left| |apply M4; lia].
      intros b Hb. apply A1, Hlt. right. eapply ids_at; eauto.
    - intros j Hj. lia.
    - rewrite C1 in E. rewrite E. eexists. exists c. split; [reflexivity|]. split; auto. split; [|auto].
      constructor; cbn [mem header level size maxLevel]; auto; try lia.
      + unfold ents in *. rewrite map_app. cbn [map]. rewrite C3. exact Hs.
      + intros x Hx. apply in_app_or in Hx as [X|[<-|X]]; [|lia|]; pose proof (si_ht _ _ I x ltac:(apply in_or_app; auto)); lia.
      + rewrite (si_size _ _ I), !app_length. cbn [length]. lia.
  Qed.
End List_.
