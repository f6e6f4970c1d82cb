(** Proofs about the search of graph/astar. *)
From Verif Require Import Base Bind Machine HeapSpec HeapModel HeapProofs AstarSpec AstarModel.
Local Open Scope Z_scope.

Lemma peqb_eq p q : peqb p q = true <-> p = q.
Proof.
  destruct p as [a b], q as [c d]. unfold peqb. cbn. rewrite andb_true_iff, !Z.eqb_eq. split; [intros [-> ->]; auto|].
  intros E. injection E. auto.
Qed.
Lemma peqb_refl p : peqb p p = true. Proof. now apply peqb_eq. Qed.
Lemma peqb_neq p q : p <> q -> peqb p q = false.
Proof. intros H. destruct (peqb p q) eqn:E; auto. apply peqb_eq in E. contradiction. Qed.
Lemma pos_dec (p q : pos) : {p = q} + {p <> q}.
Proof. destruct (peqb p q) eqn:E; [left; now apply peqb_eq|right; intros H; apply peqb_eq in H; congruence]. Qed.
Lemma upd_same ts p t : upd ts p t p = t. Proof. unfold upd. now rewrite peqb_refl. Qed.
Lemma upd_other ts p t q : q <> p -> upd ts p t q = ts q. Proof. intros H. unfold upd. now rewrite peqb_neq. Qed.
Lemma inside_within g p : inside g p = true <-> within (dimX g) (dimY g) p.
Proof. unfold inside, within. rewrite !andb_true_iff, !Z.leb_le, !Z.ltb_lt. lia. Qed.

(** ** the grid *)
Lemma in_cells w h p : In p (cells w h) <-> within w h p.
Proof.
  unfold cells, within. rewrite in_flat_map. split.
  - intros (y & Hy & Hp). apply in_map_iff in Hp as (x & <- & Hx). apply in_seq in Hx, Hy. cbn. lia.
  - intros (H1 & H2). exists (Z.to_nat (snd p)). split; [apply in_seq; lia|]. apply in_map_iff. exists (Z.to_nat (fst p)).
    split; [|apply in_seq; lia]. destruct p as [x y]. cbn in *. f_equal; lia.
Qed.
Lemma length_cells w h : length (cells w h) = (Z.to_nat w * Z.to_nat h)%nat.
Proof.
  unfold cells. generalize 0%nat at 2 as k. induction (Z.to_nat h) as [|n IH]; intros k; cbn; [lia|].
  rewrite app_length, IH, map_length, seq_length. lia.
Qed.
Lemma few_cells w h l : NoDup l -> (forall p, In p l -> within w h p) -> (length l <= Z.to_nat (w * h))%nat.
Proof.
  intros H1 H2. destruct l as [|p l]; [cbn; lia|].
  assert (0 <= w /\ 0 <= h) as [Hw Hh]. { specialize (H2 p (or_introl eq_refl)). unfold within in H2. lia. }
  rewrite Z2Nat.inj_mul, <- length_cells by lia. apply NoDup_incl_length; auto. intros q Hq. apply in_cells. auto.
Qed.
Lemma adjacent_sym d p q : fair d -> adjacent d p q -> adjacent d q p.
Proof. unfold adjacent. destruct d; cbn [fair]; intros F; [intros H; lia|intros (H1 & H2 & H3); split; [auto|lia]|apply F]. Qed.
Lemma adjacent_neq d p q : fair d -> adjacent d p q -> p <> q.
Proof. unfold adjacent. intros F H ->. destruct d; [|tauto|now destruct (F q) as (X & _)]. rewrite !Z.sub_diag in H. discriminate. Qed.
Lemma neighbor_ok g p q : In q (GetNeighbor g p) <-> within (dimX g) (dimY g) q /\ adjacent (neighbor g) p q.
Proof.
  unfold GetNeighbor. assert (Ar : forall ds, In q (around g ds p) <-> within (dimX g) (dimY g) q /\ In (fst q - fst p, snd q - snd p) ds).
  { intros ds. unfold around. rewrite in_flat_map. destruct p as [x y], q as [x' y']. unfold within. cbn [fst snd]. split.
    - intros ([dx dy] & Hd & H). cbn [fst snd] in H.
      destruct ((x + dx <? 0) || (y + dy <? 0) || (dimX g <=? x + dx) || (dimY g <=? y + dy)) eqn:E; [destruct H|].
      destruct H as [H|[]]. injection H as <- <-. rewrite !orb_false_iff, !Z.ltb_ge, !Z.leb_gt in E. split; [lia|].
      now replace (x + dx - x) with dx by lia; replace (y + dy - y) with dy by lia.
    - intros (H & Hd). exists (x' - x, y' - y). cbn [fst snd]. split; auto.
      replace (x + (x' - x)) with x' by lia. replace (y + (y' - y)) with y' by lia.
      replace ((x' <? 0) || (y' <? 0) || (dimX g <=? x') || (dimY g <=? y')) with false; [left; reflexivity|].
      symmetry. rewrite !orb_false_iff, !Z.ltb_ge, !Z.leb_gt. lia. }
  destruct p as [x y], q as [x' y']. unfold adjacent. cbn [fst snd] in *. destruct (neighbor g) as [| |near].
  - rewrite Ar. apply and_iff_compat_l. unfold offsets4. split.
    + cbn [In]. intros H. repeat match type of H with _ \/ _ => destruct H as [H|H] end; try (destruct H; fail); injection H; lia.
    + intros H. assert ((x' - x = 1 /\ y' - y = 0) \/ (x' - x = -1 /\ y' - y = 0) \/ (x' - x = 0 /\ y' - y = 1) \/ (x' - x = 0 /\ y' - y = -1))
          as [[-> ->]|[[-> ->]|[[-> ->]|[-> ->]]]] by lia; cbn; auto 6.
  - rewrite Ar. apply and_iff_compat_l. unfold offsets8. split.
    + cbn [In]. intros H. repeat match type of H with _ \/ _ => destruct H as [H|H] end; try (destruct H; fail); injection H; intros; (split; [intros X; injection X; lia|lia]).
    + intros (A1 & A2 & A3).
      assert (x' - x = 1 \/ x' - x = 0 \/ x' - x = -1) as [Hx|[Hx|Hx]] by lia;
      assert (y' - y = 1 \/ y' - y = 0 \/ y' - y = -1) as [Hy|[Hy|Hy]] by lia; rewrite Hx, Hy; cbn; auto 10.
      destruct A1. f_equal; lia.
  - rewrite filter_In, inside_within. tauto.
Qed.

(** ** the heap of tiles *)
Definition wle (ts : pos -> tile) (p q : pos) : Prop := weight (ts q) <= weight (ts p).
Lemma wagrees ts : agrees (wle ts) (weightCompare ts).
Proof.
  constructor; unfold wle, weightCompare; intros; try lia; destruct (Z.leb_spec (weight (ts a)) (weight (ts b))); lia.
Qed.
Lemma inv_ext (le le' : pos -> pos -> Prop) (h : heap (A:=pos)) :
  (forall p q, In p (live h) -> In q (live h) -> le p q -> le' p q) -> Inv nil_tile le h -> Inv nil_tile le' h.
Proof.
  intros H (H1 & H2 & H3). split; [auto|]. split; [auto|]. intros i Hi.
  assert (G : forall j, (j < size h)%nat -> In (nth j (elements h) nil_tile) (live h)).
  { intros j Hj. unfold live. rewrite <- (nth_firstn_lt (elements h) (size h)) by auto. apply nth_In. rewrite firstn_length. lia. }
  apply H; [apply G; pose proof (Nat.div_le_upper_bound (i - 1) 2 (i - 1)); lia|apply G; lia|apply H3; lia].
Qed.
Definition HI (ts : pos -> tile) (h : heap (A:=pos)) (op : list pos) : Prop := Inv nil_tile (wle ts) h /\ Permutation (live h) op.
Lemma HI_ext ts ts' h op : (forall q, In q op -> ts' q = ts q) -> HI ts h op -> HI ts' h op.
Proof.
  intros H (H1 & H2). split; auto. apply (inv_ext (wle ts)); auto. unfold wle. intros p q Hp Hq.
  rewrite !H by (apply (Permutation_in _ H2); auto). auto.
Qed.
Lemma HI_put ts h op p : HI ts h op -> exists h', put nil_tile (weightCompare ts) h p = Some h' /\ HI ts h' (p :: op).
Proof.
  intros (H1 & H2). destruct (put_ok nil_tile (wle ts) (weightCompare ts) (wagrees ts) h p H1) as (h' & E & I' & _ & Hp).
  exists h'. split; auto. split; auto. rewrite Hp. auto.
Qed.
Lemma HI_pop ts h op : HI ts h op ->
  (op = [] /\ pop (weightCompare ts) h = Some (h, None)) \/
  (exists h' x op', pop (weightCompare ts) h = Some (h', Some x) /\ HI ts h' op' /\ Permutation op (x :: op') /\
     forall y, In y op -> weight (ts y) <= weight (ts x)).
Proof.
  intros (H1 & H2). destruct (pop_ok nil_tile (wle ts) (weightCompare ts) (wagrees ts) h H1) as [(E & E')|(E & h' & x & E' & I' & _ & P' & M)].
  - left. split; auto. assert (L : live h = []) by (unfold live; rewrite E; reflexivity). rewrite L in H2. now apply Permutation_nil in H2.
  - right. exists h', x, (live h'). split; auto. split; [split; auto|]. split; [rewrite <- H2; auto|].
    intros y Hy. apply M. apply (Permutation_in _ (Permutation_sym H2)). auto.
Qed.
(** whatever the weights: the backing slice never gets shorter than 16 *)
Lemma set_at_length {A} (l l' : list A) i v : set_at l i v = Some l' -> length l' = length l.
Proof. unfold set_at. destruct (i <? length l)%nat; [|discriminate]. intros E. injection E as <-. apply list_set_length. Qed.
Lemma sift_up_length cmp fuel : forall (l : list pos) i v l', sift_up cmp fuel l i v = Some l' -> length l' = length l.
Proof.
  induction fuel as [|fuel IH]; intros l i v l' H; [discriminate|]. cbn [sift_up] in H. destruct (i =? 0)%nat; [now apply set_at_length in H|].
  destruct (nth_error l ((i - 1) / 2)) as [p|]; [|discriminate]. destruct (cmp v p <=? 0); [|now apply set_at_length in H].
  destruct (set_at l i p) as [l1|] eqn:E; [|discriminate]. apply IH in H. apply set_at_length in E. congruence.
Qed.
Lemma sift_down_length cmp fuel : forall (l : list pos) sz i v l', sift_down cmp fuel l sz i v = Some l' -> length l' = length l.
Proof.
  induction fuel as [|fuel IH]; intros l sz i v l' H; [discriminate|]. cbn [sift_down] in H.
  assert (G : forall j, match nth_error l j with None => None | Some cv => if cmp cv v <=? 0 then
     match set_at l i cv with None => None | Some els' => sift_down cmp fuel els' sz j v end else set_at l i v end = Some l' -> length l' = length l).
  { intros j Hj. destruct (nth_error l j) as [p|]; [|discriminate]. destruct (cmp p v <=? 0); [|now apply set_at_length in Hj].
    destruct (set_at l i p) as [l1|] eqn:E; [|discriminate]. apply IH in Hj. apply set_at_length in E. congruence. }
  destruct (2 * i + 2 <? sz)%nat.
  - destruct (nth_error l (2 * i + 1)) as [a|]; [|discriminate]. destruct (nth_error l (2 * i + 2)) as [b|]; [|discriminate].
    eapply G. exact H.
  - destruct (sz <=? 2 * i + 1)%nat; [now apply set_at_length in H|]. eapply G. exact H.
Qed.
Lemma put_big cmp (h h' : heap (A:=pos)) p : (16 <= length (elements h))%nat -> put nil_tile cmp h p = Some h' -> (16 <= length (elements h'))%nat.
Proof.
  intros H E. unfold put in E. destruct (sift_up _ _ _ _ _) as [l|] eqn:E1; [|discriminate]. injection E as <-. cbn.
  apply sift_up_length in E1. rewrite E1. unfold grow. destruct (_ <=? _)%nat; cbn; [rewrite app_length|]; lia.
Qed.
Lemma pop_big cmp (h h' : heap (A:=pos)) r : (16 <= length (elements h))%nat -> pop cmp h = Some (h', r) -> (16 <= length (elements h'))%nat.
Proof.
  intros H E. unfold pop in E. destruct (size h =? 0)%nat; [injection E as <- _; auto|].
  destruct (nth_error (elements h) 0) as [x|]; [|discriminate].
  assert (G : (16 <= length (elements (slimming {| size := size h - 1; elements := elements h |})))%nat).
  { unfold slimming. cbn [size elements]. destruct (Nat.leb_spec 32 (length (elements h))); [|auto]. destruct (_ <=? _)%nat; [|auto]. cbn [elements].
    rewrite firstn_length. lia. }
  cbv zeta in E. destruct (_ =? 0)%nat; [injection E as <- _; auto|].
  destruct (nth_error _ _); [|discriminate]. destruct (sift_down _ _ _ _ _ _) as [l|] eqn:E1; [|discriminate]. injection E as <- _. cbn.
  apply sift_down_length in E1. rewrite E1. auto.
Qed.

Lemma nodup_dec_map (f : nat -> pos) n : NoDup (map f (seq 0 n)) \/ exists i j, (i < j < n)%nat /\ f i = f j.
Proof.
  induction n as [|n IH]; [left; constructor|]. destruct IH as [IH|(i & j & H & E)]; [|right; exists i, j; split; [lia|auto]].
  rewrite seq_S, map_app. cbn [map plus]. destruct (in_dec pos_dec (f n) (map f (seq 0 n))) as [X|X].
  - right. apply in_map_iff in X as (i & E & Hi). apply in_seq in Hi. exists i, n. split; [lia|auto].
  - left. apply Permutation_NoDup with (f n :: map f (seq 0 n)); [apply Permutation_cons_append|]. constructor; auto.
Qed.
(** ** The bound of [singlePath] loses nothing: a way back that has not ended after as many steps as there are tiles never ends. *)
Section Forever.
  Context (g : graph) (s : pos).
  Notation w := (dimX g). Notation h := (dimY g).
  Fixpoint back (n : nat) (q : pos) : pos := match n with O => q | S n' => back n' (lowest g q) end.
  Lemma back_add m n q : back (m + n) q = back n (back m q).
  Proof. revert q. induction m as [|m IH]; intros q; cbn; auto. Qed.
  Lemma lowest_within q : within w h q -> within w h (lowest g q).
  Proof.
    intros Hq. unfold lowest. assert (Hn : forall n, In n (GetNeighbor g q) -> within w h n) by (intros n Hn; apply neighbor_ok in Hn; tauto).
    revert Hn. generalize (GetNeighbor g q). intros ns. revert Hq. generalize q. induction ns as [|n ns IH]; intros r Hr Hn; cbn [fold_left]; [auto|].
    apply IH; [|intros m Hm; apply Hn; now right]. destruct (_ && _); [apply Hn; now left|auto].
  Qed.
  Lemma back_within n : forall q, within w h q -> within w h (back n q).
  Proof. induction n as [|n IH]; intros q Hq; cbn; auto using lowest_within. Qed.
  Lemma singlePath_none fuel : forall q path, singlePath fuel g q s path = None <-> forall i, (i <= fuel)%nat -> back i q <> s.
  Proof.
    induction fuel as [|fuel IH]; intros q path; cbn [singlePath]; (destruct (pos_dec q s) as [->|N];
      [rewrite peqb_refl; split; [discriminate|intros H; destruct (H 0%nat); [lia|reflexivity]]|rewrite peqb_neq by auto]).
    - split; auto. intros _ i Hi. replace i with 0%nat by lia. exact N.
    - rewrite IH. split; intros H i Hi.
      + destruct i as [|i]; [exact N|]. cbn [back]. apply H. lia.
      + apply (H (S i)). lia.
  Qed.
  Theorem singlePath_forever q path : within w h q -> singlePath (area g) g q s path = None -> forall fuel path', singlePath fuel g q s path' = None.
  Proof.
    intros Hq H fuel path'. apply singlePath_none. rewrite singlePath_none in H. intros k _.
    assert (P : exists i j, (i < j <= area g)%nat /\ back i q = back j q).
    { destruct (nodup_dec_map (fun i => back i q) (S (area g))) as [N|(i & j & N & E)].
      - exfalso. pose proof (few_cells w h _ N) as X. rewrite map_length, seq_length in X. 
        assert (Y : (S (area g) <= Z.to_nat (w * h))%nat); [|unfold area in Y; lia]. apply X. intros r Hr. apply in_map_iff in Hr as (i & <- & _). now apply back_within.
      - exists i, j. split; [lia|auto]. }
    destruct P as (i & j & Hij & E).
    assert (Q : forall n, exists m, (m <= area g)%nat /\ back n q = back m q).
    { induction n as [n IH] using lt_wf_ind. destruct (Nat.le_gt_cases n (area g)) as [L|L]; [eauto|].
      destruct (IH (n - (j - i))%nat) as (m & M1 & M2); [lia|]. exists m. split; auto. rewrite <- M2.
      replace n with (j + (n - j))%nat at 1 by lia. replace (n - (j - i))%nat with (i + (n - j))%nat by lia. rewrite !back_add, E. reflexivity. }
    destruct (Q k) as (m & M1 & ->). auto.
  Qed.
End Forever.

Lemma nodup_app {X} (a b : list X) : NoDup (a ++ b) <-> NoDup a /\ NoDup b /\ forall x, In x a -> ~ In x b.
Proof.
  induction a as [|x a IH]; cbn; [split; [intros H; split; [constructor|split; auto]|intros (_ & H & _); auto]|]. split.
  - intros H. inversion H as [|? ? H1 H2]; subst. apply IH in H2 as (H2 & H3 & H4). split; [constructor; auto; intros Y; apply H1; apply in_or_app; auto|].
    split; auto. intros y [<-|Hy] Yb; [apply H1; apply in_or_app; auto|apply (H4 y); auto].
  - intros (H1 & H2 & H3). inversion H1; subst. constructor; [|apply IH; split; auto; split; auto].
    intros Y. apply in_app_or in Y as [Y|Y]; [auto|]. apply (H3 x); auto.
Qed.
(** ** what [multiPath] gives: every way back over neighbours of lowest cost, once *)
Lemma nodup_around g ds p : NoDup ds -> NoDup (around g ds p).
Proof.
  intros N. unfold around. induction ds as [|d ds IH]; cbn [flat_map]; [constructor|]. inversion N as [|? ? N1 N2]; subst. specialize (IH N2).
  destruct (_ || _); cbn [app]; [exact IH|]. constructor; auto. intros X. apply in_flat_map in X as (d' & H1 & H2).
  destruct (_ || _) in H2; [destruct H2|]. destruct H2 as [H2|[]]. injection H2 as E1 E2. apply N1.
  replace d with d'; auto. destruct d, d'. cbn in *. f_equal; lia.
Qed.
Lemma nodup_neighbor g p : once (neighbor g) -> NoDup (GetNeighbor g p).
Proof.
  unfold GetNeighbor. destruct (neighbor g); intros F; [apply nodup_around|apply nodup_around|apply NoDup_filter, F];
    repeat (constructor; [cbn; intuition congruence|]); constructor.
Qed.
Lemma mins_nodup g q : once (neighbor g) -> NoDup (minCostTiles g q).
Proof.
  intros F. unfold minCostTiles. assert (G : forall ns ret ms, NoDup (ms ++ ns) -> NoDup (snd (fold_left (fun acc n => let '(ret, ms) := acc in
    if isCount (tiles g n) then if cost (tiles g n) <? cost (tiles g ret) then (n, [n]) else if cost (tiles g ret) =? cost (tiles g n) then (ret, ms ++ [n]) else acc
    else acc) ns (ret, ms)))).
  { induction ns as [|n ns IH]; intros ret ms H; cbn [fold_left]; [rewrite app_nil_r in H; exact H|].
    destruct (isCount (tiles g n)); [destruct (_ <? _); [|destruct (_ =? _)]|]; apply IH.
    - now apply nodup_app in H.
    - now rewrite <- app_assoc.
    - now apply NoDup_remove_1 in H.
    - now apply NoDup_remove_1 in H. }
  apply G. now apply nodup_neighbor.
Qed.
Section Multi.
  Context (g : graph) (s : pos).
  Inductive steps : pos -> list pos -> Prop :=
  | steps_end : steps s [s]
  | steps_step q r l : q <> s -> In r (minCostTiles g q) -> steps r l -> steps q (q :: l).
  Lemma steps_head q l : steps q l -> exists l', l = q :: l'.
  Proof. destruct 1; eauto. Qed.
  Lemma gather (F : pos -> option (list (list pos))) ms : forall acc ps,
    fold_left (fun acc r => ps <- acc ;; qs <- F r ;; Some (ps ++ qs)) ms (Some acc) = Some ps ->
    (forall x, In x ps <-> In x acc \/ exists m qs, In m ms /\ F m = Some qs /\ In x qs) /\
    (forall m, In m ms -> exists qs, F m = Some qs) /\
    (NoDup ms -> NoDup acc -> (forall m qs, In m ms -> F m = Some qs -> NoDup qs) ->
     (forall m qs x, In m ms -> F m = Some qs -> In x qs -> ~ In x acc) ->
     (forall m m' qs qs' x, In m ms -> In m' ms -> F m = Some qs -> F m' = Some qs' -> In x qs -> In x qs' -> m = m') -> NoDup ps).
  Proof.
    induction ms as [|m ms IH]; intros acc ps E; cbn [fold_left] in E.
    - injection E as <-. split; [|split; [intros m []|auto]]. intros x. split; [auto|]. intros [H|(m & qs & [] & _)]. exact H.
    - destruct (F m) as [qs|] eqn:Em; [|exfalso; clear - E; induction ms as [|m' ms IH]; cbn in E; [discriminate|auto]].
      destruct (IH _ _ E) as (I1 & I3 & I2). split; [|split; [intros m' [<-|H]; eauto|]].
      + intros x. rewrite I1, in_app_iff. split.
        * intros [[H|H]|(m' & qs' & H1 & H2 & H3)]; [auto|right; exists m, qs; cbn; auto|right; exists m', qs'; cbn; auto].
        * intros [H|(m' & qs' & [<-|H1] & H2 & H3)]; [auto| |right; eauto]. rewrite Em in H2. injection H2 as <-. auto.
      + intros Nm Na Nq Nx Dj. inversion Nm as [|? ? Nm1 Nm2]; subst. apply I2; auto.
        * apply nodup_app. split; auto. split; [apply (Nq m); cbn; auto|]. intros x Hx Hx'. apply (Nx m qs x); cbn; auto.
        * intros m' qs' H1 H2. apply (Nq m'); cbn; auto.
        * intros m' qs' x H1 H2 H3 X. apply in_app_or in X as [X|X]; [apply (Nx m' qs' x); cbn; auto|].
          apply Nm1. rewrite (Dj m m' qs qs' x); cbn; auto.
        * intros m1 m2 q1 q2 x H1 H2. apply Dj; cbn; auto.
  Qed.
  Lemma multiPath_iff fuel : forall q path ps, multiPath fuel g q s path = Some ps ->
    (forall r, In r ps <-> exists l, r = path ++ l /\ steps q l) /\ (once (neighbor g) -> NoDup ps).
  Proof.
    induction fuel as [|fuel IH]; intros q path ps E; cbn [multiPath] in E; [discriminate|]. destruct (pos_dec q s) as [->|Hqs].
    - rewrite peqb_refl in E. injection E as <-. split; [|intros _; constructor; [auto|constructor]]. intros r. split.
      + intros [<-|[]]. exists [s]. split; auto. constructor.
      + intros (l & -> & Hl). inversion Hl; subst; [now left|contradiction].
    - rewrite peqb_neq in E by auto. apply gather in E as (E1 & E3 & E2). split.
      + intros r. rewrite E1. split.
        * intros [[]|(m & qs & H1 & H2 & H3)]. apply (IH m) in H2 as (H2 & _). apply H2 in H3 as (l & -> & Hl). exists (q :: l). rewrite <- app_assoc.
          split; auto. eapply steps_step; eauto.
        * intros (l & -> & Hl). right. inversion Hl as [|? m l' _ Hm Hl']; subst; [contradiction|].
          destruct (E3 m Hm) as (qs & Eq). exists m, qs. split; auto. split; auto. apply (IH m) in Eq as (Eq & _). apply Eq. exists l'. rewrite <- app_assoc. auto.
      + intros F. apply E2; [now apply mins_nodup|constructor| | |].
        * intros m qs _ Eq. apply (IH m) in Eq as (_ & Eq). exact (Eq F).
        * intros m qs x _ _ _ [].
        * intros m m' qs qs' x _ _ Eq Eq' Hx Hx'. apply (IH m) in Eq as (Eq & _). apply (IH m') in Eq' as (Eq' & _).
          apply Eq in Hx as (l & -> & Hl). apply Eq' in Hx' as (l' & El & Hl'). apply app_inv_head in El.
          apply steps_head in Hl as (k & ->). apply steps_head in Hl' as (k' & ->). congruence.
  Qed.
End Multi.

(** counting the tiles of a lower cost *)
Section Rank.
  Context (f : pos -> Z).
  Definition fewer (a : Z) (l : list pos) : nat := length (filter (fun r => f r <? a) l).
  Lemma fewer_mono a b l : a <= b -> (fewer a l <= fewer b l)%nat.
  Proof. intros H. unfold fewer. induction l as [|y l IH]; cbn [filter]; [lia|]. destruct (Z.ltb_spec (f y) a), (Z.ltb_spec (f y) b); cbn [length]; lia. Qed.
  Lemma fewer_all a l : (fewer a l <= length l)%nat.
  Proof. unfold fewer. induction l as [|y l IH]; cbn [filter]; [lia|]. destruct (f y <? a); cbn [length]; lia. Qed.
  Lemma fewer_one a y l : In y l -> a <= f y -> (fewer a l < length l)%nat.
  Proof.
    intros Hy Hc. pose proof (fewer_all a) as All. unfold fewer in *. induction l as [|x l IH]; [destruct Hy|]. cbn [filter]. destruct Hy as [->|Hy].
    - destruct (Z.ltb_spec (f y) a); [lia|]. cbn [length]. specialize (All l). lia.
    - specialize (IH Hy). destruct (f x <? a); cbn [length]; lia.
  Qed.
  Lemma fewer_two a y z l : In y l -> In z l -> y <> z -> a <= f y -> a <= f z -> (S (fewer a l) < length l)%nat.
  Proof.
    intros Hy Hz N Cy Cz. pose proof (fun y l => fewer_one a y l) as One. unfold fewer in *. induction l as [|x l IH]; [destruct Hy|]. cbn [filter length].
    destruct Hy as [->|Hy], Hz as [E|Hz].
    - contradiction.
    - destruct (Z.ltb_spec (f y) a); [lia|]. specialize (One z l Hz Cz). lia.
    - subst x. destruct (Z.ltb_spec (f z) a); [lia|]. specialize (One y l Hy Cy). lia.
    - specialize (IH Hy Hz). destruct (f x <? a); cbn [length]; lia.
  Qed.
  Lemma fewer_lt a r l : In r l -> f r < a -> (fewer (f r) l < fewer a l)%nat.
  Proof.
    intros Hr Hlt. pose proof (fun l => fewer_mono (f r) a l ltac:(lia)) as M. unfold fewer in *. induction l as [|x l IH]; [destruct Hr|]. cbn [filter].
    destruct Hr as [->|Hr].
    - rewrite Z.ltb_irrefl. destruct (Z.ltb_spec (f r) a); [|lia]. cbn [length]. specialize (M l). lia.
    - specialize (IH Hr). destruct (Z.ltb_spec (f x) (f r)), (Z.ltb_spec (f x) a); cbn [length]; lia.
  Qed.
End Rank.

(** ** the cheapest neighbours *)
Section Mins.
  Context (g : graph).
  Notation C q := (cost (tiles g q)).
  Lemma mins_fold ns : forall ret ms,
    let r := fold_left (fun acc n => let '(ret, ms) := acc in
      if isCount (tiles g n) then if C n <? C ret then (n, [n]) else if C ret =? C n then (ret, ms ++ [n]) else acc else acc) ns (ret, ms) in
    C (fst r) <= C ret /\
    (forall n, In n ns -> isCount (tiles g n) = true -> C (fst r) <= C n /\ (C (fst r) = C n -> In n (snd r))) /\
    (forall m, In m (snd r) -> (In m ms /\ C (fst r) = C ret) \/ (In m ns /\ isCount (tiles g m) = true /\ C m = C (fst r))) /\
    (forall m, In m ms -> C (fst r) = C ret -> In m (snd r)).
  Proof.
    induction ns as [|n ns IH]; intros ret ms; cbn [fold_left].
    { cbn. split; [lia|]. split; [intros n []|]. split; auto. }
    destruct (isCount (tiles g n)) eqn:E; [destruct (Z.ltb_spec (C n) (C ret)); [|destruct (Z.eqb_spec (C ret) (C n))]|].
    - destruct (IH n [n]) as (A1 & A2 & A3 & A4). split; [lia|]. split; [|split].
      + intros m [<-|Hm] Hc; [|auto]. split; auto. intros X. apply A4; [now left|auto].
      + intros m Hm. right. destruct (A3 m Hm) as [([<-|[]] & X)|(X & Y & Z')]; [split; [now left|auto]|split; [now right|auto]].
      + intros m _ X. lia.
    - destruct (IH ret (ms ++ [n])) as (A1 & A2 & A3 & A4). split; [lia|]. split; [|split].
      + intros m [<-|Hm] Hc; [|auto]. split; [lia|]. intros X. apply A4; [apply in_or_app; right; now left|lia].
      + intros m Hm. destruct (A3 m Hm) as [(X & Y)|(X & Y & Z')]; [|right; split; [now right|auto]].
        apply in_app_or in X as [X|[<-|[]]]; [left; auto|right; split; [now left|split; [auto|lia]]].
      + intros m Hm. apply A4. apply in_or_app. auto.
    - destruct (IH ret ms) as (A1 & A2 & A3 & A4). split; [lia|]. split; [|split; [|auto]].
      + intros m [<-|Hm] Hc; [|auto]. split; [lia|]. intros X. lia.
      + intros m Hm. destruct (A3 m Hm) as [X|(X & Y)]; [auto|right; split; [now right|auto]].
    - destruct (IH ret ms) as (A1 & A2 & A3 & A4). split; [lia|]. split; [|split; [|auto]].
      + intros m [<-|Hm] Hc; [congruence|auto].
      + intros m Hm. destruct (A3 m Hm) as [X|(X & Y)]; [auto|right; split; [now right|auto]].
  Qed.
  Lemma mins_member ns : forall ret ms,
    let r := fold_left (fun acc n => let '(ret, ms) := acc in
      if isCount (tiles g n) then if C n <? C ret then (n, [n]) else if C ret =? C n then (ret, ms ++ [n]) else acc else acc) ns (ret, ms) in
    fst r = ret \/ In (fst r) ns /\ isCount (tiles g (fst r)) = true.
  Proof.
    induction ns as [|n ns IH]; intros ret ms; cbn [fold_left]; [cbn; auto|].
    destruct (isCount (tiles g n)) eqn:E; [destruct (Z.ltb_spec (C n) (C ret)); [|destruct (Z.eqb_spec (C ret) (C n))]|].
    - right. destruct (IH n [n]) as [X|(X & Y)]; [rewrite X; split; [now left|auto]|split; [now right|auto]].
    - destruct (IH ret (ms ++ [n])) as [X|(X & Y)]; [auto|right; split; [now right|auto]].
    - destruct (IH ret ms) as [X|(X & Y)]; [auto|right; split; [now right|auto]].
    - destruct (IH ret ms) as [X|(X & Y)]; [auto|right; split; [now right|auto]].
  Qed.
End Mins.

(** ** the search *)
Section S.
  Context (Cost Weight : graph -> pos -> pos -> Z) (sortPaths : list (list pos) -> list (list pos)).
  Context (w h : Z) (e8 : dirs) (A : pos -> Z) (s e : pos).
  Context (Hs : within w h s) (He : within w h e) (As : A s <> BLOCK) (Ae : A e <> BLOCK) (Hse : s <> e).
  Definition free (p : pos) : Prop := within w h p /\ A p <> BLOCK.
  (** going on costs something, except perhaps on to the end *)
  Definition steep : Prop := forall g p, cost (tiles g p) < Cost g e p.
  Context (Up : forall g n p, (forall q, attr (tiles g q) = A q) -> free n -> n <> s -> n <> e -> cost (tiles g p) < Cost g n p).
  Context (Up_end : forall g p, (forall q, attr (tiles g q) = A q) -> cost (tiles g p) <= Cost g e p).

  (** [c] is the first among the tiles popped of which [q] is a neighbour; [cl] is the list of these, the last first *)
  Definition first_popped (cl : list pos) (q c : pos) : Prop := exists l1 l2, cl = l1 ++ c :: l2 /\ forall d, In d l2 -> ~ adjacent e8 d q.
  (** [cl] the tiles popped, [op] the tiles in the heap; of the neighbours of [p] those in [todo] are still to be looked at *)
  Record TI (ts : pos -> tile) (cl op : list pos) (p : pos) (todo : list pos) : Prop := {
    ti_attr : forall q, attr (ts q) = A q;
    ti_nodup : NoDup (cl ++ op);
    ti_all : forall q, In q (cl ++ op) <-> within w h q /\ isCount (ts q) = true;
    ti_end : ~ In e cl;
    ti_closed : forall c n, In c cl -> within w h n -> adjacent e8 c n -> A n <> BLOCK -> isCount (ts n) = true \/ (c = p /\ In n todo);
    ti_start : In s (cl ++ op);
    ti_zero : cost (ts s) = 0;
    ti_par : forall q, In q (cl ++ op) -> q <> s -> exists c, In c cl /\ adjacent e8 c q /\
      cost (ts c) <= cost (ts q) /\ (q <> e \/ steep -> cost (ts c) < cost (ts q)) /\
      (exists g0, tiles g0 c = ts c /\ cost (ts q) = Cost g0 q c) /\ first_popped cl q c;
    ti_pos : forall q, In q (cl ++ op) -> 0 <= cost (ts q);
    ti_free : forall q, In q (cl ++ op) -> A q <> BLOCK;
    ti_weight : forall q, In q op -> q <> s -> exists g0 c, option_map at_ (finish g0) = Some e /\
      cost (tiles g0 q) = cost (ts q) /\ weight (ts q) = Weight g0 q c;
    ti_first : In s op -> op = [s] }.

  Lemma route_snoc free' a l b c : route e8 free' a l b -> adjacent e8 b c -> free' c -> route e8 free' a (l ++ [c]) c.
  Proof.
    induction 1 as [a Ha|a d b l Ha Hd Hr IH]; intros Hadj Hc; cbn.
    - eapply route_step; eauto. now constructor.
    - eapply route_step; eauto.
  Qed.
  Lemma within_in ts cl op p todo q : TI ts cl op p todo -> In q (cl ++ op) -> within w h q.
  Proof. intros I H. apply (ti_all _ _ _ _ _ I) in H. tauto. Qed.
  (** everything visited can be reached *)
  Lemma visited_route ts cl op p todo : TI ts cl op p todo -> forall q, In q (cl ++ op) -> exists l, route e8 free s l q.
  Proof.
    intros I. assert (Fr : forall q, In q (cl ++ op) -> free q) by (intros q Hq; split; [eapply within_in; eauto|eapply ti_free; eauto]).
    assert (G : forall n q, In q cl -> (Z.to_nat (cost (ts q)) < n)%nat -> exists l, route e8 free s l q).
    { induction n as [|n IH]; intros q Hq Hn; [lia|]. destruct (pos_dec q s) as [->|Hqs]; [exists [s]; constructor; split; auto|].
      assert (Hq' : In q (cl ++ op)) by (apply in_or_app; auto).
      destruct (ti_par _ _ _ _ _ I q Hq' Hqs) as (c & Hc & Hadj & _ & Lt & _). assert (Hc' : In c (cl ++ op)) by (apply in_or_app; auto).
      assert (Hqe : q <> e) by (intros ->; apply (ti_end _ _ _ _ _ I); auto). specialize (Lt (or_introl Hqe)).
      pose proof (ti_pos _ _ _ _ _ I c Hc'). destruct (IH c Hc) as (l & Hl); [lia|].
      exists (l ++ [q]). apply route_snoc with c; auto. }
    intros q Hq. destruct (pos_dec q s) as [->|Hqs]; [exists [s]; constructor; split; auto|].
    destruct (ti_par _ _ _ _ _ I q Hq Hqs) as (c & Hc & Hadj & _). destruct (G _ c Hc (Nat.lt_succ_diag_r _)) as (l & Hl).
    exists (l ++ [q]). apply route_snoc with c; auto.
  Qed.
  (** when nothing is left to do, what was not visited cannot be reached *)
  Lemma closed_all ts cl p : TI ts cl [] p [] -> forall a l b, route e8 free a l b -> In a cl -> In b cl.
  Proof.
    intros I a l b. induction 1 as [a Ha|a c b l Ha Hadj Hr IH]; intros Hin; auto. apply IH.
    assert (Hc : free c) by (inversion Hr; auto). destruct Hc as (Hc & Hc').
    destruct (ti_closed _ _ _ _ _ I a c Hin Hc Hadj Hc') as [X|(_ & [])]. rewrite <- (app_nil_r cl). apply (ti_all _ _ _ _ _ I). auto.
  Qed.

  Lemma discover_ok g cl op p n todo : dimX g = w -> dimY g = h -> neighbor g = e8 -> option_map at_ (finish g) = Some e ->
    TI (tiles g) cl op p (n :: todo) -> HI (tiles g) (openHeap g) op -> (exists cl0, cl = p :: cl0) -> within w h n -> adjacent e8 p n ->
    exists g' op', discover Cost Weight p g n = Some g' /\ dimX g' = w /\ dimY g' = h /\ neighbor g' = e8 /\ option_map at_ (finish g') = Some e /\
      TI (tiles g') cl op' p todo /\ HI (tiles g') (openHeap g') op' /\
      (forall q, In q (cl ++ op) -> tiles g' q = tiles g q /\ In q (cl ++ op')).
  Proof.
    intros D1 D2 D3 D4 I H Hp0 Hn Hadj. unfold discover. assert (Hp : In p cl) by (destruct Hp0 as (cl0 & ->); now left).
    destruct (isCount (tiles g n)) eqn:Ec; cbn [negb andb].
    { exists g, op. split; auto. split; auto. split; auto. split; auto. split; auto. split; [|split; auto].
      destruct I; constructor; auto. intros c m Hc Hm Ha Hb. destruct (ti_closed0 c m Hc Hm Ha Hb) as [X|(X & [->|Y])]; auto. }
    destruct (Z.eqb_spec (attr (tiles g n)) BLOCK) as [Eb|Eb]; cbn [negb andb].
    { exists g, op. split; auto. split; auto. split; auto. split; auto. split; auto. split; [|split; auto].
      destruct I; constructor; auto. intros c m Hc Hm Ha Hb. destruct (ti_closed0 c m Hc Hm Ha Hb) as [X|(X & [->|Y])]; auto.
      rewrite ti_attr0 in Eb. contradiction. }
    cbv zeta. set (costed := with_tiles g _).
    assert (Hcost : cost (tiles costed n) = Cost g n p) by (cbn [costed with_tiles tiles]; rewrite upd_same; reflexivity).
    set (t := T (Cost g n p) (Weight costed n p) true (attr (tiles g n))).
    assert (Hnot : ~ In n (cl ++ op)). { intros X. apply (ti_all _ _ _ _ _ I) in X. destruct X as (_ & X). congruence. }
    assert (Same : forall q, In q (cl ++ op) -> upd (tiles g) n t q = tiles g q). { intros q Hq. apply upd_other. intros ->. auto. }
    assert (H' : HI (upd (tiles g) n t) (openHeap g) op). { apply (HI_ext (tiles g)); auto. intros q Hq. apply Same. apply in_or_app. auto. }
    destruct (HI_put _ _ _ n H') as (h' & E1 & H1). rewrite E1.
    exists (with_heap (with_tiles g (upd (tiles g) n t)) h'), (n :: op). split; auto. split; auto. split; auto. split; auto. split; auto.
    split; [|split; [auto|intros q Hq; split; [apply Same; auto|apply in_app_or in Hq; apply in_or_app; cbn; tauto]]]. cbn [tiles with_heap with_tiles openHeap].
    assert (Split : forall q, In q (cl ++ n :: op) -> q = n \/ (q <> n /\ In q (cl ++ op))).
    { intros q Hq. apply in_app_or in Hq. cbn in Hq. destruct (pos_dec q n); [auto|right]. split; auto. apply in_or_app. intuition congruence. }
    assert (Hpn : In p (cl ++ op)) by (apply in_or_app; auto).
    assert (Hns : n <> s). { intros ->. apply Hnot. eapply ti_start; eauto. }
    assert (Hup : cost (tiles g p) <= Cost g n p /\ (n <> e \/ steep -> cost (tiles g p) < Cost g n p)).
    { assert (X : n <> e -> cost (tiles g p) < Cost g n p).
      { intros Hne. apply Up; auto; [eapply ti_attr; eauto|]. split; auto. rewrite <- (ti_attr _ _ _ _ _ I). auto. }
      destruct (pos_dec n e) as [->|Hne]; [|split; [apply X in Hne; lia|auto]]. split; [apply Up_end; eapply ti_attr; eauto|].
      intros [Y|Y]; [contradiction|apply Y]. }
    destruct Hup as (Hle & Hlt). assert (Hcl : forall q, In q cl -> q <> e). { intros q Hq ->. apply (ti_end _ _ _ _ _ I). auto. }
    destruct I. constructor.
    - intros q. destruct (pos_dec q n) as [->|Hq]; [rewrite upd_same; apply ti_attr0|rewrite upd_other by auto; apply ti_attr0].
    - apply Permutation_NoDup with (n :: cl ++ op); [apply Permutation_middle|]. constructor; auto.
    - intros q. split.
      + intros Hq. apply Split in Hq as [->|(Hq & Hi)]; [rewrite upd_same; auto|]. rewrite upd_other by auto. apply ti_all0. auto.
      + intros (Hq1 & Hq2). destruct (pos_dec q n) as [->|Hq]; [apply in_or_app; cbn; auto|]. rewrite upd_other in Hq2 by auto.
        assert (X : In q (cl ++ op)) by (apply ti_all0; auto). apply in_app_or in X. apply in_or_app. cbn. tauto.
    - auto.
    - intros c m Hc Hm Ha Hb. destruct (pos_dec m n) as [->|Hq]; [rewrite upd_same; auto|]. rewrite upd_other by auto.
      destruct (ti_closed0 c m Hc Hm Ha Hb) as [X|(X & [->|Y])]; auto; contradiction.
    - apply in_app_or in ti_start0. apply in_or_app. cbn. tauto.
    - rewrite Same by auto. auto.
    - intros q Hq Hqs. apply Split in Hq as [->|(Hq & Hi)].
      + exists p. split; auto. split; auto. rewrite upd_same, Same by auto. cbn [cost t].
        split; auto. split; auto. split; [exists g; auto|]. destruct Hp0 as (cl0 & Ecl). exists [], cl0. split; auto. intros d Hd Ha.
        destruct (ti_closed0 d n) as [X|(X & _)]; [rewrite Ecl; now right|auto|auto|rewrite <- ti_attr0; auto|congruence|].
        subst d. rewrite Ecl in ti_nodup0. inversion ti_nodup0 as [|? ? Z' _]. apply Z'. apply in_or_app. auto.
      + destruct (ti_par0 q Hi Hqs) as (c & Hc & H2 & H3). exists c. split; auto. split; auto.
        rewrite !Same by (auto; apply in_or_app; auto). auto.
    - intros q Hq. apply Split in Hq as [->|(Hq & Hi)]; [|rewrite Same; auto]. rewrite upd_same. specialize (ti_pos0 p Hpn). cbn [cost t]. lia.
    - intros q Hq. apply Split in Hq as [->|(Hq & Hi)]; auto. rewrite ti_attr0 in Eb. auto.
    - intros q [<-|Hq] Hqs; [rewrite upd_same; exists costed, p; auto|]. rewrite Same by (apply in_or_app; auto). auto.
    - intros [<-|X]; [contradiction|]. apply ti_first0 in X. subst op. destruct cl as [|c cl]; [destruct Hp|].
      exfalso. clear - Hcl ti_par0 ti_nodup0 Hp ti_zero0 ti_pos0 ti_start0 Hnot Hpn ti_all0.
      (* s is both the only open tile and the ancestor of everything popped *)
      assert (G : forall k q, In q (c :: cl) -> (Z.to_nat (cost (tiles g q)) < k)%nat -> In s (c :: cl)).
      { induction k as [|k IH]; intros q Hq Hk; [lia|]. destruct (pos_dec q s) as [->|Hqs]; auto.
        destruct (ti_par0 q) as (d & Hd & _ & _ & E & _); auto. { apply in_or_app; auto. } specialize (E (or_introl (Hcl q Hq))).
        assert (0 <= cost (tiles g d)) by (apply ti_pos0; apply in_or_app; auto).
        apply (IH d Hd). lia. }
      apply (NoDup_remove_2 (c :: cl) [] s) in ti_nodup0. apply ti_nodup0. rewrite app_nil_r. eapply G; eauto.
  Qed.
  Lemma discoverAll_ok p todo : forall g cl op, dimX g = w -> dimY g = h -> neighbor g = e8 -> option_map at_ (finish g) = Some e ->
    TI (tiles g) cl op p todo -> HI (tiles g) (openHeap g) op -> (exists cl0, cl = p :: cl0) -> (forall n, In n todo -> within w h n /\ adjacent e8 p n) ->
    exists g' op', discoverAll Cost Weight p g todo = Some g' /\ dimX g' = w /\ dimY g' = h /\ neighbor g' = e8 /\ option_map at_ (finish g') = Some e /\
      TI (tiles g') cl op' p [] /\ HI (tiles g') (openHeap g') op' /\
      (forall q, In q (cl ++ op) -> tiles g' q = tiles g q /\ In q (cl ++ op')).
  Proof.
    induction todo as [|n todo IH]; intros g cl op D1 D2 D3 D4 I H Hp Hn; cbn [discoverAll]; [exists g, op; auto 9|].
    destruct (Hn n (or_introl eq_refl)) as (N1 & N2).
    destruct (discover_ok g cl op p n todo D1 D2 D3 D4 I H Hp N1 N2) as (g1 & op1 & E1 & F1 & F2 & F3 & F0 & I1 & H1 & S1). rewrite E1.
    destruct (IH g1 cl op1 F1 F2 F3 F0 I1 H1 Hp) as (g2 & op2 & E2 & F4 & F5 & F6 & F7 & I2 & H2 & S2).
    { intros m Hm. apply Hn. now right. }
    exists g2, op2. split; auto. split; auto. split; auto. split; auto. split; auto. split; auto. split; auto.
    intros q Hq. destruct (S1 q Hq) as (Q1 & Q2). destruct (S2 q Q2) as (Q3 & Q4). split; [congruence|auto].
  Qed.
  (** taking a tile off the heap *)
  Lemma pop_closed ts cl op p x op' : TI ts cl op p [] -> Permutation op (x :: op') -> x <> e ->
    TI ts (x :: cl) op' x (filter (fun n => negb (isCount (ts n))) (cells w h)).
  Proof.
    intros I Hp Hx. assert (Q : Permutation (cl ++ op) ((x :: cl) ++ op')).
    { rewrite Hp. symmetry. apply Permutation_middle. }
    assert (Q' : forall q, In q ((x :: cl) ++ op') <-> In q (cl ++ op)).
    { intros q. split; apply Permutation_in; [now symmetry|auto]. }
    destruct I. constructor; auto.
    - eapply Permutation_NoDup; eauto.
    - intros q. rewrite Q'. apply ti_all0.
    - intros [->|H]; auto.
    - intros c n Hc Hn Ha Hb. destruct (isCount (ts n)) eqn:E; auto. right. destruct Hc as [<-|Hc].
      + split; auto. apply filter_In. rewrite in_cells, E. auto.
      + destruct (ti_closed0 c n Hc Hn Ha Hb) as [X|(_ & [])]. congruence.
    - apply Q'. auto.
    - intros q Hq Hqs. apply Q' in Hq. destruct (ti_par0 q Hq Hqs) as (c & Hc & H1 & H2 & H3 & H4 & l1 & l2 & H5 & H6). exists c.
      split; [right; auto|]. split; auto. split; auto. split; auto. split; auto. exists (x :: l1), l2. split; [rewrite H5; reflexivity|auto].
    - intros q Hq. apply Q' in Hq. auto.
    - intros q Hq. apply Q' in Hq. auto.
    - intros q Hq. apply ti_weight0. apply (Permutation_in _ (Permutation_sym Hp)). now right.
    - intros X. assert (Y : In s op) by (apply (Permutation_in _ (Permutation_sym Hp)); now right). apply ti_first0 in Y. subst op.
      apply Permutation_length_1_inv in Hp. injection Hp as -> ->. destruct X.
  Qed.
  Lemma ti_todo ts cl op p todo todo' : (forall n, In n todo -> within w h n -> adjacent e8 p n -> In n todo') ->
    TI ts cl op p todo -> TI ts cl op p todo'.
  Proof.
    intros H I. destruct I. constructor; auto. intros c n Hc Hn Ha Hb. destruct (ti_closed0 c n Hc Hn Ha Hb) as [X|(-> & X)]; auto.
  Qed.

  (** what holds when the search ends; [Q] is any further fact kept by every round *)
  Context (Q : (pos -> tile) -> list pos -> list pos -> Prop).
  Context (HQ : forall ts ts' cl op p x op' op2, TI ts cl op p [] -> Permutation op (x :: op') -> (forall y, In y op -> weight (ts y) <= weight (ts x)) ->
     Q ts cl op -> TI ts' (x :: cl) op2 p [] -> (forall q, In q (cl ++ op) -> ts' q = ts q /\ In q (x :: cl ++ op2)) -> Q ts' (x :: cl) op2).
  Definition found (multi : bool) (g : graph) : option (graph * bool) :=
    if multi then ps <- multiPath (S (area g)) g e s [e] ;; Some (with_paths g (sortPaths ps), true)
    else p <- singlePath (area g) g e s [e] ;; Some (with_paths g [p], true).
  Lemma loop_ok multi fuel : forall g cl op p, dimX g = w -> dimY g = h -> neighbor g = e8 -> option_map at_ (finish g) = Some e ->
    TI (tiles g) cl op p [] -> HI (tiles g) (openHeap g) op -> Q (tiles g) cl op -> (Z.to_nat (w * h) < fuel + length cl)%nat ->
    (exists g' cl', loop Cost Weight sortPaths fuel multi s e g = Some (g', false) /\ TI (tiles g') cl' [] p [] /\ Q (tiles g') cl' []) \/
    (exists g' cl' op' q, loop Cost Weight sortPaths fuel multi s e g = found multi g' /\ dimX g' = w /\ dimY g' = h /\ neighbor g' = e8 /\
        TI (tiles g') cl' op' q [] /\ In e op' /\ (forall y, In y op' -> weight (tiles g' y) <= weight (tiles g' e)) /\ Q (tiles g') cl' op').
  Proof.
    induction fuel as [|fuel IH]; intros g cl op p D1 D2 D3 D4 I H HQ0 Hf.
    { pose proof (few_cells w h (cl ++ op) (ti_nodup _ _ _ _ _ I)) as G. rewrite app_length in G.
      assert (length cl + length op <= Z.to_nat (w * h))%nat; [|lia]. apply G. intros q Hq. eapply within_in; eauto. }
    cbn [loop]. destruct (HI_pop _ _ _ H) as [(-> & E)|(h' & x & op' & E & H' & Hp & M)].
    { left. rewrite E. exists (with_heap g (openHeap g)), cl. split; [reflexivity|]. split; auto. }
    rewrite E. cbv zeta. destruct (pos_dec x e) as [->|Hx].
    - right. rewrite peqb_refl. exists (with_heap g h'), cl, op, p. split; [reflexivity|]. split; auto. split; auto. split; auto. split; auto.
      split; [apply (Permutation_in _ (Permutation_sym Hp)); now left|]. auto.
    - rewrite peqb_neq by auto.
      assert (I1 : TI (tiles (with_heap g h')) (x :: cl) op' x (GetNeighbor (with_heap g h') x)).
      { eapply ti_todo; [|eapply pop_closed; eauto]. intros n _ Hn Ha. apply neighbor_ok. cbn. rewrite D1, D2, D3. auto. }
      destruct (discoverAll_ok x (GetNeighbor (with_heap g h') x) (with_heap g h') (x :: cl) op') as (g2 & op2 & E2 & F1 & F2 & F3 & F0 & I2 & H2 & S2); auto.
      { eauto. } { intros n Hn. apply neighbor_ok in Hn. cbn in Hn. rewrite D1, D2, D3 in Hn. auto. }
      rewrite E2. assert (I3 : TI (tiles g2) (x :: cl) op2 p []).
      { destruct I2. constructor; auto. intros c n Hc Hn Ha Hb. destruct (ti_closed0 c n Hc Hn Ha Hb) as [X|(_ & [])]; auto. }
      apply (IH g2 (x :: cl) op2 p); auto.
      + apply (HQ (tiles g) (tiles g2) cl op p x op' op2); auto. intros q Hq. apply (S2 q).
        apply in_app_or in Hq as [Hq|Hq]; [right; apply in_or_app; auto|]. apply (Permutation_in _ Hp) in Hq as [<-|Hq]; [now left|right; apply in_or_app; auto].
      + cbn [length]. lia.
  Qed.

  (** ** the way back *)
  Section Back.
    Context (g : graph) (cl op : list pos) (p : pos) (D1 : dimX g = w) (D2 : dimY g = h) (D3 : neighbor g = e8) (I : TI (tiles g) cl op p []) (Fair : fair e8).
    Notation V := (cl ++ op).
    Notation C q := (cost (tiles g q)).
    Lemma lower q : In q V -> q <> s ->
      exists c, In c (GetNeighbor g q) /\ isCount (tiles g c) = true /\ C c <= C q /\ (q <> e \/ steep -> C c < C q).
    Proof.
      intros Hq Hqs. destruct (ti_par _ _ _ _ _ I q Hq Hqs) as (c & Hc & Ha & E1 & E2 & _). assert (Hc' : In c V) by (apply in_or_app; auto).
      exists c. apply (ti_all _ _ _ _ _ I) in Hc' as (H1 & H2). rewrite neighbor_ok, D1, D2, D3. split; [split; auto; apply adjacent_sym; auto|auto].
    Qed.
    Lemma visited_neighbor q c : In c (GetNeighbor g q) -> isCount (tiles g c) = true -> In c V /\ adjacent e8 q c.
    Proof. rewrite neighbor_ok, D1, D2, D3. intros (H1 & H2) H3. split; auto. apply (ti_all _ _ _ _ _ I). auto. Qed.
    Lemma neighbor_neq q c : In c (GetNeighbor g q) -> c <> q.
    Proof. intros H. apply neighbor_ok in H as (_ & H). apply adjacent_neq in H; auto. now rewrite D3. Qed.
    Lemma lowest_fold ns : forall ret,
      let r := fold_left (fun ret n => if isCount (tiles g n) && (C n <=? C ret) then n else ret) ns ret in
      ((r = ret /\ forall n, In n ns -> isCount (tiles g n) = true -> C ret < C n) \/ (In r ns /\ isCount (tiles g r) = true)) /\
      C r <= C ret /\ (forall n, In n ns -> isCount (tiles g n) = true -> C r <= C n).
    Proof.
      induction ns as [|n ns IH]; intros ret; cbn [fold_left].
      { cbn. split; [left; split; [auto|intros n []]|]. split; [lia|intros n []]. }
      destruct (isCount (tiles g n)) eqn:E; cbn [andb]; [destruct (Z.leb_spec (C n) (C ret))|].
      - destruct (IH n) as (A1 & A2 & A3). split; [|split; [lia|]].
        + right. destruct A1 as [(A1 & _)|(A1 & A4)]; [rewrite A1; split; [left|]; auto|split; [right|]; auto].
        + intros m [<-|Hm] Hc; auto.
      - destruct (IH ret) as (A1 & A2 & A3). split; [|split; [lia|]].
        + destruct A1 as [(A1 & A4)|(A1 & A4)]; [left; split; auto; intros m [<-|Hm]; auto|right; split; [right|]; auto].
        + intros m [<-|Hm] Hc; [lia|auto].
      - destruct (IH ret) as (A1 & A2 & A3). split; [|split; [lia|]].
        + destruct A1 as [(A1 & A4)|(A1 & A4)]; [left; split; auto; intros m [<-|Hm]; [congruence|auto]|right; split; [right|]; auto].
        + intros m [<-|Hm] Hc; [congruence|auto].
    Qed.
    (** one step back: from [q] to [r] *)
    Definition drops (q r : pos) : Prop := In r V /\ adjacent e8 q r /\ r <> e /\ C r <= C q /\ (q <> e \/ steep -> C r < C q).
    Lemma not_back q r : C q <= C e -> adjacent e8 q r -> (q <> e \/ steep -> C r < C q) -> r <> e.
    Proof. intros H Ha Lt ->. destruct (pos_dec q e) as [->|N]; [apply adjacent_neq in Ha; auto|]. specialize (Lt (or_introl N)). lia. Qed.
    Lemma lowest_ok q : In q V -> q <> s -> C q <= C e -> drops q (lowest g q).
    Proof.
      intros Hq Hqs Hle. destruct (lower q Hq Hqs) as (c & Hc & Hc2 & Hc3 & Hc4). destruct (lowest_fold (GetNeighbor g q) q) as (A1 & A2 & A3).
      fold (lowest g q) in *. specialize (A3 c Hc Hc2). destruct A1 as [(A1 & A4)|(A1 & A4)]; [specialize (A4 c Hc Hc2); lia|].
      destruct (visited_neighbor _ _ A1 A4) as (B1 & B2). assert (B3 : q <> e \/ steep -> C (lowest g q) < C q) by (intros X; apply Hc4 in X; lia).
      split; auto. split; auto. split; [eapply not_back; eauto|]. split; [lia|auto].
    Qed.
    (** [l] goes from [q] to the start over visited tiles, always to a lower cost *)
    Inductive falls : pos -> list pos -> Prop :=
    | falls_end : falls s [s]
    | falls_step q r l : In q V -> q <> s -> drops q r -> falls r l -> falls q (q :: l).
    Lemma free_visited q : In q V -> free q.
    Proof. intros H. split; [eapply within_in; eauto|eapply ti_free; eauto]. Qed.
    Lemma falls_route q l : falls q l -> route e8 free q l s.
    Proof.
      induction 1 as [|q r l Hq Hqs (Hr & Ha & _) Hf IH]; [constructor; split; auto|]. eapply route_step; eauto. now apply free_visited.
    Qed.
    Lemma falls_below q l : falls q l -> forall r, In r l -> C r <= C q.
    Proof.
      induction 1 as [|q r l Hq Hqs (Hr & Ha & _ & Hc & _) Hf IH]; intros x Hx; [destruct Hx as [<-|[]]; lia|].
      destruct Hx as [<-|Hx]; [lia|]. specialize (IH x Hx). lia.
    Qed.
    Lemma falls_not_end q l : falls q l -> q <> e -> ~ In e l.
    Proof.
      induction 1 as [|q r l Hq Hqs (Hr & Ha & Hne & _) Hf IH]; intros Hqe; [intros [X|[]]; auto|]. intros [X|X]; [auto|]. apply IH; auto.
    Qed.
    Lemma falls_nodup q l : falls q l -> NoDup l.
    Proof.
      induction 1 as [|q r l Hq Hqs (Hr & Ha & Hne & Hc & Hlt) Hf IH]; [constructor; [auto|constructor]|]. constructor; auto.
      intros X. destruct (pos_dec q e) as [->|Hqe]; [apply (falls_not_end _ _ Hf Hne X)|].
      apply (falls_below _ _ Hf) in X. specialize (Hlt (or_introl Hqe)). lia.
    Qed.
    Lemma falls_length q l : steep -> falls q l -> moves l <= C q.
    Proof.
      intros St. unfold moves. induction 1 as [|q r l Hq Hqs (Hr & Ha & Hne & Hc & Hlt) Hf IH]; cbn [length] in *; [rewrite (ti_zero _ _ _ _ _ I); reflexivity|].
      specialize (Hlt (or_intror St)). lia.
    Qed.
    (** the number of visited tiles that cost less *)
    Definition rank (q : pos) : nat := fewer (fun r => C r) (C q) V.
    Lemma few_visited : (length V <= area g)%nat.
    Proof. unfold area. rewrite D1, D2. apply few_cells; [eapply ti_nodup; eauto|]. intros r Hr. eapply within_in; eauto. Qed.
    Lemma rank_small q : In q V -> (rank q < area g)%nat.
    Proof. intros Hq. pose proof few_visited. pose proof (fewer_one (fun r => C r) (C q) q V Hq (Z.le_refl _)). unfold rank. lia. Qed.
    (** [n] steps are enough to come back from [q] *)
    Definition enough (q : pos) (n : nat) : Prop := if pos_dec q e then (area g <= n)%nat else (rank q < n)%nat.
    Lemma enough_step q r n : In q V -> drops q r -> enough q (S n) -> enough r n.
    Proof.
      intros Hq (Hr & _ & Hne & Hle & Hlt). unfold enough. destruct (pos_dec r e); [contradiction|]. destruct (pos_dec q e) as [->|Hqe].
      - intros H. pose proof few_visited. pose proof (fewer_two (fun r => C r) (C r) r e V Hr Hq Hne (Z.le_refl _) Hle). unfold rank. lia.
      - intros H. pose proof (fewer_lt (fun r => C r) (C q) r V Hr (Hlt (or_introl Hqe))). unfold rank in *. lia.
    Qed.
    Lemma singlePath_ok fuel : forall q path, In q V -> C q <= C e -> enough q fuel ->
      exists l, singlePath fuel g q s path = Some (path ++ l) /\ falls q (q :: l).
    Proof.
      induction fuel as [|fuel IH]; intros q path Hq Hle Hf; cbn [singlePath]; (destruct (pos_dec q s) as [->|Hqs];
        [rewrite peqb_refl; exists []; rewrite app_nil_r; split; [auto|constructor]|rewrite peqb_neq by auto]).
      - exfalso. unfold enough in Hf. pose proof (rank_small q Hq). destruct (pos_dec q e); lia.
      - pose proof (lowest_ok q Hq Hqs Hle) as L. pose proof (enough_step q _ _ Hq L Hf) as L'. pose proof L as (L1 & L2 & L3 & L4 & L5).
        destruct (IH (lowest g q) (path ++ [lowest g q]) L1) as (l & E & Fl); [lia|auto|].
        exists (lowest g q :: l). rewrite E, <- app_assoc. split; [reflexivity|]. eapply falls_step; eauto.
    Qed.
    Lemma mins_ok q : In q V -> q <> s -> C q <= C e -> minCostTiles g q <> [] /\ forall m, In m (minCostTiles g q) -> drops q m.
    Proof.
      intros Hq Hqs Hle. destruct (lower q Hq Hqs) as (c & Hc & Hc2 & Hc3 & Hc4).
      destruct (mins_fold g (GetNeighbor g q) q []) as (A1 & A2 & A3 & _). pose proof (mins_member g (GetNeighbor g q) q []) as A5. cbv zeta in A5.
      fold (minCostTiles g q) in A2, A3.
      destruct (A2 c Hc Hc2) as (B1 & B2). split.
      - destruct A5 as [X|(X & Y)].
        + rewrite X in B1, B2. intros N. rewrite N in B2. apply B2. lia.
        + destruct (A2 _ X Y) as (_ & Z'). intros N. rewrite N in Z'. apply Z'. reflexivity.
      - intros m Hm. destruct (A3 m Hm) as [([] & _)|(X & Y & Z')]. destruct (visited_neighbor _ _ X Y) as (V1 & V2).
        assert (Lt : q <> e \/ steep -> C m < C q) by (intros S'; apply Hc4 in S'; lia).
        split; auto. split; auto. split; [eapply not_back; eauto|]. split; [lia|auto].
    Qed.
    Lemma multiPath_ok fuel : forall q path, In q V -> C q <= C e -> enough q fuel ->
      exists ps, multiPath (S fuel) g q s path = Some ps /\ ps <> [] /\ forall r, In r ps -> exists l, r = path ++ l /\ falls q l.
    Proof.
      induction fuel as [|fuel IH]; intros q path Hq Hle Hf.
      { exfalso. unfold enough in Hf. pose proof (rank_small q Hq). destruct (pos_dec q e); lia. }
      remember (S fuel) as k eqn:Ek. cbn [multiPath]. subst k. destruct (pos_dec q s) as [->|Hqs].
      - rewrite peqb_refl. exists [path ++ [s]]. split; auto. split; [discriminate|]. intros r [<-|[]]. exists [s]. split; auto. constructor.
      - rewrite peqb_neq by auto. destruct (mins_ok q Hq Hqs Hle) as (M1 & M2).
        assert (G : forall ms acc, (forall m, In m ms -> In m (minCostTiles g q)) -> (forall r, In r acc -> exists l, r = path ++ l /\ falls q l) ->
          exists ps, fold_left (fun acc r => ps <- acc ;; qs <- multiPath (S fuel) g r s (path ++ [q]) ;; Some (ps ++ qs)) ms (Some acc) = Some ps /\
            (ms <> [] \/ acc <> [] -> ps <> []) /\ forall r, In r ps -> exists l, r = path ++ l /\ falls q l).
        { induction ms as [|m ms IHm]; intros acc Hm Hacc; cbn [fold_left].
          - exists acc. split; auto. split; [intros [X|X]; auto|auto].
          - pose proof (M2 m (Hm m (or_introl eq_refl))) as N. pose proof (enough_step q _ _ Hq N Hf) as N'. pose proof N as (N1 & N2 & N3 & N4 & N5).
            destruct (IH m (path ++ [q]) N1) as (qs & E & E2 & E3); [lia|auto|]. rewrite E.
            destruct (IHm (acc ++ qs)) as (ps & F1 & F2 & F3).
            + intros x Hx. apply Hm. now right.
            + intros r Hr. apply in_app_or in Hr as [Hr|Hr]; auto. destruct (E3 r Hr) as (l & -> & Hl). exists (q :: l).
              rewrite <- app_assoc. split; auto. eapply falls_step; eauto.
            + exists ps. split; auto. split; auto. intros _. apply F2. right. destruct acc; [cbn; auto|discriminate]. }
        destruct (G (minCostTiles g q) []) as (ps & F1 & F2 & F3); auto. { intros r []. } exists ps. auto.
    Qed.
  End Back.
End S.
