(** tree/treelist: lists in one memory do as lists in memories of their own. *)
From Verif Require Import Base Machine IndexSpec IndexPoolSpec IndexModel IndexHeapModel TreelistSpec TreelistPoolSpec TreelistHeapModel TreelistPoolModel TreelistMoveProofs.
Local Open Scope Z_scope.

Lemma put_at_len {X} i (x : X) l : length (put_at i x l) = length l.
Proof. revert i. induction l as [|y l IH]; intros [|i]; cbn; auto. Qed.
Lemma put_at_eq {X} i (x y : X) l : nth_error l i = Some y -> nth_error (put_at i x l) i = Some x.
Proof. revert i. induction l as [|z l IH]; intros [|i]; cbn; try discriminate; auto. Qed.
Lemma put_at_ne {X} i j (x : X) l : i <> j -> nth_error (put_at i x l) j = nth_error l j.
Proof. revert i j. induction l as [|z l IH]; intros [|i] [|j] H; cbn; auto; congruence. Qed.

Section One.
  Context {K V : Type} (cmp : K -> K -> Z).
  #[local] Hint Extern 0 (Rel K) => exact (@rel_eq K) : typeclass_instances.
  #[local] Hint Extern 0 (Rel V) => exact (@rel_eq V) : typeclass_instances.
  #[local] Hint Extern 0 (Rel (option V)) => exact (@rel_eq (option V)) : typeclass_instances.
  #[local] Hint Extern 0 (Rel (option (K * V))) => exact (@rel_eq (option (K * V))) : typeclass_instances.
  Implicit Types (m g : tmem K V) (phi : list nat).

  Lemma answer_moved {X} {R : Rel X} phi (e e' : TM K V X) (f : X -> tl_out K V) m g m' o : simT phi e e' -> (forall ph x y, rel ph x y -> f x = f y) ->
    tmoved phi m g -> tanswer e f m = Some (m', o) -> exists phi' g', tanswer e' f g = Some (g', o) /\ tmoved phi' m' g' /\ tkept phi g phi' g'.
  Proof.
    intros Hs Hf Hm He. unfold tanswer in *. specialize (Hs m g Hm). destruct (e m) as [x m1|m1|]; [| |discriminate]; injection He as <- <-.
    - destruct Hs as (phi' & y & g' & -> & Rx & M1 & K1). exists phi', g'. rewrite (Hf _ _ _ Rx). auto.
    - destruct Hs as (phi' & g' & -> & M1 & K1). exists phi', g'. auto.
  Qed.
  Lemma step_moved phi m g r o m' x : nth_error phi 0 = Some r -> tmoved phi m g -> thstep cmp m o = Some (m', x) ->
    exists phi' g', thstepAt cmp r g o = Some (g', x) /\ tmoved phi' m' g' /\ tkept phi g phi' g'.
  Proof.
    intros Hr Hm. unfold thstep.
    destruct o; cbn [thstepAt]; apply answer_moved; try exact Hm; try (intros ? ? ? H; clean; congruence);
      try (intros ? (?, ?) (?, ?) H; clean; congruence).
    - apply t_putWith, Hr.
    - apply t_putWith, Hr.
    - apply t_putWith, Hr.
    - apply t_Get, Hr.
    - apply t_Remove, Hr.
    - apply t_RemoveIndex, Hr.
    - apply t_endOf, Hr.
    - apply t_endOf, Hr.
    - apply t_removeEnd, Hr.
    - apply t_removeEnd, Hr.
    - apply t_Index, Hr.
    - apply t_lift, s_IndexOf, Hr.
    - apply t_lift, s_treeSize, Hr.
    - apply t_lift, s_Traverse, Hr.
    - apply t_lift, s_Traverse, Hr.
    - apply t_Clear, Hr.
    - apply t_RemoveRange, Hr.
    - apply t_RemoveRangeByIndex, Hr.
    - apply t_Trim, Hr.
    - apply t_TrimByIndex, Hr.
  Qed.

  (** nodes elsewhere *)
  Definition disjoint (l l' : list nat) : Prop := forall b, In b l -> ~ In b l'.
  Lemma moved_same phi m g g' : tmoved phi m g -> (next (base g) <= next (base g'))%nat -> (forall b, In b phi -> same_tnode g g' b) -> tmoved phi m g'.
  Proof.
    intros [[L1 L2 L3 L4 L5 L6 L7 L8 L9] Ld] Hn Hs. constructor; [constructor|].
    - exact L1.
    - exact L2.
    - intros b Hb. specialize (L3 b Hb). lia.
    - intros a b Hab. destruct (Hs b (nth_error_In _ _ Hab)) as ((H1 & H2 & H3 & H4 & H5 & H6) & H7). rewrite H1. auto.
    - intros a b d Hab. destruct (Hs b (nth_error_In _ _ Hab)) as ((H1 & H2 & H3 & H4 & H5 & H6) & H7). rewrite H2. auto.
    - intros a b Hab. destruct (Hs b (nth_error_In _ _ Hab)) as ((H1 & H2 & H3 & H4 & H5 & H6) & H7). rewrite H3. auto.
    - intros a b Hab. destruct (Hs b (nth_error_In _ _ Hab)) as ((H1 & H2 & H3 & H4 & H5 & H6) & H7). rewrite H4. auto.
    - intros a b Hab. destruct (Hs b (nth_error_In _ _ Hab)) as ((H1 & H2 & H3 & H4 & H5 & H6) & H7). rewrite H5. auto.
    - intros a b Hab. destruct (Hs b (nth_error_In _ _ Hab)) as ((H1 & H2 & H3 & H4 & H5 & H6) & H7). rewrite H6. auto.
    - intros a b d Hab. destruct (Hs b (nth_error_In _ _ Hab)) as (_ & H7). rewrite H7. auto.
  Qed.
  Lemma moved_kept phi m phi0 g phi1 g' : tmoved phi m g -> disjoint phi phi0 -> tkept phi0 g phi1 g' -> tmoved phi m g' /\ disjoint phi phi1.
  Proof.
    intros Hm Hd [(ext & -> & X1) X2 X3]. split.
    - apply (moved_same phi m g g' Hm X2). intros b Hb. apply X3; [apply Hd, Hb|]. apply (mv_lt _ _ _ (tm_base _ _ _ Hm)), Hb.
    - intros b Hb Hc. apply in_app_or in Hc as [Hc|Hc]; [exact (Hd b Hb Hc)|]. specialize (X1 b Hc). pose proof (mv_lt _ _ _ (tm_base _ _ _ Hm) b Hb). lia.
  Qed.
End One.

(** ** Set operations *)
Section Sets.
  Context {K V : Type} (cmp : K -> K -> Z) (zero : K) (zeroV : V) (op : lset).
  #[local] Hint Extern 0 (Rel K) => exact (@rel_eq K) : typeclass_instances.
  #[local] Hint Extern 0 (Rel V) => exact (@rel_eq V) : typeclass_instances.
  Notation tmem := (tmem K V).
  Context (phi1 phi2 : list nat) (m1 m2 : tmem).
  #[local] Hint Extern 0 (Rel heads) => exact (fun _ h h' => pp phi1 (head1 h) (head1 h') /\ pp phi2 (head2 h) (head2 h')) : typeclass_instances.
  Implicit Types (m g : tmem) (phi : list nat).

  (** the two lists are in [g], outside of [phi] *)
  Definition both phi g : Prop := tmoved phi1 m1 g /\ tmoved phi2 m2 g /\ disjoint phi1 phi /\ disjoint phi2 phi.
  Lemma both_kept phi g phi' g' : both phi g -> tkept phi g phi' g' -> both phi' g'.
  Proof.
    intros (H1 & H2 & H3 & H4) Hk. destruct (moved_kept _ _ _ _ _ _ H1 H3 Hk). destruct (moved_kept _ _ _ _ _ _ H2 H4 Hk). unfold both. auto.
  Qed.
  Definition simB {X} {R : Rel X} phi (e e' : TM K V X) : Prop := forall m g, tmoved phi m g -> both phi g ->
    match e m with
    | Done x m' => exists phi' y g', e' g = Done y g' /\ rel phi' x y /\ tmoved phi' m' g' /\ tkept phi g phi' g'
    | Fail m' => exists phi' g', e' g = Fail g' /\ tmoved phi' m' g' /\ tkept phi g phi' g'
    | Forever => True
    end.
  Lemma b_sim {X} {R : Rel X} phi (e e' : TM K V X) : simT phi e e' -> simB phi e e'.
  Proof. intros H m g Hm _. apply H, Hm. Qed.
  Lemma b_bind {X Y} {RX : Rel X} {RY : Rel Y} phi (e e' : TM K V X) (f f' : X -> TM K V Y) : simB phi e e' ->
    (forall phi' x y, more phi phi' -> rel phi' x y -> simB phi' (f x) (f' y)) -> simB phi (tbind e f) (tbind e' f').
  Proof.
    intros H1 H2 m g Hm Hb. unfold tbind. specialize (H1 m g Hm Hb). destruct (e m) as [x g1|g1|]; [| |exact I].
    - destruct H1 as (ph1 & y & g2 & -> & Rx & M1 & K1). specialize (H2 ph1 x y (tkept_more _ _ _ _ K1) Rx g1 g2 M1 (both_kept _ _ _ _ Hb K1)).
      destruct (f x g1) as [z g3|g3|]; [| |exact I].
      + destruct H2 as (ph2 & w & g4 & -> & Rz & M2 & K2). exists ph2, w, g4. eauto using tkept_trans.
      + destruct H2 as (ph2 & g4 & -> & M2 & K2). exists ph2, g4. eauto using tkept_trans.
    - destruct H1 as (ph1 & g2 & -> & M1 & K1). eauto.
  Qed.

  Definition hh (h h' : heads) : Prop := pp phi1 (head1 h) (head1 h') /\ pp phi2 (head2 h) (head2 h').
  Definition same_out (x y : option (bool * nat)) : Prop :=
    match x, y with
    | None, None => True
    | Some (false, a), Some (false, b) => nth_error phi1 a = Some b
    | Some (true, a), Some (true, b) => nth_error phi2 a = Some b
    | _, _ => False
    end.
  Section Read.
  Context (g : tmem) (H1 : tmoved phi1 m1 g) (H2 : tmoved phi2 m2 g).
  Lemma r_emit a1 a2 b1 b2 c : nth_error phi1 a1 = Some b1 -> nth_error phi2 a2 = Some b2 ->
    hh (fst (emit op m1 m2 a1 a2 c)) (fst (emit op g g b1 b2 c)) /\ same_out (snd (emit op m1 m2 a1 a2 c)) (snd (emit op g g b1 b2 c)).
  Proof.
    intros A1 A2. pose proof (tm_dir _ _ _ H1 a1 b1 true A1) as D1. pose proof (tm_dir _ _ _ H2 a2 b2 true A2) as D2. unfold emit, hh.
    destruct op; destruct (c <? 0); try destruct (c >? 0); cbn [fst snd head1 head2 same_out]; auto.
  Qed.
  Lemma r_rest phi m n : forall n' h h' c z, tmoved phi m g -> (n <= n')%nat -> pp phi h h' -> countRest n m h c = Some z -> countRest n' g h' c = Some z.
  Proof.
    induction n as [|n IH]; intros n' h h' c z Hm Hn Hh He; (destruct h as [a|], h' as [b|]; cbn in Hh; try tauto; [|destruct n'; exact He]); [discriminate|].
    destruct n' as [|n']; [lia|]. cbn [countRest] in *. eapply IH; [exact Hm|lia| |exact He]. apply (tm_dir _ _ _ Hm), Hh.
  Qed.
  Lemma r_count n : forall n' h h' c z, (n <= n')%nat -> hh h h' -> countLoop cmp op m1 m2 n h c = Some z -> countLoop cmp op g g n' h' c = Some z.
  Proof.
    assert (E : forall n n' x x' y y' c z, (n <= n')%nat -> pp phi1 x x' -> pp phi2 y y' ->
      match op with
      | LIntersection => Some c
      | LUnion => match countRest n m1 x c with Some c => countRest n m2 y c | None => None end
      | LDifference => countRest n m1 x c
      end = Some z ->
      match op with
      | LIntersection => Some c
      | LUnion => match countRest n' g x' c with Some c => countRest n' g y' c | None => None end
      | LDifference => countRest n' g x' c
      end = Some z).
    { intros k k' x x' y y' c z Hk Hx Hy. destruct op; [auto| |].
      - destruct (countRest k m1 x c) as [c1|] eqn:E1; [|discriminate]. rewrite (r_rest phi1 m1 k k' x x' c c1 H1 Hk Hx E1). apply (r_rest phi2 m2 k k' y y' c1 z H2 Hk Hy).
      - apply (r_rest phi1 m1 k k' x x' c z H1 Hk Hx). }
    induction n as [|n IH]; intros n' [x y] [x' y'] c z Hn (Hx & Hy) He; cbn [head1 head2] in Hx, Hy.
    - destruct x as [a1|], x' as [b1|]; try (cbn in Hx; tauto); destruct y as [a2|], y' as [b2|]; try (cbn in Hy; tauto); [discriminate|..];
        destruct n'; cbn [countLoop head1 head2] in *; revert He; apply E; auto.
    - destruct n' as [|n']; [lia|].
      destruct x as [a1|], x' as [b1|]; try (cbn in Hx; tauto); destruct y as [a2|], y' as [b2|]; try (cbn in Hy; tauto);
        cbn [countLoop head1 head2] in *; [|revert He; apply E; auto..].
      cbn in Hx, Hy. rewrite (mv_key _ _ _ (tm_base _ _ _ H1) a1 b1 Hx), (mv_key _ _ _ (tm_base _ _ _ H2) a2 b2 Hy) in He.
      pose proof (r_emit a1 a2 b1 b2 (cmp (Key (base g) b1) (Key (base g) b2)) Hx Hy) as (R1 & R2).
      destruct (emit op m1 m2 a1 a2 _) as (h, out). destruct (emit op g g b1 b2 _) as (h', out'). cbn [fst snd] in *.
      eapply IH; [lia|exact R1|]. destruct out as [([], ?)|], out' as [([], ?)|]; cbn in R2; try tauto; exact He.
  Qed.
  Lemma r_slice phi m a b : tmoved phi m g -> nth_error phi a = Some b -> sliceAt m a = sliceAt g b.
  Proof. intros [Hm _] H. unfold sliceAt. rewrite (mv_key _ _ _ Hm a b H), (mv_value _ _ _ Hm a b H). reflexivity. Qed.
  Definition same_next (x y : option (heads * (K * V))) : Prop :=
    match x, y with None, None => True | Some (h, e), Some (h', e') => hh h h' /\ e = e' | _, _ => False end.
  Lemma r_next n : forall n' h h' x, (n <= n')%nat -> hh h h' -> nextSlice cmp op m1 m2 n h = Some x ->
    exists y, nextSlice cmp op g g n' h' = Some y /\ same_next x y.
  Proof.
    assert (E : forall x x' y y' z, pp phi1 x x' -> pp phi2 y y' ->
      match op, x, y with
      | LUnion, Some a, _ | LDifference, Some a, _ => Some (Some (Heads (Direct m1 a true) y, sliceAt m1 a))
      | LUnion, None, Some a => Some (Some (Heads x (Direct m2 a true), sliceAt m2 a))
      | _, _, _ => Some None
      end = Some z -> exists w,
      match op, x', y' with
      | LUnion, Some a, _ | LDifference, Some a, _ => Some (Some (Heads (Direct g a true) y', sliceAt g a))
      | LUnion, None, Some a => Some (Some (Heads x' (Direct g a true), sliceAt g a))
      | _, _, _ => Some None
      end = Some w /\ same_next z w).
    { intros x x' y y' z Hx Hy Hz. destruct op; destruct x as [a1|], x' as [b1|]; try (cbn in Hx; tauto); destruct y as [a2|], y' as [b2|]; try (cbn in Hy; tauto);
        injection Hz as <-; (eexists; split; [reflexivity|]); cbn [same_next]; auto; (split; [split; cbn [head1 head2]; auto|]);
        try apply (tm_dir _ _ _ H1), Hx; try apply (tm_dir _ _ _ H2), Hy; try exact (r_slice phi1 m1 _ _ H1 Hx); exact (r_slice phi2 m2 _ _ H2 Hy). }
    induction n as [|n IH]; intros n' [x y] [x' y'] z Hn (Hx & Hy) He; cbn [head1 head2] in Hx, Hy.
    - destruct x as [a1|], x' as [b1|]; try (cbn in Hx; tauto); destruct y as [a2|], y' as [b2|]; try (cbn in Hy; tauto); [discriminate|..];
        destruct n'; cbn [nextSlice head1 head2] in *; exact (E _ _ _ _ _ Hx Hy He).
    - destruct n' as [|n']; [lia|].
      destruct x as [a1|], x' as [b1|]; try (cbn in Hx; tauto); destruct y as [a2|], y' as [b2|]; try (cbn in Hy; tauto);
        cbn [nextSlice head1 head2] in *; [|exact (E _ _ _ _ _ Hx Hy He)..].
      cbn in Hx, Hy. rewrite (mv_key _ _ _ (tm_base _ _ _ H1) a1 b1 Hx), (mv_key _ _ _ (tm_base _ _ _ H2) a2 b2 Hy) in He.
      pose proof (r_emit a1 a2 b1 b2 (cmp (Key (base g) b1) (Key (base g) b2)) Hx Hy) as (R1 & R2).
      destruct (emit op m1 m2 a1 a2 _) as (h, out). destruct (emit op g g b1 b2 _) as (h', out'). cbn [fst snd] in *.
      destruct out as [([], ?)|], out' as [([], ?)|]; cbn in R2; try tauto.
      + injection He as <-. eexists. split; [reflexivity|]. cbn [same_next]. split; [exact R1|]. exact (r_slice phi2 m2 _ _ H2 R2).
      + injection He as <-. eexists. split; [reflexivity|]. cbn [same_next]. split; [exact R1|]. exact (r_slice phi1 m1 _ _ H1 R2).
      + eapply IH; [lia|exact R1|exact He].
  Qed.
  Lemma next_le phi m : tmoved phi m g -> (next (base m) <= next (base g))%nat.
  Proof.
    intros [Hm _]. rewrite <- (mv_len _ _ _ Hm), <- (seq_length (next (base g)) 0).
    apply NoDup_incl_length; [exact (mv_nd _ _ _ Hm)|]. intros b Hb. apply in_seq. pose proof (mv_lt _ _ _ Hm b Hb). lia.
  Qed.
  Lemma fuel_le : (fuel2 m1 m2 <= fuel2 g g)%nat.
  Proof. unfold fuel2. pose proof (next_le _ _ H1). pose proof (next_le _ _ H2). lia. Qed.
  End Read.

  Lemma b_next phi h h' : hh h h' -> simB phi (getNext cmp op (fun _ => (m1, m2)) h) (getNext cmp op (fun m => (m, m)) h').
  Proof.
    intros Hh m g Hm (B1 & B2 & _). unfold getNext. destruct (nextSlice cmp op m1 m2 (fuel2 m1 m2) h) as [z|] eqn:E; [|exact I].
    destruct (r_next g B1 B2 _ (fuel2 g g) h h' z (fuel_le g B1 B2) Hh E) as (w & -> & Hw). destruct z as [(h1, e)|], w as [(h2, e')|]; cbn in Hw; try tauto.
    - destruct Hw as (X1 & <-). exists phi, (h2, e), g. split; [reflexivity|]. split; [|auto using tkept_refl]. split; [exact X1|]. split; reflexivity.
    - exists phi, g. auto using tkept_refl.
  Qed.
  Lemma t_chain phi r r' p q p' q' : pp phi (Some r) (Some r') -> pp phi p q -> pp phi p' q' -> simT (K := K) (V := V) phi (chain r p p') (chain r' q q').
  Proof. intros. unfold chain. tmv. Qed.

  Ltac bstep lem := eapply b_bind; [apply b_sim; lem|intros ? ? ? ? ?; lead; clean].
  Lemma b_build r r' n : forall phi size p q p' q' h h', pp phi (Some r) (Some r') -> pp phi p q -> pp phi p' q' -> hh h h' ->
    simB phi (build cmp zero zeroV op (fun _ => (m1, m2)) r n size p p' h) (build cmp zero zeroV op (fun m => (m, m)) r' n size q q' h').
  Proof.
    induction n as [|n IH]; intros phi size p q p' q' h h' Hr H H' Hh; cbn [build].
    - destruct (size =? 0); [|apply b_sim, t_forever]. apply b_sim, t_pure. split; [exact I|]. split; [exact H'|exact Hh].
    - destruct (size =? 0); [apply b_sim, t_pure; split; [exact I|]; split; [exact H'|exact Hh]|]. cbv zeta.
      eapply b_bind; [apply b_sim, t_alloc, H|]. intros ph1 a b Hm1 Hab. lead. clean.
      eapply b_bind; [apply IH; eassumption|]. intros ph2 [l (pv, h1)] [l' (pv', h1')] Hm2 (X1 & X2 & X3). cbn [fst snd] in *. lead. change (pp ph2 l l') in X1. change (pp ph2 pv pv') in X2.
      eapply b_bind; [apply b_sim, t_lift, s_setKid; eassumption|]. intros ph3 [] [] Hm3 _. lead.
      eapply b_bind; [apply b_next; exact X3|]. intros ph4 (h2, (k, v)) (h2', (k', v')) Hm4 (Y1 & Y2 & Y3). cbn [fst snd] in *. lead. change (k = k') in Y2. change (v = v') in Y3. subst k' v'.
      eapply b_bind; [apply b_sim, t_lift, s_setKey; eassumption|]. intros ph5 [] [] Hm5 _. lead.
      eapply b_bind; [apply b_sim, t_lift, s_setValue; eassumption|]. intros ph6 [] [] Hm6 _. lead.
      eapply b_bind; [apply b_sim, t_chain; eassumption|]. intros ph7 [] [] Hm7 _. lead.
      eapply b_bind; [apply IH; eassumption|]. intros ph8 [rr (pv2, h3)] [rr' (pv2', h3')] Hm8 (Z1 & Z2 & Z3). cbn [fst snd] in *. lead. change (pp ph8 rr rr') in Z1. change (pp ph8 pv2 pv2') in Z2.
      eapply b_bind; [apply b_sim, t_lift, s_setKid; eassumption|]. intros ph9 [] [] Hm9 _. lead.
      eapply b_bind; [apply b_sim, t_lift, s_sumSize; eassumption|]. intros ph10 [] [] Hm10 _. lead.
      eapply b_bind; [apply b_sim, t_lift, s_updateBalance; eassumption|]. intros ph11 [] [] Hm11 _. lead.
      apply b_sim, t_pure. split; [assumption|]. split; [assumption|exact Z3].
  Qed.
  Lemma b_buildFrom phi r r' count h h' : pp phi (Some r) (Some r') -> hh h h' ->
    simB phi (buildFrom cmp zero zeroV op (fun _ => (m1, m2)) r count h) (buildFrom cmp zero zeroV op (fun m => (m, m)) r' count h').
  Proof.
    intros Hr Hh. unfold buildFrom. eapply b_bind; [apply b_sim, t_Clear, Hr|]. intros ph1 [] [] Hm1 _. lead.
    destruct (count =? 0); [apply b_sim, t_pure; reflexivity|].
    eapply b_bind; [apply b_build; [exact Hr|exact Hr|exact I|exact Hh]|]. intros ph2 [l (pv, h1)] [l' (pv', h1')] Hm2 (X1 & X2 & X3). cbn [fst snd] in *. lead. change (pp ph2 l l') in X1. change (pp ph2 pv pv') in X2.
    eapply b_bind; [apply b_sim, t_lift, s_setKid; eassumption|]. intros ph3 [] [] Hm3 _. lead.
    apply b_sim, t_setDir; assumption.
  Qed.
  Lemma b_setOperation r1 r2 : nth_error phi1 0 = Some r1 -> nth_error phi2 0 = Some r2 ->
    simB [] (setOperation cmp zero zeroV op (fun _ => (m1, m2)) 0 0) (setOperation cmp zero zeroV op (fun m => (m, m)) r1 r2).
  Proof.
    intros A1 A2. unfold setOperation. eapply b_bind; [apply b_sim; unfold newList; apply t_alloc; exact I|]. intros ph p q Hm Hpq m g Hmv Hb.
    change (pp ph p q) in Hpq. pose proof Hb as (B1 & B2 & _).
    set (h := Heads (Direct m1 0%nat false) (Direct m2 0%nat false)). set (h' := Heads (Direct g r1 false) (Direct g r2 false)).
    assert (Hh : hh h h') by (split; [apply (tm_dir _ _ _ B1), A1|apply (tm_dir _ _ _ B2), A2]).
    destruct (countLoop cmp op m1 m2 (fuel2 m1 m2) h 0) as [count|] eqn:E; [|exact I]. rewrite (r_count g B1 B2 _ (fuel2 g g) h h' 0 count (fuel_le g B1 B2) Hh E).
    destruct p as [a|], q as [b|]; try (cbn in Hpq; tauto).
    refine (b_bind ph _ _ _ _ (b_buildFrom ph a b count h h' Hpq Hh) _ m g Hmv Hb). intros ph2 [] [] Hm2 _. apply b_sim, t_pure. exact (pp_mono _ _ _ _ Hm2 Hpq).
  Qed.
End Sets.

(** ** All lists *)
Lemma nth_same {X Y} (l : list X) (l' : list Y) i : length l = length l' -> nth_error l i = None -> nth_error l' i = None.
Proof. intros H. rewrite !nth_error_None. lia. Qed.
Lemma nth_has {X Y} (l : list X) (l' : list Y) i x : length l = length l' -> nth_error l i = Some x -> exists y, nth_error l' i = Some y.
Proof.
  intros H Hx. destruct (nth_error l' i) as [y|] eqn:E; [eauto|]. apply nth_error_None in E. assert (i < length l)%nat by (apply nth_error_Some; congruence). lia.
Qed.
Lemma nth_snoc {X} (l : list X) x i y : nth_error (l ++ [x]) i = Some y -> nth_error l i = Some y \/ i = length l /\ y = x.
Proof.
  intros H. destruct (Nat.lt_ge_cases i (length l)) as [Hi|Hi]; [rewrite nth_error_app1 in H by exact Hi; auto|].
  rewrite nth_error_app2 in H by exact Hi. right. destruct (i - length l)%nat as [|n] eqn:E; cbn in H; [split; [lia|congruence]|destruct n; discriminate].
Qed.

Section Pool.
  Context {K V : Type} (cmp : K -> K -> Z) (zero : K) (zeroV : V).
  Notation tmem := (tmem K V).
  Notation lapart := (lapart cmp zero zeroV).
  Notation lpstep := (lpstep cmp zero zeroV).
  Notation tblank := (tblank zero zeroV).

  (** list [i] of [ms] is in [g] at [phis i] *)
  Record prel (phis : list (list nat)) (ms : list tmem) (g : tmem) (rs : list nat) : Prop := {
    pr_ms : length phis = length ms;
    pr_rs : length rs = length ms;
    pr_at : forall i phi m r, nth_error phis i = Some phi -> nth_error ms i = Some m -> nth_error rs i = Some r -> tmoved phi m g /\ nth_error phi 0 = Some r;
    pr_apart : forall i j phi phi', i <> j -> nth_error phis i = Some phi -> nth_error phis j = Some phi' -> disjoint phi phi' }.

  Lemma blank_in g : tmoved [] tblank g.
  Proof. constructor; [constructor|]; cbn; auto; try constructor; try (intros []; discriminate); intros; try contradiction; destruct a; discriminate. Qed.

  Lemma place_new phis ms g rs phi m g' r : prel phis ms g rs -> tmoved phi m g' -> nth_error phi 0 = Some r -> tkept [] g phi g' ->
    prel (phis ++ [phi]) (ms ++ [m]) g' (rs ++ [r]).
  Proof.
    intros [L1 L2 L3 L4] Hm Hr Hk.
    assert (Hold : forall i phi0 m0, nth_error phis i = Some phi0 -> nth_error ms i = Some m0 -> tmoved phi0 m0 g' /\ disjoint phi0 phi).
    { intros i phi0 m0 Hi Hj. destruct (nth_has ms rs i m0 (eq_sym L2) Hj) as (r0 & Hr0). destruct (L3 i phi0 m0 r0 Hi Hj Hr0) as (X & _).
      apply (moved_kept phi0 m0 [] g phi g' X); [intros b _ []|exact Hk]. }
    constructor.
    - rewrite !app_length. cbn. lia.
    - rewrite !app_length. cbn. lia.
    - intros i phi0 m0 r0 H1 H2 H3.
      apply nth_snoc in H1 as [H1|(Ei & ->)].
      + assert (i < length phis)%nat by (apply nth_error_Some; congruence). rewrite nth_error_app1 in H2, H3 by lia.
        split; [apply (Hold i phi0 m0 H1 H2)|apply (L3 i phi0 m0 r0 H1 H2 H3)].
      + subst i. rewrite nth_error_app2 in H2, H3 by lia. rewrite L1, Nat.sub_diag in H2. rewrite L1, <- L2, Nat.sub_diag in H3. cbn in H2, H3.
        injection H2 as <-. injection H3 as <-. auto.
    - intros i j phi0 phi0' Hij H1 H2. apply nth_snoc in H1 as [H1|(Ei & ->)]; apply nth_snoc in H2 as [H2|(Ej & ->)].
      + apply (L4 i j); assumption.
      + destruct (nth_has phis ms i phi0 L1 H1) as (m0 & Hm0). apply (Hold i phi0 m0 H1 Hm0).
      + destruct (nth_has phis ms j phi0' L1 H2) as (m0 & Hm0). intros b Hb Hc. apply (proj2 (Hold j phi0' m0 H2 Hm0) b Hc Hb).
      + congruence.
  Qed.
  Lemma place_none phis ms g rs phi g' : prel phis ms g rs -> tkept [] g phi g' -> prel phis ms g' rs.
  Proof.
    intros [L1 L2 L3 L4] Hk. constructor; auto. intros i phi0 m0 r0 H1 H2 H3. destruct (L3 i phi0 m0 r0 H1 H2 H3) as (X & Y). split; [|exact Y].
    apply (moved_kept phi0 m0 [] g phi g' X); [intros b _ []|exact Hk].
  Qed.
  Lemma place_at phis ms g rs i phi m m' phi' g' : prel phis ms g rs -> nth_error phis i = Some phi -> nth_error ms i = Some m -> tmoved phi' m' g' ->
    tkept phi g phi' g' -> prel (put_at i phi' phis) (put_at i m' ms) g' rs.
  Proof.
    intros [L1 L2 L3 L4] Hi Hmi Hm Hk.
    assert (Hold : forall j phi0 m0, i <> j -> nth_error phis j = Some phi0 -> nth_error ms j = Some m0 -> tmoved phi0 m0 g' /\ disjoint phi0 phi').
    { intros j phi0 m0 Hij Hj1 Hj2. destruct (nth_has ms rs j m0 (eq_sym L2) Hj2) as (r0 & Hr0). destruct (L3 j phi0 m0 r0 Hj1 Hj2 Hr0) as (X & _).
      apply (moved_kept phi0 m0 phi g phi' g' X); [|exact Hk]. apply (L4 j i); auto. }
    constructor.
    - rewrite !put_at_len. exact L1.
    - rewrite put_at_len. exact L2.
    - intros j phi0 m0 r0 H1 H2 H3. destruct (Nat.eq_dec i j) as [<-|Hij].
      + rewrite (put_at_eq i phi' phi phis Hi) in H1. rewrite (put_at_eq i m' m ms Hmi) in H2. injection H1 as <-. injection H2 as <-. split; [exact Hm|].
        destruct (L3 i phi m r0 Hi Hmi H3) as (_ & Y). destruct Hk as [(ext & -> & _) _ _]. destruct phi; [discriminate|exact Y].
      + rewrite put_at_ne in H1 by exact Hij. rewrite put_at_ne in H2 by exact Hij. split; [apply (Hold j phi0 m0 Hij H1 H2)|apply (L3 j phi0 m0 r0 H1 H2 H3)].
    - intros j k phi0 phi0' Hjk H1 H2. destruct (Nat.eq_dec i j) as [<-|Hij]; destruct (Nat.eq_dec i k) as [<-|Hik]; [congruence|..].
      + rewrite (put_at_eq i phi' phi phis Hi) in H1. rewrite put_at_ne in H2 by exact Hik. injection H1 as <-.
        destruct (nth_has phis ms k phi0' L1 H2) as (m0 & Hm0). intros b Hb Hc. apply (proj2 (Hold k phi0' m0 Hik H2 Hm0) b Hc Hb).
      + rewrite (put_at_eq i phi' phi phis Hi) in H2. rewrite put_at_ne in H1 by exact Hij. injection H2 as <-.
        destruct (nth_has phis ms j phi0 L1 H1) as (m0 & Hm0). apply (Hold j phi0 m0 Hij H1 Hm0).
      + rewrite put_at_ne in H1 by exact Hij. rewrite put_at_ne in H2 by exact Hik. apply (L4 j k); assumption.
  Qed.

  Lemma new_in g : exists g', newList zero zeroV g = Done (Some (next (base g))) g' /\ tmoved [next (base g)] (tnew zero zeroV) g' /\ tkept [] g [next (base g)] g'.
  Proof.
    eexists. split; [reflexivity|]. split.
    - constructor; [constructor|]; cbn [base next length tnew Parent Children Size Balance Key Value Direct].
      + reflexivity.
      + constructor; [intros []|constructor].
      + intros b [<-|[]]. lia.
      + intros [|a] b H; [injection H as <-|destruct a; discriminate]. unfold upd. rewrite Nat.eqb_refl. exact I.
      + intros [|a] b d H; [injection H as <-|destruct a; discriminate]. unfold upd. rewrite Nat.eqb_refl. exact I.
      + intros [|a] b H; [injection H as <-|destruct a; discriminate]. unfold upd. rewrite Nat.eqb_refl. reflexivity.
      + intros [|a] b H; [injection H as <-|destruct a; discriminate]. unfold upd. rewrite Nat.eqb_refl. reflexivity.
      + intros [|a] b H; [injection H as <-|destruct a; discriminate]. unfold upd. rewrite Nat.eqb_refl. reflexivity.
      + intros [|a] b H; [injection H as <-|destruct a; discriminate]. unfold upd. rewrite Nat.eqb_refl. reflexivity.
      + intros [|a] b d H; [injection H as <-|destruct a; discriminate]. unfold upd. rewrite Nat.eqb_refl. exact I.
    - constructor; cbn [base next].
      + exists [next (base g)]. split; [reflexivity|]. intros b [<-|[]]. lia.
      + lia.
      + intros b _ Hb. unfold same_tnode, same_node. cbn [base Parent Children Size Balance Key Value Direct]. unfold upd.
        destruct (Nat.eqb_spec b (next (base g))) as [Eb|Eb]; [lia|]. auto 10.
  Qed.
  Lemma set_root op src r1 r2 p m' : setOperation cmp zero zeroV op src r1 r2 tblank = Done p m' -> p = Some 0%nat.
  Proof.
    unfold setOperation, tbind at 1. destruct (newList zero zeroV tblank) as [q m| |] eqn:E; try discriminate. cbn in E. injection E as <- _.
    destruct (src m) as (m1, m2). destruct (countLoop _ _ _ _ _ _ _) as [count|]; [|discriminate]. unfold tbind. destruct (buildFrom _ _ _ _ _ _ _ _ m); try discriminate.
    intros H. injection H as <- _. reflexivity.
  Qed.

  (** what was there stays as it was, but for the list called *)
  Definition rest_kept (o : lp_op K V) (phis phis' : list (list nat)) (g g' : tmem) : Prop :=
    forall i phi, nth_error phis i = Some phi -> (forall c, o <> LOn i c) -> nth_error phis' i = Some phi /\ forall b, In b phi -> same_tnode g g' b.

  Lemma pool_step phis ms g rs o ms' x : prel phis ms g rs -> lapart ms o = Some (ms', x) ->
    exists phis' g' rs', lpstep (g, rs) o = Some ((g', rs'), x) /\ prel phis' ms' g' rs' /\ rest_kept o phis phis' g g'.
  Proof.
    intros HP He. pose proof HP as [L1 L2 L3 L4].
    assert (Hlt : forall i phi b, nth_error phis i = Some phi -> In b phi -> (b < next (base g))%nat).
    { intros i phi b Hi Hb. destruct (nth_has phis ms i phi L1 Hi) as (m & Hm). destruct (nth_has ms rs i m (eq_sym L2) Hm) as (r & Hr).
      destruct (L3 i phi m r Hi Hm Hr) as (X & _). apply (mv_lt _ _ _ (tm_base _ _ _ X)), Hb. }
    assert (Hnew : forall phi g', tkept [] g phi g' -> rest_kept o phis (phis ++ [phi]) g g').
    { intros phi g' Hk i phi0 Hi _. split; [rewrite nth_error_app1; [exact Hi|apply nth_error_Some; congruence]|].
      intros b Hb. apply (tk_same _ _ _ _ Hk); [intros []|eapply Hlt; eassumption]. }
    destruct o as [|i o|op i j]; cbn [TreelistPoolModel.lapart TreelistPoolModel.lpstep] in *.
    - injection He as <- <-. destruct (new_in g) as (g' & E & Hm & Hk). rewrite E.
      exists (phis ++ [[next (base g)]]), g', (rs ++ [next (base g)]). split; [reflexivity|]. split; [apply (place_new phis ms g rs); auto|apply Hnew, Hk].
    - destruct (nth_error ms i) as [m|] eqn:Ei.
      + destruct (thstep cmp m o) as [(m1, y)|] eqn:Es; [|discriminate]. injection He as <- <-.
        destruct (nth_has ms rs i m (eq_sym L2) Ei) as (r & Er). destruct (nth_has ms phis i m (eq_sym L1) Ei) as (phi & Ep). rewrite Er.
        destruct (L3 i phi m r Ep Ei Er) as (Hm & Hr). destruct (step_moved cmp phi m g r o m1 y Hr Hm Es) as (phi' & g' & E & Hm' & Hk). rewrite E.
        exists (put_at i phi' phis), g', rs. split; [reflexivity|]. split; [apply (place_at phis ms g rs i phi m); assumption|].
        intros j phi0 Hj Hne. assert (Hij : i <> j) by (intros ->; apply (Hne o); reflexivity). split; [rewrite put_at_ne by exact Hij; exact Hj|].
        intros b Hb. apply (tk_same _ _ _ _ Hk); [|eapply Hlt; eassumption]. intros Hc. apply (L4 i j phi phi0 Hij Ep Hj b Hc Hb).
      + injection He as <- <-. rewrite (nth_same ms rs i (eq_sym L2) Ei). exists phis, g, rs. split; [reflexivity|]. split; [exact HP|].
        intros j phi0 Hj _. auto using tsame_refl.
    - destruct (nth_error ms i) as [m1|] eqn:Ei.
      2: { injection He as <- <-. rewrite (nth_same ms rs i (eq_sym L2) Ei). exists phis, g, rs. split; [reflexivity|]. split; [exact HP|]. intros k phi0 Hk _. auto using tsame_refl. }
      destruct (nth_has ms rs i m1 (eq_sym L2) Ei) as (r1 & Er1). destruct (nth_has ms phis i m1 (eq_sym L1) Ei) as (phi1 & Ep1). rewrite Er1.
      destruct (nth_error ms j) as [m2|] eqn:Ej.
      2: { injection He as <- <-. rewrite (nth_same ms rs j (eq_sym L2) Ej). exists phis, g, rs. split; [reflexivity|]. split; [exact HP|]. intros k phi0 Hk _. auto using tsame_refl. }
      destruct (nth_has ms rs j m2 (eq_sym L2) Ej) as (r2 & Er2). destruct (nth_has ms phis j m2 (eq_sym L1) Ej) as (phi2 & Ep2). rewrite Er2.
      destruct (L3 i phi1 m1 r1 Ep1 Ei Er1) as (Hm1 & Hr1). destruct (L3 j phi2 m2 r2 Ep2 Ej Er2) as (Hm2 & Hr2).
      pose proof (b_setOperation cmp zero zeroV op phi1 phi2 m1 m2 r1 r2 Hr1 Hr2 tblank g (blank_in g)) as B.
      assert (HB : both phi1 phi2 m1 m2 [] g) by (split; [exact Hm1|split; [exact Hm2|split; intros b _ []]]).
      specialize (B HB). destruct (setOperation cmp zero zeroV op (fun _ => (m1, m2)) 0 0 tblank) as [p m'|m'|] eqn:Es; [| |discriminate].
      + injection He as <- <-. destruct B as (phi' & q & g' & E & Hp & Hm & Hk). rewrite E. rewrite (set_root _ _ _ _ _ _ Es) in Hp.
        destruct q as [r|]; [|cbn in Hp; tauto]. exists (phis ++ [phi']), g', (rs ++ [r]). split; [reflexivity|]. split; [apply (place_new phis ms g rs); auto|apply Hnew, Hk].
      + injection He as <- <-. destruct B as (phi' & g' & E & Hm & Hk). rewrite E. exists phis, g', rs. split; [reflexivity|]. split; [apply (place_none phis ms g rs phi'); assumption|].
        intros k phi0 Hi _. split; [exact Hi|]. intros b Hb. apply (tk_same _ _ _ _ Hk); [intros []|eapply Hlt; eassumption].
  Qed.
  Lemma prel_start : prel [] [] tblank [].
  Proof. constructor; auto; intros []; discriminate. Qed.

  Lemma pool_run ops : forall phis ms g rs l, prel phis ms g rs -> run lapart ms ops = Some l -> run lpstep (g, rs) ops = Some l.
  Proof.
    induction ops as [|o ops IH]; intros phis ms g rs l HP H; [exact H|]. cbn [run] in *. destruct (lapart ms o) as [(ms', x)|] eqn:E; [|discriminate].
    destruct (pool_step phis ms g rs o ms' x HP E) as (phis' & g' & rs' & -> & HP' & _). destruct (run lapart ms' ops) as [l'|] eqn:E'; [|discriminate].
    rewrite (IH phis' ms' g' rs' l' HP' E'). exact H.
  Qed.
  Lemma pool_reach ops : forall phis ms g rs ms', prel phis ms g rs -> reach lapart ms ops = Some ms' ->
    exists phis' g' rs', reach lpstep (g, rs) ops = Some (g', rs') /\ prel phis' ms' g' rs'.
  Proof.
    induction ops as [|o ops IH]; intros phis ms g rs ms' HP H; [injection H as <-; exists phis, g, rs; split; [reflexivity|exact HP]|].
    cbn [reach] in *. destruct (lapart ms o) as [(ms1, x)|] eqn:E; [|discriminate].
    destruct (pool_step phis ms g rs o ms1 x HP E) as (phis' & g' & rs' & -> & HP' & _). exact (IH phis' ms1 g' rs' ms' HP' H).
  Qed.
End Pool.
