(** graph/astar: the search (C46), shortest paths (C47), multiple paths (C48), Clear (C57), all the
    shortest paths (C69). *)
From Verif Require Import Base Bind Machine HeapSpec HeapModel HeapProofs AstarSpec AstarModel AstarProofs AstarMore.
Local Open Scope Z_scope.

(** the neighbourhood in force after a call *)
Definition chosen (b : dirs) (o : as_op) : dirs := match o with ASetNeighbor b' => b' | _ => b end.
(** the answer of GetAttr *)
Definition seen_attr C W srt (g : graph) (p : pos) : option as_out := option_map snd (as_step C W srt g (AGetAttr (fst p) (snd p))).

Section Props.
  Context (Cost Weight : graph -> pos -> pos -> Z) (sortPaths : list (list pos) -> list (list pos)).
  Context (Hsort : forall ps, Permutation (sortPaths ps) ps).
  Notation step := (as_step Cost Weight sortPaths).
  Notation shows g p := (seen_attr Cost Weight sortPaths g p).

  (** a new grid of this size *)
  Definition newly (w h : Z) (g : graph) : Prop :=
    New w h = Some g \/ exists text, g = NewWithTiles text /\ step g AGetDimension = Some (g, ATarget (Some (w, h)) None).
  (** A grid on which no search has been made since it was built or, successfully, cleared. *)
  Inductive ready (w h : Z) : dirs -> graph -> Prop :=
  | ready_new g : newly w h g -> ready w h Four g
  | ready_clear g0 ops g g' : newly w h g0 -> reach step g0 ops = Some g -> step g AClear = Some (g', AUnit) ->
      ready w h (fold_left chosen ops Four) g'
  | ready_call b g o g' r : ready w h b g -> is_search o = false -> step g o = Some (g', r) -> ready w h (chosen b o) g'.
  (** Going on costs something: on every tile with an attribute in [legal] the new tile gets a higher cost than the one it was
      reached from, and the end, at least, no lower one. *)
  Definition grows (legal : Z -> Prop) : Prop :=
    (forall g n p, legal (attr (tiles g n)) -> cost (tiles g p) < Cost g n p) /\
    (forall g n p, attr (tiles g n) = END -> cost (tiles g p) <= Cost g n p).
  (** tiles a path may use: in the grid, and not blocked; start and end count as free *)
  Definition free (w h : Z) (g : graph) (s e p : pos) : Prop :=
    within w h p /\ (shows g p <> Some (ANum BLOCK) \/ p = s \/ p = e).

  (** all of them have legal attributes; start and end may have any *)
  Definition ground (legal : Z -> Prop) (w h : Z) (g : graph) (s e : pos) : Prop :=
    forall p, free w h g s e p -> p <> s -> p <> e -> exists a, shows g p = Some (ANum a) /\ legal a.

  Definition RI (w h : Z) (b : dirs) (g : graph) : Prop := dimX g = w /\ dimY g = h /\ neighbor g = b /\ idle g.
  Lemma ri_step w h b g o g' r : RI w h b g -> step g o = Some (g', r) -> RI w h (chosen b o) g'.
  Proof.
    intros (D1 & D2 & D3 & D4 & D5) E. destruct o; cbn [as_step] in E; cbn [chosen].
    - destruct (inside g (x, y)); injection E as <- _; repeat split; auto.
    - injection E as <- _; repeat split; auto.
    - injection E as <- _; repeat split; auto.
    - revert E. unfold search. destruct (start g) as [s|]; [|intros E; injection E as <- _; repeat split; auto].
      destruct (finish g) as [e|]; [|intros E; injection E as <- _; repeat split; auto].
      destruct (inside g (at_ s)); cbn [negb]; [|intros E; injection E as <- _; repeat split; auto].
      destruct (inside _ (at_ e)); cbn [negb]; [|intros E; injection E as <- _; repeat split; auto].
      destruct (put _ _ _ _) as [h1|] eqn:E1; [|discriminate]. destruct (loop _ _ _ _ _ _ _ _) as [[g1 b1]|] eqn:E2; [|discriminate].
      intros E. injection E as <- _. apply loop_frame in E2 as ([] & _). apply put_big in E1; auto. cbn in *.
      repeat split; auto; cbn; congruence.
    - revert E. unfold search. destruct (start g) as [s|]; [|intros E; injection E as <- _; repeat split; auto].
      destruct (finish g) as [e|]; [|intros E; injection E as <- _; repeat split; auto].
      destruct (inside g (at_ s)); cbn [negb]; [|intros E; injection E as <- _; repeat split; auto].
      destruct (inside _ (at_ e)); cbn [negb]; [|intros E; injection E as <- _; repeat split; auto].
      destruct (put _ _ _ _) as [h1|] eqn:E1; [|discriminate]. destruct (loop _ _ _ _ _ _ _ _) as [[g1 b1]|] eqn:E2; [|discriminate].
      intros E. injection E as <- _. apply loop_frame in E2 as ([] & _). apply put_big in E1; auto. cbn in *.
      repeat split; auto; cbn; congruence.
    - destruct (clearTiles g _) as [g1 ok] eqn:E1. injection E as <- _.
      apply clearTiles_ok in E1 as (A1 & A2 & A3 & A4 & A5 & A6 & A7 & _); [|apply nodup_cells]. unfold RI, idle. rewrite A1, A2, A5, A7. auto.
    - injection E as <- _; repeat split; auto.
    - injection E as <- _; repeat split; auto.
    - injection E as <- _; repeat split; auto.
    - injection E as <- _; repeat split; auto.
    - injection E as <- _; repeat split; auto.
    - injection E as <- _; repeat split; auto.
    - injection E as <- _; repeat split; auto.
    - destruct (setRows g _ _) as [g1 ok] eqn:E1. injection E as <- _. apply setRows_frame in E1 as (A1 & A2 & A3 & A4 & A5 & _). unfold RI, idle. rewrite A1, A2, A3, A5. auto.
    - injection E as <- _; repeat split; auto.
    - injection E as <- _; repeat split; auto.
    - injection E as <- _; repeat split; auto.
    - injection E as <- _; repeat split; auto.
  Qed.
  Lemma ri_new w h g : newly w h g -> RI w h Four g.
  Proof.
    intros [E|(text & -> & E)].
    - revert E. unfold New. destruct (_ || _); [discriminate|]. intros E. injection E as <-. repeat split; cbn; lia.
    - cbn [as_step] in E. injection E as E1 E2. repeat split; auto; cbn; lia.
  Qed.
  Lemma ri_reach w h ops : forall b g g', RI w h b g -> reach step g ops = Some g' -> RI w h (fold_left chosen ops b) g'.
  Proof.
    induction ops as [|o ops IH]; intros b g g' H E; cbn in *; [injection E as <-; auto|].
    destruct (as_step Cost Weight sortPaths g o) as [[g1 r]|] eqn:E1; [|discriminate]. eapply IH; [eapply ri_step; eauto|eauto].
  Qed.
  Lemma clear_clean g g' : step g AClear = Some (g', AUnit) -> clean g'.
  Proof.
    cbn [as_step]. destruct (clearTiles g _) as [g1 ok] eqn:E1. intros E. assert (ok = true /\ g1 = g') as (-> & ->).
    { destruct ok; [injection E; auto|discriminate]. }
    apply clearTiles_ok in E1 as (A1 & A2 & _ & _ & _ & _ & _ & _ & _ & A & _); [|apply nodup_cells].
    intros p Hp. apply A; auto. apply in_cells. rewrite <- A1, <- A2. auto.
  Qed.
  Lemma ready_ok w h b g : ready w h b g -> RI w h b g /\ clean g.
  Proof.
    induction 1 as [g E|g0 ops g g' E0 E1 E2|b g o g' r H (IH1 & IH2) Ho E].
    - split; [now apply ri_new|]. destruct E as [E|(text & -> & _)]; [|intros p _; repeat split; auto]. revert E. unfold New. destruct (_ || _); [discriminate|]. intros E. injection E as <-. intros p _. repeat split; auto.
    - split; [|eapply clear_clean; eauto]. change (fold_left chosen ops Four) with (chosen (fold_left chosen ops Four) AClear).
      eapply ri_step; eauto. eapply ri_reach; eauto. now apply ri_new.
    - split; [eapply ri_step; eauto|]. destruct o; try discriminate; cbn [as_step] in E.
      + destruct (inside g (x, y)); injection E as <- _; auto. intros p Hp. unfold wiped. cbn [tiles with_tiles].
        destruct (pos_dec p (x, y)) as [->|Hn]; [rewrite upd_same; cbn; apply IH2; auto|rewrite upd_other by auto; apply IH2; auto].
      + injection E as <- _; auto.
      + injection E as <- _; auto.
      + destruct (clearTiles g _) as [g1 ok] eqn:E1. injection E as <- _.
        apply clearTiles_ok in E1 as (A1 & A2 & _ & _ & _ & _ & _ & _ & A & _); [|apply nodup_cells].
        intros p Hp. rewrite A1, A2 in Hp. destruct (A p) as [X|X]; [now apply in_cells| |auto]. unfold wiped. rewrite X. apply IH2. auto.
      + injection E as <- _; auto.
      + injection E as <- _; auto.
      + injection E as <- _; auto.
      + injection E as <- _; auto.
      + injection E as <- _; auto.
      + injection E as <- _; auto.
      + injection E as <- _; auto.
      + destruct (setRows g _ _) as [g1 ok] eqn:E1. injection E as <- _. apply setRows_frame in E1 as (A1 & A2 & _ & _ & _ & A). intros p Hp. rewrite A1, A2 in Hp.
        destruct (IH2 p Hp) as (X1 & X2 & X3). destruct (A p) as (Y1 & Y2 & Y3). unfold wiped. rewrite Y1, Y2, Y3. auto.
      + injection E as <- _; auto.
      + injection E as <- _; auto.
      + injection E as <- _; auto.
      + injection E as <- _; auto.
  Qed.
  Lemma shows_attr g p : within (dimX g) (dimY g) p -> shows g p = Some (ANum (attr (tiles g p))).
  Proof. intros H. apply inside_within in H. destruct p as [x y]. unfold seen_attr. cbn [as_step fst snd option_map]. rewrite H. reflexivity. Qed.
  Lemma free_open w h b g s e p : RI w h b g -> open_tile g s e p <-> free w h g s e p.
  Proof.
    intros (<- & <- & _). unfold free, open_tile. split; intros (H1 & H2); (split; [auto|]);
      rewrite shows_attr in * by auto; (destruct H2 as [H2|H2]; [left|right; auto]); congruence.
  Qed.

  (** the search of a ready grid, with the extra invariant [Q] of AstarMore.search_ok *)
  Lemma ready_search legal multi w h b g s e (Q : (pos -> tile) -> list pos -> list pos -> Prop) : grows legal -> ground legal w h g s e ->
    ready w h b g -> fair b -> step g AGetTarget = Some (g, ATarget (Some s) (Some e)) -> within w h s -> within w h e ->
    Q (marked g s e) [] [s] -> let A := fun q => attr (marked g s e q) in
    (s <> e -> forall ts ts' cl op p x op' op2, TI Cost Weight w h b A s e ts cl op p [] -> Permutation op (x :: op') ->
       (forall y, In y op -> weight (ts y) <= weight (ts x)) -> Q ts cl op -> TI Cost Weight w h b A s e ts' (x :: cl) op2 p [] ->
       (forall q, In q (cl ++ op) -> ts' q = ts q /\ In q (x :: cl ++ op2)) -> Q ts' (x :: cl) op2) ->
    exists g' r, search Cost Weight sortPaths multi g = Some (g', ABool r) /\
    (r = true <-> exists l, route b (free w h g s e) s l e) /\
    (r = true -> ((s = e /\ (multi = true -> pathlist g' = sortPaths [[e; e]])) \/
        exists g2, s <> e /\ dimX g2 = w /\ dimY g2 = h /\ neighbor g2 = b /\
          (exists cl op p, TI Cost Weight w h b A s e (tiles g2) cl op p [] /\ In e op /\
             (forall y, In y op -> weight (tiles g2 y) <= weight (tiles g2 e)) /\ Q (tiles g2) cl op) /\
          (multi = true -> exists ps, multiPath (S (area g2)) g2 e s [e] = Some ps /\ pathlist g' = sortPaths ps) /\
          (forall p, In p (pathlist g') -> multi = false -> steep Cost e -> moves p <= cost (tiles g2 e))) /\
      if multi then exists ps, pathlist g' = sortPaths ps /\ ps <> [] /\
         forall r, In r ps -> exists l, r = e :: l /\ route b (free w h g s e) e l s /\ NoDup l
      else exists p, pathlist g' = [p] /\ route b (free w h g s e) e p s /\ NoDup p).
  Proof.
    intros (Gr1 & Gr2) Hg Hr Hf Ht Ws We Q0 A HQ. destruct (ready_ok _ _ _ _ Hr) as (RI0 & Cl). pose proof RI0 as (D1 & D2 & D3 & D4).
    cbn [as_step] in Ht. injection Ht as Hs He. destruct (start g) as [sp|] eqn:Es; [|discriminate]. destruct (finish g) as [ep|] eqn:Ee; [|discriminate].
    cbn in Hs, He. injection Hs as <-. injection He as <-.
    subst w h b.
    assert (Up : at_ sp <> at_ ep -> forall g0 n p, (forall q, attr (tiles g0 q) = A0 g sp ep q) -> AstarProofs.free (dimX g) (dimY g) (A0 g sp ep) n ->
      n <> at_ sp -> n <> at_ ep -> cost (tiles g0 p) < Cost g0 n p).
    { intros _ g0 n p HA Fn N1 N2. apply Gr1. rewrite HA. apply A0_free in Fn. destruct (Hg n) as (a & A1 & A2); auto; [now apply (free_open _ _ _ _ _ _ _ RI0)|].
      rewrite shows_attr in A1 by apply Fn. unfold A0, marked, upd. rewrite !peqb_neq by auto. congruence. }
    assert (Up_end : at_ sp <> at_ ep -> forall g0 p, (forall q, attr (tiles g0 q) = A0 g sp ep q) -> cost (tiles g0 p) <= Cost g0 (at_ ep) p).
    { intros _ g0 p HA. apply Gr2. rewrite HA. unfold A0, marked, upd. rewrite peqb_refl. reflexivity. }
    destruct (search_ok Cost Weight sortPaths g sp ep Es Ee D4 Cl Ws We Up Up_end Q Q0 HQ Hf multi) as (g' & r & E & R1 & R2).
    assert (Rt : forall a l b', route (neighbor g) (open_tile g (at_ sp) (at_ ep)) a l b' <-> route (neighbor g) (free (dimX g) (dimY g) g (at_ sp) (at_ ep)) a l b').
    { intros a l b'. split; apply route_mono; intros p; apply (free_open _ _ _ _ _ _ _ RI0). }
    exists g', r. split; auto. split.
    - rewrite R1. split; intros (l & Hl); exists l; apply Rt; auto.
    - intros Hrt. destruct (R2 Hrt) as (X & Y). split; auto. destruct multi.
      + destruct Y as (ps & Y1 & Y2 & Y3). exists ps. split; auto. split; auto. intros r' Hr'. destruct (Y3 r' Hr') as (l & L1 & L2 & L3). exists l.
        split; auto. split; auto. apply Rt. auto.
      + destruct Y as (p & Y1 & Y2 & Y3). exists p. split; auto. split; auto. apply Rt. auto.
  Qed.
  (** Search on a fresh or cleared grid, whatever the weights are, with any cost that grows and any neighbourhood whose moves
      can be taken back ([fair]; the two built in are): it answers true exactly if the
      end can be reached over free tiles; the path it then leaves goes from the end to the start over free, pairwise
      neighbouring, distinct tiles. *)
  Theorem C46_search_decides legal w h b g s e : grows legal -> ground legal w h g s e -> ready w h b g -> fair b -> step g AGetTarget = Some (g, ATarget (Some s) (Some e)) ->
    within w h s -> within w h e ->
    exists g' r, step g ASearch = Some (g', ABool r) /\
      (r = true <-> exists l, route b (free w h g s e) s l e) /\
      (r = true -> exists p, step g' AGetPath = Some (g', APath p) /\ route b (free w h g s e) e p s /\ NoDup p /\
         step g' AGetSingleSteps = Some (g', ANum (moves p))).
  Proof.
    intros Gr Hg Hr Hf Ht Ws We. destruct (ready_search legal false w h b g s e (fun _ _ _ => True) Gr Hg Hr Hf Ht Ws We I ltac:(auto)) as (g' & r & E & R1 & R2).
    exists g', r. split; auto. split; auto. intros Hrt. destruct (R2 Hrt) as (_ & p & Hp & R3 & R4). exists p. cbn [as_step]. rewrite Hp. auto.
  Qed.

  (** Every path of SearchMulti is a simple path from the end to the start with the end put in front once more.  Missing:
      without that the claim would hold (see C48_end_twice_refuted). *)
  Theorem C48_multi_paths_partial legal w h b g s e : grows legal -> ground legal w h g s e -> ready w h b g -> fair b -> step g AGetTarget = Some (g, ATarget (Some s) (Some e)) ->
    within w h s -> within w h e ->
    exists g' r, step g ASearchMulti = Some (g', ABool r) /\
      (r = true <-> exists l, route b (free w h g s e) s l e) /\
      (r = true -> exists ps, step g' AGetMultiPath = Some (g', APaths ps) /\ ps <> [] /\
         forall p, In p ps -> exists l, p = e :: l /\ route b (free w h g s e) e l s /\ NoDup l /\
           step g' (AGetSteps p) = Some (g', ANum (moves l + 1))).
  Proof.
    intros Gr Hg Hr Hf Ht Ws We. destruct (ready_search legal true w h b g s e (fun _ _ _ => True) Gr Hg Hr Hf Ht Ws We I ltac:(auto)) as (g' & r & E & R1 & R2).
    exists g', r. split; auto. split; auto. intros Hrt. destruct (R2 Hrt) as (_ & ps & Hp & R3 & R4). exists (sortPaths ps).
    cbn [as_step]. rewrite Hp. split; auto. split.
    - intros X. pose proof (Hsort ps) as Y. rewrite X in Y. apply Permutation_nil in Y. auto.
    - intros p Hin. apply (Permutation_in _ (Hsort ps)) in Hin. destruct (R4 p Hin) as (l & -> & L1 & L2). exists l. split; auto. split; auto. split; auto.
      do 3 f_equal. unfold moves. cbn [length]. lia.
  Qed.

  (** ** Clear *)
  Definition unmarked (g : graph) : Prop := forall p, within (dimX g) (dimY g) p ->
    shows g p <> Some (ANum START) /\ shows g p <> Some (ANum END) /\ shows g p <> Some (ANum PATH).
  (** After a search between two different tiles of a grid without marks, Clear works and brings back every attribute, the
      grid being ready for the next search, and the target is as it was.  Missing: start = end, and a SetTarget between the
      search and Clear (C57_same_tile_refuted, C57_retarget_refuted). *)
  Theorem C57_clear_restores_partial w h g0 ops g s e (multi : bool) g1 r1 : newly w h g0 -> reach step g0 ops = Some g ->
    unmarked g -> step g AGetTarget = Some (g, ATarget (Some s) (Some e)) -> within w h s -> within w h e -> s <> e ->
    step g (if multi then ASearchMulti else ASearch) = Some (g1, r1) ->
    exists g2, step g1 AClear = Some (g2, AUnit) /\ (forall p, within w h p -> shows g2 p = shows g p) /\
      step g2 AGetTarget = Some (g2, ATarget (Some s) (Some e)) /\
      ready w h (fold_left chosen ops Four) g2.
  Proof.
    intros H0 HR Hm Ht Ws We Hse E. pose proof (ri_reach _ _ _ _ _ _ (ri_new _ _ _ H0) HR) as RI0. pose proof RI0 as (D1 & D2 & D3 & D4). subst w h.
    cbn [as_step] in Ht. injection Ht as Hs He. destruct (start g) as [sp|] eqn:Es; [|discriminate]. destruct (finish g) as [ep|] eqn:Ee; [|discriminate].
    cbn in Hs, He. injection Hs as <-. injection He as <-.
    assert (E' : search Cost Weight sortPaths multi g = Some (g1, r1)) by (destruct multi; exact E).
    destruct (search_unfold Cost Weight sortPaths multi g sp ep Es Ee D4 Ws We) as (h1 & _ & _ & X). rewrite X in E'. clear X.
    destruct (loop _ _ _ _ _ _ _ _) as [[g' b']|] eqn:E1; [|discriminate]. injection E' as <- <-. apply loop_frame in E1 as (Fr & _).
    rewrite (peqb_neq (at_ ep) (at_ sp)) in Fr by auto. destruct Fr as [F1 F2 F3 F4 F5 F6 _]. cbn [dimX dimY start finish neighbor tiles] in *.
    set (g1 := with_heap g' (clear (openHeap g'))) in *.
    assert (G1 : dimX g1 = dimX g /\ dimY g1 = dimY g) by (split; auto). destruct G1 as (G1 & G2).
    assert (Rs : forall p, within (dimX g) (dimY g) p -> restored g1 (attr (tiles g1 p)) = Some (attr (tiles g p))).
    { intros p Hp. unfold restored, g1. cbn [with_heap start finish tiles]. rewrite F3, F4, F6. cbn [option_map pattr]. unfold marked, upd.
      destruct (peqb p (at_ ep)) eqn:P1; [apply peqb_eq in P1 as ->; reflexivity|]. destruct (peqb p (at_ sp)) eqn:P2; [apply peqb_eq in P2 as ->; reflexivity|].
      destruct (Hm p Hp) as (M1 & M2 & M3). rewrite shows_attr in M1, M2, M3 by auto.
      destruct (Z.eqb_spec (attr (tiles g p)) PATH); [congruence|]. destruct (Z.eqb_spec (attr (tiles g p)) START); [congruence|].
      destruct (Z.eqb_spec (attr (tiles g p)) END); [congruence|]. reflexivity. }
    cbn [as_step]. destruct (clearTiles g1 (cells (dimX g1) (dimY g1))) as [g2 ok] eqn:E2.
    pose proof E2 as Hok. apply clearTiles_ok in Hok as (A1 & A2 & A3 & A4 & A5 & A6 & A7 & A8 & A9 & A10 & A11); [|apply nodup_cells].
    assert (ok = true) as ->. { apply A11. intros q Hq. apply in_cells in Hq. rewrite G1, G2 in Hq. rewrite Rs by auto. discriminate. }
    exists g2. split; [reflexivity|]. split; [|split].
    - intros p Hp. rewrite !shows_attr; [|auto|rewrite A1, A2, G1, G2; auto]. do 2 f_equal.
      destruct (A10 eq_refl p) as (_ & Y); [apply in_cells; rewrite G1, G2; auto|]. rewrite Rs in Y by auto. congruence.
    - rewrite A3, A4. unfold g1. cbn [with_heap start finish]. rewrite F3, F4. reflexivity.
    - replace (fold_left chosen ops Four) with (fold_left chosen (ops ++ [if multi then ASearchMulti else ASearch]) Four)
        by (rewrite fold_left_app; destruct multi; reflexivity). apply ready_clear with g0 g1; auto.
      + clear - HR E. revert g0 HR. induction ops as [|o ops IH]; intros g0 HR; cbn in *.
        * injection HR as ->. rewrite E. reflexivity.
        * destruct (as_step _ _ _ g0 o) as [[g1' r]|]; [|discriminate]. auto.
      + cbn [as_step]. rewrite E2. reflexivity.
  Qed.

  Lemma ready_reach w h b g : ready w h b g -> exists g0 ops, newly w h g0 /\ reach step g0 ops = Some g /\ fold_left chosen ops Four = b.
  Proof.
    assert (Sn : forall ops g0 g o g' r, reach step g0 ops = Some g -> step g o = Some (g', r) -> reach step g0 (ops ++ [o]) = Some g').
    { induction ops as [|o ops IH]; intros g0 g1 o' g' r HR E; cbn in *; [injection HR as ->; rewrite E; reflexivity|].
      destruct (as_step _ _ _ g0 o) as [[g1' r']|]; [|discriminate]. eauto. }
    induction 1 as [g E|g0 ops g g' E0 E1 E2|b g o g' r H IH Ho E].
    - exists g, []. auto.
    - exists g0, (ops ++ [AClear]). split; auto. split; [eauto|]. rewrite fold_left_app. reflexivity.
    - destruct IH as (g0 & ops & A1 & A2 & A3). exists g0, (ops ++ [o]). split; auto. split; [eauto|]. rewrite fold_left_app, A3. reflexivity.
  Qed.
  (** Searching, clearing and searching again gives the same answer.  Missing: as above. *)
  Theorem C57_search_again_partial legal w h b g s e g1 r1 : grows legal -> ground legal w h g s e -> ready w h b g -> fair b -> unmarked g ->
    step g AGetTarget = Some (g, ATarget (Some s) (Some e)) -> within w h s -> within w h e -> s <> e ->
    step g ASearch = Some (g1, r1) ->
    exists g2 g3, step g1 AClear = Some (g2, AUnit) /\ step g2 ASearch = Some (g3, r1).
  Proof.
    intros Gr Hg Hr Hf Hm Ht Ws We Hse E. destruct (ready_reach _ _ _ _ Hr) as (g0 & ops & A1 & A2 & A3).
    destruct (C57_clear_restores_partial w h g0 ops g s e false g1 r1 A1 A2 Hm Ht Ws We Hse E) as (g2 & B1 & B2 & B3 & B4). rewrite A3 in B4.
    destruct (C46_search_decides legal w h b g s e Gr Hg Hr Hf Ht Ws We) as (g1' & r & E1 & R1 & _). rewrite E in E1. injection E1 as <- ->.
    assert (Eq : forall p, free w h g s e p <-> free w h g2 s e p).
    { intros p. unfold free. split; intros (X & Y); (split; [auto|]); (rewrite B2 in * by auto); auto. }
    assert (Hg2 : ground legal w h g2 s e). { intros p Fp N1 N2. apply Eq in Fp. rewrite B2 by apply Fp. auto. }
    destruct (C46_search_decides legal w h b g2 s e Gr Hg2 B4 Hf B3 Ws We) as (g3 & r' & E3 & R3 & _). exists g2, g3. split; auto. rewrite E3. do 3 f_equal.
    assert (r = true <-> r' = true). { rewrite R1, R3. split; intros (l & Hl); exists l; eapply route_mono; try exact Hl; intros p; apply Eq. }
    destruct r, r'; intuition congruence.
  Qed.
  Lemma ready_calls w h ops : forall b g g', ready w h b g -> forallb (fun o => negb (is_search o)) ops = true -> reach step g ops = Some g' ->
    ready w h (fold_left chosen ops b) g'.
  Proof.
    induction ops as [|o ops IH]; intros b g g' H F E; cbn in *; [injection E as <-; auto|].
    apply andb_prop in F as (F1 & F2). destruct (as_step _ _ _ g o) as [[g1 r]|] eqn:E1; [|discriminate]. eapply IH; eauto.
    eapply ready_call; eauto. destruct (is_search o); cbn in F1; congruence.
  Qed.
End Props.

(** SimpleCost grows, whatever the attributes are *)
Lemma simple_grows : grows SimpleCost (fun _ => True).
Proof. split; intros; unfold SimpleCost; lia. Qed.
Lemma simple_ground W srt w h g s e : dimX g = w -> dimY g = h -> ground SimpleCost W srt (fun _ => True) w h g s e.
Proof. intros <- <- p (Hp & _) _ _. rewrite shows_attr by auto. eauto. Qed.
(** so, with the default cost, C46 needs no more than a fresh or cleared grid *)
Corollary C46_default_cost Weight sortPaths w h b g s e : ready SimpleCost Weight sortPaths w h b g -> fair b ->
  as_step SimpleCost Weight sortPaths g AGetTarget = Some (g, ATarget (Some s) (Some e)) -> within w h s -> within w h e ->
  exists g' r, as_step SimpleCost Weight sortPaths g ASearch = Some (g', ABool r) /\
    (r = true <-> exists l, route b (free SimpleCost Weight sortPaths w h g s e) s l e) /\
    (r = true -> exists p, as_step SimpleCost Weight sortPaths g' AGetPath = Some (g', APath p) /\
       route b (free SimpleCost Weight sortPaths w h g s e) e p s /\ NoDup p /\
       as_step SimpleCost Weight sortPaths g' AGetSingleSteps = Some (g', ANum (moves p))).
Proof.
  intros Hr. destruct (ready_ok _ _ _ _ _ _ _ Hr) as ((D1 & D2 & _) & _).
  apply (C46_search_decides _ _ _ _ _ _ _ _ _ _ simple_grows (simple_ground _ _ _ _ _ _ _ D1 D2) Hr).
Qed.
Lemma route_last e8 f a l b : route e8 f a l b -> In b l.
Proof. induction 1; cbn; auto. Qed.
(** On a fresh or cleared grid without blocked tiles in the rectangle between start and end, the default search takes a
    shortest path.  Missing: other grids, where it need not (C47_shortest_refuted).  (2^31: from there on abs, line 254, is
    no longer the absolute value.) *)
Theorem C47_shortest_partial sortPaths w h g s e : ready SimpleCost SimpleWeight sortPaths w h Four g ->
  as_step SimpleCost SimpleWeight sortPaths g AGetTarget = Some (g, ATarget (Some s) (Some e)) ->
  within w h s -> within w h e -> w <= 2 ^ 31 -> h <= 2 ^ 31 ->
  (forall p, between s e p -> free SimpleCost SimpleWeight sortPaths w h g s e p) ->
  exists g' p, as_step SimpleCost SimpleWeight sortPaths g ASearch = Some (g', ABool true) /\
    as_step SimpleCost SimpleWeight sortPaths g' AGetPath = Some (g', APath p) /\ route Four (free SimpleCost SimpleWeight sortPaths w h g s e) e p s /\
    moves p = manhattan s e /\ forall l, route Four (free SimpleCost SimpleWeight sortPaths w h g s e) s l e -> moves p <= moves l.
Proof.
  intros Hr Ht Ws We Hw Hh Ho.
  assert (Far : forall f a l b, route Four f a l b -> manhattan a b <= moves l).
  { intros f a l b. unfold moves. induction 1 as [a Ha|a c b l Ha Hadj Hrt IH]; [unfold manhattan; cbn; lia|].
    cbn [length]. unfold adjacent in Hadj. unfold manhattan in *. lia. }
  destruct (ready_ok _ _ _ _ _ _ _ Hr) as ((D1 & D2 & _) & _).
  assert (Op : forall p, between s e p -> attr (marked g s e p) <> BLOCK).
  { intros p Hp. apply Ho in Hp as (Wp & Hp). unfold marked, upd. destruct (peqb p e) eqn:P1; [discriminate|]. destruct (peqb p s) eqn:P2; [discriminate|].
    destruct Hp as [Hp|[-> | ->]]; [|rewrite peqb_refl in P2; discriminate|rewrite peqb_refl in P1; discriminate].
    rewrite shows_attr in Hp by (rewrite D1, D2; auto). congruence. }
  destruct (ready_search SimpleCost SimpleWeight sortPaths (fun _ => True) false w h Four g s e (fun ts cl _ => straight s e ts cl) simple_grows (simple_ground _ _ _ _ _ _ _ D1 D2) Hr I Ht Ws We)
    as (g' & r & E & R1 & R2).
  { intros c []. }
  { intros Hse ts ts' cl op p x op' op2. apply (straight_step w h); auto. }
  assert (Rt : exists l, route Four (free SimpleCost SimpleWeight sortPaths w h g s e) s l e).
  { assert (G : forall n a, between s e a -> (Z.to_nat (manhattan a e) < n)%nat -> exists l, route Four (free SimpleCost SimpleWeight sortPaths w h g s e) a l e).
    { induction n as [|n IH]; intros a Ha Hn; [lia|]. destruct (pos_dec a e) as [->|Hae]; [exists [e]; constructor; auto|].
      assert (Hc : exists c, adjacent Four a c /\ manhattan c e = manhattan a e - 1 /\ between s e c).
      { destruct a as [cx cy], s as [sx sy], e as [ex ey]. unfold manhattan, adjacent, between in *. cbn [fst snd] in *.
        destruct (Z.lt_trichotomy cx ex) as [X|[X|X]].
        - exists (cx + 1, cy). cbn [fst snd]. lia.
        - destruct (Z.lt_trichotomy cy ey) as [Y|[Y|Y]].
          + exists (cx, cy + 1). cbn [fst snd]. lia.
          + destruct Hae. congruence.
          + exists (cx, cy - 1). cbn [fst snd]. lia.
        - exists (cx - 1, cy). cbn [fst snd]. lia. }
      destruct Hc as (c & H1 & H2 & H3). destruct (IH c H3) as (l & Hl); [unfold manhattan in *; lia|]. exists (a :: l). eapply route_step; eauto. }
    apply (G (S (Z.to_nat (manhattan s e)))); [unfold between; lia|lia]. }
  apply R1 in Rt. destruct (R2 Rt) as (X & p & Hp & R3 & Nd). subst r. exists g', p. split; auto. split; [cbn [as_step]; rewrite Hp; auto|]. split; auto.
  assert (M : moves p = manhattan s e).
  { pose proof (Far _ _ _ _ R3) as L1. assert (manhattan e s = manhattan s e) by (unfold manhattan; lia).
    destruct X as [(-> & _)|(g2 & _ & _ & _ & _ & (cl & op & q & I & Hin & Hmax & X1) & _ & X2)].
    - assert (p = [e]) as ->.
      { inversion R3 as [|? c ? l _ _ Hl]; subst; auto. assert (In e l) by (eapply route_last; eauto). inversion Nd; subst; contradiction. } unfold moves, manhattan. cbn. lia.
    - specialize (X2 p). rewrite Hp in X2. specialize (X2 (or_introl eq_refl) eq_refl ltac:(intros g0 p0; unfold SimpleCost; lia)). destruct (in_split _ _ Hin) as (o1 & o2 & Eo).
      pose proof (straight_pop w h _ s e Ws We Hw Hh Op (tiles g2) cl op q e (o1 ++ o2) I ltac:(rewrite Eo; symmetry; apply Permutation_middle) Hmax X1 e (or_introl eq_refl)) as X3.
      assert (manhattan e e = 0) by (unfold manhattan; lia). lia. }
  split; auto. intros l Hl. apply Far in Hl. lia.
Qed.

(** With weights by cost alone, the distance to the end left out, the search takes a shortest path on every grid and in every
    neighbourhood whose moves can be taken back. *)
Theorem C47_by_cost Weight sortPaths w h b g s e : (forall g n p, Weight g n p = - cost (tiles g n)) ->
  ready SimpleCost Weight sortPaths w h b g -> fair b ->
  as_step SimpleCost Weight sortPaths g AGetTarget = Some (g, ATarget (Some s) (Some e)) -> within w h s -> within w h e ->
  exists g' r, as_step SimpleCost Weight sortPaths g ASearch = Some (g', ABool r) /\
    (r = true <-> exists l, route b (free SimpleCost Weight sortPaths w h g s e) s l e) /\
    (r = true -> exists p, as_step SimpleCost Weight sortPaths g' AGetPath = Some (g', APath p) /\
       route b (free SimpleCost Weight sortPaths w h g s e) e p s /\
       forall l, route b (free SimpleCost Weight sortPaths w h g s e) s l e -> moves p <= moves l).
Proof.
  intros HW Hr Hf Ht Ws We. destruct (ready_ok _ _ _ _ _ _ _ Hr) as (RI0 & _). pose proof RI0 as (D1 & D2 & D3 & D4).
  destruct (ready_search SimpleCost Weight sortPaths (fun _ => True) false w h b g s e wave simple_grows (simple_ground _ _ _ _ _ _ _ D1 D2) Hr Hf Ht Ws We) as (g' & r & E & R1 & R2).
  { split; [intros [|? ?] ? ? X; discriminate|intros ? ? []]. }
  { intros Hse ts ts' cl op p x op' op2. apply (wave_step Weight HW w h b Hf). }
  exists g', r. split; auto. split; auto. intros Hrt. destruct (R2 Hrt) as (X & p & Hp & R3 & Nd). exists p. split; [cbn [as_step]; rewrite Hp; auto|]. split; auto.
  intros l Hl. destruct X as [(-> & _)|(g2 & _ & _ & _ & _ & (cl & op & q & I & Hin & Hmax & X1) & _ & X2)].
  - assert (p = [e]) as ->.
    { inversion R3 as [|? c ? l' _ _ Hl']; subst; auto. assert (In e l') by (eapply route_last; eauto). inversion Nd; subst; contradiction. }
    inversion Hl; unfold moves; cbn [length]; lia.
  - specialize (X2 p). rewrite Hp in X2. specialize (X2 (or_introl eq_refl) eq_refl ltac:(intros g0 p0; unfold SimpleCost; lia)).
    pose proof (wave_dist Weight HW w h b Hf _ s e (tiles g2) cl op q e I X1 Hin Hmax l) as X3. apply Z.le_trans with (cost (tiles g2 e)); [auto|]. apply X3.
    cbn [as_step] in Ht. injection Ht as Hs He. destruct (start g) as [sp|] eqn:Es; [|discriminate]. destruct (finish g) as [ep|] eqn:Ee; [|discriminate].
    cbn in Hs, He. injection Hs as <-. injection He as <-. subst w h.
    eapply route_mono; [|exact Hl]. intros z Hz. apply (A0_free g sp ep). apply (free_open SimpleCost Weight sortPaths _ _ _ _ _ _ _ RI0). exact Hz.
Qed.

(** a shortest way over free tiles *)
Definition shortest (b : dirs) (f : pos -> Prop) (a : pos) (l : list pos) (z : pos) : Prop :=
  route b f a l z /\ forall l', route b f a l' z -> moves l <= moves l'.
Lemma far f a l b : route Four f a l b -> manhattan a b <= moves l.
Proof.
  unfold moves. induction 1 as [a Ha|a c b l Ha Hadj Hrt IH]; [unfold manhattan; cbn; lia|].
  cbn [length]. unfold adjacent in Hadj. unfold manhattan in *. lia.
Qed.
Lemma turn b (f : pos -> Prop) a l z : fair b -> route b f a l z -> route b f z (rev l) a.
Proof.
  intros Hf. induction 1 as [a Ha|a c z l Ha Hadj Hr IH]; cbn [rev]; [constructor; auto|]. revert IH. generalize (rev l). clear Hr l. intros l H. apply adjacent_sym in Hadj; auto.
  induction H as [x Hx|x d z l Hx Hd Hr IH]; cbn [app]; [apply route_step with a; auto; constructor; auto|apply route_step with d; auto].
Qed.
(** SearchMulti, if the weight of a tile is its cost, so that the cheapest tile is always taken next: every shortest path,
    and nothing else, is in the list, once each, with the end in front once more ([once]: no neighbour is listed twice).  Missing: other weights, above all the
    default ones, with which paths may be missing or longer (C69_missing_refuted, C69_lengths_refuted). *)
Theorem C69_by_cost_partial Weight sortPaths w h b g s e : (forall g n p, Weight g n p = - cost (tiles g n)) ->
  (forall ps, Permutation (sortPaths ps) ps) ->
  ready SimpleCost Weight sortPaths w h b g -> fair b -> once b ->
  as_step SimpleCost Weight sortPaths g AGetTarget = Some (g, ATarget (Some s) (Some e)) -> within w h s -> within w h e ->
  exists g' r, as_step SimpleCost Weight sortPaths g ASearchMulti = Some (g', ABool r) /\
    (r = true <-> exists l, route b (free SimpleCost Weight sortPaths w h g s e) s l e) /\
    (r = true -> exists ps, as_step SimpleCost Weight sortPaths g' AGetMultiPath = Some (g', APaths ps) /\ NoDup ps /\
       forall p, In p ps <-> exists l, p = e :: l /\ shortest b (free SimpleCost Weight sortPaths w h g s e) e l s).
Proof.
  intros HW Hsort Hr Hf Ho Ht Ws We. destruct (ready_ok _ _ _ _ _ _ _ Hr) as (RI0 & _). pose proof RI0 as (D1 & D2 & D3 & D4).
  destruct (ready_search SimpleCost Weight sortPaths (fun _ => True) true w h b g s e wave simple_grows (simple_ground _ _ _ _ _ _ _ D1 D2) Hr Hf Ht Ws We) as (g' & r & E & R1 & R2).
  { split; [intros [|? ?] ? ? X; discriminate|intros ? ? []]. }
  { intros Hse ts ts' cl op p x op' op2. apply (wave_step Weight HW w h b Hf). }
  exists g', r. split; auto. split; auto. intros Hrt. destruct (R2 Hrt) as (X & ps & Hp & R3 & R4). exists (sortPaths ps).
  split; [cbn [as_step]; rewrite Hp; auto|].
  assert (Sort : forall p, In p (sortPaths ps) <-> In p ps) by (intros p; split; apply Permutation_in; [|apply Permutation_sym]; auto).
  destruct X as [(-> & X)|(g2 & Hse & G1 & G2 & G3 & (cl & op & q & I & Hin & Hmax & X1) & X2 & _)].
  - rewrite <- Hp, X by auto. pose proof (Hsort [[e; e]]) as Y. apply Permutation_sym, Permutation_length_1_inv in Y. rewrite Y.
    split; [constructor; [auto|constructor]|]. assert (Fe : free SimpleCost Weight sortPaths w h g e e e) by (split; auto).
    intros p. split.
    + intros [<-|[]]. exists [e]. split; auto. split; [constructor; auto|]. intros l' Hl'. inversion Hl'; unfold moves; cbn [length]; lia.
    + intros (l & -> & Hl & Hm). left. specialize (Hm [e] ltac:(constructor; auto)). unfold moves in Hm.
      inversion Hl as [|? c ? l' _ _ Hl']; subst; auto. inversion Hl'; subst; cbn [length] in Hm; lia.
  - destruct X2 as (ps' & X2 & X3); auto.
    assert (Sort' : forall p, In p (sortPaths ps) <-> In p ps') by (intros p; rewrite <- Hp, X3; split; apply Permutation_in; [|apply Permutation_sym]; auto).
    assert (Nps : ps' <> []). { intros ->. destruct ps as [|r0 ps]; [contradiction|]. apply (Sort' r0), Sort. now left. }
    split.
    { rewrite <- Hp, X3. eapply Permutation_NoDup; [apply Permutation_sym, Hsort|]. apply multiPath_iff in X2. apply X2. congruence. }
    pose proof (some_steps Weight HW w h b Hf _ s e g2 cl op q G1 G2 G3 I X1 Hin Hmax ps' X2 Nps) as Y.
    assert (Fr : forall a l z, route b (AstarProofs.free w h (fun q => attr (marked g s e q))) a l z <-> route b (free SimpleCost Weight sortPaths w h g s e) a l z).
    { cbn [as_step] in Ht. injection Ht as Hs He. destruct (start g) as [sp|] eqn:Es; [|discriminate]. destruct (finish g) as [ep|] eqn:Ee; [|discriminate].
      cbn in Hs, He. injection Hs as <-. injection He as <-. subst w h.
      intros a l z. split; apply route_mono; intros x Hx.
      - apply (free_open SimpleCost Weight sortPaths _ _ _ _ _ _ _ RI0). apply (A0_free g sp ep). exact Hx.
      - apply (A0_free g sp ep). apply (free_open SimpleCost Weight sortPaths _ _ _ _ _ _ _ RI0). exact Hx. }
    intros p. rewrite Sort', Y. split; intros (l & -> & H1 & H2); exists l; (split; [auto|]); (split; [apply Fr; auto|]); intros l' Hl'.
    + apply turn in Hl'; auto. apply Fr in Hl'. specialize (H2 _ Hl'). unfold moves in *. rewrite rev_length in H2. auto.
    + apply turn in Hl'; auto. apply Fr in Hl'. specialize (H2 _ Hl'). unfold moves in *. rewrite rev_length in H2. auto.
Qed.

(** ** Examples and refutations *)
Notation simple_step := (as_step SimpleCost SimpleWeight (fun ps => ps)).
Definition started (w h : Z) (ops : list as_op) : option (list as_out) := g <- New w h ;; run simple_step g ops.
Definition wall (l : list pos) : list as_op := map (fun p => ASetAttr (fst p) (snd p) BLOCK) l.

Definition built (w h : Z) (ops : list as_op) : option graph := g <- New w h ;; reach simple_step g ops.
Lemma built_ready w h ops g : built w h ops = Some g -> forallb (fun o => negb (is_search o)) ops = true ->
  ready SimpleCost SimpleWeight (fun ps => ps) w h (fold_left chosen ops Four) g.
Proof. unfold built. destruct (New w h) as [g0|] eqn:E0; [|discriminate]. intros E F. eapply ready_calls; eauto. constructor. now left. Qed.

(** a 4x3 grid with a wall of two tiles, in both neighbourhoods, and a closed wall *)
Example ex_C46_detour : option_map (skipn 3) (started 4 3 (wall [(1, 0); (1, 1)] ++ [ASetTarget 0 0 2 0; ASearch; AGetPath; AGetSingleSteps]))
  = Some [ABool true; APath [(2, 0); (2, 1); (2, 2); (1, 2); (0, 2); (0, 1); (0, 0)]; ANum 6].
Proof. vm_compute. reflexivity. Qed.
Example ex_C46_eight : option_map (skipn 4)
  (started 4 3 (wall [(1, 0); (1, 1)] ++ [ASetNeighbor Eight; ASetTarget 0 0 2 0; ASearch; AGetPath; AGetSingleSteps]))
  = Some [ABool true; APath [(2, 0); (2, 1); (1, 2); (0, 1); (0, 0)]; ANum 4].
Proof. vm_compute. reflexivity. Qed.
Example ex_C46_closed : option_map (skipn 4) (started 4 3 (wall [(1, 0); (1, 1); (1, 2)] ++ [ASetTarget 0 0 2 0; ASearch; AGetPath]))
  = Some [ABool false; APanic].
Proof. vm_compute. reflexivity. Qed.
(** the hypotheses of C46, C47, C48 and C57 are met *)
Example ex_ready : exists g, ready SimpleCost SimpleWeight (fun ps => ps) 4 3 Four g /\ unmarked SimpleCost SimpleWeight (fun ps => ps) g /\
  simple_step g AGetTarget = Some (g, ATarget (Some (0, 0)) (Some (2, 0))) /\ simple_step g (AGetAttr 1 1) = Some (g, ANum BLOCK) /\
  (forall p, between (0, 0) (2, 0) p -> free SimpleCost SimpleWeight (fun ps => ps) 4 3 g (0, 0) (2, 0) p).
Proof.
  destruct (built 4 3 [ASetAttr 1 1 BLOCK; ASetTarget 0 0 2 0]) as [g|] eqn:E; [|exfalso; cbv in E; discriminate].
  pose proof (built_ready _ _ _ _ E eq_refl) as R. exists g. split; [exact R|]. vm_compute in E. injection E as <-.
  split; [|split; [reflexivity|split; [reflexivity|]]].
  - intros p Hp. rewrite shows_attr by auto. cbn [tiles].
    match goal with |- context [if ?b then _ else _] => destruct b end; cbn; repeat split; discriminate.
  - intros p Hp. unfold between in Hp. cbn in Hp. split; [unfold within; lia|]. left. rewrite shows_attr by (unfold within; cbn; lia).
    destruct p as [x y]. cbn [fst snd] in Hp. assert (y = 0) as -> by lia. cbn [tiles]. match goal with |- context [if ?b then false else false] => destruct b end; discriminate.
Qed.
(** a search without Clear since the last one: the same search now fails, and GetPath still gives the old path *)
Example ex_C46_no_clear : (started 3 1 [ASetTarget 0 0 2 0; ASearch; ASearch; AGetPath])
  = Some [AUnit; ABool true; ABool false; APath [(2, 0); (1, 0); (0, 0)]].
Proof. vm_compute. reflexivity. Qed.

(** ** other costs: MyCost of the tests (astar_extend_test.go 15-29), where the attribute of a tile says what it costs to enter it;
    entering the end costs nothing *)
Definition MyCost (g : graph) (tile ptile : pos) : Z :=
  let a := attr (tiles g tile) in
  cost (tiles g ptile) + (if a =? 77 then 6 else if a =? 109 then 3 else if a =? PLAIN then 1 else if a =? 114 then 2 else 0).
(** it grows on marsh, mountain, plain and river *)
Lemma my_grows : grows MyCost (fun a => In a [77; 109; PLAIN; 114]).
Proof.
  split; intros g n p H; unfold MyCost; [|rewrite H; cbn; lia].
  destruct H as [<-|[<-|[<-|[<-|[]]]]]; cbn; lia.
Qed.
Notation my_step := (as_step MyCost SimpleWeight (fun ps => ps)).
(** the first map of the tests, and what they expect *)
Example ex_C46_my_cost : run my_step (NewWithTiles
  [10; 115; 46; 46; 46; 46; 46; 46; 46; 10; 120; 120; 46; 46; 109; 109; 109; 109; 10; 46; 46; 46; 46; 109; 109; 109; 109; 10; 46; 46; 46; 46; 46; 114; 114; 101; 10])
  [ASearch; AGetSinglePathTiles] = Some [ABool true; AText
  [10; 115; 111; 111; 111; 46; 46; 46; 46; 10; 120; 120; 46; 111; 109; 109; 109; 109; 10; 46; 46; 46; 111; 109; 109; 109; 109; 10; 46; 46; 46; 111; 111; 111; 111; 101; 10]].
Proof. vm_compute. reflexivity. Qed.
(** the hypotheses of C46, C48 and C57 are met with it, by a grid with a mountain and a river *)
Example ex_my_ready : exists g, ready MyCost SimpleWeight (fun ps => ps) 4 1 Four g /\ unmarked MyCost SimpleWeight (fun ps => ps) g /\
  my_step g AGetTarget = Some (g, ATarget (Some (0, 0)) (Some (3, 0))) /\
  ground MyCost SimpleWeight (fun ps => ps) (fun a => In a [77; 109; PLAIN; 114]) 4 1 g (0, 0) (3, 0) /\
  exists g', my_step g ASearch = Some (g', ABool true) /\ my_step g' AGetSingleSteps = Some (g', ANum 3).
Proof.
  assert (R : forall g, (g0 <- New 4 1 ;; reach my_step g0 [ASetAttr 1 0 109; ASetAttr 2 0 114; ASetTarget 0 0 3 0]) = Some g -> ready MyCost SimpleWeight (fun ps => ps) 4 1 Four g).
  { intros g E. destruct (New 4 1) as [g0|] eqn:E0; [|discriminate]. apply (ready_calls MyCost SimpleWeight (fun ps => ps) 4 1 [ASetAttr 1 0 109; ASetAttr 2 0 114; ASetTarget 0 0 3 0] Four g0 g); auto.
    constructor. now left. }
  destruct (g0 <- New 4 1 ;; reach my_step g0 [ASetAttr 1 0 109; ASetAttr 2 0 114; ASetTarget 0 0 3 0]) as [g|] eqn:E; [|exfalso; cbv in E; discriminate].
  specialize (R g eq_refl). exists g. split; [exact R|]. vm_compute in E. injection E as <-.
  assert (Cases : forall p, within 4 1 p -> p = (0, 0) \/ p = (1, 0) \/ p = (2, 0) \/ p = (3, 0)).
  { intros [x y] (Hx & Hy). cbn in Hx, Hy. assert (y = 0) as -> by lia. assert (x = 0 \/ x = 1 \/ x = 2 \/ x = 3) as [->|[->|[->| ->]]] by lia; auto. }
  split; [|split; [reflexivity|split]].
  - intros p Hp. destruct (Cases p Hp) as [->|[->|[->| ->]]]; repeat split; cbv; discriminate.
  - intros p (Hp & _) N1 N2. destruct (Cases p Hp) as [->|[->|[->| ->]]]; try contradiction; eexists; (split; [reflexivity|]); cbn; auto.
  - eexists. split; vm_compute; reflexivity.
Qed.
(** A cost that never falls is not enough: with MyCost and one tile of an attribute it does not know, entering which it takes to
    be free, Search finds the end and does not return: on the way back it goes to and fro between two tiles. *)
Theorem C46_free_tile_refuted : (forall g n p, cost (tiles g p) <= MyCost g n p) /\
  exists g l, ready MyCost SimpleWeight (fun ps => ps) 3 1 Four g /\
  my_step g AGetTarget = Some (g, ATarget (Some (2, 0)) (Some (0, 0))) /\ my_step g (AGetAttr 1 0) = Some (g, ANum 97) /\
  route Four (free MyCost SimpleWeight (fun ps => ps) 3 1 g (2, 0) (0, 0)) (2, 0) l (0, 0) /\
  my_step g ASearch = None.
Proof.
  split. { intros g n p. unfold MyCost. repeat match goal with |- context [if ?b then _ else _] => destruct b end; lia. }
  assert (R : forall g, (g0 <- New 3 1 ;; reach my_step g0 [ASetAttr 1 0 97; ASetTarget 2 0 0 0]) = Some g -> ready MyCost SimpleWeight (fun ps => ps) 3 1 Four g).
  { intros g E. destruct (New 3 1) as [g0|] eqn:E0; [|discriminate]. apply (ready_calls MyCost SimpleWeight (fun ps => ps) 3 1 [ASetAttr 1 0 97; ASetTarget 2 0 0 0] Four g0 g); auto.
    constructor. now left. }
  destruct (g0 <- New 3 1 ;; reach my_step g0 [ASetAttr 1 0 97; ASetTarget 2 0 0 0]) as [g|] eqn:E; [|exfalso; cbv in E; discriminate].
  specialize (R g eq_refl). exists g, [(2, 0); (1, 0); (0, 0)]. split; [exact R|]. vm_compute in E. injection E as <-.
  split; [reflexivity|]. split; [reflexivity|]. split; [|vm_compute; reflexivity].
  assert (Fr : forall g p a, within 3 1 p -> seen_attr MyCost SimpleWeight (fun ps => ps) g p = Some (ANum a) -> a <> BLOCK -> free MyCost SimpleWeight (fun ps => ps) 3 1 g (2, 0) (0, 0) p).
  { intros g p a H1 H2 H3. split; [exact H1|]. left. rewrite H2. congruence. }
  apply (route_step _ _ (2, 0) (1, 0)); [eapply Fr; [unfold within; cbn; lia|reflexivity|discriminate]|cbn; lia|].
  apply (route_step _ _ (1, 0) (0, 0)); [eapply Fr; [unfold within; cbn; lia|reflexivity|discriminate]|cbn; lia|].
  constructor. eapply Fr; [unfold within; cbn; lia|reflexivity|discriminate].
Qed.

(** The default search need not take a shortest path: ten moves where eight are enough. *)
Theorem C47_shortest_refuted : exists g g' p l,
  ready SimpleCost SimpleWeight (fun ps => ps) 5 5 Four g /\ simple_step g AGetTarget = Some (g, ATarget (Some (0, 2)) (Some (4, 0))) /\
  simple_step g ASearch = Some (g', ABool true) /\ simple_step g' AGetPath = Some (g', APath p) /\
  route Four (free SimpleCost SimpleWeight (fun ps => ps) 5 5 g (0, 2) (4, 0)) (0, 2) l (4, 0) /\ moves p = 10 /\ moves l = 8.
Proof.
  pose (ops := wall [(2, 0); (3, 1); (1, 2); (3, 2)] ++ [ASetTarget 0 2 4 0]).
  pose (long := [(4, 0); (4, 1); (4, 2); (4, 3); (4, 4); (3, 4); (2, 4); (1, 4); (1, 3); (0, 3); (0, 2)]).
  pose (short := [(0, 2); (0, 3); (1, 3); (2, 3); (3, 3); (4, 3); (4, 2); (4, 1); (4, 0)]).
  assert (F : (g <- built 5 5 ops ;; '(g', r) <- simple_step g ASearch ;;
               Some (r, pathlist g', dimX g, dimY g, option_map at_ (start g), option_map at_ (finish g), forallb (fun p => negb (attr (tiles g p) =? BLOCK)) short))
              = Some (ABool true, [long], 5, 5, Some (0, 2), Some (4, 0), true)) by (vm_compute; reflexivity).
  destruct (built 5 5 ops) as [g|] eqn:E; [|discriminate]. pose proof (built_ready _ _ _ _ E eq_refl) as R. clear E.
  destruct (simple_step g ASearch) as [[g' r]|] eqn:E2; [|discriminate]. assert (r = ABool true /\ pathlist g' = [long] /\ dimX g = 5 /\ dimY g = 5 /\ option_map at_ (start g) = Some (0, 2) /\ option_map at_ (finish g) = Some (4, 0) /\
    forallb (fun p => negb (attr (tiles g p) =? BLOCK)) short = true) as (-> & F1 & F2 & F3 & F4 & F5 & F6) by (injection F; auto 10). clear F.
  exists g, g', long, short. split; [exact R|]. split; [cbn [as_step]; rewrite F4, F5; reflexivity|]. split; [auto|].
  split; [cbn [as_step]; rewrite F1; reflexivity|]. split; [|split; reflexivity].
  assert (Fr : forall p, In p short -> free SimpleCost SimpleWeight (fun ps => ps) 5 5 g (0, 2) (4, 0) p).
  { intros p Hp. assert (Wp : within 5 5 p). { unfold within. cbn in Hp. repeat (destruct Hp as [<-|Hp]; [cbn; lia|]). destruct Hp. }
    split; auto. left. rewrite shows_attr by (rewrite F2, F3; auto). rewrite forallb_forall in F6. specialize (F6 p Hp).
    intros X. injection X as X. rewrite X in F6. discriminate. }
  unfold short in *. repeat (match goal with |- route _ _ ?a (?a :: ?c :: _) _ => apply (route_step _ _ a c); [apply Fr; cbn; tauto|cbn; lia|] end). constructor. apply Fr. cbn. tauto.
Qed.

(** on the same grid, the path found by cost alone has eight moves *)
Definition ByCost (g : graph) (tile ptile : pos) : Z := - cost (tiles g tile).
Example ex_C47_by_cost : option_map (skipn 5) (g <- New 5 5 ;; run (as_step SimpleCost ByCost (fun ps => ps)) g
    (wall [(2, 0); (3, 1); (1, 2); (3, 2)] ++ [ASetTarget 0 2 4 0; ASearch; AGetSingleSteps])) = Some [ABool true; ANum 8].
Proof. vm_compute. reflexivity. Qed.

(** Every path of SearchMulti begins with the end twice: it is no simple path, and GetSteps counts one move too many. *)
Theorem C48_end_twice_refuted : exists g g', ready SimpleCost SimpleWeight (fun ps => ps) 3 3 Four g /\
  simple_step g AGetTarget = Some (g, ATarget (Some (0, 0)) (Some (1, 1))) /\
  simple_step g ASearchMulti = Some (g', ABool true) /\
  simple_step g' AGetMultiPath = Some (g', APaths [[(1, 1); (1, 1); (0, 1); (0, 0)]; [(1, 1); (1, 1); (1, 0); (0, 0)]]) /\
  ~ NoDup [(1, 1); (1, 1); (0, 1); (0, 0)] /\ simple_step g' (AGetSteps [(1, 1); (1, 1); (0, 1); (0, 0)]) = Some (g', ANum 3).
Proof.
  assert (F : (g <- built 3 3 [ASetTarget 0 0 1 1] ;; '(g', r) <- simple_step g ASearchMulti ;; Some (r, pathlist g', option_map at_ (start g), option_map at_ (finish g)))
     = Some (ABool true, [[(1, 1); (1, 1); (0, 1); (0, 0)]; [(1, 1); (1, 1); (1, 0); (0, 0)]], Some (0, 0), Some (1, 1))) by (vm_compute; reflexivity).
  destruct (built 3 3 _) as [g|] eqn:E; [|discriminate]. pose proof (built_ready _ _ _ _ E eq_refl) as R. clear E.
  destruct (simple_step g ASearchMulti) as [[g' r]|] eqn:E2; [|discriminate]. injection F as -> F1 F2 F3.
  exists g, g'. split; [exact R|]. split; [cbn [as_step]; rewrite F2, F3; reflexivity|]. split; [auto|].
  split; [cbn [as_step]; rewrite F1; reflexivity|]. split; [|reflexivity]. intros N. inversion N as [|? ? X _]; subst. apply X. now left.
Qed.

(** With the default weights a shortest path may be missing: here one of the ten of an open grid. *)
Theorem C69_missing_refuted : exists g g' ps l, ready SimpleCost SimpleWeight (fun ps => ps) 4 3 Four g /\
  simple_step g AGetTarget = Some (g, ATarget (Some (0, 2)) (Some (3, 0))) /\ simple_step g ASearchMulti = Some (g', ABool true) /\
  simple_step g' AGetMultiPath = Some (g', APaths ps) /\ length ps = 9%nat /\
  shortest Four (free SimpleCost SimpleWeight (fun ps => ps) 4 3 g (0, 2) (3, 0)) (3, 0) l (0, 2) /\ ~ In ((3, 0) :: l) ps.
Proof.
  destruct (built 4 3 [ASetTarget 0 2 3 0]) as [g|] eqn:E; [|exfalso; cbv in E; discriminate].
  pose proof (built_ready _ _ _ _ E eq_refl) as R. vm_compute in E. injection E as <-.
  eexists. eexists. eexists. exists [(3, 0); (3, 1); (3, 2); (2, 2); (1, 2); (0, 2)].
  split; [exact R|]. split; [reflexivity|]. split; [vm_compute; reflexivity|]. split; [vm_compute; reflexivity|]. split; [reflexivity|]. split; [split|].
  - apply route_step with (3, 1); [|reflexivity|apply route_step with (3, 2); [|reflexivity|apply route_step with (2, 2); [|reflexivity|
      apply route_step with (1, 2); [|reflexivity|apply route_step with (0, 2); [|reflexivity|apply route_end]]]]];
      (split; [unfold within; cbn [fst snd]; lia|left; vm_compute; discriminate]).
  - intros l' Hl'. apply far in Hl'. exact Hl'.
  - clear R. intros H. repeat (destruct H as [H|H]; [discriminate|]). exact H.
Qed.
(** With eight neighbours and the default weights the paths may differ in length: one takes four moves, the other three. *)
Theorem C69_lengths_refuted : exists g g', ready SimpleCost SimpleWeight (fun ps => ps) 3 4 Eight g /\
  simple_step g AGetTarget = Some (g, ATarget (Some (0, 3)) (Some (2, 0))) /\ simple_step g ASearchMulti = Some (g', ABool true) /\
  simple_step g' AGetMultiPath = Some (g', APaths [[(2, 0); (2, 0); (2, 1); (2, 2); (1, 3); (0, 3)]; [(2, 0); (2, 0); (1, 1); (0, 2); (0, 3)]]).
Proof.
  destruct (built 3 4 (wall [(1, 2)] ++ [ASetNeighbor Eight; ASetTarget 0 3 2 0])) as [g|] eqn:E; [|exfalso; cbv in E; discriminate].
  pose proof (built_ready _ _ _ _ E eq_refl) as R. vm_compute in E. injection E as <-.
  eexists. eexists. split; [exact R|]. split; [reflexivity|]. split; [vm_compute; reflexivity|]. vm_compute; reflexivity.
Qed.
(** by cost, the first of these grids gives all ten, the second the three moves only *)
Example ex_C69_by_cost : option_map (fun outs => map (fun o => match o with APaths ps => Z.of_nat (length ps) | _ => 0 end) outs)
    (g <- New 4 3 ;; run (as_step SimpleCost ByCost (fun ps => ps)) g [ASetTarget 0 2 3 0; ASearchMulti; AGetMultiPath]) = Some [0; 0; 10] /\
  option_map (skipn 3) (g <- New 3 4 ;; run (as_step SimpleCost ByCost (fun ps => ps)) g
    (wall [(1, 2)] ++ [ASetNeighbor Eight; ASetTarget 0 3 2 0; ASearchMulti; AGetMultiPath])) = Some [ABool true; APaths [[(2, 0); (2, 0); (1, 1); (0, 2); (0, 3)]]].
Proof. split; vm_compute; reflexivity. Qed.

(** A search from a tile to itself turns the tile into a start tile for good: Clear keeps it. *)
Theorem C57_same_tile_refuted : exists g g1 g2, ready SimpleCost SimpleWeight (fun ps => ps) 2 2 Four g /\
  simple_step g AGetTarget = Some (g, ATarget (Some (1, 1)) (Some (1, 1))) /\ simple_step g (AGetAttr 1 1) = Some (g, ANum PLAIN) /\
  simple_step g ASearch = Some (g1, ABool true) /\ simple_step g1 AClear = Some (g2, AUnit) /\ simple_step g2 (AGetAttr 1 1) = Some (g2, ANum START).
Proof.
  destruct (built 2 2 [ASetTarget 1 1 1 1]) as [g|] eqn:E; [|exfalso; cbv in E; discriminate].
  pose proof (built_ready _ _ _ _ E eq_refl) as R. exists g. vm_compute in E. injection E as <-.
  eexists. eexists. split; [exact R|]. split; [reflexivity|]. split; [reflexivity|]. split; [vm_compute; reflexivity|]. split; vm_compute; reflexivity.
Qed.
(** A new target before Clear: the old start tile, blocked before the search, loses its attribute.  Tile (1, 0) separates the
    two others of the grid; after a search from it, a new target and Clear they are connected. *)
Theorem C57_retarget_refuted : exists wall_, wall_ = [ASetAttr 1 0 BLOCK] /\
  started 3 1 (wall_ ++ [ASetTarget 0 0 2 0; ASearch]) = Some [AUnit; AUnit; ABool false] /\
  started 3 1 (wall_ ++ [ASetTarget 1 0 2 0; ASearch; ASetTarget 0 0 2 0; AClear; AGetAttr 1 0; ASearch])
    = Some [AUnit; AUnit; ABool true; AUnit; AUnit; ANum 0; ABool true].
Proof. eexists. split; [reflexivity|]. split; vm_compute; reflexivity. Qed.
(** A tile marked as start by SetAttr, without a target: Clear panics. *)
Theorem C57_no_target_refuted : exists g g', ready SimpleCost SimpleWeight (fun ps => ps) 2 2 Four g /\ simple_step g AClear = Some (g', APanic).
Proof.
  destruct (built 2 2 [ASetAttr 1 1 START]) as [g|] eqn:E; [|exfalso; cbv in E; discriminate].
  pose proof (built_ready _ _ _ _ E eq_refl) as R. exists g. vm_compute in E. injection E as <-. eexists. split; [exact R|]. vm_compute; reflexivity.
Qed.
Example ex_C57 : started 4 3 (wall [(1, 0); (1, 1)] ++ [ASetTarget 0 0 2 0; ASearch; AGetAttr 2 0; AGetAttr 1 0; AClear; AGetAttr 2 0; AGetAttr 1 0; ASearch; AGetSingleSteps])
  = Some [AUnit; AUnit; AUnit; ABool true; ANum END; ANum BLOCK; AUnit; ANum PLAIN; ANum BLOCK; ABool true; ANum 6].
Proof. vm_compute. reflexivity. Qed.

Print Assumptions C46_search_decides.
Print Assumptions C46_default_cost.
Print Assumptions C46_free_tile_refuted.
Print Assumptions C48_multi_paths_partial.
Print Assumptions C57_clear_restores_partial.
Print Assumptions C57_search_again_partial.
Print Assumptions C47_shortest_partial.
Print Assumptions C47_by_cost.
Print Assumptions C47_shortest_refuted.
Print Assumptions C48_end_twice_refuted.
Print Assumptions C57_same_tile_refuted.
Print Assumptions C57_retarget_refuted.
Print Assumptions C57_no_target_refuted.
Print Assumptions C69_by_cost_partial.
Print Assumptions C69_missing_refuted.
Print Assumptions C69_lengths_refuted.
