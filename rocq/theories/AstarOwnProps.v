(** graph/astar with a Neighbor of the user's own (C73). *)
From Verif Require Import Base Bind Machine HeapSpec HeapModel HeapProofs AstarSpec AstarModel AstarProofs AstarMore AstarProps.
Local Open Scope Z_scope.

(** ** the way back, whatever the neighbours are *)
Section Walk.
  Context (g : graph) (s : pos).
  Inductive walk : pos -> list pos -> Prop :=
  | walk_end : walk s [s]
  | walk_step q l : q <> s -> walk (lowest g q) l -> walk q (q :: l).
  Lemma lowest_in q : lowest g q = q \/ (In (lowest g q) (GetNeighbor g q) /\ isCount (tiles g (lowest g q)) = true).
  Proof.
    unfold lowest. generalize (GetNeighbor g q) as ns. intros ns. generalize q as ret. clear q. induction ns as [|n ns IH]; intros ret; cbn [fold_left]; [auto|].
    destruct (isCount (tiles g n)) eqn:E; cbn [andb]; [destruct (_ <=? _)|].
    - destruct (IH n) as [X|(X & Y)]; [rewrite X; right; cbn [In]; auto|right; cbn [In]; auto].
    - destruct (IH ret) as [X|(X & Y)]; [auto|right; cbn [In]; auto].
    - destruct (IH ret) as [X|(X & Y)]; [auto|right; cbn [In]; auto].
  Qed.
  Lemma walk_fun q l : walk q l -> forall l', walk q l' -> l' = l.
  Proof.
    induction 1 as [|q l N H IH]; intros l' H'; inversion H' as [|? k N' K]; subst; auto; try contradiction. f_equal. auto.
  Qed.
  Lemma singlePath_walk fuel : forall q path r, singlePath fuel g q s path = Some r -> exists l, r = path ++ l /\ walk q (q :: l).
  Proof.
    induction fuel as [|fuel IH]; intros q path r E; cbn [singlePath] in E; (destruct (pos_dec q s) as [->|N];
      [rewrite peqb_refl in E; injection E as <-; exists []; rewrite app_nil_r; split; [auto|constructor]|rewrite peqb_neq in E by auto]); [discriminate|].
    apply IH in E as (l & -> & Hl). exists (lowest g q :: l). rewrite <- app_assoc. split; [reflexivity|]. now constructor.
  Qed.
  Lemma walk_suffix q l : walk q l -> forall x, In x l -> exists k, walk x k /\ (length k <= length l)%nat.
  Proof.
    induction 1 as [|q l N H IH]; intros x Hx; [destruct Hx as [<-|[]]; exists [s]; split; [constructor|auto]|].
    destruct Hx as [<-|Hx]; [exists (q :: l); split; [now constructor|auto]|]. destruct (IH x Hx) as (k & K1 & K2). exists k. cbn [length]. split; auto.
  Qed.
  Lemma walk_nodup q l : walk q l -> NoDup l.
  Proof.
    induction 1 as [|q l N H IH]; [constructor; [auto|constructor]|]. constructor; auto. intros X. destruct (walk_suffix _ _ H q X) as (k & K1 & K2).
    pose proof (walk_fun _ _ (walk_step q l N H) _ K1) as ->. cbn [length] in K2. lia.
  Qed.
  Lemma walk_moves q l : walk q l -> q <> s -> lowest g q <> q.
  Proof.
    intros H N X. inversion H as [|? k _ K]; subst; [contradiction|]. rewrite X in K. pose proof (walk_fun _ _ H _ K) as E.
    apply (f_equal (@length _)) in E. cbn in E. lia.
  Qed.
End Walk.

Section Props.
  Context (Cost Weight : graph -> pos -> pos -> Z) (sortPaths : list (list pos) -> list (list pos)).
  Notation step := (as_step Cost Weight sortPaths).
  Notation ready := (ready Cost Weight sortPaths). Notation ground := (ground Cost Weight sortPaths). Notation free := (free Cost Weight sortPaths).

  (** what the search does before it goes back, whatever the neighbours are *)
  Lemma search_any legal multi w h b g s e : grows Cost legal -> ground legal w h g s e -> ready w h b g ->
    step g AGetTarget = Some (g, ATarget (Some s) (Some e)) -> within w h s -> within w h e -> s <> e -> let A := fun q => attr (marked g s e q) in
    (forall a l z, route b (free w h g s e) a l z <-> route b (AstarProofs.free w h A) a l z) /\
    ((exists g', search Cost Weight sortPaths multi g = Some (g', ABool false) /\ forall l, ~ route b (free w h g s e) s l e) \/
     (exists g2 cl op q, search Cost Weight sortPaths multi g = match found sortPaths s e multi g2 with None => None | Some (g', r) => Some (with_heap g' (clear (openHeap g')), ABool r) end /\
        dimX g2 = w /\ dimY g2 = h /\ neighbor g2 = b /\ TI Cost Weight w h b A s e (tiles g2) cl op q [] /\ In e op /\ exists l, route b (free w h g s e) s l e)).
  Proof.
    intros (Gr1 & Gr2) Hg Hr Ht Ws We Hse. destruct (ready_ok _ _ _ _ _ _ _ Hr) as (RI0 & Cl). pose proof RI0 as (D1 & D2 & D3 & D4).
    cbn [as_step] in Ht. injection Ht as Hs He. destruct (start g) as [sp|] eqn:Es; [|discriminate]. destruct (finish g) as [ep|] eqn:Ee; [|discriminate].
    cbn in Hs, He. injection Hs as <-. injection He as <-. subst w h b. cbv zeta.
    assert (Rt : forall a l z, route (neighbor g) (free (dimX g) (dimY g) g (at_ sp) (at_ ep)) a l z <-> route (neighbor g) (AstarProofs.free (dimX g) (dimY g) (A0 g sp ep)) a l z).
    { intros a l z. split; apply route_mono; intros p Hp.
      - apply (A0_free g sp ep). now apply (free_open Cost Weight sortPaths _ _ _ _ _ _ _ RI0).
      - apply (free_open Cost Weight sortPaths _ _ _ _ _ _ _ RI0). now apply (A0_free g sp ep). }
    split; [exact Rt|].
    assert (Up : forall g0 n p, (forall q, attr (tiles g0 q) = A0 g sp ep q) -> AstarProofs.free (dimX g) (dimY g) (A0 g sp ep) n ->
      n <> at_ sp -> n <> at_ ep -> cost (tiles g0 p) < Cost g0 n p).
    { intros g0 n p HA Fn N1 N2. apply Gr1. rewrite HA. apply A0_free in Fn. destruct (Hg n) as (a & A1 & A2); auto; [now apply (free_open Cost Weight sortPaths _ _ _ _ _ _ _ RI0)|].
      rewrite shows_attr in A1 by apply Fn. unfold A0, marked, upd. rewrite !peqb_neq by auto. congruence. }
    assert (Up_end : forall g0 p, (forall q, attr (tiles g0 q) = A0 g sp ep q) -> cost (tiles g0 p) <= Cost g0 (at_ ep) p).
    { intros g0 p HA. apply Gr2. rewrite HA. unfold A0, marked, upd. rewrite peqb_refl. reflexivity. }
    assert (As : A0 g sp ep (at_ sp) <> BLOCK). { unfold A0, marked, upd. rewrite (peqb_neq (at_ sp) (at_ ep)), peqb_refl by auto. discriminate. }
    destruct (search_unfold Cost Weight sortPaths multi g sp ep Es Ee D4 Ws We) as (h0 & Hh & _ & ->). set (g1 := G _ _ _ _ _ _ _ _).
    pose proof (init_TI Cost Weight g sp ep Cl Ws Hse) as I0.
    destruct (loop_ok Cost Weight sortPaths (dimX g) (dimY g) (neighbor g) (A0 g sp ep) (at_ sp) (at_ ep) Ws As Hse Up Up_end (fun _ _ _ => True) ltac:(auto) multi (S (S (area g))) g1 [] [at_ sp] (at_ sp)
      eq_refl eq_refl eq_refl eq_refl I0 Hh Logic.I) as [(g2 & cl & E & I & _)|(g2 & cl & op & q & E & F1 & F2 & F3 & I & Hin & _)].
    { cbn [length]. unfold area. lia. }
    - left. rewrite E. eexists. split; [reflexivity|]. intros l Hl. apply Rt in Hl.
      assert (X : In (at_ ep) cl).
      { eapply (closed_all Cost Weight _ _ (neighbor g) (A0 g sp ep) (at_ sp) (at_ ep)); [exact I|exact Hl|].
        pose proof (ti_start _ _ _ _ _ _ _ _ _ _ _ _ _ I) as Y. rewrite app_nil_r in Y. exact Y. }
      apply (ti_end _ _ _ _ _ _ _ _ _ _ _ _ _ I). auto.
    - right. rewrite E. exists g2, cl, op, q. do 4 (split; [auto|]). split; [exact I|]. split; [auto|].
      destruct (visited_route Cost Weight _ _ (neighbor g) (A0 g sp ep) (at_ sp) (at_ ep) Ws As Up Up_end _ _ _ _ _ I (at_ ep)) as (l & Hl); [apply in_or_app; auto|].
      exists l. now apply Rt.
  Qed.

  (** Search with any Neighbor, be its moves for one direction only: it says that the end cannot be reached exactly if it
      cannot; if it can, the search may not return, and if it does its path is one from the end to the start, by moves of the
      Neighbor in this direction.  Missing: that it returns, and with a path for the way there (C73_one_way_forever_refuted,
      C73_one_way_path_refuted). *)
  Theorem C73_any_neighbor_partial legal w h b g s e : grows Cost legal -> ground legal w h g s e -> ready w h b g ->
    step g AGetTarget = Some (g, ATarget (Some s) (Some e)) -> within w h s -> within w h e ->
    ((forall l, ~ route b (free w h g s e) s l e) <-> exists g', step g ASearch = Some (g', ABool false)) /\
    ((exists l, route b (free w h g s e) s l e) <-> step g ASearch = None \/
       exists g' p, step g ASearch = Some (g', ABool true) /\ step g' AGetPath = Some (g', APath p) /\ route b (free w h g s e) e p s /\ NoDup p).
  Proof.
    intros Gr Hg Hr Ht Ws We. change (step g ASearch) with (search Cost Weight sortPaths false g).
    destruct (pos_dec s e) as [Ese|Hse].
    { assert (X : exists g', search Cost Weight sortPaths false g = Some (g', ABool true) /\ pathlist g' = [[e]]).
      { destruct (ready_ok _ _ _ _ _ _ _ Hr) as ((D1 & D2 & D3 & D4) & _).
        cbn [as_step] in Ht. injection Ht as Hs He. destruct (start g) as [sp|] eqn:Es; [|discriminate]. destruct (finish g) as [ep|] eqn:Ee; [|discriminate].
        cbn in Hs, He. injection Hs as <-. injection He as <-. subst w h.
        destruct (search_unfold Cost Weight sortPaths false g sp ep Es Ee D4 Ws We) as (h0 & Hh & _ & ->). set (g1 := G _ _ _ _ _ _ _ _).
        cbn [loop]. destruct (HI_pop _ _ _ Hh) as [(X & _)|(h' & x & op' & E & H' & Hp & _)]; [discriminate|].
        change (tiles g1) with (marked g (at_ sp) (at_ ep)). change (openHeap g1) with h0. rewrite E.
        apply Permutation_length_1_inv in Hp. injection Hp as -> ->. cbv zeta. rewrite Ese, peqb_refl.
        assert (X : forall n gg, singlePath n gg (at_ ep) (at_ ep) [at_ ep] = Some [at_ ep]) by (intros [|n] gg; cbn [singlePath]; rewrite peqb_refl; auto).
        rewrite X. eexists. split; reflexivity. }
      destruct X as (g' & E & P). assert (Rt : route b (free w h g s e) s [e] e) by (rewrite Ese; constructor; split; auto).
      split; (split; intros H).
      - destruct (H _ Rt).
      - destruct H as (g0 & H). congruence.
      - right. exists g', [e]. split; auto. split; [cbn [as_step]; rewrite P; auto|]. split; [rewrite Ese at 2; rewrite Ese in Rt; rewrite Ese; exact Rt|constructor; [auto|constructor]].
      - eauto. }
    destruct (search_any legal false w h b g s e Gr Hg Hr Ht Ws We Hse) as (Rt & [(g' & E & N)|(g2 & cl & op & q & E & F1 & F2 & F3 & I & Hin & Hl)]); rewrite E.
    { split; (split; intros H); eauto.
      - destruct H as (l & H). destruct (N l H).
      - destruct H as [H|(g0 & p & H & _)]; discriminate. }
    cbn [found]. split; (split; intros H); auto.
    - destruct Hl as (l & Hl). destruct (H l Hl).
    - destruct H as (g' & H). destruct (singlePath _ _ _ _ _); discriminate.
    - destruct (singlePath (area g2) g2 e s [e]) as [r|] eqn:Er; [|auto]. right. apply singlePath_walk in Er as (l & -> & Wk).
      eexists. exists ([e] ++ l). split; [reflexivity|]. split; [reflexivity|]. split; [|eapply walk_nodup; eauto]. apply Rt. cbn [app].
      assert (V : forall x, In x (cl ++ op) -> AstarProofs.free w h (fun q => attr (marked g s e q)) x).
      { intros x Hx. split; [eapply within_in; eauto|apply (ti_free _ _ _ _ _ _ _ _ _ _ _ _ _ I); auto]. }
      assert (He : In e (cl ++ op)) by (apply in_or_app; auto).
      assert (Go : forall x k, walk g2 s x k -> In x (cl ++ op) -> route b (AstarProofs.free w h (fun q => attr (marked g s e q))) x k s); [|apply Go; auto].
      clear - F1 F2 F3 I V. intros x k Wk.
      induction Wk as [|x l N Wk IH]; intros Hx; [constructor; auto|]. pose proof (walk_moves _ _ _ _ (walk_step _ _ _ _ N Wk) N) as M.
      destruct (lowest_in g2 x) as [A1|(A1 & A2)]; [contradiction|].
      apply neighbor_ok in A1 as (B1 & B2). rewrite F1, F2 in B1. rewrite F3 in B2.
      apply route_step with (lowest g2 x); auto. apply IH. apply (ti_all _ _ _ _ _ _ _ _ _ _ _ _ _ I). auto.
  Qed.

  (** SetNeighbor with a function of the user's, all of whose moves can be taken back: Search returns, says whether the end
      can be reached by such moves over free tiles, and leaves a path of them.  Missing: moves for one direction only. *)
  Theorem C73_search_partial legal w h b g s e near : grows Cost legal -> ground legal w h g s e -> ready w h b g ->
    (forall p q, In q (near p) -> In p (near q)) -> (forall p, ~ In p (near p)) ->
    step g AGetTarget = Some (g, ATarget (Some s) (Some e)) -> within w h s -> within w h e ->
    exists g1, step g (ASetNeighbor (Own near)) = Some (g1, AUnit) /\
    exists g2 r, step g1 ASearch = Some (g2, ABool r) /\
      (r = true <-> exists l, route (Own near) (free w h g s e) s l e) /\
      (r = true -> exists p, step g2 AGetPath = Some (g2, APath p) /\ route (Own near) (free w h g s e) e p s /\
         route (Own near) (free w h g s e) s (rev p) e /\ NoDup p).
  Proof.
    intros Gr Hg Hr Sy Ir Ht Ws We. eexists. split; [reflexivity|]. set (g1 := G _ _ _ _ _ _ _ _).
    assert (Hr1 : ready w h (Own near) g1) by (apply (ready_call _ _ _ _ _ b g (ASetNeighbor (Own near)) g1 AUnit); auto).
    assert (Fa : fair (Own near)) by (intros p; split; auto).
    assert (Ht1 : step g1 AGetTarget = Some (g1, ATarget (Some s) (Some e))) by (cbn [as_step] in Ht |- *; injection Ht as Hs' He'; cbn [g1 start finish]; rewrite Hs', He'; reflexivity).
    destruct (C46_search_decides Cost Weight sortPaths legal w h (Own near) g1 s e Gr Hg Hr1 Fa Ht1 Ws We) as (g2 & r & E & R1 & R2).
    exists g2, r. split; auto. split; auto. intros X. destruct (R2 X) as (p & P1 & P2 & P3 & _). exists p. split; auto. split; [exact P2|]. split; [|exact P3].
    apply turn; auto.
  Qed.
  (** SearchMulti likewise.  Missing, besides: without the end in front once more the claim would hold (see
      C48_end_twice_refuted). *)
  Theorem C73_search_multi_partial legal w h b g s e near : (forall ps, Permutation (sortPaths ps) ps) ->
    grows Cost legal -> ground legal w h g s e -> ready w h b g ->
    (forall p q, In q (near p) -> In p (near q)) -> (forall p, ~ In p (near p)) ->
    step g AGetTarget = Some (g, ATarget (Some s) (Some e)) -> within w h s -> within w h e ->
    exists g1, step g (ASetNeighbor (Own near)) = Some (g1, AUnit) /\
    exists g2 r, step g1 ASearchMulti = Some (g2, ABool r) /\
      (r = true <-> exists l, route (Own near) (free w h g s e) s l e) /\
      (r = true -> exists ps, step g2 AGetMultiPath = Some (g2, APaths ps) /\ ps <> [] /\
         forall p, In p ps -> exists l, p = e :: l /\ route (Own near) (free w h g s e) e l s /\ NoDup l).
  Proof.
    intros Hs Gr Hg Hr Sy Ir Ht Ws We. eexists. split; [reflexivity|]. set (g1 := G _ _ _ _ _ _ _ _).
    assert (Hr1 : ready w h (Own near) g1) by (apply (ready_call _ _ _ _ _ b g (ASetNeighbor (Own near)) g1 AUnit); auto).
    assert (Fa : fair (Own near)) by (intros p; split; auto).
    assert (Ht1 : step g1 AGetTarget = Some (g1, ATarget (Some s) (Some e))) by (cbn [as_step] in Ht |- *; injection Ht as Hs' He'; cbn [g1 start finish]; rewrite Hs', He'; reflexivity).
    destruct (C48_multi_paths_partial Cost Weight sortPaths Hs legal w h (Own near) g1 s e Gr Hg Hr1 Fa Ht1 Ws We) as (g2 & r & E & R1 & R2).
    exists g2, r. split; auto. split; auto. intros X. destruct (R2 X) as (ps & P1 & P2 & P3). exists ps. split; auto. split; auto.
    intros p Hp. destruct (P3 p Hp) as (l & L1 & L2 & L3 & _). exists l. auto.
  Qed.
End Props.

(** If weights go by cost alone, Search takes a shortest path, and SearchMulti all of them if no move is listed twice, in
    every such neighbourhood too: C47_by_cost and C69_by_cost_partial. *)

(** ** Examples *)
(** a knight of chess *)
Definition knight (p : pos) : list pos :=
  map (fun d => (fst p + fst d, snd p + snd d)) [(1, 2); (2, 1); (2, -1); (1, -2); (-1, -2); (-2, -1); (-2, 1); (-1, 2)].
Lemma knight_fair : (forall p q, In q (knight p) -> In p (knight q)) /\ (forall p, ~ In p (knight p)) /\ forall p, NoDup (knight p).
Proof.
  unfold knight. split; [|split].
  - intros [x y] q H. cbn [map In fst snd] in *. repeat (destruct H as [<-|H]; [cbn [fst snd]; rewrite <- !Z.add_assoc; cbn; rewrite !Z.add_0_r; auto 10|]). destruct H.
  - intros [x y] H. cbn [map In fst snd] in H. repeat (destruct H as [H|H]; [injection H; lia|]). destruct H.
  - intros [x y]. cbn [map fst snd]. repeat (constructor; [cbn [In]; intros H; repeat (destruct H as [H|H]; [injection H; lia|]); destruct H|]). constructor.
Qed.
(** round the board of 3x3 *)
Example ex_C73_knight : started 3 3 [ASetNeighbor (Own knight); ASetTarget 0 0 2 2; ASearch; AGetPath; AClear; ASetTarget 0 0 1 1; ASearch]
  = Some [AUnit; AUnit; ABool true; APath [(2, 2); (0, 1); (2, 0); (1, 2); (0, 0)]; AUnit; AUnit; ABool false].
Proof. vm_compute. reflexivity. Qed.
(** side by side, and from (1, 0) to (3, 0) and back through a portal *)
Definition portal (p : pos) : list pos :=
  [(fst p + 1, snd p); (fst p - 1, snd p); (fst p, snd p + 1); (fst p, snd p - 1)] ++
  (if peqb p (1, 0) then [(3, 0)] else []) ++ (if peqb p (3, 0) then [(1, 0)] else []).
Lemma portal_fair : (forall p q, In q (portal p) -> In p (portal q)) /\ (forall p, ~ In p (portal p)).
Proof.
  unfold portal. split.
  - intros p q H. rewrite !in_app_iff in *. destruct H as [H|[H|H]].
    + left. destruct p as [x y]. cbn [fst snd] in *. cbn [In] in *. repeat (destruct H as [<-|H]; [cbn [fst snd]; first
       [right; left; f_equal; lia|left; f_equal; lia|right; right; right; left; f_equal; lia|right; right; left; f_equal; lia]|]). destruct H.
    + destruct (peqb p (1, 0)) eqn:E; [|destruct H]. apply peqb_eq in E as ->. destruct H as [<-|[]]. cbn. auto.
    + destruct (peqb p (3, 0)) eqn:E; [|destruct H]. apply peqb_eq in E as ->. destruct H as [<-|[]]. cbn. auto.
  - intros p H. rewrite !in_app_iff in H. destruct H as [H|[H|H]].
    + destruct p as [x y]. cbn [In fst snd] in H. repeat (destruct H as [H|H]; [injection H; lia|]). destruct H.
    + destruct (peqb p (1, 0)) eqn:E; [|destruct H]. apply peqb_eq in E as ->. destruct H as [H|[]]. discriminate.
    + destruct (peqb p (3, 0)) eqn:E; [|destruct H]. apply peqb_eq in E as ->. destruct H as [H|[]]. discriminate.
Qed.
Example ex_C73_portal : started 5 1 (wall [(2, 0)] ++ [ASetTarget 0 0 4 0; ASearch; AClear; ASetNeighbor (Own portal); ASearch; AGetPath; AClear; ASearchMulti; AGetMultiPath])
  = Some [AUnit; AUnit; ABool false; AUnit; AUnit; ABool true; APath [(4, 0); (3, 0); (1, 0); (0, 0)]; AUnit; ABool true; APaths [[(4, 0); (4, 0); (3, 0); (1, 0); (0, 0)]]].
Proof. vm_compute. reflexivity. Qed.

(** ** Refutations *)
(** A street for one direction: the end can be reached, and Search does not return.  (It goes back from the end, where no way
    leads back: singlePath turns on the spot.) *)
Theorem C73_one_way_forever_refuted : exists near g l, ready SimpleCost SimpleWeight (fun ps => ps) 3 1 (Own near) g /\
  simple_step g AGetTarget = Some (g, ATarget (Some (0, 0)) (Some (2, 0))) /\
  route (Own near) (free SimpleCost SimpleWeight (fun ps => ps) 3 1 g (0, 0) (2, 0)) (0, 0) l (2, 0) /\ simple_step g ASearch = None.
Proof.
  pose (near := fun p : pos => [(fst p + 1, snd p)]). exists near.
  destruct (built 3 1 [ASetNeighbor (Own near); ASetTarget 0 0 2 0]) as [g|] eqn:E; [|exfalso; cbv in E; discriminate].
  pose proof (built_ready _ _ _ _ E eq_refl) as R. exists g, [(0, 0); (1, 0); (2, 0)]. split; [exact R|]. vm_compute in E. injection E as <-.
  split; [reflexivity|]. split; [|vm_compute; reflexivity].
  apply route_step with (1, 0); [|cbn; auto|apply route_step with (2, 0); [|cbn; auto|apply route_end]];
    (split; [unfold within; cbn [fst snd]; lia|left; vm_compute; discriminate]).
Qed.
(** One-way moves round a circle: Search says that the end can be reached and leaves a path that cannot be walked from the
    start to the end. *)
Theorem C73_one_way_path_refuted : exists near g g' p l, ready SimpleCost SimpleWeight (fun ps => ps) 3 2 (Own near) g /\
  simple_step g AGetTarget = Some (g, ATarget (Some (0, 0)) (Some (2, 0))) /\
  route (Own near) (free SimpleCost SimpleWeight (fun ps => ps) 3 2 g (0, 0) (2, 0)) (0, 0) l (2, 0) /\
  simple_step g ASearch = Some (g', ABool true) /\ simple_step g' AGetPath = Some (g', APath p) /\
  ~ route (Own near) (free SimpleCost SimpleWeight (fun ps => ps) 3 2 g (0, 0) (2, 0)) (0, 0) (rev p) (2, 0).
Proof.
  (* (0,0) -> (0,1) -> (1,1) -> (2,0) -> (1,0) -> (0,0), and (0,0) -> (1,0) *)
  pose (near := fun p : pos => if peqb p (0, 0) then [(0, 1); (1, 0)] else if peqb p (0, 1) then [(1, 1)] else if peqb p (1, 1) then [(2, 0)]
                               else if peqb p (2, 0) then [(1, 0)] else if peqb p (1, 0) then [(0, 0)] else []).
  exists near. destruct (built 3 2 [ASetNeighbor (Own near); ASetTarget 0 0 2 0]) as [g|] eqn:E; [|exfalso; cbv in E; discriminate].
  pose proof (built_ready _ _ _ _ E eq_refl) as R. exists g. eexists. exists [(2, 0); (1, 0); (0, 0)], [(0, 0); (0, 1); (1, 1); (2, 0)].
  split; [exact R|]. vm_compute in E. injection E as <-. split; [reflexivity|]. split; [|split; [vm_compute; reflexivity|split; [reflexivity|]]].
  - apply route_step with (0, 1); [|cbn; auto|apply route_step with (1, 1); [|cbn; auto|apply route_step with (2, 0); [|cbn; auto|apply route_end]]];
      (split; [unfold within; cbn [fst snd]; lia|left; vm_compute; discriminate]).
  - cbn [rev app]. intros H. inversion H as [|? c ? l _ _ H1]; subst. inversion H1 as [|? c' ? l' _ A H2]; subst. inversion H2; subst; [|match goal with X : route _ _ _ [] _ |- _ => inversion X end].
    cbn in A. destruct A as [A|[]]. discriminate.
Qed.
(** A Neighbor that lists a move twice: SearchMulti gives the same path twice. *)
Theorem C73_listed_twice_refuted : exists near g g' p, (forall q r, In r (near q) -> In q (near r)) /\ (forall q, ~ In q (near q)) /\
  ready SimpleCost SimpleWeight (fun ps => ps) 2 1 (Own near) g /\ simple_step g AGetTarget = Some (g, ATarget (Some (0, 0)) (Some (1, 0))) /\
  simple_step g ASearchMulti = Some (g', ABool true) /\ simple_step g' AGetMultiPath = Some (g', APaths [p; p]).
Proof.
  pose (near := fun p : pos => [(fst p + 1, snd p); (fst p - 1, snd p); (fst p + 1, snd p); (fst p - 1, snd p)]). exists near.
  destruct (built 2 1 [ASetNeighbor (Own near); ASetTarget 0 0 1 0]) as [g|] eqn:E; [|exfalso; cbv in E; discriminate].
  pose proof (built_ready _ _ _ _ E eq_refl) as R. exists g. eexists. eexists. split; [|split].
  - intros [x y] r H. unfold near in *. cbn [In fst snd] in *. assert (r = (x + 1, y) \/ r = (x - 1, y)) as [->| ->] by (destruct H as [<-|[<-|[<-|[<-|[]]]]]; auto); cbn [fst snd].
    + right. left. f_equal; lia.
    + left. f_equal; lia.
  - intros [x y] H. unfold near in H. cbn [In fst snd] in H. repeat (destruct H as [H|H]; [injection H; lia|]). destruct H.
  - split; [exact R|]. vm_compute in E. injection E as <-. split; [reflexivity|]. split; vm_compute; reflexivity.
Qed.
(** A Neighbor that also lists the tile itself, and a cost by which entering the end is free: Search does not return. *)
Theorem C73_on_the_spot_refuted : exists near g l, (forall q r, In r (near q) -> In q (near r)) /\
  ready MyCost SimpleWeight (fun ps => ps) 2 1 (Own near) g /\ my_step g AGetTarget = Some (g, ATarget (Some (0, 0)) (Some (1, 0))) /\
  route (Own near) (free MyCost SimpleWeight (fun ps => ps) 2 1 g (0, 0) (1, 0)) (0, 0) l (1, 0) /\ my_step g ASearch = None.
Proof.
  pose (near := fun p : pos => [(fst p + 1, snd p); (fst p - 1, snd p); p]). exists near.
  assert (R : forall g, (g0 <- New 2 1 ;; reach my_step g0 [ASetNeighbor (Own near); ASetTarget 0 0 1 0]) = Some g -> ready MyCost SimpleWeight (fun ps => ps) 2 1 (Own near) g).
  { intros g E. destruct (New 2 1) as [g0|] eqn:E0; [|discriminate]. apply (ready_calls MyCost SimpleWeight (fun ps => ps) 2 1 [ASetNeighbor (Own near); ASetTarget 0 0 1 0] Four g0 g); auto.
    constructor. now left. }
  destruct (g0 <- New 2 1 ;; reach my_step g0 [ASetNeighbor (Own near); ASetTarget 0 0 1 0]) as [g|] eqn:E; [|exfalso; cbv in E; discriminate].
  specialize (R g eq_refl). exists g, [(0, 0); (1, 0)]. split.
  { intros [x y] r H. unfold near in *. cbn [In fst snd] in *. destruct H as [<-|[<-|[<-|[]]]]; cbn [fst snd].
    - right. left. f_equal; lia.
    - left. f_equal; lia.
    - auto. }
  split; [exact R|]. vm_compute in E. injection E as <-. split; [reflexivity|]. split; [|vm_compute; reflexivity].
  apply route_step with (1, 0); [|cbn; auto|apply route_end]; (split; [unfold within; cbn [fst snd]; lia|left; vm_compute; discriminate]).
Qed.
(** the hypotheses of C73 are met, by the knight, on a board with a blocked corner *)
Example ex_C73_ready : exists g, ready SimpleCost SimpleWeight (fun ps => ps) 3 3 Four g /\ simple_step g AGetTarget = Some (g, ATarget (Some (0, 0)) (Some (2, 2))) /\
  simple_step g (AGetAttr 2 0) = Some (g, ANum BLOCK) /\ grows SimpleCost (fun _ => True) /\ ground SimpleCost SimpleWeight (fun ps => ps) (fun _ => True) 3 3 g (0, 0) (2, 2) /\
  exists g1 g2, simple_step g (ASetNeighbor (Own knight)) = Some (g1, AUnit) /\ simple_step g1 ASearch = Some (g2, ABool true) /\
    simple_step g2 AGetPath = Some (g2, APath [(2, 2); (1, 0); (0, 2); (2, 1); (0, 0)]).
Proof.
  destruct (built 3 3 (wall [(2, 0)] ++ [ASetTarget 0 0 2 2])) as [g|] eqn:E; [|exfalso; cbv in E; discriminate].
  pose proof (built_ready _ _ _ _ E eq_refl) as R. exists g. split; [exact R|]. vm_compute in E. injection E as <-.
  split; [reflexivity|]. split; [reflexivity|]. split; [apply simple_grows|]. split; [now apply simple_ground|]. eexists. eexists. split; [reflexivity|]. split; vm_compute; reflexivity.
Qed.

Print Assumptions C73_any_neighbor_partial.
Print Assumptions C73_search_partial.
Print Assumptions C73_search_multi_partial.
Print Assumptions C73_one_way_forever_refuted.
Print Assumptions C73_one_way_path_refuted.
Print Assumptions C73_listed_twice_refuted.
Print Assumptions C73_on_the_spot_refuted.
