(** tree/treelist in memory: Put, Set, PutDuplicate. *)
From Verif Require Import Base Bind Machine AvlTree IndexSpec TreelistSpec TreelistModel IndexModel IndexHeapModel IndexHeapProofs IndexHeapPutProofs
  TreelistHeapModel TreelistHeapProofs.
Local Open Scope Z_scope.

Section Climb.
  Context {K V : Type}.
  Notation mem := (mem K (nat * V)).
  Notation tree := (tree K (nat * V)).
  Notation climb := TreelistModel.climb.
  Implicit Types m : mem.

  Fixpoint climbs (C : list (tframe (K := K) (V := nat * V))) (p : tree * climb) : option (tree * climb) :=
    match C with [] => Some p | f :: C => p' <- TreelistModel.fixPut (snd p) (tfill f (fst p)) ;; climbs C p' end.
  Lemma climbs_broken C : forall t, climbs C (t, TreelistModel.Broken) = Some (tplug C t, TreelistModel.Broken).
  Proof.
    induction C as [|[[[[s k] v] b] y] C IH]; intros t; [reflexivity|]. cbn [climbs fst snd tplug]. rewrite <- IH. cbn [tfill tnd].
    destruct b; reflexivity.
  Qed.

  Definition ends {X} (r : res K (nat * V) X) (x : X) (c : climb) (m' : mem) : Prop :=
    match c with TreelistModel.Broken => r = Panic m' | _ => r = Ret x m' end.

  Lemma fixPutSize_ok root c : forall m s n t' q, ok m root c s -> (length c < n)%nat -> climbs (cview m c) (view m s, TreelistModel.Sizes) = Some (t', q) ->
    q = TreelistModel.Sizes /\
    exists m' s', TreelistHeapModel.fixPutSize root n (Some (top root c)) m = Ret tt m' /\ ok m' root [] s' /\ view m' s' = t' /\ next m' = next m.
  Proof.
    induction c as [|((a, d), y) c IH]; intros m s n t' q Hok Hn Ht; (destruct n as [|n]; [cbn in Hn; lia|]); cbn [TreelistHeapModel.fixPutSize]; rewrite (ok_top _ _ _ _ Hok).
    - injection Ht as <- <-. split; [reflexivity|]. exists m, s. auto.
    - cbn [top]. rewrite <- ok_down in Hok.
      destruct (put_data m (setSize (Size m a + 1) a m) root c a d s y (setSize_only _ _ _) Hok) as (O1 & V1 & V2 & (N1 & C1)).
      erewrite run_bind by apply rd_ok. erewrite run_bind by reflexivity. erewrite run_bind by apply rd_ok.
      change (Parent (setSize (Size m a + 1) a m)) with (Parent m). rewrite ok_down in Hok. rewrite (ok_parent _ _ _ _ _ _ _ Hok).
      cbn [cview map fview climbs fst snd] in Ht.
      destruct (IH _ (nd a d s y) n t' q O1) as (Hq & m2 & s2 & R2 & O2 & W2 & N2).
      + cbn in Hn; lia.
      + rewrite C1, view_nd, V1, V2. mm. unfold cview. rewrite <- Ht. destruct d; reflexivity.
      + split; [exact Hq|]. exists m2, s2. repeat (split; [assumption|]). rewrite N2. reflexivity.
  Qed.

  Lemma fixPutLoop_ok root c : forall m s n h t' q, ok m root c s -> (length c < n)%nat -> climbs (cview m c) (view m s, TreelistModel.Height h) = Some (t', q) ->
    exists m' s', ends (TreelistHeapModel.fixPutLoop root n h (Some (top root c)) m) tt q m' /\ ok m' root [] s' /\ view m' s' = t' /\ next m' = next m.
  Proof.
    induction c as [|((a, d), y) c IH]; intros m s n h t' q Hok Hn Ht; (destruct n as [|n]; [cbn in Hn; lia|]); cbn [TreelistHeapModel.fixPutLoop]; rewrite (ok_top _ _ _ _ Hok).
    - injection Ht as <- <-. exists m, s. cbn [ends]. auto.
    - cbn [top]. pose proof Hok as Hok0. rewrite <- ok_down in Hok. destruct (bump _ _ _ _ _ _ _ Hok) as (m1 & Hrun & O1 & V1 & V2 & (N1 & C1) & P1 & Sz & Ky & Va & Ba).
      rewrite Hrun. erewrite run_bind by apply rd_ok. rewrite P1. rewrite (ok_parent _ _ _ _ _ _ _ Hok0).
      cbn [cview map fview climbs fst snd] in Ht.
      set (lt := view m (if d then y else s)) in *. set (rt := view m (if d then s else y)) in *.
      assert (Et : tfill (Size m a, Key m a, Value m a, d, view m y) (view m s) = N (Size m a) (Key m a) (Value m a) lt rt) by (unfold lt, rt; destruct d; reflexivity).
      assert (Ev : view m1 (nd a d s y) = N (Size m a + 1) (Key m a) (Value m a) lt rt) by (rewrite view_nd, Sz, Ky, Va, V1, V2; unfold lt, rt; destruct d; reflexivity).
      rewrite Et in Ht. cbn [TreelistModel.fixPut] in Ht. cbv zeta in Ht |- *.
      destruct (64 <=? h).
      { cbv beta iota in Ht. rewrite climbs_broken in Ht. injection Ht as <- <-. cbn [ends].
        exists m1, (plug c (nd a d s y)). split; [reflexivity|]. split; [apply (proj1 (ok_plug _ _ _ _)); exact O1|]. split; [|exact N1].
        rewrite view_plug, C1, Ev. reflexivity. }
      erewrite run_bind by apply rd_ok. rewrite Sz.
      assert (Hgo : (p' <- Some (N (Size m a + 1) (Key m a) (Value m a) lt rt, TreelistModel.Height (h + 1)) ;; climbs (map (fview m) c) p') = Some (t', q) ->
        exists m' s', ends (TreelistHeapModel.fixPutLoop root n (h + 1) (Some (top root c)) m1) tt q m' /\ ok m' root [] s' /\ view m' s' = t' /\ next m' = next m).
      { intros H. destruct (IH m1 (nd a d s y) n (h + 1) t' q O1) as (m2 & s2 & R2 & O2 & W2 & N2); [cbn in Hn; lia| |].
        - rewrite C1, Ev. exact H.
        - exists m2, s2. repeat (split; [assumption|]). congruence. }
      assert (Hend : forall m2 s2 t2, ok m2 root c s2 -> view m2 s2 = t2 -> same m1 m2 c -> climbs (map (fview m) c) (t2, TreelistModel.Sizes) = Some (t', q) ->
        exists m' s', ends (fueled (fun n => TreelistHeapModel.fixPutSize root n (Some (top root c))) m2) tt q m' /\ ok m' root [] s' /\ view m' s' = t' /\ next m' = next m).
      { intros m2 s2 t2 O2 W2 (N2 & C2) H. unfold fueled. pose proof (ok_fuel _ _ _ _ O2) as Hf.
        destruct (fixPutSize_ok root c m2 s2 (S (next m2)) t' q O2) as (-> & m3 & s3 & R3 & O3 & W3 & N3); [lia| |].
        - rewrite C2, C1, W2. exact H.
        - exists m3, s3. cbn [ends]. repeat (split; [assumption|]). congruence. }
      unfold TreelistModel.sizeRRotate, TreelistModel.sizeLRotate, TreelistModel.getSize in Ht.
      rewrite <- Ev in Ht.
      destruct (Size m a + 1 <? shl64 h); [|apply Hgo; rewrite <- Ev; exact Ht].
      erewrite run_bind by apply rd_ok. rewrite Ba.
      destruct (_ <? 0).
      + destruct (_ <=? _); [|apply Hgo; rewrite <- Ev; exact Ht].
        destruct (IndexModel.sizeRRotate _) as [t2|] eqn:Er; [|discriminate].
        destruct (sizeRRotate_ok m1 root c _ t2 O1 Er) as (m2 & s2 & R2 & O2 & W2 & S2). rewrite pt_nd in R2.
        erewrite run_bind by exact R2. eapply Hend; eauto.
      + destruct (_ <=? _); [|apply Hgo; rewrite <- Ev; exact Ht].
        destruct (IndexModel.sizeLRotate _) as [t2|] eqn:Er; [|discriminate].
        destruct (sizeLRotate_ok m1 root c _ t2 O1 Er) as (m2 & s2 & R2 & O2 & W2 & S2). rewrite pt_nd in R2.
        erewrite run_bind by exact R2. eapply Hend; eauto.
  Qed.

  Lemma fixPut_ok root c a d y m s t' q : ok m root ((a, d, y) :: c) s -> climbs (cview m ((a, d, y) :: c)) (view m s, TreelistModel.First) = Some (t', q) ->
    exists m' s', ends (TreelistHeapModel.fixPut root (Some a) m) tt q m' /\ ok m' root [] s' /\ view m' s' = t' /\ next m' = next m.
  Proof.
    intros Hok Ht. pose proof Hok as Hok0. rewrite <- ok_down in Hok. destruct (bump _ _ _ _ _ _ _ Hok) as (m1 & Hrun & O1 & V1 & V2 & (N1 & C1) & P1 & Sz & Ky & Va & Ba).
    unfold TreelistHeapModel.fixPut. rewrite Hrun. erewrite run_bind by apply rd_ok. erewrite run_bind by apply rd_ok. rewrite P1, Sz, (ok_parent _ _ _ _ _ _ _ Hok0).
    cbn [cview map fview climbs fst snd] in Ht.
    assert (Et : TreelistModel.fixPut TreelistModel.First (tfill (Size m a, Key m a, Value m a, d, view m y) (view m s)) =
                 Some (view m1 (nd a d s y), if Size m a + 1 =? 3 then TreelistModel.Sizes else TreelistModel.Height 2)) by (rewrite view_nd, Sz, Ky, Va, V1, V2; destruct d; reflexivity).
    rewrite Et in Ht. cbv beta iota in Ht. rewrite <- N1. unfold fueled. pose proof (ok_fuel _ _ _ _ O1) as Hf.
    destruct (Size m a + 1 =? 3).
    - destruct (fixPutSize_ok root c m1 (nd a d s y) (S (next m1)) t' q O1) as (-> & m2 & s2 & R2 & X); [lia|rewrite C1; exact Ht|].
      exists m2, s2. cbn [ends]. auto.
    - apply (fixPutLoop_ok root c m1 (nd a d s y)); [exact O1|lia|]. rewrite C1. exact Ht.
  Qed.
End Climb.

Section Put.
  Context {K V : Type} (cmp : K -> K -> Z).
  Notation tmem := (tmem K V).
  Notation tree := (tree K (nat * V)).
  Notation Placed := TreelistModel.Placed.
  Notation Found := TreelistModel.Found.
  Notation Broken := TreelistModel.Broken.
  Implicit Types m : tmem.

  Definition tends {X} (r : tres K V X) (x : X) (c : TreelistModel.climb) m : Prop :=
    match c with Broken => r = Fail m | _ => r = Done x m end.

  Lemma attach_ok m lk x c a d y k v p q t' z : ok (tagged (base m)) 0 ((a, d, y) :: c) L -> dirs (Direct m) lk -> next (base m) = S x ->
    climbs (cview (tagged (base m)) ((a, d, y) :: c)) (N 1 k (x, v) E E, TreelistModel.First) = Some (t', z) ->
    exists m', tends (attachNode 0 (Some a) d k v (addr p) (addr q) m) tt z m' /\
      (exists s', ok (tagged (base m')) 0 [] s' /\ view (tagged (base m')) s' = t') /\
      dirs (Direct m') (TreelistModel.attachLinks x p q lk) /\ next (base m') = S (S x).
  Proof.
    intros Hok Hd Hx Ht.
    destruct (alloc_ok (tagged (base m)) 0 _ k (x, v) Hok) as (g1 & R1 & O1 & V1 & C1). cbn [IndexHeapProofs.top cdir] in R1.
    specialize (R1 _ (fun p g => Ret p g)). unfold alloc in R1. cbn [bind wr] in R1. unfold bind in R1. injection R1 as R1.
    unfold attachNode, talloc. unfold tbind at 1. unfold alloc. cbv beta iota. set (b0 := Mem _ _ _ _ _ _ _).
    set (m0 := TMem b0 _). set (lk0 := TreelistModel.setd x true None (TreelistModel.setd x false None lk)).
    assert (D0 : dirs (Direct m0) lk0).
    { destruct Hd as (H1 & H2). unfold m0. cbn [Direct]. rewrite Hx. split; [|intros b; rewrite upd_ne by lia; apply H2].
      intros i b. unfold lk0. cbn [TreelistModel.setd TreelistModel.d]. destruct (Nat.eqb_spec i x) as [->|Hi]; [rewrite upd_eq; destruct b; reflexivity|rewrite upd_ne by lia; cbn [andb]; apply H1]. }
    erewrite run_tbind by reflexivity. set (b1 := setKid _ _ _ _). change (Direct m0) with (Direct (TMem b1 (Direct m0))) in D0.
    set (m1 := TMem b1 (Direct m0)) in *. change (base m0) with b0 in b1. change (TMem b1 (Direct m0)) with m1.
    assert (A1 : alike g1 (tagged b1)).
    { rewrite <- R1. unfold b1, b0. split; [reflexivity|]. split; [reflexivity|]. split; [reflexivity|]. intros e. split; [reflexivity|]. split; [reflexivity|].
      cbn. unfold tag. cbn. destruct (Nat.eq_dec e (next (base m))) as [->|He]; [rewrite !upd_eq, Hx; reflexivity|rewrite !upd_ne by exact He; reflexivity]. }
    assert (L1 : exists dir, (if negb (isNil (addr p)) then wrDir (addr p) true (Some (next (base m))) else wrDir (Some 0%nat) false (Some (next (base m)))) m1 = Done tt (TMem b1 dir) /\
      dirs dir match p with Some y => TreelistModel.setd y true (Some x) lk0 | None => TreelistModel.sete false (Some x) lk0 end).
    { rewrite Hx. destruct p; [apply (wrDir_node m1 lk0 n true (Some x)), D0|apply (wrDir_root m1 lk0 false (Some x)), D0]. }
    destruct L1 as (d1 & S1 & D1). erewrite run_tbind by exact S1. set (lk1 := match p with Some _ => _ | None => _ end) in D1.
    assert (L2 : exists dir, (if negb (isNil (addr q)) then wrDir (addr q) false (Some (next (base m))) else wrDir (Some 0%nat) true (Some (next (base m)))) (TMem b1 d1) = Done tt (TMem b1 dir) /\
      dirs dir match q with Some y => TreelistModel.setd y false (Some x) lk1 | None => TreelistModel.sete true (Some x) lk1 end).
    { rewrite Hx. destruct q; [apply (wrDir_node (TMem b1 d1) lk1 n false (Some x)), D1|apply (wrDir_root (TMem b1 d1) lk1 true (Some x)), D1]. }
    destruct L2 as (d2 & S2 & D2). erewrite run_tbind by exact S2. set (lk2 := match q with Some _ => _ | None => _ end) in D2. rewrite Hx.
    destruct (wrDir_node (TMem b1 d2) lk2 x false p D2) as (d3 & S3 & D3). erewrite run_tbind by exact S3.
    destruct (wrDir_node (TMem b1 d3) _ x true q D3) as (d4 & S4 & D4). erewrite run_tbind by exact S4. cbn [base].
    destruct (fixPut_ok 0 c a d y (tagged b1) _ t' z (alike_ok _ _ _ _ _ A1 O1)) as (g2 & s2 & R2 & O2 & V2 & N2).
    { rewrite (alike_cview _ _ _ A1), (alike_view _ _ _ A1), V1, C1. exact Ht. }
    assert (D5 : dirs d4 (TreelistModel.attachLinks x p q lk)).
    { destruct D4 as (H1 & H2). split.
      - intros i b. rewrite H1. f_equal. unfold lk2, lk1, lk0, TreelistModel.attachLinks. cbn [TreelistModel.setd TreelistModel.d].
        destruct (Nat.eqb_spec i x) as [->|Hi]; [destruct b; reflexivity|]. cbn [andb].
        destruct q, p; cbn [TreelistModel.setd TreelistModel.sete TreelistModel.d]; destruct (Nat.eqb_spec i x); try contradiction; reflexivity.
      - intros b. rewrite H2. f_equal. unfold lk2, lk1, lk0, TreelistModel.attachLinks. destruct q, p; reflexivity. }
    assert (F1 := a_fixPut (K := K) (V := V) (W := nat * V) 0 (Some a)). assert (F2 := a_fixPut (K := K) (V := V) (W := V) 0 (Some a)).
    assert (N1 : next (tagged b1) = S (S x)) by (unfold b1, b0; cbn; rewrite Hx; reflexivity).
    assert (Z : z = Broken \/ ends (TreelistHeapModel.fixPut 0 (Some a) (tagged b1)) tt TreelistModel.First g2 /\ z <> Broken) by (destruct z; auto; right; split; auto; discriminate).
    destruct Z as [->|(R2' & Hz)].
    - cbn [ends] in R2. destruct (lift_panic (TreelistHeapModel.fixPut 0 (Some a)) _ (TMem b1 d4) g2 F1 F2 R2) as (b2 & R3 & -> & _).
      exists (TMem b2 d4). cbn [tends base Direct]. split; [exact R3|]. split; [exists s2; auto|]. split; [exact D5|]. change (next (tagged b2) = S (S x)). congruence.
    - cbn [ends] in R2'. destruct (lift_tagged (TreelistHeapModel.fixPut 0 (Some a)) _ (TMem b1 d4) tt g2 F1 F2 R2') as (b2 & R3 & -> & _).
      exists (TMem b2 d4). cbn [base Direct]. split; [destruct z; try (exact R3); congruence|]. split; [exists s2; auto|]. split; [exact D5|]. change (next (tagged b2) = S (S x)). congruence.
  Qed.

  Definition hitOf (o : option (V -> V)) : V -> V := match o with None => fun v => v | Some f => f end.
  Definition putUp (C : list (tframe (K := K) (V := nat * V))) (p : tree * TreelistModel.placed) : option (tree * TreelistModel.placed) :=
    match snd p with
    | Found => Some (tplug C (fst p), Found)
    | Placed a b st => p' <- climbs C (fst p, st) ;; Some (fst p', Placed a b (snd p'))
    end.
  (** what putLoop has done *)
  Definition putDone (r : tres K V bool) lk x (res : TreelistModel.placed) (t' : tree) : Prop :=
    exists m',
      match res with
      | Found => r = Done true m' /\ dirs (Direct m') lk /\ next (base m') = S x
      | Placed p q z => tends r false z m' /\ dirs (Direct m') (TreelistModel.attachLinks x p q lk) /\ next (base m') = S (S x)
      end /\ exists s', ok (tagged (base m')) 0 [] s' /\ view (tagged (base m')) s' = t'.

  Lemma put_value m a f c l r : ok (tagged (base m)) 0 c (B a l r) ->
    let b' := setValue (f (Value (base m) a)) a (base m) in
    exists s', ok (tagged b') 0 [] s' /\
      view (tagged b') s' = tplug (cview (tagged (base m)) c) (N (Size (base m) a) (Key (base m) a) (pred a, f (Value (base m) a)) (view (tagged (base m)) l) (view (tagged (base m)) r)).
  Proof.
    intros Hok. cbv zeta. set (b' := setValue _ _ _).
    destruct (put_data (tagged (base m)) (setValue (pred a, f (Value (base m) a)) a (tagged (base m))) 0 c a false l r (setValue_only _ _ _) Hok) as (O1 & V1 & V2 & (N1 & C1)).
    assert (A : alike (setValue (pred a, f (Value (base m) a)) a (tagged (base m))) (tagged b')).
    { split; [reflexivity|]. split; [reflexivity|]. split; [reflexivity|]. intros e. split; [reflexivity|]. split; [reflexivity|]. unfold b'. cbn. unfold tag. cbn.
      destruct (Nat.eq_dec e a) as [->|He]; [rewrite !upd_eq; reflexivity|rewrite !upd_ne by exact He; reflexivity]. }
    exists (plug c (B a l r)). split; [apply (proj1 (ok_plug _ _ _ _)), (alike_ok _ _ _ _ _ A), O1|].
    rewrite view_plug, (alike_cview _ _ _ A), (alike_view _ _ _ A), C1. cbn [nd view] in *. rewrite V1, V2. mm. reflexivity.
  Qed.

  Lemma putLoop_ok o k v lk x s : forall c m n p q t' res, s <> L -> ok (tagged (base m)) 0 c s -> (hgt s <= n)%nat ->
    dirs (Direct m) lk -> next (base m) = S x ->
    (z <- TreelistModel.put cmp (hitOf o) x k v p q (view (tagged (base m)) s) ;; putUp (cview (tagged (base m)) c) z) = Some (t', res) ->
    putDone (putLoop cmp 0 o k v n (pt s) (addr p) (addr q) m) lk x res t'.
  Proof.
    assert (Hgo : forall a d u y c m n p q pp qq t' res, pp = addr p -> qq = addr q ->
      (forall c m n p q t' res, u <> L -> ok (tagged (base m)) 0 c u -> (hgt u <= n)%nat ->
        dirs (Direct m) lk -> next (base m) = S x ->
        (z <- TreelistModel.put cmp (hitOf o) x k v p q (view (tagged (base m)) u) ;; putUp (cview (tagged (base m)) c) z) = Some (t', res) ->
        putDone (putLoop cmp 0 o k v n (pt u) (addr p) (addr q) m) lk x res t') ->
      ok (tagged (base m)) 0 c (nd a d u y) -> (hgt u <= n)%nat -> dirs (Direct m) lk -> next (base m) = S x ->
      (z <- TreelistModel.put cmp (hitOf o) x k v p q (view (tagged (base m)) u) ;; putUp (cview (tagged (base m)) ((a, d, y) :: c)) z) = Some (t', res) ->
      putDone ((let? child := lift (rdKid (Some a) d) in
          if negb (isNil child) then putLoop cmp 0 o k v n child pp qq
          else attachNode 0 (Some a) d k v pp qq ;? pure false) m) lk x res t').
    { intros a d u y c m n p q pp qq t' res -> -> IH Hok Hn Hd Hx Ht. rewrite ok_down in Hok. destruct (ok_kid _ _ _ _ _ _ _ Hok) as (Kx & Ky).
      erewrite run_tbind by (rewrite lift_kid; change (Children (base m)) with (Children (tagged (base m))); rewrite Kx; reflexivity).
      destruct u as [|e xl xr].
      - cbn [pt isNil negb]. cbn [view TreelistModel.put] in Ht. unfold putUp in Ht. cbn [snd fst] in Ht.
        destruct (climbs _ _) as [(t2, z)|] eqn:Ec; [|discriminate]. injection Ht as <- <-. cbn [fst snd].
        destruct (attach_ok m lk x c a d y k v p q t2 z Hok Hd Hx Ec) as (m' & R & S' & D' & N').
        exists m'. split; [|exact S']. split; [|auto]. unfold tends in *. destruct z; try (erewrite run_tbind by exact R; reflexivity). erewrite fail_tbind by exact R; reflexivity.
      - apply (IH _ _ _ _ _ _ _ ltac:(discriminate) Hok Hn Hd Hx Ht). }
    induction s as [|a l IHl r IHr]; intros c m n p q t' res Hs Hok Hn Hd Hx Ht; [congruence|]. clear Hs.
    cbn [hgt] in Hn. destruct n as [|n]; [lia|]. cbn [putLoop pt]. erewrite run_tbind by apply lift_rd.
    cbn [view TreelistModel.put] in Ht. cbv zeta in Ht |- *. change (Key (tagged (base m)) a) with (Key (base m) a) in Ht.
    destruct (ok_notin _ _ _ a false l r Hok) as (_ & _ & _ & Ha0).
    assert (Ea : Some a = addr (Some (pred a))) by (cbn; f_equal; lia).
    change (Value (tagged (base m)) a) with (pred a, Value (base m) a) in Ht. cbv beta iota in Ht.
    destruct (cmp k (Key (base m) a) <? 0).
    - apply (Hgo a false l r c m n p (Some (pred a)) (addr p) (Some a) t' res eq_refl Ea); [exact IHl|exact Hok|lia|exact Hd|exact Hx|]. rewrite <- Ht.
      destruct (TreelistModel.put cmp (hitOf o) x k v p (Some (pred a)) (view (tagged (base m)) l)) as [(l', [|p1 q1 st])|]; cbv beta iota; [reflexivity| |reflexivity].
      unfold putUp. cbn [snd fst cview map climbs fview tfill tnd]. 
      change (Value (tagged (base m)) a) with (pred a, Value (base m) a).
      destruct (TreelistModel.fixPut _ _) as [(t2, st2)|]; reflexivity.
    - destruct (cmp k (Key (base m) a) >? 0).
      + apply (Hgo a true r l c m n (Some (pred a)) q (Some a) (addr q) t' res Ea eq_refl); [exact IHr|exact Hok|lia|exact Hd|exact Hx|]. rewrite <- Ht.
        destruct (TreelistModel.put cmp (hitOf o) x k v (Some (pred a)) q (view (tagged (base m)) r)) as [(l', [|p1 q1 st])|]; cbv beta iota; [reflexivity| |reflexivity].
        unfold putUp. cbn [snd fst cview map climbs fview tfill tnd]. 
        change (Value (tagged (base m)) a) with (pred a, Value (base m) a).
        destruct (TreelistModel.fixPut _ _) as [(t2, st2)|]; reflexivity.
      + unfold putUp in Ht. cbn [fst snd] in Ht. injection Ht as <- <-. destruct o as [f|]; cbn [hitOf].
        * erewrite run_tbind by apply lift_rd. erewrite run_tbind by reflexivity. eexists. split; [split; [reflexivity|cbn [base Direct next setValue]; auto]|].
          cbn [base]. apply put_value, Hok.
        * exists m. split; [auto|]. exists (plug c (B a l r)). split; [apply (proj1 (ok_plug _ _ _ _)); exact Hok|]. rewrite view_plug. reflexivity.
  Qed.

  Lemma putWith_ok m s k v ins ex o s' r : trep m s -> TreelistModel.putWith cmp k v ins ex (hitOf o) s = Some (s', r) ->
    exists m', tanswer (putWith cmp 0 k v ins ex o) TBool m = Some (m', r) /\ trep m' s'.
  Proof.
    intros [(sh & Hok & Hv) Hd Hn] Ht. unfold TreelistModel.putWith in Ht. rewrite <- Hv in Ht.
    destruct (TreelistModel.put _ _ _ _ _ _ _ _) as [(t, res)|] eqn:Ep; [|discriminate]. injection Ht as Ht.
    assert (Kr : Children (base m) 0%nat false = pt sh) by (apply (ok_c _ _ _ _ Hok)).
    unfold tanswer, putWith. unfold getRoot. erewrite run_tbind by (rewrite lift_kid, Kr; reflexivity).
    destruct sh as [|a l r0].
    - cbn [pt isNil]. cbn in Ep. injection Ep as <- <-. injection Ht as <- <-.
      unfold initRootNode, talloc. unfold tbind at 1 2. unfold alloc. cbv beta iota. erewrite run_tbind by reflexivity.
      set (b1 := setKid _ _ _ _). cbn [Direct]. set (dir0 := upd _ _ _).
      erewrite run_tbind by reflexivity. 
      destruct (alloc_ok (tagged (base m)) 0 [] k (fresh s, v) Hok) as (g1 & R1 & O1 & V1 & C1). cbn [IndexHeapProofs.top cdir] in R1.
      specialize (R1 _ (fun p g => Ret p g)). unfold alloc in R1. cbn [bind wr] in R1. unfold bind in R1. injection R1 as R1.
      eexists. split; [reflexivity|]. constructor; cbn [base Direct setDir TreelistModel.top TreelistModel.lks TreelistModel.fresh].
      + exists (B (next (base m)) L L).
        assert (A1 : alike g1 (tagged b1)).
        { rewrite <- R1. unfold b1. split; [reflexivity|]. split; [reflexivity|]. split; [reflexivity|]. intros e. split; [reflexivity|]. split; [reflexivity|].
          cbn. unfold tag. cbn. destruct (Nat.eq_dec e (next (base m))) as [->|He]; [rewrite !upd_eq, Hn; reflexivity|rewrite !upd_ne by exact He; reflexivity]. }
        split; [apply (alike_ok _ _ _ _ _ A1 O1)|]. rewrite (alike_view _ _ _ A1). exact V1.
      + rewrite Hn. unfold TreelistModel.attachLinks, dir0. rewrite Hn. destruct Hd as (H1 & H2). split.
        * intros i b. cbn [Nat.eqb andb]. cbn [TreelistModel.setd TreelistModel.sete TreelistModel.d].
          destruct (Nat.eqb_spec i (fresh s)) as [->|Hi]; [rewrite upd_eq; destruct b; reflexivity|rewrite upd_ne by lia; cbn [andb]; apply H1].
        * intros b. cbn [Nat.eqb andb TreelistModel.setd TreelistModel.sete TreelistModel.e]. destruct b; reflexivity.
      + unfold b1. cbn. rewrite Hn. reflexivity.
    - cbn [pt isNil]. unfold tfueled.
      pose proof (ok_fuel _ _ _ _ Hok) as Hf. cbn [length Nat.add] in Hf. change (next (tagged (base m))) with (next (base m)) in Hf.
      destruct (putLoop_ok o k v (lks s) (fresh s) (B a l r0) [] m (S (next (base m))) None None t res) as (m' & Hr & s2 & O2 & V2);
        [discriminate|exact Hok|lia|exact Hd|exact Hn|rewrite Ep; unfold putUp; cbn [fst snd cview map climbs tplug]; destruct res; reflexivity|].
      cbn [addr option_map] in Hr. destruct res as [|p q z].
      + destruct Hr as (R & D & N'). erewrite run_tbind by exact R. cbn [pure]. injection Ht as <- <-. exists m'. split; [reflexivity|]. constructor; [exists s2; auto|exact D|exact N'].
      + destruct Hr as (R & D & N'). injection Ht as <- <-. unfold tends in R.
        exists m'. split; [|constructor; [exists s2; auto|exact D|exact N']].
        destruct z; try (erewrite run_tbind by exact R; reflexivity). erewrite fail_tbind by exact R; reflexivity.
  Qed.
End Put.
