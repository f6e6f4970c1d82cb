(** tree/indextree in memory: reading, and the assignments of Put, Set, Upsert, Remove and RemoveIndex to what was found. *)
From Coq Require Import Permutation.
From Verif Require Import Base Bind Machine AvlTree AvlModel AvlSpec IndexSpec IndexModel.
From Verif Require Import IndexHeapModel IndexHeapProofs IndexHeapPutProofs.
Local Open Scope Z_scope.

Section Read.
  Context {K V : Type} (cmp : K -> K -> Z).
  Notation mem := (mem K V).
  Notation tree := (tree K V).
  Notation tframe := (tframe (K := K) (V := V)).
  Implicit Types m : mem.

  Lemma plug_snoc c a d y s : plug (c ++ [(a, d, y)]) s = nd a d (plug c s) y.
  Proof. rewrite plug_app. reflexivity. Qed.
  Lemma tplug_app (C1 C2 : list tframe) t : tplug (C1 ++ C2) t = tplug C2 (tplug C1 t).
  Proof. revert t. induction C1 as [|f C1 IH]; intros t; [reflexivity|apply IH]. Qed.
  Lemma tplug_snoc (C : list tframe) f t : tplug (C ++ [f]) t = tfill f (tplug C t).
  Proof. apply tplug_app. Qed.
  Lemma cview_app m c1 c2 : cview m (c1 ++ c2) = cview m c1 ++ cview m c2.
  Proof. apply map_app. Qed.

  (** fixRemoveSize *)
  Definition dec (f : tframe) : tframe := let '(s, k, v, d, y) := f in (s - 1, k, v, d, y).
  Definition decs (C : list tframe) : list tframe := map dec C.

  Lemma getNodeLoop_ok k m s : forall n, body m s -> (hgt s < n)%nat ->
    (IndexModel.getNode cmp k (view m s) = E /\ getNodeLoop cmp k n (pt s) m = Ret None m /\
       IndexModel.removeKey cmp k (view m s) = Some (view m s, None)) \/
    (exists c1 a l r, s = plug c1 (B a l r) /\ IndexModel.getNode cmp k (view m s) = view m (B a l r) /\
       getNodeLoop cmp k n (pt s) m = Ret (Some a) m /\
       (forall v, IndexModel.setValue cmp k v (view m s) = tplug (cview m c1) (N (Size m a) (Key m a) v (view m l) (view m r))) /\
       IndexModel.removeKey cmp k (view m s) =
         (t <- IndexModel.removeNode (view m (B a l r)) ;; Some (tplug (decs (cview m c1)) t, Some (Value m a)))).
  Proof.
    induction s as [|a l IHl r IHr]; intros n Hb Hn; (destruct n as [|n]; [lia|]).
    - left. auto.
    - cbn [hgt] in Hn. destruct Hb as (Kl & Kr & _ & _ & Bl & Br). cbn [getNodeLoop pt isNil]. erewrite run_bind by apply rd_ok.
      cbn [view IndexModel.getNode IndexModel.setValue IndexModel.removeKey]. cbv zeta.
      destruct (cmp k (Key m a) <? 0).
      + erewrite run_bind by (rewrite rdKid_ok, Kl; reflexivity).
        destruct (IHl n Bl ltac:(lia)) as [(H1 & H2 & H3)|(c1 & b & bl & br & H0 & H1 & H2 & H3 & H4)].
        * left. rewrite H3. auto.
        * right. exists (c1 ++ [(a, false, r)]), b, bl, br. rewrite plug_snoc, cview_app. cbn [nd cview map fview].
          split; [congruence|]. split; [exact H1|]. split; [exact H2|]. split; [intros v; rewrite tplug_snoc, H3; reflexivity|].
          rewrite H4. destruct (IndexModel.removeNode _); [|reflexivity]. unfold decs. rewrite map_app. cbn [map dec].
          rewrite tplug_snoc. reflexivity.
      + destruct (cmp k (Key m a) >? 0).
        * erewrite run_bind by (rewrite rdKid_ok, Kr; reflexivity).
          destruct (IHr n Br ltac:(lia)) as [(H1 & H2 & H3)|(c1 & b & bl & br & H0 & H1 & H2 & H3 & H4)].
          -- left. rewrite H3. auto.
          -- right. exists (c1 ++ [(a, true, l)]), b, bl, br. rewrite plug_snoc, cview_app. cbn [nd cview map fview].
             split; [congruence|]. split; [exact H1|]. split; [exact H2|]. split; [intros v; rewrite tplug_snoc, H3; reflexivity|].
             rewrite H4. destruct (IndexModel.removeNode _); [|reflexivity]. unfold decs. rewrite map_app. cbn [map dec].
             rewrite tplug_snoc. reflexivity.
        * right. exists [], a, l, r. cbn [plug cview map tplug]. repeat (split; [reflexivity|]).
          cbn [view]. destruct (IndexModel.removeNode _); reflexivity.
  Qed.

  Lemma kidSize_ok m d a l r : body m (B a l r) -> 
    (let! w := rdKid (Some a) d in getSize w) m = Ret (kidSize d (view m (B a l r))) m.
  Proof.
    intros (Kl & Kr & _). erewrite run_bind by apply rdKid_ok. destruct d; [rewrite Kr|rewrite Kl]; rewrite getSize_ok; reflexivity.
  Qed.
  (** going down to the child [q] and reading the size of one of its children *)
  Lemma kid_step {X} m a d e s (f : ptr -> Z -> M K V X) : Children m a e = pt s -> body m s ->
    (let! q := rdKid (Some a) e in let! w := rdKid q d in let! z := getSize w in f q z) m =
      match s with L => Panic m | _ => f (pt s) (kidSize d (view m s)) m end.
  Proof.
    intros Hk Hb. erewrite run_bind by (rewrite rdKid_ok, Hk; reflexivity). destruct s as [|b bl br]; [reflexivity|].
    pose proof (kidSize_ok m d b bl br Hb) as X0. unfold bind in X0 |- *. cbn [pt]. destruct (rdKid (Some b) d m) as [w m1|m1|]; try discriminate.
    destruct (getSize w m1); try discriminate. injection X0 as -> ->. reflexivity.
  Qed.

  Lemma indexLoop_ok i m s : forall n idx, body m s -> (hgt s < n)%nat -> s <> L ->
    (IndexModel.indexLoop i idx (view m s) = None /\ indexLoop i n idx (pt s) m = Panic m /\
       IndexModel.removeIndexLoop i idx (view m s) = None) \/
    (exists c1 a l r, s = plug c1 (B a l r) /\ IndexModel.indexLoop i idx (view m s) = Some (Key m a, Value m a) /\
       indexLoop i n idx (pt s) m = Ret (Some a) m /\
       IndexModel.removeIndexLoop i idx (view m s) =
         (t <- IndexModel.removeNode (view m (B a l r)) ;; Some (tplug (decs (cview m c1)) t, Value m a))).
  Proof.
    induction s as [|a l IHl r IHr]; intros n idx Hb Hn Hs; (destruct n as [|n]; [lia|]); [congruence|]. clear Hs.
    cbn [hgt] in Hn. destruct Hb as (Kl & Kr & _ & _ & Bl & Br). cbn [indexLoop pt].
    cbn [view IndexModel.indexLoop IndexModel.removeIndexLoop].
    destruct (idx >? i).
    - rewrite (kid_step m a true false l _ Kl Bl).
      destruct l as [|b bl br]; [left; auto|]. set (s := B b bl br) in *.
      destruct (IHl n (idx - (kidSize true (view m s) + 1)) Bl ltac:(lia) ltac:(discriminate)) as [(H1 & H2 & H3)|(c1 & e & el & er & H0 & H1 & H2 & H3)].
      + left. rewrite H3. auto.
      + right. exists (c1 ++ [(a, false, r)]), e, el, er. rewrite plug_snoc, cview_app. cbn [nd cview map fview].
        split; [congruence|]. split; [exact H1|]. split; [exact H2|].
        rewrite H3. destruct (IndexModel.removeNode _); [|reflexivity]. unfold decs. rewrite map_app. cbn [map dec].
        rewrite tplug_snoc. reflexivity.
    - destruct (idx <? i).
      + rewrite (kid_step m a false true r _ Kr Br).
        destruct r as [|b bl br]; [left; auto|]. set (s := B b bl br) in *.
        destruct (IHr n (idx + (kidSize false (view m s) + 1)) Br ltac:(lia) ltac:(discriminate)) as [(H1 & H2 & H3)|(c1 & e & el & er & H0 & H1 & H2 & H3)].
        * left. rewrite H3. auto.
        * right. exists (c1 ++ [(a, true, l)]), e, el, er. rewrite plug_snoc, cview_app. cbn [nd cview map fview].
          split; [congruence|]. split; [exact H1|]. split; [exact H2|].
          rewrite H3. destruct (IndexModel.removeNode _); [|reflexivity]. unfold decs. rewrite map_app. cbn [map dec].
          rewrite tplug_snoc. reflexivity.
      + right. exists [], a, l, r. cbn [plug cview map tplug]. repeat (split; [reflexivity|]).
        cbn [view]. destruct (IndexModel.removeNode _); reflexivity.
  Qed.

  Lemma indexOfLoop_ok k m s : forall n idx, body m s -> (hgt s < n)%nat -> s <> L ->
    indexOfLoop cmp k n idx (pt s) m = Ret (IndexModel.indexOfLoop cmp k idx (view m s)) m.
  Proof.
    induction s as [|a l IHl r IHr]; intros n idx Hb Hn Hs; (destruct n as [|n]; [lia|]); [congruence|]. clear Hs.
    cbn [hgt] in Hn. destruct Hb as (Kl & Kr & _ & _ & Bl & Br). cbn [indexOfLoop pt view IndexModel.indexOfLoop].
    erewrite run_bind by apply rd_ok. cbv zeta.
    destruct (cmp k (Key m a) <? 0).
    - destruct l as [|b bl br]; [erewrite run_bind by (rewrite rdKid_ok, Kl; reflexivity); reflexivity|].
      pose proof (kid_step m a true false _ (fun q s => indexOfLoop cmp k n (idx - (s + 1)) q) Kl Bl) as X.
      erewrite run_bind in X |- * by (rewrite rdKid_ok, Kl; reflexivity). cbn [pt isNil] in X |- *. rewrite X.
      apply (IHl n _ Bl ltac:(lia)). discriminate.
    - destruct (cmp k (Key m a) >? 0).
      + destruct r as [|b bl br]; [erewrite run_bind by (rewrite rdKid_ok, Kr; reflexivity); reflexivity|].
        pose proof (kid_step m a false true _ (fun q s => indexOfLoop cmp k n (idx + (s + 1)) q) Kr Br) as X.
        erewrite run_bind in X |- * by (rewrite rdKid_ok, Kr; reflexivity). cbn [pt isNil] in X |- *. rewrite X.
        apply (IHr n _ Br ltac:(lia)). discriminate.
      + reflexivity.
  Qed.

  Lemma traverasl_ok go m s : forall n seen, body m s -> (hgt s < n)%nat ->
    traverasl go n (pt s) seen m = Ret (traverse go (view m s) seen) m.
  Proof.
    induction s as [|a l IHl r IHr]; intros n seen Hb Hn; (destruct n as [|n]; [lia|]); [reflexivity|].
    cbn [hgt] in Hn. destruct Hb as (Kl & Kr & _ & _ & Bl & Br). cbn [traverasl pt isNil view traverse].
    erewrite run_bind by (rewrite rdKid_ok, Kl; reflexivity). erewrite run_bind by (apply IHl; [exact Bl|lia]).
    destruct (traverse go (view m l) seen) as (s1, c1). cbn [fst snd]. destruct c1; cbn [negb]; [|reflexivity].
    erewrite run_bind by apply rd_ok. erewrite run_bind by apply rd_ok. cbv zeta.
    destruct (go (s1 ++ [(Key m a, Value m a)])); cbn [negb]; [|reflexivity].
    erewrite run_bind by (rewrite rdKid_ok, Kr; reflexivity). rewrite IHr; [|exact Br|lia].
    destruct (traverse go (view m r) _) as (s3, []); reflexivity.
  Qed.

  (** ** whole calls *)
  (** the tree with dummy node [root] is [t] *)
  Definition rep m (root : nat) (t : tree) : Prop := exists s, ok m root [] s /\ view m s = t.

  Lemma getRoot_ok m root s : ok m root [] s -> getRoot root m = Ret (pt s) m.
  Proof. intros H. apply ok_c in H. cbn [cok] in H. destruct H as (H & _). unfold getRoot. rewrite rdKid_ok, H. reflexivity. Qed.
  Lemma ok_hgt m root c s : ok m root c s -> (hgt s < S (next m))%nat.
  Proof. intros H. apply ok_fuel in H. lia. Qed.

  Lemma getNode_found k m root s : ok m root [] s ->
    (IndexModel.getNode cmp k (view m s) = E /\ getNode cmp root k m = Ret None m /\
       IndexModel.removeKey cmp k (view m s) = Some (view m s, None)) \/
    (exists c a l r, ok m root c (B a l r) /\ IndexModel.getNode cmp k (view m s) = view m (B a l r) /\
       getNode cmp root k m = Ret (Some a) m /\
       (forall v, IndexModel.setValue cmp k v (view m s) = tplug (cview m c) (N (Size m a) (Key m a) v (view m l) (view m r))) /\
       IndexModel.removeKey cmp k (view m s) =
         (t <- IndexModel.removeNode (view m (B a l r)) ;; Some (tplug (decs (cview m c)) t, Some (Value m a)))).
  Proof.
    intros Hok. unfold getNode. erewrite run_bind by (apply getRoot_ok, Hok). unfold fueled.
    destruct (getNodeLoop_ok k m s (S (next m)) (ok_b _ _ _ _ Hok) (ok_hgt _ _ _ _ Hok)) as [H|(c1 & a & l & r & H0 & H)]; [left; exact H|].
    right. exists c1, a, l, r. split; [|exact H]. apply ok_plug. rewrite <- H0. exact Hok.
  Qed.

  Lemma index_found i m root s : ok m root [] s ->
    (IndexModel.index i (view m s) = None /\ index root i m = Panic m /\ IndexModel.RemoveIndex i (view m s) = None) \/
    (exists c a l r, ok m root c (B a l r) /\ IndexModel.index i (view m s) = Some (Key m a, Value m a) /\
       index root i m = Ret (Some a) m /\
       IndexModel.RemoveIndex i (view m s) =
         (t <- IndexModel.removeNode (view m (B a l r)) ;; Some (tplug (decs (cview m c)) t, Value m a)) /\ s = plug c (B a l r)).
  Proof.
    intros Hok. unfold index. erewrite run_bind by (apply getRoot_ok, Hok). destruct s as [|b bl br]; [left; auto|].
    pose proof (ok_b _ _ _ _ Hok) as Hb. pose proof (kidSize_ok m false b bl br Hb) as X.
    set (s := B b bl br) in *. change (Some b) with (pt s) in X.
    assert (Hrun : forall X (f : Z -> M K V X), (let! w := rdKid (pt s) false in let! z := getSize w in f z) m = f (kidSize false (view m s)) m).
    { intros Y f. unfold bind in X |- *. destruct (rdKid (pt s) false m) as [w m1|m1|]; try discriminate.
      destruct (getSize w m1); try discriminate. injection X as -> ->. reflexivity. }
    rewrite Hrun. unfold fueled, IndexModel.index, IndexModel.RemoveIndex.
    destruct (indexLoop_ok i m s (S (next m)) (kidSize false (view m s)) Hb (ok_hgt _ _ _ _ Hok) ltac:(discriminate)) as [H|(c1 & a & l & r & H0 & H)]; [left; exact H|].
    right. exists c1, a, l, r. destruct H as (H1 & H2 & H3). split; [apply ok_plug; rewrite <- H0; exact Hok|]. repeat (split; [assumption|]). exact H0.
  Qed.
  Lemma Index_ok i m root s : ok m root [] s ->
    Index root i m = match IndexModel.index i (view m s) with None => Panic m | Some e => Ret e m end.
  Proof.
    intros Hok. unfold Index. destruct (index_found i m root s Hok) as [(H1 & H2 & _)|(c & a & l & r & _ & H1 & H2 & _)]; rewrite H1.
    - unfold bind. rewrite H2. reflexivity.
    - erewrite run_bind by exact H2. reflexivity.
  Qed.
  Lemma rootSize_ok {X} m root s (f : Z -> M K V X) : ok m root [] s -> s <> L ->
    (let! w := rdKid (pt s) false in let! z := getSize w in f z) m = f (kidSize false (view m s)) m.
  Proof.
    intros Hok Hs. destruct s as [|b bl br]; [congruence|].
    pose proof (ok_b _ _ _ _ Hok) as Hb. pose proof (kidSize_ok m false b bl br Hb) as X0. cbn [pt].
    unfold bind in X0 |- *. destruct (rdKid (Some b) false m) as [w m1|m1|]; try discriminate.
    destruct (getSize w m1); try discriminate. injection X0 as -> ->. reflexivity.
  Qed.
  Lemma IndexOf_ok k m root s : ok m root [] s -> IndexOf cmp root k m = Ret (IndexModel.IndexOf cmp k (view m s)) m.
  Proof.
    intros Hok. unfold IndexOf. erewrite run_bind by (apply getRoot_ok, Hok). destruct s as [|b bl br]; [reflexivity|].
    cbn [pt isNil]. change (Some b) with (pt (B b bl br)).
    rewrite (rootSize_ok m root (B b bl br) (fun z => fueled (fun n => indexOfLoop cmp k n z (pt (B b bl br)))) Hok ltac:(discriminate)).
    unfold fueled. apply indexOfLoop_ok; [apply (ok_b _ _ _ _ Hok)|apply (ok_hgt _ _ _ _ Hok)|discriminate].
  Qed.
  Lemma Traverse_ok go m root s : ok m root [] s -> Traverse root go m = Ret (fst (traverse go (view m s) [])) m.
  Proof.
    intros Hok. unfold Traverse. erewrite run_bind by (apply getRoot_ok, Hok).
    erewrite run_bind by (apply traverasl_ok; [apply (ok_b _ _ _ _ Hok)|apply (ok_hgt _ _ _ _ Hok)]). reflexivity.
  Qed.
  Lemma treeSize_ok m root s : ok m root [] s -> treeSize root m = Ret (IndexModel.getSize (view m s)) m.
  Proof. intros Hok. unfold treeSize. erewrite run_bind by (apply getRoot_ok, Hok). destruct s; reflexivity. Qed.
  Lemma Clear_ok m root s : ok m root [] s -> exists m', Clear root m = Ret tt m' /\ ok m' root [] L.
  Proof.
    intros [(H1 & H2) _ _ Hn Hl]. eexists. split; [reflexivity|]. constructor; cbn [cok pt hangs body caddrs addrs app].
    - mm. rewrite H2. auto.
    - exact I.
    - exact I.
    - constructor; [intros []|constructor].
    - intros a [<-|[]]. mm. apply Hl. left; reflexivity.
  Qed.
End Read.

Section Write.
  Context {K V : Type} (cmp : K -> K -> Z) (shift : Z).
  Notation mem := (mem K V).
  Notation tree := (tree K V).
  Implicit Types m : mem.

  (** the tree was empty *)
  Lemma putFirst m root k v X (x : X) : ok m root [] L ->
    exists m', (let! node := alloc (Some root) 1 k v in wr (setKid false node) (Some root) ;! ret x) m = Ret x m' /\ rep m' root (N 1 k v E E).
  Proof.
    intros Hok. destruct (alloc_ok m root [] k v Hok) as (m' & R & O & W & _). cbn [top cdir] in R. rewrite R.
    exists m'. split; [reflexivity|]. exists (B (next m) L L). auto.
  Qed.

  Lemma Put_ok k v m root t t' b : rep m root t -> IndexModel.Put cmp shift k v t = Some (t', b) ->
    exists m', Put cmp shift root k v m = Ret b m' /\ rep m' root t'.
  Proof.
    intros (s & Hok & <-) H. unfold Put. erewrite run_bind by (apply getRoot_ok, Hok). unfold IndexModel.Put in H.
    destruct s as [|a l r].
    - injection H as <- <-. cbn [pt isNil]. apply putFirst, Hok.
    - cbn [pt isNil]. destruct (put cmp shift (fun e => e) k v (view m (B a l r))) as [(t1, res)|] eqn:Ep; [|discriminate]. injection H as <- <-.
      destruct (putLoop_ok cmp shift root false k v (B a l r) [] m (S (next m)) t1 (match res with None => true | Some _ => false end)) as (m' & s' & R & O & W).
      + discriminate.
      + exact Hok.
      + pose proof (ok_hgt _ _ _ _ Hok). lia.
      + unfold hit. rewrite Ep. unfold putUp. cbn [fst snd cview map climbUp tplug]. destruct res; reflexivity.
      + exists m'. split; [|exists s'; auto]. unfold fueled. cbn [pt] in R. erewrite run_bind by exact R. unfold ret. destruct res; reflexivity.
  Qed.
  Lemma Set_ok k v m root t t' b : rep m root t -> IndexModel.Set_ cmp shift k v t = Some (t', b) ->
    exists m', Set_ cmp shift root k v m = Ret b m' /\ rep m' root t'.
  Proof.
    intros (s & Hok & <-) H. unfold Set_. erewrite run_bind by (apply getRoot_ok, Hok). unfold IndexModel.Set_ in H.
    destruct s as [|a l r].
    - injection H as <- <-. cbn [pt isNil]. apply putFirst, Hok.
    - cbn [pt isNil]. change (view m (B a l r)) with (N (Size m a) (Key m a) (Value m a) (view m l) (view m r)) in H.
      cbv beta iota in H. change (N (Size m a) (Key m a) (Value m a) (view m l) (view m r)) with (view m (B a l r)) in H.
      destruct (put cmp shift (fun _ => (k, v)) k v (view m (B a l r))) as [(t1, res)|] eqn:Ep; [|discriminate]. injection H as <- <-.
      destruct (putLoop_ok cmp shift root true k v (B a l r) [] m (S (next m)) t1 (match res with None => true | Some _ => false end)) as (m' & s' & R & O & W).
      + discriminate.
      + exact Hok.
      + pose proof (ok_hgt _ _ _ _ Hok). lia.
      + unfold hit. rewrite Ep. unfold putUp. cbn [fst snd cview map climbUp tplug]. destruct res; reflexivity.
      + exists m'. split; [|exists s'; auto]. exact R.
  Qed.
  Lemma Upsert_ok k v m root t t' b : rep m root t -> IndexModel.Upsert cmp shift k v t = Some (t', b) ->
    exists m', Upsert cmp shift root k v m = Ret b m' /\ rep m' root t'.
  Proof.
    intros (s & Hok & <-) H. unfold Upsert. unfold IndexModel.Upsert in H.
    destruct (getNode_found cmp k m root s Hok) as [(H1 & H2 & _)|(c & a & l & r & O & H1 & H2 & H3 & _)]; rewrite H1 in H; erewrite run_bind by exact H2.
    - cbn [isNil]. destruct (IndexModel.Put cmp shift k v (view m s)) as [(t1, b1)|] eqn:Ep; [|discriminate]. injection H as <- <-.
      destruct (Put_ok k v m root (view m s) t1 b1 ltac:(exists s; auto) Ep) as (m' & R & Rp). erewrite run_bind by exact R. exists m'. auto.
    - cbn [view isNil] in *. injection H as <- <-. erewrite run_bind by reflexivity. eexists. split; [reflexivity|].
      destruct (put_data m _ root c a false l r (setValue_only v a m) O) as (O1 & V1 & V2 & (N1 & C1)).
      exists (plug c (B a l r)). split; [apply (proj1 (ok_plug _ _ _ _)); exact O1|].
      rewrite view_plug, C1, H3. cbn [view]. rewrite V1, V2. mm. reflexivity.
  Qed.
End Write.

Section Nil.
  Context {K A : Type} (cmp : K -> K -> Z).
  Implicit Types m : mem K (option A).

  Lemma Get_ok k m root s : ok m root [] s ->
    Get cmp root k m = Ret (match IndexModel.getNode cmp k (view m s) with E => (None, false) | N _ _ v _ _ => (v, true) end) m.
  Proof.
    intros Hok. unfold Get. destruct (getNode_found cmp k m root s Hok) as [(H1 & H2 & _)|(c & a & l & r & _ & H1 & H2 & _)];
      rewrite H1; erewrite run_bind by exact H2; reflexivity.
  Qed.
  Lemma Values_ok m root s : ok m root [] s -> Values root m = Ret (IndexModel.Values (view m s)) m.
  Proof. intros Hok. unfold Values. erewrite run_bind by (apply Traverse_ok, Hok). reflexivity. Qed.
End Nil.
