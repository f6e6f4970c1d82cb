(** tree/treelist in memory: one call, and a run of calls, do as TreelistModel.v says. *)
From Verif Require IndexProofs.
From Verif Require Import Base Bind Machine OrderSpec SMapSpec SMapFacts AvlTree AvlSpec AvlModel AvlProofs AvlAny IndexSpec
  TreelistSpec TreelistModel TreelistLinks TreelistProofs TreelistSteps IndexModel
  IndexHeapModel IndexHeapProofs IndexHeapPutProofs IndexHeapReadProofs IndexHeapRemoveProofs IndexHeapCutProofs IndexHeapRangeProofs IndexHeapTrimProofs
  TreelistHeapModel TreelistHeapProofs TreelistHeapPutProofs TreelistHeapRemoveProofs TreelistHeapRangeProofs TreelistHeapTrimProofs.
Local Open Scope Z_scope.

Section Read.
  Context {K V W : Type} (cmp : K -> K -> Z) (root : nat).
  Notation agree := (agree (K := K) (V := V) (W := W)).
  Hint Resolve a_getSize a_getRoot : agr.
  Lemma a_getNode k : agree (getNode cmp root k) (getNode cmp root k).
  Proof.
    assert (H : forall n p, agree (getNodeLoop cmp k n p) (getNodeLoop cmp k n p)) by (induction n as [|n IH]; intros p; cbn [getNodeLoop]; agr).
    unfold getNode. agr.
  Qed.
  Lemma a_index i : agree (index root i) (index root i).
  Proof.
    assert (H : forall n z p, agree (indexLoop i n z p) (indexLoop i n z p)) by (induction n as [|n IH]; intros z p; cbn [indexLoop]; agr).
    unfold index. agr.
  Qed.
  Lemma a_IndexOf k : agree (IndexOf cmp root k) (IndexOf cmp root k).
  Proof.
    assert (H : forall n z p, agree (indexOfLoop cmp k n z p) (indexOfLoop cmp k n z p)) by (induction n as [|n IH]; intros z p; cbn [indexOfLoop]; agr).
    unfold IndexOf. agr.
  Qed.
  Lemma a_treeSize : agree (treeSize root) (treeSize root).
  Proof. unfold treeSize. agr. Qed.
End Read.

Section Steps.
  Context {K V : Type} (ltb : K -> K -> bool) (W : weak_order ltb) (cmp : K -> K -> Z) (Hcmp : plain_cmp ltb cmp).
  Notation tmem := (tmem K V).
  Notation tree := (AvlTree.tree K (nat * V)).
  Notation TRel := (TRel ltb).

  Lemma getNode_at k (g : mem K (nat * V)) s : ok g 0 [] s ->
    (IndexModel.getNode cmp k (view g s) = E /\ getNode cmp 0 k g = Ret None g) \/
    (exists c a l r, s = plug c (B a l r) /\ IndexModel.getNode cmp k (view g s) = view g (B a l r) /\ getNode cmp 0 k g = Ret (Some a) g).
  Proof.
    intros Hok. unfold getNode. erewrite run_bind by (apply getRoot_ok, Hok). unfold fueled.
    destruct (getNodeLoop_ok cmp k g s (S (next g)) (ok_b _ _ _ _ Hok) (ok_hgt _ _ _ _ Hok)) as [(H1 & H2 & _)|(c & a & l & r & H0 & H1 & H2 & _)]; [left; auto|].
    right. exists c, a, l, r. auto.
  Qed.

  Lemma slice_run a (m : tmem) : slice (Some a) m = Done (Key (base m) a, Value (base m) a) m.
  Proof. destruct m; reflexivity. Qed.
  Lemma slice_view x (b : mem K V) s kv : ~ In 0%nat (addrs s) -> TreelistModel.slice x (view (tagged b) s) = Some kv ->
    kv = (Key b (S x), Value b (S x)).
  Proof.
    induction s as [|a l IHl r IHr]; intros H0 H; [discriminate|]. cbn [view TreelistModel.slice] in H. cbn [addrs] in H0.
    change (Value (tagged b) a) with (pred a, Value b a) in H. cbv beta iota in H.
    assert (Nl : ~ In 0%nat (addrs l)) by (intros X; apply H0; right; apply in_or_app; auto).
    assert (Nr : ~ In 0%nat (addrs r)) by (intros X; apply H0; right; apply in_or_app; auto).
    destruct (Nat.eqb_spec (pred a) x) as [<-|Hx].
    - injection H as <-. destruct a as [|a]; [|reflexivity]. exfalso. apply H0. left. reflexivity.
    - destruct (TreelistModel.slice x (view (tagged b) l)) eqn:El; [injection H as <-; auto|auto].
  Qed.
  Lemma find_view x (b : mem K V) s : ~ In 0%nat (addrs s) -> In x (ids (elems (view (tagged b) s))) -> exists c l r, s = plug c (B (S x) l r).
  Proof.
    induction s as [|a l IHl r IHr]; intros H0 H; [destruct H|]. cbn [view elems] in H. cbn [addrs] in H0.
    assert (Nl : ~ In 0%nat (addrs l)) by (intros X; apply H0; right; apply in_or_app; auto).
    assert (Nr : ~ In 0%nat (addrs r)) by (intros X; apply H0; right; apply in_or_app; auto).
    rewrite ids_app, ids_cons in H. apply in_app_or in H as [H|[H|H]].
    - destruct (IHl Nl H) as (c & l1 & r1 & ->). exists (c ++ [(a, false, r)]), l1, r1. rewrite plug_snoc. reflexivity.
    - change (pred a = x) in H. exists [], l, r. destruct a as [|a]; [exfalso; apply H0; left; reflexivity|]. cbn in H. subst. reflexivity.
    - destruct (IHr Nr H) as (c & l1 & r1 & ->). exists (c ++ [(a, true, l)]), l1, r1. rewrite plug_snoc. reflexivity.
  Qed.

  Lemma root_zero (g : mem K (nat * V)) s : ok g 0 [] s -> ~ In 0%nat (addrs s).
  Proof. intros H X. pose proof (ok_n _ _ _ _ H) as Hn. apply NoDup_cons_iff in Hn as (Hn & _). apply Hn. exact X. Qed.

  (** removing the node at an address of the tree *)
  Lemma removeAddr stale (m : tmem) (s : tl K V) M x0 c a l r : trep m s -> TRel stale s M ->
    ok (tagged (base m)) 0 [] x0 -> view (tagged (base m)) x0 = TreelistModel.top s -> x0 = plug c (B a l r) ->
    exists s' m', TreelistModel.removeNode (pred a) s = Some (s', TSlice (Some (Key (base m) a, Value (base m) a))) /\
      removeNode 0 (Some a) m = Done (Key (base m) a, Value (base m) a) m' /\ trep m' s'.
  Proof.
    intros [_ Hd Hn] HR Hok Hv ->. pose proof HR as (_ & _ & _ & Hnd & _).
    assert (Ht : tplug (cview (tagged (base m)) c) (view (tagged (base m)) (B a l r)) = TreelistModel.top s) by (rewrite <- view_plug; exact Hv).
    assert (O : ok (tagged (base m)) 0 c (B a l r)) by (apply ok_plug; exact Hok).
    assert (Hin : In (pred a) (ids (elems (TreelistModel.top s)))).
    { rewrite <- Ht. apply in_plug. cbn [view elems]. rewrite ids_app, ids_cons, in_app_iff. right. left. reflexivity. }
    unfold ids in Hin. apply in_map_iff in Hin as ((k, (x, v)) & Ex & Hin). cbn [fst snd] in Ex. subst x. apply in_split in Hin as (P & Q & Es).
    destruct (removeNode_rel ltb stale s M P k _ v Q HR Es) as (s' & E1 & _).
    destruct (removeNode_ok m s c a l r s' _ O Ht Hd Hn Hnd E1) as (m' & R & Eo & Rep). exists s', m'. rewrite E1, Eo. auto.
  Qed.

  Definition steps (m : tmem) (s : tl K V) (o : tl_op K V) (stale : bool) : Prop :=
    exists m' r, thstep cmp m o = Some (m', r) /\ trep m' (fst (tl_step cmp s o)) /\ (end_ok stale o -> r = snd (tl_step cmp s o)).

  Lemma s_put stale (m : tmem) (s : tl K V) M k v ins ex o : trep m s -> TRel stale s M ->
    exists m' r, tanswer (putWith cmp 0 k v ins ex o) TBool m = Some (m', r) /\
      trep m' (fst (TreelistModel.orPanic s (TreelistModel.putWith cmp k v ins ex (hitOf o) s))) /\
      r = snd (TreelistModel.orPanic s (TreelistModel.putWith cmp k v ins ex (hitOf o) s)).
  Proof.
    intros Hr HR.
    assert (H : exists s' r, TreelistModel.putWith cmp k v ins ex (hitOf o) s = Some (s', r)).
    { destruct (TreelistSteps.putWith_ok ltb W cmp Hcmp stale s M k v ins ex (hitOf o) HR) as [(_ & s' & H)|(s' & H & _)]; eexists _, _; exact H. }
    destruct H as (s' & r & H). destruct (TreelistHeapPutProofs.putWith_ok cmp m s k v ins ex o s' r Hr H) as (m' & R & Rep).
    exists m', r. rewrite H. auto.
  Qed.
  Lemma s_remove stale (m : tmem) (s : tl K V) M k : trep m s -> TRel stale s M ->
    exists m' out, Remove cmp 0 k m = Done out m' /\ exists s', TreelistModel.Remove cmp k s = Some (s', TSlice out) /\ trep m' s'.
  Proof.
    intros Hr HR. destruct (tr_tree _ _ Hr) as (x0 & Hok & Hv). unfold Remove, TreelistModel.Remove, TreelistModel.getNode. rewrite <- Hv.
    destruct (getNode_at k _ _ Hok) as [(H1 & H2)|(c & a & l & r & H0 & H1 & H2)]; rewrite H1;
      (erewrite run_tbind by (apply (read_tagged _ _ _ _ (a_getNode cmp 0 k) H2))); cbn [isNil].
    - exists m, None. split; [reflexivity|]. exists s. auto.
    - destruct (removeAddr stale m s M x0 c a l r Hr HR Hok Hv H0) as (s' & m' & E1 & E2 & E3).
      erewrite run_tbind by exact E2. eexists m', _. split; [reflexivity|]. exists s'. split; [exact E1|exact E3].
  Qed.
  Lemma s_removeEnd stale (m : tmem) (s : tl K V) M d : trep m s -> TRel stale s M ->
    exists m' out, removeEnd 0 d m = Done out m' /\ exists s', TreelistModel.removeEnd d s = Some (s', TSlice out) /\ trep m' s'.
  Proof.
    intros Hr HR. destruct (tr_tree _ _ Hr) as (x0 & Hok & Hv). unfold removeEnd, TreelistModel.removeEnd.
    erewrite run_tbind by (apply getRootT, Hok). destruct x0 as [|b bl br]; cbn [pt isNil].
    - rewrite <- Hv. cbn [view]. exists m, None. split; [reflexivity|]. exists s. auto.
    - erewrite run_tbind by (apply (rdDir_root m (lks s)), (tr_dirs _ _ Hr)).
      assert (Hne : TreelistModel.top s <> E) by (rewrite <- Hv; discriminate).
      pose proof (rel_good ltb stale s M HR Hne) as (_ & _ & _ & _ & L1 & L2 & _).
      assert (Hx : exists x, e (lks s) d = Some x /\ In x (ids (elems (TreelistModel.top s)))).
      { destruct (elems (TreelistModel.top s)) as [|y ys] eqn:Ee; [apply elems_nil in Ee; congruence|].
        destruct d; [rewrite L2|rewrite L1].
        - destruct (last_error (ids (y :: ys))) as [x|] eqn:El; [exists x; split; [reflexivity|]; apply last_in, El|].
          exfalso. unfold last_error in El. destruct (rev (ids (y :: ys))) eqn:Er; [|discriminate].
          apply (f_equal (@length _)) in Er. rewrite rev_length in Er. discriminate.
        - cbn. eexists. split; [reflexivity|]. left. reflexivity. }
      destruct Hx as (x & Hx & Hin). rewrite Hx. cbn [addr option_map].
      destruct (TreelistModel.top s) as [|] eqn:Et; [congruence|]. rewrite <- Et in *.
      destruct (find_view x (base m) (B b bl br) (root_zero _ _ Hok)) as (c & l & r & E0); [rewrite Hv; exact Hin|].
      destruct (removeAddr stale m s M _ c (S x) l r Hr HR Hok Hv E0) as (s' & m' & E1 & E2 & E3).
      erewrite run_tbind by exact E2. eexists m', _. split; [reflexivity|]. exists s'. split; [exact E1|exact E3].
  Qed.
  Lemma s_removeIndex stale (m : tmem) (s : tl K V) M i : trep m s -> TRel stale s M ->
    match TreelistModel.RemoveIndex i s with
    | None => RemoveIndex 0 i m = Fail m
    | Some (s', out) => exists m' kv, RemoveIndex 0 i m = Done kv m' /\ out = TSlice kv /\ trep m' s'
    end.
  Proof.
    intros Hr HR. destruct (tr_tree _ _ Hr) as (x0 & Hok & Hv). unfold RemoveIndex, TreelistModel.RemoveIndex, TreelistModel.index. rewrite <- Hv.
    destruct (index_found i _ _ _ Hok) as [(H1 & H2 & _)|(c & a & l & r & _ & H1 & H2 & _ & H0)]; rewrite H1.
    - unfold tbind. rewrite (panics_tagged _ _ _ (a_index 0 i) H2). reflexivity.
    - change (Value (tagged (base m)) a) with (pred a, Value (base m) a). cbv beta iota.
      destruct (removeAddr stale m s M x0 c a l r Hr HR Hok Hv H0) as (s' & m' & E1 & E2 & E3). rewrite E1.
      erewrite run_tbind by (apply (read_tagged _ _ _ _ (a_index 0 i) H2)). cbn [isNil].
      erewrite run_tbind by exact E2. eexists m', _. split; [reflexivity|]. auto.
  Qed.
  Lemma s_index (m : tmem) (s : tl K V) i : trep m s ->
    Index 0 i m = match TreelistModel.index i (TreelistModel.top s) with None => Fail m | Some (k, (_, v)) => Done (k, v) m end.
  Proof.
    intros Hr. destruct (tr_tree _ _ Hr) as (x0 & Hok & Hv). unfold Index, TreelistModel.index. rewrite <- Hv.
    destruct (index_found i _ _ _ Hok) as [(H1 & H2 & _)|(c & a & l & r & _ & H1 & H2 & _)]; rewrite H1.
    - unfold tbind. rewrite (panics_tagged _ _ _ (a_index 0 i) H2). reflexivity.
    - erewrite run_tbind by (apply (read_tagged _ _ _ _ (a_index 0 i) H2)). apply slice_run.
  Qed.
  Lemma s_get (m : tmem) (s : tl K V) k : trep m s ->
    Get cmp 0 k m = Done (match TreelistModel.getNode cmp k (TreelistModel.top s) with E => None | N _ _ (_, v) _ _ => Some v end) m.
  Proof.
    intros Hr. destruct (tr_tree _ _ Hr) as (x0 & Hok & Hv). unfold Get, TreelistModel.getNode. rewrite <- Hv.
    destruct (getNode_at k _ _ Hok) as [(H1 & H2)|(c & a & l & r & H0 & H1 & H2)]; rewrite H1;
      (erewrite run_tbind by (apply (read_tagged _ _ _ _ (a_getNode cmp 0 k) H2))); cbn [isNil]; [reflexivity|].
    erewrite run_tbind by apply lift_rd. reflexivity.
  Qed.
  Lemma s_end stale (m : tmem) (s : tl K V) M d : trep m s -> TRel stale s M ->
    exists r, tanswer (endOf 0 d) TSlice m = Some (m, r) /\ (stale = false -> r = endSlice d s).
  Proof.
    intros Hr HR. destruct (tr_tree _ _ Hr) as (x0 & Hok & Hv). unfold tanswer, endOf, endSlice.
    erewrite run_tbind by (apply (rdDir_root m (lks s)), (tr_dirs _ _ Hr)).
    destruct (e (lks s) d) as [x|] eqn:Ex; cbn [addr option_map isNil]; [|eexists; split; reflexivity].
    erewrite run_tbind by apply slice_run. eexists. split; [reflexivity|]. intros ->.
    pose proof HR as (_ & _ & _ & Hnd & _ & HL & _). destruct (HL eq_refl) as (L1 & L2 & _).
    assert (Hin : In x (ids (elems (TreelistModel.top s)))) by (destruct d; [apply last_in; congruence|apply hd_in; congruence]).
    unfold ids in Hin. apply in_map_iff in Hin as ((k, (x1, v)) & E1 & Hin). cbn [fst snd] in E1. subst x1.
    pose proof (slice_ok x k v _ Hnd Hin) as Es. rewrite Es. rewrite <- Hv in Es.
    apply slice_view in Es; [|apply (root_zero _ _ Hok)]. rewrite Es. reflexivity.
  Qed.
  Lemma elems_base (b : mem K V) s : elems (view b s) = pk (elems (view (tagged b) s)).
  Proof.
    induction s as [|a l IHl r IHr]; [reflexivity|]. cbn [view elems]. rewrite pk_app, pk_cons, IHl, IHr. reflexivity.
  Qed.
  Lemma s_traverse (m : tmem) (s : tl K V) go : trep m s -> lift (Traverse 0 go) m = Done (TreelistModel.Traverse go (TreelistModel.top s)) m.
  Proof.
    intros Hr. destruct (tr_tree _ _ Hr) as (x0 & Hok & Hv). apply lift_read. rewrite (Traverse_ok go _ _ _ (ok_base _ _ _ _ Hok)).
    f_equal. unfold TreelistModel.Traverse.
    destruct (traverse_ok go (view (base m) x0) []) as (X1 & _). rewrite X1.
    destruct (traverse_ok (fun seen => go (map plainKV seen)) (TreelistModel.top s) []) as (X2 & _). rewrite X2.
    rewrite elems_base, Hv. apply (pk_visit go (elems (TreelistModel.top s)) []).
  Qed.

  Lemma s_step stale (m : tmem) (s : tl K V) M o : trep m s -> TRel stale s M -> steps m s o stale.
  Proof.
    intros Hr HR. pose proof HR as (Ee & Hz & Hs & Hn & Hf & HL & Hst). assert (Hs' := Hs). rewrite <- Ee in Hs'. apply pk_sorted in Hs'.
    destruct (tr_tree _ _ Hr) as (x0 & Hok & Hv). unfold steps, thstep. destruct o; cbn [thstepAt tl_step end_ok fst snd].
    - destruct (s_put stale m s M k v true false None Hr HR) as (m' & r & H1 & H2 & H3). exists m', r. auto.
    - destruct (s_put stale m s M k v false true (Some (fun _ => v)) Hr HR) as (m' & r & H1 & H2 & H3). exists m', r. auto.
    - destruct (s_put stale m s M k v false true (Some f) Hr HR) as (m' & r & H1 & H2 & H3). exists m', r. auto.
    - unfold tanswer. rewrite (s_get m s k Hr). eexists m, _. split; [reflexivity|]. auto.
    - destruct (s_remove stale m s M k Hr HR) as (m' & out & R & s' & E1 & E2). unfold tanswer. rewrite R, E1. eexists m', _. split; [reflexivity|]. auto.
    - pose proof (s_removeIndex stale m s M i Hr HR) as X. unfold tanswer. destruct (TreelistModel.RemoveIndex i s) as [(s', out)|].
      + destruct X as (m' & kv & -> & -> & E2). eexists m', _. split; [reflexivity|]. auto.
      + rewrite X. eexists m, _. split; [reflexivity|]. auto.
    - destruct (s_end stale m s M false Hr HR) as (r & H1 & H2). exists m, r. auto.
    - destruct (s_end stale m s M true Hr HR) as (r & H1 & H2). exists m, r. auto.
    - destruct (s_removeEnd stale m s M false Hr HR) as (m' & out & R & s' & E1 & E2). unfold tanswer. rewrite R, E1. eexists m', _. split; [reflexivity|]. auto.
    - destruct (s_removeEnd stale m s M true Hr HR) as (m' & out & R & s' & E1 & E2). unfold tanswer. rewrite R, E1. eexists m', _. split; [reflexivity|]. auto.
    - unfold tanswer. rewrite (s_index m s i Hr). destruct (TreelistModel.index i (TreelistModel.top s)) as [(k, (x, v))|]; eexists m, _; (split; [reflexivity|]; auto).
    - unfold tanswer. rewrite (read_tagged _ _ m _ (a_IndexOf cmp 0 k) (IndexOf_ok cmp k _ _ _ Hok)). rewrite Hv. eexists m, _. split; [reflexivity|]. auto.
    - unfold tanswer. rewrite (read_tagged _ _ m _ (a_treeSize 0) (treeSize_ok _ _ _ Hok)). rewrite Hv. eexists m, _. split; [reflexivity|]. auto.
    - unfold tanswer. rewrite (s_traverse m s go Hr). eexists m, _. split; [reflexivity|]. auto.
    - unfold tanswer. rewrite (s_traverse m s (fun _ => true) Hr). eexists m, _. split; [reflexivity|]. auto.
    - (* Clear *)
      destruct (lift_tagged (wr (setKid false None) (Some 0%nat)) (wr (setKid false None) (Some 0%nat)) m tt _ (a_setKid _ _ _) (a_setKid _ _ _) eq_refl) as (b & R & Eg & _).
      unfold tanswer, Clear. erewrite run_tbind by exact R.
      destruct (wrDir_root (TMem b (Direct m)) _ false None (tr_dirs _ _ Hr)) as (dir1 & R1 & D1). change (addr None) with (None : ptr) in R1. erewrite run_tbind by exact R1. cbn [base].
      destruct (wrDir_root (TMem b dir1) _ true None D1) as (dir2 & R2 & D2). change (addr None) with (None : ptr) in R2. rewrite R2. cbn [base].
      eexists _, _. split; [reflexivity|]. split; [|auto]. destruct (Clear_ok _ _ _ Hok) as (g & Rg & O). injection Rg as <-. rewrite Eg in O.
      constructor; cbn [base Direct TreelistModel.top lks fresh]; [exists L; split; [exact O|reflexivity]|exact D2|].
      rewrite <- (tr_next _ _ Hr). apply (f_equal next) in Eg. cbn in Eg. symmetry. exact Eg.
    - (* RemoveRange *)
      unfold TreelistModel.RemoveRange, tanswer, RemoveRange. rewrite Z.gtb_ltb. destruct (Z.ltb_spec 0 (cmp lo hi)) as [Hc|Hc].
      { eexists m, _. split; [reflexivity|]. auto. }
      destruct (Z.eqb_spec (cmp lo hi) 0) as [Hc0|Hc0].
      { destruct (s_remove stale m s M lo Hr HR) as (m' & out & R & s' & E1 & E2). erewrite run_tbind by exact R. rewrite E1.
        eexists m', _. split; [reflexivity|]. cbn [TreelistModel.orPanic fst snd]. split; [exact E2|]. intros _. destruct out; reflexivity. }
      assert (Hx : exists t x dd, TreelistModel.removeRange cmp (lks s) lo hi (TreelistModel.top s) = Some (t, x, dd)).
      { destruct (elems (TreelistModel.top s)) as [|y ys] eqn:E0; [rewrite (elems_nil _ E0); cbn; eauto|].
        assert (Hne : TreelistModel.top s <> E) by (intros X; rewrite X in E0; discriminate).
        rewrite <- E0 in *. pose proof (rel_good ltb stale s M HR Hne) as (_ & _ & _ & _ & HG').
        assert (El : ltb hi lo = false).
        { rewrite <- (IndexProofs.gt0 ltb W cmp Hcmp). rewrite Z.gtb_ltb. apply Z.ltb_ge. exact Hc. }
        destruct (removeRange_links ltb W cmp Hcmp (lks s) lo hi (TreelistModel.top s) El [] [] Hs' Hz) as (t & x & dd & E1 & _); [|eauto].
        cbn [app]. rewrite app_nil_r. exact HG'. }
      destruct Hx as (t & x & dd & Hx). destruct (RemoveRange_lt cmp m s lo hi t x dd Hr ltac:(lia) Hx) as (m' & R & Rep).
      unfold RemoveRange in R. rewrite Z.gtb_ltb, (proj2 (Z.ltb_ge _ _) Hc), (proj2 (Z.eqb_neq _ _) Hc0) in R. rewrite R, Hx.
      eexists m', _. split; [reflexivity|]. destruct dd as [(p, q)|]; cbn [TreelistModel.orPanic fst snd]; auto.
    - (* RemoveRangeByIndex *)
      unfold TreelistModel.RemoveRangeByIndex, tanswer. destruct (i >? j) eqn:Eij.
      { unfold RemoveRangeByIndex. rewrite Eij. eexists m, _. split; [reflexivity|]. auto. }
      rewrite Z.gtb_ltb in Eij. apply Z.ltb_ge in Eij.
      pose proof (RemoveRangeByIndex_le m s i j Hr Eij Hz) as X. destruct (TreelistModel.removeRangeAt (lks s) i j (kidSize false (TreelistModel.top s)) (TreelistModel.top s)) as [((t, x), (p, q))|].
      + destruct X as (m' & -> & Rep). eexists m', _. split; [reflexivity|]. auto.
      + rewrite X. eexists m, _. split; [reflexivity|]. auto.
    - (* Trim *)
      pose proof (TrimT_ok cmp lo hi m s Hr) as X. unfold TreelistModel.Trim, tanswer. destruct (IndexModel.Trim cmp lo hi (TreelistModel.top s)) as [t|].
      + destruct X as (m' & -> & Rep). eexists m', _. split; [reflexivity|]. auto.
      + rewrite X. eexists m, _. split; [reflexivity|]. auto.
    - (* TrimByIndex *)
      pose proof (TrimByIndexT_ok i j m s Hr) as X. unfold TreelistModel.TrimByIndex, tanswer. destruct (IndexModel.TrimByIndex i j (TreelistModel.top s)) as (t, good).
      destruct X as (m' & R & Rep). rewrite R. destruct good; (eexists m', _; split; [reflexivity|]; auto).
  Qed.

  Lemma trep_new zero zeroV : trep (tnew zero zeroV) (TreelistModel.new (K := K) (V := V)).
  Proof.
    constructor; [|split; reflexivity|reflexivity]. exists L. split; [|reflexivity].
    constructor; cbn [cok pt hangs body caddrs addrs app]; [split; reflexivity|exact I|exact I|repeat constructor; intros []|].
    intros a [<-|[]]. cbn. lia.
  Qed.
End Steps.
