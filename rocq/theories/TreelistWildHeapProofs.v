(** tree/treelist in memory: one call does as TreelistModel.v says, for any comparison function. *)
From Verif Require IndexProofs.
From Verif Require Import Base Bind Machine OrderSpec SMapSpec SMapFacts AvlTree AvlSpec AvlModel AvlProofs AvlAny IndexSpec
  TreelistSpec TreelistModel TreelistLinks TreelistProofs TreelistSteps IndexModel
  IndexHeapModel IndexHeapProofs IndexHeapPutProofs IndexHeapReadProofs IndexHeapRemoveProofs IndexHeapCutProofs IndexHeapRangeProofs IndexHeapTrimProofs
  TreelistHeapModel TreelistHeapProofs TreelistHeapPutProofs TreelistHeapRemoveProofs TreelistHeapRangeProofs TreelistHeapTrimProofs TreelistHeapStepProofs
  WildSpec TreelistWildSpec TreelistWildProofs.
Local Open Scope Z_scope.

Section Steps.
  Context {K V : Type} (cmp : K -> K -> Z).
  Notation tmem := (tmem K V).
  Notation fine s := (Good s (elems (TreelistModel.top s))).

  (** with an order in which everything is before everything every list is sorted *)
  Lemma fine_rel (s : tl K V) : fine s -> TRel (fun _ _ => true) false s (pk (elems (TreelistModel.top s))).
  Proof.
    intros H. apply good_rel; [exact H|]. generalize (elems (TreelistModel.top s)). induction l as [|y l IH]; constructor; auto. apply Forall_forall. auto.
  Qed.
  Lemma s_put_wild (m : tmem) (s : tl K V) k v ins ex o : trep m s -> fine s ->
    exists m' r, tanswer (putWith cmp 0 k v ins ex o) TBool m = Some (m', r) /\
      trep m' (fst (TreelistModel.orPanic s (TreelistModel.putWith cmp k v ins ex (hitOf o) s))) /\
      r = snd (TreelistModel.orPanic s (TreelistModel.putWith cmp k v ins ex (hitOf o) s)).
  Proof.
    intros Hr HG. destruct (putWith_wild cmp s k v ins ex (hitOf o) HG) as (s' & r & H & _).
    destruct (TreelistHeapPutProofs.putWith_ok cmp m s k v ins ex o s' r Hr H) as (m' & R & Rep). exists m', r. rewrite H. auto.
  Qed.
  Lemma s_step_wild (m : tmem) (s : tl K V) o : trep m s -> fine s ->
    exists m' r, thstep cmp m o = Some (m', r) /\ trep m' (fst (tl_step cmp s o)) /\ (end_ok false o -> r = snd (tl_step cmp s o)).
  Proof.
    intros Hr HG. pose proof (fine_rel s HG) as HR. pose proof HG as (_ & Hz & Hn & Hf & HL). set (M := pk (elems (TreelistModel.top s))) in *.
    destruct (tr_tree _ _ Hr) as (x0 & Hok & Hv). unfold thstep. destruct o; cbn [thstepAt tl_step end_ok fst snd].
    - destruct (s_put_wild m s k v true false None Hr HG) as (m' & r & H1 & H2 & H3). exists m', r. auto.
    - destruct (s_put_wild m s k v false true (Some (fun _ => v)) Hr HG) as (m' & r & H1 & H2 & H3). exists m', r. auto.
    - destruct (s_put_wild m s k v false true (Some f) Hr HG) as (m' & r & H1 & H2 & H3). exists m', r. auto.
    - unfold tanswer. rewrite (s_get cmp m s k Hr). eexists m, _. split; [reflexivity|]. auto.
    - destruct (s_remove (fun _ _ => true) cmp false m s M k Hr HR) as (m' & out & R & s' & E1 & E2). unfold tanswer. rewrite R, E1. eexists m', _. split; [reflexivity|]. auto.
    - pose proof (s_removeIndex (fun _ _ => true) false m s M i Hr HR) as X. unfold tanswer. destruct (TreelistModel.RemoveIndex i s) as [(s', out)|].
      + destruct X as (m' & kv & -> & -> & E2). eexists m', _. split; [reflexivity|]. auto.
      + rewrite X. eexists m, _. split; [reflexivity|]. auto.
    - destruct (s_end (fun _ _ => true) false m s M false Hr HR) as (r & H1 & H2). exists m, r. auto.
    - destruct (s_end (fun _ _ => true) false m s M true Hr HR) as (r & H1 & H2). exists m, r. auto.
    - destruct (s_removeEnd (fun _ _ => true) false m s M false Hr HR) as (m' & out & R & s' & E1 & E2). unfold tanswer. rewrite R, E1. eexists m', _. split; [reflexivity|]. auto.
    - destruct (s_removeEnd (fun _ _ => true) false m s M true Hr HR) as (m' & out & R & s' & E1 & E2). unfold tanswer. rewrite R, E1. eexists m', _. split; [reflexivity|]. auto.
    - unfold tanswer. rewrite (s_index m s i Hr). destruct (TreelistModel.index i (TreelistModel.top s)) as [(k, (x, v))|]; eexists m, _; (split; [reflexivity|]; auto).
    - unfold tanswer. rewrite (read_tagged _ _ m _ (a_IndexOf cmp 0 k) (IndexOf_ok cmp k _ _ _ Hok)). rewrite Hv. eexists m, _. split; [reflexivity|]. auto.
    - unfold tanswer. rewrite (read_tagged _ _ m _ (a_treeSize 0) (treeSize_ok _ _ _ Hok)). rewrite Hv. eexists m, _. split; [reflexivity|]. auto.
    - unfold tanswer. rewrite (s_traverse m s go Hr). eexists m, _. split; [reflexivity|]. auto.
    - unfold tanswer. rewrite (s_traverse m s (fun _ => true) Hr). eexists m, _. split; [reflexivity|]. auto.
    - (* Clear *)
      destruct (lift_tagged (wr (setKid false None) (Some 0%nat)) (wr (setKid false None) (Some 0%nat)) m tt _ (a_setKid _ _ _) (a_setKid _ _ _) eq_refl) as (b & R & Eg & _).
      unfold tanswer, Clear. erewrite run_tbind by exact R.
      destruct (wrDir_root (TMem b (Direct m)) _ false None (tr_dirs _ _ Hr)) as (dir1 & R1 & D1). change (addr None) with (None : ptr) in R1. erewrite run_tbind by exact R1. cbn [base].
      destruct (wrDir_root (TMem b dir1) _ true None D1) as (dir2 & R2 & D2). change (addr None) with (None : ptr) in R2. rewrite R2. cbn [base].
      eexists _, _. split; [reflexivity|]. split; [|auto]. destruct (Clear_ok _ _ _ Hok) as (g & Rg & O). injection Rg as <-. rewrite Eg in O.
      constructor; cbn [base Direct TreelistModel.top lks fresh]; [exists L; split; [exact O|reflexivity]|exact D2|].
      rewrite <- (tr_next _ _ Hr). apply (f_equal next) in Eg. cbn in Eg. symmetry. exact Eg.
    - (* RemoveRange *)
      unfold TreelistModel.RemoveRange, tanswer, RemoveRange. rewrite Z.gtb_ltb. destruct (Z.ltb_spec 0 (cmp lo hi)) as [Hc|Hc].
      { eexists m, _. split; [reflexivity|]. auto. }
      destruct (Z.eqb_spec (cmp lo hi) 0) as [Hc0|Hc0].
      { destruct (s_remove (fun _ _ => true) cmp false m s M lo Hr HR) as (m' & out & R & s' & E1 & E2). erewrite run_tbind by exact R. rewrite E1.
        eexists m', _. split; [reflexivity|]. cbn [TreelistModel.orPanic fst snd]. split; [exact E2|]. intros _. destruct out; reflexivity. }
      assert (Hx : exists t x dd, TreelistModel.removeRange cmp (lks s) lo hi (TreelistModel.top s) = Some (t, x, dd)).
      { destruct (removeRange_wild_links cmp (lks s) lo hi (TreelistModel.top s) [] [] Hz) as (t & x & dd & E1 & _); [|eauto].
        cbn [app]. rewrite app_nil_r. exact HL. }
      destruct Hx as (t & x & dd & Hx). destruct (RemoveRange_lt cmp m s lo hi t x dd Hr ltac:(lia) Hx) as (m' & R & Rep).
      unfold RemoveRange in R. rewrite Z.gtb_ltb, (proj2 (Z.ltb_ge _ _) Hc), (proj2 (Z.eqb_neq _ _) Hc0) in R. rewrite R, Hx.
      eexists m', _. split; [reflexivity|]. destruct dd as [(p, q)|]; cbn [TreelistModel.orPanic fst snd]; auto.
    - (* RemoveRangeByIndex *)
      unfold TreelistModel.RemoveRangeByIndex, tanswer. destruct (i >? j) eqn:Eij.
      { unfold RemoveRangeByIndex. rewrite Eij. eexists m, _. split; [reflexivity|]. auto. }
      rewrite Z.gtb_ltb in Eij. apply Z.ltb_ge in Eij.
      pose proof (RemoveRangeByIndex_le m s i j Hr Eij Hz) as X. destruct (TreelistModel.removeRangeAt (lks s) i j (kidSize false (TreelistModel.top s)) (TreelistModel.top s)) as [((t, x), (p, q))|].
      + destruct X as (m' & -> & Rep). eexists m', _. split; [reflexivity|]. auto.
      + rewrite X. eexists m, _. split; [reflexivity|]. auto.
    - (* Trim *)
      pose proof (TrimT_ok cmp lo hi m s Hr) as X. unfold TreelistModel.Trim, tanswer. destruct (IndexModel.Trim cmp lo hi (TreelistModel.top s)) as [t|].
      + destruct X as (m' & -> & Rep). eexists m', _. split; [reflexivity|]. auto.
      + rewrite X. eexists m, _. split; [reflexivity|]. auto.
    - (* TrimByIndex *)
      pose proof (TrimByIndexT_ok i j m s Hr) as X. unfold TreelistModel.TrimByIndex, tanswer. destruct (IndexModel.TrimByIndex i j (TreelistModel.top s)) as (t, good).
      destruct X as (m' & R & Rep). rewrite R. destruct good; (eexists m', _; split; [reflexivity|]; auto).
  Qed.

End Steps.
