(** tree/indextree in memory: all calls together. *)
From Verif Require Import Base Bind Machine OrderSpec SMapSpec AvlTree AvlModel AvlSpec IndexSpec IndexModel.
From Verif Require Import IndexHeapModel IndexHeapProofs IndexHeapPutProofs IndexHeapReadProofs IndexHeapRemoveProofs IndexHeapCutProofs IndexHeapRangeProofs IndexHeapTrimProofs IndexHeapSplitProofs IndexHeapStepProofs.
From Verif Require Import WildSpec IndexWildProofs.
From Verif Require IndexProofs.
Local Open Scope Z_scope.

Section Wild.
  Context {K A : Type} (cmp : K -> K -> Z) (shift : Z) (Hsh : 0 <= shift) (zero : K).
  Notation stepT := (@IndexModel.step K A cmp shift).
  Implicit Types m : mem K (option A).

  (** one call, whatever the comparison function does *)
  Lemma hstep_wild m r t o : rep m r t -> sized t ->
    exists m' r', hstep cmp shift zero (m, r) o = Some ((m', r'), snd (stepT t o)) /\ rep m' r' (fst (stepT t o)).
  Proof.
    intros Hr Hz. pose proof Hr as (s & O & Hv). destruct o; cbn [hstep IndexModel.step]; unfold answer.
    - destruct (Put_wild cmp shift k v t Hsh Hz) as (t' & b & Ep & _). destruct (Put_ok cmp shift k v m r t t' b Hr Ep) as (m' & R & Q). rewrite R, Ep. exists m', r. auto.
    - destruct (Put_wild cmp shift k v t Hsh Hz) as (t' & b & Ep & _). destruct (Put_ok cmp shift k v m r t t' b Hr Ep) as (m' & R & Q). rewrite R, Ep. exists m', r. auto.
    - destruct (Set_wild cmp shift k v t Hsh Hz) as (t' & b & Ep & _). destruct (Set_ok cmp shift k v m r t t' b Hr Ep) as (m' & R & Q). rewrite R, Ep. exists m', r. auto.
    - destruct (Upsert_wild cmp shift k v t Hsh Hz) as (t' & b & Ep & _). destruct (Upsert_ok cmp shift k v m r t t' b Hr Ep) as (m' & R & Q). rewrite R, Ep. exists m', r. auto.
    - rewrite (Get_ok cmp k m r s O), Hv. exists m, r. split; [|exact Hr]. destruct (IndexModel.getNode cmp k t); reflexivity.
    - destruct (removeKey_wild cmp k t Hz) as (t' & res & Ep & _). destruct (Remove_ok cmp k m r t t' res Hr Ep) as (m' & R & Q). rewrite R, Ep. exists m', r. auto.
    - destruct (removeKey_wild cmp k t Hz) as (t' & res & Ep & _). destruct (Remove_ok cmp k m r t t' res Hr Ep) as (m' & R & Q). rewrite R, Ep. exists m', r. split; [|exact Q].
      destruct res as [[x|]|]; reflexivity.
    - rewrite (treeSize_ok m r s O), Hv. exists m, r. auto.
    - rewrite (treeSize_ok m r s O), Hv. exists m, r. auto.
    - destruct (Clear_ok m r s O) as (m' & R & Q). rewrite R. exists m', r. split; [reflexivity|]. exists L. auto.
    - rewrite (Values_ok m r s O), Hv. exists m, r. auto.
    - rewrite (Traverse_ok go m r s O), Hv. exists m, r. auto.
    - rewrite (Index_ok i m r s O), Hv. exists m, r. destruct (IndexModel.index i t) as [(k, v)|]; auto.
    - rewrite (IndexOf_ok cmp k m r s O), Hv. exists m, r. auto.
    - pose proof (RemoveIndex_ok i m r t Hr Hz) as X. destruct (IndexModel.RemoveIndex i t) as [(t', v)|]; [|rewrite X; exists m, r; auto].
      destruct X as (m' & R & Q). rewrite R. exists m', r. auto.
    - destruct (IndexModel.RemoveRange cmp lo hi t) as [t'|] eqn:Er.
      + destruct (RemoveRange_ok cmp lo hi m r t t' Hr Er) as (m' & R & Q). rewrite R. exists m', r. auto.
      + pose proof (RemoveRange_wild cmp lo hi t Hz) as X. unfold RemoveRange. destruct (cmp lo hi >? 0); [exists m, r; auto|]. destruct X as (t' & X & _). congruence.
    - pose proof (RemoveRangeByIndex_ok i j m r t Hr Hz) as X. destruct (IndexModel.RemoveRangeByIndex i j t) as [t'|]; [|rewrite X; exists m, r; auto].
      destruct X as (m' & R & Q). rewrite R. exists m', r. auto.
    - pose proof (Trim_ok cmp lo hi m r t Hr) as X. destruct (IndexModel.Trim cmp lo hi t) as [t'|]; [|rewrite X; exists m, r; auto].
      destruct X as (m' & R & Q). rewrite R. exists m', r. auto.
    - pose proof (TrimByIndex_ok i j m r t Hr) as X. destruct (IndexModel.TrimByIndex i j t) as (t', good). destruct X as (m' & R & Q). rewrite R. exists m', r.
      destruct good; auto.
    - pose proof (Split_ok cmp zero contain k m r t Hr) as X. destruct (IndexModel.Split cmp contain k t) as [(t1, t2)|]; [|rewrite X; exists m, r; auto].
      destruct X as (m' & r2 & R & Q1 & Q2). rewrite R. pose proof Q1 as (s1 & O1 & V1). pose proof Q2 as (s2 & O2 & V2). destruct rgt.
      + rewrite (Traverse_ok _ m' r s1 O1), V1. exists m', r2. auto.
      + rewrite (Traverse_ok _ m' r2 s2 O2), V2. exists m', r. auto.
  Qed.

  (** many calls, no key trimmed away (WildSpec.v) *)
  Lemma hrun_wild ops : forall m r t m' r' xs, rep m r t -> sized t ->
    reach (hstep cmp shift zero) (m, r) ops = Some (m', r') -> run (hstep cmp shift zero) (m, r) ops = Some xs -> Forall2 no_trim ops xs ->
    rep m' r' (sreach stepT t ops) /\ sized (sreach stepT t ops) /\ may_run cmp (elems t) ops xs (elems (sreach stepT t ops)).
  Proof.
    induction ops as [|o ops IH]; intros m r t m' r' xs Hr Hz E1 E2 HF; cbn [reach run sreach] in *.
    - injection E1 as -> ->. injection E2 as <-. split; [exact Hr|]. split; [exact Hz|constructor].
    - destruct (hstep_wild m r t o Hr Hz) as (m1 & r1 & R & Q). rewrite R in E1, E2. destruct (step_wild cmp shift Hsh t o Hz) as (Hm & Hk).
      destruct (stepT t o) as (t', x). cbn [fst snd] in *. destruct (run (hstep cmp shift zero) (m1, r1) ops) as [xs'|] eqn:E3; [|discriminate].
      injection E2 as <-. inversion HF as [|? ? ? ? HF1 HF2]; subst. destruct (IH m1 r1 t' m' r' xs' Q (Hk HF1) E1 E3 HF2) as (X1 & X2 & X3).
      split; [exact X1|]. split; [exact X2|]. econstructor; eassumption.
  Qed.
End Wild.

Section Steps.
  Context {K A : Type} (ltb : K -> K -> bool) (W : weak_order ltb) (cmp : K -> K -> Z) (Hcmp : plain_cmp ltb cmp)
          (shift : Z) (Hsh : 0 <= shift) (zero : K).
  Notation V := (option A).
  Notation mem := (mem K (option A)).
  Notation tree := (tree K V).
  Notation XRel := (@IndexProofs.XRel K A ltb).
  Notation stepT := (@IndexModel.step K A cmp shift).
  Implicit Types m : mem.

  Lemma hrun_ok ops : forall m r t e, rep m r t -> XRel t e -> trims_in_range ltb e ops ->
    run (hstep cmp shift zero) (m, r) ops = Some (srun stepT t ops) /\
    exists m' r', reach (hstep cmp shift zero) (m, r) ops = Some (m', r') /\ rep m' r' (sreach stepT t ops).
  Proof.
    induction ops as [|o ops IH]; intros m r t e Hr HX HT; [cbn; eauto|]. destruct HT as (H1 & H2).
    destruct (IndexProofs.step_ok ltb W cmp Hcmp shift Hsh t e o HX H1) as (X1 & _).
    destruct (hstep_wild cmp shift Hsh zero m r t o Hr (proj1 (proj2 HX))) as (m' & r' & R & Q). cbn [run reach srun sreach]. rewrite R.
    destruct (stepT t o) as (t', x). cbn [fst snd] in *. destruct (IH m' r' t' _ Q X1 H2) as (-> & X2). split; [reflexivity|exact X2].
  Qed.
  Lemma rep_new : rep (fst (@new K A zero)) (snd (@new K A zero)) E.
  Proof.
    exists L. split; [|reflexivity]. constructor; cbn [new fst snd caddrs addrs app cok hangs body pt Children next]; auto.
    - apply NoDup_cons; [tauto|constructor].
    - intros a [<-|[]]. lia.
  Qed.
End Steps.

(** ** the package's own check *)
Section Check.
  Context {K V : Type}.
  Implicit Types m : mem K V.
  Lemma tcheck_ok m s : forall n, body m s -> sized (view m s) -> (hgt s < n)%nat -> tcheck n (pt s) m = true.
  Proof.
    induction s as [|a l IHl r IHr]; intros n Hb Hz Hn; (destruct n as [|n]; [lia|]); [reflexivity|].
    cbn [hgt] in Hn. destruct Hb as (Kl & Kr & Pl & Pr & Bl & Br). cbn [view sized] in Hz. destruct Hz as (Hs & Zl & Zr).
    cbn [pt tcheck]. cbv zeta. rewrite Kl, Kr, (IHl n Bl Zl) by lia. rewrite (IHr n Br Zr) by lia.
    assert (Sl : match pt l with None => 0 | Some b => Size m b end = Z.of_nat (length (elems (view m l)))).
    { destruct l as [|b x y]; [reflexivity|]. cbn [pt view sized elems] in *. rewrite app_length. cbn [length]. lia. }
    assert (Sr : match pt r with None => 0 | Some b => Size m b end = Z.of_nat (length (elems (view m r)))).
    { destruct r as [|b x y]; [reflexivity|]. cbn [pt view sized elems] in *. rewrite app_length. cbn [length]. lia. }
    rewrite Sl, Sr, Hs, Z.eqb_refl.
    assert (Hl : match pt l with None => true | Some b => eqp (Parent m b) (Some a) end = true).
    { destruct l as [|b x y]; [reflexivity|]. cbn [pt hangs] in *. rewrite Pl. apply eqp_refl. }
    assert (Hr : match pt r with None => true | Some b => eqp (Parent m b) (Some a) end = true).
    { destruct r as [|b x y]; [reflexivity|]. cbn [pt hangs] in *. rewrite Pr. apply eqp_refl. }
    rewrite Hl, Hr. reflexivity.
  Qed.
  Lemma check_ok m r t : rep m r t -> sized t -> check r m = true.
  Proof.
    intros (s & O & <-) Hz. unfold check. cbv zeta. pose proof (ok_c _ _ _ _ O) as Hc. cbn [cok] in Hc. destruct Hc as (-> & _).
    rewrite (tcheck_ok m s _ (ok_b _ _ _ _ O) Hz (ok_hgt _ _ _ _ O)). pose proof (ok_h _ _ _ _ O) as Hh.
    destruct s as [|a x y]; [reflexivity|]. cbn [pt hangs top] in *. rewrite Hh, eqp_refl. reflexivity.
  Qed.
End Check.
