(** tree/indextree in memory: which nodes a call can touch. *)
From Verif Require Import Base Bind Machine OrderSpec SMapSpec AvlTree AvlModel AvlSpec IndexSpec IndexModel.
From Verif Require Import IndexHeapModel IndexHeapProofs IndexHeapReadProofs IndexHeapRunProofs.
Local Open Scope Z_scope.

Section Frame.
  Context {K A : Type}.
  Notation V := (option A).
  Notation mem := (mem K (option A)).
  Notation M := (M K (option A)).
  Implicit Types m : mem.

  (** all fields of [x] *)
  Definition same_at m m' (x : nat) : Prop :=
    Parent m' x = Parent m x /\ (forall d, Children m' x d = Children m x d) /\ Size m' x = Size m x /\ Balance m' x = Balance m x /\
    Key m' x = Key m x /\ Value m' x = Value m x.

  Section Sets.
  (** roots and nodes *)
  Context (R N : nat -> Prop).
  Definition nN (p : ptr) : Prop := match p with None => True | Some a => N a end.
  Definition nD (p : ptr) : Prop := match p with None => True | Some a => N a \/ R a end.

  Record inv m : Prop := {
    inv_root : forall a, R a -> Parent m a = None;
    inv_up : forall a, N a -> nD (Parent m a);
    inv_down : forall a d, N a \/ R a -> nN (Children m a d);
    inv_two : forall a, N a -> ~ R a }.
  Record near m m' : Prop := {
    near_next : next m' = next m;
    near_out : forall x, ~ N x -> ~ R x -> same_at m m' x }.
  Definition keeps {X} (e : M X) (P : X -> Prop) : Prop :=
    forall m, inv m -> match e m with Ret x m' => inv m' /\ near m m' /\ P x | Panic m' => inv m' /\ near m m' | Loop => True end.

  Lemma same_at_refl m x : same_at m m x.
  Proof. repeat split. Qed.
  Lemma same_at_trans m m1 m2 x : same_at m m1 x -> same_at m1 m2 x -> same_at m m2 x.
  Proof.
    intros (A1 & A2 & A3 & A4 & A5 & A6) (B1 & B2 & B3 & B4 & B5 & B6). unfold same_at. rewrite B1, B3, B4, B5, B6. split; [exact A1|]. split; [|auto]. intros d. rewrite B2. apply A2.
  Qed.
  Lemma near_refl m : near m m.
  Proof. constructor; [reflexivity|]. intros. apply same_at_refl. Qed.
  Lemma near_trans m m1 m2 : near m m1 -> near m1 m2 -> near m m2.
  Proof. intros [A1 A2] [B1 B2]. constructor; [congruence|]. intros x H1 H2. eapply same_at_trans; eauto. Qed.

  Lemma k_ret {X} (x : X) (P : X -> Prop) : P x -> keeps (ret x) P.
  Proof. intros H m I. cbn. auto using near_refl. Qed.
  Lemma k_panic {X} (P : X -> Prop) : keeps panic P.
  Proof. intros m I. cbn. auto using near_refl. Qed.
  Lemma k_loop {X} (P : X -> Prop) : keeps (fun _ => Loop) P.
  Proof. intros m I. exact Logic.I. Qed.
  Lemma k_bind {X Y} (e : M X) (f : X -> M Y) P Q : keeps e P -> (forall x, P x -> keeps (f x) Q) -> keeps (bind e f) Q.
  Proof.
    intros H1 H2 m I. unfold bind. specialize (H1 m I). destruct (e m) as [x m1|m1|]; [|exact H1|exact H1].
    destruct H1 as (I1 & N1 & P1). specialize (H2 x P1 m1 I1). destruct (f x m1) as [y m2|m2|]; [|destruct H2; eauto using near_trans|exact H2].
    destruct H2 as (I2 & N2 & P2). eauto using near_trans.
  Qed.
  Lemma k_weak {X} (e : M X) (P Q : X -> Prop) : keeps e P -> (forall x, P x -> Q x) -> keeps e Q.
  Proof. intros H1 H2 m I. specialize (H1 m I). destruct (e m) as [x m1|m1|]; [|exact H1|exact H1]. destruct H1 as (? & ? & ?). auto. Qed.
  Lemma k_assoc {X Y Z} (e : M X) (f : X -> M Y) (g : Y -> M Z) P : keeps (bind e (fun x => bind (f x) g)) P -> keeps (bind (bind e f) g) P.
  Proof. intros H m I. specialize (H m I). unfold bind in *. destruct (e m); exact H. Qed.
  Lemma k_let {X Y} (x : X) (f : X -> M Y) P : keeps (f x) P -> keeps (bind (ret x) f) P.
  Proof. intros H m I. exact (H m I). Qed.
  Lemma k_stop {X Y} (f : X -> M Y) P : keeps (bind panic f) P.
  Proof. intros m I. cbn. auto using near_refl. Qed.
  Lemma k_fueled {X} (f : nat -> M X) P : (forall n, keeps (f n) P) -> keeps (fueled f) P.
  Proof. intros H m I. apply (H _ m I). Qed.
  Lemma k_rd {X} (f : mem -> nat -> X) p : keeps (rd f p) (fun _ => True).
  Proof. intros m I. destruct p; cbn; auto using near_refl. Qed.
  Lemma k_up p : nD p -> keeps (rd Parent p) (fun q => nD q /\ (nN p \/ q = None)).
  Proof.
    intros H m I. destruct p as [a|]; cbn; [|auto using near_refl]. split; [exact I|]. split; [apply near_refl|]. destruct H as [H|H].
    - split; [apply (inv_up m I a H)|auto].
    - rewrite (inv_root m I a H). cbn. auto.
  Qed.
  Lemma k_down p d : nD p -> keeps (rdKid p d) nN.
  Proof. intros H m I. destruct p as [a|]; cbn; [|auto using near_refl]. split; [exact I|]. split; [apply near_refl|]. apply (inv_down m I a d H). Qed.
  Lemma nN_D p : nN p -> nD p.
  Proof. destruct p; cbn; auto. Qed.

  Lemma k_wr f p : nD p -> (forall a m, inv m -> nD (Some a) -> inv (f a m) /\ near m (f a m)) -> keeps (wr f p) (fun _ => True).
  Proof. intros H Hf m I. destruct p as [a|]; cbn; [|auto using near_refl]. destruct (Hf a m I H). auto. Qed.
  Lemma k_data (f : nat -> mem -> mem) p : nD p ->
    (forall a m, Parent (f a m) = Parent m /\ Children (f a m) = Children m /\ next (f a m) = next m) ->
    (forall a m x, x <> a -> Size (f a m) x = Size m x /\ Balance (f a m) x = Balance m x /\ Key (f a m) x = Key m x /\ Value (f a m) x = Value m x) ->
    keeps (wr f p) (fun _ => True).
  Proof.
    intros H H1 H2. apply k_wr; [exact H|]. intros a m [I1 I2 I3 I4] Ha. destruct (H1 a m) as (P1 & C1 & N1). split.
    - constructor; rewrite ?P1, ?C1; auto.
    - constructor; [exact N1|]. intros x X1 X2. unfold same_at. rewrite P1, C1. destruct (H2 a m x) as (? & ? & ? & ?); [|auto 10].
      intros ->. destruct Ha; auto.
  Qed.
  Lemma k_size z p : nD p -> keeps (wr (setSize z) p) (fun _ => True).
  Proof. intros H. apply k_data; [exact H|auto|]. intros a m x Hx. mm. auto. Qed.
  Lemma k_balance z p : nD p -> keeps (wr (setBalance z) p) (fun _ => True).
  Proof. intros H. apply k_data; [exact H|auto|]. intros a m x Hx. mm. cbn [Balance setBalance]. mm. auto. Qed.
  Lemma k_key z p : nD p -> keeps (wr (setKey z) p) (fun _ => True).
  Proof. intros H. apply k_data; [exact H|auto|]. intros a m x Hx. mm. auto. Qed.
  Lemma k_value z p : nD p -> keeps (wr (setValue z) p) (fun _ => True).
  Proof. intros H. apply k_data; [exact H|auto|]. intros a m x Hx. mm. auto. Qed.
  Lemma k_kid d q p : nD p -> nN q -> keeps (wr (setKid d q) p) (fun _ => True).
  Proof.
    intros H Hq. apply k_wr; [exact H|]. intros a m [I1 I2 I3 I4] Ha. split.
    - constructor; mm1; auto. intros b e Hb. unfold upd. destruct (Nat.eqb_spec b a) as [->|]; [|auto]. destruct (Bool.eqb e d); auto.
    - constructor; [reflexivity|]. intros x X1 X2. assert (x <> a) by (intros ->; destruct Ha; auto). unfold same_at. mm. auto 10.
  Qed.
  Lemma k_parent q p : nN p -> nD q -> keeps (wr (setParent q) p) (fun _ => True).
  Proof.
    intros H Hq m [I1 I2 I3 I4]. destruct p as [a|]; cbn [wr]; [|split; [constructor; auto|apply near_refl]]. cbn [nN] in H. split; [|split; [|exact Logic.I]].
    - constructor; mm1; auto.
      + intros b Hb. unfold upd. destruct (Nat.eqb_spec b a) as [->|]; [|auto]. destruct (I4 a H Hb).
      + intros b Hb. unfold upd. destruct (Nat.eqb_spec b a) as [->|]; auto.
    - constructor; [reflexivity|]. intros x X1 X2. assert (x <> a) by (intros ->; auto). unfold same_at. mm. auto 10.
  Qed.
  Lemma k_getSize p : keeps (getSize p) (fun _ => True).
  Proof. destruct p; [apply k_rd|apply k_ret; auto]. Qed.

  (** one step of a proof that a function stays within the sets *)
  Ltac k1 :=
    cbv beta zeta;
    lazymatch goal with
    | |- keeps (bind (rd Parent _) _) _ => eapply k_bind; [apply k_up|]
    | |- keeps (bind (rdKid _ _) _) _ => eapply k_bind; [apply k_down|]
    | |- keeps (bind (rd _ _) _) _ => eapply k_bind; [apply k_rd|]
    | |- keeps (bind (getSize _) _) _ => eapply k_bind; [apply k_getSize|]
    | |- keeps (bind (bind _ _) _) _ => apply k_assoc
    | |- keeps (bind (ret _) _) _ => apply k_let
    | |- keeps (bind panic _) _ => apply k_stop
    | |- keeps (bind (wr (setSize _) _) _) _ => eapply k_bind; [apply k_size|]
    | |- keeps (bind (wr (setBalance _) _) _) _ => eapply k_bind; [apply k_balance|]
    | |- keeps (bind (wr (setKey _) _) _) _ => eapply k_bind; [apply k_key|]
    | |- keeps (bind (wr (setValue _) _) _) _ => eapply k_bind; [apply k_value|]
    | |- keeps (bind (wr (setKid _ _) _) _) _ => eapply k_bind; [apply k_kid|]
    | |- keeps (bind (wr (setParent _) _) _) _ => eapply k_bind; [apply k_parent|]
    | |- keeps (bind (if ?b then _ else _) _) _ => destruct b eqn:?
    | |- keeps (wr (setSize _) _) _ => eapply k_weak; [apply k_size|]
    | |- keeps (wr (setBalance _) _) _ => eapply k_weak; [apply k_balance|]
    | |- keeps (wr (setKey _) _) _ => eapply k_weak; [apply k_key|]
    | |- keeps (wr (setValue _) _) _ => eapply k_weak; [apply k_value|]
    | |- keeps (wr (setKid _ _) _) _ => eapply k_weak; [apply k_kid|]
    | |- keeps (wr (setParent _) _) _ => eapply k_weak; [apply k_parent|]
    | |- keeps (rd Parent _) _ => eapply k_weak; [apply k_up|]
    | |- keeps (rdKid _ _) _ => eapply k_weak; [apply k_down|]
    | |- keeps (rd _ _) _ => eapply k_weak; [apply k_rd|]
    | |- keeps (ret _) _ => apply k_ret
    | |- keeps panic _ => apply k_panic
    | |- keeps (fun _ => Loop) _ => apply k_loop
    | |- keeps (if ?b then _ else _) _ => destruct b eqn:?
    | |- keeps (bind (fueled _) _) _ => eapply k_bind; [apply k_fueled; intros ?|]
    | |- keeps (fueled _) _ => apply k_fueled; intros ?
    | |- keeps (let (_, _) := ?x in _) _ => destruct x as (?, ?)
    | |- forall _, _ => intros ? ?
    | |- nD _ => first [assumption | right; assumption | apply nN_D; assumption | exact Logic.I | tauto]
    | |- nN _ => first [assumption | exact Logic.I | tauto]
    | |- True => exact Logic.I
    | |- _ /\ _ => split
    end.
  Ltac ks := repeat k1.

  Lemma f_sumSize cur : nD cur -> keeps (sumSize cur) (fun _ => True).
  Proof. intros H. unfold sumSize, getChildrenSumSize. ks. Qed.
  Lemma f_getChildrenSize cur : nD cur -> keeps (getChildrenSize cur) (fun _ => True).
  Proof. intros H. unfold getChildrenSize. ks. Qed.
  Lemma f_updateBalance cur : nD cur -> keeps (updateBalance cur) (fun _ => True).
  Proof. intros H. unfold updateBalance. eapply k_bind; [apply f_getChildrenSize, H|]. ks. Qed.
  Lemma f_getRelationship cur : nD cur -> keeps (getRelationship cur) (fun _ => True).
  Proof. intros H. unfold getRelationship. ks. Qed.
  Lemma f_rotate d cur : nD cur -> keeps (rotate d cur) nN.
  Proof.
    intros H. unfold rotate. k1; [ks|]. k1. k1; [ks|]. k1. k1; [ks|]. intros p (Hp & [Hc| ->]).
    - ks; (eapply k_bind; [apply f_sumSize; ks|]); ks; (eapply k_bind; [apply f_sumSize; ks|]); ks; (eapply k_bind; [apply f_updateBalance; ks|]); ks;
      (eapply k_bind; [apply f_updateBalance; ks|]); ks.
    - intros m I. cbn. split; [exact I|apply near_refl].
  Qed.

  Create HintDb fr discriminated.
  Local Hint Constants Opaque : fr.
  Local Hint Variables Opaque : fr.
  Local Hint Extern 1 (nD _) => first [assumption | apply nN_D; assumption | exact Logic.I | tauto] : fr.
  Local Hint Extern 1 (nN _) => first [assumption | exact Logic.I | tauto] : fr.
  Local Hint Resolve f_sumSize f_getChildrenSize f_updateBalance f_getRelationship f_rotate : fr.
  Ltac k2 := lazymatch goal with
             | |- keeps (lrotate _) _ => unfold lrotate
             | |- keeps (rrotate _) _ => unfold rrotate
             | |- keeps (bind (lrotate _) _) _ => unfold lrotate
             | |- keeps (bind (rrotate _) _) _ => unfold rrotate
             | |- keeps _ _ => first [k1 | solve [eauto with fr nocore] | eapply k_bind; [solve [eauto with fr nocore]|] | eapply k_weak; [solve [eauto with fr nocore]|]]
             | |- _ => k1
             end.
  Ltac kk := repeat k2.

  Lemma f_sizeRRotate cur : nD cur -> keeps (sizeRRotate cur) nN.
  Proof. intros H. unfold sizeRRotate. kk. Qed.
  Lemma f_sizeLRotate cur : nD cur -> keeps (sizeLRotate cur) nN.
  Proof. intros H. unfold sizeLRotate. kk. Qed.
  Local Hint Resolve f_sizeRRotate f_sizeLRotate : fr.

  Section Root.
  Context (root : nat) (Hroot : R root).
  Lemma f_troot : nD (Some root).
  Proof. right. exact Hroot. Qed.
  Local Hint Resolve f_troot : fr.
  Hint Extern 1 (nD (Some root)) => exact f_troot : fr.
  Lemma f_getRoot : keeps (getRoot root) nN.
  Proof. apply k_down, f_troot. Qed.
  Local Hint Resolve f_getRoot : fr.
  Lemma f_fixPutSize n : forall cur, nD cur -> keeps (fixPutSize root n cur) (fun _ => True).
  Proof. induction n as [|n IH]; intros cur H; cbn [fixPutSize]; kk. Qed.
  Local Hint Resolve f_fixPutSize : fr.
  Lemma f_fixRemoveSize n : forall cur, nD cur -> keeps (fixRemoveSize root n cur) (fun _ => True).
  Proof. induction n as [|n IH]; intros cur H; cbn [fixRemoveSize]; kk. Qed.
  Local Hint Resolve f_fixRemoveSize : fr.
  Context (cmp : K -> K -> Z) (shift : Z).
  Lemma f_fixPutLoop n : forall h cur, nD cur -> keeps (fixPutLoop shift root n h cur) (fun _ => True).
  Proof. induction n as [|n IH]; intros h cur H; cbn [fixPutLoop]; kk. Qed.
  Local Hint Resolve f_fixPutLoop : fr.
  Lemma f_fixPut cur : nD cur -> keeps (fixPut shift root cur) (fun _ => True).
  Proof. intros H. unfold fixPut. kk. Qed.
  Local Hint Resolve f_fixPut : fr.
  Lemma f_getNodeLoop k n : forall cur, nN cur -> keeps (getNodeLoop cmp k n cur) nN.
  Proof. induction n as [|n IH]; intros cur H; cbn [getNodeLoop]; kk. Qed.
  Local Hint Resolve f_getNodeLoop : fr.
  Lemma f_getNode k : keeps (getNode cmp root k) nN.
  Proof. unfold getNode. kk. Qed.
  Local Hint Resolve f_getNode : fr.
  Lemma f_Get k : keeps (Get cmp root k) (fun _ => True).
  Proof. unfold Get. kk. Qed.
  Lemma f_indexLoop i n : forall z cur, nN cur -> keeps (indexLoop i n z cur) nN.
  Proof. induction n as [|n IH]; intros z cur H; cbn [indexLoop]; kk. Qed.
  Local Hint Resolve f_indexLoop : fr.
  Lemma f_index i : keeps (index root i) nN.
  Proof. unfold index. kk. Qed.
  Local Hint Resolve f_index : fr.
  Lemma f_Index i : keeps (Index root i) (fun _ => True).
  Proof. unfold Index. kk. Qed.
  Lemma f_indexOfLoop k n : forall z cur, nN cur -> keeps (indexOfLoop cmp k n z cur) (fun _ => True).
  Proof. induction n as [|n IH]; intros z cur H; cbn [indexOfLoop]; kk. Qed.
  Local Hint Resolve f_indexOfLoop : fr.
  Lemma f_IndexOf k : keeps (IndexOf cmp root k) (fun _ => True).
  Proof. unfold IndexOf. kk. Qed.
  Lemma f_traverasl go n : forall cur seen, nN cur -> keeps (traverasl go n cur seen) (fun _ => True).
  Proof. induction n as [|n IH]; intros cur seen H; cbn [traverasl]; kk. Qed.
  Local Hint Resolve f_traverasl : fr.
  Lemma f_Traverse go : keeps (Traverse root go) (fun _ => True).
  Proof. unfold Traverse. kk. Qed.
  Local Hint Resolve f_Traverse : fr.
  Lemma f_Values : keeps (Values root) (fun _ => True).
  Proof. unfold Values. kk. Qed.
  Lemma f_lastNode d n : forall cur, nN cur -> keeps (lastNode d n cur) nN.
  Proof. induction n as [|n IH]; intros cur H; cbn [lastNode]; kk. Qed.
  Local Hint Resolve f_lastNode : fr.
  Lemma f_replaceBy d cur : nN cur -> keeps (replaceBy root d cur) (fun _ => True).
  Proof. intros H. unfold replaceBy. kk. Qed.
  Local Hint Resolve f_replaceBy : fr.
  Lemma f_removeNode cur : nN cur -> keeps (removeNode root cur) (fun _ => True).
  Proof. intros H. unfold removeNode. kk. Qed.
  Local Hint Resolve f_removeNode : fr.
  Lemma f_Remove k : keeps (Remove cmp root k) (fun _ => True).
  Proof. unfold Remove. kk. Qed.
  Local Hint Resolve f_Remove : fr.
  Lemma f_RemoveIndex i : keeps (RemoveIndex root i) (fun _ => True).
  Proof. unfold RemoveIndex. kk. Qed.
  Lemma f_getRangeRoot lo hi n : forall cur, nN cur -> keeps (getRangeRoot cmp lo hi n cur) nN.
  Proof. induction n as [|n IH]; intros cur H; cbn [getRangeRoot]; kk. Qed.
  Local Hint Resolve f_getRangeRoot : fr.
  Lemma f_adopt d p child : nD p -> nN child -> keeps (adopt d p child) (fun _ => True).
  Proof. intros H1 H2. unfold adopt. kk. Qed.
  Local Hint Resolve f_adopt : fr.
  Lemma f_trim d b n : forall p, nN p -> keeps (trim cmp d b n p) nN.
  Proof. induction n as [|n IH]; intros p H; cbn [trim]; kk. Qed.
  Local Hint Resolve f_trim : fr.
  Lemma f_fixRemoveRange cur : nD cur -> keeps (fixRemoveRange cur) (fun _ => True).
  Proof. intros H. unfold fixRemoveRange. kk. Qed.
  Local Hint Resolve f_fixRemoveRange : fr.
  Lemma f_growUp z rp n : forall p, nD p -> keeps (growUp z rp n p) (fun _ => True).
  Proof. induction n as [|n IH]; intros p H; cbn [growUp]; kk. Qed.
  Local Hint Resolve f_growUp : fr.
  Lemma f_sumUp top n : forall p, nD p -> keeps (sumUp top n p) (fun _ => True).
  Proof. induction n as [|n IH]; intros p H; cbn [sumUp]; kk. Qed.
  Local Hint Resolve f_sumUp : fr.
  Lemma f_mergeGroups rt g c z d : nN rt -> nN g -> nN c -> keeps (mergeGroups root rt g c z d) (fun _ => True).
  Proof. intros H1 H2 H3. unfold mergeGroups. kk. Qed.
  Local Hint Resolve f_mergeGroups : fr.
  Lemma f_shrinkUp z n : forall p, nD p -> keeps (shrinkUp root z n p) (fun _ => True).
  Proof. induction n as [|n IH]; intros p H; cbn [shrinkUp]; kk. Qed.
  Local Hint Resolve f_shrinkUp : fr.
  Lemma f_closeCut rt l r : nN rt -> nN l -> nN r -> keeps (closeCut root rt l r) (fun _ => True).
  Proof. intros H1 H2 H3. unfold closeCut. kk. Qed.
  Local Hint Resolve f_closeCut : fr.
  Lemma f_RemoveRange lo hi : keeps (RemoveRange cmp root lo hi) (fun _ => True).
  Proof. unfold RemoveRange. kk. Qed.
  Lemma f_rangeRootAt lo hi n : forall z p, nN p -> keeps (rangeRootAt lo hi n z p) (fun x => nN (fst x)).
  Proof. induction n as [|n IH]; intros z p H; cbn [rangeRootAt]; kk. Qed.
  Local Hint Resolve f_rangeRootAt : fr.
  Lemma f_trimAt d b n : forall z e p, nN p -> keeps (trimAt d b n z e p) nN.
  Proof. induction n as [|n IH]; intros z e p H; cbn [trimAt]; kk. Qed.
  Local Hint Resolve f_trimAt : fr.
  Lemma f_RemoveRangeByIndex lo hi : keeps (RemoveRangeByIndex root lo hi) (fun _ => True).
  Proof. unfold RemoveRangeByIndex. kk. Qed.
  Lemma f_keep d b n : forall p, nN p -> keeps (keep cmp d b n p) nN.
  Proof. induction n as [|n IH]; intros p H; cbn [keep]; kk. Qed.
  Local Hint Resolve f_keep : fr.
  Lemma f_newRoot rt : nN rt -> keeps (newRoot root rt) (fun _ => True).
  Proof. intros H. unfold newRoot. kk. Qed.
  Local Hint Resolve f_newRoot : fr.
  Lemma f_Trim lo hi : keeps (Trim cmp root lo hi) (fun _ => True).
  Proof. unfold Trim. kk. Qed.
  Lemma f_keepAt d b n : forall z p, nN p -> keeps (keepAt d b n z p) nN.
  Proof. induction n as [|n IH]; intros z p H; cbn [keepAt]; kk. Qed.
  Local Hint Resolve f_keepAt : fr.
  Lemma f_TrimByIndex lo hi : keeps (TrimByIndex root lo hi) (fun _ => True).
  Proof. unfold TrimByIndex. kk. Qed.
  Lemma f_splitRoots c k n : forall cur l r, nN cur -> nN l -> nN r -> keeps (splitRoots cmp c k n cur l r) (fun x => nN (fst (fst x)) /\ nN (snd (fst x)) /\ nN (snd x)).
  Proof. induction n as [|n IH]; intros cur l r H1 H2 H3; cbn [splitRoots]; kk; cbn; kk. Qed.
  Local Hint Resolve f_splitRoots : fr.
  Lemma f_splitBelow c k n : forall cur l r, nN cur -> nN l -> nN r -> keeps (splitBelow cmp c k n cur l r) (fun _ => True).
  Proof. induction n as [|n IH]; intros cur l r H1 H2 H3; cbn [splitBelow]; unfold hang; kk. Qed.
  Local Hint Resolve f_splitBelow : fr.
  Lemma f_treeSize : keeps (treeSize root) (fun _ => True).
  Proof. unfold treeSize. kk. Qed.
  Lemma f_Clear : keeps (Clear root) (fun _ => True).
  Proof. unfold Clear. kk. Qed.
  End Root.
  End Sets.

  (** ** calls that make a new node *)
  Definition plus (N : nat -> Prop) (n : nat) : nat -> Prop := fun a => N a \/ a = n.
  Section Grow.
  Context (R N : nat -> Prop).
  Record out m m' : Prop := {
    out_next : (next m <= next m')%nat;
    out_same : forall x, ~ N x -> ~ R x -> x <> next m -> same_at m m' x }.
  (** the same nodes, one more node, or one more tree *)
  Definition grown m m' : Prop := out m m' /\ (inv R N m' \/ inv R (plus N (next m)) m').
  Definition grows {X} (e : M X) : Prop :=
    forall m, inv R N m -> ~ R (next m) -> match e m with Ret _ m' | Panic m' => grown m m' | Loop => True end.

  Lemma near_out' m m' : near R N m m' -> out m m'.
  Proof. intros [H1 H2]. constructor; [lia|auto]. Qed.
  Lemma g_keeps {X} (e : M X) P : keeps R N e P -> grows e.
  Proof.
    intros H m I _. specialize (H m I). destruct (e m) as [x m1|m1|]; [| |exact Logic.I]; split; try (apply near_out'; apply H); left; apply H.
  Qed.
  Lemma g_bind {X Y} (e : M X) (f : X -> M Y) P : keeps R N e P -> (forall x, P x -> grows (f x)) -> grows (bind e f).
  Proof.
    intros H1 H2 m I Hr. unfold bind. specialize (H1 m I). destruct (e m) as [x m1|m1|]; [| |exact Logic.I].
    - destruct H1 as (I1 & [N1 S1] & P1). specialize (H2 x P1 m1 I1). rewrite N1 in H2. specialize (H2 Hr).
      assert (Ho : forall m2, out m1 m2 -> out m m2).
      { intros m2 [A1 A2]. constructor; [lia|]. intros y Y1 Y2 Y3. eapply same_at_trans; [apply S1; auto|]. apply A2; auto. congruence. }
      destruct (f x m1) as [y m2|m2|]; [| |exact Logic.I]; destruct H2 as (H2 & H3); (split; [apply Ho, H2|]); rewrite N1 in H3; exact H3.
    - split; [apply near_out', H1|left; apply H1].
  Qed.
  Lemma g_ret {X Y} (e : M X) (f : X -> Y) : grows e -> grows (let! x := e in ret (f x)).
  Proof. intros H m I Hr. specialize (H m I Hr). unfold bind. destruct (e m) as [x m1|m1|]; exact H. Qed.
  Lemma g_alloc {Y} cur z k v (f : ptr -> M Y) P : nD R N cur -> (forall n, keeps R (plus N n) (f (Some n)) P) -> grows (bind (alloc cur z k v) f).
  Proof.
    intros Hc H m I Hr. unfold bind, alloc. cbv zeta.
    set (m1 := Mem _ _ _ _ _ _ _). assert (I1 : inv R (plus N (next m)) m1).
    { destruct I as [A1 A2 A3 A4]. constructor.
      - intros a Ha. unfold m1. mm1. unfold upd. destruct (Nat.eqb_spec a (next m)) as [->|]; [contradiction|auto].
      - intros a Ha. unfold m1. mm1. unfold upd. destruct (Nat.eqb_spec a (next m)) as [->|Hne].
        + destruct cur as [b|]; [|exact Logic.I]. cbn in *. unfold plus. tauto.
        + destruct Ha as [Ha|Ha]; [|congruence]. specialize (A2 a Ha). destruct (Parent m a) as [b|]; [|exact Logic.I]. cbn in *. unfold plus. tauto.
      - intros a d Ha. unfold m1. mm1. unfold upd. destruct (Nat.eqb_spec a (next m)) as [->|Hne]; [exact Logic.I|].
        assert (Ha' : N a \/ R a) by (unfold plus in Ha; tauto). specialize (A3 a d Ha'). destruct (Children m a d) as [b|]; [|exact Logic.I]. cbn in *. unfold plus. tauto.
      - intros a [Ha| ->]; auto. }
    assert (O1 : forall x, x <> next m -> same_at m m1 x).
    { intros x Hx. unfold same_at, m1. mm1. cbn [Balance]. rewrite !upd_ne by congruence. auto 10. }
    specialize (H (next m) m1 I1).
    assert (Ho : forall m2, near R (plus N (next m)) m1 m2 -> out m m2).
    { intros m2 [B1 B2]. constructor.
      - rewrite B1. unfold m1. cbn [next]. lia.
      - intros x X1 X2 X3. eapply same_at_trans; [apply O1, X3|]. apply B2; [unfold plus; tauto|exact X2]. }
    destruct (f (Some (next m)) m1) as [y m2|m2|]; [| |exact Logic.I]; destruct H as (H1 & H2); (split; [apply Ho; apply H2|right; exact H1]).
  Qed.
  End Grow.

  Lemma nN_plus N n p : nN N p -> nN (plus N n) p.
  Proof. destruct p; cbn; unfold plus; tauto. Qed.
  Lemma nD_plus R N n p : nD R N p -> nD R (plus N n) p.
  Proof. destruct p; cbn; unfold plus; tauto. Qed.

  Section Calls.
  Context (R N : nat -> Prop) (root : nat) (Hroot : R root) (cmp : K -> K -> Z) (shift : Z).
  Lemma g_putLoop over k v n : forall cur, nN N cur -> grows R N (putLoop cmp shift root over k v n cur).
  Proof.
    induction n as [|n IH]; intros cur H; [intros m _ _; exact Logic.I|]. cbn [putLoop].
    apply (g_bind R N _ _ _ (k_rd R N Key cur)). intros ck _. cbv zeta.
    assert (Hg : forall d, grows R N (let! q := rdKid cur d in if negb (isNil q) then putLoop cmp shift root over k v n q
          else let! node := alloc cur 1 k v in wr (setKid d node) cur ;! fixPut shift root cur ;! ret false)).
    { intros d. apply (g_bind R N _ _ _ (k_down R N cur d (nN_D R N _ H))). intros q Hq. destruct (negb (isNil q)); [apply IH, Hq|].
      apply (g_alloc R N cur 1 k v _ (fun _ => True) (nN_D R N _ H)). intros n0. eapply k_bind; [apply k_kid|].
      - apply nD_plus, nN_D, H.
      - right. reflexivity.
      - intros _ _. eapply k_bind; [apply f_fixPut, nD_plus, nN_D, H|]. intros _ _. apply k_ret. exact Logic.I. }
    destruct (_ <? 0); [apply Hg|]. destruct (_ >? 0); [apply Hg|]. destruct over.
    - eapply g_bind; [apply k_key, nN_D, H|]. intros _ _. eapply g_bind; [apply k_value, nN_D, H|]. intros _ _. apply (g_keeps R N _ (fun _ => True)), k_ret. exact Logic.I.
    - apply (g_keeps R N _ (fun _ => True)), k_ret. exact Logic.I.
  Qed.
  Lemma g_first k v (b : bool) : grows R N (let! node := alloc (Some root) 1 k v in wr (setKid false node) (Some root) ;! ret b).
  Proof.
    apply (g_alloc R N _ _ _ _ _ (fun _ => True)); [right; exact Hroot|]. intros n. eapply k_bind; [apply k_kid; right; [exact Hroot|reflexivity]|].
    intros _ _. apply k_ret. exact Logic.I.
  Qed.
  Lemma g_fueled {X} (f : nat -> M X) : (forall n, grows R N (f n)) -> grows R N (fueled f).
  Proof. intros H m I Hr. apply (H _ m I Hr). Qed.
  Lemma g_Put k v : grows R N (Put cmp shift root k v).
  Proof.
    unfold Put. eapply g_bind; [apply f_getRoot, Hroot|]. intros cur H. destruct (isNil cur); [apply g_first|]. apply g_ret, g_fueled. intros n. apply g_putLoop, H.
  Qed.
  Lemma g_Set k v : grows R N (Set_ cmp shift root k v).
  Proof.
    unfold Set_. eapply g_bind; [apply f_getRoot, Hroot|]. intros cur H. destruct (isNil cur); [apply g_first|]. apply g_fueled. intros n. apply g_putLoop, H.
  Qed.
  Lemma g_Upsert k v : grows R N (Upsert cmp shift root k v).
  Proof.
    unfold Upsert. eapply g_bind; [apply f_getNode, Hroot|]. intros cur H. destruct (isNil cur); [apply g_ret, g_Put|].
    eapply g_bind; [apply k_value, nN_D, H|]. intros _ _. apply (g_keeps R N _ (fun _ => True)), k_ret. exact Logic.I.
  Qed.

  (** Split: the second tree's root is new *)
  Lemma nD_more n p : nD R N p -> nD (plus R n) N p.
  Proof. destruct p; cbn; unfold plus; tauto. Qed.
  Definition grown2 m m' : Prop := out R N m m' /\ inv (plus R (next m)) N m' /\ (next m < next m')%nat.
  Definition split_to (m : mem) (o : @res K (option A) (option nat)) : Prop :=
    match o with Ret x m' => grown2 m m' /\ x = Some (next m) | Panic m' => grown2 m m' | Loop => True end.
  Lemma s_new zero (f : nat -> M (option nat)) m : (forall n, keeps (plus R n) N (f n) (fun x => x = Some n)) -> inv R N m -> ~ N (next m) ->
    split_to m ((let! x := newTree zero in f x) m).
  Proof.
    intros H I Hr. unfold newTree, alloc, bind. cbv zeta.
    set (m1 := Mem _ _ _ _ _ _ _). assert (I1 : inv (plus R (next m)) N m1).
    { destruct I as [A1 A2 A3 A4]. constructor.
      - intros a Ha. unfold m1. mm1. unfold upd. destruct (Nat.eqb_spec a (next m)) as [->|]; [reflexivity|]. destruct Ha; [auto|congruence].
      - intros a Ha. unfold m1. mm1. unfold upd. destruct (Nat.eqb_spec a (next m)) as [->|Hne]; [contradiction|]. apply nD_more, A2, Ha.
      - intros a d Ha. unfold m1. mm1. unfold upd. destruct (Nat.eqb_spec a (next m)) as [->|Hne]; [exact Logic.I|]. apply A3. unfold plus in Ha. tauto.
      - intros a Ha [Hx| ->]; [exact (A4 a Ha Hx)|contradiction]. }
    assert (O1 : forall x, x <> next m -> same_at m m1 x).
    { intros x Hx. unfold same_at, m1. mm1. cbn [Balance]. rewrite !upd_ne by congruence. auto 10. }
    specialize (H (next m) m1 I1).
    assert (Ho : forall m2, near (plus R (next m)) N m1 m2 -> out R N m m2 /\ (next m < next m2)%nat).
    { intros m2 [B1 B2]. assert (next m2 = S (next m)) by (rewrite B1; reflexivity). split; [|lia]. constructor; [lia|].
      intros x X1 X2 X3. eapply same_at_trans; [apply O1, X3|]. apply B2; [exact X1|unfold plus; tauto]. }
    unfold ret. destruct (f (next m) m1) as [y m2|m2|]; [| |exact Logic.I]; cbn [split_to].
    - destruct H as (H1 & H2 & H3). destruct (Ho m2 H2) as (Q1 & Q2). split; [|exact H3]. split; [exact Q1|split; [exact H1|exact Q2]].
    - destruct H as (H1 & H2). destruct (Ho m2 H2) as (Q1 & Q2). split; [exact Q1|split; [exact H1|exact Q2]].
  Qed.
  Lemma s_more (m m0 : mem) o : near R N m0 m -> split_to m o -> split_to m0 o.
  Proof.
    intros [H1 H2] H. assert (Ho : forall m', grown2 m m' -> grown2 m0 m').
    { intros m' ([A1 A2] & A3 & A4). rewrite H1 in *. split; [|split; [exact A3|lia]]. constructor; [lia|]. intros x X1 X2 X3.
      eapply same_at_trans; [apply H2; auto|]. apply A2; auto. }
    destruct o as [y m2|m2|]; cbn [split_to] in *; [|auto|exact Logic.I]. destruct H as (Q1 & Q2). rewrite H1 in Q2. auto.
  Qed.
  Lemma s_Split zero contain k m : inv R N m -> ~ N (next m) ->
    match Split cmp zero root contain k m with
    | Ret None m' => inv R N m' /\ near R N m m'
    | Ret (Some x) m' => grown2 m m' /\ x = next m
    | Panic m' => (inv R N m' /\ near R N m m') \/ grown2 m m'
    | Loop => True end.
  Proof.
    intros I Hr. unfold Split. unfold bind at 1. pose proof (f_getRoot R N root Hroot m I) as X. destruct (getRoot root m) as [rt m1|m1|]; [|auto|exact Logic.I].
    destruct X as (I1 & N1 & Hrt). destruct (isNil rt); [cbn; auto|]. unfold bind at 1.
    pose proof (k_fueled R N _ _ (fun n => f_splitRoots R N cmp contain k n rt None None Hrt Logic.I Logic.I) m1 I1) as X.
    destruct (fueled _ m1) as [((cur, lroot), rroot) m2|m2|]; [|left; destruct X as (Y1 & Y2); split; [exact Y1|eapply near_trans; eauto]|exact Logic.I].
    destruct X as (I2 & N2 & Hc & Hl & Hrr). cbn [fst snd] in *. assert (N3 : near R N m m2) by (eapply near_trans; eauto). clear N1 N2 I1 m1.
    assert (Hr2 : ~ N (next m2)) by (rewrite (near_next R N _ _ N3); exact Hr).
    assert (Hw : forall (f : M (option nat)) q, near R N m q -> split_to q (f q) -> match f q with
         Ret None m' => inv R N m' /\ near R N m m' | Ret (Some x) m' => grown2 m m' /\ x = next m
         | Panic m' => (inv R N m' /\ near R N m m') \/ grown2 m m' | Loop => True end).
    { intros f q Hq X. pose proof (s_more q m _ Hq X) as X2. destruct (f q) as [[x|] q'|q'|]; cbn [split_to] in X2; auto.
      - destruct X2 as (X2 & X3). injection X3 as ->. auto.
      - destruct X2 as (_ & X3). discriminate X3. }
    destruct (isNil lroot) eqn:El.
    - unfold bind at 1. pose proof (k_kid R N false None (Some root) (or_intror Hroot) Logic.I m2 I2) as X. destruct (wr _ _ m2) as [u m3|m3|]; [| |exact Logic.I].
      + destruct X as (I3 & N4 & _). assert (N5 : near R N m m3) by (eapply near_trans; eauto).
        apply Hw; [exact N5|]. apply s_new; [|exact I3|rewrite (near_next R N _ _ N5); exact Hr]. intros n.
        eapply k_bind; [apply k_kid; [right; right; reflexivity|exact Hrt]|]. intros _ _.
        eapply k_bind; [apply k_parent; [exact Hrt|right; right; reflexivity]|].
        intros _ _. apply k_ret. reflexivity.
      + left. destruct X as (Y1 & Y2). split; [exact Y1|eapply near_trans; eauto].
    - destruct (isNil rroot) eqn:Er.
      + apply Hw; [exact N3|]. apply s_new; [|exact I2|exact Hr2]. intros n. apply k_ret. reflexivity.
      + apply Hw; [exact N3|]. apply s_new; [|exact I2|exact Hr2]. intros n.
        assert (T1 : nD (plus R n) N (Some root)) by (right; left; exact Hroot).
        assert (T2 : nD (plus R n) N (Some n)) by (right; right; reflexivity).
        eapply k_bind; [apply k_rd|]. intros lp _. eapply k_bind with (P := fun _ => True).
        * destruct (negb (eqp lp rroot)); repeat (eapply k_bind; [first [apply k_kid; assumption|apply k_parent; assumption]|intros _ _]);
          first [apply k_kid; assumption|apply k_parent; assumption].
        * intros _ _. eapply k_bind; [apply k_kid; [apply nN_D, Hl|exact Logic.I]|]. intros _ _. eapply k_bind; [apply k_kid; [apply nN_D, Hrr|exact Logic.I]|]. intros _ _.
          eapply k_bind; [apply k_fueled; intros n0; apply f_splitBelow; assumption|]. intros _ _.
          eapply k_bind; [apply k_fueled; intros n0; apply f_sumUp, nN_D, Hl|]. intros _ _.
          eapply k_bind; [apply k_fueled; intros n0; apply f_sumUp, nN_D, Hrr|]. intros _ _. apply k_ret. reflexivity.
  Qed.
  End Calls.
End Frame.
