(** tree/treelist in memory: cutting out a range. *)
From Verif Require Import Base Bind Machine AvlTree AvlModel AvlSpec IndexSpec TreelistSpec TreelistModel IndexModel
  IndexHeapModel IndexHeapProofs IndexHeapPutProofs IndexHeapReadProofs IndexHeapRemoveProofs IndexHeapCutProofs IndexHeapRangeProofs
  TreelistHeapModel TreelistHeapProofs.
From Verif Require IndexProofs.
Local Open Scope Z_scope.

(** ** Code that takes no new address *)
Section Still.
  Context {K V : Type}.
  Definition still {X} (e : M K V X) : Prop := forall m, match e m with Ret _ m' | Panic m' => next m' = next m | Loop => True end.
  Lemma s_ret {X} (x : X) : still (ret x).
  Proof. intros m. reflexivity. Qed.
  Lemma s_panic {X} : still (panic (X := X)).
  Proof. intros m. reflexivity. Qed.
  Lemma s_loop {X} : still (fun _ => Loop (X := X)).
  Proof. intros m. exact I. Qed.
  Lemma s_bind {X Y} (e : M K V X) (f : X -> M K V Y) : still e -> (forall x, still (f x)) -> still (bind e f).
  Proof.
    intros H1 H2 m. specialize (H1 m). unfold bind. destruct (e m) as [x m1|m1|]; [|exact H1|exact I]. specialize (H2 x m1).
    destruct (f x m1); [congruence..|exact I].
  Qed.
  Lemma s_fueled {X} (e : nat -> M K V X) : (forall n, still (e n)) -> still (fueled e).
  Proof. intros H m. apply H. Qed.
  Lemma s_if {X} (b : bool) (e f : M K V X) : still e -> still f -> still (if b then e else f).
  Proof. destruct b; auto. Qed.
  Lemma s_pair {X Y Z} (p : X * Y) (e : X -> Y -> M K V Z) : (forall x y, still (e x y)) -> still (let (x, y) := p in e x y).
  Proof. destruct p; auto. Qed.
  Lemma s_rd {X} (f : mem K V -> nat -> X) p : still (rd f p).
  Proof. intros m. destruct p; reflexivity. Qed.
  Lemma s_kid p d : still (rdKid p d).
  Proof. intros m. destruct p; reflexivity. Qed.
  Lemma s_setParent q p : still (wr (setParent q) p).
  Proof. intros m. destruct p; reflexivity. Qed.
  Lemma s_setKid d q p : still (wr (setKid d q) p).
  Proof. intros m. destruct p; reflexivity. Qed.
  Lemma s_setSize z p : still (wr (setSize z) p).
  Proof. intros m. destruct p; reflexivity. Qed.
  Lemma s_setBalance z p : still (wr (setBalance z) p).
  Proof. intros m. destruct p; reflexivity. Qed.
End Still.
Create HintDb stl.
#[global] Hint Resolve s_ret s_panic s_loop s_rd s_kid s_setParent s_setKid s_setSize s_setBalance : stl.
Ltac stl := cbv zeta; repeat first
  [ apply s_bind; [|intros ?] | apply s_fueled; intros ? | apply s_if | apply s_pair; intros ? ? | solve [eauto with stl] ].
Section StillFree.
  Context {K V : Type} (root : nat).
  Notation still := (still (K := K) (V := V)).
  Lemma s_getSize p : still (getSize p).
  Proof. unfold getSize. destruct p; stl. Qed.
  Hint Resolve s_getSize : stl.
  Lemma s_sumSize p : still (sumSize p).
  Proof. unfold sumSize, getChildrenSumSize. stl. Qed.
  Lemma s_getChildrenSize p : still (getChildrenSize p).
  Proof. unfold getChildrenSize. stl. Qed.
  Hint Resolve s_sumSize s_getChildrenSize : stl.
  Lemma s_getRelationship p : still (getRelationship p).
  Proof. unfold getRelationship. stl. Qed.
  Lemma s_updateBalance p : still (updateBalance p).
  Proof. unfold updateBalance. stl. Qed.
  Hint Resolve s_updateBalance s_getRelationship : stl.
  Lemma s_rotate d p : still (rotate d p).
  Proof. unfold rotate. stl. Qed.
  Hint Resolve s_rotate : stl.
  Lemma s_lastNode d n : forall p, still (lastNode d n p).
  Proof. induction n as [|n IH]; intros p; cbn [lastNode]; stl. Qed.
  Hint Resolve s_lastNode : stl.
  Lemma s_fixRemoveRange p : still (fixRemoveRange p).
  Proof. unfold fixRemoveRange, lrotate, rrotate. stl. Qed.
  Hint Resolve s_fixRemoveRange : stl.
  Lemma s_growUp z q n : forall p, still (growUp z q n p).
  Proof. induction n as [|n IH]; intros p; cbn [growUp]; stl. Qed.
  Lemma s_sumUp n : forall p, still (sumUp root n p).
  Proof. induction n as [|n IH]; intros p; cbn [sumUp]; stl. Qed.
  Lemma s_shrinkUp z n : forall p, still (shrinkUp root z n p).
  Proof. induction n as [|n IH]; intros p; cbn [shrinkUp]; stl. Qed.
  Hint Resolve s_growUp s_sumUp s_shrinkUp : stl.
  Lemma s_mergeGroups rt g c z d : still (mergeGroups root rt g c z d).
  Proof. unfold mergeGroups. stl. Qed.
  Hint Resolve s_mergeGroups : stl.
  Lemma s_closeCut rt l r : still (IndexHeapModel.closeCut root rt l r).
  Proof. unfold IndexHeapModel.closeCut. stl. Qed.
  Lemma s_newRoot p : still (newRoot root p).
  Proof. unfold newRoot. stl. Qed.
End StillFree.

Section Range.
  Context {K V : Type}.
  Notation tmem := (tmem K V).
  Notation tree := (AvlTree.tree K (nat * V)).
  Notation tframe := (IndexHeapProofs.tframe (K := K) (V := nat * V)).
  Implicit Types (m : tmem) (lk : TreelistModel.links) (t : tree).

  Lemma bind_ret_inv {W X Y} (e : M K W X) (y : Y) g g' : (e ;! ret y) g = Ret y g' -> exists x, e g = Ret x g'.
  Proof. unfold bind. destruct (e g) as [x g1|g1|]; try discriminate. intros H. injection H as <-. eauto. Qed.

  (** what the trimming closures give: a shape of old nodes, and the neighbour *)
  Definition trimmedT m (s : sh) (p : tree * option nat) (near : ptr) (r : tres K V (ptr * ptr)) : Prop :=
    exists b s', r = Done (pt s', match s with L => near | _ => addr (snd p) end) (TMem b (Direct m)) /\ Value b = Value (base m) /\
      trimmedTo (tagged (base m)) (tagged b) s s' (fst p).

  Lemma trimmedT_child m a d x y (p : tree * option nat) near r :
    body (tagged (base m)) (nd a d x y) -> NoDup (addrs (nd a d x y)) -> (0 < a)%nat -> trimmedT m x p near r ->
    trimmedT m (nd a d x y) (tsum (Key (base m) a) (tag (base m) a) d (fst p) (view (tagged (base m)) y), match fst p with E => Some (pred a) | _ => snd p end) near
      (match r with Done cn m1 => (lift (adopt d (Some a) (fst cn)) ;? pure (Some a, if isNil (fst cn) then Some a else snd cn)) m1 | Fail m1 => Fail m1 | Forever => Forever end).
  Proof.
    intros Hb Hn Ha (b & s1 & -> & Hv & T1). cbv beta iota. cbn [fst snd].
    destruct (trim_adopt _ _ _ _ _ _ _ _ Hb Hn T1) as (g2 & R2 & T2 & _). apply bind_ret_inv in R2 as ([] & R2).
    destruct (lift_tagged _ _ (TMem b (Direct m)) _ _ (a_adopt d (Some a) (pt s1)) (a_adopt d (Some a) (pt s1)) R2) as (b2 & Rb & -> & Vb).
    erewrite run_tbind by exact Rb. cbn [base Direct] in *.
    exists b2, (nd a d s1 y). split; [|split; [congruence|exact T2]]. unfold pure. rewrite pt_nd. f_equal. f_equal.
    replace (match nd a d x y with L => near | B _ _ _ => addr (snd (tsum (Key (base m) a) (tag (base m) a) d (fst p) (view (tagged (base m)) y), match fst p with E => Some (pred a) | N _ _ _ _ _ => snd p end)) end)
      with (addr (match fst p with E => Some (pred a) | N _ _ _ _ _ => snd p end)) by (destruct d; reflexivity).
    destruct T1 as (_ & I1 & _ & V1 & _). destruct s1 as [|e el er]; cbn [view] in V1; rewrite <- V1; cbn [pt isNil].
    - cbn. f_equal. lia.
    - destruct x; [|reflexivity]. destruct (I1 e). left. reflexivity.
  Qed.
  Lemma trimmedT_other m a d x y p near near' r : y <> L -> trimmedT m y p near r -> trimmedT m (nd a d x y) p near' r.
  Proof.
    intros Hy (b & s1 & -> & Hv & T1). exists b, s1. destruct y; [congruence|]. split; [destruct d; reflexivity|]. split; [exact Hv|].
    apply trimmed_sub, T1.
  Qed.
  Lemma trimmedT_here m a d x y near near' q : body (tagged (base m)) (nd a d x y) -> NoDup (addrs (nd a d x y)) -> near' = addr q ->
    trimmedT m (nd a d x y) (view (tagged (base m)) y, q) near (Done (pt y, near') m).
  Proof.
    intros Hb Hn ->. exists (base m), y. rewrite tmem_eta. split; [destruct d; reflexivity|]. split; [reflexivity|]. apply trimmed_sub.
    apply body_nd in Hb. destruct Hb as (_ & _ & _ & _ & _ & By). apply nd_sub in Hn. apply NoDup_cons_iff in Hn as (_ & Hn).
    apply nodup_app in Hn as (_ & Ny & _). split; [exact By|]. split; [apply incl_refl|]. split; [exact Ny|]. split; [reflexivity|apply unch_refl].
  Qed.
  Lemma trimmedT_nil m near : trimmedT m L (E, None) near (Done (None, near) m).
  Proof.
    exists (base m), L. rewrite tmem_eta. split; [reflexivity|]. split; [reflexivity|]. split; [exact I|]. split; [intros z []|].
    split; [constructor|]. split; [reflexivity|apply unch_refl].
  Qed.

  Section Keys.
  Context (cmp : K -> K -> Z).
  Definition lbelow lk (d : bool) : K -> tree -> tree * option nat := if d then TreelistModel.ltrim cmp lk else TreelistModel.rtrim cmp lk.
  Lemma lbelow_nd lk d bound z k i v (x y : tree) : lbelow lk d bound (tnd z k (i, v) d x y) =
    if (if d then cmp bound k >? 0 else cmp bound k <? 0) then
      (tsum k (i, v) d (fst (lbelow lk d bound x)) y, match fst (lbelow lk d bound x) with E => Some i | _ => snd (lbelow lk d bound x) end)
    else if (if d then cmp bound k <? 0 else cmp bound k >? 0) then match y with E => (E, TreelistModel.d lk i (negb d)) | _ => lbelow lk d bound y end
    else (y, TreelistModel.d lk i (negb d)).
  Proof.
    destruct d; cbn [lbelow tnd TreelistModel.ltrim TreelistModel.rtrim negb]; rewrite tsum_sum; [destruct (TreelistModel.ltrim cmp lk bound x)|destruct (TreelistModel.rtrim cmp lk bound x)]; reflexivity.
  Qed.

  Lemma trimT_ok lk d bound s : forall m n near, dirs (Direct m) lk -> body (tagged (base m)) s -> NoDup (addrs s) -> ~ In 0%nat (addrs s) -> (hgt s < n)%nat ->
    trimmedT m s (lbelow lk d bound (view (tagged (base m)) s)) near (trim cmp d bound n (pt s) near m).
  Proof.
    assert (Hx : forall a d x y m n near,
      (forall m n near, dirs (Direct m) lk -> body (tagged (base m)) x -> NoDup (addrs x) -> ~ In 0%nat (addrs x) -> (hgt x < n)%nat ->
         trimmedT m x (lbelow lk d bound (view (tagged (base m)) x)) near (trim cmp d bound n (pt x) near m)) ->
      (forall m n near, dirs (Direct m) lk -> body (tagged (base m)) y -> NoDup (addrs y) -> ~ In 0%nat (addrs y) -> (hgt y < n)%nat ->
         trimmedT m y (lbelow lk d bound (view (tagged (base m)) y)) near (trim cmp d bound n (pt y) near m)) ->
      dirs (Direct m) lk -> body (tagged (base m)) (nd a d x y) -> NoDup (addrs (nd a d x y)) -> ~ In 0%nat (addrs (nd a d x y)) -> (hgt x < n)%nat -> (hgt y < n)%nat ->
      trimmedT m (nd a d x y) (lbelow lk d bound (view (tagged (base m)) (nd a d x y))) near (trim cmp d bound (S n) (Some a) near m)).
    { intros a e x y m n near IHx IHy Hd Hb Hn H0 Hnx Hny. pose proof Hb as Hb0. apply body_nd in Hb. destruct Hb as (Kx & Ky & Px & Py & Bx & By).
      pose proof (nd_sub _ _ _ _ Hn) as Hn0. apply NoDup_cons_iff in Hn0 as (_ & Hn0). apply nodup_app in Hn0 as (Nx & Ny & _).
      assert (H0x : ~ In 0%nat (addrs x)) by (intros X; apply H0, in_nd; auto). assert (H0y : ~ In 0%nat (addrs y)) by (intros X; apply H0, in_nd; auto).
      assert (Ha : (0 < a)%nat) by (destruct a; [destruct H0; apply in_nd; auto|lia]).
      assert (Ea : Some a = addr (Some (pred a))) by (cbn; f_equal; lia).
      cbn [trim isNil]. erewrite run_tbind by apply lift_rd. cbv zeta. rewrite view_nd.
      change (Value (tagged (base m)) a) with (pred a, Value (base m) a). rewrite lbelow_nd. change (Key (tagged (base m)) a) with (Key (base m) a).
      change (Children (tagged (base m))) with (Children (base m)) in Kx, Ky.
      destruct (if e then cmp bound (Key (base m) a) >? 0 else cmp bound (Key (base m) a) <? 0).
      - erewrite run_tbind by (rewrite lift_kid, Kx; reflexivity). apply (trimmedT_child m a e x y _ near _ Hb0 Hn Ha (IHx m n near Hd Bx Nx H0x Hnx)).
      - destruct (if e then cmp bound (Key (base m) a) <? 0 else cmp bound (Key (base m) a) >? 0).
        + erewrite run_tbind by (rewrite lift_kid, Ky; reflexivity). destruct y as [|yb yl yr] eqn:Ey; cbn [pt isNil].
          * erewrite run_tbind by (rewrite Ea; apply (rdDir_node m lk), Hd). erewrite run_tbind by (rewrite lift_kid, Ky; reflexivity).
            destruct n as [|n]; [lia|]. cbn [trim pt isNil view]. apply (trimmedT_here m a e x L); [exact Hb0|exact Hn|reflexivity].
          * rewrite <- Ey in *. erewrite run_tbind by reflexivity. erewrite run_tbind by (rewrite lift_kid, Ky; reflexivity).
            replace (match view (tagged (base m)) y with E => (E, TreelistModel.d lk (pred a) (negb e)) | N _ _ _ _ _ => lbelow lk e bound (view (tagged (base m)) y) end)
              with (lbelow lk e bound (view (tagged (base m)) y)) by (rewrite Ey; reflexivity).
            apply (trimmedT_other m a e x y _ near near); [rewrite Ey; discriminate|]. apply IHy; assumption.
        + erewrite run_tbind by (rewrite Ea; apply (rdDir_node m lk), Hd). erewrite run_tbind by (rewrite lift_kid, Ky; reflexivity).
          apply (trimmedT_here m a e x y); [exact Hb0|exact Hn|reflexivity]. }
    induction s as [|a l IHl r IHr]; intros m n near Hd Hb Hn H0 Hf; (destruct n as [|n]; [lia|]).
    - replace (lbelow lk d bound (view (tagged (base m)) L)) with (E : tree, @None nat) by (destruct d; reflexivity). apply trimmedT_nil.
    - cbn [hgt] in Hf. destruct d.
      + apply (Hx a true r l m n near IHr IHl Hd Hb Hn H0); lia.
      + apply (Hx a false l r m n near IHl IHr Hd Hb Hn H0); lia.
  Qed.
  End Keys.

  (** ** by position *)
  Definition lbelowAt lk (d : bool) : Z -> Z -> bool -> tree -> tree * option nat := if d then TreelistModel.ltrimAt lk else TreelistModel.rtrimAt lk.
  Lemma lbelowAt_nd lk d bound idx dir z k i v (x y : tree) : lbelowAt lk d bound idx dir (tnd z k (i, v) d x y) =
    let w := if Bool.eqb dir d then y else x in
    let j := if dir then idx + (IndexModel.getSize w + 1) else idx - (IndexModel.getSize w + 1) in
    if (if d then j <? bound else j >? bound) then
      (tsum k (i, v) d (fst (lbelowAt lk d bound j d x)) y, match fst (lbelowAt lk d bound j d x) with E => Some i | _ => snd (lbelowAt lk d bound j d x) end)
    else if (if d then j >? bound else j <? bound) then match y with E => (E, TreelistModel.d lk i (negb d)) | _ => lbelowAt lk d bound j (negb d) y end
    else (y, TreelistModel.d lk i (negb d)).
  Proof.
    destruct d, dir; cbn [lbelowAt tnd TreelistModel.ltrimAt TreelistModel.rtrimAt negb Bool.eqb]; cbv zeta; rewrite tsum_sum; unfold TreelistModel.getSize;
      match goal with |- context [ let '(_, _) := ?e in _ ] => destruct e end; reflexivity.
  Qed.

  Lemma trimAtT_ok lk d bound s : forall m n idx dir near, dirs (Direct m) lk -> body (tagged (base m)) s -> NoDup (addrs s) -> ~ In 0%nat (addrs s) -> (hgt s < n)%nat ->
    trimmedT m s (lbelowAt lk d bound idx dir (view (tagged (base m)) s)) near (trimAt d bound n idx dir (pt s) near m).
  Proof.
    assert (Hx : forall a d x y m n idx dir near,
      (forall m n idx dir near, dirs (Direct m) lk -> body (tagged (base m)) x -> NoDup (addrs x) -> ~ In 0%nat (addrs x) -> (hgt x < n)%nat ->
         trimmedT m x (lbelowAt lk d bound idx dir (view (tagged (base m)) x)) near (trimAt d bound n idx dir (pt x) near m)) ->
      (forall m n idx dir near, dirs (Direct m) lk -> body (tagged (base m)) y -> NoDup (addrs y) -> ~ In 0%nat (addrs y) -> (hgt y < n)%nat ->
         trimmedT m y (lbelowAt lk d bound idx dir (view (tagged (base m)) y)) near (trimAt d bound n idx dir (pt y) near m)) ->
      dirs (Direct m) lk -> body (tagged (base m)) (nd a d x y) -> NoDup (addrs (nd a d x y)) -> ~ In 0%nat (addrs (nd a d x y)) -> (hgt x < n)%nat -> (hgt y < n)%nat ->
      trimmedT m (nd a d x y) (lbelowAt lk d bound idx dir (view (tagged (base m)) (nd a d x y))) near (trimAt d bound (S n) idx dir (Some a) near m)).
    { intros a e x y m n idx dir near IHx IHy Hd Hb Hn H0 Hnx Hny. pose proof Hb as Hb0. apply body_nd in Hb. destruct Hb as (Kx & Ky & Px & Py & Bx & By).
      pose proof (nd_sub _ _ _ _ Hn) as Hn0. apply NoDup_cons_iff in Hn0 as (_ & Hn0). apply nodup_app in Hn0 as (Nx & Ny & _).
      assert (H0x : ~ In 0%nat (addrs x)) by (intros X; apply H0, in_nd; auto). assert (H0y : ~ In 0%nat (addrs y)) by (intros X; apply H0, in_nd; auto).
      assert (Ha : (0 < a)%nat) by (destruct a; [destruct H0; apply in_nd; auto|lia]).
      assert (Ea : Some a = addr (Some (pred a))) by (cbn; f_equal; lia).
      cbn [trimAt isNil]. rewrite view_nd.
      change (Value (tagged (base m)) a) with (pred a, Value (base m) a). rewrite lbelowAt_nd. change (Key (tagged (base m)) a) with (Key (base m) a).
      change (Children (tagged (base m))) with (Children (base m)) in Kx, Ky. cbv zeta.
      assert (Kw : Children (base m) a (negb dir) = pt (if Bool.eqb dir e then y else x)) by (destruct dir, e; assumption).
      erewrite run_tbind by (rewrite lift_kid, Kw; reflexivity).
      erewrite run_tbind by (apply lift_read, getSize_ok).
      assert (Ez : gs (base m) (if Bool.eqb dir e then y else x) = IndexModel.getSize (if Bool.eqb dir e then view (tagged (base m)) y else view (tagged (base m)) x))
        by (unfold gs; destruct (Bool.eqb dir e); [destruct y|destruct x]; reflexivity).
      rewrite Ez. set (j := if dir then _ else _).
      destruct (if e then j <? bound else j >? bound).
      - erewrite run_tbind by (rewrite lift_kid, Kx; reflexivity). apply (trimmedT_child m a e x y _ near _ Hb0 Hn Ha (IHx m n j e near Hd Bx Nx H0x Hnx)).
      - destruct (if e then j >? bound else j <? bound).
        + erewrite run_tbind by (rewrite lift_kid, Ky; reflexivity). destruct y as [|yb yl yr] eqn:Ey; cbn [pt isNil].
          * erewrite run_tbind by (rewrite Ea; apply (rdDir_node m lk), Hd). erewrite run_tbind by (rewrite lift_kid, Ky; reflexivity).
            destruct n as [|n]; [lia|]. cbn [trimAt pt isNil view]. apply (trimmedT_here m a e x L); [exact Hb0|exact Hn|reflexivity].
          * rewrite <- Ey in *. erewrite run_tbind by reflexivity. erewrite run_tbind by (rewrite lift_kid, Ky; reflexivity).
            replace (match view (tagged (base m)) y with E => (E, TreelistModel.d lk (pred a) (negb e)) | N _ _ _ _ _ => lbelowAt lk e bound j (negb e) (view (tagged (base m)) y) end)
              with (lbelowAt lk e bound j (negb e) (view (tagged (base m)) y)) by (rewrite Ey; reflexivity).
            apply (trimmedT_other m a e x y _ near near); [rewrite Ey; discriminate|]. apply IHy; assumption.
        + erewrite run_tbind by (rewrite Ea; apply (rdDir_node m lk), Hd). erewrite run_tbind by (rewrite lift_kid, Ky; reflexivity).
          apply (trimmedT_here m a e x y); [exact Hb0|exact Hn|reflexivity]. }
    induction s as [|a l IHl r IHr]; intros m n idx dir near Hd Hb Hn H0 Hf; (destruct n as [|n]; [lia|]).
    - replace (lbelowAt lk d bound idx dir (view (tagged (base m)) L)) with (E : tree, @None nat) by (destruct d; reflexivity). apply trimmedT_nil.
    - cbn [hgt] in Hf. destruct d.
      + apply (Hx a true r l m n idx dir near IHr IHl Hd Hb Hn H0); lia.
      + apply (Hx a false l r m n idx dir near IHl IHr Hd Hb Hn H0); lia.
  Qed.

  (** ** at the range root *)
  (** one side: what is left of the tree [t] below the node [i], and the neighbour *)
  Definition sideOf lk (i : nat) (b : bool) (g : tree -> tree * option nat) (t : tree) : tree * option nat :=
    match t with E => (E, TreelistModel.d lk i b) | _ => g t end.
  Lemma side_ok lk m d a s (f : ptr -> TM K V (ptr * ptr)) g : dirs (Direct m) lk -> (0 < a)%nat -> Children (base m) a (negb d) = pt s ->
    (s <> L -> trimmedT m s (g (view (tagged (base m)) s)) None (f (pt s) m)) ->
    let p := sideOf lk (pred a) (negb d) g (view (tagged (base m)) s) in
    exists b s', side d (Some a) f m = Done (pt s', addr (snd p)) (TMem b (Direct m)) /\ Value b = Value (base m) /\
      trimmedTo (tagged (base m)) (tagged b) s s' (fst p).
  Proof.
    intros Hd Ha Hk Hs p. unfold side. erewrite run_tbind by (rewrite lift_kid, Hk; reflexivity). destruct s as [|e el er] eqn:Es.
    - cbn [pt isNil negb]. assert (Ea : Some a = addr (Some (pred a))) by (cbn; f_equal; lia).
      erewrite run_tbind by (rewrite Ea; apply (rdDir_node m lk), Hd). exists (base m), L. rewrite tmem_eta. split; [reflexivity|]. split; [reflexivity|].
      split; [exact I|]. split; [intros z []|]. split; [constructor|]. split; [reflexivity|apply unch_refl].
    - cbn [pt isNil negb]. destruct (Hs ltac:(discriminate)) as (b & s' & R & Hv & T). rewrite <- Es in *.
      exists b, s'. replace p with (g (view (tagged (base m)) s)) by (unfold p; rewrite Es; reflexivity). split; [|auto].
      rewrite Es in R |- *. exact R.
  Qed.

  Lemma cutHereT_ok lk fr m c a l r (cutL cutR : ptr -> TM K V (ptr * ptr)) gl gr t x : ok (tagged (base m)) 0 c (B a l r) ->
    dirs (Direct m) lk -> next (base m) = S fr ->
    (l <> L -> trimmedT m l (gl (view (tagged (base m)) l)) None (cutL (pt l) m)) ->
    (forall b, body (tagged b) r -> next b = next (base m) -> r <> L -> trimmedT (TMem b (Direct m)) r (gr (view (tagged b) r)) None (cutR (pt r) (TMem b (Direct m)))) ->
    let pl := sideOf lk (pred a) false gl (view (tagged (base m)) l) in
    let pr := sideOf lk (pred a) true gr (view (tagged (base m)) r) in
    IndexModel.closeCut (Size (base m) a) (fst pl) (fst pr) = Some (t, x) ->
    exists ql qr m1 m2 m3 m4, side true (Some a) cutL m = Done ql m1 /\ side false (Some a) cutR m1 = Done qr m2 /\
      unlink 0 (snd ql) (snd qr) m2 = Done tt m3 /\ lift (IndexHeapModel.closeCut 0 (Some a) (fst ql) (fst qr)) m3 = Done tt m4 /\
      trep m4 (T (upCut x (cview (tagged (base m)) c) t) (TreelistModel.unlink (snd pl) (snd pr) lk) fr).
  Proof.
    intros O Hd Hn HL HR pl pr Hc. set (g := tagged (base m)) in *.
    destruct (ok_notin _ _ _ a false l r O) as (_ & _ & _ & Ha0).
    assert (Ha : (0 < a)%nat) by (destruct a; [congruence|lia]).
    pose proof (ok_b _ _ _ _ O) as Hb. apply (body_nd g a false l r) in Hb. destruct Hb as (K1 & K2 & _ & _ & Bl & Br). cbn [negb] in K2.
    change (Children g) with (Children (base m)) in K1, K2.
    destruct (side_ok lk m true a l cutL gl Hd Ha K1 HL) as (b1 & sl & R1 & V1 & T1). cbn [negb] in R1, T1. fold g in R1, T1. fold pl in R1, T1.
    assert (Nr : forall y, In y (addrs r) -> ~ In y (addrs l)).
    { pose proof (ok_n _ _ _ _ O) as Hno. change (0%nat :: caddrs c ++ addrs (B a l r)) with ((0%nat :: caddrs c) ++ a :: addrs l ++ addrs r) in Hno.
      apply nodup_app in Hno as (_ & Hno & _). apply NoDup_cons_iff in Hno as (_ & Hno). apply nodup_app in Hno as (_ & _ & Hno). intros y H1 H2. exact (Hno y H2 H1). }
    pose proof T1 as (_ & _ & _ & _ & U1).
    assert (Br1 : body (tagged b1) r) by (eapply unch_body; eauto).
    assert (Vr1 : view (tagged b1) r = view g r) by (apply (unch_view g _ _ r U1 Nr)).
    assert (Na : ~ In a (addrs l)).
    { pose proof (ok_n _ _ _ _ O) as Hno. change (0%nat :: caddrs c ++ addrs (B a l r)) with ((0%nat :: caddrs c) ++ a :: addrs l ++ addrs r) in Hno.
      apply nodup_app in Hno as (_ & Hno & _). apply NoDup_cons_iff in Hno as (Hno & _). intros X. apply Hno, in_or_app. auto. }
    assert (K3 : Children b1 a true = pt r) by (rewrite <- K2; apply (proj1 (proj2 (proj2 U1 a Na)))).
    destruct (side_ok lk (TMem b1 (Direct m)) false a r cutR gr Hd Ha K3) as (b2 & sr & R2 & V2 & T2).
    { intros Hne. apply HR; [exact Br1| |exact Hne]. exact (proj1 U1). }
    cbn [negb base Direct] in R2, T2, V2. rewrite Vr1 in R2, T2. fold pr in R2, T2.
    destruct (trimmed_spot g (tagged b1) (tagged b2) 0 c a l r sl sr _ _ O T1 T2) as (S1 & B1 & B2 & W1 & W2 & Z1 & C1 & _ & _).
    destruct (unlink_run (TMem b2 (Direct m)) lk (snd pl) (snd pr) Hd) as (dir & R3 & D3). cbn [base] in R3.
    destruct (closeCut_ok (tagged b2) 0 c a sl sr t x S1 B1 B2) as (g4 & R4 & Rep4).
    { rewrite Z1, W1, W2. exact Hc. }
    destruct (lift_tagged _ _ (TMem b2 dir) _ _ (a_closeCut 0 (Some a) (pt sl) (pt sr)) (a_closeCut 0 (Some a) (pt sl) (pt sr)) R4) as (b4 & R5 & -> & V4).
    do 6 eexists. split; [exact R1|]. split; [exact R2|]. split; [exact R3|]. split; [exact R5|].
    constructor; cbn [base Direct TreelistModel.top lks fresh].
    - rewrite C1 in Rep4. exact Rep4.
    - exact D3.
    - pose proof (s_closeCut 0 (Some a) (pt sl) (pt sr) (tagged b2)) as Hs. rewrite R4 in Hs.
      pose proof T2 as (_ & _ & _ & _ & U2). cbn [next tagged withV] in Hs. rewrite Hs. pose proof (proj1 U2) as X2. pose proof (proj1 U1) as X1. cbn in X1, X2. congruence.
  Qed.
End Range.

Section Find.
  Context {K V : Type} (cmp : K -> K -> Z).
  Notation tree := (AvlTree.tree K (nat * V)).
  Notation gmem := (mem K (nat * V)).
  Implicit Types (g : gmem) (lk : TreelistModel.links).

  (** what is done at the range root *)
  Definition cutAt lk (s : Z) (i : nat) (gl gr : tree -> tree * option nat) (l r : tree) : option (tree * cut * (option nat * option nat)) :=
    let pl := sideOf lk i false gl l in
    let pr := sideOf lk i true gr r in
    '(t, x) <- IndexModel.closeCut s (fst pl) (fst pr) ;; Some (t, x, (snd pl, snd pr)).

  Lemma removeRange_nd lk low high s k i v (l r : tree) : TreelistModel.removeRange cmp lk low high (N s k (i, v) l r) =
    let c1 := cmp low k in let c2 := cmp high k in
    if (c1 =? c2) && (c1 <? 0) then '(l', x, dd) <- TreelistModel.removeRange cmp lk low high l ;; Some (IndexModel.upFromCut x s k (i, v) l' r, x, dd)
    else if (c1 =? c2) && (c1 >? 0) then '(r', x, dd) <- TreelistModel.removeRange cmp lk low high r ;; Some (IndexModel.upFromCut x s k (i, v) l r', x, dd)
    else '(t, x, dd) <- cutAt lk s i (TreelistModel.ltrim cmp lk low) (TreelistModel.rtrim cmp lk high) l r ;; Some (t, x, Some dd).
  Proof.
    cbn [TreelistModel.removeRange]. cbv zeta. destruct ((_ =? _) && _); [reflexivity|]. destruct ((_ =? _) && _); [reflexivity|].
    unfold cutAt, sideOf, TreelistModel.closeCut.
    destruct l as [|ls lk0 lv ll lr]; [|destruct (TreelistModel.ltrim _ _ _ _)]; (destruct r as [|rs rk rv rl rr]; [|destruct (TreelistModel.rtrim _ _ _ _)]); cbn [fst snd];
      (destruct (IndexModel.closeCut _ _ _) as [(?, ?)|]; reflexivity).
  Qed.

  Lemma rangeRootT lk low high s : forall g root c n, ok g root c s -> (hgt s < n)%nat ->
    (getRangeRoot cmp low high n (pt s) g = Ret None g /\ TreelistModel.removeRange cmp lk low high (view g s) = Some (view g s, Nothing, None)) \/
    exists c1 a l r, s = plug c1 (B a l r) /\ ok g root (c1 ++ c) (B a l r) /\ getRangeRoot cmp low high n (pt s) g = Ret (Some a) g /\
      TreelistModel.removeRange cmp lk low high (view g s) =
        ('(t, x, dd) <- cutAt lk (Size g a) (fst (Value g a)) (TreelistModel.ltrim cmp lk low) (TreelistModel.rtrim cmp lk high) (view g l) (view g r) ;;
         Some (upCut x (cview g c1) t, x, Some dd)).
  Proof.
    induction s as [|a l IHl r IHr]; intros g root c n Hok Hn; (destruct n as [|n]; [cbn in Hn; lia|]); cbn [pt getRangeRoot isNil view].
    - left. auto.
    - pose proof (proj1 (ok_down g root c a false l r) Hok) as Ol. pose proof (proj1 (ok_down g root c a true r l) Hok) as Or.
      destruct (ok_kid _ _ _ _ _ _ _ Ol) as (K1 & K2). cbn [negb] in K2. cbn [hgt] in Hn.
      erewrite run_bind by apply rd_ok. destruct (Value g a) as (i, v) eqn:Ev. rewrite removeRange_nd. cbv zeta.
      assert (Down : forall d (s y : sh), B a l r = nd a d s y -> Children g a d = pt s -> ok g root ((a, d, y) :: c) s -> (hgt s < n)%nat ->
        (forall g root c n, ok g root c s -> (hgt s < n)%nat ->
          (getRangeRoot cmp low high n (pt s) g = Ret None g /\ TreelistModel.removeRange cmp lk low high (view g s) = Some (view g s, Nothing, None)) \/
          exists c1 a l r, s = plug c1 (B a l r) /\ ok g root (c1 ++ c) (B a l r) /\ getRangeRoot cmp low high n (pt s) g = Ret (Some a) g /\
            TreelistModel.removeRange cmp lk low high (view g s) =
            ('(t, x, dd) <- cutAt lk (Size g a) (fst (Value g a)) (TreelistModel.ltrim cmp lk low) (TreelistModel.rtrim cmp lk high) (view g l) (view g r) ;;
             Some (upCut x (cview g c1) t, x, Some dd))) ->
        let T := '(t, x, dd) <- TreelistModel.removeRange cmp lk low high (view g s) ;; Some (upFromCut x (Size g a) (Key g a) (i, v) (if d then view g y else t) (if d then t else view g y), x, dd) in
        let G := (let! q := rdKid (Some a) d in getRangeRoot cmp low high n q) g in
          (G = Ret None g /\ T = Some (N (Size g a) (Key g a) (i, v) (view g l) (view g r), Nothing, None)) \/
          exists c1 b bl br, B a l r = plug c1 (B b bl br) /\ ok g root (c1 ++ c) (B b bl br) /\ G = Ret (Some b) g /\
            T = ('(t, x, dd) <- cutAt lk (Size g b) (fst (Value g b)) (TreelistModel.ltrim cmp lk low) (TreelistModel.rtrim cmp lk high) (view g bl) (view g br) ;;
                 Some (upCut x (cview g c1) t, x, Some dd))).
      { intros d s y Es Kd O Hh IH T G.
        assert (EG : G = getRangeRoot cmp low high n (pt s) g) by (unfold G; erewrite run_bind by (rewrite rdKid_ok, Kd; reflexivity); reflexivity).
        rewrite EG. destruct (IH g root _ n O Hh) as [(H1 & H2)|(c3 & b & bl & br & H1 & H2 & H3 & H4)]; unfold T.
        - left. split; [exact H1|]. rewrite H2. destruct d; cbn [nd] in Es; injection Es as -> ->; reflexivity.
        - right. exists (c3 ++ [(a, d, y)]), b, bl, br. rewrite <- app_assoc, plug_snoc, <- H1. split; [exact Es|]. split; [exact H2|]. split; [exact H3|].
          rewrite H4. generalize (cutAt lk (Size g b) (fst (Value g b)) (TreelistModel.ltrim cmp lk low) (TreelistModel.rtrim cmp lk high) (view g bl) (view g br)).
          intros [((t, x), dd)|]; [|reflexivity]. cbv beta iota. rewrite cview_app, upCut_app. cbn [cview map fview upCut]. rewrite Ev. reflexivity. }
      assert (Here : exists c1 b bl br, B a l r = plug c1 (B b bl br) /\ ok g root (c1 ++ c) (B b bl br) /\ ret (Some a) g = Ret (Some b) g /\
        ('(t, x, dd) <- cutAt lk (Size g a) i (TreelistModel.ltrim cmp lk low) (TreelistModel.rtrim cmp lk high) (view g l) (view g r) ;; Some (t, x, Some dd)) =
        ('(t, x, dd) <- cutAt lk (Size g b) (fst (Value g b)) (TreelistModel.ltrim cmp lk low) (TreelistModel.rtrim cmp lk high) (view g bl) (view g br) ;;
                 Some (upCut x (cview g c1) t, x, Some dd))).
      { exists [], a, l, r. split; [reflexivity|]. split; [exact Hok|]. split; [reflexivity|]. rewrite Ev. reflexivity. }
      destruct (cmp low (Key g a) =? cmp high (Key g a)); cbn [negb andb] in *; [|right; exact Here].
      destruct (cmp low (Key g a) <? 0); [|destruct (cmp low (Key g a) >? 0); [|right; exact Here]].
      + apply (Down false l r eq_refl K1 Ol ltac:(lia) IHl).
      + apply (Down true r l eq_refl K2 Or ltac:(lia) IHr).
  Qed.

  Lemma removeRangeAt_nd lk low high idx s k i v (l r : tree) : TreelistModel.removeRangeAt lk low high idx (N s k (i, v) l r) =
    if (idx >? low) && (idx >? high) then
      '(l', x, dd) <- TreelistModel.removeRangeAt lk low high (idx - (kidSize true l + 1)) l ;; Some (IndexModel.upFromCut x s k (i, v) l' r, x, dd)
    else if (idx <? high) && (idx <? low) then
      '(r', x, dd) <- TreelistModel.removeRangeAt lk low high (idx + (kidSize false r + 1)) r ;; Some (IndexModel.upFromCut x s k (i, v) l r', x, dd)
    else cutAt lk s i (TreelistModel.ltrimAt lk low idx false) (TreelistModel.rtrimAt lk high idx true) l r.
  Proof.
    cbn [TreelistModel.removeRangeAt]. destruct ((_ >? _) && _); [reflexivity|]. destruct ((_ <? _) && _); [reflexivity|].
    unfold cutAt, sideOf, TreelistModel.closeCut.
    destruct l as [|ls lk0 lv ll lr]; [|destruct (TreelistModel.ltrimAt _ _ _ _ _)]; (destruct r as [|rs rk rv rl rr]; [|destruct (TreelistModel.rtrimAt _ _ _ _ _)]); cbn [fst snd];
      (destruct (IndexModel.closeCut _ _ _) as [(?, ?)|]; reflexivity).
  Qed.

  Lemma rangeRootAtT lk low high s : forall g root c n idx, ok g root c s -> (hgt s < n)%nat -> s <> L ->
    (rangeRootAt low high n idx (pt s) g = Panic g /\ TreelistModel.removeRangeAt lk low high idx (view g s) = None) \/
    exists c1 a l r i, s = plug c1 (B a l r) /\ ok g root (c1 ++ c) (B a l r) /\ rangeRootAt low high n idx (pt s) g = Ret (Some a, i) g /\
      TreelistModel.removeRangeAt lk low high idx (view g s) =
        ('(t, x, dd) <- cutAt lk (Size g a) (fst (Value g a)) (TreelistModel.ltrimAt lk low i false) (TreelistModel.rtrimAt lk high i true) (view g l) (view g r) ;;
         Some (upCut x (cview g c1) t, x, dd)).
  Proof.
    induction s as [|a l IHl r IHr]; intros g root c n idx Hok Hn Hs; [congruence|]. (destruct n as [|n]; [cbn in Hn; lia|]); cbn [pt rangeRootAt view].
    destruct (Value g a) as (i, v) eqn:Ev. rewrite removeRangeAt_nd. cbn [hgt] in Hn.
    pose proof (proj1 (ok_down g root c a false l r) Hok) as Ol. pose proof (proj1 (ok_down g root c a true r l) Hok) as Or.
    destruct (ok_kid _ _ _ _ _ _ _ Ol) as (K1 & K2). cbn [negb] in K2.
    destruct ((idx >? low) && (idx >? high)) eqn:D1; [|destruct ((idx <? high) && (idx <? low)) eqn:D2].
    - rewrite (kid_step g a true false l _ K1 (ok_b _ _ _ _ Ol)).
      destruct l as [|b bl br]; [left; auto|]. set (s := B b bl br) in *.
      destruct (IHl g root _ n (idx - (kidSize true (view g s) + 1)) Ol ltac:(lia) ltac:(discriminate)) as [(H1 & H2)|(c1 & e & el & er & j & H0 & H1 & H2 & H3)].
      + left. rewrite H2. auto.
      + right. exists (c1 ++ [(a, false, r)]), e, el, er, j. rewrite <- app_assoc. rewrite H0 at 1. rewrite plug_snoc, cview_app. cbn [nd cview map fview].
        split; [reflexivity|]. split; [exact H1|]. split; [exact H2|].
        rewrite H3. destruct (cutAt _ _ _ _ _ _ _) as [((t, x), dd)|]; [|reflexivity]. cbv beta iota. rewrite upCut_app. cbn [upCut]. rewrite Ev. reflexivity.
    - rewrite (kid_step g a false true r _ K2 (ok_b _ _ _ _ Or)).
      destruct r as [|b bl br]; [left; auto|]. set (s := B b bl br) in *.
      destruct (IHr g root _ n (idx + (kidSize false (view g s) + 1)) Or ltac:(lia) ltac:(discriminate)) as [(H1 & H2)|(c1 & e & el & er & j & H0 & H1 & H2 & H3)].
      + left. rewrite H2. auto.
      + right. exists (c1 ++ [(a, true, l)]), e, el, er, j. rewrite <- app_assoc. rewrite H0 at 1. rewrite plug_snoc, cview_app. cbn [nd cview map fview].
        split; [reflexivity|]. split; [exact H1|]. split; [exact H2|].
        rewrite H3. destruct (cutAt _ _ _ _ _ _ _) as [((t, x), dd)|]; [|reflexivity]. cbv beta iota. rewrite upCut_app. cbn [upCut]. rewrite Ev. reflexivity.
    - right. exists [], a, l, r, idx. split; [reflexivity|]. split; [exact Hok|]. split; [reflexivity|].
      rewrite Ev. cbn [fst]. destruct (cutAt _ _ _ _ _ _ _) as [((t, x), dd)|]; reflexivity.
  Qed.

  (** ** the calls *)
  Notation tmem := (tmem K V).
  Lemma getRootT (m : tmem) s : ok (tagged (base m)) 0 [] s -> lift (getRoot 0) m = Done (pt s) m.
  Proof. intros H. apply lift_read. apply (getRoot_ok (base m) 0 s). apply ok_base, H. Qed.
  Lemma parts0 g c a l r : ok g 0 c (B a l r) -> ~ In 0%nat (addrs l) /\ ~ In 0%nat (addrs r).
  Proof.
    intros O. pose proof (ok_n _ _ _ _ O) as Hn. apply NoDup_cons_iff in Hn as (Hn & _). split; intros X; apply Hn, in_or_app; right; right; apply in_or_app; auto.
  Qed.

  (** reading, with the values left out *)
  Lemma read_tagged {X} (e' : M K (nat * V) X) (e : M K V X) (m : tmem) x : agree e' e -> e' (tagged (base m)) = Ret x (tagged (base m)) -> lift e m = Done x m.
  Proof.
    intros A H. apply lift_read. specialize (A (tagged (base m)) (Value (base m))).
    assert (Eb : withV (Value (base m)) (tagged (base m)) = base m) by (destruct (base m); reflexivity). rewrite Eb in A. rewrite A, H. cbn [rmap]. rewrite Eb. reflexivity.
  Qed.
  Lemma panics_tagged {X} (e' : M K (nat * V) X) (e : M K V X) (m : tmem) : agree e' e -> e' (tagged (base m)) = Panic (tagged (base m)) -> lift e m = Fail m.
  Proof.
    intros A H. specialize (A (tagged (base m)) (Value (base m))).
    assert (Eb : withV (Value (base m)) (tagged (base m)) = base m) by (destruct (base m); reflexivity). rewrite Eb in A. unfold lift. rewrite A, H. cbn [rmap]. rewrite Eb, tmem_eta. reflexivity.
  Qed.
  Lemma af_getRangeRoot {V1 W} low high p : agree (K := K) (V := V1) (W := W) (fueled (fun n => getRangeRoot cmp low high n p)) (fueled (fun n => getRangeRoot cmp low high n p)).
  Proof. apply a_fueled. intros n. apply a_getRangeRoot. Qed.
  Lemma af_rangeRootAt {V1 W} low high z p : agree (K := K) (V := V1) (W := W) (fueled (fun n => rangeRootAt low high n z p)) (fueled (fun n => rangeRootAt low high n z p)).
  Proof. apply a_fueled. intros n. apply a_rangeRootAt. Qed.

  (** for low before high *)
  Lemma RemoveRange_lt (m : tmem) (s : tl K V) low high t x dd : trep m s -> cmp low high < 0 ->
    TreelistModel.removeRange cmp (lks s) low high (TreelistModel.top s) = Some (t, x, dd) ->
    exists m', RemoveRange cmp 0 low high m = Done (match dd with None => false | _ => true end) m' /\
      trep m' match dd with None => s | Some (p, q) => T t (TreelistModel.unlink p q (lks s)) (fresh s) end.
  Proof.
    intros Hr Hlt H. pose proof Hr as [(x0 & Hok & Ht) Hd Hn]. unfold RemoveRange. cbv zeta.
    replace (cmp low high >? 0) with false by lia. replace (cmp low high =? 0) with false by lia.
    erewrite run_tbind by (apply getRootT, Hok). rewrite <- Ht in H.
    destruct (rangeRootT (lks s) low high x0 (tagged (base m)) 0 [] (S (next (base m))) Hok (ok_hgt _ _ _ _ Hok)) as [(H1 & H2)|(c & a & l & r & H0 & O & H1 & H2)];
      (erewrite run_tbind by (apply (read_tagged _ _ _ _ (af_getRangeRoot low high (pt x0))); exact H1)); rewrite H2 in H.
    - injection H as <- <- <-. exists m. split; [reflexivity|exact Hr].
    - rewrite app_nil_r in O.
      destruct (cutAt _ _ _ _ _ _ _) as [((t1, x1), (p, q))|] eqn:Ec; [|discriminate]. injection H as <- <- <-.
      cbn [isNil]. unfold cutAt in Ec. destruct (IndexModel.closeCut _ _ _) as [(t2, x2)|] eqn:Ecc; [|discriminate]. injection Ec as <- <- <- <-.
      destruct (parts _ _ _ _ _ _ O) as (Nl & Nr & Hl & Hh). destruct (parts0 _ _ _ _ _ O) as (Zl & Zr).
      pose proof (ok_b _ _ _ _ O) as Hb. apply (body_nd _ a false l r) in Hb. destruct Hb as (_ & _ & _ & _ & Bl & Br).
      destruct (cutHereT_ok (lks s) (fresh s) m c a l r (fun q => tfueled (fun n => trim cmp true low n q None)) (fun q => tfueled (fun n => trim cmp false high n q None))
        (TreelistModel.ltrim cmp (lks s) low) (TreelistModel.rtrim cmp (lks s) high) t2 x2 O Hd Hn) as (ql & qr & m1 & m2 & m3 & m4 & R1 & R2 & R3 & R4 & Rep).
      + intros _. unfold tfueled. apply (trimT_ok cmp (lks s) true low l m (S (next (base m))) None Hd Bl Nl Zl Hl).
      + intros b Bb Nb _. unfold tfueled. cbn [base]. rewrite Nb. apply (trimT_ok cmp (lks s) false high r (TMem b (Direct m)) (S (next (base m))) None Hd Bb Nr Zr Hh).
      + exact Ecc.
      + exists m4. split; [|exact Rep]. erewrite run_tbind by exact R1. erewrite run_tbind by exact R2. erewrite run_tbind by exact R3. erewrite run_tbind by exact R4. reflexivity.
  Qed.

  (** how the calls by position start *)
  Lemma startT (m : tmem) x0 {X} (f : ptr -> Z -> TM K V X) : ok (tagged (base m)) 0 [] x0 ->
    (let? cur := lift (getRoot 0) in let? w := lift (rdKid cur false) in let? idx := lift (getSize w) in f cur idx) m =
    match x0 with L => Fail m | _ => f (pt x0) (kidSize false (view (tagged (base m)) x0)) m end.
  Proof.
    intros Hok. erewrite run_tbind by (apply getRootT, Hok). destruct x0 as [|b bl br].
    - cbn [pt]. unfold tbind, lift, rdKid, rd. rewrite tmem_eta. reflexivity.
    - destruct (ok_b _ _ _ _ Hok) as (Kl & _). cbn [pt]. erewrite run_tbind by (rewrite lift_kid; reflexivity).
      change (Children (base m) b false) with (Children (tagged (base m)) b false). rewrite Kl. erewrite run_tbind by (apply lift_read, getSize_ok).
      unfold gs. destruct bl; reflexivity.
  Qed.

  Lemma sized_ltrimAtT lk low (t : tree) : forall idx dir, sized t -> sized (fst (TreelistModel.ltrimAt lk low idx dir t)).
  Proof.
    induction t as [|z k (i, v) l IHl r IHr]; intros idx dir H; [exact I|]. pose proof H as (_ & Hl & Hr). cbn [TreelistModel.ltrimAt]. cbv zeta.
    destruct (_ <? low).
    - specialize (IHr (if dir then idx + (TreelistModel.getSize l + 1) else idx - (TreelistModel.getSize r + 1)) true Hr).
      destruct (TreelistModel.ltrimAt _ _ _ _ r) as (t', dl). cbn [fst] in *. apply IndexProofs.sum_sized; assumption.
    - destruct (_ >? low); [|exact Hl]. destruct l; [exact I|]. apply IHl, Hl.
  Qed.
  Lemma sized_rtrimAtT lk high (t : tree) : forall idx dir, sized t -> sized (fst (TreelistModel.rtrimAt lk high idx dir t)).
  Proof.
    induction t as [|z k (i, v) l IHl r IHr]; intros idx dir H; [exact I|]. pose proof H as (_ & Hl & Hr). cbn [TreelistModel.rtrimAt]. cbv zeta.
    destruct (_ >? high).
    - specialize (IHl (if dir then idx + (TreelistModel.getSize l + 1) else idx - (TreelistModel.getSize r + 1)) false Hl).
      destruct (TreelistModel.rtrimAt _ _ _ _ l) as (t', dl). cbn [fst] in *. apply IndexProofs.sum_sized; assumption.
    - destruct (_ <? high); [|exact Hr]. destruct r; [exact I|]. apply IHr, Hr.
  Qed.
  Lemma sized_sideOf lk i b f (t : tree) : (sized t -> sized (fst (f t))) -> sized t -> sized (fst (sideOf lk i b f t)).
  Proof. intros H Ht. destruct t; [exact I|]. apply H, Ht. Qed.

  Lemma RemoveRangeByIndex_le (m : tmem) (s : tl K V) low high : trep m s -> low <= high -> sized (TreelistModel.top s) ->
    match TreelistModel.removeRangeAt (lks s) low high (kidSize false (TreelistModel.top s)) (TreelistModel.top s) with
    | None => RemoveRangeByIndex 0 low high m = Fail m
    | Some (t, _, (p, q)) => exists m', RemoveRangeByIndex 0 low high m = Done tt m' /\ trep m' (T t (TreelistModel.unlink p q (lks s)) (fresh s))
    end.
  Proof.
    intros Hr Hle Hz. pose proof Hr as [(x0 & Hok & Ht) Hd Hn]. unfold RemoveRangeByIndex.
    replace (low >? high) with false by lia. rewrite (startT m x0 _ Hok). rewrite <- Ht.
    destruct x0 as [|b0 bl0 br0] eqn:Ex; [reflexivity|]. rewrite <- Ex in *.
    assert (Hne : x0 <> L) by (rewrite Ex; discriminate). clear Ex b0 bl0 br0.
    destruct (rangeRootAtT (lks s) low high x0 (tagged (base m)) 0 [] (S (next (base m))) (kidSize false (view (tagged (base m)) x0)) Hok (ok_hgt _ _ _ _ Hok) Hne)
      as [(H1 & H2)|(c & a & l & r & i & H0 & O & H1 & H2)]; rewrite H2.
    - apply fail_tbind. apply (panics_tagged _ _ _ (af_rangeRootAt low high _ (pt x0))). exact H1.
    - erewrite run_tbind by (apply (read_tagged _ _ _ _ (af_rangeRootAt low high _ (pt x0))); exact H1). cbv beta iota.
      rewrite app_nil_r in O. unfold cutAt.
      set (pl := sideOf _ _ _ _ _). set (pr := sideOf _ _ _ _ _).
      assert (Hz' : sized (view (tagged (base m)) (B a l r))) by (rewrite <- Ht, H0, view_plug in Hz; exact (sized_tplug _ _ Hz)).
      pose proof Hz' as (_ & Zl & Zr).
      destruct (IndexProofs.closeCut_ok (view (tagged (base m)) (B a l r)) (fst pl) (fst pr) Hz') as (t1 & x & Ec & _).
      { apply sized_sideOf; [apply sized_ltrimAtT|exact Zl]. } { apply sized_sideOf; [apply sized_rtrimAtT|exact Zr]. }
      cbn [view IndexModel.getSize] in Ec. rewrite Ec.
      destruct (parts _ _ _ _ _ _ O) as (Nl & Nr & Hl & Hh). destruct (parts0 _ _ _ _ _ O) as (Z0l & Z0r).
      pose proof (ok_b _ _ _ _ O) as Hb. apply (body_nd _ a false l r) in Hb. destruct Hb as (_ & _ & _ & _ & Bl & Br).
      destruct (cutHereT_ok (lks s) (fresh s) m c a l r (fun q => tfueled (fun n => trimAt true low n i false q None)) (fun q => tfueled (fun n => trimAt false high n i true q None))
        (TreelistModel.ltrimAt (lks s) low i false) (TreelistModel.rtrimAt (lks s) high i true) t1 x O Hd Hn) as (ql & qr & m1 & m2 & m3 & m4 & R1 & R2 & R3 & R4 & Rep).
      + intros _. unfold tfueled. apply (trimAtT_ok (lks s) true low l m (S (next (base m))) i false None Hd Bl Nl Z0l Hl).
      + intros b Bb Nb _. unfold tfueled. cbn [base]. rewrite Nb. apply (trimAtT_ok (lks s) false high r (TMem b (Direct m)) (S (next (base m))) i true None Hd Bb Nr Z0r Hh).
      + exact Ec.
      + exists m4. split; [|exact Rep]. erewrite run_tbind by exact R1. erewrite run_tbind by exact R2. erewrite run_tbind by exact R3. exact R4.
  Qed.
End Find.
