(** tree/treelist in memory: removing one node. *)
From Verif Require Import Base Bind Machine AvlTree AvlSpec IndexSpec TreelistSpec TreelistModel TreelistLinks TreelistProofs IndexModel
  IndexHeapModel IndexHeapProofs IndexHeapPutProofs IndexHeapReadProofs IndexHeapRemoveProofs TreelistHeapModel TreelistHeapProofs.
Local Open Scope Z_scope.

Section Replace.
  Context {K V : Type}.
  (** the part of replaceBy after the assignments to Key and Value *)
  Definition takeOut {W} (root : nat) (L : bool) (cur prev : ptr) : M K W unit :=
    let! prevParent := rd Parent prev in
    let! w := rdKid prev L in
    if eqp prevParent cur then
      wr (setKid L w) cur ;!
      (if negb (isNil w) then wr (setParent cur) w else ret tt) ;!
      fueled (fun n => fixRemoveSize root n cur)
    else
      wr (setKid (negb L) w) prevParent ;!
      (if negb (isNil w) then wr (setParent prevParent) w else ret tt) ;!
      fueled (fun n => fixRemoveSize root n prevParent).
  Hint Resolve a_fixRemoveSize : agr.
  Lemma a_takeOut {W} root L cur prev : agree (takeOut (W := V) root L cur prev) (takeOut (W := W) root L cur prev).
  Proof. unfold takeOut. agr. Qed.

  Lemma replaceBy_split {W} root L cur (m : mem K W) : replaceBy root L cur m =
    (let! q := rdKid cur L in
     let! prev := fueled (fun n => lastNode (negb L) n q) in
     let! value := rd Value cur in
     let! k := rd Key prev in wr (setKey k) cur ;!
     let! v := rd Value prev in wr (setValue v) cur ;!
     takeOut root L cur prev ;! ret value) m.
  Proof.
    unfold replaceBy, takeOut, bind. destruct (rdKid cur L m) as [q m1|m1|]; try reflexivity. destruct (fueled _ m1) as [prev m2|m2|]; try reflexivity.
    destruct (rd Value cur m2) as [value m3|m3|]; try reflexivity. destruct (rd Key prev m3) as [k m4|m4|]; try reflexivity.
    destruct (wr (setKey k) cur m4) as [? m5|m5|]; try reflexivity. destruct (rd Value prev m5) as [v m6|m6|]; try reflexivity.
    destruct (wr (setValue v) cur m6) as [? m7|m7|]; try reflexivity. destruct (rd Parent prev m7) as [pp m8|m8|]; try reflexivity.
    destruct (rdKid prev L m8) as [w m9|m9|]; reflexivity.
  Qed.

  Lemma replaceBy_tagged root L a (m : mem K V) v g : replaceBy root L (Some a) (tagged m) = Ret v g ->
    exists m' b, replaceBy root L (Some a) m = Ret (snd v) m' /\ g = withV (upd (tag m) a (tag m b)) m' /\ Value m' = upd (Value m) a (Value m b).
  Proof.
    rewrite !replaceBy_split. unfold bind, rdKid, rd. cbv beta iota.
    assert (F : forall W q, agree (K := K) (V := V) (W := W) (fueled (fun n => lastNode (negb L) n q)) (fueled (fun n => lastNode (negb L) n q)))
      by (intros W q; apply a_fueled; intros n; apply a_lastNode).
    assert (Er : fueled (fun n => lastNode (negb L) n (Children (tagged m) a L)) (tagged m) = rmap (tag m) (fueled (fun n => lastNode (negb L) n (Children m a L)) m))
      by exact (F (nat * V)%type (Children m a L) m (tag m)).
    rewrite Er.
    destruct (fueled (fun n => lastNode (negb L) n (Children m a L)) m) as [[b|] m1|m1|] eqn:El; cbn [rmap]; try discriminate.
    pose proof (agree_value _ _ _ _ (F V (Children m a L)) El) as Hv.
    unfold wr, ret. cbv beta iota.
    set (m2 := setValue (Value (setKey (Key m1 b) a m1) b) a (setKey (Key m1 b) a m1)).
    change (setValue (Value (setKey (Key (withV (tag m) m1) b) a (withV (tag m) m1)) b) a (setKey (Key (withV (tag m) m1) b) a (withV (tag m) m1)))
      with (withV (upd (tag m) a (tag m b)) m2).
    rewrite (a_takeOut (W := nat * V) root L (Some a) (Some b)).
    destruct (takeOut root L (Some a) (Some b) m2) as [u m3|m3|] eqn:Et; cbn [rmap]; try discriminate.
    intros X. injection X as <- <-. exists m3, b. cbn [snd Value withV tag]. split; [rewrite Hv; reflexivity|]. split; [reflexivity|].
    rewrite (agree_value _ _ _ _ (a_takeOut root L (Some a) (Some b)) Et). unfold m2. cbn. rewrite Hv. reflexivity.
  Qed.
End Replace.

Section Remove.
  Context {K V : Type}.
  Notation tmem := (tmem K V).
  Notation tree := (tree K (nat * V)).
  Notation tframe := (tframe (K := K) (V := nat * V)).
  Implicit Types (m : tmem) (t : tree).

  (** ** where removeAt finds the node *)
  Lemma ids_fill (s : Z) (k : K) i (v : V) d y t x : NoDup (ids (elems (tfill (s, k, (i, v), d, y) t))) -> In x (ids (elems t)) ->
    i <> x /\ ~ In x (ids (elems y)) /\ NoDup (ids (elems t)).
  Proof.
    cbn [tfill]. destruct d; cbn [tnd elems]; rewrite ids_app, ids_cons; cbn [fst snd]; intros Hn Hx.
    - pose proof (NoDup_app_remove_l _ _ Hn) as Hn'. apply NoDup_cons_iff in Hn' as (H1 & H2).
      split; [intros ->; contradiction|]. split; [|exact H2]. intros Hy. eapply nodup_apart; [exact Hn|exact Hy|right; exact Hx].
    - pose proof (NoDup_app_remove_r _ _ Hn) as Hn'.
      split; [intros ->; eapply nodup_apart; [exact Hn|exact Hx|left; reflexivity]|]. split; [|exact Hn'].
      intros Hy. eapply nodup_apart; [exact Hn|exact Hx|right; exact Hy].
  Qed.
  Lemma in_fill f t x : In x (ids (elems t)) -> In x (ids (elems (tfill f t))).
  Proof. destruct f as [[[[s k] [i v]] d] y]. cbn [tfill]. destruct d; cbn [tnd elems]; rewrite ids_app, ids_cons, in_app_iff; cbn [In]; tauto. Qed.
  Lemma in_plug (C : list tframe) : forall t x, In x (ids (elems t)) -> In x (ids (elems (tplug C t))).
  Proof. induction C as [|f C IH]; intros t x H; [exact H|]. cbn [tplug]. apply IH, in_fill, H. Qed.
  Lemma nodup_plug (C : list tframe) : forall t, NoDup (ids (elems (tplug C t))) -> NoDup (ids (elems t)).
  Proof.
    induction C as [|[[[[s k] [i v]] d] y] C IH]; intros t H; [exact H|]. cbn [tplug] in H. apply IH in H. revert H. cbn [tfill].
    destruct d; cbn [tnd elems]; rewrite ids_app, ids_cons; intros H; [apply NoDup_app_remove_l in H; apply NoDup_cons_iff in H; tauto|apply NoDup_app_remove_r in H; exact H].
  Qed.
  Lemma removeAt_fill f t x : NoDup (ids (elems (tfill f t))) -> In x (ids (elems t)) ->
    removeAt x (tfill f t) = (p <- removeAt x t ;; Some (tfill (dec f) (fst p), snd p)).
  Proof.
    destruct f as [[[[s k] [i v]] d] y]. intros Hn Hx. destruct (ids_fill _ _ _ _ _ _ _ _ Hn Hx) as (H1 & H2 & _).
    cbn [tfill dec]. destruct d; cbn [tnd removeAt]; (destruct (Nat.eqb_spec i x); [contradiction|]).
    - rewrite (removeAt_none x y H2). destruct (removeAt x t) as [(t', res)|]; reflexivity.
    - rewrite (removeAt_none x y H2). destruct (removeAt x t) as [(t', res)|]; reflexivity.
  Qed.
  Lemma removeAt_plug (C : list tframe) : forall t x, NoDup (ids (elems (tplug C t))) -> In x (ids (elems t)) ->
    removeAt x (tplug C t) = (p <- removeAt x t ;; Some (tplug (decs C) (fst p), snd p)).
  Proof.
    induction C as [|f C IH]; intros t x Hn Hx; cbn [tplug decs map].
    - destruct (removeAt x t) as [(t', res)|]; reflexivity.
    - rewrite (IH (tfill f t) x Hn (in_fill f t x Hx)). cbn [tplug] in Hn. apply nodup_plug in Hn. rewrite (removeAt_fill f t x Hn Hx).
      destruct (removeAt x t) as [(t', res)|]; reflexivity.
  Qed.
  (** only the node at the top has its number *)
  Lemma top_id (C : list tframe) t x : NoDup (ids (elems (tplug C t))) -> In x (ids (elems t)) -> C <> [] ->
    match tplug C t with N _ _ (i, _) _ _ => Nat.eqb i x | E => false end = false.
  Proof.
    intros Hn Hx HC. destruct (exists_last HC) as (C' & [[[[s k] [i v]] d] y] & ->). rewrite tplug_snoc in *.
    pose proof (in_plug C' t x Hx) as Hx'. destruct (ids_fill _ _ _ _ _ _ _ _ Hn Hx') as (H1 & _).
    cbn [tfill]. destruct d; cbn [tnd]; apply Nat.eqb_neq; exact H1.
  Qed.

  (** ** removeNode *)
  Lemma takeOver_links (L : bool) m lk x lk' : dirs (Direct m) lk ->
    (match (if L then TookNext else TookPrev) with
     | TookPrev => p <- d lk x false ;; Some (TreelistModel.unlink (d lk p false) (Some x) lk)
     | TookNext => n <- d lk x true ;; Some (TreelistModel.unlink (Some x) (d lk n true) lk)
     | Leaf => None end) = Some lk' ->
    exists dir, (let? q := rdDir (addr (Some x)) L in
      let? dleft := rdDir q L in
      (if negb (isNil dleft) then wrDir dleft (negb L) (addr (Some x)) else wrDir (Some 0%nat) L (addr (Some x))) ;?
      wrDir (addr (Some x)) L dleft) m = Done tt (TMem (base m) dir) /\ dirs dir lk'.
  Proof.
    intros Hd H. erewrite run_tbind by (apply (rdDir_node _ lk); exact Hd).
    assert (Hq : exists p, d lk x L = Some p /\ lk' = if L then TreelistModel.unlink (Some x) (d lk p true) lk else TreelistModel.unlink (d lk p false) (Some x) lk).
    { destruct L; (destruct (d lk x _) as [p|]; [|discriminate]); injection H as <-; eauto. }
    destruct Hq as (p & -> & ->). erewrite run_tbind by (apply (rdDir_node _ lk); exact Hd). rewrite nil_addr.
    set (y := d lk p L).
    assert (H1 : exists dir, (if negb match y with Some _ => false | None => true end then wrDir (addr y) (negb L) (addr (Some x)) else wrDir (Some 0%nat) L (addr (Some x))) m = Done tt (TMem (base m) dir) /\
      dirs dir match y with Some z => TreelistModel.setd z (negb L) (Some x) lk | None => TreelistModel.sete L (Some x) lk end).
    { destruct y; [apply wrDir_node, Hd|apply wrDir_root, Hd]. }
    destruct H1 as (dir1 & R1 & D1). erewrite run_tbind by exact R1.
    destruct (wrDir_node (TMem (base m) dir1) _ x L y D1) as (dir2 & R2 & D2). exists dir2. split; [exact R2|].
    destruct L; [|exact D2]. destruct D2 as (H1 & H2). split.
    - intros i b. rewrite H1. f_equal. unfold TreelistModel.unlink. fold y. destruct y; cbn [setd sete d]; [|reflexivity].
      destruct b; cbn [negb Bool.eqb]; rewrite ?Bool.andb_false_r, ?Bool.andb_true_r; reflexivity.
    - intros b. rewrite H2. unfold TreelistModel.unlink. fold y. destruct y; reflexivity.
  Qed.

  Lemma slice_run m a : slice (Some a) m = Done (Key (base m) a, Value (base m) a) m.
  Proof. destruct m; reflexivity. Qed.

  Lemma removeNode_ok m s c a l r s' out : ok (tagged (base m)) 0 c (B a l r) ->
    tplug (cview (tagged (base m)) c) (view (tagged (base m)) (B a l r)) = TreelistModel.top s ->
    dirs (Direct m) (lks s) -> next (base m) = S (fresh s) -> NoDup (ids (elems (TreelistModel.top s))) ->
    TreelistModel.removeNode (pred a) s = Some (s', TSlice out) ->
    exists m', removeNode 0 (Some a) m = Done (Key (base m) a, Value (base m) a) m' /\
      out = Some (Key (base m) a, Value (base m) a) /\ trep m' s'.
  Proof.
    intros Hok Ht Hd Hn Hnd H. set (g := tagged (base m)) in *.
    destruct (ok_notin _ _ _ a false l r Hok) as (_ & _ & Nc & Ha0).
    assert (Ea : Some a = addr (Some (pred a))) by (cbn; f_equal; lia).
    assert (Hin : In (pred a) (ids (elems (view g (B a l r))))).
    { cbn [view elems]. rewrite ids_app, ids_cons, in_app_iff. right. left. reflexivity. }
    unfold TreelistModel.removeNode in H. rewrite <- Ht in H, Hnd. rewrite (removeAt_plug _ _ _ Hnd Hin) in H.
    assert (Et : removeAt (pred a) (view g (B a l r)) =
      if Size (base m) a =? 1 then Some (E, ((Key (base m) a, Value (base m) a), Leaf))
      else if IndexModel.getSize (view g l) >? IndexModel.getSize (view g r) then
            '(l', (pk, (_, pv))) <- takeEnd true (view g l) ;; Some (N (Size (base m) a - 1) pk (pred a, pv) l' (view g r), ((Key (base m) a, Value (base m) a), TookPrev))
          else
            '(r', (nk, (_, nv))) <- takeEnd false (view g r) ;; Some (N (Size (base m) a - 1) nk (pred a, nv) (view g l) r', ((Key (base m) a, Value (base m) a), TookNext))).
    { cbn [view removeAt g tagged withV Value tag Size Key]. unfold tag. rewrite Nat.eqb_refl. reflexivity. }
    rewrite Et in H. clear Et. pose proof (ok_base _ _ _ _ Hok) as Hok'.
    unfold removeNode. erewrite run_tbind by apply slice_run. erewrite run_tbind by apply lift_rd.
    destruct (Size (base m) a =? 1).
    - cbv beta iota in H. cbn [fst snd] in H.
      pose proof (ok_h _ _ _ _ Hok') as Hh. cbn [hangs] in Hh. erewrite run_tbind by (rewrite lift_rd, Hh; reflexivity).
      rewrite (ok_top _ _ _ _ Hok).
      assert (O1 : ok (put_at 0 c L g) 0 c L) by (apply (shrink_ok g 0 c (B a l r) L Hok); [intros z []|constructor|exact I]).
      unfold put_at in O1. cbn [hook pt] in O1. set (g1 := setKid (cdir c) None (top 0 c) g) in *.
      destruct c as [|f c].
      + cbn [cview map tplug decs view] in H. cbn [tagged g withV Value] in H. unfold tag in H. rewrite Nat.eqb_refl in H. cbn [removeLinks] in H. cbv beta iota in H. injection H as <- <-.
        cbn [negb top]. erewrite run_tbind by reflexivity.
        set (m1 := TMem _ _).
        destruct (wrDir_root m1 (lks s) false None Hd) as (d1 & R1 & D1). cbn [addr option_map] in R1. erewrite run_tbind by exact R1.
        destruct (wrDir_root (TMem (base m1) d1) _ true None D1) as (d2 & R2 & D2). cbn [addr option_map] in R2. erewrite run_tbind by exact R2.
        eexists. split; [reflexivity|]. split; [reflexivity|]. constructor; cbn [base Direct TreelistModel.top lks fresh]; [|exact D2|exact Hn].
        exists L. split; [exact O1|reflexivity].
      + rewrite top_id in H; [|exact Hnd|exact Hin|destruct f as ((?, ?), ?); discriminate].
        cbn [removeLinks] in H. cbv beta iota in H. injection H as <- <-. cbn [negb].
        erewrite run_tbind by (apply lift_read, (getRelationship_ok _ _ _ _ _ _ Hok')).
        erewrite run_tbind by reflexivity. set (m1 := TMem _ _). change g1 with (tagged (base m1)) in O1.
        destruct (fixRemoveSize_ok 0 (f :: c) (tagged (base m1)) L (S (next (base m1))) O1) as (g2 & R2 & O2 & W2 & C2 & N2 & V2).
        { pose proof (ok_fuel _ _ _ _ O1). change (next (base m1)) with (next (tagged (base m1))). lia. }
        destruct (lift_tagged (fueled (fun n => fixRemoveSize 0 n (Some (top 0 (f :: c))))) (fueled (fun n => fixRemoveSize 0 n (Some (top 0 (f :: c))))) m1 tt g2) as (b2 & R3 & -> & _).
        { apply a_fueled; intros; apply a_fixRemoveSize. } { apply a_fueled; intros; apply a_fixRemoveSize. } { exact R2. }
        erewrite run_tbind by exact R3. rewrite Ea. set (m2 := TMem b2 _).
        erewrite run_tbind by (apply (rdDir_node m2 (lks s)); exact Hd). erewrite run_tbind by (apply (rdDir_node m2 (lks s)); exact Hd).
        destruct (unlink_run m2 (lks s) (d (lks s) (pred a) false) (d (lks s) (pred a) true) Hd) as (dir & R4 & D4).
        erewrite run_tbind by exact R4. eexists. split; [reflexivity|]. split; [reflexivity|].
        constructor; cbn [base Direct TreelistModel.top lks fresh]; [|exact D4|unfold m2; cbn [base]; change (next (tagged b2) = S (fresh s)); rewrite N2; exact Hn].
        exists (plug (f :: c) L). split; [apply (proj1 (ok_plug _ _ _ _)); exact O2|]. cbn [base m2]. rewrite view_plug, W2, C2.
        rewrite (cview_keep g (tagged (base m1))) by (apply data_all; reflexivity). reflexivity.
    - assert (Hk := ok_b _ _ _ _ Hok'). cbn [body] in Hk. destruct Hk as (Kl & Kr & _).
      erewrite run_tbind by (apply lift_read, (getChildrenSize_ok _ _ false l r); assumption). cbn [fst snd]. unfold gs.
      assert (Sz : forall z, IndexModel.getSize (view (base m) z) = IndexModel.getSize (view g z)) by (intros [|]; reflexivity).
      rewrite !Sz.
      assert (Hgo : forall (d : bool) x y t' pk i pv, nd a d x y = B a l r -> takeEnd (negb d) (view g x) = Some (t', (pk, (i, pv))) ->
        (lk <- removeLinks (pred a) match tplug (cview g c) (view g (B a l r)) with N _ _ (i, _) _ _ => Nat.eqb i (pred a) | E => false end (if d then TookNext else TookPrev) (lks s) ;;
          Some (T (tplug (decs (cview g c)) (tnd (Size (base m) a - 1) pk (pred a, pv) d t' (view g y))) lk (fresh s), @TSlice K V (Some (Key (base m) a, Value (base m) a)))) = Some (s', TSlice out) ->
        exists m', (takeOver 0 d (Some a) ;? pure (Key (base m) a, Value (base m) a)) m = Done (Key (base m) a, Value (base m) a) m' /\
          out = Some (Key (base m) a, Value (base m) a) /\ trep m' s').
      { intros d x y t' pk i pv Es Et H1. rewrite <- Es in Hok.
        destruct (replaceBy_at g 0 c a d x y t' (pk, (i, pv)) Hok) as (g1 & x' & R & O & C & Vx & Vy & S' & K' & V' & N'); [intros ->; destruct d; discriminate|exact Et|].
        destruct (replaceBy_tagged 0 d a (base m) _ g1 R) as (b1 & b & R1 & -> & Hv).
        unfold takeOver. unfold tbind at 1 2. rewrite (lift_ok _ _ _ _ R1). set (m1 := TMem b1 (Direct m)).
        destruct (removeLinks _ _ _ _) as [lk'|] eqn:El; [|discriminate]. injection H1 as <- <-.
        assert (El' : match (if d then TookNext else TookPrev) with
          | TookPrev => p <- TreelistModel.d (lks s) (pred a) false ;; Some (TreelistModel.unlink (TreelistModel.d (lks s) p false) (Some (pred a)) (lks s))
          | TookNext => n <- TreelistModel.d (lks s) (pred a) true ;; Some (TreelistModel.unlink (Some (pred a)) (TreelistModel.d (lks s) n true) (lks s))
          | Leaf => None end = Some lk') by (destruct d; exact El).
        destruct (takeOver_links d m1 (lks s) (pred a) lk' Hd El') as (dir & R2 & D2). rewrite Ea. rewrite R2. eexists. split; [reflexivity|]. split; [reflexivity|].
        constructor; cbn [base Direct TreelistModel.top lks fresh]; [|exact D2|change (next b1 = S (fresh s)); rewrite <- Hn; exact N'].
        unfold m1. cbn [base].
        set (g1 := withV _ b1) in *.
        assert (Hod : onlyData g1 (tagged b1) a).
        { split; [reflexivity|]. split; [reflexivity|]. split; [reflexivity|]. intros e He. split; [reflexivity|]. split; [reflexivity|].
          unfold g1. cbn. unfold tag. rewrite Hv. cbn. rewrite !upd_ne by exact He. reflexivity. }
        destruct (put_data g1 (tagged b1) 0 c a d x' y Hod O) as (O1 & V1 & V2 & (N1 & C1)).
        exists (plug c (nd a d x' y)). split; [apply (proj1 (ok_plug _ _ _ _)); exact O1|].
        rewrite view_plug, view_nd, C1, C, V1, V2, Vx, Vy. f_equal.
        assert (Ev : Value (tagged b1) a = (pred a, pv)).
        { cbn. unfold tag. rewrite Hv. rewrite upd_eq. f_equal. unfold g1 in V'. cbn in V'. rewrite upd_eq in V'. unfold tag in V'. injection V' as _ ->. reflexivity. }
        rewrite Ev. change (Size (tagged b1) a) with (Size g1 a). change (Key (tagged b1) a) with (Key g1 a). rewrite S', K'. reflexivity. }
      destruct (IndexModel.getSize (view g l) >? IndexModel.getSize (view g r)); cbn [negb].
      + destruct (takeEnd true (view g l)) as [(l', (pk, (i, pv)))|] eqn:Et; cbv beta iota in H; [|discriminate H]. apply (Hgo false l r l' pk i pv eq_refl Et H).
      + destruct (takeEnd false (view g r)) as [(r', (pk, (i, pv)))|] eqn:Et; cbv beta iota in H; [|discriminate H]. apply (Hgo true r l r' pk i pv eq_refl Et H).
  Qed.
End Remove.
