(** tree/indextree in memory: Remove and RemoveIndex. *)
From Coq Require Import Permutation.
From Verif Require Import Base Bind Machine AvlTree AvlModel AvlSpec IndexSpec IndexModel.
From Verif Require Import IndexHeapModel IndexHeapProofs IndexHeapPutProofs IndexHeapReadProofs.
From Verif Require IndexProofs.
Local Open Scope Z_scope.

Section Place.
  Context {K V : Type}.
  Notation mem := (mem K V).
  Notation tree := (tree K V).
  Notation tframe := (tframe (K := K) (V := V)).
  Implicit Types m : mem.

  (** another subtree [s] put into a place *)
  Definition put_at (root : nat) (c : list frame) (s : sh) m : mem := hook (top root c) s (setKid (cdir c) (pt s) (top root c) m).
  Lemma place_ok m root c x s : cok m root c x -> NoDup (root :: caddrs c ++ addrs s) ->
    (forall a, In a (root :: caddrs c ++ addrs s) -> (a < next m)%nat) -> body m s -> ok (put_at root c s m) root c s.
  Proof.
    intros Hc Hn Hl Hb. unfold put_at. change (root :: caddrs c ++ addrs s) with ((root :: caddrs c) ++ addrs s) in Hn.
    apply nodup_app in Hn as (Nc & Ns & Nd). pose proof (top_in root c) as Ht. set (p := top root c) in *.
    assert (Hx : forall y, In y (addrs s) -> y <> p) by (intros y Hy ->; exact (Nd p Ht Hy)).
    constructor.
    - eapply cok_change; [exact Nc| | |exact Hc].
      + split.
        * intros y Hy. rewrite Parent_hook; [reflexivity|]. intros X. apply pt_in in X. exact (Nd y (or_intror Hy) X).
        * intros y e Hy Hne. fold p in Hne. mm. destruct (Nat.eq_dec y p) as [->|Hyp].
          -- rewrite upd_eq. destruct (Bool.eqb_spec e (cdir c)); [congruence|reflexivity].
          -- rewrite upd_ne by exact Hyp. reflexivity.
      + fold p. mm. reflexivity.
    - apply hangs_hook.
    - apply (body_keep' m); [exact Ns| | |exact Hb].
      + intros y e Hy. mm. rewrite upd_ne by (apply Hx, Hy). reflexivity.
      + intros y Hy Hne. rewrite Parent_hook by exact Hne. reflexivity.
    - apply (nodup_app (root :: caddrs c)). auto.
    - intros a Ha. mm. apply Hl, Ha.
  Qed.
  Lemma put_at_data root c s m : Size (put_at root c s m) = Size m /\ Key (put_at root c s m) = Key m /\ Value (put_at root c s m) = Value m /\ next (put_at root c s m) = next m.
  Proof. unfold put_at. mm. auto. Qed.
  Lemma data_all m m' l : Size m' = Size m -> Key m' = Key m -> Value m' = Value m -> data m m' l.
  Proof. intros H1 H2 H3 a _. rewrite H1, H2, H3. auto. Qed.

  Lemma getRelationship_ok m root c a l r : ok m root c (B a l r) -> getRelationship (Some a) m = Ret (cdir c) m.
  Proof.
    intros Hok. pose proof (ok_h _ _ _ _ Hok) as Hh. cbn [hangs] in Hh. unfold getRelationship.
    erewrite run_bind by (rewrite rd_ok, Hh; reflexivity). erewrite run_bind by apply rdKid_ok. unfold ret.
    pose proof (cok_dir _ _ _ _ (ok_c _ _ _ _ Hok)) as H1. pose proof (cok_other _ _ _ _ _ _ Hok) as H2. cbn [pt] in H1.
    destruct (cdir c); cbn [negb] in H2.
    - rewrite H1, eqp_refl. reflexivity.
    - rewrite (eqp_ne _ _ H2). reflexivity.
  Qed.

  Lemma fixRemoveSize_ok root c : forall m s n, ok m root c s -> (length c < n)%nat ->
    exists m', fixRemoveSize root n (Some (top root c)) m = Ret tt m' /\ ok m' root c s /\ view m' s = view m s /\
      cview m' c = decs (cview m c) /\ next m' = next m /\ Value m' = Value m.
  Proof.
    induction c as [|((a, d), y) c IH]; intros m s n Hok Hn; (destruct n as [|n]; [cbn in Hn; lia|]); cbn [fixRemoveSize]; rewrite (ok_top _ _ _ _ Hok).
    - exists m. repeat (split; [first [reflexivity|assumption]|]). reflexivity.
    - cbn [top]. erewrite run_bind by apply rd_ok. erewrite run_bind by reflexivity.
      pose proof (ok_parent _ _ _ _ _ _ _ Hok) as Hp. rewrite <- ok_down in Hok.
      destruct (put_data m _ root c a d s y (setSize_only (Size m a - 1) a m) Hok) as (O1 & V1 & V2 & (N1 & C1)).
      set (m1 := setSize (Size m a - 1) a m) in *. erewrite run_bind by apply rd_ok. change (Parent m1 a) with (Parent m a). rewrite Hp.
      destruct (IH m1 (nd a d s y) n O1 ltac:(cbn in Hn; lia)) as (m2 & R2 & O2 & W2 & C2 & N2 & Va2).
      exists m2. split; [exact R2|]. split; [apply ok_down; exact O2|].
      rewrite !view_nd in W2. rewrite C1 in C2.
      assert (X : view m2 s = view m1 s /\ view m2 y = view m1 y /\ Size m2 a = Size m1 a /\ Key m2 a = Key m1 a /\ Value m2 a = Value m1 a).
      { destruct d; cbn [tnd] in W2; injection W2 as ? ? ? ? ?; auto. }
      destruct X as (X1 & X2 & X3 & X4 & X5).
      split; [congruence|]. split; [|split; [congruence|exact Va2]].
      cbn [cview map fview decs dec]. fold (cview m2 c). rewrite C2, X2, X3, X4, X5, V2. unfold m1. mm. reflexivity.
  Qed.

  Lemma lastNode_ok m d s : forall n, body m s -> s <> L -> (hgt s <= n)%nat ->
    exists c b w, s = plug c (nd b d L w) /\ lastNode d n (pt s) m = Ret (Some b) m /\
      takeEnd d (view m s) = Some (tplug (decs (cview m c)) (view m w), (Key m b, Value m b)) /\ Forall (fun f => snd (fst f) = d) c.
  Proof.
    assert (Hx : forall a d x y n, body m (nd a d x y) -> (hgt x <= n)%nat ->
      (forall n, body m x -> x <> L -> (hgt x <= n)%nat ->
         exists c b w, x = plug c (nd b d L w) /\ lastNode d n (pt x) m = Ret (Some b) m /\
           takeEnd d (view m x) = Some (tplug (decs (cview m c)) (view m w), (Key m b, Value m b)) /\ Forall (fun f => snd (fst f) = d) c) ->
      exists c b w, nd a d x y = plug c (nd b d L w) /\ lastNode d (S n) (Some a) m = Ret (Some b) m /\
        takeEnd d (tnd (Size m a) (Key m a) (Value m a) d (view m x) (view m y)) = Some (tplug (decs (cview m c)) (view m w), (Key m b, Value m b)) /\
        Forall (fun f => snd (fst f) = d) c).
    { intros a e x y n Hb Hn IH. apply body_nd in Hb. destruct Hb as (Kx & _ & _ & _ & Bx & _). cbn [lastNode].
      erewrite run_bind by (rewrite rdKid_ok, Kx; reflexivity).
      destruct x as [|b bl br].
      - exists [], a, y. split; [reflexivity|]. split; [reflexivity|]. split; [destruct e; reflexivity|constructor].
      - cbn [pt isNil negb]. destruct (IH n Bx ltac:(discriminate) Hn) as (c & f & w & H1 & H2 & H3 & H4).
        exists (c ++ [(a, e, y)]), f, w. rewrite plug_snoc, cview_app. split; [congruence|]. split; [exact H2|]. split.
        + unfold decs. rewrite map_app. cbn [cview map fview dec]. rewrite tplug_snoc. cbn [tfill].
          destruct e; cbn [tnd takeEnd child]; fold (view m (B b bl br)); cbn [view] in H3 |- *; rewrite H3; reflexivity.
        + apply Forall_app. split; [exact H4|]. constructor; [reflexivity|constructor]. }
    induction s as [|a l IHl r IHr]; intros n Hb Hs Hn; [congruence|]. cbn [hgt] in Hn. destruct n as [|n]; [lia|].
    destruct d.
    - apply (Hx a true r l n Hb ltac:(lia) IHr).
    - apply (Hx a false l r n Hb ltac:(lia) IHl).
  Qed.

  Lemma ok_at_app m root c1 c2 s : ok m root c2 (plug c1 s) <-> ok m root (c1 ++ c2) s.
  Proof. symmetry. apply ok_plug_app. Qed.
  Lemma decs_app (C1 C2 : list tframe) : decs (C1 ++ C2) = decs C1 ++ decs C2.
  Proof. apply map_app. Qed.

  (** taking a subtree out of a place and putting a part of it back *)
  Lemma shrink_ok m root c s s' : ok m root c s -> incl (addrs s') (addrs s) -> NoDup (addrs s') -> body m s' -> ok (put_at root c s' m) root c s'.
  Proof.
    intros [Hc _ _ Hn Hl] Hi Hn' Hb. change (root :: caddrs c ++ addrs s) with ((root :: caddrs c) ++ addrs s) in Hn.
    apply nodup_app in Hn as (Nc & Ns & Nd). eapply place_ok; [exact Hc| | |exact Hb].
    - change (root :: caddrs c ++ addrs s') with ((root :: caddrs c) ++ addrs s'). apply nodup_app. split; [exact Nc|]. split; [exact Hn'|].
      intros x Hx Hs. exact (Nd x Hx (Hi x Hs)).
    - intros a Ha. apply Hl. change (root :: caddrs c ++ addrs s') with ((root :: caddrs c) ++ addrs s') in Ha.
      change (root :: caddrs c ++ addrs s) with ((root :: caddrs c) ++ addrs s). apply in_app_or in Ha. apply in_or_app.
      destruct Ha as [Ha|Ha]; [auto|right; apply Hi, Ha].
  Qed.

  Lemma app_inj_len {X} (l1 l2 l3 l4 : list X) : length l1 = length l3 -> l1 ++ l2 = l3 ++ l4 -> l1 = l3 /\ l2 = l4.
  Proof.
    revert l3. induction l1 as [|x l1 IH]; intros [|y l3] Hl He; try discriminate; [auto|]. injection He as -> He. injection Hl as Hl.
    destruct (IH l3 Hl He) as (-> & ->). auto.
  Qed.

  (** with what is where afterwards *)
  Lemma replaceBy_at m root c a d x y t' e : ok m root c (nd a d x y) -> x <> L -> takeEnd (negb d) (view m x) = Some (t', e) ->
    exists m' x', replaceBy root d (Some a) m = Ret (Value m a) m' /\ ok m' root c (nd a d x' y) /\ cview m' c = decs (cview m c) /\
      view m' x' = t' /\ view m' y = view m y /\ Size m' a = Size m a - 1 /\ Key m' a = fst e /\ Value m' a = snd e /\ next m' = next m.
  Proof.
    intros Hok Hx Ht. pose proof (ok_b _ _ _ _ Hok) as Hb. apply body_nd in Hb. destruct Hb as (Kx & Ky & Px & Py & Bx & By).
    destruct (ok_notin _ _ _ _ _ _ _ Hok) as (Nx & Ny & Nc & Nr).
    pose proof (ok_hgt _ _ _ _ Hok) as Hf.
    assert (Hfx : (hgt x <= S (next m))%nat) by (destruct d; cbn [nd hgt] in Hf; lia).
    destruct (lastNode_ok m (negb d) x (S (next m)) Bx Hx Hfx) as (c1 & b & w & Ex & Rl & Tx & Fd).
    rewrite Tx in Ht. injection Ht as <- <-. cbn [fst snd].
    set (cc := c1 ++ (a, d, y) :: c).
    assert (Hcc : ok m root cc (nd b (negb d) L w)).
    { unfold cc. apply ok_at_app. rewrite <- Ex. apply ok_down. exact Hok. }
    assert (ab : a <> b).
    { intros ->. apply Nx. rewrite Ex. eapply Permutation_in; [symmetry; apply addrs_plug|]. apply in_or_app. right.
      eapply Permutation_in; [symmetry; apply addrs_nd|]. left; reflexivity. }
    unfold replaceBy. cbn [fst snd]. erewrite run_bind by (rewrite rdKid_ok, Kx; reflexivity).
    erewrite run_bind by exact Rl. erewrite run_bind by apply rd_ok. erewrite run_bind by apply rd_ok.
    erewrite run_bind by reflexivity. erewrite run_bind by apply rd_ok. change (Value (setKey (Key m b) a m) b) with (Value m b). erewrite run_bind by reflexivity.
    set (m1 := setValue (Value m b) a (setKey (Key m b) a m)).
    assert (Hod : onlyData m m1 a) by (eapply onlyData_trans; [apply setKey_only|apply setValue_only]).
    assert (O1 : ok m1 root cc (nd b (negb d) L w)) by (eapply ok_links; [| | |exact Hcc]; reflexivity).
    pose proof (ok_h _ _ _ _ O1) as Hp. apply hangs_nd in Hp. pose proof (ok_b _ _ _ _ O1) as Hb1. apply body_nd in Hb1.
    rewrite Bool.negb_involutive in Hb1. destruct Hb1 as (_ & Kw & _ & _ & _ & Bw).
    erewrite run_bind by (rewrite rd_ok, Hp; reflexivity). erewrite run_bind by (rewrite rdKid_ok, Kw; reflexivity).
    assert (Dd : (eqp (Some (top root cc)) (Some a) = true /\ top root cc = a /\ cdir cc = d) \/
                 (eqp (Some (top root cc)) (Some a) = false /\ cdir cc = negb d)).
    { unfold cc. destruct c1 as [|((e1, e2), e3) c1]; cbn [app top cdir].
      - left. rewrite eqp_refl. auto.
      - right. inversion Fd as [|? ? F1 F2]; subst. cbn [fst snd] in F1. split; [|exact F1]. apply eqp_ne. intros X. injection X as ->.
        apply Nx. eapply Permutation_in; [symmetry; apply addrs_plug|]. apply in_or_app. left. left. reflexivity. }
    set (m2 := put_at root cc w m1).
    assert (Run : forall k, (if eqp (Some (top root cc)) (Some a)
       then wr (setKid d (pt w)) (Some a) ;! (if negb (isNil (pt w)) then wr (setParent (Some a)) (pt w) else ret tt) ;! k (Some a)
       else wr (setKid (negb d) (pt w)) (Some (top root cc)) ;!
            (if negb (isNil (pt w)) then wr (setParent (Some (top root cc))) (pt w) else ret tt) ;! k (Some (top root cc))) m1
       = (k (Some (top root cc)) : M K V unit) m2).
    { intros k. unfold m2, put_at. destruct Dd as [(-> & D1 & D2)|(-> & D2)].
      - rewrite D1, D2. destruct w; reflexivity.
      - rewrite D2. destruct w; reflexivity. }
    unfold bind at 1.
    specialize (Run (fun p => fueled (fun n => fixRemoveSize root n p))). rewrite Run. clear Run.
    assert (O2 : ok m2 root cc w).
    { apply (shrink_ok m1 root cc (nd b (negb d) L w)); [exact O1| | |exact Bw].
      - intros z Hz. eapply Permutation_in; [symmetry; apply addrs_nd|]. right. exact Hz.
      - pose proof (ok_n _ _ _ _ O1) as Hn. apply NoDup_cons_iff in Hn as (_ & Hn). apply nodup_app in Hn as (_ & Hn & _).
        eapply Permutation_NoDup in Hn; [|apply addrs_nd]. apply NoDup_cons_iff in Hn as (_ & Hn). exact Hn. }
    destruct (put_at_data root cc w m1) as (D1 & D2 & D3 & D4). fold m2 in D1, D2, D3, D4.
    unfold fueled. destruct (fixRemoveSize_ok root cc m2 w (S (next m2)) O2) as (m3 & R3 & O3 & W3 & C3 & N3 & _).
    { pose proof (ok_fuel _ _ _ _ O2). lia. }
    rewrite R3. exists m3, (plug c1 w). split; [reflexivity|]. split; [apply ok_down, ok_plug_app; exact O3|].
    rewrite (view_keep m1 m2) in W3 by (apply data_all; assumption). rewrite (cview_keep m1 m2) in C3 by (apply data_all; assumption).
    destruct Hod as (_ & _ & _ & Ho).
    assert (Hsub : forall z, In z (caddrs c1 ++ addrs w) -> In z (addrs x)).
    { intros z Hz. rewrite Ex. eapply Permutation_in; [symmetry; apply addrs_plug|]. apply in_app_or in Hz. apply in_or_app.
      destruct Hz as [Hz|Hz]; [auto|right]. eapply Permutation_in; [symmetry; apply addrs_nd|]. right. exact Hz. }
    unfold cc in C3. rewrite !cview_app, decs_app in C3.
    apply app_inj_len in C3; [|unfold cview, decs; rewrite !map_length; reflexivity]. destruct C3 as (C3a & C3b).
    rewrite (cview_others m m1 a c1 Ho) in C3a by (intros Hz; apply Nx, Hsub, in_or_app; auto).
    rewrite (view_others m m1 a w Ho) in W3 by (intros Hz; apply Nx, Hsub, in_or_app; auto).
    cbn [cview map fview decs dec] in C3b. injection C3b as S3 K3 V3 Y3 C3. fold (cview m1 c) in C3. fold (cview m3 c) in C3.
    rewrite (cview_others m m1 a c Ho Nc) in C3. rewrite (view_others m m1 a y Ho Ny) in Y3.
    split; [exact C3|]. split; [rewrite view_plug, C3a, W3; reflexivity|]. split; [exact Y3|].
    rewrite S3, K3, V3. unfold m1. mm. repeat (split; [reflexivity|]). rewrite N3, D4. reflexivity.
  Qed.
  Lemma replaceBy_ok m root c a d x y t' e : ok m root c (nd a d x y) -> x <> L -> takeEnd (negb d) (view m x) = Some (t', e) ->
    exists m' s', replaceBy root d (Some a) m = Ret (Value m a) m' /\ ok m' root [] s' /\
      view m' s' = tplug (decs (cview m c)) (tnd (Size m a - 1) (fst e) (snd e) d t' (view m y)).
  Proof.
    intros Hok Hx Ht. destruct (replaceBy_at m root c a d x y t' e Hok Hx Ht) as (m' & x' & R & O & C & Vx & Vy & S & K' & V' & _).
    exists m', (plug c (nd a d x' y)). split; [exact R|]. split; [apply (proj1 (ok_plug _ _ _ _)); exact O|].
    rewrite view_plug, view_nd, C, Vx, Vy, S, K', V'. reflexivity.
  Qed.

  Lemma removeNode_ok m root c a l r t' : ok m root c (B a l r) -> IndexModel.removeNode (view m (B a l r)) = Some t' ->
    exists m', removeNode root (Some a) m = Ret (Value m a) m' /\ rep m' root (tplug (decs (cview m c)) t').
  Proof.
    intros Hok Ht. unfold removeNode. erewrite run_bind by apply rd_ok. cbn [view IndexModel.removeNode] in Ht.
    pose proof (ok_b _ _ _ _ Hok) as (Kl & Kr & _).
    destruct (Size m a =? 1).
    - injection Ht as <-. pose proof (ok_h _ _ _ _ Hok) as Hh. cbn [hangs] in Hh.
      erewrite run_bind by (rewrite rd_ok, Hh; reflexivity). erewrite run_bind by (apply (getRelationship_ok _ _ _ _ _ _ Hok)).
      erewrite run_bind by reflexivity. 
      assert (O1 : ok (put_at root c L m) root c L) by (apply (shrink_ok m root c (B a l r) L Hok); [intros z []|constructor|exact I]).
      unfold put_at in O1. cbn [hook pt] in O1. set (m1 := setKid (cdir c) None (top root c) m) in *.
      destruct (fixRemoveSize_ok root c m1 L (S (next m1)) O1) as (m2 & R2 & O2 & W2 & C2 & N2 & V2).
      { pose proof (ok_fuel _ _ _ _ O1). lia. }
      unfold fueled. erewrite run_bind by exact R2. rewrite rd_ok, V2. exists m2. split; [reflexivity|].
      exists (plug c L). split; [apply (proj1 (ok_plug _ _ _ _)); exact O2|]. rewrite view_plug, W2, C2.
      rewrite (cview_keep m m1) by (apply data_all; reflexivity). reflexivity.
    - erewrite run_bind by (apply (getChildrenSize_ok _ _ false l r); assumption). cbn [fst snd]. unfold gs.
      destruct (IndexModel.getSize (view m l) >? IndexModel.getSize (view m r)).
      + destruct (takeEnd true (view m l)) as [(l', (k', v'))|] eqn:Et; [|discriminate]. injection Ht as <-.
        destruct (replaceBy_ok m root c a false l r l' (k', v') Hok) as (m' & s' & R & O & W); [destruct l; [discriminate Et|discriminate]|exact Et|].
        exists m'. split; [exact R|]. exists s'. split; [exact O|exact W].
      + destruct (takeEnd false (view m r)) as [(r', (k', v'))|] eqn:Et; [|discriminate]. injection Ht as <-.
        destruct (replaceBy_ok m root c a true r l r' (k', v') Hok) as (m' & s' & R & O & W); [destruct r; [discriminate Et|discriminate]|exact Et|].
        exists m'. split; [exact R|]. exists s'. split; [exact O|exact W].
  Qed.
End Place.

Section Remove.
  Context {K A : Type} (cmp : K -> K -> Z).
  Notation V := (option A).
  Notation mem := (mem K V).
  Notation tree := (tree K V).
  Implicit Types m : mem.

  Lemma Remove_ok k m root t t' res : rep m root t -> IndexModel.removeKey cmp k t = Some (t', res) ->
    exists m', Remove cmp root k m = Ret (match res with None => None | Some v => v end) m' /\ rep m' root t'.
  Proof.
    intros (s & Hok & <-) H. unfold Remove. destruct (getNode_found cmp k m root s Hok) as [(_ & H2 & H3)|(c & a & l & r & O & _ & H2 & _ & H3)];
      rewrite H3 in H; erewrite run_bind by exact H2.
    - injection H as <- <-. exists m. split; [reflexivity|]. exists s; auto.
    - destruct (IndexModel.removeNode (view m (B a l r))) as [t1|] eqn:E1; [|discriminate]. injection H as <- <-. cbn [isNil].
      apply (removeNode_ok m root c a l r t1 O E1).
  Qed.
  (** if the node to remove cannot be removed, the sizes are wrong *)
  Lemma RemoveIndex_ok i m root t : rep m root t -> sized t ->
    match IndexModel.RemoveIndex i t with
    | None => RemoveIndex root i m = Panic m
    | Some (t', v) => exists m', RemoveIndex root i m = Ret v m' /\ rep m' root t'
    end.
  Proof.
    intros (s & Hok & <-) Hs. unfold RemoveIndex. destruct (index_found i m root s Hok) as [(_ & H2 & H3)|(c & a & l & r & O & _ & H2 & H3 & H0)]; rewrite H3.
    - unfold bind. rewrite H2. reflexivity.
    - erewrite run_bind by exact H2. cbn [isNil].
      destruct (IndexModel.removeNode (view m (B a l r))) as [t1|] eqn:E1.
      + apply (removeNode_ok m root c a l r t1 O E1).
      + exfalso. assert (Hz : sized (view m (B a l r))).
        { assert (Hp : view m s = tplug (cview m c) (view m (B a l r))).
          { rewrite <- view_plug, H0. reflexivity. }
          rewrite Hp in Hs. revert Hs. generalize (view m (B a l r)). generalize (cview m c). clear.
          intros C. induction C as [|((((z, k), v), d), y) C IH]; intros t H; [exact H|]. cbn [tplug] in H. apply IH in H. destruct d; cbn in H; tauto. }
        destruct (IndexProofs.removeNode_ok (Size m a) (Key m a) (Value m a) (view m l) (view m r) Hz) as (t' & X & _). cbn [view] in E1. congruence.
  Qed.
End Remove.
