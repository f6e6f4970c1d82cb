(** Proofs for C82: ShiftToleranceTree against tree/indextree, with the rotation counters. *)
From Verif Require Import Base Bind Machine OrderSpec SMapSpec SMapFacts AvlTree AvlSpec AvlModel AvlCountModel IndexSpec IndexModel IndexProofs StatsModel
  ShiftModel IndexCountModel IndexCountProofs ShiftCountModel TwinSpec.
From Verif Require SignProofs.
Local Open Scope Z_scope.

Section Twin.
  Context {K A : Type} (ltb : K -> K -> bool) (W : weak_order ltb) (cmp : K -> K -> Z) (Hcmp : sign_cmp ltb cmp) (shift : Z) (Hsh : 0 <= shift).
  Notation stree := (stree K A).
  Notation tree := (tree K (option A)).
  Notation put_n := IndexCountModel.put_n.
  Implicit Types t l r : stree.

  Fixpoint sk (t : stree) : tree := match t with SE => E | SN s _ _ k v l r => N s k (Some v) (sk l) (sk r) end.
  Lemma sk_alike t : alike t (sk t).
  Proof. induction t; constructor; assumption. Qed.
  Lemma sizeT_sk t : sizeT t = getSize (sk t).
  Proof. destruct t; reflexivity. Qed.
  Lemma slrotate_sk t : option_map sk (slrotate t) = lrotate (sk t).
  Proof. destruct t as [|s h b k v l [|ms mh mb mk mv ml mr]]; try reflexivity. cbn. rewrite !sizeT_sk. reflexivity. Qed.
  Lemma srrotate_sk t : option_map sk (srrotate t) = rrotate (sk t).
  Proof. destruct t as [|s h b k v [|ms mh mb mk mv ml mr] r]; try reflexivity. cbn. rewrite !sizeT_sk. reflexivity. Qed.
  Definition rsk (p : stree * (nat * nat)) : tree * (nat * nat) := (sk (fst p), snd p).
  Lemma sRRotate_sk t c : option_map rsk (ssizeRRotate_n t c) = sizeRRotate_n (sk t) c.
  Proof.
    destruct t as [|s h b k v l [|ms mh mb mk mv ml mr]]; try reflexivity. cbn [ssizeRRotate_n sk sizeRRotate_n]. rewrite !sizeT_sk. destruct (_ >? _).
    - change (N ms mk (Some mv) (sk ml) (sk mr)) with (sk (SN ms mh mb mk mv ml mr)). rewrite <- srrotate_sk. destruct (srrotate _) as [u|]; [|reflexivity]. cbn [option_map].
      change (N s k (Some v) (sk l) (sk u)) with (sk (SN s h b k v l u)). rewrite <- slrotate_sk. destruct (slrotate _); reflexivity.
    - change (N s k (Some v) (sk l) (N ms mk (Some mv) (sk ml) (sk mr))) with (sk (SN s h b k v l (SN ms mh mb mk mv ml mr))). rewrite <- slrotate_sk. destruct (slrotate _); reflexivity.
  Qed.
  Lemma sLRotate_sk t c : option_map rsk (ssizeLRotate_n t c) = sizeLRotate_n (sk t) c.
  Proof.
    destruct t as [|s h b k v [|ms mh mb mk mv ml mr] r]; try reflexivity. cbn [ssizeLRotate_n sk sizeLRotate_n]. rewrite !sizeT_sk. destruct (_ <? _).
    - change (N ms mk (Some mv) (sk ml) (sk mr)) with (sk (SN ms mh mb mk mv ml mr)). rewrite <- slrotate_sk. destruct (slrotate _) as [u|]; [|reflexivity]. cbn [option_map].
      change (N s k (Some v) (sk u) (sk r)) with (sk (SN s h b k v u r)). rewrite <- srrotate_sk. destruct (srrotate _); reflexivity.
    - change (N s k (Some v) (N ms mk (Some mv) (sk ml) (sk mr)) (sk r)) with (sk (SN s h b k v (SN ms mh mb mk mv ml mr) r)). rewrite <- srrotate_sk. destruct (srrotate _); reflexivity.
  Qed.
  Definition fsk (p : stree * climb * (nat * nat)) : tree * climb * (nat * nat) := (sk (fst (fst p)), snd (fst p), snd p).
  Lemma sfix_sk st s h b k v l r c : sizeT l + sizeT r = s -> option_map fsk (sfixPut_n shift st (SN s h b k v l r) c) = fixPut_n shift st (sk (SN s h b k v l r)) c.
  Proof.
    intros Hs. cbn [sfixPut_n sk fixPut_n]. destruct st as [|n|]; [reflexivity| |].
    - destruct (shift <? 0); [reflexivity|]. pose proof (sRRotate_sk (renew (s + 1) k v l r) c) as HR. pose proof (sLRotate_sk (renew (s + 1) k v l r) c) as HL.
      unfold renew in *. cbn [sk] in HR, HL. cbv zeta. rewrite <- HR, <- HL. rewrite !sizeT_sk. destruct (_ <? shl64 n); [|reflexivity].
      destruct (_ <? 0); destruct (_ <=? _); try reflexivity; [destruct (ssizeRRotate_n _ _) as [[]|]|destruct (ssizeLRotate_n _ _) as [[]|]]; reflexivity.
    - unfold resum. rewrite Hs. reflexivity.
  Qed.

  (** the walk of tree/indextree needs the signs of the answers only *)
  Lemma put_n_signs (c1 c2 : K -> K -> Z) key : (forall k, (c1 key k <? 0) = (c2 key k <? 0) /\ (c1 key k >? 0) = (c2 key k >? 0)) ->
    forall hit v (t : tree) c, put_n c1 shift hit key v t c = put_n c2 shift hit key v t c.
  Proof.
    intros H hit v t. induction t as [|s k x l IHl r IHr]; intros c; [reflexivity|]. cbn [IndexCountModel.put_n]. destruct (H k) as (-> & ->). rewrite IHl, IHr. reflexivity.
  Qed.
  Lemma index_put key v (t : tree) c : strictly_sorted ltb (elems t) -> sized t -> exists (t' : tree) res c',
    put_n cmp shift (fun e => e) key v t c = Some (t', res, c') /\ sized t' /\ strictly_sorted ltb (elems t') /\
    len (elems t') = len (elems t) + match res with None => 0 | Some _ => 1 end.
  Proof.
    intros Hs Ht. rewrite (put_n_signs cmp (SignProofs.sgn cmp)) by (intros k; rewrite SignProofs.sgn_lt, SignProofs.sgn_gt; auto).
    destruct (put_ok ltb W _ (SignProofs.sgn_plain _ ltb W Hcmp) shift (fun e => e) key v t Hsh Hs Ht) as (t' & res & H1 & H2 & H3 & H4 & H5).
    rewrite (iput_erase (SignProofs.sgn cmp) shift _ _ _ _ c) in H1. destruct (put_n _ _ _ _ _ _ _) as [[[t1 res1] c1]|]; [|discriminate]. injection H1 as -> ->. exists t', res, c1.
    split; [reflexivity|]. split; [exact H2|].
    assert (Ew : forall x xs, sames ltb key (elems t) = x :: xs -> write ltb key x (elems t) = elems t).
    { intros x xs Es. unfold write. pose proof (cut_all ltb W (elems t) key (strict_weak ltb W _ Hs)) as CA.
      destruct (strict_sames ltb W (elems t) key Hs) as [Q|(x' & Q)]; rewrite Q in *; [discriminate|]. injection Es as -> <-. symmetry. exact CA. }
    destruct (sames ltb key (elems t)) as [|x xs] eqn:Es.
    - destruct res as [st|]; [|destruct (proj1 H3 eq_refl); reflexivity]. split; [rewrite H4; apply write_sorted; auto; apply (same_refl _ W)|].
      apply H5. discriminate.
    - destruct res as [st|]; [discriminate (proj2 H3 ltac:(discriminate))|]. rewrite H4, (Ew x xs eq_refl). split; [exact Hs|lia].
  Qed.
  Definition psk (p : stree * option climb * (nat * nat)) : tree * option climb * (nat * nat) := (sk (fst (fst p)), snd (fst p), snd p).
  Lemma cmp_turn a b : (cmp a b <? 0) = (cmp b a >? 0).
  Proof. rewrite Z.gtb_ltb. destruct (Hcmp a b) as (H1 & H2). destruct (Hcmp b a) as (H3 & H4). apply Bool.eq_iff_eq_true. rewrite !Z.ltb_lt. rewrite H1, H4. tauto. Qed.
  Lemma sput_sk key v t : sized (sk t) -> strictly_sorted ltb (elems (sk t)) -> forall c,
    option_map psk (sput_n cmp shift key v t c) = put_n cmp shift (fun e => e) key (Some v) (sk t) c.
  Proof.
    induction t as [|s h b k x l IHl r IHr]; intros Hz Hs c; [reflexivity|].
    cbn [sk] in Hz, Hs. pose proof Hz as (Es & Hl & Hr). cbn [elems] in Hs. destruct (strict_mid ltb _ _ _ Hs) as (Sl & Sr & _ & _).
    cbn [sput_n sk IndexCountModel.put_n]. rewrite <- (cmp_turn k key), (cmp_turn key k).
    specialize (IHl Hl Sl c). specialize (IHr Hr Sr c).
    destruct (index_put key (Some v) (sk l) c Sl Hl) as (l' & resl & cl & L1 & L2 & _ & L3).
    destruct (index_put key (Some v) (sk r) c Sr Hr) as (r' & resr & cr & R1 & R2 & _ & R3).
    rewrite L1 in *. rewrite R1 in *.
    assert (HX : (cmp k key <? 0) = true -> (cmp k key >? 0) = false) by (rewrite Z.gtb_ltb, Z.ltb_lt, Z.ltb_ge; lia).
    destruct (cmp k key <? 0) eqn:C1; [rewrite (HX eq_refl)|].
    - destruct (sput_n cmp shift key v r c) as [[[r1 res1] c1]|]; [|discriminate]. injection IHr as E1 E2 E3. cbn [fst snd] in E1, E2, E3. subst r' resr cr.
      destruct res1 as [st|]; [|reflexivity]. change (N s k (Some x) (sk l) (sk r1)) with (sk (SN s h b k x l r1)). rewrite <- sfix_sk.
      + destruct (sfixPut_n _ _ _ _) as [[[t1 st1] c2]|]; reflexivity.
      + rewrite !sizeT_sk, !size_len by assumption. unfold len in *. lia.
    - destruct (cmp k key >? 0); [|reflexivity].
      destruct (sput_n cmp shift key v l c) as [[[l1 res1] c1]|]; [|discriminate]. injection IHl as E1 E2 E3. cbn [fst snd] in E1, E2, E3. subst l' resl cl.
      destruct res1 as [st|]; [|reflexivity]. change (N s k (Some x) (sk l1) (sk r)) with (sk (SN s h b k x l1 r)). rewrite <- sfix_sk.
      + destruct (sfixPut_n _ _ _ _) as [[[t1 st1] c2]|]; reflexivity.
      + rewrite !sizeT_sk, !size_len by assumption. unfold len in *. lia.
  Qed.

  (** BenchmarkStats *)
  Lemma snodes_sk t : snodes t = nodes (sk t).
  Proof. induction t as [|s h b k v l IHl r IHr]; cbn [snodes sk nodes]; congruence. Qed.
  Definition qsk (q : list (stree * Z)) : list (tree * Z) := map (fun e => (sk (fst e), snd e)) q.
  Lemma sshape_sk n : forall q h s c ds, sshapeLoop n q h s c ds = shapeLoop n (qsk q) h s c ds.
  Proof.
    induction n as [|n IH]; intros q h s c ds; destruct q as [|[t d] q]; try reflexivity. cbn [sshapeLoop qsk map fst snd shapeLoop].
    destruct t as [|s0 h0 b k v l r]; [reflexivity|]. cbn [sk]. rewrite IH. f_equal. fold (qsk q).
    destruct l, r; cbn [sk]; unfold qsk; rewrite ?map_app; reflexivity.
  Qed.
  Lemma sstats_sk t : sshapeStats t = shapeStats (sk t).
  Proof.
    unfold sshapeStats, shapeStats. destruct t as [|s h b k v l r] eqn:Et; [reflexivity|]. rewrite <- Et. rewrite snodes_sk, sshape_sk. unfold qsk. cbn [map fst snd]. rewrite Et. reflexivity.
  Qed.

  Definition TRel (s : cstol K A) (i : cix K A) : Prop :=
    sk (sroot (stol_of s)) = content i /\ counts_s s = counts_ix i /\ Z.of_nat (scount (stol_of s)) = len (elems (content i)) /\ strictly_sorted ltb (elems (content i)) /\ sized (content i).
  Lemma trel_new : TRel snew_n new_ix.
  Proof. unfold TRel. cbn. repeat split; auto; constructor. Qed.
  Lemma trel_step s i o : (o = TwStats -> shapeStats (content i) <> None) -> TRel s i -> exists s' x, step_s cmp shift s (on_shift o) = Some (s', x) /\
    TRel s' (fst (step_ix cmp shift i (on_index o))) /\ same_answer x (snd (step_ix cmp shift i (on_index o))) /\
    (o = TwStats -> exists st, shapeStats (content i) = Some st /\ x = ZReport (counts_ix i) st).
  Proof.
    intros HST (H1 & H2 & H3 & H4 & H5). destruct s as [[t n] c], i as [u ci]. cbn [stol_of sroot scount counts_s content counts_ix] in *. subst u ci.
    destruct o as [k v| | |]; cbn [on_shift on_index step_s step_ix stol_of sroot scount counts_s].
    - pose proof (sput_sk k v t H5 H4 c) as HP. destruct (index_put k (Some v) (sk t) c H4 H5) as (u & res & c' & P1 & P2 & P3 & P4). rewrite P1 in HP.
      destruct (sput_n cmp shift k v t c) as [[[t1 res1] c1]|]; [|discriminate]. injection HP as E1 E2 E3. cbn [fst snd] in E1, E2, E3. subst res1 c1 u.
      unfold call_ix. cbn [content counts_ix]. unfold Put_n. rewrite P1. cbn [orPanic_n fst snd].
      destruct res as [st|]; eexists _, _; (split; [reflexivity|]); (split; [|split; [constructor|discriminate]]); unfold TRel; cbn [stol_of sroot scount counts_s content counts_ix]; repeat split; auto; lia.
    - cbn. eexists _, _. split; [reflexivity|]. rewrite (size_len _ H5), <- H3. split; [unfold TRel; cbn; auto 6|]. split; [constructor|discriminate].
    - eexists _, _. split; [reflexivity|]. cbn [fst snd content]. split; [unfold TRel; cbn; auto 6|]. split; [constructor|discriminate].
    - cbn [content] in HST. rewrite sstats_sk. destruct (shapeStats (sk t)) as [st|] eqn:Est; [|destruct (HST eq_refl eq_refl)]. eexists _, _. split; [reflexivity|]. cbn [fst snd content counts_ix].
      split; [unfold TRel; cbn; auto 6|]. split; [constructor|]. intros _. exists st. split; [first [exact Est|reflexivity]|reflexivity].
  Qed.
End Twin.
