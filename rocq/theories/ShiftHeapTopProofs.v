From Verif Require Import Base Bind Machine AvlTree AvlModel IndexModel ShiftModel ShiftHeapModel ShiftHeapSpec ShiftHeapProofs.
Local Open Scope Z_scope.

Section W.
  Context {K V : Type}.
  Notation stree := (stree K V).
  (** ** the fields fit one another *)
  Fixpoint wf (t : stree) : Prop :=
    match t with
    | SE => True
    | SN s h b _ _ l r => (s = sizeT l + sizeT r + 1 /\ b = sizeT l - sizeT r /\ h = newHeight l r) /\ wf l /\ wf r
    end.
  Lemma resum_wf k v (l r : stree) : wf l -> wf r -> wf (resum k v l r) /\ sizeT (resum k v l r) = sizeT l + sizeT r + 1.
  Proof. intros Hl Hr. unfold resum, renew. cbn. auto. Qed.
  Lemma slrotate_wf (t t' : stree) : wf t -> slrotate t = Some t' -> wf t' /\ sizeT t' = sizeT t.
  Proof.
    destruct t as [|s h b k v l [|s2 h2 b2 k2 v2 l2 r2]]; cbn [slrotate]; try discriminate. cbn [wf]. intros ((Hs & _ & _) & Hl & ((Hs2 & _ & _) & Hl2 & Hr2)) [= <-].
    destruct (resum_wf k v l l2 Hl Hl2) as [W1 S1]. destruct (resum_wf k2 v2 _ r2 W1 Hr2) as [W2 S2]. split; [exact W2|]. rewrite S2, S1. cbn [sizeT] in *. lia.
  Qed.
  Lemma srrotate_wf (t t' : stree) : wf t -> srrotate t = Some t' -> wf t' /\ sizeT t' = sizeT t.
  Proof.
    destruct t as [|s h b k v [|s2 h2 b2 k2 v2 l2 r2] r]; cbn [srrotate]; try discriminate. cbn [wf]. intros ((Hs & _ & _) & ((Hs2 & _ & _) & Hl2 & Hr2) & Hr) [= <-].
    destruct (resum_wf k v r2 r Hr2 Hr) as [W1 S1]. destruct (resum_wf k2 v2 l2 _ Hl2 W1) as [W2 S2]. split; [exact W2|]. rewrite S2, S1. cbn [sizeT] in *. lia.
  Qed.
  (** a rotation does not look at the fields of the node itself, so stale ones do not matter *)
  Lemma slrotate_any s h b k v (l r t' : stree) s' h' b' : slrotate (SN s h b k v l r) = Some t' -> slrotate (SN s' h' b' k v l r) = Some t'.
  Proof. destruct r; auto. Qed.
  Lemma srrotate_any s h b k v (l r t' : stree) s' h' b' : srrotate (SN s h b k v l r) = Some t' -> srrotate (SN s' h' b' k v l r) = Some t'.
  Proof. destruct l; auto. Qed.
  Lemma renew_wf k v (l r : stree) : wf l -> wf r -> wf (renew (sizeT l + sizeT r + 1) k v l r).
  Proof. intros. now apply resum_wf. Qed.
  Lemma ssizeRRotate_wf (t t' : stree) : wf t -> ssizeRRotate t = Some t' -> wf t' /\ sizeT t' = sizeT t.
  Proof.
    destruct t as [|s h b k v l r]; [discriminate|]. intros W. destruct r as [|s2 h2 b2 k2 v2 l2 r2] eqn:Er; [discriminate|]. rewrite <- Er in W. cbn [ssizeRRotate].
    destruct (_ >? _); [|intros H; apply slrotate_wf; [rewrite <- Er; exact W|exact H]]. rewrite <- Er. destruct (srrotate r) as [r'|] eqn:E1; [|discriminate]. cbn [wf] in W. destruct W as ((Hs & Hb & Hh) & Wl & Wr).
    destruct (srrotate_wf _ _ Wr E1) as [W' S']. intros H. apply (slrotate_any _ _ _ _ _ _ _ _ (sizeT l + sizeT r' + 1) (newHeight l r') (sizeT l - sizeT r')) in H.
    apply slrotate_wf in H; [|cbn [wf]; auto]. destruct H as [H1 H2]. split; [exact H1|]. rewrite H2. cbn [sizeT]. lia.
  Qed.
  Lemma ssizeLRotate_wf (t t' : stree) : wf t -> ssizeLRotate t = Some t' -> wf t' /\ sizeT t' = sizeT t.
  Proof.
    destruct t as [|s h b k v l r]; [discriminate|]. intros W. destruct l as [|s2 h2 b2 k2 v2 l2 r2] eqn:Er; [discriminate|]. rewrite <- Er in W. cbn [ssizeLRotate].
    destruct (_ <? _); [|intros H; apply srrotate_wf; [rewrite <- Er; exact W|exact H]]. rewrite <- Er. destruct (slrotate l) as [l'|] eqn:E1; [|discriminate]. cbn [wf] in W. destruct W as ((Hs & Hb & Hh) & Wl & Wr).
    destruct (slrotate_wf _ _ Wl E1) as [W' S']. intros H. apply (srrotate_any _ _ _ _ _ _ _ _ (sizeT l' + sizeT r + 1) (newHeight l' r) (sizeT l' - sizeT r)) in H.
    apply srrotate_wf in H; [|cbn [wf]; auto]. destruct H as [H1 H2]. split; [exact H1|]. rewrite H2. cbn [sizeT]. lia.
  Qed.
  Lemma sfixPut_wf shift st s h b k v (l r : stree) t' st' : wf l -> wf r -> s + 1 = sizeT l + sizeT r + 1 ->
    sfixPut shift st (SN s h b k v l r) = Some (t', st') -> wf t' /\ sizeT t' = s + 1.
  Proof.
    intros Wl Wr Hs. assert (W : wf (renew (s + 1) k v l r)) by (rewrite Hs; now apply renew_wf).
    destruct st as [| ht |]; cbn [sfixPut].
    - intros [= <- _]. auto.
    - destruct (shift <? 0); [discriminate|]. destruct (s + 1 <? shl64 ht); [|now intros [= <- _]]. unfold renew at 1.
      destruct (_ <? 0); [destruct (_ <=? _)|unfold renew at 1; destruct (_ <=? _)]; try (now intros [= <- _]).
      + destruct (ssizeRRotate _) as [x|] eqn:E; [|discriminate]. intros [= <- _]. now apply ssizeRRotate_wf in E.
      + destruct (ssizeLRotate _) as [x|] eqn:E; [|discriminate]. intros [= <- _]. now apply ssizeLRotate_wf in E.
    - intros [= <- _]. destruct (resum_wf k v l r Wl Wr) as [H1 H2]. split; [exact H1|]. rewrite H2. lia.
  Qed.
  Lemma sput_wf cmp shift key value (t : stree) : forall t' res, wf t -> sput cmp shift key value t = Some (t', res) ->
    wf t' /\ t' <> SE /\ sizeT t' = match res with None => sizeT t | Some _ => sizeT t + 1 end.
  Proof.
    induction t as [|s h b k v l IHl r IHr]; intros t' res W; cbn [sput].
    - intros [= <- <-]. cbn. repeat split; discriminate.
    - cbn [wf] in W. destruct W as ((Hs & Hb & Hh) & Wl & Wr). cbn [sizeT].
      assert (Hne : forall st (c t0 : stree) st', sfixPut shift st c = Some (t0, st') -> wf t0 /\ sizeT t0 = s + 1 -> sizeT l >= 0 -> True) by auto.
      destruct (cmp k key <? 0).
      + destruct (sput cmp shift key value r) as [[r' rs]|] eqn:E; [|discriminate]. destruct (IHr _ _ Wr eq_refl) as (W' & N' & S').
        destruct rs as [st|].
        * destruct (sfixPut shift st _) as [[t0 st']|] eqn:F; [|discriminate]. intros [= <- <-].
          destruct (sfixPut_wf shift st s h b k v l r' t0 st' Wl W' ltac:(lia) F) as [W2 S2]. split; [exact W2|]. split; [|exact S2].
          destruct t0; [|discriminate]. exfalso. revert F. clear. destruct st; cbn [sfixPut]; try discriminate.
          destruct (shift <? 0); [discriminate|]. destruct (_ <? _); [|discriminate]. unfold renew at 1. destruct (_ <? 0); [destruct (_ <=? _)|unfold renew at 1; destruct (_ <=? _)]; try discriminate.
          -- unfold ssizeRRotate, renew, slrotate, srrotate. destruct r' as [|a1 a2 a3 a4 a5 x y]; [discriminate|]. destruct (_ >? _); [destruct x; discriminate|discriminate].
          -- unfold ssizeLRotate, renew, slrotate, srrotate. destruct l as [|a1 a2 a3 a4 a5 x y]; [discriminate|]. destruct (_ <? _); [destruct y; discriminate|discriminate].
        * intros [= <- <-]. split; [cbn [wf]; assert (r' = r) as ->; [|auto]|].
          { revert E. clear. revert r'. induction r as [|s h b k v l IHl r IHr]; intros r'; cbn [sput]; [discriminate|].
            destruct (cmp k key <? 0); [destruct (sput cmp shift key value r) as [[x [st|]]|]; try discriminate; [destruct (sfixPut _ _ _) as [[? ?]|]; discriminate|intros [= <-]; now rewrite (IHr _ eq_refl)]|].
            destruct (cmp k key >? 0); [destruct (sput cmp shift key value l) as [[x [st|]]|]; try discriminate; [destruct (sfixPut _ _ _) as [[? ?]|]; discriminate|intros [= <-]; now rewrite (IHl _ eq_refl)]|].
            now intros [= <-]. }
          split; [discriminate|reflexivity].
      + destruct (cmp k key >? 0); [|intros [= <- <-]; cbn [wf sizeT]; repeat split; auto; discriminate].
        destruct (sput cmp shift key value l) as [[l' rs]|] eqn:E; [|discriminate]. destruct (IHl _ _ Wl eq_refl) as (W' & N' & S').
        destruct rs as [st|].
        * destruct (sfixPut shift st _) as [[t0 st']|] eqn:F; [|discriminate]. intros [= <- <-].
          destruct (sfixPut_wf shift st s h b k v l' r t0 st' W' Wr ltac:(lia) F) as [W2 S2]. split; [exact W2|]. split; [|exact S2].
          destruct t0; [|discriminate]. exfalso. revert F. clear. destruct st; cbn [sfixPut]; try discriminate.
          destruct (shift <? 0); [discriminate|]. destruct (_ <? _); [|discriminate]. unfold renew at 1. destruct (_ <? 0); [destruct (_ <=? _)|unfold renew at 1; destruct (_ <=? _)]; try discriminate.
          -- unfold ssizeRRotate, renew, slrotate, srrotate. destruct r as [|a1 a2 a3 a4 a5 x y]; [discriminate|]. destruct (_ >? _); [destruct x; discriminate|discriminate].
          -- unfold ssizeLRotate, renew, slrotate, srrotate. destruct l' as [|a1 a2 a3 a4 a5 x y]; [discriminate|]. destruct (_ <? _); [destruct y; discriminate|discriminate].
        * intros [= <- <-]. split; [cbn [wf]; assert (l' = l) as ->; [|auto]|].
          { revert E. clear. revert l'. induction l as [|s h b k v l IHl r IHr]; intros r'; cbn [sput]; [discriminate|].
            destruct (cmp k key <? 0); [destruct (sput cmp shift key value r) as [[x [st|]]|]; try discriminate; [destruct (sfixPut _ _ _) as [[? ?]|]; discriminate|intros [= <-]; now rewrite (IHr _ eq_refl)]|].
            destruct (cmp k key >? 0); [destruct (sput cmp shift key value l) as [[x [st|]]|]; try discriminate; [destruct (sfixPut _ _ _) as [[? ?]|]; discriminate|intros [= <-]; now rewrite (IHl _ eq_refl)]|].
            now intros [= <-]. }
          split; [discriminate|reflexivity].
  Qed.
End W.

Section T.
  Context {K V : Type} (cmp : K -> K -> Z) (shift : Z).
  Notation mem := (mem K V).
  Implicit Types (m : mem).

  Definition Rel (s : htol K V) (t : stol K V) : Prop :=
    exists tA, zip (memory s) tA [] /\ erase tA = sroot t /\ wf (sroot t) /\ hcount s = scount t /\ (scount t <> 0%nat -> sroot t <> SE) /\ (0 < next (memory s))%nat.
  Lemma new_rel (k0 : K) (v0 : V) : Rel (hnew k0 v0) snew.
  Proof.
    exists AE. split; [split; [exact I|]; split; [split; reflexivity|]; split; [constructor|intros a []]|]. cbn. repeat split; auto.
  Qed.
  Lemma root_top m (tA : @atree K V) : zip m tA [] -> getRoot m = root tA.
  Proof. intros (_ & (_ & H) & _). exact H. Qed.
  Lemma put_ok key value m (tA : @atree K V) : zip m tA [] -> (0 < next m)%nat ->
    pagrees (put cmp shift key value m) (fin shift (sput cmp shift key value (erase tA)) []).
  Proof.
    intros Hz H0. unfold put. rewrite (root_top _ _ Hz). destruct tA as [|a s h b k v l r].
    - cbn [root erase sput fin climbs pagrees newNode]. rewrite wr_run. set (m1 := Mem _ _). eexists. exists (AN (next m) 1 1 0 key value AE AE). split; [reflexivity|]. split; [|reflexivity].
      destruct Hz as (_ & (HK & _) & _). assert (N1 : nodes m1 0%nat = nodes m 0%nat) by (unfold m1; cbn [nodes]; destruct (Nat.eqb_spec 0 (next m)); [lia|reflexivity]).
      split; [|split; [|split]].
      + cbn [rep root cpar]. split; [|auto]. rewrite set_ne by lia. cbn. now rewrite Nat.eqb_refl.
      + cbn [repc root]. rewrite set_eq, N1. cbn [setKid1 Kid0 Kid1]. auto.
      + cbn. constructor; [intros []|constructor].
      + cbn. intros x [<-|[]]. lia.
    - exact (descend_ok cmp shift key value (AN a s h b k v l r) a (S (next m)) m [] eq_refl Hz ltac:(cbn [length]; lia)).
  Qed.
  Definition steps_agree (s : htol K V) (t : stol K V) (o : stol_op K V) : Prop :=
    match stol_step cmp shift t o with
    | None => htol_step cmp shift s o = None
    | Some (t', r) => exists s', htol_step cmp shift s o = Some (s', r) /\ Rel s' t'
    end.
  Lemma step_ok s t o : Rel s t -> steps_agree s t o.
  Proof.
    intros (tA & Hz & He & Hw & Hc & Hne & H0). assert (R0 : Rel s t) by (exists tA; auto 7). unfold steps_agree. destruct o as [k v|k| |]; cbn [stol_step htol_step].
    - pose proof (put_ok k v _ _ Hz H0) as HP. rewrite He in HP. destruct (sput cmp shift k v (sroot t)) as [[t' res]|] eqn:E.
      + destruct (sput_wf _ _ _ _ _ _ _ Hw E) as (W' & N' & _).
        assert (HP' : exists m' tA', put cmp shift k v (memory s) = Some (m', match res with None => false | Some _ => true end) /\ zip m' tA' [] /\ erase tA' = t').
        { destruct res; exact HP. }
        destruct HP' as (m' & tA' & R & Z' & E'). assert (HN : (0 < next m')%nat).
        { destruct (zip_len _ _ _ Z') as [H|[-> _]]; [lia|]. now destruct N'. }
        rewrite R. destruct res; (eexists; split; [reflexivity|]; exists tA'; cbn [memory hcount sroot scount]; split; [exact Z'|]; split; [exact E'|]; split; [exact W'|]; split; [auto|]; split; [auto|exact HN]).
      + cbn [fin pagrees] in HP. rewrite HP. reflexivity.
    - rewrite (root_top _ _ Hz), (get_ok cmp k tA _ _ [] Hz) by (cbn [length]; lia). rewrite He. destruct (sget cmp k (sroot t)); [|reflexivity]. eauto.
    - rewrite Hc. eauto.
    - rewrite Hc. destruct (Nat.eqb_spec (scount t) 0) as [|Hn]; [eauto|]. rewrite (root_top _ _ Hz). specialize (Hne Hn). rewrite <- He in *.
      destruct tA as [|a sz h b k v l r]; [now destruct Hne|]. cbn [root rd]. rewrite (proj1 (proj1 Hz)). cbn [Hgt erase heightT]. eexists. split; [reflexivity|exact R0].
  Qed.
  Lemma run_top ops : forall s t, Rel s t -> run (htol_step cmp shift) s ops = run (stol_step cmp shift) t ops.
  Proof.
    induction ops as [|o ops IH]; intros s t R; [reflexivity|]. cbn [run]. pose proof (step_ok s t o R) as H. unfold steps_agree in H.
    destruct (stol_step cmp shift t o) as [[t' r]|].
    - destruct H as (s' & -> & R'). now rewrite (IH _ _ R').
    - now rewrite H.
  Qed.
  Lemma reach_top ops : forall s t s', Rel s t -> reach (htol_step cmp shift) s ops = Some s' -> exists t', reach (stol_step cmp shift) t ops = Some t' /\ Rel s' t'.
  Proof.
    induction ops as [|o ops IH]; intros s t s' R; cbn [reach]; [intros [= <-]; eauto|]. pose proof (step_ok s t o R) as H. unfold steps_agree in H.
    destruct (stol_step cmp shift t o) as [[t' r]|].
    - destruct H as (s1 & -> & R'). apply IH, R'.
    - rewrite H. discriminate.
  Qed.

  (** ** what the links say *)
  Lemma kids_in n (t : @atree K V) : forall par a e c, rep n par t -> In a (addrs t) -> (if e : bool then Kid1 (n a) else Kid0 (n a)) = Some c -> In c (addrs t).
  Proof.
    induction t as [|a0 s h b k v l IHl r IHr]; intros par a e c H Ha; [contradiction|]. cbn [rep addrs] in *. destruct H as (E & Hl & Hr). destruct Ha as [<-|Ha].
    - rewrite E. cbn [Kid0 Kid1]. destruct e; intros H; apply root_in in H; right; apply in_or_app; auto.
    - apply in_app_or in Ha as [Ha|Ha]; intros H; right; apply in_or_app; [left; eapply IHl|right; eapply IHr]; eassumption.
  Qed.
  Lemma below_trans m b x c : below m b x -> below m x c -> below m b c.
  Proof. intros H1 H2. induction H2 as [|a c _ IH Hc]; [assumption|]. eapply below_child; eassumption. Qed.
  Lemma below_in m (t : @atree K V) : forall par b c, rep (nodes m) par t -> root t = Some b -> (forall a, In a (addrs t) -> (0 < a)%nat) ->
    below m b c <-> In c (addrs t).
  Proof.
    intros par b c H Hr Hp. split.
    - intros HB. induction HB as [|a c _ IH (e & He & _)]; [now apply root_in|]. exact (kids_in _ _ _ _ _ _ H IH He).
    - revert par b c H Hr Hp. induction t as [|a s h b0 k v l IHl r IHr]; intros par b c H Hr Hp Hc; [contradiction|]. cbn [root rep addrs] in *. injection Hr as ->.
      destruct H as (E & Hl & Hrr). destruct Hc as [<-|Hc]; [constructor|]. assert (Hb : (0 < b)%nat) by (apply Hp; now left).
      apply in_app_or in Hc as [Hc|Hc].
      + destruct (root l) as [x|] eqn:Ex; [|destruct l; [contradiction|discriminate]]. apply (below_trans _ _ x).
        * eapply below_child; [constructor|]. exists false. split; [unfold kid; rewrite E; reflexivity|lia].
        * eapply IHl; [exact Hl|reflexivity| |exact Hc]. intros y Hy. apply Hp. right. apply in_or_app. auto.
      + destruct (root r) as [x|] eqn:Ex; [|destruct r; [contradiction|discriminate]]. apply (below_trans _ _ x).
        * eapply below_child; [constructor|]. exists true. split; [unfold kid; rewrite E; reflexivity|lia].
        * eapply IHr; [exact Hrr|reflexivity| |exact Hc]. intros y Hy. apply Hp. right. apply in_or_app. auto.
  Qed.
  Lemma in_tree m (tA : @atree K V) c : zip m tA [] -> inTree m c -> c = 0%nat \/ In c (addrs tA).
  Proof.
    intros (Hr & (_ & H1) & _ & Hp) H. induction H as [|a c _ IH (e & He & H0)]; [auto|]. right. destruct IH as [->|IH].
    - rewrite (H0 eq_refl) in He. unfold kid in He. rewrite H1 in He. now apply root_in.
    - exact (kids_in _ _ _ _ _ _ Hr IH He).
  Qed.
  (** the part of the tree below one of its nodes *)
  Lemma subtree n (t : @atree K V) : forall par b, rep n par t -> wf (erase t) -> NoDup (addrs t) -> In b (addrs t) ->
    exists par' s h bal k v l r, rep n par' (AN b s h bal k v l r) /\ wf (erase (AN b s h bal k v l r)) /\ NoDup (addrs (AN b s h bal k v l r)) /\
      incl (addrs (AN b s h bal k v l r)) (addrs t).
  Proof.
    induction t as [|a s h b0 k v l IHl r IHr]; intros par b H W Hn Hb; [contradiction|]. destruct (Nat.eq_dec b a) as [->|Hne].
    - exists par, s, h, b0, k, v, l, r. split; [exact H|]. split; [exact W|]. split; [exact Hn|apply incl_refl].
    - cbn [addrs rep erase wf] in H, W, Hn, Hb. destruct H as (_ & Hl & Hr). destruct W as (_ & Wl & Wr). apply NoDup_cons_iff in Hn as [_ Hn]. apply nodup_app in Hn as (N1 & N2 & _).
      destruct Hb as [->|Hb]; [contradiction|]. apply in_app_or in Hb as [Hb|Hb].
      + destruct (IHl _ _ Hl Wl N1 Hb) as (par' & s' & h' & b' & k' & v' & l' & r' & H1 & H2 & H3 & H4). exists par', s', h', b', k', v', l', r'. split; [exact H1|]. split; [exact H2|]. split; [exact H3|].
        intros x Hx. cbn [addrs]. right. apply in_or_app. left. now apply H4.
      + destruct (IHr _ _ Hr Wr N2 Hb) as (par' & s' & h' & b' & k' & v' & l' & r' & H1 & H2 & H3 & H4). exists par', s', h', b', k', v', l', r'. split; [exact H1|]. split; [exact H2|]. split; [exact H3|].
        intros x Hx. cbn [addrs]. right. apply in_or_app. right. now apply H4.
  Qed.
  Lemma root_parent n par (t : @atree K V) c : rep n par t -> root t = Some c -> Parent (n c) = par.
  Proof. destruct t; cbn; intros H [= <-]. destruct H as (-> & _). reflexivity. Qed.
  Lemma parent_exact s t b c : Rel s t -> inTree (memory s) b -> childOf (memory s) c b -> Parent (nodes (memory s) c) = Some b.
  Proof.
    intros (tA & Hz & He & Hw & _) Hb (e & Hk & H0). destruct (in_tree _ _ _ Hz Hb) as [->|Hi].
    - rewrite (H0 eq_refl) in Hk. unfold kid in Hk. destruct Hz as (Hr & (_ & H1) & _). rewrite H1 in Hk. exact (root_parent _ _ _ _ Hr Hk).
    - destruct Hz as (Hr & _ & Hn & Hp). cbn [caddrs] in *. rewrite app_nil_r in *. rewrite <- He in Hw. destruct (subtree _ _ _ _ Hr Hw Hn Hi) as (par & sz & h & bal & k & v & l & r & (E & Hl & Hrr) & _).
      unfold kid in Hk. rewrite E in Hk. cbn [Kid0 Kid1] in Hk. destruct e; [exact (root_parent _ _ _ _ Hrr Hk)|exact (root_parent _ _ _ _ Hl Hk)].
  Qed.
  Lemma wf_size (t : @atree K V) : wf (erase t) -> sizeT (erase t) = Z.of_nat (length (addrs t)).
  Proof.
    induction t as [|a s h b k v l IHl r IHr]; [reflexivity|]. cbn [erase wf sizeT addrs length]. intros ((-> & _) & Wl & Wr). rewrite IHl, IHr by assumption. rewrite app_length. lia.
  Qed.
  Fixpoint lev (t : @atree K V) : nat := match t with AE => 0 | AN _ _ _ _ _ _ l r => S (Nat.max (lev l) (lev r)) end.
  Lemma wf_height (t : @atree K V) : wf (erase t) -> (lev t <= 127)%nat -> heightT (erase t) = Z.of_nat (lev t).
  Proof.
    induction t as [|a s h b k v l IHl r IHr]; [reflexivity|]. cbn [erase wf heightT lev]. intros ((_ & _ & ->) & Wl & Wr) HL. unfold newHeight.
    rewrite IHl, IHr by (assumption || lia). assert (Hi : forall z, 0 <= z <= 127 -> i8 z = z) by (intros z Hz; unfold i8; rewrite Z.mod_small by lia; lia).
    destruct (Z.gtb_spec (Z.of_nat (lev l)) (Z.of_nat (lev r))); rewrite Hi; lia.
  Qed.
  Lemma counts_rep m par (t : @atree K V) : rep (nodes m) par t -> NoDup (addrs t) -> (forall a, In a (addrs t) -> (0 < a)%nat) -> counts m (root t) (length (addrs t)).
  Proof.
    intros H Hn Hp. unfold counts. destruct (root t) as [b|] eqn:Er; [|destruct t; [reflexivity|discriminate]]. exists (addrs t). split; [assumption|]. split; [|reflexivity].
    intros c. symmetry. now apply (below_in m t par b c H Er Hp).
  Qed.
  Lemma deep_rep m (t : @atree K V) : forall par, rep (nodes m) par t -> deep m (root t) (lev t).
  Proof.
    induction t as [|a s h b k v l IHl r IHr]; intros par H; [constructor|]. cbn [rep root lev] in *. destruct H as (E & Hl & Hr).
    constructor; unfold kid; rewrite E; cbn [Kid0 Kid1]; eauto.
  Qed.
  Lemma fields_exact s t b : Rel s t -> inTree (memory s) b -> b <> 0%nat -> sizeRight (memory s) b /\ balanceRight (memory s) b /\ heightRight (memory s) b.
  Proof.
    intros (tA & Hz & He & Hw & _) Hb Hb0. destruct (in_tree _ _ _ Hz Hb) as [->|Hi]; [now destruct Hb0|].
    destruct Hz as (Hr & _ & Hn & Hp). cbn [caddrs] in *. rewrite app_nil_r in *. rewrite <- He in Hw.
    destruct (subtree _ _ _ _ Hr Hw Hn Hi) as (par & sz & h & bal & k & v & l & r & HR & HW & HND & HI).
    assert (Hpos : forall a, In a (addrs (AN b sz h bal k v l r)) -> (0 < a)%nat) by (intros a Ha; apply Hp, HI, Ha).
    assert (HS := counts_rep _ _ _ HR HND Hpos). assert (HD := deep_rep _ _ _ HR). assert (SZ := wf_size _ HW). assert (HG := wf_height _ HW).
    assert (E : nodes (memory s) b = HN k v h sz bal par (root l) (root r)) by apply HR.
    split; [|split].
    - exists (length (addrs (AN b sz h bal k v l r))). split; [exact HS|]. rewrite E. cbn [Size]. exact SZ.
    - cbn [addrs rep erase wf] in HR, HW, HND, Hpos. destruct HR as (_ & Rl & Rr). destruct HW as ((_ & -> & _) & Wl & Wr). apply NoDup_cons_iff in HND as [_ HND]. apply nodup_app in HND as (N1 & N2 & _).
      exists (length (addrs l)), (length (addrs r)). unfold kid. rewrite E. cbn [Kid0 Kid1 Balance]. split; [|split].
      + apply (counts_rep _ _ _ Rl N1). intros a Ha. apply Hpos. right. apply in_or_app. auto.
      + apply (counts_rep _ _ _ Rr N2). intros a Ha. apply Hpos. right. apply in_or_app. auto.
      + now rewrite !wf_size.
    - exists (lev (AN b sz h bal k v l r)). split; [exact HD|]. rewrite E. cbn [Hgt]. exact HG.
  Qed.
End T.
