(** Skip lists: iterators over a list that is being changed (C72). *)
From Verif Require Import Base Bind Machine OrderSpec SMapSpec SMapFacts SkipSpec SkipChangeSpec SkipModel SkipChangeModel SkipProofs SkipOps SkipSets SkipProps SkipChangeProofs.

(** iterator number [j] reads its entry, the list is changed by the calls [c], the iterator goes on; and so on *)
Definition walk {K V} (j : nat) (chunks : list (list (sk_op K V))) : list (ch_op K V) :=
  flat_map (fun c => HIter j IEntry :: map HList c ++ [HIter j INext]) chunks.
(** the entries that were read *)
Definition met {K V} (outs : list (ch_out K V)) : list (K * V) := flat_map (fun r => match r with HI (IKV (Some e)) => [e] | _ => [] end) outs.

Section Props.
  Context {K V : Type} (ltb : K -> K -> bool) (W : weak_order ltb) (cmp : K -> K -> Z) (Hc : sign_cmp ltb cmp).
  Notation entries := (list (K * V)).
  Notation step := (ch_step (V:=V) cmp).
  Notation spec := (ch_spec (V:=V) ltb).
  Notation lspec := (sk_spec (V:=V) ltb).
  Notation start l := (NewWithMaxLevel l, fun _ : nat => It None 0).
  Notation nothing := ([] : entries, fun _ : nat => (Nowhere : place K V, 0%Z)).

  (** Any number of iterators, any calls of the list and of the iterators in any order: the answers are those of the sorted
      map and of places in it; none panics. *)
  Theorem C72_iterators_follow_the_list l (ops : list (ch_op K V)) : run step (start l) ops = Some (srun spec nothing ops).
  Proof. apply (sim_run step spec (ch_rel ltb)); [|apply ch_new_rel]. intros s m o. apply (ch_sim ltb W cmp Hc). Qed.

  (** ** Walks *)
  Definition real (m : entries) : Prop := exists s : skiplist K V, rel ltb s m.
  Lemma real_sorted m : real m -> strictly_sorted ltb m. Proof. intros (s & H). eapply rel_sorted; eauto. Qed.
  Lemma real_step m o : real m -> real (fst (lspec m o)).
  Proof. intros (s & H). destruct (sk_sim ltb W cmp Hc s m o H) as (s' & _ & H'). exists s'. exact H'. Qed.
  Lemma real_nil : real []. Proof. exists (NewWithMaxLevel 16). apply new_rel. Qed.
  Lemma real_reach ops : forall m, real m -> real (sreach lspec m ops).
  Proof. induction ops as [|o ops IH]; intros m H; cbn [sreach]; auto. apply IH. now apply real_step. Qed.

  (** a key that is still there keeps its spelling *)
  Lemma slots_incl i j (m : entries) : incl (slots i j m) m.
  Proof. intros x H. unfold slots in H. rewrite <- (firstn_skipn (Z.to_nat i) m). apply in_or_app. right. rewrite <- (firstn_skipn (Z.to_nat (j + 1 - i)) (skipn (Z.to_nat i) m)). apply in_or_app. auto. Qed.
  Lemma others_incl i j (m : entries) : incl (others i j m) m.
  Proof.
    intros x H. unfold others in H. apply in_app_or in H as [H|H].
    - rewrite <- (firstn_skipn (Z.to_nat i) m). apply in_or_app. auto.
    - rewrite <- (firstn_skipn (Z.to_nat (j + 1)) m). apply in_or_app. auto.
  Qed.
  Lemma erase_incl k (m : entries) : incl (erase ltb k m) m.
  Proof. intros x H. unfold erase in H. rewrite in_app_iff, before_in, after_in in H. tauto. Qed.
  Lemma sput_old k v (m : entries) e' : strictly_sorted ltb m -> In e' (sput ltb k v m) ->
    (exists e, In e m /\ fst e = fst e') \/ (fst e' = k /\ sames ltb k m = []).
  Proof.
    intros Hs. unfold sput. destruct (sames ltb k m) as [|[k0 v0] l] eqn:E; unfold write; rewrite in_app_iff; cbn [In]; rewrite before_in, after_in.
    - intros [H|[<-|H]]; [left; exists e'; tauto|right; auto|left; exists e'; tauto].
    - intros [H|[<-|H]]; [left; exists e'; tauto| |left; exists e'; tauto]. left. exists (k0, v0). split; auto.
      assert (X : In (k0, v0) (sames ltb k m)) by (rewrite E; now left). apply filter_In in X. tauto.
  Qed.
  Lemma strict_same (m : entries) e e' : strictly_sorted ltb m -> In e m -> In e' m -> same ltb (fst e) (fst e') = true -> e = e'.
  Proof.
    intros Sd H H' E. apply List.in_split in H as (A & B & ->). apply ssorted_app in Sd as (_ & Sd1 & Sd2). inversion Sd1 as [|? ? _ Sd3]; subst. rewrite Forall_forall in Sd3. apply same_iff in E as (E1 & E2).
    apply in_app_or in H' as [H'|[H'|H']]; auto; exfalso.
    - specialize (Sd2 e' e H' ltac:(now left)). cbn in Sd2. congruence.
    - specialize (Sd3 e' H'). cbn in Sd3. congruence.
  Qed.
  Lemma spelling (m : entries) o e e' : strictly_sorted ltb m -> In e m -> In e' (fst (lspec m o)) -> same ltb (fst e') (fst e) = true -> fst e' = fst e.
  Proof.
    intros Hs H H' Es. assert (Sub : In e' m -> fst e' = fst e) by (intros X; f_equal; eapply strict_same; eauto).
    assert (Put : forall k v, In e' (sput ltb k v m) -> fst e' = fst e).
    { intros k v X. apply sput_old in X as [(x & X1 & X2)|(X1 & X2)]; auto.
      - rewrite <- X2 in *. f_equal. eapply strict_same; eauto.
      - exfalso. assert (Y : In e (sames ltb k m)) by (apply (filter_In (fun e => same ltb (fst e) k)); split; auto; rewrite same_sym, <- X1; auto). rewrite X2 in Y. destruct Y. }
    destruct o; cbn [sk_spec fst] in H'; auto.
    - apply Put in H'; auto. - apply Put in H'; auto. - apply Put in H'; auto.
    - apply Sub. eapply erase_incl; eauto.
    - apply Sub. destruct m; cbn in H'; [destruct H'|now right].
    - apply Sub. destruct m as [|x m _] using rev_ind; [destruct H'|]. rewrite removelast_last in H'. apply in_or_app. auto.
    - destruct H'.
    - apply Sub. destruct (at_index m i); auto. eapply others_incl; eauto.
    - apply Sub. destruct (_ <=? _)%Z; auto. eapply others_incl; eauto.
    - apply Sub. apply filter_In in H'. tauto.
    - apply Sub. destruct (_ <=? _)%Z; auto. eapply slots_incl; eauto.
  Qed.

  Definition poskey (p : place K V) : option K := match p with Nowhere => None | At k => Some k | Gone e _ => Some (fst e) end.
  (** the keys an iterator will come by are increasing, and those in the list are spelled as they are there *)
  Fixpoint asc (m : entries) (p : place K V) : Prop :=
    match p with
    | Nowhere => True
    | At k => exists v, In (k, v) m
    | Gone e q => (forall k, poskey q = Some k -> ltb (fst e) k = true) /\ asc m q
    end.
  (** it will not pass [x] by *)
  Fixpoint covers (x : K) (p : place K V) : Prop :=
    match p with
    | Gone e q => (ltb (fst e) x = true -> exists k, poskey q = Some k /\ ltb x k = false) /\ covers x q
    | _ => True
    end.
  Lemma cut_key (m : entries) k v : strictly_sorted ltb m -> In (k, v) m -> exists a b, m = a ++ (k, v) :: b /\ before ltb k m = a /\ sames ltb k m = [(k, v)] /\ after ltb k m = b.
  Proof.
    intros Hs H. apply List.in_split in H as (a & b & ->). exists a, b. split; auto. apply (cut_same_strict ltb W a (k, v) b k (same_refl ltb W k) Hs).
  Qed.
  Lemma along_key m' (r : entries) : poskey (along ltb m' r) = option_map fst (hd_error r).
  Proof. destruct r as [|e r]; cbn [along]; auto. now destruct (has ltb (fst e) m'). Qed.
  Lemma first_key (r : entries) : poskey (first_of r) = option_map fst (hd_error r).
  Proof. now destruct r. Qed.
  Lemma along_asc (m : entries) o : strictly_sorted ltb m -> forall r, incl r m -> strictly_sorted ltb r -> asc (fst (lspec m o)) (along ltb (fst (lspec m o)) r).
  Proof.
    intros Hs. induction r as [|e r IH]; intros Hi Hr; cbn [along asc]; auto. inversion Hr as [|? ? Hr1 Hr2]; subst. rewrite Forall_forall in Hr2.
    destruct (has ltb (fst e) (fst (lspec m o))) eqn:E; cbn [asc].
    - apply has_in in E as ([k v] & E1 & E2). rewrite <- (spelling m o e (k, v) Hs (Hi e ltac:(now left)) E1 E2). now exists v.
    - split; [|apply IH; auto; intros x Hx; apply Hi; now right]. intros k. rewrite along_key. destruct r as [|x r]; cbn [hd_error option_map]; [discriminate|]. intros X. injection X as <-. apply Hr2. now left.
  Qed.
  Lemma along_covers x (m' : entries) : forall r, strictly_sorted ltb r -> (forall e, In e r -> ltb (fst e) x = true -> has ltb x r = true) -> covers x (along ltb m' r).
  Proof.
    induction r as [|e r IH]; intros Hr Hx; cbn [along covers]; auto. inversion Hr as [|? ? Hr1 Hr2]; subst. rewrite Forall_forall in Hr2.
    assert (Hx' : ltb (fst e) x = true -> has ltb x r = true).
    { intros H. specialize (Hx e ltac:(now left) H). apply has_in in Hx as (y & [<-|Y1] & Y2); [apply same_iff in Y2 as (Y & _); congruence|]. apply has_in. eauto. }
    destruct (has ltb (fst e) m'); cbn [covers]; auto. split.
    - intros H. apply Hx' in H. apply has_in in H as (y & Y1 & Y2). rewrite along_key. destruct r as [|z r]; [destruct Y1|]. exists (fst z). split; auto. apply same_iff in Y2 as (Y2 & Y3).
      destruct Y1 as [->|Y1]; auto. inversion Hr1 as [|? ? _ Hr3]; subst. rewrite Forall_forall in Hr3. specialize (Hr3 y Y1). cbn in Hr3. apply (lt_asym ltb W). apply (lt_le ltb W _ _ _ Hr3 Y3).
    - apply IH; auto. intros y Hy H. apply Hx'. eapply (wo_trans _ W); [|exact H]. now apply Hr2.
  Qed.
  Lemma from_key (m : entries) k v : strictly_sorted ltb m -> In (k, v) m -> exists b, from ltb k m = (k, v) :: b /\ incl ((k, v) :: b) m /\ strictly_sorted ltb ((k, v) :: b) /\
    forall x, has ltb x m = true -> ltb x k = false -> has ltb x ((k, v) :: b) = true.
  Proof.
    intros Hs H. destruct (cut_key m k v Hs H) as (a & b & E1 & E2 & E3 & E4). exists b. unfold from. rewrite E3, E4. split; auto. rewrite E1. split; [intros x Hx; apply in_or_app; auto|].
    rewrite E1 in Hs. apply ssorted_app in Hs as (S1 & S2 & S3). split; auto. intros x Hx Hk. apply has_in in Hx as (y & Y1 & Y2). apply has_in. exists y. split; auto.
    apply in_app_or in Y1 as [Y1|Y1]; auto. exfalso. specialize (S3 y (k, v) Y1 ltac:(now left)). cbn in S3. rewrite (same_lt_l ltb W _ _ _ Y2) in S3. congruence.
  Qed.
  Lemma moved_ok (m : entries) o p : strictly_sorted ltb m -> asc m p -> let m' := fst (lspec m o) in
    asc m' (moved ltb m m' p) /\ poskey (moved ltb m m' p) = poskey p /\
    forall x, has ltb x m = true -> covers x p -> covers x (moved ltb m m' p).
  Proof.
    cbv zeta. intros Hs. induction p as [|k|e q IH]; cbn [asc moved covers poskey]; auto.
    - intros (v & Hin). destruct (from_key m k v Hs Hin) as (b & -> & Hi & Hb & Hx). split; [now apply along_asc|]. rewrite along_key. split; auto.
      intros x Hh _. apply along_covers; auto. intros e He Hlt. apply Hx; auto. inversion Hb as [|? ? _ Hb2]; subst. rewrite Forall_forall in Hb2. destruct He as [<-|He]; [now apply (lt_asym ltb W)|].
      apply (lt_asym ltb W). apply (wo_trans _ W _ (fst e)); auto.
    - intros (H1 & H2). destruct (IH H2) as (I1 & I2 & I3). rewrite I2. split; auto. split; auto. intros x Hh (C1 & C2). auto.
  Qed.

  Lemma sreach_app {T O R : Type} (st : T -> O -> T * R) a : forall b t, sreach st t (a ++ b) = sreach st (sreach st t a) b.
  Proof. induction a as [|o a IH]; intros b t; [reflexivity|]. cbn [app sreach]. apply IH. Qed.
  Lemma met_app (a b : list (ch_out K V)) : met (a ++ b) = met a ++ met b. Proof. apply flat_map_app. Qed.
  Lemma set_same {X} j (x : X) f : set_at j x f j = x. Proof. unfold set_at. now rewrite Nat.eqb_refl. Qed.
  (** some calls of the list *)
  Lemma calls_ok j rest c : forall (m : entries) ps, real m -> asc m (fst (ps j)) -> exists outs ps',
    let m' := sreach lspec m c in
    srun spec (m, ps) (map HList c ++ rest) = outs ++ srun spec (m', ps') rest /\ met outs = [] /\ real m' /\
    asc m' (fst (ps' j)) /\ poskey (fst (ps' j)) = poskey (fst (ps j)) /\
    forall x, (forall n, has ltb x (sreach lspec m (firstn n c)) = true) -> covers x (fst (ps j)) -> covers x (fst (ps' j)).
  Proof.
    induction c as [|o c IH]; intros m ps Hm Hp; cbn [map app sreach].
    - exists [], ps. auto 10.
    - cbn [srun ch_spec]. pose proof (real_step m o Hm) as Hm'. destruct (moved_ok m o (fst (ps j)) (real_sorted m Hm) Hp) as (M1 & M2 & M3).
      destruct (lspec m o) as (m', r) eqn:Eo. cbn [fst snd] in *.
      destruct (IH m' (fun j => (moved ltb m m' (fst (ps j)), snd (ps j))) Hm' M1) as (outs & ps' & E1 & E2 & E3 & E4 & E5 & E6). cbn [fst snd] in *.
      exists (HL r :: outs), ps'. rewrite E1. split; [reflexivity|]. split; [exact E2|]. split; auto. split; auto. split; [congruence|]. intros x Hx Hcov. apply E6.
      + intros n. specialize (Hx (S n)). cbn [firstn sreach] in Hx. now rewrite Eo in Hx.
      + apply M3; auto. apply (Hx 0).
  Qed.
  Definition nextplace (m : entries) (p : place K V) : place K V := match p with Nowhere => Nowhere | At k => first_of (after ltb k m) | Gone _ q => q end.
  Lemma next_ok (m : entries) p : strictly_sorted ltb m -> asc m p -> asc m (nextplace m p) /\
    (forall k k', poskey p = Some k -> poskey (nextplace m p) = Some k' -> ltb k k' = true) /\
    forall x k, has ltb x m = true -> covers x p -> covers x (nextplace m p) /\
      (poskey p = Some k -> ltb k x = true -> exists k', poskey (nextplace m p) = Some k' /\ ltb x k' = false).
  Proof.
    intros Hs Hp. destruct p as [|k|e q]; cbn [nextplace asc poskey covers] in *.
    - split; auto. split; [discriminate|]. intros. split; auto. discriminate.
    - destruct Hp as (v & Hin). destruct (cut_key m k v Hs Hin) as (a & b & E1 & E2 & E3 & E4). rewrite E4. pose proof Hs as Hs'. rewrite E1 in Hs'. apply ssorted_app in Hs' as (_ & S2 & S3). apply StronglySorted_inv in S2 as (S4 & S5).
      rewrite Forall_forall in S5. split; [|split].
      + destruct b as [|[k' v'] b']; cbn; auto. exists v'. rewrite E1. apply in_or_app. right. right. now left.
      + intros k0 k' X. injection X as <-. rewrite first_key. destruct b as [|e b']; [discriminate|]. cbn [hd_error option_map]. intros X. injection X as <-. apply (S5 e). now left.
      + intros x k0 Hh _. split; [now destruct b|]. intros X Hlt. injection X as <-. apply has_in in Hh as (y & Y1 & Y2). pose proof (same_iff ltb (fst y) x) as SI'. apply SI' in Y2 as (Y3 & Y4).
        assert (Hy : In y b). { rewrite <- E4. apply after_in. split; auto. apply (lt_le ltb W _ _ _ Hlt Y3). }
        rewrite first_key. destruct b as [|z b']; [destruct Hy|]. exists (fst z). split; auto. destruct Hy as [->|Hy]; auto.
        apply StronglySorted_inv in S4 as (_ & S6). rewrite Forall_forall in S6. specialize (S6 y Hy). cbn in S6. apply (lt_asym ltb W). apply (lt_le ltb W _ _ _ S6 Y4).
    - destruct Hp as (H1 & H2). split; auto. split; [intros k k' X; injection X as <-; auto|]. intros x k Hh (C1 & C2). split; auto. intros X. injection X as <-. auto.
  Qed.
  Lemma read_key (m : entries) p : strictly_sorted ltb m -> asc m p -> option_map fst (read_at ltb m p) = poskey p.
  Proof. intros Hs. destruct p as [|k|e q]; cbn; auto. intros (v & H). destruct (cut_key m k v Hs H) as (a & b & _ & _ & -> & _). reflexivity. Qed.

  Notation lt := (fun a b : K * V => ltb (fst a) (fst b) = true).
  Lemma walk_ok j chunks : forall (m : entries) ps, real m -> asc m (fst (ps j)) ->
    let es := met (srun spec (m, ps) (walk j chunks)) in
    StronglySorted lt es /\
    match poskey (fst (ps j)) with
    | None => es = []
    | Some k0 => (forall e, In e es -> fst e = k0 \/ ltb k0 (fst e) = true) /\
        forall x, (forall n, has ltb x (sreach lspec m (firstn n (concat chunks))) = true) -> covers x (fst (ps j)) -> ltb x k0 = false ->
          (exists e, In e es /\ same ltb (fst e) x = true) \/ ((forall e, In e es -> ltb (fst e) x = true) /\ length es = length chunks)
    end.
  Proof.
    induction chunks as [|c chunks IH]; intros m ps Hm Hp.
    { cbn. split; [constructor|]. destruct (poskey (fst (ps j))) as [k0|]; [|reflexivity]. split; [intros e []|]. intros x _ _ _. right. split; [intros e []|reflexivity]. }
    cbn [walk flat_map app] in *. change (flat_map (fun c => HIter j IEntry :: map HList c ++ [HIter j INext]) chunks) with (walk (V:=V) j chunks) in *.
    rewrite <- app_assoc. cbn [app]. set (rest := HIter j INext :: walk j chunks). cbn [srun ch_spec ch_iter]. destruct (ps j) as (p, i) eqn:Ep. cbn [ch_iter fst snd] in *.
    set (ps1 := set_at j (p, i) ps). assert (E1 : ps1 j = (p, i)) by apply set_same.
    destruct (calls_ok j rest c m ps1 Hm) as (outs & ps' & A1 & A2 & A3 & A4 & A5 & A6); [now rewrite E1|]. cbv zeta in *. rewrite E1 in *. cbn [fst snd] in *. rewrite A1.
    set (m' := sreach lspec m c) in *. unfold rest. cbn [srun ch_spec ch_iter]. destruct (ps' j) as (p', i') eqn:Ep'. cbn [ch_iter fst snd] in *.
    set (st2 := match p' with Nowhere => (Nowhere, i') | At k => (first_of (after ltb k m'), (i' + 1)%Z) | Gone _ q => (q, (i' + 1)%Z) end).
    assert (E2 : fst st2 = nextplace m' p') by (unfold st2; now destruct p'). set (ps2 := set_at j st2 ps'). assert (E3 : ps2 j = st2) by apply set_same.
    destruct (next_ok m' p' (real_sorted m' A3) A4) as (N1 & N2 & N3). specialize (IH m' ps2 A3). rewrite E3, E2 in IH. specialize (IH N1). cbv zeta in IH. destruct IH as (I1 & I2).
    set (es := met (srun spec (m', ps2) (walk j chunks))) in *.
    pose proof (read_key m p (real_sorted m Hm) Hp) as Hr.
    assert (Ek : met (HI (IKV (read_at ltb m p)) :: outs ++ HI IUnit :: srun spec (m', ps2) (walk j chunks)) = (match read_at ltb m p with Some e => [e] | None => [] end) ++ es).
    { change (met (HI (IKV (read_at ltb m p)) :: outs ++ HI IUnit :: srun spec (m', ps2) (walk j chunks))) with
        (match read_at ltb m p with Some e => [e] | None => [] end ++ met (outs ++ HI IUnit :: srun spec (m', ps2) (walk j chunks))). now rewrite met_app, A2. }
    rewrite Ek. destruct (read_at ltb m p) as [e0|]; cbn [option_map] in Hr; rewrite <- Hr in *; cbn [app].
    - assert (Hgt : forall e, In e es -> ltb (fst e0) (fst e) = true).
      { intros e He. destruct (poskey (nextplace m' p')) as [k1|] eqn:E4; [|rewrite I2 in He; destruct He]. destruct I2 as (I2 & _). specialize (N2 _ _ A5 eq_refl).
        destruct (I2 e He) as [->|X]; auto. exact (wo_trans _ W _ _ _ N2 X). }
      split; [constructor; auto; apply Forall_forall; auto|]. split; [intros e [<-|He]; auto|]. intros x Hx Hcov Hle.
      destruct (ltb (fst e0) x) eqn:Elt; [|left; exists e0; split; [now left|]; apply same_iff; auto].
      assert (Hx1 : forall n, has ltb x (sreach lspec m (firstn n c)) = true).
      { intros n. specialize (Hx (Nat.min n (length c))). cbn [concat] in Hx. rewrite firstn_app in Hx. replace (Nat.min n (length c) - length c) with 0 in Hx by lia. rewrite firstn_O, app_nil_r in Hx.
        destruct (Nat.le_gt_cases n (length c)); [now replace (Nat.min n (length c)) with n in Hx by lia|]. replace (Nat.min n (length c)) with (length c) in Hx by lia. rewrite firstn_all in Hx. now rewrite firstn_all2 by lia. }
      assert (Hx2 : forall n, has ltb x (sreach lspec m' (firstn n (concat chunks))) = true).
      { intros n. specialize (Hx (length c + n)). cbn [concat] in Hx. rewrite firstn_app_2, sreach_app in Hx. exact Hx. }
      destruct (N3 x (fst e0) (Hx2 0) (A6 x Hx1 Hcov)) as (N4 & N5). destruct (N5 A5 Elt) as (k1 & E4 & Hk1). rewrite E4 in I2. destruct I2 as (I2 & I3).
      destruct (I3 x Hx2 N4 Hk1) as [(e & He & Hs)|(X1 & X2)]; [left; exists e; split; auto; now right|]. right. split; [|cbn [length]; congruence]. intros e [<-|He]; auto.
    - assert (En : es = []).
      { destruct p' as [|k|e q]; cbn [poskey] in A5; try discriminate. cbn [nextplace poskey] in I2. exact I2. } rewrite En. split; [constructor|reflexivity].
  Qed.

  Lemma lists_reach ops rest : forall (m : entries) ps, exists outs ps', srun spec (m, ps) (map HList ops ++ rest) = outs ++ srun spec (sreach lspec m ops, ps') rest /\ met outs = [] /\ length outs = length ops.
  Proof.
    induction ops as [|o ops IH]; intros m ps; cbn [map app sreach]; [exists [], ps; auto|]. cbn [srun ch_spec]. destruct (lspec m o) as (m', r) eqn:Eo. cbn [fst].
    destruct (IH m' (fun j => (moved ltb m m' (fst (ps j)), snd (ps j)))) as (outs & ps' & E1 & E2 & E3). exists (HL r :: outs), ps'. rewrite E1. cbn [length]. auto.
  Qed.
  Lemma first_asc (m : entries) : asc m (first_of m). Proof. destruct m as [|[k v] m]; cbn; auto. exists v. now left. Qed.
  Lemma first_least (m : entries) x : strictly_sorted ltb m -> has ltb x m = true -> exists k0, poskey (first_of m) = Some k0 /\ ltb x k0 = false.
  Proof.
    intros Hs H. apply has_in in H as (y & Y1 & Y2). apply same_iff in Y2 as (Y2 & Y3). destruct m as [|z m]; [destruct Y1|]. exists (fst z). split; auto. destruct Y1 as [->|Y1]; auto.
    inversion Hs as [|? ? _ S6]; subst. rewrite Forall_forall in S6. specialize (S6 y Y1). cbn in S6. apply (lt_asym ltb W). apply (lt_le ltb W _ _ _ S6 Y3).
  Qed.

  (** The list is built by the calls [ops]; then it is walked from its first entry on, and between reading an entry and going
      on it is changed in any way: the keys met are strictly increasing; and every key that is in the list during all of the
      walk is met, unless the walk was broken off before. *)
  Theorem C72_walk l j (ops : list (sk_op K V)) (chunks : list (list (sk_op K V))) :
    exists outs, run step (start l) (map HList ops ++ HIter j IFirst :: walk j chunks) = Some outs /\ let es := met outs in
    StronglySorted lt es /\
    forall x, (forall n, has ltb x (sreach lspec [] (ops ++ firstn n (concat chunks))) = true) ->
      (exists e, In e es /\ same ltb (fst e) x = true) \/ ((forall e, In e es -> ltb (fst e) x = true) /\ length es = length chunks).
  Proof.
    eexists. split; [apply C72_iterators_follow_the_list|]. cbv zeta. destruct (lists_reach ops (HIter j IFirst :: walk j chunks) [] (fun _ => (Nowhere, 0%Z))) as (outs & ps & -> & E2 & _). rewrite met_app, E2. cbn [app].
    set (m := sreach lspec [] ops). assert (Hm : real m) by apply real_reach, real_nil. cbn [srun ch_spec ch_iter].
    destruct (ps j) as (p, i). cbn [ch_iter fst snd]. set (ps1 := set_at j (first_of m, 0%Z) ps). assert (E1 : ps1 j = (first_of m, 0%Z)) by apply set_same.
    change (met (HI IUnit :: srun spec (m, ps1) (walk j chunks))) with (met (srun spec (m, ps1) (walk j chunks))).
    destruct (walk_ok j chunks m ps1 Hm) as (A1 & A2); [rewrite E1; apply first_asc|]. split; auto. rewrite E1 in A2. cbn [fst] in A2. intros x Hx.
    assert (Hx' : forall n, has ltb x (sreach lspec m (firstn n (concat chunks))) = true) by (intros n; specialize (Hx n); now rewrite sreach_app in Hx).
    destruct (first_least m x (real_sorted m Hm) (Hx' 0)) as (k0 & E3 & E4). rewrite E3 in A2. apply A2; auto. now destruct m.
  Qed.

  (** ** Removing what is met *)
  Lemma sieve_ok j (f : K * V -> bool) : forall (r d : entries) ps, real (d ++ r) -> fst (ps j) = first_of r ->
    exists ps', sreach spec (d ++ r, ps) (walk j (map (fun e => if f e then [KRemove (fst e)] else []) r)) = (d ++ filter (fun e => negb (f e)) r, ps') /\
      met (srun spec (d ++ r, ps) (walk j (map (fun e => if f e then [KRemove (fst e)] else []) r))) = r.
  Proof.
    induction r as [|e r IH]; intros d ps Hm Hp; [exists ps; auto|]. cbn [map walk flat_map]. set (rest := flat_map _ (map _ r)). assert (Hs := real_sorted _ Hm).
    destruct (cut_same_strict ltb W d e r (fst e) (same_refl ltb W _) Hs) as (X1 & X2 & X3).
    cbn [app]. rewrite <- app_assoc. cbn [app srun sreach ch_spec ch_iter]. destruct (ps j) as (p, i) eqn:Ep. cbn [ch_iter fst snd] in *. subst p. cbn [first_of read_at]. rewrite X2. cbn [hd_error].
    set (ps1 := set_at j (At (fst e), i) ps). assert (E1 : ps1 j = (At (fst e), i)) by apply set_same. destruct (f e) eqn:Ef; cbn [filter negb map app srun sreach ch_spec ch_iter sk_spec fst snd].
    - rewrite Ef. cbn [negb]. unfold erase. rewrite X1, X3. rewrite E1. cbn [fst snd moved]. unfold from. rewrite X2, X3. cbn [app along].
      assert (Hm' : real (d ++ r)). { pose proof (real_step _ (KRemove (fst e)) Hm) as X. cbn [sk_spec fst] in X. unfold erase in X. now rewrite X1, X3 in X. }
      assert (Hno : has ltb (fst e) (d ++ r) = false).
      { destruct (has ltb (fst e) (d ++ r)) eqn:Eh; auto. exfalso. apply has_in in Eh as (y & Y1 & Y2). apply same_iff in Y2 as (Y2 & Y3). destruct (strict_mid ltb d e r Hs) as (_ & _ & S3 & S4).
        apply in_app_or in Y1 as [Y1|Y1]; [rewrite (S3 y Y1) in Y2|rewrite (S4 y Y1) in Y3]; discriminate. }
      rewrite Hno. set (ps2 := fun j0 => (moved ltb (d ++ e :: r) (d ++ r) (fst (ps1 j0)), snd (ps1 j0))).
      assert (E2 : along ltb (d ++ r) r = first_of r).
      { destruct r as [|y r]; cbn [along first_of]; auto. replace (has ltb (fst y) (d ++ y :: r)) with true; auto. symmetry. apply has_in. exists y. split; [apply in_or_app; right; now left|now apply same_refl]. }
      rewrite E2. destruct (IH d (set_at j (first_of r, (i + 1)%Z) ps2) Hm' (f_equal fst (set_same _ _ _))) as (ps' & A1 & A2). exists ps'. split; [exact A1|]. unfold met in *. cbn [flat_map app]. f_equal. exact A2.
    - rewrite Ef. cbn [negb]. rewrite E1. cbn [ch_iter fst snd]. rewrite X3. cbn [fst snd]. destruct (IH (d ++ [e]) (set_at j (first_of r, (i + 1)%Z) ps1)) as (ps' & A1 & A2); [now rewrite <- app_assoc|now rewrite set_same|].
      rewrite <- (app_assoc d [e] r) in A1, A2. rewrite <- (app_assoc d [e]) in A1. exists ps'. split; [exact A1|]. unfold met in *. cbn [flat_map app]. f_equal. exact A2.
  Qed.
  (** Removing, while walking along, any of the entries as they are met: all entries are met, and exactly those removed are gone. *)
  Theorem C72_sieve l j (ops : list (sk_op K V)) (f : K * V -> bool) : let m := sreach lspec [] ops in
    exists outs, run step (start l) (map HList ops ++ HIter j IFirst :: walk j (map (fun e => if f e then [KRemove (fst e)] else []) m) ++ [HList KSlice]) = Some outs /\
    met outs = m /\ last outs (HI IUnit) = HL (KSeen (filter (fun e => negb (f e)) m)).
  Proof.
    cbv zeta. eexists. split; [apply C72_iterators_follow_the_list|]. set (m := sreach lspec [] ops). assert (Hm : real m) by apply real_reach, real_nil.
    set (w := walk j _). destruct (lists_reach ops (HIter j IFirst :: w ++ [HList KSlice]) [] (fun _ => (Nowhere, 0%Z))) as (outs & ps & -> & E2 & _). fold m. rewrite met_app, E2. cbn [app srun ch_spec ch_iter].
    destruct (ps j) as (p, i). cbn [ch_iter fst snd]. destruct (sieve_ok j f m [] (set_at j (first_of m, 0%Z) ps) Hm (f_equal fst (set_same _ _ _))) as (ps' & A1 & A2). cbn [app] in *. fold w in A1, A2.
    assert (SA : forall a b t, srun spec t (a ++ b) = srun spec t a ++ srun spec (sreach spec t a) b).
    { induction a as [|o a IHa]; intros b t; [reflexivity|]. cbn [app srun sreach]. destruct (spec t o) as (t', r0). cbn [fst app]. now rewrite IHa. }
    rewrite SA, A1. cbn [srun ch_spec sk_spec]. split.
    - unfold met at 1. cbn [flat_map app]. fold (met (srun spec (m, set_at j (first_of m, 0%Z) ps) w ++ [HL (KSeen (filter (fun e => negb (f e)) m))])). rewrite met_app, A2. cbn. apply app_nil_r.
    - rewrite app_comm_cons, app_assoc. apply last_last.
  Qed.

  (** ** One entry *)
  Lemma srun_app a : forall b (t : entries * (nat -> place K V * Z)), srun spec t (a ++ b) = srun spec t a ++ srun spec (sreach spec t a) b.
  Proof. induction a as [|o a IH]; intros b t; [reflexivity|]. cbn [app srun sreach]. destruct (spec t o) as (t', r0). cbn [fst app]. now rewrite IH. Qed.
  Lemma reach_lists c : forall (m : entries) ps, exists ps', sreach spec (m, ps) (map HList c) = (sreach lspec m c, ps') /\
    (forall j e q, fst (ps j) = Gone e q -> exists q', fst (ps' j) = Gone e q').
  Proof.
    induction c as [|o c IH]; intros m ps; cbn [map sreach]; [exists ps; eauto|]. cbn [ch_spec]. destruct (lspec m o) as (m', r). cbn [fst].
    destruct (IH m' (fun j => (moved ltb m m' (fst (ps j)), snd (ps j)))) as (ps' & E1 & E2). exists ps'. split; auto. intros j e q Hq. eapply E2. cbn [fst]. rewrite Hq. reflexivity.
  Qed.
  Lemma reach_at c x : forall (m : entries) ps j k, real m -> same ltb k x = true -> (exists v, In (k, v) m) -> fst (ps j) = At k -> (forall n, has ltb x (sreach lspec m (firstn n c)) = true) ->
    exists ps', sreach spec (m, ps) (map HList c) = (sreach lspec m c, ps') /\ fst (ps' j) = At k.
  Proof.
    induction c as [|o c IH]; intros m ps j k Hm Hk (v & Hi) Hp Hx; cbn [map sreach]; [exists ps; auto|]. cbn [ch_spec].
    pose proof (real_step m o Hm) as Hm'. pose proof (Hx 1) as Hx1. cbn [firstn sreach] in Hx1. pose proof (spelling m o (k, v)) as Sp.
    destruct (lspec m o) as (m', r) eqn:Eo. cbn [fst] in *. apply has_in in Hx1 as ([k' v'] & Y1 & Y2). cbn [fst] in *.
    assert (Ys : same ltb k' k = true). { apply same_iff. apply same_iff in Hk as (K1 & K2). apply same_iff in Y2 as (Y2 & Y3). split; [apply (le_le ltb W _ x); auto|apply (le_le ltb W _ x); auto]. }
    pose proof (Sp (k', v') (real_sorted m Hm) Hi Y1 Ys) as Ek; cbn [fst] in Ek; subst k'. apply IH; auto; [now exists v'| |].
    - cbn [fst]. rewrite Hp. cbn [moved]. destruct (from_key m k v (real_sorted m Hm) Hi) as (b & -> & _). cbn [along fst]. replace (has ltb k m') with true; auto. symmetry. apply has_in. exists (k, v'). split; auto.
    - intros n. specialize (Hx (S n)). cbn [firstn sreach] in Hx. now rewrite Eo in Hx.
  Qed.
  Lemma ge_place (m : entries) x : strictly_sorted ltb m -> has ltb x m = true -> exists k v, same ltb k x = true /\ In (k, v) m /\ first_of (from ltb x m) = At k /\ sames ltb x m = [(k, v)] /\ sames ltb k m = [(k, v)].
  Proof.
    intros Hs H. apply has_in in H as ([k v] & Y1 & Y2). exists k, v. split; auto. split; auto. pose proof Y1 as Y. apply List.in_split in Y as (a & b & Em).
    pose proof Hs as Hs'. rewrite Em in Hs'. destruct (cut_same_strict ltb W a (k, v) b x Y2 Hs') as (X1 & X2 & X3). destruct (cut_same_strict ltb W a (k, v) b k (same_refl ltb W k) Hs') as (_ & Z2 & _).
    rewrite <- Em in *. unfold from. rewrite X2. auto.
  Qed.
  (** An iterator put at a key that stays in the list stays there, whatever else is done to the list, and reads the entry the
      key has by then. *)
  Theorem C72_stays l j (ops c : list (sk_op K V)) x : (forall n, has ltb x (sreach lspec [] (ops ++ firstn n c)) = true) ->
    exists outs, run step (start l) (map HList ops ++ HIter j (IGE x) :: map HList c ++ [HIter j IEntry; HIter j IValid]) =
      Some (outs ++ [HI (IKV (hd_error (sames ltb x (sreach lspec [] (ops ++ c))))); HI (IBool true)]).
  Proof.
    intros Hx. assert (Hx' : forall n, has ltb x (sreach lspec (sreach lspec [] ops) (firstn n c)) = true) by (intros n; specialize (Hx n); now rewrite sreach_app in Hx).
    rewrite C72_iterators_follow_the_list. rewrite sreach_app. rewrite srun_app. destruct (reach_lists ops [] (fun _ => (Nowhere, 0%Z))) as (ps & -> & _).
    set (m := sreach lspec [] ops) in *. assert (Hm : real m) by apply real_reach, real_nil. cbn [srun ch_spec ch_iter]. destruct (ps j) as (p, i). cbn [ch_iter].
    destruct (ge_place m x (real_sorted m Hm) (Hx' 0)) as (k & v & G1 & G2 & G3 & _). rewrite G3. rewrite srun_app. set (ps1 := set_at j (At k, 0%Z) ps).
    destruct (reach_at c x m ps1 j k Hm G1 (ex_intro _ v G2)) as (ps' & -> & E); auto; [now unfold ps1; rewrite set_same|].
    assert (Hm' : real (sreach lspec m c)) by now apply real_reach. set (m' := sreach lspec m c) in *. assert (Hh : has ltb x m' = true) by (specialize (Hx' (length c)); now rewrite firstn_all in Hx').
    destruct (ge_place m' x (real_sorted m' Hm') Hh) as (k' & v' & F1 & F2 & _ & F3 & F4). cbn [srun ch_spec ch_iter]. destruct (ps' j) as (p', i') eqn:Ep'. cbn [fst] in E. subst p'. cbn [ch_iter read_at srun ch_spec]. rewrite set_same. cbn [ch_iter].
    assert (Ek : sames ltb k m' = sames ltb x m') by (unfold sames; apply filter_ext; intros e; apply eq_true_iff_eq; rewrite !same_iff; rewrite (same_lt_l ltb W _ _ _ G1), (same_lt_r ltb W _ _ _ G1); tauto).
    rewrite Ek. eexists. f_equal. rewrite app_comm_cons, app_assoc. reflexivity.
  Qed.
  (** An iterator whose entry is removed goes on to read it as it was, for ever. *)
  Theorem C72_removed_is_kept l j (ops c : list (sk_op K V)) x : has ltb x (sreach lspec [] ops) = true ->
    exists outs, run step (start l) (map HList ops ++ HIter j (IGE x) :: HList (KRemove x) :: map HList c ++ [HIter j IEntry; HIter j IValid]) =
      Some (outs ++ [HI (IKV (hd_error (sames ltb x (sreach lspec [] ops)))); HI (IBool true)]).
  Proof.
    intros Hx. rewrite C72_iterators_follow_the_list. rewrite srun_app. destruct (reach_lists ops [] (fun _ => (Nowhere, 0%Z))) as (ps & -> & _).
    set (m := sreach lspec [] ops) in *. assert (Hm : real m) by apply real_reach, real_nil. cbn [srun ch_spec ch_iter]. destruct (ps j) as (p, i). cbn [ch_iter].
    destruct (ge_place m x (real_sorted m Hm) Hx) as (k & v & G1 & G2 & G3 & G4 & G5). rewrite G3. cbn [srun ch_spec sk_spec]. rewrite srun_app.
    set (ps1 := fun j0 => (moved ltb m (erase ltb x m) (fst (set_at j (At k, 0%Z) ps j0)), snd (set_at j (At k, 0%Z) ps j0))).
    destruct (reach_lists c (erase ltb x m) ps1) as (ps' & -> & E). destruct (from_key m k v (real_sorted m Hm) G2) as (b & F1 & _).
    assert (Hno : has ltb k (erase ltb x m) = false).
    { destruct (has ltb k (erase ltb x m)) eqn:Eh; auto. exfalso. apply has_in in Eh as (y & Y1 & Y2). unfold erase in Y1. rewrite in_app_iff, before_in, after_in in Y1. apply same_iff in Y2 as (Y2 & Y3). apply same_iff in G1 as (G6 & G7).
      destruct Y1 as [(_ & Y1)|(_ & Y1)]; [rewrite (lt_le ltb W _ _ _ Y1 G6) in Y2|rewrite (le_lt ltb W _ _ _ G7 Y1) in Y3]; discriminate. }
    destruct (E j (k, v) (along ltb (erase ltb x m) b)) as (q & Eq). { unfold ps1. rewrite set_same. cbn [fst moved]. rewrite F1. cbn [along fst]. now rewrite Hno. }
    cbn [srun ch_spec ch_iter]. destruct (ps' j) as (p', i') eqn:Ep'. cbn [fst] in Eq. subst p'. cbn [ch_iter read_at srun ch_spec]. rewrite set_same. cbn [ch_iter]. rewrite G4. cbn [hd_error].
    eexists. f_equal. rewrite !app_comm_cons, app_assoc. reflexivity.
  Qed.
End Props.
Print Assumptions C72_iterators_follow_the_list.
Print Assumptions C72_walk.
Print Assumptions C72_sieve.
Print Assumptions C72_stays.
Print Assumptions C72_removed_is_kept.

(** ** What does not hold *)
Notation zstep := (ch_step Z.sub).
Notation zstart := (NewWithMaxLevel 16, fun _ : nat => It None 0).
Definition puts (ks : list Z) : list (sk_op Z Z) := map (fun k => KPut k (10 * k)%Z 0) ks.
(** A key put in during a walk, behind where the walk is, need not be met, even if it stays: the iterator's entry 1 was
    removed before 2 was put in, and 1 still leads to 3. *)
Theorem C72_put_is_met_refuted : exists (ops : list (sk_op Z Z)) c outs k, run zstep zstart (map HList ops ++ HIter 0 IFirst :: walk 0 ([c] ++ repeat [] 5)) = Some outs /\
  (exists e, In e (met outs) /\ (fst e < k)%Z) /\ sreach (sk_spec Z.ltb) [] (ops ++ c) = [(k, 20%Z); (3, 30)%Z] /\ ~ In k (map fst (met outs)).
Proof.
  exists (puts [1; 3]%Z), [KRemove 1; KPut 2 20 0]%Z. eexists. exists 2%Z. split; [vm_compute; reflexivity|]. split; [|split; [reflexivity|]].
  - exists (1, 10)%Z. split; [now left|reflexivity].
  - vm_compute. intuition congruence.
Qed.
(** Prev from a removed entry leads nowhere, although there is an entry before it. *)
Theorem C72_prev_refuted : exists (ops : list (sk_op Z Z)) outs, run zstep zstart (map HList ops ++ [HIter 0 (IGE 2%Z); HList (KRemove 2%Z); HIter 0 IPrev; HIter 0 IValid; HList KHead]) =
  Some (outs ++ [HI (IBool false); HL (KEntry (Some (1, 10)%Z))]).
Proof. exists (puts [1; 2; 3]%Z). exists (firstn 6 (srun (ch_spec Z.ltb) ([], fun _ => (Nowhere, 0%Z)) (map HList (puts [1; 2; 3]%Z) ++ [HIter 0 (IGE 2%Z); HList (KRemove 2%Z); HIter 0 IPrev]))). vm_compute. reflexivity. Qed.
(** The number that Index answers is not that of the entry once one before it has come or gone. *)
Theorem C72_index_refuted : exists outs, run zstep zstart (map HList (puts [1; 2]%Z) ++ [HIter 0 IFirst; HIter 0 INext; HList (KRemove 1%Z); HIter 0 IEntry; HIndex 0; HList (KIndexOf 2%Z)]) =
  Some (outs ++ [HI (IKV (Some (2, 20)%Z)); HN 1; HL (KNum 0)]).
Proof. exists [HL (KBool true); HL (KBool true); HI IUnit; HI IUnit; HL (KEntry (Some (1, 10)%Z))]. vm_compute. reflexivity. Qed.
Print Assumptions C72_put_is_met_refuted.
Print Assumptions C72_prev_refuted.
Print Assumptions C72_index_refuted.

(** Three iterators, one of them a clone, over a list that is changed in every way. *)
Definition busy : list (ch_op Z Z) :=
  map HList (map (fun k => KPut k (10 * k)%Z (Z.to_nat (k mod 3)%Z)) [5; 1; 7; 3; 9; 11; 13]%Z) ++
  [HNew 0; HIter 0 INext; HClone 0 1; HList (KRemove 3%Z); HList (KPut 4 40 2)%Z; HIter 0 IEntry; HIter 0 INext; HIter 0 IEntry; HIter 0 IPrev; HIter 0 IEntry;
   HIter 1 IPrev; HIter 1 IValid; HIter 1 IPrev; HIter 1 IEntry; HIter 2 (ILE 8)%Z; HList (KSet 7 77 0)%Z; HIter 2 IEntry; HList (KTrim 5 11)%Z; HIter 0 IEntry; HIter 0 INext; HIter 0 IEntry;
   HIter 1 IEntry; HIter 1 INext; HIter 1 IValid; HIter 2 IEntry; HList (KRemoveRangeByIndex 1 2)%Z; HIter 2 IEntry; HIter 2 INext; HIter 2 IEntry; HIter 2 INext; HIter 2 IEntry; HIndex 2;
   HList KClear; HIter 2 IEntry; HList (KPut 6 60 1)%Z; HIter 2 INext; HIter 2 IValid; HIter 2 IPrev; HIter 2 IEntry].
Example busy_ok : option_map (skipn 7) (run zstep zstart busy) = Some
  [HI IUnit; HI IUnit; HI IUnit; HL (KEntry (Some (3, 30)%Z)); HL (KBool true); HI (IKV (Some (3, 30)%Z)); HI IUnit; HI (IKV (Some (5, 50)%Z)); HI IUnit; HI (IKV (Some (4, 40)%Z));
   HI IUnit; HI (IBool false); HI IUnit; HI (IKV (Some (13, 130)%Z)); HI (IBool true); HL (KBool false); HI (IKV (Some (7, 77)%Z)); HL KUnit; HI (IKV (Some (4, 40)%Z)); HI IUnit; HI (IKV (Some (5, 50)%Z));
   HI (IKV (Some (13, 130)%Z)); HI IUnit; HI (IBool false); HI (IKV (Some (7, 77)%Z)); HL KUnit; HI (IKV (Some (7, 77)%Z)); HI IUnit; HI (IKV (Some (9, 90)%Z)); HI IUnit; HI (IKV (Some (11, 110)%Z)); HN 2;
   HL KUnit; HI (IKV (Some (11, 110)%Z)); HL (KBool true); HI IUnit; HI (IBool false); HI IUnit; HI (IKV (Some (6, 60)%Z))].
Proof. vm_compute. reflexivity. Qed.
(** a walk, two keys of which stay throughout *)
Definition strolls : list (list (sk_op Z Z)) := [[KPut 2 20 0]; [KRemove 1; KRemove 2]; [KRemove 3; KRemove 5; KPut 4 40 1]; []; [KTrim 4 100]; []; []]%Z.
Example stroll_met : option_map met (run zstep zstart (map HList (puts [1; 3; 5; 7; 9]%Z) ++ HIter 0 IFirst :: walk 0 strolls)) = Some [(1, 10); (2, 20); (3, 30); (5, 50); (7, 70); (9, 90)]%Z.
Proof. vm_compute. reflexivity. Qed.
Example stroll_there n : has Z.ltb 9%Z (sreach (sk_spec Z.ltb) [] (puts [1; 3; 5; 7; 9]%Z ++ firstn n (concat strolls))) = true.
Proof. do 9 (destruct n as [|n]; [reflexivity|]). reflexivity. Qed.
Example sieve_met : option_map (fun outs => (met outs, last outs (HI IUnit))) (run zstep zstart (map HList (puts [4; 2; 6; 8]%Z) ++ HIter 0 IFirst ::
  walk 0 (map (fun e => if (4 <=? fst e)%Z then [KRemove (fst e)] else []) (sreach (sk_spec Z.ltb) [] (puts [4; 2; 6; 8]%Z))) ++ [HList KSlice])) =
  Some ([(2, 20); (4, 40); (6, 60); (8, 80)]%Z, HL (KSeen [(2, 20)%Z])).
Proof. vm_compute. reflexivity. Qed.
Example stays_there n : has Z.ltb 6%Z (sreach (sk_spec Z.ltb) [] (puts [4; 6]%Z ++ firstn n [KPut 5 50 1; KRemove 4; KSet 6 66 0]%Z)) = true.
Proof. do 3 (destruct n as [|n]; [reflexivity|]). destruct n; reflexivity. Qed.
