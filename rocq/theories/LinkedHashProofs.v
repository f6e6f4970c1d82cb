From Verif Require Import Base Bind Machine DLL DLLSeg GoMap LinkedHashSpec LinkedHashModel.

Section P.
  Context {K V : Type} (keq : K -> K -> bool) (nilk : K) (nilv : V).
  Hypothesis Hk : forall a b, keq a b = true <-> a = b.
  Notation lhm := (lhm (K:=K) (V:=V)).
  Notation kv := (K * V)%type.

  Definition indexed (i : gmap K ptr) (L : list (nat * kv)) : Prop :=
    NoDup (keys_of i) /\ NoDup (map (fun x => fst (snd x)) L) /\
    forall k q, gm_get keq i k = Some q <-> exists a v, q = Some a /\ In (a, (k, v)) L.

  Definition RelL (m : lhm) (L : list (nat * kv)) : Prop :=
    exists ah vh at_ vt, head m = Some ah /\ tail m = Some at_ /\
      NoDup (map fst ((ah, vh) :: L ++ [(at_, vt)])) /\
      chain (hp m) None ((ah, vh) :: L ++ [(at_, vt)]) None /\ indexed (idx m) L.
  Definition Rel (m : lhm) (l : list kv) : Prop := exists L, RelL m L /\ map snd L = l.

  Lemma new_rel : exists m, new nilk nilv = Some m /\ Rel m [].
  Proof.
    eexists; split; [reflexivity|]. exists []. split; [|reflexivity]. exists 0, (nilk, nilv), 1, (nilk, nilv). repeat split; simpl; auto.
    - repeat constructor; simpl; intuition discriminate.
    - constructor.
    - constructor.
    - discriminate.
    - intros (a & v & _ & []).
  Qed.

  (** ** the index *)
  Lemma find_present i L k q : indexed i L -> gm_get keq i k = Some q ->
    exists L1 a v L2, q = Some a /\ L = L1 ++ (a, (k, v)) :: L2.
  Proof.
    intros (_ & _ & H) E. apply H in E as (a & v & -> & Hin). apply in_split in Hin as (L1 & L2 & EL). eauto 10.
  Qed.
  Lemma find_absent i L k : indexed i L -> gm_get keq i k = None -> ~ In k (map fst (map snd L)).
  Proof.
    intros (_ & _ & H) E Hin. rewrite map_map in Hin. apply in_map_iff in Hin as ([a [k' v]] & Ek & Hin).
    simpl in Ek. subst k'. assert (gm_get keq i k = Some (Some a)) by (apply H; eauto). congruence.
  Qed.

  Lemma has_absent (l : list kv) k : ~ In k (map fst l) -> has keq l k = false.
  Proof using Hk.
    intros H. unfold has. apply not_true_iff_false. rewrite existsb_exists. intros ([k' v] & Hin & E).
    apply Hk in E. apply H. apply in_map_iff. exists (k', v). auto.
  Qed.
  Lemma without_absent (l : list kv) k : ~ In k (map fst l) -> without keq l k = l.
  Proof using Hk.
    induction l as [|[k' v] l IH]; intros H; [reflexivity|]. simpl in *. rewrite keq_neq by (try assumption; tauto).
    simpl. f_equal. apply IH. tauto.
  Qed.
  Lemma lookup_absent (l : list kv) k : ~ In k (map fst l) -> lookup keq l k = None.
  Proof using Hk.
    unfold lookup. induction l as [|[k' v] l IH]; intros H; [reflexivity|]. simpl in *.
    rewrite keq_neq by (try assumption; tauto). apply IH. tauto.
  Qed.
  Lemma updated_absent (l : list kv) k v : ~ In k (map fst l) -> updated keq l k v = l.
  Proof using Hk.
    induction l as [|[k' v'] l IH]; intros H; [reflexivity|]. simpl in *.
    rewrite keq_neq by (try assumption; tauto). f_equal. apply IH. tauto.
  Qed.
  Section Present.
    Variables (l1 l2 : list kv) (k : K) (v : V).
    Hypothesis Hn : NoDup (map fst (l1 ++ (k, v) :: l2)).
    Lemma not_in_l1 : ~ In k (map fst l1).
    Proof using Hn. rewrite map_app in Hn. apply NoDup_remove_2 in Hn. rewrite in_app_iff in Hn. tauto. Qed.
    Lemma not_in_l2 : ~ In k (map fst l2).
    Proof using Hn. rewrite map_app in Hn. apply NoDup_remove_2 in Hn. rewrite in_app_iff in Hn. tauto. Qed.
    Lemma has_present : has keq (l1 ++ (k, v) :: l2) k = true.
    Proof using Hk. unfold has. apply existsb_exists. exists (k, v). split; [apply in_elt|]. now apply Hk. Qed.
    Lemma lookup_present : lookup keq (l1 ++ (k, v) :: l2) k = Some v.
    Proof using Hk Hn.
      unfold lookup. pose proof not_in_l1 as H. clear Hn. induction l1 as [|[k' v'] l IH]; simpl in *.
      - now rewrite keq_refl.
      - rewrite keq_neq by (try assumption; tauto). apply IH. tauto.
    Qed.
    Lemma without_present : without keq (l1 ++ (k, v) :: l2) k = l1 ++ l2.
    Proof using Hk Hn.
      unfold without. rewrite filter_app. cbn [filter fst]. rewrite keq_refl by assumption. cbn [negb].
      fold (without keq l1 k) (without keq l2 k).
      rewrite (without_absent l1), (without_absent l2); auto using not_in_l1, not_in_l2.
    Qed.
    Lemma updated_present v' : updated keq (l1 ++ (k, v) :: l2) k v' = l1 ++ (k, v') :: l2.
    Proof using Hk Hn.
      unfold updated. rewrite map_app. cbn [map fst]. rewrite keq_refl by assumption.
      fold (updated keq l1 k v') (updated keq l2 k v').
      rewrite (updated_absent l1), (updated_absent l2); auto using not_in_l1, not_in_l2.
    Qed.
  End Present.

  (** changing a value, moving an entry: the index stays right *)
  Lemma indexed_perm i L L' : Permutation L L' -> indexed i L -> indexed i L'.
  Proof.
    intros Hp (H1 & H2 & H3). split; [assumption|]. split.
    - eapply Permutation_NoDup; [apply Permutation_map; exact Hp|assumption].
    - intros k q. rewrite H3. split; intros (a & v & E & Hin); exists a, v; (split; [assumption|]);
        (eapply Permutation_in; [|exact Hin]); [exact Hp|symmetry; exact Hp].
  Qed.
  Lemma indexed_setval i L1 a k v v' L2 : indexed i (L1 ++ (a, (k, v)) :: L2) -> indexed i (L1 ++ (a, (k, v')) :: L2).
  Proof.
    intros (H1 & H2 & H3). split; [assumption|]. split.
    - rewrite map_app in *. exact H2.
    - intros k0 q. rewrite H3.
      split; intros (a0 & v0 & E & Hin); apply in_app_or in Hin as [Hin|[Hin|Hin]].
      + exists a0, v0. split; auto. apply in_or_app; auto.
      + injection Hin as <- <- <-. exists a, v'. split; auto. apply in_elt.
      + exists a0, v0. split; auto. apply in_or_app; right; right; auto.
      + exists a0, v0. split; auto. apply in_or_app; auto.
      + injection Hin as <- <- <-. exists a, v. split; auto. apply in_elt.
      + exists a0, v0. split; auto. apply in_or_app; right; right; auto.
  Qed.
  Lemma indexed_add i L k v a : indexed i L -> ~ In k (map fst (map snd L)) ->
    indexed (gm_set keq i k (Some a)) ((a, (k, v)) :: L).
  Proof using Hk.
    intros (H1 & H2 & H3) Hni. rewrite map_map in Hni. split; [now apply gm_set_nodup|]. split.
    - cbn [map snd fst]. constructor; assumption.
    - intros k' q. rewrite gm_get_set by assumption. destruct (keq_spec keq Hk k k') as [<-|Hne].
      + split.
        * intros [= <-]. exists a, v. split; [reflexivity|left; reflexivity].
        * intros (a' & v' & -> & [Hin|Hin]); [congruence|].
          exfalso. apply Hni. apply in_map_iff. exists (a', (k, v')). auto.
      + rewrite H3. split; intros (a' & v' & -> & Hin); exists a', v'; (split; [reflexivity|]).
        * right; assumption.
        * destruct Hin as [Hin|Hin]; [congruence|assumption].
  Qed.
  Lemma indexed_del i L1 a k v L2 : indexed i (L1 ++ (a, (k, v)) :: L2) -> indexed (gm_del keq i k) (L1 ++ L2).
  Proof using Hk.
    intros (H1 & H2 & H3). split; [now apply gm_del_nodup|].
    assert (Hn : NoDup (map (fun x => fst (snd x)) ((a, (k, v)) :: L1 ++ L2))).
    { eapply Permutation_NoDup; [|exact H2]. apply Permutation_map. symmetry. apply Permutation_middle. }
    cbn [map snd fst] in Hn. apply NoDup_cons_iff in Hn as [Hni Hn]. split; [assumption|].
    intros k' q. rewrite gm_get_del by assumption. destruct (keq_spec keq Hk k k') as [<-|Hne].
    - split; [discriminate|]. intros (a' & v' & -> & Hin). exfalso. apply Hni.
      apply in_map_iff. exists (a', (k, v')). auto.
    - rewrite H3. split; intros (a' & v' & -> & Hin); exists a', v'; (split; [reflexivity|]); rewrite in_app_iff in *.
      + destruct Hin as [?|[[= ]|?]]; subst; tauto.
      + simpl. tauto.
  Qed.
  Lemma indexed_len i L : indexed i L -> gm_len i = length L.
  Proof using Hk.
    intros (H1 & H2 & H3). unfold gm_len. rewrite <- (map_length fst i).
    rewrite <- (map_length (fun x => fst (snd x)) L). apply Permutation_length.
    apply NoDup_Permutation; [assumption|assumption|]. intros k. change (map fst i) with (keys_of i); rewrite <- (gm_get_keys keq Hk). split.
    - intros H. destruct (gm_get keq i k) as [q|] eqn:E; [|congruence]. apply H3 in E as (a & v & -> & Hin).
      apply in_map_iff. exists (a, (k, v)); auto.
    - intros H. apply in_map_iff in H as ([a [k' v]] & <- & Hin). simpl.
      assert (E : gm_get keq i k' = Some (Some a)) by (apply H3; eauto). congruence.
  Qed.

  (** ** chain surgery *)
  (** ** reading *)
  Lemma walk_ok {X} (g : kv -> X) h at_ vt : forall L p fuel, ~ In at_ (map fst L) -> length L <= fuel ->
    chain h p (L ++ [(at_, vt)]) None ->
    walk g fuel h (hd_ptr L (Some at_)) (Some at_) = Some (map g (map snd L)).
  Proof.
    induction L as [|[a v] L IH]; intros p fuel Hni Hf Hc.
    - cbn [hd_ptr]. destruct fuel; simpl; rewrite Nat.eqb_refl; reflexivity.
    - destruct fuel as [|fuel]; simpl in Hf; [lia|]. cbn [hd_ptr walk ptr_eqb].
      simpl in Hni. destruct (Nat.eqb_spec a at_); [tauto|].
      destruct Hc as [Ha Hc]. cbn [deref]. rewrite Ha. cbn [nnext nval].
      rewrite hd_ptr_app. cbn [hd_ptr]. rewrite (IH (Some a) fuel); [reflexivity|tauto|lia|assumption].
  Qed.
  Lemma nodup_bound (l : list nat) n : NoDup l -> (forall x, In x l -> x < n) -> length l <= n.
  Proof.
    intros H1 H2. rewrite <- (seq_length n 0). apply NoDup_incl_length; [assumption|].
    intros x Hx. apply in_seq. specialize (H2 x Hx). lia.
  Qed.
  Lemma walk_all_ok {X} (g : kv -> X) m l : Rel m l -> walk_all g m = Some (map g l).
  Proof.
    intros (L & (ah & vh & at_ & vt & Eh & Et & Hn & Hc & Hi) & <-). unfold walk_all. rewrite Eh, Et.
    pose proof Hc as Hc'. destruct Hc as [Ha Hc]. unfold get_next. cbn [deref]. rewrite Ha. cbn [nnext].
    rewrite hd_ptr_app. cbn [hd_ptr]. eapply walk_ok; [| |exact Hc].
    - cbn [map fst] in Hn. apply NoDup_cons_iff in Hn as [_ Hn]. rewrite map_app in Hn.
      apply NoDup_remove_2 in Hn. now rewrite app_nil_r in Hn.
    - rewrite <- (map_length fst L). apply nodup_bound.
      + cbn [map fst] in Hn. apply NoDup_cons_iff in Hn as [_ Hn]. rewrite map_app in Hn.
        apply NoDup_app_iff in Hn. tauto.
      + intros x Hx. apply chain_lt in Hc. rewrite Forall_forall in Hc.
        apply in_map_iff in Hx as ([a v] & <- & Hin). apply (Hc (a, v)). apply in_or_app; auto.
  Qed.

  (** ** the operations *)
  Lemma append_tail_ok m l k v : Rel m l -> ~ In k (map fst l) ->
    exists m', append_tail keq nilk nilv m k v = Some m' /\ Rel m' (l ++ [(k, v)]).
  Proof using Hk.
    intros (L & (ah & vh & at_ & vt & Eh & Et & Hn & Hc & Hi) & <-) Hni. unfold append_tail. cbn [alloc].
    rewrite Et. set (nw := length (hp m)).
    change ((ah, vh) :: L ++ [(at_, vt)]) with (((ah, vh) :: L) ++ [(at_, vt)]) in *.
    pose proof (disj_new (hp m) _ _ _ (nilk, nilv) Hc) as Hd.
    assert (Hnew : chain (hp m ++ [zero_node nilk nilv]) None [(nw, (nilk, nilv))] None) by apply seg_new.
    apply (chain_alloc _ (zero_node nilk nilv)) in Hc.
    destruct (seg_set_val _ _ _ _ _ [] _ (k, v) Hn Hc) as (h1 & E1 & El1 & Hc1 & Hf1). rewrite E1.
    assert (Hnx : ~ In at_ (map fst [(nw, (nilk, nilv))])).
    { intros Hin. apply (Hd at_); [|exact Hin]. rewrite map_app. apply in_or_app; right; left; reflexivity. }
    apply (Hf1 _ _ _ Hnx) in Hnew. clear Hf1 Hnx Hc.
    set (S1 := ((ah, vh) :: L) ++ [(at_, (k, v))]) in *.
    assert (HnS : NoDup (map fst S1)) by (unfold S1; rewrite map_app in *; exact Hn).
    assert (HdS : disj S1 [(nw, (nilk, nilv))]).
    { intros b. unfold S1. rewrite map_app. specialize (Hd b). rewrite map_app in Hd. exact Hd. }
    assert (HnN : NoDup (map fst [(nw, (nilk, nilv))])) by (repeat constructor; easy).
    assert (El : last_ptr None S1 = Some at_) by apply last_ptr_snoc.
    assert (HS : S1 <> []) by discriminate.
    seg_prev Hnew (Some at_). rewrite E.
    seg_next Hc1 (Some nw). rewrite El in E0. rewrite E0. eexists; split; [reflexivity|].
    exists (L ++ [(at_, (k, v))]). split; [|rewrite map_app; reflexivity].
    exists ah, vh, nw, (nilk, nilv). cbn [head tail hp idx].
    change ((ah, vh) :: (L ++ [(at_, (k, v))]) ++ [(nw, (nilk, nilv))]) with (S1 ++ [(nw, (nilk, nilv))]).
    split; [assumption|]. split; [reflexivity|].
    split; [apply nodup_disj; auto|]. split.
    - apply chain_app. rewrite El. split; assumption.
    - eapply indexed_perm; [|apply indexed_add; eassumption]. apply Permutation_cons_append.
  Qed.
  Lemma append_head_ok m l k v : Rel m l -> ~ In k (map fst l) ->
    exists m', append_head keq nilk nilv m k v = Some m' /\ Rel m' ((k, v) :: l).
  Proof using Hk.
    intros (L & (ah & vh & at_ & vt & Eh & Et & Hn & Hc & Hi) & <-) Hni. unfold append_head. cbn [alloc].
    rewrite Eh. set (nw := length (hp m)).
    pose proof (disj_new (hp m) _ _ _ (nilk, nilv) Hc) as Hd.
    assert (Hnew : chain (hp m ++ [zero_node nilk nilv]) None [(nw, (nilk, nilv))] None) by apply seg_new.
    apply (chain_alloc _ (zero_node nilk nilv)) in Hc.
    destruct (seg_set_val _ _ [] _ _ (L ++ [(at_, vt)]) _ (k, v) Hn Hc) as (h1 & E1 & El1 & Hc1 & Hf1). rewrite E1.
    assert (Hnx : ~ In ah (map fst [(nw, (nilk, nilv))])).
    { intros Hin. apply (Hd ah); [|exact Hin]. left; reflexivity. }
    apply (Hf1 _ _ _ Hnx) in Hnew. clear Hf1 Hnx Hc. cbn [app] in Hc1.
    set (S1 := (ah, (k, v)) :: L ++ [(at_, vt)]) in *.
    assert (HnS : NoDup (map fst S1)) by exact Hn.
    assert (HdS : disj S1 [(nw, (nilk, nilv))]) by exact Hd.
    assert (HnN : NoDup (map fst [(nw, (nilk, nilv))])) by (repeat constructor; easy).
    assert (HS : S1 <> []) by discriminate.
    seg_next Hnew (Some ah). rewrite E.
    seg_prev Hc1 (Some nw). change (hd_ptr S1 None) with (Some ah) in E0. rewrite E0. eexists; split; [reflexivity|].
    exists ((ah, (k, v)) :: L). split; [|reflexivity]. exists nw, (nilk, nilv), at_, vt. cbn [head tail hp idx].
    change ((nw, (nilk, nilv)) :: ((ah, (k, v)) :: L) ++ [(at_, vt)]) with ([(nw, (nilk, nilv))] ++ S1).
    split; [reflexivity|]. split; [assumption|].
    split; [apply nodup_disj; auto using disj_sym|]. split.
    - apply chain_app. split; assumption.
    - apply indexed_add; assumption.
  Qed.

  Lemma set_value_val h a q nd (v : V) : deref h q = Some nd -> q = Some a ->
    set_value (K:=K) h q v = set_val h (Some a) (fst (nval nd), v).
  Proof. intros E ->. unfold set_value. now rewrite E. Qed.

  Lemma rel_nodup m L : RelL m L -> NoDup (map fst (map snd L)).
  Proof. intros (ah & vh & at_ & vt & _ & _ & _ & _ & _ & H & _). rewrite map_map. exact H. Qed.

  (** writing a value in place *)
  Lemma write_ok m L k q v : RelL m L -> gm_get keq (idx m) k = Some q ->
    exists L1 a v0 L2 h', q = Some a /\ L = L1 ++ (a, (k, v0)) :: L2 /\ set_val (hp m) q (k, v) = Some h' /\
      set_value (hp m) q v = Some h' /\ (exists nd, deref (hp m) q = Some nd /\ snd (nval nd) = v0) /\
      RelL (LHM h' (head m) (tail m) (idx m)) (L1 ++ (a, (k, v)) :: L2).
  Proof.
    intros (ah & vh & at_ & vt & Eh & Et & Hn & Hc & Hi) Eq.
    destruct (find_present _ _ _ _ Hi Eq) as (L1 & a & v0 & L2 & -> & ->).
    rewrite <- app_assoc in *. cbn [app] in *.
    change ((ah, vh) :: L1 ++ (a, (k, v0)) :: L2 ++ [(at_, vt)])
      with (((ah, vh) :: L1) ++ (a, (k, v0)) :: (L2 ++ [(at_, vt)])) in *.
    pose proof (chain_node _ _ _ _ _ _ _ Hc) as Ha.
    destruct (seg_set_val _ _ _ _ _ _ _ (k, v) Hn Hc) as (h1 & E1 & El1 & Hc1 & Hf1).
    exists L1, a, v0, L2, h1. do 2 (split; [reflexivity|]). split; [assumption|].
    split. { erewrite set_value_val; [|cbn [deref]; exact Ha|reflexivity]. exact E1. }
    split. { eexists; split; [exact Ha|reflexivity]. }
    exists ah, vh, at_, vt. cbn [head tail hp idx]. do 2 (split; [assumption|]).
    rewrite <- app_assoc. cbn [app].
    change ((ah, vh) :: L1 ++ (a, (k, v)) :: L2 ++ [(at_, vt)])
      with (((ah, vh) :: L1) ++ (a, (k, v)) :: (L2 ++ [(at_, vt)])) in *.
    split; [rewrite map_app in *; exact Hn|]. split; [assumption|]. eapply indexed_setval; eassumption.
  Qed.

  Lemma nodup_parts (L1 L2 : list (nat * kv)) ah vh a v at_ vt :
    NoDup (map fst ((ah, vh) :: (L1 ++ (a, v) :: L2) ++ [(at_, vt)])) ->
    NoDup (map fst (((ah, vh) :: L1) ++ (a, v) :: (L2 ++ [(at_, vt)]))).
  Proof. rewrite <- app_assoc. exact (fun H => H). Qed.
  Lemma setBack_ok m l k v : Rel m l ->
    exists m', setBack keq nilk nilv m k v = Some (m', has keq l k) /\ Rel m' (without keq l k ++ [(k, v)]).
  Proof using Hk.
    intros HR. unfold setBack. destruct (gm_get keq (idx m) k) as [q|] eqn:Eq.
    - destruct HR as (L & HL & <-). pose proof (rel_nodup _ _ HL) as Hnk.
      destruct (write_ok m L k q v HL Eq) as (L1 & a & v0 & L2 & h1 & -> & -> & _ & -> & _ & HR1).
      rewrite map_app in *. cbn [map snd] in *. rewrite has_present, without_present by assumption.
      pose proof HR1 as HR1'.
      destruct HR1 as (ah & vh & at_ & vt & Eh & Et & Hn & Hc & Hi). cbn [head tail hp idx] in *. rewrite Et.
      assert (Et1 : get_prev h1 (Some at_) = Some (last_ptr (Some a) L2)).
      { change ((ah, vh) :: (L1 ++ (a, (k, v)) :: L2) ++ [(at_, vt)])
          with (((ah, vh) :: (L1 ++ (a, (k, v)) :: L2)) ++ [(at_, vt)]) in Hc.
        apply chain_app in Hc as [_ Hc]. rewrite (get_prev_one h1 _ _ _ _ Hc). f_equal.
        change ((ah, vh) :: L1 ++ (a, (k, v)) :: L2) with (((ah, vh) :: L1) ++ (a, (k, v)) :: L2).
        rewrite last_ptr_app. reflexivity. }
      rewrite Et1. apply nodup_parts in Hn.
      destruct (ptr_eqb_spec (Some a) (last_ptr (Some a) L2)) as [El|El].
      + (* already last *)
        destruct L2 as [|x L2].
        * eexists; split; [reflexivity|]. exists (L1 ++ [(a, (k, v))]).
          split; [rewrite <- Et; exact HR1'|]. rewrite map_app, app_nil_r. reflexivity.
        * exfalso. assert (Hin : In a (map fst (x :: L2))) by (eapply last_ptr_in; [discriminate|symmetry; exact El]).
          apply nodup_disj in Hn as (_ & Hn & _). cbn [map fst] in Hn. apply NoDup_cons_iff in Hn as [Hn _].
          apply Hn. rewrite map_app. apply in_or_app; left. exact Hin.
      + rewrite <- app_assoc in Hc. cbn [app] in Hc.
        change ((ah, vh) :: L1 ++ (a, (k, v)) :: L2 ++ [(at_, vt)])
          with (((ah, vh) :: L1) ++ (a, (k, v)) :: (L2 ++ [(at_, vt)])) in Hc.
        destruct (unlink_ok h1 _ _ _ _ _ _ (cons_ne (ah, vh) L1) (snoc_ne L2 (at_, vt)) Hn Hc)
          as (h2 & h3 & -> & -> & E2 & E3 & Hc3 & Hx). rewrite E2, E3.
        change ((a, (k, v)) :: L2 ++ [(at_, vt)]) with ([(a, (k, v))] ++ (L2 ++ [(at_, vt)])) in Hn.
        apply nodup_disj in Hn as (HnA & Hn & Hd1). apply nodup_disj in Hn as (HnX & Hn & Hd2).
        apply nodup_disj in Hn as (HnB & HnT & Hd3).
        rewrite !disj_app_r in Hd1. destruct Hd1 as (Hd4 & Hd5 & Hd6). apply disj_app_r in Hd2 as (Hd7 & Hd8).
        rewrite app_assoc in Hc3. apply chain_app in Hc3 as [HcP HcT].
        set (P := ((ah, vh) :: L1) ++ L2) in *.
        assert (HP : P <> []) by discriminate.
        assert (HnP : NoDup (map fst P)) by (apply nodup_disj; auto).
        assert (HdPX : disj P [(a, (k, v))]) by (apply disj_app_l; auto using disj_sym).
        assert (HdPT : disj P [(at_, vt)]) by (apply disj_app_l; auto).
        assert (Etp : get_prev h3 (Some at_) = Some (last_ptr None P)).
        { rewrite (get_prev_one h3 _ _ _ _ HcT). reflexivity. }
        rewrite Etp. cbn [hd_ptr] in HcP.
        seg_next HcP (Some a). rewrite E. seg_prev Hx (last_ptr None P). rewrite E0.
        seg_next Hx (Some at_). rewrite E1. seg_prev HcT (Some a). rewrite E4.
        eexists; split; [reflexivity|]. exists (L1 ++ L2 ++ [(a, (k, v))]).
        split; [|rewrite !map_app, app_assoc; reflexivity].
        exists ah, vh, at_, vt. cbn [head tail hp idx]. split; [assumption|]. split; [reflexivity|].
        assert (Ealt : (ah, vh) :: (L1 ++ L2 ++ [(a, (k, v))]) ++ [(at_, vt)] = P ++ [(a, (k, v))] ++ [(at_, vt)]).
        { unfold P. cbn [app]. rewrite <- !app_assoc. reflexivity. }
        rewrite Ealt. split.
        { apply nodup_disj. split; [assumption|]. split; [apply nodup_disj; auto|]. apply disj_app_r; auto. }
        split.
        { apply chain_app. split; [assumption|]. apply chain_app. split; assumption. }
        eapply indexed_perm; [|exact Hi]. apply Permutation_app_head. apply Permutation_cons_append.
    - pose proof HR as (L & HL & <-). pose proof HL as (ah & vh & at_ & vt & _ & _ & _ & _ & Hi).
      pose proof (find_absent _ _ _ Hi Eq) as Hab.
      destruct (append_tail_ok m _ k v HR Hab) as (m' & -> & HR'). rewrite has_absent, without_absent by assumption.
      eauto.
  Qed.

  Lemma setFront_ok m l k v : Rel m l ->
    exists m', setFront keq nilk nilv m k v = Some (m', has keq l k) /\ Rel m' ((k, v) :: without keq l k).
  Proof using Hk.
    intros HR. unfold setFront. destruct (gm_get keq (idx m) k) as [q|] eqn:Eq.
    - destruct HR as (L & HL & <-). pose proof (rel_nodup _ _ HL) as Hnk.
      destruct (write_ok m L k q v HL Eq) as (L1 & a & v0 & L2 & h1 & -> & -> & _ & -> & _ & HR1).
      rewrite map_app in *. cbn [map snd] in *. rewrite has_present, without_present by assumption.
      pose proof HR1 as HR1'.
      destruct HR1 as (ah & vh & at_ & vt & Eh & Et & Hn & Hc & Hi). cbn [head tail hp idx] in *. rewrite Eh.
      assert (Eh1 : get_next h1 (Some ah) = Some (hd_ptr L1 (Some a))).
      { change ((ah, vh) :: (L1 ++ (a, (k, v)) :: L2) ++ [(at_, vt)])
          with ([(ah, vh)] ++ (L1 ++ (a, (k, v)) :: L2) ++ [(at_, vt)]) in Hc.
        apply chain_app in Hc as [Hc _]. rewrite (get_next_one h1 _ _ _ _ Hc). f_equal.
        rewrite !hd_ptr_app. reflexivity. }
      rewrite Eh1. apply nodup_parts in Hn.
      destruct (ptr_eqb_spec (Some a) (hd_ptr L1 (Some a))) as [El|El].
      + destruct L1 as [|x L1].
        * eexists; split; [reflexivity|]. exists ((a, (k, v)) :: L2).
          split; [rewrite <- Eh; exact HR1'|]. reflexivity.
        * exfalso. assert (Hin : In a (map fst (x :: L1))) by (eapply hd_ptr_in; [discriminate|symmetry; exact El]).
          apply nodup_disj in Hn as (_ & _ & Hd). apply (Hd a); [right; exact Hin|left; reflexivity].
      + rewrite <- app_assoc in Hc. cbn [app] in Hc.
        change ((ah, vh) :: L1 ++ (a, (k, v)) :: L2 ++ [(at_, vt)])
          with (((ah, vh) :: L1) ++ (a, (k, v)) :: (L2 ++ [(at_, vt)])) in Hc.
        destruct (unlink_ok h1 _ _ _ _ _ _ (cons_ne (ah, vh) L1) (snoc_ne L2 (at_, vt)) Hn Hc)
          as (h2 & h3 & -> & -> & E2 & E3 & Hc3 & Hx). rewrite E2, E3.
        change ((ah, vh) :: L1) with ([(ah, vh)] ++ L1) in *.
        change ((a, (k, v)) :: L2 ++ [(at_, vt)]) with ([(a, (k, v))] ++ (L2 ++ [(at_, vt)])) in Hn.
        apply nodup_disj in Hn as (HnA & Hn & Hd1). apply nodup_disj in Hn as (HnX & HnB & Hd2).
        apply nodup_disj in HnA as (HnH & HnA & Hd3).
        rewrite !disj_app_r, !disj_app_l in Hd1. destruct Hd1 as ((Hd4 & Hd5) & (Hd6 & Hd7) & (Hd8 & Hd9)).
        rewrite <- app_assoc in Hc3. apply chain_app in Hc3 as [HcH HcQ].
        set (Q := L1 ++ L2 ++ [(at_, vt)]) in *.
        assert (HQ : Q <> []) by (unfold Q; rewrite app_assoc; apply snoc_ne).
        assert (HnQ : NoDup (map fst Q)).
        { apply nodup_disj. split; [assumption|]. split; [assumption|]. apply disj_app_r. auto. }
        assert (HdXQ : disj [(a, (k, v))] Q) by (apply disj_app_r; auto using disj_sym).
        assert (HdHQ : disj [(ah, vh)] Q) by (apply disj_app_r; split; [|apply disj_app_r; split]; assumption).
        assert (Ehn : get_next h3 (Some ah) = Some (hd_ptr Q None)).
        { rewrite (get_next_one h3 _ _ _ _ HcH). reflexivity. }
        rewrite Ehn.
        seg_prev HcQ (Some a). rewrite E. seg_next Hx (hd_ptr Q None). rewrite E0.
        seg_prev Hx (Some ah). rewrite E1. seg_next HcH (Some a). rewrite E4.
        eexists; split; [reflexivity|]. exists ((a, (k, v)) :: L1 ++ L2).
        split; [|cbn [map snd]; rewrite !map_app; reflexivity].
        exists ah, vh, at_, vt. cbn [head tail hp idx]. split; [reflexivity|]. split; [assumption|].
        assert (Ealt : (ah, vh) :: ((a, (k, v)) :: L1 ++ L2) ++ [(at_, vt)] = [(ah, vh)] ++ [(a, (k, v))] ++ Q).
        { unfold Q. cbn [app]. rewrite <- !app_assoc. reflexivity. }
        rewrite Ealt. split.
        { apply nodup_disj. split; [assumption|]. split; [apply nodup_disj; auto|]. apply disj_app_r; auto. }
        split.
        { apply chain_app. split; [assumption|]. apply chain_app. split; assumption. }
        eapply indexed_perm; [|exact Hi]. symmetry. apply Permutation_middle.
    - pose proof HR as (L & HL & <-). pose proof HL as (ah & vh & at_ & vt & _ & _ & _ & _ & Hi).
      pose proof (find_absent _ _ _ Hi Eq) as Hab.
      destruct (append_head_ok m _ k v HR Hab) as (m' & -> & HR'). rewrite has_absent, without_absent by assumption.
      eauto.
  Qed.

  Lemma present_or m l k : Rel m l ->
    (exists q, gm_get keq (idx m) k = Some q /\ has keq l k = true) \/
    (gm_get keq (idx m) k = None /\ ~ In k (map fst l)).
  Proof using Hk.
    intros (L & HL & <-). pose proof HL as (ah & vh & at_ & vt & _ & _ & _ & _ & Hi).
    destruct (gm_get keq (idx m) k) as [q|] eqn:Eq; [left|right].
    - destruct (find_present _ _ _ _ Hi Eq) as (L1 & a & v1 & L2 & -> & ->). exists (Some a). split; [reflexivity|].
      rewrite map_app. cbn [map snd]. apply has_present.
    - split; [reflexivity|]. eapply find_absent; eassumption.
  Qed.
  Lemma pushBack_ok m l k v : Rel m l -> exists m',
    pushBack keq nilk nilv m k v = Some (m', negb (has keq l k)) /\
    Rel m' (if has keq l k then l else l ++ [(k, v)]).
  Proof using Hk.
    intros HR. unfold pushBack. destruct (present_or m l k HR) as [(q & -> & ->)|(-> & Hab)]; [eauto|].
    rewrite has_absent by assumption. destruct (append_tail_ok m l k v HR Hab) as (m' & -> & HR'). eauto.
  Qed.
  Lemma pushFront_ok m l k v : Rel m l -> exists m',
    pushFront keq nilk nilv m k v = Some (m', negb (has keq l k)) /\
    Rel m' (if has keq l k then l else (k, v) :: l).
  Proof using Hk.
    intros HR. unfold pushFront. destruct (present_or m l k HR) as [(q & -> & ->)|(-> & Hab)]; [eauto|].
    rewrite has_absent by assumption. destruct (append_head_ok m l k v HR Hab) as (m' & -> & HR'). eauto.
  Qed.
  Lemma get_ok m l k : Rel m l -> get keq m k = Some (lookup keq l k).
  Proof using Hk.
    intros HR. unfold get. destruct (present_or m l k HR) as [(q & E & _)|(-> & Hab)].
    - rewrite E. destruct HR as (L & HL & <-).
      destruct (gm_get keq (idx m) k) as [q'|] eqn:Eq; [|discriminate]. injection E as ->.
      pose proof (rel_nodup _ _ HL) as Hnk. destruct HL as (ah & vh & at_ & vt & Eh & Et & Hn & Hc & Hi).
      destruct (find_present _ _ _ _ Hi Eq) as (L1 & a & v0 & L2 & -> & ->).
      rewrite <- app_assoc in Hc. cbn [app] in Hc.
      change ((ah, vh) :: L1 ++ (a, (k, v0)) :: L2 ++ [(at_, vt)])
        with (((ah, vh) :: L1) ++ (a, (k, v0)) :: (L2 ++ [(at_, vt)])) in *.
      pose proof (chain_node _ _ _ _ _ _ _ Hc) as Ha. cbn [deref]. rewrite Ha. cbn [nval snd].
      rewrite map_app in *. cbn [map snd] in *. rewrite lookup_present by assumption. reflexivity.
    - rewrite lookup_absent by assumption. reflexivity.
  Qed.
  Lemma set_upd m l k v q : Rel m l -> gm_get keq (idx m) k = Some q ->
    exists h1, set_val (hp m) q (k, v) = Some h1 /\ Rel (LHM h1 (head m) (tail m) (idx m)) (updated keq l k v).
  Proof using Hk.
    intros (L & HL & <-) Eq. pose proof (rel_nodup _ _ HL) as Hnk.
    destruct (write_ok m L k q v HL Eq) as (L1 & a & v0 & L2 & h1 & -> & -> & E & _ & _ & HR1).
    exists h1. split; [assumption|]. exists (L1 ++ (a, (k, v)) :: L2). split; [assumption|].
    rewrite !map_app. rewrite map_app in Hnk. cbn [map snd] in *. rewrite updated_present by assumption. reflexivity.
  Qed.
  Lemma set_ok m l k v : Rel m l -> exists m',
    set keq m k v = Some (m', has keq l k) /\ Rel m' (updated keq l k v).
  Proof using Hk.
    intros HR. unfold set. destruct (present_or m l k HR) as [(q & E & Eh)|(-> & Hab)].
    - rewrite E, Eh. destruct (set_upd m l k v q HR E) as (h1 & -> & HR'). eauto.
    - rewrite has_absent, updated_absent by assumption. eauto.
  Qed.
  Lemma upsert_ok m l k v : Rel m l -> exists m',
    upsert keq nilk nilv m k v = Some (m', has keq l k) /\
    Rel m' (if has keq l k then updated keq l k v else l ++ [(k, v)]).
  Proof using Hk.
    intros HR. unfold upsert, put. destruct (present_or m l k HR) as [(q & E & Eh)|(E & Hab)].
    - rewrite E, Eh. destruct (set_upd m l k v q HR E) as (h1 & -> & HR'). eauto.
    - rewrite E. destruct (pushBack_ok m l k v HR) as (m' & -> & HR'). rewrite has_absent in * by assumption. eauto.
  Qed.
  Lemma remove_ok m l k : Rel m l -> exists m',
    remove keq m k = Some (m', lookup keq l k) /\ Rel m' (without keq l k).
  Proof using Hk.
    intros HR. unfold remove. destruct (present_or m l k HR) as [(q & E & Eh)|(-> & Hab)].
    - rewrite E. destruct HR as (L & HL & <-). pose proof (rel_nodup _ _ HL) as Hnk.
      destruct HL as (ah & vh & at_ & vt & Ehd & Et & Hn & Hc & Hi).
      destruct (find_present _ _ _ _ Hi E) as (L1 & a & v0 & L2 & -> & ->).
      apply nodup_parts in Hn. rewrite <- app_assoc in Hc. cbn [app] in Hc.
      change ((ah, vh) :: L1 ++ (a, (k, v0)) :: L2 ++ [(at_, vt)])
        with (((ah, vh) :: L1) ++ (a, (k, v0)) :: (L2 ++ [(at_, vt)])) in *.
      unfold unlink.
      destruct (unlink_ok _ _ _ _ _ _ _ (cons_ne (ah, vh) L1) (snoc_ne L2 (at_, vt)) Hn Hc)
        as (h2 & h3 & -> & -> & E2 & E3 & Hc3 & Hx). rewrite E2, E3.
      apply chain_one in Hx. cbn [deref]. rewrite Hx. cbn [nval snd].
      rewrite map_app in Hnk |- *. cbn [map snd] in Hnk |- *. rewrite lookup_present, without_present by assumption.
      eexists; split; [reflexivity|]. exists (L1 ++ L2). split; [|apply map_app].
      exists ah, vh, at_, vt. cbn [head tail hp idx]. do 2 (split; [assumption|]).
      rewrite <- app_assoc. split.
      { rewrite map_app in Hn. cbn [map fst] in Hn. apply NoDup_remove_1 in Hn.
        cbn [map fst]. rewrite map_app. exact Hn. }
      split; [exact Hc3|]. eapply indexed_del; eassumption.
    - rewrite lookup_absent, without_absent by assumption. eauto.
  Qed.
  Lemma clear_ok m l : Rel m l -> exists m', clear nilk nilv m = Some m' /\ Rel m' [].
  Proof.
    intros (L & (ah & vh & at_ & vt & Eh & Et & Hn & Hc & Hi) & <-). unfold clear. rewrite Eh, Et.
    change ((ah, vh) :: L ++ [(at_, vt)]) with ([(ah, vh)] ++ L ++ [(at_, vt)]) in *.
    apply nodup_disj in Hn as (HnH & HnB & Hd1). apply disj_app_r in Hd1 as [Hd1 Hd2].
    apply nodup_disj in HnB as (HnL & HnT & Hd3).
    apply chain_app in Hc as [HcH Hc]. apply chain_app in Hc as [_ HcT].
    assert (Hne : ah <> at_) by (intros ->; apply (Hd2 at_); left; reflexivity).
    destruct (seg_set_val _ _ [] ah vh [] _ (nilk, nilv) HnH HcH) as (h1 & -> & _ & HcH1 & Hf1).
    apply Hf1 in HcT; [|simpl; intuition congruence]. clear Hf1 HcH Hd1 Hd3. cbn [app] in HcH1.
    assert (HnH' : NoDup (map fst [(ah, (nilk, nilv))])) by exact HnH.
    assert (HdHT : disj [(ah, (nilk, nilv))] [(at_, vt)]) by exact Hd2.
    seg_prev HcH1 (@None nat). rewrite E.
    destruct (seg_set_val _ _ [] at_ vt [] _ (nilk, nilv) HnT HcT) as (h2 & -> & _ & HcT1 & Hf1).
    apply Hf1 in HcH1; [|simpl; intuition congruence]. clear Hf1 HcT. cbn [app] in HcT1.
    assert (HnT' : NoDup (map fst [(at_, (nilk, nilv))])) by exact HnT.
    assert (HdHT' : disj [(ah, (nilk, nilv))] [(at_, (nilk, nilv))]) by exact Hd2.
    seg_next HcT1 (@None nat). rewrite E0.
    seg_next HcH1 (Some at_). rewrite E1.
    seg_prev HcT1 (Some ah). rewrite E2.
    eexists; split; [reflexivity|]. exists []. split; [|reflexivity].
    exists ah, (nilk, nilv), at_, (nilk, nilv). cbn [head tail hp idx]. do 2 (split; [reflexivity|]).
    cbn [app].
    change [(ah, (nilk, nilv)); (at_, (nilk, nilv))] with ([(ah, (nilk, nilv))] ++ [(at_, (nilk, nilv))]).
    split; [apply nodup_disj; auto|]. split; [apply chain_app; split; assumption|].
    repeat split; try constructor; try discriminate. intros (a & v & _ & []).
  Qed.
  Lemma size_ok m l : Rel m l -> size m = length l.
  Proof using Hk.
    intros (L & (ah & vh & at_ & vt & Eh & Et & Hn & Hc & Hi) & <-). unfold size.
    rewrite (indexed_len _ _ Hi), map_length. reflexivity.
  Qed.

  Lemma step_ok m l o : Rel m l ->
    exists m', step keq nilk nilv m o = Some (m', snd (lh_spec keq l o)) /\ Rel m' (fst (lh_spec keq l o)).
  Proof using Hk.
    intros HR. destruct o; simpl; unfold put, insertIfAbsent, put, delete.
    - destruct (setBack_ok m l k v HR) as (m' & -> & HR'). eauto.
    - destruct (setFront_ok m l k v HR) as (m' & -> & HR'). eauto.
    - destruct (pushBack_ok m l k v HR) as (m' & -> & HR'). destruct (has keq l k); eauto.
    - destruct (pushBack_ok m l k v HR) as (m' & -> & HR'). destruct (has keq l k); eauto.
    - destruct (pushBack_ok m l k v HR) as (m' & -> & HR'). destruct (has keq l k); eauto.
    - destruct (pushFront_ok m l k v HR) as (m' & -> & HR'). destruct (has keq l k); eauto.
    - rewrite (get_ok m l k HR). eauto.
    - destruct (set_ok m l k v HR) as (m' & -> & HR'). eauto.
    - destruct (upsert_ok m l k v HR) as (m' & -> & HR'). eauto.
    - destruct (clear_ok m l HR) as (m' & -> & HR'). eauto.
    - destruct (remove_ok m l k HR) as (m' & -> & HR'). eauto.
    - destruct (remove_ok m l k HR) as (m' & -> & HR'). eauto.
    - pose proof (size_ok m l HR) as E. unfold empty, size in *. rewrite E. destruct l; eauto.
    - rewrite (size_ok m l HR). eauto.
    - rewrite (size_ok m l HR). eauto.
    - unfold keys. rewrite (walk_all_ok fst m l HR). eauto.
    - unfold values. rewrite (walk_all_ok snd m l HR). eauto.
    - unfold slices. rewrite (walk_all_ok (fun e => e) m l HR), map_id. eauto.
  Qed.

  (** the index and the chain agree: the keys of the index are the keys of the chain, and each is mapped to its node *)
  Lemma keys_distinct m l : Rel m l -> NoDup (map fst l).
  Proof. intros (L & HL & <-). apply (rel_nodup _ _ HL). Qed.
End P.
